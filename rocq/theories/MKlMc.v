(** Model of [kl_mc], gpry/tools.py:39-63, over the real numbers. Definitions only. *)
From Coq Require Export Reals List.
From Verif Require Export Num.
Open Scope R_scope.

(** Values of log-densities, and of sums of them. *)
Inductive ereal := Fin (r : R) | PInf | NInf | ENaN.
Definition efinite (e : ereal) : bool := match e with Fin _ => true | _ => false end.
Definition eneg (e : ereal) : ereal := match e with Fin r => Fin (- r) | PInf => NInf | NInf => PInf | ENaN => ENaN end.
Definition eadd (a b : ereal) : ereal :=
  match a, b with
  | ENaN, _ | _, ENaN | PInf, NInf | NInf, PInf => ENaN
  | Fin r, Fin s => Fin (r + s)
  | PInf, _ | _, PInf => PInf
  | NInf, _ | _, NInf => NInf
  end.
Definition esign (r : R) : comparison := if Rlt_dec 0 r then Gt else if Rlt_dec r 0 then Lt else Eq.
Definition escale (w : R) (e : ereal) : ereal :=
  match e with
  | Fin r => Fin (w * r)
  | ENaN => ENaN
  | _ => match esign w with Eq => ENaN | Gt => e | Lt => eneg e end
  end.
(** Division by a number; 0 has no sign here. *)
Definition ediv (e : ereal) (t : R) : ereal :=
  match esign t, e with
  | _, ENaN => ENaN
  | Eq, Fin r => match esign r with Eq => ENaN | Gt => PInf | Lt => NInf end
  | Eq, _ | Gt, PInf | Gt, NInf => e
  | Lt, PInf | Lt, NInf => eneg e
  | _, Fin r => Fin (r / t)
  end.
Definition esum (l : list ereal) : ereal := fold_right eadd (Fin 0) l.
Definition rsum (l : list R) : R := fold_right Rplus 0 l.

(** [a[mask]]: the mask has to be as long as the array. *)
Fixpoint masked {A} (mask : list bool) (l : list A) : res (list A) :=
  match mask, l with
  | [], [] => Ok []
  | b :: mask, x :: l => do r <- masked mask l; Ok (if b then x :: r else r)
  | _, _ => Err IndexError
  end.
(** The functions are given points one by one (they are vectorised in the code). *)
Definition kl_mc {A} (X : list A) (logq_func : A -> ereal) (logp : option (list ereal)) (logp_func : option (A -> ereal)) (weight : option (list R)) : res ereal :=
  do logp <- match logp, logp_func with
             | Some l, _ => Ok l
             | None, Some f => Ok (map f X)
             | None, None => Err ValueError
             end;
  let mask := map efinite logp in
  do lp <- masked mask logp;
  do x <- masked mask X;
  let lq := map logq_func x in
  do wt <- match weight with
           | None => Ok (repeat 1 (length lp), INR (length lp))
           | Some w => do w <- masked mask w; Ok (w, rsum w)
           end;
  let '(w, total) := wt in
  let diff := map (fun pq => eadd (fst pq) (eneg (snd pq))) (combine lp lq) in
  Ok (ediv (esum (map (fun we => escale (fst we) (snd we)) (combine w diff))) total).

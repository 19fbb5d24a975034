(** Model of [update_trust_region], gpry/gpr.py:554-575. Definitions only. *)
From Verif Require Export MTools.

Section Trust.
(** [delta_logp_of_1d_nstd(n, d)] for the dimension [d] of the problem, as a function of [n]. *)
Variable delta : num -> num.
(** [max(self.y_train)] *)
Definition top (y : list num) : num := match y with [] => NaN | a :: l => fold_left pymax l a end.
(** Lines 568-571: [X_train[np.where(max(y_train) - y_train < delta)]]. *)
Definition select (X : list (list num)) (y : list num) (n : num) : list (list num) :=
  mask (map (fun v => nltb (nsub (top y) v) (delta n)) y) X.
(** Lines 567-572: the loop, with what it starts from. *)
Fixpoint widen (fuel need : nat) (X : list (list num)) (y : list num) (cur : list (list num)) (n : num) : res (list (list num)) :=
  if length cur <? need then
    match fuel with
    | 0 => Err OutOfFuel
    | S fuel => widen fuel need X y (select X y n) (nadd n (nq 1 10))
    end
  else Ok cur.
(** Lines 562-572: the points used. *)
Definition used (fuel d : nat) (nstd : option num) (X : list (list num)) (y : list num) : res (list (list num)) :=
  match nstd with
  | None => Ok X
  | Some n => widen fuel (Nat.min d (length y)) X y [] n
  end.
(** The whole method: the new [trust_bounds]; None: not changed. [bounds]: the array of the prior bounds. *)
Definition update_trust_region (fuel d : nat) (factor nstd : option num) (bounds : arr) (X : list (list num)) (y : list num)
    : res (option (list (num * num))) :=
  match factor with
  | None => Ok None
  | Some f =>
      do U <- used fuel d nstd X y;
      do b <- shrink_bounds bounds (Mat (mkMat d U)) f;
      Ok (Some b)
  end.
End Trust.

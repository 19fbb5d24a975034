(** Model of the new weights of an earlier Monte Carlo sample, gpry/convergence.py:375-386, over the real numbers. Definitions only. *)
From Verif Require Export MKl.
Open Scope R_scope.

(** The values of the surrogate at the points: [None] stands for minus infinity. [logratio -= max(logratio)]; if all are minus infinity, the
    differences are NaN. *)
Fixpoint omax (l : list (option R)) : option R :=
  match l with
  | [] => None
  | x :: l' => match x, omax l' with Some a, Some b => Some (Rmax a b) | Some a, None => Some a | None, m => m end
  end.
Definition logratio (old : list R) (new : list (option R)) : list (option R) := map (fun p => option_map (fun n => n - fst p) (snd p)) (combine old new).
(** [weights * np.exp(logratio)]; NaN and 0 are both left out by the comparison that follows. *)
Definition new_weights (w : list R) (l : list (option R)) : list R :=
  match omax l with
  | None => repeat 0 (length w)
  | Some m => map (fun p => match snd p with Some a => fst p * exp (a - m) | None => 0 end) (combine w l)
  end.
(** [X], [w], [old]: points, weights and surrogate values of the earlier sample; [np.cov(points.T, aweights=reweights)] has [ddof=1]. *)
Definition reweight (d : nat) (X : mat) (w old : list R) (new : list (option R)) : res (vec * array) :=
  let l := filter (fun p => if Rlt_dec (1 / 100000000) (fst p) then true else false) (combine (new_weights w (logratio old new)) X) in
  do mean <- np_average d (map snd l) (map fst l);
  do cov <- np_cov_of 1 d (map snd l) (map fst l);
  Ok (mean, cov).

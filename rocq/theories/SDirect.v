(** Specification vocabulary: derivatives of functions of a list of numbers along lines. *)
From Verif Require Export MLinAlg SKernel.

(** The point reached from [x] after [t] steps [v]. *)
Definition along (x v : list R) (t : R) : list R := vadd x (scale t v).
(** The derivative of [f] at [x] along every line is the product of [row] with its direction. *)
Definition slopes (f : list R -> R) (x row : list R) : Prop :=
  length row = length x /\ forall v, length v = length x -> is_derive (fun t => f (along x v t)) 0 (dot row v).

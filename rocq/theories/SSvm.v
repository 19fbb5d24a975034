(** Specification vocabulary for the classifier properties; independent of the model's helpers. *)
From Verif Require Export Num.

(** [v] is finite and no value of the set exceeds it by more than [diff]. *)
Definition within (y : list num) (diff v : num) : Prop :=
  (exists q, v = Fin q) /\ forall w, In w y -> nleb (nsub w diff) v = true.
(** One label per value, each saying whether the value is within the threshold. *)
Definition labels_right (y : list num) (diff : num) (l : list bool) : Prop :=
  length l = length y
  /\ forall i b v, nth_error l i = Some b -> nth_error y i = Some v -> (b = true <-> within y diff v).
Definition no_nan (y : list num) : Prop := ~ In NaN y.
Definition all_minus_inf (y : list num) : Prop := forall v, In v y -> v = NInf.

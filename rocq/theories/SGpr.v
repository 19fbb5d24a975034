(** Specification vocabulary for the properties of the regressor's training set; independent of the
    model's helpers. *)
From Verif Require Export SSvm.

(** [k] consists of exactly the entries of [l] whose value satisfies [P], in the same order. *)
Inductive kept {pt : Type} (P : num -> Prop) : list (pt * num) -> list (pt * num) -> Prop :=
| kept_nil : kept P [] []
| kept_yes x v l k : P v -> kept P l k -> kept P ((x, v) :: l) ((x, v) :: k)
| kept_no x v l k : ~ P v -> kept P l k -> kept P ((x, v) :: l) k.

Definition best (y : list num) (b : num) : Prop := In b y /\ forall w, In w y -> nleb w b = true.
(** [v] is the [k]-th largest value: fewer than [k] values exceed it, at least [k] reach it. *)
Definition kth_largest (y : list num) (k : nat) (v : num) : Prop :=
  In v y /\ length (filter (fun w => nltb v w) y) < k <= length (filter (fun w => nleb v w) y).
(** The threshold in use: the configured one, widened by what is needed (plus 1e-6) to reach the
    [keep]-th largest value, or the smallest one if there are fewer. *)
Definition threshold_in_use (y : list num) (keep : nat) (diff T : num) : Prop :=
  (keep <= 1 /\ T = diff)
  \/ (1 < keep /\ exists b v, best y b /\ kth_largest y (Nat.min keep (length y)) v
      /\ T = pymax diff (nadd (nsub b v) (nq 1 1000000))).
(** Values a log-posterior can take. *)
Definition ordinary (y : list num) : Prop := forall v, In v y -> v = NInf \/ exists q, v = Fin q.
(** The GP training set is the part of the full one that is within the threshold in use. *)
Definition training_set_right {pt : Type} (keep : nat) (diff : num)
    (Xall : list pt) (yall : list num) (X : list pt) (y : list num) : Prop :=
  length Xall = length yall /\ length X = length y
  /\ exists T, threshold_in_use yall keep diff T
     /\ kept (within yall T) (combine Xall yall) (combine X y).

(** Specification vocabulary: partial derivatives of functions of a list of numbers. *)
From Coq Require Import Reals List.
From Coquelicot Require Export Coquelicot.
Open Scope R_scope.

(** The point with coordinate [i] replaced. *)
Fixpoint replace_coord (i : nat) (t : R) (x : list R) : list R :=
  match x, i with
  | nil, _ => nil
  | _ :: x', O => t :: x'
  | a :: x', S j => a :: replace_coord j t x'
  end.
(** [v] is the partial derivative of [f] at [x] with respect to coordinate [i]. *)
Definition partial (f : list R -> R) (x : list R) (i : nat) (v : R) : Prop :=
  is_derive (fun t => f (replace_coord i t x)) (nth i x 0) v.
(** [row] is the gradient of [f] at [x]. *)
Definition gradient (f : list R -> R) (x : list R) (row : list R) : Prop :=
  length row = length x /\ forall i, (i < length x)%nat -> partial f x i (nth i row 0).

(** Specification vocabulary: gradients of functions that are only defined on a part of the space. *)
From Coq Require Import Reals List.
From Verif Require Export SKernel.
Open Scope R_scope.

(** [f] has a value around [x], along every axis, and [row] is its gradient. *)
Definition has_gradient (f : list R -> option R) (x row : list R) : Prop :=
  exists h : list R -> R,
    f x = Some (h x) /\
    (forall i, (i < length x)%nat ->
       locally (nth i x 0) (fun t => f (replace_coord i t x) = Some (h (replace_coord i t x)))) /\
    gradient h x row.

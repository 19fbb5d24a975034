(** Specification vocabulary: determinants, positive definite matrices, inverses. A matrix is a function of row and column; only entries below
    the dimension matter. *)
From Verif Require Export SWhiten.
From Coq Require Export Reals.
Open Scope R_scope.

(** Leave out row [i]. *)
Definition skip (i a : nat) : nat := if Nat.ltb a i then a else S a.
(** Laplace expansion along the first column. *)
Fixpoint det (n : nat) (M : nat -> nat -> R) : R :=
  match n with
  | O => 1
  | S m => sum (S m) (fun i => (-1) ^ i * M i O * det m (fun a b => M (skip i a) (S b)))
  end.
Definition quadratic (n : nat) (M : nat -> nat -> R) (x : nat -> R) : R := sum n (fun i => sum n (fun j => x i * M i j * x j)).
(** Symmetric and positive definite. *)
Definition spd (n : nat) (M : nat -> nat -> R) : Prop :=
  (forall i j, (i < n)%nat -> (j < n)%nat -> M i j = M j i) /\
  forall x, (exists i, (i < n)%nat /\ x i <> 0) -> 0 < quadratic n M x.
(** [B] is the inverse of [M]. *)
Definition inverse_of (n : nat) (M B : nat -> nat -> R) : Prop :=
  forall i j, (i < n)%nat -> (j < n)%nat -> sum n (fun k => M i k * B k j) = delta i j.
(** Symmetric and positive semi-definite: what every covariance is. *)
Definition psd (n : nat) (M : nat -> nat -> R) : Prop :=
  (forall i j, (i < n)%nat -> (j < n)%nat -> M i j = M j i) /\ forall x, 0 <= quadratic n M x.
(** The weighted mean of [n] numbers; the weighted covariance of two variables observed [n] times, with the given normalisation. *)
Definition wmean (n : nat) (w x : nat -> R) : R := sum n (fun k => w k * x k) / sum n w.
Definition wcov (n : nat) (w x y : nat -> R) (norm : R) : R :=
  sum n (fun k => w k * (x k - wmean n w x) * (y k - wmean n w y)) / norm.

(** Vocabulary for the statements about [Whitening]: what an eigen-decomposition is. *)
From Verif Require Import MLinAlg.
Open Scope R_scope.

Fixpoint sum (n : nat) (f : nat -> R) : R := match n with O => 0 | S n' => sum n' f + f n' end.
Definition at2 (m : list (list R)) (i j : nat) : R := nth j (nth i m []) 0.
Definition delta (i j : nat) : R := if Nat.eqb i j then 1 else 0.
Definition square (d : nat) (m : list (list R)) : Prop := length m = d /\ List.Forall (fun r => length r = d) m.
(** The matrix with the eigenvectors as columns is orthogonal, and C = E diag(vals) E^T: what [scipy.linalg.eigh] guarantees. *)
Definition decomposes (d : nat) (C : list (list R)) (vals : list R) (E : list (list R)) : Prop :=
  length vals = d /\ square d E /\ square d C /\
  (forall i j, (i < d)%nat -> (j < d)%nat -> sum d (fun k => at2 E k i * at2 E k j) = delta i j) /\
  (forall i j, (i < d)%nat -> (j < d)%nat -> sum d (fun k => at2 E i k * at2 E j k) = delta i j) /\
  (forall i j, (i < d)%nat -> (j < d)%nat -> at2 C i j = sum d (fun k => at2 E i k * nth k vals 0 * at2 E j k)).
(** A point is in a box. *)
Definition in_box (x : list R) (b : list (R * R)) : Prop := List.Forall2 (fun x r => fst r <= x <= snd r) x b.

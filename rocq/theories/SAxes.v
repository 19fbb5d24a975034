(** Vocabulary of the statements about the order in which the parameters are listed. *)
From Coq Require Export Permutation.
From Verif Require Export MGrad.
Open Scope R_scope.

(** [p] lists the [d] parameters in another order: the new parameter [j] is the old parameter [nth j p]. *)
Definition order (d : nat) (p : list nat) : Prop := Permutation p (seq 0 d).
(** A point (or one number per parameter) in the new order. *)
Definition reorder (p : list nat) (x : list R) : list R := map (fun i => nth i x 0) p.
Definition reorder_scales (p : list nat) (s : scales) : scales := match s with Iso l => Iso l | Aniso ls => Aniso (reorder p ls) end.
Fixpoint reorder_kernel (p : list nat) (k : kernel) : kernel :=
  match k with
  | RBF s => RBF (reorder_scales p s)
  | Matern nu s => Matern nu (reorder_scales p s)
  | Sum k1 k2 => Sum (reorder_kernel p k1) (reorder_kernel p k2)
  | Product k1 k2 => Product (reorder_kernel p k1) (reorder_kernel p k2)
  | Exponentiation k e => Exponentiation (reorder_kernel p k) e
  | k => k
  end.
(** Length scales are one number, or one for each of the [d] parameters. *)
Definition sized_scales (d : nat) (s : scales) : Prop := match s with Iso _ => True | Aniso ls => length ls = d end.
Fixpoint sized (d : nat) (k : kernel) : Prop :=
  match k with
  | RBF s | Matern _ s => sized_scales d s
  | Sum k1 k2 | Product k1 k2 => sized d k1 /\ sized d k2
  | Exponentiation k _ => sized d k
  | _ => True
  end.

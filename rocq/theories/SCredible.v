(** Spec vocabulary: the probability mass of a standard Gaussian in [d] dimensions within a given radius, by integration over shells. *)
From Coquelicot Require Export Coquelicot.
From Verif Require Export MCredible.

(** Density of the radius, up to a constant: the area of the sphere times the Gaussian. *)
Definition shell (d : nat) (t : R) : R := t ^ (d - 1) * exp (- (t ^ 2 / 2)).
(** Mass within radius [r], up to the same constant. *)
Definition within (d : nat) (r : R) : R := RInt (shell d) 0 r.
(** The mass of all space. *)
Definition total (d : nat) (Z : R) : Prop := is_lub (fun y => exists r, 0 <= r /\ y = within d r) Z.
(** Probability of radii up to [r]. *)
Definition mass (d : nat) (r p : R) : Prop := exists Z, total d Z /\ p = within d r / Z.
(** What the functions of scipy are: the distribution of the squared radius; its inverse, NaN for arguments above 1; the two-sided tail of the standard normal
    distribution with variance 1/2, and its symmetry. *)
Record scipy_ok (cdf : R -> nat -> R) (isf : R -> nat -> option R) (erfc : R -> R) : Prop := Scipy {
  cdf_ok : forall d x, (0 < d)%nat -> 0 <= x -> mass d (sqrt x) (cdf x d);
  isf_ok : forall d q x, (0 < d)%nat -> 0 < q <= 1 -> (isf q d = Some x <-> 0 <= x /\ cdf x d = 1 - q);
  isf_nan : forall d q, (0 < d)%nat -> 1 < q -> isf q d = None;
  erfc_ok : forall z, 0 <= z -> mass 1 (sqrt 2 * z) (1 - erfc z);
  erfc_neg : forall z, erfc (- z) = 2 - erfc z
}.

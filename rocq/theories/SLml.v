(** Vocabulary of the statements about the order of the training points and about the objective of the fit, over the
    real numbers. *)
From Coq Require Export Permutation.
From Verif Require Export SLinAlg MLml.
Open Scope R_scope.

(** Training points with squared noise and value. *)
Definition obs (P : Type) : Type := P * R * R.
Definition points {P} (D : list (obs P)) : list P := map (fun q => fst (fst q)) D.
Definition noises {P} (D : list (obs P)) : list R := map (fun q => snd (fst q)) D.
Definition values {P} (D : list (obs P)) : list R := map snd D.

(** Log-density at [t] of a Gaussian with the given mean and variance. *)
Definition log_gaussian (mean var t : R) : R := ln (/ sqrt (2 * PI * var) * exp (- ((t - mean) ^ 2 / (2 * var)))).

(** [scored k D l]: [l] is the sum of the log-densities of the values, each under the prediction of the surrogate that
    has been given the values before it (with the noise of that value), which exists and is not certain. *)
Inductive scored {P} (k : P -> P -> R) : list (obs P) -> R -> Prop :=
| scored_nil : scored k [] 0
| scored_next D l g x n t : scored k D l -> update_model k (points D) (noises D) (values D) = Some g ->
    0 < gp_var k (points D) g x + n ->
    scored k (D ++ [(x, n, t)]) (l + log_gaussian (gp_mean k (points D) g x) (gp_var k (points D) g x + n) t).

(** The surrogate for training data in that form; two sets of training data for which there is no surrogate, or of which
    the surrogates make the same predictions everywhere. *)
Definition surrogate {P} (k : P -> P -> R) (D : list (obs P)) : option gp := update_model k (points D) (noises D) (values D).
Definition agree {P} (k : P -> P -> R) (D D' : list (obs P)) : Prop :=
  (surrogate k D = None <-> surrogate k D' = None) /\
  forall g g', surrogate k D = Some g -> surrogate k D' = Some g' -> forall x, gp_mean k (points D) g x = gp_mean k (points D') g' x /\
    gp_var k (points D) g x = gp_var k (points D') g' x /\ gp_std k (points D) g x = gp_std k (points D') g' x.
(** Two values at one point with independent noise, as one: the mean with weights inverse to the variances. *)
Definition merged {P} (x : P) (n1 t1 n2 t2 : R) : obs P := (x, / (/ n1 + / n2), (t1 / n1 + t2 / n2) / (/ n1 + / n2)).

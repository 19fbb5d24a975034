(** Vocabulary of the statements about the surrogate's linear algebra. *)
From Verif Require Export MLinAlg.

Definition total (l : list R) : R := fold_right Rplus 0 l.
Section S.
Context {P : Type}.
Variable k : P -> P -> R.
Definition symmetric : Prop := forall x y, k x y = k y x.
(** The quadratic form of the kernel, for points with coefficients. *)
Definition quad (l : list (P * R)) : R :=
  total (map (fun a => total (map (fun b => snd a * snd b * k (fst a) (fst b)) l)) l).
(** A kernel is positive (semi-)definite if its quadratic form is never negative. *)
Definition positive : Prop := forall l, 0 <= quad l.

(** Training points with their squared noise, and a linear predictor: one coefficient per training point. *)
Definition data := list (P * R).
(** Expected squared error at [x] of the prediction of a function of covariance [k] from noisy values at the training
    points, as a function of the coefficients [w] of the predictor:
    k(x, x) - 2 sum_i w_i k(x, x_i) + sum_ij w_i w_j k(x_i, x_j) + sum_i w_i^2 noise_i. *)
Definition error (T : data) (x : P) (w : list R) : R :=
  k x x - 2 * total (map (fun q => snd q * k x (fst (fst q))) (combine T w))
  + quad (map (fun q => (fst (fst q), snd q)) (combine T w))
  + total (map (fun q => snd q ^ 2 * snd (fst q)) (combine T w)).
End S.

(** The Mahalanobis distance for a covariance matrix [C]: the root of v . C^-1 v. *)
Definition mahalanobis (v : list R) (C : list (list R)) (d : R) : Prop :=
  exists u, length u = length v /\ map (fun r => dot r u) C = v /\ d = sqrt (dot v u).

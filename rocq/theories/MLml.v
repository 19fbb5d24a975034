(** Model of the objective of the fit of the hyperparameters, over the real numbers: the log-marginal likelihood for the
    current values of the hyperparameters, gpry/gpr.py:876-881, which passes its arguments to the method of the same name
    of sklearn's [GaussianProcessRegressor] (with the training data and squared noise levels of the object). Definitions
    only. *)
From Verif Require Export MLinAlg.
Open Scope R_scope.

Section Lml.
Context {P : Type}.
Variable k : P -> P -> R.
(** [K[np.diag_indices_from(K)] += alpha; L = cholesky(K, lower=True); alpha = cho_solve((L, True), y_train);
    -0.5 * y_train.alpha - log(diag(L)).sum() - n / 2 * log(2 pi)]; None: [-np.inf], returned if the decomposition
    fails. *)
Definition log_marginal_likelihood (X : list P) (noise y : list R) : option R :=
  match cholesky (kernel_matrix k X noise) with
  | None => None
  | Some L =>
      Some (- (1 / 2) * dot y (backward L (forward L y)) - fold_right Rplus 0 (map (fun q => ln (snd q)) L)
            - INR (length X) / 2 * ln (2 * PI))
  end.
End Lml.

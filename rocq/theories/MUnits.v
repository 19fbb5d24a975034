(** The surrogate as the [Runner] builds it when nothing else is asked for, gpry/run.py:306-330: points are rescaled to
    the bounds of the prior ([Normalize_bounds]), values are centred and rescaled ([Normalize_y]), and the trust region
    is that of [update_trust_region]. Model definitions only: the parts of MGpr.v and MPredict.v that stand for the
    preprocessors and the trust region are filled in with MPreproc.v, MTools.v and MTrust.v; the others (support vector
    classifier, decompositions, optimiser) stay parameters. *)
From Verif Require Export MTrust MPredict.

Section Default.
Context {model theta : Type}.
(** What stays unspecified; see MGpr.v and MPredict.v. Points in transformed coordinates are lists of numbers. *)
Variable svc_train : list (list num) -> list bool -> res model.
Variable cholesky : theta -> data (list num) -> bool.
Variable lml : data (list num) -> theta -> num.
Variable optimize : data (list num) -> theta -> theta * res num.
Variable svc_predict : model -> list num -> bool.
Variables (gp_mean gp_var : cache (list num) theta -> list num -> num).
Variables (gp_mean_grad gp_std_grad : cache (list num) theta -> list num -> list num).
Variable root : num -> num.
Variable allclose0 : num -> bool.
Variable percentiles : list num -> num * num * num.
Variable delta : num -> num.

(** [fit] of [Normalize_bounds] does nothing (gpry/preprocessing.py:364-366); [Normalize_y], or [NormalizeChi2_y] with
    the given threshold, lines 528-684; [self.bounds] is an array with two columns; the two options of the trust
    region, gpry/gpr.py:145-158. [np.append] needs points with as many coordinates as there are bounds. *)
Definition default_env (chi2 : option num) (fuel : nat) (factor nstd : option num) (bounds : list (num * num))
    : env (list num) (list num) norm_bounds norm_y model theta (list (num * num)) :=
  mkEnv (fun p _ _ => Ok p)
        (fun p X => mapM (nb_transform p) X)
        (fun p _ y => match chi2 with Some d => chi2_do_fit d y | None => ny_do_fit root percentiles p y end)
        (fun p y => mapM (ny_transform p) y)
        (fun p y => mapM (ny_transform_scale p) y)
        (fun p v => ny_transform_scale p v)
        svc_train cholesky lml optimize
        (fun X y => update_trust_region delta fuel (length bounds) factor nstd
                      (Mat (mkMat 2 (map (fun b => [fst b; snd b]) bounds))) X y)
        (forallb (fun x => length x =? length bounds)).

(** The inverse maps of the value preprocessor; it has been fitted by the time they are called. *)
Definition inv_y (p : norm_y) (v : num) : num := match ny_inverse_transform p v with Ok w => w | Err _ => NaN end.
Definition inv_scale_y (p : norm_y) (v : num) : num :=
  match ny_inverse_transform_scale p v with Ok w => w | Err _ => NaN end.
(** [is_in_bounds(X, self.trust_bounds, check_shape=False)] for one point, gpry/gpr.py:1106-1109. *)
Definition in_trust (b : list (num * num)) (x : list num) : bool :=
  match is_in_bounds (Vec x) (Mat (mkMat 2 (map (fun p => [fst p; snd p]) b))) false with
  | Ok [r] => r
  | _ => false
  end.
Definition default_penv : penv (list num) (list num) norm_y model theta (list (num * num)) :=
  mkPenv svc_predict gp_mean gp_var gp_mean_grad gp_std_grad inv_y inv_scale_y in_trust root allclose0
         (@length num).
End Default.

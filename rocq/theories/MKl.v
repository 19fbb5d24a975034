(** Model of the Gaussian comparisons of gpry/tools.py, gpry/convergence.py and gpry/run.py over the real numbers: the Kullback-Leibler
    divergence of two normal distributions, mean and covariance of weighted samples, the diagnosis of the final Monte Carlo sample.
    Definitions only. A LinAlgError is a ValueError here, as in MGpr. [np.linalg.det] is the determinant; rounding and overflow are left
    out, except that the exponential of the weights may be any function (it may underflow to 0). *)
From Verif Require Export SDet MWhiten.
Open Scope R_scope.

(** A floating point number without rounding. *)
Inductive fl := F (x : R) | Inf | MInf | Nan.
Definition fadd (a b : fl) : fl :=
  match a, b with
  | Nan, _ | _, Nan | Inf, MInf | MInf, Inf => Nan
  | Inf, _ | _, Inf => Inf
  | MInf, _ | _, MInf => MInf
  | F x, F y => F (x + y)
  end.
Definition fneg (a : fl) : fl := match a with F x => F (- x) | Inf => MInf | MInf => Inf | Nan => Nan end.
(** [0.5 * a] *)
Definition fhalf (a : fl) : fl := match a with F x => F (1 / 2 * x) | b => b end.
(** [a < b] for a real [b] *)
Definition fless (a : fl) (b : R) : bool :=
  match a with F x => if Rlt_dec x b then true else false | MInf => true | _ => false end.
(** [np.log] *)
Definition flog (x : R) : fl := if Rlt_dec 0 x then F (ln x) else if Req_EM_T x 0 then MInf else Nan.

(** What [np.cov] returns: a 0-dimensional array for a single variable, otherwise a matrix; [None]: its entries are not finite. *)
Inductive array := Scalar (x : option R) | Matrix (m : option mat).
(** [np.atleast_2d] *)
Definition atleast_2d (a : array) : array := match a with Scalar x => Matrix (option_map (fun x => [[x]]) x) | m => m end.

Section Inverse.
(** [np.linalg.inv] of a finite matrix: raises for a singular one. *)
Variable inv : mat -> res mat.
(** [tr(A @ B)]; [x @ A @ x] *)
Definition trace_product (n : nat) (A B : mat) : R := sum n (fun i => sum n (fun j => at2 A i j * at2 B j i)).
Definition form (A : mat) (x : vec) : R := sum (length x) (fun i => sum (length x) (fun j => nth i x 0 * at2 A i j * nth j x 0)).
(** [kl_norm], gpry/tools.py:20-36. [inv] and [det] raise for arrays of dimension 0 ("Array must be at least two-dimensional"). *)
Definition kl_norm (mean_0 : vec) (cov_0 : array) (mean_1 : vec) (cov_1 : array) : res fl :=
  match cov_1 with
  | Scalar _ => Err ValueError
  | Matrix None => match cov_0 with Scalar _ => Err ValueError | Matrix _ => Ok Nan end
  | Matrix (Some c1) =>
      do b <- inv c1;
      match cov_0 with
      | Scalar _ => Err ValueError
      | Matrix None => Ok Nan
      | Matrix (Some c0) =>
          let n := length mean_0 in
          Ok (fhalf (fadd (fadd (fadd (fadd (flog (det n (at2 c1))) (fneg (flog (det n (at2 c0))))) (F (- INR n)))
                          (F (trace_product n b c0))) (F (form b (vsub mean_1 mean_0)))))
      end
  end.

(** [np.average(X, weights=w, axis=0)]; the rows of [X] are points of dimension [d]. *)
Definition np_average (d : nat) (X : mat) (w : list R) : res vec :=
  if negb (Nat.eqb (length X) (length w)) then Err ValueError
  else if Req_EM_T (sum_of w) 0 then Err ZeroDivisionError
  else Ok (map (average w) (transpose d X)).
(** [np.cov(X.T, aweights=w, ddof=...)]. The factor: the sum of the weights less [ddof * sum(w * w) / sum(w)]; if it is not positive, numpy
    divides by zero. A result with one entry is squeezed. *)
Definition normalisation (ddof : R) (w : list R) : R := sum_of w - ddof * dot w w / sum_of w.
Definition cov_with (norm : R) (X : mat) (w : list R) : mat :=
  map (fun r => map (fun s => dot (vmul (centred w r) w) (centred w s) / norm) X) X.
Definition negative (w : list R) : bool := existsb (fun a => if Rlt_dec a 0 then true else false) w.
Definition np_cov_of (ddof : R) (d : nat) (X : mat) (w : list R) : res array :=
  if negative w then Err ValueError
  else
    let norm := normalisation ddof w in
    let m := if Rlt_dec 0 norm then Some (cov_with norm (transpose d X) w) else None in
    Ok (if Nat.eqb d 1 then Scalar (option_map (fun m => at2 m 0 0) m) else Matrix m).
(** [mean_covmat_from_samples], gpry/tools.py:421-428; [w=None] gives every point the weight 1 (with no point at all numpy returns NaN's
    in this case: left out). *)
Definition mean_covmat_from_samples (d : nat) (X : mat) (w : option (list R)) : res (vec * array) :=
  let w := match w with Some w => w | None => repeat 1 (length X) end in
  do mean <- np_average d X w;
  do cov <- np_cov_of 1 d X w;
  Ok (mean, cov).
(** [remove_0_weight_samples], gpry/tools.py:400-418, for one array. *)
Definition remove_0_weight (w : list R) (X : mat) : res (list R * mat) :=
  if negb (Nat.eqb (length X) (length w)) then Err ValueError
  else let l := filter (fun p => if Req_EM_T (fst p) 0 then false else true) (combine w X) in Ok (map fst l, map snd l).
(** [mean_covmat_from_evals], gpry/tools.py:431-440; [ex] is [np.exp]. *)
Variable ex : R -> R.
Definition mean_covmat_from_evals (d : nat) (X : mat) (logp : list R) : res (vec * array) :=
  match logp with
  | [] => Err ValueError
  | a :: l =>
      let w := map (fun b => ex (b - vmax a l)) logp in
      do r <- remove_0_weight w X;
      do mean <- np_average d (snd r) (fst r);
      do cov <- np_cov_of 0 d (snd r) (fst r);
      Ok (mean, cov)
  end.

(** [TrainAlignment.criterion_value_from_means_cov], gpry/convergence.py:703-707, with [credibility_of_nstd] (gpry/tools.py:121-126); [cdf] is
    [chi2.cdf]. [None]: NaN. *)
Variable cdf : R -> nat -> R.
Definition criterion_value_from_means_cov (mean1 mean2 : vec) (cov : array) : res (option R) :=
  match cov with
  | Scalar _ => Err ValueError
  | Matrix None => Ok None
  | Matrix (Some c) =>
      do b <- inv c;
      let chi2 := form b (vsub mean1 mean2) in
      Ok (if Rlt_dec chi2 0 then None else Some (cdf chi2 (length mean1)))
  end.
(** [diagnose_last_mc_sample], gpry/run.py:1747-1784, what the main process computes: [X], [w] are the last Monte Carlo sample, [X_train], [y_train]
    the training set, [acq] the sample of the acquisition engine, if it has the method [last_MC_sample]. *)
Definition between (x : option R) : bool :=
  match x with Some x => if Rlt_dec 0 x then if Rlt_dec x (1 / 2) then true else false else false | None => false end.
Definition diagnose (d : nat) (X : mat) (w : option (list R)) (X_train : mat) (y_train : list R) (acq : option (res (mat * list R))) : res bool :=
  do mc <- mean_covmat_from_samples d X w;
  do tr <- mean_covmat_from_evals d X_train y_train;
  do cred <- criterion_value_from_means_cov (fst mc) (fst tr) (snd mc);
  let success := between cred in
  match acq with
  | None => Ok success
  | Some s =>
      do s <- s;
      match (do m <- np_average d (fst s) (snd s); do c <- np_cov_of 0 d (fst s) (snd s); Ok (m, atleast_2d c)) with
      | Err ValueError | Err TypeError => Ok success
      | Err x => Err x
      | Ok (m, c) => do kl <- kl_norm (fst mc) (snd mc) m c; Ok (success && fless kl (INR d))%bool
      end
  end.
End Inverse.

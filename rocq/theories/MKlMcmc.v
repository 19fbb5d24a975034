(** Model of how GaussianKL sets up the chains it runs: the options about the number of draws (gpry/convergence.py:306-323), and the input of the sampler in [_sample_mcmc] (gpry/convergence.py:434-470).
    What the chains do is Cobaya's. Definitions only. *)
From Verif Require Export MCbSample.

(** The options [n_draws] and [n_draws_per_dimsquared] of the criterion: values count by their truth, zero and None are false. *)
Definition truth_z (o : option Z) : bool := match o with Some z => negb (Z.eqb z 0) | None => false end.
(** What is stored: [_n_draws], or [n_draws_per_dimsquared] (None if that was passed as such is left out). Lines 306-317. *)
Inductive draws := Draws (n : Z) | PerDimSquared (n : Z).
Definition read_draws (n_draws per_dim : option Z) : res draws :=
  if truth_z n_draws && truth_z per_dim then Err ValueError
  else match n_draws with
       | Some n => if truth_z n_draws then Ok (Draws n) else Ok (PerDimSquared (match per_dim with Some p => p | None => 10%Z end))
       | None => Ok (PerDimSquared (match per_dim with Some p => p | None => 10%Z end))
       end.

Section Kl.
Context {M : Type}.
Variable valid : M -> bool.
(** The criterion, as far as the chains are concerned: [cov], [values], the options about draws. *)
Record klm := mkKlm { k_cov : option M; k_values : list num; k_draws : draws }.
(** Lines 442-445: the covariance matrix passed if it is valid, else that of the last check. *)
Definition proposal (c : klm) (covmat : option M) : option M :=
  match covmat with Some m => if valid m then Some m else k_cov c | None => k_cov c end.
(** Line 448: the last value of the criterion, if there is any. Comparisons with NaN are false. *)
Definition high_precision (vs : list num) : bool := match rev vs with v :: _ => nltb v (nz 1) | [] => false end.
(** Lines 446-455: the block of options of the sampler; numbers are values of its entries. [names]: the parameters of the model. *)
Definition kl_mcmc_options (names : list string) (c : klm) (covmat : option M) : res (list (string * @entry M num)) :=
  do input <- mcmc_info (V := num) valid names (proposal c covmat) None (VNum (nz 3));
  match get "mcmc" input with
  | None => Err KeyError
  | Some d =>
      let h := high_precision (k_values c) in
      Ok (put_all [("Rminus1_stop", EUser (if h then nq 1 100 else nq 2 10)); ("Rminus1_cl_stop", EUser (if h then nq 2 10 else nq 5 10))]%string (put "temperature"%string (ENum 2%Z) d))
  end.
(** In several processes: only the main process has a covariance matrix from an earlier sample (lines 371-387); [cov] and [values] are the same in all. *)
Definition all_mcmc_options (names : list string) (c : klm) (covmat : option M) (size : nat) : list (res (list (string * @entry M num))) :=
  map (fun rank => kl_mcmc_options names c (if Nat.eqb rank 0 then covmat else None)) (seq 0 size).
End Kl.

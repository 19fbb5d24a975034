(** Model of the sampler [mc_sample_from_gp_cobaya] asks Cobaya for (gpry/mc.py:173-325): its options, the covariance matrix and the names of its rows, the output, and what is returned
    about it. Cobaya's model and sampler are arbitrary. Definitions only. *)
From Verif Require Export MMc.

Section CbSample.
(** Covariance matrices ([valid]: [is_valid_covmat]), values of options given by the user, samplers of Cobaya. *)
Context {M V O : Type}.
Variable valid : M -> bool.
(** A value in the input of the sampler: put there by the code, or by the user. *)
Inductive entry := EFlag (b : bool) | ENum (n : Z) | ECov (c : option M) | ENames (l : list string) | EUser (v : V).
(** Dictionaries: [d[k] = v], [d.get(k)], [d.update(l)]. *)
Fixpoint put {A} (k : string) (v : A) (d : list (string * A)) : list (string * A) :=
  match d with [] => [(k, v)] | (k', v') :: d => if String.eqb k k' then (k, v) :: d else (k', v') :: put k v d end.
Definition get {A} (k : string) (d : list (string * A)) : option A := option_map snd (find (fun e => String.eqb k (fst e)) d).
Definition put_all {A} (l d : list (string * A)) : list (string * A) := fold_left (fun d e => put (fst e) (snd e) d) l d.

(** Lines 148-155 with any verbosity: [None >= 2] raises, if it is reached. *)
Definition covmat_asked (cov : option M) (verbose : verbosity) : res (option (option M)) :=
  let invalid := match cov with None => true | Some c => negb (valid c) end in
  if invalid then match verb_num verbose with None => Err TypeError | Some v => Ok (covmat_entry M valid cov v) end else Ok (Some cov).
(** [mcmc_info_from_run], 146-156; [names]: those of the model. [cov_params or list(model.prior.params)]: an empty list counts as none. *)
Definition mcmc_info (names : list string) (cov : option M) (cov_params : option (list string)) (verbose : verbosity) : res (list (string * list (string * entry))) :=
  do e <- covmat_asked cov verbose;
  let base := [("measure_speeds", EFlag false); ("max_tries", ENum 100000%Z)]%string in
  Ok [("mcmc"%string, match e with
      | None => base
      | Some c => base ++ [("covmat"%string, ECov c); ("covmat_params"%string, ENames (match cov_params with Some (n :: l) => n :: l | _ => names end))]
      end)].
(** [polychord_info_from_run], 159-170. *)
Definition polychord_info : list (string * list (string * entry)) := [("polychord"%string, [("measure_speeds"%string, EFlag false)])].

(** The arguments; [c_sampler]: None if it is not a string; [c_acq], [c_conv]: the covariance matrices found in a checkpoint. *)
Record cb_call := mkCb { c_sampler : option string; c_options : option (list (string * V)); c_covmat : option M; c_covmat_params : option (list string); c_params : option (list string);
  c_acq : option M; c_conv : option M; c_output : option string; c_run : bool; c_resume : bool; c_verbose : verbosity }.
(** 285-313: the dictionary given to [get_sampler]. [sampler_input[sampler]] is looked up with the name as given. *)
Definition sampler_input (names : list string) (c : cb_call) (name : string) : res (list (string * list (string * entry))) :=
  let cov := choose_cov M (c_covmat c) (c_acq c) (c_conv c) in
  let cov_params := match c_covmat c, c_covmat_params c with Some _, Some l => Some l | _, _ => c_params c end in
  do input <- (if String.eqb (lower name) "mcmc" then mcmc_info names cov cov_params (c_verbose c)
               else if String.eqb (lower name) "polychord" then Ok polychord_info
               else Ok [(name, [("measure_speeds"%string, EFlag false)])]);
  match get name input with
  | None => Err KeyError
  | Some d => Ok (put name (put_all (map (fun e => (fst e, EUser (snd e))) (match c_options c with Some o => o | None => [] end)) d) input)
  end.
(** What [get_output] is asked for: the prefix, whether to resume, whether to overwrite (314-319). *)
Definition output_asked (c : cb_call) : option (string * bool * bool) := option_map (fun p => (p, c_resume c, negb (c_resume c))) (c_output c).
(** The key under which the sampler is listed in the information returned: [sampler] has become the sampler itself by then (320, 323, 325). *)
Inductive key := KName (s : string) | KObject (o : O).
(** [mc_sample_from_gp_cobaya]. [installed]: Cobaya; [fitted]: of the surrogate, None if it cannot be loaded; [model]: the names in the model, 264-268 (from [cobaya_generate_gp_model_input]
    and Cobaya, the log level set in between); [make], [sample]: Cobaya's [get_sampler] and [run]. Returned: the key, whether the sampler was run, and the sampler. *)
Definition mc_sample_from_gp_cobaya (installed : bool) (fitted : option bool) (model : res (list string)) (make : list (string * list (string * entry)) -> option (string * bool * bool) -> res O)
    (sample : O -> res unit) (c : cb_call) : res (key * bool * O) :=
  if negb installed then Err NotInstalled else
  match c_sampler c with
  | None => Err ValueError
  | Some name =>
      match fitted with
      | Some true =>
          do names <- model;
          do _ <- get_cobaya_log_level (c_verbose c);
          do input <- sampler_input names c name;
          do s <- make input (output_asked c);
          do _ <- (if c_run c then sample s else Ok tt);
          Ok (KObject s, c_run c, s)
      | _ => Err ValueError
      end
  end.
End CbSample.
Arguments entry : clear implicits. Arguments cb_call : clear implicits. Arguments key : clear implicits.

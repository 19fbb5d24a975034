(** Model of gpry/diag.py: the callback [diagnosis]. Printing and the drawing of plots are left out: drawing is only reached with an
    attribute [model] of the runner, and is an arbitrary result there. Definitions only. *)
From Coq Require Export String.
From Verif Require Export MTools.

(** [x in X] for arrays: [(X == x).any()], i.e. any coordinate of any row. *)
Definition np_in (x : list num) (X : list (list num)) : bool :=
  existsb (fun r => existsb (fun p => neqb (fst p) (snd p)) (combine r x)) X.
(** Column "GP", line 41. *)
Definition gp_column (Xall X : list (list num)) : list bool := map (fun x => np_in x X) Xall.
(** Lines 85-90: [sum(points["GP"]) == len(y_train)]. *)
Definition same_length (Xall X : list (list num)) : bool := count_true (gp_column Xall X) =? length X.

(** Attributes of objects of the class [Runner]: those assigned anywhere in gpry/run.py (as [self.name = ...], or by [setattr], lines
    1343-1351), then its methods and properties, lines 197-1935. *)
Definition runner_attrs : list string :=
  ["_is_truth_saved"; "_last_mc_bounds"; "_last_mc_cobaya_info"; "_last_mc_cobaya_sampler"; "_last_mc_sampler_type";
   "_last_mc_samples"; "_mc_options"; "acquisition"; "callback"; "callback_is_MPI_aware"; "checkpoint"; "convergence"; "cov";
   "current_iteration"; "fiducial_MC_X"; "fiducial_MC_loglike"; "fiducial_MC_logpost"; "fiducial_MC_weight"; "fiducial_X";
   "fiducial_loglike"; "fiducial_logpost"; "fit_full_every"; "fit_simple_every"; "gpr"; "has_converged"; "has_run";
   "initial_proposer"; "loaded_from_checkpoint"; "max_finite"; "max_initial"; "max_total"; "mean"; "n_initial";
   "n_points_per_acq"; "n_resamples_before_giveup"; "new_X"; "old_gpr"; "options"; "plots"; "plots_path"; "progress";
   "resamples"; "rng"; "truth"; "verbose"; "y_pred"; "__init__"; "_construct_gpr"; "_construct_gp_acquisition";
   "_construct_initial_proposer"; "_construct_convergence_criterion"; "_construct_mc_options"; "_construct_options"; "d";
   "prior_bounds"; "params"; "labels"; "logp"; "logL"; "logp_truth"; "logL_truth"; "logpost_eval_and_report"; "logprior";
   "log"; "ensure_paths"; "n_total_left"; "n_finite_left"; "banner"; "read_checkpoint"; "save_checkpoint"; "_share_gpr";
   "_share_convergence_from_main"; "run"; "do_initial_training"; "_eval_truth_parallel"; "_fit_gpr_parallel";
   "_check_convergence_parallel"; "update_mean_cov"; "set_fiducial_point"; "set_fiducial_MC"; "_fiducial_MC_as_getdist";
   "plot_progress"; "generate_mc_sample"; "last_mc_samples"; "diagnose_last_mc_sample"; "plot_mc";
   "plot_distance_distribution"]%string.
Definition getattr (attrs : list string) (a : string) : res unit :=
  if existsb (String.eqb a) attrs then Ok tt else Err AttributeError.

(** What the callback reads of the runner: its attributes; whether the regressor has a classifier; the training sets; [y_finite];
    [is_finite] of the values, [predict_is_finite] of the points, [abs_finite_threshold] ([MPredict]). *)
Record view := mkView {
  v_attrs : list string; v_classifier : bool; v_Xall : list (list num); v_yall : list num; v_X : list (list num);
  v_y_finite : list bool; v_is_finite : res (list bool); v_predict : res (list bool); v_threshold : res num }.

(** Lines 30-90: the checks of the classifier. [min] of no values raises ValueError; [runner.gpr.is_finite()] lacks its
    argument, TypeError (line 83). Comparisons of arrays of different lengths are left out (the lengths agree after training, C135). *)
Definition check_classifier (v : view) : res unit :=
  do _ <- getattr (v_attrs v) "model";
  let gp := gp_column (v_Xall v) (v_X v) in
  do _ <- v_is_finite v; do _ <- v_predict v;
  match mask gp (v_yall v) with
  | [] => Err ValueError
  | _ => do _ <- v_threshold v; Err TypeError
  end.
(** The whole callback: the matplotlib backend it leaves, and how it ends. [draw]: what happens from the first plot on, given
    the attribute [model] (it may raise; it restores the backend if not, line 220). *)
Definition diagnosis (main : bool) (v : view) (draw : res unit) (backend : string) : string * res unit :=
  if negb main then (backend, Ok tt) else
  match (if v_classifier v then check_classifier v else Ok tt) with
  | Err x => (backend, Err x)
  | Ok _ =>
      (** [plot_trace(runner.model, ...)], lines 113-127, skipped if reweighted; then [plot_slices(runner.model, ...)], line 131. *)
      match getattr (v_attrs v) "model" with
      | Err x => ("Agg"%string, Err x)
      | Ok _ => match draw with Ok _ => (backend, Ok tt) | Err x => ("Agg"%string, Err x) end
      end
  end.

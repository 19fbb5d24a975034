(** Model of gpry/cobaya.py: the wrapper as a sampler of Cobaya. Definitions only. *)
From Verif Require Export MBuild.
Open Scope string_scope.

(** [{k: v}] without the keys whose value is None (:64-74; "recursively" in the comment, but only the first level). *)
Definition not_none (kv : string * val) : bool := match snd kv with VNone => false | _ => true end.
Definition clean (v : val) : res dict :=
  match v with
  | VNone => Ok []
  | VMap m => Ok (filter not_none m)
  | _ => Err AttributeError    (** no [items] *)
  end.
(** [s.startswith(p)], [s.endswith(p)] *)
Definition starts (p s : string) : bool := String.prefix p s.
Fixpoint ends (p s : string) : bool :=
  String.eqb s p || match s with EmptyString => false | String _ s => ends p s end.
Fixpoint remove_key (k : string) (m : dict) : dict :=
  match m with [] => [] | (k', v) :: m => if String.eqb k k' then m else (k', v) :: remove_key k m end.
(** [m.update(m')] *)
Definition update (m m' : dict) : dict := fold_left (fun m kv => put (fst kv) (snd kv) m) m' m.
(** :79-83: the loop over the keys. *)
Fixpoint merge_options (engine : string) (keys : list string) (m : dict) : res dict :=
  match keys with
  | [] => Ok m
  | k :: keys =>
      if starts "options_" k then
        let o := lookup k m in
        let m := remove_key k m in
        if ends (lower engine) (lower k) then
          match o with
          | Some v => match or_empty v with VMap o => merge_options engine keys (update m o) | _ => Err TypeError end
          | None => Err KeyError
          end
        else merge_options engine keys m
      else merge_options engine keys m
  end.
(** :70-84: what is passed to the runner as [gp_acquisition]. *)
Definition acquisition_input (v : val) : res dict :=
  do m <- clean v;
  match (match lookup "engine" m with Some e => e | None => VStr "BatchOptimizer" end) with
  | VStr engine =>
      let m := remove_key "engine" m in
      do m <- merge_options engine (map fst m) m;
      Ok [(engine, VMap m)]
  | _ => Err AttributeError    (** [lower]; raised only if there are options, but a name is needed in any case *)
  end.

(** A call with keyword arguments of a function with these parameters. *)
Definition keyword_call (params kwargs : list string) : res unit := if forallb (fun k => known params k) kwargs then Ok tt else Err TypeError.
(** run.py:197-215 *)
Definition runner_params : list string :=
  ["self"; "loglike"; "bounds"; "ref_bounds"; "params"; "gpr"; "gp_acquisition"; "initial_proposer"; "convergence_criterion"; "mc"; "callback";
   "callback_is_MPI_aware"; "options"; "checkpoint"; "load_checkpoint"; "seed"; "plots"; "verbose"].
(** :87-101 *)
Definition wrapper_kwargs : list string :=
  ["model"; "gpr"; "gp_acquisition"; "initial_proposer"; "convergence_criterion"; "options"; "callback"; "callback_is_MPI_aware"; "checkpoint";
   "load_checkpoint"; "seed"; "plots"; "verbose"].
(** [initialize], :45-106, with the constructor of the runner as an arbitrary function of what it is given. LoggedError (:102-106) is RuntimeError here. *)
Definition initialize {runner} (construct : dict -> dict -> res runner) (gpr acquisition : val) : res runner :=
  do g <- clean gpr;
  do a <- acquisition_input acquisition;
  match (do _ <- keyword_call runner_params wrapper_kwargs; construct g a) with
  | Err ValueError | Err TypeError => Err RuntimeError
  | r => r
  end.

(** [run], :108-144, and [do_surrogate_sample], :146-187, for a runner made otherwise: the attributes read at :186-187 and those a runner has with such names. *)
Definition runner_attributes : list string :=
  ["last_mc_samples"; "_last_mc_bounds"; "_last_mc_sampler_type"; "_last_mc_samples"; "_last_mc_cobaya_info"; "_last_mc_cobaya_sampler"].
Definition attribute (s : string) : res unit := if known runner_attributes s then Ok tt else Err AttributeError.
Definition wrapper_run (learn sample : res unit) : res unit :=
  let logged r := match r with Err _ => Err RuntimeError | Ok a => Ok a end in
  do _ <- logged learn;
  logged (do _ <- sample; do _ <- attribute "last_mc_surr_info"; attribute "last_mc_sampler").
(** [do_plots], :197-203, run.py:1866-1868: the first call. *)
Definition first_plot : res unit := keyword_call ["self"; "samples_or_samples_folder"; "show_added"; "output"; "output_dpi"; "ext"] ["format"].

(** [get_checkpoint_dir_and_surr_prefix], :230-271: [add_suffix] is Cobaya's; None for no (or a dummy) output. *)
Definition checkpoint_dir (add_suffix : option (string -> string)) : option string :=
  match add_suffix with Some f => Some (f "gpry_output") | None => None end.
(** [output_files_regexps], :273-307: the files of the checkpoint. [os.path.join(None, ...)] raises. *)
Definition expected_files : list string := map (fun n => n ++ ".pkl") ["acq"; "con"; "gpr"; "mod"; "opt"; "pro"].
Definition output_files (add_suffix : option (string -> string)) : res (string * list string) :=
  match checkpoint_dir add_suffix with Some f => Ok (f, expected_files) | None => Err TypeError end.
(** io.py:12-19 *)
Definition checkpoint_files : list string := ["tru.pkl"; "gpr.pkl"; "acq.pkl"; "con.pkl"; "opt.pkl"; "pro.pkl"].

(** [is_nora], :309-316. *)
Definition is_nora (acquisition : val) : res bool :=
  match or_empty acquisition with
  | VMap [] => Ok false
  | VMap ((k, _) :: _) => Ok (String.eqb (lower k) "nora")
  | VList (VStr k :: _) => Ok (String.eqb (lower k) "nora")
  | VStr (String c _) => Ok (String.eqb (lower (String c EmptyString)) "nora")    (** [list("NORA")[0]] is "N" *)
  | VList _ => Ok false
  | _ => Err TypeError
  end.
(** :48-56: logging levels of Python. *)
Definition verbosity (level : Z) : Z := (if level =? 0 then 3 else if level <=? 10 then 4 else if level <=? 20 then 3 else 2)%Z.

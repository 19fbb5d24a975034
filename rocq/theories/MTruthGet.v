(** Model of [get_truth] (gpry/truth.py:20-48) and of what [TruthCobaya] keeps of a Cobaya model (gpry/truth.py:187-199, 231-236); its densities are in MRunFns.
    Of Cobaya only the functions called here appear: [get_model], and of a model its [info], the bounds of its prior, its sampled parameters and labels. Definitions only. *)
From Verif Require Export MTruth.

(** What [get_model] does with a dictionary: a model, [cobaya.log.LoggedError], or any other exception. *)
Inductive made (M : Type) := Made (m : M) | Logged | Raised (x : exn).
Arguments Made {M} m. Arguments Logged {M}. Arguments Raised {M} x.
(** [TruthCobaya]: its attributes; rows of the bounds as pairs. *)
Record truth_cobaya {M : Type} := mkTruthC { tc_model : M; tc_bounds : list (num * num); tc_volume : num; tc_params : list string; tc_labels : list string }.
Arguments truth_cobaya : clear implicits.
Inductive any_truth (M : Type) := Box (t : truth) | Cobaya (t : truth_cobaya M).
Arguments Box {M} t. Arguments Cobaya {M} t.
(** An object passed as likelihood: whether it can be called, is a dictionary, is a model (independently). *)
Record pyobj {I M : Type} := mkObj { o_callable : option fn; o_mapping : option I; o_model : option M }.
Arguments pyobj : clear implicits.
Definition a_function {I M} (f : fn) : pyobj I M := mkObj I M (Some f) None None.
Definition a_dict {I M} (i : I) : pyobj I M := mkObj I M None (Some i) None.
Definition a_model {I M} (m : M) : pyobj I M := mkObj I M None None (Some m).

Section Get.
Variables I M : Type.
Variable ln : num -> num.
Variable get_model : I -> made M.
Variable info : M -> I.
Variable prior_bounds_of : M -> list (num * num).
Variable sampled : M -> list string.
(** [parameterization.labels()], a dictionary. *)
Variable label_of : M -> string -> option string.
(** Lines 187-199. *)
Definition new_cobaya (m : M) : res (truth_cobaya M) :=
  do labels <- mapM (fun p => match label_of m p with Some l => Ok l | None => Err KeyError end) (sampled m);
  Ok (mkTruthC M m (prior_bounds_of m) (fold_left nadd (map (fun p => ln (nsub (snd p) (fst p))) (prior_bounds_of m)) (nz 0)) (sampled m) labels).
(** Lines 20-48; also whether the warning about ignored arguments is given. The class [Model] is imported if Cobaya is installed. *)
Definition is_none {A} (o : option A) : bool := match o with None => true | Some _ => false end.
Definition no_params (p : params_arg) : bool := match p with PNone => true | _ => false end.
Definition get_truth (installed : bool) (o : pyobj I M) (bounds : option arr) (ref : option (list ref_entry)) (params : params_arg) : bool * res (any_truth M) :=
  match o_callable o with
  | Some f => (false, do t <- new_truth ln f bounds ref params; Ok (Box t))
  | None =>
      if installed then
        match (match o_mapping o with
               | Some i => match get_model i with Made m => Ok (Some m) | Logged => Err TypeError | Raised x => Err x end
               | None => Ok (o_model o)
               end) with
        | Err x => (false, Err x)
        | Ok None => (false, Err TypeError)
        | Ok (Some m) => (negb (is_none bounds && is_none ref && no_params params), do t <- new_cobaya m; Ok (Cobaya t))
        end
      else (false, Err TypeError)
  end.
(** Lines 231-236; [get_truth] of it, as done when a checkpoint is read (gpry/io.py:96). *)
Definition as_dict_cobaya (t : truth_cobaya M) : pyobj I M := a_dict (info (tc_model t)).
Definition rebuild_cobaya (installed : bool) (t : truth_cobaya M) : bool * res (any_truth M) := get_truth installed (as_dict_cobaya t) None None PNone.
(** [d] (inherited, lines 112-115). *)
Definition dim_cobaya (t : truth_cobaya M) : nat := length (tc_bounds t).
End Get.

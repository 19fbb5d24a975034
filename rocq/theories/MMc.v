(** Model of gpry/mc.py: Monte Carlo samples of the surrogate through Cobaya or a nested sampler, and
    their conversion. The samplers themselves are arbitrary. Model definitions only. *)
From Verif Require Export MRunData Argsort.
From Verif Require MGpr.

(** ** Verbosity *)
(** The values Python compares: [None], a boolean, a number. *)
Inductive verbosity := VNone | VBool (b : bool) | VNum (x : num).
(** A boolean compares like 0 or 1. *)
Definition verb_num (v : verbosity) : option num :=
  match v with VNone => None | VBool b => Some (if b then nz 1 else nz 0) | VNum x => Some x end.
(** [get_cobaya_log_level], gpry/mc.py:27-40; levels of the logging module (DEBUG 10 ... CRITICAL 50). *)
Definition get_cobaya_log_level (v : verbosity) : res nat :=
  match verb_num v with
  | None => Ok 20
  | Some x =>
      if neqb x (nz 3) then Ok 20
      else if nltb (nz 3) x then Ok 10
      else if neqb x (nz 2) then Ok 30
      else if neqb x (nz 1) then Ok 40
      else if nltb x (nz 1) then Ok 50
      else Err ValueError
  end.

(** ** The surrogate as a Cobaya model *)
(** A value of the [bounds] argument: an array of pairs, or a plain list of pairs. *)
Inductive bounds_arg := BArray (b : list (num * num)) | BList (b : list (num * num)).
Definition pairs (b : bounds_arg) : list (num * num) := match b with BArray b | BList b => b end.
Record cobaya_input := mkInput {
  in_params : list string;                          (* names, in order *)
  in_prior : list (string * (num * num));           (* the [params] block *)
  in_like : list (string * num) -> res num }.       (* the external likelihood, called by keywords *)
(** [kwargs[name]]. *)
Definition kwarg (kw : list (string * num)) (name : string) : res num :=
  match find (fun p => String.eqb (fst p) name) kw with Some p => Ok (snd p) | None => Err KeyError end.
Section Input.
Variable predict : list num -> num.
(** [np.sum(np.log(upper - lower))]. *)
Variable log_volume : list (num * num) -> num.
(** [cobaya_generate_gp_model_input], gpry/mc.py:43-103, for a surrogate of dimension [d] with bounds
    [gp_bounds] (an array). Generic names are produced by [generic_params_names]. [bounds[:, 1]] fails
    for a list. *)
Definition cobaya_generate_gp_model_input (d : nat) (gp_bounds : option (list (num * num)))
    (bounds : option bounds_arg) (params : option (list string)) : res cobaya_input :=
  do bounds <-
    match bounds, gp_bounds with
    | Some b, Some g => if length (pairs b) =? length g then Ok b else Err ValueError
    | Some b, None => Ok b
    | None, Some g => Ok (BArray g)
    | None, None => Err ValueError
    end;
  do params <-
    match params with
    | Some ps => if length ps =? d then Ok ps else Err ValueError
    | None => generic_params_names d "x_"
    end;
  match bounds with
  | BList _ => Err TypeError
  | BArray b =>
      let v := log_volume b in
      Ok (mkInput params (combine params b)
            (fun kw => do xs <- mapM (kwarg kw) params; Ok (nadd (predict xs) v)))
  end.
End Input.

(** ** Options of an MCMC sample *)
Section Mcmc.
Variable argsort : list num -> list nat.
Variable point : Type.
(** The reference point of process [rank], gpry/mc.py:140-145: one value per parameter, or none of them
    ([None] in each) for a process beyond the number of training points. *)
Definition mcmc_reference (X : list point) (y : list num) (rank : nat) : res (option point) :=
  match MGpr.py_neg_index (argsort y) (rank + 1) with
  | Ok i => match nth_error X i with Some x => Ok (Some x) | None => Ok None end
  | Err IndexError => Ok None
  | Err e => Err e
  end.
End Mcmc.
Section Cov.
Variable M : Type.
Variable valid : M -> bool.       (* is_valid_covmat *)
(** Which covariance matrix is meant, gpry/mc.py:268-284: the one passed, or those of the acquisition and
    the convergence criterion of a checkpoint ([None] for a missing object or attribute). *)
Definition choose_cov (covmat acquisition convergence : option M) : option M :=
  match covmat with
  | Some c => Some c
  | None => match acquisition with Some c => Some c | None => convergence end
  end.
(** The [covmat] entry of the sampler input, gpry/mc.py:148-155: left out (outer [None]), or set to
    what was passed, possibly [None]. [verbose] is a number. *)
Definition covmat_entry (cov : option M) (verbose : num) : option (option M) :=
  let invalid := match cov with None => true | Some c => negb (valid c) end in
  if invalid && nleb (nz 2) verbose then None else Some cov.
End Cov.

(** ** Choice of a nested sampler *)
Inductive ns_name := PolyChord | UltraNest | Nessai.
Definition lower_ascii (c : ascii) : ascii :=
  let n := nat_of_ascii c in if (65 <=? n) && (n <=? 90) then ascii_of_nat (n + 32) else c.
Fixpoint lower (s : string) : string :=
  match s with EmptyString => EmptyString | String c s => String (lower_ascii c) (lower s) end.
(** [_ns_interfaces], gpry/ns_interfaces.py:539-543. *)
Definition interface (s : string) : option ns_name :=
  if String.eqb s "polychord" then Some PolyChord
  else if String.eqb s "ultranest" then Some UltraNest
  else if String.eqb s "nessai" then Some Nessai else None.
(** gpry/mc.py:393-423; [installed] says which packages can be imported. A value that is not a string is
    [Some None]. *)
Definition ns_sampler (installed : ns_name -> bool) (sampler : option (option string)) : res ns_name :=
  do name <- match sampler with
             | None => Ok "nested"%string
             | Some None => Err ValueError
             | Some (Some s) => Ok (lower s)
             end;
  if String.eqb name "nested" then
    if installed PolyChord then Ok PolyChord
    else if installed UltraNest then Ok UltraNest else Err NotInstalled
  else
    match interface name with
    | None => Err ValueError
    | Some i => if installed i then Ok i else Err NotInstalled
    end.

(** ** The file with a nested sample *)
(** What [mc_sample_from_gp_ns] writes, gpry/mc.py:445-455: header and rows. [X_mc] in line 447 is not
    defined (the sample is called [X_MC]). [w] is [None] for equal weights. *)
Definition ns_file (params : option (list string)) (X : list (list num)) (y : list num) (w : option (list num))
    : res (list string * list (list num)) :=
  do params <- match params with Some ps => Ok ps | None => Err NameError end;
  let w := match w with Some w => w | None => repeat (nz 1) (length y) end in
  if (length w =? length y) && (length y =? length X)
  then Ok ("w" :: "minuslogp" :: params, map (fun q => fst (fst q) :: nneg (snd (fst q)) :: snd q) (combine (combine w y) X))%string
  else Err ValueError.

(** ** Reading samples given by the user *)
Inductive gd_value := GPath (s : string) | GSamples (k : nat) | GCollection (k : nat) | GOther.
(** [process_gdsamples], gpry/mc.py:459-481. [load] reads a file and may raise. The name [SampleCollection]
    is not defined in the module. *)
Definition process_gdsamples (load : string -> res nat) (cobaya_installed : bool) (d : list (string * gd_value))
    : res (list (string * nat)) :=
  mapM (fun kv =>
    match snd kv with
    | GPath s => do k <- load s; Ok (fst kv, k)
    | GSamples k => Ok (fst kv, k)
    | GCollection _ | GOther => if cobaya_installed then Err NameError else Err ValueError
    end) d.

(** ** Conversion to GetDist *)
(** A list of names, or of pairs of a name and a label; which of them is decided by the first element. *)
Inductive pname := Name (s : string) | Pair (s label : string).
Record gd_samples := mkGd {
  gd_columns : list (list num); gd_names : list string; gd_labels : list string;
  gd_weights : column_; gd_loglikes : option (list num); gd_ranges : list (string * (num * num)) }.
(** Python's [max] and [min] of a list. *)
Definition py_list_max (l : list num) : res num :=
  match l with [] => Err ValueError | x :: l => Ok (fold_left pymax l x) end.
Definition py_list_min (l : list num) : res num :=
  match l with [] => Err ValueError | x :: l => Ok (fold_left pymin l x) end.
(** [np.isclose(x, 0)]: within 1e-8. *)
Definition close_to_0 (x : num) : bool := isfin x && nleb (nabs x) (nq 1 100000000).
Definition name_and_label (first : pname) (p : pname) : res (string * string) :=
  match first, p with
  | Name _, Name s => Ok (s, s)
  | Pair _ _, Pair s l => Ok (s, l)
  | _, _ => Err TypeError
  end.
(** [samples_dict_to_getdist], gpry/mc.py:484-534: what is handed to [MCSamples]. Columns instead of rows.
    [get] of a missing key and a [None] column give no log-density; [zip(params_list, None)] fails. A list
    mixing names and pairs is an error here (Python would take characters of the names). *)
Definition add_log (s : sample) (acc : res (list (list num) * list string * list string)) (nl : string * string)
    : res (list (list num) * list string * list string) :=
  do acc <- acc;
  let '(cols, names, labels) := acc in
  match get_key (fst nl) s with
  | Ok (CVec y) =>
      do a <- py_list_max y; do b <- py_list_min y;
      if close_to_0 (nsub a b) then Ok acc
      else Ok (cols ++ [y], names ++ [(fst nl ++ "*")%string], labels ++ [snd nl])
  | _ => Ok acc
  end.
Definition log_columns : list (string * string) :=
  [("logpost", "\log(p)"); ("logprior", "\log(\pi)"); ("loglike", "\log(\mathrm{L})")]%string.
Definition samples_dict_to_getdist (s : sample) (params : option (list pname)) (bounds : option (list (num * num)))
    : res gd_samples :=
  do X <- get_key "X" s;
  match X with
  | CMat X =>
      do params <- match params with
                   | Some ps => Ok ps
                   | None => match X with
                             | [] => Err IndexError
                             | x :: _ => do ns <- generic_params_names (length x) "x_"; Ok (map Name ns)
                             end
                   end;
      do nl <- match params with [] => Ok [] | p :: _ => mapM (name_and_label p) params end;
      let loglikes := match get_key "logpost" s with Ok (CVec y) => Some (map nneg y) | _ => None end in
      do acc <- fold_left (add_log s) log_columns (Ok (transpose (length params) X, map fst nl, map snd nl));
      let '(cols, names, labels) := acc in
      do w <- get_key "w" s;
      match bounds with
      | None => Err TypeError
      | Some b => Ok (mkGd cols names labels w loglikes (combine names b))
      end
  | _ => Err TypeError
  end.

(** Model of gpry/ns_interfaces.py: what the interfaces do around the nested samplers. Model definitions
    only. *)
From Verif Require Export MMc.

(** ** Output folders *)
Definition slash : ascii := ascii_of_nat 47.
(** [s] up to and including its last slash, and the rest. *)
Fixpoint at_last_slash (s : string) : string * string :=
  match s with
  | EmptyString => (EmptyString, EmptyString)
  | String c s' =>
      let '(h, t) := at_last_slash s' in
      if String.eqb h "" && negb (Ascii.eqb c slash) then (EmptyString, String c t) else (String c h, t)
  end.
Fixpoint all_slashes (s : string) : bool :=
  match s with EmptyString => true | String c s => Ascii.eqb c slash && all_slashes s end.
(** [s.rstrip("/")]. *)
Fixpoint rstrip_slashes (s : string) : string :=
  match s with
  | EmptyString => EmptyString
  | String c s' => if all_slashes s then EmptyString else String c (rstrip_slashes s')
  end.
(** [os.path.split]. *)
Definition os_path_split (s : string) : string * string :=
  let '(h, t) := at_last_slash s in ((if all_slashes h then h else rstrip_slashes h), t).
Section Paths.
Variable abspath : string -> string.
(** [NSInterface.process_out_dir], gpry/ns_interfaces.py:75-99. [random] is the temporary folder it makes up
    if nothing is given, unless that is not allowed. *)
Definition process_out_dir (random : option string) (out_dir : option string) : res (string * string) :=
  match out_dir with
  | None => match random with Some r => Ok (r, "ns_samples"%string) | None => Err ValueError end
  | Some s =>
      let '(base_dir, file_root) := os_path_split s in
      let '(base_dir, file_root) := if String.eqb base_dir "" then (file_root, EmptyString) else (base_dir, file_root) in
      Ok (abspath base_dir, if String.eqb file_root "" then "ns_samples"%string else file_root)
  end.

(** Files, by folder (an absolute path without a final slash) and name. *)
Definition file := (string * string)%type.
Definition sub (d e : string) : string := (d ++ "/" ++ e)%string.
(** [shutil.rmtree(d)]: all files in [d] and its subfolders. *)
Definition within_folder (d : string) (f : file) : bool :=
  String.eqb (fst f) d || String.prefix (d ++ "/") (fst f).
Definition rmtree (d : string) (fs : list file) : list file := filter (fun f => negb (within_folder d f)) fs.
(** The files removed by [InterfacePolyChord.delete_output], gpry/ns_interfaces.py:258-260; [file_root] is taken
    literally (no wildcards in it). *)
Definition polychord_matches (base_dir file_root : string) (f : file) : bool :=
  (String.eqb (fst f) base_dir && (String.prefix (file_root ++ ".") (snd f) || String.prefix (file_root ++ "_") (snd f)))
  || (String.eqb (fst f) (sub base_dir "clusters") && String.prefix (file_root ++ "_") (snd f)).
(** [InterfacePolyChord.delete_output], gpry/ns_interfaces.py:241-269, in the main process; [last] is the
    folder and the root of the last run. Empty folders, which it may remove, are not represented. *)
Definition polychord_delete (last : string * string) (out_dir : option string) (fs : list file) : res (list file) :=
  do br <- match out_dir with None => Ok last | Some s => process_out_dir None (Some s) end;
  let '(base_dir, file_root) := br in
  if String.eqb file_root "" then Ok (rmtree base_dir fs)
  else Ok (filter (fun f => negb (polychord_matches base_dir file_root f)) fs).
(** [InterfaceNessai.delete_output], gpry/ns_interfaces.py:407-419; [last] is the folder of the last run. *)
Definition nessai_delete (last : string) (out_dir : option string) (fs : list file) : res (list file) :=
  do d <- match out_dir with None => Ok last | Some s => do br <- process_out_dir None (Some s); Ok (fst br) end;
  Ok (rmtree d fs).
(** [InterfaceUltraNest.delete_output], gpry/ns_interfaces.py:523-535: line 535 takes [self.output]. *)
Definition ultranest_delete (last : string) (out_dir : option string) (fs : list file) : res (list file) :=
  do d <- match out_dir with None => Ok last | Some s => do br <- process_out_dir None (Some s); Ok (fst br) end;
  Ok (rmtree last fs).
End Paths.

(** ** Priors *)
(** [InterfaceUltraNest.set_prior], gpry/ns_interfaces.py:466-471: from the unit cube to the bounds. *)
Definition uniform_prior_transform (bounds : list (num * num)) (quantiles : list num) : list num :=
  map (fun q => nadd (nmul (fst q) (nsub (snd (snd q)) (fst (snd q)))) (fst (snd q))) (combine quantiles bounds).
(** [MyNessaiModel.log_prior], gpry/ns_interfaces.py:365-369, for the result of [in_bounds] at each point of a
    batch: one number for all. *)
Definition nessai_log_prior (inside : list bool) : num := if existsb (fun b => b) inside then nz 0 else NInf.

(** ** Precision options *)
Section Precision.
(** Values of options: numbers, or strings such as "25d". *)
Variable A : Type.
Definition settings := list (string * A).
Definition setting (k : string) (s : settings) : option A := option_map snd (find (fun p => String.eqb (fst p) k) s).
Fixpoint set_setting (k : string) (v : A) (s : settings) : settings :=
  match s with
  | [] => [(k, v)]
  | p :: s' => if String.eqb (fst p) k then (k, v) :: s' else p :: set_setting k v s'
  end.
(** [get_Xnumber(val, "d", self.dim, int, ...)] (see MTools). *)
Variable in_units_of_d : A -> res A.
(** The options of [set_precision]: [InterfacePolyChord], gpry/ns_interfaces.py:160-170; [InterfaceUltraNest],
    473-488; [InterfaceNessai], 324-333. Name of the argument, name for the sampler, whether it is counted in units
    of d. *)
Definition known_options (i : ns_name) : list (string * string * bool) :=
  match i with
  | PolyChord =>
      [("nlive", "nlive", true); ("num_repeats", "num_repeats", true); ("precision_criterion", "precision_criterion", false);
       ("nprior", "nprior", true); ("max_ncalls", "max_ncalls", true)]
  | UltraNest =>
      [("nlive", "min_num_live_points", true); ("precision_criterion", "frac_remain", false); ("max_ncalls", "max_ncalls", true)]
  | Nessai => [("nlive", "nlive", true); ("precision_criterion", "stopping", false)]
  end%string.
Definition option_value (kw : list (string * option A)) (k : string) : option A :=
  match find (fun p => String.eqb (fst p) k) kw with Some p => snd p | None => None end.
(** Each known option in turn. The settings left behind, also when it raises. *)
Fixpoint set_known (known : list (string * string * bool)) (kw : list (string * option A)) (s : settings) : settings * res unit :=
  match known with
  | [] => (s, Ok tt)
  | (k, t, in_d) :: known =>
      match option_value kw k with
      | None => set_known known kw s
      | Some v =>
          match (if in_d then in_units_of_d v else Ok v) with
          | Ok v => set_known known kw (set_setting t v s)
          | Err e => (s, Err e)
          end
      end
  end.
Definition set_precision (i : ns_name) := set_known (known_options i).
End Precision.
Arguments setting {A}.
Arguments set_setting {A}.
Arguments option_value {A}.
Arguments set_precision {A}.

(** ** Samples *)
(** An array read from a file with one line has one dimension. *)
Inductive loaded := Table (rows : list (list num)) | OneRow (r : list num).
(** [np.loadtxt]. *)
Definition loadtxt (lines : list (list num)) : loaded :=
  match lines with [r] => OneRow r | _ => Table lines end.
(** What [InterfacePolyChord.run] makes of the file, gpry/ns_interfaces.py:234-239: points, log-posteriors,
    weights; for a single line, a vector and two numbers. *)
Inductive ns_result := Samples (X : list (list num)) (y w : list num) | Single (x : list num) (y w : num).
Definition half : num := nq (-1) 2.
Definition polychord_result (l : loaded) : res ns_result :=
  match l with
  | Table rows => Ok (Samples (map (skipn 2) rows) (map (fun r => nmul half (nth 1 r NaN)) rows) (map (fun r => nth 0 r NaN) rows))
  | OneRow r => Ok (Single (skipn 2 r) (nmul half (nth 1 r NaN)) (nth 0 r NaN))
  end.
(** [InterfaceNessai.run], gpry/ns_interfaces.py:390-405: rows of coordinates, log-prior, log-likelihood and
    iteration. *)
Definition nessai_result (rows : list (list num)) : list (list num) * list num :=
  (map (fun r => firstn (length r - 3) r) rows, map (fun r => nth (length r - 2) r NaN) rows).

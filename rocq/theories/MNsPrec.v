(** Model of how [NORA] chooses a nested sampler and sets its precision: gpry/gp_acquisition.py:605-640, 651-699,
    728-748, 760-764, 795-802, 834-842. Model definitions only. *)
From Verif Require Export MNs MRun MNora.

(** ** The sampler *)
(** [self.sampler] after construction: "uniform", without an interface, or one of the interfaces. *)
Inductive chosen := Interface (i : ns_name) | Uniformly.
(** [_init_nested_sampler], lines 651-682; [installed] says which packages can be imported. A value that is not a
    string is [Some None]: the handler of line 676 calls [lower] again. *)
Definition nora_sampler (installed : ns_name -> bool) (sampler : option (option string)) : res chosen :=
  match sampler with
  | None =>
      if installed PolyChord then Ok (Interface PolyChord)
      else if installed UltraNest then Ok (Interface UltraNest) else Err NotInstalled
  | Some None => Err AttributeError
  | Some (Some s) =>
      match interface (lower s) with
      | Some i => if installed i then Ok (Interface i) else Err NotInstalled
      | None => if String.eqb (lower s) "uniform" then Ok Uniformly else Err ValueError
      end
  end.

(** ** Precision *)
Section Precision.
Variable pyfloat : string -> option num.
Variable pow : num -> num -> num.
(** Conversion of an option for dimension [d]. *)
Definition scaled (d : nat) (v : pyvalue) : res Z := get_Xnumber pyfloat pow Z py_int v "d"%char (nz (Z.of_nat d)).
Definition in_units (d : nat) (v : pyvalue) : res pyvalue := do z <- scaled d v; Ok (PNum (nz z)).
Record precision := mkPrecision {
  pr_per_training : Z; pr_max : Z; pr_repeats : Z; pr_criterion : pyvalue; pr_nprior : Z; pr_ncalls : option pyvalue }.
(** Lines 615-634, with [nlive_per_training] and [nprior_per_nlive] integers, as documented. The options
    [nlive_per_dim_max] and [num_repeats_per_dim] are deprecated. *)
Definition new_precision (d : nat) (per_training : Z) (nlive_max : pyvalue) (nlive_per_dim_max : option Z)
    (num_repeats : pyvalue) (num_repeats_per_dim : option Z) (criterion : pyvalue) (nprior : Z) (ncalls : option pyvalue)
    : res precision :=
  do m <- match nlive_per_dim_max with Some k => Ok (k * Z.of_nat d)%Z | None => scaled d nlive_max end;
  do r <- match num_repeats_per_dim with Some k => Ok (k * Z.of_nat d)%Z | None => scaled d num_repeats end;
  Ok (mkPrecision per_training m r criterion nprior ncalls).
(** [update_NS_precision], lines 684-699, for [n] training points. *)
Definition ns_precision (p : precision) (n : nat) : list (string * option pyvalue) :=
  let l := nlive (pr_per_training p) (Z.of_nat n) (pr_max p) in
  [("nlive", Some (PNum (nz l))); ("num_repeats", Some (PNum (nz (pr_repeats p)))); ("precision_criterion", Some (pr_criterion p));
   ("nprior", Some (PNum (nz (pr_nprior p * l)))); ("max_ncalls", pr_ncalls p)]%string.
(** The options passed on: lines 764, 797-800, 837-840. *)
Definition passed_on (i : ns_name) : list string :=
  match i with
  | PolyChord => ["nlive"; "num_repeats"; "precision_criterion"; "nprior"; "max_ncalls"]
  | UltraNest => ["nlive"; "precision_criterion"; "max_ncalls"]
  | Nessai => ["nlive"; "precision_criterion"]
  end%string.
(** The settings of the interface at the start of a run with [n] training points. *)
Definition nora_set_precision (d : nat) (i : ns_name) (p : precision) (n : nat) (s : settings pyvalue) : settings pyvalue * res unit :=
  set_precision (in_units d) i (filter (fun q => existsb (String.eqb (fst q)) (passed_on i)) (ns_precision p n)) s.
End Precision.

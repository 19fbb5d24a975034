(** Model of how the [Runner] builds its components from names and dictionaries, gpry/run.py:306-519, and the acquisition function,
    gpry/gp_acquisition.py:51-78. Definitions only. *)
From Verif Require Export MConv.
Open Scope string_scope.

(** Values that are passed. Objects are told apart by the class the code asks for. *)
Inductive kind := KRegressor | KAcquisition | KProposer | KCriterion | KFunction | KOther.
Inductive val :=
| VNone | VBool (b : bool) | VNum (z : Z) | VStr (s : string) | VObj (k : kind) (id : nat)
| VMap (m : list (string * val)) | VList (l : list val).
(** Dictionaries: the keys in order; a key set again keeps its place. *)
Notation dict := (list (string * val)).
Fixpoint lookup (k : string) (m : dict) : option val :=
  match m with [] => None | (k', v) :: m => if String.eqb k k' then Some v else lookup k m end.
Fixpoint put (k : string) (v : val) (m : dict) : dict :=
  match m with
  | [] => [(k, v)]
  | (k', v') :: m => if String.eqb k k' then (k', v) :: m else (k', v') :: put k v m
  end.
(** [for k, v in defaults.items(): if k not in m: m[k] = v] *)
Definition fill (m defaults : dict) : dict :=
  fold_left (fun m kv => match lookup (fst kv) m with Some _ => m | None => put (fst kv) (snd kv) m end) defaults m.
(** [v or {}] *)
Definition or_empty (v : val) : val :=
  match v with
  | VNone | VBool false | VNum 0 | VStr "" | VMap [] | VList [] => VMap []
  | _ => v
  end.

(** What a component is: the object given, or the class to be called with keyword arguments. *)
Inductive made := Given (v : val) | Make (cls : string) (args : dict) | MakeCriterion (cls : string) (params : val).

Section Build.
Variables (d size : Z).
(** The values of [prior_bounds], [Normalize_bounds(...)], [Normalize_y()], [rng], [verbose] of the runner, and its truth. *)
Variables (bounds pre_X pre_y rng verbose truth : val).
(** [get_Xnumber(v, "d", d, int, ...)] *)
Variable xnum : val -> res Z.
(** Whether calling a class with these arguments returns. *)
Variable ctor : string -> dict -> res unit.
Variable criterion : string -> val -> res unit.
(** Names of acquisition functions; attributes of the modules gp_acquisition and convergence. *)
Variables (functions engines criteria : list string).
Definition known (l : list string) (s : string) : bool := existsb (String.eqb s) l.
(** [except ValueError] and [except Exception]: raised again as ValueError. *)
Definition any_error {A} (r : res A) : res A := match r with Err _ => Err ValueError | Ok a => Ok a end.

(** :315-325 *)
Definition gpr_defaults : dict :=
  [("kernel", VStr "RBF"); ("n_restarts_optimizer", VNum (10 + 2 * d)); ("preprocessing_X", pre_X); ("preprocessing_y", pre_y);
   ("bounds", bounds); ("random_state", rng); ("verbose", verbose); ("account_for_inf", VStr "SVM"); ("inf_threshold", VStr "20s")].
(** :334-340 *)
Definition round_restarts (n : Z) : Z := if ((size <? n) && negb (n mod size =? 0))%Z then (n / size * size)%Z else n.
(** [_construct_gpr], :306-355. *)
Definition build_gpr (v : val) : res made :=
  match v with
  | VObj KRegressor _ => Ok (Given v)
  | VStr _ | VMap _ =>
      let g := match v with VStr s => [("kernel", VStr s)] | VMap m => m | _ => [] end in
      let g := fill g gpr_defaults in
      match lookup "n_restarts_optimizer" g with
      | Some r =>
          do n <- xnum r;
          let g := put "n_restarts_optimizer" (VNum (round_restarts n)) g in
          do _ <- ctor "GaussianProcessRegressor" g;
          Ok (Make "GaussianProcessRegressor" g)
      | None => Err KeyError
      end
  | _ => Err TypeError
  end.

(** :377-382; the regressor's preprocessor is [pre_X] if it was built with the defaults, any value otherwise. *)
Definition acq_defaults (gpr_pre_X : val) : dict :=
  [("bounds", bounds); ("preprocessing_X", gpr_pre_X); ("acq_func", VMap [("LogExp", VMap [("zeta_scaling", VStr "0.85")])]); ("verbose", verbose)].
(** [_construct_gp_acquisition], :357-404. *)
Definition build_acq (gpr_pre_X : val) (v : val) : res made :=
  match v with
  | VObj KAcquisition _ => Ok (Given v)
  | VNone | VStr _ | VMap _ =>
      let m := match v with VStr s => [(s, VMap [])] | VMap m => m | _ => [("BatchOptimizer", VMap [])] end in
      match m with
      | [] => Err IndexError
      | (name, a) :: _ =>
          let '(name, a) := if known functions name then ("BatchOptimizer", VMap [("acq_func", VMap [(name, VMap [])])]) else (name, a) in
          match or_empty a with
          | VMap args =>
              let args := fill args (acq_defaults gpr_pre_X) in
              if known engines name then do _ <- any_error (ctor name args); Ok (Make name args) else Err ValueError
          | VStr _ | VList _ => Err TypeError    (** item assignment *)
          | _ => Err TypeError                   (** not iterable *)
          end
      end
  | _ => Err TypeError
  end.

(** gp_acquisition.py:51-78: the acquisition function of an acquisition object. *)
Definition build_function (v : val) : res made :=
  match v with
  | VObj KFunction _ => Ok (Given v)
  | VStr _ | VMap _ =>
      match (match v with VStr s => [(s, VMap [])] | VMap m => m | _ => [] end) with
      | [] => Err IndexError
      | (name, a) :: _ =>
          match or_empty a with
          | VMap args =>
              let args := put "dimension" (VNum d) args in
              if known functions name then do _ <- any_error (ctor name args); Ok (Make name args) else Err ValueError
          | _ => Err TypeError
          end
      end
  | _ => Err TypeError
  end.

(** [s.endswith("proposer")], then without it. :419-421 *)
Fixpoint drop_suffix (suffix s : string) : string :=
  match s with
  | EmptyString => EmptyString
  | String c s' => if String.eqb s suffix then EmptyString else String c (drop_suffix suffix s')
  end.
(** [_construct_initial_proposer], :406-444. *)
Definition build_proposer (v : val) : res made :=
  match v with
  | VObj KProposer _ => Ok (Given v)
  | VStr _ | VMap _ =>
      match (match v with VStr s => [(s, VMap [])] | VMap m => m | _ => [] end) with
      | [] => Err IndexError
      | (name, a) :: _ =>
          match a with
          | VMap args =>
              let args := fill args [("bounds", bounds)] in
              let short := drop_suffix "proposer" (lower name) in
              let call cls args := do _ <- ctor cls args; Ok (Make cls args) in
              let with_truth cls := match lookup "truth" args with Some _ => Err TypeError | None => call cls (put "truth" truth args) end in
              if String.eqb short "reference" then with_truth "ReferenceProposer"
              else if String.eqb short "prior" then with_truth "PriorProposer"
              else if String.eqb short "uniform" then call "UniformProposer" args
              else if String.eqb short "meancov" then call "MeanCovProposer" args
              else Err ValueError
          | _ => Err TypeError
          end
      end
  | _ => Err TypeError
  end.

(** :456-459 *)
Definition default_criteria (acq_has_mc : bool) : dict :=
  ("CorrectCounter", VMap [("policy", VStr "s")]) ::
  (if acq_has_mc then [("GaussianKL", VMap [("policy", VStr "s")]); ("TrainAlignment", VMap [("policy", VStr "n")])] else []).
(** :477-503: one element of what is iterated over; [args] are the parameters found for it. *)
Definition build_one (cc : val) (args : val) : res made :=
  match cc with
  | VObj KCriterion _ => Ok (Given cc)
  | VStr s => if known criteria s then do _ <- any_error (criterion s args); Ok (MakeCriterion s args) else Err ValueError
  | VMap _ => Err TypeError    (** [getattr(gpryconv, {...})] *)
  | _ => Err TypeError
  end.
Fixpoint build_all (l : list (val * val)) : res (list made) :=
  match l with
  | [] => Ok []
  | (cc, a) :: l => do m <- build_one cc a; do r <- build_all l; Ok (m :: r)
  end.
(** [_construct_convergence_criterion], :446-503. *)
Definition build_convergence (acq_has_mc : bool) (v : val) : res (list made) :=
  match v with
  | VBool false => Ok [MakeCriterion "DontConverge" VNone]
  | _ =>
      let v := match v with VNone => VMap (default_criteria acq_has_mc) | _ => v end in
      build_all (match v with
                 | VMap m => map (fun kv => (VStr (fst kv), or_empty (snd kv))) m
                 | VList l => map (fun x => (x, VMap [])) l
                 | _ => [(v, VMap [])]
                 end)
  end.
(** [_construct_mc_options], :506-519. *)
Definition build_mc (v : val) : res dict :=
  match v with
  | VNone => Ok []
  | VStr s => Ok [(s, VMap [])]
  | VMap m => if Nat.ltb 1 (length m) then Err TypeError else Ok m
  | _ => Err TypeError
  end.
(** [generate_mc_sample], :1629-1661 and 1682-1691: the sampler and its options. [mc]: what [_construct_mc_options] stored (None after resuming, when it is not called);
    [fitted]: the regressor has points. *)
Inductive sampler := Nested (options : dict) | Cobaya (name : string) (options : dict).
Definition choose_sampler (mc : option dict) (fitted : bool) (arg : val) (add_options : val) : res sampler :=
  if negb fitted then Err ValueError else
  do v <- match arg with VNone => match mc with Some m => Ok (VMap m) | None => Err AttributeError end | _ => Ok arg end;
  do m <- match v with VStr s => Ok [(s, VMap [])] | VMap m => Ok m | _ => Err ValueError end;
  match m with
  | [] => Err IndexError
  | (name, a) :: _ =>
      match add_options with
      | VNone =>
          match or_empty a with
          | VMap opts =>
              if String.eqb (lower name) "nested" then Ok (Nested (fill opts [("nlive", VNum (50 * d))])) else Ok (Cobaya (lower name) opts)
          | _ => Err TypeError
          end
      | _ => Err ValueError
      end
  end.
(** :996 and :1047: [run] draws the final sample with what is stored, and diagnoses it. *)
Definition final_sample (mc : option dict) (fitted : bool) (sample_and_diagnose : sampler -> res bool) : res bool :=
  match mc with
  | None => Err AttributeError
  | Some m => do s <- choose_sampler mc fitted (VMap m) VNone; sample_and_diagnose s
  end.
End Build.

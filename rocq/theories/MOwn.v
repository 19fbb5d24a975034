(** Model of what happens to dictionaries that users pass: gpry/run.py:306-519 and 1629-1661, gpry/gp_acquisition.py:51-78,
    gpry/convergence.py:586-592 and 690-697. Dictionaries are mutable objects in a memory, which may be shared. Values that are
    built are those of [MBuild]. Definitions only. *)
From Verif Require Export MBuild.
Open Scope string_scope.
Open Scope list_scope.

(** Values: dictionaries by reference, anything else as in [MBuild] (not [VMap]). *)
Inductive mval := MPrim (v : val) | MRef (l : nat).
Notation mdict := (list (string * mval)).
Notation memory := (list mdict).
Fixpoint mlookup (k : string) (m : mdict) : option mval :=
  match m with [] => None | (k', v) :: m => if String.eqb k k' then Some v else mlookup k m end.
(** [m[k] = v] *)
Fixpoint mput (k : string) (v : mval) (m : mdict) : mdict :=
  match m with
  | [] => [(k, v)]
  | (k', v') :: m => if String.eqb k k' then (k', v) :: m else (k', v') :: mput k v m
  end.
Definition mfill (m defaults : mdict) : mdict :=
  fold_left (fun m kv => match mlookup (fst kv) m with Some _ => m | None => mput (fst kv) (snd kv) m end) defaults m.
Definition cell (mem : memory) (l : nat) : mdict := nth l mem [].
Fixpoint write (mem : memory) (l : nat) (m : mdict) : memory :=
  match mem, l with
  | [], _ => []
  | _ :: mem', 0 => m :: mem'
  | m' :: mem', S l' => m' :: write mem' l' m
  end.
(** A new dictionary. *)
Definition alloc (mem : memory) (m : mdict) : memory * nat := (mem ++ [m], length mem).
(** [v or {}] for a dictionary or None; TypeError later for anything else that is true. *)
Definition or_new (mem : memory) (v : mval) : memory * option nat :=
  match v with
  | MRef l => match cell mem l with [] => let '(mem, l) := alloc mem [] in (mem, Some l) | _ => (mem, Some l) end
  | MPrim v => match or_empty v with VMap _ => let '(mem, l) := alloc mem [] in (mem, Some l) | _ => (mem, None) end
  end.

(** What is made, with the dictionaries as they are at that moment. *)
Inductive mmade := MGiven (v : mval) | MMake (cls : string) (args : mdict).

Section Own.
Variables (d size : Z).
Variables (bounds pre_X pre_y rng verbose truth : val).
Variable xnum : mval -> res Z.
(** Whether calling a class with these arguments returns, apart from what is below. *)
Variable ctor : string -> mdict -> res unit.
Variables (functions engines criteria : list string).
(** [copy.deepcopy] *)
Variable deepcopy : memory -> mval -> memory * mval.

(** run.py:306-355: [_construct_gpr]. *)
Definition own_gpr (mem : memory) (v : mval) : memory * res mmade :=
  let go mem l :=
    let mem := write mem l (mfill (cell mem l) (map (fun kv => (fst kv, MPrim (snd kv))) (gpr_defaults d bounds pre_X pre_y rng verbose))) in
    match mlookup "n_restarts_optimizer" (cell mem l) with
    | None => (mem, Err KeyError)
    | Some r => match xnum r with
                | Err x => (mem, Err x)
                | Ok n => let mem := write mem l (mput "n_restarts_optimizer" (MPrim (VNum (round_restarts size n))) (cell mem l)) in
                          (mem, do _ <- ctor "GaussianProcessRegressor" (cell mem l); Ok (MMake "GaussianProcessRegressor" (cell mem l)))
                end
    end in
  match v with
  | MPrim (VObj KRegressor _) => (mem, Ok (MGiven v))
  | MPrim (VStr s) => let '(mem, l) := alloc mem [("kernel", MPrim (VStr s))] in go mem l
  | MRef _ => match deepcopy mem v with (mem, MRef l) => go mem l | (mem, _) => (mem, Err TypeError) end
  | MPrim _ => (mem, Err TypeError)
  end.

(** gp_acquisition.py:51-78: the function of an acquisition object; writes into the dictionary that it is given. *)
Definition own_function (mem : memory) (v : mval) : memory * res mmade :=
  let go mem name a :=
    match or_new mem a with
    | (mem, None) => (mem, Err TypeError)
    | (mem, Some l) =>
        let mem := write mem l (mput "dimension" (MPrim (VNum d)) (cell mem l)) in
        (mem, if known functions name then do _ <- any_error (ctor name (cell mem l)); Ok (MMake name (cell mem l)) else Err ValueError)
    end in
  match v with
  | MPrim (VObj KFunction _) => (mem, Ok (MGiven v))
  | MPrim (VStr s) => let '(mem, l) := alloc mem [] in go mem s (MRef l)
  | MRef l => match cell mem l with [] => (mem, Err IndexError) | (name, a) :: _ => go mem name a end
  | MPrim _ => (mem, Err TypeError)
  end.
(** An acquisition object, gp_acquisition.py:41-78: its function is made first. *)
Definition own_engine (mem : memory) (name : string) (args : mdict) : memory * res mmade :=
  match own_function mem (match mlookup "acq_func" args with Some f => f | None => MPrim (VStr "LogExp") end) with
  | (mem, Err x) => (mem, Err x)
  | (mem, Ok _) => (mem, do _ <- ctor name args; Ok (MMake name args))
  end.
(** run.py:357-404: [_construct_gp_acquisition]. *)
Definition own_acq (mem : memory) (gpr_pre_X : val) (v : mval) : memory * res mmade :=
  let go mem l :=
    match cell mem l with
    | [] => (mem, Err IndexError)
    | (name, a) :: _ =>
        let '(mem, name, a) :=
          if known functions name then
            let '(mem, l0) := alloc mem [] in
            let '(mem, l1) := alloc mem [(name, MRef l0)] in
            let '(mem, l2) := alloc mem [("acq_func", MRef l1)] in (mem, "BatchOptimizer", MRef l2)
          else (mem, name, a) in
        match or_new mem a with
        | (mem, None) => (mem, Err TypeError)
        | (mem, Some la) =>
            let '(mem, l0) := alloc mem [("zeta_scaling", MPrim (VStr "0.85"))] in
            let '(mem, l1) := alloc mem [("LogExp", MRef l0)] in
            let mem := write mem la (mfill (cell mem la)
                         [("bounds", MPrim bounds); ("preprocessing_X", MPrim gpr_pre_X); ("acq_func", MRef l1); ("verbose", MPrim verbose)]) in
            if known engines name then match own_engine mem name (cell mem la) with (mem, r) => (mem, any_error r) end else (mem, Err ValueError)
        end
    end in
  match v with
  | MPrim (VObj KAcquisition _) => (mem, Ok (MGiven v))
  | MPrim VNone => let '(mem, l0) := alloc mem [] in let '(mem, l) := alloc mem [("BatchOptimizer", MRef l0)] in go mem l
  | MPrim (VStr s) => let '(mem, l0) := alloc mem [] in let '(mem, l) := alloc mem [(s, MRef l0)] in go mem l
  | MRef _ => match deepcopy mem v with (mem, MRef l) => go mem l | (mem, _) => (mem, Err TypeError) end
  | MPrim _ => (mem, Err TypeError)
  end.

(** run.py:406-444: [_construct_initial_proposer]. *)
Definition own_proposer (mem : memory) (v : mval) : memory * res mmade :=
  let go mem l :=
    match cell mem l with
    | [] => (mem, Err IndexError)
    | (name, MPrim _) :: _ => (mem, Err TypeError)
    | (name, MRef la) :: _ =>
        let mem := write mem la (mfill (cell mem la) [("bounds", MPrim bounds)]) in
        let args := cell mem la in
        let short := drop_suffix "proposer" (lower name) in
        let call cls args := do _ <- ctor cls args; Ok (MMake cls args) in
        let with_truth cls := match mlookup "truth" args with Some _ => Err TypeError | None => call cls (mput "truth" (MPrim truth) args) end in
        (mem, if String.eqb short "reference" then with_truth "ReferenceProposer"
              else if String.eqb short "prior" then with_truth "PriorProposer"
              else if String.eqb short "uniform" then call "UniformProposer" args
              else if String.eqb short "meancov" then call "MeanCovProposer" args
              else Err ValueError)
    end in
  match v with
  | MPrim (VObj KProposer _) => (mem, Ok (MGiven v))
  | MPrim (VStr s) => let '(mem, l0) := alloc mem [] in let '(mem, l) := alloc mem [(s, MRef l0)] in go mem l
  | MRef _ => match deepcopy mem v with (mem, MRef l) => go mem l | (mem, _) => (mem, Err TypeError) end
  | MPrim _ => (mem, Err TypeError)
  end.

(** [params.get(k) is None] *)
Definition unset (k : string) (m : mdict) : bool := match mlookup k m with None | Some (MPrim VNone) => true | _ => false end.
Definition set_unset (k : string) (v : val) (m : mdict) : mdict := if unset k m then mput k (MPrim v) m else m.
(** Constructors of criteria: GaussianKLTrain (convergence.py:586-592) and TrainAlignment (:690-697) write into the dictionary that
    they are given; the others only read, so that a new empty dictionary in place of an empty one makes no difference there. *)
Definition own_criterion (mem : memory) (cls : string) (l : nat) : memory * res mmade :=
  let complete := if (cls =? "GaussianKLTrain")%string then fun m => set_unset "limit_times" (VNum 2) (set_unset "limit" (VNum d) m)
                  else if (cls =? "TrainAlignment")%string then fun m => set_unset "limit_times" (VNum 1) (set_unset "limit" (VStr "0.5") m)
                  else fun m => m in
  let '(mem, l) := match cell mem l with [] => alloc mem [] | _ => (mem, l) end in    (** [params or {}] *)
  let mem := write mem l (complete (cell mem l)) in
  (mem, do _ <- ctor cls (cell mem l); Ok (MMake cls (cell mem l))).
(** run.py:446-503 for dictionaries: [_construct_convergence_criterion]. Values are copied one by one, criteria are kept. *)
Fixpoint own_copies (mem : memory) (items : mdict) : memory * mdict :=
  match items with
  | [] => (mem, [])
  | (k, v) :: items =>
      let '(mem, v) := match v with MPrim (VObj KCriterion _) => (mem, v) | _ => deepcopy mem v end in
      let '(mem, r) := own_copies mem items in (mem, (k, v) :: r)
  end.
Fixpoint own_criteria (mem : memory) (items : mdict) : memory * res (list mmade) :=
  match items with
  | [] => (mem, Ok [])
  | (k, v) :: items =>
      if known criteria k then
        match or_new mem v with
        | (mem, None) => (mem, Err ValueError)
        | (mem, Some l) =>
            match own_criterion mem k l with
            | (mem, Err _) => (mem, Err ValueError)
            | (mem, Ok m) => match own_criteria mem items with
                             | (mem, Ok r) => (mem, Ok (m :: r))
                             | (mem, Err x) => (mem, Err x)
                             end
            end
        end
      else (mem, Err ValueError)
  end.
Definition own_convergence (mem : memory) (l : nat) : memory * res (list mmade) :=
  let '(mem, items) := own_copies mem (cell mem l) in own_criteria mem items.

(** run.py:506-519: [_construct_mc_options]; :277: [self.options = deepcopy(options)], which is only read. *)
Definition own_mc (mem : memory) (v : mval) : memory * res mval :=
  match v with
  | MPrim VNone => let '(mem, l) := alloc mem [] in (mem, Ok (MRef l))
  | MPrim (VStr s) => let '(mem, l0) := alloc mem [] in let '(mem, l) := alloc mem [(s, MRef l0)] in (mem, Ok (MRef l))
  | MRef l => if Nat.ltb 1 (length (cell mem l)) then (mem, Err TypeError) else let '(mem, v) := deepcopy mem v in (mem, Ok v)
  | MPrim _ => (mem, Err TypeError)
  end.

(** run.py:263-278: the constructions of [Runner(...)], in order. The convergence criteria are built by one process only; here it is
    this one. *)
Record inputs := mkInputs { i_gpr : mval; i_acq : mval; i_proposer : mval; i_convergence : nat; i_mc : mval; i_options : mval }.
Definition own_runner (mem : memory) (gpr_pre_X : val) (i : inputs) : memory * res (mval * mval) :=
  match own_gpr mem (i_gpr i) with (mem, Err x) => (mem, Err x) | (mem, Ok _) =>
  match own_acq mem gpr_pre_X (i_acq i) with (mem, Err x) => (mem, Err x) | (mem, Ok _) =>
  match own_proposer mem (i_proposer i) with (mem, Err x) => (mem, Err x) | (mem, Ok _) =>
  match own_convergence mem (i_convergence i) with (mem, Err x) => (mem, Err x) | (mem, Ok _) =>
  match own_mc mem (i_mc i) with (mem, Err x) => (mem, Err x) | (mem, Ok mc) =>
  let '(mem, o) := deepcopy mem (i_options i) in (mem, Ok (mc, o)) end end end end end.

(** run.py:1629-1661 and 1682-1691: [generate_mc_sample] of a fitted surrogate up to the call of the sampler: which, and the options it gets. *)
Definition own_sample (mem : memory) (v : mval) : memory * res (string * mdict) :=
  let go mem name a :=
    match or_new mem a with
    | (mem, None) => (mem, Err TypeError)
    | (mem, Some l) =>
        if String.eqb (lower name) "nested" then
          let mem := write mem l (mfill (cell mem l) [("nlive", MPrim (VNum (50 * d)))]) in (mem, Ok ("nested", cell mem l))
        else (mem, Ok (lower name, cell mem l))
    end in
  match v with
  | MPrim (VStr s) => let '(mem, l) := alloc mem [] in go mem s (MRef l)
  | MRef l => match cell mem l with [] => (mem, Err IndexError) | (name, a) :: _ => go mem name a end
  | MPrim _ => (mem, Err ValueError)
  end.
End Own.

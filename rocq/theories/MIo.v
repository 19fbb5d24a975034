(** Model of gpry/io.py and of how a [Runner] uses it (gpry/run.py:217-305, 680-690, 723-747): checkpoint
    files. One process (the main one). Model definitions only. *)
From Verif Require Export MTools.

(** The files of a checkpoint, in the order of [_checkpoint_filenames], gpry/io.py:12-19. *)
Inductive slot := STruth | SGpr | SAcq | SConv | SOpt | SProg.
Definition slots : list slot := [STruth; SGpr; SAcq; SConv; SOpt; SProg].
Definition slot_eqb (a b : slot) : bool :=
  match a, b with
  | STruth, STruth | SGpr, SGpr | SAcq, SAcq | SConv, SConv | SOpt, SOpt | SProg, SProg => true
  | _, _ => false
  end.

Section Io.
(** Python objects other than the truth; truth objects. *)
Variables V T : Type.
(** [truth.as_dict()] and [get_truth( **d )] (see MTruth and C05). *)
Variable as_dict : T -> V.
Variable get_truth : V -> res T.

(** What is in a file: the pickle of an object, or the beginning of one. *)
Inductive content := Whole (v : V) | Torn.
(** The files in a folder, or no folder. *)
Definition folder := option (slot -> option content).
Definition empty_folder : slot -> option content := fun _ => None.
Definition put (i : slot) (c : content) (f : slot -> option content) : slot -> option content :=
  fun j => if slot_eqb j i then Some c else f j.

(** [check_checkpoint], gpry/io.py:41-61; [path] is [None] or a folder. *)
Definition check_checkpoint (path : option folder) : list bool :=
  match path with
  | Some (Some f) => map (fun i => match f i with Some _ => true | None => false end) slots
  | _ => map (fun _ => false) slots
  end.

(** ** Saving *)
(** A file is truncated when opened; what follows ends with the whole object in it. *)
Inductive step := Truncate (i : slot) | Finish (i : slot) (v : V).
Definition do_step (s : step) (f : slot -> option content) : slot -> option content :=
  match s with Truncate i => put i Torn f | Finish i v => put i (Whole v) f end.
Definition write (i : slot) (v : V) : list step := [Truncate i; Finish i v].
Record objects := mkObjects { o_gpr : V; o_acq : V; o_conv : V; o_opt : V; o_prog : V }.
(** gpry/io.py:137-150: the steps of a save that meets no error. *)
Definition save_steps (truth : option T) (o : objects) : list step :=
  match truth with Some t => write STruth (as_dict t) | None => [] end
  ++ write SGpr (o_gpr o) ++ write SAcq (o_acq o) ++ write SConv (o_conv o)
  ++ write SOpt (o_opt o) ++ write SProg (o_prog o).
(** The folder after some of the steps: what a crash leaves behind. *)
Definition after (n : nat) (l : list step) (f : slot -> option content) : slot -> option content :=
  fold_left (fun f s => do_step s f) (firstn n l) f.
(** [save_checkpoint], gpry/io.py:109-155. [fails] is the number of steps that work if something raises (the
    disk is full, an object cannot be pickled, ...); [mkdir] whether a missing folder can be created. The
    folder afterwards and whether it raised. *)
Definition save_checkpoint (mkdir : bool) (fails : option nat) (truth : option T) (o : objects) (path : option folder)
    : option folder * res unit :=
  match path with
  | None => (None, Ok tt)
  | Some fo =>
      match (match fo with Some f => Some f | None => if mkdir then Some empty_folder else None end) with
      | None => (path, Err OSError)
      | Some f =>
          let l := save_steps truth o in
          match fails with
          | Some n => if n <? length l then (Some (Some (after n l f)), Err RuntimeError)
                      else (Some (Some (after (length l) l f)), Ok tt)
          | None => (Some (Some (after (length l) l f)), Ok tt)
          end
      end
  end.

(** ** Reading *)
(** [open] and, if the flag is set, [pickle.load]. [None] is the object [None]; a truncated file raises
    (EOFError or UnpicklingError). *)
Definition load (fo : folder) (i : slot) (flag : bool) : res (option V) :=
  match fo with
  | None => Err FileNotFoundError
  | Some f =>
      match f i with
      | None => Err FileNotFoundError
      | Some c => if flag then match c with Whole v => Ok (Some v) | Torn => Err EOFError end else Ok None
      end
  end.
(** The [truth] argument: not given, a [Truth], something else. *)
Inductive truth_arg := NoTruth | ATruth (t : T) | NotTruth.
Definition loaded_parts := (T * option V * option V * option V * option V * option V)%type.
(** [read_checkpoint], gpry/io.py:64-106, for a path. The flags for the options and the progress are swapped
    (lines 103 and 105). A missing flag for the truth with the file there cannot happen; the branch for old
    Cobaya models (lines 92-95) is only reached with a stored [None], which is never saved, and left out. *)
Definition read_checkpoint (fo : folder) (truth : truth_arg) : res loaded_parts :=
  let flag i := nth i (check_checkpoint (Some fo)) false in
  do t <- match truth with
          | NotTruth => Err ValueError
          | ATruth t => Ok t
          | NoTruth => do d <- load fo STruth (flag 0);
                       match d with Some d => get_truth d | None => Err TypeError end
          end;
  do g <- load fo SGpr (flag 1);
  do a <- load fo SAcq (flag 2);
  do c <- load fo SConv (flag 3);
  do o <- load fo SOpt (flag 5);
  do p <- load fo SProg (flag 4);
  Ok (t, g, a, c, o, p).

(** ** [ensure_gpr], gpry/io.py:159-202 *)
(** [truthy] is [bool(x)]; [GPath] a path, [GObject] a regressor, [GWrong] anything else. [None] for objects
    not passed. A [Truth] is always true. *)
Variable truthy : V -> bool.
Inductive gpr_arg := GPath (fo : folder) | GObject (g : V) | GWrong.
Definition py_or (x y : option V) : option V :=
  match x with Some v => if truthy v then x else y | None => y end.
Definition ensure_gpr (gpr : gpr_arg) (truth : truth_arg) (acq conv opt prog : option V)
    : res (option T * option V * option V * option V * option V * option V) :=
  let given := match truth with ATruth t => Some t | _ => None end in
  match gpr with
  | GWrong => Err TypeError
  | GObject g => Ok (given, Some g, py_or acq None, py_or conv None, py_or opt None, py_or prog None)
  | GPath fo =>
      do r <- read_checkpoint fo truth;
      let '(t, g, a, c, o, p) := r in
      Ok (match given with Some t => Some t | None => Some t end,
          g, py_or acq a, py_or conv c, py_or opt o, py_or prog p)
  end.

(** ** The [Runner] *)
(** The [load_checkpoint] argument. *)
Inductive load_arg := LNone | LStr (s : string) | LOther.
Definition lower_ascii (c : ascii) : ascii :=
  let n := nat_of_ascii c in if (65 <=? n) && (n <=? 90) then ascii_of_nat (n + 32) else c.
Fixpoint lower (s : string) : string :=
  match s with EmptyString => EmptyString | String c s => String (lower_ascii c) (lower s) end.
Inductive started := Resumed (p : loaded_parts) | Fresh (t : T) (o : objects).
(** [Runner.__init__], gpry/run.py:217-285, as far as checkpoints are concerned. [truth] is what
    [get_truth(loglike, ...)] gives, [None] if no loglike was passed (then it raises TypeError); [fresh] builds
    the remaining objects from the arguments; [usable] says whether the stored options are accepted by
    [_construct_options]. The folder afterwards and the runner. *)
Definition start (mkdir : bool) (truth : option (res T)) (fresh : T -> res objects) (usable : option V -> res unit)
    (path : option folder) (ld : load_arg) : option folder * res started :=
  let mode := match ld with LStr s => Some (lower s) | _ => None end in
  let valid := match mode with Some s => String.eqb s "resume" || String.eqb s "overwrite" | None => false end in
  match path, valid with
  | Some _, false => (path, Err ValueError)
  | _, _ =>
      let try_resuming := match path, mode with Some _, Some s => String.eqb s "resume" | _, _ => false end in
      let loaded := try_resuming && forallb (fun b => b) (check_checkpoint path) in
      match (match path with
             | Some None => if mkdir then Ok (Some (Some empty_folder)) else Err OSError
             | _ => Ok path
             end) with
      | Err e => (path, Err e)
      | Ok path =>
          (path,
           do t <- match truth with
                   | None => if loaded then Err TypeError else Err ValueError
                   | Some r => r
                   end;
           match loaded, path with
           | true, Some fo =>
               do p <- read_checkpoint fo (ATruth t);
               let '(_, _, _, _, o, _) := p in
               do _ <- usable o; Ok (Resumed p)
           | _, _ => do o <- fresh t; Ok (Fresh t o)
           end)
      end
  end.
(** [Runner.save_checkpoint], gpry/run.py:736-747: also whether the truth counts as saved. *)
Definition runner_save (mkdir : bool) (fails : option nat) (update_truth : bool) (truth : T) (o : objects)
    (st : bool * option folder) : (bool * option folder) * res unit :=
  let '(saved, path) := st in
  let now := update_truth || negb saved in
  let '(path, r) := save_checkpoint mkdir fails (if now then Some truth else None) o path in
  ((saved || now, path), r).
End Io.

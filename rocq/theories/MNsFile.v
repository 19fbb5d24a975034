(** Model of where the sample of a nested sampler is written: [Runner.generate_mc_sample] (gpry/run.py:1636-1637) and [mc_sample_from_gp_ns] (gpry/mc.py:432-455). What is in the file is
    modelled in [MMc] ([ns_file]). Definitions only. *)
From Verif Require Export MNs.

Definition dot : ascii := ascii_of_nat 46.
(** The argument [output]: None, False, or a path. *)
Inductive out_arg := ONone | OFalse | OPath (s : string).
(** [os.path.join(a, b)] for [b] without a slash at its beginning. *)
Fixpoint ends_in_slash (s : string) : bool := match s with EmptyString => false | String c EmptyString => Ascii.eqb c slash | String _ s => ends_in_slash s end.
Definition os_path_join (a b : string) : string := if String.eqb a "" || ends_in_slash a then (a ++ b)%string else (a ++ "/" ++ b)%string.
(** run.py:1636-1637. *)
Definition runner_output (checkpoint : option string) (output : out_arg) : out_arg :=
  match output, checkpoint with ONone, Some c => OPath (os_path_join c "chains/mc_samples") | _, _ => output end.
(** [os.path.splitext] of a name without slashes: at its last dot, unless there are only dots before it. *)
Fixpoint all_dots (s : string) : bool := match s with EmptyString => true | String c s => Ascii.eqb c dot && all_dots s end.
Fixpoint at_last_dot (s : string) : option (string * string) :=
  match s with
  | EmptyString => None
  | String c s' =>
      match at_last_dot s' with
      | Some (a, b) => Some (String c a, b)
      | None => if Ascii.eqb c dot then Some (EmptyString, s) else None
      end
  end.
Definition os_path_splitext (s : string) : string * string :=
  match at_last_dot s with
  | Some (a, b) => if all_dots a then (s, EmptyString) else (a, b)
  | None => (s, EmptyString)
  end.
Section Files.
Variable abspath : string -> string.
(** mc.py:434-445: folder and name. [os.path.abspath] of the folder joined with the name leaves both as they are, as the name is one proper component (see [C154_plain]). *)
Definition sample_file (output : string) : string * string :=
  let '(base_dir, file_name) := os_path_split output in
  let base_dir := if String.eqb base_dir "" then "."%string else base_dir in
  let file_name := if String.eqb file_name "" then "mc_samples.txt"%string else file_name in
  let '(file_root, file_ext) := os_path_splitext file_name in
  let file_ext := if String.eqb file_ext "" then ".txt"%string else file_ext in
  (abspath base_dir, (file_root ++ file_ext)%string).
(** Files with their contents; writing one. *)
Definition write {C} (f : file) (c : C) (fs : list (file * C)) : list (file * C) :=
  (f, c) :: filter (fun e => negb (String.eqb (fst f) (fst (fst e)) && String.eqb (snd f) (snd (fst e)))) fs.
(** mc.py:432-455 in one process, after the sample: the files afterwards. [content]: of the file, or the exception of making it. [os.path.split(False)] raises. *)
Definition save_sample {C} (main : bool) (output : out_arg) (content : res C) (fs : list (file * C)) : res (list (file * C)) :=
  match output with
  | ONone => Ok fs
  | _ => if negb main then Ok fs else
      match output with
      | OPath s => do c <- content; Ok (write (sample_file s) c fs)
      | _ => Err TypeError
      end
  end.
End Files.

(** Model of the output folders of the nested samplers run by [NORA]: [_get_output_folder] (gpry/gp_acquisition.py:709-726) and the attributes it uses (lines 609-610). Definitions only. *)
From Verif Require Export MTools MNsFile.

(** [p.split("/")] *)
Fixpoint split_slash (s : string) : list string :=
  match s with
  | EmptyString => [EmptyString]
  | String c s => if Ascii.eqb c slash then EmptyString :: split_slash s else match split_slash s with h :: t => String c h :: t | [] => [String c EmptyString] end
  end.
(** The components left by [posixpath.normpath] of an absolute path, the last one first: empty ones and "." are dropped, ".." drops the one before it. *)
Definition push (stack : list string) (p : string) : list string :=
  if String.eqb p "" || String.eqb p "." then stack else if String.eqb p ".." then tl stack else p :: stack.
Definition components (p : string) : list string := fold_left push (split_slash p) [].
(** Its slashes at the beginning: exactly two of them are kept. *)
Definition starts_in_slash (p : string) : bool := match p with String c _ => Ascii.eqb c slash | EmptyString => false end.
Definition leading (p : string) : string :=
  match p with
  | String c (String c' s) => if Ascii.eqb c' slash && negb (starts_in_slash s) then "//" else "/"
  | _ => "/"
  end%string.
Definition normpath (p : string) : string := (leading p ++ String.concat "/" (rev (components p)))%string.
(** [os.path.abspath(p)] in the working folder [cwd]. *)
Definition abspath (cwd p : string) : string := normpath (if starts_in_slash p then p else os_path_join cwd p).

(** The attributes [tmpdir] and [i] (lines 609-610). *)
Record outdir := mkOutdir { o_tmpdir : option string; o_i : nat }.
Definition new_outdir (tmpdir : option string) : outdir := mkOutdir tmpdir 0.
(** [_get_output_folder]; [random] is the name of the temporary folder made (and deleted) in this call. *)
Definition get_output_folder (main : bool) (cwd random : string) (o : outdir) : outdir * option string :=
  if negb main then (o, None)
  else
    let '(o, d) := match o_tmpdir o with
      | None => (o, random)
      | Some t => (mkOutdir (o_tmpdir o) (S (o_i o)), abspath cwd (os_path_join t (str_of_nat (o_i o))))
      end in
    (o, Some (if ends_in_slash d then d else (d ++ "/")%string)).
(** One call after another, with the names made in each of them. *)
Fixpoint output_folders (main : bool) (cwd : string) (randoms : list string) (o : outdir) : outdir * list (option string) :=
  match randoms with
  | [] => (o, [])
  | r :: rs => let '(o, d) := get_output_folder main cwd r o in let '(o, ds) := output_folders main cwd rs o in (o, d :: ds)
  end.

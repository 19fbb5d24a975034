(** Model of the names of parameters in the interfaces to nested samplers: the [param_names] argument of [run] (gpry/ns_interfaces.py:172-178, 229-233, 335-380, 490-504).
    Definitions only. *)
From Verif Require Export MMc.
Open Scope nat_scope.

(** ** PolyChord, lines 229-233, after the sampler has run: what [make_paramnames_files] gets, a name and a label for each. A list that starts with a string is taken for a list
    of strings; another one is handed over as it is, and a string in it is not a pair ([make_paramnames_files] unpacks each entry: ValueError, unless it has two characters). *)
Definition as_pair (p : pname) : res (string * string) :=
  match p with
  | Pair s l => Ok (s, l)
  | Name (String a (String b EmptyString)) => Ok (String a EmptyString, String b EmptyString)
  | Name _ => Err ValueError
  end.
(** [(p, p)] is written with [str]; that of a tuple is not modelled: TypeError here stands for it. *)
Definition twice (p : pname) : res (string * string) := match p with Name s => Ok (s, s) | Pair _ _ => Err TypeError end.
Definition polychord_names (d : nat) (param_names : option (list pname)) : res (list (string * string)) :=
  match param_names with
  | None => do g <- generic_params_names d "x_"; Ok (map (fun s => (s, s)) g)
  | Some [] => Err IndexError
  | Some (Name s :: l) => mapM twice (Name s :: l)
  | Some l => mapM as_pair l
  end.

(** ** UltraNest, line 504: handed over as it is; an empty list counts as none. *)
Definition ultranest_names (d : nat) (param_names : option (list pname)) : res (list pname) :=
  match param_names with
  | None | Some [] => do g <- generic_params_names d "x_"; Ok (map Name g)
  | Some l => Ok l
  end.

(** ** nessai, lines 353-380 *)
Definition pname_eqb (p q : pname) : bool :=
  match p, q with
  | Name s, Name t => String.eqb s t
  | Pair s l, Pair t m => String.eqb s t && String.eqb l m
  | _, _ => false
  end.
Section Nessai.
Context {B V : Type}.
(** Python dictionaries: a key that is set again keeps its place and gets the new value. *)
Fixpoint dset (k : pname) (v : B) (d : list (pname * B)) : list (pname * B) :=
  match d with
  | [] => [(k, v)]
  | (k', v') :: d => if pname_eqb k k' then (k', v) :: d else (k', v') :: dset k v d
  end.
(** Lines 357-359: [dict((name, bounds[i]) for i, name in enumerate(param_names))]. *)
Fixpoint fill (names : list pname) (bounds : list B) (d : list (pname * B)) : res (list (pname * B)) :=
  match names, bounds with
  | [], _ => Ok d
  | _ :: _, [] => Err IndexError
  | n :: names, b :: bounds => fill names bounds (dset n b d)
  end.
(** [MyNessaiModel.__init__], lines 353-359: the [bounds] of the model. *)
Definition nessai_model (param_names : option (list pname)) (bounds : list B) : res (list (pname * B)) :=
  do names <- match param_names with
              | None => do g <- generic_params_names (length bounds) "x_"; Ok (map Name g)
              | Some l => Ok l
              end;
  fill names bounds [].
(** [names], lines 361-363. *)
Definition names_of (m : list (pname * B)) : list pname := map fst m.
(** A point of the sampler: a value for each name of the model. [x[p]]. *)
Definition field (x : list (pname * V)) (p : pname) : res V :=
  match find (fun kv => pname_eqb p (fst kv)) x with Some kv => Ok (snd kv) | None => Err ValueError end.
(** Lines 371-380: the coordinates the function gets for one point. *)
Definition coordinates (m : list (pname * B)) (x : list (pname * V)) : res (list V) := mapM (field x) (names_of m).
End Nessai.

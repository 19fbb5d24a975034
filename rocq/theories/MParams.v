(** Model of the parameters of acquisition functions by name: [get_params], [set_params] and copies,
    gpry/acquisition_functions.py:150-251 and 1205-1362, with [clone] of sklearn.base. Acquisition functions are mutable Python
    objects that may refer to each other. Definitions only. *)
From Coq Require Export String Ascii.
From Verif Require Export MTools.
Open Scope string_scope.
Open Scope list_scope.

(** The classes, and the arguments of their constructors (:425, :490, :563, :634, :707, :787, :906-907, :1208, :1342). *)
Inductive class :=
| CConstant | CMu | CExponentialMu | CStd | CExponentialStd | CImprovement | CLogExp | CNonlinear | CSum | CProduct | CPower.
Definition arguments (c : class) : list string :=
  match c with
  | CConstant => ["constant_value"; "fixed"; "dimension"]
  | CMu | CExponentialMu | CStd | CExponentialStd => ["a"; "fixed"; "dimension"]
  | CImprovement => ["xi"; "fixed"; "dimension"]
  | CLogExp | CNonlinear => ["zeta"; "sigma_n"; "fixed"; "dimension"; "zeta_scaling"; "linear"]
  | CSum | CProduct => ["k1"; "k2"]
  | CPower => ["acquisition_function"; "exponent"]
  end.
(** The arguments of composites that are acquisition functions themselves. *)
Definition parts (c : class) : list string :=
  match c with CSum | CProduct => ["k1"; "k2"] | CPower => ["acquisition_function"] | _ => [] end.
Definition composite (c : class) : bool := match parts c with [] => false | _ => true end.

Section Params.
(** Values that are not acquisition functions; [None]; [auto_zeta] (:933-941) of the dimension and the scaling; defaults of the
    constructors are given by the caller. *)
Variable plain : Type.
Variable none : plain.
Variable is_none : plain -> bool.
Variable auto_zeta : plain -> plain -> res plain.
Inductive value := Plain (p : plain) | Ref (l : nat).
(** An object: its class and attributes. Memory: objects in the order of their creation. *)
Record object := mkObject { kind : class; attrs : string -> option value }.
Notation heap := (list object).
Definition set_attr (a : string) (v : value) (x : object) : object :=
  mkObject (kind x) (fun b => if (b =? a)%string then Some v else attrs x b).
Fixpoint setattr (h : heap) (l : nat) (a : string) (v : value) : heap :=
  match h, l with
  | [], _ => []
  | x :: h', 0 => set_attr a v x :: h'
  | x :: h', S l' => x :: setattr h' l' a v
  end.

Definition lookup (k : string) (m : list (string * value)) : option value :=
  option_map snd (find (fun q => (fst q =? k)%string) m).
(** Attribute of an object that is not a composite: [None] if it is missing (:186-193). *)
Definition attr_or_none (x : object) (a : string) : value := match attrs x a with Some v => v | None => Plain none end.
Definition attr (x : object) (a : string) : res value := match attrs x a with Some v => Ok v | None => Err AttributeError end.
(** [get_params(deep=False)]: :150-196, :1228, :1361. *)
Definition own_params (x : object) : res (list (string * value)) :=
  if composite (kind x) then mapM (fun a => do v <- attr x a; Ok (a, v)) (arguments (kind x))
  else Ok (map (fun a => (a, attr_or_none x a)) (arguments (kind x))).
(** [get_params()], :1213-1235 and :1347-1362; [depth]: how deep the interpreter allows calls to be nested (RecursionError is a
    RuntimeError). *)
Fixpoint get_params (depth : nat) (h : heap) (l : nat) : res (list (string * value)) :=
  match depth with
  | 0 => Err RuntimeError
  | S depth' =>
      match nth_error h l with
      | None => Err AttributeError
      | Some x =>
          do own <- own_params x;
          do deep <- mapM (fun a =>
                       do v <- attr x a;
                       match v with
                       | Plain _ => Err AttributeError
                       | Ref l' => do m <- get_params depth' h l'; Ok (map (fun q => ((a ++ "__" ++ fst q)%string, snd q)) m)
                       end) (parts (kind x));
          Ok (own ++ concat deep)
      end
  end.

(** [key.split("__", 1)]: None if there is no separator. *)
Fixpoint split_once (s : string) : option (string * string) :=
  match s with
  | EmptyString => None
  | String c s' =>
      match s' with
      | String c2 r =>
          if ((c =? "_")%char && (c2 =? "_")%char)%bool then Some (EmptyString, r)
          else option_map (fun q => (String c (fst q), snd q)) (split_once s')
      | EmptyString => None
      end
  end.
(** [set_params], :198-239, with a dictionary as the list of its items. [shown]: what [repr(self)] in the message of line 226 does. *)
Variable shown : heap -> nat -> res unit.
Fixpoint set_params (depth : nat) (h : heap) (l : nat) (ps : list (string * value)) : heap * res unit :=
  match depth with
  | 0 => (h, Err RuntimeError)
  | S depth' =>
      match ps with
      | [] => (h, Ok tt)
      | _ =>
          match get_params depth h l with
          | Err x => (h, Err x)
          | Ok valid =>
              fold_left (fun acc q =>
                match acc with
                | (h, Err x) => (h, Err x)
                | (h, Ok _) =>
                    match split_once (fst q) with
                    | Some (name, sub) =>
                        match lookup name valid with
                        | None => (h, do _ <- shown h l; Err ValueError)
                        | Some (Plain _) => (h, Err AttributeError)
                        | Some (Ref l') => set_params depth' h l' [(sub, snd q)]
                        end
                    | None =>
                        match lookup (fst q) valid with
                        | None => (h, Err ValueError)
                        | Some _ => (setattr h l (fst q) (snd q), Ok tt)
                        end
                    end
                end) ps (h, Ok tt)
          end
      end
  end.

(** The arguments that constructors store as attributes: not [dimension], [zeta_scaling] and [linear]. *)
Definition stored (c : class) : list string :=
  match c with
  | CConstant => ["constant_value"; "fixed"]
  | CMu | CExponentialMu | CStd | CExponentialStd => ["a"; "fixed"]
  | CImprovement => ["xi"; "fixed"]
  | CLogExp | CNonlinear => ["zeta"; "sigma_n"; "fixed"]
  | c => arguments c
  end.
Definition is_stored (c : class) (a : string) : bool := existsb (String.eqb a) (stored c).
(** The constructors; :908-917: without [zeta] it is computed, which needs [dimension]. *)
Definition construct (c : class) (args : string -> value) : res object :=
  let given := fun a => if is_stored c a then Some (args a) else None in
  match c with
  | CLogExp | CNonlinear =>
      do zeta <- match args "zeta" with
                 | Plain z =>
                     if is_none z then
                       match args "dimension", args "zeta_scaling" with
                       | Plain d, Plain s => if is_none d then Err ValueError else do z <- auto_zeta d s; Ok (Plain z)
                       | _, _ => Err TypeError
                       end
                     else Ok (Plain z)
                 | v => Ok v
                 end;
      Ok (mkObject c (fun a => if (a =? "zeta")%string then Some zeta else given a))
  | _ => Ok (mkObject c given)
  end.
(** The check of [clone] that the constructor stored what it was given: [get_params] of the new object returns the very same. *)
Definition kept_argument (c : class) (args : string -> value) (a : string) : bool :=
  let missing := match args a with Plain p => is_none p | Ref _ => false end in
  if is_stored c a then negb ((a =? "zeta")%string && missing) else missing.
(** [clone] of sklearn.base for acquisition functions, which have no [__sklearn_clone__]: values of [get_params(deep=False)] are
    cloned ([copy.deepcopy] for other values: equal ones), and handed to the constructor. *)
Definition argument (m : list (string * value)) (a : string) : value := match lookup a m with Some v => v | None => Plain none end.
Fixpoint clone (depth : nat) (h : heap) (l : nat) : heap * res nat :=
  match depth with
  | 0 => (h, Err RuntimeError)
  | S depth' =>
      match nth_error h l with
      | None => (h, Err AttributeError)
      | Some x =>
          match own_params x with
          | Err e => (h, Err e)
          | Ok own =>
              let r := fold_left (fun acc q =>
                         match acc with
                         | (h, Err e) => (h, Err e)
                         | (h, Ok m) =>
                             match snd q with
                             | Plain p => (h, Ok (m ++ [(fst q, Plain p)]))
                             | Ref l' => match clone depth' h l' with
                                         | (h', Ok l2) => (h', Ok (m ++ [(fst q, Ref l2)]))
                                         | (h', Err e) => (h', Err e)
                                         end
                             end
                         end) own (h, Ok []) in
              match r with
              | (h, Err e) => (h, Err e)
              | (h, Ok m) => match construct (kind x) (argument m) with
                             | Err e => (h, Err e)
                             | Ok y => (h ++ [y], if forallb (kept_argument (kind x) (argument m)) (arguments (kind x))
                                                  then Ok (length h) else Err RuntimeError)
                             end
              end
          end
      end
  end.
End Params.
Arguments Plain {plain}. Arguments Ref {plain}. Arguments mkObject {plain}. Arguments kind {plain}. Arguments attrs {plain}.
Arguments setattr {plain}. Arguments set_attr {plain}. Arguments lookup {plain}.

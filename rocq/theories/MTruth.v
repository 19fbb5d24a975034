(** Model of gpry/truth.py: class [Truth] (a callable likelihood with a uniform prior in a box).
    [TruthCobaya], which forwards every call to Cobaya, is not modelled. Model definitions
    only. *)
From Verif Require Export MTools.

(** The attributes set by [Truth.__init__], gpry/truth.py:59-110. *)
Record truth := mkTruth {
  prior_bounds : mat;
  log_prior_volume : num;
  loglike_ : fn;
  ref_bounds_ : list (option (num * num));
  ref_bounds_default_prior : list (num * num);
  params_ : list string;
  labels_ : list string }.

(** The [params] argument: None, a sequence of strings, a mapping from names to labels (as the
    list of its items), or something else (including sequences with non-strings). *)
Inductive params_arg := PNone | PSeq (l : list string) | PMap (m : list (string * string)) | PBad.
(** One entry of [ref_bounds]: None or a vector (a number counts as a vector of length 1). *)
Definition ref_entry := option (list num).

(** [np.log], for the prior volume. *)
Section Truth.
Variable ln : num -> num.
Definition log_volume (b : mat) : num :=
  fold_left nadd (map (fun p => ln (nsub (snd p) (fst p))) (combine (column b 0) (column b 1))) (nz 0).

(** Lines 72-88. *)
Definition read_ref_bounds (d : nat) (ref : option (list ref_entry)) : res (list (option (num * num))) :=
  match ref with
  | None => Ok (repeat None d)
  | Some l =>
      if length l =? d then
        mapM (fun v => match v with
                       | None => Ok None
                       | Some [a; b] => Ok (Some (a, b))
                       | Some _ => Err TypeError
                       end) l
      else Err TypeError
  end.

(** Lines 89-110. *)
Definition read_params (d : nat) (params : params_arg) : res (list string * list string) :=
  match params with
  | PNone =>
      do p <- generic_params_names d "x_";
      do l <- generic_params_names d "x_{";
      Ok (p, map (fun s => String.append s "}") l)
  | PSeq l => if length l =? d then Ok (l, l) else Err TypeError
  | PMap m => if length m =? d then Ok (map fst m, map snd m) else Err TypeError
  | PBad => Err TypeError
  end.

(** gpry/truth.py:59-110 [Truth.__init__]; [bounds = None] raises ValueError. *)
Definition new_truth (loglike : fn) (bounds : option arr) (ref_bounds : option (list ref_entry))
    (params : params_arg) : res truth :=
  match bounds with
  | None => Err ValueError
  | Some bounds =>
      do b <- check_and_return_bounds bounds;
      let d := length (rows b) in
      do ll <- wrap_likelihood loglike d;
      do ref <- read_ref_bounds d ref_bounds;
      do (p, l) <- read_params d params;
      let prior := combine (column b 0) (column b 1) in
      Ok (mkTruth b (log_volume b) ll ref
            (map (fun q => match fst q with Some v => v | None => snd q end) (combine ref prior))
            p l)
  end.

(** [d], gpry/truth.py:112-115. *)
Definition dim (t : truth) : nat := length (rows (prior_bounds t)).

(** A point as numpy sees it. *)
Definition arr_of_obj (X : obj) : arr := match X with ONum x => Scalar x | OVec v => Vec v end.

(** [logprior], lines 134-140: the truth value of an array needs exactly one element. *)
Definition logprior (t : truth) (X : obj) : res num :=
  do b <- is_in_bounds (arr_of_obj X) (Mat (prior_bounds t)) false;
  match b with
  | [true] => Ok (nmul (nz (-1)) (log_prior_volume t))
  | [false] => Ok NInf
  | _ => Err ValueError
  end.

(** [logp], lines 148-155, with the list of the arguments the likelihood was called with. *)
Definition logp (t : truth) (X : obj) : res num * list obj :=
  match logprior t X with
  | Err e => (Err e, [])
  | Ok lp =>
      if neqb lp NInf then (Ok lp, [])
      else ((do l <- call (loglike_ t) [X]; Ok (nadd lp l)), [X])
  end.

(** [as_dict], lines 165-179: the arguments of a new [Truth]. [dict(zip(names, labels))] keeps
    one entry per name, in the order of first occurrence, with the last label. *)
Definition dict_put (k v : string) (m : list (string * string)) : list (string * string) :=
  if existsb (fun p => String.eqb (fst p) k) m
  then map (fun p => if String.eqb (fst p) k then (k, v) else p) m
  else m ++ [(k, v)].
Definition to_dict (l : list (string * string)) : list (string * string) :=
  fold_left (fun m p => dict_put (fst p) (snd p) m) l [].
Record truth_args := mkArgs {
  arg_loglike : fn; arg_bounds : arr; arg_ref : list ref_entry; arg_params : params_arg }.
Definition as_dict (t : truth) : truth_args :=
  mkArgs (loglike_ t) (Mat (prior_bounds t))
    (map (option_map (fun p => [fst p; snd p])) (ref_bounds_ t))
    (PMap (to_dict (combine (params_ t) (labels_ t)))).

(** [get_truth( **as_dict )] for a callable likelihood, gpry/truth.py:20-25, as done when a
    checkpoint is read (gpry/io.py:96). *)
Definition rebuild (a : truth_args) : res truth :=
  new_truth (arg_loglike a) (Some (arg_bounds a)) (Some (arg_ref a)) (arg_params a).
End Truth.

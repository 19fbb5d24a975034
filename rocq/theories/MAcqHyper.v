(** Model of the hyperparameters of acquisition functions, gpry/acquisition_functions.py:150-402, 906-931, 1205-1410: [hyperparameters], [theta] and its
    setter, [n_dims], [==]. Acquisition functions are mutable objects: a composite refers to its parts, and the same object may be in it more
    than once. Over the real numbers. Definitions only. *)
From Coq Require Export String.
From Verif Require Export MNonlinear.
Open Scope R_scope.
Open Scope list_scope.

(** The classes with one hyperparameter (:425-433, :490-498, :563-571, :634-642, :707-715, :787-795), and the two with [zeta] and [sigma_n] (:906-931). *)
Inductive one := COne | CMu | CStd | CExponentialMu | CExponentialStd | CImprovement.
Inductive logexps := CLogExp | CNonlinear.
(** Their objects, with the attribute [fixed]. [dimension] and [zeta_scaling] are not attributes. *)
Inductive leaf :=
| One (c : one) (a : R) (fixed : bool)
| Two (c : logexps) (zeta : R) (sigma_n : option R) (fixed : bool).
(** [Sum], [Product], [Exponentiation] of them (:1205-1211, :1342-1345): references. *)
Inductive tree :=
| HLeaf (l : nat)
| HSum (k1 k2 : tree)
| HProduct (k1 k2 : tree)
| HPower (k : tree) (e : power).
Notation store := (nat -> leaf).
Definition store_at (st : store) (l : nat) (f : leaf) : store := fun l' => if l' =? l then f else st l'.

Definition name_of (c : one) : string :=
  match c with COne => "constant_value" | CImprovement => "xi" | _ => "a" end.
Definition is_fixed (f : leaf) : bool := match f with One _ _ b | Two _ _ _ b => b end.
(** [hyperparameters] (:287-292): name and whether fixed, in the order of [dir]. Line 1236 (and :1366): composites prefix the names
    and do not pass [fixed] on. *)
Definition leaf_hypers (f : leaf) : list (string * bool) :=
  match f with
  | One c _ b => [(name_of c, b)]
  | Two _ _ _ b => [("sigma_n", b); ("zeta", b)]
  end%string.
Definition relabel (prefix : string) (h : string * bool) : string * bool := ((prefix ++ fst h)%string, false).
Fixpoint ahypers (st : store) (k : tree) : list (string * bool) :=
  match k with
  | HLeaf l => leaf_hypers (st l)
  | HSum k1 k2 | HProduct k1 k2 => map (relabel "k1__") (ahypers st k1) ++ map (relabel "k2__") (ahypers st k2)
  | HPower k _ => map (relabel "acquisition_function__") (ahypers st k)
  end.

(** [np.log]. *)
Definition log (v : R) : ext := if Rlt_dec 0 v then MAcqFunc.Real (ln v) else if Rlt_dec v 0 then NotANumber else NegInf.
(** [theta] (:294-317). None: the call raises ([np.log] of an array with None). *)
Definition leaf_theta (f : leaf) : option (list ext) :=
  if is_fixed f then Some [] else
  match f with
  | One _ a _ => Some [log a]
  | Two _ z (Some s) _ => Some [log s; log z]
  | Two _ _ None _ => None
  end.
(** :1250-1264, :1380-1394 *)
Fixpoint atheta (st : store) (k : tree) : option (list ext) :=
  match k with
  | HLeaf l => leaf_theta (st l)
  | HSum k1 k2 | HProduct k1 k2 => two (@app ext) (atheta st k1) (atheta st k2)
  | HPower k _ => atheta st k
  end.
(** :282-285 *)
Definition n_dims (st : store) (k : tree) : option nat := option_map (@length ext) (atheta st k).

(** The setter (:319-347): None if it raises ([IndexError] if the vector is too short, [ValueError] if it is too long), which it does before anything changes. *)
Definition leaf_set (f : leaf) (t : list R) : option leaf :=
  match f, t with
  | One c a true, [] => Some (One c a true)
  | Two c z s true, [] => Some (Two c z s true)
  | One c a false, [v] => Some (One c (exp v) false)
  | Two c z s false, [v; w] => Some (Two c (exp w) (Some (exp v)) false)
  | _, _ => None
  end.
(** :1266-1278, :1396-1406. The second result: whether the call returned. *)
Fixpoint aset (st : store) (k : tree) (t : list R) : store * bool :=
  match k with
  | HLeaf l => match leaf_set (st l) t with Some f => (store_at st l f, true) | None => (st, false) end
  | HSum k1 k2 | HProduct k1 k2 =>
      match n_dims st k1 with
      | None => (st, false)
      | Some d =>
          let r := aset st k1 (firstn d t) in
          if snd r then aset (fst r) k2 (skipn d t) else r
      end
  | HPower k _ => aset st k t
  end.

(** The acquisition function that an object is, for its value and gradient (MAcqFunc). *)
Definition leaf_acq (gp : surrogate) (f : leaf) : acq :=
  match f with
  | One COne a _ => ConstantAcqFunc a
  | One CMu a _ => Mu a
  | One CStd a _ => Std a
  | One CExponentialMu a _ => ExponentialMu a
  | One CExponentialStd a _ => ExponentialStd a
  | One CImprovement a _ => ExpectedImprovement a
  | Two CLogExp z s _ => LogExp z s
  | Two CNonlinear z s _ => NonlinearLogExp z s gp
  end.
Fixpoint tree_acq (gp : surrogate) (st : store) (k : tree) : acq :=
  match k with
  | HLeaf l => leaf_acq gp (st l)
  | HSum k1 k2 => ASum (tree_acq gp st k1) (tree_acq gp st k2)
  | HProduct k1 k2 => AProduct (tree_acq gp st k1) (tree_acq gp st k2)
  | HPower k e => APower (tree_acq gp st k) e
  end.

(** [==] (:391-399): same class and parameters. *)
Definition req (a b : R) : bool := if Req_EM_T a b then true else false.
Definition oreq (a b : option R) : bool := match a, b with Some a, Some b => req a b | None, None => true | _, _ => false end.
Definition one_id (c : one) : nat := match c with COne => 0 | CMu => 1 | CStd => 2 | CExponentialMu => 3 | CExponentialStd => 4 | CImprovement => 5 end.
Definition logexps_id (c : logexps) : nat := match c with CLogExp => 0 | CNonlinear => 1 end.
Definition leaf_eq (f g : leaf) : bool :=
  match f, g with
  | One c a b, One c' a' b' => (one_id c =? one_id c') && (req a a' && Bool.eqb b b')
  | Two c z s b, Two c' z' s' b' => (logexps_id c =? logexps_id c') && (req z z' && (oreq s s' && Bool.eqb b b'))
  | _, _ => false
  end%nat.
(** Exponents; an integer and a float are written as different. *)
Definition power_eq (e e' : power) : bool :=
  match e, e' with Nat n, Nat n' => (n =? n')%nat | MKernel.Real r, MKernel.Real r' => req r r' | _, _ => false end.
(** :1280-1284, :1408-1412 *)
Fixpoint tree_eq (st : store) (a b : tree) : bool :=
  match a, b with
  | HLeaf l, HLeaf l' => leaf_eq (st l) (st l')
  | HSum a1 a2, HSum b1 b2 | HProduct a1 a2, HProduct b1 b2 =>
      (tree_eq st a1 b1 && tree_eq st a2 b2) || (tree_eq st a1 b2 && tree_eq st a2 b1)
  | HPower a e, HPower b e' => tree_eq st a b && power_eq e e'
  | _, _ => false
  end.

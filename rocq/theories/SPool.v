(** Vocabulary of the statements about the ranked pool: sequences of calls of its public
    methods, what they offer, and what a pool holds. *)
From Verif Require Export MPool.

Section SPool.
Variable pt : Type.

(** A call of [add_one] or of [add]. *)
Inductive op :=
| AddOne (x : pt) (y sigma acq : option num) (nan_is_null : bool)
| AddMany (X : list pt) (y sigma acq : option (list num)) (m : method).

Definition one_by_one (o : op) : Prop :=
  match o with AddMany _ _ _ _ Bulk => False | _ => True end.

(** Bulk mode is used for the first call only. *)
Definition bulk_only_first (ops : list op) : Prop := Forall one_by_one (tl ops).

(** The arrays passed to [add] have one entry per point. *)
Definition has_len (n : nat) (l : option (list num)) : Prop :=
  match l with Some k => length k = n | None => True end.
Definition well_formed (o : op) : Prop :=
  match o with
  | AddOne _ _ _ _ _ => True
  | AddMany X y sigma acq _ => has_len (length X) y /\ has_len (length X) sigma /\ has_len (length X) acq
  end.

Variable std : list (pt * num) -> pt -> num.
Variable mean : pt -> num.
Variable acqf : num -> num -> num.
Variable argsort : list num -> list nat.

Definition step (p : pool pt) (o : op) : res (pool pt) :=
  match o with
  | AddOne x y sigma acq nn => add_one std mean acqf argsort p x y sigma acq nn
  | AddMany X y sigma acq m => add std mean acqf argsort p X y sigma acq m
  end.
Fixpoint run (p : pool pt) (ops : list op) : res (pool pt) :=
  match ops with [] => Ok p | o :: r => do p' <- step p o; run p' r end.

(** The entries (point, mean, sigma, acquisition) a call offers to the pool: what is not given
    is predicted by the surrogate (a given sigma is ignored when the mean is not given). *)
Definition filled (x : pt) (y sigma : option num) : num * num :=
  match y, sigma with
  | Some m, Some s => (m, s)
  | Some m, None => (m, std [] x)
  | None, _ => (mean x, std [] x)
  end.
Definition nth_opt (l : option (list num)) (i : nat) : option num :=
  match l with Some k => nth_error k i | None => None end.
Fixpoint offer_many (X : list pt) (y sigma acq : option (list num)) (i : nat) : list (pt * num * num * num) :=
  match X with
  | [] => []
  | x :: X' =>
      let '(m, s) := filled x (nth_opt y i) (nth_opt sigma i) in
      (x, m, s, match nth_opt acq i with Some a => a | None => acqf m s end)
      :: offer_many X' y sigma acq (S i)
  end.
Definition offered (o : op) : list (pt * num * num * num) :=
  match o with
  | AddOne x y sigma (Some a) _ => let '(m, s) := filled x y sigma in [(x, m, s, a)]
  | AddOne x y sigma None _ => []
  | AddMany X y sigma acq _ => offer_many X y sigma acq 0
  end.

(** The acquisition a call comes with is that of the surrogate, and is not +inf. *)
Definition own_acquisition (o : op) : Prop :=
  forall x m s a, In (x, m, s, a) (offered o) -> a = acqf m (std [] x) /\ a <> PInf.

(** The means a call comes with are numbers (not NaN). *)
Definition numeric (o : op) : Prop :=
  forall x m s a, In (x, m, s, a) (offered o) -> isnan m = false.

(** Slot [i] of the arrays of the pool. *)
Definition slot_at (p : pool pt) (i : nat) : option (pt * num * num * num * num) :=
  match nth_error (pX p) i, nth_error (py p) i, nth_error (psig p) i, nth_error (pacq p) i,
        nth_error (pacqc p) i with
  | Some x, Some y, Some s, Some a, Some c => Some (x, y, s, a, c)
  | _, _, _, _, _ => None
  end.
(** What occupied slots hold, from top to bottom. A slot is empty when its conditioned
    acquisition is -inf. *)
Definition held (p : pool pt) : list (pt * num * num * num) :=
  flat_map (fun i => match slot_at p i with
                     | Some (x, y, s, a, NInf) => []
                     | Some (x, y, s, a, _) => [(x, y, s, a)]
                     | None => [] end) (seq 0 (length (pX p))).
(** The points above slot [i], with their believed values. *)
Definition above (p : pool pt) (i : nat) : list (pt * num) := firstn i (combine (pX p) (py p)).

(** The stored values are the exact conditioned acquisitions, and no entry below a slot would
    have ranked better in it. *)
Definition exact_and_greedy (size : nat) (p : pool pt) : Prop :=
  forall i x y s a c, i < size -> slot_at p i = Some (x, y, s, a, c) -> c <> NInf ->
  c = acqf y (std (above p i) x)
  /\ forall j x' y' s' a' c', i <= j -> j < size -> slot_at p j = Some (x', y', s', a', c') -> c' <> NInf ->
     nleb (acqf y' (std (above p i) x')) c = true.
(** None of the entries [d] would have ranked better in any slot of the pool, given the points
    above it; in particular in an empty slot (conditioned acquisition -inf). *)
Definition none_better (size : nat) (p : pool pt) (d : list (pt * num * num * num)) : Prop :=
  forall x' y' s' a', In (x', y', s', a') d ->
  forall i x y s a c, i < size -> slot_at p i = Some (x, y, s, a, c) ->
  nleb (acqf y' (std (above p i) x')) c = true.
End SPool.

Arguments AddOne {pt}. Arguments AddMany {pt}. Arguments one_by_one {pt}. Arguments bulk_only_first {pt}. Arguments exact_and_greedy {pt}. Arguments none_better {pt}. Arguments well_formed {pt}.
Arguments step {pt}. Arguments run {pt}. Arguments filled {pt}. Arguments offer_many {pt}.
Arguments offered {pt}. Arguments own_acquisition {pt}. Arguments numeric {pt}. Arguments slot_at {pt}. Arguments held {pt}.
Arguments above {pt}.

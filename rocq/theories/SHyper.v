(** Vocabulary for the properties of hyperparameters (C101 - C103), independent of the vectors [theta] and [bounds]. *)
From Verif Require Import MHyper.
Open Scope R_scope.

(** The bounds given for component [i] of a hyperparameter: one row for all components, or a row each; dynamic ones are
    three orders of magnitude below and two above the width of the prior in direction [i]. *)
Definition given (b : hbounds) (ml : option (list R)) (i : nat) : option (R * R) :=
  match b with
  | BFixed => None
  | BRows r [] => Some r
  | BRows r m => nth_error (r :: m) i
  | BDynamic => match ml with Some l => option_map (fun m => (m / 1000, m * 100)) (nth_error l i) | None => None end
  end.
Definition inside (v : hval) (b : hbounds) (ml : option (list R)) : Prop :=
  b = BFixed \/
  forall i x, nth_error (elements v) i = Some x -> exists lo hi, given b ml i = Some (lo, hi) /\ lo <= x <= hi.
(** Every hyperparameter that is not fixed is within the bounds given for it. *)
Fixpoint respects (k : kern) : Prop :=
  match k with
  | KLength _ ls lb ml => inside ls lb ml
  | KConst c cb => inside (HNum c) cb None
  | KWhite n nb => inside (HNum n) nb None
  | KRQ _ _ | KExpSine _ _ | KDot _ => True
  | KSum k1 k2 | KProd k1 k2 => respects k1 /\ respects k2
  | KPow k _ => respects k
  end.

(** The same kernel but for the values of hyperparameters that are not fixed (as many as before). *)
Definition free_or_same (b : hbounds) (v v' : hval) : Prop := length (elements v') = length (elements v) /\ (b = BFixed -> v' = v).
Fixpoint alike (k k' : kern) : Prop :=
  match k, k' with
  | KLength nu ls lb ml, KLength nu' ls' lb' ml' => nu' = nu /\ lb' = lb /\ ml' = ml /\ free_or_same lb ls ls'
  | KConst c cb, KConst c' cb' => cb' = cb /\ (cb = BFixed -> c' = c)
  | KWhite n nb, KWhite n' nb' => nb' = nb /\ (nb = BFixed -> n' = n)
  | KSum k1 k2, KSum k1' k2' | KProd k1 k2, KProd k1' k2' => alike k1 k1' /\ alike k2 k2'
  | KPow k e, KPow k' e' => e' = e /\ alike k k'
  | _, _ => k' = k
  end.

(** Kernels built from those whose hyperparameters can be listed. *)
Fixpoint usable (k : kern) : Prop :=
  match k with
  | KRQ _ _ | KExpSine _ _ | KDot _ => False
  | KSum k1 k2 | KProd k1 k2 => usable k1 /\ usable k2
  | KPow k _ => usable k
  | _ => True
  end.
(** No empty sequence of length scales; bounds and prior widths are positive. *)
Definition pos_bounds (b : hbounds) (ml : option (list R)) : Prop :=
  List.Forall (fun r => 0 < fst r /\ 0 < snd r) (rows_of b) /\ match ml with Some l => List.Forall (Rlt 0) l | None => True end.
Fixpoint sensible (k : kern) : Prop :=
  match k with
  | KLength _ ls lb ml => elements ls <> [] /\ pos_bounds lb ml
  | KConst _ cb => pos_bounds cb None
  | KWhite _ nb => pos_bounds nb None
  | KRQ _ _ | KExpSine _ _ | KDot _ => True
  | KSum k1 k2 | KProd k1 k2 => sensible k1 /\ sensible k2
  | KPow k _ => sensible k
  end.
(** The number of rows of each bound is one, or the number of components; dynamic bounds have a prior width per component. *)
Definition matching (v : hval) (b : hbounds) (ml : option (list R)) : Prop :=
  match b with
  | BFixed => True
  | BRows _ m => m = [] \/ (1 < length (elements v) /\ S (length m) = length (elements v))%nat
  | BDynamic => exists l, ml = Some l /\ (length (elements v) <= length l)%nat
  end.
Fixpoint well_given (k : kern) : Prop :=
  match k with
  | KLength _ ls lb ml => matching ls lb ml
  | KConst c cb => matching (HNum c) cb None
  | KWhite n nb => matching (HNum n) nb None
  | KRQ _ _ | KExpSine _ _ | KDot _ => True
  | KSum k1 k2 | KProd k1 k2 => well_given k1 /\ well_given k2
  | KPow k _ => well_given k
  end.
(** All values that are not fixed are positive. *)
Fixpoint positive (k : kern) : Prop :=
  match k with
  | KLength _ ls lb _ => lb = BFixed \/ List.Forall (Rlt 0) (elements ls)
  | KConst c cb => cb = BFixed \/ 0 < c
  | KWhite n nb => nb = BFixed \/ 0 < n
  | KRQ _ _ | KExpSine _ _ | KDot _ => True
  | KSum k1 k2 | KProd k1 k2 => positive k1 /\ positive k2
  | KPow k _ => positive k
  end.
(** Number of values that are not fixed. *)
Definition count (v : hval) (b : hbounds) : nat := match b with BFixed => O | _ => length (elements v) end.
Fixpoint free (k : kern) : nat :=
  match k with
  | KLength _ ls lb _ => count ls lb
  | KConst c cb => count (HNum c) cb
  | KWhite n nb => count (HNum n) nb
  | KRQ _ _ | KExpSine _ _ | KDot _ => O
  | KSum k1 k2 | KProd k1 k2 => (free k1 + free k2)%nat
  | KPow k _ => free k
  end.
(** The same kernel with the same values (a sequence of one length scale counts as the number). *)
Fixpoint same_values (k k' : kern) : Prop :=
  match k, k' with
  | KLength nu ls lb ml, KLength nu' ls' lb' ml' => nu' = nu /\ lb' = lb /\ ml' = ml /\ elements ls' = elements ls
  | KSum k1 k2, KSum k1' k2' | KProd k1 k2, KProd k1' k2' => same_values k1 k1' /\ same_values k2 k2'
  | KPow k e, KPow k' e' => e' = e /\ same_values k k'
  | _, _ => k' = k
  end.

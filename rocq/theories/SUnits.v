(** What it means for two surrogates to hold the same data in other units. *)
From Verif Require Import MUnits.

(** Adding a constant to a log-density. *)
Definition shift (c : Qc) (v : num) : num := nadd v (Fin c).
(** New units for the parameters: [a * x + b] for each, with [a > 0]. *)
Definition rescale1 (u : Qc * Qc) (v : num) : num := nadd (nmul (Fin (fst u)) v) (Fin (snd u)).
Fixpoint rescale (u : list (Qc * Qc)) (x : list num) : list num :=
  match u, x with
  | a :: u', v :: x' => rescale1 a v :: rescale u' x'
  | _, _ => x
  end.
Definition rescale_box (u : list (Qc * Qc)) (b : list (num * num)) : list (num * num) :=
  map (fun p => (rescale1 (fst p) (fst (snd p)), rescale1 (fst p) (snd (snd p)))) (combine u b).
Definition units (u : list (Qc * Qc)) : Prop := Forall (fun p => (0 < fst p)%Qc) u.

Section Same.
Context {pt pt' pt_ PX PX' PY PY' model theta box box' : Type}.
Variable c : Qc.
Variable A : pt -> pt'.
Variable B : box -> box'.
Variable RX : PX -> PX' -> Prop.
Variable RY : PY -> PY' -> Prop.
(** The two objects hold the same history, values shifted and points in the other units; all that is computed in
    transformed coordinates is the same. *)
Record same (g : gpr pt pt_ PX PY model theta box) (g' : gpr pt' pt_ PX' PY' model theta box') : Prop := mkSame {
  same_pX : RX (g_pX g) (g_pX g'); same_pY : RY (g_pY g) (g_pY g'); same_noise : g_noise g' = g_noise g;
  same_Xall : g_Xall g' = map A (g_Xall g); same_yall : g_yall g' = map (shift c) (g_yall g);
  same_noise_ : g_noise_ g' = g_noise_ g; same_svm : g_svm g' = g_svm g;
  same_nlast : g_nlast g' = g_nlast g; same_nlastfin : g_nlastfin g' = g_nlastfin g;
  same_newinv : g_newinv g' = g_newinv g;
  same_X : g_X g' = map A (g_X g); same_y : g_y g' = map (shift c) (g_y g);
  same_X_ : g_X_ g' = g_X_ g; same_y_ : g_y_ g' = g_y_ g; same_alpha : g_alpha g' = g_alpha g;
  same_kernel : g_kernel g' = g_kernel g; same_cache : g_cache g' = g_cache g; same_lml : g_lml g' = g_lml g;
  same_fitted : g_fitted g' = g_fitted g; same_trust : g_trust g' = option_map B (g_trust g) }.

(** The same call in the other units. *)
Definition conv_append (a : append_args pt theta) : append_args pt' theta :=
  mkAppend (option_map (map A) (a_X a)) (option_map (map (shift c)) (a_y a)) (a_noise a) (a_fit a) (a_classifier a) (a_default a).
Definition conv_op (o : op pt theta) : op pt' theta :=
  match o with OAppend a => OAppend (conv_append a) | OFit kw => OFit kw end.
(** The same prediction: the mean is shifted, everything else is the same. *)
Definition conv_pred (p : pred) : pred := mkPred (map (shift c) (r_mean p)) (r_std p) (r_mgrad p) (r_sgrad p).
End Same.
(** A series of calls, whether they return or raise: the object left, and the outcome of each. *)
Fixpoint calls {pt pt_ PX PY model theta box} (e : env pt pt_ PX PY model theta box) (cf : config theta) (os : list (op pt theta))
    (g : gpr pt pt_ PX PY model theta box) : gpr pt pt_ PX PY model theta box * list (res unit) :=
  match os with
  | [] => (g, [])
  | o :: os' => let '(g1, r) := step e cf o g in let '(g2, rs) := calls e cf os' g1 in (g2, r :: rs)
  end.
(** The bounds as the preprocessor of points holds them; the preprocessor of values in the other units: the same scale
    and the shifted centre. *)
Definition nb_of (b : list (num * num)) : norm_bounds := mkNB (map fst b) (map snd b).
Definition conv_ny (c : Qc) (p : norm_y) : norm_y :=
  mkNY (ny_use_median p) (option_map (fun ms => (shift c (fst ms), snd ms)) (ny_fit p)).
(** Percentiles of finite values move with the values. *)
Definition shifts_percentiles (percentiles : list num -> num * num * num) : Prop :=
  forall c y, y <> [] -> Forall (fun v => isfin v = true) y ->
    percentiles (map (shift c) y) =
    (shift c (fst (fst (percentiles y))), shift c (snd (fst (percentiles y))), shift c (snd (percentiles y))).
Definition map_res {A B} (f : A -> B) (r : res A) : res B := match r with Ok a => Ok (f a) | Err e => Err e end.

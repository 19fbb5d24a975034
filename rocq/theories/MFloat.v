(** Model of some arithmetic in double precision (IEEE 754, round to nearest even), with Flocq: the transforms between prior and unit box, the thresholds of the classifier.
    Definitions only. Elsewhere in this development numbers are exact. *)
From Coq Require Export List ZArith Bool.
From Flocq Require Export Core.Core IEEE754.BinarySingleNaN.
Export ListNotations.
Open Scope Z_scope.

Global Instance prec53 : Prec_gt_0 53 := eq_refl.
Global Instance emax1024 : Prec_lt_emax 53 1024 := eq_refl.
Notation f64 := (binary_float 53 1024).
Notation real := (B2R (prec := 53) (emax := 1024)).
(** The operations of numpy. *)
Definition fadd : f64 -> f64 -> f64 := Bplus mode_NE.
Definition fsub : f64 -> f64 -> f64 := Bminus mode_NE.
Definition fmul : f64 -> f64 -> f64 := Bmult mode_NE.
Definition fdiv : f64 -> f64 -> f64 := Bdiv mode_NE.
Definition fsqrt : f64 -> f64 := Bsqrt mode_NE.
Definition fle : f64 -> f64 -> bool := Bleb.
Definition flt : f64 -> f64 -> bool := Bltb.
Definition isfinite : f64 -> bool := is_finite.
(** Integers (rounded), and the decimal [n / 10^k] (for [n] and [10^k] below 2^53 the nearest double, as it is read from a program). *)
Definition fz (n : Z) : f64 := binary_normalize 53 1024 _ _ mode_NE n 0 false.
Definition dec (n : Z) (k : nat) : f64 := fdiv (fz n) (fz (10 ^ Z.of_nat k)).

(** ** Between the prior and the unit box *)
(** [Normalize_bounds.inverse_transform], gpry/preprocessing.py:382-395, one coordinate; also [UniformProposer], gpry/proposal.py:153-156 (scipy: [x * scale + loc]), and the transform
    of the prior for UltraNest, gpry/ns_interfaces.py:469-471. *)
Definition from_unit (a b x : f64) : f64 := fadd (fmul x (fsub b a)) a.
(** [Normalize_bounds.transform], gpry/preprocessing.py:367-380. *)
Definition to_unit (a b x : f64) : f64 := fdiv (fsub x a) (fsub b a).
(** [is_in_bounds], gpry/tools.py:289, one coordinate. *)
Definition in_bounds (a b x : f64) : bool := fle a x && fle x b.
(** [shrink_bounds], gpry/tools.py:349-361, one coordinate: the smallest and largest sample, the factor, the bounds. *)
Definition fmax (x y : f64) : f64 := if fle x y then y else x.
Definition fmin (x y : f64) : f64 := if fle x y then x else y.
Definition shrink (a b lo hi factor : f64) : f64 * f64 :=
  let delta := fmul (fdiv (fsub factor (fz 1)) (fz 2)) (fsub hi lo) in
  (fmax (fsub lo delta) a, fmin (fadd hi delta) b).

(** ** The threshold of the classifier *)
(** [_diff_threshold_if_keep_n_finite], gpry/gpr.py:1475-1488, for at least two points to be kept: [best] is the largest value, [nth] the last one to be kept. *)
Definition epsilon : f64 := dec 1 6.
Definition threshold (ref best nth : f64) : f64 :=
  let t := fadd (fsub best nth) epsilon in if flt ref t then t else ref.
(** [_is_finite_raw], gpry/svm.py:273-295. *)
Definition label (best t y : f64) : bool := fle (fsub best t) y && isfinite y.
(** [max], of a non-empty list. *)
Definition pymax (y : list f64) : f64 := match y with [] => fz 0 | v :: l => fold_left (fun m v => if flt m v then v else m) l v end.
Definition labels (t : f64) (y : list f64) : list bool := map (label (pymax y) t) y.
(** [np.mean] and [np.std] for fewer than eight values (numpy then adds one after the other). *)
Definition fsum (y : list f64) : f64 := fold_left fadd y (fz 0).
Definition mean (y : list f64) : f64 := fdiv (fsum y) (fz (Z.of_nat (length y))).
Definition std (y : list f64) : f64 :=
  let m := mean y in fsqrt (mean (map (fun v => let u := fsub v m in fmul u u) y)).
(** [Normalize_y.transform] and [transform_scale], gpry/preprocessing.py:593-627. *)
Definition norm (mu sigma v : f64) : f64 := fdiv (fsub v mu) sigma.
Definition norm_scale (sigma v : f64) : f64 := fdiv v sigma.
(** The two classifications compared in [append_to_data], gpry/gpr.py:689-732: that of the values, and that of the classifier, which gets transformed values and threshold. *)
Definition labels_transformed (mu sigma t : f64) (y : list f64) : list bool := labels (norm_scale sigma t) (map (norm mu sigma) y).
(** Both, for [Normalize_y] fitted to what is kept. *)
Fixpoint select {A} (m : list bool) (l : list A) : list A :=
  match m, l with
  | b :: m, x :: l => if b then x :: select m l else select m l
  | _, _ => []
  end.
Definition both_labels (t : f64) (y : list f64) : list bool * list bool :=
  let kept := select (labels t y) y in (labels t y, labels_transformed (mean kept) (std kept) t y).

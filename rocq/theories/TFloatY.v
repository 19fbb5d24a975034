(** C143: [Normalize_y] in double precision. *)
From Coq Require Import Reals Lra Lia.
From Flocq Require Import Relative.
From Verif Require Import MFloat MFloatY PFloat TFloat.
Set Default Goal Selector "!".
Set Bullet Behavior "Strict Subproofs".
Open Scope R_scope.

(** A small amount, for results below the normal numbers. *)
Notation small := (bpow radix2 (-575)).
Lemma tiny_small s : s <= huge -> s * tiny <= small.
Proof. intros H. change (-575)%Z with (500 + -1075)%Z. rewrite bpow_plus. apply Rmult_le_compat_r; [left; apply bpow_gt_0|exact H]. Qed.
Lemma tiny_le_small : tiny <= small.
Proof. apply bpow_le. lia. Qed.
Lemma hundred_small : 100 * small < bpow radix2 (-500).
Proof. change (-500)%Z with (75 + -575)%Z. rewrite bpow_plus. apply Rmult_lt_compat_r; [apply bpow_gt_0|]. cbn. lra. Qed.
Lemma scale_pos s : moderate_scale s -> 0 < real s.
Proof. intros (_ & S & _). eapply Rlt_le_trans; [apply bpow_gt_0|exact S]. Qed.
Lemma norm_error mu s v : moderate mu -> moderate_scale s -> moderate v ->
  Rabs (real s * real (norm mu s v) - (real v - real mu)) <= 3 * u53 * Rabs (real v - real mu) + 3 * small.
Proof.
  intros M S V. destruct (norm_real mu s v M S V) as (_ & E & _). rewrite E. pose proof (two_errors (real v - real mu) (real s) (scale_pos s S)) as H.
  pose proof (tiny_small (real s) (proj2 (proj2 S))). pose proof tiny_le_small. lra.
Qed.
Lemma back_error n s mu v X : Rabs v <= huge -> Rabs mu <= huge -> X = Rabs (v - mu) -> Rabs (s * n - (v - mu)) <= 3 * u53 * X + 3 * small ->
  Rabs (rnd (n * s)) <= bpow radix2 503 /\ Rabs (rnd (n * s) + mu) <= bpow radix2 504 /\
  Rabs (rnd (rnd (n * s) + mu) - v) <= 5 * u53 * X + u53 * Rabs v + bpow radix2 (-500).
Proof.
  intros V M EX E. pose proof (err (n * s)) as E1. pose proof (err (rnd (n * s) + mu)) as E2. pose proof u53_small as U. pose proof tiny_le_small as T. pose proof hundred_small as H.
  pose proof (bpow_gt_0 radix2 (-575)) as G. pose proof (Rabs_pos v) as PV. pose proof (Rabs_pos (v - mu)) as PX. rewrite <- EX in PX.
  assert (X <= 2 * huge) as XH. { rewrite EX. unfold Rminus. eapply Rle_trans; [apply Rabs_triang|]. rewrite Rabs_Ropp. lra. }
  assert (small <= huge) as SH by (apply bpow_le; lia).
  assert (bpow radix2 503 = 8 * huge) as K3 by (change 503%Z with (3 + 500)%Z; rewrite bpow_plus; f_equal; cbn; lra).
  assert (bpow radix2 504 = 16 * huge) as K4 by (change 504%Z with (4 + 500)%Z; rewrite bpow_plus; f_equal; cbn; lra).
  rewrite K3, K4. set (p := rnd (n * s)) in *. set (r := rnd (p + mu)) in *. set (u := u53) in *. set (h := tiny) in *. set (g := small) in *. set (f := bpow radix2 (-500)) in *. set (B := huge) in *.
  assert (u * X <= / 100 * X) as UX by (apply Rmult_le_compat_r; lra). assert (0 <= u * X) as UX0 by (apply Rmult_le_pos; lra).
  assert (u * g <= / 100 * g) as UG by (apply Rmult_le_compat_r; lra). assert (0 <= u * Rabs v) as UV by (apply Rmult_le_pos; lra).
  assert (u * (u * X) <= / 100 * (u * X)) as UUX by (apply Rmult_le_compat_r; lra).
  assert (Rabs (n * s) <= X + 3 * (u * X) + 3 * g) as NS.
  { replace (n * s) with ((s * n - (v - mu)) + (v - mu)) by ring. eapply Rle_trans; [apply Rabs_triang|]. rewrite <- EX. lra. }
  assert (Rabs (p - n * s) <= u * X + 3 * (u * (u * X)) + 3 * (u * g) + g) as PNS.
  { eapply Rle_trans; [exact E1|]. assert (u * Rabs (n * s) <= u * (X + 3 * (u * X) + 3 * g)) by (apply Rmult_le_compat_l; lra). lra. }
  assert (Rabs (p - (v - mu)) <= 4 * (u * X) + 3 * (u * (u * X)) + 5 * g) as PX'.
  { replace (p - (v - mu)) with ((p - n * s) + (s * n - (v - mu))) by ring. eapply Rle_trans; [apply Rabs_triang|]. lra. }
  assert (Rabs (p + mu) <= Rabs v + 5 * (u * X) + 5 * g) as PM.
  { replace (p + mu) with ((p - (v - mu)) + v) by ring. eapply Rle_trans; [apply Rabs_triang|]. lra. }
  assert (Rabs p <= X + 5 * (u * X) + 5 * g) as P.
  { replace p with ((p - (v - mu)) + (v - mu)) by ring. eapply Rle_trans; [apply Rabs_triang|]. rewrite <- EX. lra. }
  split; [lra|]. split; [lra|].
  assert (u * Rabs (p + mu) <= u * Rabs v + 5 * (u * (u * X)) + 5 * (u * g)) as R.
  { assert (u * Rabs (p + mu) <= u * (Rabs v + 5 * (u * X) + 5 * g)) by (apply Rmult_le_compat_l; lra). lra. }
  replace (r - v) with ((r - (p + mu)) + (p - (v - mu))) by ring. eapply Rle_trans; [apply Rabs_triang|]. lra.
Qed.
(** Transformed and transformed back: finite, and the value again up to some roundings. *)
Theorem C143_round_trip mu sigma v : moderate mu -> moderate_scale sigma -> moderate v ->
  isfinite (round_trip mu sigma v) = true /\
  Rabs (real (round_trip mu sigma v) - real v) <= 5 * u53 * Rabs (real v - real mu) + u53 * Rabs (real v) + bpow radix2 (-500).
Proof.
  intros M S V. destruct (norm_real mu sigma v M S V) as (F & _ & _). pose proof (norm_error mu sigma v M S V) as E.
  destruct (back_error _ _ (real mu) (real v) _ (proj2 V) (proj2 M) eq_refl E) as (P & Q & R).
  destruct (fmul_real (norm mu sigma v) sigma F (proj1 S)) as [E1 F1]. { eapply Rle_lt_trans; [exact P|apply bpow_lt; lia]. }
  destruct (fadd_real _ mu F1 (proj1 M)) as [E2 F2]. { rewrite E1. apply (below_big _ 504); [lia|exact Q]. }
  unfold round_trip, unnorm. split; [exact F2|]. rewrite E2, E1. exact R.
Qed.
(** Noise levels and thresholds likewise. *)
Theorem C143_round_trip_scale sigma t : moderate_scale sigma -> moderate t ->
  isfinite (round_trip_scale sigma t) = true /\ Rabs (real (round_trip_scale sigma t) - real t) <= 3 * u53 * Rabs (real t) + bpow radix2 (-500).
Proof.
  intros S T. destruct (norm_scale_real sigma t S T) as (F & E & _). pose proof (one_error (real t) (real sigma) (scale_pos sigma S)) as H. rewrite <- E in H.
  pose proof (tiny_small (real sigma) (proj2 (proj2 S))) as G. pose proof (err (real (norm_scale sigma t) * real sigma)) as K. pose proof u53_small as U. pose proof tiny_le_small as TS. pose proof hundred_small as HS.
  pose proof (bpow_gt_0 radix2 (-575)) as GP. pose proof (Rabs_pos (real t)) as TP. destruct T as [FT T]. set (n := real (norm_scale sigma t)) in *. set (s := real sigma) in *.
  assert (u53 * Rabs (real t) <= / 100 * Rabs (real t)) as UT by (apply Rmult_le_compat_r; lra).
  assert (Rabs (n * s) <= Rabs (real t) + u53 * Rabs (real t) + small) as N.
  { replace (n * s) with ((s * n - real t) + real t) by ring. eapply Rle_trans; [apply Rabs_triang|]. lra. }
  destruct (fmul_real (norm_scale sigma t) sigma F (proj1 S)) as [E1 F1].
  { apply (below_big _ 502); [lia|]. fold n s. change 502%Z with (2 + 500)%Z. rewrite bpow_plus. assert (small <= huge) by (apply bpow_le; lia). change (bpow radix2 2) with 4. lra. }
  unfold round_trip_scale, unnorm_scale. split; [exact F1|]. rewrite E1. fold n s.
  assert (u53 * Rabs (n * s) <= u53 * Rabs (real t) + / 100 * (u53 * Rabs (real t)) + / 100 * small) as UN.
  { apply Rle_trans with (u53 * (Rabs (real t) + u53 * Rabs (real t) + small)); [apply Rmult_le_compat_l; lra|].
    assert (u53 * (u53 * Rabs (real t)) <= / 100 * (u53 * Rabs (real t))) by (apply Rmult_le_compat_r; [apply Rmult_le_pos|]; lra). assert (u53 * small <= / 100 * small) by (apply Rmult_le_compat_r; lra). lra. }
  assert (0 <= u53 * Rabs (real t)) by (apply Rmult_le_pos; lra).
  replace (rnd (n * s) - real t) with ((rnd (n * s) - n * s) + (s * n - real t)) by ring. eapply Rle_trans; [apply Rabs_triang|]. lra.
Qed.

(** Rounding never inverts the order of two values, neither of the transformed ones nor of those transformed back. *)
Theorem C143_order mu sigma v w : moderate mu -> moderate_scale sigma -> moderate v -> moderate w -> fle v w = true ->
  fle (norm mu sigma v) (norm mu sigma w) = true /\ fle (round_trip mu sigma v) (round_trip mu sigma w) = true.
Proof.
  intros M S V W L. apply fle_real in L; [|apply V|apply W]. pose proof (scale_pos sigma S) as P.
  destruct (norm_real mu sigma v M S V) as (Fv & Ev & _). destruct (norm_real mu sigma w M S W) as (Fw & Ew & _).
  assert (real (norm mu sigma v) <= real (norm mu sigma w)) as N.
  { rewrite Ev, Ew. apply rnd_le. unfold Rdiv. apply Rmult_le_compat_r; [left; apply Rinv_0_lt_compat, P|]. apply rnd_le. lra. }
  split; [apply fle_real; assumption|].
  pose proof (norm_error mu sigma v M S V) as Qv. pose proof (norm_error mu sigma w M S W) as Qw.
  destruct (back_error _ _ (real mu) (real v) _ (proj2 V) (proj2 M) eq_refl Qv) as (Pv & Av & _). destruct (back_error _ _ (real mu) (real w) _ (proj2 W) (proj2 M) eq_refl Qw) as (Pw & Aw & _).
  destruct (fmul_real (norm mu sigma v) sigma Fv (proj1 S)) as [E1 F1]. { eapply Rle_lt_trans; [exact Pv|apply bpow_lt; lia]. }
  destruct (fmul_real (norm mu sigma w) sigma Fw (proj1 S)) as [E2 F2]. { eapply Rle_lt_trans; [exact Pw|apply bpow_lt; lia]. }
  destruct (fadd_real _ mu F1 (proj1 M)) as [E3 F3]. { rewrite E1. apply (below_big _ 504); [lia|exact Av]. }
  destruct (fadd_real _ mu F2 (proj1 M)) as [E4 F4]. { rewrite E2. apply (below_big _ 504); [lia|exact Aw]. }
  unfold round_trip, unnorm. apply fle_real; [exact F3|exact F4|]. rewrite E3, E4, E1, E2. apply rnd_le. apply Rplus_le_compat_r. apply rnd_le. apply Rmult_le_compat_r; lra.
Qed.
(** Values further apart than some roundings stay apart. *)
Theorem C143_apart mu sigma v w : moderate mu -> moderate_scale sigma -> moderate v -> moderate w ->
  3 * u53 * (Rabs (real v - real mu) + Rabs (real w - real mu)) + bpow radix2 (-500) <= real w - real v ->
  flt (norm mu sigma v) (norm mu sigma w) = true.
Proof.
  intros M S V W L. destruct (norm_real mu sigma v M S V) as (Fv & _ & _). destruct (norm_real mu sigma w M S W) as (Fw & _ & _). apply flt_real; [exact Fv|exact Fw|].
  pose proof (norm_error mu sigma v M S V) as Qv. pose proof (norm_error mu sigma w M S W) as Qw. pose proof hundred_small. pose proof (bpow_gt_0 radix2 (-575)).
  apply Rmult_lt_reg_l with (real sigma); [apply scale_pos, S|]. apply Rabs_le_inv in Qv. apply Rabs_le_inv in Qw. lra.
Qed.
(** -inf is transformed to -inf and back; the mean to 0 and, exactly, back. *)
Theorem C143_inf mu sigma : moderate mu -> moderate_scale sigma -> norm mu sigma ninf = ninf /\ round_trip mu sigma ninf = ninf.
Proof.
  intros M S. assert (norm mu sigma ninf = ninf) as E by (apply norm_ninf; [apply M|apply S|apply scale_pos, S]). split; [exact E|]. unfold round_trip. rewrite E. unfold unnorm.
  replace (fmul ninf sigma) with ninf; [destruct M as [F _]; destruct mu; try discriminate F; reflexivity|].
  pose proof (scale_pos sigma S) as P. destruct S as [F _]. destruct sigma as [[]|[]| |[] m e B]; try discriminate F; try reflexivity; try (cbn in P; lra).
  exfalso. pose proof (sign_nonpos (B754_finite true m e B) eq_refl eq_refl). lra.
Qed.
Theorem C143_mean mu sigma : moderate mu -> moderate_scale sigma -> real (norm mu sigma mu) = 0 /\ real (round_trip mu sigma mu) = real mu.
Proof.
  intros M S. destruct (norm_real mu sigma mu M S M) as (F & E & _). assert (real (norm mu sigma mu) = 0) as Z by (rewrite E, Rminus_diag_eq, rnd_0 by reflexivity; unfold Rdiv; rewrite Rmult_0_l; apply rnd_0).
  split; [exact Z|]. destruct (fmul_real (norm mu sigma mu) sigma F (proj1 S)) as [E1 F1]. { rewrite Z, Rmult_0_l, rnd_0, Rabs_R0. apply bpow_gt_0. }
  rewrite Z, Rmult_0_l, rnd_0 in E1. destruct (fadd_real _ mu F1 (proj1 M)) as [E2 _]. { rewrite E1, Rplus_0_l, rnd_real. apply real_lt_big. }
  unfold round_trip, unnorm. rewrite E2, E1, Rplus_0_l. apply rnd_real.
Qed.

(** [Normalize_bounds] computes the same with the lower bound and the width: a coordinate inside of the bounds, transformed and back, up to roundings, in order. *)
Theorem C126_round_trip a b x : moderate a -> moderate_scale (fsub b a) -> moderate x ->
  isfinite (from_unit a b (to_unit a b x)) = true /\
  Rabs (real (from_unit a b (to_unit a b x)) - real x) <= 5 * u53 * Rabs (real x - real a) + u53 * Rabs (real x) + bpow radix2 (-500) /\
  (forall y, moderate y -> fle x y = true -> fle (from_unit a b (to_unit a b x)) (from_unit a b (to_unit a b y)) = true) /\
  real (from_unit a b (to_unit a b a)) = real a.
Proof.
  intros A W X. destruct (C143_round_trip a (fsub b a) x A W X) as [F E]. split; [exact F|]. split; [exact E|]. split; [intros y Y L; apply (C143_order a (fsub b a) x y A W X Y L)|].
  apply (C143_mean a (fsub b a) A W).
Qed.
(** The upper bound may come back above itself (as in C126_edge_refuted). *)
Theorem C126_round_trip_refuted : in_bounds (fz (-4)) (dec 2 1) (dec 2 1) = true /\ in_bounds (fz (-4)) (dec 2 1) (from_unit (fz (-4)) (dec 2 1) (to_unit (fz (-4)) (dec 2 1) (dec 2 1))) = false.
Proof. split; vm_compute; reflexivity. Qed.
Example C126_round_trip_case :
  B2SF (to_unit (fz (-4)) (fz 4) (fz 2)) = B2SF (dec 75 2) /\ B2SF (from_unit (fz (-4)) (fz 4) (to_unit (fz (-4)) (fz 4) (dec 25 1))) = B2SF (dec 25 1).
Proof. split; vm_compute; reflexivity. Qed.

(** Infinite (and NaN) values do not enter mean and standard deviation: leaving one out, or putting one in anywhere, changes none of the others. *)
Theorem C143_infinite l v r : isfinite v = false ->
  exists l' x r', normalised (l ++ v :: r) = l' ++ x :: r' /\ normalised (l ++ r) = l' ++ r' /\ length l' = length l.
Proof.
  intros H. unfold normalised. assert (filter isfinite (l ++ v :: r) = filter isfinite (l ++ r)) as -> by (rewrite !filter_app; cbn [filter]; rewrite H; reflexivity).
  set (n := norm _ _). exists (map n l), (n v), (map n r). rewrite !map_app, map_length. repeat split.
Qed.
Example C143_infinite_case : map B2SF (normalised [fz (-62); ninf; fz (-38)]) = map B2SF [fz (-1); ninf; fz 1].
Proof. vm_compute. reflexivity. Qed.
(** What does not hold. The value is not always returned exactly. *)
Theorem C143_exact_refuted : exists mu sigma v, isfinite mu = true /\ isfinite sigma = true /\ isfinite v = true /\ flt (fz 0) sigma = true /\ flt v (round_trip mu sigma v) = true.
Proof. exists (fz 3), (fz 7), (dec 1 1). repeat split; vm_compute; reflexivity. Qed.
(** Different values may become equal: of three values two differ by a factor of 2, and are the same to the surrogate. *)
Theorem C143_distinct_refuted : exists a b c, isfinite a = true /\ isfinite b = true /\ isfinite c = true /\ flt b c = true /\ B2SF c = B2SF (fmul (fz 2) b) /\
  exists x y, map B2SF (normalised [a; b; c]) = map B2SF [x; y; y] /\ isfinite x = true /\ isfinite y = true.
Proof.
  exists (fz (-1000000000)), (dec 1 10), (dec 2 10). split; [vm_compute; reflexivity|]. split; [vm_compute; reflexivity|]. split; [vm_compute; reflexivity|]. split; [vm_compute; reflexivity|].
  split; [vm_compute; reflexivity|].
  exists (nth 0 (normalised [fz (-1000000000); dec 1 10; dec 2 10]) (fz 0)), (nth 1 (normalised [fz (-1000000000); dec 1 10; dec 2 10]) (fz 0)).
  split; [|split]; vm_compute; reflexivity.
Qed.
(** Equal values: their mean need not be that value, and they may be transformed to -1 (the mean of 0.1, 0.1, 0.1 is above 0.1) instead of 0; or to NaN. *)
Theorem C143_equal_refuted :
  (exists v, isfinite v = true /\ map B2SF (normalised [v; v; v]) = map B2SF [fz (-1); fz (-1); fz (-1)]) /\
  (exists v, isfinite v = true /\ map is_nan (normalised [v; v; v]) = [true; true; true]).
Proof. split; [exists (dec 1 1)|exists (fz 1)]; (split; vm_compute; reflexivity). Qed.

(** An instance: mean -50, standard deviation 12, the values -inf, -60.5 and -49.9. *)
Lemma moderate_by v : isfinite v = true -> fle (fz (-1000)) v = true -> fle v (fz 1000) = true -> moderate v.
Proof.
  intros F L H. apply fle_real in L; [|reflexivity|exact F]. apply fle_real in H; [|exact F|reflexivity]. destruct (fz_real 1000) as [E1 _]; [lia|]. destruct (fz_real (-1000)) as [E2 _]; [lia|].
  rewrite E1 in H. rewrite E2 in L. split; [exact F|]. apply Rle_trans with 1000; [apply Rabs_le; lra|]. apply Rle_trans with (bpow radix2 10); [cbn; lra|apply bpow_le; lia].
Qed.
Example C143_case :
  moderate (fz (-50)) /\ moderate_scale (fz 12) /\ moderate (dec (-605) 1) /\ moderate (dec (-499) 1) /\ fle (dec (-605) 1) (dec (-499) 1) = true /\
  map B2SF (map (norm (fz (-50)) (fz 12)) [ninf; fz (-62); fz (-50); fz (-44)]) = map B2SF [ninf; fz (-1); fz 0; dec 5 1] /\
  map B2SF (map (round_trip (fz (-50)) (fz 12)) [ninf; fz (-62); fz (-50); dec (-499) 1]) = map B2SF [ninf; fz (-62); fz (-50); dec (-499) 1] /\
  flt (norm (fz (-50)) (fz 12) (dec (-605) 1)) (norm (fz (-50)) (fz 12) (dec (-499) 1)) = true /\
  B2SF (round_trip_scale (fz 12) (dec 3 1)) = B2SF (dec 3 1).
Proof.
  split; [apply moderate_by; vm_compute; reflexivity|]. split.
  { destruct (fz_real 12) as [E F]; [lia|]. split; [exact F|]. rewrite E. split; [apply Rle_trans with (bpow radix2 0); [apply bpow_le; lia|cbn; lra]|].
    apply Rle_trans with (bpow radix2 4); [cbn; lra|apply bpow_le; lia]. }
  split; [apply moderate_by; vm_compute; reflexivity|]. split; [apply moderate_by; vm_compute; reflexivity|]. repeat split; vm_compute; reflexivity.
Qed.
Print Assumptions C143_round_trip. Print Assumptions C143_round_trip_scale. Print Assumptions C143_order. Print Assumptions C143_apart. Print Assumptions C143_inf. Print Assumptions C143_mean. Print Assumptions C143_infinite.
Print Assumptions C126_round_trip. Print Assumptions C126_round_trip_refuted. Print Assumptions C143_exact_refuted. Print Assumptions C143_distinct_refuted. Print Assumptions C143_equal_refuted.

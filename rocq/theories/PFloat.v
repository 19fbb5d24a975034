(** Lemmas about doubles: operations as rounded operations on reals. *)
From Verif Require Import MFloat.
From Coq Require Import Reals Lra Lia.
From Flocq Require Import Relative Sterbenz Plus_error.
Set Default Goal Selector "!".
Open Scope R_scope.

Notation fe := (SpecFloat.fexp 53 1024).
Notation rnd := (round radix2 fe ZnearestE).
Notation big := (bpow radix2 1024).
Global Instance fe_valid : Valid_exp fe := fexp_correct 53 1024 _.
Global Instance fe_mono : Monotone_exp fe := fexp_monotone 53 1024.
Lemma fe_flt : fe = FLT_exp (-1074) 53. Proof. reflexivity. Qed.

Lemma format x : generic_format radix2 fe (real x).
Proof. apply generic_format_B2R. Qed.
Lemma rnd_real x : rnd (real x) = real x.
Proof. apply round_generic; [typeclasses eauto|apply format]. Qed.
Lemma rnd_le x y : x <= y -> rnd x <= rnd y.
Proof. apply round_le; typeclasses eauto. Qed.
Lemma rnd_le_real r x : r <= real x -> rnd r <= real x.
Proof. intros H. rewrite <- rnd_real. apply rnd_le, H. Qed.
Lemma rnd_ge_real r x : real x <= r -> real x <= rnd r.
Proof. intros H. rewrite <- (rnd_real x). apply rnd_le, H. Qed.
Lemma rnd_0 : rnd 0 = 0. Proof. apply round_0. typeclasses eauto. Qed.
Lemma real_lt_big x : Rabs (real x) < big.
Proof. apply abs_B2R_lt_emax. Qed.
Lemma between_big lo hi r : real lo <= r -> r <= real hi -> Rabs r < big.
Proof.
  intros H1 H2. pose proof (real_lt_big lo) as L. pose proof (real_lt_big hi) as H. apply Rabs_def2 in L as [_ L]. apply Rabs_def2 in H as [H _].
  apply Rabs_def1; lra.
Qed.

Lemma fadd_real x y : isfinite x = true -> isfinite y = true -> Rabs (rnd (real x + real y)) < big ->
  real (fadd x y) = rnd (real x + real y) /\ isfinite (fadd x y) = true.
Proof.
  intros Fx Fy H. pose proof (Bplus_correct 53 1024 _ _ mode_NE x y Fx Fy) as K.
  cbn [round_mode] in K. rewrite Rlt_bool_true in K by exact H. split; apply K.
Qed.
Lemma fsub_real x y : isfinite x = true -> isfinite y = true -> Rabs (rnd (real x - real y)) < big ->
  real (fsub x y) = rnd (real x - real y) /\ isfinite (fsub x y) = true.
Proof.
  intros Fx Fy H. pose proof (Bminus_correct 53 1024 _ _ mode_NE x y Fx Fy) as K.
  cbn [round_mode] in K. rewrite Rlt_bool_true in K by exact H. split; apply K.
Qed.
Lemma not_finite_overflow (z : f64) s : B2SF z = binary_overflow 53 1024 mode_NE s -> isfinite z = false.
Proof. destruct z, s; cbn; try discriminate; reflexivity. Qed.
(** If the result is finite there was no overflow. *)
Lemma fsub_finite x y : isfinite x = true -> isfinite y = true -> isfinite (fsub x y) = true ->
  real (fsub x y) = rnd (real x - real y).
Proof.
  intros Fx Fy H. pose proof (Bminus_correct 53 1024 _ _ mode_NE x y Fx Fy) as K. cbn [round_mode] in K.
  destruct (Rlt_bool _ _); [apply K|]. destruct K as [K _]. apply not_finite_overflow in K. unfold fsub in H. congruence.
Qed.
Lemma fadd_finite x y : isfinite x = true -> isfinite y = true -> isfinite (fadd x y) = true ->
  real (fadd x y) = rnd (real x + real y).
Proof.
  intros Fx Fy H. pose proof (Bplus_correct 53 1024 _ _ mode_NE x y Fx Fy) as K. cbn [round_mode] in K.
  destruct (Rlt_bool _ _); [apply K|]. destruct K as [K _]. apply not_finite_overflow in K. unfold fadd in H. congruence.
Qed.
Lemma fmul_real x y : isfinite x = true -> isfinite y = true -> Rabs (rnd (real x * real y)) < big ->
  real (fmul x y) = rnd (real x * real y) /\ isfinite (fmul x y) = true.
Proof.
  intros Fx Fy H. pose proof (Bmult_correct 53 1024 _ _ mode_NE x y) as K.
  cbn [round_mode] in K. rewrite Rlt_bool_true in K by exact H. destruct K as (K1 & K2 & _). split; [exact K1|].
  unfold isfinite, fmul in *. rewrite K2, Fx, Fy. reflexivity.
Qed.
Lemma fdiv_real x y : isfinite x = true -> real y <> 0 -> Rabs (rnd (real x / real y)) < big ->
  real (fdiv x y) = rnd (real x / real y) /\ isfinite (fdiv x y) = true.
Proof.
  intros Fx Fy H. pose proof (Bdiv_correct 53 1024 _ _ mode_NE x y Fy) as K.
  cbn [round_mode] in K. rewrite Rlt_bool_true in K by exact H. destruct K as (K1 & K2 & _). split; [exact K1|].
  unfold isfinite, fdiv in *. rewrite K2, Fx. reflexivity.
Qed.
Lemma fle_real x y : isfinite x = true -> isfinite y = true -> (fle x y = true <-> real x <= real y).
Proof.
  intros Fx Fy. unfold fle. rewrite Bleb_correct by assumption. split; intros H.
  - destruct (Rle_bool_spec (real x) (real y)); [assumption|discriminate].
  - apply Rle_bool_true, H.
Qed.
Lemma flt_real x y : isfinite x = true -> isfinite y = true -> (flt x y = true <-> real x < real y).
Proof.
  intros Fx Fy. unfold flt. rewrite Bltb_correct by assumption. split; intros H.
  - destruct (Rlt_bool_spec (real x) (real y)); [assumption|discriminate].
  - apply Rlt_bool_true, H.
Qed.
Lemma fz_real n : (Z.abs n <= 2 ^ 53)%Z -> real (fz n) = IZR n /\ isfinite (fz n) = true.
Proof.
  intros H. pose proof (binary_normalize_correct 53 1024 _ _ mode_NE n 0 false) as K. cbn [round_mode] in K.
  assert (F2R (Float radix2 n 0) = IZR n) as E by (unfold F2R; cbn; ring). rewrite E in K.
  assert (rnd (IZR n) = IZR n) as R.
  { apply round_generic; [typeclasses eauto|]. rewrite fe_flt. apply generic_format_FLT.
    destruct (Z.eq_dec (Z.abs n) (2 ^ 53)) as [A|A].
    - assert (n = 2 ^ 53 \/ n = - 2 ^ 53)%Z as [->| ->] by lia.
      + exists (Float radix2 1 53); cbn; [unfold F2R; cbn; lra|lia|lia].
      + exists (Float radix2 (-1) 53); cbn; [unfold F2R; cbn; lra|lia|lia].
    - exists (Float radix2 n 0); cbn [Fnum Fexp]; [symmetry; exact E|cbn in *; lia|lia]. }
  rewrite R in K. rewrite Rlt_bool_true in K.
  - destruct K as (K1 & K2 & _). split; [exact K1|exact K2].
  - rewrite <- abs_IZR. apply Rle_lt_trans with (bpow radix2 53); [|apply bpow_lt; lia]. rewrite <- IZR_Zpower by lia. apply IZR_le. exact H.
Qed.

(** ** The product with a number below one *)
Lemma pred_one : pred radix2 fe 1 = 1 - bpow radix2 (-53).
Proof. change 1 with (bpow radix2 0) at 1. rewrite pred_bpow. reflexivity. Qed.
Lemma below_one x : real x < 1 -> real x <= 1 - bpow radix2 (-53).
Proof.
  intros H. rewrite <- pred_one. apply pred_ge_gt; [typeclasses eauto|apply format| |exact H].
  destruct (fz_real 1) as [E _]; [lia|]. rewrite <- E. apply format.
Qed.
(** Half the distance to the number before is more than the relative distance of the number before one. *)
Lemma half_gap w : bpow radix2 (-1021) < w -> w - pred radix2 fe w < 2 * (w * bpow radix2 (-53)) .
Proof.
  intros H. assert (0 < w) as P by (eapply Rlt_trans; [apply bpow_gt_0|exact H]).
  assert (w <> 0) as Z by lra.
  pose proof (bpow_mag_le radix2 w Z) as He1. pose proof (bpow_mag_gt radix2 w) as He2. rewrite Rabs_pos_eq in He1, He2 by lra. set (e := mag_val radix2 w (mag radix2 w)) in *.
  assert (-1021 < e)%Z as L. { apply (lt_bpow radix2). lra. }
  rewrite pred_eq_pos by lra. unfold pred_pos. fold e.
  assert (2 * (w * bpow radix2 (-53)) = w * bpow radix2 (-52)) as X. { change (-52)%Z with (1 + -53)%Z. rewrite bpow_plus. change (bpow radix2 1) with 2. ring. } rewrite X.
  destruct (Req_bool_spec w (bpow radix2 (e - 1))) as [W|W].
  - replace (w - (w - bpow radix2 (fe (e - 1)))) with (bpow radix2 (fe (e - 1))) by ring.
    rewrite W, <- bpow_plus. apply bpow_lt. rewrite fe_flt. unfold FLT_exp. lia.
  - replace (w - (w - ulp radix2 fe w)) with (ulp radix2 fe w) by ring. rewrite ulp_neq_0 by exact Z. unfold cexp. fold e.
    apply Rle_lt_trans with (bpow radix2 (e - 1) * bpow radix2 (-52)).
    + rewrite <- bpow_plus. apply bpow_le. rewrite fe_flt. unfold FLT_exp. lia.
    + apply Rmult_lt_compat_r; [apply bpow_gt_0|]. lra.
Qed.
Lemma times_below_one x w : generic_format radix2 fe w -> bpow radix2 (-1021) < w -> real x < 1 -> rnd (real x * w) <= pred radix2 fe w.
Proof.
  intros F H L. apply round_N_le_midp; [typeclasses eauto|apply generic_format_pred; [typeclasses eauto|exact F]|].
  rewrite succ_pred; [|typeclasses eauto|exact F]. pose proof (half_gap w H) as G. apply below_one in L.
  assert (0 < w) as P by (eapply Rlt_trans; [apply bpow_gt_0|exact H]).
  apply Rle_lt_trans with ((1 - bpow radix2 (-53)) * w); [apply Rmult_le_compat_r; lra|]. lra.
Qed.
(** A part of a rounded distance does not exceed the distance. *)
Lemma part_of_distance a b x : real a <= real b -> 0 <= real x -> real x < 1 ->
  rnd (real x * rnd (real b - real a)) <= real b - real a.
Proof.
  intros AB X0 X1. set (w := rnd (real b - real a)).
  assert (generic_format radix2 fe w) as FW by (apply generic_format_round; typeclasses eauto).
  assert (0 <= w) as W0. { rewrite <- rnd_0. apply rnd_le. lra. }
  destruct (Rle_or_lt w (real b - real a)) as [W|W].
  - apply Rle_trans with w; [|exact W]. rewrite <- (round_generic radix2 fe ZnearestE w FW) at 2. apply rnd_le.
    rewrite <- (Rmult_1_l w) at 2. apply Rmult_le_compat_r; lra.
  - assert (bpow radix2 (-1021) < real b - real a) as G.
    { apply Rnot_le_lt. intros H. assert (generic_format radix2 fe (real b - real a)) as F.
      { rewrite fe_flt. unfold Rminus. apply FLT_format_plus_small; [typeclasses eauto|apply format|apply generic_format_opp, format|].
        rewrite Rabs_pos_eq by lra. exact H. }
      unfold w in W. rewrite round_generic in W by (try typeclasses eauto; exact F). lra. }
    apply Rle_trans with (pred radix2 fe w); [apply times_below_one; [exact FW|lra|exact X1]|]. apply pred_round_le_id; typeclasses eauto.
Qed.

(** ** Overflow *)
Definition pinf : f64 := B754_infinity false.
Definition ninf : f64 := B754_infinity true.
(** A number that is not negative, possibly infinite. *)
Definition not_neg (d : f64) : Prop := d = pinf \/ isfinite d = true /\ 0 <= real d.
Lemma overflow_inf (z : f64) s : B2SF z = binary_overflow 53 1024 mode_NE s -> z = B754_infinity s.
Proof. destruct z, s; cbn; try discriminate; try reflexivity; intros H; injection H as H; congruence. Qed.
Lemma sign_nonneg (d : f64) : isfinite d = true -> Bsign d = false -> 0 <= real d.
Proof. destruct d; cbn; try discriminate; intros _ E; subst; [lra|]. apply F2R_ge_0. cbn. lia. Qed.
Lemma sign_nonpos (d : f64) : isfinite d = true -> Bsign d = true -> real d <= 0.
Proof. destruct d; cbn; try discriminate; intros _ E; subst; [lra|]. apply F2R_le_0. cbn. lia. Qed.
Lemma fmul_nonneg x y : isfinite x = true -> isfinite y = true -> 0 <= real x -> 0 <= real y -> not_neg (fmul x y).
Proof.
  intros Fx Fy X Y. pose proof (Bmult_correct 53 1024 _ _ mode_NE x y) as K. cbn [round_mode] in K. unfold not_neg.
  assert (0 <= rnd (real x * real y)) as P. { rewrite <- rnd_0. apply rnd_le, Rmult_le_pos; assumption. }
  destruct (Rlt_bool_spec (Rabs (rnd (real x * real y))) big) as [B|B].
  - right. destruct (fmul_real x y Fx Fy B) as [R F]. split; [exact F|]. rewrite R. exact P.
  - left. apply overflow_inf in K. unfold fmul. rewrite K. unfold pinf. f_equal.
    assert (forall z, isfinite z = true -> 0 <= real z -> real z = 0 \/ Bsign z = false) as S.
    { intros z Fz Z. destruct (Bsign z) eqn:E; [|right; reflexivity]. left. pose proof (sign_nonpos z Fz E). lra. }
    assert (real x * real y = 0 -> False) as N. { intros E. rewrite E, rnd_0, Rabs_R0 in B. pose proof (bpow_gt_0 radix2 1024). lra. }
    destruct (S x Fx X) as [E|E]; [exfalso; apply N; rewrite E; ring|]. destruct (S y Fy Y) as [E'|E']; [exfalso; apply N; rewrite E'; ring|]. rewrite E, E'. reflexivity.
Qed.
(** Taking away what is not negative gives no larger number, or minus infinity. *)
Lemma fsub_nonneg x d : isfinite x = true -> not_neg d -> fsub x d = ninf \/ isfinite (fsub x d) = true /\ real (fsub x d) <= real x.
Proof.
  intros Fx [->|[Fd D]]; [left; destruct x; try discriminate Fx; reflexivity|].
  pose proof (Bminus_correct 53 1024 _ _ mode_NE x d Fx Fd) as K. cbn [round_mode] in K.
  destruct (Rlt_bool_spec (Rabs (rnd (real x - real d))) big) as [B|B].
  - right. destruct (fsub_real x d Fx Fd B) as [R F]. split; [exact F|]. rewrite R. apply rnd_le_real. lra.
  - left. destruct K as [K1 K2]. apply overflow_inf in K1. unfold fsub. rewrite K1. unfold ninf. f_equal. destruct (Bsign d) eqn:E.
    + exfalso. pose proof (sign_nonpos d Fd E). replace (real x - real d) with (real x) in B by lra. rewrite rnd_real in B. pose proof (real_lt_big x). lra.
    + exact K2.
Qed.
Lemma fadd_nonneg x d : isfinite x = true -> not_neg d -> fadd x d = pinf \/ isfinite (fadd x d) = true /\ real x <= real (fadd x d).
Proof.
  intros Fx [->|[Fd D]]; [left; destruct x; try discriminate Fx; reflexivity|].
  pose proof (Bplus_correct 53 1024 _ _ mode_NE x d Fx Fd) as K. cbn [round_mode] in K.
  destruct (Rlt_bool_spec (Rabs (rnd (real x + real d))) big) as [B|B].
  - right. destruct (fadd_real x d Fx Fd B) as [R F]. split; [exact F|]. rewrite R. apply rnd_ge_real. lra.
  - left. destruct K as [K1 K2]. apply overflow_inf in K1. unfold fadd. rewrite K1. unfold pinf. f_equal. destruct (Bsign x) eqn:E; [|reflexivity].
    exfalso. symmetry in K2. pose proof (sign_nonpos d Fd K2). replace (real x + real d) with (real x) in B by lra. rewrite rnd_real in B. pose proof (real_lt_big x). lra.
Qed.
Lemma ninf_le x : isfinite x = true -> fle ninf x = true.
Proof. destruct x; try discriminate; reflexivity. Qed.
Lemma le_pinf x : isfinite x = true -> fle x pinf = true.
Proof. destruct x; try discriminate; reflexivity. Qed.
Lemma le_ninf x : isfinite x = true -> fle x ninf = false.
Proof. destruct x; try discriminate; reflexivity. Qed.
Lemma pinf_le x : isfinite x = true -> fle pinf x = false.
Proof. destruct x; try discriminate; reflexivity. Qed.

(** ** Errors *)
Lemma err r : Rabs (rnd r - r) <= bpow radix2 (-53) * Rabs r + bpow radix2 (-1075).
Proof.
  destruct (Rle_or_lt (bpow radix2 (-1022)) (Rabs r)) as [H|H].
  - pose proof (relative_error_N_FLT radix2 (-1074) 53 eq_refl (fun x => negb (Z.even x)) r H) as K. rewrite <- fe_flt in K. 
    assert (/ 2 * bpow radix2 (Z.opp 53 + 1) = bpow radix2 (-53)) as E by (change (/ 2) with (bpow radix2 (-1)); rewrite <- bpow_plus; reflexivity). rewrite E in K.
    pose proof (bpow_ge_0 radix2 (-1075)). lra.
  - pose proof (error_le_half_ulp radix2 fe (fun x => negb (Z.even x)) r) as K. rewrite fe_flt in K at 2. rewrite ulp_FLT_small in K; [|typeclasses eauto|apply Rlt_le_trans with (1 := H); apply bpow_le; lia].
    assert (/ 2 * bpow radix2 (-1074) = bpow radix2 (-1075)) as E by (change (/ 2) with (bpow radix2 (-1)); rewrite <- bpow_plus; reflexivity). rewrite E in K.
    assert (0 <= bpow radix2 (-53) * Rabs r) by (apply Rmult_le_pos; [apply bpow_ge_0|apply Rabs_pos]). lra.
Qed.
(** Below a power of two. *)
Lemma err_below r k : (-1000 <= k)%Z -> Rabs r < bpow radix2 k -> Rabs (rnd r - r) <= bpow radix2 (k - 54).
Proof.
  intros K H. destruct (Req_dec r 0) as [->|N]; [rewrite rnd_0, Rminus_0_r, Rabs_R0; apply bpow_ge_0|].
  apply Rle_trans with (/ 2 * ulp radix2 fe r); [apply error_le_half_ulp; typeclasses eauto|]. rewrite ulp_neq_0 by exact N. unfold cexp.
  change (/ 2) with (bpow radix2 (-1)). rewrite <- bpow_plus. apply bpow_le. pose proof (mag_le_bpow radix2 r k N H). rewrite fe_flt. unfold FLT_exp. lia.
Qed.
Lemma real_SF (x : f64) : real x = SF2R radix2 (B2SF x).
Proof. symmetry. apply SF2R_B2SF. Qed.

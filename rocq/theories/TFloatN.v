(** C144: counts computed in double precision. *)
From Coq Require Import Reals Lra Lia.
From Flocq Require Import Relative.
From Verif Require Import MFloat MFloatN PFloat TFloat TMpi.
From Coq Require Import Lra.
Set Default Goal Selector "!".
Set Bullet Behavior "Strict Subproofs".
Open Scope R_scope.

Notation exact_limit := (2 ^ 53)%Z.
Lemma ftrunc_real x : 0 <= real x -> ftrunc x = Zfloor (real x).
Proof.
  intros H. apply eq_IZR. unfold ftrunc. rewrite Btrunc_correct. 2: exact emax1024. unfold round, scaled_mantissa, cexp, FIX_exp, F2R. cbn [Fnum Fexp].
  change (bpow radix2 (- 0)) with 1. change (bpow radix2 0) with 1. rewrite 2 Rmult_1_r. f_equal. apply Ztrunc_floor, H.
Qed.
Lemma floor_small x n : (0 <= n)%Z -> 0 <= x -> x <= IZR n -> (0 <= Zfloor x <= n)%Z.
Proof.
  intros N X H. split; [apply (Zfloor_lub 0), X|]. apply le_IZR. apply Rle_trans with x; [apply Zfloor_lb|exact H].
Qed.
Lemma fceil_real x : isfinite x = true -> 0 <= real x -> real x <= bpow radix2 53 -> fceil x = Zceil (real x).
Proof.
  intros F H L. unfold fceil. rewrite ftrunc_real by exact H. set (t := Zfloor (real x)).
  assert (0 <= t <= exact_limit)%Z as T by (apply floor_small; [lia|exact H|exact L]).
  destruct (fz_real t) as [E Ft]; [lia|]. pose proof (Zfloor_lb (real x)) as Lb. fold t in Lb. pose proof (Zfloor_ub (real x)) as Ub. fold t in Ub.
  destruct (flt (fz t) x) eqn:C.
  - apply flt_real in C; [|exact Ft|exact F]. rewrite E in C. symmetry. apply Zceil_imp. rewrite Z.add_simpl_r. split; [exact C|]. rewrite plus_IZR. apply Rlt_le, Ub.
  - assert (~ real (fz t) < real x) as N. { intros K. apply flt_real in K; [congruence|exact Ft|exact F]. }
    rewrite E in N. apply Rnot_lt_le in N. symmetry. apply Zceil_imp. rewrite minus_IZR. clear L H T. clearbody t. split; [|exact N]. lra.
Qed.
(** The quotient of two numbers below 2^53, rounded: not further away than to the integers around it, and not on them. *)
Lemma div_real n p : (0 <= n < exact_limit)%Z -> (1 <= p < exact_limit)%Z ->
  isfinite (true_div n p) = true /\ real (true_div n p) = rnd (IZR n / IZR p) /\ 0 <= real (true_div n p) <= IZR n.
Proof.
  intros N P. destruct (fz_real n) as [En Fn]; [lia|]. destruct (fz_real p) as [Ep Fp]; [lia|].
  assert (1 <= IZR p) as P1 by (apply (IZR_le 1); lia). assert (0 <= IZR n) as N0 by (apply (IZR_le 0); lia).
  assert (0 < / IZR p <= 1) as I. { split; [apply Rinv_0_lt_compat; lra|]. rewrite <- Rinv_1. apply Rinv_le; lra. }
  assert (0 <= IZR n / IZR p <= IZR n) as Q. { unfold Rdiv. split; [apply Rmult_le_pos; lra|]. rewrite <- (Rmult_1_r (IZR n)) at 2. apply Rmult_le_compat_l; lra. }
  assert (0 <= rnd (IZR n / IZR p) <= IZR n) as R. { split; [rewrite <- rnd_0; apply rnd_le; lra|]. rewrite <- En. apply rnd_le_real. rewrite En. lra. }
  destruct (fdiv_real (fz n) (fz p) Fn) as [E F].
  - rewrite Ep. lra.
  - rewrite En, Ep. rewrite Rabs_pos_eq by lra. apply Rle_lt_trans with (IZR n); [lra|]. rewrite <- En. eapply Rle_lt_trans; [apply Rle_abs|apply real_lt_big].
  - unfold true_div. rewrite En, Ep in E. split; [exact F|]. rewrite E. split; [reflexivity|exact R].
Qed.
Lemma div_error n p : (0 <= n < exact_limit)%Z -> (1 <= p < exact_limit)%Z -> Rabs (rnd (IZR n / IZR p) - IZR n / IZR p) * IZR p < 1.
Proof.
  intros N P. destruct (Z.eq_dec n 0) as [->|Z]. { unfold Rdiv. rewrite Rmult_0_l, rnd_0, Rminus_0_r, Rabs_R0. lra. }
  assert (1 <= IZR p) as P1 by (apply (IZR_le 1); lia). assert (1 <= IZR n) as N1 by (apply (IZR_le 1); lia).
  assert (IZR n < bpow radix2 53) as NL by (change (bpow radix2 53) with (IZR exact_limit); apply IZR_lt; lia). assert (IZR p < bpow radix2 53) as PL by (change (bpow radix2 53) with (IZR exact_limit); apply IZR_lt; lia).
  assert (0 < / IZR p) as I by (apply Rinv_0_lt_compat; lra).
  assert (0 < IZR n / IZR p) as Q by (apply Rmult_lt_0_compat; lra).
  assert (bpow radix2 (-1022) <= Rabs (IZR n / IZR p)) as S.
  { rewrite Rabs_pos_eq by lra. apply Rle_trans with (bpow radix2 (-53)); [apply bpow_le; lia|]. change (-53)%Z with (- (53))%Z. rewrite bpow_opp. unfold Rdiv. rewrite <- (Rmult_1_l (/ bpow radix2 53)). apply Rmult_le_compat; [lra|left; apply Rinv_0_lt_compat, bpow_gt_0|exact N1|]. apply Rinv_le; lra. }
  pose proof (relative_error_N_FLT radix2 (-1074) 53 eq_refl (fun x => negb (Z.even x)) _ S) as K. rewrite <- fe_flt in K.
  rewrite (Rabs_pos_eq (IZR n / IZR p)) in K by lra.
  replace (/ 2 * bpow radix2 (- (53) + 1)) with (/ bpow radix2 53) in K by (rewrite bpow_plus, bpow_opp; change (bpow radix2 1) with 2; field; apply Rgt_not_eq, bpow_gt_0).
  apply Rle_lt_trans with (/ bpow radix2 53 * (IZR n / IZR p) * IZR p); [apply Rmult_le_compat_r; [lra|exact K]|].
  replace (/ bpow radix2 53 * (IZR n / IZR p) * IZR p) with (IZR n / bpow radix2 53) by (pose proof (bpow_gt_0 radix2 53) as B53; set (b53 := bpow radix2 53) in *; clearbody b53; field; lra).
  apply Rmult_lt_reg_r with (bpow radix2 53); [apply bpow_gt_0|]. unfold Rdiv. rewrite Rmult_assoc, Rinv_l by apply Rgt_not_eq, bpow_gt_0. lra.
Qed.
(** The number of groups of [p] that [n] things need: rounding never changes it. *)
Theorem C144_ceil n p : (0 <= n < exact_limit)%Z -> (1 <= p < exact_limit)%Z -> (p * (ceil_div n p - 1) < n <= p * ceil_div n p)%Z.
Proof.
  intros N P. destruct (div_real n p N P) as (F & E & R0). assert (IZR n < bpow radix2 53) as NL by (change (bpow radix2 53) with (IZR exact_limit); apply IZR_lt; lia). unfold ceil_div. rewrite fceil_real; [|exact F|apply R0|lra].
  rewrite E. pose proof (div_error n p N P) as D. assert (1 <= IZR p) as P1 by (apply (IZR_le 1); lia). set (q := IZR n / IZR p) in *.
  assert (q * IZR p = IZR n) as Q by (unfold q; field; lra). set (c := Zceil (rnd q)).
  assert (IZR c - 1 < rnd q <= IZR c) as C. { split; [|apply Zceil_ub]. pose proof (Zceil_lb (rnd q)). fold c in H. lra. }
  rewrite <- (Rabs_pos_eq (IZR p)) in D by lra. rewrite <- Rabs_mult in D. apply Rabs_def2 in D as [D1 D2]. replace ((rnd q - q) * IZR p) with (rnd q * IZR p - IZR n) in D1, D2 by (rewrite <- Q; ring).
  assert (IZR (p * (c - 1)) < IZR (n + 1) /\ IZR n < IZR (p * c + 1)) as [A B].
  { rewrite 2 plus_IZR, 2 mult_IZR, minus_IZR. split.
    - assert (IZR p * (IZR c - 1) < IZR p * rnd q) by (apply Rmult_lt_compat_l; lra). lra.
    - assert (IZR p * rnd q <= IZR p * IZR c) by (apply Rmult_le_compat_l; lra). lra. }
  apply lt_IZR in A, B. split; [|lia].
  (* n = p (c - 1) would be an integer quotient, which is not rounded *)
  destruct (Z.eq_dec n (p * (c - 1))) as [X|X]; [|lia]. exfalso.
  assert (q = IZR (c - 1)) as Y. { apply Rmult_eq_reg_r with (IZR p); [|lra]. rewrite Q, <- mult_IZR. f_equal. lia. }
  assert (0 <= c - 1 <= n)%Z as CN by nia. destruct (fz_real (c - 1)) as [G _]; [lia|]. rewrite Y, <- G, rnd_real, G, minus_IZR in C. lra.
Qed.
Theorem C144_floor n p : (0 <= n < exact_limit)%Z -> (1 <= p < exact_limit)%Z -> ftrunc (true_div n p) = (n / p)%Z.
Proof.
  intros N P. destruct (div_real n p N P) as (F & E & R0). rewrite ftrunc_real by apply R0. rewrite E.
  pose proof (div_error n p N P) as D. assert (1 <= IZR p) as P1 by (apply (IZR_le 1); lia). set (q := IZR n / IZR p) in *.
  assert (q * IZR p = IZR n) as Q by (unfold q; field; lra). set (m := (n / p)%Z).
  assert (p * m <= n < p * m + p)%Z as M. { unfold m. pose proof (Z.mul_div_le n p). pose proof (Z.mul_succ_div_gt n p). lia. }
  assert (0 <= m <= n)%Z as M0. { unfold m. split; [apply Z.div_pos; lia|apply Z.div_le_upper_bound; nia]. }
  rewrite <- (Rabs_pos_eq (IZR p)) in D by lra. rewrite <- Rabs_mult in D. apply Rabs_def2 in D as [D1 _]. replace ((rnd q - q) * IZR p) with (rnd q * IZR p - IZR n) in D1 by (rewrite <- Q; ring).
  apply Zfloor_imp. destruct (fz_real m) as [G _]; [lia|]. split.
  - rewrite <- G. apply rnd_ge_real. rewrite G. apply Rmult_le_reg_r with (IZR p); [lra|]. rewrite Q, <- mult_IZR. apply IZR_le. lia.
  - apply Rmult_lt_reg_r with (IZR p); [lra|]. rewrite <- mult_IZR. apply Rlt_le_trans with (IZR (n + 1)); [rewrite plus_IZR; lra|apply IZR_le; lia].
Qed.
(** Hence the split of work among processes is that of the exact division (what C01 is about). *)
Lemma ceil_exact n p : (0 < p)%nat -> (Z.of_nat n < exact_limit)%Z -> (Z.of_nat p < exact_limit)%Z -> ceil_div (Z.of_nat n) (Z.of_nat p) = Z.of_nat ((n + p - 1) / p).
Proof.
  intros P N Q. destruct (C144_ceil (Z.of_nat n) (Z.of_nat p)) as [A B]; [lia|lia|]. rewrite Nat2Z.inj_div, Nat2Z.inj_sub, Nat2Z.inj_add by lia. change (Z.of_nat 1) with 1%Z.
  apply Z.div_unique with (Z.of_nat n + Z.of_nat p - 1 - Z.of_nat p * ceil_div (Z.of_nat n) (Z.of_nat p))%Z; lia.
Qed.
Theorem C144_split n p : (Z.of_nat n + Z.of_nat p < exact_limit)%Z -> fsplit_number n p = split_number n p.
Proof.
  intros H. unfold fsplit_number, split_number. destruct (Nat.eqb p 0) eqn:P; [reflexivity|]. apply Nat.eqb_neq in P. f_equal.
  rewrite ceil_exact by lia. rewrite <- Nat2Z.inj_mul, Nat2Z.id. fold (split_slots n p). set (slots := split_slots n p).
  assert (length slots <= n + p)%nat as L.
  { unfold slots, split_slots. rewrite app_length, 2 repeat_length. pose proof (Nat.div_mod (n + p - 1) p P). pose proof (Nat.mul_comm p ((n + p - 1) / p)). lia. }
  replace (Z.to_nat (ftrunc (true_div (Z.of_nat (length slots)) (Z.of_nat p)))) with (length slots / p)%nat; [reflexivity|].
  rewrite C144_floor by lia. rewrite <- Nat2Z.inj_div, Nat2Z.id. reflexivity.
Qed.
Theorem C144_balanced n p : p <> 0%nat -> (Z.of_nat n + Z.of_nat p < exact_limit)%Z ->
  exists shares, fsplit_number n p = Ok shares /\ length shares = p /\ list_sum shares = n /\
    (forall i j a b, nth_error shares i = Some a -> nth_error shares j = Some b -> (i <= j)%nat -> (b <= a /\ a <= b + 1)%nat).
Proof. intros P H. rewrite C144_split by exact H. apply C01_split_number, P. Qed.
(** The initial training: what all processes together evaluate in a pass is enough, with fewer than one point per process too many; the passes before giving
    up are enough for [max_initial] points per process, and the last one is needed. *)
Theorem C144_initial n_initial pretrained max_initial size :
  (0 <= pretrained)%Z -> (0 < n_initial < exact_limit)%Z -> (0 < max_initial < exact_limit)%Z -> (1 <= size < exact_limit)%Z ->
  let m := needed n_initial pretrained in let k := per_process n_initial pretrained size in
  (m <= size * k < m + size)%Z /\ (k = 0%Z <-> (n_initial <= pretrained)%Z) /\
  ((pretrained < n_initial)%Z -> (max_initial <= k * passes max_initial k < max_initial + k)%Z).
Proof.
  intros P N X S m k. assert (0 <= m <= n_initial)%Z as M by (unfold m, needed; lia). destruct (C144_ceil m size) as [A B]; [lia|lia|]. fold (per_process n_initial pretrained size) in A, B. 
  change (ceil_div m size) with k in A, B. assert (0 <= k <= m)%Z as K by nia. split; [nia|]. split.
  - split; intros E; [unfold m, needed in *; nia|]. assert (m = 0)%Z as M0 by (unfold m, needed; lia). nia.
  - intros L. assert (0 < m)%Z as M0 by (unfold m, needed; lia). assert (1 <= k)%Z as K1 by nia. destruct (C144_ceil max_initial k) as [C D]; [lia|lia|].
    unfold passes. nia.
Qed.
(** The number of iterations that is announced: the smallest number of batches that uses up the budget. *)
Theorem C144_iterations_left left per : (0 < left < exact_limit)%Z -> (1 <= per < exact_limit)%Z ->
  (left <= per * iterations_left left per)%Z /\ forall i, (left <= per * i)%Z -> (iterations_left left per <= i)%Z.
Proof. intros L P. destruct (C144_ceil left per) as [A B]; [lia|lia|]. unfold iterations_left. split; [exact B|]. intros i I. nia. Qed.
(** [n_correct]: half the number of parameters rounded up, at least 4. *)
Lemma half_real : real (dec 5 1) = / 2 /\ isfinite (dec 5 1) = true.
Proof.
  split; [|vm_compute; reflexivity]. rewrite real_SF. let s := eval vm_compute in (B2SF (dec 5 1)) in replace (B2SF (dec 5 1)) with s by (vm_compute; reflexivity).
  cbn [SF2R]. unfold F2R. cbn [Fnum Fexp cond_Zopp]. cbn. lra.
Qed.
Theorem C144_n_correct d : (0 <= d < exact_limit)%Z -> n_correct d = Z.max 4 ((d + 1) / 2).
Proof.
  intros D. unfold n_correct. f_equal. destruct half_real as [E F]. destruct (fz_real d) as [Ed Fd]; [lia|].
  assert (0 <= IZR d) as D0 by (apply (IZR_le 0); lia). assert (IZR d < bpow radix2 53) as D1 by (change (bpow radix2 53) with (IZR exact_limit); apply IZR_lt; lia).
  assert (generic_format radix2 fe (/ 2 * IZR d)) as G.
  { destruct (Z.eq_dec d 0) as [->|Z]; [rewrite Rmult_0_r; apply generic_format_0|]. apply (generic_format_FLT radix2 (-1074) 53). apply (FLT_spec _ _ _ _ (Float radix2 d (-1))).
    - unfold F2R. cbn. lra.
    - cbn [Fnum]. change (radix2 ^ 53)%Z with exact_limit. lia.
    - cbn. lia. }
  assert (rnd (real (dec 5 1) * real (fz d)) = / 2 * IZR d) as R by (rewrite E, Ed; apply round_generic; [typeclasses eauto|exact G]).
  destruct (fmul_real (dec 5 1) (fz d) F Fd) as [Em Fm].
  { rewrite R, Rabs_pos_eq by lra. apply Rlt_trans with (bpow radix2 53); [lra|apply bpow_lt; lia]. }
  rewrite fceil_real; [|exact Fm|rewrite Em, R; lra|rewrite Em, R; lra]. rewrite Em, R. apply Zceil_imp.
  assert (2 * ((d + 1) / 2) <= d + 1 < 2 * ((d + 1) / 2) + 2)%Z as Q. { pose proof (Z.mul_div_le (d + 1) 2). pose proof (Z.mul_succ_div_gt (d + 1) 2). lia. }
  set (h := ((d + 1) / 2)%Z) in *. rewrite minus_IZR. assert (IZR (2 * h) <= IZR (d + 1)) as Q1 by (apply IZR_le; lia). assert (IZR (d + 1) < IZR (2 * h + 2)) as Q2 by (apply IZR_lt; lia).
  assert (IZR d <= IZR (2 * h)) as Q3 by (apply IZR_le; lia). rewrite mult_IZR, plus_IZR in Q1. rewrite mult_IZR in Q3. lra.
Qed.
(** Products of a double and an integer, cut off: one of the two integers around the exact product; so exact if that is an integer. *)
Lemma product_between v n : isfinite v = true -> (Z.abs n <= exact_limit)%Z -> 0 <= real v * IZR n <= bpow radix2 53 ->
  isfinite (fmul v (fz n)) = true /\ (Zfloor (real v * IZR n) <= ftrunc (fmul v (fz n)) <= Zceil (real v * IZR n))%Z.
Proof.
  intros F N H. destruct (fz_real n) as [En Fn]; [exact N|]. set (x := real v * IZR n) in *.
  assert (0 <= Zfloor x <= exact_limit)%Z as L by (apply floor_small; [lia|apply H|apply H]).
  assert (Zfloor x <= Zceil x)%Z as FC. { apply le_IZR. apply Rle_trans with x; [apply Zfloor_lb|apply Zceil_ub]. }
  assert (Zceil x <= exact_limit)%Z as U. { apply Zceil_glb. apply H. }
  destruct (fz_real (Zfloor x)) as [El _]; [lia|]. destruct (fz_real (Zceil x)) as [Eu _]; [lia|].
  assert (IZR (Zfloor x) <= rnd x <= IZR (Zceil x)) as R.
  { split; [rewrite <- El; apply rnd_ge_real; rewrite El; apply Zfloor_lb|rewrite <- Eu; apply rnd_le_real; rewrite Eu; apply Zceil_ub]. }
  assert (IZR (Zceil x) <= bpow radix2 53) as U' by (change (bpow radix2 53) with (IZR exact_limit); apply IZR_le, U).
  assert (0 <= IZR (Zfloor x)) as L' by (apply (IZR_le 0), L).
  destruct (fmul_real v (fz n) F Fn) as [E F']; [rewrite En; fold x; rewrite Rabs_pos_eq by lra; apply Rle_lt_trans with (bpow radix2 53); [lra|apply bpow_lt; lia]|].
  rewrite En in E. fold x in E. split; [exact F'|]. rewrite ftrunc_real by (rewrite E; lra). rewrite E. split.
  - apply Zfloor_lub, R.
  - apply le_IZR. apply Rle_trans with (rnd x); [apply Zfloor_lb|apply R].
Qed.
Theorem C144_option v d : isfinite v = true -> (0 <= d <= exact_limit)%Z -> 0 <= real v * IZR d <= bpow radix2 53 ->
  (Zfloor (real v * IZR d) <= scaled_option v d <= Zceil (real v * IZR d))%Z /\ (forall k, real v = IZR k -> scaled_option v d = (k * d)%Z).
Proof.
  intros F D H. destruct (product_between v d F) as [_ B]; [lia|exact H|]. split; [exact B|]. intros k E. unfold scaled_option.
  rewrite E, <- mult_IZR, Zfloor_IZR, Zceil_IZR in B. lia.
Qed.
(** Not the number that is written: "8.2d" with 15 parameters is 123; 122 is used. *)
Theorem C144_option_refuted : scaled_option (dec 82 1) 15 = 122%Z /\ (10 * 123 = 82 * 15)%Z /\ scaled_option (dec 46 1) 25 = 114%Z /\ (10 * 115 = 46 * 25)%Z.
Proof. repeat split; vm_compute; reflexivity. Qed.
(** The part of the training set that is used: never more than all of it, at most one away from the exact part; all for 1. *)
Theorem C144_fraction n frac : (0 <= n < exact_limit)%Z -> isfinite frac = true -> 0 <= real frac <= 1 ->
  (0 <= n_fraction n frac <= n)%Z /\ (Zfloor (IZR n * real frac) <= n_fraction n frac <= Zceil (IZR n * real frac))%Z /\ (real frac = 1 -> n_fraction n frac = n).
Proof.
  intros N F H. assert (0 <= IZR n) as N0 by (apply (IZR_le 0); lia). assert (IZR n < bpow radix2 53) as N1 by (change (bpow radix2 53) with (IZR exact_limit); apply IZR_lt; lia).
  assert (0 <= IZR n * real frac <= IZR n) as P. { split; [apply Rmult_le_pos; lra|]. rewrite <- (Rmult_1_r (IZR n)) at 2. apply Rmult_le_compat_l; lra. }
  destruct (product_between frac n F) as [_ B]; [lia|rewrite Rmult_comm; lra|]. rewrite Rmult_comm in B.
  assert (ftrunc (fmul frac (fz n)) = n_fraction n frac) as C.
  { destruct (fz_real n) as [En Fn]; [lia|]. unfold n_fraction. 
    assert (Rabs (rnd (IZR n * real frac)) < big) as BB.
    { rewrite Rabs_pos_eq by (rewrite <- rnd_0; apply rnd_le; lra). apply Rle_lt_trans with (IZR n); [rewrite <- En; apply rnd_le_real; rewrite En; lra|]. apply Rlt_trans with (bpow radix2 53); [exact N1|apply bpow_lt; lia]. }
    destruct (fmul_real (fz n) frac Fn F) as [E1 F1]; [rewrite En; exact BB|]. destruct (fmul_real frac (fz n) F Fn) as [E2 F2]; [rewrite En, Rmult_comm; exact BB|].
    assert (0 <= rnd (IZR n * real frac)) as PP by (rewrite <- rnd_0; apply rnd_le; lra).
    rewrite 2 ftrunc_real; [|rewrite E1, En; exact PP|rewrite E2, En, Rmult_comm; exact PP]. rewrite E1, E2, En, (Rmult_comm (real frac)). reflexivity. }
  rewrite C in B. split; [|split; [exact B|]].
  - assert (0 <= Zfloor (IZR n * real frac))%Z by (apply (Zfloor_lub 0); lra). assert (Zceil (IZR n * real frac) <= n)%Z by (apply Zceil_glb; lra). lia.
  - intros E. rewrite E, Rmult_1_r, Zfloor_IZR, Zceil_IZR in B. lia.
Qed.
(** Not the fraction that is written: 0.7 of 90 points are 63; 62 are used. *)
Theorem C144_fraction_refuted : n_fraction 90 (dec 7 1) = 62%Z /\ (10 * 63 = 7 * 90)%Z.
Proof. split; vm_compute; reflexivity. Qed.

Example C144_case :
  fsplit_number 5 3 = Ok [2; 2; 1]%nat /\ ceil_div 49 7 = 7%Z /\ ceil_div 50 7 = 8%Z /\ ceil_div 0 4 = 0%Z /\ ceil_div (2 ^ 53 - 1) (2 ^ 53 - 2) = 2%Z /\
  per_process 12 3 4 = 3%Z /\ passes 100 3 = 34%Z /\ iterations_left 100 8 = 13%Z /\ map n_correct [2; 8; 9; 27]%Z = [4; 4; 5; 14]%Z /\
  scaled_option (fz 5) 3 = 15%Z /\ scaled_option (dec 25 1) 3 = 7%Z /\ n_fraction 90 (dec 5 1) = 45%Z /\ n_fraction 90 (fz 1) = 90%Z.
Proof. repeat split; vm_compute; reflexivity. Qed.
Print Assumptions C144_ceil. Print Assumptions C144_floor. Print Assumptions C144_split. Print Assumptions C144_balanced. Print Assumptions C144_initial. Print Assumptions C144_iterations_left. Print Assumptions C144_n_correct.
Print Assumptions C144_option. Print Assumptions C144_option_refuted. Print Assumptions C144_fraction. Print Assumptions C144_fraction_refuted.

(** C126: points of the unit box are mapped into the prior, in double precision. C127: the threshold of the classifier in double precision. *)
From Coq Require Import Reals Lra Lia.
From Flocq Require Import Relative Sterbenz Plus_error Mult_error.
From Verif Require Import MFloat PFloat.
Set Default Goal Selector "!".
Set Bullet Behavior "Strict Subproofs".
Open Scope R_scope.

(** ** C126 *)
(** Bounds of a prior: finite numbers, in order, whose distance can be written as a double. *)
Definition good_bounds (a b : f64) : Prop := isfinite a = true /\ isfinite b = true /\ isfinite (fsub b a) = true /\ real a <= real b.
(** [x] lies between the bounds. *)
Definition within (a b x : f64) : Prop := isfinite x = true /\ real a <= real x <= real b.
Lemma within_in_bounds a b x : isfinite a = true -> isfinite b = true -> isfinite x = true -> (in_bounds a b x = true <-> within a b x).
Proof.
  intros Fa Fb Fx. unfold in_bounds, within. rewrite andb_true_iff, (fle_real a x), (fle_real x b) by assumption. tauto.
Qed.
Lemma one_real : real (fz 1) = 1. Proof. apply (fz_real 1). lia. Qed.
Lemma zero_real : real (fz 0) = 0. Proof. apply (fz_real 0). lia. Qed.

Lemma width a b : good_bounds a b -> real (fsub b a) = rnd (real b - real a) /\ 0 <= real (fsub b a).
Proof.
  intros (Fa & Fb & Fw & L). assert (real (fsub b a) = rnd (real b - real a)) as E by (apply fsub_finite; assumption). split; [exact E|].
  rewrite E, <- rnd_0. apply rnd_le. lra.
Qed.
Lemma part a b x : good_bounds a b -> isfinite x = true -> 0 <= real x <= 1 ->
  isfinite (fmul x (fsub b a)) = true /\ real (fmul x (fsub b a)) = rnd (real x * real (fsub b a)) /\ 0 <= real (fmul x (fsub b a)) <= real (fsub b a).
Proof.
  intros G Fx X. destruct (width a b G) as [W W0]. destruct G as (Fa & Fb & Fw & L).
  assert (0 <= rnd (real x * real (fsub b a))) as P0. { rewrite <- rnd_0. apply rnd_le, Rmult_le_pos; lra. }
  assert (rnd (real x * real (fsub b a)) <= real (fsub b a)) as P1.
  { apply rnd_le_real. rewrite <- (Rmult_1_l (real (fsub b a))) at 2. apply Rmult_le_compat_r; lra. }
  destruct (fmul_real x (fsub b a) Fx Fw) as [E F]; [apply (between_big (fz 0) (fsub b a)); [rewrite zero_real; exact P0|exact P1]|].
  rewrite E. repeat split; [exact F|exact P0|exact P1].
Qed.
(** Points of the unit box without its upper edge are mapped inside the bounds, whatever the rounding: points drawn by [UniformProposer], and those of UltraNest, are inside. *)
Theorem C126_inside a b x : good_bounds a b -> isfinite x = true -> 0 <= real x < 1 -> in_bounds a b (from_unit a b x) = true /\ within a b (from_unit a b x).
Proof.
  intros G Fx X. destruct (part a b x G Fx) as (Fp & Ep & P0 & P1); [lra|]. destruct (width a b G) as [W W0]. pose proof G as (Fa & Fb & Fw & L).
  assert (real (fmul x (fsub b a)) <= real b - real a) as P2 by (rewrite Ep, W; apply part_of_distance; lra).
  assert (real a <= rnd (real (fmul x (fsub b a)) + real a)) as Q0 by (apply rnd_ge_real; lra).
  assert (rnd (real (fmul x (fsub b a)) + real a) <= real b) as Q1 by (apply rnd_le_real; lra).
  destruct (fadd_real (fmul x (fsub b a)) a Fp Fa) as [E F]; [apply (between_big a b); assumption|].
  assert (within a b (from_unit a b x)) as R by (split; [exact F|]; unfold from_unit; rewrite E; lra).
  split; [|exact R]. apply within_in_bounds; [exact Fa|exact Fb|apply R|exact R].
Qed.
(** At the edge: inside just if rounded distance and lower bound add up, rounded, to no more than the upper bound. *)
Theorem C126_edge a b : good_bounds a b ->
  (forall x, isfinite x = true -> 0 <= real x <= 1 -> in_bounds a b (from_unit a b x) = true) <-> rnd (rnd (real b - real a) + real a) <= real b.
Proof.
  intros G. destruct (width a b G) as [W W0]. pose proof G as (Fa & Fb & Fw & L).
  assert (forall x, isfinite x = true -> real x = 1 -> real (fmul x (fsub b a)) = rnd (real b - real a) /\ isfinite (fmul x (fsub b a)) = true) as M.
  { intros x Fx X. destruct (part a b x G Fx) as (Fp & Ep & _); [lra|]. split; [|exact Fp]. rewrite Ep, X, Rmult_1_l, rnd_real. exact W. }
  split.
  - intros H. assert (isfinite (fz 1) = true) as F1 by reflexivity. destruct (M (fz 1) F1 one_real) as [E Fp]. 
    assert (in_bounds a b (from_unit a b (fz 1)) = true) as K by (apply H; [exact F1|rewrite one_real; lra]).
    destruct (Rlt_or_le (Rabs (rnd (rnd (real b - real a) + real a))) big) as [B|B].
    + assert (Rabs (rnd (real (fmul (fz 1) (fsub b a)) + real a)) < big) as B' by (rewrite E; exact B).
      destruct (fadd_real _ a Fp Fa B') as [R F]. apply within_in_bounds in K; [|exact Fa|exact Fb|exact F]. destruct K as [_ K]. unfold from_unit in K. rewrite R, E in K. apply K.
    + exfalso. pose proof (Bplus_correct 53 1024 _ _ mode_NE (fmul (fz 1) (fsub b a)) a Fp Fa) as Q. cbn [round_mode] in Q. rewrite E in Q. rewrite Rlt_bool_false in Q by exact B.
      destruct Q as [Q1 _]. apply overflow_inf in Q1. unfold in_bounds in K. apply andb_prop in K as [K1 K2]. change (fadd (fmul (fz 1) (fsub b a)) a) with (from_unit a b (fz 1)) in *.
      unfold from_unit, fadd in K1, K2. rewrite Q1 in K1, K2. destruct (Bsign (fmul (fz 1) (fsub b a))).
      * rewrite le_ninf in K1 by exact Fa. discriminate.
      * rewrite pinf_le in K2 by exact Fb. discriminate.
  - intros H x Fx X. destruct (Rlt_or_le (real x) 1) as [X1|X1]; [apply C126_inside; [exact G|exact Fx|lra]|].
    destruct (M x Fx) as [E Fp]; [lra|]. assert (real a <= rnd (rnd (real b - real a) + real a)) as Q0. { apply rnd_ge_real. rewrite <- W. lra. }
    assert (Rabs (rnd (real (fmul x (fsub b a)) + real a)) < big) as B by (rewrite E; apply (between_big a b); assumption).
    destruct (fadd_real _ a Fp Fa B) as [R F]. apply within_in_bounds; [exact Fa|exact Fb|exact F|]. split; [exact F|]. unfold from_unit. rewrite R, E. lra.
Qed.
(** So if the distance needs no rounding... *)
Theorem C126_edge_exact a b : good_bounds a b -> real (fsub b a) = real b - real a ->
  forall x, isfinite x = true -> 0 <= real x <= 1 -> in_bounds a b (from_unit a b x) = true.
Proof.
  intros G E. apply C126_edge; [exact G|]. destruct (width a b G) as [W _]. rewrite <- W, E. replace (real b - real a + real a) with (real b) by ring. rewrite rnd_real. lra.
Qed.
(** ... which is the case for bounds from zero, for bounds of opposite sign and equal size, for close bounds (neither more than twice the other), for whole numbers. *)
Theorem C126_edge_usual a b : good_bounds a b ->
  (real a = 0 \/ real b = 0 \/ real a = - real b \/ real b / 2 <= real a <= 2 * real b \/ (exists n m, (Z.abs n <= 2 ^ 52)%Z /\ (Z.abs m <= 2 ^ 52)%Z /\ real a = IZR n /\ real b = IZR m)) ->
  forall x, isfinite x = true -> 0 <= real x <= 1 -> in_bounds a b (from_unit a b x) = true.
Proof.
  intros G C. apply C126_edge_exact; [exact G|]. destruct (width a b G) as [W _]. rewrite W. apply round_generic; [typeclasses eauto|].
  destruct C as [C|[C|[C|[C|(n & m & Hn & Hm & En & Em)]]]].
  - rewrite C, Rminus_0_r. apply format.
  - rewrite C, Rminus_0_l. apply generic_format_opp, format.
  - rewrite C. replace (real b - - real b) with (real b * bpow radix2 1) by (change (bpow radix2 1) with 2; ring). rewrite fe_flt. apply mult_bpow_pos_exact_FLT; [|lia]. rewrite <- fe_flt. apply format.
  - apply sterbenz; [typeclasses eauto|typeclasses eauto|apply format|apply format|lra].
  - rewrite En, Em, <- minus_IZR. destruct (fz_real (m - n)) as [E _]; [lia|]. rewrite <- E. apply format.
Qed.
(** Not in general: from -4 to 0.2, the point 1 is mapped above 0.2, outside. So an optimum at the edge, found in the unit box, is not in the prior. *)
Theorem C126_edge_refuted : exists a b, good_bounds a b /\ real a = -4 /\ b = dec 2 1 /\ in_bounds a b (from_unit a b (fz 1)) = false /\ real b < real (from_unit a b (fz 1)).
Proof.
  exists (fz (-4)), (dec 2 1). split.
  - unfold good_bounds. split; [reflexivity|]. split; [vm_compute; reflexivity|]. split; [vm_compute; reflexivity|]. apply fle_real; [reflexivity| |]; vm_compute; reflexivity.
  - split; [apply (fz_real (-4)); lia|]. split; [reflexivity|]. split; [vm_compute; reflexivity|]. apply flt_real; vm_compute; reflexivity.
Qed.
(** Never below the lower bound; and nothing is mapped higher than the edge: with bounds that are met there, all points are inside. *)
Theorem C126_monotone a b x y : good_bounds a b -> isfinite x = true -> isfinite y = true -> 0 <= real x <= real y -> real y < 1 ->
  real (from_unit a b x) <= real (from_unit a b y).
Proof.
  intros G Fx Fy X Y. destruct (width a b G) as [W W0]. pose proof G as (Fa & Fb & Fw & L).
  destruct (part a b x G Fx) as (Fpx & Epx & _); [lra|]. destruct (part a b y G Fy) as (Fpy & Epy & _); [lra|].
  destruct (C126_inside a b x G Fx) as [_ [Ix _]]; [lra|]. destruct (C126_inside a b y G Fy) as [_ [Iy _]]; [lra|]. unfold from_unit in *.
  rewrite (fadd_finite _ a Fpx Fa Ix), (fadd_finite _ a Fpy Fa Iy). apply rnd_le, Rplus_le_compat_r. rewrite Epx, Epy. apply rnd_le, Rmult_le_compat_r; lra.
Qed.
(** Back: a point of the prior is mapped into the unit box, in order, the bounds to its edges. *)
Theorem C126_to_unit a b : good_bounds a b -> real a < real b ->
  (forall x, within a b x -> isfinite (to_unit a b x) = true /\ 0 <= real (to_unit a b x) <= 1) /\
  (forall x y, within a b x -> within a b y -> real x <= real y -> real (to_unit a b x) <= real (to_unit a b y)) /\
  real (to_unit a b a) = 0 /\ real (to_unit a b b) = 1.
Proof.
  intros G L. destruct (width a b G) as [W W0]. pose proof G as (Fa & Fb & Fw & _).
  assert (0 < real (fsub b a)) as WP.
  { destruct (Rle_lt_or_eq_dec _ _ W0) as [H|H]; [exact H|]. exfalso. rewrite W in H. unfold Rminus in H. symmetry in H. rewrite fe_flt in H.
    apply round_plus_eq_0 in H; [lra|typeclasses eauto|typeclasses eauto|typeclasses eauto|rewrite <- fe_flt; apply format|apply generic_format_opp; rewrite <- fe_flt; apply format]. }
  assert (forall x, within a b x -> real (fsub x a) = rnd (real x - real a) /\ isfinite (fsub x a) = true /\ 0 <= real (fsub x a) <= real (fsub b a)) as S.
  { intros x (Fx & X0 & X1). assert (0 <= rnd (real x - real a)) as P0. { rewrite <- rnd_0. apply rnd_le. lra. }
    assert (rnd (real x - real a) <= real (fsub b a)) as P1. { rewrite W. apply rnd_le. lra. }
    destruct (fsub_real x a Fx Fa) as [E F]; [apply (between_big (fz 0) (fsub b a)); [rewrite zero_real; exact P0|exact P1]|]. rewrite E. repeat split; assumption. }
  assert (forall x, within a b x -> real (to_unit a b x) = rnd (real (fsub x a) / real (fsub b a)) /\ isfinite (to_unit a b x) = true /\ 0 <= real (to_unit a b x) <= 1) as D.
  { intros x X. destruct (S x X) as (E & F & S0 & S1).
    assert (0 <= real (fsub x a) / real (fsub b a) <= 1) as Q. { split; [apply Rmult_le_pos; [exact S0|left; apply Rinv_0_lt_compat, WP]|]. apply Rmult_le_reg_r with (real (fsub b a)); [exact WP|]. unfold Rdiv. rewrite Rmult_assoc, Rinv_l, Rmult_1_r, Rmult_1_l by lra. exact S1. }
    assert (0 <= rnd (real (fsub x a) / real (fsub b a)) <= 1) as QR. { split; [rewrite <- rnd_0; apply rnd_le; lra|]. rewrite <- one_real. apply rnd_le_real. rewrite one_real. lra. }
    destruct (fdiv_real (fsub x a) (fsub b a) F) as [R1 R2]; [lra|apply (between_big (fz 0) (fz 1)); rewrite ?zero_real, ?one_real; lra|].
    unfold to_unit. rewrite R1. repeat split; [exact R2|apply QR|apply QR]. }
  assert (within a b a) as Wa by (split; [exact Fa|lra]). assert (within a b b) as Wb by (split; [exact Fb|lra]).
  split; [intros x X; apply D, X|]. split; [|split].
  - intros x y X Y LE. destruct (D x X) as (-> & _). destruct (D y Y) as (-> & _). apply rnd_le, Rmult_le_compat_r; [left; apply Rinv_0_lt_compat, WP|].
    destruct (S x X) as (-> & _). destruct (S y Y) as (-> & _). apply rnd_le. lra.
  - destruct (D a Wa) as (-> & _). destruct (S a Wa) as (-> & _). replace (real a - real a) with 0 by ring. rewrite rnd_0. unfold Rdiv. rewrite Rmult_0_l. apply rnd_0.
  - destruct (D b Wb) as (-> & _). unfold Rdiv. rewrite Rinv_r by lra. rewrite <- one_real. apply rnd_real.
Qed.
(** The box about training points ([shrink_bounds], factor at least 1) contains them and is in the prior, whatever the rounding. *)
Theorem C126_shrink a b lo hi factor : isfinite a = true -> isfinite b = true -> within a b lo -> within a b hi -> real lo <= real hi -> isfinite (fsub hi lo) = true ->
  isfinite factor = true -> 1 <= real factor ->
  let '(l, u) := shrink a b lo hi factor in
  within a b l /\ within a b u /\ forall x, within lo hi x -> in_bounds l u x = true.
Proof.
  intros Fa Fb (Flo & Lo) (Fhi & Hi) LH Fd Ff F1. unfold shrink.
  assert (not_neg (fmul (fdiv (fsub factor (fz 1)) (fz 2)) (fsub hi lo))) as D.
  { assert (0 <= rnd (real factor - real (fz 1)) <= real factor) as P. { rewrite one_real. split; [rewrite <- rnd_0; apply rnd_le; lra|apply rnd_le_real; lra]. }
    destruct (fsub_real factor (fz 1) Ff eq_refl) as [E F]; [apply (between_big (fz 0) factor); [rewrite zero_real|]; apply P|].
    assert (real (fz 2) = 2) as R2 by (apply (fz_real 2); lia).
    assert (0 <= rnd (real (fsub factor (fz 1)) / real (fz 2)) <= real (fsub factor (fz 1))) as Q. { rewrite R2. rewrite <- E in P. split; [rewrite <- rnd_0; apply rnd_le; lra|apply rnd_le_real; lra]. }
    destruct (fdiv_real (fsub factor (fz 1)) (fz 2) F) as [E' F']; [lra|apply (between_big (fz 0) (fsub factor (fz 1))); [rewrite zero_real|]; apply Q|].
    apply fmul_nonneg; [exact F'|exact Fd|lra|]. rewrite (fsub_finite hi lo Fhi Flo Fd), <- rnd_0. apply rnd_le. lra. }
  set (delta := fmul _ _) in *. clearbody delta.
  assert (exists l, fmax (fsub lo delta) a = l /\ isfinite l = true /\ real a <= real l <= real lo) as (l & -> & Fl & L).
  { unfold fmax. destruct (fsub_nonneg lo delta Flo D) as [E|[F E]]; [rewrite E, ninf_le by exact Fa; exists a; repeat split; [exact Fa|lra|lra]|].
    destruct (fle (fsub lo delta) a) eqn:C; [exists a; repeat split; [exact Fa|lra|lra]|]. exists (fsub lo delta). repeat split; [exact F| |exact E].
    apply Rnot_lt_le. intros N. assert (fle (fsub lo delta) a = true) by (apply fle_real; [exact F|exact Fa|lra]). congruence. }
  assert (exists u, fmin (fadd hi delta) b = u /\ isfinite u = true /\ real hi <= real u <= real b) as (u & -> & Fu & U).
  { unfold fmin. destruct (fadd_nonneg hi delta Fhi D) as [E|[F E]]; [rewrite E, pinf_le by exact Fb; exists b; repeat split; [exact Fb|lra|lra]|].
    destruct (fle (fadd hi delta) b) eqn:C; [apply fle_real in C; [|exact F|exact Fb]; exists (fadd hi delta); repeat split; [exact F|exact E|exact C]|].
    exists b. repeat split; [exact Fb|lra|lra]. }
  split; [split; [exact Fl|lra]|]. split; [split; [exact Fu|lra]|]. intros x (Fx & X). apply within_in_bounds; [exact Fl|exact Fu|exact Fx|]. split; [exact Fx|lra].
Qed.
(** With a factor below 1 the box does not contain its points. *)
Example C126_shrink_below : let '(l, u) := shrink (fz 0) (fz 10) (fz 2) (fz 6) (dec 5 1) in (in_bounds l u (fz 2), B2SF l, B2SF u) = (false, B2SF (fz 3), B2SF (fz 5)).
Proof. vm_compute. reflexivity. Qed.
Example C126_inside_example : good_bounds (fz (-4)) (dec 2 1) /\ isfinite (dec 9 1) = true /\ 0 <= real (dec 9 1) < 1 /\ in_bounds (fz (-4)) (dec 2 1) (from_unit (fz (-4)) (dec 2 1) (Bpred (fz 1))) = true.
Proof.
  split; [|split; [vm_compute; reflexivity|split; [|vm_compute; reflexivity]]].
  - unfold good_bounds. split; [reflexivity|]. split; [vm_compute; reflexivity|]. split; [vm_compute; reflexivity|]. apply fle_real; [reflexivity| |]; vm_compute; reflexivity.
  - rewrite <- zero_real at 1. rewrite <- one_real. split; [apply fle_real|apply flt_real]; try reflexivity; vm_compute; reflexivity.
Qed.
Example C126_usual_example : good_bounds (fz (-10)) (fz 10) /\ in_bounds (fz (-10)) (fz 10) (from_unit (fz (-10)) (fz 10) (fz 1)) = true /\ B2SF (to_unit (fz (-10)) (fz 10) (fz (-5))) = B2SF (dec 25 2).
Proof.
  split; [|split; vm_compute; reflexivity].
  unfold good_bounds. split; [reflexivity|]. split; [vm_compute; reflexivity|]. split; [vm_compute; reflexivity|]. apply fle_real; [reflexivity| |]; vm_compute; reflexivity.
Qed.
Example C126_shrink_example : let '(l, u) := shrink (fz 0) (fz 10) (fz 2) (fz 6) (dec 15 1) in (B2SF l, B2SF u, in_bounds l u (fz 6)) = (B2SF (fz 1), B2SF (fz 7), true).
Proof. vm_compute. reflexivity. Qed.

(** ** C127 *)
Lemma epsilon_real : isfinite epsilon = true /\ bpow radix2 (-20) < real epsilon < 1.
Proof.
  split; [vm_compute; reflexivity|]. rewrite real_SF. replace (B2SF epsilon) with (SpecFloat.S754_finite false 4722366482869645 (-72)) by (vm_compute; reflexivity).
  cbn [SF2R]. unfold F2R. cbn [Fnum Fexp cond_Zopp]. cbn. lra.
Qed.
(** Large enough differences of log-posteriors are not resolved; up to 2^34 - 1 the points to be kept are kept, whatever the reference threshold (also infinite). *)
Theorem C127_keep ref best nth y : isfinite best = true -> isfinite nth = true -> 0 <= real best - real nth <= 2 ^ 34 - 1 -> ref = pinf \/ isfinite ref = true ->
  isfinite y = true -> real nth <= real y -> label best (threshold ref best nth) y = true.
Proof.
  intros Fb Fn D R Fy Y. unfold label. rewrite Fy, andb_true_r. unfold threshold. destruct epsilon_real as [Fe Ee].
  assert (bpow radix2 34 = 2 ^ 34) as P34 by (cbn; lra). assert (real (fz (2 ^ 34 - 1)) = 2 ^ 34 - 1) as Q34. { destruct (fz_real (2 ^ 34 - 1)) as [-> _]; [lia|]. cbn. lra. }
  assert (real (fz (2 ^ 34)) = 2 ^ 34) as Q34'. { destruct (fz_real (2 ^ 34)) as [-> _]; [lia|]. cbn. lra. }
  set (r := real best - real nth) in *. assert (0 <= rnd r <= 2 ^ 34 - 1) as RD. { split; [rewrite <- rnd_0; apply rnd_le; lra|]. rewrite <- Q34. apply rnd_le_real. lra. }
  destruct (fsub_real best nth Fb Fn) as [Ed Fd]; [fold r; apply (between_big (fz 0) (fz (2 ^ 34))); rewrite ?zero_real, ?Q34'; lra|]. fold r in Ed. set (d := fsub best nth) in *.
  assert (0 <= rnd (real d + real epsilon) <= 2 ^ 34) as RT.
  { split; [rewrite <- rnd_0; apply rnd_le; pose proof (bpow_ge_0 radix2 (-20)); lra|]. rewrite <- Q34'. apply rnd_le_real. lra. }
  destruct (fadd_real d epsilon Fd Fe) as [Et Ft]; [apply (between_big (fz 0) (fz (2 ^ 34))); rewrite ?zero_real, ?Q34'; lra|]. set (t := fadd d epsilon) in *.
  assert (real d < real t) as DT.
  { assert (Rabs (real d + real epsilon) < bpow radix2 34) as B by (rewrite P34; apply Rabs_def1; [lra|]; pose proof (bpow_ge_0 radix2 (-20)); lra).
    apply err_below in B; [|lia]. rewrite <- Et in B. change (34 - 54)%Z with (-20)%Z in B. apply Rabs_le_inv in B. lra. }
  assert (r <= real t) as T.
  { apply Rle_trans with (succ radix2 fe (rnd r)); [apply succ_round_ge_id; typeclasses eauto|]. rewrite <- Ed. apply succ_le_lt; [typeclasses eauto|apply format|apply format|exact DT]. }
  assert (forall u, isfinite u = true -> real t <= real u -> fle (fsub best u) y = true) as K.
  { intros u Fu U. destruct (fsub_nonneg best u Fb) as [E|[F E]]; [right; split; [exact Fu|lra]|rewrite E; apply ninf_le, Fy|].
    apply fle_real; [exact F|exact Fy|]. rewrite (fsub_finite best u Fb Fu F). apply Rle_trans with (real nth); [|exact Y]. apply rnd_le_real. unfold r in T. lra. }
  destruct (flt ref t) eqn:C; [apply K; [exact Ft|lra]|]. destruct R as [->|Fr]; [destruct best; try discriminate Fb; apply ninf_le, Fy|].
  apply K; [exact Fr|]. apply Rnot_lt_le. intros N. assert (flt ref t = true) by (apply flt_real; [exact Fr|exact Ft|exact N]). congruence.
Qed.
(** Log-posteriors: finite, or minus infinity. *)
Definition logp (v : f64) : Prop := v = ninf \/ isfinite v = true.
Lemma flt_ninf v : logp v -> flt v ninf = false.
Proof. intros [->|F]; [reflexivity|]. destruct v; try discriminate F; reflexivity. Qed.
Lemma ninf_lt v : isfinite v = true -> flt ninf v = true.
Proof. destruct v; try discriminate; reflexivity. Qed.
(** The largest: one of the list; if some is finite, it is finite and not below any finite one. *)
Lemma pymax_spec y : Forall logp y -> (exists v, In v y /\ isfinite v = true) ->
  In (pymax y) y /\ isfinite (pymax y) = true /\ forall v, In v y -> isfinite v = true -> real v <= real (pymax y).
Proof.
  destruct y as [|m l]; [intros _ (v & [] & _)|]. cbn [pymax]. intros H E.
  assert (forall l m, Forall logp (m :: l) -> let r := fold_left (fun m v => if flt m v then v else m) l m in
    In r (m :: l) /\ forall v, In v (m :: l) -> isfinite v = true -> isfinite r = true /\ real v <= real r) as K.
  { clear. induction l as [|x l IH]; intros m H; cbn [fold_left]; cbv zeta.
    - split; [left; reflexivity|]. intros v [->|[]] F. split; [exact F|lra].
    - apply Forall_cons_iff in H as [Hm H]. apply Forall_cons_iff in H as [Hx H]. destruct (flt m x) eqn:C.
      + destruct (IH x) as [I B]; [constructor; assumption|]. split; [right; exact I|]. intros v [<-|Hv] F; [|apply B; [exact Hv|exact F]].
        assert (isfinite x = true) as Fx. { destruct Hx as [->|Fx]; [|exact Fx]. rewrite flt_ninf in C by exact Hm. discriminate. }
        destruct (B x (or_introl eq_refl) Fx) as [B1 B2]. split; [exact B1|]. apply flt_real in C; [lra|exact F|exact Fx].
      + destruct (IH m) as [I B]; [constructor; assumption|]. split; [destruct I as [I|I]; [left; exact I|right; right; exact I]|].
        intros v [<-|[<-|Hv]] F; [apply B; [left; reflexivity|exact F]| |apply B; [right; exact Hv|exact F]].
        assert (isfinite m = true) as Fm. { destruct Hm as [->|Fm]; [|exact Fm]. rewrite ninf_lt in C by exact F. discriminate. }
        destruct (B m (or_introl eq_refl) Fm) as [B1 B2]. split; [exact B1|].
        assert (~ real m < real x) as N by (intros N; apply flt_real in N; [congruence|exact Fm|exact F]). lra. }
  destruct (K l m H) as [I B]. destruct E as (v & Hv & Fv). split; [exact I|]. split; [apply (B v Hv Fv)|]. intros u Hu Fu. apply B; assumption.
Qed.
Lemma filter_length_le {A} (p q : A -> bool) l : (forall x, In x l -> p x = true -> q x = true) -> (length (filter p l) <= length (filter q l))%nat.
Proof.
  induction l as [|x l IH]; intros H; [cbn; lia|]. cbn. assert (length (filter p l) <= length (filter q l))%nat as L by (apply IH; intros z Hz; apply H; right; exact Hz).
  pose proof (H x (or_introl eq_refl)) as X. destruct (p x); [rewrite X by reflexivity; cbn; lia|]. destruct (q x); cbn; lia.
Qed.
(** How many are true. *)
Definition trues (l : list bool) : nat := length (filter (fun b : bool => b) l).
Lemma labels_length t y b : trues (map (label b t) y) = length (filter (label b t) y).
Proof. unfold trues. induction y as [|v y IH]; [reflexivity|]. cbn. destruct (label b t v); cbn; rewrite IH; reflexivity. Qed.
(** So at least as many are kept as are not below the one to be kept last. *)
Theorem C127_keep_count ref y nth : Forall logp y -> In nth y -> isfinite nth = true -> (forall v, In v y -> isfinite v = true -> real v - real nth <= 2 ^ 34 - 1) ->
  ref = pinf \/ isfinite ref = true ->
  (length (filter (fle nth) y) <= trues (labels (threshold ref (pymax y) nth) y))%nat.
Proof.
  intros H I Fn D R. destruct (pymax_spec y H) as (Im & Fm & M); [exists nth; split; assumption|]. unfold labels. rewrite labels_length. apply filter_length_le.
  intros v Hv L. assert (isfinite v = true) as Fv. { rewrite Forall_forall in H. destruct (H v Hv) as [->|F]; [|exact F]. rewrite le_ninf in L by exact Fn. discriminate. }
  apply fle_real in L; [|exact Fn|exact Fv]. apply C127_keep; [exact Fm|exact Fn| |exact R|exact Fv|exact L]. split; [specialize (M nth I Fn); lra|]. apply D; assumption.
Qed.
Example C127_keep_example : let y := [fz 0; fz (-10 ^ 9); fz (-16 * 10 ^ 9); ninf] in
  trues (labels (threshold (fz 50) (pymax y) (fz (-16 * 10 ^ 9))) y) = 3%nat /\ trues (labels (fz 50) y) = 1%nat.
Proof. split; vm_compute; reflexivity. Qed.
(** Not for larger differences: the distance is rounded down, and the margin of 10^-6 is lost in the rounding. Two are to be kept, one is. *)
Theorem C127_keep_refuted : exists best nth, isfinite best = true /\ isfinite nth = true /\ real nth <= real best /\ real best - real nth < 17500000000 /\
  label best (threshold (fz 50) best nth) nth = false /\ labels (threshold (fz 50) best nth) [best; nth] = [true; false].
Proof.
  exists (dec 89128455785 1), (dec (-85631782133) 1). split; [vm_compute; reflexivity|]. split; [vm_compute; reflexivity|]. split; [apply fle_real; vm_compute; reflexivity|].
  split; [|split; vm_compute; reflexivity]. rewrite 2 real_SF.
  let s := eval vm_compute in (B2SF (dec 89128455785 1)) in replace (B2SF (dec 89128455785 1)) with s by (vm_compute; reflexivity).
  let s := eval vm_compute in (B2SF (dec (-85631782133) 1)) in replace (B2SF (dec (-85631782133) 1)) with s by (vm_compute; reflexivity).
  cbn [SF2R]. unfold F2R. cbn [Fnum Fexp cond_Zopp]. cbn. lra.
Qed.

(** The two classifications agree for values that are not, up to some roundings, at the threshold. Magnitudes up to 2^500. *)
Notation u53 := (bpow radix2 (-53)).
Notation tiny := (bpow radix2 (-1075)).
Notation huge := (bpow radix2 500).
Definition margin (mu best v t : R) : R := 8 * u53 * (Rabs (best - mu) + Rabs (v - mu) + Rabs best + t) + bpow radix2 (-500).
Lemma rnd_abs_le r k : (-1000 <= k)%Z -> Rabs r <= bpow radix2 k -> Rabs (rnd r) <= bpow radix2 k.
Proof. intros K H. apply abs_round_le_generic; [typeclasses eauto|typeclasses eauto| |exact H]. apply generic_format_bpow. rewrite fe_flt. unfold FLT_exp. lia. Qed.
Lemma below_big r k : (-1000 <= k < 1024)%Z -> Rabs r <= bpow radix2 k -> Rabs (rnd r) < big.
Proof. intros K H. apply Rle_lt_trans with (bpow radix2 k); [apply rnd_abs_le; [lia|exact H]|apply bpow_lt; lia]. Qed.
Lemma u53_small : 0 < u53 <= / 100.
Proof. split; [apply bpow_gt_0|]. cbn. lra. Qed.
(** Two roundings. *)
Lemma two_errors x s : 0 < s -> Rabs (s * rnd (rnd x / s) - x) <= 3 * u53 * Rabs x + 2 * tiny + s * tiny.
Proof.
  intros S. pose proof u53_small as U. pose proof (bpow_gt_0 radix2 (-1075)) as T. pose proof (err x) as E1. pose proof (err (rnd x / s)) as E2. pose proof (Rabs_pos x) as X.
  set (u := u53) in *. set (h := tiny) in *. set (a := rnd x) in *. set (n := rnd (a / s)) in *.
  assert (Rabs a <= (1 + u) * Rabs x + h) as A. { replace a with ((a - x) + x) by ring. eapply Rle_trans; [apply Rabs_triang|]. lra. }
  assert (Rabs (s * n - a) <= u * Rabs a + s * h) as B.
  { replace (s * n - a) with (s * (n - a / s)) by (field; lra). rewrite Rabs_mult, (Rabs_pos_eq s) by lra. apply Rle_trans with (s * (u * Rabs (a / s) + h)); [apply Rmult_le_compat_l; lra|].
    unfold Rdiv. rewrite Rabs_mult, (Rabs_pos_eq (/ s)) by (left; apply Rinv_0_lt_compat, S). right. field. lra. }
  replace (s * n - x) with ((s * n - a) + (a - x)) by ring. eapply Rle_trans; [apply Rabs_triang|].
  assert (u * Rabs a <= u * Rabs x + u * Rabs x + h) as C. { apply Rle_trans with (u * ((1 + u) * Rabs x + h)); [apply Rmult_le_compat_l; lra|]. assert (u * (u * Rabs x) <= 1 * (u * Rabs x)) by (apply Rmult_le_compat_r; [apply Rmult_le_pos|]; lra). assert (u * h <= 1 * h) by (apply Rmult_le_compat_r; lra). lra. }
  lra.
Qed.
Lemma one_error t s : 0 < s -> Rabs (s * rnd (t / s) - t) <= u53 * Rabs t + s * tiny.
Proof.
  intros S. pose proof (err (t / s)) as E. replace (s * rnd (t / s) - t) with (s * (rnd (t / s) - t / s)) by (field; lra). rewrite Rabs_mult, (Rabs_pos_eq s) by lra.
  apply Rle_trans with (s * (u53 * Rabs (t / s) + tiny)); [apply Rmult_le_compat_l; lra|]. unfold Rdiv. rewrite Rabs_mult, (Rabs_pos_eq (/ s)) by (left; apply Rinv_0_lt_compat, S). right. field. lra.
Qed.
(** The comparison after the transform, against the exact one. *)
Lemma compare_error xb xv t s : 0 < s -> s <= huge -> 0 <= t -> 
  Rabs (s * rnd (rnd (rnd xb / s) - rnd (t / s)) - s * rnd (rnd xv / s) - (xb - t - xv)) < 8 * u53 * (Rabs xb + Rabs xv + t) + bpow radix2 (-500).
Proof.
  intros S SH T. pose proof (two_errors xb s S) as Eb. pose proof (two_errors xv s S) as Ev. pose proof (one_error t s S) as Et. rewrite (Rabs_pos_eq t) in Et by exact T.
  set (nb := rnd (rnd xb / s)) in *. set (nv := rnd (rnd xv / s)) in *. set (nt := rnd (t / s)) in *. pose proof (err (nb - nt)) as E.
  pose proof u53_small as U. pose proof (bpow_gt_0 radix2 (-1075)) as TP. pose proof (Rabs_pos xb) as XB. pose proof (Rabs_pos xv) as XV.
  assert (s * tiny <= bpow radix2 (-575)) as ST. { change (-575)%Z with (500 + -1075)%Z. rewrite bpow_plus. apply Rmult_le_compat_r; lra. }
  assert (tiny <= bpow radix2 (-575)) as TT by (apply bpow_le; lia).
  assert (100 * bpow radix2 (-575) < bpow radix2 (-500)) as B. { change (-500)%Z with (75 + -575)%Z. rewrite bpow_plus. apply Rmult_lt_compat_r; [apply bpow_gt_0|]. cbn. lra. }
  pose proof (bpow_gt_0 radix2 (-575)) as HP. set (u := u53) in *. set (h := tiny) in *. set (g := bpow radix2 (-575)) in *. set (f := bpow radix2 (-500)) in *.
  set (d := rnd (nb - nt)) in *.
  assert (s * Rabs (nb - nt) <= 2 * (Rabs xb + t) + 5 * g) as D.
  { rewrite <- (Rabs_pos_eq s) by lra. rewrite <- Rabs_mult. replace (s * (nb - nt)) with ((s * nb - xb) + xb + (- (s * nt - t) + - t)) by ring.
    eapply Rle_trans; [apply Rabs_triang|]. eapply Rle_trans; [apply Rplus_le_compat; [apply Rabs_triang|apply Rabs_triang]|]. rewrite 2 Rabs_Ropp, (Rabs_pos_eq t) by exact T.
    assert (u * Rabs xb <= / 100 * Rabs xb) by (apply Rmult_le_compat_r; lra). assert (u * t <= / 100 * t) by (apply Rmult_le_compat_r; lra). lra. }
  assert (Rabs (s * d - s * (nb - nt)) <= u * (2 * (Rabs xb + t) + 5 * g) + g) as F.
  { replace (s * d - s * (nb - nt)) with (s * (d - (nb - nt))) by ring. rewrite Rabs_mult, (Rabs_pos_eq s) by lra. apply Rle_trans with (s * (u * Rabs (nb - nt) + h)); [apply Rmult_le_compat_l; lra|].
    replace (s * (u * Rabs (nb - nt) + h)) with (u * (s * Rabs (nb - nt)) + s * h) by ring. apply Rplus_le_compat; [apply Rmult_le_compat_l; lra|exact ST]. }
  replace (s * d - s * nv - (xb - t - xv)) with ((s * d - s * (nb - nt)) + (s * nb - xb) + (- (s * nt - t) + - (s * nv - xv))) by ring.
  eapply Rle_lt_trans; [apply Rabs_triang|]. eapply Rle_lt_trans; [apply Rplus_le_compat; [apply Rabs_triang|apply Rabs_triang]|]. rewrite 2 Rabs_Ropp.
  assert (0 <= u * Rabs xb) by (apply Rmult_le_pos; lra). assert (0 <= u * Rabs xv) by (apply Rmult_le_pos; lra). assert (0 <= u * t) by (apply Rmult_le_pos; lra).
  assert (u * g <= / 100 * g) by (apply Rmult_le_compat_r; lra). lra.
Qed.
Definition moderate (v : f64) : Prop := isfinite v = true /\ Rabs (real v) <= huge.
Definition moderate_scale (s : f64) : Prop := isfinite s = true /\ bpow radix2 (-500) <= real s <= huge.
Lemma quotient_le r s k : bpow radix2 (-500) <= s -> Rabs r <= bpow radix2 k -> Rabs (r / s) <= bpow radix2 (k + 500).
Proof.
  intros S H. assert (0 < s) as P by (eapply Rlt_le_trans; [apply bpow_gt_0|exact S]). unfold Rdiv. rewrite Rabs_mult, (Rabs_pos_eq (/ s)) by (left; apply Rinv_0_lt_compat, P). rewrite bpow_plus.
  apply Rmult_le_compat; [apply Rabs_pos|left; apply Rinv_0_lt_compat, P|exact H|]. change 500%Z with (- (-500))%Z. rewrite bpow_opp. apply Rinv_le; [apply bpow_gt_0|exact S].
Qed.
Lemma diff_le x y k : Rabs x <= bpow radix2 k -> Rabs y <= bpow radix2 k -> Rabs (x - y) <= bpow radix2 (k + 1).
Proof. intros X Y. rewrite bpow_plus. change (bpow radix2 1) with 2. unfold Rminus. eapply Rle_trans; [apply Rabs_triang|]. rewrite Rabs_Ropp. lra. Qed.
Lemma norm_real mu s v : moderate mu -> moderate_scale s -> moderate v ->
  isfinite (norm mu s v) = true /\ real (norm mu s v) = rnd (rnd (real v - real mu) / real s) /\ Rabs (real (norm mu s v)) <= bpow radix2 1001.
Proof.
  intros (Fm & M) (Fs & S) (Fv & V). pose proof (diff_le _ _ 500 V M) as D. change (500 + 1)%Z with 501%Z in D.
  assert (0 < real s) as P by (eapply Rlt_le_trans; [apply bpow_gt_0|apply S]).
  destruct (fsub_real v mu Fv Fm) as [E F]; [apply (below_big _ 501); [lia|exact D]|]. apply rnd_abs_le in D; [|lia]. pose proof (quotient_le _ (real s) _ (proj1 S) D) as Q. change (501 + 500)%Z with 1001%Z in Q. rewrite <- E in Q.
  destruct (fdiv_real (fsub v mu) s F) as [E' F']; [lra|apply (below_big _ 1001); [lia|exact Q]|]. unfold norm. split; [exact F'|]. rewrite E', E. split; [reflexivity|]. rewrite E in Q. apply rnd_abs_le; [lia|exact Q].
Qed.
Lemma norm_scale_real s t : moderate_scale s -> moderate t ->
  isfinite (norm_scale s t) = true /\ real (norm_scale s t) = rnd (real t / real s) /\ Rabs (real (norm_scale s t)) <= bpow radix2 1001.
Proof.
  intros (Fs & S) (Ft & T). assert (0 < real s) as P by (eapply Rlt_le_trans; [apply bpow_gt_0|apply S]). pose proof (quotient_le _ (real s) _ (proj1 S) T) as Q. change (500 + 500)%Z with 1000%Z in Q.
  destruct (fdiv_real t s Ft) as [E' F']; [lra|apply (below_big _ 1000); [lia|exact Q]|]. unfold norm_scale. split; [exact F'|]. rewrite E'. split; [reflexivity|]. apply Rle_trans with (bpow radix2 1000); [apply rnd_abs_le; [lia|exact Q]|apply bpow_le; lia].
Qed.
Lemma norm_ninf mu s : isfinite mu = true -> isfinite s = true -> 0 < real s -> norm mu s ninf = ninf.
Proof.
  intros Fm Fs S. unfold norm. replace (fsub ninf mu) with ninf by (destruct mu; try discriminate Fm; reflexivity).
  destruct s as [[]|[]| |[] m e B]; try discriminate Fs; try reflexivity; try (cbn in S; lra).
  exfalso. pose proof (sign_nonpos (B754_finite true m e B) eq_refl eq_refl). lra.
Qed.
Lemma label_real b t v : isfinite b = true -> isfinite t = true -> isfinite v = true -> Rabs (rnd (real b - real t)) < big -> (label b t v = true <-> rnd (real b - real t) <= real v).
Proof.
  intros Fb Ft Fv B. destruct (fsub_real b t Fb Ft B) as [E F]. unfold label. rewrite Fv, andb_true_r. rewrite fle_real by assumption. rewrite E. reflexivity.
Qed.
Theorem C127_agree mu sigma t y : moderate mu -> moderate_scale sigma -> moderate t -> 0 <= real t -> Forall (fun v => v = ninf \/ moderate v) y -> (exists v, In v y /\ isfinite v = true) ->
  (forall v, In v y -> isfinite v = true -> margin (real mu) (real (pymax y)) (real v) (real t) <= Rabs (real v - (real (pymax y) - real t))) ->
  labels_transformed mu sigma t y = labels t y.
Proof.
  intros Hmu Hs Ht T0 Hy Ey HM.
  assert (Forall logp y) as Ly by (eapply Forall_impl; [|exact Hy]; intros v [->|[F _]]; [left; reflexivity|right; exact F]).
  destruct (pymax_spec y Ly Ey) as (Ib & Fb & Mb). set (b := pymax y) in *. pose proof Hs as (Fs & S1 & S2). assert (0 < real sigma) as SP by (eapply Rlt_le_trans; [apply bpow_gt_0|apply S1]).
  assert (forall v, In v y -> isfinite v = true -> moderate v) as MV. { intros v Hv Fv. rewrite Forall_forall in Hy. destruct (Hy v Hv) as [->|M]; [discriminate Fv|exact M]. }
  assert (moderate b) as Hb by (apply MV; assumption).
  assert (forall v, In v y -> isfinite v = false -> v = ninf) as NV. { intros v Hv Fv. rewrite Forall_forall in Hy. destruct (Hy v Hv) as [->|[M _]]; [reflexivity|congruence]. }
  assert (norm mu sigma ninf = ninf) as NN by (apply norm_ninf; [apply Hmu|exact Fs|exact SP]).
  set (y' := map (norm mu sigma) y).
  assert (Forall logp y') as Ly'. { apply Forall_forall. intros w Hw. unfold y' in Hw. apply in_map_iff in Hw as (v & <- & Hv). destruct (isfinite v) eqn:Fv; [right; apply norm_real; [exact Hmu|exact Hs|apply MV; assumption]|left; rewrite (NV v Hv Fv); exact NN]. }
  destruct (norm_real mu sigma b Hmu Hs Hb) as (Fnb & Enb & Bnb).
  destruct (pymax_spec y' Ly') as (Ib' & Fb' & Mb'); [exists (norm mu sigma b); split; [apply in_map, Ib|exact Fnb]|]. set (b' := pymax y') in *.
  assert (real b' = real (norm mu sigma b)) as EB.
  { apply Rle_antisym; [|apply Mb'; [apply in_map, Ib|exact Fnb]]. unfold y' in Ib'. apply in_map_iff in Ib' as (w & Ew & Hw). destruct (isfinite w) eqn:Fw; [|rewrite (NV w Hw Fw), NN in Ew; rewrite <- Ew in Fb'; discriminate].
    rewrite <- Ew. destruct (norm_real mu sigma w Hmu Hs (MV w Hw Fw)) as (_ & -> & _). rewrite Enb. apply rnd_le, Rmult_le_compat_r; [left; apply Rinv_0_lt_compat, SP|]. apply rnd_le. specialize (Mb w Hw Fw). lra. }
  destruct (norm_scale_real sigma t Hs Ht) as (Fnt & Ent & Bnt).
  unfold labels_transformed. fold y'. unfold labels. fold b b'. unfold y'. rewrite map_map. apply map_ext_in. intros v Hv.
  destruct (isfinite v) eqn:Fv; [|rewrite (NV v Hv Fv), NN; unfold label; cbn; rewrite !andb_false_r; reflexivity].
  pose proof (MV v Hv Fv) as Hmv. destruct (norm_real mu sigma v Hmu Hs Hmv) as (Fnv & Env & Bnv).
  assert (Rabs (rnd (real b' - real (norm_scale sigma t))) < big) as B1. { apply (below_big _ 1002); [lia|]. apply (diff_le _ _ 1001); [rewrite EB; exact Bnb|exact Bnt]. }
  assert (Rabs (rnd (real b - real t)) < big) as B2. { apply (below_big _ 501); [lia|]. apply (diff_le _ _ 500); [apply Hb|apply Ht]. }
  apply eq_true_iff_eq. rewrite label_real by (try assumption; apply Ht). rewrite label_real by (try assumption; apply Ht). rewrite EB, Ent, Enb, Env.
  pose proof (compare_error (real b - real mu) (real v - real mu) (real t) (real sigma) SP S2 T0) as C. specialize (HM v Hv Fv). unfold margin in HM.
  set (d := rnd (rnd (rnd (real b - real mu) / real sigma) - rnd (real t / real sigma))) in *. set (n := rnd (rnd (real v - real mu) / real sigma)) in *.
  pose proof u53_small as U. assert (0 <= u53 * Rabs (real b)) as UB by (apply Rmult_le_pos; [lra|apply Rabs_pos]).
  assert (0 <= u53 * Rabs (real b - real mu)) as UB2 by (apply Rmult_le_pos; [lra|apply Rabs_pos]). assert (0 <= u53 * Rabs (real v - real mu)) as UB3 by (apply Rmult_le_pos; [lra|apply Rabs_pos]).
  assert (0 <= u53 * real t) as UT by (apply Rmult_le_pos; lra). pose proof (bpow_gt_0 radix2 (-500)) as FP.
  apply Rabs_def2 in C. destruct (Rle_or_lt (real b - real t) (real v)) as [L|L].
  - rewrite (Rabs_pos_eq (real v - (real b - real t))) in HM by lra. split; intros _; [apply rnd_le_real, L|]. apply Rmult_le_reg_l with (real sigma); [exact SP|]. lra.
  - rewrite (Rabs_left (real v - (real b - real t))) in HM by lra. split; intros H; exfalso.
    + apply Rmult_le_compat_l with (r := real sigma) in H; [|lra]. lra.
    + pose proof (err (real b - real t)) as E. apply Rabs_le_inv in E. assert (tiny < bpow radix2 (-500)) by (apply bpow_lt; lia).
      assert (u53 * Rabs (real b - real t) <= u53 * Rabs (real b) + u53 * real t) as UBT.
      { rewrite <- Rmult_plus_distr_l. apply Rmult_le_compat_l; [lra|]. unfold Rminus. eapply Rle_trans; [apply Rabs_triang|]. rewrite Rabs_Ropp, (Rabs_pos_eq (real t)) by exact T0. lra. }
      lra.
Qed.
(** At the threshold they need not: three values, of which three are to be kept. All are, but the classifier does not keep the last: the assertion of [append_to_data] fails. *)
Theorem C127_agree_refuted : exists y, Forall (fun v => isfinite v = true) y /\ (forall v, In v y -> Rabs (real v) <= 18 * 10 ^ 9) /\
  let t := threshold (fz 50) (pymax y) (fz (-18 * 10 ^ 9)) in both_labels t y = ([true; true; true], [true; true; false]).
Proof.
  exists [fz 0; fz (-10 ^ 9); fz (-18 * 10 ^ 9)]. split; [repeat constructor|]. split; [|vm_compute; reflexivity].
  intros v [<-|[<-|[<-|[]]]].
  - destruct (fz_real 0) as [-> _]; [lia|]. rewrite Rabs_R0. lra.
  - destruct (fz_real (-10 ^ 9)) as [-> _]; [lia|]. rewrite <- abs_IZR. cbn. lra.
  - destruct (fz_real (-18 * 10 ^ 9)) as [-> _]; [lia|]. rewrite <- abs_IZR. cbn. lra.
Qed.
Example C127_agree_example : let y := [fz 0; fz (-7); fz (-300); ninf] in
  (forall mu sigma, moderate mu -> moderate_scale sigma -> Rabs (real mu) <= 1000 -> labels_transformed mu sigma (fz 50) y = [true; true; false; false]).
Proof.
  cbv zeta. intros mu sigma Hm Hs M. assert (forall n, (Z.abs n <= 1000)%Z -> moderate (fz n) /\ real (fz n) = IZR n) as F.
  { intros n Hn. destruct (fz_real n) as [E F]; [lia|]. split; [split; [exact F|]|exact E]. rewrite E, <- abs_IZR. apply Rle_trans with 1000; [apply IZR_le, Hn|]. apply Rle_trans with (bpow radix2 10); [cbn; lra|apply bpow_le; lia]. }
  rewrite C127_agree; [vm_compute; reflexivity|exact Hm|exact Hs|apply F; lia|rewrite (proj2 (F 50%Z ltac:(lia))); lra| | |].
  - constructor; [right; apply F; lia|]. constructor; [right; apply F; lia|]. constructor; [right; apply F; lia|]. constructor; [left; reflexivity|constructor].
  - exists (fz 0). split; [left; reflexivity|reflexivity].
  - change (pymax _) with (fz 0). intros v Hv Fv. unfold margin. rewrite (proj2 (F 0%Z ltac:(lia))), (proj2 (F 50%Z ltac:(lia))).
    assert (bpow radix2 (-500) <= / 100) as B1 by (apply Rle_trans with (bpow radix2 (-10)); [apply bpow_le; lia|cbn; lra]). assert (u53 <= / 1000000) as B2 by (cbn; lra). pose proof (bpow_gt_0 radix2 (-53)) as B3.
    assert (exists n, (Z.abs n <= 1000)%Z /\ v = fz n /\ (n = 0 \/ n = -7 \/ n = -300)%Z) as (n & Hn & -> & C).
    { destruct Hv as [<-|[<-|[<-|[<-|[]]]]]; [exists 0%Z|exists (-7)%Z|exists (-300)%Z|discriminate Fv]; (split; [lia|split; [reflexivity|lia]]). }
    rewrite (proj2 (F n Hn)). apply Rabs_le_inv in M.
    assert (Rabs (0 - real mu) + Rabs (IZR n - real mu) + Rabs 0 + 50 <= 4000) as L.
    { assert (Rabs (0 - real mu) <= 1000) by (apply Rabs_le; lra). assert (Rabs (IZR n - real mu) <= 1300) by (apply Rabs_le; destruct C as [->|[->| ->]]; lra). rewrite Rabs_R0. lra. }
    assert (8 * u53 * (Rabs (0 - real mu) + Rabs (IZR n - real mu) + Rabs 0 + 50) <= 8 * u53 * 4000) as L2 by (apply Rmult_le_compat_l; lra).
    apply Rle_trans with 1; [lra|]. destruct C as [->|[->| ->]].
    + rewrite Rabs_pos_eq; lra.
    + rewrite Rabs_pos_eq; lra.
    + rewrite Rabs_left; lra.
Qed.
Print Assumptions C126_inside.
Print Assumptions C126_edge.
Print Assumptions C126_edge_exact.
Print Assumptions C126_edge_usual.
Print Assumptions C126_edge_refuted.
Print Assumptions C126_monotone.
Print Assumptions C126_to_unit.
Print Assumptions C126_shrink.
Print Assumptions C127_keep.
Print Assumptions C127_keep_count.
Print Assumptions C127_keep_refuted.
Print Assumptions C127_agree.
Print Assumptions C127_agree_refuted.

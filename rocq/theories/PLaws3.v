(** Lemmas on limits of kernels (TLaws.v). *)
From Coq Require Import Reals Lra Lia List.
From Coquelicot Require Import Coquelicot.
From Verif Require Import MKernel MWhite SLaws MLinAlg PLaws2.
Set Default Goal Selector "!".
Set Bullet Behavior "Strict Subproofs".
Open Scope R_scope.

Lemma sum_sq_pos v : 0 <= sum_sq v.
Proof. induction v as [|a v IH]; cbn [sum_sq]; [lra|]. pose proof (pow2_ge_0 a). lra. Qed.
Lemma approach_vlim d xs x : approach d xs x -> vlim xs x.
Proof. intros (H & Hj & Hi). split; auto. intros j. rewrite Hj. auto. Qed.
Lemma diff_lim ls : forall xs x ys y, vlim xs x -> vlim ys y -> is_lim_seq (fun j => sum_sq (scaled_diff ls (xs j) (ys j))) (sum_sq (scaled_diff ls x y)).
Proof.
  induction ls as [|l ls IH]; intros xs x ys y Hx Hy; [apply is_lim_seq_const|]. destruct x as [|a x].
  - eapply is_lim_seq_ext; [|apply is_lim_seq_const]. intros j. destruct Hx as [Hx _]. specialize (Hx j). destruct (xs j); [reflexivity|discriminate].
  - destruct y as [|b y].
    + eapply is_lim_seq_ext; [|apply is_lim_seq_const]. intros j. destruct Hy as [Hy _]. specialize (Hy j). destruct (ys j); [|discriminate]. destruct (xs j); reflexivity.
    + apply vlim_tl in Hx as (Hx & Hx0 & Ex). apply vlim_tl in Hy as (Hy & Hy0 & Ey). cbn [scaled_diff sum_sq].
      eapply is_lim_seq_ext; [|apply lim_plus; [apply (lim_pow (fun j => (hd 0 (xs j) - hd 0 (ys j)) * / l) ((a - b) * / l) 2); apply lim_mult; [apply is_lim_seq_minus'; [exact Hx0|exact Hy0]|apply is_lim_seq_const]|apply (IH _ _ _ _ Hx Hy)]].
      intros j. cbn beta. rewrite (Ex j), (Ey j). reflexivity.
Qed.
Lemma inner_lim : forall x xs ys y, vlim xs x -> vlim ys y -> is_lim_seq (fun j => inner (xs j) (ys j)) (inner x y).
Proof.
  assert (forall u v, inner u v = dot u v) as E by (induction u as [|a u IH]; intros [|b v]; auto; cbn; rewrite IH; reflexivity).
  intros x xs ys y Hx Hy. rewrite E. eapply is_lim_seq_ext; [intros j; symmetry; apply E|]. apply vlim_dot; auto.
Qed.
Lemma rq_base alpha l v : 0 < alpha -> l <> 0 -> 0 < 1 + sum_sq v / (2 * alpha * l ^ 2).
Proof.
  intros Ha Hl. assert (0 < l ^ 2) by (replace (l ^ 2) with (Rsqr l) by (unfold Rsqr; ring); apply Rsqr_pos_lt; auto).
  assert (0 <= sum_sq v / (2 * alpha * l ^ 2)); [|lra]. apply Rmult_le_pos; [apply sum_sq_pos|]. apply Rlt_le, Rinv_0_lt_compat. apply Rmult_lt_0_compat; lra.
Qed.
Lemma value_lim k : smooth k -> forall xs x ys y, vlim xs x -> vlim ys y -> is_lim_seq (fun j => value k (xs j) (ys j)) (value k x y).
Proof.
  intros Hk xs x ys y Hx Hy. assert (forall j, length (xs j) = length x) as HL by (intros j; apply Hx). revert Hk.
  induction k as [s|nu s|l alpha|l p|c|c|c|k1 IH1 k2 IH2|k1 IH1 k2 IH2|k IH e]; intros Hk; cbn [value].
  - eapply is_lim_seq_ext; [|apply lim_exp, lim_mult; [apply is_lim_seq_const|apply (diff_lim (per_dim s (length x)) _ _ _ _ Hx Hy)]]. intros j. cbn beta. rewrite HL. reflexivity.
  - assert (is_lim_seq (fun j => sqrt (sum_sq (scaled_diff (per_dim s (length (xs j))) (xs j) (ys j)))) (sqrt (sum_sq (scaled_diff (per_dim s (length x)) x y)))) as HD.
    { eapply is_lim_seq_ext; [|apply lim_sqrt, (diff_lim (per_dim s (length x)) _ _ _ _ Hx Hy)]. intros j. cbn beta. rewrite HL. reflexivity. }
    destruct nu as [| | |f]; cbv zeta.
    + apply lim_exp. eapply is_lim_seq_ext; [|replace (- sqrt (sum_sq (scaled_diff (per_dim s (length x)) x y))) with (-1 * sqrt (sum_sq (scaled_diff (per_dim s (length x)) x y))) by ring; apply lim_mult; [apply is_lim_seq_const|exact HD]].
      intros j. cbn beta. ring.
    + assert (is_lim_seq (fun j => sqrt (sum_sq (scaled_diff (per_dim s (length (xs j))) (xs j) (ys j))) * sqrt 3) (sqrt (sum_sq (scaled_diff (per_dim s (length x)) x y)) * sqrt 3)) as H3 by (apply lim_mult; [exact HD|apply is_lim_seq_const]).
      apply lim_mult; [apply lim_plus; [apply is_lim_seq_const|exact H3]|]. apply lim_exp. apply (proj1 (is_lim_seq_opp _ _) H3).
    + assert (is_lim_seq (fun j => sqrt (sum_sq (scaled_diff (per_dim s (length (xs j))) (xs j) (ys j))) * sqrt 5) (sqrt (sum_sq (scaled_diff (per_dim s (length x)) x y)) * sqrt 5)) as H5 by (apply lim_mult; [exact HD|apply is_lim_seq_const]).
      apply lim_mult; [|apply lim_exp; apply (proj1 (is_lim_seq_opp _ _) H5)]. apply lim_plus; [apply lim_plus; [apply is_lim_seq_const|exact H5]|].
      unfold Rdiv. apply lim_mult; [apply (lim_pow _ _ 2 H5)|apply is_lim_seq_const].
    + apply (lim_cont f); auto.
  - destruct Hk as [Ha Hl]. apply lim_Rpower; [apply rq_base; auto|]. apply lim_plus; [apply is_lim_seq_const|]. unfold Rdiv. apply lim_mult; [|apply is_lim_seq_const].
    eapply is_lim_seq_ext; [|apply (diff_lim (repeat 1 (length x)) _ _ _ _ Hx Hy)]. intros j. cbn beta. rewrite HL. reflexivity.
  - cbv zeta. apply lim_exp, lim_mult; [apply is_lim_seq_const|]. apply (lim_pow _ _ 2). unfold Rdiv. apply lim_mult; [|apply is_lim_seq_const].
    apply (lim_cont sin); [apply continuous_sin|]. apply lim_mult; [apply is_lim_seq_const|]. apply lim_sqrt.
    eapply is_lim_seq_ext; [|apply (diff_lim (repeat 1 (length x)) _ _ _ _ Hx Hy)]. intros j. cbn beta. rewrite HL. reflexivity.
  - apply is_lim_seq_const.
  - apply is_lim_seq_const.
  - apply lim_plus; [apply inner_lim; auto|apply is_lim_seq_const].
  - destruct Hk. apply lim_plus; auto.
  - destruct Hk. apply lim_mult; auto.
  - destruct e as [n|r]; cbn [npow smooth] in *; [apply lim_pow; auto|]. destruct Hk as (Hk & Hp & _). apply lim_Rpower; auto.
Qed.
Lemma own_lim k : smooth k -> forall xs x, vlim xs x -> is_lim_seq (fun j => own k (xs j)) (own k x).
Proof.
  intros Hk xs x Hx. revert Hk. induction k as [s|nu s|l alpha|l p|c|c|c|k1 IH1 k2 IH2|k1 IH1 k2 IH2|k IH e]; intros Hk; cbn [own];
    try (match goal with |- is_lim_seq (fun j => value ?k _ _) _ => apply (value_lim k Hk xs x xs x Hx Hx) end).
  - apply is_lim_seq_const.
  - destruct Hk. apply lim_plus; auto.
  - destruct Hk. apply lim_mult; auto.
  - destruct e as [n|r]; cbn [npow smooth] in *; [apply lim_pow; auto|]. destruct Hk as (Hk & _ & Hp). apply lim_Rpower; auto.
Qed.

(** Far away. *)
Lemma inf_ge u v : (forall j, u j <= v j) -> is_lim_seq u p_infty -> is_lim_seq v p_infty.
Proof. intros H Hu. apply (is_lim_seq_le_p_loc u v); auto. exists O. intros n _. apply H. Qed.
Lemma diff_ge ls : forall x y i, length ls = length x -> length x = length y -> (i < length x)%nat ->
  ((nth i x 0 - nth i y 0) / nth i ls 0) ^ 2 <= sum_sq (scaled_diff ls x y).
Proof.
  induction ls as [|l ls IH]; intros [|a x] [|b y] i E1 E2 Hi; cbn [length] in *; try lia; try discriminate. injection E1 as E1. injection E2 as E2. cbn [scaled_diff sum_sq].
  pose proof (sum_sq_pos (scaled_diff ls x y)) as HP. destruct i as [|i]; cbn [nth]; [lra|]. specialize (IH x y i E1 E2 ltac:(lia)). pose proof (pow2_ge_0 ((a - b) / l)). lra.
Qed.
Lemma scaled_inf c b l : 0 < l -> is_lim_seq (fun j => Rabs (c j)) p_infty -> is_lim_seq (fun j => ((c j - b) / l) ^ 2) p_infty.
Proof.
  intros Hl Hc. apply is_lim_seq_spec in Hc. apply is_lim_seq_spec. intros M. destruct (Hc (Rabs b + l * (Rabs M + 1))) as [N HN]. exists N. intros n Hn. specialize (HN n Hn).
  assert (Rabs M + 1 < Rabs ((c n - b) / l)) as H.
  { unfold Rdiv. rewrite Rabs_mult, Rabs_inv, (Rabs_right l) by lra. apply (Rmult_lt_reg_r l); auto. rewrite Rmult_assoc, Rinv_l by lra. pose proof (Rabs_triang_inv (c n) b). lra. }
  rewrite <- Rsqr_pow2. rewrite (Rsqr_abs ((c n - b) / l)). unfold Rsqr. pose proof (Rabs_pos M). pose proof (Rle_abs M). nra.
Qed.
Lemma per_dim_good d s i : good_scales d s -> (i < d)%nat -> length (per_dim s d) = d /\ 0 < nth i (per_dim s d) 0.
Proof.
  destruct s as [l|ls]; cbn.
  - intros Hl Hi. rewrite repeat_length. split; auto. rewrite (nth_indep _ 0 l) by (rewrite repeat_length; auto). rewrite nth_repeat. auto.
  - intros [E F] Hi. split; auto. rewrite Forall_forall in F. apply F, nth_In. lia.
Qed.
Lemma dist_inf d s xs y : good_scales d s -> escape d xs -> length y = d -> is_lim_seq (fun j => sum_sq (scaled_diff (per_dim s (length (xs j))) (xs j) y)) p_infty.
Proof.
  intros Hs (HL & i & Hi & Hc) Hy. destruct (per_dim_good d s i Hs Hi) as [E Hp]. eapply inf_ge; [|apply (scaled_inf _ (nth i y 0) _ Hp Hc)].
  intros j. cbn beta. rewrite HL. apply diff_ge; rewrite ?HL; auto.
Qed.
Lemma exp_inf u : is_lim_seq u p_infty -> is_lim_seq (fun j => exp (- u j)) 0.
Proof.
  intros H. apply (is_lim_comp_seq exp (fun j => - u j) m_infty 0).
  - apply is_lim_exp_m.
  - exists O. intros n _. discriminate.
  - apply (proj1 (is_lim_seq_opp u p_infty)). exact H.
Qed.
Lemma inf_scal u c : 0 < c -> is_lim_seq u p_infty -> is_lim_seq (fun j => c * u j) p_infty.
Proof.
  intros Hc H. apply is_lim_seq_spec in H. apply is_lim_seq_spec. intros M. destruct (H (M / c)) as [N HN]. exists N. intros n Hn. specialize (HN n Hn).
  apply (Rmult_lt_compat_l c) in HN; auto. replace (c * (M / c)) with M in HN by (field; lra). exact HN.
Qed.
Lemma sqrt_inf u : is_lim_seq u p_infty -> is_lim_seq (fun j => sqrt (u j)) p_infty.
Proof.
  intros H. apply is_lim_seq_spec in H. apply is_lim_seq_spec. intros M. destruct (H (Rabs M ^ 2)) as [N HN]. exists N. intros n Hn. specialize (HN n Hn).
  apply Rle_lt_trans with (Rabs M); [apply Rle_abs|]. rewrite <- (sqrt_pow2 (Rabs M)) by apply Rabs_pos. apply sqrt_lt_1_alt. split; auto. apply pow2_ge_0.
Qed.
Lemma poly_exp K : 0 <= K -> 0 <= (1 + K + K ^ 2 / 3) * exp (- K) <= 6 * exp (- (/ 2 * K)).
Proof.
  intros HK. pose proof (exp_pos (- K)) as He. split; [apply Rmult_le_pos; [|lra]; pose proof (pow2_ge_0 K); lra|].
  set (h := exp (K / 4)). assert (1 + K / 4 <= h) as Hh by (apply exp_ineq1_le). 
  assert (exp (- (/ 2 * K)) = h ^ 2 * exp (- K)) as ->.
  { unfold h. replace (exp (K / 4) ^ 2) with (exp (K / 4 + K / 4)) by (rewrite exp_plus; ring). rewrite <- exp_plus. f_equal. field. }
  rewrite <- Rmult_assoc. apply Rmult_le_compat_r; [lra|]. nra.
Qed.
Lemma fading_lim d k : fading d k -> forall xs y, escape d xs -> length y = d -> is_lim_seq (fun j => value k (xs j) y) 0.
Proof.
  induction 1 as [s Hs|nu s Hs Hnu|l alpha Ha Hl|n|k1 k2 H1 IH1 H2 IH2|k1 k2 H1 IH1 H2 IH2|c k H IH|c k H IH|k n H IH]; intros xs y He Hy; cbn [value].
  - eapply is_lim_seq_ext; [|apply exp_inf, (inf_scal (fun j => sum_sq (scaled_diff (per_dim s (length (xs j))) (xs j) y)) (/ 2)); [lra|apply (dist_inf d s xs y Hs He Hy)]]. intros j. cbn beta. f_equal. ring.
  - pose proof (sqrt_inf _ (dist_inf d s xs y Hs He Hy)) as HD. cbv zeta. set (D := fun j => sqrt (sum_sq (scaled_diff (per_dim s (length (xs j))) (xs j) y))) in *.
    assert (forall r, 0 < r -> is_lim_seq (fun j => 6 * exp (- (/ 2 * (r * D j)))) 0) as HB.
    { intros r Hr. replace 0 with (6 * 0) by ring. apply lim_mult; [apply is_lim_seq_const|]. apply exp_inf. apply inf_scal; [lra|]. apply inf_scal; auto. }
    assert (0 < sqrt 3 /\ 0 < sqrt 5) as [S3 S5] by (split; apply sqrt_lt_R0; lra).
    assert (forall j, 0 <= D j) as DP by (intros j; apply sqrt_pos).
    destruct Hnu as [E|[E|E]]; rewrite E.
    + apply exp_inf. exact HD.
    + apply (is_lim_seq_le_le (fun _ => 0) _ (fun j => 6 * exp (- (/ 2 * (sqrt 3 * D j))))); [|apply is_lim_seq_const|apply HB; auto].
      intros j. fold (D j). rewrite (Rmult_comm (D j) (sqrt 3)). set (K := sqrt 3 * D j). assert (0 <= K) as HK by (apply Rmult_le_pos; [lra|apply DP]).
      destruct (poly_exp K HK) as [_ HU]. pose proof (exp_pos (- K)) as Hep. split; [apply Rmult_le_pos; lra|]. eapply Rle_trans; [|exact HU].
      apply Rmult_le_compat_r; [lra|]. pose proof (pow2_ge_0 K). lra.
    + apply (is_lim_seq_le_le (fun _ => 0) _ (fun j => 6 * exp (- (/ 2 * (sqrt 5 * D j))))); [|apply is_lim_seq_const|apply HB; auto].
      intros j. fold (D j). rewrite (Rmult_comm (D j) (sqrt 5)). apply poly_exp. apply Rmult_le_pos; [lra|apply DP].
  - assert (is_lim_seq (fun j => sum_sq (scaled_diff (repeat 1 (length (xs j))) (xs j) y)) p_infty) as HD by (apply (dist_inf d (Iso 1) xs y); auto; cbn; lra).
    assert (0 < l ^ 2) as Hl2 by (apply pow_lt; auto). unfold Rpower.
    eapply is_lim_seq_ext; [|apply (exp_inf (fun j => alpha * ln (1 + sum_sq (scaled_diff (repeat 1 (length (xs j))) (xs j) y) / (2 * alpha * l ^ 2))))]; [intros j; cbn beta; f_equal; ring|].
    apply inf_scal; auto. apply (is_lim_comp_seq ln _ p_infty p_infty); [apply is_lim_ln_p|exists O; intros m _; discriminate|].
    eapply inf_ge; [|apply (inf_scal (fun j => sum_sq (scaled_diff (repeat 1 (length (xs j))) (xs j) y)) (/ (2 * alpha * l ^ 2))); [|exact HD]].
    + intros j. cbn beta. unfold Rdiv. lra.
    + apply Rinv_0_lt_compat. apply Rmult_lt_0_compat; lra.
  - apply is_lim_seq_const.
  - replace 0 with (0 + 0) by ring. apply lim_plus; auto.
  - replace 0 with (0 * 0) by ring. apply lim_mult; auto.
  - replace 0 with (c * 0) by ring. apply lim_mult; [apply is_lim_seq_const|auto].
  - replace 0 with (0 * c) by ring. apply lim_mult; [auto|apply is_lim_seq_const].
  - cbn [npow]. replace 0 with (0 ^ S n) by (cbn; ring). apply lim_pow. auto.
Qed.
Lemma diff_self ls x : sum_sq (scaled_diff ls x x) = 0.
Proof. revert x. induction ls as [|l ls IH]; intros [|a x]; cbn [scaled_diff sum_sq]; auto. rewrite IH. unfold Rdiv. ring. Qed.
Lemma fading_own d k : fading d k -> forall x y, own k x = own k y.
Proof.
  induction 1 as [s Hs|nu s Hs Hnu|l alpha Ha Hl|n|k1 k2 H1 IH1 H2 IH2|k1 k2 H1 IH1 H2 IH2|c k H IH|c k H IH|k n H IH]; intros x y; cbn [own value]; rewrite ?diff_self; auto.
  - rewrite (IH1 x y), (IH2 x y). reflexivity.
  - rewrite (IH1 x y), (IH2 x y). reflexivity.
  - rewrite (IH x y). reflexivity.
  - rewrite (IH x y). reflexivity.
  - rewrite (IH x y). reflexivity.
Qed.

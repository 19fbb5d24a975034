(** Derivatives of kernels along lines: lemmas. *)
From Coq Require Import Lra Lia.
From Verif Require Import MGrad SKernel PKernel PLinAlg TKernel PGrad SDirect.
Import ListNotations.
Set Default Goal Selector "!". Set Bullet Behavior "Strict Subproofs".

Lemma along_length x v t : length v = length x -> length (along x v t) = length x.
Proof. intros H. apply vadd_length. rewrite scale_length. auto. Qed.
Lemma along_0 x v : length v = length x -> along x v 0 = x.
Proof.
  unfold along, vadd, scale. revert v. induction x as [|a x IH]; intros [|b v] H; cbn in *; try discriminate; auto. rewrite IH by lia. f_equal. ring.
Qed.
Lemma dot_map_l c a v : dot (map (fun x => c * x) a) v = c * dot a v.
Proof. revert v. induction a as [|x a IH]; intros [|y v]; cbn; try ring. rewrite IH. ring. Qed.
Lemma dot_row2_plus a b v : length a = length b -> length a = length v -> dot (row2 Rplus a b) v = dot a v + dot b v.
Proof.
  revert b v. induction a as [|x a IH]; intros [|y b] [|w v] H1 H2; cbn in *; try discriminate; try ring.
  change (map (fun p => fst p + snd p) (combine a b)) with (row2 Rplus a b). rewrite IH by lia. ring.
Qed.
Lemma dot_map_zero {A} (l : list A) v : dot (map (fun _ => 0) l) v = 0.
Proof. revert v. induction l as [|x a IH]; intros [|y v]; cbn; auto. rewrite IH. ring. Qed.
Lemma inner_along y v t : forall x, length v = length x -> length x = length y -> inner (along x v t) y = inner x y + t * dot y v.
Proof.
  revert y. induction v as [|b v IH]; intros [|c y] [|a x] H1 H2; cbn in H1, H2; try discriminate; cbn; [ring|].
  change (map (fun p => fst p + snd p) (combine x (map (Rmult t) v))) with (along x v t). rewrite IH by lia. ring.
Qed.

(** The squared distance along a line. *)
Lemma line_sq ls y v t : forall x, length ls = length x -> length x = length y -> length v = length x -> (forall i, (i < length x)%nat -> nth i ls 0 <> 0) ->
  sum_sq (scaled_diff ls (along x v t) y) = sum_sq (scaled_diff ls x y) + 2 * t * dot (row2 Rdiv (scaled_diff ls x y) ls) v + t ^ 2 * sum_sq (row2 Rdiv v ls).
Proof.
  revert y v. induction ls as [|l ls IH]; intros [|b y] [|w v] [|a x] H1 H2 H3 Hn; cbn in H1, H2, H3; try discriminate; [cbn; ring|].
  change (along (a :: x) (w :: v) t) with ((a + t * w) :: along x v t). cbn [scaled_diff sum_sq].
  change (row2 Rdiv ((a - b) / l :: scaled_diff ls x y) (l :: ls)) with ((a - b) / l / l :: row2 Rdiv (scaled_diff ls x y) ls).
  change (row2 Rdiv (w :: v) (l :: ls)) with (w / l :: row2 Rdiv v ls). cbn [dot sum_sq].
  rewrite IH; try lia; [|intros i Hi; apply (Hn (S i)); cbn; lia]. assert (l <> 0) by (apply (Hn O); cbn; lia). field. auto.
Qed.
Lemma partial_unique0 f x i v w : partial f x i v -> partial f x i w -> v = w.
Proof. intros H1 H2. unfold partial in *. rewrite <- (is_derive_unique _ _ _ H1). apply is_derive_unique. exact H2. Qed.
Lemma leaf_slopes phi F ls x y row : length ls = length x -> length x = length y -> (forall i, (i < length x)%nat -> nth i ls 0 <> 0) ->
  (forall z, length z = length x -> F z = phi (sum_sq (scaled_diff ls z y))) -> gradient F x row ->
  (exists p, is_derive phi (sum_sq (scaled_diff ls x y)) p) \/ (sum_sq (scaled_diff ls x y) = 0 /\ exists C, forall r, Rabs (phi (r ^ 2) - phi 0) <= C * r ^ 2) ->
  slopes F x row.
Proof.
  intros H1 H2 Hn HF [L D] HP. split; [exact L|]. intros v Hv. set (u := sum_sq (scaled_diff ls x y)) in *.
  assert (Lsd : length (scaled_diff ls x y) = length x) by (apply sdiff_length; auto).
  assert (HQ : forall i t, (i < length x)%nat -> F (replace_coord i t x) = phi (q ls x y i t)) by (intros; rewrite HF by apply replace_length; reflexivity).
  set (B := dot (row2 Rdiv (scaled_diff ls x y) ls) v). set (c := sum_sq (row2 Rdiv v ls)).
  apply (is_derive_ext (fun t => phi (u + 2 * t * B + t ^ 2 * c))); [intros t; rewrite HF by (apply along_length; exact Hv); rewrite line_sq; auto|].
  destruct HP as [[p Hp]|[Hu [C HC]]].
  - assert (row = map (fun z => 2 * p * z) (row2 Rdiv (scaled_diff ls x y) ls)) as ->.
    { apply (nth_ext _ _ 0 0); [rewrite map_length, row2_length; lia|]. intros i Hi. rewrite L in Hi. rewrite map_nth0 by (rewrite row2_length; lia). rewrite row2_nth by lia.
      apply (partial_unique0 F x i); [apply D; exact Hi|]. unfold partial. apply (is_derive_ext (fun t => phi (q ls x y i t))); [intros t; symmetry; apply HQ; exact Hi|].
      evar_last; [apply (leaf ls x y i H1 H2 Hi (Hn i Hi) phi p Hp)|]. field. apply Hn. exact Hi. }
    rewrite dot_map_l. fold B. evar_last.
    + apply (is_derive_comp phi (fun t => u + 2 * t * B + t ^ 2 * c) 0 p).
      * replace (u + 2 * 0 * B + 0 ^ 2 * c) with u by ring. exact Hp.
      * instantiate (1 := 2 * B). auto_derive; auto. ring.
    + unfold scal; simpl; unfold mult; simpl. ring.
  - assert (row = map (fun _ => 0) row) as ->.
    { apply (nth_ext _ _ 0 0); [rewrite map_length; reflexivity|]. intros i Hi. rewrite L in Hi. rewrite nth_zero.
      apply (partial_unique0 F x i); [apply D; exact Hi|]. unfold partial. apply (is_derive_ext (fun t => phi (q ls x y i t))); [intros t; symmetry; apply HQ; exact Hi|].
      apply (leaf_flat ls x y i H1 H2 Hi (Hn i Hi) phi C Hu HC). }
    rewrite dot_map_zero.
    assert (B = 0) as ->.
    { unfold B. replace (row2 Rdiv (scaled_diff ls x y) ls) with (map (fun _ => 0) ls); [apply dot_map_zero|].
      apply (nth_ext _ _ 0 0); [rewrite map_length, row2_length; lia|]. intros i Hi. rewrite map_length in Hi. rewrite nth_zero, row2_nth by lia.
      rewrite (sum_sq_zero _ Hu i). unfold Rdiv. ring. }
    assert (Hc : 0 <= c) by apply sum_sq_nonneg.
    apply (flat_derive _ _ (C * c)). intros t. rewrite Hu. replace (0 + 2 * t * 0 + t ^ 2 * c) with ((t * sqrt c) ^ 2) by (rewrite Rpow_mult_distr, pow2_sqrt by exact Hc; ring).
    replace (0 + 2 * 0 * 0 + 0 ^ 2 * c) with 0 by ring. eapply Rle_trans; [apply HC|]. rewrite Rpow_mult_distr, pow2_sqrt by exact Hc. right. ring.
Qed.

(** Every kernel. *)
Lemma flat_32 : forall r, Rabs ((1 + sqrt (r ^ 2) * sqrt 3) * exp (- (sqrt (r ^ 2) * sqrt 3)) - (1 + sqrt 0 * sqrt 3) * exp (- (sqrt 0 * sqrt 3))) <= 3 * r ^ 2.
Proof.
  intros r. rewrite sqrt_0. pose proof (bound_32 (sqrt (r ^ 2) * sqrt 3)) as B. rewrite Rpow_mult_distr, sqrt_pow2', pow2_sqrt in B by lra.
  replace ((1 + 0 * sqrt 3) * exp (- (0 * sqrt 3))) with 1 by (rewrite Rmult_0_l, Ropp_0, exp_0; ring).
  rewrite (Rmult_comm 3). apply B. apply Rmult_le_pos; apply sqrt_pos.
Qed.
Lemma flat_52 : forall r, Rabs ((1 + sqrt (r ^ 2) * sqrt 5 + (sqrt (r ^ 2) * sqrt 5) ^ 2 / 3) * exp (- (sqrt (r ^ 2) * sqrt 5))
    - (1 + sqrt 0 * sqrt 5 + (sqrt 0 * sqrt 5) ^ 2 / 3) * exp (- (sqrt 0 * sqrt 5))) <= 10 * r ^ 2.
Proof.
  intros r. rewrite sqrt_0. pose proof (bound_52 (sqrt (r ^ 2) * sqrt 5)) as B.
  replace ((1 + 0 * sqrt 5 + (0 * sqrt 5) ^ 2 / 3) * exp (- (0 * sqrt 5))) with 1 by (rewrite Rmult_0_l, Ropp_0, exp_0; field).
  eapply Rle_trans; [apply B; apply Rmult_le_pos; apply sqrt_pos|]. rewrite Rpow_mult_distr, sqrt_pow2', pow2_sqrt by lra. lra.
Qed.
Lemma flat_sine l p : l <> 0 -> p <> 0 -> forall r, Rabs (exp (- 2 * (sin (PI / p * sqrt (r ^ 2)) / l) ^ 2) - exp (- 2 * (sin (PI / p * sqrt 0) / l) ^ 2)) <= 2 * (PI / p / l) ^ 2 * r ^ 2.
Proof.
  intros Hl Hp0 r. rewrite sqrt_0, Rmult_0_r, sin_0. replace (- 2 * (0 / l) ^ 2) with 0 by (field; exact Hl). rewrite exp_0.
  set (a := 2 * (sin (PI / p * sqrt (r ^ 2)) / l) ^ 2). replace (- 2 * (sin (PI / p * sqrt (r ^ 2)) / l) ^ 2) with (- a) by (unfold a; ring).
  assert (0 <= a) as Ha by (unfold a; pose proof (pow2_ge_0 (sin (PI / p * sqrt (r ^ 2)) / l)); lra).
  pose proof (bound_sin a Ha) as B. rewrite Rabs_left1 by lra. apply Rle_trans with a; [lra|]. unfold a. rewrite Rmult_assoc. apply Rmult_le_compat_l; [lra|].
  replace ((PI / p / l) ^ 2 * r ^ 2) with ((PI / p * sqrt (r ^ 2) / l) ^ 2).
  - unfold Rdiv at 1 3. rewrite !Rpow_mult_distr with (y := / l). apply Rmult_le_compat_r; [apply pow2_ge_0|]. apply sin_sq_le.
  - rewrite <- (sqrt_pow2' r) at 2. field. auto.
Qed.
Lemma kernel_slopes k : forall axes x y row, length x = length y -> regular k x y -> grad axes k x y = Some row -> slopes (fun z => value k z y) x row.
Proof.
  induction k as [s|nu s|l alpha|l p|c| |s0|k1 IH1 k2 IH2|k1 IH1 k2 IH2|k IH e]; intros axes x y row Hxy Hr Hg.
  - pose proof (good_length _ _ Hr) as Ls. apply (leaf_slopes (fun u => exp (- / 2 * u)) _ (per_dim s (length x)) x y row Ls Hxy).
    + intros i. apply good_nth. exact Hr.
    + intros z Hz. cbn [value]. rewrite Hz. reflexivity.
    + apply (C66_gradient _ axes); auto.
    + left. eexists. apply phi_rbf.
  - pose proof Hr as [Hs Hx]. pose proof (good_length _ _ Hs) as Ls. pose proof (fun i => good_nth s (length x) i Hs) as Hnz.
    set (phi := fun u => match nu with Half => exp (- sqrt u) | ThreeHalves => (1 + sqrt u * sqrt 3) * exp (- (sqrt u * sqrt 3))
      | FiveHalves => (1 + sqrt u * sqrt 5 + (sqrt u * sqrt 5) ^ 2 / 3) * exp (- (sqrt u * sqrt 5)) | Other f => f (sqrt u) end).
    apply (leaf_slopes phi _ (per_dim s (length x)) x y row Ls Hxy Hnz).
    + intros z Hz. cbn [value]. rewrite Hz. unfold phi. destruct nu; reflexivity.
    + apply (C66_gradient _ axes); auto.
    + destruct (Req_dec (sum_sq (scaled_diff (per_dim s (length x)) x y)) 0) as [E|E].
      * destruct nu; [exfalso; apply Hx; eapply sdiff_zero; eauto| | |contradiction]; right; (split; [exact E|]); eexists; [apply flat_32|apply flat_52].
      * left. assert (Hp : 0 < sum_sq (scaled_diff (per_dim s (length x)) x y)) by (pose proof (sum_sq_nonneg (scaled_diff (per_dim s (length x)) x y)); lra).
        destruct nu; [| | |contradiction]; eexists; [apply phi_half|apply phi_32|apply phi_52]; exact Hp.
  - pose proof Hr as [Hl Ha]. assert (Ls : length (repeat l (length x)) = length x) by apply repeat_length.
    apply (leaf_slopes (fun u => Rpower (1 + u / (2 * alpha)) (- alpha)) _ (repeat l (length x)) x y row Ls Hxy).
    + intros i Hi. rewrite nth_repeat1; auto.
    + intros z Hz. cbn [value]. f_equal. f_equal. rewrite (unscaled l) by exact Hl. rewrite Hz. field. split; [lra|exact Hl].
    + apply (C66_gradient _ axes); auto.
    + left. eexists. apply phi_rq; [exact Ha|apply sum_sq_nonneg].
  - pose proof Hr as [Hl Hp0]. assert (Ls : length (repeat 1 (length x)) = length x) by apply repeat_length.
    apply (leaf_slopes (fun u => exp (- 2 * (sin (PI / p * sqrt u) / l) ^ 2)) _ (repeat 1 (length x)) x y row Ls Hxy).
    + intros i Hi. rewrite nth_repeat1; auto.
    + intros z Hz. cbn [value]. rewrite Hz. reflexivity.
    + apply (C66_gradient _ axes); auto.
    + destruct (Req_dec (sum_sq (scaled_diff (repeat 1 (length x)) x y)) 0) as [E|E].
      * right. split; [exact E|]. eexists. apply flat_sine; auto.
      * left. eexists. apply phi_sine; auto. pose proof (sum_sq_nonneg (scaled_diff (repeat 1 (length x)) x y)). lra.
  - injection Hg as <-. split; [rewrite map_length; auto|]. intros v Hv. rewrite dot_map_zero. cbn [value]. apply @is_derive_const.
  - injection Hg as <-. split; [rewrite map_length; auto|]. intros v Hv. rewrite dot_map_zero. cbn [value]. apply @is_derive_const.
  - injection Hg as <-. split; [auto|]. intros v Hv. cbn [value]. apply (is_derive_ext (fun t => inner x y + t * dot y v + s0 ^ 2)); [intros t; rewrite inner_along; auto|].
    auto_derive; auto. ring.
  - cbn [grad] in Hg. destruct Hr as [R1 R2]. destruct (grad axes k1 x y) as [r1|] eqn:G1; [|discriminate]. destruct (grad axes k2 x y) as [r2|] eqn:G2; [|discriminate].
    injection Hg as <-. destruct (IH1 _ _ _ _ Hxy R1 G1) as [L1 D1]. destruct (IH2 _ _ _ _ Hxy R2 G2) as [L2 D2].
    split; [rewrite row2_length; lia|]. intros v Hv. rewrite dot_row2_plus by lia. apply @is_derive_plus; [apply D1|apply D2]; exact Hv.
  - cbn [grad] in Hg. destruct Hr as [R1 R2]. destruct ((0 <? axes)%nat && _); [discriminate|].
    destruct (grad (S axes) k1 x y) as [r1|] eqn:G1; [|destruct (grad (S axes) k2 x y); discriminate]. destruct (grad (S axes) k2 x y) as [r2|] eqn:G2; [|discriminate].
    injection Hg as <-. destruct (IH1 _ _ _ _ Hxy R1 G1) as [L1 D1]. destruct (IH2 _ _ _ _ Hxy R2 G2) as [L2 D2].
    split; [rewrite row2_length; rewrite !map_length; lia|]. intros v Hv. rewrite dot_row2_plus by (rewrite !map_length; lia). rewrite !dot_map_l. cbn [value]. evar_last.
    + apply (is_derive_mult (fun t => value k1 (along x v t) y) (fun t => value k2 (along x v t) y)); [apply D1; exact Hv|apply D2; exact Hv|]. intros a b. apply Rmult_comm.
    + rewrite along_0 by exact Hv. unfold plus, mult; simpl. ring.
  - cbn [grad] in Hg. destruct Hr as [R1 He]. destruct ((0 <? axes)%nat && _); [discriminate|]. destruct (grad axes k x y) as [r|] eqn:G1; [|discriminate]. injection Hg as <-.
    destruct (IH _ _ _ _ Hxy R1 G1) as [L1 D1]. split; [rewrite map_length; lia|]. intros v Hv.
    pose proof (npow_derive (fun t => value k (along x v t) y) 0 (dot r v) e (D1 v Hv)) as HN. cbv beta in HN. rewrite along_0 in HN by exact Hv. specialize (HN He).
    evar_last; [exact HN|]. destruct e; rewrite dot_map_l; reflexivity.
Qed.

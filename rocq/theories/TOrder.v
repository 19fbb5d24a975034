(** C129, C130, over the real numbers: predictions and the objective of the fit do not depend on the order of the
    training points; what the objective is. *)
From Coq Require Import Reals Lra Lia List.
From Verif Require Import MLinAlg PLinAlg SLinAlg PGp PGp2 MLml SLml TLinAlg.
From Verif Require POrder POrder2 POrder3.
Set Default Goal Selector "!".
Set Bullet Behavior "Strict Subproofs".
Open Scope R_scope.

Lemma max_perm l l' : Permutation l l' -> maximum l = maximum l'.
Proof.
  intros HP. destruct l as [|a l]; [apply Permutation_nil in HP as ->; reflexivity|]. destruct l' as [|b l']; [symmetry in HP; apply Permutation_nil in HP; discriminate|].
  apply (POrder3.fold_head Rmax); auto; intros; [apply Rmax_comm|symmetry; apply Rmax_assoc].
Qed.
Lemma min_perm l l' : Permutation l l' -> minimum l = minimum l'.
Proof.
  intros HP. destruct l as [|a l]; [apply Permutation_nil in HP as ->; reflexivity|]. destruct l' as [|b l']; [symmetry in HP; apply Permutation_nil in HP; discriminate|].
  apply (POrder3.fold_head Rmin); auto; intros; [apply Rmin_comm|symmetry; apply Rmin_assoc].
Qed.

Section T.
Context {P : Type}.
Variable k : P -> P -> R.
Hypothesis sym : symmetric k.
Lemma triples (D : list (obs P)) : combine (combine (points D) (noises D)) (values D) = D.
Proof. unfold points, noises, values. induction D as [|[[x n] t] D IH]; [reflexivity|]. cbn. f_equal. exact IH. Qed.
Lemma pairs (D : list (obs P)) : combine (points D) (noises D) = map fst D.
Proof. unfold points, noises. induction D as [|[[x n] t] D IH]; [reflexivity|]. cbn. f_equal. exact IH. Qed.
Lemma lens (D : list (obs P)) : length (points D) = length (noises D) /\ length (values D) = length (points D).
Proof. unfold points, noises, values. rewrite !map_length. auto. Qed.

(** The surrogate can be set up if and only if the matrix of the kernel, with the noise on its diagonal, is positive
    definite: its quadratic form is positive for coefficients that are not all zero. *)
Theorem C129_exists (D : list (obs P)) :
  (exists g, update_model k (points D) (noises D) (values D) = Some g) <->
  (forall w, length w = length D -> (exists a, In a w /\ a <> 0) ->
     0 < quad k (combine (points D) w) + total (map (fun q => snd q ^ 2 * fst q) (combine (noises D) w))).
Proof.
  destruct (lens D) as [H1 H2]. pose proof (POrder.update_iff k sym (points D) (noises D) (values D) H1) as H. rewrite pairs in H. rewrite H.
  assert (forall w, length w = length D ->
    quad_noise k (map fst D) w = quad k (combine (points D) w) + total (map (fun q => snd q ^ 2 * fst q) (combine (noises D) w))) as E.
  { intros w _. unfold quad_noise. f_equal.
    - f_equal. unfold points. revert w. clear. induction D as [|[[x n] t] D IH]; intros [|a w]; cbn; auto. f_equal. apply IH.
    - f_equal. unfold noises. revert w. clear. induction D as [|[[x n] t] D IH]; intros [|a w]; cbn; auto. f_equal. apply IH. }
  unfold POrder.posdef, POrder.nonzero. split; intros K w Hw Hz.
  - rewrite <- E by auto. apply K; auto. rewrite map_length. auto.
  - rewrite map_length in Hw. rewrite E by auto. apply K; auto.
Qed.

(** The same points with the same noise and values in another order: the surrogate can be set up for both or for none;
    predictions are the same, and so is the objective of the fit of the hyperparameters. *)
Theorem C129_model (D D' : list (obs P)) : Permutation D D' ->
  (update_model k (points D) (noises D) (values D) = None <-> update_model k (points D') (noises D') (values D') = None) /\
  (forall g g', update_model k (points D) (noises D) (values D) = Some g -> update_model k (points D') (noises D') (values D') = Some g' ->
     (forall x, gp_mean k (points D) g x = gp_mean k (points D') g' x /\ gp_var k (points D) g x = gp_var k (points D') g' x
                /\ gp_std k (points D) g x = gp_std k (points D') g' x) /\
     Permutation (combine D (g_alpha g)) (combine D' (g_alpha g'))) /\
  log_marginal_likelihood k (points D) (noises D) (values D) = log_marginal_likelihood k (points D') (noises D') (values D').
Proof.
  intros HP. destruct (lens D) as [H1 H2], (lens D') as [H1' H2'].
  assert (Permutation (combine (combine (points D) (noises D)) (values D)) (combine (combine (points D') (noises D')) (values D'))) as HP' by (rewrite !triples; exact HP).
  pose proof (POrder2.lml_perm k sym _ _ _ _ _ _ H1 H2 H1' H2' HP') as EL. split; [|split; [|exact EL]].
  - rewrite <- !(POrder2.lml_none k). rewrite EL. tauto.
  - intros g g' E E'. pose proof (POrder.alpha_perm k sym _ _ _ _ _ _ _ _ H1 H2 H1' H2' E E' HP') as HA. rewrite !triples in HA. split; [|tauto].
    intros x. assert (gp_var k (points D) g x = gp_var k (points D') g' x) as EV.
    { rewrite (gp_var_var k _ _ _ _ x H1 E), (gp_var_var k _ _ _ _ x H1' E'). apply (POrder.var_perm k sym).
      - apply (update_chol k _ _ _ _ H1 E). - apply (update_chol k _ _ _ _ H1' E'). - rewrite !pairs. apply Permutation_map. exact HP. }
    split; [exact (POrder.mean_perm k sym _ _ _ _ _ _ _ _ x H1 H2 H1' H2' E E' HP')|]. split; [exact EV|]. unfold gp_std. rewrite EV. reflexivity.
Qed.
(** The same for what [predict] returns, with the transformations of points and values and the clipping from above. *)
Theorem C129_predict {Q} (prX : Q -> P) m s clip (D D' : list (obs Q)) g g' : Permutation D D' ->
  model_of k prX m s (points D) (noises D) (values D) = Some g -> model_of k prX m s (points D') (noises D') (values D') = Some g' ->
  forall x, predicted_mean k prX m s clip (points D) (values D) g x = predicted_mean k prX m s clip (points D') (values D') g' x /\
            predicted_std k prX s (points D) g x = predicted_std k prX s (points D') g' x.
Proof.
  intros HP E E' x. unfold model_of in *.
  set (tr := fun q : obs Q => (prX (fst (fst q)), (snd (fst q) / s) ^ 2, (snd q - m) / s)).
  assert (forall U, map prX (points U) = points (map tr U) /\ map (fun n => (n / s) ^ 2) (noises U) = noises (map tr U) /\ map (fun t => (t - m) / s) (values U) = values (map tr U)) as K.
  { intros U. unfold points, noises, values. rewrite !map_map. auto. }
  destruct (K D) as (K1 & K2 & K3), (K D') as (K1' & K2' & K3'). rewrite K1, K2, K3 in E. rewrite K1', K2', K3' in E'.
  destruct (C129_model (map tr D) (map tr D') (Permutation_map _ HP)) as (_ & HM & _). destruct (HM _ _ E E') as [HM' _]. destruct (HM' (prX x)) as (M1 & _ & M3).
  unfold predicted_mean, predicted_std. rewrite K1, K1', M1, M3. rewrite (max_perm (values D) (values D')), (min_perm (values D) (values D')); auto; apply Permutation_map; exact HP.
Qed.

(** The objective: the sum of the log-densities with which each value was predicted from those before it; it is
    -infinity if and only if there is no such sum, that is, if the surrogate cannot be set up. *)
Lemma log_gaussian_form m v t : 0 < v -> log_gaussian m v t = - (t - m) ^ 2 / (2 * v) - / 2 * ln (2 * PI * v).
Proof.
  intros Hv. pose proof PI_RGT_0 as HPI. assert (0 < 2 * PI * v) as H by (apply Rmult_lt_0_compat; lra). unfold log_gaussian. rewrite ln_mult.
  - rewrite ln_exp, ln_Rinv by (apply sqrt_lt_R0; exact H). rewrite POrder2.ln_sqrt by exact H. field. lra.
  - apply Rinv_0_lt_compat, sqrt_lt_R0. exact H.
  - apply exp_pos.
Qed.
Lemma chain (D : list (obs P)) : forall x n t g l, update_model k (points D) (noises D) (values D) = Some g -> 0 < gp_var k (points D) g x + n ->
  log_marginal_likelihood k (points D) (noises D) (values D) = Some l ->
  log_marginal_likelihood k (points (D ++ [(x, n, t)])) (noises (D ++ [(x, n, t)])) (values (D ++ [(x, n, t)]))
  = Some (l + log_gaussian (gp_mean k (points D) g x) (gp_var k (points D) g x + n) t).
Proof.
  intros x n t g l E Hv El. destruct (lens D) as [H1 H2]. destruct (POrder2.lml_snoc k sym _ _ _ x n t g H1 H2 E Hv) as (l0 & E0 & E1).
  rewrite E0 in El. injection El as ->. replace (points (D ++ [(x, n, t)])) with (points D ++ [x]) by (unfold points; rewrite map_app; reflexivity).
  replace (noises (D ++ [(x, n, t)])) with (noises D ++ [n]) by (unfold noises; rewrite map_app; reflexivity).
  replace (values (D ++ [(x, n, t)])) with (values D ++ [t]) by (unfold values; rewrite map_app; reflexivity). rewrite E1, log_gaussian_form by auto. f_equal. lra.
Qed.
Theorem C130_evidence (D : list (obs P)) :
  (forall l, log_marginal_likelihood k (points D) (noises D) (values D) = Some l <-> scored k D l) /\
  (log_marginal_likelihood k (points D) (noises D) (values D) = None <-> update_model k (points D) (noises D) (values D) = None).
Proof.
  split; [|apply POrder2.lml_none].
  assert (forall l, scored k D l -> log_marginal_likelihood k (points D) (noises D) (values D) = Some l) as HS.
  { induction 1 as [|D l g x n t _ IH E Hv]; [|eapply chain; eauto]. unfold log_marginal_likelihood. cbn. f_equal. lra. }
  assert (forall l, log_marginal_likelihood k (points D) (noises D) (values D) = Some l -> exists l', scored k D l') as HE.
  { clear HS. induction D as [|[[x n] t] D IH] using rev_ind; intros l E; [exists 0; constructor|].
    assert (exists g, update_model k (points (D ++ [(x, n, t)])) (noises (D ++ [(x, n, t)])) (values (D ++ [(x, n, t)])) = Some g) as HG.
    { destruct (update_model k (points (D ++ [(x, n, t)])) _ _) as [g|] eqn:Eg; eauto. pose proof (proj2 (POrder2.lml_none k _ _ _) Eg) as F. exfalso. assert (None = Some l) as K by (rewrite <- E; symmetry; exact F). discriminate. }
    destruct (lens (D ++ [(x, n, t)])) as [H1 H2]. destruct (lens D) as [H3 H4]. apply POrder.update_iff in HG; auto. rewrite pairs, map_app in HG. cbn [map fst] in HG.
    pose proof (POrder.posdef_prefix k sym _ _ HG) as HG0. rewrite <- pairs in HG0. apply (POrder.update_iff k sym _ _ (values D) H3) in HG0 as (g & Eg).
    destruct (IH _ (POrder2.lml_value k _ _ _ _ Eg)) as (l' & Hl'). eexists. eapply scored_next; eauto.
    rewrite (gp_var_var k _ _ _ _ x H3 Eg). rewrite pairs. apply (POrder.posdef_pivot k sym); auto. rewrite <- pairs. apply (update_chol k _ _ _ _ H3 Eg). }
  intros l. split; [|apply HS]. intros E. destruct (HE l E) as (l' & Hl'). pose proof (HS _ Hl') as E'. rewrite E in E'. injection E' as ->. exact Hl'.
Qed.
(** Whatever the order in which the values are looked at, the sum is the same. *)
Theorem C130_any_order (D D' : list (obs P)) l : Permutation D D' -> scored k D l -> scored k D' l.
Proof.
  intros HP H. apply C130_evidence. apply C130_evidence in H. rewrite <- H. symmetry. apply C129_model. exact HP.
Qed.
End T.
Print Assumptions C129_exists.
Print Assumptions C129_model.
Print Assumptions C129_predict.
Print Assumptions C130_evidence.
Print Assumptions C130_any_order.

(** Two observations at the point 1 with the kernel of linear functions: 6 and 3, with noises 1 and 1/2. In both orders
    there is a surrogate; its mean at 1 is 3, its variance 1/4, and the objective is the sum of the log-densities of 6 under
    the prior (mean 0, variance 1 + 1), and of 3 under the surrogate that knows of 6 (mean 3, variance 1/2 + 1/2). *)
Lemma lin_one n t : 0 < 1 + n -> exists g, update_model lin [1] [n] [t] = Some g /\ gp_mean lin [1] g 1 = t / (1 + n) /\ gp_var lin [1] g 1 = n / (1 + n).
Proof.
  intros Hn. unfold update_model, kernel_inverse, kernel_matrix, cholesky. cbn. assert (lin 1 1 = 1) as -> by (unfold lin; ring).
  destruct (Rlt_dec 0 (1 + n - 0)) as [H|H]; [|lra]. rewrite Rminus_0_r. assert (sqrt (1 + n) * sqrt (1 + n) = 1 + n) as Hs by (apply sqrt_sqrt; lra).
  assert (sqrt (1 + n) <> 0) as Hz by (intros E; rewrite E in Hs; lra).
  eexists. split; [reflexivity|]. unfold gp_mean, gp_var, mul_columns. cbn. unfold forward, backward. cbn. assert (lin 1 1 = 1) as -> by (unfold lin; ring).
  set (q := sqrt (1 + n)) in *. split.
  - rewrite <- Hs. field. auto.
  - rewrite <- Hs. replace n with (q * q - 1) by lra. field. auto.
Qed.
Example C129_case : let D := [(1, 1, 6); (1, / 2, 3)] in let D' := [(1, / 2, 3); (1, 1, 6)] in
  Permutation D D' /\ exists g g', update_model lin (points D) (noises D) (values D) = Some g /\ update_model lin (points D') (noises D') (values D') = Some g' /\
  gp_mean lin (points D) g 1 = 3 /\ gp_mean lin (points D') g' 1 = 3 /\ g_alpha g = [3; 0] /\ g_alpha g' = [0; 3].
Proof.
  intros D D'. split; [constructor|]. 
  assert (forall X noise, X = [1; 1] -> (forall n, In n noise -> 0 < n) -> length noise = 2%nat -> forall y, length y = 2%nat -> exists g, update_model lin X noise y = Some g) as K.
  { intros X noise -> Hn Hl y Hy. apply (C28_exists lin lin_symmetric lin_positive); [split; auto; rewrite Hl; auto|exact Hn]. }
  destruct (K (points D) (noises D) eq_refl) with (y := values D) as (g & E); [intros n [<-|[<-|[]]]; cbn; lra|reflexivity|reflexivity|].
  destruct (K (points D') (noises D') eq_refl) with (y := values D') as (g' & E'); [intros n [<-|[<-|[]]]; cbn; lra|reflexivity|reflexivity|].
  exists g, g'. split; [exact E|]. split; [exact E'|].
  assert (forall i x n t, nth_error (points D) i = Some x -> nth_error (noises D) i = Some n -> nth_error (values D) i = Some t ->
    exists a, nth_error (g_alpha g) i = Some a /\ gp_mean lin (points D) g x = t - n * a) as R.
  { intros i x n t Hx Hn Ht. exact (C27_residual lin lin_symmetric _ _ _ g i x n t (lens D) E Hx Hn Ht). }
  destruct (R 0%nat 1 1 6 eq_refl eq_refl eq_refl) as (a & Ha & Ra). destruct (R 1%nat 1 (/ 2) 3 eq_refl eq_refl eq_refl) as (b & Hb & Rb).
  destruct (lens D) as [H1 H2], (lens D') as [H1' H2'].
  destruct (POrder.alpha_perm lin lin_symmetric _ _ _ _ _ _ _ _ H1 H2 H1' H2' E E') as (L1 & L2 & HA); [rewrite !triples; constructor|].
  assert (g_alpha g = [a; b]) as EA.
  { destruct (g_alpha g) as [|a0 [|b0 [|]]]; try discriminate. cbn in Ha, Hb. congruence. }
  assert (a = 3 /\ b = 0) as [-> ->]. { unfold gp_mean in Ra, Rb. rewrite EA in Ra, Rb. cbn in Ra, Rb. unfold lin in Ra, Rb. lra. }
  rewrite !triples, EA in HA. destruct (g_alpha g') as [|a1 [|b1 [|]]] eqn:EA'; try discriminate. cbn in HA.
  assert (a1 = 0 /\ b1 = 3) as [-> ->].
  { assert (In (1, / 2, 3, a1) [(1, 1, 6, 3); (1, / 2, 3, 0)]) as I1 by (eapply Permutation_in; [symmetry; exact HA|left; reflexivity]).
    assert (In (1, 1, 6, b1) [(1, 1, 6, 3); (1, / 2, 3, 0)]) as I2 by (eapply Permutation_in; [symmetry; exact HA|right; left; reflexivity]).
    split.
    - destruct I1 as [I|[I|[]]]; injection I; intros; lra. - destruct I2 as [I|[I|[]]]; injection I; intros; lra. }
  unfold gp_mean. rewrite EA, EA'. cbn. unfold lin. repeat split; lra.
Qed.
Example C130_case : scored lin [(1, 1, 6); (1, / 2, 3)] (log_gaussian 0 2 6 + log_gaussian 3 1 3).
Proof.
  destruct (lin_one 1 6 ltac:(lra)) as (g & E & Em & Ev).
  pose proof (scored_next lin [] 0 (mkGp [] [] []) 1 1 6 (scored_nil lin)) as S1.
  cbn in S1. specialize (S1 eq_refl).
  assert (gp_var lin [] (mkGp [] [] []) 1 = 1) as V0 by (unfold gp_var, lin, mul_columns; cbn; ring). rewrite V0 in S1. specialize (S1 ltac:(lra)).
  pose proof (scored_next lin [(1, 1, 6)] _ g 1 (/ 2) 3 S1 E) as S2. change (points [(1, 1, 6)]) with [1] in S2. rewrite Em, Ev in S2. specialize (S2 ltac:(lra)).
  cbn [app] in S2. replace (log_gaussian 0 2 6 + log_gaussian 3 1 3) with (0 + log_gaussian (gp_mean lin [] (mkGp [] [] []) 1) (1 + 1) 6 + log_gaussian (6 / (1 + 1)) (1 / (1 + 1) + / 2) 3); [exact S2|].
  replace (6 / (1 + 1)) with 3 by lra. replace (1 / (1 + 1) + / 2) with 1 by lra. replace (1 + 1) with 2 by lra. unfold gp_mean. cbn. lra.
Qed.

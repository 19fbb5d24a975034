(** C131, C132, over the real numbers: how predictions and their uncertainty depend on the values and on the noise. *)
From Coq Require Import Reals Lra Lia List Permutation.
From Verif Require Import MLinAlg PLinAlg SLinAlg PGp PGp2 MLml SLml TLinAlg TOrder PLaws PLaws2.
From Verif Require POrder POrder2.
Set Default Goal Selector "!".
Set Bullet Behavior "Strict Subproofs".
Open Scope R_scope.

Section T.
Context {P : Type}.
Variable k : P -> P -> R.
Hypothesis sym : symmetric k.

(** Predicted values are combined like the training values: for sums and multiples of values at the same points (with
    the same noise) the surrogate predicts the sums and multiples of its predictions. *)
Theorem C131_linear X noise y z a b g h : sizes X noise y -> length z = length y ->
  update_model k X noise y = Some g -> update_model k X noise z = Some h ->
  exists f, update_model k X noise (map (fun p => a * fst p + b * snd p) (combine y z)) = Some f /\
    forall x, gp_mean k X f x = a * gp_mean k X g x + b * gp_mean k X h x.
Proof.
  intros [H1 H2] Hz Eg Eh. destruct (other_values k X noise y g (map (fun p => a * fst p + b * snd p) (combine y z)) Eg) as (f & Ef & EL & _).
  exists f. split; auto. intros x. destruct (other_values k X noise y g z Eg) as (h' & Eh' & ELh & _). rewrite Eh in Eh'. injection Eh' as <-.
  assert (length (map (fun p => a * fst p + b * snd p) (combine y z)) = length X) as Hf by (rewrite map_length, combine_length; lia).
  rewrite (gp_mean_best k X noise _ f x H1 Hf Ef).
  rewrite (gp_mean_best k X noise y g x H1), (gp_mean_best k X noise z h x H1) by (auto; congruence).
  rewrite EL, ELh. apply dot_lin. auto.
Qed.
(** The uncertainty does not depend on the values, and neither does whether there is a surrogate at all. *)
Theorem C131_uncertainty X noise y z g : update_model k X noise y = Some g ->
  exists h, update_model k X noise z = Some h /\ forall x, gp_var k X h x = gp_var k X g x /\ gp_std k X h x = gp_std k X g x.
Proof.
  intros E. destruct (other_values k X noise y g z E) as (h & Eh & EL & EV). exists h. split; auto. intros x.
  assert (gp_var k X h x = gp_var k X g x) as Ev by (unfold gp_var; rewrite EL, EV; reflexivity). split; auto. unfold gp_std. rewrite Ev. reflexivity.
Qed.
(** Values, their noise and the amplitude of the kernel in other units: so are the predictions and their uncertainty, and
    the objective of the fit changes by a constant, whatever the points, the values and the other hyperparameters. *)
Theorem C131_scale X noise y s g : sizes X noise y -> 0 < s -> update_model k X noise y = Some g ->
  exists g', update_model (fun x z => s ^ 2 * k x z) X (map (Rmult (s ^ 2)) noise) (map (Rmult s) y) = Some g' /\
    (forall x, gp_mean (fun x z => s ^ 2 * k x z) X g' x = s * gp_mean k X g x /\
               gp_std (fun x z => s ^ 2 * k x z) X g' x = s * gp_std k X g x) /\
    exists l, log_marginal_likelihood k X noise y = Some l /\
      log_marginal_likelihood (fun x z => s ^ 2 * k x z) X (map (Rmult (s ^ 2)) noise) (map (Rmult s) y) = Some (l - INR (length X) * ln s).
Proof.
  intros [H1 H2] Hs E. assert (0 < s ^ 2) as Hs2 by (apply pow_lt; auto). change (fun x z => s ^ 2 * k x z) with (times k (s ^ 2)).
  pose proof (times_sym k sym (s ^ 2)) as sym'. assert (length X = length (map (Rmult (s ^ 2)) noise)) as H1' by (rewrite map_length; auto).
  assert (length (map (Rmult s) y) = length X) as H2' by (rewrite map_length; auto).
  destruct (proj2 (POrder.update_iff (times k (s ^ 2)) sym' X (map (Rmult (s ^ 2)) noise) (map (Rmult s) y) H1')) as (g' & E').
  { rewrite combine_scaled. apply posdef_times; auto. apply (proj1 (POrder.update_iff k sym X noise y H1)). eauto. }
  exists g'. split; auto. destruct (update_chol k X noise y g H1 E) as (HC & _ & Ha). destruct (update_chol _ X _ _ g' H1' E') as (HC' & _ & Ha'). rewrite combine_scaled in HC'.
  assert (length (combine X noise) = length X) as HT by (rewrite combine_length; lia).
  pose proof (alpha_length k X noise y g H1 H2 E) as La.
  assert (g_alpha g' = map (Rmult (/ s)) (g_alpha g)) as EA.
  { rewrite Ha'. apply (alpha_unique (times k (s ^ 2)) sym' _ _ _ _ HC').
    - rewrite map_length, noisier_length. lia.
    - rewrite Amul_times, Amul_scale by lia. rewrite Ha, (alpha_solves k sym _ _ y HC) by lia. rewrite map_map. apply map_ext. intros t. field. lra. }
  split.
  - intros x. split.
    + unfold gp_mean. rewrite EA, dot_times. rewrite dot_comm, dot_scale_l, dot_comm. field. lra.
    + rewrite !std_sqrt. rewrite (gp_var_var _ X _ _ g' x H1' E'), (gp_var_var k X noise y g x H1 E), combine_scaled.
      rewrite (var_times k sym (s ^ 2) _ (g_L g) (g_L g') x Hs2 HC HC'). rewrite sqrt_mult_alt by lra. rewrite sqrt_pow2 by lra. reflexivity.
  - rewrite (POrder2.lml_value k _ _ _ _ E), (POrder2.lml_value _ _ _ _ _ E'). eexists. split; [reflexivity|]. f_equal.
    rewrite (ldet_times k sym s (combine X noise) Hs _ _ HC HC'), EA, HT. rewrite dot_scale_l.
    rewrite (dot_comm y (map (Rmult (/ s)) (g_alpha g))), dot_scale_l, (dot_comm (g_alpha g) y). field. lra.
Qed.

(** More noise, more uncertainty, everywhere. *)
Theorem C132_noise X noise noise' y g : sizes X noise y -> Forall2 Rle noise noise' -> update_model k X noise y = Some g ->
  exists g', update_model k X noise' y = Some g' /\ forall x, gp_var k X g x <= gp_var k X g' x /\ gp_std k X g x <= gp_std k X g' x.
Proof.
  intros [H1 H2] Hn E. assert (length noise = length noise') as Hl by (clear - Hn; induction Hn; cbn; auto).
  assert (less_noise (combine X noise) (combine X noise')) as HL.
  { clear - Hn. revert X. induction Hn as [|n n' l l' H Hn IH]; intros [|x X]; try constructor; auto. apply IH. }
  assert (length X = length noise') as H1' by lia. destruct (proj2 (POrder.update_iff k sym X noise' y H1')) as (g' & E').
  { apply (less_posdef k _ _ HL). apply (proj1 (POrder.update_iff k sym X noise y H1)). eauto. }
  exists g'. split; auto. intros x. destruct (update_chol k X noise y g H1 E) as (HC & _). destruct (update_chol k X noise' y g' H1' E') as (HC' & _).
  assert (gp_var k X g x <= gp_var k X g' x) as HV by (rewrite (gp_var_var k X noise y g x H1 E), (gp_var_var k X noise' y g' x H1' E'); apply less_var; auto).
  split; auto. rewrite !std_sqrt. apply sqrt_le_1_alt. auto.
Qed.

(** Two values at one point, anywhere among the training data, count as one: their mean with weights inverse to their
    noise, with the noise of that mean. *)
Lemma points_app (D D' : list (obs P)) : points (D ++ D') = points D ++ points D'.
Proof. apply map_app. Qed.
Lemma noises_app (D D' : list (obs P)) : noises (D ++ D') = noises D ++ noises D'.
Proof. apply map_app. Qed.
Lemma values_app (D D' : list (obs P)) : values (D ++ D') = values D ++ values D'.
Proof. apply map_app. Qed.
Lemma merged_eq (x : P) n1 t1 n2 t2 : 0 < n1 -> 0 < n2 -> merged x n1 t1 n2 t2 = (x, n1 * n2 / (n1 + n2), (n2 * t1 + n1 * t2) / (n1 + n2)).
Proof. intros H1 H2. unfold merged. f_equal; [f_equal|]; field; lra. Qed.
Lemma agree_trans D1 D2 D3 : agree k D1 D2 -> agree k D2 D3 -> agree k D1 D3.
Proof.
  intros [H1 H2] [H3 H4]. split; [tauto|]. intros g g' E E' x. destruct (surrogate k D2) as [h|] eqn:Eh.
  - destruct (H2 _ _ E eq_refl x) as (-> & -> & ->). apply (H4 _ _ eq_refl E').
  - destruct H1 as [_ H1]. rewrite (H1 eq_refl) in E. discriminate.
Qed.
Lemma agree_perm D D' : Permutation D D' -> agree k D D'.
Proof. intros H. destruct (C129_model k sym D D' H) as (H1 & H2 & _). split; auto. intros g g' E E' x. destruct (H2 g g' E E') as [H3 _]. apply H3. Qed.
Lemma agree_merge D x n1 t1 n2 t2 : 0 < n1 -> 0 < n2 -> agree k ((D ++ [(x, n1, t1)]) ++ [(x, n2, t2)]) (D ++ [merged x n1 t1 n2 t2]).
Proof.
  intros Hn1 Hn2. pose proof (merged_eq x n1 t1 n2 t2 Hn1 Hn2) as EM. set (T := map fst D). set (D2 := (D ++ [(x, n1, t1)]) ++ [(x, n2, t2)]). set (D1 := D ++ [merged x n1 t1 n2 t2]).
  destruct (lens D1) as [A1 A2], (lens D2) as [B1 B2].
  assert (combine (points D1) (noises D1) = T ++ [(x, n1 * n2 / (n1 + n2))]) as E1 by (rewrite pairs; unfold D1, T; rewrite EM, map_app; reflexivity).
  assert (combine (points D2) (noises D2) = (T ++ [(x, n1)]) ++ [(x, n2)]) as E2 by (rewrite pairs; unfold D2, T; rewrite !map_app; reflexivity).
  pose proof (posdef_twice k sym T x n1 n2 Hn1 Hn2) as HPD. split.
  - pose proof (POrder.update_iff k sym _ _ (values D1) A1) as U1. pose proof (POrder.update_iff k sym _ _ (values D2) B1) as U2. rewrite E1 in U1. rewrite E2 in U2.
    unfold surrogate. split; intros HN.
    + destruct (update_model k (points D1) (noises D1) (values D1)) as [g|] eqn:Eg; auto. exfalso. destruct (proj2 U2) as (h & Eh); [apply HPD, U1; eauto|]. congruence.
    + destruct (update_model k (points D2) (noises D2) (values D2)) as [g|] eqn:Eg; auto. exfalso. destruct (proj2 U1) as (h & Eh); [apply HPD, U2; eauto|]. congruence.
  - intros g2 g1 G2 G1 z. unfold surrogate in *. destruct (update_chol k _ _ _ g1 A1 G1) as (C1 & _ & L1). destruct (update_chol k _ _ _ g2 B1 G2) as (C2 & _ & L2).
    pose proof (alpha_length k _ _ _ _ A1 A2 G1) as La1.
    assert (gp_var k (points D2) g2 z = gp_var k (points D1) g1 z) as EV.
    { rewrite (gp_var_var k _ _ _ g1 z A1 G1), (gp_var_var k _ _ _ g2 z B1 G2). rewrite E1, E2 in *. symmetry. apply (var_twice k sym T x n1 n2 Hn1 Hn2); auto. }
    split; [|split; [exact EV|rewrite !std_sqrt, EV; reflexivity]].
    assert (length (points D1) = S (length T)) as LP by (unfold D1, T, points; rewrite !map_length, app_length; cbn; lia).
    destruct (snoc_inv (g_alpha g1) (length T)) as (w & a & Ew & Hw); [lia|].
    assert (Amul k (T ++ [(x, n1 * n2 / (n1 + n2))]) (w ++ [a]) = values D ++ [(n2 * t1 + n1 * t2) / (n1 + n2)]) as HA.
    { rewrite <- Ew, L1. rewrite <- E1. rewrite (alpha_solves k sym _ _ _ C1) by (rewrite combine_length; lia). unfold D1. rewrite EM, values_app. reflexivity. }
    assert (length (values D) = length T) as LV by (unfold values, T; rewrite !map_length; auto).
    destruct (alpha_twice k T x n1 n2 Hn1 Hn2 (values D) t1 t2 w a Hw LV HA) as [Ea HA2].
    set (dd := dot (map (k x) (map fst (T ++ [(x, n1 * n2 / (n1 + n2))]))) (w ++ [a])) in *.
    assert (g_alpha g2 = (w ++ [(t1 - dd) / n1]) ++ [(t2 - dd) / n2]) as Ew2.
    { rewrite L2. apply (alpha_unique k sym _ _ _ _ C2).
      - rewrite E2, !app_length. cbn. lia.
      - rewrite E2, HA2. unfold D2. rewrite !values_app. reflexivity. }
    unfold gp_mean. rewrite Ew, Ew2. unfold D1, D2. rewrite EM, !points_app. cbn [points map fst]. rewrite !map_app. cbn [map].
    assert (length (points D) = length T) as LD by (unfold points, T; rewrite !map_length; auto).
    rewrite !dot_app by (rewrite ?app_length, ?map_length; cbn; lia). cbn [dot]. rewrite <- Ea. ring.
Qed.
Theorem C132_average (D D' : list (obs P)) x n1 t1 n2 t2 : 0 < n1 -> 0 < n2 -> Permutation D' (D ++ [(x, n1, t1); (x, n2, t2)]) ->
  agree k D' (D ++ [merged x n1 t1 n2 t2]).
Proof.
  intros H1 H2 HP. eapply agree_trans; [apply agree_perm; exact HP|]. change [(x, n1, t1); (x, n2, t2)] with ([(x, n1, t1)] ++ [(x, n2, t2)]). rewrite app_assoc.
  apply agree_merge; auto.
Qed.
(** Any number of values at one point with the same noise: their mean, with that part of the noise. *)
Theorem C132_repeats (D D' : list (obs P)) x n t ts : 0 < n -> Permutation D' (D ++ map (fun t => (x, n, t)) (t :: ts)) ->
  agree k D' (D ++ [(x, n / INR (length (t :: ts)), total (t :: ts) / INR (length (t :: ts)))]).
Proof.
  intros Hn HP. eapply agree_trans; [apply agree_perm; exact HP|]. clear HP D'. revert D. induction ts as [|u ts IH] using rev_ind; intros D.
  - cbn [map length total fold_right INR]. apply agree_perm. replace (n / 1) with n by field. replace ((t + 0) / 1) with t by field. reflexivity.
  - rewrite app_comm_cons, map_app. cbn [map].
    set (m := INR (length (t :: ts))). assert (0 < m) as Hm by (unfold m; apply lt_0_INR; cbn; lia).
    assert (INR (length ((t :: ts) ++ [u])) = m + 1) as -> by (unfold m; rewrite app_length, plus_INR; reflexivity).
    rewrite total_app. set (S := total (t :: ts)). replace (total [u]) with u by (cbn; lra).
    apply (agree_trans _ ((D ++ [(x, n, u)]) ++ map (fun t => (x, n, t)) (t :: ts))).
    { apply agree_perm. rewrite <- app_assoc. apply Permutation_app_head. apply Permutation_app_comm. }
    eapply agree_trans; [apply IH|]. fold m S.
    assert (0 < n / m) as Hnm by (apply Rmult_lt_0_compat; [lra|apply Rinv_0_lt_compat; lra]).
    pose proof (agree_merge D x n u (n / m) (S / m) Hn Hnm) as HM. rewrite merged_eq in HM by auto.
    replace (n + n / m) with (n * (m + 1) / m) in HM by (field; lra).
    replace (n * (n / m) / (n * (m + 1) / m)) with (n / (m + 1)) in HM by (field; repeat split; lra).
    replace ((n / m * u + n * (S / m)) / (n * (m + 1) / m)) with ((S + u) / (m + 1)) in HM by (field; repeat split; lra). exact HM.
Qed.
(** Without noise there must be one value per point: otherwise there is no surrogate, whatever the values (even if they
    are the same). *)
Theorem C132_twice_without_noise (D D' : list (obs P)) x t1 t2 : Permutation D' (D ++ [(x, 0, t1); (x, 0, t2)]) -> surrogate k D' = None.
Proof.
  intros HP. destruct (surrogate k D') as [g|] eqn:E; auto. exfalso.
  destruct (agree_perm _ _ HP) as [HN _]. destruct (surrogate k (D ++ [(x, 0, t1); (x, 0, t2)])) as [h|] eqn:Eh; [|destruct HN as [_ HN]; rewrite (HN eq_refl) in E; discriminate].
  unfold surrogate in Eh. destruct (lens (D ++ [(x, 0, t1); (x, 0, t2)])) as [A1 _].
  pose proof (proj1 (POrder.update_iff k sym _ _ _ A1) (ex_intro _ h Eh)) as HP'. rewrite pairs, map_app in HP'. cbn [map fst] in HP'.
  apply (no_posdef_twice k sym (map fst D) x). rewrite <- app_assoc. exact HP'.
Qed.
End T.
Print Assumptions C131_linear. Print Assumptions C131_uncertainty. Print Assumptions C131_scale.
Print Assumptions C132_noise. Print Assumptions C132_average. Print Assumptions C132_repeats. Print Assumptions C132_twice_without_noise.

Example C131_case : exists g h f, update_model lin [1] [1] [6] = Some g /\ update_model lin [1] [1] [2] = Some h /\ update_model lin [1] [1] [22] = Some f /\
  gp_mean lin [1] g 1 = 3 /\ gp_mean lin [1] h 1 = 1 /\ gp_mean lin [1] f 1 = 3 * 3 + 2 * 1 /\ gp_var lin [1] g 1 = / 2 /\ gp_var lin [1] f 1 = / 2.
Proof.
  destruct (lin_one 1 6) as (g & E1 & M1 & V1); [lra|]. destruct (lin_one 1 2) as (h & E2 & M2 & V2); [lra|]. destruct (lin_one 1 22) as (f & E3 & M3 & V3); [lra|].
  exists g, h, f. repeat split; auto; lra.
Qed.
(** In units ten times smaller. *)
Example C131_scale_case : exists g', update_model (fun x z => 10 ^ 2 * lin x z) [1] [100] [60] = Some g' /\ gp_mean (fun x z => 10 ^ 2 * lin x z) [1] g' 1 = 30.
Proof.
  destruct (lin_one 1 6) as (g & E1 & M1 & V1); [lra|]. destruct (C131_scale lin lin_symmetric [1] [1] [6] 10 g) as (g' & E' & M' & _); [split; reflexivity|lra|exact E1|].
  exists g'. cbn [map] in E'. replace (10 ^ 2 * 1) with 100 in E' by lra. replace (10 * 6) with 60 in E' by lra. split; [exact E'|]. destruct (M' 1) as [-> _]. rewrite M1. lra.
Qed.
Example C132_case : exists g g' g3, surrogate lin [(1, 2, 5); (1, 2, 7)] = Some g /\ surrogate lin [(1, 1, 6)] = Some g' /\
  gp_mean lin [1; 1] g 1 = 3 /\ gp_var lin [1; 1] g 1 = / 2 /\ gp_mean lin [1] g' 1 = 3 /\ gp_var lin [1] g' 1 = / 2 /\
  surrogate lin [(1, 3, 6)] = Some g3 /\ gp_var lin [1] g3 1 = 3 / 4.
Proof.
  destruct (lin_one 1 6) as (g' & E1 & M1 & V1); [lra|]. destruct (lin_one 3 6) as (g3 & E3 & _ & V3); [lra|].
  destruct (C132_average lin lin_symmetric [] [(1, 2, 5); (1, 2, 7)] 1 2 5 2 7) as [HN HA]; [lra|lra|reflexivity|]. cbn [app] in *.
  assert (merged 1 2 5 2 7 = (1, 1, 6)) as EM by (unfold merged; f_equal; [f_equal|]; lra). rewrite EM in *.
  destruct (surrogate lin [(1, 2, 5); (1, 2, 7)]) as [g|] eqn:E; [|destruct HN as [HN _]; unfold surrogate in HN; cbn in HN; specialize (HN eq_refl); cbn in E1; congruence].
  exists g, g', g3. destruct (HA g g' eq_refl E1 1) as (M & V & _). cbn [points map fst] in M, V. rewrite M, V. repeat split; auto; lra.
Qed.
Example C132_twice_case : surrogate lin [(1, 0, 6); (2, 1, 3); (1, 0, 6)] = None.
Proof. apply (C132_twice_without_noise lin lin_symmetric [(2, 1, 3)] _ 1 6 6). cbn. apply perm_swap. Qed.

(** The log-marginal likelihood: one point at a time, and in any order. Lemmas. *)
From Coq Require Import Lra Lia Permutation.
From Verif Require Import MLml PLinAlg SLinAlg PGp PGp2 POrder.
Set Default Goal Selector "!".
Set Bullet Behavior "Strict Subproofs".

Definition ldet (L : list row) : R := total (map (fun q => ln (snd q)) L).
Lemma ldet_snoc L r d : ldet (L ++ [(r, d)]) = ldet L + ln d.
Proof. unfold ldet. rewrite map_app, total_app. cbn. lra. Qed.

Section Order.
Context {P : Type}.
Variable k : P -> P -> R.
Hypothesis sym : symmetric k.

Lemma chol_inv T x n L : Chol k (T ++ [(x, n)]) L -> exists L0, Chol k T L0 /\ 0 < var k T L0 x + n /\
  L = L0 ++ [(forward L0 (map (k x) (map fst T)), sqrt (var k T L0 x + n))].
Proof.
  intros H. inversion H as [E|T0 L0 x0 n0 H0 r Hp E EL].
  - destruct T; discriminate.
  - apply app_inj_tail in E as [-> E]. injection E as -> ->. exists L0. split; [exact H0|]. unfold var. fold r.
    replace (k x x - dot r r + n) with (k x x + n - dot r r) by ring. split; [exact Hp|reflexivity].
Qed.
Lemma chol_unique T L : Chol k T L -> forall L', Chol k T L' -> L = L'.
Proof.
  induction 1 as [|T L x n HC IH r Hp]; intros L' H'.
  - inversion H' as [E|T0 L0 x0 n0 H0 r Hp E EL]; [reflexivity|]. destruct T0; discriminate.
  - apply chol_inv in H' as (L0 & H0 & _ & ->). rewrite <- (IH L0 H0). unfold var. fold r.
    replace (k x x - dot r r + n) with (k x x + n - dot r r) by ring. reflexivity.
Qed.
Lemma chol_of_posdef T : posdef k T -> exists L, Chol k T L.
Proof.
  induction T as [|[x n] T IH] using rev_ind; intros H.
  - exists []. constructor.
  - destruct IH as (L & HL); [eapply posdef_prefix; eauto|]. pose proof (posdef_pivot k sym T L x n HL H) as Hp. unfold var in Hp.
    eexists. apply Chol_snoc; [exact HL|]. lra.
Qed.
Lemma forward_snoc_k T L x n z : Chol k T L -> let r := forward L (map (k x) (map fst T)) in
  forward (L ++ [(r, sqrt (var k T L x + n))]) (map (k z) (map fst (T ++ [(x, n)])))
  = forward L (map (k z) (map fst T)) ++ [(k z x - dot r (forward L (map (k z) (map fst T)))) / sqrt (var k T L x + n)].
Proof.
  intros HC r. rewrite !map_app. cbn [map fst]. rewrite forward_snoc; [reflexivity|]. rewrite !map_length. symmetry. apply (chol_length k); auto.
Qed.
(** The posterior variance after one more point. *)
Lemma var_snoc T L x n z : Chol k T L -> 0 < var k T L x + n -> let r := forward L (map (k x) (map fst T)) in
  var k (T ++ [(x, n)]) (L ++ [(r, sqrt (var k T L x + n))]) z
  = var k T L z - (k z x - dot r (forward L (map (k z) (map fst T)))) ^ 2 / (var k T L x + n).
Proof.
  intros HC Hp r. pose proof (forward_snoc_k T L x n z HC) as Ef. cbv zeta in Ef. fold r in Ef. unfold var at 1. rewrite Ef. cbv zeta. set (M := forward L (map (k z) (map fst T))).
  rewrite dot_app by reflexivity. unfold var at 3. fold M. cbn [dot]. set (p := var k T L x + n) in *.
  assert (sqrt p * sqrt p = p) as Hs by (apply sqrt_sqrt; lra). assert (sqrt p <> 0) as Hn by (apply Rgt_not_eq, sqrt_lt_R0; exact Hp).
  set (c := k z x - dot r M). replace (c / sqrt p * (c / sqrt p)) with (c ^ 2 / (sqrt p * sqrt p)) by (field; exact Hn). rewrite Hs. lra.
Qed.
Lemma ln_sqrt x : 0 < x -> ln (sqrt x) = / 2 * ln x.
Proof.
  intros H. assert (ln x = ln (sqrt x) + ln (sqrt x)) as E; [|lra].
  rewrite <- ln_mult by (apply sqrt_lt_R0; exact H). rewrite sqrt_sqrt by lra. reflexivity.
Qed.
Lemma ldet_swap T x n z m L L' : Chol k ((T ++ [(x, n)]) ++ [(z, m)]) L -> Chol k ((T ++ [(z, m)]) ++ [(x, n)]) L' -> ldet L = ldet L'.
Proof.
  intros H H'. apply chol_inv in H as (L1 & H1 & P1 & ->). apply chol_inv in H1 as (L0 & H0 & P0 & ->).
  apply chol_inv in H' as (L1' & H1' & P1' & ->). apply chol_inv in H1' as (L0' & H0' & P0' & ->).
  rewrite <- (chol_unique T L0 H0 L0' H0') in *. clear L0' H0'. rewrite !ldet_snoc.
  rewrite (var_snoc T L0 x n z H0 P0) in P1 |- *. rewrite (var_snoc T L0 z m x H0 P0') in P1' |- *.
  set (rx := forward L0 (map (k x) (map fst T))) in *. set (rz := forward L0 (map (k z) (map fst T))) in *.
  rewrite (dot_comm rz rx) in *. rewrite (sym x z) in *. set (c := k z x - dot rx rz) in *.
  set (vx := var k T L0 x + n) in *. set (vz := var k T L0 z + m) in *.
  rewrite !ln_sqrt by assumption.
  assert (ln vx + ln (var k T L0 z - c ^ 2 / vx + m) = ln vz + ln (var k T L0 x - c ^ 2 / vz + n)) as E; [|lra].
  rewrite <- !ln_mult by assumption. f_equal.
  replace (var k T L0 z - c ^ 2 / vx + m) with (vz - c ^ 2 / vx) by (unfold vz; ring).
  replace (var k T L0 x - c ^ 2 / vz + n) with (vx - c ^ 2 / vz) by (unfold vx; ring). field. split; lra.
Qed.
Lemma ldet_perm_rev T T' : Permutation T T' -> forall L L', Chol k (rev T) L -> Chol k (rev T') L' -> ldet L = ldet L'.
Proof.
  induction 1 as [|[x n] T T' HP IH|[x n] [z m] T|T1 T2 T3 H1 IH1 H2 IH2]; intros L L' HL HL'.
  - f_equal. eapply chol_unique; eauto.
  - cbn [rev] in HL, HL'. apply chol_inv in HL as (L0 & H0 & P0 & ->). apply chol_inv in HL' as (L0' & H0' & P0' & ->).
    rewrite !ldet_snoc. rewrite (IH L0 L0' H0 H0'). f_equal. f_equal. f_equal. f_equal. apply (var_perm k sym (rev T) (rev T')); [exact H0|exact H0'|].
    rewrite <- !Permutation_rev. exact HP.
  - cbn [rev] in HL, HL'. eapply ldet_swap; [exact HL|exact HL'].
  - destruct (chol_of_posdef (rev T2)) as (L2 & HL2).
    { apply (posdef_perm k (rev T1)); [|eapply chol_posdef; eauto]. rewrite <- !Permutation_rev. exact H1. }
    rewrite (IH1 L L2 HL HL2). apply IH2; auto.
Qed.
Lemma ldet_perm T T' L L' : Permutation T T' -> Chol k T L -> Chol k T' L' -> ldet L = ldet L'.
Proof.
  intros HP HL HL'. apply (ldet_perm_rev (rev T) (rev T')).
  - rewrite <- !Permutation_rev. exact HP.
  - rewrite rev_involutive. exact HL.
  - rewrite rev_involutive. exact HL'.
Qed.

Lemma lml_value X noise y g : update_model k X noise y = Some g ->
  log_marginal_likelihood k X noise y = Some (- (1 / 2) * dot y (g_alpha g) - ldet (g_L g) - INR (length X) / 2 * ln (2 * PI)).
Proof.
  unfold update_model, kernel_inverse, log_marginal_likelihood. destruct (cholesky (kernel_matrix k X noise)) as [L|]; [|discriminate].
  intros E. injection E as <-. reflexivity.
Qed.
Lemma lml_none X noise y : log_marginal_likelihood k X noise y = None <-> update_model k X noise y = None.
Proof. unfold update_model, kernel_inverse, log_marginal_likelihood. destruct (cholesky (kernel_matrix k X noise)); split; auto; discriminate. Qed.
Lemma ya_combine (X : list P) (noise y a : list R) : length X = length noise -> length y = length X -> length a = length X ->
  map (fun q => (snd (fst q), snd q)) (combine (combine (combine X noise) y) a) = combine y a.
Proof.
  revert noise y a. induction X as [|x X IH]; intros [|n noise] [|t y] [|b a] H1 H2 H3; try discriminate; auto. cbn. f_equal. auto.
Qed.
Lemma xn_combine {A B C} (X : list A) (noise : list B) (y : list C) : length X = length noise -> length y = length X -> map fst (combine (combine X noise) y) = combine X noise.
Proof. intros H1 H2. apply fst_combine. rewrite combine_length. lia. Qed.
Lemma lml_perm X noise y X' noise' y' :
  length X = length noise -> length y = length X -> length X' = length noise' -> length y' = length X' ->
  Permutation (combine (combine X noise) y) (combine (combine X' noise') y') ->
  log_marginal_likelihood k X noise y = log_marginal_likelihood k X' noise' y'.
Proof.
  intros H Hy H' Hy' HP. assert (Permutation (combine X noise) (combine X' noise')) as HPT.
  { rewrite <- (xn_combine X noise y) by auto. rewrite <- (xn_combine X' noise' y') by auto. apply Permutation_map. exact HP. }
  destruct (update_model k X noise y) as [g|] eqn:E.
  - destruct (proj2 (update_iff k sym X' noise' y' H')) as (g' & E').
    { apply (posdef_perm k (combine X noise)); auto. apply (update_iff k sym X noise y H). eauto. }
    rewrite (lml_value _ _ _ _ E), (lml_value _ _ _ _ E').
    destruct (alpha_perm k sym X noise y g X' noise' y' g' H Hy H' Hy' E E' HP) as (Hl & Hl' & HPa).
    destruct (update_chol k X noise y g H E) as (HC & _). destruct (update_chol k X' noise' y' g' H' E') as (HC' & _).
    rewrite (ldet_perm _ _ _ _ HPT HC HC').
    assert (length X = length X') as EX. { apply Permutation_length in HPT. rewrite !combine_length in HPT. lia. }
    rewrite EX. do 3 f_equal. f_equal. rewrite <- (map_id y), <- (map_id y'), <- (map_id (g_alpha g)), <- (map_id (g_alpha g')).
    rewrite !dot_total by lia. rewrite <- (ya_combine X noise y) by auto. rewrite <- (ya_combine X' noise' y') by auto. rewrite !map_map.
    apply total_perm. apply (Permutation_map (fun q => snd (fst q) * snd q)). exact HPa.
  - apply lml_none in E as E2. rewrite E2. symmetry. apply lml_none. destruct (update_model k X' noise' y') as [g'|] eqn:E'; [|reflexivity].
    exfalso. destruct (proj2 (update_iff k sym X noise y H)) as (g & E1); [|congruence].
    apply (posdef_perm k (combine X' noise')); [symmetry; exact HPT|]. apply (update_iff k sym X' noise' y' H'). eauto.
Qed.

(** One more point: the logarithm of the normal density of its value around the prediction from the others. *)
Lemma alpha_norm L y : lower L -> length y = length L -> dot y (backward L (forward L y)) = dot (forward L y) (forward L y).
Proof.
  intros HL Hy. rewrite <- (forward_ok L HL y Hy) at 1. assert (length (forward L y) = length L) as Hf by (apply forward_length; auto).
  rewrite adjoint by (auto; rewrite backward_length; auto). rewrite backward_ok by auto. reflexivity.
Qed.
Lemma lml_snoc X noise y x n t g : length X = length noise -> length y = length X ->
  update_model k X noise y = Some g -> 0 < gp_var k X g x + n ->
  exists l, log_marginal_likelihood k X noise y = Some l /\
  log_marginal_likelihood k (X ++ [x]) (noise ++ [n]) (y ++ [t])
  = Some (l - (t - gp_mean k X g x) ^ 2 / (2 * (gp_var k X g x + n)) - / 2 * ln (2 * PI * (gp_var k X g x + n))).
Proof.
  intros H Hy E Hp. eexists. split; [apply (lml_value _ _ _ _ E)|].
  pose proof (gp_mean_best k X noise y g x H Hy E) as Em. rewrite (gp_var_var k X noise y g x H E) in Hp |- *. destruct (update_chol k X noise y g H E) as (HC & _ & Ha).
  pose proof (chol_lower k _ _ HC) as HL. pose proof (chol_length k _ _ HC) as HTL.
  assert (length (combine X noise) = length X) as HT by (rewrite combine_length; lia). set (T := combine X noise) in *. set (L := g_L g) in *.
  set (r := forward L (map (k x) (map fst T))). set (p := var k T L x + n) in *.
  assert (length y = length L) as HyL by lia. assert (length r = length L) as Hr by (unfold r; apply forward_length; rewrite !map_length; lia).
  assert (length (forward L y) = length L) as Hf by (apply forward_length; lia).
  assert (Chol k (combine (X ++ [x]) (noise ++ [n])) (L ++ [(r, sqrt p)])) as HC2.
  { rewrite combine_snoc by auto. fold T. replace p with (k x x + n - dot r r) by (unfold p, var; fold r; ring).
    apply Chol_snoc; auto. fold r. unfold p, var in Hp. fold r in Hp. lra. }
  assert (length (X ++ [x]) = length (noise ++ [n])) as HXn by (rewrite !app_length; cbn; lia).
  destruct (proj2 (update_iff k sym (X ++ [x]) (noise ++ [n]) (y ++ [t]) HXn)) as (g2 & E2).
  { eapply chol_posdef; eauto. }
  rewrite (lml_value _ _ _ _ E2). destruct (update_chol k _ _ _ g2 HXn E2) as (HC3 & _ & Ha2).
  rewrite Ha2. rewrite (chol_unique _ _ HC3 _ HC2). rewrite ldet_snoc, app_length. cbn [length].
  assert (lower (L ++ [(r, sqrt p)])) as HL2 by (constructor; auto; apply Rgt_not_eq, sqrt_lt_R0; exact Hp).
  rewrite alpha_norm; [|exact HL2|rewrite !app_length; cbn; lia]. rewrite forward_snoc by auto. rewrite dot_app by reflexivity.
  rewrite Ha. fold L. rewrite alpha_norm by auto. cbn [dot fst snd].
  assert (dot r (forward L y) = gp_mean k X g x) as ->.
  { rewrite Em. unfold best. fold r. rewrite <- (forward_ok L HL y HyL) at 2. rewrite adjoint by (auto; rewrite backward_length; auto).
    rewrite backward_ok by auto. apply dot_comm. }
  rewrite (ln_sqrt p Hp). rewrite (ln_mult (2 * PI) p); [|pose proof PI_RGT_0; lra|exact Hp]. rewrite plus_INR. cbn [INR].
  set (d := t - gp_mean k X g x). assert (sqrt p * sqrt p = p) as Hs by (apply sqrt_sqrt; lra).
  assert (sqrt p <> 0) as Hn by (apply Rgt_not_eq, sqrt_lt_R0; exact Hp).
  replace (d / sqrt p * (d / sqrt p)) with (d ^ 2 / (sqrt p * sqrt p)) by (field; exact Hn). rewrite Hs. f_equal. field. lra.
Qed.
End Order.

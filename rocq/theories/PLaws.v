(** Lemmas for the laws of the surrogate (TLaws.v). *)
From Coq Require Import Reals Lra Lia List Permutation.
From Verif Require Import MLinAlg PLinAlg SLinAlg PGp PGp2 MLml SLml.
From Verif Require Import POrder POrder2.
Set Default Goal Selector "!".
Set Bullet Behavior "Strict Subproofs".
Open Scope R_scope.

Lemma dot_lin a b y z w : length y = length z -> dot (map (fun p => a * fst p + b * snd p) (combine y z)) w = a * dot y w + b * dot z w.
Proof. revert z w. induction y as [|t y IH]; intros [|u z] [|v w] H; try discriminate; cbn; try lra. rewrite IH by auto. ring. Qed.
Lemma dot_scale_l c u w : dot (map (Rmult c) u) w = c * dot u w.
Proof. revert w. induction u as [|a u IH]; intros [|b w]; cbn; try lra. rewrite IH. ring. Qed.

Section Laws.
Context {P : Type}.
Variable k : P -> P -> R.
Hypothesis sym : symmetric k.

Lemma other_values X noise y g z : update_model k X noise y = Some g ->
  exists h, update_model k X noise z = Some h /\ g_L h = g_L g /\ g_V h = g_V g.
Proof.
  unfold update_model, kernel_inverse. destruct (cholesky (kernel_matrix k X noise)) as [L|]; [|discriminate]. intros E. injection E as <-.
  eexists. split; [reflexivity|]. auto.
Qed.

(** Multiplication of the kernel and of the noise. *)
Definition times (c : R) : P -> P -> R := fun x z => c * k x z.
Lemma times_sym c : symmetric (times c).
Proof. intros x z. unfold times. rewrite sym. reflexivity. Qed.
Definition noisier (c : R) (T : data (P := P)) : data (P := P) := map (fun q => (fst q, c * snd q)) T.
Lemma quad_times c l : quad (times c) l = c * quad k l.
Proof.
  unfold quad, times. rewrite <- total_scale. apply total_ext. intros a _. rewrite <- total_scale. apply total_ext. intros b _. ring.
Qed.
Lemma combine_noisier c T (w : list R) : combine (noisier c T) w = map (fun q => ((fst (fst q), c * snd (fst q)), snd q)) (combine T w).
Proof. revert w. induction T as [|t T IH]; intros [|a w]; cbn; auto. f_equal. apply IH. Qed.
Lemma quad_noise_times c T w : quad_noise (times c) (noisier c T) w = c * quad_noise k T w.
Proof.
  unfold quad_noise. rewrite combine_noisier, !map_map. cbn [fst snd]. rewrite quad_times.
  rewrite Rmult_plus_distr_l. f_equal. rewrite <- total_scale. apply total_ext. intros a _. ring.
Qed.
Lemma error_times c T x w : error (times c) (noisier c T) x w = c * error k T x w.
Proof.
  unfold error. rewrite combine_noisier, !map_map. cbn [fst snd]. rewrite quad_times.
  replace (total (map (fun q => snd q * times c x (fst (fst q))) (combine T w))) with (c * total (map (fun q => snd q * k x (fst (fst q))) (combine T w)))
    by (rewrite <- total_scale; apply total_ext; intros a _; unfold times; ring).
  replace (total (map (fun q => snd q ^ 2 * (c * snd (fst q))) (combine T w))) with (c * total (map (fun q => snd q ^ 2 * snd (fst q)) (combine T w)))
    by (rewrite <- total_scale; apply total_ext; intros a _; ring).
  unfold times. ring.
Qed.
Lemma posdef_times c T : 0 < c -> posdef k T -> posdef (times c) (noisier c T).
Proof.
  intros Hc H w Hw Hn. unfold noisier in Hw. rewrite map_length in Hw. rewrite quad_noise_times. apply Rmult_lt_0_compat; auto.
Qed.
Lemma noisier_length c T : length (noisier c T) = length T.
Proof. apply map_length. Qed.
Lemma var_times c T L L' x : 0 < c -> Chol k T L -> Chol (times c) (noisier c T) L' -> var (times c) (noisier c T) L' x = c * var k T L x.
Proof.
  intros Hc H H'. pose proof (best_length k T L x H) as Hb. pose proof (best_length (times c) _ L' x H') as Hb'. rewrite noisier_length in Hb'.
  apply Rle_antisym.
  - rewrite <- (error_best k sym T L x H), <- error_times. apply error_above; [apply times_sym|exact H'|]. rewrite noisier_length. exact Hb.
  - rewrite <- (error_best (times c) (times_sym c) _ L' x H'), error_times. apply Rmult_le_compat_l; [lra|]. apply error_above; auto.
Qed.
Lemma combine_scaled c (X : list P) (noise : list R) : combine X (map (Rmult c) noise) = noisier c (combine X noise).
Proof. revert noise. induction X as [|x X IH]; intros [|n noise]; cbn; auto. f_equal. apply IH. Qed.
Lemma dot_times c x X w : dot (map (times c x) X) w = c * dot (map (k x) X) w.
Proof. revert w. induction X as [|z X IH]; intros [|a w]; cbn; try lra. rewrite IH. unfold times. ring. Qed.
Lemma Amul_times c T w : Amul (times c) (noisier c T) w = map (Rmult c) (Amul k T w).
Proof.
  unfold Amul. rewrite combine_noisier, !map_map. apply map_ext. intros q. cbn [fst snd]. 
  assert (map fst (noisier c T) = map fst T) as -> by (unfold noisier; rewrite map_map; reflexivity). rewrite dot_times. ring.
Qed.
Lemma Amul_scale b T w : length w = length T -> Amul k T (map (Rmult b) w) = map (Rmult b) (Amul k T w).
Proof.
  intros Hw. unfold Amul. assert (forall v, dot v (map (Rmult b) w) = b * dot v w) as HD.
  { intros v. clear. revert v. induction w as [|a w IH]; intros [|d v]; cbn; try lra. rewrite IH. ring. }
  assert (combine T (map (Rmult b) w) = map (fun q => (fst q, b * snd q)) (combine T w)) as ->.
  { clear. revert w. induction T as [|t T IH]; intros [|a w]; cbn; auto. f_equal. apply IH. }
  rewrite !map_map. apply map_ext. intros q. cbn [fst snd]. rewrite HD. ring.
Qed.
Lemma alpha_length X noise y g : length X = length noise -> length y = length X -> update_model k X noise y = Some g -> length (g_alpha g) = length X.
Proof.
  intros H Hy E. destruct (update_chol k X noise y g H E) as (HC & _ & ->). pose proof (chol_lower _ _ _ HC) as HL. pose proof (chol_length _ _ _ HC) as HTL.
  rewrite combine_length in HTL. rewrite backward_length; [|exact HL|apply forward_length; lia]. lia.
Qed.
Lemma ldet_times s T : 0 < s -> forall L L', Chol k T L -> Chol (times (s ^ 2)) (noisier (s ^ 2) T) L' -> ldet L' = ldet L + INR (length T) * ln s.
Proof.
  intros Hs. assert (0 < s ^ 2) as Hs2 by (apply pow_lt; auto). induction T as [|[x n] T IH] using rev_ind; intros L L' H H'.
  - inversion H as [E EL|T0 L0 x0 n0 H0 r Hp E EL]; [|destruct T0; discriminate]. inversion H' as [E' EL'|T0 L0 x0 n0 H0 r Hp E' EL']; [|destruct T0; discriminate].
    cbn. lra.
  - unfold noisier in H'. rewrite map_app in H'. cbn [map fst snd] in H'. fold (noisier (s ^ 2) T) in H'.
    apply (chol_inv k) in H as (L0 & H0 & P0 & ->). apply (chol_inv (times (s ^ 2))) in H' as (L0' & H0' & P0' & ->).
    rewrite !ldet_snoc, (IH _ _ H0 H0'), app_length, plus_INR. cbn [length INR]. rewrite !ln_sqrt by auto.
    rewrite (var_times (s ^ 2) T L0 L0' x Hs2 H0 H0'). replace (s ^ 2 * var k T L0 x + s ^ 2 * n) with (s ^ 2 * (var k T L0 x + n)) by ring.
    rewrite ln_mult by auto. replace (ln (s ^ 2)) with (2 * ln s); [lra|]. replace (s ^ 2) with (s * s) by ring. rewrite ln_mult by auto. ring.
Qed.

(** Larger noise. *)
Definition less_noise (T T' : data (P := P)) : Prop := Forall2 (fun q q' => fst q = fst q' /\ snd q <= snd q') T T'.
Lemma less_quad T T' w : less_noise T T' -> map (fun q => (fst (fst q), snd q)) (combine T' w) = map (fun q => (fst (fst q), snd q)) (combine T w)
  /\ total (map (fun q => snd q ^ 2 * snd (fst q)) (combine T w)) <= total (map (fun q => snd q ^ 2 * snd (fst q)) (combine T' w)).
Proof.
  intros H. revert w. induction H as [|[x n] [x' n'] T T' [E Hn] HT IH]; intros [|a w]; try (split; [reflexivity|cbn; lra]).
  cbn in E, Hn. subst x'. destruct (IH w) as (I1 & I2). cbn [combine map fst snd]. split; [f_equal; exact I1|].
  cbn [total fold_right]. unfold total in *. pose proof (Rmult_le_compat_l _ _ _ (pow2_ge_0 a) Hn). lra.
Qed.
Lemma less_error T T' x w : less_noise T T' -> error k T x w <= error k T' x w.
Proof.
  intros H. destruct (less_quad T T' w H) as (E & HN). unfold error. rewrite E.
  replace (total (map (fun q => snd q * k x (fst (fst q))) (combine T' w))) with (total (map (fun q => snd q * k x (fst (fst q))) (combine T w))); [lra|].
  change (map (fun q : P * R * R => snd q * k x (fst (fst q))) (combine T w)) with (map (fun q : P * R * R => (fun p : P * R => snd p * k x (fst p)) (fst (fst q), snd q)) (combine T w)).
  change (map (fun q : P * R * R => snd q * k x (fst (fst q))) (combine T' w)) with (map (fun q : P * R * R => (fun p : P * R => snd p * k x (fst p)) (fst (fst q), snd q)) (combine T' w)).
  rewrite <- !(map_map (fun q : P * R * R => (fst (fst q), snd q)) (fun p : P * R => snd p * k x (fst p))). rewrite E. reflexivity.
Qed.
Lemma less_length T T' : less_noise T T' -> length T = length T'.
Proof. induction 1; cbn; auto. Qed.
Lemma less_posdef T T' : less_noise T T' -> posdef k T -> posdef k T'.
Proof.
  intros H Hp w Hw Hn. destruct (less_quad T T' w H) as (E & HN). rewrite <- (less_length _ _ H) in Hw. specialize (Hp w Hw Hn).
  unfold quad_noise in *. rewrite E. lra.
Qed.
Lemma less_var T T' L L' x : less_noise T T' -> Chol k T L -> Chol k T' L' -> var k T L x <= var k T' L' x.
Proof.
  intros H HC HC'. rewrite <- (error_best k sym T' L' x HC'). eapply Rle_trans; [|apply less_error; exact H].
  apply error_above; auto. rewrite (best_length k T' L' x HC'). symmetry. apply less_length. exact H.
Qed.

(** Two values at one point. *)
Lemma quad_twice l x b1 b2 : quad k ((l ++ [(x, b1)]) ++ [(x, b2)]) = quad k (l ++ [(x, b1 + b2)]).
Proof. rewrite !quad_snoc by exact sym. rewrite map_app, total_app. cbn. ring. Qed.
Lemma snoc2 {A} (w : list A) n : length w = S (S n) -> exists w' a b, w = (w' ++ [a]) ++ [b] /\ length w' = n.
Proof.
  intros H. destruct (snoc_inv w (S n) H) as (w1 & b & -> & H1). destruct (snoc_inv w1 n H1) as (w2 & a & -> & H2). eauto 6.
Qed.
Lemma comb2 {A} (T : list A) (w : list R) p q a b : length w = length T ->
  combine ((T ++ [p]) ++ [q]) ((w ++ [a]) ++ [b]) = (combine T w ++ [(p, a)]) ++ [(q, b)].
Proof. intros H. rewrite combine_snoc by (rewrite !app_length; cbn; lia). f_equal. apply combine_snoc. auto. Qed.

Section Twice.
Variables (T : data (P := P)) (x : P) (n1 n2 : R).
Hypothesis H1 : 0 < n1.
Hypothesis H2 : 0 < n2.
Let nm := n1 * n2 / (n1 + n2).
Let T1 := T ++ [(x, nm)].
Let T2 := (T ++ [(x, n1)]) ++ [(x, n2)].
Lemma quad_noise_twice w b1 b2 : length w = length T ->
  quad_noise k T2 ((w ++ [b1]) ++ [b2]) = quad_noise k T1 (w ++ [b1 + b2]) + (n1 * b1 - n2 * b2) ^ 2 / (n1 + n2).
Proof.
  intros Hw. unfold quad_noise, T1, T2. rewrite comb2, combine_snoc by auto. rewrite !map_app, !total_app. cbn [map fst snd]. rewrite quad_twice.
  cbn [total fold_right]. unfold nm. field. lra.
Qed.
Lemma error_twice z w b1 b2 : length w = length T ->
  error k T2 z ((w ++ [b1]) ++ [b2]) = error k T1 z (w ++ [b1 + b2]) + (n1 * b1 - n2 * b2) ^ 2 / (n1 + n2).
Proof.
  intros Hw. unfold error, T1, T2. rewrite comb2, combine_snoc by auto. rewrite !map_app, !total_app. cbn [map fst snd]. rewrite quad_twice.
  cbn [total fold_right]. unfold nm. field. lra.
Qed.
Lemma len1 : length T1 = S (length T).
Proof. unfold T1. rewrite app_length. cbn. lia. Qed.
Lemma len2 : length T2 = S (S (length T)).
Proof. unfold T2. rewrite !app_length. cbn. lia. Qed.
Lemma gap b : (n1 * (n2 * b / (n1 + n2)) - n2 * (n1 * b / (n1 + n2))) ^ 2 / (n1 + n2) = 0.
Proof. field. lra. Qed.
Lemma split b : n2 * b / (n1 + n2) + n1 * b / (n1 + n2) = b.
Proof. field. lra. Qed.
Lemma sq_pos u : 0 <= u ^ 2 / (n1 + n2).
Proof. apply Rmult_le_pos; [apply pow2_ge_0|]. apply Rlt_le, Rinv_0_lt_compat. lra. Qed.
Lemma zero_or (w : list R) : nonzero w \/ w = repeat 0 (length w).
Proof.
  induction w as [|a w [(b & Hb & Hn)|IH]]; [right; reflexivity|left; exists b; split; auto; right; auto|].
  destruct (Req_dec a 0) as [->|Ha]; [right; cbn; f_equal; exact IH|left; exists a; split; auto; left; auto].
Qed.
Lemma quad_noise_zero U m : quad_noise k U (repeat 0 m) = 0.
Proof.
  unfold quad_noise, quad. assert (forall q, In q (combine U (repeat 0 m)) -> snd q = 0) as HZ.
  { intros [u a] Hq. apply in_combine_r, repeat_spec in Hq. exact Hq. }
  rewrite !total_zero; [lra| |].
  - intros q Hq. rewrite (HZ q Hq). ring.
  - intros q Hq. apply total_zero. intros p _. apply in_map_iff in Hq as (r & <- & Hr). cbn [snd]. rewrite (HZ r Hr). ring.
Qed.
Lemma posdef_twice : posdef k T1 <-> posdef k T2.
Proof.
  split; intros H w Hw Hz.
  - rewrite len2 in Hw. destruct (snoc2 w _ Hw) as (v & b1 & b2 & -> & Hv). rewrite quad_noise_twice by auto. pose proof (sq_pos (n1 * b1 - n2 * b2)) as Hs.
    assert (length (v ++ [b1 + b2]) = length T1) as Hl by (rewrite len1, app_length; cbn; lia).
    destruct (zero_or (v ++ [b1 + b2])) as [Hn|E0].
    + pose proof (H _ Hl Hn). lra.
    + rewrite E0, quad_noise_zero. rewrite Rplus_0_l. rewrite app_length in E0. cbn [length] in E0.
      rewrite repeat_app in E0. cbn [repeat] in E0. apply app_inj_tail in E0 as [E0 E1].
      destruct Hz as (a & Ha & Hn). assert (b1 <> 0) as Hb.
      { intros ->. apply Hn. destruct (in_app_or _ _ _ Ha) as [Ha'|[<-|[]]]; [|lra]. destruct (in_app_or _ _ _ Ha') as [Ha''|[<-|[]]]; [|reflexivity].
        rewrite E0 in Ha''. apply repeat_spec in Ha''. exact Ha''. }
      apply Rmult_lt_0_compat; [|apply Rinv_0_lt_compat; lra]. replace (n1 * b1 - n2 * b2) with ((n1 + n2) * b1) by (replace b2 with (- b1) by lra; ring).
      assert ((n1 + n2) * b1 <> 0) as Hnz by (apply Rmult_integral_contrapositive; split; lra). replace (((n1 + n2) * b1) ^ 2) with (Rsqr ((n1 + n2) * b1)) by (unfold Rsqr; ring).
      apply Rsqr_pos_lt. exact Hnz.
  - rewrite len1 in Hw. destruct (snoc_inv w _ Hw) as (v & b & -> & Hv). 
    assert (quad_noise k T1 (v ++ [b]) = quad_noise k T2 ((v ++ [n2 * b / (n1 + n2)]) ++ [n1 * b / (n1 + n2)])) as ->.
    { rewrite quad_noise_twice by auto. rewrite gap, split. ring. }
    apply H; [rewrite len2, !app_length; cbn; lia|]. destruct Hz as (a & Ha & Hn). destruct (in_app_or _ _ _ Ha) as [Ha'|[<-|[]]].
    + exists a. split; auto. apply in_or_app. left. apply in_or_app. auto.
    + exists (n2 * b / (n1 + n2)). split; [apply in_or_app; left; apply in_or_app; right; left; auto|]. unfold Rdiv.
      apply Rmult_integral_contrapositive. split; [apply Rmult_integral_contrapositive; split; lra|apply Rinv_neq_0_compat; lra].
Qed.
Lemma var_twice L1 L2 z : Chol k T1 L1 -> Chol k T2 L2 -> var k T1 L1 z = var k T2 L2 z.
Proof.
  intros HC1 HC2. pose proof (best_length k T1 L1 z HC1) as Hb1. pose proof (best_length k T2 L2 z HC2) as Hb2. rewrite len1 in Hb1. rewrite len2 in Hb2.
  apply Rle_antisym.
  - rewrite <- (error_best k sym T2 L2 z HC2). destruct (snoc2 _ _ Hb2) as (v & b1 & b2 & -> & Hv). rewrite error_twice by auto.
    pose proof (sq_pos (n1 * b1 - n2 * b2)) as Hs. assert (var k T1 L1 z <= error k T1 z (v ++ [b1 + b2])); [|lra].
    apply error_above; auto. rewrite len1, app_length. cbn. lia.
  - rewrite <- (error_best k sym T1 L1 z HC1). destruct (snoc_inv _ _ Hb1) as (v & b & -> & Hv).
    replace (error k T1 z (v ++ [b])) with (error k T2 z ((v ++ [n2 * b / (n1 + n2)]) ++ [n1 * b / (n1 + n2)])); [|rewrite error_twice by auto; rewrite gap, split; ring].
    apply error_above; auto. rewrite len2, !app_length. cbn. lia.
Qed.
(** The coefficients: those of the merged problem, with the last one shared. *)
Lemma alpha_twice y t1 t2 w a : length w = length T -> length y = length T ->
  let tm := (n2 * t1 + n1 * t2) / (n1 + n2) in
  Amul k T1 (w ++ [a]) = y ++ [tm] ->
  let d := dot (map (k x) (map fst T1)) (w ++ [a]) in
  (t1 - d) / n1 + (t2 - d) / n2 = a /\ Amul k T2 ((w ++ [(t1 - d) / n1]) ++ [(t2 - d) / n2]) = (y ++ [t1]) ++ [t2].
Proof.
  intros Hw Hy tm HA d.
  assert (forall z b1 b2, dot (map (k z) (map fst T2)) ((w ++ [b1]) ++ [b2]) = dot (map (k z) (map fst T1)) (w ++ [b1 + b2])) as HD.
  { intros z b1 b2. unfold T1, T2. rewrite !map_app. cbn [map fst]. rewrite !dot_app by (rewrite ?app_length, !map_length; cbn; lia). cbn. ring. }
  assert (forall U v, length v = length U -> Amul k U v = map (fun q => dot (map (k (fst (fst q))) (map fst U)) v + snd (fst q) * snd q) (combine U v)) as HU by reflexivity.
  unfold Amul in HA. unfold T1 in HA at 2. rewrite combine_snoc in HA by auto. rewrite map_app in HA. cbn [map fst snd] in HA.
  apply app_inj_tail in HA as [HA1 HA2]. fold d in HA2.
  assert ((t1 - d) / n1 + (t2 - d) / n2 = a) as Ea.
  { unfold nm, tm in HA2. assert (d = (n2 * t1 + n1 * t2) / (n1 + n2) - n1 * n2 / (n1 + n2) * a) as -> by lra. field. lra. }
  split; [exact Ea|]. unfold Amul. unfold T2 at 2. rewrite comb2 by auto. rewrite !map_app. cbn [map fst snd]. f_equal; [f_equal|].
  - rewrite <- HA1. apply map_ext. intros q. rewrite HD, Ea. reflexivity.
  - rewrite HD, Ea. fold d. f_equal. field. lra.
  - rewrite HD, Ea. fold d. f_equal. field. lra.
Qed.
End Twice.

(** The same point twice without noise. *)
Lemma no_posdef_twice T x : ~ posdef k ((T ++ [(x, 0)]) ++ [(x, 0)]).
Proof.
  intros H. specialize (H ((repeat 0 (length T) ++ [1]) ++ [-1])). unfold quad_noise in H. rewrite comb2 in H by apply repeat_length.
  rewrite !map_app, !total_app in H. cbn [map fst snd] in H. rewrite quad_twice in H. replace (1 + -1) with 0 in H by lra. rewrite quad_snoc in H by exact sym.
  pose proof (quad_noise_zero T (length T)) as HZ. unfold quad_noise in HZ. cbn [total fold_right] in H. unfold total in *.
  assert (0 < 0); [|lra]. eapply Rlt_le_trans; [apply H|].
  - rewrite !app_length, repeat_length. cbn. lia.
  - exists 1. split; [|lra]. apply in_or_app. left. apply in_or_app. right. left. reflexivity.
  - lra.
Qed.
End Laws.

(** C134: neither LogExp nor its variant propose a point that is in the training set already, or twice in a batch, and lies never raise the
    acquisition function. *)
From Coq Require Import Lra Lia Permutation.
From Verif Require Import PLinAlg SLinAlg PGp PGp2 TLinAlg PPsd TPsd TAcqFunc TNonlinear.
From Verif Require Import MLie.
Set Default Goal Selector "!".
Set Bullet Behavior "Strict Subproofs".
Open Scope R_scope.

(** The order of floats without NaN. *)
Definition at_most (a b : ext) : Prop :=
  match a, b with
  | NegInf, NegInf | NegInf, Real _ | NegInf, PosInf | Real _, PosInf | PosInf, PosInf => True
  | Real r, Real r' => r <= r'
  | _, _ => False
  end.

Section T.
Variable K : kernel.
Variables lows widths : list R.
Variables m s clip : R.
Hypothesis Hs : 0 < s.
Notation prX := (normalise lows widths).
Notation solved := (solved K lows widths m s).
Notation seen := (seen K lows widths m s clip).
Notation add_lie := (add_lie K lows widths m s clip).

(** As many values as points, and as many noise levels if there are several; none of them negative. *)
Definition fits (c : copy) : Prop :=
  length (c_y c) = length (c_X c) /\ length (levels (c_noise c) (c_X c)) = length (c_X c) /\ (forall n, In n (levels (c_noise c) (c_X c)) -> 0 <= n) /\
  c_X c <> [].

Lemma trained_std X noise y g i x n : sizes X noise y -> 0 <= n -> model_of (value K) prX m s X noise y = Some g ->
  nth_error X i = Some x -> nth_error noise i = Some n -> predicted_std (value K) prX s X g x <= n.
Proof.
  intros [H1 H2] Hn E Hx Hi. unfold model_of in E. unfold predicted_std.
  set (T := combine (map prX X) (map (fun n => (n / s) ^ 2) noise)).
  assert (length (map prX X) = length (map (fun n => (n / s) ^ 2) noise)) as HL by (rewrite !map_length; auto).
  destruct (error_self (value K) (value_symmetric K) T i (prX x) ((n / s) ^ 2)) as (w & Hw & Ew).
  { apply nth_error_combine; rewrite nth_error_map; [rewrite Hx|rewrite Hi]; reflexivity. }
  destruct (update_chol (value K) _ _ _ g HL E) as (HC & _).
  pose proof (error_above (value K) (value_symmetric K) _ _ (prX x) w HC Hw) as Hv. fold T in Hv. rewrite Ew in Hv.
  unfold gp_std. rewrite (gp_var_var (value K) _ _ _ g (prX x) HL E). fold T.
  assert (0 <= n / s) as Hq by (apply Rmult_le_pos; [auto|left; apply Rinv_0_lt_compat; auto]).
  assert (sqrt (if Rlt_dec (var (value K) T (g_L g) (prX x)) 0 then 0 else var (value K) T (g_L g) (prX x)) <= n / s) as H.
  { rewrite <- (sqrt_pow2 (n / s) Hq). apply sqrt_le_1_alt. destruct (Rlt_dec _ 0); [apply pow2_ge_0|exact Hv]. }
  apply (Rmult_le_compat_l s) in H; [|lra]. replace (s * (n / s)) with n in H by (field; lra). exact H.
Qed.
Lemma std_nonneg X g x : 0 <= predicted_std (value K) prX s X g x.
Proof. unfold predicted_std. apply Rmult_le_pos; [lra|apply sqrt_pos]. Qed.

(** Nothing to gain exactly where the standard deviation does not exceed the noise. *)
Lemma acq_none zeta sn c x : 0 <= noise_used sn (seen c) ->
  (logexp zeta sn (seen c) x = NegInf <-> std (seen c) x <= noise_used sn (seen c)) /\
  (nonlinear zeta sn (seen c) x = NegInf <-> std (seen c) x <= noise_used sn (seen c)).
Proof.
  intros Hn. pose proof (std_nonneg (c_X c) (c_g c) x) as H0.
  rewrite (C63_minus_inf zeta sn (seen c) x H0 Hn), (C108_minus_inf zeta sn (seen c) x H0 Hn).
  assert (exists mu, mean (seen c) x = Real mu) as Hm by (eexists; reflexivity). tauto.
Qed.

(** With one noise level: the acquisition function is -inf at every training point. *)
Theorem C134_trained zeta c n x : fits c -> solved c -> c_noise c = OneNoise n -> In x (c_X c) ->
  logexp zeta None (seen c) x = NegInf /\ nonlinear zeta None (seen c) x = NegInf.
Proof.
  intros (F1 & F2 & F3 & _) E En Hx. unfold MLie.solved in E. rewrite En in *. cbn [levels] in *.
  apply In_nth_error in Hx as [i Hi].
  assert (i < length (c_X c))%nat as Hl by (apply nth_error_Some; congruence).
  assert (nth_error (repeat n (length (c_X c))) i = Some n) as Hr by (apply nth_error_repeat; auto).
  assert (noise_used None (seen c) = n) as Eu by (cbn; rewrite En; reflexivity).
  assert (0 <= n) as Hn by (apply F3; eapply nth_error_In; eauto).
  assert (std (seen c) x <= noise_used None (seen c)) as H; [|assert (0 <= noise_used None (seen c)) as Hu by (rewrite Eu; auto);
    split; apply (acq_none zeta None c x Hu); exact H].
  rewrite Eu. cbn [std MLie.seen of_regressor].
  apply (trained_std (c_X c) (repeat n (length (c_X c))) (c_y c) (c_g c) i x n); auto. split; auto.
Qed.

Lemma average_last ns : ns <> [] -> average (ns ++ [average ns]) = average ns.
Proof.
  intros H. set (a := average ns). unfold average at 1. rewrite app_length, plus_INR, fold_right_app. cbn [length fold_right INR].
  assert (forall l b, fold_right Rplus b l = fold_right Rplus 0 l + b) as A.
  { intros l b. induction l as [|t l IH]; cbn; [lra|rewrite IH; lra]. }
  rewrite A. assert (0 < INR (length ns)) as Hp by (apply lt_0_INR; destruct ns; [congruence|cbn; lia]).
  replace (fold_right Rplus 0 ns) with (a * INR (length ns)) by (unfold a, average; field; lra). field. lra.
Qed.
Lemma average_nonneg ns : (forall n, In n ns -> 0 <= n) -> 0 <= average ns.
Proof.
  intros H. unfold average, Rdiv. assert (0 <= fold_right Rplus 0 ns) as A.
  { induction ns as [|a ns IH]; cbn; [lra|]. specialize (H a (or_introl eq_refl)) as Ha. assert (0 <= fold_right Rplus 0 ns) by (apply IH; intros; apply H; right; auto). lra. }
  destruct ns as [|a ns]; [cbn; lra|]. apply Rmult_le_pos; auto. left. apply Rinv_0_lt_compat, lt_0_INR. cbn. lia.
Qed.
(** The noise level of the copy as the acquisition function uses it. *)
Definition level (N : noise) : R := match N with OneNoise n => n | Noises ns => average ns end.
Lemma level_used c : noise_used None (seen c) = level (c_noise c).
Proof. reflexivity. Qed.
Lemma level_nonneg c : fits c -> 0 <= level (c_noise c).
Proof.
  intros (_ & F2 & F3 & F4). destruct (c_noise c) as [n|ns]; cbn [level levels] in *; [|apply average_nonneg; auto].
  apply F3. destruct (c_X c); [congruence|]. left. reflexivity.
Qed.
Lemma lie_levels c x : levels (lie_noise (c_noise c)) (c_X c ++ [x]) = levels (c_noise c) (c_X c) ++ [level (c_noise c)].
Proof.
  destruct (c_noise c) as [n|ns]; cbn [levels lie_noise level]; [|reflexivity]. rewrite app_length, repeat_app. reflexivity.
Qed.
Lemma lie_level c : fits c -> level (lie_noise (c_noise c)) = level (c_noise c).
Proof.
  intros (_ & F2 & _ & F4). destruct (c_noise c) as [n|ns]; cbn [level lie_noise]; [reflexivity|]. apply average_last. cbn in F2.
  intros ->. destruct (c_X c); [congruence|discriminate].
Qed.
Lemma add_lie_parts c x c' : fits c -> add_lie c x = Some c' ->
  c_X c' = c_X c ++ [x] /\ c_y c' = c_y c ++ [predicted_mean (value K) prX m s clip (c_X c) (c_y c) (c_g c) x] /\
  c_noise c' = lie_noise (c_noise c) /\ fits c' /\ solved c'.
Proof.
  intros F E. unfold MLie.add_lie in E. destruct (model_of _ _ _ _ _ _ _) as [g|] eqn:Eg; [|discriminate]. injection E as <-.
  cbn [c_X c_y c_noise c_g]. split; [reflexivity|]. split; [reflexivity|]. split; [reflexivity|]. pose proof (level_nonneg c F) as Hl.
  destruct F as (F1 & F2 & F3 & F4). split; [|exact Eg].
  unfold fits. cbn [c_X c_y c_noise]. rewrite lie_levels, !app_length, F1, F2. repeat split; auto.
  - intros n Hin. apply in_app_or in Hin as [Hin|[<-|[]]]; auto.
  - intros E. destruct (c_X c); discriminate.
Qed.
Lemma lie_std c x c' z : fits c -> solved c -> add_lie c x = Some c' -> std (seen c') z <= std (seen c) z.
Proof.
  intros F E E'. destruct (add_lie_parts c x c' F E') as (EX & Ey & EN & F' & S'). destruct F as (F1 & F2 & F3 & F4).
  unfold MLie.solved, model_of in E, S'. cbn [std MLie.seen of_regressor]. unfold predicted_std.
  rewrite EN, EX, lie_levels, !map_app, Ey, map_app in S'. rewrite EX, map_app. apply Rmult_le_compat_l; [lra|].
  eapply C28_kernels; [| |exact E|exact S']; split; rewrite ?map_length; auto.
Qed.

(** After a lie: the acquisition function is -inf at that point; wherever it was -inf it still is. *)
Theorem C134_lie zeta c x c' : fits c -> solved c -> add_lie c x = Some c' ->
  (logexp zeta None (seen c') x = NegInf /\ nonlinear zeta None (seen c') x = NegInf) /\
  (forall z, logexp zeta None (seen c) z = NegInf -> logexp zeta None (seen c') z = NegInf) /\
  (forall z, nonlinear zeta None (seen c) z = NegInf -> nonlinear zeta None (seen c') z = NegInf).
Proof.
  intros F E E'. destruct (add_lie_parts c x c' F E') as (EX & Ey & EN & F' & S').
  pose proof (level_nonneg c F) as Hl. pose proof (lie_level c F) as El. rewrite <- EN in El.
  assert (0 <= noise_used None (seen c')) as Hu' by (rewrite level_used, El; auto).
  assert (0 <= noise_used None (seen c)) as Hu by (rewrite level_used; auto).
  assert (forall z, std (seen c) z <= noise_used None (seen c) -> std (seen c') z <= noise_used None (seen c')) as H.
  { intros z Hz. rewrite level_used, El. rewrite level_used in Hz. pose proof (lie_std c x c' z F E E'). lra. }
  assert (std (seen c') x <= noise_used None (seen c')) as Hx.
  { rewrite level_used, El. cbn [std MLie.seen of_regressor].
    apply (trained_std (c_X c') (levels (c_noise c') (c_X c')) (c_y c') (c_g c') (length (c_X c)) x); auto.
    - destruct F' as (? & ? & ?). split; auto.
    - rewrite EX, nth_error_app2, Nat.sub_diag by lia. reflexivity.
    - rewrite EN, EX, lie_levels. destruct F as (_ & F2 & _). rewrite nth_error_app2; rewrite F2; [|lia]. rewrite Nat.sub_diag. reflexivity. }
  split; [|split].
  - split; apply (acq_none zeta None c' x Hu'); exact Hx.
  - intros z Hz. apply (proj1 (acq_none zeta None c' z Hu')), H. apply (proj1 (acq_none zeta None c z Hu)). exact Hz.
  - intros z Hz. apply (proj2 (acq_none zeta None c' z Hu')), H. apply (proj2 (acq_none zeta None c z Hu)). exact Hz.
Qed.

(** Where predictions are not clipped (clipping affects predictions far above all training values). *)
Definition unclipped (c : copy) (z : list R) : Prop :=
  s * gp_mean (value K) (map prX (c_X c)) (c_g c) (prX z) + m <= clip * maximum (c_y c) - (clip - 1) * minimum (c_y c).
Lemma maximum_app l a : l <> [] -> maximum l <= maximum (l ++ [a]).
Proof. intros H. destruct l as [|b l]; [congruence|]. cbn [maximum app]. rewrite fold_left_app. apply Rmax_l. Qed.
Lemma minimum_app l a : l <> [] -> minimum (l ++ [a]) <= minimum l.
Proof. intros H. destruct l as [|b l]; [congruence|]. cbn [minimum app]. rewrite fold_left_app. apply Rmin_l. Qed.
Lemma lie_mean c x c' z : 1 <= clip -> fits c -> solved c -> add_lie c x = Some c' -> unclipped c x -> unclipped c z ->
  mean (seen c') z = mean (seen c) z /\ y_max (seen c) <= y_max (seen c').
Proof.
  intros Hc F E E' Ux Uz. destruct (add_lie_parts c x c' F E') as (EX & Ey & EN & F' & S'). destruct F as (F1 & F2 & F3 & F4).
  unfold MLie.solved, model_of in E, S'. unfold unclipped in *.
  assert (c_y c <> []) as Hy by (intros Hy; rewrite Hy in F1; destruct (c_X c); [congruence|discriminate]).
  pose proof (maximum_app (c_y c) (predicted_mean (value K) prX m s clip (c_X c) (c_y c) (c_g c) x) Hy) as Hmax.
  pose proof (minimum_app (c_y c) (predicted_mean (value K) prX m s clip (c_X c) (c_y c) (c_g c) x) Hy) as Hmin.
  cbn [y_max mean MLie.seen of_regressor]. rewrite Ey. split; [|exact Hmax].
  assert (gp_mean (value K) (map prX (c_X c')) (c_g c') (prX z) = gp_mean (value K) (map prX (c_X c)) (c_g c) (prX z)) as EM.
  { rewrite EN, EX, lie_levels, !map_app, Ey, map_app in S'. rewrite EX, map_app.
    apply (C96_kernels K (map prX (c_X c)) (map (fun n => (n / s) ^ 2) (levels (c_noise c) (c_X c))) (map (fun t => (t - m) / s) (c_y c)) (c_g c)
             (map prX [x]) (map (fun n => (n / s) ^ 2) [level (c_noise c)])).
    - split; rewrite !map_length; auto.
    - reflexivity.
    - exact E.
    - rewrite <- S'. f_equal. f_equal. cbn [map]. f_equal. unfold predicted_mean. rewrite Rmin_left by exact Ux. field. lra. }
  set (t := predicted_mean (value K) prX m s clip (c_X c) (c_y c) (c_g c) x) in *. clearbody t.
  f_equal. unfold predicted_mean. rewrite EM. rewrite (Rmin_left _ _ Uz). apply Rmin_left. nra.
Qed.
Lemma ln_sqrt_le a b : 0 < a -> a <= b -> ln (sqrt a) <= ln (sqrt b).
Proof.
  intros Ha H. pose proof (sqrt_lt_R0 a Ha). pose proof (sqrt_le_1_alt a b H) as [L|E]; [left; apply ln_increasing; auto|rewrite E; lra].
Qed.
(** Nowhere where predictions are not clipped does a lie raise the acquisition function. *)
Theorem C134_not_raised zeta c x c' z : 0 <= zeta -> 1 <= clip -> fits c -> solved c -> add_lie c x = Some c' -> unclipped c x -> unclipped c z ->
  at_most (logexp zeta None (seen c') z) (logexp zeta None (seen c) z) /\ at_most (nonlinear zeta None (seen c') z) (nonlinear zeta None (seen c) z).
Proof.
  intros Hz Hc F E E' Ux Uz. destruct (lie_mean c x c' z Hc F E E' Ux Uz) as [EM HM]. pose proof (lie_std c x c' z F E E') as HS.
  destruct (add_lie_parts c x c' F E') as (EX & Ey & EN & F' & S'). pose proof (level_nonneg c F) as Hl. pose proof (lie_level c F) as El. rewrite <- EN in El.
  pose proof (std_nonneg (c_X c') (c_g c') z) as H0. change (0 <= std (seen c') z) in H0.
  unfold logexp, nonlinear. rewrite !level_used, El, EM. destruct (mean (seen c) z) as [mu| | |]; cbn [at_most]; auto.
  set (n := level (c_noise c)) in *. destruct (gtb (std (seen c') z ^ 2 - n ^ 2) 0) eqn:G'.
  - apply gtb_true in G'. assert (std (seen c') z ^ 2 <= std (seen c) z ^ 2) as Hsq by (apply pow_incr; lra).
    assert (gtb (std (seen c) z ^ 2 - n ^ 2) 0 = true) as -> by (apply gtb_true; lra).
    unfold logexp_f, nonlinear_f. rewrite !Rmax_left by lra. cbn [at_most]. split.
    + pose proof (ln_sqrt_le (std (seen c') z ^ 2 - n ^ 2) (std (seen c) z ^ 2 - n ^ 2) G' ltac:(lra)). nra.
    + pose proof (sqrt_lt_R0 _ G') as P. pose proof (sqrt_le_1_alt (std (seen c') z ^ 2 - n ^ 2) (std (seen c) z ^ 2 - n ^ 2) ltac:(lra)) as Q.
      rewrite !safe_is by lra.
      assert (ln (exp (sqrt (std (seen c') z ^ 2 - n ^ 2)) - 1) <= ln (exp (sqrt (std (seen c) z ^ 2 - n ^ 2)) - 1)) as L.
      { pose proof (exp_gt _ P). destruct Q as [Q|Q]; [|rewrite Q; lra]. left. apply ln_increasing; [lra|]. apply exp_increasing in Q. lra. }
      nra.
  - destruct (gtb (std (seen c) z ^ 2 - n ^ 2) 0); split; exact I.
Qed.

(** A batch: every point has a finite acquisition value given the lies at the points before it (for the last one no lie is needed). *)
Inductive batch (f : surrogate -> list R -> ext) : copy -> list (list R) -> Prop :=
| batch_none c : batch f c []
| batch_last c x v : f (seen c) x = Real v -> batch f c [x]
| batch_more c x v c' xs : f (seen c) x = Real v -> add_lie c x = Some c' -> batch f c' xs -> batch f c (x :: xs).
Theorem C134_batch zeta f c xs : f = logexp zeta None \/ f = nonlinear zeta None -> fits c -> solved c -> batch f c xs ->
  NoDup xs /\ forall n, c_noise c = OneNoise n -> forall x, In x xs -> ~ In x (c_X c).
Proof.
  intros Hf.
  assert (forall c x c', fits c -> solved c -> add_lie c x = Some c' -> fits c' /\ solved c' /\ f (seen c') x = NegInf /\ forall z, f (seen c) z = NegInf -> f (seen c') z = NegInf) as L.
  { intros c0 x c' F E E'. destruct (add_lie_parts c0 x c' F E') as (_ & _ & _ & F' & S'). destruct (C134_lie zeta c0 x c' F E E') as ((A1 & A2) & B1 & B2).
    destruct Hf as [Ef|Ef]; rewrite Ef; auto. }
  assert (forall c xs, fits c -> solved c -> batch f c xs -> forall z, f (seen c) z = NegInf -> ~ In z xs) as A.
  { intros c0 xs0 F E B. revert F E. induction B as [c0|c0 x v Ex|c0 x v c' xs0 Ex E' B IH]; intros F E z Hz Hin; [destruct Hin| |].
    - destruct Hin as [Hi|[]]. subst. congruence.
    - destruct (L c0 x c' F E E') as (F' & S' & _ & H). destruct Hin as [Hi|Hin]; [subst; congruence|]. apply (IH F' S' z); auto. }
  intros F E B. split.
  - clear - A L F E B. revert F E. induction B as [c|c x v Ex|c x v c' xs Ex E' B IH]; intros F E; [constructor|constructor; [auto|constructor]|].
    destruct (L c x c' F E E') as (F' & S' & H & _). constructor; auto. apply (A c' xs F' S' B). exact H.
  - intros n En x Hx Hin. destruct (C134_trained zeta c n x F E En Hin) as [H1 H2]. apply (A c xs F E B x); auto. destruct Hf as [Ef|Ef]; rewrite Ef; auto.
Qed.

(** With individual noise levels: -inf at the training points whose noise is at most the average. *)
Theorem C134_individual zeta c ns i x n : fits c -> solved c -> c_noise c = Noises ns -> nth_error (c_X c) i = Some x -> nth_error ns i = Some n ->
  n <= average ns -> logexp zeta None (seen c) x = NegInf /\ nonlinear zeta None (seen c) x = NegInf.
Proof.
  intros F E En Hx Hi Hle. pose proof (level_nonneg c F) as Hl. rewrite En in Hl. cbn [level] in Hl. destruct F as (F1 & F2 & F3 & _). rewrite En in *. cbn [levels] in *.
  assert (noise_used None (seen c) = average ns) as Eu by (rewrite level_used, En; reflexivity).
  assert (0 <= n) as Hn by (apply F3; eapply nth_error_In; eauto).
  assert (0 <= noise_used None (seen c)) as Hu by (rewrite Eu; auto). unfold MLie.solved in E. rewrite En in E. cbn [levels] in E.
  assert (std (seen c) x <= noise_used None (seen c)) as H; [|split; apply (acq_none zeta None c x Hu); exact H].
  rewrite Eu. apply Rle_trans with n; auto. cbn [std MLie.seen of_regressor].
  apply (trained_std (c_X c) ns (c_y c) (c_g c) i x n); auto. split; auto.
Qed.

(** NORA's pool: conditioning on further points never raises the acquisition value of a candidate, and makes it -inf at the points of the pool and of the training set. *)
Notation cond_std := (cond_std K lows widths m s).
Theorem C134_pool zeta n b mu X y C yC D yD x sd sd' : 0 <= n -> length y = length X -> length yC = length C -> length yD = length D ->
  cond_std n X y C yC x = Some sd -> cond_std n X y (C ++ D) (yC ++ yD) x = Some sd' -> at_most (pool_acq zeta n b mu sd') (pool_acq zeta n b mu sd).
Proof.
  intros Hn H1 H2 H3 E E'. unfold MLie.cond_std in *. destruct (model_of _ _ _ _ (X ++ C) _ _) as [g|] eqn:Eg; [|discriminate].
  destruct (model_of _ _ _ _ (X ++ C ++ D) _ _) as [g'|] eqn:Eg'; [|discriminate]. injection E as <-. injection E' as <-.
  set (sd := predicted_std _ _ _ (X ++ C) _ _). set (sd' := predicted_std _ _ _ _ _ _).
  assert (sd' <= sd) as H.
  { unfold sd, sd', predicted_std. apply Rmult_le_compat_l; [lra|]. unfold model_of in *.
    rewrite !app_assoc, (app_length (X ++ C)), repeat_app, !map_app in Eg'. rewrite !map_app in Eg. rewrite app_assoc, !map_app.
    eapply C28_kernels; [| |exact Eg|exact Eg']; split; rewrite ?app_length, ?map_length, ?repeat_length, ?app_length; lia. }
  assert (0 <= sd') as H0 by apply std_nonneg.
  unfold pool_acq. destruct (gtb (sd' ^ 2 - n ^ 2) 0) eqn:G'.
  - apply gtb_true in G'. assert (sd' ^ 2 <= sd ^ 2) as Hsq by (apply pow_incr; lra).
    assert (gtb (sd ^ 2 - n ^ 2) 0 = true) as -> by (apply gtb_true; lra). unfold logexp_f. rewrite !Rmax_left by lra. cbn [at_most].
    pose proof (ln_sqrt_le (sd' ^ 2 - n ^ 2) (sd ^ 2 - n ^ 2) G' ltac:(lra)). lra.
  - destruct (gtb (sd ^ 2 - n ^ 2) 0); exact I.
Qed.
Theorem C134_pool_once zeta n b mu X y C yC x sd : 0 <= n -> length y = length X -> length yC = length C -> In x (X ++ C) ->
  cond_std n X y C yC x = Some sd -> pool_acq zeta n b mu sd = NegInf.
Proof.
  intros Hn H1 H2 Hin E. unfold MLie.cond_std in *. destruct (model_of _ _ _ _ (X ++ C) _ _) as [g|] eqn:Eg; [|discriminate]. injection E as <-.
  apply In_nth_error in Hin as [i Hi]. assert (i < length (X ++ C))%nat as Hl by (apply nth_error_Some; congruence).
  assert (predicted_std (value K) prX s (X ++ C) g x <= n) as H.
  { eapply (trained_std (X ++ C) (repeat n (length (X ++ C))) (y ++ yC) g i x n); auto; [|apply nth_error_repeat; auto].
    split; rewrite ?repeat_length, ?app_length; lia. }
  pose proof (std_nonneg (X ++ C) g x) as H0. unfold pool_acq. destruct (gtb _ 0) eqn:G; auto. apply gtb_true in G. nra.
Qed.
End T.

(** Refuted with individual noise levels: the linear kernel, values at 1 with noise 1 and at 0 with noise 1/10. The acquisition function is finite at
    the training point 1, and after a lie there (whose noise is the average) it is -inf. *)
Definition noisy_X : list (list R) := (1 :: nil) :: (0 :: nil) :: nil.
Definition noisy (g : gp) : copy := mkCopy noisy_X (0 :: 0 :: nil) (Noises (1 :: / 10 :: nil)) g.
Lemma normalise_1 a : normalise (0 :: nil) (1 :: nil) (a :: nil) = a :: nil.
Proof. unfold normalise. cbn. f_equal. field. Qed.
Lemma noisy_solved : exists g, solved (DotProduct 0) (0 :: nil) (1 :: nil) 0 1 (noisy g).
Proof.
  destruct (C98_surrogate_exists 1 (DotProduct 0)) with (X := noisy_X) (noise := 1 ^ 2 :: (/ 10) ^ 2 :: nil) (y := 0 :: 0 :: nil) as (g & E & _).
  - constructor.
  - split; reflexivity.
  - repeat constructor.
  - intros n [<-|[<-|[]]]; lra.
  - exists g. unfold MLie.solved, model_of. cbn [noisy c_X c_y c_noise c_g levels noisy_X map]. rewrite !normalise_1.
    replace (1 / 1) with 1 by field. replace (/ 10 / 1) with (/ 10) by field. replace ((0 - 0) / 1) with 0 by field. exact E.
Qed.
Theorem C134_individual_refuted : exists K c x, fits c /\ solved K (0 :: nil) (1 :: nil) 0 1 c /\ In x (c_X c) /\
  forall zeta, exists v, logexp zeta None (seen K (0 :: nil) (1 :: nil) 0 1 (11 / 10) c) x = Real v.
Proof.
  destruct noisy_solved as [g E]. exists (DotProduct 0), (noisy g), (1 :: nil). split; [|split; [exact E|split; [left; reflexivity|]]].
  - unfold fits. cbn. repeat split; [|discriminate]. intros n [<-|[<-|[]]]; lra.
  - intros zeta. set (gp := seen _ _ _ _ _ _ _). assert (0 <= std gp (1 :: nil)) as H0 by (apply std_nonneg; lra).
    assert (noise_used None gp = 55 / 100) as En by (unfold gp; rewrite level_used; cbn [noisy c_noise level]; unfold average; cbn [length fold_right INR]; lra).
    assert (noise_used None gp < std gp (1 :: nil)) as H.
    { rewrite En. cbn [gp MLie.seen of_regressor std noisy c_X c_y c_noise c_g]. unfold predicted_std. unfold MLie.solved, model_of in E.
      cbn [noisy c_X c_y c_noise c_g levels] in E. unfold noisy_X in *. cbn [map] in *. rewrite !normalise_1 in *.
      replace (1 / 1) with 1 in E by field. replace (/ 10 / 1) with (/ 10) in E by field. replace ((0 - 0) / 1) with 0 in E by field.
      assert (sizes ((1 :: nil) :: (0 :: nil) :: nil) (1 ^ 2 :: (/ 10) ^ 2 :: nil) (0 :: 0 :: nil)) as Hz by (split; reflexivity).
      destruct (C28_best_predictor (value (DotProduct 0)) (value_symmetric _) _ _ _ g (1 :: nil) Hz E) as (_ & w & Hw & Ev & _).
      destruct w as [|w1 [|w2 [|w3 w]]]; try discriminate Hw. unfold gp_std. rewrite Ev.
      rewrite Rmult_1_l. unfold error, quad, total. cbn [combine map fst snd fold_right value inner].
      match goal with |- _ < sqrt (if Rlt_dec ?e 0 then _ else _) => assert (e = / 2 + 2 * (w1 - / 2) ^ 2 + (w2 / 10) ^ 2) as -> by field end.
      pose proof (pow2_ge_0 (w1 - / 2)). pose proof (pow2_ge_0 (w2 / 10)). destruct (Rlt_dec _ 0) as [Hlt|Hge]; [exfalso; lra|].
      rewrite <- (sqrt_pow2 (55 / 100)) by lra. apply sqrt_lt_1_alt. split; lra. }
    unfold logexp. cbn [gp MLie.seen of_regressor mean]. fold gp.
    assert (gtb (std gp (1 :: nil) ^ 2 - noise_used None gp ^ 2) 0 = true) as G by (apply gtb_true; rewrite En in *; nra).
    change (exists v, (if gtb (std gp (1 :: nil) ^ 2 - noise_used None gp ^ 2) 0 then Real (logexp_f (predicted_mean (value (DotProduct 0)) (normalise (0 :: nil) (1 :: nil)) 0 1 (11 / 10) (c_X (noisy g)) (c_y (noisy g)) (c_g (noisy g)) (1 :: nil)) (std gp (1 :: nil)) (y_max gp) (noise_used None gp) zeta) else NegInf) = Real v).
    rewrite G. eauto.
Qed.

(** A batch of two points, with lies that are not clipped: the linear kernel, the value 0 at 1 with noise 1. *)
Definition one_X : list (list R) := (1 :: nil) :: nil.
Definition one_copy (g : gp) : copy := mkCopy one_X (0 :: nil) (OneNoise 1) g.
Lemma linear_finite c x e : fits c -> Forall (fun z => length z = 1%nat) (c_X c) ->
  solved (DotProduct 0) (0 :: nil) (1 :: nil) 0 1 c -> c_noise c = OneNoise 1 -> map (normalise (0 :: nil) (1 :: nil)) (c_X c) = c_X c ->
  (forall w, length w = length (c_X c) -> e <= error (value (DotProduct 0)) (combine (c_X c) (repeat 1 (length (c_X c)))) (x :: nil) w) -> 1 < e ->
  exists v, logexp 1 None (seen (DotProduct 0) (0 :: nil) (1 :: nil) 0 1 (11 / 10) c) (x :: nil) = Real v.
Proof.
  intros F Hd E En EX He H1. unfold MLie.solved, model_of in E. rewrite EX, En in E. cbn [levels] in E.
  assert (map (fun n => (n / 1) ^ 2) (repeat 1 (length (c_X c))) = repeat 1 (length (c_X c))) as El.
  { generalize (length (c_X c)) as k. induction k as [|k IH]; cbn [repeat map]; [reflexivity|]. rewrite IH. f_equal. field. }
  rewrite El in E. set (gp := seen _ _ _ _ _ _ _).
  assert (1 < std gp (x :: nil)) as H.
  { cbn [gp MLie.seen of_regressor std]. unfold predicted_std. rewrite EX, normalise_1, Rmult_1_l.
    destruct F as (F1 & F2 & _). rewrite En in F2. cbn [levels] in F2.
    destruct (C28_best_predictor (value (DotProduct 0)) (value_symmetric _) _ _ _ (c_g c) (x :: nil) (conj (eq_sym F2) (eq_trans (map_length _ _) F1)) E) as (_ & w & Hw & Ev & _).
    specialize (He w Hw). rewrite <- Ev in He. unfold gp_std. destruct (Rlt_dec _ 0) as [Hlt|_]; [lra|].
    rewrite <- sqrt_1 at 1. apply sqrt_lt_1_alt. lra. }
  assert (noise_used None gp = 1) as Eu by (unfold gp; rewrite level_used, En; reflexivity).
  unfold logexp. rewrite Eu. destruct (mean gp (x :: nil)) eqn:Em; try discriminate Em.
  assert (gtb (std gp (x :: nil) ^ 2 - 1 ^ 2) 0 = true) as -> by (apply gtb_true; nra). eauto.
Qed.
Example C134_case : exists c c', c_X c = one_X /\ fits c /\ solved (DotProduct 0) (0 :: nil) (1 :: nil) 0 1 c /\
  unclipped (DotProduct 0) (0 :: nil) (1 :: nil) 0 1 (11 / 10) c (3 :: nil) /\ unclipped (DotProduct 0) (0 :: nil) (1 :: nil) 0 1 (11 / 10) c (5 :: nil) /\
  add_lie (DotProduct 0) (0 :: nil) (1 :: nil) 0 1 (11 / 10) c (3 :: nil) = Some c' /\
  batch (DotProduct 0) (0 :: nil) (1 :: nil) 0 1 (11 / 10) (logexp 1 None) c ((3 :: nil) :: (5 :: nil) :: nil).
Proof.
  destruct (C98_surrogate_exists 1 (DotProduct 0)) with (X := one_X) (noise := 1 :: nil) (y := 0 :: nil) as (g & E & _).
  1: constructor. 1: split; reflexivity. 1: repeat constructor. 1: intros n [<-|[]]; lra.
  assert (solved (DotProduct 0) (0 :: nil) (1 :: nil) 0 1 (one_copy g)) as Hsol.
  { unfold MLie.solved, model_of. cbn [one_copy c_X c_y c_noise c_g levels one_X map length repeat]. rewrite !normalise_1.
    replace ((1 / 1) ^ 2) with 1 by field. replace ((0 - 0) / 1) with 0 by field. exact E. }
  assert (fits (one_copy g)) as F by (unfold fits; cbn; repeat split; [intros n [<-|[]]; lra|discriminate]).
  set (t := predicted_mean (value (DotProduct 0)) (normalise (0 :: nil) (1 :: nil)) 0 1 (11 / 10) one_X (0 :: nil) g (3 :: nil)).
  destruct (C98_surrogate_exists 1 (DotProduct 0)) with (X := one_X ++ (3 :: nil) :: nil) (noise := 1 :: 1 :: nil) (y := 0 :: t :: nil) as (g' & E' & _).
  1: constructor. 1: split; reflexivity. 1: repeat constructor. 1: intros n [<-|[<-|[]]]; lra.
  set (c' := mkCopy (one_X ++ (3 :: nil) :: nil) (0 :: t :: nil) (OneNoise 1) g').
  assert (add_lie (DotProduct 0) (0 :: nil) (1 :: nil) 0 1 (11 / 10) (one_copy g) (3 :: nil) = Some c') as El.
  { unfold MLie.add_lie, model_of. cbn [one_copy c_X c_y c_noise c_g lie_noise levels app one_X map length repeat]. fold one_X. fold t. rewrite !normalise_1.
    replace ((1 / 1) ^ 2) with 1 by field. replace ((0 - 0) / 1) with 0 by field. replace ((t - 0) / 1) with t by field.
    cbn [app one_X] in E'. rewrite E'. reflexivity. }
  destruct (add_lie_parts (DotProduct 0) (0 :: nil) (1 :: nil) 0 1 (11 / 10) (one_copy g) (3 :: nil) c' F El) as (_ & _ & _ & F' & S').
  assert (forall a, unclipped (DotProduct 0) (0 :: nil) (1 :: nil) 0 1 (11 / 10) (one_copy g) (a :: nil)) as U.
  { intros a. unfold unclipped. cbn [one_copy c_X c_y c_g one_X map maximum minimum fold_left]. rewrite !normalise_1. fold one_X.
    destruct (C28_best_predictor (value (DotProduct 0)) (value_symmetric _) _ _ _ g (a :: nil) (conj eq_refl eq_refl : sizes one_X (1 :: nil) (0 :: nil)) E) as (_ & w & _ & _ & Em).
    unfold one_X in *. rewrite Em. destruct w as [|w1 w]; cbn [dot]; [lra|]. destruct w; cbn [dot]; lra. }
  exists (one_copy g), c'. split; [reflexivity|]. split; [exact F|]. split; [exact Hsol|]. split; [apply U|]. split; [apply U|]. split; [exact El|].
  assert (exists v, logexp 1 None (seen (DotProduct 0) (0 :: nil) (1 :: nil) 0 1 (11 / 10) (one_copy g)) (3 :: nil) = Real v) as [v Ev].
  { apply (linear_finite (one_copy g) 3 (9 / 2)); auto; [repeat constructor|cbn [one_copy c_X one_X map]; rewrite normalise_1; reflexivity| |lra].
    intros w Hw. destruct w as [|w1 [|w2 w]]; try discriminate Hw. unfold error, quad, total. cbn [one_copy c_X one_X combine map fst snd fold_right value inner length repeat].
    match goal with |- _ <= ?e => assert (e = 9 / 2 + 2 * (w1 - 3 / 2) ^ 2) as -> by field end. pose proof (pow2_ge_0 (w1 - 3 / 2)). lra. }
  assert (exists v, logexp 1 None (seen (DotProduct 0) (0 :: nil) (1 :: nil) 0 1 (11 / 10) c') (5 :: nil) = Real v) as [v' Ev'].
  { apply (linear_finite c' 5 (25 / 11)); auto; [repeat constructor|cbn [c' app c_X one_X map]; rewrite !normalise_1; reflexivity| |lra].
    intros w Hw. destruct w as [|w1 [|w2 [|w3 w]]]; try discriminate Hw. unfold error, quad, total. cbn [c' app c_X one_X combine map fst snd fold_right value inner length repeat].
    match goal with |- _ <= ?e => assert (e = 25 / 11 + (w1 - 5 / 11 + 3 * (w2 - 15 / 11)) ^ 2 + (w1 - 5 / 11) ^ 2 + (w2 - 15 / 11) ^ 2) as -> by field end.
    pose proof (pow2_ge_0 (w1 - 5 / 11 + 3 * (w2 - 15 / 11))). pose proof (pow2_ge_0 (w1 - 5 / 11)). pose proof (pow2_ge_0 (w2 - 15 / 11)). lra. }
  eapply batch_more; [exact Ev|exact El|]. eapply batch_last. exact Ev'.
Qed.
Print Assumptions C134_trained.
Print Assumptions C134_lie.
Print Assumptions C134_not_raised.
Print Assumptions C134_batch.
Print Assumptions C134_individual.
Print Assumptions C134_pool.
Print Assumptions C134_pool_once.
Print Assumptions C134_individual_refuted.

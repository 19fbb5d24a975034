(** Properties C63, C64, C65, C74: acquisition functions. *)
From Coq Require Import Lra Lia.
From Verif Require Import MAcqFunc SAcqFunc PKernel TKernel.
Set Default Goal Selector "!". Set Bullet Behavior "Strict Subproofs".

Lemma gtb_true a b : gtb a b = true <-> b < a.
Proof. unfold gtb. destruct (Rlt_dec b a); split; intros; auto; discriminate. Qed.
Lemma gtb_false a b : gtb a b = false <-> a <= b.
Proof. unfold gtb. destruct (Rlt_dec b a); split; intros; auto; try discriminate; lra. Qed.
Lemma squares a b : 0 <= a -> 0 <= b -> (0 < a ^ 2 - b ^ 2 <-> b < a).
Proof. intros. split; intros; nra. Qed.

(** ** C63: the value of LogExp *)
Section C63.
Variables (zeta : R) (s : option R) (gp : surrogate) (x : list R).
Let n := noise_used s gp.
Let sd := std gp x.
Hypothesis Hsd : 0 <= sd.
Hypothesis Hn : 0 <= n.
(** -inf exactly where the mean is not finite or the standard deviation does not exceed the noise. *)
Theorem C63_minus_inf :
  logexp zeta s gp x = NegInf <-> ~ (exists mu, mean gp x = Real mu) \/ sd <= n.
Proof.
  unfold logexp. fold n sd. destruct (mean gp x) as [mu| | |] eqn:E.
  2-4: split; auto; intros _; left; intros [mu H]; discriminate.
  destruct (gtb _ _) eqn:G.
  - apply gtb_true in G. apply (squares sd n Hsd Hn) in G. split; [discriminate|]. intros [H|H]; [|lra]. destruct H. eauto.
  - apply gtb_false in G. split; auto. intros _. right. apply Rnot_lt_le. intros H. apply (squares sd n Hsd Hn) in H. lra.
Qed.
(** Anywhere else, the formula. *)
Theorem C63_value :
  forall mu, mean gp x = Real mu -> n < sd ->
    logexp zeta s gp x = Real (2 * zeta * (mu - y_max gp) + ln (sqrt (sd ^ 2 - n ^ 2))).
Proof.
  intros mu E H. unfold logexp. rewrite E. fold n sd. apply (squares sd n Hsd Hn) in H.
  rewrite (proj2 (gtb_true _ _) H). unfold logexp_f. rewrite Rmax_left by lra. reflexivity.
Qed.
End C63.
(** Strictly increasing in the mean and in the standard deviation, where it is not -inf. *)
Theorem C63_increasing :
  forall zeta s gp gp' x x' mu mu' v v',
    0 < zeta -> 0 <= noise_used s gp -> noise_used s gp' = noise_used s gp -> y_max gp' = y_max gp ->
    mean gp x = Real mu -> mean gp' x' = Real mu' -> noise_used s gp < std gp x ->
    mu <= mu' -> std gp x <= std gp' x' -> mu < mu' \/ std gp x < std gp' x' ->
    logexp zeta s gp x = Real v -> logexp zeta s gp' x' = Real v' -> v < v'.
Proof.
  intros zeta s gp gp' x x' mu mu' v v' Hz Hn En Ey Em Em' Hs Hmu Hsd Hlt Hv Hv'.
  assert (0 <= std gp x) as P1 by lra. assert (0 <= std gp' x') as P2 by lra.
  assert (0 <= noise_used s gp') as P3 by lra. assert (noise_used s gp' < std gp' x') as P4 by lra.
  rewrite (C63_value zeta s gp x P1 Hn _ Em Hs) in Hv.
  rewrite (C63_value zeta s gp' x' P2 P3 _ Em' P4) in Hv'.
  assert (forall a b, Real a = Real b -> a = b) as RI by congruence. apply RI in Hv. apply RI in Hv'.
  rewrite <- Hv, <- Hv', En, Ey. clear Hv Hv'.
  set (n := noise_used s gp) in *. set (a := std gp x) in *. set (b := std gp' x') in *.
  assert (0 < a ^ 2 - n ^ 2) as Ha by nra.
  assert (zeta * (mu - y_max gp) <= zeta * (mu' - y_max gp)) by nra.
  assert (ln (sqrt (a ^ 2 - n ^ 2)) <= ln (sqrt (b ^ 2 - n ^ 2))).
  { destruct Hsd as [Hsd| ->]; [|lra]. left. apply ln_increasing; [apply sqrt_lt_R0; auto|]. apply sqrt_lt_1; nra. }
  rewrite !Rmult_assoc. destruct Hlt as [H1|H1].
  - assert (zeta * (mu - y_max gp) < zeta * (mu' - y_max gp)); [|lra]. apply Rmult_lt_compat_l; [exact Hz|]. lra.
  - assert (ln (sqrt (a ^ 2 - n ^ 2)) < ln (sqrt (b ^ 2 - n ^ 2))).
    { apply ln_increasing; [apply sqrt_lt_R0; auto|]. apply sqrt_lt_1; nra. }
    lra.
Qed.
(** The automatic [zeta]: in (0, 1], and smaller in more dimensions. *)
Theorem C63_auto_zeta :
  forall d d' scaling z z', 1 <= d -> d < d' -> 0 < scaling ->
    logexp_zeta None (Some d) scaling = Some z -> logexp_zeta None (Some d') scaling = Some z' ->
    0 < z' /\ z' < z /\ z <= 1.
Proof.
  intros d d' scaling z z' H1 H2 Hs E E'. injection E as <-. injection E' as <-. unfold auto_zeta, Rpower.
  assert (0 <= ln d). { rewrite <- ln_1. destruct H1 as [H1| <-]; [left; apply ln_increasing; lra|lra]. }
  assert (ln d < ln d') by (apply ln_increasing; lra).
  split; [apply exp_pos|]. split; [apply exp_increasing; nra|].
  rewrite <- exp_0. assert (- scaling * ln d <= 0) as [H3|H3] by nra; [left; apply exp_increasing; auto|rewrite H3; lra].
Qed.
(** A surrogate for the examples: in one dimension, mean and standard deviation are the location. *)
Definition line (n : R) : surrogate :=
  {| mean := fun x => Real (nth 0 x 0); std := fun x => nth 0 x 0; mean_grad := fun _ => 1 :: nil;
     std_grad := fun _ => 1 :: nil; noise_level := OneNoise n; y_max := 0; two_axes := true |}.
Example C63_example :
  logexp 1 None (line 3) (5 :: nil) = Real (10 + ln 4) /\ logexp 1 None (line 3) (2 :: nil) = NegInf.
Proof.
  split.
  - rewrite (C63_value 1 None (line 3) (5 :: nil)) with (mu := 5); cbn; try lra; auto.
    f_equal. replace (5 * (5 * 1) - 3 * (3 * 1)) with (4 * 4) by ring. rewrite sqrt_square by lra. ring.
  - apply C63_minus_inf; cbn; lra.
Qed.

(** ** Gradients *)
Lemma has_gradient_length f x row : has_gradient f x row -> length row = length x.
Proof. intros (h & _ & _ & H). apply H. Qed.
(** The value around a point is that of the function with the gradient. *)
Lemma has_gradient_intro f h x row :
  f x = Some (h x) ->
  (forall i, (i < length x)%nat -> locally (nth i x 0) (fun t => f (replace_coord i t x) = Some (h (replace_coord i t x)))) ->
  gradient h x row -> has_gradient f x row.
Proof. intros. exists h. auto. Qed.
(** A function has one gradient. *)
Lemma has_gradient_unique f x row row' : has_gradient f x row -> has_gradient f x row' -> row = row'.
Proof.
  intros (h & E & L & G1 & G2) (h' & E' & L' & G1' & G2').
  apply (nth_ext _ _ 0 0); [lia|]. intros i Hi. rewrite G1 in Hi.
  assert (partial h x i (nth i row' 0)) as P.
  { eapply (is_derive_ext_loc (fun t => h' (replace_coord i t x))); [|apply G2'; exact Hi].
    specialize (L i Hi). specialize (L' i Hi). generalize (filter_and _ _ L L'). apply filter_imp.
    intros t [Ha Hb]. congruence. }
  specialize (G2 i Hi). unfold partial in *.
  rewrite <- (is_derive_unique _ _ _ G2). apply is_derive_unique. exact P.
Qed.
(** Chain rules in one and two arguments. *)
Lemma has_gradient_map (phi : R -> R) f x row v dv : f x = Some v -> has_gradient f x row -> is_derive phi v dv ->
  has_gradient (fun z => option_map phi (f z)) x (map (fun g => g * dv) row).
Proof.
  intros Ev (h & E & L & G1 & G2) D. assert (h x = v) as Hv by congruence.
  apply (has_gradient_intro _ (fun z => phi (h z))).
  - rewrite E. reflexivity.
  - intros i Hi. generalize (L i Hi). apply filter_imp. intros t ->. reflexivity.
  - split; [rewrite map_length; auto|]. intros i Hi. unfold partial. rewrite map_nth0 by lia. evar_last.
    + apply (is_derive_comp phi (fun t => h (replace_coord i t x))); [|apply G2; exact Hi].
      rewrite replace_same, Hv by lia. exact D.
    + reflexivity.
Qed.
Lemma has_gradient_sum f g x r1 r2 : has_gradient f x r1 -> has_gradient g x r2 ->
  has_gradient (fun z => two Rplus (f z) (g z)) x (row2 Rplus r1 r2).
Proof.
  intros (h & E & L & G1 & G2) (h' & E' & L' & G1' & G2').
  apply (has_gradient_intro _ (fun z => h z + h' z)).
  - rewrite E, E'. reflexivity.
  - intros i Hi. generalize (filter_and _ _ (L i Hi) (L' i Hi)). apply filter_imp. intros t [-> ->]. reflexivity.
  - split; [rewrite row2_length; lia|]. intros i Hi. unfold partial. rewrite row2_nth by lia.
    apply @is_derive_plus; [apply G2|apply G2']; exact Hi.
Qed.
Lemma has_gradient_product f g x r1 r2 v1 v2 : f x = Some v1 -> g x = Some v2 -> has_gradient f x r1 -> has_gradient g x r2 ->
  has_gradient (fun z => two Rmult (f z) (g z)) x (row2 (fun g1 g2 => g1 * v2 + g2 * v1) r1 r2).
Proof.
  intros E1 E2 (h & E & L & G1 & G2) (h' & E' & L' & G1' & G2').
  assert (h x = v1) as Hv1 by congruence. assert (h' x = v2) as Hv2 by congruence.
  apply (has_gradient_intro _ (fun z => h z * h' z)).
  - rewrite E, E'. reflexivity.
  - intros i Hi. generalize (filter_and _ _ (L i Hi) (L' i Hi)). apply filter_imp. intros t [-> ->]. reflexivity.
  - split; [rewrite row2_length; lia|]. intros i Hi. unfold partial. rewrite row2_nth by lia. evar_last.
    + apply (is_derive_mult (fun t => h (replace_coord i t x)) (fun t => h' (replace_coord i t x))); [apply G2; exact Hi|apply G2'; exact Hi|].
      intros a b. apply Rmult_comm.
    + rewrite replace_same, Hv1, Hv2 by lia. unfold plus, mult; simpl. ring.
Qed.

(** ** C65: composite acquisition functions *)
(** The operands give correct gradients at [x] (if they give one), and powers are of numbers for which the
    power is differentiable: natural exponents, or positive numbers. *)
Fixpoint operands_ok (gp : surrogate) (x : list R) (k : acq) : Prop :=
  match k with
  | ConstantAcqFunc _ => True
  | ASum k1 k2 | AProduct k1 k2 => operands_ok gp x k1 /\ operands_ok gp x k2
  | APower k e =>
      operands_ok gp x k /\
      match e with Nat n => n <> 0%nat | MKernel.Real _ => forall v, avalue gp k x = Some v -> 0 < v end
  | leaf => forall row, agrad gp leaf x = Some row -> has_gradient (avalue gp leaf) x row
  end.
Theorem C65_composite :
  forall gp x k row, operands_ok gp x k -> agrad gp k x = Some row -> has_gradient (avalue gp k) x row.
Proof.
  intros gp x. induction k as [c| | | | | | | |k1 IH1 k2 IH2|k1 IH1 k2 IH2|k IH e]; intros row Hok Hg;
    try (apply Hok; exact Hg).
  - injection Hg as <-. apply (has_gradient_intro _ (fun _ => c)).
    + reflexivity.
    + intros i Hi. apply filter_forall. reflexivity.
    + split; [rewrite map_length; auto|]. intros i Hi. unfold partial. rewrite nth_zero. apply @is_derive_const.
  - destruct Hok as [O1 O2]. cbn [agrad] in Hg.
    destruct (agrad gp k1 x) as [r1|]; [|discriminate]. destruct (agrad gp k2 x) as [r2|]; [|discriminate].
    injection Hg as <-. apply (has_gradient_sum (avalue gp k1) (avalue gp k2)); auto.
  - destruct Hok as [O1 O2]. cbn [agrad] in Hg.
    destruct (avalue gp k1 x) as [v1|] eqn:E1; [|discriminate]. destruct (avalue gp k2 x) as [v2|] eqn:E2; [|discriminate].
    destruct (agrad gp k1 x) as [r1|]; [|discriminate]. destruct (agrad gp k2 x) as [r2|]; [|discriminate].
    injection Hg as <-. apply (has_gradient_product (avalue gp k1) (avalue gp k2)); auto.
  - destruct Hok as [O1 He]. cbn [agrad] in Hg.
    destruct (avalue gp k x) as [v|] eqn:E1; [|discriminate]. destruct (agrad gp k x) as [r|]; [|discriminate].
    injection Hg as <-.
    pose proof (npow_derive (fun u => u) v 1 e (is_derive_id v)) as D.
    assert (match e with Nat n => n <> 0%nat | MKernel.Real _ => 0 < v end) as He' by (destruct e; auto).
    specialize (D He'). pose proof (has_gradient_map (fun u => npow u e) _ x r v _ E1 (IH _ O1 eq_refl) D) as H.
    replace (map _ r) with (map (fun g => g * match e with
      | Nat n => INR n * v ^ (n - 1) * 1 | MKernel.Real r0 => r0 * Rpower v (r0 - 1) * 1 end) r); [exact H|].
    apply map_ext. intros g. destruct e; ring.
Qed.
(** A gradient is returned if every operand has a value and a gradient. *)
Fixpoint operands_defined (gp : surrogate) (x : list R) (k : acq) : Prop :=
  match k with
  | ASum k1 k2 | AProduct k1 k2 => operands_defined gp x k1 /\ operands_defined gp x k2
  | APower k _ => operands_defined gp x k
  | leaf => (exists v, avalue gp leaf x = Some v) /\ exists row, agrad gp leaf x = Some row
  end.
Theorem C65_exists :
  forall gp x k, operands_defined gp x k ->
    (exists v, avalue gp k x = Some v) /\ exists row, agrad gp k x = Some row.
Proof.
  intros gp x. induction k as [| | | | | | | |k1 IH1 k2 IH2|k1 IH1 k2 IH2|k IH e]; intros H; try exact H.
  - destruct H as [H1 H2]. destruct (IH1 H1) as [[v1 E1] [r1 G1]], (IH2 H2) as [[v2 E2] [r2 G2]].
    cbn [avalue agrad]. rewrite E1, E2, G1, G2. cbn. eauto.
  - destruct H as [H1 H2]. destruct (IH1 H1) as [[v1 E1] [r1 G1]], (IH2 H2) as [[v2 E2] [r2 G2]].
    cbn [avalue agrad]. rewrite E1, E2, G1, G2. cbn. eauto.
  - destruct (IH H) as [[v E] [r G]]. cbn [avalue agrad]. rewrite E, G. cbn. eauto.
Qed.

(** ** C74 and C64: the gradients of the built-in acquisition functions *)
(** The surrogate's gradients are right at [x]. *)
Definition smooth (gp : surrogate) (x : list R) : Prop :=
  has_gradient (fun z => number (mean gp z)) x (mean_grad gp x) /\ gradient (std gp) x (std_grad gp x).

Lemma std_has_gradient gp x : smooth gp x -> has_gradient (fun z => Some (std gp z)) x (std_grad gp x).
Proof.
  intros [_ H]. apply (has_gradient_intro _ (std gp)); auto. intros i Hi. apply filter_forall. reflexivity.
Qed.
Lemma around (h : list R -> R) x i v c : partial h x i v -> (i < length x)%nat -> c < h x ->
  locally (nth i x 0) (fun t => c < h (replace_coord i t x)).
Proof.
  intros D Hi Hc.
  assert (continuous (fun t => h (replace_coord i t x)) (nth i x 0)) as C by (apply (@ex_derive_continuous R_AbsRing R_NormedModule); exists v; exact D).
  apply (C (fun u => c < u)). apply open_gt. rewrite replace_same by lia. exact Hc.
Qed.
(** [Mu], [Std] and their exponentials. *)
Theorem C74_gradients :
  forall gp x a k, smooth gp x -> In k [Mu a; Std a; ExponentialMu a; ExponentialStd a] ->
    exists row, agrad gp k x = Some row /\ has_gradient (avalue gp k) x row.
Proof.
  intros gp x a k S Hk. pose proof (std_has_gradient gp x S) as SG. destruct S as [M _].
  destruct M as (h & E & HM). destruct (mean gp x) as [mu| | |] eqn:Em; try discriminate.
  assert (has_gradient (fun z => number (mean gp z)) x (mean_grad gp x)) as M.
  { exists h. split; [rewrite Em; exact E|exact HM]. }
  destruct Hk as [<-|[<-|[<-|[<-|[]]]]]; cbn [agrad avalue]; rewrite ?Em; eexists; (split; [reflexivity|]); auto.
  - replace (map _ (mean_grad gp x)) with (map (fun g => g * (a * exp (a * mu))) (mean_grad gp x)) by (apply map_ext; intros; ring).
    apply (has_gradient_map (fun m => exp (a * m)) (fun z => number (mean gp z)) x _ mu); auto.
    + rewrite Em. reflexivity.
    + auto_derive; auto. ring.
  - replace (map _ (std_grad gp x)) with (map (fun g => g * (a * exp (a * std gp x))) (std_grad gp x)) by (apply map_ext; intros; ring).
    apply (has_gradient_map (fun m => exp (a * m)) (fun z => Some (std gp z)) x _ (std gp x)); auto.
    auto_derive; auto. ring.
Qed.
(** The documentation of [Mu] and [Std] promises a factor [a]. *)
Theorem C74_factor_refuted :
  exists gp x a, smooth gp x /\ avalue gp (Mu a) x <> option_map (Rmult a) (number (mean gp x)) /\
    avalue gp (Std a) x <> Some (a * std gp x).
Proof.
  exists (line 0), (5 :: nil), 2. split; [|split; cbn; intros E; injection E; lra].
  assert (gradient (fun z => nth 0 z 0) (5 :: nil) (1 :: nil)) as G.
  { split; [reflexivity|]. intros [|i] Hi; [|simpl in Hi; lia]. unfold partial. cbn. apply @is_derive_id. }
  split; [|exact G]. apply (has_gradient_intro _ (fun z => nth 0 z 0)); auto. intros i Hi. apply filter_forall. reflexivity.
Qed.

(** *** Expected improvement *)
Lemma pdf_derive t : is_derive pdf t (- t * pdf t).
Proof. unfold pdf. pose proof (sqrt_lt_R0 (2 * PI)) as H. pose proof PI_RGT_0. auto_derive; auto. change (- (t * (t * 1)) * / 2) with (- t ^ 2 / 2). set (e := exp _). field. lra. Qed.
Lemma pdf_pos t : 0 < pdf t.
Proof.
  unfold pdf, Rdiv. apply Rmult_lt_0_compat; [apply exp_pos|]. apply Rinv_0_lt_compat, sqrt_lt_R0. pose proof PI_RGT_0. lra.
Qed.
Lemma pdf_continuous t : continuous pdf t.
Proof. apply (@ex_derive_continuous R_AbsRing R_NormedModule). eexists. apply pdf_derive. Qed.
Lemma cdf_derive t : is_derive cdf t (pdf t).
Proof.
  unfold cdf. evar_last.
  - apply @is_derive_plus; [apply @is_derive_const|].
    apply (is_derive_RInt pdf (fun b => RInt pdf 0 b) 0 t).
    + apply filter_forall. intros b. apply (@RInt_correct R_CompleteNormedModule). apply (@ex_RInt_continuous R_CompleteNormedModule pdf). intros z _. apply pdf_continuous.
    + apply pdf_continuous.
  - unfold plus, zero; simpl. ring.
Qed.
Lemma cdf_pos t : 0 <= t -> 0 < cdf t.
Proof.
  intros H. unfold cdf. assert (0 <= RInt pdf 0 t); [|lra]. apply RInt_ge_0; auto.
  - apply (@ex_RInt_continuous R_CompleteNormedModule pdf). intros z _. apply pdf_continuous.
  - intros z _. left. apply pdf_pos.
Qed.
Lemma ei_derive (m s : R -> R) y t m' s' : is_derive m t m' -> is_derive s t s' -> s t <> 0 ->
  is_derive (fun t => (m t - y) * cdf ((m t - y) / s t) + s t * pdf ((m t - y) / s t)) t
    (m' * cdf ((m t - y) / s t) + s' * pdf ((m t - y) / s t)).
Proof.
  intros Dm Ds Hs.
  assert (is_derive (fun t => m t - y) t m') as D0.
  { evar_last; [apply @is_derive_minus; [exact Dm|apply @is_derive_const]|]. unfold minus, plus, opp, zero; simpl. ring. }
  assert (is_derive (fun t => (m t - y) / s t) t ((m' * s t - (m t - y) * s') / s t ^ 2)) as D1.
  { apply (is_derive_div (fun t => m t - y) s); auto. }
  evar_last.
  - apply @is_derive_plus.
    + apply (is_derive_mult (fun t => m t - y) (fun t => cdf ((m t - y) / s t))); [exact D0| |intros; apply Rmult_comm].
      apply (is_derive_comp cdf (fun t => (m t - y) / s t)); [apply cdf_derive|exact D1].
    + apply (is_derive_mult s (fun t => pdf ((m t - y) / s t))); [exact Ds| |intros; apply Rmult_comm].
      apply (is_derive_comp pdf (fun t => (m t - y) / s t)); [apply pdf_derive|exact D1].
  - unfold plus, scal, mult; simpl; unfold mult; simpl. field. exact Hs.
Qed.
Lemma ei_true gp x xi mu : smooth gp x -> mean gp x = Real mu -> 0 < std gp x ->
  has_gradient (avalue gp (ExpectedImprovement xi)) x
    (row2 (fun mg sg => mg * cdf ((mu - y_max gp - xi) / std gp x) + sg * pdf ((mu - y_max gp - xi) / std gp x))
          (mean_grad gp x) (std_grad gp x)).
Proof.
  intros [(h & E & L & G1 & G2) [S1 S2]] Em Hs. rewrite Em in E. injection E as E.
  apply (has_gradient_intro _ (fun z => (h z - (y_max gp + xi)) * cdf ((h z - (y_max gp + xi)) / std gp z)
                                        + std gp z * pdf ((h z - (y_max gp + xi)) / std gp z))).
  - cbn [avalue]. rewrite Em. cbn [number option_map]. rewrite (proj2 (gtb_true _ _) Hs). cbv zeta. rewrite E.
    replace (h x - y_max gp - xi) with (h x - (y_max gp + xi)) by ring. reflexivity.
  - intros i Hi. generalize (filter_and _ _ (L i Hi) (around _ _ _ _ 0 (S2 i Hi) Hi Hs)). apply filter_imp.
    intros t [A B]. cbn [avalue]. rewrite A. cbn [option_map]. rewrite (proj2 (gtb_true _ _) B). cbv zeta.
    replace (h (replace_coord i t x) - y_max gp - xi) with (h (replace_coord i t x) - (y_max gp + xi)) by ring. reflexivity.
  - split; [rewrite row2_length; lia|]. intros i Hi. unfold partial. rewrite row2_nth by lia. evar_last.
    + apply (ei_derive (fun t => h (replace_coord i t x)) (fun t => std gp (replace_coord i t x))); [apply G2; exact Hi|apply S2; exact Hi|].
      rewrite replace_same by lia. lra.
    + rewrite replace_same, <- E by lia. replace (mu - (y_max gp + xi)) with (mu - y_max gp - xi) by ring. reflexivity.
Qed.
(** Where an improvement is predicted, the gradient of [ExpectedImprovement] is right exactly if the
    gradient of the mean is 0: its sign is wrong. *)
Theorem C74_improvement_refuted :
  forall gp x xi mu, smooth gp x -> mean gp x = Real mu -> 0 < std gp x -> 0 <= mu - y_max gp - xi ->
    exists row, agrad gp (ExpectedImprovement xi) x = Some row /\
      (has_gradient (avalue gp (ExpectedImprovement xi)) x row <->
       forall i, (i < length x)%nat -> nth i (mean_grad gp x) 0 = 0).
Proof.
  intros gp x xi mu S Em Hs Hi0. pose proof (ei_true gp x xi mu S Em Hs) as T. cbn [agrad]. rewrite Em. cbn [number option_map].
  rewrite (proj2 (gtb_true _ _) Hs). cbv zeta. eexists. split; [reflexivity|].
  set (sc := (mu - y_max gp - xi) / std gp x) in *.
  assert (0 < cdf sc) as Hc. { apply cdf_pos. apply Rmult_le_pos; auto. left. apply Rinv_0_lt_compat; auto. }
  destruct S as [M [S1 _]]. pose proof (has_gradient_length _ _ _ M) as ML.
  split.
  - intros H i Hi. pose proof (has_gradient_unique _ _ _ _ T H) as U.
    apply (f_equal (fun r => nth i r 0)) in U. rewrite !row2_nth in U by lia.
    assert (nth i (mean_grad gp x) 0 * cdf sc = 0) as Z by nra. apply Rmult_integral in Z. lra.
  - intros Z. replace (row2 _ _ _) with (row2 (fun mg sg => mg * cdf sc + sg * pdf sc) (mean_grad gp x) (std_grad gp x)); [exact T|].
    apply (nth_ext _ _ 0 0); [rewrite !row2_length; lia|]. intros i Hi. rewrite row2_length in Hi by lia.
    rewrite !row2_nth by lia. rewrite (Z i) by lia. ring.
Qed.

(** *** LogExp *)
Lemma ln_sqrt_derive v : 0 < v -> is_derive (fun v => ln (sqrt v)) v (/ (2 * v)).
Proof.
  intros H. pose proof (sqrt_lt_R0 v H). pose proof (sqrt_sqrt v (Rlt_le _ _ H)) as E. auto_derive; [auto|].
  rewrite <- E at 3. field. lra.
Qed.
Lemma logexp_derive (m s : R -> R) y n zeta t m' s' : is_derive m t m' -> is_derive s t s' -> 0 <= n < s t ->
  is_derive (fun t => 2 * zeta * (m t - y) + ln (sqrt (s t ^ 2 - n ^ 2))) t
    (s' * s t / (s t ^ 2 - n ^ 2) + 2 * zeta * m').
Proof.
  intros Dm Ds Hs. assert (0 < s t ^ 2 - n ^ 2) as Hp by nra.
  assert (is_derive (fun u => ln (sqrt (u ^ 2 - n ^ 2))) (s t) (s t / (s t ^ 2 - n ^ 2))) as D1.
  { evar_last.
    - apply (is_derive_comp (fun v => ln (sqrt v)) (fun u => u ^ 2 - n ^ 2) (s t)).
      + apply ln_sqrt_derive. exact Hp.
      + auto_derive; [exact I|reflexivity].
    - unfold scal; simpl; unfold mult; simpl. field. simpl in Hp. lra. }
  assert (is_derive (fun u => 2 * zeta * (u - y)) (m t) (2 * zeta)) as D2 by (auto_derive; auto; ring).
  evar_last.
  - apply @is_derive_plus; [apply (is_derive_comp (fun u => 2 * zeta * (u - y)) m); [exact D2|exact Dm]|].
    apply (is_derive_comp (fun u => ln (sqrt (u ^ 2 - n ^ 2))) s); [exact D1|exact Ds].
  - unfold plus, scal, mult; simpl; unfold mult; simpl. field. simpl in Hp. lra.
Qed.
Lemma logexp_true gp x zeta n mu : smooth gp x -> mean gp x = Real mu -> noise_level gp = OneNoise n -> 0 <= n < std gp x ->
  has_gradient (avalue gp (LogExp zeta None)) x
    (row2 (fun mg sg => sg * std gp x / (std gp x ^ 2 - n ^ 2) + 2 * zeta * mg) (mean_grad gp x) (std_grad gp x)).
Proof.
  intros [(h & E & L & G1 & G2) [S1 S2]] Em En Hs. rewrite Em in E. injection E as E.
  assert (noise_used None gp = n) as Nu by (unfold noise_used; rewrite En; reflexivity).
  apply (has_gradient_intro _ (fun z => 2 * zeta * (h z - y_max gp) + ln (sqrt (std gp z ^ 2 - n ^ 2)))).
  - cbn [avalue]. rewrite (C63_value zeta None gp x) with (mu := mu); rewrite ?Nu; try lra; auto. rewrite E. reflexivity.
  - intros i Hi. generalize (filter_and _ _ (L i Hi) (around _ _ _ _ n (S2 i Hi) Hi (proj2 Hs))). apply filter_imp.
    intros t [A B]. cbn [avalue].
    assert (mean gp (replace_coord i t x) = Real (h (replace_coord i t x))) as A'.
    { destruct (mean gp (replace_coord i t x)); try discriminate. injection A as ->. reflexivity. }
    rewrite (C63_value zeta None gp (replace_coord i t x)) with (mu := h (replace_coord i t x)); rewrite ?Nu; try lra; auto.
  - split; [rewrite row2_length; lia|]. intros i Hi. unfold partial. rewrite row2_nth by lia. evar_last.
    + apply (logexp_derive (fun t => h (replace_coord i t x)) (fun t => std gp (replace_coord i t x))); [apply G2; exact Hi|apply S2; exact Hi|].
      rewrite replace_same by lia. exact Hs.
    + rewrite replace_same by lia. reflexivity.
Qed.
Lemma logexp_row zeta (sd : R) n (sg mg : list R) : length sg = length mg ->
  map (fun p => fst (snd p) / (sd - fst p) + 2 * zeta * snd (snd p)) (combine (repeat n (length sg)) (combine sg mg)) =
  row2 (fun m s => s / (sd - n) + 2 * zeta * m) mg sg.
Proof.
  revert mg. unfold row2. induction sg as [|a sg IH]; intros [|b mg] H; simpl in *; try lia; auto. f_equal. apply IH. lia.
Qed.
(** Where LogExp is not -inf, the reported gradient is right exactly in the directions in which the
    noise level or the derivative of the standard deviation is 0. *)
Theorem C64_right_iff :
  forall gp x zeta n mu, smooth gp x -> mean gp x = Real mu -> noise_level gp = OneNoise n -> 0 <= n < std gp x ->
    exists row, agrad gp (LogExp zeta None) x = Some row /\
      (has_gradient (avalue gp (LogExp zeta None)) x row <->
       forall i, (i < length x)%nat -> n * nth i (std_grad gp x) 0 = 0).
Proof.
  intros gp x zeta n mu S Em En Hs. pose proof (logexp_true gp x zeta n mu S Em En Hs) as T.
  destruct S as [M [S1 _]]. pose proof (has_gradient_length _ _ _ M) as ML.
  assert (noise_used None gp = n) as Nu by (unfold noise_used; rewrite En; reflexivity).
  assert (0 < std gp x ^ 2 - n ^ 2) as Hp by nra.
  exists (row2 (fun m s => s / (std gp x - n) + 2 * zeta * m) (mean_grad gp x) (std_grad gp x)). split.
  - cbn [agrad]. unfold logexp_grad. rewrite En, Em, Nu. cbn [is_real andb]. rewrite (proj2 (gtb_true _ _) Hp).
    rewrite (proj2 (gtb_true _ _) (proj2 Hs)). rewrite logexp_row by lia. destruct (two_axes gp); reflexivity.
  - assert (forall s, s / (std gp x - n) - s * std gp x / (std gp x ^ 2 - n ^ 2) = n * s / (std gp x ^ 2 - n ^ 2)) as Id.
    { intros s. field. split; [lra|]. simpl in Hp. lra. }
    split.
    + intros H i Hi. pose proof (has_gradient_unique _ _ _ _ T H) as U.
      apply (f_equal (fun r => nth i r 0)) in U. rewrite !row2_nth in U by lia.
      pose proof (Id (nth i (std_grad gp x) 0)) as I0.
      assert (n * nth i (std_grad gp x) 0 / (std gp x ^ 2 - n ^ 2) = 0) as Z by lra.
      unfold Rdiv in Z. apply Rmult_integral in Z as [Z|Z]; auto. exfalso. revert Z. apply Rinv_neq_0_compat. lra.
    + intros Z. replace (row2 _ _ _) with (row2 (fun mg sg => sg * std gp x / (std gp x ^ 2 - n ^ 2) + 2 * zeta * mg) (mean_grad gp x) (std_grad gp x)); [exact T|].
      apply (nth_ext _ _ 0 0); [rewrite !row2_length; lia|]. intros i Hi. rewrite row2_length in Hi by lia.
      rewrite !row2_nth by lia. pose proof (Id (nth i (std_grad gp x) 0)) as I0. rewrite (Z i) in I0 by lia.
      unfold Rdiv in *. lra.
Qed.
(** Without noise it is the gradient. *)
Theorem C64_noiseless :
  forall gp x zeta mu, smooth gp x -> mean gp x = Real mu -> noise_level gp = OneNoise 0 -> 0 < std gp x ->
    exists row, agrad gp (LogExp zeta None) x = Some row /\ has_gradient (avalue gp (LogExp zeta None)) x row.
Proof.
  intros gp x zeta mu S Em En Hs. destruct (C64_right_iff gp x zeta 0 mu S Em En) as (row & E & H); [lra|].
  exists row. split; auto. apply H. intros. ring.
Qed.
Lemma line_smooth n v : smooth (line n) (v :: nil).
Proof.
  assert (gradient (fun z => nth 0 z 0) (v :: nil) (1 :: nil)) as G.
  { split; [reflexivity|]. intros [|i] Hi; [|simpl in Hi; lia]. unfold partial. cbn. apply @is_derive_id. }
  split; [|exact G]. apply (has_gradient_intro _ (fun z => nth 0 z 0)); auto. intros i Hi. apply filter_forall. reflexivity.
Qed.
Example C64_example :
  smooth (line 0) (5 :: nil) /\ agrad (line 0) (LogExp 1 None) (5 :: nil) = Some (1 / (5 - 0) + 2 * 1 * 1 :: nil) /\
  has_gradient (avalue (line 0) (LogExp 1 None)) (5 :: nil) (1 / (5 - 0) + 2 * 1 * 1 :: nil).
Proof.
  split; [apply line_smooth|]. destruct (C64_noiseless (line 0) (5 :: nil) 1 5) as (row & E & H); cbn [line mean std noise_level nth]; auto; try lra; [apply line_smooth|].
  assert (agrad (line 0) (LogExp 1 None) (5 :: nil) = Some (1 / (5 - 0) + 2 * 1 * 1 :: nil)) as E2.
  { cbn [agrad]. unfold logexp_grad, noise_used. cbn [line two_axes mean is_real andb std nth noise_level std_grad mean_grad length repeat combine map fst snd].
    rewrite (proj2 (gtb_true _ _)) by lra. reflexivity. }
  split; auto. rewrite E2 in E. injection E as <-. exact H.
Qed.
(** With noise it is not. *)
Theorem C64_noise_refuted :
  exists gp x zeta row, smooth gp x /\ agrad gp (LogExp zeta None) x = Some row /\
    ~ has_gradient (avalue gp (LogExp zeta None)) x row.
Proof.
  exists (line 3), (5 :: nil), 1. destruct (C64_right_iff (line 3) (5 :: nil) 1 3 5) as (row & E & H); cbn [line mean std noise_level nth]; auto; try lra; [apply line_smooth|].
  exists row. split; [apply line_smooth|]. split; [exact E|]. intros G.
  pose proof (proj1 H G 0%nat ltac:(simpl; lia)) as Z. cbn in Z. lra.
Qed.
(** With the argument [sigma_n], asking for the gradient always raises, though there is a value. *)
Theorem C64_sigma_n_refuted :
  (forall gp zeta s x, agrad gp (LogExp zeta (Some s)) x = None) /\
  exists gp zeta s x v, smooth gp x /\ avalue gp (LogExp zeta (Some s)) x = Some v.
Proof.
  split; [reflexivity|]. exists (line 0), 1, 0, (5 :: nil). eexists. split; [apply line_smooth|].
  cbn [avalue]. rewrite (C63_value 1 (Some 0) (line 0) (5 :: nil)) with (mu := 5); cbn; try lra; auto.
Qed.
Lemma nth_map_in {A} (f : A -> R) l i a : (i < length l)%nat -> nth i (map f l) 0 = f (nth i l a).
Proof. intros H. rewrite (nth_indep (map f l) 0 (f a)) by (rewrite map_length; exact H). apply map_nth. Qed.
(** With noise levels of the training points it raises unless there are as many of them as parameters; and then every component is computed with the noise of another
    training point, which is wrong even if the noise is as it is averaged for the value. *)
Theorem C64_noises_refuted :
  (forall gp zeta x ns, noise_level gp = Noises ns -> length ns <> 1%nat -> length ns <> length (std_grad gp x) \/ two_axes gp = false -> agrad gp (LogExp zeta None) x = None) /\
  (exists gp zeta x v, smooth gp x /\ noise_level gp = Noises (1 :: 3 :: nil) /\ avalue gp (LogExp zeta None) x = Some v) /\
  forall gp zeta x mu ns row, noise_level gp = Noises ns -> length ns <> 1%nat -> mean gp x = Real mu -> length (mean_grad gp x) = length (std_grad gp x) ->
    agrad gp (LogExp zeta None) x = Some row ->
    row = map (fun i => nth i (std_grad gp x) 0 / (std gp x - nth i ns 0) + 2 * zeta * nth i (mean_grad gp x) 0) (seq 0 (length ns)).
Proof.
  split; [|split].
  - intros gp zeta x ns En L1 L2. cbn [agrad]. unfold logexp_grad. rewrite En. destruct ns as [|a [|b ns]].
    + destruct (two_axes gp) eqn:T; [|reflexivity]. destruct L2 as [L2|L2]; [|discriminate L2]. rewrite (proj2 (Nat.eqb_neq _ _) L2). destruct (_ && _); reflexivity.
    + exfalso. apply L1. reflexivity.
    + destruct (two_axes gp) eqn:T; [|reflexivity]. destruct L2 as [L2|L2]; [|discriminate L2]. rewrite (proj2 (Nat.eqb_neq _ _) L2). destruct (_ && _); reflexivity.
  - exists (Build_surrogate (mean (line 0)) (std (line 0)) (mean_grad (line 0)) (std_grad (line 0)) (Noises (1 :: 3 :: nil)) 0 true), 1, (5 :: nil). eexists. split; [exact (line_smooth 0 5)|]. split; [reflexivity|].
    cbn [avalue]. rewrite (C63_value 1 None _ (5 :: nil)) with (mu := 5); [reflexivity|cbn; lra| |reflexivity|]; unfold noise_used, average; cbn; lra.
  - intros gp zeta x mu ns row En L1 Em Lg H. cbn [agrad] in H. unfold logexp_grad in H. rewrite En in H. 
    assert (K : length ns = length (std_grad gp x) /\ row = map (fun p => fst (snd p) / (std gp x - fst p) + 2 * zeta * snd (snd p)) (combine ns (combine (std_grad gp x) (mean_grad gp x)))).
    { destruct ns as [|a [|b ns]]; [|exfalso; apply L1; reflexivity|]; (destruct (two_axes gp); [|discriminate H]); (destruct (_ && _); [|discriminate H]);
        (destruct (length _ =? length _)%nat eqn:E; [|discriminate H]); apply Nat.eqb_eq in E; injection H as <-; (split; [exact E|reflexivity]). }
    destruct K as [L ->]. clear -L Lg. apply (nth_ext _ _ 0 0).
    + rewrite !map_length, !combine_length, seq_length. lia.
    + intros i Hi. rewrite map_length, !combine_length in Hi.
      rewrite (nth_map_in _ (seq 0 (length ns)) i 0%nat), (nth_map_in _ (combine ns _) i (0, (0, 0))) by (rewrite ?seq_length, ?combine_length; lia).
      rewrite seq_nth, !combine_nth by (rewrite ?combine_length; lia). reflexivity.
Qed.
(** A composite of correct parts, for C65. *)
Example C65_example :
  let k := ASum (APower (AProduct (ConstantAcqFunc 2) (Mu 1)) (Nat 3)) (LogExp 1 None) in
  exists row, agrad (line 0) k (5 :: nil) = Some row /\ has_gradient (avalue (line 0) k) (5 :: nil) row.
Proof.
  intros k. destruct (C64_noiseless (line 0) (5 :: nil) 1 5) as (r1 & E1 & H1); cbn [line mean std noise_level nth]; auto; try lra; [apply line_smooth|].
  destruct (C74_gradients (line 0) (5 :: nil) 1 (Mu 1) (line_smooth 0 5)) as (r2 & E2 & H2); [simpl; auto|].
  assert (operands_defined (line 0) (5 :: nil) k) as D.
  { unfold k. cbn [operands_defined]. refine (conj (conj (conj _ _) (conj _ _)) (conj _ _)).
    1-2, 4, 6: eauto; cbn; eauto.
    - cbn. eauto.
    - destruct H1 as (h & E & _). eauto. }
  destruct (C65_exists _ _ _ D) as [_ [row E]]. exists row. split; [exact E|].
  apply C65_composite; [|exact E]. unfold k. cbn [operands_ok]. refine (conj (conj (conj I _) _) _); auto.
  - intros row0 E0. rewrite E2 in E0. injection E0 as <-. exact H2.
  - intros row0 E0. rewrite E1 in E0. injection E0 as <-. exact H1.
Qed.
(** An improvement with a slope, for C74. *)
Example C74_example :
  exists row, agrad (line 0) (ExpectedImprovement 0) (5 :: nil) = Some row /\
    ~ has_gradient (avalue (line 0) (ExpectedImprovement 0)) (5 :: nil) row.
Proof.
  destruct (C74_improvement_refuted (line 0) (5 :: nil) 0 5) as (row & E & H); cbn [line mean std y_max nth]; auto; try lra; [apply line_smooth|].
  exists row. split; [exact E|]. intros G. pose proof (proj1 H G 0%nat ltac:(simpl; lia)) as Z. cbn in Z. lra.
Qed.

Print Assumptions C63_minus_inf.
Print Assumptions C63_value.
Print Assumptions C63_increasing.
Print Assumptions C63_auto_zeta.
Print Assumptions C64_right_iff.
Print Assumptions C64_noiseless.
Print Assumptions C64_noise_refuted.
Print Assumptions C64_sigma_n_refuted.
Print Assumptions C64_noises_refuted.
Print Assumptions C65_composite.
Print Assumptions C65_exists.
Print Assumptions C74_gradients.
Print Assumptions C74_factor_refuted.
Print Assumptions C74_improvement_refuted.

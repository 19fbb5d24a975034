(** C108: [NonlinearLogExp]. *)
From Coq Require Import Lra Lia.
From Coquelicot Require Import Coquelicot.
From Verif Require Import SAcqFunc PKernel TKernel PGrad TAcqFunc MNonlinear.
Open Scope R_scope.
Set Default Goal Selector "!".
Set Bullet Behavior "Strict Subproofs".

Lemma exp_gt x : 0 < x -> 1 + x < exp x.
Proof. intros H. apply exp_ineq1. lra. Qed.
Lemma safe_is x : 0 < x -> safe_log_expm1 x = ln (exp x - 1).
Proof.
  intros H. unfold safe_log_expm1. destruct (Rlt_dec x 1) as [_|_]; [reflexivity|].
  pose proof (exp_gt x H) as E. rewrite exp_Ropp. rewrite <- (ln_exp x) at 1. rewrite <- ln_mult; [|apply exp_pos|].
  - f_equal. field. lra.
  - assert (/ exp x < 1); [|lra]. rewrite <- Rinv_1. apply Rinv_lt_contravar; lra.
Qed.
Section C108.
Variables (zeta : R) (sn : option R) (gp : surrogate) (x : list R).
Let n := noise_used sn gp.
Let sd := std gp x.
Hypothesis Hsd : 0 <= sd.
Hypothesis Hn : 0 <= n.
(** -inf exactly where the mean is not finite or the standard deviation does not exceed the noise, as for LogExp. *)
Theorem C108_minus_inf :
  nonlinear zeta sn gp x = NegInf <-> ~ (exists mu, mean gp x = Real mu) \/ sd <= n.
Proof.
  unfold sd, n. rewrite <- (C63_minus_inf zeta sn gp x Hsd Hn). unfold nonlinear, logexp. destruct (mean gp x); try tauto. destruct (gtb _ _); [split; discriminate|tauto].
Qed.
(** Anywhere else, the log of a product, whatever the branch of the numerically safe logarithm. *)
Theorem C108_value :
  forall mu, mean gp x = Real mu -> n < sd ->
    nonlinear zeta sn gp x = Real (ln (exp (2 * zeta * (mu - y_max gp)) * (exp (sqrt (sd ^ 2 - n ^ 2)) - 1))).
Proof.
  intros mu E H. unfold nonlinear. rewrite E. fold n sd. apply (squares sd n Hsd Hn) in H.
  rewrite (proj2 (gtb_true _ _) H). unfold nonlinear_f. rewrite Rmax_left by lra. pose proof (sqrt_lt_R0 _ H) as P. pose proof (exp_gt _ P).
  rewrite safe_is by exact P. rewrite ln_mult, ln_exp; [reflexivity|apply exp_pos|lra].
Qed.
(** Above LogExp. *)
Theorem C108_above :
  forall v w, logexp zeta sn gp x = Real v -> nonlinear zeta sn gp x = Real w -> v < w.
Proof.
  intros v w E F. unfold logexp in E. unfold nonlinear in F. destruct (mean gp x) as [mu| | |] eqn:Em; try discriminate.
  fold n sd in E, F. destruct (gtb _ _) eqn:G; [|discriminate]. injection E as <-. injection F as <-. apply gtb_true in G.
  unfold logexp_f, nonlinear_f. rewrite Rmax_left by lra. pose proof (sqrt_lt_R0 _ G) as P. rewrite safe_is by exact P. pose proof (exp_gt _ P).
  apply Rplus_lt_compat_l. apply ln_increasing; lra.
Qed.
End C108.
(** Strictly increasing in the mean and in the standard deviation, where it is not -inf. *)
Theorem C108_increasing :
  forall zeta s gp gp' x x' mu mu' v v',
    0 < zeta -> 0 <= noise_used s gp -> noise_used s gp' = noise_used s gp -> y_max gp' = y_max gp ->
    mean gp x = Real mu -> mean gp' x' = Real mu' -> noise_used s gp < std gp x ->
    mu <= mu' -> std gp x <= std gp' x' -> mu < mu' \/ std gp x < std gp' x' ->
    nonlinear zeta s gp x = Real v -> nonlinear zeta s gp' x' = Real v' -> v < v'.
Proof.
  intros zeta s gp gp' x x' mu mu' v v' Hz Hn En Ey Em Em' Hs Hmu Hsd Hlt Hv Hv'.
  rewrite (C108_value zeta s gp x ltac:(lra) Hn _ Em Hs) in Hv.
  rewrite (C108_value zeta s gp' x' ltac:(lra) ltac:(lra) _ Em' ltac:(lra)) in Hv'.
  assert (forall a b, Real a = Real b -> a = b) as RI by congruence. apply RI in Hv. apply RI in Hv'.
  rewrite <- Hv, <- Hv', En, Ey. clear Hv Hv'.
  set (n := noise_used s gp) in *. set (a := std gp x) in *. set (b := std gp' x') in *.
  assert (0 < a ^ 2 - n ^ 2) as Ha by nra. assert (0 < b ^ 2 - n ^ 2) as Hb by nra.
  assert (Ea := exp_gt _ (sqrt_lt_R0 _ Ha)). assert (Eb := exp_gt _ (sqrt_lt_R0 _ Hb)). pose proof (sqrt_lt_R0 _ Ha). pose proof (sqrt_lt_R0 _ Hb).
  rewrite !ln_mult, !ln_exp; try apply exp_pos; try lra.
  assert (zeta * (mu - y_max gp) <= zeta * (mu' - y_max gp)) by nra.
  assert (S : a < b -> ln (exp (sqrt (a ^ 2 - n ^ 2)) - 1) < ln (exp (sqrt (b ^ 2 - n ^ 2)) - 1)).
  { intros Q. apply ln_increasing; [lra|]. apply Rplus_lt_compat_r. apply exp_increasing, sqrt_lt_1; nra. }
  assert (ln (exp (sqrt (a ^ 2 - n ^ 2)) - 1) <= ln (exp (sqrt (b ^ 2 - n ^ 2)) - 1)).
  { destruct Hsd as [Q| ->]; [left; exact (S Q)|lra]. }
  rewrite !Rmult_assoc. destruct Hlt as [H4|H4].
  - assert (zeta * (mu - y_max gp) < zeta * (mu' - y_max gp)); [|lra]. apply Rmult_lt_compat_l; [exact Hz|]. lra.
  - specialize (S H4). lra.
Qed.
(** A surrogate for the examples: in two coordinates, the mean is the first and the standard deviation the second. *)
Definition plane : surrogate :=
  {| mean := fun x => Real (nth 0 x 0); std := fun x => nth 1 x 0; mean_grad := fun _ => 1 :: 0 :: nil;
     std_grad := fun _ => 0 :: 1 :: nil; noise_level := OneNoise 0; y_max := 0; two_axes := false |}.
Lemma plane_value zeta mu s : 0 < s -> nonlinear zeta None plane (mu :: s :: nil) = Real (2 * zeta * mu + ln (exp s - 1)).
Proof.
  intros H. rewrite (C108_value zeta None plane (mu :: s :: nil)) with (mu := mu); cbn [plane std nth noise_used noise_level mean y_max]; try lra; auto.
  replace (s ^ 2 - 0 ^ 2) with (s * s) by ring. rewrite sqrt_square by lra. pose proof (exp_gt s H).
  rewrite ln_mult, ln_exp; [|apply exp_pos|lra]. f_equal. f_equal. ring.
Qed.
Example C108_example : nonlinear 1 None plane (3 :: ln 2 :: nil) = Real 6 /\ nonlinear 1 None (line 3) (2 :: nil) = NegInf.
Proof.
  split.
  - rewrite plane_value by (rewrite <- ln_1; apply ln_increasing; lra). rewrite exp_ln by lra. replace (2 - 1) with 1 by lra. rewrite ln_1. f_equal. lra.
  - apply C108_minus_inf; cbn; lra.
Qed.
(** Refuted: it does not order points like the documented exp(2 zeta mu) exp(sigma - sigma_n) (nor its log). *)
Theorem C108_documented_refuted :
  exists gp zeta x x' mu mu' v v', mean gp x = Real mu /\ mean gp x' = Real mu' /\
    nonlinear zeta None gp x = Real v /\ nonlinear zeta None gp x' = Real v' /\ v < v' /\
    exp (2 * zeta * mu') * exp (std gp x' - noise_used None gp) < exp (2 * zeta * mu) * exp (std gp x - noise_used None gp).
Proof.
  exists plane, (/ 2), (6 / 10 :: 1 / 10 :: nil), (0 :: / 2 :: nil), (6 / 10), 0. eexists. eexists.
  split; [reflexivity|]. split; [reflexivity|]. split; [apply plane_value; lra|]. split; [apply plane_value; lra|]. split.
  - assert (A : exp (1 / 10) - 1 <= / 9).
    { pose proof (exp_ineq1 (- (1 / 10)) ltac:(lra)) as Q. rewrite exp_Ropp in Q. pose proof (exp_pos (1 / 10)) as P.
      assert (exp (1 / 10) * / exp (1 / 10) = 1) by (apply Rinv_r; lra). nra. }
    pose proof (exp_gt (1 / 10) ltac:(lra)) as B. pose proof (exp_gt (/ 2) ltac:(lra)) as C.
    assert (D : exp (2 * / 2 * (6 / 10)) < 3).
    { apply Rlt_le_trans with (exp 1); [apply exp_increasing; lra|apply exp_le_3]. }
    rewrite <- (ln_exp (2 * / 2 * (6 / 10))). rewrite <- ln_mult; [|apply exp_pos|lra].
    replace (2 * / 2 * 0) with 0 by ring. rewrite Rplus_0_l. apply ln_increasing; [apply Rmult_lt_0_compat; [apply exp_pos|lra]|]. nra.
  - rewrite <- !exp_plus. apply exp_increasing. cbn. lra.
Qed.
(** *** Gradient *)
Lemma nonlinear_derive (m s : R -> R) y n zeta t m' s' : is_derive m t m' -> is_derive s t s' -> 0 <= n < s t ->
  is_derive (fun t => ln (exp (2 * zeta * (m t - y)) * (exp (sqrt (s t ^ 2 - n ^ 2)) - 1))) t
    (s' * (s t / sqrt (s t ^ 2 - n ^ 2) * exp (sqrt (s t ^ 2 - n ^ 2)) / (exp (sqrt (s t ^ 2 - n ^ 2)) - 1)) + 2 * zeta * m').
Proof.
  intros Dm Ds Hs. assert (0 < s t ^ 2 - n ^ 2) as Hp by nra. pose proof (sqrt_lt_R0 _ Hp) as Hq. pose proof (exp_gt _ Hq) as He.
  assert (D1 : is_derive (fun u => exp (sqrt (u ^ 2 - n ^ 2)) - 1) (s t) (s t / sqrt (s t ^ 2 - n ^ 2) * exp (sqrt (s t ^ 2 - n ^ 2)))).
  { auto_derive; [cbn in Hp |- *; lra|]. replace (s t * (s t * 1) + - (n * (n * 1))) with (s t ^ 2 - n ^ 2) by ring.
    set (q := sqrt _) in *. field. lra. }
  assert (D2 : is_derive (fun u => exp (2 * zeta * (u - y))) (m t) (2 * zeta * exp (2 * zeta * (m t - y)))).
  { auto_derive; [exact I|]. replace (m t + - y) with (m t - y) by ring. ring. }
  pose proof (is_derive_comp _ s t _ _ D1 Ds) as E1. pose proof (is_derive_comp _ m t _ _ D2 Dm) as E2. cbn in E1, E2.
  pose proof (is_derive_mult _ _ t _ _ E2 E1 Rmult_comm) as E3.
  assert (P : 0 < exp (2 * zeta * (m t - y)) * (exp (sqrt (s t ^ 2 - n ^ 2)) - 1)) by (apply Rmult_lt_0_compat; [apply exp_pos|lra]).
  evar_last.
  - apply (is_derive_comp ln (fun t => exp (2 * zeta * (m t - y)) * (exp (sqrt (s t ^ 2 - n ^ 2)) - 1)) t); [|exact E3]. apply is_derive_Reals, derivable_pt_lim_ln. exact P.
  - unfold scal, plus, mult; cbn; unfold mult; cbn. pose proof (exp_pos (2 * zeta * (m t - y))). cbn in He, Hq. field. repeat split; lra.
Qed.
Lemma nonlinear_true gp x zeta n mu : smooth gp x -> mean gp x = Real mu -> noise_level gp = OneNoise n -> 0 <= n < std gp x ->
  has_gradient (avalue gp (NonlinearLogExp zeta None gp)) x
    (row2 (fun mg sg => sg * (std gp x / sqrt (std gp x ^ 2 - n ^ 2) * exp (sqrt (std gp x ^ 2 - n ^ 2)) / (exp (sqrt (std gp x ^ 2 - n ^ 2)) - 1)) + 2 * zeta * mg) (mean_grad gp x) (std_grad gp x)).
Proof.
  intros [(h & E & L & G1 & G2) [S1 S2]] Em En Hs. rewrite Em in E. injection E as E.
  assert (noise_used None gp = n) as Nu by (unfold noise_used; rewrite En; reflexivity).
  apply (has_gradient_intro _ (fun z => ln (exp (2 * zeta * (h z - y_max gp)) * (exp (sqrt (std gp z ^ 2 - n ^ 2)) - 1)))).
  - cbn [avalue NonlinearLogExp]. rewrite (C108_value zeta None gp x) with (mu := mu); rewrite ?Nu; try lra; auto. rewrite E. reflexivity.
  - intros i Hi. generalize (filter_and _ _ (L i Hi) (around _ _ _ _ n (S2 i Hi) Hi (proj2 Hs))). apply filter_imp.
    intros t [A B]. cbn [avalue NonlinearLogExp].
    assert (mean gp (replace_coord i t x) = Real (h (replace_coord i t x))) as A'.
    { destruct (mean gp (replace_coord i t x)); try discriminate. injection A as ->. reflexivity. }
    rewrite (C108_value zeta None gp (replace_coord i t x)) with (mu := h (replace_coord i t x)); rewrite ?Nu; try lra; auto.
  - split; [rewrite row2_length; lia|]. intros i Hi. unfold partial. rewrite row2_nth by lia. evar_last.
    + apply (nonlinear_derive (fun t => h (replace_coord i t x)) (fun t => std gp (replace_coord i t x))); [apply G2; exact Hi|apply S2; exact Hi|].
      rewrite replace_same by lia. exact Hs.
    + rewrite replace_same by lia. reflexivity.
Qed.
(** Without noise, the reported gradient is right exactly in the directions in which the derivative of the standard deviation is 0: everywhere else it is
    too small by a factor. *)
Theorem C108_gradient_iff :
  forall gp x zeta mu, smooth gp x -> mean gp x = Real mu -> noise_level gp = OneNoise 0 -> 0 < std gp x ->
    exists row, agrad gp (NonlinearLogExp zeta None gp) x = Some row /\
      (has_gradient (avalue gp (NonlinearLogExp zeta None gp)) x row <->
       forall i, (i < length x)%nat -> nth i (std_grad gp x) 0 = 0).
Proof.
  intros gp x zeta mu S Em En Hs. pose proof (nonlinear_true gp x zeta 0 mu S Em En ltac:(lra)) as T.
  destruct (C64_right_iff gp x zeta 0 mu S Em En ltac:(lra)) as (row & E & _).
  destruct S as [M [S1 _]]. pose proof (has_gradient_length _ _ _ M) as ML.
  assert (Er : row = row2 (fun m s => s / (std gp x - 0) + 2 * zeta * m) (mean_grad gp x) (std_grad gp x)).
  { assert (0 < std gp x ^ 2 - 0 ^ 2) as Hp by nra. cbn [agrad] in E. unfold logexp_grad, noise_used in E. rewrite En, Em in E. cbn [is_real andb] in E.
    rewrite (proj2 (gtb_true _ _) Hp) in E. rewrite (proj2 (gtb_true _ _) Hs) in E. rewrite logexp_row in E by lia. destruct (two_axes gp); injection E as <-; reflexivity. }
  exists row. split; [exact E|]. subst row.
  replace (std gp x ^ 2 - 0 ^ 2) with (std gp x * std gp x) in T by ring. rewrite sqrt_square in T by lra.
  set (sd := std gp x) in *. pose proof (exp_gt sd Hs) as He.
  assert (K : / sd < sd / sd * exp sd / (exp sd - 1)).
  { replace (sd / sd * exp sd / (exp sd - 1)) with (/ ((exp sd - 1) / exp sd)) by (field; lra). apply Rinv_lt_contravar.
    - apply Rmult_lt_0_compat; [apply Rdiv_lt_0_compat; lra|lra].
    - assert (Q := exp_ineq1 (- sd) ltac:(lra)). rewrite exp_Ropp in Q. replace ((exp sd - 1) / exp sd) with (1 - / exp sd) by (field; lra). lra. }
  split.
  - intros H i Hi. pose proof (has_gradient_unique _ _ _ _ T H) as U.
    apply (f_equal (fun r => nth i r 0)) in U. rewrite !row2_nth in U by lia.
    assert (Z : nth i (std_grad gp x) 0 * (sd / sd * exp sd / (exp sd - 1) - / sd) = 0).
    { rewrite Rmult_minus_distr_l. replace (sd - 0) with sd in U by ring. unfold Rdiv in U at 3. unfold Rdiv in *. lra. }
    apply Rmult_integral in Z as [Z|Z]; [exact Z|lra].
  - intros Z. replace (row2 (fun m s => s / (sd - 0) + 2 * zeta * m) (mean_grad gp x) (std_grad gp x)) with
      (row2 (fun mg sg => sg * (sd / sd * exp sd / (exp sd - 1)) + 2 * zeta * mg) (mean_grad gp x) (std_grad gp x)); [exact T|].
    apply (nth_ext _ _ 0 0); [rewrite !row2_length; lia|]. intros i Hi. rewrite row2_length in Hi by lia.
    rewrite !row2_nth by lia. rewrite (Z i) by lia. unfold Rdiv. ring.
Qed.
(** Refuted: the gradient is not that of the value. *)
Theorem C108_gradient_refuted :
  exists gp x zeta row, smooth gp x /\ noise_level gp = OneNoise 0 /\ agrad gp (NonlinearLogExp zeta None gp) x = Some row /\
    ~ has_gradient (avalue gp (NonlinearLogExp zeta None gp)) x row.
Proof.
  exists (line 0), (5 :: nil), 1. destruct (C108_gradient_iff (line 0) (5 :: nil) 1 5) as (row & E & H); cbn [line mean std noise_level nth]; auto; try lra; [apply line_smooth|].
  exists row. split; [apply line_smooth|]. split; [reflexivity|]. split; [exact E|]. intros G.
  pose proof (proj1 H G 0%nat ltac:(simpl; lia)) as Z. cbn in Z. lra.
Qed.
(** With noise, a direction is right exactly if the derivative of the standard deviation is 0 there, or the noise level is one particular
    function of the standard deviation. *)
Theorem C108_noise_iff :
  forall gp x zeta n mu, smooth gp x -> mean gp x = Real mu -> noise_level gp = OneNoise n -> 0 <= n < std gp x ->
    exists row, agrad gp (NonlinearLogExp zeta None gp) x = Some row /\
      (has_gradient (avalue gp (NonlinearLogExp zeta None gp)) x row <->
       forall i, (i < length x)%nat -> nth i (std_grad gp x) 0 = 0 \/
         n = std gp x * (sqrt (std gp x ^ 2 - n ^ 2) / (1 - exp (- sqrt (std gp x ^ 2 - n ^ 2))) - 1)).
Proof.
  intros gp x zeta n mu S Em En Hs. pose proof (nonlinear_true gp x zeta n mu S Em En ltac:(lra)) as T.
  destruct (C64_right_iff gp x zeta n mu S Em En ltac:(lra)) as (row & E & _).
  destruct S as [M [S1 _]]. pose proof (has_gradient_length _ _ _ M) as ML.
  assert (0 < std gp x ^ 2 - n ^ 2) as Hp by nra.
  assert (Er : row = row2 (fun m s => s / (std gp x - n) + 2 * zeta * m) (mean_grad gp x) (std_grad gp x)).
  { cbn [agrad] in E. unfold logexp_grad, noise_used in E. rewrite En, Em in E. cbn [is_real andb] in E.
    rewrite (proj2 (gtb_true _ _) Hp) in E. rewrite (proj2 (gtb_true _ _) (proj2 Hs)) in E. rewrite logexp_row in E by lia. destruct (two_axes gp); injection E as <-; reflexivity. }
  exists row. split; [exact E|]. subst row. pose proof (sqrt_lt_R0 _ Hp) as Hq. pose proof (sqrt_sqrt _ (Rlt_le _ _ Hp)) as Q2.
  set (sd := std gp x) in *. set (r := sqrt (sd ^ 2 - n ^ 2)) in *. pose proof (exp_gt r Hq) as He.
  assert (K : sd / r * exp r / (exp r - 1) = / (sd - n) <-> n = sd * (r / (1 - exp (- r)) - 1)).
  { rewrite exp_Ropp. set (e := exp r) in *. clearbody e r.
    assert (A : sd * (r / (1 - / e) - 1) = (sd * r * e - sd * (e - 1)) / (e - 1)) by (field; lra). rewrite A.
    assert (B : sd / r * e / (e - 1) = sd * r * e / ((e - 1) * (r * r))) by (field; lra). rewrite B.
    assert (C : / (sd - n) = (sd + n) * (e - 1) / ((e - 1) * (r * r))) by (rewrite Q2; field; simpl in Hp; repeat split; lra). rewrite C.
    assert (D : (e - 1) * (r * r) <> 0) by (apply Rgt_not_eq; apply Rmult_lt_0_compat; nra).
    split; intros H.
    - apply (f_equal (fun v => v * ((e - 1) * (r * r)))) in H. unfold Rdiv in H. rewrite !Rmult_assoc, !Rinv_l, !Rmult_1_r in H by exact D.
      apply (Rmult_eq_reg_r (e - 1)); [|lra]. unfold Rdiv. rewrite Rmult_assoc, Rinv_l, Rmult_1_r by lra. lra.
    - apply (f_equal (fun v => v * (e - 1))) in H. unfold Rdiv in H. rewrite (Rmult_assoc (sd * r * e - sd * (e - 1))), Rinv_l, Rmult_1_r in H by lra.
      f_equal. lra. }
  split.
  - intros H i Hi. pose proof (has_gradient_unique _ _ _ _ T H) as U.
    apply (f_equal (fun r => nth i r 0)) in U. rewrite !row2_nth in U by lia.
    assert (Z : nth i (std_grad gp x) 0 * (sd / r * exp r / (exp r - 1) - / (sd - n)) = 0) by (rewrite Rmult_minus_distr_l; unfold Rdiv in *; lra).
    apply Rmult_integral in Z as [Z|Z]; [left; exact Z|right]. apply K. lra.
  - intros Z. replace (row2 (fun m s => s / (sd - n) + 2 * zeta * m) (mean_grad gp x) (std_grad gp x)) with
      (row2 (fun mg sg => sg * (sd / r * exp r / (exp r - 1)) + 2 * zeta * mg) (mean_grad gp x) (std_grad gp x)); [exact T|].
    apply (nth_ext _ _ 0 0); [rewrite !row2_length; lia|]. intros i Hi. rewrite row2_length in Hi by lia.
    rewrite !row2_nth by lia. destruct (Z i ltac:(lia)) as [Z0|Zn].
    + rewrite Z0. unfold Rdiv. ring.
    + apply K in Zn. rewrite Zn. unfold Rdiv. ring.
Qed.
(** There is at most one such noise level for a standard deviation, and it is not 0: in all other cases the gradient is wrong wherever the
    standard deviation changes. *)
Lemma ratio_increasing a b : 0 < a -> a < b -> a / (1 - exp (- a)) < b / (1 - exp (- b)).
Proof.
  intros Ha Hb. assert (exp (- a) < 1) as Ea by (rewrite <- exp_0; apply exp_increasing; lra).
  assert (exp (- b) < 1) as Eb by (rewrite <- exp_0; apply exp_increasing; lra).
  apply (Rmult_lt_reg_r ((1 - exp (- a)) * (1 - exp (- b)))); [apply Rmult_lt_0_compat; lra|].
  replace (a / (1 - exp (- a)) * ((1 - exp (- a)) * (1 - exp (- b)))) with (a * (1 - exp (- b))) by (field; lra).
  replace (b / (1 - exp (- b)) * ((1 - exp (- a)) * (1 - exp (- b)))) with (b * (1 - exp (- a))) by (field; lra).
  replace (exp (- b)) with (exp (- a) * exp (- (b - a))) by (rewrite <- exp_plus; f_equal; ring).
  pose proof (exp_ineq1 (- (b - a)) ltac:(lra)) as D. pose proof (exp_gt a Ha) as G. pose proof (exp_ineq1 a ltac:(lra)) as G'.
  assert (exp (- a) * exp a = 1) as P by (rewrite <- exp_plus, Rplus_opp_l; apply exp_0). pose proof (exp_pos (- a)) as P0.
  assert (a * exp (- a) < 1 - exp (- a)) as F by nra.
  set (u := exp (- a)) in *. set (v := exp (- (b - a))) in *. clearbody u v.
  assert (0 < a * u) as Au by (apply Rmult_lt_0_compat; lra).
  assert (a * u * (1 - v) <= a * u * (b - a)) as I1 by (apply Rmult_le_compat_l; lra).
  assert (a * u * (b - a) < (1 - u) * (b - a)) as I2 by (apply Rmult_lt_compat_r; lra). lra.
Qed.
Theorem C108_noise_once :
  forall sd n n', 0 <= n < sd -> 0 <= n' < sd ->
    n = sd * (sqrt (sd ^ 2 - n ^ 2) / (1 - exp (- sqrt (sd ^ 2 - n ^ 2))) - 1) ->
    n' = sd * (sqrt (sd ^ 2 - n' ^ 2) / (1 - exp (- sqrt (sd ^ 2 - n' ^ 2))) - 1) -> n = n' /\ 0 < n.
Proof.
  assert (W : forall sd n n', 0 <= n < sd -> 0 <= n' < sd ->
    n = sd * (sqrt (sd ^ 2 - n ^ 2) / (1 - exp (- sqrt (sd ^ 2 - n ^ 2))) - 1) ->
    n' = sd * (sqrt (sd ^ 2 - n' ^ 2) / (1 - exp (- sqrt (sd ^ 2 - n' ^ 2))) - 1) -> ~ n < n').
  { intros sd n n' H H' E E' L. assert (0 < sd ^ 2 - n' ^ 2) as P' by (clear E E'; nra). assert (sd ^ 2 - n' ^ 2 < sd ^ 2 - n ^ 2) as P by (clear E E'; nra).
    pose proof (ratio_increasing _ _ (sqrt_lt_R0 _ P') (sqrt_lt_1 _ _ (Rlt_le _ _ P') (Rlt_le _ _ (Rlt_trans _ _ _ P' P)) P)) as R. clear P P'.
    apply (Rmult_lt_compat_l sd) in R; [|lra]. lra. }
  intros sd n n' H H' E E'. pose proof (W sd n n' H H' E E'). pose proof (W sd n' n H' H E' E). split; [lra|].
  destruct (Rle_lt_or_eq_dec 0 n (proj1 H)) as [|Z]; [assumption|exfalso]. rewrite <- Z in E.
  replace (sd ^ 2 - 0 ^ 2) with (sd * sd) in E by ring. rewrite sqrt_square in E by lra.
  assert (0 < sd) as Hs by lra. pose proof (exp_ineq1 (- sd) ltac:(lra)) as Q. assert (exp (- sd) < 1) as Ea by (rewrite <- exp_0; apply exp_increasing; lra).
  assert (1 < sd / (1 - exp (- sd))) as R.
  { apply (Rmult_lt_reg_r (1 - exp (- sd))); [lra|]. unfold Rdiv. rewrite Rmult_assoc, Rinv_l by lra. lra. }
  apply (Rmult_lt_compat_l sd) in R; [|lra]. lra.
Qed.
(** A case with noise: at standard deviation 5 and noise 3. *)
Example C108_case_noise :
  exists row, agrad (line 3) (NonlinearLogExp 1 None (line 3)) (5 :: nil) = Some row /\
    ~ has_gradient (avalue (line 3) (NonlinearLogExp 1 None (line 3))) (5 :: nil) row.
Proof.
  destruct (C108_noise_iff (line 3) (5 :: nil) 1 3 5) as (row & E & H); cbn [line mean std noise_level nth]; auto; try lra; [apply line_smooth|].
  exists row. split; [exact E|]. intros G. pose proof (proj1 H G) as G1. destruct (G1 0%nat ltac:(simpl; lia)) as [Z|Z]; [cbn in Z; lra|].
  cbn [line std nth] in Z. replace (5 ^ 2 - 3 ^ 2) with (4 * 4) in Z by ring. rewrite sqrt_square in Z by lra.
  assert (exp (Ropp 4) < 1) as Ea by (rewrite <- exp_0; apply exp_increasing; lra). pose proof (exp_pos (Ropp 4)) as P.
  set (e := exp (Ropp 4)) in *. clearbody e.
  assert (4 < 4 / (1 - e)) as R.
  { apply (Rmult_lt_reg_r (1 - e)); [lra|]. unfold Rdiv. rewrite (Rmult_assoc 4), Rinv_l by lra. lra. }
  lra.
Qed.
Print Assumptions C108_noise_iff.
Print Assumptions C108_noise_once.
Print Assumptions C108_minus_inf.
Print Assumptions C108_value.
Print Assumptions C108_above.
Print Assumptions C108_increasing.
Print Assumptions C108_documented_refuted.
Print Assumptions C108_gradient_iff.
Print Assumptions C108_gradient_refuted.

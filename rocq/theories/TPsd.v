(** C98: the kernels are positive definite, so that with positive noise there is always a surrogate, with variances
    that are not negative. *)
From Coq Require Import Lra Lia.
From Verif Require Import MKernel MLinAlg MWhite PLinAlg SLinAlg PGp PGp2 PPsd PPsd2 PPsd3 TLinAlg.
Set Default Goal Selector "!".
Set Bullet Behavior "Strict Subproofs".

(** Length scales for points of dimension [d]. *)
Definition scales_ok (d : nat) (s : scales) : Prop :=
  match s with Iso l => 0 < l | Aniso ls => length ls = d /\ forall l, In l ls -> 0 < l end.
(** Kernels all of whose powers are kernels: the exponential ones, their products and powers. *)
Fixpoint divisible (d : nat) (k : kernel) : Prop :=
  match k with
  | RBF s | Matern Half s => scales_ok d s
  | RationalQuadratic l alpha => 0 < l /\ 0 < alpha
  | ExpSineSquared l p => d = 1%nat /\ 0 < l /\ 0 < p
  | ConstantKernel c => 0 < c
  | Product k1 k2 => divisible d k1 /\ divisible d k2
  | Exponentiation k (Nat _) => divisible d k
  | Exponentiation k (Real r) => 0 <= r /\ divisible d k
  | _ => False
  end.
(** Kernels for points of dimension [d]: constants and noises are not negative, powers are natural numbers, or any number that is not negative for divisible kernels; [Matern] with
    another [nu] is left out; [ExpSineSquared] is for one dimension only. *)
Fixpoint definite (d : nat) (k : kernel) : Prop :=
  match k with
  | RBF s => scales_ok d s
  | Matern (Other _) _ => False
  | Matern _ s => scales_ok d s
  | RationalQuadratic l alpha => 0 < l /\ 0 < alpha
  | ExpSineSquared l p => d = 1%nat /\ 0 < l /\ 0 < p
  | ConstantKernel c => 0 <= c
  | WhiteKernel n => 0 <= n
  | DotProduct _ => True
  | Sum k1 k2 | Product k1 k2 => definite d k1 /\ definite d k2
  | Exponentiation k (Nat _) => definite d k
  | Exponentiation k (Real r) => 0 <= r /\ divisible d k
  end.

Definition pts (d : nat) := {x : list R | length x = d}.
Definition on {d} (f : list R -> list R -> R) (a b : pts d) : R := f (proj1_sig a) (proj1_sig b).
Definition zs (ls x : list R) : list R := map (fun q => fst q / snd q) (combine x ls).
Lemma sum_sq_dist2 ls : forall x y, length x = length ls -> length y = length ls -> sum_sq (scaled_diff ls x y) = dist2 (zs ls x) (zs ls y).
Proof.
  induction ls as [|l ls IH]; intros [|a x] [|b y] Hx Hy; try discriminate; [cbn; unfold dist2; cbn; ring|].
  cbn [scaled_diff sum_sq]. rewrite IH by auto. unfold dist2, zs. cbn [combine map dot fst snd]. unfold Rdiv. ring.
Qed.
Lemma per_dim_length d s : scales_ok d s -> length (per_dim s d) = d.
Proof. destruct s as [l|ls]; cbn; [intros _; apply repeat_length|tauto]. Qed.
Lemma radial_on {d} phi ls : length ls = d -> radial phi -> positive (on (d := d) (fun x y => phi (sum_sq (scaled_diff ls x y)))).
Proof.
  intros Hl Hr. apply (positive_ext (fun a b : pts d => phi (dist2 (zs ls (proj1_sig a)) (zs ls (proj1_sig b))))).
  - intros [a Ha] [b Hb]. unfold on. cbn. rewrite sum_sq_dist2; [reflexivity| |]; congruence.
  - apply (positive_map (fun a : pts d => zs ls (proj1_sig a)) (fun z w => phi (dist2 z w))). exact Hr.
Qed.
Lemma radial_on_sym {d} phi ls : length ls = d -> symmetric (on (d := d) (fun x y => phi (sum_sq (scaled_diff ls x y)))).
Proof.
  intros Hl [a Ha] [b Hb]. unfold on. cbn. rewrite !sum_sq_dist2 by congruence. rewrite dist2_sym. reflexivity.
Qed.
(** A kernel which is a function of the scaled squared distance. *)
Lemma by_radial {d} k phi ls : length ls = d -> radial phi -> (forall x y, length x = d -> length y = d -> value k x y = phi (sum_sq (scaled_diff ls x y))) ->
  symmetric (on (d := d) (value k)) /\ positive (on (d := d) (value k)).
Proof.
  intros Hl Hr E. assert (forall a b : pts d, on (fun x y => phi (sum_sq (scaled_diff ls x y))) a b = on (value k) a b) as E'.
  { intros [a Ha] [b Hb]. unfold on. cbn. symmetry. apply E; auto. }
  split.
  - intros a b. rewrite <- !E'. apply radial_on_sym; auto.
  - apply (positive_ext _ _ E'). apply radial_on; auto.
Qed.
Lemma sqrt_scale c x : 0 <= x -> sqrt (c ^ 2 * x) = Rabs c * sqrt x.
Proof. intros Hx. rewrite sqrt_mult by (auto; nra). f_equal. rewrite <- Rsqr_pow2. apply sqrt_Rsqr_abs. Qed.
Lemma scaled_radial c phi : 0 <= c -> radial phi -> radial (fun s => phi (c * s)).
Proof.
  intros Hc Hr. apply (positive_ext (fun z w => phi (dist2 (scale (sqrt c) z) (scale (sqrt c) w)))).
  - intros z w. f_equal. unfold dist2. rewrite !dot_scale. rewrite !(dot_comm (scale (sqrt c) _)), !dot_scale. rewrite (dot_comm w z).
    pose proof (sqrt_sqrt c Hc) as E. transitivity (sqrt c * sqrt c * (dot z z + dot w w - 2 * dot z w)); [ring|rewrite E; ring].
  - apply (positive_map (scale (sqrt c)) (fun z w => phi (dist2 z w))). exact Hr.
Qed.
Lemma dot_inner x : forall y, dot x y = inner x y.
Proof. induction x as [|a x IH]; intros [|b y]; cbn; auto; rewrite IH; reflexivity. Qed.
Lemma periodic l p : 0 < l -> 0 < p -> symmetric (on (d := 1) (value (ExpSineSquared l p))) /\ positive (on (d := 1) (value (ExpSineSquared l p))).
Proof.
  intros Hl Hp. set (f := fun a b : pts 1 => exp (- / l ^ 2) * exp (/ l ^ 2 * cos (2 * PI / p * (hd 0 (proj1_sig a) - hd 0 (proj1_sig b))))).
  assert (forall a b : pts 1, f a b = on (value (ExpSineSquared l p)) a b) as E.
  { intros [a Ha] [b Hb]. unfold f, on. cbn [proj1_sig]. destruct a as [|a []]; try discriminate. destruct b as [|b []]; try discriminate. cbn [hd value length repeat scaled_diff sum_sq].
    rewrite <- exp_plus. f_equal. assert (sqrt (((a - b) / 1) ^ 2 + 0) = Rabs (a - b)) as ->.
    { rewrite Rplus_0_r. unfold Rdiv. rewrite Rinv_1, Rmult_1_r. rewrite <- Rsqr_pow2. apply sqrt_Rsqr_abs. }
    assert (sin (PI / p * Rabs (a - b)) ^ 2 = sin (PI / p * (a - b)) ^ 2) as Es.
    { destruct (Rcase_abs (a - b)) as [H|H].
      - rewrite Rabs_left by auto. replace (PI / p * - (a - b)) with (- (PI / p * (a - b))) by ring. rewrite sin_neg. ring.
      - rewrite Rabs_right by auto. reflexivity. }
    transitivity (- 2 * (sin (PI / p * Rabs (a - b)) ^ 2 / l ^ 2)); [|field; lra]. rewrite Es.
    replace (2 * PI / p * (a - b)) with (2 * (PI / p * (a - b))) by (field; lra). rewrite cos_2a_sin. field. lra. }
  assert (symmetric f) as Hs.
  { intros a b. unfold f. f_equal. f_equal. f_equal. replace (2 * PI / p * (hd 0 (proj1_sig a) - hd 0 (proj1_sig b))) with (- (2 * PI / p * (hd 0 (proj1_sig b) - hd 0 (proj1_sig a)))) by ring. apply cos_neg. }
  split.
  - intros a b. rewrite <- !E. apply Hs.
  - apply (positive_ext f); auto. unfold f. apply positive_scale; [left; apply exp_pos|].
    set (h := fun a : pts 1 => 2 * PI / p * hd 0 (proj1_sig a)).
    apply positive_exp.
    + intros a b. f_equal. replace (2 * PI / p * (hd 0 (proj1_sig a) - hd 0 (proj1_sig b))) with (- (2 * PI / p * (hd 0 (proj1_sig b) - hd 0 (proj1_sig a)))) by ring. apply cos_neg.
    + apply positive_scale; [left; apply Rinv_0_lt_compat; nra|].
      apply (positive_ext (fun a b => cos (h a) * cos (h b) + sin (h a) * sin (h b))).
      * intros a b. rewrite <- cos_minus. f_equal. unfold h. ring.
      * apply positive_sum; [apply (positive_rank1 (fun a => cos (h a)))|apply (positive_rank1 (fun a => sin (h a)))].
Qed.
(** Divisible kernels are positive, and so are their powers. *)
Lemma divisible_value d k x y : divisible d k -> length x = d -> length y = d -> 0 < value k x y.
Proof.
  induction k as [s|nu s|l alpha|l p|c| |s|k1 IH1 k2 IH2|k1 IH1 k2 IH2|k IH e]; intros Hk Hx Hy; cbn [divisible] in Hk; try destruct Hk; cbn [value]; try apply exp_pos.
  - destruct nu; try destruct Hk; apply exp_pos.
  - exact Hk.
  - apply Rmult_lt_0_compat; auto.
  - destruct e as [n|r]; cbn [npow]; [apply pow_lt; auto|apply exp_pos].
Qed.
Lemma divisible_powers d k : divisible d k -> forall r, 0 <= r ->
  symmetric (on (d := d) (fun x y => Rpower (value k x y) r)) /\ positive (on (d := d) (fun x y => Rpower (value k x y) r)).
Proof.
  assert (forall k k' r, (forall x y, length x = d -> length y = d -> value k' x y = Rpower (value k x y) r) -> symmetric (on (d := d) (value k')) /\ positive (on (d := d) (value k')) ->
    symmetric (on (d := d) (fun x y => Rpower (value k x y) r)) /\ positive (on (d := d) (fun x y => Rpower (value k x y) r))) as As.
  { intros k1 k2 r E [S P]. assert (forall a b : pts d, on (value k2) a b = on (fun x y => Rpower (value k1 x y) r) a b) as E' by (intros [a Ha] [b Hb]; unfold on; cbn; apply E; assumption).
    split; [intros a b; rewrite <- !E'; apply S|apply (positive_ext _ _ E' P)]. }
  assert (forall k phi ls r, length ls = d -> radial phi -> (forall x y, length x = d -> length y = d -> Rpower (value k x y) r = phi (sum_sq (scaled_diff ls x y))) ->
    symmetric (on (d := d) (fun x y => Rpower (value k x y) r)) /\ positive (on (d := d) (fun x y => Rpower (value k x y) r))) as By.
  { intros k1 phi ls r Hl Hr E. assert (forall a b : pts d, on (fun x y => phi (sum_sq (scaled_diff ls x y))) a b = on (fun x y => Rpower (value k1 x y) r) a b) as E'.
    { intros [a Ha] [b Hb]. unfold on. cbn. symmetry. apply E; auto. }
    split; [intros a b; rewrite <- !E'; apply radial_on_sym; auto|apply (positive_ext _ _ E'), radial_on; auto]. }
  induction k as [s|nu s|l alpha|l p|c| |s|k1 IH1 k2 IH2|k1 IH1 k2 IH2|k IH e]; intros Hk r Hr; cbn [divisible] in Hk.
  - apply (By _ (fun s => exp (- (r / 2 * s))) (per_dim s d)); [apply per_dim_length; auto|apply radial_rbf; lra|]. intros x y Hx Hy. cbn [value]. rewrite Hx. unfold Rpower. rewrite ln_exp. f_equal. field.
  - destruct nu as [| | |f]; [|destruct Hk|destruct Hk|destruct Hk].
    apply (By _ (fun s => m12 (0 + r ^ 2 * s)) (per_dim s d)); [apply per_dim_length; auto|apply (scaled_radial (r ^ 2) (fun s => m12 (0 + s))); [apply pow_le, Hr|apply radial_m12; lra]|].
    intros x y Hx Hy. cbn [value]. rewrite Hx, Rplus_0_l. unfold Rpower, m12. rewrite ln_exp. f_equal.
    assert (0 <= sum_sq (scaled_diff (per_dim s d) x y)) as P by (clear; induction (scaled_diff (per_dim s d) x y) as [|a l IH]; cbn; [lra|nra]).
    rewrite sqrt_scale by exact P. rewrite Rabs_pos_eq by exact Hr. ring.
  - destruct Hk as [Hl Ha]. assert (0 < 2 * alpha * l ^ 2) as Hd by (apply Rmult_lt_0_compat; [lra|apply pow_lt; lra]).
    apply (By _ (fun s => Rpower (1 + / (2 * alpha * l ^ 2) * s) (- (alpha * r))) (repeat 1 d)); [apply repeat_length| |].
    + apply (scaled_radial (/ (2 * alpha * l ^ 2)) (fun s => Rpower (1 + s) (- (alpha * r)))); [left; apply Rinv_0_lt_compat; auto|]. apply radial_rq. apply Rmult_le_pos; lra.
    + intros x y Hx Hy. cbn [value]. rewrite Hx. rewrite Rpower_mult. f_equal; [f_equal; unfold Rdiv; ring|ring].
  - destruct Hk as (Hd & Hl & Hp). destruct Hr as [Hr|<-].
    + apply (As _ (ExpSineSquared (l / sqrt r) p)); [|subst d; apply periodic; [apply Rdiv_lt_0_compat; [exact Hl|apply sqrt_lt_R0, Hr]|exact Hp]].
      intros x y Hx Hy. cbn [value]. unfold Rpower. rewrite ln_exp. f_equal. pose proof (sqrt_sqrt r (Rlt_le _ _ Hr)) as E. pose proof (sqrt_lt_R0 r Hr) as S. set (q := sqrt r) in *. rewrite <- E. field. split; lra.
    + apply (As _ (ConstantKernel 1)); [intros x y Hx Hy; cbn [value]; unfold Rpower; rewrite Rmult_0_l, exp_0; reflexivity|]. split; [intros a b; reflexivity|]. apply (positive_constant (P := pts d) 1). lra.
  - split; [intros a b; reflexivity|]. apply (positive_constant (P := pts d) (Rpower c r)). left. apply exp_pos.
  - destruct Hk.
  - destruct Hk.
  - destruct Hk.
  - destruct Hk as [H1 H2]. destruct (IH1 H1 r Hr) as [S1 P1], (IH2 H2 r Hr) as [S2 P2].
    assert (forall a b : pts d, on (fun x y => Rpower (value k1 x y) r) a b * on (fun x y => Rpower (value k2 x y) r) a b = on (fun x y => Rpower (value (Product k1 k2) x y) r) a b) as E.
    { intros [a Ha] [b Hb]. unfold on. cbn [proj1_sig value]. apply Rpower_mult_distr; apply (divisible_value d); assumption. }
    split; [intros a b; rewrite <- !E, S1, S2; reflexivity|]. apply (positive_ext _ _ E). exact (positive_product _ _ S1 S2 P1 P2).
  - destruct e as [n|q].
    + destruct (IH Hk (INR n * r)) as [S P]; [apply Rmult_le_pos; [apply pos_INR|exact Hr]|].
      assert (forall a b : pts d, on (fun x y => Rpower (value k x y) (INR n * r)) a b = on (fun x y => Rpower (value (Exponentiation k (Nat n)) x y) r) a b) as E.
      { intros [a Ha] [b Hb]. unfold on. cbn [proj1_sig value npow]. rewrite <- Rpower_mult, Rpower_pow by (apply (divisible_value d); assumption). reflexivity. }
      split; [intros a b; rewrite <- !E; apply S|apply (positive_ext _ _ E P)].
    + destruct Hk as [Hq Hk]. destruct (IH Hk (q * r)) as [S P]; [apply Rmult_le_pos; assumption|].
      assert (forall a b : pts d, on (fun x y => Rpower (value k x y) (q * r)) a b = on (fun x y => Rpower (value (Exponentiation k (Real q)) x y) r) a b) as E.
      { intros [a Ha] [b Hb]. unfold on. cbn [proj1_sig value npow]. rewrite Rpower_mult. reflexivity. }
      split; [intros a b; rewrite <- !E; apply S|apply (positive_ext _ _ E P)].
Qed.
Lemma kernels_positive d k : definite d k -> symmetric (on (d := d) (value k)) /\ positive (on (d := d) (value k)).
Proof.
  induction k as [s|nu s|l alpha|l p|c| |s|k1 IH1 k2 IH2|k1 IH1 k2 IH2|k IH e]; intros Hk; cbn [definite] in Hk.
  - apply (by_radial _ (fun s => exp (- (/ 2 * s))) (per_dim s d)); [apply per_dim_length; auto|apply radial_rbf; lra|].
    intros x y Hx Hy. cbn. rewrite Hx. f_equal. ring.
  - destruct nu as [| | |f]; [| | |destruct Hk].
    + apply (by_radial _ (fun s => m12 (0 + s)) (per_dim s d)); [apply per_dim_length; auto|apply radial_m12; lra|].
      intros x y Hx Hy. cbn. rewrite Hx, Rplus_0_l. reflexivity.
    + apply (by_radial _ (fun s => m32 (0 + 3 * s)) (per_dim s d)); [apply per_dim_length; auto|apply (scaled_radial 3 (fun s => m32 (0 + s))); [lra|apply radial_m32; lra]|].
      intros x y Hx Hy. cbn [value]. rewrite Hx, Rplus_0_l. unfold m32. rewrite sqrt_mult_alt by lra. rewrite (Rmult_comm (sqrt 3)). reflexivity.
    + apply (by_radial _ (fun s => m52 (0 + 5 * s)) (per_dim s d)); [apply per_dim_length; auto|apply (scaled_radial 5 (fun s => m52 (0 + s))); [lra|apply radial_m52; lra]|].
      intros x y Hx Hy. cbn [value]. rewrite Hx, Rplus_0_l. unfold m52. rewrite sqrt_mult_alt by lra. rewrite (Rmult_comm (sqrt 5)). reflexivity.
  - destruct Hk as [Hl Ha]. assert (0 < 2 * alpha * l ^ 2) as Hd by (apply Rmult_lt_0_compat; [lra|apply pow_lt; lra]).
    apply (by_radial _ (fun s => Rpower (1 + / (2 * alpha * l ^ 2) * s) (- alpha)) (repeat 1 d)); [apply repeat_length| |].
    + apply (scaled_radial (/ (2 * alpha * l ^ 2)) (fun s => Rpower (1 + s) (- alpha))); [left; apply Rinv_0_lt_compat; auto|]. apply radial_rq. lra.
    + intros x y Hx Hy. cbn [value]. rewrite Hx. f_equal. f_equal. unfold Rdiv. ring.
  - destruct Hk as (-> & Hl & Hp). apply periodic; assumption.
  - split; [intros a b; reflexivity|]. apply (positive_constant (P := pts d) c Hk).
  - split; [intros a b; reflexivity|]. apply (positive_constant (P := pts d) 0). lra.
  - assert (forall a b : pts d, dot (proj1_sig a) (proj1_sig b) + s ^ 2 = on (value (DotProduct s)) a b) as E by (intros a b; unfold on; cbn; rewrite dot_inner; auto). split.
    + intros a b. rewrite <- !E, dot_comm. reflexivity.
    + apply (positive_ext _ _ E). apply positive_sum; [apply (positive_map (fun a : pts d => proj1_sig a) dot), dot_positive|apply positive_constant; nra].
  - destruct Hk as [H1 H2]. destruct (IH1 H1) as [S1 P1], (IH2 H2) as [S2 P2]. split.
    + intros a b. unfold on in *. cbn. rewrite S1, S2. auto.
    + exact (positive_sum _ _ P1 P2).
  - destruct Hk as [H1 H2]. destruct (IH1 H1) as [S1 P1], (IH2 H2) as [S2 P2]. split.
    + intros a b. unfold on in *. cbn. rewrite S1, S2. auto.
    + exact (positive_product _ _ S1 S2 P1 P2).
  - destruct e as [n|r]; [|exact (divisible_powers d k (proj2 Hk) r (proj1 Hk))]. destruct (IH Hk) as [S1 P1]. split.
    + intros a b. unfold on in *. cbn. rewrite S1. auto.
    + exact (positive_pow _ n S1 P1).
Qed.

(** Lists of points of dimension [d]. *)
Lemma lift d X : Forall (fun x : list R => length x = d) X -> exists X' : list (pts d), map (fun a => proj1_sig a) X' = X.
Proof.
  induction 1 as [|x X Hx HX (X' & IH)]; [exists []; auto|]. exists (exist _ x Hx :: X'). cbn. congruence.
Qed.
Lemma matrix_lift {P Q} (f : Q -> P) (k : P -> P -> R) X noise : kernel_matrix k (map f X) noise = kernel_matrix (fun a b => k (f a) (f b)) X noise.
Proof.
  unfold kernel_matrix. rewrite map_length. generalize (seq 0 (length X)) as S. intros S.
  assert (forall Y S noise, map (fun q => add_at (fst q) (snd (snd q)) (map (k (fst (snd q))) (map f X))) (combine S (combine (map f Y) noise))
    = map (fun q => add_at (fst q) (snd (snd q)) (map (fun b => k (f (fst (snd q))) (f b)) X)) (combine S (combine Y noise))) as K; [|apply K].
  clear. induction Y as [|y Y IH]; intros [|s S] [|n noise]; auto. cbn [map combine fst snd]. rewrite map_map. f_equal. apply IH.
Qed.

(** C98: the quadratic form is never negative. *)
Theorem C98_positive :
  forall d k, definite d k -> forall l, Forall (fun q => length (fst q) = d) l -> 0 <= quad (value k) l.
Proof.
  intros d k Hk l Hl. destruct (kernels_positive d k Hk) as [_ Hp].
  destruct (lift d (map fst l)) as (X & EX); [rewrite Forall_map; auto|].
  specialize (Hp (combine X (map snd l))). unfold on in Hp. rewrite (quad_map (fun a : pts d => proj1_sig a) (value k)) in Hp.
  assert (map (fun q : pts d * R => (proj1_sig (fst q), snd q)) (combine X (map snd l)) = l) as E; [|rewrite E in Hp; exact Hp].
  clear - EX. revert X EX. induction l as [|[x c] l IH]; intros [|a X] EX; try discriminate; auto. cbn in *. injection EX as E1 E2. f_equal; auto. rewrite E1. auto.
Qed.
(** With positive noise levels the surrogate can always be computed, whatever the training points (equal ones included)
    and hyperparameters, and its variances lie between 0 and the prior's. *)
Theorem C98_surrogate_exists :
  forall d k, definite d k -> forall X noise y, sizes X noise y -> Forall (fun x => length x = d) X -> (forall n, In n noise -> 0 < n) ->
  exists g, update_model (value k) X noise y = Some g /\
    forall x, length x = d -> 0 <= gp_var (value k) X g x <= value k x x /\ gp_std (value k) X g x ^ 2 = gp_var (value k) X g x.
Proof.
  intros d k Hk X noise y [H1 H2] HX Hn. destruct (kernels_positive d k Hk) as [Hs Hp]. destruct (lift d X HX) as (X' & <-). rewrite map_length in H1, H2.
  assert (sizes X' noise y) as Hsz by (split; auto).
  destruct (C28_exists _ Hs Hp X' noise y Hsz Hn) as (g & E). exists g. split.
  - unfold update_model, kernel_inverse in *. rewrite matrix_lift. exact E.
  - intros x Hx. pose proof (C28_variance _ Hs Hp X' noise y g (exist _ x Hx) Hsz (fun n H => Rlt_le _ _ (Hn n H)) E) as Hv.
    unfold gp_std, gp_var, on in *. cbn [proj1_sig] in Hv. rewrite map_map. exact Hv.
Qed.

(** The default kernel of the surrogate: a constant times an RBF with one length scale per dimension. *)
Example C98_default : definite 2 (Product (ConstantKernel 9) (RBF (Aniso [/ 10; / 20]))).
Proof. cbn. repeat split; try lra. intros l [<-|[<-|[]]]; lra. Qed.
Example C98_default_twice :
  exists g, update_model (value (Product (ConstantKernel 9) (RBF (Aniso [/ 10; / 20])))) [[0; 0]; [0; 0]] [/ 100; / 100] [1; 2] = Some g.
Proof.
  destruct (C98_surrogate_exists 2 _ C98_default [[0; 0]; [0; 0]] [/ 100; / 100] [1; 2]) as (g & E & _); eauto.
  - split; reflexivity.
  - intros n [<-|[<-|[]]]; lra.
Qed.

(** Periodic kernels are not positive definite in two dimensions, and there are training sets with positive noise for
    which no surrogate can be computed. *)
Theorem C98_periodic_refuted :
  exists X noise y, sizes X noise y /\ Forall (fun x => length x = 2%nat) X /\ (forall n, In n noise -> 0 < n) /\
    update_model (value (ExpSineSquared 1 1)) X noise y = None.
Proof.
  set (k := value (ExpSineSquared 1 1)).
  assert (sqrt 2 < 2 /\ 1 < sqrt 2) as [Hs1 Hs2].
  { pose proof (sqrt_sqrt 2 ltac:(lra)) as E. pose proof (sqrt_pos 2). split; nra. }
  assert (sin (PI * sqrt 2) < 0) as Hsin. { pose proof PI_RGT_0. apply sin_lt_0; nra. }
  set (c := exp (- 2 * (sin (PI * sqrt 2)) ^ 2)).
  assert (0 < c < 1) as [Hc0 Hc1]. { unfold c. split; [apply exp_pos|]. rewrite <- exp_0. apply exp_increasing. nra. }
  assert (k [0; 0] [0; 0] = 1 /\ k [1; 0] [1; 0] = 1 /\ k [1; 1] [1; 1] = 1) as (K00 & K11 & K22).
  { repeat split; unfold k; cbn [value length repeat scaled_diff sum_sq]; rewrite ?Rminus_eq_0;
      (replace (sqrt _) with 0 by (symmetry; replace (((_ / 1) ^ 2 + _)) with 0 by field; apply sqrt_0)); rewrite Rmult_0_r, sin_0; replace (- 2 * (0 / 1) ^ 2) with 0 by field; apply exp_0. }
  assert (forall t, t = 1 -> exp (- 2 * (sin (PI / 1 * sqrt t) / 1) ^ 2) = 1) as Kone.
  { intros t ->. rewrite sqrt_1. replace (PI / 1 * 1) with PI by field. rewrite sin_PI. replace (- 2 * (0 / 1) ^ 2) with 0 by field. apply exp_0. }
  assert (forall t, t = 2 -> exp (- 2 * (sin (PI / 1 * sqrt t) / 1) ^ 2) = c) as Ktwo.
  { intros t ->. unfold c. f_equal. replace (PI / 1 * sqrt 2) with (PI * sqrt 2) by field. field. }
  assert (k [0; 0] [1; 0] = 1 /\ k [1; 0] [0; 0] = 1 /\ k [1; 0] [1; 1] = 1 /\ k [1; 1] [1; 0] = 1 /\ k [0; 0] [1; 1] = c /\ k [1; 1] [0; 0] = c) as (K01 & K10 & K12 & K21 & K02 & K20).
  { repeat split; unfold k; cbn [value length repeat scaled_diff sum_sq]; first [apply Kone; field | apply Ktwo; field]. }
  set (e := (1 - c) / 6). exists [[0; 0]; [1; 0]; [1; 1]], [e; e; e], [0; 0; 0]. split; [split; reflexivity|]. split; [repeat constructor|].
  split; [intros n [<-|[<-|[<-|[]]]]; unfold e; lra|].
  destruct (update_model k [[0; 0]; [1; 0]; [1; 1]] [e; e; e] [0; 0; 0]) as [g|] eqn:E; [exfalso|reflexivity].
  destruct (update_chol k [[0; 0]; [1; 0]; [1; 1]] [e; e; e] [0; 0; 0] g eq_refl E) as (HC & _).
  assert (symmetric k -> False) as Hno.
  { intros Hs. pose proof (quad_LT k Hs _ _ HC [1; -2; 1] eq_refl) as Q. pose proof (dot_pos (LTmul (g_L g) [1; -2; 1])) as Hp. rewrite <- Q in Hp.
    unfold quad_noise, quad in Hp. cbn [combine map total fold_right fst snd] in Hp.
    rewrite K00, K11, K22, K01, K10, K12, K21, K02, K20 in Hp. unfold e in Hp. lra. }
  apply Hno. intros x y. unfold k. cbn [value]. f_equal. f_equal. f_equal. f_equal. f_equal. f_equal. f_equal.
  revert y. induction x as [|a x IH]; intros [|b y]; auto. cbn [length repeat scaled_diff sum_sq]. rewrite IH. unfold Rdiv. ring.
Qed.

(** A kernel with itself: what [WhiteKernel] adds is not negative. *)
Lemma own_divisible d k x : divisible d k -> own k x = value k x x.
Proof.
  induction k as [s|nu s|l alpha|l p|c| |s|k1 IH1 k2 IH2|k1 IH1 k2 IH2|k IH e]; intros Hk; cbn [divisible] in Hk; try reflexivity; try destruct Hk; cbn [own value].
  - rewrite IH1, IH2 by assumption. reflexivity.
  - destruct e as [n|r]; [rewrite IH by assumption; reflexivity|]. rewrite IH by apply Hk. reflexivity.
Qed.
Lemma own_value d k x : definite d k -> length x = d -> 0 <= value k x x <= own k x.
Proof.
  intros Hk Hx. assert (forall k, definite d k -> 0 <= value k x x) as Pos.
  { intros k' H. destruct (kernels_positive d k' H) as [_ P]. specialize (P [(exist _ x Hx, 1)]). unfold quad, on in P. cbn in P. lra. }
  split; [apply Pos, Hk|].
  induction k as [s|nu s|l alpha|l p|c|n|s|k1 IH1 k2 IH2|k1 IH1 k2 IH2|k IH e]; cbn [definite] in Hk; try apply Rle_refl; cbn [own].
  - exact Hk.
  - destruct Hk as [H1 H2]. cbn [value]. apply Rplus_le_compat; auto.
  - destruct Hk as [H1 H2]. cbn [value]. apply Rmult_le_compat; auto.
  - destruct e as [n|r]; cbn [value npow]; [apply pow_incr; auto|]. rewrite (own_divisible d) by apply Hk. apply Rle_refl.
Qed.
Lemma own_row_add k x n : forall X s i, nth_error X i = Some x ->
  map (fun q => if Nat.eqb (fst q) (s + i) then own k x + n else value k x (snd q)) (combine (seq s (length X)) X) = add_at i (n + (own k x - value k x x)) (map (value k x) X).
Proof.
  assert (forall X s j, (j < s)%nat -> map (fun q => if Nat.eqb (fst q) j then own k x + n else value k x (snd q)) (combine (seq s (length X)) X) = map (value k x) X) as Rest.
  { induction X as [|a X IH]; intros s j H; [reflexivity|]. cbn [length seq combine map fst snd]. destruct (Nat.eqb_spec s j) as [->|]; [lia|]. f_equal. apply IH. lia. }
  induction X as [|a X IH]; intros s i H; [destruct i; discriminate|]. destruct i as [|i]; cbn [length seq combine map fst snd add_at].
  - injection H as ->. rewrite Nat.add_0_r, Nat.eqb_refl. f_equal; [ring|apply Rest; lia].
  - destruct (Nat.eqb_spec s (s + S i)) as [E|_]; [lia|]. f_equal. rewrite <- plus_n_Sm. apply (IH (S s) i H).
Qed.
Definition with_white (k : kernel) (X : list (list R)) (noise : list R) : list R := map (fun q => snd q + (own k (fst q) - value k (fst q) (fst q))) (combine X noise).
Lemma own_matrix_eq k X noise : length noise = length X -> own_matrix k X noise = kernel_matrix (value k) X (with_white k X noise).
Proof.
  intros L. unfold own_matrix, kernel_matrix, own_row, with_white.
  assert (forall Y N s, (forall i y, nth_error Y i = Some y -> nth_error X (s + i) = Some y) -> length N = length Y ->
    map (fun q => map (fun p => if Nat.eqb (fst p) (fst q) then own k (fst (snd q)) + snd (snd q) else value k (fst (snd q)) (snd p)) (combine (seq 0 (length X)) X)) (combine (seq s (length Y)) (combine Y N)) =
    map (fun q => add_at (fst q) (snd (snd q)) (map (value k (fst (snd q))) X)) (combine (seq s (length Y)) (combine Y (map (fun q => snd q + (own k (fst q) - value k (fst q) (fst q))) (combine Y N))))) as K.
  { induction Y as [|y Y IH]; intros [|n N] s HY HN; try discriminate HN; [reflexivity|]. cbn [length seq combine map fst snd]. f_equal.
    - apply (own_row_add k y n X 0 s). specialize (HY O y eq_refl). rewrite Nat.add_0_r in HY. exact HY.
    - apply IH; [|injection HN as HN; exact HN]. intros i z Hz. specialize (HY (S i) z Hz). rewrite <- plus_n_Sm in HY. exact HY. }
  apply (K X noise O); [intros i y H; exact H|exact L].
Qed.
(** With noise in the kernel: the surrogate can be computed if the kernel or the noise levels have some, and its variances lie between 0 and the prior's, which has the noise too. *)
Theorem C98_with_noise :
  forall d k, definite d k -> forall X noise y, sizes X noise y -> Forall (fun x => length x = d) X ->
  (forall n, In n noise -> 0 < n) \/ (forall n, In n noise -> 0 <= n) /\ (forall x, In x X -> value k x x < own k x) ->
  exists g, update_own k X noise y = Some g /\ forall x, length x = d -> 0 <= own_var k X g x <= own k x.
Proof.
  intros d k Hk X noise y [H1 H2] HX Hn. assert (sizes X (with_white k X noise) y) as Hs. { split; [unfold with_white; rewrite map_length, combine_length; lia|exact H2]. }
  destruct (C98_surrogate_exists d k Hk X (with_white k X noise) y Hs HX) as (g & E & V).
  - intros m Hm. unfold with_white in Hm. apply in_map_iff in Hm as ([x n] & <- & Hq). cbn [fst snd]. pose proof (in_combine_l _ _ _ _ Hq) as Ix. pose proof (in_combine_r _ _ _ _ Hq) as In'.
    rewrite Forall_forall in HX. pose proof (own_value d k x Hk (HX x Ix)) as O. destruct Hn as [Hn|[Hn Ho]]; [specialize (Hn n In'); lra|]. specialize (Hn n In'). specialize (Ho x Ix). lra.
  - exists g. split; [unfold update_own; rewrite own_matrix_eq by lia; exact E|]. intros x Hx. destruct (V x Hx) as [Hv _]. pose proof (own_value d k x Hk Hx) as O. unfold own_var, gp_var in *. lra.
Qed.
(** The noise of the kernel is on the diagonal only: a point and a copy of it, no other noise. *)
Example C98_white_case : definite 1 (Sum (RBF (Iso 1)) (WhiteKernel 2)) /\ own_matrix (Sum (RBF (Iso 1)) (WhiteKernel 2)) [[0]; [0]] [0; 0] = [[3; 1]; [1; 3]] /\
  exists g, update_own (Sum (RBF (Iso 1)) (WhiteKernel 2)) [[0]; [0]] [0; 0] [5; 7] = Some g.
Proof.
  assert (definite 1 (Sum (RBF (Iso 1)) (WhiteKernel 2))) as D by (cbn; lra). split; [exact D|].
  assert (exp (- / 2 * (((0 - 0) / 1) ^ 2 + 0)) = 1) as E by (replace (- / 2 * (((0 - 0) / 1) ^ 2 + 0)) with 0 by field; apply exp_0). split.
  - cbn -[exp pow Rinv Rdiv]. cbn [own value length repeat per_dim scaled_diff sum_sq]. rewrite E. repeat f_equal; lra.
  - destruct (C98_with_noise 1 _ D [[0]; [0]] [0; 0] [5; 7]) as (g & Eg & _); [split; reflexivity|repeat constructor| |exists g; exact Eg]. right. split; [intros n [<-|[<-|[]]]; lra|].
    intros x [<-|[<-|[]]]; cbn [own value]; lra.
Qed.
(** Powers that are not natural: the square root of a kernel of the exponential kind, and a product with one. *)
Example C98_root_case : definite 2 (Sum (Exponentiation (Product (ConstantKernel 4) (Matern Half (Iso 3))) (Real (/ 2))) (DotProduct 1)).
Proof. cbn. repeat split; lra. Qed.
(** Not of others: the square root of [DotProduct] is not positive definite, and there is no surrogate for the points 0, 1, 2 with noise variances 1/200. *)
Theorem C98_root_refuted :
  exists X noise y, sizes X noise y /\ Forall (fun x => length x = 1%nat) X /\ (forall n, In n noise -> 0 < n) /\
    update_model (value (Exponentiation (DotProduct 1) (Real (/ 2)))) X noise y = None.
Proof.
  set (k := value (Exponentiation (DotProduct 1) (Real (/ 2)))).
  assert (forall a b, 0 < a * b + 1 -> k [a] [b] = sqrt (a * b + 1)) as K. { intros a b P. unfold k. cbn [value npow inner]. replace (a * b + 0 + 1 ^ 2) with (a * b + 1) by ring. apply Rpower_sqrt, P. }
  set (e := / 200). exists [[0]; [1]; [2]], [e; e; e], [0; 0; 0]. split; [split; reflexivity|]. split; [repeat constructor|].
  split; [intros n [<-|[<-|[<-|[]]]]; unfold e; lra|].
  destruct (update_model k [[0]; [1]; [2]] [e; e; e] [0; 0; 0]) as [g|] eqn:E; [exfalso|reflexivity].
  destruct (update_chol k [[0]; [1]; [2]] [e; e; e] [0; 0; 0] g eq_refl E) as (HC & _).
  assert (symmetric k) as Hs. { intros x y. unfold k. cbn [value]. rewrite <- !dot_inner, dot_comm. reflexivity. }
  pose proof (quad_LT k Hs _ _ HC [1; -2; 1] eq_refl) as Q. pose proof (dot_pos (LTmul (g_L g) [1; -2; 1])) as Hp. rewrite <- Q in Hp.
  unfold quad_noise, quad in Hp. cbn [combine map total fold_right fst snd] in Hp. rewrite !K in Hp by lra.
  replace (0 * 0 + 1) with 1 in Hp by ring. replace (0 * 1 + 1) with 1 in Hp by ring. replace (1 * 0 + 1) with 1 in Hp by ring. replace (0 * 2 + 1) with 1 in Hp by ring. replace (2 * 0 + 1) with 1 in Hp by ring.
  replace (1 * 1 + 1) with 2 in Hp by ring. replace (1 * 2 + 1) with 3 in Hp by ring. replace (2 * 1 + 1) with 3 in Hp by ring. replace (2 * 2 + 1) with 5 in Hp by ring. rewrite sqrt_1 in Hp.
  assert (sqrt 2 < 1.41422) by (apply Rsqr_incrst_0; [rewrite Rsqr_sqrt by lra; unfold Rsqr; lra|apply sqrt_pos|lra]).
  assert (sqrt 5 < 2.23607) by (apply Rsqr_incrst_0; [rewrite Rsqr_sqrt by lra; unfold Rsqr; lra|apply sqrt_pos|lra]).
  assert (1.73205 < sqrt 3) by (apply Rsqr_incrst_0; [rewrite Rsqr_sqrt by lra; unfold Rsqr; lra|lra|apply sqrt_pos]).
  unfold e in Hp. lra.
Qed.

(** All kernels are symmetric, so that C27, C28 and C96 hold for them. (For [WhiteKernel] the
    matrix of the training points has its noise on the diagonal, which [value] does not include: here it is part of [noise], as in [own_matrix_eq].) *)
Lemma diff_symmetric s : forall x y, sum_sq (scaled_diff (per_dim s (length x)) x y) = sum_sq (scaled_diff (per_dim s (length y)) y x).
Proof.
  destruct s as [l|ls]; cbn [per_dim].
  - induction x as [|a x IH]; intros [|b y]; auto. cbn [length repeat scaled_diff sum_sq]. rewrite IH. unfold Rdiv. ring.
  - revert ls. assert (forall ls x y, sum_sq (scaled_diff ls x y) = sum_sq (scaled_diff ls y x)) as H; [|auto].
    induction ls as [|l ls IH]; intros [|a x] [|b y]; auto. cbn [scaled_diff sum_sq]. rewrite IH. unfold Rdiv. ring.
Qed.
Lemma value_symmetric k : symmetric (value k).
Proof.
  induction k as [s|nu s|l alpha|l p|c| |s|k1 IH1 k2 IH2|k1 IH1 k2 IH2|k IH e]; intros x y; cbn [value]; auto.
  - rewrite diff_symmetric. auto.
  - rewrite diff_symmetric. auto.
  - pose proof (diff_symmetric (Iso 1) x y) as E. cbn [per_dim] in E. rewrite E. auto.
  - pose proof (diff_symmetric (Iso 1) x y) as E. cbn [per_dim] in E. rewrite E. auto.
  - rewrite <- !dot_inner, dot_comm. auto.
  - rewrite IH1, IH2. auto.
  - rewrite IH1, IH2. auto.
  - rewrite IH. auto.
Qed.
Theorem C27_kernels :
  forall k (prX : list R -> list R) m s clip X noise y g i x t, sizes X noise y -> s <> 0 -> 1 <= clip ->
  model_of (value k) prX m s X noise y = Some g -> nth_error X i = Some x -> nth_error noise i = Some 0 -> nth_error y i = Some t ->
  predicted_mean (value k) prX m s clip X y g x = t /\ predicted_std (value k) prX s X g x = 0.
Proof. intros k prX m s clip X noise y g i x t. apply C27_predict, value_symmetric. Qed.
Theorem C28_kernels :
  forall k X noise y g X2 noise2 y2 g' x, sizes X noise y -> sizes X2 noise2 y2 ->
  update_model (value k) X noise y = Some g -> update_model (value k) (X ++ X2) (noise ++ noise2) (y ++ y2) = Some g' ->
  gp_std (value k) (X ++ X2) g' x <= gp_std (value k) X g x.
Proof. intros k X noise y g X2 noise2 y2 g' x. apply C28_appended, value_symmetric. Qed.
Theorem C96_kernels :
  forall k X noise y g X2 noise2 g' x, sizes X noise y -> length X2 = length noise2 ->
  update_model (value k) X noise y = Some g -> update_model (value k) (X ++ X2) (noise ++ noise2) (y ++ map (gp_mean (value k) X g) X2) = Some g' ->
  gp_mean (value k) (X ++ X2) g' x = gp_mean (value k) X g x.
Proof. intros k X noise y g X2 noise2 g' x. apply C96_believer, value_symmetric. Qed.
Print Assumptions C98_positive.
Print Assumptions C98_surrogate_exists.
Print Assumptions C98_periodic_refuted.
Print Assumptions C98_with_noise.
Print Assumptions C98_root_refuted.
Print Assumptions C27_kernels.
Print Assumptions C28_kernels.
Print Assumptions C96_kernels.

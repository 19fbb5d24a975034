(** C133, over the real numbers: predictions are continuous, and far away from the training points they are those of the
    prior. *)
From Coq Require Import Reals Lra Lia List.
From Coquelicot Require Import Coquelicot.
From Verif Require Import MKernel MWhite SLaws MLinAlg PLinAlg SLinAlg PLaws2 PLaws3 TLinAlg.
From Verif Require PGp2.
Set Default Goal Selector "!".
Set Bullet Behavior "Strict Subproofs".
Open Scope R_scope.

Lemma columns K y g : kernel_inverse K y = Some g -> Forall (fun c => length c = length (g_L g)) (g_V g).
Proof.
  unfold kernel_inverse. destruct (cholesky K) as [L|]; [|discriminate]. intros E. injection E as <-. cbn [g_V g_L]. unfold inverse. rewrite Forall_map, Forall_forall. intros j _.
  apply forward_length. unfold unit_vector. rewrite map_length, seq_length. reflexivity.
Qed.
Lemma dot_zeros n u : dot (repeat 0 n) u = 0.
Proof. revert u. induction n as [|n IH]; intros [|a u]; cbn; try lra. rewrite IH. lra. Qed.
Lemma map_zeros {A} (l : list A) : map (fun _ => 0) l = repeat 0 (length l).
Proof. induction l as [|a l IH]; cbn; [|rewrite IH]; reflexivity. Qed.
Lemma norm_zero K y g {A} (X : list A) : kernel_inverse K y = Some g ->
  (let M := mul_columns (length (g_L g)) (g_V g) (map (fun _ => 0) X) in dot M M) = 0.
Proof.
  intros E. cbv zeta. rewrite (mul_zero (g_V g)); [apply dot_zeros| |eapply columns; eauto]. intros a Ha. apply in_map_iff in Ha as (b & <- & _). reflexivity.
Qed.
Lemma lim_value u (a b : R) : is_lim_seq u a -> a = b -> is_lim_seq u b.
Proof. intros H <-. exact H. Qed.

Section T.
Context {Q P : Type}.
Variable k : P -> P -> R.
Variable prX : Q -> P.

(** Where the kernel is continuous, so is what [predict] returns: means and standard deviations. *)
Theorem C133_continuous m s clip X y g (xs : nat -> Q) (x : Q) :
  (forall z, In z X -> is_lim_seq (fun j => k (prX (xs j)) (prX z)) (k (prX x) (prX z))) ->
  is_lim_seq (fun j => k (prX (xs j)) (prX (xs j))) (k (prX x) (prX x)) ->
  is_lim_seq (fun j => predicted_mean k prX m s clip X y g (xs j)) (predicted_mean k prX m s clip X y g x) /\
  is_lim_seq (fun j => predicted_std k prX s X g (xs j)) (predicted_std k prX s X g x).
Proof.
  intros Hk Hd. assert (forall z, In z (map prX X) -> is_lim_seq (fun j => k (prX (xs j)) z) (k (prX x) z)) as Hz by (intros z Hz; apply in_map_iff in Hz as (q & <- & Hq); auto). split.
  - unfold predicted_mean. apply lim_min; [|apply is_lim_seq_const]. apply lim_plus; [|apply is_lim_seq_const]. apply lim_mult; [apply is_lim_seq_const|].
    apply (mean_lim k (map prX X) g (fun j => prX (xs j)) (k (prX x)) Hz).
  - unfold predicted_std. apply lim_mult; [apply is_lim_seq_const|]. rewrite std_sqrt. eapply is_lim_seq_ext; [intros j; symmetry; apply std_sqrt|]. apply lim_sqrt.
    apply (var_lim k (map prX X) g (fun j => prX (xs j)) (k (prX x)) _ Hz Hd).
Qed.
(** Where the kernel vanishes: the centre of the values (but for the clipping), with the standard deviation of the
    prior, whatever the training values, their noise and the hyperparameters. *)
Theorem C133_prior m s clip X noise y g (xs : nat -> Q) v : model_of k prX m s X noise y = Some g ->
  (forall z, In z X -> is_lim_seq (fun j => k (prX (xs j)) (prX z)) 0) -> is_lim_seq (fun j => k (prX (xs j)) (prX (xs j))) (Finite v) ->
  is_lim_seq (fun j => predicted_mean k prX m s clip X y g (xs j)) (Rmin m (clip * maximum y - (clip - 1) * minimum y)) /\
  is_lim_seq (fun j => predicted_std k prX s X g (xs j)) (s * sqrt v).
Proof.
  intros E Hk Hd. assert (forall z, In z (map prX X) -> is_lim_seq (fun j => k (prX (xs j)) z) ((fun _ => 0) z)) as Hz by (intros z Hz; apply in_map_iff in Hz as (q & <- & Hq); auto). split.
  - unfold predicted_mean. apply lim_min; [|apply is_lim_seq_const]. eapply lim_value; [apply lim_plus; [apply lim_mult; [apply is_lim_seq_const|apply (mean_lim k (map prX X) g (fun j => prX (xs j)) (fun _ => 0) Hz)]|apply is_lim_seq_const]|].
    rewrite map_zeros, dot_zeros. ring.
  - unfold predicted_std. apply lim_mult; [apply is_lim_seq_const|]. eapply is_lim_seq_ext; [intros j; symmetry; apply std_sqrt|]. apply lim_sqrt.
    eapply lim_value; [apply (var_lim k (map prX X) g (fun j => prX (xs j)) (fun _ => 0) _ Hz Hd)|]. rewrite (norm_zero _ _ _ _ E). ring.
Qed.
(** With the values normalised by their mean, as by default, and a clipping factor of at least 1: the mean of the training
    values. It is not below all of them, and so the surrogate does not fall off outside of the region explored. *)
Lemma mean_between y : y <> [] -> minimum y <= total y / INR (length y) <= maximum y.
Proof.
  intros Hy. assert (0 < INR (length y)) as Hl by (apply lt_0_INR; destruct y; [congruence|cbn; lia]).
  assert (forall l M, (forall a, In a l -> a <= M) -> total l <= INR (length l) * M) as U.
  { induction l as [|a l IH]; intros M HM; [cbn; lra|]. cbn [length total fold_right]. rewrite S_INR. specialize (IH M (fun b Hb => HM b (or_intror Hb))). specialize (HM a (or_introl eq_refl)). unfold total in IH. lra. }
  assert (forall l M, (forall a, In a l -> M <= a) -> INR (length l) * M <= total l) as L.
  { induction l as [|a l IH]; intros M HM; [cbn; lra|]. cbn [length total fold_right]. rewrite S_INR. specialize (IH M (fun b Hb => HM b (or_intror Hb))). specialize (HM a (or_introl eq_refl)). unfold total in IH. lra. }
  split; apply (Rmult_le_reg_r (INR (length y))); auto; unfold Rdiv; rewrite Rmult_assoc, Rinv_l, Rmult_1_r by lra; rewrite Rmult_comm.
  - apply L. intros a Ha. apply PGp2.minimum_le. auto.
  - apply U. intros a Ha. apply PGp2.maximum_ge. auto.
Qed.
Theorem C133_default s clip X noise y g (xs : nat -> Q) v : y <> [] -> 1 <= clip -> model_of k prX (total y / INR (length y)) s X noise y = Some g ->
  (forall z, In z X -> is_lim_seq (fun j => k (prX (xs j)) (prX z)) 0) -> is_lim_seq (fun j => k (prX (xs j)) (prX (xs j))) (Finite v) ->
  minimum y <= total y / INR (length y) <= maximum y /\
  is_lim_seq (fun j => predicted_mean k prX (total y / INR (length y)) s clip X y g (xs j)) (total y / INR (length y)) /\
  is_lim_seq (fun j => predicted_std k prX s X g (xs j)) (s * sqrt v).
Proof.
  intros Hy Hc E Hk Hd. pose proof (mean_between y Hy) as [M1 M2]. split; [auto|]. destruct (C133_prior _ s clip X noise y g xs v E Hk Hd) as [H1 H2]. split; auto.
  eapply lim_value; [exact H1|]. apply Rmin_left. nra.
Qed.
End T.

(** All kernels of the model (but for roots) are continuous in the coordinates, and so are the predictions. *)
Theorem C133_kernels d k X g xs x : smooth k -> approach d xs x ->
  is_lim_seq (fun j => gp_mean (value k) X g (xs j)) (gp_mean (value k) X g x) /\ is_lim_seq (fun j => own_var k X g (xs j)) (own_var k X g x).
Proof.
  intros Hk Ha. apply approach_vlim in Ha.
  assert (forall z, In z X -> is_lim_seq (fun j => value k (xs j) z) (value k x z)) as Hz by (intros z _; apply (value_lim k Hk xs x (fun _ => z) z Ha (vlim_const z))). split.
  - apply (mean_lim (value k) X g xs (value k x) Hz).
  - unfold own_var. cbv zeta. apply is_lim_seq_minus'; [apply own_lim; auto|]. apply (norm_lim (value k) X g xs (value k x) Hz).
Qed.
(** Far away, for the kernels of the default surrogate and others: the mean of the prior, 0, and its variance, which is
    the same everywhere. *)
Theorem C133_far d k X noise y g xs x : fading d k -> update_own k X noise y = Some g -> Forall (fun z => length z = d) X -> escape d xs ->
  is_lim_seq (fun j => gp_mean (value k) X g (xs j)) 0 /\ is_lim_seq (fun j => own_var k X g (xs j)) (own k x).
Proof.
  intros Hk E HX He. rewrite Forall_forall in HX.
  assert (forall z, In z X -> is_lim_seq (fun j => value k (xs j) z) ((fun _ => 0) z)) as Hz by (intros z Hz; apply (fading_lim d k Hk); auto). split.
  - eapply lim_value; [apply (mean_lim (value k) X g xs (fun _ => 0) Hz)|]. rewrite map_zeros. apply dot_zeros.
  - unfold own_var. cbv zeta. eapply lim_value; [apply is_lim_seq_minus'; [|apply (norm_lim (value k) X g xs (fun _ => 0) Hz)]|].
    + eapply is_lim_seq_ext; [|apply (is_lim_seq_const (own k x))]. intros j. cbn beta. apply (fading_own d k Hk).
    + rewrite (norm_zero _ _ _ _ E). ring.
Qed.
Print Assumptions C133_continuous. Print Assumptions C133_prior. Print Assumptions C133_default. Print Assumptions C133_kernels. Print Assumptions C133_far.

(** The default kernel in two dimensions, with points along a diagonal, and one training point. *)
Example C133_case : let k := Product (ConstantKernel 4) (RBF (Aniso [1; 2])) in let xs := fun j => [INR j; - INR j] in
  fading 2 k /\ smooth k /\ escape 2 xs /\ own k [0; 0] = 4 /\
  exists g, update_own k [[0; 0]] [1] [5] = Some g /\ gp_mean (value k) [[0; 0]] g [0; 0] = 4 /\
    is_lim_seq (fun j => gp_mean (value k) [[0; 0]] g (xs j)) 0 /\ is_lim_seq (fun j => own_var k [[0; 0]] g (xs j)) 4.
Proof.
  intros k xs. assert (fading 2 k) as HF by (apply fading_constant_l, fading_rbf; cbn; split; auto; repeat constructor; lra).
  assert (escape 2 xs) as HE.
  { split; [reflexivity|]. exists O. split; [lia|]. eapply is_lim_seq_ext; [|apply is_lim_seq_INR]. intros j. cbn [xs nth]. symmetry. apply Rabs_right, Rle_ge, pos_INR. }
  assert (forall x, own k x = 4) as HO by (intros x; cbn [own k value]; rewrite diff_self, Rmult_0_r, exp_0; ring).
  split; [exact HF|]. split; [cbn; auto|]. split; [exact HE|]. split; [apply HO|].
  assert (exists g, update_own k [[0; 0]] [1] [5] = Some g /\ g_alpha g = [1]) as (g & E & Ea).
  { unfold update_own, kernel_inverse, own_matrix, own_row, cholesky. cbn [length seq combine map fst snd Nat.eqb fold_left cholesky_step]. rewrite HO. unfold forward. cbn [combine fold_left firstn nth dot].
    destruct (Rlt_dec 0 (4 + 1 - 0)) as [H|H]; [|lra]. rewrite Rminus_0_r. eexists. split; [reflexivity|]. cbn. pose proof (sqrt_sqrt (4 + 1)) as HS. set (q := sqrt (4 + 1)) in *. specialize (HS ltac:(lra)).
    assert (q <> 0) by nra. f_equal. unfold Rdiv. rewrite Rmult_assoc. rewrite <- Rinv_mult. rewrite HS. lra. }
  exists g. split; [exact E|]. assert (Forall (fun z : list R => length z = 2%nat) [[0; 0]]) as HX by repeat constructor.
  destruct (C133_far 2 k [[0; 0]] [1] [5] g xs [0; 0] HF E HX HE) as [H1 H2]. rewrite HO in H2. split; [|auto].
  unfold gp_mean. rewrite Ea. cbn [map dot]. change (value k [0; 0] [0; 0]) with (own k [0; 0]). rewrite HO. lra.
Qed.

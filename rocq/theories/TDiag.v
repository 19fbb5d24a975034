(** The diagnosis of the final Monte Carlo sample (C113). *)
From Verif Require Import MRun.
From Verif Require Import SDet PLinAlg PWhiten PDet MKl PKl TKl.
From Coq Require Import Lra Lia Psatz.
Set Default Goal Selector "!".
Set Bullet Behavior "Strict Subproofs".
Open Scope R_scope.

Section C113.
Variable inv : mat -> res mat.
Variable ex : R -> R.
Variable cdf : R -> nat -> R.

(** In a problem with one parameter the diagnosis never gives a verdict: [np.cov] returns a 0-dimensional array, which [np.linalg.inv] refuses. *)
Theorem C113_one_parameter_refuted : forall X w X_train y_train acq, exists x, diagnose inv ex cdf 1 X w X_train y_train acq = Err x.
Proof.
  intros X w X_train y_train acq. unfold diagnose, mean_covmat_from_samples. destruct (np_average 1 X _) as [m|x]; cbn [bind]; [|eauto].
  unfold np_cov_of at 1. destruct (negative _); cbn [bind]; [eauto|]. destruct (mean_covmat_from_evals ex 1 X_train y_train) as [[mt at_]|x]; cbn [bind fst snd Nat.eqb]; [|eauto].
  cbn [criterion_value_from_means_cov bind]. eauto.
Qed.
(** With a sample and a training set that are as they should be the exception is that of [np.linalg.inv]. *)
Theorem C113_one_parameter_error : forall X w X_train y_train acq, (forall x, 0 <= ex x) -> ex 0 = 1 ->
  length X = length w -> (forall a, In a w -> 0 <= a) -> (exists a, In a w /\ a <> 0) -> length X_train = length y_train -> y_train <> [] ->
  diagnose inv ex cdf 1 X (Some w) X_train y_train acq = Err ValueError.
Proof.
  intros X w X_train y_train acq E0 E1 HL HW HE HT HN. destruct (C112_samples 1 X w HL HW HE) as (m & a & E & _ & _ & E2 & _).
  destruct y_train as [|b l]; [congruence|]. destruct (vmax_spec l b) as (V1 & V2 & V3).
  destruct (C112_evals ex 1 X_train (b :: l) (vmax b l) E0 E1 HT) as (mt & at_ & Et & _).
  { destruct V3 as [->|V3]; [left; reflexivity|right; exact V3]. }
  { intros x [<-|Hx]; auto. }
  unfold diagnose. rewrite E, Et. cbn [bind fst snd]. destruct a as [x|c]; [reflexivity|]. exfalso. apply (proj1 E2); [exact I|reflexivity].
Qed.

Lemma quadratic_solution n C B z D : spd n C -> inverse_of n C B -> (forall i, (i < n)%nat -> sum n (fun j => C i j * z j) = D i) ->
  quadratic n B D = sum n (fun i => D i * z i) /\ 0 <= quadratic n B D.
Proof.
  intros HC HB Hz. destruct (factor_exists n C HC) as (L & FL). pose proof FL as (L1 & L2 & L3 & _).
  set (f := fun k => sum n (fun i => L i k * z i)).
  assert (Hf : forall i, (i < n)%nat -> sum n (fun k => L i k * f k) = D i).
  { intros i Hi. rewrite <- Hz by exact Hi. unfold f. rewrite (sum_ext n _ (fun k => sum n (fun j => L i k * (L j k * z j)))) by (intros; rewrite sum_scal; reflexivity).
    rewrite sum_swap. apply sum_ext. intros j Hj. rewrite (L3 i j Hi Hj), <- sum_scal_r. apply sum_ext. intros. ring. }
  pose proof (inverse_quadratic n C L B D f FL HB Hf) as Q. rewrite <- quadratic_as in Q. rewrite Q. split; [|apply sum_nonneg; intros; apply Rle_0_sqr].
  rewrite (sum_ext n (fun k => f k * f k) (fun k => sum n (fun i => f k * (L i k * z i)))) by (intros; rewrite sum_scal; reflexivity).
  rewrite sum_swap. apply sum_ext. intros i Hi. rewrite <- (Hf i Hi), <- sum_scal_r. apply sum_ext. intros. ring.
Qed.
(** With two parameters or more and an engine without samples of its own: the verdict is positive exactly if the mean of the training set is at a
    Mahalanobis distance from the sample whose credibility is between 0 and a half, both excluded. *)
Theorem C113_verdict : forall d X w X_train y_train m c mt a z,
  mean_covmat_from_samples d X w = Ok (m, Matrix (Some c)) -> mean_covmat_from_evals ex d X_train y_train = Ok (mt, a) ->
  length m = d -> length mt = d -> spd d (at2 c) -> inverts inv d c -> (forall i, (i < d)%nat -> sum d (fun j => at2 c i j * z j) = nth i m 0 - nth i mt 0) ->
  exists b, diagnose inv ex cdf d X w X_train y_train None = Ok b /\ (b = true <-> 0 < cdf (sum d (fun i => (nth i m 0 - nth i mt 0) * z i)) d < 1 / 2).
Proof.
  intros d X w X_train y_train m c mt a z E1 E2 Lm Lt HC [HI _] Hz. destruct HI as (b & Hb & HB); [apply Rgt_not_eq, det_positive, HC|].
  unfold diagnose. rewrite E1, E2. cbn [bind fst snd criterion_value_from_means_cov]. rewrite Hb. cbn [bind].
  rewrite (form_quadratic d b mt m Lt Lm). destruct (quadratic_solution d (at2 c) (at2 b) z _ HC HB Hz) as [Q P]. cbn beta in Q. rewrite Q in *.
  destruct (Rlt_dec (sum d (fun i => (nth i m 0 - nth i mt 0) * z i)) 0) as [C|_]; [lra|]. rewrite Lm. eexists. split; [reflexivity|]. unfold between.
  destruct (Rlt_dec 0 _) as [A|A]; [destruct (Rlt_dec _ (1 / 2)) as [B|B]|]; split; intros H; try discriminate; try (split; assumption); try reflexivity; destruct H; contradiction.
Qed.
(** With an engine that has a sample of its own (NORA), also the divergence of the final sample from it must be below the dimension. *)
Theorem C113_verdict_nora : forall d X w X_train y_train m c mt a z Xa wa ma ca,
  mean_covmat_from_samples d X w = Ok (m, Matrix (Some c)) -> mean_covmat_from_evals ex d X_train y_train = Ok (mt, a) ->
  length m = d -> length mt = d -> spd d (at2 c) -> inverts inv d c -> (forall i, (i < d)%nat -> sum d (fun j => at2 c i j * z j) = nth i m 0 - nth i mt 0) ->
  np_average d Xa wa = Ok ma -> np_cov_of 0 d Xa wa = Ok (Matrix (Some ca)) -> length ma = d -> spd d (at2 ca) -> inverts inv d ca ->
  exists b B, inverse_of d (at2 ca) B /\ diagnose inv ex cdf d X w X_train y_train (Some (Ok (Xa, wa))) = Ok b /\
    (b = true <-> 0 < cdf (sum d (fun i => (nth i m 0 - nth i mt 0) * z i)) d < 1 / 2 /\ divergence d (at2 c) (at2 ca) B (fun i => nth i ma 0 - nth i m 0) < INR d).
Proof.
  intros d X w X_train y_train m c mt a z Xa wa ma ca E1 E2 Lm Lt HC HI Hz Ea Ec La HA [HJ _].
  destruct (C113_verdict d X w X_train y_train m c mt a z E1 E2 Lm Lt HC HI Hz) as (b & Eb & Hb). destruct HJ as (B & EB & HB); [apply Rgt_not_eq, det_positive, HA|].
  unfold diagnose in *. rewrite E1, E2 in *. cbn [bind fst snd] in *. destruct (criterion_value_from_means_cov _ _ _ _ _) as [cred|x]; cbn [bind] in *; [|discriminate]. injection Eb as Eb.
  rewrite Ea, Ec. cbn [bind atleast_2d]. rewrite (kl_finite inv d m c ma ca B Lm La HC HA EB). cbn [bind fless]. eexists. exists (at2 B). split; [exact HB|]. split; [reflexivity|]. rewrite Eb, andb_true_iff, Hb.
  destruct (Rlt_dec _ (INR d)); intuition discriminate.
Qed.
(** No divergence that is infinite or undefined passes: whatever the samples, a success means that it is below the dimension. *)
Theorem C113_divergence : forall d X w X_train y_train Xa wa ma ca, diagnose inv ex cdf d X w X_train y_train (Some (Ok (Xa, wa))) = Ok true ->
  np_average d Xa wa = Ok ma -> np_cov_of 0 d Xa wa = Ok ca ->
  exists m c kl, mean_covmat_from_samples d X w = Ok (m, c) /\ kl_norm inv m c ma (atleast_2d ca) = Ok kl /\ (kl = MInf \/ exists x, kl = F x /\ x < INR d).
Proof.
  intros d X w X_train y_train Xa wa ma ca H Ea Ec. unfold diagnose in H. destruct (mean_covmat_from_samples d X w) as [[m c]|x]; cbn [bind] in H; [|discriminate H].
  destruct (mean_covmat_from_evals ex d X_train y_train) as [tr|x]; cbn [bind] in H; [|discriminate H]. destruct (criterion_value_from_means_cov _ _ _ _ _) as [cred|x]; cbn [bind] in H; [|discriminate H].
  cbn [fst snd] in H. rewrite Ea, Ec in H. cbn [bind fst snd] in H. destruct (kl_norm inv m c ma (atleast_2d ca)) as [kl|x] eqn:K; cbn [bind] in H; [|discriminate H]. injection H as H. apply andb_true_iff in H as [_ H].
  exists m, c, kl. split; [reflexivity|]. split; [exact K|]. destruct kl as [x| | |]; cbn in H; try discriminate H; [|left; reflexivity]. right. exists x. split; [reflexivity|]. destruct (Rlt_dec x (INR d)) as [L|L]; [exact L|discriminate H].
Qed.
(** Perfect agreement of the means is reported as a failure. *)
Theorem C113_agreement_refuted : forall d X w X_train y_train m c a, (forall k, cdf 0 k = 0) ->
  mean_covmat_from_samples d X w = Ok (m, Matrix (Some c)) -> mean_covmat_from_evals ex d X_train y_train = Ok (m, a) ->
  length m = d -> spd d (at2 c) -> inverts inv d c -> diagnose inv ex cdf d X w X_train y_train None = Ok false.
Proof.
  intros d X w X_train y_train m c a H0 E1 E2 Lm HC HI.
  destruct (C113_verdict d X w X_train y_train m c m a (fun _ => 0) E1 E2 Lm Lm HC HI) as (b & Eb & Hb).
  - intros i Hi. rewrite sum_0 by (intros; ring). ring.
  - rewrite Eb. destruct b; [|reflexivity]. exfalso. destruct Hb as [Hb _]. specialize (Hb eq_refl). rewrite sum_0 in Hb by (intros; ring). rewrite H0 in Hb. lra.
Qed.

(** The criterion GaussianKLTrain: with one parameter it raises whatever the samples are, recording NaN. *)
Theorem C113_kl_train_refuted : forall (to_num : fl -> Num.num) cap (c : klcrit (vec * array)) k limit limit_times X y m a,
  mean_covmat_from_evals ex 1 X y = Ok (m, a) -> train_mc k = Ok (m, a) -> (exists p, new_mc k = Ok p) ->
  let kl := fun p q => do v <- kl_norm inv (fst p) (snd p) (fst q) (snd q); Ok (to_num v) in
  exists c', kl_is_converged (train_value kl cap) limit limit_times c k = (c', Err ConvergenceCheckError) /\
    values (hist c') = (values (hist c) ++ [Num.NaN])%list.
Proof.
  intros to_num cap c k limit limit_times X y m a E Et (p & En) kl. assert (A : exists x, a = Scalar x).
  { unfold mean_covmat_from_evals in E. destruct y as [|b l]; [discriminate|]. destruct (remove_0_weight _ _) as [r|]; [|discriminate]. cbn [bind] in E.
    destruct (np_average _ _ _); [|discriminate]. cbn [bind] in E. unfold np_cov_of in E. destruct (negative _); [discriminate|]. cbn [bind Nat.eqb] in E.
    injection E as _ <-. eauto. }
  destruct A as (x & ->). unfold kl_is_converged, train_value. rewrite En, Et. unfold kl. cbn [fst snd kl_norm bind]. unfold fail_record. eexists. split; [reflexivity|]. reflexivity.
Qed.
End C113.

(** So a run with one parameter ends without an exception only if it gives up because no new points are found. *)
Section Run.
Context {pt pt_ PX PY model theta box : Type}.
Variable e : env pt pt_ PX PY model theta box.
Variable c : config theta.
Variable o : options.
Variables (size : nat) (verbose loaded : bool).
Notation rstate := (rstate pt pt_ PX PY model theta box).
Lemma loop_fails fuel : forall inputs final (s s' : rstate), (forall k, exists x, p_mc (inputs k) = Err x) -> (exists x, final = Err x) -> r_converged s = false ->
  loop e c o size fuel inputs final s = (s', Ok tt) -> (o_giveup o < Z.of_nat (r_resamples s'))%Z /\ r_converged s' = false.
Proof.
  induction fuel as [|fuel IH]; intros inputs final s s' Hi Hf Hc H; cbn [loop] in H; [discriminate|].
  destruct (goes_on c o s).
  2: { rewrite Hc in H. destruct Hf as (x & ->). discriminate. }
  destruct (one_pass e c o size (inputs O) s) as [s1 [b|x]] eqn:E1; [|discriminate].
  assert (G : r_converged s1 = false /\ (b = true -> (o_giveup o < Z.of_nat (r_resamples s1))%Z)).
  { unfold one_pass in E1. set (s0 := log _ (next_iter s)) in E1. destruct (do X <- _; _) as [X|x]; [|discriminate]. destruct (Nat.ltb _ _).
    - injection E1 as <- <-. split; [exact Hc|]. intros E. apply Z.ltb_lt. exact E.
    - unfold learn in E1. destruct (eval_truth_parallel _ _ _) as [[u y]|x]; [|discriminate]. destruct (fit_gpr_parallel _ _ _ _ _ _ _ _) as [g r].
      destruct (do _ <- r; _) as [v|x]; [|discriminate]. destruct (p_mean (inputs O)); [|discriminate]. destruct v.
      + destruct (Hi O) as (x & Ex). rewrite Ex in E1. discriminate.
      + destruct (p_save (inputs O)); cbn [bind] in E1; [|discriminate]. injection E1 as <- <-. split; [reflexivity|discriminate]. }
  destruct G as [G1 G2]. destruct b.
  - injection H as <-. auto.
  - apply (IH (fun k => inputs (S k)) final s1 s'); auto.
Qed.
Theorem C113_run_refuted : forall inv ex cdf fuel init save0 inputs final (s s' : rstate),
  (forall k, exists X w X_train y_train acq, p_mc (inputs k) = diagnose inv ex cdf 1 X w X_train y_train acq) ->
  (exists X w X_train y_train acq, final = diagnose inv ex cdf 1 X w X_train y_train acq) ->
  r_has_run s = false -> run e c o size verbose loaded fuel init save0 inputs final s = (s', Ok tt) ->
  (o_giveup o < Z.of_nat (r_resamples s'))%Z /\ r_converged s' = false.
Proof.
  intros inv ex cdf fuel init save0 inputs final s s' Hi Hf Hr H. unfold run in H. rewrite Hr in H.
  assert (Hi' : forall k, exists x, p_mc (inputs k) = Err x) by (intros k; destruct (Hi k) as (X & w & Xt & yt & acq & ->); apply C113_one_parameter_refuted).
  assert (Hf' : exists x, final = Err x) by (destruct Hf as (X & w & Xt & yt & acq & ->); apply C113_one_parameter_refuted).
  match type of H with (let '(s1, r1) := ?t in _) = _ => destruct t as [s1 r1] end. destruct r1 as [u|x]; [|discriminate].
  destruct (loop e c o size fuel inputs final (with_converged false s1)) as [s2 [[]|x]] eqn:El; [|discriminate]. injection H as <-.
  apply (loop_fails fuel inputs final (with_converged false s1) s2 Hi' Hf' eq_refl El).
Qed.
End Run.

(** Four points around (1, 1); the training set has its weight at (3/2, 1). *)
Definition square4 : mat := [[0; 0]; [2; 0]; [0; 2]; [2; 2]].
Definition inv4 (m : mat) : res mat := Ok [[3 / 4; 0]; [0; 3 / 4]].
Definition cdf2 (x : R) (d : nat) : R := 1 - exp (- (x / 2)).
Lemma sample4 : exists c, mean_covmat_from_samples 2 square4 (Some [1; 1; 1; 1]) = Ok ([1; 1], Matrix (Some c)) /\
  forall i j, (i < 2)%nat -> (j < 2)%nat -> at2 c i j = 4 / 3 * delta i j.
Proof.
  destruct (C112_samples 2 square4 [1; 1; 1; 1]) as (m & a & E & Lm & Em & E2 & Ec); [reflexivity|intros x Hx; cbn in Hx; repeat destruct Hx as [<-|Hx]; try lra; contradiction|exists 1; split; [left; reflexivity|lra]|].
  assert (m = [1; 1]) as ->.
  { apply (same_nth m [1; 1] 2 Lm eq_refl). intros i Hi. rewrite Em by exact Hi. destruct i as [|[|i]]; [unfold wmean, at2, square4; cbn; lra|unfold wmean, at2, square4; cbn; lra|lia]. }
  destruct a as [x|[c|]]; [exfalso; apply (proj2 E2); lia| |].
  - exists c. split; [exact E|]. intros i j Hi Hj. destruct (Ec i j Hi Hj) as [_ Ev]. specialize (Ev (at2 c i j) eq_refl). rewrite Ev. unfold wcov, wmean, at2, square4, delta.
    destruct i as [|[|i]], j as [|[|j]]; try lia; cbn; field.
  - exfalso. destruct (Ec O O) as [[Ev _] _]; [lia|lia|]. destruct (Ev eq_refl) as (k & Hk & Nk & Zk). cbn [length] in *.
    destruct k as [|k]; [specialize (Zk 1%nat); cbn in Zk; assert (1 = 0) by (apply Zk; lia); lra|]. specialize (Zk O). cbn in Zk. assert (1 = 0) by (apply Zk; lia). lra.
Qed.
Lemma two_spd c : (forall i j, (i < 2)%nat -> (j < 2)%nat -> at2 c i j = 4 / 3 * delta i j) -> spd 2 (at2 c) /\ inverts inv4 2 c.
Proof.
  intros H. assert (SP : spd 2 (at2 c)).
  { apply (spd_ext 2 (fun i j => 4 / 3 * delta i j)); [intros; symmetry; auto|]. split; [intros i j _ _; unfold delta; rewrite Nat.eqb_sym; reflexivity|].
    intros x (i & Hi & Nx). unfold quadratic, delta. cbn. pose proof (Rle_0_sqr (x O)). pose proof (Rle_0_sqr (x 1%nat)). pose proof (Rsqr_pos_lt _ Nx) as P. unfold Rsqr in *.
    destruct i as [|[|i]]; [nra|nra|lia]. }
  split; [exact SP|]. split; [|intros D; pose proof (det_positive _ _ SP); lra]. intros _. eexists. split; [reflexivity|]. intros i j Hi Hj.
  cbn [sum]. rewrite !H by lia. destruct i as [|[|i]], j as [|[|j]]; try lia; unfold delta, at2; cbn; field.
Qed.
Lemma train1 x y : mean_covmat_from_evals exp 2 [[x; y]] [5] = Ok ([x; y], Matrix (Some [[0; 0]; [0; 0]])).
Proof.
  unfold mean_covmat_from_evals, remove_0_weight. cbn [vmax map length Nat.eqb negb combine filter fst]. replace (5 - 5) with 0 by ring. rewrite exp_0.
  destruct (Req_EM_T 1 0) as [C|_]; [lra|]. cbn [bind map fst snd]. unfold np_average. cbn [length Nat.eqb negb sum_of fold_right]. destruct (Req_EM_T (1 + 0) 0) as [C|_]; [lra|].
  cbn [bind]. unfold np_cov_of, negative. cbn [existsb]. destruct (Rlt_dec 1 0) as [C|_]; [lra|]. cbn [orb]. rewrite normalisation_0. cbn [sum_of fold_right].
  destruct (Rlt_dec 0 (1 + 0)) as [_|C]; [|lra]. cbn [bind Nat.eqb]. unfold cov_with, centred, average, transpose. cbn. do 2 f_equal; [f_equal; [|f_equal]; field|].
  repeat f_equal; field.
Qed.
Example C113_applies : diagnose inv4 exp cdf2 2 square4 (Some [1; 1; 1; 1]) [[3 / 2; 1]] [5] None = Ok true /\
  diagnose inv4 exp cdf2 2 square4 (Some [1; 1; 1; 1]) [[1; 1]] [5] None = Ok false /\
  diagnose inv4 exp cdf2 1 [[0]; [2]] (Some [1; 1]) [[3 / 2]] [5] None = Err ValueError.
Proof.
  destruct sample4 as (c & E & Hc). destruct (two_spd c Hc) as [SP HI]. split; [|split].
  - destruct (C113_verdict inv4 exp cdf2 2 square4 (Some [1; 1; 1; 1]) [[3 / 2; 1]] [5] [1; 1] c [3 / 2; 1] _ (fun i => match i with O => - (3 / 8) | _ => 0 end) E (train1 (3 / 2) 1) eq_refl eq_refl SP HI) as (b & -> & Hb).
    + intros i Hi. cbn [sum]. rewrite !Hc by lia. destruct i as [|[|i]]; [unfold delta; cbn; field|unfold delta; cbn; field|lia].
    + destruct b; [reflexivity|]. exfalso. assert (false = true); [|discriminate]. apply Hb. unfold cdf2. cbn [sum nth].
      replace (- ((0 + (1 - 3 / 2) * - (3 / 8) + (1 - 1) * 0) / 2)) with (- (3 / 32)) by field. pose proof (exp_ineq1 (- (3 / 32)) ltac:(lra)).
      assert (exp (- (3 / 32)) < 1) by (rewrite <- exp_0; apply exp_increasing; lra). lra.
  - apply (C113_agreement_refuted inv4 exp cdf2 2 square4 (Some [1; 1; 1; 1]) [[1; 1]] [5] [1; 1] c (Matrix (Some [[0; 0]; [0; 0]]))); [|exact E|apply train1|reflexivity|exact SP|exact HI].
    intros k. unfold cdf2. replace (- (0 / 2)) with 0 by field. rewrite exp_0. ring.
  - apply (C113_one_parameter_error inv4 exp cdf2 [[0]; [2]] [1; 1]); try reflexivity; [intros; left; apply exp_pos|apply exp_0|intros x Hx; cbn in Hx; repeat destruct Hx as [<-|Hx]; try lra; contradiction|exists 1; split; [left; reflexivity|lra]|discriminate].
Qed.
Example C113_nora_applies : diagnose inv4 exp cdf2 2 square4 (Some [1; 1; 1; 1]) [[3 / 2; 1]] [5] (Some (Ok ([[3; 1]; [-1; 1]; [1; 3]; [1; -1]; [1; 1]], [1; 1; 1; 1; 2]))) = Ok true.
Proof.
  destruct sample4 as (c & E & Hc). destruct (two_spd c Hc) as [SP HI].
  assert (Ha : exists ca, np_cov_of 0 2 [[3; 1]; [-1; 1]; [1; 3]; [1; -1]; [1; 1]] [1; 1; 1; 1; 2] = Ok (Matrix (Some ca)) /\ forall i j, (i < 2)%nat -> (j < 2)%nat -> at2 ca i j = 4 / 3 * delta i j).
  { unfold np_cov_of, negative. cbn [existsb]. repeat (match goal with |- context [Rlt_dec ?a 0] => destruct (Rlt_dec a 0) as [C|_]; [lra|] end). cbn [orb]. rewrite normalisation_0. cbn [sum_of fold_right].
    destruct (Rlt_dec 0 _) as [_|C]; [|lra]. eexists. split; [reflexivity|]. intros i j Hi Hj. destruct i as [|[|i]], j as [|[|j]]; try lia; unfold at2, cov_with, centred, average, transpose, delta; cbn; field. }
  destruct Ha as (ca & Ea & Hca). destruct (two_spd ca Hca) as [SA IA].
  destruct (C113_verdict_nora inv4 exp cdf2 2 square4 (Some [1; 1; 1; 1]) [[3 / 2; 1]] [5] [1; 1] c [3 / 2; 1] _ (fun i => match i with O => - (3 / 8) | _ => 0 end)
    [[3; 1]; [-1; 1]; [1; 3]; [1; -1]; [1; 1]] [1; 1; 1; 1; 2] [1; 1] ca E (train1 (3 / 2) 1) eq_refl eq_refl SP HI) as (b & B & HB & -> & Hb); try assumption; try reflexivity.
  - intros i Hi. cbn [sum]. rewrite !Hc by lia. destruct i as [|[|i]]; [unfold delta; cbn; field|unfold delta; cbn; field|lia].
  - unfold np_average. cbn [length Nat.eqb negb sum_of fold_right]. destruct (Req_EM_T _ 0) as [C|_]; [lra|]. unfold average, transpose. cbn. do 2 f_equal; [field|]. f_equal. field.
  - destruct b; [reflexivity|]. exfalso. assert (false = true); [|discriminate]. apply Hb. split.
    + unfold cdf2. cbn [sum nth].
      replace (- ((0 + (1 - 3 / 2) * - (3 / 8) + (1 - 1) * 0) / 2)) with (- (3 / 32)) by field. pose proof (exp_ineq1 (- (3 / 32)) ltac:(lra)).
      assert (exp (- (3 / 32)) < 1) by (rewrite <- exp_0; apply exp_increasing; lra). lra.
    + pose proof (HB O O) as B0. pose proof (HB 1%nat 1%nat) as B1. cbn [sum] in B0, B1. rewrite !Hca in B0, B1 by lia. unfold delta in B0, B1. cbn in B0, B1. specialize (B0 ltac:(lia) ltac:(lia)). specialize (B1 ltac:(lia) ltac:(lia)).
      unfold divergence. rewrite (det_ext 2 (at2 ca) (at2 c)) by (intros; rewrite Hc, Hca by assumption; reflexivity). unfold quadratic. cbn [sum nth INR]. rewrite !Hc by lia. unfold delta. cbn [Nat.eqb]. lra.
Qed.
Print Assumptions C113_one_parameter_refuted.
Print Assumptions C113_one_parameter_error.
Print Assumptions C113_verdict.
Print Assumptions C113_verdict_nora.
Print Assumptions C113_divergence.
Print Assumptions C113_agreement_refuted.
Print Assumptions C113_kl_train_refuted.
Print Assumptions C113_run_refuted.

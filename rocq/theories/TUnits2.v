(** C128, over the real numbers: acquisition functions, and the prediction of the surrogate itself. *)
From Coq Require Import Reals Lra List Rminmax.
From Verif Require Import MNonlinear.
From Verif Require MLinAlg.
Set Default Goal Selector "!".
Set Bullet Behavior "Strict Subproofs".
Open Scope R_scope.

(** Adding a constant to a float. *)
Definition plus (c : R) (v : ext) : ext := match v with Real r => Real (r + c) | v => v end.
(** The same surrogate, as seen by an acquisition function at a point of one and of the other parametrisation. *)
Definition same_at (c : R) (gp gp' : surrogate) (x x' : list R) : Prop :=
  mean gp' x' = plus c (mean gp x) /\ std gp' x' = std gp x /\ y_max gp' = y_max gp + c /\ noise_level gp' = noise_level gp.
(** Acquisition functions that look at the predicted mean only relative to the largest value found. *)
Fixpoint relative (k : acq) : Prop :=
  match k with
  | ConstantAcqFunc _ | Std _ | ExponentialStd _ | ExpectedImprovement _ | LogExp _ _ => True
  | Mu _ | ExponentialMu _ | Custom _ _ => False
  | ASum k1 k2 | AProduct k1 k2 => relative k1 /\ relative k2
  | APower k _ => relative k
  end.

(** [LogExp] (the default), [NonlinearLogExp], [ExpectedImprovement] and all that is composed of them give the same
    value. *)
Theorem C128_acquisition c gp gp' x x' : same_at c gp gp' x x' ->
  (forall zeta s, logexp zeta s gp' x' = logexp zeta s gp x /\ nonlinear zeta s gp' x' = nonlinear zeta s gp x) /\
  (forall k, relative k -> avalue gp' k x' = avalue gp k x).
Proof.
  intros (Hm & Hs & Hy & Hn).
  assert (forall s, noise_used s gp' = noise_used s gp) as En by (intros; unfold noise_used; rewrite Hn; auto).
  assert (forall zeta s, logexp zeta s gp' x' = logexp zeta s gp x /\ nonlinear zeta s gp' x' = nonlinear zeta s gp x) as E.
  { intros zeta s. unfold logexp, nonlinear. rewrite En, Hm, Hs, Hy. destruct (mean gp x) as [mu| | |]; simpl; auto.
    unfold logexp_f, nonlinear_f. replace (mu + c - (y_max gp + c)) with (mu - y_max gp) by ring. auto. }
  split; auto. intros k. induction k as [| | | | |xi|zeta s| |k1 IH1 k2 IH2|k1 IH1 k2 IH2|k IH p]; simpl; intros H; try tauto.
  - rewrite Hs. auto.
  - rewrite Hs. auto.
  - rewrite Hm, Hs, Hy. destruct (mean gp x) as [mu| | |]; simpl; auto.
    replace (mu + c - (y_max gp + c)) with (mu - y_max gp) by ring. auto.
  - rewrite (proj1 (E zeta s)). auto.
  - rewrite IH1, IH2; tauto.
  - rewrite IH1, IH2; tauto.
  - rewrite IH; auto.
Qed.
Print Assumptions C128_acquisition.

(** Surrogates for cases: means and deviations at two points. *)
Definition pair_of (m1 s1 m2 s2 top : R) : surrogate :=
  {| mean := fun x => match x with [] => Real m1 | _ => Real m2 end; std := fun x => match x with [] => s1 | _ => s2 end;
     mean_grad := fun x => x; std_grad := fun x => x; noise_level := OneNoise (1 / 100); y_max := top; two_axes := false |}.
Example C128_acquisition_case :
  same_at 1000 (pair_of (-3) 2 (-1) (1 / 2) 0) (pair_of 997 2 999 (1 / 2) 1000) [] [] /\
  relative (ASum (LogExp 1 None) (APower (ExpectedImprovement 0) (Nat 2))) /\
  logexp 1 None (pair_of (-3) 2 (-1) (1 / 2) 0) [] = Real (-6 + ln (sqrt (2 ^ 2 - (1 / 100) ^ 2))).
Proof.
  split; [unfold same_at; simpl; repeat split; auto; f_equal; lra|]. split; [simpl; auto|].
  unfold logexp, noise_used, gtb. simpl. destruct (Rlt_dec 0 _) as [H|H]; [|exfalso; apply H; lra].
  f_equal. unfold logexp_f. rewrite Rmax_left by lra. simpl. lra.
Qed.

(** Not so for functions of the mean itself: their ranking of two points can be reversed. *)
Theorem C128_mean_refuted : exists c gp gp' k x y, same_at c gp gp' x x /\ same_at c gp gp' y y /\
  match avalue gp k x, avalue gp k y, avalue gp' k x, avalue gp' k y with
  | Some a, Some b, Some a', Some b' => a < b /\ b' < a'
  | _, _, _, _ => False
  end.
Proof.
  exists (-10), (pair_of 1 1 (9 / 10) 2 1), (pair_of (-9) 1 (-91 / 10) 2 (-9)), (AProduct (Mu 1) (Std 1)), [], [0].
  unfold same_at. simpl. repeat split; auto; try lra; f_equal; lra.
Qed.
Print Assumptions C128_mean_refuted.

(** ** The prediction, from the values to the mean *)
Import MLinAlg.
Section Surrogate.
Context {Q Q' P : Type}.
Variable k : P -> P -> R.
Variable prX : Q -> P.
Variable prX' : Q' -> P.
Variable A : Q -> Q'.
Hypothesis same_prX : forall x, prX' (A x) = prX x.
Lemma fold_plus (f : R -> R -> R) c l : (forall a b, f (a + c) (b + c) = f a b + c) ->
  forall a, fold_left f (map (fun t => t + c) l) (a + c) = fold_left f l a + c.
Proof. intros H. induction l as [|t l IH]; intros a; simpl; auto. rewrite H. apply IH. Qed.
(** The value preprocessor subtracts [m] and divides by [s]; [m + c] is what it subtracts from the shifted values
    (C128_units). The dual coefficients are the same, the predicted mean is shifted, with its ceiling, and the standard
    deviation is the same. *)
Theorem C128_prediction c m s clip X noise y x : y <> [] ->
  model_of k prX' (m + c) s (map A X) noise (map (fun t => t + c) y) = model_of k prX m s X noise y /\
  (forall g, predicted_mean k prX' (m + c) s clip (map A X) (map (fun t => t + c) y) g (A x)
             = predicted_mean k prX m s clip X y g x + c /\
             predicted_std k prX' s (map A X) g (A x) = predicted_std k prX s X g x).
Proof.
  intros Hy.
  assert (map prX' (map A X) = map prX X) as EX by (rewrite map_map; apply map_ext; auto).
  split.
  - unfold model_of. rewrite EX, map_map. f_equal. apply map_ext. intros t. f_equal. ring.
  - intros g. unfold predicted_mean, predicted_std. rewrite EX, same_prX. split; auto.
    destruct y as [|t y]; [congruence|]. unfold maximum, minimum. simpl.
    rewrite (fold_plus Rmax), (fold_plus Rmin).
    2, 3: intros; first [apply R.plus_max_distr_r | apply R.plus_min_distr_r].
    rewrite <- R.plus_min_distr_r. f_equal; ring.
Qed.
End Surrogate.
Print Assumptions C128_prediction.
Example C128_prediction_case :
  let k (a b : R) := a * b + 1 in
  exists g, model_of k (fun x => x) 2 2 [0] [0] [4] = Some g /\ predicted_mean k (fun x => x) 2 2 2 [0] [4] g 1 = 4 /\
            predicted_mean k (fun x => x) 102 2 2 [0] [104] g 1 = 104.
Proof.
  intros k. unfold model_of, update_model, kernel_inverse, kernel_matrix, cholesky. simpl.
  unfold cholesky_step. simpl. destruct (Rlt_dec 0 _) as [H|H]; [|exfalso; apply H; unfold k; lra].
  eexists. split; [reflexivity|]. unfold predicted_mean, gp_mean. simpl.
  unfold backward, forward. simpl. unfold forward_step. simpl. unfold k.
  replace (0 * 0 + 1 + 0 / 2 * (0 / 2 * 1) - 0) with 1 by lra. rewrite sqrt_1.
  split; rewrite Rmin_left; lra.
Qed.
(** Without a value preprocessor ([m] = 0 and [s] = 1) the predictions are not those of the shifted posterior. *)
Theorem C128_no_preprocessor_refuted : exists (k : R -> R -> R) X noise y c g g' x,
  model_of k (fun x => x) 0 1 X noise y = Some g /\
  model_of k (fun x => x) 0 1 X noise (map (fun t => t + c) y) = Some g' /\
  predicted_mean k (fun x => x) 0 1 2 X (map (fun t => t + c) y) g' x
  <> predicted_mean k (fun x => x) 0 1 2 X y g x + c.
Proof.
  exists (fun a b => exp (- (a - b) ^ 2)), [0], [0], [1], 2.
  unfold model_of, update_model, kernel_inverse, kernel_matrix, cholesky. simpl. unfold cholesky_step. simpl.
  assert (exp (- ((0 - 0) * ((0 - 0) * 1))) + 0 / 1 * (0 / 1 * 1) - 0 = 1) as E.
  { replace (- ((0 - 0) * ((0 - 0) * 1))) with 0 by ring. rewrite exp_0. lra. }
  destruct (Rlt_dec 0 _) as [H|H]; [|exfalso; apply H; rewrite E; lra].
  eexists. eexists. exists 1. split; [reflexivity|]. split; [reflexivity|].
  unfold predicted_mean, gp_mean. simpl. unfold backward, forward. simpl. unfold forward_step. simpl.
  rewrite E, sqrt_1. replace (- ((1 - 0) * ((1 - 0) * 1))) with (-1) by ring.
  pose proof (exp_pos (-1)) as H0. assert (exp (-1) < 1) as H1 by (rewrite <- exp_0; apply exp_increasing; lra).
  rewrite !Rmin_left by lra. lra.
Qed.
Print Assumptions C128_no_preprocessor_refuted.

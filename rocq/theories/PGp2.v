(** Means and variances of the surrogate: lemmas. *)
From Coq Require Import Lra Lia Permutation.
From Verif Require Import MLinAlg PLinAlg SLinAlg PGp.
Set Default Goal Selector "!".

Lemma vadd_cancel' z t r : length z = length r -> vadd (vadd z (scale t r)) (scale (- t) r) = z.
Proof. revert r. induction z as [|x z IH]; intros [|y r] H; try discriminate; auto. cbn. f_equal; [lra|]. apply IH. auto. Qed.
Lemma backward_LT L : lower L -> forall w, length w = length L -> backward L (LTmul L w) = w.
Proof.
  induction 1 as [|L r d HL IH Hr Hd]; intros w Hw; [destruct w; [reflexivity|discriminate]|]. rewrite app_length in Hw. cbn in Hw.
  destruct (snoc_inv w (length L)) as (w' & t & -> & Hw'); [lia|]. rewrite LT_snoc by (symmetry; exact Hw').
  unfold backward. rewrite rev_app_distr. cbn [rev app backward_rows]. rewrite removelast_last, last_last.
  assert (t * d / d = t) as -> by (field; auto). rewrite vadd_cancel' by (rewrite LT_length; auto). f_equal. apply IH. auto.
Qed.
Lemma maximum_ge l x : In x l -> x <= maximum l.
Proof.
  destruct l as [|a l]; [intros []|]. cbn [maximum]. assert (forall l a, a <= fold_left Rmax l a /\ forall x, In x l -> x <= fold_left Rmax l a) as H.
  { clear. induction l as [|b l IH]; intros a; cbn [fold_left].
    - split; [lra|intros x []].
    - destruct (IH (Rmax a b)) as [H1 H2]. pose proof (Rmax_l a b). pose proof (Rmax_r a b). split; [lra|]. intros x [<-|Hx]; [lra|auto]. }
  destruct (H l a) as [H1 H2]. intros [<-|Hx]; auto.
Qed.
Lemma minimum_le l x : In x l -> minimum l <= x.
Proof.
  destruct l as [|a l]; [intros []|]. cbn [minimum]. assert (forall l a, fold_left Rmin l a <= a /\ forall x, In x l -> fold_left Rmin l a <= x) as H.
  { clear. induction l as [|b l IH]; intros a; cbn [fold_left].
    - split; [lra|intros x []].
    - destruct (IH (Rmin a b)) as [H1 H2]. pose proof (Rmin_l a b). pose proof (Rmin_r a b). split; [lra|]. intros x [<-|Hx]; [lra|auto]. }
  destruct (H l a) as [H1 H2]. intros [<-|Hx]; auto.
Qed.

Section Gp.
Context {P : Type}.
Variable k : P -> P -> R.
Hypothesis sym : symmetric k.

Lemma update_chol X noise y g : length X = length noise -> update_model k X noise y = Some g ->
  Chol k (combine X noise) (g_L g) /\ g_V g = inverse (g_L g) /\ g_alpha g = backward (g_L g) (forward (g_L g) y).
Proof.
  intros H E. unfold update_model, kernel_inverse in E. destruct (cholesky (kernel_matrix k X noise)) as [L|] eqn:EL; [|discriminate].
  injection E as <-. cbn. repeat split; auto. apply cholesky_chol; auto.
Qed.
Lemma alpha_solves T L y : Chol k T L -> length y = length T -> Amul k T (backward L (forward L y)) = y.
Proof.
  intros HC Hy. pose proof (chol_lower _ _ _ HC) as HL. pose proof (chol_length _ _ _ HC) as HTL.
  assert (length (forward L y) = length L) as Hf by (apply forward_length; rewrite Hy; symmetry; exact HTL).
  rewrite (Amul_LLT k sym T L HC) by (rewrite backward_length; auto). rewrite backward_ok by auto. apply forward_ok; auto. rewrite Hy. exact HTL.
Qed.
Lemma alpha_unique T L y w : Chol k T L -> length w = length T -> Amul k T w = y -> backward L (forward L y) = w.
Proof.
  intros HC Hw <-. pose proof (chol_lower _ _ _ HC) as HL. pose proof (chol_length _ _ _ HC) as HTL.
  rewrite (Amul_LLT k sym T L HC) by auto.
  assert (length (LTmul L w) = length L) as Hl by (apply LT_length; auto; rewrite Hw; exact HTL).
  assert (forward L (Lmul L (LTmul L w)) = LTmul L w) as ->.
  { apply (Lmul_inj L HL); auto; [rewrite forward_length; auto; unfold Lmul; rewrite map_length; auto|]. apply forward_ok; auto. unfold Lmul. rewrite map_length. auto. }
  apply backward_LT; auto. rewrite Hw. exact HTL.
Qed.
Lemma Amul_at T w i x n a : nth_error T i = Some (x, n) -> nth_error w i = Some a -> nth_error (Amul k T w) i = Some (dot (map (k x) (map fst T)) w + n * a).
Proof.
  intros H1 H2. unfold Amul. rewrite nth_error_map. assert (nth_error (combine T w) i = Some ((x, n), a)) as ->; [|reflexivity].
  revert T w H1 H2. induction i as [|i IH]; intros [|q T] [|b w] H1 H2; try discriminate; cbn in *; [congruence|auto].
Qed.
Lemma gp_var_var X noise y g x : length X = length noise -> update_model k X noise y = Some g -> gp_var k X g x = var k (combine X noise) (g_L g) x.
Proof.
  intros H E. destruct (update_chol X noise y g H E) as (HC & HV & _). unfold gp_var, var. rewrite HV, fst_combine by auto.
  rewrite mul_columns_forward; [reflexivity|eapply chol_lower; eauto|]. rewrite <- (chol_length _ _ _ HC), combine_length, map_length, <- H. lia.
Qed.
Lemma nth_error_combine {A B} (l : list A) (m : list B) i a b : nth_error l i = Some a -> nth_error m i = Some b -> nth_error (combine l m) i = Some (a, b).
Proof. revert l m. induction i as [|i IH]; intros [|x l] [|y m] H1 H2; try discriminate; cbn in *; [congruence|auto]. Qed.

Lemma interpolates X noise y g i x n t : length X = length noise -> length y = length X -> update_model k X noise y = Some g ->
  nth_error X i = Some x -> nth_error noise i = Some n -> nth_error y i = Some t ->
  exists a, nth_error (g_alpha g) i = Some a /\ gp_mean k X g x = t - n * a.
Proof.
  intros H Hy E Hx Hn Ht. destruct (update_chol X noise y g H E) as (HC & _ & Ha).
  assert (length (combine X noise) = length X) as HT by (rewrite combine_length; lia).
  pose proof (chol_length _ _ _ HC) as HTL. pose proof (chol_lower _ _ _ HC) as HL.
  assert (length (forward (g_L g) y) = length (g_L g)) as Hf by (apply forward_length; rewrite <- HTL, HT, Hy; auto).
  assert (length (g_alpha g) = length X) as Hal by (rewrite Ha, backward_length; auto; rewrite <- HTL; exact HT).
  destruct (nth_error (g_alpha g) i) as [a|] eqn:Ea.
  - exists a. split; auto. pose proof (alpha_solves _ _ y HC) as Hs. rewrite HT in Hs. specialize (Hs Hy). rewrite <- Ha in Hs.
    pose proof (Amul_at (combine X noise) (g_alpha g) i x n a (nth_error_combine _ _ _ _ _ Hx Hn) Ea) as Hm. rewrite Hs, Ht, fst_combine in Hm by auto.
    injection Hm as Hm. unfold gp_mean. lra.
  - exfalso. apply nth_error_None in Ea. assert (nth_error X i <> None) as Hi by congruence. apply nth_error_Some in Hi. lia.
Qed.
Lemma gp_mean_best X noise y g x : length X = length noise -> length y = length X -> update_model k X noise y = Some g ->
  gp_mean k X g x = dot y (best k (combine X noise) (g_L g) x).
Proof.
  intros H Hy E. destruct (update_chol X noise y g H E) as (HC & _ & Ha). unfold gp_mean, best. rewrite Ha.
  assert (length (combine X noise) = length X) as HT by (rewrite combine_length; lia).
  pose proof (chol_length _ _ _ HC) as HTL. pose proof (chol_lower _ _ _ HC) as HL. rewrite fst_combine by auto.
  assert (length (forward (g_L g) y) = length (g_L g)) as Hf by (apply forward_length; rewrite <- HTL, HT, Hy; auto).
  assert (length (forward (g_L g) (map (k x) X)) = length (g_L g)) as Hg by (apply forward_length; rewrite <- HTL, HT, map_length; auto).
  rewrite <- (forward_ok (g_L g) HL (map (k x) X)) at 1 by (rewrite map_length, <- HTL; auto).
  rewrite adjoint by (auto; rewrite backward_length; auto). rewrite backward_ok by auto.
  rewrite <- (forward_ok (g_L g) HL y) at 2 by (rewrite Hy, <- HTL; auto).
  rewrite adjoint by (auto; rewrite backward_length; auto). rewrite backward_ok by auto. apply dot_comm.
Qed.
Lemma zeros_dot u n : dot u (repeat 0 n) = 0.
Proof. revert u. induction n as [|n IH]; intros [|a u]; auto. cbn. rewrite IH. lra. Qed.
(** Points appended with the predicted value do not change the mean. *)
Lemma believer X noise y g Z nz' g' : length X = length noise -> length y = length X -> length Z = length nz' ->
  update_model k X noise y = Some g -> update_model k (X ++ Z) (noise ++ nz') (y ++ map (gp_mean k X g) Z) = Some g' ->
  g_alpha g' = g_alpha g ++ repeat 0 (length Z).
Proof.
  intros H Hy HZ E E'. destruct (update_chol X noise y g H E) as (HC & _ & Ha).
  destruct (update_chol (X ++ Z) (noise ++ nz') _ g' ltac:(rewrite !app_length; lia) E') as (HC' & _ & Ha').
  assert (length (combine X noise) = length X) as HT by (rewrite combine_length; lia).
  pose proof (chol_length _ _ _ HC) as HTL. pose proof (chol_lower _ _ _ HC) as HL.
  assert (length (forward (g_L g) y) = length (g_L g)) as Hf by (apply forward_length; rewrite <- HTL, HT, Hy; auto).
  assert (length (g_alpha g) = length X) as Hal by (rewrite Ha, backward_length; auto; rewrite <- HTL; exact HT).
  rewrite Ha'. apply (alpha_unique _ _ _ _ HC'); [rewrite combine_length, !app_length, repeat_length; lia|].
  pose proof (alpha_solves _ _ y HC) as Hs. rewrite HT in Hs. specialize (Hs Hy). rewrite <- Ha in Hs.
  unfold Amul in *. rewrite fst_combine in Hs by auto. rewrite fst_combine by (rewrite !app_length; lia).
  rewrite (combine_app' X Z) by auto. rewrite combine_app' by lia. rewrite map_app. f_equal.
  - rewrite <- Hs at 1. apply map_ext. intros q. rewrite map_app. rewrite dot_app by (rewrite map_length; auto). rewrite zeros_dot. lra.
  - assert (forall Y ms, length Y = length ms -> map (fun q : P * R * R => dot (map (k (fst (fst q))) (X ++ Z)) (g_alpha g ++ repeat 0 (length Z)) + snd (fst q) * snd q)
      (combine (combine Y ms) (repeat 0 (length Y))) = map (gp_mean k X g) Y) as K; [|apply K; auto].
    induction Y as [|z Y IH]; intros [|m ms] Hl; try discriminate; auto. cbn [combine length repeat map fst snd]. rewrite IH by auto. f_equal.
    rewrite map_app. rewrite dot_app by (rewrite map_length; auto). rewrite zeros_dot. unfold gp_mean. lra.
Qed.
Lemma believer_mean X noise y g Z nz' g' x : length X = length noise -> length y = length X -> length Z = length nz' ->
  update_model k X noise y = Some g -> update_model k (X ++ Z) (noise ++ nz') (y ++ map (gp_mean k X g) Z) = Some g' ->
  gp_mean k (X ++ Z) g' x = gp_mean k X g x.
Proof.
  intros H Hy HZ E E'. pose proof (believer X noise y g Z nz' g' H Hy HZ E E') as Ha. unfold gp_mean. rewrite Ha, map_app.
  destruct (update_chol X noise y g H E) as (HC & _ & Ha1).
  assert (length (combine X noise) = length X) as HT by (rewrite combine_length; lia).
  pose proof (chol_length _ _ _ HC) as HTL. pose proof (chol_lower _ _ _ HC) as HL.
  assert (length (forward (g_L g) y) = length (g_L g)) as Hf by (apply forward_length; rewrite <- HTL, HT, Hy; auto).
  assert (length (g_alpha g) = length X) as Hal by (rewrite Ha1, backward_length; auto; rewrite <- HTL; exact HT).
  rewrite dot_app by (rewrite map_length; auto). rewrite zeros_dot. lra.
Qed.
(** The error of predicting a training point by its own value is its noise. *)
Lemma error_self T i x n : nth_error T i = Some (x, n) -> exists w, length w = length T /\ error k T x w = n.
Proof.
  intros H. destruct (nth_error_split T i H) as (T1 & T2 & -> & Hi).
  assert (error k [(x, n)] x [1] = n) as E1 by (unfold error, quad; cbn; ring).
  rewrite <- (error_more k sym [(x, n)] (T1 ++ T2) x [1] eq_refl) in E1.
  destruct (error_perm k ([(x, n)] ++ (T1 ++ T2)) (T1 ++ (x, n) :: T2) x ([1] ++ repeat 0 (length (T1 ++ T2)))) as (w & Hw & Ew).
  - cbn. rewrite repeat_length. auto.
  - exact (Permutation_middle T1 T2 (x, n)).
  - exists w. split; auto. rewrite Ew. exact E1.
Qed.
End Gp.

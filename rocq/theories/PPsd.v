(** Positive definite kernels: closure properties. *)
From Coq Require Import Lra Lia Permutation.
From Verif Require Import MLinAlg PLinAlg SLinAlg PGp.
Set Default Goal Selector "!".

Lemma total_pos {A} (f : A -> R) l : (forall a, In a l -> 0 <= f a) -> 0 <= total (map f l).
Proof.
  induction l as [|a l IH]; intros H; cbn [map total fold_right]; [lra|]. apply Rplus_le_le_0_compat; [apply H; left; auto|]. apply IH. intros; apply H; right; auto.
Qed.

Section Psd.
Context {P : Type}.
Implicit Types k : P -> P -> R.

Lemma quad_ext k k' l : (forall a b, In a (map fst l) -> In b (map fst l) -> k a b = k' a b) -> quad k l = quad k' l.
Proof.
  intros H. unfold quad. apply total_ext. intros a Ha. apply total_ext. intros b Hb. rewrite H; auto using in_map.
Qed.
Lemma positive_ext k k' : (forall a b, k a b = k' a b) -> positive k -> positive k'.
Proof. intros H Hp l. rewrite <- (quad_ext k k'); auto. Qed.
Lemma quad_sum k k' l : quad (fun a b => k a b + k' a b) l = quad k l + quad k' l.
Proof.
  unfold quad. rewrite <- total_add. apply total_ext. intros a _. rewrite <- total_add. apply total_ext. intros b _. ring.
Qed.
Lemma positive_sum k k' : positive k -> positive k' -> positive (fun a b => k a b + k' a b).
Proof. intros H H' l. rewrite quad_sum. specialize (H l). specialize (H' l). lra. Qed.
(** Multiplication of the function by a fixed one. *)
Lemma quad_conj (h : P -> R) k l : quad (fun a b => h a * h b * k a b) l = quad k (map (fun q => (fst q, snd q * h (fst q))) l).
Proof.
  unfold quad. rewrite map_map. apply total_ext. intros a _. rewrite map_map. apply total_ext. intros b _. cbn. ring.
Qed.
Lemma positive_conj (h : P -> R) k : positive k -> positive (fun a b => h a * h b * k a b).
Proof. intros H l. rewrite quad_conj. apply H. Qed.
Lemma quad_one l : quad (fun _ _ : P => 1) l = total (map snd l) ^ 2.
Proof.
  unfold quad. rewrite (total_ext _ (fun a => total (map snd l) * snd a)).
  - rewrite total_scale. ring.
  - intros a _. rewrite (total_ext _ (fun b => snd a * snd b)) by (intros; ring). rewrite total_scale. ring.
Qed.
Lemma positive_constant c : 0 <= c -> positive (fun _ _ : P => c).
Proof.
  intros Hc l. rewrite (quad_ext _ (fun _ _ => sqrt c * sqrt c * 1)) by (intros; rewrite sqrt_sqrt; lra).
  rewrite (quad_conj (fun _ => sqrt c)), quad_one. nra.
Qed.
Lemma positive_scale c k : 0 <= c -> positive k -> positive (fun a b => c * k a b).
Proof.
  intros Hc Hp. apply (positive_ext (fun a b => sqrt c * sqrt c * k a b)); [intros; rewrite sqrt_sqrt; auto|].
  apply (positive_conj (fun _ => sqrt c)); auto.
Qed.
Lemma positive_rank1 (h : P -> R) : positive (fun a b => h a * h b).
Proof. apply (positive_ext (fun a b => h a * h b * 1)); [intros; ring|]. apply positive_conj, positive_constant. lra. Qed.
(** Limits. *)
Lemma cv_const c : Un_cv (fun _ => c) c.
Proof. intros e He. exists 0%nat. intros n _. unfold R_dist. rewrite Rminus_diag_eq, Rabs_R0; auto. Qed.
Lemma cv_total {A} (f : nat -> A -> R) (g : A -> R) l : (forall a, In a l -> Un_cv (fun n => f n a) (g a)) ->
  Un_cv (fun n => total (map (f n) l)) (total (map g l)).
Proof.
  induction l as [|a l IH]; intros H; cbn [map total fold_right]; [apply cv_const|].
  apply CV_plus; [apply H; left; auto|]. apply IH. intros; apply H; right; auto.
Qed.
Lemma positive_limit (kn : nat -> P -> P -> R) k : (forall n, positive (kn n)) -> (forall a b, Un_cv (fun n => kn n a b) (k a b)) -> positive k.
Proof.
  intros Hp Hc l. apply (Rle_cv_lim (Un := fun _ => 0) (Vn := fun n => quad (kn n) l)).
  - intros n. apply Hp.
  - apply cv_const.
  - unfold quad. apply (cv_total (fun n a => total (map (fun b => snd a * snd b * kn n (fst a) (fst b)) l))). intros a _.
    apply (cv_total (fun n b => snd a * snd b * kn n (fst a) (fst b))). intros b _. apply CV_mult; [apply cv_const|apply Hc].
Qed.
End Psd.

(** A change of variables. *)
Lemma quad_map {P Q} (f : Q -> P) (k : P -> P -> R) l : quad (fun a b => k (f a) (f b)) l = quad k (map (fun q => (f (fst q), snd q)) l).
Proof. unfold quad. rewrite map_map. apply total_ext. intros a _. rewrite map_map. reflexivity. Qed.
Lemma positive_map {P Q} (f : Q -> P) (k : P -> P -> R) : positive k -> positive (fun a b => k (f a) (f b)).
Proof. intros H l. rewrite quad_map. apply H. Qed.

(** Products (Schur). *)
Lemma features_positive {P} (k2 : P -> P -> R) : positive k2 -> forall N (l : list (P * list R * R)),
  (forall q, In q l -> (length (snd (fst q)) <= N)%nat) -> 0 <= quad (fun a b : P * list R => dot (snd a) (snd b) * k2 (fst a) (fst b)) l.
Proof.
  intros H2. induction N as [|N IH]; intros l Hl.
  - unfold quad. apply total_pos. intros a Ha. apply total_pos. intros b Hb. pose proof (Hl a Ha) as Hn. destruct (snd (fst a)); [cbn; lra|cbn in Hn; lia].
  - assert (quad (fun a b : P * list R => dot (snd a) (snd b) * k2 (fst a) (fst b)) l
      = quad (fun a b : P * list R => hd 0 (snd a) * hd 0 (snd b) * k2 (fst a) (fst b) + dot (tl (snd a)) (tl (snd b)) * k2 (fst a) (fst b)) l) as ->.
    { apply quad_ext. intros [x u] [y v] _ _. cbn. destruct u as [|c u], v as [|d v]; cbn; rewrite ?dot_nil_r; ring. }
    rewrite quad_sum. apply Rplus_le_le_0_compat.
    + apply (positive_conj (fun a : P * list R => hd 0 (snd a))). apply (positive_map fst). exact H2.
    + rewrite (quad_map (fun q : P * list R => (fst q, tl (snd q))) (fun a b => dot (snd a) (snd b) * k2 (fst a) (fst b))). apply IH.
      intros q Hq. apply in_map_iff in Hq. destruct Hq as (q' & <- & Hq'). specialize (Hl q' Hq'). cbn. destruct (snd (fst q')); cbn in *; lia.
Qed.
Section Schur.
Context {P : Type}.
Variables k1 k2 : P -> P -> R.
Hypothesis s1 : symmetric k1. Hypothesis s2 : symmetric k2.

Definition feats (L : list row) : list (list R) := map (fun q => fst q ++ [snd q]) L.
Definition kp : P -> P -> R := fun a b => k1 a b * k2 a b.
Definition kf : P * list R -> P * list R -> R := fun a b => dot (snd a) (snd b) * k2 (fst a) (fst b).
Lemma kp_sym : symmetric kp. Proof. intros a b. unfold kp. rewrite s1, s2. auto. Qed.
Lemma kf_sym : symmetric kf. Proof. intros a b. unfold kf. rewrite dot_comm, s2. auto. Qed.
Lemma combine_length' {A B} (l : list A) (m : list B) : length l = length m -> length (combine l m) = length l.
Proof. intros H. rewrite combine_length, H. apply Nat.min_id. Qed.
Lemma cross_feats x d r : forall L, (forall q : row, In q L -> (length (fst q ++ [snd q]) <= length r)%nat) -> forall X w,
  map (fun q : row => dot (fst q ++ [snd q]) r) L = map (k1 x) X ->
  total (map (fun q => snd q * kf (x, r ++ [d]) (fst q)) (combine (combine X (feats L)) w)) = total (map (fun q => snd q * kp x (fst q)) (combine X w)).
Proof.
  induction L as [|q L IHL]; intros Hq X w' Hfk; destruct X as [|y X]; try discriminate; auto. cbn [map] in Hfk. injection Hfk as E1 E2.
  destruct w' as [|b w']; [reflexivity|]. cbn [feats map combine total fold_right fst snd].
  f_equal; [|apply IHL; auto; intros; apply Hq; right; auto].
  unfold kf, kp. cbn [fst snd]. rewrite <- E1. rewrite (dot_comm (r ++ [d])), dot_trunc; [ring|]. apply Hq. left; auto.
Qed.
Lemma chol_feats T L : Chol k1 T L -> forall w, length w = length T ->
  quad kf (combine (combine (map fst T) (feats L)) w) = quad kp (combine (map fst T) w) + total (map (fun q => snd q ^ 2 * snd (fst q) * k2 (fst (fst q)) (fst (fst q))) (combine T w)).
Proof.
  induction 1 as [|T L x n HC IH r Hp]; intros w Hw; [destruct w; [cbn; unfold quad; cbn; lra|discriminate]|].
  rewrite app_length in Hw. cbn in Hw. destruct (snoc_inv w (length T)) as (w' & t & -> & Hw'); [lia|].
  pose proof (chol_length _ _ _ HC) as HTL. pose proof (chol_lower _ _ _ HC) as HL.
  assert (length r = length L) as Hr by (unfold r; apply forward_length; rewrite !map_length; auto).
  assert (length (map fst T) = length (feats L)) as HF by (unfold feats; rewrite !map_length; exact HTL).
  unfold feats. rewrite !map_app. cbn [map fst snd]. fold (feats L). rewrite (combine_snoc (map fst T)) by exact HF.
  rewrite combine_snoc by (rewrite combine_length', map_length by exact HF; symmetry; exact Hw').
  rewrite (combine_snoc (map fst T)) by (rewrite map_length; symmetry; exact Hw'). rewrite (combine_snoc T) by (symmetry; exact Hw').
  rewrite (quad_snoc kf kf_sym), (quad_snoc kp kp_sym). rewrite map_app, total_app. cbn [map fst snd]. rewrite IH by exact Hw'.
  assert (total (map (fun q => snd q * kf (x, r ++ [sqrt (k1 x x + n - dot r r)]) (fst q)) (combine (combine (map fst T) (feats L)) w'))
    = total (map (fun q => snd q * kp x (fst q)) (combine (map fst T) w'))) as E.
  { pose proof (forward_k k1 T L x HC) as Hfk. fold r in Hfk. unfold Lmul in Hfk.
    assert (forall q, In q L -> (length (fst q ++ [snd q]) <= length r)%nat) as Hq.
    { intros q Hq. pose proof (lower_rows L HL q Hq). rewrite app_length. cbn. lia. }
    apply cross_feats; auto. }
  match type of E with ?lhs = _ => match goal with |- _ + 2 * t * ?u + _ = _ => change u with lhs end end. rewrite E. change (kp x x) with (k1 x x * k2 x x). unfold kf. cbn [fst snd]. rewrite dot_app by reflexivity. cbn [dot total fold_right].
  rewrite sqrt_sqrt by lra. ring.
Qed.
Lemma positive_product : positive k1 -> positive k2 -> positive kp.
Proof.
  intros H1 H2 l. apply le_epsilon. intros e He.
  set (X := map fst l). set (w := map snd l). assert (length w = length X) as Hwx by (unfold w, X; rewrite !map_length; auto).
  assert (l = combine X w) as El by (unfold X, w; clear; induction l as [|[a b] l IH]; cbn; congruence).
  set (B := total (map (fun q => snd q ^ 2 * k2 (fst q) (fst q)) (combine X w))).
  assert (forall x, 0 <= k2 x x) as Hd.
  { intros x. specialize (H2 [(x, 1)]). unfold quad in H2. cbn in H2. lra. }
  assert (0 <= B) as HB. { apply total_pos. intros a _. specialize (Hd (fst a)). nra. }
  set (d := e / (B + 1)). assert (0 < d) as Hdp by (apply Rdiv_lt_0_compat; lra).
  destruct (cholesky_some k1 s1 X (repeat d (length X))) as (L & EL).
  - rewrite repeat_length. auto.
  - exact H1.
  - intros n Hn. apply repeat_spec in Hn. rewrite Hn. exact Hdp.
  - pose proof (cholesky_chol k1 X _ L ltac:(rewrite repeat_length; auto) EL) as HC.
    assert (length (combine X (repeat d (length X))) = length X) as HT by (rewrite combine_length, repeat_length; lia).
    pose proof (chol_feats _ _ HC w ltac:(rewrite HT; exact Hwx)) as HQ. rewrite fst_combine in HQ by (rewrite repeat_length; auto). rewrite <- El in HQ.
    assert (0 <= quad kf (combine (combine X (feats L)) w)) as Hpos.
    { apply (features_positive k2 H2 (length L)). intros [[x f] c] Hq. apply in_combine_l, in_combine_r in Hq. unfold feats in Hq. apply in_map_iff in Hq. destruct Hq as (q & <- & Hq).
      cbn. pose proof (lower_rows L (chol_lower _ _ _ HC) q Hq). rewrite app_length. cbn. lia. }
    assert (total (map (fun q : P * R * R => snd q ^ 2 * snd (fst q) * k2 (fst (fst q)) (fst (fst q))) (combine (combine X (repeat d (length X))) w)) = d * B) as EB.
    { unfold B. rewrite <- total_scale. generalize w as u. generalize X as Y. induction Y as [|x Y IH]; intros [|t u]; auto. cbn [length repeat combine map total fold_right fst snd]. f_equal; [ring|]. apply IH. }
    rewrite EB in HQ. assert (d * B < e). { unfold d. apply (Rmult_lt_reg_r (B + 1)); [lra|]. replace (e / (B + 1) * B * (B + 1)) with (e * B) by (field; lra). nra. }
    lra.
Qed.
End Schur.
Lemma product_sym {P} (k1 k2 : P -> P -> R) : symmetric k1 -> symmetric k2 -> symmetric (fun a b => k1 a b * k2 a b).
Proof. intros H1 H2 a b. cbn. rewrite H1, H2. auto. Qed.
Lemma positive_pow {P} (k : P -> P -> R) n : symmetric k -> positive k -> positive (fun a b => k a b ^ n).
Proof.
  intros Hs Hp. induction n as [|n IH]; [exact (positive_constant 1 Rle_0_1)|]. apply (positive_product k (fun a b => k a b ^ n)); auto.
  intros a b. rewrite Hs. auto.
Qed.
(** Exponentials. *)
Lemma positive_exp {P} (k : P -> P -> R) : symmetric k -> positive k -> positive (fun a b => exp (k a b)).
Proof.
  intros Hs Hp. apply (positive_limit (fun n a b => sum_f_R0 (fun i => / INR (fact i) * k a b ^ i) n)).
  - intros n. induction n as [|n IH]; cbn [sum_f_R0].
    + apply positive_scale; [left; apply Rinv_0_lt_compat, INR_fact_lt_0|]. apply positive_pow; auto.
    + apply positive_sum; auto. apply positive_scale; [left; apply Rinv_0_lt_compat, INR_fact_lt_0|]. apply positive_pow; auto.
  - intros a b. unfold exp. destruct (exist_exp (k a b)) as [s Hsum]. cbn. exact Hsum.
Qed.

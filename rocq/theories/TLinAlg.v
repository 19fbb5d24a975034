(** C27, C28, C96, C97: means and variances of the surrogate, and the Mahalanobis distance. Statements use
    SLinAlg.v only, besides the modelled functions. *)
From Coq Require Import Lra Lia Permutation.
From Verif Require Import MLinAlg PLinAlg SLinAlg PGp PGp2.
Set Default Goal Selector "!".

(** Training data as passed to the model: as many noise levels and values as points. *)
Definition sizes {Q} (X : list Q) (noise y : list R) : Prop := length X = length noise /\ length y = length X.

Section T.
Context {P : Type}.
Variable k : P -> P -> R.

(** C27: the mean at a training point is its value minus noise times dual coefficient. *)
Theorem C27_residual :
  symmetric k -> forall X noise y g i x n t, sizes X noise y -> update_model k X noise y = Some g ->
  nth_error X i = Some x -> nth_error noise i = Some n -> nth_error y i = Some t ->
  exists a, nth_error (g_alpha g) i = Some a /\ gp_mean k X g x = t - n * a.
Proof. intros Hs X noise y g i x n t [H1 H2]. apply interpolates; auto. Qed.
(** Without noise at that point: the value itself, with no uncertainty. *)
Theorem C27_interpolates :
  symmetric k -> forall X noise y g i x t, sizes X noise y -> update_model k X noise y = Some g ->
  nth_error X i = Some x -> nth_error noise i = Some 0 -> nth_error y i = Some t ->
  gp_mean k X g x = t /\ gp_std k X g x = 0.
Proof.
  intros Hs X noise y g i x t [H1 H2] E Hx Hi Ht. split.
  - destruct (interpolates k Hs X noise y g i x 0 t H1 H2 E Hx Hi Ht) as (a & _ & ->). lra.
  - destruct (error_self k Hs (combine X noise) i x 0 (nth_error_combine _ _ _ _ _ Hx Hi)) as (w & Hw & Ew).
    destruct (update_chol k X noise y g H1 E) as (HC & _). pose proof (error_above k Hs _ _ x w HC Hw) as Hv. rewrite Ew in Hv.
    unfold gp_std. rewrite (gp_var_var k X noise y g x H1 E). destruct (Rlt_dec (var k (combine X noise) (g_L g) x) 0) as [Hlt|Hge]; [apply sqrt_0|].
    replace (var k (combine X noise) (g_L g) x) with 0 by lra. apply sqrt_0.
Qed.
(** The same for what [predict] returns, in the units of the caller: with a clipping factor of at least 1 the clipping
    does not spoil it. *)
Theorem C27_predict :
  symmetric k -> forall {Q} (prX : Q -> P) m s clip X noise y g i x t, sizes X noise y -> s <> 0 -> 1 <= clip ->
  model_of k prX m s X noise y = Some g -> nth_error X i = Some x -> nth_error noise i = Some 0 -> nth_error y i = Some t ->
  predicted_mean k prX m s clip X y g x = t /\ predicted_std k prX s X g x = 0.
Proof.
  intros Hs Q prX m s clip X noise y g i x t [H1 H2] Hns Hc E Hx Hi Ht. unfold model_of in E.
  destruct (C27_interpolates Hs (map prX X) (map (fun n => (n / s) ^ 2) noise) (map (fun t => (t - m) / s) y) g i (prX x) ((t - m) / s)) as [E1 E2].
  - split; rewrite !map_length; auto.
  - exact E.
  - rewrite nth_error_map, Hx. reflexivity.
  - rewrite nth_error_map, Hi. cbn. f_equal. unfold Rdiv. ring.
  - rewrite nth_error_map, Ht. reflexivity.
  - unfold predicted_mean, predicted_std. rewrite E1, E2. split; [|ring].
    replace (s * ((t - m) / s) + m) with t by (field; auto). apply nth_error_In in Ht.
    pose proof (maximum_ge y t Ht). pose proof (minimum_le y t Ht). apply Rmin_left. nra.
Qed.

(** C28: the variance is the smallest possible expected squared error of a linear predictor, and the mean is that predictor. *)
Theorem C28_best_predictor :
  symmetric k -> forall X noise y g x, sizes X noise y -> update_model k X noise y = Some g ->
  (forall w, length w = length X -> gp_var k X g x <= error k (combine X noise) x w) /\
  exists w, length w = length X /\ gp_var k X g x = error k (combine X noise) x w /\ gp_mean k X g x = dot y w.
Proof.
  intros Hs X noise y g x [H1 H2] E. destruct (update_chol k X noise y g H1 E) as (HC & _). rewrite (gp_var_var k X noise y g x H1 E).
  assert (length (combine X noise) = length X) as HT by (rewrite combine_length; lia). split.
  - intros w Hw. apply error_above; auto. rewrite HT. exact Hw.
  - exists (best k (combine X noise) (g_L g) x). repeat split.
    + rewrite (best_length k _ _ x HC). exact HT.
    + symmetry. apply error_best; auto.
    + apply gp_mean_best; auto.
Qed.
Theorem C28_variance :
  symmetric k -> positive k -> forall X noise y g x, sizes X noise y -> (forall n, In n noise -> 0 <= n) -> update_model k X noise y = Some g ->
  0 <= gp_var k X g x <= k x x /\ gp_std k X g x ^ 2 = gp_var k X g x.
Proof.
  intros Hs Hp X noise y g x [H1 H2] Hn E. destruct (update_chol k X noise y g H1 E) as (HC & _).
  assert (0 <= gp_var k X g x) as H0.
  { rewrite (gp_var_var k X noise y g x H1 E). apply var_pos; auto. intros [z n] Hq. apply Hn. eapply in_combine_r; eauto. }
  repeat split; auto.
  - rewrite (gp_var_var k X noise y g x H1 E). unfold var.
    pose proof (dot_pos (forward (g_L g) (map (k x) (map fst (combine X noise))))). lra.
  - unfold gp_std. destruct (Rlt_dec (gp_var k X g x) 0) as [H|H]; [lra|]. apply pow2_sqrt. auto.
Qed.
(** More points, at any places in the list, in any order, with any values: the variance does not grow, nor does the
    standard deviation. *)
Theorem C28_more_points :
  symmetric k -> forall X noise y g X' noise' y' g' more x, sizes X noise y -> sizes X' noise' y' ->
  update_model k X noise y = Some g -> update_model k X' noise' y' = Some g' ->
  Permutation (combine X noise ++ more) (combine X' noise') ->
  gp_var k X' g' x <= gp_var k X g x /\ gp_std k X' g' x <= gp_std k X g x.
Proof.
  intros Hs X noise y g X' noise' y' g' more x [H1 H2] [H1' H2'] E E' HP.
  destruct (update_chol k X noise y g H1 E) as (HC & _). destruct (update_chol k X' noise' y' g' H1' E') as (HC' & _).
  assert (gp_var k X' g' x <= gp_var k X g x) as H.
  { rewrite (gp_var_var k X noise y g x H1 E), (gp_var_var k X' noise' y' g' x H1' E'). exact (var_less k Hs _ _ _ _ _ x HC HC' HP). }
  split; auto. unfold gp_std. apply sqrt_le_1_alt. destruct (Rlt_dec (gp_var k X' g' x) 0), (Rlt_dec (gp_var k X g x) 0); lra.
Qed.
(** The same for points appended at the end, as the batch acquisition does. *)
Theorem C28_appended :
  symmetric k -> forall X noise y g X2 noise2 y2 g' x, sizes X noise y -> sizes X2 noise2 y2 ->
  update_model k X noise y = Some g -> update_model k (X ++ X2) (noise ++ noise2) (y ++ y2) = Some g' ->
  gp_std k (X ++ X2) g' x <= gp_std k X g x.
Proof.
  intros Hs X noise y g X2 noise2 y2 g' x H H' E E'. pose proof H as [H1 H2]. pose proof H' as [H1' H2'].
  apply (C28_more_points Hs X noise y g (X ++ X2) (noise ++ noise2) (y ++ y2) g' (combine X2 noise2) x); auto.
  - split; rewrite !app_length; lia.
  - rewrite combine_app' by auto. reflexivity.
Qed.
(** With positive noise the model can always be computed. *)
Theorem C28_exists :
  symmetric k -> positive k -> forall X noise y, sizes X noise y -> (forall n, In n noise -> 0 < n) -> exists g, update_model k X noise y = Some g.
Proof.
  intros Hs Hp X noise y [H1 H2] Hn. destruct (cholesky_some k Hs X noise H1 Hp Hn) as (L & E).
  unfold update_model, kernel_inverse. rewrite E. eauto.
Qed.

(** C96: appending points with the predicted value does not change the mean anywhere ("Kriging believer"), whatever their noise. *)
Theorem C96_believer :
  symmetric k -> forall X noise y g X2 noise2 g' x, sizes X noise y -> length X2 = length noise2 ->
  update_model k X noise y = Some g -> update_model k (X ++ X2) (noise ++ noise2) (y ++ map (gp_mean k X g) X2) = Some g' ->
  gp_mean k (X ++ X2) g' x = gp_mean k X g x.
Proof. intros Hs X noise y g X2 noise2 g' x [H1 H2] H E E'. exact (believer_mean k Hs X noise y g X2 noise2 g' x H1 H2 H E E'). Qed.
End T.

(** A concrete surrogate: the kernel x y of linear functions, one point at 1 with value 6 and noise 1. *)
Definition lin (x y : R) : R := x * y.
Lemma lin_symmetric : symmetric lin. Proof. intros x y. unfold lin. ring. Qed.
Lemma lin_positive : positive lin.
Proof.
  intros l. unfold quad, lin. assert (forall c m, total (map (fun b => snd c * snd b * (fst c * fst b)) m) = snd c * fst c * total (map (fun b => snd b * fst b) m)) as E.
  { intros c m. rewrite <- total_scale. apply total_ext. intros a _. ring. }
  rewrite (total_ext _ (fun a => total (map (fun b => snd b * fst b) l) * (snd a * fst a))) by (intros a _; rewrite E; ring).
  rewrite total_scale. nra.
Qed.
Example one_point : exists g, update_model lin [1] [1] [6] = Some g /\ gp_mean lin [1] g 1 = 3 /\ gp_var lin [1] g 1 = / 2.
Proof.
  destruct (C28_exists lin lin_symmetric lin_positive [1] [1] [6]) as (g & E); [split; reflexivity|intros n [<-|[]]; lra|].
  exists g. split; auto. destruct (C27_residual lin lin_symmetric [1] [1] [6] g 0 1 1 6 ltac:(split; reflexivity) E eq_refl eq_refl eq_refl) as (a & E1 & E2).
  destruct (C28_best_predictor lin lin_symmetric [1] [1] [6] g 1 ltac:(split; reflexivity) E) as (B1 & w & Hw & B2 & B3).
  destruct w as [|w []]; try discriminate. pose proof (B1 [/ 2] eq_refl) as B. rewrite B2 in B. assert (w = / 2) as -> by (unfold error, quad, lin in B; cbn in B; nra).
  rewrite B3, B2. unfold error, quad, lin. cbn. split; field.
Qed.
Example two_points : exists g, update_model lin [1; 1] [1; 1] [6; 3] = Some g /\ gp_var lin [1; 1] g 1 <= / 2.
Proof.
  destruct (C28_exists lin lin_symmetric lin_positive [1; 1] [1; 1] [6; 3]) as (g' & E'); [split; reflexivity|intros n [<-|[<-|[]]]; lra|].
  destruct one_point as (g & E & _ & Hv). exists g'. split; auto. rewrite <- Hv.
  exact (proj1 (C28_more_points lin lin_symmetric [1] [1] [6] g [1; 1] [1; 1] [6; 3] g' [(1, 1)] 1 ltac:(split; reflexivity) ltac:(split; reflexivity) E E' (Permutation_refl _))).
Qed.

(** C97. *)
Definition diagonal (ds : list R) : list (list R) :=
  map (fun q => map (fun j => if Nat.eqb (fst q) j then snd q else 0) (seq 0 (length ds))) (combine (seq 0 (length ds)) ds).
Theorem C97_correlated_refuted :
  exists C v d e, gaussian_distance v C = Some d /\ mahalanobis v C e /\ 0 <= e /\ d < e.
Proof.
  exists [[1; / 2]; [/ 2; 1]], [1; 0], (sqrt (5 / 4)), (sqrt (4 / 3)). split; [|split; [|split]].
  - unfold gaussian_distance. cbn [length seq combine map fst snd nth]. rewrite sqrt_1. unfold cholesky. cbn [fold_left cholesky_step length firstn nth forward combine].
    assert (1 / (1 * 1) = 1) as -> by field. assert (/ 2 / (1 * 1) = / 2) as -> by field. unfold forward. cbn [combine fold_left dot].
    destruct (Rlt_dec 0 (1 - 0)) as [_|H]; [|lra]. rewrite Rminus_0_r, sqrt_1. cbn [app length firstn nth combine fold_left cholesky_step forward_step fst snd dot]. unfold forward.
    cbn [app length firstn nth combine fold_left forward_step fst snd dot]. assert ((/ 2 - 0) / 1 = / 2) as -> by field. cbn [dot].
    destruct (Rlt_dec 0 (1 - (/ 2 * / 2 + 0))) as [_|H]; [|lra]. cbn [app mat_mul map fst snd dot combine]. f_equal. f_equal. field.
  - exists [4 / 3; - (2 / 3)]. cbn. repeat split; [|f_equal; field]. f_equal; [field|f_equal; field].
  - apply sqrt_pos.
  - apply sqrt_lt_1; lra.
Qed.

(** The identity matrix is its own Cholesky factor. *)
Definition idrow (i : nat) : row := (repeat 0 i, 1).
Lemma diag_step n m : forall i, (i + m = n)%nat -> fold_left cholesky_step (map (fun i => map (fun j => if Nat.eqb i j then 1 else 0) (seq 0 n)) (seq i m)) (Some (map idrow (seq 0 i)))
  = Some (map idrow (seq 0 n)).
Proof.
  induction m as [|m IH]; intros i H; [rewrite Nat.add_0_r in H; subst; reflexivity|]. cbn [seq map fold_left cholesky_step].
  rewrite map_length, seq_length.
  assert (firstn i (map (fun j => if Nat.eqb i j then 1 else 0) (seq 0 n)) = repeat 0 i) as ->.
  { rewrite firstn_map. assert (firstn i (seq 0 n) = seq 0 i) as ->.
    { replace n with (i + S m)%nat by lia. rewrite seq_app, firstn_app, seq_length, Nat.sub_diag. cbn [firstn]. rewrite app_nil_r. apply firstn_all2. rewrite seq_length. lia. }
    assert (forall a, (a <= i)%nat -> map (fun j => if Nat.eqb i j then 1 else 0) (seq (i - a) a) = repeat 0 a) as K.
    { induction a as [|a IHa]; intros Ha; auto. cbn [seq map repeat]. destruct (Nat.eqb_spec i (i - S a)) as [E|_]; [lia|]. f_equal. replace (S (i - S a)) with (i - a)%nat by lia. apply IHa. lia. }
    specialize (K i (le_n i)). rewrite Nat.sub_diag in K. exact K. }
  assert (nth i (map (fun j => if Nat.eqb i j then 1 else 0) (seq 0 n)) 0 = 1) as ->.
  { rewrite (nth_indep _ 0 ((fun j => if Nat.eqb i j then 1 else 0) 0%nat)) by (rewrite map_length, seq_length; lia).
    rewrite (map_nth (fun j => if Nat.eqb i j then 1 else 0)). rewrite seq_nth by lia. rewrite Nat.add_0_l, Nat.eqb_refl. reflexivity. }
  assert (forall a, forward (map idrow (seq 0 a)) (repeat 0 a) = repeat 0 a) as Hf.
  { induction a as [|a IHa]; auto. rewrite seq_S, map_app. cbn [map plus Nat.add].
    assert (repeat 0 (S a) = repeat 0 a ++ [0]) as -> by (rewrite <- repeat_cons; reflexivity).
    rewrite forward_snoc by (rewrite map_length, seq_length, repeat_length; auto). rewrite IHa. cbn [fst snd idrow]. rewrite zeros_dot. f_equal. f_equal. field. }
  rewrite Hf, zeros_dot, Rminus_0_r. destruct (Rlt_dec 0 1) as [_|F]; [|lra]. rewrite sqrt_1. 
  specialize (IH (S i) ltac:(lia)). rewrite seq_S, map_app in IH. exact IH.
Qed.
Lemma idrows_mul n : forall v, length v = n -> mat_mul (map idrow (seq 0 n)) v = v.
Proof.
  induction n as [|n IH]; intros v H; [destruct v; [reflexivity|discriminate]|]. destruct (snoc_inv v n H) as (v' & a & -> & Hv).
  rewrite seq_S, map_app. unfold mat_mul. rewrite map_app. cbn [map fst snd Nat.add idrow]. f_equal.
  - transitivity (mat_mul (map idrow (seq 0 n)) v'); [|auto]. unfold mat_mul. apply map_ext_in. intros q Hq. apply in_map_iff in Hq. destruct Hq as (i & <- & Hi). apply in_seq in Hi.
    apply dot_trunc. cbn [fst snd idrow]. rewrite app_length, repeat_length. cbn. lia.
  - f_equal. rewrite dot_app by (rewrite repeat_length; auto). rewrite (dot_comm (repeat 0 n)), zeros_dot. cbn. ring.
Qed.
Theorem C97_diagonal :
  forall ds v, length v = length ds -> (forall d, In d ds -> 0 < d) ->
  exists e, gaussian_distance v (diagonal ds) = Some e /\ mahalanobis v (diagonal ds) e.
Proof.
  intros ds v Hv Hd. assert (length (diagonal ds) = length ds) as Hl by (unfold diagonal; rewrite map_length, combine_length, seq_length; lia).
  set (n := length ds) in *.
  assert (forall i, (i < n)%nat -> nth i (diagonal ds) [] = map (fun j => if Nat.eqb i j then nth i ds 0 else 0) (seq 0 n)) as Hrow.
  { intros i Hi. unfold diagonal. fold n. set (f := fun q : nat * R => map (fun j => if Nat.eqb (fst q) j then snd q else 0) (seq 0 n)).
    rewrite (nth_indep _ [] (f (0%nat, 0))) by (rewrite map_length, combine_length, seq_length; fold n; lia). rewrite map_nth, combine_nth by (rewrite seq_length; auto).
    rewrite seq_nth by auto. reflexivity. }
  assert (forall i j, (i < n)%nat -> (j < n)%nat -> nth j (nth i (diagonal ds) []) 0 = if Nat.eqb i j then nth i ds 0 else 0) as Hij.
  { intros i j Hi Hj. rewrite Hrow by auto. rewrite (nth_indep _ 0 ((fun j => if Nat.eqb i j then nth i ds 0 else 0) 0%nat)) by (rewrite map_length, seq_length; auto).
    rewrite (map_nth (fun j => if Nat.eqb i j then nth i ds 0 else 0)). rewrite seq_nth by auto. reflexivity. }
  unfold gaussian_distance. rewrite Hl.
  assert (map (fun q => sqrt (nth (fst q) (snd q) 0)) (combine (seq 0 n) (diagonal ds)) = map sqrt ds) as ->.
  { apply (nth_ext _ _ 0 0); [rewrite !map_length, combine_length, seq_length, Hl; lia|]. intros i Hi. rewrite map_length, combine_length, seq_length, Hl in Hi.
    rewrite (nth_indep _ 0 ((fun q : nat * list R => sqrt (nth (fst q) (snd q) 0)) (0%nat, []))) by (rewrite map_length, combine_length, seq_length, Hl; lia).
    rewrite (map_nth (fun q : nat * list R => sqrt (nth (fst q) (snd q) 0))). rewrite combine_nth by (rewrite seq_length; auto). rewrite seq_nth by lia. cbn [fst snd Nat.add].
    rewrite Hij by lia. rewrite Nat.eqb_refl. rewrite <- (sqrt_0) at 2. rewrite (map_nth sqrt). reflexivity. }
  assert (map (fun q => map (fun e => snd e / (fst q * fst e)) (combine (map sqrt ds) (snd q))) (combine (map sqrt ds) (diagonal ds))
    = map (fun i => map (fun j => if Nat.eqb i j then 1 else 0) (seq 0 n)) (seq 0 n)) as ->.
  { apply (nth_ext _ _ [] []); [rewrite !map_length, combine_length, map_length, seq_length, Hl; fold n; lia|]. intros i Hi. rewrite map_length, combine_length, map_length, Hl in Hi. fold n in Hi.
    set (f := fun q : R * list R => map (fun e => snd e / (fst q * fst e)) (combine (map sqrt ds) (snd q))).
    rewrite (nth_indep _ [] (f (0, []))) by (rewrite map_length, combine_length, map_length, Hl; fold n; lia). rewrite map_nth, combine_nth by (rewrite map_length; fold n; auto).
    set (g := fun i : nat => map (fun j => if Nat.eqb i j then 1 else 0) (seq 0 n)).
    rewrite (nth_indep (map g (seq 0 n)) [] (g 0%nat)) by (rewrite map_length, seq_length; lia). rewrite (map_nth g), seq_nth by lia. unfold f, g. cbn [fst snd Nat.add].
    assert (length (nth i (diagonal ds) []) = n) as Hli by (rewrite Hrow by lia; rewrite map_length, seq_length; auto).
    apply (nth_ext _ _ 0 0); [rewrite !map_length, combine_length, map_length, seq_length, Hli; fold n; lia|]. intros j Hj. rewrite map_length, combine_length, map_length, Hli in Hj. fold n in Hj.
    set (h := fun e : R * R => snd e / (nth i (map sqrt ds) 0 * fst e)).
    rewrite (nth_indep _ 0 (h (0, 0))) by (rewrite map_length, combine_length, map_length, Hli; fold n; lia). rewrite map_nth, combine_nth by (rewrite map_length; fold n; auto).
    rewrite Hij by lia. unfold h. cbn [fst snd].
    set (o := fun j : nat => if Nat.eqb i j then 1 else 0). rewrite (nth_indep (map o (seq 0 n)) 0 (o 0%nat)) by (rewrite map_length, seq_length; lia).
    rewrite (map_nth o), seq_nth by lia. unfold o. cbn [Nat.add].
    destruct (Nat.eqb_spec i j) as [<-|_]; [|unfold Rdiv; ring]. rewrite <- sqrt_0, (map_nth sqrt), sqrt_0.
    assert (0 < nth i ds 0) as Hp by (apply Hd, nth_In; fold n; lia). rewrite sqrt_sqrt by lra. field. lra. }
  unfold cholesky. rewrite (diag_step n n 0 eq_refl : fold_left cholesky_step _ (Some []) = _). rewrite idrows_mul by auto.
  eexists. split; [reflexivity|]. exists (map (fun q => snd q / fst q) (combine ds v)). split; [rewrite map_length, combine_length; fold n; lia|]. split.
  - unfold diagonal. fold n. apply (nth_ext _ _ 0 0); [rewrite !map_length, combine_length, seq_length; fold n; lia|].
    intros i Hi. rewrite !map_length, combine_length, seq_length in Hi. fold n in Hi. rewrite Nat.min_id in Hi.
    fold n in Hrow. clear Hl. rewrite map_map.
    set (f := fun q : nat * R => dot (map (fun j => if Nat.eqb (fst q) j then snd q else 0) (seq 0 n)) (map (fun q => snd q / fst q) (combine ds v))).
    rewrite (nth_indep _ 0 (f (0%nat, 0))) by (rewrite map_length, combine_length, seq_length; fold n; lia). rewrite map_nth, combine_nth by (rewrite seq_length; auto).
    rewrite seq_nth by lia. unfold f. cbn [fst snd Nat.add].
    assert (forall (l w : list R) s i c, length l = length w -> (i < length l)%nat -> dot (map (fun j => if Nat.eqb (s + i) j then c else 0) (seq s (length l))) (map (fun q => snd q / fst q) (combine l w)) = c * (nth i w 0 / nth i l 0)) as K.
    { clear. induction l as [|d l IH]; intros [|b w] s i c H Hi; try discriminate; cbn [length] in Hi; [lia|]. cbn [length seq map combine dot fst snd nth].
      destruct i as [|i].
      - rewrite Nat.add_0_r, Nat.eqb_refl. assert (forall l' (u : list R) s', (s < s')%nat -> dot (map (fun j => if Nat.eqb s j then c else 0) (seq s' l')) u = 0) as Z.
        { induction l' as [|l' IHl]; intros u s' Hs; auto. cbn [seq map]. destruct u as [|x u]; auto. cbn [dot]. destruct (Nat.eqb_spec s s') as [E|_]; [lia|]. rewrite IHl by lia. ring. }
        rewrite Z by lia. ring.
      - destruct (Nat.eqb_spec (s + S i) s) as [E|_]; [lia|]. replace (s + S i)%nat with (S s + i)%nat by lia. rewrite IH by (auto; lia). ring. }
    specialize (K ds v 0%nat i (nth i ds 0) ltac:(symmetry; exact Hv) Hi). fold n in K. cbn [Nat.add] in K. rewrite K. field.
    apply Rgt_not_eq. apply Hd. apply nth_In. exact Hi.
  - f_equal. subst n. revert Hv Hd. clear. revert v. induction ds as [|d ds IH]; intros [|b v] H Hd; try discriminate; auto. cbn [map combine fst snd dot].
    rewrite IH by (auto; intros; apply Hd; right; auto). pose proof (Hd d (or_introl eq_refl)) as Hp.
    f_equal. pose proof (sqrt_lt_R0 d Hp) as Hq. assert (b / sqrt d * (b / sqrt d) = b * b / (sqrt d * sqrt d)) as -> by (field; lra). rewrite sqrt_sqrt by lra. field. lra.
Qed.
Example C97_nonvacuous : exists e, gaussian_distance [3; 8] (diagonal [9; 16]) = Some e /\ e = sqrt 5.
Proof.
  destruct (C97_diagonal [9; 16] [3; 8]) as (e & E & u & _ & Hu & He); [reflexivity|intros d [<-|[<-|[]]]; lra|]. exists e. split; auto. rewrite He. f_equal.
  unfold diagonal in Hu. cbn in Hu. destruct u as [|a [|b u]]; cbn in Hu; [injection Hu; intros; lra|injection Hu; intros; lra|]. injection Hu as H1 H2. cbn. lra.
Qed.
Print Assumptions C27_residual.
Print Assumptions C27_interpolates.
Print Assumptions C27_predict.
Print Assumptions C28_best_predictor.
Print Assumptions C28_variance.
Print Assumptions C28_more_points.
Print Assumptions C28_appended.
Print Assumptions C28_exists.
Print Assumptions C96_believer.
Print Assumptions C97_correlated_refuted.
Print Assumptions C97_diagonal.

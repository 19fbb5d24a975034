(** The surrogate and the order of the training points: lemmas. *)
From Coq Require Import Lra Lia Permutation.
From Verif Require Import MLinAlg PLinAlg SLinAlg PGp PGp2.
Set Default Goal Selector "!".
Set Bullet Behavior "Strict Subproofs".

Lemma combine_perm {A B} (T T' : list A) (w : list B) : length w = length T -> Permutation T T' ->
  exists w', length w' = length T' /\ Permutation (combine T w) (combine T' w').
Proof.
  intros Hw HP. revert w Hw. induction HP as [|p T T' HP IH|p q T|T1 T2 T3 H1 IH1 H2 IH2]; intros w Hw.
  - exists w. auto.
  - destruct w as [|t w]; [discriminate|]. destruct (IH w) as (w' & E1 & E2); [auto|]. exists (t :: w'). cbn. split; [lia|]. constructor; auto.
  - destruct w as [|t [|u w]]; try discriminate. exists (u :: t :: w). cbn. split; [auto|]. apply perm_swap.
  - destruct (IH1 w Hw) as (w1 & E1 & F1). destruct (IH2 w1 E1) as (w2 & E2 & F2). exists w2. split; auto. eapply Permutation_trans; eauto.
Qed.
Lemma snd_combine {A B} (l : list A) (m : list B) : length m = length l -> map snd (combine l m) = m.
Proof. revert m. induction l as [|x l IH]; intros [|y m] H; try discriminate; auto. cbn. f_equal. auto. Qed.
Lemma dot_total {A B} (f : A -> R) (g : B -> R) (l : list A) (m : list B) : length m = length l ->
  dot (map f l) (map g m) = total (map (fun q => f (fst q) * g (snd q)) (combine l m)).
Proof. revert m. induction l as [|x l IH]; intros [|y m] H; try discriminate; auto. cbn [map dot combine total fold_right fst snd]. f_equal. apply IH. auto. Qed.

Section Order.
Context {P : Type}.
Variable k : P -> P -> R.
Hypothesis sym : symmetric k.

Definition nonzero (w : list R) : Prop := exists a, In a w /\ a <> 0.
Definition posdef (T : data) : Prop := forall w, length w = length T -> nonzero w -> 0 < quad_noise k T w.

Lemma chol_posdef T L : Chol k T L -> posdef T.
Proof.
  intros HC w Hw (a & Ha & Hn). rewrite (quad_LT k sym T L HC w Hw). pose proof (dot_pos (LTmul L w)) as H0.
  destruct (Req_dec (dot (LTmul L w) (LTmul L w)) 0) as [E|E]; [|lra]. exfalso. pose proof (dot_zero _ E) as Hz.
  pose proof (chol_lower _ _ _ HC) as HL. pose proof (chol_length _ _ _ HC) as HTL.
  assert (LTmul L w = LTmul L (repeat 0 (length w))) as E2.
  { assert (forall u : list R, (forall x, In x u -> x = 0) -> u = repeat 0 (length u)) as Hrep.
    { induction u as [|x u IH]; intros Hu; auto. cbn. f_equal; [apply Hu; left; auto|]. apply IH. intros; apply Hu; right; auto. }
    rewrite (Hrep _ Hz). rewrite LT_length by (auto; rewrite Hw; exact HTL). symmetry.
    assert (length (LTmul L (repeat 0 (length w))) = length L) as Hl by (apply LT_length; auto; rewrite repeat_length, Hw; exact HTL).
    rewrite <- Hl. apply Hrep. apply dot_zero.
    rewrite <- (quad_LT k sym T L HC) by (rewrite repeat_length; auto). unfold quad_noise.
    rewrite total_zero.
    - rewrite Rplus_0_r. unfold quad. apply total_zero. intros q Hq. apply total_zero. intros p _.
      apply in_map_iff in Hq as ([z b] & <- & Hq). apply in_combine_r in Hq. apply repeat_spec in Hq. cbn. rewrite Hq. ring.
    - intros [z b] Hq. apply in_combine_r in Hq. apply repeat_spec in Hq. cbn. rewrite Hq. ring. }
  assert (w = repeat 0 (length w)) as E3.
  { rewrite <- (backward_LT L HL w) by (rewrite Hw; exact HTL). rewrite E2 at 1. rewrite backward_LT by (auto; rewrite repeat_length, Hw; exact HTL).
    rewrite backward_LT by (auto; rewrite Hw; exact HTL). reflexivity. }
  rewrite E3 in Ha. apply repeat_spec in Ha. contradiction.
Qed.
Lemma quad_noise_more T U w : length w = length T -> quad_noise k (T ++ U) (w ++ repeat 0 (length U)) = quad_noise k T w.
Proof.
  intros Hw. induction U as [|[y n] U IH] using rev_ind; [cbn [length repeat]; rewrite !app_nil_r; reflexivity|].
  rewrite app_length. cbn [length]. rewrite Nat.add_1_r. replace (repeat 0 (S (length U))) with (repeat 0 (length U) ++ [0]) by (rewrite <- repeat_cons; reflexivity).
  rewrite !app_assoc. rewrite <- IH. unfold quad_noise. rewrite combine_snoc by (rewrite !app_length, repeat_length; lia).
  rewrite !map_app, !total_app. cbn [map fst snd]. rewrite quad_snoc by auto. cbn [total fold_right]. ring.
Qed.
Lemma posdef_prefix T U : posdef (T ++ U) -> posdef T.
Proof.
  intros H w Hw (a & Ha & Hn). rewrite <- (quad_noise_more T U w Hw). apply H.
  - rewrite !app_length, repeat_length. lia.
  - exists a. split; auto. apply in_or_app; auto.
Qed.
Lemma posdef_pivot S L x n : Chol k S L -> posdef (S ++ [(x, n)]) -> 0 < var k S L x + n.
Proof.
  intros HC Hp. pose proof (best_length k S L x HC) as Hb. specialize (Hp (best k S L x ++ [-1])).
  assert (quad_noise k (S ++ [(x, n)]) (best k S L x ++ [-1]) = var k S L x + n) as <-.
  { rewrite <- (error_best k sym S L x HC). unfold quad_noise, error. rewrite combine_snoc by auto. rewrite !map_app, !total_app. cbn [map fst snd].
    rewrite quad_snoc by auto. rewrite map_map. cbn [total fold_right fst snd]. ring. }
  apply Hp; [rewrite !app_length; cbn; lia|]. exists (-1). split; [apply in_or_app; right; left; auto|lra].
Qed.
Lemma posdef_rows X : forall T S L, Chol k S L -> X = map fst (S ++ T) -> posdef (S ++ T) ->
  exists L', fold_left cholesky_step (rows_from k X (length S) T) (Some L) = Some L'.
Proof.
  induction T as [|[x n] T IH]; intros S L HC HX Hpd.
  - cbn. eauto.
  - assert (S ++ (x, n) :: T = (S ++ [(x, n)]) ++ T) as ES by (rewrite <- app_assoc; reflexivity).
    unfold rows_from. cbn [length seq combine map fold_left fst snd cholesky_step].
    assert (nth_error X (length S) = Some x) as Hx.
    { rewrite HX, map_app, nth_error_app2; rewrite map_length; auto. rewrite Nat.sub_diag. reflexivity. }
    assert (firstn (length S) X = map fst S) as Hf.
    { rewrite HX, map_app. rewrite firstn_app, map_length, Nat.sub_diag. cbn [firstn]. rewrite app_nil_r. rewrite firstn_all2; auto. rewrite map_length. auto. }
    rewrite <- (chol_length _ _ _ HC). rewrite row_before by (rewrite HX, map_length, app_length; lia). rewrite (row_diag X _ x n (k x) Hx), Hf.
    pose proof (posdef_pivot S L x n HC) as Hpv. rewrite ES in Hpd. specialize (Hpv (posdef_prefix _ _ Hpd)). unfold var in Hpv.
    set (r := forward L (map (k x) (map fst S))) in *.
    destruct (Rlt_dec 0 (k x x + n - dot r r)) as [Hp|Hp]; [|lra].
    destruct (IH (S ++ [(x, n)]) (L ++ [(r, sqrt (k x x + n - dot r r))])) as (L' & E).
    + apply Chol_snoc; auto.
    + rewrite HX, ES. reflexivity.
    + exact Hpd.
    + rewrite app_length, Nat.add_1_r in E. unfold rows_from in E. eauto.
Qed.
Lemma update_iff X noise y : length X = length noise -> (exists g, update_model k X noise y = Some g) <-> posdef (combine X noise).
Proof.
  intros H. split.
  - intros (g & E). destruct (update_chol k X noise y g H E) as (HC & _). eapply chol_posdef; eauto.
  - intros Hp. destruct (posdef_rows X (combine X noise) [] [] (Chol_nil k)) as (L & E); [cbn; rewrite fst_combine; auto|exact Hp|].
    unfold update_model, kernel_inverse. rewrite (kernel_matrix_rows k X noise H). unfold cholesky. cbn [length] in E. rewrite E. eauto.
Qed.
Lemma quad_noise_perm T w T' w' : Permutation (combine T w) (combine T' w') -> quad_noise k T w = quad_noise k T' w'.
Proof.
  intros H. unfold quad_noise. f_equal.
  - apply quad_perm, Permutation_map. auto.
  - apply total_perm, Permutation_map. auto.
Qed.
Lemma posdef_perm T T' : Permutation T T' -> posdef T -> posdef T'.
Proof.
  intros HP Hd w' Hw' (a & Ha & Hn). destruct (combine_perm T' T w') as (w & Hw & HPc); [auto|symmetry; auto|].
  rewrite (quad_noise_perm _ _ _ _ HPc). apply Hd; auto. exists a. split; auto.
  rewrite <- (snd_combine T w) by auto. rewrite <- (snd_combine T' w') in Ha by auto. eapply Permutation_in; [apply Permutation_map; exact HPc|auto].
Qed.

(** The dual coefficients move with their points. *)
Lemma Amul_spec T w y : length w = length T -> length y = length T ->
  (Amul k T w = y <-> forall q, In q (combine (combine T y) w) -> snd (fst q) =
     total (map (fun p => k (fst (fst (fst q))) (fst (fst p)) * snd p) (combine T w)) + snd (fst (fst q)) * snd q).
Proof.
  intros Hw Hy. unfold Amul.
  assert (forall x : P, dot (map (k x) (map fst T)) w = total (map (fun p => k x (fst (fst p)) * snd p) (combine T w))) as E.
  { intros x. rewrite map_map. rewrite <- (map_id w) at 1. rewrite dot_total by auto. reflexivity. }
  assert (map (fun q => dot (map (k (fst (fst q))) (map fst T)) w + snd (fst q) * snd q) (combine T w)
    = map (fun q => total (map (fun p => k (fst (fst q)) (fst (fst p)) * snd p) (combine T w)) + snd (fst q) * snd q) (combine T w)) as ->.
  { apply map_ext. intros q. rewrite E. reflexivity. }
  assert (forall (F : P -> R) U v z, length v = length U -> length z = length U ->
    (map (fun q : P * R * R => F (fst (fst q)) + snd (fst q) * snd q) (combine U v) = z <->
    forall q, In q (combine (combine U z) v) -> snd (fst q) = F (fst (fst (fst q))) + snd (fst (fst q)) * snd q)) as K;
    [|exact (K (fun x => total (map (fun p => k x (fst (fst p)) * snd p) (combine T w))) T w y Hw Hy)].
  clear. intros F T w y Hw Hy.
  revert w y Hw Hy. induction T as [|t T IH]; intros [|a w] [|b y] Hw Hy; try discriminate.
  - cbn. split; [intros _ q []|auto].
  - cbn [combine map fst snd]. split.
    + intros E. injection E as E1 E2. injection Hw as Hw. injection Hy as Hy. pose proof (proj1 (IH w y Hw Hy) E2) as E3. intros q [<-|Hq]; [cbn; auto|auto].
    + intros H. f_equal.
      * symmetry. apply (H (t, b, a)). left. reflexivity.
      * apply IH; [auto|auto|]. intros q Hq. apply H. right. exact Hq.
Qed.
Lemma combine_fst_fst {A B C} (T : list A) (y : list B) (w : list C) : length y = length T -> length w = length T ->
  map (fun q => (fst (fst q), snd q)) (combine (combine T y) w) = combine T w.
Proof. revert y w. induction T as [|t T IH]; intros [|a y] [|b w] H1 H2; try discriminate; auto. cbn. f_equal. auto. Qed.
Lemma combine_pair {A B C} (T : list A) (y : list B) (w : list C) : length y = length T -> length w = length T ->
  map fst (combine (combine T y) w) = combine T y.
Proof. intros H1 H2. apply fst_combine. rewrite combine_length. lia. Qed.

Lemma alpha_perm X noise y g X' noise' y' g' :
  length X = length noise -> length y = length X -> length X' = length noise' -> length y' = length X' ->
  update_model k X noise y = Some g -> update_model k X' noise' y' = Some g' ->
  Permutation (combine (combine X noise) y) (combine (combine X' noise') y') ->
  length (g_alpha g) = length X /\ length (g_alpha g') = length X' /\
  Permutation (combine (combine (combine X noise) y) (g_alpha g)) (combine (combine (combine X' noise') y') (g_alpha g')).
Proof.
  intros H Hy H' Hy' E E' HP. destruct (update_chol k X noise y g H E) as (HC & _ & Ha). destruct (update_chol k X' noise' y' g' H' E') as (HC' & _ & Ha').
  assert (length (combine X noise) = length X) as HT by (rewrite combine_length; lia). assert (length (combine X' noise') = length X') as HT' by (rewrite combine_length; lia).
  pose proof (chol_length _ _ _ HC) as HTL. pose proof (chol_lower _ _ _ HC) as HL. pose proof (chol_length _ _ _ HC') as HTL'.
  assert (length (g_alpha g) = length X) as Hal by (rewrite Ha, backward_length; [rewrite <- HTL; exact HT|auto|apply forward_length; rewrite <- HTL, HT, Hy; auto]).
  set (T := combine X noise) in *. set (T' := combine X' noise') in *.
  assert (length y = length T) as Hy1 by (rewrite HT; exact Hy). assert (length y' = length T') as Hy1' by (rewrite HT'; exact Hy').
  assert (length (g_alpha g) = length T) as Hal1 by (rewrite HT; exact Hal).
  destruct (combine_perm (combine T y) (combine T' y') (g_alpha g)) as (w & Hw & HPw); [rewrite combine_length; lia|exact HP|].
  assert (length w = length T') as Hw1 by (rewrite Hw, combine_length; lia).
  assert (Amul k T' w = y') as Hs'.
  { pose proof (alpha_solves k sym T _ y HC Hy1) as Hs. rewrite <- Ha in Hs. pose proof (proj1 (Amul_spec T _ y Hal1 Hy1) Hs) as Hq0.
    apply Amul_spec; [exact Hw1|exact Hy1'|]. intros q Hq. rewrite Hq0 by (eapply Permutation_in; [symmetry; exact HPw|exact Hq]). f_equal.
    apply total_perm. rewrite <- (combine_fst_fst T y (g_alpha g) Hy1 Hal1), <- (combine_fst_fst T' y' w Hy1' Hw1). rewrite !map_map.
    apply Permutation_map. exact HPw. }
  assert (g_alpha g' = w) as Eg by (rewrite Ha'; exact (alpha_unique k sym T' _ y' w HC' Hw1 Hs')). rewrite Eg.
  split; [exact Hal|]. split; [rewrite Hw1, HT'; reflexivity|]. exact HPw.
Qed.
Lemma points_combine (X : list P) (noise y a : list R) : length X = length noise -> length y = length X -> length a = length X ->
  map (fun q => (fst (fst (fst q)), snd q)) (combine (combine (combine X noise) y) a) = combine X a.
Proof.
  revert noise y a. induction X as [|x X IH]; intros [|n noise] [|t y] [|b a] H1 H2 H3; try discriminate; auto. cbn. f_equal. auto.
Qed.
Lemma mean_perm X noise y g X' noise' y' g' x :
  length X = length noise -> length y = length X -> length X' = length noise' -> length y' = length X' ->
  update_model k X noise y = Some g -> update_model k X' noise' y' = Some g' ->
  Permutation (combine (combine X noise) y) (combine (combine X' noise') y') -> gp_mean k X g x = gp_mean k X' g' x.
Proof.
  intros H Hy H' Hy' E E' HP. destruct (alpha_perm X noise y g X' noise' y' g' H Hy H' Hy' E E' HP) as (Hl & Hl' & HPa).
  unfold gp_mean. rewrite <- (map_id (g_alpha g)), <- (map_id (g_alpha g')). rewrite !dot_total by auto.
  rewrite <- (points_combine X noise y) by auto. rewrite <- (points_combine X' noise' y') by auto. rewrite !map_map. apply total_perm.
  apply (Permutation_map (fun q => k x (fst (fst (fst q))) * snd q)). exact HPa.
Qed.
Lemma var_perm T T' L L' x : Chol k T L -> Chol k T' L' -> Permutation T T' -> var k T L x = var k T' L' x.
Proof.
  intros H H' HP. apply Rle_antisym.
  - apply (var_less k sym T' [] T L' L x H' H). rewrite app_nil_r. symmetry. exact HP.
  - apply (var_less k sym T [] T' L L' x H H'). rewrite app_nil_r. exact HP.
Qed.
End Order.

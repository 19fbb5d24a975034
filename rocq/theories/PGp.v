(** The Cholesky factor of a kernel matrix, point by point: lemmas. *)
From Coq Require Import Lra Lia Permutation.
From Verif Require Import MLinAlg PLinAlg SLinAlg.
Set Default Goal Selector "!".

Lemma total_app l m : total (l ++ m) = total l + total m.
Proof. unfold total. induction l as [|x l IH]; cbn [app fold_right]; [lra|]. rewrite IH. lra. Qed.
Lemma total_add {A} (f g : A -> R) l : total (map (fun a => f a + g a) l) = total (map f l) + total (map g l).
Proof. induction l as [|a l IH]; cbn; [lra|]. unfold total in *. rewrite IH. lra. Qed.
Lemma total_scale {A} c (f : A -> R) l : total (map (fun a => c * f a) l) = c * total (map f l).
Proof. induction l as [|a l IH]; cbn; [lra|]. unfold total in *. rewrite IH. lra. Qed.
Lemma total_perm l m : Permutation l m -> total l = total m.
Proof. induction 1; cbn; unfold total in *; try lra; cbn in *; lra. Qed.
Lemma total_ext {A} (f g : A -> R) l : (forall a, In a l -> f a = g a) -> total (map f l) = total (map g l).
Proof. intros H. f_equal. apply map_ext_in. auto. Qed.
Lemma total_zero {A} (f : A -> R) l : (forall a, In a l -> f a = 0) -> total (map f l) = 0.
Proof.
  induction l as [|a l IH]; intros H; [reflexivity|]. cbn [map total fold_right]. change (f a + total (map f l) = 0).
  rewrite H by (left; auto). rewrite IH by (intros; apply H; right; auto). lra.
Qed.
Lemma combine_app' {A B} (l l' : list A) (m m' : list B) : length l = length m -> combine (l ++ l') (m ++ m') = combine l m ++ combine l' m'.
Proof. revert m. induction l as [|x l IH]; intros [|y m] H; try discriminate; auto. cbn. f_equal. auto. Qed.

Lemma Lmul_lin L u t v : length u = length v -> Lmul L (vadd u (scale t v)) = vadd (Lmul L u) (scale t (Lmul L v)).
Proof.
  intros E. unfold Lmul. induction L as [|q L IH]; auto.
  cbn [map]. rewrite IH. unfold vadd at 3. cbn [scale map combine fst snd]. f_equal. rewrite dot_vadd by (rewrite scale_length; auto). rewrite dot_scale. reflexivity.
Qed.

Lemma norm_vadd u c v : length u = length v -> dot (vadd u (scale c v)) (vadd u (scale c v)) = dot u u + 2 * c * dot u v + c ^ 2 * dot v v.
Proof. revert v. induction u as [|a u IH]; intros [|b v] H; try discriminate; [cbn; lra|]. injection H as H. specialize (IH v H). unfold vadd, scale in *. cbn in *. rewrite IH. ring. Qed.

Section Gp.
Context {P : Type}.
Variable k : P -> P -> R.
Hypothesis sym : symmetric k.

Lemma quad_perm l m : Permutation l m -> quad k l = quad k m.
Proof.
  intros H. unfold quad. rewrite (total_perm _ _ (Permutation_map _ H)). apply total_ext. intros a _. apply total_perm, Permutation_map, H.
Qed.
Lemma quad_snoc l x t : quad k (l ++ [(x, t)]) = quad k l + 2 * t * total (map (fun q => snd q * k x (fst q)) l) + t ^ 2 * k x x.
Proof.
  unfold quad. rewrite map_app, total_app. cbn [map].
  rewrite (total_ext _ (fun a => total (map (fun b => snd a * snd b * k (fst a) (fst b)) l) + snd a * t * k (fst a) x)).
  2:{ intros a _. rewrite map_app, total_app. cbn. lra. }
  rewrite total_add. rewrite map_app, total_app. cbn [map].
  rewrite (total_ext (fun a => snd a * t * k (fst a) x) (fun a => t * (snd a * k x (fst a)))) by (intros a _; rewrite (sym x (fst a)); ring).
  rewrite (total_ext (fun b => snd (x, t) * snd b * k (fst (x, t)) (fst b)) (fun a => t * (snd a * k x (fst a)))) by (intros a _; cbn; ring).
  rewrite !total_scale. cbn. ring.
Qed.

(** The factor, point by point. *)
Inductive Chol : data -> list row -> Prop :=
| Chol_nil : Chol [] []
| Chol_snoc T L x n : Chol T L -> let r := forward L (map (k x) (map fst T)) in
    0 < k x x + n - dot r r -> Chol (T ++ [(x, n)]) (L ++ [(r, sqrt (k x x + n - dot r r))]).

Lemma chol_length T L : Chol T L -> length T = length L.
Proof. induction 1; auto. rewrite !app_length. cbn. lia. Qed.
Lemma chol_lower T L : Chol T L -> lower L.
Proof.
  induction 1 as [|T L x n HC IH r Hp]; constructor; auto.
  - unfold r. apply forward_length. rewrite !map_length. symmetry. apply chol_length; auto.
  - apply Rgt_not_eq. apply sqrt_lt_R0. auto.
Qed.
Lemma forward_k T L x : Chol T L -> Lmul L (forward L (map (k x) (map fst T))) = map (k x) (map fst T).
Proof. intros H. apply forward_ok; [eapply chol_lower; eauto|]. rewrite !map_length. apply chol_length; auto. Qed.

(** [(K + noise) w]. *)
Definition Amul (T : data) (w : list R) : list R :=
  map (fun q => dot (map (k (fst (fst q))) (map fst T)) w + snd (fst q) * snd q) (combine T w).
Lemma Amul_LLT T L : Chol T L -> forall w, length w = length T -> Amul T w = Lmul L (LTmul L w).
Proof.
  induction 1 as [|T L x n HC IH r Hp]; intros w Hw; [destruct w; [reflexivity|discriminate]|].
  rewrite app_length in Hw. cbn in Hw. destruct (snoc_inv w (length T)) as (w' & t & -> & Hw'); [lia|].
  pose proof (chol_length _ _ HC) as HTL. pose proof (chol_lower _ _ HC) as HL. assert (length L = length w') as HLw by (rewrite Hw'; symmetry; exact HTL).
  assert (length r = length L) as Hr by (unfold r; apply forward_length; rewrite !map_length; auto).
  assert (length (LTmul L w') = length L) as HLT by (apply LT_length; auto; lia).
  assert (length (vadd (LTmul L w') (scale t r)) = length L) as Hv by (rewrite vadd_length; rewrite ?scale_length; lia).
  rewrite LT_snoc by exact HLw. unfold Amul. rewrite combine_snoc by auto. unfold Lmul. rewrite !map_app. cbn [map fst snd]. f_equal.
  - change (map (fun q => dot (fst q ++ [snd q]) (vadd (LTmul L w') (scale t r) ++ [t * sqrt (k x x + n - dot r r)])) L)
      with (Lmul L (vadd (LTmul L w') (scale t r) ++ [t * sqrt (k x x + n - dot r r)])).
    rewrite Lmul_trunc by auto.
    assert (Lmul L (vadd (LTmul L w') (scale t r)) = vadd (Lmul L (LTmul L w')) (scale t (Lmul L r))) as ->.
    { apply Lmul_lin. lia. }
    rewrite <- IH by auto. unfold r. rewrite forward_k by auto.
    unfold Amul. assert (forall S v, length v = length S -> (forall q, In q S -> In q T) ->
       map (fun q => dot (map (k (fst (fst q))) (map fst T ++ [x])) (w' ++ [t]) + snd (fst q) * snd q) (combine S v)
       = vadd (map (fun q => dot (map (k (fst (fst q))) (map fst T)) w' + snd (fst q) * snd q) (combine S v)) (scale t (map (k x) (map fst S)))) as K.
    { induction S as [|s S IHS]; intros [|y v] Hl Hin; try discriminate; auto. cbn [combine map fst snd scale]. unfold vadd at 1. cbn [combine map fst snd].
      rewrite IHS by (auto; intros; apply Hin; right; auto). f_equal. rewrite !map_app. rewrite dot_app by (rewrite !map_length; auto). cbn. rewrite (sym x (fst s)). lra. }
    apply K; auto.
  - f_equal. rewrite !map_app. rewrite dot_app by (rewrite !map_length; auto). rewrite dot_app by lia. cbn [map dot fst snd].
    rewrite dot_vadd by (rewrite scale_length; lia). rewrite dot_scale.
    rewrite <- (forward_k T L x HC) at 1. fold r. rewrite adjoint by (auto; lia).
    replace (sqrt (k x x + n - dot r r) * (t * sqrt (k x x + n - dot r r))) with (t * (sqrt (k x x + n - dot r r) * sqrt (k x x + n - dot r r))) by ring.
    rewrite sqrt_sqrt by lra. lra.
Qed.

(** The quadratic form with noise is the squared norm of [L.T w]. *)
Definition quad_noise (T : data) (w : list R) : R :=
  quad k (map (fun q => (fst (fst q), snd q)) (combine T w)) + total (map (fun q => snd q ^ 2 * snd (fst q)) (combine T w)).
Lemma cross_dot (T : data) x w : length w = length T -> total (map (fun q => snd q * k x (fst (fst q))) (combine T w)) = dot (map (k x) (map fst T)) w.
Proof.
  revert w. induction T as [|p T IH]; intros [|t w] H; try discriminate; auto. cbn [combine map total fold_right dot fst snd].
  change (t * k x (fst p) + total (map (fun q => snd q * k x (fst (fst q))) (combine T w)) = k x (fst p) * t + dot (map (k x) (map fst T)) w).
  rewrite IH by auto. lra.
Qed.
Lemma quad_LT T L : Chol T L -> forall w, length w = length T -> quad_noise T w = dot (LTmul L w) (LTmul L w).
Proof.
  induction 1 as [|T L x n HC IH r Hp]; intros w Hw; [destruct w; [cbn; unfold quad_noise, quad; cbn; lra|discriminate]|].
  rewrite app_length in Hw. cbn in Hw. destruct (snoc_inv w (length T)) as (w' & t & -> & Hw'); [lia|].
  pose proof (chol_length _ _ HC) as HTL. pose proof (chol_lower _ _ HC) as HL. assert (length L = length w') as HLw by (rewrite Hw'; symmetry; exact HTL).
  assert (length r = length L) as Hr by (unfold r; apply forward_length; rewrite !map_length; auto).
  assert (length (LTmul L w') = length L) as HLT by (apply LT_length; auto; lia).
  rewrite LT_snoc by exact HLw. rewrite dot_app by reflexivity. rewrite dot_vadd by (rewrite scale_length; lia). rewrite dot_scale.
  rewrite (dot_comm _ (LTmul L w')), (dot_comm _ r). rewrite !dot_vadd by (rewrite scale_length; lia). rewrite !dot_scale. rewrite <- IH by auto.
  rewrite (dot_comm (LTmul L w') r). rewrite <- (adjoint L HL r w') by lia. unfold r at 1 2. rewrite forward_k by auto. fold r.
  unfold quad_noise. rewrite combine_snoc by auto. rewrite !map_app. cbn [map fst snd]. rewrite quad_snoc, total_app. rewrite map_map. cbn [fst snd].
  rewrite (cross_dot T x w') by auto. cbn [total fold_right dot].
  replace (t * sqrt (k x x + n - dot r r) * (t * sqrt (k x x + n - dot r r))) with (t * t * (sqrt (k x x + n - dot r r) * sqrt (k x x + n - dot r r))) by ring.
  rewrite sqrt_sqrt by lra. ring.
Qed.

(** The variance is the smallest error of a linear predictor. *)
Definition var (T : data) (L : list row) (x : P) : R := let M := forward L (map (k x) (map fst T)) in k x x - dot M M.
Lemma error_var T L x w : Chol T L -> length w = length T ->
  error k T x w = var T L x + dot (vadd (LTmul L w) (scale (-1) (forward L (map (k x) (map fst T))))) (vadd (LTmul L w) (scale (-1) (forward L (map (k x) (map fst T))))).
Proof.
  intros HC Hw. unfold error. pose proof (quad_LT T L HC w Hw) as Q. unfold quad_noise in Q. rewrite cross_dot by auto.
  pose proof (chol_lower _ _ HC) as HL. pose proof (chol_length _ _ HC) as HTL. set (M := forward L (map (k x) (map fst T))).
  assert (length M = length L) as HM by (unfold M; apply forward_length; rewrite !map_length; auto).
  assert (length (LTmul L w) = length L) as HLT by (apply LT_length; auto; lia).
  assert (dot (map (k x) (map fst T)) w = dot M (LTmul L w)) as E.
  { rewrite <- (forward_k T L x HC). fold M. apply adjoint; auto; lia. }
  rewrite E. unfold var. fold M. rewrite norm_vadd by (rewrite HM; exact HLT). rewrite <- Q.
  rewrite (dot_comm (LTmul L w) M). lra.
Qed.
Definition best (T : data) (L : list row) (x : P) : list R := backward L (forward L (map (k x) (map fst T))).
Lemma best_length T L x : Chol T L -> length (best T L x) = length T.
Proof.
  intros HC. unfold best. rewrite (chol_length _ _ HC). apply backward_length; [eapply chol_lower; eauto|].
  apply forward_length. rewrite !map_length. symmetry. apply chol_length; auto.
Qed.
Lemma vsub_self M : dot (vadd M (scale (-1) M)) (vadd M (scale (-1) M)) = 0.
Proof. induction M as [|m M IH]; cbn; [reflexivity|]. unfold vadd, scale in IH. rewrite IH. ring. Qed.
Lemma error_best T L x : Chol T L -> error k T x (best T L x) = var T L x.
Proof.
  intros HC. rewrite (error_var T L x) by (auto; apply best_length; auto). unfold best.
  rewrite backward_ok; [rewrite vsub_self; lra|eapply chol_lower; eauto|].
  rewrite forward_length; [reflexivity|]. rewrite !map_length. symmetry. apply chol_length; auto.
Qed.
Lemma error_above T L x w : Chol T L -> length w = length T -> var T L x <= error k T x w.
Proof. intros HC Hw. rewrite (error_var T L x w) by auto. pose proof (dot_pos (vadd (LTmul L w) (scale (-1) (forward L (map (k x) (map fst T)))))). lra. Qed.

(** Errors are not negative for positive kernels. *)
Lemma error_pos T x w : positive k -> (forall q, In q T -> 0 <= snd q) -> length w = length T -> 0 <= error k T x w.
Proof.
  intros Hpos Hn Hw. pose proof (Hpos (map (fun q => (fst (fst q), snd q)) (combine T (scale (-1) w)) ++ [(x, 1)])) as H.
  rewrite quad_snoc in H. rewrite map_map in H. cbn [fst snd] in H.
  rewrite (cross_dot T x (scale (-1) w)) in H by (rewrite scale_length; auto). rewrite dot_scale in H.
  unfold error. rewrite cross_dot by auto.
  assert (quad k (map (fun q => (fst (fst q), snd q)) (combine T (scale (-1) w))) = quad k (map (fun q => (fst (fst q), snd q)) (combine T w))) as E.
  { assert (map (fun q : P * R * R => (fst (fst q), snd q)) (combine T (scale (-1) w)) = map (fun e : P * R => (fst e, - snd e)) (map (fun q => (fst (fst q), snd q)) (combine T w))) as ->.
    { clear. revert w. induction T as [|q T IH]; intros [|t w]; auto. cbn. f_equal; [f_equal; lra|apply IH]. }
    generalize (map (fun q : P * R * R => (fst (fst q), snd q)) (combine T w)) as l. intros l. unfold quad. rewrite map_map. apply total_ext. intros a _.
    rewrite map_map. apply total_ext. intros b _. cbn. lra. }
  rewrite E in H. assert (0 <= total (map (fun q : P * R * R => snd q ^ 2 * snd (fst q)) (combine T w))) as Hnn.
  { clear - Hn. revert w. induction T as [|q T IH]; intros [|t w]; cbn; try lra.
    specialize (IH (fun q' H => Hn q' (or_intror H)) w). pose proof (Hn q (or_introl eq_refl)). unfold total in IH.
    assert (0 <= t * (t * 1) * snd q) by (apply Rmult_le_pos; [nra|auto]). apply Rplus_le_le_0_compat; [assumption|exact IH]. }
  lra.
Qed.
Lemma var_pos T L x : positive k -> (forall q, In q T -> 0 <= snd q) -> Chol T L -> 0 <= var T L x.
Proof. intros H Hn HC. rewrite <- error_best by auto. apply error_pos; auto. apply best_length; auto. Qed.

(** A predictor may ignore points. *)
Lemma error_perm T T' x w : length w = length T -> Permutation T T' -> exists w', length w' = length T' /\ error k T' x w' = error k T x w.
Proof.
  intros Hw HP. assert (exists w', length w' = length T' /\ Permutation (combine T w) (combine T' w')) as (w' & Hw' & HP').
  { revert w Hw. induction HP as [|p T T' HP IH|p q T|T1 T2 T3 H1 IH1 H2 IH2]; intros w Hw.
    - exists w. auto.
    - destruct w as [|t w]; [discriminate|]. destruct (IH w) as (w' & E1 & E2); [auto|]. exists (t :: w'). cbn. split; [lia|]. constructor; auto.
    - destruct w as [|t [|u w]]; try discriminate. exists (u :: t :: w). cbn. split; [auto|]. apply perm_swap.
    - destruct (IH1 w Hw) as (w1 & E1 & F1). destruct (IH2 w1 E1) as (w2 & E2 & F2). exists w2. split; auto. eapply Permutation_trans; eauto. }
  exists w'. split; auto. unfold error. f_equal; [f_equal|].
  - f_equal. f_equal. apply total_perm, Permutation_map. symmetry. auto.
  - apply quad_perm, Permutation_map. symmetry. auto.
  - apply total_perm, Permutation_map. symmetry. auto.
Qed.
Lemma error_more T U x w : length w = length T -> error k (T ++ U) x (w ++ repeat 0 (length U)) = error k T x w.
Proof.
  intros Hw. induction U as [|[y n] U IH] using rev_ind; [cbn [length repeat]; rewrite !app_nil_r; reflexivity|].
  rewrite app_length. cbn [length]. rewrite Nat.add_1_r. replace (repeat 0 (S (length U))) with (repeat 0 (length U) ++ [0]) by (rewrite <- repeat_cons; reflexivity).
  rewrite !app_assoc. rewrite <- IH. unfold error. rewrite combine_snoc by (rewrite !app_length, repeat_length; lia).
  rewrite !map_app, !total_app. cbn [map fst snd]. rewrite quad_snoc. cbn [total fold_right]. ring.
Qed.
Lemma var_less T U T' L L' x : Chol T L -> Chol T' L' -> Permutation (T ++ U) T' -> var T' L' x <= var T L x.
Proof.
  intros H H' HP. rewrite <- (error_best T L x H). pose proof (best_length T L x H) as Hb.
  rewrite <- (error_more T U x (best T L x) Hb).
  destruct (error_perm (T ++ U) T' x (best T L x ++ repeat 0 (length U))) as (w' & Hw' & <-); auto; [rewrite !app_length, repeat_length; lia|].
  apply error_above; auto.
Qed.

(** The factor computed from the kernel matrix is that. *)
Lemma row_before X i x n : (i <= length X)%nat -> firstn i (add_at i n (map (k x) X)) = map (k x) (firstn i X).
Proof. revert X. induction i as [|i IH]; intros [|y X] H; cbn in *; try lia; auto. f_equal. apply IH. lia. Qed.
Lemma row_diag X i x n (f : P -> R) : nth_error X i = Some x -> nth i (add_at i n (map f X)) 0 = f x + n.
Proof. revert X. induction i as [|i IH]; intros [|y X] H; try discriminate; cbn in *; [injection H as ->; reflexivity|]. apply IH. auto. Qed.
Definition rows_from (X : list P) (i : nat) (T : data) : list (list R) :=
  map (fun q => add_at (fst q) (snd (snd q)) (map (k (fst (snd q))) X)) (combine (seq i (length T)) T).
Lemma fold_none l : fold_left cholesky_step l None = None.
Proof. induction l as [|a l IHl]; auto. Qed.
Lemma chol_rows X : forall T S L, Chol S L -> X = map fst (S ++ T) ->
  (forall L', fold_left cholesky_step (rows_from X (length S) T) (Some L) = Some L' -> Chol (S ++ T) L')
  /\ ((forall S' L' x n, Chol S' L' -> In (x, n) T -> incl S' (S ++ T) -> 0 < var S' L' x + n) -> exists L', fold_left cholesky_step (rows_from X (length S) T) (Some L) = Some L').
Proof.
  induction T as [|[x n] T IH]; intros S L HC HX.
  - cbn. rewrite app_nil_r. split; [intros L' E; injection E as <-; auto|eauto].
  - unfold rows_from. cbn [length seq combine map fold_left fst snd cholesky_step].
    assert (nth_error X (length S) = Some x) as Hx.
    { rewrite HX, map_app, nth_error_app2; rewrite map_length; auto. rewrite Nat.sub_diag. reflexivity. }
    assert (firstn (length S) X = map fst S) as Hf.
    { rewrite HX, map_app. rewrite firstn_app, map_length, Nat.sub_diag. cbn [firstn]. rewrite app_nil_r. rewrite firstn_all2; auto. rewrite map_length. auto. }
    rewrite <- (chol_length _ _ HC). rewrite row_before by (rewrite HX, map_length, app_length; lia). rewrite (row_diag X _ x n (k x) Hx), Hf.
    set (r := forward L (map (k x) (map fst S))).
    assert (S ++ (x, n) :: T = (S ++ [(x, n)]) ++ T) as ES by (rewrite <- app_assoc; reflexivity).
    destruct (Rlt_dec 0 (k x x + n - dot r r)) as [Hp|Hp].
    + destruct (IH (S ++ [(x, n)]) (L ++ [(r, sqrt (k x x + n - dot r r))])) as [I1 I2].
      * apply Chol_snoc; auto.
      * rewrite HX, ES. reflexivity.
      * rewrite app_length, Nat.add_1_r in I1, I2. unfold rows_from in I1, I2. rewrite ES. split; [exact I1|].
        intros Hpos. apply I2. intros S' L' x' n' H1 H2 H3. apply (Hpos S' L' x' n'); auto. right; auto.
    + split.
      * intros L' E. rewrite fold_none in E. discriminate.
      * intros Hpos. exfalso. apply Hp. specialize (Hpos S L x n HC (or_introl eq_refl)). unfold var in Hpos. fold r in Hpos.
        assert (0 < k x x - dot r r + n) by (apply Hpos; intros q Hq; apply in_or_app; auto). lra.
Qed.
Lemma kernel_matrix_rows X noise : length X = length noise -> kernel_matrix k X noise = rows_from X 0 (combine X noise).
Proof. intros H. unfold kernel_matrix, rows_from. rewrite combine_length, <- H, Nat.min_id. reflexivity. Qed.
Lemma fst_combine {A B} (l : list A) (m : list B) : length l = length m -> map fst (combine l m) = l.
Proof. revert m. induction l as [|x l IH]; intros [|y m] H; try discriminate; auto. cbn. f_equal. auto. Qed.
Lemma cholesky_chol X noise L : length X = length noise -> cholesky (kernel_matrix k X noise) = Some L -> Chol (combine X noise) L.
Proof.
  intros H E. rewrite kernel_matrix_rows in E by auto.
  destruct (chol_rows X (combine X noise) [] [] Chol_nil) as [I1 _]; [cbn; rewrite fst_combine; auto|]. apply I1. exact E.
Qed.
Lemma cholesky_some X noise : length X = length noise -> positive k -> (forall n, In n noise -> 0 < n) -> exists L, cholesky (kernel_matrix k X noise) = Some L.
Proof.
  intros H Hpos Hn. rewrite kernel_matrix_rows by auto.
  destruct (chol_rows X (combine X noise) [] [] Chol_nil) as [_ I2]; [cbn; rewrite fst_combine; auto|]. apply I2.
  intros S' L' x n HC Hin Hincl. assert (0 < n) as Hnn by (apply Hn; eapply in_combine_r; eauto).
  pose proof (var_pos S' L' x Hpos) as Hv. assert (0 <= var S' L' x); [|lra]. apply Hv; auto.
  intros q Hq. apply Rlt_le. apply Hn. apply Hincl in Hq. destruct q. eapply in_combine_r; eauto.
Qed.
End Gp.

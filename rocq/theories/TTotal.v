(** Property C73: appending well-formed data returns. *)
From Verif Require Import MGpr SGpr PSvm PGpr PGpr2 PGpr3 TGpr TGpr2.
Set Default Goal Selector "!".

(** An affine map with positive slope does not change who is within the threshold. *)
Definition moved (mu sigma : Qc) (v : num) : num := ndiv (nsub v (Fin mu)) (Fin sigma).
Definition plain (v : num) : Prop := v = NInf \/ exists q, v = Fin q.
Lemma moved_leb mu sigma w T q : (0 < sigma)%Qc -> plain w ->
  nleb (nsub (moved mu sigma w) (ndiv T (Fin sigma))) (moved mu sigma (Fin q)) = nleb (nsub w T) (Fin q).
Proof.
  intros Hs Hw. unfold moved.
  assert (~ sigma = 0%Qc) as Hn. { intros ->. revert Hs. unfold Qclt. simpl. lra. }
  assert (qeqb sigma 0 = false) as E0. { destruct (qeqb sigma 0) eqn:E; auto. apply qeqb_eq in E. contradiction. }
  assert (qltb sigma 0 = false) as E1.
  { apply qltb_nlt. apply Qclt_le_weak. auto. }
  destruct Hw as [->|[a ->]], T as [| |t|]; unfold nsub; cbn [nneg nadd ndiv]; rewrite ?E0, ?E1;
    cbn [nneg nadd nleb]; try reflexivity.
  assert ((a + - mu) / sigma + - (t / sigma) <= (q + - mu) / sigma <-> a + - t <= q)%Qc as H.
  { assert ((a + - mu) / sigma + - (t / sigma) = (a + - t + - mu) / sigma)%Qc as -> by (field; auto).
    set (x := ((a + - t + - mu) / sigma)%Qc). set (y := ((q + - mu) / sigma)%Qc).
    assert (a + - t + - mu = x * sigma)%Qc as Ex by (unfold x; field; auto).
    assert (q + - mu = y * sigma)%Qc as Ey by (unfold y; field; auto).
    split; intros H.
    - assert (x * sigma <= y * sigma)%Qc as H2 by (apply Qcmult_le_compat_r; auto; apply Qclt_le_weak; auto).
      rewrite <- Ex, <- Ey in H2. qc.
    - apply Qcmult_lt_0_le_reg_r with sigma; auto. rewrite <- Ex, <- Ey. qc. }
  destruct (qleb _ ((q + _) / _)) eqn:F1, (qleb (a + _) q) eqn:F2; auto; exfalso.
  - apply qleb_le in F1. apply H in F1. apply qleb_le in F1. congruence.
  - apply qleb_le in F2. apply H in F2. apply qleb_le in F2. congruence.
Qed.
Lemma moved_plain mu sigma v : (0 < sigma)%Qc -> plain v -> plain (moved mu sigma v)
  /\ (v = NInf <-> moved mu sigma v = NInf).
Proof.
  intros Hs Hv.
  assert (qeqb sigma 0 = false) as E0.
  { destruct (qeqb sigma 0) eqn:E; auto. apply qeqb_eq in E. subst. exfalso. revert Hs. unfold Qclt. simpl. lra. }
  assert (qltb sigma 0 = false) as E1.
  { apply qltb_nlt. apply Qclt_le_weak. auto. }
  unfold moved, plain. destruct Hv as [->|[q ->]]; unfold nsub; cbn [nneg nadd ndiv]; rewrite ?E0, ?E1.
  - split; auto. tauto.
  - split; eauto. split; discriminate.
Qed.
Lemma moved_within mu sigma y T v : (0 < sigma)%Qc -> ordinary y -> plain v ->
  (within (map (moved mu sigma) y) (ndiv T (Fin sigma)) (moved mu sigma v) <-> within y T v).
Proof.
  intros Hs Hy Hv. unfold within. split.
  - intros [[q Hq] H]. destruct Hv as [->|[r ->]].
    { destruct (moved_plain mu sigma NInf Hs (or_introl eq_refl)) as [_ [E _]]. rewrite E in Hq; auto. discriminate. }
    split; [eauto|]. intros w Hw. rewrite <- (moved_leb mu sigma w T r Hs (Hy w Hw)). apply H. apply in_map. auto.
  - intros [[q ->] H]. destruct (moved_plain mu sigma (Fin q) Hs) as [P N]; [right; eauto|]. split.
    { destruct P as [P|P]; auto. apply N in P. discriminate. }
    intros w Hw. apply in_map_iff in Hw as (u & <- & Hu). rewrite moved_leb; auto. apply Hy. auto.
Qed.
Lemma moved_labels mu sigma y T l : (0 < sigma)%Qc -> ordinary y ->
  labels_right (map (moved mu sigma) y) (ndiv T (Fin sigma)) l -> labels_right y T l.
Proof.
  intros Hs Hy [H1 H2]. rewrite map_length in H1. split; auto. intros i b v Hb Hv.
  rewrite <- (moved_within mu sigma y T v); auto.
  - apply (H2 i b); auto. rewrite nth_error_map, Hv. reflexivity.
  - apply Hy. apply nth_error_In in Hv. auto.
Qed.

Section C73.
Context {pt pt_ PX PY model theta box : Type}.
Variable e : env pt pt_ PX PY model theta box.
Variable c : config theta.
Implicit Types g : gpr pt pt_ PX PY model theta box.

(** A numerical problem: at least one point, finite targets. *)
Definition good (d : data pt_) : Prop := d_X d <> [] /\ forall v, In v (d_y d) -> exists q, v = Fin q.
(** The parts that are not modelled work: preprocessors do not raise and keep the number of entries,
    the one for y is affine with positive slope; training of the [SVC] with both labels, decompositions,
    optimiser and trust region with at least one point and finite values do not raise. *)
Definition well_behaved : Prop :=
  (forall p X y, length X = length y -> exists p', fitX e p X y = Ok p')
  /\ (forall p X y, length X = length y -> exists p', fitY e p X y = Ok p')
  /\ (forall p X, exists X_, trX e p X = Ok X_ /\ length X_ = length X)
  /\ (forall p, exists mu sigma, (0 < sigma)%Qc
        /\ (forall y, trY e p y = Ok (map (moved mu sigma) y))
        /\ (forall v, scaleY1 e p v = Ok (ndiv v (Fin sigma))))
  /\ (forall p v, exists v', scaleY e p v = Ok v' /\ length v' = length v)
  /\ (forall X l, length X = length l -> In true l -> In false l -> exists m, svc_train e X l = Ok m)
  /\ (forall th d, good d -> cholesky e th d = true)
  /\ (forall d th, good d -> exists th' v, optimize e d th = (th', Ok v))
  /\ (forall X y, X <> [] -> length X = length y -> (forall v, In v y -> exists q, v = Fin q) -> exists b, trust_region e X y = Ok b).
(** The threshold is not negative. *)
Definition usable : Prop := nleb (nz 0) (c_diff c) = true.
(** Values as they may be: not NaN or +inf, and finite if there is no classifier. *)
Definition acceptable (y : list num) : Prop := ordinary y /\ (c_classifier c = false -> ~ In NInf y).
(** As many points as values; the same noise for all points, or one level for each. *)
Definition consistent g : Prop :=
  length (g_Xall g) = length (g_yall g) /\ acceptable (g_yall g)
  /\ match g_noise g with Scalar _ => True | PerPoint l => length l = length (g_yall g) end.
(** The noise level given with the batch: any single one; one per point if that was already so. *)
Definition noise_fits (cur : noise) (a : noise_arg) (n : nat) : Prop :=
  match cur, a with
  | Scalar _, NoNoise | Scalar _, NNum _ | PerPoint _, NNum _ => True
  | PerPoint _, NArr v => length v = n
  | _, _ => False
  end.
(** Hyperparameters exist, or there is something to optimise, and at least one run of the optimiser;
    finite bounds to draw from. *)
Definition can_fit g (kw : fit_kw theta) : Prop :=
  f_bounds_finite kw = true
  /\ (g_kernel g <> None
      \/ c_optimizer c = true /\ c_hyper c = true
         /\ (f_simple kw = true \/ (0 < match f_restarts kw with Some n => n | None => c_restarts c end)%Z)).
Definition fit_fits g (a : append_args pt theta) : Prop :=
  match a_fit a with
  | FTrue => can_fit g (mkKw false true None (f_bounds_finite (a_default a)) (f_draw (a_default a)))
  | FSimple => can_fit g (mkKw true true None (f_bounds_finite (a_default a)) (f_draw (a_default a)))
  | FKw kw => can_fit g kw
  | FFalse => g_kernel g <> None
  | FBad => False
  end.
(** A new batch, or no new data but some finite value already there and a single noise level. *)
Definition well_formed g (a : append_args pt theta) : Prop :=
  fit_fits g a
  /\ ((exists X y, a_X a = Some X /\ a_y a = Some y /\ length X = length y /\ y <> [] /\ acceptable y
        /\ dim_ok e X = true /\ noise_fits (g_noise g) (a_noise a) (length y))
     \/ (a_X a = None /\ a_y a = None /\ a_noise a = NoNoise /\ dim_ok e [] = true
        /\ (exists q, In (Fin q) (g_yall g)) /\ exists s, g_noise g = Scalar s)).

Lemma argmin_from_range l : forall i best bv, best < i ->
  np_argmin_from i best bv l < i + length l.
Proof.
  induction l as [|v l IH]; intros i best bv H; simpl; [lia|].
  destruct (isnan bv); [lia|]. destruct (_ || _); [specialize (IH (S i) i v)|specialize (IH (S i) best bv)]; lia.
Qed.
Lemma update_total g th d : well_behaved -> g_kernel g = Some th -> the_data g = Ok d -> good d ->
  exists g', update_model e g = (g', Ok tt).
Proof.
  intros (_ & _ & _ & _ & _ & _ & Hc & _) Hk Hd Hg. unfold update_model, seq_, get, ret, lift, modify.
  destruct (g_newinv g <? 1); [eauto|]. rewrite Hk, Hd, Hc by exact Hg. eauto.
Qed.
Lemma restarts_total d draw start : well_behaved -> good d -> forall n i g th, g_kernel g = Some th ->
  exists g' l, restarts e d draw start i n g = (g', Ok l).
Proof.
  intros W Hg. assert (forall th, exists th' v, optimize e d th = (th', Ok v)) as Ho by (intros th; apply W, Hg).
  induction n as [|n IH]; intros i g th Hk; cbn [restarts]; unfold seq_, get, ret, raise, lift, modify; [eauto|].
  assert (forall t, exists g' l, (let '(g', r) := (let '(th1, r) := optimize e d t in
    fun g => let '(g', r0) := (set_kernel (Some th1) g, Ok tt) in
      match r0 with Ok _ => (let '(g'0, r1) := (g', r) in
        match r1 with Ok v => (let '(g'1, r2) := restarts e d draw start (S i) n g'0 in
          match r2 with Ok rest => (g'1, Ok ((th1, v) :: rest)) | Err x => (g'1, Err x) end)
        | Err x => (g'0, Err x) end) | Err x => (g', Err x) end) g in (g', r)) = (g', Ok l)) as H.
  { intros t. destruct (Ho t) as (t' & v & ->). cbv beta iota.
    destruct (IH (S i) (set_kernel (Some t') g) t') as (g' & l & ->); [reflexivity|]. eauto. }
  destruct ((i =? 0) && start).
  - rewrite Hk. destruct (H th) as (g' & l & K). exists g', l. cbv beta iota in K |- *.
    destruct (optimize e d th); cbv beta iota in K |- *. destruct r; cbv beta iota in K |- *; [|congruence].
    destruct (restarts e d draw start (S i) n _) as [? []]; congruence.
  - destruct (H (draw i)) as (g' & l & K). exists g', l. cbv beta iota in K |- *.
    destruct (optimize e d (draw i)); cbv beta iota in K |- *. destruct r; cbv beta iota in K |- *; [|congruence].
    destruct (restarts e d draw start (S i) n _) as [? []]; congruence.
Qed.
Lemma fit_total kw g d : well_behaved -> can_fit g kw -> the_data g = Ok d -> good d ->
  exists g', fit_gpr_hyperparameters e c kw g = (g', Ok tt).
Proof.
  intros W [Hb Hk] Hd Hg. unfold fit_gpr_hyperparameters.
  set (n := if f_simple kw then 1%Z else _) in *. unfold seq_ at 1, get at 1. cbv beta iota.
  destruct (negb (c_optimizer c) || negb (c_hyper c) || (n <=? 0)%Z) eqn:Eo.
  { destruct (g_kernel g) as [th|] eqn:Ek.
    - unfold seq_ at 1, lift at 1. rewrite Hd. cbv beta iota. unfold seq_ at 1, modify at 1. cbv beta iota.
      eapply update_total; [exact W| |destruct g; exact Hd|exact Hg]. destruct g; exact Ek.
    - exfalso. destruct Hk as [Hk|(K1 & K2 & Hk)]; [congruence|]. rewrite K1, K2 in Eo. cbn [negb orb] in Eo. apply Z.leb_le in Eo.
      unfold n in Eo. destruct Hk as [Hk|Hk]; [rewrite Hk in Eo; lia|]. destruct (f_simple kw); lia. }
  apply orb_false_elim in Eo as [_ Eo]. apply Z.leb_gt in Eo. rewrite Hb. cbn [negb].
  rewrite andb_false_r. unfold seq_ at 1, modify at 1. cbv beta iota. unfold seq_ at 1, lift at 1.
  rewrite Hd. cbv beta iota. unfold seq_ at 1.
  match goal with |- context [restarts e d ?dr ?st 0 ?k ?z] =>
    destruct (restarts_total d dr st W Hg k 0 z (match g_kernel g with Some t => t | None => c_theta0 c end)) as (g1 & l & Hl) end.
  { destruct g as [? ? ? ? ? ? ? ? ? ? ? ? ? ? ? []]; reflexivity. }
  rewrite Hl. apply restarts_ok in Hl as (Hlen & k & ->).
  assert (length l <> 0) as Hl0 by lia. unfold seq_ at 1, lift at 1.
  destruct (np_argmin (map snd l)) as [j|] eqn:Ej.
  2: { destruct l; [simpl in Hl0; lia|discriminate]. }
  assert (j < length l) as Hj.
  { destruct l as [|p l]; [discriminate|]. simpl in Ej. injection Ej as <-.
    pose proof (argmin_from_range (map snd l) 1 0 (snd p)) as R. rewrite map_length in R. simpl. lia. }
  destruct (nth_error l j) as [[th v]|] eqn:En; [|apply nth_error_None in En; lia].
  unfold seq_, modify. cbv beta iota.
  match goal with |- context [update_model e ?z] => destruct (update_total z th d W) as [g2 H2] end;
    [reflexivity|destruct g; exact Hd|exact Hg|]. rewrite H2. eauto.
Qed.

Lemma classify_total yall : yall <> [] -> exists f T, classify c yall = Ok (f, T).
Proof.
  intros Hy. unfold classify. destruct (c_classifier c); [|eauto].
  assert (exists T, diff_threshold_if_keep_n_finite yall (c_keep c) (c_diff c) = Ok T) as [T ->].
  { unfold diff_threshold_if_keep_n_finite. destruct (Nat.leb_spec (c_keep c) 1); [eauto|].
    assert (1 <= length yall) by (destruct yall; [congruence|simpl; lia]). rewrite sort_length.
    destruct (neg_index_ok yall 1) as [b Hb]; [lia|]. rewrite Hb. cbn [bind].
    destruct (neg_index_ok yall (Nat.min (c_keep c) (length yall))) as [v ->]; [lia|]. cbn [bind]. eauto. }
  cbn [bind]. destruct yall; [congruence|]. simpl. eauto.
Qed.
(** The classifier gets the labels of the regressor, so that the assertion holds. *)
Lemma svm_agrees s X_ yall f T mu sigma : well_behaved -> c_classifier c = true -> nleb (nz 0) (c_diff c) = true ->
  ordinary yall -> yall <> [] -> length X_ = length yall -> (0 < sigma)%Qc -> classify c yall = Ok (f, T) ->
  exists s', svm_fit (svc_train e) s X_ (map (moved mu sigma) yall) (ndiv T (Fin sigma)) = (s', Ok f).
Proof.
  intros W Hc Hd Hy Hne HX Hs Hcl. pose proof (ordinary_no_nan _ Hy) as Hnn.
  apply classify_ok in Hcl as (_ & HT & Hf); auto.
  assert (forall v, In v (map (moved mu sigma) yall) -> plain v) as Hp.
  { intros v Hv. apply in_map_iff in Hv as (u & <- & Hu). apply (moved_plain mu sigma u Hs (Hy u Hu)). }
  assert (no_nan (map (moved mu sigma) yall)) as Hnn2.
  { intros N. apply Hp in N as [|[? ?]]; discriminate. }
  unfold svm_fit. destruct (forallb (fun v => neqb v NInf) (map (moved mu sigma) yall)) eqn:Ea.
  - apply all_ninf_spec in Ea. assert (all_minus_inf yall) as Ha.
    { intros v Hv. destruct (moved_plain mu sigma v Hs (Hy v Hv)) as [_ N]. apply N, Ea, in_map. auto. }
    rewrite (labels_right_unique _ _ _ _ Hf (minus_inf_right yall T (length X_) Ha HX)). eauto.
  - destruct (pymax_list_ok (map (moved mu sigma) yall)) as [m Em]; [destruct yall; [congruence|discriminate]|].
    rewrite Em. apply pymax_list_spec in Em as (M1 & M2 & M3); auto.
    pose proof (raw_right _ (ndiv T (Fin sigma)) m M1 M3) as R.
    apply moved_labels in R; auto. rewrite (labels_right_unique _ _ _ _ R Hf).
    destruct (forallb (fun b => b) f) eqn:E1; [eauto|].
    unfold svc_fit. destruct (forallb negb f) eqn:E2.
    2: { assert (exists z, svc_train e X_ f = Ok z) as [z ->]; [apply W|eauto].
         - rewrite HX. symmetry. apply Hf.
         - clear -E2. induction f as [|[] f IH]; [discriminate|left; reflexivity|right; auto].
         - clear -E1. induction f as [|[] f IH]; [discriminate|right; auto|left; reflexivity]. }
    exfalso. destruct (best_exists yall Hnn Hne) as (b & B1 & B2).
    assert (isfin b = true) as Fb.
    { destruct (Hy b B1) as [->|[q ->]]; [|reflexivity]. exfalso. enough (forallb (fun v => neqb v NInf) (map (moved mu sigma) yall) = true) by congruence.
      apply all_ninf_spec. intros v Hv. apply in_map_iff in Hv as (u & <- & Hu). destruct (moved_plain mu sigma u Hs (Hy u Hu)) as [_ N]. apply N.
      specialize (B2 u Hu). destruct u; auto; discriminate. }
    assert (within yall T b) as Wb by (apply pos_sub_within; auto; eapply threshold_pos; eauto).
    apply In_nth_error in B1 as [i Hi]. destruct Hf as [F1 F2].
    destruct (nth_error f i) as [v|] eqn:Ev.
    2: { apply nth_error_None in Ev. assert (i < length yall) by (apply nth_error_Some; congruence). lia. }
    apply (F2 i v b Ev Hi) in Wb. subst v. apply nth_error_In in Ev.
    rewrite forallb_forall in E2. apply E2 in Ev. discriminate.
Qed.
Lemma eqb_refl_list l : bool_list_eqb l l = true.
Proof.
  unfold bool_list_eqb. rewrite Nat.eqb_refl. simpl. induction l as [|b l IH]; simpl; auto. rewrite Bool.eqb_reflx. auto.
Qed.

Lemma noise_total cur a n m : noise_fits cur a n -> n <> 0 \/ a = NoNoise ->
  match cur with Scalar _ => True | PerPoint l => length l = m end ->
  exists nv nz, validate_noise_level cur a n = Ok nv /\ update_noise_level cur nv (m + n) = Ok nz
    /\ length (noise_array nz (m + n)) = m + n
    /\ match nz with Scalar _ => True | PerPoint l => length l = m + n end.
Proof.
  intros F N A. destruct cur as [s|l], a as [|v|v|]; cbn in F; try contradiction.
  - do 2 eexists. split; [reflexivity|]. split; [reflexivity|]. split; [apply repeat_length|exact I].
  - destruct N as [N|N]; [|discriminate]. unfold validate_noise_level. destruct (Nat.eqb_spec n 0); [contradiction|].
    do 2 eexists. split; [reflexivity|]. split; [reflexivity|]. split; [apply repeat_length|exact I].
  - destruct N as [N|N]; [|discriminate]. unfold validate_noise_level. destruct (Nat.eqb_spec n 0); [contradiction|].
    do 2 eexists. split; [reflexivity|]. split; [reflexivity|]. cbn [noise_array]. rewrite app_length, repeat_length, A. auto.
  - destruct N as [N|N]; [|discriminate]. unfold validate_noise_level. destruct (Nat.eqb_spec n 0); [contradiction|].
    rewrite F, Nat.eqb_refl. do 2 eexists. split; [reflexivity|]. split; [reflexivity|]. cbn [noise_array]. rewrite app_length, A, F. auto.
Qed.
Lemma count_true_in l : count_true l <> 0 <-> In true l.
Proof.
  unfold count_true. induction l as [|[] l IH]; cbn [filter length In].
  - split; [intros H; exfalso; apply H; reflexivity|intros []].
  - split; [auto|discriminate].
  - rewrite IH. split; [auto|intros [H|H]; [discriminate|exact H]].
Qed.
(** What is accepted is finite; there is something if any value is finite. *)
Lemma accepted_finite yall f T : usable -> acceptable yall -> yall <> [] -> classify c yall = Ok (f, T) ->
  (forall v, In v (mask f yall) -> exists q, v = Fin q) /\ ((exists q, In (Fin q) yall) -> In true f).
Proof.
  intros U [O A] Hne Hcl. pose proof (ordinary_no_nan _ O) as Hnn. destruct (c_classifier c) eqn:Hc.
  - apply classify_ok in Hcl as (_ & HT & Hf); auto. split.
    + intros v Hv. apply In_nth_error in Hv as [k Hv]. apply nth_error_In in Hv. destruct Hf as [L F].
      assert (forall m (l : list num) w, In w (mask m l) -> exists i, nth_error m i = Some true /\ nth_error l i = Some w) as M.
      { induction m as [|[] m IH]; intros [|x l] w Hw; cbn in Hw; try contradiction.
        - destruct Hw as [->|Hw]; [exists 0; auto|]. apply IH in Hw as [i Hi]. exists (S i). exact Hi.
        - apply IH in Hw as [i Hi]. exists (S i). exact Hi. }
      apply M in Hv as (i & I1 & I2). apply (F i true v I1 I2). reflexivity.
    + intros [q Hq]. destruct (best_exists yall Hnn Hne) as (b & B1 & B2).
      assert (isfin b = true) as Fb.
      { specialize (B2 _ Hq). destruct (O b B1) as [->|[r ->]]; [discriminate|reflexivity]. }
      assert (within yall T b) as Wb by (apply pos_sub_within; auto; eapply threshold_pos; eauto).
      apply In_nth_error in B1 as [i Hi]. destruct Hf as [F1 F2].
      destruct (nth_error f i) as [v|] eqn:Ev.
      2: { apply nth_error_None in Ev. assert (i < length yall) by (apply nth_error_Some; congruence). lia. }
      apply (F2 i v b Ev Hi) in Wb. subst v. apply nth_error_In in Ev. exact Ev.
  - unfold classify in Hcl. rewrite Hc in Hcl. injection Hcl as <- _. split.
    + intros v Hv. assert (In v yall) as Hi.
      { revert Hv. clear. induction yall as [|x l IH]; cbn; [auto|]. intros [?|?]; auto. }
      destruct (O v Hi) as [->|?]; [destruct (A eq_refl Hi)|assumption].
    + intros _. destruct yall; [congruence|]. left. reflexivity.
Qed.

Lemma update_kernel g g' : update_model e g = (g', Ok tt) -> g_kernel g' = g_kernel g.
Proof. intros H. apply update_model_ok in H as [[_ ->]|[_ (th & d & _ & _ & ->)]]; reflexivity. Qed.
Lemma fit_kernel kw g g' : fit_gpr_hyperparameters e c kw g = (g', Ok tt) -> g_kernel g' <> None.
Proof.
  intros H. apply fit_ok in H as (_ & g1 & th & _ & _ & _ & K & H & _). apply update_kernel in H. cbn in H. congruence.
Qed.
(** The best of the new values is accepted if it is finite and there was no finite one. *)
Lemma first_finite old y f T : usable -> ordinary (old ++ y) -> c_classifier c = true -> classify c (old ++ y) = Ok (f, T) ->
  (forall q, ~ In (Fin q) old) -> (exists q, In (Fin q) y) -> In true (py_last (length y) f).
Proof.
  intros U O Hc Hcl Hold [q Hq]. pose proof (ordinary_no_nan _ O) as Hnn.
  assert (old ++ y <> []) as Hne by (destruct old; [destruct y; [destruct Hq|discriminate]|discriminate]).
  pose proof (classify_length _ _ _ _ Hcl) as Lf.
  apply classify_ok in Hcl as (_ & HT & [F1 F2]); auto. destruct (best_exists _ Hnn Hne) as (b & B1 & B2).
  assert (exists r, b = Fin r) as [r ->].
  { destruct (O b B1) as [->|?]; [|assumption]. specialize (B2 (Fin q)). rewrite in_app_iff in B2. specialize (B2 (or_intror Hq)). discriminate. }
  assert (within (old ++ y) T (Fin r)) as Wb by (apply pos_sub_within; auto; eapply threshold_pos; eauto).
  apply in_app_iff in B1 as [B1|B1]; [destruct (Hold _ B1)|]. apply In_nth_error in B1 as [i Hi].
  assert (i < length y) as Li by (apply nth_error_Some; congruence).
  assert (nth_error (old ++ y) (length old + i) = Some (Fin r)) as Hi2 by (rewrite nth_error_app2 by lia; rewrite <- Hi; f_equal; lia).
  destruct (nth_error f (length old + i)) as [v|] eqn:Ev.
  2: { apply nth_error_None in Ev. rewrite Lf, app_length in Ev. lia. }
  apply (F2 _ v _ Ev Hi2) in Wb. subst v. unfold py_last. destruct (Nat.eqb_spec (length y) 0); [lia|].
  rewrite Lf, app_length. replace (length old + length y - length y) with (length old) by lia.
  rewrite <- (firstn_skipn (length old) f) in Ev. rewrite nth_error_app2 in Ev by (rewrite firstn_length; lia).
  apply nth_error_In in Ev. exact Ev.
Qed.

(** The fit has its data. *)
Definition prepared g : Prop := (exists d, the_data g = Ok d /\ good d) /\ g_kernel g <> None.
Definition no_finite (y : list num) : Prop := forall q, ~ In (Fin q) y.
Theorem C73_returns :
  forall a g, well_behaved -> usable -> consistent g -> well_formed g a ->
    exists g', append_to_data e c a g = (g', Ok tt) /\ consistent g'
      /\ (prepared g -> prepared g') /\ (no_finite (g_yall g) -> no_finite (g_yall g') \/ prepared g').
Proof.
  intros a g W U4 (C1 & C2 & C3) [A9 A].
  set (kw := kwargs (a_default a) (a_fit a)).
  assert (append_to_data e c a g = append_body e c a kw g) as E.
  { unfold append_to_data, fit_fits in *. destruct (a_fit a); try reflexivity. destruct A9. }
  pose proof W as (W1 & W2 & W3 & W4 & W5 & W6 & W7 & W8 & W9).
  assert (exists X y force, (match a_X a, a_y a with
     | None, None => match a_noise a with NoNoise => ret ([], [], match kw with Some _ => true | None => false end) | _ => raise ValueError end
     | Some X, Some y => ret (X, y, false)
     | _, _ => raise ValueError
     end : meth pt pt_ PX PY model theta box (list pt * list num * bool)) = ret (X, y, force)
     /\ batch_X (OAppend a) = X /\ batch_y (OAppend a) = y
     /\ length X = length y /\ acceptable y /\ dim_ok e X = true /\ g_yall g ++ y <> []
     /\ (force = true -> exists q, In (Fin q) (g_yall g ++ y))
     /\ noise_fits (g_noise g) (a_noise a) (length y) /\ (length y <> 0 \/ a_noise a = NoNoise)) as (X & y & force & Em & EX & Ey & A3 & A5 & A6 & Hne & A10 & A7 & A8).
  { unfold batch_X, batch_y. destruct A as [(X & y & -> & -> & A3 & A4 & A5 & A6 & A7)|(-> & -> & -> & A6 & [q Hq] & s & Hs)].
    - exists X, y, false. split; [reflexivity|]. do 2 (split; [reflexivity|]). split; [exact A3|]. split; [exact A5|]. split; [exact A6|].
      split; [destruct (g_yall g); [exact A4|discriminate]|]. split; [discriminate|]. split; [exact A7|]. left. destruct y; [congruence|discriminate].
    - do 3 eexists. split; [reflexivity|]. do 3 (split; [reflexivity|]). split; [split; [intros v []|intros _ []]|]. split; [exact A6|].
      rewrite app_nil_r. split; [intros K; rewrite K in Hq; destruct Hq|]. split; [eauto|]. rewrite Hs. split; [exact I|auto]. }
  assert (exists g', append_body e c a kw g = (g', Ok tt)
    /\ ((the_data g' = the_data g /\ g_kernel g' = g_kernel g /\ (no_finite (g_yall g) -> no_finite y)) \/ prepared g')) as (g' & H & HR).
  2: { exists g'. rewrite E. split; auto. rewrite <- E in H. pose proof H as H2. pose proof H as H3. apply append_sets in H2 as (f & T & Xf & E1 & E2 & _).
       rewrite EX in E1. rewrite Ey in E2.
       split.
       2: { destruct HR as [(R1 & R2 & R3)|HR]; [|auto]. split.
            - unfold prepared. rewrite R1, R2. auto.
            - intros N. left. rewrite E2. intros q Hq. apply in_app_iff in Hq as [Hq|Hq]; [apply (N q Hq)|apply (R3 N q Hq)]. }
       unfold consistent. rewrite E1, E2, !app_length. split; [lia|]. split; [|rewrite <- app_length].
       - destruct C2 as [O1 N1], A5 as [O2 N2]. split.
         + intros v Hv. apply in_app_iff in Hv as [Hv|Hv]; auto.
         + intros K Hv. apply in_app_iff in Hv as [Hv|Hv]; [apply (N1 K Hv)|apply (N2 K Hv)].
       - apply append_noise in H as (nv & Hv & Hu). rewrite Ey in Hv. rewrite E2, app_length in Hu.
         destruct (noise_total _ _ _ (length (g_yall g)) A7 A8 C3) as (nv' & nz' & K1 & K2 & _ & K3).
         assert (nv' = nv) by congruence. subst nv'. assert (nz' = g_noise g') by congruence. subst nz'. rewrite app_length. exact K3. }
  unfold append_body. rewrite Em. set (rf := a_classifier a || _).
  destruct (noise_total _ _ _ (length (g_yall g)) A7 A8 C3) as (nv & nz & N1 & N2 & N3 & _).
  unfold seq_, get, ret, raise, lift, modify. cbn [fst snd]. rewrite N1.
  rewrite A6. cbn [negb]. cbn [g_noise set_all set_nlast g_Xall g_yall]. rewrite app_length, N2.
  cbn [set_noise set_all set_nlast g_Xall g_yall].
  destruct (classify_total _ Hne) as (f & T & Ecl). rewrite Ecl.
  pose proof (classify_length _ _ _ _ Ecl) as Lf.
  assert (length (g_Xall g ++ X) = length (g_yall g ++ y)) as LX by (rewrite !app_length; lia).
  assert (acceptable (g_yall g ++ y)) as Oy.
  { destruct C2 as [O1 M1], A5 as [O2 M2]. split.
    - intros v Hv. apply in_app_iff in Hv as [Hv|Hv]; auto.
    - intros K Hv. apply in_app_iff in Hv as [Hv|Hv]; [apply (M1 K Hv)|apply (M2 K Hv)]. }
  rewrite <- app_length in N3.
  set (Xall := g_Xall g ++ X) in *. set (yall := g_yall g ++ y) in *.
  destruct (accepted_finite yall f T U4 Oy Hne Ecl) as [Ffin Ftrue].
  assert (forall A (l : list A), length l = length yall -> masked f l = Ok (mask f l)) as Hm.
  { intros A0 l Hl. unfold masked. rewrite Lf, Hl, Nat.eqb_refl. reflexivity. }
  set (g1 := set_noise nz _).
  match goal with |- context [match ?F g1 with pair _ _ => _ end] =>
    assert (exists Xf, F g1 = (g1, Ok Xf) /\ length Xf = count_true f) as (Xf & -> & LXf) end.
  { destruct (c_classifier c) eqn:Hc.
    - exists (mask f Xall). rewrite (Hm _ Xall LX). split; auto. apply mask_length. congruence.
    - exists Xall. split; auto. unfold classify in Ecl. rewrite Hc in Ecl. injection Ecl as <- _.
      rewrite LX. clear. induction (length yall); simpl; auto. unfold count_true in *. simpl. congruence. }
  assert (length Xf = length (mask f yall)) as LXy by (rewrite mask_length; congruence).
  cbv beta iota.
  match goal with |- context [match ?F g1 with pair _ _ => _ end] =>
    assert (exists pX pY, F g1 = (set_pY pY (set_pX pX g1), Ok tt)) as (pX & pY & ->) end.
  { destruct rf.
    - destruct (W1 (g_pX g1) Xf (mask f yall) LXy) as [pX ->]. destruct (W2 (g_pY g1) Xf (mask f yall) LXy) as [pY ->]. eauto.
    - exists (g_pX g1), (g_pY g1). destruct g; reflexivity. }
  cbv beta iota. unfold g1 at 1 2 3 4 5 6.
  cbn [g_pX g_pY g_noise g_Xall g_yall set_pX set_pY set_noise set_all set_nlast].
  destruct (W3 pX Xall) as (Xall_ & -> & LX_). destruct (W4 pY) as (mu & sigma & Hs & Wt & Wscale). rewrite Wt.
  destruct (W5 pY (noise_array nz (length (map (moved mu sigma) yall)))) as (noise_ & -> & Ln).
  rewrite map_length, N3 in Ln.
  set (g2 := set_noise_ _ _).
  match goal with |- context [match ?F g2 with pair _ _ => _ end] =>
    assert (exists sv, F g2 = (set_svm sv g2, Ok tt)) as (sv & ->) end.
  { destruct (c_classifier c) eqn:Hc; cbn [andb]; [destruct rf|].
    2, 3: exists (g_svm g2); destruct g; reflexivity.
    rewrite Wscale. destruct (svm_agrees (g_svm g2) Xall_ yall f T mu sigma) as (sv & ->); auto; [apply Oy|congruence|].
    rewrite eqb_refl_list. eauto. }
  cbv beta iota. set (nf := count_true (if c_classifier c then _ else _)).
  destruct ((nf =? 0) && negb force) eqn:Enf.
  { eexists. split; [reflexivity|]. left. do 2 (split; [destruct g; reflexivity|]). intros N q Hq.
    apply andb_prop in Enf as [Enf _]. apply Nat.eqb_eq in Enf. destruct (c_classifier c) eqn:Hc.
    - assert (In true (py_last (length y) f)) as K by (eapply first_finite; eauto; apply Oy). apply count_true_in in K. contradiction.
    - destruct y; [destruct Hq|discriminate Enf]. }
  assert (In true f) as Htrue.
  { apply andb_false_iff in Enf as [Enf|Enf].
    - apply Nat.eqb_neq in Enf. apply count_true_in in Enf. destruct (c_classifier c) eqn:Hc.
      + apply py_last_incl in Enf. exact Enf.
      + unfold classify in Ecl. rewrite Hc in Ecl. injection Ecl as <- _. destruct yall; [congruence|]. left. reflexivity.
    - apply Ftrue, A10. destruct force; [reflexivity|discriminate]. }
  assert (Xf <> []) as Xne. { intros K. apply count_true_in in Htrue. rewrite <- LXf, K in Htrue. apply Htrue. reflexivity. }
  cbn [g_pX g_pY set_train set_nlastfin set_svm g2 set_noise_ set_pY set_pX].
  destruct (W3 pX Xf) as (X_ & -> & L1). rewrite Wt, (Hm _ noise_ Ln).
  set (g3 := set_newinv _ _).
  assert (the_data g3 = Ok (mkData X_ (map (moved mu sigma) (mask f yall)) (map (fun v => nmul v v) (mask f noise_)))) as Hd.
  { unfold the_data, g3. cbn [g_X_ g_y_ g_alpha set_newinv set_alpha set_y_ set_X_].
    rewrite !map_length, !mask_length by congruence. rewrite L1, LXf, Nat.eqb_refl. reflexivity. }
  assert (good (mkData X_ (map (moved mu sigma) (mask f yall)) (map (fun v => nmul v v) (mask f noise_)))) as Hg.
  { split; cbn [d_X d_y].
    - intros K. apply Xne. apply length_zero_iff_nil. rewrite <- L1, K. reflexivity.
    - intros v Hv. apply in_map_iff in Hv as (u & <- & Hu). apply Ffin in Hu as [q ->].
      destruct (moved_plain mu sigma (Fin q) Hs) as [[P|P] N]; [right; eauto|apply N in P; discriminate|exact P]. }
  assert (exists g4, (match kw with Some k => fit_gpr_hyperparameters e c k | None => update_model e end) g3 = (g4, Ok tt)) as (g4 & K).
  { unfold kw, fit_fits in *. destruct (a_fit a); cbn [kwargs].
    1, 2, 3: eapply fit_total; [exact W| |exact Hd|exact Hg]; destruct A9 as [A9 A9']; split; [exact A9|exact A9'].
    - destruct (g_kernel g) as [th|] eqn:Ek; [|congruence]. eapply update_total; eauto.
    - destruct A9. }
  pose proof (numeric_frame e c kw g3 g4 K) as Fr. rewrite K.
  assert (g_X g4 = Xf /\ g_y g4 = mask f yall) as [X4 y4] by (rewrite Fr; split; reflexivity).
  assert (g_kernel g4 <> None) as Hk4.
  { clear -K A9. unfold kw, fit_fits in *. destruct (a_fit a); cbn [kwargs] in K; try (apply fit_kernel in K; exact K).
    - apply update_kernel in K. rewrite K. exact A9.
    - destruct A9. }
  destruct (W9 (g_X g4) (g_y g4)) as [b ->]; [congruence|congruence|rewrite y4; exact Ffin|].
  eexists. split; [reflexivity|]. right. split.
  - eexists. split; [|exact Hg]. rewrite <- Hd, <- (the_data_same _ _ Fr). destruct b, g4; reflexivity.
  - destruct b; exact Hk4.
Qed.
(** Fitting again. *)
Theorem C73_fit :
  forall kw g, well_behaved -> prepared g -> f_bounds_finite kw = true ->
    exists g', fit_gpr_hyperparameters e c kw g = (g', Ok tt) /\ prepared g' /\ (consistent g -> consistent g') /\ g_yall g' = g_yall g /\ g_noise g' = g_noise g.
Proof.
  intros kw g W ((d & Hd & Hg) & Hk) Hb. destruct (fit_total kw g d W) as [g' H]; [split; auto|exact Hd|exact Hg|].
  exists g'. split; [exact H|]. pose proof H as F. apply fit_frame in F as (F1 & F2 & _ & _ & _ & _ & _ & F8 & _ & F10 & F11 & F12 & _).
  split; [split; [exists d; split; [unfold the_data in *; rewrite F10, F11, F12; exact Hd|exact Hg]|eapply fit_kernel; eauto]|].
  split; [unfold consistent; rewrite F1, F2, F8; auto|auto].
Qed.

(** Any sequence of calls, starting with a new regressor with one noise level: every batch comes with a
    fit until one of the values was finite. From then on, batches without fit, fits and updates without
    data are allowed. *)
Definition has_finite (y : list num) : Prop := exists q, In (Fin q) y.
Definition with_fit (a : append_args pt theta) : Prop :=
  match a_fit a with
  | FTrue | FSimple => f_bounds_finite (a_default a) = true
  | FKw kw => f_bounds_finite kw = true /\ (f_simple kw = true \/ (0 < match f_restarts kw with Some n => n | None => c_restarts c end)%Z)
  | _ => False
  end.
Fixpoint calls_ok (old : list num) (l : list (op pt theta)) : Prop :=
  match l with
  | [] => True
  | OAppend a :: l' =>
      (with_fit a \/ a_fit a = FFalse /\ has_finite old)
      /\ match a_X a, a_y a with
         | Some X, Some y => length X = length y /\ y <> [] /\ acceptable y /\ dim_ok e X = true
             /\ match a_noise a with NoNoise | NNum _ => True | _ => False end
         | None, None => a_noise a = NoNoise /\ has_finite old /\ dim_ok e [] = true
         | _, _ => False
         end
      /\ calls_ok (old ++ match a_y a with Some y => y | None => [] end) l'
  | OFit kw :: l' => f_bounds_finite kw = true /\ has_finite old /\ calls_ok old l'
  end.
Lemma finite_or_not y : has_finite y \/ no_finite y.
Proof.
  induction y as [|v y [[q IH]|IH]]; [right; intros q []|left; exists q; right; exact IH|].
  destruct v as [| |q|]; [right|right|left; exists q; left; reflexivity|right]; intros r [K|K]; try discriminate; destruct (IH r K).
Qed.
Theorem C73_history :
  forall l pX pY s, well_behaved -> usable -> c_optimizer c = true -> c_hyper c = true -> (0 < c_restarts c)%Z ->
    calls_ok [] l -> exists g, runs e c (new_gpr pX pY (Scalar s)) l g.
Proof.
  intros l pX pY s W U Ho Hh Hr.
  assert (exists s', g_noise (new_gpr pX pY (Scalar s) : gpr pt pt_ PX PY model theta box) = Scalar s') as H1 by (eexists; reflexivity).
  assert (consistent (new_gpr pX pY (Scalar s))) as H0.
  { split; [reflexivity|]. split; [split; [intros v []|intros _ []]|exact I]. }
  assert (has_finite (g_yall (new_gpr pX pY (Scalar s) : gpr pt pt_ PX PY model theta box)) -> prepared (new_gpr pX pY (Scalar s))) as H2 by (intros [q []]).
  change (@nil num) with (g_yall (new_gpr pX pY (Scalar s) : gpr pt pt_ PX PY model theta box)). revert H0 H1 H2. generalize (new_gpr pX pY (Scalar s) : gpr pt pt_ PX PY model theta box).
  induction l as [|[a|kw] l IH]; intros g Hg [n Hn] Hp Hl; [eexists; constructor| |]; cbn [calls_ok] in Hl.
  - destruct Hl as (Hf & Ha & Hl).
    assert (well_formed g a) as Hw.
    { split.
      - unfold with_fit, fit_fits in *. destruct Hf as [Hf|[-> Hf]]; [|apply Hp, Hf].
        destruct (a_fit a); try contradiction; (split; [apply Hf|right]); (split; [exact Ho|]); (split; [exact Hh|]); cbn; auto. destruct Hf as [_ Hf]. exact Hf.
      - destruct (a_X a) as [X|], (a_y a) as [y|]; try contradiction.
        + destruct Ha as (A1 & A2 & A3 & A4 & A5). left. exists X, y. do 2 (split; [reflexivity|]). split; [exact A1|]. split; [exact A2|]. split; [exact A3|].
          split; [exact A4|]. rewrite Hn. destruct (a_noise a); try contradiction; exact I.
        + destruct Ha as (A1 & A2 & A3). right. do 2 (split; [reflexivity|]). split; [exact A1|]. split; [exact A3|]. split; [exact A2|eauto]. }
    destruct (C73_returns a g W U Hg Hw) as (g' & H1 & H2 & H3 & H4).
    assert (g_yall g' = g_yall g ++ match a_y a with Some y => y | None => [] end) as Ey by (pose proof H1 as K; apply append_sets in K as (? & ? & ? & _ & K & _); exact K).
    destruct (IH g') as [g2 K]; [exact H2| | |rewrite Ey; exact Hl|exists g2; econstructor; eauto].
    + destruct (C20_scalar e c a g g' n Hn) as (w & K & _); [|exact H1|eauto]. intros v E. rewrite E in Ha.
      destruct (a_X a), (a_y a); try contradiction; [destruct Ha as (_ & _ & _ & _ & [])|destruct Ha as (? & _); discriminate].
    + intros [q Hq]. destruct (finite_or_not (g_yall g)) as [F|F]; [apply H3, Hp, F|]. destruct (H4 F) as [K|K]; [destruct (K q Hq)|exact K].
  - destruct Hl as (Hb & Hs & Hl). destruct (C73_fit kw g W (Hp Hs) Hb) as (g' & H1 & H2 & H3 & H4 & H5).
    destruct (IH g') as [g2 K]; [apply H3, Hg|exists n; congruence|intros _; exact H2|rewrite H4; exact Hl|exists g2; econstructor; eauto].
Qed.
End C73.
Print Assumptions C73_returns.
Print Assumptions C73_fit.
Print Assumptions C73_history.

(** Two batches, with rejected values; the preprocessor of y subtracts 5 and divides by 2. *)
Definition shifted : env Z Z unit unit unit nat unit :=
  mkEnv (fun p _ _ => Ok p) (fun _ X => Ok X) (fun p _ _ => Ok p)
    (fun _ y => Ok (map (moved (qc_of_Z 5) (qc_of_Z 2)) y))
    (fun _ y => Ok (map (fun v => ndiv v (nz 2)) y)) (fun _ v => Ok (ndiv v (nz 2)))
    (fun _ _ => Ok tt) (fun _ _ => true)
    (fun d th => nz 0) (fun d th => (S th, Ok (nz 0))) (fun _ _ => Ok None) (fun _ => true).
Lemma shifted_works : well_behaved shifted.
Proof.
  split; [intros; eexists; reflexivity|]. split; [intros; eexists; reflexivity|]. split; [intros; eexists; split; reflexivity|]. split.
  { intros p. exists (qc_of_Z 5), (qc_of_Z 2). split; [reflexivity|]. split; reflexivity. }
  split; [intros p v; eexists; split; [reflexivity|apply map_length]|].
  split; [intros; exists tt; reflexivity|]. split; [reflexivity|].
  split; [intros; do 2 eexists; reflexivity|intros; eexists; reflexivity].
Qed.
(** A batch without finite value, one with rejected values and a fit with arguments, one without fit,
    an update without data, a fit. *)
Definition demo_calls : list (op Z nat) :=
  [OAppend (add [1]%Z [NInf] FTrue true); OAppend (add [2; 3; 4; 5]%Z [NInf; nz 50; nz 7; nz 45] (FKw (mkKw false true (Some 3%Z) true (fun i => i))) false);
   OAppend (add [6]%Z [nz 48] FFalse false); OAppend (mkAppend None None NoNoise FSimple true (mkKw true true None true (fun i => i)));
   OFit (mkKw false true (Some 0%Z) true (fun i => i))].
Example C73_example :
  well_behaved shifted /\ usable (demo_c true 2) /\ calls_ok shifted (demo_c true 2) [] demo_calls
  /\ exists g, runs shifted (demo_c true 2) demo_new demo_calls g /\ g_X g = [3; 5; 6]%Z.
Proof.
  split; [apply shifted_works|]. split; [reflexivity|].
  assert (forall l, (forall v, In v l -> v = NInf \/ exists q, v = Fin q) -> acceptable (demo_c true 2) l) as A by (intros l H; split; [exact H|discriminate]).
  assert (forall q l, In (Fin q) l -> has_finite l) as F by (intros q l H; exists q; exact H).
  split; [|eexists; split; [apply do_all_runs; vm_compute; reflexivity|reflexivity]].
  split; [left; reflexivity|]. split.
  { split; [reflexivity|]. split; [discriminate|]. split; [apply A; intros v [<-|[]]; auto|split; [reflexivity|exact I]]. }
  split; [left; split; [reflexivity|right; reflexivity]|]. split.
  { split; [reflexivity|]. split; [discriminate|]. split; [apply A; intros v [<-|[<-|[<-|[<-|[]]]]]; [left; reflexivity|right; eexists; reflexivity..]|split; [reflexivity|exact I]]. }
  split; [right; split; [reflexivity|eapply F; right; right; left; reflexivity]|]. split.
  { split; [reflexivity|]. split; [discriminate|]. split; [apply A; intros v [<-|[]]; right; eexists; reflexivity|split; [reflexivity|exact I]]. }
  split; [left; reflexivity|]. split; [split; [reflexivity|]; split; [eapply F; right; right; left; reflexivity|reflexivity]|].
  split; [reflexivity|]. split; [eapply F; right; right; left; reflexivity|exact I].
Qed.
(** One noise level per point: accepted with the batches, one of them a single number for all of it... *)
Definition demo_levels : gpr Z Z unit unit unit nat unit := new_gpr tt tt (PerPoint []).
Definition noisy (X : list Z) (y : list num) (n : noise_arg) : append_args Z nat := mkAppend (Some X) (Some y) n FTrue true (mkKw false true None true (fun i => i)).
Example C73_levels_example :
  consistent (demo_c true 2) demo_levels
  /\ exists g, runs shifted (demo_c true 2) demo_levels [OAppend (noisy [1; 2]%Z [nz 5; nz 6] (NArr [nz 1; nz 2])); OAppend (noisy [3; 4]%Z [nz 7; NInf] (NNum (nz 3)))] g
       /\ consistent (demo_c true 2) g /\ g_noise g = PerPoint [nz 1; nz 2; nz 3; nz 3].
Proof.
  assert (forall y, (forall v, In v y -> v = NInf \/ exists q, v = Fin q) -> acceptable (demo_c true 2) y) as A by (intros l H; split; [exact H|discriminate]).
  split; [split; [reflexivity|]; split; [apply A; intros v []|reflexivity]|].
  eexists. split; [apply do_all_runs; vm_compute; reflexivity|]. split; [|reflexivity].
  split; [reflexivity|]. split; [|reflexivity]. apply A. intros v [<-|[<-|[<-|[<-|[]]]]]; [right; eexists; reflexivity..|left; reflexivity].
Qed.
(** ... but then no update without data is possible any more, whatever its arguments. *)
Theorem C73_levels_refit_refuted :
  forall (pt pt_ PX PY model theta box : Type) (e : env pt pt_ PX PY model theta box) (c : config theta) (a : append_args pt theta) g l,
    g_noise g = PerPoint l -> a_X a = None -> a_y a = None -> exists g', append_to_data e c a g = (g', Err ValueError).
Proof.
  intros pt pt_ PX PY model theta box e c a g l Hn HX Hy. unfold append_to_data, append_body. rewrite HX, Hy.
  unfold seq_, get, ret, raise, lift. destruct (a_fit a), (a_noise a); try (eexists; reflexivity); rewrite Hn; eexists; reflexivity.
Qed.
Print Assumptions C73_levels_refit_refuted.
(** False if the first fit had nothing to work on: values that are all -inf, then a batch without fit
    (TypeError). *)
Theorem C73_after_infinite_refuted :
  exists g, runs shifted (demo_c true 1) demo_new [OAppend (add [1]%Z [NInf] FTrue true)] g /\ consistent (demo_c true 1) g
    /\ snd (append_to_data shifted (demo_c true 1) (add [2]%Z [nz 1] FFalse true) g) = Err TypeError.
Proof.
  eexists. split; [apply do_all_runs; vm_compute; reflexivity|]. split; [|vm_compute; reflexivity].
  split; [reflexivity|]. split; [split; [intros v [<-|[]]; left; reflexivity|discriminate]|exact I].
Qed.
Print Assumptions C73_after_infinite_refuted.

(** Invariants of the regressor over histories of calls. *)
From Verif Require Import MGpr SGpr PSvm PGpr PGpr2.
Set Default Goal Selector "!".

Section Histories.
Context {pt pt_ PX PY model theta box : Type}.
Variable e : env pt pt_ PX PY model theta box.
Variable c : config theta.
Local Notation gpr := (gpr pt pt_ PX PY model theta box).
Implicit Types g : gpr.

Definition batch_X (o : op pt theta) : list pt :=
  match o with OAppend a => match a_X a with Some X => X | None => [] end | OFit _ => [] end.
Definition batch_y (o : op pt theta) : list num :=
  match o with OAppend a => match a_y a with Some y => y | None => [] end | OFit _ => [] end.

(** What one returning call does to the training sets. *)
Lemma fit_frame kw g g' : fit_gpr_hyperparameters e c kw g = (g', Ok tt) ->
  g_Xall g' = g_Xall g /\ g_yall g' = g_yall g /\ g_X g' = g_X g /\ g_y g' = g_y g /\ g_svm g' = g_svm g
  /\ g_nlast g' = g_nlast g /\ g_nlastfin g' = g_nlastfin g /\ g_noise g' = g_noise g /\ g_noise_ g' = g_noise_ g
  /\ g_X_ g' = g_X_ g /\ g_y_ g' = g_y_ g /\ g_alpha g' = g_alpha g /\ g_pX g' = g_pX g /\ g_pY g' = g_pY g
  /\ g_trust g' = g_trust g.
Proof. intros H. apply fit_ok in H as [-> _]. destruct g; auto 20. Qed.
Lemma update_frame g g' : update_model e g = (g', Ok tt) -> same_data g g'.
Proof.
  intros H. apply update_model_ok in H as [[_ ->]|[_ (th & d & _ & _ & ->)]]; [apply same_data_refl|].
  destruct g; reflexivity.
Qed.
Lemma numeric_frame kw g g' :
  match kw with Some k => fit_gpr_hyperparameters e c k | None => update_model e end g = (g', Ok tt) ->
  same_data g g'.
Proof. destruct kw; [intros H; apply fit_ok in H; tauto|apply update_frame]. Qed.

Lemma append_sets a g g' : append_to_data e c a g = (g', Ok tt) ->
  exists finite T Xf,
    let yall := g_yall g ++ batch_y (OAppend a) in
    let Xall := g_Xall g ++ batch_X (OAppend a) in
    g_Xall g' = Xall /\ g_yall g' = yall
    /\ g_nlast g' = length (batch_y (OAppend a))
    /\ classify c yall = Ok (finite, T)
    /\ (if c_classifier c then masked finite Xall = Ok Xf else Xf = Xall)
    /\ g_nlastfin g' = new_finite c (batch_y (OAppend a)) finite
    /\ ((g_nlastfin g' = 0 /\ (a_X a <> None \/ a_fit a = FFalse) /\ g_X g' = g_X g /\ g_y g' = g_y g)
        \/ ((g_nlastfin g' <> 0 \/ (a_X a = None /\ a_fit a <> FFalse))
            /\ g_X g' = Xf /\ g_y g' = mask finite yall)).
Proof.
  intros H. apply append_inv in H. unfold appended in H.
  destruct H as (X & y & force & nv & nz & finite & T & Xf & pX & pY & Xall_ & yall_ & noise_ & s &
    Ha & Hf & Hv & Hd & Hn & Hc & HX & HP & Ht1 & Ht2 & Ht3 & HS & H).
  assert (batch_X (OAppend a) = X /\ batch_y (OAppend a) = y) as [-> ->].
  { unfold batch_X, batch_y. destruct Ha as [(-> & -> & _)|(-> & -> & _ & -> & -> & _)]; auto. }
  exists finite, T, Xf. cbv zeta. destruct H as [(E & Ef & ->)|(E & X_ & y_ & al & g3 & b & _ & _ & _ & K & _ & ->)].
  - repeat split; auto. left. repeat split; auto. simpl in *.
    destruct Ha as [(-> & _)|(_ & _ & _ & _ & _ & F)]; [left; congruence|]. right.
    rewrite F in Ef. destruct (a_fit a); simpl in *; congruence.
  - apply numeric_frame in K. rewrite K.
    assert (forall z, (match b with Some _ => set_trust b z | None => z end)
      = set_trust (match b with Some _ => b | None => g_trust z end) z) as ->.
    { intros [] . destruct b; reflexivity. }
    simpl. repeat split; auto. right. repeat split; auto.
    destruct Ha as [(_ & _ & ->)|(-> & _ & _ & _ & _ & F)]; [left; destruct E; congruence|].
    destruct E as [E|E]; [left; auto|right]. split; auto. intros F2. rewrite F2 in F. simpl in F. congruence.
Qed.

Lemma step_log o g g' : step e c o g = (g', Ok tt) ->
  g_Xall g' = g_Xall g ++ batch_X o /\ g_yall g' = g_yall g ++ batch_y o.
Proof.
  destruct o as [a|kw]; simpl; intros H.
  - apply append_sets in H as (f & T & Xf & H1 & H2 & _). auto.
  - apply fit_frame in H. rewrite !app_nil_r. tauto.
Qed.
Lemma runs_log ops g g' : runs e c g ops g' ->
  g_Xall g' = g_Xall g ++ concat (map batch_X ops) /\ g_yall g' = g_yall g ++ concat (map batch_y ops).
Proof.
  induction 1 as [g|g o g1 os g2 Hs _ [IH1 IH2]]; simpl.
  - rewrite !app_nil_r. auto.
  - apply step_log in Hs as [H1 H2]. rewrite IH1, IH2, H1, H2, !app_assoc. auto.
Qed.
(** Invariants are proved forwards. *)
Lemma runs_invariant (I : gpr -> Prop) ops g g' :
  (forall o g1 g2, I g1 -> In o ops -> step e c o g1 = (g2, Ok tt) -> I g2) -> I g -> runs e c g ops g' -> I g'.
Proof.
  intros H Hi R. induction R as [g|g o g1 os g2 Hs _ IH]; auto. apply IH.
  - intros o' g3 g4 H3 Ho. apply H; simpl; auto.
  - eapply H; eauto. simpl. auto.
Qed.

(** The GP training set agrees with the classification of the full one. *)
Definition agrees g : Prop :=
  (g_Xall g = [] /\ g_yall g = [] /\ g_X g = [] /\ g_y g = [])
  \/ exists f T, classify c (g_yall g) = Ok (f, T) /\ masked f (g_Xall g) = Ok (g_X g)
     /\ g_y g = mask f (g_yall g).

Lemma mask_app_false {A} (f : list bool) (l k : list A) : length f = length l ->
  mask (f ++ repeat false (length k)) (l ++ k) = mask f l.
Proof.
  intros H. rewrite mask_app by auto. rewrite <- app_nil_r. f_equal.
  induction k as [|x k IH]; simpl; auto.
Qed.
Lemma count_true_zero l : count_true l = 0 -> l = repeat false (length l).
Proof.
  induction l as [|b l IH]; simpl; auto. destruct b; simpl; intros H; [discriminate|].
  f_equal. auto.
Qed.
Lemma labels_extend keep diff y new f f' T T' :
  nleb (nz 0) diff = true -> ordinary (y ++ new) -> y <> [] ->
  threshold_in_use y keep diff T -> threshold_in_use (y ++ new) keep diff T' ->
  labels_right y T f -> labels_right (y ++ new) T' f' ->
  (new <> [] -> count_true (py_last (length new) f') = 0) -> f' = f ++ repeat false (length new).
Proof.
  intros Hd Ho Hy HT HT' Hf Hf' H0.
  assert (forall w, In w new -> ~ within (y ++ new) T' w) as Hnew.
  { intros w Hw. assert (new <> []) as Hn by (intros ->; contradiction). specialize (H0 Hn).
    apply count_true_zero in H0. destruct Hf' as [Hl Hr]. rewrite app_length in Hl.
    assert (new <> [] /\ f' = firstn (length y) f' ++ py_last (length new) f') as [_ E].
    { split; auto. unfold py_last. destruct new; [contradiction|]. simpl length in *.
      destruct (Nat.eqb_spec (S (length new)) 0); [lia|].
      replace (length f' - S (length new)) with (length y) by lia. symmetry. apply firstn_skipn. }
    apply In_nth_error in Hw as [i Hi].
    assert (i < length new) as Li by (apply nth_error_Some; congruence).
    assert (length (firstn (length y) f') = length y) as L1 by (rewrite firstn_length; lia).
    assert (length (py_last (length new) f') = length new) as L2.
    { apply (f_equal (@length bool)) in E. rewrite app_length, L1 in E. lia. }
    assert (nth_error f' (length y + i) = Some false) as Ef.
    { rewrite E, nth_error_app2, L1 by lia. replace (length y + i - length y) with i by lia.
      rewrite H0, L2. clear - Li. revert i Li. induction (length new); intros [|i] Li; simpl; auto; try lia.
      apply IHn. lia. }
    assert (nth_error (y ++ new) (length y + i) = Some w) as Ew.
    { rewrite nth_error_app2 by lia. replace (length y + i - length y) with i by lia. auto. }
    specialize (Hr _ _ _ Ef Ew). intros W. apply Hr in W. discriminate. }
  eapply labels_right_unique; [exact Hf'|]. destruct Hf as [Hl Hr].
  split; [rewrite !app_length, repeat_length; lia|].
  intros i b v Hb Hv. destruct (Nat.lt_ge_cases i (length y)) as [Li|Li].
  - rewrite nth_error_app1 in Hb by lia. rewrite nth_error_app1 in Hv by lia.
    rewrite (Hr _ _ _ Hb Hv). apply within_stable with (keep := keep) (diff := diff); auto. eapply nth_error_In; eauto.
  - rewrite nth_error_app2 in Hb by lia. rewrite nth_error_app2 in Hv by lia.
    apply nth_error_In, repeat_spec in Hb. subst b. apply nth_error_In in Hv.
    split; [discriminate|]. intros W. apply (Hnew _ Hv) in W. contradiction.
Qed.

Lemma agrees_step o g g' : c_classifier c = true -> nleb (nz 0) (c_diff c) = true -> ordinary (g_yall g') ->
  agrees g -> step e c o g = (g', Ok tt) -> agrees g'.
Proof.
  intros Hc Hd Ho Hi H. destruct o as [a|kw]; simpl in H.
  2: { apply fit_frame in H. destruct H as (-> & -> & H3 & H4 & _) || destruct H as (H1 & H2 & H3 & H4 & _).
       unfold agrees in *. rewrite ?H1, ?H2, ?H3, ?H4. auto. }
  apply append_sets in H as (f' & T' & Xf & H1 & H2 & _ & Hcl & HX & Hnf & H).
  set (new := batch_y (OAppend a)) in *. set (newX := batch_X (OAppend a)) in *.
  rewrite Hc in HX. rewrite H2 in Ho. right. exists f', T'. rewrite H1, H2.
  destruct H as [(E & _ & EX & Ey)|(_ & EX & Ey)].
  2: { rewrite EX, Ey. auto. }
  rewrite EX, Ey. split; [auto|]. rewrite Hnf in E. unfold new_finite in E. rewrite Hc in E.
  pose proof (ordinary_no_nan _ Ho) as Hn.
  pose proof Hcl as Hcl'. apply classify_ok in Hcl' as (Hne & HT' & Hl'); auto.
  apply masked_ok in HX as [HXl HX].
  destruct Hi as [(A1 & A2 & A3 & A4)|(f & T & Hcl0 & Hm & Hy)].
  - rewrite A1, A2, A3, A4 in *. simpl in *. clear HX.
    assert (f' = repeat false (length new)) as ->.
    { destruct Hl' as [Hl' _]. unfold py_last in E. destruct (Nat.eqb_spec (length new) 0) as [Z|Z].
      - destruct new; [congruence|discriminate].
      - rewrite Hl', Nat.sub_diag in E. simpl in E. apply count_true_zero in E. rewrite Hl' in E. auto. }
    split.
    + unfold masked. rewrite HXl, Nat.eqb_refl. f_equal. rewrite repeat_length in HXl.
      clear - HXl. revert HXl. generalize (length new). induction newX as [|x l IH]; intros [|n] H; simpl in *; auto; lia.
    + clear. induction new; simpl; auto.
  - assert (no_nan (g_yall g)) as Hn0 by (intros N; apply Hn, in_or_app; auto).
    apply classify_ok in Hcl0 as (Hne0 & HT & Hl); auto. apply masked_ok in Hm as [HXl0 Hm].
    assert (f' = f ++ repeat false (length new)) as Ef.
    { eapply labels_extend; eauto. }
    assert (length newX = length new) as EL.
    { apply (f_equal (@length bool)) in Ef. rewrite app_length, repeat_length in Ef. rewrite app_length in HXl. lia. }
    split.
    + unfold masked. rewrite HXl, Nat.eqb_refl. f_equal. rewrite Ef, <- EL, mask_app_false, Hm; auto.
    + rewrite Ef, mask_app_false, Hy; auto. apply Hl.
Qed.
Lemma agrees_runs ops pX pY n g : c_classifier c = true -> nleb (nz 0) (c_diff c) = true -> ordinary (g_yall g) ->
  runs e c (new_gpr pX pY n) ops g -> agrees g.
Proof.
  intros Hc Hd Ho R.
  remember (new_gpr pX pY n) as g0 eqn:E0.
  assert (agrees g0) as Hi by (subst; left; repeat split; auto). clear E0.
  revert Hi. induction R as [g|g o g1 os g2 Hs R IH]; auto. intros Hi. apply IH; auto.
  eapply agrees_step; eauto. apply runs_log in R as [_ R]. intros v Hv. apply Ho. rewrite R. apply in_or_app. auto.
Qed.
Lemma agrees_right g : c_classifier c = true -> no_nan (g_yall g) -> g_yall g <> [] -> agrees g ->
  training_set_right (c_keep c) (c_diff c) (g_Xall g) (g_yall g) (g_X g) (g_y g).
Proof.
  intros Hc Hn Hy [(_ & E & _)|(f & T & H1 & H2 & ->)]; [contradiction|]. eapply right_of_labels; eauto.
Qed.
End Histories.

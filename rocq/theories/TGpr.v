(** Properties C16 - C20: the training sets of the regressor. *)
From Verif Require Import MGpr SGpr PSvm PGpr PGpr2 PGpr3.
Set Default Goal Selector "!".

(** ** A small concrete environment for examples and counterexamples: points are integers, the
    preprocessors do nothing, the optimum is the number of training points. *)
Definition demo : env Z Z unit unit unit nat unit :=
  mkEnv (fun p _ _ => Ok p) (fun _ X => Ok X) (fun p _ _ => Ok p) (fun _ y => Ok y)
    (fun _ y => Ok y) (fun _ v => Ok v) (fun _ _ => Ok tt) (fun _ _ => true)
    (fun d th => nz (- Z.of_nat th)) (fun d _ => (length (d_X d), Ok (nz 0)))
    (fun _ _ => Ok None) (fun X => forallb (fun x => (x <? 1000)%Z) X).
Definition demo_kw : fit_kw nat := mkKw false true None true (fun i => i).
Definition demo_c (classifier : bool) (keep : nat) : config nat :=
  mkConfig classifier keep (nz 20) true 1 true 0.
Definition demo_new : gpr Z Z unit unit unit nat unit := new_gpr tt tt (Scalar (nq 1 100)).
Definition add (X : list Z) (y : list num) (f : fit_arg nat) (cl : bool) : append_args Z nat :=
  mkAppend (Some X) (Some y) NoNoise f cl demo_kw.
Definition add_noise (X : list Z) (y : list num) (n : noise_arg) (f : fit_arg nat) : append_args Z nat :=
  mkAppend (Some X) (Some y) n f true demo_kw.
Definition refit : append_args Z nat := mkAppend None None NoNoise FTrue true demo_kw.
(** Nothing has been appended to a new one. *)
Example new_case : g_nlast demo_new = 0%nat /\ g_nlastfin demo_new = 0%nat /\ g_newinv demo_new = 0%nat.
Proof. repeat split. Qed.
(** The object after a list of calls, and whether all returned. *)
Fixpoint do_all {pt pt_ PX PY model theta box} (e : env pt pt_ PX PY model theta box) (c : config theta)
    (ops : list (op pt theta)) (g : gpr pt pt_ PX PY model theta box) : gpr pt pt_ PX PY model theta box * res unit :=
  match ops with
  | [] => (g, Ok tt)
  | o :: os => match step e c o g with (g', Ok _) => do_all e c os g' | (g', Err x) => (g', Err x) end
  end.
Lemma do_all_runs {pt pt_ PX PY model theta box} (e : env pt pt_ PX PY model theta box) c ops :
  forall g g', do_all e c ops g = (g', Ok tt) -> runs e c g ops g'.
Proof.
  induction ops as [|o os IH]; simpl; intros g g' H.
  - injection H as ->. constructor.
  - destruct (step e c o g) as [g1 [[]|x]] eqn:E; [|discriminate]. econstructor; eauto.
Qed.

(** ** C16 *)
Section C16.
Context {pt pt_ PX PY model theta box : Type}.
Variable e : env pt pt_ PX PY model theta box.
Variable c : config theta.
Implicit Types g : gpr pt pt_ PX PY model theta box.

(** The full training set is the old one followed by all batches in order, for every history of calls
    that return, from every state. *)
Theorem C16_append_log :
  forall ops g g', runs e c g ops g' ->
    g_Xall g' = g_Xall g ++ concat (map batch_X ops)
    /\ g_yall g' = g_yall g ++ concat (map batch_y ops).
Proof. intros ops g g' H. exact (runs_log e c ops g g' H). Qed.

(** With an infinities classifier, points and values are aligned after every history. *)
Theorem C16_aligned :
  forall ops pX pY n g, c_classifier c = true -> runs e c (new_gpr pX pY n) ops g ->
    length (g_Xall g) = length (g_yall g).
Proof.
  intros ops pX pY n g Hc. apply (runs_invariant e c (fun g => length (g_Xall g) = length (g_yall g))).
  2: reflexivity.
  intros o g1 g2 IH _ H. destruct o as [a|kw]; simpl in H.
  - apply append_sets in H as (f & T & Xf & H1 & H2 & _ & Hcl & HX & _). rewrite Hc in HX.
    apply masked_ok in HX as [HX _]. apply classify_length in Hcl. congruence.
  - apply fit_frame in H. destruct H as (-> & -> & _). auto.
Qed.

(** The number of points reported: with a classifier that is refitted at every append (the default)... *)
Theorem C16_number_reported :
  forall ops pX pY n g,
    c_classifier c = true ->
    (forall p y y', trY e p y = Ok y' -> length y' = length y) ->
    (forall a, In (OAppend a) ops -> a_classifier a = true \/ a_fit a <> FFalse) ->
    runs e c (new_gpr pX pY n) ops g -> n_total c g = length (g_yall g).
Proof.
  intros ops pX pY n g Hc Hlen Hrf R.
  assert (svm_n (g_svm g) = length (g_yall g) /\ (g_yall g = [] -> g_y g = [])) as [H1 H2].
  2: { unfold n_total, n_finite. rewrite Hc, H1. destruct (Nat.eqb_spec (length (g_yall g)) 0) as [E|E]; auto.
       destruct (g_yall g); [|discriminate]. rewrite H2 by auto. reflexivity. }
  revert R. apply (runs_invariant e c
    (fun g => svm_n (g_svm g) = length (g_yall g) /\ (g_yall g = [] -> g_y g = []))); [|auto].
  intros o g1 g2 [IH1 IH2] Ho H. destruct o as [a|kw]; simpl in H.
  2: { apply fit_frame in H. destruct H as (_ & -> & _ & -> & -> & _). auto. }
  specialize (Hrf a Ho). pose proof H as H'.
  apply append_sets in H' as (f & T & Xf & _ & Hy & _ & Hcl & _).
  assert (g_yall g2 <> []) as Hne.
  { rewrite Hy. intros E. rewrite E in Hcl. unfold classify in Hcl. rewrite Hc in Hcl.
    unfold diff_threshold_if_keep_n_finite in Hcl. destruct (c_keep c <=? 1); simpl in Hcl; discriminate. }
  split; [|contradiction].
  apply append_inv in H. destruct H as (X & y & force & nv & nz & finite & T2 & Xf2 & qX & qY & Xall_ & yall_ & noise_ & s &
    Ha & Hf & _ & _ & _ & _ & _ & _ & _ & Ht & _ & HS & H). rewrite Hc in HS.
  assert (refits a = true) as Er.
  { unfold refits. destruct Hrf as [->|E]; auto. destruct (a_fit a); simpl; rewrite ?orb_true_r; auto; congruence. }
  rewrite Er in HS. simpl in HS. destruct HS as (thr & _ & HS).
  assert (g_svm g2 = s /\ g_yall g2 = g_yall g1 ++ y) as [-> ->].
  { destruct H as [(_ & _ & ->)|(_ & X_ & y_ & al & g3 & b & _ & _ & _ & K & _ & ->)]; [auto|].
    apply numeric_frame in K. rewrite K. destruct b; auto. }
  apply Hlen in Ht. rewrite <- Ht. unfold svm_fit in HS.
  destruct (forallb _ yall_); [injection HS as <- _; reflexivity|].
  destruct (pymax_list yall_); [|discriminate].
  destruct (forallb _ (is_finite_raw _ _ _)); [injection HS as <- _; reflexivity|].
  destruct (svc_fit _ _ _); [injection HS as <- _; reflexivity|discriminate].
Qed.
(** ... and without a classifier. *)
Theorem C16_number_reported_no_classifier :
  forall ops pX pY n g, c_classifier c = false -> runs e c (new_gpr pX pY n) ops g ->
    n_total c g = length (g_yall g).
Proof.
  intros ops pX pY n g Hc R. unfold n_total, n_finite. rewrite Hc.
  assert (g_y g = g_yall g) as ->; [|auto]. revert R.
  apply (runs_invariant e c (fun g => g_y g = g_yall g)); [|auto].
  intros o g1 g2 IH Ho H. destruct o as [a|kw]; simpl in H.
  2: { apply fit_frame in H. destruct H as (_ & -> & _ & -> & _). auto. }
  apply append_sets in H as (f & T & Xf & _ & Hy & _ & Hcl & HX & Hf & H). unfold new_finite in Hf.
  rewrite Hc in *. unfold classify in Hcl. rewrite Hc in Hcl. injection Hcl as <- <-.
  destruct H as [(E & _ & _ & ->)|(_ & _ & ->)].
  - rewrite E in Hf. destruct (batch_y (OAppend a)); [|discriminate]. rewrite Hy, app_nil_r. auto.
  - rewrite Hy. apply mask_all_true; [rewrite repeat_length; auto|apply forallb_forall; intros b Hb; apply repeat_spec in Hb; auto].
Qed.
End C16.
Print Assumptions C16_append_log.
Print Assumptions C16_aligned.
Print Assumptions C16_number_reported.
Print Assumptions C16_number_reported_no_classifier.

Example C16_example :
  let ops := [OAppend (add [1; 2]%Z [nz 0; NInf] FTrue true); OAppend (add [3]%Z [nz 50] FTrue true)] in
  exists g, runs demo (demo_c true 1) demo_new ops g /\ g_Xall g = [1; 2; 3]%Z
            /\ n_total (demo_c true 1) g = 3 /\ n_finite g = 1.
Proof.
  cbv zeta. eexists. split; [apply do_all_runs; vm_compute; reflexivity|]. vm_compute. auto.
Qed.

(** False otherwise: an append with [fit_classifier=False] is not counted. *)
Theorem C16_number_reported_refuted :
  exists g, runs demo (demo_c true 1) demo_new
      [OAppend (add [1]%Z [nz 0] FTrue true); OAppend (add [2; 3]%Z [nz 1; nz 2] FFalse false)] g
    /\ length (g_Xall g) = 3 /\ n_finite g = 3 /\ n_total (demo_c true 1) g = 1.
Proof. eexists. split; [apply do_all_runs; vm_compute; reflexivity|]. vm_compute. auto. Qed.
(** Without a classifier, an append with more points than values returns if there are no values. *)
Theorem C16_misaligned_refuted :
  exists g, runs demo (demo_c false 1) demo_new
      [OAppend (add [1]%Z [nz 0] FTrue true); OAppend (add [2]%Z [] FTrue true)] g
    /\ length (g_Xall g) = 2 /\ length (g_yall g) = 1.
Proof. eexists. split; [apply do_all_runs; vm_compute; reflexivity|]. vm_compute. auto. Qed.
Print Assumptions C16_number_reported_refuted.
Print Assumptions C16_misaligned_refuted.

(** ** C17, C18 *)
Section C17.
Context {pt pt_ PX PY model theta box : Type}.
Variable e : env pt pt_ PX PY model theta box.
Variable c : config theta.
Implicit Types g : gpr pt pt_ PX PY model theta box.

(** After an append that updates the model, in any state. *)
Theorem C17_after_update :
  forall a g g', c_classifier c = true -> append_to_data e c a g = (g', Ok tt) ->
    no_nan (g_yall g') ->
    g_nlastfin g' <> 0 \/ (a_X a = None /\ a_fit a <> FFalse) ->
    training_set_right (c_keep c) (c_diff c) (g_Xall g') (g_yall g') (g_X g') (g_y g').
Proof.
  intros a g g' Hc H Hn Hu. apply append_sets in H as (f & T & Xf & H1 & H2 & _ & Hcl & HX & _ & H).
  rewrite Hc in HX. rewrite <- H1 in HX. rewrite <- H2 in *.
  destruct H as [(E & F & _)|(_ & -> & ->)].
  - destruct Hu as [Hu|[Hu1 Hu2]]; [contradiction|]. destruct F; contradiction.
  - eapply right_of_labels; eauto.
Qed.
(** After every history of calls that return, whether or not the last one updated the model. *)
Theorem C17_every_history :
  forall ops pX pY n g, c_classifier c = true -> nleb (nz 0) (c_diff c) = true ->
    runs e c (new_gpr pX pY n) ops g -> ordinary (g_yall g) -> g_yall g <> [] ->
    training_set_right (c_keep c) (c_diff c) (g_Xall g) (g_yall g) (g_X g) (g_y g).
Proof.
  intros ops pX pY n g Hc Hd R Ho Hy. apply agrees_right; auto using ordinary_no_nan.
  eapply agrees_runs; eauto.
Qed.
(** Without a classifier all points are kept. *)
Theorem C17_no_classifier :
  forall a g g', c_classifier c = false -> append_to_data e c a g = (g', Ok tt) ->
    g_nlastfin g' <> 0 \/ (a_X a = None /\ a_fit a <> FFalse) ->
    g_X g' = g_Xall g' /\ g_y g' = g_yall g'.
Proof.
  intros a g g' Hc H Hu. apply append_sets in H as (f & T & Xf & -> & -> & _ & Hcl & HX & _ & H).
  unfold classify in Hcl. rewrite Hc in *. injection Hcl as <- <-. subst Xf.
  destruct H as [(E & F & _)|(_ & -> & ->)].
  - destruct Hu as [Hu|[Hu1 Hu2]]; [contradiction|]. destruct F; contradiction.
  - split; auto. apply mask_all_true; [rewrite repeat_length; auto|apply forallb_forall; intros b Hb; apply repeat_spec in Hb; auto].
Qed.

Lemma kept_spec {A} P (l k : list (A * num)) : kept P l k ->
  forall x v, In (x, v) k <-> In (x, v) l /\ P v.
Proof.
  induction 1 as [|x v l k Hv _ IH|x v l k Hv _ IH]; intros x' v'; simpl.
  - tauto.
  - rewrite IH. split; intros H; [|tauto]. destruct H as [H|H]; [injection H as <- <-|]; tauto.
  - rewrite IH. split; intros H; [tauto|]. destruct H as [[H|H] H2]; [injection H as <- <-|]; tauto.
Qed.
Lemma kept_length {A} P f (l k : list (A * num)) : kept P l k -> (forall v, f v = true -> P v) ->
  length (filter f (map snd l)) <= length k.
Proof.
  intros H Hf. induction H as [|x v l k Hv _ IH|x v l k Hv _ IH]; simpl; auto.
  - destruct (f v); simpl; lia.
  - destruct (f v) eqn:E; auto. exfalso. auto.
Qed.
(** At least [keep_min_finite] points are kept, or all finite ones if there are fewer; the best one is
    kept; and whatever is at least as good as a kept point is kept. *)
Theorem C18_kept :
  forall ops pX pY n g, c_classifier c = true -> nleb (nz 0) (c_diff c) = true ->
    runs e c (new_gpr pX pY n) ops g -> ordinary (g_yall g) -> (exists q, In (Fin q) (g_yall g)) ->
    Nat.min (c_keep c) (length (filter isfin (g_yall g))) <= length (g_y g)
    /\ (forall x b, In (x, b) (combine (g_Xall g) (g_yall g)) -> best (g_yall g) b ->
          In (x, b) (combine (g_X g) (g_y g)))
    /\ (forall x v x' v', In (x, v) (combine (g_X g) (g_y g)) ->
          In (x', v') (combine (g_Xall g) (g_yall g)) -> nleb v v' = true ->
          In (x', v') (combine (g_X g) (g_y g))).
Proof.
  intros ops pX pY n g Hc Hd R Ho Hq.
  assert (g_yall g <> []) as Hy by (destruct Hq as [q Hq]; intros E; rewrite E in Hq; contradiction).
  destruct (C17_every_history ops pX pY n g Hc Hd R Ho Hy) as (L1 & L2 & T & HT & K).
  destruct (best_exists _ (ordinary_no_nan _ Ho) Hy) as [b Hb].
  destruct (threshold_kept _ _ _ _ _ Hd Ho Hb HT Hq) as [Hw Hn].
  split; [|split].
  - assert (length (combine (g_X g) (g_y g)) = length (g_y g)) as EL by (rewrite combine_length; lia).
    rewrite <- EL. etransitivity; [exact Hn|].
    apply (kept_length _ (fun v => nleb (nsub b T) v && isfin v)) in K.
    + assert (map snd (combine (g_Xall g) (g_yall g)) = g_yall g) as Em; [|rewrite Em in K; auto].
      clear - L1. revert L1. generalize (g_yall g). induction (g_Xall g) as [|x l IH]; intros [|v y] L; simpl in *; auto; try lia.
      f_equal. apply IH. lia.
    + intros v Hv. apply (within_best _ _ _ _ Hb). apply andb_true_iff in Hv as [A B].
      destruct v; try discriminate. eauto.
  - intros x b' Hin Hb'. apply (kept_spec _ _ _ K). split; auto.
    assert (b' = b) as -> by (apply nleb_antisym; [apply Hb, Hb'|apply Hb', Hb]). auto.
  - intros x v x' v' Hin Hin' Hle. apply (kept_spec _ _ _ K) in Hin as [_ Hv].
    apply (kept_spec _ _ _ K). split; auto. apply (within_best _ _ _ _ Hb) in Hv as [[q ->] Hv].
    apply (within_best _ _ _ _ Hb). apply in_combine_r in Hin'. split.
    + destruct (Ho _ Hin') as [->|E]; [discriminate|auto].
    + eapply nleb_trans; eauto.
Qed.

(** False when a value is NaN: it makes every point infinite for good. No later append that returns
    changes the GP training set, and none that refits the classifier returns. *)
Theorem C17_nan_refuted :
  forall a g g', c_classifier c = true -> In NaN (g_yall g ++ batch_y (OAppend a)) ->
    (forall p y y', trY e p y = Ok y' -> In NaN y -> In NaN y') ->
    append_to_data e c a g = (g', Ok tt) ->
    g_X g' = g_X g /\ g_y g' = g_y g /\ a_classifier a = false /\ a_fit a = FFalse.
Proof.
  intros a g g' Hc Hnan Htr H. pose proof H as H'.
  apply append_sets in H as (f & T & Xf & H1 & H2 & _ & Hcl & HX & Hnf & H).
  assert (forall l T, classify c (g_yall g ++ batch_y (OAppend a)) = Ok (l, T) ->
    l = repeat false (length (g_yall g ++ batch_y (OAppend a)))) as Hall.
  { intros l T2 E. eapply classify_nan; eauto. }
  assert (refits a = false) as Er.
  { apply append_inv in H'. destruct H' as (X & y & force & nv & nz & finite & T2 & Xf2 & qX & qY & Xall_ & yall_ & noise_ & s &
    Ha & _ & _ & _ & _ & Hcl2 & _ & _ & _ & Ht & _ & HS & _). rewrite Hc in HS. simpl in HS.
    destruct (refits a); auto. destruct HS as (thr & _ & HS). exfalso.
    assert (batch_y (OAppend a) = y) as E.
    { unfold batch_y. destruct Ha as [(_ & -> & _)|(_ & -> & _ & _ & -> & _)]; auto. }
    rewrite E in *. apply Htr in Ht; [|auto]. apply Hall in Hcl2. unfold svm_fit in HS.
    destruct (forallb (fun v => neqb v NInf) yall_) eqn:Ea.
    { rewrite forallb_forall in Ea. apply Ea in Ht. discriminate. }
    destruct (pymax_list yall_) as [m|]; [|discriminate].
    destruct (forallb (fun b => b) (is_finite_raw yall_ thr m)) eqn:Eb.
    { assert (is_finite_raw yall_ thr m = finite) as E2 by congruence. rewrite forallb_forall in Eb.
      apply In_nth_error in Ht as [i Hi].
      assert (In false (is_finite_raw yall_ thr m)) as Hin.
      { apply (nth_error_In _ i). unfold is_finite_raw. rewrite nth_error_map, Hi. simpl.
        destruct (nleb _ NaN); reflexivity. }
      apply Eb in Hin. discriminate. }
    destruct (svc_fit _ _ _) as [m0|] eqn:Es; [|discriminate].
    assert (is_finite_raw yall_ thr m = finite) as E2 by congruence. unfold svc_fit in Es.
    rewrite E2, Hcl2 in Es. rewrite (proj2 (forallb_forall negb _)) in Es; [discriminate|].
    intros b Hb. apply repeat_spec in Hb. subst. reflexivity. }
  unfold refits in Er. apply orb_false_iff in Er as [Er1 Er2].
  assert (a_fit a = FFalse) as Ef.
  { assert (a_fit a <> FBad) as Hb.
    { apply append_inv in H'. destruct H' as (X & y & force & nv & nz & finite & T2 & Xf2 & qX & qY & Xall_ & yall_ & noise_ & s & _ & Hb & _). auto. }
    destruct (a_fit a); simpl in *; congruence. }
  destruct H as [(_ & _ & -> & ->)|(Hu & _)]; auto. exfalso.
  destruct Hu as [Hu|[_ Hu]]; [|contradiction]. apply Hu. rewrite Hnf. unfold new_finite. rewrite Hc.
  rewrite (Hall _ _ Hcl). unfold py_last.
  assert (forall n m, count_true (skipn n (repeat false m)) = 0) as Z.
  { induction n as [|n IH]; intros [|m]; simpl; auto. clear. induction m; simpl; auto. }
  destruct (_ =? 0); [apply (Z 0)|apply Z].
Qed.
End C17.
Print Assumptions C17_after_update.
Print Assumptions C17_every_history.
Print Assumptions C17_no_classifier.
Print Assumptions C17_nan_refuted.
Print Assumptions C18_kept.

(** A better point moves the threshold: old points leave the GP training set, except the
    [keep_min_finite] best. *)
Example C17_example :
  exists g, runs demo (demo_c true 2) demo_new
      [OAppend (add [1; 2; 3]%Z [nz 0; nz 5; NInf] FTrue true); OAppend (add [4]%Z [nz 50] FTrue true);
       OAppend (add [5]%Z [NInf] FTrue true)] g
    /\ g_X g = [2; 4]%Z /\ length (g_y g) = 2.
Proof. eexists. split; [apply do_all_runs; vm_compute; reflexivity|]. vm_compute. auto. Qed.
Example C17_nan_example :
  exists g, runs demo (demo_c true 1) demo_new
      [OAppend (add [1]%Z [nz 0] FTrue true); OAppend (add [2; 3]%Z [nz 5; NaN] FFalse false)] g
    /\ g_X g = [1]%Z.
Proof. eexists. split; [apply do_all_runs; vm_compute; reflexivity|]. vm_compute. auto. Qed.
(** Two points are kept although only one is within the threshold of the best. *)
Example C18_example :
  exists g, runs demo (demo_c true 2) demo_new
      [OAppend (add [1; 2; 3]%Z [nz 0; nz 5; NInf] FTrue true); OAppend (add [4]%Z [nz 50] FTrue true)] g
    /\ nleb (nz 0) (c_diff (demo_c true 2)) = true /\ ordinary (g_yall g) /\ (exists q, In (Fin q) (g_yall g))
    /\ length (filter isfin (g_yall g)) = 3 /\ length (g_y g) = 2.
Proof.
  eexists. split; [apply do_all_runs; vm_compute; reflexivity|]. split; [reflexivity|].
  split; [|split; [eexists; left; reflexivity|split; reflexivity]].
  intros v Hv. cbn in Hv. repeat (destruct Hv as [<-|Hv]; [solve [auto | right; eexists; reflexivity | right; reflexivity]|]). contradiction.
Qed.

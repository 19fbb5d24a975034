(** C135: what the regressor reports about finite and infinite points. *)
From Coq Require Import Permutation.
From Verif Require Import MReport SGpr PSvm PGpr PGpr2 PGpr3 PTools TGpr.
Set Default Goal Selector "!".
Set Bullet Behavior "Strict Subproofs".

Section T.
Context {pt pt_ PX PY model theta box : Type}.
Variable e : env pt pt_ PX PY model theta box.
Variable pe : penv pt pt_ PY model theta box.
Variable c : config theta.
Hypothesis Hc : c_classifier c = true.
Implicit Types g : gpr pt pt_ PX PY model theta box.

(** The call trains the classifier: it is asked to, or to fit the hyperparameters. *)
Definition trains (a : append_args pt theta) : Prop := a_classifier a = true \/ a_fit a <> FFalse.

Lemma append_svm a g g' : append_to_data e c a g = (g', Ok tt) -> trains a ->
  exists finite T Xall_ yall_ T_,
    classify c (g_yall g') = Ok (finite, T) /\ length finite = length (g_Xall g') /\
    trX e (g_pX g') (g_Xall g') = Ok Xall_ /\ trY e (g_pY g') (g_yall g') = Ok yall_ /\
    svm_fit (svc_train e) (g_svm g) Xall_ yall_ T_ = (g_svm g', Ok finite).
Proof.
  intros H Ht. apply append_inv in H.
  destruct H as (X & y & force & nv & nz & finite & T & Xf & pX & pY & Xall_ & yall_ & noise_ & s &
    Ha & Hf & _ & _ & _ & Hcl & HX & _ & EX & EY & _ & HS & H). rewrite Hc in HS, HX.
  assert (refits a = true) as Er.
  { unfold refits. destruct Ht as [->|E]; auto. destruct (a_fit a); simpl; rewrite ?orb_true_r; auto; congruence. }
  rewrite Er in HS. simpl in HS. destruct HS as (thr & _ & HS). apply masked_ok in HX as [HX _].
  assert (g_svm g' = s /\ g_yall g' = g_yall g ++ y /\ g_Xall g' = g_Xall g ++ X /\ g_pX g' = pX /\ g_pY g' = pY) as (-> & -> & -> & -> & ->).
  { destruct H as [(_ & _ & ->)|(_ & X_ & y_ & al & g3 & b & _ & _ & _ & K & _ & ->)]; [auto|].
    apply numeric_frame in K. rewrite K. destruct b; auto 10. }
  exists finite, T, Xall_, yall_, thr. auto.
Qed.
Lemma svm_fit_ok s X y T s' l : svm_fit (svc_train e) s X y T = (s', Ok l) ->
  s_data s' = Some (X, y) /\ s_labels s' = l /\
  ((forallb (fun v => neqb v NInf) y = true /\ l = repeat false (length X) /\ s_max s' = s_max s /\ s_diff s' = s_diff s)
   \/ (forallb (fun v => neqb v NInf) y = false /\ exists m, pymax_list y = Ok m /\ l = is_finite_raw y T m /\ s_max s' = Some m /\ s_diff s' = Some T)).
Proof.
  unfold svm_fit. destruct (forallb (fun v => neqb v NInf) y) eqn:E.
  { intros H. injection H as <- <-. cbn. auto 10. }
  destruct (pymax_list y) as [m|x]; [|discriminate].
  destruct (forallb _ (is_finite_raw _ _ _)).
  - intros H. injection H as <- <-. cbn. split; auto. split; auto. right. split; auto. exists m. auto.
  - destruct (svc_fit _ _ _); [|discriminate]. intros H. injection H as <- <-. cbn. split; auto. split; auto. right. split; auto. exists m. auto.
Qed.
Lemma mask_split {A} : forall (f : list bool) (l : list A), length f = length l -> Permutation l (mask f l ++ mask (map negb f) l).
Proof.
  induction f as [|b f IH]; intros [|a l] H; try discriminate H; [constructor|]. injection H as H. destruct b; cbn.
  - constructor. auto.
  - apply Permutation_cons_app. auto.
Qed.
Lemma mask_combine {A B} : forall (f : list bool) (l : list A) (k : list B), mask f (combine l k) = combine (mask f l) (mask f k).
Proof.
  induction f as [|b f IH]; intros l k; [destruct l, k; reflexivity|]. destruct l as [|a l]; [reflexivity|].
  destruct k as [|d k]; cbn.
  - destruct b; cbn; destruct (mask f l); reflexivity.
  - destruct b; cbn; rewrite IH; reflexivity.
Qed.

(** The points reported as infinite and the training set of the GP are, together, all points ever appended, and which
    points are in which part is as documented: after every history whose last append trained the classifier. *)
Theorem C135_partition :
  forall ops pX pY n g a g', nleb (nz 0) (c_diff c) = true -> runs e c (new_gpr pX pY n) ops g ->
    append_to_data e c a g = (g', Ok tt) -> trains a -> ordinary (g_yall g') ->
    exists Xi yi T,
      X_train_infinite c g' = Ok Xi /\ y_train_infinite c g' = Ok yi /\ length Xi = length yi
      /\ Permutation (combine (g_Xall g') (g_yall g')) (combine (g_X g') (g_y g') ++ combine Xi yi)
      /\ threshold_in_use (g_yall g') (c_keep c) (c_diff c) T
      /\ (forall v, In v (g_y g') -> within (g_yall g') T v)
      /\ (forall v, In v yi -> ~ within (g_yall g') T v).
Proof.
  intros ops pX pY n g a g' Hd R H Ht Ho. pose proof (ordinary_no_nan _ Ho) as Hn.
  assert (agrees c g') as Ha.
  { apply (agrees_step e c (OAppend a) g g'); auto. apply (agrees_runs e c ops pX pY n g); auto.
    apply append_sets in H as (f & T & Xf & _ & H2 & _). intros v Hv. apply Ho. rewrite H2. apply in_or_app. auto. }
  destruct (append_svm _ _ _ H Ht) as (f & T & X_ & y_ & T_ & Hcl & HL & _ & _ & HS).
  apply svm_fit_ok in HS as (HD & HF & _).
  destruct (classify_ok c _ _ _ Hc Hn Hcl) as (Hne & HT & HR).
  destruct Ha as [(_ & E & _)|(f2 & T2 & Hcl2 & HX & Hy)]; [contradiction|].
  assert (f2 = f) as -> by congruence. apply masked_ok in HX as [_ HX].
  pose proof HR as [HLy HR'].
  exists (mask (map negb f) (g_Xall g')), (mask (map negb f) (g_yall g')), T.
  unfold X_train_infinite, y_train_infinite, not_finite. rewrite Hc, HD, HF. cbn.
  rewrite HL in HLy. unfold masked. rewrite !map_length, HL, Nat.eqb_refl, HLy, Nat.eqb_refl.
  split; [reflexivity|]. split; [reflexivity|]. split.
  { destruct (labels_kept (fun v => ~ within (g_yall g') T v) (map negb f) (g_Xall g') (g_yall g')) as [E _].
    - rewrite map_length. congruence.
    - exact HLy.
    - intros i b v Hb Hv. rewrite nth_error_map in Hb. destruct (nth_error f i) as [b'|] eqn:Eb; [|discriminate].
      injection Hb as <-. specialize (HR' _ _ _ Eb Hv). destruct b'; cbn; rewrite <- HR'; split; intros K; congruence.
    - exact E. }
  split.
  { rewrite HX, Hy, <- !mask_combine. apply mask_split. rewrite combine_length, <- HLy, Nat.min_id. exact HL. }
  split; [exact HT|].
  assert (forall (f : list bool) (l : list num) v, In v (mask f l) -> exists i, nth_error f i = Some true /\ nth_error l i = Some v) as HM.
  { clear. induction f as [|b f IH]; intros [|w l] v; try solve [cbn; contradiction | cbn; destruct b; contradiction].
    destruct b; cbn.
    - intros [->|K]; [exists 0; auto|]. apply IH in K as (i & K). exists (S i). auto.
    - intros K. apply IH in K as (i & K). exists (S i). auto. }
  split; intros v Hv.
  - rewrite Hy in Hv. apply HM in Hv as (i & A & B). apply (HR' _ _ _ A B). reflexivity.
  - apply HM in Hv as (i & A & B). rewrite nth_error_map in A. destruct (nth_error f i) as [b|] eqn:Eb; [|discriminate].
    destruct b; [discriminate|]. intros W. apply (HR' _ _ _ Eb B) in W. discriminate.
Qed.

(** The data frame lists all points ever appended with their values, and its last column is the documented
    classification, unless no value was above minus infinity. *)
Theorem C135_column :
  forall a g g', append_to_data e c a g = (g', Ok tt) -> trains a -> no_nan (g_yall g') ->
    (forall p y y_, trY e p y = Ok y_ -> all_minus_inf y_ -> all_minus_inf y) -> ~ all_minus_inf (g_yall g') ->
    exists rows T, training_set_as_df e c g' = Ok rows
      /\ map fst rows = combine (g_Xall g') (g_yall g') /\ length rows = length (g_Xall g')
      /\ threshold_in_use (g_yall g') (c_keep c) (c_diff c) T
      /\ labels_right (g_yall g') T (map snd rows).
Proof.
  intros a g g' H Ht Hn Htr Hf.
  destruct (append_svm _ _ _ H Ht) as (f & T & X_ & y_ & T_ & Hcl & HL & _ & HY & HS).
  apply svm_fit_ok in HS as (HD & HF & [(E & _)|(_ & m & _ & EL & Em & Ed)]).
  { exfalso. apply Hf. apply (Htr _ _ _ HY). apply all_ninf_spec. exact E. }
  destruct (classify_ok c _ _ _ Hc Hn Hcl) as (Hne & HT & HR). pose proof HR as [HLy _].
  exists (combine (combine (g_Xall g') (g_yall g')) f), T.
  unfold training_set_as_df, gpr_is_finite, svm_is_finite. rewrite Hc, HY. cbn. rewrite HD, Em, Ed. cbn.
  rewrite <- EL, HLy, <- HL, HLy, !Nat.eqb_refl. cbn. split; [reflexivity|].
  assert (length (combine (g_Xall g') (g_yall g')) = length f) as LC by (rewrite combine_length; lia).
  assert (forall (A B : Type) (l : list A) (k : list B), length l = length k -> map fst (combine l k) = l /\ map snd (combine l k) = k) as HC.
  { clear. intros A B. induction l as [|x l IH]; intros [|z k] H; try discriminate H; [auto|]. injection H as H.
    destruct (IH _ H) as [E1 E2]. cbn. rewrite E1, E2. auto. }
  destruct (HC _ _ _ _ LC) as [-> ->]. split; [reflexivity|]. split; [rewrite combine_length; lia|]. auto.
Qed.

(** Refuted after an append that does not train the classifier: its labels are those of the previous training, and asking for
    the infinite points raises. *)
Theorem C135_stale_refuted :
  forall a0 g0 g a g' X y, append_to_data e c a0 g0 = (g, Ok tt) -> trains a0 ->
    append_to_data e c a g = (g', Ok tt) -> ~ trains a -> a_X a = Some X -> a_y a = Some y -> y <> [] ->
    X_train_infinite c g' = Err IndexError /\ y_train_infinite c g' = Err IndexError.
Proof.
  intros a0 g0 g a g' X y H0 Ht0 H Ht EX Ey Hy.
  destruct (append_svm _ _ _ H0 Ht0) as (f & T & X_ & y_ & T_ & Hcl & HL & _ & _ & HS).
  apply svm_fit_ok in HS as (HD & HF & _). apply classify_length in Hcl.
  assert (refits a = false) as Er.
  { unfold refits. unfold trains in Ht. destruct (a_classifier a); [exfalso; auto|].
    destruct (a_fit a) eqn:Ef; cbn; auto; exfalso; apply Ht; right; discriminate. }
  apply append_inv in H.
  destruct H as (X' & y' & force & nv & nz & finite & T2 & Xf & pX & pY & Xall_ & yall_ & noise_ & s &
    Ha & Hf & _ & _ & _ & Hcl2 & HX & _ & _ & _ & _ & HS & H). rewrite Hc, Er in HS. cbn in HS. rewrite Hc in HX.
  apply masked_ok in HX as [HX _]. apply classify_length in Hcl2.
  assert (y' = y) as -> by (destruct Ha as [(_ & E & _)|(_ & E & _)]; congruence).
  assert (g_svm g' = g_svm g /\ g_yall g' = g_yall g ++ y /\ g_Xall g' = g_Xall g ++ X') as (E1 & E2 & E3).
  { destruct H as [(_ & _ & ->)|(_ & X2_ & y2_ & al & g3 & b & _ & _ & _ & K & _ & ->)]; [auto|].
    apply numeric_frame in K. rewrite K. destruct b; auto 10. }
  assert (length f <> length (g_yall g ++ y)) as N.
  { rewrite app_length. destruct y; [contradiction|]. cbn. lia. }
  unfold X_train_infinite, y_train_infinite, not_finite. rewrite Hc, E1, E2, E3, HD, HF. cbn. unfold masked. rewrite map_length.
  rewrite <- Hcl2, HX in N. rewrite HX in Hcl2. rewrite <- Hcl2.
  destruct (Nat.eqb_spec (length f) (length (g_Xall g ++ X'))); [contradiction|auto].
Qed.

(** Refuted if all values of the first append are minus infinity: neither the classification nor the data frame can be asked for. *)
Theorem C135_only_infinite_refuted :
  forall pX pY n a g y_, append_to_data e c a (new_gpr pX pY n) = (g, Ok tt) -> trains a ->
    trY e (g_pY g) (g_yall g) = Ok y_ -> all_minus_inf y_ ->
    training_set_as_df e c g = Err TypeError /\ gpr_is_finite e c g (g_yall g) = Err TypeError.
Proof.
  intros pX pY n a g y_ H Ht HY Hy.
  destruct (append_svm _ _ _ H Ht) as (f & T & X_ & y2 & T_ & _ & _ & _ & HY2 & HS).
  assert (y2 = y_) as -> by congruence. apply all_ninf_spec in Hy.
  apply svm_fit_ok in HS as (HD & HF & [(_ & _ & Em & Ed)|(E & _)]); [|congruence]. cbn in Em, Ed.
  unfold training_set_as_df, gpr_is_finite, svm_is_finite. rewrite Hc, HY. cbn. rewrite HD, Em. auto.
Qed.

(** Predictions of the classification: one per point asked for. *)
Theorem C135_predict :
  forall g X l, (forall p X X_, trX e p X = Ok X_ -> length X_ = length X) ->
    predict_is_finite e pe c g X = Ok l -> length l = length X.
Proof.
  intros g X l HX. unfold predict_is_finite, svm_predict. rewrite Hc.
  destruct (trX e (g_pX g) X) as [X_|x] eqn:E; [|discriminate]. cbn. apply HX in E.
  destruct (s_data (g_svm g)); [|discriminate]. destruct (s_all (g_svm g)).
  { intros H. injection H as <-. rewrite repeat_length. auto. }
  destruct (negb (s_some (g_svm g))).
  { intros H. injection H as <-. rewrite repeat_length. auto. }
  destruct (s_svc (g_svm g)); [|discriminate]. intros H. injection H as <-. rewrite map_length. auto.
Qed.
End T.
(** Without a classifier no point is reported as infinite. *)
Theorem C135_no_classifier :
  forall (pt pt_ PX PY model theta box : Type) (c : config theta) (g : gpr pt pt_ PX PY model theta box), c_classifier c = false ->
    X_train_infinite c g = Ok [] /\ y_train_infinite c g = Ok [].
Proof. intros pt pt_ PX PY model theta box c g H. unfold X_train_infinite, y_train_infinite. rewrite H. split; reflexivity. Qed.
(** With one, a new regressor cannot be asked: TypeError instead of no points. *)
Theorem C135_new_refuted :
  forall (pt pt_ PX PY model theta box : Type) (c : config theta) pX pY n, c_classifier c = true ->
    let g : gpr pt pt_ PX PY model theta box := new_gpr pX pY n in
    g_Xall g = [] /\ X_train_infinite c g = Err TypeError /\ y_train_infinite c g = Err TypeError.
Proof. intros pt pt_ PX PY model theta box c pX pY n H g. unfold X_train_infinite, y_train_infinite. rewrite H. repeat split. Qed.
Print Assumptions C135_partition.
Print Assumptions C135_column.
Print Assumptions C135_stale_refuted.
Print Assumptions C135_only_infinite_refuted.
Print Assumptions C135_predict.
Print Assumptions C135_no_classifier.
Print Assumptions C135_new_refuted.

Definition demo_report : penv Z Z unit unit nat unit :=
  mkPenv (fun _ x => (x <? 3)%Z) (fun _ x => nz x) (fun _ x => nz 4) (fun _ _ => [nz 1]) (fun _ _ => [nz 0])
    (fun _ v => v) (fun _ v => v) (fun _ _ => true) (fun v => v) (fun v => neqb v (nz 0)) (fun _ => 1).
(** Two of four points are infinite: one is minus infinity, the other is left behind by a better one. *)
Example C135_case :
  let a := add [4]%Z [nz 50] FTrue true in
  exists g g', runs demo (demo_c true 1) demo_new [OAppend (add [1; 2; 3]%Z [nz 0; nz 45; NInf] FTrue true)] g
    /\ append_to_data demo (demo_c true 1) a g = (g', Ok tt) /\ trains a /\ ordinary (g_yall g')
    /\ ~ all_minus_inf (g_yall g')
    /\ X_train_infinite (demo_c true 1) g' = Ok [1; 3]%Z /\ g_X g' = [2; 4]%Z
    /\ (exists rows, training_set_as_df demo (demo_c true 1) g' = Ok rows /\ map snd rows = [false; true; false; true])
    /\ predict_is_finite demo demo_report (demo_c true 1) g' [1; 7]%Z = Ok [true; false].
Proof.
  cbv zeta. eexists. eexists. split; [apply do_all_runs; vm_compute; reflexivity|].
  split; [vm_compute; reflexivity|]. split; [left; reflexivity|].
  split.
  { intros v Hv. cbn in Hv. repeat (destruct Hv as [<-|Hv]; [solve [auto | right; eexists; reflexivity]|]). contradiction. }
  split.
  { intros H. specialize (H _ (or_introl eq_refl)). discriminate H. }
  split; [vm_compute; reflexivity|]. split; [vm_compute; reflexivity|].
  split; [eexists; split; vm_compute; reflexivity|]. vm_compute. reflexivity.
Qed.
Example C135_stale_case :
  let a := add [2; 3]%Z [nz 1; NInf] FFalse false in
  exists g g', append_to_data demo (demo_c true 1) (add [1]%Z [nz 0] FTrue true) demo_new = (g, Ok tt)
    /\ append_to_data demo (demo_c true 1) a g = (g', Ok tt) /\ ~ trains a
    /\ X_train_infinite (demo_c true 1) g' = Err IndexError.
Proof.
  cbv zeta. eexists. eexists. split; [vm_compute; reflexivity|]. split; [vm_compute; reflexivity|].
  split; [intros [H|H]; [discriminate H|apply H; reflexivity]|]. vm_compute. reflexivity.
Qed.
Example C135_only_infinite_case :
  exists g, append_to_data demo (demo_c true 1) (add [1; 2]%Z [NInf; NInf] FFalse true) demo_new = (g, Ok tt)
    /\ training_set_as_df demo (demo_c true 1) g = Err TypeError
    /\ X_train_infinite (demo_c true 1) g = Ok [1; 2]%Z.
Proof. eexists. split; [vm_compute; reflexivity|]. split; vm_compute; reflexivity. Qed.
Example C135_new_case : X_train_infinite (demo_c true 1) demo_new = Err TypeError /\ (exists g, append_to_data demo (demo_c false 1) (add [1; 2]%Z [nz 1; nz 2] FTrue true) demo_new = (g, Ok tt)
  /\ g_X g = [1; 2]%Z /\ X_train_infinite (demo_c false 1) g = Ok []).
Proof. split; [reflexivity|]. eexists. split; [vm_compute; reflexivity|]. split; reflexivity. Qed.

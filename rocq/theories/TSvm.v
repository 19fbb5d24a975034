(** Property C15 (the classifier of finite and infinite points). *)
From Verif Require Import MSvm SSvm PSvm.
Set Default Goal Selector "!".

Section Svm.
Context {pt model : Type} (svc_train : list pt -> list bool -> res model) (svc_predict : model -> pt -> bool).
Notation svm := (svm pt model).
Notation fit := (svm_fit svc_train).
Notation after := (svm_after svc_train).
Notation predict := (svm_predict svc_predict).

(** Whatever happened before, a call to fit that gets as many points as values leaves the right labels
    stored, also if it raises, and they are what it returns. *)
Theorem C15_stored_labels :
  forall (s : svm) X y diff,
  length X = length y -> no_nan y ->
  labels_right y diff (s_labels (fst (fit s X y diff)))
  /\ (forall l, snd (fit s X y diff) = Ok l -> l = s_labels (fst (fit s X y diff))).
Proof.
  intros s X y diff HL Hn. unfold svm_fit.
  destruct (forallb (fun v => neqb v NInf) y) eqn:E.
  - cbn [fst snd s_labels]. split; [|intros l H; injection H; auto].
    apply minus_inf_right; [apply all_ninf_spec; auto|auto].
  - destruct (pymax_list_ok y) as [m Hm]; [intros ->; discriminate|]. rewrite Hm.
    destruct (pymax_list_spec _ _ Hn Hm) as (H1 & H2 & H3).
    destruct (forallb (fun b => b) (is_finite_raw y diff m)).
    + cbn [fst snd s_labels]. split; [|intros l H; injection H; auto]. apply raw_right; auto.
    + destruct (svc_fit _ X _); cbn [fst snd s_labels]; (split; [apply raw_right; auto|]).
      * intros l H; injection H; auto.
      * intros l H; discriminate.
Qed.

Lemma after_snoc fits X y d : after (fits ++ [(X, y, d)]) = fst (fit (after fits) X y d).
Proof. unfold svm_after. rewrite fold_left_app. reflexivity. Qed.

(** If the last of any sequence of fits returned and some training value is not -inf, the prediction is
    all True when all labels are True, and otherwise that of an [SVC] trained on the last training points
    and their labels. *)
Theorem C15_prediction :
  forall fits X y diff l Xq,
  ~ all_minus_inf y ->
  snd (fit (after fits) X y diff) = Ok l ->
  ((forall b, In b l -> b = true) -> predict (after (fits ++ [(X, y, diff)])) Xq = Ok (map (fun _ => true) Xq))
  /\ (In false l ->
      exists c, svc_train X l = Ok c
                /\ predict (after (fits ++ [(X, y, diff)])) Xq = Ok (map (svc_predict c) Xq)).
Proof.
  intros fits X y diff l Xq Hy Hf. rewrite after_snoc. revert Hf. unfold svm_fit.
  destruct (forallb (fun v => neqb v NInf) y) eqn:E.
  { exfalso. apply Hy, all_ninf_spec; auto. }
  destruct (pymax_list_ok y) as [m Hm]; [intros ->; discriminate|]. rewrite Hm.
  destruct (forallb (fun b => b) (is_finite_raw y diff m)) eqn:EA.
  - cbn [fst snd]. intros H. injection H as <-. split.
    + intros _. unfold svm_predict. cbn. f_equal. induction Xq; simpl; congruence.
    + intros HI. rewrite forallb_forall in EA. apply EA in HI. discriminate.
  - destruct (svc_fit svc_train X _) as [c|e] eqn:EC; cbn [fst snd]; intros H; [|discriminate].
    injection H as <-. split.
    + intros HA. assert (forallb (fun b => b) (is_finite_raw y diff m) = true) by (apply forallb_forall; auto).
      congruence.
    + intros _. unfold svc_fit in EC. destruct (forallb negb _); [discriminate|]. exists c. split; [auto|].
      reflexivity.
Qed.

(** Training points without any finite value but not all -inf (that is, with +inf) make the call raise
    ValueError. *)
Theorem C15_no_finite_value :
  forall (s : svm) X y diff,
  ~ all_minus_inf y -> no_nan y -> (forall v, In v y -> ~ within y diff v) ->
  snd (fit s X y diff) = Err ValueError.
Proof.
  intros s X y diff Hy Hn Hw. unfold svm_fit. destruct (forallb (fun v => neqb v NInf) y) eqn:E.
  { exfalso. apply Hy, all_ninf_spec; auto. }
  destruct (pymax_list_ok y) as [m Hm]; [intros ->; discriminate|]. rewrite Hm.
  destruct (pymax_list_spec _ _ Hn Hm) as (H1 & H2 & H3).
  assert (forallb negb (is_finite_raw y diff m) = true) as HN.
  { unfold is_finite_raw. rewrite forallb_map. apply forallb_forall. intros v Hv.
    apply negb_true_iff. destruct (_ && _) eqn:EE; [|reflexivity].
    apply (raw_within y diff m) in EE; auto. exfalso. eapply Hw; eauto. }
  destruct (forallb (fun b => b) (is_finite_raw y diff m)) eqn:EA.
  - exfalso. destruct y as [|v y]; [discriminate|]. simpl in HN, EA.
    destruct (_ && isfin v); discriminate.
  - unfold svc_fit. rewrite HN. reflexivity.
Qed.

(** Only the data of the last fit matter for the labels, but the flag that makes all predictions True
    is only ever written by fits with some value above -inf. *)
Definition nontrivial (a : fit_args pt) : Prop := ~ all_minus_inf (snd (fst a)).
Lemma flags_grow fits (Hg : forall a, In a fits -> all_minus_inf (snd (fst a))) (s : svm) :
  s_all (fold_left (fun s a => fst (fit s (fst (fst a)) (snd (fst a)) (snd a))) fits s) = s_all s.
Proof.
  revert s Hg. induction fits as [|[[X y] d] fits IH]; intros s Hg; [reflexivity|].
  cbn [fold_left]. rewrite IH; [|intros a Ha; apply Hg; right; auto].
  unfold svm_fit. cbn [fst snd].
  assert (forallb (fun v => neqb v NInf) y = true) as ->; [|reflexivity].
  apply all_ninf_spec. apply (Hg (X, y, d)). left; auto.
Qed.
(** If the training set only ever grows (as in the regressor), only -inf values give all False. *)
Theorem C15_only_minus_inf_growing :
  forall fits X y diff Xq,
  all_minus_inf y ->
  (forall a, In a fits -> incl (snd (fst a)) y) ->
  snd (fit (after fits) X y diff) = Ok (map (fun _ => false) X)
  /\ predict (after (fits ++ [(X, y, diff)])) Xq = Ok (map (fun _ => false) Xq).
Proof.
  intros fits X y diff Xq Hy Hg.
  assert (forall T (l : list T), repeat false (length l) = map (fun _ => false) l) as HR
    by (intros T l; induction l; simpl; congruence).
  assert (forallb (fun v => neqb v NInf) y = true) as HE by (apply all_ninf_spec; auto).
  rewrite after_snoc. unfold svm_fit. rewrite HE. cbn [fst snd]. split; [rewrite HR; auto|].
  unfold svm_predict. cbn [s_data s_all s_some negb].
  unfold svm_after. rewrite flags_grow; [cbn [s_all new_svm]; rewrite HR; auto|].
  intros a Ha v Hv. apply Hy. eapply Hg; eauto.
Qed.

(** Without that: a fit with only finite values followed by a fit with only -inf values predicts
    True everywhere. *)
Theorem C15_only_minus_inf_refuted :
  forall (x xq : pt) v,
  isfin v = true ->
  exists fits, Forall (fun a => length (fst (fst a)) = length (snd (fst a))) (fits ++ [([x], [NInf], nz 1)])
  /\ predict (after (fits ++ [([x], [NInf], nz 1)])) [xq] = Ok [true].
Proof.
  intros x xq v Hv. exists [([x], [v], nz 1)]. split; [repeat constructor|].
  destruct v as [| |q|]; try discriminate.
  assert (qleb (q + - qc_of_Z 1) q = true) as H by (unfold qc_of_Z, inject_Z; qc).
  unfold svm_after, svm_predict, svm_fit. cbn -[qleb qc_of_Z Qcplus Qcopp]. rewrite H. reflexivity.
Qed.

(** The threshold test for new values uses the maximum of the last training set with some value
    above -inf; before any training it raises ValueError, and with only -inf so far TypeError. *)
Theorem C15_is_finite :
  forall fits X y diff,
  no_nan y -> ~ all_minus_inf y ->
  (forall y', exists l, svm_is_finite (after (fits ++ [(X, y, diff)])) y' = Ok l
     /\ length l = length y'
     /\ forall i b v, nth_error l i = Some b -> nth_error y' i = Some v -> (b = true <-> within y diff v))
  /\ svm_is_finite (after []) y = Err ValueError
  /\ svm_is_finite (after [(X, [NInf], diff)]) y = Err TypeError.
Proof.
  intros fits X y diff Hn Hy. split; [|split; reflexivity]. intros y'. rewrite after_snoc. unfold svm_fit.
  destruct (forallb (fun v => neqb v NInf) y) eqn:E.
  { exfalso. apply Hy, all_ninf_spec; auto. }
  destruct (pymax_list_ok y) as [m Hm]; [intros ->; discriminate|]. rewrite Hm.
  destruct (pymax_list_spec _ _ Hn Hm) as (H1 & H2 & H3).
  assert (exists l, Ok (is_finite_raw y' diff m) = Ok l
     /\ length l = length y'
     /\ forall i b v, nth_error l i = Some b -> nth_error y' i = Some v -> (b = true <-> within y diff v)) as G.
  { eexists. split; [reflexivity|]. unfold is_finite_raw. split; [apply map_length|].
    intros i b v Hb Hv. rewrite nth_error_map, Hv in Hb. simpl in Hb. injection Hb as <-. apply raw_within; auto. }
  destruct (forallb (fun b => b) (is_finite_raw y diff m)); [exact G|].
  destruct (svc_fit svc_train X _); exact G.
Qed.
End Svm.
Print Assumptions C15_stored_labels.
Print Assumptions C15_prediction.
Print Assumptions C15_no_finite_value.
Print Assumptions C15_only_minus_inf_growing.
Print Assumptions C15_only_minus_inf_refuted.
Print Assumptions C15_is_finite.

(** *** Examples *)
Definition ex_train (X : list nat) (l : list bool) : res (list bool) := Ok l.
Definition ex_pred (m : list bool) (x : nat) : bool := nth x m false.
Definition ex_y := [nz 0; nz (-5); NInf].
Example C15_ex_labels : length [0; 1; 2] = length ex_y /\ no_nan ex_y
  /\ snd (svm_fit ex_train new_svm [0; 1; 2] ex_y (nz 3)) = Ok [true; false; false].
Proof.
  split; [reflexivity|]. split; [|reflexivity].
  intros H; simpl in H; repeat (destruct H as [H|H]; try discriminate); auto.
Qed.
Example C15_ex_prediction : ~ all_minus_inf ex_y
  /\ svm_predict ex_pred (svm_after ex_train [([0; 1; 2], ex_y, nz 3)]) [0; 1; 5] = Ok [true; false; false]
  /\ svm_predict ex_pred (svm_after ex_train [([0; 1], [nz 0; nz (-1)], nz 3)]) [0; 7] = Ok [true; true].
Proof. split; [intros H; specialize (H (nz 0) (or_introl eq_refl)); discriminate|]. split; reflexivity. Qed.
Example C15_ex_no_finite : snd (svm_fit ex_train new_svm [0; 1] [PInf; nz 0] (nz 3)) = Err ValueError.
Proof. reflexivity. Qed.
Example C15_ex_growing :
  svm_predict ex_pred (svm_after ex_train [([0], [NInf], nz 3); ([0; 1], [NInf; NInf], nz 3)]) [0; 7] = Ok [false; false].
Proof. reflexivity. Qed.

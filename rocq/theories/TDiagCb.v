(** C136: the diagnosis callback. *)
From Verif Require Import MDiagCb.
Set Default Goal Selector "!".
Set Bullet Behavior "Strict Subproofs".

(** On other processes it returns at once and changes nothing. *)
Theorem C136_others : forall v draw b, diagnosis false v draw b = (b, Ok tt).
Proof. reflexivity. Qed.

(** Refuted: on the main process it raises for every runner, in every state. Without a classifier it leaves the backend switched. *)
Theorem C136_main_refuted : forall v draw b, v_attrs v = runner_attrs ->
  snd (diagnosis true v draw b) = Err AttributeError
  /\ fst (diagnosis true v draw b) = (if v_classifier v then b else "Agg"%string).
Proof.
  intros v draw b H. unfold diagnosis, check_classifier. rewrite H. cbn [negb].
  replace (getattr runner_attrs "model") with (@Err unit AttributeError) by (vm_compute; reflexivity).
  destruct (v_classifier v); split; reflexivity.
Qed.
(** Refuted with an attribute [model], too: with a classifier it never gets past the checks. *)
Theorem C136_model_refuted : forall v draw b, v_classifier v = true ->
  fst (diagnosis true v draw b) = b /\ exists x, snd (diagnosis true v draw b) = Err x.
Proof.
  intros v draw b H. unfold diagnosis. rewrite H. cbn [negb].
  assert (exists x, check_classifier v = Err x) as [x ->].
  { unfold check_classifier. destruct (getattr _ _); cbn; [|eauto]. destruct (v_is_finite v); cbn; [|eauto].
    destruct (v_predict v); cbn; [|eauto]. destruct (mask _ _); [eauto|]. destruct (v_threshold v); cbn; eauto. }
  split; [reflexivity|]. exists x. reflexivity.
Qed.

(** Two points have a coordinate in common. *)
Definition share (x y : list num) : Prop := exists i a, nth_error x i = Some a /\ nth_error y i = Some a /\ isnan a = false.
Lemma coordinate_equal : forall r x, existsb (fun p => neqb (fst p) (snd p)) (combine r x) = true <-> share r x.
Proof.
  intros r x. rewrite existsb_exists. split.
  - intros ([a b] & Hin & E). cbn in E.
    assert (isnan a = false /\ a = b) as [Hn <-].
    { destruct a, b; cbn in E; try discriminate; split; auto. apply qeqb_eq in E. congruence. }
    apply In_nth_error in Hin as [i Hi]. exists i, a.
    revert x i Hi. induction r as [|c r IH]; intros [|d x] [|i] Hi; cbn in *; try discriminate.
    + injection Hi as -> ->. auto.
    + apply IH in Hi. exact Hi.
  - intros (i & a & H1 & H2 & Hn). exists (a, a). split.
    + revert x i H1 H2. induction r as [|c r IH]; intros [|d x] [|i] H1 H2; cbn in *; try discriminate.
      * left. congruence.
      * right. eapply IH; eauto.
    + cbn. destruct a; try discriminate; auto. cbn. apply qeqb_eq. reflexivity.
Qed.
(** What the column "GP" of the printed table says: the point has a coordinate in common with some point of the GP. *)
Theorem C136_column : forall Xall X, length (gp_column Xall X) = length Xall
  /\ forall i x b, nth_error Xall i = Some x -> nth_error (gp_column Xall X) i = Some b ->
       (b = true <-> exists r, In r X /\ share r x).
Proof.
  intros Xall X. unfold gp_column. split; [apply map_length|]. intros i x b Hx Hb.
  rewrite nth_error_map, Hx in Hb. injection Hb as <-. unfold np_in. rewrite existsb_exists.
  split; intros (r & Hr & H); exists r; (split; [exact Hr|]); apply coordinate_equal; exact H.
Qed.
(** So it says which points are in the GP if no two points of the training set have a coordinate in common... *)
Theorem C136_column_generic : forall Xall X, (forall r, In r X -> In r Xall) ->
  (forall x, In x Xall -> exists a, In a x /\ isnan a = false) ->
  (forall x y, In x Xall -> In y Xall -> share x y -> x = y) ->
  forall i x b, nth_error Xall i = Some x -> nth_error (gp_column Xall X) i = Some b -> (b = true <-> In x X).
Proof.
  intros Xall X Hsub Hne Hsep i x b Hx Hb. destruct (C136_column Xall X) as [_ H]. rewrite (H _ _ _ Hx Hb).
  apply nth_error_In in Hx. split.
  - intros (r & Hr & Hs). rewrite <- (Hsep r x); auto.
  - intros Hr. exists x. split; [exact Hr|]. destruct (Hne x Hx) as (a & Ha & Hn). apply In_nth_error in Ha as [j Hj].
    exists j, a. auto.
Qed.
(** ... and is refuted otherwise: a point left out of the GP is counted if it shares a coordinate with one of the GP, so that the
    test of consistency fails for consistent training sets. *)
Theorem C136_column_refuted : forall x r Xall X, In x Xall -> ~ In x X -> In r X -> share r x ->
  exists i, nth_error Xall i = Some x /\ nth_error (gp_column Xall X) i = Some true.
Proof.
  intros x r Xall X Hx _ Hr Hs. apply In_nth_error in Hx as [i Hi]. exists i. split; [exact Hi|].
  destruct (nth_error (gp_column Xall X) i) as [b|] eqn:E.
  - f_equal. destruct (C136_column Xall X) as [_ H]. apply (H _ _ _ Hi E). eauto.
  - exfalso. apply nth_error_None in E. unfold gp_column in E. rewrite map_length in E.
    assert (i < length Xall) by (apply nth_error_Some; congruence). lia.
Qed.
Print Assumptions C136_others.
Print Assumptions C136_main_refuted.
Print Assumptions C136_model_refuted.
Print Assumptions C136_column.
Print Assumptions C136_column_generic.
Print Assumptions C136_column_refuted.

(** The GP holds (1, 2); (1, 5) was classified as infinite. Both are counted, one should be. *)
Example C136_column_case :
  let X := [[nz 1; nz 2]] in let Xall := [[nz 1; nz 5]; [nz 1; nz 2]; [nz 3; nz 4]] in
  gp_column Xall X = [true; true; false] /\ same_length Xall X = false
  /\ gp_column [[nz 1; nz 2]; [nz 3; nz 4]] X = [true; false] /\ same_length [[nz 1; nz 2]; [nz 3; nz 4]] X = true.
Proof. vm_compute. auto. Qed.
Example C136_case :
  let v cl at_ := mkView at_ cl [[nz 1]; [nz 2]] [nz 0; NInf] [[nz 1]] [true; false] (Ok [true; false]) (Ok [true; false]) (Ok (nz (-5))) in
  diagnosis true (v true runner_attrs) (Ok tt) "TkAgg" = ("TkAgg"%string, Err AttributeError)
  /\ diagnosis true (v false runner_attrs) (Ok tt) "TkAgg" = ("Agg"%string, Err AttributeError)
  /\ diagnosis true (v true ["model"%string]) (Ok tt) "TkAgg" = ("TkAgg"%string, Err TypeError)
  /\ diagnosis true (v false ["model"%string]) (Ok tt) "TkAgg" = ("TkAgg"%string, Ok tt)
  /\ existsb (String.eqb "gpr") runner_attrs = true.
Proof. vm_compute. auto 6. Qed.

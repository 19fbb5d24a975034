(** C129, for whole histories of calls, with the classifier, the preprocessors, the trust region and the clipping. *)
From Coq Require Import Permutation Lia.
From Verif Require Import MPredict MUnits PPreproc SUnits SOrder POrder3 POrder4 POrder5 POrder6 TUnits.
Set Default Goal Selector "!".
Set Bullet Behavior "Strict Subproofs".

(** Everything that can be asked of a surrogate about points and values. *)
Definition same_answers {pt pt_ PX PY model theta box} (e : env pt pt_ PX PY model theta box) (pe : penv pt pt_ PY model theta box)
    (c : config theta) (g g' : gpr pt pt_ PX PY model theta box) : Prop :=
  (forall clip a X, predict e pe c clip g' a X = predict e pe c clip g a X) /\
  (forall X, predict_std e pe c g' X = predict_std e pe c g X) /\
  (forall X, predict_is_finite e pe c g' X = predict_is_finite e pe c g X) /\
  (forall y, gpr_is_finite e c g' y = gpr_is_finite e c g y) /\
  abs_finite_threshold pe c g' = abs_finite_threshold pe c g.

Section T.
Context {pt pt_ PX PY model theta box : Type}.
Variable okY : PY -> Prop.
Variable e : env pt pt_ PX PY model theta box.
Variable pe : penv pt pt_ PY model theta box.

(** Two new surrogates are given the same points in calls that differ in the order of the points: if the calls return for
    one, they do for the other; the training sets are the same up to order, and the preprocessors, the hyperparameters,
    their score, the trust region and all answers are the same. *)
Theorem C129_history (c : config theta) pX pY v os os' g1 : orderless okY e -> orderless_prediction pe -> okY pY ->
  Forall2 reordered_op os os' -> runs e c (new_gpr pX pY (Scalar v)) os g1 ->
  exists g1', runs e c (new_gpr pX pY (Scalar v)) os' g1' /\
    same_points (g_Xall g1) (g_yall g1) (g_Xall g1') (g_yall g1') /\ same_points (g_X g1) (g_y g1) (g_X g1') (g_y g1') /\
    g_pX g1' = g_pX g1 /\ g_pY g1' = g_pY g1 /\ g_kernel g1' = g_kernel g1 /\ g_lml g1' = g_lml g1 /\ g_trust g1' = g_trust g1 /\
    same_answers e pe c g1 g1'.
Proof.
  intros OL OP Hok Hos E. destruct (new_reordered (pt := pt) (pt_ := pt_) (PX := PX) (model := model) (theta := theta) (box := box) okY pX pY v Hok) as [R0 U0].
  destruct (runs_sim okY e OL c os os' Hos _ _ _ R0 U0 E) as (g1' & E' & R1 & U1). exists g1'. split; [exact E'|].
  split; [exact (re_all _ _ R1)|]. split; [exact (re_train _ _ R1)|]. split; [exact (re_pX _ _ R1)|]. split; [exact (re_pY _ _ R1)|].
  split; [exact (re_kernel _ _ R1)|]. split; [exact (re_lml _ _ R1)|]. split; [exact (re_trust _ _ R1)|].
  split; [|split; [|split; [|split]]]; intros.
  - exact (predict_re okY e pe OP c clip _ _ a X R1 U1).
  - exact (predict_std_re e pe OP c _ _ X R1).
  - exact (predict_is_finite_re e pe c _ _ X R1).
  - exact (gpr_is_finite_re e c _ _ y R1).
  - exact (threshold_re pe c _ _ R1).
Qed.
End T.
Print Assumptions C129_history.

(** The parts that are modelled in full, as the [Runner] sets them up by default, meet the requirements; the others have to
    (the objective of the fit, for instance, does: C129_model). *)
Theorem C129_default {model theta : Type} svc_train (cholesky : theta -> data (list num) -> bool) lml optimize root percentiles delta chi2 fuel factor nstd bounds :
  (forall X l X' l', same_points X l X' l' -> svc_train X l = svc_train X' l' :> res model) ->
  (forall th d d', same_problem d d' -> cholesky th d = cholesky th d' /\ lml d th = lml d' th /\ optimize d th = optimize d' th) ->
  (forall v, v <> PInf -> root v <> PInf /\ root v <> NInf) ->
  (forall l l', Permutation l l' -> percentiles l = percentiles l') ->
  (forall l, forallb isfin l = true -> l <> [] -> let '(a, _, b) := percentiles l in isfin a = true /\ isfin b = true) ->
  chi2 <> Some PInf -> chi2 <> Some NInf ->
  orderless scale_ok (default_env svc_train cholesky lml optimize root percentiles delta chi2 fuel factor nstd bounds).
Proof.
  intros H1 H2 H3 H4 H5 H6 H7. apply default_orderless; auto.
  - intros th d d' H. apply (H2 th d d' H). - intros th d d' H. apply (H2 th d d' H). - intros th d d' H. apply (H2 th d d' H).
Qed.
Print Assumptions C129_default.

(** ** A case *)
(** Two parameters; three points, one far below, in two orders, then one more; simple stand-ins for the classifier, the
    kernel and the optimiser. *)
Definition order_env_of (factor : option num) := default_env (model := nat) (theta := nat) (fun X l => Ok (count_true l)) (fun _ _ => true)
  (fun d th => nz (Z.of_nat (length (d_y d)))) (fun d th => (S th, Ok (nz 1))) (fun v => if nltb v (nz 0) then NaN else v)
  (fun _ => (nz 0, nz 1, nz 2)) (fun n => nmul n (nz 4)) None 50 factor (Some (nz 2)) case_bounds.
Definition order_env := order_env_of (Some (nz 2)).
Definition order_ops (b : bool) : list (op (list num) nat) :=
  let kw := mkKw false true None true (fun i => i) in
  let A := [([nz 1; nz 0], nz (-3)); ([nz 2; nq 1 2], nz (-1)); ([nz 9; nz 1], nz (-900))] in
  let B := if b then A else rev A in
  [OAppend (mkAppend (Some (map fst B)) (Some (map snd B)) NoNoise FTrue true kw);
   OFit (mkKw true true None true (fun i => i));
   OAppend (mkAppend (Some [[nz 3; nz 0]]) (Some [nz (-2)]) NoNoise FFalse false kw)].
Definition order_state (b : bool) := fst (calls order_env case_config (order_ops b) (new_gpr (nb_of case_bounds) (new_norm_y false) (Scalar (nq 1 100)))).
Lemma order_env_ok factor : orderless scale_ok (order_env_of factor).
Proof.
  apply C129_default; try discriminate; auto.
  - intros X l X' l' H. f_equal. apply count_true_perm. exact (same_points_y _ _ _ _ H).
  - intros th d d' (H1 & H2 & H3 & H4 & H5). repeat split; auto. do 2 f_equal. apply Permutation_length in H5. rewrite !combine_length in H5. lia.
  - intros v Hv. destruct v as [| |v|]; [split; discriminate|split; discriminate| |congruence]. destruct (nltb (Fin v) (nz 0)); split; discriminate.
Qed.
Lemma order_penv_ok : orderless_prediction case_penv.
Proof.
  intros th d d' (H1 & H2 & H3 & H4 & H5). split; [|repeat split; reflexivity]. cbn.
  assert (Permutation (d_y d) (d_y d')) as HP.
  { rewrite <- (combine_snd (d_X d) (d_y d)), <- (combine_snd (d_X d') (d_y d')) by auto. apply Permutation_map.
    rewrite <- (combine_fst (combine (d_X d) (d_y d)) (d_alpha d)), <- (combine_fst (combine (d_X d') (d_y d')) (d_alpha d')) by (rewrite combine_length; lia).
    apply Permutation_map. exact H5. }
  rewrite (fold_comm nadd nadd_comm nadd_assoc _ _ HP (nz 0)). reflexivity.
Qed.
Example C129_history_case :
  Forall2 reordered_op (order_ops true) (order_ops false) /\
  snd (calls order_env case_config (order_ops true) (new_gpr (nb_of case_bounds) (new_norm_y false) (Scalar (nq 1 100)))) = [Ok tt; Ok tt; Ok tt] /\
  g_X (order_state true) = [[nz 1; nz 0]; [nz 2; nq 1 2]; [nz 3; nz 0]] /\ g_X (order_state false) = [[nz 2; nq 1 2]; [nz 1; nz 0]; [nz 3; nz 0]] /\
  predict order_env case_penv case_config (nz 2) (order_state true) (mkPargs true false false false) [[nz 2; nz 0]; [nz 5; nz 0]]
  = predict order_env case_penv case_config (nz 2) (order_state false) (mkPargs true false false false) [[nz 2; nz 0]; [nz 5; nz 0]] /\
  exists m1 m2 s, predict order_env case_penv case_config (nz 2) (order_state true) (mkPargs true false false false) [[nz 2; nz 0]; [nz 5; nz 0]]
  = Ok (mkPred [m1; m2] (Some s) None None) /\ isfin m1 = true /\ m2 = NInf.
Proof.
  split; [|split; [|split; [|split; [|split]]]].
  - constructor; [|constructor; [|constructor; [|constructor]]].
    + cbn. split; [|repeat split; auto; discriminate]. split; [reflexivity|]. split; [reflexivity|]. split; [reflexivity|].
      eapply perm_trans; [apply perm_swap|]. eapply perm_trans; [apply perm_skip; apply perm_swap|]. apply perm_swap.
    + reflexivity.
    + cbn. repeat split; auto; discriminate.
  - vm_compute. reflexivity.
  - vm_compute. reflexivity.
  - vm_compute. reflexivity.
  - vm_compute. reflexivity.
  - vm_compute. do 3 eexists. split; [reflexivity|]. split; reflexivity.
Qed.

(** The theorem applies to this case. *)
Example C129_history_applies : exists g1', runs order_env case_config (new_gpr (nb_of case_bounds) (new_norm_y false) (Scalar (nq 1 100))) (order_ops false) g1' /\
  same_answers order_env case_penv case_config (order_state true) g1'.
Proof.
  set (g0 := new_gpr (nb_of case_bounds) (new_norm_y false) (Scalar (nq 1 100)) : gpr (list num) (list num) norm_bounds norm_y nat nat (list (num * num))).
  assert (forall os g, Forall (fun r => r = Ok tt) (snd (calls order_env case_config os g)) -> runs order_env case_config g os (fst (calls order_env case_config os g))) as K.
  { induction os as [|o os IH]; intros g H; cbn [calls] in *; [constructor|]. destruct (step order_env case_config o g) as [g1 r] eqn:E.
    pose proof (IH g1) as IH1. destruct (calls order_env case_config os g1) as [g2 rs]. cbn in *. inversion H as [|? ? Hr Hrs]; subst. econstructor; eauto. }
  destruct (C129_history scale_ok order_env case_penv case_config (nb_of case_bounds) (new_norm_y false) (nq 1 100) (order_ops true) (order_ops false) (order_state true)) as (g1' & E & _ & _ & _ & _ & _ & _ & _ & H).
  - exact (order_env_ok _).
  - exact order_penv_ok.
  - exact I.
  - apply C129_history_case.
  - apply K. destruct C129_history_case as (_ & E & _). fold g0 in E |- *. rewrite E. repeat constructor.
  - eauto.
Qed.

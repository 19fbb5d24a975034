(** Histories of calls and predictions for training points in another order; the default preprocessors. Lemmas. *)
From Coq Require Import Permutation Lia.
From Verif Require Import MPredict MUnits Argsort POrder3 PTools PPreproc PGpr PGpr2 SOrder POrder4 PGpr3 POrder5.
Set Default Goal Selector "!".
Set Bullet Behavior "Strict Subproofs".

Section Order.
Context {pt pt_ PX PY model theta box : Type}.
Variable okY : PY -> Prop.
Variable e : env pt pt_ PX PY model theta box.
Hypothesis OL : orderless okY e.
Local Notation gpr := (gpr pt pt_ PX PY model theta box).
Local Notation usable := (usable okY).

Lemma step_sim c o o' g g' g1 : reordered g g' -> usable g -> reordered_op o o' -> step e c o g = (g1, Ok tt) ->
  exists g1', step e c o' g' = (g1', Ok tt) /\ reordered g1 g1' /\ usable g1.
Proof.
  intros HR HU Ho E. destruct o as [a|kw], o' as [a'|kw']; try contradiction.
  - cbn [step] in *. eapply append_sim; eauto.
  - cbn [reordered_op] in Ho. subst kw'. cbn [step] in *. destruct (fit_sim okY e OL c kw _ _ _ _ HR E) as (g1' & E1 & R1). exists g1'. split; auto. split; auto.
    apply fit_frame in E as (_ & H2 & _ & H4 & _ & _ & _ & H8 & _ & _ & _ & _ & _ & H14 & _). unfold POrder4.usable in *. rewrite H2, H4, H8, H14. exact HU.
Qed.
Lemma runs_sim c os os' : Forall2 reordered_op os os' -> forall g g' g1, reordered g g' -> usable g -> runs e c g os g1 ->
  exists g1', runs e c g' os' g1' /\ reordered g1 g1' /\ usable g1.
Proof.
  induction 1 as [|o o' os os' Ho _ IH]; intros g g' g1 HR HU E; inversion E as [|? ? g2 ? ? E1 E2]; subst.
  - exists g'. split; auto. constructor.
  - destruct (step_sim _ _ _ _ _ _ HR HU Ho E1) as (g2' & F1 & R2 & U2). destruct (IH _ _ _ R2 U2 E2) as (g1' & F2 & R1 & U1).
    exists g1'. split; auto. econstructor; eauto.
Qed.

Variable pe : penv pt pt_ PY model theta box.
Hypothesis OP : orderless_prediction pe.
Lemma cached_re (g g' : gpr) : reordered g g' ->
  match cached g, cached g' with
  | Ok k, Ok k' => gp_mean pe k = gp_mean pe k' /\ gp_var pe k = gp_var pe k' /\ gp_mean_grad pe k = gp_mean_grad pe k' /\ gp_std_grad pe k = gp_std_grad pe k'
  | Err x, Err x' => x = x'
  | _, _ => False
  end.
Proof.
  intros HR. unfold cached. rewrite (re_kernel _ _ HR). pose proof (re_cache _ _ HR) as H. destruct (g_kernel g); auto.
  destruct (g_cache g) as [[d th]|], (g_cache g') as [[d' th']|]; cbn in H; try contradiction; auto.
  destruct H as [-> H]. exact (OP th d d' H).
Qed.
Lemma svm_predict_re svp (s s' : svm pt_ model) X : svm_re s s' -> svm_predict svp s' X = svm_predict svp s X.
Proof. intros (H1 & H2 & H3 & H4 & H5 & H6). unfold svm_predict. rewrite ?H1, ?H2, ?H3, ?H4, ?H5. destruct (s_data s), (s_data s'); try contradiction; reflexivity. Qed.
Lemma predict_re c clip (g g' : gpr) a X : reordered g g' -> usable g -> predict e pe c clip g' a X = predict e pe c clip g a X.
Proof.
  intros HR HU. unfold predict. rewrite (re_trust _ _ HR), (re_pX _ _ HR), (re_pY _ _ HR).
  destruct (p_sgrad a && negb (p_std a && p_mgrad a)); auto. destruct (negb (length X =? 1) && (p_mgrad a || p_sgrad a)); auto.
  assert (forall X_, svm_predict (svc_predict pe) (g_svm g') X_ = svm_predict (svc_predict pe) (g_svm g) X_) as ES.
  { intros X_. apply svm_predict_re. exact (re_svm _ _ HR). }
  assert ((if c_classifier c then bind (trX e (g_pX g) X) (fun X_ => svm_predict (svc_predict pe) (g_svm g') X_) else Ok (repeat true (length X)))
    = (if c_classifier c then bind (trX e (g_pX g) X) (fun X_ => svm_predict (svc_predict pe) (g_svm g) X_) else Ok (repeat true (length X)))) as ->.
  { destruct (c_classifier c); auto. destruct (trX e (g_pX g) X); auto. cbn. apply ES. }
  match goal with |- bind ?m _ = bind ?m _ => destruct m as [finite|] end; auto. cbn [bind].
  destruct (c_classifier c && forallb negb finite); auto. destruct (masked finite X) as [Xf|]; auto. cbn [bind].
  destruct (trX e (g_pX g) Xf) as [X_|]; auto. cbn [bind]. pose proof (cached_re _ _ HR) as HK.
  assert (ceiling clip (g_y g') = ceiling clip (g_y g)) as ->.
  { symmetry. apply ceiling_perm; [apply HU|]. exact (same_points_y _ _ _ _ (re_train _ _ HR)). }
  destruct (cached g) as [k|], (cached g') as [k'|]; try contradiction; cbn [bind]; [|congruence].
  destruct HK as (-> & -> & -> & ->). reflexivity.
Qed.
Lemma predict_std_re c (g g' : gpr) X : reordered g g' -> predict_std e pe c g' X = predict_std e pe c g X.
Proof.
  intros HR. unfold predict_std. rewrite (re_pX _ _ HR), (re_pY _ _ HR).
  assert (forall X_, svm_predict (svc_predict pe) (g_svm g') X_ = svm_predict (svc_predict pe) (g_svm g) X_) as ES.
  { intros X_. apply svm_predict_re. exact (re_svm _ _ HR). }
  assert ((if c_classifier c then bind (trX e (g_pX g) X) (fun X_ => svm_predict (svc_predict pe) (g_svm g') X_) else Ok (repeat true (length X)))
    = (if c_classifier c then bind (trX e (g_pX g) X) (fun X_ => svm_predict (svc_predict pe) (g_svm g) X_) else Ok (repeat true (length X)))) as ->.
  { destruct (c_classifier c); auto. destruct (trX e (g_pX g) X); auto. cbn. apply ES. }
  match goal with |- bind ?m _ = bind ?m _ => destruct m as [finite|] end; auto. cbn [bind].
  destruct (c_classifier c && forallb negb finite); auto. destruct (masked finite X) as [Xf|]; auto. cbn [bind].
  destruct (trX e (g_pX g) Xf) as [X_|]; auto. cbn [bind]. pose proof (cached_re _ _ HR) as HK.
  destruct (cached g) as [k|], (cached g') as [k'|]; try contradiction; cbn [bind]; [|congruence].
  destruct HK as (_ & -> & _). reflexivity.
Qed.
Lemma predict_is_finite_re c (g g' : gpr) X : reordered g g' -> predict_is_finite e pe c g' X = predict_is_finite e pe c g X.
Proof.
  intros HR. unfold predict_is_finite. rewrite (re_pX _ _ HR). pose proof (same_points_y _ _ _ _ (re_all _ _ HR)) as HP.
  rewrite (Permutation_length HP). destruct (c_classifier c); auto. destruct (trX e (g_pX g) X); auto. cbn. apply svm_predict_re. exact (re_svm _ _ HR).
Qed.
Lemma gpr_is_finite_re c (g g' : gpr) y : reordered g g' -> gpr_is_finite e c g' y = gpr_is_finite e c g y.
Proof.
  intros HR. unfold gpr_is_finite. rewrite (re_pY _ _ HR). destruct (c_classifier c); auto. destruct (trY e (g_pY g) y); auto. cbn.
  destruct (re_svm _ _ HR) as (H1 & H2 & H3 & H4 & H5 & H6). unfold svm_is_finite. rewrite ?H1, ?H2, ?H3, ?H4, ?H5. destruct (s_data (g_svm g)), (s_data (g_svm g')); try contradiction; reflexivity.
Qed.
Lemma threshold_re c (g g' : gpr) : reordered g g' -> abs_finite_threshold pe c g' = abs_finite_threshold pe c g.
Proof.
  intros HR. unfold abs_finite_threshold. rewrite (re_pY _ _ HR). destruct (re_svm _ _ HR) as (H1 & H2 & H3 & H4 & H5 & _). rewrite H3, H4. reflexivity.
Qed.
Lemma new_reordered pX pY v : okY pY -> reordered (new_gpr pX pY (Scalar v)) (new_gpr pX pY (Scalar v) : gpr) /\ usable (new_gpr pX pY (Scalar v) : gpr).
Proof.
  intros H. split.
  - constructor; cbn; auto. + split; auto. + repeat split; auto. + split; auto.
  - repeat split; auto. exists v. reflexivity.
Qed.
End Order.

(** ** The default preprocessors *)
Section Default.
Context {model theta : Type}.
Variable svc_train : list (list num) -> list bool -> res model.
Variable cholesky : theta -> data (list num) -> bool.
Variable lml : data (list num) -> theta -> num.
Variable optimize : data (list num) -> theta -> theta * res num.
Variable root : num -> num.
Variable percentiles : list num -> num * num * num.
Variable delta : num -> num.
(** The scale is a number, perhaps NaN, but not infinite. *)
Definition scale_ok (p : norm_y) : Prop := match ny_fit p with Some (_, s) => s <> PInf /\ s <> NInf | None => True end.
Hypothesis Hsvc : forall X l X' l', same_points X l X' l' -> svc_train X l = svc_train X' l'.
Hypothesis Hchol : forall th d d', same_problem d d' -> cholesky th d = cholesky th d'.
Hypothesis Hlml : forall th d d', same_problem d d' -> lml d th = lml d' th.
Hypothesis Hopt : forall th d d', same_problem d d' -> optimize d th = optimize d' th.
Hypothesis Hroot : forall v, v <> PInf -> root v <> PInf /\ root v <> NInf.
Hypothesis Hpc : forall l l', Permutation l l' -> percentiles l = percentiles l'.
Hypothesis Hpcfin : forall l, forallb isfin l = true -> l <> [] -> let '(a, _, b) := percentiles l in isfin a = true /\ isfin b = true.
Variable chi2 : option num.
Hypothesis Hchi2 : chi2 <> Some PInf /\ chi2 <> Some NInf.
Variables (fuel : nat) (factor nstd : option num) (bounds : list (num * num)).

Lemma fin_mean l : forallb isfin l = true -> np_mean l <> PInf /\ np_mean l <> NInf /\ (l <> [] -> isfin (np_mean l) = true).
Proof.
  intros H. destruct l as [|a l]; [vm_compute; repeat split; try discriminate; intros K; contradiction|].
  assert (isfin (np_mean (a :: l)) = true) as K; [|destruct (np_mean (a :: l)); try discriminate; repeat split; discriminate || auto].
  assert (exists q, a :: l = map Fin q) as (q & Eq).
  { revert H. generalize (a :: l). clear. induction l as [|v l IH]; intros H; [exists []; reflexivity|]. cbn in H. apply Bool.andb_true_iff in H as [Hv H].
    destruct (IH H) as (q & ->). destruct v as [| |v|]; try discriminate. exists (v :: q). reflexivity. }
  rewrite Eq, mean_fin; [reflexivity|]. intros ->. discriminate.
Qed.
Lemma fin_var l : forallb isfin l = true -> np_var l <> PInf.
Proof.
  intros H. destruct l as [|a l]; [vm_compute; discriminate|]. apply fin_mean in H as K. destruct K as (_ & _ & K). specialize (K ltac:(discriminate)).
  unfold np_var. destruct (np_mean (a :: l)) as [| |q|]; try discriminate. apply fin_mean. apply forallb_forall. intros v Hv.
  apply in_map_iff in Hv as (x & <- & Hx). pose proof (proj1 (forallb_forall _ _) H x Hx) as Hf. destruct x; try discriminate. reflexivity.
Qed.
Lemma default_orderless : orderless scale_ok (default_env svc_train cholesky lml optimize root percentiles delta chi2 fuel factor nstd bounds).
Proof.
  constructor; cbn [fitX fitY trX trY scaleY MGpr.svc_train MGpr.cholesky MGpr.lml MGpr.optimize trust_region dim_ok default_env].
  - reflexivity.
  - intros p X y X' y' Hn HP. apply same_points_y in HP. destruct chi2; [apply chi2_perm; auto|]. apply norm_y_perm; auto.
  - intros p X y q Hn Hp. destruct chi2 as [d|].
    + unfold chi2_do_fit. destruct (pymax_list y); cbn; [|discriminate]. intros E. injection E as <-. cbn. destruct Hchi2. split; congruence.
    + unfold ny_do_fit, get_mean_std. assert (forallb isfin (filter isfin y) = true) as Hf by (apply forallb_forall; intros v Hv; apply filter_In in Hv; tauto).
      destruct (ny_use_median p).
      * pose proof (Hpcfin _ Hf) as HK. destruct (filter isfin y) as [|v l] eqn:El; cbn [bind]; [discriminate|]. specialize (HK ltac:(discriminate)).
        destruct (percentiles (v :: l)) as [[a b] d]. cbn. intros E. injection E as <-. cbn. destruct HK as [H1 H2], a, d; try discriminate. split; discriminate.
      * cbn. intros E. injection E as <-. cbn. apply Hroot. apply fin_var. exact Hf.
  - exists nb_transform. reflexivity.
  - exists ny_transform. reflexivity.
  - intros p y y_ Hp Hn E Hfin. unfold ny_transform, if_fitted in E. destruct (ny_fit p) as [[m s]|] eqn:Ep.
    + unfold scale_ok in Hp. rewrite Ep in Hp. assert (y_ = map (fun v => ndiv (nsub v m) s) y) as ->.
      { clear - E. revert y_ E. induction y as [|v y IH]; intros y_ E; cbn in E; [injection E as <-; reflexivity|].
        destruct (mapM (fun y0 => Ok (ndiv (nsub y0 m) s)) y) as [r|] eqn:Er; cbn in E; [|discriminate]. injection E as <-. cbn. f_equal. apply IH. reflexivity. }
      apply existsb_exists in Hfin as (w & Hw & Hfw). apply in_map_iff in Hw as (v & <- & Hv).
      destruct (existsb isnan (map (fun v0 => ndiv (nsub v0 m) s) y)) eqn:EN; auto. apply existsb_exists in EN as (w & Hw & Hnw).
      apply in_map_iff in Hw as (u & <- & Hu). assert (isnan u = false) as Hnu.
      { destruct (isnan u) eqn:Eu; auto. rewrite <- Hn. symmetry. apply existsb_exists. eauto. }
      destruct Hp as [Hp1 Hp2]. destruct m as [| |m|]; [destruct v; discriminate|destruct v, s as [| |s|]; cbn in Hfw; try congruence; destruct (qltb s 0); discriminate| |destruct v, s as [| |s|]; cbn in Hfw; try congruence; destruct (qltb s 0); discriminate].
      destruct s as [| |s|]; try congruence; [destruct v; discriminate|]. destruct (qeqb s 0) eqn:Es.
      * destruct v as [| |v|]; try discriminate; cbn in Hfw; rewrite ?Es in Hfw; try (destruct (qltb s 0); discriminate).
        unfold inf_times in Hfw. destruct (qsgn _); discriminate.
      * destruct u as [| |u|]; try discriminate; cbn in Hnw; rewrite ?Es in Hnw; try discriminate; destruct (qltb s 0); discriminate.
    + destruct y as [|v y]; cbn in E; [injection E as <-; discriminate|discriminate].
  - exists ny_transform_scale. reflexivity.
  - exact Hsvc.
  - exact Hchol.
  - exact Hlml.
  - exact Hopt.
  - intros X y X' y' Hn HP. apply same_points_iff in HP as (D & D' & HP & -> & -> & -> & ->). apply trust_perm; auto.
  - intros X X' HP. apply forallb_perm. exact HP.
Qed.
End Default.

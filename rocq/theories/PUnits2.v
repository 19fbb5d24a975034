(** Change of units: predictions, preprocessors and trust region. *)
From Verif Require Import MUnits SUnits PUnits PTools.
Set Default Goal Selector "!".
Set Bullet Behavior "Strict Subproofs".

(** ** Predictions *)
Lemma pymax_list_shift c l : pymax_list (map (shift c) l) = map_res (shift c) (pymax_list l).
Proof. destruct l as [|x l]; simpl; auto. rewrite fold_shift; auto. intros; apply pymax_shift. Qed.
Lemma pymin_list_shift c l : pymin_list (map (shift c) l) = map_res (shift c) (pymin_list l).
Proof. destruct l as [|x l]; simpl; auto. rewrite fold_shift; auto. intros; apply pymin_shift. Qed.
Lemma ceiling_num c k M m :
  nsub (nmul (Fin k) (shift c M)) (nmul (nsub (Fin k) (nz 1)) (shift c m))
  = shift c (nsub (nmul (Fin k) M) (nmul (nsub (Fin k) (nz 1)) m)).
Proof.
  destruct M, m; simpl; auto;
    try (unfold inf_times; repeat match goal with |- context [if ?b then _ else _] => destruct b end; auto; fail).
  f_equal. change (qc_of_Z 1) with 1%Qc. ring.
Qed.
Lemma ceiling_shift c k y : ceiling (Fin k) (map (shift c) y) = map_res (shift c) (ceiling (Fin k) y).
Proof.
  unfold ceiling. rewrite pymax_list_shift, pymin_list_shift.
  destruct (pymax_list y) as [M|]; simpl; auto. destruct (pymin_list y) as [m|]; simpl; auto.
  f_equal. apply ceiling_num.
Qed.
Lemma unmask_map {X Y} (f : X -> Y) m v l : unmask m (map f v) (map f l) = map f (unmask m v l).
Proof.
  revert v l; induction m as [|b m IH]; intros v [|x l]; simpl; auto.
  destruct b; simpl; [destruct v as [|y v]; simpl|]; f_equal; auto. apply (IH []).
Qed.
Lemma map_repeat {X Y} (f : X -> Y) x n : map f (repeat x n) = repeat (f x) n.
Proof. induction n; simpl; f_equal; auto. Qed.
Lemma combine_map_r {X Y Z} (f : Y -> Z) (l : list X) k : combine l (map f k) = map (fun p => (fst p, f (snd p))) (combine l k).
Proof. revert k; induction l as [|x l IH]; intros [|y k]; simpl; f_equal; auto. Qed.

Section Predict.
Context {pt pt' pt_ PX PX' PY PY' model theta box box' : Type}.
Variable c : Qc.
Variable A : pt -> pt'.
Variable wf : pt -> Prop.
Variable B : box -> box'.
Variable wfB : box -> Prop.
Variable RX : PX -> PX' -> Prop.
Variable RY : PY -> PY' -> Prop.
Variable e : env pt pt_ PX PY model theta box.
Variable e' : env pt' pt_ PX' PY' model theta box'.
Variable pe : penv pt pt_ PY model theta box.
Variable pe' : penv pt' pt_ PY' model theta box'.
Record same_penv : Prop := mkSP {
  sp_svc : svc_predict pe' = svc_predict pe;
  sp_mean : gp_mean pe' = gp_mean pe; sp_var : gp_var pe' = gp_var pe;
  sp_mgrad : gp_mean_grad pe' = gp_mean_grad pe; sp_sgrad : gp_std_grad pe' = gp_std_grad pe;
  sp_inv : forall p p' v, RY p p' -> invY pe' p' v = shift c (invY pe p v);
  sp_scale : forall p p' v, RY p p' -> invscaleY pe' p' v = invscaleY pe p v;
  sp_box : forall b x, wfB b -> wf x -> in_box pe' (B b) (A x) = in_box pe b x;
  sp_root : root pe' = root pe; sp_close : allclose0 pe' = allclose0 pe;
  sp_ndim : forall x, wf x -> ndim pe' (A x) = ndim pe x }.
Hypothesis SE : same_env c A wf B wfB RX RY e e'.
Hypothesis SP : same_penv.
Notation corr := (corr c A wf B wfB RX RY).

Lemma cached_same (g : gpr pt pt_ PX PY model theta box) (g' : gpr pt' pt_ PX' PY' model theta box') : corr g g' -> cached g' = cached g.
Proof. intros ([] & _). unfold cached. rewrite same_kernel, same_cache. auto. Qed.

Lemma sim_predict cf k g g' a X : corr g g' -> Forall wf X ->
  predict e' pe' cf (Fin k) g' a (map A X) = map_res (conv_pred c) (predict e pe cf (Fin k) g a X).
Proof.
  intros Hg HX. pose proof (cached_same _ _ Hg) as Ec. pose proof Hg as ([] & _ & _ & Hb).
  unfold predict. rewrite map_length.
  destruct (p_sgrad a && negb (p_std a && p_mgrad a)); auto.
  destruct (negb (length X =? 1) && (p_mgrad a || p_sgrad a)); auto. cbv zeta.
  rewrite (se_trX _ _ _ _ _ _ _ _ _ SE _ _ _ same_pX HX), (sp_svc SP), same_svm, same_trust, same_y, Ec.
  match goal with |- bind ?f _ = map_res _ (bind ?f _) => destruct f as [fin|] end; simpl; auto.
  destruct (c_classifier cf && forallb negb fin) eqn:Ef.
  { simpl. f_equal. unfold conv_pred; simpl. f_equal.
    - rewrite map_repeat. auto.
    - destruct (p_mgrad a); auto. f_equal. rewrite map_map. apply map_ext_in. intros x Hx.
      rewrite Forall_forall in HX. rewrite (sp_ndim SP); auto.
    - destruct (p_sgrad a); auto. f_equal. rewrite map_map. apply map_ext_in. intros x Hx.
      rewrite Forall_forall in HX. rewrite (sp_ndim SP); auto. }
  rewrite masked_map. unfold masked. destruct (length fin =? length X) eqn:El; simpl; auto.
  rewrite (se_trX _ _ _ _ _ _ _ _ _ SE _ _ _ same_pX (Forall_mask wf fin X HX)).
  destruct (trX e (g_pX g) (mask fin X)) as [X_|]; simpl; auto.
  destruct (cached g) as [kk|]; simpl; auto. rewrite ceiling_shift.
  destruct (ceiling (Fin k) (g_y g)) as [tp|]; simpl; auto. f_equal.
  rewrite (sp_mean SP), (sp_var SP), (sp_mgrad SP), (sp_sgrad SP), (sp_root SP), (sp_close SP).
  assert (forall v, invscaleY pe' (g_pY g') v = invscaleY pe (g_pY g) v) as Es by (intros; eapply (sp_scale SP); eauto).
  assert (map (fun x => invscaleY pe' (g_pY g') (root pe (clip_var (gp_var pe kk x)))) X_
          = map (fun x => invscaleY pe (g_pY g) (root pe (clip_var (gp_var pe kk x)))) X_) as E1
    by (apply map_ext; auto).
  unfold conv_pred. simpl. f_equal.
  - match goal with |- map _ (combine ?o' (unmask fin ?m' _)) = map _ (map _ (combine ?o (unmask fin ?m _))) =>
      replace o' with o; [replace m' with (map (shift c) m)|] end.
    + replace (repeat NInf (length X)) with (map (shift c) (repeat NInf (length X))) at 1 by apply map_repeat.
      rewrite unmask_map, combine_map_r. etransitivity; [apply map_map|]. symmetry.
      etransitivity; [apply map_map|]. apply map_ext. intros [[|] v]; auto.
    + rewrite map_map. apply map_ext. intros x. unfold np_clip_above. rewrite (sp_inv SP _ _ _ same_pY). symmetry. apply npmin2_shift.
    + destruct (g_trust g) as [b|]; simpl; auto. destruct (p_ignore a); auto. rewrite map_map. apply map_ext_in.
      intros x Hx. rewrite Forall_forall in HX. rewrite (sp_box SP); auto.
  - destruct (p_std a); auto. rewrite E1. auto.
  - destruct (p_mgrad a); auto. f_equal. apply map_ext. intros x. apply map_ext. auto.
  - destruct (p_sgrad a); auto. f_equal. rewrite E1. apply map_ext. intros [x s]. simpl.
    destruct (allclose0 pe s); auto. apply map_ext. intros v. rewrite !Es. auto.
Qed.

Lemma sim_predict_std cf g g' X : corr g g' -> Forall wf X ->
  predict_std e' pe' cf g' (map A X) = predict_std e pe cf g X.
Proof.
  intros Hg HX. pose proof (cached_same _ _ Hg) as Ec. pose proof Hg as ([] & _).
  unfold predict_std. rewrite map_length. cbv zeta.
  rewrite (se_trX _ _ _ _ _ _ _ _ _ SE _ _ _ same_pX HX), (sp_svc SP), same_svm, Ec.
  match goal with |- bind ?f _ = bind ?f _ => destruct f as [fin|] end; simpl; auto.
  destruct (c_classifier cf && forallb negb fin); auto.
  rewrite masked_map. unfold masked. destruct (length fin =? length X) eqn:El; simpl; auto.
  rewrite (se_trX _ _ _ _ _ _ _ _ _ SE _ _ _ same_pX (Forall_mask wf fin X HX)).
  destruct (trX e (g_pX g) (mask fin X)) as [X_|]; simpl; auto.
  destruct (cached g) as [kk|]; simpl; auto. rewrite (sp_var SP), (sp_root SP). do 2 f_equal.
  apply map_ext. intros x. eapply (sp_scale SP); eauto.
Qed.

Lemma sim_predict_is_finite cf g g' X : corr g g' -> Forall wf X ->
  predict_is_finite e' pe' cf g' (map A X) = predict_is_finite e pe cf g X.
Proof.
  intros Hg HX. pose proof Hg as ([] & _). unfold predict_is_finite.
  rewrite (se_trX _ _ _ _ _ _ _ _ _ SE _ _ _ same_pX HX), (sp_svc SP), same_svm, same_yall, map_length. auto.
Qed.
Lemma sim_is_finite cf g g' y : corr g g' ->
  gpr_is_finite e' cf g' (map (shift c) y) = gpr_is_finite e cf g y.
Proof.
  intros Hg. pose proof Hg as ([] & _). unfold gpr_is_finite.
  rewrite (se_trY _ _ _ _ _ _ _ _ _ SE _ _ _ same_pY), same_svm, map_length. auto.
Qed.
End Predict.

(** ** Rescaling *)
Lemma qsgn_pos a : (0 < a)%Qc -> qsgn a = 1%Z.
Proof.
  intros H. unfold qsgn. destruct (qltb a 0) eqn:E1; [exfalso; qc|].
  destruct (qeqb a 0) eqn:E2; auto. exfalso. apply qeqb_eq in E2. subst. qc.
Qed.
Lemma qsgn_mul a b : (0 < a)%Qc -> qsgn (a * b) = qsgn b.
Proof.
  intros H. unfold qsgn.
  destruct (qltb b 0) eqn:E1.
  { replace (qltb (a * b) 0) with true; auto. symmetry. qc. }
  replace (qltb (a * b) 0) with false by (symmetry; qc).
  destruct (qeqb b 0) eqn:E2.
  { replace (qeqb (a * b) 0) with true; auto. symmetry. qc. }
  destruct (qeqb (a * b) 0) eqn:E3; auto. exfalso. qc.
Qed.
Section Rescale1.
Variable u : Qc * Qc.
Hypothesis Hu : (0 < fst u)%Qc.
Ltac inf := unfold rescale1; simpl; rewrite ?(qsgn_pos (fst u) Hu); simpl.
Lemma rescale1_lt x y : nltb (rescale1 u x) (rescale1 u y) = nltb x y.
Proof.
  destruct x, y; inf; auto. destruct (qltb q q0) eqn:E; [qc|].
  apply qltb_nlt. apply qltb_nlt in E. qc.
Qed.
Lemma rescale1_le x y : nleb (rescale1 u x) (rescale1 u y) = nleb x y.
Proof.
  destruct x, y; inf; auto. destruct (qleb q q0) eqn:E; [qc|].
  apply qleb_nle. apply qleb_nle in E. qc.
Qed.
Lemma rescale1_nan x : isnan (rescale1 u x) = isnan x.
Proof. destruct x; inf; auto. Qed.
Lemma rescale1_sub x y : nsub (rescale1 u x) (rescale1 u y) = nmul (Fin (fst u)) (nsub x y).
Proof. destruct x, y; inf; auto. f_equal. ring. Qed.
Lemma rescale1_sub_r x y : nsub (rescale1 u x) (nmul (Fin (fst u)) y) = rescale1 u (nsub x y).
Proof. destruct x, y; inf; auto. f_equal. ring. Qed.
Lemma rescale1_add_r x y : nadd (rescale1 u x) (nmul (Fin (fst u)) y) = rescale1 u (nadd x y).
Proof. destruct x, y; inf; auto. f_equal. ring. Qed.
Lemma nmul_swap k w : nmul k (nmul (Fin (fst u)) w) = nmul (Fin (fst u)) (nmul k w).
Proof.
  destruct k as [| |k|], w as [| |w|]; inf; auto; rewrite ?(qsgn_mul _ _ Hu); auto.
  - unfold inf_times. destruct (qsgn w); inf; auto.
  - unfold inf_times. destruct (qsgn k); inf; auto.
  - f_equal. ring.
  - unfold inf_times. destruct (qsgn k); inf; auto.
  - unfold inf_times. destruct (qsgn w); inf; auto.
Qed.
Lemma ndiv_cancel x y : ndiv (nmul (Fin (fst u)) x) (nmul (Fin (fst u)) y) = ndiv x y.
Proof.
  destruct x as [| |x|], y as [| |y|]; inf; auto.
  - replace (qltb (fst u * y) 0) with (qltb y 0); auto. destruct (qltb y 0) eqn:E; symmetry; qc.
  - replace (qeqb (fst u * y) 0) with (qeqb y 0).
    + destruct (qeqb y 0) eqn:E; [rewrite (qsgn_mul _ _ Hu); auto|]. f_equal. apply qeqb_neq in E.
      field. split; auto. intros F. rewrite F in Hu. qc.
    + destruct (qeqb y 0) eqn:E; symmetry; [qc|]. apply qeqb_neq. apply qeqb_neq in E. intros F.
      apply Qcmult_integral in F. destruct F as [F|F]; [rewrite F in Hu; qc|auto].
  - replace (qltb (fst u * y) 0) with (qltb y 0); auto. destruct (qltb y 0) eqn:E; symmetry; qc.
Qed.
Lemma rescale1_max2 x y : npmax2 (rescale1 u x) (rescale1 u y) = rescale1 u (npmax2 x y).
Proof. unfold npmax2, pymax. rewrite !rescale1_nan, rescale1_lt. destruct (isnan x || isnan y), (nltb x y); auto. Qed.
Lemma rescale1_min2 x y : npmin2 (rescale1 u x) (rescale1 u y) = rescale1 u (npmin2 x y).
Proof. unfold npmin2, pymin. rewrite !rescale1_nan, rescale1_lt. destruct (isnan x || isnan y), (nltb y x); auto. Qed.
Lemma rescale1_fold f : (forall x y, f (rescale1 u x) (rescale1 u y) = rescale1 u (f x y)) ->
  forall l x, fold_left f (map (rescale1 u) l) (rescale1 u x) = rescale1 u (fold_left f l x).
Proof. intros H l; induction l as [|y l IH]; intros x; simpl; auto. rewrite H. auto. Qed.
Lemma shrink_dim_rescale f lo hi s ss :
  shrink_dim f (rescale1 u lo, rescale1 u hi) (rescale1 u s) (map (rescale1 u) ss)
  = (rescale1 u (fst (shrink_dim f (lo, hi) s ss)), rescale1 u (snd (shrink_dim f (lo, hi) s ss))).
Proof.
  unfold shrink_dim. cbv zeta. cbn [fst snd].
  replace (npmin (rescale1 u s) (map (rescale1 u) ss)) with (rescale1 u (npmin s ss))
    by (symmetry; apply rescale1_fold, rescale1_min2).
  replace (npmax (rescale1 u s) (map (rescale1 u) ss)) with (rescale1 u (npmax s ss))
    by (symmetry; apply rescale1_fold, rescale1_max2).
  rewrite rescale1_sub, nmul_swap, rescale1_sub_r, rescale1_add_r, rescale1_max2, rescale1_min2. auto.
Qed.
End Rescale1.

(** Change of units: the training-set bookkeeping. *)
From Verif Require Import MUnits SUnits.
Set Default Goal Selector "!".
Set Bullet Behavior "Strict Subproofs".

(** ** Numbers *)
Lemma nleb_shift c x y : nleb (shift c x) (shift c y) = nleb x y.
Proof.
  destruct x, y; simpl; auto. destruct (qleb q q0) eqn:E; [qc|].
  apply qleb_nle. apply qleb_nle in E. qc.
Qed.
Lemma nltb_shift c x y : nltb (shift c x) (shift c y) = nltb x y.
Proof.
  destruct x, y; simpl; auto. destruct (qltb q q0) eqn:E; [qc|].
  apply qltb_nlt. apply qltb_nlt in E. qc.
Qed.
Lemma isnan_shift c x : isnan (shift c x) = isnan x. Proof. destruct x; auto. Qed.
Lemma isfin_shift c x : isfin (shift c x) = isfin x. Proof. destruct x; auto. Qed.
Lemma nsub_shift c x y : nsub (shift c x) (shift c y) = nsub x y.
Proof. destruct x, y; simpl; auto. f_equal. qc. Qed.
Lemma nsub_shift_l c x y : nsub (shift c x) y = shift c (nsub x y).
Proof. destruct x, y; simpl; auto. f_equal. qc. Qed.
Lemma nadd_shift_r c x y : nadd x (shift c y) = shift c (nadd x y).
Proof. destruct x, y; simpl; auto. f_equal. qc. Qed.
Lemma pymax_shift c x y : pymax (shift c x) (shift c y) = shift c (pymax x y).
Proof. unfold pymax. rewrite nltb_shift. destruct (nltb x y); auto. Qed.
Lemma pymin_shift c x y : pymin (shift c x) (shift c y) = shift c (pymin x y).
Proof. unfold pymin. rewrite nltb_shift. destruct (nltb y x); auto. Qed.
Lemma npmax2_shift c x y : npmax2 (shift c x) (shift c y) = shift c (npmax2 x y).
Proof. unfold npmax2. rewrite !isnan_shift, pymax_shift. destruct (isnan x || isnan y); auto. Qed.
Lemma npmin2_shift c x y : npmin2 (shift c x) (shift c y) = shift c (npmin2 x y).
Proof. unfold npmin2. rewrite !isnan_shift, pymin_shift. destruct (isnan x || isnan y); auto. Qed.
Lemma fold_shift c (f : num -> num -> num) :
  (forall x y, f (shift c x) (shift c y) = shift c (f x y)) ->
  forall l x, fold_left f (map (shift c) l) (shift c x) = shift c (fold_left f l x).
Proof. intros H l; induction l as [|y l IH]; intros x; simpl; auto. rewrite H. auto. Qed.
Lemma npmax_shift c x l : npmax (shift c x) (map (shift c) l) = shift c (npmax x l).
Proof. apply fold_shift, npmax2_shift. Qed.
Lemma np_le_shift c x y : np_le (shift c x) (shift c y) = np_le x y.
Proof. unfold np_le. rewrite isnan_shift, nleb_shift. auto. Qed.
Lemma np_sort_shift c l : np_sort (map (shift c) l) = map (shift c) (np_sort l).
Proof.
  induction l as [|x l IH]; simpl; auto. unfold np_sort in *. simpl. rewrite IH.
  generalize (fold_right insert_num [] l); clear. intros l. induction l as [|y l IH]; simpl; auto.
  rewrite np_le_shift. destruct (np_le x y); simpl; auto. rewrite IH; auto.
Qed.
Lemma py_neg_index_map {X Y} (f : X -> Y) l k : py_neg_index (map f l) k = map_res f (py_neg_index l k).
Proof.
  unfold py_neg_index. destruct (k =? 0); [destruct l; auto|]. rewrite map_length.
  destruct (length l <? k); auto. rewrite nth_error_map. destruct (nth_error l (length l - k)); auto.
Qed.
Lemma threshold_shift c y n ref :
  diff_threshold_if_keep_n_finite (map (shift c) y) n ref = diff_threshold_if_keep_n_finite y n ref.
Proof.
  unfold diff_threshold_if_keep_n_finite. destruct (n <=? 1); auto. rewrite np_sort_shift.
  cbv zeta. rewrite map_length, !py_neg_index_map. destruct (py_neg_index (np_sort y) 1); simpl; auto.
  destruct (py_neg_index (np_sort y) (Nat.min n (length (np_sort y)))); simpl; auto.
  rewrite nsub_shift. auto.
Qed.
Lemma finite_raw_shift c y d m : is_finite_raw (map (shift c) y) d (shift c m) = is_finite_raw y d m.
Proof.
  unfold is_finite_raw. rewrite map_map. apply map_ext. intros v. rewrite nsub_shift_l, nleb_shift, isfin_shift. auto.
Qed.
Lemma finite_self_shift c y d : is_finite_raw_self (map (shift c) y) d = is_finite_raw_self y d.
Proof.
  destruct y as [|v y]; auto. unfold is_finite_raw_self. cbn [map].
  change (shift c v :: map (shift c) y) with (map (shift c) (v :: y)). rewrite npmax_shift, finite_raw_shift. auto.
Qed.
Lemma classify_shift {theta} c (cf : config theta) y : classify cf (map (shift c) y) = classify cf y.
Proof.
  unfold classify. destruct (c_classifier cf); [|rewrite map_length; auto]. rewrite threshold_shift.
  destruct (diff_threshold_if_keep_n_finite y (c_keep cf) (c_diff cf)) as [thr|]; simpl; auto.
  rewrite finite_self_shift. auto.
Qed.
Lemma mask_map_l {X Y} (f : X -> Y) m l : mask m (map f l) = map f (mask m l).
Proof. revert l; induction m as [|b m IH]; intros [|x l]; simpl; auto. destruct b; simpl; rewrite IH; auto. Qed.
Lemma masked_map {X Y} (f : X -> Y) m l : masked m (map f l) = map_res (map f) (masked m l).
Proof. unfold masked. rewrite map_length, mask_map_l. destruct (length m =? length l); auto. Qed.

(** ** The simulation *)
Section Sim.
Context {pt pt' pt_ PX PX' PY PY' model theta box box' : Type}.
Variable c : Qc.
Variable A : pt -> pt'.
Variable wf : pt -> Prop.
Variable B : box -> box'.
Variable wfB : box -> Prop.
Variable RX : PX -> PX' -> Prop.
Variable RY : PY -> PY' -> Prop.
Variable e : env pt pt_ PX PY model theta box.
Variable e' : env pt' pt_ PX' PY' model theta box'.
Local Notation gpr := (gpr pt pt_ PX PY model theta box).
Local Notation gpr' := (MGpr.gpr pt' pt_ PX' PY' model theta box').
Local Notation meth := (meth pt pt_ PX PY model theta box).
Local Notation meth' := (MGpr.meth pt' pt_ PX' PY' model theta box').

Definition rel_res {X Y} (R : X -> Y -> Prop) (r : res X) (r' : res Y) : Prop :=
  match r, r' with Ok a, Ok b => R a b | Err x, Err y => x = y | _, _ => False end.

(** The components do the same thing in both units. *)
Record same_env : Prop := mkSE {
  se_fitX : forall p p' X y, RX p p' -> Forall wf X ->
    rel_res RX (fitX e p X y) (fitX e' p' (map A X) (map (shift c) y));
  se_trX : forall p p' X, RX p p' -> Forall wf X -> trX e' p' (map A X) = trX e p X;
  se_fitY : forall p p' X y, RY p p' -> Forall wf X ->
    rel_res RY (fitY e p X y) (fitY e' p' (map A X) (map (shift c) y));
  se_trY : forall p p' y, RY p p' -> trY e' p' (map (shift c) y) = trY e p y;
  se_scaleY : forall p p' y, RY p p' -> scaleY e' p' y = scaleY e p y;
  se_scaleY1 : forall p p' v, RY p p' -> scaleY1 e' p' v = scaleY1 e p v;
  se_svc : svc_train e' = svc_train e;
  se_chol : cholesky e' = cholesky e;
  se_lml : lml e' = lml e;
  se_opt : optimize e' = optimize e;
  se_trust : forall X y, Forall wf X ->
    trust_region e' (map A X) (map (shift c) y) = map_res (option_map B) (trust_region e X y);
  se_box : forall X y b, Forall wf X -> trust_region e X y = Ok (Some b) -> wfB b;
  se_dim : forall X, dim_ok e X = true -> Forall wf X;
  se_dim' : forall X, dim_ok e' (map A X) = dim_ok e X }.
Hypothesis SE : same_env.

Definition corr (g : gpr) (g' : gpr') : Prop :=
  same c A B RX RY g g' /\ Forall wf (g_Xall g) /\ Forall wf (g_X g) /\ (forall b, g_trust g = Some b -> wfB b).
Definition msim {X Y} (R : X -> Y -> Prop) (m : meth X) (m' : meth' Y) : Prop :=
  forall g g', corr g g' -> corr (fst (m g)) (fst (m' g')) /\ rel_res R (snd (m g)) (snd (m' g')).

Lemma msim_seq {X X' Y Y'} (R : X -> X' -> Prop) (S : Y -> Y' -> Prop) m m' k k' :
  msim R m m' -> (forall a a', R a a' -> msim S (k a) (k' a')) -> msim S (seq_ m k) (seq_ m' k').
Proof.
  intros Hm Hk g g' H. unfold seq_. destruct (Hm g g' H) as [H1 H2].
  destruct (m g) as [g1 [a|x]], (m' g') as [g1' [a'|x']]; simpl in *; try tauto.
  apply Hk; auto.
Qed.
Lemma msim_ret {X Y} (R : X -> Y -> Prop) a b : R a b -> msim R (ret a) (ret b).
Proof. intros H g g' Hc. simpl. auto. Qed.
Lemma msim_raise {X Y} (R : X -> Y -> Prop) x : msim R (raise x) (raise x).
Proof. intros g g' Hc. simpl. auto. Qed.
Lemma msim_lift {X Y} (R : X -> Y -> Prop) r r' : rel_res R r r' -> msim R (lift r) (lift r').
Proof. intros H g g' Hc. simpl. auto. Qed.
Lemma msim_lift_eq {X} (r : res X) : msim eq (lift r) (lift r).
Proof. apply msim_lift. destruct r; simpl; auto. Qed.
Lemma msim_get : msim corr get get.
Proof. intros g g' Hc. simpl. auto. Qed.
Lemma msim_modify f f' : (forall g g', corr g g' -> corr (f g) (f' g')) -> msim eq (modify f) (modify f').
Proof. intros H g g' Hc. simpl. auto. Qed.
Lemma msim_if {X Y} (R : X -> Y -> Prop) (b : bool) m m' k k' :
  msim R m m' -> msim R k k' -> msim R (if b then m else k) (if b then m' else k').
Proof. destruct b; auto. Qed.

Ltac upd := intros ? ? ([] & Hwa & Hwx & Hwb); split; [constructor; simpl; auto; congruence | split; [|split]; simpl; auto].

Lemma the_data_same g g' : corr g g' -> the_data g' = the_data g.
Proof.
  intros ([] & _ & _). unfold the_data. rewrite same_X_, same_y_, same_alpha. auto.
Qed.

Lemma sim_update_model : msim eq (update_model e) (update_model e').
Proof.
  unfold update_model. eapply msim_seq; [apply msim_get|]. intros g g' Hg.
  pose proof (the_data_same _ _ Hg) as Ed. destruct Hg as ([] & _ & _).
  rewrite same_newinv. apply msim_if; [apply msim_ret; auto|]. rewrite same_kernel.
  destruct (g_kernel g) as [th|]; [|apply msim_raise]. rewrite Ed.
  eapply msim_seq; [apply msim_lift_eq|]. intros d d' <-. rewrite (se_chol SE).
  apply msim_if; [|apply msim_raise]. apply msim_modify. upd.
Qed.

Lemma sim_restarts d draw start n i : msim eq (restarts e d draw start i n) (restarts e' d draw start i n).
Proof.
  revert i; induction n as [|n IH]; intros i; simpl; [apply msim_ret; auto|].
  eapply msim_seq; [apply msim_get|]. intros g g' ([] & _ & _).
  eapply msim_seq with (R := eq).
  { apply msim_if; [|apply msim_ret; auto]. rewrite same_kernel. destruct (g_kernel g); [apply msim_ret; auto|apply msim_raise]. }
  intros th0 ? <-. rewrite (se_opt SE). destruct (optimize e d th0) as [th r].
  eapply msim_seq; [apply msim_modify; upd|]. intros _ _ _.
  eapply msim_seq; [apply msim_lift_eq|]. intros v ? <-.
  eapply msim_seq; [apply IH|]. intros l ? <-. apply msim_ret. auto.
Qed.

Lemma sim_fit cf kw : msim eq (fit_gpr_hyperparameters e cf kw) (fit_gpr_hyperparameters e' cf kw).
Proof.
  unfold fit_gpr_hyperparameters. eapply msim_seq; [apply msim_get|]. intros g g' Hg.
  pose proof (the_data_same _ _ Hg) as Ed. pose proof Hg as ([] & _ & _). cbv zeta. rewrite same_fitted.
  apply msim_if.
  { rewrite same_kernel. destruct (g_kernel g); [|apply msim_raise]. rewrite Ed.
    eapply msim_seq; [apply msim_lift_eq|]. intros d ? <-. rewrite (se_lml SE).
    eapply msim_seq; [apply msim_modify; upd|]. intros _ _ _. apply sim_update_model. }
  eapply msim_seq.
  { apply msim_modify. intros h h' ([] & Hwa & Hwx & Hwb).
    match goal with H : g_kernel h' = g_kernel h |- _ => rewrite H end.
    split; [constructor; simpl; auto; congruence|split; [|split]; simpl; auto]. }
  intros _ _ _. apply msim_if; [apply msim_raise|]. rewrite Ed.
  eapply msim_seq; [apply msim_lift_eq|]. intros d ? <-.
  eapply msim_seq; [apply sim_restarts|]. intros op ? <-.
  eapply msim_seq; [apply msim_lift_eq|]. intros best ? <-.
  destruct (nth_error op best) as [[th v]|]; [|apply msim_raise].
  eapply msim_seq; [apply msim_modify; upd|]. intros _ _ _.
  eapply msim_seq; [apply msim_modify; upd|]. intros _ _ _.
  eapply msim_seq; [apply sim_update_model|]. intros _ _ _.
  apply msim_modify. upd.
Qed.

Lemma Forall_mask (m : list bool) (l : list pt) : Forall wf l -> Forall wf (mask m l).
Proof. rewrite !Forall_forall. intros H x Hx. apply H. eapply mask_incl; eauto. Qed.

Lemma sim_body cf a kw : msim eq (append_body e cf a kw) (append_body e' cf (conv_append c A a) kw).
Proof.
  unfold append_body, conv_append. cbv zeta. simpl.
  eapply msim_seq with (R := fun p p' => p' = (map A (fst (fst p)), map (shift c) (snd (fst p)), snd p)).
  { destruct (a_X a), (a_y a); simpl; try apply msim_raise.
    - apply msim_ret. auto.
    - destruct (a_noise a); try apply msim_raise. apply msim_ret. auto. }
  intros [[X y] force] ? ->. simpl.
  eapply msim_seq; [apply msim_get|]. intros g0 g0' Hg0. pose proof Hg0 as ([] & _ & _).
  rewrite same_noise, map_length.
  eapply msim_seq; [apply msim_lift_eq|]. intros nv ? <-.
  eapply msim_seq; [apply msim_modify; upd|]. intros _ _ _.
  rewrite (se_dim' SE). destruct (dim_ok e X) eqn:Ed; [|apply msim_raise]. cbn [negb].
  pose proof (se_dim SE _ Ed) as HX.
  eapply msim_seq.
  { apply msim_modify. intros h h' ([] & Hwa & Hwx & Hwb).
    split; [constructor; simpl; auto; rewrite map_app; congruence|split; [|split]; simpl; auto].
    apply Forall_app; auto. }
  intros _ _ _. clear dependent g0. clear dependent g0'.
  eapply msim_seq; [apply msim_get|]. intros g1 g1' Hg1. pose proof Hg1 as ([] & Hw1 & _).
  rewrite same_noise, same_yall, map_length.
  eapply msim_seq; [apply msim_lift_eq|]. intros nz ? <-.
  eapply msim_seq; [apply msim_modify; upd|]. intros _ _ _.
  rewrite classify_shift.
  eapply msim_seq; [apply msim_lift_eq|]. intros [fin thr] ? <-.
  eapply msim_seq with (R := fun Xf Xf' => Xf' = map A Xf /\ Forall wf Xf).
  { rewrite same_Xall. apply msim_if; [|apply msim_ret; auto]. apply msim_lift. rewrite masked_map.
    unfold masked. destruct (length fin =? length (g_Xall g1)); simpl; auto. split; auto. apply Forall_mask; auto. }
  intros Xf ? [-> HXf]. rewrite mask_map_l. generalize (mask fin (g_yall g1)). intros yf.
  eapply msim_seq with (R := eq).
  { apply msim_if; [|apply msim_ret; auto]. eapply msim_seq; [apply msim_get|].
    intros g g' ([] & _ & _). eapply msim_seq; [apply msim_lift, (se_fitX SE); eauto|].
    intros q q' Hq. eapply msim_seq.
    { apply msim_modify. upd. }
    intros _ _ _. eapply msim_seq; [apply msim_lift, (se_fitY SE); eauto|].
    intros r r' Hr. apply msim_modify. upd. }
  intros _ _ _. clear dependent g1. clear dependent g1'.
  eapply msim_seq; [apply msim_get|]. intros g2 g2' Hg2. pose proof Hg2 as ([] & Hw2 & _).
  rewrite same_Xall, same_yall, same_noise.
  rewrite (se_trX SE _ _ _ same_pX Hw2), (se_trY SE _ _ _ same_pY).
  eapply msim_seq; [apply msim_lift_eq|]. intros Xall_ ? <-.
  eapply msim_seq; [apply msim_lift_eq|]. intros yall_ ? <-.
  rewrite (se_scaleY SE _ _ _ same_pY).
  eapply msim_seq; [apply msim_lift_eq|]. intros nse ? <-.
  eapply msim_seq; [apply msim_modify; upd|]. intros _ _ _.
  eapply msim_seq with (R := eq).
  { apply msim_if; [|apply msim_ret; auto]. rewrite (se_scaleY1 SE _ _ _ same_pY).
    eapply msim_seq; [apply msim_lift_eq|]. intros thr_ ? <-.
    eapply msim_seq; [apply msim_get|]. intros g g' ([] & _ & _).
    rewrite (se_svc SE), same_svm0. destruct (svm_fit (svc_train e) (g_svm g) Xall_ yall_ thr_) as [s r].
    eapply msim_seq; [apply msim_modify; upd|]. intros _ _ _.
    eapply msim_seq; [apply msim_lift_eq|]. intros l ? <-.
    apply msim_if; [apply msim_ret; auto|apply msim_raise]. }
  intros _ _ _.
  eapply msim_seq; [apply msim_modify; upd|]. intros _ _ _.
  apply msim_if; [apply msim_ret; auto|].
  eapply msim_seq.
  { apply msim_modify. upd. }
  intros _ _ _. clear dependent g2. clear dependent g2'.
  eapply msim_seq; [apply msim_get|]. intros g3 g3' Hg3. pose proof Hg3 as ([] & _ & _).
  rewrite (se_trX SE _ _ _ same_pX HXf), (se_trY SE _ _ _ same_pY).
  eapply msim_seq; [apply msim_lift_eq|]. intros X_ ? <-.
  eapply msim_seq; [apply msim_modify; upd|]. intros _ _ _.
  eapply msim_seq; [apply msim_lift_eq|]. intros y_ ? <-.
  eapply msim_seq; [apply msim_modify; upd|]. intros _ _ _.
  eapply msim_seq; [apply msim_lift_eq|]. intros al ? <-.
  eapply msim_seq; [apply msim_modify; upd|]. intros _ _ _.
  eapply msim_seq; [apply msim_modify; upd|]. intros _ _ _.
  eapply msim_seq with (R := eq).
  { destruct kw; [apply sim_fit|apply sim_update_model]. }
  intros _ _ _. clear dependent g3. clear dependent g3'.
  eapply msim_seq; [apply msim_get|]. intros g4 g4' Hg4. pose proof Hg4 as ([] & _ & Hw4 & _).
  rewrite same_X, same_y.
  eapply msim_seq with (R := fun b b' => b' = option_map B b /\ forall z, b = Some z -> wfB z).
  { apply msim_lift. rewrite (se_trust SE _ _ Hw4). destruct (trust_region e (g_X g4) (g_y g4)) eqn:Et; simpl; auto.
    split; auto. intros z ->. eapply (se_box SE); eauto. }
  intros b ? [-> Hz]. apply msim_modify. destruct b; simpl; [upd|auto].
Qed.

Lemma sim_step cf o : msim eq (step e cf o) (step e' cf (conv_op c A o)).
Proof.
  destruct o as [a|kw]; intros g g' Hg; [|apply (sim_fit cf kw); auto].
  change (step e cf (OAppend a)) with (append_to_data e cf a).
  change (step e' cf (conv_op c A (OAppend a))) with (append_to_data e' cf (conv_append c A a)).
  revert g g' Hg. change (msim eq (append_to_data e cf a) (append_to_data e' cf (conv_append c A a))).
  unfold append_to_data. change (a_fit (conv_append c A a)) with (a_fit a).
  change (a_default (conv_append c A a)) with (a_default a).
  destruct (a_fit a); first [apply sim_body | apply msim_raise].
Qed.

Lemma sim_runs cf g os g2 : runs e cf g os g2 -> forall g', corr g g' ->
  exists g2', runs e' cf g' (map (conv_op c A) os) g2' /\ corr g2 g2'.
Proof.
  induction 1 as [g|g o g1 os g2 Hs Hr IH]; intros g' Hg; [exists g'; split; [constructor|auto]|].
  pose proof (sim_step cf o g g' Hg) as [H1 H2]. rewrite Hs in H1, H2. simpl in H1, H2.
  destruct (step e' cf (conv_op c A o) g') as [g1' r] eqn:E. simpl in *.
  destruct r as [[]|]; [|tauto]. destruct (IH _ H1) as (g2' & Hr' & Hc).
  exists g2'. split; auto. simpl. econstructor; eauto.
Qed.
End Sim.

(** Appending points in another order: lemmas. *)
From Coq Require Import Permutation Lia.
From Verif Require Import MPredict Argsort POrder3 PTools PGpr PGpr2 SOrder POrder4 PGpr3.
Set Default Goal Selector "!".
Set Bullet Behavior "Strict Subproofs".

Section Order.
Context {pt pt_ PX PY model theta box : Type}.
Variable okY : PY -> Prop.
Variable e : env pt pt_ PX PY model theta box.
Hypothesis OL : orderless okY e.
Local Notation gpr := (gpr pt pt_ PX PY model theta box).

Lemma bool_list_eqb_refl l : bool_list_eqb l l = true.
Proof. unfold bool_list_eqb. rewrite Nat.eqb_refl. cbn. induction l as [|[] l IH]; auto. Qed.
Lemma seq_step {A B} (m : meth pt pt_ PX PY model theta box A) (k : A -> meth pt pt_ PX PY model theta box B) g g1 a :
  m g = (g1, Ok a) -> seq_ m k g = k a g1.
Proof. intros H. unfold seq_. rewrite H. reflexivity. Qed.
Lemma append_intro c a g g' : appended e c a g g' -> append_to_data e c a g = (g', Ok tt).
Proof.
  unfold appended. intros (X & y & force & nv & nz & finite & thr & Xf & pX & pY & Xall_ & yall_ & noise_ & s & Ha & Hb & Hv & Hd & Hn & Hc & HX & HP & HtX & HtY & Hs & HS & HE).
  assert (append_body e c a (kwargs (a_default a) (a_fit a)) g = (g', Ok tt)) as H; [|unfold append_to_data; destruct (a_fit a); auto; contradiction].
  unfold append_body. set (kw := kwargs (a_default a) (a_fit a)) in *.
  erewrite seq_step.
  2:{ instantiate (1 := (X, y, force)). instantiate (1 := g). destruct Ha as [(-> & -> & ->)|(-> & -> & -> & -> & -> & ->)]; reflexivity. }
  cbv beta iota. unfold refits in *. fold kw in HP, HS. set (rf := a_classifier a || match kw with Some _ => true | None => false end) in *.
  unfold get. erewrite seq_step; [|reflexivity]. rewrite Hv. erewrite seq_step; [|reflexivity].
  erewrite seq_step; [|reflexivity]. rewrite Hd. cbn [negb]. erewrite seq_step; [|reflexivity]. erewrite seq_step; [|reflexivity].
  cbn [g_noise g_yall g_Xall set_all set_nlast]. rewrite Hn. erewrite seq_step; [|reflexivity]. erewrite seq_step; [|reflexivity].
  rewrite Hc. erewrite seq_step; [|reflexivity]. cbv beta iota.
  erewrite seq_step.
  2:{ instantiate (1 := Xf). destruct (c_classifier c); [rewrite HX; reflexivity|]. rewrite HX. reflexivity. }
  erewrite seq_step.
  2:{ instantiate (1 := tt). instantiate (1 := set_pX pX (set_pY pY (set_noise nz (set_all (g_Xall g ++ X) (g_yall g ++ y) (set_nlast (length y) g))))).
      destruct rf; destruct HP as [HP1 HP2].
      - unfold seq_, lift, modify. cbn [g_pX g_pY set_noise set_all set_nlast]. rewrite HP1. cbn [g_pX g_pY set_pX set_noise set_all set_nlast]. rewrite HP2. reflexivity.
      - rewrite HP1, HP2. destruct g; reflexivity. }
  erewrite seq_step; [|reflexivity]. cbn [g_pX g_pY g_Xall g_yall g_noise set_pX set_pY set_noise set_all set_nlast].
  rewrite HtX. erewrite seq_step; [|reflexivity]. rewrite HtY. erewrite seq_step; [|reflexivity]. rewrite Hs. erewrite seq_step; [|reflexivity].
  erewrite seq_step; [|reflexivity].
  erewrite seq_step.
  2:{ instantiate (1 := tt). instantiate (1 := set_svm s (set_noise_ (Some noise_) (set_pX pX (set_pY pY (set_noise nz (set_all (g_Xall g ++ X) (g_yall g ++ y) (set_nlast (length y) g))))))).
      destruct (c_classifier c && rf).
      - destruct HS as (thr_ & Ht & HS). rewrite Ht. unfold seq_, lift, modify. cbn [g_svm set_noise_ set_pX set_pY set_noise set_all set_nlast]. rewrite HS.
        cbv beta iota. rewrite bool_list_eqb_refl. reflexivity.
      - rewrite HS. destruct g; reflexivity. }
  erewrite seq_step; [|reflexivity]. fold (new_finite c y finite). destruct HE as [(H1 & H2 & ->)|(H1 & X_ & y_ & al & g3 & b & E1 & E2 & E3 & E4 & E5 & ->)].
  - rewrite H1, H2. destruct g; reflexivity.
  - replace ((new_finite c y finite =? 0) && negb force) with false.
    2:{ destruct H1 as [H1| ->]; [|rewrite Bool.andb_false_r; auto]. apply Nat.eqb_neq in H1. rewrite H1. reflexivity. }
    erewrite seq_step; [|reflexivity]. erewrite seq_step; [|reflexivity].
    cbn [g_pX g_pY set_train set_nlastfin set_svm set_noise_ set_pX set_pY set_noise set_all set_nlast].
    rewrite E1. erewrite seq_step; [|reflexivity]. erewrite seq_step; [|reflexivity]. rewrite E2. erewrite seq_step; [|reflexivity]. erewrite seq_step; [|reflexivity].
    rewrite E3. erewrite seq_step; [|reflexivity]. erewrite seq_step; [|reflexivity]. erewrite seq_step; [|reflexivity].
    erewrite seq_step.
    2:{ etransitivity; [|exact E4]. destruct g, kw; reflexivity. }
    erewrite seq_step; [|reflexivity]. rewrite E5. erewrite seq_step; [|reflexivity]. destruct b; reflexivity.
Qed.

(** The classifier. *)
Definition svm_re (s s' : svm pt_ model) : Prop :=
  s_some s' = s_some s /\ s_all s' = s_all s /\ s_diff s' = s_diff s /\ s_max s' = s_max s /\ s_svc s' = s_svc s
  /\ both (fun d d' => same_points (fst d) (snd d) (fst d') (snd d')) (s_data s) (s_data s').
Lemma forallb_perm {A} (f : A -> bool) l l' : Permutation l l' -> forallb f l = forallb f l'.
Proof.
  induction 1 as [|a l l' HP IH|a b l|l1 l2 l3 H1 IH1 H2 IH2]; cbn; auto; try congruence. rewrite !Bool.andb_assoc, (Bool.andb_comm (f a)). reflexivity.
Qed.
Lemma repeat_map {A B} (b : B) (l : list A) : repeat b (length l) = map (fun _ => b) l.
Proof. induction l; cbn; congruence. Qed.
Lemma same_map {A} (Q Q' : list (A * num)) (t : num -> bool) : Permutation Q Q' ->
  same_points (map fst Q) (map t (map snd Q)) (map fst Q') (map t (map snd Q')).
Proof.
  intros HP. unfold same_points. rewrite !map_length. rewrite !map_map, !combine_self. split; [auto|]. split; [auto|]. apply Permutation_map. exact HP.
Qed.
Lemma svm_perm s s' Q Q' d s1 f : svm_re s s' -> Permutation Q Q' ->
  (existsb isfin (map snd Q) = true -> existsb isnan (map snd Q) = false) ->
  svm_fit (svc_train e) s (map fst Q) (map snd Q) d = (s1, Ok f) ->
  exists s1' t, f = map t (map snd Q) /\ svm_fit (svc_train e) s' (map fst Q') (map snd Q') d = (s1', Ok (map t (map snd Q'))) /\ svm_re s1 s1'.
Proof.
  intros (R1 & R2 & R3 & R4 & R5 & R6) HP Hnan. pose proof (Permutation_map snd HP) as HPy. unfold svm_fit. rewrite <- (forallb_perm _ _ _ HPy).
  assert (same_points (map fst Q) (map snd Q) (map fst Q') (map snd Q')) as HSP by (apply same_points_iff; exists Q, Q'; auto).
  destruct (forallb (fun v => neqb v NInf) (map snd Q)) eqn:En.
  - intros E. injection E as <- <-. rewrite !map_length, <- (map_length (@snd pt_ num) Q), <- (map_length (@snd pt_ num) Q'). rewrite !repeat_map.
    eexists. exists (fun _ => false). split; [reflexivity|]. split; [reflexivity|]. unfold svm_re. cbn. auto 10.
  - destruct (pymax_list (map snd Q)) as [m|] eqn:Em; [|discriminate]. unfold is_finite_raw.
    set (t := fun v => nleb (nsub m d) v && isfin v). fold t.
    assert (existsb t (map snd Q) = true -> pymax_list (map snd Q') = Ok m) as Hm.
    { intros H. rewrite <- Em. symmetry. apply pymax_list_perm; [|exact HPy]. apply Hnan. apply existsb_exists in H as (v & Hv & Ht).
      apply existsb_exists. exists v. split; auto. unfold t in Ht. apply andb_true_iff in Ht. tauto. }
    assert (forallb (fun b => b) (map t (map snd Q')) = forallb (fun b => b) (map t (map snd Q))) as Efa by (symmetry; apply forallb_perm, Permutation_map, HPy).
    destruct (forallb (fun b => b) (map t (map snd Q))) eqn:Ea.
    + intros E. injection E as <- <-. rewrite Hm.
      2:{ destruct Q as [|[x v] Q]; [discriminate|]. cbn in *. apply andb_true_iff in Ea as [Ea _]. rewrite Ea. reflexivity. }
      fold t. rewrite Efa. eexists. exists t. split; [reflexivity|]. split; [reflexivity|]. unfold svm_re. cbn. auto 10.
    + unfold svc_fit. destruct (forallb negb (map t (map snd Q))) eqn:Eneg; [discriminate|].
      destruct (svc_train e (map fst Q) (map t (map snd Q))) as [cl|] eqn:Ec; [|discriminate]. intros E. injection E as <- <-. rewrite Hm.
      2:{ destruct (existsb t (map snd Q)) eqn:Ex; auto. assert (forallb negb (map t (map snd Q)) = true) as Ht; [|congruence].
          apply forallb_forall. intros b Hb. apply in_map_iff in Hb as (v & <- & Hv).
          destruct (t v) eqn:Et; auto. assert (existsb t (map snd Q) = true); [apply existsb_exists; eauto|congruence]. }
      fold t. rewrite Efa, <- (forallb_perm negb _ _ (Permutation_map t HPy)), Eneg.
      rewrite <- (or_svc _ _ OL _ _ _ _ (same_map Q Q' t HP)), Ec. eexists. exists t. split; [reflexivity|]. split; [reflexivity|]. unfold svm_re. cbn. auto 10.
Qed.

Lemma labels_rows {A B} (R : A * num -> B * num -> Prop) (D D' : list (A * num)) (Q Q' : list (B * num)) (t t2 : num -> bool) :
  (forall d q q', R d q -> R d q' -> snd q = snd q') -> Forall2 R D Q -> Forall2 R D' Q' -> (forall d, In d D' -> In d D) ->
  map t (map snd D) = map t2 (map snd Q) -> map t (map snd D') = map t2 (map snd Q').
Proof.
  intros Hf HF HF' Hin E. assert (forall d, In d D -> exists q, R d q /\ t (snd d) = t2 (snd q)) as K.
  { revert E. clear - HF. induction HF as [|d q D Q H HF IH]; intros E d' Hd; [contradiction|]. cbn in E. injection E as E1 E2.
    destruct Hd as [<-|Hd]; [eauto|]. apply IH; auto. }
  clear E HF. induction HF' as [|d q D' Q' H HF' IH]; auto. cbn. f_equal.
  - destruct (K d (Hin d (or_introl eq_refl))) as (q0 & H0 & ->). rewrite (Hf d q0 q H0 H). reflexivity.
  - apply IH. intros d' Hd'. apply Hin. right. exact Hd'.
Qed.
Lemma mask_all {A} (l : list A) f : f = repeat true (length l) -> mask f l = l.
Proof. intros ->. induction l as [|a l IH]; auto. cbn. rewrite IH. reflexivity. Qed.
Lemma no_nan_app y v : existsb isnan y = false -> existsb isnan v = false -> existsb isnan (y ++ v) = false.
Proof. intros H1 H2. rewrite existsb_app, H1, H2. reflexivity. Qed.
Lemma no_nan_incl y v : existsb isnan y = false -> incl v y -> existsb isnan v = false.
Proof.
  intros H Hi. destruct (existsb isnan v) eqn:E; auto. apply existsb_exists in E as (x & H1 & H2). rewrite <- H. symmetry. apply existsb_exists. eauto.
Qed.
Lemma last_labels (t : num -> bool) (l y : list num) : y <> [] -> py_last (length y) (map t (l ++ y)) = map t y.
Proof.
  intros H. unfold py_last. destruct (Nat.eqb_spec (length y) 0) as [E|E]; [destruct y; [contradiction|discriminate]|].
  rewrite map_length, app_length, Nat.add_sub. rewrite map_app, skipn_app, map_length, Nat.sub_diag. rewrite skipn_all2 by (rewrite map_length; lia). reflexivity.
Qed.
Lemma new_finite_perm (c : config theta) (t : num -> bool) l y l' y' : Permutation y y' -> Permutation (l ++ y) (l' ++ y') ->
  new_finite c y (map t (l ++ y)) = new_finite c y' (map t (l' ++ y')).
Proof.
  intros H1 H2. unfold new_finite. destruct (c_classifier c); [|rewrite (Permutation_length H1); reflexivity].
  destruct y as [|v y].
  - apply Permutation_nil in H1 as ->. cbn. apply count_true_perm, Permutation_map. exact H2.
  - destruct y' as [|v' y']; [symmetry in H1; apply Permutation_nil_cons in H1; contradiction|]. rewrite !last_labels by discriminate.
    apply count_true_perm, Permutation_map. exact H1.
Qed.
Lemma same_problem_const {A} (P P' : list (A * num)) z : Permutation P P' ->
  same_problem (mkData (map fst P) (map snd P) (repeat z (length P))) (mkData (map fst P') (map snd P') (repeat z (length P'))).
Proof.
  intros HP. unfold same_problem. cbn. rewrite !map_length, !repeat_length. split; [auto|]. split; [auto|]. split; [auto|]. split; [auto|].
  rewrite !pairs_self. rewrite !repeat_map. assert (forall l : list (A * num), combine l (map (fun _ => z) l) = map (fun p => (p, z)) l) as K.
  { induction l; cbn; congruence. }
  rewrite !K. apply Permutation_map. exact HP.
Qed.
Lemma map_rep {A B} (f : A -> B) a n : map f (repeat a n) = repeat (f a) n.
Proof. induction n; cbn; congruence. Qed.
Local Notation usable := (usable okY).
Lemma append_sim c a a' g g' g1 : reordered g g' -> usable g -> reordered_op (OAppend a) (OAppend a') -> append_to_data e c a g = (g1, Ok tt) ->
  exists g1', append_to_data e c a' g' = (g1', Ok tt) /\ reordered g1 g1' /\ usable g1.
Proof.
  intros HR HU (Hxy & Hna & En & Ef & Ecl & Edf) E. apply append_inv in E.
  destruct E as (X & y & force & nv & nz & finite & thr & Xf & pX & pY & Xall_ & yall_ & noise_ & s & Ha & Hb & Hv & Hd & Hn & Hc & HX & HP & HtX & HtY & Hs & HS & HE).
  cbv zeta in HE. destruct HU as ((v0 & Hnoise) & HokY & Hnan & HnanT).
  assert (exists X' y', args_are a' X' y' force /\ same_points X y X' y' /\ existsb isnan y = false) as (X' & y' & Ha' & Hxy' & Hny).
  { destruct Ha as [(Ha1 & Ha2 & Ha3)|(Ha1 & Ha2 & Ha3 & -> & -> & Ha4)]; rewrite Ha1, Ha2 in Hxy.
    - destruct (a_X a') as [X'|] eqn:EX', (a_y a') as [y'|] eqn:Ey'; try contradiction. exists X', y'. split; [left; auto|tauto].
    - destruct (a_X a') as [X'|] eqn:EX', (a_y a') as [y'|] eqn:Ey'; try contradiction. exists [], []. split; [|split; [|auto]].
      + right. rewrite En, Ef, Edf. auto 10.
      + repeat split; auto. }
  clear Hxy. pose proof (same_points_app _ _ _ _ _ _ _ _ (re_all _ _ HR) Hxy') as Hall. pose proof (same_points_y _ _ _ _ Hxy') as Hyy.
  pose proof (no_nan_app _ _ Hnan Hny) as Hnall. pose proof (Permutation_length Hyy) as Hlen.
  apply same_points_iff in Hall as (D & D' & HPD & EX & Ey & EX' & Ey'). rewrite EX, Ey in *.
  pose proof (Permutation_map snd HPD) as HPDy. pose proof (Permutation_length HPD) as HlD.
  destruct (classify_perm c _ _ _ _ HPDy Hc) as (t & -> & Hc').
  set (F := filter (fun d => t (snd d)) D) in *. set (F' := filter (fun d => t (snd d)) D').
  assert (Permutation F F') as HPF by (apply POrder3.filter_perm; exact HPD).
  assert (c_classifier c = false -> (forall d, In d D -> t (snd d) = true)) as Hnocl.
  { intros Hcl. unfold classify in Hc. rewrite Hcl in Hc. injection Hc as Hc _. rewrite repeat_map in Hc. intros d Hdin. symmetry.
    assert (In (snd d) (map snd D)) as Hin by (apply in_map; exact Hdin). revert Hc Hin. generalize (map snd D), (snd d). clear.
    induction l as [|b l IH]; intros v Hm Hin; [contradiction|]. cbn in Hm. injection Hm as H1 H2. destruct Hin as [<-|H]; auto. }
  assert (Xf = map fst F) as ->.
  { unfold F. rewrite <- mask_pairs. destruct (c_classifier c) eqn:Hcl.
    - apply masked_ok in HX as [_ ->]. reflexivity.
    - rewrite HX. symmetry. apply mask_all. rewrite !map_length. rewrite map_map, repeat_map. apply map_ext_in. intros d Hdin. apply Hnocl; auto. }
  assert (forall E0, length (map t (map snd E0)) = length (map (@fst pt num) E0)) as Hml by (intros; rewrite !map_length; reflexivity).
  assert (if c_classifier c then masked (map t (map snd D')) (map fst D') = Ok (map fst F') else map fst F' = map fst D') as HX'.
  { destruct (c_classifier c) eqn:Hcl.
    - unfold masked. rewrite Hml, Nat.eqb_refl, mask_pairs. reflexivity.
    - unfold F'. f_equal. apply filter_every. intros d Hdin. apply Hnocl; auto. eapply Permutation_in; [symmetry; exact HPD|exact Hdin]. }
  assert (mask (map t (map snd D)) (map snd D) = map snd F) as EyF by apply mask_self.
  assert (mask (map t (map snd D')) (map snd D') = map snd F') as EyF' by apply mask_self.
  rewrite EyF in *.
  assert (same_points (map fst F) (map snd F) (map fst F') (map snd F')) as HSF by (apply same_points_iff; exists F, F'; auto).
  assert (existsb isnan (map snd F) = false) as HnF.
  { eapply no_nan_incl; [exact Hnall|]. intros v Hv0. apply in_map_iff in Hv0 as (d & <- & Hdin). apply filter_In in Hdin. apply in_map. tauto. }
  assert (okY pY) as HokY'.
  { destruct (refits a); destruct HP as [HP1 HP2]; [|congruence]. eapply (or_okY _ _ OL); eauto. }
  assert (refits a' = refits a) as Erf by (unfold refits; rewrite Ecl, Ef, Edf; reflexivity).
  destruct (or_trX _ _ OL) as (fX & HfX). destruct (or_trY _ _ OL) as (fY & HfY). destruct (or_scaleY _ _ OL) as (fS & HfS).
  rewrite HfX in HtX. pose proof HtY as HtY0. rewrite HfY in HtY.
  destruct (columns_perm _ _ D D' _ _ HPD HtX HtY) as (Q & Q' & HPQ & -> & -> & HtX' & HtY' & FQ & FQ').
  pose proof (Permutation_length HPQ) as HlQ.
  assert (exists w, nz = Scalar w /\ nv <> NBad /\ (forall v, nv <> NArr v)) as (w & -> & Hnv1 & Hnv2).
  { unfold validate_noise_level, update_noise_level in Hv, Hn. rewrite Hnoise in Hv, Hn. destruct (a_noise a) as [|u|u|] eqn:Ea.
    - injection Hv as <-. injection Hn as <-. exists v0. repeat split; discriminate.
    - destruct (length y =? 0)%nat; [discriminate|]. injection Hv as <-. injection Hn as <-. eexists. repeat split; discriminate.
    - exfalso. eapply Hna. reflexivity.
    - destruct (length y =? 0)%nat; discriminate. }
  assert (length F = count_true (map t (map snd D))) as ElF.
  { unfold F. rewrite map_map, count_filter. reflexivity. }
  assert (length F' = count_true (map t (map snd D'))) as ElF'.
  { unfold F'. rewrite map_map, count_filter. reflexivity. }
  assert (svm_re (g_svm g) (g_svm g')) as HRs by exact (re_svm _ _ HR).
  assert (exists s', (if c_classifier c && refits a' then exists thr_, scaleY1 e pY thr = Ok thr_
             /\ svm_fit (svc_train e) (g_svm g') (map fst Q') (map snd Q') thr_ = (s', Ok (map t (map snd D'))) else s' = g_svm g') /\ svm_re s s') as (s' & HS' & HRs').
  { rewrite Erf. destruct (c_classifier c && refits a).
    - destruct HS as (thr_ & Ht & HS). assert (existsb isfin (map snd Q) = true -> existsb isnan (map snd Q) = false) as Hq0.
      { exact (or_nan _ _ OL pY _ _ HokY' Hnall HtY0). }
      destruct (svm_perm _ _ Q Q' _ _ _ HRs HPQ Hq0 HS) as (s' & t2 & E1 & E2 & E3).
      exists s'. split; [|exact E3]. exists thr_. split; [exact Ht|]. rewrite E2. f_equal. f_equal. symmetry.
      eapply (labels_rows _ D D' Q Q' t t2); [|exact FQ|exact FQ'| |exact E1].
      + cbn. intros d q q' [_ H1] [_ H2]. congruence.
      + intros d Hdin. eapply Permutation_in; [symmetry; exact HPD|exact Hdin].
    - exists (g_svm g'). split; [reflexivity|]. rewrite HS. exact HRs. }
  assert (new_finite c y (map t (map snd D)) = new_finite c y' (map t (map snd D'))) as Enf.
  { rewrite <- Ey, <- Ey'. apply new_finite_perm; auto. rewrite Ey, Ey'. exact HPDy. }
  set (nfin := new_finite c y (map t (map snd D))) in *.
  set (g0 := mkGpr pX pY (Scalar w) (map fst D) (map snd D) (Some noise_) s (length y) nfin (g_newinv g)
               (g_X g) (g_y g) (g_X_ g) (g_y_ g) (g_alpha g) (g_kernel g) (g_cache g) (g_lml g) (g_fitted g) (g_trust g)) in *.
  set (g0' := mkGpr pX pY (Scalar w) (map fst D') (map snd D') (Some noise_) s' (length y) nfin (g_newinv g)
               (g_X g') (g_y g') (g_X_ g') (g_y_ g') (g_alpha g') (g_kernel g) (g_cache g') (g_lml g) (g_fitted g) (g_trust g)).
  assert (reordered g0 g0') as R0.
  { destruct HR. destruct re_counts as (? & ? & ?). constructor; cbn; auto. apply same_points_iff. exists D, D'. auto. }
  assert (usable g0) as U0.
  { split; [exists w; reflexivity|]. split; [exact HokY'|]. split; [exact Hnall|exact HnanT]. }
  assert (forall g1', (nfin = 0 /\ force = false /\ g1' = g0'
        \/ (nfin <> 0 \/ force = true) /\ (exists X_ y_ al g3 b,
             trX e pX (map fst F') = Ok X_ /\ trY e pY (map snd F') = Ok y_ /\ masked (map t (map snd D')) noise_ = Ok al
             /\ match kwargs (a_default a) (a_fit a) with
                | Some k => fit_gpr_hyperparameters e c k
                | None => update_model e
                end (set_newinv nfin (set_alpha (Some (map (fun v => nmul v v) al))
                      (set_y_ (Some y_) (set_X_ (Some X_) (set_train (map fst F') (map snd F') g0'))))) = (g3, Ok tt)
             /\ trust_region e (g_X g3) (g_y g3) = Ok b
             /\ g1' = match b with Some _ => set_trust b g3 | None => g3 end)) -> appended e c a' g' g1') as Hintro.
  { intros g1' HE'. exists X', y', force, nv, (Scalar w), (map t (map snd D')), thr, (map fst F'), pX, pY, (map fst Q'), (map snd Q'), noise_, s'.
    cbv zeta. rewrite EX', Ey', EyF', <- Enf. rewrite (re_noise _ _ HR), En, <- Hlen.
    split; [exact Ha'|]. split; [rewrite Ef; exact Hb|]. split; [exact Hv|].
    split; [rewrite <- (or_dim _ _ OL X X' (same_points_X _ _ _ _ Hxy')); exact Hd|].
    split; [rewrite <- Hn; rewrite !map_length, HlD; reflexivity|]. split; [exact Hc'|]. split; [exact HX'|].
    split; [rewrite Erf, (re_pX _ _ HR), (re_pY _ _ HR); destruct (refits a); [|exact HP];
      rewrite <- (or_fitX _ _ OL _ _ _ _ _ HnF HSF), <- (or_fitY _ _ OL _ _ _ _ _ HnF HSF); exact HP|].
    split; [rewrite HfX; exact HtX'|]. split; [rewrite HfY; exact HtY'|].
    split; [rewrite <- Hs; cbn [noise_array]; rewrite !map_length, HlQ; reflexivity|]. split; [exact HS'|].
    destruct (re_counts _ _ HR) as (_ & _ & ->). rewrite (re_kernel _ _ HR), (re_lml _ _ HR), (re_fitted _ _ HR), (re_trust _ _ HR), Ef, Edf. exact HE'. }
  destruct HE as [(H1 & H2 & ->)|(H1 & X_ & y_ & al & g3 & b & E1 & E2 & E3 & E4 & E5 & ->)].
  - exists g0'. split; [apply append_intro, Hintro; left; auto|]. auto.
  - rewrite HfX in E1. rewrite HfY in E2. destruct (columns_perm _ _ F F' _ _ HPF E1 E2) as (P & P' & HPP & -> & -> & E1' & E2' & _ & _).
    assert (length P = length F) as HlP by (apply mapM_length in E1; rewrite !map_length in E1; exact E1).
    assert (length P' = length F') as HlP' by (apply mapM_length in E1'; rewrite !map_length in E1'; exact E1').
    assert (exists z, noise_ = repeat z (length D)) as (z & Enz).
    { cbn [noise_array] in Hs. rewrite HfS in Hs. apply masked_ok in E3 as [E3 _]. rewrite !map_length in E3. apply mapM_repeat in Hs as [[H0 ->]|(z & _ & ->)].
      - exists w. destruct D; [reflexivity|discriminate].
      - exists z. rewrite repeat_length in E3. rewrite E3. reflexivity. }
    assert (al = repeat z (length P)) as ->.
    { apply masked_ok in E3 as [_ ->]. rewrite Enz, HlP, ElF, <- mask_repeat, !map_length. reflexivity. }
    assert (masked (map t (map snd D')) noise_ = Ok (repeat z (length P'))) as E3'.
    { unfold masked. rewrite Enz, !map_length, repeat_length, <- HlD, Nat.eqb_refl. f_equal. rewrite HlP', ElF', <- mask_repeat, !map_length, HlD. reflexivity. }
    rewrite map_rep in E4. set (zz := nmul z z) in *.
    set (g2 := set_newinv nfin (set_alpha (Some (repeat zz (length P))) (set_y_ (Some (map snd P)) (set_X_ (Some (map fst P)) (set_train (map fst F) (map snd F) g0))))) in *.
    set (g2' := set_newinv nfin (set_alpha (Some (repeat zz (length P'))) (set_y_ (Some (map snd P')) (set_X_ (Some (map fst P')) (set_train (map fst F') (map snd F') g0'))))).
    assert (reordered g2 g2') as R2.
    { destruct R0. constructor; cbn in *; auto. rewrite !map_length, !repeat_length, !Nat.eqb_refl. apply same_problem_const. exact HPP. }
    assert (exists g3', match kwargs (a_default a) (a_fit a) with Some k => fit_gpr_hyperparameters e c k | None => update_model e end g2' = (g3', Ok tt) /\ reordered g3 g3') as (g3' & E4' & R3).
    { destruct (kwargs (a_default a) (a_fit a)) as [k|].
      - exact (fit_sim okY e OL c k _ _ _ _ R2 E4).
      - exact (update_sim okY e OL _ _ _ _ R2 E4). }
    assert (usable g3 /\ g_y g3 = map snd F) as [U3 Ey3].
    { apply numeric_frame in E4. rewrite E4. split; [|reflexivity]. split; [exists w; reflexivity|]. split; [exact HokY'|]. split; [exact Hnall|exact HnF]. }
    exists (match b with Some _ => set_trust b g3' | None => g3' end). split; [|split].
    + apply append_intro, Hintro. right. split; [exact H1|]. exists (map fst P'), (map snd P'), (repeat z (length P')), g3', b.
      rewrite HfX, HfY. split; [exact E1'|]. split; [exact E2'|]. split; [exact E3'|]. split; [rewrite map_rep; exact E4'|]. split; [|reflexivity].
      rewrite <- E5. symmetry. apply (or_trust _ _ OL); [rewrite Ey3; exact HnF|exact (re_train _ _ R3)].
    + destruct b; [apply set_trust_re|]; exact R3.
    + destruct b; exact U3.
Qed.
End Order.

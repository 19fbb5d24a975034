(** Lemmas about the training-set bookkeeping of the regressor. *)
From Verif Require Import MGpr SSvm PSvm.
Set Default Goal Selector "!".

Section Inversion.
Context {pt pt_ PX PY model theta box : Type}.
Variable e : env pt pt_ PX PY model theta box.
Local Notation gpr := (gpr pt pt_ PX PY model theta box).
Local Notation meth := (meth pt pt_ PX PY model theta box).
Implicit Types g : gpr.

Lemma seq_ok {A B} (m : meth A) (k : A -> meth B) g g2 b :
  seq_ m k g = (g2, Ok b) -> exists a g1, m g = (g1, Ok a) /\ k a g1 = (g2, Ok b).
Proof. unfold seq_. destruct (m g) as [g1 [a|x]]; intros H; [eauto|discriminate]. Qed.
Lemma lift_ok {A} (r : res A) g g2 a : lift r g = (g2, Ok a) -> g2 = g /\ r = Ok a.
Proof. unfold lift. intros H. injection H as H1 H2. auto. Qed.
Lemma modify_ok f g g2 a : modify f g = (g2, Ok a) -> g2 = f g.
Proof. unfold modify. congruence. Qed.
Lemma ret_ok {A} (x : A) g g2 a : ret x g = (g2, Ok a) -> g2 = g /\ a = x.
Proof. unfold ret. intros H. injection H as H1 H2. auto. Qed.
Lemma get_ok g g2 a : get g = (g2, Ok a) -> g2 = g /\ a = g.
Proof. unfold get. intros H. injection H as H1 H2. auto. Qed.
Lemma raise_ok {A} x g g2 (a : A) : raise x g = (g2, Ok a) -> False.
Proof. unfold raise. discriminate. Qed.
Lemma err_ok {A} (a b : gpr) x (y : A) : (a, Err x) = (b, Ok y) -> False.
Proof. discriminate. Qed.

Ltac inv1 H :=
  match type of H with
  | seq_ _ _ _ = (_, Ok _) =>
      let a := fresh "a" in let g1 := fresh "g" in let H1 := fresh "I" in
      apply seq_ok in H as (a & g1 & H1 & H); inv1 H1
  | lift _ _ = (_, Ok _) => let E := fresh "E" in apply lift_ok in H as [E H]; subst
  | modify _ _ = (_, Ok _) => apply modify_ok in H; subst
  | ret _ _ = (_, Ok _) => let E := fresh "E" in apply ret_ok in H as [E H]; subst
  | get _ = (_, Ok _) => let E := fresh "E" in apply get_ok in H as [E H]; subst
  | raise _ _ = (_, Ok _) => apply raise_ok in H; destruct H
  | _ => idtac
  end.

(** Without regard to the hyperparameters, cached solution and flags. *)
Definition same_data (g g' : gpr) : Prop :=
  g' = set_kernel (g_kernel g') (set_cache (g_cache g') (set_lml (g_lml g')
        (set_fitted (g_fitted g') (set_newinv (g_newinv g') g)))).
Lemma same_data_refl g : same_data g g. Proof. destruct g; reflexivity. Qed.
Lemma same_data_trans g1 g2 g3 : same_data g1 g2 -> same_data g2 g3 -> same_data g1 g3.
Proof. unfold same_data. intros -> ->. destruct g1; reflexivity. Qed.
Lemma the_data_same g g' : same_data g g' -> the_data g' = the_data g.
Proof. intros ->. reflexivity. Qed.

Lemma update_model_ok g g' u : update_model e g = (g', Ok u) ->
  (g_newinv g = 0 /\ g' = g)
  \/ (g_newinv g <> 0 /\ exists th d, g_kernel g = Some th /\ the_data g = Ok d
      /\ g' = set_newinv 0 (set_cache (Some (mkCache d th)) g)).
Proof.
  unfold update_model. intros H. repeat inv1 H.
  destruct (Nat.ltb_spec (g_newinv g) 1).
  - inv1 H. left. split; [lia|]. auto.
  - right. split; [lia|]. destruct (g_kernel g) as [th|] eqn:Ek; [|inv1 H].
    repeat inv1 H. destruct (cholesky e th a); inv1 H. exists th, a. auto.
Qed.

Lemma restarts_ok d draw start : forall n i g g' l,
  restarts e d draw start i n g = (g', Ok l) ->
  length l = n /\ exists k, g' = set_kernel k g.
Proof.
  induction n as [|n IH]; intros i g g' l H; simpl in H.
  - inv1 H. split; auto. exists (g_kernel g). destruct g; reflexivity.
  - inv1 H. inv1 H. assert (g0 = g) as ->.
    { destruct ((i =? 0) && start); [|inv1 I; auto]. destruct (g_kernel g); inv1 I. auto. }
    destruct (optimize e d a) as [th r] eqn:Eo. repeat inv1 H.
    match goal with K : restarts _ _ _ _ _ _ _ = _ |- _ => apply IH in K as (Hl & k & ->) end.
    split; [simpl; congruence|]. exists k. destruct g; reflexivity.
Qed.

Lemma fit_ok c kw g g' u : fit_gpr_hyperparameters e c kw g = (g', Ok u) ->
  same_data g g' /\ exists g1 th, same_data g g1 /\ g_newinv g1 = g_newinv g /\ g_cache g1 = g_cache g
    /\ g_kernel g1 = Some th
    /\ update_model e g1 = (set_fitted (g_fitted g1) g', Ok tt)
    /\ exists d, the_data g = Ok d.
Proof.
  unfold fit_gpr_hyperparameters. intros H. inv1 H.
  match type of H with (if ?b then _ else _) _ = _ => destruct b end.
  - destruct (g_kernel g) as [th|] eqn:Ek; [|inv1 H]. repeat inv1 H. destruct u.
    set (g1 := set_lml (Some (lml e a th)) g) in *.
    assert (same_data g g1) as S1 by (destruct g; reflexivity).
    assert (same_data g1 g') as S2.
    { apply update_model_ok in H as [[_ ->]|[_ (t & d & _ & _ & ->)]]; [apply same_data_refl|].
      destruct g1; reflexivity. }
    split; [eapply same_data_trans; eauto|]. exists g1, th. repeat split; eauto.
    rewrite H. f_equal. apply update_model_ok in H as [[_ ->]|[_ (t & d & _ & _ & ->)]]; destruct g1; reflexivity.
  - inv1 H. match type of H with (if ?b then _ else _) _ = _ => destruct b end; [inv1 H|].
    repeat inv1 H. destruct (nth_error a1 a2) as [[th v]|] eqn:En; [|inv1 H].
    apply restarts_ok in I0 as (Hl & k & ->). inv1 H. inv1 H. apply seq_ok in H as ([] & g4 & K & H).
    apply modify_ok in H. subst g'.
    match type of K with update_model e ?x = _ => set (g1 := x) in * end.
    assert (same_data g g1) as S1 by (destruct g; reflexivity).
    assert (same_data g1 g4) as S2.
    { apply update_model_ok in K as [[_ ->]|[_ (t & d & _ & _ & ->)]]; [apply same_data_refl|].
      destruct g1; reflexivity. }
    split.
    + eapply same_data_trans; [exact S1|]. eapply same_data_trans; [exact S2|]. destruct g4; reflexivity.
    + exists g1, th. repeat split; eauto.
      rewrite K. f_equal. apply update_model_ok in K as [[_ ->]|[_ (t & d & _ & _ & ->)]]; destruct g; reflexivity.
Qed.

(** What a call that returns did. *)
Definition args_are (a : append_args pt theta) (X : list pt) (y : list num) (force : bool) : Prop :=
  (a_X a = Some X /\ a_y a = Some y /\ force = false)
  \/ (a_X a = None /\ a_y a = None /\ a_noise a = NoNoise /\ X = [] /\ y = []
      /\ force = match kwargs (a_default a) (a_fit a) with Some _ => true | None => false end).
Definition refits (a : append_args pt theta) : bool :=
  a_classifier a || match kwargs (a_default a) (a_fit a) with Some _ => true | None => false end.
Definition new_finite (c : config theta) (y : list num) (finite : list bool) : nat :=
  count_true (if c_classifier c then py_last (length y) finite else repeat true (length y)).

Definition appended (c : config theta) (a : append_args pt theta) (g g' : gpr) : Prop :=
  exists X y force nv nz finite thr Xf pX pY Xall_ yall_ noise_ s,
    let Xall := g_Xall g ++ X in
    let yall := g_yall g ++ y in
    let yf := mask finite yall in
    let nfin := new_finite c y finite in
    let g1 := mkGpr pX pY nz Xall yall (Some noise_) s (length y) nfin (g_newinv g)
                (g_X g) (g_y g) (g_X_ g) (g_y_ g) (g_alpha g) (g_kernel g) (g_cache g) (g_lml g)
                (g_fitted g) (g_trust g) in
    args_are a X y force
    /\ a_fit a <> FBad
    /\ validate_noise_level (g_noise g) (a_noise a) (length y) = Ok nv
    /\ dim_ok e X = true
    /\ update_noise_level (g_noise g) nv (length yall) = Ok nz
    /\ classify c yall = Ok (finite, thr)
    /\ (if c_classifier c then masked finite Xall = Ok Xf else Xf = Xall)
    /\ (if refits a then fitX e (g_pX g) Xf yf = Ok pX /\ fitY e (g_pY g) Xf yf = Ok pY
        else pX = g_pX g /\ pY = g_pY g)
    /\ trX e pX Xall = Ok Xall_
    /\ trY e pY yall = Ok yall_
    /\ scaleY e pY (noise_array nz (length yall_)) = Ok noise_
    /\ (if c_classifier c && refits a
        then exists thr_, scaleY1 e pY thr = Ok thr_
             /\ svm_fit (svc_train e) (g_svm g) Xall_ yall_ thr_ = (s, Ok finite)
        else s = g_svm g)
    /\ ((nfin = 0 /\ force = false /\ g' = g1)
        \/ ((nfin <> 0 \/ force = true) /\ exists X_ y_ al g3 b,
             trX e pX Xf = Ok X_ /\ trY e pY yf = Ok y_ /\ masked finite noise_ = Ok al
             /\ match kwargs (a_default a) (a_fit a) with
                | Some k => fit_gpr_hyperparameters e c k
                | None => update_model e
                end (set_newinv nfin (set_alpha (Some (map (fun v => nmul v v) al))
                      (set_y_ (Some y_) (set_X_ (Some X_) (set_train Xf yf g1))))) = (g3, Ok tt)
             /\ trust_region e (g_X g3) (g_y g3) = Ok b
             /\ g' = match b with Some _ => set_trust b g3 | None => g3 end)).

Lemma bool_list_eqb_eq : forall a b, bool_list_eqb a b = true -> a = b.
Proof.
  unfold bool_list_eqb. induction a as [|x a IH]; intros [|y b] H; simpl in *; auto; try discriminate.
  apply andb_true_iff in H as [H1 H2]. apply andb_true_iff in H2 as [H2 H3].
  apply Bool.eqb_prop in H2 as ->. f_equal. apply IH. rewrite H1, H3. auto.
Qed.

Lemma append_inv c a g g' : append_to_data e c a g = (g', Ok tt) -> appended c a g g'.
Proof.
  intros H. assert (a_fit a <> FBad) as Hb.
  { intros E. unfold append_to_data in H. rewrite E in H. apply raise_ok in H. destruct H. }
  assert (append_body e c a (kwargs (a_default a) (a_fit a)) g = (g', Ok tt)) as H'.
  { unfold append_to_data in H. destruct (a_fit a); auto. apply raise_ok in H. destruct H. }
  clear H. rename H' into H. unfold append_body, appended, refits in *.
  set (kw := kwargs (a_default a) (a_fit a)) in *.
  apply seq_ok in H as ([[X y] force] & g0 & Ia & H).
  assert (g0 = g /\ args_are a X y force) as [-> Ha].
  { unfold args_are. fold kw. destruct (a_X a), (a_y a).
    2, 3: apply raise_ok in Ia; destruct Ia.
    - apply ret_ok in Ia as [-> Ia]. injection Ia as -> -> ->. auto.
    - destruct (a_noise a).
      2, 3, 4: apply raise_ok in Ia; destruct Ia.
      apply ret_ok in Ia as [-> Ia]. injection Ia as -> -> ->. split; [auto|]. right. auto 10. }
  clear Ia; cbv beta iota in H. set (rf := a_classifier a || _) in *.
  apply seq_ok in H as (? & g0 & Ig & H). apply get_ok in Ig as [-> ->].
  apply seq_ok in H as (nv & g0 & Iv & H). apply lift_ok in Iv as [-> Iv].
  apply seq_ok in H as (? & g0 & Im & H). apply modify_ok in Im as ->.
  assert (dim_ok e X = true) as Hd by (destruct (dim_ok e X); [reflexivity|discriminate H]).
  rewrite Hd in H. cbn [negb] in H.
  apply seq_ok in H as (? & g0 & Im & H). apply modify_ok in Im as ->.
  apply seq_ok in H as (? & g0 & Ig & H). apply get_ok in Ig as [-> ->].
  apply seq_ok in H as (nz & g0 & In & H). apply lift_ok in In as [-> In].
  apply seq_ok in H as (? & g0 & Im & H). apply modify_ok in Im as ->.
  apply seq_ok in H as ([finite thr] & g0 & Ic & H). apply lift_ok in Ic as [-> Ic].
  cbn [g_noise g_yall g_Xall set_all set_nlast] in In, Ic, H.
  apply seq_ok in H as (Xf & g0 & Ix & H).
  match type of Ix with _ ?z = _ => assert (g0 = z /\ if c_classifier c then masked finite (g_Xall g ++ X) = Ok Xf else Xf = g_Xall g ++ X) as [-> HX] end.
  { destruct (c_classifier c); [apply lift_ok in Ix as [-> Ix]|apply ret_ok in Ix as [-> ->]]; auto. }
  clear Ix.
  apply seq_ok in H as (? & g0 & Ip & H).
  match type of Ip with _ ?z = _ => assert (exists pX pY, g0 = set_pX pX (set_pY pY z) /\
    if rf then fitX e (g_pX g) Xf (mask finite (g_yall g ++ y)) = Ok pX
               /\ fitY e (g_pY g) Xf (mask finite (g_yall g ++ y)) = Ok pY
    else pX = g_pX g /\ pY = g_pY g) as (pX & pY & -> & HP) end.
  { destruct rf.
    - apply seq_ok in Ip as (? & g1 & Ig & Ip). apply get_ok in Ig as [-> ->].
      apply seq_ok in Ip as (pX & g1 & I1 & Ip). apply lift_ok in I1 as [-> I1].
      apply seq_ok in Ip as (? & g1 & Im & Ip). apply modify_ok in Im as ->.
      apply seq_ok in Ip as (pY & g1 & I2 & Ip). apply lift_ok in I2 as [-> I2].
      apply modify_ok in Ip as ->. exists pX, pY. auto.
    - apply ret_ok in Ip as [-> _]. exists (g_pX g), (g_pY g). split; [destruct g; reflexivity|auto]. }
  clear Ip.
  apply seq_ok in H as (? & g0 & Ig & H). apply get_ok in Ig as [-> ->].
  apply seq_ok in H as (Xall_ & g0 & It1 & H). apply lift_ok in It1 as [-> It1].
  apply seq_ok in H as (yall_ & g0 & It2 & H). apply lift_ok in It2 as [-> It2].
  apply seq_ok in H as (noise_ & g0 & It3 & H). apply lift_ok in It3 as [-> It3].
  apply seq_ok in H as (? & g0 & Im & H). apply modify_ok in Im as ->.
  cbn [g_noise g_yall g_Xall g_pX g_pY set_all set_nlast set_pX set_pY set_noise] in It1, It2, It3, H.
  apply seq_ok in H as (? & g0 & Is & H).
  match type of Is with _ ?z = _ => assert (exists s, g0 = set_svm s z /\
    if c_classifier c && rf
        then exists thr_, scaleY1 e pY thr = Ok thr_
             /\ svm_fit (svc_train e) (g_svm g) Xall_ yall_ thr_ = (s, Ok finite)
        else s = g_svm g) as (s & -> & HS) end.
  { destruct (c_classifier c && rf).
    - apply seq_ok in Is as (thr_ & g1 & I1 & Is). apply lift_ok in I1 as [-> I1].
      apply seq_ok in Is as (? & g1 & Ig & Is). apply get_ok in Ig as [-> ->].
      match type of Is with (let '(_, _) := ?z in _) _ = _ => destruct z as [s r] eqn:Ef end.
      apply seq_ok in Is as (? & g1 & Im & Is). apply modify_ok in Im as ->.
      apply seq_ok in Is as (l & g1 & Il & Is). apply lift_ok in Il as [-> Il].
      destruct (bool_list_eqb finite l) eqn:Eb; [|discriminate Is]. apply bool_list_eqb_eq in Eb. subst l r.
      apply ret_ok in Is as [-> _]. exists s. split; [reflexivity|]. exists thr_. auto.
    - apply ret_ok in Is as [-> _]. exists (g_svm g). split; [destruct g; reflexivity|auto]. }
  clear Is. fold (new_finite c y finite) in H.
  apply seq_ok in H as (? & g0 & Im & H). apply modify_ok in Im as ->.
  exists X, y, force, nv, nz, finite, thr, Xf, pX, pY, Xall_, yall_, noise_, s. cbv zeta.
  repeat (split; [assumption|]).
  destruct (Nat.eqb_spec (new_finite c y finite) 0) as [E0|E0], force; cbn [andb negb] in H.
  2: { apply ret_ok in H as [-> _]. left. destruct g; auto. }
  all: right; split; [auto|].
  all: apply seq_ok in H as (? & g0 & Im & H); apply modify_ok in Im as ->.
  all: apply seq_ok in H as (? & g0 & Ig & H); apply get_ok in Ig as [-> ->].
  all: apply seq_ok in H as (X_ & g0 & I1 & H); apply lift_ok in I1 as [-> I1].
  all: apply seq_ok in H as (? & g0 & Im & H); apply modify_ok in Im as ->.
  all: apply seq_ok in H as (y_ & g0 & I2 & H); apply lift_ok in I2 as [-> I2].
  all: apply seq_ok in H as (? & g0 & Im & H); apply modify_ok in Im as ->.
  all: apply seq_ok in H as (al & g0 & I3 & H); apply lift_ok in I3 as [-> I3].
  all: apply seq_ok in H as (? & g0 & Im & H); apply modify_ok in Im as ->.
  all: apply seq_ok in H as (? & g0 & Im & H); apply modify_ok in Im as ->.
  all: apply seq_ok in H as ([] & g3 & I4 & H).
  all: apply seq_ok in H as (? & g0 & Ig & H); apply get_ok in Ig as [-> ->].
  all: apply seq_ok in H as (b & g0 & I5 & H); apply lift_ok in I5 as [-> I5].
  all: apply modify_ok in H.
  all: exists X_, y_, al, g3, b; repeat split; auto.
Qed.
End Inversion.

(** Properties C21, C22: ways of appending and refitting; currency of the cached solution. *)
From Verif Require Import MGpr SGpr PSvm PGpr PGpr2 PGpr3 PGpr4 TGpr.
Set Default Goal Selector "!".

Section C21.
Context {pt pt_ PX PY model theta box : Type}.
Variable e : env pt pt_ PX PY model theta box.
Variable c : config theta.
Implicit Types g : gpr pt pt_ PX PY model theta box.

(** Fitting a preprocessor forgets what it was fitted to before. *)
Definition overwriting : Prop :=
  (forall p p' X y, fitX e p X y = fitX e p' X y) /\ (forall p p' X y, fitY e p X y = fitY e p' X y).
(** Equal in everything but the counts of the last appended points. *)
Definition same_but_counters (g g' : gpr pt pt_ PX PY model theta box) : Prop :=
  g' = set_nlast (g_nlast g') (set_nlastfin (g_nlastfin g') g).

Lemma count_true_skip n l : count_true (skipn n l) <= count_true l.
Proof.
  revert l. induction n as [|n IH]; intros [|b l]; simpl; auto. rewrite IH. unfold count_true.
  destruct b; simpl; lia.
Qed.

(** Appending with a fit, and appending without one followed by the call without points, leave the
    same object, if at least one of the new points is within the threshold. *)
Theorem C21_append_then_refit :
  forall X y na f cl cl' dflt g gA g1 gC,
    c_classifier c = true -> overwriting -> f <> FFalse ->
    append_to_data e c (mkAppend (Some X) (Some y) na f true dflt) g = (gA, Ok tt) ->
    append_to_data e c (mkAppend (Some X) (Some y) na FFalse cl dflt) g = (g1, Ok tt) ->
    append_to_data e c (mkAppend None None NoNoise f cl' dflt) g1 = (gC, Ok tt) ->
    g_nlastfin gA <> 0 -> same_but_counters gA gC.
Proof.
  intros X y na f cl cl' dflt g gA g1 gC Hc [OX OY] Hf HA H1 HC Hn.
  assert (exists kw, kwargs dflt f = Some kw) as [kw Ekw].
  { apply append_inv in HA. destruct HA as (? & ? & ? & ? & ? & ? & ? & ? & ? & ? & ? & ? & ? & ? & _ & Hb & _).
    simpl in Hb. destruct f; simpl; eauto; congruence. }
  apply append_inv in HA. destruct HA as (XA & yA & foA & nvA & nzA & fA & TA & XfA & pXA & pYA & XallA & yallA & noA & sA &
    aA & _ & vA & _ & uA & cA & mA & ppA & t1A & t2A & t3A & svA & rA).
  apply append_inv in H1. destruct H1 as (X1 & y1 & fo1 & nv1 & nz1 & f1 & T1 & Xf1 & pX1 & pY1 & Xall1 & yall1 & no1 & s1 &
    a1 & _ & v1 & _ & u1 & c1 & m1 & pp1 & t11 & t21 & t31 & sv1 & r1).
  apply append_inv in HC. destruct HC as (XC & yC & foC & nvC & nzC & fC & TC & XfC & pXC & pYC & XallC & yallC & noC & sC &
    aC & _ & vC & _ & uC & cC & mC & ppC & t1C & t2C & t3C & svC & rC).
  destruct aA as [(A1 & A2 & A3)|(A1 & _)]; [|discriminate]. simpl in A1, A2. injection A1 as <-. injection A2 as <-.
  destruct a1 as [(B1 & B2 & B3)|(B1 & _)]; [|discriminate]. simpl in B1, B2. injection B1 as <-. injection B2 as <-.
  destruct aC as [(C1 & _)|(_ & _ & _ & -> & -> & C3)]; [discriminate|]. simpl in C3. rewrite Ekw in C3.
  subst foA fo1 foC.
  assert (nv1 = nvA) as -> by (simpl in vA, v1; congruence).
  assert (nz1 = nzA) as -> by congruence.
  assert (f1 = fA /\ T1 = TA) as [-> ->] by (split; congruence).
  unfold refits in *. cbn [a_classifier a_fit a_default a_noise] in *. rewrite Ekw in *. cbn [kwargs] in *.
  rewrite ?orb_true_r, ?orb_false_r in *. rewrite Hc in *. cbn [andb orb] in *.
  assert (Xf1 = XfA) as -> by congruence.
  (* the first call of the pair updates *)
  destruct rA as [(nA & _ & ->)|(_ & X_A & y_A & alA & g3A & bA & k1A & k2A & k3A & fitA & trA & ->)].
  { contradiction. }
  assert (new_finite c y fA <> 0) as Hnf.
  { intros E. apply Hn. apply numeric_frame with (kw := Some kw) in fitA. rewrite fitA. destruct bA; exact E. }
  destruct r1 as [(E & _)|(_ & X_1 & y_1 & al1 & g31 & b1 & k11 & k21 & k31 & upd & tr1 & E1)]; [contradiction|].
  apply update_model_ok in upd as [[E _]|(_ & th1 & d1 & _ & _ & E31)]; [simpl in E; contradiction|].
  assert (g_Xall g1 = g_Xall g ++ X /\ g_yall g1 = g_yall g ++ y /\ g_noise g1 = nzA /\ g_pX g1 = pX1 /\ g_pY g1 = pY1
     /\ g_svm g1 = s1 /\ g_kernel g1 = g_kernel g /\ g_lml g1 = g_lml g /\ g_fitted g1 = g_fitted g)
    as (F1 & F2 & F3 & F4 & F5 & F6 & F7 & F8 & F9).
  { rewrite E1, E31. destruct b1; repeat split. }
  rewrite F1, F2, F3, F4, F5, F6 in *. rewrite !app_nil_r in *.
  assert (fC = fA /\ TC = TA) as [-> ->] by (split; congruence).
  assert (XfC = XfA) as -> by congruence.
  assert (nzC = nzA) as ->.
  { unfold validate_noise_level in vC. destruct nzA; [|discriminate]. injection vC as <-. simpl in uC. congruence. }
  destruct ppA as [pA1 pA2], ppC as [pC1 pC2].
  assert (pXC = pXA) as -> by (rewrite (OX pX1 (g_pX g)) in pC1; congruence).
  assert (pYC = pYA) as -> by (rewrite (OY pY1 (g_pY g)) in pC2; congruence).
  assert (XallC = XallA) as -> by congruence. assert (yallC = yallA) as -> by congruence.
  assert (noC = noA) as -> by congruence.
  destruct svA as (thA & svA1 & svA2). destruct svC as (thC & svC1 & svC2).
  assert (thC = thA) as -> by congruence.
  assert (sC = sA) as ->.
  { destruct cl.
    - destruct pp1 as [q1 q2]. assert (pX1 = pXA) as -> by congruence. assert (pY1 = pYA) as -> by congruence.
      destruct sv1 as (th & w1 & w2). assert (th = thA) as -> by congruence.
      assert (Xall1 = XallA) as -> by congruence. assert (yall1 = yallA) as -> by congruence.
      assert (s1 = sA) as -> by congruence. apply svm_fit_again in svA2. congruence.
    - subst s1. congruence. }
  destruct rC as [(_ & E & _)|(_ & X_C & y_C & alC & g3C & bC & l1 & l2 & l3 & fitC & trC & ->)]; [discriminate|].
  assert (X_C = X_A) as -> by congruence. assert (y_C = y_A) as -> by congruence. assert (alC = alA) as -> by congruence.
  assert (new_finite c [] fA <> 0) as HnC.
  { unfold new_finite in *. rewrite Hc in *. simpl. unfold py_last in Hnf.
    destruct (length y =? 0); auto. pose proof (count_true_skip (length fA - length y) fA). simpl. unfold py_last. simpl. lia. }
  match type of fitA with fit_gpr_hyperparameters e c kw ?z = _ => set (SA := z) in * end.
  match type of fitC with fit_gpr_hyperparameters e c kw ?z = _ => set (SC := z) in * end.
  assert (SC = other 0 (new_finite c [] fA) (new_finite c [] fA) (g_cache g1) (g_trust g1) SA) as ES.
  { unfold SC, SA, other. cbn. rewrite F7, F8, F9. reflexivity. }
  rewrite ES in fitC. rewrite (fit_other e c kw _ _ _ _ _ SA g3A) in fitC; auto.
  injection fitC as <-.
  assert (bC = bA) as -> by (cbn in trC; congruence).
  assert (g_newinv g3A = 0) as Z.
  { apply fit_ok in fitA as (_ & g9 & th9 & S9 & N9 & _ & K9 & U9 & _).
    apply update_model_ok in U9 as [[Z _]|(_ & t9 & d9 & _ & _ & Z)].
    - rewrite N9 in Z. exfalso. apply Hnf. exact Z.
    - apply (f_equal (@g_newinv _ _ _ _ _ _ _)) in Z. exact Z. }
  unfold same_but_counters. destruct bA as [bx|].
  - unfold other. destruct g3A. cbn in *. subst. reflexivity.
  - assert (g_trust g1 = g_trust g3A) as Etr.
    { assert (b1 = None) as ->.
      { assert (g_X g31 = g_X g3A /\ g_y g31 = g_y g3A) as [G1 G2]; [|congruence].
        apply numeric_frame with (kw := Some kw) in fitA. rewrite fitA, E31. split; reflexivity. }
      rewrite E1, E31. apply numeric_frame with (kw := Some kw) in fitA. rewrite fitA. reflexivity. }
    unfold other. destruct g3A. cbn in *. subst. reflexivity.
Qed.
End C21.
Print Assumptions C21_append_then_refit.

Definition cache_theta {pt pt_ PX PY model theta box} (g : gpr pt pt_ PX PY model theta box) : option theta :=
  match g_cache g with Some k => Some (k_theta k) | None => None end.
Definition add2 (f : fit_arg nat) := add [2; 3]%Z [nz 1; NInf] f true.
Definition first := OAppend (add [1]%Z [nz 0] FTrue true).
Example C21_example :
  exists g0 gA g1 gC, do_all demo (demo_c true 1) [first] demo_new = (g0, Ok tt)
    /\ append_to_data demo (demo_c true 1) (add2 FTrue) g0 = (gA, Ok tt)
    /\ append_to_data demo (demo_c true 1) (add2 FFalse) g0 = (g1, Ok tt)
    /\ append_to_data demo (demo_c true 1) refit g1 = (gC, Ok tt)
    /\ overwriting demo /\ g_nlastfin gA = 1 /\ g_X gC = [1; 2]%Z /\ cache_theta gC = Some 2.
Proof.
  do 4 eexists. repeat (split; [vm_compute; reflexivity|]).
  split; [split; intros [] [] ? ?; reflexivity|]. vm_compute. auto.
Qed.
(** False for the second documented way: after [fit_gpr_hyperparameters] the hyperparameters are new
    but the cached solution is that of the old ones. *)
Theorem C21_fit_hyperparameters_refuted :
  exists gA gB, runs demo (demo_c true 1) demo_new [first; OAppend (add2 FTrue)] gA
    /\ runs demo (demo_c true 1) demo_new [first; OAppend (add2 FFalse); OFit demo_kw] gB
    /\ g_kernel gA = Some 2 /\ cache_theta gA = Some 2 /\ g_kernel gB = Some 2 /\ cache_theta gB = Some 1.
Proof.
  do 2 eexists. split; [apply do_all_runs; vm_compute; reflexivity|].
  split; [apply do_all_runs; vm_compute; reflexivity|]. vm_compute. auto.
Qed.
(** False for the third one without a classifier. *)
Theorem C21_no_classifier_refuted :
  exists gA gC, runs demo (demo_c false 1) demo_new [first; OAppend (add [2]%Z [nz 1] FTrue true)] gA
    /\ runs demo (demo_c false 1) demo_new [first; OAppend (add [2]%Z [nz 1] FFalse true); OAppend refit] gC
    /\ g_kernel gA = Some 2 /\ cache_theta gA = Some 2 /\ g_kernel gC = Some 2 /\ cache_theta gC = Some 1.
Proof.
  do 2 eexists. split; [apply do_all_runs; vm_compute; reflexivity|].
  split; [apply do_all_runs; vm_compute; reflexivity|]. vm_compute. auto.
Qed.
(** False if none of the new points is within the threshold: the first way does not fit at all. *)
Definition demo2 : env Z Z unit unit unit nat unit :=
  mkEnv (fun p _ _ => Ok p) (fun _ X => Ok X) (fun p _ _ => Ok p) (fun _ y => Ok y)
    (fun _ y => Ok y) (fun _ v => Ok v) (fun _ _ => Ok tt) (fun _ _ => true)
    (fun d th => nz 0) (fun d th => (S th, Ok (nz 0))) (fun _ _ => Ok None) (fun _ => true).
Theorem C21_no_new_finite_refuted :
  exists gA gC, runs demo2 (demo_c true 1) demo_new [first; OAppend (add [2]%Z [NInf] FTrue true)] gA
    /\ runs demo2 (demo_c true 1) demo_new [first; OAppend (add [2]%Z [NInf] FFalse true); OAppend refit] gC
    /\ g_kernel gA = Some 1 /\ g_kernel gC = Some 2.
Proof.
  do 2 eexists. split; [apply do_all_runs; vm_compute; reflexivity|].
  split; [apply do_all_runs; vm_compute; reflexivity|]. vm_compute. auto.
Qed.
(** And the third way is always rejected when noise levels are per point. *)
Theorem C21_individual_noise_refuted :
  forall {pt pt_ PX PY model theta box} (e : env pt pt_ PX PY model theta box) c f cl dflt
         (g : gpr pt pt_ PX PY model theta box) l,
    g_noise g = PerPoint l ->
    append_to_data e c (mkAppend None None NoNoise f cl dflt) g = (g, Err ValueError).
Proof.
  intros pt pt_ PX PY model theta box e c f cl dflt g l H.
  destruct f; try reflexivity; unfold append_to_data, append_body, seq_, get, lift, ret, raise;
    cbn [a_fit a_X a_y a_noise kwargs a_default]; cbv beta iota;
    unfold validate_noise_level; rewrite H; reflexivity.
Qed.
Print Assumptions C21_fit_hyperparameters_refuted.
Print Assumptions C21_no_classifier_refuted.
Print Assumptions C21_no_new_finite_refuted.
Print Assumptions C21_individual_noise_refuted.

(** ** C22 *)
Section C22.
Context {pt pt_ PX PY model theta box : Type}.
Variable e : env pt pt_ PX PY model theta box.
Variable c : config theta.
Implicit Types g : gpr pt pt_ PX PY model theta box.

(** The cached solution was computed from the current GP training set, transformed by the current
    preprocessors, and the current hyperparameters. *)
Definition current g : Prop :=
  exists d th X_ y_, g_cache g = Some (mkCache d th) /\ g_kernel g = Some th
    /\ trX e (g_pX g) (g_X g) = Ok X_ /\ trY e (g_pY g) (g_y g) = Ok y_
    /\ d_X d = X_ /\ d_y d = y_ /\ g_alpha g = Some (d_alpha d).
Definition appends_only (ops : list (op pt theta)) : Prop := forall kw, ~ In (OFit kw) ops.
Definition always_refits (ops : list (op pt theta)) : Prop :=
  forall a, In (OAppend a) ops -> a_classifier a = true \/ a_fit a <> FFalse.

Definition fresh g : Prop :=
  g_X g = [] \/ (current g /\ exists p p', fitX e p (g_X g) (g_y g) = Ok (g_pX g) /\ fitY e p' (g_X g) (g_y g) = Ok (g_pY g)).

Lemma the_data_upd ca g : the_data (set_newinv 0 (set_cache ca g)) = the_data g.
Proof. reflexivity. Qed.
Lemma kernel_upd ca g : g_kernel g = g_kernel (set_newinv 0 (set_cache ca g)).
Proof. reflexivity. Qed.
Lemma fresh_step a g g' : c_classifier c = true -> overwriting e -> refits a = true ->
  agrees c g' -> fresh g -> append_to_data e c a g = (g', Ok tt) -> fresh g'.
Proof.
  intros Hc [OX OY] Hr Hag Hfr H. apply append_inv in H.
  destruct H as (X & y & fo & nv & nz & f & T & Xf & pX & pY & Xall & yall & no & s &
    ar & _ & v & _ & u & cl & m & pp & t1 & t2 & t3 & sv & r).
  rewrite Hc, Hr in *. destruct pp as [pp1 pp2]. simpl in sv.
  destruct r as [(n0 & _ & E)|(Hn & X_ & y_ & al & g3 & b & k1 & k2 & k3 & fitA & tr & E)].
  - subst g'. destruct Hag as [(A1 & A2 & A3 & A4)|(f' & T' & A1 & A2 & A3)]; [left; exact A3|].
    simpl in A1, A2, A3. assert (f' = f) as -> by congruence.
    assert (Xf = g_X g) as -> by congruence. rewrite <- A3 in *.
    destruct Hfr as [Hfr|(Hcur & p & p' & q1 & q2)]; [left; exact Hfr|right].
    assert (pX = g_pX g) as -> by (rewrite (OX (g_pX g) p) in pp1; congruence).
    assert (pY = g_pY g) as -> by (rewrite (OY (g_pY g) p') in pp2; congruence).
    split; [exact Hcur|]. exists p, p'. auto.
  - assert (same_data (set_newinv (new_finite c y f)
             (set_alpha (Some (map (fun v : num => nmul v v) al))
                (set_y_ (Some y_)
                   (set_X_ (Some X_)
                      (set_train Xf (mask f (g_yall g ++ y))
                         (mkGpr pX pY nz (g_Xall g ++ X) (g_yall g ++ y) (Some no) s (length y) (new_finite c y f)
                            (g_newinv g) (g_X g) (g_y g) (g_X_ g) (g_y_ g) (g_alpha g) (g_kernel g) (g_cache g)
                            (g_lml g) (g_fitted g) (g_trust g))))))) g3) as SD by (eapply numeric_frame; eauto).
    destruct (Nat.eq_dec (new_finite c y f) 0) as [Z|Z].
    + left. destruct Hn as [Hn|Hn]; [contradiction|]. subst fo.
      destruct ar as [(_ & _ & E2)|(_ & _ & _ & -> & -> & _)]; [discriminate|].
      assert (g_X g' = Xf) as ->.
      { subst g'. rewrite SD. destruct b; reflexivity. }
      apply masked_ok in m as [_ ->]. unfold new_finite in Z. rewrite Hc in Z. unfold py_last in Z. simpl in Z.
      apply PGpr3.count_true_zero in Z. rewrite Z. clear. generalize (length f) as n.
      intros n. revert n. induction (g_Xall g ++ []) as [|x l IH]; intros [|n]; simpl; auto.
    + right. split.
      2: { exists (g_pX g), (g_pY g). subst g'. rewrite SD. destruct b; split; assumption. }
      assert (exists d th, g_cache g3 = Some (mkCache d th) /\ g_kernel g3 = Some th
        /\ the_data g3 = Ok d) as (d & th & C1 & C2 & C3).
      { destruct (kwargs (a_default a) (a_fit a)) as [kw|].
        - apply fit_ok in fitA as (S1 & g9 & th9 & S9 & N9 & _ & K9 & U9 & _).
          apply update_model_ok in U9 as [[Z9 _]|(_ & t9 & d9 & Q1 & Q2 & Q3)].
          + exfalso. rewrite N9 in Z9. apply Z. exact Z9.
          + exists d9, t9.
            assert (g_cache g3 = Some (mkCache d9 t9)) as R1 by (apply (f_equal (@g_cache _ _ _ _ _ _ _)) in Q3; exact Q3).
            assert (g_kernel g3 = g_kernel g9) as R2 by (apply (f_equal (@g_kernel _ _ _ _ _ _ _)) in Q3; exact Q3).
            rewrite R1, R2. repeat split; auto. rewrite (the_data_same _ _ S1), <- (the_data_same _ _ S9). exact Q2.
        - apply update_model_ok in fitA as [[Z9 _]|(_ & t9 & d9 & Q1 & Q2 & ->)]; [exfalso; apply Z; exact Z9|].
          exists d9, t9. split; [reflexivity|]. split; [rewrite <- Q1; symmetry; apply kernel_upd|rewrite the_data_upd; exact Q2]. }
      exists d, th, X_, y_.
      assert (g_cache g' = g_cache g3 /\ g_kernel g' = g_kernel g3 /\ g_pX g' = pX /\ g_pY g' = pY /\ g_X g' = Xf
        /\ g_y g' = mask f (g_yall g ++ y) /\ g_alpha g' = g_alpha g3) as (-> & -> & -> & -> & -> & -> & ->).
      { clear - E SD. split; [|split; [|split; [|split; [|split; [|split]]]]].
        1, 2, 7: subst g'; destruct b; reflexivity.
        all: subst g'; rewrite SD; destruct b; reflexivity. }
      rewrite SD in C3. unfold the_data in C3. cbn in C3.
      match type of C3 with (if ?q then _ else _) = _ => destruct q end; [|discriminate]. injection C3 as <-.
      repeat split; auto. rewrite SD. reflexivity.
Qed.

(** After any history of appends that refit the preprocessors and the classifier (the default), from a
    new regressor with an infinities classifier, the cached solution is current. *)
Theorem C22_appends :
  forall ops pX pY n g, c_classifier c = true -> nleb (nz 0) (c_diff c) = true -> overwriting e ->
    appends_only ops -> always_refits ops ->
    runs e c (new_gpr pX pY n) ops g -> ordinary (g_yall g) -> g_X g <> [] -> current g.
Proof.
  intros ops pX pY n g Hc Hd Ho Ha Hr R Hord Hne.
  enough (fresh g) as [F|[F _]]; [contradiction|auto|].
  remember (new_gpr pX pY n) as g0 eqn:E0.
  assert (fresh g0) as Hf by (subst; left; reflexivity).
  assert (agrees c g0) as Hag by (subst; left; repeat split; auto). clear E0 Hne.
  revert Hf Hag. induction R as [g|g o g1 os g2 Hs R IH]; auto. intros Hf Hag.
  assert (ordinary (g_yall g1)) as Hord1.
  { apply runs_log in R as [_ R]. intros v Hv. apply Hord. rewrite R. apply in_or_app. auto. }
  assert (agrees c g1) as Hag1 by (eapply agrees_step; eauto).
  apply IH; auto.
  - intros kw Hin. apply (Ha kw). simpl. auto.
  - intros a Hin. apply Hr. simpl. auto.
  - destruct o as [a|kw]; [|exfalso; apply (Ha kw); simpl; auto].
    simpl in Hs. eapply fresh_step; eauto. unfold refits.
    destruct (Hr a) as [->|E]; [simpl; auto|auto|].
    assert (a_fit a <> FBad) as Hb.
    { apply append_inv in Hs. destruct Hs as (? & ? & ? & ? & ? & ? & ? & ? & ? & ? & ? & ? & ? & ? & _ & Hb & _). auto. }
    destruct (a_fit a); simpl; rewrite ?orb_true_r; congruence.
Qed.
End C22.
Print Assumptions C22_appends.

Example C22_example :
  exists g, runs demo (demo_c true 1) demo_new [first; OAppend (add2 FFalse); OAppend (add [4]%Z [NInf] FTrue true)] g
    /\ g_X g = [1; 2]%Z /\ g_kernel g = Some 1 /\ cache_theta g = Some 1.
Proof. eexists. split; [apply do_all_runs; vm_compute; reflexivity|]. vm_compute. auto. Qed.

(** False after [fit_gpr_hyperparameters]: the hyperparameters change and the solution does not. *)
Theorem C22_fit_hyperparameters_refuted :
  exists g, runs demo2 (demo_c true 1) demo_new [first; OFit demo_kw] g
    /\ g_kernel g = Some 2 /\ cache_theta g = Some 1 /\ ~ current demo2 g.
Proof.
  eexists. split; [apply do_all_runs; vm_compute; reflexivity|]. split; [reflexivity|]. split; [reflexivity|].
  intros (d & th & X_ & y_ & H1 & H2 & _). vm_compute in H1, H2. congruence.
Qed.
(** False without a classifier after a call that refits without new points. *)
Theorem C22_no_classifier_refuted :
  exists g, runs demo2 (demo_c false 1) demo_new [first; OAppend refit] g
    /\ g_kernel g = Some 2 /\ cache_theta g = Some 1 /\ ~ current demo2 g.
Proof.
  eexists. split; [apply do_all_runs; vm_compute; reflexivity|]. split; [reflexivity|]. split; [reflexivity|].
  intros (d & th & X_ & y_ & H1 & H2 & _). vm_compute in H1, H2. congruence.
Qed.
(** False when appends without and with refits are mixed: the preprocessors are refitted although the
    new points are all infinite and the GP data are not transformed again. Here the preprocessor
    subtracts the number of points it was fitted to. *)
Definition demo3 : env Z Z Z unit unit nat unit :=
  mkEnv (fun _ X _ => Ok (Z.of_nat (length X))) (fun p X => Ok (map (fun x => (x - p)%Z) X)) (fun p _ _ => Ok p) (fun _ y => Ok y)
    (fun _ y => Ok y) (fun _ v => Ok v) (fun _ _ => Ok tt) (fun _ _ => true)
    (fun d th => nz 0) (fun d th => (S th, Ok (nz 0))) (fun _ _ => Ok None) (fun _ => true).
Theorem C22_preprocessor_refuted :
  exists g, runs demo3 (demo_c true 1) (new_gpr 0%Z tt (Scalar (nq 1 100)))
      [first; OAppend (add [2]%Z [nz 1] FFalse false); OAppend (add [3]%Z [NInf] FFalse true)] g
    /\ overwriting demo3 /\ g_X g = [1; 2]%Z /\ g_X_ g = Some [0; 1]%Z
    /\ trX demo3 (g_pX g) (g_X g) = Ok [-1; 0]%Z /\ ~ current demo3 g.
Proof.
  eexists. split; [apply do_all_runs; vm_compute; reflexivity|].
  split; [split; intros; [reflexivity|destruct p, p'; reflexivity]|].
  split; [reflexivity|]. split; [reflexivity|]. split; [reflexivity|].
  intros (d & th & X_ & y_ & H1 & _ & H3 & _ & H5 & _). vm_compute in H1, H3.
  injection H1 as <- <-. injection H3 as <-. vm_compute in H5. congruence.
Qed.
(** The variances are not updated when a new single noise level comes with infinite points. *)
Theorem C22_noise_refuted :
  exists g, runs demo (demo_c true 1) demo_new
      [first; OAppend (add_noise [2]%Z [NInf] (NNum (nz 3)) FTrue)] g
    /\ g_noise g = Scalar (nz 3) /\ exists al, g_alpha g = Some [al] /\ nltb al (nz 1) = true.
Proof.
  eexists. split; [apply do_all_runs; vm_compute; reflexivity|]. split; [reflexivity|].
  eexists. split; [reflexivity|]. vm_compute. reflexivity.
Qed.
Print Assumptions C22_fit_hyperparameters_refuted.
Print Assumptions C22_no_classifier_refuted.
Print Assumptions C22_preprocessor_refuted.
Print Assumptions C22_noise_refuted.

(** Properties C19, C20, C26: rejected calls, noise levels, last appended points. *)
From Verif Require Import MGpr SGpr PSvm PGpr PGpr2 PGpr3 TGpr.
Set Default Goal Selector "!".

Section C19.
Context {pt pt_ PX PY model theta box : Type}.
Variable e : env pt pt_ PX PY model theta box.
Variable c : config theta.
Implicit Types g : gpr pt pt_ PX PY model theta box.

(** ** C19. Calls that are invalid by themselves: flags, only one of X and y, noise without points,
    noise of the wrong kind or length, no noise although the points have individual ones. *)
Inductive invalid (cur : noise) (a : append_args pt theta) : Prop :=
| bad_flag : a_fit a = FBad -> invalid cur a
| only_X X : a_X a = Some X -> a_y a = None -> invalid cur a
| only_y y : a_X a = None -> a_y a = Some y -> invalid cur a
| noise_without_points : a_X a = None -> a_y a = None -> a_noise a <> NoNoise -> invalid cur a
| noise_for_none X : a_X a = Some X -> a_y a = Some [] -> a_noise a <> NoNoise -> invalid cur a
| noise_kind X y : a_X a = Some X -> a_y a = Some y -> a_noise a = NBad -> invalid cur a
| noise_length X y v : a_X a = Some X -> a_y a = Some y -> a_noise a = NArr v -> length v <> length y -> invalid cur a
| noise_missing l : a_noise a = NoNoise -> cur = PerPoint l -> invalid cur a.

Theorem C19_rejected_unchanged :
  forall a g, invalid (g_noise g) a -> append_to_data e c a g = (g, Err ValueError).
Proof.
  intros a g H.
  assert (a_fit a = FBad \/ (a_fit a <> FBad
      /\ append_to_data e c a g = append_body e c a (kwargs (a_default a) (a_fit a)) g)) as [E|[Hb E]].
  { unfold append_to_data. destruct (a_fit a); auto; right; split; auto; discriminate. }
  { unfold append_to_data. rewrite E. reflexivity. }
  rewrite E. clear E. unfold append_body, seq_, get, lift, validate_noise_level, ret, raise.
  destruct H as [E|X' E1 E2|y' E1 E2|E1 E2 E3|X' E1 E2 E3|X' y' E1 E2 E3|X' y' v E1 E2 E3 E4|l E1 E2].
  - contradiction.
  - rewrite E1, E2. reflexivity.
  - rewrite E1, E2. reflexivity.
  - rewrite E1, E2. destruct (a_noise a); congruence.
  - rewrite E1, E2. destruct (a_noise a); try congruence; reflexivity.
  - rewrite E1, E2, E3. destruct (length y' =? 0); reflexivity.
  - rewrite E1, E2, E3. destruct (length y' =? 0); [reflexivity|].
    destruct (Nat.eqb_spec (length v) (length y')); [contradiction|reflexivity].
  - destruct (a_X a), (a_y a); try reflexivity; rewrite E1; cbv beta iota; rewrite E2; reflexivity.
Qed.

(** Points of the wrong dimension: only the count of the last appended points changes. *)
Theorem C19_wrong_dimension :
  forall a g X y nv, a_fit a <> FBad -> a_X a = Some X -> a_y a = Some y ->
    validate_noise_level (g_noise g) (a_noise a) (length y) = Ok nv -> dim_ok e X = false ->
    append_to_data e c a g = (set_nlast (length y) g, Err ValueError).
Proof.
  intros a g X y nv Hf HX Hy Hv Hd.
  assert (append_to_data e c a g = append_body e c a (kwargs (a_default a) (a_fit a)) g) as ->.
  { unfold append_to_data. destruct (a_fit a); auto. contradiction. }
  unfold append_body, seq_, get, lift, ret, raise, modify. rewrite HX, Hy, Hv, Hd. reflexivity.
Qed.

(** False for points and values of different lengths: the call raises (or, without a classifier, may even
    return) after both have been stored, and the object is broken for good: no later call that appends
    as many points as values returns. *)
Theorem C19_mismatch_refuted :
  forall a g g', c_classifier c = true -> length (g_Xall g) <> length (g_yall g) ->
    length (batch_X (OAppend a)) = length (batch_y (OAppend a)) ->
    append_to_data e c a g <> (g', Ok tt).
Proof.
  intros a g g' Hc Hne Hl H. apply append_sets in H as (f & T & Xf & _ & _ & _ & Hcl & HX & _).
  rewrite Hc in HX. apply masked_ok in HX as [HX _]. apply classify_length in Hcl.
  rewrite HX, !app_length in Hcl. lia.
Qed.
End C19.
Print Assumptions C19_rejected_unchanged.
Print Assumptions C19_wrong_dimension.
Print Assumptions C19_mismatch_refuted.

Example C19_example :
  exists g, runs demo (demo_c true 1) demo_new [OAppend (add [1]%Z [nz 0] FTrue true)] g
    /\ append_to_data demo (demo_c true 1) (add_noise [2; 3]%Z [nz 1; nz 1] (NArr [nz 1]) FTrue) g = (g, Err ValueError).
Proof.
  eexists. split; [apply do_all_runs; vm_compute; reflexivity|]. apply C19_rejected_unchanged.
  eapply noise_length; try reflexivity. simpl. lia.
Qed.
Theorem C19_mismatch_witness_refuted :
  exists g, runs demo (demo_c true 1) demo_new [OAppend (add [1]%Z [nz 0] FTrue true)] g
    /\ exists g', append_to_data demo (demo_c true 1) (add [2]%Z [nz 1; nz 2] FTrue true) g = (g', Err IndexError)
       /\ g_Xall g' = [1; 2]%Z /\ length (g_yall g') = 3.
Proof.
  eexists. split; [apply do_all_runs; vm_compute; reflexivity|]. eexists.
  split; [vm_compute; reflexivity|]. vm_compute. auto.
Qed.
Print Assumptions C19_mismatch_witness_refuted.

(** ** C20 *)
Section C20.
Context {pt pt_ PX PY model theta box : Type}.
Variable e : env pt pt_ PX PY model theta box.
Variable c : config theta.
Implicit Types g : gpr pt pt_ PX PY model theta box.

Lemma append_noise a g g' : append_to_data e c a g = (g', Ok tt) ->
  exists nv, validate_noise_level (g_noise g) (a_noise a) (length (batch_y (OAppend a))) = Ok nv
    /\ update_noise_level (g_noise g) nv (length (g_yall g')) = Ok (g_noise g').
Proof.
  intros H. apply append_inv in H. destruct H as (X & y & force & nv & nz & finite & T2 & Xf2 & qX & qY & Xall_ & yall_ & noise_ & s &
    Ha & Hf & Hv & _ & Hn & _ & _ & _ & _ & _ & _ & _ & H).
  assert (batch_y (OAppend a) = y) as ->.
  { unfold batch_y. destruct Ha as [(_ & -> & _)|(_ & -> & _ & _ & -> & _)]; auto. }
  exists nv. split; auto.
  assert (g_noise g' = nz /\ g_yall g' = g_yall g ++ y) as [-> ->]; [|auto].
  destruct H as [(_ & _ & ->)|(_ & X_ & y_ & al & g3 & b & _ & _ & _ & K & _ & ->)]; [auto|].
  apply numeric_frame in K. rewrite K. destruct b; auto.
Qed.

(** The levels given with a batch, one per point. *)
Definition levels_given (a : append_args pt theta) (l : list num) : Prop :=
  length l = length (batch_y (OAppend a))
  /\ match a_noise a with
     | NArr v => l = v
     | NNum v => forall w, In w l -> w = v
     | _ => False
     end.
(** Levels that are per point and aligned stay so: the new ones go to the end, with the new points. *)
Theorem C20_aligned :
  forall a g g' l, g_noise g = PerPoint l -> length l = length (g_yall g) ->
    append_to_data e c a g = (g', Ok tt) ->
    exists l', levels_given a l' /\ g_noise g' = PerPoint (l ++ l')
      /\ length (l ++ l') = length (g_yall g').
Proof.
  intros a g g' l Hn Hl H. pose proof H as H'. apply append_sets in H' as (f & T & Xf & _ & Hy & _).
  apply append_noise in H as (nv & Hv & Hu).
  rewrite Hn in *. unfold validate_noise_level in Hv. unfold levels_given.
  assert (exists l', nv = NArr l' /\ length l' = length (batch_y (OAppend a))
    /\ match a_noise a with NArr v => l' = v | NNum v => forall w, In w l' -> w = v | _ => False end)
    as (l' & -> & Hl' & Hg).
  { destruct (a_noise a) as [|v|v|]; [discriminate| | |];
      destruct (length (batch_y (OAppend a)) =? 0); try discriminate.
    - injection Hv as <-. eexists. split; [reflexivity|]. split; [apply repeat_length|].
      intros w Hw. apply repeat_spec in Hw. auto.
    - destruct (Nat.eqb_spec (length v) (length (batch_y (OAppend a)))); [|discriminate].
      injection Hv as <-. eauto. }
  simpl in Hu. injection Hu as Hu. exists l'. repeat split; auto.
  rewrite Hy, !app_length. lia.
Qed.
(** A single level stays a single level as long as none are given per point. *)
Theorem C20_scalar :
  forall a g g' v, g_noise g = Scalar v -> (forall l, a_noise a <> NArr l) ->
    append_to_data e c a g = (g', Ok tt) ->
    exists w, g_noise g' = Scalar w /\ (a_noise a = NoNoise -> w = v).
Proof.
  intros a g g' v Hn Ha H. apply append_noise in H as (nv & Hv & Hu). rewrite Hn in *.
  unfold validate_noise_level in Hv. destruct (a_noise a) as [|z|l|].
  - injection Hv as <-. simpl in Hu. injection Hu as <-. eauto.
  - destruct (_ =? 0); [discriminate|]. injection Hv as <-. simpl in Hu. injection Hu as <-.
    eexists. split; [reflexivity|discriminate].
  - exfalso. eapply Ha. reflexivity.
  - destruct (_ =? 0); discriminate.
Qed.
(** After an update, the variances added to the kernel matrix are one per GP training point. *)
Theorem C20_variances :
  forall a g g', append_to_data e c a g = (g', Ok tt) ->
    g_nlastfin g' <> 0 \/ (a_X a = None /\ a_fit a <> FFalse) ->
    exists al, g_alpha g' = Some al /\ length al = length (g_y g').
Proof.
  intros a g g' H Hu. pose proof H as H0. apply append_sets in H0 as (f0 & T0 & Xf0 & _ & _ & _ & _ & _ & _ & H0).
  apply append_inv in H. destruct H as (X & y & force & nv & nz & finite & T2 & Xf2 & qX & qY & Xall_ & yall_ & noise_ & s &
    Ha & Hf & Hv & _ & Hn & Hcl & _ & _ & _ & _ & _ & _ & H).
  destruct H as [(E & F & ->)|(_ & X_ & y_ & al & g3 & b & _ & _ & Hm & K & _ & ->)].
  - exfalso. simpl in *. destruct Hu as [Hu|[Hu1 Hu2]]; [contradiction|].
    destruct Ha as [(Ha & _)|(_ & _ & _ & _ & _ & Ef)]; [congruence|].
    rewrite F in Ef. destruct (a_fit a); simpl in *; congruence.
  - exists (map (fun v => nmul v v) al). apply numeric_frame in K. rewrite K.
    apply masked_ok in Hm as [Hm ->]. apply classify_length in Hcl.
    assert (length (mask finite noise_) = length (mask finite (g_yall g ++ y))) as El.
    { rewrite !mask_length; congruence. }
    destruct b; simpl; rewrite map_length; auto.
Qed.

(** False when individual levels are given while there is a single one, which is always the case at the
    first append: the old level is repeated for the new points too, before theirs are appended. If
    one of the new points is within the threshold the call raises... *)
Theorem C20_first_levels_refuted :
  forall a g g' v l, g_noise g = Scalar v -> a_noise a = NArr l ->
    (forall p y y', scaleY e p y = Ok y' -> length y' = length y) ->
    append_to_data e c a g = (g', Ok tt) ->
    g_nlastfin g' = 0 /\ exists l', g_noise g' = PerPoint l'
      /\ length l' = length (g_yall g') + length (batch_y (OAppend a)) /\ batch_y (OAppend a) <> [].
Proof.
  intros a g g' v l Hn Ha Hs H. pose proof H as H1. pose proof H as H2.
  apply append_noise in H1 as (nv & Hv & Hu). rewrite Hn, Ha in *. unfold validate_noise_level in Hv.
  destruct (Nat.eqb_spec (length (batch_y (OAppend a))) 0) as [|Hne]; [discriminate|].
  destruct (Nat.eqb_spec (length l) (length (batch_y (OAppend a)))) as [El|]; [|discriminate]. injection Hv as <-.
  simpl in Hu. injection Hu as Hu.
  assert (g_nlastfin g' = 0) as Z.
  { apply append_inv in H. destruct H as (X & y & force & nv & nz & finite & T2 & Xf2 & qX & qY & Xall_ & yall_ & noise_ & s &
      Hargs & Hf & Hv & _ & Hn2 & Hcl & _ & _ & _ & _ & Hsc & _ & H).
    destruct H as [(E & F & ->)|(_ & X_ & y_ & al & g3 & b & _ & _ & Hm & K & _ & E)]; [exact E|]. exfalso.
    apply masked_ok in Hm as [Hm _]. apply Hs in Hsc. apply classify_length in Hcl.
    assert (g_noise g' = nz /\ g_yall g' = g_yall g ++ y) as [E1 E2].
    { subst g'. apply numeric_frame in K. rewrite K. destruct b; auto. }
    rewrite E2 in Hu. rewrite <- E1, <- Hu in Hsc. simpl in Hsc. rewrite app_length, repeat_length in Hsc.
    destruct l; simpl in *; lia. }
  split; auto. exists (repeat v (length (g_yall g')) ++ l). split; [auto|]. split.
  - rewrite app_length, repeat_length. lia.
  - intros E. rewrite E in Hne. simpl in Hne. lia.
Qed.
End C20.
Print Assumptions C20_aligned.
Print Assumptions C20_scalar.
Print Assumptions C20_variances.
Print Assumptions C20_first_levels_refuted.

Example C20_example :
  exists g, runs demo (demo_c true 1) (new_gpr tt tt (PerPoint []))
      [OAppend (add_noise [1; 2]%Z [nz 0; nz 1] (NArr [nq 1 10; nq 1 5]) FTrue);
       OAppend (add_noise [3]%Z [nz 2] (NNum (nq 1 3)) FTrue)] g
    /\ exists l, g_noise g = PerPoint l /\ length l = 3.
Proof.
  eexists. split; [apply do_all_runs; vm_compute; reflexivity|]. eexists. split; [vm_compute; reflexivity|].
  reflexivity.
Qed.
(** The very first append with individual levels raises IndexError, leaving the object modified. *)
Theorem C20_first_append_refuted :
  exists g', append_to_data demo (demo_c true 1) (add_noise [1; 2]%Z [nz 0; nz 1] (NArr [nq 1 10; nq 1 5]) FTrue) demo_new
             = (g', Err IndexError)
    /\ g_Xall g' = [1; 2]%Z /\ exists l, g_noise g' = PerPoint l /\ length l = 4.
Proof.
  eexists. split; [vm_compute; reflexivity|]. split; [reflexivity|]. eexists. split; reflexivity.
Qed.
Print Assumptions C20_first_append_refuted.

(** ** C26 *)
Section C26.
Context {pt pt_ PX PY model theta box : Type}.
Variable e : env pt pt_ PX PY model theta box.
Variable c : config theta.
Implicit Types g : gpr pt pt_ PX PY model theta box.

(** Right for batches of at least one point. *)
Theorem C26_last_appended :
  forall a g g' X y, append_to_data e c a g = (g', Ok tt) ->
    a_X a = Some X -> a_y a = Some y -> length X = length y -> y <> [] ->
    last_appended c g' = (X, y).
Proof.
  intros a g g' X y H HX Hy Hl Hne.
  assert (X <> []) as Hne2 by (destruct X, y; simpl in *; congruence).
  apply append_sets in H as (f & T & Xf & H1 & H2 & H3 & Hcl & Hf & Hn & H). unfold batch_X, batch_y in *.
  rewrite HX, Hy in *. unfold last_appended, last_appended_finite. destruct (c_classifier c) eqn:Hc.
  - rewrite H1, H2, H3, py_last_app by auto. rewrite <- Hl, py_last_app by auto. reflexivity.
  - unfold classify in Hcl. rewrite Hc in Hcl. injection Hcl as <- <-. subst Xf.
    assert (g_nlastfin g' = length y) as En.
    { rewrite Hn. unfold new_finite. rewrite Hc. clear. induction (length y) as [|k IH]; [reflexivity|]. cbn. unfold count_true in IH. cbn in IH. rewrite IH. reflexivity. }
    destruct H as [(E & _)|(_ & EX & Ey)].
    + rewrite E in En. destruct y; [congruence|discriminate].
    + rewrite EX, Ey, En. rewrite mask_all_true.
      * rewrite py_last_app by auto. rewrite <- Hl, py_last_app by auto. reflexivity.
      * apply repeat_length.
      * apply forallb_forall. intros b Hb. apply repeat_spec in Hb. auto.
Qed.
(** The accepted points of the last batch, when there are some. *)
Theorem C26_last_appended_finite :
  forall a g g' X y, c_classifier c = true -> append_to_data e c a g = (g', Ok tt) ->
    a_X a = Some X -> a_y a = Some y -> length X = length y -> g_nlastfin g' <> 0 -> y <> [] ->
    exists finite T, classify c (g_yall g') = Ok (finite, T)
      /\ last_appended_finite g' = (mask (skipn (length (g_yall g)) finite) X, mask (skipn (length (g_yall g)) finite) y).
Proof.
  intros a g g' X y Hc H HX Hy Hl Hnf Hne.
  apply append_sets in H as (f & T & Xf & H1 & H2 & H3 & Hcl & Hf & Hn & H). unfold batch_X, batch_y in *.
  rewrite HX, Hy, Hc in *. exists f, T. rewrite H2. split; auto.
  destruct H as [(E & _)|(_ & EX & Ey)]; [contradiction|].
  apply masked_ok in Hf as [Hf ->]. apply classify_length in Hcl. rewrite app_length in Hcl, Hf.
  unfold new_finite in Hn. rewrite Hc in Hn. unfold last_appended_finite. rewrite EX, Ey.
  set (n := length (g_yall g)) in *. assert (length (g_Xall g) = n) as Ln by (unfold n; lia).
  assert (f = firstn n f ++ skipn n f) as Ef by (symmetry; apply firstn_skipn).
  assert (py_last (length y) f = skipn n f) as Ep.
  { unfold py_last. destruct (Nat.eqb_spec (length y) 0) as [Z|Z]; [destruct y; [congruence|discriminate]|].
    f_equal. lia. }
  rewrite Ep in Hn. rewrite Ef, mask_app, mask_app by (rewrite firstn_length; lia).
  rewrite <- Ef.
  assert (forall A (l : list A), length l = length y -> length (mask (skipn n f) l) = g_nlastfin g') as Lm.
  { intros A l Ll. rewrite Hn. apply mask_length. rewrite skipn_length. lia. }
  rewrite <- (Lm _ X) at 1 by auto. rewrite py_last_app.
  2: { intros E. apply (f_equal (@length pt)) in E. rewrite Lm in E by auto. simpl in E. lia. }
  rewrite <- (Lm _ y) by auto. rewrite py_last_app; [reflexivity|].
  intros E. apply (f_equal (@length num)) in E. rewrite Lm in E by auto. simpl in E. lia.
Qed.
End C26.
Print Assumptions C26_last_appended.
Print Assumptions C26_last_appended_finite.

Example C26_example :
  exists g, runs demo (demo_c true 1) demo_new
      [OAppend (add [1]%Z [nz 0] FTrue true); OAppend (add [2; 3]%Z [NInf; nz 7] FTrue true)] g
    /\ fst (last_appended (demo_c true 1) g) = [2; 3]%Z /\ fst (last_appended_finite g) = [3]%Z.
Proof. eexists. split; [apply do_all_runs; vm_compute; reflexivity|]. vm_compute. auto. Qed.
(** False after a call that appends no points: all points are returned. *)
Theorem C26_empty_refuted :
  exists g, runs demo (demo_c true 1) demo_new
      [OAppend (add [1; 2]%Z [nz 0; NInf] FTrue true); OAppend refit] g
    /\ g_nlast g = 0 /\ fst (last_appended (demo_c true 1) g) = [1; 2]%Z.
Proof. eexists. split; [apply do_all_runs; vm_compute; reflexivity|]. vm_compute. auto. Qed.
(** [last_appended_finite] returns the whole training set after a batch with no accepted points. *)
Theorem C26_no_finite_refuted :
  exists g, runs demo (demo_c true 1) demo_new
      [OAppend (add [1; 2]%Z [nz 0; nz 1] FTrue true); OAppend (add [3]%Z [NInf] FTrue true)] g
    /\ g_nlastfin g = 0 /\ fst (last_appended_finite g) = [1; 2]%Z.
Proof. eexists. split; [apply do_all_runs; vm_compute; reflexivity|]. vm_compute. auto. Qed.
Print Assumptions C26_empty_refuted.
Print Assumptions C26_no_finite_refuted.

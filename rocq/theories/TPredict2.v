(** Properties C70-C72: predictions before any fit, the reported threshold, gradients. *)
From Verif Require Import MPredict SGpr PSvm PGpr TGpr TPredict.
Set Default Goal Selector "!".

Section C70.
Context {pt pt_ PX PY model theta box : Type}.
Variable e : env pt pt_ PX PY model theta box.
Variable pe : penv pt pt_ PY model theta box.
Variable c : config theta.
Variable clip : num.

(** ** C70. The prior is never returned: a new regressor raises for every query. *)
Theorem C70_prior_refuted :
  forall pX pY n a X r, predict e pe c clip (new_gpr pX pY n) a X <> Ok r.
Proof.
  intros pX pY n a X r H. unfold predict in H.
  destruct (p_sgrad a && _); [discriminate|]. destruct (negb (length X =? 1) && _); [discriminate|].
  destruct (c_classifier c).
  - cbn in H. destruct (trX e pX X); discriminate.
  - cbn [bind andb] in H. destruct (masked _ X); [|discriminate]. cbn [bind] in H.
    destruct (trX e _ _); discriminate.
Qed.

(** Which error it is: that of an accepted query whose points can be transformed. With a classifier its ValueError ("not fitted"), without one a TypeError, as for any
    regressor whose hyperparameters were never set, also one that has training points, and [predict_std] does the same. *)
Theorem C70_errors :
  forall pX pY n a X X_, p_sgrad a = false -> p_mgrad a = false -> trX e pX X = Ok X_ ->
  predict e pe c clip (new_gpr pX pY n) a X = Err (if c_classifier c then ValueError else TypeError)
  /\ predict_std e pe c (new_gpr pX pY n) X = Err (if c_classifier c then ValueError else TypeError).
Proof.
  intros pX pY n a X X_ Hs Hm HX. unfold predict, predict_std. rewrite Hs, Hm. cbn [andb orb]. rewrite andb_false_r.
  destruct (c_classifier c).
  - cbn [new_gpr g_pX]. rewrite HX. cbn. split; reflexivity.
  - cbn [bind andb]. unfold masked. rewrite repeat_length, Nat.eqb_refl. cbn [bind].
    assert (forall k (l : list pt), mask (repeat true k) l = firstn k l) as E.
    { induction k as [|k IH]; intros [|x l]; cbn; auto. f_equal. apply IH. }
    rewrite E, firstn_all. cbn [new_gpr g_pX]. rewrite HX. cbn. split; reflexivity.
Qed.
Theorem C70_unfitted :
  forall g a X X_, c_classifier c = false -> g_kernel g = None -> p_sgrad a = false -> p_mgrad a = false -> trX e (g_pX g) X = Ok X_ ->
  predict e pe c clip g a X = Err TypeError /\ predict_std e pe c g X = Err TypeError.
Proof.
  intros g a X X_ Hc Hk Hs Hm HX. unfold predict, predict_std. rewrite Hs, Hm, Hc. cbn [andb orb]. rewrite andb_false_r.
  cbn [bind andb]. unfold masked. rewrite repeat_length, Nat.eqb_refl. cbn [bind].
  assert (forall k (l : list pt), mask (repeat true k) l = firstn k l) as E.
  { induction k as [|k IH]; intros [|x l]; cbn; auto. f_equal. apply IH. }
  rewrite E, firstn_all, HX. cbn [bind]. unfold cached. rewrite Hk. cbn. split; reflexivity.
Qed.

(** ** C71. A y-preprocessor that subtracts [mu] and divides by [sigma]. *)
Definition affine_y (pY : PY) (mu sigma : Qc) : Prop :=
  (forall y, trY e pY y = Ok (map (fun v => ndiv (nsub v (Fin mu)) (Fin sigma)) y))
  /\ (forall v, invscaleY pe pY v = nmul v (Fin sigma)) /\ (0 < sigma)%Qc.
(** The reported threshold is too low by [mu]. *)
Theorem C71_offset :
  forall g mu sigma T q b,
    c_classifier c = true -> affine_y (g_pY g) mu sigma ->
    (forall m, s_max (g_svm g) = Some m -> isfin m = true) ->
    (forall d, s_diff (g_svm g) = Some d -> isfin d = true) ->
    abs_finite_threshold pe c g = Ok T -> gpr_is_finite e c g [Fin q] = Ok [b] ->
    b = nleb (nadd T (Fin mu)) (Fin q).
Proof.
  intros g mu sigma T q b Hc (A1 & A2 & A3) Hm Hd HT Hb. unfold abs_finite_threshold in HT. unfold gpr_is_finite in Hb.
  rewrite Hc in *. destruct (s_max (g_svm g)) as [m|] eqn:Em; [|discriminate].
  destruct (s_diff (g_svm g)) as [d|] eqn:Ed; [|discriminate]. specialize (Hm _ eq_refl). specialize (Hd _ eq_refl).
  destruct m as [| |m|], d as [| |d|]; try discriminate. rewrite A2 in HT. injection HT as <-.
  rewrite A1 in Hb. cbn [bind map] in Hb. unfold svm_is_finite in Hb. destruct (s_data (g_svm g)); [|discriminate].
  rewrite Em, Ed in Hb. injection Hb as <-. unfold nsub. cbn [nneg nadd nmul].
  assert (~ sigma = 0%Qc) as Hs. { intros ->. revert A3. unfold Qclt. simpl. lra. }
  unfold ndiv. destruct (qeqb sigma 0) eqn:E0; [apply qeqb_eq in E0; contradiction|].
  cbn [nleb isfin]. rewrite andb_true_r.
  assert ((m + - d <= (q + - mu) / sigma)%Qc <-> ((m + - d) * sigma + mu <= q)%Qc) as Hiff.
  { assert ((q + - mu) = ((q + - mu) / sigma) * sigma)%Qc as Eq by (field; auto).
    set (t := ((q + - mu) / sigma)%Qc) in *. split; intros H.
    - assert ((m + - d) * sigma <= t * sigma)%Qc as H2 by (apply Qcmult_le_compat_r; auto; apply Qclt_le_weak; auto).
      rewrite <- Eq in H2. qc.
    - apply Qcmult_lt_0_le_reg_r with sigma; auto. rewrite <- Eq. qc. }
  destruct (qleb _ (_ / _)) eqn:E1, (qleb (_ * _ + _) q) eqn:E2; auto; exfalso.
  - apply qleb_le in E1. apply Hiff in E1. apply qleb_le in E1. congruence.
  - apply qleb_le in E2. apply Hiff in E2. apply qleb_le in E2. congruence.
Qed.
(** Right if nothing is subtracted... *)
Theorem C71_no_offset :
  forall g sigma T q b,
    c_classifier c = true -> affine_y (g_pY g) 0 sigma ->
    (forall m, s_max (g_svm g) = Some m -> isfin m = true) ->
    (forall d, s_diff (g_svm g) = Some d -> isfin d = true) ->
    abs_finite_threshold pe c g = Ok T -> gpr_is_finite e c g [Fin q] = Ok [b] ->
    b = nleb T (Fin q).
Proof.
  intros g sigma T q b Hc A Hm Hd HT Hb. rewrite (C71_offset _ _ _ _ _ _ Hc A Hm Hd HT Hb).
  destruct T; auto. cbn [nadd]. f_equal. f_equal. ring.
Qed.
(** ... and wrong for some value otherwise. *)
Theorem C71_threshold_refuted :
  forall g mu sigma T,
    c_classifier c = true -> affine_y (g_pY g) mu sigma -> mu <> 0%Qc ->
    (forall m, s_max (g_svm g) = Some m -> isfin m = true) ->
    (forall d, s_diff (g_svm g) = Some d -> isfin d = true) ->
    abs_finite_threshold pe c g = Ok T ->
    exists q, forall b, gpr_is_finite e c g [Fin q] = Ok [b] -> b <> nleb T (Fin q).
Proof.
  intros g mu sigma T Hc A Hmu Hm Hd HT.
  assert (isfin T = true) as FT.
  { unfold abs_finite_threshold in HT. rewrite Hc in HT. destruct (s_max (g_svm g)) as [m|]; [|discriminate].
    destruct (s_diff (g_svm g)) as [d|]; [|discriminate]. specialize (Hm _ eq_refl). specialize (Hd _ eq_refl).
    destruct m, d; try discriminate. destruct A as (_ & A & _). rewrite A in HT. injection HT as <-. reflexivity. }
  destruct T as [| |t|]; try discriminate.
  destruct (qltb 0 mu) eqn:E.
  - (* just at the reported threshold: reported finite, classified infinite *)
    exists t. intros b Hb. rewrite (C71_offset _ _ _ _ _ _ Hc A Hm Hd HT Hb). cbn [nadd nleb].
    replace (qleb t t) with true by (symmetry; qc). replace (qleb (t + mu) t) with false by (symmetry; qc). discriminate.
  - exists (t + mu)%Qc. intros b Hb. rewrite (C71_offset _ _ _ _ _ _ Hc A Hm Hd HT Hb). cbn [nadd nleb].
    replace (qleb (t + mu) (t + mu)) with true by (symmetry; qc).
    assert (mu < 0)%Qc as Hneg.
    { apply qltb_nlt in E. apply Qcle_lt_or_eq in E as [E|E]; auto. contradiction. }
    replace (qleb t (t + mu)) with false by (symmetry; qc). discriminate.
Qed.
End C70.
Print Assumptions C70_prior_refuted.
Print Assumptions C70_errors.
Print Assumptions C70_unfitted.
Example C70_errors_case : forall k, predict demo (demo_pe (fun _ => true)) (demo_c k 1) (nq 11 10) demo_new with_std [0; 2]%Z = Err (if k then ValueError else TypeError).
Proof. intros []; reflexivity. Qed.
Print Assumptions C71_offset.
Print Assumptions C71_no_offset.
Print Assumptions C71_threshold_refuted.

(** A y-preprocessor that subtracts 5 and halves; best value 7, threshold 4. The regressor reports that
    values from -2 on are finite: (1 - 2) * 2. The classifier rejects those below 3. *)
Definition halves : env Z Z unit unit unit nat unit :=
  mkEnv (fun p _ _ => Ok p) (fun _ X => Ok X) (fun p _ _ => Ok p)
    (fun _ y => Ok (map (fun v => ndiv (nsub v (nz 5)) (nz 2)) y))
    (fun _ y => Ok (map (fun v => ndiv v (nz 2)) y)) (fun _ v => Ok (ndiv v (nz 2)))
    (fun _ _ => Ok tt) (fun _ _ => true)
    (fun d th => nz 0) (fun d th => (S th, Ok (nz 0))) (fun _ _ => Ok None) (fun _ => true).
Definition halves_pe : penv Z Z unit unit nat unit :=
  mkPenv (fun _ x => (x <=? 2)%Z) (fun _ x => nz x) (fun _ x => nz 4)
    (fun _ _ => [nz 1]) (fun _ _ => [nz 0]) (fun _ v => nadd (nmul v (nz 2)) (nz 5)) (fun _ v => nmul v (nz 2))
    (fun _ _ => true) (fun v => v) (fun v => neqb v (nz 0)) (fun _ => 1).
Definition four : config nat := mkConfig true 1 (nz 4) true 1 true 0.
Example C71_example :
  affine_y halves halves_pe tt (qc_of_Z 5) (qc_of_Z 2)
  /\ exists g T, runs halves four (new_gpr tt tt (Scalar (nq 1 100))) [OAppend (add [1; 2; 3]%Z [nz 5; nz 7; nz 2] FTrue true)] g
       /\ abs_finite_threshold halves_pe four g = Ok T /\ neqb T (nz (-2)) = true /\ g_X g = [1; 2]%Z
       /\ gpr_is_finite halves four g [nz 2; nz 3] = Ok [false; true].
Proof.
  split. { split; [reflexivity|]. split; [reflexivity|]. unfold Qclt. simpl. lra. }
  do 2 eexists. split; [apply do_all_runs; vm_compute; reflexivity|].
  split; [vm_compute; reflexivity|]. split; [reflexivity|]. split; reflexivity.
Qed.

(** ** C72. One dimension, and means that are affine in the query, where the gradient is the slope. *)
Section C72.
Context {PX PY model theta box : Type}.
Variable e : env Qc Qc PX PY model theta box.
Variable pe : penv Qc Qc PY model theta box.
Variable c : config theta.
Variable clip : num.
Definition mean_grad : pargs := mkPargs false true false true.

(** The mean gradient is right if the X-preprocessor changes nothing. *)
Theorem C72_mean_gradient_partial :
  forall g A B sigma mu x h r r' v w w' top,
    (forall X, trX e (g_pX g) X = Ok X) ->
    (forall k x, gp_mean pe k x = Fin (A * x + B)) -> (forall k x, gp_mean_grad pe k x = [Fin A]) ->
    (forall u, invY pe (g_pY g) (Fin u) = Fin (u * sigma + mu)) ->
    (forall u, invscaleY pe (g_pY g) (Fin u) = Fin (u * sigma)) ->
    says e pe c g x true -> says e pe c g (x + h)%Qc true ->
    predict e pe c clip g mean_grad [x] = Ok r -> predict e pe c clip g mean_grad [(x + h)%Qc] = Ok r' ->
    r_mean r = [Fin w] -> r_mean r' = [Fin w'] -> r_mgrad r = Some [[Fin v]] ->
    ceiling clip (g_y g) = Ok top -> nltb (Fin w) top = true -> nltb (Fin w') top = true ->
    (w' - w = v * h)%Qc.
Proof.
  intros g A B sigma mu x h r r' v w w' top HX Hm Hg HY Hs L1 L2 P1 P2 M1 M2 G1 Ht T1 T2.
  assert (forall x r w, says e pe c g x true -> predict e pe c clip g mean_grad [x] = Ok r -> r_mean r = [Fin w] ->
    nltb (Fin w) top = true -> w = ((A * x + B) * sigma + mu)%Qc /\ r_mgrad r = Some [[Fin (A * sigma)]]) as K.
  { clear - HX Hm Hg HY Hs Ht. intros x r w L P M T. unfold predict in P. cbn [p_sgrad p_mgrad p_std mean_grad andb negb orb length Nat.eqb] in P.
    assert ((if c_classifier c then do X_ <- trX e (g_pX g) [x]; svm_predict (svc_predict pe) (g_svm g) X_
             else Ok (repeat true 1)) = Ok [true]) as El.
    { unfold says, predict_is_finite in L. destruct (c_classifier c); auto. }
    rewrite El in P. cbn [bind forallb negb andb] in P. rewrite andb_false_r in P.
    unfold masked in P. cbn [length Nat.eqb mask bind] in P. rewrite HX in P. cbn [bind] in P.
    destruct (cached g) as [k|]; [|discriminate]. cbn [bind] in P. rewrite Ht in P. cbn [bind map unmask repeat] in P.
    rewrite Hm, Hg, HY in P. cbn [map] in P. rewrite Hs in P. injection P as <-. cbn [r_mean r_mgrad] in *.
    split; auto.
    assert ((match g_trust g with Some _ => [false] | None => [false] end) = [false]) as E by (destruct (g_trust g); auto).
    rewrite E in M. cbn [combine map fst snd] in M. injection M as M.
    unfold np_clip_above, npmin2, pymin in M. cbn [isnan orb] in M. destruct (isnan top) eqn:En; [discriminate|].
    destruct (nltb top _) eqn:Ec.
    - subst top. exfalso. cbn [nltb] in T. revert T. qc.
    - injection M as M. auto. }
  destruct (K _ _ _ L1 P1 M1 T1) as [-> E1]. destruct (K _ _ _ L2 P2 M2 T2) as [-> _].
  rewrite E1 in G1. injection G1 as <-. ring.
Qed.
End C72.
Print Assumptions C72_mean_gradient_partial.

(** False if it rescales: with transformed coordinates twice the original ones the mean predicted at any
    point up to 2 (below the ceiling) is 20 x, and the reported gradient is 10. *)
Definition doubles : env Z Z unit unit unit nat unit :=
  mkEnv (fun p _ _ => Ok p) (fun _ X => Ok (map (fun x => (2 * x)%Z) X)) (fun p _ _ => Ok p) (fun _ y => Ok y)
    (fun _ y => Ok y) (fun _ v => Ok v) (fun _ _ => Ok tt) (fun _ _ => true)
    (fun d th => nz 0) (fun d th => (S th, Ok (nz 0))) (fun _ _ => Ok None) (fun _ => true).
Definition doubles_pe : penv Z Z unit unit nat unit :=
  mkPenv (fun _ _ => true) (fun _ x => nz (10 * x)) (fun _ x => nz x)
    (fun _ _ => [nz 10]) (fun _ _ => [nz 1]) (fun _ v => v) (fun _ v => v) (fun _ _ => true)
    (fun v => v) (fun v => neqb v (nz 0)) (fun _ => 1).
Definition doubles_g : gpr Z Z unit unit unit nat unit :=
  fst (do_all doubles (demo_c true 1) [OAppend (add [1; 2]%Z [nz 20; nz 40] FTrue true)] demo_new).
Theorem C72_scaled_X_refuted :
  snd (do_all doubles (demo_c true 1) [OAppend (add [1; 2]%Z [nz 20; nz 40] FTrue true)] demo_new) = Ok tt
  /\ forall x, (x <= 2)%Z -> exists r,
       predict doubles doubles_pe (demo_c true 1) (nz 1) doubles_g (mkPargs false true false false) [x] = Ok r
       /\ r_mean r = [nz (20 * x)] /\ r_mgrad r = Some [[nz 10]].
Proof.
  split; [vm_compute; reflexivity|]. intros x Hx.
  assert (exists k, cached doubles_g = Ok k) as [k Ek] by (eexists; vm_compute; reflexivity).
  assert (exists top, ceiling (nz 1) (g_y doubles_g) = Ok top /\ neqb top (nz 40) = true) as (top & Et & Et2).
  { eexists. split; [vm_compute; reflexivity|]. vm_compute. reflexivity. }
  assert (svm_predict (svc_predict doubles_pe) (g_svm doubles_g) [(2 * x)%Z] = Ok [true]) as El by reflexivity.
  unfold predict. cbn [p_sgrad p_mgrad p_std p_ignore andb negb orb length Nat.eqb].
  change (trX doubles (g_pX doubles_g) [x]) with (Ok [(2 * x)%Z] : res (list Z)).
  change (c_classifier (demo_c true 1)) with true. cbn [bind]. rewrite El. cbn [bind forallb negb andb].
  unfold masked. cbn [length Nat.eqb mask bind].
  change (trX doubles (g_pX doubles_g) [x]) with (Ok [(2 * x)%Z] : res (list Z)). cbn [bind].
  rewrite Ek, Et. cbn [bind]. eexists. split; [reflexivity|]. cbn [r_mean r_mgrad]. split; [|reflexivity].
  change (g_trust doubles_g) with (@None unit). cbn [repeat map unmask combine fst snd].
  change (invY doubles_pe (g_pY doubles_g) (gp_mean doubles_pe k (2 * x)%Z)) with (nz (10 * (2 * x))%Z).
  f_equal. unfold np_clip_above, npmin2, pymin. destruct top as [| |t|]; try discriminate.
  unfold nz in *. cbn [isnan orb nltb neqb] in *. replace (10 * (2 * x))%Z with (20 * x)%Z by lia.
  assert (qltb t (qc_of_Z (20 * x)) = false) as ->; auto.
  apply qeqb_eq in Et2. subst t. apply qltb_nlt. unfold Qcle, qc_of_Z. rewrite !this_Q2Qc.
  rewrite <- Zle_Qle. lia.
Qed.
(** The gradient of the standard deviation is scaled twice: with a y-preprocessor that divides by 3 and
    none for X, the standard deviation at x > 0 is 3 x, and its reported gradient 9. *)
Definition thirds_pe : penv Z Z unit unit nat unit :=
  mkPenv (fun _ _ => true) (fun _ x => nz 0) (fun _ x => nz (x * x))
    (fun _ _ => [nz 0]) (fun _ _ => [nz 1]) (fun _ v => nmul v (nz 3)) (fun _ v => nmul v (nz 3)) (fun _ _ => true)
    (fun v => match v with Fin q => nz (Z.sqrt (Qnum q)) | _ => v end) (fun v => neqb v (nz 0)) (fun _ => 1).
Theorem C72_std_gradient_refuted :
  forall x, In x [1; 2; 3; 10]%Z -> exists r s d,
    predict demo thirds_pe (demo_c true 1) (nz 1) doubles_g (mkPargs true true true false) [x] = Ok r
    /\ r_std r = Some [s] /\ neqb s (nz (3 * x)) = true /\ r_sgrad r = Some [[d]] /\ neqb d (nz 9) = true.
Proof.
  intros x [<-|[<-|[<-|[<-|[]]]]]; do 3 eexists; (split; [vm_compute; reflexivity|]);
    (split; [reflexivity|]); (split; [vm_compute; reflexivity|]); (split; [reflexivity|]); vm_compute; reflexivity.
Qed.
Print Assumptions C72_scaled_X_refuted.
Print Assumptions C72_std_gradient_refuted.
Definition line : env Qc Qc unit unit unit nat unit :=
  mkEnv (fun p _ _ => Ok p) (fun _ X => Ok X) (fun p _ _ => Ok p) (fun _ y => Ok y)
    (fun _ y => Ok y) (fun _ v => Ok v) (fun _ _ => Ok tt) (fun _ _ => true)
    (fun d th => nz 0) (fun d th => (S th, Ok (nz 0))) (fun _ _ => Ok None) (fun _ => true).
Definition line_pe : penv Qc Qc unit unit nat unit :=
  mkPenv (fun _ _ => true) (fun _ x => Fin (qc_of_Z 4 * x + qc_of_Z 1)) (fun _ x => nz 1)
    (fun _ _ => [Fin (qc_of_Z 4)]) (fun _ _ => [nz 1])
    (fun _ v => nadd (nmul v (nz 3)) (nz 2)) (fun _ v => nmul v (nz 3)) (fun _ _ => true)
    (fun v => v) (fun v => neqb v (nz 0)) (fun _ => 1).
Definition line_g : gpr Qc Qc unit unit unit nat unit :=
  fst (append_to_data line (demo_c true 1)
    (mkAppend (Some [qc_of_Z 0; qc_of_Z 9]) (Some [nz 100; nz 110]) NoNoise FTrue true demo_kw) (new_gpr tt tt (Scalar (nq 1 100)))).
Example C72_example :
  exists r r' w w' v top, predict line line_pe (demo_c true 1) (nz 1) line_g mean_grad [qc_of_Z 1] = Ok r
    /\ predict line line_pe (demo_c true 1) (nz 1) line_g mean_grad [(qc_of_Z 1 + qc_of_Z 2)%Qc] = Ok r'
    /\ says line line_pe (demo_c true 1) line_g (qc_of_Z 1) true
    /\ says line line_pe (demo_c true 1) line_g (qc_of_Z 1 + qc_of_Z 2)%Qc true
    /\ r_mean r = [Fin w] /\ r_mean r' = [Fin w'] /\ r_mgrad r = Some [[Fin v]]
    /\ ceiling (nz 1) (g_y line_g) = Ok top /\ nltb (Fin w) top = true /\ nltb (Fin w') top = true
    /\ (w' - w = v * qc_of_Z 2)%Qc /\ qeqb v (qc_of_Z 12) = true.
Proof.
  do 6 eexists. split; [vm_compute; reflexivity|]. split; [vm_compute; reflexivity|].
  split; [reflexivity|]. split; [reflexivity|]. split; [reflexivity|]. split; [reflexivity|]. split; [reflexivity|].
  split; [vm_compute; reflexivity|]. split; [vm_compute; reflexivity|]. split; [vm_compute; reflexivity|].
  split; [apply Qc_is_canon; vm_compute; reflexivity|]. vm_compute. reflexivity.
Qed.

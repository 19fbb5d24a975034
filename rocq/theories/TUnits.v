(** C128: results do not depend on the units of the parameters nor on the normalisation of the likelihood. *)
From Verif Require Import MTruth MConv MUnits SUnits PUnits PUnits2 PUnits3.
From Verif Require MNora.
Set Default Goal Selector "!".
Set Bullet Behavior "Strict Subproofs".

Section Default.
Context {model theta : Type}.
Variable svc_train : list (list num) -> list bool -> res model.
Variable chol : theta -> data (list num) -> bool.
Variable lml_ : data (list num) -> theta -> num.
Variable opt : data (list num) -> theta -> theta * res num.
Variable svc_pred : model -> list num -> bool.
Variables (mean_ var_ : cache (list num) theta -> list num -> num).
Variables (mgrad_ sgrad_ : cache (list num) theta -> list num -> list num).
Variable root_ : num -> num.
Variable close0 : num -> bool.
Variable percentiles : list num -> num * num * num.
Variable delta : num -> num.
Variables (chi2 : option num) (fuel : nat) (factor nstd : option num).
Notation envf := (default_env svc_train chol lml_ opt root_ percentiles delta chi2 fuel factor nstd).
Notation penvf := (default_penv svc_pred mean_ var_ mgrad_ sgrad_ root_ close0).

Variable c : Qc.
Variable u : list (Qc * Qc).
Variable bounds : list (num * num).
Variable median : bool.
Hypothesis Hu : units u.
Hypothesis Hb : length bounds = length u.
Hypothesis Hp : median = true -> chi2 = None -> shifts_percentiles percentiles.
Notation bounds' := (rescale_box u bounds).
Notation e := (envf bounds).
Notation e' := (envf bounds').
Let G := gpr (list num) (list num) norm_bounds norm_y model theta (list (num * num)).
Let wf (x : list num) := length x = length u.
Let wfB (b : list (num * num)) := length b = length u.
Let RX p p' := p = nb_of bounds /\ p' = nb_of bounds'.
Let RY p p' := p' = conv_ny c p /\ (ny_use_median p = true -> median = true).

Lemma conv_nb_of : nb_of bounds' = conv_nb u (nb_of bounds).
Proof. unfold nb_of, conv_nb. simpl. rewrite rescale_box_fst, rescale_box_snd by auto. auto. Qed.
Lemma default_same_env : same_env c (rescale u) wf (rescale_box u) wfB RX RY e e'.
Proof.
  constructor; simpl; auto.
  - intros p p' X [-> ->] HX. rewrite mapM_map. apply mapM_ext. intros x Hx. rewrite conv_nb_of.
    rewrite Forall_forall in HX. apply nb_transform_rescale; auto; simpl; rewrite ?map_length; auto; apply HX; auto.
  - intros p p' X y [-> Hm] HX. destruct chi2 as [d|].
    + rewrite chi2_fit_shift. unfold chi2_do_fit. destruct (pymax_list y); simpl; auto. split; auto. discriminate.
    + rewrite ny_do_fit_shift by auto. destruct (ny_do_fit root_ percentiles p y) as [q|] eqn:E; simpl; auto.
      split; auto. unfold ny_do_fit in E. destruct (get_mean_std _ _ _ _); [|discriminate]. simpl in E.
      injection E as <-. simpl. auto.
  - intros p p' y [-> _]. rewrite mapM_map. apply mapM_ext. intros. apply ny_transform_shift.
  - intros p p' y [-> _]. apply mapM_ext. intros. apply ny_scale_shift.
  - intros p p' y [-> _]. apply ny_scale_shift.
  - intros X y HX. unfold update_trust_region. destruct factor as [f|]; auto.
    rewrite rescale_box_length, Hb, used_conv by auto.
    destruct (used delta fuel (length u) nstd X y) as [U|] eqn:EU; simpl; auto.
    pose proof (shrink_bounds_conv u bounds U f Hu Hb) as E. unfold box_arr in E. rewrite E.
    + match goal with |- context [shrink_bounds ?a ?b ?c] => destruct (shrink_bounds a b c) end; auto.
    + apply used_incl in EU. rewrite Forall_forall in *. intros x Hx. apply HX, EU; auto.
  - intros X y b HX. unfold update_trust_region. destruct factor as [f|]; [|discriminate].
    destruct (used delta fuel (length bounds) nstd X y) as [U|]; simpl; [|discriminate].
    match goal with |- context [shrink_bounds ?a ?b ?c] => destruct (shrink_bounds a b c) eqn:E end; simpl; [|discriminate].
    intros H. injection H as <-. unfold wfB. rewrite <- Hb. eapply shrink_bounds_length. exact E.
  - intros X HX. rewrite forallb_forall in HX. apply Forall_forall. intros x Hx. unfold wf.
    apply HX, Nat.eqb_eq in Hx. lia.
  - intros X. induction X as [|x X IH]; simpl; auto. rewrite IH. f_equal. rewrite rescale_box_length, Hb by auto.
    rewrite rescale_length. auto.
Qed.

Lemma default_same_penv : same_penv c (rescale u) wf (rescale_box u) wfB RY penvf penvf.
Proof.
  constructor; simpl; auto.
  - intros p p' v [-> _]. apply inv_y_shift.
  - intros p p' v [-> _]. apply inv_scale_shift.
  - intros b x H1 H2. apply in_trust_rescale; auto.
  - intros x _. apply rescale_length.
Qed.
Lemma calls_corr cf os : forall g g', corr c (rescale u) wf (rescale_box u) wfB RX RY g g' ->
  corr c (rescale u) wf (rescale_box u) wfB RX RY (fst (calls e cf os g)) (fst (calls e' cf (map (conv_op c (rescale u)) os) g'))
  /\ snd (calls e' cf (map (conv_op c (rescale u)) os) g') = snd (calls e cf os g).
Proof.
  induction os as [|o os IH]; intros g g' Hg; [simpl; auto|].
  pose proof (sim_step c (rescale u) wf (rescale_box u) wfB RX RY e e' default_same_env cf o g g' Hg) as [H1 H2].
  cbn [map calls]. destruct (step e cf o g) as [g1 r], (step e' cf (conv_op c (rescale u) o) g') as [g1' r'].
  simpl in H1, H2. assert (r' = r) as -> by (destruct r as [[]|], r' as [[]|]; simpl in H2; congruence || tauto).
  destruct (IH _ _ H1) as [H3 H4].
  destruct (calls e cf os g1) as [g2 rs], (calls e' cf (map (conv_op c (rescale u)) os) g1') as [g2' rs'].
  simpl in *. subst. auto.
Qed.

(** Two surrogates with the default preprocessors, for the same problem in two parametrisations and with two
    normalisations of the log-posterior. Whatever is called, in whatever order, and whether or not calls raise: each
    call has the same outcome, the classifier and everything in transformed coordinates are the same, and the training
    set and the trust region are the same, in the other units. Predictions differ by the constant, their standard
    deviations and the classifier's answers not at all. *)
Theorem C128_units cf noise0 os :
  let g := calls e cf os (new_gpr (nb_of bounds) (new_norm_y median) noise0) in
  let g' := calls e' cf (map (conv_op c (rescale u)) os) (new_gpr (nb_of bounds') (new_norm_y median) noise0) in
  snd g' = snd g /\
  same c (rescale u) (rescale_box u) (fun p p' => p = nb_of bounds /\ p' = nb_of bounds') (fun p p' => p' = conv_ny c p)
    (fst g) (fst g') /\
  (forall k a X, Forall (fun x => length x = length u) X ->
     predict e' penvf cf (Fin k) (fst g') a (map (rescale u) X)
     = map_res (conv_pred c) (predict e penvf cf (Fin k) (fst g) a X)) /\
  (forall X, Forall (fun x => length x = length u) X ->
     predict_std e' penvf cf (fst g') (map (rescale u) X) = predict_std e penvf cf (fst g) X /\
     predict_is_finite e' penvf cf (fst g') (map (rescale u) X) = predict_is_finite e penvf cf (fst g) X) /\
  (forall y, gpr_is_finite e' cf (fst g') (map (shift c) y) = gpr_is_finite e cf (fst g) y).
Proof.
  intros g g'.
  assert (corr c (rescale u) wf (rescale_box u) wfB RX RY (new_gpr (nb_of bounds) (new_norm_y median) noise0 : G)
            (new_gpr (nb_of bounds') (new_norm_y median) noise0 : G)) as H0.
  { split; [|split; [|split]]; simpl; auto; [|discriminate].
    constructor; simpl; auto; [split; auto|split; auto]. }
  destruct (calls_corr cf os _ _ H0) as [H1 H2]. fold g in H1, H2. fold g' in H1, H2.
  split; auto. split.
  { destruct H1 as ([] & _). constructor; auto. apply same_pY. }
  split; [|split].
  - intros k a X HX. eapply sim_predict; eauto; [apply default_same_env|apply default_same_penv].
  - intros X HX. split; [eapply sim_predict_std|eapply sim_predict_is_finite]; eauto;
      first [apply default_same_env|apply default_same_penv].
  - intros y. eapply sim_is_finite; eauto. apply default_same_env.
Qed.
End Default.
Print Assumptions C128_units.

(** ** A case *)
(** Two parameters, in other units; three points, one of them far below; the kernel matrix and its decomposition are
    replaced by something simple. *)
Definition case_env := default_env (model := nat) (theta := nat) (fun X l => Ok (count_true l)) (fun _ _ => true)
  (fun d th => nz (Z.of_nat (length (d_y d)))) (fun d th => (S th, Ok (nz 1))) (fun v => v) (fun _ => (NaN, NaN, NaN)) (fun n => nmul n (nz 4)) None 50 (Some (nz 2)) (Some (nz 2)).
Definition case_penv := default_penv (model := nat) (theta := nat) (fun m x => nltb (nth 0 x NaN) (nz 1))
  (fun k x => nadd (nth 0 x NaN) (fold_left nadd (d_y (k_data k)) (nz 0))) (fun k x => nth 1 x NaN) (fun k x => x) (fun k x => x) (fun v => v) (fun v => neqb v (nz 0)).
Definition case_bounds := [(nz 0, nz 10); (nz (-1), nz 1)].
Definition case_units := [(Q2Qc (5 # 2), Q2Qc (-7 # 1)); (Q2Qc (1 # 1000), Q2Qc (3 # 1))].
Definition case_ops : list (op (list num) nat) :=
  let kw := mkKw false true None true (fun i => i) in
  [OAppend (mkAppend (Some [[nz 1; nz 0]; [nz 2; nq 1 2]; [nz 9; nz 1]]) (Some [nz (-3); nz (-1); nz (-900)]) NoNoise FTrue true kw);
   OFit (mkKw true true None true (fun i => i));
   OAppend (mkAppend (Some [[nz 1]]) (Some [nz (-3)]) NoNoise FTrue true kw);
   OAppend (mkAppend (Some [[nz 3; nz 0]]) (Some [nz (-2)]) NoNoise FFalse false kw)].
Definition case_config : config nat := mkConfig true 1 (nz 20) true 2%Z true 7.
Definition case_state b := fst (calls (case_env b) case_config case_ops (new_gpr (nb_of b) (new_norm_y false) (Scalar (nq 1 100)))).
Example C128_case :
  units case_units /\ length case_bounds = length case_units /\
  snd (calls (case_env case_bounds) case_config case_ops (new_gpr (nb_of case_bounds) (new_norm_y false) (Scalar (nq 1 100))))
  = [Ok tt; Ok tt; Err ValueError; Ok tt] /\
  predict (case_env case_bounds) case_penv case_config (nz 2) (case_state case_bounds) (mkPargs true false false false)
    [[nz 2; nz 0]; [nz 5; nz 0]; [nz 11; nz 0]]
  = Ok (mkPred [nq (-9) 5; NInf; NInf] (Some [nq 1 2; nq 1 2; nz 0]) None None) /\
  predict (case_env (rescale_box case_units case_bounds)) case_penv case_config (nz 2)
    (fst (calls (case_env (rescale_box case_units case_bounds)) case_config (map (conv_op (qc_of_Z 1000) (rescale case_units)) case_ops)
       (new_gpr (nb_of (rescale_box case_units case_bounds)) (new_norm_y false) (Scalar (nq 1 100)))))
    (mkPargs true false false false) [[nz (-2); nz 3]; [nq 11 2; nz 3]; [nq 41 2; nz 3]]
  = Ok (mkPred [nq 4991 5; NInf; NInf] (Some [nq 1 2; nq 1 2; nz 0]) None None).
Proof.
  split; [repeat constructor; vm_compute; auto|]. split; [reflexivity|].
  split; [vm_compute; reflexivity|]. split; vm_compute; reflexivity.
Qed.

(** ** The true posterior *)
(** New bounds and a likelihood that takes the parameters in the new units and is normalised otherwise: the posterior
    that is learned differs by one constant everywhere: that of the likelihood and the logarithms of the scales. *)
Fixpoint total (l : list Qc) : Qc := match l with [] => 0%Qc | q :: l' => (q + total l')%Qc end.
Definition bounds_mat (b : list (num * num)) : mat := mkMat 2 (map (fun p => [fst p; snd p]) b).
Lemma log_volume_rescale ln (lna : Qc -> Qc) u b :
  (forall a w, (0 < a)%Qc -> ln (nmul (Fin a) w) = shift (lna a) (ln w)) ->
  units u -> length b = length u ->
  log_volume ln (bounds_mat (rescale_box u b)) = shift (total (map (fun p => lna (fst p)) u)) (log_volume ln (bounds_mat b)).
Proof.
  intros Hln Hu Hb. unfold log_volume, bounds_mat. rewrite !column_box by lia. simpl (0 =? 0). simpl (1 =? 0). cbv iota.
  change (map (fun p : num * num => fst p)) with (map (@fst num num)).
  change (map (fun p : num * num => snd p)) with (map (@snd num num)).
  rewrite !PTools.combine_fst_snd.
  assert (forall z, fold_left nadd (map (fun p => ln (nsub (snd p) (fst p))) (rescale_box u b)) z
    = shift (total (map (fun p => lna (fst p)) u)) (fold_left nadd (map (fun p => ln (nsub (snd p) (fst p))) b) z)) as E; [|apply E].
  revert b Hb; induction u as [|a u IH]; intros [|p b] Hb z; try discriminate.
  - simpl. destruct z; simpl; auto. f_equal. ring.
  - inversion Hu as [|? ? Ha Hu']; subst. specialize (IH Hu' b ltac:(simpl in Hb; lia)).
    unfold rescale_box in *. simpl. rewrite rescale1_sub, Hln, IH by auto. clear.
    assert (forall l x q, fold_left nadd l (shift q x) = shift q (fold_left nadd l x)) as F.
    { intros l; induction l as [|y l IHl]; intros x q; simpl; auto. rewrite <- IHl. f_equal.
      destruct x, y; simpl; auto. f_equal. ring. }
    replace (nadd z (shift (lna (fst a)) (ln (nsub (snd p) (fst p))))) with (shift (lna (fst a)) (nadd z (ln (nsub (snd p) (fst p)))))
      by (symmetry; apply nadd_shift_r).
    rewrite F. destruct (fold_left nadd _ _); simpl; auto. f_equal. ring.
Qed.
Theorem C128_posterior ln (lna : Qc -> Qc) u b c t t' :
  (forall a w, (0 < a)%Qc -> ln (nmul (Fin a) w) = shift (lna a) (ln w)) ->
  units u -> length b = length u ->
  prior_bounds t = bounds_mat b -> log_prior_volume t = log_volume ln (bounds_mat b) ->
  prior_bounds t' = bounds_mat (rescale_box u b) -> log_prior_volume t' = log_volume ln (bounds_mat (rescale_box u b)) ->
  (forall x, length x = length u ->
     call (loglike_ t') [OVec (rescale u x)] = map_res (shift c) (call (loglike_ t) [OVec x])) ->
  forall x, length x = length u ->
  fst (logp t' (OVec (rescale u x))) = map_res (shift (c - total (map (fun p => lna (fst p)) u))) (fst (logp t (OVec x))) /\
  length (snd (logp t' (OVec (rescale u x)))) = length (snd (logp t (OVec x))).
Proof.
  intros Hln Hu Hb Eb Ev Eb' Ev' Hl x Hx. unfold logp, logprior, arr_of_obj. rewrite Eb, Eb', Ev, Ev'.
  assert (forall bb y, length y = length bb -> is_in_bounds (Vec y) (Mat (bounds_mat bb)) false = Ok [in_trust bb y]) as Ei.
  { intros bb y Hy. rewrite in_trust_eq by auto. unfold is_in_bounds. cbn [atleast_2d rows bind].
    unfold bounds_mat. rewrite (proj1 (PTools.box_cols bb)), (proj2 (PTools.box_cols bb)). cbn [bind mapM].
    rewrite PTools.combine_fst_snd, bcast2_same by auto. cbn [bind]. do 2 f_equal. generalize (combine y bb). intros l.
    f_equal. induction l as [|p l IH]; simpl; auto. rewrite IH. auto. }
  rewrite !Ei by (rewrite ?rescale_length, ?rescale_box_length; lia). rewrite in_trust_rescale by auto.
  cbn [bind]. destruct (in_trust b x); [|simpl; auto].
  rewrite (log_volume_rescale ln lna u b Hln Hu Hb). set (v := log_volume ln (bounds_mat b)). set (k := total _).
  change (nz (-1)) with (Fin (qc_of_Z (-1))).
  destruct (match v with Fin _ => true | _ => false end) eqn:Efin.
  - destruct v as [| |v|]; try discriminate. simpl. rewrite Hl by auto.
    destruct (call (loglike_ t) [OVec x]) as [l|]; simpl; auto. split; auto. f_equal.
    destruct l as [| |l|]; simpl; auto. f_equal. change (qc_of_Z (-1)) with (-(1))%Qc. ring.
  - assert (shift k v = v) as -> by (destruct v; auto; discriminate).
    destruct v as [| |v|]; try discriminate; simpl; auto; rewrite ?Hl by auto;
      destruct (call (loglike_ t) [OVec x]) as [l|]; simpl; auto; split; auto; f_equal; destruct l; auto.
Qed.
Print Assumptions C128_posterior.
(** A case: the unit interval and the interval from 3 to 5; a toy logarithm that is that of 2 for 2. *)
Example C128_posterior_case :
  let ln (v : num) := match v with Fin q => if qeqb q (Q2Qc (2 # 1)) then Fin (Q2Qc (7 # 10)) else Fin 0%Qc | _ => NaN end in
  let t := mkTruth (bounds_mat [(nz 0, nz 1)]) (log_volume ln (bounds_mat [(nz 0, nz 1)]))
             (mkFn [(PosOrKw, false)] (fun a => match a with [OVec [v]] => Ok (nmul v v) | _ => Err TypeError end)) [] [] [] [] in
  let u := [(Q2Qc (2 # 1), Q2Qc (3 # 1))] in
  let t' := mkTruth (bounds_mat (rescale_box u [(nz 0, nz 1)])) (log_volume ln (bounds_mat (rescale_box u [(nz 0, nz 1)])))
             (mkFn [(PosOrKw, false)] (fun a => match a with [OVec [v]] =>
                let w := ndiv (nsub v (nz 3)) (nz 2) in Ok (nadd (nmul w w) (nz 10)) | _ => Err TypeError end)) [] [] [] [] in
  prior_bounds t' = bounds_mat [(nz 3, nz 5)] /\
  fst (logp t (OVec [nq 1 2])) = Ok (nq 1 4) /\ fst (logp t' (OVec [nz 4])) = Ok (nq 191 20) /\
  fst (logp t (OVec [nz 2])) = Ok NInf /\ fst (logp t' (OVec [nz 7])) = Ok NInf.
Proof. vm_compute. repeat split; first [reflexivity | do 2 f_equal; apply Qc_is_canon; reflexivity]. Qed.

(** ** Filter of the proposals, and counting correct predictions *)
(** Which proposals are dropped as already known or repeated does not depend on the units: the comparison is in
    transformed coordinates. *)
Theorem C128_candidates rnd u bounds X_ X tr tr' :
  units u -> length bounds = length u ->
  (forall x, In x X -> length x = length u) ->
  (forall x, length x = length u -> nb_transform (nb_of bounds) x = Ok (tr x)) ->
  (forall x, length x = length u -> nb_transform (nb_of (rescale_box u bounds)) x = Ok (tr' x)) ->
  check_candidates rnd (Some tr') X_ (map (rescale u) X) = check_candidates rnd (Some tr) X_ X /\
  accepted_candidates rnd (Some tr') X_ (map (rescale u) X) = map (rescale u) (accepted_candidates rnd (Some tr) X_ X).
Proof.
  intros Hu Hb HX Ht Ht'.
  assert (check_candidates rnd (Some tr') X_ (map (rescale u) X) = check_candidates rnd (Some tr) X_ X) as E.
  { unfold check_candidates. assert (map tr' (map (rescale u) X) = map tr X) as ->; auto.
    rewrite map_map. apply map_ext_in. intros x Hx. specialize (HX x Hx).
    assert (Ok (tr' (rescale u x)) = Ok (tr x)) as F; [|injection F as F; auto].
    rewrite <- Ht, <- Ht' by (rewrite ?rescale_length; auto). rewrite (conv_nb_of u bounds Hb).
    apply nb_transform_rescale; auto; simpl; rewrite ?map_length; auto. }
  split; auto. unfold accepted_candidates. rewrite E. destruct (check_candidates rnd (Some tr) X_ X) as [a d].
  apply mask_map_l.
Qed.
Print Assumptions C128_candidates.
Example C128_candidates_case :
  let u := [(Q2Qc (10 # 1), 1%Qc); (Q2Qc (2 # 1), 0%Qc)] in
  let X := [[nz 0; nz 0]; [nz 1; nz 1]; [nz 1; nz 1]; [nz 3; nz 4]] in
  accepted_candidates (fun v => v) (Some (map (fun v => v))) [[nz 0; nz 0]] X = [[nz 1; nz 1]; [nz 3; nz 4]] /\
  map (rescale u) X = [[nz 1; nz 0]; [nz 11; nz 2]; [nz 11; nz 2]; [nz 31; nz 8]].
Proof. vm_compute. repeat split; first [reflexivity | do 2 f_equal; apply Qc_is_canon; reflexivity]. Qed.
(** [CorrectCounter]: predictions and values shifted alike, and so is the largest value; the counter ends the same. *)
Theorem C128_counter reltol abstol c n_correct s new_y pred_y y_max n_total n :
  counter_is_converged reltol abstol n_correct s (map (shift c) new_y) (map (shift c) pred_y) (shift c y_max) n_total n
  = counter_is_converged reltol abstol n_correct s new_y pred_y y_max n_total n.
Proof.
  unfold counter_is_converged. rewrite !map_length. destruct (negb (length new_y =? length pred_y)); auto. cbv zeta.
  assert (forall l a, fold_left (count_point reltol abstol (shift c y_max)) (combine (map (shift c) (map fst l)) (map (shift c) (map snd l))) a
    = fold_left (count_point reltol abstol y_max) l a) as E.
  { intros l; induction l as [|[p q] l IH]; intros a; simpl; auto. rewrite IH. f_equal.
    replace (neqb (shift c p) NInf) with (neqb p NInf) by (destruct p; auto).
    unfold tolerance. rewrite !nsub_shift. auto. }
  assert (combine (map (shift c) new_y) (map (shift c) pred_y)
    = combine (map (shift c) (map fst (combine new_y pred_y))) (map (shift c) (map snd (combine new_y pred_y)))) as F.
  { clear. revert pred_y; induction new_y as [|a l IH]; intros [|b m]; simpl; auto. rewrite IH. auto. }
  rewrite F, E. destruct new_y; auto.
Qed.
Print Assumptions C128_counter.
Example C128_counter_case :
  let s := mkCC 1 empty_history [] in
  snd (counter_is_converged (nq 1 100) (nq 1 10) (nz 2) s [nz (-1); NInf; nz (-2)] [nq (-11) 10; nz 3; nz (-2)] (nz 0) 5 4) = Ok true /\
  snd (counter_is_converged (nq 1 100) (nq 1 10) (nz 2) s [nz 99; NInf; nz 98] [nq 989 10; nz 103; nz 98] (nz 100) 5 4) = Ok true /\
  snd (counter_is_converged (nq 1 100) (nq 1 10) (nz 2) s [nz 99; NInf; nz 98] [nq 989 10; nz 103; nz 98] (nz 0) 5 4) = Ok true.
Proof. vm_compute. repeat split; first [reflexivity | do 2 f_equal; apply Qc_is_canon; reflexivity]. Qed.

(** ** Where it fails *)
(** With UltraNest, points that are classified as infinite, or lie outside the trust region, are given the fixed value
    -1e-300 ([tiny]). Whether that is below or above the prediction elsewhere depends on the normalisation. *)
Theorem C128_ultranest_refuted (tiny : num) : nltb tiny (nz 0) = true -> nltb (nz (-1)) tiny = true ->
  exists (s s' : MNora.surrogate) x y,
    (forall z, MNora.s_mean s' z = shift (qc_of_Z (-2)) (MNora.s_mean s z)) /\ MNora.s_mean s y = NInf /\
    nltb (MNora.ultranest_logp tiny s y) (MNora.ultranest_logp tiny s x) = true /\
    nltb (MNora.ultranest_logp tiny s' x) (MNora.ultranest_logp tiny s' y) = true.
Proof.
  intros H1 H2.
  exists (MNora.mkSurr (fun x => match x with [] => NInf | v :: _ => nz 0 end) (fun _ => nz 0) (fun _ _ => nz 0) (fun _ s => s)),
         (MNora.mkSurr (fun x => match x with [] => NInf | v :: _ => nz (-2) end) (fun _ => nz 0) (fun _ _ => nz 0) (fun _ s => s)), [nz 1], [].
  split; [intros [|? ?]; reflexivity|]. split; [reflexivity|]. split; [exact H1|].
  change (nltb (nz (-2)) tiny = true). eapply nltb_trans; [|exact H2]. reflexivity.
Qed.
Print Assumptions C128_ultranest_refuted.
(** NORA drops from its sample the points it has proposed, comparing coordinates of any parameter with each other: two
    different points are taken for the same in one system of units and not in another. *)
Theorem C128_nora_refuted : exists u p r, units u /\ length p = length u /\ length r = length u /\ p <> r /\
  MNora.indices_already [p] [r] = [0] /\ MNora.indices_already [rescale u p] [rescale u r] = [].
Proof.
  exists [(Q2Qc (10 # 1), 0%Qc); (1%Qc, 0%Qc)], [nz 1; nz 2], [nz 2; nz 1].
  split; [repeat constructor; vm_compute; auto|]. do 2 (split; [reflexivity|]).
  split; [intros F; injection F as F; vm_compute in F; discriminate|]. split; vm_compute; reflexivity.
Qed.
Print Assumptions C128_nora_refuted.

(** Properties C40-C45 and C68 (convergence criteria). *)
From Verif Require Import MConv PConv SConv.
Set Default Goal Selector "!".

(** ** C40 *)
Lemma policy_cases p : is_policy p -> p = "n"%string \/ p = "s"%string \/ p = "ns"%string \/ p = "m"%string.
Proof. unfold is_policy, is_necessary, is_sufficient, is_monitor. tauto. Qed.
Lemma nec_spec p : is_policy p -> (nec p = true <-> is_necessary p).
Proof.
  intros H. apply policy_cases in H as [->|[->|[->| ->]]]; unfold is_necessary; split; intros H;
    try reflexivity; try (exfalso; destruct H; discriminate); auto; discriminate.
Qed.
Lemma suf_spec p : is_policy p -> (suf p = true <-> is_sufficient p).
Proof.
  intros H. apply policy_cases in H as [->|[->|[->| ->]]]; unfold is_sufficient; split; intros H;
    try reflexivity; try (exfalso; destruct H; discriminate); auto; discriminate.
Qed.
Lemma no_crash checks : Forall (fun c => verdict_or_failure (snd c)) checks ->
  existsb (fun c : string * res bool => crashes (snd c)) checks = false.
Proof.
  induction 1 as [|[p r] checks [[b Hr]|Hr] H IH]; [reflexivity| |]; simpl in *; subst r; simpl; auto.
Qed.
Lemma holds_spec r : holds r = true <-> r = Ok true.
Proof. destruct r as [[]|]; simpl; split; congruence. Qed.
Lemma filter_length_0 {A} (f : A -> bool) l : length (filter f l) = 0 <-> forall x, In x l -> f x = false.
Proof.
  induction l as [|a l IH]; simpl; [tauto|]. destruct (f a) eqn:E; simpl.
  - split; [discriminate|]. intros H. rewrite (H a) in E by auto. discriminate.
  - rewrite IH. split; [intros H x [<-|Hx]; auto|auto].
Qed.

(** The run converges exactly when some criterion is not a monitor, every necessary one holds, and
    some sufficient one holds if there is any. *)
Theorem C40_policies :
  forall checks,
  Forall (fun c => is_policy (fst c) /\ verdict_or_failure (snd c)) checks ->
  exists b, check_convergence checks = Ok b
  /\ (b = true <->
      (exists c, In c checks /\ ~ is_monitor (fst c))
      /\ (forall c, In c checks -> is_necessary (fst c) -> snd c = Ok true)
      /\ ((exists c, In c checks /\ is_sufficient (fst c)) ->
          exists c, In c checks /\ is_sufficient (fst c) /\ snd c = Ok true)).
Proof.
  intros checks HF. assert (forall c, In c checks -> is_policy (fst c)) as HP.
  { intros c Hc. rewrite Forall_forall in HF. apply HF; auto. }
  unfold check_convergence.
  rewrite check_loop_ok by (apply no_crash; eapply Forall_impl; [|exact HF]; intros c [_ Hc]; exact Hc).
  cbn [bind all_necessary n_necessary any_sufficient n_sufficient andb orb Nat.add].
  set (nn := length _). set (ns := length (filter (fun c => suf (fst c)) checks)).
  eexists. split; [reflexivity|].
  assert (ns = 0 <-> ~ exists c, In c checks /\ is_sufficient (fst c)) as Hns.
  { unfold ns. rewrite filter_length_0. split.
    - intros H (c & Hc & Hs). apply suf_spec in Hs; [|auto]. rewrite H in Hs by auto. discriminate.
    - intros H c Hc. destruct (suf (fst c)) eqn:E; [|reflexivity]. exfalso. apply H. exists c. split; [auto|].
      apply suf_spec; auto. }
  assert (nn = 0 <-> ~ exists c, In c checks /\ is_necessary (fst c)) as Hnn.
  { unfold nn. rewrite filter_length_0. split.
    - intros H (c & Hc & Hs). apply nec_spec in Hs; [|auto]. rewrite H in Hs by auto. discriminate.
    - intros H c Hc. destruct (nec (fst c)) eqn:E; [|reflexivity]. exfalso. apply H. exists c. split; [auto|].
      apply nec_spec; auto. }
  assert (forallb (fun c => negb (nec (fst c)) || holds (snd c)) checks = true <->
          forall c, In c checks -> is_necessary (fst c) -> snd c = Ok true) as Hall.
  { rewrite forallb_forall. split; intros H c Hc.
    - intros Hn. apply nec_spec in Hn; [|auto]. specialize (H c Hc). rewrite Hn in H. apply holds_spec; auto.
    - destruct (nec (fst c)) eqn:E; [|reflexivity]. apply holds_spec, H; auto. apply nec_spec; auto. }
  assert (existsb (fun c => suf (fst c) && holds (snd c)) checks = true <->
          exists c, In c checks /\ is_sufficient (fst c) /\ snd c = Ok true) as Hany.
  { rewrite existsb_exists. split; intros (c & Hc & H); exists c; (split; [auto|]).
    - apply andb_true_iff in H as [H1 H2]. split; [apply suf_spec; auto|apply holds_spec; auto].
    - destruct H as [H1 H2]. apply suf_spec in H1; [|auto]. rewrite H1, H2. reflexivity. }
  destruct (Nat.eqb_spec nn 0) as [En|En], (Nat.eqb_spec ns 0) as [Es|Es]; simpl.
  - split; [discriminate|]. intros ((c & Hc & Hm) & _). exfalso.
    apply Hns in Es. apply Hnn in En. destruct (HP c Hc) as [H|[H|H]]; eauto.
  - rewrite andb_true_iff, orb_false_r, Hall, Hany. split.
    + intros [H1 (c & Hc & Hs & Ht)]. split; [exists c; split; auto|]; [|split; eauto].
      unfold is_monitor, is_sufficient in *. intros E. destruct Hs; congruence.
    + intros (_ & H1 & H2). split; [auto|]. apply H2.
      assert (~ ~ exists c, In c checks /\ is_sufficient (fst c)) as N by (intros N; apply Hns in N; auto).
      unfold ns in Es. destruct (filter (fun c => suf (fst c)) checks) as [|c l] eqn:E; [simpl in Es; lia|].
      assert (In c (filter (fun c => suf (fst c)) checks)) as Hc by (rewrite E; left; auto).
      apply filter_In in Hc as [Hc Hs]. exists c. split; [auto|]. apply suf_spec; auto.
  - rewrite orb_true_r, andb_true_r, Hall. split.
    + intros H. unfold nn in En. destruct (filter (fun c => nec (fst c)) checks) as [|c l] eqn:E; [simpl in En; lia|].
      assert (In c (filter (fun c => nec (fst c)) checks)) as Hc by (rewrite E; left; auto).
      apply filter_In in Hc as [Hc Hs]. apply nec_spec in Hs; [|auto]. split.
      * exists c. split; [auto|]. unfold is_monitor, is_necessary in *. intros E'. destruct Hs; congruence.
      * split; [auto|]. intros N. exfalso. apply Hns in Es. auto.
    + intros (_ & H & _). auto.
  - rewrite andb_true_iff, orb_false_r, Hall, Hany. split.
    + intros [H1 (c & Hc & Hs & Ht)]. split; [exists c; split; auto|]; [|split; eauto].
      unfold is_monitor, is_sufficient in *. intros E. destruct Hs; congruence.
    + intros (_ & H1 & H2). split; [auto|]. apply H2.
      unfold ns in Es. destruct (filter (fun c => suf (fst c)) checks) as [|c l] eqn:E; [simpl in Es; lia|].
      assert (In c (filter (fun c => suf (fst c)) checks)) as Hc by (rewrite E; left; auto).
      apply filter_In in Hc as [Hc Hs]. exists c. split; [auto|]. apply suf_spec; auto.
Qed.
Print Assumptions C40_policies.
(** Monitors have no influence: the verdict is that of the other criteria. *)
Theorem C40_monitors_no_influence :
  forall checks,
  Forall (fun c => is_policy (fst c) /\ verdict_or_failure (snd c)) checks ->
  check_convergence (filter (fun c => negb (String.eqb (fst c) "m")) checks) = check_convergence checks.
Proof.
  intros checks HF. unfold check_convergence. generalize (mkAcc true 0 false 0). intros a. f_equal.
  revert a. induction HF as [|[p r] checks [Hp Hr] HF IH]; intros a; [reflexivity|].
  cbn [filter fst] in *. destruct (String.eqb_spec p "m") as [->|Hm]; cbn [negb check_loop].
  - destruct Hr as [[b Hr]|Hr]; cbn [snd] in Hr; subst r; cbn; apply IH.
  - destruct (match r with Ok b => Ok b | Err e => if is_check_error e then Ok false else Err e end); [apply IH|reflexivity].
Qed.
Print Assumptions C40_monitors_no_influence.
(** Any other exception of a criterion is not a verdict: it ends the run. *)
Theorem C40_other_errors_propagate :
  forall checks c e, In c checks -> snd c = Err e -> e <> ConvergenceCheckError ->
  exists e', check_convergence checks = Err e'.
Proof.
  intros checks c e Hc Hs He. unfold check_convergence.
  destruct (check_loop_crash checks (mkAcc true 0 false 0)) as [e' H].
  - apply existsb_exists. exists c. split; [auto|]. rewrite Hs. destruct e; try reflexivity; congruence.
  - rewrite H. exists e'. reflexivity.
Qed.
Print Assumptions C40_other_errors_propagate.
(** Which policies are accepted: the four names in any case; nothing means necessary. *)
Theorem C40_accepted_policies :
  set_policy None = Ok "n"%string
  /\ (forall s, is_policy (lower s) -> set_policy (Some (PStr s)) = Ok (lower s))
  /\ (forall v, (forall s, v = PStr s -> ~ is_policy (lower s)) -> set_policy (Some v) = Err ValueError).
Proof.
  assert (forall s, existsb (String.eqb (lower s)) all_policies = true <-> is_policy (lower s)) as H.
  { intros s. unfold is_policy, is_necessary, is_sufficient, is_monitor. simpl. rewrite !orb_true_iff, !String.eqb_eq.
    split; [intros [?|[?|[?|[?|?]]]]; auto; discriminate|tauto]. }
  split; [reflexivity|]. split.
  - intros s Hs. simpl. apply H in Hs. simpl in Hs. rewrite Hs. reflexivity.
  - intros v Hv. destruct v; try reflexivity. simpl. destruct (existsb (String.eqb (lower s)) all_policies) eqn:E.
    + exfalso. apply (Hv s); auto. apply H; auto.
    + simpl in E. rewrite E. reflexivity.
Qed.
Print Assumptions C40_accepted_policies.
Example C40_case_conv :
  check_convergence [("n", Ok true); ("m", Err ConvergenceCheckError); ("s", Ok false); ("ns", Ok true)]%string = Ok true.
Proof. reflexivity. Qed.
(** A sufficient criterion is not enough when a necessary one fails to compute. *)
Example C40_case_nec : check_convergence [("n", Err ConvergenceCheckError); ("s", Ok true)]%string = Ok false.
Proof. reflexivity. Qed.
Example C40_case_monitor : check_convergence [("m", Ok true)]%string = Ok false.
Proof. reflexivity. Qed.
Example C40_case_upper : set_policy (Some (PStr "NS")) = Ok "ns"%string.
Proof. reflexivity. Qed.

(** ** C41 *)
Theorem C41_same_verdict :
  forall aware size (results : nat -> res bool), size <> 0 ->
  (forall r, r < size -> aware = true \/ r = 0 -> verdict_or_failure (results r)) ->
  exists v, (forall r, r < size -> is_converged_MPIwrapped aware size results r = v)
  /\ ((exists r, r < size /\ (aware = true \/ r = 0) /\ results r = Err ConvergenceCheckError) ->
      v = Raised ConvergenceCheckError)
  /\ (~ (exists r, r < size /\ (aware = true \/ r = 0) /\ results r = Err ConvergenceCheckError) ->
      exists b, results 0 = Ok b /\ v = Returned b).
Proof.
  intros aware size results Hs Hv.
  assert (forall r, r < size -> takes_part aware r = true <-> aware = true \/ r = 0) as Ht.
  { intros r _. unfold takes_part. rewrite orb_true_iff, Nat.eqb_eq. tauto. }
  assert (forall r, r < size -> crashed aware results r = None) as Hc.
  { intros r Hr. unfold crashed. destruct (takes_part aware r) eqn:E; [|reflexivity].
    apply Ht in E; [|auto]. destruct (Hv r Hr E) as [[b ->]| ->]; reflexivity. }
  assert (existsb (fun q => match crashed aware results q with Some _ => true | None => false end) (seq 0 size) = false) as Hn.
  { apply not_true_iff_false. intros H. apply existsb_exists in H as (q & Hq & H).
    apply in_seq in Hq. rewrite Hc in H by lia. discriminate. }
  exists (if existsb (failed aware results) (seq 0 size) then Raised ConvergenceCheckError
          else match results 0 with Ok b => Returned b | Err e => Raised e end).
  split; [intros r Hr; unfold is_converged_MPIwrapped; rewrite Hc, Hn by auto; reflexivity|].
  assert (existsb (failed aware results) (seq 0 size) = true <->
          exists r, r < size /\ (aware = true \/ r = 0) /\ results r = Err ConvergenceCheckError) as He.
  { rewrite existsb_exists. split.
    - intros (r & Hr & H). apply in_seq in Hr. unfold failed in H. apply andb_true_iff in H as [H1 H2].
      exists r. split; [lia|]. split; [apply Ht; [lia|auto]|].
      destruct (Hv r) as [[b E]|E]; [lia|apply Ht; [lia|auto]| |auto]. rewrite E in H2. discriminate.
    - intros (r & Hr & H1 & H2). exists r. split; [apply in_seq; lia|]. unfold failed. rewrite H2.
      apply Ht in H1; [|auto]. rewrite H1. reflexivity. }
  split.
  - intros H. apply He in H. rewrite H. reflexivity.
  - intros H. destruct (existsb (failed aware results) (seq 0 size)); [exfalso; tauto|].
    destruct (Hv 0) as [[b E]|E]; [lia|auto| |].
    + exists b. rewrite E. auto.
    + exfalso. apply H. exists 0. repeat split; auto; lia.
Qed.
Print Assumptions C41_same_verdict.
(** What does not hold: an exception of another type in some processes only; the processes are not
    told, they end up differently. *)
Theorem C41_other_exceptions_refuted :
  exists size (results : nat -> res bool) r1 r2, r1 < size /\ r2 < size
    /\ is_converged_MPIwrapped true size results r1 <> is_converged_MPIwrapped true size results r2.
Proof.
  exists 2, (fun r => if r =? 0 then Ok true else Err AttributeError), 0, 1. repeat split; [lia..|].
  vm_compute. discriminate.
Qed.
Print Assumptions C41_other_exceptions_refuted.
Example C41_case : map (is_converged_MPIwrapped true 3 (fun r => if r =? 1 then Err ConvergenceCheckError else Ok true)) [0; 1; 2]
  = repeat (Raised ConvergenceCheckError) 3.
Proof. reflexivity. Qed.
Example C41_case_main_only : map (is_converged_MPIwrapped false 3 (fun r => if r =? 0 then Ok true else Err KeyError)) [0; 1; 2]
  = repeat (Returned true) 3.
Proof. reflexivity. Qed.

(** ** C42 *)
Section C42.
Variables reltol abstol : num.
Definition flags (b : batch) : list bool :=
  map (correct reltol abstol (gp_y_max b)) (filter (fun p => negb (neqb (fst p) NInf)) (combine (new_y b) (pred_y b))).
Lemma flags_spec b : flags b = map (fun p => correct reltol abstol (snd p) (fst p)) (finite_points b).
Proof. unfold flags, finite_points. rewrite map_map. reflexivity. Qed.
Lemma correct_within p : correct reltol abstol (snd p) (fst p) = true <-> within reltol abstol p.
Proof. destruct p as [[t q] m]. reflexivity. Qed.

Lemma counter_step nc c b :
  length (new_y b) = length (pred_y b) -> new_y b <> [] \/ (values (cc_hist c) <> [] /\ cc_thres c <> []) ->
  exists c', counter_is_converged reltol abstol nc c (new_y b) (pred_y b) (gp_y_max b) (gp_total b) (gp_n b)
    = (c', Ok (nltb nc (nz (Z.of_nat (n_pred c')))))
  /\ n_pred c' = run_from (n_pred c) (flags b)
  /\ values (cc_hist c') <> [] /\ cc_thres c' <> []
  /\ length (values (cc_hist c')) = S (length (values (cc_hist c)))
  /\ n_posterior_evals (cc_hist c') = n_posterior_evals (cc_hist c) ++ [gp_total b]
  /\ n_accepted_evals (cc_hist c') = n_accepted_evals (cc_hist c) ++ [gp_n b]
  /\ length (cc_thres c') = S (length (cc_thres c)).
Proof.
  intros Hl Hne. unfold counter_is_converged. rewrite Hl, Nat.eqb_refl. cbn [negb].
  set (a := fold_left _ _ _). assert (b_pred a = run_from (n_pred c) (flags b)) as Ha by (unfold a; rewrite fold_pred; reflexivity).
  clearbody a.
  assert (forall A (l : list A) x, l ++ [x] <> []) as Happ by (intros A [|? ?] x; discriminate).
  destruct (new_y b) as [|y ys] eqn:En.
  - destruct Hne as [Hne|[H1 H2]]; [congruence|].
    destruct (rev (values (cc_hist c))) as [|v vs] eqn:E1.
    { exfalso. apply H1. rewrite <- (rev_involutive (values (cc_hist c))), E1. reflexivity. }
    destruct (rev (cc_thres c)) as [|t ts] eqn:E2.
    { exfalso. apply H2. rewrite <- (rev_involutive (cc_thres c)), E2. reflexivity. }
    lazymatch goal with |- exists _, (?x, _) = _ /\ _ => exists x end. split; [reflexivity|]. cbn [n_pred cc_hist cc_thres record values n_posterior_evals n_accepted_evals]. split; [exact Ha|].
    rewrite !app_length; cbn [length]. repeat split; auto; lia.
  - lazymatch goal with |- exists _, (?x, _) = _ /\ _ => exists x end. split; [reflexivity|]. cbn [n_pred cc_hist cc_thres record values n_posterior_evals n_accepted_evals]. split; [exact Ha|].
    rewrite !app_length; cbn [length]. repeat split; auto; lia.
Qed.
Lemma counter_run_spec nc bs : forall c,
  Forall (fun b => length (new_y b) = length (pred_y b)) bs ->
  (forall b bs', bs = b :: bs' -> new_y b <> [] \/ (values (cc_hist c) <> [] /\ cc_thres c <> [])) ->
  exists c' rs, counter_run reltol abstol nc c bs = (c', rs)
  /\ n_pred c' = run_from (n_pred c) (concat (map flags bs))
  /\ n_posterior_evals (cc_hist c') = n_posterior_evals (cc_hist c) ++ map gp_total bs
  /\ n_accepted_evals (cc_hist c') = n_accepted_evals (cc_hist c) ++ map gp_n bs
  /\ length (values (cc_hist c')) = length (values (cc_hist c)) + length bs
  /\ length (cc_thres c') = length (cc_thres c) + length bs
  /\ rs = map (fun k => Ok (nltb nc (nz (Z.of_nat (run_from (n_pred c) (concat (map flags (firstn (S k) bs)))))))) (seq 0 (length bs)).
Proof.
  induction bs as [|b bs IH]; intros c HF Hne.
  - exists c, []. simpl. rewrite !app_nil_r, !Nat.add_0_r. repeat split.
  - inversion HF as [|? ? Hb HF']; subst.
    destruct (counter_step nc c b Hb (Hne b bs eq_refl)) as (c1 & E & Hn & Hv & Ht & L1 & L2 & L3 & L4).
    destruct (IH c1 HF') as (c2 & rs & E2 & Hn2 & P1 & P2 & P3 & P4 & Hrs); [intros; right; split; auto|].
    exists c2, (Ok (nltb nc (nz (Z.of_nat (n_pred c1)))) :: rs).
    cbn [counter_run]. rewrite E, E2. split; [reflexivity|].
    cbn [map concat length]. rewrite run_from_app, <- Hn.
    split; [exact Hn2|]. rewrite P1, P2, P3, P4, L1, L2, L3, L4, <- !app_assoc. repeat split; try lia.
    cbn [seq map firstn concat]. rewrite app_nil_r, <- Hn. f_equal. rewrite Hrs, <- seq_shift, map_map.
    apply map_ext. intros k. cbn [firstn map concat]. rewrite run_from_app, <- Hn. reflexivity.
Qed.
End C42.

(** After any batches of points the verdict of the last check is: more than [n_correct] points at
    the end of all the finite points evaluated so far, in order, were predicted within tolerance. *)
Theorem C42_correct_counter :
  forall reltol abstol n_correct first bs,
  new_y first <> [] ->
  Forall (fun b => length (new_y b) = length (pred_y b)) (first :: bs) ->
  exists c rs, counter_run reltol abstol n_correct new_counter (first :: bs) = (c, rs)
  /\ length rs = S (length bs)
  /\ forall i, i <= length bs -> exists verdict, nth_error rs i = Some (Ok verdict)
     /\ (verdict = true <->
         exists k, nltb n_correct (nz (Z.of_nat k)) = true
                   /\ last_all k (within reltol abstol) (concat (map finite_points (firstn (S i) (first :: bs))))).
Proof.
  intros reltol abstol nc first bs Hne HF.
  destruct (counter_run_spec reltol abstol nc (first :: bs) new_counter HF) as (c & rs & E & _ & _ & _ & _ & _ & Hrs).
  { intros b bs' H. injection H as <- _. left; auto. }
  exists c, rs. split; [exact E|]. split; [rewrite Hrs, map_length, seq_length; reflexivity|].
  intros i Hi. rewrite Hrs, nth_error_map, (nth_error_nth' _ 0) by (rewrite seq_length; simpl; lia).
  rewrite seq_nth by (simpl; lia). cbn [option_map]. eexists. split; [reflexivity|].
  cbn [Nat.add n_pred new_counter].
  set (pts := concat (map finite_points (firstn (S i) (first :: bs)))).
  assert (concat (map (flags reltol abstol) (firstn (S i) (first :: bs))) =
          map (fun p => correct reltol abstol (snd p) (fst p)) pts) as Ef.
  { unfold pts. rewrite concat_map, map_map. f_equal. apply map_ext. apply flags_spec. }
  rewrite Ef. set (fl := map _ pts). clear Ef.
  assert (forall k, k <= run_from 0 fl <-> last_all k (within reltol abstol) pts) as Hk.
  { intros k. rewrite run_suffix. unfold last_all, fl. split.
    - intros (pre & suf & H & Hl & Hs). apply map_eq_app in H as (p1 & s1 & -> & <- & <-).
      exists p1, s1. rewrite map_length in Hl. repeat split; auto. rewrite Forall_map in Hs.
      eapply Forall_impl; [|exact Hs]. intros p H. apply correct_within. auto.
    - intros (pre & suf & -> & Hl & Hs). rewrite map_app. do 2 eexists. split; [reflexivity|].
      rewrite map_length. split; [auto|]. rewrite Forall_map. eapply Forall_impl; [|exact Hs].
      intros p H. symmetry. apply correct_within. auto. }
  split.
  - intros H. exists (run_from 0 fl). split; [auto|]. apply Hk. lia.
  - intros (k & H1 & H2). apply Hk in H2. eapply nltb_nz_mono; [|exact H1]. lia.
Qed.
Print Assumptions C42_correct_counter.
Definition half := nq 1 2.
Example C42_case :
  let b1 := mkBatch [nz 1; NInf; nz 5] [nz 9; nz 0; nz 5] (nz 5) 3 2 in
  let b2 := mkBatch [] [] (nz 5) 3 2 in
  let b3 := mkBatch [nz 4] [nz 4] (nz 5) 4 3 in
  snd (counter_run (nz 0) half (nz 1) new_counter [b1; b2; b3]) = [Ok false; Ok false; Ok true].
Proof. vm_compute. reflexivity. Qed.
(** One entry per call in the histories. *)
Theorem C42_histories :
  forall reltol abstol n_correct first bs,
  new_y first <> [] ->
  Forall (fun b => length (new_y b) = length (pred_y b)) (first :: bs) ->
  let h := cc_hist (fst (counter_run reltol abstol n_correct new_counter (first :: bs))) in
  length (values h) = S (length bs)
  /\ n_posterior_evals h = map gp_total (first :: bs)
  /\ n_accepted_evals h = map gp_n (first :: bs).
Proof.
  intros reltol abstol nc first bs Hne HF h.
  destruct (counter_run_spec reltol abstol nc (first :: bs) new_counter HF) as (c & rs & E & _ & H1 & H2 & H3 & _).
  { intros b bs' H. injection H as <- _. left; auto. }
  unfold h. rewrite E. cbn [fst]. rewrite H1, H2, H3. repeat split.
Qed.
Print Assumptions C42_histories.
(** Not so if the first batch is empty: the call raises IndexError. *)
Theorem C42_empty_first_batch_refuted :
  exists b, length (new_y b) = length (pred_y b)
  /\ forall reltol abstol nc,
     counter_run reltol abstol nc new_counter [b] = (new_counter, [Err IndexError]).
Proof. exists (mkBatch [] [] NInf 0 0). split; reflexivity. Qed.
Print Assumptions C42_empty_first_batch_refuted.

(** ** C43: the documentation says that [n_correct] consecutive correct predictions are needed; that
    many are not enough. *)
Theorem C43_n_correct_refuted :
  exists b, last_all 4 (within (nq 1 100) (nq 1 100)) (finite_points b)
  /\ snd (counter_run (nq 1 100) (nq 1 100) (nz 4) new_counter [b]) = [Ok false].
Proof.
  exists (mkBatch (repeat (nz (-1)) 4) (repeat (nz (-1)) 4) (nz 0) 4 4). split.
  - exists [], (finite_points (mkBatch (repeat (nz (-1)) 4) (repeat (nz (-1)) 4) (nz 0) 4 4)).
    split; [reflexivity|]. split; [reflexivity|]. repeat constructor.
  - vm_compute. reflexivity.
Qed.
Print Assumptions C43_n_correct_refuted.
(** What holds: one more is enough, whatever the batches. *)
Theorem C43_one_more :
  forall reltol abstol (n_correct : nat) first bs,
  new_y first <> [] ->
  Forall (fun b => length (new_y b) = length (pred_y b)) (first :: bs) ->
  last_all (S n_correct) (within reltol abstol) (concat (map finite_points (first :: bs))) ->
  nth_error (snd (counter_run reltol abstol (nz (Z.of_nat n_correct)) new_counter (first :: bs))) (length bs)
    = Some (Ok true).
Proof.
  intros reltol abstol n first bs Hne HF Hl.
  destruct (C42_correct_counter reltol abstol (nz (Z.of_nat n)) first bs Hne HF) as (c & rs & E & _ & H).
  rewrite E. cbn [snd]. destruct (H (length bs)) as (v & Hv & Hi); [lia|]. rewrite Hv. do 2 f_equal. apply Hi.
  exists (S n). split.
  - simpl. apply qltb_lt. unfold Qclt, qc_of_Z. change (this (Q2Qc ?q)) with (Qred q).
    rewrite !Qred_correct. rewrite <- Zlt_Qlt. lia.
  - change (S (length bs)) with (length (first :: bs)). rewrite firstn_all. exact Hl.
Qed.
Print Assumptions C43_one_more.

(** ** C68: the value that CorrectCounter records *)
Definition abs_diff (p : num * num * num) : num := let '(t, q, _) := p in nabs (nsub q t).
Definition ratio (reltol abstol : num) (p : num * num * num) : num :=
  let '(t, q, m) := p in
  ndiv (nabs (nsub q t)) (nadd (nmul (nabs (nsub t m)) reltol) abstol).
(** Documented as the largest difference in the batch; it is not. *)
Theorem C68_largest_difference_refuted :
  exists b p, In p (finite_points b)
  /\ exists v, values (cc_hist (fst (counter_run half half (nz 4) new_counter [b]))) = [v]
  /\ nltb v (abs_diff p) = true.
Proof.
  exists (mkBatch [nz 0; nz (-9)] [nz 1; nz (-7)] (nz 0) 2 2), (nz (-9), nz (-7), nz 0).
  split; [right; left; reflexivity|]. exists (nz 1). split; vm_compute; reflexivity.
Qed.
Print Assumptions C68_largest_difference_refuted.
Lemma nltb_trans a b c : nltb a b = true -> nltb b c = true -> nltb a c = true.
Proof.
  destruct a, b, c; simpl; try discriminate; auto. intros H1 H2. apply qltb_lt in H1, H2. apply qltb_lt.
  eapply Qclt_trans; eauto.
Qed.
Lemma max_fold reltol abstol y_max pts : forall a done,
  (forall p, In p done -> nltb (max_val a) (ratio reltol abstol (p, y_max)) = false) ->
  (max_diff a = nz 0 /\ max_val a = nz 0 \/ exists p, In p done /\ max_diff a = abs_diff (p, y_max) /\ max_val a = ratio reltol abstol (p, y_max)) ->
  let a' := fold_left (count_point reltol abstol y_max) pts a in
  let all := done ++ filter (fun p => negb (neqb (fst p) NInf)) pts in
  (forall p, In p all -> nltb (max_val a') (ratio reltol abstol (p, y_max)) = false) /\
  (max_diff a' = nz 0 /\ max_val a' = nz 0 \/ exists p, In p all /\ max_diff a' = abs_diff (p, y_max) /\ max_val a' = ratio reltol abstol (p, y_max)).
Proof.
  induction pts as [|[yn yl] pts IH]; intros a done H1 H2; cbn [fold_left filter fst].
  - rewrite app_nil_r. auto.
  - unfold count_point at 2 4 6 8 10. destruct (neqb yn NInf) eqn:En; cbn [negb].
    + apply IH; auto.
    + assert (forall (a1 : batch_acc) all pts', 
        (forall p, In p (done ++ [(yn, yl)]) -> nltb (max_val a1) (ratio reltol abstol (p, y_max)) = false) ->
        (max_diff a1 = nz 0 /\ max_val a1 = nz 0 \/ exists p, In p (done ++ [(yn, yl)]) /\ max_diff a1 = abs_diff (p, y_max) /\ max_val a1 = ratio reltol abstol (p, y_max)) ->
        all = done ++ (yn, yl) :: filter (fun p => negb (neqb (fst p) NInf)) pts -> pts' = pts ->
        (forall p, In p all -> nltb (max_val (fold_left (count_point reltol abstol y_max) pts' a1)) (ratio reltol abstol (p, y_max)) = false) /\
        (max_diff (fold_left (count_point reltol abstol y_max) pts' a1) = nz 0 /\ max_val (fold_left (count_point reltol abstol y_max) pts' a1) = nz 0 \/
         exists p, In p all /\ max_diff (fold_left (count_point reltol abstol y_max) pts' a1) = abs_diff (p, y_max) /\ max_val (fold_left (count_point reltol abstol y_max) pts' a1) = ratio reltol abstol (p, y_max))) as G.
      { intros a1 all pts' G1 G2 -> ->. pose proof (IH a1 (done ++ [(yn, yl)]) G1 G2) as G. cbn zeta in G.
        rewrite <- app_assoc in G. exact G. }
      apply G; try reflexivity; clear G IH; cbn [max_val max_diff].
      * intros p Hp. change (ndiv (nabs (nsub yl yn)) (tolerance reltol abstol y_max yn)) with (ratio reltol abstol ((yn, yl), y_max)).
        destruct (nltb (max_val a) (ratio reltol abstol ((yn, yl), y_max))) eqn:El; cbn [max_val]; apply in_app_iff in Hp as [Hp|[<-|[]]]; auto.
        -- apply not_true_iff_false. intros N. pose proof (nltb_trans _ _ _ El N) as N2. rewrite H1 in N2; [discriminate|auto].
        -- apply not_true_iff_false. intros N. destruct (ratio reltol abstol (yn, yl, y_max)); simpl in N; try discriminate.
           apply qltb_lt in N. unfold Qclt in N. lra.
      * change (ndiv (nabs (nsub yl yn)) (tolerance reltol abstol y_max yn)) with (ratio reltol abstol ((yn, yl), y_max)).
        destruct (nltb (max_val a) (ratio reltol abstol ((yn, yl), y_max))) eqn:El; cbn [max_val max_diff].
        -- right. exists (yn, yl). split; [apply in_app_iff; right; left; auto|]. split; reflexivity.
        -- destruct H2 as [H2|(p & Hp & H2)]; [left; auto|]. right. exists p. split; [apply in_app_iff; auto|auto].
Qed.
(** What holds: it is the difference of a point whose ratio difference/tolerance is the largest (or
    zero if no ratio is above zero). *)
Theorem C68_worst_ratio :
  forall reltol abstol n_correct c b,
  new_y b <> [] -> length (new_y b) = length (pred_y b) ->
  exists v worst,
  values (cc_hist (fst (counter_is_converged reltol abstol n_correct c (new_y b) (pred_y b) (gp_y_max b) (gp_total b) (gp_n b))))
    = values (cc_hist c) ++ [v]
  /\ (v = nz 0 /\ worst = nz 0
      \/ exists p, In p (finite_points b) /\ v = abs_diff p /\ worst = ratio reltol abstol p)
  /\ (forall p, In p (finite_points b) -> nltb worst (ratio reltol abstol p) = false).
Proof.
  intros reltol abstol nc c b Hne Hl. unfold counter_is_converged. rewrite Hl, Nat.eqb_refl. cbn [negb].
  pose proof (max_fold reltol abstol (gp_y_max b) (combine (new_y b) (pred_y b)) (mkBA (n_pred c) (nz 0) (nz 0) (nz 0)) []) as H.
  destruct H as [H1 H2]; [intros p []|left; auto|]. cbn [app] in H1, H2.
  set (a := fold_left _ _ _) in *. clearbody a. destruct (new_y b) as [|y ys] eqn:En; [congruence|].
  exists (max_diff a), (max_val a). cbn [fst cc_hist record values]. split; [reflexivity|].
  unfold finite_points. rewrite En. split.
  - destruct H2 as [H2|(p & Hp & H2)]; [left; auto|]. right. exists (p, gp_y_max b). split; [|auto].
    apply in_map_iff. eauto.
  - intros p Hp. apply in_map_iff in Hp as (q & <- & Hq). auto.
Qed.
Print Assumptions C68_worst_ratio.

(** ** C44 *)
Section C44.
Context {M : Type}.
Variable kl : M -> M -> res num.
Notation value := (gaussian_kl_value kl).
Implicit Types (c : klcrit M) (ks : list (klcall M)).

Lemma latest_snoc ks (k : klcall M) :
  latest (ks ++ [k]) = match new_mc k with Ok m => Some m | Err _ => latest ks end.
Proof.
  induction ks as [|k' ks IH]; simpl; [destruct (new_mc k); reflexivity|].
  rewrite IH. destruct (new_mc k) as [m|e]; [reflexivity|]. reflexivity.
Qed.
(** One call, whatever happened before. *)
Lemma gaussian_step c before k : last_mc c = latest before ->
  (forall e, new_mc k = Err e -> e = ConvergenceCheckError) ->
  let '(c', r) := value c k in
  hist c' = record (hist c) (expected_kl kl before k) (c_total k) (c_n k)
  /\ last_mc c' = latest (before ++ [k])
  /\ match r with Ok v => v = expected_kl kl before k | Err e => e = ConvergenceCheckError /\ expected_kl kl before k = NaN end.
Proof.
  intros Hl He. unfold gaussian_kl_value, fail_record, expected_kl. rewrite latest_snoc, <- Hl.
  destruct (new_mc k) as [new|e] eqn:En.
  - destruct (last_mc c) as [old|]; [|repeat split; reflexivity].
    destruct (kl new old) as [v|e]; [|repeat split; reflexivity].
    destruct (nltb v (nz 0)); repeat split; reflexivity.
  - rewrite (He e eq_refl). simpl. repeat split; auto.
Qed.
Fixpoint expected (before ks : list (klcall M)) : list num :=
  match ks with [] => [] | k :: ks' => expected_kl kl before k :: expected (before ++ [k]) ks' end.
Definition suffix_small limit times (vals : list num) : bool := all_small limit (py_last times vals).
Lemma kl_run_spec limit times ks : forall c before, last_mc c = latest before -> only_check_errors ks ->
  let '(c', rs) := kl_run value limit times c ks in
  values (hist c') = values (hist c) ++ expected before ks
  /\ n_posterior_evals (hist c') = n_posterior_evals (hist c) ++ map c_total ks
  /\ n_accepted_evals (hist c') = n_accepted_evals (hist c) ++ map c_n ks
  /\ length rs = length ks
  /\ forall i r, nth_error rs i = Some r ->
     exists v, nth_error (expected before ks) i = Some v
     /\ ((exists b, r = Ok b /\ b = suffix_small limit times (values (hist c) ++ firstn (S i) (expected before ks)))
         \/ (r = Err ConvergenceCheckError /\ v = NaN)).
Proof.
  induction ks as [|k ks IH]; intros c before Hl HF; cbn [kl_run].
  - simpl. rewrite !app_nil_r. repeat split. intros [|i] r; discriminate.
  - inversion HF as [|? ? Hk HF']; subst. unfold kl_is_converged.
    pose proof (gaussian_step c before k Hl Hk) as G. destruct (value c k) as [c1 r0]. destruct G as (G1 & G2 & G3).
    specialize (IH c1 (before ++ [k]) G2 HF'). destruct (kl_run value limit times c1 ks) as [c2 rs].
    destruct IH as (I1 & I2 & I3 & I4 & I5). rewrite G1 in I1, I2, I3, I5.
    cbn [record values n_posterior_evals n_accepted_evals] in I1, I2, I3, I5.
    rewrite <- app_assoc in I1, I2, I3. cbn [app expected map] in *.
    repeat split; [auto..|cbn [length]; lia|].
    intros [|i] r Hr; cbn [nth_error firstn] in Hr |- *.
    + injection Hr as <-. eexists. split; [reflexivity|]. destruct r0 as [v|e]; cbn [bind].
      * left. eexists. split; [reflexivity|]. rewrite G1. reflexivity.
      * destruct G3 as [-> E]. right. auto.
    + destruct (I5 i r Hr) as (v & Hv & H). exists v. split; [auto|].
      destruct H as [(b & -> & ->)|H]; [left|right; auto]. eexists. split; [reflexivity|].
      rewrite <- app_assoc. reflexivity.
Qed.
Lemma all_small_spec limit l : all_small limit l = true <-> Forall (small limit) l.
Proof. unfold all_small, small. rewrite forallb_forall, Forall_forall. reflexivity. Qed.
Lemma nan_not_small limit : ~ small limit NaN.
Proof. unfold small. destruct limit; discriminate. Qed.
Lemma expected_length before ks : length (expected before ks) = length ks.
Proof. revert before. induction ks as [|k ks IH]; intros; simpl; auto. Qed.
Lemma expected_nth : forall ks before i k, nth_error ks i = Some k ->
  nth_error (expected before ks) i = Some (expected_kl kl (before ++ firstn i ks) k).
Proof.
  induction ks as [|k' ks IH]; intros before [|i] k H; try discriminate; simpl in H |- *.
  - injection H as ->. rewrite app_nil_r. reflexivity.
  - rewrite (IH (before ++ [k']) i k H), <- app_assoc. reflexivity.
Qed.
End C44.

(** GaussianKL, over every sequence of calls: each call adds to the histories its divergence with
    respect to the last approximation obtained before (NaN if undefined) and the numbers of
    points; a call ends with a failure, if its value is undefined, or else converges exactly when
    there are [limit_times] final values, all below the limit in absolute value. *)
Theorem C44_gaussian_kl :
  forall (M : Type) (kl : M -> M -> res num) limit limit_times (ks : list (klcall M)),
  limit_times <> 0 -> only_check_errors ks ->
  exists c rs, kl_run (gaussian_kl_value kl) limit limit_times new_kl ks = (c, rs)
  /\ length (values (hist c)) = length ks
  /\ (forall i k, nth_error ks i = Some k ->
        nth_error (values (hist c)) i = Some (expected_kl kl (firstn i ks) k))
  /\ n_posterior_evals (hist c) = map c_total ks /\ n_accepted_evals (hist c) = map c_n ks
  /\ length rs = length ks
  /\ forall i r, nth_error rs i = Some r ->
     (r = Err ConvergenceCheckError /\ nth_error (values (hist c)) i = Some NaN)
     \/ exists b, r = Ok b
        /\ (b = true <-> last_all limit_times (small limit) (firstn (S i) (values (hist c)))).
Proof.
  intros M kl limit times ks Ht HF.
  pose proof (kl_run_spec kl limit times ks new_kl [] eq_refl HF) as H.
  destruct (kl_run (gaussian_kl_value kl) limit times new_kl ks) as [c rs]. exists c, rs. split; [reflexivity|].
  cbn [hist new_kl empty_history values n_posterior_evals n_accepted_evals app] in H.
  destruct H as (H1 & H2 & H3 & H4 & H5). rewrite H1. repeat split; auto.
  - apply expected_length.
  - intros i k Hk. apply (expected_nth kl ks [] i k Hk).
  - intros i r Hr. destruct (H5 i r Hr) as (v & Hv & [(b & -> & ->)|[-> ->]]); [right|left; auto].
    eexists. split; [reflexivity|]. set (l := firstn (S i) (expected kl [] ks)). unfold suffix_small.
    destruct (Nat.le_gt_cases times (length l)) as [Hle|Hgt].
    + destruct (py_last_suffix times l Ht Hle) as (pre & E & El). rewrite all_small_spec. split.
      * intros Hs. exists pre, (py_last times l). auto.
      * intros (pre' & suf & E' & El' & Hs). rewrite (suffix_unique l _ _ _ _ E E'); [auto|lia].
    + split.
      * intros Hs. exfalso. apply all_small_spec in Hs. destruct ks as [|k ks]; [destruct i; discriminate Hv|].
        assert (l = NaN :: firstn i (expected kl [k] ks)) as El.
        { unfold l. cbn [expected firstn]. f_equal. unfold expected_kl. simpl. destruct (new_mc k); reflexivity. }
        assert (py_last times l = l) as Ep.
        { unfold py_last. destruct (times =? 0); [reflexivity|]. replace (length l - times) with 0 by lia. reflexivity. }
        rewrite Ep, El in Hs. inversion Hs as [|? ? N]. apply (nan_not_small limit) in N. auto.
      * intros (pre & suf & E & El & _). exfalso. assert (length l = length pre + length suf) by (rewrite E, app_length; reflexivity). lia.
Qed.
Print Assumptions C44_gaussian_kl.
(** Mean and covariance as numbers, their "divergence" the difference. *)
Definition toy_kl (a b : num) : res num := Ok (nabs (nsub a b)).
Definition toy_call (m : num) : klcall num := mkCall (Ok m) (Ok (nz 0)) 7 5.
Example C44_case :
  let '(c, rs) := kl_run (gaussian_kl_value toy_kl) (nq 1 50) 2 new_kl
    [toy_call (nz 1); toy_call (nz 1); mkCall (Err ConvergenceCheckError) (Ok (nz 0)) 7 5; toy_call (nz 1); toy_call (nz 1); toy_call (nz 3)] in
  values (hist c) = [NaN; nz 0; NaN; nz 0; nz 0; nz 2]
  /\ rs = [Err ConvergenceCheckError; Ok false; Err ConvergenceCheckError; Ok false; Ok true; Ok false].
Proof. vm_compute. split; reflexivity. Qed.
(** limit_times = 0 never converges (the whole history is required, and starts with NaN). *)
Example C44_case_zero : snd (kl_run (gaussian_kl_value toy_kl) (nz 1) 0 new_kl [toy_call (nz 1); toy_call (nz 1)])
  = [Err ConvergenceCheckError; Ok false].
Proof. reflexivity. Qed.

(** GaussianKLTrain is documented to need [limit_times] (2 by default) consecutive small values: one
    is enough at the first call. *)
Theorem C44_gaussian_kl_train_refuted :
  exists (kl : num -> num -> res num) (k : klcall num) limit c,
  kl_run (train_value kl (fun v => v)) limit 2 new_kl [k] = (c, [Ok true])
  /\ ~ last_all 2 (small limit) (values (hist c)).
Proof.
  exists toy_kl, (toy_call (nz 0)), (nz 1). eexists. split; [vm_compute; reflexivity|].
  cbn [hist values]. intros (pre & suf & E & El & _). apply (f_equal (@length num)) in E.
  rewrite app_length in E. simpl in E. lia.
Qed.
Print Assumptions C44_gaussian_kl_train_refuted.
(** What holds of GaussianKLTrain and TrainAlignment: the last [limit_times] values, or all of them if
    there are fewer, are below the limit; in particular with limit_times = 1 (the default of
    TrainAlignment) the last value is. *)
Theorem C44_train_partial :
  forall (M : Type) (kl : M -> M -> res num) cap limit limit_times (c : klcrit M) k,
  limit_times <> 0 ->
  let '(c', r) := kl_is_converged (train_value kl cap) limit limit_times c k in
  forall b, r = Ok b ->
  (exists new tr v, new_mc k = Ok new /\ train_mc k = Ok tr /\ kl new tr = Ok v /\ nltb v (nz 0) = false
      /\ values (hist c') = values (hist c) ++ [cap v]
      /\ n_posterior_evals (hist c') = n_posterior_evals (hist c) ++ [c_total k]
      /\ n_accepted_evals (hist c') = n_accepted_evals (hist c) ++ [c_n k])
  /\ (b = true <-> last_all (Nat.min limit_times (length (values (hist c')))) (small limit) (values (hist c'))).
Proof.
  intros M kl cap limit times c k Ht. unfold kl_is_converged, train_value, fail_record.
  destruct (new_mc k) as [new|e]; [|destruct (is_check_error e); intros b Hb; discriminate].
  destruct (train_mc k) as [tr|e]; [|intros b Hb; discriminate].
  destruct (kl new tr) as [v|e] eqn:Ek; [|intros b Hb; discriminate].
  destruct (nltb v (nz 0)) eqn:Ev; [intros b Hb; discriminate|].
  intros b Hb. cbn [bind] in Hb. injection Hb as <-. cbn [hist record values n_posterior_evals n_accepted_evals].
  split; [exists new, tr, v; repeat split; auto|].
  set (l := values (hist c) ++ [cap v]). rewrite all_small_spec.
  assert (exists pre, l = pre ++ py_last times l /\ length (py_last times l) = Nat.min times (length l)) as (pre & E & El).
  { destruct (Nat.le_gt_cases times (length l)) as [H|H].
    - destruct (py_last_suffix times l Ht H) as (pre & E & El). exists pre. split; [auto|lia].
    - exists []. unfold py_last. destruct (Nat.eqb_spec times 0) as [|_]; [contradiction|].
      replace (length l - times) with 0 by lia. cbn [skipn app]. split; [reflexivity|lia]. }
  split.
  - intros Hs. exists pre, (py_last times l). auto.
  - intros (pre' & suf & E' & El' & Hs). rewrite (suffix_unique l _ _ _ _ E E'); [auto|lia].
Qed.
Print Assumptions C44_train_partial.
(** Mean and covariance kept by GaussianKLTrain and TrainAlignment: those of the last sample that was compared with a training set. *)
Fixpoint last_compared {M} (before : option M) (ks : list (klcall M)) : option M :=
  match ks with
  | [] => before
  | k :: ks => last_compared (match new_mc k, train_mc k with Ok m, Ok _ => Some m | _, _ => before end) ks
  end.
Theorem C44_train_kept :
  forall (M : Type) (kl : M -> M -> res num) cap limit limit_times ks (c c' : klcrit M) rs,
  kl_run (train_value kl cap) limit limit_times c ks = (c', rs) -> last_mc c' = last_compared (last_mc c) ks.
Proof.
  intros M kl cap limit times. induction ks as [|k ks IH]; intros c c' rs E; cbn [kl_run last_compared] in *; [injection E as <- _; reflexivity|].
  destruct (kl_is_converged (train_value kl cap) limit times c k) as [c1 r] eqn:E1.
  destruct (kl_run (train_value kl cap) limit times c1 ks) as [c2 rs'] eqn:E2. injection E as <- _. rewrite (IH _ _ _ E2). f_equal.
  unfold kl_is_converged in E1. destruct (train_value kl cap c k) as [c3 r3] eqn:E3. injection E1 as <- _. unfold train_value, fail_record in E3.
  destruct (new_mc k) as [new|e].
  - destruct (train_mc k) as [tr|e]; [|injection E3 as <- _; reflexivity]. destruct (kl new tr) as [v|e]; [|injection E3 as <- _; reflexivity].
    destruct (nltb v (nz 0)); injection E3 as <- _; reflexivity.
  - destruct (is_check_error e); injection E3 as <- _; reflexivity.
Qed.
Print Assumptions C44_train_kept.
Example C44_case_kept :
  last_mc (fst (kl_run (train_value toy_kl (fun v => v)) half 1 new_kl
    [toy_call (nz 4); mkCall (Ok (nz 5)) (Err ValueError) 7 5; mkCall (Err ConvergenceCheckError) (Ok (nz 0)) 8 5])) = Some (nz 4).
Proof. reflexivity. Qed.
Example C44_case_train :
  snd (kl_run (train_value toy_kl (fun v => pymax v (nq 1 1000))) half 1 new_kl
         [toy_call (nz 1); toy_call (nq 1 4)]) = [Ok false; Ok true].
Proof. reflexivity. Qed.

(** ** C45 *)
Theorem C45_dont_converge :
  (forall h n_total n,
     snd (dont_converge h n_total n) = Ok false
     /\ n_posterior_evals (fst (dont_converge h n_total n)) = n_posterior_evals h ++ [n_total]
     /\ n_accepted_evals (fst (dont_converge h n_total n)) = n_accepted_evals h ++ [n]
     /\ values (fst (dont_converge h n_total n)) = values h ++ [NaN])
  /\ (exists p, dont_converge_policy = Ok p
      /\ forall before after h n_total n,
         check_convergence (before ++ (p, snd (dont_converge h n_total n)) :: after) <> Ok true).
Proof.
  split; [intros; repeat split; reflexivity|]. exists "n"%string. split; [reflexivity|].
  intros before after h n_total n. set (l := before ++ _). cbn [dont_converge snd] in l.
  unfold check_convergence. destruct (existsb (fun c : string * res bool => crashes (snd c)) l) eqn:E.
  - destruct (check_loop_crash l (mkAcc true 0 false 0) E) as [e ->]. discriminate.
  - rewrite check_loop_ok by auto. cbn [bind all_necessary n_necessary any_sufficient n_sufficient andb orb Nat.add].
    assert (forallb (fun c => negb (nec (fst c)) || holds (snd c)) l = false) as Hf.
    { apply not_true_iff_false. rewrite forallb_forall. intros H. specialize (H ("n"%string, Ok false)).
      unfold l in H. rewrite in_app_iff in H. assert (false = true) as N by (apply H; right; left; reflexivity). discriminate. }
    rewrite Hf. cbn [andb]. destruct (_ && _); discriminate.
Qed.
Print Assumptions C45_dont_converge.
Example C45_case : check_convergence [("s", Ok true); ("n", snd (dont_converge empty_history 3 2))]%string = Ok false.
Proof. reflexivity. Qed.

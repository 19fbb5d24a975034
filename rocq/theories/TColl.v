(** Property C100: processes never wait for each other for ever. The parts of a parallel run. *)
From Coq Require Import String.
From Verif Require Import Base Num MTools MMpi MColl PMpi PColl TMpi.
From Verif Require MConv MProgress.
Set Default Goal Selector "!".

Section Parts.
Context {P G : Type}.
Notation obj := (obj P G).
Notation prog := (prog obj).
Variable size : nat.
Hypothesis Hsize : size <> 0.

(** ** mpi.py *)
Lemma step_split_pts_all X (f : nat -> obj) : f 0 = OPts X ->
  spmd size (fun r => step_split_pts size r (f r)) = Finished (map (fun r => Ok (step_split size r X)) (seq 0 size)).
Proof.
  intros H. unfold step_split_pts. rewrite spmd_bcast by lia. rewrite H. cbn [as_pts]. apply spmd_ret. reflexivity.
Qed.
Lemma merge_split_all (v : nat -> list num) l : merge_step_split (Fin 0) (map v (seq 0 size)) = Ok l ->
  spmd (M := obj) size (fun r => merge_split size r (v r)) = Finished (map (fun r => Ok (if r =? 0 then Some l else None)) (seq 0 size)).
Proof.
  intros H. unfold merge_split. rewrite spmd_gather by auto. apply spmd_ret. intros r _. destruct (r =? 0); [|reflexivity].
  rewrite (mapM_map_ok as_vec OVec v) by reflexivity. cbn [local pbind pend]. rewrite H. reflexivity.
Qed.

(** C100, predictions in parallel: with any number of processes, whatever each of them is called with besides what the
    main process has, all of them end; the main process gets the result of the lockstep model [compute_y_parallel] (the
    subject of C02), the others nothing. *)
Definition has_comm (w : world) : bool := match w with NoMpi => false | Mpi _ => true end.
Theorem C100_predictions :
  forall (f g : P -> num) (w : world) (X : list P) (arg : nat -> obj) (y sigma : nat -> option (list num)) ensure,
  wsize w = size -> arg 0 = OPts X ->
  spmd size (fun r => compute_y size (has_comm w) (fun l => Ok (map f l)) (fun l => Ok (map g l)) r (arg r) (y r) (sigma r) ensure)
  = Finished (map (fun r => match compute_y_parallel f g w X (y 0) (sigma 0) ensure with
                            | Ok (m, s) => Ok (if r =? 0 then (Some m, s) else (None, None))
                            | Err x => Err x
                            end) (seq 0 size)).
Proof.
  intros f g w X arg y sigma ensure Hw Harg. unfold compute_y. rewrite spmd_bcast by lia.
  assert (forall h l, on_array (fun l : list P => Ok (map h l)) l = Ok (map h l)) as on by (intros h [|x l]; reflexivity).
  assert (forall h, merge_step_split (Fin 0) (map (fun r => map h (step_split size r X)) (seq 0 size)) = Ok (map h X)) as mg
    by (intros h; apply merge_step_split_map; auto).
  unfold compute_y_parallel. rewrite Hw.
  destruct (y 0) as [y0|]; cbn [OArr].
  - cbn [as_vec]. unfold local at 1. destruct w as [|n]; cbn [has_comm negb].
    { apply spmd_ended. reflexivity. }
    cbn [wsize] in Hw. subst n.
    etransitivity; [apply (spmd_bcast size 0 (fun r => OArr (sigma r))); lia|].
    destruct (sigma 0) as [s0|]; cbn [OArr].
    + cbn [as_vec local pbind pend]. apply spmd_ret. intros r _. destruct (r =? 0); reflexivity.
    + destruct ensure.
      * rewrite (spmd_bind size _ _ (fun r => step_split size r X)) by (apply step_split_pts_all; auto).
        etransitivity; [apply spmd_ext; intros r _; rewrite on; cbn [local]; rewrite bind_ret; reflexivity|].
        rewrite (spmd_bind size _ _ (fun r => if r =? 0 then Some (map g X) else None)) by (apply merge_split_all; auto).
        rewrite mg. cbn [bind]. apply spmd_ret. intros r _. destruct (r =? 0); reflexivity.
      * apply spmd_ret. intros r _. destruct (r =? 0); reflexivity.
  - rewrite (spmd_bind size _ _ (fun r => step_split size r X)) by (apply step_split_pts_all; auto).
    rewrite mg. cbn [bind].
    etransitivity.
    { apply spmd_ext. intros r _. rewrite on. rewrite bind_local.
      assert ((if ensure then on_array (fun l : list P => Ok (map g l)) (step_split size r X) else Ok [])
              = Ok (if ensure then map g (step_split size r X) else [])) as -> by (destruct ensure; auto).
      rewrite bind_local. reflexivity. }
    rewrite (spmd_bind size _ _ (fun r => if r =? 0 then Some (map f X) else None)) by (apply merge_split_all; auto).
    destruct ensure.
    + rewrite (spmd_bind size _ _ (fun r => if r =? 0 then Some (map g X) else None)) by (apply merge_split_all; auto).
      rewrite mg. cbn [bind]. apply spmd_ret. intros r _. destruct (r =? 0); reflexivity.
    + apply spmd_ret. intros r _. destruct (r =? 0); reflexivity.
Qed.

(** ** Evaluation of the truth *)
(** C100, evaluation of the truth: if it returns at all the points, all processes end, each with the values at all the
    points, in order. *)
Theorem C100_truth :
  forall (f : P -> num) (X : list P),
  spmd (M := obj) size (fun r => eval_truth size (fun x => Ok (f x)) r X) = Finished (map (fun _ => Ok (map f X)) (seq 0 size)).
Proof.
  intros f X. destruct (eval_truth_parallel_ok size f X Hsize) as (shares & E & _ & _). revert E.
  unfold eval_truth_parallel, eval_truth.
  destruct (C01_split_number (length X) size Hsize) as (counts & Ec & _). rewrite Ec. cbn [bind].
  intros E. injection E as Es Ey. cbn [local].
  assert (forall l, mapM (fun x : P => Ok (f x)) l = Ok (map f l)) as Em by (intros l; apply mapM_id; auto).
  etransitivity; [apply spmd_ext; intros r _; rewrite bind_ret, Em; cbn [local]; rewrite bind_ret; reflexivity|].
  unfold multiple in *. destruct (1 <? size) eqn:E1.
  - rewrite spmd_gather by auto. rewrite spmd_gather by auto.
    rewrite (spmd_bind size _ _ (fun r => if r =? 0 then OPair (OPts (concat shares)) (OVec (map f X)) else OPair ONone ONone)).
    2:{ apply spmd_ret. intros r _. destruct (r =? 0); [|reflexivity].
        rewrite (mapM_map_ok as_pts OPts (fun r0 => eval_share counts r0 X)) by reflexivity. rewrite bind_local.
        rewrite (mapM_map_ok as_vec OVec (fun r0 => map f (eval_share counts r0 X))) by reflexivity. rewrite bind_local.
        rewrite <- (map_map (fun r0 => eval_share counts r0 X) (map f)), Ey, Es. reflexivity. }
    rewrite spmd_bcast by lia. apply spmd_ret. reflexivity.
  - assert (size = 1) as S1 by (apply Nat.ltb_ge in E1; lia). apply spmd_ret. intros r Hr. assert (r = 0) as -> by lia. f_equal.
    rewrite <- Ey, S1. reflexivity.
Qed.
(** C100 fails if the truth raises in one process and not in all of them: the others wait for its values for ever. *)
Theorem C100_truth_raises_refuted :
  forall (f : nat -> P -> res num) (X : list P) counts q r x y, 1 < size -> q < size -> r < size ->
  split_number (length X) size = Ok counts ->
  mapM (f q) (eval_share counts q X) = Err x -> mapM (f r) (eval_share counts r X) = Ok y ->
  spmd (M := obj) size (fun r => eval_truth size (f r) r X) = Stuck.
Proof.
  intros f X counts q r x y H1 Hq Hr Ec Eq Er. unfold eval_truth. rewrite Ec.
  eapply (spmd_stuck size _ r q Gather _ _ Hr Hq).
  - rewrite bind_local, Er, bind_local. unfold multiple. rewrite (proj2 (Nat.ltb_lt _ _) H1). unfold gather at 1, multiple.
    rewrite (proj2 (Nat.ltb_lt _ _) H1). reflexivity.
  - intros m' k'. rewrite bind_local, Eq. discriminate.
Qed.

(** ** Convergence *)
(** C100, convergence checks: a criterion that communicates by itself is assumed to end in all processes, returning or
    raising; one that does not is checked by the main process alone. Then the wrapped check ends in all processes with
    what the lockstep model (the subject of C41) says - unless that says that some process hangs. *)
Definition as_res (o : MConv.outcome) : res bool := match o with MConv.Returned b => Ok b | MConv.Raised x => Err x | MConv.Hangs => Err OutOfFuel end.
Definition checked (aware : bool) (check : nat -> prog bool) (results : nat -> res bool) : Prop :=
  if aware then spmd size check = Finished (map results (seq 0 size)) else check 0 = local (results 0).
Lemma tried (aware : bool) check results : checked aware check results ->
  spmd size (fun r => (if aware || (r =? 0) then
               ptry (let* b := check r in Ret (false, OBool (P := P) (G := G) b))
                 (fun x => if MConv.is_check_error x then Ret (true, ONone) else Raise x)
             else Ret (false, ONone)))
  = Finished (map (fun r => match MConv.crashed aware results r with
                            | Some x => Err x
                            | None => Ok (MConv.failed aware results r,
                                          if aware || (r =? 0) then match results r with Ok b => OBool b | Err _ => ONone end else ONone)
                            end) (seq 0 size)).
Proof.
  unfold checked, MConv.crashed, MConv.failed, MConv.takes_part. intros H. destruct aware; cbn [orb].
  - rewrite (spmd_try size _ _ (fun r => match results r with Ok b => Ok (false, OBool b) | Err x => Err x end)).
    + apply spmd_ended. intros r _. destruct (results r) as [b|x]; [reflexivity|].
      destruct (MConv.is_check_error x); reflexivity.
    + rewrite (spmd_bind_gen size _ _ results H). apply spmd_ended. intros r _. destruct (results r); reflexivity.
  - apply spmd_ended. intros r _. destruct (Nat.eqb_spec r 0) as [->|Hr]; [|reflexivity]. rewrite H.
    destruct (results 0) as [b|x]; [reflexivity|]. cbn [local pbind pend ptry].
    destruct (MConv.is_check_error x) eqn:E; cbn [ended]; rewrite ?E; reflexivity.
Qed.
Theorem C100_check :
  forall (aware : bool) (check : nat -> prog bool) (results : nat -> res bool), checked aware check results ->
  (forall r, r < size -> MConv.is_converged_MPIwrapped aware size results r <> MConv.Hangs) ->
  spmd size (fun r => wrapped_check size aware r (check r))
  = Finished (map (fun r => as_res (MConv.is_converged_MPIwrapped aware size results r)) (seq 0 size)).
Proof.
  intros aware check results H Hh. unfold wrapped_check. rewrite spmd_sync by auto.
  rewrite (spmd_bind_gen size _ _ _ (tried aware check results H)).
  unfold MConv.is_converged_MPIwrapped in *.
  destruct (existsb (fun q => match MConv.crashed aware results q with Some _ => true | None => false end) (seq 0 size)) eqn:E.
  - apply spmd_ended. intros r Hr. specialize (Hh r Hr). destruct (MConv.crashed aware results r); [reflexivity|congruence].
  - assert (forall r, r < size -> MConv.crashed aware results r = None) as Hc.
    { intros r Hr. destruct (MConv.crashed aware results r) eqn:Ec; auto. exfalso.
      assert (existsb (fun q => match MConv.crashed aware results q with Some _ => true | None => false end) (seq 0 size) = true) as E'
        by (apply existsb_exists; exists r; split; [apply seq_in; auto|rewrite Ec; auto]). congruence. }
    etransitivity; [apply spmd_ext; intros r Hr; rewrite (Hc r Hr); cbn [then_ fst snd]; reflexivity|].
    rewrite spmd_allgather by auto.
    etransitivity; [apply spmd_ext; intros r Hr; rewrite (mapM_map_ok as_bool OBool (MConv.failed aware results)) by reflexivity;
      rewrite bind_local; reflexivity|].
    assert (existsb (fun b : bool => b) (map (MConv.failed aware results) (seq 0 size)) = existsb (MConv.failed aware results) (seq 0 size)) as ->.
    { generalize (seq 0 size) as l. induction l as [|x l IH]; cbn [map existsb]; auto. rewrite IH. reflexivity. }
    destruct (existsb (MConv.failed aware results) (seq 0 size)) eqn:Ef.
    + rewrite spmd_allgather by auto. apply spmd_ended. intros r Hr. rewrite (Hc r Hr). reflexivity.
    + rewrite spmd_bcast by lia. apply spmd_ended. intros r Hr. rewrite (Hc r Hr).
      pose proof (Hc 0 ltac:(lia)) as C0. unfold MConv.crashed, MConv.takes_part in C0.
      assert (MConv.failed aware results 0 = false) as F0.
      { destruct (MConv.failed aware results 0) eqn:F; auto. exfalso.
        assert (existsb (MConv.failed aware results) (seq 0 size) = true) by (apply existsb_exists; exists 0; split; [apply seq_in; lia|auto]). congruence. }
      unfold MConv.failed, MConv.takes_part in F0. cbn [Nat.eqb] in *. rewrite orb_true_r in *. cbn [andb] in F0.
      destruct (results 0) as [b|x]; [reflexivity|]. rewrite F0 in C0. discriminate.
Qed.
(** If the lockstep model says that some process hangs, the programs do get stuck: whenever an exception other than
    ConvergenceCheckError is raised in one process but not in another. *)
Theorem C100_check_hangs_refuted :
  forall (aware : bool) (check : nat -> prog bool) (results : nat -> res bool) r, checked aware check results ->
  r < size -> MConv.is_converged_MPIwrapped aware size results r = MConv.Hangs ->
  spmd size (fun r => wrapped_check size aware r (check r)) = Stuck.
Proof.
  intros aware check results r H Hr Hh. unfold wrapped_check. rewrite spmd_sync by auto.
  rewrite (spmd_bind_gen size _ _ _ (tried aware check results H)).
  unfold MConv.is_converged_MPIwrapped in Hh. destruct (MConv.crashed aware results r) as [x|] eqn:Ec; [discriminate|].
  destruct (existsb (fun q => match MConv.crashed aware results q with Some _ => true | None => false end) (seq 0 size)) eqn:E.
  2:{ destruct (existsb (MConv.failed aware results) (seq 0 size)); [discriminate|]. destruct (results 0); discriminate. }
  apply existsb_exists in E as (q & Hq & E). apply seq_in in Hq. destruct (MConv.crashed aware results q) as [x|] eqn:Eq; [|discriminate].
  assert (1 < size) as H1. { destruct (Nat.eq_dec q r) as [->|]; [congruence|]. lia. }
  eapply (spmd_stuck size _ r q Allgather _ _ Hr Hq).
  - rewrite Ec. cbn [then_ fst snd]. unfold allgather at 1, multiple. rewrite (proj2 (Nat.ltb_lt _ _) H1). reflexivity.
  - intros m k. rewrite Eq. discriminate.
Qed.
(** C100 fails in GaussianKL without an acquisition sample: if the KL divergence to the reweighted last sample cannot be
    computed, which is an error that the wrapper is there to handle, the main process reports the failure while the others
    wait for its decision: stuck. *)
Theorem C100_gaussian_kl_refuted :
  forall (f : nat -> prog bool), 1 < size ->
  spmd size (fun r => wrapped_check size true r (new_mean_cov size r (Err ConvergenceCheckError) true (f r))) = Stuck.
Proof.
  intros f H1. unfold wrapped_check. rewrite spmd_sync by auto.
  assert (multiple size = true) as Em by (unfold multiple; apply Nat.ltb_lt; auto).
  eapply (spmd_stuck size _ 0 1 Allgather); [lia|lia| |].
  - unfold new_mean_cov, allgather. rewrite Em. reflexivity.
  - intros m k. unfold new_mean_cov, bcast. rewrite Em. cbn. discriminate.
Qed.

(** ** All the criteria *)
(** C100, the verdict: each criterion either communicates by itself and ends everywhere, or is checked by the main
    process alone; none raises anything but ConvergenceCheckError. Then all processes reach the same verdict, that of
    the lockstep model (the subject of C40) on what the main process gets. *)
Definition settled (results : nat -> res bool) : Prop := forall r x, r < size -> results r = Err x -> x = ConvergenceCheckError.
Definition outcome_of (aware : bool) (results : nat -> res bool) : res bool :=
  if existsb (MConv.failed aware results) (seq 0 size) then Err ConvergenceCheckError else results 0.
Lemma settled_outcome aware results r : settled results -> r < size ->
  MConv.is_converged_MPIwrapped aware size results r <> MConv.Hangs
  /\ as_res (MConv.is_converged_MPIwrapped aware size results r) = outcome_of aware results.
Proof.
  intros H Hr. unfold MConv.is_converged_MPIwrapped, outcome_of.
  assert (forall q, q < size -> MConv.crashed aware results q = None) as Hc.
  { intros q Hq. unfold MConv.crashed. destruct (MConv.takes_part aware q); auto. destruct (results q) eqn:E; auto.
    rewrite (H q _ Hq E). reflexivity. }
  rewrite (Hc r Hr).
  destruct (existsb (fun q => match MConv.crashed aware results q with Some _ => true | None => false end) (seq 0 size)) eqn:E.
  { apply existsb_exists in E as (q & Hq & E). apply seq_in in Hq. rewrite (Hc q Hq) in E. discriminate. }
  destruct (existsb (MConv.failed aware results) (seq 0 size)) eqn:Ef; [split; [discriminate|reflexivity]|].
  destruct (results 0); split; try discriminate; reflexivity.
Qed.
Lemma check_loop_all (ks : list (criterion P G)) (results : list (nat -> res bool)) a a' :
  Forall2 (fun k res => checked (k_aware k) (k_check k) res /\ settled res) ks results ->
  MConv.check_loop a (map (fun p => (k_policy (fst p), outcome_of (k_aware (fst p)) (snd p))) (combine ks results)) = Ok a' ->
  spmd size (fun r => check_loop size r a ks) = Finished (map (fun _ => Ok a') (seq 0 size)).
Proof.
  intros F. revert a. induction F as [|k res ks results [H S] F IH]; intros a E.
  - injection E as <-. apply spmd_ret. reflexivity.
  - cbn [combine map fst snd MConv.check_loop] in E. cbn [check_loop].
    assert (exists b, (match outcome_of (k_aware k) res with
                       | Ok b => Ok b | Err e => if MConv.is_check_error e then Ok false else Err e end) = Ok b
              /\ (outcome_of (k_aware k) res = Ok b \/ outcome_of (k_aware k) res = Err ConvergenceCheckError /\ b = false)) as (b & Eb & Ob).
    { unfold outcome_of. destruct (existsb (MConv.failed (k_aware k) res) (seq 0 size)); [exists false; auto|].
      destruct (res 0) as [b|x] eqn:E0; [exists b; auto|]. rewrite (S 0 x ltac:(lia) E0). exists false. auto. }
    rewrite Eb in E. cbn [bind] in E.
    rewrite (spmd_bind size _ _ (fun _ => b)).
    2:{ rewrite (spmd_try size _ _ (fun _ => outcome_of (k_aware k) res)).
        - apply spmd_ret. intros r _. destruct Ob as [->|[-> ->]]; reflexivity.
        - rewrite (C100_check (k_aware k) (k_check k) res H) by (intros r Hr; apply (settled_outcome (k_aware k) res r S Hr)).
          f_equal. apply map_ext_in. intros r Hr. apply seq_in in Hr. apply (settled_outcome (k_aware k) res r S Hr). }
    unfold policy_check.
    rewrite (spmd_bind size _ _ (fun _ => k_policy k)).
    2:{ rewrite spmd_bcast by lia. cbn [Nat.eqb]. rewrite orb_true_r. apply spmd_ret. reflexivity. }
    apply IH. auto.
Qed.
Theorem C100_verdict :
  forall (ks : list (criterion P G)) (results : list (nat -> res bool)),
  Forall2 (fun k res => checked (k_aware k) (k_check k) res /\ settled res) ks results ->
  exists b, MConv.check_convergence (map (fun p => (k_policy (fst p), outcome_of (k_aware (fst p)) (snd p))) (combine ks results)) = Ok b
    /\ spmd size (fun r => check_convergence size r ks) = Finished (map (fun _ => Ok b) (seq 0 size)).
Proof.
  intros ks results F. unfold MConv.check_convergence.
  destruct (MConv.check_loop (MConv.mkAcc true 0 false 0) (map (fun p => (k_policy (fst p), outcome_of (k_aware (fst p)) (snd p))) (combine ks results)))
    as [a|x] eqn:E.
  - exists (verdict a). split; [reflexivity|]. unfold check_convergence.
    rewrite (spmd_bind size _ _ (fun _ => a)) by (eapply check_loop_all; eauto). apply spmd_ret. reflexivity.
  - exfalso. revert E. generalize (MConv.mkAcc true 0 false 0) as a. clear -F Hsize. 
    induction F as [|k res ks results [H S] F IH]; intros a E; [discriminate|].
    cbn [combine map fst snd MConv.check_loop] in E. unfold outcome_of at 1 in E.
    destruct (existsb (MConv.failed (k_aware k) res) (seq 0 size)); [apply (IH _ E)|].
    destruct (res 0) as [b|y] eqn:E0; [apply (IH _ E)|]. rewrite (S 0 y ltac:(lia) E0) in E. apply (IH _ E).
Qed.

(** ** Progress *)
Definition or_else {A} (d : A) (r : res A) : A := match r with Ok a => a | Err _ => d end.
Lemma do_all_inv {A B} (f : A -> res B) d (t : nat -> A) k l : MProgress.do_all f (map t k) = Ok l ->
  l = map (fun r => or_else d (f (t r))) k /\ forall r, In r k -> f (t r) = Ok (or_else d (f (t r))).
Proof.
  revert l. induction k as [|x k IH]; intros l H; cbn [map MProgress.do_all] in *; [injection H as <-; split; [reflexivity|intros r []]|].
  destruct (f (t x)) as [b|] eqn:E; [|discriminate]. cbn [bind] in H.
  destruct (MProgress.do_all f (map t k)) as [l0|]; [|discriminate]. injection H as <-.
  destruct (IH l0 eq_refl) as [-> H]. split; [reflexivity|]. intros r [->|Hr]; [rewrite E; reflexivity|auto].
Qed.
Lemma bcast_operation_all c op (t : nat -> MProgress.table) ts :
  MProgress.bcast_operation c op (map t (seq 0 size)) = Ok ts ->
  exists t', ts = map t' (seq 0 size)
    /\ spmd (M := obj) size (fun r => bcast_operation size r c op (t r)) = Finished (map (fun r => Ok (t' r)) (seq 0 size)).
Proof.
  unfold MProgress.bcast_operation. intros H.
  destruct (MProgress.do_all (MProgress.get_last c) (map t (seq 0 size))) as [vals|] eqn:Ev; [|discriminate]. cbn [bind] in H.
  apply (do_all_inv _ NaN) in Ev as [-> Ev].
  apply (do_all_inv _ []) in H as [-> H].
  set (v := fun r => or_else NaN (MProgress.get_last c (t r))) in *.
  eexists. split; [reflexivity|]. unfold bcast_operation.
  etransitivity; [apply spmd_ext; intros r Hr; rewrite (Ev r) by (apply seq_in; auto); rewrite bind_local; reflexivity|].
  rewrite spmd_gather by auto.
  rewrite (spmd_bind size _ _ (fun r => if r =? 0 then ONum (MProgress.combine_values op (map v (seq 0 size))) else ONone)).
  2:{ apply spmd_ret. intros r _. destruct (r =? 0); [|reflexivity].
      change (fun r0 => ONum (or_else NaN (MProgress.get_last c (t r0)))) with (fun r0 => ONum (P := P) (G := G) (v r0)).
      rewrite (mapM_map_ok as_num ONum v) by reflexivity. reflexivity. }
  rewrite spmd_bcast by lia. apply spmd_ret. intros r Hr. cbn [Nat.eqb as_num].
  rewrite bind_local. rewrite (H r) at 1 by (apply seq_in; auto). reflexivity.
Qed.
Lemma run_plan_all plan : forall (t : nat -> MProgress.table) ts,
  MProgress.run_plan plan (map t (seq 0 size)) = Ok ts ->
  spmd (M := obj) size (fun r => run_plan size r plan (t r)) = Finished (map Ok ts).
Proof.
  induction plan as [|[c op] plan IH]; intros t ts H; cbn [MProgress.run_plan run_plan] in *.
  - injection H as <-. rewrite map_map. apply spmd_ret. reflexivity.
  - destruct (MProgress.bcast_operation c op (map t (seq 0 size))) as [ts'|] eqn:E; [|discriminate]. cbn [bind] in H.
    apply bcast_operation_all in E as (t' & -> & E). rewrite (spmd_bind size _ _ t' E). apply IH. auto.
Qed.
(** C100, progress tables: whenever the lockstep model (the subject of C89) synchronises the tables, all processes end,
    each with its table of it. *)
Theorem C100_progress :
  forall (t : nat -> MProgress.table) ts, MProgress.mpi_sync (map t (seq 0 size)) = Ok ts ->
  spmd (M := obj) size (fun r => mpi_sync size r (t r)) = Finished (map Ok ts).
Proof.
  intros t ts H. unfold MProgress.mpi_sync in H. rewrite map_length, seq_length in H. unfold mpi_sync, multiple.
  destruct (Nat.leb_spec size 1) as [H1|H1].
  - injection H as <-. rewrite map_map. replace (1 <? size) with false by (symmetry; apply Nat.ltb_ge; auto).
    apply spmd_ret. reflexivity.
  - replace (1 <? size) with true by (symmetry; apply Nat.ltb_lt; auto). cbn [negb].
    pose proof (run_plan_all _ _ _ H) as E. clear H.
    assert (exists t', ts = map t' (seq 0 size)) as [t' ->].
    { assert (length ts = size) as Hl.
      { unfold spmd in E. rewrite (seq_head size Hsize) in E. cbn [map run_all] in E. apply exec_length in E.
        rewrite !map_length, seq_length in E. lia. }
      exists (fun r => nth r ts []). rewrite <- Hl. clear. induction ts as [|t ts IH]; [reflexivity|].
      cbn [length seq map nth]. f_equal. rewrite <- seq_shift, map_map. apply IH. }
    rewrite map_map in E. rewrite (spmd_bind size _ _ t' E). rewrite spmd_sync by auto. rewrite map_map. apply spmd_ret. reflexivity.
Qed.
End Parts.

(** Three processes predict at five points; only the main process has them. *)
Example C100_predictions_case :
  spmd (M := obj nat unit) 3
    (fun r => compute_y 3 true (fun l => Ok (map (fun x => nz (Z.of_nat x)) l)) (fun l => Ok (map (fun x => nz (Z.of_nat (2 * x))) l)) r
                (if r =? 0 then OPts [1; 2; 3; 4; 5] else ONone) None None true)
  = Finished [Ok (Some [nz 1; nz 2; nz 3; nz 4; nz 5], Some [nz 2; nz 4; nz 6; nz 8; nz 10]); Ok (None, None); Ok (None, None)].
Proof. reflexivity. Qed.
(** Two processes, three points; the truth raises at the last point, which is that of the second process. *)
Example C100_truth_case :
  spmd (M := obj nat unit) 2 (fun r => eval_truth 2 (fun x => Ok (nz (Z.of_nat x))) r [1; 2; 3])
    = Finished [Ok [nz 1; nz 2; nz 3]; Ok [nz 1; nz 2; nz 3]]
  /\ spmd (M := obj nat unit) 2 (fun r => eval_truth 2 (fun x => if x =? 3 then Err ValueError else Ok (nz (Z.of_nat x))) r [1; 2; 3])
    = Stuck
  /\ spmd (M := obj nat unit) 1 (fun r => eval_truth 1 (fun x => if x =? 3 then Err ValueError else Ok (nz (Z.of_nat x))) r [1; 2; 3])
    = Finished [Err ValueError].
Proof. repeat split; reflexivity. Qed.
(** Three processes and three criteria: one that the main process checks, one that fails, and one that all of them check
    together, in which the second process fails. The last one is the only necessary one. *)
Example C100_verdict_case :
  let all : criterion nat unit := mkCrit true "n" (fun r => let* b := allgather 3 (ONat r) in
                                       if r =? 1 then Raise ConvergenceCheckError else Ret (length b =? 3)) in
  let one : criterion nat unit := mkCrit false "s" (fun r => if r =? 0 then Ret true else Raise TypeError) in
  let bad : criterion nat unit := mkCrit false "m" (fun r => Raise ConvergenceCheckError) in
  spmd 3 (fun r => check_convergence 3 r [one; bad; all]) = Finished [Ok false; Ok false; Ok false]
  /\ spmd 3 (fun r => check_convergence 3 r [one; bad]) = Finished [Ok true; Ok true; Ok true]
  /\ spmd (M := obj nat unit) 3 (fun r => check_convergence 3 r [mkCrit false "s" (fun _ => Raise TypeError)]) = Stuck.
Proof. repeat split; reflexivity. Qed.
(** The hypotheses of [C100_verdict] are met. *)
Example C100_verdict_hypotheses :
  let all : criterion nat unit := mkCrit true "n" (fun r => let* b := allgather 3 (ONat r) in
                                       if r =? 1 then Raise ConvergenceCheckError else Ret (length b =? 3)) in
  let one : criterion nat unit := mkCrit false "s" (fun r => if r =? 0 then Ret true else Raise TypeError) in
  Forall2 (fun k res => checked 3 (k_aware k) (k_check k) res /\ settled 3 res) [one; all]
    [fun _ => Ok true; fun r => if r =? 1 then Err ConvergenceCheckError else Ok true].
Proof.
  repeat constructor.
  - intros r x _ H. discriminate.
  - intros r x _ H. destruct (r =? 1); [injection H as <-; reflexivity|discriminate].
Qed.
Print Assumptions C100_predictions. Print Assumptions C100_truth. Print Assumptions C100_truth_raises_refuted.
Print Assumptions C100_check. Print Assumptions C100_check_hangs_refuted. Print Assumptions C100_gaussian_kl_refuted.
Print Assumptions C100_verdict. Print Assumptions C100_progress.

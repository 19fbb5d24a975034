(** C155: the mean and covariance matrix of a run. *)
From Verif Require Import MMeanCov.
From Coq Require Import Lia.
Set Default Goal Selector "!".
Set Bullet Behavior "Strict Subproofs".

Section C155.
Context {V S : Type}.
Variable stats : S -> res (V * V).
Variable average covariance : S -> res V.
Notation update := (update_mean_cov stats).
(** What all processes hold. *)
Definition all_hold (m c : option V) (procs : list (option V * option V)) : Prop := Forall (fun p => p = (m, c)) procs.

Lemma set_both (m c : option V) (procs : list (option V * option V)) : all_hold m c (map (fun p => (fst p, c)) (map (fun p => (m, snd p)) procs)).
Proof. unfold all_hold. rewrite map_map. apply Forall_map, Forall_forall. intros p _. reflexivity. Qed.
(** After a sample of the surrogate, its mean and covariance matrix are reported by every process, whatever engine and criteria there are and whatever was reported before. *)
Theorem C155_sample : forall s m c acq conv procs, stats s = Ok (m, c) -> exists procs', update (Some s) acq conv procs = (procs', Ok tt) /\ all_hold (Some m) (Some c) procs' /\ length procs' = length procs.
Proof.
  intros s m c acq conv procs E. unfold update_mean_cov. rewrite E. cbn [bind attribute fst snd]. eexists. split; [reflexivity|]. split; [apply set_both|]. rewrite !map_length. reflexivity.
Qed.
(** Otherwise, with [NORA], those of its last sample; before it has one, none. *)
Theorem C155_nora : forall s m c l procs, average s = Ok m -> covariance s = Ok c ->
  (exists procs', update None (nora average covariance (Some s)) (list_of_criteria l) procs = (procs', Ok tt) /\ all_hold (Some m) (Some c) procs' /\ length procs' = length procs) /\
  (exists procs', update None (nora average covariance None) (list_of_criteria l) procs = (procs', Ok tt) /\ all_hold None None procs' /\ length procs' = length procs).
Proof.
  intros s m c l procs Em Ec. split; unfold update_mean_cov, attribute, getattr, nora, list_of_criteria.
  - rewrite Em, Ec. cbn [bind]. eexists. split; [reflexivity|]. split; [apply set_both|]. rewrite !map_length. reflexivity.
  - cbn [bind]. eexists. split; [reflexivity|]. split; [apply set_both|]. rewrite !map_length. reflexivity.
Qed.
(** Both are there or none is, from the same sample: a mean is never reported with the covariance matrix of something else. (Numpy's functions do not raise AttributeError, which would count as a missing
    attribute.) *)
Theorem C155_together : forall sample last engine l procs procs', (engine = batch_optimizer \/ engine = nora average covariance last) -> (forall s, average s <> Err AttributeError /\ covariance s <> Err AttributeError) ->
  update sample engine (list_of_criteria l) procs = (procs', Ok tt) ->
  exists m c, all_hold m c procs' /\ ((m = None /\ c = None /\ sample = None) \/
    exists s, (sample = Some s /\ exists m' c', stats s = Ok (m', c') /\ m = Some m' /\ c = Some c') \/
              (sample = None /\ last = Some s /\ exists m' c', average s = Ok m' /\ covariance s = Ok c' /\ m = Some m' /\ c = Some c')).
Proof.
  intros sample last engine l procs procs' He NA H. unfold update_mean_cov in H. destruct sample as [s|].
  - destruct (stats s) as [[m c]|x] eqn:E; [|discriminate H]. cbn [bind attribute fst snd] in H. injection H as <-. exists (Some m), (Some c). split; [apply set_both|].
    right. exists s. left. split; [reflexivity|]. exists m, c. auto.
  - destruct He as [->| ->].
    + cbn in H. injection H as <-. exists None, None. split; [apply set_both|]. left. auto.
    + unfold attribute, getattr, nora, list_of_criteria in H. destruct last as [s|].
      * destruct (average s) as [m|x] eqn:Em; cbn [bind] in H.
        -- destruct (covariance s) as [c|x] eqn:Ec; cbn [bind] in H.
           ++ injection H as <-. exists (Some m), (Some c). split; [apply set_both|]. right. exists s. right. split; [reflexivity|]. split; [reflexivity|]. exists m, c. auto.
           ++ destruct (NA s) as [_ NC]. rewrite Ec in NC. destruct x; try discriminate H. destruct (NC eq_refl).
        -- destruct (NA s) as [NM _]. rewrite Em in NM. destruct x; try discriminate H. destruct (NM eq_refl).
      * cbn [bind] in H. injection H as <-. exists None, None. split; [apply set_both|]. left. auto.
Qed.
(** If the mean or the covariance matrix of the sample of [NORA] cannot be computed (weights that add up to zero), the update raises. *)
Theorem C155_raises : forall s x l procs, x <> AttributeError -> (average s = Err x \/ (exists m, average s = Ok m /\ covariance s = Err x)) ->
  snd (update None (nora average covariance (Some s)) (list_of_criteria l) procs) = Err x.
Proof.
  intros s x l procs N [E|(m & Em & Ec)]; unfold update_mean_cov, attribute, getattr, nora.
  - rewrite E. cbn [bind]. destruct x; try reflexivity. destruct (N eq_refl).
  - rewrite Em, Ec. cbn [bind]. destruct x; try reflexivity. destruct (N eq_refl).
Qed.
(** Refuted: failing those, the ones of a convergence criterion, as documented. The criteria are in a list, whose attributes are looked up: with [BatchOptimizer] (or [NORA] before its first
    sample) nothing is reported, whatever the criteria have found; also what an earlier sample gave is dropped. *)
Theorem C155_criterion_refuted : forall m c l procs engine, In (Divergence (Some m) (Some c)) l -> engine = batch_optimizer \/ engine = nora average covariance None ->
  exists procs', update None engine (list_of_criteria l) procs = (procs', Ok tt) /\ all_hold None None procs'.
Proof. intros m c l procs engine _ [->| ->]; (eexists; split; [reflexivity|apply set_both]). Qed.
(** A criterion in place of the list would be used. *)
Theorem C155_single : forall m c procs, exists procs', update None batch_optimizer (criterion_object (Divergence (Some m) (Some c))) procs = (procs', Ok tt) /\ all_hold (Some m) (Some c) procs'.
Proof. intros m c procs. eexists. split; [reflexivity|apply set_both]. Qed.
(** Refuted: a chain started from a checkpoint gets the covariance matrix that the criterion has found. With [BatchOptimizer] and the usual verbosity it gets none. *)
Theorem C155_checkpoint_refuted : forall (U : Type) (valid : V -> bool) (options : option (list (string * U))) params m c l names verbose, In (Divergence (Some m) (Some c)) l -> nleb (nz 2) verbose = true ->
  exists a b, checkpoint_covs batch_optimizer (list_of_criteria l) = Ok (a, b) /\
  sampler_input valid names (mkCb (Some "mcmc"%string) options None None params a b None true false (VNum verbose)) "mcmc" =
    Ok [("mcmc"%string, put_all (map (fun e => (fst e, EUser (snd e))) (match options with Some o => o | None => [] end)) [("measure_speeds"%string, EFlag false); ("max_tries"%string, ENum 100000%Z)])].
Proof.
  intros U valid options params m c l names verbose _ Hv. exists None, None. split; [reflexivity|]. unfold sampler_input. cbn [c_covmat c_covmat_params c_params c_acq c_conv c_verbose c_options choose_cov lower].
  change (String.eqb _ "mcmc"%string) with true. cbv iota. unfold mcmc_info, covmat_asked, covmat_entry. cbn [verb_num andb]. rewrite Hv. reflexivity.
Qed.
(** With [NORA] it gets that of its last sample. *)
Theorem C155_checkpoint : forall s c conv, covariance s = Ok c -> checkpoint_covs (nora average covariance (Some s)) conv = Ok (Some c, None).
Proof. intros s c conv E. unfold checkpoint_covs, getattr, nora. rewrite E. reflexivity. Qed.
End C155.
Print Assumptions C155_sample.
Print Assumptions C155_nora.
Print Assumptions C155_together.
Print Assumptions C155_raises.
Print Assumptions C155_criterion_refuted.
Print Assumptions C155_single.
Print Assumptions C155_checkpoint_refuted.
Print Assumptions C155_checkpoint.

(** * Examples *)
(** A sample is a number, 0 for one whose weights add up to zero; its mean is itself, its variance twice (or three times, without bias) as much. *)
Definition toy_stats (s : nat) : res (nat * nat) := if Nat.eqb s 0 then Err ZeroDivisionError else Ok (s, 3 * s).
Definition toy_average (s : nat) : res nat := if Nat.eqb s 0 then Err ZeroDivisionError else Ok s.
Definition toy_cov (s : nat) : res nat := if Nat.eqb s 0 then Err ZeroDivisionError else Ok (2 * s).
Example C155_case : let run sample engine := update_mean_cov toy_stats sample engine (list_of_criteria [OtherCriterion; Divergence (Some 7) (Some 8)]) [(Some 1, Some 2); (Some 1, Some 3)] in
  run (Some 5) batch_optimizer = ([(Some 5, Some 15); (Some 5, Some 15)], Ok tt) /\ run None (nora toy_average toy_cov (Some 4)) = ([(Some 4, Some 8); (Some 4, Some 8)], Ok tt) /\
  run None batch_optimizer = ([(None, None); (None, None)], Ok tt) /\ run None (nora toy_average toy_cov (Some 0)) = ([(Some 1, Some 2); (Some 1, Some 3)], Err ZeroDivisionError) /\
  (forall s, toy_average s <> Err AttributeError /\ toy_cov s <> Err AttributeError).
Proof. repeat split; unfold toy_average, toy_cov; destruct (Nat.eqb _ 0); discriminate. Qed.
Example C155_checkpoint_case : checkpoint_covs batch_optimizer (list_of_criteria [Divergence (Some 7) (Some 8)]) = Ok (None, None) /\ checkpoint_covs batch_optimizer (criterion_object (Divergence (Some 7) (Some 8))) = Ok (None, Some 8)
  /\ checkpoint_covs (nora toy_average toy_cov (Some 4)) (list_of_criteria []) = Ok (Some 8, None) /\ nleb (nz 2) (nz 3) = true.
Proof. repeat split. Qed.

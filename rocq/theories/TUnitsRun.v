(** C128, whole runs: a run in other units does the same. *)
From Verif Require Import MTruth MConv MRun MUnits SUnits SUnitsRun PUnits PUnits2 PUnits3 PUnitsRun TUnits.
Set Default Goal Selector "!".
Set Bullet Behavior "Strict Subproofs".

Section Default.
Context {model theta : Type}.
Variable svc_train : list (list num) -> list bool -> res model.
Variable chol : theta -> data (list num) -> bool.
Variable lml_ : data (list num) -> theta -> num.
Variable opt : data (list num) -> theta -> theta * res num.
Variable root_ : num -> num.
Variable percentiles : list num -> num * num * num.
Variable delta : num -> num.
Variables (chi2 : option num) (tfuel : nat) (factor nstd : option num).
Notation envf := (default_env svc_train chol lml_ opt root_ percentiles delta chi2 tfuel factor nstd).

Variable c : Qc.
Variable u : list (Qc * Qc).
Variable bounds : list (num * num).
Variable median : bool.
Hypothesis Hu : units u.
Hypothesis Hb : length bounds = length u.
Hypothesis Hp : median = true -> chi2 = None -> shifts_percentiles percentiles.
Notation bounds' := (rescale_box u bounds).
Notation e := (envf bounds).
Notation e' := (envf bounds').
Let G := gpr (list num) (list num) norm_bounds norm_y model theta (list (num * num)).
Let wf (x : list num) := length x = length u.
Let wfB (b : list (num * num)) := length b = length u.
Let RX p p' := p = nb_of bounds /\ p' = nb_of bounds'.
Let RY p p' := p' = conv_ny c p /\ (ny_use_median p = true -> median = true).


Notation sameS := (same_state c (rescale u) (rescale_box u) (fun p p' => p = nb_of bounds /\ p' = nb_of bounds') (fun p p' => p' = conv_ny c p)).
Notation state := (rstate (list num) (list num) norm_bounds norm_y model theta (list (num * num))).
Definition fresh b noise0 : state := mkRun (new_gpr (nb_of b) (new_norm_y median) noise0) 0 0 false false [].
(** The same problem in two parametrisations and with two normalisations of the log-posterior, from a new surrogate, with any options and any number
    of processes. The initial points are the same, and the outside world, which may react to the state of the run in any way, reacts in the same way
    to states that are the same. Then the runs end in the same way: same result or exception, same events (points evaluated, fits, verdicts), same
    iteration, same surrogate. *)
Theorem C128_run cf o size verbose loaded fuel noise0 init init' save0 w w' final final' :
  same_init c (rescale u) init init' ->
  (forall k s s', sameS s s' -> same_pass c (rescale u) (w k s) (w' k s')) -> (forall s s', sameS s s' -> final' s' = final s) ->
  let p := react e cf o size verbose loaded fuel init save0 w final (fresh bounds noise0) in
  let p' := react e' cf o size verbose loaded fuel init' save0 w' final' (fresh bounds' noise0) in
  snd p' = snd p /\ sameS (fst p) (fst p').
Proof.
  intros Hi Hw Hf p p'.
  assert (Weak : forall s s' : state, corrS c (rescale u) wf (rescale_box u) wfB RX RY s s' -> sameS s s').
  { intros s s' [[S ? ? ? ? ?] _]. constructor; auto. destruct S. constructor; auto. apply same_pY. }
  destruct (react_sim c (rescale u) wf (rescale_box u) wfB RX RY e e' (default_same_env svc_train chol lml_ opt (fun _ _ => true) (fun _ _ => NaN) (fun _ _ => NaN) (fun _ _ => []) (fun _ _ => []) root_ percentiles delta chi2 tfuel factor nstd c u bounds median Hu Hb Hp)
    cf o size verbose loaded fuel init init' save0 w w' final final' (fresh bounds noise0) (fresh bounds' noise0) Hi) as [H1 H2].
  - intros k s s' H. apply Hw, Weak, H.
  - intros s s' H. apply Hf, Weak, H.
  - assert (corr c (rescale u) wf (rescale_box u) wfB RX RY (new_gpr (nb_of bounds) (new_norm_y median) noise0 : G)
            (new_gpr (nb_of bounds') (new_norm_y median) noise0 : G)) as H0.
    { split; [|split; [|split]]; simpl; auto; [|discriminate]. constructor; simpl; auto; [split; auto|split; auto]. }
    split; [|exact H0]. constructor; simpl; auto. apply H0.
  - split; [exact H2|apply Weak, H1].
Qed.
End Default.
(** Runs with a world that reacts are runs in the sense of the model, where what the world does is a series of inputs. *)
Theorem C128_reacting_runs {pt pt_ PX PY model theta box} (e : env pt pt_ PX PY model theta box) cf o size verbose loaded fuel init save0 w final s :
  exists inputs last, react e cf o size verbose loaded fuel init save0 w final s = run e cf o size verbose loaded fuel init save0 inputs last s.
Proof. apply react_is. Qed.
(** A case: the surrogate of [C128_case], two processes; the engine proposes other points once there are five, and the criterion is
    the number of points. The values of the true posterior depend on the first parameter. *)
Definition run_truth (limit low : num) (high : num) (x : list num) : num := if nltb (nth 0 x NaN) limit then low else high.
Definition run_points (n : nat) : list (list num) := if n <? 5 then [[nz 3; nz 0]; [nz 4; nq 1 2]] else [[nz 5; nz 0]; [nz 6; nq 1 4]].
Definition run_world (f : list num -> list num) (truth : list num -> num) : world (list num) (list num) norm_bounds norm_y nat nat (list (num * num)) :=
  fun k s => mkPass (Ok (map f (run_points (n_finite (r_gpr s))))) [true; true] truth (mkFit true (fun r i => i) (mkKw false true None true (fun i => i)))
               (Ok tt) [("points"%string, Ok (5 <=? n_finite (r_gpr s)))] (Ok tt) (Ok true) (Ok tt).
Definition run_init (f : list num -> list num) (truth : list num -> num) : init_input (list num) nat :=
  mkInit (fun k r j => f [nz (Z.of_nat (1 + 2 * r + 3 * j)); nq (Z.of_nat k) 4]) truth (mkKw false true None true (fun i => i)).
Definition run_options := mkOptions 3 4 8 8 2 2 1 2%Z.
Definition case_truth := run_truth (nz 4) (nz (-3)) (nz (-1)).
Definition case_truth' := run_truth (nz 3) (nz 997) (nz 999).
Definition case_run b f t := react (case_env b) case_config run_options 2 true false 20 (run_init f t) (Ok tt) (run_world f t) (fun _ => Ok true)
  (fresh false b (MGpr.Scalar (nq 1 100))).
Lemma nth0_rescale a u x : nth 0 (rescale (a :: u) x) NaN = rescale1 a (nth 0 x NaN).
Proof. destruct x; reflexivity. Qed.
Lemma case_truth_same x : case_truth' (rescale case_units x) = shift (qc_of_Z 1000) (case_truth x).
Proof.
  unfold case_truth', case_truth, run_truth, case_units. rewrite nth0_rescale.
  replace (nz 3) with (rescale1 (Q2Qc (5 # 2), Q2Qc (-7 # 1)) (nz 4)) by (vm_compute; reflexivity).
  rewrite (rescale1_lt (Q2Qc (5 # 2), Q2Qc (-7 # 1)) ltac:(vm_compute; reflexivity)). destruct (nltb _ _); vm_compute; reflexivity.
Qed.
(** Points as fractions, to compare them. *)
Definition shown := map (conv_event (map (fun v => match v with Fin q => Some (this q) | _ => None end))).
Example C128_case_run :
  same_init (qc_of_Z 1000) (rescale case_units) (run_init (fun x => x) case_truth) (run_init (rescale case_units) case_truth') /\
  (forall k s s', same_state (qc_of_Z 1000) (rescale case_units) (rescale_box case_units)
      (fun p p' => p = nb_of case_bounds /\ p' = nb_of (rescale_box case_units case_bounds)) (fun p p' => p' = conv_ny (qc_of_Z 1000) p) s s' ->
     same_pass (qc_of_Z 1000) (rescale case_units) (run_world (fun x => x) case_truth k s) (run_world (rescale case_units) case_truth' k s')) /\
  snd (case_run case_bounds (fun x => x) case_truth) = Ok tt /\
  shown (r_log (fst (case_run case_bounds (fun x => x) case_truth)))
  = [EvEval [[Some (1 # 1); Some (0 # 1)]; [Some (4 # 1); Some (0 # 1)]; [Some (3 # 1); Some (0 # 1)]; [Some (6 # 1); Some (0 # 1)]];
     EvAcquire 4 4; EvEval [[Some (3 # 1); Some (0 # 1)]; [Some (4 # 1); Some (1 # 2)]]; EvFit 1; EvVerdict false;
     EvAcquire 6 6; EvEval [[Some (5 # 1); Some (0 # 1)]; [Some (6 # 1); Some (1 # 4)]]; EvFit 2; EvVerdict true; EvDiagnosis true]%Q /\
  shown (r_log (fst (case_run (rescale_box case_units case_bounds) (rescale case_units) case_truth')))
  = [EvEval [[Some (-9 # 2); Some (3 # 1)]; [Some (3 # 1); Some (3 # 1)]; [Some (1 # 2); Some (3 # 1)]; [Some (8 # 1); Some (3 # 1)]];
     EvAcquire 4 4; EvEval [[Some (1 # 2); Some (3 # 1)]; [Some (3 # 1); Some (6001 # 2000)]]; EvFit 1; EvVerdict false;
     EvAcquire 6 6; EvEval [[Some (11 # 2); Some (3 # 1)]; [Some (8 # 1); Some (12001 # 4000)]]; EvFit 2; EvVerdict true; EvDiagnosis true]%Q.
Proof.
  split; [constructor; auto; apply case_truth_same|]. split.
  - intros k s s' H. assert (n_finite (r_gpr s') = n_finite (r_gpr s)) as E.
    { unfold n_finite. rewrite (same_y _ _ _ _ _ _ _ (ss_gpr _ _ _ _ _ _ _ H)). apply map_length. }
    constructor; cbn [run_world p_acq p_keep p_truth p_fit p_callback p_checks p_mean p_mc p_save]; rewrite ?E; auto; [|apply case_truth_same].
    cbn [map_res]. rewrite map_id. reflexivity.
  - split; [vm_compute; reflexivity|]. split; vm_compute; reflexivity.
Qed.
Print Assumptions C128_run.
Print Assumptions C128_reacting_runs.

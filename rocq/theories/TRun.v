(** Properties C46 - C49 and C53: the main loop of the [Runner]. *)
From Verif Require Import SRun PMpi PSvm PGpr PGpr2 PGpr3 TGpr PRun PInit TInit.
From Verif Require SConv TConv.
Set Default Goal Selector "!".

Section Loop.
Context {pt pt_ PX PY model theta box : Type}.
Variable e : env pt pt_ PX PY model theta box.
Variable c : config theta.
Variable o : options.
Variables (size : nat) (verbose loaded : bool).
Notation rstate := (rstate pt pt_ PX PY model theta box).
(** The surrogate has been through any history of calls; preprocessing keeps the number of values. *)
Definition ready (s : rstate) : Prop :=
  size <> 0 /\ (forall p y y', trY e p y = Ok y' -> length y' = length y)
  /\ exists pX pY n ops, runs e c (new_gpr pX pY n) ops (r_gpr s).
(** The first phase of [run]. *)
Lemma run_cases fuel init save0 inputs final s s' r :
  ready s -> r_has_run s = false ->
  run e c o size verbose loaded fuel init save0 inputs final s = (s', r) ->
  exists ev s1, r_log s1 = r_log s ++ (match ev with [] => [] | _ => [EvEval ev] end)
    /\ (loaded = true -> ev = [] /\ r_gpr s1 = r_gpr s)
    /\ (loaded = false -> exists g ri, do_initial_training e c o size verbose init (r_gpr s) = (g, ev, ri))
    /\ r_has_run s1 = false /\ r_resamples s1 = r_resamples s /\ r_iter s1 = r_iter s
    /\ (s' = s1 /\ (exists x, r = Err x)
        \/ n_total c (r_gpr s) + length ev <= n_total c (r_gpr s1) <= length (g_yall (r_gpr s1))
           /\ (loaded = false -> do_initial_training e c o size verbose init (r_gpr s) = (r_gpr s1, ev, Ok tt))
           /\ exists s2, loop e c o size fuel inputs final (with_converged false s1) = (s2, r)
                /\ s' = match r with Ok _ => finished s2 | Err _ => s2 end).
Proof.
  intros (Hs & Hlen & pX & pY & n & ops & R) Hr H. unfold run in H. rewrite Hr in H.
  pose proof (counted_runs e c Hlen ops pX pY n (r_gpr s) R) as [Hc _].
  assert (forall s1, match loop e c o size fuel inputs final (with_converged false s1) with
                     | (s2, Ok _) => (finished s2, Ok tt) | (s2, Err x) => (s2, Err x) end = (s', r) ->
    exists s2, loop e c o size fuel inputs final (with_converged false s1) = (s2, r)
                /\ s' = match r with Ok _ => finished s2 | Err _ => s2 end) as Hloop.
  { intros s1 E. destruct (loop _ _ _ _ _ _ _ _) as [s2 [[]|x]]; injection E as <- <-; eauto. }
  destruct loaded.
  - exists [], s. rewrite app_nil_r. split; [auto|]. split; [auto|]. split; [discriminate|].
    split; [auto|]. split; [auto|]. split; [auto|]. right. split; [simpl; lia|]. split; [discriminate|]. auto.
  - destruct (do_initial_training e c o size verbose init (r_gpr s)) as [[g ev] ri] eqn:Ei.
    set (s1 := with_gpr g (match ev with [] => s | _ => log (EvEval ev) s end)) in *.
    exists ev, s1. split.
    { unfold s1. destruct ev; cbn; [rewrite app_nil_r|]; auto. }
    split; [discriminate|]. split; [eauto|].
    assert (r_has_run s1 = false /\ r_resamples s1 = r_resamples s /\ r_iter s1 = r_iter s) as (E1 & E2 & E3).
    { unfold s1. destruct ev; auto. }
    split; [auto|]. split; [auto|]. split; [auto|].
    destruct ri as [[]|x]; cbn [bind] in H; [|injection H as <- <-; left; eauto].
    destruct save0; [|injection H as <- <-; left; eauto].
    right. assert (r_gpr s1 = g) as Eg by (unfold s1; destruct ev; auto). rewrite Eg.
    split; [|auto]. apply (init_total e c o size verbose Hlen init (r_gpr s) g ev); auto.
Qed.

(** C46. In one call of [run], all evaluations of the true posterior are those of the initial training
    (none when resuming) followed by those of the loop. If the acquisition never returns more points than
    asked for, then together with the points that were there they are at most
    [max_total + n_points_per_acq - 1], unless the initial training alone exceeds that. This holds
    whether the call returns or raises. *)
Theorem C46_budget :
  forall fuel init save0 inputs final s s' r, ready s -> r_has_run s = false ->
    (forall k Y, p_acq (inputs k) = Ok Y -> length Y <= o_npa o) ->
    run e c o size verbose loaded fuel init save0 inputs final s = (s', r) ->
    exists new first rest, r_log s' = r_log s ++ new /\ evaluated new = first ++ rest
      /\ (loaded = true -> first = [])
      /\ (loaded = false -> exists g ri, do_initial_training e c o size verbose init (r_gpr s) = (g, first, ri))
      /\ n_total c (r_gpr s) + length (first ++ rest)
         <= Nat.max (n_total c (r_gpr s) + length first) (o_max_total o + o_npa o - 1).
Proof.
  intros fuel init save0 inputs final s s' r Hd Hr Hn H. pose proof Hd as (Hs & Hlen & _).
  apply run_cases in H as (ev & s1 & El & Hl & Hi & _ & _ & _ & H); auto.
  assert (evaluated (match ev with [] => [] | _ => [EvEval ev] end) = ev) as Eev.
  { destruct ev; cbn; rewrite ?app_nil_r; auto. }
  destruct H as [[-> _]|([H1 H2] & _ & s2 & HL & ->)].
  - exists (match ev with [] => [] | _ => [EvEval ev] end), ev, []. rewrite app_nil_r. repeat split; auto.
    + intros E. apply Hl. auto.
    + lia.
  - destruct (loop_budget e c o size Hlen Hs fuel inputs final (with_converged false s1) s2 r H2 Hn HL)
      as (new & El2 & Hb & _).
    exists (match ev with [] => [] | _ => [EvEval ev] end ++ new), ev, (evaluated new).
    split; [|split; [|split; [|split]]]; auto.
    + assert (r_log (match r with Ok _ => finished s2 | Err _ => s2 end) = r_log s2) as -> by (destruct r; auto).
      rewrite El2. cbn [with_converged r_log]. rewrite El, app_assoc. auto.
    + rewrite evaluated_app, Eev. auto.
    + intros E. apply Hl. auto.
    + cbn [with_converged r_gpr] in Hb. rewrite app_length. lia.
Qed.
(** A fresh run of one process with options in order stays below the larger of [max_total +
    n_points_per_acq - 1] and [max_initial + n_initial - 1]. *)
Theorem C46_fresh :
  forall fuel init save0 inputs final s s' r, ready s -> r_has_run s = false ->
    (forall k Y, p_acq (inputs k) = Ok Y -> length Y <= o_npa o) ->
    run e c o size verbose loaded fuel init save0 inputs final s = (s', r) ->
    loaded = false -> size = 1 -> n_total c (r_gpr s) = 0 -> 1 <= o_n_initial o ->
    exists new, r_log s' = r_log s ++ new
      /\ length (evaluated new) <= Nat.max (o_max_initial o + o_n_initial o - 1) (o_max_total o + o_npa o - 1).
Proof.
  intros fuel init save0 inputs final s s' r Hd Hr Hn H Hl Hs1 Hnt Hni.
  destruct (C46_budget _ _ _ _ _ _ _ _ Hd Hr Hn H) as (new & first & rest & E1 & E2 & _ & Hi & Hb).
  exists new. split; [auto|]. rewrite E2. rewrite Hnt in Hb. destruct (Hi Hl) as (g & ri & Hi2).
  apply C50_evaluations in Hi2; [|apply Hd]. destruct Hi2 as [_ Hi2]. specialize (Hi2 Hs1). lia.
Qed.
(** No acquisition step starts with [max_total] points or [max_finite] finite ones. *)
Theorem C46_no_acquisition :
  forall fuel init save0 inputs final s s' r, ready s -> r_has_run s = false ->
    (forall k Y, p_acq (inputs k) = Ok Y -> length Y <= o_npa o) ->
    run e c o size verbose loaded fuel init save0 inputs final s = (s', r) ->
    exists new, r_log s' = r_log s ++ new
      /\ forall nt nf, In (EvAcquire nt nf) new -> nt < o_max_total o /\ nf < o_max_finite o.
Proof.
  intros fuel init save0 inputs final s s' r Hd Hr Hn H. pose proof Hd as (Hs & Hlen & _).
  apply run_cases in H as (ev & s1 & El & _ & _ & _ & _ & _ & H); auto.
  assert (forall nt nf, ~ In (EvAcquire nt nf) (match ev with [] => [] | _ => [EvEval ev] end)) as Hno.
  { intros nt nf Hi. destruct ev; [destruct Hi|]. destruct Hi as [Hi|[]]. discriminate. }
  destruct H as [[-> _]|([H1 H2] & _ & s2 & HL & ->)].
  - exists (match ev with [] => [] | _ => [EvEval ev] end). split; [auto|]. intros nt nf Hi. exfalso. eapply Hno; eauto.
  - destruct (loop_budget e c o size Hlen Hs fuel inputs final (with_converged false s1) s2 r H2 Hn HL)
      as (new & El2 & _ & Ha & _).
    exists (match ev with [] => [] | _ => [EvEval ev] end ++ new). split.
    + assert (r_log (match r with Ok _ => finished s2 | Err _ => s2 end) = r_log s2) as -> by (destruct r; auto).
      rewrite El2. cbn [with_converged r_log]. rewrite El, app_assoc. auto.
    + intros nt nf Hi. apply in_app_or in Hi as [Hi|Hi]; [exfalso; eapply Hno; eauto|auto].
Qed.

(** C48. The number of passes is bounded by the options alone... *)
Definition max_passes : nat :=
  (ceil_div (o_max_total o) (Nat.max 1 (o_npa o / 2)) + 1) * (Z.to_nat (o_giveup o) + 1).
Lemma bound_le (s : rstate) : pass_bound c o s <= max_passes.
Proof.
  unfold pass_bound, max_passes, batches_left, tries, ceil_div. set (q := Nat.max 1 (o_npa o / 2)).
  assert ((o_max_total o - n_total c (r_gpr s) + (q - 1)) / q <= (o_max_total o + q - 1) / q) as H.
  { apply Nat.div_le_mono; unfold q; lia. }
  set (a := _ / q) in *. set (b := _ / q) in *. nia.
Qed.
Theorem C48_passes :
  forall fuel init save0 inputs final s s' r, ready s -> r_has_run s = false -> r_resamples s = 0 ->
    run e c o size verbose loaded fuel init save0 inputs final s = (s', r) ->
    exists new, r_log s' = r_log s ++ new /\ passes new <= max_passes.
Proof.
  intros fuel init save0 inputs final s s' r Hd Hr H0 H. pose proof Hd as (Hs & Hlen & _).
  apply run_cases in H as (ev & s1 & El & _ & _ & _ & Er & _ & H); auto.
  assert (passes (match ev with [] => [] | _ => [EvEval ev] end) = 0) as Hno by (destruct ev; auto).
  destruct H as [[-> _]|([H1 H2] & _ & s2 & HL & ->)].
  - exists (match ev with [] => [] | _ => [EvEval ev] end). split; [auto|]. lia.
  - destruct (loop_passes e c o size Hlen Hs fuel inputs final (with_converged false s1) H2) as (new & El2 & Hp).
    { cbn. rewrite Er, H0. lia. }
    rewrite HL in El2. cbn [fst] in El2.
    exists (match ev with [] => [] | _ => [EvEval ev] end ++ new). split.
    + assert (r_log (match r with Ok _ => finished s2 | Err _ => s2 end) = r_log s2) as -> by (destruct r; auto).
      rewrite El2. cbn [with_converged r_log]. rewrite El, app_assoc. auto.
    + rewrite passes_app, Hno. pose proof (bound_le (with_converged false s1)). lia.
Qed.
(** ... and so [run] comes to an end: allowing for more passes than that makes no difference. *)
Theorem C48_terminates :
  forall fuel fuel' init save0 inputs final s, ready s -> r_resamples s = 0 ->
    max_passes < fuel -> max_passes < fuel' ->
    run e c o size verbose loaded fuel init save0 inputs final s
    = run e c o size verbose loaded fuel' init save0 inputs final s.
Proof.
  intros fuel fuel' init save0 inputs final s (Hs & Hlen & pX & pY & n & ops & R) H0 Hf Hf'.
  pose proof (counted_runs e c Hlen ops pX pY n (r_gpr s) R) as [Hc _].
  assert (forall s1, n_total c (r_gpr s1) <= length (g_yall (r_gpr s1)) -> r_resamples s1 = 0 ->
    loop e c o size fuel inputs final (with_converged false s1)
    = loop e c o size fuel' inputs final (with_converged false s1)) as HL.
  { intros s1 H1 H2. pose proof (bound_le (with_converged false s1)).
    apply loop_stable; auto; try lia. cbn. rewrite H2. lia. }
  unfold run. destruct (r_has_run s); [auto|]. destruct loaded.
  - rewrite HL by auto. reflexivity.
  - destruct (do_initial_training e c o size verbose init (r_gpr s)) as [[g ev] ri] eqn:Ei.
    destruct ri as [[]|x]; cbn [bind]; [|auto]. destruct save0; [|auto].
    rewrite HL; [reflexivity| |].
    + destruct (init_total e c o size verbose Hlen init (r_gpr s) g ev Hs Hc Ei) as [H1 _].
      destruct ev; cbn; lia.
    + destruct ev; cbn; auto.
Qed.

(** C49. After a call that returned, another one changes nothing: no evaluation, same state. *)
Theorem C49_again :
  forall fuel init save0 inputs final s s',
    run e c o size verbose loaded fuel init save0 inputs final s = (s', Ok tt) ->
    r_has_run s' = true
    /\ forall fuel' init' save0' inputs' final',
         run e c o size verbose loaded fuel' init' save0' inputs' final' s' = (s', Ok tt).
Proof.
  intros fuel init save0 inputs final s s' H. assert (r_has_run s' = true) as E.
  { unfold run in H. destruct (r_has_run s) eqn:Er; [injection H as <-; auto|].
    destruct (if loaded then _ else _) as [s1 [u|x]]; [|discriminate].
    destruct (loop _ _ _ _ _ _ _ _) as [s2 [u'|x]]; [|discriminate]. injection H as <-. reflexivity. }
  split; [auto|]. intros. unfold run. rewrite E. reflexivity.
Qed.

(** C53. If a run ends with [has_converged], then in its last pass the criteria gave convergence and the
    Monte Carlo diagnosis passed, and nothing came after. If not, the reason is the budget or a lack of
    new points. *)
Theorem C53_converged :
  forall fuel init save0 inputs final s s', ready s -> r_has_run s = false ->
    run e c o size verbose loaded fuel init save0 inputs final s = (s', Ok tt) -> r_converged s' = true ->
    exists k pre, r_log s' = pre ++ [EvVerdict true; EvDiagnosis true]
      /\ check_convergence (p_checks (inputs k)) = Ok true /\ p_mc (inputs k) = Ok true.
Proof.
  intros fuel init save0 inputs final s s' Hd Hr H Hcv. pose proof Hd as (Hs & Hlen & _).
  apply run_cases in H as (ev & s1 & _ & _ & _ & _ & _ & _ & H); auto.
  destruct H as [(_ & x & Hx)|(_ & _ & s2 & HL & ->)]; [discriminate|].
  destruct (loop_end e c o size Hlen Hs fuel inputs final _ _ HL eq_refl) as [Hc _].
  destruct (Hc Hcv) as (k & Hk & Hm & pre & Hp). exists k, pre. auto.
Qed.
Theorem C53_not_converged :
  forall fuel init save0 inputs final s s', ready s -> r_has_run s = false ->
    run e c o size verbose loaded fuel init save0 inputs final s = (s', Ok tt) -> r_converged s' = false ->
    o_max_total o <= n_total c (r_gpr s') \/ o_max_finite o <= n_finite (r_gpr s')
    \/ (o_giveup o < Z.of_nat (r_resamples s'))%Z.
Proof.
  intros fuel init save0 inputs final s s' Hd Hr H Hcv. pose proof Hd as (Hs & Hlen & _).
  apply run_cases in H as (ev & s1 & _ & _ & _ & _ & _ & _ & H); auto.
  destruct H as [(_ & x & Hx)|(_ & _ & s2 & HL & ->)]; [discriminate|].
  destruct (loop_end e c o size Hlen Hs fuel inputs final _ _ HL eq_refl) as (_ & Hc & _).
  exact (Hc Hcv).
Qed.
(** What the verdict means, for the documented policies. *)
Theorem C53_criteria :
  forall fuel init save0 inputs final s s', ready s -> r_has_run s = false ->
    (forall k, Forall (fun p => SConv.is_policy (fst p) /\ SConv.verdict_or_failure (snd p)) (p_checks (inputs k))) ->
    run e c o size verbose loaded fuel init save0 inputs final s = (s', Ok tt) -> r_converged s' = true ->
    exists k, p_mc (inputs k) = Ok true
      /\ (exists q, In q (p_checks (inputs k)) /\ ~ SConv.is_monitor (fst q))
      /\ (forall q, In q (p_checks (inputs k)) -> SConv.is_necessary (fst q) -> snd q = Ok true)
      /\ ((exists q, In q (p_checks (inputs k)) /\ SConv.is_sufficient (fst q)) ->
          exists q, In q (p_checks (inputs k)) /\ SConv.is_sufficient (fst q) /\ snd q = Ok true).
Proof.
  intros fuel init save0 inputs final s s' Hd Hr Hp H Hcv.
  destruct (C53_converged _ _ _ _ _ _ _ Hd Hr H Hcv) as (k & pre & _ & Hk & Hm). exists k. split; [auto|].
  destruct (TConv.C40_policies _ (Hp k)) as (b & Eb & Hb). rewrite Hk in Eb. injection Eb as <-. apply Hb. auto.
Qed.
End Loop.
Print Assumptions C46_budget.
Print Assumptions C46_fresh.
Print Assumptions C46_no_acquisition.
Print Assumptions C48_passes.
Print Assumptions C48_terminates.
Print Assumptions C49_again.
Print Assumptions C53_converged.
Print Assumptions C53_not_converged.
Print Assumptions C53_criteria.

(** ** Concrete runs *)
Definition demo_fit : fit_input nat := mkFit true (fun r i => r + i) demo_kw.
(** A pass that proposes [X], all new; the criterion says [conv], the diagnosis [diag]. *)
Definition demo_pass (X : list Z) (conv diag : bool) : pass_input Z nat :=
  mkPass (Ok X) (map (fun _ => true) X) demo_truth demo_fit (Ok tt) [("n"%string, Ok conv)] (Ok tt) (Ok diag) (Ok tt).
Definition demo_inputs (l : list (pass_input Z nat)) (k : nat) : pass_input Z nat := nth k l (demo_pass [] false false).
Definition demo_start : rstate Z Z unit unit unit nat unit := mkRun demo_new 0 0 false false [].
Definition demo_draw (k r j : nat) : Z := Z.of_nat (10 * k + 2 * r + j).
Lemma demo_ready size : size <> 0 -> ready demo (demo_c true 1) size demo_start.
Proof.
  intros H. split; [auto|]. split; [intros p y y' E; injection E as <-; auto|].
  exists tt, tt, (MGpr.Scalar (nq 1 100)), []. constructor.
Qed.
(** Two initial points; one pass that is not enough, one without proposals, one that converges but fails
    the diagnosis, one that converges and passes it. *)
Definition story := [demo_pass [5; 6]%Z false false; demo_pass [] false false; demo_pass [7; 8]%Z true false;
                     demo_pass [9; -1]%Z true true].
Example C46_example :
  exists s, run demo (demo_c true 1) (demo_opts 2 2 20 2) 1 true false 50 (demo_init demo_draw) (Ok tt)
              (demo_inputs story) (Ok true) demo_start = (s, Ok tt)
    /\ r_log s = [EvEval [0; 1]%Z;
                  EvAcquire 2 2; EvEval [5; 6]%Z; EvFit 1; EvVerdict false;
                  EvAcquire 4 4;
                  EvAcquire 4 4; EvEval [7; 8]%Z; EvFit 3; EvVerdict true; EvDiagnosis false;
                  EvAcquire 6 6; EvEval [9; -1]%Z; EvFit 4; EvVerdict true; EvDiagnosis true]
    /\ r_converged s = true /\ r_has_run s = true /\ n_total (demo_c true 1) (r_gpr s) = 8 /\ n_finite (r_gpr s) = 7.
Proof. eexists. split; [vm_compute; reflexivity|]. vm_compute. auto 10. Qed.
Example C48_example : max_passes (demo_opts 2 2 20 2) = 63. Proof. reflexivity. Qed.
(** No proposals at all: it gives up after three attempts. *)
Example C48_gives_up :
  exists s, run demo (demo_c true 1) (demo_opts 2 2 20 2) 1 true false 50 (demo_init demo_draw) (Ok tt)
              (demo_inputs []) (Ok true) demo_start = (s, Ok tt)
    /\ r_log s = [EvEval [0; 1]%Z; EvAcquire 2 2; EvAcquire 2 2; EvAcquire 2 2] /\ r_converged s = false.
Proof. eexists. split; [vm_compute; reflexivity|]. vm_compute. auto. Qed.

(** C47 is false: the last batch goes over [max_total]... *)
Theorem C47_last_batch_refuted :
  exists s new, run demo (demo_c true 1) (demo_opts 2 2 3 2) 1 true false 50 (demo_init demo_draw) (Ok tt)
              (demo_inputs story) (Ok true) demo_start = (s, Ok tt)
    /\ r_log s = r_log demo_start ++ new /\ length (evaluated new) = 4
    /\ o_max_total (demo_opts 2 2 3 2) = 3.
Proof. do 2 eexists. split; [vm_compute; reflexivity|]. split; [reflexivity|]. vm_compute. auto. Qed.
(** ... and so may the initial training: with [n_initial = 2] and [max_initial = max_total = 3]. *)
Theorem C47_initial_refuted :
  let draw := fun (k _ j : nat) => if k =? 0 then (-1)%Z else Z.of_nat j in
  exists s new, run demo (demo_c true 1) (demo_opts 2 3 3 2) 1 true false 50 (demo_init draw) (Ok tt)
              (demo_inputs story) (Ok true) demo_start = (s, Ok tt)
    /\ r_log s = r_log demo_start ++ new /\ length (evaluated new) = 4 /\ passes new = 0
    /\ o_max_total (demo_opts 2 3 3 2) = 3.
Proof. cbv zeta. do 2 eexists. split; [vm_compute; reflexivity|]. split; [reflexivity|]. vm_compute. auto. Qed.
Print Assumptions C47_last_batch_refuted.

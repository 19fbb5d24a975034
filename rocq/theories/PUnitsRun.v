(** Runs in other units. *)
From Verif Require Import MRun MUnits SUnits SUnitsRun PUnits PUnits2 PMpi.
Set Default Goal Selector "!".
Set Bullet Behavior "Strict Subproofs".

Lemma eval_truth_same {P P' : Type} (A : P -> P') c size (f : P -> num) (f' : P' -> num) X : (forall x, f' (A x) = shift c (f x)) ->
  match eval_truth_parallel size f X, eval_truth_parallel size f' (map A X) with
  | Ok (_, y), Ok (_, y') => y = map f X /\ y' = map (shift c) y
  | Err a, Err b => a = b
  | _, _ => False
  end.
Proof.
  intros H. destruct (Nat.eq_dec size 0) as [->|Hs].
  - unfold eval_truth_parallel. rewrite map_length. reflexivity.
  - destruct (eval_truth_parallel_ok size f X Hs) as (sh & -> & _). destruct (eval_truth_parallel_ok size f' (map A X) Hs) as (sh' & -> & _).
    split; [reflexivity|]. rewrite !map_map. apply map_ext. exact H.
Qed.

Section Sim.
Context {pt pt' pt_ PX PX' PY PY' model theta box box' : Type}.
Variable c : Qc.
Variable A : pt -> pt'.
Variable wf : pt -> Prop.
Variable B : box -> box'.
Variable wfB : box -> Prop.
Variable RX : PX -> PX' -> Prop.
Variable RY : PY -> PY' -> Prop.
Variable e : env pt pt_ PX PY model theta box.
Variable e' : env pt' pt_ PX' PY' model theta box'.
Hypothesis SE : same_env c A wf B wfB RX RY e e'.
Variable cf : config theta.
Variable o : options.
Variables (size : nat) (verbose loaded : bool).
Notation corr := (corr c A wf B wfB RX RY).
Notation sameS := (same_state c A B RX RY).

Lemma append_sim a g g' : corr g g' ->
  corr (fst (append_to_data e cf a g)) (fst (append_to_data e' cf (conv_append c A a) g')) /\
  snd (append_to_data e' cf (conv_append c A a) g') = snd (append_to_data e cf a g).
Proof.
  intros H. destruct (sim_step c A wf B wfB RX RY e e' SE cf (OAppend a) g g' H) as [H1 H2]. cbn [step conv_op] in H1, H2. split; [exact H1|].
  destruct (snd (append_to_data e cf a g)) as [[]|x], (snd (append_to_data e' cf (conv_append c A a) g')) as [[]|x']; simpl in H2; congruence || tauto.
Qed.
Lemma fit_rank_sim i X y g g' r n : corr g g' ->
  corr (fst (fit_rank e cf i X y g r n)) (fst (fit_rank e' cf i (map A X) (map (shift c) y) g' r n)) /\
  snd (fit_rank e' cf i (map A X) (map (shift c) y) g' r n) = snd (fit_rank e cf i X y g r n).
Proof.
  intros H. unfold fit_rank. destruct (negb (n =? 0) || (r =? 0)); [|auto]. cbv zeta.
  set (a := mkAppend (Some X) (Some y) NoNoise _ true (i_default i)).
  match goal with |- context [append_to_data e' cf ?b g'] => change b with (conv_append c A a) end.
  destruct (append_sim a g g' H) as [H1 H2]. destruct (append_to_data e cf a g) as [g1 r1], (append_to_data e' cf (conv_append c A a) g') as [g1' r1'].
  cbn [fst snd] in *. subst r1'. destruct r1 as [[]|x]; cbn [fst snd]; [|auto]. split; [exact H1|]. destruct H1 as [S _]. rewrite (same_lml _ _ _ _ _ _ _ S). reflexivity.
Qed.
Definition corr_rank {R} (p : gpr pt pt_ PX PY model theta box * R) (p' : gpr pt' pt_ PX' PY' model theta box' * R) : Prop := corr (fst p) (fst p') /\ snd p' = snd p.
Lemma all_ok_sim {R} : forall l l', Forall2 (corr_rank (R := res R)) l l' ->
  match all_ok l, all_ok l' with Ok k, Ok k' => Forall2 (corr_rank (R := R)) k k' | Err x, Err x' => x = x' | _, _ => False end.
Proof.
  induction 1 as [|[g r] [g' r'] l l' [H1 H2] F IH]; cbn [all_ok]; [constructor|]. cbn [fst snd] in *. subst r'. destruct r as [b|x]; cbn [bind]; [|reflexivity].
  destruct (all_ok l) as [k|x], (all_ok l') as [k'|x']; cbn [bind]; try tauto. constructor; [split; auto|auto].
Qed.
Lemma fit_parallel_sim it i X y g g' : corr g g' ->
  corr (fst (fit_gpr_parallel e cf o size it i X y g)) (fst (fit_gpr_parallel e' cf o size it i (map A X) (map (shift c) y) g')) /\
  snd (fit_gpr_parallel e' cf o size it i (map A X) (map (shift c) y) g') = snd (fit_gpr_parallel e cf o size it i X y g).
Proof.
  intros H. unfold fit_gpr_parallel. destruct (restarts_by_rank cf o size it) as [ns|x]; [|auto].
  set (q := combine (seq 0 (length ns)) ns). set (f := fun p : nat * nat => fit_rank e cf i X y g (fst p) (snd p)).
  set (f' := fun p : nat * nat => fit_rank e' cf i (map A X) (map (shift c) y) g' (fst p) (snd p)). cbv zeta.
  assert (F : Forall2 corr_rank (map f q) (map f' q)).
  { induction q as [|p q IH]; cbn [map]; constructor; [apply fit_rank_sim; exact H|exact IH]. }
  assert (M : corr match map f q with [] => g | p :: _ => fst p end match map f' q with [] => g' | p :: _ => fst p end).
  { destruct F as [|p p' l l' [P _] _]; [exact H|exact P]. }
  pose proof (all_ok_sim _ _ F) as K. destruct (all_ok (map f q)) as [l|x], (all_ok (map f' q)) as [l'|x']; cbn [bind]; try tauto.
  - assert (E : map snd l' = map snd l) by (clear - K; induction K as [|p p' l l' [_ E] _ IH]; cbn; congruence). rewrite E.
    destruct (np_argmax (map snd l)) as [b|x]; cbn [bind]; [|auto].
    assert (N : match nth_error l b, nth_error l' b with Some p, Some p' => corr_rank p p' | None, None => True | _, _ => False end).
    { clear - K. revert b. induction K as [|p p' l l' P _ IH]; intros [|b]; cbn; auto. apply IH. }
    destruct (nth_error l b) as [p|], (nth_error l' b) as [p'|]; try tauto. cbn [fst snd]. split; [apply N|reflexivity].
  - subst x'. auto.
Qed.
(** Initial training. *)
Lemma count_init_sim y : count_init cf (map (shift c) y) = count_init cf y.
Proof.
  unfold count_init. rewrite PUnits2.pymax_list_shift. destruct (pymax_list y) as [m|x]; cbn [map_res bind]; [|reflexivity]. f_equal.
  induction y as [|v y IH]; [reflexivity|]. cbn [map filter]. rewrite nsub_shift. destruct (init_finite cf (nsub m v)); cbn [length]; congruence.
Qed.
Lemma init_loop_sim i i' needed npp : same_init c A i i' -> forall left k X y,
  init_loop cf size i' needed npp k left (map A X) (map (shift c) y) =
  (map A (fst (init_loop cf size i needed npp k left X y)), map_res (fun p => (map (shift c) (fst p), snd p)) (snd (init_loop cf size i needed npp k left X y))).
Proof.
  intros [Hd Ht Hf]. induction left as [|left IH]; intros k X y; [reflexivity|]. cbn [init_loop]. cbv zeta.
  assert (E1 : init_round size i' npp k = map A (init_round size i npp k)).
  { unfold init_round. rewrite concat_map, map_map. f_equal. apply map_ext. intros r. rewrite map_map. apply map_ext. intros j. apply Hd. }
  rewrite E1. assert (E2 : map (truth_init i') (map A (init_round size i npp k)) = map (shift c) (map (truth_init i) (init_round size i npp k))).
  { rewrite !map_map. apply map_ext. exact Ht. }
  rewrite E2, <- !map_app, count_init_sim. destruct (count_init cf _) as [n|x]; [|reflexivity]. destruct (needed <=? n); [reflexivity|]. apply IH.
Qed.
Lemma init_sim i i' g g' : same_init c A i i' -> corr g g' ->
  corr (fst (fst (do_initial_training e cf o size verbose i g))) (fst (fst (do_initial_training e' cf o size verbose i' g'))) /\
  snd (fst (do_initial_training e' cf o size verbose i' g')) = map A (snd (fst (do_initial_training e cf o size verbose i g))) /\
  snd (do_initial_training e' cf o size verbose i' g') = snd (do_initial_training e cf o size verbose i g).
Proof.
  intros Hi H. unfold do_initial_training. pose proof H as [S _].
  rewrite (same_X _ _ _ _ _ _ _ S), (same_y _ _ _ _ _ _ _ S), map_length. cbv zeta.
  destruct (ceil_div (o_n_initial o - length (g_y g)) size =? 0); [cbn [fst snd map]; auto|].
  assert (E1 : (if 0 <? length (g_y g) then map A (g_X g) else []) = map A (if 0 <? length (g_y g) then g_X g else [])) by (destruct (0 <? _); reflexivity).
  assert (E2 : (if 0 <? length (g_y g) then map (shift c) (g_y g) else []) = map (shift c) (if 0 <? length (g_y g) then g_y g else [])) by (destruct (0 <? _); reflexivity).
  rewrite E1, E2, (init_loop_sim i i' _ _ Hi), map_length.
  destruct (init_loop cf size i _ _ 0 _ _ _) as [X r]. cbn [fst snd]. rewrite skipn_map.
  destruct r as [[y [|]]|x]; cbn [map_res fst snd]; [|auto|auto].
  set (a := mkAppend (Some X) (Some y) NoNoise FTrue true (fit_init i)).
  match goal with |- context [append_to_data e' cf ?b g'] => replace b with (conv_append c A a) by (unfold a, conv_append; cbn; rewrite (si_fit _ _ _ _ Hi); reflexivity) end.
  destruct (append_sim a g g' H) as [H1 H2]. destruct (append_to_data e cf a g) as [g1 r1], (append_to_data e' cf (conv_append c A a) g') as [g1' r1'].
  cbn [fst snd] in *. auto.
Qed.
(** The loop. *)
Definition corrS (s : rstate pt pt_ PX PY model theta box) (s' : rstate pt' pt_ PX' PY' model theta box') : Prop := sameS s s' /\ corr (r_gpr s) (r_gpr s').
Definition sim1 {R} (p : rstate pt pt_ PX PY model theta box * R) (p' : rstate pt' pt_ PX' PY' model theta box' * R) : Prop := corrS (fst p) (fst p') /\ snd p' = snd p.
Lemma corrS_log v s s' : corrS s s' -> corrS (log v s) (log (conv_event A v) s').
Proof. intros [[] H]. split; [|exact H]. constructor; auto. unfold log. cbn [r_log]. rewrite map_app. cbn [map]. congruence. Qed.
Lemma corrS_gpr g g' s s' : corr g g' -> corrS s s' -> corrS (with_gpr g s) (with_gpr g' s').
Proof. intros H [[] _]. split; [|exact H]. constructor; auto. apply H. Qed.
Lemma corrS_resamples n s s' : corrS s s' -> corrS (with_resamples n s) (with_resamples n s').
Proof. intros [[] H]. split; [|exact H]. constructor; auto. Qed.
Lemma corrS_converged b s s' : corrS s s' -> corrS (with_converged b s) (with_converged b s').
Proof. intros [[] H]. split; [|exact H]. constructor; auto. Qed.
Lemma corrS_next s s' : corrS s s' -> corrS (next_iter s) (next_iter s').
Proof. intros [[] H]. split; [|exact H]. constructor; auto. cbn. congruence. Qed.
Lemma corrS_finished s s' : corrS s s' -> corrS (finished s) (finished s').
Proof. intros [[] H]. split; [|exact H]. constructor; auto. Qed.
Lemma n_finite_sim (g : gpr pt pt_ PX PY model theta box) (g' : gpr pt' pt_ PX' PY' model theta box') : corr g g' -> n_finite g' = n_finite g.
Proof. intros [S _]. unfold n_finite. rewrite (same_y _ _ _ _ _ _ _ S). apply map_length. Qed.
Lemma n_total_sim (g : gpr pt pt_ PX PY model theta box) (g' : gpr pt' pt_ PX' PY' model theta box') : corr g g' -> n_total cf g' = n_total cf g.
Proof. intros H. unfold n_total. rewrite (n_finite_sim _ _ H). destruct H as [S _]. rewrite (same_svm _ _ _ _ _ _ _ S). reflexivity. Qed.
Lemma learn_sim i i' X s s' : same_pass c A i i' -> corrS s s' -> sim1 (learn e cf o size i X s) (learn e' cf o size i' (map A X) s').
Proof.
  intros Hi H. unfold learn. cbv zeta. apply (corrS_resamples 0) in H. set (t := with_resamples 0 s) in *. set (t' := with_resamples 0 s') in *. clearbody t t'. clear s s'.
  pose proof (eval_truth_same A c size (p_truth i) (p_truth i') X (pass_truth _ _ _ _ Hi)) as E.
  destruct (eval_truth_parallel size (p_truth i) X) as [[sh y]|x], (eval_truth_parallel size (p_truth i') (map A X)) as [[sh' y']|x']; try tauto; [|split; cbn; congruence || auto].
  destruct E as [_ ->]. apply (corrS_log (EvEval X)) in H. cbn [conv_event] in H.
  set (s := log (EvEval X) t) in *. set (s' := log (EvEval (map A X)) t') in *. clearbody s s'. clear t t'.
  rewrite (pass_fit _ _ _ _ Hi). rewrite (ss_iter _ _ _ _ _ _ _ (proj1 H)).
  destruct (fit_parallel_sim (r_iter s) (p_fit i) X y (r_gpr s) (r_gpr s') (proj2 H)) as [H1 H2].
  destruct (fit_gpr_parallel e cf o size (r_iter s) (p_fit i) X y (r_gpr s)) as [g r], (fit_gpr_parallel e' cf o size (r_iter s) (p_fit i) (map A X) (map (shift c) y) (r_gpr s')) as [g' r'].
  cbn [fst snd] in H1, H2. subst r'. apply (corrS_gpr _ _ _ _ H1) in H.
  assert (r_iter (with_gpr g' s') = r_iter (with_gpr g s)) as Ei by apply (ss_iter _ _ _ _ _ _ _ (proj1 H)).
  apply (corrS_log (EvFit (r_iter s))) in H. cbn [conv_event] in H.
  set (u := log (EvFit (r_iter s)) (with_gpr g s)) in *. 
  match type of H with corrS _ ?v => set (u' := v) in * end.
  rewrite (pass_callback _ _ _ _ Hi), (pass_checks _ _ _ _ Hi), (pass_mean _ _ _ _ Hi), (pass_mc _ _ _ _ Hi), (pass_save _ _ _ _ Hi).
  clearbody u u'. destruct (do _ <- r; do _ <- p_callback i; check_convergence (p_checks i)) as [v|x]; [|split; auto].
  apply (corrS_converged v) in H. apply (corrS_log (EvVerdict v)) in H. cbn [conv_event] in H.
  set (t := log (EvVerdict v) (with_converged v u)) in *. set (t' := log (EvVerdict v) (with_converged v u')) in *. clearbody t t'.
  destruct (p_mean i) as [[]|x]; [|split; auto]. destruct v; [|split; auto]. destruct (p_mc i) as [passed|x]; [|split; auto].
  split; cbn [fst snd]; [|reflexivity]. apply (corrS_log (EvDiagnosis passed)). destruct passed; [exact H|apply corrS_converged; exact H].
Qed.
Lemma pass_sim i i' s s' : same_pass c A i i' -> corrS s s' -> sim1 (one_pass e cf o size i s) (one_pass e' cf o size i' s').
Proof.
  intros Hi H. unfold one_pass. cbv zeta.
  rewrite (n_total_sim _ _ (proj2 H)), (n_finite_sim _ _ (proj2 H)).
  apply corrS_next in H. apply (corrS_log (EvAcquire (n_total cf (r_gpr s)) (n_finite (r_gpr s)))) in H. cbn [conv_event] in H.
  match type of H with corrS ?a ?b => set (t := a) in *; set (t' := b) in * end. clearbody t t'. clear s s'.
  rewrite (pass_acq _ _ _ _ Hi), (pass_keep _ _ _ _ Hi).
  assert (E : (do X <- map_res (map A) (p_acq i); match X with [] => Ok [] | _ => masked (p_keep i) X end)
    = map_res (map A) (do X <- p_acq i; match X with [] => Ok [] | _ => masked (p_keep i) X end)).
  { destruct (p_acq i) as [[|x X]|x]; cbn [map_res bind map]; try reflexivity. change (A x :: map A X) with (map A (x :: X)). apply masked_map. }
  rewrite E. destruct (do X <- p_acq i; match X with [] => Ok [] | _ => masked (p_keep i) X end) as [X|x]; cbn [map_res]; [|split; auto].
  rewrite map_length. destruct (length X <? Nat.max 1 (o_npa o / 2)); [|apply learn_sim; auto].
  rewrite (ss_resamples _ _ _ _ _ _ _ (proj1 H)). apply (corrS_resamples (S (r_resamples t))) in H. split; cbn [fst snd]; [exact H|].
  rewrite (ss_resamples _ _ _ _ _ _ _ (proj1 H)). reflexivity.
Qed.
Lemma loop_sim w w' final final' : (forall k s s', corrS s s' -> same_pass c A (w k s) (w' k s')) -> (forall s s', corrS s s' -> final' s' = final s) ->
  forall fuel k s s', corrS s s' -> sim1 (react_loop e cf o size fuel k w final s) (react_loop e' cf o size fuel k w' final' s').
Proof.
  intros Hw Hf. induction fuel as [|fuel IH]; intros k s s' H; cbn [react_loop]; [split; auto|].
  assert (E : goes_on cf o s' = goes_on cf o s).
  { unfold goes_on. rewrite (n_total_sim _ _ (proj2 H)), (n_finite_sim _ _ (proj2 H)), (ss_converged _ _ _ _ _ _ _ (proj1 H)). reflexivity. }
  rewrite E, (ss_converged _ _ _ _ _ _ _ (proj1 H)), (Hf _ _ H). destruct (goes_on cf o s).
  - destruct (pass_sim _ _ _ _ (Hw k s s' H) H) as [H1 H2]. destruct (one_pass e cf o size (w k s) s) as [s1 r], (one_pass e' cf o size (w' k s') s') as [s1' r'].
    cbn [fst snd] in H1, H2. subst r'. destruct r as [[|]|x]; [split; auto|apply IH; exact H1|split; auto].
  - destruct (r_converged s); [split; auto|]. destruct (final s) as [b|x]; [|split; auto]. split; cbn [fst snd]; [|reflexivity]. apply (corrS_log (EvDiagnosis b)). exact H.
Qed.
Lemma react_sim fuel i i' save0 w w' final final' s s' : same_init c A i i' ->
  (forall k s s', corrS s s' -> same_pass c A (w k s) (w' k s')) -> (forall s s', corrS s s' -> final' s' = final s) -> corrS s s' ->
  sim1 (react e cf o size verbose loaded fuel i save0 w final s) (react e' cf o size verbose loaded fuel i' save0 w' final' s').
Proof.
  intros Hi Hw Hf H. unfold react. rewrite (ss_has_run _ _ _ _ _ _ _ (proj1 H)). destruct (r_has_run s); [split; auto|].
  match goal with |- sim1 (let '(_, _) := ?a in _) (let '(_, _) := ?b in _) => assert (K : sim1 a b) end.
  { destruct loaded; [split; auto|]. destruct (init_sim i i' _ _ Hi (proj2 H)) as (H1 & H2 & H3).
    destruct (do_initial_training e cf o size verbose i (r_gpr s)) as [[g X] r], (do_initial_training e' cf o size verbose i' (r_gpr s')) as [[g' X'] r'].
    cbn [fst snd] in *. subst X' r'. split; cbn [fst snd]; [|reflexivity]. apply corrS_gpr; [exact H1|].
    destruct X as [|x X]; cbn [map]; [exact H|]. change (A x :: map A X) with (map A (x :: X)). apply (corrS_log (EvEval (x :: X))). exact H. }
  destruct K as [K1 K2].
  match goal with |- sim1 (let '(_, _) := ?a in _) (let '(_, _) := ?b in _) => destruct a as [s1 r1], b as [s1' r1'] end. cbn [fst snd] in K1, K2. subst r1'.
  destruct r1 as [[]|x]; [|split; auto]. apply (corrS_converged false) in K1.
  destruct (loop_sim w w' final final' Hw Hf fuel 0 _ _ K1) as [L1 L2].
  destruct (react_loop e cf o size fuel 0 w final (with_converged false s1)) as [s2 r2], (react_loop e' cf o size fuel 0 w' final' (with_converged false s1')) as [s2' r2'].
  cbn [fst snd] in L1, L2. subst r2'. destruct r2 as [[]|x]; split; cbn [fst snd]; auto. apply corrS_finished. exact L1.
Qed.
End Sim.
(** A run that reacts is a run. *)
Section IsRun.
Context {pt pt_ PX PY model theta box : Type}.
Variable e : env pt pt_ PX PY model theta box.
Variable cf : config theta.
Variable o : options.
Variables (size : nat) (verbose loaded : bool).
Lemma react_loop_is (w : world pt pt_ PX PY model theta box) final : forall fuel k s, exists inputs last,
  react_loop e cf o size fuel k w final s = loop e cf o size fuel inputs last s.
Proof.
  induction fuel as [|fuel IH]; intros k s; [exists (fun j => w j s), (Ok true); reflexivity|]. cbn [react_loop].
  destruct (goes_on cf o s) eqn:G.
  - destruct (one_pass e cf o size (w k s) s) as [s' r] eqn:E. destruct (IH (S k) s') as (inputs & last & H).
    exists (fun j => match j with 0 => w k s | S j => inputs j end), last. cbn [loop]. rewrite G, E. destruct r as [[|]|]; auto.
  - exists (fun j => w j s), (final s). cbn [loop]. rewrite G. reflexivity.
Qed.
Lemma react_is (w : world pt pt_ PX PY model theta box) final fuel i save0 s : exists inputs last,
  react e cf o size verbose loaded fuel i save0 w final s = run e cf o size verbose loaded fuel i save0 inputs last s.
Proof.
  unfold react, run. destruct (r_has_run s); [exists (fun j => w j s), (Ok true); reflexivity|].
  match goal with |- context [let '(_, _) := ?a in _] => destruct a as [s1 r1] end.
  destruct (react_loop_is w final fuel 0 (with_converged false s1)) as (inputs & last & H). exists inputs, last. rewrite H. reflexivity.
Qed.
End IsRun.

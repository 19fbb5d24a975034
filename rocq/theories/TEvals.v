(** C137: what a run evaluated is in the training set of its surrogate, once, also if the run raises. *)
From Verif Require Import SRun PMpi PSvm PGpr PGpr2 PGpr3 TGpr PRun PInit TInit TRun.
Set Default Goal Selector "!".
Set Bullet Behavior "Strict Subproofs".

Section C137.
Context {pt pt_ PX PY model theta box : Type}.
Variable e : env pt pt_ PX PY model theta box.
Variable c : config theta.
Variable o : options.
Variables (size : nat) (verbose loaded : bool).
Notation gpr := (gpr pt pt_ PX PY model theta box).
Notation rstate := (rstate pt pt_ PX PY model theta box).
Implicit Types (g : gpr) (s : rstate).

(** ** Appends that raise keep points and values together *)
Definition still g g' : Prop := g_Xall g' = g_Xall g /\ g_yall g' = g_yall g.
Definition keeps {A} (m : gpr -> gpr * res A) : Prop := forall g, still g (fst (m g)).
Lemma still_refl g : still g g. Proof. split; reflexivity. Qed.
Lemma keeps_ret {A} (a : A) : keeps (ret a). Proof. intros g. apply still_refl. Qed.
Lemma keeps_raise {A} x : keeps (@raise pt pt_ PX PY model theta box A x). Proof. intros g. apply still_refl. Qed.
Lemma keeps_lift {A} (r : res A) : keeps (lift r). Proof. intros g. apply still_refl. Qed.
Lemma keeps_get : keeps (@MGpr.get pt pt_ PX PY model theta box). Proof. intros g. apply still_refl. Qed.
Lemma keeps_modify f : (forall g, still g (f g)) -> keeps (modify f). Proof. intros H g. apply H. Qed.
Lemma keeps_seq {A B} (m : gpr -> gpr * res A) (k : A -> gpr -> gpr * res B) :
  keeps m -> (forall a, keeps (k a)) -> keeps (seq_ m k).
Proof.
  intros Hm Hk g. unfold seq_. specialize (Hm g). destruct (m g) as [g1 [a|x]]; [|exact Hm]. cbn in Hm.
  destruct Hm as [E1 E2]. destruct (Hk a g1) as [E3 E4]. split; congruence.
Qed.
Ltac kp1 := first
  [ apply keeps_ret | apply keeps_raise | apply keeps_lift | apply keeps_get
  | apply keeps_modify; intros ?g; split; reflexivity
  | apply keeps_seq; [|intros ?a]
  | match goal with |- keeps (match ?x with _ => _ end) => destruct x end
  | match goal with |- keeps (if ?x then _ else _) => destruct x end
  | match goal with |- keeps (let '_ := ?x in _) => destruct x end ].
Ltac kp := repeat kp1.
Lemma keeps_update : keeps (update_model e).
Proof. unfold update_model. kp. Qed.
Lemma keeps_restarts d draw start : forall n i, keeps (restarts e d draw start i n).
Proof.
  induction n as [|n IH]; intros i; cbn [restarts]; kp. apply IH.
Qed.
Lemma keeps_fit kw : keeps (fit_gpr_hyperparameters e c kw).
Proof. unfold fit_gpr_hyperparameters. kp; try apply keeps_restarts; try apply keeps_update. Qed.

(** Either nothing of the batch is there, or all of it, in order, with its values. *)
Definition whole g (X : list pt) (y : list num) g' : Prop :=
  (g_Xall g' = g_Xall g /\ g_yall g' = g_yall g) \/ (g_Xall g' = g_Xall g ++ X /\ g_yall g' = g_yall g ++ y).
Lemma append_whole a g g' r X y : a_X a = Some X -> a_y a = Some y -> append_to_data e c a g = (g', r) -> whole g X y g'.
Proof.
  intros HX Hy H. unfold append_to_data in H.
  assert (forall kw, append_body e c a kw g = (g', r) -> whole g X y g') as K.
  { clear H. intros kw H. unfold append_body in H. rewrite HX, Hy in H.
    unfold seq_ at 1 in H. cbn [ret] in H. unfold seq_ at 1 in H. cbn [MGpr.get] in H.
    unfold seq_ at 1 in H. unfold lift at 1 in H.
    destruct (validate_noise_level _ _ _) as [nv|x]; [|injection H as <- <-; left; split; reflexivity].
    unfold seq_ at 1 in H. unfold modify at 1 in H.
    destruct (negb (dim_ok e X)); [injection H as <- <-; left; split; reflexivity|].
    unfold seq_ at 1 in H. unfold modify at 1 in H.
    match type of H with ?m ?g1 = _ => assert (keeps m) as Km; [|specialize (Km g1)] end.
    { repeat first [apply keeps_fit | apply keeps_update | kp1].
      all: apply keeps_modify; intros g1; match goal with |- still _ (match ?x with _ => _ end) => destruct x end; apply still_refl || (split; reflexivity). }
    rewrite H in Km. cbn in Km. right. exact Km. }
  destruct (a_fit a); try exact (K _ H). injection H as <- <-. left. split; reflexivity.
Qed.
Lemma fit_parallel_whole it i X y g g' r : fit_gpr_parallel e c o size it i X y g = (g', r) -> whole g X y g'.
Proof.
  unfold fit_gpr_parallel. destruct (restarts_by_rank c o size it) as [ns|x]; [|intros H; injection H as <- <-; left; auto].
  assert (forall r m, whole g X y (fst (fit_rank e c i X y g r m))) as Hr.
  { intros q m. unfold fit_rank. destruct (_ || _); [|left; auto].
    destruct (append_to_data e c _ g) as [g1 r1] eqn:E. apply append_whole with (X := X) (y := y) in E; auto.
    destruct r1; exact E. }
  set (ranks := map _ _). destruct (all_ok ranks) as [l|x] eqn:El; cbn [bind].
  2: { intros H. injection H as <- <-. unfold ranks. destruct ns as [|n ns]; cbn; [left; auto|]. apply Hr. }
  destruct (np_argmax (map snd l)) as [b|x]; cbn [bind].
  2: { intros H. injection H as <- <-. unfold ranks. destruct ns as [|n ns]; cbn; [left; auto|]. apply Hr. }
  destruct (nth_error l b) as [p|] eqn:Eb.
  2: { intros H. injection H as <- <-. unfold ranks. destruct ns as [|n ns]; cbn; [left; auto|]. apply Hr. }
  intros H. injection H as <- <-. apply (all_ok_nth _ _ _ _ El) in Eb. unfold ranks in Eb.
  apply nth_ranks_inv in Eb as (m & _ & Eb). cbn [fst snd] in Eb.
  replace (fst p) with (fst (fit_rank e c i X y g b m)) by (rewrite <- Eb; reflexivity). apply Hr.
Qed.

(** ** The whole run *)
Hypothesis Hsize : size <> 0.
Hypothesis Hlen : forall p y y', trY e p y = Ok y' -> length y' = length y.
(** The last thing that was done with the points [lost] was to evaluate them, or to try to fit them. *)
Definition last_batch (lost : list pt) (l : list (event pt)) : Prop :=
  exists l1 l2, l = l1 ++ EvEval lost :: l2 /\ (l2 = [] \/ exists k, l2 = [EvFit k]).
(** Between two states, what was evaluated has been learnt, with the values of [f], but for [lost]. *)
Definition learnt (f : pt -> num) s s' (ok : Prop) : Prop :=
  exists new known lost, r_log s' = r_log s ++ new /\ evaluated new = known ++ lost
    /\ g_Xall (r_gpr s') = g_Xall (r_gpr s) ++ known /\ g_yall (r_gpr s') = g_yall (r_gpr s) ++ map f known
    /\ (lost = [] \/ ~ ok /\ last_batch lost new).

Lemma pass_learnt f i s s' r : (forall x, p_truth i x = f x) -> one_pass e c o size i s = (s', r) ->
  learnt f s s' (exists b, r = Ok b).
Proof.
  intros Hf H. pose proof (one_pass_result e c o size Hsize _ _ _ _ H) as R. clear H.
  assert (forall X, map (p_truth i) X = map f X) as EX by (intros X; apply map_ext; exact Hf).
  destruct R as [x|X Hc HL|X g rf s' r Hc HL HF R].
  - exists [EvAcquire (n_total c (r_gpr s)) (n_finite (r_gpr s))], [], []. cbn. rewrite !app_nil_r. auto 10.
  - exists [EvAcquire (n_total c (r_gpr s)) (n_finite (r_gpr s))], [], []. cbn. rewrite !app_nil_r. auto 10.
  - rewrite EX in HF. pose proof (fit_parallel_whole _ _ _ _ _ _ _ HF) as HW.
    assert (rf = Ok tt -> g_Xall g = g_Xall (r_gpr s) ++ X /\ g_yall g = g_yall (r_gpr s) ++ map f X) as HO.
    { intros ->. apply (fit_parallel_total e c o size Hlen) in HF; [tauto|].
      intros E. apply map_eq_nil in E. exact (quota_nonempty o size Hsize X HL E). }
    assert (exists post, r_log s' = r_log s ++ EvAcquire (n_total c (r_gpr s)) (n_finite (r_gpr s)) :: EvEval X :: EvFit (S (r_iter s)) :: post
              /\ evaluated post = [] /\ r_gpr s' = g /\ (rf = Ok tt \/ post = [] /\ exists x, r = Err x)) as (post & EL & EP & EG & Hpost).
    { destruct R as [x|v x Hr Hv|Hr Hv|passed Hr Hv Hmc];
        cbn [fitted started log next_iter with_gpr with_resamples with_converged r_log r_gpr]; rewrite <- !app_assoc; cbn [app].
      - exists []. eauto 10.
      - exists [EvVerdict v]. auto 10.
      - exists [EvVerdict false]. auto 10.
      - exists [EvVerdict true; EvDiagnosis passed]. auto 10. }
    assert (forall k lost, k ++ lost = X -> evaluated (EvAcquire (n_total c (r_gpr s)) (n_finite (r_gpr s)) :: EvEval X :: EvFit (S (r_iter s)) :: post) = k ++ lost) as EE.
    { intros k lost <-. cbn. fold (evaluated post). rewrite EP, app_nil_r. reflexivity. }
    rewrite <- EG in HW, HO.
    destruct HW as [(A & B)|(A & B)].
    + destruct Hpost as [Hr|[-> [x ->]]].
      * destruct (HO Hr) as [A' B']. eexists _, X, []. split; [exact EL|]. split; [apply EE, app_nil_r|]. auto.
      * eexists _, [], X. split; [exact EL|]. split; [apply EE; reflexivity|]. cbn [map]. rewrite !app_nil_r.
        split; [exact A|]. split; [exact B|]. right. split; [intros [b Hb]; discriminate Hb|].
        exists [EvAcquire (n_total c (r_gpr s)) (n_finite (r_gpr s))], [EvFit (S (r_iter s))]. split; [reflexivity|]. eauto.
    + eexists _, X, []. split; [exact EL|]. split; [apply EE, app_nil_r|]. auto.
Qed.
Lemma learnt_refl f s ok : learnt f s s ok.
Proof. exists [], [], []. cbn. rewrite !app_nil_r. auto 10. Qed.
Lemma learnt_trans f s1 s2 s3 (ok1 ok : Prop) : ok1 -> learnt f s1 s2 ok1 -> learnt f s2 s3 ok -> learnt f s1 s3 ok.
Proof.
  intros H1 (n1 & k1 & l1 & A1 & A2 & A3 & A4 & A5) (n2 & k2 & l2 & B1 & B2 & B3 & B4 & B5).
  destruct A5 as [->|[N _]]; [|contradiction]. rewrite app_nil_r in A2.
  exists (n1 ++ n2), (k1 ++ k2), l2. rewrite B1, A1, B3, A3, B4, A4, evaluated_app, A2, B2, map_app, !app_assoc.
  repeat (split; [reflexivity|]). destruct B5 as [->|[N (x & z & -> & Hz)]]; [auto|]. right. split; [exact N|].
  exists (n1 ++ x), z. rewrite app_assoc. auto.
Qed.
Lemma loop_learnt f : forall fuel inputs final s s' r, (forall j x, p_truth (inputs j) x = f x) ->
  loop e c o size fuel inputs final s = (s', r) -> learnt f s s' (r = Ok tt).
Proof.
  induction fuel as [|fuel IH]; intros inputs final s s' r Hf H; cbn [loop] in H.
  { injection H as <- <-. apply learnt_refl. }
  destruct (goes_on c o s).
  - destruct (one_pass e c o size (inputs 0) s) as [s1 r1] eqn:Ep.
    apply (pass_learnt f) in Ep; [|intros x; apply Hf]. destruct r1 as [[|]|x].
    + injection H as <- <-. destruct Ep as (a & b & d & P1 & P2 & P3 & P4 & [->|[N _]]); [|destruct N; eauto].
      exists a, b, []. auto 10.
    + apply IH in H; [|intros j; apply Hf]. eapply learnt_trans; [|exact Ep|exact H]. eauto.
    + injection H as <- <-. destruct Ep as (a & b & d & P1 & P2 & P3 & P4 & P5). exists a, b, d.
      repeat (split; [assumption|]). destruct P5 as [->|[_ P5]]; [auto|]. right. split; [discriminate|exact P5].
  - destruct (r_converged s); [injection H as <- <-; apply learnt_refl|]. destruct final as [b|x].
    + injection H as <- <-. exists [EvDiagnosis b], [], []. cbn. rewrite !app_nil_r. auto 10.
    + injection H as <- <-. apply learnt_refl.
Qed.

Lemma init_learnt f i s g ev r : (forall x, truth_init i x = f x) -> g_y (r_gpr s) = [] \/ o_n_initial o <= length (g_y (r_gpr s)) ->
  do_initial_training e c o size verbose i (r_gpr s) = (g, ev, r) ->
  learnt f s (with_gpr g (match ev with [] => s | _ => log (EvEval ev) s end)) (r = Ok tt).
Proof.
  intros Hf [Hy|Hy] H.
  2: { unfold do_initial_training in H. replace (o_n_initial o - length (g_y (r_gpr s))) with 0 in H by lia.
       replace (ceil_div 0 size) with 0 in H; [|unfold ceil_div; symmetry; apply Nat.div_small; lia].
       cbn [Nat.eqb] in H. injection H as <- <- <-. exists [], [], []. cbn. rewrite !app_nil_r. auto 10. }
  assert (forall X, map (truth_init i) X = map f X) as EX by (intros X; apply map_ext; exact Hf).
  assert (r_log (with_gpr g (match ev with [] => s | _ => log (EvEval ev) s end)) = r_log s ++ match ev with [] => [] | _ => [EvEval ev] end
    /\ r_gpr (with_gpr g (match ev with [] => s | _ => log (EvEval ev) s end)) = g) as [EL EG].
  { destruct ev; cbn; rewrite ?app_nil_r; auto. }
  assert (evaluated (match ev with [] => [] | _ => [EvEval ev] end) = ev) as EE by (destruct ev; cbn; rewrite ?app_nil_r; auto).
  assert (whole (r_gpr s) ev (map f ev) g /\ (r = Ok tt -> g_Xall g = g_Xall (r_gpr s) ++ ev /\ g_yall g = g_yall (r_gpr s) ++ map f ev)) as [HW HO].
  { unfold do_initial_training in H. rewrite Hy in H. cbn [length Nat.ltb Nat.leb skipn] in H.
    destruct (_ =? 0).
    { injection H as <- <- <-. split; [left; auto|]. intros _. cbn. rewrite !app_nil_r. auto. }
    match type of H with (let '(_, _) := ?l in _) = _ => destruct l as [X q] eqn:El end.
    apply (init_loop_spec c size verbose) in El as (m & _ & EX' & Hq). cbn [app] in EX'. destruct q as [[y [|]]|x].
    2: { injection H as <- <- <-. split; [left; auto|discriminate]. }
    2: { injection H as <- <- <-. split; [left; auto|discriminate]. }
    destruct (Hq _ _ eq_refl) as (Ey & _). cbn [app] in Ey. rewrite <- EX', EX in Ey.
    destruct (append_to_data e c _ (r_gpr s)) as [g1 r1] eqn:Ea. injection H as <- <- <-.
    subst y. split; [eapply append_whole; [| |exact Ea]; reflexivity|].
    intros ->. apply append_sets in Ea as (f1 & T & Xf & A & B & _). auto. }
  unfold learnt. rewrite EL, EG. clear EL EG. destruct HW as [(A & B)|(A & B)].
  - destruct ev as [|x ev]; [eexists _, [], []; split; [reflexivity|]; cbn; rewrite !app_nil_r; auto|].
    destruct r as [[]|y].
    + destruct (HO eq_refl) as [A' B']. eexists _, (x :: ev), []. split; [reflexivity|]. split; [cbn; rewrite !app_nil_r; auto|]. auto.
    + eexists _, [], (x :: ev). split; [reflexivity|]. cbn [map]. rewrite !app_nil_r. split; [cbn; rewrite !app_nil_r; auto|].
      split; [auto|]. split; [auto|]. right. split; [discriminate|]. exists [], []. auto.
  - eexists _, ev, []. split; [reflexivity|]. rewrite app_nil_r. auto.
Qed.

(** However a run ends, the points and values that it evaluated are in the training set of the surrogate,
    in the order of the evaluations, after those of before; only when it raises, those of the last
    evaluation may be missing, and then all of them. This holds for resumed runs, for runs without initial
    points and for those that have enough, in particular if they are run again after an exception. *)
Theorem C137_known : forall f fuel init save0 inputs final s s' r,
  (forall x, truth_init init x = f x) -> (forall j x, p_truth (inputs j) x = f x) ->
  loaded = true \/ g_y (r_gpr s) = [] \/ o_n_initial o <= length (g_y (r_gpr s)) ->
  run e c o size verbose loaded fuel init save0 inputs final s = (s', r) -> learnt f s s' (r = Ok tt).
Proof.
  intros f fuel init save0 inputs final s s' r Hi Hf Hl H. unfold run in H.
  destruct (r_has_run s); [injection H as <- <-; apply learnt_refl|].
  assert (forall s1, match loop e c o size fuel inputs final (with_converged false s1) with
                     | (s2, Ok _) => (finished s2, Ok tt) | (s2, Err x) => (s2, Err x) end = (s', r) ->
    learnt f s1 s' (r = Ok tt)) as Hloop.
  { intros s1 E. destruct (loop _ _ _ _ _ _ _ _) as [s2 [[]|x]] eqn:EL; apply (loop_learnt f) in EL; auto;
      injection E as <- <-; destruct EL as (a & b & d & P); exists a, b, d; exact P. }
  destruct loaded; [apply Hloop, H|]. destruct Hl as [Hl|Hl]; [discriminate|].
  destruct (do_initial_training e c o size verbose init (r_gpr s)) as [[g ev] ri] eqn:Ei.
  apply (init_learnt f) in Ei; auto. destruct ri as [[]|x]; cbn [bind] in H.
  - destruct save0 as [[]|x].
    + apply Hloop in H. eapply learnt_trans; [|exact Ei|exact H]. reflexivity.
    + injection H as <- <-. destruct Ei as (a & b & d & P1 & P2 & P3 & P4 & [->|[N _]]); [|destruct N; reflexivity].
      exists a, b, []. auto 10.
  - injection H as <- <-. destruct Ei as (a & b & d & P1 & P2 & P3 & P4 & P5). exists a, b, d.
    repeat (split; [assumption|]). destruct P5 as [->|[_ P5]]; [auto|]. right. split; [discriminate|exact P5].
Qed.

(** A failed initial training loses all its evaluations: at least [max_initial] per process. *)
Theorem C137_initial_refuted : forall fuel init save0 inputs final pX pY n it,
  loaded = false -> 1 <= o_n_initial o -> 1 <= o_max_initial o -> (forall x, truth_init init x = NInf) ->
  let s := mkRun (new_gpr pX pY n : gpr) it 0 false false [] in
  exists s' ev, run e c o size verbose loaded fuel init save0 inputs final s = (s', Err RuntimeError)
    /\ r_log s' = [EvEval ev] /\ size * o_max_initial o <= length ev
    /\ g_Xall (r_gpr s') = [] /\ g_yall (r_gpr s') = [].
Proof.
  intros fuel init save0 inputs final pX pY n it -> Hn Hm Ht s.
  destruct (C50_all_infinite e c o size verbose init pX pY n Hsize Hn Ht) as (ev & E & L).
  exists (with_gpr (new_gpr pX pY n) (log (EvEval ev) s)), ev. unfold run. cbn [r_has_run s r_gpr]. unfold s at 1.
  cbn [r_has_run r_gpr]. fold s. change (r_gpr s) with (new_gpr pX pY n : gpr). rewrite E.
  destruct ev as [|x ev]; [cbn [length] in L; nia|]. cbn. auto 10.
Qed.
End C137.
Print Assumptions C137_known.
Print Assumptions C137_initial_refuted.

(** ** Concrete runs *)
(** The callback raises in the third pass: what was evaluated so far is known. *)
Definition raising (X : list Z) : pass_input Z nat :=
  mkPass (Ok X) (map (fun _ => true) X) demo_truth demo_fit (Err RuntimeError) [] (Ok tt) (Ok true) (Ok tt).
Example C137_case :
  let s0 := demo_start in
  (forall x, truth_init (demo_init demo_draw) x = demo_truth x)
  /\ (forall j x, p_truth (demo_inputs [demo_pass [5; 6]%Z false false; demo_pass [] false false; raising [7; -1]%Z] j) x = demo_truth x)
  /\ exists s, run demo (demo_c true 1) (demo_opts 2 2 20 2) 1 true false 50 (demo_init demo_draw) (Ok tt)
              (demo_inputs [demo_pass [5; 6]%Z false false; demo_pass [] false false; raising [7; -1]%Z]) (Ok true) s0 = (s, Err RuntimeError)
    /\ evaluated (r_log s) = [0; 1; 5; 6; 7; -1]%Z /\ g_Xall (r_gpr s) = [0; 1; 5; 6; 7; -1]%Z
    /\ g_yall (r_gpr s) = map demo_truth [0; 1; 5; 6; 7; -1]%Z.
Proof.
  cbv zeta. split; [reflexivity|]. split; [intros [|[|[|[|j]]]] x; reflexivity|].
  eexists. split; [vm_compute; reflexivity|]. vm_compute. auto.
Qed.
(** Run again, it goes on from there. *)
Example C137_again_case :
  exists s s2, run demo (demo_c true 1) (demo_opts 2 2 20 2) 1 true false 50 (demo_init demo_draw) (Ok tt)
              (demo_inputs [demo_pass [5; 6]%Z false false; raising [7; -1]%Z]) (Ok true) demo_start = (s, Err RuntimeError)
    /\ 2 <= length (g_y (r_gpr s))
    /\ run demo (demo_c true 1) (demo_opts 2 2 20 2) 1 true false 50 (demo_init demo_draw) (Ok tt)
              (demo_inputs [demo_pass [8; 9]%Z true true]) (Ok true) s = (s2, Ok tt)
    /\ evaluated (r_log s2) = [0; 1; 5; 6; 7; -1; 8; 9]%Z /\ g_Xall (r_gpr s2) = [0; 1; 5; 6; 7; -1; 8; 9]%Z.
Proof. do 2 eexists. split; [vm_compute; reflexivity|]. vm_compute. auto 10. Qed.
(** Points that the surrogate does not accept (here: above 1000) have been evaluated for nothing. *)
Theorem C137_last_refuted :
  exists s, run demo (demo_c true 1) (demo_opts 2 2 20 2) 1 true false 50 (demo_init demo_draw) (Ok tt)
              (demo_inputs [demo_pass [5; 6]%Z false false; demo_pass [7; 2000]%Z false false]) (Ok true) demo_start = (s, Err ValueError)
    /\ evaluated (r_log s) = [0; 1; 5; 6; 7; 2000]%Z /\ g_Xall (r_gpr s) = [0; 1; 5; 6]%Z.
Proof. eexists. split; [vm_compute; reflexivity|]. vm_compute. auto. Qed.
(** So have those of a run that goes on from a surrogate with one noise level per point: runs append
    without noise levels. *)
Definition noisy_start : rstate Z Z unit unit unit nat unit :=
  mkRun (fst (do_all demo (demo_c true 1) [OAppend (add_noise [3; 4]%Z [nz 3; nz 4] (NArr [nq 1 10; nq 1 5]) FTrue)] demo_new)) 0 0 false false [].
Theorem C137_noise_refuted :
  exists s, run demo (demo_c true 1) (demo_opts 2 2 20 2) 1 true true 50 (demo_init demo_draw) (Ok tt)
              (demo_inputs [demo_pass [5; 6]%Z false false]) (Ok true) noisy_start = (s, Err ValueError)
    /\ evaluated (r_log s) = [5; 6]%Z /\ g_Xall (r_gpr s) = [3; 4]%Z.
Proof. eexists. split; [vm_compute; reflexivity|]. vm_compute. auto. Qed.
Print Assumptions C137_last_refuted.
Print Assumptions C137_noise_refuted.

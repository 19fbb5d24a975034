(** C124: no random number is used twice. *)
From Verif Require Import MSeed.
Set Default Goal Selector "!".
Set Bullet Behavior "Strict Subproofs".

Lemma draw_spec g n : fst (draw g n) = (fst g, snd g + n) /\ forall t, In t (snd (draw g n)) <-> fst t = fst g /\ snd g <= snd t < snd g + n.
Proof.
  split; [reflexivity|]. intros [k i]. cbn. rewrite in_map_iff. split.
  - intros (j & E & H). apply in_seq in H. injection E as <- <-. split; [reflexivity|lia].
  - intros [-> H]. exists (i - snd g). split; [f_equal; lia|]. apply in_seq. lia.
Qed.
Lemma draw_nodup g n : NoDup (snd (draw g n)).
Proof. cbn. apply FinFun.Injective_map_NoDup; [|apply seq_NoDup]. intros i j E. injection E as E. lia. Qed.

(** Process [r] draws from child [r] of the seed, at positions not used before. *)
Definition good (e : Z) (ps : list proc) : Prop := forall r p, nth_error ps r = Some p -> fst (rng p) = Seq e [r] /\ rs p = RRunner.
Definition unused (e : Z) (ps : list proc) (t : token) : Prop := exists r p, nth_error ps r = Some p /\ fst t = Seq e [r] /\ snd (rng p) <= snd t.
Lemma nth_replace {A} (l : list A) r p x : nth_error l r = Some p -> forall i, nth_error (firstn r l ++ x :: skipn (S r) l) i = if Nat.eqb i r then Some x else nth_error l i.
Proof.
  revert r. induction l as [|a l IH]; intros [|r] H i; try discriminate H; [destruct i; reflexivity|]. cbn [nth_error] in H. change (firstn (S r) (a :: l)) with (a :: firstn r l). change (skipn (S (S r)) (a :: l)) with (skipn (S r) l).
  destruct i as [|i]; [reflexivity|]. cbn [nth_error app Nat.eqb]. apply (IH r H).
Qed.
Lemma step_good e ps o : good e ps -> let (ps', ts) := step ps o in good e ps' /\ NoDup ts /\ (forall t, In t ts -> unused e ps t /\ ~ unused e ps' t) /\ (forall t, unused e ps' t -> unused e ps t).
Proof.
  intros G. destruct o as [r n|r n|root]; cbn [step].
  1,2: unfold at_rank; destruct (nth_error ps r) as [p|] eqn:E; [|split; [exact G|split; [apply NoDup_nil|split; [intros t []|auto]]]].
  1,2: destruct (G r p E) as [Hk Hr].
  2: replace (fit_draw r p n) with (runner_draw p n) by (unfold fit_draw; rewrite Hr; reflexivity).
  1,2: unfold runner_draw; destruct (draw (rng p) n) as [g t] eqn:D; pose proof (draw_spec (rng p) n) as [D1 D2]; pose proof (draw_nodup (rng p) n) as D3; rewrite D in D1, D2, D3; cbn [fst snd] in D1, D2, D3; subst g.
  1,2: pose proof (nth_replace ps r p {| rng := (fst (rng p), snd (rng p) + n); rs := rs p; global := global p |} E) as NR.
  1,2: set (ps' := firstn r ps ++ _) in *; cbn beta iota.
  1,2: split; [intros i q Hq; rewrite NR in Hq; destruct (Nat.eqb_spec i r) as [->|]; [injection Hq as <-; split; assumption|apply (G i q Hq)]|].
  1,2: split; [exact D3|]; split.
  1,3: intros u Hu; apply D2 in Hu as [U1 U2]; split; [exists r, p; repeat split; [exact E|congruence|lia]|].
  1,2: intros (i & q & Hq & K & L); rewrite U1, Hk in K; injection K as <-; rewrite NR, Nat.eqb_refl in Hq; injection Hq as <-; cbn in L; lia.
  1,2: intros u (i & q & Hq & K & L); rewrite NR in Hq; destruct (Nat.eqb_spec i r) as [->|]; [|exists i, q; auto].
  1,2: injection Hq as <-; cbn in L; exists r, p; repeat split; [exact E|exact K|lia].
  assert (R : forall i, option_map rng (nth_error (share root ps) i) = option_map rng (nth_error ps i)).
  { intros i. unfold share. destruct (Nat.leb _ _); [reflexivity|]. destruct (nth_error ps root); [|reflexivity]. rewrite nth_error_map. destruct (nth_error ps i); reflexivity. }
  split; [|split; [apply NoDup_nil|split; [intros t []|]]].
  - intros i q Hq. specialize (R i). rewrite Hq in R. cbn in R. destruct (nth_error ps i) as [p|] eqn:E; [|discriminate R]. injection R as R. split; [rewrite R; apply (G i p E)|].
    unfold share in Hq. destruct (Nat.leb _ _); [apply (G i q Hq)|]. destruct (nth_error ps root); [|apply (G i q Hq)]. rewrite nth_error_map, E in Hq. injection Hq as <-. reflexivity.
  - intros t (i & q & Hq & K & L). specialize (R i). rewrite Hq in R. cbn in R. destruct (nth_error ps i) as [p|] eqn:E; [|discriminate R]. injection R as R. exists i, p. rewrite <- R. auto.
Qed.
Lemma history_good e os : forall ps, good e ps -> NoDup (snd (history ps os)) /\ forall t, In t (snd (history ps os)) -> unused e ps t.
Proof.
  induction os as [|o os IH]; intros ps G; cbn [history]; [split; [constructor|intros t []]|]. pose proof (step_good e ps o G) as S. destruct (step ps o) as [ps1 t1]. destruct S as (G1 & N1 & U1 & B1). destruct (IH ps1 G1) as [N2 U2]. destruct (history ps1 os) as [ps2 t2]. cbn [snd] in *. split.
  - clear IH. induction t1 as [|t t1 IHt]; [exact N2|]. inversion N1 as [|? ? NI N1']; subst. cbn. constructor.
    + rewrite in_app_iff. intros [H|H]; [apply NI, H|]. apply (U1 t (or_introl eq_refl)). apply U2, H.
    + apply IHt; [exact N1'|intros u Hu; apply U1; right; exact Hu].
  - intros t Ht. apply in_app_or in Ht as [Ht|Ht]; [apply U1, Ht|apply B1, U2, Ht].
Qed.
(** With an integer as seed, or none, whatever the runner and its own regressor do, in any number of processes, no random number is used twice. *)
Theorem C124_fresh : forall os size seeds history_ops, (forall g, seeds 0 <> SGen g) -> NoDup (snd (history (new_runner os size seeds RRunner) history_ops)).
Proof.
  intros os size seeds ops H. assert (exists e, get_random_generator os size seeds = spawn e size) as [e E]. { unfold get_random_generator. destruct (seeds 0) eqn:S; [eexists; reflexivity|eexists; reflexivity|]. destruct (H g eq_refl). }
  apply (history_good e). unfold good, new_runner. rewrite E. intros r p Hp. rewrite nth_error_map in Hp. unfold spawn in Hp. rewrite nth_error_map in Hp. destruct (nth_error (seq 0 size) r) as [i|] eqn:Hi; [|discriminate Hp]. injection Hp as <-. cbn.
  assert (r < size) by (rewrite <- (seq_length size 0); apply nth_error_Some; congruence). rewrite (nth_error_nth' _ 0) in Hi by (rewrite seq_length; assumption). rewrite seq_nth in Hi by assumption. injection Hi as <-. split; reflexivity.
Qed.
(** In one process also with a regressor that has a generator of its own, or none and uses numpy's global one. *)
Definition good1 (p : proc) : Prop := match rs p with RRunner => True | ROwn g => fst g <> fst (rng p) | RNone => fst (rng p) <> Global 0 | RInt _ => False end.
Definition unused1 (p : proc) (t : token) : Prop :=
  fst t = fst (rng p) /\ snd (rng p) <= snd t \/ match rs p with ROwn g => fst t = fst g /\ snd g <= snd t | RNone => fst t = Global 0 /\ global p <= snd t | _ => False end.
Lemma step_good1 p o : good1 p -> exists p' ts, step [p] o = ([p'], ts) /\ good1 p' /\ NoDup ts /\ (forall t, In t ts -> unused1 p t /\ ~ unused1 p' t) /\ (forall t, unused1 p' t -> unused1 p t).
Proof.
  intros G. assert (forall ts, ts = [] -> exists p' ts', ([p], ts) = ([p'], ts') /\ good1 p' /\ NoDup ts' /\ (forall t, In t ts' -> unused1 p t /\ ~ unused1 p' t) /\ (forall t, unused1 p' t -> unused1 p t)) as Same.
  { intros ts ->. exists p, []. repeat split; [exact G|constructor|destruct H|destruct H|auto]. }
  assert (forall n, exists p' ts, runner_draw p n = (p', ts) /\ good1 p' /\ NoDup ts /\ (forall t, In t ts -> unused1 p t /\ ~ unused1 p' t) /\ (forall t, unused1 p' t -> unused1 p t)) as Run.
  { intros n. unfold runner_draw. destruct (draw (rng p) n) as [g ts] eqn:D. pose proof (draw_spec (rng p) n) as [D1 D2]. pose proof (draw_nodup (rng p) n) as D3. rewrite D in D1, D2, D3. cbn [fst snd] in D1, D2, D3. subst g.
    do 2 eexists. split; [reflexivity|]. split; [exact G|]. split; [exact D3|]. unfold unused1, good1 in *. cbn [rng rs global fst snd]. split.
    - intros t Ht. apply D2 in Ht as [E L]. split; [left; split; [exact E|lia]|]. intros [[_ H]|H]; [lia|]. rewrite E in H. destruct (rs p) as [|g| |]; try exact H; [|]; destruct H as [H _]; congruence.
    - intros t [[E H]|H]; [left; split; [exact E|lia]|right; exact H]. }
  destruct o as [[|r] n|[|r] n|root]; cbn [step]; unfold at_rank; cbn [nth_error].
  - destruct (Run n) as (p' & ts & -> & H). exists p', ts. split; [reflexivity|exact H].
  - destruct r; apply Same; reflexivity.
  - unfold fit_draw. destruct (rs p) as [|g|k|] eqn:K; [destruct (Run n) as (p' & ts & -> & H); exists p', ts; split; [reflexivity|exact H]| |unfold good1 in G; rewrite K in G; destruct G|].
    + destruct (draw g n) as [g' ts] eqn:D. pose proof (draw_spec g n) as [D1 D2]. pose proof (draw_nodup g n) as D3. rewrite D in D1, D2, D3. cbn [fst snd] in D1, D2, D3. subst g'.
      do 2 eexists. split; [reflexivity|]. unfold unused1, good1 in *. rewrite K in *. cbn [rng rs global fst snd]. split; [exact G|]. split; [exact D3|]. split.
      * intros t Ht. apply D2 in Ht as [E L]. split; [right; split; [exact E|lia]|]. intros [[H _]|[_ H]]; [congruence|lia].
      * intros t [H|[E H]]; [left; exact H|right; split; [exact E|lia]].
    + set (g := (Global 0, global p)). destruct (draw g n) as [g' ts] eqn:D. pose proof (draw_spec g n) as [D1 D2]. pose proof (draw_nodup g n) as D3. rewrite D in D1, D2, D3. cbn [fst snd g] in D1, D2, D3. subst g'.
      do 2 eexists. split; [reflexivity|]. unfold unused1, good1 in *. rewrite K in *. cbn [rng rs global fst snd]. split; [exact G|]. split; [exact D3|]. split.
      * intros t Ht. apply D2 in Ht as [E L]. split; [right; split; [exact E|lia]|]. intros [[H _]|[_ H]]; [congruence|lia].
      * intros t [H|[E H]]; [left; exact H|right; split; [exact E|lia]].
  - destruct r; apply Same; reflexivity.
  - apply Same. reflexivity.
Qed.
Lemma history_good1 os : forall p, good1 p -> NoDup (snd (history [p] os)) /\ forall t, In t (snd (history [p] os)) -> unused1 p t.
Proof.
  induction os as [|o os IH]; intros p G; cbn [history]; [split; [constructor|intros t []]|]. destruct (step_good1 p o G) as (p1 & t1 & -> & G1 & N1 & U1 & B1). destruct (IH p1 G1) as [N2 U2]. destruct (history [p1] os) as [ps2 t2]. cbn [snd] in *. split.
  - clear IH. induction t1 as [|t t1 IHt]; [exact N2|]. inversion N1 as [|? ? NI N1']; subst. cbn. constructor.
    + rewrite in_app_iff. intros [H|H]; [apply NI, H|]. apply (U1 t (or_introl eq_refl)). apply U2, H.
    + apply IHt; [exact N1'|intros u Hu; apply U1; right; exact Hu].
  - intros t Ht. apply in_app_or in Ht as [Ht|Ht]; [apply U1, Ht|apply B1, U2, Ht].
Qed.
Theorem C124_one_process : forall os seeds rs0 history_ops, (forall g, seeds 0 <> SGen g) -> rs0 = RRunner \/ rs0 = RNone \/ (exists u k, rs0 = ROwn (User u, k)) ->
  NoDup (snd (history (new_runner os 1 seeds rs0) history_ops)).
Proof.
  intros os seeds rs0 ops H R. assert (exists e, get_random_generator os 1 seeds = [(Seq e [0], 0)]) as [e E]. { unfold get_random_generator. destruct (seeds 0) eqn:S; [eexists; reflexivity|eexists; reflexivity|]. destruct (H g eq_refl). }
  unfold new_runner. rewrite E. apply history_good1. unfold good1. destruct R as [->|[->|(u & k & ->)]]; cbn; [exact I|discriminate|discriminate].
Qed.
(** The generator of a process is fixed by the seed given to the main process and its rank, not by the number of processes. *)
Theorem C124_processes : forall n os os' size size' seeds seeds' r, seeds 0 = SInt n -> seeds' 0 = SInt n -> r < size -> r < size' ->
  exists g, nth_error (get_random_generator os size seeds) r = Some g /\ nth_error (get_random_generator os' size' seeds') r = Some g.
Proof.
  intros n os os' size size' seeds seeds' r S S' H H'. unfold get_random_generator. rewrite S, S'. exists (Seq n [r], 0). unfold spawn. rewrite !nth_error_map.
  rewrite (nth_error_nth' (seq 0 size) 0), (nth_error_nth' (seq 0 size') 0) by (rewrite seq_length; assumption). rewrite !seq_nth by assumption. split; reflexivity.
Qed.
(** Different seeds or different ranks: no number in common. *)
Theorem C124_apart : forall n n' os os' size size' seeds seeds' r r' g g' m m' t, seeds 0 = SInt n -> seeds' 0 = SInt n' -> (n, r) <> (n', r') ->
  nth_error (get_random_generator os size seeds) r = Some g -> nth_error (get_random_generator os' size' seeds') r' = Some g' -> In t (snd (draw g m)) -> In t (snd (draw g' m')) -> False.
Proof.
  intros n n' os os' size size' seeds seeds' r r' g g' m m' t S S' N H H' T T'. unfold get_random_generator in *. rewrite S in H. rewrite S' in H'. unfold spawn in *. rewrite nth_error_map in H, H'.
  assert (A : forall k a i j (G : gen), option_map (fun i => (Seq a [i], 0)) (nth_error (seq 0 k) i) = Some G -> In j (snd (draw G m)) \/ In j (snd (draw G m')) -> fst j = Seq a [i]).
  { clear. intros k a i j G E I. destruct (nth_error (seq 0 k) i) as [x|] eqn:X; [|discriminate E]. assert (i < k) by (rewrite <- (seq_length k 0); apply nth_error_Some; congruence). rewrite (nth_error_nth' _ 0) in X by (rewrite seq_length; assumption). rewrite seq_nth in X by assumption. injection X as <-. injection E as <-.
    destruct I as [I|I]; apply draw_spec in I; apply I. }
  pose proof (A _ _ _ t _ H (or_introl T)) as E. pose proof (A _ _ _ t _ H' (or_intror T')) as E'. rewrite E in E'. injection E' as E1 E2. apply N. congruence.
Qed.
(** Refuted for a generator as seed and several processes: every process uses the same numbers. *)
Theorem C124_generator_refuted : forall os size g n r r' rs0, r < size -> r' < size ->
  snd (step (new_runner os size (fun _ => SGen g) rs0) (ODraw r n)) = snd (step (new_runner os size (fun _ => SGen g) rs0) (ODraw r' n)).
Proof.
  intros os size g n r r' rs0 H H'.
  assert (A : forall i, i < size -> snd (step (new_runner os size (fun _ => SGen g) rs0) (ODraw i n)) = snd (draw g n)); [|rewrite !A by assumption; reflexivity].
  intros i Hi. cbn [step]. unfold at_rank, new_runner, get_random_generator. rewrite !nth_error_map, (nth_error_nth' _ 0) by (rewrite seq_length; exact Hi). reflexivity.
Qed.
(** Refuted for a regressor with an integer as random state, in one process: every fit starts from the points of the one before. *)
Theorem C124_integer_refuted : forall os seeds n k before,
  let ps := fst (history (new_runner os 1 seeds (RInt k)) before) in snd (step ps (OFit 0 n)) = snd (draw (Legacy k, 0) n).
Proof.
  intros os seeds n k before. cbn zeta.
  assert (Inv : forall ops ps, (exists p, ps = [p] /\ rs p = RInt k) -> exists p, fst (history ps ops) = [p] /\ rs p = RInt k).
  { clear. induction ops as [|o ops IH]; intros ps (p & -> & Hp); cbn [history]; [exists p; auto|]. destruct (step [p] o) as [ps1 t1] eqn:S. destruct (IH ps1) as (q & E & Hq); [|exists q; destruct (history ps1 ops); auto].
    destruct o as [r m|r m|root]; cbn [step] in S.
    - unfold at_rank in S. destruct r as [|[|r]]; cbn in S; injection S as <- _; [|exists p; auto|exists p; auto]. eexists. split; [reflexivity|]. exact Hp.
    - unfold at_rank in S. destruct r as [|[|r]]; cbn [nth_error] in S; [|injection S as <- _; exists p; auto|injection S as <- _; exists p; auto]. unfold fit_draw in S. rewrite Hp in S. cbn in S. injection S as <- _. exists p. auto.
    - cbn in S. injection S as <- _. exists p. auto. }
  assert (G : exists g, get_random_generator os 1 seeds = [g]) by (unfold get_random_generator; destruct (seeds 0); eexists; reflexivity). destruct G as [g G].
  destruct (Inv before (new_runner os 1 seeds (RInt k))) as (p & E & Hp); [unfold new_runner; rewrite G; eexists; split; reflexivity|]. rewrite E. cbn. unfold fit_draw. rewrite Hp. reflexivity.
Qed.
(** Refuted for resumed runs in several processes: in the first fit all processes start from the same points, whatever the seed. *)
Theorem C124_resumed_refuted : forall os size seeds saved n r r', r < size -> r' < size -> (forall g, seeds 0 <> SGen g) ->
  snd (step (resumed_runner os size seeds saved) (OFit r n)) = snd (step (resumed_runner os size seeds saved) (OFit r' n)).
Proof.
  intros os size seeds saved n r r' H H' NG.
  assert (A : forall i, i < size -> snd (step (resumed_runner os size seeds saved) (OFit i n)) = snd (draw saved n)); [|rewrite !A by assumption; reflexivity].
  intros i Hi. cbn [step]. unfold at_rank, resumed_runner, new_runner. rewrite nth_error_map. destruct (nth_error (get_random_generator os size seeds) i) as [g|] eqn:E; [reflexivity|].
  exfalso. apply nth_error_None in E. unfold get_random_generator in E. destruct (seeds 0); unfold spawn in E; rewrite ?map_length, ?seq_length in E; lia.
Qed.
(** Refuted for runs resumed with the same seed: they begin with the numbers the first run began with. *)
Theorem C124_same_seed_refuted : forall n os os' size seeds saved r m, seeds 0 = SInt n -> r < size ->
  snd (step (resumed_runner os' size seeds saved) (ODraw r m)) = snd (step (new_runner os size seeds RRunner) (ODraw r m)).
Proof.
  intros n os os' size seeds saved r m S H. cbn [step]. unfold at_rank, resumed_runner, new_runner, get_random_generator. rewrite S. unfold spawn. rewrite !nth_error_map, (nth_error_nth' _ 0) by (rewrite seq_length; exact H). reflexivity.
Qed.
(** Three processes with the seed 5: initial proposals, a first fit, the regressor shared, a fit in two processes. *)
Example C124_case : snd (history (new_runner 0 3 (fun _ => SInt 5) RRunner) [ODraw 0 2; ODraw 1 1; OFit 0 1; OShare 0; OFit 0 1; OFit 1 2]) =
  [(Seq 5 [0], 0); (Seq 5 [0], 1); (Seq 5 [1], 0); (Seq 5 [0], 2); (Seq 5 [0], 3); (Seq 5 [1], 1); (Seq 5 [1], 2)].
Proof. reflexivity. Qed.
(** A regressor of the user with its own generator: the processes use other numbers once it has been shared. *)
Example C124_case_own : snd (history (new_runner 0 2 (fun _ => SInt 5) (ROwn (User 0, 7))) [OFit 0 1; OShare 0; OFit 0 1; OFit 1 1]) = [(User 0, 7); (Seq 5 [0], 0); (Seq 5 [1], 0)].
Proof. reflexivity. Qed.
Example C124_case_one : snd (history (new_runner 0 1 (fun _ => SInt 5) (ROwn (User 0, 7))) [OFit 0 2; ODraw 0 1; OShare 0; OFit 0 1]) = [(User 0, 7); (User 0, 8); (Seq 5 [0], 0); (User 0, 9)] /\
  snd (history (new_runner 0 1 (fun _ => SInt 5) RNone) [OFit 0 1; ODraw 0 1; OFit 0 1]) = [(Global 0, 0); (Seq 5 [0], 0); (Global 0, 1)].
Proof. split; reflexivity. Qed.
Print Assumptions C124_fresh.
Print Assumptions C124_one_process.
Print Assumptions C124_processes.
Print Assumptions C124_apart.
Print Assumptions C124_generator_refuted.
Print Assumptions C124_integer_refuted.
Print Assumptions C124_resumed_refuted.
Print Assumptions C124_same_seed_refuted.

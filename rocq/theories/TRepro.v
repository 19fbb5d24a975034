(** C147: runs with the same seed are the same. *)
From Verif Require Import MRepro.
Set Default Goal Selector "!".
Set Bullet Behavior "Strict Subproofs".

(** ** Vocabulary *)
(** Streams whose numbers are fixed by the seed [n], by an integer, or by a generator that the user made. *)
Definition fixed (n : Z) (s : stream) : Prop := match s with Seq e _ => e = n | Legacy _ | User _ => True | Global _ => False end.
(** Two executions: the same numbers there, whatever elsewhere. *)
Definition agree (n : Z) (w w' : token -> Z) : Prop := forall s i, fixed n s -> w (s, i) = w' (s, i).
(** The same integer as seed, or the same generators of the user. *)
Definition same_seed (n : Z) (seeds seeds' : nat -> seed) : Prop :=
  (seeds 0 = SInt n /\ seeds' 0 = SInt n) \/ (forall r, exists u k, seeds r = SGen (User u, k) /\ seeds' r = SGen (User u, k)).
(** The regressor: made by the runner, or with an integer or a generator of its own. *)
Definition stated (r : rstate) : Prop := match r with RRunner | RInt _ => True | ROwn g => exists u, fst g = User u | RNone => False end.
(** Components that use the seed only. *)
Definition seeded (c : setup) : Prop := match eng c with NORA UltraNestNs => False | NORA _ => True | BatchOptimizer => ~ In KLtype (crits c) end.
Definition uses (c : setup) (next : trace -> option rop) : Prop := forall tr o, next tr = Some o -> allowed c o = true.
(** What has been done before the final sample is drawn. *)
Definition is_final (o : rop) : bool := match o with ROutside FinalSample _ _ => true | _ => false end.
Fixpoint until_final (tr : trace) : trace := match tr with [] => [] | e :: tr => if is_final (fst e) then [] else e :: until_final tr end.

(** ** Proofs *)
Definition fixed_rs (n : Z) (r : rstate) : Prop := match r with RRunner | RInt _ => True | ROwn g => fixed n (fst g) | RNone => False end.
Definition good (n : Z) (ps : list proc) : Prop := Forall (fun p => fixed n (fst (rng p)) /\ fixed_rs n (rs p)) ps.
Lemma runner_good n p m : fixed n (fst (rng p)) /\ fixed_rs n (rs p) ->
  let (p', ts) := runner_draw p m in (fixed n (fst (rng p')) /\ fixed_rs n (rs p')) /\ Forall (fun t => fixed n (fst t)) ts.
Proof. intros [H1 H2]. cbn. split; [split; assumption|]. apply Forall_forall. intros t Ht. apply in_map_iff in Ht as (i & <- & _). exact H1. Qed.
Lemma fit_good n r p m : fixed n (fst (rng p)) /\ fixed_rs n (rs p) ->
  let (p', ts) := fit_draw r p m in (fixed n (fst (rng p')) /\ fixed_rs n (rs p')) /\ Forall (fun t => fixed n (fst t)) ts.
Proof.
  intros [H1 H2]. unfold fit_draw. destruct (rs p) as [|g|s|] eqn:E.
  - apply runner_good. rewrite E. split; assumption.
  - cbn. split; [split; assumption|]. apply Forall_forall. intros t Ht. apply in_map_iff in Ht as (i & <- & _). exact H2.
  - cbn. rewrite E. split; [split; auto|]. apply Forall_forall. intros t Ht. apply in_map_iff in Ht as (i & <- & _). exact I.
  - destruct H2.
Qed.
Lemma at_rank_good n r (f : proc -> proc * list token) ps : good n ps -> (forall p, fixed n (fst (rng p)) /\ fixed_rs n (rs p) ->
    let (p', ts) := f p in (fixed n (fst (rng p')) /\ fixed_rs n (rs p')) /\ Forall (fun t => fixed n (fst t)) ts) ->
  let (ps', ts) := at_rank r f ps in good n ps' /\ Forall (fun t => fixed n (fst t)) ts.
Proof.
  intros G F. unfold at_rank. destruct (nth_error ps r) as [p|] eqn:E; [|split; [exact G|constructor]].
  assert (Hp : fixed n (fst (rng p)) /\ fixed_rs n (rs p)) by (apply (proj1 (Forall_forall _ _) G p), (nth_error_In _ _ E)).
  specialize (F p Hp). destruct (f p) as [p' ts]. destruct F as [F1 F2]. split; [|exact F2].
  unfold good in *. rewrite <- (firstn_skipn r ps) in G. apply Forall_app in G as [G1 G2]. apply Forall_app. split; [exact G1|]. constructor; [exact F1|].
  clear -G2. revert r G2. induction ps as [|a ps IH]; intros [|r] G; cbn in *; try constructor; [inversion G; assumption|]. destruct ps; [constructor|]. apply (IH r G).
Qed.
Lemma rstep_good n c ps o : seeded c -> allowed c o = true -> is_final o = false -> good n ps ->
  let (ps', ts) := rstep ps o in good n ps' /\ Forall (fun t => fixed n (fst t)) ts.
Proof.
  intros Sc A N G. destruct o as [[r m|r m|root]|r|who r m]; cbn [rstep step].
  - apply at_rank_good; [exact G|]. intros p. apply runner_good.
  - apply at_rank_good; [exact G|]. intros p. apply fit_good.
  - split; [|constructor]. unfold share. destruct (Nat.leb _ _); [exact G|]. destruct (nth_error ps root) as [q|]; [|exact G].
    unfold good in *. rewrite Forall_forall in *. intros p Hp. apply in_map_iff in Hp as (p0 & <- & Hp). cbn. split; [apply G, Hp|exact I].
  - apply at_rank_good; [exact G|]. intros p Hp. pose proof (fit_good n r p 1 Hp) as K. unfold classify_draw. destruct (rs p) as [|g|z|] eqn:E; try exact K.
    rewrite E. destruct Hp. split; [split; auto|constructor].
  - exfalso. destruct c as [e cs]. unfold seeded in Sc. cbn in *. destruct who; [destruct e as [|[]]; try discriminate; contradiction| |discriminate].
    destruct e as [|s]; [|discriminate]. apply existsb_exists in A as (k & Hk & K). destruct k; try discriminate. contradiction.
Qed.
Lemma play_extends w next fuel : forall ps tr, exists rest, play fuel w next ps tr = tr ++ rest.
Proof.
  induction fuel as [|fuel IH]; intros ps tr; cbn [play]; [exists []; rewrite app_nil_r; reflexivity|].
  destruct (next tr) as [o|]; [|exists []; rewrite app_nil_r; reflexivity]. destruct (rstep ps o) as [ps' ts]. destruct (IH ps' (tr ++ [(o, map w ts)])) as [rest ->].
  eexists. rewrite <- app_assoc. reflexivity.
Qed.
Lemma until_final_app tr o v rest : is_final o = true -> until_final (tr ++ (o, v) :: rest) = until_final tr.
Proof. intros F. induction tr as [|[o' v'] tr IH]; cbn; [rewrite F; reflexivity|]. destruct (is_final o'); [reflexivity|]. rewrite IH. reflexivity. Qed.
Lemma play_agree n c next w w' : seeded c -> uses c next -> agree n w w' -> forall fuel ps tr, good n ps ->
  until_final (play fuel w next ps tr) = until_final (play fuel w' next ps tr).
Proof.
  intros Sc U A. induction fuel as [|fuel IH]; intros ps tr G; cbn [play]; [reflexivity|]. destruct (next tr) as [o|] eqn:E; [|reflexivity].
  destruct (is_final o) eqn:F.
  - destruct (rstep ps o) as [ps' ts]. destruct (play_extends w next fuel ps' (tr ++ [(o, map w ts)])) as [r1 ->]. destruct (play_extends w' next fuel ps' (tr ++ [(o, map w' ts)])) as [r2 ->].
    rewrite <- !app_assoc. cbn [app]. rewrite !until_final_app by exact F. reflexivity.
  - pose proof (rstep_good n c ps o Sc (U _ _ E) F G) as K. destruct (rstep ps o) as [ps' ts]. destruct K as [G' T].
    replace (map w' ts) with (map w ts); [apply IH, G'|]. apply map_ext_Forall. eapply Forall_impl; [|exact T]. intros [s i] Hs. apply A, Hs.
Qed.
Lemma new_runner_good n os os' size seeds seeds' rs0 : same_seed n seeds seeds' -> stated rs0 ->
  new_runner os size seeds rs0 = new_runner os' size seeds' rs0 /\ good n (new_runner os size seeds rs0).
Proof.
  intros Hs Hr. assert (R : fixed_rs n rs0). { destruct rs0 as [|[s k]|z|]; cbn in *; auto. destruct Hr as (u & ->). exact I. }
  unfold new_runner, get_random_generator. destruct Hs as [[-> ->]|H].
  - split; [reflexivity|]. apply Forall_forall. intros p Hp. apply in_map_iff in Hp as (g & <- & Hg). unfold spawn in Hg. apply in_map_iff in Hg as (i & <- & _). cbn. split; [reflexivity|exact R].
  - destruct (H 0) as (u & k & E0 & E0'). rewrite E0, E0'. split.
    + f_equal. apply map_ext. intros r. destruct (H r) as (u' & k' & -> & ->). reflexivity.
    + apply Forall_forall. intros p Hp. apply in_map_iff in Hp as (g & <- & Hg). apply in_map_iff in Hg as (r & <- & _). destruct (H r) as (u' & k' & -> & _). cbn. split; [exact I|exact R].
Qed.

(** ** Theorems *)
(** In any number of processes, whatever numpy's global generator and the operating system give: until the final sample is drawn, two runs with the same seed do the same, with the
    same numbers. *)
Theorem C147_repeat : forall c next n os os' size seeds seeds' rs0 w w' fuel,
  seeded c -> uses c next -> same_seed n seeds seeds' -> stated rs0 -> agree n w w' ->
  until_final (play fuel w next (new_runner os size seeds rs0) []) = until_final (play fuel w' next (new_runner os' size seeds' rs0) []).
Proof.
  intros c next n os os' size seeds seeds' rs0 w w' fuel Sc U Hs Hr A. destruct (new_runner_good n os os' size seeds seeds' rs0 Hs Hr) as [E G]. rewrite <- E.
  apply (play_agree n c); assumption.
Qed.
(** In particular, points that the truth is evaluated at, as computed from what has been drawn. *)
Corollary repeat_points (X : Type) (points : trace -> list X) c next n os os' size seeds seeds' rs0 w w' fuel :
  seeded c -> uses c next -> same_seed n seeds seeds' -> stated rs0 -> agree n w w' ->
  points (until_final (play fuel w next (new_runner os size seeds rs0) [])) = points (until_final (play fuel w' next (new_runner os' size seeds' rs0) [])).
Proof. intros. f_equal. apply (C147_repeat c next n); assumption. Qed.

(** Two sets of numbers that agree on all streams with a seed. *)
Definition other (v : Z) (t : token) : Z := match fst t with Global _ => v | _ => Z.of_nat (snd t) end.
Lemma other_agree n v v' : agree n (other v) (other v').
Proof. intros s i H. destruct s; cbn in H |- *; try reflexivity; contradiction. Qed.
(** One batch of proposals, then what [check] does, then another batch only if the number it drew is 0. *)
Definition learner (check : rop) (tr : trace) : option rop :=
  match tr with
  | [] => Some (RSeeded (ODraw 0 2))
  | [_] => Some check
  | [_; (_, v)] => match v with [0%Z] => Some (RSeeded (ODraw 0 2)) | _ => None end
  | _ => None
  end.
Lemma learner_uses c check : allowed c check = true -> uses c (learner check).
Proof.
  intros A tr o H. destruct tr as [|e [|[o1 v] [|e2 tr]]]; cbn in H; try (injection H as <-; auto; fail); try discriminate.
  destruct v as [|z [|z' v]]; try discriminate; destruct z; try discriminate. injection H as <-. reflexivity.
Qed.
(** Refuted beyond the final sample: it takes no seed, and if its diagnosis fails the run goes on. *)
Theorem C147_diagnosis_refuted : forall c, exists next w w', uses c next /\ agree 5 w w'
  /\ length (play 9 w next (new_runner 0 1 (fun _ => SInt 5) RRunner) []) <> length (play 9 w' next (new_runner 0 1 (fun _ => SInt 5) RRunner) []).
Proof. intros c. exists (learner (ROutside FinalSample 0 1)), (other 0), (other 1). split; [apply learner_uses; reflexivity|]. split; [apply other_agree|]. vm_compute. discriminate. Qed.
(** Refuted for NORA with UltraNest (a warning says so). *)
Theorem C147_ultranest_refuted : forall cs, let c := {| eng := NORA UltraNestNs; crits := cs |} in exists next w w', uses c next /\ agree 5 w w'
  /\ until_final (play 9 w next (new_runner 0 1 (fun _ => SInt 5) RRunner) []) <> until_final (play 9 w' next (new_runner 0 1 (fun _ => SInt 5) RRunner) []).
Proof. intros cs c. exists (learner (ROutside UltraNest 0 1)), (other 0), (other 1). split; [apply learner_uses; reflexivity|]. split; [apply other_agree|]. vm_compute. discriminate. Qed.
(** Refuted for criteria based on a KL divergence with BatchOptimizer: the chain takes no seed. *)
Theorem C147_kl_refuted : forall cs, In KLtype cs -> let c := {| eng := BatchOptimizer; crits := cs |} in exists next w w', uses c next /\ agree 5 w w'
  /\ until_final (play 9 w next (new_runner 0 1 (fun _ => SInt 5) RRunner) []) <> until_final (play 9 w' next (new_runner 0 1 (fun _ => SInt 5) RRunner) []).
Proof.
  intros cs H c. exists (learner (ROutside KLChain 0 1)), (other 0), (other 1). split; [apply learner_uses; cbn; apply existsb_exists; exists KLtype; split; [exact H|reflexivity]|].
  split; [apply other_agree|]. vm_compute. discriminate.
Qed.
(** Refuted for a regressor passed as an object without a random state: in one process the seed does not reach it. *)
Theorem C147_no_state_refuted : forall c, exists next w w', uses c next /\ agree 5 w w'
  /\ until_final (play 9 w next (new_runner 0 1 (fun _ => SInt 5) RNone) []) <> until_final (play 9 w' next (new_runner 0 1 (fun _ => SInt 5) RNone) []).
Proof. intros c. exists (learner (RSeeded (OFit 0 1))), (other 0), (other 1). split; [apply learner_uses; reflexivity|]. split; [apply other_agree|]. vm_compute. discriminate. Qed.
(** And of course without a seed. *)
Definition by_entropy (t : token) : Z := match fst t with Seq e _ => e | _ => 0 end.
Theorem C147_no_seed_refuted : forall c, exists next os os', uses c next
  /\ until_final (play 9 by_entropy next (new_runner os 1 (fun _ => SNone) RRunner) []) <> until_final (play 9 by_entropy next (new_runner os' 1 (fun _ => SNone) RRunner) []).
Proof. intros c. exists (learner (RSeeded (OFit 0 1))), 0%Z, 1%Z. split; [apply learner_uses; reflexivity|]. vm_compute. discriminate. Qed.

(** ** Examples *)
(** Two processes; a fit of the regressor and of the classifier; the regressor is shared; a restart in each process; the final sample. *)
Definition two (tr : trace) : option rop :=
  nth_error [RSeeded (ODraw 0 1); RSeeded (ODraw 1 1); RClassify 0; RSeeded (OFit 0 2); RSeeded (OShare 0); RSeeded (OFit 1 1); ROutside FinalSample 0 1; RSeeded (ODraw 0 1)] (length tr).
Example C147_case : let c := {| eng := NORA PolyChord; crits := [KLtype; CorrectCounter] |} in seeded c /\ uses c two
  /\ until_final (play 9 (other 7) two (new_runner 3 2 (fun _ => SInt 5) RRunner) [])
     = [(RSeeded (ODraw 0 1), [0%Z]); (RSeeded (ODraw 1 1), [0%Z]); (RClassify 0, [1%Z]); (RSeeded (OFit 0 2), [2%Z; 3%Z]); (RSeeded (OShare 0), []); (RSeeded (OFit 1 1), [1%Z])]
  /\ length (play 9 (other 7) two (new_runner 3 2 (fun _ => SInt 5) RRunner) []) = 8.
Proof.
  intros c. split; [exact I|]. split; [|split; reflexivity]. intros tr o H. unfold two in H. apply nth_error_In in H. cbn in H.
  repeat (destruct H as [<-|H]; [reflexivity|]). destruct H.
Qed.
(** Sources: the classifier draws from the generator of the runner; without a random state from numpy's global one. *)
Example C147_sources :
  snd (rstep (new_runner 0 1 (fun _ => SInt 5) RRunner) (RClassify 0)) = [(Seq 5 [0], 0)]
  /\ snd (rstep (new_runner 0 1 (fun _ => SInt 5) RNone) (RClassify 0)) = [(Global 0, 0)]
  /\ snd (rstep (new_runner 0 1 (fun _ => SInt 5) RRunner) (ROutside FinalSample 0 2)) = [(Global 0, 0); (Global 0, 1)]
  /\ snd (rstep (fst (rstep (new_runner 0 1 (fun _ => SInt 5) RRunner) (ROutside FinalSample 0 2))) (ROutside FinalSample 0 1)) = [(Global 0, 2)]
  /\ snd (rstep (new_runner 0 2 (fun _ => SInt 5) RRunner) (RClassify 1)) = [(Seq 5 [1], 0)]
  /\ snd (rstep (fst (rstep (new_runner 0 2 (fun _ => SInt 5) RRunner) (RClassify 1))) (RSeeded (ODraw 1 1))) = [(Seq 5 [1], 1)].
Proof. repeat split. Qed.
Print Assumptions C147_repeat.
Print Assumptions C147_diagnosis_refuted.
Print Assumptions C147_ultranest_refuted.
Print Assumptions C147_kl_refuted.
Print Assumptions C147_no_state_refuted.
Print Assumptions C147_no_seed_refuted.

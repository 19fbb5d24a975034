(** C118: the sampler of the final sample. *)
From Verif Require Import TDiag MRun MBuild TBuild.
Set Default Goal Selector "!".
Set Bullet Behavior "Strict Subproofs".
Open Scope string_scope.
Local Notation dict := (list (string * val)).

Section Choice.
Variable d : Z.
Notation choose := (choose_sampler d).
(** The sampler asked for, with the options given; the number of live points is 50 times the dimension unless given. A sampler asked for in the call goes before the one of the runner. *)
Definition asked (name : string) (options : dict) (s : sampler) : Prop :=
  (lower name = "nested" -> exists o, s = Nested o /\ merged options [("nlive", VNum (50 * d))] o) /\
  (lower name <> "nested" -> s = Cobaya (lower name) options).
Theorem C118_dict : forall mc name a options rest, is_map a options ->
  exists s, choose mc true (VMap ((name, a) :: rest)) VNone = Ok s /\ asked name options s.
Proof.
  intros mc name a options rest Ha. assert (or_empty a = VMap options) as E by (destruct Ha as [->|[-> ->]]; [destruct options; reflexivity|reflexivity]).
  unfold choose_sampler. cbn [negb bind]. rewrite E. destruct (String.eqb_spec (lower name) "nested") as [L|L]; (eexists; split; [reflexivity|]); split; intros H; try contradiction; [|reflexivity].
  eexists. split; [reflexivity|]. apply (fill_merged [("nlive", VNum (50 * d))] options).
Qed.
Theorem C118_name : forall mc name, exists s, choose mc true (VStr name) VNone = Ok s /\ asked name [] s.
Proof. intros mc name. destruct (C118_dict mc name (VMap []) [] [] (or_introl eq_refl)) as (s & E & A). exists s. split; [exact E|exact A]. Qed.
(** Without an argument: the one given to the runner as [mc]. *)
Theorem C118_stored : forall v m name a, build_mc v = Ok m -> (v = VStr name /\ a = VMap [] \/ v = VMap [(name, a)]) -> choose (Some m) true VNone VNone = choose (Some m) true (VMap [(name, a)]) VNone.
Proof. intros v m name a H [[-> ->]| ->]; injection H as <-; reflexivity. Qed.
(** More than one sampler is refused at construction. *)
Theorem C118_one : forall v m, build_mc v = Ok m -> (length m <= 1)%nat.
Proof.
  intros v m H. destruct v as [| | |s| |m0|]; try discriminate; [injection H as <-; cbn; lia|injection H as <-; cbn; lia|]. unfold build_mc in H.
  destruct (Nat.ltb_spec 1 (length m0)); [discriminate|]. injection H as <-. assumption.
Qed.
(** Refuted: the default is documented to be the best nested sampler; without [mc] there is none and the call raises. So it does after resuming. *)
Theorem C118_default_refuted : forall fitted f, build_mc VNone = Ok [] /\ (exists x, choose (Some []) fitted VNone VNone = Err x) /\
  (exists x, final_sample d (Some []) fitted f = Err x) /\ (exists x, final_sample d None fitted f = Err x).
Proof. intros [] f; repeat split; eexists; reflexivity. Qed.
(** Refuted: [mc={}] is accepted, and raises in the end. *)
Theorem C118_empty_refuted : forall fitted f, build_mc (VMap []) = Ok [] /\ exists x, final_sample d (Some []) fitted f = Err x.
Proof. intros [] f; repeat split; eexists; reflexivity. Qed.
End Choice.

(** Hence a run of a runner built without [mc], or resumed from a checkpoint, returns only by giving up because no new points are found. *)
Section Run.
Context {pt pt_ PX PY model theta box : Type}.
Variable e : env pt pt_ PX PY model theta box.
Variable c : config theta.
Variable o : options.
Variables (size : nat) (verbose loaded : bool).
Notation rstate := (rstate pt pt_ PX PY model theta box).
Theorem C118_run_refuted : forall d mc fuel init save0 inputs final (s s' : rstate),
  mc = None \/ build_mc VNone = Ok (match mc with Some m => m | None => [] end) ->
  (forall k, exists fitted f, p_mc (inputs k) = final_sample d mc fitted f) -> (exists fitted f, final = final_sample d mc fitted f) ->
  r_has_run s = false -> run e c o size verbose loaded fuel init save0 inputs final s = (s', Ok tt) ->
  (o_giveup o < Z.of_nat (r_resamples s'))%Z /\ r_converged s' = false.
Proof.
  intros d mc fuel init save0 inputs final s s' Hm Hi Hf Hr H. unfold run in H. rewrite Hr in H.
  assert (F : forall fitted f, exists x, final_sample d mc fitted f = Err x).
  { intros fitted f. destruct mc as [m|]; [|apply (C118_default_refuted d fitted f)]. destruct Hm as [Hm|Hm]; [discriminate|]. injection Hm as <-. apply (C118_default_refuted d fitted f). }
  assert (Hi' : forall k, exists x, p_mc (inputs k) = Err x) by (intros k; destruct (Hi k) as (b & f & ->); apply F).
  assert (Hf' : exists x, final = Err x) by (destruct Hf as (b & f & ->); apply F).
  match type of H with (let '(s1, r1) := ?t in _) = _ => destruct t as [s1 r1] end. destruct r1 as [u|x]; [|discriminate].
  destruct (loop e c o size fuel inputs final (with_converged false s1)) as [s2 [[]|x]] eqn:El; [|discriminate]. injection H as <-.
  apply (loop_fails e c o size fuel inputs final (with_converged false s1) s2 Hi' Hf' eq_refl El).
Qed.
End Run.
Print Assumptions C118_dict.
Print Assumptions C118_name.
Print Assumptions C118_stored.
Print Assumptions C118_one.
Print Assumptions C118_default_refuted.
Print Assumptions C118_empty_refuted.
Print Assumptions C118_run_refuted.
Example C118_case : choose_sampler 3 (Some [("mcmc", VNone)]) true (VMap [("Nested", VMap [("num_repeats", VNum 5)])]) VNone = Ok (Nested [("num_repeats", VNum 5); ("nlive", VNum 150)]) /\
  choose_sampler 3 (Some [("MCMC", VNone)]) true VNone VNone = Ok (Cobaya "mcmc" []).
Proof. split; reflexivity. Qed.

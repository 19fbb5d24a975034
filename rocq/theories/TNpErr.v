(** C146: the code leaves numpy's handling of floating point errors as the user set it, and its results do not depend on it. *)
From Verif Require Import MNpErr.
From Coq Require Import Lra.
Set Default Goal Selector "!".
Set Bullet Behavior "Strict Subproofs".

(** ** Vocabulary *)
(** What was returned or raised, the settings afterwards, what the user saw. *)
Definition result {A} (x : outcome A * settings * report) : outcome A := fst (fst x).
Definition settings_after {A} (x : outcome A * settings * report) : settings := snd (fst x).
Definition seen {A} (x : outcome A * settings * report) : report := snd x.
(** The user's own code may change the settings. This code does not, but for the context. *)
Fixpoint keeps {A} (p : prog A) : Prop :=
  match p with
  | Ret _ | Fail _ => True
  | Op _ p => keeps p
  | Set_err _ _ => False
  | With _ body k => forall b, keeps (k b)
  end.
(** The same, and the only context used is [all="ignore"], as everywhere in GPry. *)
Fixpoint ignores {A} (p : prog A) : Prop :=
  match p with
  | Ret _ | Fail _ => True
  | Op _ p => ignores p
  | Set_err _ _ => False
  | With m body k => m = Ignore /\ ignores body /\ forall b, ignores (k b)
  end.
(** The result in exact terms: what is left if no flag has an effect. *)
Fixpoint value {A} (p : prog A) : res A :=
  match p with
  | Ret a => Ok a
  | Fail e => Err e
  | Op _ p | Set_err _ p => value p
  | With _ body k => do b <- value body; value (k b)
  end.
Definition as_outcome {A} (r : res A) : outcome A := match r with Ok a => Returned a | Err e => Raised (Py e) end.

(** ** The context *)
(** Whatever happens in the block (also exceptions, changes of the settings, contexts inside): the settings afterwards are those before, and
    the result, the exception and the messages are those of the block under the settings of the context. *)
Theorem C146_restored : forall A m (body : prog A) s,
  let inside := run body (all_to m) in
  run (With m body (fun v => Ret v)) s = (result inside, s, seen inside).
Proof.
  intros A m body s. cbn [run]. unfold mbind, new_handler, geterr, mret, with_statement, h_enter, h_exit, seterr, mbind, mraise, result, seen. cbn [all error_handler].
  destruct (run body (all_to m)) as [[[a|e] s1] r]; cbn; rewrite ?app_nil_r; reflexivity.
Qed.
Lemma signal_keeps flags s : settings_after (signal flags s) = s.
Proof.
  revert s. induction flags as [|k flags IH]; intros s; [reflexivity|]. cbn [signal]. specialize (IH s). unfold settings_after in *.
  destruct (mode_of s k); try exact IH; try reflexivity; destruct (signal flags s) as [[o s1] r]; exact IH.
Qed.
Lemma with_run A B m (body : prog B) (k : B -> prog A) s :
  run (With m body k) s =
    match result (run body (all_to m)) with
    | Returned b => let x := run (k b) s in (result x, settings_after x, seen (run body (all_to m)) ++ seen x)
    | Raised e => (Raised e, s, seen (run body (all_to m)))
    end.
Proof.
  pose proof (C146_restored B m body s) as H. cbn [run] in H |- *.
  assert (E : mbind (new_handler m) (fun h => with_statement h (run body)) s = (result (run body (all_to m)), s, seen (run body (all_to m)))).
  { rewrite <- H. unfold mbind at 2. destruct (mbind (new_handler m) (fun h => with_statement h (run body)) s) as [[[a|e] s1] r]; [|reflexivity].
    unfold mret. rewrite app_nil_r. reflexivity. }
  unfold mbind at 1. rewrite E. destruct (result (run body (all_to m))) as [b|e]; [|reflexivity].
  unfold result, settings_after, seen. destruct (run (k b) s) as [[o s2] r']. reflexivity.
Qed.
(** Code that uses the context leaves the settings as they were, whether it returns or raises, and even if code inside a context changes
    them. *)
Theorem C146_left : forall A (p : prog A) s, keeps p -> settings_after (run p s) = s.
Proof.
  induction p as [A a|A e|A flags p IH|A s' p IH|A B m body _ k IH]; intros s H; cbn [keeps] in H; try reflexivity; try contradiction.
  - cbn [run]. unfold mbind. pose proof (signal_keeps flags s) as K. unfold settings_after in K. destruct (signal flags s) as [[[u|e] s1] r]; cbn in K; subst s1; [|reflexivity].
    specialize (IH s H). unfold settings_after in *. destruct (run p s) as [[o s2] r']. exact IH.
  - rewrite with_run. destruct (result (run body (all_to m))) as [b|e]; [|reflexivity]. exact (IH b s (H b)).
Qed.
Lemma signal_ignored flags : signal flags (all_to Ignore) = (Returned tt, all_to Ignore, []).
Proof. induction flags as [|k flags IH]; [reflexivity|]. cbn [signal]. destruct k; exact IH. Qed.
Lemma ignored A (p : prog A) : ignores p -> run p (all_to Ignore) = (as_outcome (value p), all_to Ignore, []).
Proof.
  induction p as [A a|A e|A flags p IH|A s' p IH|A B m body IHb k IH]; intros H; cbn [ignores] in H; try reflexivity; try contradiction.
  - cbn [run value]. unfold mbind. rewrite signal_ignored, (IH H). reflexivity.
  - destruct H as (-> & Hb & Hk). rewrite with_run, (IHb Hb). cbn [result fst value]. destruct (value body) as [b|e]; [|reflexivity].
    cbn [as_outcome bind]. rewrite (IH b (Hk b)). reflexivity.
Qed.
(** In the context nothing is seen, no floating point error is raised, and the result is the same for all settings of the user. *)
Theorem C146_silent : forall A (body : prog A) s, ignores body -> run (With Ignore body (fun v => Ret v)) s = (as_outcome (value body), s, []).
Proof. intros A body s H. rewrite C146_restored, (ignored A body H). reflexivity. Qed.

(** ** The functions *)
(** The divergence of two normal distributions is the one of C111 whatever the settings and whichever operations overflow. *)
Theorem C146_kl_norm : forall rounding inv m0 c0 m1 c1 s,
  run (kl_norm_np rounding inv m0 c0 m1 c1) s = (as_outcome (kl_norm inv m0 (Matrix (Some c0)) m1 (Matrix (Some c1))), s, []).
Proof.
  intros rounding inv m0 c0 m1 c1 s. unfold kl_norm_np, kl_norm. destruct (inv c1) as [b|e]; [|reflexivity]. rewrite C146_silent; [reflexivity|]. cbn. exact I.
Qed.
(** The one computed from samples does depend on the settings: if no point is left, NaN without a message, with a warning, or an exception. *)
Theorem C146_kl_mc_refuted : exists (X : list nat) logq logp,
  run (kl_mc_np X logq logp) (all_to Ignore) = (Returned ENaN, all_to Ignore, [])
  /\ run (kl_mc_np X logq logp) (all_to Warn) = (Returned ENaN, all_to Warn, [(Invalid, Warn)])
  /\ run (kl_mc_np X logq logp) (all_to RaiseIt) = (Raised FloatingPointError, all_to RaiseIt, []).
Proof.
  exists [0%nat], (fun _ => MKlMc.Fin 0), (fun _ => MKlMc.NInf).
  assert (E : kl_mc [0%nat] (fun _ => MKlMc.Fin 0) None (Some (fun _ => MKlMc.NInf)) None = Ok ENaN).
  { unfold kl_mc. cbn. unfold ediv, esign. destruct (Rlt_dec 0 0) as [C|_]; [lra|]. reflexivity. }
  unfold kl_mc_np. rewrite E. cbn. repeat split.
Qed.
(** An object made earlier, used after the user changed the settings: the change is undone. (GPry makes it in the [with] statement.) *)
Theorem C146_reused_refuted : exists m s s' (body : prog nat), s <> s'
  /\ mbind (new_handler m) (fun h => mbind (seterr s') (fun _ => with_statement h (run body))) s = (Returned 1%nat, s, []).
Proof. exists Ignore, (all_to Warn), (all_to RaiseIt), (Ret 1%nat). split; [discriminate|reflexivity]. Qed.

(** ** Examples *)
(** A division by zero and an exception inside the context, with numpy set to raise; the same division outside. *)
Example C146_case : let user := Settings RaiseIt Warn Ignore RaiseIt in
  run (With Ignore (Op [Divide; Over] (Op [Invalid] (Ret 7%nat))) (fun v => Ret v)) user = (Returned 7%nat, user, [])
  /\ run (With Ignore (Op [Divide] (With Warn (Op [Invalid] (Fail (A := nat) ValueError)) (fun v => Ret v))) (fun v => Ret v)) user
     = (Raised (Py ValueError), user, [(Invalid, Warn)])
  /\ run (Op [Over; Divide] (Ret 7%nat)) user = (Raised FloatingPointError, user, [(Over, Warn)])
  /\ keeps (With Ignore (Set_err (all_to Print) (Ret 7%nat)) (fun v => Ret v)).
Proof. cbn. intuition. Qed.
(** A degenerate covariance: infinity, also if numpy raises on division by zero. *)
Example C146_kl_norm_case :
  let inv := fun _ => Ok [[1 / 4]] in
  run (kl_norm_np [Under] inv [0] [[0]] [1] [[4]]) (all_to RaiseIt) = (Returned Inf, all_to RaiseIt, [])
  /\ result (run (kl_norm_body [] [[1 / 4]] [0] [[0]] [1] [[4]]) (all_to RaiseIt)) = Raised FloatingPointError.
Proof.
  assert (D : forall x, det 1 (at2 [[x]]) = x) by (intros; cbn; ring). split.
  - rewrite C146_kl_norm. unfold kl_norm. cbn [bind length]. rewrite !D. unfold flog. destruct (Rlt_dec 0 4) as [_|C]; [|lra]. destruct (Rlt_dec 0 0) as [C|_]; [lra|].
    destruct (Req_EM_T 0 0) as [_|C]; [|contradiction]. reflexivity.
  - unfold kl_norm_body. cbn [length]. rewrite !D. unfold log_flags. destruct (Rlt_dec 0 4) as [_|C]; [|lra]. destruct (Rlt_dec 0 0) as [C|_]; [lra|].
    destruct (Req_EM_T 0 0) as [_|C]; [|contradiction]. reflexivity.
Qed.
Print Assumptions C146_restored.
Print Assumptions C146_left.
Print Assumptions C146_silent.
Print Assumptions C146_kl_norm.
Print Assumptions C146_kl_mc_refuted.
Print Assumptions C146_reused_refuted.

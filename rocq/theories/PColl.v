(** Running the programs of all processes together: what each operation does to all of them. *)
From Verif Require Import Base Num MTools MMpi MColl PMpi.
Set Default Goal Selector "!".

Lemma mapM_id {A B} (f : A -> res B) (g : A -> B) l : (forall x, In x l -> f x = Ok (g x)) -> mapM f l = Ok (map g l).
Proof.
  induction l as [|x l IH]; intros H; cbn [mapM map]; auto. rewrite (H x) by (left; auto). cbn [bind].
  rewrite IH by (intros; apply H; right; auto). reflexivity.
Qed.
Lemma seq_head n : n <> 0 -> seq 0 n = 0 :: seq 1 (n - 1).
Proof. destruct n as [|n]; [congruence|]. intros _. cbn [seq]. simpl Nat.sub. rewrite Nat.sub_0_r. reflexivity. Qed.
Lemma seq_in r n : In r (seq 0 n) <-> r < n.
Proof. rewrite in_seq. lia. Qed.

Section Engine.
Context {M : Type}.
Notation prog := (prog M).

Lemma coll_eqb_refl c : coll_eqb c c = true.
Proof. destruct c; cbn [coll_eqb]; auto. apply Nat.eqb_refl. Qed.

Lemma all_ended_map {A} (p : nat -> prog A) (v : nat -> res A) l :
  (forall r, In r l -> ended (p r) = Some (v r)) -> all_ended (map p l) = Some (map v l).
Proof.
  induction l as [|x l IH]; intros H; cbn [map all_ended]; auto.
  rewrite (H x), IH; auto; [intros; apply H; right; auto|left; auto].
Qed.
Lemma all_at_map {A} (c : coll) (p : nat -> prog A) m k l :
  (forall r, In r l -> p r = Call c (m r) (k r)) -> all_at c (map p l) = Some (map (fun r => (m r, k r)) l).
Proof.
  induction l as [|x l IH]; intros H; cbn [map all_at]; auto.
  rewrite (H x) by (left; auto). rewrite coll_eqb_refl, IH by (intros; apply H; right; auto). reflexivity.
Qed.
Lemma resume_map {A} c ms (m : nat -> M) (k : nat -> list M -> prog A) n i :
  resume c ms i (map (fun r => (m r, k r)) (seq i n)) = map (fun r => k r (deliver c ms r)) (seq i n).
Proof.
  revert i. induction n as [|n IH]; intros i; cbn [seq map resume]; auto. rewrite IH. reflexivity.
Qed.

Lemma spmd_ext {A} n (p q : nat -> prog A) : (forall r, r < n -> p r = q r) -> spmd n p = spmd n q.
Proof.
  intros H. unfold spmd. f_equal. apply map_ext_in. intros r Hr. apply seq_in in Hr. auto.
Qed.
Lemma spmd_call {A} n (p : nat -> prog A) c m k : n <> 0 ->
  (forall r, r < n -> p r = Call c (m r) (k r)) ->
  spmd n p = spmd n (fun r => k r (deliver c (map m (seq 0 n)) r)).
Proof.
  intros Hn H. unfold spmd. rewrite !(seq_head n Hn). cbn [map run_all].
  rewrite (H 0) by lia. cbn [exec].
  rewrite (all_at_map c p m k) by (intros r Hr; apply H; apply in_seq in Hr; lia).
  rewrite resume_map. rewrite map_map. cbn [fst]. reflexivity.
Qed.
Lemma spmd_ret {A} n (p : nat -> prog A) v : (forall r, r < n -> p r = Ret (v r)) ->
  spmd n p = Finished (map (fun r => Ok (v r)) (seq 0 n)).
Proof.
  intros H. unfold spmd. destruct (Nat.eq_dec n 0) as [->|Hn]; [reflexivity|].
  rewrite !(seq_head n Hn). cbn [map run_all]. rewrite (H 0) by lia. cbn [exec].
  rewrite (all_ended_map p (fun r => Ok (v r))); auto.
  intros r Hr. apply in_seq in Hr. rewrite H by lia. reflexivity.
Qed.
Lemma spmd_ended {A} n (p : nat -> prog A) v : (forall r, r < n -> ended (p r) = Some (v r)) ->
  spmd n p = Finished (map v (seq 0 n)).
Proof.
  intros H. unfold spmd. destruct (Nat.eq_dec n 0) as [->|Hn]; [reflexivity|].
  rewrite !(seq_head n Hn). cbn [map run_all]. pose proof (H 0 ltac:(lia)) as H0.
  assert (all_ended (map p (seq 1 (n - 1))) = Some (map v (seq 1 (n - 1)))) as E
    by (apply all_ended_map; intros r Hr; apply in_seq in Hr; apply H; lia).
  destruct (p 0); cbn [ended exec] in *; [| |discriminate]; injection H0 as <-; rewrite E; reflexivity.
Qed.

(** Some process has ended and another has not: stuck. *)
Lemma all_ended_none {A} (p : nat -> prog A) l r : In r l -> ended (p r) = None -> all_ended (map p l) = None.
Proof.
  induction l as [|x l IH]; intros Hin H; [destruct Hin|]. cbn [map all_ended]. destruct Hin as [->|Hin].
  - rewrite H. reflexivity.
  - rewrite IH; auto. destruct (ended (p x)); reflexivity.
Qed.
Lemma all_at_none {A} c (p : nat -> prog A) l r : In r l -> (forall m k, p r <> Call c m k) -> all_at c (map p l) = None.
Proof.
  induction l as [|x l IH]; intros Hin H; [destruct Hin|]. cbn [map all_at]. destruct Hin as [->|Hin].
  - destruct (p r) as [a|e|c' m k] eqn:E; auto. destruct (coll_eqb c c') eqn:Ec; auto.
    exfalso. apply (H m k). f_equal. destruct c, c'; cbn [coll_eqb] in Ec; try discriminate; auto.
    apply Nat.eqb_eq in Ec as ->. reflexivity.
  - rewrite IH; auto. destruct (p x) as [a|e|c' m k]; auto. destruct (coll_eqb c c'); auto.
Qed.
Lemma spmd_stuck {A} n (p : nat -> prog A) r q c m k : r < n -> q < n -> p r = Call c m k ->
  (forall m' k', p q <> Call c m' k') -> spmd n p = Stuck.
Proof.
  intros Hr Hq Er Eq. assert (n <> 0) as Hn by lia. unfold spmd. rewrite !(seq_head n Hn). cbn [map run_all].
  destruct (p 0) as [a|e|c0 m0 k0] eqn:E0; cbn [exec].
  1,2: rewrite (all_ended_none p _ r);
    [reflexivity|apply in_seq; destruct r; [congruence|lia]|rewrite Er; reflexivity].
  assert (exists s, In s (seq 1 (n - 1)) /\ forall m' k', p s <> Call c0 m' k') as (s & Hs & Es).
  { destruct (coll_eqb c c0) eqn:Ec.
    - assert (c = c0) as <-.
      { destruct c, c0; cbn [coll_eqb] in Ec; try discriminate; auto. apply Nat.eqb_eq in Ec as ->. reflexivity. }
      exists q. split; auto. apply in_seq. destruct q; [exfalso; apply (Eq m0 k0); auto|lia].
    - exists r. split; [apply in_seq; destruct r; [|lia]|].
      + rewrite E0 in Er. injection Er as -> -> ->. rewrite coll_eqb_refl in Ec. discriminate.
      + intros m' k' E. rewrite Er in E. injection E as -> -> ->. rewrite coll_eqb_refl in Ec. discriminate. }
  rewrite (all_at_none c0 p _ s); auto.
Qed.

(** ** Sequence *)
Lemma exec_length {A} (p : prog A) ps l : exec p ps = Finished l -> length l = S (length ps).
Proof.
  revert ps l. induction p as [a|x|c m k IH]; intros ps l H; cbn [exec] in H.
  1,2: destruct (all_ended ps) as [l'|] eqn:E; [|discriminate]; injection H as <-; cbn [length]; f_equal;
    clear -E; revert l' E; induction ps as [|p ps IH]; intros l' E; cbn [all_ended] in E;
    [injection E as <-; reflexivity|];
    destruct (ended p); [|discriminate]; destruct (all_ended ps) as [l0|]; [|discriminate]; injection E as <-;
    cbn [length]; f_equal; auto.
  destruct (all_at c ps) as [l'|] eqn:E; [|discriminate]. apply IH in H. rewrite H. f_equal.
  assert (length l' = length ps) as El.
  { clear -E. revert l' E. induction ps as [|p ps IH]; intros l' E; cbn [all_at] in E; [injection E as <-; reflexivity|].
    destruct p; try discriminate. destruct (coll_eqb c c0); [|discriminate].
    destruct (all_at c ps); [|discriminate]. injection E as <-. cbn [length]. f_equal; auto. }
  rewrite <- El. clear. generalize (m :: map fst l') as ms, 1 as i. induction l' as [|[m' k'] l' IH]; intros ms i; cbn [resume length]; auto.
Qed.

Lemma all_ended_inv {A} (ps : list (prog A)) l : all_ended ps = Some l -> map ended ps = map Some l.
Proof.
  revert l. induction ps as [|p ps IH]; intros l H; cbn [all_ended] in H; [injection H as <-; reflexivity|].
  destruct (ended p) eqn:E; [|discriminate]. destruct (all_ended ps); [|discriminate]. injection H as <-.
  cbn [map]. rewrite E. f_equal. auto.
Qed.
Lemma ended_bind {A B} (p : prog A) (f : res A -> prog B) r : ended p = Some r -> pend p f = f r.
Proof. destruct p; cbn [ended]; intros H; try discriminate; injection H as <-; reflexivity. Qed.
Fixpoint zip_with {A B C} (f : A -> B -> C) (l : list A) (l' : list B) : list C :=
  match l, l' with a :: l, b :: l' => f a b :: zip_with f l l' | _, _ => [] end.
Lemma bind_ended {A B} (ps : list (prog A)) (fs : list (res A -> prog B)) l : map ended ps = map Some l ->
  zip_with pend ps fs = zip_with (fun f r => f r) fs l.
Proof.
  revert fs l. induction ps as [|p ps IH]; intros fs l H; destruct l as [|r l]; try discriminate.
  - destruct fs; reflexivity.
  - injection H as H1 H2. destruct fs as [|f fs]; [reflexivity|]. cbn [zip_with].
    rewrite (ended_bind p f r H1), (IH fs l H2). reflexivity.
Qed.
Lemma all_at_bind {A B} c (ps : list (prog A)) (fs : list (res A -> prog B)) l : length fs = length ps ->
  all_at c ps = Some l ->
  all_at c (zip_with pend ps fs) = Some (zip_with (fun mk f => (fst mk, fun x => pend (snd mk x) f)) l fs).
Proof.
  revert fs l. induction ps as [|p ps IH]; intros fs l Hl H; cbn [all_at] in H.
  - injection H as <-. destruct fs; [reflexivity|discriminate].
  - destruct fs as [|f fs]; [discriminate|]. destruct p as [| |c' m k]; try discriminate. cbn [zip_with pend all_at].
    destruct (coll_eqb c c'); [|discriminate]. destruct (all_at c ps) as [l0|]; [|discriminate]. injection H as <-.
    rewrite (IH fs l0); auto.
Qed.
Lemma all_at_bind_none {A B} c (ps : list (prog A)) (fs : list (res A -> prog B)) :
  length fs = length ps -> all_at c ps = None ->
  all_at c (zip_with pend ps fs) = None \/ exists i p, nth_error ps i = Some p /\ ended p <> None.
Proof.
  revert fs. induction ps as [|p ps IH]; intros fs Hl H; cbn [all_at] in H; [discriminate|].
  destruct fs as [|f fs]; [discriminate|]. destruct p as [a|x|c' m k].
  1,2: right; exists 0; eexists; split; [reflexivity|discriminate].
  cbn [zip_with pend all_at]. destruct (coll_eqb c c'); [|auto].
  destruct (all_at c ps) as [l0|]; [discriminate|]. destruct (IH fs) as [->|(i & p & Hi & He)]; auto.
  right. exists (S i), p. auto.
Qed.
Lemma resume_bind {A B} c ms i (l : list (M * (list M -> prog A))) (fs : list (res A -> prog B)) : length fs = length l ->
  resume c ms i (zip_with (fun mk f => (fst mk, fun x => pend (snd mk x) f)) l fs)
  = zip_with pend (resume c ms i l) fs.
Proof.
  revert i fs. induction l as [|[m k] l IH]; intros i fs H; destruct fs as [|f fs]; try discriminate; [reflexivity|].
  cbn [zip_with resume fst snd]. rewrite IH by auto. reflexivity.
Qed.
Lemma zip_fst {A B} (l : list (M * (list M -> prog A))) (fs : list (res A -> prog B)) : length fs = length l ->
  map fst (zip_with (fun mk f => (fst mk, fun x => pend (snd mk x) f)) l fs) = map fst l.
Proof.
  revert fs. induction l as [|[m k] l IH]; intros fs H; destruct fs as [|f fs]; try discriminate; [reflexivity|].
  cbn [zip_with map fst]. rewrite IH by auto. reflexivity.
Qed.
Lemma all_at_length {A} c (ps : list (prog A)) l : all_at c ps = Some l -> length l = length ps.
Proof.
  revert l. induction ps as [|p ps IH]; intros l E; cbn [all_at] in E; [injection E as <-; reflexivity|].
  destruct p; try discriminate. destruct (coll_eqb c c0); [|discriminate].
  destruct (all_at c ps); [|discriminate]. injection E as <-. cbn [length]. f_equal; auto.
Qed.
Lemma exec_bind {A B} (p : prog A) ps (f : res A -> prog B) fs l : length fs = length ps -> exec p ps = Finished l ->
  exec (pend p f) (zip_with pend ps fs) = run_all (zip_with (fun f r => f r) (f :: fs) l).
Proof.
  revert ps l. induction p as [a|x|c m k IH]; intros ps l Hl H; cbn [exec] in H.
  1,2: destruct (all_ended ps) as [l'|] eqn:E; [|discriminate]; injection H as <-; apply all_ended_inv in E;
    rewrite (bind_ended ps fs l' E); reflexivity.
  destruct (all_at c ps) as [l'|] eqn:E; [|discriminate]. cbn [pend exec].
  pose proof (all_at_length c ps l' E) as El.
  rewrite (all_at_bind c ps fs l' Hl E). rewrite zip_fst, resume_bind by congruence.
  apply IH; auto. generalize (m :: map fst l') as ms, 1 as i. rewrite Hl, <- El. clear.
  induction l' as [|[m' k'] l' IH]; intros ms i; cbn [resume length]; auto.
Qed.
Lemma zip_map {A B C} (f : A -> B -> C) (g : nat -> A) (h : nat -> B) l :
  zip_with f (map g l) (map h l) = map (fun r => f (g r) (h r)) l.
Proof. induction l as [|x l IH]; cbn [map zip_with]; auto. rewrite IH. reflexivity. Qed.
(** If all the processes finish [p], each goes on with its result. *)
Lemma spmd_pend {A B} n (p : nat -> prog A) (f : nat -> res A -> prog B) res :
  spmd n p = Finished (map res (seq 0 n)) ->
  spmd n (fun r => pend (p r) (f r)) = spmd n (fun r => f r (res r)).
Proof.
  unfold spmd. destruct (Nat.eq_dec n 0) as [->|Hn]; [reflexivity|]. rewrite !(seq_head n Hn).
  cbn [map run_all]. intros H.
  assert (length (map f (seq 1 (n - 1))) = length (map p (seq 1 (n - 1)))) as L by (rewrite !map_length; reflexivity).
  pose proof (exec_bind _ _ (f 0) (map f (seq 1 (n - 1))) _ L H) as E.
  rewrite (zip_map (fun q g => pend q g) p f) in E. rewrite E. cbn [zip_with run_all].
  rewrite (zip_map (fun g r => g r) f res). reflexivity.
Qed.
Definition then_ {A B} (f : A -> prog B) (r : res A) : prog B := match r with Ok a => f a | Err x => Raise x end.
Lemma spmd_bind_gen {A B} n (p : nat -> prog A) (f : nat -> A -> prog B) res :
  spmd n p = Finished (map res (seq 0 n)) ->
  spmd n (fun r => pbind (p r) (f r)) = spmd n (fun r => then_ (f r) (res r)).
Proof. apply spmd_pend. Qed.
Lemma spmd_bind {A B} n (p : nat -> prog A) (f : nat -> A -> prog B) v :
  spmd n p = Finished (map (fun r => Ok (v r)) (seq 0 n)) ->
  spmd n (fun r => pbind (p r) (f r)) = spmd n (fun r => f r (v r)).
Proof. apply spmd_bind_gen. Qed.
Lemma spmd_try {A} n (p : nat -> prog A) (h : nat -> exn -> prog A) res :
  spmd n p = Finished (map res (seq 0 n)) ->
  spmd n (fun r => ptry (p r) (h r)) = spmd n (fun r => match res r with Ok a => Ret a | Err x => h r x end).
Proof. apply spmd_pend. Qed.
(** Programs that make the same calls whatever they are told. *)
Inductive peq {A} : prog A -> prog A -> Prop :=
| peq_ret a : peq (Ret a) (Ret a)
| peq_raise x : peq (Raise x) (Raise x)
| peq_call c m k k' : (forall l, peq (k l) (k' l)) -> peq (Call c m k) (Call c m k').
Lemma peq_refl {A} (p : prog A) : peq p p.
Proof. induction p; constructor; auto. Qed.
Lemma all_ended_peq {A} (ps ps' : list (prog A)) : Forall2 peq ps ps' -> all_ended ps = all_ended ps'.
Proof. induction 1 as [|p p' ps ps' H F IH]; [reflexivity|]. cbn [all_ended]. rewrite IH. inversion H; subst; reflexivity. Qed.
Lemma all_at_peq {A} c (ps ps' : list (prog A)) : Forall2 peq ps ps' ->
  match all_at c ps, all_at c ps' with
  | Some l, Some l' => map fst l = map fst l' /\ forall ms i, Forall2 peq (resume c ms i l) (resume c ms i l')
  | None, None => True
  | _, _ => False
  end.
Proof.
  induction 1 as [|p p' ps ps' H F IH]; [split; [reflexivity|constructor]|]. cbn [all_at].
  inversion H as [a|x|c' m k k' K]; subst; auto. destruct (coll_eqb c c'); auto.
  destruct (all_at c ps) as [l|], (all_at c ps') as [l'|]; auto. destruct IH as [E R]. split; [cbn [map fst]; f_equal; auto|].
  intros ms i. cbn [resume]. constructor; auto.
Qed.
Lemma exec_peq {A} (p p' : prog A) : peq p p' -> forall ps ps', Forall2 peq ps ps' -> exec p ps = exec p' ps'.
Proof.
  induction 1 as [a|x|c m k k' K IH]; intros ps ps' F; cbn [exec]; try (rewrite (all_ended_peq _ _ F); reflexivity).
  pose proof (all_at_peq c ps ps' F) as E. destruct (all_at c ps) as [l|], (all_at c ps') as [l'|]; try (destruct E; fail); auto.
  destruct E as [E R]. rewrite E. apply IH. apply R.
Qed.
Lemma spmd_peq {A} n (p p' : nat -> prog A) : (forall r, peq (p r) (p' r)) -> spmd n p = spmd n p'.
Proof.
  intros H. unfold spmd. destruct (Nat.eq_dec n 0) as [->|Hn]; [reflexivity|]. rewrite !(seq_head n Hn). cbn [map run_all].
  apply exec_peq; auto. generalize (seq 1 (n - 1)) as l. induction l as [|x l IH]; cbn [map]; constructor; auto.
Qed.
Lemma pend_assoc {A B C} (p : prog A) (f : res A -> prog B) (g : res B -> prog C) :
  peq (pend (pend p f) g) (pend p (fun r => pend (f r) g)).
Proof. induction p as [a|x|c m k IH]; cbn [pend]; try apply peq_refl. constructor. auto. Qed.
Lemma spmd_bind2 {A B C} n (p : nat -> prog A) (f : nat -> A -> prog B) (h : nat -> B -> prog C) v :
  spmd n p = Finished (map (fun r => Ok (v r)) (seq 0 n)) ->
  spmd n (fun r => pbind (pbind (p r) (f r)) (h r)) = spmd n (fun r => pbind (f r (v r)) (h r)).
Proof.
  intros H. unfold pbind. rewrite (spmd_peq n _ (fun r => pend (p r) (fun x =>
    pend (match x with Ok a => f r a | Err y => Raise y end) (fun z => match z with Ok b => h r b | Err y => Raise y end))))
    by (intros r; apply pend_assoc).
  rewrite (spmd_pend n p (fun r x => pend (match x with Ok a => f r a | Err y => Raise y end) (fun z => match z with Ok b => h r b | Err y => Raise y end)) _ H).
  reflexivity.
Qed.
(** Processes that wait for ever are not helped by what they would do afterwards, as long as that is not another
    collective call. *)
Definition quiet {A B} (f : res A -> prog B) : Prop := forall r, ended (f r) <> None.
Lemma all_ended_quiet {A B} (ps : list (prog A)) (fs : list (res A -> prog B)) : length fs = length ps ->
  all_ended ps = None -> all_ended (zip_with pend ps fs) = None.
Proof.
  revert fs. induction ps as [|p ps IH]; intros fs Hl H; [discriminate|]. destruct fs as [|f fs]; [discriminate|].
  cbn [all_ended zip_with length] in *. destruct p as [a|x|c m k]; cbn [ended pend] in *; [| |reflexivity];
    (assert (all_ended (zip_with pend ps fs) = None) as -> by (apply IH; [congruence|destruct (all_ended ps); congruence]));
    destruct (ended _); reflexivity.
Qed.
Lemma all_at_quiet {A B} c (ps : list (prog A)) (fs : list (res A -> prog B)) : length fs = length ps -> Forall quiet fs ->
  all_at c ps = None -> all_at c (zip_with pend ps fs) = None.
Proof.
  revert fs. induction ps as [|p ps IH]; intros fs Hl Q H; [discriminate|]. destruct fs as [|f fs]; [discriminate|].
  inversion Q as [|f0 fs0 Qf Qs]; subst. cbn [zip_with length] in *. destruct p as [a|x|c' m k]; cbn [pend all_at] in *.
  - specialize (Qf (Ok a)). destruct (f (Ok a)); cbn [ended] in Qf; [reflexivity|reflexivity|congruence].
  - specialize (Qf (Err x)). destruct (f (Err x)); cbn [ended] in Qf; [reflexivity|reflexivity|congruence].
  - destruct (coll_eqb c c'); [|reflexivity]. rewrite IH; auto. destruct (all_at c ps); [discriminate|reflexivity].
Qed.
Lemma exec_quiet {A B} (p : prog A) ps (f : res A -> prog B) fs : length fs = length ps -> Forall quiet (f :: fs) ->
  exec p ps = Stuck -> exec (pend p f) (zip_with pend ps fs) = Stuck.
Proof.
  intros Hl Q. inversion Q as [|f0 fs0 Qf Qs]; subst. revert ps Hl.
  induction p as [a|x|c m k IH]; intros ps Hl H; cbn [exec] in H.
  1,2: destruct (all_ended ps) eqn:E; [discriminate|]; apply (all_ended_quiet ps fs Hl) in E; cbn [pend].
  1: specialize (Qf (Ok a)); destruct (f (Ok a)); cbn [ended exec] in *; [rewrite E; reflexivity|rewrite E; reflexivity|congruence].
  1: specialize (Qf (Err x)); destruct (f (Err x)); cbn [ended exec] in *; [rewrite E; reflexivity|rewrite E; reflexivity|congruence].
  destruct (all_at c ps) as [l'|] eqn:E; cbn [pend exec].
  - pose proof (all_at_length c ps l' E) as El.
    rewrite (all_at_bind c ps fs l' Hl E). rewrite zip_fst, resume_bind by congruence.
    apply IH; auto. generalize (m :: map fst l') as ms, 1 as i. rewrite Hl, <- El. clear.
    induction l' as [|[m' k'] l' IH]; intros ms i; cbn [resume length]; auto.
  - rewrite all_at_quiet; auto.
Qed.
Lemma spmd_quiet {A B} n (p : nat -> prog A) (h : nat -> A -> B) :
  spmd n p = Stuck -> spmd n (fun r => pbind (p r) (fun a => Ret (h r a))) = Stuck.
Proof.
  unfold spmd. destruct (Nat.eq_dec n 0) as [->|Hn]; [discriminate|]. rewrite !(seq_head n Hn).
  cbn [map run_all]. intros H.
  set (f := fun r (x : res A) => match x with Ok a => Ret (h r a) | Err y => Raise y end : prog B).
  assert (forall r, quiet (f r)) as Q by (intros r [a|x]; cbn; discriminate).
  assert (length (map f (seq 1 (n - 1))) = length (map p (seq 1 (n - 1)))) as L by (rewrite !map_length; reflexivity).
  pose proof (exec_quiet (p 0) (map p (seq 1 (n - 1))) (f 0) (map f (seq 1 (n - 1))) L) as E.
  rewrite (zip_map (fun q g => pend q g) p f) in E. apply E; auto. constructor; auto. apply Forall_map, Forall_forall. auto.
Qed.
End Engine.

Section Wrap.
Context {P G : Type}.
Notation obj := (obj P G).
Notation prog := (prog obj).

Lemma bind_ret {A B} (a : A) (f : A -> prog B) : pbind (Ret a) f = f a.
Proof. reflexivity. Qed.
Lemma bind_local {A B} (a : A) (f : A -> prog B) : pbind (local (Ok a)) f = f a.
Proof. reflexivity. Qed.
Lemma nth_error_seq {A} (m : nat -> A) n r : r < n -> nth_error (map m (seq 0 n)) r = Some (m r).
Proof. intros H. apply map_nth_error. rewrite (nth_error_nth' _ 0) by (rewrite seq_length; auto). rewrite seq_nth; auto. Qed.
Lemma single n : n <> 0 -> multiple n = false -> n = 1.
Proof. unfold multiple. intros H E. apply Nat.ltb_ge in E. lia. Qed.

Lemma spmd_bcast {A} n root (m : nat -> obj) (f : nat -> obj -> prog A) : root < n ->
  spmd n (fun r => pbind (bcast n root (m r)) (f r)) = spmd n (fun r => f r (m root)).
Proof.
  intros H. unfold bcast. destruct (multiple n) eqn:E.
  - rewrite (spmd_call n _ (Bcast root) m (fun r l => pbind (first_of l) (f r))) by (try lia; reflexivity).
    apply spmd_ext. intros r Hr. cbn [deliver]. rewrite nth_error_seq by auto. reflexivity.
  - apply single in E; [|lia]. subst n. assert (root = 0) as -> by lia. apply spmd_ext. intros r Hr.
    assert (r = 0) as -> by lia. reflexivity.
Qed.
Lemma spmd_gather {A} n (m : nat -> obj) (f : nat -> option (list obj) -> prog A) : n <> 0 ->
  spmd n (fun r => pbind (gather n r (m r)) (f r))
  = spmd n (fun r => f r (if r =? 0 then Some (map m (seq 0 n)) else None)).
Proof.
  intros H. unfold gather. destruct (multiple n) eqn:E.
  - rewrite (spmd_call n _ Gather m (fun r l => f r (if r =? 0 then Some l else None))) by (auto; reflexivity).
    apply spmd_ext. intros r Hr. cbn [deliver]. destruct (r =? 0); reflexivity.
  - apply single in E; [|lia]. subst n. apply spmd_ext. intros r Hr. assert (r = 0) as -> by lia. reflexivity.
Qed.
Lemma sync_all n : n <> 0 -> spmd (M := obj) n (fun _ => sync_processes n) = Finished (map (fun _ => Ok tt) (seq 0 n)).
Proof.
  intros H. unfold sync_processes. destruct (multiple n) eqn:E.
  - rewrite (spmd_call n _ Barrier (fun _ => ONone) (fun _ _ => Ret tt)) by auto. apply spmd_ret. reflexivity.
  - apply spmd_ret. reflexivity.
Qed.
(** The same within a larger program. *)
Lemma spmd_bcast2 {A B} n root (m : nat -> obj) (f : nat -> obj -> prog A) (h : nat -> A -> prog B) : root < n ->
  spmd n (fun r => pbind (pbind (bcast n root (m r)) (f r)) (h r)) = spmd n (fun r => pbind (f r (m root)) (h r)).
Proof.
  intros H. unfold bcast. destruct (multiple n) eqn:E.
  - rewrite (spmd_call n _ (Bcast root) m (fun r l => pbind (pbind (first_of l) (f r)) (h r))) by (try lia; reflexivity).
    apply spmd_ext. intros r Hr. cbn [deliver]. rewrite nth_error_seq by auto. reflexivity.
  - apply single in E; [|lia]. subst n. assert (root = 0) as -> by lia. apply spmd_ext. intros r Hr.
    assert (r = 0) as -> by lia. reflexivity.
Qed.
Lemma spmd_gather2 {A B} n (m : nat -> obj) (f : nat -> option (list obj) -> prog A) (h : nat -> A -> prog B) : n <> 0 ->
  spmd n (fun r => pbind (pbind (gather n r (m r)) (f r)) (h r))
  = spmd n (fun r => pbind (f r (if r =? 0 then Some (map m (seq 0 n)) else None)) (h r)).
Proof.
  intros H. unfold gather. destruct (multiple n) eqn:E.
  - rewrite (spmd_call n _ Gather m (fun r l => pbind (f r (if r =? 0 then Some l else None)) (h r))) by (auto; reflexivity).
    apply spmd_ext. intros r Hr. cbn [deliver]. destruct (r =? 0); reflexivity.
  - apply single in E; [|lia]. subst n. apply spmd_ext. intros r Hr. assert (r = 0) as -> by lia. reflexivity.
Qed.
Lemma spmd_allgather {A} n (m : nat -> obj) (f : nat -> list obj -> prog A) : n <> 0 ->
  spmd n (fun r => pbind (allgather n (m r)) (f r)) = spmd n (fun r => f r (map m (seq 0 n))).
Proof.
  intros H. unfold allgather. destruct (multiple n) eqn:E.
  - rewrite (spmd_call n _ Allgather m (fun r l => f r l)) by (auto; reflexivity). reflexivity.
  - apply single in E; [|lia]. subst n. apply spmd_ext. intros r Hr. assert (r = 0) as -> by lia. reflexivity.
Qed.
Lemma spmd_sync {A} n (f : nat -> unit -> prog A) : n <> 0 ->
  spmd n (fun r => pbind (sync_processes n) (f r)) = spmd n (fun r => f r tt).
Proof.
  intros H. unfold sync_processes. destruct (multiple n) eqn:E.
  - rewrite (spmd_call n _ Barrier (fun _ => ONone) (fun r _ => f r tt)) by (auto; reflexivity). reflexivity.
  - apply spmd_ext. intros r Hr. reflexivity.
Qed.
End Wrap.
Lemma mapM_map_ok {A B C} (f : B -> res C) (g : C -> B) (v : A -> C) l : (forall x, f (g x) = Ok x) ->
  mapM f (map (fun r => g (v r)) l) = Ok (map v l).
Proof.
  intros H. induction l as [|x l IH]; cbn [map mapM]; auto. rewrite H. cbn [bind]. rewrite IH. reflexivity.
Qed.

(** C149: saving a convergence criterion does not change it, and a resumed one continues where it was saved. *)
From Coq Require Import Lia.
From Verif Require Import MCritSave.
Set Default Goal Selector "!". Set Bullet Behavior "Strict Subproofs".

Section Saves.
Context {M S G : Type}.
Variable kl : M -> M -> res num.
Variable reweighted : G -> S -> res M.
Variable sample : G -> option M -> res S.
Variable mean_cov : S -> M.
Variable limit : num.
Variable max_reused limit_times : nat.
Variable value : klcrit M -> klcall M -> klcrit M * res num.
Notation steps := (steps kl reweighted sample mean_cov limit max_reused limit_times value).
Notation checks := (checks kl reweighted sample mean_cov limit max_reused value limit_times).

(** The checks that count: those before a save, or after the last interruption. [unsaved] are the requests since the last save. *)
Fixpoint lasting (es : list (event M G)) (kept unsaved : list (request M G)) : list (request M G) :=
  match es with
  | [] => kept ++ unsaved
  | Check q :: es => lasting es kept (unsaved ++ [q])
  | Save :: es => lasting es (kept ++ unsaved) []
  | Resume :: es => lasting es kept []
  end.
Definition requests (es : list (event M G)) : list (request M G) := flat_map (fun e => match e with Check q => [q] | _ => [] end) es.
Definition interrupted (es : list (event M G)) : bool := existsb (fun e => match e with Resume => true | _ => false end) es.
(** No live function of a surrogate is kept. *)
Definition inert (o : criterion M S G) : Prop := (forall g, c_input o <> Some (Live g)) /\ (forall g, c_info o <> Some (Live g)).

Lemma checks_app st l1 l2 : checks st (l1 ++ l2) = let (st1, r1) := checks st l1 in let (st2, r2) := checks st1 l2 in (st2, r1 ++ r2).
Proof.
  revert st. induction l1 as [|q l1 IH]; intros st; cbn [app MReuse.checks].
  - destruct (checks st l2) as [st2 r2]. reflexivity.
  - destruct (check _ _ _ _ _ _ _ _ st q) as [[st1 v] b]. rewrite IH. destruct (checks st1 l1) as [st2 r1]. destruct (checks st2 l2) as [st3 r2]. reflexivity.
Qed.
Lemma check_state o q : c_state (fst (check_saved kl reweighted sample mean_cov limit max_reused limit_times value o q)) = fst (checks (c_state o) [q]) /\
  [snd (check_saved kl reweighted sample mean_cov limit max_reused limit_times value o q)] = snd (checks (c_state o) [q]).
Proof. unfold check_saved. cbn [MReuse.checks]. destruct (check _ _ _ _ _ _ _ _ (c_state o) q) as [[st1 v] b]. split; reflexivity. Qed.
Lemma pickle_state (o : criterion M S G) : c_state (fst (pickle o)) = c_state o /\ snd (pickle o) = fst (pickle o).
Proof. unfold pickle, deepcopy. destruct (c_input o); split; reflexivity. Qed.

(** Saves do not show: without an interruption the verdicts are those of a criterion that is never saved. *)
Theorem C149_saves_invisible : forall es, interrupted es = false -> snd (steps start es) = snd (checks new_state (requests es))
  /\ c_state (now (fst (steps start es))) = fst (checks new_state (requests es)).
Proof.
  intros es H. assert (G0 : forall w, snd (steps w es) = snd (checks (c_state (now w)) (requests es)) /\ c_state (now (fst (steps w es))) = fst (checks (c_state (now w)) (requests es))); [|exact (G0 start)].
  induction es as [|e es IH]; intros w; [split; reflexivity|]. cbn [interrupted existsb] in H. destruct e as [q| |]; [| |discriminate H].
  - cbn [MCritSave.steps step]. destruct (check_saved _ _ _ _ _ _ _ _ (now w) q) as [o r] eqn:E. destruct (check_state (now w) q) as [A B]. rewrite E in A, B. cbn [fst snd] in A, B.
    specialize (IH H (mkRs o (saved w))). destruct (steps (mkRs o (saved w)) es) as [w2 rs]. cbn [fst snd now] in IH |- *. destruct IH as [I1 I2].
    change (requests (Check q :: es)) with ([q] ++ requests es). rewrite checks_app. destruct (checks (c_state (now w)) [q]) as [st1 r1]. cbn [fst snd] in A, B. subst r1 st1.
    destruct (checks (c_state o) (requests es)) as [st2 r2]. cbn [fst snd] in *. split; [f_equal; exact I1|exact I2].
  - cbn [MCritSave.steps step]. destruct (pickle_state (now w)) as [A B]. destruct (pickle (now w)) as [o f]. cbn [fst snd] in A, B.
    specialize (IH H (mkRs o f)). destruct (steps (mkRs o f) es) as [w2 rs]. cbn [fst snd now app] in IH |- *. rewrite A in IH. exact IH.
Qed.
(** After any saves and interruptions, the criterion is as if only the checks that were saved, and those since then, had ever been made. *)
Theorem C149_resumed : forall es, c_state (now (fst (steps start es))) = fst (checks new_state (lasting es [] [])).
Proof.
  intros es. assert (G0 : forall w kept unsaved, c_state (saved w) = fst (checks new_state kept) -> c_state (now w) = fst (checks new_state (kept ++ unsaved)) ->
    c_state (now (fst (steps w es))) = fst (checks new_state (lasting es kept unsaved))); [|apply G0; reflexivity].
  induction es as [|e es IH]; intros w kept unsaved HS HN; [exact HN|]. destruct e as [q| |]; cbn [MCritSave.steps step lasting].
  - destruct (check_saved _ _ _ _ _ _ _ _ (now w) q) as [o r] eqn:E. destruct (check_state (now w) q) as [A _]. rewrite E in A. cbn [fst] in A.
    specialize (IH (mkRs o (saved w)) kept (unsaved ++ [q])). destruct (steps (mkRs o (saved w)) es) as [w2 rs]. cbn [fst now saved] in IH |- *. apply IH; [exact HS|].
    rewrite A, HN, app_assoc, (checks_app _ (kept ++ unsaved) [q]). destruct (checks new_state (kept ++ unsaved)) as [st1 r1]. cbn [fst]. destruct (checks st1 [q]); reflexivity.
  - destruct (pickle_state (now w)) as [A B]. destruct (pickle (now w)) as [o f]. cbn [fst snd] in A, B. subst f.
    specialize (IH (mkRs o o) (kept ++ unsaved) []). destruct (steps (mkRs o o) es) as [w2 rs]. cbn [fst now saved] in IH |- *. apply IH; [|rewrite app_nil_r]; rewrite A; exact HN.
  - specialize (IH (mkRs (saved w) (saved w)) kept []). destruct (steps (mkRs (saved w) (saved w)) es) as [w2 rs]. cbn [fst now saved] in IH |- *. apply IH; [|rewrite app_nil_r]; exact HS.
Qed.
(** What is saved holds no live function, at whatever moment. *)
Theorem C149_saved_inert : forall es, inert (saved (fst (steps start es))) /\ inert (snd (pickle (now (fst (steps start es))))) /\ inert (snd (deepcopy (now (fst (steps start es))))).
Proof.
  intros es. set (ok := fun o : criterion M S G => c_input o = None -> c_info o = None).
  assert (P : forall o, ok o -> inert (snd (deepcopy o)) /\ ok (snd (deepcopy o))).
  { intros o Ho. unfold deepcopy, inert, ok in *. destruct (c_input o) as [i|] eqn:E; cbn [snd c_input c_info].
    - split; [|discriminate]. split; [discriminate|]. destruct (c_info o); discriminate.
    - rewrite (Ho eq_refl), E. split; [split; discriminate|reflexivity]. }
  assert (G0 : forall w, ok (now w) -> ok (saved w) -> inert (saved w) -> ok (now (fst (steps w es))) /\ inert (saved (fst (steps w es)))).
  { induction es as [|e es IH]; intros w HN HS HI; [split; assumption|]. destruct e as [q| |]; cbn [MCritSave.steps step].
    - destruct (check_saved _ _ _ _ _ _ _ _ (now w) q) as [o r] eqn:E. specialize (IH (mkRs o (saved w))). destruct (steps (mkRs o (saved w)) es) as [w2 rs]. cbn [fst now saved] in IH |- *. apply IH; auto.
      unfold check_saved in E. destruct (check _ _ _ _ _ _ _ _ (c_state (now w)) q) as [[st v] b]. apply pair_equal_spec in E as [<- _]. unfold ok in *. cbn [c_input c_info]. unfold drawn.
      destruct (match from_acquisition q with None => true | Some _ => false end); cbn [andb]; [|exact HN]. destruct (tried _ _ _ _ (c_state (now w)) (surrogate q)); cbn [andb]; [discriminate|exact HN].
    - unfold pickle. destruct (P (now w) HN) as [P1 P2]. assert (E : snd (deepcopy (now w)) = fst (deepcopy (now w))) by reflexivity. destruct (deepcopy (now w)) as [o f]. cbn [fst snd] in *. subst f.
      specialize (IH (mkRs o o)). destruct (steps (mkRs o o) es) as [w2 rs]. cbn [fst now saved] in IH |- *. auto.
    - specialize (IH (mkRs (saved w) (saved w))). destruct (steps (mkRs (saved w) (saved w)) es) as [w2 rs]. cbn [fst now saved] in IH |- *. auto. }
  assert (N : ok new_criterion) by (intros _; reflexivity). assert (I0 : inert (@new_criterion M S G)) by (split; discriminate).
  destruct (G0 start N N I0) as [A B]. destruct (P _ A) as [C _]. split; [exact B|]. split; exact C.
Qed.
End Saves.
(** Samples and surrogates are numbers; a surrogate at 100 cannot be sampled. *)
Definition toy_check_saved := steps (fun a b => Ok (nabs (nsub a b))) (fun g _ => Ok g) (fun g _ => if neqb g (nz 100) then Err ConvergenceCheckError else Ok g) (fun s => s) (nz 1) 4 1
  (gaussian_kl_value (fun a b : num => Ok (nabs (nsub a b)))).
Definition ask (g : num) : event num num := Check (mkReq None g (Ok g) 0 0).
(** A saved criterion reuses its earlier sample although its input is masked; the check after the save is lost by the interruption, so that the same question gets the same answer. *)
Example C149_case : let es := [ask (nz 0); ask (nz 5); Save; ask (nz 6); Resume; ask (nz 6)] in
  snd (toy_check_saved start es) = [(Err ConvergenceCheckError, false); (Ok false, false); (Ok false, true); (Ok false, true)] /\
  c_input (now (fst (toy_check_saved start es))) = Some Marker /\ c_info (saved (fst (toy_check_saved start es))) = Some Marker /\
  c_input (now (fst (toy_check_saved start [ask (nz 0); ask (nz 100)]))) = Some (Live (nz 100)) /\ c_info (now (fst (toy_check_saved start [ask (nz 0); ask (nz 100)]))) = Some (Live (nz 0)) /\
  interrupted es = true /\ length (lasting es [] []) = 3.
Proof. vm_compute. repeat split. Qed.
(** The number of reuses is saved, and survives both the save and an interruption. *)
Example C149_reuses_case : let es := [ask (nz 0); ask (nz 5); ask (nz 6); Save] in
  n_reused (c_state (saved (fst (toy_check_saved start es)))) = 1 /\ n_reused (c_state (now (fst (toy_check_saved start es)))) = 1 /\
  n_reused (c_state (now (fst (toy_check_saved start (es ++ [Resume]))))) = 1.
Proof. vm_compute. repeat split. Qed.
Print Assumptions C149_saves_invisible.
Print Assumptions C149_resumed.
Print Assumptions C149_saved_inert.

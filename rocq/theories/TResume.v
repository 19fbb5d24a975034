(** C125: interrupted runs that are resumed. *)
From Verif Require Import MResume SRun PMpi PSvm PGpr PGpr2 PGpr3 TGpr PRun PInit TInit TRun.
Set Default Goal Selector "!".
Set Bullet Behavior "Strict Subproofs".

Section C125.
Context {pt pt_ PX PY model theta box : Type}.
Variable e : env pt pt_ PX PY model theta box.
Variable c : config theta.
Variable o : options.
Variable size : nat.
Notation gpr := (gpr pt pt_ PX PY model theta box).
Notation rstate := (rstate pt pt_ PX PY model theta box).
Notation pass_input := (pass_input pt theta).
Hypothesis Hsize : size <> 0.
Hypothesis Hlen : forall p y y', trY e p y = Ok y' -> length y' = length y.

Ltac parts := repeat match goal with |- _ /\ _ => split end.
(** Acquisition returns at most as many points as asked for. *)
Definition modest (inputs : nat -> pass_input) : Prop := forall k Y, p_acq (inputs k) = Ok Y -> length Y <= o_npa o.
Lemma session_spec f k : forall inputs s saved g' l, saved = r_gpr s -> n_total c (r_gpr s) <= length (g_yall (r_gpr s)) -> modest inputs -> (forall j x, p_truth (inputs j) x = f x) ->
  session e c o size k inputs s saved = (g', l) ->
  exists new kept lost, l = r_log s ++ new /\ evaluated new = kept ++ lost /\ length lost <= o_npa o /\ g_Xall g' = g_Xall (r_gpr s) ++ kept /\ g_yall g' = g_yall (r_gpr s) ++ map f kept /\
    n_total c g' <= length (g_yall g') /\ n_total c (r_gpr s) + length kept <= n_total c g' /\ (kept <> [] -> n_total c (r_gpr s) + length kept <= o_max_total o + o_npa o - 1) /\
    (forall i, In (EvFit i) new -> r_iter s < i <= r_iter s + k).
Proof.
  induction k as [|k IH]; intros inputs s saved g' l Es Hc Hm Hf H; cbn [session] in H.
  { injection H as <- <-. exists [], [], []. rewrite !app_nil_r, Es. cbn. parts; auto; try lia; intros; contradiction. }
  destruct (goes_on c o s) eqn:G; [|injection H as <- <-; exists [], [], []; rewrite !app_nil_r, Es; cbn; parts; auto; try lia; intros; contradiction].
  assert (Gt : n_total c (r_gpr s) < o_max_total o). { unfold goes_on in G. apply andb_true_iff in G as [G _]. apply andb_true_iff in G as [G _]. apply Nat.ltb_lt, G. }
  destruct (one_pass e c o size (inputs 0) s) as [s' r] eqn:Ep. pose proof (one_pass_result e c o size Hsize _ _ _ _ Ep) as R. pose proof (pass_summary e c o size Hlen Hsize (inputs 0) s s' r R) as (new & El & _ & _ & Hn).
  assert (Fits : forall i, In (EvFit i) new -> i = S (r_iter s)).
  { clear - R El. intros i Hi. assert (Hl : In (EvFit i) (skipn (length (r_log s)) (r_log s'))) by (rewrite El, skipn_app, skipn_all, Nat.sub_diag; cbn; right; exact Hi).
    destruct R as [x|X Hc HL|X g rf s' r Hc HL Hf R]; [| |destruct R]; cbn [started fitted log next_iter with_gpr with_resamples with_converged r_log] in Hl; rewrite <- ?app_assoc, skipn_app, skipn_all, Nat.sub_diag in Hl; cbn in Hl;
      repeat (destruct Hl as [Hl|Hl]; [try discriminate Hl; injection Hl as <-; reflexivity|]); destruct Hl. }
  assert (It : r_iter s' = S (r_iter s)). { clear - R. destruct R as [x|X Hc HL|X g rf s' r Hc HL Hf R]; [| |destruct R]; reflexivity. }
  destruct Hn as [(En & Eg & _ & Hb)|(X & Hch & HL & EX & E0 & Hb)].
  - destruct r as [[|]|x].
    + injection H as <- <-. exists (EvAcquire (n_total c (r_gpr s)) (n_finite (r_gpr s)) :: new), [], []. rewrite !app_nil_r, Es. cbn [app length evaluated flat_map]. fold (evaluated new). rewrite En. parts; auto; try lia; try contradiction.
      intros i [Hi|Hi]; [discriminate Hi|]. apply Fits in Hi. lia.
    + destruct (Hb false eq_refl) as [E1 _]. rewrite E1 in H. cbn [Nat.eqb] in H.
      destruct (IH (fun j => inputs (S j)) s' saved g' l) as (new' & kept & lost & H1 & H2 & H3 & H4 & H5 & H6 & H7 & H8 & H9); try assumption; [congruence|rewrite Eg; exact Hc|intros j; apply Hm|intros j; apply Hf|].
      rewrite Eg in *. exists (EvAcquire (n_total c (r_gpr s)) (n_finite (r_gpr s)) :: new ++ new'), kept, lost. split; [rewrite H1, El; rewrite <- app_assoc; reflexivity|]. cbn [evaluated flat_map app]. fold (evaluated (new ++ new')). rewrite evaluated_app, En. cbn [app].
      parts; auto. intros i [Hi|Hi]; [discriminate Hi|]. apply in_app_or in Hi as [Hi|Hi]; [apply Fits in Hi; lia|apply H9 in Hi; lia].
    + injection H as <- <-. exists (EvAcquire (n_total c (r_gpr s)) (n_finite (r_gpr s)) :: new), [], []. rewrite !app_nil_r, Es. cbn [app length evaluated flat_map]. fold (evaluated new). rewrite En. parts; auto; try lia; try contradiction.
      intros i [Hi|Hi]; [discriminate Hi|]. apply Fits in Hi. lia.
  - assert (LX : length X <= o_npa o). { destruct Hch as (Y & HY & HX). transitivity (length Y); [|apply (Hm 0 Y HY)]. apply (chosen_le (inputs 0) X Y HY). exists Y. auto. }
    destruct r as [[|]|x].
    + destruct (Hb true eq_refl) as [Hbf _]. discriminate Hbf.
    + destruct (Hb false eq_refl) as (_ & Nt & Ey & EXa). rewrite E0 in H. cbn [Nat.eqb] in H.
      destruct (IH (fun j => inputs (S j)) s' (r_gpr s') g' l) as (new' & kept & lost & H1 & H2 & H3 & H4 & H5 & H6 & H7 & H8 & H9); try assumption; [reflexivity|rewrite Nt, Ey, app_length, map_length; lia|intros j; apply Hm|intros j; apply Hf|].
      exists (EvAcquire (n_total c (r_gpr s)) (n_finite (r_gpr s)) :: new ++ new'), (X ++ kept), lost. split; [rewrite H1, El; rewrite <- app_assoc; reflexivity|]. cbn [evaluated flat_map app]. fold (evaluated (new ++ new')). rewrite evaluated_app, EX, H2.
      assert (MX : map (p_truth (inputs 0)) X = map f X) by (apply map_ext; intros x; apply Hf).
      split; [apply app_assoc|]. split; [exact H3|]. split; [rewrite H4, EXa, app_assoc; reflexivity|]. split; [rewrite H5, Ey, MX, map_app, app_assoc; reflexivity|]. split; [exact H6|]. rewrite app_length. split; [lia|]. split.
      * intros _. destruct kept as [|x kept]; [cbn; lia|]. specialize (H8 ltac:(discriminate)). lia.
      * intros i [Hi|Hi]; [discriminate Hi|]. apply in_app_or in Hi as [Hi|Hi]; [apply Fits in Hi; lia|apply H9 in Hi; lia].
    + injection H as <- <-. exists (EvAcquire (n_total c (r_gpr s)) (n_finite (r_gpr s)) :: new), [], X. rewrite !app_nil_r, Es. cbn [app length evaluated flat_map]. fold (evaluated new). rewrite EX. parts; auto; try lia; try contradiction.
      intros i [Hi|Hi]; [discriminate Hi|]. apply Fits in Hi. lia.
Qed.
(** Whatever interrupts the sessions: the training set on disk is the old one and, in order, what was evaluated since but for at most one batch of points in each session, with its values;
    and it respects the budget as one run would. *)
Theorem C125_data : forall f l g g' evs, (exists pX pY n ops, runs e c (new_gpr pX pY n) ops g) -> Forall (fun p => modest (snd p)) l -> Forall (fun p => forall j x, p_truth (snd p j) x = f x) l ->
  sessions e c o size l g = (g', evs) ->
  exists kept lost, length evs = length l /\ length kept = length l /\ length lost = length l /\ map evaluated evs = map (fun p => fst p ++ snd p) (combine kept lost) /\ Forall (fun x => length x <= o_npa o) lost /\
    g_Xall g' = g_Xall g ++ concat kept /\ g_yall g' = g_yall g ++ map f (concat kept) /\ n_total c g + length (concat kept) <= Nat.max (n_total c g) (o_max_total o + o_npa o - 1).
Proof.
  intros f l g g' evs (pX & pY & n & ops & R) Hm Hf H. pose proof (counted_runs e c Hlen ops pX pY n g R) as [Hc _]. clear R.
  enough (exists kept lost, length evs = length l /\ length kept = length l /\ length lost = length l /\ map evaluated evs = map (fun p => fst p ++ snd p) (combine kept lost) /\ Forall (fun x => length x <= o_npa o) lost /\
    g_Xall g' = g_Xall g ++ concat kept /\ g_yall g' = g_yall g ++ map f (concat kept) /\ (concat kept <> [] -> n_total c g + length (concat kept) <= o_max_total o + o_npa o - 1)) as (kept & lost & H1 & H2 & H3 & H4 & H5 & H6 & H7 & H8).
  { exists kept, lost. repeat (split; [assumption|]). destruct (concat kept) as [|x k]; [cbn; lia|]. specialize (H8 ltac:(discriminate)). lia. }
  revert g g' evs Hc H. induction l as [|[k inputs] l IH]; intros g g' evs Hc H; cbn [sessions] in H.
  { injection H as <- <-. exists [], []. cbn. rewrite !app_nil_r. repeat split; auto. intros C. destruct (C eq_refl). }
  destruct (session e c o size k inputs (resumed g) g) as [g1 ev] eqn:S. destruct (sessions e c o size l g1) as [g2 evs2] eqn:SS. injection H as <- <-.
  inversion Hm as [|? ? Hm0 Hm1]; subst. inversion Hf as [|? ? Hf0 Hf1]; subst.
  destruct (session_spec f k inputs (resumed g) g g1 ev eq_refl Hc Hm0 Hf0 S) as (new & kept & lost & E1 & E2 & E3 & E4 & E5 & E6 & E7 & E8 & _). cbn [resumed r_gpr r_log app] in *. subst ev.
  destruct (IH Hm1 Hf1 g1 g2 evs2 E6 SS) as (kepts & losts & H1 & H2 & H3 & H4 & H5 & H6 & H7 & H8).
  exists (kept :: kepts), (lost :: losts). cbn [length map combine concat fst snd]. rewrite H1, H2, H3, H4, E2. do 4 (split; [reflexivity|]). split; [constructor; assumption|]. split; [rewrite H6, E4, app_assoc; reflexivity|]. split; [rewrite H7, E5, map_app, app_assoc; reflexivity|]. rewrite app_length. intros N.
  destruct (concat kepts) as [|x ks]; [destruct kept as [|y ks]; [destruct (N eq_refl)|specialize (E8 ltac:(discriminate)); cbn [length] in *; lia]|]. specialize (H8 ltac:(discriminate)). lia.
Qed.
(** Refuted: hyperparameters are refitted as often as asked for. Sessions that are shorter than the interval between full fits never do one, however many there are. *)
Theorem C125_schedule_refuted : forall l g g' evs, (exists pX pY n ops, runs e c (new_gpr pX pY n) ops g) -> Forall (fun p => modest (snd p)) l -> (exists f, Forall (fun p => forall j x, p_truth (snd p j) x = f x) l) ->
  Forall (fun p => fst p + 1 < o_full o) l -> sessions e c o size l g = (g', evs) -> forall ev i, In ev evs -> In (EvFit i) ev -> ~ due (o_full o) i.
Proof.
  intros l g g' evs (pX & pY & n & ops & R) Hm [f Hf] Hk H. pose proof (counted_runs e c Hlen ops pX pY n g R) as [Hc _]. clear R.
  revert g g' evs Hc H. induction l as [|[k inputs] l IH]; intros g g' evs Hc H ev i Hev Hi; cbn [sessions] in H; [injection H as <- <-; destruct Hev|].
  destruct (session e c o size k inputs (resumed g) g) as [g1 ev1] eqn:S. destruct (sessions e c o size l g1) as [g2 evs2] eqn:SS. injection H as <- <-.
  inversion Hm as [|? ? Hm0 Hm1]; subst. inversion Hf as [|? ? Hf0 Hf1]; subst. inversion Hk as [|? ? Hk0 Hk1]; subst. cbn [fst] in Hk0.
  destruct (session_spec f k inputs (resumed g) g g1 ev1 eq_refl Hc Hm0 Hf0 S) as (new & kept & lost & E1 & E2 & E3 & E4 & E5 & E6 & E7 & E8 & E9). cbn [resumed r_gpr r_log app r_iter] in *. subst ev1.
  destruct Hev as [<-|Hev]; [|apply (IH Hm1 Hf1 Hk1 g1 g2 evs2 E6 SS ev i Hev Hi)]. apply E9 in Hi. intros (m & Hd). destruct m as [|m]; [lia|]. cbn in Hd. lia.
Qed.
(** Refuted: a run that has converged is finished. Resumed, it acquires again, whatever it had reached, if there is budget left. *)
Theorem C125_converged_refuted : forall verbose fuel init save0 inputs final g s' r, fuel <> 0 -> n_total c g < o_max_total o -> n_finite g < o_max_finite o ->
  run e c o size verbose true fuel init save0 inputs final (resumed g) = (s', r) -> exists rest, r_log s' = EvAcquire (n_total c g) (n_finite g) :: rest.
Proof.
  intros verbose fuel init save0 inputs final g s' r Hfu Ht Hn H. unfold run in H. change (r_has_run (resumed g)) with false in H. cbv iota beta in H. change (with_converged false (resumed g)) with (resumed g) in H. destruct fuel as [|fuel]; [congruence|].
  assert (G : goes_on c o (resumed g) = true). { unfold goes_on. cbn [resumed r_gpr r_converged negb]. apply Nat.ltb_lt in Ht, Hn. rewrite Ht, Hn. reflexivity. }
  cbn [loop] in H. rewrite G in H. destruct (one_pass e c o size (inputs 0) (resumed g)) as [s1 r1] eqn:Ep. pose proof (one_pass_result e c o size Hsize _ _ _ _ Ep) as R. pose proof (pass_summary e c o size Hlen Hsize (inputs 0) _ s1 r1 R) as (new & El & _).
  cbn [resumed r_log r_gpr app] in El.
  assert (Pre : forall fuel inputs s s2 r2, loop e c o size fuel inputs final s = (s2, r2) -> exists more, r_log s2 = r_log s ++ more).
  { clear - Hsize Hlen. induction fuel as [|fuel IH]; intros inputs s s2 r2 H; cbn [loop] in H; [injection H as <- _; exists []; rewrite app_nil_r; reflexivity|]. destruct (goes_on c o s).
    - destruct (one_pass e c o size (inputs 0) s) as [s1 r1] eqn:Ep. pose proof (one_pass_result e c o size Hsize _ _ _ _ Ep) as R. pose proof (pass_summary e c o size Hlen Hsize (inputs 0) s s1 r1 R) as (new & El & _).
      destruct r1 as [[|]|x]; [injection H as <- _; eexists; exact El| |injection H as <- _; eexists; exact El]. destruct (IH _ _ _ _ H) as [more E]. eexists. rewrite E, El, <- app_assoc. reflexivity.
    - destruct (r_converged s); [injection H as <- _; exists []; rewrite app_nil_r; reflexivity|]. destruct final; injection H as <- _; [eexists; reflexivity|exists []; rewrite app_nil_r; reflexivity]. }
  destruct r1 as [[|]|x].
  - injection H as <- _. cbn [finished r_log]. exists new. exact El.
  - destruct (loop e c o size fuel (fun k => inputs (S k)) final s1) as [s2 r2] eqn:L. destruct (Pre _ _ _ _ _ L) as [more E]. exists (new ++ more). assert (r_log s' = r_log s2) as -> by (destruct r2; injection H as <- _; reflexivity). rewrite E, El. reflexivity.
  - injection H as <- _. exists new. exact El.
Qed.
(** Without budget nothing is evaluated and the surrogate stays as it is. *)
Theorem C125_exhausted : forall verbose fuel init save0 inputs final g s' r, fuel <> 0 -> o_max_total o <= n_total c g \/ o_max_finite o <= n_finite g ->
  run e c o size verbose true fuel init save0 inputs final (resumed g) = (s', r) -> r_gpr s' = g /\ evaluated (r_log s') = [] /\ passes (r_log s') = 0.
Proof.
  intros verbose fuel init save0 inputs final g s' r Hfu Hb H. unfold run in H. change (r_has_run (resumed g)) with false in H. cbv iota beta in H. change (with_converged false (resumed g)) with (resumed g) in H. destruct fuel as [|fuel]; [congruence|].
  assert (G : goes_on c o (resumed g) = false). { unfold goes_on. cbn [resumed r_gpr r_converged negb]. destruct Hb as [Hb|Hb]; apply Nat.ltb_ge in Hb; rewrite Hb; [reflexivity|]. rewrite andb_false_r. reflexivity. }
  cbn [loop] in H. rewrite G in H. cbn [resumed r_converged] in H. destruct final; injection H as <- _; repeat split; reflexivity.
Qed.
End C125.
Print Assumptions C125_data.
Print Assumptions C125_schedule_refuted.
Print Assumptions C125_converged_refuted.
Print Assumptions C125_exhausted.
(** Full fits every third iteration. Two initial points; a session of one pass that is completed and one in which an exception comes after the evaluation; another session of one pass. *)
Definition demo_broken : pass_input Z nat := mkPass (Ok [7; 8]%Z) [true; true] demo_truth demo_fit (Err RuntimeError) [] (Ok tt) (Ok true) (Ok tt).
Example C125_case :
  let c := demo_c true 1 in let o := mkOptions 2 2 20 20 2 3 1 2 in
  let g := fst (fst (do_initial_training demo c o 1 true (demo_init demo_draw) demo_new)) in
  exists g' evs, sessions demo c o 1 [(2, demo_inputs [demo_pass [5; 6]%Z false false; demo_broken]); (1, demo_inputs [demo_pass [9; 10]%Z false false])] g = (g', evs)
    /\ g_Xall g = [0; 1]%Z /\ g_Xall g' = [0; 1; 5; 6; 9; 10]%Z
    /\ evs = [[EvAcquire 2 2; EvEval [5; 6]%Z; EvFit 1; EvVerdict false; EvAcquire 4 4; EvEval [7; 8]%Z; EvFit 2]; [EvAcquire 4 4; EvEval [9; 10]%Z; EvFit 1; EvVerdict false]].
Proof. cbn zeta. eexists. eexists. split; [vm_compute; reflexivity|]. vm_compute. auto. Qed.

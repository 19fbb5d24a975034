(** Lemmas about the [Runner]. *)
From Verif Require Import SRun PMpi PSvm PGpr PGpr2 PGpr3.
Set Default Goal Selector "!".

Lemma flat_map_snoc {A B} (f : A -> list B) l x : flat_map f (l ++ [x]) = flat_map f l ++ f x.
Proof. rewrite flat_map_app. simpl. rewrite app_nil_r. reflexivity. Qed.
Lemma evaluated_app {pt} (l k : list (event pt)) : evaluated (l ++ k) = evaluated l ++ evaluated k.
Proof. apply flat_map_app. Qed.
Lemma passes_app {pt} (l k : list (event pt)) : passes (l ++ k) = passes l + passes k.
Proof. unfold passes. rewrite filter_app, app_length. reflexivity. Qed.

Lemma passes_none {pt} (l : list (event pt)) : passes l = 0 -> forall nt nf, ~ In (EvAcquire nt nf) l.
Proof.
  unfold passes. intros H nt nf Hi. apply length_zero_iff_nil in H.
  assert (In (EvAcquire nt nf) (filter (fun v : event pt => match v with EvAcquire _ _ => true | _ => false end) l)) as Hf.
  { apply filter_In. auto. }
  rewrite H in Hf. destruct Hf.
Qed.

(** ** Best rank *)
Lemma argmax_from_spec l : forall pre best bv,
  nth_error pre best = Some bv -> (best = 0 \/ isnan bv = true \/ exists w, nltb w bv = true) ->
  (isnan bv = true \/ Forall (fun w => isnan w = false /\ nltb bv w = false) pre) ->
  exists v, nth_error (pre ++ l) (np_argmax_from (length pre) best bv l) = Some v
    /\ (np_argmax_from (length pre) best bv l = 0 \/ isnan v = true \/ exists w, nltb w v = true)
    /\ (isnan v = true \/ Forall (fun w => isnan w = false /\ nltb v w = false) (pre ++ l)).
Proof.
  induction l as [|x l IH]; intros pre best bv Hn Hw Hb; cbn [np_argmax_from].
  - exists bv. rewrite app_nil_r. auto.
  - destruct (isnan bv) eqn:Nb.
    { exists bv. split; [|auto]. rewrite nth_error_app1; auto. apply nth_error_Some. congruence. }
    destruct Hb as [Hb|Hb]; [discriminate|].
    replace (S (length pre)) with (length (pre ++ [x])) by (rewrite app_length; simpl; lia).
    replace (pre ++ x :: l) with ((pre ++ [x]) ++ l) by (rewrite <- app_assoc; reflexivity).
    destruct (isnan x) eqn:Nx; cbn [orb].
    + apply IH; auto. rewrite nth_error_app2, Nat.sub_diag by auto. reflexivity.
    + destruct (nltb bv x) eqn:L.
      * apply IH.
        -- rewrite nth_error_app2, Nat.sub_diag by auto. reflexivity.
        -- eauto.
        -- right. apply Forall_app. split.
           ++ eapply Forall_impl; [|exact Hb]. cbv beta. intros w [H1 H2]. split; [auto|].
              destruct w, bv, x; simpl in *; try discriminate; auto.
              apply qltb_nlt. apply qltb_nlt in H2. apply qltb_lt in L. qc.
           ++ constructor; [|constructor]. split; [auto|]. destruct x; simpl in *; auto. apply qltb_nlt. qc.
      * apply IH.
        -- rewrite nth_error_app1; auto. apply nth_error_Some. congruence.
        -- destruct Hw as [Hw|[Hw|Hw]]; [auto|discriminate|auto].
        -- right. apply Forall_app. split; [auto|]. constructor; [|constructor]. auto.
Qed.
Lemma argmax_spec l b : np_argmax l = Ok b ->
  exists v, nth_error l b = Some v
    /\ (b = 0 \/ isnan v = true \/ exists w, nltb w v = true)
    /\ (isnan v = true \/ Forall (fun w => isnan w = false /\ nltb v w = false) l).
Proof.
  destruct l as [|v l]; [discriminate|]. cbn [np_argmax]. intros H. injection H as <-.
  apply (argmax_from_spec l [v] 0 v); auto.
  destruct (isnan v) eqn:N; [auto|]. right. constructor; [|constructor]. split; [auto|].
  destruct v; simpl in *; auto. apply qltb_nlt. qc.
Qed.
Lemma all_ok_spec {A B} (l : list (A * res B)) l' : all_ok l = Ok l' ->
  map fst l' = map fst l /\ map snd l = map (fun p => Ok (snd p)) l'.
Proof.
  revert l'. induction l as [|[a r] l IH]; simpl; intros l' H.
  - injection H as <-. auto.
  - destruct r as [b|]; [|discriminate]. simpl in H. destruct (all_ok l) as [l2|]; [|discriminate].
    simpl in H. injection H as <-. destruct (IH l2 eq_refl) as [H1 H2]. simpl. rewrite H1, H2. auto.
Qed.
Lemma all_ok_nth {A B} (l : list (A * res B)) l' i p : all_ok l = Ok l' -> nth_error l' i = Some p ->
  nth_error l i = Some (fst p, Ok (snd p)).
Proof.
  revert l' i p. induction l as [|[a r] l IH]; simpl; intros l' i p H Hi.
  - injection H as <-. destruct i; discriminate.
  - destruct r as [b|]; [|discriminate]. simpl in H. destruct (all_ok l) as [l2|]; [|discriminate].
    simpl in H. injection H as <-. destruct i as [|i]; simpl in *.
    + injection Hi as <-. reflexivity.
    + eapply IH; eauto.
Qed.
Lemma all_ok_nth' {A B} (l : list (A * res B)) l' i a r : all_ok l = Ok l' -> nth_error l i = Some (a, r) ->
  exists b, r = Ok b /\ nth_error l' i = Some (a, b).
Proof.
  revert l' i. induction l as [|[a' r'] l IH]; simpl; intros l' i H Hi.
  - destruct i; discriminate.
  - destruct r' as [b'|]; [|discriminate]. simpl in H. destruct (all_ok l) as [l2|]; [|discriminate].
    simpl in H. injection H as <-. destruct i as [|i]; simpl in *.
    + injection Hi as <- <-. eauto.
    + eapply IH; eauto.
Qed.
Lemma nth_ranks {A B} (f : nat * A -> B) (l : list A) i x : nth_error l i = Some x ->
  nth_error (map f (combine (seq 0 (length l)) l)) i = Some (f (i, x)).
Proof.
  intros H. rewrite nth_error_map. enough (forall k, nth_error (combine (seq k (length l)) l) i = Some (k + i, x)) as E.
  { rewrite E. reflexivity. }
  revert i H. induction l as [|a l IH]; intros i H k; [destruct i; discriminate|].
  destruct i as [|i]; simpl in *.
  - injection H as ->. rewrite Nat.add_0_r. reflexivity.
  - rewrite (IH i H). rewrite Nat.add_succ_r. reflexivity.
Qed.
Lemma nth_ranks_inv {A B} (f : nat * A -> B) (l : list A) i y :
  nth_error (map f (combine (seq 0 (length l)) l)) i = Some y -> exists x, nth_error l i = Some x /\ y = f (i, x).
Proof.
  intros H. destruct (nth_error l i) as [x|] eqn:E.
  - rewrite (nth_ranks f l i x E) in H. injection H as <-. eauto.
  - apply nth_error_None in E. rewrite (proj2 (nth_error_None _ i)) in H; [discriminate|].
    rewrite map_length, combine_length, seq_length. lia.
Qed.

Section Run.
Context {pt pt_ PX PY model theta box : Type}.
Variable e : env pt pt_ PX PY model theta box.
Variable c : config theta.
Variable o : options.
Variables (size : nat) (verbose loaded : bool).
Notation gpr := (gpr pt pt_ PX PY model theta box).
Notation rstate := (rstate pt pt_ PX PY model theta box).
Implicit Types (g : gpr) (s : rstate).

(** ** The parallel fit *)
Definition rank_kw (i : fit_input theta) (r n : nat) : fit_kw theta :=
  mkKw false (r =? 0) (Some (Z.of_nat n)) (i_bounds_finite i) (i_draw i r).
Definition rank_args (i : fit_input theta) (X : list pt) (y : list num) (r n : nat) : append_args pt theta :=
  mkAppend (Some X) (Some y) NoNoise (if n =? 0 then FFalse else FKw (rank_kw i r n)) true (i_default i).
(** A process takes part if it has restarts or is the main one; the result is that of a process that
    took part, and none has a larger log-marginal likelihood. *)
Lemma fit_parallel_ok it i X y g g' u : fit_gpr_parallel e c o size it i X y g = (g', Ok u) ->
  exists ns b n v, restarts_by_rank c o size it = Ok ns /\ nth_error ns b = Some n /\ (n <> 0 \/ b = 0)
    /\ append_to_data e c (rank_args i X y b n) g = (g', Ok tt) /\ g_lml g' = Some v
    /\ forall r m, nth_error ns r = Some m -> (m <> 0 \/ r = 0) ->
         exists g1 w, append_to_data e c (rank_args i X y r m) g = (g1, Ok tt) /\ g_lml g1 = Some w
           /\ (isnan v = true \/ isnan w = false /\ nltb v w = false).
Proof.
  unfold fit_gpr_parallel. destruct (restarts_by_rank c o size it) as [ns|x]; [|intros H; discriminate].
  set (ranks := map _ _). intros H.
  destruct (all_ok ranks) as [l|] eqn:El; simpl in H; [|discriminate].
  destruct (np_argmax (map snd l)) as [b|] eqn:Ea; simpl in H; [|discriminate].
  destruct (nth_error l b) as [p|] eqn:Ep; simpl in H; [|discriminate]. injection H as <- _.
  apply argmax_spec in Ea as (v & Hv & Hwin & Hmax).
  rewrite nth_error_map, Ep in Hv. simpl in Hv. injection Hv as <-.
  pose proof (all_ok_nth _ _ _ _ El Ep) as Hb. unfold ranks in Hb.
  apply nth_ranks_inv in Hb as (n & Hn & Hb). simpl in Hb.
  exists ns, b, n, (snd p). split; [auto|]. split; [auto|].
  assert (forall r m, (m <> 0 \/ r = 0) -> negb (m =? 0) || (r =? 0) = true) as Htake.
  { intros r m [H|H]; [rewrite (proj2 (Nat.eqb_neq m 0) H); auto|subst; rewrite orb_true_r; auto]. }
  assert (n <> 0 \/ b = 0) as Ht.
  { destruct (Nat.eq_dec n 0) as [->|]; [|auto]. destruct (Nat.eq_dec b 0) as [->|Hb0]; [auto|]. exfalso.
    unfold fit_rank in Hb. rewrite (proj2 (Nat.eqb_neq b 0) Hb0) in Hb. simpl in Hb.
    injection Hb as _ Hb. destruct Hwin as [Hw|[Hw|[w Hw]]]; [congruence| |]; rewrite Hb in Hw; [discriminate|].
    destruct w; discriminate. }
  assert (forall r m gr q, nth_error ns r = Some m -> (m <> 0 \/ r = 0) ->
            fit_rank e c i X y g r m = (gr, Ok q) ->
            append_to_data e c (rank_args i X y r m) g = (gr, Ok tt) /\ g_lml gr = Some q) as Hrank.
  { intros r m gr q _ Hm Hr. unfold fit_rank in Hr. rewrite (Htake r m Hm) in Hr. fold (rank_kw i r m) in Hr.
    fold (rank_args i X y r m) in Hr. destruct (append_to_data e c (rank_args i X y r m) g) as [g1 [[]|x]]; [|discriminate].
    destruct (g_lml g1) eqn:E; injection Hr as -> Hq; [|discriminate]. subst. auto. }
  destruct (Hrank b n (fst p) (snd p) Hn Ht (eq_sym Hb)) as [H1 H2].
  split; [auto|]. split; [auto|]. split; [auto|].
  intros r m Hm Hr. pose proof (nth_ranks (fun q => fit_rank e c i X y g (fst q) (snd q)) ns r m Hm) as Hf.
  fold ranks in Hf. simpl in Hf. destruct (fit_rank e c i X y g r m) as [gr rr] eqn:Er.
  destruct (all_ok_nth' _ _ _ _ _ El Hf) as (w & -> & Hw).
  destruct (Hrank r m gr w Hm Hr Er) as [H3 H4]. exists gr, w. split; [auto|]. split; [auto|].
  destruct Hmax as [Hx|Hx]; [auto|]. right. rewrite Forall_forall in Hx. apply Hx.
  apply in_map_iff. exists (gr, w). split; [auto|]. eapply nth_error_In; eauto.
Qed.

(** ** Numbers of points *)
Variable Hlen : forall p y y', trY e p y = Ok y' -> length y' = length y.
Lemma append_total a g g' X y : a_X a = Some X -> a_y a = Some y -> a_classifier a = true -> y <> [] ->
  append_to_data e c a g = (g', Ok tt) -> n_total c g' = length (g_yall g) + length y.
Proof.
  intros HX Hy Hc Hne H. pose proof H as H'.
  apply append_sets in H' as (f & T & Xf & _ & Ey & _ & Hcl & _ & Hnf & HS).
  unfold batch_y in *. rewrite Hy in *. unfold n_total, n_finite. rewrite <- app_length.
  destruct (c_classifier c) eqn:Ec.
  - apply append_inv in H. destruct H as (X' & y' & force & nv & nz & finite & T2 & Xf2 & qX & qY & Xall_ & yall_ & noise_ & s &
      Ha & Hf & _ & _ & _ & _ & _ & _ & _ & Ht & _ & HS2 & H). rewrite Ec in HS2.
    assert (refits a = true) as Er by (unfold refits; rewrite Hc; reflexivity).
    rewrite Er in HS2. simpl in HS2. destruct HS2 as (thr & _ & HS2).
    assert (y' = y) as -> by (destruct Ha as [(_ & Ha & _)|(Ha & _)]; congruence).
    assert (g_svm g' = s) as ->.
    { destruct H as [(_ & _ & ->)|(_ & X_ & y_ & al & g3 & b & _ & _ & _ & K & _ & ->)]; [auto|].
      apply numeric_frame in K. rewrite K. destruct b; auto. }
    assert (svm_n s = length (g_yall g ++ y)) as ->.
    { apply Hlen in Ht. rewrite <- Ht. unfold svm_fit in HS2.
      destruct (forallb _ yall_); [injection HS2 as <- _; reflexivity|].
      destruct (pymax_list yall_); [|discriminate].
      destruct (forallb _ (is_finite_raw _ _ _)); [injection HS2 as <- _; reflexivity|].
      destruct (svc_fit _ _ _); [injection HS2 as <- _; reflexivity|discriminate]. }
    destruct (Nat.eqb_spec (length (g_yall g ++ y)) 0) as [E|E]; [|auto].
    rewrite app_length in E. destruct y; [congruence|simpl in E; lia].
  - unfold new_finite in Hnf. rewrite Ec in Hnf. unfold classify in Hcl. rewrite Ec in Hcl. injection Hcl as <- <-.
    assert (count_true (repeat true (length y)) = length y) as E.
    { unfold count_true. rewrite filter_every; [apply repeat_length|]. intros b Hb. apply repeat_spec in Hb. auto. }
    rewrite E in Hnf. destruct HS as [(E0 & _)|(_ & _ & ->)]; [destruct y; [congruence|simpl in *; lia]|].
    rewrite mask_all_true; [auto|apply repeat_length|].
    apply forallb_forall. intros b Hb. apply repeat_spec in Hb. auto.
Qed.
(** Reported numbers never exceed the number of points given to the surrogate. *)
Definition counted g : Prop := n_total c g <= length (g_yall g) /\ n_finite g <= length (g_yall g).
Lemma mask_le {A} (m : list bool) (l : list A) : length (mask m l) <= length l.
Proof. revert l. induction m as [|b m IH]; intros [|x l]; simpl; try lia. specialize (IH l). destruct b; simpl; lia. Qed.
Lemma counted_step op g g' : counted g -> svm_n (g_svm g) <= length (g_yall g) -> step e c op g = (g', Ok tt) ->
  counted g' /\ svm_n (g_svm g') <= length (g_yall g').
Proof.
  intros [H1 H2] H3 H. destruct op as [a|kw]; simpl in H.
  2: { apply fit_frame in H. destruct H as (_ & E1 & _ & E2 & E3 & _). unfold counted, n_total, n_finite in *.
       rewrite E1, E2, E3. auto. }
  pose proof H as H'. apply append_sets in H' as (f & T & Xf & _ & Ey & _ & Hcl & _ & Hnf & HS).
  apply append_inv in H. destruct H as (X' & y' & force & nv & nz & finite & T2 & Xf2 & qX & qY & Xall_ & yall_ & noise_ & s &
      Ha & Hf & _ & _ & _ & _ & _ & _ & _ & Ht & _ & HS2 & H).
  assert (g_svm g' = s /\ g_yall g' = g_yall g ++ y') as [Es Ey'].
  { destruct H as [(_ & _ & ->)|(_ & X_ & y_ & al & g3 & b & _ & _ & _ & K & _ & ->)]; [auto|].
    apply numeric_frame in K. rewrite K. destruct b; auto. }
  assert (svm_n (g_svm g') <= length (g_yall g')) as Hs.
  { rewrite Es, Ey'. destruct (c_classifier c && refits a); [|subst s; rewrite app_length; lia].
    destruct HS2 as (thr & _ & HS2). apply Hlen in Ht. rewrite <- Ht. unfold svm_fit in HS2.
    destruct (forallb _ yall_); [injection HS2 as <- _; apply le_n|].
    destruct (pymax_list yall_); [|discriminate].
    destruct (forallb _ (is_finite_raw _ _ _)); [injection HS2 as <- _; apply le_n|].
    destruct (svc_fit _ _ _); [injection HS2 as <- _; apply le_n|discriminate]. }
  assert (n_finite g' <= length (g_yall g')) as Hn.
  { unfold n_finite in *. destruct HS as [(_ & _ & _ & ->)|(_ & _ & ->)]; rewrite Ey.
    - rewrite app_length. lia.
    - apply mask_le. }
  split; [|auto]. split; [|auto]. unfold n_total. destruct (c_classifier c); [|auto].
  destruct (svm_n (g_svm g') =? 0); auto.
Qed.
Lemma counted_runs ops pX pY n g : runs e c (new_gpr pX pY n) ops g -> counted g.
Proof.
  intros R. enough (counted g /\ svm_n (g_svm g) <= length (g_yall g)) by tauto. revert R.
  apply (runs_invariant e c (fun g => counted g /\ svm_n (g_svm g) <= length (g_yall g))).
  - intros op g1 g2 [H1 H2] _. apply counted_step; auto.
  - unfold counted, n_total, n_finite. simpl. destruct (c_classifier c); cbn; auto.
Qed.
Lemma fit_parallel_total it i X y g g' u : y <> [] -> fit_gpr_parallel e c o size it i X y g = (g', Ok u) ->
  n_total c g' = length (g_yall g) + length y /\ g_yall g' = g_yall g ++ y /\ g_Xall g' = g_Xall g ++ X.
Proof.
  intros Hy H. apply fit_parallel_ok in H as (ns & b & n & v & _ & _ & _ & H & _).
  pose proof (append_total (rank_args i X y b n) g g' X y eq_refl eq_refl eq_refl Hy H) as Ht.
  pose proof (append_sets _ _ _ _ _ H) as (f & T & Xf & E1 & E2 & _).
  unfold batch_X, batch_y, rank_args in *. cbn [a_X a_y] in *. auto.
Qed.

(** ** One pass *)
Hypothesis Hsize : size <> 0.
Notation quota := (Nat.max 1 (o_npa o / 2)).
Definition chosen (i : pass_input pt theta) (X : list pt) : Prop :=
  exists Y, p_acq i = Ok Y /\ ((Y = [] /\ X = []) \/ masked (p_keep i) Y = Ok X).
Definition started s : rstate := log (EvAcquire (n_total c (r_gpr s)) (n_finite (r_gpr s))) (next_iter s).
Definition fitted s X g : rstate :=
  log (EvFit (S (r_iter s))) (with_gpr g (log (EvEval X) (with_resamples 0 (started s)))).
Inductive rest_of_pass (i : pass_input pt theta) (s2 : rstate) (rf : res unit) : rstate -> res bool -> Prop :=
| rest_early x : rest_of_pass i s2 rf s2 (Err x)
| rest_late v x : rf = Ok tt -> check_convergence (p_checks i) = Ok v ->
    rest_of_pass i s2 rf (log (EvVerdict v) (with_converged v s2)) (Err x)
| rest_no : rf = Ok tt -> check_convergence (p_checks i) = Ok false ->
    rest_of_pass i s2 rf (log (EvVerdict false) (with_converged false s2)) (do _ <- p_save i; Ok false)
| rest_mc passed : rf = Ok tt -> check_convergence (p_checks i) = Ok true -> p_mc i = Ok passed ->
    rest_of_pass i s2 rf
      (log (EvDiagnosis passed) (with_converged passed (log (EvVerdict true) (with_converged true s2))))
      (do _ <- p_save i; Ok false).
Inductive pass_result (i : pass_input pt theta) s : rstate -> res bool -> Prop :=
| pass_raise x : pass_result i s (started s) (Err x)
| pass_few X : chosen i X -> length X < quota ->
    pass_result i s (with_resamples (S (r_resamples s)) (started s))
      (Ok (o_giveup o <? Z.of_nat (S (r_resamples s)))%Z)
| pass_learn X g rf s' r : chosen i X -> quota <= length X ->
    fit_gpr_parallel e c o size (S (r_iter s)) (p_fit i) X (map (p_truth i) X) (r_gpr s) = (g, rf) ->
    rest_of_pass i (fitted s X g) rf s' r -> pass_result i s s' r.
Lemma one_pass_result i s s' r : one_pass e c o size i s = (s', r) -> pass_result i s s' r.
Proof.
  unfold one_pass. fold (started s).
  destruct (p_acq i) as [Y|x] eqn:Ea; cbn [bind]; [|intros H; injection H as <- <-; constructor].
  destruct (match Y with [] => Ok [] | _ => masked (p_keep i) Y end) as [X|x] eqn:Em;
    [|intros H; injection H as <- <-; constructor].
  assert (chosen i X) as Hc.
  { exists Y. split; [auto|]. destruct Y; [left; split; congruence|auto]. }
  destruct (Nat.ltb_spec (length X) quota) as [L|L].
  - intros H. injection H as <- <-. apply (pass_few i s X); auto.
  - unfold learn. destruct (eval_truth_parallel_ok size (p_truth i) X Hsize) as (sh & -> & _).
    cbv zeta beta. cbn [log with_resamples r_iter r_gpr].
    change (r_iter (started s)) with (S (r_iter s)). change (r_gpr (started s)) with (r_gpr s).
    destruct (fit_gpr_parallel e c o size (S (r_iter s)) (p_fit i) X (map (p_truth i) X) (r_gpr s)) as [g rf] eqn:Ef.
    fold (log (EvEval X) (with_resamples 0 (started s))). 
    intros H. apply (pass_learn i s X g rf s' r Hc L Ef). revert H.
    change (mkRun (r_gpr (started s)) (S (r_iter s)) 0 (r_converged (started s)) (r_has_run (started s)) (r_log (started s) ++ [EvEval X]))
      with (log (EvEval X) (with_resamples 0 (started s))).
    change (r_iter (with_gpr g (log (EvEval X) (with_resamples 0 (started s))))) with (S (r_iter s)).
    fold (fitted s X g).
    destruct rf as [[]|x]; cbn [bind]; [|intros H; injection H as <- <-; constructor].
    destruct (p_callback i); cbn [bind]; [|intros H; injection H as <- <-; constructor].
    destruct (check_convergence (p_checks i)) as [v|x] eqn:Ec; cbn [bind]; [|intros H; injection H as <- <-; constructor].
    destruct (p_mean i); [|intros H; injection H as <- <-; constructor; auto].
    destruct v; [|intros H; injection H as <- <-; constructor; auto].
    destruct (p_mc i) as [passed|x] eqn:Emc; [|intros H; injection H as <- <-; constructor; auto].
    intros H. destruct passed; injection H as <- <-.
    + exact (rest_mc i (fitted s X g) (Ok tt) true eq_refl Ec Emc).
    + exact (rest_mc i (fitted s X g) (Ok tt) false eq_refl Ec Emc).
Qed.
(** What a pass did, in terms of numbers. *)
Lemma quota_nonempty (X : list pt) : quota <= length X -> X <> [].
Proof. intros H ->. cbn [length] in H. lia. Qed.
Lemma pass_summary i s s' r : pass_result i s s' r ->
  exists new, r_log s' = r_log s ++ EvAcquire (n_total c (r_gpr s)) (n_finite (r_gpr s)) :: new
    /\ passes new = 0 /\ r_has_run s' = r_has_run s
    /\ ((evaluated new = [] /\ r_gpr s' = r_gpr s /\ r_converged s' = r_converged s
          /\ forall b, r = Ok b -> r_resamples s' = S (r_resamples s)
                                  /\ b = (o_giveup o <? Z.of_nat (S (r_resamples s)))%Z)
        \/ exists X, chosen i X /\ quota <= length X /\ evaluated new = X /\ r_resamples s' = 0
             /\ forall b, r = Ok b -> b = false
                  /\ n_total c (r_gpr s') = length (g_yall (r_gpr s)) + length X
                  /\ g_yall (r_gpr s') = g_yall (r_gpr s) ++ map (p_truth i) X
                  /\ g_Xall (r_gpr s') = g_Xall (r_gpr s) ++ X).
Proof.
  intros H. destruct H as [x|X Hc HL|X g rf s' r Hc HL Hf H].
  - exists []. split; [auto|]. split; [auto|]. split; [auto|]. left. split; [auto|]. split; [auto|]. split; [auto|].
    discriminate.
  - exists []. split; [auto|]. split; [auto|]. split; [auto|]. left. split; [auto|]. split; [auto|]. split; [auto|].
    intros b E. injection E as <-. auto.
  - assert (forall u, rf = Ok u -> n_total c g = length (g_yall (r_gpr s)) + length X
      /\ g_yall g = g_yall (r_gpr s) ++ map (p_truth i) X /\ g_Xall g = g_Xall (r_gpr s) ++ X) as Ht.
    { intros u ->. apply fit_parallel_total in Hf.
      - rewrite map_length in Hf. exact Hf.
      - intros E. apply map_eq_nil in E. revert E. apply quota_nonempty. auto. }
    destruct H as [x|v x Hr Hv|Hr Hv|passed Hr Hv Hmc].
    + exists [EvEval X; EvFit (S (r_iter s))]. cbn [fitted started log next_iter with_gpr with_resamples r_log r_has_run r_gpr r_resamples r_converged].
      rewrite <- !app_assoc. repeat split; auto. right. exists X. cbn. rewrite app_nil_r.
      repeat split; auto; discriminate.
    + exists [EvEval X; EvFit (S (r_iter s)); EvVerdict v].
      cbn [fitted started log next_iter with_gpr with_resamples with_converged r_log r_has_run r_gpr r_resamples r_converged].
      rewrite <- !app_assoc. repeat split; auto. right. exists X. cbn. rewrite app_nil_r.
      repeat split; auto; discriminate.
    + exists [EvEval X; EvFit (S (r_iter s)); EvVerdict false].
      cbn [fitted started log next_iter with_gpr with_resamples with_converged r_log r_has_run r_gpr r_resamples r_converged].
      rewrite <- !app_assoc. repeat split; auto. right. exists X. cbn [evaluated flat_map]. rewrite app_nil_r.
      split; [auto|]. split; [auto|]. split; [reflexivity|]. split; [auto|]. intros b E.
      destruct (p_save i); [|discriminate]. injection E as <-. split; [auto|]. apply (Ht tt). auto.
    + exists [EvEval X; EvFit (S (r_iter s)); EvVerdict true; EvDiagnosis passed].
      cbn [fitted started log next_iter with_gpr with_resamples with_converged r_log r_has_run r_gpr r_resamples r_converged].
      rewrite <- !app_assoc. repeat split; auto. right. exists X. cbn [evaluated flat_map]. rewrite app_nil_r.
      split; [auto|]. split; [auto|]. split; [reflexivity|]. split; [auto|]. intros b E.
      destruct (p_save i); [|discriminate]. injection E as <-. split; [auto|]. apply (Ht tt). auto.
Qed.
Lemma chosen_le i X Y : p_acq i = Ok Y -> chosen i X -> length X <= length Y.
Proof.
  intros Ha (Y' & E & H). assert (Y' = Y) as -> by congruence. destruct H as [[-> ->]|H]; [auto|].
  apply masked_ok in H as [_ ->]. apply mask_le.
Qed.

(** ** The loop *)
Lemma loop_budget : forall fuel inputs final s s' r,
  n_total c (r_gpr s) <= length (g_yall (r_gpr s)) ->
  (forall k Y, p_acq (inputs k) = Ok Y -> length Y <= o_npa o) ->
  loop e c o size fuel inputs final s = (s', r) ->
  exists new, r_log s' = r_log s ++ new
    /\ length (evaluated new) + n_total c (r_gpr s)
       <= Nat.max (n_total c (r_gpr s)) (o_max_total o + o_npa o - 1)
    /\ (forall nt nf, In (EvAcquire nt nf) new -> nt < o_max_total o /\ nf < o_max_finite o)
    /\ (r = Ok tt -> length (evaluated new) + length (g_yall (r_gpr s)) = length (g_yall (r_gpr s'))).
Proof.
  induction fuel as [|fuel IH]; intros inputs final s s' r Hc Hn H; cbn [loop] in H.
  { injection H as <- <-. exists []. rewrite app_nil_r. simpl. repeat split; try lia; try tauto; discriminate. }
  destruct (goes_on c o s) eqn:Eg.
  2: { destruct (r_converged s).
       - injection H as <- <-. exists []. rewrite app_nil_r. simpl. repeat split; try lia; try tauto.
       - destruct final as [b|x]; injection H as <- <-.
         + exists [EvDiagnosis b]. simpl. repeat split; try lia; try tauto; destruct H as [H|[]]; discriminate.
         + exists []. rewrite app_nil_r. simpl. repeat split; try lia; try tauto. }
  unfold goes_on in Eg. apply andb_true_iff in Eg as [Eg _]. apply andb_true_iff in Eg as [E1 E2].
  apply Nat.ltb_lt in E1. apply Nat.ltb_lt in E2.
  destruct (one_pass e c o size (inputs 0) s) as [s1 r1] eqn:Ep. apply one_pass_result in Ep.
  apply pass_summary in Ep as (new & El & Hpass & _ & Hp).
  assert (forall X, chosen (inputs 0) X -> length X <= o_npa o) as HX.
  { intros X HX. pose proof HX as (Y & Ha & _). pose proof (chosen_le _ _ _ Ha HX). specialize (Hn 0 Y Ha). lia. }
  assert (forall nt nf, In (EvAcquire nt nf) new -> False) as Hno.
  { intros nt nf. apply passes_none. auto. }
  destruct r1 as [b|x].
  2: { injection H as <- <-. exists (EvAcquire (n_total c (r_gpr s)) (n_finite (r_gpr s)) :: new). split; [auto|].
       simpl. split.
       - destruct Hp as [(-> & _)|(X & HcX & _ & -> & _)]; [simpl; lia|]. specialize (HX X HcX). lia.
       - split; [|discriminate]. intros nt nf [E|E]; [injection E as <- <-; auto|exfalso; eauto]. }
  set (ev := EvAcquire (n_total c (r_gpr s)) (n_finite (r_gpr s))) in *.
  destruct Hp as [(Ev & Eg & _ & Hr)|(X & HcX & HqX & Ev & _ & Hr)]; specialize (Hr b eq_refl).
  - destruct b.
    + injection H as <- <-. exists (ev :: new). split; [auto|]. simpl. rewrite Ev, Eg. simpl.
      split; [lia|]. split; [|auto]. intros nt nf [E|E]; [injection E as <- <-; auto|exfalso; eauto].
    + rewrite <- Eg in Hc. specialize (IH _ _ _ _ _ Hc (fun k => Hn (S k)) H) as (new2 & El2 & H1 & H2 & H3).
      exists (ev :: new ++ new2). rewrite El2, El, <- app_assoc. split; [reflexivity|].
      cbn [evaluated flat_map ev app]. fold (evaluated (new ++ new2)). rewrite evaluated_app, Ev. simpl.
      rewrite Eg in H1, H3. split; [lia|]. split; [|auto].
      intros nt nf [E|E]; [injection E as <- <-; auto|]. apply in_app_or in E as [E|E]; [exfalso; eauto|auto].
  - destruct Hr as (-> & Ht & Ey & _). specialize (HX X HcX).
    assert (n_total c (r_gpr s1) <= length (g_yall (r_gpr s1))) as Hc1.
    { rewrite Ht, Ey, app_length, map_length. lia. }
    specialize (IH _ _ _ _ _ Hc1 (fun k => Hn (S k)) H) as (new2 & El2 & H1 & H2 & H3).
    exists (ev :: new ++ new2). rewrite El2, El, <- app_assoc. split; [reflexivity|].
    cbn [evaluated flat_map ev app]. fold (evaluated (new ++ new2)). rewrite evaluated_app, Ev, app_length.
    rewrite Ey, app_length, map_length in H3. split; [lia|]. split.
    + intros nt nf [E|E]; [injection E as <- <-; auto|]. apply in_app_or in E as [E|E]; [exfalso; eauto|auto].
    + intros E. specialize (H3 E). lia.
Qed.

(** Enough fuel: a bound on the number of passes from a state on. *)
Definition batches_left s : nat := (o_max_total o - n_total c (r_gpr s) + (quota - 1)) / quota.
Definition tries : nat := Z.to_nat (o_giveup o).
Definition pass_bound s : nat := batches_left s * S tries + (S tries - r_resamples s).
Lemma batches_drop T T' m : quota <= m -> T < o_max_total o -> T + m <= T' ->
  S ((o_max_total o - T' + (quota - 1)) / quota) <= (o_max_total o - T + (quota - 1)) / quota.
Proof.
  intros Hm HT HT'. set (q := quota) in *. assert (q <> 0) as Hq by (unfold q; lia).
  replace (S ((o_max_total o - T' + (q - 1)) / q)) with ((o_max_total o - T' + (q - 1) + 1 * q) / q).
  2: { rewrite Nat.div_add by auto. lia. }
  destruct (Nat.le_gt_cases (o_max_total o) T') as [L|L].
  - replace (o_max_total o - T' + (q - 1) + 1 * q) with (2 * q - 1) by lia.
    replace ((2 * q - 1) / q) with 1.
    + apply Nat.div_le_lower_bound; lia.
    + apply Nat.div_unique with (q - 1); lia.
  - apply Nat.div_le_mono; [auto|]. lia.
Qed.
Lemma pass_decreases i s s1 : n_total c (r_gpr s) <= length (g_yall (r_gpr s)) -> r_resamples s <= tries ->
  n_total c (r_gpr s) < o_max_total o -> one_pass e c o size i s = (s1, Ok false) ->
  n_total c (r_gpr s1) <= length (g_yall (r_gpr s1)) /\ r_resamples s1 <= tries /\ pass_bound s1 < pass_bound s.
Proof.
  intros Hc Hr E1 Ep. apply one_pass_result in Ep. apply pass_summary in Ep as (new & _ & _ & _ & Hp).
  destruct Hp as [(_ & Eg & _ & Hb)|(X & HcX & HqX & Ev & Er & Hb)]; specialize (Hb false eq_refl).
  - destruct Hb as [Er Hb]. symmetry in Hb. apply Z.ltb_ge in Hb.
    assert (S (r_resamples s) <= tries) as Ht by (unfold tries; lia).
    rewrite Eg, Er. split; [auto|]. split; [auto|]. unfold pass_bound, batches_left. rewrite Eg, Er. lia.
  - destruct Hb as (_ & Ht & Ey & _). rewrite Ht, Ey, app_length, map_length, Er.
    split; [lia|]. split; [lia|]. unfold pass_bound, batches_left. rewrite Ht, Er.
    assert (S ((o_max_total o - (length (g_yall (r_gpr s)) + length X) + (quota - 1)) / quota)
      <= (o_max_total o - n_total c (r_gpr s) + (quota - 1)) / quota) as Hd.
    { apply batches_drop with (length X); auto. lia. }
    set (B := (o_max_total o - n_total c (r_gpr s) + (quota - 1)) / quota) in *.
    set (B' := (o_max_total o - (length (g_yall (r_gpr s)) + length X) + (quota - 1)) / quota) in *. nia.
Qed.
Lemma goes_on_total s : goes_on c o s = true -> n_total c (r_gpr s) < o_max_total o.
Proof.
  unfold goes_on. intros H. apply andb_true_iff in H as [H _]. apply andb_true_iff in H as [H _].
  apply Nat.ltb_lt. auto.
Qed.
(** The number of passes is bounded... *)
Lemma loop_passes : forall fuel inputs final s,
  n_total c (r_gpr s) <= length (g_yall (r_gpr s)) -> r_resamples s <= tries ->
  exists new, r_log (fst (loop e c o size fuel inputs final s)) = r_log s ++ new /\ passes new <= pass_bound s.
Proof.
  induction fuel as [|fuel IH]; intros inputs final s Hc Hr.
  { exists []. rewrite app_nil_r. split; [reflexivity|]. cbn. lia. }
  cbn [loop]. destruct (goes_on c o s) eqn:Eg.
  2: { destruct (r_converged s); [|destruct final as [b|x]].
       - exists []. rewrite app_nil_r. split; [reflexivity|]. cbn. lia.
       - exists [EvDiagnosis b]. split; [reflexivity|]. cbn. lia.
       - exists []. rewrite app_nil_r. split; [reflexivity|]. cbn. lia. }
  apply goes_on_total in Eg.
  destruct (one_pass e c o size (inputs 0) s) as [s1 r1] eqn:Ep. pose proof Ep as Ep'. apply one_pass_result in Ep'.
  apply pass_summary in Ep' as (new & El & Hpass & _).
  set (ev := EvAcquire (n_total c (r_gpr s)) (n_finite (r_gpr s))) in *.
  assert (1 <= pass_bound s) as Hpos by (unfold pass_bound; lia).
  assert (passes (ev :: new) = 1) as Hone.
  { change (ev :: new) with ([ev] ++ new). rewrite passes_app, Hpass. reflexivity. }
  destruct r1 as [[]|x]; cbn [fst].
  1, 3: exists (ev :: new); split; [auto|]; lia.
  destruct (pass_decreases _ _ _ Hc Hr Eg Ep) as (Hc1 & Hr1 & Hb).
  destruct (IH (fun k => inputs (S k)) final s1 Hc1 Hr1) as (new2 & El2 & Hn2).
  exists (ev :: new ++ new2). rewrite El2, El, <- app_assoc. split; [reflexivity|].
  change (ev :: new ++ new2) with ((ev :: new) ++ new2). rewrite passes_app, Hone. lia.
Qed.
(** ... and more fuel than that changes nothing. *)
Lemma loop_stable : forall n inputs final s m,
  n_total c (r_gpr s) <= length (g_yall (r_gpr s)) -> r_resamples s <= tries ->
  pass_bound s < n -> pass_bound s < m ->
  loop e c o size n inputs final s = loop e c o size m inputs final s.
Proof.
  induction n as [|n IH]; intros inputs final s m Hc Hr Hn Hm; [lia|]. destruct m as [|m]; [lia|].
  cbn [loop]. destruct (goes_on c o s) eqn:Eg; [|reflexivity]. apply goes_on_total in Eg.
  destruct (one_pass e c o size (inputs 0) s) as [s1 [[]|x]] eqn:Ep; [reflexivity| |reflexivity].
  destruct (pass_decreases _ _ _ Hc Hr Eg Ep) as (Hc1 & Hr1 & Hb). apply IH; auto; lia.
Qed.

(** How the loop ends. *)
Definition confirmed (i : pass_input pt theta) s : Prop :=
  check_convergence (p_checks i) = Ok true /\ p_mc i = Ok true
  /\ exists pre, r_log s = pre ++ [EvVerdict true; EvDiagnosis true].
Lemma pass_converged i s s' r : one_pass e c o size i s = (s', Ok r) -> r_converged s = false -> r_converged s' = true ->
  r = false /\ confirmed i s'.
Proof.
  intros H Hs Hs'. apply one_pass_result in H. remember (Ok r) as rr eqn:Er. destruct H as [x|X Hc HL|X g rf s' r' Hc HL Hf H].
  - discriminate.
  - exfalso. cbn in Hs'. congruence.
  - destruct H as [x|v x Hr Hv|Hr Hv|passed Hr Hv Hmc]; try discriminate.
    cbn in Hs'. subst passed. destruct (p_save i); [|discriminate]. injection Er as <-. split; [auto|].
    split; [auto|]. split; [auto|]. cbn [log with_converged fitted started r_log next_iter with_gpr with_resamples].
    rewrite <- !app_assoc. simpl.
    exists (r_log s ++ [EvAcquire (n_total c (r_gpr s)) (n_finite (r_gpr s)); EvEval X; EvFit (S (r_iter s))]).
    rewrite <- app_assoc. reflexivity.
Qed.
Lemma loop_end : forall fuel inputs final s s',
  loop e c o size fuel inputs final s = (s', Ok tt) -> r_converged s = false ->
  (r_converged s' = true -> exists k, confirmed (inputs k) s')
  /\ (r_converged s' = false ->
      o_max_total o <= n_total c (r_gpr s') \/ o_max_finite o <= n_finite (r_gpr s')
      \/ (o_giveup o < Z.of_nat (r_resamples s'))%Z)
  /\ r_has_run s' = r_has_run s.
Proof.
  induction fuel as [|fuel IH]; intros inputs final s s' H Hs; cbn [loop] in H; [discriminate|].
  destruct (goes_on c o s) eqn:Eg.
  2: { rewrite Hs in H. destruct final as [b|x]; [|discriminate]. injection H as <-. cbn. split; [congruence|].
       split; [|auto]. intros _. unfold goes_on in Eg. rewrite Hs in Eg. cbn in Eg. rewrite andb_true_r in Eg.
       apply andb_false_iff in Eg as [Eg|Eg]; apply Nat.ltb_ge in Eg; auto. }
  destruct (one_pass e c o size (inputs 0) s) as [s1 [b|x]] eqn:Ep; [|discriminate].
  pose proof (pass_converged _ _ _ _ Ep Hs) as Hc. pose proof Ep as Ep'. apply one_pass_result in Ep'.
  apply pass_summary in Ep' as (new & _ & _ & Eh & Hp).
  destruct b.
  - injection H as <-. split; [intros E; destruct (Hc E); discriminate|]. split; [|auto]. intros _.
    destruct Hp as [(_ & _ & _ & Hb)|(X & _ & _ & _ & _ & Hb)]; specialize (Hb true eq_refl).
    + destruct Hb as [Er Hb]. symmetry in Hb. apply Z.ltb_lt in Hb. rewrite Er. auto.
    + destruct Hb as [Hb _]. discriminate.
  - destruct (r_converged s1) eqn:E1.
    + destruct (Hc eq_refl) as [_ Hcf]. assert (s' = s1) as ->.
      { destruct fuel; cbn [loop] in H; [discriminate|]. unfold goes_on in H. rewrite E1 in H. simpl in H.
        rewrite andb_false_r in H. injection H as ->. auto. }
      split; [eauto|]. split; [congruence|]. auto.
    + destruct (IH _ _ _ _ H E1) as (H1 & H2 & H3). split; [|split; [auto|congruence]].
      intros E. destruct (H1 E) as [k Hk]. exists (S k). auto.
Qed.
End Run.

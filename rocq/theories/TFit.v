(** Properties C51 and C25 (parallel part): when and how hyperparameters are refitted by all processes. *)
From Verif Require Import SRun PMpi TMpi PSvm PGpr PGpr2 PGpr3 TGpr TGpr4 PRun.
Set Default Goal Selector "!".

Section Fit.
Context {pt pt_ PX PY model theta box : Type}.
Variable e : env pt pt_ PX PY model theta box.
Variable c : config theta.
Variable o : options.
Variable size : nat.
Hypothesis Hsize : size <> 0.
Notation gpr := (gpr pt pt_ PX PY model theta box).
Implicit Types g : gpr.

Lemma is_this_iter_due it every : every <> 0 -> (is_this_iter it every = true <-> due every it).
Proof.
  intros H. unfold is_this_iter, due. rewrite Nat.eqb_eq. pose proof (Nat.div_mod it every H) as D. split.
  - intros E. exists (S (it / every)). simpl. nia.
  - intros [k Hk]. destruct k as [|k]; [lia|]. symmetry. apply (Nat.mod_unique it every k); simpl in Hk; nia.
Qed.

(** C51. The numbers of runs of all processes: in a full refit the configured number is split evenly;
    otherwise one each in a simple refit; otherwise none. *)
Theorem C51_schedule :
  forall it, o_full o <> 0 -> o_simple o <> 0 ->
  exists ns, restarts_by_rank c o size it = Ok ns /\ length ns = size
    /\ (due (o_full o) it -> list_sum ns = Z.to_nat (c_restarts c)
          /\ forall i j a b, nth_error ns i = Some a -> nth_error ns j = Some b -> i <= j -> b <= a <= b + 1)
    /\ (~ due (o_full o) it -> due (o_simple o) it -> forall n, In n ns -> n = 1)
    /\ (~ due (o_full o) it -> ~ due (o_simple o) it -> forall n, In n ns -> n = 0).
Proof.
  intros it Hf Hs. unfold restarts_by_rank. pose proof (is_this_iter_due it _ Hf) as Df. pose proof (is_this_iter_due it _ Hs) as Ds.
  rewrite (proj2 (Nat.eqb_neq _ _) Hf), (proj2 (Nat.eqb_neq _ _) Hs). cbn [negb andb].
  destruct (is_this_iter it (o_full o)).
  - destruct (C01_split_number (Z.to_nat (c_restarts c)) size Hsize) as (ns & E & H1 & H2 & H3).
    exists ns. split; [auto|]. split; [auto|]. split; [auto|]. split; intros H; exfalso; tauto.
  - eexists. split; [reflexivity|]. split; [apply repeat_length|].
    split; [intros H; apply Df in H; discriminate|]. destruct (is_this_iter it (o_simple o)).
    + split; intros _ H n Hn; [apply repeat_spec in Hn; auto|exfalso; tauto].
    + split; intros _ H n Hn; [apply Ds in H; discriminate|apply repeat_spec in Hn; auto].
Qed.
(** Whatever is refitted, the new data are appended. *)
Theorem C51_data :
  forall it i X y g g', fit_gpr_parallel e c o size it i X y g = (g', Ok tt) ->
    g_Xall g' = g_Xall g ++ X /\ g_yall g' = g_yall g ++ y.
Proof.
  intros it i X y g g' H. apply fit_parallel_ok in H as (ns & b & n & v & _ & _ & _ & H & _).
  apply append_sets in H as (f & T & Xf & E1 & E2 & _). unfold batch_X, batch_y, rank_args in *. cbn [a_X a_y] in *. auto.
Qed.

(** An append without fit does not touch the hyperparameters. *)
Lemma append_no_fit a g g' : a_fit a = FFalse -> append_to_data e c a g = (g', Ok tt) ->
  g_kernel g' = g_kernel g /\ g_lml g' = g_lml g.
Proof.
  intros Hf H. apply append_inv in H. unfold appended in H.
  destruct H as (X & y & force & nv & nz & finite & T & Xf & pX & pY & Xall_ & yall_ & noise_ & s &
    _ & _ & _ & _ & _ & _ & _ & _ & _ & _ & _ & _ & H).
  destruct H as [(_ & _ & ->)|(_ & X_ & y_ & al & g3 & b & _ & _ & _ & K & _ & ->)]; [auto|].
  rewrite Hf in K. cbn [kwargs] in K. apply update_model_ok in K as [[_ ->]|(_ & th & d & _ & _ & ->)]; destruct b; auto.
Qed.
(** If no refit is due, the hyperparameters stay as they are. *)
Theorem C51_kept :
  forall it i X y g g', o_full o <> 0 -> o_simple o <> 0 -> ~ due (o_full o) it -> ~ due (o_simple o) it ->
    fit_gpr_parallel e c o size it i X y g = (g', Ok tt) -> g_kernel g' = g_kernel g.
Proof.
  intros it i X y g g' Hf Hs Df Ds H. apply fit_parallel_ok in H as (ns & b & n & v & Hr & Hn & _ & H & _).
  destruct (C51_schedule it Hf Hs) as (ns' & Hr' & _ & _ & _ & H0). rewrite Hr in Hr'. injection Hr' as <-.
  assert (n = 0) as -> by (apply H0; auto; eapply nth_error_In; eauto).
  apply append_no_fit in H; [tauto|reflexivity].
Qed.

(** ** The best run of all processes *)
(** Appending the same data with different arguments for the fit: the fits start from the same state. *)
Lemma append_fit X y k1 k2 dk g g1 g2 :
  append_to_data e c (mkAppend (Some X) (Some y) NoNoise (FKw k1) true dk) g = (g1, Ok tt) ->
  append_to_data e c (mkAppend (Some X) (Some y) NoNoise (FKw k2) true dk) g = (g2, Ok tt) ->
  g_nlastfin g1 <> 0 ->
  exists g0 h1 h2, g_kernel g0 = g_kernel g /\ g_fitted g0 = g_fitted g
    /\ fit_gpr_hyperparameters e c k1 g0 = (h1, Ok tt) /\ fit_gpr_hyperparameters e c k2 g0 = (h2, Ok tt)
    /\ g_kernel g1 = g_kernel h1 /\ g_lml g1 = g_lml h1 /\ the_data g1 = the_data g0
    /\ g_kernel g2 = g_kernel h2 /\ g_lml g2 = g_lml h2.
Proof.
  intros H1 H2 Hn. apply append_inv in H1, H2. unfold appended in H1, H2.
  destruct H1 as (X1 & y1 & f1 & nv1 & nz1 & fin1 & T1 & Xf1 & pX1 & pY1 & Xa1 & ya1 & no1 & s1 &
    A1 & _ & V1 & _ & N1 & C1 & M1 & P1 & TX1 & TY1 & S1 & V1' & H1).
  destruct H2 as (X2 & y2 & f2 & nv2 & nz2 & fin2 & T2 & Xf2 & pX2 & pY2 & Xa2 & ya2 & no2 & s2 &
    A2 & _ & V2 & _ & N2 & C2 & M2 & P2 & TX2 & TY2 & S2 & V2' & H2).
  unfold args_are in A1, A2. cbn [a_X a_y a_fit a_default a_noise kwargs] in *.
  destruct A1 as [(E1 & E2 & ->)|(? & _)]; [|discriminate]. destruct A2 as [(E3 & E4 & ->)|(? & _)]; [|discriminate].
  injection E1 as <-. injection E2 as <-. injection E3 as <-. injection E4 as <-.
  unfold refits in *. cbn [a_classifier orb] in *. rewrite !andb_true_r in *.
  rewrite V1 in V2. injection V2 as <-. rewrite N1 in N2. injection N2 as <-.
  rewrite C1 in C2. injection C2 as <- <-.
  assert (Xf2 = Xf1) as ->.
  { destruct (c_classifier c); congruence. }
  destruct P1 as [P1 Q1]. destruct P2 as [P2 Q2]. rewrite P1 in P2. injection P2 as <-. rewrite Q1 in Q2. injection Q2 as <-.
  rewrite TX1 in TX2. injection TX2 as <-. rewrite TY1 in TY2. injection TY2 as <-. rewrite S1 in S2. injection S2 as <-.
  assert (s2 = s1) as ->.
  { destruct (c_classifier c); [|congruence]. destruct V1' as (t & Et & Ev). destruct V2' as (t2 & Et2 & Ev2).
    rewrite Et in Et2. injection Et2 as <-. rewrite Ev in Ev2. congruence. }
  destruct H1 as [(Z1 & _ & ->)|(_ & X_ & y_ & al & h1 & b1 & B1 & B2 & B3 & K1 & _ & ->)]; [contradiction|].
  destruct H2 as [(Z2 & _ & ->)|(_ & X_2 & y_2 & al2 & h2 & b2 & B4 & B5 & B6 & K2 & _ & ->)].
  { exfalso. apply Hn. apply fit_frame in K1 as (_ & _ & _ & _ & _ & _ & K1 & _). destruct b1; cbn; rewrite K1; exact Z2. }
  rewrite B1 in B4. injection B4 as <-. rewrite B2 in B5. injection B5 as <-. rewrite B3 in B6. injection B6 as <-.
  match type of K1 with _ ?z = _ => exists z, h1, h2 end.
  split; [reflexivity|]. split; [reflexivity|]. split; [auto|]. split; [auto|].
  pose proof (numeric_frame e c (Some k1) _ _ K1) as F1. apply the_data_same in F1.
  destruct b1, b2; repeat split; auto.
Qed.

(** Where run [j] of process [r] starts: the first one of the main process at the current
    hyperparameters if there was a fit before, all others at random points of their own. *)
Definition rank_start (i : fit_input theta) g (r j : nat) : theta :=
  if (r =? 0) && (j =? 0) && g_fitted g
  then match g_kernel g with Some th => th | None => c_theta0 c end else i_draw i r j.
Lemma rank_start_of i g g0 r n j : g_kernel g0 = g_kernel g -> g_fitted g0 = g_fitted g ->
  start_of c (rank_kw i r n) g0 j = rank_start i g r j.
Proof.
  intros E1 E2. unfold start_of, rank_start, rank_kw. cbn [f_simple f_start f_draw orb]. rewrite E1, E2.
  destruct (r =? 0), (j =? 0); reflexivity.
Qed.
(** C25 for the parallel fit. If a refit is due and there are new accepted points, all runs of all
    processes return; the hyperparameters all processes end with are the outcome of one of these runs,
    and no run reached a better log-marginal likelihood. *)
Theorem C25_best_process :
  forall it i X y g g', o_full o <> 0 -> o_simple o <> 0 -> due (o_full o) it \/ due (o_simple o) it ->
    (1 <= c_restarts c)%Z -> c_optimizer c = true -> c_hyper c = true ->
    fit_gpr_parallel e c o size it i X y g = (g', Ok tt) -> g_nlastfin g' <> 0 ->
    (forall d th th' v, the_data g' = Ok d -> optimize e d th = (th', Ok v) -> isnan v = false) ->
    exists ns d, restarts_by_rank c o size it = Ok ns /\ the_data g' = Ok d
      /\ (exists r n j th v, nth_error ns r = Some n /\ j < n
            /\ optimize e d (rank_start i g r j) = (th, Ok v) /\ g_kernel g' = Some th /\ g_lml g' = Some (nneg v)
            /\ forall r' n' j', nth_error ns r' = Some n' -> j' < n' -> exists th' v',
                 optimize e d (rank_start i g r' j') = (th', Ok v') /\ nleb (nneg v') (nneg v) = true).
Proof.
  intros it i X y g g' Hf Hs Hdue Hres Ho Hh H Hn Hnan.
  apply fit_parallel_ok in H as (ns & b & n & v & Hr & Hb & Hpart & H & Hv & Hall).
  destruct (C51_schedule it Hf Hs) as (ns' & Hr' & Hlen & Hfull & Hsimple & _). rewrite Hr in Hr'. injection Hr' as <-.
  assert (forall m, nth_error ns 0 = Some m -> m <> 0) as H0.
  { intros m Hm E. subst m. destruct (is_this_iter it (o_full o)) eqn:Ef.
    - apply is_this_iter_due in Ef; [|auto]. destruct (Hfull Ef) as [Hsum Hbal].
      assert (forall l : list nat, (forall a, In a l -> a = 0) -> list_sum l = 0) as Hz.
      { induction l as [|a l IH]; intros Ha; [reflexivity|]. cbn. rewrite (Ha a) by (left; auto). apply IH. intros; apply Ha; right; auto. }
      rewrite Hz in Hsum; [lia|]. intros a Ha. apply In_nth_error in Ha as [k Hk].
      pose proof (Hbal 0 k 0 a Hm Hk ltac:(lia)). lia.
    - assert (~ due (o_full o) it) as Nf by (rewrite <- is_this_iter_due by auto; congruence).
      destruct Hdue as [|Hdue]; [contradiction|]. apply nth_error_In in Hm. apply (Hsimple Nf Hdue) in Hm. discriminate. }
  assert (forall r m, nth_error ns r = Some m -> m <> 0 \/ r = 0 -> m <> 0) as Hpos.
  { intros r m Hm Hx. destruct Hx as [Hx|Hx]; [auto|]. subst r. apply (H0 m Hm). }
  pose proof (Hpos b n Hb Hpart) as Hn0. clear Hpart.
  unfold rank_args in *. rewrite (proj2 (Nat.eqb_neq _ _) Hn0) in H.
  assert (forall r m, nth_error ns r = Some m -> m <> 0 -> exists g0 h h1 g1 w,
    g_kernel g0 = g_kernel g /\ g_fitted g0 = g_fitted g /\ the_data g' = the_data g0
    /\ fit_gpr_hyperparameters e c (rank_kw i b n) g0 = (h, Ok tt) /\ g_kernel g' = g_kernel h /\ g_lml g' = g_lml h
    /\ fit_gpr_hyperparameters e c (rank_kw i r m) g0 = (h1, Ok tt) /\ g_kernel g1 = g_kernel h1 /\ g_lml h1 = Some w
    /\ (isnan v = true \/ isnan w = false /\ nltb v w = false)) as Hall'.
  { intros r m Hm Hm0. destruct (Hall r m Hm (or_introl Hm0)) as (g1 & w & Ha & Hw & Hc).
    rewrite (proj2 (Nat.eqb_neq _ _) Hm0) in Ha.
    destruct (append_fit X y _ _ _ g g' g1 H Ha Hn) as (g0 & h & h1 & E1 & E2 & F1 & F2 & E3 & E4 & E5 & E6 & E7).
    exists g0, h, h1, g1, w. repeat split; auto. congruence. }
  destruct (Hall' b n Hb Hn0) as (g0 & h & h1 & g1 & w & E1 & E2 & E3 & F1 & E4 & E5 & _).
  assert (exists d, the_data g0 = Ok d) as [d Hd].
  { pose proof F1 as F. unfold fit_gpr_hyperparameters in F. rewrite Ho, Hh in F. apply seq_ok in F as (ga & gb & Ig & F).
    apply get_ok in Ig as [-> ->]. cbn [f_simple f_restarts rank_kw negb orb] in F.
    destruct (Z.leb_spec (Z.of_nat n) 0); [lia|]. apply seq_ok in F as (? & gb & Im & F). apply modify_ok in Im as ->.
    match type of F with (if ?b then _ else _) _ = _ => destruct b; [apply raise_ok in F; destruct F|] end.
    apply seq_ok in F as (d & gb & Id & F). apply lift_ok in Id as [-> Id]. eauto. }
  exists ns, d. split; [auto|]. split; [congruence|].
  assert (forall r m g0 h, nth_error ns r = Some m -> m <> 0 -> g_kernel g0 = g_kernel g -> g_fitted g0 = g_fitted g ->
      the_data g0 = Ok d -> fit_gpr_hyperparameters e c (rank_kw i r m) g0 = (h, Ok tt) ->
      exists j th v, j < m /\ optimize e d (rank_start i g r j) = (th, Ok v) /\ g_kernel h = Some th /\ g_lml h = Some (nneg v)
      /\ forall j', j' < m -> exists th' v', optimize e d (rank_start i g r j') = (th', Ok v') /\ nleb (nneg v') (nneg v) = true)
    as Hbest.
  { clear - Ho Hh Hnan Hd E3. intros r m g9 h _ Hm K1 K2 Hd' F.
    destruct (C25_best_restart e c (rank_kw i r m) g9 h d F Ho Hh) as (j & th & v & L & O1 & O2 & O3 & O4); auto.
    - unfold n_runs, rank_kw. cbn [f_simple f_restarts]. lia.
    - intros k v _ Hk. destruct (optimize e d (start_of c (rank_kw i r m) g9 k)) as [th' q] eqn:Eq. cbn in Hk. subst q.
      eapply Hnan; [|exact Eq]. congruence.
    - unfold n_runs, rank_kw in L, O4. cbn [f_simple f_restarts] in L, O4.
      rewrite (rank_start_of i g g9 r m j K1 K2) in O1. exists j, th, v. split; [lia|]. repeat split; auto.
      intros j' Hj'. specialize (O4 j' ltac:(lia)). rewrite <- (rank_start_of i g g9 r m j' K1 K2). exact O4. }
  destruct (Hbest b n g0 h Hb Hn0 E1 E2 Hd F1) as (j & th & v' & L & O1 & O2 & O3 & O4).
  exists b, n, j, th, v'. split; [auto|]. split; [auto|]. split; [auto|]. split; [congruence|]. split; [congruence|].
  intros r m j' Hm Hj'. destruct (Hall' r m Hm ltac:(lia)) as (g9 & h9 & h2 & g2 & w2 & K1 & K2 & K3 & K4 & K5 & K6 & K7 & K8 & K9 & K10).
  destruct (Hbest r m g9 h2 Hm ltac:(lia) K1 K2 ltac:(congruence) K7) as (j2 & th2 & v2 & L2 & Q1 & Q2 & Q3 & Q4).
  destruct (Q4 j' Hj') as (th3 & v3 & R1 & R2). exists th3, v3. split; [auto|].
  assert (w2 = nneg v2) as -> by congruence. assert (v = nneg v') as -> by congruence.
  assert (isnan v' = false) as Nv by (eapply Hnan; [|exact O1]; congruence).
  assert (isnan (nneg v') = false) as Nv' by (destruct v'; auto).
  destruct K10 as [K10|[K10 K11]]; [congruence|].
  eapply nleb_trans; [exact R2|]. destruct (nleb (nneg v2) (nneg v')) eqn:E; [auto|].
  rewrite nltb_not_leb, E in K11 by auto. discriminate.
Qed.
End Fit.
Print Assumptions C51_schedule.
Print Assumptions C51_data.
Print Assumptions C51_kept.
Print Assumptions C25_best_process.

(** ** Examples *)
Definition sched (full simple : nat) : options := mkOptions 2 2 20 20 2 full simple 2.
(** Every third iteration is full: 5 restarts among 3 processes; every second otherwise simple. *)
Example C51_example :
  map (restarts_by_rank (mkConfig true 1 (nz 20) true 5 true 0) (sched 3 2) 3) [0; 1; 2; 3; 4; 5]
  = [Ok [0; 0; 0]; Ok [1; 1; 1]; Ok [2; 2; 1]; Ok [1; 1; 1]; Ok [0; 0; 0]; Ok [2; 2; 1]]
  /\ due 3 2 /\ due 3 5 /\ ~ due 3 4 /\ due 2 1 /\ due 2 3 /\ ~ due 2 4.
Proof.
  split; [reflexivity|]. split; [exists 1; lia|]. split; [exists 2; lia|]. split; [intros [k Hk]; lia|].
  split; [exists 1; lia|]. split; [exists 2; lia|]. intros [k Hk]. lia.
Qed.
(** An optimiser that stays where it starts; the log-marginal likelihood of [th] is [- (th - 5)^2]:
    of the 5 starting points of 3 processes (0 and 1; 10 and 11; 6), the one of the last is kept. *)
Definition stay : env Z Z unit unit unit nat unit :=
  mkEnv (fun p _ _ => Ok p) (fun _ X => Ok X) (fun p _ _ => Ok p) (fun _ y => Ok y)
    (fun _ y => Ok y) (fun _ v => Ok v) (fun _ _ => Ok tt) (fun _ _ => true)
    (fun d th => nz (- (Z.of_nat th - 5) ^ 2)) (fun d th => (th, Ok (nz ((Z.of_nat th - 5) ^ 2))))
    (fun _ _ => Ok None) (fun _ => true).
Definition draws : fit_input nat := mkFit true (fun r j => match r with 0 => j | 1 => 10 + j | _ => 6 end) demo_kw.
Example C25_process_example :
  let c := mkConfig true 1 (nz 20) true 5 true 0 in
  exists g', fit_gpr_parallel stay c (sched 1 1) 3 0 draws [1; 2]%Z [nz 0; nz 1] demo_new = (g', Ok tt)
    /\ restarts_by_rank c (sched 1 1) 3 0 = Ok [2; 2; 1] /\ due (o_full (sched 1 1)) 0 /\ g_nlastfin g' = 2
    /\ map (fun p => rank_start c draws demo_new (fst p) (snd p)) [(0, 0); (0, 1); (1, 0); (1, 1); (2, 0)] = [0; 1; 10; 11; 6]
    /\ g_kernel g' = Some 6 /\ g_lml g' = Some (nz (-1)).
Proof.
  cbv zeta. eexists. split; [vm_compute; reflexivity|]. split; [reflexivity|]. split; [exists 1; reflexivity|].
  split; [reflexivity|]. split; [reflexivity|]. split; [reflexivity|]. vm_compute. reflexivity.
Qed.

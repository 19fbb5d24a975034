(** Property C25 (the serial part): the best of all restarts is kept. *)
From Verif Require Import MGpr SGpr PSvm PGpr PGpr2 PGpr3 TGpr.
Set Default Goal Selector "!".

(** ** [np.argmin] *)
Lemma argmin_from_spec l : forall i best bv, isnan bv = false -> existsb isnan l = false ->
  let j := np_argmin_from i best bv l in
  (j = best /\ forall v, In v l -> nleb bv v = true)
  \/ (i <= j < i + length l /\ exists v, nth_error l (j - i) = Some v /\ nleb v bv = true
      /\ forall w, In w l -> nleb v w = true).
Proof.
  induction l as [|v l IH]; intros i best bv Hb Hl; simpl in *; [left; split; auto; tauto|].
  apply orb_false_iff in Hl as [Hv Hl]. rewrite Hb, Hv. simpl. destruct (nltb v bv) eqn:E.
  - right. destruct (IH (S i) i v Hv Hl) as [[-> H]|(H1 & w & H2 & H3 & H4)].
    + split; [lia|]. rewrite Nat.sub_diag. exists v. split; auto. split; [apply nltb_leb; auto|].
      intros w [->|Hw]; [apply nleb_refl; auto|auto].
    + split; [lia|]. destruct (np_argmin_from (S i) i v l - i) as [|k] eqn:Ek; [lia|]. exists w.
      replace (np_argmin_from (S i) i v l - S i) with k in H2 by lia. split; [exact H2|].
      split; [eapply nleb_trans; eauto; apply nltb_leb; auto|].
      intros u [<-|Hu]; auto.
  - assert (nleb bv v = true) as E'.
    { destruct (nleb bv v) eqn:F; auto. rewrite nltb_not_leb, F in E by auto. discriminate. }
    destruct (IH (S i) best bv Hb Hl) as [[-> H]|(H1 & w & H2 & H3 & H4)].
    + left. split; auto. intros w [<-|Hw]; auto.
    + right. split; [lia|]. destruct (np_argmin_from (S i) best bv l - i) as [|k] eqn:Ek; [lia|]. exists w.
      replace (np_argmin_from (S i) best bv l - S i) with k in H2 by lia. split; [exact H2|].
      split; [auto|]. intros u [<-|Hu]; auto. eapply nleb_trans; eauto.
Qed.
Lemma argmin_spec l j : existsb isnan l = false -> np_argmin l = Ok j ->
  exists v, nth_error l j = Some v /\ forall w, In w l -> nleb v w = true.
Proof.
  destruct l as [|v l]; [discriminate|]. simpl. intros Hn H. injection H as <-.
  apply orb_false_iff in Hn as [Hv Hl].
  destruct (argmin_from_spec l 1 0 v Hv Hl) as [[-> H]|(H1 & w & H2 & H3 & H4)].
  - exists v. split; auto. intros w [<-|Hw]; [apply nleb_refl; auto|auto].
  - destruct (np_argmin_from 1 0 v l) as [|k]; [lia|]. simpl in H2. rewrite Nat.sub_0_r in H2.
    exists w. split; auto. intros u [<-|Hu]; auto.
Qed.
Lemma npmin_least l : forall m, isnan m = false -> existsb isnan l = false ->
  (forall w, In w l -> nleb m w = true) -> npmin m l = m.
Proof.
  induction l as [|v l IH]; intros m Hm Hl H; [reflexivity|]. simpl in *.
  apply orb_false_iff in Hl as [Hv Hl]. unfold npmin. simpl. fold (npmin (npmin2 m v) l).
  assert (npmin2 m v = m) as ->; [|apply IH; auto].
  unfold npmin2, pymin. rewrite Hm, Hv. simpl. destruct (nltb v m) eqn:E; auto.
  apply nleb_antisym; [apply nltb_leb; auto|apply H; auto].
Qed.

Lemma nneg_le a b : nleb a b = true -> nleb (nneg b) (nneg a) = true.
Proof. destruct a, b; simpl; auto; try discriminate. qc. Qed.
Section C25.
Context {pt pt_ PX PY model theta box : Type}.
Variable e : env pt pt_ PX PY model theta box.
Variable c : config theta.
Implicit Types g : gpr pt pt_ PX PY model theta box.

Ltac inv1 H :=
  match type of H with
  | seq_ _ _ _ = (_, Ok _) =>
      let a := fresh "a" in let g1 := fresh "g" in let H1 := fresh "I" in
      apply seq_ok in H as (a & g1 & H1 & H); inv1 H1
  | lift _ _ = (_, Ok _) => let E := fresh "E" in apply lift_ok in H as [E H]; subst
  | modify _ _ = (_, Ok _) => apply modify_ok in H; subst
  | ret _ _ = (_, Ok _) => let E := fresh "E" in apply ret_ok in H as [E H]; subst
  | get _ = (_, Ok _) => let E := fresh "E" in apply get_ok in H as [E H]; subst
  | raise _ _ = (_, Ok _) => apply raise_ok in H; destruct H
  | _ => idtac
  end.

(** How many runs there are, and where run [i] starts: the first one at the current hyperparameters if
    there was a fit before and that was not ruled out; the others at random. *)
Definition n_runs (kw : fit_kw theta) : Z :=
  if f_simple kw then 1%Z else match f_restarts kw with Some n => n | None => c_restarts c end.
Definition start_of (kw : fit_kw theta) g (i : nat) : theta :=
  if (i =? 0) && ((f_simple kw || f_start kw) && g_fitted g)
  then match g_kernel g with Some th => th | None => c_theta0 c end else f_draw kw i.

Lemma restarts_runs d draw start : forall n i g g' l, restarts e d draw start i n g = (g', Ok l) ->
  forall k r, nth_error l k = Some r ->
    exists th0, (if (i + k =? 0) && start then g_kernel g = Some th0 else th0 = draw (i + k))
                /\ optimize e d th0 = (fst r, Ok (snd r)).
Proof.
  induction n as [|n IH]; intros i g g' l H k r Hr; cbn [restarts] in H.
  - inv1 H. destruct k; discriminate.
  - inv1 H. inv1 H.
    assert (g0 = g /\ (if (i =? 0) && start then g_kernel g = Some a else a = draw i)) as [-> Hs0].
    { destruct ((i =? 0) && start); [destruct (g_kernel g)|]; inv1 I; auto. }
    destruct (optimize e d a) as [th q] eqn:Eo. repeat inv1 H.
    destruct k as [|k]; simpl in Hr.
    + injection Hr as <-. rewrite Nat.add_0_r. exists a. split; auto.
    + match goal with K : restarts _ _ _ _ _ _ _ = _ |- _ => apply (IH _ _ _ _ K) in Hr as (th1 & A & B) end.
      exists th1. rewrite Nat.add_succ_r. split; auto.
Qed.

(** All [n] runs return; the hyperparameters kept are the outcome of one of them, the reported
    log-marginal likelihood is the one of this run, and no run reached a better one. *)
Theorem C25_best_restart :
  forall kw g g' d, fit_gpr_hyperparameters e c kw g = (g', Ok tt) ->
    c_optimizer c = true -> c_hyper c = true -> (0 < n_runs kw)%Z -> the_data g = Ok d ->
    (forall i v, (Z.of_nat i < n_runs kw)%Z -> snd (optimize e d (start_of kw g i)) = Ok v -> isnan v = false) ->
    exists j th v, (Z.of_nat j < n_runs kw)%Z /\ optimize e d (start_of kw g j) = (th, Ok v)
      /\ g_kernel g' = Some th /\ g_lml g' = Some (nneg v)
      /\ forall i, (Z.of_nat i < n_runs kw)%Z -> exists th' v',
           optimize e d (start_of kw g i) = (th', Ok v') /\ nleb (nneg v') (nneg v) = true.
Proof.
  intros kw g g' d H Ho Hh Hn Hd Hnan. unfold fit_gpr_hyperparameters in H. rewrite Ho, Hh in H. fold (n_runs kw) in H.
  inv1 H. cbn [negb orb] in H. destruct (Z.leb_spec (n_runs kw) 0) as [|_]; [lia|].
  inv1 H. match type of H with (if ?b then _ else _) _ = _ => destruct b; [inv1 H|] end.
  inv1 H. rewrite Hd in I. injection I as <-.
  apply seq_ok in H as (optima & g1 & Hr & H).
  apply restarts_ok in Hr as Hk. destruct Hk as [Hlen [k ->]].
  apply seq_ok in H as (j & g2 & Hj & H). apply lift_ok in Hj as [-> Hj]. destruct (nth_error optima j) as [[th v]|] eqn:En; [|inv1 H].
  inv1 H. inv1 H. apply seq_ok in H as (u & g5 & Hu & H). apply modify_ok in H.
  assert (forall i r, nth_error optima i = Some r ->
    optimize e d (start_of kw g i) = (fst r, Ok (snd r)) /\ (Z.of_nat i < n_runs kw)%Z) as Hruns.
  { intros i r Hir. assert (i < length optima) by (apply nth_error_Some; congruence). split; [|lia].
    apply (restarts_runs _ _ _ _ _ _ _ _ Hr) in Hir as (th0 & A & B). rewrite <- B. f_equal.
    unfold start_of. simpl in A. destruct ((i =? 0) && ((f_simple kw || f_start kw) && g_fitted g)); [|auto].
    destruct (g_kernel g); simpl in A; congruence. }
  assert (forall w, In w (map snd optima) -> isnan w = false) as Hnn.
  { intros w Hw. apply in_map_iff in Hw as (r & <- & Hw). apply In_nth_error in Hw as [i Hi].
    apply Hruns in Hi as [A B]. apply (Hnan i); auto. rewrite A. reflexivity. }
  assert (existsb isnan (map snd optima) = false) as Hex.
  { destruct (existsb isnan (map snd optima)) eqn:E; auto. apply existsb_exists in E as (w & A & B).
    apply Hnn in A. congruence. }
  apply argmin_spec in Hj as (v' & Hv & Hmin); [|auto].
  rewrite nth_error_map, En in Hv. simpl in Hv. injection Hv as <-.
  destruct (Hruns _ _ En) as [Ea La]. exists j, th, v. split; [auto|]. split; [auto|].
  assert (g_kernel g' = Some th /\ g_lml g' = Some (nneg (npmin v (map snd optima)))) as [-> ->].
  { rewrite H. apply update_model_ok in Hu as [[_ ->]|(_ & ? & ? & _ & _ & ->)]; split; reflexivity. }
  split; auto. rewrite npmin_least; auto.
  2: { apply Hnn. apply in_map_iff. exists (th, v). split; auto. eapply nth_error_In; eauto. }
  split; auto. intros i Hi.
  destruct (nth_error optima i) as [[th' v']|] eqn:Ei.
  - exists th', v'. destruct (Hruns _ _ Ei) as [A _]. split; auto. apply nneg_le. apply Hmin.
    apply in_map_iff. exists (th', v'). split; auto. eapply nth_error_In; eauto.
  - apply nth_error_None in Ei. lia.
Qed.
End C25.
Print Assumptions C25_best_restart.

(** Three runs, from 1, 3 and 5. A run started at [th] ends at [th + 1] with value [(th - target)^2], so
    that the second one is the best. *)
Definition parabola (target : nat) : env Z Z unit unit unit nat unit :=
  mkEnv (fun p _ _ => Ok p) (fun _ X => Ok X) (fun p _ _ => Ok p) (fun _ y => Ok y)
    (fun _ y => Ok y) (fun _ v => Ok v) (fun _ _ => Ok tt) (fun _ _ => true)
    (fun d th => nz 0)
    (fun d th => (S th, Ok (nz ((Z.of_nat th - Z.of_nat target) * (Z.of_nat th - Z.of_nat target)))))
    (fun _ _ => Ok None) (fun _ => true).
Definition three : fit_kw nat := mkKw false true (Some 3%Z) true (fun i => 2 * i + 1).
Example C25_example :
  exists g g', runs (parabola 3) (demo_c true 1) demo_new [OAppend (add [1; 2]%Z [nz 0; nz 1] FTrue true)] g
    /\ fit_gpr_hyperparameters (parabola 3) (demo_c true 1) three g = (g', Ok tt)
    /\ n_runs (demo_c true 1) three = 3%Z
    /\ map (start_of (demo_c true 1) three g) [0; 1; 2] = [1; 3; 5] /\ g_kernel g' = Some 4
    /\ exists v, g_lml g' = Some v /\ neqb v (nz 0) = true.
Proof.
  do 2 eexists. split; [apply do_all_runs; vm_compute; reflexivity|].
  split; [vm_compute; reflexivity|]. split; [reflexivity|]. split; [reflexivity|].
  split; [reflexivity|]. eexists. split; [reflexivity|]. vm_compute. reflexivity.
Qed.
(** False if one of the runs ends with a NaN: it is the one that is kept. *)
Definition bad_start (bad : nat) : env Z Z unit unit unit nat unit :=
  mkEnv (fun p _ _ => Ok p) (fun _ X => Ok X) (fun p _ _ => Ok p) (fun _ y => Ok y)
    (fun _ y => Ok y) (fun _ v => Ok v) (fun _ _ => Ok tt) (fun _ _ => true)
    (fun d th => nz 0) (fun d th => (S th, Ok (if th =? bad then NaN else nz 0)))
    (fun _ _ => Ok None) (fun _ => true).
Theorem C25_nan_refuted :
  exists g g', runs (bad_start 3) (demo_c true 1) demo_new [OAppend (add [1; 2]%Z [nz 0; nz 1] FTrue true)] g
    /\ fit_gpr_hyperparameters (bad_start 3) (demo_c true 1) three g = (g', Ok tt)
    /\ map (start_of (demo_c true 1) three g) [0; 1; 2] = [1; 3; 5]
    /\ g_kernel g' = Some 4 /\ g_lml g' = Some NaN.
Proof.
  do 2 eexists. split; [apply do_all_runs; vm_compute; reflexivity|].
  split; [vm_compute; reflexivity|]. split; [reflexivity|]. split; reflexivity.
Qed.
Print Assumptions C25_nan_refuted.

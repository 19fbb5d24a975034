(** Property C50: the initial training. *)
From Verif Require Import SRun PMpi PSvm PGpr PGpr2 PGpr3 TGpr PRun PInit.
Set Default Goal Selector "!".

Lemma filter_le_labels (f : num -> bool) : forall (l : list bool) (y : list num), length l = length y ->
  (forall i b v, nth_error l i = Some b -> nth_error y i = Some v -> f v = true -> b = true) ->
  length (filter f y) <= count_true l.
Proof.
  induction l as [|b l IH]; intros [|v y] HL H; simpl in *; try lia.
  specialize (IH y ltac:(lia) (fun i => H (S i))). pose proof (H 0 b v eq_refl eq_refl) as H0.
  unfold count_true in *. destruct (f v) eqn:E.
  - rewrite H0 by auto. simpl. lia.
  - destruct b; simpl; lia.
Qed.

Section C50.
Context {pt pt_ PX PY model theta box : Type}.
Variable e : env pt pt_ PX PY model theta box.
Variable c : config theta.
Variable o : options.
Variables (size : nat) (verbose : bool).

(** On a surrogate without points, when it returns, all evaluated points are in the full training set,
    in order and with their values, and the GP has at least [n_initial] of them. *)
Theorem C50_enough :
  forall i pX pY n g' ev, size <> 0 -> (forall x, truth_init i x <> NaN) ->
    do_initial_training e c o size verbose i (new_gpr pX pY n) = (g', ev, Ok tt) ->
    o_n_initial o <= n_finite g' /\ g_Xall g' = ev /\ g_yall g' = map (truth_init i) ev.
Proof.
  intros i pX pY n g' ev Hs Hnan H.
  apply init_ok in H as [(H & -> & ->)|(m & k & Hm & Hn & -> & H)].
  { simpl in *. split; [|auto]. destruct H; lia. }
  cbn [g_y new_gpr length Nat.ltb Nat.leb app] in H. cbv zeta in H. set (ev := drawn _ _ _ _ _) in *.
  destruct H as (Hcnt & Hle & H). simpl in Hle. rewrite Nat.sub_0_r in Hle.
  set (y := map (truth_init i) ev) in *.
  assert (no_nan y) as Hnn.
  { unfold no_nan, y. intros Hi. apply in_map_iff in Hi as (x & E & _). apply (Hnan x). auto. }
  assert (1 <= o_n_initial o) as Hpos.
  { destruct (o_n_initial o); [|lia]. exfalso. apply Hn. simpl. unfold ceil_div. apply Nat.div_small. lia. }
  unfold count_init in Hcnt. destruct (pymax_list y) as [mx|] eqn:Emx; [|discriminate]. simpl in Hcnt.
  injection Hcnt as Hcnt.
  apply append_sets in H as (finite & T & Xf & EX & Ey & _ & Hcl & HX & Hnf & H).
  cbn [batch_X batch_y a_X a_y g_Xall g_yall new_gpr app] in *.
  assert (o_n_initial o <= count_true finite) as Hcount.
  { rewrite <- Hcnt in Hle. etransitivity; [exact Hle|]. destruct (c_classifier c) eqn:Ec.
    - apply classify_ok in Hcl as (_ & HT & HL1 & HL2); auto. apply filter_le_labels; auto.
      intros j b v Hb Hv Hf. apply (HL2 j b v Hb Hv).
      eapply init_within; eauto.
    - unfold classify in Hcl. rewrite Ec in Hcl. injection Hcl as <- _.
      unfold count_true. rewrite (filter_every (fun b : bool => b)); [rewrite repeat_length; apply filter_le|].
      intros b Hb. apply repeat_spec in Hb. auto. }
  pose proof (classify_length _ _ _ _ Hcl) as HL.
  assert (new_finite c y finite = count_true finite) as Enf.
  { unfold new_finite. destruct (c_classifier c) eqn:Ec.
    - rewrite <- HL. unfold py_last. destruct (length finite =? 0); [auto|]. rewrite Nat.sub_diag. reflexivity.
    - unfold classify in Hcl. rewrite Ec in Hcl. injection Hcl as <- _. reflexivity. }
  split; [|auto]. unfold n_finite. destruct H as [(H & _)|(_ & _ & ->)]; [lia|].
  rewrite mask_length; auto.
Qed.

(** The number of evaluations: whole rounds of [ceil(needed / size)] points for each process, where
    [needed] is [n_initial] less the number of points the GP has, so that each process exceeds
    [max_initial] by less than one round. *)
Theorem C50_evaluations :
  forall i g g' ev r, size <> 0 -> do_initial_training e c o size verbose i g = (g', ev, r) ->
    let needed := o_n_initial o - length (g_y g) in
    length ev <= size * (o_max_initial o + (ceil_div needed size - 1))
    /\ (size = 1 -> length ev <= o_max_initial o + (needed - 1)).
Proof.
  intros i g g' ev r Hs H. cbv zeta. apply init_evals in H. set (need := o_n_initial o - length (g_y g)) in *.
  destruct (Nat.eq_dec (ceil_div need size) 0) as [E|E].
  { rewrite E in H. rewrite Nat.mul_0_r, Nat.mul_0_r in H. lia. }
  destruct (ceil_div_mul (o_max_initial o) (ceil_div need size) E) as [_ L].
  assert (length ev <= size * (o_max_initial o + (ceil_div need size - 1))) as H1 by nia.
  split; [auto|]. intros ->. assert (ceil_div need 1 = need) as E1; [|rewrite E1 in H1; lia].
  unfold ceil_div. rewrite Nat.add_sub, Nat.div_1_r. auto.
Qed.

(** If the posterior is zero everywhere it draws all the rounds and raises. *)
Lemma all_minus_inf_count y : (forall v, In v y -> v = NInf) -> y <> [] -> count_init c y = Ok 0.
Proof.
  intros H Hy. unfold count_init. destruct (pymax_list_ok y Hy) as [m Em]. rewrite Em. cbn [bind]. f_equal.
  assert (no_nan y) as Hn. { intros Hi. apply H in Hi. discriminate. }
  apply pymax_list_spec in Em as (Hm & _); auto. apply H in Hm. subst m.
  apply length_zero_iff_nil. apply filter_none. intros v Hv. rewrite (H v Hv). unfold init_finite.
  destruct (c_classifier c); [|reflexivity]. cbn. destruct (c_diff c); reflexivity.
Qed.
Lemma init_loop_all_inf (i : init_input pt theta) needed npp : (forall x, truth_init i x = NInf) -> 1 <= needed -> 1 <= npp -> size <> 0 ->
  forall left k X y, (forall v, In v y -> v = NInf) ->
  exists X' y', init_loop c size i needed npp k left X y = (X', Ok (y', false)) /\ X' = X ++ drawn size i npp k left.
Proof.
  intros Ht Hn Hp Hs. induction left as [|left IH]; intros k X y Hy; cbn [init_loop].
  - exists X, y. split; [auto|]. cbn. rewrite app_nil_r. auto.
  - assert (forall v, In v (y ++ map (truth_init i) (init_round size i npp k)) -> v = NInf) as Hy'.
    { intros v Hv. apply in_app_or in Hv as [Hv|Hv]; [auto|]. apply in_map_iff in Hv as (x & <- & _). auto. }
    rewrite all_minus_inf_count; auto.
    + destruct (Nat.leb_spec needed 0); [lia|].
      destruct (IH (S k) (X ++ init_round size i npp k) _ Hy') as (X' & y' & E & EX).
      exists X', y'. split; [auto|]. rewrite EX. unfold drawn. simpl. rewrite app_assoc. auto.
    + intros E. apply (f_equal (@length num)) in E. rewrite app_length, map_length, init_round_length in E. simpl in E.
      destruct size; [congruence|]. simpl in E. lia.
Qed.
Theorem C50_all_infinite :
  forall i pX pY n, size <> 0 -> 1 <= o_n_initial o -> (forall x, truth_init i x = NInf) ->
    exists ev, do_initial_training e c o size verbose i (new_gpr pX pY n) = (new_gpr pX pY n, ev, Err RuntimeError)
      /\ size * o_max_initial o <= length ev.
Proof.
  intros i pX pY n Hs Hn Ht. unfold do_initial_training. cbn [g_y new_gpr length Nat.ltb Nat.leb]. rewrite Nat.sub_0_r.
  pose proof (ceil_div_pos (o_n_initial o) size Hs ltac:(lia)) as Hp.
  destruct (Nat.eqb_spec (ceil_div (o_n_initial o) size) 0) as [E|E]; [lia|].
  destruct (init_loop_all_inf i (o_n_initial o) (ceil_div (o_n_initial o) size) Ht Hn Hp Hs
    (ceil_div (o_max_initial o) (ceil_div (o_n_initial o) size)) 0 [] [] ltac:(intros v []))
    as (X' & y' & -> & ->).
  cbn [length skipn app]. eexists. split; [reflexivity|]. rewrite drawn_length.
  destruct (ceil_div_mul (o_max_initial o) (ceil_div (o_n_initial o) size) E) as [L _]. nia.
Qed.
End C50.
Print Assumptions C50_enough.
Print Assumptions C50_evaluations.
Print Assumptions C50_all_infinite.

(** ** Concrete cases, in the small environment of TGpr: points are integers. *)
Definition demo_truth (x : Z) : num := if (x <? 0)%Z then NInf else nz x.
Definition demo_init (draw : nat -> nat -> nat -> Z) : init_input Z nat := mkInit draw demo_truth demo_kw.
Definition demo_opts (n_initial max_initial max_total npa : nat) : options :=
  mkOptions n_initial max_initial max_total max_total npa 2 1 2.
(** The first round of two processes brings two points each, one of them infinite: three of the four are finite. *)
Example C50_example :
  let draw := fun _ r j => (Z.of_nat (2 * r + j) - 1)%Z in
  exists g, do_initial_training demo (demo_c true 1) (demo_opts 3 6 20 2) 2 true (demo_init draw) demo_new
      = (g, [-1; 0; 1; 2]%Z, Ok tt)
    /\ n_finite g = 3 /\ n_total (demo_c true 1) g = 4.
Proof. eexists. split; [vm_compute; reflexivity|]. vm_compute. auto. Qed.

(** More than [max_initial] evaluations: with [n_initial = 2] and [max_initial = 3], two rounds of two. *)
Theorem C50_max_initial_refuted :
  let draw := fun (k : nat) (_ j : nat) => if k =? 0 then (-1)%Z else Z.of_nat j in
  exists g ev, do_initial_training demo (demo_c true 1) (demo_opts 2 3 3 1) 1 true (demo_init draw) demo_new = (g, ev, Ok tt)
    /\ length ev = 4 /\ o_max_initial (demo_opts 2 3 3 1) = 3.
Proof. cbv zeta. do 2 eexists. split; [vm_compute; reflexivity|]. auto. Qed.
(** With 4 processes, four times [max_initial]. *)
Theorem C50_max_initial_processes_refuted :
  let draw := fun _ _ _ => (-1)%Z in
  exists g ev, do_initial_training demo (demo_c true 1) (demo_opts 4 10 10 1) 4 true (demo_init draw) demo_new
      = (g, ev, Err RuntimeError) /\ length ev = 40.
Proof. cbv zeta. do 2 eexists. split; [vm_compute; reflexivity|]. auto. Qed.
(** Fewer than [n_initial] finite points: the surrogate was given two points; [n_initial = 3] asks for
    one more, which is so much higher that the other two are infinite from then on. *)
Definition pretrained : gpr Z Z unit unit unit nat unit :=
  fst (do_all demo (demo_c true 1) [OAppend (add [0; 1]%Z [nz 0; nz 1] FTrue true)] demo_new).
Theorem C50_pretrained_refuted :
  runs demo (demo_c true 1) demo_new [OAppend (add [0; 1]%Z [nz 0; nz 1] FTrue true)] pretrained
  /\ n_finite pretrained = 2
  /\ exists g, do_initial_training demo (demo_c true 1) (demo_opts 3 10 10 1) 1 true
          (demo_init (fun _ _ _ => 100%Z)) pretrained = (g, [100]%Z, Ok tt)
       /\ n_finite g = 1 /\ o_n_initial (demo_opts 3 10 10 1) = 3.
Proof.
  split; [apply do_all_runs; vm_compute; reflexivity|]. split; [reflexivity|].
  eexists. split; [vm_compute; reflexivity|]. vm_compute. auto.
Qed.
(** The points that the surrogate had are appended a second time, so that it has them twice. *)
Theorem C50_duplicates_refuted :
  exists g, do_initial_training demo (demo_c true 1) (demo_opts 3 10 10 1) 1 true
          (demo_init (fun _ _ _ => 2%Z)) pretrained = (g, [2]%Z, Ok tt)
       /\ g_X g = [0; 1; 0; 1; 2]%Z /\ n_total (demo_c true 1) g = 5.
Proof. eexists. split; [vm_compute; reflexivity|]. vm_compute. auto. Qed.
(** With enough points already there and little output asked for, a division by zero. *)
Theorem C50_pretrained_quiet_refuted :
  do_initial_training demo (demo_c true 1) (demo_opts 2 10 10 1) 1 false (demo_init (fun _ _ _ => 2%Z)) pretrained
  = (pretrained, [], Err ZeroDivisionError).
Proof. reflexivity. Qed.
Print Assumptions C50_pretrained_refuted.

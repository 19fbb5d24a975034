(** Lemmas about the initial training. *)
From Verif Require Import SRun PMpi PSvm PGpr PGpr2 PGpr3 PRun.
Set Default Goal Selector "!".

Lemma ceil_div_pos a b : b <> 0 -> a <> 0 -> 1 <= ceil_div a b.
Proof. intros Hb Ha. unfold ceil_div. apply Nat.div_le_lower_bound; lia. Qed.
Lemma ceil_div_zero a b : b <> 0 -> ceil_div a b = 0 -> a = 0.
Proof. intros Hb H. destruct (Nat.eq_dec a 0) as [|Ha]; auto. pose proof (ceil_div_pos a b Hb Ha). lia. Qed.
(** Rounding up to a multiple. *)
Lemma ceil_div_mul a b : b <> 0 -> a <= ceil_div a b * b /\ ceil_div a b * b <= a + (b - 1).
Proof.
  intros Hb. unfold ceil_div. pose proof (Nat.div_mod (a + b - 1) b Hb) as E.
  pose proof (Nat.mod_upper_bound (a + b - 1) b Hb) as L. nia.
Qed.

Section Init.
Context {pt pt_ PX PY model theta box : Type}.
Variable e : env pt pt_ PX PY model theta box.
Variable c : config theta.
Variable o : options.
Variables (size : nat) (verbose : bool).
Notation gpr := (gpr pt pt_ PX PY model theta box).
Implicit Types (g : gpr).

Lemma init_round_length (i : init_input pt theta) npp k : length (init_round size i npp k) = size * npp.
Proof.
  unfold init_round. assert (forall l, length (concat (map (fun r => map (fun j => draw_init i k r j) (seq 0 npp)) l))
    = length l * npp) as H.
  { induction l as [|r l IH]; simpl; [auto|]. rewrite app_length, map_length, seq_length, IH. auto. }
  rewrite H, seq_length. reflexivity.
Qed.
Definition drawn (i : init_input pt theta) npp k m : list pt := flat_map (init_round size i npp) (seq k m).
Lemma drawn_length i npp k m : length (drawn i npp k m) = m * (size * npp).
Proof.
  unfold drawn. revert k. induction m as [|m IH]; intros k; simpl; [auto|].
  rewrite app_length, IH, init_round_length. reflexivity.
Qed.
Lemma init_loop_spec i needed npp : forall left k X y X' r,
  init_loop c size i needed npp k left X y = (X', r) ->
  exists m, m <= left /\ X' = X ++ drawn i npp k m
    /\ forall y' b, r = Ok (y', b) -> y' = y ++ map (truth_init i) (drawn i npp k m)
       /\ (b = true -> 1 <= m /\ exists n, count_init c y' = Ok n /\ needed <= n)
       /\ (b = false -> m = left).
Proof.
  induction left as [|left IH]; intros k X y X' r H; cbn [init_loop] in H.
  - injection H as <- <-. exists 0. cbn. rewrite app_nil_r. split; [auto|]. split; [auto|].
    intros y' b E. injection E as <- <-. rewrite app_nil_r. split; [auto|]. split; [discriminate|auto].
  - set (new := init_round size i npp k) in *.
    destruct (count_init c (y ++ map (truth_init i) new)) as [n|x] eqn:Ec.
    2: { injection H as <- <-. exists 1. unfold drawn. simpl. fold new. rewrite app_nil_r.
         split; [lia|]. split; [auto|]. discriminate. }
    destruct (Nat.leb_spec needed n) as [L|L].
    + injection H as <- <-. exists 1. unfold drawn. simpl. fold new. rewrite app_nil_r.
      split; [lia|]. split; [auto|]. intros y' b E. injection E as <- <-. split; [auto|]. split; [|discriminate].
      intros _. split; [auto|]. eauto.
    + apply IH in H as (m & Hm & -> & Hr). exists (S m). unfold drawn in *. simpl. fold new.
      split; [lia|]. rewrite app_assoc. split; [auto|]. intros y' b E. destruct (Hr y' b E) as (-> & H1 & H2).
      rewrite map_app, app_assoc. split; [auto|]. split; [|intros Eb; rewrite H2; auto].
      intros Eb. destruct (H1 Eb) as [_ H3]. split; [lia|auto].
Qed.

Notation needed g := (o_n_initial o - length (g_y g)).
Notation npp g := (ceil_div (needed g) size).
(** What a call that returns did. *)
Lemma init_ok i g g' ev : do_initial_training e c o size verbose i g = (g', ev, Ok tt) ->
  (needed g = 0 \/ size = 0) /\ g' = g /\ ev = []
  \/ exists m n, 1 <= m <= ceil_div (o_max_initial o) (npp g) /\ npp g <> 0
     /\ ev = drawn i (npp g) 0 m
     /\ let X := (if 0 <? length (g_y g) then g_X g else []) ++ ev in
        let y := g_y g ++ map (truth_init i) ev in
        count_init c y = Ok n /\ needed g <= n
        /\ append_to_data e c (mkAppend (Some X) (Some y) NoNoise FTrue true (fit_init i)) g = (g', Ok tt).
Proof.
  unfold do_initial_training. destruct (Nat.eqb_spec (npp g) 0) as [E|E].
  - intros H. injection H as <- <- _. left. split; [|auto].
    destruct (Nat.eq_dec size 0); [auto|]. left. eapply ceil_div_zero; eauto.
  - assert ((if 0 <? length (g_y g) then g_y g else []) = g_y g) as ->.
    { destruct (g_y g); reflexivity. }
    set (X0 := if 0 <? length (g_y g) then g_X g else []).
    destruct (init_loop c size i (needed g) (npp g) 0 (ceil_div (o_max_initial o) (npp g)) X0 (g_y g)) as [X r] eqn:El.
    apply init_loop_spec in El as (m & Hm & -> & Hr).
    rewrite skipn_app, skipn_all, Nat.sub_diag. cbn [app skipn].
    destruct r as [[y []]|x]; [|discriminate|discriminate].
    destruct (Hr y true eq_refl) as (-> & H1 & _). destruct (H1 eq_refl) as (H2 & n & H3 & H4).
    set (a := mkAppend _ _ _ _ _ _). destruct (append_to_data e c a g) as [g1 r1] eqn:Ea.
    intros H. injection H as -> <- ->. subst a.
    right. exists m, n. cbv zeta. repeat split; auto.
Qed.
(** The number of evaluations, whether it returns or not. *)
Lemma init_evals i g g' ev r : do_initial_training e c o size verbose i g = (g', ev, r) ->
  length ev <= ceil_div (o_max_initial o) (npp g) * (size * npp g).
Proof.
  unfold do_initial_training. destruct (Nat.eqb_spec (npp g) 0) as [E|E].
  - intros H. injection H as <- <- _. simpl. lia.
  - set (X0 := if 0 <? length (g_y g) then g_X g else []). set (y0 := if 0 <? length (g_y g) then g_y g else []).
    destruct (init_loop c size i (needed g) (npp g) 0 (ceil_div (o_max_initial o) (npp g)) X0 y0) as [X r0] eqn:El.
    apply init_loop_spec in El as (m & Hm & -> & _).
    rewrite skipn_app, skipn_all, Nat.sub_diag. cbn [app skipn].
    assert (length (drawn i (npp g) 0 m) <= ceil_div (o_max_initial o) (npp g) * (size * npp g)) as Hd.
    { rewrite drawn_length. apply Nat.mul_le_mono_r. auto. }
    destruct r0 as [[y []]|x].
    + set (a := mkAppend _ _ _ _ _ _). destruct (append_to_data e c a g). intros H. injection H as <- <- _. auto.
    + intros H. injection H as <- <- _. auto.
    + intros H. injection H as <- <- _. auto.
Qed.

Variable Hlen : forall p y y', trY e p y = Ok y' -> length y' = length y.
Lemma init_total i g g' ev : size <> 0 -> n_total c g <= length (g_yall g) ->
  do_initial_training e c o size verbose i g = (g', ev, Ok tt) ->
  n_total c g + length ev <= n_total c g' <= length (g_yall g')
  /\ (g_yall g = [] -> g_y g = [] -> n_total c g' = length (if o_n_initial o =? 0 then [] else ev)).
Proof.
  intros Hs Hc H. apply init_ok in H as [(H & -> & ->)|(m & n & Hm & Hn & -> & Hcnt & Hle & H)].
  - split; [simpl; lia|]. intros E E2. rewrite E2 in H. simpl in H. assert (o_n_initial o = 0) as -> by lia.
    rewrite E in Hc. simpl in *. lia.
  - cbv zeta in *. set (ev := drawn i (npp g) 0 m) in *.
    assert (g_y g ++ map (truth_init i) ev <> []) as Hne.
    { intros E. apply app_eq_nil in E as [_ E]. apply map_eq_nil in E. assert (length ev = 0) as L by (rewrite E; auto).
      unfold ev in L. rewrite drawn_length in L. apply Nat.mul_eq_0 in L as [L|L]; [lia|].
      apply Nat.mul_eq_0 in L as [L|L]; lia. }
    assert (n_total c g' = length (g_yall g) + length (g_y g ++ map (truth_init i) ev)) as Ht.
    { eapply append_total; [exact Hlen| | | | |exact H]; try reflexivity. exact Hne. }
    apply append_sets in H as (_ & _ & _ & _ & Ey & _). cbn [batch_y a_y] in Ey.
    rewrite Ht, Ey, !app_length, map_length. split; [lia|].
    intros E1 E2. rewrite E1, E2. simpl. destruct (o_n_initial o =? 0) eqn:E0; [|auto].
    apply Nat.eqb_eq in E0. rewrite E0 in Hn. cbn in Hn. unfold ceil_div in Hn. exfalso. apply Hn.
    apply Nat.div_small. lia.
Qed.

(** Finite for the initial training is within the threshold for the surrogate. *)
Lemma init_within y m T v : no_nan y -> pymax_list y = Ok m -> c_classifier c = true ->
  threshold_in_use y (c_keep c) (c_diff c) T -> init_finite c (nsub m v) = true -> within y T v.
Proof.
  intros Hn Hm Hc HT H. apply pymax_list_spec in Hm as (Hin & Hnan & Hmax); auto.
  unfold init_finite in H. rewrite Hc in H. unfold is_finite_raw in H. cbn [map forallb] in H.
  rewrite andb_true_r in H. apply andb_true_iff in H as [H1 H2].
  assert (nleb (c_diff c) T = true) as HdT.
  { assert (isnan (c_diff c) = false) as Hd.
    { destruct (c_diff c); auto. }
    destruct HT as [[_ ->]|(_ & b & w & _ & _ & ->)]; [apply nleb_refl; auto|].
    unfold pymax. destruct (nltb (c_diff c) _) eqn:E; [|apply nleb_refl; auto].
    destruct (c_diff c), (nadd _ _); simpl in *; auto; try discriminate. apply qleb_le. apply qltb_lt in E. qc. }
  destruct m as [| |qm|], v as [| |q|]; try discriminate.
  split; [eauto|]. intros w Hw. specialize (Hmax w Hw).
  destruct w as [| |qw|]; try discriminate; destruct (c_diff c) as [| |d|], T as [| |t|]; simpl in *; auto; try discriminate.
  apply qleb_le. apply qleb_le in H1. apply qleb_le in HdT. apply qleb_le in Hmax. change (qc_of_Z 0) with 0%Qc in H1. qc.
Qed.
End Init.

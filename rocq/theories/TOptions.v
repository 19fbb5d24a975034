(** Property C52: which options the [Runner] accepts. *)
From Verif Require Import MRun TTools.
Set Default Goal Selector "!".

Lemma bind_ok {A B} (r : res A) (k : A -> res B) b : bind r k = Ok b -> exists a, r = Ok a /\ k a = Ok b.
Proof. destruct r as [a|]; [eauto|discriminate]. Qed.
Lemma sane_ok v n : sane v = Ok n -> (1 <= v)%Z /\ 1 <= n /\ n = Z.to_nat (Z.min 1000000000 v).
Proof. unfold sane. destruct (Z.leb_spec (Z.min 1000000000 v) 0); [discriminate|]. intros H0. injection H0 as <-. lia. Qed.
Lemma sane_pos v : (1 <= v)%Z -> sane v = Ok (Z.to_nat (Z.min 1000000000 v)).
Proof. intros H. unfold sane. destruct (Z.leb_spec (Z.min 1000000000 v) 0); [lia|auto]. Qed.

Lemma sane_bounds v n : sane v = Ok n -> 1 <= n /\ (Z.of_nat n <= 1000000000)%Z /\ ((2 <= v)%Z -> 2 <= n).
Proof. intros H. apply sane_ok in H as (H1 & H2 & ->). split; [auto|]. clear H2. rewrite Z2Nat.id by lia. split; lia. Qed.

Section C52.
Variable pyfloat : string -> option num.
Variable pow : num -> num -> num.
(** The value an option stands for. *)
Definition reads (d : nat) (v : option pyvalue) (default : Z) (x : Z) : Prop :=
  match v with
  | None => x = default
  | Some v => get_Xnumber pyfloat pow Z py_int v "d" (nz (Z.of_nat d)) = Ok x
  end.

(** If the options are accepted, the budgets are consistent and everything that is counted is positive. *)
Theorem C52_consistent :
  forall d size w o, construct_options pyfloat pow d size w = Ok o ->
    2 <= o_n_initial o <= o_max_initial o /\ o_max_initial o <= o_max_total o
    /\ o_n_initial o <= o_max_finite o <= o_max_total o
    /\ 1 <= o_npa o /\ 1 <= o_full o /\ 1 <= o_simple o
    /\ (Z.of_nat (o_max_total o) <= 1000000000)%Z.
Proof.
  intros d size w o H. unfold construct_options in H.
  repeat (apply bind_ok in H as (? & ? & H)).
  repeat match goal with E : sane ?v = Ok _ |- _ => apply sane_bounds in E as (? & ? & ?) end.
  repeat match type of H with (if ?b then _ else _) = _ => destruct b eqn:?; [discriminate|] end.
  repeat match goal with E : (_ <? _) = false |- _ => apply Nat.ltb_ge in E | E : (_ =? _) = false |- _ => apply Nat.eqb_neq in E end.
  injection H as <-. cbn [o_n_initial o_max_initial o_max_total o_max_finite o_npa o_full o_simple].
  match goal with E : (2 <= Z.max ?a 2)%Z -> _ |- _ => specialize (E (Z.le_max_r a 2)) end.
  repeat match goal with E : (_ -> 2 <= _) |- _ => clear E | E : get_opt _ _ _ _ _ = _ |- _ => clear E end.
  repeat (split; [solve [auto]|]).
  match goal with |- context [if ?b then _ else _] => destruct b eqn:Eb; [|auto 10] end.
  apply andb_true_iff in Eb as [Eb _]. apply Nat.leb_le in Eb.
  split; [|auto]. match goal with |- 1 <= ?n - ?r => set (rr := r) in *; clearbody rr; assert (1 <= n) by assumption end.
  clear - Eb H. lia.
Qed.
(** What is used is what was asked for, capped at 10^9; [n_initial] is at least 2, the periods at least 1;
    [n_points_per_acq] may be lowered to a multiple of the number of processes, by at most 20%. *)
Theorem C52_values :
  forall d size w o, construct_options pyfloat pow d size w = Ok o ->
    exists n_initial max_initial max_total max_finite npa full simple,
      let cap x := Z.to_nat (Z.min 1000000000 x) in
      let dz := Z.of_nat d in
      reads d (w_n_initial w) (3 * dz) n_initial /\ o_n_initial o = cap (Z.max n_initial 2)
      /\ reads d (w_max_initial w) (Z.sqrt (900 * dz ^ 3)) max_initial /\ o_max_initial o = cap max_initial
      /\ reads d (w_max_total w) (Z.max max_initial (Z.sqrt (4900 * dz ^ 3))) max_total /\ o_max_total o = cap max_total
      /\ reads d (w_max_finite w) max_total max_finite /\ o_max_finite o = cap max_finite
      /\ reads d (w_npa w) dz npa
      /\ (o_npa o = cap npa
          \/ (exists k, o_npa o = k * size) /\ o_npa o < cap npa < o_npa o + size /\ 5 * (cap npa - o_npa o) <= cap npa)
      /\ reads d (w_full w) (Z.sqrt (4 * dz)) full /\ o_full o = cap (Z.max full 1)
      /\ reads d (w_simple w) 1 simple /\ o_simple o = cap (Z.max simple 1)
      /\ reads d (w_giveup w) 2 (o_giveup o).
Proof.
  intros d size w o H. unfold construct_options in H.
  assert (forall v default x, get_opt pyfloat pow d v default = Ok x -> reads d v default x) as Hg.
  { intros v default x E. unfold get_opt, reads in *. destruct v; [auto|congruence]. }
  apply bind_ok in H as (n_initial & G1 & H). apply bind_ok in H as (max_initial & G2 & H).
  apply bind_ok in H as (max_total & G3 & H). apply bind_ok in H as (max_finite & G4 & H).
  apply bind_ok in H as (npa & G5 & H). apply bind_ok in H as (full & G6 & H).
  apply bind_ok in H as (simple & G7 & H). apply bind_ok in H as (giveup & G8 & H).
  apply Hg in G1, G2, G3, G4, G5, G6, G7, G8.
  exists n_initial, max_initial, max_total, max_finite, npa, full, simple. cbv zeta.
  repeat (apply bind_ok in H as (? & ? & H)).
  repeat match goal with E : sane _ = Ok _ |- _ => apply sane_ok in E as (? & ? & ?) end.
  repeat match type of H with (if ?b then _ else _) = _ => destruct b eqn:?; [discriminate|] end.
  injection H as <-. cbn [o_n_initial o_max_initial o_max_total o_max_finite o_npa o_full o_simple o_giveup].
  match goal with E : (size =? 0) = false |- _ => apply Nat.eqb_neq in E end.
  repeat match goal with E : ?x = Z.to_nat _ |- _ => rewrite <- E end.
  do 9 (split; [solve [auto]|]). split; [|solve [auto]].
  match goal with |- (if ?b then ?m - ?r else _) = _ \/ _ => destruct b eqn:Eb; [right|left; reflexivity]; set (n := m) in * end.
  apply andb_true_iff in Eb as [E1 E2]. apply Nat.leb_le in E1. apply negb_true_iff, Nat.eqb_neq in E2.
  assert (size <> 0) as Hs by assumption. pose proof (Nat.div_mod n size Hs) as D. pose proof (Nat.mod_upper_bound n size Hs) as U.
  clearbody n. clear - D U E1 E2. set (r := n mod size) in *. clearbody r. set (q := n / size) in *. clearbody q.
  split; [exists q; lia|]. lia.
Qed.
(** Without any option, every number of dimensions and processes is accepted. *)
Theorem C52_defaults :
  forall d size, 1 <= d -> 1 <= size ->
    exists o, construct_options pyfloat pow d size (mkRaw None None None None None None None None) = Ok o.
Proof.
  intros d size Hd Hsz. unfold construct_options. cbn [w_n_initial w_max_initial w_max_total w_max_finite w_npa w_full w_simple w_giveup get_opt bind].
  set (dz := Z.of_nat d). assert (1 <= dz)%Z as Hz by (unfold dz; lia).
  assert (30 * dz <= Z.sqrt (900 * dz ^ 3))%Z as H1.
  { assert (dz ^ 3 = dz * dz * dz)%Z as -> by ring. apply Z.sqrt_le_square; nia. }
  set (a := Z.sqrt (900 * dz ^ 3)) in *. set (b := Z.sqrt (4900 * dz ^ 3)). clearbody a b.
  rewrite (sane_pos (Z.max (3 * dz) 2)) by lia. rewrite (sane_pos a) by lia. cbn [bind].
  rewrite !(sane_pos (Z.max a b)) by lia. cbn [bind].
  rewrite (sane_pos dz) by lia. rewrite (sane_pos (Z.max (Z.sqrt (4 * dz)) 1)) by lia. cbn [bind].
  rewrite (sane_pos (Z.max 1 1)) by lia. cbn [bind].
  assert (forall x y, (0 <= x <= y)%Z -> (Z.to_nat (Z.min 1000000000 y) <? Z.to_nat (Z.min 1000000000 x)) = false) as Hle.
  { intros x y Hxy. apply Nat.ltb_ge, Z2Nat.inj_le; lia. }
  rewrite !Hle by lia.
  destruct (Nat.eqb_spec size 0); [lia|]. eauto.
Qed.
(** An infinite value of any option ("never" for the periods, as the documentation suggests, or no limit)
    is not accepted: the call raises OverflowError. *)
Theorem C52_infinite_refuted :
  forall d size, 1 <= d -> 1 <= size ->
    construct_options pyfloat pow d size (mkRaw None None None None None (Some (PNum PInf)) None None) = Err OverflowError
    /\ construct_options pyfloat pow d size (mkRaw None None (Some (PNum PInf)) None None None None None) = Err OverflowError.
Proof. intros. split; reflexivity. Qed.
End C52.
Print Assumptions C52_consistent.
Print Assumptions C52_values.
Print Assumptions C52_defaults.
Print Assumptions C52_infinite_refuted.

(** Four dimensions, 4 processes, 13 points per step: lowered to 12. *)
Example C52_example :
  construct_options read_digits square 4 4 (mkRaw None None None None (Some (PNum (nz 13))) None None None)
  = Ok (mkOptions 12 240 560 560 12 4 1 2)
  /\ construct_options read_digits square 4 4 (mkRaw None None (Some (PStr "50d")) None None None None None) = Err ValueError
  /\ construct_options read_digits square 4 4 (mkRaw None None (Some (PNum (nz 320))) None (Some (PStr "2d")) None None None)
     = Ok (mkOptions 12 240 320 320 8 4 1 2).
Proof. vm_compute. auto. Qed.
(** Not everything that is not positive is rejected: [n_initial = -5] means 2. *)
Example C52_negative_accepted :
  construct_options read_digits square 4 1 (mkRaw (Some (PNum (nz (-5)))) None None None None None None None)
  = Ok (mkOptions 2 240 560 560 4 4 1 2).
Proof. vm_compute. reflexivity. Qed.

(** C157: the number of evaluations of the surrogate reported for an acquisition. *)
From Coq Require Import List ZArith Qcanon Lia.
From Verif Require Import Base Num MProgress MAcqEvals TProgress.
Import ListNotations.
Set Default Goal Selector "!".
Set Bullet Behavior "Strict Subproofs".
Open Scope Z_scope.

(** What was evaluated: by all processes, and by the main one. *)
Definition made (points : list (list Z * Z)) : Z := zsum (map (fun p => zsum (fst p) + snd p) points).
Definition made_main (points : list (list Z * Z)) : Z := zsum (map (fun p => hd 0 (fst p) + snd p) points).
(** Points optimised by [n] processes. *)
Definition shaped (n : nat) (points : list (list Z * Z)) : Prop := Forall (fun p => length (fst p) = n) points.

Lemma nz_add a b : nadd (nz a) (nz b) = nz (a + b).
Proof. unfold nz, nadd. f_equal. apply (proj2 (Qceq_this _ _)). rewrite this_plus. unfold qc_of_Z. rewrite !this_Q2Qc, QArith_base.inject_Z_plus. reflexivity. Qed.
Lemma sum_nz l : combine_values Sum (map nz l) = match l with [] => NaN | _ => nz (zsum l) end.
Proof.
  unfold combine_values. assert (filter isfin (map nz l) = map nz l) as -> by (induction l as [|x l IH]; [reflexivity|cbn [map filter]; change (isfin (nz x)) with true; cbv iota; rewrite IH; reflexivity]).
  destruct l as [|x l]; [reflexivity|]. cbn [map]. unfold sum_list. change (nz x :: map nz l) with (map nz (x :: l)).
  assert (forall k a, fold_left nadd (map nz k) (nz a) = nz (a + zsum k)) as F.
  { induction k as [|y k IH]; intros a; unfold zsum in *; cbn [map fold_left fold_right]; [f_equal; lia|]. rewrite nz_add, IH. f_equal. lia. }
  rewrite F. reflexivity.
Qed.
Lemma hd_bcast l : hd 0 (bcast_counter l) = hd 0 l.
Proof. destruct l; reflexivity. Qed.
Lemma one_point_eq counters p : length (fst p) = length counters -> one_point counters p = map (fun _ => hd 0 counters + hd 0 (fst p) + snd p) counters.
Proof.
  intros H. destruct p as [e n]. cbn [fst snd] in *. unfold one_point, optimise, believe, bcast_counter. destruct counters as [|c l], e as [|x e]; try discriminate H; [reflexivity|].
  cbn [combine map hd fst snd]. f_equal. cbn [length] in H. apply eq_add_S in H. revert l H. generalize (c + x + n). intros k.
  intros l. clear. revert l. induction e as [|y e IH]; intros [|z l] H; try discriminate H; [reflexivity|]. cbn [combine map]. f_equal. apply IH. apply eq_add_S. exact H.
Qed.
(** Afterwards all surrogates have the counter of the main process. *)
Theorem C157_after : forall before points, shaped (length before) points ->
  multi_add_counters before points = map (fun _ => hd 0 before + made_main points) before.
Proof.
  intros before points H. unfold multi_add_counters, made_main.
  assert (forall c, length c = length before -> c = map (fun _ => hd 0 c) before ->
            fold_left one_point points c = map (fun _ => hd 0 c + zsum (map (fun p => hd 0 (fst p) + snd p) points)) before) as F.
  { induction H as [|p points Hp H IH]; intros c Hc Ec.
    - cbn [map fold_left]. rewrite Ec at 1. apply map_ext. intros _. unfold zsum. cbn [fold_right]. lia.
    - cbn [fold_left]. rewrite one_point_eq by congruence. rewrite IH; try (rewrite map_length; congruence).
      + destruct c as [|x c], before as [|b before]; try discriminate Hc; [reflexivity|]. apply map_ext. intros _. unfold zsum. cbn [map hd fold_right]. lia.
      + destruct c as [|x c], before as [|b before]; try discriminate Hc; [reflexivity|]. cbn [map hd]. f_equal. cbn [length] in Hc. apply eq_add_S in Hc. generalize (x + hd 0 (fst p) + snd p). intros k.
        clear - Hc. revert before Hc. induction c as [|y c IHc]; intros [|z l] Hc; try discriminate Hc; [reflexivity|]. cbn [map]. f_equal. apply IHc. apply eq_add_S. exact Hc. }
  rewrite (F (bcast_counter before)).
  - rewrite hd_bcast. reflexivity.
  - unfold bcast_counter. apply map_length.
  - rewrite hd_bcast. reflexivity.
Qed.
(** With one process the number reported is that of all evaluations made. *)
Theorem C157_single : forall b points, shaped 1 points -> reported [b] points = nz (made points).
Proof.
  intros b points H. unfold reported. rewrite C157_after by exact H. cbn [map combine hd]. f_equal. rewrite timer_evals_sum by reflexivity. unfold zsum at 1 2. cbn [fold_right fst snd].
  assert (made_main points = made points) as ->; [|lia]. unfold made, made_main. induction H as [|p points Hp H IH]; [reflexivity|]. unfold zsum in *. cbn [map fold_right]. rewrite IH.
  destruct (fst p) as [|x [|]]; try discriminate Hp. cbn [hd fold_right]. lia.
Qed.
(** With several: the evaluations of the main process times the number of processes, plus what the counters differed by before (as after a check of convergence, which the main process does alone). *)
Theorem C157_reported : forall before points, (2 <= length before)%nat -> shaped (length before) points ->
  reported before points = nz (Z.of_nat (length before) * made_main points + zsum (map (fun b => hd 0 before - b) before)).
Proof.
  intros before points L H. unfold reported. rewrite C157_after by exact H. set (m := made_main points). set (h := hd 0 before).
  assert (map (fun p => nz (timer_evals [fst p] [snd p])) (combine before (map (fun _ => h + m) before)) = map nz (map (fun b => h + m - b) before)) as ->.
  { generalize (h + m). intros k. clear. induction before as [|b l IH]; [reflexivity|]. cbn [map combine]. rewrite IH. apply (f_equal (fun x => x :: _)). cbn [fst snd]. rewrite timer_evals_sum by reflexivity. unfold zsum. cbn [fold_right]. f_equal. lia. }
  assert (combine_values Sum (map nz (map (fun b => h + m - b) before)) = nz (Z.of_nat (length before) * m + zsum (map (fun b => h - b) before))) as E.
  { rewrite sum_nz. destruct before as [|b0 l]; [cbn [length] in L; lia|]. cbn [map]. f_equal. change (zsum (map (fun b => h + m - b) (b0 :: l)) = Z.of_nat (length (b0 :: l)) * m + zsum (map (fun b => h - b) (b0 :: l))).
    clearbody h m. generalize (b0 :: l). clear. intros k. induction k as [|b k IH]; [reflexivity|]. unfold zsum in *. cbn [map fold_right length]. rewrite IH. lia. }
  destruct before as [|b0 [|b1 l]]; cbn [length] in L; try lia. cbn [map] in *. exact E.
Qed.
(** Refuted: it is the number of evaluations of all processes. Evaluations of the other processes are not counted at all: whatever they are, the same is reported; *)
Theorem C157_others_refuted : forall before points points', (2 <= length before)%nat -> shaped (length before) points -> shaped (length before) points' ->
  Forall2 (fun p q => hd 0 (fst p) = hd 0 (fst q) /\ snd p = snd q) points points' -> reported before points = reported before points'.
Proof.
  intros before points points' L H H' E. rewrite !C157_reported by auto. do 3 f_equal. unfold made_main. clear - E. induction E as [|p q l l' [E1 E2] E IH]; [reflexivity|].
  unfold zsum in *. cbn [map fold_right]. rewrite E1, E2, IH. reflexivity.
Qed.
(** it is right exactly if the other processes have made as many on average as the main one, including its predictions at the points found; *)
Theorem C157_right : forall b n points, (2 <= n)%nat -> shaped n points -> reported (repeat b n) points = nz (made points) <-> Z.of_nat n * made_main points = made points.
Proof.
  intros b n points L H. rewrite C157_reported by (rewrite repeat_length; auto). rewrite repeat_length.
  assert (zsum (map (fun x => hd 0 (repeat b n) - x) (repeat b n)) = 0) as ->.
  { destruct n as [|n]; [lia|]. change (hd 0 (repeat b (S n))) with b. generalize (S n). clear. intros n. induction n as [|n IH]; [reflexivity|]. unfold zsum in *. cbn [repeat map fold_right]. rewrite IH. lia. }
  rewrite Z.add_0_r. split; [|intros ->; reflexivity]. intros E. unfold nz in E. injection E as E. unfold qc_of_Z in E. unfold inject_Z in E.
  assert (forall a c : Z, Qred (QArith_base.inject_Z a) = Qred (QArith_base.inject_Z c) -> a = c) as K; [|apply K; exact E].
  intros a c Q. assert (QArith_base.Qeq (QArith_base.inject_Z a) (QArith_base.inject_Z c)) as Q' by (rewrite <- (Qreduction.Qred_correct (QArith_base.inject_Z a)), Q, Qreduction.Qred_correct; reflexivity).
  unfold QArith_base.Qeq in Q'. cbn in Q'. lia.
Qed.
(** evaluations that the main process made before the acquisition, [c] since the surrogate was shared, are counted for each of the other processes. *)
Theorem C157_before_refuted : forall b c n points, (1 <= n)%nat -> shaped (S n) points ->
  reported ((b + c) :: repeat b n) points = nz (Z.of_nat (S n) * made_main points + Z.of_nat n * c).
Proof.
  intros b c n points L H. rewrite C157_reported; [|cbn [length]; rewrite repeat_length; lia|cbn [length]; rewrite repeat_length; exact H].
  cbn [length hd map]. rewrite repeat_length. do 2 f_equal. unfold zsum. cbn [fold_right]. replace (b + c - (b + c)) with 0 by lia. rewrite Z.add_0_l. clear. induction n as [|n IH]; [reflexivity|]. cbn [repeat map fold_right]. rewrite IH, (Nat2Z.inj_succ n), Z.mul_succ_l. lia.
Qed.
Print Assumptions C157_after.
Print Assumptions C157_single.
Print Assumptions C157_reported.
Print Assumptions C157_others_refuted.
Print Assumptions C157_right.
Print Assumptions C157_before_refuted.
(** * Examples *)
(** Two points, three processes: 31 evaluations in the optimisations, 2 at the points found. *)
Example C157_case : let points := [([3; 10; 2], 1); ([4; 6; 6], 1)] in
  shaped 3 points /\ made points = 33 /\ made_main points = 9 /\ multi_add_counters [100; 100; 100] points = [109; 109; 109] /\
  reported [100; 100; 100] points = nz 27 /\ reported [150; 100; 100] points = nz 127 /\ reported [100] [([3], 1); ([4], 1)] = nz 9.
Proof. cbv zeta. split; [repeat constructor|]. repeat split. Qed.

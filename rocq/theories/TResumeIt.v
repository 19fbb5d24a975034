(** C166: the numbers of iterations in runs that are stopped and resumed. *)
From Coq Require Import Lia.
From Verif Require Import MPlotRun.
From Verif Require Import MResumeIt.
Import ListNotations.
Set Default Goal Selector "!".
Set Bullet Behavior "Strict Subproofs".

Lemma session_eq n k : session n k = (mkCounters (k_iteration k + n) (k_rows k + n), map (fun i => mkCounters (k_iteration k + i) (k_rows k + i)) (seq 1 n)).
Proof.
  revert k. induction n as [|n IH]; intros k; [cbn [session seq map]; rewrite !Nat.add_0_r; destruct k; reflexivity|].
  cbn [session]. rewrite IH. unfold next_iteration. cbn [k_iteration k_rows seq map]. rewrite <- (seq_shift n 1), map_map. f_equal; [f_equal; lia|]. f_equal; [f_equal; lia|].
  apply map_ext. intros i. f_equal; lia.
Qed.

(** In a run that is not stopped, iterations are numbered from 1, in step with the rows of the table. *)
Theorem C166_numbers : forall n, sessions [n] = map (fun i => mkCounters i (S i)) (seq 1 n).
Proof. intros n. unfold sessions. cbn [sessions_from]. rewrite session_eq, app_nil_r. apply map_ext. intros i. cbn [k_iteration k_rows trained]. f_equal. Qed.
(** However often it is stopped, each iteration has its own row. *)
Theorem C166_rows : forall ns, map k_rows (sessions ns) = seq 2 (list_sum ns).
Proof.
  intros ns. unfold sessions. change 2 with (S (k_rows trained)). generalize trained. induction ns as [|n ns IH]; intros k; [reflexivity|].
  cbn [sessions_from list_sum fold_right]. rewrite session_eq. rewrite map_app, map_map, IH. cbn [k_rows resumed_counters]. fold (list_sum ns). rewrite seq_app. f_equal.
  assert (forall a m b, map (fun x => a + x) (seq b m) = seq (a + b) m) as G. { intros a m. induction m as [|m IHm]; intros b; [reflexivity|]. cbn [seq map]. rewrite IHm, <- plus_n_Sm. reflexivity. }
  rewrite G. f_equal. lia.
Qed.

Section Fits.
Context {theta : Type}.
Variable c : config theta.
Variable o : options.
Variable size : nat.
Lemma this_iter_period it m every : every <> 0 -> Nat.divide every m -> is_this_iter (m + it) every = is_this_iter it every.
Proof. intros H [k ->]. unfold is_this_iter. rewrite Nat.add_comm, Nat.mod_add by exact H. reflexivity. Qed.
Lemma restarts_period it m : o_full o <> 0 -> o_simple o <> 0 -> Nat.divide (o_full o) m -> Nat.divide (o_simple o) m -> restarts_by_rank c o size (m + it) = restarts_by_rank c o size it.
Proof. intros A B C D. unfold restarts_by_rank. rewrite !this_iter_period by assumption. reflexivity. Qed.
(** If it is always stopped after multiples of both periods, the fits are those of a run that is not stopped. *)
Theorem C166_periods : forall ns, o_full o <> 0 -> o_simple o <> 0 -> Forall (fun n => Nat.divide (o_full o) n /\ Nat.divide (o_simple o) n) ns ->
    fits c o size (sessions ns) = fits c o size (sessions [list_sum ns]).
Proof.
  intros ns A B F. assert (forall m l b, map (fun i => restarts_by_rank c o size (m + i)) (seq b l) = map (restarts_by_rank c o size) (seq (m + b) l)) as S.
  { intros m l. induction l as [|l IH]; intros b; [reflexivity|]. cbn [seq map]. rewrite IH, <- plus_n_Sm. reflexivity. }
  assert (forall m l, Nat.divide (o_full o) m -> Nat.divide (o_simple o) m -> map (restarts_by_rank c o size) (seq (m + 1) l) = map (restarts_by_rank c o size) (seq 1 l)) as P.
  { intros m l Hf Hs. rewrite <- S. apply map_ext. intros i. apply restarts_period; assumption. }
  assert (forall k, k_iteration k = 0 -> fits c o size (sessions_from ns k) = map (restarts_by_rank c o size) (seq 1 (list_sum ns))) as G.
  { induction F as [|n ns [Hf Hs] F IH]; intros k Hk; [reflexivity|]. cbn [sessions_from]. rewrite session_eq. unfold fits in *. rewrite map_app, map_map. cbn [k_iteration]. rewrite Hk. cbn [Nat.add].
    rewrite IH by reflexivity. cbn [list_sum fold_right]. fold (list_sum ns). rewrite seq_app, map_app. f_equal. rewrite (Nat.add_comm 1 n), P by assumption. reflexivity. }
  unfold sessions. rewrite G by reflexivity. cbn [sessions_from]. rewrite session_eq, app_nil_r. unfold fits. rewrite map_map. cbn [k_iteration trained Nat.add]. reflexivity.
Qed.

(** In a run that is not stopped, there is a full fit in the iterations [i] such that [i + 1] is a multiple of the period. *)
Definition full_fit (k : counters) : bool := negb (o_full o =? 0) && is_this_iter (k_iteration k) (o_full o).
Theorem C166_full : forall n, 2 <= o_full o -> length (filter full_fit (sessions [n])) = S n / o_full o.
Proof.
  intros n H. rewrite C166_numbers. set (F := o_full o) in *. assert (F <> 0) as F0 by lia.
  induction n as [|n IH]; [cbn [seq map filter length]; symmetry; apply Nat.div_small; lia|].
  rewrite seq_S, map_app, filter_app, app_length, IH. cbn [map filter Nat.add]. unfold full_fit, is_this_iter. cbn [k_iteration]. fold F.
  assert (F =? 0 = false) as -> by (apply Nat.eqb_neq; exact F0). cbn [negb andb].
  pose proof (Nat.div_mod (S n) F F0) as D. pose proof (Nat.mod_upper_bound (S n) F F0) as U. destruct (S n mod F =? F - 1) eqn:E.
  - apply Nat.eqb_eq in E. cbn [length]. apply (Nat.div_unique (S (S n)) F (S n / F + 1) 0); [lia|]. nia.
  - apply Nat.eqb_neq in E. cbn [length]. rewrite Nat.add_0_r. apply (Nat.div_unique (S (S n)) F (S n / F) (S (S n mod F))); lia.
Qed.
(** Refuted: a resumed run counts from 1 again. If every session stops before its first full fit, there is none, however many iterations there are in all. *)
Theorem C166_never_refuted : forall ns, Forall (fun n => S n < o_full o) ns -> filter full_fit (sessions ns) = [].
Proof.
  intros ns F. unfold sessions. assert (forall k, k_iteration k = 0 -> filter full_fit (sessions_from ns k) = []) as G; [|apply G; reflexivity].
  induction F as [|n ns Hn F IH]; intros k Hk; [reflexivity|]. cbn [sessions_from]. rewrite session_eq, filter_app, IH by reflexivity. rewrite app_nil_r, Hk. cbn [Nat.add].
  assert (forall i, In i (seq 1 n) -> full_fit (mkCounters i (k_rows k + i)) = false) as N.
  { intros i Hi. apply in_seq in Hi. unfold full_fit, is_this_iter. cbn [k_iteration]. rewrite Nat.mod_small by lia. replace (i =? o_full o - 1) with false by (symmetry; apply Nat.eqb_neq; lia). apply Bool.andb_false_r. }
  induction (seq 1 n) as [|i l IHl]; [reflexivity|]. cbn [map filter]. rewrite N by (left; reflexivity). apply IHl. intros j Hj. apply N. right. exact Hj.
Qed.
End Fits.

(** Refuted: corner plots of resumed runs overwrite those of the iterations before, though they are for other iterations. *)
Theorem C166_plots_refuted : forall n m dir opts, 1 <= n -> 1 <= m -> exists i j k k', i <> j /\ nth_error (sessions [n; m]) i = Some k /\ nth_error (sessions [n; m]) j = Some k' /\ k_rows k <> k_rows k'
    /\ file_of dir (k_iteration k) opts Corner = file_of dir (k_iteration k') opts Corner.
Proof.
  intros n m dir opts Hn Hm. exists 0, n, (mkCounters 1 2), (mkCounters 1 (n + 2)). unfold sessions. cbn [sessions_from]. rewrite !session_eq. cbn [trained k_iteration k_rows resumed_counters Nat.add].
  split; [lia|]. split; [destruct n; [lia|reflexivity]|]. split; [|split; [cbn [k_rows]; lia|reflexivity]].
  rewrite nth_error_app2 by (rewrite map_length, seq_length; lia). rewrite map_length, seq_length, Nat.sub_diag. destruct m; [lia|]. cbn [seq map nth_error List.app]. repeat f_equal. lia.
Qed.

(** A period of 4 for full fits, 2 for simple ones, with 3 restarts on 2 processes: twice 4 iterations are as 8; four times 2 have no full fit. *)
Definition ex_options : options := mkOptions 2 2 100 100 2 4 2 2.
Example C166_example : forall (c : config unit), c_restarts c = 3%Z ->
  fits c ex_options 2 (sessions [4; 4]) = [Ok [1; 1]; Ok [0; 0]; Ok [2; 1]; Ok [0; 0]; Ok [1; 1]; Ok [0; 0]; Ok [2; 1]; Ok [0; 0]]
  /\ fits c ex_options 2 (sessions [8]) = fits c ex_options 2 (sessions [4; 4])
  /\ fits c ex_options 2 (sessions [2; 2; 2; 2]) = [Ok [1; 1]; Ok [0; 0]; Ok [1; 1]; Ok [0; 0]; Ok [1; 1]; Ok [0; 0]; Ok [1; 1]; Ok [0; 0]]
  /\ length (filter (full_fit ex_options) (sessions [8])) = 2 /\ filter (full_fit ex_options) (sessions [2; 2; 2; 2]) = []
  /\ sessions [2; 1] = [mkCounters 1 2; mkCounters 2 3; mkCounters 1 4].
Proof. intros c H. unfold fits, restarts_by_rank. rewrite H. repeat split; reflexivity. Qed.
Example C166_plots_example : let name k := file_of "images" (k_iteration k) default_plots Corner in map name (sessions [2; 1]) = ["images/corner_it_001.png"; "images/corner_it_002.png"; "images/corner_it_001.png"]%string.
Proof. reflexivity. Qed.
Print Assumptions C166_numbers.
Print Assumptions C166_rows.
Print Assumptions C166_periods.
Print Assumptions C166_full.
Print Assumptions C166_never_refuted.
Print Assumptions C166_plots_refuted.

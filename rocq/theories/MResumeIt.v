(** Model of the numbers of iterations in runs that are stopped and resumed: [current_iteration] (gpry/run.py:283, 814) and the table of progress (815, 1010, 1071; gpry/progress.py:58-66).
    Sessions are counted by the iterations whose checkpoint was saved. Definitions only. *)
From Verif Require Export MRun.

(** [current_iteration] and the number of rows of the table of progress. *)
Record counters := mkCounters { k_iteration : nat; k_rows : nat }.
(** A new runner after the initial training, which has the first row (line 1071). *)
Definition trained : counters := mkCounters 0 1.
(** Lines 814-815. *)
Definition next_iteration (k : counters) : counters := mkCounters (S (k_iteration k)) (S (k_rows k)).
(** A runner that loads the checkpoint: the table is read (line 258); the number is that of line 283. *)
Definition resumed_counters (k : counters) : counters := mkCounters 0 (k_rows k).
(** [n] iterations, and the counters in each of them. *)
Fixpoint session (n : nat) (k : counters) : counters * list counters :=
  match n with O => (k, []) | S n => let k := next_iteration k in let '(k', l) := session n k in (k', k :: l) end.
(** Sessions of so many iterations each, all but the first resumed from the checkpoint. *)
Fixpoint sessions_from (ns : list nat) (k : counters) : list counters :=
  match ns with [] => [] | n :: ns => let '(k, l) := session n k in l ++ sessions_from ns (resumed_counters k) end.
Definition sessions (ns : list nat) : list counters := sessions_from ns trained.
(** The numbers of restarts of the fits in each iteration, by process (lines 1252-1261). *)
Definition fits {theta} (c : config theta) (o : options) (size : nat) (ks : list counters) : list (res (list nat)) := map (fun k => restarts_by_rank c o size (k_iteration k)) ks.

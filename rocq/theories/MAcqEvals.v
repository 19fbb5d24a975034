(** Model of the number of evaluations of the surrogate reported for an acquisition with [BatchOptimizer]: the counter [n_eval] of the surrogate (gpry/gpr.py:1088, 1296) in [multi_add]
    (gpry/gp_acquisition.py:440-498), the difference taken around it (gpry/run.py:836-844, 880) and the sum over processes (gpry/progress.py:119). Definitions only. *)
From Coq Require Import List ZArith.
From Verif Require Import Base Num MProgress.
Import ListNotations.

(** Lines 446 and 497: the copy of the main process (the first one), with its counter, goes to all. *)
Definition bcast_counter (counters : list Z) : list Z := map (fun _ => hd 0%Z counters) counters.
(** Lines 456-459: each process adds the predictions of its own optimisations. *)
Definition optimise (counters evals : list Z) : list Z := map (fun p => (fst p + snd p)%Z) (combine counters evals).
(** Lines 467-494: the main process predicts at the point found; [n] predictions, one unless the point is appended with the help of more. *)
Definition believe (n : Z) (counters : list Z) : list Z := match counters with [] => [] | c :: l => (c + n)%Z :: l end.
(** One of the points asked for: predictions of each process, and those of the main process afterwards. *)
Definition one_point (counters : list Z) (p : list Z * Z) : list Z := bcast_counter (believe (snd p) (optimise counters (fst p))).
(** Lines 440-498: counters of the surrogates of all processes before; after. *)
Definition multi_add_counters (before : list Z) (points : list (list Z * Z)) : list Z := fold_left one_point points (bcast_counter before).
(** run.py:836-880 and progress.py:119 ([evals_acquire]). With one process there is nothing to sum. *)
Definition reported (before : list Z) (points : list (list Z * Z)) : num :=
  let evals := map (fun p => nz (timer_evals [fst p] [snd p])) (combine before (multi_add_counters before points)) in
  match evals with [e] => e | _ => combine_values Sum evals end.

(** Model of gpry/progress.py: the progress table, its synchronisation among processes, and the counters.

    A cell holds a number; a missing value is NaN. The last column holds a list of numbers in the code, one per
    criterion: here it is one more number, which nothing below computes with. Times are rational numbers. *)
From Coq Require Import List ZArith QArith Qcanon.
From Verif Require Import Base Num.
Import ListNotations.

(** The columns, gpry/progress.py:18-41. *)
Inductive col :=
| n_total | n_finite | time_acquire | evals_acquire | time_truth | evals_truth | time_fit | evals_fit
| time_convergence | evals_convergence | convergence_crit_value.
Definition col_eqb (a b : col) : bool :=
  match a, b with
  | n_total, n_total | n_finite, n_finite | time_acquire, time_acquire | evals_acquire, evals_acquire
  | time_truth, time_truth | evals_truth, evals_truth | time_fit, time_fit | evals_fit, evals_fit
  | time_convergence, time_convergence | evals_convergence, evals_convergence
  | convergence_crit_value, convergence_crit_value => true
  | _, _ => false
  end.

Definition row := col -> num.
(** The table, [Progress.data]; [__init__], gpry/progress.py:47-49, makes it empty. *)
Definition table := list row.
Definition new_table : table := [].

(** A row of missing values, gpry/progress.py:62. *)
Definition nan_row : row := fun _ => NaN.
(** [add_iteration], gpry/progress.py:58-66. *)
Definition add_iteration (t : table) : table := t ++ [nan_row].

Definition set_row (r : row) (c : col) (v : num) : row := fun c' => if col_eqb c c' then v else r c'.
(** [self.data.iloc[-1, self.data.columns.get_loc(c)] = v]: raises if there is no row. *)
Fixpoint set_last (c : col) (v : num) (t : table) : res table :=
  match t with
  | [] => Err IndexError
  | [r] => Ok [set_row r c v]
  | r :: t => do t' <- set_last c v t; Ok (r :: t')
  end.
(** [self.data.iloc[-1, self.data.columns.get_loc(c)]]. *)
Definition get_last (c : col) (t : table) : res num :=
  match rev t with [] => Err IndexError | r :: _ => Ok (r c) end.

(** The recording methods, gpry/progress.py:68-100, together with [add_iteration], as events. *)
Inductive event :=
| AddIteration
| AddCurrentNTruth (n nf : num)
| AddAcquisition (t e : num)
| AddTruth (t e : num)
| AddFit (t e : num)
| AddConvergence (t e crit : num).
Definition record (ev : event) (t : table) : res table :=
  match ev with
  | AddIteration => Ok (add_iteration t)
  | AddCurrentNTruth n nf => do t <- set_last n_total n t; set_last n_finite nf t
  | AddAcquisition tm e => do t <- set_last time_acquire tm t; set_last evals_acquire e t
  | AddTruth tm e => do t <- set_last time_truth tm t; set_last evals_truth e t
  | AddFit tm e => do t <- set_last time_fit tm t; set_last evals_fit e t
  | AddConvergence tm e crit =>
      do t <- set_last time_convergence tm t; do t <- set_last evals_convergence e t; set_last convergence_crit_value crit t
  end.
Fixpoint record_all (evs : list event) (t : table) : res table :=
  match evs with [] => Ok t | ev :: evs => do t <- record ev t; record_all evs t end.

(** ** Synchronisation *)
Inductive operation := Root | Max | Sum.
(** Python's [max] and [sum] of a non-empty array, gpry/progress.py:151. *)
Fixpoint np_max_list (l : list num) : num :=
  match l with [] => NaN | [x] => x | x :: l => let m := np_max_list l in if nltb x m then m else x end.
Definition sum_list (l : list num) : num := fold_left nadd l (nz 0).
(** What all processes receive, gpry/progress.py:150-164, from the values of all of them in rank order. *)
Definition combine_values (op : operation) (vals : list num) : num :=
  match op with
  | Root => hd NaN vals
  | Max => let fin := filter isfin vals in match fin with [] => NaN | _ => np_max_list fin end
  | Sum => let fin := filter isfin vals in match fin with [] => NaN | _ => sum_list fin end
  end.
Fixpoint do_all {A B} (f : A -> res B) (l : list A) : res (list B) :=
  match l with [] => Ok [] | x :: l => do y <- f x; do l' <- do_all f l; Ok (y :: l') end.
(** [_bcast_operation], gpry/progress.py:150-164, of all processes together. *)
Definition bcast_operation (c : col) (op : operation) (ts : list table) : res (list table) :=
  do vals <- do_all (get_last c) ts;
  do_all (set_last c (combine_values op vals)) ts.
(** The columns and operations of [mpi_sync], gpry/progress.py:117-125. *)
Definition sync_plan : list (col * operation) :=
  [(time_acquire, Max); (evals_acquire, Sum); (time_truth, Max); (evals_truth, Sum); (time_fit, Max);
   (evals_fit, Sum); (time_convergence, Max); (evals_convergence, Sum); (convergence_crit_value, Root)].
Fixpoint run_plan (plan : list (col * operation)) (ts : list table) : res (list table) :=
  match plan with [] => Ok ts | (c, op) :: plan => do ts <- bcast_operation c op ts; run_plan plan ts end.
(** [mpi_sync], gpry/progress.py:102-126, of all processes: the tables in rank order. *)
Definition mpi_sync (ts : list table) : res (list table) :=
  if (length ts <=? 1)%nat then Ok ts else run_plan sync_plan ts.

(** ** Totals of the plot *)
(** [data[c]] as an array. *)
Definition column (c : col) (t : table) : list num := map (fun r => r c) t.
(** [x[-1] = v] for a non-empty array. *)
Definition replace_last (v : num) (l : list num) : list num := removelast l ++ [v].
(** [cols_totals[c]] of [plot_timing], gpry/progress.py:203-213, for a table with rows. *)
Definition plot_total (c : col) (t : table) : num :=
  let l := column c t in
  let l := if col_eqb c time_convergence then (if isnan (last l NaN) then replace_last (nz 0) l else l) else l in
  sum_list l.

(** ** Counters *)
(** [TimerCounter.evals], gpry/progress.py:263-285: the counters of the surrogates on entering and leaving. *)
Definition timer_evals (enter leave : list Z) : Z := fold_left Z.add (map (fun p => snd p - fst p)%Z (combine enter leave)) 0%Z.

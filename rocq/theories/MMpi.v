(** Model of gpry/mpi.py (work distribution) and of Runner._eval_truth_parallel.
    A communicator of [size] ranks is modelled by the list of what each rank computes. *)
From Verif Require Export Num.

(** gpry/mpi.py:80-102 [split_number_for_parallel_processes(n, n_proc)].
    [np.ceil(n / n_proc)] is taken as exact integer ceiling; [slots] is the flat array of
    line 99-100, [slots[k*n_proc + c]] its element at row k, column c after the reshape of
    line 101, summed over rows in line 102. [n_proc = 0] raises in line 98. *)
Definition split_slots (n p : nat) : list nat :=
  let rounded := (n + p - 1) / p * p in
  repeat 1 n ++ repeat 0 (rounded - n).
Definition col_sum (slots : list nat) (p c : nat) : nat :=
  list_sum (map (fun k => nth (k * p + c) slots 0) (seq 0 (length slots / p))).
Definition split_number (n p : nat) : res (list nat) :=
  if p =? 0 then Err ZeroDivisionError
  else Ok (map (col_sum (split_slots n p) p) (seq 0 p)).

(** [values[r::s]], gpry/mpi.py:115 (and the target of the assignment in 129). *)
Fixpoint stride_from {A} (i r s : nat) (l : list A) : list A :=
  match l with
  | [] => []
  | x :: l' => if i mod s =? r then x :: stride_from (S i) r s l' else stride_from (S i) r s l'
  end.
Definition stride {A} (r s : nat) (l : list A) : list A := stride_from 0 r s l.

(** gpry/mpi.py:105-115 [step_split], as seen by rank [r] of [size] (line 112: one process
    returns the values as they are). *)
Definition step_split {A} (size r : nat) (values : list A) : list A :=
  if size <=? 1 then values else stride r size values.

(** [target[r::s] = v], gpry/mpi.py:129: positions congruent to [r] receive the elements of
    [v] in turn. numpy raises ValueError unless lengths match (or [v] has length 1: broadcast). *)
Fixpoint set_stride_from {A} (i r s : nat) (v : list A) (l : list A) : list A :=
  match l with
  | [] => []
  | x :: l' =>
      if i mod s =? r then
        match v with
        | y :: v' => y :: set_stride_from (S i) r s v' l'
        | [] => x :: set_stride_from (S i) r s [] l'
        end
      else x :: set_stride_from (S i) r s v l'
  end.
Definition set_stride {A} (r s : nat) (v l : list A) : res (list A) :=
  let n := length (stride r s l) in
  if length v =? n then Ok (set_stride_from 0 r s v l)
  else match v with
       | [y] => Ok (set_stride_from 0 r s (repeat y n) l)
       | _ => Err ValueError
       end.

(** gpry/mpi.py:118-131 [merge_step_split] at rank 0, given what every rank passes
    ([values_step], index = rank). [zero] is the 0.0 of np.zeros in line 127. *)
Fixpoint merge_loop {A} (i size : nat) (vs : list (list A)) (acc : list A) : res (list A) :=
  match vs with
  | [] => Ok acc
  | v :: vs' => do acc' <- set_stride i size v acc; merge_loop (S i) size vs' acc'
  end.
Definition merge_step_split {A} (zero : A) (values_step : list (list A)) : res (list A) :=
  match values_step with
  | [v] => Ok v                                   (* line 123: single process *)
  | _ => merge_loop 0 (length values_step) values_step
           (repeat zero (list_sum (map (@length A) values_step)))
  end.

(** gpry/mpi.py:134-161 [multi_gather_array] at rank 0, for [arrs] given by rank: one list of
    arrays per rank; result: one concatenated array per object. *)
Definition multi_gather {A} (nobj : nat) (all_arrs : list (list (list A))) : list (list A) :=
  map (fun i => concat (map (fun arrs => nth i arrs []) all_arrs)) (seq 0 nobj).

(** Is mpi4py importable, and if so with how many processes (gpry/mpi.py:7-28). *)
Inductive world := NoMpi | Mpi (size : nat).
Definition wsize (w : world) : nat := match w with NoMpi => 1 | Mpi s => s end.

(** gpry/mpi.py:182-218 [compute_y_parallel] as returned at rank 0. [pred]/[pstd] are the
    pointwise mean and std predictors of the surrogate. Line 207 calls [comm.bcast] directly,
    and [comm] is None without mpi4py (line 24). *)
Definition compute_y_parallel {P} (pred pstd : P -> num) (w : world) (X : list P)
    (y sigma : option (list num)) (ensure_sigma : bool) : res (list num * option (list num)) :=
  let size := wsize w in
  let ranks := seq 0 size in
  match y with
  | None =>
      do ym <- merge_step_split (Fin 0) (map (fun r => map pred (step_split size r X)) ranks);
      if ensure_sigma then
        do sm <- merge_step_split (Fin 0) (map (fun r => map pstd (step_split size r X)) ranks);
        Ok (ym, Some sm)
      else Ok (ym, None)
  | Some yv =>
      match w with
      | NoMpi => Err AttributeError
      | Mpi _ =>
          match sigma, ensure_sigma with
          | None, true =>
              do sm <- merge_step_split (Fin 0) (map (fun r => map pstd (step_split size r X)) ranks);
              Ok (yv, Some sm)
          | s, _ => Ok (yv, s)
          end
      end
  end.

(** gpry/run.py:1200-1236 [Runner._eval_truth_parallel]: the points evaluated by each rank
    (lines 1207-1215), and the array of values all ranks get back (1217-1227). *)
Definition eval_share {A} (counts : list nat) (r : nat) (X : list A) : list A :=
  let i := list_sum (firstn r counts) in
  slice i (i + nth r counts 0) X.
Definition eval_truth_parallel {P Y} (size : nat) (f : P -> Y) (X : list P)
    : res (list (list P) * list Y) :=
  do counts <- split_number (length X) size;
  let shares := map (fun r => eval_share counts r X) (seq 0 size) in
  let ys := map (map f) shares in
  Ok (shares, if 1 <? size then concat ys else nth 0 ys []).

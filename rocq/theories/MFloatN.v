(** Model of counts that the code computes with numbers in double precision (see [MFloat]). Definitions only. *)
From Verif Require Export MMpi.
From Verif Require Export MFloat.
Open Scope Z_scope.

(** [int] of a double: towards 0. *)
Definition ftrunc (x : f64) : Z := Btrunc x.
(** [int(np.ceil(x))]. *)
Definition fceil (x : f64) : Z := let t := ftrunc x in if flt (fz t) x then t + 1 else t.
(** [n / p] of integers: the nearest double to the quotient, for numbers that are doubles themselves. *)
Definition true_div (n p : Z) : f64 := fdiv (fz n) (fz p).
Definition ceil_div (n p : Z) : Z := fceil (true_div n p).

(** [split_number_for_parallel_processes], gpry/mpi.py:98-102, as [MMpi.split_number], with the divisions that are computed. *)
Definition fsplit_number (n p : nat) : res (list nat) :=
  if Nat.eqb p 0 then Err ZeroDivisionError
  else
    let rounded := Z.to_nat (ceil_div (Z.of_nat n) (Z.of_nat p) * Z.of_nat p) in
    let slots := repeat 1%nat n ++ repeat 0%nat (rounded - n) in
    let nrows := Z.to_nat (ftrunc (true_div (Z.of_nat (length slots)) (Z.of_nat p))) in
    Ok (map (fun c => list_sum (map (fun k => nth (k * p + c)%nat slots 0%nat) (seq 0 nrows))) (seq 0 p)).

(** The initial training: points per process and pass, and passes before giving up, gpry/run.py:1099-1109. *)
Definition needed (n_initial pretrained : Z) : Z := Z.max 0 (n_initial - pretrained).
Definition per_process (n_initial pretrained size : Z) : Z := ceil_div (needed n_initial pretrained) size.
Definition passes (max_initial per : Z) : Z := ceil_div max_initial per.
(** The number of iterations announced, gpry/run.py:817. *)
Definition iterations_left (total_left per_acq : Z) : Z := ceil_div total_left per_acq.
(** The default of [n_correct], gpry/convergence.py:798 ([d] is the number of parameters). *)
Definition n_correct (d : Z) : Z := Z.max 4 (fceil (fmul (dec 5 1) (fz d))).
(** [get_Xnumber] of a string like "2.5d", without a power, gpry/tools.py:215, 222-227: [v] is what [float] makes of the number. *)
Definition scaled_option (v : f64) (d : Z) : Z := ftrunc (fmul v (fz d)).
(** [TrainAlignment]: the number of training points used, gpry/convergence.py:700. *)
Definition n_fraction (n : Z) (frac : f64) : Z := ftrunc (fmul (fz n) frac).

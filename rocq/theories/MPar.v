(** The programs of the single processes in a run: batch acquisition, parallel fit, initial training, the main loop.
    Definitions only.

    The lockstep models of the same functions are in MBatch and MRun; the local parts are taken from there. The state of
    a process is that of MRun; if a process raises, what it leaves behind is not kept. *)
From Coq Require Import String.
From Verif Require Import Base Num MTools MMpi MRun MColl.
From Verif Require MBatch MProgress.

(** ** BatchOptimizer.multi_add, gpry/gp_acquisition.py:391-500, in process [r]
    The random generator is one already (the runner passes its own), so that it is not scattered (line 437). *)
Section Batch.
Context {G pt box : Type}.
Variable e : MBatch.env G pt box.
Variable c : MBatch.config box.
Variable w : MBatch.inputs G pt box.
Variable size : nat.
Notation obj := (obj pt G).
Notation prog := (prog obj).
(** What the main process does with the gathered optima, lines 466-495, [n] points being left after this one. *)
Definition pick (n : nat) (g : G) (l : list (pt * num)) : res ((pt * num * num) * G) :=
  do q <- MBatch.choose l;
  let x := MBatch.e_bwd e (fst q) in
  let y := MBatch.e_predict e g x in
  do g <- (if n =? 0 then Ok g else MBatch.e_append e g x y);
  Ok ((x, y, nneg (snd q)), g).
(** The points, lines 449-497: [acc] are the entries so far, in the main process. *)
Fixpoint batch_points (r n ip : nat) (o : option G) (g : G) (b : box) (counts : list nat) (acc : list (pt * num * num))
    : prog (list (pt * num * num)) :=
  match n with
  | 0 => Ret acc
  | S n =>
      let* l := local (MBatch.rank_outcomes e c w (fun _ => o) g ip b counts r) in
      let* q := multi_gather_array size r (map fst l) (map snd l) in
      let* s := match q with
                | Some (X, v) => let* s := local (pick n g (combine X v)) in Ret (acc ++ [fst s], OGpr (snd s))
                | None => Ret (acc, ONone)
                end in
      let* m := bcast size 0 (snd s) in
      let* g := local (as_gpr m) in
      batch_points r n (S ip) None g b counts (fst s)
  end.
Definition pack (l : list (pt * num * num)) : obj :=
  OPair (OPts (map (fun q => fst (fst q)) l)) (OPair (OVec (map (fun q => snd (fst q)) l)) (OVec (map snd l))).
Fixpoint zip3 (X : list pt) (y a : list num) : list (pt * num * num) :=
  match X, y, a with x :: X, v :: y, u :: a => (x, v, u) :: zip3 X y a | _, _, _ => [] end.
Definition unpack (m : obj) : res (list (pt * num * num)) :=
  do p <- as_pair m; do X <- as_pts (fst p); do q <- as_pair (snd p); do y <- as_vec (fst q); do a <- as_vec (snd q);
  Ok (zip3 X y a).
(** [o]: the [obj_func] of this process. [g] is the regressor it is called with, of which that of the main process
    counts. *)
Definition batch_add (r : nat) (o : option G) (g : G) (n_points : Z) (bounds : option box) : prog (list (pt * num * num)) :=
  if (n_points <=? 0)%Z then Raise ValueError
  else
    let b := match bounds with Some b => b | None => MBatch.c_bounds c end in
    let* m := bcast size 0 (if r =? 0 then OGpr (MBatch.e_copy e g) else ONone) in
    let* g := local (as_gpr m) in
    let* counts := local (split_number (MBatch.c_restarts c) size) in
    let* l := batch_points r (Z.to_nat n_points) 0 o g b counts [] in
    let* m := bcast size 0 (if r =? 0 then pack l else ONone) in
    local (unpack m).
End Batch.

(** ** The run *)
Section Par.
Context {pt pt_ PX PY model theta box : Type}.
Variable e : env pt pt_ PX PY model theta box.
Variable c : config theta.
Variable o : options.
Variables (size : nat) (verbose : bool) (loaded : bool).
Notation gpr := (gpr pt pt_ PX PY model theta box).
Notation rstate := (rstate pt pt_ PX PY model theta box).
Notation obj := (obj pt gpr).
Notation prog := (prog obj).

(** [_share_gpr], gpry/run.py:749-756, of a process that has [g]. *)
Definition share_gpr (root : nat) (g : gpr) : prog gpr := let* m := bcast size root (OGpr g) in local (as_gpr m).
(** [_fit_gpr_parallel], gpry/run.py:1238-1301, in process [r]. *)
Definition fit_par (r iteration : nat) (i : fit_input theta) (X : list pt) (y : list num) (g : gpr) : prog gpr :=
  let* _ := bcast size 0 ONone in
  let* ns := local (restarts_by_rank c o size iteration) in
  let* n := local (match nth_error ns r with Some n => Ok n | None => Err IndexError end) in
  let q := fit_rank e c i X y g r n in
  let* v := local (snd q) in
  let* l := allgather size (OPair (ONat r) (ONum v)) in
  let* l := local (mapM as_pair l) in
  let* vs := local (mapM as_num (map snd l)) in
  let* k := local (np_argmax vs) in
  let* best := local (match nth_error (map fst l) k with Some m => as_nat m | None => Err IndexError end) in
  share_gpr best (fst q).

(** The rounds of initial training, gpry/run.py:1114-1166; [X] and [y] are the sample so far, in the main process. *)
Fixpoint init_rounds (r : nat) (i : init_input pt theta) (needed npp k more : nat) (X : list pt) (y : list num)
    : prog (list pt * list num * bool) :=
  match more with
  | 0 => Ret (X, y, false)
  | S more =>
      let mine := map (fun j => draw_init i k r j) (seq 0 npp) in
      let* Xs := gather size r (OPts mine) in
      let* ys := gather size r (OVec (map (truth_init i) mine)) in
      let* s := match Xs, ys with
                | Some Xs, Some ys =>
                    let* Xs := local (mapM as_pts Xs) in
                    let* ys := local (mapM as_vec ys) in
                    let X := X ++ concat Xs in
                    let y := y ++ concat ys in
                    let* n := local (count_init c y) in
                    Ret (X, y, OBool (needed <=? n))
                | _, _ => Ret (X, y, ONone)
                end in
      let* m := bcast size 0 (snd s) in
      let* enough := local (as_bool m) in
      if enough then Ret (fst s, true) else init_rounds r i needed npp (S k) more (fst (fst s)) (snd (fst s))
  end.
(** [do_initial_training], gpry/run.py:1063-1198, in process [r] with its surrogate and its progress table. *)
Definition init_par (r : nat) (i : init_input pt theta) (t : MProgress.table) (g : gpr) : prog gpr :=
  let pre := length (g_y g) in
  let needed := o_n_initial o - pre in
  let* m := bcast size 0 (if r =? 0 then ONat (ceil_div needed size) else ONone) in
  let* npp := local (as_nat m) in
  if npp =? 0 then (if verbose then Ret g else Raise ZeroDivisionError)
  else
    let* _ := sync_processes size in
    let* s := init_rounds r i needed npp 0 (ceil_div (o_max_initial o) npp)
                (if 0 <? pre then g_X g else []) (if 0 <? pre then g_y g else []) in
    let* g := (if r =? 0 then
                 if snd s then
                   let q := append_to_data e c
                     (mkAppend (Some (fst (fst s))) (Some (snd (fst s))) NoNoise FTrue true (fit_init i)) g in
                   let* _ := local (snd q) in Ret (fst q)
                 else Raise RuntimeError
               else Ret g) in
    let* g := share_gpr 0 g in
    let* _ := mpi_sync size r t in
    Ret g.

(** What the outside world does in one pass, by process: the acquisition engine ([multi_add]) and which points
    [check_candidates] lets pass; the true log-posterior; the fits; the callback, if any, and whether it is MPI-aware;
    the criteria; the mean and the covariance that the main process has; the Monte Carlo run, the diagnosis of the main
    process, and its second part if the acquisition engine has a sample; the progress tables; the checkpoint. *)
Record par_input := mkPar {
  q_acq : nat -> prog (list pt); q_keep : list bool; q_truth : pt -> num; q_fit : fit_input theta;
  q_callback : option (bool * (nat -> res unit)); q_crit : list (criterion pt gpr); q_mean : obj * obj;
  q_mc : nat -> prog obj; q_diag : res bool; q_diag2 : option (res bool); q_table : nat -> MProgress.table;
  q_save : res unit }.

(** [update_mean_cov], gpry/run.py:1335-1352. *)
Definition update_mean_cov (r : nat) (mean : obj * obj) : prog unit :=
  let* _ := bcast size 0 (if r =? 0 then fst mean else ONone) in
  let* _ := bcast size 0 (if r =? 0 then snd mean else ONone) in Ret tt.
(** [generate_mc_sample], gpry/run.py:1594-1714: all processes run the sampler; the sample is shared. *)
Definition generate_mc (r : nat) (q : par_input) : prog unit :=
  let* m := q_mc q r in
  let* _ := bcast size 0 m in
  update_mean_cov r (q_mean q).
(** [diagnose_last_mc_sample], gpry/run.py:1747-1784. *)
Definition diagnose (r : nat) (q : par_input) : prog bool :=
  let* m := (if r =? 0 then let* b := local (q_diag q) in Ret (OBool b) else Ret ONone) in
  let* m := bcast size 0 m in
  let* b := local (as_bool m) in
  match q_diag2 q with
  | None => Ret b
  | Some d =>
      let* m := (if r =? 0 then let* b' := local d in Ret (OBool (b && b')) else Ret ONone) in
      let* m := bcast size 0 m in
      local (as_bool m)
  end.
(** Lines 915-1019 of a pass: the rest of it once the points are chosen. *)
Definition learn_par (r : nat) (q : par_input) (X : list pt) (s : rstate) : prog (rstate * bool) :=
  let s := with_resamples 0 s in
  let* _ := sync_processes size in
  let* y := eval_truth size (fun x => Ok (q_truth q x)) r X in
  let s := log (EvEval X) s in
  let* _ := sync_processes size in
  let* g := fit_par r (r_iter s) (q_fit q) X y (r_gpr s) in
  let s := log (EvFit (r_iter s)) (with_gpr g s) in
  let* _ := sync_processes size in
  let* _ := bcast size 0 (if r =? 0 then OPair (OPts X) (OVec y) else ONone) in
  let* _ := match q_callback q with
            | None => Ret tt
            | Some (aware, f) =>
                let* _ := (if aware || (r =? 0) then local (f r) else Ret tt) in sync_processes size
            end in
  let* _ := sync_processes size in
  let* v := check_convergence size r (q_crit q) in
  let* _ := sync_processes size in
  let* m := bcast size 0 (OBool v) in
  let* v := local (as_bool m) in
  let s := log (EvVerdict v) (with_converged v s) in
  let* _ := sync_processes size in
  let* _ := update_mean_cov r (q_mean q) in
  let* s := (if v then
               let* _ := generate_mc r q in
               let* passed := diagnose r q in
               let* _ := sync_processes size in
               Ret (log (EvDiagnosis passed) (if passed then s else with_converged false s))
             else Ret s) in
  let* _ := mpi_sync size r (q_table q r) in
  let* _ := (if r =? 0 then local (q_save q) else Ret tt) in
  Ret (s, false).
(** One pass of the loop, gpry/run.py:812-1019, in process [r]; the value tells whether the loop is left. *)
Definition pass_par (r : nat) (q : par_input) (s : rstate) : prog (rstate * bool) :=
  let s := log (EvAcquire (n_total c (r_gpr s)) (n_finite (r_gpr s))) (next_iter s) in
  let* _ := sync_processes size in
  let* X := q_acq q r in
  let* X := local (match X with [] => Ok [] | _ => masked (q_keep q) X end) in
  if length X <? Nat.max 1 (o_npa o / 2) then
    let s := with_resamples (S (r_resamples s)) s in
    let* m := bcast size 0 (OBool ((r =? 0) && (o_giveup o <? Z.of_nat (r_resamples s))%Z)) in
    let* b := local (as_bool m) in
    Ret (s, b)
  else learn_par r q X s.
(** The loop and its end, gpry/run.py:810-1060. After the loop only the main process draws a last sample. *)
Fixpoint loop_par (r fuel : nat) (inputs : nat -> par_input) (final : par_input) (s : rstate) : prog rstate :=
  match fuel with
  | 0 => Raise OutOfFuel
  | S fuel =>
      if goes_on c o s then
        let* q := pass_par r (inputs 0) s in
        if snd q then Ret (fst q) else loop_par r fuel (fun k => inputs (S k)) final (fst q)
      else
        let* _ := sync_processes size in
        if (r =? 0) && negb (r_converged s) then
          let* _ := generate_mc r final in
          let* b := diagnose r final in
          let* _ := sync_processes size in
          Ret (log (EvDiagnosis b) s)
        else Ret s
  end.
(** [run], gpry/run.py:776-1061, in process [r]. [evals]: the points evaluated in initial training, for the record of
    events only. *)
Definition run_par (r fuel : nat) (init : init_input pt theta) (t0 : nat -> MProgress.table) (save0 : res unit)
    (inputs : nat -> par_input) (final : par_input) (evals : list pt) (s : rstate) : prog rstate :=
  if r_has_run s then Ret s
  else
    let* s := (if loaded then Ret s
               else
                 let* g := init_par r init (t0 r) (r_gpr s) in
                 let* _ := (if r =? 0 then local save0 else Ret tt) in
                 Ret (with_gpr g (match evals with [] => s | _ => log (EvEval evals) s end))) in
    let* s := loop_par r fuel inputs final (with_converged false s) in
    Ret (finished s).
End Par.
Arguments par_input : clear implicits.

(** Programs of the single processes, and what happens when several of them run together.

    The other model files describe a parallel step as one function of what all processes contribute. Here each process
    has its own program, which computes locally and takes part in collective operations of the communicator; the
    programs run side by side. Definitions only.

    A collective operation takes place when all processes have called it: the same operation, with the same root. If
    some process is in an operation that another one is not in, or has left for good, nothing more happens: [Stuck].
    (With MPI such programs are erroneous: processes wait for ever, or take each other's messages. A process that only
    sends may get further than here before it waits; it never gets the others out of their wait.) Timings are left
    out. *)
From Coq Require Import String.
From Verif Require Import Base Num MTools MMpi.
From Verif Require MConv MProgress.

Section Coll.
(** What can be sent. *)
Context {M : Type}.

(** The operations of mpi4py that gpry/mpi.py calls: [bcast(obj, root)], [gather(obj)] with root 0, [allgather(obj)],
    [barrier()]. *)
Inductive coll := Bcast (root : nat) | Gather | Allgather | Barrier.
Definition coll_eqb (a b : coll) : bool :=
  match a, b with
  | Bcast r, Bcast r' => r =? r'
  | Gather, Gather | Allgather, Allgather | Barrier, Barrier => true
  | _, _ => false
  end.

(** The program of one process: it returns, raises, or takes part in an operation with something of its own and goes
    on with what it receives. *)
Inductive prog (A : Type) :=
| Ret (a : A)
| Raise (x : exn)
| Call (c : coll) (m : M) (k : list M -> prog A).
Arguments Ret {A}. Arguments Raise {A}. Arguments Call {A}.
(** [p], then [f] on how it ended. *)
Fixpoint pend {A B} (p : prog A) (f : res A -> prog B) : prog B :=
  match p with
  | Ret a => f (Ok a)
  | Raise x => f (Err x)
  | Call c m k => Call c m (fun l => pend (k l) f)
  end.
(** [p; f]. *)
Definition pbind {A B} (p : prog A) (f : A -> prog B) : prog B :=
  pend p (fun r => match r with Ok a => f a | Err x => Raise x end).
(** [try: p except: h]. *)
Definition ptry {A} (p : prog A) (h : exn -> prog A) : prog A :=
  pend p (fun r => match r with Ok a => Ret a | Err x => h x end).
(** A local computation. *)
Definition local {A} (r : res A) : prog A := match r with Ok a => Ret a | Err x => Raise x end.

(** What process [r] receives when the processes contribute [ms]. *)
Definition deliver (c : coll) (ms : list M) (r : nat) : list M :=
  match c with
  | Bcast root => match nth_error ms root with Some m => [m] | None => [] end
  | Gather => if r =? 0 then ms else []
  | Allgather => ms
  | Barrier => []
  end.

(** ** Running together *)
Inductive together (A : Type) := Finished (l : list (res A)) | Stuck.
Arguments Finished {A}. Arguments Stuck {A}.
Definition ended {A} (p : prog A) : option (res A) :=
  match p with Ret a => Some (Ok a) | Raise x => Some (Err x) | Call _ _ _ => None end.
Fixpoint all_ended {A} (ps : list (prog A)) : option (list (res A)) :=
  match ps with
  | [] => Some []
  | p :: ps => match ended p, all_ended ps with Some r, Some l => Some (r :: l) | _, _ => None end
  end.
Fixpoint all_at {A} (c : coll) (ps : list (prog A)) : option (list (M * (list M -> prog A))) :=
  match ps with
  | [] => Some []
  | Call c' m k :: ps =>
      if coll_eqb c c' then match all_at c ps with Some l => Some ((m, k) :: l) | None => None end else None
  | _ :: _ => None
  end.
Fixpoint resume {A} (c : coll) (ms : list M) (r : nat) (l : list (M * (list M -> prog A))) : list (prog A) :=
  match l with [] => [] | (_, k) :: l => k (deliver c ms r) :: resume c ms (S r) l end.
Fixpoint exec {A} (main : prog A) (rest : list (prog A)) : together A :=
  match main with
  | Call c m k =>
      match all_at c rest with
      | Some l => let ms := m :: map fst l in exec (k (deliver c ms 0)) (resume c ms 1 l)
      | None => Stuck
      end
  | Ret a => match all_ended rest with Some l => Finished (Ok a :: l) | None => Stuck end
  | Raise x => match all_ended rest with Some l => Finished (Err x :: l) | None => Stuck end
  end.
(** [size] processes, each with its program, by rank. *)
Definition run_all {A} (ps : list (prog A)) : together A := match ps with [] => Finished [] | p :: ps => exec p ps end.
Definition spmd {A} (size : nat) (p : nat -> prog A) : together A := run_all (map p (seq 0 size)).
End Coll.
Arguments prog : clear implicits. Arguments Ret {M A}. Arguments Raise {M A}. Arguments Call {M A}.
Arguments together : clear implicits. Arguments Finished {A}. Arguments Stuck {A}.
Notation "'let*' x := p 'in' k" := (pbind p (fun x => k)) (at level 200, x pattern, p at level 100, k at level 200).

(** ** Python objects that are sent, over points [P] and regressors [G] *)
Inductive obj (P G : Type) :=
| ONone | OBool (b : bool) | ONat (n : nat) | ONum (v : num) | OStr (s : string) | OErr (x : exn)
| OVec (l : list num) | OPts (l : list P) | OGpr (g : G) | OPair (a b : obj P G).
Arguments ONone {P G}. Arguments OBool {P G}. Arguments ONat {P G}. Arguments ONum {P G}. Arguments OStr {P G}.
Arguments OErr {P G}. Arguments OVec {P G}. Arguments OPts {P G}. Arguments OGpr {P G}. Arguments OPair {P G}.

Section Wrappers.
Context {P G : Type}.
Notation obj := (obj P G).
Notation prog := (prog obj).
(** [mpi.SIZE]. *)
Variable size : nat.
(** [multiple_processes], gpry/mpi.py:17. *)
Definition multiple : bool := 1 <? size.

(** Using an object as what it is expected to be. *)
Definition as_vec (m : obj) : res (list num) := match m with OVec l => Ok l | _ => Err TypeError end.
Definition as_pts (m : obj) : res (list P) := match m with OPts l => Ok l | _ => Err TypeError end.
Definition as_num (m : obj) : res num := match m with ONum v => Ok v | _ => Err TypeError end.
Definition as_bool (m : obj) : res bool := match m with OBool b => Ok b | _ => Err TypeError end.
Definition as_nat (m : obj) : res nat := match m with ONat n => Ok n | _ => Err TypeError end.
Definition as_str (m : obj) : res string := match m with OStr s => Ok s | _ => Err TypeError end.
Definition as_gpr (m : obj) : res G := match m with OGpr g => Ok g | _ => Err TypeError end.
Definition as_pair (m : obj) : res (obj * obj) := match m with OPair a b => Ok (a, b) | _ => Err TypeError end.

(** [bcast], gpry/mpi.py:53-59. *)
Definition first_of (l : list obj) : prog obj := match l with m :: _ => Ret m | [] => Raise IndexError end.
Definition bcast (root : nat) (m : obj) : prog obj := if multiple then Call (Bcast root) m first_of else Ret m.
(** [gather], gpry/mpi.py:62-68: [None] except in the main process. *)
Definition gather (r : nat) (m : obj) : prog (option (list obj)) :=
  if multiple then Call Gather m (fun l => Ret (if r =? 0 then Some l else None)) else Ret (Some [m]).
(** [allgather], gpry/mpi.py:71-77. *)
Definition allgather (m : obj) : prog (list obj) := if multiple then Call Allgather m Ret else Ret [m].
(** [sync_processes], gpry/mpi.py:164-170. *)
Definition sync_processes : prog unit := if multiple then Call Barrier ONone (fun _ => Ret tt) else Ret tt.

(** [step_split], gpry/mpi.py:105-115, of an array of points and of numbers; the argument matters in the main process
    only. *)
Definition step_split_pts (r : nat) (m : obj) : prog (list P) :=
  let* m := bcast 0 m in let* X := local (as_pts m) in Ret (step_split size r X).
Definition step_split_vec (r : nat) (m : obj) : prog (list num) :=
  let* m := bcast 0 m in let* v := local (as_vec m) in Ret (step_split size r v).
(** [merge_step_split], gpry/mpi.py:118-131: [None] except in the main process. *)
Definition merge_split (r : nat) (v : list num) : prog (option (list num)) :=
  let* l := gather r (OVec v) in
  match l with
  | None => Ret None
  | Some l => let* vs := local (mapM as_vec l) in let* m := local (merge_step_split (Fin 0) vs) in Ret (Some m)
  end.
(** [multi_gather_array], gpry/mpi.py:134-161, of points with a value each, the only use of it in the package
    (gpry/gp_acquisition.py:454): [None] except in the main process. *)
Definition multi_gather_array (r : nat) (X : list P) (v : list num) : prog (option (list P * list num)) :=
  let* l := gather r (OPair (OPts X) (OVec v)) in
  match l with
  | None => Ret None
  | Some l =>
      let* ps := local (mapM as_pair l) in
      let* Xs := local (mapM as_pts (map fst ps)) in
      let* vs := local (mapM as_vec (map snd ps)) in
      Ret (Some (concat Xs, concat vs))
  end.

(** [compute_y_parallel], gpry/mpi.py:182-218, in process [r]. [X], [y] and [sigma] are what it is called with, of
    which those of the main process count. [pred], [pstd]: [gpr.predict] and [gpr.predict_std] of an array, called only
    if it is not empty; they may raise. [have_comm]: whether mpi4py was imported (line 207 uses the communicator even
    if there is a single process). *)
Definition OArr (v : option (list num)) : obj := match v with None => ONone | Some l => OVec l end.
Definition on_array (f : list P -> res (list num)) (X : list P) : res (list num) :=
  match X with [] => Ok [] | _ => f X end.
Definition compute_y (have_comm : bool) (pred pstd : list P -> res (list num)) (r : nat)
    (X : obj) (y sigma : option (list num)) (ensure : bool)
    : prog (option (list num) * option (list num)) :=
  let* y := bcast 0 (OArr y) in
  match y with
  | ONone =>
      let* this_X := step_split_pts r X in
      let* this_y := local (on_array pred this_X) in
      let* this_s := local (if ensure then on_array pstd this_X else Ok []) in
      let* ym := merge_split r this_y in
      if ensure then let* sm := merge_split r this_s in Ret (ym, sm) else Ret (ym, None)
  | _ =>
      let* y := local (as_vec y) in
      if negb have_comm then Raise AttributeError
      else
        let* s := bcast 0 (OArr sigma) in
        match s, ensure with
        | ONone, true =>
            let* this_X := step_split_pts r X in
            let* this_s := local (on_array pstd this_X) in
            let* sm := merge_split r this_s in
            Ret (if r =? 0 then Some y else None, sm)
        | ONone, false => Ret (if r =? 0 then (Some y, None) else (None, None))
        | _, _ => let* s := local (as_vec s) in Ret (if r =? 0 then (Some y, Some s) else (None, None))
        end
  end.

(** [Runner._eval_truth_parallel], gpry/run.py:1200-1236, in process [r]; the message is left out. [f]: the true
    log-posterior, as evaluated by this process, which may raise. *)
Definition eval_truth (f : P -> res num) (r : nat) (X : list P) : prog (list num) :=
  let* counts := local (split_number (length X) size) in
  let mine := eval_share counts r X in
  let* ys := local (mapM f mine) in
  if multiple then
    let* Xs := gather r (OPts mine) in
    let* yss := gather r (OVec ys) in
    let* m := match Xs, yss with
              | Some Xs, Some yss =>
                  let* Xl := local (mapM as_pts Xs) in
                  let* yl := local (mapM as_vec yss) in
                  Ret (OPair (OPts (concat Xl)) (OVec (concat yl)))
              | _, _ => Ret (OPair ONone ONone)
              end in
    let* m := bcast 0 m in
    let* p := local (as_pair m) in
    local (as_vec (snd p))
  else Ret ys.

(** ** Convergence *)
(** [is_converged_MPIwrapped], gpry/convergence.py:180-202, in process [r]. [check]: the [is_converged] of this process,
    which may itself take part in operations. *)
Definition wrapped_check (aware : bool) (r : nat) (check : prog bool) : prog bool :=
  let* _ := sync_processes in
  let* q := (if aware || (r =? 0) then
               ptry (let* b := check in Ret (false, OBool b))
                 (fun x => if MConv.is_check_error x then Ret (true, ONone) else Raise x)
             else Ret (false, ONone)) in
  let* failed := allgather (OBool (fst q)) in
  let* failed := local (mapM as_bool failed) in
  if existsb (fun b => b) failed then
    let* _ := allgather ONone in Raise ConvergenceCheckError
  else
    let* b := bcast 0 (snd q) in
    local (as_bool b).
(** [convergence_policy_MPI], gpry/convergence.py:168-178. *)
Definition policy_check (aware : bool) (r : nat) (policy : string) : prog string :=
  let* p := bcast 0 (if aware || (r =? 0) then OStr policy else ONone) in local (as_str p).
(** [Runner._check_convergence_parallel], gpry/run.py:1303-1333, in process [r]: for each criterion whether it handles
    MPI itself, its policy, and its [is_converged] in this process. *)
Record criterion := mkCrit { k_aware : bool; k_policy : string; k_check : nat -> prog bool }.
Fixpoint check_loop (r : nat) (a : MConv.acc) (ks : list criterion) : prog MConv.acc :=
  match ks with
  | [] => Ret a
  | k :: ks =>
      let* b := ptry (wrapped_check (k_aware k) r (k_check k r))
                  (fun x => if MConv.is_check_error x then Ret false else Raise x) in
      let* p := policy_check (k_aware k) r (k_policy k) in
      check_loop r (MConv.count_check a p b) ks
  end.
Definition verdict (a : MConv.acc) : bool :=
  if (MConv.n_necessary a =? 0) && (MConv.n_sufficient a =? 0) then false
  else MConv.all_necessary a && (MConv.any_sufficient a || (MConv.n_sufficient a =? 0)).
Definition check_convergence (r : nat) (ks : list criterion) : prog bool :=
  let* a := check_loop r (MConv.mkAcc true 0 false 0) ks in Ret (verdict a).
(** [GaussianKL._get_new_mean_and_cov_from_mc], gpry/convergence.py:368-424, up to the decision whether the last sample
    is used again: only the main process computes, and it raises [ConvergenceCheckError] if the KL divergence cannot be
    computed (lines 393-396); [again]: what it decides. The rest ([sample]) is done by all processes. *)
Definition new_mean_cov {A} (r : nat) (again : res bool) (reuse : A) (sample : prog A) : prog A :=
  let* mine := (if r =? 0 then let* b := local again in Ret (OBool b) else Ret ONone) in
  let* b := bcast 0 mine in
  let* b := local (as_bool b) in
  if b then Ret reuse else sample.

(** ** Progress *)
(** [_bcast_operation], gpry/progress.py:150-164, in process [r]. *)
Definition bcast_operation (r : nat) (c : MProgress.col) (op : MProgress.operation) (t : MProgress.table)
    : prog MProgress.table :=
  let* v := local (MProgress.get_last c t) in
  let* l := gather r (ONum v) in
  let* m := match l with
            | None => Ret ONone
            | Some l => let* vs := local (mapM as_num l) in Ret (ONum (MProgress.combine_values op vs))
            end in
  let* m := bcast 0 m in
  let* v := local (as_num m) in
  local (MProgress.set_last c v t).
Fixpoint run_plan (r : nat) (plan : list (MProgress.col * MProgress.operation)) (t : MProgress.table)
    : prog MProgress.table :=
  match plan with
  | [] => Ret t
  | (c, op) :: plan => let* t := bcast_operation r c op t in run_plan r plan t
  end.
(** [mpi_sync], gpry/progress.py:102-126, in process [r]. *)
Definition mpi_sync (r : nat) (t : MProgress.table) : prog MProgress.table :=
  if negb multiple then Ret t
  else let* t := run_plan r MProgress.sync_plan t in let* _ := sync_processes in Ret t.
End Wrappers.
Arguments criterion : clear implicits.

(** Model of the criteria of convergence held by the processes of a parallel run: how they get them (gpry/run.py:258-274, 723-734, 758-774), that each check is made by the main process only unless the criterion
    handles MPI itself (gpry/convergence.py:180-202), and the values read by every process after the checks (gpry/run.py:962-965; gpry/convergence.py:134-137, 205-223).
    The verdict and the communication are in MConv and MColl. Every check appends a value (as those of MConv do), here arbitrary. Definitions only. *)
From Verif Require Export Base Num.
From Verif Require Export MTools.

Record cc := mkCc { aware : bool; vals : list num }.
Inductive held := Real (c : cc) | Dummy.
(** [_share_convergence_from_main] in process [rank]: [main] are the criteria of the main process. *)
Definition shared (rank : nat) (main : list cc) : list held :=
  if Nat.eqb rank 0 then map Real main else map (fun c => if aware c then Real c else Dummy) main.
(** A run that is resumed: every process reads the checkpoint. *)
Definition resumed (saved : list cc) : list held := map Real saved.

Section Checks.
(** The value appended by criterion [i] in check [k]: the same in all processes that make it (those that handle MPI share what they compute). *)
Variable value : nat -> nat -> num.
Variable rank : nat.
(** [is_converged_MPIwrapped]; a placeholder raises TypeError if it is asked, and does not handle MPI. *)
Definition check_held (v : num) (h : held) : res held :=
  match h with
  | Real c => if aware c || Nat.eqb rank 0 then Ok (Real (mkCc (aware c) (vals c ++ [v]))) else Ok (Real c)
  | Dummy => if Nat.eqb rank 0 then Err TypeError else Ok Dummy
  end.
(** The loop over the criteria, gpry/run.py:1315-1321. *)
Fixpoint check_from (k i : nat) (l : list held) : res (list held) :=
  match l with [] => Ok [] | h :: l => do h <- check_held (value k i) h; do r <- check_from k (S i) l; Ok (h :: r) end.
(** [last_value]: [self.values[-1]], or NaN. *)
Definition last_value (h : held) : res num :=
  match h with Real c => match rev (vals c) with v :: _ => Ok v | [] => Err IndexError end | Dummy => Ok NaN end.
(** [n] iterations: in each, the checks, then the values are read. The criteria held and the values read in the last one. *)
Fixpoint iterations (n : nat) (l : list held) : res (list held * list num) :=
  match n with
  | 0 => Ok (l, [])
  | S n => do (l, _) <- iterations n l; do l <- check_from n 0 l; do r <- mapM last_value l; Ok (l, r)
  end.
End Checks.

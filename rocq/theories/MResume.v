(** Model of runs that are interrupted and resumed, gpry/run.py:262-263, 281-286, 733-734, 736-747, 812-1024: what is on disk after a session, and where the next one begins.
    Definitions only. *)
From Verif Require Export MRun.

Section Resume.
Context {pt pt_ PX PY model theta box : Type}.
Variable e : env pt pt_ PX PY model theta box.
Variable c : config theta.
Variable o : options.
Variable size : nat.
Notation gpr := (gpr pt pt_ PX PY model theta box).
Notation rstate := (rstate pt pt_ PX PY model theta box).
Notation pass_input := (pass_input pt theta).
(** A runner that has read the checkpoint: the surrogate is read, [current_iteration], [has_converged] and [resamples] start anew (run.py:281-286). *)
Definition resumed (g : gpr) : rstate := mkRun g 0 0 false false [].
(** A session of a resumed runner that is interrupted after at most [k] passes, or earlier by an exception (a process that is killed within a pass is one that raises there):
    the surrogate on disk, and what happened. The checkpoint is saved at the end of a pass that learned (run.py:1015), not after one that has to sample again. *)
Fixpoint session (k : nat) (inputs : nat -> pass_input) (s : rstate) (saved : gpr) : gpr * list (event pt) :=
  match k with
  | 0 => (saved, r_log s)
  | S k' =>
      if goes_on c o s then
        match one_pass e c o size (inputs 0) s with
        | (s', Ok false) => session k' (fun j => inputs (S j)) s' (if r_resamples s' =? 0 then r_gpr s' else saved)
        | (s', _) => (saved, r_log s')
        end
      else (saved, r_log s)
  end.
(** One session after the other. *)
Fixpoint sessions (l : list (nat * (nat -> pass_input))) (g : gpr) : gpr * list (list (event pt)) :=
  match l with
  | [] => (g, [])
  | (k, inputs) :: l => let (g1, ev) := session k inputs (resumed g) g in let (g2, evs) := sessions l g1 in (g2, ev :: evs)
  end.
End Resume.

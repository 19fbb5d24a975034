(** Model of the sources of random numbers of a whole run: which of them come from the [seed] of the runner (gpry/run.py:152-155: "for reproducible runs"). Streams, generators and
    processes are those of [MSeed]. Everything else that a run does is a function of the numbers drawn so far (the user's likelihood returns the same at the same point; threads and
    the clock do not matter). Definitions only. *)
From Verif Require Export MSeed.
Open Scope nat_scope.

(** Samplers that take no seed: UltraNest within NORA (gpry/gp_acquisition.py:803-812), the chain of Cobaya of the KL criteria (gpry/convergence.py:430-472), the sampler of the
    final sample (gpry/run.py:993, gpry/mc.py:173-327 and 328-436). *)
Inductive outsider := UltraNest | KLChain | FinalSample.
(** What a run does with random numbers: the steps of [MSeed]; a fit of the classifier, which draws one number ([SVC.fit]; gpry/svm.py:270 with the state of line 185, gpry/gpr.py:551);
    a sampler that takes no seed. *)
Inductive rop := RSeeded (o : op) | RClassify (r : nat) | ROutside (who : outsider) (r n : nat).
(** The components of a run. [KLtype]: GaussianKL, GaussianKLTrain, TrainAlignment. *)
Inductive ns := UniformNs | PolyChord | Nessai | UltraNestNs.
Inductive engine := BatchOptimizer | NORA (s : ns).
Inductive criterion := CorrectCounter | DontConverge | KLtype.
Record setup := { eng : engine; crits : list criterion }.
(** Which unseeded samplers can be called: UltraNest if NORA uses it (gp_acquisition.py:738-747; PolyChord and nessai get a seed drawn from the generator, lines 766, 844; the uniform
    one draws from it, line 757); a chain if the acquisition has no sample (convergence.py:330-338); the final sampler always (run.py:986-1010, 1040-1050). *)
Definition is_kl (k : criterion) : bool := match k with KLtype => true | _ => false end.
Definition allowed (c : setup) (o : rop) : bool :=
  match o with
  | RSeeded _ | RClassify _ | ROutside FinalSample _ _ => true
  | ROutside UltraNest _ _ => match eng c with NORA UltraNestNs => true | _ => false end
  | ROutside KLChain _ _ => match eng c with BatchOptimizer => existsb is_kl (crits c) | NORA _ => false end
  end.

(** The classifier shares the generator of the regressor. One with an integer as random state keeps a generator of its own, which nothing else uses; its numbers do not matter (no
    probabilities are asked for), so they are left out. *)
Definition classify_draw (r : nat) (p : proc) : proc * list token := match rs p with RInt _ => (p, []) | _ => fit_draw r p 1 end.
(** Numbers from nowhere: numpy's global generator or the entropy of the operating system. *)
Definition outside_draw (r : nat) (p : proc) (n : nat) : proc * list token :=
  ({| rng := rng p; rs := rs p; global := global p + n |}, snd (draw (Global r, global p) n)).
Definition rstep (ps : list proc) (o : rop) : list proc * list token :=
  match o with
  | RSeeded o => step ps o
  | RClassify r => at_rank r (classify_draw r) ps
  | ROutside _ r n => at_rank r (fun p => outside_draw r p n) ps
  end.
(** What has been done, with the numbers drawn ([w]: the values of numpy's streams). [next]: what the run does next. *)
Notation trace := (list (rop * list Z)).
Fixpoint play (fuel : nat) (w : token -> Z) (next : trace -> option rop) (ps : list proc) (tr : trace) : trace :=
  match fuel with
  | O => tr
  | S fuel => match next tr with
              | None => tr
              | Some o => let (ps', ts) := rstep ps o in play fuel w next ps' (tr ++ [(o, map w ts)])
              end
  end.

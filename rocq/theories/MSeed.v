(** Model of random numbers: gpry/mpi.py:31-53 ([get_random_generator]), gpry/gpr.py:542-552, 969-978 (random state and restarts of a fit), gpry/run.py:217, 321, 749-756
    (generator of the runner, shared regressor). A random number is identified by its stream and its position in it: the values themselves are numpy's. Definitions only. *)
From Verif Require Export MTools.
Open Scope nat_scope.

(** ** Streams *)
(** A [SeedSequence]: entropy and spawn key; its generator starts at position 0. A legacy [RandomState(n)]. The global one of process [r]. A generator made by the user. *)
Inductive stream := Seq (entropy : Z) (key : list nat) | Legacy (n : Z) | Global (r : nat) | User (u : nat).
Notation token := (stream * nat)%type.
(** A generator: its stream and the number of draws so far. *)
Notation gen := (stream * nat)%type.
Definition draw (g : gen) (n : nat) : gen * list token := ((fst g, snd g + n), map (fun i => (fst g, snd g + i)) (seq 0 n)).

(** ** [mpi.get_random_generator], mpi.py:31-53 *)
Inductive seed := SInt (n : Z) | SNone | SGen (g : gen).
(** [SeedSequence.spawn] of a new sequence, mpi.py:46-47. *)
Definition spawn (entropy : Z) (size : nat) : list gen := map (fun i => (Seq entropy [i], 0)) (seq 0 size).
(** What each process gets; [os]: what the main process gets from the operating system without a seed; [seeds r]: the seed passed in process [r]. Only that of the main process is
    used unless a process was given a generator: then this one returns it (mpi.py:43-44), and it does not take part in the scatter, which has as many parts as processes (the
    case that some got a generator and others did not is not modelled: the main process decides here). *)
Definition get_random_generator (os : Z) (size : nat) (seeds : nat -> seed) : list gen :=
  match seeds 0 with
  | SGen _ => map (fun r => match seeds r with SGen g => g | _ => (Global r, 0) end) (seq 0 size)
  | SInt n => spawn n size    (** :45-52 *)
  | SNone => spawn os size
  end.

(** ** The regressor and the runner *)
(** [gpr.random_state]: the generator of the runner itself, another generator, an integer, nothing. *)
Inductive rstate := RRunner | ROwn (g : gen) | RInt (n : Z) | RNone.
(** A process: the generator of the runner, the state of the regressor, draws from numpy's global generator. *)
Record proc := { rng : gen; rs : rstate; global : nat }.
(** Draws of the runner: initial proposals (run.py:1128), restarts of the acquisition and seeds of its samplers (run.py:842). *)
Definition runner_draw (p : proc) (n : nat) : proc * list token :=
  let (g, t) := draw (rng p) n in ({| rng := g; rs := rs p; global := global p |}, t).
(** gpr.py:969-978: the [n] restarts of a fit that are drawn; [check_random_state] makes a new generator from an integer at each fit. *)
Definition fit_draw (r : nat) (p : proc) (n : nat) : proc * list token :=
  match rs p with
  | RRunner => runner_draw p n
  | ROwn g => let (g, t) := draw g n in ({| rng := rng p; rs := ROwn g; global := global p |}, t)
  | RInt s => (p, snd (draw (Legacy s, 0) n))
  | RNone => ({| rng := rng p; rs := RNone; global := global p + n |}, snd (draw (Global r, global p) n))
  end.
(** run.py:749-756: the regressor of process [root] goes to all; a copy of a generator is another one. Then [set_random_state(self.rng)]. *)
Definition received (root : proc) : rstate := match rs root with RRunner => ROwn (rng root) | s => s end.
Definition set_random_state (p : proc) : proc := {| rng := rng p; rs := RRunner; global := global p |}.
Definition share (root : nat) (ps : list proc) : list proc :=
  if Nat.leb (length ps) 1 then ps
  else match nth_error ps root with
       | None => ps
       | Some q => map (fun p => set_random_state {| rng := rng p; rs := received q; global := global p |}) ps
       end.
(** run.py:217, 321: a new runner in [size] processes. *)
Definition new_runner (os : Z) (size : nat) (seeds : nat -> seed) (rs0 : rstate) : list proc :=
  map (fun g => {| rng := g; rs := rs0; global := 0 |}) (get_random_generator os size seeds).
(** A resumed one (run.py:262-263, 733-734): each process reads the regressor from the files, with the generator it was saved with; it is not shared before the first fit. *)
Definition resumed_runner (os : Z) (size : nat) (seeds : nat -> seed) (saved : gen) : list proc := new_runner os size seeds (ROwn saved).
(** Histories. *)
Inductive op := ODraw (r n : nat) | OFit (r n : nat) | OShare (root : nat).
Definition at_rank (r : nat) (f : proc -> proc * list token) (ps : list proc) : list proc * list token :=
  match nth_error ps r with
  | None => (ps, [])
  | Some p => let (p', t) := f p in (firstn r ps ++ p' :: skipn (S r) ps, t)
  end.
Definition step (ps : list proc) (o : op) : list proc * list token :=
  match o with
  | ODraw r n => at_rank r (fun p => runner_draw p n) ps
  | OFit r n => at_rank r (fun p => fit_draw r p n) ps
  | OShare root => (share root ps, [])
  end.
Fixpoint history (ps : list proc) (os : list op) : list proc * list token :=
  match os with
  | [] => (ps, [])
  | o :: os => let (ps1, t1) := step ps o in let (ps2, t2) := history ps1 os in (ps2, t1 ++ t2)
  end.

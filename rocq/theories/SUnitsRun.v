(** Runs in which the outside world reacts to the state of the run, and what it means for two of them to be the same in other units. *)
From Verif Require Import MRun MUnits SUnits.

Section React.
Context {pt pt_ PX PY model theta box : Type}.
Variable e : env pt pt_ PX PY model theta box.
Variable cf : config theta.
Variable o : options.
Variables (size : nat) (verbose loaded : bool).
Notation rstate := (MRun.rstate pt pt_ PX PY model theta box).
(** What the acquisition engine, the criteria, the samplers, ... do in pass [k] as a function of the state before the pass; what the final
    sampling does as a function of the last state. *)
Definition world := nat -> rstate -> pass_input pt theta.
Fixpoint react_loop (fuel k : nat) (w : world) (final : rstate -> res bool) (s : rstate) : rstate * res unit :=
  match fuel with
  | 0 => (s, Err OutOfFuel)
  | S fuel' =>
      if goes_on cf o s then
        match one_pass e cf o size (w k s) s with
        | (s', Err x) => (s', Err x)
        | (s', Ok true) => (s', Ok tt)
        | (s', Ok false) => react_loop fuel' (S k) w final s'
        end
      else if r_converged s then (s, Ok tt)
      else match final s with
           | Err x => (s, Err x)
           | Ok b => (log (EvDiagnosis b) s, Ok tt)
           end
  end.
Definition react (fuel : nat) (init : init_input pt theta) (save0 : res unit) (w : world) (final : rstate -> res bool) (s : rstate) : rstate * res unit :=
  if r_has_run s then (s, Ok tt)
  else
    let '(s1, r1) :=
      if loaded then (s, Ok tt)
      else let '(g, X, r) := do_initial_training e cf o size verbose init (r_gpr s) in
           (with_gpr g (match X with [] => s | _ => log (EvEval X) s end), do _ <- r; save0) in
    match r1 with
    | Err x => (s1, Err x)
    | Ok _ =>
        match react_loop fuel 0 w final (with_converged false s1) with
        | (s2, Ok _) => (finished s2, Ok tt)
        | (s2, Err x) => (s2, Err x)
        end
    end.
End React.
Arguments world : clear implicits.

Section SameRun.
Context {pt pt' pt_ PX PX' PY PY' model theta box box' : Type}.
Variable c : Qc.
Variable A : pt -> pt'.
Variable B : box -> box'.
Variable RX : PX -> PX' -> Prop.
Variable RY : PY -> PY' -> Prop.
(** The same events, at the points in the other units. *)
Definition conv_event (v : event pt) : event pt' :=
  match v with
  | EvAcquire a b => EvAcquire a b
  | EvEval X => EvEval (map A X)
  | EvFit n => EvFit n
  | EvVerdict b => EvVerdict b
  | EvDiagnosis b => EvDiagnosis b
  end.
Record same_state (s : rstate pt pt_ PX PY model theta box) (s' : rstate pt' pt_ PX' PY' model theta box') : Prop := mkSameState {
  ss_gpr : same c A B RX RY (r_gpr s) (r_gpr s'); ss_iter : r_iter s' = r_iter s; ss_resamples : r_resamples s' = r_resamples s;
  ss_converged : r_converged s' = r_converged s; ss_has_run : r_has_run s' = r_has_run s; ss_log : r_log s' = map conv_event (r_log s) }.
(** The outside world does the same thing in the other units: it proposes the same points, the true posterior is the same but for the constant,
    and everything else (which candidates pass, the random draws for the kernel, verdicts, exceptions) is the same. *)
Record same_pass (i : pass_input pt theta) (i' : pass_input pt' theta) : Prop := mkSamePass {
  pass_acq : p_acq i' = map_res (map A) (p_acq i); pass_keep : p_keep i' = p_keep i; pass_truth : forall x, p_truth i' (A x) = shift c (p_truth i x);
  pass_fit : p_fit i' = p_fit i; pass_callback : p_callback i' = p_callback i; pass_checks : p_checks i' = p_checks i; pass_mean : p_mean i' = p_mean i;
  pass_mc : p_mc i' = p_mc i; pass_save : p_save i' = p_save i }.
Record same_init (i : init_input pt theta) (i' : init_input pt' theta) : Prop := mkSameInit {
  si_draw : forall k r j, draw_init i' k r j = A (draw_init i k r j); si_truth : forall x, truth_init i' (A x) = shift c (truth_init i x);
  si_fit : fit_init i' = fit_init i }.
End SameRun.

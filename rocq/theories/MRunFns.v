(** Model of the functions of a runner for the posterior and the likelihood (gpry/run.py:614-652 and 664-668), for a likelihood that is a function ([MTruth]) and for a Cobaya model
    (gpry/truth.py:182-219). Definitions only. *)
From Verif Require Export MTruth.

(** [Truth.logprior], gpry/truth.py:134-140, for any array: [not a] for an array of booleans needs exactly one element (with none it is true, up to numpy 2.1). *)
Definition logprior_arr (t : truth) (X : arr) : res num :=
  do b <- is_in_bounds X (Mat (prior_bounds t)) false;
  match b with
  | [true] => Ok (nmul (nz (-1)) (log_prior_volume t))
  | [] | [false] => Ok NInf
  | _ => Err ValueError
  end.

Section Functions.
(** [gpr.predict] for rows of points. *)
Variable predict : mat -> res (list num).
(** [Runner.logp], run.py:614-623. *)
Definition runner_logp (X : arr) : res (list num) := predict (atleast_2d X).
(** [Runner.logL], lines 625-632; [logprior]: that of the truth, one number for [X]. *)
Definition runner_logL (logprior : arr -> res num) (X : arr) : res (list num) :=
  do y <- predict (atleast_2d X); do lp <- logprior X; Ok (map (fun v => nsub v lp) y).
(** [Runner.logp_truth] and [logL_truth], lines 635-652, for a function. *)
Definition runner_logp_truth (t : truth) (X : obj) : res num := fst (logp t X).
Definition runner_logL_truth (t : truth) (X : obj) : res num := call (loglike_ t) [X].

(** A Cobaya model, as far as it is used (an assumption on Cobaya's documented interface): the log-density of its prior, and the logarithm of its likelihood together with derived parameters;
    [loglike] returns both unless [return_derived=False] is passed; [logpost] returns minus infinity where the prior is zero, otherwise the sum. *)
Record cobaya_model {D : Type} := mkCobaya { cb_logprior : list num -> num; cb_loglike : list num -> num * D }.
Arguments cobaya_model : clear implicits.
Inductive value (D : Type) := VNumber (x : num) | VPair (x : num) (derived : D).
Arguments VNumber {D} x. Arguments VPair {D} x derived.
Definition cobaya_logpost {D} (m : cobaya_model D) (x : list num) : num :=
  if neqb (cb_logprior m x) NInf then NInf else nadd (cb_logprior m x) (fst (cb_loglike m x)).
(** [TruthCobaya.logprior], [loglike] and [logp], truth.py:201-217, at one point; as called by the functions of the runner. *)
Definition cobaya_logprior {D} (m : cobaya_model D) (X : arr) : res num :=
  match X with Vec x => Ok (cb_logprior m x) | _ => Err ValueError end.
Definition runner_logL_truth_cobaya {D} (m : cobaya_model D) (x : list num) : value D := VPair (fst (cb_loglike m x)) (snd (cb_loglike m x)).
Definition runner_logp_truth_cobaya {D} (m : cobaya_model D) (x : list num) : value D := VNumber (cobaya_logpost m x).
End Functions.
Arguments cobaya_model : clear implicits. Arguments VNumber {D} x. Arguments VPair {D} x derived. Arguments mkCobaya {D} cb_logprior cb_loglike.

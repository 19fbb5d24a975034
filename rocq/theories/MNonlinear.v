(** Model of the acquisition function [NonlinearLogExp], gpry/acquisition_functions.py:1078-1128, over the real numbers, for one point.
    Definitions only. *)
From Verif Require Export MAcqFunc.
Open Scope R_scope.

(** [_safe_log_expm1], gpry/acquisition_functions.py:67-75, for a positive number. *)
Definition safe_log_expm1 (x : R) : R :=
  if Rlt_dec x 1 then ln (exp x - 1) else x + ln (1 + - exp (- x)).
(** [NonlinearLogExp.f], gpry/acquisition_functions.py:1125-1128. *)
Definition nonlinear_f (mu sd baseline n zeta : R) : R :=
  2 * zeta * (mu - baseline) + safe_log_expm1 (sqrt (Rmax (sd ^ 2 - n ^ 2) 0)).
(** [BaseLogExp.__call__] of [NonlinearLogExp], gpry/acquisition_functions.py:961-992. *)
Definition nonlinear (zeta : R) (sigma_n : option R) (gp : surrogate) (x : list R) : ext :=
  let n := noise_used sigma_n gp in
  match mean gp x with
  | Real mu =>
      if gtb (std gp x ^ 2 - n ^ 2) 0 then Real (nonlinear_f mu (std gp x) (y_max gp) n zeta) else NegInf
  | _ => NegInf
  end.
(** It as an acquisition function, for composites: the gradient is that of the base class (lines 993-1007, [logexp_grad]). *)
Definition NonlinearLogExp (zeta : R) (sigma_n : option R) (gp : surrogate) : acq :=
  Custom (fun x => number (nonlinear zeta sigma_n gp x)) (logexp_grad zeta sigma_n gp).

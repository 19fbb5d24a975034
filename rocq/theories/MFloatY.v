(** Model of the transforms of values in double precision (see [MFloat]). Definitions only. *)
From Verif Require Export MFloat.

(** [Normalize_y.inverse_transform], gpry/preprocessing.py:605-620. *)
Definition unnorm (mu sigma v : f64) : f64 := fadd (fmul v sigma) mu.
(** [inverse_transform_scale], lines 627-630. *)
Definition unnorm_scale (sigma v : f64) : f64 := fmul v sigma.
(** A value transformed when it is stored (gpry/gpr.py:746), and transformed back when predicted (line 1185). What the surrogate does in between is not modelled here. *)
Definition round_trip (mu sigma v : f64) : f64 := unnorm mu sigma (norm mu sigma v).
Definition round_trip_scale (sigma v : f64) : f64 := unnorm_scale sigma (norm_scale sigma v).
(** [fit] (lines 571-586, with [use_median=False]) and [transform], for fewer than eight finite values. *)
Definition normalised (y : list f64) : list f64 := let k := filter isfinite y in map (norm (mean k) (std k)) y.

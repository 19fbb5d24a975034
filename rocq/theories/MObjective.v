(** Model of the objective function of the local optimiser in gp_acquisition.py:317-334 (class BatchOptimizer), over the real numbers: the
    acquisition function (MAcqFunc) of the surrogate (MLinAlg, MGrad), in the coordinates of the acquisition's preprocessor. Definitions
    only. The point is classified as finite. *)
From Coq Require Export Reals List.
From Verif Require Export MLinAlg MKernel MGrad.
From Verif Require Export MAcqFunc.
Open Scope R_scope.

(** What the trained regressor answers in [predict] (gpr.py:1139-1264) to an acquisition function: kernel [K], X-preprocessor
    [Normalize_bounds] with lower bounds [lows] and widths [widths], affine y-preprocessor with offset [m] and scale [s], clipping factor
    [clip], training set [X], [y], solution [g], noise level [noise]. If [gradient_x] raises, the gradients are written as empty rows. *)
Definition of_regressor (K : kernel) (lows widths : list R) (m s clip : R) (X : list (list R)) (y : list R) (g : gp) (noise : noise) : surrogate :=
  let prX := normalise lows widths in
  {| mean := fun x => MAcqFunc.Real (predicted_mean (value K) prX m s clip X y g x);
     std := predicted_std (value K) prX s X g;
     MAcqFunc.mean_grad := fun x => match reported_mean_grad K s (map prX X) g (prX x) with Some r => r | None => [] end;
     std_grad := fun x => match reported_std_grad K s (map prX X) g (prX x) with Some r => r | None => [] end;
     noise_level := noise; y_max := maximum y; two_axes := false |}.
(** [Normalize_bounds.inverse_transform], preprocessing.py:382-395, for one point. *)
Definition denormalise (lows widths t : list R) : list R := row2 Rplus (row2 Rmult t widths) lows.
(** Lines 317-334: minus the value of the acquisition function at the point that is transformed back, and with [eval_gradient] minus its gradient. *)
Definition obj_value (gp : surrogate) (k : acq) (bwd : list R -> list R) (t : list R) : option R := option_map Ropp (avalue gp k (bwd t)).
Definition obj_grad (gp : surrogate) (k : acq) (bwd : list R -> list R) (t : list R) : option (list R) := option_map (map Ropp) (agrad gp k (bwd t)).

(** Model of the "Kriging believer" steps of the acquisition engines, over the real numbers: lines 479-491 of gpry/gp_acquisition.py
    (BatchOptimizer.multi_add, for a regressor without classifier of infinities, or whose classifier accepts the lies) and lines 1551-1553
    with 1049-1051 (NORA's pool). Definitions only. *)
From Coq Require Export Reals List.
From Verif Require Export MLinAlg MKernel MGrad MNonlinear.
From Verif Require Export MObjective.
Open Scope R_scope.

(** The copy of the regressor that receives the lies: training set, [noise_level], solution. *)
Record copy := mkCopy { c_X : list (list R); c_y : list R; c_noise : noise; c_g : gp }.

Section Lie.
Variable K : kernel.
Variables lows widths : list R.
Variables m s clip : R.
Let prX := normalise lows widths.

(** Line 711 of gpry/gpr.py: one noise level per training point. *)
Definition levels (N : noise) (X : list (list R)) : list R :=
  match N with OneNoise n => repeat n (length X) | Noises ns => ns end.
(** [_update_model] of the regressor with this training set, gpry/gpr.py:738-752. *)
Definition solved (c : copy) : Prop := model_of (value K) prX m s (c_X c) (levels (c_noise c) (c_X c)) (c_y c) = Some (c_g c).
(** What the acquisition function sees. *)
Definition seen (c : copy) : surrogate := of_regressor K lows widths m s clip (c_X c) (c_y c) (c_g c) (c_noise c).
(** Lines 479-491. The noise of the lie is the mean of the noise levels if there are several, and the same one otherwise; the
    hyperparameters and the preprocessors are kept. None: LinAlgError. *)
Definition lie_noise (N : noise) : noise := match N with OneNoise n => OneNoise n | Noises ns => Noises (ns ++ [average ns]) end.
Definition add_lie (c : copy) (x : list R) : option copy :=
  let y_lie := predicted_mean (value K) prX m s clip (c_X c) (c_y c) (c_g c) x in
  let X' := c_X c ++ [x] in let y' := c_y c ++ [y_lie] in let N' := lie_noise (c_noise c) in
  option_map (mkCopy X' y' N') (model_of (value K) prX m s X' (levels N' X') y').

(** NORA: the acquisition function of a pool, a function of mean and standard deviation only, lines 1049-1051 with
    gpry/acquisition_functions.py:1069-1074: the logarithm of 0 is -inf. *)
Definition pool_acq (zeta n baseline mu sd : R) : ext :=
  if gtb (sd ^ 2 - n ^ 2) 0 then Real (logexp_f mu sd baseline n zeta) else NegInf.
(** Lines 1551-1553: the standard deviation at [x] conditioned on points [C] with values [yC], for one noise level [n]. None: LinAlgError. *)
Definition cond_std (n : R) (X : list (list R)) (y : list R) (C : list (list R)) (yC : list R) (x : list R) : option R :=
  option_map (fun g => predicted_std (value K) prX s (X ++ C) g x) (model_of (value K) prX m s (X ++ C) (repeat n (length (X ++ C))) (y ++ yC)).
End Lie.

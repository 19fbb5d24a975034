(** Model of the upper clipping of predictions in double precision (see [MFloat]). Definitions only. *)
From Verif Require Export MFloatY.

(** Python's [max] and [min] of the training values ([pymax] is in [MFloat]). *)
Definition pymin (y : list f64) : f64 := match y with [] => fz 0 | v :: l => fold_left (fun m v => if flt v m then v else m) l v end.
(** The largest value of a prediction, gpry/gpr.py:1187-1194: [clip_factor * max(y_train) - (clip_factor - 1) * min(y_train)]. *)
Definition top (c best worst : f64) : f64 := fsub (fmul c best) (fmul (fsub c (fz 1)) worst).
(** [np.clip(y, None, top)] for finite numbers. *)
Definition clipped (c : f64) (y : list f64) (v : f64) : f64 := let t := top c (pymax y) (pymin y) in if fle v t then v else t.

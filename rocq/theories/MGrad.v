(** Model of the gradients of [predict], gpry/gpr.py:1237-1264, over the real numbers, for one point [x] (in transformed
    coordinates) that is classified as finite. Definitions only. Kernels and [gradient_x] are those of MKernel; the solution
    [L_], [V_], [alpha_] that of MLinAlg. *)
From Verif Require Export MLinAlg MKernel.

(** [np.dot(grad.T, self.alpha_)], lines 1238-1239; a matrix is given by its rows, which are the columns of the transposed
    one. None: [gradient_x] raises. *)
Definition mean_grad (K : kernel) (X : list (list R)) (g : gp) (x : list R) : option (list R) :=
  option_map (fun G => mul_columns (length x) G (g_alpha g)) (gradient_x K x X).
(** [self.V_.T.dot(self.V_)], for a matrix given by its columns. *)
Definition gram (V : list (list R)) : list (list R) := map (fun a => map (dot a) V) V.
(** [np.dot(K_trans, np.dot(self.V_.T.dot(self.V_), grad))[0]], lines 1254-1255. *)
Definition std_product (K : kernel) (X : list (list R)) (g : gp) (G : list (list R)) (x : list R) : list R :=
  mul_columns (length x) (map (mul_columns (length x) G) (gram (g_V g))) (map (value K x) X).
(** Lines 1241-1243: with a y-preprocessor of scale [s] (1 if there is none). *)
Definition reported_mean_grad (K : kernel) (s : R) (X : list (list R)) (g : gp) (x : list R) : option (list R) :=
  option_map (scale s) (mean_grad K X g x).
(** [np.allclose(y_std, 0)]. *)
Definition close_to_0 (v : R) : bool := if Rle_dec (Rabs v) (/ 100000000) then true else false.
(** Lines 1248-1264. [y_std] is the standard deviation that is returned, [y_std_untransformed] the one before scaling. *)
Definition reported_std_grad (K : kernel) (s : R) (X : list (list R)) (g : gp) (x : list R) : option (list R) :=
  let y_std := gp_std (value K) X g x in
  match gradient_x K x X with
  | None => None
  | Some G =>
      if close_to_0 (s * y_std) then Some (repeat 0 (length x))
      else Some (scale s (scale s (map (fun v => - v / y_std) (std_product K X g G x))))
  end.
(** [Normalize_bounds.transform], gpry/preprocessing.py:367-380, for one point: lower bounds [lows], widths [widths]. *)
Definition normalise (lows widths x : list R) : list R := scaled_diff widths x lows.

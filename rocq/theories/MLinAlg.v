(** Model of the linear algebra of the surrogate, over the real numbers: gpry/gpr.py:1453-1465 ([_kernel_inverse]),
    1015-1017 ([_update_model]), the mean and variance of [predict] (lines 1178-1180, 1204-1222) and [predict_std] in the
    transformed space, i.e. before the preprocessors, the classifier and the clipping (those are in MPredict). Definitions
    only. Matrices are lists of rows. The algorithms of LAPACK are replaced by the textbook ones, which have the same
    result in exact arithmetic. *)
From Coq Require Export Reals List Arith.
Export ListNotations.
Open Scope R_scope.

(** Product of two vectors, up to the length of the shorter one. *)
Fixpoint dot (u v : list R) : R := match u, v with a :: u', b :: v' => a * b + dot u' v' | _, _ => 0 end.
Definition vadd (u v : list R) : list R := map (fun p => fst p + snd p) (combine u v).
Definition scale (c : R) (v : list R) : list R := map (Rmult c) v.

(** A row of a lower triangular matrix: the entries before the diagonal, and that on the diagonal. *)
Definition row := (list R * R)%type.

(** [solve_triangular(L, b, lower=True)]: x_i = (b_i - sum_{j < i} L_ij x_j) / L_ii. *)
Definition forward_step (x : list R) (q : row * R) : list R := x ++ [(snd q - dot (fst (fst q)) x) / snd (fst q)].
Definition forward (L : list row) (b : list R) : list R := fold_left forward_step (combine L b) [].
(** [solve_triangular(L.T, z)], from the last row to the first, which are subtracted from the right-hand side. *)
Fixpoint backward_rows (rows_from_last : list row) (z : list R) : list R :=
  match rows_from_last with
  | [] => []
  | (r, d) :: rest => let a := last z 0 / d in backward_rows rest (vadd (removelast z) (scale (- a) r)) ++ [a]
  end.
Definition backward (L : list row) (z : list R) : list R := backward_rows (rev L) z.

(** [scipy.linalg.cholesky(A, lower=True)]; None: LinAlgError (a pivot is not positive). Only the lower triangle is read. *)
Definition cholesky_step (o : option (list row)) (a : list R) : option (list row) :=
  match o with
  | None => None
  | Some L =>
      let r := forward L (firstn (length L) a) in
      let p := nth (length L) a 0 - dot r r in
      if Rlt_dec 0 p then Some (L ++ [(r, sqrt p)]) else None
  end.
Definition cholesky (A : list (list R)) : option (list row) := fold_left cholesky_step A (Some []).

(** [solve_triangular(L, np.eye(n), lower=True)]: the columns of the inverse. *)
Definition unit_vector (n j : nat) : list R := map (fun i => if Nat.eqb i j then 1 else 0) (seq 0 n).
Definition inverse (L : list row) : list (list R) := map (fun j => forward L (unit_vector (length L) j)) (seq 0 (length L)).
(** [tri_mul(1., V, b, lower=True)] for a matrix given by its columns. *)
Definition mul_columns (n : nat) (V : list (list R)) (b : list R) : list R :=
  fold_left (fun acc q => vadd acc (scale (snd q) (fst q))) (combine V b) (repeat 0 n).

(** [_kernel_inverse]: [L_], [V_], [alpha_]. *)
Record gp := mkGp { g_L : list row; g_V : list (list R); g_alpha : list R }.
Definition kernel_inverse (K : list (list R)) (y : list R) : option gp :=
  match cholesky K with
  | None => None
  | Some L => Some (mkGp L (inverse L) (backward L (forward L y)))
  end.

Section Gp.
Variable P : Type.
Variable k : P -> P -> R.
(** [kernel_(X_train_)] with [alpha] (the squared noise levels) added to the diagonal. *)
Fixpoint add_at (i : nat) (c : R) (v : list R) : list R :=
  match i, v with O, a :: v' => a + c :: v' | S i', a :: v' => a :: add_at i' c v' | _, [] => [] end.
Definition kernel_matrix (X : list P) (noise : list R) : list (list R) :=
  map (fun q => add_at (fst q) (snd (snd q)) (map (k (fst (snd q))) X)) (combine (seq 0 (length X)) (combine X noise)).
(** [_update_model]. *)
Definition update_model (X : list P) (noise y : list R) : option gp := kernel_inverse (kernel_matrix X noise) y.
(** Line 1179: [K_trans.dot(alpha_)]. *)
Definition gp_mean (X : list P) (g : gp) (x : P) : R := dot (map (k x) X) (g_alpha g).
(** Lines 1205-1209, before negative values are set to 0. *)
Definition gp_var (X : list P) (g : gp) (x : P) : R :=
  let M := mul_columns (length (g_L g)) (g_V g) (map (k x) X) in k x x - dot M M.
(** Lines 1215-1220. *)
Definition gp_std (X : list P) (g : gp) (x : P) : R :=
  let v := gp_var X g x in sqrt (if Rlt_dec v 0 then 0 else v).
End Gp.
Arguments kernel_matrix {P}. Arguments update_model {P}. Arguments gp_mean {P}. Arguments gp_var {P}. Arguments gp_std {P}.

(** What [predict] returns for a point, with an affine y-preprocessor (y_ = (y - m) / s), [prX] the transformation of
    points, and the upper clipping of lines 1186-1194; for a point in the trust region which is classified as finite.
    [noise]: the noise levels, divided by [s] and squared (gpry/gpr.py:711-715, 747). *)
Definition maximum (l : list R) : R := match l with [] => 0 | a :: l' => fold_left Rmax l' a end.
Definition minimum (l : list R) : R := match l with [] => 0 | a :: l' => fold_left Rmin l' a end.
Definition model_of {Q P} (k : P -> P -> R) (prX : Q -> P) (m s : R) (X : list Q) (noise y : list R) : option gp :=
  update_model k (map prX X) (map (fun n => (n / s) ^ 2) noise) (map (fun t => (t - m) / s) y).
Definition predicted_mean {Q P} (k : P -> P -> R) (prX : Q -> P) (m s clip : R) (X : list Q) (y : list R) (g : gp) (x : Q) : R :=
  Rmin (s * gp_mean k (map prX X) g (prX x) + m) (clip * maximum y - (clip - 1) * minimum y).
Definition predicted_std {Q P} (k : P -> P -> R) (prX : Q -> P) (s : R) (X : list Q) (g : gp) (x : Q) : R :=
  s * gp_std k (map prX X) g (prX x).

(** [gaussian_distance], gpry/tools.py:76-97, for one point; None: the Cholesky decomposition fails. [points - mean] is
    [v]; [np.linalg.inv] of a diagonal matrix is written as division of the rows. *)
Definition mat_mul (L : list row) (v : list R) : list R := map (fun q => dot (fst q ++ [snd q]) v) L.
Definition gaussian_distance (v : list R) (C : list (list R)) : option R :=
  let std := map (fun q => sqrt (nth (fst q) (snd q) 0)) (combine (seq 0 (length C)) C) in
  let corr := map (fun q => map (fun e => snd e / (fst q * fst e)) (combine std (snd q))) (combine std C) in
  match cholesky corr with
  | None => None
  | Some Lf =>
      let t := map (fun q => snd q / fst q) (combine std (mat_mul Lf v)) in
      Some (sqrt (dot t t))
  end.

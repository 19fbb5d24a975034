(** Model of the linear algebra of [Whitening] (gpry/preprocessing.py:180-308) over the real numbers: how the matrices are made from
    an eigen-decomposition, and how mean and covariance are learnt. The rest of the class is in MPreproc. Definitions only.
    Matrices are lists of rows. *)
From Verif Require Export Base MLinAlg.
From Verif Require MPreproc.
Open Scope R_scope.

Notation vec := (list R) (only parsing).
Notation mat := (list (list R)) (only parsing).
(** [m @ x], [x - y], [x + y] *)
Definition mv (m : mat) (x : vec) : vec := map (fun r => dot r x) m.
Definition vsub (x y : vec) : vec := map (fun p => fst p - snd p) (combine x y).
Definition transpose (d : nat) (m : mat) : mat := map (fun j => map (fun r => nth j r 0) m) (seq 0 d).
(** [a * b], element by element *)
Definition vmul (a b : vec) : vec := map (fun p => fst p * snd p) (combine a b).

(** preprocessing.py:232-246, [prepare_transform]. [eigh]: eigenvalues and the matrix with the eigenvectors as columns, or an error
    (LinAlgError, which is turned into a ValueError). *)
Definition prepare (eigh : mat -> res (vec * mat)) (cov : mat) : res (mat * mat) :=
  match eigh cov with
  | Err _ => Err ValueError
  | Ok (vals, E) =>
      Ok (map (fun p => scale (/ sqrt (fst p)) (snd p)) (combine vals (transpose (length vals) E)),
          map (fun r => vmul r (map sqrt vals)) E)
  end.

(** preprocessing.py:259-262. [np.max]; the list is not empty. *)
Fixpoint vmax (x : R) (l : list R) : R := match l with [] => x | y :: l' => vmax (Rmax x y) l' end.
Definition weights (y : list R) : list R := match y with [] => [] | a :: l => map (fun b => exp (b - vmax a l)) y end.
Definition sum_of (w : list R) : R := fold_right Rplus 0 w.
Definition average (w r : list R) : R := dot w r / sum_of w.
(** [np.cov(X, aweights=w, ddof=0)]: every row of [X] is a variable, every column an observation. *)
Definition centred (w r : list R) : list R := map (fun a => a - average w r) r.
Definition np_cov (X : mat) (w : list R) : mat :=
  map (fun r => map (fun s => dot (vmul (centred w r) w) (centred w s) / sum_of w) X) X.
(** preprocessing.py:249-267, [compute_mean_cov], for points of dimension [d]. [np.max] of nothing raises ValueError. *)
Definition mean_cov (d : nat) (X : mat) (y : list R) : res (vec * mat) :=
  match y with
  | [] => Err ValueError
  | _ => let w := weights y in
         MPreproc.compute_mean_cov vec mat (length X) d (Ok (map (average w) (transpose d X))) (Ok (np_cov X w))
  end.
(** preprocessing.py:269-284, [fit]. For one variable [np.cov] returns a number, not a matrix: [eigh] raises ValueError. *)
Definition fit (eigh : mat -> res (vec * mat)) (w : MPreproc.whitening vec mat) (d : nat) (X : mat) (y : list R)
    : MPreproc.whitening vec mat * res unit :=
  MPreproc.w_fit vec mat (fun c => if Nat.eqb (length c) 1 then Err ValueError else prepare eigh c) w (mean_cov d X y).
(** [__init__], [transform], [inverse_transform] of MPreproc with this linear algebra. *)
Definition new (eigh : mat -> res (vec * mat)) := MPreproc.new_whitening vec mat (prepare eigh).
Definition transform (w : MPreproc.whitening vec mat) (x : vec) : res vec := MPreproc.w_transform vec mat mv vsub w x.
Definition inverse_transform (w : MPreproc.whitening vec mat) (z : vec) : res vec := MPreproc.w_inverse_transform vec mat mv vadd w z.
(** [itertools.product( *bounds )]; smallest and largest coordinate along each dimension (lines 299-303). *)
Fixpoint product (b : list (R * R)) : mat :=
  match b with
  | [] => [[]]
  | r :: b' => (map (cons (fst r)) (product b') ++ map (cons (snd r)) (product b'))%list
  end.
Fixpoint vmin (x : R) (l : list R) : R := match l with [] => x | y :: l' => vmin (Rmin x y) l' end.
Definition box (pts : mat) : list (R * R) :=
  match pts with
  | [] => []
  | p :: l => map (fun j => let c := map (fun q => nth j q 0) l in (vmin (nth j p 0) c, vmax (nth j p 0) c)) (seq 0 (length p))
  end.
Definition transform_bounds (w : MPreproc.whitening vec mat) (b : list (R * R)) : res (list (R * R)) :=
  MPreproc.w_transform_bounds vec mat mv vsub (list (R * R)) product box w b.

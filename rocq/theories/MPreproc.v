(** Model of gpry/preprocessing.py. Model definitions only. *)
From Verif Require Export MTools.

(** ** Normalize_bounds, gpry/preprocessing.py:311-411 *)
(** The bounds as one (min, max) pair per dimension. *)
Record norm_bounds := mkNB { nb_min : list num; nb_max : list num }.
(** [__init__]/[update_bounds], lines 345-357: the construction of the error message adds an array to a
    string, which raises TypeError. *)
Definition new_norm_bounds (bounds : list (num * num)) : res norm_bounds :=
  if existsb (fun b => nltb (snd b) (fst b)) bounds then Err TypeError
  else Ok (mkNB (map fst bounds) (map snd bounds)).
(** [transform_bounds], lines 359-362 *)
Definition nb_transform_bounds (bounds : list (num * num)) : list (num * num) :=
  map (fun _ => (nz 0, nz 1)) bounds.
Definition nb_width (p : norm_bounds) : res (list num) := bcast2 (fun a b => nsub a b) (nb_max p) (nb_min p).
(** [transform], lines 367-380, for one point (the operations work row by row). *)
Definition nb_transform (p : norm_bounds) (x : list num) : res (list num) :=
  do d <- bcast2 (fun a b => nsub a b) x (nb_min p);
  do w <- nb_width p;
  bcast2 (fun a b => ndiv a b) d w.
(** [inverse_transform], lines 382-395 *)
Definition nb_inverse_transform (p : norm_bounds) (x : list num) : res (list num) :=
  do w <- nb_width p;
  do m <- bcast2 (fun a b => nmul a b) x w;
  bcast2 (fun a b => nadd a b) m (nb_min p).
(** [inverse_transform_scale], lines 397-411 *)
Definition nb_inverse_transform_scale (p : norm_bounds) (x : list num) : res (list num) :=
  do w <- nb_width p;
  bcast2 (fun a b => nmul a b) x w.

(** ** Normalize_y, gpry/preprocessing.py:528-630 *)
(** [np.mean]; NaN for no data. *)
Definition np_mean (l : list num) : num :=
  ndiv (fold_left nadd l (nz 0)) (nz (Z.of_nat (length l))).
Definition np_var (l : list num) : num :=
  let m := np_mean l in np_mean (map (fun x => nmul (nsub x m) (nsub x m)) l).
Section Normalize.
(** [np.sqrt], and the 25, 50 and 75 percentiles ([np.percentile] of no data raises IndexError). *)
Variable sqrt : num -> num.
Variable percentiles : list num -> num * num * num.
Record norm_y := mkNY { ny_use_median : bool; ny_fit : option (num * num) }.
Definition new_norm_y (use_median : bool) := mkNY use_median None.
(** [get_mean_std], lines 552-560 *)
Definition get_mean_std (use_median : bool) (y : list num) : res (num * num) :=
  if use_median then
    match y with
    | [] => Err IndexError
    | _ => let '(y25, y50, y75) := percentiles y in Ok (y50, nsub y75 y25)
    end
  else Ok (np_mean y, sqrt (np_var y)).
(** [fit], line 586 *)
Definition ny_do_fit (p : norm_y) (y : list num) : res norm_y :=
  do ms <- get_mean_std (ny_use_median p) (filter isfin y);
  Ok (mkNY (ny_use_median p) (Some ms)).
End Normalize.
Definition if_fitted {A} (p : norm_y) (f : num -> num -> A) : res A :=
  match ny_fit p with Some (m, s) => Ok (f m s) | None => Err TypeError end.
(** [transform], [inverse_transform], [transform_scale], [inverse_transform_scale], lines 588-630 *)
Definition ny_transform (p : norm_y) (y : num) : res num := if_fitted p (fun m s => ndiv (nsub y m) s).
Definition ny_inverse_transform (p : norm_y) (y : num) : res num := if_fitted p (fun m s => nadd (nmul y s) m).
Definition ny_transform_scale (p : norm_y) (y : num) : res num := if_fitted p (fun m s => ndiv y s).
Definition ny_inverse_transform_scale (p : norm_y) (y : num) : res num := if_fitted p (fun m s => nmul y s).
(** Python's builtin [max] of a sequence. *)
Definition pymax_list (l : list num) : res num :=
  match l with [] => Err ValueError | x :: l' => Ok (fold_left pymax l' x) end.
(** [NormalizeChi2_y.fit], lines 680-684; [delta] is [delta_logp_of_1d_nstd(nsigma, dim)]. *)
Definition chi2_do_fit (delta : num) (y : list num) : res norm_y :=
  do m <- pymax_list y;
  Ok (mkNY false (Some (nsub m delta, delta))).

(** ** Pipelines *)
(** A stage: any object with the documented methods, with its own internal state. [D]: what it
    transforms (an array of points, or of values); [F]: the other argument of [fit]. A method that
    raises or does not exist gives [Err]. *)
Record stage (D F B S : Type) := mkStage {
  st : Type;
  cur : st;
  s_fit : st -> D -> F -> res st;
  s_transform : st -> D -> res D;
  s_inverse : st -> D -> res D;
  s_bounds : st -> B -> res B;
  s_scale : st -> S -> res S;
  s_inverse_scale : st -> S -> res S }.
Arguments st {D F B S}. Arguments cur {D F B S}. Arguments s_fit {D F B S}.
Arguments s_transform {D F B S}. Arguments s_inverse {D F B S}. Arguments s_bounds {D F B S}.
Arguments s_scale {D F B S}. Arguments s_inverse_scale {D F B S}. Arguments mkStage {D F B S}.
Section Pipeline.
Context {D F B S : Type}.
Notation stage := (stage D F B S).
Definition transform (p : stage) (x : D) := s_transform p (cur p) x.
Definition inverse_transform (p : stage) (x : D) := s_inverse p (cur p) x.
Definition transform_bounds (p : stage) (b : B) := s_bounds p (cur p) b.
Definition transform_scale (p : stage) (s : S) := s_scale p (cur p) s.
Definition inverse_transform_scale (p : stage) (s : S) := s_inverse_scale p (cur p) s.
Definition with_state (p : stage) (c : st p) : stage :=
  mkStage (st p) c (s_fit p) (s_transform p) (s_inverse p) (s_bounds p) (s_scale p) (s_inverse_scale p).
(** [for preprocessor in ...: x = method(preprocessor, x)] *)
Fixpoint thread {X} (method : stage -> X -> res X) (ps : list stage) (x : X) : res X :=
  match ps with
  | [] => Ok x
  | p :: ps' => do x' <- method p x; thread method ps' x'
  end.
(** [Pipeline_X], gpry/preprocessing.py:121-177, and [Pipeline_y], lines 474-525. *)
Definition pl_transform (ps : list stage) (x : D) : res D := thread transform ps x.
Definition pl_inverse_transform (ps : list stage) (x : D) : res D := thread inverse_transform (rev ps) x.
Definition pl_transform_bounds (ps : list stage) (b : B) : res B := thread transform_bounds ps b.
Definition pl_transform_scale (ps : list stage) (s : S) : res S := thread transform_scale ps s.
Definition pl_inverse_transform_scale (ps : list stage) (s : S) : res S :=
  thread inverse_transform_scale (rev ps) s.
(** [fit], lines 131-141 and 478-488: each stage is fitted in place, also if a later one fails
    (the stages as they are left, and whether the call returned). *)
Fixpoint pl_fit (ps : list stage) (x : D) (y : F) : list stage * res unit :=
  match ps with
  | [] => ([], Ok tt)
  | p :: ps' =>
      match s_fit p (cur p) x y with
      | Err e => (ps, Err e)
      | Ok c =>
          let p' := with_state p c in
          match transform p' x with
          | Err e => (p' :: ps', Err e)
          | Ok x' => let '(r, e) := pl_fit ps' x' y in (p' :: r, e)
          end
      end
  end.
End Pipeline.

(** ** Whitening, gpry/preprocessing.py:180-308 *)
Section Whitening.
(** Vectors, square matrices; [mv m x] is [m @ x]; [eig cov] gives the two matrices of
    [prepare_transform] (lines 232-246), or the error that it raises. *)
Variables (vec mat_ : Type) (mv : mat_ -> vec -> vec) (vadd vsub : vec -> vec -> vec).
Variable eig : mat_ -> res (mat_ * mat_).
Record whitening := mkW {
  w_mean : option vec; w_cov : option mat_; w_transf : option (mat_ * mat_); w_learn : bool }.
(** [__init__], lines 206-229; [center] is the center of the prior. *)
Definition new_whitening (center : vec) (mean : option vec) (cov : option mat_) (learn : bool) : res whitening :=
  match cov with
  | None => if learn then Ok (mkW mean None None learn) else Err ValueError
  | Some c =>
      match eig c with
      | Err e => Err e
      | Ok t => Ok (mkW (Some (match mean with Some m => m | None => center end)) cov (Some t) learn)
      end
  end.
(** [compute_mean_cov], lines 249-267, for [n] points in [d] dimensions: [np.cov] takes the rows, that is
    the points, as variables and raises RuntimeError unless there are as many weights ([n]) as columns
    ([d]). [mean] and [cov] are the results of the weighted average and of the covariance proper. *)
Definition compute_mean_cov (n d : nat) (mean : res vec) (cov : res mat_) : res (vec * mat_) :=
  do m <- mean;
  if n =? d then do c <- cov; Ok (m, c) else Err RuntimeError.
(** [fit], lines 269-284; [computed] is what [compute_mean_cov] gives for the data: only ValueError is
    caught. *)
Definition w_fit (w : whitening) (computed : res (vec * mat_)) : whitening * res unit :=
  if negb (w_learn w) then (w, Ok tt)
  else match computed with
       | Err ValueError => (w, Ok tt)
       | Err e => (w, Err e)
       | Ok (m, c) =>
           let w1 := mkW (Some m) (Some c) (w_transf w) (w_learn w) in
           match eig c with
           | Err ValueError => (w1, Ok tt)
           | Err e => (w1, Err e)
           | Ok t => (mkW (Some m) (Some c) (Some t) (w_learn w), Ok tt)
           end
       end.
(** [transform], [inverse_transform], lines 286-294, for one point: products with None, or
    differences with it, raise TypeError. *)
Definition w_transform (w : whitening) (x : vec) : res vec :=
  match w_cov w with
  | None => Ok x
  | Some _ => match w_transf w, w_mean w with
              | Some (t, _), Some m => Ok (mv t (vsub x m))
              | _, _ => Err TypeError
              end
  end.
Definition w_inverse_transform (w : whitening) (x : vec) : res vec :=
  match w_cov w with
  | None => Ok x
  | Some _ => match w_transf w, w_mean w with
              | Some (_, t), Some m => Ok (vadd (mv t x) m)
              | _, _ => Err TypeError
              end
  end.
(** [transform_bounds], lines 296-308: the smallest box around the transformed vertices. [vertices]
    lists the corners of a box, [box] is the smallest box around some points. *)
Variables (bnds : Type) (vertices : bnds -> list vec) (box : list vec -> bnds).
Definition w_transform_bounds (w : whitening) (b : bnds) : res bnds :=
  match w_cov w with
  | None => Ok b
  | Some _ => do vs <- mapM (w_transform w) (vertices b); Ok (box vs)
  end.
End Whitening.

(** The linear algebra of [Whitening] on rational vectors, for the statements about bounds. *)
Definition qvec := list Qc.
Definition qdot (r x : qvec) : Qc := fold_right (fun p acc => (fst p * snd p + acc)%Qc) 0%Qc (combine r x).
Definition qmv (m : list qvec) (x : qvec) : qvec := map (fun r => qdot r x) m.
Definition qvop (f : Qc -> Qc -> Qc) (x y : qvec) : qvec := map (fun p => f (fst p) (snd p)) (combine x y).
(** [itertools.product( *bounds )] *)
Fixpoint product (b : list (Qc * Qc)) : list qvec :=
  match b with
  | [] => [[]]
  | (lo, hi) :: b' => map (cons lo) (product b') ++ map (cons hi) (product b')
  end.
Definition qmin (a b : Qc) : Qc := if qleb a b then a else b.
Definition qmax (a b : Qc) : Qc := if qleb a b then b else a.
(** Smallest and largest coordinate, along each dimension, of points with as many dimensions as the
    first one. *)
Definition qbox (pts : list qvec) : list (Qc * Qc) :=
  match pts with
  | [] => []
  | p :: pts' =>
      map (fun j => (fold_left (fun a x => qmin a (nth j x 0%Qc)) pts' (nth j p 0%Qc),
                     fold_left (fun a x => qmax a (nth j x 0%Qc)) pts' (nth j p 0%Qc)))
          (seq 0 (length p))
  end.

(** Model of the prediction methods of gpry/gpr.py. Model definitions only. *)
From Verif Require Export MGpr.

Section Predict.
Context {pt pt_ PX PY model theta box : Type}.
Variable e : env pt pt_ PX PY model theta box.

(** The parts of the environment that are not modelled: the classifier's [SVC]; prediction from the
    precomputed quantities at one transformed point (mean; variance [kernel_.diag - einsum], which can be
    negative because of rounding; gradient of the mean and of the standard deviation, in transformed
    units); the inverse maps of the y-preprocessor, element by element; whether a point is in a box
    ([is_in_bounds], see MTools.v); the square root of a
    non-negative number; whether [np.allclose(y_std, 0)]; the dimension of a point. Sizes of arrays returned
    by numpy and the preprocessors are those of the input. *)
Record penv := mkPenv {
  svc_predict : model -> pt_ -> bool;
  gp_mean : cache pt_ theta -> pt_ -> num;
  gp_var : cache pt_ theta -> pt_ -> num;
  gp_mean_grad : cache pt_ theta -> pt_ -> list num;
  gp_std_grad : cache pt_ theta -> pt_ -> list num;
  invY : PY -> num -> num;
  invscaleY : PY -> num -> num;
  in_box : box -> pt -> bool;
  root : num -> num;
  allclose0 : num -> bool;
  ndim : pt -> nat }.
Variable pe : penv.

(** Arguments of [predict], gpry/gpr.py:1022-1025; [validate] does not change results. *)
Record pargs := mkPargs { p_std : bool; p_mgrad : bool; p_sgrad : bool; p_ignore : bool }.
(** What is returned: mean; the others if asked for. *)
Record pred := mkPred {
  r_mean : list num; r_std : option (list num);
  r_mgrad : option (list (list num)); r_sgrad : option (list (list num)) }.

(** Python's [min] of an array. *)
Definition pymin_list (l : list num) : res num :=
  match l with [] => Err ValueError | x :: l' => Ok (fold_left pymin l' x) end.
(** The clipping ceiling of lines 1186-1194 ([clip] is [clip_factor]; Python's [max] and [min], which
    raise ValueError for no points). *)
Definition ceiling (clip : num) (y : list num) : res num :=
  do M <- pymax_list y;
  do m <- pymin_list y;
  Ok (nsub (nmul clip M) (nmul (nsub clip (nz 1)) m)).
(** [np.clip(x, None, c)]. *)
Definition np_clip_above (x c : num) : num := npmin2 x c.
(** Lines 1214-1221: negative variances are set to 0. *)
Definition clip_var (v : num) : num := if nltb v (nz 0) then nz 0 else v.

(** [cached]: an attribute that does not exist before the first update raises AttributeError
    ([alpha_], [V_]); [kernel_] is None before the first fit: TypeError when called. The training set
    in transformed coordinates always exists by then. *)
Definition cached (g : gpr pt pt_ PX PY model theta box) : res (cache pt_ theta) :=
  match g_kernel g, g_cache g with
  | None, _ => Err TypeError
  | _, None => Err AttributeError
  | Some _, Some k => Ok k
  end.

(** [predict], gpry/gpr.py:1022-1273. [hasattr(self, "X_train_")] is always true, since [__init__] sets it
    to None (line 370): lines 1111-1133 are never reached. *)
Definition predict (c : config theta) (clip : num) (g : gpr pt pt_ PX PY model theta box) (a : pargs) (X : list pt) : res pred :=
  if p_sgrad a && negb (p_std a && p_mgrad a) then Err ValueError
  else if negb (length X =? 1) && (p_mgrad a || p_sgrad a) then Err ValueError
  else
    let outside := match g_trust g with
                   | Some b => if p_ignore a then repeat false (length X) else map (fun x => negb (in_box pe b x)) X
                   | None => repeat false (length X)
                   end in
    let n := length X in
    do finite <- (if c_classifier c then
                    do X_ <- trX e (g_pX g) X;
                    svm_predict (svc_predict pe) (g_svm g) X_
                  else Ok (repeat true n));
    if c_classifier c && forallb negb finite then
      Ok (mkPred (repeat NInf n)
                 (if p_std a then Some (repeat (nz 0) n) else None)
                 (if p_mgrad a then Some (map (fun x => repeat PInf (ndim pe x)) X) else None)
                 (if p_sgrad a then Some (map (fun x => repeat (nz 0) (ndim pe x)) X) else None))
    else
      do Xf <- masked finite X;
      do X_ <- trX e (g_pX g) Xf;
      do k <- cached g;
      do top <- ceiling clip (g_y g);
      let m := map (fun x => np_clip_above (invY pe (g_pY g) (gp_mean pe k x)) top) X_ in
      let full := unmask finite m (repeat NInf n) in
      let mean := map (fun p : bool * num => if fst p then NInf else snd p) (combine outside full) in
      let std := map (fun x => invscaleY pe (g_pY g) (root pe (clip_var (gp_var pe k x)))) X_ in
      let std_full := unmask finite std (repeat (nz 0) n) in
      let mg := map (fun x => map (invscaleY pe (g_pY g)) (gp_mean_grad pe k x)) X_ in
      (* lines 1248-1264: zero unless the standard deviation is; transformed back twice *)
      let sg := map (fun p : pt_ * num =>
                  if allclose0 pe (snd p) then map (fun _ => nz 0) (gp_std_grad pe k (fst p))
                  else map (fun v => invscaleY pe (g_pY g) (invscaleY pe (g_pY g) v)) (gp_std_grad pe k (fst p)))
                (combine X_ std) in
      Ok (mkPred mean (if p_std a then Some std_full else None)
                 (if p_mgrad a then Some mg else None) (if p_sgrad a then Some sg else None)).

(** [predict_std], gpry/gpr.py:1275-1352: no trust region. *)
Definition predict_std (c : config theta) (g : gpr pt pt_ PX PY model theta box) (X : list pt) : res (list num) :=
  let n := length X in
  do finite <- (if c_classifier c then
                  do X_ <- trX e (g_pX g) X;
                  svm_predict (svc_predict pe) (g_svm g) X_
                else Ok (repeat true n));
  if c_classifier c && forallb negb finite then Ok (repeat (nz 0) n)
  else
    do Xf <- masked finite X;
    do X_ <- trX e (g_pX g) Xf;
    do k <- cached g;
    let std := map (fun x => invscaleY pe (g_pY g) (root pe (clip_var (gp_var pe k x)))) X_ in
    Ok (unmask finite std (repeat (nz 0) n)).

(** [predict_is_finite], gpry/gpr.py:526-540. *)
Definition predict_is_finite (c : config theta) (g : gpr pt pt_ PX PY model theta box) (X : list pt) : res (list bool) :=
  if c_classifier c then
    do X_ <- trX e (g_pX g) X;
    svm_predict (svc_predict pe) (g_svm g) X_
  else Ok (repeat true (length (g_yall g))).

(** [is_finite], gpry/gpr.py:509-524. *)
Definition gpr_is_finite (c : config theta) (g : gpr pt pt_ PX PY model theta box) (y : list num) : res (list bool) :=
  if c_classifier c then
    do y_ <- trY e (g_pY g) y;
    svm_is_finite (g_svm g) y_
  else Ok (repeat true (length y)).

(** [abs_finite_threshold], gpry/gpr.py:499-507, and [SVM.abs_threshold], gpry/svm.py:213-218. *)
Definition abs_finite_threshold (c : config theta) (g : gpr pt pt_ PX PY model theta box) : res num :=
  if c_classifier c then
    match s_max (g_svm g), s_diff (g_svm g) with
    | Some m, Some d => Ok (invscaleY pe (g_pY g) (nsub m d))
    | _, _ => Err TypeError
    end
  else Err AttributeError.
End Predict.
Arguments penv : clear implicits. Arguments mkPenv {pt pt_ PY model theta box}.
Arguments svc_predict {pt pt_ PY model theta box}. Arguments gp_mean {pt pt_ PY model theta box}.
Arguments gp_var {pt pt_ PY model theta box}. Arguments gp_mean_grad {pt pt_ PY model theta box}.
Arguments gp_std_grad {pt pt_ PY model theta box}. Arguments invY {pt pt_ PY model theta box}.
Arguments invscaleY {pt pt_ PY model theta box}. Arguments in_box {pt pt_ PY model theta box}.
Arguments root {pt pt_ PY model theta box}. Arguments allclose0 {pt pt_ PY model theta box}.
Arguments ndim {pt pt_ PY model theta box}.

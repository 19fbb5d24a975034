(** Model of the bookkeeping of kernel hyperparameters: gpry/kernels.py ([Hyperparameter], [Kernel.bounds], the
    [hyperparameters] of every kernel), the vector [theta] inherited from scikit-learn
    (sklearn/gaussian_process/kernels.py: [Kernel.theta], [KernelOperator.theta], [Exponentiation.theta]), and
    their use in gpry/gpr.py (construction of the kernel, [fit_gpr_hyperparameters], [scales]). Over the real
    numbers; definitions only. *)
From Coq Require Export Reals String.
From Verif Require Export Base.
Open Scope R_scope.

(** Value of a hyperparameter: a number, or a sequence ([length_scale] only). *)
Inductive hval := HNum (x : R) | HVec (l : list R).
Definition elements (v : hval) : list R := match v with HNum x => [x] | HVec l => l end.

(** kernels.py:87-95. Bounds of a hyperparameter: the strings "fixed" and "dynamic", or the rows of
    [np.atleast_2d(bounds)], of which there is at least one. *)
Inductive hbounds := BFixed | BDynamic | BRows (first : R * R) (more : list (R * R)).
Definition rows_of (b : hbounds) : list (R * R) := match b with BRows r m => r :: m | _ => [] end.

(** kernels.py:27-116, [Hyperparameter]. [h_max]: [max_length]. [fixed] and [dynamic] are never passed by the
    callers in kernels.py, so they are derived from the bounds (lines 97-100). *)
Record hyper := Hyper { h_name : string; h_bounds : hbounds; h_max : option (list R); h_n : nat }.

(** kernels.py:85-103, [Hyperparameter.__new__]: one row of bounds is repeated for a vector. *)
Definition mk_hyper (name : string) (b : hbounds) (ml : option (list R)) (n : nat) : res hyper :=
  match b with
  | BRows r m =>
      if Nat.ltb 1 n then
        match m with
        | [] => Ok (Hyper name (BRows r (repeat r (n - 1))) ml n)
        | _ => if Nat.eqb (S (length m)) n then Ok (Hyper name b ml n) else Err ValueError
        end
      else Ok (Hyper name b ml n)
  | _ => Ok (Hyper name b ml n)
  end.

(** The kernels of kernels.py with the attributes that matter here. [KLength None]: RBF; [KLength (Some nu)]:
    Matern; [ml]: the attribute [max_length]. Of the kernels whose hyperparameters cannot be listed (see
    [hypers]) only the values are kept. *)
Inductive kern :=
| KLength (nu : option R) (ls : hval) (lb : hbounds) (ml : option (list R))
| KConst (c : R) (cb : hbounds)
| KWhite (n : R) (nb : hbounds)
| KRQ (ls : hval) (alpha : R)
| KExpSine (ls : hval) (period : R)
| KDot (sigma : R)
| KSum (k1 k2 : kern)
| KProd (k1 k2 : kern)
| KPow (k : kern) (e : R).

(** kernels.py:213-241 (RBF), 285-314 (Matern): [__init__]. With bounds "dynamic" the prior bounds are needed;
    [max_length] are then the widths of the prior, also for one length scale in several dimensions (only a warning).
    [prior_bounds] that are no iterable are left out. *)
Definition mk_length (nu : option R) (ls : hval) (lb : hbounds) (prior : option (list (R * R))) : res kern :=
  match lb, prior with
  | BDynamic, None => Err TypeError
  | BDynamic, Some p => Ok (KLength nu ls lb (Some (map (fun r => snd r - fst r) p)))
  | _, _ => Ok (KLength nu ls lb None)
  end.

(** sklearn [RBF.anisotropic]: the sequence has more than one element. *)
Definition n_elements (v : hval) : nat :=
  match v with HVec l => if Nat.ltb 1 (length l) then length l else 1 | HNum _ => 1 end.

(** Repeat a specification under a longer name: kernels.py:628-635, 642-647, 655-661. *)
Fixpoint relabel (p : string) (l : list hyper) : res (list hyper) :=
  match l with
  | [] => Ok []
  | h :: l' => do x <- mk_hyper (p ++ h_name h) (h_bounds h) (h_max h) (h_n h); do r <- relabel p l'; Ok (x :: r)
  end.

(** [hyperparameters]: kernels.py:155-160 with 243-252, 316-325 (RBF, Matern), 590-593, 601-604 (constant and white
    kernel), 622-648 ([KernelOperator]), 651-662 ([Exponentiation]). [Hyperparameter.__new__] requires
    [max_length], which lines 470-472 (RationalQuadratic), 548-551 (ExpSineSquared) and 705-707 (DotProduct) do not
    pass: listing the hyperparameters of these kernels raises. *)
Fixpoint hypers (k : kern) : res (list hyper) :=
  match k with
  | KLength _ ls lb ml => do h <- mk_hyper "length_scale" lb ml (n_elements ls); Ok [h]
  | KConst _ cb => do h <- mk_hyper "constant_value" cb None 1; Ok [h]
  | KWhite _ nb => do h <- mk_hyper "noise_level" nb None 1; Ok [h]
  | KRQ _ _ | KExpSine _ _ | KDot _ => Err TypeError
  | KSum k1 k2 | KProd k1 k2 =>
      do l1 <- hypers k1; do l1 <- relabel "k1__" l1; do l2 <- hypers k2; do l2 <- relabel "k2__" l2; Ok (l1 ++ l2)%list
  | KPow k _ => do l <- hypers k; relabel "kernel__" l
  end.

(** sklearn [get_params(deep=True)]: name -> value. Only the values of hyperparameters are kept (the other entries,
    e.g. bounds, have other names). *)
Definition params := list (string * hval).
Definition under (p : string) (l : params) : params := map (fun e => (p ++ fst e, snd e)%string) l.
Fixpoint get_params (k : kern) : params :=
  match k with
  | KLength _ ls _ _ => [("length_scale"%string, ls)]
  | KConst c _ => [("constant_value"%string, HNum c)]
  | KWhite n _ => [("noise_level"%string, HNum n)]
  | KRQ ls a => [("length_scale"%string, ls); ("alpha"%string, HNum a)]
  | KExpSine ls p => [("length_scale"%string, ls); ("periodicity"%string, HNum p)]
  | KDot s => [("sigma_0"%string, HNum s)]
  | KSum k1 k2 | KProd k1 k2 => under "k1__" (get_params k1) ++ under "k2__" (get_params k2)
  | KPow k _ => under "kernel__" (get_params k)
  end.
Fixpoint lookup (n : string) (l : params) : res hval :=
  match l with
  | [] => Err KeyError
  | (m, v) :: l' => if String.eqb m n then Ok v else lookup n l'
  end.

(** kernels.py:176-190: one row per element of a dynamic hyperparameter. The branch [max_length[t] is None] is never
    taken ([max_length] is None or an array of numbers), and None cannot be indexed. *)
Fixpoint dynamic_rows (ml : option (list R)) (t : nat) (n : nat) : res (list (R * R)) :=
  match n with
  | O => Ok []
  | S n' =>
      do m <- match ml with None => Err TypeError | Some l => match nth_error l t with Some m => Ok m | None => Err IndexError end end;
      do r <- dynamic_rows ml (S t) n'; Ok ((m / 1000, m * 100) :: r)
  end.
(** kernels.py:162-196, [Kernel.bounds] before the logarithm. *)
Fixpoint bound_rows (p : params) (l : list hyper) : res (list (R * R)) :=
  match l with
  | [] => Ok []
  | h :: l' =>
      do r1 <- match h_bounds h with
               | BFixed => Ok []
               | BDynamic => do v <- lookup (h_name h) p; dynamic_rows (h_max h) 0 (length (elements v))
               | BRows r m => Ok (r :: m)
               end;
      do r2 <- bound_rows p l'; Ok (r1 ++ r2)%list
  end.
Definition ln_row (r : R * R) : R * R := (ln (fst r), ln (snd r)).
Definition bounds (k : kern) : res (list (R * R)) :=
  do l <- hypers k; do r <- bound_rows (get_params k) l; Ok (map ln_row r).

(** sklearn [Kernel.theta]: logarithms of the values that are not fixed, one after the other. *)
Fixpoint free_values (p : params) (l : list hyper) : res (list R) :=
  match l with
  | [] => Ok []
  | h :: l' =>
      do v <- match h_bounds h with BFixed => Ok [] | _ => do v <- lookup (h_name h) p; Ok (elements v) end;
      do r <- free_values p l'; Ok (v ++ r)%list
  end.
(** [theta]; of sums and products [np.append(k1.theta, k2.theta)], of powers that of the kernel. *)
Fixpoint theta (k : kern) : res (list R) :=
  match k with
  | KSum k1 k2 | KProd k1 k2 => do t1 <- theta k1; do t2 <- theta k2; Ok (t1 ++ t2)%list
  | KPow k _ => theta k
  | _ => do l <- hypers k; do v <- free_values (get_params k) l; Ok (map ln v)
  end.

(** sklearn [Kernel.theta] setter: each hyperparameter takes [n_elements] values ([theta[i]] raises IndexError if there
    is none left, a slice may be too short); what is left over, or missing, raises ValueError before anything is set. *)
Fixpoint update (n : string) (v : hval) (p : params) : params :=
  match p with [] => [] | (m, w) :: p' => if String.eqb m n then (m, v) :: p' else (m, w) :: update n v p' end.
Fixpoint assign (l : list hyper) (t : list R) (p : params) : res params :=
  match l with
  | [] => match t with [] => Ok p | _ => Err ValueError end
  | h :: l' =>
      match h_bounds h with
      | BFixed => assign l' t p
      | _ =>
          if Nat.ltb 1 (h_n h) then
            if Nat.ltb (length t) (h_n h) then Err ValueError
            else assign l' (skipn (h_n h) t) (update (h_name h) (HVec (map exp (firstn (h_n h) t))) p)
          else match t with [] => Err IndexError | x :: t' => assign l' t' (update (h_name h) (HNum (exp x)) p) end
      end
  end.
(** sklearn [set_params] of a kernel that is neither sum, product nor power. The hyperparameters that cannot be listed
    are never set. *)
Definition set_params (k : kern) (p : params) : kern :=
  match k with
  | KLength nu ls lb ml => match lookup "length_scale" p with Ok v => KLength nu v lb ml | Err _ => k end
  | KConst c cb => match lookup "constant_value" p with Ok (HNum x) => KConst x cb | _ => k end
  | KWhite n nb => match lookup "noise_level" p with Ok (HNum x) => KWhite x nb | _ => k end
  | _ => k
  end.
(** Setting [theta]: the object left behind, and whether it raised. Sums and products give the first [k1.n_dims] values
    to their first kernel, then the rest to the second. *)
Fixpoint set_theta (k : kern) (t : list R) : kern * res unit :=
  let both f k1 k2 :=
    match theta k1 with
    | Err e => (k, Err e)
    | Ok t1 =>
        match set_theta k1 (firstn (length t1) t) with
        | (k1', Err e) => (f k1' k2, Err e)
        | (k1', Ok _) => let (k2', r) := set_theta k2 (skipn (length t1) t) in (f k1' k2', r)
        end
    end in
  match k with
  | KSum k1 k2 => both KSum k1 k2
  | KProd k1 k2 => both KProd k1 k2
  | KPow k1 e => let (k1', r) := set_theta k1 t in (KPow k1' e, r)
  | _ => match (do l <- hypers k; assign l t (get_params k)) with Ok p => (set_params k p, Ok tt) | Err e => (k, Err e) end
  end.

(** ** gpry/gpr.py *)
(** What one run of the optimiser does: the vectors at which it evaluates the log-marginal likelihood (each sets [theta]
    of [kernel_], gpr.py:944-950 with [clone_kernel=False]), and what it returns, or that it raises. *)
Record opt_run := Run { o_evals : list (list R); o_end : res (list R * R) }.
Fixpoint evaluate (k : kern) (l : list (list R)) : kern * res unit :=
  match l with
  | [] => (k, Ok tt)
  | t :: l' => match set_theta k t with (k', Ok _) => evaluate k' l' | (k', Err e) => (k', Err e) end
  end.
(** gpr.py:1435-1451 and 970-984. [runs i start bounds]: the [i]-th run of the optimiser; [draw i bounds]: its random start. *)
Fixpoint optimise (runs : nat -> list R -> list (R * R) -> opt_run) (draw : nat -> list R) (B : list (R * R)) (cur : bool)
    (i n : nat) (k : kern) (acc : list (list R * R)) : kern * res (list (list R * R)) :=
  match n with
  | O => (k, Ok acc)
  | S n' =>
      match (if cur && Nat.eqb i 0 then theta k else Ok (draw i)) with
      | Err e => (k, Err e)
      | Ok start =>
          let r := runs i start B in
          match evaluate k (o_evals r) with
          | (k', Err e) => (k', Err e)
          | (k', Ok _) =>
              match o_end r with
              | Err e => (k', Err e)
              | Ok x => optimise runs draw B cur (S i) n' k' (acc ++ [x])%list
              end
          end
      end
  end.
(** [np.argmin]: the first of the smallest. *)
Fixpoint best (x : list R * R) (l : list (list R * R)) : list R * R :=
  match l with [] => x | y :: l' => if Rlt_dec (snd y) (snd x) then best y l' else best x l' end.

(** gpr.py:921-989, the part of [fit_gpr_hyperparameters] that concerns [kernel_]. [k0]: the kernel given at construction;
    [k_]: [kernel_]; [custom]: [hyperparameter_bounds]; [n], [cur]: number of runs and whether the first one starts at the
    current values. There is an optimiser (not [optimizer=None]); without runs or hyperparameters the log-marginal
    likelihood is computed at the current values (lines 923-939). The check that bounds are finite is always met by real
    numbers. Returns [kernel_] as left behind. *)
Definition fit_kernel (k0 : kern) (k_ : option kern) (custom : option (list (R * R)))
    (runs : nat -> list R -> list (R * R) -> opt_run) (draw : nat -> list R) (n : nat) (cur : bool) : option kern * res unit :=
  match theta k0 with
  | Err e => (k_, Err e)
  | Ok t0 =>
    if Nat.eqb (length t0) 0 || Nat.eqb n 0 then
      match k_ with
      | None => (None, Err AttributeError)
      | Some k => match theta k with Err e => (Some k, Err e) | Ok t => let (k', r) := set_theta k t in (Some k', r) end
      end
    else
      let k := match k_ with Some k => k | None => k0 end in
      match (match custom with Some B => Ok B | None => bounds k end) with
      | Err e => (Some k, Err e)
      | Ok B =>
          match optimise runs draw B cur 0 n k [] with
          | (k', Err e) => (Some k', Err e)
          | (k', Ok []) => (Some k', Err ValueError)
          | (k', Ok (x :: l)) => let (k'', r) := set_theta k' (fst (best x l)) in (Some k'', r)
          end
      end
  end.

(** gpr.py:350-363: the kernel built for the names "RBF" and "Matern" in dimension [d]; [prior]: the transformed prior
    bounds; [oscale], [lscale]: the priors of the scales. [lscale] could be "dynamic" only if it could be indexed twice
    by numbers, so it is a pair. *)
Definition auto_kernel (nu : option R) (oscale lscale : R * R) (d : nat) (prior : list (R * R)) : res kern :=
  let o := sqrt (fst oscale * snd oscale) in
  let l := sqrt (fst lscale * snd lscale) in
  do k <- mk_length nu (HVec (repeat l d)) (BRows lscale []) (Some prior);
  Ok (KProd (KConst (o ^ 2) (BRows (fst oscale ^ 2, snd oscale ^ 2) [])) k).

(** gpr.py:477-488, [scales]. [inv_y], [inv_X]: [inverse_transform_scale] of the preprocessors; [None] for X: there is
    none, the value is returned as it is (preprocessing.py:31-35). [tuple] of a number raises. Normalize_bounds multiplies
    by one number per dimension: numbers are repeated. *)
Definition reported_scales (inv_y : R -> R) (widths : option (list R)) (k_ : option kern) : res (R * list R) :=
  match k_ with
  | Some (KProd (KConst c _) (KLength _ ls _ _)) =>
      match widths, ls with
      | None, HVec l => Ok (inv_y (sqrt c), l)
      | None, HNum _ => Err TypeError
      | Some w, HNum x => Ok (inv_y (sqrt c), map (fun a => x * a) w)
      | Some w, HVec l =>
          if Nat.eqb (length l) (length w) then Ok (inv_y (sqrt c), map (fun p => fst p * snd p) (combine l w))
          else if Nat.eqb (length l) 1 then Ok (inv_y (sqrt c), map (fun a => nth 0 l 0 * a) w)
          else if Nat.eqb (length w) 1 then Ok (inv_y (sqrt c), map (fun a => a * nth 0 w 0) l)
          else Err ValueError
      end
  | _ => Err AttributeError
  end.

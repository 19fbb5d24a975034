(** Model of the training-set bookkeeping of gpry/gpr.py: [append_to_data],
    [fit_gpr_hyperparameters], [_update_model], the noise levels and the properties that report on
    the training set. Model definitions only.

    The numerical content (kernel matrix, Cholesky factor, dual coefficients) is a token [cache] that
    records the data and hyperparameters it was computed from. *)
From Verif Require Export MSvm Argsort.

(** [np.sort]: NaN last. *)
Fixpoint insert_num (x : num) (l : list num) : list num :=
  match l with
  | [] => [x]
  | y :: l' => if np_le x y then x :: l else y :: insert_num x l'
  end.
Definition np_sort (l : list num) : list num := fold_right insert_num [] l.
(** [l[-k]]; IndexError out of range. For [k = 0], [l[-0] = l[0]]. *)
Definition py_neg_index {A} (l : list A) (k : nat) : res A :=
  if k =? 0 then match l with [] => Err IndexError | x :: _ => Ok x end
  else if length l <? k then Err IndexError
  else match nth_error l (length l - k) with Some x => Ok x | None => Err IndexError end.

(** [_diff_threshold_if_keep_n_finite], gpry/gpr.py:1475-1488. *)
Definition diff_threshold_if_keep_n_finite (y : list num) (n : nat) (ref : num) : res num :=
  if n <=? 1 then Ok ref
  else
    let s := np_sort y in
    do best <- py_neg_index s 1;
    do nth <- py_neg_index s (Nat.min n (length s));
    Ok (pymax ref (nadd (nsub best nth) (nq 1 1000000))).

(** numpy boolean indexing [a[m]]: IndexError when the lengths differ. *)
Definition masked {A} (m : list bool) (l : list A) : res (list A) :=
  if length m =? length l then Ok (mask m l) else Err IndexError.

(** Noise level of the object: a number or an array. *)
Inductive noise := Scalar (v : num) | PerPoint (v : list num).
(** The [noise_level] argument: None, a number, an iterable, anything else. *)
Inductive noise_arg := NoNoise | NNum (v : num) | NArr (v : list num) | NBad.

(** [_validate_noise_level], gpry/gpr.py:755-785. *)
Definition validate_noise_level (cur : noise) (a : noise_arg) (n : nat) : res noise_arg :=
  match a with
  | NoNoise => match cur with PerPoint _ => Err ValueError | Scalar _ => Ok NoNoise end
  | _ =>
      if n =? 0 then Err ValueError
      else match a with
           | NArr v => if length v =? n then Ok a else Err ValueError
           | NNum v => match cur with PerPoint _ => Ok (NArr (repeat v n)) | Scalar _ => Ok a end
           | _ => Err ValueError
           end
  end.
(** [np.isclose(a, b)] with default tolerances: |a - b| <= 1e-8 + 1e-5 |b| (finite case). *)
Definition isclose (a b : num) : bool :=
  match a, b with
  | Fin _, Fin _ => nleb (nabs (nsub a b)) (nadd (nq 1 100000000) (nmul (nq 1 100000) (nabs b)))
  | _, _ => neqb a b
  end.
(** [_update_noise_level], gpry/gpr.py:787-817; [n_all] is [len(self.y_train_all)] at that moment. *)
Definition update_noise_level (cur : noise) (a : noise_arg) (n_all : nat) : res noise :=
  match a with
  | NArr v =>
      let old := match cur with Scalar c => repeat c n_all | PerPoint l => l end in
      Ok (PerPoint (old ++ v))
  | NNum v =>
      match cur with
      | PerPoint _ => Err AssertionError
      | Scalar c => Ok (Scalar (if isclose v c then c else v))
      end
  | _ => Ok cur
  end.
(** The array of lines 711-714. *)
Definition noise_array (cur : noise) (n : nat) : list num :=
  match cur with Scalar c => repeat c n | PerPoint l => l end.

Section Gpr.
(** Points and transformed points; states of the two preprocessors; trained [SVC] objects;
    hyperparameters; boxes. *)
Context {pt pt_ PX PY model theta box : Type}.
(** The data of the numerical problem: transformed points and targets, diagonal term. *)
Record data := mkData { d_X : list pt_; d_y : list num; d_alpha : list num }.
(** The parts of the environment that are not modelled. Methods of the preprocessors (any may raise);
    training of the [SVC]; whether the Cholesky decomposition succeeds; log-marginal likelihood; one
    run of the optimiser from given hyperparameters: the hyperparameters it leaves and minus the
    log-marginal likelihood reached, or the exception it raises; [update_trust_region]
    (gpry/gpr.py:554-575) as a function of the training set; whether points have the dimension of the
    prior ([np.append] raises ValueError otherwise). *)
Record env := mkEnv {
  fitX : PX -> list pt -> list num -> res PX;
  trX : PX -> list pt -> res (list pt_);
  fitY : PY -> list pt -> list num -> res PY;
  trY : PY -> list num -> res (list num);
  scaleY : PY -> list num -> res (list num);
  scaleY1 : PY -> num -> res num;
  svc_train : list pt_ -> list bool -> res model;
  cholesky : theta -> data -> bool;
  lml : data -> theta -> num;
  optimize : data -> theta -> theta * res num;
  trust_region : list pt -> list num -> res (option box);
  dim_ok : list pt -> bool }.
Variable e : env.

(** What is set at initialisation (gpry/gpr.py:265-375) and never changes: whether there is a
    classifier, [keep_min_finite], [_diff_threshold], an optimiser, [n_restarts_optimizer], whether the
    kernel has hyperparameters, and the hyperparameters of the initial kernel. *)
Record config := mkConfig {
  c_classifier : bool; c_keep : nat; c_diff : num;
  c_optimizer : bool; c_restarts : Z; c_hyper : bool; c_theta0 : theta }.

(** The precomputed quantities ([L_], [V_], [alpha_]): what they were computed from. *)
Record cache := mkCache { k_data : data; k_theta : theta }.

Record gpr := mkGpr {
  g_pX : PX; g_pY : PY; g_noise : noise;
  g_Xall : list pt; g_yall : list num; g_noise_ : option (list num);
  g_svm : svm pt_ model;
  g_nlast : nat; g_nlastfin : nat; g_newinv : nat;
  g_X : list pt; g_y : list num;
  g_X_ : option (list pt_); g_y_ : option (list num); g_alpha : option (list num);
  g_kernel : option theta; g_cache : option cache; g_lml : option num; g_fitted : bool;
  g_trust : option box }.

Definition new_gpr (pX : PX) (pY : PY) (n : noise) : gpr :=
  mkGpr pX pY n [] [] None new_svm 0 0 0 [] [] None None None None None None false None.

(** A method: the object it leaves, and what it returns or raises. *)
Definition meth (A : Type) : Type := gpr -> gpr * res A.
Definition ret {A} (a : A) : meth A := fun g => (g, Ok a).
Definition raise {A} (e : exn) : meth A := fun g => (g, Err e).
Definition lift {A} (r : res A) : meth A := fun g => (g, r).
Definition seq_ {A B} (m : meth A) (k : A -> meth B) : meth B :=
  fun g => let '(g', r) := m g in match r with Ok a => k a g' | Err e => (g', Err e) end.
Notation "'let*' x := m 'in' k" := (seq_ m (fun x => k)) (at level 200, x pattern, m at level 100).
Definition get : meth gpr := fun g => (g, Ok g).
Definition modify (f : gpr -> gpr) : meth unit := fun g => (f g, Ok tt).

Definition set_pX v g := mkGpr v (g_pY g) (g_noise g) (g_Xall g) (g_yall g) (g_noise_ g) (g_svm g) (g_nlast g) (g_nlastfin g) (g_newinv g) (g_X g) (g_y g) (g_X_ g) (g_y_ g) (g_alpha g) (g_kernel g) (g_cache g) (g_lml g) (g_fitted g) (g_trust g).
Definition set_pY v g := mkGpr (g_pX g) v (g_noise g) (g_Xall g) (g_yall g) (g_noise_ g) (g_svm g) (g_nlast g) (g_nlastfin g) (g_newinv g) (g_X g) (g_y g) (g_X_ g) (g_y_ g) (g_alpha g) (g_kernel g) (g_cache g) (g_lml g) (g_fitted g) (g_trust g).
Definition set_noise v g := mkGpr (g_pX g) (g_pY g) v (g_Xall g) (g_yall g) (g_noise_ g) (g_svm g) (g_nlast g) (g_nlastfin g) (g_newinv g) (g_X g) (g_y g) (g_X_ g) (g_y_ g) (g_alpha g) (g_kernel g) (g_cache g) (g_lml g) (g_fitted g) (g_trust g).
Definition set_all X y g := mkGpr (g_pX g) (g_pY g) (g_noise g) X y (g_noise_ g) (g_svm g) (g_nlast g) (g_nlastfin g) (g_newinv g) (g_X g) (g_y g) (g_X_ g) (g_y_ g) (g_alpha g) (g_kernel g) (g_cache g) (g_lml g) (g_fitted g) (g_trust g).
Definition set_noise_ v g := mkGpr (g_pX g) (g_pY g) (g_noise g) (g_Xall g) (g_yall g) v (g_svm g) (g_nlast g) (g_nlastfin g) (g_newinv g) (g_X g) (g_y g) (g_X_ g) (g_y_ g) (g_alpha g) (g_kernel g) (g_cache g) (g_lml g) (g_fitted g) (g_trust g).
Definition set_svm v g := mkGpr (g_pX g) (g_pY g) (g_noise g) (g_Xall g) (g_yall g) (g_noise_ g) v (g_nlast g) (g_nlastfin g) (g_newinv g) (g_X g) (g_y g) (g_X_ g) (g_y_ g) (g_alpha g) (g_kernel g) (g_cache g) (g_lml g) (g_fitted g) (g_trust g).
Definition set_nlast v g := mkGpr (g_pX g) (g_pY g) (g_noise g) (g_Xall g) (g_yall g) (g_noise_ g) (g_svm g) v (g_nlastfin g) (g_newinv g) (g_X g) (g_y g) (g_X_ g) (g_y_ g) (g_alpha g) (g_kernel g) (g_cache g) (g_lml g) (g_fitted g) (g_trust g).
Definition set_nlastfin v g := mkGpr (g_pX g) (g_pY g) (g_noise g) (g_Xall g) (g_yall g) (g_noise_ g) (g_svm g) (g_nlast g) v (g_newinv g) (g_X g) (g_y g) (g_X_ g) (g_y_ g) (g_alpha g) (g_kernel g) (g_cache g) (g_lml g) (g_fitted g) (g_trust g).
Definition set_newinv v g := mkGpr (g_pX g) (g_pY g) (g_noise g) (g_Xall g) (g_yall g) (g_noise_ g) (g_svm g) (g_nlast g) (g_nlastfin g) v (g_X g) (g_y g) (g_X_ g) (g_y_ g) (g_alpha g) (g_kernel g) (g_cache g) (g_lml g) (g_fitted g) (g_trust g).
Definition set_train X y g := mkGpr (g_pX g) (g_pY g) (g_noise g) (g_Xall g) (g_yall g) (g_noise_ g) (g_svm g) (g_nlast g) (g_nlastfin g) (g_newinv g) X y (g_X_ g) (g_y_ g) (g_alpha g) (g_kernel g) (g_cache g) (g_lml g) (g_fitted g) (g_trust g).
Definition set_X_ v g := mkGpr (g_pX g) (g_pY g) (g_noise g) (g_Xall g) (g_yall g) (g_noise_ g) (g_svm g) (g_nlast g) (g_nlastfin g) (g_newinv g) (g_X g) (g_y g) v (g_y_ g) (g_alpha g) (g_kernel g) (g_cache g) (g_lml g) (g_fitted g) (g_trust g).
Definition set_y_ v g := mkGpr (g_pX g) (g_pY g) (g_noise g) (g_Xall g) (g_yall g) (g_noise_ g) (g_svm g) (g_nlast g) (g_nlastfin g) (g_newinv g) (g_X g) (g_y g) (g_X_ g) v (g_alpha g) (g_kernel g) (g_cache g) (g_lml g) (g_fitted g) (g_trust g).
Definition set_alpha v g := mkGpr (g_pX g) (g_pY g) (g_noise g) (g_Xall g) (g_yall g) (g_noise_ g) (g_svm g) (g_nlast g) (g_nlastfin g) (g_newinv g) (g_X g) (g_y g) (g_X_ g) (g_y_ g) v (g_kernel g) (g_cache g) (g_lml g) (g_fitted g) (g_trust g).
Definition set_kernel v g := mkGpr (g_pX g) (g_pY g) (g_noise g) (g_Xall g) (g_yall g) (g_noise_ g) (g_svm g) (g_nlast g) (g_nlastfin g) (g_newinv g) (g_X g) (g_y g) (g_X_ g) (g_y_ g) (g_alpha g) v (g_cache g) (g_lml g) (g_fitted g) (g_trust g).
Definition set_cache v g := mkGpr (g_pX g) (g_pY g) (g_noise g) (g_Xall g) (g_yall g) (g_noise_ g) (g_svm g) (g_nlast g) (g_nlastfin g) (g_newinv g) (g_X g) (g_y g) (g_X_ g) (g_y_ g) (g_alpha g) (g_kernel g) v (g_lml g) (g_fitted g) (g_trust g).
Definition set_lml v g := mkGpr (g_pX g) (g_pY g) (g_noise g) (g_Xall g) (g_yall g) (g_noise_ g) (g_svm g) (g_nlast g) (g_nlastfin g) (g_newinv g) (g_X g) (g_y g) (g_X_ g) (g_y_ g) (g_alpha g) (g_kernel g) (g_cache g) v (g_fitted g) (g_trust g).
Definition set_fitted v g := mkGpr (g_pX g) (g_pY g) (g_noise g) (g_Xall g) (g_yall g) (g_noise_ g) (g_svm g) (g_nlast g) (g_nlastfin g) (g_newinv g) (g_X g) (g_y g) (g_X_ g) (g_y_ g) (g_alpha g) (g_kernel g) (g_cache g) (g_lml g) v (g_trust g).
Definition set_trust v g := mkGpr (g_pX g) (g_pY g) (g_noise g) (g_Xall g) (g_yall g) (g_noise_ g) (g_svm g) (g_nlast g) (g_nlastfin g) (g_newinv g) (g_X g) (g_y g) (g_X_ g) (g_y_ g) (g_alpha g) (g_kernel g) (g_cache g) (g_lml g) (g_fitted g) v.

(** The data the numerical routines work on: TypeError while there are none; ValueError when the sizes
    of the kernel matrix, diagonal and targets differ. *)
Definition the_data (g : gpr) : res data :=
  match g_X_ g, g_y_ g, g_alpha g with
  | Some X, Some y, Some a =>
      if (length X =? length y) && (length X =? length a) then Ok (mkData X y a) else Err ValueError
  | _, _, _ => Err TypeError
  end.

(** [_update_model] and [_kernel_inverse], gpry/gpr.py:996-1020 and 1453-1465 (LinAlgError is a
    ValueError; calling [kernel_ = None] raises TypeError). *)
Definition update_model : meth unit :=
  let* g := get in
  if g_newinv g <? 1 then ret tt
  else match g_kernel g with
       | None => raise TypeError
       | Some th =>
           let* d := lift (the_data g) in
           if cholesky e th d
           then modify (fun g => set_newinv 0 (set_cache (Some (mkCache d th)) g))
           else raise ValueError
       end.

(** Arguments of [fit_gpr_hyperparameters], gpry/gpr.py:883-886; [f_bounds_finite]: whether the bounds
    to be used are finite; [f_draw]: the random initial points. *)
Record fit_kw := mkKw {
  f_simple : bool; f_start : bool; f_restarts : option Z; f_bounds_finite : bool; f_draw : nat -> theta }.

(** The loop of lines 970-984: the optima, in order. Each run leaves [kernel_.theta] at some value. *)
Fixpoint restarts (d : data) (draw : nat -> theta) (start : bool) (i n : nat) : meth (list (theta * num)) :=
  match n with
  | 0 => ret []
  | S n' =>
      let* g := get in
      let* th0 := (if (i =? 0) && start
                   then match g_kernel g with Some th => ret th | None => raise AttributeError end
                   else ret (draw i)) in
      let '(th, r) := optimize e d th0 in
      let* _ := modify (set_kernel (Some th)) in
      let* v := lift r in
      let* rest := restarts d draw start (S i) n' in
      ret ((th, v) :: rest)
  end.
(** [np.argmin]: the first NaN if there is one, otherwise the first smallest. *)
Fixpoint np_argmin_from (i : nat) (best : nat) (bv : num) (l : list num) : nat :=
  match l with
  | [] => best
  | v :: l' =>
      if isnan bv then best
      else if isnan v || nltb v bv then np_argmin_from (S i) i v l' else np_argmin_from (S i) best bv l'
  end.
Definition np_argmin (l : list num) : res nat :=
  match l with [] => Err ValueError | v :: l' => Ok (np_argmin_from 1 0 v l') end.

(** [fit_gpr_hyperparameters], gpry/gpr.py:883-994. *)
Definition fit_gpr_hyperparameters (c : config) (kw : fit_kw) : meth unit :=
  let* g := get in
  let start := (f_simple kw || f_start kw) && g_fitted g in
  let n := if f_simple kw then 1%Z
           else match f_restarts kw with Some n => n | None => c_restarts c end in
  if negb (c_optimizer c) || negb (c_hyper c) || (n <=? 0)%Z then
    match g_kernel g with
    | None => raise AttributeError
    | Some th =>
        let* d := lift (the_data g) in
        let* _ := modify (set_lml (Some (lml e d th))) in
        update_model
    end
  else
    let* _ := modify (fun g => set_kernel (match g_kernel g with None => Some (c_theta0 c) | k => k end) g) in
    if negb ((n - (if start then 1 else 0) =? 0)%Z) && negb (f_bounds_finite kw) then raise ValueError
    else
      let* d := lift (the_data g) in
      let* optima := restarts d (f_draw kw) start 0 (Z.to_nat n) in
      let values := map snd optima in
      let* best := lift (np_argmin values) in
      match nth_error optima best with
      | None => raise IndexError
      | Some (th, v) =>
          let* _ := modify (set_lml (Some (nneg (npmin v values)))) in
          let* _ := modify (set_kernel (Some th)) in
          let* _ := update_model in
          modify (set_fitted true)
      end.

(** The [fit_gpr] argument: True, 'simple', a dict, False, anything else. *)
Inductive fit_arg := FTrue | FSimple | FKw (kw : fit_kw) | FFalse | FBad.
(** [default] gives the arguments when called without any (the bounds of the kernel and the draws). *)
Definition kwargs (default : fit_kw) (a : fit_arg) : option fit_kw :=
  match a with
  | FTrue => Some (mkKw false true None (f_bounds_finite default) (f_draw default))
  | FSimple => Some (mkKw true true None (f_bounds_finite default) (f_draw default))
  | FKw kw => Some kw
  | _ => None
  end.

Record append_args := mkAppend {
  a_X : option (list pt); a_y : option (list num); a_noise : noise_arg;
  a_fit : fit_arg; a_classifier : bool; a_default : fit_kw }.

(** The classification of lines 689-704: labels of all points, and the threshold used. *)
Definition classify (c : config) (yall : list num) : res (list bool * num) :=
  if c_classifier c then
    do thr <- diff_threshold_if_keep_n_finite yall (c_keep c) (c_diff c);
    do l <- is_finite_raw_self yall thr;
    Ok (l, thr)
  else Ok (repeat true (length yall), nz 0).

Definition bool_list_eqb (a b : list bool) : bool :=
  (length a =? length b) && forallb (fun p => Bool.eqb (fst p) (snd p)) (combine a b).

(** The body of [append_to_data], gpry/gpr.py:671-753, with the arguments of the fit, if there is to be
    one. The attributes [X_train_all_] and [y_train_all_] are not kept. *)
Definition append_body (c : config) (a : append_args) (kw : option fit_kw) : meth unit :=
  let fit_gpr := match kw with Some _ => true | None => false end in
  let fit_classifier := a_classifier a || fit_gpr in
  let* (X, y, force) :=
    (match a_X a, a_y a with
     | None, None => match a_noise a with NoNoise => ret ([], [], fit_gpr) | _ => raise ValueError end
     | Some X, Some y => ret (X, y, false)
     | _, _ => raise ValueError
     end) in
  let* g0 := get in
  let* noise_valid := lift (validate_noise_level (g_noise g0) (a_noise a) (length y)) in
  let* _ := modify (set_nlast (length y)) in
  if negb (dim_ok e X) then raise ValueError else
  let* _ := modify (fun g => set_all (g_Xall g ++ X) (g_yall g ++ y) g) in
  let* g1 := get in
  let* nz := lift (update_noise_level (g_noise g1) noise_valid (length (g_yall g1))) in
  let* _ := modify (set_noise nz) in
  let* (finite, thr) := lift (classify c (g_yall g1)) in
  let* Xf := (if c_classifier c then lift (masked finite (g_Xall g1)) else ret (g_Xall g1)) in
  let yf := mask finite (g_yall g1) in
  let* _ := (if fit_classifier then
               let* g := get in
               let* pX := lift (fitX e (g_pX g) Xf yf) in
               let* _ := modify (set_pX pX) in
               let* pY := lift (fitY e (g_pY g) Xf yf) in
               modify (set_pY pY)
             else ret tt) in
  let* g2 := get in
  let* Xall_ := lift (trX e (g_pX g2) (g_Xall g2)) in
  let* yall_ := lift (trY e (g_pY g2) (g_yall g2)) in
  let* noise_ := lift (scaleY e (g_pY g2) (noise_array (g_noise g2) (length yall_))) in
  let* _ := modify (set_noise_ (Some noise_)) in
  let* _ := (if c_classifier c && fit_classifier then
               let* thr_ := lift (scaleY1 e (g_pY g2) thr) in
               let* g := get in
               let '(s, r) := svm_fit (svc_train e) (g_svm g) Xall_ yall_ thr_ in
               let* _ := modify (set_svm s) in
               let* l := lift r in
               if bool_list_eqb finite l then ret tt else raise AssertionError
             else ret tt) in
  let last := if c_classifier c then py_last (length y) finite else repeat true (length y) in
  let nfin := count_true last in
  let* _ := modify (set_nlastfin nfin) in
  if (nfin =? 0) && negb force then ret tt
  else
    let* _ := modify (set_train Xf yf) in
    let* g3 := get in
    let* X_ := lift (trX e (g_pX g3) Xf) in
    let* _ := modify (set_X_ (Some X_)) in
    let* y_ := lift (trY e (g_pY g3) yf) in
    let* _ := modify (set_y_ (Some y_)) in
    let* al := lift (masked finite noise_) in
    let* _ := modify (set_alpha (Some (map (fun v => nmul v v) al))) in
    let* _ := modify (set_newinv nfin) in
    let* _ := (match kw with
               | Some k => fit_gpr_hyperparameters c k
               | None => update_model
               end) in
    let* g4 := get in
    let* b := lift (trust_region e (g_X g4) (g_y g4)) in
    modify (fun g => match b with Some _ => set_trust b g | None => g end).
(** [append_to_data], gpry/gpr.py:577-753; lines 650-670 are about [fit_gpr]. *)
Definition append_to_data (c : config) (a : append_args) : meth unit :=
  match a_fit a with
  | FBad => raise ValueError
  | _ => append_body c a (kwargs (a_default a) (a_fit a))
  end.

(** ** Reports *)
(** [n], [n_total], gpry/gpr.py:404-432 ([SVM.n or n]). *)
Definition n_finite (g : gpr) : nat := length (g_y g).
Definition svm_n (s : svm pt_ model) : nat := match s_data s with None => 0 | Some (_, y) => length y end.
Definition n_total (c : config) (g : gpr) : nat :=
  if c_classifier c then (if svm_n (g_svm g) =? 0 then n_finite g else svm_n (g_svm g)) else n_finite g.
(** [last_appended_finite], [last_appended], gpry/gpr.py:460-475. *)
Definition last_appended_finite (g : gpr) : list pt * list num :=
  (py_last (g_nlastfin g) (g_X g), py_last (g_nlastfin g) (g_y g)).
Definition last_appended (c : config) (g : gpr) : list pt * list num :=
  if c_classifier c
  then (py_last (g_nlast g) (g_Xall g), py_last (g_nlast g) (g_yall g))
  else last_appended_finite g.

(** ** Histories of public calls that return *)
Inductive op := OAppend (a : append_args) | OFit (kw : fit_kw).
Definition step (c : config) (o : op) (g : gpr) : gpr * res unit :=
  match o with OAppend a => append_to_data c a g | OFit kw => fit_gpr_hyperparameters c kw g end.
Inductive runs (c : config) : gpr -> list op -> gpr -> Prop :=
| runs_nil g : runs c g [] g
| runs_cons g o g' os g'' : step c o g = (g', Ok tt) -> runs c g' os g'' -> runs c g (o :: os) g''.
End Gpr.
Arguments data : clear implicits. Arguments env : clear implicits. Arguments config : clear implicits.
Arguments cache : clear implicits. Arguments gpr : clear implicits. Arguments fit_kw : clear implicits.
Arguments fit_arg : clear implicits. Arguments append_args : clear implicits. Arguments op : clear implicits.
Arguments meth : clear implicits.

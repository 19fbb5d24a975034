(** Model of gpry/convergence.py and of Runner._check_convergence_parallel. Model definitions
    only. *)
From Verif Require Export MTools.

(** ** Policies *)
(** [str.lower] on the ASCII letters. *)
Definition lower_char (c : ascii) : ascii :=
  let n := nat_of_ascii c in if (65 <=? n) && (n <=? 90) then ascii_of_nat (n + 32) else c.
Fixpoint lower (s : string) : string :=
  match s with EmptyString => EmptyString | String c s' => String (lower_char c) (lower s') end.
(** gpry/convergence.py:21-27 *)
Definition all_policies : list string := ["n"; "s"; "ns"; "m"]%string.
Definition default_policy : string := "n"%string.
(** [_set_convergence_policy], gpry/convergence.py:147-160: the "policy" entry of the parameters, if any
    (a value that is not a string has no [lower]). *)
Definition set_policy (p : option pyvalue) : res string :=
  match p with
  | None => Ok default_policy
  | Some (PStr s) =>
      if existsb (String.eqb (lower s)) all_policies then Ok (lower s) else Err ValueError
  | Some _ => Err ValueError
  end.

(** ** One check in several processes, gpry/convergence.py:180-202 [is_converged_MPIwrapped] *)
(** What a process ends with; [Hangs]: waiting for a process that left the collective. *)
Inductive outcome := Returned (b : bool) | Raised (e : exn) | Hangs.
Definition is_check_error (e : exn) : bool := match e with ConvergenceCheckError => true | _ => false end.
(** [results r] is what [is_converged] gives in process [r], which calls it if the criterion is
    MPI-aware or [r] is 0. *)
Definition takes_part (aware : bool) (r : nat) : bool := aware || (r =? 0).
Definition failed (aware : bool) (results : nat -> res bool) (r : nat) : bool :=
  takes_part aware r &&
  match results r with Err e => is_check_error e | Ok _ => false end.
Definition crashed (aware : bool) (results : nat -> res bool) (r : nat) : option exn :=
  if takes_part aware r then
    match results r with Err e => if is_check_error e then None else Some e | Ok _ => None end
  else None.
Definition is_converged_MPIwrapped (aware : bool) (size : nat) (results : nat -> res bool) (r : nat)
    : outcome :=
  match crashed aware results r with
  | Some e => Raised e
  | None =>
      if existsb (fun q => match crashed aware results q with Some _ => true | None => false end) (seq 0 size)
      then Hangs
      else if existsb (failed aware results) (seq 0 size) then Raised ConvergenceCheckError
      else match results 0 with Ok b => Returned b | Err e => Raised e end
  end.

(** ** Runner._check_convergence_parallel, gpry/run.py:1303-1333 *)
(** [checks]: for each criterion its policy and what its wrapped check gives (in this process);
    an error other than ConvergenceCheckError propagates. *)
Record acc := mkAcc { all_necessary : bool; n_necessary : nat; any_sufficient : bool; n_sufficient : nat }.
Definition count_check (a : acc) (policy : string) (b : bool) : acc :=
  let p := lower policy in
  let a := if has_char "n" p then mkAcc (all_necessary a && b) (S (n_necessary a)) (any_sufficient a) (n_sufficient a) else a in
  if has_char "s" p then mkAcc (all_necessary a) (n_necessary a) (any_sufficient a || b) (S (n_sufficient a)) else a.
Fixpoint check_loop (a : acc) (checks : list (string * res bool)) : res acc :=
  match checks with
  | [] => Ok a
  | (p, r) :: checks' =>
      do b <- match r with
              | Ok b => Ok b
              | Err e => if is_check_error e then Ok false else Err e
              end;
      check_loop (count_check a p b) checks'
  end.
Definition check_convergence (checks : list (string * res bool)) : res bool :=
  do a <- check_loop (mkAcc true 0 false 0) checks;
  Ok (if (n_necessary a =? 0) && (n_sufficient a =? 0) then false
      else all_necessary a && (any_sufficient a || (n_sufficient a =? 0))).

(** ** Histories: the value of the criterion, gp.n_total and gp.n at each call *)
Record history := mkHist { values : list num; n_posterior_evals : list nat; n_accepted_evals : list nat }.
Definition empty_history := mkHist [] [] [].
Definition record (h : history) (v : num) (n_total n : nat) : history :=
  mkHist (values h ++ [v]) (n_posterior_evals h ++ [n_total]) (n_accepted_evals h ++ [n]).

(** ** DontConverge, gpry/convergence.py:226-255 *)
Definition dont_converge_policy : res string := set_policy (Some (PStr "n")).
Definition dont_converge (h : history) (n_total n : nat) : history * res bool :=
  (record h NaN n_total n, Ok false).

(** ** GaussianKL and its subclasses *)
(** The Gaussian approximation (mean and covariance) of a sample or of the training set is a value
    of [M]; [kl m1 m2] is [kl_norm] (or the credibility of TrainAlignment, before the cap of line
    731), which may raise. *)
Section KL.
Variable M : Type.
Variable kl : M -> M -> res num.

Record klcrit := mkKL { last_mc : option M; hist : history }.
Definition new_kl := mkKL None empty_history.

(** What a call is given: the new mean and covariance ([_get_new_mean_and_cov]: it may raise
    ConvergenceCheckError, or anything else), those of the training set (subclasses), and the
    numbers of points of the surrogate. *)
Record klcall := mkCall { new_mc : res M; train_mc : res M; c_total : nat; c_n : nat }.
Definition fail_record (c : klcrit) (k : klcall) (m : option M) : klcrit * res num :=
  (mkKL m (record (hist c) NaN (c_total k) (c_n k)), Err ConvergenceCheckError).

(** [GaussianKL.criterion_value], gpry/convergence.py:466-508. *)
Definition gaussian_kl_value (c : klcrit) (k : klcall) : klcrit * res num :=
  match new_mc k with
  | Err e => if is_check_error e then fail_record c k (last_mc c) else (c, Err e)
  | Ok new =>
      match last_mc c with
      | None => fail_record c k (Some new)
      | Some old =>
          match kl new old with
          | Err _ => fail_record c k (Some new)
          | Ok v => if nltb v (nz 0) then fail_record c k (Some new)
                    else (mkKL (Some new) (record (hist c) v (c_total k) (c_n k)), Ok v)
          end
      end
  end.
(** [GaussianKLTrain.criterion_value], lines 597-640, and [TrainAlignment.criterion_value], lines
    704-752 ([cap] is [max(eps, 1e-3)] there, the identity otherwise). *)
Definition train_value (cap : num -> num) (c : klcrit) (k : klcall) : klcrit * res num :=
  match new_mc k with
  | Err e => if is_check_error e then fail_record c k (last_mc c) else (c, Err e)
  | Ok new =>
      match train_mc k with
      | Err _ => fail_record c k (last_mc c)
      | Ok tr =>
          match kl new tr with
          | Err _ => fail_record c k (Some new)
          | Ok v => if nltb v (nz 0) then fail_record c k (Some new)
                    else let v := cap v in
                         (mkKL (Some new) (record (hist c) v (c_total k) (c_n k)), Ok v)
          end
      end
  end.
(** [is_converged], lines 510-519 (inherited): [self.values[-limit_times:]], all below the limit. *)
Definition all_small (limit : num) (l : list num) : bool := forallb (fun v => nltb (nabs v) limit) l.
Definition kl_is_converged (value : klcrit -> klcall -> klcrit * res num) (limit : num) (limit_times : nat)
    (c : klcrit) (k : klcall) : klcrit * res bool :=
  let '(c', r) := value c k in
  (c', do _ <- r; Ok (all_small limit (py_last limit_times (values (hist c'))))).
End KL.
Arguments mkKL {M}. Arguments last_mc {M}. Arguments hist {M}. Arguments new_kl {M}.
Arguments mkCall {M}. Arguments new_mc {M}. Arguments train_mc {M}. Arguments c_total {M}. Arguments c_n {M}.
Arguments gaussian_kl_value {M}. Arguments train_value {M}. Arguments kl_is_converged {M}.

(** ** CorrectCounter, gpry/convergence.py:755-879 *)
(** [max_diff], [max_thres] and [max_val] of lines 849-866. *)
Record counter_state := mkCC { n_pred : nat; cc_hist : history; cc_thres : list num }.
Definition new_counter := mkCC 0 empty_history [].
Section Counter.
Variables reltol abstol : num.
Definition tolerance (y_max yn : num) : num := nadd (nmul (nabs (nsub yn y_max)) reltol) abstol.
Record batch_acc := mkBA { b_pred : nat; max_val : num; max_diff : num; max_thres : num }.
Definition count_point (y_max : num) (a : batch_acc) (p : num * num) : batch_acc :=
  let '(yn, yl) := p in
  if neqb yn NInf then a
  else
    let diff := nabs (nsub yl yn) in
    let thres := tolerance y_max yn in
    let a := if nltb (max_val a) (ndiv diff thres)
             then mkBA (b_pred a) (ndiv diff thres) diff thres else a in
    mkBA (if nltb diff thres then S (b_pred a) else 0) (max_val a) (max_diff a) (max_thres a).
(** [criterion_value] and [is_converged], lines 841-872: [y_max], [n_total] and [n] are those of the
    surrogate. Appending [self.values[-1]] of an empty history raises IndexError, after the points
    have been counted (there are none then). *)
Definition counter_is_converged (n_correct : num) (c : counter_state) (new_y pred_y : list num)
    (y_max : num) (n_total n : nat) : counter_state * res bool :=
  if negb (length new_y =? length pred_y) then (c, Err AssertionError)
  else
    let a := fold_left (count_point y_max) (combine new_y pred_y) (mkBA (n_pred c) (nz 0) (nz 0) (nz 0)) in
    match new_y, rev (values (cc_hist c)), rev (cc_thres c) with
    | [], v :: _, t :: _ =>
        (mkCC (b_pred a) (record (cc_hist c) v n_total n) (cc_thres c ++ [t]),
         Ok (nltb n_correct (nz (Z.of_nat (b_pred a)))))
    | [], _, _ => (c, Err IndexError)
    | _ :: _, _, _ =>
        (mkCC (b_pred a) (record (cc_hist c) (max_diff a) n_total n) (cc_thres c ++ [max_thres a]),
         Ok (nltb n_correct (nz (Z.of_nat (b_pred a)))))
    end.
End Counter.

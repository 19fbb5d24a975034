(** Model of how GaussianKL gets the Gaussian approximation of the surrogate posterior when the acquisition engine has no sample of its own:
    [GaussianKL._get_new_mean_and_cov] and [_get_new_mean_and_cov_from_mc], gpry/convergence.py:330-432, in one process (the collective
    operations are in MColl). Definitions only. *)
From Verif Require Export MConv.

Section Reuse.
(** Approximations (mean and covariance), Monte Carlo samples, surrogates. *)
Context {M S G : Type}.
(** [kl_norm]: it raises only the LinAlgError of a matrix that cannot be inverted. *)
Variable kl : M -> M -> res num.
(** Lines 375-386: mean and covariance of an earlier sample with new weights, those of this surrogate. *)
Variable reweighted : G -> S -> res M.
(** [_sample_mcmc], lines 434-482, raises ConvergenceCheckError if the sampler fails; [samples.mean(), samples.cov()]. *)
Variable sample : G -> option M -> res S.
Variable mean_cov : S -> M.
(** [limit], [max_reused], lines 295, 319. *)
Variable limit : num.
Variable max_reused : nat.

(** The attributes: [mean], [cov] and the histories; [n_reused], [_last_collection], [thres]. *)
Record state := mkSt { crit : klcrit M; n_reused : nat; last_collection : option S; thres : list num }.
Definition new_state := mkSt new_kl 0 None [].

(** Python's [max] of a list: raises ValueError if it is empty. *)
Definition py_max (l : list num) : res num := match l with [] => Err ValueError | x :: l' => Ok (fold_left pymax l' x) end.
(** [l[-1]] *)
Definition py_end (l : list num) : res num := match rev l with [] => Err IndexError | x :: _ => Ok x end.

(** Lines 388-398: the larger of both divergences; with no earlier approximation [np.linalg.inv(None)] raises LinAlgError. *)
Definition kl_reweight (new : M) (old : option M) : res num :=
  match old with
  | None => Err ConvergenceCheckError
  | Some old =>
      match kl new old, kl old new with
      | Ok a, Ok b => Ok (pymax a b)
      | _, _ => Err ConvergenceCheckError
      end
  end.
(** Lines 399-404. *)
Definition reusable (vs : list num) (n : nat) (k : num) : res bool :=
  do m <- py_max vs;
  let min_kl := if nltb m (nmul (nz 10) limit) then nmul limit (nq 1 100) else nz 0 in
  do max_kl <- py_end vs;
  Ok (nltb min_kl k && nltb k max_kl && (n <? max_reused)).
(** Lines 369-432. The result: the approximation and whether an earlier sample was used for it. *)
Definition from_mc (st : state) (g : G) : state * res (M * bool) :=
  let st := mkSt (crit st) (n_reused st) (last_collection st) (thres st ++ [limit]) in
  let draw c :=
    match sample g c with
    | Err x => (st, Err x)
    | Ok s => (mkSt (crit st) (n_reused st) (Some s) (thres st), Ok (mean_cov s, false))
    end in
  match last_collection st with
  | None => draw None
  | Some s =>
      match (do r <- reweighted g s;
             do k <- kl_reweight r (last_mc (crit st));
             do b <- reusable (values (hist (crit st))) (n_reused st) k;
             Ok (r, b)) with
      | Err x => (st, Err x)
      | Ok (r, true) => (mkSt (crit st) (1 + n_reused st) (last_collection st) (thres st), Ok (r, true))
      | Ok (r, false) => draw (Some r)
      end
  end.

(** One check: what the acquisition engine gives (None: it has no sample, AttributeError), the surrogate, the numbers of points. *)
Record request := mkReq { from_acquisition : option (res M); surrogate : G; q_train : res M; q_total : nat; q_n : nat }.
(** Lines 330-338. *)
Definition new_mean_cov (st : state) (q : request) : state * res (M * bool) :=
  match from_acquisition q with
  | Some r => (st, do m <- r; Ok (m, false))
  | None => from_mc st (surrogate q)
  end.
(** [is_converged] with [value] one of the [criterion_value]s of MConv. The results: the verdict, and whether an earlier sample was used. *)
Definition check (value : klcrit M -> klcall M -> klcrit M * res num) (limit_times : nat) (st : state) (q : request) : state * res bool * bool :=
  let (st1, r) := new_mean_cov st q in
  let k := mkCall (do x <- r; Ok (fst x)) (q_train q) (q_total q) (q_n q) in
  let (c, v) := kl_is_converged value limit limit_times (crit st1) k in
  (mkSt c (n_reused st1) (last_collection st1) (thres st1), v, match r with Ok (_, b) => b | Err _ => false end).
(** Checks one after another. *)
Fixpoint checks (value : klcrit M -> klcall M -> klcrit M * res num) (limit_times : nat) (st : state) (qs : list request) : state * list (res bool * bool) :=
  match qs with
  | [] => (st, [])
  | q :: qs' =>
      let '(st1, v, b) := check value limit_times st q in
      let (st2, rs) := checks value limit_times st1 qs' in (st2, (v, b) :: rs)
  end.
End Reuse.
Arguments state : clear implicits. Arguments request : clear implicits.

(** Specification vocabulary for the convergence properties (C40-C45, C68). *)
From Verif Require Export MConv.

(** What the four documented policies mean. *)
Definition is_necessary (p : string) : Prop := p = "n"%string \/ p = "ns"%string.
Definition is_sufficient (p : string) : Prop := p = "s"%string \/ p = "ns"%string.
Definition is_monitor (p : string) : Prop := p = "m"%string.
Definition is_policy (p : string) : Prop := is_necessary p \/ is_sufficient p \/ is_monitor p.
(** A check that gave a verdict or failed in the documented way. *)
Definition verdict_or_failure (r : res bool) : Prop :=
  (exists b, r = Ok b) \/ r = Err ConvergenceCheckError.

(** A property of the last [k] elements of a list (there must be as many). *)
Definition last_all {A} (k : nat) (P : A -> Prop) (l : list A) : Prop :=
  exists pre suf, l = pre ++ suf /\ length suf = k /\ Forall P suf.

(** One iteration seen by CorrectCounter: true values, predictions, maximum of the surrogate,
    number of evaluations and of those accepted. *)
Record batch := mkBatch { new_y : list num; pred_y : list num; gp_y_max : num; gp_total : nat; gp_n : nat }.
(** The finite points of an iteration in order, as (true value, prediction, maximum). *)
Definition finite_points (b : batch) : list (num * num * num) :=
  map (fun p => (p, gp_y_max b))
      (filter (fun p => negb (neqb (fst p) NInf)) (combine (new_y b) (pred_y b))).
(** |prediction - truth| < |truth - maximum| * reltol + abstol *)
Definition within (reltol abstol : num) (p : num * num * num) : Prop :=
  let '(truth, prediction, y_max) := p in
  nltb (nabs (nsub prediction truth))
       (nadd (nmul (nabs (nsub truth y_max)) reltol) abstol) = true.
(** Successive calls of the criterion; the results of all of them. *)
Fixpoint counter_run (reltol abstol n_correct : num) (c : counter_state) (bs : list batch)
    : counter_state * list (res bool) :=
  match bs with
  | [] => (c, [])
  | b :: bs' =>
      let '(c1, r) := counter_is_converged reltol abstol n_correct c (new_y b) (pred_y b) (gp_y_max b)
                        (gp_total b) (gp_n b) in
      let '(c2, rs) := counter_run reltol abstol n_correct c1 bs' in (c2, r :: rs)
  end.

Section KL.
Context {M : Type}.
Fixpoint kl_run (value : klcrit M -> klcall M -> klcrit M * res num) (limit : num) (limit_times : nat)
    (c : klcrit M) (ks : list (klcall M)) : klcrit M * list (res bool) :=
  match ks with
  | [] => (c, [])
  | k :: ks' =>
      let '(c1, r) := kl_is_converged value limit limit_times c k in
      let '(c2, rs) := kl_run value limit limit_times c1 ks' in (c2, r :: rs)
  end.
(** Calls that only fail with ConvergenceCheckError. *)
Definition only_check_errors (ks : list (klcall M)) : Prop :=
  Forall (fun k => forall e, new_mc k = Err e -> e = ConvergenceCheckError) ks.
(** The Gaussian approximation of the last call that could compute one. *)
Fixpoint latest (ks : list (klcall M)) : option M :=
  match ks with
  | [] => None
  | k :: ks' => match latest ks' with
                | Some m => Some m
                | None => match new_mc k with Ok m => Some m | Err _ => None end
                end
  end.
(** The value expected for call [k] after the calls [before]: the divergence with respect to the
    latest approximation, NaN if it is undefined or negative. *)
Definition expected_kl (kl : M -> M -> res num) (before : list (klcall M)) (k : klcall M) : num :=
  match new_mc k, latest before with
  | Ok new, Some old => match kl new old with
                        | Ok v => if nltb v (nz 0) then NaN else v
                        | Err _ => NaN
                        end
  | _, _ => NaN
  end.
Definition small (limit v : num) : Prop := nltb (nabs v) limit = true.
End KL.

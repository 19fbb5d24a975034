(** Model of gpry/gp_acquisition.py: class NORA, lines 584-1191 (proposals ranked from a nested sample of the
    surrogate). Definitions only.

    What the nested sampler returns is an argument of each call ([run] of the interfaces is in MNs). The surrogate of
    a call is given by its predictions, the acquisition function by its values; [np.exp] is a parameter. Logging and
    timing are left out. A communicator is given by its size ([world] of MMpi). *)
From Verif Require Import Base Num MTools MMpi MPool.

Section Nora.
Variable expf : num -> num.
Variable argsort : list num -> list nat.

Definition point := list num.

(** The surrogate of a call: predicted mean and standard deviation at a point ([gpr.predict(X, return_std=True)]),
    standard deviation of a copy with some points appended ([predict_std], see MPool), and the acquisition function
    of a mean and a standard deviation ([acq_func_y_sigma], lines 1039-1041). *)
Record surrogate := mkSurr {
  s_mean : point -> num; s_sigma : point -> num;
  s_std : list (point * num) -> point -> num; s_acq : num -> num -> num }.

(** A sample: the four attributes [_X_mc], [_y_mc], [_sigma_y_mc], [_w_mc] (or those with suffix [_reweight]). *)
Record sample := mkSample { m_X : list point; m_y : option (list num); m_sigma : option (list num); m_w : option (list num) }.

(** The state: [mc_every_i], the stored and the re-weighted sample (None: all attributes None),
    [is_last_MC_reweighted], and [_X_already_proposed] (None: not set). *)
Record nora := mkNora {
  n_i : nat; n_mc : option sample; n_re : option sample; n_flag : option bool; n_prop : option (list point) }.
(** [__init__], lines 606-642. *)
Definition new_nora : nora := mkNora 0 None None None None.

(** [update_NS_precision], lines 684-699: the number of live points. *)
Definition nlive (per_training n_train maximum : Z) : Z := Z.min (per_training * n_train) maximum.

(** What the samplers see of the surrogate: PolyChord (lines 769-771) and Nessai (826-830) the prediction, UltraNest
    (787-796) the prediction with -1e-300 in place of -infinity. [tiny] is that number. *)
Definition polychord_logp (s : surrogate) (x : point) : num := s_mean s x.
Definition ultranest_logp (tiny : num) (s : surrogate) (x : point) : num :=
  if neqb (s_mean s x) NInf then tiny else s_mean s x.

(** The same with the attribute [minus_inf_value] of the surrogate, as it is after the call: [predict] is what predictions
    are with a value of it. *)
Definition ultranest_call (tiny miv : num) (predict : num -> res num) : num * res num :=
  match predict tiny with Ok v => (miv, Ok v) | Err x => (tiny, Err x) end.

(** [_set_MC_sample(..., ensure_y_sigma_y=True)], lines 858-873. The samplers return no [y]. *)
Definition set_MC_sample (w : world) (s : surrogate) (X : list point) (ws : option (list num)) (n : nora) : nora * res unit :=
  let stored y sg := mkNora (n_i n) (Some (mkSample X y sg ws)) (n_re n) (Some false) (n_prop n) in
  match compute_y_parallel (s_mean s) (s_sigma s) w X None None true with
  | Ok (y, sg) => (stored (Some y) sg, Ok tt)
  | Err x => (stored None None, Err x)
  end.

(** Python's [max] of an array. *)
Definition pymax_list (l : list num) : res num :=
  match l with [] => Err ValueError | x :: l => Ok (fold_left pymax l x) end.

(** [_reweight_last_MC_sample(ensure_sigma_y=True)], lines 875-919. [b] is the test of the bounds, if given. *)
Definition reweight (w : world) (s : surrogate) (b : option (point -> bool)) (n : nora) : nora * res unit :=
  let flagged re := mkNora (n_i n) (n_mc n) re (Some true) (n_prop n) in
  match n_mc n with
  | None => (flagged (n_re n), Err ValueError)                                          (* 879-883 *)
  | Some mc =>
  match m_y mc with
  | None => (flagged (n_re n), Err ValueError)                                          (* 884-888 *)
  | Some y_mc =>
      let within := match b with Some b => map b (m_X mc) | None => map (fun _ => true) (m_X mc) end in
      let X := mask within (m_X mc) in
      match compute_y_parallel (s_mean s) (s_sigma s) w X None None true with
      | Err x => (flagged (n_re n), Err x)
      | Ok (y, sg) =>
          let y_old := mask within y_mc in
          let w_old := match m_w mc with Some v => mask within v | None => map (fun _ => nz 1) X end in
          let w_new := map2 nmul w_old (map2 (fun a b => expf (nsub a b)) y y_old) in
          let broken := flagged (Some (mkSample X (Some y) sg (match n_re n with Some r => m_w r | None => None end))) in
          match pymax_list w_new with
          | Err x => (broken, Err x)
          | Ok m =>
              let w_norm := map (fun v => ndiv v m) w_new in
              let keep := map (fun v => negb (neqb v (nz 0))) w_norm in                 (* remove_0_weight_samples *)
              (flagged (Some (mkSample (mask keep X) (Some (mask keep y)) (option_map (mask keep) sg) (Some (mask keep w_norm)))), Ok tt)
          end
      end
  end end.

(** [last_MC_sample], lines 921-944 (without [copy]). *)
Definition last_MC_sample (n : nora) : option sample := match n_flag n with Some true => n_re n | _ => n_mc n end.

(** Lines 1024-1038: for each point already proposed, the first row of the sample all of whose coordinates are among
    those of the point is deleted ([np.isin] on coordinates). *)
Definition isin_row (p r : point) : bool := forallb (fun v => existsb (neqb v) p) r.
Definition indices_already (prop X : list point) : list nat :=
  flat_map (fun p => match find_idx (isin_row p) X with Some i => [i] | None => [] end) prop.
Definition delete {A} (idx : list nat) (l : list A) : list A :=
  mask (map (fun i => negb (existsb (Nat.eqb i) idx)) (seq 0 (length l))) l.
Definition exclude {A} (prop X : list point) (l : list A) : list A :=
  match prop with [] => l | _ => delete (indices_already prop X) l end.

(** [_split_and_compute_acq] (1110-1127) and the pool of process [r] (1129-1146). *)
Definition zero_point : point := [].
Definition rank_pool (size : nat) (s : surrogate) (np : nat) (X : list point) (y sg : list num) (r : nat) : res (pool point) :=
  let y' := step_split size r y in
  let sg' := step_split size r sg in
  add (s_std s) (s_mean s) (s_acq s) argsort (new_pool zero_point np) (step_split size r X) (Some y') (Some sg')
    (Some (map2 (s_acq s) y' sg')) SortAcq.
(** [_gather_pools] (1148-1171), [_merge_pools] (1173-1191). *)
Definition gathered {A} (f : pool point -> list A) (ps : list (pool point)) : list A :=
  mask (map isfin (concat (map (fun p => firstn (plen p) (pacqc p)) ps)))
       (concat (map (fun p => firstn (plen p) (f p)) ps)).
Definition merge_pools (size : nat) (s : surrogate) (np : nat) (ps : list (pool point)) : res (pool point) :=
  if size <=? 1 then match ps with p :: _ => Ok p | [] => Err IndexError end
  else add (s_std s) (s_mean s) (s_acq s) argsort (new_pool zero_point np)
         (gathered pX ps) (Some (gathered py ps)) (Some (gathered psig ps)) (Some (gathered pacq ps)) Bulk.
(** Lines 1046-1099: the ranked proposals: points, means, acquisition values. *)
Definition rank (w : world) (s : surrogate) (np : nat) (X : list point) (y sg : list num)
  : res (list point * list num * list num) :=
  let size := wsize w in
  do ps <- mapM (rank_pool size s np X y sg) (seq 0 size);
  do p <- merge_pools size s np ps;
  let q := copy_pool p true in
  let yq := firstn np (py q) in
  Ok (firstn np (pX q), yq, map2 (s_acq s) yq (firstn np (psig q))).

(** What happens outside in a call: the sampler raises, or returns points and weights (None: all 1). *)
Definition ns_result := res (list point * option (list num)).

(** [multi_add], lines 971-1108. Also returned: whether the sampler was called. [every] is [mc_every]. *)
Definition multi_add (w : world) (every : nat) (s : surrogate) (np : nat) (b : option (point -> bool)) (force : bool)
  (ns : ns_result) (n : nora) : nora * bool * res (list point * list num * list num) :=
  if np =? 0 then (n, false, Err ValueError)
  else if every =? 0 then (n, false, Err ZeroDivisionError)
  else
    let sampled := (n_i n mod every =? 0) || force in
    let '(n1, r1) :=
      if sampled then
        match ns with
        | Err x => (n, Err x)
        | Ok (X, ws) =>
            let '(n1, r1) := set_MC_sample w s X ws n in
            match r1 with
            | Ok _ => (mkNora (n_i n1) (n_mc n1) (n_re n1) (n_flag n1) (Some []), Ok tt)
            | Err x => (n1, Err x)
            end
        end
      else reweight w s b n in
    match r1 with
    | Err x => (n1, sampled, Err x)
    | Ok _ =>
        let n2 := mkNora (S (n_i n1)) (n_mc n1) (n_re n1) (n_flag n1) (n_prop n1) in
        match last_MC_sample n2, n_prop n2 with
        | Some (mkSample X (Some y) (Some sg) _), Some prop =>
            match rank w s np (exclude prop X X) (exclude prop X y) (exclude prop X sg) with
            | Err x => (n2, sampled, Err x)
            | Ok (Xp, yp, ap) =>
                (mkNora (n_i n2) (n_mc n2) (n_re n2) (n_flag n2) (Some (prop ++ Xp)), sampled, Ok (Xp, yp, ap))
            end
        | _, None => (n2, sampled, Err AttributeError)
        | _, _ => (n2, sampled, Err TypeError)
        end
    end.

(** A history of calls. *)
Record call := mkCall {
  k_surr : surrogate; k_np : nat; k_bounds : option (point -> bool); k_force : bool; k_ns : ns_result }.
Definition do_call (w : world) (every : nat) (k : call) (n : nora) :=
  multi_add w every (k_surr k) (k_np k) (k_bounds k) (k_force k) (k_ns k) n.
Fixpoint history (w : world) (every : nat) (ks : list call) (n : nora)
  : nora * list (bool * res (list point * list num * list num)) :=
  match ks with
  | [] => (n, [])
  | k :: ks =>
      let '(n1, sampled, r) := do_call w every k n in
      let '(n2, l) := history w every ks n1 in
      (n2, (sampled, r) :: l)
  end.
End Nora.

(** Model of the [Runner] of gpry/run.py: its options, the initial training, the parallel fit and the
    main loop. Model definitions only.

    All processes are modelled together: they hold the same state between collective operations, and an
    exception in any process ends the run. What comes from outside (proposals, values of the true
    posterior, random draws, results of the convergence criteria and of the Monte Carlo diagnosis,
    exceptions of the parts that are not modelled) is an arbitrary stream of inputs. *)
From Verif Require Export MGpr MConv MMpi.

(** ** Options *)
(** The options that are numbers, as given: [None] when absent or [None]. *)
Record raw_options := mkRaw {
  w_n_initial : option pyvalue; w_max_initial : option pyvalue; w_max_total : option pyvalue;
  w_max_finite : option pyvalue; w_npa : option pyvalue; w_full : option pyvalue;
  w_simple : option pyvalue; w_giveup : option pyvalue }.
Record options := mkOptions {
  o_n_initial : nat; o_max_initial : nat; o_max_total : nat; o_max_finite : nat;
  o_npa : nat; o_full : nat; o_simple : nat; o_giveup : Z }.
(** [int(x)] for a float: truncation. *)
Definition py_int (x : num) : res Z :=
  match x with
  | NaN => Err ValueError
  | Fin q => Ok (Z.quot (Qnum q) (Zpos (Qden q)))
  | _ => Err OverflowError
  end.
(** Lines 543-551 for one attribute; [np.round] of an integer is itself. *)
Definition sane (v : Z) : res nat :=
  let v := Z.min 1000000000 v in
  if (v <=? 0)%Z then Err ValueError else Ok (Z.to_nat v).
Section Options.
Variable pyfloat : string -> option num.
Variable pow : num -> num -> num.
(** [_get_opt], lines 524-530. The defaults are numbers, which [get_Xnumber] truncates: they are given
    already truncated ([int(a sqrt(b))] as the integer square root of [a^2 b]). *)
Definition get_opt (d : nat) (v : option pyvalue) (default : Z) : res Z :=
  match v with
  | None => Ok default
  | Some v => get_Xnumber pyfloat pow Z py_int v "d"%char (nz (Z.of_nat d))
  end.
(** [_construct_options], gpry/run.py:521-592, for dimension [d] and [size] processes. *)
Definition construct_options (d size : nat) (w : raw_options) : res options :=
  let dz := Z.of_nat d in
  do n_initial <- get_opt d (w_n_initial w) (3 * dz);
  let n_initial := Z.max n_initial 2 in
  do max_initial <- get_opt d (w_max_initial w) (Z.sqrt (900 * dz ^ 3));
  do max_total <- get_opt d (w_max_total w) (Z.max max_initial (Z.sqrt (4900 * dz ^ 3)));
  do max_finite <- get_opt d (w_max_finite w) max_total;
  do npa <- get_opt d (w_npa w) dz;
  do full <- get_opt d (w_full w) (Z.sqrt (4 * dz));
  do simple <- get_opt d (w_simple w) 1%Z;
  do giveup <- get_opt d (w_giveup w) 2%Z;
  do n_initial <- sane n_initial;
  do max_initial <- sane max_initial;
  do max_finite <- sane max_finite;
  do max_total <- sane max_total;
  do npa <- sane npa;
  do full <- sane (Z.max full 1);
  do simple <- sane (Z.max simple 1);
  if max_initial <? n_initial then Err ValueError
  else if max_finite <? n_initial then Err ValueError
  else if max_total <? max_initial then Err ValueError
  else if max_total <? max_finite then Err ValueError
  else if size =? 0 then Err ZeroDivisionError
  else
    let rest := npa mod size in
    let npa := if (5 * rest <=? npa) && negb (rest =? 0) then npa - rest else npa in
    Ok (mkOptions n_initial max_initial max_total max_finite npa full simple giveup).
End Options.

Section Run.
Context {pt pt_ PX PY model theta box : Type}.
Variable e : env pt pt_ PX PY model theta box.
Variable c : config theta.
Variable o : options.
(** Number of processes; whether [verbose > 1]; whether the state was read from a checkpoint. *)
Variables (size : nat) (verbose : bool) (loaded : bool).
Notation gpr := (gpr pt pt_ PX PY model theta box).

(** ** The parallel fit *)
(** [np.argmax]: the first NaN if there is one, otherwise the first largest. *)
Fixpoint np_argmax_from (i : nat) (best : nat) (bv : num) (l : list num) : nat :=
  match l with
  | [] => best
  | v :: l' =>
      if isnan bv then best
      else if isnan v || nltb bv v then np_argmax_from (S i) i v l' else np_argmax_from (S i) best bv l'
  end.
Definition np_argmax (l : list num) : res nat :=
  match l with [] => Err ValueError | v :: l' => Ok (np_argmax_from 1 0 v l') end.
(** Line 1253. *)
Definition is_this_iter (iteration every : nat) : bool := iteration mod every =? every - 1.
(** [n_restarts] of every process, lines 1254-1261. *)
Definition restarts_by_rank (iteration : nat) : res (list nat) :=
  if negb (o_full o =? 0) && is_this_iter iteration (o_full o) then split_number (Z.to_nat (c_restarts c)) size
  else Ok (repeat (if negb (o_simple o =? 0) && is_this_iter iteration (o_simple o) then 1 else 0) size).
(** What the draws and kernel bounds of a process are. *)
Record fit_input := mkFit { i_bounds_finite : bool; i_draw : nat -> nat -> theta; i_default : fit_kw theta }.
(** Lines 1248-1251 and 1262-1284 in process [r], given its number of restarts: the surrogate and the
    log-marginal likelihood it offers. *)
Definition fit_rank (i : fit_input) (X : list pt) (y : list num) (g : gpr) (r n : nat) : gpr * res num :=
  if negb (n =? 0) || (r =? 0) then
    let kw := mkKw false (r =? 0) (Some (Z.of_nat n)) (i_bounds_finite i) (i_draw i r) in
    let a := mkAppend (Some X) (Some y) NoNoise (if n =? 0 then FFalse else FKw kw) true (i_default i) in
    match append_to_data e c a g with
    | (g', Ok _) => (g', match g_lml g' with Some v => Ok v | None => Err AttributeError end)
    | (g', Err x) => (g', Err x)
    end
  else (g, Ok NInf).
Fixpoint all_ok {A B} (l : list (A * res B)) : res (list (A * B)) :=
  match l with
  | [] => Ok []
  | (a, r) :: l' => do b <- r; do l2 <- all_ok l'; Ok ((a, b) :: l2)
  end.
(** [_fit_gpr_parallel], gpry/run.py:1238-1301: all processes end with the surrogate of the best one. If
    one raises, the main process is left with its own. *)
Definition fit_gpr_parallel (iteration : nat) (i : fit_input) (X : list pt) (y : list num) (g : gpr)
    : gpr * res unit :=
  match restarts_by_rank iteration with
  | Err x => (g, Err x)
  | Ok ns =>
      let ranks := map (fun p => fit_rank i X y g (fst p) (snd p)) (combine (seq 0 (length ns)) ns) in
      let mine := match ranks with [] => g | p :: _ => fst p end in
      match (do l <- all_ok ranks;
             do b <- np_argmax (map snd l);
             match nth_error l b with Some p => Ok (fst p) | None => Err IndexError end) with
      | Ok best => (best, Ok tt)
      | Err x => (mine, Err x)
      end
  end.

(** ** Initial training *)
(** The points drawn by process [r] in round [i], the [j]-th accepted one (the loop of lines 1120-1137 draws until a
    point is within the prior bounds); the true log-posterior. *)
Record init_input := mkInit { draw_init : nat -> nat -> nat -> pt; truth_init : pt -> num; fit_init : fit_kw theta }.
(** [is_finite] of lines 1080-1089 on [max(y) - y]. *)
Definition init_finite (d : num) : bool :=
  if c_classifier c then forallb (fun b => b) (is_finite_raw [nneg d] (c_diff c) (nz 0)) else isfin d.
Definition count_init (y : list num) : res nat :=
  do m <- pymax_list y; Ok (length (filter (fun v => init_finite (nsub m v)) y)).
Definition init_round (i : init_input) (npp k : nat) : list pt :=
  concat (map (fun r => map (fun j => draw_init i k r j) (seq 0 npp)) (seq 0 size)).
(** The loop of lines 1114-1162: the initial sample, and whether it is enough. *)
Fixpoint init_loop (i : init_input) (needed npp : nat) (k left : nat) (X : list pt) (y : list num)
    : list pt * res (list num * bool) :=
  match left with
  | 0 => (X, Ok (y, false))
  | S left' =>
      let new := init_round i npp k in
      let X := X ++ new in
      let y := y ++ map (truth_init i) new in
      match count_init y with
      | Err x => (X, Err x)
      | Ok n => if needed <=? n then (X, Ok (y, true)) else init_loop i needed npp (S k) left' X y
      end
  end.
Definition ceil_div (a b : nat) : nat := (a + b - 1) / b.
(** [do_initial_training], gpry/run.py:1063-1198: the surrogate, what was evaluated, and whether it
    returns. For no rounds, [finished] is not defined (there is always one: [max_initial] is positive). *)
Definition do_initial_training (i : init_input) (g : gpr) : gpr * list pt * res unit :=
  let pre := length (g_y g) in
  let needed := o_n_initial o - pre in
  let npp := ceil_div needed size in
  if npp =? 0 then (g, [], if verbose then Ok tt else Err ZeroDivisionError)
  else
    let X0 := if 0 <? pre then g_X g else [] in
    let y0 := if 0 <? pre then g_y g else [] in
    let '(X, r) := init_loop i needed npp 0 (ceil_div (o_max_initial o) npp) X0 y0 in
    let evals := skipn (length X0) X in
    match r with
    | Err x => (g, evals, Err x)
    | Ok (y, false) => (g, evals, Err RuntimeError)
    | Ok (y, true) =>
        let '(g', r) := append_to_data e c (mkAppend (Some X) (Some y) NoNoise FTrue true (fit_init i)) g in
        (g', evals, r)
    end.

(** ** The main loop *)
(** What happens, as seen from outside. *)
Inductive event :=
| EvAcquire (n_total n_finite : nat)     (** an acquisition step starts with these numbers of points *)
| EvEval (X : list pt)                   (** the true posterior is evaluated *)
| EvFit (iteration : nat)                (** the new points go into the surrogate *)
| EvVerdict (b : bool)                   (** the convergence check gives [b] *)
| EvDiagnosis (b : bool).                (** a Monte Carlo sample was drawn and diagnosed *)
(** What the outside world does in one pass: the points the acquisition engine returns; which of them
    [check_candidates] lets pass; the true log-posterior; the fits; the callback; the criteria;
    [update_mean_cov]; the Monte Carlo run with its diagnosis; the checkpoint. *)
Record pass_input := mkPass {
  p_acq : res (list pt); p_keep : list bool; p_truth : pt -> num; p_fit : fit_input;
  p_callback : res unit; p_checks : list (string * res bool); p_mean : res unit;
  p_mc : res bool; p_save : res unit }.
Record rstate := mkRun {
  r_gpr : gpr; r_iter : nat; r_resamples : nat; r_converged : bool; r_has_run : bool; r_log : list event }.
Definition with_gpr g s := mkRun g (r_iter s) (r_resamples s) (r_converged s) (r_has_run s) (r_log s).
Definition next_iter s := mkRun (r_gpr s) (S (r_iter s)) (r_resamples s) (r_converged s) (r_has_run s) (r_log s).
Definition with_resamples n s := mkRun (r_gpr s) (r_iter s) n (r_converged s) (r_has_run s) (r_log s).
Definition with_converged b s := mkRun (r_gpr s) (r_iter s) (r_resamples s) b (r_has_run s) (r_log s).
Definition finished s := mkRun (r_gpr s) (r_iter s) (r_resamples s) (r_converged s) true (r_log s).
Definition log v s := mkRun (r_gpr s) (r_iter s) (r_resamples s) (r_converged s) (r_has_run s) (r_log s ++ [v]).

(** The rest of a pass once the points are chosen, lines 929-1024. *)
Definition learn (i : pass_input) (X : list pt) (s : rstate) : rstate * res bool :=
  let s := with_resamples 0 s in
  match eval_truth_parallel size (p_truth i) X with
  | Err x => (s, Err x)
  | Ok (_, y) =>
      let s := log (EvEval X) s in
      let '(g, r) := fit_gpr_parallel (r_iter s) (p_fit i) X y (r_gpr s) in
      let s := log (EvFit (r_iter s)) (with_gpr g s) in
      match (do _ <- r; do _ <- p_callback i; check_convergence (p_checks i)) with
      | Err x => (s, Err x)
      | Ok v =>
          let s := log (EvVerdict v) (with_converged v s) in
          match p_mean i with
          | Err x => (s, Err x)
          | Ok _ =>
              if v then
                match p_mc i with
                | Err x => (s, Err x)
                | Ok passed =>
                    let s := log (EvDiagnosis passed) (if passed then s else with_converged false s) in
                    (s, do _ <- p_save i; Ok false)
                end
              else (s, do _ <- p_save i; Ok false)
          end
      end
  end.
(** One pass, lines 817-1024; the value is whether the loop is left with [break]. *)
Definition one_pass (i : pass_input) (s : rstate) : rstate * res bool :=
  let s := log (EvAcquire (n_total c (r_gpr s)) (n_finite (r_gpr s))) (next_iter s) in
  match (do X <- p_acq i; match X with [] => Ok [] | _ => masked (p_keep i) X end) with
  | Err x => (s, Err x)
  | Ok X =>
      if length X <? Nat.max 1 (o_npa o / 2) then
        let s := with_resamples (S (r_resamples s)) s in
        (s, Ok (o_giveup o <? Z.of_nat (r_resamples s))%Z)
      else learn i X s
  end.
(** The condition of lines 815-816. *)
Definition goes_on (s : rstate) : bool :=
  (n_total c (r_gpr s) <? o_max_total o) && (n_finite (r_gpr s) <? o_max_finite o) && negb (r_converged s).
(** The loop with its [else] branch, lines 815-1060; [inputs k] are those of the [k]-th pass from now,
    [final] the result of the last Monte Carlo run, if it gets there. *)
Fixpoint loop (fuel : nat) (inputs : nat -> pass_input) (final : res bool) (s : rstate) : rstate * res unit :=
  match fuel with
  | 0 => (s, Err OutOfFuel)
  | S fuel' =>
      if goes_on s then
        match one_pass (inputs 0) s with
        | (s', Err x) => (s', Err x)
        | (s', Ok true) => (s', Ok tt)
        | (s', Ok false) => loop fuel' (fun k => inputs (S k)) final s'
        end
      else if r_converged s then (s, Ok tt)
      else match final with
           | Err x => (s, Err x)
           | Ok b => (log (EvDiagnosis b) s, Ok tt)
           end
  end.
(** [run], gpry/run.py:776-1061; [save0] is the first checkpoint. *)
Definition run (fuel : nat) (init : init_input) (save0 : res unit) (inputs : nat -> pass_input)
    (final : res bool) (s : rstate) : rstate * res unit :=
  if r_has_run s then (s, Ok tt)
  else
    let '(s1, r1) :=
      if loaded then (s, Ok tt)
      else let '(g, X, r) := do_initial_training init (r_gpr s) in
           (with_gpr g (match X with [] => s | _ => log (EvEval X) s end), do _ <- r; save0) in
    match r1 with
    | Err x => (s1, Err x)
    | Ok _ =>
        match loop fuel inputs final (with_converged false s1) with
        | (s2, Ok _) => (finished s2, Ok tt)
        | (s2, Err x) => (s2, Err x)
        end
    end.
End Run.
Arguments fit_input : clear implicits. Arguments init_input : clear implicits.
Arguments pass_input : clear implicits. Arguments rstate : clear implicits. Arguments event : clear implicits.

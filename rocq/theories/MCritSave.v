(** Model of copying and saving GaussianKL: [__getstate__] and [__deepcopy__], gpry/convergence.py:527-540, and the attributes [cobaya_input] and
    [_last_info] (lines 325-328, 416, 436-441, 478-482), which hold the surrogate as a live function. On top of MReuse. Definitions only. *)
From Verif Require Export MReuse.

Section Save.
Context {M S G : Type}.
Variable kl : M -> M -> res num.
Variable reweighted : G -> S -> res M.
Variable sample : G -> option M -> res S.
Variable mean_cov : S -> M.
Variable limit : num.
Variable max_reused limit_times : nat.
Variable value : klcrit M -> klcall M -> klcrit M * res num.

(** ["external"] of the likelihood in a Cobaya input: the prediction of a surrogate, or True. *)
Inductive external := Live (g : G) | Marker.
(** The criterion: the attributes of MReuse; [cobaya_input] (None, or its likelihood); [_last_info] (None: the empty dict; otherwise its likelihood,
    which has the same name in both). *)
Record criterion := mkCrit { c_state : state M S; c_input : option external; c_info : option external }.
Definition new_criterion := mkCrit new_state None None.

(** Lines 371-416: whether a new Monte Carlo sample is tried, given the state before. *)
Definition tried (st : state M S) (g : G) : bool :=
  match last_collection st with
  | None => true
  | Some s =>
      match (do r <- reweighted g s;
             do k <- kl_reweight kl r (last_mc (crit st));
             reusable limit max_reused (values (hist (crit st))) (n_reused st) k) with
      | Ok b => negb b
      | Err _ => false
      end
  end.
(** Line 416: [_last_info] is set together with the sample. *)
Definition drawn (st : state M S) (g : G) : bool :=
  tried st g && match snd (from_mc kl reweighted sample mean_cov limit max_reused st g) with Ok _ => true | Err _ => false end.
(** [is_converged]. *)
Definition check_saved (o : criterion) (q : request M G) : criterion * (res bool * bool) :=
  let '(st, v, b) := check kl reweighted sample mean_cov limit max_reused value limit_times (c_state o) q in
  let mc := match from_acquisition q with None => true | Some _ => false end in
  (mkCrit st (if mc && tried (c_state o) (surrogate q) then Some (Live (surrogate q)) else c_input o)
             (if mc && drawn (c_state o) (surrogate q) then Some (Live (surrogate q)) else c_info o), (v, b)).
(** Lines 531-540: what happens to the original; the copy has the same contents, except for [log], which no criterion sets. *)
Definition masked_ext (e : option external) : option external := match e with Some _ => Some Marker | None => None end.
Definition deepcopy (o : criterion) : criterion * criterion :=
  let o := match c_input o with
           | Some _ => mkCrit (c_state o) (Some Marker) (masked_ext (c_info o))
           | None => o
           end in
  (o, o).
(** What is written when the criterion is pickled, and the criterion afterwards: [deepcopy(self).__dict__]. *)
Definition pickle (o : criterion) : criterion * criterion := deepcopy o.

(** A run: checks, saves, and interruptions after which the last saved criterion is loaded (None: nothing was saved, so it starts anew). *)
Inductive event := Check (q : request M G) | Save | Resume.
Record run_state := mkRs { now : criterion; saved : criterion }.
Definition step (w : run_state) (e : event) : run_state * list (res bool * bool) :=
  match e with
  | Check q => let (o, r) := check_saved (now w) q in (mkRs o (saved w), [r])
  | Save => let (o, f) := pickle (now w) in (mkRs o f, [])
  | Resume => (mkRs (saved w) (saved w), [])
  end.
Fixpoint steps (w : run_state) (es : list event) : run_state * list (res bool * bool) :=
  match es with [] => (w, []) | e :: es => let (w1, r) := step w e in let (w2, rs) := steps w1 es in (w2, r ++ rs) end.
Definition start := mkRs new_criterion new_criterion.
End Save.
Arguments external : clear implicits. Arguments criterion : clear implicits. Arguments event : clear implicits. Arguments run_state : clear implicits.

(** Model of one run after another of the interfaces to nested samplers, in all processes: [InterfacePolyChord.run] (gpry/ns_interfaces.py:172-239), [InterfaceUltraNest.run]
    (490-521), [InterfaceNessai.run] (335-405). What is stored in the interface, what the sampler is given, what is returned. Definitions only. *)
From Verif Require Export MNs.
Open Scope nat_scope.

(** The same in each process [r]. *)
Fixpoint in_each_from {A B} (k : nat) (h : nat -> A -> B) (l : list A) : list B := match l with [] => [] | a :: l => h k a :: in_each_from (S k) h l end.
Definition in_each {A B} (h : nat -> A -> B) (l : list A) : list B := in_each_from 0 h l.

Section Runs.
(** Points; the function sampled returns [val]s. *)
Context {pt val : Type}.
Definition sample := (list pt * list val * option (list val))%type.
(** The interface in one process: the seed in the settings of PolyChord (None: the default of PolyChord), the folder of its output, the evaluations kept and the last sample. *)
Record iface := mkIface { i_seed : option Z; i_out : option (string * string); i_all : option (list (pt * val)); i_mc : option sample }.
Definition new_iface := mkIface None None None None.
(** What a sampler does: the points at which it evaluates the function in each process, in order; the sample, or an exception (in all processes). *)
Record sampler_run := mkSampler { evaluated : list (list pt); outcome : res sample }.
(** The arguments of [run] as given in all processes (the seed, and whether evaluations are kept; [random]: a folder made up in the main process). *)
Record call := mkCall { c_f : pt -> val; c_out : option (string * string); c_keep : bool; c_seed : option Z; c_random : string * string }.

(** [np.concatenate] of the lists of points of the processes: an empty list has one axis, points have two. *)
Definition concatenate (ls : list (list (pt * val))) : res (list (pt * val)) :=
  if forallb (fun l => match l with [] => true | _ => false end) ls then Ok []
  else if existsb (fun l => match l with [] => true | _ => false end) ls then Err ValueError
  else Ok (concat ls).
Definition is_main (r : nat) : bool := r =? 0.
(** Lines 201-210: the settings of the main process are sent to all others, if there are others. *)
Definition settings (c : call) (r : nat) (i : iface) : iface :=
  mkIface (match c_seed c with Some s => Some s | None => i_seed i end)
          (if is_main r then Some (match c_out c with Some o => o | None => c_random c end) else i_out i) (i_all i) (i_mc i).
Definition shared (is_ : list iface) : list iface :=
  match is_ with
  | [] => []
  | i0 :: rest => i0 :: map (fun i => mkIface (i_seed i0) (i_out i0) (i_all i) (i_mc i)) rest
  end.
(** [InterfacePolyChord.run]; [sampler] gets the seed. Returned: the interfaces afterwards, the seed the sampler got, and what each process returns or the exception. *)
Definition polychord_run (sampler : option Z -> sampler_run) (c : call) (is_ : list iface) : list iface * option Z * res (list (option sample)) :=
  (** 186-187 *)
  let is_ := map (fun i => mkIface (i_seed i) (i_out i) None None) is_ in
  let is_ := shared (in_each (settings c) is_) in
  let seed := match is_ with i :: _ => i_seed i | [] => None end in
  let s := sampler seed in
  (** 188-197 *)
  let evals r := map (fun x => (x, c_f c x)) (nth r (evaluated s) []) in
  let keep r i := mkIface (i_seed i) (i_out i) (if c_keep c then Some (evals r) else None) (i_mc i) in
  let is_ := in_each keep is_ in
  match outcome s with
  | Err x => (is_, seed, Err x)
  | Ok mc =>
      (** 220-228 *)
      match (if c_keep c then do l <- concatenate (map evals (seq 0 (length is_))); Ok (Some l) else Ok None) with
      | Err x => (in_each (fun r i => mkIface (i_seed i) (i_out i) (if is_main r then i_all i else None) (i_mc i)) is_, seed, Err x)
      | Ok all =>
          (** 229-239 *)
          let finish r i := mkIface (i_seed i) (i_out i) (if is_main r then all else None) (if is_main r then Some mc else i_mc i) in
          let is_ := in_each finish is_ in
          (is_, seed, Ok (map i_mc is_))
      end
  end.
(** [remove_0_weight_samples] is in MMc; here [outcome] is what is left after it. The sampler gets no seed. *)
Definition ultranest_run (sampler : option Z -> sampler_run) (c : call) (is_ : list iface) : list iface * option Z * res (list (option sample)) :=
  if c_keep c then (is_, None, Err NotImplementedError) else
  let place r i := mkIface (i_seed i) (if is_main r then Some (match c_out c with Some o => o | None => c_random c end) else i_out i) (i_all i) (i_mc i) in
  let is_ := in_each place is_ in
  match outcome (sampler None) with
  | Err x => (is_, None, Err x)
  | Ok mc =>
      let is_ := in_each (fun r i => mkIface (i_seed i) (i_out i) (i_all i) (if is_main r then Some mc else i_mc i)) is_ in
      (is_, None, Ok (map i_mc is_))
  end.
(** In the main process only (gp_acquisition.py:822-823, mc.py): one interface. No weights are returned. *)
Definition nessai_run (sampler : option Z -> sampler_run) (c : call) (i : iface) : iface * option Z * res (option sample) :=
  if c_keep c then (i, c_seed c, Err NotImplementedError) else
  let i := mkIface (i_seed i) (Some (match c_out c with Some o => o | None => c_random c end)) (i_all i) (i_mc i) in
  match outcome (sampler (c_seed c)) with
  | Err x => (i, c_seed c, Err x)
  | Ok mc =>
      let mc := (fst (fst mc), snd (fst mc), None) in
      (mkIface (i_seed i) (i_out i) (i_all i) (Some mc), c_seed c, Ok (Some mc))
  end.
(** Runs one after another, each with its own sampler behaviour. *)
Definition history (run : (option Z -> sampler_run) -> call -> list iface -> list iface * option Z * res (list (option sample)))
  (cs : list ((option Z -> sampler_run) * call)) (is_ : list iface) : list iface :=
  fold_left (fun is_ sc => fst (fst (run (fst sc) (snd sc) is_))) cs is_.
End Runs.
Arguments iface : clear implicits. Arguments sample : clear implicits. Arguments sampler_run : clear implicits. Arguments call : clear implicits.

(** Model of the arguments of a triangle plot: [plot_corner_getdist] (gpry/plots.py:412-553) up to the call of GetDist, and the samples given to it by [Runner.plot_mc] (gpry/run.py:1829-1866).
    A sample is the list of its running parameters, GetDist's [getRunningNames]: those that are not derived. Definitions only. *)
From Coq Require Export String Ascii.
From Coq Require Import List.
From Verif Require Export Base Num.
Import ListNotations.

Definition label := string.
Definition sample_params := list string.
(** Python's dictionaries: labels in order, each once. *)
Fixpoint dget {A} (k : string) (d : list (string * A)) : option A := match d with [] => None | (a, v) :: d => if String.eqb a k then Some v else dget k d end.
Fixpoint dset {A} (k : string) (v : A) (d : list (string * A)) : list (string * A) :=
  match d with [] => [(k, v)] | (a, w) :: d => if String.eqb a k then (a, v) :: d else (a, w) :: dset k v d end.
Definition dupdate {A} (d e : list (string * A)) : list (string * A) := fold_left (fun d p => dset (fst p) (snd p) d) e d.

(** GetDist: parameters given with a name that ends in a star are derived. *)
Fixpoint ends_in_star (s : string) : bool := match s with EmptyString => false | String c EmptyString => Ascii.eqb c "*" | String _ s => ends_in_star s end.
Definition running (names : list string) : sample_params := filter (fun n => negb (ends_in_star n)) names.
Definition range := (num * num)%type.
Inductive bounds_arg := NoBounds | BoundsDict (d : list (string * range)) | BoundsList (l : list range).
Inductive filled_arg := NoFilled | FilledDict (d : list (string * bool)) | FilledList (l : list bool).
(** The training points of a surrogate with [d] dimensions: alone, with the label of a sample, or with names. *)
Inductive training_arg := NoTraining | TrainGpr (d : nat) | TrainLabel (l : label) (d : nat) | TrainNames (names : list string) (d : nat) | TrainOther.
(** What GetDist is given (None: its own choice of parameters), and the names used for the training points drawn, if any. *)
Record corner := mkCorner { co_params : option (list string); co_labels : list label; co_filled : list bool; co_limits : list (string * option range); co_training : option (list string) }.

(** Lines 487-506. *)
Definition training_params (samples : list (label * sample_params)) (t : training_arg) : res (option (list string * nat)) :=
  match t with
  | NoTraining => Ok None
  | TrainGpr d => match samples with (_, p) :: _ => Ok (Some (p, d)) | [] => Err IndexError end
  | TrainLabel l d => match dget l samples with Some p => Ok (Some (p, d)) | None => Err ValueError end
  | TrainNames n d => Ok (Some (n, d))
  | TrainOther => Err TypeError
  end.
(** Lines 513-518: [None] if no parameters are asked for. *)
Definition mem (p : string) (l : list string) : bool := existsb (String.eqb p) l.
Definition plot_params (samples : list (label * sample_params)) (params : option (list string)) : res (option (list string)) :=
  match params with
  | None => Ok None
  | Some ps => match rev samples with (_, last) :: _ => Ok (Some (filter (fun p => mem p last) ps)) | [] => Err IndexError end
  end.
(** Lines 519-524; [for p in None] and [len(None)] raise TypeError. *)
Definition limits (params : option (list string)) (b : bounds_arg) : res (list (string * option range)) :=
  match b, params with
  | NoBounds, _ => Ok []
  | _, None => Err TypeError
  | BoundsDict d, Some ps => Ok (dupdate [] (map (fun p => (p, dget p d)) ps))
  | BoundsList l, Some ps => if Nat.eqb (length l) (length ps) then Ok (dupdate [] (combine ps (map Some l))) else Err ValueError
  end.
(** Lines 525-530 and 533. *)
Definition filled_flags (labels : list label) (f : filled_arg) : list bool :=
  let d := match f with
           | NoFilled => []
           | FilledDict d => d
           | FilledList l => map (fun p => (fst p, nth (snd p) l true)) (combine labels (seq 0 (length labels)))
           end in
  map (fun k => match dget k d with Some b => b | None => true end) labels.
(** The whole function, up to errors of GetDist. Line 544: training points are drawn in more than one dimension. *)
Definition plot_corner (samples : list (label * sample_params)) (params : option (list string)) (b : bounds_arg) (f : filled_arg) (t : training_arg) : res corner :=
  do tp <- training_params samples t;
  do ps <- plot_params samples params;
  do lim <- limits ps b;
  Ok (mkCorner ps (map fst samples) (filled_flags (map fst samples) f) lim
        (match tp with Some (names, d) => if Nat.ltb 1 d then Some names else None | None => None end)).

(** [Runner.plot_mc]: the samples, in order; [extra]: a dictionary, or a single sample. *)
Definition base_label (evals : string) : label := ("MC samples from GP (" ++ evals ++ " evals.)")%string.
Definition mc_samples (fiducial : option sample_params) (evals : string) (surrogate : sample_params) (extra : list (label * sample_params) + option sample_params) : list (label * sample_params) :=
  let d := match fiducial with Some p => [("Fiducial"%string, p)] | None => [] end in
  let d := dset (base_label evals) surrogate d in
  dupdate d (match extra with inl e => e | inr None => [] | inr (Some p) => [("Add. samples"%string, p)] end).
Definition plot_mc (names : list string) (logp : string) (d : nat) (add_training : bool) fiducial evals surrogate extra : res corner :=
  plot_corner (mc_samples fiducial evals surrogate extra) (Some (names ++ [logp])) NoBounds NoFilled (if add_training then TrainLabel (base_label evals) d else NoTraining).

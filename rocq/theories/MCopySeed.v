(** Model of the random states of a regressor and its copies: [GaussianProcessRegressor.__deepcopy__] passes [random_state] on as it is (gpry/gpr.py:1360-1368), so that a
    generator is the same object in the original and in all copies; [fit] draws its random starting points from it (gpr.py:968-978, gpry/tools.py:134-144). Streams and draws as
    in [MSeed]. Definitions only. *)
From Verif Require Export MSeed.

(** [random_state] of a regressor: a generator ([numpy.random.Generator] or [RandomState], both passed through by [check_random_state]), by its place among all generators of the
    process; an integer; None. *)
Inductive handle := HGen (i : nat) | HInt (n : Z) | HNone.
(** The generators of a process, the draws from numpy's global one, the random states of its regressors. The classifier has its own random state, which is copied (line 1408) and
    which the support vector machine does not use (its [probability] is False): not modelled. *)
Record cworld := mkCw { cw_gens : list gen; cw_global : nat; cw_objs : list handle }.
Definition cset (i : nat) (g : gen) (l : list gen) : list gen := firstn i l ++ g :: skipn (S i) l.

(** A copy of regressor [i], gpr.py:1354-1432: a new regressor with the same [random_state]. *)
Definition copy_of (w : cworld) (i : nat) : cworld :=
  match nth_error (cw_objs w) i with
  | Some h => mkCw (cw_gens w) (cw_global w) (cw_objs w ++ [h])
  | None => w
  end.
(** Saved and loaded (pickle, no method of its own: all attributes are copied, also a generator with its position). *)
Definition loaded_from (w : cworld) (i : nat) : cworld :=
  match nth_error (cw_objs w) i with
  | Some (HGen j) =>
      match nth_error (cw_gens w) j with
      | Some g => mkCw (cw_gens w ++ [g]) (cw_global w) (cw_objs w ++ [HGen (length (cw_gens w))])
      | None => w
      end
  | Some h => mkCw (cw_gens w) (cw_global w) (cw_objs w ++ [h])
  | None => w
  end.
(** [fit] of regressor [i] with [n] starting points drawn from the prior, gpr.py:969-978 (those of [n_restarts] but the first one if it starts from the current
    hyperparameters). [_rng] is made anew at each call: from an integer a generator at its beginning. *)
Definition fit_of (r : nat) (w : cworld) (i n : nat) : cworld * list token :=
  match nth_error (cw_objs w) i with
  | Some (HGen j) =>
      match nth_error (cw_gens w) j with
      | Some g => let (g', t) := draw g n in (mkCw (cset j g' (cw_gens w)) (cw_global w) (cw_objs w), t)
      | None => (w, [])
      end
  | Some (HInt s) => (w, snd (draw (Legacy s, 0) n))
  | Some HNone => (mkCw (cw_gens w) (cw_global w + n) (cw_objs w), snd (draw (Global r, cw_global w) n))
  | None => (w, [])
  end.
Inductive cop := CCopy (i : nat) | CLoad (i : nat) | CFit (i n : nat).
Definition cstep (r : nat) (w : cworld) (o : cop) : cworld * list token :=
  match o with
  | CCopy i => (copy_of w i, [])
  | CLoad i => (loaded_from w i, [])
  | CFit i n => fit_of r w i n
  end.
(** A history, with the numbers drawn. *)
Fixpoint cruns (r : nat) (w : cworld) (l : list cop) : cworld * list token :=
  match l with
  | [] => (w, [])
  | o :: l => let (w, t) := cstep r w o in let (w, t') := cruns r w l in (w, t ++ t')
  end.
(** The starting points of a fit of regressor [i] with [n] draws. *)
Definition starts (r : nat) (w : cworld) (i n : nat) : list token := snd (fit_of r w i n).

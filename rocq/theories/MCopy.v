(** Model of [GaussianProcessRegressor.__deepcopy__] (gpry/gpr.py:1354-1433) and of what the copy shares
    with the original. Model definitions only. *)
From Verif Require Export MPredict.

Section Copy.
Context {pt pt_ PX PY model theta box : Type}.
Notation gpr := (gpr pt pt_ PX PY model theta box).
Variable e : env pt pt_ PX PY model theta box.

(** The regressor with the attributes that matter for predictions: the [clip_factor] and the rest. *)
Record object := mkObj { o_clip : num; o_gpr : gpr }.

(** Lines 1360-1432. The constructor gets kernel, noise level, optimiser, number of restarts,
    preprocessors, bounds and random state; training sets, noise, solution, kernel, classifier,
    thresholds and counters are copied afterwards. Not passed on: [clip_factor] (back to its default
    1.1, line 266), [trust_bounds] (None, line 289), [log_marginal_likelihood_value_]. *)
Definition deepcopy (o : object) : object :=
  mkObj (nq 11 10) (set_trust None (set_lml None (o_gpr o))).

(** The two preprocessors are not copied but shared (lines 1364-1365), and their [fit] changes them in
    place. A world holds both objects and the contents of the shared preprocessors; the fields [g_pX]
    and [g_pY] of the objects are not used. Everything else is either copied or only ever rebound. *)
Record world : Type := mkWorld { w_X : PX; w_Y : PY; w_orig : object; w_copy : object }.
Definition seen (w : world) (o : object) : gpr := set_pX (w_X w) (set_pY (w_Y w) (o_gpr o)).
Definition copied (o : object) : world := mkWorld (g_pX (o_gpr o)) (g_pY (o_gpr o)) o (deepcopy o).
(** A call on one of the two (also if it raises). *)
Definition on_orig (c : config theta) (o : op pt theta) (w : world) : world :=
  let g : gpr := fst (step e c o (seen w (w_orig w))) in
  mkWorld (g_pX g) (g_pY g) (mkObj (o_clip (w_orig w)) g) (w_copy w).
Definition on_copy (c : config theta) (o : op pt theta) (w : world) : world :=
  let g : gpr := fst (step e c o (seen w (w_copy w))) in
  mkWorld (g_pX g) (g_pY g) (w_orig w) (mkObj (o_clip (w_copy w)) g).
(** Any later history: calls on the original ([true]) or the copy. *)
Definition later (c : config theta) (l : list (bool * op pt theta)) (w : world) : world :=
  fold_left (fun (w : world) (p : bool * op pt theta) => if fst p then on_orig c (snd p) w else on_copy c (snd p) w) l w.
Definition predict_orig (pe : penv pt pt_ PY model theta box) (c : config theta) (w : world) a X :=
  predict e pe c (o_clip (w_orig w)) (seen w (w_orig w)) a X.
Definition predict_copy (pe : penv pt pt_ PY model theta box) (c : config theta) (w : world) a X :=
  predict e pe c (o_clip (w_copy w)) (seen w (w_copy w)) a X.
End Copy.

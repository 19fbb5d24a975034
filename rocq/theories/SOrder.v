(** Vocabulary of the statements about the order of the training points. *)
From Coq Require Export Permutation.
From Verif Require Export MPredict.

(** The same points with the same values, in any order. *)
Definition same_points {pt V} (X : list pt) (y : list V) (X' : list pt) (y' : list V) : Prop :=
  length X = length y /\ length X' = length y' /\ Permutation (combine X y) (combine X' y').
(** The same for the numerical problem: transformed points, values and diagonal terms. *)
Definition same_problem {pt_} (d d' : data pt_) : Prop :=
  length (d_X d) = length (d_y d) /\ length (d_y d) = length (d_alpha d) /\
  length (d_X d') = length (d_y d') /\ length (d_y d') = length (d_alpha d') /\
  Permutation (combine (combine (d_X d) (d_y d)) (d_alpha d)) (combine (combine (d_X d') (d_y d')) (d_alpha d')).
Definition both {A} (R : A -> A -> Prop) (o o' : option A) : Prop :=
  match o, o' with None, None => True | Some a, Some b => R a b | _, _ => False end.

Section Order.
Context {pt pt_ PX PY model theta box : Type}.
Local Notation env := (env pt pt_ PX PY model theta box).
Local Notation gpr := (gpr pt pt_ PX PY model theta box).

(** What the components have to satisfy: they work point by point, or do not look at the order of the points. [okY]: the
    states the preprocessor of the values can be in. *)
Record orderless (okY : PY -> Prop) (e : env) : Prop := mkOrderless {
  or_fitX : forall p X y X' y', existsb isnan y = false -> same_points X y X' y' -> fitX e p X y = fitX e p X' y';
  or_fitY : forall p X y X' y', existsb isnan y = false -> same_points X y X' y' -> fitY e p X y = fitY e p X' y';
  or_okY : forall p X y q, existsb isnan y = false -> okY p -> fitY e p X y = Ok q -> okY q;
  or_trX : exists f, forall p X, trX e p X = mapM (f p) X;
  or_trY : exists f, forall p y, trY e p y = mapM (f p) y;
  or_nan : forall p y y_, okY p -> existsb isnan y = false -> trY e p y = Ok y_ -> existsb isfin y_ = true -> existsb isnan y_ = false;
  or_scaleY : exists f, forall p y, scaleY e p y = mapM (f p) y;
  or_svc : forall X l X' l', same_points X l X' l' -> svc_train e X l = svc_train e X' l';
  or_chol : forall th d d', same_problem d d' -> cholesky e th d = cholesky e th d';
  or_lml : forall th d d', same_problem d d' -> lml e d th = lml e d' th;
  or_opt : forall th d d', same_problem d d' -> optimize e d th = optimize e d' th;
  or_trust : forall X y X' y', existsb isnan y = false -> same_points X y X' y' -> trust_region e X y = trust_region e X' y';
  or_dim : forall X X', Permutation X X' -> dim_ok e X = dim_ok e X' }.
(** The same for predictions. *)
Definition orderless_prediction (pe : penv pt pt_ PY model theta box) : Prop :=
  forall th d d', same_problem d d' ->
  gp_mean pe (mkCache d th) = gp_mean pe (mkCache d' th) /\ gp_var pe (mkCache d th) = gp_var pe (mkCache d' th) /\
  gp_mean_grad pe (mkCache d th) = gp_mean_grad pe (mkCache d' th) /\ gp_std_grad pe (mkCache d th) = gp_std_grad pe (mkCache d' th).

(** Two surrogates with the same data, in any order, and otherwise the same. *)
Record reordered (g g' : gpr) : Prop := mkReordered {
  re_pX : g_pX g' = g_pX g;
  re_pY : g_pY g' = g_pY g;
  re_noise : g_noise g' = g_noise g;
  re_all : same_points (g_Xall g) (g_yall g) (g_Xall g') (g_yall g');
  re_noise_ : g_noise_ g' = g_noise_ g;
  re_svm : s_some (g_svm g') = s_some (g_svm g) /\ s_all (g_svm g') = s_all (g_svm g) /\ s_diff (g_svm g') = s_diff (g_svm g)
           /\ s_max (g_svm g') = s_max (g_svm g) /\ s_svc (g_svm g') = s_svc (g_svm g)
           /\ both (fun d d' => same_points (fst d) (snd d) (fst d') (snd d')) (s_data (g_svm g)) (s_data (g_svm g'));
  re_counts : g_nlast g' = g_nlast g /\ g_nlastfin g' = g_nlastfin g /\ g_newinv g' = g_newinv g;
  re_train : same_points (g_X g) (g_y g) (g_X g') (g_y g');
  re_data : match the_data g, the_data g' with Ok d, Ok d' => same_problem d d' | Err x, Err x' => x = x' | _, _ => False end;
  re_kernel : g_kernel g' = g_kernel g;
  re_cache : both (fun k k' => k_theta k' = k_theta k /\ same_problem (k_data k) (k_data k')) (g_cache g) (g_cache g');
  re_lml : g_lml g' = g_lml g;
  re_fitted : g_fitted g' = g_fitted g;
  re_trust : g_trust g' = g_trust g }.

(** Two calls that differ in the order of the points only; the noise level, if given, is a number. *)
Definition reordered_op (o o' : op pt theta) : Prop :=
  match o, o' with
  | OFit kw, OFit kw' => kw' = kw
  | OAppend a, OAppend a' =>
      match a_X a, a_y a, a_X a', a_y a' with
      | Some X, Some y, Some X', Some y' => existsb isnan y = false /\ same_points X y X' y'
      | None, None, None, None => True
      | _, _, _, _ => False
      end
      /\ (forall v, a_noise a <> NArr v) /\ a_noise a' = a_noise a /\ a_fit a' = a_fit a /\ a_classifier a' = a_classifier a /\ a_default a' = a_default a
  | _, _ => False
  end.
End Order.

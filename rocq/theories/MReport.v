(** Model of the regressor's reports about infinite points: gpry/gpr.py:437-453 ([X_train_infinite], [y_train_infinite]), 490-497
    ([training_set_as_df]); [is_finite] and [predict_is_finite] are in [MPredict]. Definitions only. *)
From Verif Require Export MPredict.

Section Report.
Context {pt pt_ PX PY model theta box : Type}.
Variable e : env pt pt_ PX PY model theta box.
Variable c : config theta.
Notation gpr := (gpr pt pt_ PX PY model theta box).

(** [~y_finite]: TypeError for None, i.e. before the first call of [fit] of the classifier. *)
Definition not_finite (g : gpr) : res (list bool) :=
  match s_data (g_svm g) with None => Err TypeError | Some _ => Ok (map negb (s_labels (g_svm g))) end.
(** Lines 437-444 and 446-453. *)
Definition X_train_infinite (g : gpr) : res (list pt) :=
  if c_classifier c then do l <- not_finite g; masked l (g_Xall g) else Ok [].
Definition y_train_infinite (g : gpr) : res (list num) :=
  if c_classifier c then do l <- not_finite g; masked l (g_yall g) else Ok [].
(** Lines 494-497: one row per point, value and label; [pd.DataFrame] raises ValueError for columns of different lengths. *)
Definition training_set_as_df (g : gpr) : res (list (pt * num * bool)) :=
  do l <- gpr_is_finite e c g (g_yall g);
  if (length (g_Xall g) =? length (g_yall g)) && (length l =? length (g_yall g))
  then Ok (combine (combine (g_Xall g) (g_yall g)) l) else Err ValueError.
End Report.

(** Model of gpry/svm.py (class [SVM], a wrapper of sklearn's [SVC]). Model definitions only. *)
From Verif Require Export MPreproc.

(** [SVM._is_finite_raw], gpry/svm.py:274-295, with [max_y] given. *)
Definition is_finite_raw (y : list num) (diff max_y : num) : list bool :=
  map (fun v => nleb (nsub max_y diff) v && isfin v) y.
(** The same with [max_y=None]: [np.max(y)], which raises ValueError for no values (lines 291-292). *)
Definition is_finite_raw_self (y : list num) (diff : num) : res (list bool) :=
  match y with
  | [] => Err ValueError
  | v :: y' => Ok (is_finite_raw y diff (npmax v y'))
  end.

Section Svm.
(** Points; trained [SVC] objects; training of an [SVC] on points with both labels (it may raise);
    its prediction for one point. *)
Variables (pt model : Type) (svc_train : list pt -> list bool -> res model) (svc_predict : model -> pt -> bool).

(** Attributes of the object, gpry/svm.py:175-181; [s_data]: [X_train] and [y_train]. *)
Record svm := mkSvm {
  s_data : option (list pt * list num); s_labels : list bool;
  s_some : bool; s_all : bool;
  s_diff : option num; s_max : option num; s_svc : option model }.
Definition new_svm : svm := mkSvm None [] false false None None None.

(** [SVC.fit]: ValueError unless there are two classes. *)
Definition svc_fit (X : list pt) (l : list bool) : res model :=
  if forallb negb l then Err ValueError else svc_train X l.

(** [fit], gpry/svm.py:227-271: the object as it is left, and what the call returns. [np.copy] cannot
    fail; the first test is vacuously true for no points. *)
Definition svm_fit (s : svm) (X : list pt) (y : list num) (diff : num) : svm * res (list bool) :=
  if forallb (fun v => neqb v NInf) y then
    let l := repeat false (length X) in
    (mkSvm (Some (X, y)) l false (s_all s) (s_diff s) (s_max s) (s_svc s), Ok l)
  else
    match pymax_list y with
    | Err e => (mkSvm (Some (X, y)) (s_labels s) true (s_all s) (Some diff) (s_max s) (s_svc s), Err e)
    | Ok m =>
        let l := is_finite_raw y diff m in
        if forallb (fun b => b) l then
          (mkSvm (Some (X, y)) l true true (Some diff) (Some m) (s_svc s), Ok l)
        else
          match svc_fit X l with
          | Err e => (mkSvm (Some (X, y)) l true false (Some diff) (Some m) (s_svc s), Err e)
          | Ok c => (mkSvm (Some (X, y)) l true false (Some diff) (Some m) (Some c), Ok l)
          end
    end.

(** [is_finite], gpry/svm.py:297-306: arithmetic with None raises TypeError. *)
Definition svm_is_finite (s : svm) (y : list num) : res (list bool) :=
  match s_data s with
  | None => Err ValueError
  | Some _ =>
      match s_max s, s_diff s with
      | Some m, Some d => Ok (is_finite_raw y d m)
      | _, _ => Err TypeError
      end
  end.

(** [predict], gpry/svm.py:308-347; an [SVC] that was never trained raises NotFittedError, a
    ValueError. [validate] does not change the result for well-formed input. *)
Definition svm_predict (s : svm) (X : list pt) : res (list bool) :=
  match s_data s with
  | None => Err ValueError
  | Some _ =>
      if s_all s then Ok (repeat true (length X))
      else if negb (s_some s) then Ok (repeat false (length X))
      else match s_svc s with
           | None => Err ValueError
           | Some c => Ok (map (svc_predict c) X)
           end
  end.

(** A history of calls to [fit] (those that raise leave the object modified too). *)
Definition fit_args : Type := list pt * list num * num.
Definition svm_after (fits : list fit_args) : svm :=
  fold_left (fun s a => fst (svm_fit s (fst (fst a)) (snd (fst a)) (snd a))) fits new_svm.
End Svm.
Arguments s_data {pt model}. Arguments s_labels {pt model}. Arguments s_some {pt model}.
Arguments s_all {pt model}. Arguments s_diff {pt model}. Arguments s_max {pt model}.
Arguments s_svc {pt model}. Arguments mkSvm {pt model}. Arguments new_svm {pt model}.
Arguments svm_is_finite {pt model}. Arguments svm_fit {pt model}. Arguments svm_predict {pt model}.
Arguments svm_after {pt model}. Arguments svc_fit {pt model}.

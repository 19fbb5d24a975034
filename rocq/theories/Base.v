(** Shared vocabulary: exceptions as values, Python list slicing, small list facts.
    Nothing here models a particular GPry function; each definition cites the Python
    construct it stands for. *)
From Coq Require Export List Arith ZArith Lia Bool Permutation.
From Coq Require Export ZifyBool ZifyNat.
Export ListNotations.

(** Python exceptions that the modelled functions raise (by class; messages are dropped). *)
Inductive exn :=
| ValueError | TypeError | IndexError | AttributeError | KeyError | RuntimeError
| AssertionError | FileNotFoundError | ZeroDivisionError | StopIteration | NameError
| ConvergenceCheckError | NotImplementedError | OverflowError | NotInstalled | EOFError | OSError
(** Not a Python exception: a loop of the model ran out of its fuel. Theorems exclude it. *)
| OutOfFuel.

(** A computation that either returns or raises. *)
Inductive res (A : Type) := Ok (a : A) | Err (e : exn).
Arguments Ok {A} a.
Arguments Err {A} e.

Definition bind {A B} (r : res A) (f : A -> res B) : res B :=
  match r with Ok a => f a | Err e => Err e end.
Notation "'do' x <- r ; k" := (bind r (fun x => k)) (at level 200, x pattern, r at level 100).

Definition is_ok {A} (r : res A) : bool := match r with Ok _ => true | Err _ => false end.

(** [l[-n:]] in Python: the last [n] elements, the whole list when [n = 0]
    (because [-0 = 0]) or when [n] exceeds the length. *)
Definition py_last {A} (n : nat) (l : list A) : list A :=
  if n =? 0 then l else skipn (length l - n) l.

(** [l[a:b]] for [0 <= a], [0 <= b]. *)
Definition slice {A} (a b : nat) (l : list A) : list A := firstn (b - a) (skipn a l).

(** numpy boolean-mask indexing [l[mask]] (same length assumed by numpy, else IndexError). *)
Fixpoint mask {A} (m : list bool) (l : list A) : list A :=
  match m, l with
  | b :: m', x :: l' => if b then x :: mask m' l' else mask m' l'
  | _, _ => []
  end.

(** numpy masked assignment [l[m] = v] where [v] has one value per [True]. *)
Fixpoint unmask {A} (m : list bool) (v : list A) (l : list A) : list A :=
  match m, l with
  | b :: m', x :: l' =>
      if b then match v with y :: v' => y :: unmask m' v' l' | [] => x :: unmask m' [] l' end
      else x :: unmask m' v l'
  | _, _ => l
  end.

Definition count_true (m : list bool) : nat := length (filter (fun b => b) m).

Lemma mask_length {A} (m : list bool) (l : list A) :
  length m = length l -> length (mask m l) = count_true m.
Proof.
  revert l; induction m as [|b m IH]; intros [|x l] H; simpl in *; try discriminate; auto.
  injection H as H. unfold count_true in *. destruct b; simpl; rewrite (IH _ H); auto.
Qed.

Lemma mask_map_filter {A} (f : A -> bool) (l : list A) : mask (map f l) l = filter f l.
Proof. induction l as [|x l IH]; simpl; auto. rewrite IH. reflexivity. Qed.

Lemma mask_incl {A} (m : list bool) (l : list A) : incl (mask m l) l.
Proof.
  revert l; induction m as [|b m IH]; intros [|x l] y H; simpl in *; try tauto.
  destruct b; simpl in H; [destruct H as [->|H]|]; auto; right; apply IH; auto.
Qed.

Lemma mask_combine {A B} (m : list bool) (l : list A) (k : list B) :
  length l = length k -> mask m (combine l k) = combine (mask m l) (mask m k).
Proof.
  revert l k; induction m as [|b m IH]; intros [|x l] [|y k] H; simpl in *; try discriminate; auto.
  injection H as H. rewrite (IH _ _ H). destruct b; auto.
Qed.

Lemma mask_all_true {A} (m : list bool) (l : list A) :
  length m = length l -> forallb (fun b => b) m = true -> mask m l = l.
Proof.
  revert l; induction m as [|b m IH]; intros [|x l] H E; simpl in *; try discriminate; auto.
  apply andb_true_iff in E as [-> E]. f_equal. apply IH; auto.
Qed.

Lemma mask_app {A} (m1 m2 : list bool) (l1 l2 : list A) :
  length m1 = length l1 -> mask (m1 ++ m2) (l1 ++ l2) = mask m1 l1 ++ mask m2 l2.
Proof.
  revert l1; induction m1 as [|b m IH]; intros [|x l] H; simpl in *; try discriminate; auto.
  injection H as H. rewrite IH by auto. destruct b; auto.
Qed.

Lemma py_last_incl {A} n (l : list A) : incl (py_last n l) l.
Proof.
  unfold py_last. destruct (n =? 0); [apply incl_refl|].
  intros y H. rewrite <- (firstn_skipn (length l - n) l). apply in_or_app; auto.
Qed.

Lemma py_last_app {A} (l k : list A) : k <> [] -> py_last (length k) (l ++ k) = k.
Proof.
  intros H. unfold py_last. destruct (Nat.eqb_spec (length k) 0) as [E|E].
  - destruct k; simpl in E; congruence.
  - rewrite app_length, skipn_app. replace (length l + length k - length k) with (length l) by lia.
    rewrite skipn_all, Nat.sub_diag. reflexivity.
Qed.

Lemma in_firstn {A} n (l : list A) x : In x (firstn n l) -> In x l.
Proof. intros H. rewrite <- (firstn_skipn n l). apply in_or_app; auto. Qed.

Lemma in_skipn {A} n (l : list A) x : In x (skipn n l) -> In x l.
Proof. intros H. rewrite <- (firstn_skipn n l). apply in_or_app; auto. Qed.

Lemma nth_error_ext {A} (l k : list A) : (forall i, nth_error l i = nth_error k i) -> l = k.
Proof.
  revert k; induction l as [|x l IH]; intros [|y k] H; auto.
  - specialize (H 0); discriminate.
  - specialize (H 0); discriminate.
  - f_equal; [specialize (H 0); simpl in H; congruence|]. apply IH. intros i; apply (H (S i)).
Qed.

Lemma forallb_map {A B} (f : A -> B) (p : B -> bool) l :
  forallb p (map f l) = forallb (fun x => p (f x)) l.
Proof. induction l as [|x l IH]; simpl; auto. rewrite IH; auto. Qed.

(** Extended numbers standing for numpy floats: NaN, the infinities, and exact canonical
    rationals in place of the finite binary64 values (rounding and overflow are not modelled). *)
From Coq Require Export QArith Qcanon Lqa.
From Verif Require Export Base.
Close Scope Q_scope.

(** ** Rationals *)
Delimit Scope Qc_scope with Qc.
Definition qc_of_Z (z : Z) : Qc := Q2Qc (inject_Z z).
Definition qleb (a b : Qc) : bool := Qle_bool (this a) (this b).
Definition qltb (a b : Qc) : bool := negb (qleb b a).
Definition qeqb (a b : Qc) : bool := Qeq_bool (this a) (this b).

Lemma this_plus x y : (this (x + y)%Qc == this x + this y)%Q. Proof. apply Qred_correct. Qed.
Lemma this_mult x y : (this (x * y)%Qc == this x * this y)%Q. Proof. apply Qred_correct. Qed.
Lemma this_opp x : (this (- x)%Qc == - this x)%Q. Proof. apply Qred_correct. Qed.
Lemma this_minus x y : (this (x - y)%Qc == this x - this y)%Q.
Proof. unfold Qcminus. rewrite this_plus, this_opp. reflexivity. Qed.
Lemma this_Q2Qc q : (this (Q2Qc q) == q)%Q. Proof. apply Qred_correct. Qed.
Lemma Qceq_this x y : x = y <-> (this x == this y)%Q.
Proof. split; [intros ->; reflexivity | apply Qc_is_canon]. Qed.

Lemma qleb_le a b : qleb a b = true <-> (a <= b)%Qc.
Proof. unfold qleb, Qcle. apply Qle_bool_iff. Qed.
Lemma qltb_lt a b : qltb a b = true <-> (a < b)%Qc.
Proof.
  unfold qltb, qleb, Qclt. rewrite negb_true_iff. split.
  - intros H. apply Qnot_le_lt. intros E. apply Qle_bool_iff in E. congruence.
  - intros H. destruct (Qle_bool (this b) (this a)) eqn:E; auto. apply Qle_bool_iff in E. lra.
Qed.
Lemma qleb_nle a b : qleb a b = false <-> (b < a)%Qc.
Proof. rewrite <- qltb_lt. unfold qltb. rewrite negb_true_iff. tauto. Qed.
Lemma qltb_nlt a b : qltb a b = false <-> (b <= a)%Qc.
Proof. rewrite <- qleb_le. unfold qltb. rewrite negb_false_iff. tauto. Qed.
Lemma qeqb_eq a b : qeqb a b = true <-> a = b.
Proof. unfold qeqb. rewrite Qeq_bool_iff. symmetry. apply Qceq_this. Qed.
Lemma qeqb_neq a b : qeqb a b = false <-> a <> b.
Proof. rewrite <- qeqb_eq. destruct (qeqb a b); split; congruence. Qed.
Lemma Qc_eq_dec' (a b : Qc) : {a = b} + {a <> b}.
Proof. destruct (qeqb a b) eqn:E; [left; apply qeqb_eq | right; apply qeqb_neq]; auto. Qed.

(** Arithmetic over [Qc]: push everything to [Q] and call [nra]/[lra]. *)
Ltac qc_norm :=
  unfold Qcle, Qclt in *;
  repeat match goal with
  | H : qleb _ _ = true |- _ => apply qleb_le in H; unfold Qcle in H
  | H : qleb _ _ = false |- _ => apply qleb_nle in H; unfold Qclt in H
  | H : qltb _ _ = true |- _ => apply qltb_lt in H; unfold Qclt in H
  | H : qltb _ _ = false |- _ => apply qltb_nlt in H; unfold Qcle in H
  | H : qeqb _ _ = true |- _ => apply qeqb_eq in H
  | H : qeqb _ _ = false |- _ => apply qeqb_neq in H
  | |- qleb _ _ = true => apply qleb_le; unfold Qcle
  | |- qleb _ _ = false => apply qleb_nle; unfold Qclt
  | |- qltb _ _ = true => apply qltb_lt; unfold Qclt
  | |- qltb _ _ = false => apply qltb_nlt; unfold Qcle
  | |- qeqb _ _ = true => apply qeqb_eq
  | H : @eq Qc ?x ?y |- _ => apply (proj1 (Qceq_this _ _)) in H
  | H : ~ (@eq Qc ?x ?y) |- _ => rewrite Qceq_this in H
  | |- @eq Qc _ _ => apply (proj2 (Qceq_this _ _))
  | |- ~ (@eq Qc _ _) => rewrite Qceq_this
  | H : context [this (_ + _)%Qc] |- _ => rewrite this_plus in H
  | H : context [this (_ - _)%Qc] |- _ => rewrite this_minus in H
  | H : context [this (_ * _)%Qc] |- _ => rewrite this_mult in H
  | H : context [this (- _)%Qc] |- _ => rewrite this_opp in H
  | H : context [this (Q2Qc _)] |- _ => rewrite this_Q2Qc in H
  | |- context [this (_ + _)%Qc] => rewrite this_plus
  | |- context [this (_ - _)%Qc] => rewrite this_minus
  | |- context [this (_ * _)%Qc] => rewrite this_mult
  | |- context [this (- _)%Qc] => rewrite this_opp
  | |- context [this (Q2Qc _)] => rewrite this_Q2Qc
  end.
Ltac qc := intros; qc_norm; first [lra | nra].

(** ** Extended numbers *)
Inductive num := NaN | NInf | Fin (q : Qc) | PInf.

Definition nz (z : Z) : num := Fin (qc_of_Z z).
(** Decimal constants of the source, as [n / d]. *)
Definition nq (n : Z) (d : positive) : num := Fin (Q2Qc (n # d)).

Definition isnan (x : num) : bool := match x with NaN => true | _ => false end.
(** [np.isfinite] *)
Definition isfin (x : num) : bool := match x with Fin _ => true | _ => false end.

(** IEEE comparisons: false when an operand is NaN. *)
Definition nleb (x y : num) : bool :=
  match x, y with
  | NaN, _ | _, NaN => false
  | NInf, _ => true
  | _, PInf => true
  | Fin a, Fin b => qleb a b
  | Fin _, NInf => false
  | PInf, _ => false
  end.
Definition nltb (x y : num) : bool :=
  match x, y with
  | NaN, _ | _, NaN => false
  | _, NInf => false
  | NInf, _ => true
  | PInf, _ => false
  | _, PInf => true
  | Fin a, Fin b => qltb a b
  end.
Definition neqb (x y : num) : bool :=
  match x, y with
  | NInf, NInf | PInf, PInf => true
  | Fin a, Fin b => qeqb a b
  | _, _ => false
  end.

Definition nneg (x : num) : num :=
  match x with NaN => NaN | NInf => PInf | PInf => NInf | Fin a => Fin (- a) end.
Definition nadd (x y : num) : num :=
  match x, y with
  | NaN, _ | _, NaN => NaN
  | PInf, NInf | NInf, PInf => NaN
  | PInf, _ | _, PInf => PInf
  | NInf, _ | _, NInf => NInf
  | Fin a, Fin b => Fin (a + b)
  end.
Definition nsub (x y : num) : num := nadd x (nneg y).
Definition qsgn (a : Qc) : Z :=
  if qltb a 0 then (-1)%Z else if qeqb a 0 then 0%Z else 1%Z.
(** [inf * a]: by the sign of [a]; NaN for 0. *)
Definition inf_times (s : Z) : num :=
  if (s =? 0)%Z then NaN else if (s <? 0)%Z then NInf else PInf.
Definition nmul (x y : num) : num :=
  match x, y with
  | NaN, _ | _, NaN => NaN
  | Fin a, Fin b => Fin (a * b)
  | PInf, PInf | NInf, NInf => PInf
  | PInf, NInf | NInf, PInf => NInf
  | PInf, Fin a | Fin a, PInf => inf_times (qsgn a)
  | NInf, Fin a | Fin a, NInf => inf_times (- qsgn a)
  end.
(** numpy division: x/0 is an infinity (positive zero assumed), 0/0 NaN, x/inf = 0. *)
Definition ndiv (x y : num) : num :=
  match x, y with
  | NaN, _ | _, NaN => NaN
  | (PInf | NInf), (PInf | NInf) => NaN
  | Fin _, (PInf | NInf) => Fin 0
  | PInf, Fin b => if qltb b 0 then NInf else PInf
  | NInf, Fin b => if qltb b 0 then PInf else NInf
  | Fin a, Fin b => if qeqb b 0 then inf_times (qsgn a) else Fin (a / b)
  end.
Definition nabs (x : num) : num :=
  match x with
  | NaN => NaN | NInf | PInf => PInf
  | Fin a => Fin (if qltb a 0 then - a else a)
  end.

(** Python's builtin [max(a, b)]: [b] only if [b > a]. *)
Definition pymax (a b : num) : num := if nltb a b then b else a.
(** Python's builtin [min(a, b)]: [b] only if [b < a]. *)
Definition pymin (a b : num) : num := if nltb b a then b else a.
(** [np.maximum]/[np.max] step: NaN propagates. *)
Definition npmax2 (a b : num) : num := if isnan a || isnan b then NaN else pymax a b.
Definition npmin2 (a b : num) : num := if isnan a || isnan b then NaN else pymin a b.
(** [np.max] of a non-empty array. *)
Definition npmax (x : num) (l : list num) : num := fold_left npmax2 l x.
Definition npmin (x : num) (l : list num) : num := fold_left npmin2 l x.

(** ** Facts *)
Lemma nleb_refl x : isnan x = false -> nleb x x = true.
Proof. destruct x; simpl; auto; try discriminate. intros _. qc. Qed.
Lemma nleb_trans x y z : nleb x y = true -> nleb y z = true -> nleb x z = true.
Proof. destruct x, y, z; simpl; auto; try discriminate. qc. Qed.
Lemma nltb_leb x y : nltb x y = true -> nleb x y = true.
Proof. destruct x, y; simpl; auto; try discriminate. qc. Qed.
Lemma nltb_not_leb x y : isnan x = false -> isnan y = false -> nltb x y = negb (nleb y x).
Proof. destruct x, y; simpl; auto; try discriminate. Qed.
Lemma nleb_total x y : isnan x = false -> isnan y = false -> nleb x y = false -> nleb y x = true.
Proof. destruct x, y; simpl; auto; try discriminate. intros _ _ H. qc. Qed.
Lemma nleb_antisym x y : nleb x y = true -> nleb y x = true -> x = y.
Proof. destruct x, y; simpl; auto; try discriminate. intros. f_equal. qc. Qed.
Lemma nltb_irrefl x : nltb x x = false.
Proof. destruct x; simpl; auto. qc. Qed.
Lemma nltb_trans x y z : nltb x y = true -> nltb y z = true -> nltb x z = true.
Proof. destruct x, y, z; simpl; auto; try discriminate. qc. Qed.
Lemma nltb_leb_trans x y z : nltb x y = true -> nleb y z = true -> nltb x z = true.
Proof. destruct x, y, z; simpl; auto; try discriminate. qc. Qed.
Lemma nleb_ltb_trans x y z : nleb x y = true -> nltb y z = true -> nltb x z = true.
Proof. destruct x, y, z; simpl; auto; try discriminate. qc. Qed.
Lemma nleb_ltb_false x y : nleb x y = true -> nltb y x = false.
Proof. destruct x, y; simpl; auto; try discriminate. qc. Qed.
Lemma neqb_eq x y : neqb x y = true -> x = y.
Proof. destruct x, y; simpl; auto; try discriminate. intros H. f_equal. apply qeqb_eq; auto. Qed.
Lemma neqb_refl x : isnan x = false -> neqb x x = true.
Proof. destruct x; simpl; auto; try discriminate. intros _. apply qeqb_eq; auto. Qed.
Lemma isfin_notnan x : isfin x = true -> isnan x = false.
Proof. destruct x; simpl; auto; discriminate. Qed.
Lemma nleb_notnan_l x y : nleb x y = true -> isnan x = false.
Proof. destruct x, y; simpl; auto; discriminate. Qed.
Lemma nleb_notnan_r x y : nleb x y = true -> isnan y = false.
Proof. destruct x, y; simpl; auto; discriminate. Qed.
Lemma num_eq_dec (x y : num) : {x = y} + {x <> y}.
Proof. decide equality. apply Qc_eq_dec'. Qed.

Lemma npmax2_ge_l a b : isnan (npmax2 a b) = false -> nleb a (npmax2 a b) = true.
Proof.
  unfold npmax2, pymax. destruct (isnan a) eqn:Ha, (isnan b) eqn:Hb; simpl; try discriminate.
  intros _. destruct (nltb a b) eqn:E; [apply nltb_leb; auto | apply nleb_refl; auto].
Qed.
Lemma npmax2_ge_r a b : isnan (npmax2 a b) = false -> nleb b (npmax2 a b) = true.
Proof.
  unfold npmax2, pymax. destruct (isnan a) eqn:Ha, (isnan b) eqn:Hb; simpl; try discriminate.
  intros _. destruct (nltb a b) eqn:E; [apply nleb_refl; auto|].
  rewrite nltb_not_leb in E by auto. apply negb_false_iff in E; auto.
Qed.
Lemma npmax2_nan a b : isnan (npmax2 a b) = isnan a || isnan b.
Proof.
  unfold npmax2, pymax. destruct (isnan a) eqn:Ha, (isnan b) eqn:Hb; simpl; auto.
  destruct (nltb a b); auto.
Qed.
Lemma npmax_nan x l : isnan (npmax x l) = isnan x || existsb isnan l.
Proof.
  revert x; induction l as [|y l IH]; intros x; simpl; [rewrite orb_false_r; auto|].
  unfold npmax in *; simpl. rewrite IH, npmax2_nan, orb_assoc; auto.
Qed.
Lemma npmax_ge_init x l : isnan (npmax x l) = false -> nleb x (npmax x l) = true.
Proof.
  revert x; induction l as [|y l IH]; intros x H.
  - apply nleb_refl; auto.
  - unfold npmax in *; simpl in *. pose proof (IH _ H) as K.
    eapply nleb_trans; [|exact K]. apply npmax2_ge_l. eapply nleb_notnan_l; eauto.
Qed.
Lemma npmax_ge x l y : isnan (npmax x l) = false -> In y (x :: l) -> nleb y (npmax x l) = true.
Proof.
  revert x; induction l as [|z l IH]; intros x H Hy.
  - destruct Hy as [->|[]]. apply nleb_refl; auto.
  - unfold npmax in *; simpl in *.
    pose proof (npmax_ge_init _ _ H) as K. unfold npmax in K.
    destruct Hy as [->|[->|Hy]].
    + eapply nleb_trans; [|exact K]. apply npmax2_ge_l. eapply nleb_notnan_l; eauto.
    + eapply nleb_trans; [|exact K]. apply npmax2_ge_r. eapply nleb_notnan_l; eauto.
    + apply IH; auto.
Qed.
Lemma npmax_in x l : isnan (npmax x l) = false -> In (npmax x l) (x :: l).
Proof.
  revert x; induction l as [|z l IH]; intros x H; [left; auto|].
  unfold npmax in *; simpl in *. destruct (IH _ H) as [E|E].
  - assert (isnan (npmax2 x z) = false) as Hn by (rewrite E; exact H).
    unfold npmax2, pymax in *. destruct (isnan x || isnan z) eqn:Hxz; [discriminate Hn|].
    destruct (nltb x z); rewrite <- E; auto.
  - auto.
Qed.

Global Open Scope nat_scope.

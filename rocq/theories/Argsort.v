(** What is assumed of np.argsort, and a computable function that satisfies it. *)
From Verif Require Import Num.

(** numpy's sort order: NaN goes last. *)
Definition np_le (a b : num) : bool := isnan b || nleb a b.

(** np.argsort(l): a permutation of the indices under which the values do not decrease. The
    order of ties is not specified (the default algorithm is not stable). *)
Definition argsort_ok (argsort : list num -> list nat) : Prop :=
  forall l,
    Permutation (argsort l) (seq 0 (length l)) /\
    (forall a b i j u v, a <= b ->
       nth_error (argsort l) a = Some i -> nth_error (argsort l) b = Some j ->
       nth_error l i = Some u -> nth_error l j = Some v -> np_le u v = true).

(** Insertion sort of (value, index) pairs. *)
Fixpoint ins (p : num * nat) (l : list (num * nat)) : list (num * nat) :=
  match l with
  | [] => [p]
  | q :: l' => if np_le (fst p) (fst q) then p :: l else q :: ins p l'
  end.
Definition isort (l : list (num * nat)) : list (num * nat) := fold_right ins [] l.
Definition stable_argsort (l : list num) : list nat :=
  map snd (isort (combine l (seq 0 (length l)))).

Lemma np_le_refl a : np_le a a = true.
Proof. unfold np_le. destruct (isnan a) eqn:E; auto. rewrite nleb_refl; auto. Qed.
Lemma np_le_trans a b c : np_le a b = true -> np_le b c = true -> np_le a c = true.
Proof.
  unfold np_le. destruct (isnan c) eqn:Ec; auto. simpl. intros H1 H2.
  destruct (isnan b) eqn:Eb; simpl in *.
  - apply nleb_notnan_l in H2. congruence.
  - eapply nleb_trans; eauto.
Qed.
Lemma np_le_total a b : np_le a b = false -> np_le b a = true.
Proof.
  unfold np_le. destruct (isnan b) eqn:Eb; [discriminate|]. simpl. intros H.
  destruct (isnan a) eqn:Ea; auto. simpl. apply nleb_total; auto.
Qed.

Lemma ins_perm p l : Permutation (ins p l) (p :: l).
Proof.
  induction l as [|q l IH]; simpl; auto.
  destruct (np_le (fst p) (fst q)); auto.
  rewrite IH. apply perm_swap.
Qed.
Lemma isort_perm l : Permutation (isort l) l.
Proof. induction l as [|p l IH]; simpl; auto. rewrite ins_perm, IH. auto. Qed.

Inductive srt : list (num * nat) -> Prop :=
| srt_nil : srt []
| srt_cons p l : (forall q, In q l -> np_le (fst p) (fst q) = true) -> srt l -> srt (p :: l).

Lemma ins_srt p l : srt l -> srt (ins p l).
Proof.
  induction 1 as [|q l Hq Hs IH]; simpl.
  - constructor; [intros ? []|constructor].
  - destruct (np_le (fst p) (fst q)) eqn:E.
    + constructor; [|constructor; auto]. intros r [<-|Hr]; auto.
      eapply np_le_trans; eauto.
    + constructor; auto. intros r Hr. apply (Permutation_in _ (ins_perm p l)) in Hr.
      destruct Hr as [<-|Hr]; auto. apply np_le_total; auto.
Qed.
Lemma isort_srt l : srt (isort l).
Proof. induction l; simpl; [constructor | apply ins_srt; auto]. Qed.

Lemma srt_nth l a b p q : srt l -> a <= b -> nth_error l a = Some p -> nth_error l b = Some q ->
  np_le (fst p) (fst q) = true.
Proof.
  intros Hs. revert a b. induction Hs as [|r l Hr Hs IH]; intros a b Hab Ha Hb.
  - destruct a; discriminate.
  - destruct a as [|a], b as [|b]; simpl in *; try lia.
    + injection Ha as <-. injection Hb as <-. apply np_le_refl.
    + injection Ha as <-. apply Hr. eapply nth_error_In; eauto.
    + eapply (IH a b); eauto. lia.
Qed.

Lemma combine_seq_nth (l : list num) : forall s v i,
  In (v, i) (combine l (seq s (length l))) -> s <= i /\ nth_error l (i - s) = Some v.
Proof.
  induction l as [|x l IH]; intros s v i H; simpl in H; [tauto|].
  destruct H as [E|H].
  - injection E as -> ->. rewrite Nat.sub_diag. auto.
  - apply IH in H as [H1 H2]. split; [lia|].
    replace (i - s) with (S (i - S s)) by lia. auto.
Qed.

Theorem stable_argsort_ok : argsort_ok stable_argsort.
Proof.
  intros l. unfold stable_argsort.
  set (c := combine l (seq 0 (length l))). split.
  - rewrite (Permutation_map snd (isort_perm c)). unfold c.
    assert (forall (A B : Type) (l : list A) (k : list B), length l = length k -> map snd (combine l k) = k) as K.
    { clear. induction l as [|x l IH]; intros [|y k] H; simpl in *; try discriminate; auto.
      f_equal. apply IH. congruence. }
    rewrite K; auto. rewrite seq_length; auto.
  - intros a b i j u v Hab Ha Hb Hu Hv.
    rewrite nth_error_map in Ha, Hb.
    destruct (nth_error (isort c) a) as [[u' i']|] eqn:Ea; [|discriminate].
    destruct (nth_error (isort c) b) as [[v' j']|] eqn:Eb; [|discriminate].
    simpl in *. injection Ha as ->. injection Hb as ->.
    assert (forall z k n, nth_error (isort c) n = Some (z, k) -> nth_error l k = Some z) as K.
    { intros z k n H. apply nth_error_In in H. apply (Permutation_in _ (isort_perm c)) in H.
      apply combine_seq_nth in H as [_ H]. rewrite Nat.sub_0_r in H. auto. }
    pose proof (K _ _ _ Ea) as Eu. pose proof (K _ _ _ Eb) as Ev.
    assert (u' = u) by congruence. assert (v' = v) by congruence. subst.
    eapply (srt_nth (isort c) a b (u, i) (v, j)); eauto. apply isort_srt.
Qed.

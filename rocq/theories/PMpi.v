(** Proofs about MMpi. *)
From Verif Require Import MMpi.

Lemma split_slots_length n p : p <> 0 -> length (split_slots n p) = (n + p - 1) / p * p.
Proof.
  intros Hp. unfold split_slots. rewrite app_length, !repeat_length.
  pose proof (Nat.div_mod (n + p - 1) p Hp). pose proof (Nat.mod_upper_bound (n + p - 1) p Hp). nia.
Qed.

Lemma nth_repeat_lt' {A} (a d : A) n : forall i, i < n -> nth i (repeat a n) d = a.
Proof. induction n as [|n IH]; intros [|i] H; simpl; try lia; auto. apply IH; lia. Qed.

Lemma split_slots_nth n p i : nth i (split_slots n p) 0 = if i <? n then 1 else 0.
Proof.
  unfold split_slots. destruct (Nat.ltb_spec i n) as [H|H].
  - rewrite app_nth1 by (rewrite repeat_length; auto). apply nth_repeat_lt'; auto.
  - rewrite app_nth2 by (rewrite repeat_length; auto). apply nth_repeat.
Qed.

(* sum over rows of [k*p + c < n] *)
Lemma count_rows n p c rows :
  c < p ->
  list_sum (map (fun k => if k * p + c <? n then 1 else 0) (seq 0 rows))
  = Nat.min rows ((n + p - 1 - c) / p).
Proof.
  intros Hc. induction rows as [|r IH]; [reflexivity|].
  rewrite seq_S, map_app, list_sum_app, IH. cbn [map list_sum fold_right Nat.add]. unfold list_sum, fold_right.
  destruct (Nat.ltb_spec (r * p + c) n) as [H|H].
  - assert (S r <= (n + p - 1 - c) / p) as Hq.
    { apply Nat.div_le_lower_bound; nia. }
    lia.
  - assert ((n + p - 1 - c) / p < S r) as Hq.
    { apply Nat.div_lt_upper_bound; nia. }
    lia.
Qed.

Lemma col_sum_split n p c : c < p ->
  col_sum (split_slots n p) p c = (n + p - 1 - c) / p.
Proof.
  intros Hc. assert (p <> 0) by lia. unfold col_sum.
  rewrite split_slots_length by auto. rewrite Nat.div_mul by auto.
  rewrite (map_ext _ (fun k => if k * p + c <? n then 1 else 0)).
  2:{ intros k. apply split_slots_nth. }
  rewrite count_rows by auto.
  apply Nat.min_r. apply Nat.div_le_mono; lia.
Qed.

Lemma col_sum_split_closed n p c : c < p ->
  col_sum (split_slots n p) p c = n / p + (if c <? n mod p then 1 else 0).
Proof.
  intros Hc. rewrite col_sum_split by auto.
  assert (p <> 0) by lia.
  pose proof (Nat.div_mod n p ltac:(lia)) as E.
  pose proof (Nat.mod_upper_bound n p ltac:(lia)) as Hm.
  set (q := n / p) in *. set (m := n mod p) in *.
  destruct (Nat.ltb_spec c m) as [H1|H1].
  - symmetry. apply (Nat.div_unique _ _ _ (m - 1 - c)); nia.
  - symmetry. apply (Nat.div_unique _ _ _ (m + p - 1 - c)); nia.
Qed.

Lemma split_number_spec n p : p <> 0 ->
  split_number n p = Ok (map (fun c => n / p + (if c <? n mod p then 1 else 0)) (seq 0 p)).
Proof.
  intros Hp. unfold split_number. destruct (Nat.eqb_spec p 0); [contradiction|].
  f_equal. apply map_ext_in. intros c Hc. apply in_seq in Hc. apply col_sum_split_closed. lia.
Qed.

Lemma list_sum_lt a m p :
  m <= p -> list_sum (map (fun c => a + (if c <? m then 1 else 0)) (seq 0 p)) = a * p + m.
Proof.
  intros Hm.
  assert (forall p, list_sum (map (fun c => a + (if c <? m then 1 else 0)) (seq 0 p))
                    = a * p + Nat.min m p) as K.
  { clear. induction p as [|p IH]; [simpl; lia|].
    rewrite seq_S, map_app, list_sum_app, IH. simpl. destruct (Nat.ltb_spec p m); lia. }
  rewrite K. lia.
Qed.

Lemma split_sum n p l : split_number n p = Ok l -> list_sum l = n.
Proof.
  intros H. destruct (Nat.eq_dec p 0) as [->|Hp]; [discriminate|].
  rewrite split_number_spec in H by auto. injection H as <-.
  rewrite list_sum_lt by (pose proof (Nat.mod_upper_bound n p); lia).
  pose proof (Nat.div_mod n p); nia.
Qed.

(** Strides. *)
Lemma stride_from_length_sum {A} (s : nat) (l : list A) : s <> 0 -> forall i,
  list_sum (map (fun r => length (stride_from i r s l)) (seq 0 s)) = length l.
Proof.
  intros Hs. induction l as [|x l IH]; intros i; simpl.
  - induction (seq 0 s); simpl; auto.
  - rewrite (map_ext _ (fun r => (if i mod s =? r then 1 else 0) + length (stride_from (S i) r s l))).
    2:{ intros r. destruct (i mod s =? r); reflexivity. }
    specialize (IH (S i)).
    assert (forall L (f : nat -> nat), NoDup L -> In (i mod s) L ->
      list_sum (map (fun r => (if i mod s =? r then 1 else 0) + f r) L)
      = S (list_sum (map f L))) as K.
    { clear. intros L f. induction L as [|y L IH]; intros Hnd Hin; [inversion Hin|].
      apply NoDup_cons_iff in Hnd as [Hy Hnd]. simpl.
      destruct Hin as [->|Hin].
      - rewrite Nat.eqb_refl. simpl. f_equal. f_equal. f_equal.
        apply map_ext_in. intros r Hr. destruct (Nat.eqb_spec (i mod s) r); auto. subst; contradiction.
      - rewrite IH by auto. destruct (Nat.eqb_spec (i mod s) y); [subst; contradiction|]. lia. }
    rewrite K; [rewrite IH; reflexivity | apply seq_NoDup |].
    apply in_seq. pose proof (Nat.mod_upper_bound i s Hs). lia.
Qed.

Lemma set_stride_from_length {A} (l : list A) : forall i r s v,
  length (set_stride_from i r s v l) = length l.
Proof.
  induction l as [|x l IH]; intros; simpl; auto.
  destruct (i mod s =? r); [destruct v|]; simpl; rewrite IH; auto.
Qed.

Lemma stride_from_len_eq {A B} (l : list A) : forall (k : list B) i r s,
  length l = length k -> length (stride_from i r s l) = length (stride_from i r s k).
Proof.
  induction l as [|x l IH]; intros [|y k] i r s H; simpl in *; try discriminate; auto.
  injection H as H. destruct (i mod s =? r); simpl; rewrite (IH k); auto.
Qed.

(** [acc] agrees with [l] on positions congruent to a rank < [n]. *)
Fixpoint agree {A} (i n s : nat) (acc l : list A) : Prop :=
  match acc, l with
  | [], [] => True
  | a :: acc', x :: l' => (i mod s < n -> a = x) /\ agree (S i) n s acc' l'
  | _, _ => False
  end.

Lemma agree_set {A} (l : list A) : forall i n s acc,
  agree i n s acc l ->
  agree i (S n) s (set_stride_from i n s (stride_from i n s l) acc) l.
Proof.
  induction l as [|x l IH]; intros i n s [|a acc] H; simpl in *; try tauto.
  destruct H as [H1 H2]. destruct (Nat.eqb_spec (i mod s) n) as [E|E]; simpl.
  - split; auto.
  - split; [intros; apply H1; lia | auto].
Qed.

Lemma agree_len {A} (l : list A) : forall i n s acc, agree i n s acc l -> length acc = length l.
Proof.
  induction l as [|x l IH]; intros i n s [|a acc] H; simpl in *; try tauto.
  destruct H as [_ H]. f_equal. eauto.
Qed.

Lemma agree_full {A} (l : list A) : forall i s acc, s <> 0 -> agree i s s acc l -> acc = l.
Proof.
  induction l as [|x l IH]; intros i s [|a acc] Hs H; simpl in *; try tauto.
  destruct H as [H1 H2]. f_equal; [apply H1, Nat.mod_upper_bound; auto | eauto].
Qed.

Lemma agree_init {A} (z : A) (l : list A) : forall i s, agree i 0 s (repeat z (length l)) l.
Proof. induction l as [|x l IH]; intros; simpl; auto. split; [lia|apply IH]. Qed.

Lemma merge_loop_ok {A} (l : list A) s : s <> 0 -> forall k i acc,
  i + k = s -> agree 0 i s acc l ->
  merge_loop i s (map (fun r => stride r s l) (seq i k)) acc = Ok l.
Proof.
  intros Hs. induction k as [|k IH]; intros i acc Hik Hag; simpl.
  - f_equal. assert (i = s) as -> by lia. eapply agree_full; eauto.
  - unfold set_stride. unfold stride at 1 2.
    rewrite (stride_from_len_eq acc l) by (eapply agree_len; eauto).
    unfold stride at 1. rewrite Nat.eqb_refl. simpl.
    apply IH; [lia|]. apply agree_set; auto.
Qed.

Lemma merge_step_split_ok {A} (z : A) (l : list A) size : size <> 0 ->
  merge_step_split z (map (fun r => step_split size r l) (seq 0 size)) = Ok l.
Proof.
  intros Hs. destruct (Nat.eq_dec size 1) as [->|H1]; [reflexivity|].
  unfold step_split. destruct (Nat.leb_spec size 1); [lia|].
  unfold merge_step_split.
  destruct (map (fun r => stride r size l) (seq 0 size)) as [|v [|v' vs]] eqn:E.
  - destruct size; simpl in E; [lia|discriminate].
  - apply (f_equal (@length _)) in E. rewrite map_length, seq_length in E. simpl in E. lia.
  - rewrite <- E. rewrite map_length, seq_length, map_map.
    unfold stride at 2. rewrite stride_from_length_sum by auto.
    apply merge_loop_ok; auto. apply agree_init.
Qed.

Lemma stride_from_map {A B} (f : A -> B) (l : list A) : forall i r s,
  stride_from i r s (map f l) = map f (stride_from i r s l).
Proof.
  induction l as [|x l IH]; intros; simpl; auto.
  destruct (i mod s =? r); simpl; rewrite IH; auto.
Qed.
Lemma step_split_map {A B} (f : A -> B) size r l :
  step_split size r (map f l) = map f (step_split size r l).
Proof. unfold step_split. destruct (size <=? 1); auto. apply stride_from_map. Qed.

Lemma merge_step_split_map {A B} (z : B) (f : A -> B) (l : list A) size : size <> 0 ->
  merge_step_split z (map (fun r => map f (step_split size r l)) (seq 0 size)) = Ok (map f l).
Proof.
  intros Hs. rewrite <- (merge_step_split_ok z (map f l) size Hs). f_equal.
  apply map_ext. intros r. symmetry. apply step_split_map.
Qed.

(** Evaluation of the truth. *)
Lemma shares_concat {A} (X : list A) (counts : list nat) :
  list_sum counts = length X ->
  concat (map (fun r => eval_share counts r X) (seq 0 (length counts))) = X.
Proof.
  intros Hsum.
  assert (forall k, k <= length counts ->
    concat (map (fun r => eval_share counts r X) (seq 0 k))
    = firstn (list_sum (firstn k counts)) X) as K.
  { induction k as [|k IH]; intros Hk; [reflexivity|].
    rewrite seq_S, map_app, concat_app, IH by lia. cbn [map concat]. rewrite app_nil_r. rewrite Nat.add_0_l.
    unfold eval_share, slice.
    set (i := list_sum (firstn k counts)).
    replace (i + nth k counts 0 - i) with (nth k counts 0) by lia.
    assert (list_sum (firstn (S k) counts) = i + nth k counts 0) as ->.
    { unfold i. clear -Hk. revert k Hk. induction counts as [|c counts IH]; intros k Hk; simpl in *; [lia|].
      destruct k; simpl; [lia|]. rewrite <- Nat.add_assoc, <- IH by lia. reflexivity. }
    rewrite <- (firstn_skipn i (firstn (i + nth k counts 0) X)) at 1.
    rewrite firstn_firstn, Nat.min_l by lia. f_equal.
    rewrite firstn_skipn_comm. reflexivity. }
  rewrite K, firstn_all, Hsum, firstn_all by auto. reflexivity.
Qed.

Lemma eval_truth_parallel_ok {P Y} size (f : P -> Y) (X : list P) : size <> 0 ->
  exists shares, eval_truth_parallel size f X = Ok (shares, map f X)
    /\ length shares = size /\ concat shares = X.
Proof.
  intros Hs. unfold eval_truth_parallel.
  destruct (split_number (length X) size) as [counts|e] eqn:E.
  2:{ rewrite split_number_spec in E by auto. discriminate. }
  simpl. assert (length counts = size) as Hlen.
  { rewrite split_number_spec in E by auto. injection E as <-.
    rewrite map_length, seq_length. auto. }
  pose proof (split_sum _ _ _ E) as Hsum.
  pose proof (shares_concat X counts Hsum) as HC. rewrite Hlen in HC.
  eexists. split; [|split; [|exact HC]].
  - f_equal. f_equal. destruct (Nat.ltb_spec 1 size).
    + rewrite <- concat_map, HC. reflexivity.
    + assert (size = 1) as E1 by lia. rewrite E1 in *. simpl in *. rewrite app_nil_r in HC.
      rewrite HC. reflexivity.
  - rewrite map_length, seq_length. auto.
Qed.

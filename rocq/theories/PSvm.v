(** Lemmas about the classifier. *)
From Verif Require Import MSvm SSvm.
Set Default Goal Selector "!".

Lemma pymax_fold_nan l : forall x, isnan x = false -> existsb isnan l = false ->
  fold_left pymax l x = npmax x l.
Proof.
  induction l as [|y l IH]; intros x Hx Hl; simpl in *; [reflexivity|].
  apply orb_false_iff in Hl as [Hy Hl]. unfold npmax. simpl.
  assert (npmax2 x y = pymax x y) as -> by (unfold npmax2; rewrite Hx, Hy; reflexivity).
  apply IH; auto. unfold pymax. destruct (nltb x y); auto.
Qed.
Lemma no_nan_existsb y : no_nan y <-> existsb isnan y = false.
Proof.
  unfold no_nan. split; intros H.
  - destruct (existsb isnan y) eqn:E; [|reflexivity]. apply existsb_exists in E as (v & Hv & E).
    destruct v; try discriminate. contradiction.
  - intros N. assert (existsb isnan y = true) as E by (apply existsb_exists; exists NaN; auto). congruence.
Qed.
Lemma pymax_list_spec y m : no_nan y -> pymax_list y = Ok m ->
  In m y /\ isnan m = false /\ forall w, In w y -> nleb w m = true.
Proof.
  intros Hn H. apply no_nan_existsb in Hn. destruct y as [|x l]; simpl in *; [discriminate|].
  apply orb_false_iff in Hn as [Hx Hl]. injection H as H. rewrite pymax_fold_nan in H by auto. subst m.
  assert (isnan (npmax x l) = false) as Hm by (rewrite npmax_nan, Hx, Hl; reflexivity).
  split; [apply npmax_in; auto|]. split; [auto|]. intros w Hw. apply npmax_ge; auto.
Qed.
Lemma pymax_list_ok y : y <> [] -> exists m, pymax_list y = Ok m.
Proof. destruct y as [|x l]; [congruence|]. simpl. eauto. Qed.
Lemma npmax_spec v y : no_nan (v :: y) ->
  In (npmax v y) (v :: y) /\ isnan (npmax v y) = false /\ forall w, In w (v :: y) -> nleb w (npmax v y) = true.
Proof.
  intros H. apply pymax_list_spec; auto. simpl. apply no_nan_existsb in H. simpl in H.
  apply orb_false_iff in H as [Hx Hl]. rewrite pymax_fold_nan; auto.
Qed.

Lemma sub_mono w m d q : nleb w m = true -> nleb (nsub m d) (Fin q) = true -> nleb (nsub w d) (Fin q) = true.
Proof. destruct w, m, d; simpl; auto; try discriminate. intros. qc. Qed.

Lemma raw_within y d m v : In m y -> (forall w, In w y -> nleb w m = true) ->
  (nleb (nsub m d) v && isfin v = true <-> within y d v).
Proof.
  intros Hm Hmax. unfold within. rewrite andb_true_iff. split.
  - intros [H1 H2]. destruct v; try discriminate. split; [eauto|]. intros w Hw. eapply sub_mono; eauto.
  - intros [[q ->] H]. split; [apply H; auto|reflexivity].
Qed.
Lemma raw_right y d m : In m y -> (forall w, In w y -> nleb w m = true) ->
  labels_right y d (is_finite_raw y d m).
Proof.
  intros Hm Hmax. unfold labels_right, is_finite_raw. split; [apply map_length|].
  intros i b v Hb Hv. rewrite nth_error_map, Hv in Hb. simpl in Hb. injection Hb as <-.
  apply raw_within; auto.
Qed.
Lemma all_ninf_spec y : forallb (fun v => neqb v NInf) y = true <-> all_minus_inf y.
Proof.
  rewrite forallb_forall. unfold all_minus_inf. split; intros H v Hv.
  - apply neqb_eq; auto.
  - rewrite (H v Hv). reflexivity.
Qed.
Lemma minus_inf_right y d n : all_minus_inf y -> n = length y -> labels_right y d (repeat false n).
Proof.
  intros H ->. split; [apply repeat_length|]. intros i b v Hb Hv.
  assert (b = false) as -> by (apply nth_error_In, repeat_spec in Hb; auto).
  split; [discriminate|]. intros [[q E] _]. apply nth_error_In in Hv. rewrite (H v Hv) in E. discriminate.
Qed.
(** Right labels are unique. *)
Lemma labels_right_unique y d l l' : labels_right y d l -> labels_right y d l' -> l = l'.
Proof.
  intros [H1 H2] [H3 H4]. apply nth_error_ext. intros i.
  destruct (nth_error l i) as [b|] eqn:E, (nth_error l' i) as [b'|] eqn:E'; auto.
  - assert (i < length y) as Hi by (rewrite <- H1; apply nth_error_Some; congruence).
    destruct (nth_error y i) as [v|] eqn:Ev; [|apply nth_error_Some in Hi; congruence].
    f_equal. specialize (H2 i b v E Ev). specialize (H4 i b' v E' Ev).
    destruct b, b'; auto; [symmetry|]; tauto.
  - apply nth_error_None in E'. assert (i < length l) by (apply nth_error_Some; congruence). lia.
  - apply nth_error_None in E. assert (i < length l') by (apply nth_error_Some; congruence). lia.
Qed.
Lemma pos_sub_within y d m : In m y -> (forall w, In w y -> nleb w m = true) -> isfin m = true ->
  nleb (nz 0) d = true -> within y d m.
Proof.
  intros Hm Hmax Hf Hd. apply (raw_within y d m); auto. rewrite Hf, andb_true_r.
  destruct m as [| |a|]; try discriminate. destruct d as [| |b|]; try discriminate; [|reflexivity].
  change (qleb (Q2Qc (inject_Z 0)) b = true) in Hd. change (qleb (a + - b) a = true).
  apply qleb_le in Hd. apply qleb_le. unfold Qcle in *. rewrite this_Q2Qc in Hd.
  rewrite this_plus, this_opp. unfold inject_Z in Hd. lra.
Qed.

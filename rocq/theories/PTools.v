(** Lemmas about the tools module. *)
From Verif Require Import MTools STools.
Set Default Goal Selector "!".

Lemma mapM_ok {A B} (f : A -> res B) (g : A -> B) l :
  Forall (fun x => f x = Ok (g x)) l -> mapM f l = Ok (map g l).
Proof. induction 1 as [|x l H _ IH]; simpl; auto. rewrite H. simpl. rewrite IH. reflexivity. Qed.
Lemma mapM_Forall2 {A B} (f : A -> res B) l k : mapM f l = Ok k -> Forall2 (fun x y => f x = Ok y) l k.
Proof.
  revert k; induction l as [|x l IH]; intros k H; simpl in H.
  - injection H as <-. constructor.
  - destruct (f x) as [y|] eqn:E; [|discriminate]. simpl in H.
    destruct (mapM f l) as [ys|] eqn:El; [|discriminate]. injection H as <-. constructor; auto.
Qed.
Lemma mapM_err {A B} (f : A -> res B) l e x : In x l -> f x = Err e -> exists e', mapM f l = Err e'.
Proof.
  induction l as [|y l IH]; intros Hin H; [destruct Hin|]. destruct Hin as [->|Hin]; simpl.
  - rewrite H. simpl. eauto.
  - destruct (f y); simpl; eauto. destruct (IH Hin H) as [e' ->]. simpl. eauto.
Qed.

Lemma box_cols box : col (mkMat 2 (map (fun b => [fst b; snd b]) box)) 0 = Ok (map fst box)
  /\ col (mkMat 2 (map (fun b => [fst b; snd b]) box)) 1 = Ok (map snd box).
Proof. unfold col. simpl. rewrite !map_map. split; reflexivity. Qed.
Lemma combine_fst_snd {A B} (l : list (A * B)) : combine (map fst l) (map snd l) = l.
Proof. induction l as [|[a b] l IH]; simpl; congruence. Qed.

Definition box_test (box : list (num * num)) (r : list num) : bool :=
  forallb (fun p => nleb (fst (snd p)) (fst p) && nleb (fst p) (snd (snd p))) (combine r box).
Lemma box_test_spec box r : length r = length box -> box_test box r = true <-> in_box box r.
Proof.
  unfold box_test, in_box, le. revert r; induction box as [|b box IH]; intros [|x r] H; simpl in *; try discriminate.
  - split; auto.
  - injection H as H. specialize (IH _ H). rewrite !andb_true_iff, IH. split.
    + intros [[? ?] ?]. constructor; auto.
    + intros K. inversion K; subst. tauto.
Qed.

Lemma is_in_bounds_eq box d pts cs : Forall (fun r => length r = d) pts -> length box = d ->
  is_in_bounds (points_arr d pts) (box_arr box) cs = Ok (map (box_test box) pts).
Proof.
  intros Hp Hb. destruct (box_cols box) as [H0 H1]. unfold is_in_bounds, points_arr, box_arr.
  assert ((if cs
    then
     do b <- check_and_return_bounds (Mat (mkMat 2 (map (fun b => [fst b; snd b]) box)));
     (if length (rows b) =? nc (atleast_2d (Mat (mkMat d pts))) then Ok b else Err ValueError)
    else Ok (mkMat 2 (map (fun b => [fst b; snd b]) box))) = Ok (mkMat 2 (map (fun b => [fst b; snd b]) box))) as ->.
  { destruct cs; auto. simpl. rewrite map_length, Hb, Nat.eqb_refl. reflexivity. }
  cbn [bind]. rewrite H0. cbn [bind]. rewrite H1. cbn [bind]. rewrite combine_fst_snd. cbn [atleast_2d rows].
  apply mapM_ok. rewrite Forall_forall in *. intros r Hr. specialize (Hp r Hr).
  unfold bcast2. rewrite Hp, Hb, Nat.eqb_refl. cbn [bind]. f_equal. unfold box_test. rewrite forallb_map. reflexivity.
Qed.

(** Row comparison is equality on rows without NaN. *)
Lemma rowb_eq r k : rowb r k = true -> r = k.
Proof.
  unfold rowb. rewrite andb_true_iff, Nat.eqb_eq. intros [H K]. revert k H K.
  induction r as [|x r IH]; intros [|y k] H K; simpl in *; try discriminate; auto.
  apply andb_true_iff in K as [K1 K2]. apply neqb_eq in K1. f_equal; auto.
Qed.
Lemma rowb_refl r : no_nan r -> rowb r r = true.
Proof.
  unfold rowb, no_nan. rewrite Nat.eqb_refl. simpl. induction 1; simpl; auto.
  rewrite neqb_refl by auto. auto.
Qed.
Lemma rowb_iff r k : no_nan r -> rowb r k = true <-> r = k.
Proof. intros H. split; [apply rowb_eq|intros <-; apply rowb_refl; auto]. Qed.

Lemma count_gt1 r l i j : no_nan r -> i < j -> nth_error l i = Some r -> nth_error l j = Some r ->
  1 < count r l.
Proof.
  intros Hr. unfold count. revert i j; induction l as [|k l IH]; intros i j Hij Hi Hj; [destruct i; discriminate|].
  simpl. destruct i as [|i].
  - injection Hi as ->. rewrite rowb_refl by auto. simpl. destruct j as [|j]; [lia|]. simpl in Hj.
    assert (In r (filter (rowb r) l)) as Hin.
    { apply filter_In. split; [eapply nth_error_In; eauto|apply rowb_refl; auto]. }
    destruct (filter (rowb r) l); [destruct Hin|simpl; lia].
  - destruct j as [|j]; [lia|]. simpl in Hi, Hj. specialize (IH i j ltac:(lia) Hi Hj).
    destruct (rowb r k); simpl; lia.
Qed.
Lemma first_index_le r l i : no_nan r -> nth_error l i = Some r -> first_index r l <= i.
Proof.
  intros Hr. revert i; induction l as [|k l IH]; intros [|i] Hi; try discriminate; simpl in *.
  - injection Hi as ->. rewrite rowb_refl by auto. lia.
  - destruct (rowb r k); [lia|]. specialize (IH i Hi). lia.
Qed.
Lemma first_index_nth r l : 0 < count r l -> nth_error l (first_index r l) = Some r.
Proof.
  unfold count. induction l as [|k l IH]; simpl; [lia|]. destruct (rowb r k) eqn:E.
  - intros _. apply rowb_eq in E. subst. reflexivity.
  - auto.
Qed.
Lemma count_two r l : 1 < count r l -> exists j, first_index r l < j /\ nth_error l j = Some r.
Proof.
  unfold count. induction l as [|k l IH]; simpl; [lia|]. destruct (rowb r k) eqn:E; simpl.
  - intros H. assert (0 < count r l) as Hc by (unfold count; lia). apply first_index_nth in Hc.
    exists (S (first_index r l)). split; [lia|auto].
  - intros H. destruct (IH H) as (j & H1 & H2). exists (S j). split; [lia|auto].
Qed.

(** Splitting strings. *)
Lemma split_char_none c s : has_char c s = false -> split_char c s = [s].
Proof.
  induction s as [|a s IH]; simpl; auto. intros H. apply orb_false_iff in H as [-> H]. rewrite IH; auto.
Qed.
Lemma split_char_app c n p : has_char c n = false -> has_char c p = false ->
  split_char c (n ++ String c p) = [n; p].
Proof.
  induction n as [|a n IH]; simpl; intros Hn Hp.
  - rewrite Ascii.eqb_refl, split_char_none; auto.
  - apply orb_false_iff in Hn as [-> Hn]. rewrite IH; auto.
Qed.
Lemma has_char_app c n p : has_char c (n ++ String c p) = true.
Proof. induction n as [|a n IH]; simpl; [rewrite Ascii.eqb_refl; auto|rewrite IH; apply orb_true_r]. Qed.
Lemma split_char_length c s : has_char c s = true -> exists a b r, split_char c s = a :: b :: r.
Proof.
  induction s as [|a s IH]; simpl; [discriminate|]. destruct (Ascii.eqb c a); simpl.
  - intros _. destruct s; simpl; eauto. destruct (Ascii.eqb c a0); eauto.
    destruct (split_char c s); eauto.
  - intros H. destruct (IH H) as (x & y & r & ->). eauto.
Qed.
Fixpoint occurrences (c : ascii) (s : string) : nat :=
  match s with EmptyString => 0 | String a s' => (if Ascii.eqb c a then 1 else 0) + occurrences c s' end.
Lemma split_char_count c s : List.length (split_char c s) = S (occurrences c s).
Proof.
  induction s as [|a s IH]; simpl; auto. destruct (Ascii.eqb c a); simpl; [rewrite IH; auto|].
  destruct (split_char c s) eqn:E; simpl in *; [discriminate|auto].
Qed.

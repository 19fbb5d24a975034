(** Sums, extrema, sorting and thresholds of values in another order: lemmas. *)
From Coq Require Import Permutation Lia Lqa.
From Verif Require Import MGpr MPredict MTrust Argsort.
Set Default Goal Selector "!".
Set Bullet Behavior "Strict Subproofs".

Lemma fold_comm {A} (f : A -> A -> A) (c : forall a b, f a b = f b a) (s : forall a b d, f (f a b) d = f a (f b d)) l l' :
  Permutation l l' -> forall x, fold_left f l x = fold_left f l' x.
Proof.
  induction 1 as [|a l l' HP IH|a b l|l1 l2 l3 H1 IH1 H2 IH2]; intros x; cbn [fold_left]; auto.
  - rewrite !s, (c a b). reflexivity.
  - rewrite IH1. apply IH2.
Qed.
Lemma fold_from {A} (f : A -> A -> A) (s : forall a b d, f (f a b) d = f a (f b d)) l : forall x y, fold_left f l (f x y) = f x (fold_left f l y).
Proof. induction l as [|a l IH]; intros x y; cbn [fold_left]; auto. rewrite s. apply IH. Qed.
(** The first value counts as any other. *)
Lemma fold_head {A} (f : A -> A -> A) (c : forall a b, f a b = f b a) (s : forall a b d, f (f a b) d = f a (f b d)) x l x' l' :
  Permutation (x :: l) (x' :: l') -> fold_left f l x = fold_left f l' x'.
Proof.
  intros H. remember (x :: l) as u eqn:Eu. remember (x' :: l') as v eqn:Ev. revert x l x' l' Eu Ev.
  induction H as [|a u v HP IH|a b u|u1 u2 u3 H1 IH1 H2 IH2]; intros x l x' l' Eu Ev; try discriminate.
  - injection Eu as E1 E2. injection Ev as E3 E4. subst. apply fold_comm; auto.
  - injection Eu as E1 E2. injection Ev as E3 E4. subst. cbn [fold_left]. rewrite (c x' x). reflexivity.
  - destruct u2 as [|y m]; [subst; apply Permutation_sym, Permutation_nil_cons in H1; contradiction|].
    rewrite (IH1 x l y m Eu eq_refl). apply IH2; auto.
Qed.

Ltac num_cases := repeat match goal with x : num |- _ => destruct x end.
Lemma nadd_comm a b : nadd a b = nadd b a.
Proof. destruct a, b; cbn; auto. f_equal. apply Qcplus_comm. Qed.
Lemma nadd_assoc a b d : nadd (nadd a b) d = nadd a (nadd b d).
Proof. destruct a, b, d; cbn; auto. f_equal. symmetry. apply Qcplus_assoc. Qed.

Lemma qleb_total a b : qleb a b = false -> qleb b a = true.
Proof.
  unfold qleb. intros H. apply Qle_bool_iff. destruct (Qlt_le_dec (this b) (this a)) as [Hl|Hl]; [apply Qlt_le_weak; auto|].
  apply Qle_bool_iff in Hl. congruence.
Qed.
Lemma qleb_anti a b : qleb a b = true -> qleb b a = true -> a = b.
Proof. unfold qleb. rewrite !Qle_bool_iff. intros H1 H2. apply Qc_is_canon. apply Qle_antisym; auto. Qed.
Lemma qleb_trans a b c : qleb a b = true -> qleb b c = true -> qleb a c = true.
Proof. unfold qleb. rewrite !Qle_bool_iff. apply Qle_trans. Qed.
Ltac qle := repeat match goal with
  | H : qleb ?a ?b = false |- _ => lazymatch goal with H' : qleb b a = true |- _ => fail | _ => pose proof (qleb_total a b H) end end;
  try reflexivity; try congruence;
  repeat match goal with H1 : qleb ?a ?b = true, H2 : qleb ?b ?a = true |- _ => pose proof (qleb_anti a b H1 H2); subst end; try reflexivity; try congruence.
Lemma npmax2_comm a b : npmax2 a b = npmax2 b a.
Proof.
  destruct a as [| |p|], b as [| |q|]; cbn; auto. unfold npmax2, pymax, nltb, qltb. cbn.
  destruct (qleb q p) eqn:E1, (qleb p q) eqn:E2; cbn; auto.
  - rewrite (qleb_anti _ _ E1 E2). reflexivity.
  - apply qleb_total in E1. congruence.
Qed.
Lemma npmax2_assoc a b d : npmax2 (npmax2 a b) d = npmax2 a (npmax2 b d).
Proof.
  destruct a as [| |p|], b as [| |q|], d as [| |r|]; cbn; auto; unfold npmax2, pymax, nltb, qltb; cbn;
    repeat match goal with |- context [qleb ?x ?y] => destruct (qleb x y) eqn:?; cbn end; auto; exfalso; unfold qleb in *;
    repeat match goal with
    | H : Qle_bool _ _ = true |- _ => apply Qle_bool_iff in H
    | H : Qle_bool ?a ?b = false |- _ => assert (~ (a <= b)%Q) by (rewrite <- Qle_bool_iff, H; discriminate); clear H end; lra.
Qed.
Lemma npmin2_comm a b : npmin2 a b = npmin2 b a.
Proof.
  destruct a as [| |p|], b as [| |q|]; cbn; auto. unfold npmin2, pymin, nltb, qltb. cbn.
  destruct (qleb q p) eqn:E1, (qleb p q) eqn:E2; cbn; auto.
  - rewrite (qleb_anti _ _ E1 E2). reflexivity.
  - apply qleb_total in E1. congruence.
Qed.
Lemma npmin2_assoc a b d : npmin2 (npmin2 a b) d = npmin2 a (npmin2 b d).
Proof.
  destruct a as [| |p|], b as [| |q|], d as [| |r|]; cbn; auto; unfold npmin2, pymin, nltb, qltb; cbn;
    repeat match goal with |- context [qleb ?x ?y] => destruct (qleb x y) eqn:?; cbn end; auto; exfalso; unfold qleb in *;
    repeat match goal with
    | H : Qle_bool _ _ = true |- _ => apply Qle_bool_iff in H
    | H : Qle_bool ?a ?b = false |- _ => assert (~ (a <= b)%Q) by (rewrite <- Qle_bool_iff, H; discriminate); clear H end; lra.
Qed.
Lemma npmax_perm x l x' l' : Permutation (x :: l) (x' :: l') -> npmax x l = npmax x' l'.
Proof. apply fold_head; [apply npmax2_comm|apply npmax2_assoc]. Qed.
Lemma npmin_perm x l x' l' : Permutation (x :: l) (x' :: l') -> npmin x l = npmin x' l'.
Proof. apply fold_head; [apply npmin2_comm|apply npmin2_assoc]. Qed.
(** Python's [max] and [min] without NaN are those of numpy. *)
Lemma pymax_np l : forall x, existsb isnan (x :: l) = false -> fold_left pymax l x = npmax x l.
Proof.
  induction l as [|a l IH]; intros x H; auto. cbn [fold_left]. unfold npmax in *. cbn [fold_left].
  cbn [existsb] in H. apply Bool.orb_false_elim in H as [Hx H]. apply Bool.orb_false_elim in H as [Ha H].
  unfold npmax2 at 2. rewrite Hx, Ha. cbn [orb]. apply IH. cbn [existsb]. rewrite H. unfold pymax. destruct (nltb x a); [rewrite Ha|rewrite Hx]; auto.
Qed.
Lemma pymin_np l : forall x, existsb isnan (x :: l) = false -> fold_left pymin l x = npmin x l.
Proof.
  induction l as [|a l IH]; intros x H; auto. cbn [fold_left]. unfold npmin in *. cbn [fold_left].
  cbn [existsb] in H. apply Bool.orb_false_elim in H as [Hx H]. apply Bool.orb_false_elim in H as [Ha H].
  unfold npmin2 at 2. rewrite Hx, Ha. cbn [orb]. apply IH. cbn [existsb]. rewrite H. unfold pymin. destruct (nltb a x); [rewrite Ha|rewrite Hx]; auto.
Qed.
Lemma existsb_perm {A} (f : A -> bool) l l' : Permutation l l' -> existsb f l = existsb f l'.
Proof.
  intros HP. destruct (existsb f l) eqn:E.
  - symmetry. apply existsb_exists in E as (x & H1 & H2). apply existsb_exists. exists x. split; auto. eapply Permutation_in; eauto.
  - symmetry. destruct (existsb f l') eqn:E'; auto. apply existsb_exists in E' as (x & H1 & H2). rewrite <- E. symmetry. apply existsb_exists.
    exists x. split; auto. eapply Permutation_in; [symmetry|]; eauto.
Qed.
Lemma pymax_list_perm l l' : existsb isnan l = false -> Permutation l l' -> pymax_list l = pymax_list l'.
Proof.
  intros Hn HP. pose proof (existsb_perm isnan _ _ HP) as Hn'. rewrite Hn in Hn'. destruct l as [|x l], l' as [|x' l']; auto.
  - apply Permutation_nil_cons in HP. contradiction.
  - apply Permutation_sym, Permutation_nil_cons in HP. contradiction.
  - cbn [pymax_list]. rewrite !pymax_np by auto. f_equal. apply npmax_perm. exact HP.
Qed.
Lemma pymin_list_perm l l' : existsb isnan l = false -> Permutation l l' -> pymin_list l = pymin_list l'.
Proof.
  intros Hn HP. pose proof (existsb_perm isnan _ _ HP) as Hn'. rewrite Hn in Hn'. destruct l as [|x l], l' as [|x' l']; auto.
  - apply Permutation_nil_cons in HP. contradiction.
  - apply Permutation_sym, Permutation_nil_cons in HP. contradiction.
  - cbn [pymin_list]. rewrite !pymin_np by auto. f_equal. apply npmin_perm. exact HP.
Qed.
Lemma ceiling_perm clip l l' : existsb isnan l = false -> Permutation l l' -> ceiling clip l = ceiling clip l'.
Proof. intros Hn HP. unfold ceiling. rewrite (pymax_list_perm l l'), (pymin_list_perm l l') by auto. reflexivity. Qed.

(** Means. *)
Lemma np_mean_perm l l' : Permutation l l' -> np_mean l = np_mean l'.
Proof.
  intros HP. unfold np_mean. rewrite (Permutation_length HP). f_equal. apply fold_comm; auto; [apply nadd_comm|apply nadd_assoc].
Qed.
Lemma np_var_perm l l' : Permutation l l' -> np_var l = np_var l'.
Proof. intros HP. unfold np_var. rewrite (np_mean_perm l l' HP). apply np_mean_perm, Permutation_map. exact HP. Qed.

(** Sorting. *)
Lemma np_le_anti a b : np_le a b = true -> np_le b a = true -> a = b.
Proof.
  unfold np_le. destruct a as [| |p|], b as [| |q|]; cbn; auto; try discriminate. intros H1 H2. f_equal. apply qleb_anti; auto.
Qed.
Lemma insert_comm x y l : insert_num x (insert_num y l) = insert_num y (insert_num x l).
Proof.
  induction l as [|a l IH]; cbn [insert_num].
  - destruct (np_le x y) eqn:E1, (np_le y x) eqn:E2; auto.
    + rewrite (np_le_anti x y E1 E2). reflexivity.
    + apply np_le_total in E1. congruence.
  - destruct (np_le y a) eqn:Ey, (np_le x a) eqn:Ex; cbn [insert_num].
    + destruct (np_le x y) eqn:E1, (np_le y x) eqn:E2; rewrite ?Ex, ?Ey; auto.
      * rewrite (np_le_anti x y E1 E2). reflexivity.
      * apply np_le_total in E1. congruence.
    + destruct (np_le x y) eqn:E1; rewrite ?Ex, ?Ey; auto. exfalso. rewrite (np_le_trans x y a E1 Ey) in Ex. discriminate.
    + destruct (np_le y x) eqn:E1; rewrite ?Ex, ?Ey; auto. exfalso. rewrite (np_le_trans y x a E1 Ex) in Ey. discriminate.
    + rewrite Ex, Ey, IH. reflexivity.
Qed.
Lemma np_sort_perm l l' : Permutation l l' -> np_sort l = np_sort l'.
Proof.
  induction 1 as [|a l l' HP IH|a b l|l1 l2 l3 H1 IH1 H2 IH2]; cbn [np_sort fold_right]; auto.
  - unfold np_sort in IH. rewrite IH. reflexivity.
  - apply insert_comm.
  - congruence.
Qed.
Lemma threshold_perm l l' n ref : Permutation l l' -> diff_threshold_if_keep_n_finite l n ref = diff_threshold_if_keep_n_finite l' n ref.
Proof. intros HP. unfold diff_threshold_if_keep_n_finite. rewrite (np_sort_perm l l' HP). reflexivity. Qed.

(** Labels move with their values. *)
Lemma label_perm l l' d f : Permutation l l' -> is_finite_raw_self l d = Ok f ->
  exists t, f = map t l /\ is_finite_raw_self l' d = Ok (map t l').
Proof.
  intros HP. unfold is_finite_raw_self. destruct l as [|x l]; [discriminate|]. destruct l' as [|x' l']; [apply Permutation_sym, Permutation_nil_cons in HP; contradiction|].
  intros E. injection E as <-. exists (fun v => nleb (nsub (npmax x l) d) v && isfin v). split; [reflexivity|].
  rewrite (npmax_perm x l x' l' HP). reflexivity.
Qed.
Lemma classify_perm {th} (c : config th) l l' f thr : Permutation l l' -> classify c l = Ok (f, thr) ->
  exists t, f = map t l /\ classify c l' = Ok (map t l', thr).
Proof.
  intros HP. unfold classify. destruct (c_classifier c).
  - rewrite <- (threshold_perm l l' _ _ HP). destruct (diff_threshold_if_keep_n_finite l (c_keep c) (c_diff c)) as [d|]; cbn; [|discriminate].
    destruct (is_finite_raw_self l d) as [f0|] eqn:E; cbn; [|discriminate]. intros E2. injection E2 as <- <-.
    destruct (label_perm l l' d f0 HP E) as (t & -> & E'). exists t. split; auto. rewrite E'. reflexivity.
  - intros E. injection E as <- <-. exists (fun _ => true). assert (forall (A : Type) (m : list A), repeat true (length m) = map (fun _ => true) m) as H.
    { induction m; cbn; congruence. }
    rewrite !H. auto.
Qed.

(** The trust region. *)
Lemma mask_filter {A} (D : list (A * num)) (t : num -> bool) : mask (map t (map snd D)) (map fst D) = map fst (filter (fun d => t (snd d)) D).
Proof. induction D as [|[x v] D IH]; auto. cbn. destruct (t v); cbn; rewrite IH; reflexivity. Qed.
Lemma filter_perm {A} (f : A -> bool) l l' : Permutation l l' -> Permutation (filter f l) (filter f l').
Proof.
  induction 1 as [|a l l' HP IH|a b l|l1 l2 l3 H1 IH1 H2 IH2]; cbn [filter]; auto.
  - destruct (f a); auto.
  - destruct (f a), (f b); auto. apply perm_swap.
  - etransitivity; eauto.
Qed.
Section Trust.
Variable delta : num -> num.
Lemma select_perm D D' n : existsb isnan (map snd D) = false -> Permutation D D' ->
  Permutation (select delta (map fst D) (map snd D) n) (select delta (map fst D') (map snd D') n).
Proof.
  intros Hn HP. unfold select. assert (top (map snd D) = top (map snd D')) as ->.
  { pose proof (Permutation_map snd HP) as HP2. pose proof (pymax_list_perm _ _ Hn HP2) as E. unfold top.
    destruct (map snd D), (map snd D'); cbn in E; auto; congruence. }
  rewrite !(mask_filter _ (fun v => nltb (nsub (top (map snd D')) v) (delta n))). apply Permutation_map, filter_perm. exact HP.
Qed.
Lemma widen_perm D D' : existsb isnan (map snd D) = false -> Permutation D D' -> forall fuel need cur cur' n, Permutation cur cur' ->
  match widen delta fuel need (map fst D) (map snd D) cur n, widen delta fuel need (map fst D') (map snd D') cur' n with
  | Ok u, Ok u' => Permutation u u'
  | Err e, Err e' => e = e'
  | _, _ => False
  end.
Proof.
  intros Hn HP. induction fuel as [|fuel IH]; intros need cur cur' n Hc; cbn [widen]; rewrite (Permutation_length Hc);
    destruct (length cur' <? need)%nat; auto. apply IH. apply select_perm; auto.
Qed.
Lemma used_perm D D' fuel d nstd : existsb isnan (map snd D) = false -> Permutation D D' ->
  match used delta fuel d nstd (map fst D) (map snd D), used delta fuel d nstd (map fst D') (map snd D') with
  | Ok u, Ok u' => Permutation u u'
  | Err e, Err e' => e = e'
  | _, _ => False
  end.
Proof.
  intros Hn HP. unfold used. destruct nstd as [n|].
  - rewrite !map_length, (Permutation_length HP). apply widen_perm; auto.
  - apply Permutation_map. exact HP.
Qed.
Lemma shrink_perm b d U U' f : Permutation U U' -> shrink_bounds b (Mat (mkMat d U)) f = shrink_bounds b (Mat (mkMat d U')) f.
Proof.
  intros HP. unfold shrink_bounds. destruct (check_and_return_bounds b) as [m|]; cbn; auto. destruct (negb _); auto.
  destruct U as [|u U], U' as [|u' U']; auto.
  - apply Permutation_nil_cons in HP. contradiction.
  - apply Permutation_sym, Permutation_nil_cons in HP. contradiction.
  - f_equal. apply map_ext. intros j. unfold column. cbn [rows map]. apply (Permutation_map (fun r => nth j r NaN)) in HP. cbn [map] in HP.
    unfold shrink_dim. rewrite (npmin_perm _ _ _ _ HP), (npmax_perm _ _ _ _ HP). reflexivity.
Qed.
Lemma trust_perm fuel d factor nstd b D D' : existsb isnan (map snd D) = false -> Permutation D D' ->
  update_trust_region delta fuel d factor nstd b (map fst D) (map snd D) = update_trust_region delta fuel d factor nstd b (map fst D') (map snd D').
Proof.
  intros Hn HP. unfold update_trust_region. destruct factor as [f|]; auto. pose proof (used_perm D D' fuel d nstd Hn HP) as H.
  destruct (used delta fuel d nstd (map fst D) (map snd D)) as [u|], (used delta fuel d nstd (map fst D') (map snd D')) as [u'|]; cbn [bind]; try contradiction.
  - rewrite (shrink_perm b d u u' f H). reflexivity.
  - congruence.
Qed.
End Trust.
(** Preprocessors. *)
Lemma norm_y_perm sq pc p l l' : (ny_use_median p = true -> forall u u', Permutation u u' -> pc u = pc u') -> Permutation l l' ->
  ny_do_fit sq pc p l = ny_do_fit sq pc p l'.
Proof.
  intros Hp HP. unfold ny_do_fit, get_mean_std. pose proof (filter_perm isfin _ _ HP) as HF. destruct (ny_use_median p).
  - rewrite (Hp eq_refl _ _ HF). destruct (filter isfin l), (filter isfin l'); auto.
    + apply Permutation_nil_cons in HF. contradiction.
    + apply Permutation_sym, Permutation_nil_cons in HF. contradiction.
  - rewrite (np_mean_perm _ _ HF), (np_var_perm _ _ HF). reflexivity.
Qed.
Lemma chi2_perm d l l' : existsb isnan l = false -> Permutation l l' -> chi2_do_fit d l = chi2_do_fit d l'.
Proof. intros Hn HP. unfold chi2_do_fit. rewrite (pymax_list_perm l l') by auto. reflexivity. Qed.

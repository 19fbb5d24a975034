(** Lemmas about the preprocessors. *)
From Verif Require Export MPreproc.
Set Default Goal Selector "!".

Definition map2 {A B C} (f : A -> B -> C) (l : list A) (k : list B) : list C :=
  map (fun p => f (fst p) (snd p)) (combine l k).
Lemma map2_cons {A B C} (f : A -> B -> C) a l b k : map2 f (a :: l) (b :: k) = f a b :: map2 f l k.
Proof. reflexivity. Qed.
Lemma map2_length {A B C} (f : A -> B -> C) l k : length l = length k -> length (map2 f l k) = length l.
Proof. intros H. unfold map2. rewrite map_length, combine_length. lia. Qed.
Lemma bcast2_same {A B} (f : num -> A -> B) r v : length r = length v -> bcast2 f r v = Ok (map2 f r v).
Proof. intros H. unfold bcast2. rewrite H, Nat.eqb_refl. reflexivity. Qed.
Lemma map2_fin f g (xs ys : list Qc) : (forall x y, f (Fin x) (Fin y) = Fin (g x y)) ->
  map2 f (map Fin xs) (map Fin ys) = map Fin (map2 g xs ys).
Proof.
  intros H. revert ys. induction xs as [|x xs IH]; intros [|y ys]; try reflexivity.
  cbn [map]. rewrite !map2_cons. cbn [map]. rewrite H, IH. reflexivity.
Qed.
Lemma nsub_fin x y : nsub (Fin x) (Fin y) = Fin (x - y).
Proof. reflexivity. Qed.

(** [Normalize_bounds] on finite numbers. *)
Definition fb (qb : list (Qc * Qc)) : list (num * num) := map (fun b => (Fin (fst b), Fin (snd b))) qb.
Definition positive_width (qb : list (Qc * Qc)) : Prop := Forall (fun b => (fst b < snd b)%Qc) qb.
Lemma fb_fst qb : map fst (fb qb) = map Fin (map fst qb).
Proof. unfold fb. rewrite !map_map. reflexivity. Qed.
Lemma fb_snd qb : map snd (fb qb) = map Fin (map snd qb).
Proof. unfold fb. rewrite !map_map. reflexivity. Qed.
Lemma new_nb_ok qb : positive_width qb ->
  new_norm_bounds (fb qb) = Ok (mkNB (map Fin (map fst qb)) (map Fin (map snd qb))).
Proof.
  intros H. unfold new_norm_bounds. rewrite fb_fst, fb_snd.
  assert (existsb (fun b => nltb (snd b) (fst b)) (fb qb) = false) as ->; [|reflexivity].
  induction H as [|[a b] qb H _ IH]; [reflexivity|]. simpl in *. rewrite IH, orb_false_r.
  apply qltb_nlt. apply Qclt_le_weak. auto.
Qed.
Section NB.
Variable qb : list (Qc * Qc).
Hypothesis W : positive_width qb.
Let p := mkNB (map Fin (map fst qb)) (map Fin (map snd qb)).
Definition widths := map (fun b => (snd b - fst b)%Qc) qb.
Lemma nb_width_ok : nb_width p = Ok (map Fin widths).
Proof.
  unfold nb_width, p; cbn [nb_min nb_max]. rewrite bcast2_same by (rewrite !map_length; reflexivity).
  rewrite (map2_fin _ (fun a b => a - b)%Qc) by reflexivity. do 2 f_equal. unfold widths.
  clear. induction qb as [|[a b] l IH]; [reflexivity|]. cbn [map]. rewrite map2_cons, IH. reflexivity.
Qed.
Definition tr (xs : list Qc) : list Qc := map2 (fun x b => (x - fst b) / (snd b - fst b))%Qc xs qb.
Definition itr (xs : list Qc) : list Qc := map2 (fun x b => x * (snd b - fst b) + fst b)%Qc xs qb.
Definition isc (xs : list Qc) : list Qc := map2 (fun x b => x * (snd b - fst b))%Qc xs qb.
Lemma width_pos a b : (a < b)%Qc -> ~ (b - a = 0)%Qc.
Proof. intros H E. apply (Qclt_not_eq _ _ H). rewrite <- (Qcplus_0_r a), <- E. ring. Qed.
Lemma div_fin a w : ~ (w = 0)%Qc -> ndiv (Fin a) (Fin w) = Fin (a / w).
Proof. intros H. simpl. destruct (qeqb w 0) eqn:E; [exfalso; apply H, qeqb_eq; auto|reflexivity]. Qed.
Lemma nb_transform_ok xs : length xs = length qb -> nb_transform p (map Fin xs) = Ok (map Fin (tr xs)).
Proof.
  intros Hl. unfold nb_transform. rewrite nb_width_ok. unfold p; cbn [nb_min].
  rewrite bcast2_same by (rewrite !map_length; auto). cbn [bind].
  rewrite (map2_fin _ (fun a b => a - b)%Qc) by reflexivity.
  rewrite bcast2_same by (unfold widths; rewrite !map_length, map2_length; rewrite ?map_length; auto).
  f_equal. unfold tr, widths. clear p. pose proof W as W'. clear W. revert xs Hl.
  induction W' as [|[a b] l H _ IH]; intros [|x xs] Hl; try discriminate; [reflexivity|].
  cbn [map]. rewrite !map2_cons. cbn [map fst snd] in *. rewrite !map2_cons.
  rewrite div_fin by (apply width_pos; auto). cbn [map]. rewrite IH by (simpl in Hl; lia). reflexivity.
Qed.
Lemma nb_inverse_ok xs : length xs = length qb -> nb_inverse_transform p (map Fin xs) = Ok (map Fin (itr xs)).
Proof.
  intros Hl. unfold nb_inverse_transform. rewrite nb_width_ok. unfold p; cbn [nb_min bind].
  rewrite bcast2_same by (unfold widths; rewrite !map_length; auto). cbn [bind].
  rewrite (map2_fin _ (fun a b => a * b)%Qc) by reflexivity.
  rewrite bcast2_same by (rewrite !map_length, map2_length; unfold widths; rewrite ?map_length; auto).
  rewrite (map2_fin _ (fun a b => a + b)%Qc) by reflexivity. do 2 f_equal. unfold itr, widths. clear p W. revert xs Hl.
  induction qb as [|[a b] l IH]; intros [|x xs] Hl; try discriminate; [reflexivity|].
  cbn [map]. rewrite !map2_cons. cbn [map fst snd] in *. rewrite IH by (simpl in Hl; lia). reflexivity.
Qed.
Lemma nb_scale_ok xs : length xs = length qb -> nb_inverse_transform_scale p (map Fin xs) = Ok (map Fin (isc xs)).
Proof.
  intros Hl. unfold nb_inverse_transform_scale. rewrite nb_width_ok. cbn [bind].
  rewrite bcast2_same by (unfold widths; rewrite !map_length; auto).
  rewrite (map2_fin _ (fun a b => a * b)%Qc) by reflexivity. do 2 f_equal. unfold isc, widths. clear p W. revert xs Hl.
  induction qb as [|[a b] l IH]; intros [|x xs] Hl; try discriminate; [reflexivity|].
  cbn [map]. rewrite !map2_cons. cbn [map fst snd] in *. rewrite IH by (simpl in Hl; lia). reflexivity.
Qed.
End NB.
Lemma qdiv_cancel x w : ~ (w = 0)%Qc -> (x / w * w = x)%Qc.
Proof. intros H. field. exact H. Qed.
Lemma tr_itr qb xs : positive_width qb -> length xs = length qb -> tr qb (itr qb xs) = xs.
Proof.
  intros W. revert xs. induction W as [|[a b] l H _ IH]; intros [|x xs] Hl; try discriminate; [reflexivity|].
  unfold tr, itr in *. rewrite !map2_cons, IH by (simpl in Hl; lia). cbn [fst snd] in *. f_equal. field.
  apply width_pos; auto.
Qed.
Lemma itr_tr qb xs : positive_width qb -> length xs = length qb -> itr qb (tr qb xs) = xs.
Proof.
  intros W. revert xs. induction W as [|[a b] l H _ IH]; intros [|x xs] Hl; try discriminate; [reflexivity|].
  unfold tr, itr in *. rewrite !map2_cons, IH by (simpl in Hl; lia). cbn [fst snd] in *. f_equal. field.
  apply width_pos; auto.
Qed.
Lemma tr_length qb xs : length xs = length qb -> length (tr qb xs) = length qb.
Proof. intros. unfold tr. rewrite map2_length; auto. Qed.
Lemma itr_length qb xs : length xs = length qb -> length (itr qb xs) = length qb.
Proof. intros. unfold itr. rewrite map2_length; auto. Qed.

(** Ratio between 0 and 1. *)
Lemma ratio_01 x a b : (a < b)%Qc ->
  ((a <= x)%Qc /\ (x <= b)%Qc) <-> ((0 <= (x - a) / (b - a))%Qc /\ ((x - a) / (b - a) <= 1)%Qc).
Proof.
  intros H. assert (0 < b - a)%Qc as Hp by qc. set (w := (b - a)%Qc) in *. set (r := ((x - a) / w)%Qc).
  assert (x = r * w + a)%Qc as E. { unfold r. rewrite qdiv_cancel; [ring|]. apply width_pos; auto. }
  assert (b = w + a)%Qc as Eb by (unfold w; ring).
  rewrite E, Eb. clearbody r w. clear E Eb H x b.
  split; intros [H1 H2]; split; qc.
Qed.

(** ** Mean and variance *)
Lemma fold_add_fin l : forall a, fold_left nadd (map Fin l) (Fin a) = Fin (fold_left Qcplus l a).
Proof. induction l as [|x l IH]; intros a; [reflexivity|]. simpl. apply IH. Qed.
Lemma qc_of_Z_pos n : n <> 0 -> (0 < qc_of_Z (Z.of_nat n))%Qc.
Proof.
  intros H. unfold qc_of_Z, Qclt. change (this (Q2Qc (inject_Z (Z.of_nat n)))) with (Qred (inject_Z (Z.of_nat n))).
  rewrite Qred_correct. change (inject_Z 0 < inject_Z (Z.of_nat n))%Q. rewrite <- Zlt_Qlt. lia.
Qed.
Definition qmean (l : list Qc) : Qc := (fold_left Qcplus l 0 / qc_of_Z (Z.of_nat (length l)))%Qc.
Lemma mean_fin l : l <> [] -> np_mean (map Fin l) = Fin (qmean l).
Proof.
  intros H. unfold np_mean. change (nz 0) with (Fin (qc_of_Z 0)).
  assert (qc_of_Z 0 = 0%Qc) as E0 by (apply Qc_is_canon; reflexivity). rewrite E0.
  rewrite fold_add_fin, map_length. unfold nz. rewrite div_fin; [reflexivity|].
  intros E. assert (length l <> 0) as Hl by (destruct l; simpl; congruence).
  pose proof (qc_of_Z_pos _ Hl) as Hp. rewrite E in Hp. apply Qclt_not_eq in Hp. auto.
Qed.
Lemma fold_plus_acc l : forall a, fold_left Qcplus l a = (a + fold_left Qcplus l 0)%Qc.
Proof.
  induction l as [|x l IH]; intros a; simpl; [ring|]. rewrite (IH (a + x)%Qc), (IH (0 + x)%Qc). ring.
Qed.
Lemma qsq_nonneg (a : Qc) : (0 <= a * a)%Qc.
Proof. qc. Qed.
Lemma qsq_pos (a : Qc) : a <> 0%Qc -> (0 < a * a)%Qc.
Proof.
  intros H. pose proof (qsq_nonneg a) as G. apply Qcle_lt_or_eq in G as [G|G]; [auto|].
  symmetry in G. apply Qcmult_integral in G. tauto.
Qed.
Lemma qadd_nonneg a b : (0 <= a -> 0 <= b -> 0 <= 0 + a + b)%Qc.
Proof. qc. Qed.
Lemma qadd_pos_l a b : (0 < a -> 0 <= b -> 0 < 0 + a + b)%Qc.
Proof. qc. Qed.
Lemma qadd_pos_r a b : (0 <= a -> 0 < b -> 0 < 0 + a + b)%Qc.
Proof. qc. Qed.
Lemma sum_sq_nonneg m l : (0 <= fold_left Qcplus (map (fun x => (x - m) * (x - m))%Qc l) 0)%Qc.
Proof.
  induction l as [|x l IH]; simpl; [apply Qcle_refl|]. rewrite fold_plus_acc.
  apply qadd_nonneg; [apply qsq_nonneg|auto].
Qed.
Lemma sum_sq_pos m l x : In x l -> x <> m -> (0 < fold_left Qcplus (map (fun x => (x - m) * (x - m))%Qc l) 0)%Qc.
Proof.
  induction l as [|y l IH]; intros Hx Hm; [destruct Hx|]. simpl. rewrite fold_plus_acc.
  destruct Hx as [->|Hx].
  - apply qadd_pos_l; [apply qsq_pos|apply sum_sq_nonneg]. intros E. apply Hm.
    rewrite <- (Qcplus_0_l m), <- E. ring.
  - apply qadd_pos_r; [apply qsq_nonneg|auto].
Qed.
Lemma var_pos l x y : In x l -> In y l -> x <> y ->
  exists v, np_var (map Fin l) = Fin v /\ (0 < v)%Qc.
Proof.
  intros Hx Hy Hne. assert (l <> []) as Hl by (intros ->; destruct Hx).
  unfold np_var. rewrite mean_fin by auto. rewrite map_map.
  rewrite (map_ext _ (fun z => Fin ((z - qmean l) * (z - qmean l))%Qc)) by reflexivity.
  rewrite <- (map_map (fun z => (z - qmean l) * (z - qmean l))%Qc Fin).
  rewrite mean_fin by (destruct l; simpl; congruence).
  eexists. split; [reflexivity|]. unfold qmean at 1. rewrite map_length.
  assert (0 < qc_of_Z (Z.of_nat (length l)))%Qc as Hn by (apply qc_of_Z_pos; destruct l; simpl; congruence).
  assert (0 < fold_left Qcplus (map (fun z => (z - qmean l) * (z - qmean l))%Qc l) 0)%Qc as Hs.
  { destruct (Qc_eq_dec x (qmean l)) as [E|E].
    - apply (sum_sq_pos _ _ y); auto. congruence.
    - apply (sum_sq_pos _ _ x); auto. }
  set (s := fold_left _ _ _) in *. set (n := qc_of_Z _) in *. clearbody s n. clear - Hn Hs.
  assert (s = s / n * n)%Qc as E. { rewrite qdiv_cancel; [reflexivity|]. intros E. subst n. apply Qclt_not_eq in Hn. auto. }
  set (r := (s / n)%Qc) in *. clearbody r. subst s. destruct (Qclt_le_dec 0 r) as [H|H]; [auto|exfalso]. qc.
Qed.
Lemma filter_fin l : exists q, filter isfin l = map Fin q.
Proof.
  induction l as [|[| |q|] l [k IH]]; [exists []; reflexivity|exists k; auto|exists k; auto| |exists k; auto].
  exists (q :: k). simpl. rewrite IH. reflexivity.
Qed.
Lemma filter_fin_in l q k : filter isfin l = map Fin q -> In k q <-> In (Fin k) l.
Proof.
  intros E. split.
  - intros H. apply (in_map Fin) in H. rewrite <- E in H. apply filter_In in H. tauto.
  - intros H. assert (In (Fin k) (filter isfin l)) as G by (apply filter_In; auto). rewrite E in G.
    apply in_map_iff in G as (k' & E' & G). injection E' as ->. auto.
Qed.

(** Equality of computed numbers, up to the proofs inside [Qc]. *)
Ltac numeq := vm_compute; repeat match goal with
  | |- Ok _ = Ok _ => apply f_equal
  | |- _ :: _ = _ :: _ => apply f_equal2
  | |- (_, _) = (_, _) => apply f_equal2
  | |- Some _ = Some _ => apply f_equal
  | |- Fin _ = Fin _ => apply f_equal; apply Qc_is_canon; reflexivity
  | |- ?x = ?x => reflexivity
  end.

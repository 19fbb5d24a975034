(** Change of units: the surrogate with the default preprocessors. *)
From Verif Require Import MUnits SUnits PUnits PUnits2 PTools.
Set Default Goal Selector "!".
Set Bullet Behavior "Strict Subproofs".

(** ** Lists *)
Lemma rescale_length u x : length (rescale u x) = length x.
Proof. revert x; induction u as [|a u IH]; intros [|v x]; simpl; auto. Qed.
Lemma nth_combine {X Y} (l : list X) (k : list Y) j dx dy : length l = length k ->
  nth j (combine l k) (dx, dy) = (nth j l dx, nth j k dy).
Proof. intros H. apply combine_nth; auto. Qed.
Lemma rescale_nth u x j : length u = length x -> j < length u ->
  nth j (rescale u x) NaN = rescale1 (nth j u (1%Qc, 0%Qc)) (nth j x NaN).
Proof.
  revert x j; induction u as [|a u IH]; intros [|v x] j H Hj; simpl in *; try lia.
  destruct j as [|j]; auto. apply IH; lia.
Qed.
Lemma units_nth u j : units u -> j < length u -> (0 < fst (nth j u (1%Qc, 0%Qc)))%Qc.
Proof. unfold units. rewrite Forall_forall. intros H Hj. apply H. apply nth_In; auto. Qed.
Lemma bcast2_same {X Y} (f : num -> X -> Y) r v : length r = length v ->
  bcast2 f r v = Ok (map (fun p => f (fst p) (snd p)) (combine r v)).
Proof. intros H. unfold bcast2. rewrite H, Nat.eqb_refl. auto. Qed.
Lemma mapM_map {X Y Z} (f : Y -> res Z) (g : X -> Y) l : mapM f (map g l) = mapM (fun x => f (g x)) l.
Proof. induction l as [|x l IH]; simpl; auto. rewrite IH. auto. Qed.
Lemma mapM_ext {X Y} (f g : X -> res Y) l : (forall x, In x l -> f x = g x) -> mapM f l = mapM g l.
Proof.
  intros H. induction l as [|x l IH]; simpl; auto. rewrite (H x) by (left; auto). rewrite IH; auto.
  intros; apply H; right; auto.
Qed.

(** ** Points *)
Definition conv_nb (u : list (Qc * Qc)) (p : norm_bounds) : norm_bounds :=
  mkNB (rescale u (nb_min p)) (rescale u (nb_max p)).
Lemma nb_transform_rescale u p x : units u -> length (nb_min p) = length u -> length (nb_max p) = length u ->
  length x = length u -> nb_transform (conv_nb u p) (rescale u x) = nb_transform p x.
Proof.
  intros Hu H1 H2 Hx. unfold nb_transform, nb_width, conv_nb. simpl.
  rewrite !bcast2_same by (rewrite ?rescale_length; lia). simpl.
  rewrite !bcast2_same by (rewrite ?map_length, ?combine_length, ?rescale_length; lia). f_equal.
  revert x Hx. destruct p as [lo hi]. simpl in *.
  revert lo hi H1 H2. induction u as [|a u IH]; intros [|l lo] [|h hi] H1 H2 [|x xs] Hx; try discriminate; auto.
  inversion Hu as [|? ? Ha Hu']; subst. simpl in *.
  rewrite !(rescale1_sub a Ha), (ndiv_cancel a Ha). f_equal.
  exact (IH Hu' lo hi ltac:(lia) ltac:(lia) xs ltac:(lia)).
Qed.

(** ** Values *)
Lemma fold_nadd_fin l : Forall (fun v => isfin v = true) l -> forall q,
  exists s, fold_left nadd l (Fin q) = Fin (q + s)%Qc /\
  forall c r, fold_left nadd (map (shift c) l) (Fin r) = Fin (r + s + c * qc_of_Z (Z.of_nat (length l)))%Qc.
Proof.
  induction 1 as [|v l Hv Hl IH]; intros q; simpl.
  - exists 0%Qc. split; [f_equal; ring|]. intros. f_equal. change (qc_of_Z 0) with 0%Qc. ring.
  - destruct v as [| |v|]; try discriminate. destruct (IH (q + v)%Qc) as (s & E1 & E2).
    exists (v + s)%Qc. split; [simpl; rewrite E1; f_equal; ring|]. intros c r. simpl. rewrite E2. f_equal.
    rewrite Zpos_P_of_succ_nat. unfold Z.succ.
    replace (qc_of_Z (Z.of_nat (length l) + 1)) with (qc_of_Z (Z.of_nat (length l)) + 1)%Qc; [ring|].
    unfold qc_of_Z. apply Qc_is_canon. rewrite this_plus, !this_Q2Qc, inject_Z_plus. reflexivity.
Qed.
Lemma np_mean_shift c l : Forall (fun v => isfin v = true) l -> np_mean (map (shift c) l) = shift c (np_mean l).
Proof.
  intros Hl. destruct l as [|v l]; [reflexivity|]. unfold np_mean. rewrite map_length. unfold nz at 1 3.
  destruct (fold_nadd_fin (v :: l) Hl (qc_of_Z 0)) as (s & E1 & E2). rewrite E1, E2.
  assert (qc_of_Z (Z.of_nat (length (v :: l))) <> 0%Qc) as Hn.
  { intros F. apply Qceq_this in F. unfold qc_of_Z in F. rewrite this_Q2Qc in F.
    unfold Qeq in F. cbn in F. lia. }
  unfold nz, ndiv. apply qeqb_neq in Hn. rewrite Hn. apply qeqb_neq in Hn. simpl. f_equal.
  field. auto.
Qed.
Lemma np_var_shift c l : Forall (fun v => isfin v = true) l -> np_var (map (shift c) l) = np_var l.
Proof.
  intros Hl. unfold np_var. cbv zeta. rewrite np_mean_shift, map_map by auto. f_equal.
  apply map_ext. intros v. rewrite nsub_shift. auto.
Qed.
Lemma filter_isfin_shift c y : filter isfin (map (shift c) y) = map (shift c) (filter isfin y).
Proof. induction y as [|v y IH]; simpl; auto. rewrite isfin_shift, IH. destruct (isfin v); auto. Qed.
Lemma filter_isfin_all y : Forall (fun v => isfin v = true) (filter isfin y).
Proof. apply Forall_forall. intros v Hv. apply filter_In in Hv. tauto. Qed.
Lemma ny_do_fit_shift root percentiles c p y : (ny_use_median p = true -> shifts_percentiles percentiles) ->
  ny_do_fit root percentiles (conv_ny c p) (map (shift c) y) = map_res (conv_ny c) (ny_do_fit root percentiles p y).
Proof.
  intros Hp. unfold ny_do_fit, get_mean_std. simpl. rewrite filter_isfin_shift.
  pose proof (filter_isfin_all y) as Hf. destruct (ny_use_median p).
  - destruct (filter isfin y) as [|v l] eqn:E; [simpl; auto|].
    rewrite (Hp eq_refl c (v :: l)) by (discriminate || auto). cbn [map].
    destruct (percentiles (v :: l)) as [[a b] d]. simpl. rewrite nsub_shift. reflexivity.
  - simpl. rewrite np_mean_shift, np_var_shift by auto. reflexivity.
Qed.
Lemma ny_transform_shift c p v : ny_transform (conv_ny c p) (shift c v) = ny_transform p v.
Proof. unfold ny_transform, if_fitted. simpl. destruct (ny_fit p) as [[m s]|]; simpl; auto. rewrite nsub_shift. auto. Qed.
Lemma ny_scale_shift c p v : ny_transform_scale (conv_ny c p) v = ny_transform_scale p v.
Proof. unfold ny_transform_scale, if_fitted. simpl. destruct (ny_fit p) as [[m s]|]; auto. Qed.
Lemma chi2_fit_shift d c y : chi2_do_fit d (map (shift c) y) = map_res (conv_ny c) (chi2_do_fit d y).
Proof.
  unfold chi2_do_fit. rewrite pymax_list_shift. destruct (pymax_list y) as [m|]; simpl; auto.
  unfold conv_ny. simpl. rewrite nsub_shift_l. auto.
Qed.
Lemma inv_y_shift c p v : inv_y (conv_ny c p) v = shift c (inv_y p v).
Proof.
  unfold inv_y, ny_inverse_transform, if_fitted. simpl. destruct (ny_fit p) as [[m s]|]; simpl; auto.
  apply nadd_shift_r.
Qed.
Lemma inv_scale_shift c p v : inv_scale_y (conv_ny c p) v = inv_scale_y p v.
Proof. unfold inv_scale_y, ny_inverse_transform_scale, if_fitted. simpl. destruct (ny_fit p) as [[m s]|]; auto. Qed.

(** ** Trust region *)
Section Trust.
Variable delta : num -> num.
Lemma top_shift c y : y <> [] -> top (map (shift c) y) = shift c (top y).
Proof. destruct y as [|v y]; [congruence|]. intros _. simpl. apply fold_shift. intros; apply pymax_shift. Qed.
Lemma select_conv c A X y n : select delta (map A X) (map (shift c) y) n = map A (select delta X y n).
Proof.
  unfold select. rewrite mask_map_l. do 2 f_equal. destruct y as [|v y]; auto.
  rewrite top_shift by discriminate. rewrite map_map. apply map_ext. intros w. rewrite nsub_shift. auto.
Qed.
Lemma widen_conv c A X y fuel need : forall cur n,
  widen delta fuel need (map A X) (map (shift c) y) (map A cur) n = map_res (map A) (widen delta fuel need X y cur n).
Proof.
  induction fuel as [|fuel IH]; intros cur n; simpl; rewrite map_length; destruct (length cur <? need); auto.
  rewrite select_conv. apply IH.
Qed.
Lemma used_conv c A fuel d nstd X y :
  used delta fuel d nstd (map A X) (map (shift c) y) = map_res (map A) (used delta fuel d nstd X y).
Proof. unfold used. destruct nstd as [n|]; auto. rewrite map_length. apply (widen_conv c A X y fuel _ [] n). Qed.
Lemma widen_incl X y fuel need : forall cur n r, incl cur X -> widen delta fuel need X y cur n = Ok r -> incl r X.
Proof.
  induction fuel as [|fuel IH]; intros cur n r Hc; simpl; destruct (length cur <? need); intros H;
    try discriminate; try (injection H as <-; auto).
  eapply IH; [|eauto]. apply mask_incl.
Qed.
Lemma used_incl fuel d nstd X y r : used delta fuel d nstd X y = Ok r -> incl r X.
Proof.
  unfold used. destruct nstd as [n|]; [|intros H; injection H as <-; apply incl_refl].
  apply widen_incl. intros ? [].
Qed.
End Trust.

Definition box_arr (b : list (num * num)) : arr := Mat (mkMat 2 (map (fun p => [fst p; snd p]) b)).
Lemma rescale_box_length u b : length u = length b -> length (rescale_box u b) = length b.
Proof. unfold rescale_box. rewrite map_length, combine_length. lia. Qed.
Lemma column_box b j : j < 2 -> column (mkMat 2 (map (fun p : num * num => [fst p; snd p]) b)) j
  = map (fun p => if j =? 0 then fst p else snd p) b.
Proof.
  intros Hj. unfold column. simpl. rewrite map_map. apply map_ext. intros [l h].
  destruct j as [|[|j]]; auto; lia.
Qed.
Lemma rescale_box_fst u b : length u = length b -> map fst (rescale_box u b) = rescale u (map fst b).
Proof.
  revert b; induction u as [|a u IH]; intros [|p b] H; try discriminate; auto.
  simpl in *. unfold rescale_box in *. simpl. f_equal. apply IH. lia.
Qed.
Lemma rescale_box_snd u b : length u = length b -> map snd (rescale_box u b) = rescale u (map snd b).
Proof.
  revert b; induction u as [|a u IH]; intros [|p b] H; try discriminate; auto.
  simpl in *. unfold rescale_box in *. simpl. f_equal. apply IH. lia.
Qed.
Lemma rescale_box_seq u (f : nat -> num * num) :
  rescale_box u (map f (seq 0 (length u))) =
  map (fun j => (rescale1 (nth j u (1%Qc, 0%Qc)) (fst (f j)), rescale1 (nth j u (1%Qc, 0%Qc)) (snd (f j)))) (seq 0 (length u)).
Proof.
  revert f. induction u as [|a u IH]; intros f; auto. simpl. unfold rescale_box in *. simpl. f_equal.
  rewrite <- seq_shift, !map_map. apply IH.
Qed.
Lemma shrink_bounds_conv u bounds U f : units u -> length bounds = length u -> Forall (fun x => length x = length u) U ->
  shrink_bounds (box_arr (rescale_box u bounds)) (Mat (mkMat (length u) (map (rescale u) U))) f
  = map_res (rescale_box u) (shrink_bounds (box_arr bounds) (Mat (mkMat (length u) U)) f).
Proof.
  intros Hu Hb HU. unfold shrink_bounds, box_arr, check_and_return_bounds. simpl.
  rewrite !map_length, rescale_box_length, Hb, Nat.eqb_refl by lia. simpl.
  destruct U as [|x U]; auto. cbn [map]. cbn [map_res]. f_equal. rewrite rescale_box_seq.
  apply map_ext_in. intros j Hj. apply in_seq in Hj.
  rewrite !column_box by lia. simpl (0 =? 0). simpl (1 =? 0). cbv iota.
  change (map (fun p : num * num => fst p)) with (map (@fst num num)).
  change (map (fun p : num * num => snd p)) with (map (@snd num num)).
  rewrite rescale_box_fst, rescale_box_snd by lia.
  rewrite !rescale_nth by (rewrite ?map_length; lia).
  unfold column. simpl. inversion HU as [|? ? Hx HU']; subst.
  rewrite rescale_nth by lia.
  replace (map (fun r => nth j r NaN) (map (rescale u) U))
    with (map (rescale1 (nth j u (1%Qc, 0%Qc))) (map (fun r => nth j r NaN) U)).
  - rewrite shrink_dim_rescale by (apply units_nth; auto; lia). auto.
  - rewrite !map_map. apply map_ext_in. intros r Hr. rewrite Forall_forall in HU'.
    rewrite rescale_nth; auto; [rewrite HU'; auto|lia].
Qed.
Lemma shrink_bounds_length bounds d U f b : shrink_bounds (box_arr bounds) (Mat (mkMat d U)) f = Ok b -> length b = d.
Proof.
  unfold shrink_bounds. destruct (check_and_return_bounds (box_arr bounds)) as [m|]; simpl; [|discriminate].
  destruct (negb (length (rows m) =? d)); [discriminate|]. destruct U; [discriminate|].
  intros H. injection H as <-. rewrite map_length, seq_length. auto.
Qed.
Lemma in_trust_eq b x : length x = length b ->
  in_trust b x = forallb (fun p => nleb (fst (snd p)) (fst p) && nleb (fst p) (snd (snd p))) (combine x b).
Proof.
  intros H. unfold in_trust, is_in_bounds. cbn [atleast_2d rows bind].
  rewrite (proj1 (box_cols b)), (proj2 (box_cols b)). cbn [bind mapM].
  rewrite combine_fst_snd, bcast2_same by auto. cbn [bind]. clear H. generalize (combine x b). intros l.
  induction l as [|p l IH]; simpl; auto. rewrite IH. auto.
Qed.
Lemma in_trust_rescale u b x : units u -> length b = length u -> length x = length u ->
  in_trust (rescale_box u b) (rescale u x) = in_trust b x.
Proof.
  intros Hu Hb Hx. rewrite !in_trust_eq by (rewrite ?rescale_length, ?rescale_box_length; lia).
  revert b x Hb Hx. induction u as [|a u IH]; intros [|p b] [|v x] Hb Hx; try discriminate; auto.
  inversion Hu as [|? ? Ha Hu']; subst. simpl. rewrite !rescale1_le by auto. f_equal. apply IH; auto.
Qed.

(** Properties C11-C14 and C69 (preprocessors). *)
From Verif Require Import MPreproc PPreproc.
Set Default Goal Selector "!".

(** ** C11 *)
(** Finite bounds [qb] (one (lo, hi) per dimension, [fb qb] as numbers), of positive width. *)
Theorem C11_bounds_round_trip :
  forall qb, positive_width qb ->
  exists p, new_norm_bounds (fb qb) = Ok p
  (* transform, then back *)
  /\ (forall x, length x = length qb ->
        exists t, length t = length qb
        /\ nb_transform p (map Fin x) = Ok (map Fin t)
        /\ nb_inverse_transform p (map Fin t) = Ok (map Fin x)
        (* in the prior box iff in the unit box *)
        /\ (Forall2 (fun x b => (fst b <= x)%Qc /\ (x <= snd b)%Qc) x qb <-> Forall (fun t => (0 <= t)%Qc /\ (t <= 1)%Qc) t))
  (* back, then transform *)
  /\ (forall t, length t = length qb ->
        exists x, length x = length qb
        /\ nb_inverse_transform p (map Fin t) = Ok (map Fin x)
        /\ nb_transform p (map Fin x) = Ok (map Fin t)
        (* scales: differences of transformed coordinates *)
        /\ forall s, length s = length qb ->
           exists x' s', nb_inverse_transform p (map Fin (map2 Qcplus t s)) = Ok (map Fin x')
           /\ nb_inverse_transform_scale p (map Fin s) = Ok (map Fin s')
           /\ map2 Qcminus x' x = s').
Proof.
  intros qb W. eexists. split; [apply new_nb_ok; auto|]. split.
  - intros x Hl. exists (tr qb x). pose proof (tr_length qb x Hl) as Ht.
    rewrite nb_transform_ok, nb_inverse_ok, itr_tr by auto. repeat split; auto.
    + intros H. clear Ht. revert W. induction H as [|x0 [a b] x' qb' [H1 H2] HF IH]; intros W; [constructor|].
      inversion W as [|? ? W1 W2]; subst. unfold tr. rewrite map2_cons. constructor.
      * apply (proj1 (ratio_01 x0 a b W1)); auto.
      * apply IH; auto.
    + intros H. clear Ht. revert x Hl H. induction W as [|[a b] qb' W1 W2 IH]; intros [|x0 x] Hl H; try discriminate; [constructor|].
      unfold tr in H. rewrite map2_cons in H. inversion H as [|? ? H1 H2]; subst. constructor.
      * apply (proj2 (ratio_01 x0 a b W1)); auto.
      * apply IH; auto.
  - intros t Hl. exists (itr qb t). pose proof (itr_length qb t Hl) as Ht.
    rewrite nb_inverse_ok, nb_transform_ok, tr_itr by auto. repeat split; auto.
    intros s Hs. assert (length (map2 Qcplus t s) = length qb) as Hm by (rewrite map2_length; lia).
    exists (itr qb (map2 Qcplus t s)), (isc qb s). rewrite nb_inverse_ok, nb_scale_ok by auto. repeat split.
    clear Ht Hm W. unfold itr, isc. revert t s Hl Hs.
    induction qb as [|[a b] qb IH]; intros [|t0 t] [|s0 s] Hl Hs; try discriminate; [reflexivity|].
    rewrite !map2_cons, IH by (simpl in *; lia). f_equal. cbn [fst snd]. ring.
Qed.
Print Assumptions C11_bounds_round_trip.
(** The transformed bounds that the surrogate uses are the images of the two corners of the prior. *)
Theorem C11_transformed_bounds :
  forall qb, positive_width qb ->
  exists p, new_norm_bounds (fb qb) = Ok p
  /\ nb_transform p (map fst (fb qb)) = Ok (map fst (nb_transform_bounds (fb qb)))
  /\ nb_transform p (map snd (fb qb)) = Ok (map snd (nb_transform_bounds (fb qb)))
  /\ Forall (fun b => b = (nz 0, nz 1)) (nb_transform_bounds (fb qb)).
Proof.
  intros qb W. eexists. split; [apply new_nb_ok; auto|].
  rewrite fb_fst, fb_snd. rewrite !nb_transform_ok by (auto; rewrite map_length; auto).
  split; [|split].
  - f_equal. unfold tr, nb_transform_bounds, fb. rewrite !map_map. induction W as [|[a b] qb' W1 _ IH]; [reflexivity|].
    cbn [map]. rewrite map2_cons. cbn [map]. rewrite IH. f_equal. cbn [fst snd]. unfold nz. f_equal.
    transitivity (0%Qc); [|apply Qc_is_canon; reflexivity]. field. apply width_pos; auto.
  - f_equal. unfold tr, nb_transform_bounds, fb. rewrite !map_map. induction W as [|[a b] qb' W1 _ IH]; [reflexivity|].
    cbn [map]. rewrite map2_cons. cbn [map]. rewrite IH. f_equal. cbn [fst snd]. unfold nz. f_equal.
    transitivity (1%Qc); [|apply Qc_is_canon; reflexivity]. field. apply width_pos; auto.
  - unfold nb_transform_bounds. rewrite Forall_map. apply Forall_forall. reflexivity.
Qed.
Print Assumptions C11_transformed_bounds.
(** A dimension of width zero is accepted and not invertible: its coordinate becomes NaN. *)
Theorem C11_zero_width_refuted :
  exists b p, new_norm_bounds b = Ok p
  /\ nb_transform p (map fst b) = Ok [NaN] /\ nb_inverse_transform p [NaN] <> Ok (map fst b).
Proof.
  exists [(nz 2, nz 2)]. eexists. split; [reflexivity|]. split; [vm_compute; reflexivity|vm_compute; discriminate].
Qed.
Print Assumptions C11_zero_width_refuted.
(** Reversed bounds are rejected. *)
Theorem C11_reversed_rejected :
  forall bounds lo hi, In (lo, hi) bounds -> nltb hi lo = true -> new_norm_bounds bounds = Err TypeError.
Proof.
  intros bounds lo hi Hb Hl. unfold new_norm_bounds.
  assert (existsb (fun b => nltb (snd b) (fst b)) bounds = true) as -> by (apply existsb_exists; exists (lo, hi); auto).
  reflexivity.
Qed.
Print Assumptions C11_reversed_rejected.
Example C11_case :
  exists p, new_norm_bounds [(nz 2, nz 4); (nz (-1), nz 3)] = Ok p
  /\ nb_transform p [nz 3; nz 3] = Ok [nq 1 2; nz 1]
  /\ nb_inverse_transform p [nq 1 2; nz 1] = Ok [nz 3; nz 3]
  /\ nb_inverse_transform_scale p [nz 1; nz 2] = Ok [nz 2; nz 8].
Proof. eexists. split; [reflexivity|]. repeat split; numeq. Qed.

(** ** C12 *)
(** The good properties of a fitted transform. *)
Definition good_transform (p : norm_y) : Prop :=
  (* invertible on finite values, both ways *)
  (forall y, exists t, ny_transform p (Fin y) = Ok (Fin t) /\ ny_inverse_transform p (Fin t) = Ok (Fin y))
  /\ (forall t, exists y, ny_inverse_transform p (Fin t) = Ok (Fin y) /\ ny_transform p (Fin y) = Ok (Fin t))
  (* strictly increasing *)
  /\ (forall y y' t t', ny_transform p (Fin y) = Ok (Fin t) -> ny_transform p (Fin y') = Ok (Fin t') ->
        ((y < y')%Qc <-> (t < t')%Qc))
  (* infinities kept *)
  /\ ny_transform p NInf = Ok NInf /\ ny_inverse_transform p NInf = Ok NInf
  /\ ny_transform p PInf = Ok PInf /\ ny_inverse_transform p PInf = Ok PInf
  (* scales are differences *)
  /\ (forall t s, exists y y' s', ny_inverse_transform p (Fin t) = Ok (Fin y)
        /\ ny_inverse_transform p (Fin (t + s)) = Ok (Fin y')
        /\ ny_inverse_transform_scale p (Fin s) = Ok (Fin s') /\ (s' = y' - y)%Qc
        /\ ny_transform_scale p (Fin s') = Ok (Fin s)).
Lemma good_of_pos b m s : (0 < s)%Qc -> good_transform (mkNY b (Some (Fin m, Fin s))).
Proof.
  intros Hs. assert (s <> 0%Qc) as Hne by (intros E; rewrite E in Hs; apply Qclt_not_eq in Hs; auto).
  assert (forall y, ny_transform (mkNY b (Some (Fin m, Fin s))) (Fin y) = Ok (Fin ((y - m) / s))) as ET.
  { intros y. unfold ny_transform, if_fitted; cbn [ny_fit]. rewrite nsub_fin, div_fin by auto. reflexivity. }
  assert (forall y, ny_inverse_transform (mkNY b (Some (Fin m, Fin s))) (Fin y) = Ok (Fin (y * s + m))) as EI by reflexivity.
  assert (qsgn s = 1%Z) as Hsg.
  { unfold qsgn. destruct (qltb s 0) eqn:E; [exfalso; clear Hne ET EI; qc|]. destruct (qeqb s 0) eqn:E2; [|reflexivity].
    exfalso. apply Hne, qeqb_eq; auto. }
  assert (qltb s 0 = false) as Hlt by (apply qltb_nlt, Qclt_le_weak; auto).
  unfold good_transform. refine (conj _ (conj _ (conj _ (conj _ (conj _ (conj _ (conj _ _))))))).
  - intros y. eexists. rewrite ET. split; [reflexivity|]. rewrite EI. do 2 f_equal. field. auto.
  - intros t. eexists. rewrite EI. split; [reflexivity|]. rewrite ET. do 2 f_equal. field. auto.
  - intros y y' t t' H0 H1. rewrite ET in *. injection H0 as <-. injection H1 as <-.
    set (t := ((y - m) / s)%Qc). set (t' := ((y' - m) / s)%Qc).
    assert (y = t * s + m)%Qc as E by (unfold t; field; auto). assert (y' = t' * s + m)%Qc as E' by (unfold t'; field; auto).
    clearbody t t'. subst y y'. clear - Hs. split; intros H.
    + destruct (Qclt_le_dec t t') as [G|G]; [auto|exfalso]. qc.
    + qc.
  - unfold ny_transform, if_fitted; cbn. rewrite Hlt. reflexivity.
  - unfold ny_inverse_transform, if_fitted; cbn. rewrite Hsg. reflexivity.
  - unfold ny_transform, if_fitted; cbn. rewrite Hlt. reflexivity.
  - unfold ny_inverse_transform, if_fitted; cbn. rewrite Hsg. reflexivity.
  - intros t k. exists (t * s + m)%Qc, ((t + k) * s + m)%Qc, (k * s)%Qc. repeat split.
    + ring.
    + unfold ny_transform_scale, if_fitted; cbn [ny_fit]. rewrite div_fin by auto. do 2 f_equal. field. auto.
Qed.

(** A positive root for positive numbers. *)
Definition sqrt_ok (sqrt : num -> num) : Prop :=
  forall v, (0 < v)%Qc -> exists r, sqrt (Fin v) = Fin r /\ (0 < r)%Qc.

(** Mean and standard deviation: any data with two different finite values. *)
Theorem C12_mean_std :
  forall sqrt percentiles p data y1 y2,
  sqrt_ok sqrt -> ny_use_median p = false -> In (Fin y1) data -> In (Fin y2) data -> y1 <> y2 ->
  exists p', ny_do_fit sqrt percentiles p data = Ok p' /\ good_transform p'.
Proof.
  intros sqrt pc p data y1 y2 Hsq Hm H1 H2 Hne. unfold ny_do_fit, get_mean_std. rewrite Hm.
  destruct (filter_fin data) as [q E]. rewrite E. pose proof (filter_fin_in data q y1 E) as I1.
  pose proof (filter_fin_in data q y2 E) as I2.
  destruct (var_pos q y1 y2) as (v & Ev & Hv); [tauto..|auto|]. rewrite Ev. destruct (Hsq v Hv) as (r & -> & Hr).
  rewrite mean_fin by (intros ->; apply I1 in H1; destruct H1).
  eexists. split; [reflexivity|]. apply good_of_pos; auto.
Qed.
Print Assumptions C12_mean_std.
(** Median and interquartile range: any data whose finite values have finite quartiles, the third above
    the first. *)
Theorem C12_median :
  forall sqrt percentiles p data q1 q2 q3,
  ny_use_median p = true -> filter isfin data <> [] ->
  percentiles (filter isfin data) = (Fin q1, Fin q2, Fin q3) -> (q1 < q3)%Qc ->
  exists p', ny_do_fit sqrt percentiles p data = Ok p' /\ good_transform p'.
Proof.
  intros sqrt pc p data q1 q2 q3 Hm Hne Hp Hq. unfold ny_do_fit, get_mean_std. rewrite Hm, Hp.
  destruct (filter isfin data); [congruence|]. eexists. split; [reflexivity|]. apply (good_of_pos _ q2 (q3 - q1)%Qc). clear - Hq. qc.
Qed.
Print Assumptions C12_median.
(** Only the finite values of the data matter. *)
Theorem C12_only_finite_values :
  forall sqrt percentiles p data, 
  ny_do_fit sqrt percentiles p (filter isfin data) = ny_do_fit sqrt percentiles p data.
Proof.
  intros. unfold ny_do_fit. do 2 f_equal. induction data as [|x l IH]; [reflexivity|]. simpl.
  destruct (isfin x) eqn:E; [simpl; rewrite E, IH; reflexivity|auto].
Qed.
Print Assumptions C12_only_finite_values.
(** NormalizeChi2_y: any data with a finite value, no NaN and no +infinity. *)
Theorem C12_chi2 :
  forall delta data y, (0 < delta)%Qc -> In (Fin y) data -> (forall v, In v data -> v <> NaN /\ v <> PInf) ->
  exists p, chi2_do_fit (Fin delta) data = Ok p /\ good_transform p
  /\ (forall b, (forall v, In v data -> nleb v (Fin b) = true) -> In (Fin b) data -> ny_transform p (Fin b) = Ok (nz 1)).
Proof.
  intros delta data y Hd Hy Hn. unfold chi2_do_fit, pymax_list. destruct data as [|x l]; [destruct Hy|].
  assert (forall l x, (forall v, In v (x :: l) -> v <> NaN /\ v <> PInf) ->
    In (fold_left pymax l x) (x :: l) /\ forall v, In v (x :: l) -> nleb v (fold_left pymax l x) = true) as G.
  { clear. induction l as [|z l IH]; intros x Hn.
    - split; [left; auto|]. intros v [->|[]]. destruct (Hn v) as [H _]; [left; auto|]. apply nleb_refl. destruct v; auto; congruence.
    - cbn [fold_left]. destruct (IH (pymax x z)) as [I1 I2].
      { intros v [<-|Hv]; [|apply Hn; right; right; auto]. unfold pymax. destruct (nltb x z); apply Hn; simpl; auto. }
      split.
      + destruct I1 as [I1|I1]; [|right; right; auto]. rewrite <- I1. unfold pymax. destruct (nltb x z); simpl; auto.
      + assert (nleb x (pymax x z) = true /\ nleb z (pymax x z) = true) as [J1 J2].
        { destruct (Hn x) as [Hx _]; [simpl; auto|]. destruct (Hn z) as [Hz _]; [simpl; auto|].
          assert (isnan x = false) by (destruct x; auto; congruence). assert (isnan z = false) by (destruct z; auto; congruence).
          unfold pymax. destruct (nltb x z) eqn:E; split; try (apply nleb_refl; auto); [apply nltb_leb; auto|].
          rewrite nltb_not_leb in E by auto. apply negb_false_iff in E. auto. }
        intros v [<-|[<-|Hv]]; [eapply nleb_trans; [exact J1|]|eapply nleb_trans; [exact J2|]|]; apply I2; simpl; auto. }
  destruct (G l x Hn) as [G1 G2]. specialize (G2 _ Hy) as G3. destruct (Hn _ G1) as [N1 N2].
  destruct (fold_left pymax l x) as [| |m|] eqn:Em; try congruence; [discriminate G3|].
  cbn [bind]. eexists. split; [reflexivity|]. rewrite nsub_fin. split; [apply good_of_pos; auto|].
  intros b Hb Hin. assert (Fin m = Fin b) as E by (apply nleb_antisym; auto). injection E as ->.
  unfold ny_transform, if_fitted; cbn [ny_fit]. rewrite nsub_fin, div_fin.
  - unfold nz. do 2 f_equal. transitivity 1%Qc; [field|apply Qc_is_canon; reflexivity].
    intros E. rewrite E in Hd. apply Qclt_not_eq in Hd. auto.
  - intros E. rewrite E in Hd. apply Qclt_not_eq in Hd. auto.
Qed.
Print Assumptions C12_chi2.
(** Without a fit every method raises TypeError; data without spread are accepted and give a transform
    that is not invertible. *)
Theorem C12_not_fitted :
  forall b y, ny_transform (new_norm_y b) y = Err TypeError /\ ny_inverse_transform (new_norm_y b) y = Err TypeError
  /\ ny_transform_scale (new_norm_y b) y = Err TypeError /\ ny_inverse_transform_scale (new_norm_y b) y = Err TypeError.
Proof. intros. repeat split. Qed.
Print Assumptions C12_not_fitted.
Theorem C12_no_spread_refuted :
  exists sqrt percentiles p' data, sqrt_ok sqrt /\ In (nz 3) data
  /\ ny_do_fit sqrt percentiles (new_norm_y false) data = Ok p' /\ ny_transform p' (nz 3) = Ok NaN.
Proof.
  exists (fun x => x), (fun _ => (NaN, NaN, NaN)). eexists. exists [nz 3; NInf]. split; [|split; [left; reflexivity|]].
  - intros v Hv. exists v. auto.
  - split; [reflexivity|]. vm_compute. reflexivity.
Qed.
Print Assumptions C12_no_spread_refuted.
Example C12_case :
  exists p, ny_do_fit (fun x => x) (fun _ => (NaN, NaN, NaN)) (new_norm_y false) [nz 1; NInf; nz 3] = Ok p
  /\ ny_transform p (nz 4) = Ok (nz 2) /\ ny_inverse_transform p (nz 2) = Ok (nz 4) /\ ny_transform p NInf = Ok NInf.
Proof. eexists. split; [reflexivity|]. repeat split; numeq. Qed.
Example C12_case_chi2 :
  exists p, chi2_do_fit (nq 1 2) [nz 1; NInf; nz 3] = Ok p /\ ny_transform p (nz 3) = Ok (nz 1).
Proof. eexists. split; [reflexivity|]. numeq. Qed.

(** ** C13 *)
Section C13.
Context {D F B S : Type}.
Notation stage := (stage D F B S).
Lemma thread_app {X} (m : stage -> X -> res X) ps qs x :
  thread m (ps ++ qs) x = do y <- thread m ps x; thread m qs y.
Proof.
  revert x. induction ps as [|p ps IH]; intros x; [reflexivity|]. simpl. destruct (m p x); [apply IH|reflexivity].
Qed.
(** [xs] are the values between the stages: each is obtained from the previous one. *)
Definition steps {X} (m : stage -> X -> res X) (ps : list stage) (xs : list X) : Prop :=
  length xs = length ps + 1
  /\ forall i p a b, nth_error ps i = Some p -> nth_error xs i = Some a -> nth_error xs (i + 1) = Some b -> m p a = Ok b.
Definition steps_back {X} (m : stage -> X -> res X) (ps : list stage) (xs : list X) : Prop :=
  length xs = length ps + 1
  /\ forall i p a b, nth_error ps i = Some p -> nth_error xs i = Some a -> nth_error xs (i + 1) = Some b -> m p b = Ok a.
Lemma thread_steps {X} (m : stage -> X -> res X) ps : forall x y,
  thread m ps x = Ok y <-> exists xs, steps m ps xs /\ nth_error xs 0 = Some x /\ nth_error xs (length ps) = Some y.
Proof.
  induction ps as [|p ps IH]; intros x y; simpl.
  - split.
    + intros H. injection H as ->. exists [y]. split; [split; [reflexivity|intros [|i] p a b H; discriminate H]|split; reflexivity].
    + intros (xs & _ & H1 & H2). congruence.
  - split.
    + intros H. destruct (m p x) as [x'|e] eqn:E; [|discriminate]. apply IH in H as (xs & [Hl Hs] & H1 & H2).
      exists (x :: xs). split; [split|split; auto].
      * simpl. lia.
      * intros [|i] q a b Hq Ha Hb; simpl in Hq, Ha, Hb.
        -- simpl in H1. injection Hq as <-. injection Ha as <-. congruence.
        -- replace (i + 1) with (Datatypes.S i) in * by lia. eapply Hs; eauto.
           replace (i + 1) with (Datatypes.S i) by lia. auto.
    + intros (xs & [Hl Hs] & H1 & H2). destruct xs as [|x0 [|x1 xs]]; simpl in Hl; try lia.
      simpl in H1. injection H1 as ->. rewrite (Hs 0 p x x1 eq_refl eq_refl eq_refl). simpl.
      apply IH. exists (x1 :: xs). split; [split|split; auto].
      * simpl. lia.
      * intros i q a b Hq Ha Hb. apply (Hs (Datatypes.S i) q a b); auto.
Qed.
Lemma thread_steps_back {X} (m : stage -> X -> res X) ps : forall x y,
  thread m (rev ps) y = Ok x <-> exists xs, steps_back m ps xs /\ nth_error xs 0 = Some x /\ nth_error xs (length ps) = Some y.
Proof.
  induction ps as [|p ps IH]; intros x y; simpl.
  - split.
    + intros H. injection H as ->. exists [x]. split; [split; [reflexivity|intros [|i] p a b H; discriminate H]|split; reflexivity].
    + intros (xs & _ & H1 & H2). congruence.
  - rewrite thread_app. split.
    + intros H. destruct (thread m (rev ps) y) as [x1|e] eqn:E; [|discriminate]. simpl in H.
      destruct (m p x1) as [x'|e] eqn:Em; [|discriminate]. simpl in H. injection H as ->.
      apply IH in E as (xs & [Hl Hs] & H1 & H2). exists (x :: xs). split; [split|split; auto].
      * simpl. lia.
      * intros [|i] q a b Hq Ha Hb; simpl in Hq, Ha, Hb.
        -- simpl in H1. injection Hq as <-. injection Ha as <-. congruence.
        -- replace (i + 1) with (Datatypes.S i) in * by lia. eapply Hs; eauto.
           replace (i + 1) with (Datatypes.S i) by lia. auto.
    + intros (xs & [Hl Hs] & H1 & H2). destruct xs as [|x0 [|x1 xs]]; simpl in Hl; try lia.
      simpl in H1. injection H1 as ->.
      assert (thread m (rev ps) y = Ok x1) as E.
      { apply IH. exists (x1 :: xs). split; [split|split; auto].
        - simpl. lia.
        - intros i q a b Hq Ha Hb. apply (Hs (Datatypes.S i) q a b); auto. }
      rewrite E. simpl. rewrite (Hs 0 p x x1 eq_refl eq_refl eq_refl). reflexivity.
Qed.
End C13.

(** Data, bounds and scales go through the stages in the order of the list, and back in the opposite
    order. *)
Theorem C13_order :
  forall (D F B S : Type) (ps : list (stage D F B S)),
  (forall x y, pl_transform ps x = Ok y <->
     exists xs, steps transform ps xs /\ nth_error xs 0 = Some x /\ nth_error xs (length ps) = Some y)
  /\ (forall x y, pl_inverse_transform ps y = Ok x <->
     exists xs, steps_back inverse_transform ps xs /\ nth_error xs 0 = Some x /\ nth_error xs (length ps) = Some y)
  /\ (forall x y, pl_transform_bounds ps x = Ok y <->
     exists xs, steps transform_bounds ps xs /\ nth_error xs 0 = Some x /\ nth_error xs (length ps) = Some y)
  /\ (forall x y, pl_transform_scale ps x = Ok y <->
     exists xs, steps transform_scale ps xs /\ nth_error xs 0 = Some x /\ nth_error xs (length ps) = Some y)
  /\ (forall x y, pl_inverse_transform_scale ps y = Ok x <->
     exists xs, steps_back inverse_transform_scale ps xs /\ nth_error xs 0 = Some x /\ nth_error xs (length ps) = Some y).
Proof.
  intros. repeat split; intros H; first [apply thread_steps; exact H | apply thread_steps_back; exact H].
Qed.
Print Assumptions C13_order.
(** If each stage inverts its own transform, so does the pipeline; same for scales. *)
Theorem C13_round_trip :
  forall (D F B S : Type) (ps : list (stage D F B S)),
  (Forall (fun p => forall x t, transform p x = Ok t -> inverse_transform p t = Ok x) ps ->
     forall x t, pl_transform ps x = Ok t -> pl_inverse_transform ps t = Ok x)
  /\ (Forall (fun p => forall x t, inverse_transform p t = Ok x -> transform p x = Ok t) ps ->
     forall x t, pl_inverse_transform ps t = Ok x -> pl_transform ps x = Ok t)
  /\ (Forall (fun p => forall x t, transform_scale p x = Ok t -> inverse_transform_scale p t = Ok x) ps ->
     forall x t, pl_transform_scale ps x = Ok t -> pl_inverse_transform_scale ps t = Ok x).
Proof.
  intros D F B S ps. repeat split; intros HF x t H; rewrite Forall_forall in HF.
  - apply thread_steps in H as (xs & [Hl Hs] & H1 & H2). apply thread_steps_back. exists xs. split; [split|]; auto.
    intros i p a b Hp Ha Hb. apply (HF p); [eapply nth_error_In; eauto|eapply Hs; eauto].
  - apply thread_steps_back in H as (xs & [Hl Hs] & H1 & H2). apply thread_steps. exists xs. split; [split|]; auto.
    intros i p a b Hp Ha Hb. apply (HF p); [eapply nth_error_In; eauto|eapply Hs; eauto].
  - apply thread_steps in H as (xs & [Hl Hs] & H1 & H2). apply thread_steps_back. exists xs. split; [split|]; auto.
    intros i p a b Hp Ha Hb. apply (HF p); [eapply nth_error_In; eauto|eapply Hs; eauto].
Qed.
Print Assumptions C13_round_trip.
(** Each stage is fitted to the data as transformed by the stages before it, already fitted. *)
Theorem C13_fit :
  forall (D F B S : Type) (ps ps' : list (stage D F B S)) x y,
  pl_fit ps x y = (ps', Ok tt) ->
  length ps' = length ps
  /\ forall i p, nth_error ps i = Some p ->
     exists xi c, pl_transform (firstn i ps') x = Ok xi /\ s_fit p (cur p) xi y = Ok c
                  /\ nth_error ps' i = Some (with_state p c).
Proof.
  intros D F B S ps. induction ps as [|p ps IH]; intros ps' x y H; simpl in H.
  - injection H as <-. split; [reflexivity|]. intros [|i] p Hp; discriminate.
  - destruct (s_fit p (cur p) x y) as [c|e] eqn:Ef; [|discriminate].
    destruct (s_transform p c x) as [x'|e] eqn:Et; [|discriminate].
    destruct (pl_fit ps x' y) as [r e] eqn:Er. injection H as H He. subst ps' e.
    destruct (IH r x' y Er) as [Hl Hs]. split; [simpl; lia|]. intros [|i] q Hq; simpl in Hq |- *.
    + injection Hq as <-. exists x, c. auto.
    + destruct (Hs i q Hq) as (xi & c' & H1 & H2 & H3). exists xi, c'. split; [|auto].
      unfold pl_transform in *. simpl. unfold transform at 1. simpl. rewrite Et. exact H1.
Qed.
Print Assumptions C13_fit.
(** Bounds: if every stage maps the points within any bounds into its transformed bounds, so does the
    pipeline. *)
Theorem C13_bounds :
  forall (D F B S : Type) (within : D -> B -> Prop) (ps : list (stage D F B S)),
  Forall (fun p => forall x b t b', within x b -> transform p x = Ok t -> transform_bounds p b = Ok b' -> within t b') ps ->
  forall x b t b', within x b -> pl_transform ps x = Ok t -> pl_transform_bounds ps b = Ok b' -> within t b'.
Proof.
  intros D F B S within ps HF. induction HF as [|p ps Hp _ IH]; intros x b t b' Hw Ht Hb; unfold pl_transform, pl_transform_bounds in *; simpl in *.
  - congruence.
  - destruct (transform p x) as [x1|e] eqn:E1; [|discriminate]. destruct (transform_bounds p b) as [b1|e] eqn:E2; [|discriminate].
    simpl in *. apply (IH x1 b1 t b'); auto. exact (Hp x b x1 b1 Hw E1 E2).
Qed.
Print Assumptions C13_bounds.
(** Two affine stages on numbers, the second fitted to the largest value of the data. *)
Definition shift_stage : stage num unit (num * num) num :=
  mkStage num (nz 1) (fun c _ _ => Ok c) (fun c x => Ok (nadd x c)) (fun c x => Ok (nsub x c))
    (fun c b => Ok (nadd (fst b) c, nadd (snd b) c)) (fun _ s => Ok s) (fun _ s => Ok s).
Definition scale_stage : stage num unit (num * num) num :=
  mkStage num (nz 1) (fun _ x _ => Ok x) (fun c x => Ok (ndiv x c)) (fun c x => Ok (nmul x c))
    (fun c b => Ok (ndiv (fst b) c, ndiv (snd b) c)) (fun c s => Ok (ndiv s c)) (fun c s => Ok (nmul s c)).
Example C13_case :
  exists ps, pl_fit [shift_stage; scale_stage] (nz 3) tt = (ps, Ok tt)
  /\ pl_transform ps (nz 7) = Ok (nz 2) /\ pl_inverse_transform ps (nz 2) = Ok (nz 7)
  /\ pl_transform_bounds ps (nz (-1), nz 3) = Ok (nz 0, nz 1) /\ pl_transform_scale ps (nz 4) = Ok (nz 1).
Proof. eexists. split; [reflexivity|]. repeat split; numeq. Qed.
(** A stage of the code without [transform_scale] (Normalize_bounds, Whitening) makes the pipeline raise
    AttributeError. *)
Example C13_case_missing :
  pl_transform_scale [mkStage unit tt (fun c (_ : num) (_ : unit) => Ok c) (fun _ x => Ok x) (fun _ x => Ok x)
     (fun _ (b : unit) => Ok b) (fun _ (_ : num) => Err AttributeError) (fun _ s => Ok s)] (nz 1) = Err AttributeError.
Proof. reflexivity. Qed.

(** ** C14 *)
(** A fit that fails in the decomposition does not keep the previous transform: mean and covariance are
    replaced before. Here the identity (nothing learnt yet) is replaced by a transform that raises. *)
Theorem C14_failed_fit_refuted :
  exists (eig : num -> res (num * num)) (w : whitening num num) computed w',
  w_fit num num eig w computed = (w', Ok tt)
  /\ exists x, w_transform num num nmul nsub w' x <> w_transform num num nmul nsub w x.
Proof.
  exists (fun _ => Err ValueError), (mkW _ _ None None None true), (Ok (nz 0, nz 0)). eexists. split; [reflexivity|].
  exists (nz 1). discriminate.
Qed.
Print Assumptions C14_failed_fit_refuted.
(** Also if a transform was learnt before: the new mean is used with the old matrices. *)
Theorem C14_failed_refit_refuted :
  exists (eig : num -> res (num * num)) (w w1 w2 : whitening num num) c1 c2,
  w_cov _ _ w = None
  /\ w_fit num num eig w c1 = (w1, Ok tt) /\ w_fit num num eig w1 c2 = (w2, Ok tt)
  /\ (forall m c, c2 = Ok (m, c) -> eig c = Err ValueError)
  /\ exists x, w_transform num num nmul nsub w2 x <> w_transform num num nmul nsub w1 x.
Proof.
  exists (fun c => if neqb c (nz 0) then Err ValueError else Ok (nz 1, nz 1)), (mkW _ _ None None None true).
  do 2 eexists. exists (Ok (nz 0, nz 1)), (Ok (nz 5, nz 0)). split; [reflexivity|]. split; [reflexivity|]. split; [reflexivity|].
  split; [intros m c H; injection H as <- <-; reflexivity|]. exists (nz 0). vm_compute. discriminate.
Qed.
Print Assumptions C14_failed_refit_refuted.
(** Learning raises RuntimeError whenever the number of points is not the number of dimensions. *)
Theorem C14_learning_refuted :
  forall (V Mx : Type) eig (w : whitening V Mx) n d m cov, n <> d -> w_learn _ _ w = true ->
  w_fit V Mx eig w (compute_mean_cov V Mx n d (Ok m) cov) = (w, Err RuntimeError).
Proof.
  intros V Mx eig w n d m cov Hn Hl. unfold w_fit, compute_mean_cov. rewrite Hl. simpl.
  destruct (Nat.eqb_spec n d); [contradiction|reflexivity].
Qed.
Print Assumptions C14_learning_refuted.
(** What holds: a fit that cannot compute mean or covariance, or one of a transform that does not learn,
    changes nothing; a successful one gives the new transform. *)
Theorem C14_fit_partial :
  forall (V Mx : Type) eig (w : whitening V Mx) computed,
  (w_learn _ _ w = false \/ computed = Err ValueError -> w_fit V Mx eig w computed = (w, Ok tt))
  /\ (forall m c t, w_learn _ _ w = true -> computed = Ok (m, c) -> eig c = Ok t ->
      forall mv vsub x w', w_fit V Mx eig w computed = (w', Ok tt) ->
      w_transform V Mx mv vsub w' x = Ok (mv (fst t) (vsub x m))).
Proof.
  intros V Mx eig w computed. split.
  - intros [H| ->]; unfold w_fit; [rewrite H; reflexivity|]. destruct (w_learn _ _ w); reflexivity.
  - intros m c [t t'] Hl -> Ht mv vsub x w'. unfold w_fit. rewrite Hl. simpl. rewrite Ht. intros H. injection H as <-. reflexivity.
Qed.
Print Assumptions C14_fit_partial.
Example C14_case : w_fit num num (fun _ => Ok (nz 2, nq 1 2)) (mkW _ _ None None None true) (compute_mean_cov _ _ 1 1 (Ok (nz 3)) (Ok (nz 4)))
  = (mkW _ _ (Some (nz 3)) (Some (nz 4)) (Some (nz 2, nq 1 2)) true, Ok tt).
Proof. reflexivity. Qed.

(** ** C69: a fixed whitening transform *)
Lemma qdot_cons a r x v : qdot (a :: r) (x :: v) = (a * x + qdot r v)%Qc.
Proof. reflexivity. Qed.
(** A linear function on a box is between its values at two vertices. *)
Lemma qle_add a b c d : (a <= b -> c <= d -> a + c <= b + d)%Qc.
Proof. qc. Qed.
Lemma mul_between a lo hi x : (lo <= x)%Qc -> (x <= hi)%Qc ->
  ((a * lo <= a * x)%Qc /\ (a * x <= a * hi)%Qc) \/ ((a * hi <= a * x)%Qc /\ (a * x <= a * lo)%Qc).
Proof.
  intros H1 H2. destruct (Qclt_le_dec a 0) as [H|H]; [right|left]; split; qc.
Qed.
Lemma linear_on_box r : forall b x, length r = length b -> Forall2 (fun x b => (fst b <= x)%Qc /\ (x <= snd b)%Qc) x b ->
  exists v1 v2, In v1 (product b) /\ In v2 (product b) /\ (qdot r v1 <= qdot r x)%Qc /\ (qdot r x <= qdot r v2)%Qc.
Proof.
  induction r as [|a r IH]; intros b x Hl HF.
  - destruct b; [|discriminate]. inversion HF. subst. exists [], []. simpl. repeat split; auto; apply Qcle_refl.
  - destruct b as [|[lo hi] b]; [discriminate|]. inversion HF as [|x0 ? x' ? [H1 H2] HF']; subst. simpl in Hl. cbn [fst snd] in *.
    destruct (IH b x') as (v1 & v2 & I1 & I2 & L1 & L2); [lia|auto|].
    assert (forall v, In v (product b) -> In (lo :: v) (product ((lo, hi) :: b)) /\ In (hi :: v) (product ((lo, hi) :: b))) as G.
    { intros v Hv. simpl. rewrite !in_app_iff, !in_map_iff. split; [left|right]; eauto. }
    destruct (mul_between a lo hi x0 H1 H2) as [[M1 M2]|[M1 M2]].
    + exists (lo :: v1), (hi :: v2). rewrite !qdot_cons. repeat split; try apply G; auto; apply qle_add; auto.
    + exists (hi :: v1), (lo :: v2). rewrite !qdot_cons. repeat split; try apply G; auto; apply qle_add; auto.
Qed.
Lemma qdot_sub r : forall x m, length x = length r -> length m = length r -> qdot r (qvop Qcminus x m) = (qdot r x - qdot r m)%Qc.
Proof.
  induction r as [|a r IH]; intros [|x xs] [|m ms] Hx Hm; try discriminate; [reflexivity|].
  change (qvop Qcminus (x :: xs) (m :: ms)) with ((x - m)%Qc :: qvop Qcminus xs ms). rewrite !qdot_cons, IH by (simpl in *; lia). ring.
Qed.
Lemma qmin_le_l a b : (qmin a b <= a)%Qc.
Proof. unfold qmin. destruct (qleb a b) eqn:E; [apply Qcle_refl|]. qc. Qed.
Lemma qmin_le_r a b : (qmin a b <= b)%Qc.
Proof. unfold qmin. destruct (qleb a b) eqn:E; [|apply Qcle_refl]. qc. Qed.
Lemma qmax_ge_l a b : (a <= qmax a b)%Qc.
Proof. unfold qmax. destruct (qleb a b) eqn:E; [|apply Qcle_refl]. qc. Qed.
Lemma qmax_ge_r a b : (b <= qmax a b)%Qc.
Proof. unfold qmax. destruct (qleb a b) eqn:E; [apply Qcle_refl|]. qc. Qed.
Lemma fold_qmin (f : qvec -> Qc) l : forall a, (fold_left (fun a x => qmin a (f x)) l a <= a)%Qc
  /\ forall v, In v l -> (fold_left (fun a x => qmin a (f x)) l a <= f v)%Qc.
Proof.
  induction l as [|x l IH]; intros a; simpl; [split; [apply Qcle_refl|intros v []]|].
  destruct (IH (qmin a (f x))) as [I1 I2]. split.
  - eapply Qcle_trans; [exact I1|apply qmin_le_l].
  - intros v [<-|Hv]; [eapply Qcle_trans; [exact I1|apply qmin_le_r]|auto].
Qed.
Lemma fold_qmax (f : qvec -> Qc) l : forall a, (a <= fold_left (fun a x => qmax a (f x)) l a)%Qc
  /\ forall v, In v l -> (f v <= fold_left (fun a x => qmax a (f x)) l a)%Qc.
Proof.
  induction l as [|x l IH]; intros a; simpl; [split; [apply Qcle_refl|intros v []]|].
  destruct (IH (qmax a (f x))) as [I1 I2]. split.
  - eapply Qcle_trans; [apply qmax_ge_l|exact I1].
  - intros v [<-|Hv]; [eapply Qcle_trans; [apply qmax_ge_r|exact I1]|auto].
Qed.
Lemma Forall2_seq {A B} (R : A -> B -> Prop) (z : list A) (f : nat -> B) (d : A) :
  (forall j, j < length z -> R (nth j z d) (f j)) -> Forall2 R z (map f (seq 0 (length z))).
Proof.
  revert f. induction z as [|a z IH]; intros f H; [constructor|]. simpl. constructor.
  - apply (H 0). simpl. lia.
  - rewrite <- seq_shift, map_map. apply IH. intros j Hj. apply (H (S j)). simpl. lia.
Qed.
(** The smallest box around points contains whatever is between two of them in each dimension. *)
Lemma qbox_contains pts z : pts <> [] -> (forall p, In p pts -> length p = length z) ->
  (forall j, j < length z -> exists v1 v2, In v1 pts /\ In v2 pts /\ (nth j v1 0 <= nth j z 0)%Qc /\ (nth j z 0 <= nth j v2 0)%Qc) ->
  Forall2 (fun x b => (fst b <= x)%Qc /\ (x <= snd b)%Qc) z (qbox pts).
Proof.
  intros Hne Hl H. destruct pts as [|p pts]; [congruence|]. unfold qbox. rewrite (Hl p) by (left; auto).
  apply (Forall2_seq _ _ _ 0%Qc). intros j Hj. destruct (H j Hj) as (v1 & v2 & I1 & I2 & L1 & L2). cbn [fst snd].
  destruct (fold_qmin (fun x => nth j x 0%Qc) pts (nth j p 0%Qc)) as [A1 A2].
  destruct (fold_qmax (fun x => nth j x 0%Qc) pts (nth j p 0%Qc)) as [B1 B2]. split.
  - eapply Qcle_trans; [|exact L1]. destruct I1 as [<-|I1]; auto.
  - eapply Qcle_trans; [exact L2|]. destruct I2 as [<-|I2]; auto.
Qed.
Lemma product_length b : forall v, In v (product b) -> length v = length b.
Proof.
  induction b as [|[lo hi] b IH]; intros v Hv; simpl in Hv.
  - destruct Hv as [<-|[]]. reflexivity.
  - rewrite in_app_iff, !in_map_iff in Hv. destruct Hv as [(w & <- & Hw)|(w & <- & Hw)]; simpl; f_equal; auto.
Qed.
Lemma product_nonempty b : product b <> [].
Proof.
  induction b as [|[lo hi] b IH]; simpl; [discriminate|]. destruct (product b); [congruence|discriminate].
Qed.
Lemma qmv_nth m x j : j < length m -> nth j (qmv m x) 0%Qc = qdot (nth j m []) x.
Proof.
  intros H. unfold qmv. rewrite (nth_indep _ 0%Qc (qdot [] x)) by (rewrite map_length; auto).
  rewrite (map_nth (fun r => qdot r x)). reflexivity.
Qed.
Lemma mapM_ok {A B} (f : A -> res B) (g : A -> B) l : (forall x, In x l -> f x = Ok (g x)) -> mapM f l = Ok (map g l).
Proof.
  induction l as [|x l IH]; intros H; [reflexivity|]. simpl. rewrite (H x) by (left; auto). simpl.
  rewrite IH by (intros; apply H; right; auto). reflexivity.
Qed.
Lemma qvop_length f x y : length x = length y -> length (qvop f x y) = length x.
Proof. intros H. unfold qvop. rewrite map_length, combine_length. lia. Qed.
Lemma sub_add x : forall m, length x = length m -> qvop Qcplus (qvop Qcminus x m) m = x.
Proof.
  induction x as [|a x IH]; intros [|b m] H; try discriminate; [reflexivity|].
  change (qvop Qcplus (qvop Qcminus (a :: x) (b :: m)) (b :: m)) with ((a - b + b)%Qc :: qvop Qcplus (qvop Qcminus x m) m).
  rewrite IH by (simpl in H; lia). f_equal. ring.
Qed.

(** A whitening that does not learn must be given a covariance, and one that can be decomposed (otherwise the constructor
    raises); its transformation is then that of the covariance, whatever it is fitted to afterwards. *)
Theorem C69_not_learning :
  forall (eig : list qvec -> res (list qvec * list qvec)) center mean cov,
  (cov = None -> new_whitening qvec (list qvec) eig center mean cov false = Err ValueError) /\
  (forall w, new_whitening qvec (list qvec) eig center mean cov false = Ok w ->
     exists c t it, cov = Some c /\ eig c = Ok (t, it) /\
     forall fits, let w' := fold_left (fun w d => fst (w_fit qvec (list qvec) eig w d)) fits w in
       forall x, w_transform qvec (list qvec) qmv (qvop Qcminus) w' x = Ok (qmv t (qvop Qcminus x (match mean with Some m => m | None => center end)))).
Proof.
  intros eig center mean cov. split; [intros ->; reflexivity|]. intros w H. unfold new_whitening in H. destruct cov as [c|]; [|discriminate].
  destruct (eig c) as [[t it]|e] eqn:Ec; [|discriminate]. injection H as <-. exists c, t, it. split; [reflexivity|]. split; [exact Ec|].
  intros fits w' x. assert (w' = mkW _ _ (Some (match mean with Some m => m | None => center end)) (Some c) (Some (t, it)) false) as ->; [|reflexivity].
  unfold w'. clear w'. induction fits as [|f fits IH] using rev_ind; [reflexivity|]. rewrite fold_left_app. cbn [fold_left]. rewrite IH. reflexivity.
Qed.
Print Assumptions C69_not_learning.
(** A whitening made from a covariance whose decomposition gives mutually inverse matrices, in [d]
    dimensions: points are transformed and recovered, and the points of a box go into the transformed
    bounds. *)
Theorem C69_fixed_whitening :
  forall d (eig : list qvec -> res (list qvec * list qvec)) center mean cov t it w,
  eig cov = Ok (t, it) -> length t = d -> Forall (fun r => length r = d) t ->
  (forall x, length x = d -> qmv it (qmv t x) = x) ->
  (forall m, mean = Some m -> length m = d) -> length center = d ->
  new_whitening qvec (list qvec) eig center mean (Some cov) false = Ok w ->
  (forall x, length x = d -> exists z, length z = d
     /\ w_transform qvec (list qvec) qmv (qvop Qcminus) w x = Ok z
     /\ w_inverse_transform qvec (list qvec) qmv (qvop Qcplus) w z = Ok x)
  /\ (forall b, length b = d -> exists b', w_transform_bounds qvec (list qvec) qmv (qvop Qcminus) _ product qbox w b = Ok b'
      /\ forall x z, Forall2 (fun x b => (fst b <= x)%Qc /\ (x <= snd b)%Qc) x b ->
         w_transform qvec (list qvec) qmv (qvop Qcminus) w x = Ok z ->
         Forall2 (fun x b => (fst b <= x)%Qc /\ (x <= snd b)%Qc) z b').
Proof.
  intros d eig center mean cov t it w He Ht Hr Hinv Hm Hc Hw.
  assert (exists m, length m = d /\ w = mkW _ _ (Some m) (Some cov) (Some (t, it)) false) as (m & Lm & ->).
  { unfold new_whitening in Hw. rewrite He in Hw. injection Hw as <-. destruct mean as [m|]; eexists; split; try reflexivity; auto. }
  unfold w_transform_bounds, w_transform, w_inverse_transform. cbn [w_cov w_transf w_mean]. split.
  - intros x Hx. exists (qmv t (qvop Qcminus x m)). split; [unfold qmv; rewrite map_length; auto|]. split; [reflexivity|].
    rewrite Hinv by (rewrite qvop_length; lia). rewrite sub_add by lia. reflexivity.
  - intros b Hb. rewrite (mapM_ok _ (fun x => qmv t (qvop Qcminus x m))) by reflexivity. eexists. split; [reflexivity|].
    intros x z HF Hz. injection Hz as <-.
    assert (length x = d) as Lx. { clear - HF Hb. revert d Hb. induction HF; intros d Hb; simpl in *; [auto|]. destruct d; [discriminate|]. f_equal. auto. }
    apply qbox_contains.
    + pose proof (product_nonempty b). destruct (product b); [congruence|discriminate].
    + intros p Hp. apply in_map_iff in Hp as (v & <- & _). unfold qmv. rewrite !map_length. reflexivity.
    + intros j Hj. unfold qmv in Hj. rewrite map_length in Hj.
      assert (length (nth j t []) = d) as Lr by (rewrite Forall_forall in Hr; apply Hr, nth_In; auto).
      destruct (linear_on_box (nth j t []) b x) as (v1 & v2 & I1 & I2 & L1 & L2); [lia|auto|].
      exists (qmv t (qvop Qcminus v1 m)), (qmv t (qvop Qcminus v2 m)). rewrite !in_map_iff.
      split; [eauto|]. split; [eauto|]. rewrite !qmv_nth by auto.
      pose proof (product_length b v1 I1). pose proof (product_length b v2 I2).
      rewrite !qdot_sub by lia. set (k := qdot _ m). clearbody k.
      clear - L1 L2. split; qc.
Qed.
Print Assumptions C69_fixed_whitening.
Example C69_case :
  let two := Q2Qc (2 # 1) in let half := Q2Qc (1 # 2) in
  let eig := fun _ : list qvec => Ok ([[two; 0]; [0; half]]%Qc, [[half; 0]; [0; two]]%Qc) in
  exists w, new_whitening qvec (list qvec) eig [1; 1]%Qc None (Some []) false = Ok w
  /\ w_transform _ _ qmv (qvop Qcminus) w [two; two] = Ok [two; half]
  /\ w_transform_bounds _ _ qmv (qvop Qcminus) _ product qbox w [(0, two); (0, two)]%Qc
     = Ok [(- two, two); (- half, half)]%Qc.
Proof.
  eexists. split; [reflexivity|]. split; vm_compute; repeat match goal with
  | |- Ok _ = Ok _ => apply f_equal
  | |- _ :: _ = _ :: _ => apply f_equal2
  | |- (_, _) = (_, _) => apply f_equal2
  | |- ?x = ?x => reflexivity
  | |- @eq Qc _ _ => apply Qc_is_canon; reflexivity
  end.
Qed.

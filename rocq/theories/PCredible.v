(** Lemmas about the mass of a Gaussian within a radius. *)
From Verif Require Export SCredible.
From Coq Require Import Lra Lia Psatz.
Set Default Goal Selector "!".
Set Bullet Behavior "Strict Subproofs".

Lemma shell_cont d t : continuous (shell d) t.
Proof. apply @ex_derive_continuous. unfold shell. auto_derive. exact I. Qed.
Lemma shell_int d a b : ex_RInt (shell d) a b.
Proof. apply (@ex_RInt_continuous R_CompleteNormedModule). intros z _. apply shell_cont. Qed.
Lemma shell_pos d t : 0 < t -> 0 < shell d t.
Proof. intros H. unfold shell. apply Rmult_lt_0_compat; [apply pow_lt, H|apply exp_pos]. Qed.
Lemma within_derive d r : is_derive (within d) r (shell d r).
Proof. apply (is_derive_RInt (shell d) (within d) 0 r); [|apply shell_cont]. apply filter_forall. intros x. apply (RInt_correct (shell d)), shell_int. Qed.
Lemma within_0 d : within d 0 = 0.
Proof. apply (RInt_point (V := R_CompleteNormedModule)). Qed.
Lemma within_split d a b : within d b - within d a = RInt (shell d) a b.
Proof. unfold within. rewrite <- (RInt_Chasles (shell d) 0 a b); try apply shell_int. unfold plus; cbn. ring. Qed.
Lemma within_lt d a b : 0 <= a -> a < b -> within d a < within d b.
Proof.
  intros Ha H. assert (0 < RInt (shell d) a b) as P; [|rewrite <- within_split in P; lra].
  apply RInt_gt_0; [exact H| |]; intros x Hx; [apply shell_pos; lra|apply shell_cont].
Qed.
Lemma within_le d a b : 0 <= a -> a <= b -> within d a <= within d b.
Proof. intros Ha [H| ->]; [left; apply within_lt; assumption|lra]. Qed.
Lemma within_nonneg d r : 0 <= r -> 0 <= within d r.
Proof. intros H. rewrite <- (within_0 d). apply within_le; lra. Qed.
Lemma within_inj d a b : 0 <= a -> 0 <= b -> within d a = within d b -> a = b.
Proof. intros Ha Hb E. destruct (Rtotal_order a b) as [L|[L|L]]; [apply (within_lt d) in L; lra|exact L|apply (within_lt d) in L; lra]. Qed.
Lemma within_continuity d : Ranalysis1.continuity (within d).
Proof. intros x. apply continuity_pt_filterlim. apply (ex_derive_continuous (within d) x). exists (shell d x). apply within_derive. Qed.

(** Functions with the same derivative that agree at 0. *)
Lemma within_is d (H : R -> R) : H 0 = 0 -> (forall x : R, is_derive H x (shell d x)) -> forall r, within d r = H r.
Proof.
  intros H0 HD r. unfold within. apply (is_RInt_unique (V := R_CompleteNormedModule)). replace (H r) with (minus (H r) (H 0)) by (unfold minus, plus, opp; cbn; rewrite H0; ring).
  apply (is_RInt_derive (V := R_CompleteNormedModule) H (shell d)); intros x _; [apply HD|apply shell_cont].
Qed.
Lemma within_2 r : within 2 r = 1 - exp (- (r ^ 2 / 2)).
Proof.
  apply (within_is 2 (fun r => 1 - exp (- (r ^ 2 / 2)))); [replace (0 ^ 2 / 2) with 0 by field; rewrite Ropp_0, exp_0; ring|].
  intros x. unfold shell. auto_derive; [exact I|]. cbn [Nat.sub pow pred INR]. unfold Rdiv. field_simplify. reflexivity.
Qed.
Lemma within_SS d r : (0 < d)%nat -> within (S (S d)) r = INR d * within d r - r ^ d * exp (- (r ^ 2 / 2)).
Proof.
  intros Hd. apply (within_is (S (S d)) (fun r => INR d * within d r - r ^ d * exp (- (r ^ 2 / 2)))).
  - rewrite within_0, (pow_i d) by exact Hd. ring.
  - intros x. unfold Rminus. evar_last; [apply (is_derive_plus (V := R_NormedModule))|].
    + apply (is_derive_scal (within d) x (INR d) (shell d x)), within_derive.
    + apply (is_derive_opp (V := R_NormedModule) (fun r => r ^ d * exp (- (r ^ 2 / 2)))). auto_derive; [exact I|reflexivity].
    + unfold shell, plus, opp; cbn. destruct d as [|d]; [lia|]. cbn [pred]. replace (S d - 1)%nat with d by lia. rewrite <- !tech_pow_Rmult. unfold Rdiv. field.
Qed.
Lemma within_bounded d : (0 < d)%nat -> exists B, forall r, 0 <= r -> within d r <= B.
Proof.
  assert (H : ((0 < d)%nat -> exists B, forall r, 0 <= r -> within d r <= B) /\ exists B, forall r, 0 <= r -> within (S d) r <= B); [|apply H].
  induction d as [|d [IH1 IH2]].
  - split; [lia|]. exists (within 1 1 + 1). intros r Hr. destruct (Rle_dec r 1) as [L|L]; [pose proof (within_le 1 r 1 Hr L); lra|].
    assert (within 1 r - within 1 1 <= within 2 r - within 2 1) as C.
    { rewrite !within_split. apply RInt_le; [lra|apply shell_int|apply shell_int|]. intros x Hx. unfold shell. cbn [Nat.sub pow]. pose proof (exp_pos (- (x * (x * 1) / 2))). nra. }
    rewrite (within_2 r) in C. pose proof (exp_pos (- (r ^ 2 / 2))). pose proof (within_nonneg 2 1). lra.
  - split; [intros _; exact IH2|]. destruct d as [|d].
    + exists 1. intros r Hr. rewrite within_2. pose proof (exp_pos (- (r ^ 2 / 2))). lra.
    + destruct IH1 as [B HB]; [lia|]. exists (INR (S d) * B). intros r Hr. rewrite within_SS by lia. specialize (HB r Hr).
      pose proof (exp_pos (- (r ^ 2 / 2))). pose proof (pow_le r (S d) Hr). pose proof (pos_INR (S d)).
      assert (0 <= r ^ S d * exp (- (r ^ 2 / 2))) by (apply Rmult_le_pos; lra). assert (INR (S d) * within (S d) r <= INR (S d) * B) by (apply Rmult_le_compat_l; lra). lra.
Qed.
Lemma total_exists d : (0 < d)%nat -> { Z | total d Z }.
Proof.
  intros Hd. apply completeness.
  - destruct (within_bounded d Hd) as [B HB]. exists B. intros y (r & Hr & ->). apply HB, Hr.
  - exists 0, 0. split; [lra|]. symmetry. apply within_0.
Qed.
Lemma total_unique d Z Z' : total d Z -> total d Z' -> Z = Z'.
Proof. intros [A B] [A' B']. apply Rle_antisym; auto. Qed.
Lemma within_total d Z r : total d Z -> 0 <= r -> within d r < Z.
Proof.
  intros [A _] Hr. pose proof (within_lt d r (r + 1) Hr ltac:(lra)). assert (within d (r + 1) <= Z) by (apply A; exists (r + 1); split; [lra|reflexivity]). lra.
Qed.
Lemma total_pos d Z : total d Z -> 0 < Z.
Proof. intros H. pose proof (within_total d Z 0 H ltac:(lra)). rewrite within_0 in H0. exact H0. Qed.
Lemma total_reached d Z y : total d Z -> y < Z -> exists r, 0 <= r /\ y < within d r.
Proof.
  intros [_ B] H. destruct (Rle_dec Z y) as [|N]; [lra|]. apply Classical_Prop.NNPP. intros C. apply N. apply B. intros u (r & Hr & ->).
  destruct (Rle_dec (within d r) y) as [|N2]; [assumption|]. exfalso. apply C. exists r. split; [exact Hr|lra].
Qed.
Lemma mass_fun d r p q : mass d r p -> mass d r q -> p = q.
Proof. intros (Z & H & ->) (Z' & H' & ->). rewrite (total_unique d Z Z' H H'). reflexivity. Qed.
Lemma mass_exists d r : (0 < d)%nat -> { p | mass d r p }.
Proof. intros Hd. destruct (total_exists d Hd) as [Z H]. exists (within d r / Z), Z. auto. Qed.
Lemma mass_range d r p : 0 <= r -> mass d r p -> 0 <= p < 1.
Proof.
  intros Hr (Z & H & ->). pose proof (within_total d Z r H Hr). pose proof (within_nonneg d r Hr). pose proof (total_pos d Z H). split.
  - apply Rdiv_le_0_compat; assumption.
  - apply (Rmult_lt_reg_r Z); [assumption|]. unfold Rdiv. rewrite Rmult_assoc, Rinv_l by lra. lra.
Qed.
Lemma mass_lt d r s p q : 0 <= r -> r < s -> mass d r p -> mass d s q -> p < q.
Proof.
  intros Hr L (Z & H & ->) (Z' & H' & ->). rewrite (total_unique d Z' Z H' H). pose proof (total_pos d Z H). apply Rmult_lt_compat_r; [apply Rinv_0_lt_compat; assumption|]. apply within_lt; assumption.
Qed.
Lemma mass_inj d r s p : 0 <= r -> 0 <= s -> mass d r p -> mass d s p -> r = s.
Proof. intros Hr Hs A B. destruct (Rtotal_order r s) as [L|[L|L]]; [pose proof (mass_lt d r s p p Hr L A B); lra|exact L|pose proof (mass_lt d s r p p Hs L B A); lra]. Qed.
Lemma mass_0 d : (0 < d)%nat -> mass d 0 0.
Proof. intros Hd. destruct (total_exists d Hd) as [Z H]. exists Z. split; [exact H|]. rewrite within_0. unfold Rdiv. ring. Qed.
Lemma mass_radius d p : (0 < d)%nat -> 0 <= p < 1 -> exists r, 0 <= r /\ mass d r p.
Proof.
  intros Hd Hp. destruct (total_exists d Hd) as [Z H]. pose proof (total_pos d Z H) as HZ. assert (p * Z < Z) as L by nra.
  destruct (total_reached d Z (p * Z) H L) as (s & Hs & L2).
  destruct (IVT_gen (within d) 0 s (p * Z) (within_continuity d)) as (r & Hr & E).
  - rewrite within_0. pose proof (within_nonneg d s Hs). rewrite Rmin_left, Rmax_right by assumption. split; [nra|lra].
  - rewrite Rmin_left, Rmax_right in Hr by assumption. exists r. split; [lra|]. exists Z. split; [exact H|]. rewrite E. field. lra.
Qed.
(** In more dimensions there is less mass within the same radius. *)
Lemma mass_dim d r p q : (0 < d)%nat -> 0 < r -> mass d r p -> mass (S d) r q -> q < p.
Proof.
  intros Hd Hr (Z & H & ->) (Z' & H' & ->). set (G := within d r). set (G' := within (S d) r).
  assert (SH : forall t, shell (S d) t = t * shell d t) by (intros t; unfold shell; destruct d as [|d]; [lia|]; replace (S (S d) - 1)%nat with (S (S d - 1)) by lia; rewrite <- tech_pow_Rmult; ring).
  assert (SC : forall a b, RInt (fun t => r * shell d t) a b = r * RInt (shell d) a b).
  { intros a b. apply (is_RInt_unique (V := R_CompleteNormedModule)). apply (is_RInt_scal (V := R_NormedModule) (shell d) a b r). apply (RInt_correct (shell d)), shell_int. }
  assert (EX : forall a b, ex_RInt (fun t => r * shell d t) a b) by (intros a b; exists (scal r (RInt (shell d) a b)); apply (is_RInt_scal (V := R_NormedModule) (shell d) a b r); apply (RInt_correct (shell d)), shell_int).
  assert (A : G' < r * G).
  { unfold G', G, within. rewrite <- SC. assert (0 < RInt (fun t => r * shell d t - shell (S d) t) 0 r) as P.
    - apply RInt_gt_0; [exact Hr| |].
      + intros x Hx. rewrite SH. pose proof (shell_pos d x ltac:(lra)). nra.
      + intros x _. apply @ex_derive_continuous. unfold shell. auto_derive. exact I.
    - rewrite (RInt_minus (V := R_CompleteNormedModule) (fun t => r * shell d t) (shell (S d))) in P by (apply EX || apply shell_int). apply Rminus_gt_0_lt. exact P. }
  assert (B : r * (Z - G) <= Z' - G').
  { assert (Z <= (Z' - G') / r + G) as P; [|apply (Rmult_le_compat_l r) in P; [|lra]; replace (r * ((Z' - G') / r + G)) with (Z' - G' + r * G) in P by (field; lra); lra].
    apply (proj2 H). intros y (s & Hs & ->). destruct (Rle_dec s r) as [L|L].
    - pose proof (within_le d s r Hs L). assert (0 <= (Z' - G') / r) by (apply Rdiv_le_0_compat; [|exact Hr]; pose proof (within_total (S d) Z' r H' ltac:(lra)); unfold G'; lra). unfold G. lra.
    - assert (r * (within d s - G) <= within (S d) s - G') as Q.
      { unfold G, G'. rewrite !within_split, <- SC. apply RInt_le; [lra|apply EX|apply shell_int|]. intros x Hx. rewrite SH. pose proof (shell_pos d x ltac:(lra)). nra. }
      pose proof (within_total (S d) Z' s H' ltac:(lra)). apply (Rmult_le_reg_l r); [exact Hr|]. rewrite Rmult_plus_distr_l. replace (r * ((Z' - G') / r)) with (Z' - G') by (field; lra). lra. }
  pose proof (total_pos d Z H). pose proof (total_pos (S d) Z' H'). pose proof (within_total d Z r H ltac:(lra)) as C. fold G in C.
  assert (0 < G) by (unfold G; rewrite <- (within_0 d); apply within_lt; lra).
  assert (G' * Z < G * Z') by nra. apply (Rmult_lt_reg_r (Z * Z')); [nra|]. replace (G' / Z' * (Z * Z')) with (G' * Z) by (field; lra). replace (G / Z * (Z * Z')) with (G * Z') by (field; lra). assumption.
Qed.

(** C148, continued: distances between distributions and estimates from samples do not depend on the order of the parameters. *)
From Coq Require Import Lra Lia Permutation.
From Verif Require Import SDet PLinAlg PWhiten PDet MKl PKl TKl PAxesDet.
Import ListNotations.
Open Scope R_scope.
Set Default Goal Selector "!". Set Bullet Behavior "Strict Subproofs".

(** [c'] has the entries of [c] with the [n] parameters in the order [p]. *)
Definition vec_in_order (n : nat) (p : list nat) (m m' : vec) : Prop := forall i, (i < n)%nat -> nth i m' 0 = nth (nth i p O) m 0.
Definition mat_in_order (n : nat) (p : list nat) (c c' : mat) : Prop := forall i j, (i < n)%nat -> (j < n)%nat -> at2 c' i j = at2 c (nth i p O) (nth j p O).
Definition place (n : nat) (p : list nat) (i : nat) : nat := match find (fun k => Nat.eqb (nth k p O) i) (seq 0 n) with Some k => k | None => O end.

Section Order.
Variables (n : nat) (p : list nat).
Hypothesis Hp : Permutation p (seq 0 n).
Notation q i := (nth i p O).
Lemma place_spec i : (i < n)%nat -> (place n p i < n)%nat /\ q (place n p i) = i.
Proof.
  intros Hi. assert (In i p) as I by (apply (Permutation_in _ (Permutation_sym Hp)), in_seq; lia). apply (In_nth _ _ O) in I as (k & Hk & E).
  rewrite (Permutation_length Hp), seq_length in Hk. unfold place. destruct (find _ _) as [a|] eqn:F.
  - apply find_some in F as [A B]. apply in_seq in A. apply Nat.eqb_eq in B. split; [lia|exact B].
  - pose proof (find_none _ _ F k) as N. cbn in N. rewrite E, Nat.eqb_refl in N. discriminate N. apply in_seq. lia.
Qed.
Lemma quadratic_order M x : quadratic n (fun i j => M (q i) (q j)) x = quadratic n M (fun i => x (place n p i)).
Proof.
  unfold quadratic. rewrite <- (sum_reorder n (fun i => sum n (fun j => x (place n p i) * M i j * x (place n p j))) p Hp). apply sum_ext. intros i Hi.
  rewrite <- (sum_reorder n (fun j => x (place n p (q i)) * M (q i) j * x (place n p j)) p Hp). apply sum_ext. intros j Hj.
  assert (E : forall k, (k < n)%nat -> place n p (q k) = k).
  { intros k Hk. pose proof (order_lt n p k Hp Hk) as L. destruct (place_spec _ L) as [A B]. apply (order_inj n p); assumption. }
  rewrite !E by assumption. reflexivity.
Qed.
Lemma psd_order M : psd n M -> psd n (fun i j => M (q i) (q j)).
Proof. intros [S P]. split; [intros i j Hi Hj; apply S; apply (order_lt n p); assumption|]. intros x. rewrite quadratic_order. apply P. Qed.
Lemma inverse_order M B : inverse_of n M B -> inverse_of n (fun i j => M (q i) (q j)) (fun i j => B (q i) (q j)).
Proof.
  intros H i j Hi Hj. rewrite (sum_reorder n (fun k => M (q i) k * B k (q j)) p Hp). rewrite H by (apply (order_lt n p); assumption).
  unfold delta. destruct (Nat.eqb_spec (q i) (q j)) as [E|E], (Nat.eqb_spec i j) as [E2|E2]; try reflexivity; [exfalso; apply E2, (order_inj n p); assumption|subst; contradiction].
Qed.
Lemma quadratic_same M x : quadratic n (fun i j => M (q i) (q j)) (fun i => x (q i)) = quadratic n M x.
Proof.
  unfold quadratic. rewrite <- (sum_reorder n (fun i => sum n (fun j => x i * M i j * x j)) p Hp). apply sum_ext. intros i Hi. apply (sum_reorder n (fun j => x (q i) * M (q i) j * x j) p Hp).
Qed.
Lemma divergence_order C0 C1 B D : divergence n (fun i j => C0 (q i) (q j)) (fun i j => C1 (q i) (q j)) (fun i j => B (q i) (q j)) (fun i => D (q i)) = divergence n C0 C1 B D.
Proof.
  unfold divergence. rewrite !det_reorder by exact Hp. rewrite quadratic_same. do 3 f_equal.
  rewrite <- (sum_reorder n (fun i => sum n (fun j => B i j * C0 j i)) p Hp). apply sum_ext. intros i Hi. apply (sum_reorder n (fun j => B (q i) j * C0 j (q i)) p Hp).
Qed.
End Order.

(** The divergence of two normal distributions. *)
Theorem C148_divergence : forall inv n p m0 c0 m1 c1 m0' c0' m1' c1', Permutation p (seq 0 n) ->
  length m0 = n -> length m1 = n -> length m0' = n -> length m1' = n -> psd n (at2 c0) -> psd n (at2 c1) -> inverts inv n c1 -> inverts inv n c1' ->
  vec_in_order n p m0 m0' -> mat_in_order n p c0 c0' -> vec_in_order n p m1 m1' -> mat_in_order n p c1 c1' ->
  kl_norm inv m0' (Matrix (Some c0')) m1' (Matrix (Some c1')) = kl_norm inv m0 (Matrix (Some c0)) m1 (Matrix (Some c1)).
Proof.
  intros inv n p m0 c0 m1 c1 m0' c0' m1' c1' Hp L0 L1 L0' L1' P0 P1 [HI1 HI2] [HI1' HI2'] U0 V0 U1 V1.
  assert (E0 : forall i j, (i < n)%nat -> (j < n)%nat -> at2 c0 (nth i p O) (nth j p O) = at2 c0' i j) by (intros; symmetry; apply V0; assumption).
  assert (E1 : forall i j, (i < n)%nat -> (j < n)%nat -> at2 c1 (nth i p O) (nth j p O) = at2 c1' i j) by (intros; symmetry; apply V1; assumption).
  assert (D0 : det n (at2 c0') = det n (at2 c0)) by (rewrite <- (det_ext n _ _ E0); apply (det_reorder n (at2 c0)), Hp).
  assert (D1 : det n (at2 c1') = det n (at2 c1)) by (rewrite <- (det_ext n _ _ E1); apply (det_reorder n (at2 c1)), Hp).
  pose proof (psd_ext n _ _ E0 (psd_order n p Hp _ P0)) as P0'. pose proof (psd_ext n _ _ E1 (psd_order n p Hp _ P1)) as P1'.
  destruct (Req_dec (det n (at2 c1)) 0) as [Z1|N1].
  - unfold kl_norm. rewrite (HI2 Z1). rewrite HI2'; [reflexivity|]. rewrite D1. exact Z1.
  - assert (N1' : det n (at2 c1') <> 0) by (rewrite D1; exact N1). destruct (HI1 N1) as (b & Hb & HB). destruct (HI1' N1') as (b' & Hb' & HB').
    pose proof (proj2 (spd_det n _ P1) N1) as S1. pose proof (proj2 (spd_det n _ P1') N1') as S1'.
    destruct (Req_dec (det n (at2 c0)) 0) as [Z0|N0].
    + assert (Z0' : det n (at2 c0') = 0) by (rewrite D0; exact Z0). unfold kl_norm. rewrite Hb, Hb'. cbn [bind]. rewrite L0, L0'. rewrite Z0, Z0'.
      pose proof (det_positive _ _ S1). pose proof (det_positive _ _ S1'). unfold flog.
      destruct (Rlt_dec 0 (det n (at2 c1))); [|contradiction]. destruct (Rlt_dec 0 (det n (at2 c1'))); [|contradiction].
      destruct (Rlt_dec 0 0) as [C|_]; [lra|]. destruct (Req_EM_T 0 0) as [_|C]; [|contradiction]. reflexivity.
    + assert (N0' : det n (at2 c0') <> 0) by (rewrite D0; exact N0). pose proof (proj2 (spd_det n _ P0) N0) as S0. pose proof (proj2 (spd_det n _ P0') N0') as S0'.
      rewrite (kl_finite inv n m0 c0 m1 c1 b), (kl_finite inv n m0' c0' m1' c1' b') by assumption. do 2 f_equal.
      rewrite <- (divergence_order n p Hp (at2 c0) (at2 c1) (at2 b)). apply divergence_ext.
      * intros i j Hi Hj. split; [symmetry; apply E0; assumption|]. split; [symmetry; apply E1; assumption|].
        apply (inverse_unique n (at2 c1') (at2 b') (fun i j => at2 b (nth i p O) (nth j p O)) S1' HB'); [|exact Hi|exact Hj]. intros a a' Ha Ha'.
        rewrite <- (inverse_order n p Hp (at2 c1) (at2 b) HB a a' Ha Ha'). apply sum_ext. intros k Hk. rewrite E1 by assumption. reflexivity.
      * intros i Hi. rewrite U0, U1 by assumption. reflexivity.
Qed.
(** ** Samples *)
(** Numbers and rows of numbers in the new order. *)
Definition columns (p : list nat) (X : mat) : mat := map (fun x => map (fun i => nth i x 0) p) X.
Definition rows (p : list nat) (X : mat) : mat := map (fun i => nth i X []) p.
Definition both_orders (p : list nat) (c : mat) : mat := columns p (rows p c).
Definition array_in_order (p : list nat) (a : array) : array := match a with Scalar x => Scalar x | Matrix m => Matrix (option_map (both_orders p) m) end.
Definition result_in_order (p : list nat) (r : res (vec * array)) : res (vec * array) :=
  match r with Ok (m, c) => Ok (map (fun i => nth i m 0) p, array_in_order p c) | Err e => Err e end.

Section Samples.
Variables (d : nat) (p : list nat).
Hypothesis Hp : Permutation p (seq 0 d).
Lemma p_lt i : In i p -> (i < d)%nat.
Proof. intros H. apply (Permutation_in _ Hp), in_seq in H. lia. Qed.
Lemma p_length : length p = d.
Proof. rewrite (Permutation_length Hp). apply seq_length. Qed.
Lemma nth_columns i k X : (i < d)%nat -> at2 (columns p X) k i = at2 X k (nth i p O).
Proof.
  intros Hi. unfold at2, columns. destruct (Nat.lt_ge_cases k (length X)) as [C|C].
  - rewrite (nth_indep _ [] (map (fun i => nth i [] 0) p)) by (rewrite map_length; exact C). rewrite (map_nth (fun x => map (fun i => nth i x 0) p)).
    rewrite (nth_map_R _ _ O) by (rewrite p_length; exact Hi). reflexivity.
  - rewrite !(nth_overflow _ (n := k)) by (rewrite ?map_length; exact C). destruct i; destruct (nth _ p O); reflexivity.
Qed.
Lemma transpose_columns X : transpose d (columns p X) = rows p (transpose d X).
Proof.
  unfold transpose, rows. pose proof p_length as L. apply nth_ext with (d := []) (d' := []); rewrite !map_length, seq_length; [symmetry; exact L|]. intros i Hi.
  rewrite (nth_indep _ [] (map (fun r => nth O r 0) (columns p X))) by (rewrite map_length, seq_length; exact Hi).
  rewrite (map_nth (fun j => map (fun r => nth j r 0) (columns p X))), seq_nth by exact Hi.
  rewrite (nth_indep (map _ p) [] (nth O (map (fun j => map (fun r => nth j r 0) X) (seq 0 d)) [])) by (rewrite map_length, L; exact Hi).
  rewrite (map_nth (fun i => nth i (map (fun j => map (fun r => nth j r 0) X) (seq 0 d)) [])).
  pose proof (order_lt d p i Hp Hi) as Hq.
  rewrite (nth_indep _ [] (map (fun r => nth O r 0) X)) by (rewrite map_length, seq_length; exact Hq).
  rewrite (map_nth (fun j => map (fun r => nth j r 0) X)), seq_nth by exact Hq. unfold columns. rewrite map_map. apply map_ext. intros x. cbn [Nat.add].
  rewrite (nth_map_R _ _ O) by (rewrite L; exact Hi). reflexivity.
Qed.
Lemma map_rows {B} (f : vec -> B) b T : length T = d -> map f (rows p T) = map (fun i => nth i (map f T) b) p.
Proof.
  intros L. unfold rows. rewrite map_map. apply map_ext_in. intros i Hi. apply p_lt in Hi. rewrite (nth_indep _ b (f [])) by (rewrite map_length; lia). rewrite map_nth. reflexivity.
Qed.
Lemma average_order X w : np_average d (columns p X) w = match np_average d X w with Ok m => Ok (map (fun i => nth i m 0) p) | Err e => Err e end.
Proof.
  unfold np_average. unfold columns at 1. rewrite map_length. destruct (negb _); [reflexivity|]. destruct (Req_EM_T _ _); [reflexivity|].
  rewrite transpose_columns, (map_rows _ 0) by apply transpose_len. reflexivity.
Qed.
Lemma cov_with_order norm T w : length T = d -> cov_with norm (rows p T) w = both_orders p (cov_with norm T w).
Proof.
  intros L. unfold cov_with at 1. unfold both_orders, columns. rewrite (map_rows _ [] T L). unfold rows. rewrite map_map. apply map_ext_in. intros i Hi. apply p_lt in Hi.
  rewrite (nth_indep _ [] (map (fun s => dot (vmul (centred w []) w) (centred w s) / norm) (map (fun i => nth i T []) p))) by (rewrite map_length; lia).
  rewrite (map_nth (fun r => map (fun s => dot (vmul (centred w r) w) (centred w s) / norm) (map (fun i => nth i T []) p))).
  fold (rows p T). rewrite (map_rows _ 0 T L). apply map_ext. intros j. f_equal. unfold cov_with.
  rewrite (nth_indep (map (fun r => map (fun s => dot (vmul (centred w r) w) (centred w s) / norm) T) T) [] (map (fun s => dot (vmul (centred w []) w) (centred w s) / norm) T)) by (rewrite map_length; lia).
  rewrite (map_nth (fun r => map (fun s => dot (vmul (centred w r) w) (centred w s) / norm) T)). reflexivity.
Qed.
Lemma cov_order ddof X w : np_cov_of ddof d (columns p X) w = match np_cov_of ddof d X w with Ok a => Ok (array_in_order p a) | Err e => Err e end.
Proof.
  unfold np_cov_of. destruct (negative w); [reflexivity|]. cbv zeta. f_equal. rewrite transpose_columns. rewrite cov_with_order by apply transpose_len.
  destruct (Nat.eqb_spec d 1) as [->|N]; cbn [array_in_order]; f_equal; destruct (Rlt_dec 0 (normalisation ddof w)); try reflexivity.
  cbn [option_map]. f_equal. assert (p = [0%nat]) as -> by (apply Permutation_length_1_inv, Permutation_sym, Hp). reflexivity.
Qed.
Lemma columns_length X : length (columns p X) = length X.
Proof. apply map_length. Qed.
Lemma removed_order w X : remove_0_weight w (columns p X) = match remove_0_weight w X with Ok (w', X') => Ok (w', columns p X') | Err e => Err e end.
Proof.
  unfold remove_0_weight. rewrite columns_length. destruct (negb _); [reflexivity|]. cbv zeta. unfold columns. set (f := fun x : vec => map (fun i => nth i x 0) p).
  assert (E : filter (fun p : R * vec => if Req_EM_T (fst p) 0 then false else true) (combine w (map f X)) = map (fun q => (fst q, f (snd q))) (filter (fun p : R * vec => if Req_EM_T (fst p) 0 then false else true) (combine w X))).
  { revert X. induction w as [|a w IH]; intros [|x X]; try reflexivity. cbn [map combine filter fst]. rewrite IH. destruct (Req_EM_T a 0); reflexivity. }
  rewrite E, !map_map. reflexivity.
Qed.
End Samples.
(** Mean and covariance of a sample, and of the training set weighted with its densities. *)
Theorem C148_samples : forall d p X w, Permutation p (seq 0 d) -> mean_covmat_from_samples d (columns p X) w = result_in_order p (mean_covmat_from_samples d X w).
Proof.
  intros d p X w Hp. unfold mean_covmat_from_samples. rewrite columns_length. rewrite (average_order d p Hp). destruct (np_average d X _) as [m|e]; [|reflexivity]. cbn [bind].
  rewrite (cov_order d p Hp). destruct (np_cov_of 1 d X _) as [c|e]; reflexivity.
Qed.
Theorem C148_evals : forall ex d p X logp, Permutation p (seq 0 d) -> mean_covmat_from_evals ex d (columns p X) logp = result_in_order p (mean_covmat_from_evals ex d X logp).
Proof.
  intros ex d p X [|a l] Hp; [reflexivity|]. unfold mean_covmat_from_evals. cbv zeta. rewrite (removed_order p). destruct (remove_0_weight _ X) as [[w' X']|e]; [|reflexivity]. cbn [bind fst snd].
  rewrite (average_order d p Hp). destruct (np_average d X' w') as [m|e]; [|reflexivity]. cbn [bind].
  rewrite (cov_order d p Hp). destruct (np_cov_of 0 d X' w') as [c|e]; reflexivity.
Qed.

(** ** Alignment of the means, and the verdict on the final sample *)
(** [inv] is the inverse of all matrices of this dimension. *)
Definition inverts_all (inv : mat -> res mat) (d : nat) : Prop := forall c, square d c -> inverts inv d c.
Section Verdict.
Variables (inv : mat -> res mat) (cdf : R -> nat -> R) (ex : R -> R) (d : nat) (p : list nat).
Hypothesis Hp : Permutation p (seq 0 d).
Hypothesis HI : inverts_all inv d.
Notation g m := (map (fun i => nth i m 0) p).
Lemma in_order_vec m : vec_in_order d p m (g m).
Proof. intros i Hi. rewrite (nth_map_R _ _ O) by (rewrite (p_length d p Hp); exact Hi). reflexivity. Qed.
Lemma in_order_mat c : mat_in_order d p c (both_orders p c).
Proof.
  intros i j Hi Hj. unfold both_orders. rewrite (nth_columns d p Hp) by exact Hj. unfold at2, rows.
  rewrite (nth_indep _ [] (nth O c [])) by (rewrite map_length, (p_length d p Hp); exact Hi). rewrite (map_nth (fun i => nth i c [])). reflexivity.
Qed.
Lemma both_square c : square d (both_orders p c).
Proof.
  unfold both_orders, columns, rows. split; [rewrite !map_length; apply (p_length d p Hp)|]. apply List.Forall_forall. intros r Hr. apply in_map_iff in Hr as (x & <- & _).
  rewrite map_length. apply (p_length d p Hp).
Qed.
Lemma g_length m : length (g m) = d.
Proof. rewrite map_length. apply (p_length d p Hp). Qed.
(** What the covariances of samples are. *)
Definition covariance (a : array) : Prop := match a with Matrix (Some c) => square d c /\ psd d (at2 c) | _ => True end.
Lemma cov_covariance ddof X w a : length X = length w -> np_cov_of ddof d X w = Ok a -> covariance a.
Proof.
  intros HL. unfold np_cov_of. destruct (negative w) eqn:N; [discriminate|]. cbv zeta. intros H. injection H as <-. destruct (Nat.eqb d 1); [exact I|].
  destruct (Rlt_dec 0 (normalisation ddof w)) as [P|]; [|exact I]. split; [rewrite <- (transpose_len d X) at 1; apply cov_square|].
  assert (W : forall k, (k < length w)%nat -> 0 <= nth k w 0).
  { intros k Hk. destruct (Rlt_dec (nth k w 0) 0) as [C|C]; [|lra]. exfalso. assert (negative w = true) as T; [|rewrite T in N; discriminate N].
    apply existsb_exists. exists (nth k w 0). split; [apply nth_In, Hk|]. destruct (Rlt_dec (nth k w 0) 0); [reflexivity|contradiction]. }
  pose proof (wcov_psd (length w) d (fun k => nth k w 0) (at2 X) (normalisation ddof w) P W) as Q.
  refine (psd_ext d _ _ _ Q). intros i j Hi Hj. rewrite cov_nth by assumption. reflexivity.
Qed.
Lemma form_order m1 m2 c b b' : length m1 = d -> length m2 = d -> psd d (at2 c) -> det d (at2 c) <> 0 -> inverse_of d (at2 c) (at2 b) -> inverse_of d (at2 (both_orders p c)) (at2 b') ->
  form b' (vsub (g m1) (g m2)) = form b (vsub m1 m2).
Proof.
  intros L1 L2 P D HB HB'. rewrite !(form_quadratic d) by auto using g_length.
  assert (E : forall i j, (i < d)%nat -> (j < d)%nat -> at2 c (nth i p O) (nth j p O) = at2 (both_orders p c) i j) by (intros i j Hi Hj; symmetry; apply in_order_mat; assumption).
  pose proof (psd_ext d _ _ E (psd_order d p Hp _ P)) as P'.
  assert (D' : det d (at2 (both_orders p c)) <> 0) by (rewrite <- (det_ext d _ _ E), (det_reorder d (at2 c)) by exact Hp; exact D).
  rewrite <- (quadratic_same d p Hp (at2 b)). apply quadratic_ext.
  - intros i j Hi Hj. apply (inverse_unique d (at2 (both_orders p c)) (at2 b') (fun i j => at2 b (nth i p O) (nth j p O)) (proj2 (spd_det d _ P') D') HB'); [|exact Hi|exact Hj].
    intros a a' Ha Ha'. rewrite <- (inverse_order d p Hp (at2 c) (at2 b) HB a a' Ha Ha'). apply sum_ext. intros k Hk. rewrite E by assumption. reflexivity.
  - intros i Hi. rewrite !in_order_vec by exact Hi. reflexivity.
Qed.
Lemma det_both c : det d (at2 (both_orders p c)) = det d (at2 c).
Proof. rewrite <- (det_reorder d (at2 c) p Hp). apply det_ext. intros i j Hi Hj. apply in_order_mat; assumption. Qed.
Theorem C148_alignment : forall m1 m2 a, length m1 = d -> length m2 = d -> covariance a ->
  criterion_value_from_means_cov inv cdf (g m1) (g m2) (array_in_order p a) = criterion_value_from_means_cov inv cdf m1 m2 a.
Proof.
  intros m1 m2 [x|[c|]] L1 L2 HC; try reflexivity. destruct HC as [SQ P]. cbn [array_in_order option_map criterion_value_from_means_cov].
  destruct (HI c SQ) as [I1 I2]. destruct (HI _ (both_square c)) as [J1 J2]. rewrite det_both in J1, J2. destruct (Req_dec (det d (at2 c)) 0) as [Z|N].
  - rewrite I2, J2 by exact Z. reflexivity.
  - destruct (I1 N) as (b & -> & HB). destruct (J1 N) as (b' & -> & HB'). cbn [bind]. cbv zeta. rewrite (form_order m1 m2 c b b') by assumption. rewrite g_length, L1. reflexivity.
Qed.

Lemma divergence_arrays m0 c0 m1 c1 : length m0 = d -> length m1 = d -> covariance c0 -> covariance c1 ->
  kl_norm inv (g m0) (array_in_order p c0) (g m1) (array_in_order p c1) = kl_norm inv m0 c0 m1 c1.
Proof.
  intros L0 L1 H0 H1. destruct c1 as [x1|[c1|]]; [reflexivity| |destruct c0 as [x0|[c0|]]; reflexivity].
  destruct H1 as [S1 P1]. destruct c0 as [x0|[c0|]]; cbn [array_in_order option_map].
  2: { destruct H0 as [S0 P0]. apply (C148_divergence inv d p); auto using g_length, in_order_vec, in_order_mat, both_square. }
  all: unfold kl_norm; destruct (HI c1 S1) as [I1 I2]; destruct (HI _ (both_square c1)) as [J1 J2]; rewrite det_both in J1, J2;
    (destruct (Req_dec (det d (at2 c1)) 0) as [Z|N]; [rewrite I2, J2 by exact Z; reflexivity|]; destruct (I1 N) as (b & -> & _); destruct (J1 N) as (b' & -> & _); reflexivity).
Qed.
Lemma average_length X w m : np_average d X w = Ok m -> length m = d /\ length X = length w.
Proof.
  unfold np_average. destruct (Nat.eqb_spec (length X) (length w)); [|discriminate]. cbn [negb]. destruct (Req_EM_T _ _); [discriminate|]. intros H. injection H as <-. rewrite map_length. split; [apply transpose_len|assumption].
Qed.
Lemma cov_matrix ddof X w a : d <> 1%nat -> np_cov_of ddof d X w = Ok a -> atleast_2d a = a /\ atleast_2d (array_in_order p a) = array_in_order p a.
Proof.
  intros N. unfold np_cov_of. destruct (negative w); [discriminate|]. cbv zeta. destruct (Nat.eqb_spec d 1); [contradiction|]. intros H. injection H as <-. split; reflexivity.
Qed.
Lemma columns_one X : d = 1%nat -> List.Forall (fun x => length x = d) X -> columns p X = X.
Proof.
  intros E H. assert (p = [0%nat]) as -> by (apply Permutation_length_1_inv, Permutation_sym; rewrite E in Hp; exact Hp). unfold columns. rewrite <- map_id. apply map_ext_in. intros x Hx.
  pose proof (proj1 (List.Forall_forall _ _) H x Hx) as L. cbv beta in L. rewrite E in L. destruct x as [|a [|b x]]; try discriminate L. reflexivity.
Qed.
(** The verdict of [diagnose_last_mc_sample]. *)
Definition sample_columns (s : res (mat * list R)) : res (mat * list R) := match s with Ok (X, w) => Ok (columns p X, w) | Err e => Err e end.
Theorem C148_diagnose : forall X w X_train y_train acq,
  List.Forall (fun x => length x = d) X -> List.Forall (fun x => length x = d) X_train ->
  (forall X w, acq = Some (Ok (X, w)) -> List.Forall (fun x => length x = d) X) ->
  diagnose inv ex cdf d (columns p X) w (columns p X_train) y_train (option_map sample_columns acq) = diagnose inv ex cdf d X w X_train y_train acq.
Proof.
  intros X w Xt y acq HX HT HA. destruct (Nat.eq_dec d 1) as [E1|N1].
  { rewrite !columns_one by assumption. destruct acq as [[[A v]|e]|]; try reflexivity. cbn [option_map sample_columns]. rewrite columns_one by (try assumption; exact (HA A v eq_refl)). reflexivity. }
  unfold diagnose. rewrite C148_samples, C148_evals by exact Hp.
  destruct (mean_covmat_from_samples d X w) as [[m c]|e] eqn:EM; [|reflexivity]. destruct (mean_covmat_from_evals ex d Xt y) as [[mt ct]|e] eqn:ET; [|reflexivity]. cbn [bind result_in_order fst snd].
  assert (Lm : length m = d /\ covariance c).
  { unfold mean_covmat_from_samples in EM. destruct (np_average d X _) as [m'|] eqn:EA; [|discriminate]. cbn [bind] in EM. destruct (np_cov_of 1 d X _) as [c'|] eqn:EC; [|discriminate]. injection EM as <- <-.
    apply average_length in EA as [L1 L2]. split; [exact L1|]. exact (cov_covariance 1 _ _ _ L2 EC). }
  destruct Lm as [Lm Hc].
  assert (Lt : length mt = d).
  { unfold mean_covmat_from_evals in ET. destruct y as [|a l]; [discriminate|]. destruct (remove_0_weight _ Xt) as [[w' X']|]; [|discriminate]. cbn [bind fst snd] in ET.
    destruct (np_average d X' w') as [m'|] eqn:EA; [|discriminate]. cbn [bind] in ET. destruct (np_cov_of 0 d X' w'); [|discriminate]. injection ET as <- _. apply (average_length _ _ _ EA). }
  rewrite C148_alignment by assumption. destruct (criterion_value_from_means_cov inv cdf m mt c) as [v|e]; [|reflexivity]. cbn [bind].
  destruct acq as [[[A v']|e]|]; try reflexivity. cbn [option_map sample_columns bind fst snd].
  rewrite (average_order d p Hp), (cov_order d p Hp). destruct (np_average d A v') as [ma|e] eqn:EA; [|destruct e; reflexivity]. cbn [bind].
  destruct (np_cov_of 0 d A v') as [ca|e] eqn:EC; [|destruct e; reflexivity]. cbn [bind]. apply average_length in EA as [La Lw]. destruct (cov_matrix _ _ _ _ N1 EC) as [-> ->].
  rewrite divergence_arrays by eauto using cov_covariance. reflexivity.
Qed.
End Verdict.

(** Two parameters exchanged, with different variances. *)
Definition inv2 (m : mat) : res mat :=
  let D := at2 m 0 0 * at2 m 1 1 - at2 m 0 1 * at2 m 1 0 in
  if Req_EM_T D 0 then Err ValueError else Ok [[at2 m 1 1 / D; - at2 m 0 1 / D]; [- at2 m 1 0 / D; at2 m 0 0 / D]].
Lemma inv2_inverts : inverts_all inv2 2.
Proof.
  intros c _. assert (E : det 2 (at2 c) = at2 c 0 0 * at2 c 1 1 - at2 c 0 1 * at2 c 1 0) by (cbn; unfold skip; cbn; ring). unfold inverts, inv2. rewrite E. split.
  - intros N. destruct (Req_EM_T _ 0) as [C|_]; [contradiction|]. eexists. split; [reflexivity|]. intros i j Hi Hj.
    assert (i = 0%nat \/ i = 1%nat) as [-> | ->] by lia; assert (j = 0%nat \/ j = 1%nat) as [-> | ->] by lia; unfold delta; revert N; unfold at2; cbn -[nth]; intros N; cbn [nth at2]; field; exact N.
  - intros Z. destruct (Req_EM_T _ 0) as [_|C]; [reflexivity|contradiction].
Qed.
Example C148_samples_case : columns [1; 0]%nat [[1; 2]; [3; 6]] = [[2; 1]; [6; 3]] /\ both_orders [1; 0]%nat [[1; 2]; [2; 5]] = [[5; 2]; [2; 1]]
  /\ inverts_all inv2 2 /\ Permutation [1; 0]%nat (seq 0 2)
  /\ mean_covmat_from_samples 2 [[1; 2]; [3; 6]] None = Ok ([2; 4], Matrix (Some [[2; 4]; [4; 8]])).
Proof.
  split; [reflexivity|]. split; [reflexivity|]. split; [exact inv2_inverts|]. split; [apply perm_swap|].
  unfold mean_covmat_from_samples, np_average, np_cov_of, negative, normalisation. cbn -[Req_EM_T Rlt_dec].
  destruct (Req_EM_T (1 + (1 + 0)) 0) as [C|_]; [lra|]. cbn [bind]. destruct (Rlt_dec 1 0) as [C|_]; [lra|]. cbn -[Rlt_dec].
  destruct (Rlt_dec 0 _) as [_|C]; [|exfalso; apply C; field_simplify; lra]. unfold average. cbn. do 2 f_equal; [f_equal; [field|f_equal; field]|]. do 2 f_equal. f_equal; [f_equal; [field|f_equal; field]|]. f_equal. f_equal; [field|f_equal; field].
Qed.
Print Assumptions C148_divergence.
Print Assumptions C148_samples.
Print Assumptions C148_evals.
Print Assumptions C148_alignment.
Print Assumptions C148_diagnose.

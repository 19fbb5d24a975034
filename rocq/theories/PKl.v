(** Lemmas for the Gaussian comparisons: semi-definite matrices, the divergence of two normal distributions, weighted covariances. *)
From Coq Require Import Lra Lia Psatz.
From Verif Require Import SDet PWhiten PDet MKl.
Open Scope R_scope.
Set Default Goal Selector "!".
Set Bullet Behavior "Strict Subproofs".

(** *** Sums *)
Lemma sum_nonneg n f : (forall k, (k < n)%nat -> 0 <= f k) -> 0 <= sum n f.
Proof. induction n as [|n IH]; intros H; cbn; [lra|]. pose proof (H n ltac:(lia)). assert (0 <= sum n f) by (apply IH; intros; apply H; lia). lra. Qed.
Lemma sum_nonneg_zero n f : (forall k, (k < n)%nat -> 0 <= f k) -> sum n f = 0 -> forall k, (k < n)%nat -> f k = 0.
Proof.
  induction n as [|n IH]; intros H E k Hk; [lia|]. cbn in E. pose proof (H n ltac:(lia)). assert (0 <= sum n f) by (apply sum_nonneg; intros; apply H; lia).
  destruct (Nat.eq_dec k n) as [->|N]; [lra|]. apply IH; [intros; apply H; lia|lra|lia].
Qed.
Lemma sum_ge n f k : (forall k, (k < n)%nat -> 0 <= f k) -> (k < n)%nat -> f k <= sum n f.
Proof.
  induction n as [|n IH]; intros H Hk; [lia|]. cbn. pose proof (H n ltac:(lia)). destruct (Nat.eq_dec k n) as [->|N].
  - assert (0 <= sum n f) by (apply sum_nonneg; intros; apply H; lia). lra.
  - assert (f k <= sum n f) by (apply IH; [intros; apply H; lia|lia]). lra.
Qed.
Lemma sum_one_c n : sum n (fun _ => 1) = INR n.
Proof. induction n as [|n IH]; [reflexivity|]. rewrite S_INR, <- IH. reflexivity. Qed.
Lemma sum_minus n f g : sum n (fun k => f k - g k) = sum n f - sum n g.
Proof. induction n as [|n IH]; cbn; [lra|]. rewrite IH. lra. Qed.

(** *** Semi-definite matrices *)
Lemma quadratic_schur m M x : M O O <> 0 -> (forall i j, (i < S m)%nat -> (j < S m)%nat -> M i j = M j i) ->
  quadratic (S m) M x = M O O * (x O + sum m (fun b => M O (S b) * x (S b)) / M O O) ^ 2 + quadratic m (schur M) (fun a => x (S a)).
Proof.
  intros P Sy. rewrite quadratic_S by exact Sy. set (t := sum m (fun b => M O (S b) * x (S b))).
  assert (E : quadratic m (schur M) (fun a => x (S a)) = quadratic m (fun a b => M (S a) (S b)) (fun a => x (S a)) - t * t / M O O).
  { unfold quadratic, schur. rewrite (sum_ext m _ (fun i => sum m (fun j => x (S i) * M (S i) (S j) * x (S j)) + (- t / M O O) * (M O (S i) * x (S i)))).
    - rewrite PWhiten.sum_plus, sum_scal. fold t. unfold Rdiv. ring.
    - intros a Ha. rewrite (sum_ext m _ (fun j => x (S a) * M (S a) (S j) * x (S j) + (- (M O (S a) * x (S a)) / M O O) * (M O (S j) * x (S j)))).
      + rewrite PWhiten.sum_plus, sum_scal. fold t. unfold Rdiv. ring.
      + intros b Hb. rewrite (Sy (S a) O) by lia. unfold Rdiv. ring. }
  rewrite E. field. exact P.
Qed.
Lemma spd_psd n M : spd n M -> psd n M.
Proof.
  intros [Sy H]. split; [exact Sy|]. intros x.
  assert (D : (exists i, (i < n)%nat /\ x i <> 0) \/ forall i, (i < n)%nat -> x i = 0).
  { clear. induction n as [|n IH]; [right; intros; lia|]. destruct IH as [(i & Hi & E)|Z]; [left; exists i; split; [lia|exact E]|].
    destruct (Req_dec (x n) 0) as [E|E]; [right|left; exists n; split; [lia|exact E]]. intros i Hi. destruct (Nat.eq_dec i n) as [->|N]; [exact E|apply Z; lia]. }
  destruct D as [D|Z]; [left; apply H, D|]. right. symmetry. unfold quadratic. apply sum_0. intros i Hi. apply sum_0. intros j Hj. rewrite (Z i Hi). ring.
Qed.
Lemma psd_first m M : psd (S m) M -> 0 <= M O O.
Proof.
  intros [_ H]. specialize (H (fun i => delta O i)). unfold quadratic in H. rewrite (sum_one (S m) O) in H; [|lia|].
  - rewrite (sum_one (S m) O) in H; [|lia|]; [unfold delta in H; cbn in H; lra|]. intros k _ Hk. unfold delta. destruct (Nat.eqb_spec O k); [lia|]. ring.
  - intros k _ Hk. apply sum_0. intros j _. unfold delta. destruct (Nat.eqb_spec O k); [lia|]. ring.
Qed.
Lemma psd_zero_column m M i : psd (S m) M -> M O O = 0 -> (i < S m)%nat -> M i O = 0.
Proof.
  intros [Sy H] Z Hi. destruct i as [|a]; [exact Z|]. destruct (Req_dec (M (S a) O) 0) as [E|E]; [exact E|exfalso].
  set (t := - (M (S a) (S a) + 1) / (2 * M (S a) O)).
  specialize (H (fun k => match k with O => t | S b => delta a b end)). rewrite quadratic_S in H by exact Sy. rewrite Z in H.
  rewrite (sum_one m a) in H; [|lia|].
  - unfold quadratic in H. rewrite (sum_one m a) in H; [|lia|].
    + rewrite (sum_one m a) in H; [|lia|].
      * unfold delta in H. rewrite Nat.eqb_refl in H. rewrite (Sy O (S a)) in H by lia.
        replace (t * 0 * t + 2 * t * (M (S a) O * 1) + 1 * M (S a) (S a) * 1) with (-1) in H; [lra|]. unfold t. field. exact E.
      * intros k _ Hk. unfold delta. rewrite Nat.eqb_refl. destruct (Nat.eqb_spec a k); [congruence|]. ring.
    + intros k _ Hk. apply sum_0. intros j _. unfold delta at 1. destruct (Nat.eqb_spec a k); [congruence|]. ring.
  - intros k _ Hk. unfold delta. destruct (Nat.eqb_spec a k); [congruence|]. ring.
Qed.
Lemma psd_cases n : forall M, psd n M -> spd n M \/ det n M = 0.
Proof.
  induction n as [|m IH]; intros M H.
  - left. split; [intros; lia|]. intros x (i & Hi & _). lia.
  - destruct (Req_dec (M O O) 0) as [Z|N].
    + right. cbn [det]. apply sum_0. intros k Hk. rewrite (psd_zero_column m M k H Z Hk). ring.
    + pose proof (psd_first m M H) as P. assert (P' : 0 < M O O) by lra. destruct H as [Sy H].
      assert (Sc : psd m (schur M)).
      { split.
        - intros i j Hi Hj. unfold schur. rewrite (Sy (S i) (S j)), (Sy (S i) O), (Sy O (S j)) by lia. field. lra.
        - intros x. specialize (H (fun k => match k with O => - sum m (fun b => M O (S b) * x b) / M O O | S a => x a end)).
          rewrite quadratic_schur in H by assumption. set (t := sum m (fun b => M O (S b) * x b)) in *.
          replace (- t / M O O + t / M O O) with 0 in H by (field; exact N).
          change (quadratic m (schur M) (fun a => x a)) with (quadratic m (schur M) x) in H. lra. }
      destruct (IH _ Sc) as [D|D]; [left|right; rewrite det_schur, D by exact N; ring]. split; [exact Sy|].
      intros x (i & Hi & Hx). rewrite quadratic_schur by assumption. set (t := sum m (fun b => M O (S b) * x (S b))).
      assert (Q1 : 0 <= M O O * (x O + t / M O O) ^ 2) by (apply Rmult_le_pos; [lra|apply pow2_ge_0]).
      pose proof (proj2 (spd_psd _ _ D) (fun a => x (S a))) as Q2.
      destruct (Req_dec (quadratic m (schur M) (fun a => x (S a))) 0) as [E|E]; [|lra].
      assert (Z : forall a, (a < m)%nat -> x (S a) = 0).
      { intros a Ha. destruct (Req_dec (x (S a)) 0) as [|Na]; [assumption|]. exfalso. pose proof (proj2 D (fun a => x (S a)) (ex_intro _ a (conj Ha Na))). lra. }
      assert (T : t = 0) by (apply sum_0; intros b Hb; rewrite Z by exact Hb; ring). rewrite T, E.
      assert (x O <> 0). { destruct i as [|a]; [exact Hx|]. rewrite Z in Hx by lia. lra. }
      replace (x O + 0 / M O O) with (x O) by (field; exact N). assert (0 < x O * x O) by nra. cbn [pow]. nra.
Qed.
Lemma spd_det n M : psd n M -> (spd n M <-> det n M <> 0).
Proof. intros H. split; [intros D; pose proof (det_positive n M D); lra|]. intros D. destruct (psd_cases n M H); [assumption|contradiction]. Qed.
Lemma spd_ext n M N : (forall i j, (i < n)%nat -> (j < n)%nat -> M i j = N i j) -> spd n M -> spd n N.
Proof.
  intros E [Sy H]. split; [intros i j Hi Hj; rewrite <- !E by assumption; auto|]. intros x Hx. specialize (H x Hx).
  rewrite (quadratic_ext n M N x x) in H; auto.
Qed.

(** *** The divergence *)
Lemma ln_bound x : 0 < x -> 0 <= x - 1 - ln x /\ (x - 1 - ln x = 0 -> x = 1).
Proof.
  intros H. destruct (Req_dec (ln x) 0) as [E|N].
  - assert (x = 1). { pose proof (exp_ln x H) as X. rewrite E, exp_0 in X. auto. } subst x. rewrite ln_1. split; lra.
  - pose proof (exp_ineq1 _ N) as I. rewrite exp_ln in I by exact H. split; [lra|]. intros E. lra.
Qed.
Definition divergence (n : nat) (C0 C1 B : nat -> nat -> R) (D : nat -> R) : R :=
  1 / 2 * (ln (det n C1) - ln (det n C0) - INR n + sum n (fun i => sum n (fun j => B i j * C0 j i)) + quadratic n B D).
Lemma quadratic_as n B c : quadratic n B c = sum n (fun i => sum n (fun j => c i * B i j * c j)).
Proof. reflexivity. Qed.
Lemma divergence_nonneg n C0 C1 B D : spd n C0 -> spd n C1 -> inverse_of n C1 B ->
  0 <= divergence n C0 C1 B D /\ (divergence n C0 C1 B D = 0 -> (forall i, (i < n)%nat -> D i = 0) /\ forall i j, (i < n)%nat -> (j < n)%nat -> C0 i j = C1 i j).
Proof.
  intros H0 H1 HB. destruct (factor_exists n C0 H0) as (K & K1 & K2 & K3 & K4). destruct (factor_exists n C1 H1) as (L & L1 & L2 & L3 & L4).
  assert (FL : factor n C1 L) by (repeat split; assumption).
  destruct (solve_lower n L L1 L2 D) as (g & Hg).
  pose proof (inverse_quadratic n C1 L B D g FL HB Hg) as Qg. rewrite <- quadratic_as in Qg.
  assert (HF : forall k, exists f, forall i, (i < n)%nat -> sum n (fun j => L i j * f j) = K i k) by (intros k; apply (solve_lower n L L1 L2 (fun i => K i k))).
  assert (HF' : exists f : nat -> nat -> R, forall k, (k < n)%nat -> forall i, (i < n)%nat -> sum n (fun j => L i j * f k j) = K i k).
  { clear - HF. assert (G : forall m, exists f : nat -> nat -> R, forall k, (k < m)%nat -> forall i, (i < n)%nat -> sum n (fun j => L i j * f k j) = K i k).
    { induction m as [|m (f & Hf)]; [exists (fun _ _ => 0); intros; lia|]. destruct (HF m) as (h & Hh).
      exists (fun k => if Nat.eqb k m then h else f k). intros k Hk i Hi. destruct (Nat.eqb_spec k m) as [->|N]; [apply Hh, Hi|apply Hf; [lia|exact Hi]]. }
    apply G. }
  destruct HF' as (f & Hf).
  assert (Tr : sum n (fun i => sum n (fun j => B i j * C0 j i)) = sum n (fun k => sum n (fun i => f k i * f k i))).
  { rewrite (sum_ext n (fun k => sum n (fun i => f k i * f k i)) (fun k => sum n (fun i => sum n (fun j => K i k * B i j * K j k)))).
    - rewrite (sum_ext n (fun i => sum n (fun j => B i j * C0 j i)) (fun i => sum n (fun k => sum n (fun j => K i k * B i j * K j k)))).
      + apply sum_swap.
      + intros i Hi. rewrite sum_swap. apply sum_ext. intros j Hj. rewrite (K3 j i Hj Hi), <- sum_scal. apply sum_ext. intros. ring.
    - intros k Hk. symmetry. apply (inverse_quadratic n C1 L B (fun i => K i k) (f k) FL HB). intros i Hi. apply Hf; assumption. }
  set (r := fun k => f k k).
  assert (Z : forall k i, (k < n)%nat -> (i < k)%nat -> f k i = 0).
  { intros k i Hk Hi. apply (solve_zeros n L (f k) (fun i => K i k) k L1 L2); [intros; apply Hf; assumption| |exact Hi|lia]. intros j Hj Hj'. apply K2; assumption. }
  assert (Rk : forall k, (k < n)%nat -> r k = K k k / L k k).
  { intros k Hk. pose proof (Hf k Hk k Hk) as E. rewrite (lower_row n L (f k) k L2 Hk (fun i Hi => Z k i Hk Hi)) in E. pose proof (L1 k Hk).
    unfold r. rewrite <- E. field. lra. }
  assert (Rpos : forall k, (k < n)%nat -> 0 < r k) by (intros k Hk; rewrite Rk by exact Hk; apply Rdiv_lt_0_compat; auto).
  assert (Ln : ln (det n C1) - ln (det n C0) = - sum n (fun k => 2 * ln (r k))).
  { rewrite K4, L4. pose proof (prod_pos n (fun i => K i i) K1). pose proof (prod_pos n (fun i => L i i) L1). rewrite !ln_mult by assumption.
    rewrite (ln_prod n (fun i => K i i)), (ln_prod n (fun i => L i i)) by assumption. rewrite (sum_ext n (fun k => 2 * ln (r k)) (fun k => 2 * (ln (K k k) - ln (L k k)))).
    - rewrite sum_scal, sum_minus. ring.
    - intros k Hk. rewrite (Rk k Hk). unfold Rdiv. pose proof (L1 k Hk). rewrite ln_mult; [rewrite ln_Rinv by assumption; ring|apply K1, Hk|apply Rinv_0_lt_compat; assumption]. }
  set (term := fun k => sum n (fun i => f k i * f k i) - 1 - 2 * ln (r k)).
  assert (Di : 2 * divergence n C0 C1 B D = sum n term + sum n (fun k => g k * g k)).
  { unfold divergence. rewrite Qg, Tr. unfold term. rewrite (sum_minus n (fun k => _ - 1)), (sum_minus n _ (fun _ => 1)), sum_one_c. lra. }
  assert (Sq : forall k, (k < n)%nat -> r k * r k <= sum n (fun i => f k i * f k i)).
  { intros k Hk. apply (sum_ge n (fun i => f k i * f k i) k); [intros i _; apply Rle_0_sqr|exact Hk]. }
  assert (Ln2 : forall k, (k < n)%nat -> 0 <= r k * r k - 1 - 2 * ln (r k) /\ (r k * r k - 1 - 2 * ln (r k) = 0 -> r k = 1)).
  { intros k Hk. pose proof (Rpos k Hk) as P. assert (P2 : 0 < r k * r k) by nra. destruct (ln_bound _ P2) as [A1 A2].
    rewrite ln_mult in A1, A2 by exact P. split; [lra|]. intros E. assert (r k * r k = 1) by (apply A2; lra). nra. }
  assert (Tn : forall k, (k < n)%nat -> 0 <= term k). { intros k Hk. unfold term. pose proof (Sq k Hk). destruct (Ln2 k Hk). lra. }
  assert (Gn : 0 <= sum n (fun k => g k * g k)) by (apply sum_nonneg; intros; apply Rle_0_sqr).
  pose proof (sum_nonneg n term Tn) as Ts. split; [lra|]. intros E.
  assert (Tz : forall k, (k < n)%nat -> term k = 0) by (apply sum_nonneg_zero; [exact Tn|lra]).
  assert (Gz : forall k, (k < n)%nat -> g k = 0).
  { intros k Hk. apply Rsqr_0_uniq. apply (sum_nonneg_zero n (fun k => g k * g k)); [intros; apply Rle_0_sqr|lra|exact Hk]. }
  split.
  - intros i Hi. rewrite <- (Hg i Hi). apply sum_0. intros k Hk. rewrite Gz by exact Hk. ring.
  - assert (R1 : forall k, (k < n)%nat -> r k = 1). { intros k Hk. apply (Ln2 k Hk). pose proof (Sq k Hk). pose proof (Tz k Hk). destruct (Ln2 k Hk). unfold term in *. lra. }
    assert (Fd : forall k, (k < n)%nat -> forall i, (i < n)%nat -> f k i = delta k i).
    { intros k Hk i Hi. unfold delta. destruct (Nat.eqb_spec k i) as [<-|N]; [apply R1, Hk|].
      assert (S1 : sum n (fun i => f k i * f k i) = 1). { pose proof (Tz k Hk) as T. unfold term in T. rewrite R1, ln_1 in T by exact Hk. lra. }
      assert (S2 : sum n (fun i => f k i * f k i - delta k i * 1) = 0). { rewrite sum_minus, S1. rewrite (sum_delta n k (fun _ => 1) Hk). ring. }
      assert (S3 : f k i * f k i - delta k i * 1 = 0).
      { apply (sum_nonneg_zero n (fun i => f k i * f k i - delta k i * 1)); [|exact S2|exact Hi]. intros j Hj. unfold delta.
        destruct (Nat.eqb_spec k j) as [<-|Nj]; [fold (r k); rewrite R1 by exact Hk; lra|]. pose proof (Rle_0_sqr (f k j)). unfold Rsqr in *. lra. }
      unfold delta in S3. destruct (Nat.eqb_spec k i); [contradiction|]. apply Rsqr_0_uniq. unfold Rsqr. lra. }
    assert (KL : forall i k, (i < n)%nat -> (k < n)%nat -> K i k = L i k).
    { intros i k Hi Hk. rewrite <- (Hf k Hk i Hi). rewrite (sum_ext n _ (fun j => delta k j * L i j)); [apply sum_delta, Hk|].
      intros j Hj. rewrite Fd by assumption. ring. }
    intros i j Hi Hj. rewrite K3, L3 by assumption. apply sum_ext. intros k Hk. rewrite !KL by assumption. reflexivity.
Qed.
Lemma inverse_trace n C B : spd n C -> inverse_of n C B -> sum n (fun i => sum n (fun j => B i j * C j i)) = INR n.
Proof.
  intros _ HB. rewrite sum_swap. rewrite (sum_ext n _ (fun _ => 1)); [apply sum_one_c|]. intros j Hj.
  rewrite (sum_ext n _ (fun i => C j i * B i j)) by (intros; ring). rewrite (HB j j Hj Hj). unfold delta. rewrite Nat.eqb_refl. reflexivity.
Qed.
Lemma divergence_same n C B D : spd n C -> inverse_of n C B -> (forall i, (i < n)%nat -> D i = 0) -> divergence n C C B D = 0.
Proof.
  intros H HB Z. unfold divergence. rewrite inverse_trace by assumption. unfold quadratic. rewrite (sum_0 n); [ring|]. intros i Hi. apply sum_0. intros j Hj. rewrite Z by exact Hi. ring.
Qed.
(** The inverse is unique. *)
Lemma inverse_unique n C B B' : spd n C -> inverse_of n C B -> inverse_of n C B' -> forall i j, (i < n)%nat -> (j < n)%nat -> B i j = B' i j.
Proof.
  intros [Sy H] HB HB' i j Hi Hj. destruct (Req_dec (B i j - B' i j) 0) as [E|N]; [lra|exfalso].
  pose proof (H (fun k => B k j - B' k j) (ex_intro _ i (conj Hi N))) as Q. unfold quadratic in Q. rewrite sum_0 in Q; [lra|].
  intros a Ha. rewrite (sum_ext n _ (fun b => (B a j - B' a j) * (C a b * B b j - C a b * B' b j))) by (intros; ring). rewrite sum_scal, sum_minus, HB, HB' by assumption. ring.
Qed.

(** *** Changes of units *)
Lemma det_cols n : forall M s, det n (fun i j => M i j * s j) = prod n s * det n M.
Proof.
  induction n as [|m IH]; intros M s; [cbn; ring|]. cbn [det]. rewrite <- sum_scal. apply sum_ext. intros i Hi.
  rewrite (IH (fun a b => M (skip i a) (S b)) (fun b => s (S b))). rewrite prod_S. ring.
Qed.
Lemma det_rows n M s : det n (fun i j => s i * M i j) = prod n s * det n M.
Proof.
  assert (G : forall k, (k <= n)%nat -> det n (fun i j => if Nat.ltb i k then s i * M i j else M i j) = prod k s * det n M).
  { induction k as [|k IH]; intros Hk; [cbn [prod]; rewrite Rmult_1_l; apply det_ext; intros; reflexivity|]. cbn [prod].
    rewrite (det_lin n k (s k) 0 (fun i j => if Nat.ltb i k then s i * M i j else M i j) (fun i j => if Nat.ltb i k then s i * M i j else M i j)).
    - rewrite IH by lia. ring.
    - lia.
    - intros i j _ _ N. destruct (Nat.ltb_spec i k), (Nat.ltb_spec i (S k)); try lia; auto.
    - intros j _. destruct (Nat.ltb_spec k k), (Nat.ltb_spec k (S k)); try lia. ring. }
  rewrite <- (G n (le_n _)). apply det_ext. intros i j Hi Hj. destruct (Nat.ltb_spec i n); [reflexivity|lia].
Qed.
Lemma prod_nonzero n s : (forall i, (i < n)%nat -> s i <> 0) -> prod n s <> 0.
Proof. induction n as [|n IH]; intros H; cbn; [lra|]. apply Rmult_integral_contrapositive_currified; [apply IH; intros; apply H; lia|apply H; lia]. Qed.
Section Units.
Variables (n : nat) (s : nat -> R).
Hypothesis Hs : forall i, (i < n)%nat -> s i <> 0.
Definition rescale (C : nat -> nat -> R) : nat -> nat -> R := fun i j => s i * s j * C i j.
Lemma rescale_det C : det n (rescale C) = (prod n s) ^ 2 * det n C.
Proof.
  unfold rescale. rewrite (det_ext n _ (fun i j => s i * ((fun i j => C i j * s j) i j))) by (intros; ring). rewrite det_rows, det_cols. ring.
Qed.
Lemma rescale_quadratic C x : quadratic n (rescale C) x = quadratic n C (fun i => s i * x i).
Proof. unfold quadratic, rescale. apply sum_ext. intros i _. apply sum_ext. intros j _. ring. Qed.
Lemma rescale_psd C : psd n C -> psd n (rescale C).
Proof.
  intros [Sy H]. split; [intros i j Hi Hj; unfold rescale; rewrite (Sy i j) by assumption; ring|]. intros x. rewrite rescale_quadratic. apply H.
Qed.
Lemma rescale_inverse C B : inverse_of n C B -> inverse_of n (rescale C) (fun i j => B i j / (s i * s j)).
Proof.
  intros H i j Hi Hj. unfold rescale. rewrite (sum_ext n _ (fun k => (s i / s j) * (C i k * B k j))).
  - rewrite sum_scal, (H i j Hi Hj). unfold delta. destruct (Nat.eqb_spec i j) as [<-|_]; [field; auto|ring].
  - intros k Hk. pose proof (Hs i Hi). pose proof (Hs j Hj). pose proof (Hs k Hk). field. auto.
Qed.
Lemma rescale_divergence C0 C1 B D : spd n C0 -> spd n C1 -> inverse_of n C1 B ->
  divergence n (rescale C0) (rescale C1) (fun i j => B i j / (s i * s j)) (fun i => s i * D i) = divergence n C0 C1 B D.
Proof.
  intros H0 H1 HB. unfold divergence. rewrite !rescale_det. pose proof (det_positive n C0 H0). pose proof (det_positive n C1 H1).
  assert (0 < prod n s ^ 2). { pose proof (prod_nonzero n s Hs). cbn [pow]. nra. }
  rewrite !ln_mult by assumption.
  rewrite (sum_ext n (fun i => sum n (fun j => B i j / (s i * s j) * rescale C0 j i)) (fun i => sum n (fun j => B i j * C0 j i))).
  - replace (quadratic n (fun i j => B i j / (s i * s j)) (fun i => s i * D i)) with (quadratic n B D); [ring|].
    unfold quadratic. apply sum_ext. intros i Hi. apply sum_ext. intros j Hj. pose proof (Hs i Hi). pose proof (Hs j Hj). field. auto.
  - intros i Hi. apply sum_ext. intros j Hj. unfold rescale. pose proof (Hs i Hi). pose proof (Hs j Hj). field. auto.
Qed.
End Units.
Lemma divergence_ext n C0 C1 B D C0' C1' B' D' : (forall i j, (i < n)%nat -> (j < n)%nat -> C0 i j = C0' i j /\ C1 i j = C1' i j /\ B i j = B' i j) ->
  (forall i, (i < n)%nat -> D i = D' i) -> divergence n C0 C1 B D = divergence n C0' C1' B' D'.
Proof.
  intros H HD. unfold divergence. rewrite (det_ext n C0 C0'), (det_ext n C1 C1') by (intros; apply H; assumption).
  rewrite (quadratic_ext n B B' D D') by (intros; try apply H; auto). do 2 f_equal. f_equal. apply sum_ext. intros i Hi. apply sum_ext. intros j Hj.
  destruct (H i j Hi Hj) as (_ & _ & ->). destruct (H j i Hj Hi) as (-> & _). reflexivity.
Qed.

(** *** Weighted samples *)
Lemma sum_of_sum w : sum_of w = sum (length w) (fun k => nth k w 0).
Proof. induction w as [|a w IH]; [reflexivity|]. cbn [length]. rewrite sum_S. cbn [nth]. rewrite <- IH. reflexivity. Qed.
Lemma average_wmean w r : length r = length w -> average w r = wmean (length w) (fun k => nth k w 0) (fun k => nth k r 0).
Proof. intros H. unfold average, wmean. rewrite sum_of_sum, (dot_sum (length w)) by auto. reflexivity. Qed.
Lemma transpose_row d X j : (j < d)%nat -> length (nth j (transpose d X) []) = length X.
Proof.
  intros H. unfold transpose. rewrite (nth_indep _ [] (map (fun r => nth O r 0) X)) by (rewrite map_length, seq_length; exact H).
  rewrite (map_nth (fun j => map (fun r => nth j r 0) X)). apply map_length.
Qed.
Lemma transpose_len d X : length (transpose d X) = d.
Proof. unfold transpose. rewrite map_length, seq_length. reflexivity. Qed.
Lemma mean_nth d X w j : length X = length w -> (j < d)%nat ->
  nth j (map (average w) (transpose d X)) 0 = wmean (length w) (fun k => nth k w 0) (fun k => at2 X k j).
Proof.
  intros H Hj. rewrite (nth_map_R _ _ []) by (rewrite transpose_len; exact Hj). rewrite average_wmean by (rewrite transpose_row; auto).
  unfold wmean. f_equal. apply sum_ext. intros k Hk. f_equal. apply (transpose_at d X j k); [exact Hj|lia].
Qed.
Lemma centred_nth w r k : (k < length r)%nat -> nth k (centred w r) 0 = nth k r 0 - average w r.
Proof. intros H. unfold centred. rewrite (nth_map_R _ _ 0) by exact H. reflexivity. Qed.
Lemma cov_nth norm d X w i j : length X = length w -> (i < d)%nat -> (j < d)%nat ->
  at2 (cov_with norm (transpose d X) w) i j = wcov (length w) (fun k => nth k w 0) (fun k => at2 X k i) (fun k => at2 X k j) norm.
Proof.
  intros H Hi Hj. unfold at2 at 1, cov_with. set (T := transpose d X).
  rewrite (nth_indep _ [] (map (fun s => dot (vmul (centred w []) w) (centred w s) / norm) T)) by (rewrite map_length; unfold T; rewrite transpose_len; exact Hi).
  rewrite (map_nth (fun r => map (fun s => dot (vmul (centred w r) w) (centred w s) / norm) T)).
  rewrite (nth_map_R _ _ []) by (unfold T; rewrite transpose_len; exact Hj). unfold wcov. f_equal.
  assert (Li : length (nth i T []) = length w) by (unfold T; rewrite transpose_row; auto).
  assert (Lj : length (nth j T []) = length w) by (unfold T; rewrite transpose_row; auto).
  assert (C : forall r, length (centred w r) = length r) by (intros; apply map_length).
  rewrite (dot_sum (length w)); [|rewrite vmul_length; rewrite C; auto|rewrite C; auto]. apply sum_ext. intros k Hk.
  rewrite vmul_nth by (rewrite C; auto). rewrite !centred_nth by lia. rewrite !average_wmean by assumption.
  assert (E : forall i k, (i < d)%nat -> (k < length w)%nat -> nth k (nth i T []) 0 = at2 X k i) by (intros a b Ha Hb; apply (transpose_at d X a b); [exact Ha|lia]).
  rewrite !E by assumption. assert (W : forall i, (i < d)%nat -> wmean (length w) (fun k => nth k w 0) (fun k => nth k (nth i T []) 0) = wmean (length w) (fun k => nth k w 0) (fun k => at2 X k i)).
  { intros a Ha. unfold wmean. f_equal. apply sum_ext. intros b Hb. rewrite E by assumption. reflexivity. }
  rewrite !W by assumption. ring.
Qed.
Lemma cov_square norm X w : square (length X) (cov_with norm X w).
Proof.
  unfold cov_with. split; [apply map_length|]. apply Forall_forall. intros r Hr. apply in_map_iff in Hr. destruct Hr as (x & <- & _). apply map_length.
Qed.
Lemma wcov_psd n d w X norm : 0 < norm -> (forall k, (k < n)%nat -> 0 <= w k) -> psd d (fun i j => wcov n w (fun k => X k i) (fun k => X k j) norm).
Proof.
  intros Hn Hw. split.
  - intros i j _ _. unfold wcov. f_equal. apply sum_ext. intros. ring.
  - intros x. assert (E : quadratic d (fun i j => wcov n w (fun k => X k i) (fun k => X k j) norm) x =
      sum n (fun k => w k * (sum d (fun i => x i * (X k i - wmean n w (fun k => X k i)))) ^ 2) / norm).
    { set (c := fun k i => X k i - wmean n w (fun k => X k i)).
      transitivity (sum d (fun i => sum d (fun j => sum n (fun k => w k * (x i * c k i) * (x j * c k j)))) / norm).
      - unfold quadratic, wcov, Rdiv. rewrite <- sum_scal_r. apply sum_ext. intros i _. rewrite <- sum_scal_r. apply sum_ext. intros j _.
        rewrite (sum_ext n (fun k => w k * (x i * c k i) * (x j * c k j)) (fun k => x i * x j * (w k * c k i * c k j))) by (intros; ring).
        rewrite sum_scal. unfold c. ring.
      - f_equal. rewrite (sum_ext d _ (fun i => sum n (fun k => sum d (fun j => w k * (x i * c k i) * (x j * c k j))))) by (intros; apply sum_swap).
        rewrite sum_swap. apply sum_ext. intros k _. fold (c k). cbn [pow]. rewrite Rmult_1_r.
        rewrite (sum_ext d _ (fun i => w k * (x i * c k i) * sum d (fun j => x j * c k j))) by (intros i _; rewrite sum_scal; reflexivity).
        rewrite sum_scal_r, sum_scal. unfold c. ring. }
    rewrite E. apply Rmult_le_pos; [|left; apply Rinv_0_lt_compat, Hn]. apply sum_nonneg. intros k Hk. apply Rmult_le_pos; [apply Hw, Hk|apply pow2_ge_0].
Qed.
Lemma psd_ext n M N : (forall i j, (i < n)%nat -> (j < n)%nat -> M i j = N i j) -> psd n M -> psd n N.
Proof. intros E [Sy H]. split; [intros i j Hi Hj; rewrite <- !E by assumption; auto|]. intros x. rewrite <- (quadratic_ext n M N x x); auto. Qed.
Lemma wmean_between n w x lo hi : (forall k, (k < n)%nat -> 0 <= w k) -> 0 < sum n w -> (forall k, (k < n)%nat -> 0 < w k -> lo <= x k <= hi) -> lo <= wmean n w x <= hi.
Proof.
  intros Hw Hs H. unfold wmean. assert (A : lo * sum n w <= sum n (fun k => w k * x k) <= hi * sum n w).
  { clear Hs. induction n as [|n IH]; [cbn; lra|]. cbn [sum]. destruct IH as [I1 I2]; [intros; apply Hw; lia|intros; apply H; [lia|assumption]|].
    pose proof (Hw n ltac:(lia)) as P. assert (lo * w n <= w n * x n <= hi * w n); [|lra]. destruct (Req_dec (w n) 0) as [->|N]; [lra|].
    pose proof (H n ltac:(lia) ltac:(lra)). nra. }
  split; [apply Rmult_le_reg_r with (sum n w); [exact Hs|]|apply Rmult_le_reg_r with (sum n w); [exact Hs|]]; unfold Rdiv; rewrite Rmult_assoc, Rinv_l by lra; lra.
Qed.

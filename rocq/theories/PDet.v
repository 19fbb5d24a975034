(** Determinants: linearity, row operations, elimination; the Cholesky factor of a positive definite matrix. *)
From Coq Require Import Lra Lia Psatz.
From Verif Require Import SDet PWhiten.
Open Scope R_scope.
Set Default Goal Selector "!".
Set Bullet Behavior "Strict Subproofs".

Lemma sum_0 n f : (forall k, (k < n)%nat -> f k = 0) -> sum n f = 0.
Proof. intros H. rewrite (sum_ext n f (fun _ => 0)) by exact H. apply sum_zero. Qed.
Lemma sum_one n i f : (i < n)%nat -> (forall k, (k < n)%nat -> k <> i -> f k = 0) -> sum n f = f i.
Proof.
  intros Hi H. rewrite (sum_ext n f (fun k => delta i k * f i)); [rewrite (sum_delta n i (fun _ => f i)) by exact Hi; reflexivity|].
  intros k Hk. unfold delta. destruct (Nat.eqb_spec i k) as [->|N]; [ring|]. rewrite (H k Hk) by auto. ring.
Qed.
Lemma sum_two n i j f : (i < n)%nat -> (j < n)%nat -> i <> j -> (forall k, (k < n)%nat -> k <> i -> k <> j -> f k = 0) -> sum n f = f i + f j.
Proof.
  intros Hi Hj N H. rewrite (sum_ext n f (fun k => (if Nat.eqb k i then f i else 0) + (if Nat.eqb k j then f j else 0))).
  - rewrite PWhiten.sum_plus. f_equal.
    + rewrite (sum_one n i); [rewrite Nat.eqb_refl; reflexivity|exact Hi|]. intros k _ Hk. apply Nat.eqb_neq in Hk. rewrite Hk. reflexivity.
    + rewrite (sum_one n j); [rewrite Nat.eqb_refl; reflexivity|exact Hj|]. intros k _ Hk. apply Nat.eqb_neq in Hk. rewrite Hk. reflexivity.
  - intros k Hk. destruct (Nat.eqb_spec k i) as [E1|N1]; destruct (Nat.eqb_spec k j) as [E2|N2].
    + congruence.
    + subst k. ring.
    + subst k. ring.
    + rewrite (H k Hk N1 N2). ring.
Qed.
Lemma skip_lt i a m : (i < S m)%nat -> (a < m)%nat -> (skip i a < S m)%nat.
Proof. unfold skip. destruct (Nat.ltb_spec a i); lia. Qed.
Lemma det_ext n : forall M N, (forall i j, (i < n)%nat -> (j < n)%nat -> M i j = N i j) -> det n M = det n N.
Proof.
  induction n as [|m IH]; intros M N H; [reflexivity|]. cbn [det]. apply sum_ext. intros i Hi. rewrite (H i O) by lia. f_equal.
  apply IH. intros a b Ha Hb. apply H; [apply skip_lt; assumption|lia].
Qed.
(** Linear in every row. *)
Lemma det_lin n : forall r a b M N P, (r < n)%nat ->
  (forall i j, (i < n)%nat -> (j < n)%nat -> i <> r -> M i j = P i j /\ N i j = P i j) ->
  (forall j, (j < n)%nat -> P r j = a * M r j + b * N r j) -> det n P = a * det n M + b * det n N.
Proof.
  induction n as [|m IH]; intros r a b M N P Hr H1 H2; [lia|]. cbn [det]. rewrite <- !sum_scal, <- PWhiten.sum_plus. apply sum_ext. intros i Hi.
  destruct (Nat.eq_dec i r) as [->|Nr].
  - rewrite (H2 O) by lia.
    assert (E : forall Q, (forall i j, (i < S m)%nat -> (j < S m)%nat -> i <> r -> Q i j = P i j) ->
      det m (fun x y => Q (skip r x) (S y)) = det m (fun x y => P (skip r x) (S y))).
    { intros Q HQ. apply det_ext. intros x y Hx Hy. apply HQ; [apply skip_lt; assumption|lia|]. unfold skip. destruct (Nat.ltb_spec x r); lia. }
    rewrite (E M) by (intros; apply H1; assumption). rewrite (E N) by (intros; apply H1; assumption). ring.
  - destruct (H1 i O Hi ltac:(lia) Nr) as [E1 E2]. rewrite E1, E2. set (r' := if Nat.ltb r i then r else pred r).
    assert (Sr : skip i r' = r). { unfold skip, r'. destruct (Nat.ltb_spec r i); [destruct (Nat.ltb_spec r i)|destruct (Nat.ltb_spec (pred r) i)]; lia. }
    rewrite (IH r' a b (fun x y => M (skip i x) (S y)) (fun x y => N (skip i x) (S y)) (fun x y => P (skip i x) (S y))); [ring| | |].
    + unfold r'. destruct (Nat.ltb_spec r i); lia.
    + intros x y Hx Hy Nx. apply H1; [apply skip_lt; assumption|lia|]. intros E. apply Nx. unfold skip, r' in *.
      destruct (Nat.ltb_spec x i), (Nat.ltb_spec r i); lia.
    + intros y Hy. rewrite Sr. apply H2. lia.
Qed.
(** Two equal neighbouring rows. *)
Lemma det_adjacent n : forall r M, (S r < n)%nat -> (forall j, (j < n)%nat -> M r j = M (S r) j) -> det n M = 0.
Proof.
  induction n as [|m IH]; intros r M Hr H; [lia|]. cbn [det].
  rewrite (sum_two (S m) r (S r)); try lia.
  - rewrite (H O) by lia. rewrite (det_ext m (fun a b => M (skip r a) (S b)) (fun a b => M (skip (S r) a) (S b))); [cbn [pow]; ring|].
    intros a b Ha Hb. unfold skip. destruct (Nat.ltb_spec a r), (Nat.ltb_spec a (S r)); try lia; try reflexivity.
    assert (a = r) as -> by lia. symmetry. apply H. lia.
  - intros k Hk N1 N2. set (r' := if Nat.ltb r k then r else pred r).
    rewrite (IH r' (fun a b => M (skip k a) (S b))); [ring| |].
    + unfold r'. destruct (Nat.ltb_spec r k); lia.
    + intros j Hj. assert (skip k r' = r /\ skip k (S r') = S r) as [-> ->]; [|apply H; lia].
      unfold skip, r'. destruct (Nat.ltb_spec r k); split; repeat match goal with |- context [Nat.ltb ?a ?b] => destruct (Nat.ltb_spec a b) end; lia.
Qed.
(** Replace a row. *)
Definition set_row (M : nat -> nat -> R) (r : nat) (v : nat -> R) : nat -> nat -> R := fun i j => if Nat.eqb i r then v j else M i j.
Lemma set_row_same M r v j : set_row M r v r j = v j.
Proof. unfold set_row. rewrite Nat.eqb_refl. reflexivity. Qed.
Lemma set_row_other M r v i j : i <> r -> set_row M r v i j = M i j.
Proof. intros H. unfold set_row. apply Nat.eqb_neq in H. rewrite H. reflexivity. Qed.
Lemma det_set_row n M r a u b v : (r < n)%nat -> det n (set_row M r (fun j => a * u j + b * v j)) = a * det n (set_row M r u) + b * det n (set_row M r v).
Proof.
  intros H. apply (det_lin n r); [exact H| |].
  - intros i j _ _ N. rewrite !set_row_other by exact N. auto.
  - intros j _. rewrite !set_row_same. reflexivity.
Qed.
(** Exchange of neighbouring rows. *)
Lemma det_exchange n M r u v : (S r < n)%nat -> det n (set_row (set_row M r u) (S r) v) = - det n (set_row (set_row M r v) (S r) u).
Proof.
  intros H. set (D := fun x y => det n (set_row (set_row M r x) (S r) y)).
  assert (A : forall x, D x x = 0).
  { intros x. apply (det_adjacent n r); [exact H|]. intros j _. rewrite set_row_same, set_row_other, set_row_same by lia. reflexivity. }
  assert (L1 : forall x x' y, D (fun j => 1 * x j + 1 * x' j) y = 1 * D x y + 1 * D x' y).
  { intros x x' y. unfold D. apply (det_lin n r); [lia| |].
    - intros i j _ _ N. destruct (Nat.eq_dec i (S r)) as [->|N2]; [rewrite !set_row_same; auto|]. rewrite !set_row_other by auto. auto.
    - intros j _. rewrite !(set_row_other _ (S r)) by lia. rewrite !set_row_same. reflexivity. }
  assert (L2 : forall x y y', D x (fun j => 1 * y j + 1 * y' j) = 1 * D x y + 1 * D x y') by (intros; apply det_set_row; exact H).
  pose proof (A (fun j => 1 * u j + 1 * v j)) as Z. rewrite L1, !L2, !A in Z. unfold D in Z. lra.
Qed.
Lemma det_set_same n M r : det n (set_row M r (M r)) = det n M.
Proof. apply det_ext. intros i j _ _. unfold set_row. destruct (Nat.eqb_spec i r) as [->|_]; reflexivity. Qed.
(** Two equal rows. *)
Lemma det_equal n M r k : (r + S k < n)%nat -> (forall j, (j < n)%nat -> M r j = M (r + S k)%nat j) -> det n M = 0.
Proof.
  revert M. induction k as [|k IH]; intros M Hr H.
  - apply (det_adjacent n r); [lia|]. intros j Hj. rewrite H by exact Hj. f_equal. lia.
  - set (s := (r + S k)%nat). assert (E : det n M = det n (set_row (set_row M s (M s)) (S s) (M (S s)))).
    { apply det_ext. intros i j _ _. unfold set_row. destruct (Nat.eqb_spec i (S s)) as [->|_]; [reflexivity|]. destruct (Nat.eqb_spec i s) as [->|_]; reflexivity. }
    rewrite E, det_exchange by (unfold s; lia). rewrite IH; [ring|lia|]. intros j Hj. fold s. rewrite (set_row_other _ (S s)) by (unfold s; lia).
    rewrite (set_row_other _ s) by (unfold s; lia). rewrite (set_row_other _ (S s)) by lia. rewrite set_row_same. rewrite H by exact Hj. f_equal. unfold s. lia.
Qed.
(** Adding a multiple of the first row to another. *)
Lemma det_add n M r c : (0 < r)%nat -> (r < n)%nat -> det n (set_row M r (fun j => 1 * M r j + c * M O j)) = det n M.
Proof.
  intros H0 H. rewrite det_set_row by exact H. rewrite det_set_same. rewrite (det_equal n (set_row M r (M O)) O (pred r)); [ring|lia|].
  intros j Hj. replace (0 + S (pred r))%nat with r by lia. rewrite set_row_same, set_row_other by lia. reflexivity.
Qed.
Definition schur (M : nat -> nat -> R) : nat -> nat -> R := fun a b => M (S a) (S b) - M (S a) O * M O (S b) / M O O.
Lemma det_schur m M : M O O <> 0 -> det (S m) M = M O O * det m (schur M).
Proof.
  intros Hp. set (N := fun k => fun i j => if (Nat.ltb 0 i && Nat.ltb i k)%bool then M i j - M i O / M O O * M O j else M i j).
  assert (Step : forall k, (k <= S m)%nat -> det (S m) (N k) = det (S m) M).
  { induction k as [|k IH]; intros Hk.
    - apply det_ext. intros i j _ _. unfold N. destruct (Nat.ltb_spec 0 i), (Nat.ltb_spec i 0); try lia; reflexivity.
    - rewrite <- IH by lia. destruct (Nat.eq_dec k 0) as [->|Nk].
      + apply det_ext. intros i j _ _. unfold N. destruct (Nat.ltb_spec 0 i), (Nat.ltb_spec i 1), (Nat.ltb_spec i 0); try lia; reflexivity.
      + rewrite <- (det_add (S m) (N k) k (- (M k O / M O O))) by lia. apply det_ext. intros i j _ _. unfold set_row.
        destruct (Nat.eqb_spec i k) as [->|Ni].
        * unfold N. destruct (Nat.ltb_spec 0 k), (Nat.ltb_spec k (S k)), (Nat.ltb_spec k k), (Nat.ltb_spec 0 0); try lia. cbn. ring.
        * unfold N. destruct (Nat.ltb_spec 0 i), (Nat.ltb_spec i (S k)), (Nat.ltb_spec i k); try lia; reflexivity. }
  rewrite <- (Step (S m)) by lia. cbn [det]. rewrite (sum_one (S m) O); [|lia|].
  - cbn [pow]. rewrite (det_ext m (fun a b => N (S m) (skip 0 a) (S b)) (schur M)); [unfold N; cbn; ring|].
    intros a b Ha Hb. unfold N, skip, schur. destruct (Nat.ltb_spec a 0), (Nat.ltb_spec 0 (S a)), (Nat.ltb_spec (S a) (S m)); try lia. cbn. field. exact Hp.
  - intros k Hk Nk. replace (N (S m) k O) with 0; [ring|]. unfold N. destruct (Nat.ltb_spec 0 k), (Nat.ltb_spec k (S m)); try lia. cbn. field. exact Hp.
Qed.

(** *** The Cholesky factor *)
Fixpoint prod (n : nat) (f : nat -> R) : R := match n with O => 1 | S m => prod m f * f m end.
Lemma prod_S n f : prod (S n) f = f O * prod n (fun k => f (S k)).
Proof. induction n as [|n IH]; [cbn; ring|]. cbn [prod] in *. rewrite IH. ring. Qed.
Lemma prod_pos n f : (forall i, (i < n)%nat -> 0 < f i) -> 0 < prod n f.
Proof. induction n as [|n IH]; intros H; cbn; [lra|]. apply Rmult_lt_0_compat; [apply IH; intros; apply H; lia|apply H; lia]. Qed.
Lemma ln_prod n f : (forall i, (i < n)%nat -> 0 < f i) -> ln (prod n f) = sum n (fun i => ln (f i)).
Proof.
  induction n as [|n IH]; intros H; cbn; [apply ln_1|]. rewrite ln_mult; [rewrite IH; [reflexivity|]| |apply H; lia]; [intros; apply H; lia|apply prod_pos; intros; apply H; lia].
Qed.
Definition factor (n : nat) (M L : nat -> nat -> R) : Prop :=
  (forall i, (i < n)%nat -> 0 < L i i) /\ (forall i j, (i < j)%nat -> (j < n)%nat -> L i j = 0) /\
  (forall i j, (i < n)%nat -> (j < n)%nat -> M i j = sum n (fun k => L i k * L j k)) /\ det n M = prod n (fun i => L i i) * prod n (fun i => L i i).
Lemma quadratic_ext n M N x y : (forall i j, (i < n)%nat -> (j < n)%nat -> M i j = N i j) -> (forall i, (i < n)%nat -> x i = y i) -> quadratic n M x = quadratic n N y.
Proof. intros H1 H2. unfold quadratic. apply sum_ext. intros i Hi. apply sum_ext. intros j Hj. rewrite H1, !H2 by assumption. reflexivity. Qed.
(** One more coordinate. *)
Lemma quadratic_S m M x : (forall i j, (i < S m)%nat -> (j < S m)%nat -> M i j = M j i) ->
  quadratic (S m) M x = x O * M O O * x O + 2 * x O * sum m (fun b => M O (S b) * x (S b)) + quadratic m (fun a b => M (S a) (S b)) (fun a => x (S a)).
Proof.
  intros Sy. unfold quadratic. rewrite sum_S. rewrite sum_S.
  rewrite (sum_ext m (fun k => sum (S m) (fun j => x (S k) * M (S k) j * x j)) (fun k => x (S k) * M (S k) O * x O + sum m (fun j => x (S k) * M (S k) (S j) * x (S j)))).
  2: { intros k _. rewrite sum_S. reflexivity. }
  rewrite PWhiten.sum_plus. rewrite (sum_ext m (fun k => x (S k) * M (S k) O * x O) (fun k => x O * (M O (S k) * x (S k)))).
  2: { intros k Hk. rewrite (Sy (S k) O) by lia. ring. }
  rewrite (sum_ext m (fun k => x O * M O (S k) * x (S k)) (fun k => x O * (M O (S k) * x (S k)))) by (intros; ring).
  rewrite !sum_scal. ring.
Qed.
Lemma spd_first m M : spd (S m) M -> 0 < M O O.
Proof.
  intros [_ H]. specialize (H (fun i => delta O i)). unfold quadratic in H. rewrite (sum_one (S m) O) in H; [|lia|].
  - rewrite (sum_one (S m) O) in H; [|lia|].
    + unfold delta in H. cbn in H. assert (0 < 1 * M O O * 1); [apply H|lra]. exists O. split; [lia|lra].
    + intros k _ Hk. unfold delta. destruct (Nat.eqb_spec O k); [lia|]. ring.
  - intros k _ Hk. apply sum_0. intros j _. unfold delta. destruct (Nat.eqb_spec O k); [lia|]. ring.
Qed.
Lemma spd_schur m M : spd (S m) M -> spd m (schur M).
Proof.
  intros H. pose proof (spd_first m M H) as P. destruct H as [Sy H]. split.
  - intros i j Hi Hj. unfold schur. rewrite (Sy (S i) (S j)), (Sy (S i) O), (Sy O (S j)) by lia. field. lra.
  - intros x (i & Hi & Hx). set (y := fun k => match k with O => - sum m (fun b => M O (S b) * x b) / M O O | S a => x a end).
    assert (Hy : 0 < quadratic (S m) M y) by (apply H; exists (S i); split; [lia|exact Hx]).
    rewrite quadratic_S in Hy by exact Sy. cbn [y] in Hy. set (t := sum m (fun b => M O (S b) * x b)) in *.
    assert (E : quadratic m (schur M) x = quadratic m (fun a b => M (S a) (S b)) x - t * t / M O O).
    { unfold quadratic, schur. rewrite (sum_ext m _ (fun i => sum m (fun j => x i * M (S i) (S j) * x j) + (- t / M O O) * (M O (S i) * x i))).
      - rewrite PWhiten.sum_plus, sum_scal. fold t. unfold Rdiv. ring.
      - intros a Ha. rewrite (sum_ext m _ (fun j => x a * M (S a) (S j) * x j + (- (M O (S a) * x a) / M O O) * (M O (S j) * x j))).
        + rewrite PWhiten.sum_plus, sum_scal. fold t. unfold Rdiv. ring.
        + intros b Hb. rewrite (Sy (S a) O) by lia. unfold Rdiv. ring. }
    rewrite E. replace (- t / M O O * M O O * (- t / M O O) + 2 * (- t / M O O) * t + quadratic m (fun a b => M (S a) (S b)) (fun a => x a))
      with (quadratic m (fun a b => M (S a) (S b)) x - t * t / M O O) in Hy; [exact Hy|].
    change (quadratic m (fun a b => M (S a) (S b)) (fun a => x a)) with (quadratic m (fun a b => M (S a) (S b)) x). field. lra.
Qed.
Lemma factor_exists n : forall M, spd n M -> exists L, factor n M L.
Proof.
  induction n as [|m IH]; intros M H.
  - exists (fun _ _ => 0). repeat split; intros; try lia. cbn. ring.
  - pose proof (spd_first m M H) as P. destruct (IH _ (spd_schur m M H)) as (L & L1 & L2 & L3 & L4). destruct H as [Sy _].
    pose proof (sqrt_lt_R0 _ P) as Q. pose proof (sqrt_sqrt _ (Rlt_le _ _ P)) as QQ.
    exists (fun i j => match i, j with O, O => sqrt (M O O) | O, S _ => 0 | S a, O => M (S a) O / sqrt (M O O) | S a, S b => L a b end).
    split; [|split; [|split]].
    + intros [|a] Hi; [exact Q|apply L1; lia].
    + intros [|a] [|b] Hij Hj; try lia; [reflexivity|apply L2; lia].
    + intros i j Hi Hj. rewrite sum_S. destruct i as [|a], j as [|b].
      * rewrite sum_0 by (intros; ring). lra.
      * rewrite sum_0 by (intros; ring). rewrite (Sy (S b) O) by lia. field. lra.
      * rewrite sum_0 by (intros; ring). field. lra.
      * rewrite <- (L3 a b) by lia. unfold schur. rewrite (Sy (S b) O) by lia.
        replace (M (S a) O / sqrt (M O O) * (M O (S b) / sqrt (M O O))) with (M (S a) O * M O (S b) / (sqrt (M O O) * sqrt (M O O))) by (field; lra). rewrite QQ. ring.
    + rewrite det_schur by lra. rewrite L4, !prod_S. rewrite <- QQ at 1. ring.
Qed.
Lemma det_positive n M : spd n M -> 0 < det n M.
Proof. intros H. destruct (factor_exists n M H) as (L & L1 & _ & _ & ->). pose proof (prod_pos n (fun i => L i i) L1). apply Rmult_lt_0_compat; assumption. Qed.

(** Solving with a triangular matrix. *)
Lemma solve_lower n L : (forall i, (i < n)%nat -> 0 < L i i) -> (forall i j, (i < j)%nat -> (j < n)%nat -> L i j = 0) ->
  forall b : nat -> R, exists f, forall i, (i < n)%nat -> sum n (fun k => L i k * f k) = b i.
Proof.
  induction n as [|m IH]; intros H1 H2 b; [exists (fun _ => 0); intros; lia|].
  destruct (IH (fun i Hi => H1 i ltac:(lia)) (fun i j Hi Hj => H2 i j Hi ltac:(lia)) b) as (f & Hf).
  exists (fun k => if Nat.eqb k m then (b m - sum m (fun k => L m k * f k)) / L m m else f k).
  intros i Hi. cbn [sum]. rewrite Nat.eqb_refl.
  rewrite (sum_ext m _ (fun k => L i k * f k)) by (intros k Hk; destruct (Nat.eqb_spec k m); [lia|reflexivity]).
  destruct (Nat.eq_dec i m) as [->|N].
  - pose proof (H1 m ltac:(lia)). field. lra.
  - rewrite (H2 i m) by lia. rewrite Hf by lia. ring.
Qed.
(** What it gives for a right-hand side that begins with zeros. *)
Lemma lower_row n L f i : (forall i j, (i < j)%nat -> (j < n)%nat -> L i j = 0) -> (i < n)%nat -> (forall k, (k < i)%nat -> f k = 0) -> sum n (fun k => L i k * f k) = L i i * f i.
Proof.
  intros H Hi Z. apply (sum_one n i); [exact Hi|]. intros k Hk N. destruct (Nat.lt_ge_cases k i) as [C|C]; [rewrite Z by exact C; ring|].
  rewrite (H i k) by lia. ring.
Qed.
Lemma solve_zeros n L f b k : (forall i, (i < n)%nat -> 0 < L i i) -> (forall i j, (i < j)%nat -> (j < n)%nat -> L i j = 0) ->
  (forall i, (i < n)%nat -> sum n (fun j => L i j * f j) = b i) -> (forall i, (i < k)%nat -> (i < n)%nat -> b i = 0) -> forall i, (i < k)%nat -> (i < n)%nat -> f i = 0.
Proof.
  intros H1 H2 Hf Hb i. induction i as [i IH] using lt_wf_ind. intros Hk Hi. specialize (Hf i Hi).
  rewrite (lower_row n L f i H2 Hi) in Hf by (intros j Hj; apply IH; lia). rewrite Hb in Hf by assumption. pose proof (H1 i Hi). nra.
Qed.
Lemma lower_inj n L f g : (forall i, (i < n)%nat -> 0 < L i i) -> (forall i j, (i < j)%nat -> (j < n)%nat -> L i j = 0) ->
  (forall i, (i < n)%nat -> sum n (fun j => L i j * f j) = sum n (fun j => L i j * g j)) -> forall i, (i < n)%nat -> f i = g i.
Proof.
  intros H1 H2 H i Hi. assert (f i - g i = 0); [|lra].
  apply (solve_zeros n L (fun k => f k - g k) (fun _ => 0) n H1 H2); [|reflexivity|exact Hi|exact Hi].
  intros j Hj. rewrite (sum_ext n _ (fun k => L j k * f k + -1 * (L j k * g k))) by (intros; ring). rewrite PWhiten.sum_plus, sum_scal, (H j Hj). ring.
Qed.
(** The quadratic form of the inverse: the squared length of the solution. *)
Lemma inverse_quadratic n M L B c f : factor n M L -> inverse_of n M B -> (forall i, (i < n)%nat -> sum n (fun j => L i j * f j) = c i) ->
  sum n (fun i => sum n (fun j => c i * B i j * c j)) = sum n (fun k => f k * f k).
Proof.
  intros (L1 & L2 & L3 & _) HB Hf. set (g := fun i => sum n (fun j => B i j * c j)).
  assert (Mg : forall i, (i < n)%nat -> sum n (fun k => M i k * g k) = c i).
  { intros i Hi. unfold g. rewrite (sum_ext n _ (fun k => sum n (fun j => M i k * (B k j * c j)))) by (intros; rewrite sum_scal; reflexivity).
    rewrite sum_swap. rewrite (sum_ext n _ (fun j => delta i j * c j)); [apply (sum_delta n i c Hi)|].
    intros j Hj. rewrite <- (HB i j Hi Hj). rewrite <- sum_scal_r. apply sum_ext. intros. ring. }
  set (h := fun k => sum n (fun i => L i k * g i)).
  assert (Lh : forall i, (i < n)%nat -> sum n (fun k => L i k * h k) = c i).
  { intros i Hi. rewrite <- Mg by exact Hi. unfold h. rewrite (sum_ext n _ (fun k => sum n (fun j => L i k * (L j k * g j)))) by (intros; rewrite sum_scal; reflexivity).
    rewrite sum_swap. apply sum_ext. intros j Hj. rewrite (L3 i j Hi Hj), <- sum_scal_r. apply sum_ext. intros. ring. }
  assert (hf : forall i, (i < n)%nat -> h i = f i) by (apply (lower_inj n L h f L1 L2); intros i Hi; rewrite Lh, Hf by exact Hi; reflexivity).
  rewrite (sum_ext n _ (fun i => sum n (fun k => f k * (L i k * g i)))).
  - rewrite sum_swap. apply sum_ext. intros k Hk. rewrite sum_scal. fold (h k). rewrite hf by exact Hk. ring.
  - intros i Hi. rewrite (sum_ext n (fun j => c i * B i j * c j) (fun j => c i * (B i j * c j))) by (intros; ring). rewrite sum_scal. fold (g i).
    rewrite (sum_ext n (fun k => f k * (L i k * g i)) (fun k => (L i k * f k) * g i)) by (intros; ring). rewrite sum_scal_r, Hf by exact Hi. reflexivity.
Qed.

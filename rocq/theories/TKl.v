(** The divergence of two normal distributions (C111); mean and covariance of weighted samples (C112). *)
From Coq Require Import Lra Lia Psatz.
From Verif Require Import SDet PLinAlg PWhiten PDet MKl PKl.
Open Scope R_scope.
Set Default Goal Selector "!".
Set Bullet Behavior "Strict Subproofs".

(** [inv] gives the inverse of this matrix, or raises if it has none. *)
Definition inverts (inv : mat -> res mat) (n : nat) (c : mat) : Prop :=
  (det n (at2 c) <> 0 -> exists b, inv c = Ok b /\ inverse_of n (at2 c) (at2 b)) /\ (det n (at2 c) = 0 -> inv c = Err ValueError).

Lemma form_quadratic n b m0 m1 : length m0 = n -> length m1 = n -> form b (vsub m1 m0) = quadratic n (at2 b) (fun i => nth i m1 0 - nth i m0 0).
Proof.
  intros H0 H1. unfold form. rewrite vsub_length by lia. rewrite H1. unfold quadratic. apply sum_ext. intros i Hi. apply sum_ext. intros j Hj.
  rewrite !vsub_nth by lia. reflexivity.
Qed.
Lemma kl_finite inv n m0 c0 m1 c1 b : length m0 = n -> length m1 = n -> spd n (at2 c0) -> spd n (at2 c1) -> inv c1 = Ok b ->
  kl_norm inv m0 (Matrix (Some c0)) m1 (Matrix (Some c1)) = Ok (F (divergence n (at2 c0) (at2 c1) (at2 b) (fun i => nth i m1 0 - nth i m0 0))).
Proof.
  intros H0 H1 P0 P1 Hb. unfold kl_norm. rewrite Hb. cbn [bind]. rewrite H0. pose proof (det_positive _ _ P0). pose proof (det_positive _ _ P1).
  unfold flog. destruct (Rlt_dec 0 (det n (at2 c1))); [|contradiction]. destruct (Rlt_dec 0 (det n (at2 c0))); [|contradiction].
  cbn [fneg fadd fhalf]. do 2 f_equal. unfold divergence. rewrite (form_quadratic n) by assumption. unfold trace_product. ring.
Qed.

(** For all covariances (symmetric, positive semi-definite; degenerate ones included) the divergence is never NaN and never negative, and it is 0 only
    for equal distributions. It raises exactly if the second covariance is degenerate, and is infinite exactly if only the first is. *)
Theorem C111_divergence : forall inv n m0 c0 m1 c1,
  length m0 = n -> length m1 = n -> square n c0 -> square n c1 -> psd n (at2 c0) -> psd n (at2 c1) -> inverts inv n c1 ->
  match kl_norm inv m0 (Matrix (Some c0)) m1 (Matrix (Some c1)) with
  | Err e => e = ValueError /\ ~ spd n (at2 c1)
  | Ok Inf => ~ spd n (at2 c0) /\ spd n (at2 c1)
  | Ok (F v) => spd n (at2 c0) /\ spd n (at2 c1) /\ 0 <= v /\ (v = 0 <-> m0 = m1 /\ c0 = c1)
  | Ok MInf | Ok Nan => False
  end.
Proof.
  intros inv n m0 c0 m1 c1 L0 L1 Q0 Q1 P0 P1 [HI1 HI2].
  destruct (psd_cases n _ P1) as [S1|D1].
  - destruct HI1 as (b & Hb & HB); [pose proof (det_positive _ _ S1); lra|]. destruct (psd_cases n _ P0) as [S0|D0].
    + rewrite (kl_finite inv n m0 c0 m1 c1 b) by assumption. split; [exact S0|]. split; [exact S1|].
      destruct (divergence_nonneg n (at2 c0) (at2 c1) (at2 b) (fun i => nth i m1 0 - nth i m0 0) S0 S1 HB) as [N Z]. split; [exact N|]. split.
      * intros E. destruct (Z E) as [Z1 Z2]. split.
        -- apply (same_nth m0 m1 n L0 L1). intros i Hi. specialize (Z1 i Hi). lra.
        -- destruct Q0 as [R0 F0], Q1 as [R1 F1]. rewrite Forall_forall in F0, F1. apply nth_ext with (d := []) (d' := []); [lia|].
           intros i Hi. rewrite R0 in Hi. apply (same_nth _ _ n); [apply F0, nth_In; lia|apply F1, nth_In; lia|]. intros j Hj. apply (Z2 i j Hi Hj).
      * intros [-> ->]. apply divergence_same; [assumption|assumption|]. intros i _. lra.
    + unfold kl_norm. rewrite Hb. cbn [bind]. rewrite L0. unfold flog. rewrite D0. pose proof (det_positive _ _ S1).
      destruct (Rlt_dec 0 (det n (at2 c1))); [|contradiction]. destruct (Rlt_dec 0 0) as [C|_]; [lra|]. destruct (Req_EM_T 0 0) as [_|C]; [|contradiction].
      cbn [fneg fadd fhalf]. split; [|exact S1]. rewrite (spd_det n _ P0). intros C. contradiction.
  - unfold kl_norm. rewrite (HI2 D1). cbn [bind]. split; [reflexivity|]. rewrite (spd_det n _ P1). intros C. contradiction.
Qed.
(** The choice of units (and of the origin) of the parameters does not change it. *)
Definition in_units (n : nat) (s t : nat -> R) (m m' : vec) (c c' : mat) : Prop :=
  (forall i, (i < n)%nat -> nth i m' 0 = s i * nth i m 0 + t i) /\ forall i j, (i < n)%nat -> (j < n)%nat -> at2 c' i j = s i * s j * at2 c i j.
Theorem C111_units : forall inv n s t m0 c0 m1 c1 m0' c0' m1' c1',
  length m0 = n -> length m1 = n -> length m0' = n -> length m1' = n -> (forall i, (i < n)%nat -> s i <> 0) ->
  psd n (at2 c0) -> psd n (at2 c1) -> inverts inv n c1 -> inverts inv n c1' -> in_units n s t m0 m0' c0 c0' -> in_units n s t m1 m1' c1 c1' ->
  kl_norm inv m0' (Matrix (Some c0')) m1' (Matrix (Some c1')) = kl_norm inv m0 (Matrix (Some c0)) m1 (Matrix (Some c1)).
Proof.
  intros inv n s t m0 c0 m1 c1 m0' c0' m1' c1' L0 L1 L0' L1' Hs P0 P1 [HI1 HI2] [HI1' HI2'] [U0 V0] [U1 V1].
  assert (E0 : forall i j, (i < n)%nat -> (j < n)%nat -> rescale s (at2 c0) i j = at2 c0' i j) by (intros; unfold rescale; rewrite V0 by assumption; reflexivity).
  assert (E1 : forall i j, (i < n)%nat -> (j < n)%nat -> rescale s (at2 c1) i j = at2 c1' i j) by (intros; unfold rescale; rewrite V1 by assumption; reflexivity).
  assert (D0 : det n (at2 c0') = prod n s ^ 2 * det n (at2 c0)) by (rewrite <- (det_ext n _ _ E0); apply rescale_det).
  assert (D1 : det n (at2 c1') = prod n s ^ 2 * det n (at2 c1)) by (rewrite <- (det_ext n _ _ E1); apply rescale_det).
  assert (Pp : 0 < prod n s ^ 2) by (pose proof (prod_nonzero n s Hs); cbn [pow]; nra).
  pose proof (psd_ext n _ _ E0 (rescale_psd n s _ P0)) as P0'. pose proof (psd_ext n _ _ E1 (rescale_psd n s _ P1)) as P1'.
  destruct (Req_dec (det n (at2 c1)) 0) as [Z1|N1].
  - unfold kl_norm. rewrite (HI2 Z1). rewrite HI2'; [reflexivity|]. rewrite D1, Z1. ring.
  - assert (N1' : det n (at2 c1') <> 0) by (rewrite D1; nra). destruct (HI1 N1) as (b & Hb & HB). destruct (HI1' N1') as (b' & Hb' & HB').
    pose proof (proj2 (spd_det n _ P1) N1) as S1. pose proof (proj2 (spd_det n _ P1') N1') as S1'.
    destruct (Req_dec (det n (at2 c0)) 0) as [Z0|N0].
    + assert (Z0' : det n (at2 c0') = 0) by (rewrite D0, Z0; ring). unfold kl_norm. rewrite Hb, Hb'. cbn [bind]. rewrite L0, L0'. rewrite Z0, Z0'.
      pose proof (det_positive _ _ S1). pose proof (det_positive _ _ S1'). unfold flog.
      destruct (Rlt_dec 0 (det n (at2 c1))); [|contradiction]. destruct (Rlt_dec 0 (det n (at2 c1'))); [|contradiction].
      destruct (Rlt_dec 0 0) as [C|_]; [lra|]. destruct (Req_EM_T 0 0) as [_|C]; [|contradiction]. reflexivity.
    + assert (N0' : det n (at2 c0') <> 0) by (rewrite D0; nra). pose proof (proj2 (spd_det n _ P0) N0) as S0. pose proof (proj2 (spd_det n _ P0') N0') as S0'.
      rewrite (kl_finite inv n m0 c0 m1 c1 b), (kl_finite inv n m0' c0' m1' c1' b') by assumption. do 2 f_equal.
      rewrite <- (rescale_divergence n s Hs (at2 c0) (at2 c1) (at2 b)) by assumption. apply divergence_ext.
      * intros i j Hi Hj. split; [symmetry; apply E0; assumption|]. split; [symmetry; apply E1; assumption|].
        apply (inverse_unique n (at2 c1') (at2 b') (fun i j => at2 b i j / (s i * s j)) S1' HB'); [|exact Hi|exact Hj]. intros a a' Ha Ha'.
        rewrite <- (rescale_inverse n s Hs (at2 c1) (at2 b) HB a a' Ha Ha'). apply sum_ext. intros k Hk. rewrite E1 by assumption. reflexivity.
      * intros i Hi. rewrite U0, U1 by assumption. ring.
Qed.

(** A concrete case: standard normal against one of variance 4, in both directions (the divergence is not symmetric). *)
Definition inv1 (m : mat) : res mat := if Req_EM_T (at2 m 0 0) 0 then Err ValueError else Ok [[/ at2 m 0 0]].
Lemma inv1_inverts x : inverts inv1 1 [[x]].
Proof.
  unfold inverts, inv1. cbn. split.
  - intros H. destruct (Req_EM_T x 0) as [->|N]; [exfalso; apply H; ring|]. exists [[/ x]]. split; [reflexivity|]. intros i j Hi Hj.
    assert (i = O) as -> by lia. assert (j = O) as -> by lia. cbn. unfold delta. cbn. field. exact N.
  - intros H. destruct (Req_EM_T x 0) as [_|N]; [reflexivity|]. exfalso. apply N. lra.
Qed.
Lemma spd1 x : 0 < x -> spd 1 (at2 [[x]]).
Proof.
  intros H. split; [intros i j Hi Hj; assert (i = O) as -> by lia; assert (j = O) as -> by lia; reflexivity|].
  intros y (i & Hi & Ny). assert (i = O) as -> by lia. pose proof (Rsqr_pos_lt _ Ny) as P. unfold Rsqr in P. unfold quadratic. cbn. nra.
Qed.
Example C111_applies :
  (forall a b, kl_norm inv1 [a] (Matrix (Some [[1]])) [b] (Matrix (Some [[4]])) = Ok (F (1 / 2 * (ln 4 - 3 / 4 + (b - a) ^ 2 / 4)))) /\
  (forall a b, kl_norm inv1 [b] (Matrix (Some [[4]])) [a] (Matrix (Some [[1]])) = Ok (F (1 / 2 * (3 - ln 4 + (a - b) ^ 2)))) /\
  kl_norm inv1 [0] (Matrix (Some [[0]])) [1] (Matrix (Some [[4]])) = Ok Inf /\
  kl_norm inv1 [0] (Matrix (Some [[4]])) [1] (Matrix (Some [[0]])) = Err ValueError /\
  inverts inv1 1 [[4]] /\ spd 1 (at2 [[1]]) /\ spd 1 (at2 [[4]]).
Proof.
  assert (D : forall x, det 1 (at2 [[x]]) = x) by (intros; cbn; ring).
  assert (I : forall x, x <> 0 -> inv1 [[x]] = Ok [[/ x]]) by (intros x Hx; unfold inv1; cbn; destruct (Req_EM_T x 0); [contradiction|reflexivity]).
  split; [|split; [|split; [|split; [|split; [|split]]]]].
  - intros a b. rewrite (kl_finite inv1 1 [a] [[1]] [b] [[4]] [[/ 4]]); try reflexivity; [|apply spd1; lra|apply spd1; lra|apply I; lra].
    do 2 f_equal. unfold divergence, quadratic. rewrite !D, ln_1. cbn. field.
  - intros a b. rewrite (kl_finite inv1 1 [b] [[4]] [a] [[1]] [[/ 1]]); try reflexivity; [|apply spd1; lra|apply spd1; lra|apply I; lra].
    do 2 f_equal. unfold divergence, quadratic. rewrite !D, ln_1. cbn. field.
  - unfold kl_norm. rewrite I by lra. cbn [bind length]. rewrite !D. unfold flog. destruct (Rlt_dec 0 4) as [_|C]; [|lra]. destruct (Rlt_dec 0 0) as [C|_]; [lra|].
    destruct (Req_EM_T 0 0) as [_|C]; [|contradiction]. reflexivity.
  - unfold kl_norm, inv1. cbn. destruct (Req_EM_T 0 0) as [_|C]; [reflexivity|contradiction].
  - apply inv1_inverts.
  - apply spd1. lra.
  - apply spd1. lra.
Qed.
(** With a matrix that is no covariance (a negative determinant) it is undefined, not infinite. *)
Theorem C111_undefined : forall inv m0 c0 m1 c1 v, kl_norm inv m0 (Matrix (Some c0)) m1 (Matrix (Some c1)) = Ok v ->
  det (length m0) (at2 c0) < 0 \/ det (length m0) (at2 c1) < 0 -> v = Nan.
Proof.
  intros inv m0 c0 m1 c1 v H N. unfold kl_norm in H. destruct (inv c1) as [b|x]; cbn [bind] in H; [|discriminate H]. injection H as <-.
  assert (L : forall x, x < 0 -> flog x = Nan). { intros x Hx. unfold flog. destruct (Rlt_dec 0 x); [lra|]. destruct (Req_EM_T x 0); [lra|reflexivity]. }
  destruct N as [N|N]; rewrite (L _ N); [|reflexivity]. destruct (flog (det (length m0) (at2 c1))); reflexivity.
Qed.
Example C111_undefined_case : kl_norm inv1 [0] (Matrix (Some [[- 1]])) [1] (Matrix (Some [[4]])) = Ok Nan.
Proof.
  assert (exists v, kl_norm inv1 [0] (Matrix (Some [[- 1]])) [1] (Matrix (Some [[4]])) = Ok v) as [v E]. { unfold kl_norm, inv1. cbn. destruct (Req_EM_T 4 0); [lra|]. eexists. reflexivity. }
  rewrite E. f_equal. apply (C111_undefined _ _ _ _ _ _ E). left. cbn. lra.
Qed.
Print Assumptions C111_undefined.
(** Centimetres instead of metres. *)
Example C111_units_applies : forall a b x y, psd 1 (at2 [[x]]) -> psd 1 (at2 [[y]]) ->
  kl_norm inv1 [100 * a + 0] (Matrix (Some [[10000 * x]])) [100 * b + 0] (Matrix (Some [[10000 * y]])) = kl_norm inv1 [a] (Matrix (Some [[x]])) [b] (Matrix (Some [[y]])).
Proof.
  intros a b x y Hx Hy. apply (C111_units inv1 1 (fun _ => 100) (fun _ => 0)); try reflexivity; try apply inv1_inverts; try assumption.
  - intros. lra.
  - split; intros i; [intros Hi|intros j Hi Hj; assert (j = O) as -> by lia]; assert (i = O) as -> by lia; cbn; ring.
  - split; intros i; [intros Hi|intros j Hi Hj; assert (j = O) as -> by lia]; assert (i = O) as -> by lia; cbn; ring.
Qed.

(** ** C112: weighted samples *)
(** The numbers that the arrays of a sample hold. *)
Definition entry (a : array) (i j : nat) : option R := match a with Scalar x => x | Matrix m => option_map (fun m => at2 m i j) m end.
Definition two_dimensional (a : array) : Prop := match a with Matrix _ => True | _ => False end.

Definition lsum (f : R * list R -> R) (l : list (R * list R)) : R := fold_right (fun p acc => f p + acc) 0 l.
Lemma lsum_sum (g : list R -> R) : forall w X, length X = length w -> sum (length w) (fun k => nth k w 0 * g (nth k X [])) = lsum (fun p => fst p * g (snd p)) (combine w X).
Proof.
  induction w as [|a w IH]; intros [|x X] H; try discriminate; [reflexivity|]. cbn [length combine lsum fold_right fst snd]. rewrite sum_S. cbn [nth].
  rewrite IH by (cbn in H; lia). reflexivity.
Qed.
Definition keep (p : R * list R) : bool := if Req_EM_T (fst p) 0 then false else true.
Lemma lsum_filter g l : lsum (fun p => fst p * g (snd p)) (filter keep l) = lsum (fun p => fst p * g (snd p)) l.
Proof.
  induction l as [|p l IH]; [reflexivity|]. cbn [filter lsum fold_right]. unfold keep at 1. destruct (Req_EM_T (fst p) 0) as [E|E].
  - rewrite E. unfold lsum in IH. rewrite IH. ring.
  - cbn [fold_right]. unfold lsum in IH. rewrite IH. reflexivity.
Qed.
Lemma combine_split {A B} (l : list (A * B)) : combine (map fst l) (map snd l) = l.
Proof. induction l as [|[a b] l IH]; cbn; [reflexivity|]. rewrite IH. reflexivity. Qed.
(** Rows of weight 0 do not count. *)
Lemma removed w X w' X' g : remove_0_weight w X = Ok (w', X') -> length X = length w /\ length X' = length w' /\
  sum (length w') (fun k => nth k w' 0 * g (nth k X' [])) = sum (length w) (fun k => nth k w 0 * g (nth k X [])).
Proof.
  unfold remove_0_weight. destruct (Nat.eqb_spec (length X) (length w)) as [E|]; [|discriminate]. cbn [negb]. fold keep. intros H. injection H as <- <-.
  split; [exact E|]. split; [rewrite !map_length; reflexivity|]. rewrite !lsum_sum by (try rewrite !map_length; auto). rewrite combine_split. apply lsum_filter.
Qed.
Lemma removed_total w X w' X' : remove_0_weight w X = Ok (w', X') -> sum_of w' = sum_of w.
Proof.
  intros H. destruct (removed w X w' X' (fun _ => 1) H) as (_ & _ & E). rewrite !sum_of_sum.
  rewrite (sum_ext _ (fun k => nth k w' 0) (fun k => nth k w' 0 * 1)), (sum_ext _ (fun k => nth k w 0) (fun k => nth k w 0 * 1)) by (intros; ring). exact E.
Qed.
Lemma removed_nonneg w X w' X' : remove_0_weight w X = Ok (w', X') -> (forall a, In a w -> 0 <= a) -> forall a, In a w' -> 0 <= a.
Proof.
  unfold remove_0_weight. destruct (negb _); [discriminate|]. intros H. injection H as <- <-. intros HW a Ha. apply in_map_iff in Ha.
  destruct Ha as ([b x] & <- & Hp). apply filter_In in Hp. destruct Hp as [Hp _]. apply in_combine_l in Hp. auto.
Qed.
Lemma removed_ok w X : length X = length w -> exists w' X', remove_0_weight w X = Ok (w', X').
Proof. intros H. unfold remove_0_weight. rewrite H, Nat.eqb_refl. cbn [negb]. eauto. Qed.
Lemma negative_false w : (forall a, In a w -> 0 <= a) -> negative w = false.
Proof.
  intros H. unfold negative. induction w as [|a w IH]; [reflexivity|]. cbn [existsb]. destruct (Rlt_dec a 0) as [C|_]; [pose proof (H a (or_introl eq_refl)); lra|].
  apply IH. intros. apply H. right. assumption.
Qed.
Lemma normalisation_0 w : normalisation 0 w = sum_of w.
Proof. unfold normalisation, Rdiv. ring. Qed.
Lemma cov_case ddof d X w : (forall a, In a w -> 0 <= a) -> length X = length w -> exists a, np_cov_of ddof d X w = Ok a /\
  (two_dimensional a <-> d <> 1%nat) /\
  (forall i j, (i < d)%nat -> (j < d)%nat -> entry a i j = if Rlt_dec 0 (normalisation ddof w)
    then Some (wcov (length w) (fun k => nth k w 0) (fun k => at2 X k i) (fun k => at2 X k j) (normalisation ddof w)) else None).
Proof.
  intros Hw HX. unfold np_cov_of. rewrite negative_false by exact Hw. eexists. split; [reflexivity|]. destruct (Nat.eqb_spec d 1) as [->|Nd].
  - split; [cbn; split; [contradiction|congruence]|]. intros i j Hi Hj. assert (i = O) as -> by lia. assert (j = O) as -> by lia. cbn [entry].
    destruct (Rlt_dec 0 (normalisation ddof w)); [|reflexivity]. cbn [option_map]. rewrite cov_nth by (auto; lia). reflexivity.
  - split; [cbn; split; [congruence|auto]|]. intros i j Hi Hj. cbn [entry]. destruct (Rlt_dec 0 (normalisation ddof w)); [|reflexivity].
    cbn [option_map]. rewrite cov_nth by auto. reflexivity.
Qed.
Lemma average_ok d X w : length X = length w -> sum_of w <> 0 -> np_average d X w = Ok (map (average w) (transpose d X)).
Proof. intros H N. unfold np_average. rewrite H, Nat.eqb_refl. cbn [negb]. destruct (Req_EM_T (sum_of w) 0); [contradiction|reflexivity]. Qed.
Lemma nth_in_nonneg w : (forall a, In a w -> 0 <= a) -> forall k, 0 <= nth k w 0.
Proof. intros H k. destruct (Nat.lt_ge_cases k (length w)) as [C|C]; [apply H, nth_In, C|rewrite nth_overflow by exact C; lra]. Qed.
Lemma sum_pos_of_one w x : (forall a, In a w -> 0 <= a) -> In x w -> 0 < x -> 0 < sum_of w.
Proof.
  intros H Hx Px. rewrite sum_of_sum. destruct (In_nth _ _ 0 Hx) as (k & Hk & E).
  pose proof (sum_ge (length w) (fun k => nth k w 0) k (fun k _ => nth_in_nonneg w H k) Hk). cbn beta in *. lra.
Qed.
Lemma vmax_spec : forall l x, (x <= vmax x l) /\ (forall y, In y l -> y <= vmax x l) /\ (vmax x l = x \/ In (vmax x l) l).
Proof.
  induction l as [|y l IH]; intros x; cbn [vmax]; [split; [lra|split; [contradiction|auto]]|].
  destruct (IH (Rmax x y)) as (A & B & C). pose proof (Rmax_l x y). pose proof (Rmax_r x y). split; [lra|]. split.
  - intros z [->|Hz]; [lra|auto].
  - destruct C as [->|C]; [|right; right; exact C]. unfold Rmax. destruct (Rle_dec x y); [right; left; reflexivity|left; reflexivity].
Qed.
Lemma vmax_unique a l top : In top (a :: l) -> (forall b, In b (a :: l) -> b <= top) -> vmax a l = top.
Proof.
  intros Hin H. destruct (vmax_spec l a) as (A & B & C). assert (top <= vmax a l) by (destruct Hin as [<-|Hin]; auto).
  assert (vmax a l <= top) by (destruct C as [->|C]; apply H; [left; reflexivity|right; exact C]). lra.
Qed.

(** The mean and covariance of the training set: the points with their probabilities relative to the highest one as weights. The exponential may
    underflow. *)
Theorem C112_evals : forall ex d X logp top, (forall x, 0 <= ex x) -> ex 0 = 1 ->
  length X = length logp -> In top logp -> (forall b, In b logp -> b <= top) ->
  let n := length logp in let w := fun k => ex (nth k logp 0 - top) in
  exists m a, mean_covmat_from_evals ex d X logp = Ok (m, a) /\ length m = d /\
    (forall j, (j < d)%nat -> nth j m 0 = wmean n w (fun k => at2 X k j)) /\ (two_dimensional a <-> d <> 1%nat) /\
    (forall i j, (i < d)%nat -> (j < d)%nat -> entry a i j = Some (wcov n w (fun k => at2 X k i) (fun k => at2 X k j) (sum n w))).
Proof.
  intros ex d X logp top ex_nonneg ex_0 HL Hin Hmax n w. unfold mean_covmat_from_evals. destruct logp as [|a l]; [destruct Hin|]. rewrite (vmax_unique a l top Hin Hmax).
  remember (a :: l) as logp eqn:El. set (W := map (fun b => ex (b - top)) logp).
  assert (LW : length W = n) by (unfold W; rewrite map_length; reflexivity).
  assert (NW : forall a, In a W -> 0 <= a) by (intros b Hb; apply in_map_iff in Hb; destruct Hb as (c & <- & _); apply ex_nonneg).
  assert (PW : 0 < sum_of W). { apply (sum_pos_of_one W 1 NW); [|lra]. apply in_map_iff. exists top. split; [rewrite Rminus_eq_0; exact ex_0|exact Hin]. }
  assert (Wn : forall k, (k < n)%nat -> nth k W 0 = w k) by (intros k Hk; unfold W; rewrite (nth_map_R _ _ 0) by exact Hk; reflexivity).
  destruct (removed_ok W X ltac:(lia)) as (w' & X' & Er). rewrite Er. cbn [bind fst snd].
  pose proof (removed_total _ _ _ _ Er) as Tt. destruct (removed W X w' X' (fun _ => 1) Er) as (_ & LX' & _).
  rewrite average_ok by (auto; lra). cbn [bind]. destruct (cov_case 0 d X' w' (removed_nonneg _ _ _ _ Er NW) LX') as (arr & Ea & E2 & E3). rewrite Ea. cbn [bind].
  exists (map (average w') (transpose d X')), arr. split; [reflexivity|]. split; [rewrite map_length; apply transpose_len|].
  assert (SW : sum n w = sum_of W). { rewrite sum_of_sum, LW. apply sum_ext. intros k Hk. rewrite Wn by exact Hk. reflexivity. }
  assert (G : forall g, sum (length w') (fun k => nth k w' 0 * g (nth k X' [])) = sum n (fun k => w k * g (nth k X []))).
  { intros g. destruct (removed W X w' X' g Er) as (_ & _ & ->). rewrite LW. apply sum_ext. intros k Hk. rewrite Wn by exact Hk. reflexivity. }
  assert (Mn : forall j, wmean (length w') (fun k => nth k w' 0) (fun k => at2 X' k j) = wmean n w (fun k => at2 X k j)).
  { intros j. unfold wmean. rewrite <- sum_of_sum, Tt, SW. f_equal. apply (G (fun r => nth j r 0)). }
  split; [intros j Hj; rewrite mean_nth by auto; apply Mn|]. split; [exact E2|].
  intros i j Hi Hj. rewrite E3 by assumption. rewrite normalisation_0, Tt. destruct (Rlt_dec 0 (sum_of W)) as [_|C]; [|contradiction].
  f_equal. unfold wcov. rewrite SW. f_equal. rewrite !Mn.
  set (g := fun r : list R => (nth i r 0 - wmean n w (fun k => at2 X k i)) * (nth j r 0 - wmean n w (fun k => at2 X k j))).
  transitivity (sum (length w') (fun k => nth k w' 0 * g (nth k X' []))).
  - apply sum_ext. intros k _. unfold g, at2. ring.
  - rewrite G. apply sum_ext. intros k _. unfold g, at2. ring.
Qed.
(** Only differences of log-probabilities matter. *)
Theorem C112_evals_shift : forall ex d X logp c, mean_covmat_from_evals ex d X (map (fun b => b + c) logp) = mean_covmat_from_evals ex d X logp.
Proof.
  intros ex d X [|a l] c; [reflexivity|]. unfold mean_covmat_from_evals. cbn [map].
  assert (V : vmax (a + c) (map (fun b => b + c) l) = vmax a l + c).
  { clear. revert a. induction l as [|b l IH]; intros a; [reflexivity|]. cbn [map vmax]. rewrite <- IH. f_equal. unfold Rmax.
    destruct (Rle_dec (a + c) (b + c)), (Rle_dec a b); lra. }
  rewrite V. rewrite map_map. replace (a + c - (vmax a l + c)) with (a - vmax a l) by ring.
  rewrite (map_ext (fun x => ex (x + c - (vmax a l + c))) (fun b => ex (b - vmax a l))) by (intros; f_equal; ring). reflexivity.
Qed.
(** The mean that a whitening transform learns, if it learns anything, is that of the training set with the densities as weights (C14). *)
Theorem C14_learnt_mean : forall d X y m C top, length X = length y -> In top y -> (forall b, In b y -> b <= top) -> MWhiten.mean_cov d X y = Ok (m, C) ->
  length m = d /\ forall j, (j < d)%nat -> nth j m 0 = wmean (length y) (fun k => exp (nth k y 0 - top)) (fun k => at2 X k j).
Proof.
  intros d X y m C top HL Hin Hmax E.
  assert (W : weights y = map (fun b => exp (b - top)) y) by (destruct y as [|a l]; [reflexivity|]; unfold weights; rewrite (vmax_unique a l top Hin Hmax); reflexivity).
  assert (LW : length (weights y) = length y) by (rewrite W; apply map_length).
  unfold MWhiten.mean_cov, MPreproc.compute_mean_cov in E. destruct y as [|a l]; [destruct Hin|]. cbn [bind] in E. remember (a :: l) as y eqn:Ey. clear Ey a l.
  destruct (Nat.eqb _ d); [|discriminate]. injection E as <- _. split; [rewrite map_length; apply transpose_len|].
  intros j Hj. rewrite mean_nth by (rewrite ?LW; assumption). rewrite LW.
  assert (N : forall k, (k < length y)%nat -> nth k (weights y) 0 = exp (nth k y 0 - top)).
  { intros k Hk. rewrite W, (nth_indep _ 0 ((fun b => exp (b - top)) 0)) by (rewrite map_length; exact Hk). apply (map_nth (fun b => exp (b - top))). }
  unfold wmean. f_equal; apply sum_ext; intros k Hk; rewrite N by exact Hk; reflexivity.
Qed.
Print Assumptions C14_learnt_mean.
Example C14_learnt_mean_case : exists m C, MWhiten.mean_cov 2 [[0; 0]; [4; 8]] [ln 1; ln 3] = Ok (m, C) /\ nth 0 m 0 = 3 /\ nth 1 m 0 = 6.
Proof.
  assert (L : ln 1 <= ln 3) by (apply Rlt_le, ln_increasing; lra). do 2 eexists. split; [reflexivity|].
  assert (E : exp (ln 1 - ln 3) = 1 / 3) by (unfold Rminus; rewrite exp_plus, exp_Ropp, !exp_ln by lra; lra).
  assert (M : Rmax (ln 1) (ln 3) = ln 3) by (apply Rmax_right, L).
  split; unfold average, sum_of, weights; cbn; rewrite M, E; replace (ln 3 - ln 3) with 0 by ring; rewrite exp_0; field.
Qed.
(** The mean and covariance of a Monte Carlo sample: unbiased. They are not finite exactly if one point has all the weight. *)
Theorem C112_samples : forall d X w,
  length X = length w -> (forall a, In a w -> 0 <= a) -> (exists a, In a w /\ a <> 0) ->
  let n := length w in let v := fun k => nth k w 0 in
  exists m a, mean_covmat_from_samples d X (Some w) = Ok (m, a) /\ length m = d /\
    (forall j, (j < d)%nat -> nth j m 0 = wmean n v (fun k => at2 X k j)) /\ (two_dimensional a <-> d <> 1%nat) /\
    (forall i j, (i < d)%nat -> (j < d)%nat ->
       (entry a i j = None <-> exists k, (k < n)%nat /\ v k <> 0 /\ forall l, (l < n)%nat -> l <> k -> v l = 0) /\
       forall x, entry a i j = Some x -> x = wcov n v (fun k => at2 X k i) (fun k => at2 X k j) (sum n v - sum n (fun k => v k ^ 2) / sum n v)).
Proof.
  intros d X w HL HW (a0 & Ia & Na) n v. assert (PW : 0 < sum_of w) by (apply (sum_pos_of_one w a0 HW Ia); pose proof (HW a0 Ia); lra).
  unfold mean_covmat_from_samples. rewrite average_ok by (auto; lra). cbn [bind]. destruct (cov_case 1 d X w HW HL) as (arr & Ea & E2 & E3). rewrite Ea. cbn [bind].
  exists (map (average w) (transpose d X)), arr. split; [reflexivity|]. split; [rewrite map_length; apply transpose_len|].
  split; [intros j Hj; rewrite mean_nth by auto; reflexivity|]. split; [exact E2|].
  assert (Vn : forall k, 0 <= v k) by (apply nth_in_nonneg, HW).
  assert (SW : sum_of w = sum n v) by apply sum_of_sum.
  assert (Nm : normalisation 1 w = sum n v - sum n (fun k => v k ^ 2) / sum n v).
  { unfold normalisation. rewrite SW, (dot_sum n) by reflexivity. rewrite (sum_ext n (fun k => v k ^ 2) (fun k => nth k w 0 * nth k w 0)) by (intros; unfold v; ring). unfold Rdiv. ring. }
  rewrite SW in PW.
  assert (Nn : normalisation 1 w = sum n (fun k => v k * (sum n v - v k)) / sum n v).
  { rewrite Nm. rewrite (sum_ext n (fun k => v k * (sum n v - v k)) (fun k => v k * sum n v - v k ^ 2)) by (intros; ring). rewrite sum_minus, sum_scal_r. field. lra. }
  assert (Tn : forall k, (k < n)%nat -> 0 <= v k * (sum n v - v k)).
  { intros k Hk. apply Rmult_le_pos; [apply Vn|]. pose proof (sum_ge n v k (fun k _ => Vn k) Hk). lra. }
  assert (Iff : ~ 0 < normalisation 1 w <-> exists k, (k < n)%nat /\ v k <> 0 /\ forall l, (l < n)%nat -> l <> k -> v l = 0).
  { rewrite Nn. split.
    - intros C. assert (Z : sum n (fun k => v k * (sum n v - v k)) = 0).
      { pose proof (sum_nonneg n _ Tn) as P. destruct P as [P|P]; [|auto]. exfalso. apply C. apply Rdiv_lt_0_compat; assumption. }
      destruct (In_nth _ _ 0 Ia) as (k & Hk & Ek). exists k. split; [exact Hk|]. split; [unfold v; rewrite Ek; exact Na|]. intros l Hl Nl.
      assert (Zk : sum n v = v k). { pose proof (sum_nonneg_zero n _ Tn Z k Hk) as E. cbn beta in E. apply Rmult_integral in E. destruct E as [E|E]; [unfold v in E; congruence|lra]. }
      assert (S2 : sum n (fun j => v j - delta k j * v k) = 0) by (rewrite sum_minus, (sum_delta n k (fun _ => v k) Hk), Zk; ring).
      assert (E : v l - delta k l * v k = 0).
      { apply (sum_nonneg_zero n (fun j => v j - delta k j * v k)); [|exact S2|exact Hl]. intros j _. unfold delta. destruct (Nat.eqb_spec k j) as [<-|_]; [lra|]. pose proof (Vn j). lra. }
      unfold delta in E. destruct (Nat.eqb_spec k l); [congruence|]. lra.
    - intros (k & Hk & Nk & Zk) C. assert (Ek : sum n v = v k) by (apply sum_one; [exact Hk|intros; apply Zk; assumption]).
      assert (Z : sum n (fun k => v k * (sum n v - v k)) = 0).
      { apply sum_0. intros l Hl. destruct (Nat.eq_dec l k) as [->|N]; [rewrite Ek; ring|rewrite (Zk l Hl N); ring]. }
      rewrite Z in C. unfold Rdiv in C. lra. }
  intros i j Hi Hj. rewrite E3 by assumption. split.
  - rewrite <- Iff. destruct (Rlt_dec 0 (normalisation 1 w)); split; try congruence; auto.
  - intros x. destruct (Rlt_dec 0 (normalisation 1 w)); [|discriminate]. intros E. injection E as <-. rewrite Nm. reflexivity.
Qed.
(** A common factor of the weights does not count. *)
Theorem C112_samples_scale : forall d X w c, 0 < c -> mean_covmat_from_samples d X (Some (map (Rmult c) w)) = mean_covmat_from_samples d X (Some w).
Proof.
  intros d X w c Hc. assert (Sc : sum_of (map (Rmult c) w) = c * sum_of w) by (unfold sum_of; induction w as [|a w IH]; cbn; [ring|rewrite IH; ring]).
  assert (Av : forall r, average (map (Rmult c) w) r = average w r).
  { intros r. unfold average. rewrite Sc. change (map (Rmult c) w) with (scale c w). rewrite dot_comm, dot_scale, dot_comm. unfold Rdiv.
    destruct (Req_dec (sum_of w) 0) as [->|N]; [rewrite Rmult_0_r, Rinv_0; ring|]. field. split; lra. }
  assert (Nm : normalisation 1 (map (Rmult c) w) = c * normalisation 1 w).
  { unfold normalisation. rewrite Sc. change (map (Rmult c) w) with (scale c w). rewrite dot_scale, (dot_comm (scale c w)), dot_scale. unfold Rdiv.
    destruct (Req_dec (sum_of w) 0) as [->|N]; [rewrite Rmult_0_r, Rinv_0; ring|]. field. split; lra. }
  assert (Ng : negative (map (Rmult c) w) = negative w).
  { unfold negative. clear - Hc. induction w as [|a w IH]; [reflexivity|]. cbn [map existsb]. rewrite IH. f_equal. destruct (Rlt_dec (c * a) 0), (Rlt_dec a 0); try reflexivity; exfalso; nra. }
  unfold mean_covmat_from_samples, np_average, np_cov_of. rewrite map_length, Sc, Nm, Ng. destruct (Nat.eqb (length X) (length w)) eqn:EL; cbn [negb bind]; [|reflexivity].
  destruct (Req_EM_T (c * sum_of w) 0) as [E1|E1], (Req_EM_T (sum_of w) 0) as [E2|E2]; cbn [bind]; try reflexivity; try (exfalso; nra).
  rewrite (map_ext _ _ Av). destruct (negative w); cbn [bind]; [reflexivity|].
  replace (if Rlt_dec 0 (c * normalisation 1 w) then Some (cov_with (c * normalisation 1 w) (transpose d X) (map (Rmult c) w)) else None)
    with (if Rlt_dec 0 (normalisation 1 w) then Some (cov_with (normalisation 1 w) (transpose d X) w) else None); [reflexivity|].
  destruct (Rlt_dec 0 (c * normalisation 1 w)) as [P|P], (Rlt_dec 0 (normalisation 1 w)) as [Q|Q]; try reflexivity; try (exfalso; nra).
  f_equal. unfold cov_with. apply map_ext. intros r. apply map_ext. intros s. unfold centred. rewrite !Av.
  assert (Vm : forall a, vmul a (map (Rmult c) w) = scale c (vmul a w)).
  { clear. induction w as [|b w IH]; intros [|x a]; try reflexivity. unfold vmul in *. cbn [combine map fst snd scale]. rewrite IH. f_equal. ring. }
  rewrite Vm. rewrite (dot_comm (scale c _)), dot_scale, dot_comm. field. split; lra.
Qed.
(** The mean lies in every box that holds the points that count; the covariance is positive semi-definite. *)
Theorem C112_samples_inside : forall d X w m a j lo hi,
  length X = length w -> (forall a, In a w -> 0 <= a) -> (exists a, In a w /\ a <> 0) -> mean_covmat_from_samples d X (Some w) = Ok (m, a) -> (j < d)%nat ->
  (forall k, (k < length w)%nat -> 0 < nth k w 0 -> lo <= at2 X k j <= hi) -> lo <= nth j m 0 <= hi.
Proof.
  intros d X w m a j lo hi HL HW HE E Hj HB. destruct (C112_samples d X w HL HW HE) as (m' & a' & E' & _ & Em & _). rewrite E in E'. injection E' as <- <-.
  rewrite Em by exact Hj. apply wmean_between; [intros k _; apply nth_in_nonneg, HW| |exact HB]. rewrite <- sum_of_sum. destruct HE as (x & Ix & Nx).
  apply (sum_pos_of_one w x HW Ix). pose proof (HW x Ix). lra.
Qed.
Theorem C112_evals_inside : forall ex d X logp m a j lo hi, (forall x, 0 <= ex x) -> ex 0 = 1 ->
  length X = length logp -> logp <> [] -> mean_covmat_from_evals ex d X logp = Ok (m, a) -> (j < d)%nat -> (forall k, (k < length logp)%nat -> lo <= at2 X k j <= hi) -> lo <= nth j m 0 <= hi.
Proof.
  intros ex d X logp m a j lo hi ex_nonneg ex_0 HL HN E Hj HB. destruct logp as [|b l]; [congruence|].
  destruct (vmax_spec l b) as (V1 & V2 & V3). destruct (C112_evals ex d X (b :: l) (vmax b l) ex_nonneg ex_0 HL) as (m' & a' & E' & _ & Em & _).
  { destruct V3 as [->|V3]; [left; reflexivity|right; exact V3]. }
  { intros c [<-|Hc]; auto. }
  rewrite E in E'. injection E' as <- <-. rewrite Em by exact Hj. apply wmean_between; [intros; apply ex_nonneg| |intros; apply HB; assumption].
  assert (K : exists k, (k < length (b :: l))%nat /\ nth k (b :: l) 0 = vmax b l).
  { destruct V3 as [E3|V3]; [exists O; split; [cbn; lia|cbn; auto]|]. destruct (In_nth _ _ 0 V3) as (k & Hk & Ek). exists (S k). split; [cbn; lia|exact Ek]. }
  destruct K as (k & Hk & Ek). pose proof (sum_ge (length (b :: l)) (fun k => ex (nth k (b :: l) 0 - vmax b l)) k (fun k _ => ex_nonneg _) Hk) as G. cbn beta in G.
  rewrite Ek, Rminus_eq_0, ex_0 in G. lra.
Qed.
Theorem C112_samples_semidefinite : forall d X w m c,
  length X = length w -> mean_covmat_from_samples d X (Some w) = Ok (m, Matrix (Some c)) -> square d c /\ psd d (at2 c).
Proof.
  intros d X w m c HL E. unfold mean_covmat_from_samples in E. destruct (np_average d X w); [|discriminate]. cbn [bind] in E.
  destruct (negative w) eqn:En; unfold np_cov_of in E; rewrite En in E; [discriminate|]. cbn [bind] in E. destruct (Nat.eqb d 1); [discriminate|].
  destruct (Rlt_dec 0 (normalisation 1 w)) as [P|]; [|discriminate]. injection E as _ <-. split.
  - pose proof (cov_square (normalisation 1 w) (transpose d X) w) as Q. rewrite transpose_len in Q. exact Q.
  - apply (psd_ext d (fun i j => wcov (length w) (fun k => nth k w 0) (fun k => at2 X k i) (fun k => at2 X k j) (normalisation 1 w))); [intros; rewrite cov_nth by assumption; reflexivity|].
    apply wcov_psd; [exact P|]. intros k Hk. clear - En Hk. unfold negative in En. destruct (Rlt_dec (nth k w 0) 0) as [C|C]; [|lra].
    exfalso. assert (existsb (fun a => if Rlt_dec a 0 then true else false) w = true); [|congruence]. apply existsb_exists. exists (nth k w 0). split; [apply nth_In, Hk|].
    destruct (Rlt_dec (nth k w 0) 0); [reflexivity|contradiction].
Qed.
Theorem C112_evals_semidefinite : forall ex d X logp m c, (forall x, 0 <= ex x) -> ex 0 = 1 ->
  length X = length logp -> logp <> [] -> mean_covmat_from_evals ex d X logp = Ok (m, Matrix (Some c)) -> psd d (at2 c).
Proof.
  intros ex d X logp m c ex_nonneg ex_0 HL HN E. destruct logp as [|b l]; [congruence|].
  destruct (vmax_spec l b) as (V1 & V2 & V3). destruct (C112_evals ex d X (b :: l) (vmax b l) ex_nonneg ex_0 HL) as (m' & a' & E' & _ & _ & _ & Ec).
  { destruct V3 as [->|V3]; [left; reflexivity|right; exact V3]. }
  { intros x [<-|Hc]; auto. }
  rewrite E in E'. injection E' as <- <-. cbn [entry option_map] in Ec. set (n := length (b :: l)) in *. set (w := fun k => ex (nth k (b :: l) 0 - vmax b l)) in *.
  apply (psd_ext d (fun i j => wcov n w (fun k => at2 X k i) (fun k => at2 X k j) (sum n w))).
  - intros i j Hi Hj. specialize (Ec i j Hi Hj). congruence.
  - apply wcov_psd; [|intros; apply ex_nonneg].
    assert (K : exists k, (k < n)%nat /\ nth k (b :: l) 0 = vmax b l).
    { unfold n. destruct V3 as [E3|V3]; [exists O; split; [cbn; lia|cbn; auto]|]. destruct (In_nth _ _ 0 V3) as (k & Hk & Ek). exists (S k). split; [cbn; lia|exact Ek]. }
    destruct K as (k & Hk & Ek). pose proof (sum_ge n w k (fun k _ => ex_nonneg _) Hk) as G. unfold w in G at 1. rewrite Ek, Rminus_eq_0, ex_0 in G. lra.
Qed.

(** Two points in the plane, one at the top and one whose weight underflows. *)
Definition step (x : R) : R := if Rlt_dec x (-700) then 0 else exp x.
Lemma step_nonneg x : 0 <= step x.
Proof. unfold step. destruct (Rlt_dec x (-700)); [lra|left; apply exp_pos]. Qed.
Lemma step_0 : step 0 = 1.
Proof. unfold step. destruct (Rlt_dec 0 (-700)); [lra|apply exp_0]. Qed.
Example C112_evals_applies : exists m a, mean_covmat_from_evals step 2 [[1; 2]; [3; 4]] [-5; -1000] = Ok (m, a) /\ m = [1; 2] /\
  entry a 0 0 = Some 0 /\ entry a 0 1 = Some 0 /\ two_dimensional a.
Proof.
  destruct (C112_evals step 2 [[1; 2]; [3; 4]] [-5; -1000] (-5) step_nonneg step_0) as (m & a & E & Lm & Em & E2 & Ec); [reflexivity|left; reflexivity|intros b [<-|[<-|[]]]; lra|].
  exists m, a. split; [exact E|]. assert (W1 : step (-5 - -5) = 1) by (replace (-5 - -5) with 0 by ring; apply step_0).
  assert (W2 : step (-1000 - -5) = 0) by (unfold step; destruct (Rlt_dec (-1000 - -5) (-700)); [reflexivity|lra]).
  assert (Wm : forall x, wmean 2 (fun k => step (nth k [-5; -1000] 0 - -5)) x = x O).
  { intros x. unfold wmean. cbn [sum nth]. rewrite W1, W2. field. }
  cbn [length] in Em, Ec. split; [|split; [|split]].
  - apply (same_nth m [1; 2] 2 Lm eq_refl). intros i Hi. rewrite Em by exact Hi. rewrite Wm. destruct i as [|[|i]]; [reflexivity|reflexivity|lia].
  - rewrite Ec by lia. f_equal. unfold wcov. rewrite !Wm. cbn [sum nth]. rewrite W1, W2. field_simplify; cbn; lra.
  - rewrite Ec by lia. f_equal. unfold wcov. rewrite !Wm. cbn [sum nth]. rewrite W1, W2. field_simplify; cbn; lra.
  - apply E2. lia.
Qed.
(** Two points of equal weight: the unbiased variance is 2. *)
Example C112_samples_applies : exists m a, mean_covmat_from_samples 2 [[1; 5]; [3; 5]] (Some [1; 1]) = Ok (m, a) /\ m = [2; 5] /\ entry a 0 0 = Some 2 /\ entry a 0 1 = Some 0.
Proof.
  destruct (C112_samples 2 [[1; 5]; [3; 5]] [1; 1]) as (m & a & E & Lm & Em & E2 & Ec); [reflexivity|intros x [<-|[<-|[]]]; lra|exists 1; split; [left; reflexivity|lra]|].
  exists m, a. split; [exact E|]. cbn [length] in Em, Ec.
  assert (Nn : forall i j, (i < 2)%nat -> (j < 2)%nat -> exists x, entry a i j = Some x).
  { intros i j Hi Hj. destruct (entry a i j) as [x|] eqn:Ex; [eauto|]. exfalso. apply (Ec i j Hi Hj) in Ex. destruct Ex as (k & Hk & Nk & Zk).
    destruct k as [|[|k]]; [specialize (Zk 1%nat); cbn in Zk; assert (1 = 0) by (apply Zk; lia); lra|specialize (Zk O); cbn in Zk; assert (1 = 0) by (apply Zk; lia); lra|lia]. }
  split; [|split].
  - apply (same_nth m [2; 5] 2 Lm eq_refl). intros i Hi. rewrite Em by exact Hi. destruct i as [|[|i]]; [unfold wmean, at2; cbn; lra|unfold wmean, at2; cbn; lra|lia].
  - destruct (Nn 0%nat 0%nat) as (x & Ex); [lia|lia|]. rewrite Ex. f_equal. rewrite (proj2 (Ec 0%nat 0%nat ltac:(lia) ltac:(lia)) x Ex). unfold wcov, wmean, at2. cbn. field.
  - destruct (Nn 0%nat 1%nat) as (x & Ex); [lia|lia|]. rewrite Ex. f_equal. rewrite (proj2 (Ec 0%nat 1%nat ltac:(lia) ltac:(lia)) x Ex). unfold wcov, wmean, at2. cbn. field.
Qed.
Print Assumptions C111_divergence.
Print Assumptions C111_units.
Print Assumptions C112_evals.
Print Assumptions C112_evals_shift.
Print Assumptions C112_samples.
Print Assumptions C112_samples_scale.
Print Assumptions C112_samples_inside.
Print Assumptions C112_evals_inside.
Print Assumptions C112_samples_semidefinite.
Print Assumptions C112_evals_semidefinite.

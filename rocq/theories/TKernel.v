(** Property C66: gradients of kernels. *)
From Coq Require Import Lra Lia.
From Verif Require Import MKernel SKernel PKernel.
Set Default Goal Selector "!". Set Bullet Behavior "Strict Subproofs".

(** Length scales that are not 0, one per dimension if they are an array. *)
Definition good_scales (s : scales) (d : nat) : Prop :=
  match s with Iso l => l <> 0 | Aniso ls => length ls = d /\ forall l, In l ls -> l <> 0 end.
(** Where the kernel is differentiable. *)
Fixpoint regular (k : kernel) (x y : list R) : Prop :=
  match k with
  | RBF s => good_scales s (length x)
  | Matern nu s =>
      good_scales s (length x) /\ match nu with Half => x <> y | Other _ => False | _ => True end
  | RationalQuadratic l alpha => l <> 0 /\ 0 < alpha
  | ExpSineSquared l p => l <> 0 /\ p <> 0
  | ConstantKernel _ | WhiteKernel _ | DotProduct _ => True
  | Sum k1 k2 | Product k1 k2 => regular k1 x y /\ regular k2 x y
  | Exponentiation k e => regular k x y /\ match e with Nat n => n <> 0%nat | Real _ => 0 < value k x y end
  end.

Lemma good_nth s d i : good_scales s d -> (i < d)%nat -> nth i (per_dim s d) 0 <> 0.
Proof.
  destruct s as [l|ls]; simpl.
  - intros H Hi. intros E. apply H. rewrite <- E.
    symmetry. apply (repeat_spec d). apply nth_In. rewrite repeat_length. auto.
  - intros [<- H] Hi. apply H, nth_In. auto.
Qed.
Lemma good_length s d : good_scales s d -> length (per_dim s d) = d.
Proof. intros H. apply per_dim_length. intros ls ->. apply H. Qed.
Lemma nth_repeat1 l d i : (i < d)%nat -> nth i (repeat l d) 0 = l.
Proof. revert i. induction d; intros [|i] H; simpl; auto; try lia. apply IHd. lia. Qed.
Lemma sdiff_zero ls x y : length ls = length x -> length x = length y ->
  (forall i, (i < length x)%nat -> nth i ls 0 <> 0) -> sum_sq (scaled_diff ls x y) = 0 -> x = y.
Proof.
  revert x y. induction ls as [|l ls IH]; intros [|a x] [|b y] H1 H2 Hn Hz; simpl in H1, H2; try lia; auto.
  cbn [scaled_diff sum_sq] in Hz. pose proof (pow2_ge_0 ((a - b) / l)). pose proof (sum_sq_nonneg (scaled_diff ls x y)).
  assert (l <> 0) as Hl by (apply (Hn 0%nat); simpl; lia).
  assert (a = b) as ->.
  { destruct (Req_dec ((a - b) / l) 0) as [E|E].
    - unfold Rdiv in E. apply Rmult_integral in E as [E|E]; [lra|]. exfalso. revert E. apply Rinv_neq_0_compat. auto.
    - exfalso. pose proof (pow_nonzero ((a - b) / l) 2 E). lra. }
  f_equal. apply IH; auto.
  - intros i Hi. apply (Hn (S i)). simpl. lia.
  - lra.
Qed.

(** ** Derivatives with respect to the squared distance *)
Lemma phi_rbf u : is_derive (fun u => exp (- / 2 * u)) u (- / 2 * exp (- / 2 * u)).
Proof. auto_derive; auto. ring. Qed.
Lemma phi_half u : 0 < u -> is_derive (fun u => exp (- sqrt u)) u (- exp (- sqrt u) / (2 * sqrt u)).
Proof. intros H. pose proof (sqrt_lt_R0 u H). auto_derive; auto. field. lra. Qed.
Lemma phi_32 u : 0 < u -> is_derive (fun u => (1 + sqrt u * sqrt 3) * exp (- (sqrt u * sqrt 3))) u
  (- (3 / 2) * exp (- (sqrt u * sqrt 3))).
Proof.
  intros H. pose proof (sqrt_lt_R0 u H). auto_derive; auto.
  assert (sqrt 3 * sqrt 3 = 3) as E3 by (apply sqrt_sqrt; lra).
  set (e := exp _). set (r := sqrt u) in *. set (w := sqrt 3) in *.
  replace (- (3 / 2)) with (- (w * w / 2)) by (rewrite E3; lra). field. lra.
Qed.
Lemma phi_52 u : 0 < u -> is_derive (fun u => (1 + sqrt u * sqrt 5 + (sqrt u * sqrt 5) ^ 2 / 3) * exp (- (sqrt u * sqrt 5))) u
  (- (5 / 6) * (1 + sqrt u * sqrt 5) * exp (- (sqrt u * sqrt 5))).
Proof.
  intros H. pose proof (sqrt_lt_R0 u H). auto_derive; auto.
  assert (sqrt 5 * sqrt 5 = 5) as E5 by (apply sqrt_sqrt; lra).
  set (e := exp _). set (r := sqrt u) in *. set (w := sqrt 5) in *.
  replace (- (5 / 6)) with (- (w * w / 6)) by (rewrite E5; lra). field. lra.
Qed.
Lemma phi_sine l p u : l <> 0 -> p <> 0 -> 0 < u ->
  is_derive (fun u => exp (- 2 * (sin (PI / p * sqrt u) / l) ^ 2)) u
    (exp (- 2 * (sin (PI / p * sqrt u) / l) ^ 2) * (- 2 * (sin (PI / p * sqrt u) * cos (PI / p * sqrt u)) / l ^ 2 * (PI / (p * sqrt u)))).
Proof. intros Hl Hp H. pose proof (sqrt_lt_R0 u H). auto_derive; auto. unfold Rdiv. set (e := exp _).
  field. repeat split; auto. lra.
Qed.
Lemma phi_rq alpha u : 0 < alpha -> 0 <= u ->
  is_derive (fun u => Rpower (1 + u / (2 * alpha)) (- alpha)) u (- Rpower (u / (2 * alpha) + 1) (- alpha - 1) / 2).
Proof.
  intros Ha Hu. assert (0 <= u / (2 * alpha)) as Hq.
  { apply Rmult_le_pos; auto. left. apply Rinv_0_lt_compat. lra. }
  unfold Rpower. auto_derive; [lra|].
  replace ((- alpha - 1) * ln (u / (2 * alpha) + 1)) with (- alpha * ln (1 + u * / (2 * alpha)) + - ln (1 + u * / (2 * alpha))).
  - rewrite exp_plus, exp_Ropp, exp_ln by (unfold Rdiv in Hq; lra). unfold Rdiv in *. field. split; [lra|].
    intros E. assert (0 <= u * / (2 * alpha)) by auto. assert (1 + u * / (2 * alpha) = 0); [|lra].
    replace (1 + u * / (2 * alpha)) with ((2 * alpha + u) / (2 * alpha)) by (field; lra). rewrite E. field. lra.
  - unfold Rdiv. rewrite (Rplus_comm 1). ring.
Qed.

(** ** The distance-based kernels: a function of the squared distance *)
Section Leaf.
Variables (ls x y : list R) (i : nat).
Hypothesis H1 : length ls = length x.
Hypothesis H2 : length x = length y.
Hypothesis Hi : (i < length x)%nat.
Hypothesis Hn : nth i ls 0 <> 0.
Let u := sum_sq (scaled_diff ls x y).
Let d := nth i (scaled_diff ls x y) 0.
Let l := nth i ls 0.
Lemma leaf phi v : is_derive phi u v -> is_derive (fun t => phi (q ls x y i t)) (nth i x 0) (2 * d / l * v).
Proof.
  intros H. evar_last.
  - apply (is_derive_comp phi (q ls x y i)); [rewrite q_here; exact H|apply q_derive; auto].
  - reflexivity.
Qed.
Lemma leaf_flat phi C : u = 0 -> (forall r, Rabs (phi (r ^ 2) - phi 0) <= C * r ^ 2) ->
  is_derive (fun t => phi (q ls x y i t)) (nth i x 0) 0.
Proof.
  intros Hu H. apply (flat_derive _ _ (C / l ^ 2)). intros t. rewrite q_here. fold u. rewrite Hu.
  rewrite q_zero by auto. eapply Rle_trans; [apply H|]. right. fold l. field. auto.
Qed.
Lemma d_zero : u = 0 -> d = 0.
Proof. intros H. apply sum_sq_zero. exact H. Qed.
End Leaf.
Lemma sqrt_pow2' r : sqrt (r ^ 2) ^ 2 = r ^ 2.
Proof. apply pow2_sqrt, pow2_ge_0. Qed.
Lemma if_axes (b : bool) (r row : list R) : (if b then None else Some r) = Some row -> row = r.
Proof. destruct b; congruence. Qed.


(** A kernel that is a function [phi] of the squared scaled distance. *)
Lemma by_distance2 (phi : R -> R) ls x y f F row :
  length ls = length x -> length x = length y ->
  (forall i, (i < length x)%nat ->
     is_derive (fun t => phi (q ls x y i t)) (nth i x 0) (f (nth i (scaled_diff ls x y) 0) (nth i ls 0))) ->
  (forall i t, F (replace_coord i t x) = phi (q ls x y i t)) ->
  row = row2 f (scaled_diff ls x y) ls -> gradient F x row.
Proof.
  intros L1 Hxy HD HF ->.
  assert (length (scaled_diff ls x y) = length x) as L2 by (apply sdiff_length; auto).
  split; [rewrite row2_length; lia|]. intros i Hi. unfold partial. rewrite row2_nth by lia.
  apply (is_derive_ext (fun t => phi (q ls x y i t))); [intros t; symmetry; apply HF|apply HD; exact Hi].
Qed.
Lemma by_distance1 (phi : R -> R) ls x y f F row :
  length ls = length x -> length x = length y ->
  (forall i, (i < length x)%nat ->
     is_derive (fun t => phi (q ls x y i t)) (nth i x 0) (f (nth i (scaled_diff ls x y) 0))) ->
  (forall i t, F (replace_coord i t x) = phi (q ls x y i t)) ->
  row = map f (scaled_diff ls x y) -> gradient F x row.
Proof.
  intros L1 Hxy HD HF ->.
  assert (length (scaled_diff ls x y) = length x) as L2 by (apply sdiff_length; auto).
  split; [rewrite map_length; lia|]. intros i Hi. unfold partial. rewrite map_nth0 by lia.
  apply (is_derive_ext (fun t => phi (q ls x y i t))); [intros t; symmetry; apply HF|apply HD; exact Hi].
Qed.

Lemma sin_sq_le a : sin a ^ 2 <= a ^ 2.
Proof.
  assert (forall b, 0 <= b -> Rabs (sin b) <= b) as H.
  { intros b Hb. destruct (Rle_dec b 1) as [H1|H1].
    - destruct Hb as [Hb| <-]; [|rewrite sin_0, Rabs_R0; lra].
      pose proof (sin_lt_x b Hb). assert (0 <= sin b). { apply sin_ge_0; [lra|]. pose proof PI2_1. lra. }
      rewrite Rabs_pos_eq; lra.
    - pose proof (SIN_bound b). apply Rabs_le. lra. }
  assert (Rabs (sin a) <= Rabs a) as H1.
  { destruct (Rle_dec 0 a) as [Ha|Ha]; [rewrite (Rabs_pos_eq a Ha); auto|].
    rewrite (Rabs_left a), <- Rabs_Ropp, <- sin_neg by lra. apply H. lra. }
  rewrite <- (pow2_abs (sin a)), <- (pow2_abs a). apply pow_incr. split; [apply Rabs_pos|exact H1].
Qed.
Lemma unscaled l x y : l <> 0 ->
  sum_sq (scaled_diff (repeat 1 (length x)) x y) = l ^ 2 * sum_sq (scaled_diff (repeat l (length x)) x y).
Proof.
  intros Hl. revert y. induction x as [|a x IH]; intros [|b y]; cbn [length repeat scaled_diff sum_sq]; try ring.
  rewrite IH. field. exact Hl.
Qed.

Section Leaves.
Variables x y : list R.
Hypothesis Hxy : length x = length y.
Lemma rbf_gradient s axes row : good_scales s (length x) -> grad axes (RBF s) x y = Some row ->
  gradient (fun z => value (RBF s) z y) x row.
Proof.
  intros Hr Hg. cbn [grad] in Hg. apply if_axes in Hg.
  eapply (by_distance2 (fun u => exp (- / 2 * u))); [apply good_length; exact Hr|exact Hxy| | |exact Hg].
  - intros i Hi. pose proof (good_nth s _ i Hr Hi). evar_last.
    + apply (leaf (per_dim s (length x)) x y i (good_length _ _ Hr) Hxy Hi H (fun u => exp (- / 2 * u)) _ (phi_rbf _)).
    + cbv beta. rewrite (Rmult_comm (sum_sq _) (- / 2)). field. exact H.
  - intros i t. cbn [value]. rewrite replace_length. reflexivity.
Qed.
Lemma matern_gradient nu s axes row : regular (Matern nu s) x y -> grad axes (Matern nu s) x y = Some row ->
  gradient (fun z => value (Matern nu s) z y) x row.
Proof.
  intros [Hs Hr] Hg. pose proof (good_length _ _ Hs) as Ls.
  pose proof (fun i => good_nth s (length x) i Hs) as Hnz.
  cbn [grad] in Hg. cbv zeta in Hg.
  destruct (1 <? axes) eqn:E1; [discriminate|].
  set (ls := per_dim s (length x)) in *.
  pose proof (sum_sq_nonneg (scaled_diff ls x y)) as Hpos.
  assert (forall i t, scaled_diff (per_dim s (length (replace_coord i t x))) (replace_coord i t x) y = scaled_diff ls (replace_coord i t x) y) as Hrep.
  { intros i t. rewrite replace_length. reflexivity. }
  destruct nu as [| | |f]; [| | |contradiction].
  - assert (0 < sum_sq (scaled_diff ls x y)) as Hp.
    { destruct Hpos as [|E]; auto. exfalso. apply Hr. eapply sdiff_zero; eauto. }
    destruct ((axes =? 1) && negb (length x =? 1)); [discriminate|].
    injection Hg as Hg. symmetry in Hg.
    eapply (by_distance2 (fun u => exp (- sqrt u))); [exact Ls|exact Hxy| | |exact Hg].
    + intros i Hi. pose proof (sqrt_lt_R0 _ Hp). pose proof (Hnz i Hi) as Hni. evar_last.
      * apply (leaf ls x y i Ls Hxy Hi Hni _ _ (phi_half _ Hp)).
      * cbv beta. destruct (Req_EM_T _ _) as [E|E]; [lra|]. field. split; [exact E|exact Hni].
    + intros i t. cbn [value]. rewrite Hrep. reflexivity.
  - injection Hg as Hg. symmetry in Hg.
    eapply (by_distance2 (fun u => (1 + sqrt u * sqrt 3) * exp (- (sqrt u * sqrt 3)))); [exact Ls|exact Hxy| | |exact Hg].
    + intros i Hi. pose proof (Hnz i Hi) as Hni. cbv beta. destruct (Req_EM_T _ _) as [E|E].
      * apply sqrt_eq_0 in E; [|exact Hpos]. evar_last.
        -- apply (leaf_flat ls x y i Ls Hxy Hi Hni (fun u => (1 + sqrt u * sqrt 3) * exp (- (sqrt u * sqrt 3))) 3 E).
           intros r. rewrite sqrt_0. pose proof (bound_32 (sqrt (r ^ 2) * sqrt 3)) as B.
           rewrite Rpow_mult_distr, sqrt_pow2', pow2_sqrt in B by lra.
           replace ((1 + 0 * sqrt 3) * exp (- (0 * sqrt 3))) with 1 by (rewrite Rmult_0_l, Ropp_0, exp_0; ring).
           rewrite (Rmult_comm 3). apply B. apply Rmult_le_pos; apply sqrt_pos.
        -- pose proof (d_zero _ _ _ i E) as D. cbv zeta in D. rewrite D. field. exact Hni.
      * assert (0 < sum_sq (scaled_diff ls x y)) as Hp.
        { destruct Hpos as [|F]; auto. exfalso. apply E. rewrite <- F. apply sqrt_0. }
        evar_last.
        -- apply (leaf ls x y i Ls Hxy Hi Hni _ _ (phi_32 _ Hp)).
        -- assert (sqrt 3 * sqrt 3 = 3) as E3 by (apply sqrt_sqrt; lra). rewrite (Rmult_comm (sqrt 3) (sqrt _)).
           set (g := exp _). set (r := sqrt _) in *. set (w := sqrt 3) in *.
           replace (- (3 / 2)) with (- (w * w / 2)) by (rewrite E3; lra). field. split; [exact E|exact Hni].
    + intros i t. cbn [value]. rewrite Hrep. reflexivity.
  - injection Hg as Hg. symmetry in Hg.
    eapply (by_distance2 (fun u => (1 + sqrt u * sqrt 5 + (sqrt u * sqrt 5) ^ 2 / 3) * exp (- (sqrt u * sqrt 5)))); [exact Ls|exact Hxy| | |exact Hg].
    + intros i Hi. pose proof (Hnz i Hi) as Hni. cbv beta. destruct (Req_EM_T _ _) as [E|E].
      * apply sqrt_eq_0 in E; [|exact Hpos]. evar_last.
        -- apply (leaf_flat ls x y i Ls Hxy Hi Hni (fun u => (1 + sqrt u * sqrt 5 + (sqrt u * sqrt 5) ^ 2 / 3) * exp (- (sqrt u * sqrt 5))) 10 E).
           intros r. rewrite sqrt_0. pose proof (bound_52 (sqrt (r ^ 2) * sqrt 5)) as B.
           replace ((1 + 0 * sqrt 5 + (0 * sqrt 5) ^ 2 / 3) * exp (- (0 * sqrt 5))) with 1 by (rewrite Rmult_0_l, Ropp_0, exp_0; field).
           eapply Rle_trans; [apply B; apply Rmult_le_pos; apply sqrt_pos|].
           rewrite Rpow_mult_distr, sqrt_pow2', pow2_sqrt by lra. lra.
        -- pose proof (d_zero _ _ _ i E) as D. cbv zeta in D. rewrite D. field. exact Hni.
      * assert (0 < sum_sq (scaled_diff ls x y)) as Hp.
        { destruct Hpos as [|F]; auto. exfalso. apply E. rewrite <- F. apply sqrt_0. }
        evar_last.
        -- apply (leaf ls x y i Ls Hxy Hi Hni _ _ (phi_52 _ Hp)).
        -- cbv zeta. assert (sqrt 5 * sqrt 5 = 5) as E5 by (apply sqrt_sqrt; lra). rewrite (Rmult_comm (sqrt 5) (sqrt _)).
           pose proof (sqrt_sqrt _ Hpos) as Hq. set (u := sum_sq _) in *.
           set (g := exp _). set (r := sqrt u) in *. set (w := sqrt 5) in *. rewrite <- Hq.
           apply Rminus_diag_uniq. transitivity (g * (nth i (scaled_diff ls x y) 0 / nth i ls 0) * (w * w - 5)); [field; split; [exact Hni|exact E]|].
           rewrite E5. ring.
    + intros i t. cbn [value]. rewrite Hrep. reflexivity.
Qed.
Lemma rq_gradient l alpha axes row : l <> 0 -> 0 < alpha -> grad axes (RationalQuadratic l alpha) x y = Some row ->
  gradient (fun z => value (RationalQuadratic l alpha) z y) x row.
Proof.
  intros Hl Ha Hg. cbn [grad] in Hg. cbv zeta in Hg. apply if_axes in Hg.
  set (ls := repeat l (length x)) in *.
  assert (length ls = length x) as Ls by apply repeat_length.
  eapply (by_distance1 (fun u => Rpower (1 + u / (2 * alpha)) (- alpha)) ls); [exact Ls|exact Hxy| | |exact Hg].
  - intros i Hi. assert (nth i ls 0 = l) as En by (apply nth_repeat1; exact Hi).
    assert (nth i ls 0 <> 0) as Hni by (rewrite En; exact Hl). evar_last.
    + apply (leaf ls x y i Ls Hxy Hi Hni _ _ (phi_rq alpha _ Ha (sum_sq_nonneg _))).
    + cbv beta. rewrite En. field. exact Hl.
  - intros i t. cbn [value]. f_equal. f_equal. unfold q. rewrite (unscaled l) by exact Hl.
    rewrite replace_length. fold ls. field. split; [lra|exact Hl].
Qed.
Lemma sine_gradient l p axes row : l <> 0 -> p <> 0 -> grad axes (ExpSineSquared l p) x y = Some row ->
  gradient (fun z => value (ExpSineSquared l p) z y) x row.
Proof.
  intros Hl Hp0 Hg. cbn [grad] in Hg. cbv zeta in Hg. apply if_axes in Hg.
  set (ls := repeat 1 (length x)) in *.
  assert (length ls = length x) as Ls by apply repeat_length.
  pose proof (sum_sq_nonneg (scaled_diff ls x y)) as Hpos.
  eapply (by_distance1 (fun u => exp (- 2 * (sin (PI / p * sqrt u) / l) ^ 2)) ls); [exact Ls|exact Hxy| | |exact Hg].
  - intros i Hi. assert (nth i ls 0 = 1) as En by (apply nth_repeat1; exact Hi).
    assert (nth i ls 0 <> 0) as Hni by (rewrite En; lra). cbv beta. destruct (Req_EM_T _ _) as [E|E].
    + apply sqrt_eq_0 in E; [|exact Hpos]. evar_last.
      * apply (leaf_flat ls x y i Ls Hxy Hi Hni (fun u => exp (- 2 * (sin (PI / p * sqrt u) / l) ^ 2)) (2 * (PI / p / l) ^ 2) E).
        intros r. rewrite sqrt_0, Rmult_0_r, sin_0.
        replace (- 2 * (0 / l) ^ 2) with 0 by (field; exact Hl). rewrite exp_0.
        set (a := 2 * (sin (PI / p * sqrt (r ^ 2)) / l) ^ 2).
        replace (- 2 * (sin (PI / p * sqrt (r ^ 2)) / l) ^ 2) with (- a) by (unfold a; ring).
        assert (0 <= a) as Ha by (unfold a; pose proof (pow2_ge_0 (sin (PI / p * sqrt (r ^ 2)) / l)); lra).
        pose proof (bound_sin a Ha) as B. rewrite Rabs_left1 by lra.
        apply Rle_trans with a; [lra|]. unfold a. rewrite Rmult_assoc. apply Rmult_le_compat_l; [lra|].
        replace ((PI / p / l) ^ 2 * r ^ 2) with ((PI / p * sqrt (r ^ 2) / l) ^ 2).
        -- unfold Rdiv at 1 3. rewrite !Rpow_mult_distr with (y := / l). apply Rmult_le_compat_r; [apply pow2_ge_0|]. apply sin_sq_le.
        -- rewrite <- (sqrt_pow2' r) at 2. field. auto.
      * ring.
    + assert (0 < sum_sq (scaled_diff ls x y)) as Hp.
      { destruct Hpos as [|F]; auto. exfalso. apply E. rewrite <- F. apply sqrt_0. }
      evar_last.
      * apply (leaf ls x y i Ls Hxy Hi Hni _ _ (phi_sine l p _ Hl Hp0 Hp)).
      * rewrite En. rewrite (Rmult_comm (sqrt (sum_sq _)) (PI / p)). rewrite sin_2a.
        set (g := exp _). field. auto.
  - intros i t. cbn [value]. rewrite replace_length. reflexivity.
Qed.
End Leaves.

(** ** Sums, products, powers *)
Lemma inner_replace x y i t : length x = length y -> (i < length x)%nat ->
  inner (replace_coord i t x) y = inner x y + (t - nth i x 0) * nth i y 0.
Proof.
  revert y i. induction x as [|a x IH]; intros [|b y] [|i] H1 H2; simpl in *; try lia; [ring|].
  rewrite IH by lia. ring.
Qed.
Lemma nth_zero {A} (l : list A) i : nth i (map (fun _ => 0) l) 0 = 0.
Proof. revert i. induction l; intros [|i]; simpl; auto. Qed.
Lemma npow_derive f t v e : is_derive f t v -> match e with Nat n => n <> 0%nat | Real _ => 0 < f t end ->
  is_derive (fun t => npow (f t) e) t
    (match e with Nat n => INR n * f t ^ (n - 1) * v | Real r => r * Rpower (f t) (r - 1) * v end).
Proof.
  intros Hf He. destruct e as [n|r]; cbn [npow].
  - evar_last; [apply is_derive_pow; exact Hf|]. rewrite Nat.sub_1_r. ring.
  - evar_last.
    + apply (is_derive_comp (fun u => Rpower u r) f t); [|exact Hf]. unfold Rpower. auto_derive; [exact He|reflexivity].
    + cbv beta. unfold scal; simpl; unfold mult; simpl. unfold Rpower.
      replace ((r - 1) * ln (f t)) with (r * ln (f t) + - ln (f t)) by ring.
      rewrite exp_plus, exp_Ropp, exp_ln by exact He. field. lra.
Qed.

(** Whatever [gradient_x] returns is the gradient of the kernel with respect to its first argument. *)
Theorem C66_gradient :
  forall k axes x y row, length x = length y -> regular k x y -> grad axes k x y = Some row ->
    gradient (fun z => value k z y) x row.
Proof.
  induction k as [s|nu s|l alpha|l p|c| |s0|k1 IH1 k2 IH2|k1 IH1 k2 IH2|k IH e]; intros axes x y row Hxy Hr Hg.
  - eapply rbf_gradient; eauto.
  - eapply matern_gradient; eauto.
  - destruct Hr. eapply rq_gradient; eauto.
  - destruct Hr. eapply sine_gradient; eauto.
  - injection Hg as <-. split; [rewrite map_length; auto|]. intros i Hi. unfold partial. rewrite nth_zero.
    cbn [value]. apply @is_derive_const.
  - injection Hg as <-. split; [rewrite map_length; auto|]. intros i Hi. unfold partial. rewrite nth_zero.
    cbn [value]. apply @is_derive_const.
  - injection Hg as <-. split; [auto|]. intros i Hi. unfold partial. cbn [value].
    apply (is_derive_ext (fun t => inner x y + (t - nth i x 0) * nth i y 0 + s0 ^ 2)).
    + intros t. rewrite inner_replace; auto.
    + auto_derive; auto. ring.
  - cbn [grad] in Hg. destruct Hr as [R1 R2].
    destruct (grad axes k1 x y) as [r1|] eqn:G1; [|discriminate].
    destruct (grad axes k2 x y) as [r2|] eqn:G2; [|discriminate].
    injection Hg as <-. destruct (IH1 _ _ _ _ Hxy R1 G1) as [L1 D1]. destruct (IH2 _ _ _ _ Hxy R2 G2) as [L2 D2].
    split; [rewrite row2_length; lia|]. intros i Hi. unfold partial. rewrite row2_nth by lia. cbn [value].
    apply @is_derive_plus; [apply D1|apply D2]; exact Hi.
  - cbn [grad] in Hg. destruct Hr as [R1 R2]. destruct ((0 <? axes)%nat && _); [discriminate|].
    destruct (grad (S axes) k1 x y) as [r1|] eqn:G1; [|destruct (grad (S axes) k2 x y); discriminate].
    destruct (grad (S axes) k2 x y) as [r2|] eqn:G2; [|discriminate].
    injection Hg as <-. destruct (IH1 _ _ _ _ Hxy R1 G1) as [L1 D1]. destruct (IH2 _ _ _ _ Hxy R2 G2) as [L2 D2].
    split; [rewrite row2_length; rewrite !map_length; lia|]. intros i Hi. unfold partial.
    rewrite row2_nth, !map_nth0 by (rewrite ?map_length; lia). cbn [value]. evar_last.
    + apply (is_derive_mult (fun t => value k1 (replace_coord i t x) y) (fun t => value k2 (replace_coord i t x) y)); [apply D1; exact Hi|apply D2; exact Hi|].
      intros a b. apply Rmult_comm.
    + rewrite replace_same by lia. unfold plus, mult; simpl. ring.
  - cbn [grad] in Hg. destruct Hr as [R1 He]. destruct ((0 <? axes)%nat && _); [discriminate|].
    destruct (grad axes k x y) as [r|] eqn:G1; [|discriminate]. injection Hg as <-.
    destruct (IH _ _ _ _ Hxy R1 G1) as [L1 D1]. split; [rewrite map_length; lia|]. intros i Hi. unfold partial.
    rewrite map_nth0 by lia. cbn [value].
    pose proof (npow_derive (fun t => value k (replace_coord i t x) y) (nth i x 0) (nth i r 0) e (D1 i Hi)) as HN.
    cbv beta in HN. rewrite replace_same in HN by lia. apply HN. exact He.
Qed.

(** All the training points: one row each, in order. *)
Theorem C66_all_rows :
  forall k x X rows, gradient_x k x X = Some rows -> List.Forall (fun y => length x = length y /\ regular k x y) X ->
    List.Forall2 (fun y row => gradient (fun z => value k z y) x row) X rows.
Proof.
  intros k x X. induction X as [|y X IH]; intros rows H HX; cbn [gradient_x fold_right] in H.
  - injection H as <-. constructor.
  - fold (gradient_x k x X) in H. destruct (grad 0 k x y) as [r|] eqn:G; [|discriminate].
    destruct (gradient_x k x X) as [l|] eqn:GX; [|discriminate]. injection H as <-.
    inversion HX as [|? ? [E R] HX']; subst. constructor; [eapply C66_gradient; eauto|apply IH; auto].
Qed.

(** ** When there is a gradient *)
(** No product inside a product, no power inside a product, no Matern kernel with [nu] = 1/2 inside a
    product, no [nu] without gradient. *)
Fixpoint simple (inside : bool) (k : kernel) : Prop :=
  match k with
  | Matern (Other _) _ => False
  | Matern Half _ => inside = false
  | Sum k1 k2 => simple inside k1 /\ simple inside k2
  | Product k1 k2 => inside = false /\ simple true k1 /\ simple true k2
  | Exponentiation k _ => inside = false /\ simple false k
  | _ => True
  end.
Theorem C66_exists :
  forall k x y, simple false k -> exists row, grad 0 k x y = Some row.
Proof.
  assert (forall k x y b, simple b k -> exists row, grad (if b then 1 else 0) k x y = Some row) as H.
  { induction k as [s|nu s|l alpha|l p|c| |s0|k1 IH1 k2 IH2|k1 IH1 k2 IH2|k IH e]; intros x y b Hs.
    1: destruct b; cbn; eauto.
    1: destruct nu; cbn in Hs; subst; try contradiction; [cbn; eauto|destruct b; cbn; eauto|destruct b; cbn; eauto].
    1-5: destruct b; cbn; eauto.
    - destruct Hs as [S1 S2]. destruct (IH1 x y b S1) as [r1 E1], (IH2 x y b S2) as [r2 E2].
      cbn [grad]. rewrite E1, E2. cbn. eauto.
    - destruct Hs as [-> [S1 S2]]. destruct (IH1 x y true S1) as [r1 E1], (IH2 x y true S2) as [r2 E2].
      cbn [grad]. cbn [Nat.ltb Nat.leb andb]. rewrite E1, E2. cbn. eauto.
    - destruct Hs as [-> S1]. destruct (IH x y false S1) as [r E1]. cbn [grad]. cbn [Nat.ltb Nat.leb andb].
      rewrite E1. cbn. eauto. }
  intros k x y Hs. exact (H k x y false Hs).
Qed.
(** Both together, for a kernel of the kind [GPry] builds. *)
Example C66_example :
  let k := Sum (Product (ConstantKernel 2) (RBF (Aniso [1; 2]))) (Exponentiation (Matern ThreeHalves (Iso 1)) (Nat 2)) in
  exists row, grad 0 k [1; 0] [0; 0] = Some row /\ gradient (fun z => value k z [0; 0]) [1; 0] row.
Proof.
  intros k. destruct (C66_exists k [1; 0] [0; 0]) as [row E]; [cbn; auto|].
  exists row. split; [exact E|]. apply (C66_gradient k 0 [1; 0] [0; 0] row eq_refl); [|exact E].
  cbn. repeat split; auto; try lra; try lia. intros l [<-|[<-|[]]]; lra.
Qed.
Example C66_example_value :
  exists row, grad 0 (Product (ConstantKernel 2) (RBF (Iso 1))) (1 :: nil) (0 :: nil) = Some row /\ nth 0 row 0 = - 2 * exp (- / 2).
Proof.
  eexists. split; [reflexivity|]. cbn. replace (((1 - 0) / 1 * ((1 - 0) / 1 * 1) + 0) * - / 2) with (- / 2) by field.
  field.
Qed.
(** At the training point itself, where the distance is 0. *)
Example C66_example_zero :
  exists row, grad 0 (Matern ThreeHalves (Iso 1)) (1 :: nil) (1 :: nil) = Some row /\
    gradient (fun z => value (Matern ThreeHalves (Iso 1)) z (1 :: nil)) (1 :: nil) row.
Proof.
  eexists. split; [reflexivity|]. apply (C66_gradient _ 0); [reflexivity|cbn; split; auto; lra|reflexivity].
Qed.

(** ** Kernels with a derivative for which [gradient_x] gives nothing usable *)
(** A product of a product, whatever the points, unless the inner product is one of constant kernels. *)
Theorem C66_nested_product_refuted :
  (forall k1 k2 k3 x y, flat k1 && flat k2 = false -> grad 0 (Product (Product k1 k2) k3) x y = None) /\
  exists k1 k2 k3 x y, length x = length y /\ flat k1 && flat k2 = false /\
    regular (Product (Product k1 k2) k3) x y.
Proof.
  split.
  - intros k1 k2 k3 x y H. cbn [grad Nat.ltb Nat.leb andb]. rewrite H. cbn [negb].
    destruct (grad 1 k3 x y); reflexivity.
  - exists (ConstantKernel 2), (RBF (Iso 1)), (RBF (Iso 3)), [1; 0], [0; 0].
    cbn. repeat split; auto; lra.
Qed.
Example C66_constant_product_case : exists row, grad 0 (Product (Product (ConstantKernel 2) (WhiteKernel 1)) (RBF (Iso 3))) [1; 0] [0; 0] = Some row.
Proof. eexists. reflexivity. Qed.
(** A power as a factor of a product. *)
Theorem C66_power_in_product_refuted :
  exists k x y, length x = length y /\ regular k x y /\ grad 0 k x y = None.
Proof.
  exists (Product (ConstantKernel 2) (Exponentiation (RBF (Iso 1)) (Nat 2))), [1; 0], [0; 0].
  cbn. repeat split; auto; lra.
Qed.
(** A Matern kernel with [nu] = 1/2 as a factor, in two dimensions, though it works on its own. *)
Theorem C66_matern_in_product_refuted :
  exists k x y, length x = length y /\ regular (Product (ConstantKernel 2) k) x y /\
    grad 0 (Product (ConstantKernel 2) k) x y = None /\ exists row, grad 0 k x y = Some row.
Proof.
  exists (Matern Half (Iso 1)), [1; 0], [0; 0]. cbn. repeat split; eauto; try lra.
  intros E. injection E. lra.
Qed.

(** Where that kernel is not differentiable, at its training points, [gradient_x] still returns numbers. *)
Theorem C66_kink_refuted :
  exists k x y row, length x = length y /\ grad 0 k x y = Some row /\ forall v, ~ partial (fun z => value k z y) x 0 v.
Proof.
  exists (Matern Half (Iso 1)), (0 :: nil), (0 :: nil). eexists. split; [reflexivity|]. split; [reflexivity|].
  intros v H. unfold partial in H. cbn in H.
  assert (forall t, exp (- sqrt ((t - 0) / 1 * ((t - 0) / 1 * 1) + 0)) = exp (- Rabs t)) as E.
  { intros t. f_equal. f_equal. rewrite <- sqrt_Rsqr_abs. f_equal. unfold Rsqr. field. }
  apply (is_derive_ext _ (fun t => exp (- Rabs t))) in H; [|exact E].
  (* compose with the logarithm *)
  assert (is_derive (fun t => ln (exp (- Rabs t))) 0 (/ exp (- Rabs 0) * v)) as H1.
  { evar_last; [apply (is_derive_comp ln (fun t => exp (- Rabs t)) 0); [|exact H]|].
    - apply is_derive_Reals. apply derivable_pt_lim_ln. apply exp_pos.
    - unfold scal; simpl; unfold mult; simpl. ring. }
  apply (is_derive_ext _ (fun t => - Rabs t)) in H1; [|intros t; apply ln_exp].
  apply is_derive_Reals in H1. destruct (H1 (/ 2)) as [delta Hd]; [lra|].
  assert (0 < delta) as Hpos by apply cond_pos.
  pose proof (Hd (delta / 2)) as D1. pose proof (Hd (- (delta / 2))) as D2.
  rewrite !Rplus_0_l, Rabs_R0, Ropp_0, !Rminus_0_r in D1, D2.
  rewrite Rabs_Ropp in D2. rewrite !(Rabs_pos_eq (delta / 2)) in D1, D2 by lra.
  specialize (D1 ltac:(lra) ltac:(lra)). specialize (D2 ltac:(lra) ltac:(lra)).
  replace (- (delta / 2) / (delta / 2)) with (-1) in D1 by (field; lra).
  replace (- (delta / 2) / - (delta / 2)) with 1 in D2 by (field; lra).
  apply Rabs_def2 in D1. apply Rabs_def2 in D2. lra.
Qed.

Print Assumptions C66_gradient.
Print Assumptions C66_all_rows.
Print Assumptions C66_exists.
Print Assumptions C66_nested_product_refuted.
Print Assumptions C66_power_in_product_refuted.
Print Assumptions C66_matern_in_product_refuted.
Print Assumptions C66_kink_refuted.

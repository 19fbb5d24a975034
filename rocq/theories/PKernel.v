(** Lemmas about the derivatives of the kernels. *)
From Coq Require Import Lra Lia.
From Verif Require Import MKernel SKernel.
Set Default Goal Selector "!". Set Bullet Behavior "Strict Subproofs".

Lemma replace_length i t x : length (replace_coord i t x) = length x.
Proof. revert i. induction x as [|a x IH]; intros [|i]; simpl; auto. Qed.
Lemma replace_same i x : replace_coord i (nth i x 0) x = x.
Proof. revert i. induction x as [|a x IH]; intros [|i]; simpl; auto. rewrite IH. reflexivity. Qed.
Lemma row2_length f a b : length a = length b -> length (row2 f a b) = length a.
Proof. intros H. unfold row2. rewrite map_length, combine_length. lia. Qed.
Lemma row2_nth f a b i : length a = length b -> (i < length a)%nat ->
  nth i (row2 f a b) 0 = f (nth i a 0) (nth i b 0).
Proof.
  intros H Hi. unfold row2. rewrite (nth_indep _ 0 ((fun p => f (fst p) (snd p)) (0, 0))).
  - rewrite (map_nth (fun p => f (fst p) (snd p))). rewrite combine_nth; [reflexivity|auto].
  - rewrite map_length, combine_length. lia.
Qed.
Lemma map_nth0 (f : R -> R) l i : (i < length l)%nat -> nth i (map f l) 0 = f (nth i l 0).
Proof. intros H. rewrite (nth_indep _ 0 (f 0)) by (rewrite map_length; auto). apply map_nth. Qed.

Lemma sdiff_length ls x y : length ls = length x -> length x = length y -> length (scaled_diff ls x y) = length x.
Proof.
  revert x y. induction ls as [|l ls IH]; intros [|a x] [|b y] H1 H2; simpl in *; auto; discriminate.
Qed.
Lemma sum_sq_nonneg v : 0 <= sum_sq v.
Proof. induction v as [|a v IH]; cbn [sum_sq]; [lra|]. pose proof (pow2_ge_0 a). lra. Qed.
Lemma per_dim_length s d : (forall ls, s = Aniso ls -> length ls = d) -> length (per_dim s d) = d.
Proof. destruct s; simpl; auto. intros _. apply repeat_length. Qed.

(** The squared distance, as a function of one coordinate. *)
Definition q ls x y i t : R := sum_sq (scaled_diff ls (replace_coord i t x) y).
Lemma q_derive ls x y i : length ls = length x -> length x = length y -> (i < length x)%nat -> nth i ls 0 <> 0 ->
  is_derive (q ls x y i) (nth i x 0) (2 * nth i (scaled_diff ls x y) 0 / nth i ls 0).
Proof.
  unfold q. revert x y i. induction ls as [|l ls IH]; intros [|a x] [|b y] i H1 H2 Hi Hn; simpl in H1, H2, Hi; try lia.
  destruct i as [|i].
  - cbn [nth] in *. cbn [scaled_diff sum_sq replace_coord]. auto_derive; auto. cbn [nth]. field. auto.
  - cbn [nth] in *. cbn [scaled_diff sum_sq replace_coord].
    evar_last.
    + apply (is_derive_plus (fun _ => ((a - b) / l) ^ 2)); [apply is_derive_const|apply IH; lia || auto].
    + unfold plus, zero. simpl. ring.
Qed.
Lemma q_here ls x y i : q ls x y i (nth i x 0) = sum_sq (scaled_diff ls x y).
Proof. unfold q. rewrite replace_same. reflexivity. Qed.

(** A function that differs from its value by at most a multiple of the square has derivative 0. *)
Lemma flat_derive f x0 C : (forall t, Rabs (f t - f x0) <= C * (t - x0) ^ 2) -> is_derive f x0 0.
Proof.
  intros H. apply is_derive_Reals. intros eps Heps.
  assert (0 <= C) as HC.
  { specialize (H (x0 + 1)). pose proof (Rabs_pos (f (x0 + 1) - f x0)). replace (x0 + 1 - x0) with 1 in H by ring. lra. }
  assert (0 < eps / (C + 1)) as Hd by (apply Rdiv_lt_0_compat; lra).
  exists (mkposreal _ Hd). intros h Hh Hl. simpl in Hl. rewrite Rminus_0_r.
  specialize (H (x0 + h)). replace (x0 + h - x0) with h in H by ring.
  unfold Rdiv. rewrite Rabs_mult, Rabs_inv.
  assert (0 < Rabs h) as Ha by (apply Rabs_pos_lt; auto).
  assert (h ^ 2 = Rabs h * Rabs h) as E. { rewrite <- Rabs_mult. rewrite Rabs_right; [ring|]. nra. }
  rewrite E in H.
  apply Rle_lt_trans with (C * Rabs h).
  - apply Rmult_le_reg_r with (Rabs h); auto. rewrite Rmult_assoc, Rinv_l by lra. lra.
  - apply Rle_lt_trans with ((C + 1) * Rabs h); [nra|]. apply Rmult_lt_reg_l with (/ (C + 1)).
    { apply Rinv_0_lt_compat. lra. }
    rewrite <- Rmult_assoc, Rinv_l by lra. unfold Rdiv in Hl. lra.
Qed.
(** The distance when it is 0 at the point. *)
Lemma sum_sq_zero v : sum_sq v = 0 -> forall i, nth i v 0 = 0.
Proof.
  induction v as [|a v IH]; intros H i; [destruct i; reflexivity|]. cbn [sum_sq] in H.
  pose proof (pow2_ge_0 a). pose proof (sum_sq_nonneg v). assert (a ^ 2 = 0) by lra.
  destruct i as [|i]; cbn [nth]; [|apply IH; lra].
  destruct (Req_dec a 0); auto. exfalso. pose proof (pow_nonzero a 2 ltac:(auto)). auto.
Qed.
Lemma q_zero ls x y i t : length ls = length x -> length x = length y -> (i < length x)%nat -> nth i ls 0 <> 0 ->
  sum_sq (scaled_diff ls x y) = 0 -> q ls x y i t = ((t - nth i x 0) / nth i ls 0) ^ 2.
Proof.
  unfold q. revert x y i. induction ls as [|l ls IH]; intros [|a x] [|b y] i H1 H2 Hi Hn Hz; simpl in H1, H2, Hi; try lia.
  cbn [scaled_diff sum_sq] in Hz. pose proof (pow2_ge_0 ((a - b) / l)). pose proof (sum_sq_nonneg (scaled_diff ls x y)).
  destruct i as [|i]; cbn [nth scaled_diff sum_sq replace_coord] in *.
  - assert ((a - b) / l = 0) as E.
    { destruct (Req_dec ((a - b) / l) 0); auto. exfalso. pose proof (pow_nonzero ((a - b) / l) 2 ltac:(auto)). lra. }
    assert (a = b) as ->. { unfold Rdiv in E. apply Rmult_integral in E as [E|E]; [lra|].
      exfalso. revert E. apply Rinv_neq_0_compat. auto. }
    assert (sum_sq (scaled_diff ls x y) = 0) as -> by lra. ring.
  - rewrite IH; auto; try lia; try lra.
Qed.

(** ** Functions of the distance that are flat at 0 *)
Lemma exp_ge s : 1 + s <= exp s.
Proof. destruct (Req_dec s 0) as [->|H]; [rewrite exp_0; lra|]. left. apply exp_ineq1. auto. Qed.
Lemma exp_neg_le s : 0 <= s -> (1 + s) * exp (- s) <= 1.
Proof.
  intros H. rewrite exp_Ropp. pose proof (exp_ge s). pose proof (exp_pos s).
  apply Rmult_le_reg_r with (exp s); auto. rewrite Rmult_assoc, Rinv_l by lra. lra.
Qed.
Lemma bound_32 s : 0 <= s -> Rabs ((1 + s) * exp (- s) - 1) <= s ^ 2.
Proof.
  intros H. pose proof (exp_neg_le s H). pose proof (exp_ge (- s)). apply Rabs_le. split; [|nra].
  assert ((1 + s) * (1 + - s) <= (1 + s) * exp (- s)) by (apply Rmult_le_compat_l; lra). nra.
Qed.
Lemma bound_52 s : 0 <= s -> Rabs ((1 + s + s ^ 2 / 3) * exp (- s) - 1) <= 2 * s ^ 2.
Proof.
  intros H. pose proof (exp_neg_le s H). pose proof (exp_ge (- s)). pose proof (exp_pos (- s)).
  assert (exp (- s) <= 1). { rewrite <- exp_0. destruct H as [H| <-]; [left; apply exp_increasing; lra|rewrite Ropp_0; lra]. }
  assert ((1 + s) * (1 + - s) <= (1 + s) * exp (- s)) by (apply Rmult_le_compat_l; lra).
  apply Rabs_le. split; nra.
Qed.
Lemma bound_sin a : 0 <= a -> 0 <= 1 - exp (- a) <= a.
Proof.
  intros H. pose proof (exp_ge (- a)). split; [|lra].
  assert (exp (- a) <= 1); [|lra]. rewrite <- exp_0. destruct H as [H| <-]; [left; apply exp_increasing; lra|rewrite Ropp_0; lra].
Qed.

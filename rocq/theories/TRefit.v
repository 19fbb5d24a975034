(** Property C104: predictions after a fit. *)
From Coq Require Import Lra Lia.
From Verif Require Import MKernel MLinAlg MHyper MRefit SHyper PHyper THyper SLinAlg PGp TLinAlg TPsd.
Import ListNotations.
Set Default Goal Selector "!". Set Bullet Behavior "Strict Subproofs".
Open Scope R_scope.

(** The surrogate is the Gaussian process of its hyperparameters and training set. *)
Definition consistent (sm : R -> smoothness) (s : surrogate) : Prop :=
  exists k g, s_kernel s = Some k /\ s_gp s = Some g /\ update_model (value (as_kernel sm k)) (s_X s) (s_noise s) (s_y s) = Some g.

(** After a fit that returns, with new points, the surrogate is the process of its new hyperparameters: it interpolates its
    training set where there is no noise. *)
Theorem C104_interpolates : forall sm s custom runs draw n cur s' i x t, sizes (s_X s) (s_noise s) (s_y s) -> s_new s <> O ->
  refit sm s custom runs draw n cur = (s', Ok tt) ->
  nth_error (s_X s) i = Some x -> nth_error (s_noise s) i = Some 0 -> nth_error (s_y s) i = Some t ->
  consistent sm s' /\ s_X s' = s_X s /\ s_y s' = s_y s /\ mean_at sm s' x = Some t.
Proof.
  intros sm s custom runs draw n cur s' i x t Hsz Hn H Hx Hz Ht. unfold refit in H.
  destruct (fit_kernel (s_k0 s) (s_kernel s) custom runs draw n cur) as [k' [u|]]; [|discriminate]. destruct k' as [k|]; [|discriminate].
  replace (Nat.eqb (s_new s) 0) with false in H by (symmetry; apply Nat.eqb_neq; exact Hn).
  destruct (update_model (value (as_kernel sm k)) (s_X s) (s_noise s) (s_y s)) as [g|] eqn:E; [|discriminate]. injection H as <-.
  split; [exists k, g; auto|]. repeat split. unfold mean_at. cbn [s_kernel s_gp s_X]. f_equal.
  exact (proj1 (C27_interpolates (value (as_kernel sm k)) (value_symmetric _) (s_X s) (s_noise s) (s_y s) g i x t Hsz E Hx Hz Ht)).
Qed.

(** One training point, a constant kernel between 1 and 4, no noise. *)
Definition C1 (c : R) : kern := KConst c (BRows (1, 4) []).
Definition fitted (g : gp) (new : nat) : surrogate := Surrogate (C1 1) (Some (C1 1)) (Some g) [[0]] [1] [0] new.
Lemma C1_gp : exists g, update_model (value (ConstantKernel 1)) [[0]] [0] [1] = Some g.
Proof.
  unfold update_model, kernel_inverse, kernel_matrix. cbn. unfold cholesky, cholesky_step. cbn.
  match goal with |- context [Rlt_dec ?a ?b] => destruct (Rlt_dec a b) as [H|H] end; [eauto|]. exfalso. apply H. unfold dot, forward; cbn; lra.
Qed.
Lemma C1_bounds c : bounds (C1 c) = Ok [(ln 1, ln 4)].
Proof. reflexivity. Qed.
Lemma ln_1_4 : ln 1 <= ln 4. Proof. left. apply ln_increasing; lra. Qed.
Lemma C1_mean sm g c : consistent sm (fitted g 0) ->
  mean_at sm (Surrogate (C1 1) (Some (C1 c)) (Some g) [[0]] [1] [0] 0) [0] = Some c.
Proof.
  intros (k & g' & Hk & Hg & E). injection Hk as <-. injection Hg as <-. cbn [as_kernel C1 s_X s_noise s_y fitted] in E.
  destruct (C27_interpolates (value (ConstantKernel 1)) (value_symmetric _) [[0]] [0] [1] g 0 [0] 1 ltac:(split; reflexivity) E eq_refl eq_refl eq_refl) as [M _].
  unfold mean_at. cbn [s_kernel s_gp s_X as_kernel C1]. f_equal. unfold gp_mean in *. cbn [map value] in *.
  destruct (g_alpha g) as [|a [|b l]]; cbn in M |- *; [lra|..]; (assert (Ea : a = 1) by lra; rewrite Ea; ring).
Qed.
Lemma corners_1_4 i s : corners i s [(ln 1, ln 4)] = Run [[ln 1]; [ln 4]] (Ok ([ln 4], 0)).
Proof.
  unfold corners. cbn [forallb fst snd map]. destruct (Rle_dec (ln 1) (ln 4)) as [H|H]; [reflexivity|]. exfalso. apply H, ln_1_4.
Qed.
Lemma C1_theta c : theta (C1 c) = Ok [ln c].
Proof. reflexivity. Qed.
Lemma C1_set c v : set_theta (C1 c) [v] = (C1 (exp v), Ok tt).
Proof. reflexivity. Qed.
Lemma C1_fit : fit_kernel (C1 1) (Some (C1 1)) None corners (fun _ => []) 1 true = (Some (C1 (exp (ln 4))), Ok tt).
Proof.
  unfold fit_kernel. rewrite C1_theta, C1_bounds. cbn [length Nat.eqb orb optimise andb]. rewrite C1_theta, corners_1_4.
  cbn [o_evals o_end evaluate]. rewrite !C1_set. reflexivity.
Qed.
Example C104_case : forall sm, exists g s', consistent sm (fitted g 1) /\ refit sm (fitted g 1) None corners (fun _ => []) 1 true = (s', Ok tt) /\ mean_at sm s' [0] = Some 1.
Proof.
  intros sm. destruct C1_gp as [g Eg]. exists g.
  assert (H : exists s', refit sm (fitted g 1) None corners (fun _ => []) 1 true = (s', Ok tt)).
  { unfold refit. cbn [s_k0 s_kernel fitted]. rewrite C1_fit. cbn [s_new Nat.eqb s_X s_noise s_y as_kernel C1].
    assert (H : exists g', update_model (value (ConstantKernel (exp (ln 4)))) [[0]] [0] [1] = Some g').
    { unfold update_model, kernel_inverse, kernel_matrix. cbn. unfold cholesky, cholesky_step. cbn.
      match goal with |- context [Rlt_dec ?a ?b] => destruct (Rlt_dec a b) as [H|H] end; [eauto|]. exfalso. apply H. unfold dot, forward; cbn. rewrite exp_ln by lra. lra. }
    destruct H as [g' Hg']. eexists. cbn [value] in Hg' |- *. change (s_X (fitted g 1)) with [[0]]; change (s_noise (fitted g 1)) with [0]; change (s_y (fitted g 1)) with [1]; change (s_new (fitted g 1)) with 1%nat. cbn [Nat.eqb]. rewrite Hg'. reflexivity. }
  destruct H as [s' H]. exists s'. split; [exists (C1 1), g; auto|]. split; [exact H|].
  apply (C104_interpolates sm (fitted g 1) None corners (fun _ => []) 1 true s' 0 [0] 1); [split; reflexivity|discriminate|exact H|reflexivity..].
Qed.
(** Without new points, a fit that returns changes the hyperparameters only: the surrogate no longer interpolates. *)
Theorem C104_no_new_points_refuted : forall sm, exists g s', consistent sm (fitted g 0) /\ mean_at sm (fitted g 0) [0] = Some 1 /\
  refit sm (fitted g 0) None corners (fun _ => []) 1 true = (s', Ok tt) /\ mean_at sm s' [0] = Some 4.
Proof.
  intros sm. destruct C1_gp as [g Eg]. exists g. assert (HC : consistent sm (fitted g 0)) by (exists (C1 1), g; auto).
  eexists. split; [exact HC|]. split; [apply C1_mean; exact HC|]. split.
  - unfold refit. cbn [s_k0 s_kernel fitted]. rewrite C1_fit. reflexivity.
  - rewrite <- (exp_ln 4) at 2 by lra. apply (C1_mean sm g (exp (ln 4)) HC).
Qed.
(** A fit that raises in the optimiser leaves the hyperparameters of the last evaluation behind, and the surrogate wrong. *)
Definition fails : nat -> list R -> list (R * R) -> opt_run := fun _ _ _ => Run [[ln 4]] (Err RuntimeError).
Theorem C104_raised_refuted : forall sm, exists g s', consistent sm (fitted g 0) /\ mean_at sm (fitted g 0) [0] = Some 1 /\
  refit sm (fitted g 0) None fails (fun _ => []) 1 true = (s', Err RuntimeError) /\ mean_at sm s' [0] = Some 4.
Proof.
  intros sm. destruct C1_gp as [g Eg]. exists g. assert (HC : consistent sm (fitted g 0)) by (exists (C1 1), g; auto).
  eexists. split; [exact HC|]. split; [apply C1_mean; exact HC|]. split.
  - unfold refit, fit_kernel. cbn [s_k0 s_kernel fitted]. rewrite C1_theta, C1_bounds. cbn [length Nat.eqb orb optimise andb]. rewrite C1_theta.
    unfold fails. cbn [o_evals o_end evaluate]. rewrite C1_set. reflexivity.
  - rewrite <- (exp_ln 4) at 2 by lra. apply (C1_mean sm g (exp (ln 4)) HC).
Qed.
Print Assumptions C104_interpolates.
Print Assumptions C104_no_new_points_refuted.
Print Assumptions C104_raised_refuted.

(** C148: results do not depend on the order in which the parameters are listed. Over the real numbers: kernels, the surrogate with [Normalize_bounds], its gradients, distances. *)
From Coq Require Import Lra Lia.
From Verif Require Import MLml SAxes PAxes PLinAlg.
Import ListNotations.
Set Default Goal Selector "!". Set Bullet Behavior "Strict Subproofs".
Open Scope R_scope.

(** ** Kernels *)
Theorem C148_kernel : forall d p k x y, order d p -> sized d k -> length x = d -> length y = d -> value (reorder_kernel p k) (reorder p x) (reorder p y) = value k x y.
Proof. intros. apply (value_reorder d); assumption. Qed.
Theorem C148_gradient : forall d p k x X, order d p -> sized d k -> length x = d -> List.Forall (fun y => length y = d) X ->
  gradient_x (reorder_kernel p k) (reorder p x) (map (reorder p) X) = option_map (map (reorder p)) (gradient_x k x X).
Proof. intros. apply (gradient_x_reorder d); assumption. Qed.
Definition cyclic : list nat := [1; 2; 0]%nat.
Example C148_kernel_case : let k := Product (ConstantKernel 2) (RBF (Aniso [1; 2; 4])) in
  order 3 cyclic /\ sized 3 k /\ reorder_kernel cyclic k = Product (ConstantKernel 2) (RBF (Aniso [2; 4; 1])) /\ reorder cyclic [3; 5; 7] = [5; 7; 3]
  /\ value k [1; 0; 0] [0; 0; 0] = value (reorder_kernel cyclic k) [0; 0; 1] [0; 0; 0] /\ value k [1; 0; 0] [0; 0; 0] <> value k [0; 0; 1] [0; 0; 0].
Proof.
  cbv zeta. split; [unfold order, cyclic; cbn; apply Permutation_sym; apply (Permutation_cons_append [1; 2]%nat 0%nat)|]. split; [cbn; auto|]. split; [reflexivity|]. split; [reflexivity|]. split.
  - cbn. f_equal. f_equal. field.
  - cbn. intros H. apply Rmult_eq_reg_l in H; [|lra]. apply exp_inv in H. lra.
Qed.

(** ** The surrogate *)
Lemma combine_map_l {A B C} (f : A -> B) (l : list A) : forall m : list C, combine (map f l) m = map (fun q => (f (fst q), snd q)) (combine l m).
Proof. induction l as [|a l IH]; intros [|b m]; cbn; try reflexivity. f_equal. apply IH. Qed.
Lemma combine_map_r {A B C} (f : B -> C) (l : list A) : forall m : list B, combine l (map f m) = map (fun q => (fst q, f (snd q))) (combine l m).
Proof. induction l as [|a l IH]; intros [|b m]; cbn; try reflexivity. f_equal. apply IH. Qed.
Lemma matrix_map {P Q} (f : Q -> P) (k : Q -> Q -> R) (k' : P -> P -> R) X noise : (forall x y, In x X -> In y X -> k' (f x) (f y) = k x y) ->
  kernel_matrix k' (map f X) noise = kernel_matrix k X noise.
Proof.
  intros H. unfold kernel_matrix. rewrite map_length, combine_map_l, combine_map_r, map_map. apply map_ext_in. intros [i [x n]] Hi. cbn [fst snd]. f_equal. rewrite map_map.
  apply map_ext_in. intros y Hy. apply H; [|exact Hy]. apply in_combine_r in Hi. apply in_combine_l in Hi. exact Hi.
Qed.
Lemma mean_map {P Q} (f : Q -> P) (k : Q -> Q -> R) (k' : P -> P -> R) X g x : (forall y, In y X -> k' (f x) (f y) = k x y) -> gp_mean k' (map f X) g (f x) = gp_mean k X g x.
Proof. intros H. unfold gp_mean. rewrite map_map. f_equal. apply map_ext_in. exact H. Qed.
Lemma var_map {P Q} (f : Q -> P) (k : Q -> Q -> R) (k' : P -> P -> R) X g x : (forall y, In y X -> k' (f x) (f y) = k x y) -> k' (f x) (f x) = k x x ->
  gp_var k' (map f X) g (f x) = gp_var k X g x.
Proof. intros H Hx. unfold gp_var. rewrite map_map, Hx, (map_ext_in _ (k x) X) by exact H. reflexivity. Qed.

Section Surrogate.
Variables (d : nat) (p : list nat) (k : kernel) (lows widths : list R) (X : list (list R)).
Hypothesis Hp : order d p.
Hypothesis Hk : sized d k.
Hypothesis Hl : length lows = d.
Hypothesis Hw : length widths = d.
Hypothesis HX : List.Forall (fun x => length x = d) X.
Notation r := (reorder p).
Notation unit := (normalise lows widths).
Notation unit' := (normalise (r lows) (r widths)).
Notation k' := (reorder_kernel p k).
Lemma unit_length x : length x = d -> length (unit x) = d.
Proof. intros Hx. unfold normalise. rewrite scaled_diff_length; lia. Qed.
Lemma unit_reorder x : length x = d -> unit' (r x) = r (unit x).
Proof. intros Hx. unfold normalise. apply (scaled_diff_reorder d); auto. Qed.
Lemma units_reorder : map unit' (map r X) = map r (map unit X).
Proof. rewrite !map_map. apply map_ext_in. intros x Hx. apply unit_reorder. exact (proj1 (List.Forall_forall _ _) HX x Hx). Qed.
Lemma units_length : List.Forall (fun x => length x = d) (map unit X).
Proof. apply List.Forall_map. eapply List.Forall_impl; [|exact HX]. intros x Hx. apply unit_length, Hx. Qed.
Lemma in_units x : In x (map unit X) -> length x = d.
Proof. apply (proj1 (List.Forall_forall _ _) units_length). Qed.

(** The same hyperparameters get the same score, the equations have the same solution, and mean and standard deviation are the same. *)
Theorem C148_score : forall noise y, log_marginal_likelihood (value k') (map unit' (map r X)) noise y = log_marginal_likelihood (value k) (map unit X) noise y.
Proof.
  intros noise y. unfold log_marginal_likelihood. rewrite units_reorder. rewrite (matrix_map r (value k)) by (intros a b Ha Hb; apply (value_reorder d); auto using in_units).
  rewrite !map_length. reflexivity.
Qed.
Theorem C148_solution : forall m s noise y, model_of (value k') unit' m s (map r X) noise y = model_of (value k) unit m s X noise y.
Proof.
  intros m s noise y. unfold model_of, update_model. rewrite units_reorder. rewrite (matrix_map r (value k)) by (intros a b Ha Hb; apply (value_reorder d); auto using in_units).
  reflexivity.
Qed.
Theorem C148_mean : forall m s clip y g x, length x = d -> predicted_mean (value k') unit' m s clip (map r X) y g (r x) = predicted_mean (value k) unit m s clip X y g x.
Proof.
  intros m s clip y g x Hx. unfold predicted_mean. rewrite units_reorder, unit_reorder by exact Hx.
  rewrite (mean_map r (value k)) by (intros b Hb; apply (value_reorder d); auto using in_units, unit_length). reflexivity.
Qed.
Theorem C148_std : forall s g x, length x = d -> predicted_std (value k') unit' s (map r X) g (r x) = predicted_std (value k) unit s X g x.
Proof.
  intros s g x Hx. unfold predicted_std, gp_std. rewrite units_reorder, unit_reorder by exact Hx.
  rewrite (var_map r (value k)) by (intros; apply (value_reorder d); auto using in_units, unit_length). reflexivity.
Qed.
(** The components of the gradients that [predict] returns are reordered like the parameters. *)
Theorem C148_mean_gradient : forall s g x, length x = d ->
  reported_mean_grad k' s (map unit' (map r X)) g (unit' (r x)) = option_map r (reported_mean_grad k s (map unit X) g (unit x)).
Proof.
  intros s g x Hx. unfold reported_mean_grad, mean_grad. rewrite units_reorder, unit_reorder by exact Hx. pose proof (unit_length x Hx) as Hu.
  rewrite (gradient_x_reorder d) by auto using units_length. rewrite (reorder_length d) by exact Hp. rewrite Hu. destruct (gradient_x k (unit x) (map unit X)) as [G|] eqn:EG; [|reflexivity].
  pose proof (gradient_x_length d k (unit x) (map unit X) G Hk Hu units_length EG) as HG. cbn [option_map]. f_equal.
  destruct (mul_columns_reorder d p Hp G (g_alpha g) HG) as [-> L]. unfold scale. apply (reorder_map d); assumption.
Qed.
Theorem C148_std_gradient : forall s g x, length x = d ->
  reported_std_grad k' s (map unit' (map r X)) g (unit' (r x)) = option_map r (reported_std_grad k s (map unit X) g (unit x)).
Proof.
  intros s g x Hx. unfold reported_std_grad. rewrite units_reorder, unit_reorder by exact Hx. pose proof (unit_length x Hx) as Hu.
  rewrite (gradient_x_reorder d) by auto using units_length. destruct (gradient_x k (unit x) (map unit X)) as [G|] eqn:EG; [|reflexivity].
  pose proof (gradient_x_length d k (unit x) (map unit X) G Hk Hu units_length EG) as HG. cbn [option_map].
  assert (gp_std (value k') (map r (map unit X)) g (r (unit x)) = gp_std (value k) (map unit X) g (unit x)) as ->.
  { unfold gp_std. rewrite (var_map r (value k)) by (intros; apply (value_reorder d); auto using in_units). reflexivity. }
  rewrite (reorder_length d) by exact Hp. rewrite Hu. destruct (close_to_0 _); cbn [option_map]; f_equal; [symmetry; apply (reorder_repeat d); exact Hp|].
  assert (HM : forall b, mul_columns d (map r G) b = r (mul_columns d G b)) by (intros b; apply (mul_columns_reorder d); auto).
  assert (HL : List.Forall (fun c => length c = d) (map (mul_columns d G) (gram (g_V g)))) by (apply List.Forall_forall; intros c Hc; apply in_map_iff in Hc as (b & <- & _); apply (mul_columns_reorder d p Hp G b HG)).
  unfold std_product. rewrite (reorder_length d), Hu by exact Hp.
  rewrite (map_ext _ _ HM), <- (map_map (mul_columns d G) r).
  rewrite (map_map r (value k' (r (unit x)))).
  rewrite (map_ext_in (fun z => value k' (r (unit x)) (r z)) (value k (unit x))) by (intros z Hz; apply (value_reorder d); auto using in_units).
  destruct (mul_columns_reorder d p Hp _ (map (value k (unit x)) (map unit X)) HL) as [-> L].
  unfold scale. rewrite !(reorder_map d) by (auto; rewrite !map_length; exact L). reflexivity.
Qed.
End Surrogate.
(** The prediction at a point, with its two parameters exchanged. *)
Example C148_surrogate_case : let k := RBF (Aniso [1; 2]) in let g := mkGp [] [] [1] in
  order 2 [1; 0]%nat /\ sized 2 k
  /\ predicted_mean (value k) (normalise [0; 10] [1; 10]) 5 3 2 [[0; 10]] [0; 100] g [1; 30] = 3 * exp (- (1)) + 5
  /\ predicted_mean (value (reorder_kernel [1; 0]%nat k)) (normalise [10; 0] [10; 1]) 5 3 2 [[10; 0]] [0; 100] g [30; 1] = 3 * exp (- (1)) + 5.
Proof.
  cbv zeta. assert (E : exp (- (1)) < 1) by (rewrite <- exp_0 at 2; apply exp_increasing; lra).
  assert (C : forall m, m = 3 * exp (- (1)) + 5 -> Rmin m (2 * maximum [0; 100] - (2 - 1) * minimum [0; 100]) = 3 * exp (- (1)) + 5).
  { intros m ->. unfold maximum, minimum. cbn [fold_left map fold_right]. apply Rmin_left. unfold Rmax, Rmin. repeat destruct Rle_dec; lra. }
  split; [apply perm_swap|]. split; [reflexivity|]. split.
  - unfold predicted_mean. apply C. cbn. rewrite Rplus_0_r, Rmult_1_r. do 3 f_equal. field.
  - unfold predicted_mean. apply C. cbn. rewrite Rplus_0_r, Rmult_1_r. do 3 f_equal. field.
Qed.

(** ** A distance that does depend on the order *)
Theorem C148_distance_refuted : exists p v C C', order 2 p /\ length C = 2%nat /\ List.Forall (fun c => length c = 2%nat) C
  /\ C' = map (reorder p) (map (fun i => nth i C []) p)
  /\ gaussian_distance v C = Some (sqrt (5 / 4)) /\ gaussian_distance (reorder p v) C' = Some (sqrt (3 / 4)).
Proof.
  exists [1; 0]%nat, [1; 0], [[1; / 2]; [/ 2; 1]], [[1; / 2]; [/ 2; 1]].
  assert (G : forall a b, gaussian_distance [a; b] [[1; / 2]; [/ 2; 1]] = Some (sqrt (a * a + ((/ 2) * a + sqrt (3 / 4) * b) * ((/ 2) * a + sqrt (3 / 4) * b)))).
  { intros a b. unfold gaussian_distance. cbn [length seq combine map fst snd nth]. rewrite sqrt_1. unfold cholesky. cbn [fold_left cholesky_step length firstn nth forward combine].
    assert (1 / (1 * 1) = 1) as -> by field. assert (/ 2 / (1 * 1) = / 2) as -> by field. unfold forward. cbn [combine fold_left dot].
    destruct (Rlt_dec 0 (1 - 0)) as [_|H]; [|lra]. rewrite Rminus_0_r, sqrt_1. cbn [app length firstn nth combine fold_left cholesky_step forward_step fst snd dot]. unfold forward.
    cbn [app length firstn nth combine fold_left forward_step fst snd dot]. assert ((/ 2 - 0) / 1 = / 2) as -> by field. cbn [dot].
    destruct (Rlt_dec 0 (1 - (/ 2 * / 2 + 0))) as [_|H]; [|lra]. cbn [app mat_mul map fst snd dot combine]. assert (1 - (/ 2 * / 2 + 0) = 3 / 4) as -> by field. f_equal. f_equal. field. }
  split; [apply perm_swap|]. split; [reflexivity|]. split; [repeat constructor|]. split; [reflexivity|]. split.
  - rewrite G. f_equal. f_equal. field_simplify. reflexivity.
  - cbn [reorder map nth]. rewrite G. f_equal. f_equal. pose proof (sqrt_sqrt (3 / 4)). lra.
Qed.
Print Assumptions C148_kernel.
Print Assumptions C148_gradient.
Print Assumptions C148_score.
Print Assumptions C148_solution.
Print Assumptions C148_mean.
Print Assumptions C148_std.
Print Assumptions C148_mean_gradient.
Print Assumptions C148_std_gradient.
Print Assumptions C148_distance_refuted.

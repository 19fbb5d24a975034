(** Property C72: the gradients that [predict] returns, for kernels and solutions as they are computed. *)
From Coq Require Import Lra Lia.
From Verif Require Import MGrad SKernel PKernel PLinAlg SLinAlg PGp PGp2 TKernel PGrad.
Import ListNotations.
Set Default Goal Selector "!". Set Bullet Behavior "Strict Subproofs".

(** The query has the dimension of the training points, and the kernel is differentiable there. *)
Definition differentiable (K : kernel) (X : list (list R)) (x : list R) : Prop :=
  List.Forall (fun y => length x = length y /\ regular K x y) X.

Lemma affine_derive (f : R -> R) t v s m : is_derive f t v -> is_derive (fun u => s * f u + m) t (s * v).
Proof.
  intros D. evar_last.
  - apply @is_derive_plus; [apply (is_derive_scal f t s v D)|apply @is_derive_const].
  - unfold plus, zero; simpl. ring.
Qed.

(** ** The mean *)
Lemma mean_derive K X g x row i : length (g_alpha g) = length X -> differentiable K X x -> mean_grad K X g x = Some row ->
  (i < length x)%nat -> length row = length x /\ partial (gp_mean (value K) X g) x i (nth i row 0).
Proof.
  intros Ha HX H Hi. unfold mean_grad in H. destruct (gradient_x K x X) as [G|] eqn:EG; [|discriminate]. injection H as <-.
  pose proof (C66_all_rows K x X G EG HX) as HG. destruct (rows_length K X G x HG) as [L1 L2].
  split; [apply mul_columns_length; exact L2|].
  rewrite mul_columns_nth by auto. unfold partial, gp_mean.
  apply dot_derive_const; [rewrite map_length; lia|]. apply kernel_dvec; auto.
Qed.
(** In transformed coordinates, the reported gradient is the gradient of the predicted mean before clipping. *)
Theorem C72_mean_gradient :
  forall K X g x s m row, length (g_alpha g) = length X -> differentiable K X x -> reported_mean_grad K s X g x = Some row ->
    gradient (fun z => s * gp_mean (value K) X g z + m) x row.
Proof.
  intros K X g x s m row Ha HX H. unfold reported_mean_grad in H. destruct (mean_grad K X g x) as [r|] eqn:E; [|discriminate].
  injection H as <-. split.
  - rewrite scale_length. unfold mean_grad in E. destruct (gradient_x K x X) as [G|] eqn:EG; [|discriminate]. injection E as <-.
    pose proof (C66_all_rows K x X G EG HX) as HG. apply mul_columns_length. apply (rows_length K X G x HG).
  - intros i Hi. destruct (mean_derive K X g x r i Ha HX E Hi) as [_ D]. unfold partial in *. rewrite scale_nth.
    apply (affine_derive (fun t => gp_mean (value K) X g (replace_coord i t x))). exact D.
Qed.

(** *** In the coordinates of the user *)
Lemma normalise_length lows widths x : length lows = length x -> length widths = length x -> length (normalise lows widths x) = length x.
Proof. intros H1 H2. apply sdiff_length; auto. Qed.
Lemma normalise_nth lows widths x i : length lows = length x -> length widths = length x -> (i < length x)%nat ->
  nth i (normalise lows widths x) 0 = (nth i x 0 - nth i lows 0) / nth i widths 0.
Proof.
  unfold normalise. revert lows x i. induction widths as [|w widths IH]; intros [|l lows] [|a x] [|i] H1 H2 Hi; cbn in *; try lia; try discriminate; auto.
  apply IH; lia.
Qed.
Lemma normalise_replace lows widths x i t : length lows = length x -> length widths = length x -> (i < length x)%nat ->
  normalise lows widths (replace_coord i t x) = replace_coord i ((t - nth i lows 0) / nth i widths 0) (normalise lows widths x).
Proof.
  unfold normalise. revert lows x i. induction widths as [|w widths IH]; intros [|l lows] [|a x] [|i] H1 H2 Hi; cbn in *; try lia; try discriminate; auto.
  f_equal. apply IH; lia.
Qed.
Lemma partial_normalise f lows widths x i v : length lows = length x -> length widths = length x -> (i < length x)%nat -> nth i widths 0 <> 0 ->
  partial f (normalise lows widths x) i v -> partial (fun z => f (normalise lows widths z)) x i (v / nth i widths 0).
Proof.
  intros H1 H2 Hi Hw D. unfold partial in *. rewrite normalise_nth in D by auto.
  apply (is_derive_ext (fun t => f (replace_coord i ((t - nth i lows 0) / nth i widths 0) (normalise lows widths x)))).
  - intros t. rewrite normalise_replace by auto. reflexivity.
  - evar_last.
    + apply (is_derive_comp (fun u => f (replace_coord i u (normalise lows widths x))) (fun t => (t - nth i lows 0) / nth i widths 0)); [exact D|].
      instantiate (1 := / nth i widths 0). auto_derive; [auto|]. unfold Rdiv. ring.
    + unfold scal; simpl; unfold mult; simpl. unfold Rdiv. ring.
Qed.
Lemma partial_below f c x i v : partial f x i v -> f x < c -> (i < length x)%nat -> partial (fun z => Rmin (f z) c) x i v.
Proof.
  intros D Hc Hi. unfold partial in *. apply (is_derive_ext_loc (fun t => f (replace_coord i t x))); [|exact D].
  assert (continuous (fun t => f (replace_coord i t x)) (nth i x 0)) as C by (apply @ex_derive_continuous; exists v; exact D).
  assert (locally (f (replace_coord i (nth i x 0) x)) (fun y => y < c)) as L.
  { apply (open_lt c). rewrite replace_same. exact Hc. }
  specialize (C _ L). unfold filtermap in C. revert C. apply filter_imp. intros t Ht. symmetry. apply Rmin_left. lra.
Qed.
(** What the gradient of the returned mean is, with [Normalize_bounds] (or, with lower bounds 0 and widths 1, without a
    preprocessor), below the clipping. *)
Theorem C72_true_mean_gradient :
  forall K X y g lows widths x s m clip row,
    length lows = length x -> length widths = length x -> (forall w, In w widths -> w <> 0) ->
    let prX := normalise lows widths in
    length (g_alpha g) = length X -> differentiable K (map prX X) (prX x) ->
    reported_mean_grad K s (map prX X) g (prX x) = Some row ->
    predicted_mean (value K) prX m s clip X y g x < clip * maximum y - (clip - 1) * minimum y ->
    gradient (predicted_mean (value K) prX m s clip X y g) x (row2 Rdiv row widths).
Proof.
  intros K X y g lows widths x s m clip row H1 H2 Hw prX Ha HX Hr Hc.
  destruct (C72_mean_gradient K (map prX X) g (prX x) s m row) as [L D]; [rewrite map_length; exact Ha|exact HX|exact Hr|].
  assert (length (prX x) = length x) as Lp by (apply normalise_length; auto). rewrite Lp in L.
  split; [rewrite row2_length; lia|]. intros i Hi. rewrite row2_nth by lia. unfold predicted_mean.
  apply (partial_below (fun z => s * gp_mean (value K) (map prX X) g (prX z) + m)); [|unfold predicted_mean in Hc; revert Hc; apply Rmin_case; lra|exact Hi].
  apply (partial_normalise (fun z => s * gp_mean (value K) (map prX X) g z + m) lows widths x i); auto; [apply Hw, nth_In; lia|].
  apply D. rewrite Lp. exact Hi.
Qed.
Lemma partial_unique f x i v w : partial f x i v -> partial f x i w -> v = w.
Proof. intros H1 H2. unfold partial in *. rewrite <- (is_derive_unique _ _ _ H1). apply is_derive_unique. exact H2. Qed.
(** So the reported gradient is right exactly in the components that are 0 or along which the prior has width 1. *)
Theorem C72_mean_right_iff :
  forall K X y g lows widths x s m clip row,
    length lows = length x -> length widths = length x -> (forall w, In w widths -> w <> 0) ->
    let prX := normalise lows widths in
    length (g_alpha g) = length X -> differentiable K (map prX X) (prX x) ->
    reported_mean_grad K s (map prX X) g (prX x) = Some row ->
    predicted_mean (value K) prX m s clip X y g x < clip * maximum y - (clip - 1) * minimum y ->
    (gradient (predicted_mean (value K) prX m s clip X y g) x row
     <-> forall i, (i < length x)%nat -> nth i row 0 = 0 \/ nth i widths 0 = 1).
Proof.
  intros K X y g lows widths x s m clip row H1 H2 Hw prX Ha HX Hr Hc.
  destruct (C72_true_mean_gradient K X y g lows widths x s m clip row H1 H2 Hw Ha HX Hr Hc) as [L D].
  assert (length row = length x) as Lr.
  { destruct (C72_mean_gradient K (map prX X) g (prX x) s m row) as [L' _]; [rewrite map_length; exact Ha|exact HX|exact Hr|].
    rewrite L'. apply normalise_length; auto. }
  split.
  - intros [_ D'] i Hi. pose proof (partial_unique _ _ _ _ _ (D i Hi) (D' i Hi)) as E. rewrite row2_nth in E by lia.
    assert (nth i widths 0 <> 0) as Hwi by (apply Hw, nth_In; lia).
    destruct (Req_dec (nth i row 0) 0) as [|N]; [auto|]. right.
    apply (Rmult_eq_reg_l (nth i row 0)); [|exact N]. rewrite Rmult_1_r. rewrite <- E at 1. field. exact Hwi.
  - intros H. split; [exact Lr|]. intros i Hi. specialize (D i Hi). rewrite row2_nth in D by lia.
    replace (nth i row 0) with (nth i row 0 / nth i widths 0); [exact D|].
    destruct (H i Hi) as [->| ->]; [unfold Rdiv; ring|field].
Qed.

(** ** The standard deviation *)
(** For kernels with the same variance everywhere, in transformed coordinates and before scaling: what is computed is the
    gradient, where the standard deviation is not 0. *)
Lemma std_derive K X g x G i :
  stationary K = true -> differentiable K X x -> gradient_x K x X = Some G ->
  length (g_L g) = length X -> g_V g = inverse (g_L g) -> 0 < gp_var (value K) X g x -> (i < length x)%nat ->
  partial (gp_std (value K) X g) x i (- nth i (std_product K X g G x) 0 / gp_std (value K) X g x).
Proof.
  intros HK HX EG HL HV Hpos Hi.
  pose proof (C66_all_rows K x X G EG HX) as HG. destruct (rows_length K X G x HG) as [L1 L2].
  set (n := length (g_L g)) in *. set (V := g_V g) in *.
  assert (List.Forall (fun c => length c = n) V) as HVn by (rewrite HV; apply inverse_columns).
  assert (length V = n) as LV by (rewrite HV; unfold inverse; rewrite map_length, seq_length; reflexivity).
  set (kv := fun t => map (value K (replace_coord i t x)) X).
  set (kd := map (fun r => nth i r 0) G).
  assert (dvec kv (nth i x 0) kd) as Dk by (apply kernel_dvec; auto).
  assert (length V = length kd) as Lkd by (unfold kd; rewrite map_length; lia).
  pose proof (mul_columns_dvec n V kv (nth i x 0) kd HVn Lkd Dk) as DM.
  assert (forall t, gp_var (value K) X g (replace_coord i t x) = value K x x - dot (mul_columns n V (kv t)) (mul_columns n V (kv t))) as Ev.
  { intros t. unfold gp_var. rewrite (stationary_diag K (replace_coord i t x) x HK). reflexivity. }
  assert (is_derive (fun t => gp_var (value K) X g (replace_coord i t x)) (nth i x 0)
            (- 2 * dot (mul_columns n V (kv (nth i x 0))) (mul_columns n V kd))) as Dv.
  { apply (is_derive_ext (fun t => value K x x - dot (mul_columns n V (kv t)) (mul_columns n V (kv t)))); [intros t; symmetry; apply Ev|].
    evar_last.
    - apply @is_derive_minus; [apply @is_derive_const|]. apply (dot_derive _ _ _ _ _ eq_refl DM DM).
    - rewrite (dot_comm (mul_columns n V kd)). unfold minus, plus, opp, zero; simpl. ring. }
  assert (kv (nth i x 0) = map (value K x) X) as Ek by (unfold kv; rewrite replace_same; reflexivity).
  assert (nth i (std_product K X g G x) 0 = dot (mul_columns n V (kv (nth i x 0))) (mul_columns n V kd)) as Es.
  { unfold std_product. fold V. rewrite mul_columns_nth; [|apply Forall_forall; intros r Hr; apply in_map_iff in Hr; destruct Hr as (q & <- & _); apply mul_columns_length; exact L2|exact Hi].
    rewrite Ek, (dot_comm (mul_columns n V _) (mul_columns n V kd)). rewrite (dot_mul_columns n V _ _ HVn).
    f_equal. unfold gram. rewrite !map_map. apply map_ext_in. intros c Hc. rewrite mul_columns_nth by auto.
    fold kd. rewrite (dot_comm (mul_columns n V kd) c). rewrite (dot_mul_columns n V kd c HVn). apply dot_comm. }
  unfold partial. rewrite Es.
  assert (0 < gp_var (value K) X g (replace_coord i (nth i x 0) x)) as Hp' by (rewrite replace_same; exact Hpos).
  assert (continuous (fun t => gp_var (value K) X g (replace_coord i t x)) (nth i x 0)) as C by (apply @ex_derive_continuous; eexists; exact Dv).
  assert (locally (nth i x 0) (fun t => 0 < gp_var (value K) X g (replace_coord i t x))) as Lp.
  { apply C. apply (open_gt 0). exact Hp'. }
  apply (is_derive_ext_loc (fun t => sqrt (gp_var (value K) X g (replace_coord i t x)))).
  { revert Lp. apply filter_imp. intros t Ht. unfold gp_std. destruct (Rlt_dec _ 0); [lra|reflexivity]. }
  assert (gp_std (value K) X g x = sqrt (gp_var (value K) X g x)) as Est by (unfold gp_std; destruct (Rlt_dec _ 0); [lra|reflexivity]).
  rewrite Est. evar_last.
  - apply (is_derive_comp sqrt (fun t => gp_var (value K) X g (replace_coord i t x))); [|exact Dv].
    instantiate (1 := / (2 * sqrt (gp_var (value K) X g x))).
    replace (gp_var (value K) X g x) with (gp_var (value K) X g (replace_coord i (nth i x 0) x)) by (rewrite replace_same; reflexivity).
    auto_derive; [exact Hp'|]. field. apply Rgt_not_eq. apply sqrt_lt_R0. exact Hp'.
  - unfold scal; simpl; unfold mult; simpl. field. apply Rgt_not_eq. apply sqrt_lt_R0. exact Hpos.
Qed.
Lemma update_parts k (X : list (list R)) noise y g : length X = length noise -> update_model k X noise y = Some g ->
  length (g_L g) = length X /\ g_V g = inverse (g_L g) /\ (length y = length X -> length (g_alpha g) = length X).
Proof.
  intros Hn HU. destruct (update_chol k X noise y g Hn HU) as (HC & HV & Ha). pose proof (chol_length _ _ _ HC) as HT.
  rewrite combine_length, <- Hn, Nat.min_id in HT. split; [auto|]. split; [exact HV|]. intros Hy. rewrite Ha, backward_length; auto.
  - eapply chol_lower; eauto.
  - apply forward_length. lia.
Qed.
Lemma std_product_length K X G g x : List.Forall (fun r => length r = length x) G -> length (std_product K X g G x) = length x.
Proof.
  intros H. apply mul_columns_length. apply Forall_forall. intros r Hr. apply in_map_iff in Hr. destruct Hr as (q & <- & _). apply mul_columns_length. exact H.
Qed.
(** What the gradient of the returned standard deviation is, with [Normalize_bounds] and a y-preprocessor of scale [s]: the
    reported one has to be divided by [s] and by the widths. *)
Theorem C72_true_std_gradient :
  forall K X noise y g lows widths x s row,
    length lows = length x -> length widths = length x -> (forall w, In w widths -> w <> 0) ->
    let prX := normalise lows widths in
    stationary K = true -> length X = length noise -> update_model (value K) (map prX X) noise y = Some g ->
    differentiable K (map prX X) (prX x) -> 0 < s -> / 100000000 < predicted_std (value K) prX s X g x ->
    reported_std_grad K s (map prX X) g (prX x) = Some row ->
    gradient (predicted_std (value K) prX s X g) x (row2 (fun v w => v / s / w) row widths).
Proof.
  intros K X noise y g lows widths x s row H1 H2 Hw prX HK Hn HU HX Hs Hstd Hr.
  destruct (update_parts (value K) (map prX X) noise y g) as (HL & HV & _); [rewrite map_length; exact Hn|exact HU|].
  unfold reported_std_grad in Hr. unfold predicted_std in Hstd. destruct (gradient_x K (prX x) (map prX X)) as [G|] eqn:EG; [|discriminate].
  assert (close_to_0 (s * gp_std (value K) (map prX X) g (prX x)) = false) as Ec.
  { unfold close_to_0. destruct (Rle_dec _ _) as [C|]; [|reflexivity]. rewrite Rabs_right in C by lra. lra. }
  rewrite Ec in Hr. injection Hr as <-.
  pose proof (C66_all_rows K (prX x) (map prX X) G EG HX) as HG. destruct (rows_length _ _ _ _ HG) as [L1 L2].
  assert (length (prX x) = length x) as Lp by (apply normalise_length; auto).
  pose proof (std_product_length K (map prX X) G g (prX x) L2) as Lsp. rewrite Lp in Lsp.
  assert (0 < gp_std (value K) (map prX X) g (prX x)) as Hstd'.
  { assert (0 < / 100000000) by lra. apply (Rmult_lt_reg_l s); lra. }
  assert (0 < gp_var (value K) (map prX X) g (prX x)) as Hvar.
  { unfold gp_std in Hstd'. destruct (Rlt_dec _ 0) as [|N]; [rewrite sqrt_0 in Hstd'; lra|].
    destruct (Req_dec (gp_var (value K) (map prX X) g (prX x)) 0) as [E0|]; [rewrite E0, sqrt_0 in Hstd'; lra|lra]. }
  split; [rewrite row2_length, !scale_length, map_length; [lia|rewrite !scale_length, map_length; lia]|].
  intros i Hi. rewrite row2_nth; [|rewrite !scale_length, map_length; lia|rewrite !scale_length, map_length; lia].
  rewrite !scale_nth, (map_nth0 (fun v => - v / _)) by lia. unfold predicted_std.
  apply (partial_normalise (fun z => s * gp_std (value K) (map prX X) g z) lows widths x i); auto; [apply Hw, nth_In; lia|].
  assert (i < length (prX x))%nat as Hi' by lia.
  pose proof (std_derive K (map prX X) g (prX x) G i HK HX EG HL HV Hvar Hi') as D.
  pose proof (affine_derive _ _ _ s 0 D) as D2. cbv beta in D2. unfold partial.
  apply (is_derive_ext (fun u => s * gp_std (value K) (map prX X) g (replace_coord i u (prX x)) + 0)); [intros; apply Rplus_0_r|].
  evar_last; [exact D2|]. field. split; lra.
Qed.
(** So it is right exactly in the components that are 0, or where the scale of the y-preprocessor times the width of the prior
    is 1. *)
Theorem C72_std_right_iff :
  forall K X noise y g lows widths x s row,
    length lows = length x -> length widths = length x -> (forall w, In w widths -> w <> 0) ->
    let prX := normalise lows widths in
    stationary K = true -> length X = length noise -> update_model (value K) (map prX X) noise y = Some g ->
    differentiable K (map prX X) (prX x) -> 0 < s -> / 100000000 < predicted_std (value K) prX s X g x ->
    reported_std_grad K s (map prX X) g (prX x) = Some row -> length row = length x ->
    (gradient (predicted_std (value K) prX s X g) x row
     <-> forall i, (i < length x)%nat -> nth i row 0 = 0 \/ s * nth i widths 0 = 1).
Proof.
  intros K X noise y g lows widths x s row H1 H2 Hw prX HK Hn HU HX Hs Hstd Hr Lr.
  destruct (C72_true_std_gradient K X noise y g lows widths x s row H1 H2 Hw HK Hn HU HX Hs Hstd Hr) as [L D].
  split.
  - intros [_ D'] i Hi. pose proof (partial_unique _ _ _ _ _ (D i Hi) (D' i Hi)) as E. rewrite row2_nth in E by lia.
    assert (nth i widths 0 <> 0) as Hwi by (apply Hw, nth_In; lia).
    destruct (Req_dec (nth i row 0) 0) as [|N]; [auto|]. right.
    apply (Rmult_eq_reg_l (nth i row 0)); [|exact N]. rewrite Rmult_1_r. rewrite <- E at 1. field. split; [lra|exact Hwi].
  - intros H. split; [exact Lr|]. intros i Hi. specialize (D i Hi). rewrite row2_nth in D by lia.
    assert (nth i widths 0 <> 0) as Hwi by (apply Hw, nth_In; lia).
    replace (nth i row 0) with (nth i row 0 / s / nth i widths 0); [exact D|].
    destruct (H i Hi) as [-> | E]; [unfold Rdiv; ring|].
    assert (nth i widths 0 = / s) as ->; [|field; lra]. apply (Rmult_eq_reg_l s); [|lra]. rewrite E. field. lra.
Qed.

(** ** Examples *)
(** One training point at 0, with noise variance 1 and value 1; the kernel exp(-x^2/2). *)
Definition one_model : gp := mkGp ((nil, sqrt (1 + 1)) :: nil) ((1 / sqrt (1 + 1) :: nil) :: nil) (1 / sqrt (1 + 1) / sqrt (1 + 1) :: nil).
Definition gauss : kernel := RBF (Iso 1).
Lemma solve_one k : k (0 :: nil) (0 :: nil) = 1 -> update_model k ((0 :: nil) :: nil) (1 :: nil) (1 :: nil) = Some one_model.
Proof.
  intros Hk. unfold update_model, kernel_inverse, cholesky, kernel_matrix. cbn. rewrite Hk.
  destruct (Rlt_dec 0 (1 + 1 - 0)) as [|N]; [|exfalso; apply N; lra]. unfold inverse, unit_vector, backward, forward, one_model. cbn.
  rewrite !Rminus_0_r. reflexivity.
Qed.
Lemma gauss_0 : value gauss (0 :: nil) (0 :: nil) = 1.
Proof. cbn. replace (- / 2 * (((0 - 0) / 1) * (((0 - 0) / 1) * 1) + 0)) with 0 by field. apply exp_0. Qed.
Lemma gauss_1 : value gauss (1 :: nil) (0 :: nil) = exp (- / 2).
Proof. cbn. f_equal. field. Qed.
Lemma gauss_row : gradient_x gauss (1 :: nil) ((0 :: nil) :: nil) = Some ((- exp (- / 2) :: nil) :: nil).
Proof. cbn. do 3 f_equal. replace ((((1 - 0) / 1) * (((1 - 0) / 1) * 1) + 0) * - / 2) with (- / 2) by field. field. Qed.
Lemma sqrt_11 : sqrt (1 + 1) * sqrt (1 + 1) = 2. Proof. rewrite sqrt_sqrt; lra. Qed.
Lemma sqrt_11_pos : 0 < sqrt (1 + 1). Proof. apply sqrt_lt_R0. lra. Qed.
Lemma alpha_1 : 1 / sqrt (1 + 1) / sqrt (1 + 1) = / 2.
Proof. pose proof sqrt_11_pos. rewrite <- sqrt_11. field. lra. Qed.
Lemma exp_half : 0 < exp (- / 2) < 1.
Proof. split; [apply exp_pos|]. rewrite <- exp_0. apply exp_increasing. lra. Qed.
Lemma prX_at w a : w <> 0 -> normalise (0 :: nil) (w :: nil) (a * w :: nil) = (a :: nil).
Proof. intros H. cbn. f_equal. field. exact H. Qed.
Lemma example_differentiable w : w <> 0 -> differentiable gauss (map (normalise (0 :: nil) (w :: nil)) ((0 :: nil) :: nil)) (normalise (0 :: nil) (w :: nil) (1 * w :: nil)).
Proof. intros H. rewrite prX_at by exact H. constructor; [|constructor]. cbn. split; [reflexivity|lra]. Qed.
Lemma example_map w : w <> 0 -> map (normalise (0 :: nil) (w :: nil)) ((0 :: nil) :: nil) = ((0 :: nil) :: nil).
Proof. intros H. cbn. do 2 f_equal. field. exact H. Qed.
Lemma example_mean_row w s : w <> 0 -> reported_mean_grad gauss s (map (normalise (0 :: nil) (w :: nil)) ((0 :: nil) :: nil)) one_model (normalise (0 :: nil) (w :: nil) (1 * w :: nil)) = Some (s * (0 + / 2 * - exp (- / 2)) :: nil).
Proof.
  intros H. rewrite prX_at, example_map by exact H. unfold reported_mean_grad, mean_grad. rewrite gauss_row. unfold mul_columns. cbn [one_model g_alpha option_map].
  rewrite alpha_1. reflexivity.
Qed.
Lemma example_below w : w <> 0 -> predicted_mean (value gauss) (normalise (0 :: nil) (w :: nil)) 0 1 (11 / 10) ((0 :: nil) :: nil) (1 :: nil) one_model (1 * w :: nil)
  < 11 / 10 * maximum (1 :: nil) - (11 / 10 - 1) * minimum (1 :: nil).
Proof.
  intros H. unfold predicted_mean. rewrite prX_at, example_map by exact H. unfold gp_mean. cbn [map one_model g_alpha dot maximum minimum fold_left].
  rewrite gauss_1, alpha_1. pose proof exp_half. apply Rmin_case_strong; lra.
Qed.
(** Right for a prior of width 1; wrong for a prior of width 2, where the gradient is half of what is reported. *)
Example C72_mean_example :
  exists row, reported_mean_grad gauss 1 (map (normalise (0 :: nil) (1 :: nil)) ((0 :: nil) :: nil)) one_model (normalise (0 :: nil) (1 :: nil) (1 :: nil)) = Some row
    /\ gradient (predicted_mean (value gauss) (normalise (0 :: nil) (1 :: nil)) 0 1 (11 / 10) ((0 :: nil) :: nil) (1 :: nil) one_model) (1 :: nil) row.
Proof.
  assert ((1 :: nil) = (1 * 1 :: nil)) as E by (f_equal; ring).
  pose proof (example_mean_row 1 1 R1_neq_R0) as Hr. pose proof (example_below 1 R1_neq_R0) as Hb. pose proof (example_differentiable 1 R1_neq_R0) as Hd.
  rewrite <- E in Hr, Hb, Hd. eexists. split; [exact Hr|].
  apply (C72_mean_right_iff gauss ((0 :: nil) :: nil) (1 :: nil) one_model (0 :: nil) (1 :: nil) (1 :: nil) 1 0 (11 / 10)); auto; [intros w [<-|[]]; lra|].
  intros [|i] Hi; cbn in *; [auto|lia].
Qed.
Theorem C72_width_refuted :
  exists K X noise y g lows widths x s m clip row,
    update_model (value K) (map (normalise lows widths) X) noise y = Some g /\ differentiable K (map (normalise lows widths) X) (normalise lows widths x)
    /\ reported_mean_grad K s (map (normalise lows widths) X) g (normalise lows widths x) = Some row
    /\ predicted_mean (value K) (normalise lows widths) m s clip X y g x < clip * maximum y - (clip - 1) * minimum y
    /\ ~ gradient (predicted_mean (value K) (normalise lows widths) m s clip X y g) x row.
Proof.
  assert (2 <> 0) as N2 by lra.
  exists gauss, ((0 :: nil) :: nil), (1 :: nil), (1 :: nil), one_model, (0 :: nil), (2 :: nil), (1 * 2 :: nil), 1, 0, (11 / 10). eexists.
  split; [rewrite example_map by exact N2; apply solve_one, gauss_0|]. split; [apply example_differentiable; exact N2|].
  split; [apply example_mean_row; exact N2|]. split; [apply example_below; exact N2|].
  intros G. assert (forall w, In w (2 :: nil) -> w <> 0) as Hw by (intros w [<-|[]]; lra).
  pose proof (proj1 (C72_mean_right_iff gauss ((0 :: nil) :: nil) (1 :: nil) one_model (0 :: nil) (2 :: nil) (1 * 2 :: nil) 1 0 (11 / 10) _
    eq_refl eq_refl Hw eq_refl (example_differentiable 2 N2) (example_mean_row 2 1 N2) (example_below 2 N2)) G 0%nat (Nat.lt_succ_diag_r 0)) as G'.
  cbn [nth] in G'. pose proof exp_half. destruct G'; lra.
Qed.
Lemma example_std w s : w <> 0 -> predicted_std (value gauss) (normalise (0 :: nil) (w :: nil)) s ((0 :: nil) :: nil) one_model (1 * w :: nil) = s * sqrt (1 - exp (- 1) / 2).
Proof.
  intros H. unfold predicted_std. rewrite prX_at, example_map by exact H. f_equal. unfold gp_std, gp_var, mul_columns.
  cbn [map one_model g_V g_L length combine fold_left fst snd repeat vadd scale dot]. rewrite gauss_1.
  assert (value gauss (1 :: nil) (1 :: nil) = 1) as ->.
  { cbn. replace (- / 2 * (((1 - 1) / 1) * (((1 - 1) / 1) * 1) + 0)) with 0 by field. apply exp_0. }
  pose proof sqrt_11_pos.
  match goal with |- context [1 - ?e] => assert (e = exp (-1) / 2) as -> end.
  { transitivity (exp (- / 2) * exp (- / 2) / (sqrt (1 + 1) * sqrt (1 + 1))); [field; lra|]. rewrite sqrt_11, <- exp_plus. do 2 f_equal. lra. }
  destruct (Rlt_dec _ 0) as [N|]; [|reflexivity]. exfalso. assert (exp (-1) < 1) by (rewrite <- exp_0; apply exp_increasing; lra). lra.
Qed.
Lemma example_std_big : / 100000000 < sqrt (1 - exp (- 1) / 2).
Proof.
  assert (exp (-1) < 1) by (rewrite <- exp_0; apply exp_increasing; lra).
  assert (/ 2 < sqrt (1 - exp (-1) / 2)); [|lra]. rewrite <- (sqrt_Rsqr (/ 2)) by lra. apply sqrt_lt_1; unfold Rsqr; lra.
Qed.
Lemma example_std_row s : 0 < s -> / 100000000 < s * sqrt (1 - exp (- 1) / 2) -> exists v, v <> 0
  /\ reported_std_grad gauss s (map (normalise (0 :: nil) (1 :: nil)) ((0 :: nil) :: nil)) one_model (normalise (0 :: nil) (1 :: nil) (1 :: nil)) = Some (v :: nil).
Proof.
  intros Hs Hbig. assert ((1 :: nil) = (1 * 1 :: nil)) as E by (f_equal; ring).
  pose proof (prX_at 1 1 R1_neq_R0) as Ep. pose proof (example_map 1 R1_neq_R0) as Em.
  pose proof (example_std 1 s R1_neq_R0) as Es. unfold predicted_std in Es. rewrite <- E in Ep, Es.
  rewrite Ep, Em in *. unfold reported_std_grad. rewrite Es, gauss_row.
  pose proof example_std_big as Hsq. set (sd := sqrt (1 - exp (- 1) / 2)) in *.
  assert (gp_std (value gauss) ((0 :: nil) :: nil) one_model (1 :: nil) = sd) as ->.
  { apply (Rmult_eq_reg_l s); lra. }
  unfold close_to_0. destruct (Rle_dec _ _) as [C|_]; [rewrite Rabs_right in C by lra; lra|].
  unfold std_product, gram, mul_columns. cbn [map one_model g_V length combine fold_left fst snd repeat vadd scale dot]. rewrite gauss_1.
  eexists. split; [|reflexivity]. pose proof sqrt_11_pos. pose proof exp_half. pose proof sqrt_11.
  intros Z. apply Rmult_integral in Z. destruct Z as [|Z]; [lra|]. apply Rmult_integral in Z. destruct Z as [|Z]; [lra|].
  assert (exp (- / 2) * exp (- / 2) = 0); [|nra].
  assert (0 < sd) by lra.
  match type of Z with - ?e / sd = 0 => assert (e = - (exp (- / 2) * exp (- / 2)) / (sqrt (1 + 1) * sqrt (1 + 1))) as Ee by (field; lra) end.
  rewrite Ee, sqrt_11 in Z.
  assert (- (- (exp (- / 2) * exp (- / 2)) / 2) / sd * (2 * sd) = 0) as Z2 by (rewrite Z; ring).
  replace (- (- (exp (- / 2) * exp (- / 2)) / 2) / sd * (2 * sd)) with (exp (- / 2) * exp (- / 2)) in Z2 by (field; lra). exact Z2.
Qed.
(** Right without a y-preprocessor; wrong for one of scale 2. *)
Example C72_std_example :
  exists row, reported_std_grad gauss 1 (map (normalise (0 :: nil) (1 :: nil)) ((0 :: nil) :: nil)) one_model (normalise (0 :: nil) (1 :: nil) (1 :: nil)) = Some row
    /\ gradient (predicted_std (value gauss) (normalise (0 :: nil) (1 :: nil)) 1 ((0 :: nil) :: nil) one_model) (1 :: nil) row.
Proof.
  assert ((1 :: nil) = (1 * 1 :: nil)) as E by (f_equal; ring). pose proof example_std_big as Hb.
  destruct (example_std_row 1) as (v & _ & Hv); [lra|lra|]. exists (v :: nil). split; [exact Hv|].
  pose proof (example_differentiable 1 R1_neq_R0) as Hd. pose proof (example_std 1 1 R1_neq_R0) as Es. rewrite <- E in Hd, Es.
  apply (C72_std_right_iff gauss ((0 :: nil) :: nil) (1 :: nil) (1 :: nil) one_model (0 :: nil) (1 :: nil) (1 :: nil) 1 (v :: nil)); auto.
  - intros w [<-|[]]; lra.
  - rewrite example_map by lra. apply solve_one, gauss_0.
  - lra.
  - rewrite Es. lra.
  - intros [|i] Hi; cbn in *; [right; ring|lia].
Qed.
Theorem C72_scale_refuted :
  exists K X noise y g x s row,
    update_model (value K) X noise y = Some g /\ differentiable K X x /\ stationary K = true /\ reported_std_grad K s X g x = Some row
    /\ / 100000000 < s * gp_std (value K) X g x /\ ~ gradient (fun z => s * gp_std (value K) X g z) x row.
Proof.
  assert ((1 :: nil) = (1 * 1 :: nil)) as E by (f_equal; ring). pose proof example_std_big as Hb.
  destruct (example_std_row 2) as (v & Nv & Hv); [lra|lra|].
  pose proof (example_differentiable 1 R1_neq_R0) as Hd. pose proof (example_std 1 2 R1_neq_R0) as Es. rewrite <- E in Hd, Es.
  pose proof (prX_at 1 1 R1_neq_R0) as Ep. rewrite <- E in Ep.
  exists gauss, ((0 :: nil) :: nil), (1 :: nil), (1 :: nil), one_model, (1 :: nil), 2, (v :: nil). split; [apply solve_one, gauss_0|].
  split; [rewrite Ep, example_map in Hd by lra; exact Hd|]. split; [reflexivity|]. split; [rewrite Ep, example_map in Hv by lra; exact Hv|].
  split; [unfold predicted_std in Es; rewrite Ep, example_map in Es by lra; rewrite Es; lra|].
  intros G. assert (gradient (predicted_std (value gauss) (normalise (0 :: nil) (1 :: nil)) 2 ((0 :: nil) :: nil) one_model) (1 :: nil) (v :: nil)) as G'.
  { destruct G as [L D]. split; [exact L|]. intros [|i] Hi; [|cbn in Hi; lia]. specialize (D 0%nat Hi). unfold partial in *.
    apply (is_derive_ext (fun t => 2 * gp_std (value gauss) ((0 :: nil) :: nil) one_model (replace_coord 0 t (1 :: nil)))); [|exact D].
    intros t. unfold predicted_std. rewrite example_map by lra. cbn [replace_coord].
    assert (normalise (0 :: nil) (1 :: nil) (t :: nil) = (t :: nil)) as Et by (cbn; f_equal; field). exact (eq_sym (f_equal (fun z => 2 * gp_std (value gauss) ((0 :: nil) :: nil) one_model z) Et)). }
  assert (forall w, In w (1 :: nil) -> w <> 0) as Hw by (intros w [<-|[]]; lra).
  assert (update_model (value gauss) (map (normalise (0 :: nil) (1 :: nil)) ((0 :: nil) :: nil)) (1 :: nil) (1 :: nil) = Some one_model) as HU
    by (rewrite example_map by lra; apply solve_one, gauss_0).
  assert (0 < 2) as H2 by lra.
  assert (/ 100000000 < predicted_std (value gauss) (normalise (0 :: nil) (1 :: nil)) 2 ((0 :: nil) :: nil) one_model (1 :: nil)) as Hs2 by (rewrite Es; lra).
  pose proof (proj1 (C72_std_right_iff gauss ((0 :: nil) :: nil) (1 :: nil) (1 :: nil) one_model (0 :: nil) (1 :: nil) (1 :: nil) 2 (v :: nil)
    eq_refl eq_refl Hw eq_refl eq_refl HU Hd H2 Hs2 Hv eq_refl) G' 0%nat (Nat.lt_succ_diag_r 0)) as Z.
  cbn in Z. destruct Z; lra.
Qed.
(** Kernels whose variance varies: with the kernel x x' + 1 and one training point at 0 the standard deviation is
    sqrt(x^2 + 1/2), and the reported gradient 0 everywhere (no preprocessors). *)
Theorem C72_dot_product_refuted :
  let k := value (DotProduct 1) in
  exists g, update_model k ((0 :: nil) :: nil) (1 :: nil) (1 :: nil) = Some g
    /\ forall a, gp_std k ((0 :: nil) :: nil) g (a :: nil) = sqrt (a ^ 2 + / 2)
         /\ reported_std_grad (DotProduct 1) 1 ((0 :: nil) :: nil) g (a :: nil) = Some (0 :: nil)
         /\ (0 < a -> ~ gradient (gp_std k ((0 :: nil) :: nil) g) (a :: nil) (0 :: nil)).
Proof.
  intros k. exists one_model. split; [apply solve_one; unfold k; cbn; ring|].
  assert (forall a, gp_std k ((0 :: nil) :: nil) one_model (a :: nil) = sqrt (a ^ 2 + / 2)) as Hstd.
  { intros a. unfold gp_std, gp_var, mul_columns. cbn [map one_model g_V g_L length combine fold_left fst snd repeat vadd scale dot].
    assert (k (a :: nil) (a :: nil) = a ^ 2 + 1) as -> by (unfold k; cbn; ring). assert (k (a :: nil) (0 :: nil) = 1) as -> by (unfold k; cbn; ring).
    pose proof sqrt_11_pos. match goal with |- context [a ^ 2 + 1 - ?e] => assert (e = / 2) as -> end.
    { transitivity (1 / (sqrt (1 + 1) * sqrt (1 + 1))); [field; lra|]. rewrite sqrt_11. lra. }
    destruct (Rlt_dec _ 0) as [N|_]; [exfalso; pose proof (pow2_ge_0 a); lra|]. f_equal. lra. }
  intros a. split; [apply Hstd|]. split.
  - unfold reported_std_grad. cbn [gradient_x fold_right grad]. destruct (close_to_0 _); [reflexivity|].
    unfold std_product, mul_columns, gram. cbn. do 2 f_equal. unfold Rdiv. ring.
  - intros Ha [_ D]. specialize (D 0%nat (Nat.lt_succ_diag_r 0)). unfold partial in D. cbn [nth replace_coord] in D.
    assert (is_derive (fun t => gp_std k ((0 :: nil) :: nil) one_model (t :: nil)) a (a / sqrt (a ^ 2 + / 2))) as D'.
    { apply (is_derive_ext (fun t => sqrt (t ^ 2 + / 2))); [intros t; symmetry; apply Hstd|].
      assert (0 < a ^ 2 + / 2) by (pose proof (pow2_ge_0 a); lra). auto_derive; [cbn in *; lra|].
      cbn. cbn in H. field. apply Rgt_not_eq. apply sqrt_lt_R0. lra. }
    assert (0 = a / sqrt (a ^ 2 + / 2)) as U by (rewrite <- (is_derive_unique _ _ _ D); exact (is_derive_unique _ _ _ D')).
    assert (0 < a / sqrt (a ^ 2 + / 2)); [|lra]. apply Rdiv_lt_0_compat; [exact Ha|]. apply sqrt_lt_R0. pose proof (pow2_ge_0 a). lra.
Qed.
Print Assumptions C72_mean_gradient.
Print Assumptions C72_true_mean_gradient.
Print Assumptions C72_mean_right_iff.
Print Assumptions C72_true_std_gradient.
Print Assumptions C72_std_right_iff.
Print Assumptions C72_width_refuted.
Print Assumptions C72_scale_refuted.
Print Assumptions C72_dot_product_refuted.

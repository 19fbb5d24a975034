(** C66 and C72, continued: gradients of kernels along every line, and gradients of predictions with [Whitening]. *)
From Coq Require Import Lra Lia.
From Verif Require Import MGrad SKernel PKernel PLinAlg SLinAlg PGp PGp2 TKernel PGrad TGrad SDirect PDirect MWhiten SWhiten PWhiten TWhiten.
From Verif Require MPreproc.
Import ListNotations.
Set Default Goal Selector "!". Set Bullet Behavior "Strict Subproofs".
Open Scope R_scope.

(** ** C66. Derivatives along the coordinates alone do not give those along other lines. For the kernels they do. *)
Theorem C66_direction : forall k axes x y row, length x = length y -> regular k x y -> grad axes k x y = Some row -> slopes (fun z => value k z y) x row.
Proof. exact kernel_slopes. Qed.
Example C66_direction_case : let k := Sum (Product (ConstantKernel 2) (RBF (Aniso [1; 2]))) (Exponentiation (Matern ThreeHalves (Iso 1)) (Nat 2)) in
  exists row, grad 0 k [1; 0] [0; 0] = Some row /\ is_derive (fun t => value k [1 + t * 3; 0 + t * 4] [0; 0]) 0 (nth 0 row 0 * 3 + nth 1 row 0 * 4).
Proof.
  intros k. destruct (C66_exists k [1; 0] [0; 0]) as [row E]; [cbn; auto|]. exists row. split; [exact E|].
  destruct (C66_direction k 0 [1; 0] [0; 0] row eq_refl) as [L D]; [|exact E|].
  - cbn. repeat split; auto; try lra; try lia. intros l [<-|[<-|[]]]; lra.
  - specialize (D [3; 4] eq_refl). destruct row as [|a [|b [|c row]]]; cbn in L; try lia. evar_last; [exact D|]. cbn. ring.
Qed.

(** ** C72 with Whitening *)
Lemma rows_slopes K X G x : List.Forall2 (fun y row => slopes (fun z => value K z y) x row) X G -> forall v, length v = length x ->
  dvec (fun t => map (value K (along x v t)) X) 0 (map (fun r => dot r v) G).
Proof.
  intros H v Hv. split.
  - intros u. rewrite !map_length. induction H; cbn; auto.
  - intros j. rewrite map_length. intros Hj. revert j Hj. induction H as [|y r X G H0 H IH]; intros j Hj; cbn in Hj; [lia|].
    destruct j as [|j]; cbn [nth map]; [apply (proj2 H0 v Hv)|apply IH; lia].
Qed.
Lemma all_slopes k x X rows : gradient_x k x X = Some rows -> differentiable k X x -> List.Forall2 (fun y row => slopes (fun z => value k z y) x row) X rows.
Proof.
  revert rows. induction X as [|y X IH]; intros rows H HX; cbn [gradient_x fold_right] in H.
  - injection H as <-. constructor.
  - fold (gradient_x k x X) in H. destruct (grad 0 k x y) as [r|] eqn:G; [|discriminate]. destruct (gradient_x k x X) as [l|] eqn:GX; [|discriminate]. injection H as <-.
    inversion HX as [|? ? [E R] HX']; subst. constructor; [eapply C66_direction; eauto|apply IH; auto].
Qed.
Lemma rows_slopes_length K X G x : List.Forall2 (fun y row => slopes (fun z => value K z y) x row) X G -> length G = length X /\ List.Forall (fun r => length r = length x) G.
Proof. induction 1 as [|y r X G [H0 _] H [IH1 IH2]]; cbn; auto. Qed.
Lemma slopes_affine f x row s m : slopes f x row -> slopes (fun z => s * f z + m) x (scale s row).
Proof.
  intros [L D]. split; [rewrite scale_length; exact L|]. intros v Hv. replace (dot (scale s row) v) with (s * dot row v) by (rewrite (dot_comm (scale s row)), dot_scale, dot_comm; reflexivity).
  apply (affine_derive (fun t => f (along x v t)) 0 _ s m), D, Hv.
Qed.
Lemma mean_slopes K X g x row : length (g_alpha g) = length X -> differentiable K X x -> mean_grad K X g x = Some row -> slopes (gp_mean (value K) X g) x row.
Proof.
  intros Ha HX H. unfold mean_grad in H. destruct (gradient_x K x X) as [G|] eqn:EG; [|discriminate]. injection H as <-.
  pose proof (all_slopes K x X G EG HX) as HG. destruct (rows_slopes_length K X G x HG) as [L1 L2].
  split; [apply mul_columns_length; exact L2|]. intros v Hv. rewrite dot_comm, dot_mul_columns by exact L2. unfold gp_mean.
  rewrite (map_ext (dot v) (fun r => dot r v)) by (intros; apply dot_comm).
  apply dot_derive_const; [rewrite map_length; lia|]. apply rows_slopes; auto.
Qed.
Lemma std_slopes K X g x G :
  stationary K = true -> differentiable K X x -> gradient_x K x X = Some G ->
  length (g_L g) = length X -> g_V g = inverse (g_L g) -> 0 < gp_var (value K) X g x ->
  slopes (gp_std (value K) X g) x (map (fun v => - v / gp_std (value K) X g x) (std_product K X g G x)).
Proof.
  intros HK HX EG HL HV Hpos.
  pose proof (all_slopes K x X G EG HX) as HG. destruct (rows_slopes_length K X G x HG) as [L1 L2].
  split; [rewrite map_length; apply std_product_length; exact L2|]. intros w Hw.
  set (n := length (g_L g)) in *. set (V := g_V g) in *.
  assert (List.Forall (fun c => length c = n) V) as HVn by (rewrite HV; apply inverse_columns).
  assert (length V = n) as LV by (rewrite HV; unfold inverse; rewrite map_length, seq_length; reflexivity).
  set (kv := fun t => map (value K (along x w t)) X).
  set (kd := map (fun r => dot r w) G).
  assert (dvec kv 0 kd) as Dk by (apply rows_slopes; auto).
  assert (length V = length kd) as Lkd by (unfold kd; rewrite map_length; lia).
  pose proof (mul_columns_dvec n V kv 0 kd HVn Lkd Dk) as DM.
  assert (forall t, gp_var (value K) X g (along x w t) = value K x x - dot (mul_columns n V (kv t)) (mul_columns n V (kv t))) as Ev.
  { intros t. unfold gp_var. rewrite (stationary_diag K (along x w t) x HK). reflexivity. }
  assert (is_derive (fun t => gp_var (value K) X g (along x w t)) 0 (- 2 * dot (mul_columns n V (kv 0)) (mul_columns n V kd))) as Dv.
  { apply (is_derive_ext (fun t => value K x x - dot (mul_columns n V (kv t)) (mul_columns n V (kv t)))); [intros t; symmetry; apply Ev|].
    evar_last.
    - apply @is_derive_minus; [apply @is_derive_const|]. apply (dot_derive _ _ _ _ _ eq_refl DM DM).
    - rewrite (dot_comm (mul_columns n V kd)). unfold minus, plus, opp, zero; simpl. ring. }
  assert (kv 0 = map (value K x) X) as Ek by (unfold kv; rewrite along_0 by exact Hw; reflexivity).
  assert (dot (std_product K X g G x) w = dot (mul_columns n V (kv 0)) (mul_columns n V kd)) as Es.
  { unfold std_product. fold V. rewrite dot_comm, dot_mul_columns by (apply Forall_forall; intros r Hr; apply in_map_iff in Hr; destruct Hr as (q & <- & _); apply mul_columns_length; exact L2).
    rewrite Ek, (dot_comm (mul_columns n V _) (mul_columns n V kd)). rewrite (dot_mul_columns n V _ _ HVn).
    f_equal. unfold gram. rewrite !map_map. apply map_ext_in. intros c Hc. rewrite dot_mul_columns by exact L2.
    rewrite (map_ext (dot w) (fun r => dot r w)) by (intros; apply dot_comm). fold kd. rewrite (dot_comm (mul_columns n V kd) c). rewrite (dot_mul_columns n V kd c HVn).
    apply dot_comm. }
  assert (dot (map (fun v => - v / gp_std (value K) X g x) (std_product K X g G x)) w = - dot (std_product K X g G x) w / gp_std (value K) X g x) as ->.
  { rewrite (map_ext _ (fun v => (- / gp_std (value K) X g x) * v)) by (intros; unfold Rdiv; ring). rewrite dot_map_l. unfold Rdiv. ring. }
  rewrite Es.
  assert (0 < gp_var (value K) X g (along x w 0)) as Hp' by (rewrite along_0 by exact Hw; exact Hpos).
  assert (continuous (fun t => gp_var (value K) X g (along x w t)) 0) as C by (apply @ex_derive_continuous; eexists; exact Dv).
  assert (locally 0 (fun t => 0 < gp_var (value K) X g (along x w t))) as Lp by (apply C; apply (open_gt 0); exact Hp').
  apply (is_derive_ext_loc (fun t => sqrt (gp_var (value K) X g (along x w t)))).
  { revert Lp. apply filter_imp. intros t Ht. unfold gp_std. destruct (Rlt_dec _ 0); [lra|reflexivity]. }
  assert (gp_std (value K) X g x = sqrt (gp_var (value K) X g x)) as Est by (unfold gp_std; destruct (Rlt_dec _ 0); [lra|reflexivity]).
  rewrite Est. evar_last.
  - apply (is_derive_comp sqrt (fun t => gp_var (value K) X g (along x w t))); [|exact Dv].
    instantiate (1 := / (2 * sqrt (gp_var (value K) X g x))).
    replace (gp_var (value K) X g x) with (gp_var (value K) X g (along x w 0)) by (rewrite along_0 by exact Hw; reflexivity).
    auto_derive; [exact Hp'|]. field. apply Rgt_not_eq. apply sqrt_lt_R0. exact Hp'.
  - unfold scal; simpl; unfold mult; simpl. field. apply Rgt_not_eq. apply sqrt_lt_R0. exact Hpos.
Qed.

(** The point that [Whitening.transform] returns. *)
Definition whitened (w : MPreproc.whitening (list R) (list (list R))) (x : list R) : list R := match transform w x with Ok z => z | Err _ => x end.
(** A whitening in [d] dimensions with the matrix [T]. *)
Definition whitens (w : MPreproc.whitening (list R) (list (list R))) (d : nat) (T : list (list R)) : Prop :=
  square d T /\ exists m C I learn, w = MPreproc.mkW _ _ (Some m) (Some C) (Some (T, I)) learn /\ length m = d.
Lemma dot_shift r : forall x m i t, length r = length x -> length m = length x -> (i < length x)%nat ->
  dot r (vsub (replace_coord i t x) m) = dot r (vsub x m) + (t - nth i x 0) * nth i r 0.
Proof.
  induction r as [|a r IH]; intros [|b x] [|c m] [|i] t H1 H2 Hi; cbn in H1, H2, Hi; try lia; [cbn; ring|].
  change (dot (a :: r) (vsub (replace_coord (S i) t (b :: x)) (c :: m))) with (a * (b - c) + dot r (vsub (replace_coord i t x) m)).
  rewrite IH by lia. change (dot (a :: r) (vsub (b :: x) (c :: m))) with (a * (b - c) + dot r (vsub x m)). cbn [nth]. ring.
Qed.
Lemma whitened_replace w d T x i t : whitens w d T -> length x = d -> (i < d)%nat ->
  whitened w (replace_coord i t x) = along (whitened w x) (nth i (transpose d T) []) (t - nth i x 0).
Proof.
  intros [[LT RT] (m & C & I & learn & -> & Lm)] Hx Hi. unfold whitened, transform, MPreproc.w_transform. cbn [MPreproc.w_cov MPreproc.w_transf MPreproc.w_mean].
  assert (nth i (transpose d T) [] = map (fun r => nth i r 0) T) as ->.
  { unfold transpose. rewrite (nth_indep _ [] (map (fun r => nth O r 0) T)) by (rewrite map_length, seq_length; exact Hi).
    rewrite (map_nth (fun j => map (fun r => nth j r 0) T)). rewrite seq_nth by exact Hi. reflexivity. }
  clear LT. unfold mv, along, vadd, scale. induction T as [|r T IH]; [reflexivity|]. inversion RT as [|? ? Lr RT']; subst. cbn [map combine fst snd]. f_equal; [|apply IH; exact RT'].
  apply dot_shift; lia.
Qed.
Lemma whitened_length w d T x : whitens w d T -> length (whitened w x) = d.
Proof. intros [[LT RT] (m & C & I & learn & -> & Lm)]. unfold whitened, transform, MPreproc.w_transform. cbn [MPreproc.w_cov MPreproc.w_transf MPreproc.w_mean]. rewrite mv_length. exact LT. Qed.
Lemma gradient_whitened f w d T x row : whitens w d T -> length x = d -> slopes f (whitened w x) row -> gradient (fun z => f (whitened w z)) x (mv (transpose d T) row).
Proof.
  intros W Hx [L D]. pose proof (transpose_square d T (proj1 (proj1 W))) as St.
  assert (Lc : forall i, (i < d)%nat -> length (nth i (transpose d T) []) = d) by (intros i Hi; eapply square_row; eauto).
  split; [rewrite mv_length, Hx; apply St|]. intros i Hi. rewrite Hx in Hi. unfold partial.
  apply (is_derive_ext (fun t => f (along (whitened w x) (nth i (transpose d T) []) (t - nth i x 0)))); [intros t; rewrite (whitened_replace w d T x i t W Hx Hi); reflexivity|].
  unfold mv. rewrite (nth_map_R _ _ []) by (rewrite (proj1 St); exact Hi). rewrite dot_comm. evar_last.
  - apply (is_derive_comp (fun u => f (along (whitened w x) (nth i (transpose d T) []) u)) (fun t => t - nth i x 0) _ (dot row (nth i (transpose d T) []))).
    + replace (nth i x 0 - nth i x 0) with 0 by ring. apply D. rewrite (whitened_length w d T x W). apply Lc. exact Hi.
    + instantiate (1 := 1). auto_derive; auto.
  - unfold scal; simpl; unfold mult; simpl. ring.
Qed.
Lemma gradient_unique f x r r' : gradient f x r -> gradient f x r' -> r = r'.
Proof. intros [L D] [L' D']. apply (nth_ext _ _ 0 0); [lia|]. intros i Hi. rewrite L in Hi. apply (partial_unique f x i); auto. Qed.
Lemma gradient_below f c x row : gradient f x row -> f x < c -> gradient (fun z => Rmin (f z) c) x row.
Proof. intros [L D] H. split; [exact L|]. intros i Hi. apply partial_below; auto. Qed.

(** With [Whitening], the gradient of the returned mean is the reported one multiplied by the transpose of the matrix of the transform. *)
Theorem C72_whitened_mean : forall K X y g w d T x s m clip row,
  whitens w d T -> length x = d -> let prX := whitened w in
  length (g_alpha g) = length X -> differentiable K (map prX X) (prX x) ->
  reported_mean_grad K s (map prX X) g (prX x) = Some row ->
  predicted_mean (value K) prX m s clip X y g x < clip * maximum y - (clip - 1) * minimum y ->
  gradient (predicted_mean (value K) prX m s clip X y g) x (mv (transpose d T) row)
  /\ (gradient (predicted_mean (value K) prX m s clip X y g) x row <-> mv (transpose d T) row = row).
Proof.
  intros K X y g w d T x s m clip row W Hx prX Ha HX Hr Hc.
  assert (G : gradient (predicted_mean (value K) prX m s clip X y g) x (mv (transpose d T) row)).
  { unfold predicted_mean. apply (gradient_below (fun z => s * gp_mean (value K) (map prX X) g (prX z) + m)).
    - unfold reported_mean_grad in Hr. destruct (mean_grad K (map prX X) g (prX x)) as [r|] eqn:E; [|discriminate]. injection Hr as <-.
      apply (gradient_whitened (fun z => s * gp_mean (value K) (map prX X) g z + m) w d T x); auto. apply slopes_affine, mean_slopes; auto. rewrite map_length. exact Ha.
    - unfold predicted_mean in Hc. revert Hc. apply Rmin_case; lra. }
  split; [exact G|]. split; [intros G'; exact (gradient_unique _ _ _ _ G G')|]. intros E. rewrite E in G. exact G.
Qed.
(** Likewise for the standard deviation, where the scale of the y-preprocessor is also applied once too often. *)
Theorem C72_whitened_std : forall K X noise y g w d T x s row,
  whitens w d T -> length x = d -> let prX := whitened w in
  stationary K = true -> length X = length noise -> update_model (value K) (map prX X) noise y = Some g ->
  differentiable K (map prX X) (prX x) -> 0 < s -> / 100000000 < predicted_std (value K) prX s X g x ->
  reported_std_grad K s (map prX X) g (prX x) = Some row ->
  gradient (predicted_std (value K) prX s X g) x (mv (transpose d T) (scale (/ s) row))
  /\ (gradient (predicted_std (value K) prX s X g) x row <-> mv (transpose d T) (scale (/ s) row) = row).
Proof.
  intros K X noise y g w d T x s row W Hx prX HK Hn HU HX Hs Hstd Hr.
  destruct (update_parts (value K) (map prX X) noise y g) as (HL & HV & _); [rewrite map_length; exact Hn|exact HU|].
  unfold reported_std_grad in Hr. unfold predicted_std in Hstd. destruct (gradient_x K (prX x) (map prX X)) as [G|] eqn:EG; [|discriminate].
  assert (close_to_0 (s * gp_std (value K) (map prX X) g (prX x)) = false) as Ec.
  { unfold close_to_0. destruct (Rle_dec _ _) as [C|]; [|reflexivity]. rewrite Rabs_right in C by lra. lra. }
  rewrite Ec in Hr. injection Hr as <-.
  assert (0 < gp_std (value K) (map prX X) g (prX x)) as Hstd'.
  { assert (0 < / 100000000) by lra. apply (Rmult_lt_reg_l s); lra. }
  assert (0 < gp_var (value K) (map prX X) g (prX x)) as Hvar.
  { unfold gp_std in Hstd'. destruct (Rlt_dec _ 0) as [|N]; [rewrite sqrt_0 in Hstd'; lra|].
    destruct (Req_dec (gp_var (value K) (map prX X) g (prX x)) 0) as [E0|]; [rewrite E0, sqrt_0 in Hstd'; lra|lra]. }
  pose proof (std_slopes K (map prX X) g (prX x) G HK HX EG HL HV Hvar) as S.
  set (r := map (fun v => - v / gp_std (value K) (map prX X) g (prX x)) (std_product K (map prX X) g G (prX x))) in *.
  assert (GG : gradient (predicted_std (value K) prX s X g) x (mv (transpose d T) (scale (/ s) (scale s (scale s r))))).
  { replace (scale (/ s) (scale s (scale s r))) with (scale s r).
    - pose proof (slopes_affine _ _ _ s 0 S) as S2. pose proof (gradient_whitened _ w d T x _ W Hx S2) as [L D]. split; [exact L|]. intros i Hi. specialize (D i Hi). unfold partial in *.
      apply (is_derive_ext (fun t => s * gp_std (value K) (map prX X) g (whitened w (replace_coord i t x)) + 0)); [intros t; unfold predicted_std, prX; apply Rplus_0_r|exact D].
    - unfold scale. rewrite !map_map. apply map_ext. intros v. field. lra. }
  split; [exact GG|]. split; [intros G'; exact (gradient_unique _ _ _ _ GG G')|]. intros E. rewrite E in GG. exact GG.
Qed.

(** The correlated example of C69: eigenvalues 1 and 4. One training point at the mean. *)
Definition T0 : list (list R) := [[3/5; 4/5]; [-2/5; 3/10]].
Lemma W0_whitens : whitens W0 2 T0.
Proof. split; [split; [reflexivity|repeat constructor]|]. unfold W0. do 4 eexists. split; [reflexivity|reflexivity]. Qed.
Definition centre : list R := [1/2; 1/2].
Definition query (a b : R) : list R := [1/2 + (3/5 * a - 8/5 * b); 1/2 + (4/5 * a + 6/5 * b)].
Lemma at_centre : whitened W0 centre = [0; 0].
Proof. unfold whitened, transform, MPreproc.w_transform, W0, centre. cbn [MPreproc.w_cov MPreproc.w_transf MPreproc.w_mean]. unfold mv, vsub. cbn. f_equal; [field|f_equal; field]. Qed.
Lemma at_query a b : whitened W0 (query a b) = [a; b].
Proof. unfold whitened, transform, MPreproc.w_transform, W0, query. cbn [MPreproc.w_cov MPreproc.w_transf MPreproc.w_mean]. unfold mv, vsub. cbn. f_equal; [field|f_equal; field]. Qed.
Lemma gauss_at a b : a ^ 2 + b ^ 2 = 1 -> value gauss [a; b] [0; 0] = exp (- / 2).
Proof. intros H. cbn. f_equal. unfold Rdiv. rewrite !Rinv_1. nra. Qed.
Lemma gauss_centre : value gauss [0; 0] [0; 0] = 1.
Proof. cbn. transitivity (exp 0); [f_equal; field|apply exp_0]. Qed.
Lemma gauss_row2 a b : a ^ 2 + b ^ 2 = 1 -> gradient_x gauss [a; b] ([0; 0] :: nil) = Some ([- exp (- / 2) * a; - exp (- / 2) * b] :: nil).
Proof.
  intros H. cbn. do 2 f_equal. assert (((a - 0) / 1 * ((a - 0) / 1 * 1) + ((b - 0) / 1 * ((b - 0) / 1 * 1) + 0)) * - / 2 = - / 2) as -> by (unfold Rdiv; rewrite !Rinv_1; nra).
  f_equal; [field|f_equal; field].
Qed.
Lemma solve_centre : update_model (value gauss) ([0; 0] :: nil) (1 :: nil) (1 :: nil) = Some one_model.
Proof.
  unfold update_model, kernel_inverse, cholesky, kernel_matrix. cbn -[value]. rewrite gauss_centre.
  destruct (Rlt_dec 0 (1 + 1 - 0)) as [|N]; [|exfalso; apply N; lra]. unfold inverse, unit_vector, backward, forward, one_model. cbn. rewrite !Rminus_0_r. reflexivity.
Qed.
Lemma row_at a b : a ^ 2 + b ^ 2 = 1 -> reported_mean_grad gauss 1 (map (whitened W0) (centre :: nil)) one_model (whitened W0 (query a b)) = Some [- exp (- / 2) / 2 * a; - exp (- / 2) / 2 * b].
Proof.
  intros H. cbn [map]. rewrite at_query, at_centre. unfold reported_mean_grad, mean_grad. rewrite gauss_row2 by exact H. unfold mul_columns. cbn. rewrite alpha_1. f_equal. f_equal; [field|f_equal; field].
Qed.
Lemma query_below a b : a ^ 2 + b ^ 2 = 1 -> predicted_mean (value gauss) (whitened W0) 0 1 (11 / 10) (centre :: nil) (1 :: nil) one_model (query a b) < 11 / 10 * maximum (1 :: nil) - (11 / 10 - 1) * minimum (1 :: nil).
Proof.
  intros H. unfold predicted_mean. cbn [map]. rewrite at_query, at_centre. unfold gp_mean. cbn [map one_model g_alpha dot maximum minimum fold_left].
  rewrite gauss_at, alpha_1 by exact H. pose proof exp_half. apply Rmin_case_strong; lra.
Qed.
Lemma query_differentiable a b : differentiable gauss (map (whitened W0) (centre :: nil)) (whitened W0 (query a b)).
Proof. cbn [map]. rewrite at_query, at_centre. constructor; [|constructor]. cbn. split; [reflexivity|lra]. Qed.
(** In the direction of the second eigenvector the reported gradient is not that of the mean. *)
Theorem C72_whitening_refuted : exists K X noise y g w d T x s m clip row,
  whitens w d T /\ length x = d /\ update_model (value K) (map (whitened w) X) noise y = Some g /\ differentiable K (map (whitened w) X) (whitened w x)
  /\ reported_mean_grad K s (map (whitened w) X) g (whitened w x) = Some row
  /\ predicted_mean (value K) (whitened w) m s clip X y g x < clip * maximum y - (clip - 1) * minimum y
  /\ ~ gradient (predicted_mean (value K) (whitened w) m s clip X y g) x row.
Proof.
  assert (H : 0 ^ 2 + 1 ^ 2 = 1) by ring.
  exists gauss, (centre :: nil), (1 :: nil), (1 :: nil), one_model, W0, 2%nat, T0, (query 0 1), 1, 0, (11 / 10). eexists.
  split; [exact W0_whitens|]. split; [reflexivity|]. split; [cbn [map]; rewrite at_centre; exact solve_centre|]. split; [apply query_differentiable|].
  split; [apply row_at; exact H|]. split; [apply query_below; exact H|]. intros G.
  apply (C72_whitened_mean gauss (centre :: nil) (1 :: nil) one_model W0 2 T0 (query 0 1) 1 0 (11 / 10) _ W0_whitens eq_refl eq_refl (query_differentiable 0 1) (row_at 0 1 H) (query_below 0 1 H)) in G.
  pose proof (exp_pos (- / 2)). unfold mv, transpose, T0 in G. cbn in G. injection G as G1 G2. lra.
Qed.
(** The hypotheses of C72_whitened_mean are met there, and the true gradient is as stated. *)
Example C72_whitened_case : gradient (predicted_mean (value gauss) (whitened W0) 0 1 (11 / 10) (centre :: nil) (1 :: nil) one_model) (query 0 1) [exp (- / 2) / 5; - exp (- / 2) * 3 / 20].
Proof.
  assert (H : 0 ^ 2 + 1 ^ 2 = 1) by ring.
  destruct (C72_whitened_mean gauss (centre :: nil) (1 :: nil) one_model W0 2 T0 (query 0 1) 1 0 (11 / 10) _ W0_whitens eq_refl eq_refl (query_differentiable 0 1) (row_at 0 1 H) (query_below 0 1 H)) as [G _].
  replace [exp (- / 2) / 5; - exp (- / 2) * 3 / 20] with (mv (transpose 2 T0) [- exp (- / 2) / 2 * 0; - exp (- / 2) / 2 * 1]); [exact G|].
  unfold mv, transpose, T0. cbn. f_equal; [field|f_equal; field].
Qed.
Lemma query_std : predicted_std (value gauss) (whitened W0) 1 (centre :: nil) one_model (query 0 1) = sqrt (1 - exp (- 1) / 2).
Proof.
  unfold predicted_std. cbn [map]. rewrite at_query, at_centre. rewrite Rmult_1_l. unfold gp_std.
  assert (gp_var (value gauss) ([0; 0] :: nil) one_model [0; 1] = 1 - exp (- 1) / 2) as ->.
  { unfold gp_var, one_model. cbn [g_V g_L map length]. rewrite gauss_at by ring.
    assert (value gauss [0; 1] [0; 1] = 1) as -> by (cbn; transitivity (exp 0); [f_equal; field|apply exp_0]).
    unfold mul_columns. cbn. pose proof sqrt_11_pos. f_equal.
    transitivity (exp (- / 2) * exp (- / 2) / (sqrt (1 + 1) * sqrt (1 + 1))); [field; lra|]. rewrite sqrt_11, <- exp_plus. do 2 f_equal. lra. }
  destruct (Rlt_dec _ 0) as [N|]; [|reflexivity]. exfalso. assert (exp (-1) < 1) by (rewrite <- exp_0; apply exp_increasing; lra). lra.
Qed.
Example C72_whitened_std_case : exists row, reported_std_grad gauss 1 (map (whitened W0) (centre :: nil)) one_model (whitened W0 (query 0 1)) = Some row
  /\ gradient (predicted_std (value gauss) (whitened W0) 1 (centre :: nil) one_model) (query 0 1) (mv (transpose 2 T0) (scale (/ 1) row)).
Proof.
  assert (exists row, reported_std_grad gauss 1 (map (whitened W0) (centre :: nil)) one_model (whitened W0 (query 0 1)) = Some row) as [row Hr].
  { cbn [map]. rewrite at_query, at_centre. unfold reported_std_grad. rewrite gauss_row2 by ring. destruct (close_to_0 _); eexists; reflexivity. }
  exists row. split; [exact Hr|].
  apply (C72_whitened_std gauss (centre :: nil) (1 :: nil) (1 :: nil) one_model W0 2 T0 (query 0 1) 1 row); auto.
  - exact W0_whitens.
  - cbn [map]. rewrite at_centre. exact solve_centre.
  - apply query_differentiable.
  - lra.
  - rewrite query_std. exact example_std_big.
Qed.
Print Assumptions C66_direction.
Print Assumptions C72_whitened_mean.
Print Assumptions C72_whitened_std.
Print Assumptions C72_whitening_refuted.

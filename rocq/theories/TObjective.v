(** C107: the gradient that the optimiser of the acquisition function is given. *)
From Coq Require Import Lra Lia.
From Coquelicot Require Import Coquelicot.
From Verif Require Import SKernel SAcqFunc PKernel TKernel PLinAlg PGp PGp2 PGrad TGrad TAcqFunc.
From Verif Require Import MObjective.
Open Scope R_scope.
Set Default Goal Selector "!".
Set Bullet Behavior "Strict Subproofs".

Lemma row2_len f (a b : list R) : length a = length b -> length (row2 f a b) = length a.
Proof. intros H. unfold row2. rewrite map_length, combine_length. lia. Qed.
Lemma denormalise_length lows widths t : length lows = length t -> length widths = length t -> length (denormalise lows widths t) = length t.
Proof. intros H1 H2. unfold denormalise. rewrite row2_len; rewrite row2_len; lia. Qed.
Lemma denormalise_nth lows widths t i : length lows = length t -> length widths = length t -> (i < length t)%nat ->
  nth i (denormalise lows widths t) 0 = nth i t 0 * nth i widths 0 + nth i lows 0.
Proof. intros H1 H2 Hi. unfold denormalise. rewrite row2_nth; rewrite ?row2_len; try lia. rewrite row2_nth by lia. reflexivity. Qed.
Lemma replace_len i v x : length (replace_coord i v x) = length x.
Proof. revert i. induction x as [|a x IH]; intros [|i]; cbn; auto. Qed.
Lemma denormalise_replace lows widths t i v : length lows = length t -> length widths = length t -> (i < length t)%nat ->
  denormalise lows widths (replace_coord i v t) = replace_coord i (v * nth i widths 0 + nth i lows 0) (denormalise lows widths t).
Proof.
  unfold denormalise, row2. revert lows widths i. induction t as [|a t IH]; intros [|l lows] [|w widths] [|i] H1 H2 Hi; cbn in *; try lia; try discriminate; auto.
  f_equal. apply IH; lia.
Qed.
(** There and back. *)
Lemma normalise_denormalise lows widths t : length lows = length t -> length widths = length t -> (forall w, In w widths -> w <> 0) ->
  normalise lows widths (denormalise lows widths t) = t.
Proof.
  intros H1 H2 Hw. pose proof (denormalise_length lows widths t H1 H2) as L.
  apply (nth_ext _ _ 0 0); [rewrite normalise_length; lia|]. intros i Hi. rewrite normalise_length in Hi by lia.
  rewrite normalise_nth by lia. rewrite denormalise_nth by lia. field. apply Hw, nth_In. lia.
Qed.

(** The gradient of a function of the transformed coordinates. *)
Lemma has_gradient_denormalise f lows widths t row : length lows = length t -> length widths = length t ->
  has_gradient f (denormalise lows widths t) row -> has_gradient (fun z => f (denormalise lows widths z)) t (row2 Rmult row widths).
Proof.
  intros H1 H2 (h & E & L & G1 & G2). pose proof (denormalise_length lows widths t H1 H2) as Ld.
  apply (has_gradient_intro _ (fun z => h (denormalise lows widths z))); [exact E| |].
  - intros i Hi. specialize (L i ltac:(lia)). rewrite denormalise_nth in L by auto.
    assert (continuous (fun v => v * nth i widths 0 + nth i lows 0) (nth i t 0)) as C.
    { apply @ex_derive_continuous. auto_derive. exact I. }
    specialize (C _ L). unfold filtermap in C. revert C. apply filter_imp. intros v Hv. rewrite denormalise_replace by auto. exact Hv.
  - split; [rewrite row2_length; lia|]. intros i Hi. unfold partial. specialize (G2 i ltac:(lia)). unfold partial in G2. rewrite denormalise_nth in G2 by auto.
    apply (is_derive_ext (fun v => h (replace_coord i (v * nth i widths 0 + nth i lows 0) (denormalise lows widths t)))).
    { intros v. rewrite denormalise_replace by auto. reflexivity. }
    rewrite row2_nth by lia. evar_last.
    + apply (is_derive_comp (fun u => h (replace_coord i u (denormalise lows widths t))) (fun v => v * nth i widths 0 + nth i lows 0)); [exact G2|].
      instantiate (1 := nth i widths 0). auto_derive; [exact I|]. ring.
    + unfold scal; simpl; unfold mult; simpl. ring.
Qed.
Lemma has_gradient_opp f x row : has_gradient f x row -> has_gradient (fun z => option_map Ropp (f z)) x (map Ropp row).
Proof.
  intros H. pose proof H as (h & E & _). replace (map Ropp row) with (map (fun g => g * -1) row).
  - apply (has_gradient_map Ropp f x row (h x)); [exact E|exact H|]. auto_derive; [exact I|ring].
  - apply map_ext. intros a. ring.
Qed.
(** A composite of the surrogate depends on its gradients only through [agrad]. *)
Definition with_grads (gp : surrogate) (mg sg : list R -> list R) : surrogate :=
  {| mean := mean gp; std := std gp; MAcqFunc.mean_grad := mg; std_grad := sg; noise_level := noise_level gp; y_max := y_max gp; two_axes := two_axes gp |}.
Lemma avalue_with_grads gp mg sg k x : avalue (with_grads gp mg sg) k x = avalue gp k x.
Proof. induction k; cbn [avalue]; try reflexivity; rewrite ?IHk1, ?IHk2, ?IHk; reflexivity. Qed.

Lemma alpha_length (k : list R -> list R -> R) X noise y g : update_model k X noise y = Some g -> length X = length noise -> length y = length X -> length (g_alpha g) = length X.
Proof.
  intros E H Hy. destruct (update_chol k X noise y g H E) as (HC & _ & Ha).
  assert (length (combine X noise) = length X) as HT by (rewrite combine_length; lia).
  pose proof (chol_length _ _ _ HC) as HTL. pose proof (chol_lower _ _ _ HC) as HL.
  assert (length (forward (g_L g) y) = length (g_L g)) as Hf by (apply forward_length; rewrite <- HTL, HT, Hy; auto).
  rewrite Ha, backward_length; auto. rewrite <- HTL. exact HT.
Qed.
Section Objective.
Variables (K : kernel) (lows widths : list R) (m s clip n zeta : R) (X : list (list R)) (y : list R) (g : gp) (t : list R).
Let prX := normalise lows widths.
Let surr := of_regressor K lows widths m s clip X y g (OneNoise n).
Let x := denormalise lows widths t.
Let sd := predicted_std (value K) prX s X g x.

(** What is asked of the surrogate and the point: it has been trained, on the transformed points, values and noise level, with the stationary kernel [K],
    whose gradient exists at the point; the mean is below the ceiling; the standard deviation is above the noise level and not numerically 0. *)
Definition trained_at : Prop :=
  length lows = length t /\ length widths = length t /\ (forall w, In w widths -> w <> 0) /\ 0 < s /\ 0 <= n /\
  stationary K = true /\ length y = length X /\
  update_model (value K) (map prX X) (repeat ((n / s) ^ 2) (length X)) (map (fun v => (v - m) / s) y) = Some g /\
  differentiable K (map prX X) t /\ gradient_x K t (map prX X) <> None /\
  predicted_mean (value K) prX m s clip X y g x < clip * maximum y - (clip - 1) * minimum y /\ n < sd /\ / 100000000 < sd.

(** The gradient of the objective function of an acquisition with preprocessor [Normalize_bounds] (the same as the regressor's, or another). *)
Lemma objective_true lows' widths' u : length lows' = length u -> length widths' = length u -> denormalise lows' widths' u = x -> trained_at ->
  exists mg sg, MAcqFunc.mean_grad surr x = mg /\ std_grad surr x = sg /\ length mg = length t /\ length sg = length t /\
    obj_grad surr (LogExp zeta None) (denormalise lows' widths') u = Some (map Ropp (row2 (fun a b => b / (sd - n) + 2 * zeta * a) mg sg)) /\
    has_gradient (obj_value surr (LogExp zeta None) (denormalise lows' widths')) u
      (map Ropp (row2 Rmult (row2 (fun a b => b * sd / (sd ^ 2 - n ^ 2) + 2 * zeta * a) (row2 Rdiv mg widths) (row2 (fun v w => v / s / w) sg widths)) widths')).
Proof.
  intros L1' L2' Ex (L1 & L2 & Hw & Hs & Hn & HK & Hy & HU & HD & HG & Hc & Hns & Hsd).
  assert (HX : length X = length (repeat ((n / s) ^ 2) (length X))) by (rewrite repeat_length; reflexivity).
  assert (HA : length (g_alpha g) = length X) by (rewrite (alpha_length _ _ _ _ _ HU); rewrite ?map_length; rewrite ?repeat_length; auto).
  assert (Lx : length x = length t) by (apply denormalise_length; auto).
  assert (Px : prX x = t) by (apply normalise_denormalise; auto).
  assert (exists mg, reported_mean_grad K s (map prX X) g (prX x) = Some mg) as [mg Em].
  { unfold reported_mean_grad, MGrad.mean_grad. rewrite Px. destruct (gradient_x K t (map prX X)); [|congruence]. eexists. reflexivity. }
  assert (exists sg, reported_std_grad K s (map prX X) g (prX x) = Some sg) as [sg Es].
  { unfold reported_std_grad. rewrite Px. destruct (gradient_x K t (map prX X)); [|congruence]. destruct (close_to_0 _); eexists; reflexivity. }
  assert (HD' : differentiable K (map prX X) (prX x)) by (rewrite Px; exact HD).
  pose proof (C72_true_mean_gradient K X y g lows widths x s m clip mg ltac:(lia) ltac:(lia) Hw HA HD' Em Hc) as GM.
  pose proof (C72_true_std_gradient K X _ _ g lows widths x s sg ltac:(lia) ltac:(lia) Hw HK HX HU HD' Hs Hsd Es) as GS.
  assert (Lm : length mg = length t).
  { destruct (C72_mean_gradient K (map prX X) g (prX x) s m mg) as [L _]; [rewrite map_length; exact HA|exact HD'|exact Em|]. rewrite Px in L. exact L. }
  exists mg, sg. assert (E1 : MAcqFunc.mean_grad surr x = mg) by (unfold surr, of_regressor; cbn [MAcqFunc.mean_grad]; fold prX; rewrite Em; reflexivity).
  assert (E2 : std_grad surr x = sg) by (unfold surr, of_regressor; cbn [std_grad]; fold prX; rewrite Es; reflexivity).
  assert (Lsg : length sg = length t).
  { unfold reported_std_grad in Es. rewrite Px in Es. destruct (gradient_x K t (map prX X)) as [G|] eqn:EG; [|congruence].
    pose proof (C66_all_rows K t (map prX X) G EG HD) as HG'. destruct (rows_length _ _ _ _ HG') as [R1 R2].
    destruct (close_to_0 _); injection Es as <-; [apply repeat_length|]. rewrite !scale_length, map_length. apply std_product_length. exact R2. }
  split; [exact E1|]. split; [exact E2|]. split; [exact Lm|]. split; [exact Lsg|].
  assert (Sd : std surr x = sd) by reflexivity. split.
  - unfold obj_grad. rewrite Ex. cbn [agrad]. unfold logexp_grad. cbn [surr of_regressor two_axes noise_level]. fold surr. rewrite E1, E2, Sd.
    rewrite (proj2 (gtb_true _ _) Hns). rewrite logexp_row by lia. reflexivity.
  - unfold obj_value. apply has_gradient_opp. apply (has_gradient_denormalise (avalue surr (LogExp zeta None))); auto. rewrite Ex.
    set (gp' := with_grads surr (fun _ => row2 Rdiv mg widths) (fun _ => row2 (fun v w => v / s / w) sg widths)).
    assert (S : smooth gp' x).
    { split; [|exact GS]. apply (has_gradient_intro _ (predicted_mean (value K) prX m s clip X y g)); [reflexivity| |exact GM].
      intros i Hi. apply filter_forall. reflexivity. }
    pose proof (logexp_true gp' x zeta n _ S eq_refl eq_refl (conj Hn Hns)) as T. cbn [gp' with_grads MAcqFunc.mean_grad std_grad] in T.
    destruct T as (h & A & B & C). exists h. split; [exact A|]. split; [|exact C]. exact B.
Qed.
(** In the coordinates that both use: right exactly in the directions along which the standard deviation has derivative 0, or if the scale [s] of the
    y-preprocessor is sd / (sd + n), that is 1 without noise. *)
Theorem C107_right_iff : trained_at ->
  exists row, obj_grad surr (LogExp zeta None) (denormalise lows widths) t = Some row /\
    (has_gradient (obj_value surr (LogExp zeta None) (denormalise lows widths)) t row <->
     forall i, (i < length t)%nat -> nth i (std_grad surr x) 0 = 0 \/ s * (sd + n) = sd).
Proof.
  intros H. pose proof H as (L1 & L2 & Hw & Hs & Hn & _ & _ & _ & _ & _ & _ & Hns & Hsd).
  destruct (objective_true lows widths t L1 L2 eq_refl H) as (mg & sg & E1 & E2 & Lm & Ls & Eo & T). rewrite E2.
  eexists. split; [exact Eo|].
  assert (Lr : length (row2 (fun a b => b / (sd - n) + 2 * zeta * a) mg sg) = length t) by (rewrite row2_len; lia).
  set (tr := row2 (fun a b => b * sd / (sd ^ 2 - n ^ 2) + 2 * zeta * a) (row2 Rdiv mg widths) (row2 (fun v w => v / s / w) sg widths)) in *.
  assert (Ld : length (row2 Rdiv mg widths) = length t) by (rewrite row2_len; lia).
  assert (Le : length (row2 (fun v w => v / s / w) sg widths) = length t) by (rewrite row2_len; lia).
  assert (Lt : length tr = length t) by (unfold tr; rewrite row2_len; lia).
  assert (Pp : 0 < sd ^ 2 - n ^ 2) by nra.
  assert (N1 : forall i, (i < length t)%nat -> nth i (map Ropp (row2 Rmult tr widths)) 0 - nth i (map Ropp (row2 (fun a b => b / (sd - n) + 2 * zeta * a) mg sg)) 0
            = nth i sg 0 * (s * (sd + n) - sd) / (s * (sd ^ 2 - n ^ 2))).
  { intros i Hi. assert (Wi : nth i widths 0 <> 0) by (apply Hw, nth_In; lia). rewrite !(map_nth0 Ropp) by (rewrite ?row2_len; lia). rewrite !row2_nth by lia. unfold tr. rewrite row2_nth by lia. rewrite !row2_nth by lia.
    field. repeat split; try lra; auto. }
  split.
  - intros G i Hi. pose proof (has_gradient_unique _ _ _ _ T G) as U. specialize (N1 i Hi). rewrite U in N1. rewrite Rminus_eq_0 in N1.
    symmetry in N1. unfold Rdiv in N1. apply Rmult_integral in N1 as [N1|N1]; [|exfalso; revert N1; apply Rinv_neq_0_compat; apply Rmult_integral_contrapositive; split; lra].
    apply Rmult_integral in N1 as [N1|N1]; [left; exact N1|right; lra].
  - intros Z. replace (map Ropp (row2 (fun a b => b / (sd - n) + 2 * zeta * a) mg sg)) with (map Ropp (row2 Rmult tr widths)); [exact T|].
    apply (nth_ext _ _ 0 0); [rewrite !map_length, row2_len; lia|]. intros i Hi. rewrite map_length, row2_len in Hi by lia.
    specialize (N1 i ltac:(lia)). assert (nth i sg 0 * (s * (sd + n) - sd) = 0) as Z'; [|rewrite Z' in N1; unfold Rdiv in N1; lra].
    destruct (Z i ltac:(lia)) as [Q|Q]; [rewrite Q; ring|rewrite Q; ring].
Qed.
End Objective.
(** Without y-preprocessor (or with one of scale 1) and without noise. *)
Theorem C107_right : forall K lows widths m clip zeta X y g t, trained_at K lows widths m 1 clip 0 X y g t ->
  let gp := of_regressor K lows widths m 1 clip X y g (OneNoise 0) in
  exists row, obj_grad gp (LogExp zeta None) (denormalise lows widths) t = Some row /\
    has_gradient (obj_value gp (LogExp zeta None) (denormalise lows widths)) t row.
Proof.
  intros K lows widths m clip zeta X y g t H gp. destruct (C107_right_iff K lows widths m 1 clip 0 zeta X y g t H) as (row & E & I).
  exists row. split; [exact E|]. apply I. intros i Hi. right. ring.
Qed.
(** If the acquisition has no preprocessor or another one: right exactly in the directions where the width is the same as the regressor's or the reported component is 0. *)
Theorem C107_other_preprocessor : forall K lows widths clip zeta X y g t lows' widths' u, trained_at K lows widths 0 1 clip 0 X y g t ->
  length lows' = length u -> length widths' = length u -> denormalise lows' widths' u = denormalise lows widths t ->
  let gp := of_regressor K lows widths 0 1 clip X y g (OneNoise 0) in
  exists row, obj_grad gp (LogExp zeta None) (denormalise lows' widths') u = Some row /\
    (has_gradient (obj_value gp (LogExp zeta None) (denormalise lows' widths')) u row <->
     forall i, (i < length u)%nat -> nth i row 0 = 0 \/ nth i widths' 0 = nth i widths 0).
Proof.
  intros K lows widths clip zeta X y g t lows' widths' u H L1' L2' Eu gp. pose proof H as (L1 & L2 & Hw & _ & _ & _ & _ & _ & _ & _ & _ & Hns & _).
  assert (Lu : length u = length t).
  { rewrite <- (denormalise_length lows' widths' u), Eu by auto. apply denormalise_length; auto. }
  destruct (objective_true K lows widths 0 1 clip 0 zeta X y g t lows' widths' u L1' L2' Eu H) as (mg & sg & E1 & E2 & Lm & Ls & Eo & T).
  set (sd := predicted_std _ _ _ _ _ _) in *. eexists. split; [exact Eo|].
  set (tr := row2 (fun a b => b * sd / (sd ^ 2 - 0 ^ 2) + 2 * zeta * a) (row2 Rdiv mg widths) (row2 (fun v w => v / 1 / w) sg widths)) in *.
  set (rep := row2 (fun a b => b / (sd - 0) + 2 * zeta * a) mg sg) in *.
  assert (Lr : length rep = length t) by (unfold rep; rewrite row2_len; lia).
  assert (Ld : length (row2 Rdiv mg widths) = length t) by (rewrite row2_len; lia).
  assert (Le : length (row2 (fun v w => v / 1 / w) sg widths) = length t) by (rewrite row2_len; lia).
  assert (Lt : length tr = length t) by (unfold tr; rewrite row2_len; lia).
  assert (N1 : forall i, (i < length t)%nat -> nth i (map Ropp (row2 Rmult tr widths')) 0 = nth i (map Ropp rep) 0 * (nth i widths' 0 / nth i widths 0)).
  { intros i Hi. assert (Wi : nth i widths 0 <> 0) by (apply Hw, nth_In; lia). rewrite !(map_nth0 Ropp) by (rewrite ?row2_len; lia). rewrite !row2_nth by lia. unfold tr, rep. rewrite !row2_nth by lia.
    field. repeat split; try lra; auto. }
  split.
  - intros G i Hi. pose proof (has_gradient_unique _ _ _ _ T G) as U. specialize (N1 i ltac:(lia)). rewrite U in N1.
    assert (Wi : nth i widths 0 <> 0) by (apply Hw, nth_In; lia).
    destruct (Req_dec (nth i (map Ropp rep) 0) 0) as [Z|Z]; [left; exact Z|]. right.
    apply (Rmult_eq_reg_l (nth i (map Ropp rep) 0 / nth i widths 0)).
    + transitivity (nth i (map Ropp rep) 0 * (nth i widths' 0 / nth i widths 0)); [field; exact Wi|]. rewrite <- N1. field. exact Wi.
    + apply Rmult_integral_contrapositive. split; [exact Z|]. apply Rinv_neq_0_compat. exact Wi.
  - intros Z. replace (map Ropp rep) with (map Ropp (row2 Rmult tr widths')); [exact T|].
    apply (nth_ext _ _ 0 0); [rewrite !map_length, row2_len; lia|]. intros i Hi. rewrite map_length, row2_len in Hi by lia.
    assert (Wi : nth i widths 0 <> 0) by (apply Hw, nth_In; lia). rewrite (N1 i ltac:(lia)). destruct (Z i ltac:(lia)) as [Q|Q]; [rewrite Q; ring|rewrite Q; field; exact Wi].
Qed.

(** *** Examples: one training point at 0 with value s; prior [0, w]; no noise; the point w. *)
Definition g1 : gp := mkGp ((nil, 1) :: nil) ((1 :: nil) :: nil) (1 :: nil).
Lemma solve_g1 : update_model (value gauss) ((0 :: nil) :: nil) (0 :: nil) (1 :: nil) = Some g1.
Proof.
  unfold update_model, kernel_inverse, cholesky, kernel_matrix. cbn. change (exp _) with (value gauss (0 :: nil) (0 :: nil)). rewrite gauss_0.
  destruct (Rlt_dec 0 (1 + 0 - 0)) as [|N]; [|exfalso; apply N; lra]. replace (1 + 0 - 0) with 1 by ring. rewrite sqrt_1.
  unfold inverse, unit_vector, backward, forward, g1. cbn. repeat f_equal; field.
Qed.
Definition e1 : R := exp (- / 2).
Lemma e1_sq : 0 < e1 < 1 /\ e1 * e1 < 3 / 4.
Proof.
  pose proof exp_half as H. fold e1 in H. split; [exact H|]. unfold e1. rewrite <- exp_plus. replace (- / 2 + - / 2) with (-(1)) by lra.
  rewrite exp_Ropp. assert (2 < exp 1) as E.
  { pose proof (exp_ineq1 1 ltac:(lra)). lra. }
  apply (Rmult_lt_reg_l (exp 1)); [lra|]. rewrite Rinv_r by lra. lra.
Qed.
Lemma g1_std w s : w <> 0 -> predicted_std (value gauss) (normalise (0 :: nil) (w :: nil)) s ((0 :: nil) :: nil) g1 (denormalise (0 :: nil) (w :: nil) (1 :: nil)) = s * sqrt (1 - e1 * e1).
Proof.
  intros H. unfold predicted_std. replace (denormalise (0 :: nil) (w :: nil) (1 :: nil)) with (1 * w :: nil) by (cbn; f_equal; ring).
  rewrite prX_at, example_map by exact H. f_equal. unfold gp_std, gp_var, mul_columns.
  cbn [map g1 g_V g_L length combine fold_left fst snd repeat vadd scale dot]. rewrite gauss_1. fold e1.
  assert (value gauss (1 :: nil) (1 :: nil) = 1) as ->.
  { cbn. replace (- / 2 * (((1 - 1) / 1) * (((1 - 1) / 1) * 1) + 0)) with 0 by field. apply exp_0. }
  pose proof e1_sq as [_ B].
  match goal with |- context [dot ?a ?b] => assert (dot a b = e1 * e1) as -> end; [cbn; ring|].
  destruct (Rlt_dec (1 - e1 * e1) 0); [lra|reflexivity].
Qed.
Lemma g1_big s : 1 <= s -> / 100000000 < s * sqrt (1 - e1 * e1).
Proof.
  intros Hs. pose proof e1_sq as [_ H]. assert (/ 2 < sqrt (1 - e1 * e1)); [|nra]. rewrite <- (sqrt_Rsqr (/ 2)) by lra. apply sqrt_lt_1; unfold Rsqr; lra.
Qed.
Lemma g1_trained w s : w <> 0 -> 1 <= s -> trained_at gauss (0 :: nil) (w :: nil) 0 s (11 / 10) 0 ((0 :: nil) :: nil) (s :: nil) g1 (1 :: nil).
Proof.
  intros Hw Hs. pose proof (g1_big s Hs) as Hb. pose proof e1_sq as [E1 E2]. unfold trained_at. rewrite g1_std by exact Hw.
  split; [reflexivity|]. split; [reflexivity|]. split; [intros v [<-|[]]; exact Hw|]. split; [lra|]. split; [lra|]. split; [reflexivity|]. split; [reflexivity|].
  split.
  { rewrite example_map by exact Hw. cbn [length repeat map]. replace ((0 / s) ^ 2) with 0 by (field; lra). replace ((s - 0) / s) with 1 by (field; lra). apply solve_g1. }
  split; [pose proof (example_differentiable w Hw) as D; rewrite prX_at in D by exact Hw; exact D|].
  split; [rewrite example_map by exact Hw; rewrite gauss_row; discriminate|].
  split; [|split; lra].
  unfold predicted_mean. replace (denormalise (0 :: nil) (w :: nil) (1 :: nil)) with (1 * w :: nil) by (cbn; f_equal; ring).
  rewrite prX_at, example_map by exact Hw. unfold gp_mean. cbn [map g1 g_alpha dot maximum minimum fold_left]. rewrite gauss_1. fold e1. apply Rmin_case_strong; nra.
Qed.
Lemma g1_std_row w s : w <> 0 -> 1 <= s ->
  std_grad (of_regressor gauss (0 :: nil) (w :: nil) 0 s (11 / 10) ((0 :: nil) :: nil) (s :: nil) g1 (OneNoise 0)) (denormalise (0 :: nil) (w :: nil) (1 :: nil))
  = s * (s * (e1 * e1 / sqrt (1 - e1 * e1))) :: nil.
Proof.
  intros Hw Hs. pose proof (g1_std w s Hw) as Es. pose proof (g1_big s Hs) as Hb. pose proof e1_sq as [E1 E2]. unfold predicted_std in Es.
  cbn [of_regressor std_grad]. replace (denormalise (0 :: nil) (w :: nil) (1 :: nil)) with (1 * w :: nil) in * by (cbn; f_equal; ring).
  rewrite prX_at, example_map in * by exact Hw. unfold reported_std_grad. rewrite Es, gauss_row. fold e1.
  assert (0 < sqrt (1 - e1 * e1)) by (apply sqrt_lt_R0; lra).
  assert (gp_std (value gauss) ((0 :: nil) :: nil) g1 (1 :: nil) = sqrt (1 - e1 * e1)) as -> by (apply (Rmult_eq_reg_l s); lra).
  unfold close_to_0. destruct (Rle_dec _ _) as [C|_]; [rewrite Rabs_right in C by lra; lra|].
  unfold std_product, gram, mul_columns. cbn.
  replace (- / 2 * ((1 - 0) / 1 * ((1 - 0) / 1 * 1) + 0)) with (- / 2) by field. fold e1.
  f_equal. f_equal. f_equal. field. lra.
Qed.
(** Right without y-preprocessor. *)
Example C107_case : exists row, obj_grad (of_regressor gauss (0 :: nil) (5 :: nil) 0 1 (11 / 10) ((0 :: nil) :: nil) (1 :: nil) g1 (OneNoise 0)) (LogExp 1 None) (denormalise (0 :: nil) (5 :: nil)) (1 :: nil) = Some row /\
  has_gradient (obj_value (of_regressor gauss (0 :: nil) (5 :: nil) 0 1 (11 / 10) ((0 :: nil) :: nil) (1 :: nil) g1 (OneNoise 0)) (LogExp 1 None) (denormalise (0 :: nil) (5 :: nil))) (1 :: nil) row.
Proof. apply C107_right. apply g1_trained; lra. Qed.
(** Refuted: with a y-preprocessor of any scale s > 1 (and offset 0), without noise. *)
Theorem C107_scale_refuted : forall w s zeta, w <> 0 -> 1 < s -> exists K X y g t row,
  trained_at K (0 :: nil) (w :: nil) 0 s (11 / 10) 0 X y g t /\
  let gp := of_regressor K (0 :: nil) (w :: nil) 0 s (11 / 10) X y g (OneNoise 0) in
  obj_grad gp (LogExp zeta None) (denormalise (0 :: nil) (w :: nil)) t = Some row /\
  ~ has_gradient (obj_value gp (LogExp zeta None) (denormalise (0 :: nil) (w :: nil))) t row.
Proof.
  intros w s zeta Hw Hs. pose proof (g1_trained w s Hw (Rlt_le _ _ Hs)) as HT.
  destruct (C107_right_iff gauss (0 :: nil) (w :: nil) 0 s (11 / 10) 0 zeta ((0 :: nil) :: nil) (s :: nil) g1 (1 :: nil) HT) as (row & E & I).
  exists gauss, ((0 :: nil) :: nil), (s :: nil), g1, (1 :: nil), row. split; [exact HT|]. cbv zeta. split; [exact E|]. intros G.
  destruct (proj1 I G 0%nat ltac:(cbn; lia)) as [Z|Z].
  - rewrite g1_std_row in Z by lra. cbn [nth] in Z. pose proof e1_sq as [E1 E2]. assert (0 < sqrt (1 - e1 * e1)) by (apply sqrt_lt_R0; lra).
    assert (0 < e1 * e1 / sqrt (1 - e1 * e1)) by (apply Rdiv_lt_0_compat; nra).
    pose proof (Rmult_lt_0_compat s _ ltac:(lra) (Rmult_lt_0_compat s _ ltac:(lra) H0)). lra.
  - rewrite g1_std in Z by exact Hw. pose proof (g1_big s (Rlt_le _ _ Hs)). nra.
Qed.
(** Refuted: if the regressor normalises and the acquisition does not (its default), for any prior width but 1. The zeta is such that the reported component is
    not 0. *)
Theorem C107_no_preprocessor_refuted : forall w, w <> 0 -> w <> 1 -> exists K X y g t u zeta row,
  trained_at K (0 :: nil) (w :: nil) 0 1 (11 / 10) 0 X y g t /\ denormalise (0 :: nil) (1 :: nil) u = denormalise (0 :: nil) (w :: nil) t /\
  let gp := of_regressor K (0 :: nil) (w :: nil) 0 1 (11 / 10) X y g (OneNoise 0) in
  obj_grad gp (LogExp zeta None) (denormalise (0 :: nil) (1 :: nil)) u = Some row /\
  ~ has_gradient (obj_value gp (LogExp zeta None) (denormalise (0 :: nil) (1 :: nil))) u row.
Proof.
  intros w Hw H1. pose proof (g1_trained w 1 Hw (Rle_refl _)) as HT. assert (Eu : denormalise (0 :: nil) (1 :: nil) (w :: nil) = denormalise (0 :: nil) (w :: nil) (1 :: nil)) by (cbn; f_equal; ring).
  destruct (C107_other_preprocessor gauss (0 :: nil) (w :: nil) (11 / 10) 0 ((0 :: nil) :: nil) (1 :: nil) g1 (1 :: nil) (0 :: nil) (1 :: nil) (w :: nil) HT eq_refl eq_refl Eu) as (row & E & I).
  exists gauss, ((0 :: nil) :: nil), (1 :: nil), g1, (1 :: nil), (w :: nil), 0, row. split; [exact HT|]. split; [exact Eu|]. cbv zeta. split; [exact E|]. intros G.
  destruct (proj1 I G 0%nat ltac:(cbn; lia)) as [Z|Z]; [|cbn in Z; congruence].
  destruct (objective_true gauss (0 :: nil) (w :: nil) 0 1 (11 / 10) 0 0 ((0 :: nil) :: nil) (1 :: nil) g1 (1 :: nil) (0 :: nil) (1 :: nil) (w :: nil) eq_refl eq_refl Eu HT) as (mg & sg & _ & E2 & Lm & Ls & Eo & _).
  rewrite E in Eo. injection Eo as ->. rewrite g1_std_row in E2 by lra. subst sg. destruct mg as [|a [|]]; cbn in Lm; try lia.
  rewrite g1_std in Z by exact Hw. cbn in Z. pose proof e1_sq as [E1 E2]. assert (0 < sqrt (1 - e1 * e1)) by (apply sqrt_lt_R0; lra).
  assert (0 < e1 * e1 / sqrt (1 - e1 * e1)) by (apply Rdiv_lt_0_compat; nra).
  assert (0 < 1 * (1 * (e1 * e1 / sqrt (1 - e1 * e1))) / (1 * sqrt (1 - e1 * e1) - 0)) by (apply Rdiv_lt_0_compat; lra). lra.
Qed.

Print Assumptions C107_right_iff.
Print Assumptions C107_right.
Print Assumptions C107_other_preprocessor.
Print Assumptions C107_scale_refuted.
Print Assumptions C107_no_preprocessor_refuted.

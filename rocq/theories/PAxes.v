(** Lemmas for the order of the parameters. *)
From Coq Require Import Lra Lia.
From Verif Require Import SAxes PLinAlg PKernel.
Import ListNotations.
Set Default Goal Selector "!". Set Bullet Behavior "Strict Subproofs".
Open Scope R_scope.

Section Order.
Variable d : nat.
Variable p : list nat.
Hypothesis Hp : order d p.
Notation r := (reorder p).
Lemma order_length : length p = d.
Proof. rewrite (Permutation_length Hp). apply seq_length. Qed.
Lemma order_in i : In i p <-> (i < d)%nat.
Proof. split; intros H; [apply (Permutation_in _ Hp) in H; apply in_seq in H; lia|]. apply (Permutation_in _ (Permutation_sym Hp)), in_seq. lia. Qed.
Lemma reorder_length x : length (r x) = d.
Proof. unfold reorder. rewrite map_length. apply order_length. Qed.
Lemma map_nth_seq (x : list R) : map (fun i => nth i x 0) (seq 0 (length x)) = x.
Proof.
  apply (nth_ext _ _ 0 0); [rewrite map_length, seq_length; reflexivity|]. intros i Hi. rewrite map_length, seq_length in Hi.
  rewrite (nth_indep _ 0 (nth 0 x 0)) by (rewrite map_length, seq_length; exact Hi). rewrite (map_nth (fun i => nth i x 0)), seq_nth by exact Hi. reflexivity.
Qed.
Lemma reorder_perm x : length x = d -> Permutation (r x) x.
Proof. intros Hx. rewrite <- (map_nth_seq x) at 2. rewrite Hx. apply Permutation_map, Hp. Qed.
Lemma reorder_ext x y : (forall i, (i < d)%nat -> nth i x 0 = nth i y 0) -> r x = r y.
Proof. intros H. apply map_ext_in. intros i Hi. apply H, order_in, Hi. Qed.
Lemma nth_map0 (f : R -> R) x i : (i < length x)%nat -> nth i (map f x) 0 = f (nth i x 0).
Proof. intros Hi. rewrite (nth_indep _ 0 (f 0)) by (rewrite map_length; exact Hi). apply map_nth. Qed.
Lemma reorder_map (f : R -> R) x : length x = d -> map f (r x) = r (map f x).
Proof. intros Hx. unfold reorder. rewrite map_map. apply map_ext_in. intros i Hi. apply order_in in Hi. symmetry. apply nth_map0. lia. Qed.
Lemma reorder_repeat l : r (repeat l d) = repeat l d.
Proof.
  unfold reorder. assert (forall q : list nat, incl q p -> map (fun i => nth i (repeat l d) 0) q = repeat l (length q)) as H.
  { induction q as [|i q IH]; intros Hq; [reflexivity|]. cbn. rewrite IH by (intros j Hj; apply Hq; right; exact Hj). f_equal.
    assert (i < d)%nat as Hi by (apply order_in, Hq; left; reflexivity). rewrite (nth_indep _ 0 l) by (rewrite repeat_length; exact Hi). apply nth_repeat. }
  rewrite (H p (incl_refl p)), order_length. reflexivity.
Qed.
Lemma nth_row2 (f : R -> R -> R) a : forall b i, length a = length b -> (i < length a)%nat -> nth i (row2 f a b) 0 = f (nth i a 0) (nth i b 0).
Proof. unfold row2. induction a as [|u a IH]; intros [|v b] [|i] H Hi; cbn in *; try lia; [reflexivity|]. apply IH; lia. Qed.
Lemma row2_length (f : R -> R -> R) a b : length a = length b -> length (row2 f a b) = length a.
Proof. intros H. unfold row2. rewrite map_length, combine_length. lia. Qed.
Lemma row2_reorder (f : R -> R -> R) a b : length a = d -> length b = d -> row2 f (r a) (r b) = r (row2 f a b).
Proof.
  intros Ha Hb. transitivity (map (fun i => f (nth i a 0) (nth i b 0)) p).
  - unfold reorder, row2. clear. induction p as [|i q IH]; [reflexivity|]. cbn. f_equal. exact IH.
  - apply map_ext_in. intros i Hi. apply order_in in Hi. symmetry. apply nth_row2; lia.
Qed.
Lemma scaled_diff_length ls : forall x y, length ls = length x -> length y = length x -> length (scaled_diff ls x y) = length x.
Proof. induction ls as [|l ls IH]; intros [|a x] [|b y] H1 H2; cbn in *; try lia. rewrite IH; lia. Qed.
Lemma nth_scaled_diff ls : forall x y i, length ls = length x -> length y = length x -> (i < length x)%nat -> nth i (scaled_diff ls x y) 0 = (nth i x 0 - nth i y 0) / nth i ls 0.
Proof. induction ls as [|l ls IH]; intros [|a x] [|b y] [|i] H1 H2 Hi; cbn in *; try lia; [reflexivity|]. apply IH; lia. Qed.
Lemma scaled_diff_reorder ls x y : length ls = d -> length x = d -> length y = d -> scaled_diff (r ls) (r x) (r y) = r (scaled_diff ls x y).
Proof.
  intros Hl Hx Hy. transitivity (map (fun i => (nth i x 0 - nth i y 0) / nth i ls 0) p).
  - unfold reorder. clear. induction p as [|i q IH]; [reflexivity|]. cbn. f_equal. exact IH.
  - apply map_ext_in. intros i Hi. apply order_in in Hi. symmetry. apply nth_scaled_diff; lia.
Qed.
Lemma sum_sq_perm u v : Permutation u v -> sum_sq u = sum_sq v.
Proof. induction 1; cbn [sum_sq]; lra. Qed.
Lemma sum_sq_reorder v : length v = d -> sum_sq (r v) = sum_sq v.
Proof. intros H. apply sum_sq_perm, reorder_perm, H. Qed.
Lemma total_perm u v : Permutation u v -> fold_right Rplus 0 u = fold_right Rplus 0 v.
Proof. induction 1; cbn [fold_right]; lra. Qed.
Lemma inner_total x : forall y, inner x y = fold_right Rplus 0 (row2 Rmult x y).
Proof. induction x as [|a x IH]; intros [|b y]; cbn; try reflexivity. rewrite IH. reflexivity. Qed.
Lemma inner_reorder x y : length x = d -> length y = d -> inner (r x) (r y) = inner x y.
Proof. intros Hx Hy. rewrite !inner_total, row2_reorder by assumption. apply total_perm, reorder_perm. rewrite row2_length; lia. Qed.
Lemma dot_inner x : forall y, dot x y = inner x y.
Proof. induction x as [|a x IH]; intros [|b y]; cbn; rewrite ?IH; reflexivity. Qed.
Lemma per_dim_length s : sized_scales d s -> length (per_dim s d) = d.
Proof. destruct s; cbn; [intros; apply repeat_length|auto]. Qed.
Lemma per_dim_reorder s : sized_scales d s -> per_dim (reorder_scales p s) d = r (per_dim s d).
Proof. destruct s; cbn; intros H; [symmetry; apply reorder_repeat|reflexivity]. Qed.
Lemma diff_reorder s x y : sized_scales d s -> length x = d -> length y = d ->
  scaled_diff (per_dim (reorder_scales p s) (length (r x))) (r x) (r y) = r (scaled_diff (per_dim s (length x)) x y).
Proof. intros Hs Hx Hy. rewrite reorder_length, per_dim_reorder, Hx by exact Hs. apply scaled_diff_reorder; auto. apply per_dim_length, Hs. Qed.
Lemma sq_reorder s x y : sized_scales d s -> length x = d -> length y = d ->
  sum_sq (scaled_diff (per_dim (reorder_scales p s) (length (r x))) (r x) (r y)) = sum_sq (scaled_diff (per_dim s (length x)) x y).
Proof. intros Hs Hx Hy. rewrite diff_reorder by assumption. apply sum_sq_reorder. rewrite scaled_diff_length; auto; try lia. rewrite Hx. apply per_dim_length, Hs. Qed.
Lemma sq_reorder_iso l x y : length x = d -> length y = d ->
  sum_sq (scaled_diff (repeat l (length (r x))) (r x) (r y)) = sum_sq (scaled_diff (repeat l (length x)) x y).
Proof. intros Hx Hy. apply (sq_reorder (Iso l) x y I Hx Hy). Qed.

Lemma value_reorder k x y : sized d k -> length x = d -> length y = d -> value (reorder_kernel p k) (r x) (r y) = value k x y.
Proof.
  intros Hk Hx Hy. induction k; cbn [reorder_kernel value sized] in *.
  - rewrite sq_reorder by assumption. reflexivity.
  - rewrite sq_reorder by assumption. reflexivity.
  - rewrite sq_reorder_iso by assumption. reflexivity.
  - rewrite sq_reorder_iso by assumption. reflexivity.
  - reflexivity.
  - reflexivity.
  - rewrite inner_reorder by assumption. reflexivity.
  - rewrite IHk1, IHk2 by apply Hk. reflexivity.
  - rewrite IHk1, IHk2 by apply Hk. reflexivity.
  - rewrite IHk by exact Hk. reflexivity.
Qed.
Lemma flat_reorder k : flat (reorder_kernel p k) = flat k.
Proof. induction k; cbn; congruence. Qed.
Lemma grad_length k : forall axes x y row, sized d k -> length x = d -> length y = d -> grad axes k x y = Some row -> length row = d.
Proof.
  assert (HD : forall s x y, sized_scales d s -> length x = d -> length y = d -> length (scaled_diff (per_dim s (length x)) x y) = d).
  { intros s x y Hs Hx Hy. rewrite scaled_diff_length; auto; try lia. rewrite Hx. apply per_dim_length, Hs. }
  assert (HR : forall f s x y, sized_scales d s -> length x = d -> length y = d -> length (row2 f (scaled_diff (per_dim s (length x)) x y) (per_dim s (length x))) = d).
  { intros f s x y Hs Hx Hy. rewrite row2_length; [apply HD; assumption|]. rewrite HD by assumption. rewrite Hx. symmetry. apply per_dim_length, Hs. }
  assert (HI : forall l x y, length x = d -> length y = d -> length (scaled_diff (repeat l (length x)) x y) = d) by (intros l x y; apply (HD (Iso l) x y I)).
  induction k; intros axes x y row Hk Hx Hy H; cbn [grad sized] in *.
  - destruct (Nat.ltb 1 axes); [discriminate|]. injection H as <-. apply HR; assumption.
  - destruct (Nat.ltb 1 axes); [discriminate|]. destruct nu; try discriminate; try (injection H as <-; apply HR; assumption).
    destruct (_ && _); [discriminate|]. injection H as <-. apply HR; assumption.
  - destruct (Nat.ltb 1 axes); [discriminate|]. injection H as <-. rewrite map_length. apply HI; assumption.
  - destruct (Nat.ltb 1 axes); [discriminate|]. injection H as <-. rewrite map_length. apply HI; assumption.
  - injection H as <-. rewrite map_length. exact Hy.
  - injection H as <-. rewrite map_length. exact Hy.
  - injection H as <-. exact Hy.
  - destruct (grad axes k1 x y) eqn:E1; [|discriminate]. destruct (grad axes k2 x y) eqn:E2; [|discriminate]. injection H as <-.
    apply IHk1 in E1; try tauto. apply IHk2 in E2; try tauto. rewrite row2_length; congruence.
  - destruct (_ && _); [discriminate|]. destruct (grad (S axes) k2 x y) eqn:E2; [|discriminate]. destruct (grad (S axes) k1 x y) eqn:E1; [|discriminate]. injection H as <-.
    apply IHk1 in E1; try tauto. apply IHk2 in E2; try tauto. rewrite row2_length; rewrite !map_length; congruence.
  - destruct (_ && _); [discriminate|]. destruct (grad axes k x y) eqn:E; [|discriminate]. injection H as <-. rewrite map_length. apply (IHk axes x y); auto.
Qed.
Lemma both_reorder a b : (forall u, a = Some u -> length u = d) -> (forall u, b = Some u -> length u = d) ->
  both (row2 Rplus) (option_map r a) (option_map r b) = option_map r (both (row2 Rplus) a b).
Proof. destruct a as [u|], b as [v|]; intros Ha Hb; cbn; try reflexivity. f_equal. apply row2_reorder; auto. Qed.
Lemma map_reorder_opt (f : R -> R) (a : option (list R)) : (forall u, a = Some u -> length u = d) -> option_map (map f) (option_map r a) = option_map r (option_map (map f) a).
Proof. destruct a as [u|]; intros Ha; cbn; [|reflexivity]. f_equal. apply reorder_map; auto. Qed.
Lemma map_opt_length (f : R -> R) (a : option (list R)) : (forall u, a = Some u -> length u = d) -> forall u, option_map (map f) a = Some u -> length u = d.
Proof. destruct a as [v|]; intros Ha u H; [|discriminate]. injection H as <-. rewrite map_length. auto. Qed.
Lemma grad_reorder k : forall axes x y, sized d k -> length x = d -> length y = d -> grad axes (reorder_kernel p k) (r x) (r y) = option_map r (grad axes k x y).
Proof.
  induction k; intros axes x y Hk Hx Hy; cbn [reorder_kernel grad sized] in *.
  - destruct (Nat.ltb 1 axes); [reflexivity|]. cbn [option_map]. f_equal. rewrite sq_reorder, diff_reorder by assumption.
    rewrite reorder_length, per_dim_reorder, Hx by exact Hk. apply row2_reorder; [rewrite scaled_diff_length; auto; try lia|]; rewrite ?Hx; apply per_dim_length, Hk.
  - assert (RR : forall f, row2 f (scaled_diff (per_dim (reorder_scales p s) (length (r x))) (r x) (r y)) (per_dim (reorder_scales p s) (length (r x)))
       = r (row2 f (scaled_diff (per_dim s (length x)) x y) (per_dim s (length x)))).
    { intros f. rewrite diff_reorder by assumption. rewrite reorder_length, per_dim_reorder, Hx by exact Hk. apply row2_reorder; [rewrite scaled_diff_length; auto; try lia|]; rewrite ?Hx; apply per_dim_length, Hk. }
    destruct (Nat.ltb 1 axes); [reflexivity|]. rewrite !sq_reorder by assumption. destruct nu; cbn [option_map].
    + rewrite (reorder_length x), Hx. destruct (_ && _); [reflexivity|]. cbn [option_map]. f_equal. rewrite <- Hx at 3 4. rewrite <- (reorder_length x). apply RR.
    + f_equal. apply RR.
    + f_equal. apply RR.
    + reflexivity.
  - destruct (Nat.ltb 1 axes); [reflexivity|]. cbn [option_map]. f_equal. rewrite sq_reorder_iso by assumption.
    pose proof (diff_reorder (Iso l) x y I Hx Hy) as E. cbn [per_dim reorder_scales] in E. rewrite E. apply reorder_map. rewrite scaled_diff_length; auto; rewrite ?repeat_length; lia.
  - destruct (Nat.ltb 1 axes); [reflexivity|]. cbn [option_map]. f_equal. rewrite sq_reorder_iso by assumption.
    pose proof (diff_reorder (Iso 1) x y I Hx Hy) as E. cbn [per_dim reorder_scales] in E. rewrite E. apply reorder_map. rewrite scaled_diff_length; auto; rewrite ?repeat_length; lia.
  - cbn [option_map]. f_equal. apply (reorder_map (fun _ => 0)). exact Hy.
  - cbn [option_map]. f_equal. apply (reorder_map (fun _ => 0)). exact Hy.
  - reflexivity.
  - rewrite IHk1, IHk2 by tauto. apply both_reorder; intros u E; eapply grad_length in E; eauto; tauto.
  - rewrite !flat_reorder. destruct (_ && _); [reflexivity|]. rewrite IHk1, IHk2, !value_reorder by tauto.
    rewrite !map_reorder_opt by (intros u E; eapply grad_length in E; eauto; tauto).
    apply both_reorder; apply map_opt_length; intros u E; eapply grad_length in E; eauto; tauto.
  - rewrite flat_reorder. destruct (_ && _); [reflexivity|]. rewrite IHk, value_reorder by tauto. apply map_reorder_opt. intros u E; eapply grad_length in E; eauto.
Qed.
Lemma gradient_x_reorder k x X : sized d k -> length x = d -> List.Forall (fun y => length y = d) X ->
  gradient_x (reorder_kernel p k) (r x) (map r X) = option_map (map r) (gradient_x k x X).
Proof.
  intros Hk Hx. unfold gradient_x. induction X as [|y X IH]; intros HX; [reflexivity|]. apply List.Forall_cons_iff in HX as [Hy HX]. cbn [map fold_right]. rewrite IH by assumption. rewrite grad_reorder by auto.
  destruct (grad 0 k x y); cbn; [|reflexivity]. destruct (fold_right _ _ X); reflexivity.
Qed.
Lemma gradient_x_length k x X G : sized d k -> length x = d -> List.Forall (fun y => length y = d) X -> gradient_x k x X = Some G -> List.Forall (fun y => length y = d) G.
Proof.
  intros Hk Hx. revert G. unfold gradient_x. induction X as [|y X IH]; intros G HX H; cbn in H; [injection H as <-; constructor|]. apply List.Forall_cons_iff in HX as [Hy HX].
  destruct (grad 0 k x y) eqn:E; [|discriminate]. destruct (fold_right _ _ X); [|discriminate]. injection H as <-. constructor; [exact (grad_length k 0 x y _ Hk Hx Hy E)|apply IH; auto].
Qed.
Lemma vadd_row2 a b : vadd a b = row2 Rplus a b.
Proof. reflexivity. Qed.
Lemma mul_columns_from G : forall acc b, length acc = d -> List.Forall (fun c => length c = d) G ->
  fold_left (fun acc q => vadd acc (scale (snd q) (fst q))) (combine (map r G) b) (r acc) = r (fold_left (fun acc q => vadd acc (scale (snd q) (fst q))) (combine G b) acc)
  /\ length (fold_left (fun acc q => vadd acc (scale (snd q) (fst q))) (combine G b) acc) = d.
Proof.
  induction G as [|c G IH]; intros acc b Ha HG; [destruct b; auto|]. destruct b as [|u b]; [auto|]. apply List.Forall_cons_iff in HG as [Hc HG']. cbn [map combine fold_left fst snd].
  assert (vadd (r acc) (scale u (r c)) = r (vadd acc (scale u c))) as ->.
  { rewrite !vadd_row2. unfold scale. rewrite reorder_map by exact Hc. apply row2_reorder; [exact Ha|rewrite map_length; exact Hc]. }
  apply IH; [|exact HG']. rewrite vadd_row2, row2_length; [exact Ha|]. unfold scale. rewrite map_length. congruence.
Qed.
Lemma mul_columns_reorder G b : List.Forall (fun c => length c = d) G -> mul_columns d (map r G) b = r (mul_columns d G b) /\ length (mul_columns d G b) = d.
Proof.
  intros HG. destruct (mul_columns_from G (repeat 0 d) b (repeat_length 0 d) HG) as [H1 H2]. rewrite reorder_repeat in H1. split; [exact H1|exact H2].
Qed.
End Order.

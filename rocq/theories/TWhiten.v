(** Properties C69, C14: the whitening transform made from an eigen-decomposition. *)
From Coq Require Import Lra Lia.
From Verif Require Import MWhiten SWhiten PWhiten PLinAlg SLinAlg.
From Verif Require MPreproc MTools.
Set Default Goal Selector "!". Set Bullet Behavior "Strict Subproofs".
Open Scope R_scope.

Lemma vsub_vadd : forall x m : list R, length x = length m -> vadd (vsub x m) m = x.
Proof. induction x as [|a x IH]; intros [|b m] H; try discriminate; [reflexivity|]. cbn. f_equal; [lra|]. apply IH. cbn in H; lia. Qed.
Lemma vadd_vsub : forall x m : list R, length x = length m -> vsub (vadd x m) m = x.
Proof. induction x as [|a x IH]; intros [|b m] H; try discriminate; [reflexivity|]. cbn. f_equal; [lra|]. apply IH. cbn in H; lia. Qed.
Lemma new_state eigh center mean C learn w T I : prepare eigh C = Ok (T, I) -> new eigh center mean (Some C) learn = Ok w ->
  w = MPreproc.mkW _ _ (Some (match mean with Some m => m | None => center end)) (Some C) (Some (T, I)) learn.
Proof. intros HP H. unfold new, MPreproc.new_whitening in H. rewrite HP in H. injection H as <-. reflexivity. Qed.
Lemma prepared eigh C vals E : eigh C = Ok (vals, E) -> exists T I, prepare eigh C = Ok (T, I).
Proof. intros H. unfold prepare. rewrite H. eauto. Qed.

(** With a covariance whose eigenvalues are positive: points are recovered both ways, and the distance from the mean in transformed
    coordinates is the Mahalanobis distance, so the covariance has become the identity. *)
Theorem C69_eigenvectors : forall d eigh center mean C vals E learn w,
  decomposes d C vals E -> eigh C = Ok (vals, E) -> List.Forall (Rlt 0) vals ->
  let m := match mean with Some m => m | None => center end in length m = d -> new eigh center mean (Some C) learn = Ok w ->
  (forall x, length x = d -> exists z, length z = d /\ transform w x = Ok z /\ inverse_transform w z = Ok x /\
     mahalanobis (vsub x m) C (sqrt (dot z z))) /\
  (forall z, length z = d -> exists x, length x = d /\ inverse_transform w z = Ok x /\ transform w x = Ok z).
Proof.
  intros d eigh center mean C vals E learn w HD HE Hpos m Hm H. destruct (prepared _ _ _ _ HE) as (T & I & HP).
  pose proof (new_state _ _ _ _ _ _ _ _ HP H) as ->. unfold transform, inverse_transform, MPreproc.w_transform, MPreproc.w_inverse_transform.
  cbn [MPreproc.w_cov MPreproc.w_transf MPreproc.w_mean]. fold m.
  assert (LT : forall x, length (mv T x) = d) by (intros; rewrite mv_length; eapply (proj1 (T_square d eigh C vals E T I HD HE HP))).
  assert (LI : forall x, length (mv I x) = d) by (intros; rewrite mv_length; eapply (proj1 (I_square d eigh C vals E T I HD HE HP))).
  split.
  - intros x Hx. assert (Ls : length (vsub x m) = d) by (rewrite vsub_length; lia). exists (mv T (vsub x m)). split; [apply LT|]. split; [reflexivity|]. split.
    + rewrite (there_and_back d eigh C vals E T I) by auto. rewrite vsub_vadd by lia. reflexivity.
    + apply (distance d eigh C vals E T I); auto.
  - intros z Hz. exists (vadd (mv I z) m). split; [rewrite vadd_length; rewrite LI; auto|]. split; [reflexivity|].
    rewrite vadd_vsub by (rewrite LI; auto). rewrite (back_and_there d eigh C vals E T I) by auto. reflexivity.
Qed.

(** Correlated example: eigenvalues 1 and 4, eigenvectors (3, 4)/5 and (-4, 3)/5. *)
Definition C0 : list (list R) := [[73/25; -36/25]; [-36/25; 52/25]].
Definition E0 : list (list R) := [[3/5; -4/5]; [4/5; 3/5]].
Definition eigh0 (_ : list (list R)) : res (list R * list (list R)) := Ok ([1; 4], E0).
Lemma sqrt_4 : sqrt 4 = 2.
Proof. replace 4 with (2 * 2) by lra. apply sqrt_square. lra. Qed.
Lemma C0_decomposes : decomposes 2 C0 [1; 4] E0.
Proof.
  split; [reflexivity|]. split; [split; [reflexivity|repeat constructor]|]. split; [split; [reflexivity|repeat constructor]|].
  repeat split; intros i j Hi Hj; destruct i as [|[|i]]; try lia; destruct j as [|[|j]]; try lia; unfold at2, C0, E0, delta; cbn; lra.
Qed.
Definition W0 : MPreproc.whitening (list R) (list (list R)) :=
  MPreproc.mkW _ _ (Some [1/2; 1/2]) (Some C0) (Some ([[3/5; 4/5]; [-2/5; 3/10]], [[3/5; -8/5]; [4/5; 6/5]])) false.
Lemma W0_new : new eigh0 [1/2; 1/2] None (Some C0) false = Ok W0.
Proof.
  unfold new, MPreproc.new_whitening, prepare, eigh0. cbn [combine map fst snd transpose seq length E0 nth scale vmul]. rewrite sqrt_1, sqrt_4.
  unfold W0. do 3 f_equal. f_equal; repeat (f_equal; try lra).
Qed.
Example C69_eigenvectors_case : exists z, transform W0 [1; 1] = Ok z /\ inverse_transform W0 z = Ok [1; 1] /\
  mahalanobis [1 - 1/2; 1 - 1/2] C0 (sqrt (dot z z)).
Proof.
  destruct (C69_eigenvectors 2 eigh0 [1/2; 1/2] None C0 [1; 4] E0 false W0 C0_decomposes eq_refl ltac:(repeat constructor; lra) eq_refl W0_new) as [H _].
  destruct (H [1; 1] eq_refl) as (z & _ & H1 & H2 & H3). exists z. auto.
Qed.

(** ** Bounds *)
Lemma vmin_le : forall l x, vmin x l <= x /\ forall y, In y l -> vmin x l <= y.
Proof.
  induction l as [|a l IH]; intros x; cbn [vmin]; [split; [lra|intros ? []]|]. destruct (IH (Rmin x a)) as [H1 H2].
  pose proof (Rmin_l x a). pose proof (Rmin_r x a). split; [lra|]. intros y [<- |Hy]; [lra|auto].
Qed.
Lemma vmax_ge : forall l x, x <= vmax x l /\ forall y, In y l -> y <= vmax x l.
Proof.
  induction l as [|a l IH]; intros x; cbn [vmax]; [split; [lra|intros ? []]|]. destruct (IH (Rmax x a)) as [H1 H2].
  pose proof (Rmax_l x a). pose proof (Rmax_r x a). split; [lra|]. intros y [<- |Hy]; [lra|auto].
Qed.
Lemma vmin_in : forall l x, In (vmin x l) (x :: l).
Proof. induction l as [|a l IH]; intros x; cbn [vmin]; [left; reflexivity|]. destruct (IH (Rmin x a)) as [H|H]; [|right; right; exact H].
  rewrite <- H. unfold Rmin. destruct (Rle_dec x a); [left|right; left]; reflexivity. Qed.
Lemma vmax_in : forall l x, In (vmax x l) (x :: l).
Proof. induction l as [|a l IH]; intros x; cbn [vmax]; [left; reflexivity|]. destruct (IH (Rmax x a)) as [H|H]; [|right; right; exact H].
  rewrite <- H. unfold Rmax. destruct (Rle_dec x a); [right; left|left]; reflexivity. Qed.
Lemma product_length : forall b v, In v (product b) -> length v = length b.
Proof.
  induction b as [|r b IH]; intros v Hv; cbn in Hv; [destruct Hv as [<- | []]; reflexivity|].
  apply in_app_or in Hv. destruct Hv as [Hv|Hv]; apply in_map_iff in Hv; destruct Hv as (u & <- & Hu); cbn; f_equal; auto.
Qed.
Lemma product_box : forall b v, List.Forall (fun r => fst r <= snd r) b -> In v (product b) -> in_box v b.
Proof.
  induction b as [|r b IH]; intros v HF Hv; cbn in Hv; [destruct Hv as [<- | []]; constructor|]. inversion HF; subst.
  apply in_app_or in Hv. destruct Hv as [Hv|Hv]; apply in_map_iff in Hv; destruct Hv as (u & <- & Hu); constructor; try lra; apply IH; auto.
Qed.
Lemma product_nonempty : forall b, product b <> [].
Proof. induction b as [|r b IH]; cbn; [discriminate|]. destruct (product b); [congruence|discriminate]. Qed.
Lemma linear_on_box : forall r b x, in_box x b ->
  exists v1 v2, In v1 (product b) /\ In v2 (product b) /\ dot r v1 <= dot r x <= dot r v2.
Proof.
  induction r as [|a r IH]; intros b x HF.
  - pose proof (product_nonempty b). destruct (product b) as [|v l]; [congruence|]. exists v, v. cbn. repeat split; try lra; left; reflexivity.
  - inversion HF as [|x0 q x' b' Hq HF']; subst; [exists [], []; cbn; repeat split; auto; lra|].
    destruct (IH b' x' HF') as (v1 & v2 & I1 & I2 & L).
    assert (G : forall v, In v (product b') -> In (fst q :: v) (product (q :: b')) /\ In (snd q :: v) (product (q :: b'))).
    { intros v Hv. cbn. rewrite !in_app_iff, !in_map_iff. split; [left|right]; eauto. }
    destruct (Rle_dec 0 a) as [Ha|Ha]; [exists (fst q :: v1), (snd q :: v2)|exists (snd q :: v1), (fst q :: v2)];
      (split; [apply G; auto|]); (split; [apply G; auto|]); cbn [dot]; split; nra.
Qed.
Lemma box_nth p l j : (j < length p)%nat -> nth j (box (p :: l)) (0, 0) =
  (vmin (nth j p 0) (map (fun q => nth j q 0) l), vmax (nth j p 0) (map (fun q => nth j q 0) l)).
Proof.
  intros Hj. unfold box. set (f := fun j => _). rewrite (nth_indep _ (0, 0) (f O)) by (rewrite map_length, seq_length; exact Hj).
  rewrite (map_nth f). rewrite seq_nth by exact Hj. reflexivity.
Qed.
Lemma mapM_ok {A B} (f : A -> res B) (g : A -> B) l : (forall x, f x = Ok (g x)) -> MTools.mapM f l = Ok (map g l).
Proof. intros H. induction l as [|x l IH]; [reflexivity|]. cbn. rewrite H. cbn. rewrite IH. reflexivity. Qed.
Lemma Forall2_nth_box : forall (z : list R) (b : list (R * R)), length z = length b ->
  (forall j, (j < length z)%nat -> fst (nth j b (0, 0)) <= nth j z 0 <= snd (nth j b (0, 0))) -> in_box z b.
Proof.
  induction z as [|a z IH]; intros [|r b] HL H; try discriminate; constructor; [apply (H O); cbn; lia|]. apply IH; [cbn in HL; lia|].
  intros j Hj. apply (H (S j)). cbn. lia.
Qed.
Lemma in_box_length x b : in_box x b -> length x = length b.
Proof. induction 1; cbn; congruence. Qed.
(** The transformed bounds contain the transforms of all points in the box, and each of them is that of a point in the box. *)
Theorem C69_bounds : forall d eigh center mean C vals E learn w b,
  decomposes d C vals E -> eigh C = Ok (vals, E) -> let m := match mean with Some m => m | None => center end in length m = d ->
  new eigh center mean (Some C) learn = Ok w -> length b = d -> List.Forall (fun r => fst r <= snd r) b ->
  exists b', transform_bounds w b = Ok b' /\ length b' = d /\
    (forall x z, in_box x b -> transform w x = Ok z -> in_box z b') /\
    (forall j, (j < d)%nat -> exists x1 z1 x2 z2, in_box x1 b /\ transform w x1 = Ok z1 /\ fst (nth j b' (0, 0)) = nth j z1 0 /\
       in_box x2 b /\ transform w x2 = Ok z2 /\ snd (nth j b' (0, 0)) = nth j z2 0).
Proof.
  intros d eigh center mean C vals E learn w b HD HE m Hm H Hb Hord. destruct (prepared _ _ _ _ HE) as (T & I & HP).
  pose proof (new_state _ _ _ _ _ _ _ _ HP H) as ->. pose proof (T_square d eigh C vals E T I HD HE HP) as ST.
  assert (LT : forall x, length (mv T x) = d) by (intros; rewrite mv_length; apply ST).
  unfold transform_bounds, transform, MPreproc.w_transform_bounds, MPreproc.w_transform. cbn [MPreproc.w_cov MPreproc.w_transf MPreproc.w_mean]. fold m.
  rewrite (mapM_ok _ (fun x => mv T (vsub x m))) by reflexivity. cbn [bind]. eexists. split; [reflexivity|].
  pose proof (product_nonempty b) as HN. destruct (product b) as [|v0 vs] eqn:EV; [congruence|]. cbn [map].
  set (f := fun x => mv T (vsub x m)) in *.
  assert (LB : length (box (f v0 :: map f vs)) = d) by (unfold box; rewrite map_length, seq_length; apply LT).
  assert (NB : forall j, (j < d)%nat -> nth j (box (f v0 :: map f vs)) (0, 0) =
     (vmin (nth j (f v0) 0) (map (fun v => nth j (f v) 0) vs), vmax (nth j (f v0) 0) (map (fun v => nth j (f v) 0) vs))).
  { intros j Hj. rewrite box_nth by (unfold f; rewrite LT; exact Hj). rewrite map_map. reflexivity. }
  split; [exact LB|]. split.
  - intros x z Hx Hz. injection Hz as <-. assert (Lx : length x = d) by (rewrite <- Hb; apply in_box_length; exact Hx).
    apply Forall2_nth_box; [rewrite LT; symmetry; exact LB|]. rewrite LT. intros j Hj. rewrite NB by auto. cbn [fst snd].
    destruct (linear_on_box (nth j T []) b x Hx) as (u1 & u2 & I1 & I2 & L).
    assert (N : forall u, length u = d -> nth j (f u) 0 = dot (nth j T []) u - dot (nth j T []) m).
    { intros u Hu. unfold f, mv. rewrite (nth_map_R _ _ []) by (destruct ST; lia). pose proof (square_row d T j ST Hj) as Lr.
      rewrite !(dot_sum d) by (auto; rewrite vsub_length; lia). replace (sum d (fun k => nth k (nth j T []) 0 * nth k u 0) - sum d (fun k => nth k (nth j T []) 0 * nth k m 0))
        with (sum d (fun k => nth k (nth j T []) 0 * nth k u 0) + (-1) * sum d (fun k => nth k (nth j T []) 0 * nth k m 0)) by ring.
      rewrite <- sum_scal, <- PWhiten.sum_plus. apply sum_ext. intros k Hk. rewrite vsub_nth by lia. ring. }
    change (mv T (vsub x m)) with (f x). rewrite (N x) by exact Lx.
    assert (G : forall u, In u (v0 :: vs) -> vmin (nth j (f v0) 0) (map (fun v => nth j (f v) 0) vs) <= nth j (f u) 0 <= vmax (nth j (f v0) 0) (map (fun v => nth j (f v) 0) vs)).
    { intros u Hu. destruct (vmin_le (map (fun v => nth j (f v) 0) vs) (nth j (f v0) 0)) as [A1 A2]. destruct (vmax_ge (map (fun v => nth j (f v) 0) vs) (nth j (f v0) 0)) as [B1 B2].
      destruct Hu as [<- |Hu]; [split; assumption|]. assert (In (nth j (f u) 0) (map (fun v => nth j (f v) 0) vs)) by (apply in_map_iff; eauto). split; auto. }
    rewrite EV in I1, I2. pose proof (G u1 I1) as G1. pose proof (G u2 I2) as G2. rewrite <- EV in I1, I2.
    pose proof (product_length _ _ I1). pose proof (product_length _ _ I2). rewrite (N u1) in G1 by congruence; rewrite (N u2) in G2 by congruence. lra.
  - intros j Hj. rewrite NB by exact Hj. cbn [fst snd].
    assert (G : forall a, In a (nth j (f v0) 0 :: map (fun v => nth j (f v) 0) vs) -> exists v, in_box v b /\ a = nth j (f v) 0).
    { intros a Ha. assert (HB : forall v, In v (v0 :: vs) -> in_box v b) by (intros v Hv; apply product_box; [exact Hord|rewrite EV; exact Hv]).
      destruct Ha as [<- |Ha]; [exists v0; split; [apply HB; left; reflexivity|reflexivity]|]. apply in_map_iff in Ha. destruct Ha as (v & <- & Hv).
      exists v. split; [apply HB; right; exact Hv|reflexivity]. }
    destruct (G _ (vmin_in (map (fun v => nth j (f v) 0) vs) (nth j (f v0) 0))) as (x1 & B1 & E1).
    destruct (G _ (vmax_in (map (fun v => nth j (f v) 0) vs) (nth j (f v0) 0))) as (x2 & B2 & E2).
    exists x1, (f x1), x2, (f x2). auto 10.
Qed.

(** A box is larger than what it encloses: a point of the transformed bounds need not come from the prior. *)
Lemma box_outside : exists b' z x, transform_bounds W0 [(0, 1); (0, 1)] = Ok b' /\ in_box z b' /\
  inverse_transform W0 z = Ok x /\ ~ in_box x [(0, 1); (0, 1)].
Proof.
  destruct (C69_bounds 2 eigh0 [1/2; 1/2] None C0 [1; 4] E0 false W0 [(0, 1); (0, 1)] C0_decomposes eq_refl eq_refl W0_new eq_refl) as (b' & HB & LB & _ & _).
  { repeat constructor; cbn; lra. }
  eexists b', [7/10; 7/20], _. split; [exact HB|]. split.
  - unfold transform_bounds, MPreproc.w_transform_bounds in HB. cbn in HB. injection HB as <-. repeat (apply Forall2_cons; [split|]); try apply Forall2_nil; cbn; unfold Rmin, Rmax; repeat (destruct (Rle_dec _ _); try lra).
  - split; [reflexivity|]. intros H. cbn in H. inversion H as [|? ? ? ? _ H']. inversion H' as [|? ? ? ? H'' _]. cbn in H''. lra.
Qed.

(** ** C14: what is learnt *)
Lemma weights_pos y : List.Forall (Rlt 0) (weights y).
Proof. destruct y as [|a l]; cbn [weights]; [constructor|]. apply Forall_forall. intros v Hv. apply in_map_iff in Hv. destruct Hv as (b & <- & _). apply exp_pos. Qed.
Lemma weights_length y : length (weights y) = length y.
Proof. destruct y; cbn [weights]; [reflexivity|]. apply map_length. Qed.
Lemma sum_of_pos w : w <> [] -> List.Forall (Rlt 0) w -> 0 < sum_of w.
Proof.
  intros Hn HF. assert (G : forall w, List.Forall (Rlt 0) w -> 0 <= sum_of w) by (clear; induction 1; unfold sum_of in *; cbn [fold_right]; lra).
  inversion HF as [|a l Ha Hl]; subst; [congruence|]. pose proof (G l Hl). unfold sum_of in *. cbn [fold_right]. lra.
Qed.
Lemma centred_zero w r : length w = length r -> sum_of w <> 0 -> dot w (centred w r) = 0.
Proof.
  intros HL Hs. unfold centred. assert (G : forall c (w r : list R), length w = length r -> dot w (map (fun a => a - c) r) = dot w r - c * sum_of w).
  { clear. intros c. induction w as [|a w IH]; intros [|b r] H; try discriminate; cbn; [lra|]. rewrite IH by (cbn in H; lia). unfold sum_of. lra. }
  rewrite G by exact HL. unfold average. field. exact Hs.
Qed.
(** The combination of vectors with the coefficients in [L], against [u]. *)
Lemma comb_dot u : forall L : list (R * list R), List.Forall (fun p => length (snd p) = length u) L ->
  dot u (map (fun k => comb k L) (seq 0 (length u))) = dot (map fst L) (map (fun p => dot u (snd p)) L).
Proof.
  intros L HF. set (d := length u) in *. rewrite (dot_sum d) by (auto; rewrite map_length, seq_length; auto).
  transitivity (sum d (fun k => nth k u 0 * comb k L)).
  { apply sum_ext. intros k Hk. rewrite (nth_map_R _ _ O) by (rewrite seq_length; exact Hk). rewrite seq_nth by exact Hk. reflexivity. }
  induction HF as [|p L Hp HF IH]; [cbn; rewrite (sum_ext d _ (fun _ => 0)); [apply sum_zero|intros; ring]|].
  cbn [map dot]. rewrite <- IH, (dot_sum d) by auto. rewrite <- sum_scal, <- PWhiten.sum_plus. apply sum_ext. intros k Hk. unfold comb. cbn [fold_right]. ring.
Qed.
Lemma centred_length w r : length (centred w r) = length r. Proof. apply map_length. Qed.
(** The rows of [np_cov] against coefficients whose combination of the centred rows vanishes. *)
Lemma singular X y d : length X = d -> length y = d -> List.Forall (fun r => length r = d) X -> (0 < d)%nat ->
  exists c, length c = d /\ (exists i, (i < d)%nat /\ nth i c 0 <> 0) /\ forall i, (i < d)%nat -> nth i (mv (np_cov X (weights y)) c) 0 = 0.
Proof.
  intros HX Hy HF Hd. set (w := weights y). assert (Lw : length w = d) by (unfold w; rewrite weights_length; exact Hy).
  assert (Hs : 0 < sum_of w) by (apply sum_of_pos; [intros E; rewrite E in Lw; cbn in Lw; lia|apply weights_pos]).
  set (V := map (centred w) X).
  assert (FV : List.Forall (fun r => length r = d) V).
  { apply Forall_forall. intros r Hr. apply in_map_iff in Hr. destruct Hr as (q & <- & Hq). rewrite centred_length. rewrite Forall_forall in HF. auto. }
  destruct (dependent (d - 1) (map (@tl R) V)) as (L & HM & HN & HC).
  { apply Forall_forall. intros r Hr. apply in_map_iff in Hr. destruct Hr as (q & <- & Hq). rewrite Forall_forall in FV. specialize (FV q Hq). destruct q; cbn in *; lia. }
  { rewrite map_length. unfold V. rewrite map_length. lia. }
  assert (LL : length L = d) by (rewrite <- (map_length snd), HM, map_length; unfold V; rewrite map_length; exact HX).
  set (c := map fst L). assert (Lc : length c = d) by (unfold c; rewrite map_length; exact LL).
  set (M := combine c V). assert (LV : length V = d) by (unfold V; rewrite map_length; exact HX).
  assert (M1 : map fst M = c /\ map snd M = V).
  { unfold M. clear - Lc LV. revert V LV Lc. generalize c. intros c0 V. revert c0 d. induction V as [|v V IH]; intros [|a c0] d LV Lc; cbn in *; try lia; [auto|].
    destruct (IH c0 (length V)) as [-> ->]; [reflexivity|lia|]. auto. }
  destruct M1 as [Mc MV].
  assert (FM : List.Forall (fun p => length (snd p) = d) M).
  { apply Forall_forall. intros p Hp. rewrite Forall_forall in FV. apply FV. rewrite <- MV. apply in_map. exact Hp. }
  assert (GS : forall k, comb (S k) M = comb k L).
  { intros k. unfold M, c. clear - HM FV LV Hd. revert HM FV. clear LV. clearbody V. revert L. induction V as [|v V IH]; intros [|[a u] L] HM FV; try discriminate; [reflexivity|].
    injection HM as Hu HM. inversion FV; subst. cbn [map fst combine comb fold_right snd]. unfold comb in IH. rewrite (IH L HM) by assumption. destruct v as [|b v]; [cbn in Hd; lia|]. reflexivity. }
  assert (GV : forall v, In v V -> dot w v = 0).
  { intros v Hv. apply in_map_iff in Hv. destruct Hv as (q & <- & Hq). apply centred_zero; [rewrite Forall_forall in HF; rewrite (HF q Hq); exact Lw|lra]. }
  assert (GW : dot w (map (fun k => comb k M) (seq 0 (length w))) = 0).
  { rewrite comb_dot by (rewrite Lw; exact FM). replace (map (fun p => dot w (snd p)) M) with (map (fun _ : R * list R => 0) M).
    - clear. generalize (map fst M). induction M as [|p M IH]; intros [|a l]; cbn; try reflexivity. rewrite IH. ring.
    - apply map_ext_in. intros p Hp. symmetry. apply GV. rewrite <- MV. apply in_map. exact Hp. }
  assert (G0 : forall k, comb k M = 0).
  { intros [|k]; [|rewrite GS; apply HC]. destruct w as [|w0 w'] eqn:Ew; [cbn in Lw; lia|]. cbn [length seq map dot] in GW.
    rewrite <- seq_shift, map_map in GW. rewrite (map_ext _ (fun _ => 0)) in GW by (intros; rewrite GS; apply HC).
    replace (dot w' (map (fun _ : nat => 0) (seq 0 (length w')))) with 0 in GW.
    - assert (0 < w0) by (pose proof (weights_pos y) as P; fold w in P; rewrite Ew in P; inversion P; assumption). nra.
    - clear. generalize (seq 0 (length w')). induction w' as [|a w' IH]; intros [|b l]; cbn; try reflexivity. rewrite <- IH. ring. }
  exists c. split; [exact Lc|]. split.
  - destruct HN as (p & Hp & Np). destruct (In_nth _ _ p Hp) as (i & Hi & Ei). exists i. split; [lia|]. unfold c. rewrite (nth_map_R fst L p) by exact Hi. rewrite Ei. exact Np.
  - intros i Hi. unfold mv. rewrite (nth_map_R _ _ []) by (unfold np_cov; rewrite map_length; lia). unfold np_cov.
    rewrite (nth_indep _ [] (map (fun s => dot (vmul (centred w []) w) (centred w s) / sum_of w) X)) by (rewrite map_length; lia).
    rewrite (map_nth (fun r => map (fun s => dot (vmul (centred w r) w) (centred w s) / sum_of w) X)).
    set (u := vmul (centred w (nth i X [])) w). assert (Lu : length u = d).
    { unfold u. assert (Lr : length (nth i X []) = d) by (rewrite Forall_forall in HF; apply HF, nth_In; lia). rewrite vmul_length; rewrite centred_length; lia. }
    assert (GU : dot u (map (fun k => comb k M) (seq 0 (length u))) = 0).
    { rewrite (map_ext _ (fun _ => 0)) by exact G0. clear. generalize (seq 0 (length u)). induction u as [|a u IH]; intros [|b l]; cbn; try reflexivity. rewrite IH. ring. }
    rewrite comb_dot in GU by (rewrite Lu; exact FM). rewrite Mc in GU. rewrite <- map_map, MV in GU. unfold V in GU. rewrite map_map in GU.
    rewrite dot_comm. replace (map (fun s => dot u (centred w s) / sum_of w) X) with (scale (/ sum_of w) (map (fun s => dot u (centred w s)) X)).
    + rewrite dot_scale, GU. ring.
    + unfold scale. rewrite map_map. apply map_ext. intros s. unfold Rdiv. ring.
Qed.
(** Learning never gives a usable transform: it raises, or the covariance that is learnt has the eigenvalue 0, by whose root points
    are divided. *)
Theorem C14_learnt_refuted : forall eigh w d X y, MPreproc.w_learn _ _ w = true -> y <> [] -> length X = length y -> List.Forall (fun r => length r = d) X ->
  (length X <> d -> fit eigh w d X y = (w, Err RuntimeError)) /\
  (length X = d -> exists m C, mean_cov d X y = Ok (m, C) /\ forall vals E, decomposes d C vals E -> In 0 vals).
Proof.
  intros eigh w d X y Hl Hy HL HF. destruct y as [|y0 y']; [congruence|]. split; intros Hd.
  - unfold fit, MPreproc.w_fit, mean_cov, MPreproc.compute_mean_cov. rewrite Hl. cbn [negb bind]. apply Nat.eqb_neq in Hd. rewrite Hd. reflexivity.
  - eexists _, _. split; [unfold mean_cov, MPreproc.compute_mean_cov; cbn [bind]; replace (Nat.eqb (length X) d) with true by (symmetry; apply Nat.eqb_eq; exact Hd); reflexivity|].
    intros vals E HD. destruct (singular X (y0 :: y') d) as (c & Lc & (i & Hi & Ni) & HC); [exact Hd|lia|exact HF|cbn in HL; lia|].
    destruct (In_dec Req_EM_T 0 vals) as [I|I]; [exact I|exfalso]. apply Ni. rewrite (proj_expand d _ vals E HD c i) by auto.
    rewrite (sum_ext d _ (fun _ => 0)); [apply sum_zero|]. intros k Hk.
    assert (P : nth k vals 0 * proj d E c k = 0).
    { rewrite <- (proj_C d _ vals E HD c k) by auto. unfold proj. rewrite (sum_ext d _ (fun _ => 0)); [apply sum_zero|]. intros j Hj. rewrite HC by exact Hj. ring. }
    apply Rmult_integral in P. destruct P as [P|P]; [|rewrite P; ring]. exfalso. apply I. rewrite <- P. apply nth_In. destruct HD as (-> & _). exact Hk.
Qed.
(** Two points in two dimensions. *)
Example C14_learnt_case : exists m C, mean_cov 2 [[0; 0]; [1; 3]] [0; 0] = Ok (m, C) /\ decomposes 2 C [0; 1] [[1; 0]; [0; 1]].
Proof.
  do 2 eexists. split; [reflexivity|]. split; [reflexivity|]. split; [split; [reflexivity|repeat constructor]|]. split; [split; [reflexivity|repeat constructor]|].
  assert (M : Rmax 0 0 = 0) by (unfold Rmax; destruct (Rle_dec 0 0); lra).
  repeat split; intros i j Hi Hj; destruct i as [|[|i]]; try lia; destruct j as [|[|j]]; try lia; unfold at2, delta, centred, average, vmul, sum_of, weights; cbn;
    rewrite ?M, ?Rminus_0_r, ?exp_0; try lra; unfold average, sum_of; cbn; field.
Qed.
(** One point in one dimension: the fit returns, and the transform raises ever after. *)
Theorem C14_one_point_refuted : forall eigh x y z w, new eigh [0] None None true = Ok w ->
  exists w', fit eigh w 1 [[x]] [y] = (w', Ok tt) /\ transform w z = Ok z /\ transform w' z = Err TypeError.
Proof. intros eigh x y z w H. injection H as <-. eexists. split; [reflexivity|]. split; reflexivity. Qed.

Print Assumptions C69_eigenvectors.
Print Assumptions C69_bounds.
Print Assumptions C14_learnt_refuted.
Print Assumptions C14_one_point_refuted.

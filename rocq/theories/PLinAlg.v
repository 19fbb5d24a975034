(** Lemmas on triangular systems and the Cholesky factor. *)
From Coq Require Import Lra Lia.
From Verif Require Import MLinAlg.
Set Default Goal Selector "!".

Lemma dot_app u v a b : length u = length v -> dot (u ++ a) (v ++ b) = dot u v + dot a b.
Proof. revert v. induction u as [|x u IH]; intros [|y v] H; try discriminate; cbn [app dot]; [lra|]. rewrite IH by auto. lra. Qed.
Lemma dot_trunc u v b : (length u <= length v)%nat -> dot u (v ++ b) = dot u v.
Proof. revert v. induction u as [|x u IH]; intros [|y v] H; cbn [app dot length] in *; auto; try lia. rewrite IH by lia. lra. Qed.
Lemma dot_comm u v : dot u v = dot v u.
Proof. revert v. induction u as [|x u IH]; intros [|y v]; cbn [dot]; auto. rewrite IH. lra. Qed.
Lemma dot_nil_r u : dot u [] = 0. Proof. destruct u; auto. Qed.
Lemma vadd_length u v : length u = length v -> length (vadd u v) = length u.
Proof. intros H. unfold vadd. rewrite map_length, combine_length. lia. Qed.
Lemma scale_length c v : length (scale c v) = length v. Proof. apply map_length. Qed.
Lemma dot_vadd w u v : length u = length v -> dot w (vadd u v) = dot w u + dot w v.
Proof.
  revert u v. induction w as [|x w IH]; intros [|y u] [|z v] H; try discriminate; cbn [dot vadd combine map fst snd]; try lra.
  unfold vadd in IH. rewrite IH by auto. lra.
Qed.
Lemma dot_scale w c u : dot w (scale c u) = c * dot w u.
Proof. revert u. induction w as [|x w IH]; intros [|y u]; cbn [dot scale map]; try lra. unfold scale in IH. rewrite IH. lra. Qed.
Lemma dot_pos u : 0 <= dot u u.
Proof. induction u as [|x u IH]; cbn [dot]; [lra|]. nra. Qed.
Lemma dot_zero u : dot u u = 0 -> forall x, In x u -> x = 0.
Proof.
  induction u as [|x u IH]; cbn [dot]; intros H y Hy; [destruct Hy|]. pose proof (dot_pos u). assert (dot u u = 0 /\ x = 0) as [H1 H2] by (split; nra).
  destruct Hy as [<-|Hy]; auto.
Qed.
Lemma vadd_app u v a b : length u = length v -> vadd (u ++ a) (v ++ b) = vadd u v ++ vadd a b.
Proof. revert v. induction u as [|x u IH]; intros [|y v] H; try discriminate; auto. cbn. unfold vadd in IH. rewrite IH by auto. auto. Qed.
Lemma scale_app c u v : scale c (u ++ v) = scale c u ++ scale c v. Proof. apply map_app. Qed.
Lemma vadd_nil_r u : vadd u [] = []. Proof. destruct u; auto. Qed.
Lemma vadd_cancel z t r : length z = length r -> vadd (vadd z (scale (- t) r)) (scale t r) = z.
Proof. revert r. induction z as [|x z IH]; intros [|y r] H; try discriminate; auto. cbn. f_equal; [lra|]. apply IH. auto. Qed.
Lemma map_dot_app {A} (f : A -> R) X Y v b : length X = length v -> dot (map f (X ++ Y)) (v ++ b) = dot (map f X) v + dot (map f Y) b.
Proof. intros H. rewrite map_app. apply dot_app. rewrite map_length. auto. Qed.
Lemma combine_snoc {A B} (l : list A) (k : list B) a b : length l = length k -> combine (l ++ [a]) (k ++ [b]) = combine l k ++ [(a, b)].
Proof. revert k. induction l as [|x l IH]; intros [|y k] H; try discriminate; auto. cbn. f_equal. auto. Qed.
Lemma snoc_inv {A} (l : list A) n : length l = S n -> exists k a, l = k ++ [a] /\ length k = n.
Proof.
  intros H. destruct (exists_last (l := l)) as (k & a & ->); [destruct l; discriminate|].
  exists k, a. split; auto. rewrite app_length in H. cbn in H. lia.
Qed.

(** Lower triangular matrices with a non-zero diagonal. *)
Inductive lower : list row -> Prop :=
| lower_nil : lower []
| lower_snoc L r d : lower L -> length r = length L -> d <> 0 -> lower (L ++ [(r, d)]).

Lemma forward_snoc L q b c : length L = length b -> forward (L ++ [q]) (b ++ [c]) = forward L b ++ [(c - dot (fst q) (forward L b)) / snd q].
Proof. intros H. unfold forward. rewrite combine_snoc by auto. rewrite fold_left_app. reflexivity. Qed.
Lemma forward_length L b : length L = length b -> length (forward L b) = length L.
Proof.
  revert b. induction L as [|q L IH] using rev_ind; intros b H.
  - reflexivity.
  - rewrite app_length in H. cbn in H. destruct (snoc_inv b (length L)) as (b' & c & -> & Hb); [lia|].
    rewrite forward_snoc by auto. rewrite !app_length, IH by auto. reflexivity.
Qed.
(** [L v]. *)
Definition Lmul (L : list row) (v : list R) : list R := map (fun q => dot (fst q ++ [snd q]) v) L.
(** [L.T w]. *)
Definition LTmul (L : list row) (w : list R) : list R :=
  fold_left (fun acc q => vadd acc (scale (snd q) (fst (fst q))) ++ [snd q * snd (fst q)]) (combine L w) [].
Lemma LT_snoc L r d w t : length L = length w -> LTmul (L ++ [(r, d)]) (w ++ [t]) = vadd (LTmul L w) (scale t r) ++ [t * d].
Proof. intros H. unfold LTmul. rewrite combine_snoc by auto. rewrite fold_left_app. reflexivity. Qed.
Lemma LT_length L : lower L -> forall w, length w = length L -> length (LTmul L w) = length L.
Proof.
  induction 1 as [|L r d HL IH Hr Hd]; intros w Hw; [reflexivity|]. rewrite app_length in Hw. cbn in Hw.
  destruct (snoc_inv w (length L)) as (w' & t & -> & Hw'); [lia|]. rewrite LT_snoc by auto.
  rewrite !app_length, vadd_length; [rewrite IH by auto; reflexivity|]. rewrite scale_length, IH by auto. auto.
Qed.
Lemma lower_rows L : lower L -> forall q, In q L -> (length (fst q) < length L)%nat.
Proof.
  induction 1 as [|L r d HL IH Hr Hd]; intros q Hq; [destruct Hq|]. rewrite app_length. cbn.
  apply in_app_or in Hq as [Hq|[<-|[]]]; [specialize (IH q Hq); lia|cbn; lia].
Qed.
Lemma Lmul_trunc L v b : lower L -> length v = length L -> Lmul L (v ++ b) = Lmul L v.
Proof.
  intros HL Hv. apply map_ext_in. intros q Hq. apply dot_trunc. rewrite app_length. cbn. pose proof (lower_rows L HL q Hq). lia.
Qed.
Lemma forward_ok L : lower L -> forall b, length b = length L -> Lmul L (forward L b) = b.
Proof.
  induction 1 as [|L r d HL IH Hr Hd]; intros b Hb; [destruct b; [reflexivity|discriminate]|]. rewrite app_length in Hb. cbn in Hb.
  destruct (snoc_inv b (length L)) as (b' & c & -> & Hb'); [lia|]. rewrite forward_snoc by auto.
  unfold Lmul. rewrite map_app. cbn [map fst snd]. f_equal.
  - change (map (fun q => dot (fst q ++ [snd q]) (forward L b' ++ [(c - dot r (forward L b')) / d])) L) with (Lmul L (forward L b' ++ [(c - dot r (forward L b')) / d])).
    rewrite Lmul_trunc; auto. rewrite forward_length; auto.
  - f_equal. rewrite dot_app by (rewrite forward_length; auto). cbn [dot]. field. auto.
Qed.
Lemma Lmul_inj L : lower L -> forall u v, length u = length L -> length v = length L -> Lmul L u = Lmul L v -> u = v.
Proof.
  induction 1 as [|L r d HL IH Hr Hd]; intros u v Hu Hv E; [destruct u, v; try discriminate; reflexivity|].
  rewrite app_length in Hu, Hv. cbn in Hu, Hv. destruct (snoc_inv u (length L)) as (u' & a & -> & Hu'); [lia|].
  destruct (snoc_inv v (length L)) as (v' & b & -> & Hv'); [lia|].
  unfold Lmul in E. rewrite !map_app in E. cbn [map fst snd] in E. apply app_inj_tail in E as [E1 E2].
  change (Lmul L (u' ++ [a]) = Lmul L (v' ++ [b])) in E1. rewrite !Lmul_trunc in E1 by auto. apply IH in E1; auto. subst v'.
  rewrite !dot_app in E2 by lia. cbn [dot] in E2. assert (d * a = d * b) as E3 by lra. apply Rmult_eq_reg_l in E3; auto. subst. reflexivity.
Qed.
Lemma backward_length L : lower L -> forall z, length z = length L -> length (backward L z) = length L.
Proof.
  induction 1 as [|L r d HL IH Hr Hd]; intros z Hz; [reflexivity|]. rewrite app_length in Hz. cbn in Hz.
  destruct (snoc_inv z (length L)) as (z' & a & -> & Hz'); [lia|]. unfold backward in *. rewrite rev_app_distr. cbn [rev app backward_rows].
  rewrite removelast_last, !app_length. rewrite IH; [reflexivity|]. rewrite vadd_length; auto. rewrite scale_length. lia.
Qed.
Lemma backward_ok L : lower L -> forall z, length z = length L -> LTmul L (backward L z) = z.
Proof.
  induction 1 as [|L r d HL IH Hr Hd]; intros z Hz; [destruct z; [reflexivity|discriminate]|]. rewrite app_length in Hz. cbn in Hz.
  destruct (snoc_inv z (length L)) as (z' & a & -> & Hz'); [lia|].
  assert (backward (L ++ [(r, d)]) (z' ++ [a]) = backward L (vadd z' (scale (- (a / d)) r)) ++ [a / d]) as ->.
  { unfold backward. rewrite rev_app_distr. cbn [rev app backward_rows]. rewrite removelast_last, last_last. reflexivity. }
  assert (length (vadd z' (scale (- (a / d)) r)) = length L) as Hl by (rewrite vadd_length; auto; rewrite scale_length; lia).
  rewrite LT_snoc by (rewrite backward_length; auto). rewrite IH by auto. rewrite vadd_cancel by lia. f_equal. f_equal. field. auto.
Qed.
Lemma adjoint L : lower L -> forall v w, length v = length L -> length w = length L -> dot (Lmul L v) w = dot v (LTmul L w).
Proof.
  induction 1 as [|L r d HL IH Hr Hd]; intros v w Hv Hw; [destruct v; [reflexivity|discriminate]|].
  rewrite app_length in Hv, Hw. cbn in Hv, Hw. destruct (snoc_inv v (length L)) as (v' & a & -> & Hv'); [lia|].
  destruct (snoc_inv w (length L)) as (w' & b & -> & Hw'); [lia|].
  rewrite LT_snoc by auto. unfold Lmul. rewrite map_app. cbn [map fst snd].
  change (map (fun q => dot (fst q ++ [snd q]) (v' ++ [a])) L) with (Lmul L (v' ++ [a])). rewrite Lmul_trunc by auto.
  assert (length (LTmul L w') = length r) as E1 by (rewrite LT_length; auto). assert (length (vadd (LTmul L w') (scale b r)) = length L) as E2 by (rewrite vadd_length; rewrite ?scale_length; lia).
  rewrite (dot_app (Lmul L v') w') by (unfold Lmul; rewrite map_length; symmetry; exact Hw'). rewrite IH by auto. rewrite (dot_app v' (vadd (LTmul L w') (scale b r))) by lia.
  rewrite dot_vadd by (rewrite scale_length; auto). rewrite dot_scale. rewrite (dot_app r v') by lia. cbn [dot]. rewrite (dot_comm r v'). lra.
Qed.

(** The product with the columns of the inverse is forward substitution. *)
Lemma forward_lin L : forall u v c, length u = length L -> length v = length L -> lower L ->
  forward L (vadd u (scale c v)) = vadd (forward L u) (scale c (forward L v)).
Proof.
  intros u v c Hu Hv HL. apply (Lmul_inj L HL).
  - rewrite forward_length; auto. rewrite vadd_length; auto. rewrite scale_length; lia.
  - rewrite vadd_length; rewrite ?scale_length, !forward_length; auto.
  - rewrite forward_ok; auto; [|rewrite vadd_length; auto; rewrite scale_length; lia].
    assert (forall a b, length a = length b -> Lmul L (vadd a (scale c b)) = vadd (Lmul L a) (scale c (Lmul L b))) as K.
    { intros a b Hab. clear - Hab. unfold Lmul. induction L as [|q L IH]; auto. cbn [map]. rewrite IH. unfold vadd at 3. cbn [scale map combine fst snd].
      f_equal. rewrite dot_vadd by (rewrite scale_length; auto). rewrite dot_scale. reflexivity. }
    rewrite K by (rewrite !forward_length; auto). rewrite !forward_ok; auto.
Qed.
Lemma unit_nth n j i : nth i (unit_vector n j) 0 = if ((i <? n) && (i =? j))%nat%bool then 1 else 0.
Proof.
  unfold unit_vector. destruct (Nat.ltb_spec i n) as [H|H].
  - rewrite nth_indep with (d' := (fun i => if (i =? j)%nat then 1 else 0) n) by (rewrite map_length, seq_length; auto).
    rewrite (map_nth (fun i => if (i =? j)%nat then 1 else 0)). rewrite seq_nth by auto. reflexivity.
  - rewrite nth_overflow; auto. rewrite map_length, seq_length. auto.
Qed.
Lemma vadd_nth u v i : length u = length v -> nth i (vadd u v) 0 = nth i u 0 + nth i v 0.
Proof. revert v i. induction u as [|x u IH]; intros [|y v] [|i] H; try discriminate; cbn; try lra. apply IH. auto. Qed.
Lemma scale_nth c v i : nth i (scale c v) 0 = c * nth i v 0.
Proof. revert i. induction v as [|x v IH]; intros [|i]; cbn; try lra. apply IH. Qed.
Definition basis_sum (n : nat) (js : list nat) (b : list R) : list R :=
  fold_left (fun acc q => vadd acc (scale (snd q) (unit_vector n (fst q)))) (combine js b) (repeat 0 n).
Lemma repeat_scale n : forall u, length u = n -> vadd (repeat 0 n) u = u.
Proof. induction n as [|n IH]; intros [|x u] H; try discriminate; auto. cbn. f_equal; [lra|]. apply IH. auto. Qed.
Lemma unit_length n j : length (unit_vector n j) = n. Proof. unfold unit_vector. rewrite map_length, seq_length. auto. Qed.
Lemma mul_columns_forward L b : lower L -> length b = length L -> mul_columns (length L) (inverse L) b = forward L b.
Proof.
  intros HL Hb. unfold mul_columns, inverse. set (n := length L) in *.
  assert (forall l acc, length acc = n -> (forall q, In q l -> (fst q < n)%nat) ->
     fold_left (fun a q => vadd a (scale (snd q) (fst q))) (map (fun q => (forward L (unit_vector n (fst q)), snd q)) l) (forward L acc)
     = forward L (fold_left (fun a q => vadd a (scale (snd q) (unit_vector n (fst q)))) l acc)) as K.
  { induction l as [|q l IH]; intros acc Ha Hq; [reflexivity|]. cbn [map fold_left fst snd].
    rewrite <- forward_lin; auto; [|apply unit_length]. apply IH; [|intros; apply Hq; right; auto].
    rewrite vadd_length; auto. rewrite scale_length, unit_length. auto. }
  assert (forward L (repeat 0 n) = repeat 0 n) as Z.
  { apply (Lmul_inj L HL).
    - rewrite forward_length; auto. rewrite repeat_length. auto.
    - rewrite repeat_length. auto.
    - rewrite forward_ok; auto; [|apply repeat_length]. unfold Lmul. clear. unfold n. clear n.
      assert (forall u m, dot u (repeat 0 m) = 0) as D. { induction u as [|x u IH]; intros [|m]; cbn [dot repeat]; auto. rewrite IH. lra. }
      generalize (length L) at 2 as m. intros m. induction L as [|q L IH]; cbn [map length repeat]; auto. rewrite D, IH. auto. }
  rewrite <- Z at 1.
  assert (combine (map (fun j => forward L (unit_vector n j)) (seq 0 n)) b = map (fun q => (forward L (unit_vector n (fst q)), snd q)) (combine (seq 0 n) b)) as ->.
  { clear. generalize 0%nat as s. revert b. induction n as [|m IH] at 2 4; intros [|x b] s; auto. cbn. f_equal. auto. }
  rewrite K; [|apply repeat_length|].
  2:{ intros [j x] Hq. apply in_combine_l in Hq. apply in_seq in Hq. cbn [fst]. lia. }
  f_equal. clear K Z HL.
  (* the combination of unit vectors is b *)
  apply nth_ext with (d := 0) (d' := 0).
  - assert (forall l acc, length acc = n -> length (fold_left (fun a (q : nat * R) => vadd a (scale (snd q) (unit_vector n (fst q)))) l acc) = n) as K.
    { induction l as [|q l IH]; intros acc Ha; auto. cbn [fold_left]. apply IH. rewrite vadd_length; auto. rewrite scale_length, unit_length. auto. }
    rewrite K by apply repeat_length. auto.
  - intros i _.
    assert (forall bb s acc, length acc = n -> (s + length bb <= n)%nat ->
      nth i (fold_left (fun a (q : nat * R) => vadd a (scale (snd q) (unit_vector n (fst q)))) (combine (seq s (length bb)) bb) acc) 0
      = nth i acc 0 + (if (s <=? i)%nat then nth (i - s) bb 0 else 0)) as K.
    { induction bb as [|x bb IH]; intros s acc Ha Hs.
      - cbn. destruct (s <=? i)%nat; [destruct (i - s)%nat|]; lra.
      - cbn [length seq combine fold_left fst snd]. cbn [length] in Hs. rewrite IH; [|rewrite vadd_length; auto; rewrite scale_length, unit_length; auto|lia].
        rewrite vadd_nth by (rewrite scale_length, unit_length; auto). rewrite scale_nth, unit_nth.
        destruct (Nat.leb_spec s i) as [H1|H1], (Nat.leb_spec (S s) i) as [H2|H2]; try lia.
        + replace (i =? s)%nat with false by (symmetry; apply Nat.eqb_neq; lia). rewrite Bool.andb_false_r.
          replace (i - s)%nat with (S (i - S s)) by lia. cbn [nth]. lra.
        + assert (i = s) as -> by lia. rewrite Nat.eqb_refl, Nat.sub_diag. replace (s <? n)%nat with true by (symmetry; apply Nat.ltb_lt; lia). cbn. lra.
        + replace (i =? s)%nat with false by (symmetry; apply Nat.eqb_neq; lia). rewrite Bool.andb_false_r. lra. }
    specialize (K b 0%nat (repeat 0 n) (repeat_length _ _) ltac:(lia)). replace (length b) with n in K by auto. rewrite K.
    rewrite nth_repeat. cbn [Nat.leb]. rewrite Nat.sub_0_r. lra.
Qed.

(** Lemmas for the statements about [Whitening]. *)
From Coq Require Import Lra Lia.
From Verif Require Import MWhiten SWhiten PLinAlg SLinAlg.
Set Default Goal Selector "!". Set Bullet Behavior "Strict Subproofs".
Open Scope R_scope.

Lemma sum_ext n f g : (forall k, (k < n)%nat -> f k = g k) -> sum n f = sum n g.
Proof. induction n as [|n IH]; intros H; cbn; [reflexivity|]. rewrite IH by (intros; apply H; lia). rewrite (H n) by lia. reflexivity. Qed.
Lemma sum_scal n c f : sum n (fun k => c * f k) = c * sum n f.
Proof. induction n as [|n IH]; cbn; [lra|]. rewrite IH. lra. Qed.
Lemma sum_scal_r n c f : sum n (fun k => f k * c) = sum n f * c.
Proof. induction n as [|n IH]; cbn; [lra|]. rewrite IH. lra. Qed.
Lemma sum_plus n f g : sum n (fun k => f k + g k) = sum n f + sum n g.
Proof. induction n as [|n IH]; cbn; [lra|]. rewrite IH. lra. Qed.
Lemma sum_zero n : sum n (fun _ => 0) = 0.
Proof. induction n as [|n IH]; cbn; [lra|]. rewrite IH. lra. Qed.
Lemma sum_swap n m f : sum n (fun i => sum m (fun j => f i j)) = sum m (fun j => sum n (fun i => f i j)).
Proof. induction n as [|n IH]; cbn; [rewrite sum_zero; reflexivity|]. rewrite IH, <- sum_plus. reflexivity. Qed.
Lemma sum_delta n i f : (i < n)%nat -> sum n (fun k => delta i k * f k) = f i.
Proof.
  induction n as [|n IH]; intros H; [lia|]. cbn. destruct (Nat.eq_dec i n) as [->|Hn].
  - rewrite (sum_ext n _ (fun _ => 0)); [rewrite sum_zero; unfold delta; rewrite Nat.eqb_refl; lra|].
    intros k Hk. unfold delta. replace (Nat.eqb n k) with false by (symmetry; apply Nat.eqb_neq; lia). lra.
  - rewrite IH by lia. unfold delta. replace (Nat.eqb i n) with false by (symmetry; apply Nat.eqb_neq; lia). lra.
Qed.
Lemma sum_S n f : sum (S n) f = f O + sum n (fun k => f (S k)).
Proof. induction n as [|n IH]; [cbn; lra|]. change (sum (S (S n)) f) with (sum (S n) f + f (S n)). rewrite IH. cbn. lra. Qed.
Lemma dot_sum d : forall u v, length u = d -> length v = d -> dot u v = sum d (fun k => nth k u 0 * nth k v 0).
Proof.
  induction d as [|d IH]; intros [|a u] [|b v] Hu Hv; try discriminate; [reflexivity|]. rewrite sum_S. cbn [dot nth].
  rewrite (IH u v) by (cbn in *; lia). reflexivity.
Qed.
Lemma nth_map_R {A} (f : A -> R) (l : list A) (a : A) i : (i < length l)%nat -> nth i (map f l) 0 = f (nth i l a).
Proof. intros H. rewrite (nth_indep _ 0 (f a)) by (rewrite map_length; exact H). apply map_nth. Qed.
Lemma square_row d m i : square d m -> (i < d)%nat -> length (nth i m []) = d.
Proof. intros [H1 H2] Hi. rewrite Forall_forall in H2. apply H2, nth_In. lia. Qed.
Lemma mv_length m x : length (mv m x) = length m. Proof. apply map_length. Qed.
Lemma mv_nth d m x i : square d m -> length x = d -> (i < d)%nat -> nth i (mv m x) 0 = sum d (fun k => at2 m i k * nth k x 0).
Proof.
  intros S Hx Hi. unfold mv. rewrite (nth_map_R _ _ []) by (destruct S; lia). apply dot_sum; [eapply square_row; eauto|exact Hx].
Qed.
Lemma same_nth (u v : list R) d : length u = d -> length v = d -> (forall i, (i < d)%nat -> nth i u 0 = nth i v 0) -> u = v.
Proof. intros Hu Hv H. apply nth_ext with (d := 0) (d' := 0); [lia|]. intros n Hn. apply H. lia. Qed.
Lemma transpose_at d m i k : (i < d)%nat -> (k < length m)%nat -> at2 (transpose d m) i k = at2 m k i.
Proof.
  intros Hi Hk. unfold at2, transpose. rewrite (nth_indep _ [] (map (fun r => nth O r 0) m)) by (rewrite map_length, seq_length; exact Hi).
  rewrite (map_nth (fun j => map (fun r => nth j r 0) m)). rewrite seq_nth by exact Hi. rewrite (nth_map_R _ _ []) by exact Hk. reflexivity.
Qed.
Lemma transpose_square d m : length m = d -> square d (transpose d m).
Proof.
  intros H. split; [unfold transpose; rewrite map_length, seq_length; reflexivity|]. apply Forall_forall. intros r Hr.
  apply in_map_iff in Hr. destruct Hr as (j & <- & _). rewrite map_length. exact H.
Qed.
Lemma vmul_nth a b i : length a = length b -> nth i (vmul a b) 0 = nth i a 0 * nth i b 0.
Proof. revert b i. induction a as [|x a IH]; intros [|y b] [|i] H; try discriminate; cbn; try lra. apply IH. auto. Qed.
Lemma vmul_length a b : length a = length b -> length (vmul a b) = length a.
Proof. intros H. unfold vmul. rewrite map_length, combine_length. lia. Qed.
Lemma vsub_nth a b i : length a = length b -> nth i (vsub a b) 0 = nth i a 0 - nth i b 0.
Proof. revert b i. induction a as [|x a IH]; intros [|y b] [|i] H; try discriminate; cbn; try lra. apply IH. auto. Qed.
Lemma vsub_length a b : length a = length b -> length (vsub a b) = length a.
Proof. intros H. unfold vsub. rewrite map_length, combine_length. lia. Qed.

(** ** The two matrices *)
Section Prepared.
Context (d : nat) (eigh : mat -> res (vec * mat)) (C : mat) (vals : vec) (E : mat) (T I : mat).
Hypothesis HD : decomposes d C vals E.
Hypothesis HE : eigh C = Ok (vals, E).
Hypothesis HP : prepare eigh C = Ok (T, I).
Hypothesis Hpos : List.Forall (Rlt 0) vals.

Lemma T_square : square d T.
Proof.
  destruct HD as (Lv & SE & _). unfold prepare in HP. rewrite HE in HP. injection HP as <- _.
  destruct (transpose_square (length vals) E) as [L1 F]; [destruct SE; lia|]. rewrite Lv in *. split.
  - rewrite map_length, combine_length. lia.
  - apply Forall_forall. intros r Hr. apply in_map_iff in Hr. destruct Hr as ([l c] & <- & Hc). rewrite scale_length. cbn [snd].
    rewrite Forall_forall in F. apply F. eapply in_combine_r; eauto.
Qed.
Lemma T_at i k : (i < d)%nat -> (k < d)%nat -> at2 T i k = / sqrt (nth i vals 0) * at2 E k i.
Proof.
  intros Hi Hk. pose proof HD as (Lv & SE & _). unfold prepare in HP. rewrite HE in HP. injection HP as <- _.
  destruct (transpose_square (length vals) E) as [L1 F]; [destruct SE; lia|]. unfold at2.
  rewrite (nth_indep _ [] (scale (/ sqrt (fst (0, @nil R))) (snd (0, @nil R)))) by (rewrite map_length, combine_length; lia).
  rewrite (map_nth (fun p => scale (/ sqrt (fst p)) (snd p))). rewrite combine_nth by lia. cbn [fst snd]. rewrite scale_nth.
  f_equal. rewrite Lv. apply (transpose_at d E i k); [exact Hi|destruct SE; lia].
Qed.
Lemma I_square : square d I.
Proof.
  pose proof HD as (Lv & SE & _). unfold prepare in HP. rewrite HE in HP. injection HP as _ <-. destruct SE as [LE FE]. split; [rewrite map_length; exact LE|].
  apply Forall_forall. intros r Hr. apply in_map_iff in Hr. destruct Hr as (q & <- & Hq). rewrite Forall_forall in FE. specialize (FE q Hq).
  rewrite vmul_length; [exact FE|]. rewrite map_length. lia.
Qed.
Lemma I_at i k : (i < d)%nat -> (k < d)%nat -> at2 I i k = at2 E i k * sqrt (nth k vals 0).
Proof.
  intros Hi Hk. pose proof HD as (Lv & SE & _). unfold prepare in HP. rewrite HE in HP. injection HP as _ <-. unfold at2.
  rewrite (nth_indep _ [] (vmul [] (map sqrt vals))) by (rewrite map_length; destruct SE; lia).
  rewrite (map_nth (fun r => vmul r (map sqrt vals))). rewrite vmul_nth by (rewrite map_length, (square_row d E i SE Hi); lia).
  f_equal. rewrite (nth_map_R sqrt vals 0) by lia. reflexivity.
Qed.
Lemma root i : (i < d)%nat -> 0 < sqrt (nth i vals 0).
Proof. intros Hi. apply sqrt_lt_R0. rewrite Forall_forall in Hpos. apply Hpos, nth_In. destruct HD as (Lv & _). lia. Qed.
Lemma root2 i : (i < d)%nat -> sqrt (nth i vals 0) * sqrt (nth i vals 0) = nth i vals 0.
Proof. intros Hi. apply sqrt_sqrt. rewrite Forall_forall in Hpos. left. apply Hpos, nth_In. destruct HD as (Lv & _). lia. Qed.

Lemma there_and_back x : length x = d -> mv I (mv T x) = x.
Proof.
  intros Hx. assert (LT : length (mv T x) = d) by (rewrite mv_length; apply T_square).
  apply (same_nth _ _ d); [rewrite mv_length; apply I_square|exact Hx|]. intros i Hi.
  rewrite (mv_nth d) by (auto using I_square). transitivity (sum d (fun k => sum d (fun j => at2 E i k * at2 E j k * nth j x 0))).
  - apply sum_ext. intros k Hk. rewrite (mv_nth d) by (auto using T_square). rewrite I_at by auto. rewrite <- sum_scal. apply sum_ext. intros j Hj.
    rewrite T_at by auto. pose proof (root k Hk). field. lra.
  - rewrite sum_swap. transitivity (sum d (fun j => delta i j * nth j x 0)); [|apply sum_delta; exact Hi]. apply sum_ext. intros j Hj.
    rewrite sum_scal_r. destruct HD as (_ & _ & _ & _ & HR & _). rewrite HR by auto. reflexivity.
Qed.
Lemma back_and_there z : length z = d -> mv T (mv I z) = z.
Proof.
  intros Hz. assert (LI : length (mv I z) = d) by (rewrite mv_length; apply I_square).
  apply (same_nth _ _ d); [rewrite mv_length; apply T_square|exact Hz|]. intros i Hi.
  rewrite (mv_nth d) by (auto using T_square).
  transitivity (sum d (fun k => sum d (fun j => / sqrt (nth i vals 0) * (at2 E k i * at2 E k j) * (sqrt (nth j vals 0) * nth j z 0)))).
  - apply sum_ext. intros k Hk. rewrite (mv_nth d) by (auto using I_square). rewrite T_at by auto. rewrite <- sum_scal. apply sum_ext. intros j Hj.
    rewrite I_at by auto. ring.
  - rewrite sum_swap. transitivity (sum d (fun j => delta i j * (/ sqrt (nth i vals 0) * (sqrt (nth j vals 0) * nth j z 0)))).
    + apply sum_ext. intros j Hj. rewrite sum_scal_r, sum_scal. destruct HD as (_ & _ & _ & HCc & _). rewrite HCc by auto. ring.
    + rewrite sum_delta by exact Hi. pose proof (root i Hi). field. lra.
Qed.
(** The vector [E^T x], and the covariance applied to [E y]. *)
Definition proj (x : vec) (k : nat) : R := sum d (fun j => at2 E j k * nth j x 0).
Lemma C_proj x i : length x = d -> (i < d)%nat -> nth i (mv C x) 0 = sum d (fun k => at2 E i k * nth k vals 0 * proj x k).
Proof.
  intros Hx Hi. destruct HD as (Lv & SE & SC & _ & _ & HC). rewrite (mv_nth d) by auto. unfold proj.
  transitivity (sum d (fun j => sum d (fun k => at2 E i k * nth k vals 0 * (at2 E j k * nth j x 0)))).
  - apply sum_ext. intros j Hj. rewrite HC by auto. rewrite <- sum_scal_r. apply sum_ext. intros k Hk. ring.
  - rewrite sum_swap. apply sum_ext. intros k Hk. rewrite <- sum_scal. reflexivity.
Qed.
Lemma proj_C x k : length x = d -> (k < d)%nat -> proj (mv C x) k = nth k vals 0 * proj x k.
Proof.
  intros Hx Hk. unfold proj at 1. pose proof HD as (Lv & SE & SC & HCc & _).
  transitivity (sum d (fun j => sum d (fun l => at2 E j k * at2 E j l * (nth l vals 0 * proj x l)))).
  - apply sum_ext. intros j Hj. rewrite C_proj by auto. rewrite <- sum_scal. apply sum_ext. intros l Hl. ring.
  - rewrite sum_swap. transitivity (sum d (fun l => delta k l * (nth l vals 0 * proj x l))); [|apply (sum_delta d k (fun l => nth l vals 0 * proj x l)); exact Hk].
    apply sum_ext. intros l Hl. rewrite sum_scal_r, HCc by auto. reflexivity.
Qed.
Lemma proj_expand x i : length x = d -> (i < d)%nat -> nth i x 0 = sum d (fun k => at2 E i k * proj x k).
Proof.
  intros Hx Hi. unfold proj. transitivity (sum d (fun k => sum d (fun j => at2 E i k * at2 E j k * nth j x 0))).
  - rewrite sum_swap. transitivity (sum d (fun j => delta i j * nth j x 0)); [symmetry; apply sum_delta; exact Hi|]. apply sum_ext. intros j Hj.
    rewrite sum_scal_r. destruct HD as (_ & _ & _ & _ & HR & _). rewrite HR by auto. reflexivity.
  - apply sum_ext. intros k Hk. rewrite <- sum_scal. apply sum_ext. intros; ring.
Qed.
Lemma T_proj x i : length x = d -> (i < d)%nat -> nth i (mv T x) 0 = / sqrt (nth i vals 0) * proj x i.
Proof.
  intros Hx Hi. rewrite (mv_nth d) by (auto using T_square). unfold proj. rewrite <- sum_scal. apply sum_ext. intros k Hk. rewrite T_at by auto. ring.
Qed.
Lemma parseval x y : length x = d -> length y = d -> dot x y = sum d (fun k => proj x k * proj y k).
Proof.
  intros Hx Hy. rewrite (dot_sum d) by auto. transitivity (sum d (fun i => sum d (fun k => nth i x 0 * (at2 E i k * proj y k)))).
  - apply sum_ext. intros i Hi. rewrite sum_scal. rewrite <- (proj_expand y i) by auto. reflexivity.
  - rewrite sum_swap. apply sum_ext. intros k Hk. unfold proj at 2. rewrite <- sum_scal_r. apply sum_ext. intros; ring.
Qed.
Lemma distance x : length x = d -> mahalanobis x C (sqrt (dot (mv T x) (mv T x))).
Proof.
  intros Hx. pose proof HD as (Lv & SE & SC & HCc & _).
  set (u := map (fun i => sum d (fun k => at2 E i k * (proj x k / nth k vals 0))) (seq 0 d)).
  assert (Lu : length u = d) by (unfold u; rewrite map_length, seq_length; reflexivity).
  assert (Nu : forall i, (i < d)%nat -> nth i u 0 = sum d (fun k => at2 E i k * (proj x k / nth k vals 0))).
  { intros i Hi. unfold u. rewrite (nth_map_R _ _ O) by (rewrite seq_length; exact Hi). rewrite seq_nth by exact Hi. reflexivity. }
  assert (Pv : forall k, (k < d)%nat -> 0 < nth k vals 0).
  { intros k Hk. rewrite Forall_forall in Hpos. apply Hpos, nth_In. lia. }
  assert (Pu : forall k, (k < d)%nat -> proj u k = proj x k / nth k vals 0).
  { intros k Hk. unfold proj at 1. transitivity (sum d (fun j => sum d (fun l => at2 E j k * at2 E j l * (proj x l / nth l vals 0)))).
    - apply sum_ext. intros j Hj. rewrite Nu by auto. rewrite <- sum_scal. apply sum_ext. intros; ring.
    - rewrite sum_swap. transitivity (sum d (fun l => delta k l * (proj x l / nth l vals 0))); [|apply (sum_delta d k (fun l => proj x l / nth l vals 0)); exact Hk].
      apply sum_ext. intros l Hl. rewrite sum_scal_r, HCc by auto. reflexivity. }
  exists u. split; [lia|]. split.
  - change (map (fun r => dot r u) C) with (mv C u). apply (same_nth _ _ d); [rewrite mv_length; apply SC|exact Hx|]. intros i Hi.
    rewrite C_proj by auto. rewrite (proj_expand x i) by auto. apply sum_ext. intros k Hk. rewrite Pu by auto. pose proof (Pv k Hk). field. lra.
  - f_equal. rewrite (dot_sum d) by (rewrite mv_length; apply T_square). rewrite parseval by auto. apply sum_ext. intros k Hk.
    rewrite T_proj, Pu by auto. pose proof (root k Hk). rewrite <- (root2 k Hk) at 3. field. lra.
Qed.
End Prepared.

(** ** Dependent vectors *)
Definition comb (k : nat) (L : list (R * vec)) : R := fold_right (fun p a => fst p * nth k (snd p) 0 + a) 0 L.
Lemma comb_app k L M : comb k (L ++ M) = comb k L + comb k M.
Proof. unfold comb. induction L as [|p L IH]; cbn [app fold_right]; [lra|]. rewrite IH. lra. Qed.
Lemma zero_heads (V : mat) : (forall v, In v V -> nth 0 v 0 = 0) \/ exists l1 v l2, V = (l1 ++ v :: l2)%list /\ nth 0 v 0 <> 0.
Proof.
  induction V as [|v V [IH|(l1 & u & l2 & -> & Hu)]]; [left; intros ? []| |right; exists (v :: l1), u, l2; auto].
  destruct (Req_EM_T (nth 0 v 0) 0) as [E|E]; [left; intros u [<- |Hu]; auto|right; exists [], v, V; auto].
Qed.
Definition reduce (v r : vec) : vec := vsub (tl r) (scale (nth 0 r 0 / nth 0 v 0) (tl v)).
Lemma dependent m : forall V : mat, List.Forall (fun r => length r = m) V -> (m < length V)%nat ->
  exists L, map snd L = V /\ (exists p, In p L /\ fst p <> 0) /\ forall k, comb k L = 0.
Proof.
  induction m as [|m IH]; intros V HF HL.
  - exists (map (fun v => (1, v)) V). split; [rewrite map_map; cbn; apply map_id|]. split.
    + destruct V as [|v V]; [cbn in HL; lia|]. exists (1, v). split; [left; reflexivity|cbn; lra].
    + intros k. assert (E : forall v, In v V -> nth k v 0 = 0).
      { intros v Hv. rewrite Forall_forall in HF. specialize (HF v Hv). destruct v; [destruct k; reflexivity|discriminate]. }
      clear - E. induction V as [|v V IHV]; cbn; [reflexivity|]. rewrite (E v) by (left; reflexivity). unfold comb in IHV. rewrite IHV; [lra|]. intros; apply E; right; auto.
  - destruct (zero_heads V) as [HZ|(l1 & v & l2 & -> & Hv)].
    + destruct (IH (map (@tl R) V)) as (L & HM & HN & HC).
      { apply Forall_forall. intros r Hr. apply in_map_iff in Hr. destruct Hr as (q & <- & Hq). rewrite Forall_forall in HF. specialize (HF q Hq).
        destruct q; cbn in *; lia. }
      { rewrite map_length. lia. }
      exists (combine (map fst L) V). assert (LL : length L = length V) by (rewrite <- (map_length snd), HM, map_length; reflexivity).
      assert (LF : length (map fst L) = length V) by (rewrite map_length; exact LL).
      split; [clear - LF; revert LF; generalize (map fst L); induction V; intros [|? ?] LF; cbn in *; try lia; [reflexivity|]; f_equal; apply IHV; lia|]. split.
      * destruct HN as (p & Hp & Np). destruct (In_nth _ _ p Hp) as (i & Hi & Ei). exists (nth i (combine (map fst L) V) (0, [])). split.
        -- apply nth_In. rewrite combine_length. lia.
        -- rewrite combine_nth by exact LF. cbn [fst]. rewrite (nth_map_R fst L p) by exact Hi. rewrite Ei. exact Np.
      * intros k. assert (G : comb k (combine (map fst L) V) = match k with O => 0 | S j => comb j L end).
        { clear - HM HZ HF LL. revert V HM HZ HF LL. induction L as [|[c u] L IHL]; intros [|v V] HM HZ HF LL; try discriminate; [destruct k; reflexivity|].
          injection HM as Hu HM. inversion HF; subst. cbn [map fst combine comb fold_right snd]. unfold comb in IHL.
          rewrite IHL; [|exact HM|intros; apply HZ; right; auto|auto|cbn in LL; lia]. destruct k as [|j].
          - rewrite (HZ v) by (left; reflexivity). lra.
          - cbn [comb fold_right fst snd]. destruct v as [|a v]; [discriminate|]. reflexivity. }
        rewrite G. destruct k; auto.
    + destruct (IH (map (reduce v) (l1 ++ l2))) as (L & HM & HN & HC).
      { rewrite Forall_forall in *. assert (Lv : length v = S m) by (apply HF; rewrite in_app_iff; right; left; reflexivity).
        intros r Hr. apply in_map_iff in Hr. destruct Hr as (q & <- & Hq).
        assert (Lq : length q = S m) by (apply HF; rewrite in_app_iff in *; destruct Hq; [left|right; right]; auto).
        unfold reduce. rewrite vsub_length; [|rewrite scale_length]; destruct q, v; cbn in *; try discriminate; congruence. }
      { rewrite map_length. rewrite !app_length in *. cbn in HL. lia. }
      rewrite map_app in HM. symmetry in HM.
      assert (S0 : exists L1 L2, L = (L1 ++ L2)%list /\ map snd L1 = map (reduce v) l1 /\ map snd L2 = map (reduce v) l2).
      { exists (firstn (length l1) L), (skipn (length l1) L). split; [symmetry; apply firstn_skipn|].
        rewrite <- firstn_map, <- skipn_map, <- HM. rewrite <- (map_length (reduce v) l1). rewrite firstn_app, skipn_app, Nat.sub_diag, firstn_all, skipn_all.
        cbn. rewrite app_nil_r. split; reflexivity. }
      destruct S0 as (L1 & L2 & -> & H1 & H2).
      assert (G : forall (l : mat) (M : list (R * vec)), map snd M = map (reduce v) l -> List.Forall (fun r => length r = S m) l -> length v = S m ->
         let M' := combine (map fst M) l in map snd M' = l /\ (forall p, In p M -> fst p <> 0 -> exists p', In p' M' /\ fst p' <> 0) /\
         forall k, comb k M = comb (S k) M' - comb O M' / nth 0 v 0 * nth (S k) v 0).
      { clear - Hv. induction l as [|q l IHl]; intros [|[c u] M] HM HF Lv; try discriminate.
        - cbn. split; [reflexivity|]. split; [intros ? []|]. intros k. unfold Rdiv. lra.
        - injection HM as Hu HM. inversion HF; subst. destruct (IHl M HM) as (E1 & E2 & E3); auto. cbn zeta in *.
          cbn [map fst combine snd]. split; [f_equal; exact E1|]. split.
          + intros p [<- |Hp] Np; [exists (c, q); split; [left; reflexivity|exact Np]|]. destruct (E2 p Hp Np) as (p' & I' & N'). exists p'. split; [right; exact I'|exact N'].
          + intros k. cbn [comb fold_right fst snd]. unfold comb in E3. rewrite E3. unfold reduce. destruct q as [|a q]; [discriminate|]. destruct v as [|b v]; [discriminate|].
            cbn [tl nth]. rewrite vsub_nth by (rewrite scale_length; cbn in *; lia). rewrite scale_nth. cbn [nth] in Hv. field. exact Hv. }
      assert (Fv : length v = S m) by (rewrite Forall_forall in HF; apply HF; rewrite in_app_iff; right; left; reflexivity).
      apply Forall_app in HF. destruct HF as [F1 F2]. inversion F2 as [|? ? _ F2']; subst.
      destruct (G l1 L1 H1 F1 Fv) as (A1 & A2 & A3). destruct (G l2 L2 H2 F2' Fv) as (B1 & B2 & B3). cbn zeta in *.
      set (M1 := combine (map fst L1) l1) in *. set (M2 := combine (map fst L2) l2) in *.
      exists (M1 ++ (- (comb 0 M1 + comb 0 M2) / nth 0 v 0, v) :: M2)%list. split; [rewrite map_app; cbn [map snd]; rewrite A1, B1; reflexivity|]. split.
      * destruct HN as (p & Hp & Np). apply in_app_or in Hp. destruct Hp as [Hp|Hp]; [destruct (A2 p Hp Np) as (p' & I' & N')|destruct (B2 p Hp Np) as (p' & I' & N')];
          exists p'; (split; [|exact N']); rewrite in_app_iff; [left|right; right]; exact I'.
      * intros k. rewrite comb_app. change (comb k ((- (comb 0 M1 + comb 0 M2) / nth 0 v 0, v) :: M2)) with (- (comb 0 M1 + comb 0 M2) / nth 0 v 0 * nth k v 0 + comb k M2).
        destruct k as [|j]; [field; exact Hv|]. specialize (HC j). rewrite comb_app, A3, B3 in HC.
        replace (comb (S j) M1 + (- (comb 0 M1 + comb 0 M2) / nth 0 v 0 * nth (S j) v 0 + comb (S j) M2))
          with (comb (S j) M1 - comb 0 M1 / nth 0 v 0 * nth (S j) v 0 + (comb (S j) M2 - comb 0 M2 / nth 0 v 0 * nth (S j) v 0)); [exact HC|].
        field. exact Hv.
Qed.

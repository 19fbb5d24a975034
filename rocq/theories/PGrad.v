(** Derivatives of the surrogate's mean and standard deviation: lemmas. *)
From Coq Require Import Lra Lia.
From Verif Require Import MGrad SKernel PKernel PLinAlg TKernel.
Set Default Goal Selector "!". Set Bullet Behavior "Strict Subproofs".

(** Vectors that depend on a number. *)
Definition dvec (F : R -> list R) (t : R) (v : list R) : Prop :=
  (forall u, length (F u) = length v) /\ forall i, (i < length v)%nat -> is_derive (fun u => nth i (F u) 0) t (nth i v 0).
Lemma dvec_tl F t a v : dvec F t (a :: v) -> dvec (fun u => tl (F u)) t v.
Proof.
  intros [H1 H2]. split.
  - intros u. specialize (H1 u). destruct (F u); cbn in *; lia.
  - intros i Hi. apply (is_derive_ext (fun u => nth (S i) (F u) 0)).
    + intros u. destruct (F u); [destruct i; reflexivity|reflexivity].
    + apply (H2 (S i)). cbn. lia.
Qed.
Lemma dot_derive v : forall w F G t, length v = length w -> dvec F t v -> dvec G t w ->
  is_derive (fun u => dot (F u) (G u)) t (dot v (G t) + dot (F t) w).
Proof.
  induction v as [|a v IH]; intros [|b w] F G t Hl HF HG; try discriminate.
  - destruct HF as [HF _], HG as [HG _]. specialize (HG t) as HGt. specialize (HF t) as HFt.
    destruct (F t) eqn:EF; [|discriminate]. cbn. replace (0 + 0) with 0 by ring.
    apply (is_derive_ext (fun _ => 0)); [|apply @is_derive_const].
    intros u. specialize (HF u). destruct (F u); [reflexivity|discriminate].
  - pose proof (dvec_tl F t a v HF) as HF'. pose proof (dvec_tl G t b w HG) as HG'.
    assert (length v = length w) as Hl' by (cbn in Hl; lia). specialize (IH w _ _ t Hl' HF' HG').
    destruct HF as [LF DF], HG as [LG DG].
    apply (is_derive_ext (fun u => nth 0 (F u) 0 * nth 0 (G u) 0 + dot (tl (F u)) (tl (G u)))).
    + intros u. specialize (LF u). specialize (LG u). destruct (F u); [discriminate|]. destruct (G u); [discriminate|]. reflexivity.
    + assert (is_derive (fun u => nth 0 (F u) 0) t a) as D1 by (apply (DF 0%nat); cbn; lia).
      assert (is_derive (fun u => nth 0 (G u) 0) t b) as D2 by (apply (DG 0%nat); cbn; lia).
      evar_last.
      * apply @is_derive_plus; [|exact IH].
        apply (is_derive_mult (fun u => nth 0 (F u) 0) (fun u => nth 0 (G u) 0)); [exact D1|exact D2|intros; apply Rmult_comm].
      * cbv beta. specialize (LF t). specialize (LG t). destruct (F t) as [|f0 f]; [discriminate|]. destruct (G t) as [|g0 g]; [discriminate|].
        unfold plus, mult; simpl. ring.
Qed.
Lemma dvec_const l t : dvec (fun _ => l) t (repeat 0 (length l)).
Proof.
  split; [intros; rewrite repeat_length; reflexivity|]. intros i Hi. rewrite nth_repeat. apply @is_derive_const.
Qed.
Lemma dot_zeros l n : dot l (repeat 0 n) = 0.
Proof. revert l. induction n as [|n IH]; intros [|a l]; cbn; auto. rewrite IH. ring. Qed.
Lemma dot_derive_const v F t l : length v = length l -> dvec F t v -> is_derive (fun u => dot (F u) l) t (dot v l).
Proof.
  intros H HF. evar_last; [apply (dot_derive v (repeat 0 (length l)) F (fun _ => l) t)|].
  - rewrite repeat_length. exact H.
  - exact HF.
  - apply dvec_const.
  - rewrite dot_zeros. ring.
Qed.

(** Combinations of columns. *)
Lemma mul_columns_acc V : forall b acc n, length acc = n -> List.Forall (fun c => length c = n) V ->
  length (fold_left (fun acc q => vadd acc (scale (snd q) (fst q))) (combine V b) acc) = n
  /\ forall i, (i < n)%nat -> nth i (fold_left (fun acc q => vadd acc (scale (snd q) (fst q))) (combine V b) acc) 0
     = nth i acc 0 + dot (map (fun c => nth i c 0) V) b.
Proof.
  induction V as [|c V IH]; intros b acc n Hn HV; cbn [combine fold_left map dot].
  - split; [exact Hn|]. intros. ring.
  - destruct b as [|b0 b]; cbn [combine fold_left].
    + split; [exact Hn|]. intros. cbn. ring.
    + inversion HV as [|? ? Hc HV']; subst. assert (length acc = length (scale b0 c)) as E by (rewrite scale_length; lia).
      destruct (IH b (vadd acc (scale b0 c)) (length acc)) as [I1 I2]; [rewrite vadd_length; auto|exact HV'|].
      cbn [fst snd]. split; [exact I1|]. intros i Hi. rewrite I2 by exact Hi. rewrite vadd_nth by exact E. rewrite scale_nth. ring.
Qed.
Lemma mul_columns_length n V b : List.Forall (fun c => length c = n) V -> length (mul_columns n V b) = n.
Proof. intros H. apply (mul_columns_acc V b (repeat 0 n) n); [apply repeat_length|exact H]. Qed.
Lemma mul_columns_nth n V b i : List.Forall (fun c => length c = n) V -> (i < n)%nat ->
  nth i (mul_columns n V b) 0 = dot (map (fun c => nth i c 0) V) b.
Proof.
  intros H Hi. unfold mul_columns. destruct (mul_columns_acc V b (repeat 0 n) n) as [_ H2]; [apply repeat_length|exact H|].
  rewrite H2 by exact Hi. rewrite nth_repeat. ring.
Qed.
Lemma dot_fold V : forall b w acc n, length acc = n -> List.Forall (fun c => length c = n) V ->
  dot w (fold_left (fun acc q => vadd acc (scale (snd q) (fst q))) (combine V b) acc) = dot w acc + dot (map (dot w) V) b.
Proof.
  induction V as [|c V IH]; intros b w acc n Hn HV; cbn [combine fold_left map dot].
  - ring.
  - destruct b as [|b0 b]; cbn [combine fold_left]; [cbn; ring|].
    inversion HV as [|? ? Hc HV']; subst. assert (length acc = length (scale b0 c)) as E by (rewrite scale_length; lia).
    cbn [fst snd]. rewrite (IH b w (vadd acc (scale b0 c)) (length acc)); [|rewrite vadd_length; auto|exact HV'].
    rewrite dot_vadd by exact E. rewrite dot_scale. ring.
Qed.
Lemma dot_mul_columns n V b w : List.Forall (fun c => length c = n) V -> dot w (mul_columns n V b) = dot (map (dot w) V) b.
Proof.
  intros H. unfold mul_columns. rewrite (dot_fold V b w (repeat 0 n) n); [|apply repeat_length|exact H]. rewrite dot_zeros. ring.
Qed.
Lemma mul_columns_dvec n V F t v : List.Forall (fun c => length c = n) V -> length V = length v -> dvec F t v ->
  dvec (fun u => mul_columns n V (F u)) t (mul_columns n V v).
Proof.
  intros HV Hl HF. split.
  - intros u. rewrite !mul_columns_length; auto.
  - rewrite mul_columns_length by exact HV. intros i Hi. rewrite mul_columns_nth by auto.
    apply (is_derive_ext (fun u => dot (F u) (map (fun c => nth i c 0) V))).
    + intros u. rewrite mul_columns_nth by auto. apply dot_comm.
    + rewrite dot_comm. apply dot_derive_const; [rewrite map_length; lia|exact HF].
Qed.
(** The columns of the inverse are those of a square matrix. *)
Lemma inverse_columns L : List.Forall (fun c => length c = length L) (inverse L).
Proof.
  unfold inverse. apply Forall_forall. intros c Hc. apply in_map_iff in Hc. destruct Hc as (j & <- & _).
  apply forward_length. rewrite unit_length. reflexivity.
Qed.

(** The kernel at all training points, as the coordinate [i] of the query moves. *)
Lemma kernel_dvec K X G x i : List.Forall2 (fun y row => gradient (fun z => value K z y) x row) X G -> (i < length x)%nat ->
  dvec (fun t => map (value K (replace_coord i t x)) X) (nth i x 0) (map (fun r => nth i r 0) G).
Proof.
  intros H Hi. split.
  - intros u. rewrite !map_length. induction H; cbn; auto.
  - intros j. rewrite map_length. intros Hj. revert j Hj. induction H as [|y r X G H0 H IH]; intros j Hj; cbn in Hj; [lia|].
    destruct j as [|j]; cbn [nth map].
    + destruct H0 as [_ H0]. apply (H0 i Hi).
    + apply IH. lia.
Qed.
Lemma rows_length K X G x : List.Forall2 (fun y row => gradient (fun z => value K z y) x row) X G ->
  length G = length X /\ List.Forall (fun r => length r = length x) G.
Proof.
  induction 1 as [|y r X G [H0 _] H [IH1 IH2]]; cbn; auto.
Qed.
(** Kernels with the same variance everywhere. *)
Fixpoint stationary (K : kernel) : bool :=
  match K with
  | DotProduct _ | WhiteKernel _ => false
  | Sum k1 k2 | Product k1 k2 => stationary k1 && stationary k2
  | Exponentiation k _ => stationary k
  | _ => true
  end.
Lemma sdiff_self ls x : sum_sq (scaled_diff ls x x) = 0.
Proof. revert x. induction ls as [|l ls IH]; intros [|a x]; cbn; auto. fold (scaled_diff ls x x). rewrite IH. unfold Rdiv. replace (a - a) with 0 by ring. ring. Qed.
Lemma stationary_diag K x y : stationary K = true -> value K x x = value K y y.
Proof.
  induction K as [s|nu s|l alpha|l p|c| |s0|k1 IH1 k2 IH2|k1 IH1 k2 IH2|k IH e]; intros H; cbn [value stationary] in *; try discriminate;
    rewrite ?sdiff_self; try reflexivity; try (apply andb_true_iff in H; destruct H as [H1 H2]; rewrite IH1, IH2; auto).
  rewrite IH; auto.
Qed.

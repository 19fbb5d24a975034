(** Lemmas on limits of predictions (TLaws.v). *)
From Coq Require Import Reals Lra Lia List.
From Coquelicot Require Import Coquelicot.
From Verif Require Import MKernel MWhite SLaws MLinAlg.
Set Default Goal Selector "!".
Set Bullet Behavior "Strict Subproofs".
Open Scope R_scope.

(** Vectors that converge entry by entry. *)
Definition vlim (f : nat -> list R) (v : list R) : Prop :=
  (forall j, length (f j) = length v) /\ forall i, is_lim_seq (fun j => nth i (f j) 0) (nth i v 0).
Lemma vlim_nil : vlim (fun _ => []) [].
Proof. split; auto. intros [|i]; apply is_lim_seq_const. Qed.
Lemma vlim_const v : vlim (fun _ => v) v.
Proof. split; auto. intros i. apply is_lim_seq_const. Qed.
Lemma vlim_ext f g v : (forall j, f j = g j) -> vlim f v -> vlim g v.
Proof. intros E [H1 H2]. split; [intros j; rewrite <- E; auto|]. intros i. eapply is_lim_seq_ext; [|apply H2]. intros j. cbn. rewrite E. reflexivity. Qed.
Lemma vlim_tl f a v : vlim f (a :: v) -> vlim (fun j => tl (f j)) v /\ is_lim_seq (fun j => hd 0 (f j)) a /\ forall j, f j = hd 0 (f j) :: tl (f j).
Proof.
  intros [H1 H2]. assert (forall j, f j = hd 0 (f j) :: tl (f j)) as E by (intros j; specialize (H1 j); destruct (f j); [discriminate|reflexivity]). repeat split; auto.
  - intros j. specialize (H1 j). rewrite E in H1. injection H1 as H1. exact H1.
  - intros i. eapply is_lim_seq_ext; [|exact (H2 (S i))]. intros j. cbn. rewrite E. reflexivity.
  - eapply is_lim_seq_ext; [|exact (H2 O)]. intros j. cbn. rewrite E. reflexivity.
Qed.
Lemma vlim_cons f g (a : R) v : is_lim_seq f a -> vlim g v -> vlim (fun j => f j :: g j) (a :: v).
Proof. intros H [H1 H2]. split; [intros j; cbn; rewrite H1; reflexivity|]. intros [|i]; cbn; auto. Qed.
Lemma lim_plus u v a b : is_lim_seq u (Finite a) -> is_lim_seq v (Finite b) -> is_lim_seq (fun j => u j + v j) (a + b).
Proof. apply is_lim_seq_plus'. Qed.
Lemma lim_mult u v a b : is_lim_seq u (Finite a) -> is_lim_seq v (Finite b) -> is_lim_seq (fun j => u j * v j) (a * b).
Proof. apply is_lim_seq_mult'. Qed.
Lemma vlim_dot f v : forall g w, vlim f v -> vlim g w -> is_lim_seq (fun j => dot (f j) (g j)) (dot v w).
Proof.
  revert f. induction v as [|a v IH]; intros f g w Hf Hg.
  - eapply is_lim_seq_ext; [|apply is_lim_seq_const]. intros j. destruct Hf as [Hf _]. specialize (Hf j). destruct (f j); [reflexivity|discriminate].
  - destruct w as [|b w].
    + eapply is_lim_seq_ext; [|apply is_lim_seq_const]. intros j. destruct Hg as [Hg _]. specialize (Hg j). destruct (g j); [|discriminate]. destruct (f j); reflexivity.
    + apply vlim_tl in Hf as (Hf & Hf0 & Ef). apply vlim_tl in Hg as (Hg & Hg0 & Eg).
      eapply is_lim_seq_ext; [|cbn [dot]; apply lim_plus; [apply lim_mult; [exact Hf0|exact Hg0]|apply (IH _ _ _ Hf Hg)]]. intros j. cbn. rewrite (Ef j), (Eg j). reflexivity.
Qed.
Lemma vlim_vadd f v : forall g w, vlim f v -> vlim g w -> vlim (fun j => vadd (f j) (g j)) (vadd v w).
Proof.
  revert f. induction v as [|a v IH]; intros f g w Hf Hg.
  - eapply vlim_ext; [|apply vlim_nil]. intros j. destruct Hf as [Hf _]. specialize (Hf j). destruct (f j); [reflexivity|discriminate].
  - destruct w as [|b w].
    + eapply vlim_ext; [|apply vlim_nil]. intros j. destruct Hg as [Hg _]. specialize (Hg j). destruct (g j); [|discriminate]. destruct (f j); reflexivity.
    + apply vlim_tl in Hf as (Hf & Hf0 & Ef). apply vlim_tl in Hg as (Hg & Hg0 & Eg).
      eapply vlim_ext; [|change (vadd (a :: v) (b :: w)) with (a + b :: vadd v w); apply vlim_cons; [apply lim_plus; [exact Hf0|exact Hg0]|apply (IH _ _ _ Hf Hg)]].
      intros j. cbn beta. rewrite (Ef j), (Eg j). reflexivity.
Qed.
Lemma vlim_scale f c v : is_lim_seq f (Finite c) -> vlim (fun j => scale (f j) v) (scale c v).
Proof.
  intros H. induction v as [|a v IH]; [apply vlim_nil|]. unfold scale in *. cbn [map]. apply vlim_cons; auto.
  eapply is_lim_seq_ext; [|apply lim_mult; [exact H|apply is_lim_seq_const]]. intros j. reflexivity.
Qed.
Lemma vlim_mul V : forall f v n, vlim f v -> vlim (fun j => mul_columns n V (f j)) (mul_columns n V v).
Proof.
  assert (forall f v a b, vlim a b -> vlim f v ->
    vlim (fun j => fold_left (fun acc q => vadd acc (scale (snd q) (fst q))) (combine V (f j)) (a j)) (fold_left (fun acc q => vadd acc (scale (snd q) (fst q))) (combine V v) b)) as H.
  { induction V as [|c V IH]; intros f v a b Ha Hf; [cbn; exact Ha|]. destruct v as [|t v].
    - eapply vlim_ext; [|cbn; exact Ha]. intros j. destruct Hf as [Hf _]. specialize (Hf j). destruct (f j); [reflexivity|discriminate].
    - apply vlim_tl in Hf as (Hf & Hf0 & Ef). cbn [combine fold_left fst snd]. eapply vlim_ext; [|apply (IH (fun j => tl (f j)) v (fun j => vadd (a j) (scale (hd 0 (f j)) c)))].
      + intros j. cbn beta. rewrite (Ef j) at 3. reflexivity.
      + apply vlim_vadd; auto. apply vlim_scale. exact Hf0.
      + exact Hf. }
  intros f v n Hf. apply H; auto. apply vlim_const.
Qed.
Lemma vlim_map {A} (f : nat -> A -> R) (c : A -> R) l : (forall a, In a l -> is_lim_seq (fun j => f j a) (c a)) -> vlim (fun j => map (f j) l) (map c l).
Proof. induction l as [|a l IH]; intros H; [apply vlim_nil|]. cbn [map]. apply vlim_cons; [apply H; left; auto|]. apply IH. intros b Hb. apply H. right. auto. Qed.

Lemma lim_cont f u a : continuous f a -> is_lim_seq u (Finite a) -> is_lim_seq (fun j => f (u j)) (f a).
Proof. intros Hf Hu. apply is_lim_seq_continuous; [|exact Hu]. apply continuity_pt_filterlim. exact Hf. Qed.
Lemma lim_sqrt u a : is_lim_seq u (Finite a) -> is_lim_seq (fun j => sqrt (u j)) (sqrt a).
Proof. intros Hu. apply (lim_cont sqrt); auto. apply continuous_sqrt. Qed.
Lemma lim_pow u a n : is_lim_seq u (Finite a) -> is_lim_seq (fun j => u j ^ n) (a ^ n).
Proof. intros H. induction n as [|n IH]; [apply is_lim_seq_const|]. cbn [pow]. apply lim_mult; auto. Qed.
Lemma lim_exp u a : is_lim_seq u (Finite a) -> is_lim_seq (fun j => exp (u j)) (exp a).
Proof. intros Hu. apply (lim_cont exp); auto. apply continuous_exp. Qed.
Lemma lim_Rpower u a e : 0 < a -> is_lim_seq u (Finite a) -> is_lim_seq (fun j => Rpower (u j) e) (Rpower a e).
Proof.
  intros Ha Hu. unfold Rpower. apply lim_exp. apply lim_mult; [apply is_lim_seq_const|]. apply (lim_cont ln); auto. apply continuity_pt_filterlim. apply derivable_continuous_pt.
  exists (/ a). apply derivable_pt_lim_ln. exact Ha.
Qed.
Lemma lim_abs u a : is_lim_seq u (Finite a) -> is_lim_seq (fun j => Rabs (u j)) (Rabs a).
Proof. intros H. apply (is_lim_seq_abs u (Finite a)). exact H. Qed.
Lemma lim_min u v a b : is_lim_seq u (Finite a) -> is_lim_seq v (Finite b) -> is_lim_seq (fun j => Rmin (u j) (v j)) (Rmin a b).
Proof.
  intros Hu Hv. assert (forall p q, Rmin p q = / 2 * (p + q + -1 * Rabs (p + -1 * q))) as E by (intros p q; unfold Rmin, Rabs; destruct (Rle_dec p q), (Rcase_abs (p + -1 * q)); lra).
  rewrite E. eapply is_lim_seq_ext; [intros j; symmetry; apply E|]. apply lim_mult; [apply is_lim_seq_const|]. apply lim_plus; [apply lim_plus; auto|].
  apply lim_mult; [apply is_lim_seq_const|]. apply lim_abs, lim_plus; auto. apply lim_mult; [apply is_lim_seq_const|auto].
Qed.

Section Predict.
Context {P : Type}.
Variable k : P -> P -> R.
Lemma std_sqrt X g x : gp_std k X g x = sqrt (gp_var k X g x).
Proof. unfold gp_std. destruct (Rlt_dec (gp_var k X g x) 0) as [H|H]; auto. rewrite sqrt_0. symmetry. apply sqrt_neg_0. lra. Qed.
Lemma mean_lim X g xs (c : P -> R) : (forall x, In x X -> is_lim_seq (fun j => k (xs j) x) (c x)) ->
  is_lim_seq (fun j => gp_mean k X g (xs j)) (dot (map c X) (g_alpha g)).
Proof. intros H. unfold gp_mean. apply vlim_dot; [apply vlim_map; exact H|apply vlim_const]. Qed.
Lemma norm_lim X g xs (c : P -> R) : (forall x, In x X -> is_lim_seq (fun j => k (xs j) x) (c x)) ->
  is_lim_seq (fun j => let M := mul_columns (length (g_L g)) (g_V g) (map (k (xs j)) X) in dot M M)
    (let M := mul_columns (length (g_L g)) (g_V g) (map c X) in dot M M).
Proof. intros H. cbv zeta. apply vlim_dot; apply vlim_mul, vlim_map; exact H. Qed.
Lemma var_lim X g xs (c : P -> R) v : (forall x, In x X -> is_lim_seq (fun j => k (xs j) x) (c x)) -> is_lim_seq (fun j => k (xs j) (xs j)) (Finite v) ->
  is_lim_seq (fun j => gp_var k X g (xs j)) (v - (let M := mul_columns (length (g_L g)) (g_V g) (map c X) in dot M M)).
Proof. intros H Hv. unfold gp_var. cbv zeta. apply is_lim_seq_minus'; auto. apply (norm_lim X g xs c H). Qed.
End Predict.

Lemma mul_zero V n u : (forall a, In a u -> a = 0) -> Forall (fun c => length c = n) V -> mul_columns n V u = repeat 0 n.
Proof.
  intros Hu HV. unfold mul_columns. revert u Hu. induction HV as [|c V Hc HV IH]; intros [|a u] Hu; auto. cbn [combine fold_left fst snd].
  rewrite (Hu a) by (left; auto). assert (vadd (repeat 0 n) (scale 0 c) = repeat 0 n) as ->.
  { clear - Hc. revert c Hc. induction n as [|n IH]; intros [|b c] Hc; try discriminate; auto. injection Hc as Hc. unfold vadd, scale in *. cbn. f_equal; [lra|]. apply IH. auto. }
  apply IH. intros b Hb. apply Hu. right. auto.
Qed.

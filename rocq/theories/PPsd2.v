(** Positive definite functions of the distance: exponentials, rational quadratics, Matern. *)
From Coq Require Import Lra Lia.
From Coquelicot Require Import Coquelicot.
From Verif Require Import MLinAlg PLinAlg SLinAlg PGp PPsd.
Set Default Goal Selector "!".
Set Bullet Behavior "Strict Subproofs".

(** Squared distance (the shorter point is completed with zeros). *)
Definition dist2 (z w : list R) : R := dot z z + dot w w - 2 * dot z w.
Lemma dist2_pos : forall z w, 0 <= dist2 z w.
Proof.
  unfold dist2. induction z as [|a z IH]; intros [|b w]; cbn [dot]; try lra.
  - pose proof (dot_pos w). nra.
  - pose proof (dot_pos z). nra.
  - specialize (IH w). pose proof (Rle_0_sqr (a - b)) as H. unfold Rsqr in H. lra.
Qed.
Lemma dist2_sym : symmetric dist2. Proof. intros z w. unfold dist2. rewrite (dot_comm z w). ring. Qed.
Definition radial (phi : R -> R) : Prop := positive (fun z w => phi (dist2 z w)).
Lemma radial_ext phi psi : (forall s, 0 <= s -> phi s = psi s) -> radial phi -> radial psi.
Proof. intros H. apply positive_ext. intros a b. apply H, dist2_pos. Qed.
Lemma radial_sym (phi : R -> R) : symmetric (fun z w => phi (dist2 z w)).
Proof. intros z w. cbn. rewrite dist2_sym. auto. Qed.
Lemma radial_scale c phi : 0 <= c -> radial phi -> radial (fun s => c * phi s).
Proof. intros Hc. apply (positive_scale c (fun z w => phi (dist2 z w)) Hc). Qed.
Lemma radial_exp phi : radial phi -> radial (fun s => exp (phi s)).
Proof. intros H. apply (positive_exp (fun z w => phi (dist2 z w)) (radial_sym phi) H). Qed.
Lemma radial_limit (phin : nat -> R -> R) (phi : R -> R) : (forall n, radial (phin n)) -> (forall s, 0 <= s -> is_lim_seq (fun n => phin n s) (phi s)) -> radial phi.
Proof.
  intros H1 H2. apply (positive_limit (fun n z w => phin n (dist2 z w))); auto. intros a b. apply is_lim_seq_Reals. apply H2, dist2_pos.
Qed.
Lemma dot_positive : positive dot.
Proof.
  intros l. assert (exists N, forall q, In q l -> (length (fst q) <= N)%nat) as [N HN].
  { induction l as [|q l [N IH]]; [exists 0%nat; intros q []|]. exists (Nat.max (length (fst q)) N). intros q' [<-|Hq]; [lia|]. specialize (IH q' Hq). lia. }
  pose proof (features_positive (fun _ _ : unit => 1) (positive_constant 1 Rle_0_1) N (map (fun q => ((tt, fst q), snd q)) l)) as H.
  assert (quad dot l = quad (fun a b : unit * list R => dot (snd a) (snd b) * 1) (map (fun q => ((tt, fst q), snd q)) l)) as ->.
  { rewrite <- (quad_map (fun z => (tt, z)) (fun a b : unit * list R => dot (snd a) (snd b) * 1)). apply quad_ext. intros a b _ _. cbn. ring. }
  apply H. intros q Hq. apply in_map_iff in Hq. destruct Hq as (q' & <- & Hq'). cbn. auto.
Qed.
Lemma radial_rbf c : 0 <= c -> radial (fun s => exp (- (c * s))).
Proof.
  intros Hc. apply (positive_ext (fun z w => exp (- (c * dot z z)) * exp (- (c * dot w w)) * exp (2 * c * dot z w))).
  - intros z w. rewrite <- !exp_plus. f_equal. unfold dist2. ring.
  - apply (positive_conj (fun z => exp (- (c * dot z z)))). apply positive_exp.
    + intros z w. rewrite dot_comm. auto.
    + apply positive_scale; [lra|]. apply dot_positive.
Qed.

(** Integrals. *)
Lemma RInt_zero a b : is_RInt (fun _ => 0) a b 0.
Proof.
  pose proof (is_RInt_const (V := R_NormedModule) a b 0) as H.
  assert ((scal (b - a) (0 : R_NormedModule) : R) = 0) as E by (unfold scal; cbn; unfold mult; cbn; ring).
  rewrite E in H. exact H.
Qed.
Lemma RInt_total {A} (f : R -> A -> R) (g : A -> R) a b l : (forall x, In x l -> is_RInt (fun u => f u x) a b (g x)) ->
  is_RInt (fun u => total (map (f u) l)) a b (total (map g l)).
Proof.
  induction l as [|x l IH]; intros H; cbn [map total fold_right].
  - apply RInt_zero.
  - apply (is_RInt_plus (fun u => f u x) (fun u => fold_right Rplus 0 (map (f u) l))); [apply H; left; auto|]. apply IH. intros; apply H; right; auto.
Qed.
Lemma positive_int {P} (kt : R -> P -> P -> R) K a b : a <= b -> (forall u, a < u < b -> positive (kt u)) -> (forall x y, is_RInt (fun u => kt u x y) a b (K x y)) -> positive K.
Proof.
  intros Hab Hp HI l. apply (is_RInt_le (fun _ => 0) (fun u => quad (kt u) l) a b); auto.
  - apply RInt_zero.
  - unfold quad. apply (RInt_total (fun u x => total (map (fun y => snd x * snd y * kt u (fst x) (fst y)) l))). intros x _.
    apply (RInt_total (fun u y => snd x * snd y * kt u (fst x) (fst y))). intros y _. apply (is_RInt_scal (fun u => kt u (fst x) (fst y))). apply HI.
  - intros u Hu. apply Hp; auto.
Qed.
Lemma radial_int (phit : R -> R -> R) (phi : R -> R) a b : a <= b -> (forall u, a < u < b -> radial (phit u)) -> (forall s, 0 <= s -> is_RInt (fun u => phit u s) a b (phi s)) -> radial phi.
Proof. intros Hab Hp HI. apply (positive_int (fun u z w => phit u (dist2 z w)) _ a b Hab); auto. intros x y. apply HI, dist2_pos. Qed.
Lemma lim_to {f g : nat -> R} (l : R) : (forall n, f n = g n) -> is_lim_seq g l -> is_lim_seq f l.
Proof. intros H. apply is_lim_seq_ext. intros n. symmetry. apply H. Qed.
Lemma lim_INR_inv : is_lim_seq (fun n => / INR (S n)) 0.
Proof.
  apply (is_lim_seq_incr_1 (fun n => / INR n)). apply (is_lim_seq_inv _ p_infty); [apply is_lim_seq_INR|discriminate].
Qed.
(** Antiderivatives. *)
Lemma RInt_anti (F f : R -> R) a b : a <= b -> (forall x, a <= x <= b -> is_derive F x (f x)) -> (forall x, a <= x <= b -> continuous f x) -> is_RInt f a b (F b - F a).
Proof.
  intros Hab HF Hf. apply (is_RInt_derive F f a b); rewrite Rmin_left, Rmax_right by auto; auto.
Qed.

(** 1 / (c + s) *)
Lemma radial_inv c : 0 < c -> radial (fun s => / (c + s)).
Proof.
  intros Hc. apply (radial_limit (fun n s => / (c + s) - exp (- (INR n * (c + s))) * / (c + s))).
  - intros n. apply (radial_int (fun t s => exp (- (t * c)) * exp (- (t * s))) _ 0 (INR n)); [apply pos_INR| |].
    + intros t Ht. apply radial_scale; [left; apply exp_pos|]. apply radial_rbf. lra.
    + intros s Hs. replace (/ (c + s) - exp (- (INR n * (c + s))) * / (c + s)) with ((fun t => - exp (- (t * (c + s))) * / (c + s)) (INR n) - (fun t => - exp (- (t * (c + s))) * / (c + s)) 0).
      2:{ cbn beta. rewrite Rmult_0_l, Ropp_0, exp_0. ring. }
      apply (RInt_anti (fun t => - exp (- (t * (c + s))) * / (c + s))); [apply pos_INR| |].
      * intros t _. auto_derive; auto. rewrite <- exp_plus. replace (- (t * c) + - (t * s)) with (- (t * (c + s))) by ring. field. lra.
      * intros t _. apply (ex_derive_continuous (V := R_NormedModule)). auto_derive. auto.
  - intros s Hs. replace (/ (c + s)) with (/ (c + s) - 0 * / (c + s)) at 1 by ring. apply is_lim_seq_minus'; [apply is_lim_seq_const|].
    apply is_lim_seq_mult'; [|apply is_lim_seq_const].
    apply (is_lim_seq_le_le (fun _ => 0) _ (fun n => / (1 + INR n * (c + s)))).
    + intros n. assert (0 <= INR n * (c + s)) by (apply Rmult_le_pos; [apply pos_INR|lra]). split; [left; apply exp_pos|]. rewrite exp_Ropp. apply Rinv_le_contravar; [lra|].
      apply exp_ineq1_le.
    + apply is_lim_seq_const.
    + apply (is_lim_seq_inv _ p_infty); [|discriminate]. apply (is_lim_seq_plus _ _ 1 p_infty); [apply is_lim_seq_const| |reflexivity].
      apply (is_lim_seq_mult _ _ p_infty (c + s)); [apply is_lim_seq_INR|apply is_lim_seq_const|]. unfold is_Rbar_mult. cbn. destruct (Rle_dec 0 (c + s)) as [H|H]; [|lra].
      destruct (Rle_lt_or_eq_dec 0 (c + s) H) as [H'|H']; [reflexivity|lra].
Qed.

(** Positive definite functions of the distance: rational quadratics, Matern. *)
From Coq Require Import Lra Lia.
From Coquelicot Require Import Coquelicot.
From Verif Require Import MLinAlg PLinAlg SLinAlg PGp PPsd PPsd2.
Set Default Goal Selector "!".
Set Bullet Behavior "Strict Subproofs".

(** exp (- sqrt (v + s)) *)
Definition atan_part (n : nat) (q : R) : R := if Req_EM_T q 0 then 0 else q * atan (INR n / q).
Lemma atan_lim q : 0 < q -> is_lim_seq (fun n => atan (INR n / q)) (PI / 2).
Proof.
  intros Hq. assert (forall n, (1 <= n)%nat -> atan (INR n / q) = PI / 2 - atan (q / INR n)) as E.
  { intros n Hn. assert (0 < INR n) as HI by (apply lt_0_INR; lia). replace (INR n / q) with (/ (q / INR n)) by (field; lra). apply atan_inv. apply Rdiv_lt_0_compat; lra. }
  apply (is_lim_seq_ext_loc (fun n => PI / 2 - atan (q / INR n))).
  - exists 1%nat. intros n Hn. rewrite E; auto.
  - replace (PI / 2) with (PI / 2 - 0) at 1 by ring. apply is_lim_seq_minus'; [apply is_lim_seq_const|].
    rewrite <- atan_0. apply (is_lim_seq_continuous atan).
    + apply derivable_continuous_pt. apply derivable_pt_atan.
    + replace 0 with (q * 0) by ring. apply is_lim_seq_mult'; [apply is_lim_seq_const|]. apply (is_lim_seq_inv _ p_infty); [apply is_lim_seq_INR|discriminate].
Qed.
Lemma radial_sqrt v : 0 <= v -> radial (fun s => exp (- sqrt (v + s))).
Proof.
  intros Hv. apply (radial_limit (fun n s => exp (- (2 / PI * INR n)) * exp (2 / PI * (INR n - atan_part n (sqrt (v + s)))))).
  - intros n. apply radial_scale; [left; apply exp_pos|]. apply radial_exp. apply radial_scale; [left; apply Rdiv_lt_0_compat; [lra|apply PI_RGT_0]|].
    apply (radial_int (fun u s => u ^ 2 * / ((u ^ 2 + v) + s)) _ 0 (INR n)); [apply pos_INR| |].
    + intros u Hu. apply radial_scale; [nra|]. apply radial_inv. nra.
    + intros s Hs. pose proof (sqrt_pos (v + s)) as Hq. pose proof (sqrt_sqrt (v + s) ltac:(lra)) as Hqq. set (q := sqrt (v + s)) in *. unfold atan_part.
      destruct (Req_EM_T q 0) as [E|E].
      * apply (is_RInt_ext (fun _ => 1)).
        { intros u [Hu _]. rewrite Rmin_left in Hu by apply pos_INR. change (1 = u ^ 2 * / (u ^ 2 + v + s)). replace (u ^ 2 + v + s) with (u ^ 2) by (rewrite E in Hqq; lra). field. lra. }
        pose proof (is_RInt_const (V := R_NormedModule) 0 (INR n) 1) as H.
        assert ((scal (INR n - 0) (1 : R_NormedModule) : R) = INR n - 0) as E1 by (unfold scal; cbn; unfold mult; cbn; ring). rewrite E1 in H. exact H.
      * assert (0 < q) as Hq0 by lra. clear E.
        replace (INR n - q * atan (INR n / q)) with ((fun u => u - q * atan (u / q)) (INR n) - (fun u => u - q * atan (u / q)) 0).
        2:{ cbn beta. unfold Rdiv at 2. rewrite Rmult_0_l, atan_0. ring. }
        apply (RInt_anti (fun u => u - q * atan (u / q))); [apply pos_INR| |].
        -- intros u _. auto_derive; auto. replace (u ^ 2 + v + s) with (u ^ 2 + q * q) by lra. field. split; [nra|lra].
        -- intros u _. apply (ex_derive_continuous (V := R_NormedModule)). auto_derive. nra.
  - intros s Hs. pose proof (sqrt_pos (v + s)) as Hq. set (q := sqrt (v + s)) in *.
    apply (lim_to (g := fun n => exp (- (2 / PI * atan_part n q)))).
    { intros n. rewrite <- exp_plus. f_equal. ring. }
    apply (is_lim_seq_continuous exp); [apply derivable_continuous_pt, derivable_pt_exp|]. unfold atan_part.
    destruct (Req_EM_T q 0) as [E|E].
    + apply (lim_to (g := fun _ => - q)); [intros n; rewrite E; ring|]. apply is_lim_seq_const.
    + replace (- q) with (- (2 / PI * (q * (PI / 2)))) by (field; apply PI_neq0). apply (is_lim_seq_opp _ (2 / PI * (q * (PI / 2)))).
      apply is_lim_seq_mult'; [apply is_lim_seq_const|]. apply is_lim_seq_mult'; [apply is_lim_seq_const|]. apply atan_lim. lra.
Qed.

(** (1 + s) ^ - alpha *)
Lemma radial_rq alpha : 0 <= alpha -> radial (fun s => Rpower (1 + s) (- alpha)).
Proof.
  intros Ha. set (eps := fun n => / INR (S n)).
  assert (forall n, 0 < eps n <= 1) as Heps.
  { intros n. unfold eps. assert (1 <= INR (S n)) by (rewrite S_INR; pose proof (pos_INR n); lra). split; [apply Rinv_0_lt_compat; lra|].
    rewrite <- Rinv_1. apply Rinv_le_contravar; lra. }
  apply (radial_limit (fun n s => exp (alpha * ln (eps n)) * exp (alpha * ((ln 1 - ln (1 + 1 * s)) - (ln (eps n) - ln (1 + eps n * s)))))).
  - intros n. destruct (Heps n) as [He1 He2]. apply radial_scale; [left; apply exp_pos|]. apply radial_exp. apply radial_scale; auto.
    apply (radial_int (fun u s => / u ^ 2 * / (/ u + s)) _ (eps n) 1 He2).
    + intros u Hu. assert (0 < / u) by (apply Rinv_0_lt_compat; lra). apply radial_scale; [left; apply Rinv_0_lt_compat; nra|]. apply radial_inv. auto.
    + intros s Hs. apply (RInt_anti (fun u => ln u - ln (1 + u * s))); auto.
      * intros u Hu. assert (0 < 1 + u * s) by nra. auto_derive; [split; lra|]. field; repeat split; try lra; try nra.
      * intros u Hu. assert (0 < / u) by (apply Rinv_0_lt_compat; lra). apply (ex_derive_continuous (V := R_NormedModule)). auto_derive. repeat split; try lra; try nra.
  - intros s Hs. apply (lim_to (g := fun n => exp (- alpha * (ln (1 + s) - ln (1 + eps n * s))))).
    { intros n. rewrite <- exp_plus. f_equal. rewrite ln_1, Rmult_1_l. ring. }
    unfold Rpower. apply (is_lim_seq_continuous exp); [apply derivable_continuous_pt, derivable_pt_exp|].
    apply is_lim_seq_mult'; [apply is_lim_seq_const|]. replace (ln (1 + s)) with (ln (1 + s) - ln (1 + 0 * s)) at 1 by (rewrite Rmult_0_l, Rplus_0_r, ln_1; ring).
    apply is_lim_seq_minus'; [apply is_lim_seq_const|]. apply (is_lim_seq_continuous ln).
    + apply derivable_continuous_pt. exists (/ (1 + 0 * s)). apply derivable_pt_lim_ln. lra.
    + apply is_lim_seq_plus'; [apply is_lim_seq_const|]. apply is_lim_seq_mult'; [apply lim_INR_inv|apply is_lim_seq_const].
Qed.

(** Matern functions of the squared distance. *)
Definition m12 (x : R) : R := exp (- sqrt x).
Definition m32 (x : R) : R := (1 + sqrt x) * exp (- sqrt x).
Definition m52 (x : R) : R := (1 + sqrt x + sqrt x ^ 2 / 3) * exp (- sqrt x).
Lemma matern_bound f x : (forall q, 0 <= q -> 0 <= f q <= 16 * (1 + q / 4) ^ 2) -> 0 < x -> 0 <= f (sqrt x) * exp (- sqrt x) <= 256 / x.
Proof.
  intros Hf Hx. pose proof (sqrt_lt_R0 x Hx) as Hq. pose proof (sqrt_sqrt x ltac:(lra)) as Hqq. set (q := sqrt x) in *. specialize (Hf q ltac:(lra)).
  pose proof (exp_pos (- q)) as He. split; [apply Rmult_le_pos; lra|].
  assert ((1 + q / 4) ^ 4 <= exp q) as H4.
  { replace (exp q) with (exp (q / 4) ^ 4).
    - apply pow_incr. split; [lra|]. apply exp_ineq1_le.
    - replace q with (q / 4 + q / 4 + q / 4 + q / 4) at 2 by field. rewrite !exp_plus. ring. }
  apply (Rle_trans _ (16 * (1 + q / 4) ^ 2 * exp (- q))); [apply Rmult_le_compat_r; lra|].
  rewrite exp_Ropp. assert (0 < (1 + q / 4) ^ 4) as Hp by (apply pow_lt; lra).
  apply (Rle_trans _ (16 * (1 + q / 4) ^ 2 * / (1 + q / 4) ^ 4)).
  { apply Rmult_le_compat_l; [nra|]. apply Rinv_le_contravar; lra. }
  replace (16 * (1 + q / 4) ^ 2 * / (1 + q / 4) ^ 4) with (16 * / (1 + q / 4) ^ 2) by (field; lra).
  replace (256 / x) with (16 * / (q * q / 16)) by (rewrite Hqq; field; lra).
  apply Rmult_le_compat_l; [lra|]. apply Rinv_le_contravar; nra.
Qed.
Lemma matern_lim f : (forall q, 0 <= q -> 0 <= f q <= 16 * (1 + q / 4) ^ 2) -> forall x, 0 <= x -> is_lim_seq (fun n => f (sqrt (x + INR (S n))) * exp (- sqrt (x + INR (S n)))) 0.
Proof.
  intros Hf x Hx. apply (is_lim_seq_le_le (fun _ => 0) _ (fun n => 256 * / INR (S n))).
  - intros n. assert (0 < INR (S n)) as Hn by (apply lt_0_INR; lia). destruct (matern_bound f (x + INR (S n)) Hf ltac:(lra)) as [H1 H2]. split; auto.
    eapply Rle_trans; [exact H2|]. unfold Rdiv. apply Rmult_le_compat_l; [lra|]. apply Rinv_le_contravar; lra.
  - apply is_lim_seq_const.
  - replace 0 with (256 * 0) by ring. apply is_lim_seq_mult'; [apply is_lim_seq_const|apply lim_INR_inv].
Qed.
(** One step: if [g (v + .)] is positive definite for all [v], so is its tail integral. *)
Lemma radial_tail c (g F : R -> R) (f : R -> R) : 0 < c -> (forall q, 0 <= q -> 0 <= f q <= 16 * (1 + q / 4) ^ 2) ->
  (forall x, F x = f (sqrt x) * exp (- sqrt x)) -> (forall x, 0 <= x -> continuity_pt F x) ->
  (forall x, 0 < x -> is_derive F x (- c * g x)) -> (forall x, 0 < x -> continuous g x) ->
  (forall v, 0 <= v -> radial (fun s => g (v + s))) -> forall v, 0 <= v -> radial (fun s => F (v + s)).
Proof.
  intros Hc Hf HF HcF Hd Hg Hr v Hv. set (eps := fun n => / INR (S n)).
  assert (forall n, 1 <= INR (S n)) as HS by (intros n; rewrite S_INR; pose proof (pos_INR n); lra).
  assert (forall n, 0 < eps n <= 1) as Heps.
  { intros n. unfold eps. specialize (HS n). split; [apply Rinv_0_lt_compat; lra|]. rewrite <- Rinv_1. apply Rinv_le_contravar; lra. }
  apply (radial_limit (fun n s => F (v + s + eps n) - F (v + s + INR (S n)))).
  - intros n. specialize (HS n). destruct (Heps n) as [He1 He2]. apply (radial_int (fun u s => c * g ((v + u) + s)) _ (eps n) (INR (S n))); [lra| |].
    + intros u Hu. apply radial_scale; [lra|]. apply Hr. lra.
    + intros s Hs. replace (F (v + s + eps n) - F (v + s + INR (S n))) with ((fun u => - F (v + s + u)) (INR (S n)) - (fun u => - F (v + s + u)) (eps n)) by (cbn beta; ring).
      apply (RInt_anti (fun u => - F (v + s + u))); [lra| |].
      * intros u Hu. replace (c * g (v + u + s)) with (opp (scal 1 (- c * g (v + s + u)))).
        2:{ unfold opp, scal; cbn. unfold mult; cbn. replace (v + u + s) with (v + s + u) by ring. ring. }
        apply (is_derive_opp (fun u => F (v + s + u))). apply (is_derive_comp F (fun u => v + s + u)).
        -- apply Hd. lra.
        -- auto_derive; auto. 
      * intros u Hu. apply (continuous_mult (fun _ => c)); [apply continuous_const|]. apply (continuous_comp (fun u => v + u + s) g).
        -- apply (ex_derive_continuous (V := R_NormedModule)). auto_derive. auto.
        -- apply Hg. lra.
  - intros s Hs. replace (F (v + s)) with (F (v + s + 0) - 0) by (rewrite Rplus_0_r; ring). apply is_lim_seq_minus'.
    + apply (is_lim_seq_continuous F); [apply HcF; lra|]. apply is_lim_seq_plus'; [apply is_lim_seq_const|apply lim_INR_inv].
    + apply (lim_to (g := fun n => f (sqrt (v + s + INR (S n))) * exp (- sqrt (v + s + INR (S n))))); [intros; apply HF|]. apply matern_lim; auto. lra.
Qed.
Lemma m_cont (f : R -> R) : (forall q, continuity_pt f q) -> forall x, 0 <= x -> continuity_pt (fun x => f (sqrt x) * exp (- sqrt x)) x.
Proof.
  intros Hf x Hx. pose proof (continuity_pt_sqrt x Hx) as Hs. apply (continuity_pt_mult (fun x => f (sqrt x)) (fun x => exp (- sqrt x))).
  - apply (continuity_pt_comp sqrt f); auto.
  - apply (continuity_pt_comp (fun x => - sqrt x) exp); [apply (continuity_pt_opp sqrt); auto|]. apply derivable_continuous_pt, derivable_pt_exp.
Qed.
Lemma radial_m12 v : 0 <= v -> radial (fun s => m12 (v + s)). Proof. apply radial_sqrt. Qed.
Lemma radial_m32 v : 0 <= v -> radial (fun s => m32 (v + s)).
Proof.
  revert v. apply (radial_tail (/ 2) m12 m32 (fun q => 1 + q)).
  - lra.
  - intros q Hq. split; [lra|nra].
  - reflexivity.
  - apply (m_cont (fun q => 1 + q)). intros q. apply derivable_continuous_pt. reg.
  - intros x Hx. unfold m32, m12. pose proof (sqrt_lt_R0 x Hx) as Hq. auto_derive; [auto|]. field. lra.
  - intros x Hx. apply (ex_derive_continuous (V := R_NormedModule)). unfold m12. auto_derive. auto.
  - apply radial_m12.
Qed.
Lemma radial_m52 v : 0 <= v -> radial (fun s => m52 (v + s)).
Proof.
  revert v. apply (radial_tail (/ 6) m32 m52 (fun q => 1 + q + q ^ 2 / 3)).
  - lra.
  - intros q Hq. split; [nra|nra].
  - reflexivity.
  - apply (m_cont (fun q => 1 + q + q ^ 2 / 3)). intros q. apply derivable_continuous_pt. reg.
  - intros x Hx. unfold m52, m32. pose proof (sqrt_lt_R0 x Hx) as Hq. auto_derive; [auto|]. field. lra.
  - intros x Hx. apply (ex_derive_continuous (V := R_NormedModule)). unfold m32. auto_derive. auto.
  - apply radial_m32.
Qed.

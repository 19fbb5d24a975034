(** C116: credible volumes. *)
From Verif Require Import PCredible.
From Coq Require Import Lra Lia Psatz.
Set Default Goal Selector "!".
Set Bullet Behavior "Strict Subproofs".

Section C116.
Variable cdf : R -> nat -> R.
Variable isf : R -> nat -> option R.
Variable erfc : R -> R.
Notation nstd := (nstd_of_1d_nstd isf erfc).
Notation delta := (delta_logp_of_1d_nstd isf erfc).
Notation credibility := (credibility_of_nstd cdf).

Lemma sqrt2_pos : 0 < sqrt 2.
Proof. apply sqrt_lt_R0. lra. Qed.
Lemma tail (ok : scipy_ok cdf isf erfc) n : 0 <= n -> exists p, mass 1 n p /\ erfc (n / sqrt 2) = 1 - p.
Proof.
  intros Hn. pose proof sqrt2_pos. exists (1 - erfc (n / sqrt 2)). split; [|ring]. replace n with (sqrt 2 * (n / sqrt 2)) at 1 by (field; lra). apply (erfc_ok _ _ _ ok). apply Rdiv_le_0_compat; assumption.
Qed.
Lemma nstd_spec (ok : scipy_ok cdf isf erfc) n d r : (0 < d)%nat -> 0 <= n -> (nstd n d = Some r <-> 0 <= r /\ exists p, mass 1 n p /\ mass d r p).
Proof.
  intros Hd Hn. destruct (tail ok n Hn) as (p & Hp & E). unfold nstd_of_1d_nstd. rewrite E. pose proof (mass_range 1 n p Hn Hp) as Rp. split.
  - intros H. destruct (isf (1 - p) d) as [x|] eqn:I; [|discriminate]. injection H as <-. apply (isf_ok _ _ _ ok) in I; [|exact Hd|lra]. destruct I as [Hx I].
    split; [apply sqrt_pos|]. exists p. split; [exact Hp|]. replace p with (cdf x d) by lra. apply (cdf_ok _ _ _ ok); assumption.
  - intros (Hr & p' & A & B). rewrite (mass_fun 1 n p' p A Hp) in B. assert (isf (1 - p) d = Some (r ^ 2)) as ->.
    { apply (isf_ok _ _ _ ok); [exact Hd|lra|]. assert (0 <= r ^ 2) as P by apply pow2_ge_0. split; [exact P|]. pose proof (cdf_ok _ _ _ ok d (r ^ 2) Hd P) as C. rewrite sqrt_pow2 in C by exact Hr.
      rewrite (mass_fun d r _ _ C B). ring. }
    cbn [option_map]. rewrite sqrt_pow2 by exact Hr. reflexivity.
Qed.
(** The volume holds the mass of the [n]-sigma interval in one dimension; it is the only one. *)
Theorem C116_mass : forall n d, scipy_ok cdf isf erfc -> (0 < d)%nat -> 0 <= n ->
  exists r, nstd n d = Some r /\ 0 <= r /\ credibility r d = credibility n 1 /\ (forall p, mass 1 n p -> mass d r p) /\ (forall s p, 0 <= s -> mass 1 n p -> mass d s p -> s = r).
Proof.
  intros n d ok Hd Hn. destruct (mass_exists 1 n ltac:(lia)) as [p Hp]. destruct (mass_radius d p Hd (mass_range 1 n p Hn Hp)) as (r & Hr & Mr). exists r.
  split; [apply (nstd_spec ok); [exact Hd|exact Hn|]; split; [exact Hr|]; exists p; auto|]. split; [exact Hr|]. split.
  - unfold credibility_of_nstd. pose proof (cdf_ok _ _ _ ok d (r ^ 2) Hd (pow2_ge_0 r)) as A. pose proof (cdf_ok _ _ _ ok 1%nat (n ^ 2) ltac:(lia) (pow2_ge_0 n)) as B. rewrite sqrt_pow2 in A, B by assumption.
    rewrite (mass_fun _ _ _ _ A Mr), (mass_fun _ _ _ _ B Hp). reflexivity.
  - split; [intros p' H; rewrite (mass_fun 1 n p' p H Hp); exact Mr|]. intros s p' Hs A B. rewrite (mass_fun 1 n p' p A Hp) in B. apply (mass_inj d s r p); assumption.
Qed.
(** In one dimension nothing changes. *)
Theorem C116_one : forall n, scipy_ok cdf isf erfc -> 0 <= n -> nstd n 1 = Some n.
Proof. intros n ok Hn. apply (nstd_spec ok); [lia|exact Hn|]. split; [exact Hn|]. destruct (mass_exists 1 n ltac:(lia)) as [p Hp]. exists p. auto. Qed.
Theorem C116_zero : forall d, scipy_ok cdf isf erfc -> (0 < d)%nat -> nstd 0 d = Some 0.
Proof. intros d ok Hd. apply (nstd_spec ok); [exact Hd|lra|]. split; [lra|]. exists 0. split; apply mass_0; [lia|exact Hd]. Qed.
Theorem C116_monotone : forall n m d r s, scipy_ok cdf isf erfc -> (0 < d)%nat -> 0 <= n -> n < m -> nstd n d = Some r -> nstd m d = Some s -> r < s.
Proof.
  intros n m d r s ok Hd Hn L A B. apply (nstd_spec ok) in A as (Hr & p & A1 & A2); [|assumption|assumption]. apply (nstd_spec ok) in B as (Hs & q & B1 & B2); [|assumption|lra].
  pose proof (mass_lt 1 n m p q Hn L A1 B1). destruct (Rlt_dec r s) as [|N]; [assumption|]. destruct (Rle_lt_or_eq_dec s r ltac:(lra)) as [L2|E].
  - pose proof (mass_lt d s r q p Hs L2 B2 A2). lra.
  - subst s. pose proof (mass_fun d r p q A2 B2). lra.
Qed.
(** All radii are reached: raising the number of sigmas includes every point in the end. *)
Theorem C116_unbounded : forall B d, scipy_ok cdf isf erfc -> (0 < d)%nat -> 0 <= B -> exists n, 0 <= n /\ nstd n d = Some B.
Proof.
  intros B d ok Hd HB. destruct (mass_exists d B Hd) as [p Hp]. destruct (mass_radius 1 p ltac:(lia) (mass_range d B p HB Hp)) as (n & Hn & Mn). exists n. split; [exact Hn|].
  apply (nstd_spec ok); [exact Hd|exact Hn|]. split; [exact HB|]. exists p. auto.
Qed.
(** In more dimensions the radius is larger. *)
Theorem C116_dimension : forall n d r s, scipy_ok cdf isf erfc -> (0 < d)%nat -> 0 < n -> nstd n d = Some r -> nstd n (S d) = Some s -> r < s.
Proof.
  intros n d r s ok Hd Hn A B. apply (nstd_spec ok) in A as (Hr & p & A1 & A2); [|assumption|lra]. apply (nstd_spec ok) in B as (Hs & q & B1 & B2); [|lia|lra].
  pose proof (mass_fun 1 n p q A1 B1). subst q. assert (0 < p) by (apply (mass_lt 1 0 n 0 p); [lra|exact Hn|apply mass_0; lia|exact A1]).
  assert (0 < r) as Hr0. { destruct Hr as [|<-]; [assumption|]. pose proof (mass_fun d 0 p 0 A2 (mass_0 d Hd)). lra. }
  destruct (mass_exists (S d) r ltac:(lia)) as [q Hq]. pose proof (mass_dim d r p q Hd Hr0 A2 Hq).
  destruct (Rlt_dec r s) as [|N]; [assumption|]. destruct (Rle_lt_or_eq_dec s r ltac:(lra)) as [L2|E].
  - pose proof (mass_lt (S d) s r p q Hs L2 B2 Hq). lra.
  - subst s. pose proof (mass_fun (S d) r p q B2 Hq). lra.
Qed.
(** The difference of log-densities: a point of a Gaussian is closer to the top than that exactly if it lies inside of the volume. [m]: its distance in sigmas. *)
Theorem C116_drop : forall n d r top m, scipy_ok cdf isf erfc -> (0 < d)%nat -> 0 <= n -> 0 <= m -> nstd n d = Some r ->
  exists D, delta n d = Some D /\ 0 <= D /\ (top - (top - m ^ 2 / 2) < D <-> m < r).
Proof.
  intros n d r top m ok Hd Hn Hm H. unfold delta_logp_of_1d_nstd. rewrite H. cbn [option_map]. exists (1 / 2 * r ^ 2). split; [reflexivity|].
  apply (nstd_spec ok) in H as (Hr & _); [|assumption|assumption]. split; [pose proof (pow2_ge_0 r); lra|]. split; intros H; nra.
Qed.
(** A negative number of sigmas gives NaN. *)
Theorem C116_negative : forall n d, scipy_ok cdf isf erfc -> (0 < d)%nat -> n < 0 -> nstd n d = None /\ delta n d = None.
Proof.
  intros n d ok Hd Hn. assert (nstd n d = None) as E; [|split; [exact E|unfold delta_logp_of_1d_nstd; rewrite E; reflexivity]].
  unfold nstd_of_1d_nstd. destruct (tail ok (- n) ltac:(lra)) as (p & Hp & E). assert (0 < p) by (apply (mass_lt 1 0 (- n) 0 p); [lra|lra|apply mass_0; lia|exact Hp]).
  replace (n / sqrt 2) with (- (- n / sqrt 2)) by (unfold Rdiv; ring). rewrite (erfc_neg _ _ _ ok), E, (isf_nan _ _ _ ok); [reflexivity|exact Hd|lra].
Qed.
(** TrainAlignment: the value is the probability of being closer to the mean of the sample than the mean of the training set is, not less than 1/1000; it is below a limit exactly
    if the distance is less than the radius of the volume with that mass. *)
Theorem C116_alignment : forall d chi2, scipy_ok cdf isf erfc -> (0 < d)%nat -> 0 <= chi2 ->
  exists v, reported cdf chi2 d = Some v /\ 1 / 1000 <= v < 1 /\
    forall limit r, 1 / 1000 < limit -> 0 <= r -> mass d r limit -> (v < limit <-> sqrt chi2 < r).
Proof.
  intros d c ok Hd Hc. pose proof (sqrt_pos c) as Hs. assert (M : mass d (sqrt c) (alignment cdf c d)).
  { unfold alignment, credibility_of_nstd. pose proof (cdf_ok _ _ _ ok d (sqrt c ^ 2) Hd (pow2_ge_0 _)) as A. rewrite sqrt_pow2 in A by exact Hs. exact A. }
  pose proof (mass_range d (sqrt c) _ Hs M) as Rg. unfold reported. destruct (Rlt_dec _ 0) as [N|_]; [lra|]. eexists. split; [reflexivity|]. split.
  - split; [apply Rmax_r|]. apply Rmax_lub_lt; lra.
  - intros limit r Hl Hr Ml. split; intros H.
    + assert (alignment cdf c d < limit) as H' by (eapply Rle_lt_trans; [apply Rmax_l|exact H]). destruct (Rlt_dec (sqrt c) r) as [|N]; [assumption|].
      destruct (Rle_lt_or_eq_dec r (sqrt c) ltac:(lra)) as [L|E]; [pose proof (mass_lt d r (sqrt c) _ _ Hr L Ml M); lra|]. subst r. pose proof (mass_fun _ _ _ _ M Ml). lra.
    + apply Rmax_lub_lt; [|exact Hl]. apply (mass_lt d (sqrt c) r); assumption.
Qed.
End C116.
Print Assumptions C116_mass.
Print Assumptions C116_one.
Print Assumptions C116_zero.
Print Assumptions C116_monotone.
Print Assumptions C116_unbounded.
Print Assumptions C116_dimension.
Print Assumptions C116_drop.
Print Assumptions C116_negative.
Print Assumptions C116_alignment.

(** There are such functions. *)
Definition cdf0 (x : R) (d : nat) : R := match lt_dec 0 d with left H => proj1_sig (mass_exists d (sqrt x) H) | right _ => 0 end.
Definition erfc0 (z : R) : R := if Rle_dec 0 z then 1 - proj1_sig (mass_exists 1 (sqrt 2 * z) Nat.lt_0_1) else 1 + proj1_sig (mass_exists 1 (sqrt 2 * - z) Nat.lt_0_1).
Definition radii (d : nat) (p r : R) : Prop := 0 <= r /\ exists q, mass d r q /\ q <= p.
Lemma radii_below d p r0 : 0 <= r0 -> mass d r0 p -> forall r, radii d p r <-> 0 <= r <= r0.
Proof.
  intros H0 M r. split.
  - intros [Hr (q & Mq & L)]. split; [exact Hr|]. destruct (Rle_dec r r0) as [|N]; [assumption|]. pose proof (mass_lt d r0 r p q H0 ltac:(lra) M Mq). lra.
  - intros [Hr L]. split; [exact Hr|]. assert (0 < d \/ d = 0)%nat as [Hd|E0] by lia.
    + destruct (mass_exists d r Hd) as [q Mq]. exists q. split; [exact Mq|]. destruct L as [L| ->]; [left; apply (mass_lt d r r0); assumption|right; apply (mass_fun d r0); assumption].
    + destruct M as (Z & T & ->). exists (within d r / Z). split; [exists Z; auto|]. apply Rmult_le_compat_r; [left; apply Rinv_0_lt_compat, (total_pos d), T|apply within_le; assumption].
Qed.
Lemma radii_bound d p : (0 < d)%nat -> 0 <= p < 1 -> bound (radii d p).
Proof. intros Hd Hp. destruct (mass_radius d p Hd Hp) as (r0 & H0 & M). exists r0. intros r H. apply (radii_below d p r0 H0 M) in H. lra. Qed.
Lemma radii_some d p : (0 < d)%nat -> 0 <= p < 1 -> exists r, radii d p r.
Proof. intros Hd Hp. exists 0. split; [lra|]. exists 0. split; [apply mass_0, Hd|lra]. Qed.
Definition isf0 (q : R) (d : nat) : option R :=
  match lt_dec 0 d with
  | left Hd =>
      match Rle_dec 0 (1 - q) with
      | left H1 => match Rlt_dec (1 - q) 1 with
                   | left H2 => Some (proj1_sig (completeness (radii d (1 - q)) (radii_bound d (1 - q) Hd (conj H1 H2)) (radii_some d (1 - q) Hd (conj H1 H2))) ^ 2)
                   | right _ => None
                   end
      | right _ => None
      end
  | right _ => None
  end.
Example C116_scipy : scipy_ok cdf0 isf0 erfc0.
Proof.
  assert (C : forall d x, (0 < d)%nat -> 0 <= x -> mass d (sqrt x) (cdf0 x d)).
  { intros d x Hd _. unfold cdf0. destruct (lt_dec 0 d) as [H|]; [|contradiction]. apply (proj2_sig (mass_exists d (sqrt x) H)). }
  constructor.
  - exact C.
  - intros d q x Hd Hq. unfold isf0. destruct (lt_dec 0 d) as [Hd'|]; [|contradiction]. destruct (Rle_dec 0 (1 - q)) as [H1|]; [|lra]. destruct (Rlt_dec (1 - q) 1) as [H2|]; [|lra].
    destruct (completeness _ _ _) as [r L]. cbn [proj1_sig]. destruct (mass_radius d (1 - q) Hd (conj H1 H2)) as (r0 & H0 & M).
    assert (r = r0) as ->.
    { apply Rle_antisym; [apply L; intros u Hu; apply (radii_below d _ r0 H0 M) in Hu; lra|]. apply L. apply (radii_below d _ r0 H0 M). lra. }
    assert (E : cdf0 (r0 ^ 2) d = 1 - q). { pose proof (C d (r0 ^ 2) Hd (pow2_ge_0 _)) as A. rewrite sqrt_pow2 in A by exact H0. apply (mass_fun d r0); assumption. }
    split.
    + intros H. injection H as <-. split; [apply pow2_ge_0|exact E].
    + intros [Hx Ex]. pose proof (C d x Hd Hx) as A. rewrite Ex in A. assert (sqrt x = r0) as <- by (apply (mass_inj d (sqrt x) r0 (1 - q)); [apply sqrt_pos|exact H0|exact A|exact M]).
      f_equal. replace (sqrt x ^ 2) with (sqrt x * sqrt x) by ring. apply sqrt_sqrt, Hx.
  - intros d q Hd Hq. unfold isf0. destruct (lt_dec 0 d); [|reflexivity]. destruct (Rle_dec 0 (1 - q)); [exfalso; lra|reflexivity].
  - intros z Hz. unfold erfc0. destruct (Rle_dec 0 z) as [|]; [|contradiction]. destruct (mass_exists 1 (sqrt 2 * z) Nat.lt_0_1) as [p Hp]. cbn [proj1_sig]. replace (1 - (1 - p)) with p by ring. exact Hp.
  - intros z. unfold erfc0. destruct (Rle_dec 0 (- z)) as [A|A], (Rle_dec 0 z) as [B|B]; try lra.
    + assert (z = 0) as -> by lra. rewrite Ropp_0. destruct (mass_exists 1 (sqrt 2 * 0) Nat.lt_0_1) as [p Hp]. cbn [proj1_sig]. rewrite Rmult_0_r in Hp. pose proof (mass_fun 1 0 p 0 Hp (mass_0 1 ltac:(lia))). lra.
    + rewrite Ropp_involutive. ring.
Qed.
(** In two dimensions the mass within [r] is 1 - exp(-r^2/2): the volume of half of the mass has radius sqrt(2 ln 2). *)
Example C116_case : exists n, 0 <= n /\ nstd_of_1d_nstd isf0 erfc0 n 2 = Some (sqrt (2 * ln 2)) /\ mass 1 n (1 / 2) /\
  delta_logp_of_1d_nstd isf0 erfc0 n 2 = Some (ln 2).
Proof.
  pose proof (ln_lt_2) as L2. assert (0 <= 2 * ln 2) as P by lra. destruct (C116_unbounded cdf0 isf0 erfc0 (sqrt (2 * ln 2)) 2 C116_scipy ltac:(lia) (sqrt_pos _)) as (n & Hn & E). exists n.
  assert (SQ : sqrt (2 * ln 2) ^ 2 = 2 * ln 2) by (replace (sqrt (2 * ln 2) ^ 2) with (sqrt (2 * ln 2) * sqrt (2 * ln 2)) by ring; apply sqrt_sqrt, P).
  split; [exact Hn|]. split; [exact E|]. split.
  - apply (nstd_spec cdf0 isf0 erfc0 C116_scipy) in E as (_ & p & A & B); [|lia|exact Hn]. destruct B as (Z & T & ->).
    assert (Z = 1) as ->.
    { apply (total_unique 2); [exact T|]. split.
      - intros y (r & _ & ->). rewrite within_2. pose proof (exp_pos (- (r ^ 2 / 2))). lra.
      - intros b Hb. destruct (Rle_dec 1 b) as [|N]; [assumption|]. exfalso. assert (0 <= b) as Hb0 by (rewrite <- (within_0 2); apply Hb; exists 0; split; [lra|reflexivity]).
        set (e := 1 - b). assert (0 < e <= 1) as He by (unfold e; lra). assert (ln e <= 0) as Hl. { destruct He as [He [H1| ->]]; [left; apply ln_lt_0 || (rewrite <- ln_1; apply ln_increasing; lra)|rewrite ln_1; lra]. }
        pose proof (Hb (within 2 (sqrt (2 * (1 - ln e)))) ltac:(eexists; split; [apply sqrt_pos|reflexivity])) as Q. rewrite within_2 in Q.
        replace (sqrt (2 * (1 - ln e)) ^ 2 / 2) with (1 - ln e) in Q by (replace (sqrt (2 * (1 - ln e)) ^ 2) with (sqrt (2 * (1 - ln e)) * sqrt (2 * (1 - ln e))) by ring; rewrite sqrt_sqrt by lra; field).
        replace (- (1 - ln e)) with (ln e + - (1)) in Q by ring. rewrite exp_plus, exp_ln in Q by lra. assert (exp (- (1)) < 1) by (pose proof (exp_increasing (- (1)) 0 ltac:(lra)) as X; rewrite exp_0 in X; exact X). unfold e in *. nra. }
    rewrite within_2, SQ in A. replace (2 * ln 2 / 2) with (ln 2) in A by field. rewrite exp_Ropp, exp_ln in A by lra. replace ((1 - / 2) / 1) with (1 / 2) in A by field. exact A.
  - unfold delta_logp_of_1d_nstd. rewrite E. cbn [option_map]. rewrite SQ. f_equal. field.
Qed.

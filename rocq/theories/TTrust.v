(** The trust region (C115). *)
From Verif Require Import MTools STools PTools TTools MTrust.
Set Default Goal Selector "!".
Set Bullet Behavior "Strict Subproofs".

Section C115.
Variable delta : num -> num.
(** The training points whose value is less than [t] below [m]. *)
Definition less_below (m t : num) (X : list (list num)) (y : list num) : list (list num) :=
  map fst (filter (fun p => nltb (nsub m (snd p)) t) (combine X y)).
(** [k] steps of 0.1. *)
Fixpoint raised (n : num) (k : nat) : num := match k with 0 => n | S k => raised (nadd n (nq 1 10)) k end.
Definition largest (m : num) (y : list num) : Prop := In m y /\ Forall (fun v => le v m) y.

Lemma mask_combine {A} (f : num -> bool) : forall (X : list A) y, length X = length y -> mask (map f y) X = map fst (filter (fun p => f (snd p)) (combine X y)).
Proof.
  induction X as [|x X IH]; intros [|v y] H; try discriminate; [reflexivity|]. cbn. injection H as H. rewrite (IH y H). destruct (f v); reflexivity.
Qed.
Lemma top_fold : forall l a, Forall (fun v => isnan v = false) (a :: l) -> largest (fold_left pymax l a) (a :: l).
Proof.
  induction l as [|b l IH]; intros a F; inversion F as [|? ? Fa F']; subst.
  - split; [left; reflexivity|]. constructor; [apply nleb_refl, Fa|constructor].
  - inversion F' as [|? ? Fb F'']; subst. cbn [fold_left]. assert (isnan (pymax a b) = false) as Fm by (unfold pymax; destruct (nltb a b); auto).
    destruct (IH (pymax a b) (Forall_cons _ Fm F'')) as [I1 I2]. inversion I2 as [|? ? I3 I4]; subst. split.
    + destruct I1 as [I1|I1]; [|right; right; exact I1]. unfold pymax in I1 at 1. destruct (nltb a b); [right; left; exact I1|left; exact I1].
    + unfold le in *. assert (nleb a (pymax a b) = true /\ nleb b (pymax a b) = true) as [A B].
      { unfold pymax. destruct (nltb a b) eqn:E; split; try (apply nleb_refl; assumption); [apply nltb_leb, E|]. rewrite nltb_not_leb in E by assumption. apply negb_false_iff in E. exact E. }
      constructor; [eapply nleb_trans; eauto|]. constructor; [eapply nleb_trans; eauto|exact I4].
Qed.
Lemma top_largest y : y <> [] -> Forall (fun v => isnan v = false) y -> largest (top y) y.
Proof. destruct y as [|a l]; [congruence|]. intros _. apply top_fold. Qed.
Lemma largest_unique m m' y : largest m y -> largest m' y -> m = m'.
Proof.
  intros [A B] [C D]. rewrite Forall_forall in B, D. apply nleb_antisym; [apply (D _ A)|apply (B _ C)].
Qed.
Lemma widen_spec need X y m : length X = length y -> top y = m -> forall fuel cur n U, widen delta fuel need X y cur n = Ok U ->
  (need <= length cur /\ U = cur) \/
  length cur < need /\ exists k, U = less_below m (delta (raised n k)) X y /\ need <= length U /\ forall j, j < k -> length (less_below m (delta (raised n j)) X y) < need.
Proof.
  intros HL Hm. assert (E : forall n, select delta X y n = less_below m (delta n) X y) by (intros n; unfold select; rewrite Hm; apply (mask_combine (fun v => nltb (nsub m v) (delta n))), HL).
  induction fuel as [|fuel IH]; intros cur n U H; cbn [widen] in H; destruct (Nat.ltb_spec (length cur) need) as [L|L]; try discriminate; try (injection H as <-; left; auto).
  right. split; [exact L|]. rewrite E in H. destruct (IH _ _ _ H) as [[A ->]|[A (k & -> & B & C)]].
  - exists 0. split; [reflexivity|]. split; [exact A|]. intros j Hj. lia.
  - exists (S k). split; [reflexivity|]. split; [exact B|]. intros [|j] Hj; [exact A|]. apply C. lia.
Qed.
(** The points used are those less than the threshold below the best value, for the smallest number of sigmas, starting from the one given and in steps of 0.1,
    at which they are as many as the dimension (or all points). *)
Theorem C115_points : forall fuel d n X y m U, 0 < d -> y <> [] -> length X = length y -> largest m y -> Forall (fun v => isnan v = false) y ->
  used delta fuel d (Some n) X y = Ok U ->
  exists k, U = less_below m (delta (raised n k)) X y /\ Nat.min d (length y) <= length U /\
            forall j, j < k -> length (less_below m (delta (raised n j)) X y) < Nat.min d (length y).
Proof.
  intros fuel d n X y m U Hd Hy HL Hm HN H. assert (top y = m) as Ht by (apply (largest_unique _ _ y); [apply top_largest|]; assumption).
  assert (0 < length y) by (destruct y; [congruence|cbn; lia]).
  destruct (widen_spec _ X y m HL Ht _ _ _ _ H) as [[A _]|[_ A]]; [cbn in A; lia|exact A].
Qed.
Lemma less_below_best m t X y x : Forall (fun v => isfin v = true) y -> largest m y -> less_below m t X y <> [] -> In (x, m) (combine X y) -> In x (less_below m t X y).
Proof.
  intros HF [Hm Hl] HU Hx. destruct (less_below m t X y) as [|x0 U] eqn:E; [congruence|]. assert (In x0 (less_below m t X y)) as H0 by (rewrite E; left; reflexivity). rewrite <- E. clear E U HU.
  unfold less_below in *. apply in_map_iff in H0 as ([x1 v] & _ & Hi). apply filter_In in Hi as [Hi Hc]. cbn [snd] in Hc.
  apply in_map_iff. exists (x, m). split; [reflexivity|]. apply filter_In. split; [exact Hx|]. cbn [snd]. eapply nleb_ltb_trans; [|exact Hc].
  rewrite Forall_forall in HF, Hl. pose proof (in_combine_r _ _ _ _ Hi) as Hv. pose proof (HF _ Hv) as F1. pose proof (HF _ Hm) as F2. specialize (Hl _ Hv).
  unfold le in Hl. destruct v as [| |q|], m as [| |q'|]; try discriminate. cbn in *. qc.
Qed.
(** The best point is always used. *)
Theorem C115_best : forall fuel d n X y U m x, 0 < d -> length X = length y -> Forall (fun v => isfin v = true) y -> largest m y ->
  used delta fuel d n X y = Ok U -> In (x, m) (combine X y) -> In x U.
Proof.
  intros fuel d n X y U m x Hd HL HF Hm H Hx. destruct n as [n|]; [|injection H as <-; apply (in_combine_l _ _ _ _ Hx)].
  assert (HN : Forall (fun v => isnan v = false) y) by (eapply Forall_impl; [|exact HF]; intros a; apply isfin_notnan).
  assert (y <> []) as Hy by (intros ->; destruct (proj1 Hm)).
  destruct (C115_points fuel d n X y m U Hd Hy HL Hm HN H) as (k & -> & K & _). apply less_below_best; auto. intros E. rewrite E in K. cbn in K. destruct y; [congruence|cbn in K; lia].
Qed.
(** The loop ends: the threshold grows without limit with the number of sigmas (see C116 for that of the code). *)
Theorem C115_ends : forall d n X y, length X = length y -> Forall (fun v => isfin v = true) y -> (forall q, exists k, nltb (Fin q) (delta (raised n k)) = true) ->
  exists fuel U, used delta fuel d (Some n) X y = Ok U.
Proof.
  intros d n X y HL HF HD. cbn [used]. set (need := Nat.min d (length y)).
  assert (exists q, Forall (fun v => nleb (nsub (top y) v) (Fin q) = true) y) as (q & Hq).
  { destruct (top y) as [| |t|] eqn:Et.
    4:{ exfalso. destruct y as [|a y]; [discriminate|]. assert (Forall (fun v => isnan v = false) (a :: y)) as HN by (eapply Forall_impl; [|exact HF]; intros b; apply isfin_notnan).
        destruct (top_largest (a :: y)) as [A _]; [discriminate|exact HN|]. rewrite Et in A. rewrite Forall_forall in HF. specialize (HF _ A). discriminate. }
    3:{ clear -HF. induction y as [|v y IH]; [exists 0%Qc; constructor|]. inversion HF as [|? ? Hv HF']; subst. destruct (IH HF') as (q & Hq). destruct v as [| |w|]; try discriminate.
        exists (if qleb (t - w) q then q else t - w)%Qc. constructor.
        - cbn. destruct (qleb (t - w) q) eqn:E; qc.
        - eapply Forall_impl; [|exact Hq]. intros b Hb. eapply nleb_trans; [exact Hb|]. cbn. destruct (qleb (t - w) q) eqn:E; qc. }
    - destruct y as [|a y]; [exists 0%Qc; constructor|]. exfalso. assert (Forall (fun v => isnan v = false) (a :: y)) as HN by (eapply Forall_impl; [|exact HF]; intros b; apply isfin_notnan).
      destruct (top_largest (a :: y)) as [A _]; [discriminate|exact HN|]. rewrite Et in A. rewrite Forall_forall in HF. specialize (HF _ A). discriminate.
    - exfalso. destruct y as [|a y]; [discriminate|]. assert (Forall (fun v => isnan v = false) (a :: y)) as HN by (eapply Forall_impl; [|exact HF]; intros b; apply isfin_notnan).
      destruct (top_largest (a :: y)) as [A _]; [discriminate|exact HN|]. rewrite Et in A. rewrite Forall_forall in HF. specialize (HF _ A). discriminate. }
  destruct (HD q) as (k & Hk).
  assert (G : forall cur, exists fuel U, widen delta fuel need X y cur n = Ok U); [|apply G].
  clear HD. revert n Hk. induction k as [|k IH]; intros n Hk cur; destruct (Nat.ltb_spec (length cur) need) as [L|L].
  - assert (Hs : length (select delta X y n) = length y).
    { unfold select. rewrite mask_length by (rewrite map_length; auto). unfold count_true. cbn [raised] in Hk. clear -Hq Hk. generalize (top y), Hq. clear Hq. intros t Hq. induction Hq as [|v y Hv _ IH]; [reflexivity|]. cbn [map filter].
      rewrite (nleb_ltb_trans _ _ _ Hv Hk). cbn [length]. rewrite IH. reflexivity. }
    exists 1, (select delta X y n). cbn [widen]. apply Nat.ltb_lt in L. rewrite L. rewrite Hs. destruct (Nat.ltb_spec (length y) need) as [C|_]; [unfold need in C; lia|reflexivity].
  - exists 0, cur. cbn [widen]. apply Nat.ltb_ge in L. rewrite L. reflexivity.
  - destruct (IH (nadd n (nq 1 10)) Hk (select delta X y n)) as (fuel & U & E).
    exists (S fuel), U. cbn [widen]. apply Nat.ltb_lt in L. rewrite L. exact E.
  - exists 0, cur. cbn [widen]. apply Nat.ltb_ge in L. rewrite L. reflexivity.
Qed.
(** The region, with a factor of at least 1: a box inside of the prior, which contains all points used, hence the best one. *)
Theorem C115_region : forall fuel d n f box X y m U, 0 < d -> length box = d -> fin_ge1 f -> length X = length y -> largest m y ->
  Forall (fun r => length r = d) X -> Forall finite_row X -> Forall (fun v => isfin v = true) y -> Forall (in_box box) X ->
  used delta fuel d n X y = Ok U ->
  exists out, update_trust_region delta fuel d (Some f) n (box_arr box) X y = Ok (Some out) /\ length out = d /\
    (forall z, in_box out z -> in_box box z) /\ (forall r, In r U -> in_box out r) /\ (forall x, In (x, m) (combine X y) -> in_box out x).
Proof.
  intros fuel d n f box X y m U Hd Hb Hf HL Hm HX HXf HF HB H.
  assert (S : forall r, In r U -> In r X).
  { destruct n as [n|]; [|injection H as <-; auto]. assert (HN : Forall (fun v => isnan v = false) y) by (eapply Forall_impl; [|exact HF]; intros a; apply isfin_notnan).
    destruct (C115_points fuel d n X y m U Hd) as (k & -> & _); auto; [intros ->; destruct (proj1 Hm)|]. intros r Hr. unfold less_below in Hr. apply in_map_iff in Hr as ([a b] & <- & Hr). apply filter_In in Hr as [Hr _].
    apply (in_combine_l _ _ _ _ Hr). }
  assert (Best : forall x, In (x, m) (combine X y) -> In x U) by (intros x Hx; apply (C115_best fuel d n X y U m x); assumption).
  assert (U <> []) as HU.
  { intros ->. destruct (In_nth _ _ NaN (proj1 Hm)) as (i & Hi & Ei). destruct (Best (nth i X [])). rewrite <- Ei. rewrite <- (combine_nth X y i [] NaN HL). apply nth_In. rewrite combine_length. lia. }
  assert (NN : Forall (fun b => isnan (fst b) = false /\ isnan (snd b) = false) box).
  { destruct U as [|r U]; [congruence|]. assert (In r X) as Hr by (apply S; left; reflexivity). rewrite Forall_forall in HB. specialize (HB r Hr). unfold in_box in HB.
    clear -HB. induction HB as [|b xi box r [A B] _ IH]; constructor; [|exact IH]. split; [apply (nleb_notnan_l _ _ A)|apply (nleb_notnan_r _ _ B)]. }
  destruct (C08_shrink_bounds box d U f Hb HU Hf) as (out & Eo & Lo & P); [apply Forall_forall; intros r Hr; rewrite Forall_forall in HX; auto|apply Forall_forall; intros r Hr; rewrite Forall_forall in HXf; auto|exact NN|].
  exists out. unfold update_trust_region. rewrite H. cbn [bind]. unfold points_arr in Eo. rewrite Eo. cbn [bind]. split; [reflexivity|]. split; [exact Lo|].
  assert (In1 : forall z, in_box out z -> in_box box z).
  { intros z Hz. unfold in_box in *. assert (length box = length out) as Lb by congruence.
    assert (P' : forall j a b lo hi, nth_error box j = Some (a, b) -> nth_error out j = Some (lo, hi) -> le a lo /\ le hi b) by (intros j a b lo hi E1 E2; destruct (P j a b lo hi E1 E2) as (P1 & P2 & _); split; assumption).
    clear -P' Hz Lb. revert box Lb P'. induction Hz as [|[lo hi] v out z [A B] _ IH]; intros [|[a b] box] Lb P; try discriminate; constructor.
    - destruct (P 0 a b lo hi eq_refl eq_refl) as (P1 & P2). cbn in *. unfold le in *. split; eapply nleb_trans; eauto.
    - apply IH; [injection Lb; auto|]. intros j a' b' lo' hi' E1 E2. apply (P (S j) a' b' lo' hi' E1 E2). }
  split; [exact In1|].
  assert (In2 : forall r, In r U -> in_box out r).
  { intros r Hr. pose proof (S r Hr) as HrX. rewrite Forall_forall in HB. specialize (HB r HrX). unfold in_box in *.
    assert (Q : forall j lo hi v, nth_error out j = Some (lo, hi) -> nth_error r j = Some v -> le lo v /\ le v hi).
    { intros j lo hi v E1 E2. assert (exists a b, nth_error box j = Some (a, b)) as (a & b & E3).
      { destruct (nth_error box j) as [[a b]|] eqn:E; [eauto|]. apply nth_error_None in E. assert (nth_error out j <> None) as C by congruence. apply nth_error_Some in C. lia. }
      destruct (P j a b lo hi E3 E1) as (_ & _ & P3 & _). apply (P3 r v Hr E2).
      - clear -HB E3 E2. revert j E3 E2. induction HB as [|b0 x0 box r [A B] _ IH]; intros [|j] E3 E2; try discriminate; [injection E3 as ->; injection E2 as ->; exact A|apply (IH j E3 E2)].
      - clear -HB E3 E2. revert j E3 E2. induction HB as [|b0 x0 box r [A B] _ IH]; intros [|j] E3 E2; try discriminate; [injection E3 as ->; injection E2 as ->; exact B|apply (IH j E3 E2)]. }
    assert (length r = length out) as Lr by (rewrite Lo; rewrite Forall_forall in HX; auto). clear -Q Lr. revert r Lr Q. induction out as [|[lo hi] out IH]; intros [|v r] Lr Q; try discriminate; constructor.
    - apply (Q 0 lo hi v eq_refl eq_refl).
    - apply IH; [injection Lr; auto|]. intros j lo' hi' v' E1 E2. apply (Q (S j) lo' hi' v' E1 E2). }
  split; [exact In2|]. intros x Hx. apply In2, Best, Hx.
Qed.
End C115.
Print Assumptions C115_points.
Print Assumptions C115_best.
Print Assumptions C115_ends.
Print Assumptions C115_region.
(** A toy threshold, the number of sigmas itself. Two parameters, values 0, -1, -5, -9: at 1/2 sigma one point is left, at 1.1 two. *)
Example C115_case :
  let X := [[F 1; F 1]; [F 2; F 4]; [F 5; F 3]; [F 9; F 9]] in let y := [F (-5); F 0; F (-1); F (-9)] in
  used (fun n => n) 20 2 (Some (nq 1 2)) X y = Ok [[F 2; F 4]; [F 5; F 3]]
  /\ update_trust_region (fun n => n) 20 2 (Some (F 3)) (Some (nq 1 2)) (box_arr [(F 0, F 10); (F 0, F 10)]) X y = Ok (Some [(F 0, F 8); (F 2, F 5)]).
Proof. split; vm_compute; reflexivity. Qed.
Example C115_applies :
  let X := [[F 1; F 1]; [F 2; F 4]; [F 5; F 3]; [F 9; F 9]] in let y := [F (-5); F 0; F (-1); F (-9)] in
  exists out, update_trust_region (fun n => n) 20 2 (Some (F 3)) (Some (nq 1 2)) (box_arr [(F 0, F 10); (F 0, F 10)]) X y = Ok (Some out) /\ in_box out [F 2; F 4].
Proof.
  intros X y. destruct (C115_region (fun n => n) 20 2 (Some (nq 1 2)) (F 3) [(F 0, F 10); (F 0, F 10)] X y (F 0) [[F 2; F 4]; [F 5; F 3]]) as (out & E & _ & _ & _ & H); try reflexivity.
  - lia.
  - exists (qc_of_Z 3). split; [reflexivity|]. vm_compute. discriminate.
  - split; [right; left; reflexivity|]. repeat constructor.
  - repeat constructor.
  - repeat constructor.
  - repeat constructor.
  - repeat constructor.
  - exists out. split; [exact E|]. apply H. right; left; reflexivity.
Qed.
(** "Keeps at least d points" leaves a single one if there is one parameter: the region then is a point, outside of which predictions are minus infinity and where no other
    point can be proposed. *)
Theorem C115_one_parameter_refuted : exists X y, length X = 3 /\
  update_trust_region (fun n => n) 20 1 (Some (F 3)) (Some (F 2)) (box_arr [(F 0, F 10)]) X y = Ok (Some [(F 4, F 4)]).
Proof. exists [[F 1]; [F 4]; [F 9]], [F (-5); F 0; F (-3)]. split; vm_compute; reflexivity. Qed.
(** The documentation allows any positive factor. Below 1 the region need not contain the training points, not even the best one. *)
Theorem C115_small_factor_refuted : exists X y out, largest (F 0) y /\ In ([F 1], F 0) (combine X y) /\
  update_trust_region (fun n => n) 20 1 (Some (nq 1 2)) None (box_arr [(F 0, F 10)]) X y = Ok (Some out) /\ ~ in_box out [F 1].
Proof.
  exists [[F 1]; [F 9]], [F 0; F (-3)], [(F 3, F 7)]. split; [split; [left; reflexivity|repeat constructor]|]. split; [left; reflexivity|]. split; [vm_compute; reflexivity|].
  intros H. inversion H as [|? ? ? ? [A _] _]; subst. vm_compute in A. discriminate.
Qed.
Print Assumptions C115_one_parameter_refuted.
Print Assumptions C115_small_factor_refuted.

(** Properties C101 - C105: hyperparameters of kernels, their bounds, and fits. *)
From Coq Require Import Lra.
From Verif Require Import MHyper SHyper PHyper.
Set Default Goal Selector "!". Set Bullet Behavior "Strict Subproofs".
Open Scope R_scope.

(** An optimiser that evaluates and returns only vectors within the bounds it is given, as L-BFGS-B does. *)
Definition within (B : list (R * R)) (t : list R) : Prop := Forall2 (fun x r => fst r <= x <= snd r) t B.
Definition bounded (runs : nat -> list R -> list (R * R) -> opt_run) : Prop :=
  forall i s B, List.Forall (within B) (o_evals (runs i s B)) /\ forall t v, o_end (runs i s B) = Ok (t, v) -> within B t.

(** ** C101 *)
(** Kernels made of RBF, Matern, constant and white kernels: as many rows of bounds as values. *)
Theorem C101_rows : forall k, usable k -> sensible k -> well_given k ->
  exists B t, bounds k = Ok B /\ theta k = Ok t /\ length B = length t.
Proof.
  intros k U S W. destruct (well_bounds k U S W) as (l & B & t & _ & EB & ET & L). exists B, t. repeat split; auto.
  rewrite L. symmetry. apply theta_free. exact ET.
Qed.
(** A vector within the reported bounds gives every hyperparameter a value within the bounds given for it; what is fixed stays. *)
Theorem C101_in_bounds : forall k B t k', sensible k -> bounds k = Ok B -> within B t -> set_theta k t = (k', Ok tt) ->
  respects k' /\ alike k k'.
Proof. intros k B t k' S HB HW H. split; [eapply set_respects; eauto|apply (set_shape _ _ _ S H)]. Qed.

Section Fit.
Context (runs : nat -> list R -> list (R * R) -> opt_run) (draw : nat -> list R).
Hypothesis Hruns : bounded runs.

Lemma evaluate_alike : forall l k k' r, sensible k -> evaluate k l = (k', r) -> alike k k'.
Proof.
  induction l as [|t l IH]; intros k k' r S H; cbn [evaluate] in H; [injection H as <- _; apply alike_refl|].
  destruct (set_theta k t) as [k1 [u|]] eqn:E.
  - pose proof (set_alike _ _ _ _ S E) as A. apply (alike_trans _ _ _ A). eapply IH; [|exact H]. eapply alike_sensible; eauto.
  - injection H as <- _. eapply set_alike; eauto.
Qed.
Lemma evaluate_respects B : forall l k k' r, usable k -> sensible k -> well_given k -> bounds k = Ok B -> List.Forall (within B) l -> respects k ->
  evaluate k l = (k', r) -> respects k' /\ r = Ok tt.
Proof.
  induction l as [|t l IH]; intros k k' r U S W HB HF HR H; cbn [evaluate] in H; [injection H as <- <-; auto|].
  inversion HF as [|? ? Ht Hl]; subst. destruct (well_bounds k U S W) as (l0 & B0 & t0 & El & EB & _ & L). rewrite HB in EB. injection EB as <-.
  pose proof (Forall2_len _ _ _ Ht) as Hlen. destruct (set_exists k t l0 S El) as [k1 E]; [congruence|]. rewrite E in H.
  pose proof (set_alike _ _ _ _ S E) as A.
  eapply IH; [| | | | | |exact H]; eauto using alike_usable, alike_sensible, alike_well, bounds_alike. eapply set_respects; eauto.
Qed.
Lemma optimise_alike B cur : forall n i k acc k' r, sensible k -> optimise runs draw B cur i n k acc = (k', r) -> alike k k'.
Proof.
  induction n as [|n IH]; intros i k acc k' r S H; cbn [optimise] in H; [injection H as <- _; apply alike_refl|].
  destruct (if cur && (i =? 0)%nat then theta k else Ok (draw i)) as [start|]; [|injection H as <- _; apply alike_refl]. cbn zeta in H.
  destruct (evaluate k (o_evals (runs i start B))) as [k1 [u|]] eqn:E; [|injection H as <- _; eapply evaluate_alike; eauto].
  pose proof (evaluate_alike _ _ _ _ S E) as A. destruct (o_end (runs i start B)) as [x|]; [|injection H as <- _; exact A].
  apply (alike_trans _ _ _ A). eapply IH; [|exact H]. eapply alike_sensible; eauto.
Qed.
Lemma optimise_respects B cur : forall n i k acc k' r, usable k -> sensible k -> well_given k -> bounds k = Ok B -> respects k ->
  optimise runs draw B cur i n k acc = (k', r) -> respects k'.
Proof.
  induction n as [|n IH]; intros i k acc k' r U S W HB HR H; cbn [optimise] in H; [injection H as <- _; exact HR|].
  destruct (if cur && (i =? 0)%nat then theta k else Ok (draw i)) as [start|]; [|injection H as <- _; exact HR]. cbn zeta in H.
  destruct (evaluate k (o_evals (runs i start B))) as [k1 r1] eqn:E.
  destruct (evaluate_respects B _ _ _ _ U S W HB (proj1 (Hruns i start B)) HR E) as [R1 ->].
  pose proof (evaluate_alike _ _ _ _ S E) as A. destruct (o_end (runs i start B)) as [x|]; [|injection H as <- _; exact R1].
  eapply IH; [| | | | |exact H]; eauto using alike_usable, alike_sensible, alike_well, bounds_alike.
Qed.
Lemma optimise_ends B cur : forall n i k acc k' l, optimise runs draw B cur i n k acc = (k', Ok l) ->
  (forall x, List.In x acc -> within B (fst x)) -> forall x, List.In x l -> within B (fst x).
Proof.
  induction n as [|n IH]; intros i k acc k' l H HA x Hx; cbn [optimise] in H; [injection H as _ <-; auto|].
  destruct (if cur && (i =? 0)%nat then theta k else Ok (draw i)) as [start|]; [|discriminate]. cbn zeta in H.
  destruct (evaluate k (o_evals (runs i start B))) as [k1 [u|]] eqn:E; [|discriminate].
  destruct (o_end (runs i start B)) as [y|] eqn:Ey; [|discriminate]. eapply IH; [exact H| |exact Hx].
  intros z Hz. apply in_app_or in Hz. destruct Hz as [Hz|[<- | []]]; auto. destruct (Hruns i start B) as [_ C]. destruct y. eapply C. exact Ey.
Qed.
Lemma best_in : forall l x, List.In (best x l) (x :: l).
Proof.
  induction l as [|y l IH]; intros x; cbn [best]; [left; reflexivity|]. destruct (Rlt_dec (snd y) (snd x)).
  - right. apply IH.
  - destruct (IH x) as [E|E]; [left; exact E|right; right; exact E].
Qed.

(** A fit that returns leaves every hyperparameter within its bounds, wherever the kernel was before; fixed ones as they were. *)
Theorem C101_fit : forall k0 k_ n cur k', let k := match k_ with Some k => k | None => k0 end in
  sensible k -> n <> O -> (forall t, theta k0 = Ok t -> t <> []) -> fit_kernel k0 k_ None runs draw n cur = (Some k', Ok tt) ->
  respects k' /\ alike k k'.
Proof.
  intros k0 k_ n cur k' k S Hn Ht H. unfold fit_kernel in H. destruct (theta k0) as [t0|] eqn:E0; [|discriminate].
  destruct (Nat.eqb (length t0) 0 || Nat.eqb n 0) eqn:Eb.
  { exfalso. apply orb_prop in Eb. destruct Eb as [Eb|Eb]; apply Nat.eqb_eq in Eb; [|congruence]. destruct t0; [|discriminate]. exact (Ht [] eq_refl eq_refl). }
  fold k in H. destruct (bounds k) as [B|] eqn:EB; [|discriminate].
  destruct (optimise runs draw B cur 0 n k []) as [k1 [l|]] eqn:Eo; [|discriminate]. destruct l as [|x l]; [discriminate|].
  destruct (set_theta k1 (fst (best x l))) as [k2 r] eqn:Es. injection H as <- ->.
  pose proof (optimise_alike _ _ _ _ _ _ _ _ S Eo) as A.
  assert (S1 : sensible k1) by (eapply alike_sensible; eauto).
  split.
  - eapply set_respects; [exact S1|eapply bounds_alike; eauto| |exact Es].
    eapply optimise_ends; [exact Eo|intros ? []|apply best_in].
  - eapply alike_trans; [exact A|]. apply (set_shape _ _ _ S1 Es).
Qed.

(** A history of calls of [fit_gpr_hyperparameters] (number of runs, whether the first starts at the current values), each
    returning or raising. *)
Fixpoint fits (k0 : kern) (k_ : option kern) (h : list (nat * bool)) : option kern :=
  match h with [] => k_ | (n, cur) :: h' => fits k0 (fst (fit_kernel k0 k_ None runs draw n cur)) h' end.
Lemma one_fit k0 k_ n cur : usable k0 -> sensible k0 -> well_given k0 -> respects k0 ->
  match k_ with Some k => alike k0 k /\ respects k | None => True end ->
  match fst (fit_kernel k0 k_ None runs draw n cur) with Some k => alike k0 k /\ respects k | None => True end.
Proof.
  intros U S W HR Hk. unfold fit_kernel. destruct (theta k0) as [t0|] eqn:E0; [|exact Hk].
  destruct (Nat.eqb (length t0) 0 || Nat.eqb n 0).
  - destruct k_ as [k|]; [|exact I]. destruct Hk as [A R1]. destruct (theta k) as [t|] eqn:Et; [|cbn; auto].
    assert (S1 : sensible k) by (eapply alike_sensible; eauto).
    destruct (set_same k t S1 (respects_positive _ S1 R1) Et) as (k' & E & V). rewrite E. cbn. split.
    + eapply alike_trans; [exact A|]. apply (set_shape _ _ _ S1 E).
    + eapply same_respects; eauto.
  - set (k := match k_ with Some k => k | None => k0 end).
    assert (Hk' : alike k0 k /\ respects k) by (subst k; destruct k_; [exact Hk|split; [apply alike_refl|exact HR]]).
    destruct Hk' as [A R1]. assert (S1 : sensible k) by (eapply alike_sensible; eauto). assert (U1 : usable k) by (eapply alike_usable; eauto).
    assert (W1 : well_given k) by (eapply alike_well; eauto).
    destruct (bounds k) as [B|] eqn:EB; [|cbn; auto].
    destruct (optimise runs draw B cur 0 n k []) as [k1 r] eqn:Eo.
    pose proof (optimise_alike _ _ _ _ _ _ _ _ S1 Eo) as A1. pose proof (optimise_respects _ _ _ _ _ _ _ _ U1 S1 W1 EB R1 Eo) as R2.
    destruct r as [[|x l]|]; [cbn; split; eauto using alike_trans| |cbn; split; eauto using alike_trans].
    destruct (set_theta k1 (fst (best x l))) as [k2 r] eqn:Es. cbn [fst].
    assert (S2 : sensible k1) by (eapply alike_sensible; eauto).
    pose proof (bounds_alike _ _ _ A1 EB) as EB1.
    assert (HW : within B (fst (best x l))) by (eapply optimise_ends; [exact Eo|intros ? []|apply best_in]).
    split; [eapply alike_trans; [exact A|]; eapply alike_trans; [exact A1|eapply set_alike; eauto]|].
    destruct (well_bounds k1) as (l0 & B0 & t1 & El & EB2 & _ & L); eauto using alike_usable, alike_well.
    rewrite EB1 in EB2. injection EB2 as <-. destruct (set_exists k1 (fst (best x l)) l0 S2 El) as [k3 E3].
    { rewrite <- L. apply (Forall2_len _ _ _ HW). }
    rewrite E3 in Es. injection Es as -> <-. eapply set_respects; eauto.
Qed.
(** After any history of fits, some of which may have raised, the hyperparameters are within their bounds and fixed ones as given. *)
Theorem C101_history : forall k0 h k, usable k0 -> sensible k0 -> well_given k0 -> respects k0 ->
  fits k0 None h = Some k -> respects k /\ alike k0 k.
Proof.
  intros k0 h k U S W HR. assert (G : forall k_, match k_ with Some k => alike k0 k /\ respects k | None => True end ->
    match fits k0 k_ h with Some k => alike k0 k /\ respects k | None => True end).
  { induction h as [|[n cur] h IH]; intros k_ Hk; [exact Hk|]. cbn [fits]. apply IH. apply one_fit; auto. }
  intros H. specialize (G None I). rewrite H in G. tauto.
Qed.
End Fit.
(** Non-trivial case: a constant times RBF in two dimensions with a fixed white kernel, fitted with an optimiser that evaluates the
    corners of the bounds and returns the upper one. *)
Definition K0 : kern := KSum (KProd (KConst 4 (BRows (1, 9) [])) (KLength None (HVec [1; 2]) (BRows (1/2, 3) []) None)) (KWhite 7 BFixed).
Definition corners : nat -> list R -> list (R * R) -> opt_run := fun _ _ B =>
  let ok := List.forallb (fun r => if Rle_dec (fst r) (snd r) then true else false) B in
  if ok then Run [map fst B; map snd B] (Ok (map snd B, 0)) else Run [] (Err RuntimeError).
Lemma corners_bounded : bounded corners.
Proof.
  intros i s B. unfold corners. destruct (List.forallb _ B) eqn:E; [|split; [constructor|discriminate]]. rewrite forallb_forall in E.
  assert (G : List.Forall (fun r => fst r <= snd r) B).
  { apply Forall_forall. intros r Hr. specialize (E r Hr). destruct (Rle_dec (fst r) (snd r)); [assumption|discriminate]. }
  clear E. assert (W : within B (map fst B) /\ within B (map snd B)).
  { unfold within. induction G as [|r B Hr _ [IH1 IH2]]; cbn; split; constructor; auto; lra. }
  cbn [o_evals o_end]. split; [repeat constructor; apply W|]. intros t v H. injection H as <- _. apply W.
Qed.
Lemma K0_ok : usable K0 /\ sensible K0 /\ well_given K0 /\ respects K0.
Proof.
  split; [cbn; auto|]. split; [|split].
  - unfold K0, sensible, pos_bounds; cbn. repeat split; try discriminate; repeat constructor; cbn; lra.
  - cbn. auto.
  - cbn. unfold inside. repeat split.
    + right. intros [|[|i]] x Hx; [|discriminate|discriminate]. injection Hx as <-. exists 1, 9. split; [reflexivity|lra].
    + right. intros [|[|[|i]]] x Hx; try discriminate; injection Hx as <-; exists (1/2), 3; (split; [reflexivity|lra]).
    + left; reflexivity.
Qed.
Lemma K0_bounds : bounds K0 = Ok [(ln 1, ln 9); (ln (1/2), ln 3); (ln (1/2), ln 3)].
Proof. reflexivity. Qed.
Lemma K0_theta : theta K0 = Ok [ln 4; ln 1; ln 2].
Proof. reflexivity. Qed.
Example C101_fit_case : exists k', fit_kernel K0 None None corners (fun _ => []) 2 true = (Some k', Ok tt) /\ respects k' /\ alike K0 k'.
Proof.
  destruct K0_ok as (U & S & W & HR).
  assert (H : exists k', fit_kernel K0 None None corners (fun _ => []) 2 true = (Some k', Ok tt)).
  { unfold fit_kernel. rewrite K0_theta, K0_bounds. cbn [length Nat.eqb orb]. set (B := [(ln 1, ln 9); (ln (1/2), ln 3); (ln (1/2), ln 3)]).
    assert (E : forall i s, corners i s B = Run [map fst B; map snd B] (Ok (map snd B, 0))).
    { intros i s. unfold corners. replace (List.forallb _ B) with true; [reflexivity|]. unfold B. cbn [forallb fst snd].
      assert (L1 : ln 1 <= ln 9) by (left; apply ln_increasing; lra). assert (L2 : ln (1/2) <= ln 3) by (left; apply ln_increasing; lra).
      destruct (Rle_dec (ln 1) (ln 9)); [|contradiction]. destruct (Rle_dec (ln (1/2)) (ln 3)); [reflexivity|contradiction]. }
    cbn [optimise andb Nat.eqb]. rewrite K0_theta, !E. cbn [o_evals o_end]. cbn. destruct (Rlt_dec 0 0); cbn; eauto. }
  destruct H as [k' H]. exists k'. split; [exact H|].
  apply (C101_fit corners (fun _ => []) corners_bounded K0 None 2 true k' S); [discriminate| |exact H].
  intros t Ht. rewrite K0_theta in Ht. injection Ht as <-. discriminate.
Qed.
Example C101_history_case : exists k, fits corners (fun _ => []) K0 None [(2%nat, true); (0%nat, true); (1%nat, false)] = Some k.
Proof.
  destruct (fits corners (fun _ => []) K0 None [(2%nat, true); (0%nat, true); (1%nat, false)]) as [k|] eqn:E; [eauto|exfalso].
  cbn [fits] in E.
  assert (G : forall k_ n cur, (k_ <> None \/ n <> O) -> fst (fit_kernel K0 k_ None corners (fun _ => []) n cur) <> None).
  { intros k_ n cur H. unfold fit_kernel. rewrite K0_theta. cbn [length Nat.eqb orb]. destruct (Nat.eqb n 0) eqn:En.
    - apply Nat.eqb_eq in En. destruct k_ as [k|]; [|tauto]. destruct (theta k); [|discriminate]. destruct (set_theta k a). discriminate.
    - destruct (bounds _); [|discriminate]. destruct (optimise _ _ _ _ _ _ _ _) as [k1 [[|x l]|]]; try discriminate. destruct (set_theta k1 _). discriminate. }
  apply G in E; [exact E|]. left. apply G. left. apply G. right. discriminate.
Qed.

(** Without the optimiser's or the user's help: more rows of bounds than values make every fit raise. *)
Theorem C101_too_many_rows_refuted : forall runs draw n cur k', bounded runs ->
  let k := KLength None (HNum 1) (BRows (1, 2) [(1, 2)]) None in
  usable k /\ sensible k /\ respects k /\ n <> O /\ fit_kernel k None None runs draw n cur = (Some k', Ok tt) -> False.
Proof.
  intros runs draw n cur k' Hb k (U & S & _ & Hn & H). unfold fit_kernel in H.
  assert (Et : theta k = Ok [ln 1]) by reflexivity. assert (EB : bounds k = Ok [(ln 1, ln 2); (ln 1, ln 2)]) by reflexivity.
  rewrite Et, EB in H. cbn [length Nat.eqb orb] in H. replace (Nat.eqb n 0) with false in H by (symmetry; apply Nat.eqb_neq; exact Hn).
  destruct (optimise runs draw _ cur 0 n k []) as [k1 [[|x l]|]] eqn:Eo; try discriminate.
  destruct (set_theta k1 (fst (best x l))) as [k2 r] eqn:Es. injection H as -> ->.
  pose proof (optimise_alike runs draw _ _ _ _ _ _ _ _ S Eo) as A.
  assert (S1 : sensible k1) by (eapply alike_sensible; eauto).
  destruct (set_shape _ _ _ S1 Es) as (L & _). rewrite (alike_free _ _ A) in L.
  assert (HW : within [(ln 1, ln 2); (ln 1, ln 2)] (fst (best x l))) by (eapply optimise_ends; [exact Hb|exact Eo|intros ? []|apply best_in]).
  pose proof (Forall2_len _ _ _ HW) as L2. rewrite L in L2. discriminate.
Qed.
(** Kernels with a RationalQuadratic, ExpSineSquared or DotProduct anywhere can never be fitted. *)
Theorem C101_unusable_refuted : forall k0 custom runs draw n cur, ~ usable k0 ->
  exists e, fit_kernel k0 None custom runs draw n cur = (None, Err e).
Proof.
  intros k0 custom runs draw n cur U. unfold fit_kernel. destruct (theta k0) as [t|e] eqn:E; [|eauto]. exfalso. apply U. eapply theta_usable; eauto.
Qed.
Example C101_unusable_case : fit_kernel (KProd (KConst 1 (BRows (1, 2) [])) (KRQ (HNum 1) 1)) None None corners (fun _ => []) 3 true = (None, Err TypeError).
Proof. reflexivity. Qed.

(** ** C25: the best of all runs is kept *)
Lemma best_least : forall l x y, List.In y (x :: l) -> snd (best x l) <= snd y.
Proof.
  induction l as [|z l IH]; intros x y Hy; cbn [best]; [destruct Hy as [<- | []]; lra|].
  destruct (Rlt_dec (snd z) (snd x)) as [L|L].
  - destruct Hy as [<- | Hy]; [|apply IH; exact Hy]. apply Rle_trans with (snd z); [apply IH; left; reflexivity|lra].
  - destruct Hy as [<- |[<- |Hy]]; [apply IH; left; reflexivity| |apply IH; right; exact Hy].
    apply Rle_trans with (snd x); [apply IH; left; reflexivity|lra].
Qed.
(** Where run [i] starts: at the values before the fit, or at random. *)
Definition start_of (k : kern) (draw : nat -> list R) (cur : bool) (i : nat) : res (list R) :=
  if cur && Nat.eqb i 0 then theta k else Ok (draw i).
Lemma optimise_runs runs draw B cur : forall n i k acc k' l, optimise runs draw B cur i n k acc = (k', Ok l) ->
  exists new, l = (acc ++ new)%list /\ length new = n /\
  forall j x, nth_error new j = Some x -> exists s, (if cur && Nat.eqb (i + j) 0 then theta k else Ok (draw (i + j)%nat)) = Ok s /\
    o_end (runs (i + j)%nat s B) = Ok x.
Proof.
  induction n as [|n IH]; intros i k acc k' l H; cbn [optimise] in H.
  - injection H as _ <-. exists []. rewrite app_nil_r. repeat split. intros [|j] x Hx; discriminate.
  - destruct (if cur && Nat.eqb i 0 then theta k else Ok (draw i)) as [s|] eqn:Es; [|discriminate]. cbn zeta in H.
    destruct (evaluate k (o_evals (runs i s B))) as [k1 [u|]]; [|discriminate]. destruct (o_end (runs i s B)) as [x|] eqn:Ex; [|discriminate].
    destruct (IH _ _ _ _ _ H) as (new & El & Hl & Hn). exists (x :: new). split; [rewrite El, <- app_assoc; reflexivity|]. split; [cbn; congruence|].
    intros [|j] y Hy.
    + injection Hy as <-. rewrite Nat.add_0_r. exists s. auto.
    + destruct (Hn j y Hy) as (s' & E1 & E2). replace (S i + j)%nat with (i + S j)%nat in * by lia. exists s'. split; [|exact E2].
      replace (Nat.eqb (i + S j) 0) with false in * by (symmetry; apply Nat.eqb_neq; lia). rewrite andb_false_r in *. exact E1.
Qed.
(** A fit that returns has done [n] runs, all of which returned, and keeps the hyperparameters of one with the least value. *)
Theorem C25_kernel : forall k0 k_ custom runs draw n cur k', let k := match k_ with Some k => k | None => k0 end in
  sensible k -> n <> O -> (forall t, theta k0 = Ok t -> t <> []) -> fit_kernel k0 k_ custom runs draw n cur = (Some k', Ok tt) ->
  exists B, match custom with Some b => B = b | None => bounds k = Ok B end /\
  exists i x v s, (i < n)%nat /\ start_of k draw cur i = Ok s /\ o_end (runs i s B) = Ok (x, v) /\ theta k' = Ok x /\
    forall j, (j < n)%nat -> exists s' x' v', start_of k draw cur j = Ok s' /\ o_end (runs j s' B) = Ok (x', v') /\ v <= v'.
Proof.
  intros k0 k_ custom runs draw n cur k' k S Hn Ht H. unfold fit_kernel in H. destruct (theta k0) as [t0|] eqn:E0; [|discriminate].
  destruct (Nat.eqb (length t0) 0 || Nat.eqb n 0) eqn:Eb.
  { exfalso. apply orb_prop in Eb. destruct Eb as [Eb|Eb]; apply Nat.eqb_eq in Eb; [|congruence]. destruct t0; [|discriminate]. exact (Ht [] eq_refl eq_refl). }
  fold k in H. destruct (match custom with Some B => Ok B | None => bounds k end) as [B|] eqn:EB; [|discriminate]. exists B.
  split; [destruct custom; [injection EB as <-; reflexivity|exact EB]|].
  destruct (optimise runs draw B cur 0 n k []) as [k1 [l|]] eqn:Eo; [|discriminate]. destruct l as [|x l]; [discriminate|].
  destruct (set_theta k1 (fst (best x l))) as [k2 r] eqn:Es. injection H as <- ->.
  assert (S1 : sensible k1) by (eapply alike_sensible; [|exact S]; eapply optimise_alike; eauto).
  destruct (optimise_runs _ _ _ _ _ _ _ _ _ _ Eo) as (new & El & Hl & Hnew). cbn [app] in El. subst new.
  destruct (In_nth_error _ _ (best_in l x)) as [i Hi]. destruct (Hnew i _ Hi) as (s & E1 & E2). cbn [Nat.add] in E1, E2.
  exists i, (fst (best x l)), (snd (best x l)), s. split; [rewrite <- Hl; apply nth_error_Some; congruence|]. split; [exact E1|].
  split; [rewrite E2, <- surjective_pairing; reflexivity|]. split; [apply (set_shape _ _ _ S1 Es)|].
  intros j Hj. destruct (nth_error (x :: l) j) as [y|] eqn:Ey; [|apply nth_error_None in Ey; lia].
  destruct (Hnew j y Ey) as (s' & F1 & F2). cbn [Nat.add] in F1, F2. exists s', (fst y), (snd y). split; [exact F1|].
  split; [rewrite F2, <- surjective_pairing; reflexivity|]. apply best_least. eapply nth_error_In; eauto.
Qed.
(** Two runs: the first, at the current values, ends at a worse value than the second. *)
Example C25_kernel_case : exists k', fit_kernel (KConst 1 (BRows (1, 9) [])) None None
    (fun i s B => Run [s] (Ok (match i with O => s | _ => [ln 3] end, 2 - INR i))) (fun _ => [ln 5]) 2 true = (Some k', Ok tt) /\ theta k' = Ok [ln (exp (ln 3))].
Proof.
  eexists. split.
  - unfold fit_kernel. change (theta (KConst 1 (BRows (1, 9) []))) with (Ok (A := list R) [ln 1]). cbn [length Nat.eqb orb].
    change (bounds (KConst 1 (BRows (1, 9) []))) with (Ok (A := list (R * R)) [(ln 1, ln 9)]). cbn -[INR Rminus].
    destruct (Rlt_dec _ _) as [L|L]; [reflexivity|]. exfalso. apply L. cbn. lra.
  - reflexivity.
Qed.

(** ** C102: the vector [theta] *)
(** Setting it and reading it again gives the vector that was set; it must have one value per hyperparameter that is not fixed;
    fixed ones, and the rest of the kernel, stay even if the call raises. *)
Theorem C102_set_get : forall k t k', sensible k -> set_theta k t = (k', Ok tt) -> theta k' = Ok t /\ length t = free k /\ alike k k'.
Proof. intros k t k' S H. destruct (set_shape _ _ _ S H) as (A & B & C). auto. Qed.
Theorem C102_length : forall k t, usable k -> sensible k -> well_given k -> ((exists k', set_theta k t = (k', Ok tt)) <-> length t = free k).
Proof.
  intros k t U S W. destruct (well_bounds k U S W) as (l & B & t0 & El & _). split.
  - intros [k' H]. apply (set_shape _ _ _ S H).
  - intros H. eapply set_exists; eauto.
Qed.
Theorem C102_fixed : forall k t k' r, sensible k -> set_theta k t = (k', r) -> alike k k'.
Proof. intros. eapply set_alike; eauto. Qed.
(** Setting what was read changes no value. *)
Theorem C102_get_set : forall k t, sensible k -> positive k -> theta k = Ok t -> exists k', set_theta k t = (k', Ok tt) /\ same_values k k'.
Proof. intros. apply set_same; auto. Qed.
(** The last vector counts: what was set before is forgotten. *)
Theorem C102_last : forall k t t' k1 k2, sensible k -> set_theta k t = (k1, Ok tt) -> set_theta k t' = (k2, Ok tt) -> set_theta k1 t' = (k2, Ok tt).
Proof. intros k t t' k1 k2 S H1 H2. apply (alike_set k); auto. apply (set_shape _ _ _ S H1). Qed.
Example C102_case : set_theta K0 [ln 2; ln (3/2); ln 1] =
  (KSum (KProd (KConst (exp (ln 2)) (BRows (1, 9) [])) (KLength None (HVec [exp (ln (3/2)); exp (ln 1)]) (BRows (1/2, 3) []) None)) (KWhite 7 BFixed), Ok tt).
Proof. reflexivity. Qed.
Example C102_power_case : set_theta (KPow (KSum (KConst 4 (BRows (1, 9) [])) (KWhite 7 (BRows (1, 9) []))) 2) [ln 2; ln 3] =
  (KPow (KSum (KConst (exp (ln 2)) (BRows (1, 9) [])) (KWhite (exp (ln 3)) (BRows (1, 9) []))) 2, Ok tt).
Proof. reflexivity. Qed.
(** A vector that is too long raises ValueError, and leaves the first kernel changed. *)
Theorem C102_raise_refuted :
  exists t k', set_theta K0 t = (k', Err ValueError) /\ theta k' <> theta K0.
Proof.
  exists [ln 2; ln 1; ln 2; 0]. eexists. split; [reflexivity|]. cbn. rewrite ln_exp, !ln_exp. intros H. injection H as H.
  apply ln_inv in H; lra.
Qed.

(** ** C103: dynamic bounds *)
(** They are the prior width of each direction, from a thousandth to a hundred times it, and never depend on the current values. *)
Theorem C103_widths : forall nu l prior k, length l <> 1%nat -> length l = length prior -> List.Forall (fun r => fst r < snd r) prior ->
  mk_length nu (HVec l) BDynamic (Some prior) = Ok k ->
  bounds k = Ok (map (fun r => (ln ((snd r - fst r) / 1000), ln ((snd r - fst r) * 100))) prior).
Proof.
  intros nu l prior k H1 Hl _ H. injection H as <-. unfold bounds. cbn [hypers mk_hyper bind get_params bound_rows h_bounds h_name h_max lookup].
  rewrite String.eqb_refl. cbn [bind elements].
  assert (G : forall pre post, map (fun r => snd r - fst r) prior = pre ++ post ->
    dynamic_rows (Some (map (fun r => snd r - fst r) prior)) (length pre) (length post) = Ok (map (fun m => (m / 1000, m * 100)) post)).
  { intros pre post. revert pre. induction post as [|m post IH]; intros pre E; [reflexivity|]. cbn [length dynamic_rows]. rewrite E at 1.
    rewrite nth_error_app2, Nat.sub_diag by lia. cbn [nth_error bind].
    replace (S (length pre)) with (length (pre ++ [m])) by (rewrite app_length; cbn; lia).
    rewrite IH by (rewrite E, <- app_assoc; reflexivity). reflexivity. }
  specialize (G [] _ eq_refl). cbn [length] in G. rewrite map_length, <- Hl in G. rewrite G. cbn [bind]. rewrite app_nil_r, !map_map. reflexivity.
Qed.
Example C103_widths_case : exists k, mk_length None (HVec [1; 1]) BDynamic (Some [(0, 1); (-1, 3)]) = Ok k /\
  bounds k = Ok [(ln ((1 - 0) / 1000), ln ((1 - 0) * 100)); (ln ((3 - -1) / 1000), ln ((3 - -1) * 100))].
Proof. eexists. split; [reflexivity|]. reflexivity. Qed.
(** Sums and products have the bounds of their parts one after the other, powers those of their kernel. *)
Theorem C103_nested : forall k1 k2 e,
  (forall k B, k = KSum k1 k2 \/ k = KProd k1 k2 -> bounds k = Ok B -> exists B1 B2, bounds k1 = Ok B1 /\ bounds k2 = Ok B2 /\ B = (B1 ++ B2)%list) /\
  bounds (KPow k1 e) = bounds k1.
Proof. intros k1 k2 e. split; [|apply bounds_pow]. intros k B Hk H. destruct (bounds_both k k1 k2 B Hk H) as (B1 & B2 & H1 & H2 & H3). eauto. Qed.
Example C103_nested_case : exists k, mk_length None (HVec [1; 1]) BDynamic (Some [(0, 1); (-1, 3)]) = Ok k /\
  bounds (KSum (KWhite 1 BFixed) (KProd (KConst 4 (BRows (1, 9) [])) k)) = Ok [(ln 1, ln 9); (ln ((1 - 0) / 1000), ln ((1 - 0) * 100)); (ln ((3 - -1) / 1000), ln ((3 - -1) * 100))].
Proof. eexists. split; [reflexivity|]. reflexivity. Qed.
Theorem C103_static : forall k k' B, alike k k' -> bounds k = Ok B -> bounds k' = Ok B.
Proof. intros. eapply bounds_alike; eauto. Qed.
(** One length scale for several directions: the first width is used, not the largest as the warning says. *)
Theorem C103_first : forall nu x r rest k, mk_length nu (HNum x) BDynamic (Some (r :: rest)) = Ok k ->
  bounds k = Ok [(ln ((snd r - fst r) / 1000), ln ((snd r - fst r) * 100))].
Proof. intros nu x r rest k H. injection H as <-. reflexivity. Qed.
Theorem C103_largest_refuted : exists k, mk_length None (HNum 1) BDynamic (Some [(0, 1); (0, 5)]) = Ok k /\
  bounds k <> Ok [(ln ((5 - 0) / 1000), ln ((5 - 0) * 100))].
Proof. eexists. split; [reflexivity|]. intros H. cbn in H. injection H as H _. apply ln_inv in H; lra. Qed.
(** Documented as two orders of magnitude above and below the current value: the value does not matter, and it is three below. *)
Theorem C103_documented_refuted : exists k x B, mk_length None (HNum x) BDynamic (Some [(0, 1)]) = Ok k /\ bounds k = Ok B /\
  B <> [(ln (x / 100), ln (x * 100))].
Proof.
  do 3 eexists. split; [reflexivity|]. split; [reflexivity|]. intros H. cbn in H. injection H as H. 
  instantiate (1 := 1) in H. apply ln_inv in H; lra.
Qed.
(** Constant and white kernels accept "dynamic" at construction, and then cannot be fitted. *)
Theorem C103_constant_refuted : forall c k2, bounds (KProd (KConst c BDynamic) k2) = Err TypeError \/ exists e, hypers k2 = Err e.
Proof.
  intros c k2. destruct (hypers k2) as [l|e] eqn:E; [left|right; eauto]. unfold bounds. cbn [hypers mk_hyper bind relabel h_name h_bounds h_max h_n].
  rewrite E. cbn [bind]. rewrite (relabel_made _ _ (hypers_made _ _ E)). cbn [bind app bound_rows h_bounds h_name h_max].
  assert (L : lookup ("k1__" ++ "constant_value") (get_params (KProd (KConst c BDynamic) k2)) = Ok (HNum c)) by reflexivity.
  cbn [h_bounds]. change (h_name (Hyper ("k1__" ++ "constant_value") BDynamic None 1)) with ("k1__" ++ "constant_value")%string. 
  rewrite L. reflexivity.
Qed.

(** ** C105: kernels built by name *)
(** After a fit that returned, the scales reported are within the priors given for them: the output scale (not squared), and the
    length scales as fractions of the prior widths. In one dimension this needs an X-preprocessor. *)
Theorem C105_scales : forall runs draw nu os ls d prior k0 n cur k' inv_y widths, bounded runs ->
  0 < fst os -> 0 < snd os -> 0 < fst ls -> 0 < snd ls -> auto_kernel nu os ls d prior = Ok k0 -> (0 < d)%nat -> n <> O ->
  match widths with Some w => length w = d | None => (1 < d)%nat end ->
  fit_kernel k0 None None runs draw n cur = (Some k', Ok tt) ->
  exists o l, reported_scales inv_y widths (Some k') = Ok (inv_y o, l) /\ fst os <= o <= snd os /\ length l = d /\
    forall i x, nth_error l i = Some x ->
      let w := match widths with Some w => nth i w 0 | None => 1 end in exists f, x = f * w /\ fst ls <= f <= snd ls.
Proof.
  intros runs draw nu os ls d prior k0 n cur k' inv_y widths Hb P1 P2 P3 P4 Hk Hd Hn Hw H. injection Hk as <-.
  set (k0 := KProd _ _) in H.
  assert (S : sensible k0).
  { unfold k0. cbn. unfold pos_bounds. cbn. repeat split; try (repeat constructor; cbn; auto; nra).
    destruct d; [lia|]. discriminate. }
  assert (Ht : forall t, theta k0 = Ok t -> t <> []).
  { intros t E C. apply theta_free in E. rewrite C in E. unfold k0 in E. cbn in E. lia. }
  destruct (C101_fit runs draw Hb k0 None n cur k' S Hn Ht H) as [HR A].
  unfold k0 in A. destruct k' as [| | | | | | |a b| ]; try contradiction; try discriminate. cbn in A. destruct A as [A1 A2].
  destruct a as [|c cb| | | | | | | ]; try contradiction; try discriminate. destruct b as [nu' v lb ml| | | | | | | | ]; try contradiction; try discriminate.
  cbn in A1, A2. destruct A1 as [-> _]. destruct A2 as (-> & -> & -> & [Hlen _]). cbn in Hlen. rewrite repeat_length in Hlen.
  cbn in HR. destruct HR as [[C|Rc] [C'|Rv]]; try discriminate.
  destruct (Rc O c eq_refl) as (lo & hi & G & Hc). cbn in G. injection G as <- <-.
  assert (Rv' : forall i x, nth_error (elements v) i = Some x -> fst ls <= x <= snd ls).
  { intros i x Hx. destruct (Rv i x Hx) as (lo & hi & G & Hx'). cbn in G. injection G as G. destruct ls as [l1 l2]. injection G as <- <-. exact Hx'. }
  assert (Ho : fst os <= sqrt c <= snd os).
  { split.
    - rewrite <- (sqrt_Rsqr (fst os)) by lra. apply sqrt_le_1; unfold Rsqr; nra.
    - rewrite <- (sqrt_Rsqr (snd os)) by lra. apply sqrt_le_1; unfold Rsqr; nra. }
  exists (sqrt c). unfold reported_scales. destruct widths as [w|].
  - destruct v as [x|l]; cbn [elements] in *.
    + exists (map (fun a => x * a) w). split; [reflexivity|]. split; [exact Ho|]. split; [rewrite map_length; exact Hw|].
      intros i y Hy. cbn. rewrite nth_error_map in Hy. destruct (nth_error w i) as [a|] eqn:Ea; [|discriminate]. injection Hy as <-.
      exists x. rewrite (nth_error_nth w i 0 Ea). split; [reflexivity|]. exact (Rv' O x eq_refl).
    + replace (Nat.eqb (length l) (length w)) with true by (symmetry; apply Nat.eqb_eq; congruence).
      eexists. split; [reflexivity|]. split; [exact Ho|]. split; [rewrite map_length, combine_length; lia|].
      intros i y Hy. cbn. rewrite nth_error_map in Hy. destruct (nth_error (combine l w) i) as [[f a]|] eqn:Ea; [|discriminate]. injection Hy as <-.
      assert (Hi : nth_error l i = Some f /\ nth_error w i = Some a).
      { clear -Ea. revert l w Ea. induction i as [|i IH]; intros [|f' l] [|a' w] Ea; try discriminate; cbn in *; [injection Ea as -> ->; auto|]. apply IH. exact Ea. }
      destruct Hi as [Hf Ha]. exists f. rewrite (nth_error_nth w i 0 Ha). split; [reflexivity|]. exact (Rv' i f Hf).
  - destruct v as [x|l]; cbn [elements length] in *; [lia|]. exists l. split; [reflexivity|]. split; [exact Ho|]. split; [lia|].
    intros i y Hy. cbn. exists y. split; [lra|]. exact (Rv' i y Hy).
Qed.
(** In one dimension without X-preprocessor the scales cannot be read once the kernel has been fitted. *)
Theorem C105_one_dimension_refuted : forall runs draw nu os ls prior k0 n cur k' inv_y,
  0 < fst os -> 0 < snd os -> 0 < fst ls -> 0 < snd ls -> auto_kernel nu os ls 1 prior = Ok k0 -> n <> O ->
  fit_kernel k0 None None runs draw n cur = (Some k', Ok tt) -> reported_scales inv_y None (Some k') = Err TypeError.
Proof.
  intros runs draw nu os ls prior k0 n cur k' inv_y P1 P2 P3 P4 Hk Hn H. injection Hk as <-. set (k0 := KProd _ _) in H.
  assert (S : sensible k0) by (unfold k0; cbn; unfold pos_bounds; cbn; repeat split; try discriminate; repeat constructor; cbn; auto; nra).
  unfold fit_kernel in H. destruct (theta k0) as [t0|] eqn:E0; [|discriminate].
  pose proof (theta_free _ _ E0) as F0. rewrite F0 in H. change (free k0) with 2%nat in H. cbn [Nat.eqb orb] in H.
  replace (Nat.eqb n 0) with false in H by (symmetry; apply Nat.eqb_neq; exact Hn). cbv zeta in H.
  destruct (bounds k0) as [B|]; [|discriminate]. destruct (optimise runs draw B cur 0 n k0 []) as [k1 [[|x l]|]] eqn:Eo; try discriminate.
  destruct (set_theta k1 (fst (best x l))) as [k2 r] eqn:Es. injection H as -> ->.
  pose proof (optimise_alike runs draw _ _ _ _ _ _ _ _ S Eo) as A. unfold k0 in A.
  destruct k1 as [| | | | | | |a b| ]; try contradiction; try discriminate. cbn in A. destruct A as [A1 A2].
  destruct a as [|c cb| | | | | | | ]; try contradiction; try discriminate. destruct b as [nu' v lb ml| | | | | | | | ]; try contradiction; try discriminate.
  cbn in A1, A2. destruct A1 as [-> _]. destruct A2 as (-> & -> & -> & [Hlen _]).
  cbn [set_theta] in Es. cbn [theta hypers mk_hyper Nat.ltb bind free_values get_params h_bounds h_name lookup String.eqb] in Es.
  cbn in Es. rewrite n_elements_max in Es. cbn in Hlen. rewrite Hlen in Es. cbn in Es.
  destruct (fst (best x l)) as [|u [|u' t]]; cbn in Es; try (injection Es as _ C; discriminate).
  destruct t; injection Es as <-; try discriminate. reflexivity.
Qed.
Example C105_case : exists k0 k', auto_kernel None (1/100, 1000) (1/1000, 10) 2 [(0, 1); (0, 1)] = Ok k0 /\
  fit_kernel k0 None None corners (fun _ => []) 1 false = (Some k', Ok tt) /\
  exists o l, reported_scales (fun y => y) (Some [2; 3]) (Some k') = Ok (o, l) /\ 1/100 <= o <= 1000 /\ length l = 2%nat.
Proof.
  eexists. assert (H : exists k', fit_kernel (KProd (KConst (sqrt (1/100 * 1000) ^ 2) (BRows ((1/100) ^ 2, 1000 ^ 2) []))
     (KLength None (HVec (repeat (sqrt (1/1000 * 10)) 2)) (BRows (1/1000, 10) []) None)) None None corners (fun _ => []) 1 false = (Some k', Ok tt)).
  { unfold fit_kernel. cbn [theta hypers mk_hyper bind]. set (k0 := KProd _ _).
    assert (EB : bounds k0 = Ok [(ln ((1/100) ^ 2), ln (1000 ^ 2)); (ln (1/1000), ln 10); (ln (1/1000), ln 10)]) by reflexivity.
    rewrite EB. set (B := [(ln ((1/100) ^ 2), ln (1000 ^ 2)); (ln (1/1000), ln 10); (ln (1/1000), ln 10)]).
    assert (E : forall i s, corners i s B = Run [map fst B; map snd B] (Ok (map snd B, 0))).
    { intros i s. unfold corners. replace (List.forallb _ B) with true; [reflexivity|]. unfold B. cbn [forallb fst snd].
      assert (L1 : ln ((1/100) ^ 2) <= ln (1000 ^ 2)) by (left; apply ln_increasing; nra). assert (L2 : ln (1/1000) <= ln 10) by (left; apply ln_increasing; lra).
      destruct (Rle_dec (ln ((1/100) ^ 2)) (ln (1000 ^ 2))); [|contradiction]. destruct (Rle_dec (ln (1/1000)) (ln 10)); [reflexivity|contradiction]. }
    cbn [optimise andb Nat.eqb]. rewrite !E. cbn. eauto. }
  destruct H as [k' H]. exists k'. split; [reflexivity|]. split; [exact H|].
  epose proof (C105_scales corners (fun _ => []) None (1/100, 1000) (1/1000, 10) 2 [(0, 1); (0, 1)] _ 1 false k' (fun y => y) (Some [2; 3])
    corners_bounded ltac:(cbn; lra) ltac:(cbn; lra) ltac:(cbn; lra) ltac:(cbn; lra) eq_refl ltac:(lia) ltac:(discriminate) eq_refl H)
    as (o & l & E & Ho & Hl & _). eauto.
Qed.
Print Assumptions C25_kernel.
Print Assumptions C101_rows.
Print Assumptions C101_in_bounds.
Print Assumptions C101_fit.
Print Assumptions C101_history.
Print Assumptions C101_too_many_rows_refuted.
Print Assumptions C101_unusable_refuted.
Print Assumptions C102_set_get.
Print Assumptions C102_length.
Print Assumptions C102_fixed.
Print Assumptions C102_get_set.
Print Assumptions C102_last.
Print Assumptions C102_raise_refuted.
Print Assumptions C103_widths.
Print Assumptions C103_nested.
Print Assumptions C103_static.
Print Assumptions C103_first.
Print Assumptions C103_largest_refuted.
Print Assumptions C103_documented_refuted.
Print Assumptions C103_constant_refuted.
Print Assumptions C105_scales.
Print Assumptions C105_one_dimension_refuted.

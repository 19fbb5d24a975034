(** The ranked pool: invariant of additions one by one, exactness under monotone conditioning,
    bulk additions. *)
From Verif Require Import MPool Argsort PPool.
Set Default Goal Selector "!".

Section P2.
Variable pt : Type.
Variable std : list (pt * num) -> pt -> num.
Variable acqf : num -> num -> num.
Variable argsort : list num -> list nat.
Hypothesis Harg : argsort_ok argsort.

Section NoNaN.
Hypothesis acqf_nn : forall C x y, isnan (acqf y (std C x)) = false.

Record Inv (n : nat) (s : list (slot pt)) (g : list (option (list (pt * num)))) : Prop := {
  inv_shape : shaped n s g;
  inv_sorted : sorted s;
  inv_last : forall t, nth_error s n = Some t -> sc t = NInf;
  inv_cond : forall j, 0 < j -> j < n -> condle std acqf s j;
  inv_top : forall t, nth_error s 0 = Some t -> sc t <> NInf -> nleb (sc t) (sa t) = true;
  inv_cache : forall j t, S j < n -> nth_error s j = Some t -> sc t <> NInf -> cached s g j }.

Lemma nth_lt {A} (l : list A) i x : nth_error l i = Some x -> i < length l.
Proof. intros H. apply nth_error_Some. congruence. Qed.

Lemma rerank_ok n s g c x y acq : Inv n s g -> isnan acq = false ->
  forall fuel a i_last L,
  isnan a = false -> nleb a acq = true ->
  ((L = 0 /\ i_last = n) \/
   (0 < L /\ i_last = L /\ L < n /\ (exists t, nth_error s (L - 1) = Some t /\ nleb a (sc t) = true) /\
    nleb a (acqf y (std (pts (firstn L s)) x)) = true)) ->
  n - L < fuel ->
  exists q a', rerank std acqf fuel (of_slots s g c) x y a i_last = Ok (q, a') /\
    q <= n /\ isnan a' = false /\ nleb a' acq = true /\ position (of_slots s g c) a' = q /\
    (q < n -> q = 0 \/ nleb a' (acqf y (std (pts (firstn q s)) x)) = true).
Proof.
  intros HI Hacq. destruct (inv_shape _ _ _ HI) as [Hs Hg].
  induction fuel as [|fuel IH]; intros a i_last L Ha Haq HL Hf; [lia|]. cbn [rerank].
  assert (plen (of_slots s g c) = n) as Hpl by (rewrite plen_slots; lia).
  destruct (position_spec (of_slots s g c) a) as (Hq & Hq1 & Hq2).
  { rewrite Hpl. unfold of_slots. simpl. rewrite map_length. lia. }
  rewrite Hpl in *. remember (position (of_slots s g c) a) as q eqn:Eq.
  change (pacqc (of_slots s g c)) with (map sc s) in *.
  change (gcond (of_slots s g c)) with g.
  destruct ((q =? 0) || (q =? i_last) || (q =? n)) eqn:Eb.
  { exists q, a. split; auto. split; auto. split; auto. split; auto. split; auto.
    intros Hqn. apply orb_true_iff in Eb as [Eb|E3]; [|apply Nat.eqb_eq in E3; lia].
    apply orb_true_iff in Eb as [E1|E2]; [left; apply Nat.eqb_eq; auto|].
    apply Nat.eqb_eq in E2. destruct HL as [[-> ->]|(HL0 & -> & HLn & _ & Hc)]; [lia|].
    right. subst L. auto. }
  apply orb_false_iff in Eb as [Eb E3]. apply orb_false_iff in Eb as [E1 E2].
  apply Nat.eqb_neq in E1, E2, E3.
  destruct Hq1 as [Hq1|(v & Hv & Hav)]; [lia|].
  rewrite nth_error_map in Hv. destruct (nth_error s (q - 1)) as [t|] eqn:Et; [|discriminate].
  simpl in Hv. injection Hv as <-.
  assert (L < q) as HLq.
  { destruct HL as [[-> ->]|(HL0 & -> & HLn & (u & Hu & Hau) & Hc)]; [lia|].
    destruct (Nat.lt_ge_cases q L) as [Hlt|Hge]; [|lia].
    rewrite (Hq2 (L - 1) (sc u)) in Hau; [discriminate|lia|lia|].
    rewrite nth_error_map, Hu. reflexivity. }
  (* the slot above is occupied: a > -inf *)
  assert (sc t <> NInf) as Hocc.
  { intros E. rewrite E in Hav. apply nleb_ninf in Hav. subst a.
    destruct (nth_error s (n - 1)) as [u|] eqn:Eu.
    - assert (nleb NInf (sc u) = false) as K.
      { apply (Hq2 (n - 1)); try lia. rewrite nth_error_map, Eu. reflexivity. }
      rewrite ninf_leb in K; [discriminate|]. eapply sorted_notnan; [|exact Eu]. apply HI.
    - apply nth_error_None in Eu. lia. }
  pose proof (inv_cache _ _ _ HI (q - 1) t ltac:(lia) Et Hocc) as Hcache.
  unfold cached in Hcache. replace (S (q - 1)) with q in Hcache by lia.
  unfold get. rewrite Hcache. cbn [bind].
  apply (IH _ _ q).
  - apply pymin_notnan; auto.
  - apply pymin_keeps; auto.
  - right. split; [lia|]. split; auto. split; [lia|]. split.
    + exists t. split; auto. apply pymin_keeps; auto.
    + apply pymin_le_r; auto.
  - lia.
Qed.

(** Slot list after the insertion of [t] at its position. *)
Lemma insert_sorted n s g c t q : Inv n s g -> isnan (sc t) = false ->
  position (of_slots s g c) (sc t) = q -> q < n -> sorted (insert_shift q t s).
Proof.
  intros HI Ht Hpos Hqn. destruct (inv_shape _ _ _ HI) as [Hs Hg].
  assert (plen (of_slots s g c) = n) as Hpl by (rewrite plen_slots; lia).
  destruct (position_spec (of_slots s g c) (sc t)) as (_ & Hq1 & Hq2).
  { rewrite Hpl. unfold of_slots. simpl. rewrite map_length. lia. }
  rewrite Hpl, Hpos in *. change (pacqc (of_slots s g c)) with (map sc s) in *.
  pose proof (inv_sorted _ _ _ HI) as Hso.
  assert (forall i u, i < q -> nth_error s i = Some u -> nleb (sc t) (sc u) = true) as Habove.
  { intros i u Hi Hu. destruct Hq1 as [->|(v & Hv & Hav)]; [lia|].
    rewrite nth_error_map in Hv. destruct (nth_error s (q - 1)) as [w|] eqn:Ew; [|discriminate].
    injection Hv as <-. eapply nleb_trans; [exact Hav|]. eapply (Hso i (q - 1)); eauto. lia. }
  assert (forall i u, q <= i -> i < n -> nth_error s i = Some u -> nleb (sc u) (sc t) = true) as Hbelow.
  { intros i u Hi Hin Hu. apply nleb_total; auto.
    - eapply sorted_notnan; eauto.
    - apply (Hq2 i); auto. rewrite nth_error_map, Hu. reflexivity. }
  intros i j u v Hij Hu Hv. rewrite insert_nth in Hu, Hv by lia. rewrite Hs in *.
  destruct (Nat.ltb_spec i q) as [Hi|Hi].
  - destruct (Nat.ltb_spec j q) as [Hj|Hj]; [eapply (Hso i j); eauto|].
    destruct (Nat.eqb_spec j q) as [->|Hjq].
    + injection Hv as <-. eapply Habove; eauto.
    + destruct (Nat.ltb_spec j (S n)) as [Hjn|Hjn]; [|discriminate]. eapply (Hso i (j - 1)); eauto. lia.
  - destruct (Nat.ltb_spec j q) as [Hj|Hj]; [lia|].
    destruct (Nat.eqb_spec i q) as [->|Hiq].
    + injection Hu as <-. destruct (Nat.eqb_spec j q) as [->|Hjq].
      * injection Hv as <-. apply nleb_refl; auto.
      * destruct (Nat.ltb_spec j (S n)) as [Hjn|Hjn]; [|discriminate]. eapply (Hbelow (j - 1)); eauto; lia.
    + destruct (Nat.eqb_spec j q) as [->|Hjq]; [lia|].
      destruct (Nat.ltb_spec i (S n)) as [Hin|Hin]; [|discriminate].
      destruct (Nat.ltb_spec j (S n)) as [Hjn|Hjn]; [|discriminate].
      eapply (Hso (i - 1) (j - 1)); eauto. lia.
Qed.

(** One addition: description of the result. *)
Lemma add_one_core_ok n s g c x y sg a nn : Inv n s g -> isnan a = false ->
  (add_one_core std acqf argsort (of_slots s g c) x y sg a nn = Ok (of_slots s g c) /\
   ((exists v, nth_error s (n - 1) = Some v /\ nleb a (sc v) = true) \/
    exists ac, rerank std acqf (S n) (of_slots s g c) x y a n = Ok (n, ac)))
  \/ exists q ac s2 g2 c2 u,
     q < n /\ isnan ac = false /\ ac <> NInf /\ nleb ac a = true /\
     position (of_slots s g c) ac = q /\
     rerank std acqf (S n) (of_slots s g c) x y a n = Ok (q, ac) /\
     (q = 0 \/ nleb ac (acqf y (std (pts (firstn q s)) x)) = true) /\
     SR std acqf argsort (n - S q) (S q) (insert_shift q (mkSlot x y sg a ac) s) g s2 g2 /\
     nth_error s2 n = Some u /\
     add_one_core std acqf argsort (of_slots s g c) x y sg a nn = Ok (of_slots (upd s2 n (setc NInf u)) g2 c2).
Proof.
  intros HI Ha. destruct (inv_shape _ _ _ HI) as [Hs Hg]. unfold add_one_core.
  assert (plen (of_slots s g c) = n) as Hpl by (rewrite plen_slots; lia). rewrite Hpl.
  assert (exists v, nth_error s (n - 1) = Some v /\ min_acq (of_slots s g c) = Ok (sc v)) as (mn & Ev & Emn).
  { unfold min_acq. rewrite Hpl. change (pacqc (of_slots s g c)) with (map sc s). rewrite nth_error_map.
    destruct (nth_error s (n - 1)) eqn:E; simpl; eauto.
    apply nth_error_None in E. lia. }
  rewrite Emn. cbn [bind]. destruct (nleb a (sc mn)) eqn:Emin; [left; eauto 6|].
  rewrite Ha. cbn [andb negb].
  destruct (rerank_ok n s g c x y a HI Ha (S n) a n 0 Ha) as (q & ac & Hr & Hq & Hac & Haca & Hpos & Hcond).
  { apply nleb_refl; auto. } { left; auto. } { lia. }
  rewrite Hr. cbn [bind].
  destruct (Nat.leb_spec n q) as [Hnq|Hqn].
  { left. replace q with n in * by lia. eauto. }
  right. cbn [pX py psig pacq pacqc gcond counter of_slots]. rewrite insert_slots.
  set (t := mkSlot x y sg a ac).
  assert (ac <> NInf) as Hnz.
  { intros ->. destruct (position_spec (of_slots s g c) NInf) as (_ & _ & Hq2).
    { rewrite Hpl. unfold of_slots. simpl. rewrite map_length. lia. }
    rewrite Hpl, Hpos in *. change (pacqc (of_slots s g c)) with (map sc s) in *.
    destruct (nth_error s (n - 1)) as [u|] eqn:Eu.
    - assert (nleb NInf (sc u) = false) as K.
      { apply (Hq2 (n - 1)); try lia. rewrite nth_error_map, Eu. reflexivity. }
      rewrite ninf_leb in K; [discriminate|]. eapply sorted_notnan; [|exact Eu]. apply HI.
    - apply nth_error_None in Eu. lia. }
  assert (get (insert_shift q ac (map sc s)) q = Ok ac) as Hget.
  { change ac with (sc t) at 1. rewrite insert_shift_map. unfold get. rewrite nth_error_map.
    rewrite insert_nth by lia. rewrite Nat.ltb_irrefl, Nat.eqb_refl. reflexivity. }
  rewrite Hget. cbn [bind].
  assert (nltb NInf ac = true) as Hlt by (destruct ac; simpl in *; congruence).
  rewrite Hlt. cbn [negb].
  set (s1 := insert_shift q t s).
  assert (length s1 = S n) as Hs1 by (unfold s1; rewrite insert_length; lia).
  assert (sorted s1) as Hso1 by (eapply insert_sorted; eauto).
  unfold sort. rewrite plen_slots, Hs1. replace (S n - 1 - S q) with (n - S q) by lia.
  destruct (sort_ok pt std acqf argsort Harg acqf_nn (n - S q) (S q) s1 g c) as (s2 & g2 & c2 & Hok & HS);
    [lia|lia|auto|].
  rewrite Hok. cbn [bind].
  destruct (SR_prefix pt std acqf argsort Harg _ _ _ _ _ _ HS) as (Hl2 & _ & Hg2); [lia|].
  change (pacqc (of_slots s2 g2 c2)) with (map sc s2).
  unfold set. rewrite map_length.
  destruct (Nat.ltb_spec (length s2 - 1) (length s2)); [|lia]. cbn [bind].
  destruct (set_last_slots pt s2 NInf) as (u & Hu & E1 & E2 & E3 & E4 & E5).
  { intros ->. simpl in *. lia. }
  rewrite E1. cbn [pX py psig pacq gcond counter of_slots].
  exists q, ac, s2, g2, c2, u.
  replace (length s2 - 1) with n in * by lia.
  split; auto. split; auto. split; auto. split; auto. split; auto. split; auto. split; [apply Hcond; auto|].
  split; auto. split; auto.
  unfold of_slots. rewrite E2, E3, E4, E5. reflexivity.
Qed.

Lemma upd_firstn {A} (l : list A) n v j : j <= n -> firstn j (upd l n v) = firstn j l.
Proof.
  revert n j. induction l as [|x l IH]; intros [|n] [|j] H; simpl; auto; try lia. f_equal. apply IH. lia.
Qed.

Lemma add_one_core_inv n s g c x y sg a nn : Inv n s g -> isnan a = false ->
  exists s' g' c', add_one_core std acqf argsort (of_slots s g c) x y sg a nn = Ok (of_slots s' g' c')
    /\ Inv n s' g'.
Proof.
  intros HI Ha. destruct (add_one_core_ok n s g c x y sg a nn HI Ha)
    as [[H _]|(q & ac & s2 & g2 & c2 & u & Hqn & Hac & Hnz & Haca & Hpos & _ & Hcond & HS & Hu & H)].
  { exists s, g, c. auto. }
  exists (upd s2 n (setc NInf u)), g2, c2. split; auto.
  destruct (inv_shape _ _ _ HI) as [Hs Hg].
  set (t := mkSlot x y sg a ac) in *. set (s1 := insert_shift q t s) in *.
  assert (length s1 = S n) as Hs1 by (unfold s1; rewrite insert_length; lia).
  assert (sorted s1) as Hso1 by (eapply (insert_sorted n s g c t); eauto).
  destruct (SR_prefix pt std acqf argsort Harg _ _ _ _ _ _ HS) as (Hl2 & Hpre & Hg2); [lia|].
  pose proof (SR_sorted pt std acqf argsort Harg acqf_nn _ _ _ _ _ _ HS Hso1) as Hso2.
  pose proof (SR_cond pt std acqf argsort Harg acqf_nn _ _ _ _ _ _ HS Hso1 ltac:(lia) ltac:(lia)) as Hc2.
  destruct (SR_cache pt std acqf argsort Harg acqf_nn _ _ _ _ _ _ HS ltac:(lia) ltac:(lia) ltac:(lia)) as [Hk1 Hk2].
  set (s3 := upd s2 n (setc NInf u)).
  assert (forall j, j < n -> nth_error s3 j = nth_error s2 j) as Hn3.
  { intros j Hj. unfold s3. apply upd_other. lia. }
  assert (forall j, j <= n -> firstn j s3 = firstn j s2) as Hf3.
  { intros j Hj. unfold s3. apply upd_firstn. lia. }
  assert (forall j, j <= q -> firstn j s2 = firstn j s) as Hf2.
  { intros j Hj. rewrite (firstn_eq_le _ _ (S q) j Hpre) by lia. unfold s1. apply insert_firstn; lia. }
  assert (forall j, j < q -> nth_error s2 j = nth_error s j) as Hn2.
  { intros j Hj. rewrite (firstn_eq_nth _ _ (S q) j Hpre) by lia. unfold s1.
    rewrite insert_nth by lia. destruct (Nat.ltb_spec j q); [auto|lia]. }
  assert (nth_error s2 q = Some t) as Hq2.
  { rewrite (firstn_eq_nth _ _ (S q) q Hpre) by lia. unfold s1.
    rewrite insert_nth by lia. rewrite Nat.ltb_irrefl, Nat.eqb_refl. auto. }
  assert (nth_error s3 n = Some (setc NInf u)) as Hlast3.
  { unfold s3. apply upd_same. lia. }
  constructor.
  - split; [unfold s3; rewrite upd_length|]; lia.
  - intros i j v w Hij Hv Hw. destruct (Nat.eq_dec j n) as [->|Hjn].
    + rewrite Hlast3 in Hw. injection Hw as <-. simpl. apply ninf_leb.
      destruct (Nat.eq_dec i n) as [->|Hin].
      * rewrite Hlast3 in Hv. injection Hv as <-. auto.
      * assert (i < length s3) by (eapply nth_lt; eauto). unfold s3 in H0. rewrite upd_length in H0.
        rewrite Hn3 in Hv by lia. eapply sorted_notnan; eauto.
    + assert (j < length s3) by (eapply nth_lt; eauto). unfold s3 in H0. rewrite upd_length in H0.
      rewrite Hn3 in Hv, Hw by lia. eapply (Hso2 i j); eauto.
  - intros v Hv. rewrite Hlast3 in Hv. injection Hv as <-. auto.
  - intros j Hj0 Hjn v Hv Hnv. rewrite Hn3 in Hv by lia. rewrite Hf3 by lia.
    destruct (Nat.lt_total j q) as [Hlt|[->|Hgt]].
    + rewrite Hf2 by lia. rewrite Hn2 in Hv by lia. apply (inv_cond _ _ _ HI j); auto.
    + rewrite Hf2 by lia. rewrite Hq2 in Hv. injection Hv as <-. simpl.
      destruct Hcond as [->|Hcond]; [lia|auto].
    + apply (Hc2 j); auto; lia.
  - intros v Hv Hnv. rewrite Hn3 in Hv by lia. destruct (Nat.eq_dec q 0) as [->|Hq0].
    + rewrite Hq2 in Hv. injection Hv as <-. simpl. auto.
    + rewrite Hn2 in Hv by lia. apply (inv_top _ _ _ HI); auto.
  - intros j v Hjn Hv Hnv. rewrite Hn3 in Hv by lia. unfold cached. rewrite Hf3 by lia.
    destruct (Nat.lt_ge_cases j q) as [Hlt|Hge].
    + rewrite Hk1 by lia. rewrite Hf2 by lia. apply (inv_cache _ _ _ HI j v); auto.
      rewrite <- Hn2; auto.
    + eapply (Hk2 Hso1 j v); eauto; lia.
Qed.

End NoNaN.
End P2.

Arguments inv_shape {pt std acqf n s g}. Arguments inv_sorted {pt std acqf n s g}.
Arguments inv_last {pt std acqf n s g}. Arguments inv_cond {pt std acqf n s g}.
Arguments inv_top {pt std acqf n s g}. Arguments inv_cache {pt std acqf n s g}.
Arguments Inv {pt}.

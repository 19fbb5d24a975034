(** The ranked pool when conditioning never increases the acquisition: stored values are exact,
    the order is the greedy one; bulk additions. *)
From Verif Require Import MPool Argsort PPool PPool2.
Set Default Goal Selector "!".

Section P3.
Variable pt : Type.
Variable std : list (pt * num) -> pt -> num.
Variable acqf : num -> num -> num.
Variable argsort : list num -> list nat.
Hypothesis Harg : argsort_ok argsort.
Hypothesis mono : forall C D x y, nleb (acqf y (std (C ++ D) x)) (acqf y (std C x)) = true.

Lemma mono_nn C x y : isnan (acqf y (std C x)) = false.
Proof. eapply nleb_notnan_r. apply (mono C []). Qed.

Definition condv (s : list (slot pt)) (i : nat) (t : slot pt) : num :=
  acqf (sy t) (std (pts (firstn i s)) (sx t)).
Definition G (s : list (slot pt)) (h j : nat) : Prop :=
  forall th tj, nth_error s h = Some th -> nth_error s j = Some tj -> sc tj <> NInf ->
  nleb (condv s h tj) (sc th) = true.
Definition E (s : list (slot pt)) (j : nat) : Prop :=
  forall t, nth_error s j = Some t -> sc t <> NInf -> sc t = condv s j t.

Lemma firstn_le_app {A} (l : list A) : forall i j, i <= j -> exists m, firstn j l = firstn i l ++ m.
Proof.
  induction l as [|x l IH]; intros [|i] [|j] H; simpl; try lia; eauto.
  destruct (IH i j ltac:(lia)) as [m ->]. exists m. reflexivity.
Qed.

Lemma condv_mono s i j t : i <= j -> nleb (condv s j t) (condv s i t) = true.
Proof.
  intros H. unfold condv. destruct (firstn_le_app s i j H) as [m ->].
  unfold pts. rewrite map_app. apply mono.
Qed.
Lemma condv_firstn s s' i t : firstn i s = firstn i s' -> condv s i t = condv s' i t.
Proof. unfold condv. intros ->. reflexivity. Qed.
Lemma condv_setc s i v t : condv s i (setc v t) = condv s i t.
Proof. reflexivity. Qed.

Lemma npmin2_exact a b : nleb a b = true -> npmin2 a b = a.
Proof.
  intros H. unfold npmin2, pymin. rewrite (nleb_notnan_l _ _ H), (nleb_notnan_r _ _ H). simpl.
  destruct (nltb b a) eqn:K; auto. apply nleb_ltb_false in H. congruence.
Qed.

Lemma nth_in_mid s i b (t : slot pt) : In t (slice i b s) -> exists j, i <= j /\ j < b /\ nth_error s j = Some t.
Proof.
  intros H. apply In_nth_error in H as [j Hj].
  assert (j < length (slice i b s)) as Hl by (eapply nth_lt; eauto).
  unfold slice in Hl. rewrite firstn_length in Hl.
  rewrite nth_error_slice in Hj by lia. exists (i + j). repeat split; auto; lia.
Qed.

(** No clipping happens. *)
Lemma val_exact s i t : (forall h j, h < i -> i <= j -> G s h j) -> i <= length s ->
  In t (mid_of s i) -> val std acqf s i t = condv s i t.
Proof.
  intros HG Hi Hin. unfold val. apply npmin2_exact. fold (condv s i t).
  apply nth_in_mid in Hin as Hn. destruct Hn as (j & Hj1 & Hj2 & Hj).
  unfold upper. destruct i as [|h].
  - destruct (condv s 0 t) eqn:Ev; simpl; auto. unfold condv in Ev.
    pose proof (mono_nn (pts (firstn 0 s)) (sx t) (sy t)) as K. rewrite Ev in K. discriminate.
  - destruct (nth_error s h) as [th|] eqn:Eh.
    2:{ apply nth_error_None in Eh. lia. }
    eapply nleb_trans; [apply (condv_mono s h (S h)); lia|].
    eapply (HG h j); eauto; try lia. eapply first_inf_below; eauto.
Qed.

(** Nothing in [d] ranks better than any slot but the spare one, conditioned on the slots above it. *)
Definition worse (s : list (slot pt)) (d : list (slot pt)) : Prop :=
  forall u h th, In u d -> nth_error s h = Some th -> h < length s - 1 -> nleb (condv s h u) (sc th) = true.

Lemma reorder_dropped s i r : reord std acqf argsort s i = Ok r -> i <= first_inf s ->
  Permutation (contents (reorder_slots std acqf s i r) ++
               map strip (filter (fun t => is_ninf (val std acqf s i t)) r)) (contents s).
Proof.
  intros Hr Hi. rewrite (mid_split pt s i Hi) at 2. unfold reorder_slots. rewrite !contents_app.
  rewrite (contents_all pt (mid_of s i)) by (intros; eapply mid_occ; eauto).
  rewrite <- !app_assoc. apply Permutation_app_head.
  rewrite (Permutation_app_comm (contents (skipn (first_inf s) s))). rewrite app_assoc.
  apply Permutation_app_tail.
  apply (reord_perm pt std acqf argsort Harg) in Hr. apply (Permutation_map strip) in Hr. rewrite <- Hr.
  clear Hr. induction r as [|t r IH]; auto. cbn [map filter]. rewrite contents_cons. simpl sc.
  destruct (is_ninf (val std acqf s i t)); cbn [app map].
  - rewrite <- Permutation_middle. constructor; auto.
  - constructor; auto.
Qed.
Lemma kill_dropped (s : list (slot pt)) i : i <= first_inf s ->
  Permutation (contents (kill_slots s i) ++ map strip (mid_of s i)) (contents s).
Proof.
  intros Hi. rewrite (mid_split pt s i Hi) at 3. unfold kill_slots. rewrite !contents_app.
  rewrite (contents_all pt (mid_of s i)) by (intros; eapply mid_occ; eauto).
  assert (contents (map (setc NInf) (mid_of s i)) = ([] : list (pt * num * num * num))) as ->.
  { unfold contents, occ. induction (mid_of s i); simpl; auto. }
  cbn [app]. rewrite <- app_assoc. apply Permutation_app_head, Permutation_app_comm.
Qed.

Lemma SR_greedy k i s g s' g' : SR std acqf argsort k i s g s' g' -> sorted s ->
  i + k = length s - 1 -> i <= length s ->
  (forall h j, h < i -> i <= j -> G s h j) ->
  (forall h j, h < length s - 1 -> i <= j -> h <= j -> G s' h j) /\
  (forall j, i <= j -> j < length s - 1 -> E s' j) /\
  (exists dropped, Permutation (contents s' ++ map strip dropped) (contents s) /\ worse s' dropped).
Proof.
  induction 1 as [|k i s g t Ht Hinf|k i s g t t0 r Ht Hinf Hr Hv|k i s g t t0 r s' g' Ht Hinf Hr Hv HS IH];
    intros Hs Hk Hil HG.
  - split; [intros h j Hh Hij Hhj; apply HG; lia|]. split; [intros; lia|].
    exists []. split; [rewrite app_nil_r; auto|intros u h th []].
  - assert (forall j u, i <= j -> nth_error s j = Some u -> sc u = NInf) as K.
    { intros j u Hij Hu. apply nleb_ninf. rewrite <- Hinf. eapply (Hs i j); eauto. }
    split; [|split].
    + intros h j _ Hij _ th tj _ Hj Hn. exfalso. eauto.
    + intros j Hij _ u Hu Hn. exfalso. eauto.
    + exists []. split; [rewrite app_nil_r; auto|intros u h th []].
  - pose proof (reord_nonempty pt std acqf argsort Harg _ _ _ _ Hr) as Hne.
    pose proof (reord_perm pt std acqf argsort Harg _ _ _ Hr) as Hperm.
    assert (forall j u, i <= j -> nth_error (kill_slots s i) j = Some u -> sc u = NInf) as K.
    { intros j u Hij Hu. rewrite kill_nth in Hu by lia. destruct (Nat.ltb_spec j i); [lia|].
      destruct (Nat.ltb_spec j (first_inf s)).
      - destruct (nth_error s j); [|discriminate]. injection Hu as <-. auto.
      - eapply (sorted_after_inf _ s j); eauto. }
    split; [|split].
    + intros h j _ Hij _ th tj _ Hj Hn. exfalso. eauto.
    + intros j Hij _ u Hu Hn. exfalso. eauto.
    + exists (mid_of s i). split; [apply kill_dropped; lia|].
      intros u h th Hu Hth Hn. destruct (Nat.lt_ge_cases h i) as [Hh|Hh].
      2:{ rewrite (K h th Hh Hth). eapply nleb_trans; [apply (condv_mono _ i h); auto|].
          rewrite (condv_firstn _ s).
          2:{ unfold kill_slots. apply firstn_three. lia. }
          rewrite <- val_exact by auto.
          rewrite <- Hv. apply np_le_neg; try (apply val_nn; auto; apply mono_nn).
          apply Permutation_sym, (Permutation_in u) in Hperm; auto. apply In_nth_error in Hperm as [ju Hju].
          eapply (reord_sorted pt std acqf argsort Harg _ _ _ Hr 0 ju); eauto. lia. }
      rewrite kill_nth in Hth by lia. destruct (Nat.ltb_spec h i); [|lia].
      rewrite (condv_firstn _ s).
      2:{ apply (firstn_eq_le _ _ i); [|lia]. unfold kill_slots. apply firstn_three. lia. }
      apply nth_in_mid in Hu as Hj. destruct Hj as (j & H1 & H2 & H3).
      eapply (HG h j); eauto. eapply first_inf_below; eauto.
  - pose proof (reord_nonempty pt std acqf argsort Harg _ _ _ _ Hr) as Hne.
    pose proof (reord_perm pt std acqf argsort Harg _ _ _ Hr) as Hperm.
    pose proof (Permutation_length Hperm) as Hp. rewrite mid_length in Hp. pose proof (first_inf_le pt s) as Hfl.
    assert (i <= first_inf s) as Hif by lia.
    pose proof (reorder_length pt std acqf s i _ Hif Hp) as Hrl.
    pose proof (reorder_sorted pt std acqf argsort Harg mono_nn s i _ Hs Hr Hif) as Hrs.
    set (s1 := reorder_slots std acqf s i (t0 :: r)) in *.
    assert (firstn i s1 = firstn i s) as Hf1 by (unfold s1, reorder_slots; apply firstn_three; lia).
    assert (forall h, h <= i -> firstn h s1 = firstn h s) as Hf1h.
    { intros h Hh. eapply firstn_eq_le; eauto. }
    assert (forall h, h < i -> nth_error s1 h = nth_error s h) as Hn1.
    { intros h Hh. eapply firstn_eq_nth; eauto. }
    assert (nth_error s1 i = Some (setc (val std acqf s i t0) t0)) as Hn1i.
    { unfold s1. rewrite reorder_nth by auto. destruct (Nat.ltb_spec i i); [lia|].
      destruct (Nat.ltb_spec i (first_inf s)); [|lia]. rewrite Nat.sub_diag. reflexivity. }
    (* elements from i on come from the middle part *)
    assert (forall j u, i <= j -> nth_error s1 j = Some u -> sc u <> NInf ->
              exists w, In w (mid_of s i) /\ u = setc (val std acqf s i w) w /\
                        nleb (val std acqf s i w) (val std acqf s i t0) = true) as Hmid.
    { intros j u Hij Hu Hn. unfold s1 in Hu. rewrite reorder_nth in Hu by auto.
      destruct (Nat.ltb_spec j i); [lia|]. destruct (Nat.ltb_spec j (first_inf s)).
      - destruct (nth_error (t0 :: r) (j - i)) as [w|] eqn:Ew; [|discriminate].
        simpl in Hu. injection Hu as <-. exists w. split; [|split; auto].
        + eapply Permutation_in; [exact Hperm|]. eapply nth_error_In; eauto.
        + apply np_le_neg; try (apply val_nn; auto; apply mono_nn).
          eapply (reord_sorted pt std acqf argsort Harg _ _ _ Hr 0 (j - i)); eauto. lia.
      - exfalso. apply Hn. eapply (sorted_after_inf _ s j); eauto. }
    assert (In t0 (mid_of s i)) as Hin0.
    { eapply Permutation_in; [exact Hperm|]. left; auto. }
    assert (forall w, In w (mid_of s i) -> val std acqf s i w = condv s i w) as Hex.
    { intros w Hw. apply val_exact; auto. }
    assert (forall h j, h < i -> i <= j -> G s1 h j) as HG1.
    { intros h j Hh Hij th tj Hth Htj Hn. rewrite Hn1 in Hth by auto.
      destruct (Hmid j tj Hij Htj Hn) as (w & Hw & -> & _).
      rewrite (condv_firstn s1 s) by (apply Hf1h; lia). rewrite condv_setc.
      apply nth_in_mid in Hw as Hj'. destruct Hj' as (j' & H1 & H2 & H3).
      eapply (HG h j'); eauto. eapply first_inf_below; eauto. }
    assert (forall j, i <= j -> G s1 i j) as HGi.
    { intros j Hij th tj Hth Htj Hn. rewrite Hn1i in Hth. injection Hth as <-. simpl.
      destruct (Hmid j tj Hij Htj Hn) as (w & Hw & -> & Hle).
      rewrite (condv_firstn s1 s) by (apply Hf1h; lia). rewrite condv_setc, <- Hex by auto. auto. }
    destruct (SR_prefix pt std acqf argsort Harg _ _ _ _ _ _ HS) as (_ & Hpre & _); [lia|].
    rewrite Hrl in IH. destruct IH as (IH1 & IH2 & (dr & Hdp & Hdw)); auto; try lia.
    { intros h j Hh Hij. destruct (Nat.eq_dec h i) as [->|]; [apply HGi; lia|apply HG1; lia]. }
    assert (nth_error s' i = Some (setc (val std acqf s i t0) t0)) as Hn'i.
    { rewrite (firstn_eq_nth _ _ (S i) i Hpre) by lia. auto. }
    split; [|split].
    + intros h j Hh Hij Hhj. destruct (Nat.eq_dec j i) as [->|Hne'].
      * intros th tj Hth Htj Hn.
        rewrite (firstn_eq_nth _ _ (S i) h Hpre) in Hth by lia.
        rewrite (firstn_eq_nth _ _ (S i) i Hpre) in Htj by lia.
        rewrite (condv_firstn s' s1) by (apply (firstn_eq_le _ _ (S i) h Hpre); lia).
        destruct (Nat.eq_dec h i) as [->|]; [eapply (HGi i)|eapply (HG1 h i)]; eauto; lia.
      * apply IH1; lia.
    + intros j Hij Hj. destruct (Nat.eq_dec j i) as [->|Hne'].
      * intros u Hu Hn. rewrite Hn'i in Hu. injection Hu as <-. simpl. rewrite condv_setc.
        rewrite Hex by auto. symmetry. apply condv_firstn.
        rewrite (firstn_eq_le _ _ (S i) i Hpre) by lia. auto.
      * apply IH2; lia.
    + exists (dr ++ filter (fun t => is_ninf (val std acqf s i t)) (t0 :: r)). split.
      * rewrite map_app, app_assoc, Hdp. apply reorder_dropped; auto.
      * intros u h th Hu Hth Hn. apply in_app_or in Hu as [Hu|Hu]; [eapply Hdw; eauto|].
        apply filter_In in Hu as [Hu Hinf']. apply is_ninf_true in Hinf'.
        assert (In u (mid_of s i)) as Hum by (eapply Permutation_in; [exact Hperm|exact Hu]).
        assert (firstn i s' = firstn i s) as Hpi.
        { rewrite (firstn_eq_le _ _ (S i) i Hpre) by lia. auto. }
        destruct (Nat.lt_ge_cases h i) as [Hh|Hh].
        -- rewrite (firstn_eq_nth _ _ i h Hpi) in Hth by auto.
           rewrite (condv_firstn s' s) by (apply (firstn_eq_le _ _ i); auto; lia).
           apply nth_in_mid in Hum as Hj. destruct Hj as (j & H1 & H2 & H3).
           eapply (HG h j); eauto. eapply first_inf_below; eauto.
        -- eapply nleb_trans; [apply (condv_mono s' i h); auto|].
           rewrite (condv_firstn s' s) by auto. rewrite <- Hex, Hinf' by auto. apply ninf_leb.
           pose proof (SR_sorted pt std acqf argsort Harg mono_nn _ _ _ _ _ _ HS Hrs) as Hs'.
           eapply sorted_notnan; eauto.
Qed.

Record InvM (n : nat) s g : Prop := {
  invm_inv : Inv std acqf n s g;
  invm_greedy : forall h j, h <= j -> j < n -> G s h j;
  invm_exact : forall j, j < n -> E s j }.

Lemma rerank_exact n s g c x y : Inv std acqf n s g ->
  forall fuel a i_last L q ac,
  ((L = 0 /\ i_last = n) \/
   (0 < L /\ i_last = L /\ L < n /\ (exists t, nth_error s (L - 1) = Some t /\ nleb a (sc t) = true))) ->
  a = acqf y (std (pts (firstn L s)) x) ->
  (forall h t, h < L -> nth_error s h = Some t ->
     nleb (acqf y (std (pts (firstn h s)) x)) (sc t) = true) ->
  rerank std acqf fuel (of_slots s g c) x y a i_last = Ok (q, ac) ->
  (q < n -> ac = acqf y (std (pts (firstn q s)) x)) /\
  (forall h t, h < q -> nth_error s h = Some t ->
     nleb (acqf y (std (pts (firstn h s)) x)) (sc t) = true).
Proof.
  intros HI. destruct (inv_shape HI) as [Hs Hg].
  induction fuel as [|fuel IH]; intros a i_last L q ac HL Ha HGL Hr; [discriminate|].
  cbn [rerank] in Hr.
  assert (plen (of_slots s g c) = n) as Hpl by (rewrite plen_slots; lia).
  destruct (position_spec (of_slots s g c) a) as (Hq & Hq1 & Hq2).
  { rewrite Hpl. unfold of_slots. simpl. rewrite map_length. lia. }
  rewrite Hpl in *. remember (position (of_slots s g c) a) as p eqn:Ep.
  change (pacqc (of_slots s g c)) with (map sc s) in *.
  change (gcond (of_slots s g c)) with g in Hr.
  assert (L <= p) as HLp.
  { destruct HL as [[-> ->]|(HL0 & -> & HLn & (u & Hu & Hau))]; [lia|].
    destruct (Nat.lt_ge_cases p L) as [Hlt|Hge]; [|lia].
    rewrite (Hq2 (L - 1) (sc u)) in Hau; [discriminate|lia|lia|].
    rewrite nth_error_map, Hu. reflexivity. }
  assert (forall h t, h < p -> nth_error s h = Some t ->
     nleb (acqf y (std (pts (firstn h s)) x)) (sc t) = true) as HGp.
  { intros h t Hh Ht. destruct (Nat.lt_ge_cases h L) as [|HhL]; [apply HGL; auto|].
    destruct Hq1 as [->|(v & Hv & Hav)]; [lia|].
    rewrite nth_error_map in Hv. destruct (nth_error s (p - 1)) as [w|] eqn:Ew; [|discriminate].
    simpl in Hv. injection Hv as <-.
    eapply nleb_trans with a; [|eapply nleb_trans; [exact Hav|eapply (inv_sorted HI h (p - 1)); eauto; lia]].
    rewrite Ha. destruct (firstn_le_app s L h HhL) as [m ->]. unfold pts. rewrite map_app. apply mono. }
  destruct ((p =? 0) || (p =? i_last) || (p =? n)) eqn:Eb.
  { injection Hr as <- <-. split; auto. intros Hqn.
    apply orb_true_iff in Eb as [Eb|E3]; [|apply Nat.eqb_eq in E3; lia].
    assert (p = L) as ->; [|auto].
    apply orb_true_iff in Eb as [E1|E2]; [apply Nat.eqb_eq in E1; lia|].
    apply Nat.eqb_eq in E2. destruct HL as [[-> ->]|(HL0 & -> & HLn & _)]; lia. }
  apply orb_false_iff in Eb as [Eb E3]. apply orb_false_iff in Eb as [E1 E2].
  apply Nat.eqb_neq in E1, E2, E3.
  destruct Hq1 as [Hq1|(v & Hv & Hav)]; [lia|].
  rewrite nth_error_map in Hv. destruct (nth_error s (p - 1)) as [t|] eqn:Et; [|discriminate].
  simpl in Hv. injection Hv as <-.
  assert (sc t <> NInf) as Hocc.
  { intros Ex. rewrite Ex in Hav. apply nleb_ninf in Hav. rewrite Hav in *.
    destruct (nth_error s (n - 1)) as [u|] eqn:Eu.
    - assert (nleb NInf (sc u) = false) as K.
      { apply (Hq2 (n - 1)); try lia. rewrite nth_error_map, Eu. reflexivity. }
      rewrite ninf_leb in K; [discriminate|]. eapply sorted_notnan; [|exact Eu]. apply (inv_sorted HI).
    - apply nth_error_None in Eu. lia. }
  pose proof (inv_cache HI (p - 1) t ltac:(lia) Et Hocc) as Hcache.
  unfold cached in Hcache. replace (S (p - 1)) with p in Hcache by lia.
  unfold get in Hr. rewrite Hcache in Hr. cbn [bind] in Hr.
  assert (nleb (acqf y (std (pts (firstn p s)) x)) a = true) as Hle.
  { rewrite Ha. destruct (firstn_le_app s L p HLp) as [m ->]. unfold pts. rewrite map_app. apply mono. }
  assert (pymin a (acqf y (std (pts (firstn p s)) x)) = acqf y (std (pts (firstn p s)) x)) as Hmin.
  { unfold pymin. destruct (nltb _ a) eqn:En; auto. apply nleb_antisym; auto.
    rewrite nltb_not_leb in En; [apply negb_false_iff in En; auto| |].
    - apply mono_nn.
    - rewrite Ha. apply mono_nn. }
  eapply (IH _ _ p); [| |exact HGp|exact Hr].
  - right. split; [lia|]. split; auto. split; [lia|]. exists t. split; auto. apply pymin_keeps; auto.
  - auto.
Qed.

Lemma add_one_core_invM n s g c x y sg a nn : InvM n s g -> a = acqf y (std [] x) ->
  exists s' g' c', add_one_core std acqf argsort (of_slots s g c) x y sg a nn = Ok (of_slots s' g' c')
    /\ InvM n s' g' /\
    exists dropped, Permutation (contents s' ++ map strip dropped) ((x, y, sg, a) :: contents s) /\
                    worse s' dropped.
Proof.
  intros HM Hacq. pose proof (invm_inv _ _ _ HM) as HI.
  assert (isnan a = false) as Ha by (rewrite Hacq; apply mono_nn).
  destruct (add_one_core_ok pt std acqf argsort Harg mono_nn n s g c x y sg a nn HI Ha)
    as [[H Hwhy]|(q & ac & s2 & g2 & c2 & u & Hqn & Hac & Hnz & Haca & Hpos & Hrr & Hcond & HS & Hu & H)].
  { exists s, g, c. split; auto. split; auto. exists [mkSlot x y sg a NInf]. split.
    - rewrite Permutation_app_comm. reflexivity.
    - intros u h th [<-|[]] Hth Hn. unfold condv. simpl.
      assert (h < n) as Hhn by (destruct (inv_shape HI) as [Hs _]; lia).
      destruct Hwhy as [(v & Hv & Hav)|(ac & Hr)].
      + eapply nleb_trans; [apply (mono [] (pts (firstn h s)))|]. rewrite <- Hacq.
        eapply nleb_trans; [exact Hav|]. eapply (inv_sorted HI h (n - 1)); eauto. lia.
      + destruct (rerank_exact n s g c x y HI (S n) a n 0 n ac) as [_ Hgr]; auto.
        intros; lia. }
  destruct (add_one_core_inv pt std acqf argsort Harg mono_nn n s g c x y sg a nn HI Ha)
    as (s' & g' & c' & H' & HI').
  rewrite H in H'. injection H' as Hx Hy Hss Hsa Hsc Hg' _. exists (upd s2 n (setc NInf u)), g2, c2.
  split; auto.
  assert (s' = upd s2 n (setc NInf u)) as Heq.
  { clear - Hx Hy Hss Hsa Hsc. revert Hx Hy Hss Hsa Hsc. generalize (upd s2 n (setc NInf u)) as l.
    induction s' as [|[x1 y1 s1 a1 c1] s' IH]; intros [|[x2 y2 s2' a2 c2] l] H1 H2 H3 H4 H5; simpl in *; try discriminate; auto.
    injection H1 as -> H1. injection H2 as -> H2. injection H3 as -> H3. injection H4 as -> H4.
    injection H5 as -> H5. f_equal. apply IH; auto. }
  subst s' g'.
  destruct (inv_shape HI) as [Hs Hg].
  set (t := mkSlot x y sg a ac) in *. set (s1 := insert_shift q t s) in *.
  assert (length s1 = S n) as Hs1 by (unfold s1; rewrite insert_length; lia).
  assert (sorted s1) as Hso1 by (eapply (insert_sorted pt std acqf n s g c t); eauto).
  destruct (SR_prefix pt std acqf argsort Harg _ _ _ _ _ _ HS) as (Hl2 & Hpre & Hg2); [lia|].
  destruct (rerank_exact n s g c x y HI (S n) a n 0 q ac) as [Hex Hgr]; auto.
  { intros; lia. }
  specialize (Hex Hqn).
  assert (forall j, j <= q -> firstn j s1 = firstn j s) as Hf1.
  { intros j Hj. unfold s1. apply insert_firstn; lia. }
  assert (forall j, j < q -> nth_error s1 j = nth_error s j) as Hn1.
  { intros j Hj. unfold s1. rewrite insert_nth by lia. destruct (Nat.ltb_spec j q); [auto|lia]. }
  assert (nth_error s1 q = Some t) as Hq1.
  { unfold s1. rewrite insert_nth by lia. rewrite Nat.ltb_irrefl, Nat.eqb_refl. auto. }
  assert (forall j, q < j -> j <= n -> nth_error s1 j = nth_error s (j - 1)) as Hn1'.
  { intros j Hj Hjn. unfold s1. rewrite insert_nth by lia.
    destruct (Nat.ltb_spec j q); [lia|]. destruct (Nat.eqb_spec j q); [lia|].
    destruct (Nat.ltb_spec j (length s)); [auto|lia]. }
  destruct (SR_greedy _ _ _ _ _ _ HS Hso1) as (HG2 & HE2 & (dr & Hdp & Hdw)); try lia.
  { intros h j Hh Hj th tj Hth Htj Hn.
    assert (j < length s1) by (eapply nth_lt; eauto).
    rewrite Hn1' in Htj by lia.
    destruct (Nat.eq_dec h q) as [->|Hhq].
    - rewrite Hq1 in Hth. injection Hth as <-. simpl.
      rewrite (condv_firstn s1 s) by (apply Hf1; lia).
      destruct (nth_error s q) as [tq|] eqn:Etq.
      2:{ apply nth_error_None in Etq. lia. }
      eapply nleb_trans; [eapply (invm_greedy _ _ _ HM q (j - 1)); eauto; lia|].
      pose proof (Hso1 q (S q) t tq ltac:(lia) Hq1) as K. apply K.
      rewrite Hn1' by lia. rewrite <- Etq. f_equal. lia.
    - rewrite Hn1 in Hth by lia. rewrite (condv_firstn s1 s) by (apply Hf1; lia).
      eapply (invm_greedy _ _ _ HM h (j - 1)); eauto; lia. }
  set (s3 := upd s2 n (setc NInf u)) in *.
  assert (forall j, j < n -> nth_error s3 j = nth_error s2 j) as Hn3.
  { intros j Hj. unfold s3. apply upd_other. lia. }
  assert (forall j, j <= n -> firstn j s3 = firstn j s2) as Hf3.
  { intros j Hj. unfold s3. apply upd_firstn. lia. }
  assert (forall j, j <= S q -> firstn j s2 = firstn j s1) as Hf2.
  { intros j Hj. apply (firstn_eq_le _ _ (S q) j Hpre). lia. }
  assert (forall j, j < S q -> nth_error s2 j = nth_error s1 j) as Hn2.
  { intros j Hj. apply (firstn_eq_nth _ _ (S q) j Hpre). lia. }
  split.
  2:{ exists ((if is_ninf (sc u) then [] else [u]) ++ dr). split.
      - assert (Permutation (contents s1) (strip t :: contents s)) as P1.
        { unfold s1, insert_shift. rewrite contents_app, contents_cons.
          unfold t at 1. cbn [sc]. rewrite (proj2 (is_ninf_false ac) Hnz).
          cbn [app]. rewrite <- Permutation_middle. constructor. rewrite <- contents_app.
          assert (exists w, skipn q s = removelast (skipn q s) ++ [w] /\ sc w = NInf) as (w & Ew & Hw).
          { assert (skipn q s <> []) as Hne.
            { intros K. apply (f_equal (@length _)) in K. rewrite skipn_length in K. simpl in K. lia. }
            exists (last (skipn q s) t). split; [apply app_removelast_last; auto|].
            eapply (inv_last HI). 
            rewrite <- (firstn_skipn q s) at 1. rewrite nth_error_app2 by (rewrite firstn_length; lia).
            rewrite (app_removelast_last t Hne) at 1.
            rewrite removelast_firstn', skipn_length, !firstn_length.
            rewrite nth_error_app2 by (rewrite firstn_length, skipn_length; lia).
            rewrite firstn_length, skipn_length.
            replace (n - Nat.min q (length s) - Nat.min (length s - q - 1) (length s - q)) with 0 by lia.
            reflexivity. }
          rewrite <- (firstn_skipn q s) at 3. rewrite Ew at 2. rewrite !contents_app.
          assert (contents [w] = []) as ->.
          { rewrite contents_cons. rewrite Hw. reflexivity. }
          rewrite app_nil_r. reflexivity. }
        assert (Permutation (contents s3 ++ map strip (if is_ninf (sc u) then [] else [u])) (contents s2)) as P2.
        { assert (s2 = firstn n s2 ++ [u]) as E2.
          { rewrite <- (firstn_skipn n s2) at 1. f_equal.
            assert (length (skipn n s2) = 1) as L1 by (rewrite skipn_length; lia).
            destruct (skipn n s2) as [|w [|]] eqn:Esk; try discriminate.
            rewrite <- (firstn_skipn n s2) in Hu. rewrite nth_error_app2 in Hu by (rewrite firstn_length; lia).
            rewrite firstn_length in Hu. replace (n - Nat.min n (length s2)) with 0 in Hu by lia.
            rewrite Esk in Hu. simpl in Hu. congruence. }
          assert (s3 = firstn n s2 ++ [setc NInf u]) as E3.
          { rewrite <- (firstn_skipn n s3). rewrite Hf3 by lia. f_equal.
            assert (length (skipn n s3) = 1) as L1 by (unfold s3; rewrite skipn_length, upd_length; lia).
            assert (nth_error s3 n = Some (setc NInf u)) as Hn by (unfold s3; apply upd_same; lia).
            destruct (skipn n s3) as [|w [|]] eqn:Esk; try discriminate.
            rewrite <- (firstn_skipn n s3) in Hn. rewrite nth_error_app2 in Hn by (rewrite firstn_length; lia).
            rewrite firstn_length in Hn.
            replace (n - Nat.min n (length s3)) with 0 in Hn by (unfold s3; rewrite upd_length; lia).
            rewrite Esk in Hn. simpl in Hn. congruence. }
          rewrite E3. rewrite E2 at 2. rewrite !contents_app, !contents_cons. cbn [sc setc is_ninf].
          destruct (is_ninf (sc u)); cbn; rewrite ?app_nil_r; auto. }
        rewrite map_app, app_assoc, P2, Hdp, P1. reflexivity.
      - intros w h th Hw Hth Hn.
        assert (h < n) as Hhn by (unfold s3 in Hn; rewrite upd_length in Hn; lia).
        rewrite Hn3 in Hth by lia. rewrite (condv_firstn s3 s2) by (apply Hf3; lia).
        apply in_app_or in Hw as [Hw|Hw]; [|eapply Hdw; eauto; lia].
        destruct (is_ninf (sc u)) eqn:Eu; [destruct Hw|destruct Hw as [<-|[]]].
        apply is_ninf_false in Eu. eapply (HG2 h n); eauto; lia. }
  constructor; auto.
  - intros h j Hhj Hjn th tj Hth Htj Hn. rewrite Hn3 in Hth, Htj by lia.
    rewrite (condv_firstn s3 s2) by (apply Hf3; lia).
    destruct (Nat.le_gt_cases (S q) j) as [Hj|Hj].
    + eapply (HG2 h j); eauto; lia.
    + rewrite Hn2 in Hth, Htj by lia. rewrite (condv_firstn s2 s1) by (apply Hf2; lia).
      rewrite (condv_firstn s1 s) by (apply Hf1; lia).
      destruct (Nat.eq_dec j q) as [->|Hjq].
      * rewrite Hq1 in Htj. injection Htj as <-. unfold condv. simpl.
        destruct (Nat.eq_dec h q) as [->|Hhq].
        -- rewrite Hq1 in Hth. injection Hth as <-. simpl. rewrite <- Hex. apply nleb_refl; auto.
        -- rewrite Hn1 in Hth by lia. apply (Hgr h th); auto; lia.
      * rewrite Hn1 in Hth, Htj by lia. eapply (invm_greedy _ _ _ HM h j); eauto.
  - intros j Hjn tj Htj Hn. rewrite Hn3 in Htj by lia.
    rewrite (condv_firstn s3 s2) by (apply Hf3; lia).
    destruct (Nat.le_gt_cases (S q) j) as [Hj|Hj].
    + eapply (HE2 j); eauto; lia.
    + rewrite Hn2 in Htj by lia. rewrite (condv_firstn s2 s1) by (apply Hf2; lia).
      rewrite (condv_firstn s1 s) by (apply Hf1; lia).
      destruct (Nat.eq_dec j q) as [->|Hjq].
      * rewrite Hq1 in Htj. injection Htj as <-. unfold condv. simpl. auto.
      * rewrite Hn1 in Htj by lia. eapply (invm_exact _ _ _ HM j); eauto.
Qed.

End P3.

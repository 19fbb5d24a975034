(** Bulk additions to the ranked pool. *)
From Verif Require Import MPool Argsort PPool PPool2 PPool3.
Set Default Goal Selector "!".

(** np.argmax: the value found is NaN, or it is a largest one and there is no NaN. *)
Lemma argmax_from_spec l : forall pre best bv,
  nth_error pre best = Some bv ->
  (isnan bv = true \/ forall w, In w pre -> nleb w bv = true) ->
  exists v, nth_error (pre ++ l) (argmax_from best bv (length pre) l) = Some v /\
    (isnan v = true \/ forall w, In w (pre ++ l) -> nleb w v = true).
Proof.
  induction l as [|v l IH]; intros pre best bv Hb Hm; simpl.
  - exists bv. rewrite app_nil_r. auto.
  - assert (best < length pre) as Hlt by (apply nth_error_Some; congruence).
    destruct (isnan bv) eqn:En.
    + exists bv. rewrite nth_error_app1 by auto. auto.
    + destruct Hm as [Hm|Hm]; [discriminate|].
      assert (pre ++ v :: l = (pre ++ [v]) ++ l) as Ea by (rewrite <- app_assoc; reflexivity).
      assert (S (length pre) = length (pre ++ [v])) as El by (rewrite app_length; simpl; lia).
      rewrite Ea. rewrite El.
      destruct (isnan v || nltb bv v) eqn:Eb.
      * apply IH.
        -- rewrite nth_error_app2, Nat.sub_diag by lia. reflexivity.
        -- apply orb_true_iff in Eb as [Eb|Eb]; auto.
           destruct (isnan v) eqn:Ev; auto. right. intros w Hw. apply in_app_or in Hw as [Hw|[<-|[]]].
           ++ eapply nleb_trans; [apply Hm; auto|]. apply nltb_leb; auto.
           ++ apply nleb_refl; auto.
      * apply IH.
        -- rewrite nth_error_app1 by auto. auto.
        -- right. intros w Hw. apply in_app_or in Hw as [Hw|[<-|[]]]; auto.
           apply orb_false_iff in Eb as [Ev Eb].
           rewrite nltb_not_leb in Eb by auto. apply negb_false_iff in Eb. auto.
Qed.
Lemma argmax_spec l : l <> [] -> exists i v, argmax l = Ok i /\ nth_error l i = Some v /\
  (isnan v = true \/ forall w, In w l -> nleb w v = true).
Proof.
  destruct l as [|a l]; [congruence|]. intros _. simpl.
  destruct (argmax_from_spec l [a] 0 a eq_refl) as (v & Hv & Hm).
  - destruct (isnan a) eqn:E; auto. right. intros w [<-|[]]. apply nleb_refl; auto.
  - exists (argmax_from 0 a 1 l), v. auto.
Qed.

Lemma mask_upd_perm {A} (f : A -> bool) l : forall i t, nth_error l i = Some t ->
  exists dropped, Permutation l (t :: mask (upd (map f l) i false) l ++ dropped) /\
    (forall x, In x (mask (upd (map f l) i false) l) -> f x = true) /\
    (forall x, In x dropped -> f x = false).
Proof.
  induction l as [|a l IH]; intros [|i] t H; simpl in *; try discriminate.
  - injection H as ->. rewrite mask_map_filter. exists (filter (fun x => negb (f x)) l). repeat split.
    + constructor. clear. induction l as [|a l IH]; simpl; auto. destruct (f a); simpl.
      * constructor; auto.
      * rewrite IH at 1. apply Permutation_middle.
    + intros x Hx. apply filter_In in Hx. tauto.
    + intros x Hx. apply filter_In in Hx as [_ Hx]. apply negb_true_iff in Hx. auto.
  - destruct (IH i t H) as (d & Hp & H1 & H2). destruct (f a) eqn:Ea.
    + exists d. repeat split; auto.
      * rewrite Hp at 1. simpl. apply perm_swap.
      * intros x [<-|Hx]; auto.
    + exists (a :: d). repeat split; auto.
      * rewrite Hp at 1. rewrite perm_swap. constructor.
        set (m := mask (upd (map f l) i false) l). apply Permutation_middle.
      * intros x [<-|Hx]; auto.
Qed.

Lemma bmask_map {A B} (f : A -> B) m l : length m = length l -> bmask m (map f l) = Ok (map f (mask m l)).
Proof.
  intros H. unfold bmask. rewrite map_length, H, Nat.eqb_refl. f_equal.
  revert l H. induction m as [|b m IH]; intros [|x l] H; simpl in *; try discriminate; auto.
  injection H as H. rewrite IH by auto. destruct b; auto.
Qed.

Lemma map2_maps {A B C D} (h : B -> C -> D) (f : A -> B) (g : A -> C) l :
  map2 h (map f l) (map g l) = map (fun x => h (f x) (g x)) l.
Proof. induction l; simpl; f_equal; auto. Qed.

Section P4.
Variable pt : Type.
Variable std : list (pt * num) -> pt -> num.
Variable acqf : num -> num -> num.

(** Acquisition of a candidate for slot [i]. *)
Definition bcond (s : list (slot pt)) (i : nat) (t : slot pt) : num :=
  match i with 0 => sa t | S _ => condv pt std acqf s i t end.
Definition keepm (s : list (slot pt)) i cs im : list bool :=
  upd (map (fun t => negb (is_ninf (bcond s i t))) cs) im false.

Inductive BR : nat -> list (slot pt) -> list (option (list (pt * num))) -> list (slot pt) ->
  list (slot pt) -> list (option (list (pt * num))) -> Prop :=
| BR_nil i s g : BR i s g [] s (cacheg i s g)
| BR_inf i s g cs im t : nth_error cs im = Some t -> bcond s i t = PInf -> BR i s g cs s (cacheg i s g)
| BR_full i s g cs im t : nth_error cs im = Some t ->
    (isnan (bcond s i t) = true \/ forall u, In u cs -> nleb (bcond s i u) (bcond s i t) = true) ->
    bcond s i t <> PInf -> S i = length s - 1 ->
    BR i s g cs (upd s i (setc (bcond s i t) t)) (cacheg i s g)
| BR_rec i s g cs im t s' g' : nth_error cs im = Some t ->
    (isnan (bcond s i t) = true \/ forall u, In u cs -> nleb (bcond s i u) (bcond s i t) = true) ->
    bcond s i t <> PInf -> S i <> length s - 1 ->
    BR (S i) (upd s i (setc (bcond s i t) t)) (cacheg i s g) (mask (keepm s i cs im) cs) s' g' ->
    BR i s g cs s' g'.

Lemma neqb_pinf a : neqb a PInf = true <-> a = PInf.
Proof. destruct a; simpl; split; congruence. Qed.

Lemma set_slots {B} (f : slot pt -> B) (s : list (slot pt)) i t : i < length s ->
  set (map f s) i (f t) = Ok (map f (upd s i t)).
Proof. intros H. rewrite set_map. unfold set. destruct (Nat.ltb_spec i (length s)); [reflexivity|lia]. Qed.

Lemma bulk_ok : forall fuel i s g c cs, length cs < fuel -> length g = length s -> i < length s - 1 ->
  exists s' g' c', add_bulk std acqf fuel (of_slots s g c) (map sx cs) (map sy cs) (map ss cs) (map sa cs) i
                   = Ok (of_slots s' g' c') /\ BR i s g cs s' g'.
Proof.
  induction fuel as [|fuel IH]; intros i s g c cs Hf Hg Hi; [lia|]. cbn [add_bulk].
  destruct (cache_above_slots pt s g c i ltac:(lia)) as (c' & ->). cbn [bind].
  replace (match i with 0 => map sa cs | S _ => map2 acqf (map sy cs) (map (std (pts (firstn i s))) (map sx cs)) end)
    with (map (bcond s i) cs).
  2:{ unfold bcond, condv. destruct i; auto. rewrite map_map, map2_maps. reflexivity. }
  destruct cs as [|t0 cs0].
  { simpl. exists s, (cacheg i s g), c'. split; auto. constructor. }
  set (cs := t0 :: cs0) in *.
  destruct (argmax_spec (map (bcond s i) cs)) as (im & v & Him & Hv & Hm); [discriminate|].
  change (map (bcond s i) cs) with (bcond s i t0 :: map (bcond s i) cs0). cbv iota.
  change (bcond s i t0 :: map (bcond s i) cs0) with (map (bcond s i) cs).
  rewrite Him. cbn [bind]. unfold get. rewrite Hv. cbn [bind].
  rewrite nth_error_map in Hv. destruct (nth_error cs im) as [t|] eqn:Et; [|discriminate].
  simpl in Hv. injection Hv as <-.
  destruct (neqb (bcond s i t) PInf) eqn:Ep.
  { apply neqb_pinf in Ep. exists s, (cacheg i s g), c'. split; auto. eapply BR_inf; eauto. }
  assert (bcond s i t <> PInf) as Ep'. { intros E. apply neqb_pinf in E. congruence. }
  assert (isnan (bcond s i t) = true \/ forall u, In u cs -> nleb (bcond s i u) (bcond s i t) = true) as Hm'.
  { destruct Hm as [Hm|Hm]; auto. right. intros u Hu. apply Hm. apply in_map_iff. eauto. }
  set (t' := setc (bcond s i t) t).
  rewrite !nth_error_map, Et. cbn [option_map bind].
  unfold of_slots at 1 2 3 4 5 6 7 8 9 10 11 12. cbn [pX py psig pacq pacqc gcond counter].
  change (sx t) with (sx t'). rewrite (set_slots sx) by lia. cbn [bind].
  change (sy t) with (sy t'). rewrite (set_slots sy) by lia. cbn [bind].
  change (ss t) with (ss t'). rewrite (set_slots ss) by lia. cbn [bind].
  change (sa t) with (sa t'). rewrite (set_slots sa) by lia. cbn [bind].
  change (bcond s i t) with (sc t') at 1. rewrite (set_slots sc) by lia. cbn [bind].
  match goal with |- context [if S i =? plen ?p then _ else _] =>
    change p with (of_slots (upd s i t') (cacheg i s g) c') end.
  rewrite plen_slots, upd_length.
  destruct (Nat.eqb_spec (S i) (length s - 1)) as [E|E].
  { exists (upd s i t'), (cacheg i s g), c'. split; auto. eapply BR_full; eauto. }
  assert (length (keepm s i cs im) = length cs) as Hkl by (unfold keepm; rewrite upd_length, map_length; auto).
  assert (upd (map (fun c0 => negb (is_ninf c0)) (map (bcond s i) cs)) im false = keepm s i cs im) as ->.
  { unfold keepm. rewrite map_map. reflexivity. }
  rewrite !bmask_map by auto. cbn [bind].
  destruct (mask_upd_perm (fun t => negb (is_ninf (bcond s i t))) cs im t Et) as (d & Hp & _ & _).
  fold (keepm s i cs im) in Hp. apply Permutation_length in Hp. simpl in Hp. rewrite app_length in Hp.
  destruct (IH (S i) (upd s i t') (cacheg i s g) c' (mask (keepm s i cs im) cs)) as (s' & g' & c2 & H1 & H2).
  - change (length cs) with (S (length cs0)) in Hf. lia.
  - rewrite cacheg_length, upd_length; auto.
  - rewrite upd_length. lia.
  - exists s', g', c2. split; [exact H1|]. eapply BR_rec; eauto.
Qed.

Lemma BR_shape i s g cs s' g' : BR i s g cs s' g' -> length s' = length s /\ length g' = length g /\
  firstn i s' = firstn i s.
Proof.
  induction 1 as [| | |? ? ? ? ? ? ? ? ? ? ? ? ? IH]; rewrite ?cacheg_length, ?upd_length; auto.
  - repeat split; auto. apply upd_firstn; lia.
  - destruct IH as (-> & -> & H4). rewrite cacheg_length, upd_length. repeat split; auto.
    assert (firstn i (upd s i (setc (bcond s i t) t)) = firstn i s) as <- by (apply upd_firstn; lia).
    eapply firstn_eq_le; eauto.
Qed.

Lemma BR_contents i s g cs s' g' : BR i s g cs s' g' ->
  subm (contents s') (map strip cs ++ contents s).
Proof.
  induction 1 as [|? ? ? cs|i s g cs im t Hn Hm Hp Hl|i s g cs im t s' g' Hn Hm Hp Hl HB IH].
  - apply subm_refl.
  - exists (map strip cs). apply Permutation_app_comm.
  - eapply subm_trans; [apply upd_contents|]. change (strip (setc (bcond s i t) t)) with (strip t).
    apply (subm_app [strip t]); [|apply subm_refl].
    destruct (nth_error_split _ _ Hn) as (l1 & l2 & -> & _). exists (map strip (l1 ++ l2)).
    rewrite !map_app. simpl. apply Permutation_middle.
  - eapply subm_trans; [exact IH|].
    destruct (mask_upd_perm (fun t => negb (is_ninf (bcond s i t))) cs im t Hn) as (d & Hperm & _ & _).
    fold (keepm s i cs im) in Hperm.
    eapply subm_trans.
    { apply subm_app; [apply subm_refl|apply upd_contents]. }
    change (strip (setc (bcond s i t) t)) with (strip t).
    revert Hperm. generalize (mask (keepm s i cs im) cs) as cs'. intros cs' Hperm.
    exists (map strip d). apply (Permutation_map strip) in Hperm. rewrite Hperm. simpl. rewrite map_app.
    rewrite <- Permutation_middle. simpl. constructor.
    rewrite <- !app_assoc. apply Permutation_app_head. apply Permutation_app_comm.
Qed.

(** The cache after a bulk addition: every occupied slot but the last has its augmented
    surrogate. *)
Lemma BR_cache i s g cs s' g' : BR i s g cs s' g' -> length g = length s -> i < length s - 1 ->
  (forall j, i <= j -> j < length s - 1 -> forall t, nth_error s j = Some t -> sc t = NInf) ->
  (forall j, S j < i -> nth_error g' j = nth_error g j) /\
  (forall j t, i <= S j -> S j < length s - 1 -> nth_error s' j = Some t -> sc t <> NInf -> cached s' g' j).
Proof.
  assert (Hself : forall i (s : list (slot pt)) (g : list (option (list (pt * num)))), length g = length s -> i < length s - 1 -> forall j, S j = i ->
            cached s (cacheg i s g) j).
  { intros i0 s0 g0 Hg Hi j <-. unfold cached, cacheg. rewrite upd_same by lia. reflexivity. }
  induction 1 as [i s g|i s g cs im t Hn Hp|i s g cs im t Hn Hm Hp Hl|i s g cs im t s' g' Hn Hm Hp Hl HB IH];
    intros Hg Hi Hempty.
  - split.
    + intros j Hj. apply cacheg_other. lia.
    + intros j t Hj Hjn Ht Hnt. destruct (Nat.eq_dec (S j) i); [auto|]. exfalso. apply Hnt.
      refine (Hempty j _ _ _ Ht); lia.
  - split.
    + intros j Hj. apply cacheg_other. lia.
    + intros j t' Hj Hjn Ht Hnt. destruct (Nat.eq_dec (S j) i); [auto|]. exfalso. apply Hnt.
      refine (Hempty j _ _ _ Ht); lia.
  - split.
    + intros j Hj. apply cacheg_other. lia.
    + intros j t' Hj Hjn Ht Hnt. destruct (Nat.eq_dec (S j) i) as [E|]; [|lia].
      unfold cached. rewrite upd_firstn by lia. apply (Hself i s g); auto.
  - rewrite cacheg_length, !upd_length in IH.
    destruct IH as [IH1 IH2]; try lia.
    { intros j Hj Hjn u Hu. rewrite upd_other in Hu by lia. refine (Hempty j _ _ _ Hu); lia. }
    destruct (BR_shape _ _ _ _ _ _ HB) as (_ & _ & Hpre).
    split.
    + intros j Hj. rewrite IH1 by lia. apply cacheg_other. lia.
    + intros j u Hj Hjn Hu Hnu. destruct (Nat.eq_dec (S j) i) as [E|].
      * unfold cached. rewrite IH1 by lia.
        rewrite (firstn_eq_le _ _ (S i) (S j) Hpre) by lia. rewrite upd_firstn by lia.
        apply (Hself i s g); auto.
      * apply (IH2 j u); auto; lia.
Qed.

Hypothesis mono : forall C D x y, nleb (acqf y (std (C ++ D) x)) (acqf y (std C x)) = true.

(** The candidates carry their own acquisition, and none of them is +inf. *)
Definition consistent (t : slot pt) : Prop := sa t = acqf (sy t) (std [] (sx t)) /\ sa t <> PInf.

Lemma bcond_condv s i t : consistent t -> bcond s i t = condv pt std acqf s i t.
Proof. intros [H _]. unfold bcond, condv. destruct i; auto. Qed.
Lemma condv_strip s i t u : strip t = strip u -> condv pt std acqf s i t = condv pt std acqf s i u.
Proof. unfold strip, condv. intros H. injection H as -> -> _ _. reflexivity. Qed.
Lemma consistent_strip t u : strip t = strip u -> consistent t -> consistent u.
Proof. unfold strip, consistent. intros H. injection H as -> -> _ ->. auto. Qed.
Lemma cond_not_pinf s i t : consistent t -> condv pt std acqf s i t <> PInf.
Proof.
  intros [H1 H2] E. apply H2. pose proof (condv_mono pt std acqf mono s 0 i t ltac:(lia)) as K.
  rewrite E in K. unfold condv in K. simpl in K. rewrite H1. destruct (acqf _ _); simpl in K; congruence.
Qed.

Lemma skipn_nth {A} (l : list A) i t : nth_error l i = Some t -> skipn i l = t :: skipn (S i) l.
Proof. revert i; induction l as [|x l IH]; intros [|i] H; simpl in *; try discriminate; auto; congruence. Qed.

Lemma nth_error_skipn' {A} (l : list A) : forall n j, nth_error (skipn n l) j = nth_error l (n + j).
Proof. induction l as [|x l IH]; intros [|n] j; simpl; auto. destruct j; auto. Qed.

Record greedy (i : nat) (s' : list (slot pt)) (cs rest : list (slot pt)) : Prop := {
  gr_perm : Permutation (map strip rest ++ contents (skipn i s')) (map strip cs);
  gr_rest : incl rest cs;
  gr_from : forall k t, i <= k -> nth_error s' k = Some t -> sc t <> NInf -> exists w, In w cs /\ strip w = strip t;
  gr_exact : forall k t, i <= k -> nth_error s' k = Some t -> sc t <> NInf -> sc t = condv pt std acqf s' k t;
  gr_max : forall k t, i <= k -> nth_error s' k = Some t -> sc t <> NInf ->
    forall c, In c rest -> nleb (condv pt std acqf s' k c) (sc t) = true;
  gr_max2 : forall k h t u, i <= k -> k <= h -> nth_error s' k = Some t -> sc t <> NInf ->
    nth_error s' h = Some u -> sc u <> NInf -> nleb (condv pt std acqf s' k u) (sc t) = true;
  gr_empty : forall k t, i <= k -> k < length s' - 1 -> nth_error s' k = Some t -> sc t = NInf ->
    (forall c, In c rest -> condv pt std acqf s' k c = NInf) /\
    (forall h u, k <= h -> nth_error s' h = Some u -> sc u = NInf) }.

Lemma BR_greedy i s g cs s' g' : BR i s g cs s' g' -> i < length s - 1 ->
  (forall t, In t cs -> consistent t) ->
  (forall j, i <= j -> forall t, nth_error s j = Some t -> sc t = NInf) ->
  exists rest, greedy i s' cs rest.
Proof.
  assert (Hnone : forall i (s : list (slot pt)), (forall j, i <= j -> forall t, nth_error s j = Some t -> sc t = NInf) ->
            contents (skipn i s) = []).
  { intros i0 s0 H. unfold contents, occ.
    assert (filter (fun t : slot pt => negb (is_ninf (sc t))) (skipn i0 s0) = []) as ->; auto.
    assert (forall t, In t (skipn i0 s0) -> sc t = NInf) as K.
    { intros t Ht. apply In_nth_error in Ht as [j Hj]. rewrite nth_error_skipn' in Hj. eapply (H (i0 + j)); eauto. lia. }
    induction (skipn i0 s0) as [|a l IH]; auto. simpl. rewrite (K a) by (left; auto). simpl. apply IH.
    intros; apply K; right; auto. }
  induction 1 as [i s g|i s g cs im t Hn Hp|i s g cs im t Hn Hm Hp Hl|i s g cs im t s' g' Hn Hm Hp Hl HB IH];
    intros Hi Hcons Hempty.
  - exists []. constructor; try (intros; exfalso; eauto; fail).
    + simpl. rewrite Hnone; auto.
    + intros x [].
    + intros k t Hk _ _ _. split; [intros c []|]. intros h u Hh Hu. eapply Hempty; [|eauto]. lia.
  - exfalso. assert (consistent t) as Ht by (apply Hcons; eapply nth_error_In; eauto).
    rewrite bcond_condv in Hp by auto. apply (cond_not_pinf s i t Ht Hp).
  - (* the last slot *)
    assert (consistent t) as Ht by (apply Hcons; eapply nth_error_In; eauto).
    pose proof (mono_nn pt std acqf mono) as Hnn.
    rewrite bcond_condv in * by auto. destruct Hm as [Hm|Hm].
    { exfalso. unfold condv in Hm. rewrite Hnn in Hm. discriminate. }
    destruct (nth_error_split _ _ Hn) as (l1 & l2 & E & _).
    set (t' := setc (condv pt std acqf s i t) t).
    assert (nth_error (upd s i t') i = Some t') as Hni by (apply upd_same; lia).
    assert (forall j u, i < j -> nth_error (upd s i t') j = Some u -> sc u = NInf) as Hafter.
    { intros j u Hj Hu. rewrite upd_other in Hu by lia. eapply Hempty; [|eauto]. lia. }
    assert (forall u, condv pt std acqf (upd s i t') i u = condv pt std acqf s i u) as Hsame.
    { intros u. apply condv_firstn. apply upd_firstn. lia. }
    assert (skipn i (upd s i t') = t' :: skipn (S i) (upd s i t')) as Hsk by (apply skipn_nth; auto).
    assert (forall u, In u cs -> nleb (condv pt std acqf s i u) (sc t') = true) as Hm2.
    { intros u Hu. rewrite <- bcond_condv by (apply Hcons; auto). apply Hm; auto. }
    destruct (is_ninf (sc t')) eqn:Ein.
    + apply is_ninf_true in Ein.
      assert (forall j, i <= j -> forall u, nth_error (upd s i t') j = Some u -> sc u = NInf) as Hall.
      { intros j Hj u Hu. destruct (Nat.eq_dec i j) as [<-|]; [congruence|]. eapply Hafter; [|eauto]. lia. }
      exists cs. constructor; try (intros; exfalso; eauto; fail).
      * rewrite Hnone, app_nil_r; auto.
      * apply incl_refl.
      * intros k u Hk Hkn Hu _. split.
        -- intros c Hc. rewrite upd_length in Hkn. assert (k = i) as -> by lia. rewrite Hsame. apply nleb_ninf.
           rewrite <- Ein. auto.
        -- intros h v Hh Hv. eapply Hall; [|eauto]. lia.
    + assert (sc t' <> NInf) as Hocc by (apply is_ninf_false; auto).
      assert (forall k u, i <= k -> nth_error (upd s i t') k = Some u -> sc u <> NInf -> k = i /\ u = t') as Honly.
      { intros k u Hk Hu Hnu. destruct (Nat.eq_dec k i) as [->|].
        - split; congruence.
        - exfalso. apply Hnu. eapply Hafter; [|eauto]. lia. }
      assert (incl (l1 ++ l2) cs) as Hincl.
      { rewrite E. intros x Hx. apply in_app_or in Hx. apply in_or_app. simpl. tauto. }
      exists (l1 ++ l2). constructor.
      * rewrite Hsk, contents_cons. rewrite Ein. cbn [negb].
        rewrite Hnone; [|intros j Hj u Hu; eapply Hafter; [|eauto]; lia].
        rewrite E, !map_app. simpl. rewrite <- app_assoc. apply Permutation_app_head.
        rewrite app_nil_r || idtac. apply Permutation_sym. change (strip t') with (strip t).
        apply Permutation_cons_append.
      * auto.
      * intros k u Hk Hu Hnu. destruct (Honly k u Hk Hu Hnu) as [_ ->]. exists t.
        split; [eapply nth_error_In; eauto|reflexivity].
      * intros k u Hk Hu Hnu. destruct (Honly k u Hk Hu Hnu) as [-> ->]. rewrite Hsame. reflexivity.
      * intros k u Hk Hu Hnu c Hc. destruct (Honly k u Hk Hu Hnu) as [-> ->]. rewrite Hsame. auto.
      * intros k h u v Hk Hkh Hu Hnu Hv Hnv. destruct (Honly k u Hk Hu Hnu) as [-> ->].
        destruct (Honly h v ltac:(lia) Hv Hnv) as [-> ->]. rewrite Hsame.
        change (condv pt std acqf s i t') with (sc t'). apply nleb_refl. apply Hnn.
      * intros k u Hk Hkn Hu Hnu. exfalso. rewrite upd_length in Hkn. assert (k = i) as -> by lia. congruence.
  - assert (consistent t) as Ht by (apply Hcons; eapply nth_error_In; eauto).
    pose proof (mono_nn pt std acqf mono) as Hnn.
    rewrite (bcond_condv s i t) in * by auto. destruct Hm as [Hm|Hm].
    { exfalso. unfold condv in Hm. rewrite Hnn in Hm. discriminate. }
    set (t' := setc (condv pt std acqf s i t) t) in *.
    destruct (mask_upd_perm (fun t => negb (is_ninf (bcond s i t))) cs im t Hn) as (d & Hperm & Hkeep & Hdrop).
    fold (keepm s i cs im) in Hperm, Hkeep. set (cs' := mask (keepm s i cs im) cs) in *.
    destruct (BR_shape _ _ _ _ _ _ HB) as (Hl' & _ & Hpre). rewrite upd_length in *.
    assert (incl cs' cs) as Hincl by (apply mask_incl).
    assert (forall u, In u d -> In u cs) as Hincd.
    { intros u Hu. eapply Permutation_in; [symmetry; exact Hperm|]. right. apply in_or_app; auto. }
    destruct IH as (rest & [Gp Gr Gf Ge Gm Gm2 Gem]).
    { lia. }
    { intros u Hu. apply Hcons, Hincl, Hu. }
    { intros j Hj u Hu. rewrite upd_other in Hu by lia. eapply Hempty; [|eauto]. lia. }
    assert (nth_error (upd s i t') i = Some t') as Hni by (apply upd_same; lia).
    assert (nth_error s' i = Some t') as Hni'.
    { rewrite (firstn_eq_nth _ _ (S i) i Hpre) by lia. auto. }
    assert (forall u, condv pt std acqf s' i u = condv pt std acqf s i u) as Hsame.
    { intros u. apply condv_firstn. rewrite (firstn_eq_le _ _ (S i) i Hpre) by lia. apply upd_firstn. lia. }
    assert (skipn i s' = t' :: skipn (S i) s') as Hsk by (apply skipn_nth; auto).
    assert (forall u, In u cs -> nleb (condv pt std acqf s i u) (sc t') = true) as Hm2.
    { intros u Hu. rewrite <- bcond_condv by (apply Hcons; auto). apply Hm; auto. }
    assert (forall u k, In u d -> i <= k -> condv pt std acqf s' k u = NInf) as Hd.
    { intros u k Hu Hk. apply nleb_ninf. eapply nleb_trans; [apply (condv_mono pt std acqf mono s' i k); auto|].
      rewrite Hsame, <- bcond_condv by auto. specialize (Hdrop u Hu). apply negb_false_iff, is_ninf_true in Hdrop.
      rewrite Hdrop. reflexivity. }
    destruct (is_ninf (sc t')) eqn:Ein.
    + apply is_ninf_true in Ein.
      assert (cs' = []) as Hcs'.
      { destruct cs' as [|u cs']; auto. exfalso. specialize (Hkeep u (or_introl eq_refl)).
        specialize (Hm2 u (Hincl u (or_introl eq_refl))). rewrite Ein in Hm2. apply nleb_ninf in Hm2.
        rewrite bcond_condv in Hkeep by (apply Hcons, Hincl; left; auto). rewrite Hm2 in Hkeep. discriminate. }
      rewrite Hcs' in *.
      assert (forall j, i <= j -> forall u, nth_error s' j = Some u -> sc u = NInf) as Hall.
      { intros j Hj u Hu. destruct (Nat.eq_dec i j) as [<-|]; [congruence|].
        destruct (is_ninf (sc u)) eqn:Eu; [apply is_ninf_true; auto|]. exfalso.
        apply is_ninf_false in Eu. destruct (Gf j u ltac:(lia) Hu Eu) as (w & [] & _). }
      exists cs. constructor; try (intros; exfalso; eauto; fail).
      * rewrite Hnone, app_nil_r; auto.
      * apply incl_refl.
      * intros k u Hk Hkn Hu _. split.
        -- intros c Hc. apply nleb_ninf. eapply nleb_trans; [apply (condv_mono pt std acqf mono s' i k); auto|].
           rewrite Hsame, <- Ein. auto.
        -- intros h v Hh Hv. eapply Hall; [|eauto]. lia.
    + assert (sc t' <> NInf) as Hocc by (apply is_ninf_false; auto).
      exists (rest ++ d). constructor.
      * rewrite Hsk, contents_cons, Ein. cbn [negb].
        apply (Permutation_map strip) in Hperm. rewrite Hperm. cbn [map]. rewrite !map_app, <- Gp.
        change (strip t') with (strip t). rewrite <- !app_assoc.
        cbn [app]. rewrite app_assoc, <- Permutation_middle. constructor.
        rewrite <- app_assoc. apply Permutation_app_head. apply Permutation_app_comm.
      * intros u Hu. apply in_app_or in Hu as [Hu|Hu]; auto.
      * intros k u Hk Hu Hnu. destruct (Nat.eq_dec k i) as [->|].
        -- exists t. split; [eapply nth_error_In; eauto|]. rewrite Hni' in Hu. injection Hu as <-. reflexivity.
        -- destruct (Gf k u ltac:(lia) Hu Hnu) as (w & Hw & Hs). eauto.
      * intros k u Hk Hu Hnu. destruct (Nat.eq_dec k i) as [->|].
        -- rewrite Hni' in Hu. injection Hu as <-. rewrite Hsame. reflexivity.
        -- apply Ge; auto; lia.
      * intros k u Hk Hu Hnu c Hc. apply in_app_or in Hc. destruct (Nat.eq_dec k i) as [->|].
        -- rewrite Hni' in Hu. injection Hu as <-. rewrite Hsame. apply Hm2. destruct Hc; auto.
        -- destruct Hc as [Hc|Hc]; [apply (Gm k u); auto; lia|]. rewrite Hd by auto. apply ninf_leb.
           rewrite (Ge k u) by (auto; lia). apply Hnn.
      * intros k h u v Hk Hkh Hu Hnu Hv Hnv. destruct (Nat.eq_dec k i) as [->|].
        -- rewrite Hni' in Hu. injection Hu as <-. rewrite Hsame. destruct (Nat.eq_dec h i) as [->|].
           ++ rewrite Hni' in Hv. injection Hv as <-. change (condv pt std acqf s i t') with (sc t').
              apply nleb_refl. apply Hnn.
           ++ destruct (Gf h v ltac:(lia) Hv Hnv) as (w & Hw & Hs).
              rewrite <- (condv_strip s i w v Hs). auto.
        -- apply (Gm2 k h u v); auto; lia.
      * intros k u Hk Hkn Hu Hnu. destruct (Nat.eq_dec k i) as [->|]; [congruence|].
        destruct (Gem k u) as [G1 G2]; auto; try lia.
        split; auto. intros c Hc. apply in_app_or in Hc as [Hc|Hc]; auto.
Qed.

(** The result of a bulk addition to a fresh pool satisfies the invariant of single additions. *)
Lemma BR_invM s g cs s' g' n : BR 0 s g cs s' g' -> 0 < n -> length s = S n -> length g = S n ->
  (forall t, In t cs -> consistent t) ->
  (forall j t, nth_error s j = Some t -> sc t = NInf) ->
  InvM pt std acqf n s' g'.
Proof.
  intros HB Hn Hs Hg Hcons Hempty. pose proof (mono_nn pt std acqf mono) as Hnn.
  destruct (BR_shape _ _ _ _ _ _ HB) as (Hl' & Hg' & _).
  destruct (BR_greedy _ _ _ _ _ _ HB) as (rest & [Gp Gr Gf Ge Gm Gm2 Gem]); auto; try lia.
  { intros j _ t Ht. eauto. }
  destruct (BR_cache _ _ _ _ _ _ HB) as [_ Hca]; auto; try lia.
  { intros j _ _ t Ht. eauto. }
  assert (forall t, nth_error s' n = Some t -> sc t = NInf) as Hlast.
  { (* slot n is never written *)
    assert (forall i s g cs s' g', BR i s g cs s' g' -> i < length s - 1 ->
              nth_error s' (length s - 1) = nth_error s (length s - 1)) as K.
    { clear. induction 1 as [i s g|i s g cs im t Hn Hp|i s g cs im t Hn Hm Hp Hl|i s g cs im t s' g' Hn Hm Hp Hl HB IH];
        intros Hi; auto.
      - apply upd_other. lia.
      - rewrite upd_length in IH. rewrite IH by lia. apply upd_other. lia. }
    intros t Ht. pose proof (K _ _ _ _ _ _ HB ltac:(lia)) as K'. rewrite Hs in K'. simpl in K'.
    rewrite Nat.sub_0_r in K'. rewrite K' in Ht. eauto. }
  assert (forall j t, nth_error s' j = Some t -> isnan (sc t) = false) as Hnan.
  { intros j t Ht. destruct (is_ninf (sc t)) eqn:E.
    - apply is_ninf_true in E. rewrite E. reflexivity.
    - apply is_ninf_false in E. rewrite (Ge j t) by (auto; lia). apply Hnn. }
  assert (sorted s') as Hso.
  { intros j k t u Hjk Ht Hu. destruct (is_ninf (sc u)) eqn:Eu.
    - apply is_ninf_true in Eu. rewrite Eu. apply ninf_leb. eauto.
    - apply is_ninf_false in Eu. destruct (is_ninf (sc t)) eqn:Et.
      + apply is_ninf_true in Et. exfalso. apply Eu.
        assert (j < S n) by (rewrite <- Hs, <- Hl'; eapply nth_lt; eauto).
        destruct (Nat.eq_dec j n) as [->|].
        * assert (k < S n) by (rewrite <- Hs, <- Hl'; eapply nth_lt; eauto). assert (k = n) as -> by lia.
          eauto.
        * eapply (Gem j t); eauto; lia.
      + apply is_ninf_false in Et. rewrite (Ge k u) by (auto; lia).
        eapply nleb_trans; [apply (condv_mono pt std acqf mono s' j k); auto|].
        eapply (Gm2 j k); eauto; lia. }
  constructor.
  - constructor.
    + split; lia.
    + auto.
    + auto.
    + intros j Hj0 Hjn t Ht Hnt. unfold condv in Ge. rewrite (Ge j t) by (auto; lia). apply nleb_refl. apply Hnn.
    + intros t Ht Hnt. destruct (Gf 0 t ltac:(lia) Ht Hnt) as (w & Hw & Hsw).
      destruct (consistent_strip _ _ Hsw (Hcons w Hw)) as [E _].
      rewrite (Ge 0 t) by (auto; lia). rewrite E. unfold condv. simpl. apply nleb_refl. apply Hnn.
    + intros j t Hj Ht Hnt. apply (Hca j t); auto; lia.
  - intros h j Hhj Hjn th tj Hth Htj Hn'. destruct (is_ninf (sc th)) eqn:Et.
    + apply is_ninf_true in Et. exfalso. apply Hn'. apply nleb_ninf. rewrite <- Et. eapply (Hso h j); eauto.
    + apply is_ninf_false in Et. eapply (Gm2 h j); eauto. lia.
  - intros j Hj t Ht Hnt. apply Ge; auto; lia.
Qed.
End P4.

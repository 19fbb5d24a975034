(** From slots to the arrays and to sequences of calls. *)
From Verif Require Import MPool SPool Argsort PPool PPool2 PPool3 PPool4.
Set Default Goal Selector "!".

Lemma map_repeat' {A B} (f : A -> B) a n : map f (repeat a n) = repeat (f a) n.
Proof. induction n; simpl; f_equal; auto. Qed.

Section P5.
Variable pt : Type.
Variable std : list (pt * num) -> pt -> num.
Variable mean : pt -> num.
Variable acqf : num -> num -> num.
Variable argsort : list num -> list nat.
Hypothesis Harg : argsort_ok argsort.

Definition raw (t : slot pt) := (sx t, sy t, ss t, sa t, sc t).
Lemma slot_at_slots (s : list (slot pt)) g c i : slot_at (of_slots s g c) i = option_map raw (nth_error s i).
Proof.
  unfold slot_at, of_slots. simpl. rewrite !nth_error_map. destruct (nth_error s i); reflexivity.
Qed.
Lemma held_slots (s : list (slot pt)) g c : held (of_slots s g c) = contents s.
Proof.
  unfold held. rewrite (flat_map_ext _ (fun i => match nth_error s i with
     Some t => if is_ninf (sc t) then [] else [strip t] | None => [] end)).
  2:{ intros i. rewrite slot_at_slots. destruct (nth_error s i) as [t|]; auto. simpl.
      destruct (sc t); reflexivity. }
  unfold of_slots. simpl pX. rewrite map_length.
  assert (forall (l : list (slot pt)) (pre : list (slot pt)),
    flat_map (fun i => match nth_error (pre ++ l) i with
      Some t => if is_ninf (sc t) then [] else [strip t] | None => [] end) (seq (length pre) (length l)) = contents l) as K.
  { induction l as [|t l IH]; intros pre; auto. cbn [length seq flat_map].
    rewrite nth_error_app2, Nat.sub_diag by lia. cbn [nth_error]. rewrite contents_cons. f_equal.
    replace (pre ++ t :: l) with ((pre ++ [t]) ++ l) by (rewrite <- app_assoc; reflexivity).
    replace (S (length pre)) with (length (pre ++ [t])) by (rewrite app_length; simpl; lia). apply IH. }
  apply (K s []).
Qed.
Lemma above_slots (s : list (slot pt)) g c i : above (of_slots s g c) i = pts (firstn i s).
Proof. unfold above, of_slots, pts. simpl. rewrite combine_map2. apply firstn_map. Qed.

Lemma new_pool_slots (x0 : pt) n : new_pool x0 n = of_slots (repeat (mkSlot x0 (Fin 0) (Fin 0) (Fin 0) NInf) (S n)) (repeat None (S n)) 0.
Proof.
  unfold new_pool, of_slots. rewrite !map_repeat'. reflexivity.
Qed.
Lemma nth_repeat_some {A} (a : A) n j t : nth_error (repeat a n) j = Some t -> t = a.
Proof. intros H. apply nth_error_In, repeat_spec in H. auto. Qed.
Lemma new_inv x0 n : Inv std acqf n (repeat (mkSlot x0 (Fin 0) (Fin 0) (Fin 0) NInf) (S n)) (repeat None (S n)).
Proof.
  constructor.
  - split; apply repeat_length.
  - intros i j t u _ Ht Hu. apply nth_repeat_some in Ht, Hu. subst. reflexivity.
  - intros t Ht. apply nth_repeat_some in Ht. subst. reflexivity.
  - intros j _ _ t Ht Hn. apply nth_repeat_some in Ht. subst. simpl in Hn. congruence.
  - intros t Ht Hn. apply nth_repeat_some in Ht. subst. simpl in Hn. congruence.
  - intros j t _ Ht Hn. apply nth_repeat_some in Ht. subst. simpl in Hn. congruence.
Qed.
Lemma new_invM x0 n : InvM pt std acqf n (repeat (mkSlot x0 (Fin 0) (Fin 0) (Fin 0) NInf) (S n)) (repeat None (S n)).
Proof.
  constructor.
  - apply new_inv.
  - intros h j _ _ t u _ Hu Hn. apply nth_repeat_some in Hu. subst. simpl in Hn. congruence.
  - intros j _ t Ht Hn. apply nth_repeat_some in Ht. subst. simpl in Hn. congruence.
Qed.

Lemma add_one_eq p x y sg a nn :
  add_one std mean acqf argsort p x y sg (Some a) nn =
  let '(m, s) := filled std mean x y sg in add_one_core std acqf argsort p x m s a nn.
Proof.
  unfold add_one. assert (forall m s, (do mn <- min_acq p; if nleb a mn then Ok p else add_one_core std acqf argsort p x m s a nn)
    = add_one_core std acqf argsort p x m s a nn) as K.
  { intros m s. unfold add_one_core. destruct (min_acq p) as [mn|]; simpl; auto. destruct (nleb a mn); auto. }
  unfold filled. destruct y, sg; apply K.
Qed.

Lemma add_one_nan n s g c x y sg a : Inv std acqf n s g -> isnan a = true ->
  add_one_core std acqf argsort (of_slots s g c) x y sg a true = Ok (of_slots s g c).
Proof.
  intros HI Ha. destruct (inv_shape HI) as [Hs Hg]. unfold add_one_core.
  assert (plen (of_slots s g c) = n) as Hpl by (rewrite plen_slots; lia). rewrite Hpl.
  destruct (min_acq (of_slots s g c)) as [mn|] eqn:Em.
  2:{ unfold min_acq in Em. change (pacqc (of_slots s g c)) with (map sc s) in Em.
      destruct (nth_error (map sc s) _) eqn:E; [discriminate|]. apply nth_error_None in E.
      rewrite map_length, Hpl in E. lia. }
  simpl. rewrite Ha. destruct (nleb a mn); auto. simpl.
  assert (position (of_slots s g c) NInf = n) as Hp.
  { destruct (position_spec (of_slots s g c) NInf) as (H1 & _ & H3).
    { rewrite Hpl. unfold of_slots. simpl. rewrite map_length. lia. }
    rewrite Hpl in *. destruct (Nat.eq_dec (position (of_slots s g c) NInf) n) as [|Hne]; auto.
    destruct (nth_error s (n - 1)) as [u|] eqn:Eu.
    - assert (nleb NInf (sc u) = false) as K.
      { apply (H3 (n - 1)); try lia. change (pacqc (of_slots s g c)) with (map sc s). rewrite nth_error_map, Eu. reflexivity. }
      rewrite ninf_leb in K; [discriminate|]. eapply sorted_notnan; [apply (inv_sorted HI)|eauto].
    - apply nth_error_None in Eu. lia. }
  rewrite Hp, Nat.eqb_refl, Hpl, Nat.eqb_refl, !orb_true_r. simpl. rewrite Nat.leb_refl. reflexivity.
Qed.

(** ** Contents *)
Lemma add_one_slots n s g c x y sg a nn p' : shaped n s g ->
  add_one std mean acqf argsort (of_slots s g c) x y sg a nn = Ok p' ->
  exists s' g' c', p' = of_slots s' g' c' /\ shaped n s' g' /\
    subm (contents s') (offered std mean acqf (AddOne x y sg a nn) ++ contents s).
Proof.
  intros Hs H. destruct a as [a|]; [|discriminate]. rewrite add_one_eq in H. unfold offered.
  destruct (filled std mean x y sg) as [m sd].
  apply (add_one_core_slots pt std acqf argsort Harg n) in H; auto.
Qed.

(** Resolved arrays of [add]. *)
Definition arrays (X : list pt) (y sg acq : option (list num)) : list num * list num * list num :=
  let '(y, sg) :=
    match y, sg with
    | None, _ => (map mean X, map (std []) X)
    | Some y', None => (y', map (std []) X)
    | Some y', Some s' => (y', s')
    end in
  (y, sg, match acq with None => map2 acqf y sg | Some a => a end).

Definition tuple_slots (l : list (pt * num * num * num)) : list (slot pt) :=
  map (fun e => let '(x, y, s, a) := e in mkSlot x y s a NInf) l.
Lemma tuple_strip l : map strip (tuple_slots l) = l.
Proof. unfold tuple_slots. rewrite map_map. rewrite <- (map_id l) at 2. apply map_ext. intros [[[x y] s] a]. reflexivity. Qed.

Lemma offer_arrays X : forall y sg acq y' sg' acq' i,
  (forall j, nth_error y' j = match y with Some k => nth_error k (i + j) | None => option_map mean (nth_error X j) end) ->
  (forall j, nth_error sg' j = match y, sg with Some _, Some k => nth_error k (i + j) | _, _ => option_map (std []) (nth_error X j) end) ->
  (forall j, nth_error acq' j = match acq with Some k => nth_error k (i + j) | None => nth_error (map2 acqf y' sg') j end) ->
  length y' = length X -> length sg' = length X -> length acq' = length X ->
  let cs := tuple_slots (offer_many std mean acqf X y sg acq i) in
  map sx cs = X /\ map sy cs = y' /\ map ss cs = sg' /\ map sa cs = acq'.
Proof.
  induction X as [|x X IH]; intros y sg acq y' sg' acq' i H1 H2 H3 L1 L2 L3 cs.
  - destruct y', sg', acq'; try discriminate. repeat split; reflexivity.
  - destruct y' as [|y0 y'], sg' as [|s0 sg'], acq' as [|a0 acq']; try discriminate.
    unfold cs. cbn [offer_many].
    pose proof (H1 0) as A1. pose proof (H2 0) as A2. pose proof (H3 0) as A3.
    rewrite Nat.add_0_r in A1, A2, A3. cbn in A1, A2, A3.
    assert (filled std mean x (nth_opt y i) (nth_opt sg i) = (y0, s0)) as Ef.
    { unfold filled, nth_opt. destruct y as [ky|]; [|simpl in *; congruence].
      rewrite <- A1. destruct sg as [ks|]; [rewrite <- A2; auto|]. congruence. }
    rewrite Ef.
    assert (match nth_opt acq i with Some a => a | None => acqf y0 s0 end = a0) as Ea.
    { unfold nth_opt. destruct acq as [ka|]; [rewrite <- A3; auto|congruence]. }
    rewrite Ea.
    destruct (IH y sg acq y' sg' acq' (S i)) as (B1 & B2 & B3 & B4); auto.
    + intros j. specialize (H1 (S j)). simpl in H1. rewrite H1. destruct y; auto. f_equal. lia.
    + intros j. specialize (H2 (S j)). simpl in H2. rewrite H2. destruct y, sg; auto. f_equal. lia.
    + intros j. specialize (H3 (S j)). simpl in H3. rewrite H3. destruct acq; auto. f_equal. lia.
    + simpl. rewrite B1, B2, B3, B4. auto.
Qed.

Lemma map2_length {A B C} (f : A -> B -> C) l : forall k, length l = length k -> length (map2 f l k) = length l.
Proof. induction l as [|a l IH]; intros [|b k] H; simpl in *; try discriminate; auto. Qed.

Lemma offered_arrays X y sg acq m : well_formed (AddMany X y sg acq m) ->
  let cs := tuple_slots (offered std mean acqf (AddMany X y sg acq m)) in
  arrays X y sg acq = (map sy cs, map ss cs, map sa cs) /\ map sx cs = X.
Proof.
  intros (L1 & L2 & L3) cs. unfold arrays.
  destruct (match y, sg with None, _ => _ | _, _ => _ end) as [y' sg'] eqn:E.
  assert ((forall j, nth_error y' j = match y with Some k => nth_error k (0 + j) | None => option_map mean (nth_error X j) end) /\
          (forall j, nth_error sg' j = match y, sg with Some _, Some k => nth_error k (0 + j) | _, _ => option_map (std []) (nth_error X j) end) /\
          length y' = length X /\ length sg' = length X) as (A1 & A2 & A3 & A4).
  { destruct y as [ky|]; [destruct sg as [ks|]|]; injection E as <- <-; simpl in *; rewrite ?map_length; repeat split; auto;
      intros; rewrite ?nth_error_map; auto. }
  destruct (offer_arrays X y sg acq y' sg' (match acq with None => map2 acqf y' sg' | Some a => a end) 0) as (B1 & B2 & B3 & B4); auto.
  - intros j. destruct acq; auto.
  - destruct acq; auto. rewrite map2_length; congruence.
  - fold cs in B1, B2, B3, B4. unfold cs, offered in *. rewrite B2, B3, B4. auto.
Qed.

Lemma add_eq p X y sg acq m : well_formed (AddMany X y sg acq m) ->
  let cs := tuple_slots (offered std mean acqf (AddMany X y sg acq m)) in
  add std mean acqf argsort p X y sg acq m =
  match m with
  | Bulk => add_bulk std acqf (S (length cs)) p (map sx cs) (map sy cs) (map ss cs) (map sa cs) 0
  | Single => add_each std mean acqf argsort p (map sx cs) (map sy cs) (map ss cs) (map sa cs) (seq 0 (length cs))
  | SortAcq => add_each std mean acqf argsort p (map sx cs) (map sy cs) (map ss cs) (map sa cs) (rev (argsort (map sa cs)))
  | SortY => add_each std mean acqf argsort p (map sx cs) (map sy cs) (map ss cs) (map sa cs) (rev (argsort (map sy cs)))
  | SortOther => Err KeyError
  | Unknown => Err ValueError
  end.
Proof.
  intros Hw cs. destruct (offered_arrays X y sg acq m Hw) as [Ha Hx]. fold cs in Ha, Hx.
  unfold add. unfold arrays in Ha.
  destruct (match y, sg with None, _ => _ | _, _ => _ end) as [y' sg']. injection Ha as -> -> Ha.
  rewrite Ha, Hx. rewrite map_length.
  assert (length X = length cs) as -> by (rewrite <- Hx, map_length; auto). reflexivity.
Qed.

Lemma add_each_cons p (cs : list (slot pt)) i idx :
  add_each std mean acqf argsort p (map sx cs) (map sy cs) (map ss cs) (map sa cs) (i :: idx) =
  match nth_error cs i with
  | None => Err IndexError
  | Some t => do p' <- add_one_core std acqf argsort p (sx t) (sy t) (ss t) (sa t) false;
              add_each std mean acqf argsort p' (map sx cs) (map sy cs) (map ss cs) (map sa cs) idx
  end.
Proof.
  cbn [add_each]. unfold get. rewrite !nth_error_map. destruct (nth_error cs i) as [t|]; auto.
  cbn [option_map bind]. rewrite add_one_eq. reflexivity.
Qed.

(** Any property preserved by single additions of the candidates is preserved by [add_each]. *)
Lemma add_each_ind (cs : list (slot pt)) (P : list (slot pt) -> list (option (list (pt * num))) -> list nat -> Prop) :
  (forall s g c i idx t p', P s g (i :: idx) -> nth_error cs i = Some t ->
     add_one_core std acqf argsort (of_slots s g c) (sx t) (sy t) (ss t) (sa t) false = Ok p' ->
     exists s' g' c', p' = of_slots s' g' c' /\ P s' g' idx) ->
  forall idx s g c p', P s g idx ->
  add_each std mean acqf argsort (of_slots s g c) (map sx cs) (map sy cs) (map ss cs) (map sa cs) idx = Ok p' ->
  exists s' g' c', p' = of_slots s' g' c' /\ P s' g' [].
Proof.
  intros Hstep. induction idx as [|i idx IH]; intros s g c p' HP H.
  - injection H as <-. eauto.
  - rewrite add_each_cons in H. destruct (nth_error cs i) as [t|] eqn:Et; [|discriminate].
    destruct (add_one_core _ _ _ _ _ _ _ _ _) as [q|] eqn:Eq; [|discriminate]. cbn [bind] in H.
    destruct (Hstep _ _ _ _ _ _ _ HP Et Eq) as (s' & g' & c' & -> & HP'). eauto.
Qed.

Definition at_idx (cs : list (slot pt)) (idx : list nat) : list (slot pt) :=
  flat_map (fun i => match nth_error cs i with Some t => [t] | None => [] end) idx.
Lemma at_idx_perm cs idx : Permutation idx (seq 0 (length cs)) -> Permutation (at_idx cs idx) cs.
Proof.
  intros H. unfold at_idx. rewrite (Permutation_flat_map _ H). clear H.
  assert (forall l pre : list (slot pt), flat_map (fun i => match nth_error (pre ++ l) i with Some t => [t] | None => [] end)
     (seq (length pre) (length l)) = l) as K.
  { induction l as [|t l IH]; intros pre; auto. cbn [length seq flat_map].
    rewrite nth_error_app2, Nat.sub_diag by lia. simpl. f_equal.
    replace (pre ++ t :: l) with ((pre ++ [t]) ++ l) by (rewrite <- app_assoc; reflexivity).
    replace (S (length pre)) with (length (pre ++ [t])) by (rewrite app_length; simpl; lia). apply IH. }
  pose proof (K cs []) as K0. cbn [app length] in K0. rewrite K0. reflexivity.
Qed.

Lemma add_each_contents n cs idx s g c p' : shaped n s g -> Permutation idx (seq 0 (length cs)) ->
  add_each std mean acqf argsort (of_slots s g c) (map sx cs) (map sy cs) (map ss cs) (map sa cs) idx = Ok p' ->
  exists s' g' c', p' = of_slots s' g' c' /\ shaped n s' g' /\
    subm (contents s') (map strip cs ++ contents s).
Proof.
  intros Hs Hp H.
  pose (P := fun (s' : list (slot pt)) (g' : list (option (list (pt * num)))) idx' => shaped n s' g' /\
     subm (contents s' ++ map strip (at_idx cs idx')) (contents s ++ map strip (at_idx cs idx))).
  cut (exists s' g' c', p' = of_slots s' g' c' /\ P s' g' []).
  { intros (s' & g' & c' & -> & Hs' & Hc).
    exists s', g', c'. split; auto. split; auto. cbn in Hc. rewrite app_nil_r in Hc.
    eapply subm_trans; [exact Hc|]. apply subm_perm. rewrite Permutation_app_comm.
    apply Permutation_app_tail, Permutation_map, at_idx_perm; auto. }
  refine (add_each_ind cs P _ idx s g c p' _ H).
  - intros s1 g1 c1 i idx' t p1 [Hs1 Hc1] Et Hadd.
    destruct (add_one_core_slots pt std acqf argsort Harg n _ _ _ _ _ _ _ _ _ Hs1 Hadd) as (s2 & g2 & c2 & -> & Hs2 & Hc2).
    exists s2, g2, c2. split; auto. split; auto.
    eapply subm_trans; [|exact Hc1]. unfold at_idx at 2. cbn [flat_map]. rewrite Et. cbn [app map].
    fold (at_idx cs idx').
    eapply subm_trans; [apply subm_app; [exact Hc2|apply subm_refl]|]. apply subm_perm.
    cbn [app]. apply Permutation_middle.
  - split; auto. apply subm_refl.
Qed.

Lemma idx_perm_sort (l : list num) (cs : list (slot pt)) : length l = length cs ->
  Permutation (rev (argsort l)) (seq 0 (length cs)).
Proof. intros H. destruct (Harg l) as [P _]. rewrite <- Permutation_rev, P, H. reflexivity. Qed.

Lemma step_contents n s g c o p' : 0 < n -> shaped n s g -> well_formed o ->
  step std mean acqf argsort (of_slots s g c) o = Ok p' ->
  exists s' g' c', p' = of_slots s' g' c' /\ shaped n s' g' /\
    subm (contents s') (offered std mean acqf o ++ contents s).
Proof.
  intros Hn Hs Hw H. destruct o as [x y sg a nn|X y sg acq m].
  - eapply add_one_slots; eauto.
  - cbn [step] in H. rewrite add_eq in H by auto. cbv zeta in H.
    set (off := offered std mean acqf (AddMany X y sg acq m)) in *.
    pose proof (tuple_strip off) as Es. set (cs := tuple_slots off) in *. clearbody cs. clearbody off. subst off.
    destruct m; try discriminate.
    + destruct Hs as [Hs Hg].
      destruct (bulk_ok pt std acqf (S (length cs)) 0 s g c cs) as (s' & g' & c' & E & HB); [lia|lia|lia|].
      rewrite E in H. injection H as <-. exists s', g', c'. split; auto.
      destruct (BR_shape _ _ _ _ _ _ _ _ _ HB) as (A1 & A2 & _). split; [split; lia|].
      eapply BR_contents; eauto.
    + eapply add_each_contents; eauto.
    + eapply add_each_contents; [exact Hs| |exact H]. apply idx_perm_sort, map_length.
    + eapply add_each_contents; [exact Hs| |exact H]. apply idx_perm_sort, map_length.
Qed.

Lemma run_contents n ops : 0 < n -> Forall well_formed ops -> forall s g c p', shaped n s g ->
  run std mean acqf argsort (of_slots s g c) ops = Ok p' ->
  exists s' g' c', p' = of_slots s' g' c' /\ shaped n s' g' /\
    subm (contents s') (flat_map (offered std mean acqf) ops ++ contents s).
Proof.
  intros Hn Hw. induction Hw as [|o ops Ho Hops IH]; intros s g c p' Hs H.
  - injection H as <-. exists s, g, c. split; auto. split; auto. apply subm_refl.
  - cbn [run] in H. destruct (step _ _ _ _ _ _) as [q|] eqn:Eq; [|discriminate]. cbn [bind] in H.
    destruct (step_contents n s g c o q Hn Hs Ho Eq) as (s1 & g1 & c1 & -> & Hs1 & Hc1).
    destruct (IH _ _ _ _ Hs1 H) as (s2 & g2 & c2 & -> & Hs2 & Hc2). exists s2, g2, c2.
    split; auto. split; auto. cbn [flat_map]. eapply subm_trans; [exact Hc2|].
    eapply subm_trans; [apply subm_app; [apply subm_refl|exact Hc1]|].
    apply subm_perm. rewrite !app_assoc. apply Permutation_app_tail. apply Permutation_app_comm.
Qed.

(** ** Invariants over sequences of additions one by one *)
Section NN.
Hypothesis acqf_nn : forall C x y, isnan (acqf y (std C x)) = false.
Lemma core_inv n s g c x y sg a nn p' : Inv std acqf n s g ->
  add_one_core std acqf argsort (of_slots s g c) x y sg a nn = Ok p' ->
  exists s' g' c', p' = of_slots s' g' c' /\ Inv std acqf n s' g'.
Proof.
  intros HI H. destruct (isnan a) eqn:Ea.
  - destruct nn.
    + rewrite (add_one_nan n) in H by auto. injection H as <-. eauto.
    + unfold add_one_core in H. destruct (min_acq _) as [mn|]; [|discriminate]. cbn [bind] in H.
      rewrite Ea in H. destruct a; try discriminate Ea. simpl in H. discriminate.
  - destruct (add_one_core_inv pt std acqf argsort Harg acqf_nn n s g c x y sg a nn HI Ea) as (s' & g' & c' & E & HI').
    rewrite E in H. injection H as <-. eauto.
Qed.

Lemma step_inv n s g c o p' : Inv std acqf n s g -> one_by_one o -> well_formed o ->
  step std mean acqf argsort (of_slots s g c) o = Ok p' ->
  exists s' g' c', p' = of_slots s' g' c' /\ Inv std acqf n s' g'.
Proof.
  intros HI Ho Hw H. destruct o as [x y sg a nn|X y sg acq m].
  - destruct a as [a|]; [|discriminate]. cbn [step] in H. rewrite add_one_eq in H.
    destruct (filled std mean x y sg). eapply core_inv; eauto.
  - cbn [step] in H. rewrite add_eq in H by auto. cbv zeta in H.
    set (cs := tuple_slots _) in *.
    assert (forall idx, add_each std mean acqf argsort (of_slots s g c) (map sx cs) (map sy cs) (map ss cs) (map sa cs) idx = Ok p' ->
      exists s' g' c', p' = of_slots s' g' c' /\ Inv std acqf n s' g') as K.
    { intros idx Hidx. eapply (add_each_ind cs (fun s' g' _ => Inv std acqf n s' g')); eauto.
      intros. eapply core_inv; eauto. }
    destruct m; try discriminate; eauto. destruct Ho.
Qed.
Lemma run_inv n ops : Forall one_by_one ops -> Forall well_formed ops -> forall s g c p', Inv std acqf n s g ->
  run std mean acqf argsort (of_slots s g c) ops = Ok p' ->
  exists s' g' c', p' = of_slots s' g' c' /\ Inv std acqf n s' g'.
Proof.
  induction 1 as [|o ops Ho Hops IH]; intros Hw s g c p' HI H.
  - injection H as <-. eauto.
  - inversion Hw; subst. cbn [run] in H. destruct (step _ _ _ _ _ _) as [q|] eqn:Eq; [|discriminate]. cbn [bind] in H.
    destruct (step_inv n s g c o q) as (s1 & g1 & c1 & -> & HI1); auto. eauto.
Qed.
End NN.

Section Mono.
Hypothesis mono : forall C D x y, nleb (acqf y (std (C ++ D) x)) (acqf y (std C x)) = true.

Lemma step_invM n s g c o p' : InvM pt std acqf n s g -> one_by_one o -> well_formed o ->
  own_acquisition std mean acqf o ->
  step std mean acqf argsort (of_slots s g c) o = Ok p' ->
  exists s' g' c', p' = of_slots s' g' c' /\ InvM pt std acqf n s' g'.
Proof.
  intros HI Ho Hw Hown H. destruct o as [x y sg a nn|X y sg acq m].
  - destruct a as [a|]; [|discriminate]. cbn [step] in H. rewrite add_one_eq in H.
    unfold own_acquisition, offered in Hown. destruct (filled std mean x y sg) as [m sd].
    destruct (add_one_core_invM pt std acqf argsort Harg mono n s g c x m sd a nn HI) as (s' & g' & c' & E & HI' & _).
    { apply (Hown x m sd a). left. auto. }
    rewrite E in H. injection H as <-. eauto.
  - cbn [step] in H. rewrite add_eq in H by auto. cbv zeta in H.
    assert (forall t, In t (tuple_slots (offered std mean acqf (AddMany X y sg acq m))) -> sa t = acqf (sy t) (std [] (sx t))) as Hc.
    { intros t Ht. apply in_map_iff in Ht as ([[[x' y'] s'] a'] & <- & Hin). apply (Hown _ _ _ _ Hin). }
    set (cs := tuple_slots _) in *.
    assert (forall idx, add_each std mean acqf argsort (of_slots s g c) (map sx cs) (map sy cs) (map ss cs) (map sa cs) idx = Ok p' ->
      exists s' g' c', p' = of_slots s' g' c' /\ InvM pt std acqf n s' g') as K.
    { intros idx Hidx. eapply (add_each_ind cs (fun s' g' _ => InvM pt std acqf n s' g')); eauto.
      intros s1 g1 c1 i idx1 t p1 HP Et Eadd.
      destruct (add_one_core_invM pt std acqf argsort Harg mono n s1 g1 c1 (sx t) (sy t) (ss t) (sa t) false HP) as (s' & g' & c' & E & HI' & _).
      { apply Hc. eapply nth_error_In; eauto. }
      rewrite E in Eadd. injection Eadd as <-. eauto. }
    destruct m; try discriminate; eauto. destruct Ho.
Qed.
Lemma run_invM n ops : Forall one_by_one ops -> Forall well_formed ops -> Forall (own_acquisition std mean acqf) ops ->
  forall s g c p', InvM pt std acqf n s g ->
  run std mean acqf argsort (of_slots s g c) ops = Ok p' ->
  exists s' g' c', p' = of_slots s' g' c' /\ InvM pt std acqf n s' g'.
Proof.
  induction 1 as [|o ops Ho Hops IH]; intros Hw Hown s g c p' HI H.
  - injection H as <-. eauto.
  - inversion Hw; inversion Hown; subst. cbn [run] in H. destruct (step _ _ _ _ _ _) as [q|] eqn:Eq; [|discriminate]. cbn [bind] in H.
    destruct (step_invM n s g c o q) as (s1 & g1 & c1 & -> & HI1); auto. eauto.
Qed.

(** Bulk addition to a fresh pool. *)
Lemma bulk_new x0 n X y sg acq : 0 < n -> well_formed (AddMany X y sg acq Bulk) ->
  own_acquisition std mean acqf (AddMany X y sg acq Bulk) ->
  exists s' g' c', step std mean acqf argsort (new_pool x0 n) (AddMany X y sg acq Bulk) = Ok (of_slots s' g' c') /\
    InvM pt std acqf n s' g' /\
    exists rest, greedy pt std acqf 0 s' (tuple_slots (offered std mean acqf (AddMany X y sg acq Bulk))) rest.
Proof.
  intros Hn Hw Hown. cbn [step]. rewrite add_eq by auto. cbv zeta.
  assert (forall t, In t (tuple_slots (offered std mean acqf (AddMany X y sg acq Bulk))) -> consistent pt std acqf t) as Hc.
  { intros t Ht. apply in_map_iff in Ht as ([[[x' y'] s'] a'] & <- & Hin). apply (Hown _ _ _ _ Hin). }
  set (cs := tuple_slots _) in *. rewrite new_pool_slots.
  set (s0 := repeat _ (S n)). set (g0 := repeat _ (S n)).
  assert (length s0 = S n) as L1 by apply repeat_length. assert (length g0 = S n) as L2 by apply repeat_length.
  destruct (bulk_ok pt std acqf (S (length cs)) 0 s0 g0 0 cs) as (s' & g' & c' & E & HB); [lia|lia|lia|].
  assert (forall j t, nth_error s0 j = Some t -> sc t = NInf) as He.
  { intros j t Ht. apply nth_repeat_some in Ht. subst. reflexivity. }
  exists s', g', c'. split; auto. split.
  - eapply (BR_invM pt std acqf mono s0 g0 cs); eauto.
  - eapply (BR_greedy pt std acqf mono); eauto. lia.
Qed.
End Mono.
End P5.

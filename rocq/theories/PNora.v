(** Lemmas about the ranking of a sample by NORA. *)
From Verif Require Import Base Num MTools MMpi PMpi MPool SPool Argsort PPool PPool2 PPool3 PPool4 PPool5 MNora.
Set Default Goal Selector "!".

(** The arrays passed to [add] as rows. *)
Lemma offer_rows {pt T} std mean acqf (fx : T -> pt) (fy fs fa : T -> num) (R : list T) : forall y sg a i,
  (forall j, nth_error y (i + j) = nth_error (map fy R) j) ->
  (forall j, nth_error sg (i + j) = nth_error (map fs R) j) ->
  (forall j, nth_error a (i + j) = nth_error (map fa R) j) ->
  offer_many std mean acqf (map fx R) (Some y) (Some sg) (Some a) i = map (fun t => (fx t, fy t, fs t, fa t)) R.
Proof.
  induction R as [|t R IH]; intros y sg a i H1 H2 H3; [reflexivity|]. cbn [map offer_many nth_opt].
  pose proof (H1 0) as A1. pose proof (H2 0) as A2. pose proof (H3 0) as A3. rewrite Nat.add_0_r in A1, A2, A3.
  cbn [map nth_error] in A1, A2, A3. rewrite A1, A2, A3. cbn [filled]. f_equal.
  apply IH; intros j; rewrite Nat.add_succ_comm; [rewrite H1|rewrite H2|rewrite H3]; reflexivity.
Qed.
Lemma offered_rows {pt T} std mean acqf (fx : T -> pt) (fy fs fa : T -> num) (R : list T) m :
  offered std mean acqf (AddMany (map fx R) (Some (map fy R)) (Some (map fs R)) (Some (map fa R)) m)
  = map (fun t => (fx t, fy t, fs t, fa t)) R.
Proof. cbn [offered]. apply offer_rows; intros j; reflexivity. Qed.
Lemma rows_wf {pt T} (fx : T -> pt) (fy fs fa : T -> num) (R : list T) m :
  well_formed (AddMany (map fx R) (Some (map fy R)) (Some (map fs R)) (Some (map fa R)) m).
Proof. cbn [well_formed has_len]. rewrite !map_length. auto. Qed.

(** Splitting among processes loses and doubles nothing. *)
Lemma strides_perm {A} (s : nat) (l : list A) : s <> 0 -> forall i,
  Permutation (concat (map (fun r => stride_from i r s l) (seq 0 s))) l.
Proof.
  intros Hs. induction l as [|x l IH]; intros i.
  - assert (forall L, concat (map (fun r => stride_from i r s (@nil A)) L) = []) as ->; [|constructor].
    induction L; simpl; auto.
  - cbn [stride_from].
    assert (forall L (f : nat -> list A), NoDup L -> In (i mod s) L ->
      Permutation (concat (map (fun r => if i mod s =? r then x :: f r else f r) L)) (x :: concat (map f L))) as K.
    { clear. intros L f. induction L as [|y L IH]; intros Hnd Hin; [inversion Hin|].
      apply NoDup_cons_iff in Hnd as [Hy Hnd]. cbn [map concat]. destruct (Nat.eqb_spec (i mod s) y) as [E|E].
      - rewrite (map_ext_in _ f). 2:{ intros r Hr. destruct (Nat.eqb_spec (i mod s) r); auto. subst; congruence. } reflexivity.
      - destruct Hin as [Hin|Hin]; [congruence|]. rewrite IH by auto. symmetry. apply Permutation_middle. }
    rewrite K; [constructor; apply IH|apply seq_NoDup|].
    apply in_seq. pose proof (Nat.mod_upper_bound i s Hs). lia.
Qed.
Lemma split_perm {A} size (l : list A) : size <> 0 ->
  Permutation (concat (map (fun r => step_split size r l) (seq 0 size))) l.
Proof.
  intros Hs. unfold step_split. destruct (Nat.leb_spec size 1).
  - assert (size = 1) as -> by lia. cbn [seq map concat]. rewrite app_nil_r. reflexivity.
  - apply strides_perm. auto.
Qed.
Lemma subm_concat {A T} (f g : T -> list A) L : (forall t, In t L -> subm (f t) (g t)) -> subm (concat (map f L)) (concat (map g L)).
Proof.
  induction L as [|t L IH]; intros H; cbn [map concat]; [apply subm_refl|].
  apply subm_app; [apply H; left; auto|apply IH; intros; apply H; right; auto].
Qed.
Lemma map2_rows {A B C T} (f : A -> B -> C) (g : T -> A) (h : T -> B) l : map2 f (map g l) (map h l) = map (fun t => f (g t) (h t)) l.
Proof. induction l; simpl; congruence. Qed.

(** What a pool hands over: a part of what it holds. *)
Section Slots.
Context {pt : Type}.
Lemma contents_firstn n (s : list (slot pt)) : subm (contents (firstn n s)) (contents s).
Proof. rewrite <- (firstn_skipn n s) at 2. rewrite contents_app. exists (contents (skipn n s)). reflexivity. Qed.
Lemma compact_rows n (s : list (slot pt)) g c : length s = S n ->
  exists R, length R <= n /\ subm (map strip R) (contents s)
  /\ (exists k, R = firstn k s) /\ (s <> [] -> forall t, nth_error s 0 = Some t -> sc t <> NInf -> 0 < n -> nth_error R 0 = Some t)
  /\ firstn n (pX (copy_pool (of_slots s g c) true)) = map sx R
  /\ firstn n (py (copy_pool (of_slots s g c) true)) = map sy R
  /\ firstn n (psig (copy_pool (of_slots s g c) true)) = map ss R.
Proof.
  intros Hs. unfold copy_pool. change (pacqc (of_slots s g c)) with (map sc s).
  rewrite removelast_firstn', map_length, firstn_map, find_idx_map. replace (length s - 1) with n by lia.
  destruct (find_idx (fun x => is_ninf (sc x)) (firstn n s)) as [i|] eqn:Ei.
  - apply find_idx_some in Ei as [(t & Ht & Hi) Hb].
    assert (i < n) as Hin. { apply nth_lt in Ht. rewrite firstn_length in Ht. lia. }
    exists (firstn i s). split; [rewrite firstn_length; lia|]. split; [|split; [eexists; reflexivity|split]].
    + rewrite <- contents_all; [apply contents_firstn|]. intros u Hu. apply In_nth_error in Hu as [j Hj].
      assert (j < i) as Hji. { apply nth_lt in Hj. rewrite firstn_length in Hj. lia. }
      rewrite nth_error_firstn in Hj by auto. apply is_ninf_false. apply (Hb j); auto. rewrite nth_error_firstn by lia. auto.
    + intros _ u Hu Hne _. destruct i as [|i]; [|rewrite nth_error_firstn by lia; auto].
      rewrite nth_error_firstn in Ht by lia. rewrite Hu in Ht. injection Ht as ->. apply is_ninf_true in Hi. contradiction.
    + cbn [pX py psig of_slots]. rewrite !firstn_firstn, Nat.min_r by lia. rewrite !firstn_map. auto.
  - exists (firstn n s). split; [rewrite firstn_length; lia|]. split; [|split; [eexists; reflexivity|split]].
    + rewrite <- contents_all; [apply contents_firstn|]. intros u Hu. apply In_nth_error in Hu as [j Hj].
      apply is_ninf_false. exact (find_idx_none _ _ Ei j u Hj).
    + intros _ u Hu _ H0. rewrite nth_error_firstn by lia. auto.
    + cbn [pX py psig of_slots]. rewrite !firstn_map. auto.
Qed.
End Slots.
Lemma gathered_rows {A} (sel : slot point -> A) (f : pool point -> list A) n (ss_ : list (list (slot point) * list (option (list (point * num))) * nat)) :
  (forall s g c, f (of_slots s g c) = map sel s) ->
  (forall q, In q ss_ -> length (fst (fst q)) = S n) ->
  gathered f (map (fun q => of_slots (fst (fst q)) (snd (fst q)) (snd q)) ss_)
  = map sel (filter (fun t => isfin (sc t)) (concat (map (fun q => firstn n (fst (fst q))) ss_))).
Proof.
  intros Hf Hl. unfold gathered.
  assert (forall B (h : slot point -> B) (fp : pool point -> list B), (forall s g c, fp (of_slots s g c) = map h s) ->
    concat (map (fun p => firstn (plen p) (fp p)) (map (fun q => of_slots (fst (fst q)) (snd (fst q)) (snd q)) ss_))
    = map h (concat (map (fun q => firstn n (fst (fst q))) ss_))) as K.
  { intros B h fp Hfp. induction ss_ as [|[[s g] c] l IH]; [reflexivity|]. cbn [map concat fst snd].
    rewrite map_app, IH by (intros; apply Hl; right; auto). f_equal. rewrite Hfp, plen_slots.
    pose proof (Hl (s, g, c) (or_introl eq_refl)) as E. cbn [fst] in E. rewrite E. cbn [Nat.sub]. rewrite Nat.sub_0_r, firstn_map. reflexivity. }
  rewrite (K _ sc pacqc) by reflexivity. rewrite (K _ sel f) by auto.
  clear K. induction (concat (map (fun q => firstn n (fst (fst q))) ss_)) as [|t l IH]; [reflexivity|].
  cbn [map mask filter]. rewrite IH. destruct (isfin (sc t)); reflexivity.
Qed.

Section Rank.
Variable argsort : list num -> list nat.
Hypothesis Harg : argsort_ok argsort.

Definition entry (s : surrogate) (x : point) : point * num * num * num :=
  (x, s_mean s x, s_sigma s x, s_acq s (s_mean s x) (s_sigma s x)).
Definition fresh (n : nat) : list (slot point) := repeat (mkSlot zero_point (Fin 0) (Fin 0) (Fin 0) NInf) (S n).
Lemma fresh_contents n : contents (fresh n) = [].
Proof. unfold contents, occ, fresh. generalize (S n). intros m. induction m; simpl; auto. Qed.
Lemma rank_pool_eq size s np X r :
  rank_pool argsort size s np X (map (s_mean s) X) (map (s_sigma s) X) r
  = step (s_std s) (s_mean s) (s_acq s) argsort (new_pool zero_point np)
      (AddMany (map (fun x => x) (step_split size r X)) (Some (map (s_mean s) (step_split size r X)))
        (Some (map (s_sigma s) (step_split size r X)))
        (Some (map (fun x => s_acq s (s_mean s x) (s_sigma s x)) (step_split size r X))) SortAcq).
Proof. unfold rank_pool. rewrite !step_split_map, map2_rows, map_id. reflexivity. Qed.
Lemma rank_pool_slots size s np X r p : 0 < np ->
  rank_pool argsort size s np X (map (s_mean s) X) (map (s_sigma s) X) r = Ok p ->
  exists l g c, p = of_slots l g c /\ length l = S np /\ subm (contents l) (map (entry s) (step_split size r X)).
Proof.
  intros Hn H. rewrite rank_pool_eq, new_pool_slots in H.
  apply (step_contents point (s_std s) (s_mean s) (s_acq s) argsort Harg np) in H
    as (l & g & c & -> & [Hl _] & Hc); auto; [|split; apply repeat_length|apply rows_wf].
  exists l, g, c. split; [reflexivity|]. split; [auto|]. fold (fresh np) in Hc. rewrite fresh_contents, app_nil_r in Hc.
  rewrite offered_rows in Hc. exact Hc.
Qed.
Lemma merge_slots size s np X ps p : 0 < np -> size <> 0 ->
  mapM (rank_pool argsort size s np X (map (s_mean s) X) (map (s_sigma s) X)) (seq 0 size) = Ok ps ->
  merge_pools argsort size s np ps = Ok p ->
  exists l g c, p = of_slots l g c /\ length l = S np /\ subm (contents l) (map (entry s) X).
Proof.
  intros Hn Hs HM H. unfold merge_pools in H. destruct (Nat.leb_spec size 1) as [Hs1|Hs1].
  - assert (size = 1) as -> by lia. cbn [seq mapM] in HM.
    destruct (rank_pool argsort 1 s np X _ _ 0) as [p0|] eqn:E; [|discriminate]. cbn [bind] in HM. injection HM as <-.
    injection H as <-. apply rank_pool_slots in E; auto.
  - assert (exists ss_, ps = map (fun q => of_slots (fst (fst q)) (snd (fst q)) (snd q)) ss_
      /\ (forall q, In q ss_ -> length (fst (fst q)) = S np)
      /\ subm (concat (map (fun q => contents (fst (fst q))) ss_)) (map (entry s) X)) as (ss_ & -> & Hl & Hc).
    { assert (forall L ps, mapM (rank_pool argsort size s np X (map (s_mean s) X) (map (s_sigma s) X)) L = Ok ps ->
        exists ss_, ps = map (fun q => of_slots (fst (fst q)) (snd (fst q)) (snd q)) ss_
        /\ (forall q, In q ss_ -> length (fst (fst q)) = S np)
        /\ subm (concat (map (fun q => contents (fst (fst q))) ss_)) (map (entry s) (concat (map (fun r => step_split size r X) L)))) as K.
      { induction L as [|r L IH]; intros ps' E; cbn [mapM] in E.
        - injection E as <-. exists []. split; [reflexivity|]. split; [intros q []|]. apply subm_refl.
        - destruct (rank_pool argsort size s np X _ _ r) as [p0|] eqn:E0; [|discriminate]. cbn [bind] in E.
          destruct (mapM _ L) as [ps0|] eqn:E1; [|discriminate]. injection E as <-.
          destruct (IH _ eq_refl) as (ss_ & -> & Hl & Hc). apply rank_pool_slots in E0 as (l & g & c & -> & Hll & Hlc); auto.
          exists ((l, g, c) :: ss_). split; [reflexivity|]. split; [intros q [<-|Hq]; auto|].
          cbn [map concat fst]. rewrite map_app. apply subm_app; auto. }
      destruct (K _ _ HM) as (ss_ & E & Hl & Hc). exists ss_. split; [auto|]. split; [auto|].
      eapply subm_trans; [exact Hc|]. apply subm_perm, Permutation_map, split_perm. auto. }
    set (R := filter (fun t => isfin (sc t)) (concat (map (fun q => firstn np (fst (fst q))) ss_))).
    rewrite (gathered_rows sx pX np ss_), (gathered_rows sy py np ss_), (gathered_rows ss psig np ss_), (gathered_rows sa pacq np ss_) in H by auto.
    fold R in H.
    assert (step (s_std s) (s_mean s) (s_acq s) argsort (of_slots (fresh np) (repeat None (S np)) 0)
      (AddMany (map sx R) (Some (map sy R)) (Some (map ss R)) (Some (map sa R)) Bulk) = Ok p) as H' by (rewrite new_pool_slots in H; exact H).
    clear H. apply (step_contents point (s_std s) (s_mean s) (s_acq s) argsort Harg np) in H'
      as (l & g & c & -> & [Hll _] & Hlc); auto; [|split; apply repeat_length|apply rows_wf].
    exists l, g, c. split; [reflexivity|]. split; [auto|]. rewrite fresh_contents, app_nil_r, offered_rows in Hlc.
    eapply subm_trans; [exact Hlc|]. eapply subm_trans; [|exact Hc]. change (fun t : slot point => (sx t, sy t, ss t, sa t)) with (@strip point).
    assert (subm R (concat (map (fun q => filter (fun t => isfin (sc t)) (firstn np (fst (fst q)))) ss_))) as HR.
    { unfold R. clear. apply subm_perm. induction ss_ as [|q l IH]; cbn [map concat]; [constructor|]. rewrite filter_app. apply Permutation_app_head; auto. }
    apply (subm_map strip) in HR. eapply subm_trans; [exact HR|]. rewrite concat_map, map_map. apply subm_concat.
    intros q _. eapply subm_trans; [|apply (contents_firstn np)]. unfold contents, occ. apply subm_map.
    clear. induction (firstn np (fst (fst q))) as [|t l IH]; cbn [filter]; [apply subm_refl|].
    destruct (sc t) eqn:E; cbn [isfin is_ninf neqb negb]; auto; destruct IH as [r Hr].
    + exists (t :: r). eapply Permutation_trans; [symmetry; apply Permutation_middle|]. constructor. auto.
    + exists r. cbn [app]. constructor. auto.
    + exists (t :: r). eapply Permutation_trans; [symmetry; apply Permutation_middle|]. constructor. auto.
Qed.
Lemma rank_spec w s np X Xp yp ap : 0 < np -> wsize w <> 0 ->
  rank argsort w s np X (map (s_mean s) X) (map (s_sigma s) X) = Ok (Xp, yp, ap) ->
  length Xp <= np /\ subm Xp X /\ yp = map (s_mean s) Xp /\ ap = map (fun x => s_acq s (s_mean s x) (s_sigma s x)) Xp.
Proof.
  intros Hn Hs H. unfold rank in H.
  destruct (mapM _ _) as [ps|] eqn:EM; [|discriminate]. cbn [bind] in H.
  destruct (merge_pools _ _ _ _ _) as [p|] eqn:Ep; [|discriminate]. cbn [bind] in H.
  destruct (merge_slots _ _ _ _ _ _ Hn Hs EM Ep) as (l & g & c & -> & Hl & Hc).
  destruct (compact_rows np l g c Hl) as (R & HR & HRc & _ & _ & E1 & E2 & E3).
  rewrite E1, E2, E3, map2_rows in H. injection H as <- <- <-.
  pose proof (subm_trans _ _ _ HRc Hc) as [r Hr].
  assert (forall t, In t R -> strip t = entry s (sx t)) as Hent.
  { intros t Ht. assert (In (strip t) (map (entry s) X)) as Hin.
    { eapply Permutation_in; [exact Hr|]. apply in_or_app. left. apply in_map. auto. }
    apply in_map_iff in Hin as (x & Ex & _). unfold entry, strip in *. injection Ex as E4 E5 E6 E7. congruence. }
  split; [rewrite map_length; auto|]. split; [|split].
  - apply (subm_map (fun e => fst (fst (fst e)))) in HRc. apply (subm_map (fun e => fst (fst (fst e)))) in Hc.
    rewrite !map_map in *. cbn [strip entry fst] in *. rewrite map_id in Hc. eapply subm_trans; eauto.
  - rewrite map_map. apply map_ext_in. intros t Ht. apply Hent in Ht. unfold strip, entry in Ht. congruence.
  - rewrite map_map. apply map_ext_in. intros t Ht. apply Hent in Ht. unfold strip, entry in Ht. injection Ht as E4 E5 _. congruence.
Qed.
End Rank.

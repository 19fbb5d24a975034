(** The first proposal ranked by NORA: lemmas. *)
From Verif Require Import Base Num MTools PTools MMpi PMpi MPool SPool Argsort PPool PPool2 PPool3 PPool4 PPool5 PPool6 MNora PNora.
Set Default Goal Selector "!".

Section Top.
Context {pt : Type}.
Variable std : list (pt * num) -> pt -> num.
Variable mean : pt -> num.
Variable acqf : num -> num -> num.
Variable argsort : list num -> list nat.
Hypothesis Harg : argsort_ok argsort.
Hypothesis mono : forall C D x y, nleb (acqf y (std (C ++ D) x)) (acqf y (std C x)) = true.

Definition sc0 (s : list (slot pt)) : num := match s with t :: _ => sc t | [] => NInf end.

Lemma in_contents (s : list (slot pt)) e : In e (contents s) -> exists j u, nth_error s j = Some u /\ sc u <> NInf /\ strip u = e.
Proof.
  unfold contents, occ. intros H. apply in_map_iff in H as (u & <- & H). apply filter_In in H as [H K].
  apply In_nth_error in H as [j Hj]. exists j, u. repeat split; auto. intros E. rewrite E in K. discriminate.
Qed.
Lemma contents_in (s : list (slot pt)) t : In t s -> sc t <> NInf -> In (strip t) (contents s).
Proof.
  intros H K. unfold contents, occ. apply in_map, filter_In. split; auto.
  destruct (is_ninf (sc t)) eqn:E; auto. apply is_ninf_true in E. contradiction.
Qed.
Lemma top_member n s g : InvM pt std acqf n s g -> 0 < n -> forall x y sg a,
  In (x, y, sg, a) (contents s) -> nleb (acqf y (std [] x)) (sc0 s) = true.
Proof.
  intros HM Hn x y sg a H. apply in_contents in H as (j & u & Hj & Hu & E).
  pose proof (invm_inv _ _ _ _ _ _ HM) as HI. destruct (inv_shape HI) as [Hs _].
  assert (j < n) as Hjn.
  { pose proof (nth_lt _ _ _ Hj). destruct (Nat.eq_dec j n) as [->|]; [|lia]. exfalso. apply Hu. apply (inv_last HI); auto. }
  destruct s as [|t s]; [destruct j; discriminate|].
  pose proof (invm_greedy _ _ _ _ _ _ HM 0 j ltac:(lia) Hjn t u eq_refl Hj Hu) as K.
  unfold condv in K. cbn [firstn pts map] in K. unfold strip in E. injection E as <- <- _ _. exact K.
Qed.
Lemma sc0_notnan n s g : InvM pt std acqf n s g -> isnan (sc0 s) = false.
Proof.
  intros HM. destruct s as [|t s]; [reflexivity|].
  eapply (sorted_notnan _ (t :: s) 0); [apply (inv_sorted (invm_inv _ _ _ _ _ _ HM))|reflexivity].
Qed.
Lemma add_one_top n s g c x y sg a : InvM pt std acqf n s g -> 0 < n -> a = acqf y (std [] x) ->
  exists s' g' c', add_one_core std acqf argsort (of_slots s g c) x y sg a false = Ok (of_slots s' g' c')
    /\ InvM pt std acqf n s' g' /\ nleb a (sc0 s') = true /\ nleb (sc0 s) (sc0 s') = true.
Proof.
  intros HM Hn Ha.
  destruct (add_one_core_invM pt std acqf argsort Harg mono n s g c x y sg a false HM Ha)
    as (s' & g' & c' & E & HM' & d & Hd & Hw).
  exists s', g', c'. split; [auto|]. split; [auto|].
  destruct (inv_shape (invm_inv _ _ _ _ _ _ HM')) as [Hs' _].
  assert (forall x y sg a, In (x, y, sg, a) (contents s' ++ map strip d) -> nleb (acqf y (std [] x)) (sc0 s') = true) as K.
  { intros x1 y1 sg1 a1 H. apply in_app_or in H as [H|H]; [eapply top_member; eauto|].
    apply in_map_iff in H as (u & Hu & Hin). destruct s' as [|t s']; [discriminate|].
    pose proof (Hw u 0 t Hin eq_refl ltac:(simpl in *; lia)) as K. unfold condv in K. cbn [firstn pts map] in K.
    unfold strip in Hu. injection Hu as <- <- _ _. exact K. }
  split.
  - rewrite Ha. apply (K x y sg a). eapply Permutation_in; [symmetry; exact Hd|]. left; auto.
  - destruct s as [|t s]; [apply ninf_leb; eapply sc0_notnan; eauto|]. cbn [sc0].
    destruct (is_ninf (sc t)) eqn:Et.
    + apply is_ninf_true in Et. rewrite Et. apply ninf_leb. eapply sc0_notnan; eauto.
    + apply is_ninf_false in Et. rewrite (invm_exact _ _ _ _ _ _ HM 0 Hn t eq_refl Et). unfold condv. cbn [firstn pts map].
      apply (K (sx t) (sy t) (ss t) (sa t)). eapply Permutation_in; [symmetry; exact Hd|]. right.
      apply contents_in; [left; auto|auto].
Qed.
Lemma add_each_top (cs : list (slot pt)) : (forall t, In t cs -> sa t = acqf (sy t) (std [] (sx t))) -> forall idx n s g c,
  InvM pt std acqf n s g -> 0 < n -> (forall i, In i idx -> i < length cs) ->
  exists s' g' c', add_each std mean acqf argsort (of_slots s g c) (map sx cs) (map sy cs) (map ss cs) (map sa cs) idx
    = Ok (of_slots s' g' c') /\ InvM pt std acqf n s' g' /\ nleb (sc0 s) (sc0 s') = true
    /\ forall i t, In i idx -> nth_error cs i = Some t -> nleb (sa t) (sc0 s') = true.
Proof.
  intros Hc. induction idx as [|i idx IH]; intros n s g c HM Hn Hi.
  - exists s, g, c. split; [reflexivity|]. split; [auto|]. split; [apply nleb_refl; eapply sc0_notnan; eauto|]. intros i t [].
  - rewrite add_each_cons. destruct (nth_error cs i) as [t|] eqn:Et.
    2:{ apply nth_error_None in Et. specialize (Hi i (or_introl eq_refl)). lia. }
    destruct (add_one_top n s g c (sx t) (sy t) (ss t) (sa t) HM Hn (Hc t (nth_error_In _ _ Et)))
      as (s1 & g1 & c1 & -> & HM1 & H1 & H2). cbn [bind].
    destruct (IH n s1 g1 c1 HM1 Hn ltac:(intros; apply Hi; right; auto)) as (s' & g' & c' & -> & HM' & H3 & H4).
    exists s', g', c'. split; [reflexivity|]. split; [auto|]. split; [eapply nleb_trans; eauto|].
    intros j u [<-|Hj] Hu; [|eauto]. replace u with t by congruence. eapply nleb_trans; eauto.
Qed.
(** Sorting and adding one by one, into a new pool. *)
Lemma sorted_top x0 n X y sg a : 0 < n -> well_formed (AddMany X y sg a SortAcq) ->
  own_acquisition std mean acqf (AddMany X y sg a SortAcq) ->
  exists s g c, step std mean acqf argsort (new_pool x0 n) (AddMany X y sg a SortAcq) = Ok (of_slots s g c)
    /\ InvM pt std acqf n s g
    /\ forall x1 y1 s1 a1, In (x1, y1, s1, a1) (offered std mean acqf (AddMany X y sg a SortAcq)) -> nleb a1 (sc0 s) = true.
Proof.
  intros Hn Hw Hown. cbn [step]. rewrite add_eq by auto. cbv zeta. rewrite new_pool_slots.
  set (cs := tuple_slots _ _).
  assert (forall t, In t cs -> sa t = acqf (sy t) (std [] (sx t))) as Hc.
  { intros t Ht. apply in_map_iff in Ht as ([[[x' y'] s'] a'] & <- & Hin). apply (Hown _ _ _ _ Hin). }
  destruct (Harg (map sa cs)) as [Hp _]. rewrite map_length in Hp.
  assert (forall i, In i (rev (argsort (map sa cs))) <-> i < length cs) as Hi.
  { intros i. rewrite <- in_rev. split; intros H.
    - eapply Permutation_in in H; [|exact Hp]. apply in_seq in H. lia.
    - eapply Permutation_in; [symmetry; exact Hp|]. apply in_seq. lia. }
  destruct (add_each_top cs Hc (rev (argsort (map sa cs))) n _ _ 0 (new_invM pt std acqf x0 n) Hn ltac:(intros; apply Hi; auto))
    as (s & g & c & E & HM & _ & H). exists s, g, c. split; [exact E|]. split; [auto|].
  intros x1 y1 s1 a1 H1. rewrite <- tuple_strip in H1. fold cs in H1. apply in_map_iff in H1 as (t & Et & Ht).
  unfold strip in Et. injection Et as _ _ _ <-. apply In_nth_error in Ht as [i Ht].
  apply (H i t); auto. apply Hi. eapply nth_lt; eauto.
Qed.
Lemma bulk_top x0 n X y sg a : 0 < n -> well_formed (AddMany X y sg a Bulk) ->
  own_acquisition std mean acqf (AddMany X y sg a Bulk) ->
  exists s g c, step std mean acqf argsort (new_pool x0 n) (AddMany X y sg a Bulk) = Ok (of_slots s g c)
    /\ InvM pt std acqf n s g
    /\ forall x1 y1 s1 a1, In (x1, y1, s1, a1) (offered std mean acqf (AddMany X y sg a Bulk)) -> nleb a1 (sc0 s) = true.
Proof.
  intros Hn Hw Hown. destruct (bulk_new pt std mean acqf argsort mono x0 n X y sg a Hn Hw Hown) as (s & g & c & E & HM & rest & Hg).
  exists s, g, c. split; [exact E|]. split; [auto|]. intros x1 y1 s1 a1 H1. destruct (Hown _ _ _ _ H1) as [-> _].
  rewrite <- tuple_strip in H1. destruct Hg as [Gp Gr Gf Ge Gm Gm2 Gem]. cbn [skipn] in Gp.
  eapply Permutation_in in H1; [|symmetry; exact Gp]. apply in_app_or in H1 as [H1|H1]; [|eapply top_member; eauto].
  apply in_map_iff in H1 as (u & Eu & Hu). unfold strip in Eu. injection Eu as <- <- _ _.
  destruct (inv_shape (invm_inv _ _ _ _ _ _ HM)) as [Hs _].
  destruct s as [|t s]; [discriminate|]. cbn [sc0].
  assert (condv pt std acqf (t :: s) 0 u = acqf (sy u) (std [] (sx u))) as Ec by reflexivity. rewrite <- Ec.
  destruct (is_ninf (sc t)) eqn:Et.
  - apply is_ninf_true in Et. destruct (Gem 0 t) as [G1 _]; auto; [cbn [length] in *; lia|]. rewrite (G1 u Hu), Et. reflexivity.
  - apply is_ninf_false in Et. apply (Gm 0 t); auto.
Qed.
End Top.

Section Rank.
Variable argsort : list num -> list nat.
Hypothesis Harg : argsort_ok argsort.

Definition acq_at (s : surrogate) (x : point) : num := s_acq s (s_mean s x) (s_sigma s x).
Record coherent_total (s : surrogate) : Prop := {
  co_sigma : forall x, s_sigma s x = s_std s [] x;
  co_mono : forall C D x y, nleb (s_acq s y (s_std s (C ++ D) x)) (s_acq s y (s_std s C x)) = true;
  co_inf : forall x, acq_at s x <> PInf }.

Lemma rows_own {T} s (fx : T -> point) R m (fy fs fa : T -> num) : coherent_total s ->
  (forall t, In t R -> (fx t, fy t, fs t, fa t) = entry s (fx t)) ->
  own_acquisition (s_std s) (s_mean s) (s_acq s) (AddMany (map fx R) (Some (map fy R)) (Some (map fs R)) (Some (map fa R)) m).
Proof.
  intros Hco HR x y sg a H. rewrite offered_rows in H. apply in_map_iff in H as (t & E & Ht). rewrite HR in E by auto.
  unfold entry in E. injection E as <- <- <- <-. split.
  - rewrite <- co_sigma by auto. reflexivity.
  - apply (co_inf s Hco).
Qed.

Lemma rank_pool_top size s np X r : coherent_total s -> 0 < np ->
  exists l g c, rank_pool argsort size s np X (map (s_mean s) X) (map (s_sigma s) X) r = Ok (of_slots l g c)
  /\ InvM point (s_std s) (s_acq s) np l g /\ forall x, In x (step_split size r X) -> nleb (acq_at s x) (sc0 l) = true.
Proof.
  intros Hco Hn. rewrite rank_pool_eq.
  set (S := step_split size r X).
  destruct (sorted_top (s_std s) (s_mean s) (s_acq s) argsort Harg (co_mono s Hco) zero_point np (map (fun x => x) S)
    (Some (map (s_mean s) S)) (Some (map (s_sigma s) S)) (Some (map (fun x => s_acq s (s_mean s x) (s_sigma s x)) S)) Hn)
    as (l & g & c & E & HM & H).
  - apply (rows_wf (fun x => x)).
  - apply (rows_own s (fun x => x)); auto.
  - exists l, g, c. split; [exact E|]. split; [auto|]. intros x Hx. apply (H x (s_mean s x) (s_sigma s x)).
    rewrite (offered_rows _ _ _ (fun x => x)). apply in_map_iff. exists x. auto.
Qed.

Lemma sc0_fin s np l g : coherent_total s -> 0 < np -> InvM point (s_std s) (s_acq s) np l g ->
  (forall e, In e (contents l) -> exists x, e = entry s x) ->
  forall t, nth_error l 0 = Some t -> sc t <> NInf -> sc t = acq_at s (sx t) /\ isfin (sc t) = true.
Proof.
  intros Hco Hn HM Hc t Ht Hne. assert (sc t = acq_at s (sx t)) as E.
  { rewrite (invm_exact _ _ _ _ _ _ HM 0 Hn t Ht Hne). unfold condv. cbn [firstn pts map].
    destruct (Hc (strip t)) as (x & Ex); [apply contents_in; auto; eapply nth_error_In; eauto|].
    unfold strip, entry in Ex. injection Ex as Ex Ey _ _. unfold acq_at. rewrite (co_sigma s Hco). rewrite Ex, Ey. reflexivity. }
  split; [exact E|]. pose proof (sc0_notnan _ _ _ _ _ HM) as Hnn. pose proof (co_inf s Hco (sx t)) as Hi.
  rewrite E in *. destruct l as [|t' l]; [discriminate|]. injection Ht as ->. cbn [sc0] in Hnn. rewrite E in Hnn.
  destruct (acq_at s (sx t)); auto; congruence.
Qed.

Lemma rank_top_total w s np X : coherent_total s -> 0 < np -> wsize w <> 0 ->
  exists Xp yp ap, rank argsort w s np X (map (s_mean s) X) (map (s_sigma s) X) = Ok (Xp, yp, ap)
  /\ forall x, In x X -> acq_at s x <> NInf -> exists x1 l, Xp = x1 :: l /\ nleb (acq_at s x) (acq_at s x1) = true.
Proof.
  intros Hco Hn Hs. unfold rank. set (size := wsize w) in *.
  assert (forall L, exists ps, mapM (rank_pool argsort size s np X (map (s_mean s) X) (map (s_sigma s) X)) L = Ok ps) as HM.
  { induction L as [|r L [ps IH]]; [eexists; reflexivity|]. cbn [mapM].
    destruct (rank_pool_top size s np X r Hco Hn) as (l & g & c & E & _). rewrite E, IH. eexists; reflexivity. }
  destruct (HM (seq 0 size)) as [ps Eps]. rewrite Eps. cbn [bind].
  assert (exists l g c, merge_pools argsort size s np ps = Ok (of_slots l g c)
    /\ InvM point (s_std s) (s_acq s) np l g /\ forall x, In x X -> acq_at s x <> NInf -> nleb (acq_at s x) (sc0 l) = true) as (l & g & c & E & HI & Ht).
  { unfold merge_pools. destruct (Nat.leb_spec size 1) as [H1|H1].
    - assert (size = 1) as Es by lia. rewrite Es in *. cbn [seq mapM] in Eps.
      destruct (rank_pool_top 1 s np X 0 Hco Hn) as (l & g & c & E & HI & Ht). rewrite E in Eps. cbn [bind] in Eps. injection Eps as <-.
      exists l, g, c. split; [reflexivity|]. split; [auto|]. intros x Hx _. apply Ht. exact Hx.
    - assert (forall L ps, mapM (rank_pool argsort size s np X (map (s_mean s) X) (map (s_sigma s) X)) L = Ok ps ->
        exists ss_, ps = map (fun q => of_slots (fst (fst q)) (snd (fst q)) (snd q)) ss_
        /\ (forall q, In q ss_ -> length (fst (fst q)) = S np /\ forall e, In e (contents (fst (fst q))) -> exists x, e = entry s x)
        /\ forall r x, In r L -> In x (step_split size r X) -> acq_at s x <> NInf ->
           exists q t, In q ss_ /\ nth_error (fst (fst q)) 0 = Some t /\ isfin (sc t) = true /\ sc t = sa t /\ nleb (acq_at s x) (sa t) = true) as K.
      { clear - Hco Hn Harg. induction L as [|r L IH]; intros ps E; cbn [mapM] in E.
        - injection E as <-. exists []. split; [reflexivity|]. split; [intros q []|]. intros r x [].
        - destruct (rank_pool_top size s np X r Hco Hn) as (l & g & c & E0 & HI & Ht).
          destruct (rank_pool_slots argsort Harg size s np X r _ Hn E0) as (l' & g' & c' & Eq & Hll & Hlc).
          rewrite E0 in E. cbn [bind] in E. destruct (mapM _ L) as [ps0|]; [|discriminate]. injection E as <-.
          destruct (IH _ eq_refl) as (ss_ & -> & Hss & Hbest).
          assert (l' = l) as ->.
          { assert (map (@strip point) l' = map strip l /\ map sc l' = map sc l) as [H1 H2].
            { assert (forall q : pool point, True) by auto. injection Eq as E1 E2 E3 E4 E5 _ _. split; [|auto]. clear - E1 E2 E3 E4.
              revert l' E1 E2 E3 E4. induction l as [|t l IH]; intros [|t' l'] E1 E2 E3 E4; try discriminate; auto.
              cbn [map] in *. injection E1; injection E2; injection E3; injection E4; intros. f_equal; [unfold strip; congruence|auto]. }
            clear - H1 H2. revert l H1 H2. induction l' as [|t' l' IH]; intros [|t l] H1 H2; try discriminate; auto.
            cbn [map] in *. injection H2 as H2 H2'. injection H1; intros H1' e1 e2 e3 e4. f_equal; [destruct t, t'; simpl in *; congruence|auto]. }
          assert (forall e, In e (contents l) -> exists x, e = entry s x) as Hent.
          { intros e He. destruct Hlc as [rr Hr]. assert (In e (map (entry s) (step_split size r X))) as Hin.
            { eapply Permutation_in; [exact Hr|]. apply in_or_app; auto. }
            apply in_map_iff in Hin as (x & <- & _). eauto. }
          exists ((l, g, c) :: ss_). split; [reflexivity|]. split; [intros q [<-|Hq]; auto|].
          intros r' x [<-|Hr'] Hx Hne.
          + specialize (Ht x Hx). destruct l as [|t l]; [discriminate|]. cbn [sc0] in Ht.
            assert (sc t <> NInf) as Hnt. { intros Z. rewrite Z in Ht. apply nleb_ninf in Ht. contradiction. }
            destruct (sc0_fin s np (t :: l) g Hco Hn HI Hent t eq_refl Hnt) as [E1 E2].
            destruct (Hent (strip t)) as (x0 & E3); [apply contents_in; [left; auto|auto]|].
            assert (sa t = acq_at s (sx t)) as E4. { unfold strip, entry in E3. injection E3 as e1 e2 e3 e4. unfold acq_at. congruence. }
            exists (t :: l, g, c), t. split; [left; auto|]. split; [reflexivity|]. split; [auto|]. split; [congruence|]. rewrite E4, <- E1. auto.
          + destruct (Hbest r' x Hr' Hx Hne) as (q & t & Hq & Hqt). exists q, t. split; [right; auto|auto]. }
      destruct (K _ _ Eps) as (ss_ & Ess & Hl & Hbest). clear K. rewrite Ess.
      rewrite (gathered_rows sx pX np ss_), (gathered_rows sy py np ss_), (gathered_rows ss psig np ss_), (gathered_rows sa pacq np ss_)
        by (auto; intros q Hq; apply Hl; auto).
      set (R := filter (fun t => isfin (sc t)) (concat (map (fun q => firstn np (fst (fst q))) ss_))).
      assert (forall t, In t R -> strip t = entry s (sx t)) as HR.
      { intros t HtR. apply filter_In in HtR as [HtR Hf]. apply in_concat in HtR as (ll & Hll & Htl).
        apply in_map_iff in Hll as (q & <- & Hq). destruct (Hl q Hq) as [_ Hent]. destruct (Hent (strip t)) as (x & Ex).
        { apply contents_in; [|intros Z; rewrite Z in Hf; discriminate].
          rewrite <- (firstn_skipn np (fst (fst q))). apply in_or_app; auto. }
        rewrite Ex. unfold strip, entry in Ex. injection Ex as -> _ _ _. reflexivity. }
      destruct (bulk_top (s_std s) (s_mean s) (s_acq s) argsort (co_mono s Hco) zero_point np (map sx R) (Some (map sy R))
        (Some (map ss R)) (Some (map sa R)) Hn) as (l & g & c & E & HI & H).
      + apply rows_wf.
      + apply (rows_own s sx R Bulk sy ss sa Hco). exact HR.
      + exists l, g, c. split; [exact E|]. split; [auto|]. intros x Hx Hne.
        assert (exists r, In r (seq 0 size) /\ In x (step_split size r X)) as (r & Hr & Hxr).
        { pose proof (split_perm size X Hs) as P. eapply Permutation_in in Hx; [|symmetry; exact P].
          apply in_concat in Hx as (k & Hk & Hxk). apply in_map_iff in Hk as (r & <- & Hr). eauto. }
        destruct (Hbest r x Hr Hxr Hne) as (q & t & Hq & Ht0 & Hfin & _ & Hle). eapply nleb_trans; [exact Hle|].
        apply (H (sx t) (sy t) (ss t) (sa t)). rewrite offered_rows. apply in_map_iff. exists t. split; [reflexivity|].
        apply filter_In. split; [|auto]. apply in_concat. exists (firstn np (fst (fst q))). split; [exact (in_map (fun q => firstn np (fst (fst q))) _ _ Hq)|].
        apply nth_error_In with 0. rewrite nth_error_firstn by lia. auto. }
  rewrite E. cbn [bind]. destruct (inv_shape (invm_inv _ _ _ _ _ _ HI)) as [Hl _].
  destruct (merge_slots argsort Harg size s np X ps _ Hn Hs Eps E) as (l' & g' & c' & El & _ & Hc).
  assert (forall e, In e (contents l) -> exists x, e = entry s x) as Hent.
  { intros e He. assert (contents l = contents l') as Ec by (rewrite <- (held_slots point l g c), <- (held_slots point l' g' c'), El; reflexivity).
    rewrite Ec in He. destruct Hc as [rr Hr]. assert (In e (map (entry s) X)) as Hin.
    { eapply Permutation_in; [exact Hr|]. apply in_or_app; auto. }
    apply in_map_iff in Hin as (x & <- & _). eauto. }
  destruct (compact_rows np l g c Hl) as (R & _ & _ & _ & Hfirst & E1 & E2 & E3). rewrite E1, E2, E3, map2_rows.
  do 3 eexists. split; [reflexivity|]. intros x Hx Hne. specialize (Ht x Hx Hne).
  destruct l as [|t l]; [discriminate|]. cbn [sc0] in Ht.
  assert (sc t <> NInf) as Hnt. { intros Z. rewrite Z in Ht. apply nleb_ninf in Ht. contradiction. }
  assert (nth_error R 0 = Some t) as HR by (apply Hfirst; auto; discriminate).
  destruct R as [|t' R]; [discriminate|]. injection HR as ->. exists (sx t), (map sx R). split; [reflexivity|].
  destruct (sc0_fin s np (t :: l) g Hco Hn HI Hent t eq_refl Hnt) as [E4 _]. rewrite <- E4. exact Ht.
Qed.

(** The prediction is a number, its standard deviation is that of the copy with nothing appended; appending points does
    not make the acquisition function larger, and it is not infinite. *)
Record coherent (s : surrogate) : Prop := {
  coh_mean : forall x, isnan (s_mean s x) = false;
  coh_sigma : forall x, s_sigma s x = s_std s [] x;
  coh_mono : forall C D x y, isnan y = false -> nleb (s_acq s y (s_std s (C ++ D) x)) (s_acq s y (s_std s C x)) = true;
  coh_inf : forall x, acq_at s x <> PInf }.
Definition guarded (s : surrogate) : surrogate := mkSurr (s_mean s) (s_sigma s) (s_std s) (guard (s_acq s)).
Lemma guarded_at s x : coherent s -> acq_at (guarded s) x = acq_at s x.
Proof. intros H. unfold acq_at, guarded, guard. cbn [s_mean s_sigma s_acq]. rewrite (coh_mean s H). reflexivity. Qed.
Lemma guarded_coherent s : coherent s -> coherent_total (guarded s).
Proof.
  intros H. constructor.
  - apply (coh_sigma s H).
  - apply guard_mono. apply (coh_mono s H).
  - intros x. rewrite guarded_at by auto. apply (coh_inf s H).
Qed.
Lemma means_numbers s (X : list point) : coherent s -> numbers (map (s_mean s) X).
Proof. intros H. apply Forall_forall. intros y Hy. apply in_map_iff in Hy as (x & <- & _). apply (coh_mean s H). Qed.
Lemma rank_pool_guarded size s np X r : coherent s -> let y := map (s_mean s) X in let sg := map (s_sigma s) X in
  same yok (rank_pool argsort size s np X y sg r) (rank_pool argsort size (guarded s) np X y sg r).
Proof.
  intros H y sg. unfold rank_pool. cbn [s_mean s_sigma s_std s_acq guarded].
  assert (numbers (step_split size r y)) as Hy.
  { unfold y. rewrite step_split_map. apply means_numbers; auto. }
  rewrite <- (map2_agree (s_acq s) (guard (s_acq s)) (guard_agree _) (step_split size r y) Hy).
  apply add_same; [apply guard_agree|apply new_yok|exact Hy].
Qed.
Lemma mapM_same {A B} (P : B -> Prop) (f f' : A -> res B) l : (forall a, same P (f a) (f' a)) -> same (Forall P) (mapM f l) (mapM f' l).
Proof.
  intros H. induction l as [|a l IH]; cbn [mapM]; [apply same_refl; intros ? E; injection E as <-; constructor|].
  apply same_bind with (P := P); [apply H|]. intros b Hb. apply same_bind with (P := Forall P); [exact IH|]. intros bs Hbs.
  apply same_refl. intros ? E. injection E as <-. constructor; auto.
Qed.
Lemma gathered_numbers ps : Forall yok ps -> numbers (gathered py ps).
Proof.
  intros H. unfold gathered, numbers. apply Forall_forall. intros y Hy. apply mask_incl in Hy. apply in_concat in Hy as (l & Hl & Hy).
  apply in_map_iff in Hl as (p & <- & Hp). rewrite Forall_forall in H. specialize (H p Hp). unfold yok, numbers in H.
  rewrite Forall_forall in H. apply H. rewrite <- (firstn_skipn (plen p) (py p)). apply in_or_app; auto.
Qed.
Lemma rank_guarded w s np X : coherent s ->
  rank argsort w s np X (map (s_mean s) X) (map (s_sigma s) X) = rank argsort w (guarded s) np X (map (s_mean s) X) (map (s_sigma s) X).
Proof.
  intros H. unfold rank.
  apply (same_bind (Forall yok) (fun _ => True)); [apply mapM_same; intros; apply rank_pool_guarded; auto|]. intros ps Hps.
  apply same_bind with (P := yok).
  { unfold merge_pools. destruct (wsize w <=? 1).
    - apply same_refl. intros p E. destruct ps as [|q ps]; [discriminate|]. injection E as <-. inversion Hps; auto.
    - apply add_same; [apply guard_agree|apply new_yok|apply gathered_numbers; auto]. }
  intros p Hp. cbv zeta. cbn [s_acq guarded]. rewrite (map2_agree (s_acq s) (guard (s_acq s)) (guard_agree _)); [apply same_refl; auto|].
  eapply numbers_incl; [|exact Hp]. intros v Hv. assert (incl (py (copy_pool p true)) (py p)) as K.
  { unfold copy_pool. destruct (find_idx is_ninf _); cbn [py]; [|apply incl_refl]. intros u Hu. rewrite <- (firstn_skipn n (py p)). apply in_or_app; auto. }
  apply K. rewrite <- (firstn_skipn np (py (copy_pool p true))). apply in_or_app; auto.
Qed.
Lemma rank_top w s np X : coherent s -> 0 < np -> wsize w <> 0 ->
  exists Xp yp ap, rank argsort w s np X (map (s_mean s) X) (map (s_sigma s) X) = Ok (Xp, yp, ap)
  /\ forall x, In x X -> acq_at s x <> NInf -> exists x1 l, Xp = x1 :: l /\ nleb (acq_at s x) (acq_at s x1) = true.
Proof.
  intros H Hn Hs. destruct (rank_top_total w (guarded s) np X (guarded_coherent s H) Hn Hs) as (Xp & yp & ap & E & K).
  exists Xp, yp, ap. split; [rewrite rank_guarded by auto; exact E|]. intros x Hx Hne.
  destruct (K x Hx) as (x1 & l & E1 & E2); [rewrite guarded_at; auto|]. exists x1, l. split; [exact E1|].
  rewrite !guarded_at in E2; auto.
Qed.
End Rank.

(** C37, C38, C39, C93, C94, C95: proposals ranked from a nested sample of the surrogate (NORA). *)
From Verif Require Import Base Num MTools MMpi PMpi MPool SPool Argsort PPool PPool2 PPool3 PPool4 PPool5 MNora PNora PNora2.
From Verif Require TMpi.
Set Default Goal Selector "!".

(** * Lemmas on masks *)
Lemma mask_map {A B} (f : A -> B) m : forall l, mask m (map f l) = map f (mask m l).
Proof. induction m as [|b m IH]; intros [|x l]; try reflexivity. cbn [map mask]. rewrite IH. destruct b; reflexivity. Qed.
Lemma mask_subm {A} m : forall l : list A, subm (mask m l) l.
Proof.
  induction m as [|b m IH]; intros [|x l]; try apply subm_nil. cbn [mask]. destruct (IH l) as [r Hr]. destruct b.
  - exists r. cbn [app]. constructor. auto.
  - exists (x :: r). eapply Permutation_trans; [symmetry; apply Permutation_middle|]. constructor. auto.
Qed.
Lemma subm_incl {A} (l k : list A) : subm l k -> incl l k.
Proof. intros [r Hr] x Hx. eapply Permutation_in; [exact Hr|]. apply in_or_app; auto. Qed.
Lemma subm_nodup {A} (l k : list A) : subm l k -> NoDup k -> NoDup l.
Proof.
  intros [r Hr] H. eapply Permutation_NoDup in H; [|symmetry; exact Hr]. clear Hr.
  induction l as [|x l IH]; [constructor|]. inversion H as [|? ? Hx Hl]; subst. constructor; [|auto].
  intros Hin. apply Hx. apply in_or_app; auto.
Qed.
Lemma delete_map {A B} (f : A -> B) idx l : delete idx (map f l) = map f (delete idx l).
Proof. unfold delete. rewrite map_length, mask_map. reflexivity. Qed.
Lemma exclude_map {A B} (f : A -> B) prop X l : exclude prop X (map f l) = map f (exclude prop X l).
Proof. unfold exclude. destruct prop; auto. apply delete_map. Qed.
Lemma exclude_subm {A} prop X (l : list A) : subm (exclude prop X l) l.
Proof. unfold exclude. destruct prop; [apply subm_refl|]. apply mask_subm. Qed.
Lemma in_delete {A} idx (l : list A) x : In x (delete idx l) <-> exists i, nth_error l i = Some x /\ ~ In i idx.
Proof.
  unfold delete.
  assert (forall k, In x (mask (map (fun i => negb (existsb (Nat.eqb i) idx)) (seq k (length l))) l)
    <-> exists i, nth_error l i = Some x /\ ~ In (k + i) idx) as K.
  { induction l as [|y l IH]; intros k; cbn [length seq map mask].
    - split; [intros []|]. intros ([|i] & H & _); discriminate.
    - assert (negb (existsb (Nat.eqb k) idx) = true <-> ~ In k idx) as Hk.
      { rewrite negb_true_iff. rewrite <- not_true_iff_false, existsb_exists. split; intros H Hi; apply H; [exists k; split; auto; apply Nat.eqb_refl|].
        destruct Hi as (j & Hj & E). apply Nat.eqb_eq in E. congruence. }
      assert ((exists i, nth_error (y :: l) i = Some x /\ ~ In (k + i) idx)
        <-> (y = x /\ ~ In k idx) \/ exists i, nth_error l i = Some x /\ ~ In (S k + i) idx) as ->.
      { split.
        - intros ([|i] & H & Hn); cbn [nth_error] in H; [left; rewrite Nat.add_0_r in Hn; split; congruence|].
          right. exists i. rewrite Nat.add_succ_r in Hn. split; auto.
        - intros [[-> H]|(i & H & Hn)]; [exists 0; rewrite Nat.add_0_r; auto|]. exists (S i). rewrite Nat.add_succ_r. auto. }
      rewrite <- (IH (S k)). destruct (negb (existsb (Nat.eqb k) idx)).
      + cbn [In]. intuition.
      + split; [auto|]. intros [[_ H]|H]; [|auto]. apply Hk in H. discriminate. }
  apply (K 0).
Qed.

(** * What is asked for *)
(** A stored row: point, value when it was sampled, weight. *)
Record row := mkRow { rx : point; ry : num; rw : num }.
Definition stored (n : nora) (R : list row) : Prop := exists mc, n_mc n = Some mc /\ m_X mc = map rx R /\ m_y mc = Some (map ry R)
  /\ (m_w mc = Some (map rw R) \/ m_w mc = None /\ forall r, In r R -> rw r = nz 1).
Definition within (b : option (point -> bool)) (x : point) : bool := match b with Some b => b x | None => true end.
(** The points of a sample differ, and no point has all its coordinates among those of another. *)
Definition told_apart (X : list point) : Prop :=
  NoDup X
  /\ (forall x v, In x X -> In v x -> isnan v = false)
  /\ forall p r, In p X -> In r X -> (forall v, In v r -> In v p) -> r = p.
(** The current sample of a state, with predictions of a surrogate. *)
Definition current (s : surrogate) (n : nora) (X : list point) : Prop :=
  exists ws, last_MC_sample n = Some (mkSample X (Some (map (s_mean s) X)) (Some (map (s_sigma s) X)) ws).
Definition proposals (r : res (list point * list num * list num)) : list point :=
  match r with Ok (Xp, _, _) => Xp | Err _ => [] end.
Definition returned (r : res (list point * list num * list num)) : Prop := match r with Ok _ => True | Err _ => False end.

Section T.
Variable expf : num -> num.
Variable argsort : list num -> list nat.
Hypothesis Harg : argsort_ok argsort.
Notation multi_add := (multi_add expf argsort).
Notation history := (history expf argsort).
Notation reweight := (reweight expf).

Lemma predict_all w s (X : list point) : wsize w <> 0 ->
  compute_y_parallel (s_mean s) (s_sigma s) w X None None true = Ok (map (s_mean s) X, Some (map (s_sigma s) X)).
Proof. intros Hw. apply TMpi.C02_compute_y_parallel. auto. Qed.

Lemma reweight_shape w s b n n' r : wsize w <> 0 -> reweight w s b n = (n', r) ->
  n_i n' = n_i n /\ n_mc n' = n_mc n /\ n_prop n' = n_prop n /\
  (r = Ok tt -> exists mc keep, n_mc n = Some mc /\ (forall x, In x (mask keep (m_X mc)) -> within b x = true)
     /\ current s n' (mask keep (m_X mc))).
Proof.
  intros Hw H. unfold MNora.reweight in H.
  destruct (n_mc n) as [mc|] eqn:Emc; [|injection H as <- <-; repeat split; auto; discriminate].
  destruct (m_y mc) as [y|] eqn:Ey; [|injection H as <- <-; repeat split; auto; discriminate].
  cbv zeta in H. rewrite predict_all in H by auto.
  set (wi := match b with Some b => map b (m_X mc) | None => map (fun _ => true) (m_X mc) end) in *.
  destruct (pymax_list _) as [m|]; [|injection H as <- <-; repeat split; auto; discriminate].
  set (kp := map (fun v => negb (neqb v (nz 0))) _) in H.
  injection H as <- <-. split; [reflexivity|]. split; [reflexivity|]. split; [reflexivity|]. intros _. exists mc.
  assert (forall (l : list point), wi = map (within b) l -> length l = length wi -> forall x, In x (mask kp (mask wi l)) -> within b x = true) as K.
  { intros l E _ x Hx. apply mask_incl in Hx. rewrite E, mask_map_filter in Hx. apply filter_In in Hx as [_ Hx]. auto. }
  assert (exists keep, forall A (l : list A), mask keep l = mask kp (mask wi l)) as [keep Hk].
  { clear. generalize kp. intros k. revert k. induction wi as [|c wi IH]; intros k.
    - exists []. intros A l. destruct k as [|[] k]; reflexivity.
    - destruct c.
      + destruct k as [|c k].
        * exists []. reflexivity.
        * destruct (IH k) as [keep Hk]. exists (c :: keep). intros A [|x l]; [reflexivity|]. cbn [mask]. rewrite Hk. reflexivity.
      + destruct (IH k) as [keep Hk]. exists (false :: keep). intros A [|x l]; [|cbn [mask]; apply Hk].
        destruct k as [|[] k]; reflexivity. }
  exists keep. split; [reflexivity|]. rewrite Hk. split.
  - apply (K (m_X mc)); [|subst wi; destruct b; rewrite map_length; auto]. subst wi. destruct b; reflexivity.
  - unfold current. cbn. eexists. rewrite !mask_map. reflexivity.
Qed.

Lemma reweight_world w s b n : wsize w <> 0 -> reweight w s b n = reweight NoMpi s b n.
Proof.
  intros Hw. unfold MNora.reweight. destruct (n_mc n) as [mc|]; [|reflexivity]. destruct (m_y mc) as [y|]; [|reflexivity]. cbv zeta.
  rewrite predict_all by auto. rewrite (predict_all NoMpi) by discriminate. reflexivity.
Qed.
(** What a call does. *)
Lemma call_shape w every s np b force ns n n' sm r : wsize w <> 0 ->
  multi_add w every s np b force ns n = (n', sm, r) ->
  (np <> 0 /\ every <> 0 /\ sm = ((n_i n mod every =? 0) || force)
   /\ exists X prop, current s n' X
   /\ r = rank argsort w s np (exclude prop X X) (map (s_mean s) (exclude prop X X)) (map (s_sigma s) (exclude prop X X))
   /\ n_prop n' = Some (prop ++ proposals r) /\ n_i n' = S (n_i n)
   /\ (if sm then (exists ws, ns = Ok (X, ws)) /\ prop = [] /\ option_map m_X (n_mc n') = Some X
       else n_prop n = Some prop /\ n_mc n' = n_mc n /\ current s (fst (reweight NoMpi s b n)) X
            /\ exists mc keep, n_mc n = Some mc /\ X = mask keep (m_X mc) /\ forall x, In x X -> within b x = true))
  \/ (~ returned r /\ n_i n' = n_i n /\ n_mc n' = n_mc n /\ n_prop n' = n_prop n
      /\ (np <> 0 -> every <> 0 -> sm = ((n_i n mod every =? 0) || force))
      /\ (sm = true -> n' = n))
  \/ (~ returned r /\ n_prop n = None /\ n_prop n' = None /\ n_mc n' = n_mc n /\ sm = false /\ n_i n' = S (n_i n)
      /\ (np <> 0 -> every <> 0 -> sm = ((n_i n mod every =? 0) || force))).
Proof.
  intros Hw H. unfold MNora.multi_add in H.
  destruct (Nat.eqb_spec np 0) as [?|Hnp]; [injection H as <- <- <-; right; left; repeat split; auto; try discriminate; intros; contradiction|].
  destruct (Nat.eqb_spec every 0) as [?|Hev]; [injection H as <- <- <-; right; left; repeat split; auto; try discriminate; intros; contradiction|].
  destruct ((n_i n mod every =? 0) || force) eqn:Esm.
  - destruct ns as [[X ws]|x]; [|injection H as <- <- <-; right; left; repeat split; auto].
    unfold set_MC_sample in H. rewrite predict_all in H by auto.
    cbn [n_i n_mc n_re n_flag n_prop last_MC_sample] in H. unfold last_MC_sample in H. cbn [n_flag n_mc] in H.
    left. split; [auto|]. split; [auto|]. rewrite !exclude_map in H.
    destruct (rank argsort w s np _ _ _) as [[[Xp yp] ap]|x] eqn:Er; injection H as <- <- <-; (split; [reflexivity|]);
      exists X, [];
      (split; [unfold current; cbn; eauto|]); cbn [n_prop n_i n_mc proposals app];
      (split; [symmetry; exact Er|]); repeat split; eauto.
  - destruct (reweight w s b n) as [n1 r1] eqn:Ew. pose proof (reweight_shape _ _ _ _ _ _ Hw Ew) as (E1 & E2 & E3 & E4).
    destruct r1 as [[]|x]; [|injection H as <- <- <-; right; left; repeat split; auto; congruence].
    destruct (E4 eq_refl) as (mc & keep & Emc & Hin & Hc). set (X := mask keep (m_X mc)) in *.
    cbn [n_prop] in H. unfold last_MC_sample in H. cbn [n_flag n_mc n_re] in H.
    destruct Hc as (ws & Hc). unfold last_MC_sample in Hc. rewrite Hc in H. rewrite E3 in H. cbv beta iota in H.
    destruct (n_prop n) as [prop|] eqn:Ep.
    + left. split; [auto|]. split; [auto|]. rewrite !exclude_map in H.
      destruct (rank argsort w s np _ _ _) as [[[Xp yp] ap]|x] eqn:Er; injection H as <- <- <-; (split; [reflexivity|]);
        exists X, prop; (split; [unfold current, last_MC_sample; cbn [n_flag n_re n_mc]; rewrite Hc; eauto|]);
        cbn [n_prop n_i n_mc proposals];
        (split; [symmetry; exact Er|]); rewrite ?app_nil_r;
        (split; [reflexivity|]); (split; [congruence|]); (split; [reflexivity|]); (split; [exact E2|]);
        (split; [rewrite <- (reweight_world w) by auto; rewrite Ew; unfold current, last_MC_sample; cbn [fst]; rewrite Hc; eauto|]);
        exists mc, keep; repeat split; auto.
    + injection H as <- <- <-. right. right. cbn [n_prop n_i n_mc returned]. repeat split; auto.
Qed.

(** * C37 *)
(** As long as the calls return, the nested sampler is called in call number 0, [every], 2 [every], ... and when forced,
    and in no other call. Here for a history that starts with the counter at [n_i n]. *)
Lemma schedule_from w every : wsize w <> 0 -> forall ks n n' l, history w every ks n = (n', l) ->
  Forall (fun q => returned (snd q)) l ->
  length l = length ks /\ forall i k q, nth_error ks i = Some k -> nth_error l i = Some q ->
  fst q = (((n_i n + i) mod every =? 0) || k_force k).
Proof.
  intros Hw. induction ks as [|k ks IH]; intros n n' l H HF; cbn [MNora.history] in H.
  - injection H as <- <-. split; [reflexivity|]. intros [|i]; discriminate.
  - destruct (do_call expf argsort w every k n) as [[n1 sm] r] eqn:Ec. destruct (history w every ks n1) as [n2 l'] eqn:Eh.
    injection H as <- <-. inversion HF as [|? ? Hr HF']; subst. cbn [snd] in Hr.
    unfold do_call in Ec. apply call_shape in Ec; [|auto].
    destruct Ec as [(_ & _ & Esm & X & prop & _ & _ & _ & Ei & _)|[(Hn & _)|(Hn & _)]]; try contradiction.
    destruct (IH _ _ _ Eh HF') as [Hl K]. split; [cbn [length]; auto|].
    intros [|i] k' q Hk Hq; cbn [nth_error] in Hk, Hq.
    + injection Hk as <-. injection Hq as <-. rewrite Nat.add_0_r. exact Esm.
    + rewrite (K i k' q Hk Hq), Ei, Nat.add_succ_comm. reflexivity.
Qed.
Theorem C37_schedule : forall w every ks n l, wsize w <> 0 -> history w every ks new_nora = (n, l) ->
  Forall (fun q => returned (snd q)) l ->
  length l = length ks /\ forall i k q, nth_error ks i = Some k -> nth_error l i = Some q ->
  fst q = ((i mod every =? 0) || k_force k).
Proof. intros w every ks n l Hw H HF. exact (schedule_from w every Hw ks new_nora n l H HF). Qed.
(** In the calls of the sampler, what it returns becomes the current sample; in the others the stored sample is kept,
    and the current one is made of rows of it. *)
Theorem C37_sample : forall w every s np b force ns n n' sm Xp yp ap, wsize w <> 0 ->
  multi_add w every s np b force ns n = (n', sm, Ok (Xp, yp, ap)) ->
  if sm then exists X ws, ns = Ok (X, ws) /\ current s n' X /\ option_map m_X (n_mc n') = Some X
  else n_mc n' = n_mc n /\ exists mc X, n_mc n = Some mc /\ current s n' X /\ subm X (m_X mc) /\ forall x, In x X -> within b x = true.
Proof.
  intros w every s np b force ns n n' sm Xp yp ap Hw H. apply call_shape in H; [|auto].
  destruct H as [(_ & _ & _ & X & prop & Hc & _ & _ & _ & H)|[(Hn & _)|(Hn & _)]]; try (exfalso; apply Hn; exact I).
  destruct sm.
  - destruct H as ([ws E] & _ & E2). eauto.
  - destruct H as (_ & E & _ & mc & keep & E1 & E2 & E3). split; [auto|]. exists mc, X. repeat split; auto. rewrite E2. apply mask_subm.
Qed.
(** If the sampler raises, nothing changes: the next call runs it again. *)
Theorem C37_sampler_raises : forall w every s np b force n x, np <> 0 -> every <> 0 ->
  (n_i n mod every =? 0) || force = true ->
  multi_add w every s np b force (Err x) n = (n, true, Err x).
Proof.
  intros w every s np b force n x Hnp Hev Hs. unfold MNora.multi_add. rewrite Hs.
  destruct (Nat.eqb_spec np 0); [contradiction|]. destruct (Nat.eqb_spec every 0); [contradiction|]. reflexivity.
Qed.

(** * C38 *)
Definition new_weight (s : surrogate) (r : row) : num := nmul (rw r) (expf (nsub (s_mean s (rx r)) (ry r))).
Definition largest (m : num) (l : list num) : Prop := In m l /\ forall v, In v l -> nleb v m = true.

Lemma pymax_list_largest l : l <> [] -> (forall v, In v l -> isfin v = true) -> exists m, pymax_list l = Ok m /\ largest m l.
Proof.
  destruct l as [|x l]; [congruence|]. intros _. cbn [pymax_list]. intros Hf.
  assert (forall l x, (forall v, In v (x :: l) -> isfin v = true) -> largest (fold_left pymax l x) (x :: l)) as K.
  { clear. induction l as [|y l IH]; intros x Hf; cbn [fold_left].
    - split; [left; auto|]. intros v [<-|[]]. apply nleb_refl, isfin_notnan, Hf. left; auto.
    - assert (isnan x = false) as Nx by (apply isfin_notnan, Hf; left; auto).
      assert (isnan y = false) as Ny by (apply isfin_notnan, Hf; right; left; auto).
      assert (forall v, In v (pymax x y :: l) -> isfin v = true) as Hf'.
      { intros v [<-|Hv]; [|apply Hf; right; right; auto]. unfold pymax. destruct (nltb x y); apply Hf; [right; left; auto|left; auto]. }
      destruct (IH _ Hf') as [H1 H2]. split.
      + destruct H1 as [<-|H1]; [|right; right; auto]. unfold pymax. destruct (nltb x y); [right; left; auto|left; auto].
      + assert (nleb x (pymax x y) = true /\ nleb y (pymax x y) = true) as [Ex Ey].
        { unfold pymax. destruct (nltb x y) eqn:E.
          - split; [apply nltb_leb; auto|apply nleb_refl; auto].
          - rewrite nltb_not_leb in E by auto. apply negb_false_iff in E. split; [apply nleb_refl; auto|auto]. }
        specialize (H2 (pymax x y) (or_introl eq_refl)) as H3.
        intros v [<-|[<-|Hv]]; [eapply nleb_trans; eauto|eapply nleb_trans; eauto|apply H2; right; auto]. }
  eexists. split; [reflexivity|]. apply K. auto.
Qed.
Lemma map2_two {A B C T} (f : A -> B -> C) (g : T -> A) (h : T -> B) l : map2 f (map g l) (map h l) = map (fun t => f (g t) (h t)) l.
Proof. induction l; simpl; congruence. Qed.

(** Re-weighting a sample whose new weights (of the rows inside of the bounds) are finite, not negative, and not all
    zero: the kept rows are those inside of the bounds with a weight that is not zero, with new predictions, and weights
    divided by the largest one. The stored sample does not change. *)
Theorem C38_reweighted : forall w s b n R, wsize w <> 0 -> stored n R ->
  (forall r, In r R -> within b (rx r) = true -> isfin (new_weight s r) = true /\ nleb (nz 0) (new_weight s r) = true) ->
  (exists r, In r R /\ within b (rx r) = true /\ new_weight s r <> nz 0) ->
  let inside := filter (fun r => within b (rx r)) R in
  let kept := filter (fun r => negb (neqb (new_weight s r) (nz 0))) inside in
  exists n' m, reweight w s b n = (n', Ok tt)
  /\ largest m (map (new_weight s) inside)
  /\ last_MC_sample n' = Some (mkSample (map rx kept) (Some (map (s_mean s) (map rx kept))) (Some (map (s_sigma s) (map rx kept)))
        (Some (map (fun r => ndiv (new_weight s r) m) kept)))
  /\ In (nz 1) (map (fun r => ndiv (new_weight s r) m) kept)
  /\ (forall r, In r kept -> nltb (nz 0) (ndiv (new_weight s r) m) = true /\ nleb (ndiv (new_weight s r) m) (nz 1) = true)
  /\ n_mc n' = n_mc n.
Proof.
  intros w s b n R Hw (mc & Emc & EX & Ey & Ewt) Hpos (r0 & Hr0 & Hb0 & Hw0) inside kept.
  assert (forall r, In r inside -> isfin (new_weight s r) = true /\ nleb (nz 0) (new_weight s r) = true) as Hin.
  { intros r Hr. apply filter_In in Hr as [Hr Hb]. auto. }
  assert (In r0 inside) as Hi0 by (apply filter_In; auto).
  destruct (pymax_list_largest (map (new_weight s) inside)) as (m & Em & Hm).
  { intros E. assert (In (new_weight s r0) []) as [] by (rewrite <- E; apply in_map; auto). }
  { intros v Hv. apply in_map_iff in Hv as (r & <- & Hr). apply Hin; auto. }
  assert (exists qm, m = Fin qm /\ (0 < qm)%Qc) as (qm & -> & Hqm).
  { destruct Hm as [H1 H2]. apply in_map_iff in H1 as (r & <- & Hr). destruct (Hin r Hr) as [Hf _].
    destruct (new_weight s r) as [| |q|] eqn:E; try discriminate. exists q. split; [auto|].
    specialize (H2 (new_weight s r0) (in_map _ _ _ Hi0)). destruct (Hin r0 Hi0) as [Hf0 Hp0].
    destruct (new_weight s r0) as [| |q0|] eqn:E0; try discriminate. cbn [nleb nz] in H2, Hp0.
    apply qleb_le in H2. apply qleb_le in Hp0. apply Qclt_le_trans with q0; [|auto].
    apply Qcle_lt_or_eq in Hp0 as [Hp0|Hp0]; [exact Hp0|]. exfalso. apply Hw0. rewrite <- Hp0. reflexivity. }
  assert (qm <> 0)%Qc as Hnz by (intros Z; apply (Qclt_not_eq _ _ Hqm); auto).
  assert (forall r, In r inside -> exists q, new_weight s r = Fin q /\ (0 <= q)%Qc /\ (q <= qm)%Qc /\ ndiv (new_weight s r) (Fin qm) = Fin (q / qm)) as Hq.
  { intros r Hr. destruct (Hin r Hr) as [Hf Hp]. destruct Hm as [_ H2]. specialize (H2 _ (in_map (new_weight s) _ _ Hr)).
    destruct (new_weight s r) as [| |q|]; try discriminate. exists q. cbn [nleb nz] in *. apply qleb_le in H2, Hp. repeat split; auto.
    cbn [ndiv]. destruct (qeqb qm 0) eqn:E; [|reflexivity]. apply qeqb_eq in E. contradiction. }
  exists (mkNora (n_i n) (n_mc n) (Some (mkSample (map rx kept) (Some (map (s_mean s) (map rx kept))) (Some (map (s_sigma s) (map rx kept)))
        (Some (map (fun r => ndiv (new_weight s r) (Fin qm)) kept)))) (Some true) (n_prop n)), (Fin qm).
  split; [|split; [exact Hm|split; [reflexivity|split; [|split; [|reflexivity]]]]].
  - unfold MNora.reweight. rewrite Emc, Ey, EX. cbv zeta. rewrite predict_all by auto.
    assert (match b with Some b0 => map b0 (map rx R) | None => map (fun _ => true) (map rx R) end = map (fun r => within b (rx r)) R) as ->.
    { destruct b; rewrite map_map; reflexivity. }
    assert (match m_w mc with Some v => mask (map (fun r => within b (rx r)) R) v
       | None => map (fun _ => nz 1) (mask (map (fun r => within b (rx r)) R) (map rx R)) end = map rw inside) as ->.
    { destruct Ewt as [->|[-> E1]]; [rewrite mask_map, mask_map_filter; reflexivity|].
      rewrite mask_map, mask_map_filter, map_map. apply map_ext_in. intros r Hr. apply filter_In in Hr as [Hr _]. rewrite E1; auto. }
    rewrite !mask_map, !mask_map_filter. fold inside. rewrite !map_map, !map2_two.
    change (fun t => nmul (rw t) (expf (nsub (s_mean s (rx t)) (ry t)))) with (new_weight s). rewrite Em, !map_map.
    assert (map (fun r => negb (neqb (ndiv (new_weight s r) (Fin qm)) (nz 0))) inside = map (fun r => negb (neqb (new_weight s r) (nz 0))) inside) as ->.
    { apply map_ext_in. intros r Hr. destruct (Hq r Hr) as (q & Eq & _ & _ & Ed). rewrite Ed, Eq. change (nz 0) with (Fin 0). cbn [neqb]. f_equal.
      destruct (qeqb q 0) eqn:E.
      - apply qeqb_eq in E. subst. apply qeqb_eq. unfold Qcdiv. ring.
      - destruct (qeqb (q / qm) 0) eqn:E2; [|reflexivity]. apply qeqb_eq in E2. exfalso.
        assert (q = 0)%Qc as Z. { rewrite <- (Qcmult_0_l qm), <- E2. field. auto. }
        subst. rewrite (proj2 (qeqb_eq 0 0)) in E; [discriminate|reflexivity]. }
    cbn [option_map]. rewrite !mask_map, !mask_map_filter. fold kept. reflexivity.
  - destruct Hm as [H1 _]. apply in_map_iff in H1 as (r & E & Hr). apply in_map_iff. exists r.
    split.
    + destruct (Hq r Hr) as (q & Eq & _ & _ & ->). rewrite E in Eq. injection Eq as <-. change (nz 1) with (Fin 1). f_equal. unfold Qcdiv. apply Qcmult_inv_r. auto.
    + apply filter_In. split; [auto|]. rewrite E. change (nz 0) with (Fin 0). cbn [neqb]. destruct (qeqb qm 0) eqn:E2; [|reflexivity]. apply qeqb_eq in E2. contradiction.
  - intros r Hr. apply filter_In in Hr as [Hr Hz]. destruct (Hq r Hr) as (q & Eq & Hq0 & Hqq & ->). rewrite Eq in Hz. change (nz 0) with (Fin 0) in *. change (nz 1) with (Fin 1) in *. cbn [neqb] in Hz.
    assert (0 < / qm)%Qc as Hinv by (unfold Qclt, Qcinv in *; cbn [this Q2Qc] in *; rewrite !Qred_correct; apply Qinv_lt_0_compat; rewrite Qred_correct in Hqm; auto).
    cbn [nltb nleb]. split.
    + apply qltb_lt. unfold Qcdiv. rewrite <- (Qcmult_0_l (/ qm)). apply Qcmult_lt_compat_r; [auto|].
      apply Qcle_lt_or_eq in Hq0 as [Hq0|Hq0]; [auto|]. subst. rewrite (proj2 (qeqb_eq 0 0)) in Hz; [discriminate|reflexivity].
    + apply qleb_le. unfold Qcdiv.
      rewrite <- (Qcmult_inv_r qm); [apply Qcmult_le_compat_r; [auto|apply Qclt_le_weak; auto]|auto].
Qed.

(** Re-weighting starts from the stored sample each time: an earlier re-weighting does not matter. *)
Theorem C38_not_cumulative : forall w s1 b1 s2 b2 n, wsize w <> 0 ->
  snd (reweight w s2 b2 n) = Ok tt ->
  let n1 := fst (reweight w s1 b1 n) in
  snd (reweight w s2 b2 n1) = Ok tt
  /\ last_MC_sample (fst (reweight w s2 b2 n1)) = last_MC_sample (fst (reweight w s2 b2 n)).
Proof.
  intros w s1 b1 s2 b2 n Hw H n1. subst n1. destruct (reweight w s1 b1 n) as [n1 r1] eqn:E1.
  destruct (reweight_shape _ _ _ _ _ _ Hw E1) as (Ei & Em & Ep & _). cbn [fst].
  revert H. unfold MNora.reweight. rewrite Em.
  destruct (n_mc n) as [mc|]; [|discriminate]. destruct (m_y mc) as [y|]; [|discriminate]. cbv zeta.
  rewrite predict_all by auto. destruct (pymax_list _) as [m|]; [|discriminate]. intros _. split; reflexivity.
Qed.
(** Refuted: if no point of the sample is inside of the bounds, the call raises, and since the counter does not move,
    all following calls do, until one is forced or has bounds that contain a point of the sample. *)
Theorem C38_empty_refuted : forall w every ks n mc, wsize w <> 0 -> every <> 0 ->
  n_i n mod every <> 0 -> n_mc n = Some mc -> m_y mc <> None ->
  Forall (fun k => k_np k <> 0 /\ k_force k = false /\ forall x, In x (m_X mc) -> within (k_bounds k) x = false) ks ->
  Forall (fun q => q = (false, Err ValueError)) (snd (history w every ks n)).
Proof.
  intros w every ks n mc Hw Hev Hi Hmc Hy. revert n Hi Hmc. induction ks as [|k ks IH]; intros n Hi Hmc HF; [constructor|].
  inversion HF as [|? ? (Hnp & Hf & Hout) HF']; subst. cbn [MNora.history]. unfold do_call, MNora.multi_add.
  destruct (Nat.eqb_spec (k_np k) 0) as [|_]; [contradiction|]. destruct (Nat.eqb_spec every 0) as [|_]; [contradiction|].
  destruct (Nat.eqb_spec (n_i n mod every) 0) as [|_]; [contradiction|]. rewrite Hf. cbn [orb].
  destruct (reweight w (k_surr k) (k_bounds k) n) as [n1 r1] eqn:Er.
  destruct (reweight_shape _ _ _ _ _ _ Hw Er) as (Ei & Em & _ & _).
  assert (r1 = Err ValueError) as ->.
  { unfold MNora.reweight in Er. rewrite Hmc in Er. destruct (m_y mc) as [y|]; [|congruence]. cbv zeta in Er. rewrite predict_all in Er by auto.
    assert (mask (match k_bounds k with Some b => map b (m_X mc) | None => map (fun _ => true) (m_X mc) end) (m_X mc) = []) as E0.
    { assert (match k_bounds k with Some b => map b (m_X mc) | None => map (fun _ => true) (m_X mc) end = map (within (k_bounds k)) (m_X mc)) as ->
        by (destruct (k_bounds k); reflexivity).
      rewrite mask_map_filter. revert Hout. generalize (m_X mc). intros l Hl. induction l as [|x l IHl]; [reflexivity|].
      cbn [filter]. rewrite Hl by (left; auto). apply IHl. intros; apply Hl; right; auto. }
    rewrite E0 in Er. cbn [map map2] in Er.
    assert (forall l : list num, map2 nmul l [] = []) as E1 by (intros [|]; reflexivity). rewrite E1 in Er. cbn [pymax_list] in Er. congruence. }
  specialize (IH n1). destruct (history w every ks n1) as [n2 l] eqn:Eh. cbn [snd] in *. constructor; [reflexivity|].
  rewrite Ei, Em in IH. auto.
Qed.
(** Refuted: a point excluded both when it was sampled and now (value -infinity both times: UltraNest returns such
    points, see C95) has no finite weight; if it comes first, all weights become NaN. *)
Theorem C38_infinite_refuted : forall w s b n x v R, wsize w <> 0 -> expf NaN = NaN ->
  stored n (mkRow x NInf v :: R) -> within b x = true -> s_mean s x = NInf ->
  exists n' X y sg ws, reweight w s b n = (n', Ok tt) /\ last_MC_sample n' = Some (mkSample (x :: X) y sg (Some ws))
  /\ Forall (fun u => u = NaN) ws.
Proof.
  intros w s b n x v R Hw He (mc & Emc & EX & Ey & Ewt) Hb Hx. unfold MNora.reweight. rewrite Emc, Ey, EX. cbv zeta. rewrite predict_all by auto.
  set (R' := mkRow x NInf v :: R) in *. set (inside := filter (fun r => within b (rx r)) R').
  assert (match b with Some b0 => map b0 (map rx R') | None => map (fun _ => true) (map rx R') end = map (fun r => within b (rx r)) R') as ->.
  { destruct b; rewrite map_map; reflexivity. }
  assert (match m_w mc with Some u => mask (map (fun r => within b (rx r)) R') u
     | None => map (fun _ => nz 1) (mask (map (fun r => within b (rx r)) R') (map rx R')) end = map rw inside) as ->.
  { destruct Ewt as [->|[-> E1]]; [rewrite mask_map, mask_map_filter; reflexivity|].
    rewrite mask_map, mask_map_filter, map_map. apply map_ext_in. intros r Hr. apply filter_In in Hr as [Hr _]. rewrite E1; auto. }
  rewrite !mask_map, !mask_map_filter. fold inside. rewrite !map_map, !map2_two.
  change (fun t => nmul (rw t) (expf (nsub (s_mean s (rx t)) (ry t)))) with (new_weight s).
  assert (inside = mkRow x NInf v :: filter (fun r => within b (rx r)) R) as ->.
  { subst inside R'. cbn [filter rx]. rewrite Hb. reflexivity. }
  set (I := filter (fun r => within b (rx r)) R). cbn [map pymax_list rx].
  assert (new_weight s (mkRow x NInf v) = NaN) as ->.
  { unfold new_weight. cbn [rx ry rw]. rewrite Hx. cbn [nsub nadd nneg]. rewrite He. destruct v; reflexivity. }
  assert (fold_left pymax (map (new_weight s) I) NaN = NaN) as ->.
  { induction (map (new_weight s) I) as [|u l IH]; [reflexivity|]. cbn [fold_left]. exact IH. }
  do 5 eexists. split; [reflexivity|]. cbn [last_MC_sample n_flag n_re ndiv neqb negb map mask]. split; [reflexivity|].
  constructor; [reflexivity|]. rewrite Forall_forall. intros u Hu. apply mask_incl in Hu. apply in_map_iff in Hu as (u0 & <- & Hu).
  destruct u0; reflexivity.
Qed.

(** * C93 *)
(** The proposals are at most as many as asked for, they are rows of the current sample, each at most as often as there,
    and come with their mean and acquisition value, predicted by the surrogate of the call. *)
Theorem C93_proposals : forall w every s np b force ns n n' sm Xp yp ap, wsize w <> 0 ->
  multi_add w every s np b force ns n = (n', sm, Ok (Xp, yp, ap)) ->
  exists X, current s n' X /\ length Xp <= np /\ subm Xp X /\ yp = map (s_mean s) Xp /\ ap = map (acq_at s) Xp.
Proof.
  intros w every s np b force ns n n' sm Xp yp ap Hw H. apply call_shape in H; [|auto].
  destruct H as [(Hnp & _ & _ & X & prop & Hc & Hr & _)|[(Hn & _)|(Hn & _)]]; try (exfalso; apply Hn; exact I).
  exists X. split; [auto|]. symmetry in Hr. apply (rank_spec argsort Harg) in Hr as (H1 & H2 & H3 & H4); [|lia|auto].
  repeat split; auto. eapply subm_trans; [exact H2|]. apply exclude_subm.
Qed.

(** * C39 *)
Lemma exclude_exact prop X : told_apart X -> incl prop X -> forall Y, subm Y X ->
  forall x, In x (exclude prop Y Y) <-> In x Y /\ ~ In x prop.
Proof.
  intros (Hnd & Hnn & Hap) Hprop Y HY x.
  pose proof (subm_incl _ _ HY) as Hi. pose proof (subm_nodup _ _ HY Hnd) as HndY.
  assert (forall p r, In p X -> In r Y -> isin_row p r = true <-> r = p) as Hrow.
  { intros p r Hp Hr. unfold isin_row. rewrite forallb_forall. split.
    - intros H. apply Hap; auto. intros v Hv. specialize (H v Hv). apply existsb_exists in H as (u & Hu & E). apply neqb_eq in E. congruence.
    - intros -> v Hv. apply existsb_exists. exists v. split; [auto|]. apply neqb_refl. eapply Hnn; eauto. }
  unfold exclude. destruct prop as [|p0 prop0]; [split; [intros; split; auto|intros []; auto]|]. set (prop := p0 :: prop0) in *.
  rewrite in_delete.
  assert (forall i, In i (indices_already prop Y) <-> exists p, In p prop /\ nth_error Y i = Some p) as Hidx.
  { intros i. unfold indices_already. rewrite in_flat_map. split.
    - intros (p & Hp & Hin). destruct (find_idx (isin_row p) Y) as [j|] eqn:Ej; [|destruct Hin]. destruct Hin as [<-|[]].
      apply find_idx_some in Ej as [(r & Hr & Ht) _]. exists p. split; [auto|]. rewrite Hr. f_equal. apply Hrow; auto. eapply nth_error_In; eauto.
    - intros (p & Hp & Hn). exists p. split; [auto|]. destruct (find_idx (isin_row p) Y) as [j|] eqn:Ej.
      + apply find_idx_some in Ej as [(r & Hr & Ht) _]. left. apply Hrow in Ht; [|auto|eapply nth_error_In; eauto]. subst r.
        eapply NoDup_nth_error; [exact HndY| |congruence]. apply nth_error_Some. congruence.
      + pose proof (find_idx_none _ _ Ej i p Hn) as E. rewrite (proj2 (Hrow p p (Hprop p Hp) (nth_error_In _ _ Hn)) eq_refl) in E. discriminate. }
  split.
  - intros (i & Hx & Hn). split; [eapply nth_error_In; eauto|]. intros Hp. apply Hn, Hidx. eauto.
  - intros [Hx Hn]. apply In_nth_error in Hx as [i Hx]. exists i. split; [auto|]. rewrite Hidx. intros (p & Hp & E). apply Hn. congruence.
Qed.
(** The points already proposed are some of the stored sample. *)
Definition fit (n : nora) : Prop := forall prop, n_prop n = Some prop ->
  exists mc, n_mc n = Some mc /\ told_apart (m_X mc) /\ incl prop (m_X mc).
Lemma call_keeps w every k n n' sm r : wsize w <> 0 -> fit n ->
  (forall X ws, k_ns k = Ok (X, ws) -> told_apart X) ->
  do_call expf argsort w every k n = (n', sm, r) ->
  fit n' /\ NoDup (proposals r)
  /\ (sm = false -> forall prop, n_prop n = Some prop -> incl prop (match n_prop n' with Some p => p | None => [] end)
      /\ forall x, In x (proposals r) -> ~ In x prop)
  /\ (returned r -> exists prop, n_prop n' = Some (prop ++ proposals r)).
Proof.
  intros Hw Hfit Hns H. unfold do_call in H. apply call_shape in H; [|auto].
  destruct H as [(Hnp & _ & _ & X & prop & Hc & Hr & Ep & _ & H)|[(Hn & _ & Em & Ep & _)|(Hn & E0 & Ep & Em & _)]].
  - assert (forall Y, told_apart Y -> incl prop Y -> subm X Y ->
      NoDup (proposals r) /\ incl (proposals r) Y /\ forall x, In x (proposals r) -> ~ In x prop) as K.
    { intros Y HY Hin HX. destruct r as [[[Xp yp] ap]|x]; [|cbn [proposals]; repeat split; [constructor|intros ? []|intros ? []]].
      cbn [proposals]. symmetry in Hr. apply (rank_spec argsort Harg) in Hr as (_ & Hsub & _ & _); [|lia|auto].
      pose proof (subm_trans _ _ _ (exclude_subm prop X X) HX) as Hs2. split; [|split].
      - eapply subm_nodup; [exact Hsub|]. eapply subm_nodup; [exact Hs2|]. apply HY.
      - intros x Hx. eapply subm_incl; [exact Hs2|]. eapply subm_incl; eauto.
      - intros x Hx. apply (subm_incl _ _ Hsub) in Hx. apply (exclude_exact prop Y HY Hin X HX) in Hx. tauto. }
    destruct sm.
    + destruct H as ([ws E] & -> & Emc). specialize (Hns _ _ E).
      destruct (K X Hns ltac:(intros ? []) (subm_refl _)) as (K1 & K2 & K3).
      split; [|split; [auto|split; [discriminate|]]].
      * intros p Hp. rewrite Ep in Hp. injection Hp as <-. destruct (n_mc n') as [mc|]; [|discriminate]. injection Emc as <-. eauto.
      * intros _. exists []. exact Ep.
    + destruct H as (Ep0 & Emc & _ & mc & keep & E1 & E2 & _). destruct (Hfit _ Ep0) as (mc' & Emc' & Hta & Hin).
      replace mc' with mc in * by congruence.
      destruct (K (m_X mc) Hta Hin) as (K1 & K2 & K3); [rewrite E2; apply mask_subm|].
      split; [|split; [auto|split]].
      * intros p Hp. rewrite Ep in Hp. injection Hp as <-. exists mc. split; [congruence|]. split; [auto|]. apply incl_app; auto.
      * intros _ p Hp. rewrite Ep0 in Hp. injection Hp as <-. rewrite Ep. split; [apply incl_appl, incl_refl|auto].
      * intros _. eauto.
  - assert (proposals r = []) as E by (destruct r; [exfalso; apply Hn; exact I|reflexivity]). rewrite E.
    split; [|split; [constructor|split; [|contradiction]]].
    + intros p Hp. rewrite Ep in Hp. rewrite Em. auto.
    + intros _ p Hp. rewrite Ep, Hp. split; [apply incl_refl|intros ? []].
  - assert (proposals r = []) as E by (destruct r; [exfalso; apply Hn; exact I|reflexivity]). rewrite E.
    split; [|split; [constructor|split; [|contradiction]]].
    + intros p Hp. congruence.
    + intros _ p Hp. congruence.
Qed.
(** Between two runs of the nested sampler no point is proposed twice, neither in the same call nor in two. Calls may
    raise. *)
Theorem C39_not_twice : forall w every ks n l, wsize w <> 0 -> history w every ks new_nora = (n, l) ->
  (forall k X ws, In k ks -> k_ns k = Ok (X, ws) -> told_apart X) ->
  (forall q, In q l -> NoDup (proposals (snd q)))
  /\ forall i j qi qj x, i < j -> nth_error l i = Some qi -> nth_error l j = Some qj ->
     (forall h q, i < h <= j -> nth_error l h = Some q -> fst q = false) ->
     In x (proposals (snd qi)) -> ~ In x (proposals (snd qj)).
Proof.
  intros w every ks n l Hw H Hns.
  assert (forall ks n n' l, fit n -> history w every ks n = (n', l) -> (forall k X ws, In k ks -> k_ns k = Ok (X, ws) -> told_apart X) ->
    forall prop x, n_prop n = Some prop -> In x prop -> forall j qj, nth_error l j = Some qj ->
    (forall h q, h <= j -> nth_error l h = Some q -> fst q = false) -> ~ In x (proposals (snd qj))) as Later.
  { clear - Hw Harg. induction ks as [|k ks IH]; intros n n' l Hfit H Hns prop x Hp Hx j qj Hj Hun; cbn [MNora.history] in H.
    - injection H as <- <-. destruct j; discriminate.
    - destruct (do_call expf argsort w every k n) as [[n1 sm] r] eqn:Ec. destruct (history w every ks n1) as [n2 l'] eqn:Eh. injection H as <- <-.
      destruct (call_keeps _ _ _ _ _ _ _ Hw Hfit (fun X ws => Hns k X ws (or_introl eq_refl)) Ec) as (Hfit1 & _ & Hk & _).
      assert (sm = false) as -> by (apply (Hun 0 (sm, r)); [lia|reflexivity]). destruct (Hk eq_refl prop Hp) as [Hinc Hnot].
      destruct j as [|j]; cbn [nth_error] in Hj.
      + injection Hj as <-. cbn [snd]. intros Hin. exact (Hnot x Hin Hx).
      + destruct (n_prop n1) as [prop1|] eqn:Ep1; [|apply Hinc in Hx; destruct Hx].
        eapply (IH n1 n2 l' Hfit1 Eh); eauto.
        * intros k0 X ws Hk0. apply Hns. right; auto.
        * intros h q Hh Hq. apply (Hun (S h) q); [lia|exact Hq]. }
  assert (fit new_nora) as Hfit by (intros p Hp; discriminate).
  revert n l H Hns Hfit. generalize new_nora. induction ks as [|k ks IH]; intros n0 n l H Hns Hfit; cbn [MNora.history] in H.
  - injection H as <- <-. split; [intros q []|]. intros [|i] j qi qj x _ Hi; discriminate.
  - destruct (do_call expf argsort w every k n0) as [[n1 sm] r] eqn:Ec. destruct (history w every ks n1) as [n2 l'] eqn:Eh. injection H as <- <-.
    destruct (call_keeps _ _ _ _ _ _ _ Hw Hfit (fun X ws => Hns k X ws (or_introl eq_refl)) Ec) as (Hfit1 & Hnd & _ & Hret).
    assert (forall k X ws, In k ks -> k_ns k = Ok (X, ws) -> told_apart X) as Hns' by (intros k0 X ws Hk0; apply Hns; right; auto).
    destruct (IH _ _ _ Eh Hns' Hfit1) as [IH1 IH2]. split; [intros q [<-|Hq]; auto|].
    intros i j qi qj x Hij Hi Hj Hun Hx. destruct j as [|j]; [lia|]. cbn [nth_error] in Hj. destruct i as [|i]; cbn [nth_error] in Hi.
    + injection Hi as <-. cbn [snd] in Hx. destruct r as [v|]; [|destruct Hx]. destruct (Hret I) as [prop Ep].
      eapply (Later ks n1 n2 l' Hfit1 Eh Hns'); [exact Ep|apply in_or_app; right; exact Hx|exact Hj|].
      intros h q Hh Hq. apply (Hun (S h) q); [lia|exact Hq].
    + eapply (IH2 i j qi qj x); [lia|exact Hi|exact Hj| |exact Hx]. intros h q Hh Hq. apply (Hun (S h) q); [lia|exact Hq].
Qed.

(** * C94 *)
(** States reached by a history of calls, with what they returned. *)
Definition reached (w : world) (every : nat) (n : nora) (l : list (bool * res (list point * list num * list num))) : Prop :=
  exists ks, history w every ks new_nora = (n, l) /\ forall k X ws, In k ks -> k_ns k = Ok (X, ws) -> told_apart X.
Lemma reached_inv w every n l : wsize w <> 0 -> reached w every n l ->
  fit n /\ (n_prop n = None -> n_mc n = None)
  /\ forall prop, n_prop n = Some prop -> forall x, In x prop -> exists q, In q l /\ In x (proposals (snd q)).
Proof.
  intros Hw (ks & H & Hns).
  assert (forall ks n0 n l pre, history w every ks n0 = (n, l) -> (forall k X ws, In k ks -> k_ns k = Ok (X, ws) -> told_apart X) ->
    fit n0 -> (n_prop n0 = None -> n_mc n0 = None) ->
    (forall prop, n_prop n0 = Some prop -> forall x, In x prop -> exists q, In q pre /\ In x (proposals (snd q))) ->
    fit n /\ (n_prop n = None -> n_mc n = None)
    /\ forall prop, n_prop n = Some prop -> forall x, In x prop -> exists q, In q (pre ++ l) /\ In x (proposals (snd q))) as K.
  { clear - Hw Harg. induction ks as [|k ks IH]; intros n0 n l pre H Hns Hfit Hnone Hpre; cbn [MNora.history] in H.
    - injection H as <- <-. rewrite app_nil_r. auto.
    - destruct (do_call expf argsort w every k n0) as [[n1 sm] r] eqn:Ec. destruct (history w every ks n1) as [n2 l'] eqn:Eh. injection H as <- <-.
      destruct (call_keeps _ _ _ _ _ _ _ Hw Hfit (fun X ws => Hns k X ws (or_introl eq_refl)) Ec) as (Hfit1 & _).
      replace (pre ++ (sm, r) :: l') with ((pre ++ [(sm, r)]) ++ l') by (rewrite <- app_assoc; reflexivity).
      apply (IH n1 n2 l'); auto.
      + intros k0 X ws Hk0. apply Hns. right; auto.
      + unfold do_call in Ec. apply call_shape in Ec; [|auto].
        destruct Ec as [(_ & _ & _ & X & prop & _ & _ & Ep & _ & _)|[(_ & _ & Em & Ep & _)|(_ & E0 & Ep & Em & _)]]; try congruence.
        * rewrite Em, Ep. auto.
        * intros _. rewrite Em. auto.
      + unfold do_call in Ec. apply call_shape in Ec; [|auto]. intros prop' Hp x Hx.
        destruct Ec as [(_ & _ & _ & X & prop & _ & _ & Ep & _ & H)|[(_ & _ & _ & Ep & _)|(_ & E0 & Ep & _)]]; try congruence.
        * rewrite Ep in Hp. injection Hp as <-. apply in_app_or in Hx as [Hx|Hx].
          -- destruct sm; [destruct H as (_ & -> & _); destruct Hx|]. destruct H as (Hp0 & _).
             destruct (Hpre _ Hp0 x Hx) as (q & Hq & Hxq). exists q. split; [apply in_or_app; auto|auto].
          -- exists (sm, r). split; [apply in_or_app; right; left; auto|auto].
        * rewrite Ep in Hp. destruct (Hpre _ Hp x Hx) as (q & Hq & Hxq). exists q. split; [apply in_or_app; auto|auto]. }
  apply (K ks new_nora n l []); auto; [intros p; discriminate|intros p; discriminate].
Qed.
(** The first proposal has an acquisition value at least as large as that of every point of the current sample that has
    not been proposed before. *)
Theorem C94_first_best : forall w every n l k n' sm Xp yp ap, wsize w <> 0 -> reached w every n l ->
  coherent (k_surr k) -> (forall X ws, k_ns k = Ok (X, ws) -> told_apart X) ->
  do_call expf argsort w every k n = (n', sm, Ok (Xp, yp, ap)) ->
  exists X, current (k_surr k) n' X /\ forall x, In x X -> acq_at (k_surr k) x <> NInf ->
    (sm = false -> forall q, In q l -> ~ In x (proposals (snd q))) ->
    exists x1 Xr, Xp = x1 :: Xr /\ nleb (acq_at (k_surr k) x) (acq_at (k_surr k) x1) = true.
Proof.
  intros w every n l k n' sm Xp yp ap Hw Hre Hco Hns H. destruct (reached_inv _ _ _ _ Hw Hre) as (Hfit & _ & Hpre).
  unfold do_call in H. apply call_shape in H; [|auto].
  destruct H as [(Hnp & _ & _ & X & prop & Hc & Hr & _ & _ & H)|[(Hn & _)|(Hn & _)]]; try (exfalso; apply Hn; exact I).
  exists X. split; [auto|]. intros x Hx Hne Hnew.
  destruct (rank_top argsort Harg w (k_surr k) (k_np k) (exclude prop X X) Hco ltac:(lia) Hw) as (Xp' & yp' & ap' & E & Hbest).
  rewrite E in Hr. injection Hr as -> -> ->. apply Hbest; [|auto].
  destruct sm.
  - destruct H as (_ & -> & _). exact Hx.
  - destruct H as (Hp & _ & _ & mc & keep & E1 & E2 & _). destruct (Hfit _ Hp) as (mc' & Emc' & Hta & Hin).
    replace mc' with mc in * by congruence. apply (exclude_exact prop (m_X mc) Hta Hin X); [rewrite E2; apply mask_subm|].
    split; [auto|]. intros Hxp. destruct (Hpre _ Hp x Hxp) as (q & Hq & Hxq). exact (Hnew eq_refl q Hq Hxq).
Qed.
(** A call returns if the sampler, or the re-weighting, does. *)
Theorem C94_returns : forall w every n l k n' sm r, wsize w <> 0 -> reached w every n l -> coherent (k_surr k) ->
  k_np k <> 0 -> every <> 0 ->
  (if (n_i n mod every =? 0) || k_force k then exists X ws, k_ns k = Ok (X, ws)
   else snd (reweight w (k_surr k) (k_bounds k) n) = Ok tt) ->
  do_call expf argsort w every k n = (n', sm, r) -> returned r.
Proof.
  intros w every n l k n' sm r Hw Hre Hco Hnp Hev Hok H. destruct (reached_inv _ _ _ _ Hw Hre) as (_ & Hnone & _).
  unfold do_call in H. pose proof H as H0. apply call_shape in H; [|auto].
  assert (forall X prop, r = rank argsort w (k_surr k) (k_np k) (exclude prop X X) (map (s_mean (k_surr k)) (exclude prop X X)) (map (s_sigma (k_surr k)) (exclude prop X X)) -> returned r) as K.
  { intros X prop ->. destruct (rank_top argsort Harg w (k_surr k) (k_np k) (exclude prop X X) Hco ltac:(lia) Hw) as (Xp' & yp' & ap' & E & _).
    rewrite E. exact I. }
  destruct H as [(_ & _ & _ & X & prop & _ & Hr & _)|[(Hn & Ei & _)|(Hn & E0 & _ & _ & Esm & Ei & Es)]]; [eauto|exfalso|exfalso].
  - unfold MNora.multi_add in H0. destruct (Nat.eqb_spec (k_np k) 0) as [|_]; [contradiction|]. destruct (Nat.eqb_spec every 0) as [|_]; [contradiction|].
    destruct ((n_i n mod every =? 0) || k_force k).
    + destruct Hok as (X & ws & E). rewrite E in H0. unfold set_MC_sample in H0. rewrite predict_all in H0 by auto.
      cbn [n_i n_mc n_re n_flag n_prop last_MC_sample] in H0. unfold last_MC_sample in H0. cbn [n_flag n_mc] in H0.
      destruct (rank argsort w (k_surr k) (k_np k) _ _ _) as [[[Xp yp] ap]|x]; injection H0 as <- <- <-; cbn [n_i] in Ei; lia.
    + destruct (reweight w (k_surr k) (k_bounds k) n) as [n1 r1] eqn:Er. cbn [snd] in Hok. subst r1.
      destruct (reweight_shape _ _ _ _ _ _ Hw Er) as (Ei1 & _). cbn [n_i n_mc n_re n_flag n_prop] in H0.
      destruct (last_MC_sample _) as [[X1 [y1|] [s1|] w1]|], (n_prop n1); try (injection H0 as <- <- <-; cbn [n_i] in Ei; lia).
      destruct (rank argsort w (k_surr k) (k_np k) _ _ _) as [[[Xp yp] ap]|x]; injection H0 as <- <- <-; cbn [n_i] in Ei; lia.
  - rewrite (Es Hnp Hev) in Esm. rewrite Esm in Hok. unfold MNora.reweight in Hok. rewrite (Hnone E0) in Hok. discriminate.
Qed.
(** The acquisition value of the first proposal does not depend on the number of processes. *)
Theorem C94_processes : forall w1 w2 every s np b force ns n n1 n2 sm1 sm2 x1 X1 y1 a1 x2 X2 y2 a2, wsize w1 <> 0 -> wsize w2 <> 0 -> coherent s ->
  multi_add w1 every s np b force ns n = (n1, sm1, Ok (x1 :: X1, y1, a1)) ->
  multi_add w2 every s np b force ns n = (n2, sm2, Ok (x2 :: X2, y2, a2)) ->
  sm1 = sm2 /\ acq_at s x1 = acq_at s x2.
Proof.
  intros w1 w2 every s np b force ns n n1 n2 sm1 sm2 x1 X1 y1 a1 x2 X2 y2 a2 Hw1 Hw2 Hco H1 H2.
  apply call_shape in H1; [|auto]. apply call_shape in H2; [|auto].
  destruct H1 as [(Hnp & _ & Es1 & Y1 & p1 & _ & Hr1 & _ & _ & H1)|[(Hn & _)|(Hn & _)]]; try (exfalso; apply Hn; exact I).
  destruct H2 as [(_ & _ & Es2 & Y2 & p2 & _ & Hr2 & _ & _ & H2)|[(Hn & _)|(Hn & _)]]; try (exfalso; apply Hn; exact I).
  split; [congruence|]. rewrite <- Es1 in Es2. subst sm2.
  assert (p1 = p2 /\ Y1 = Y2) as [<- <-].
  { destruct sm1.
    - destruct H1 as ((ws1 & E1) & -> & _), H2 as ((ws2 & E2) & -> & _). split; congruence.
    - destruct H1 as (E1 & _ & (u1 & C1) & _), H2 as (E2 & _ & (u2 & C2) & _). split; [congruence|]. rewrite C1 in C2. congruence. }
  set (Z := exclude p1 Y1 Y1) in *.
  pose proof (rank_spec argsort Harg w1 s np Z _ _ _ ltac:(lia) Hw1 (eq_sym Hr1)) as (_ & S1 & _).
  pose proof (rank_spec argsort Harg w2 s np Z _ _ _ ltac:(lia) Hw2 (eq_sym Hr2)) as (_ & S2 & _).
  destruct (rank_top argsort Harg w1 s np Z Hco ltac:(lia) Hw1) as (? & ? & ? & E1 & B1). rewrite E1 in Hr1. injection Hr1 as <- <- <-.
  destruct (rank_top argsort Harg w2 s np Z Hco ltac:(lia) Hw2) as (? & ? & ? & E2 & B2). rewrite E2 in Hr2. injection Hr2 as <- <- <-.
  assert (In x1 Z) as I1 by (eapply subm_incl; [exact S1|left; auto]). assert (In x2 Z) as I2 by (eapply subm_incl; [exact S2|left; auto]).
  assert (acq_at s x1 <> NInf -> nleb (acq_at s x1) (acq_at s x2) = true) as L1.
  { intros Hne. destruct (B2 x1 I1 Hne) as (z & ? & Ez & Hz). injection Ez as <- <-. auto. }
  assert (acq_at s x2 <> NInf -> nleb (acq_at s x2) (acq_at s x1) = true) as L2.
  { intros Hne. destruct (B1 x2 I2 Hne) as (z & ? & Ez & Hz). injection Ez as <- <-. auto. }
  destruct (num_eq_dec (acq_at s x1) NInf) as [Z1|Z1], (num_eq_dec (acq_at s x2) NInf) as [Z2|Z2]; [congruence| | |apply nleb_antisym; auto].
  - specialize (L2 Z2). rewrite Z1 in L2. apply nleb_ninf in L2. congruence.
  - specialize (L1 Z1). rewrite Z2 in L1. apply nleb_ninf in L1. congruence.
Qed.
End T.
Print Assumptions C37_schedule.
Print Assumptions C37_sample.
Print Assumptions C37_sampler_raises.
Print Assumptions C38_reweighted.
Print Assumptions C38_not_cumulative.
Print Assumptions C38_empty_refuted.
Print Assumptions C38_infinite_refuted.
Print Assumptions C93_proposals.
Print Assumptions C39_not_twice.
Print Assumptions C94_first_best.
Print Assumptions C94_returns.
Print Assumptions C94_processes.

(** * Concrete cases *)
(** A stand-in for the exponential: positive, increasing, 1 at 0. *)
Definition toy_exp (v : num) : num :=
  match v with
  | NaN => NaN | NInf => nz 0 | PInf => PInf
  | Fin q => Fin (if qltb q 0 then / (1 - q) else 1 + q)%Qc
  end.
(** Mean: [k] times the first coordinate. Error: 1 over one plus the number of points appended, acquisition: mean plus error. *)
Definition toy_surr (k : Z) : surrogate :=
  mkSurr (fun x => match x with Fin q :: _ => nmul (nz k) (Fin q) | _ => nz 0 end) (fun _ => nz 1)
    (fun C _ => nq 1 (Pos.of_succ_nat (length C))) nadd.
Definition P2 (a b : Z) : point := [nz a; nz b].
Definition call_ (k : Z) (np : nat) (b : option (point -> bool)) (f : bool) (X : list point) : call :=
  mkCall (toy_surr k) np b f (Ok (X, None)).
Definition X3 : list point := [P2 1 2; P2 3 4; P2 5 6].
Definition below5 : option (point -> bool) := Some (fun x => match x with v :: _ => nltb v (nz 5) | [] => true end).
Definition toy_calls : list call :=
  [call_ 1 1 None false X3; call_ 2 1 None false X3; call_ 1 2 None true X3; call_ 1 1 below5 false X3; call_ 3 2 None false X3].
Definition toy_history (w : world) := snd (history toy_exp stable_argsort w 2 toy_calls new_nora).
(** One call in two runs the sampler, and the third is forced. *)
Example C37_example : map (fun q => (fst q, proposals (snd q))) (toy_history NoMpi)
  = [(true, [P2 5 6]); (false, [P2 3 4]); (true, [P2 5 6; P2 3 4]); (false, [P2 1 2]); (true, [P2 5 6; P2 3 4])].
Proof. vm_compute. reflexivity. Qed.
Example C37_example_mpi : map (fun q => (fst q, proposals (snd q))) (toy_history (Mpi 2))
  = [(true, [P2 5 6]); (false, [P2 3 4]); (true, [P2 5 6; P2 3 4]); (false, [P2 1 2]); (true, [P2 5 6; P2 3 4])].
Proof. vm_compute. reflexivity. Qed.
Lemma X3_told_apart : told_apart X3.
Proof.
  split; [|split].
  - repeat constructor; cbn; intuition discriminate.
  - intros x v [<-|[<-|[<-|[]]]] [<-|[<-|[]]]; reflexivity.
  - intros p r Hp Hr H. assert (In (hd NaN r) p) as K by (apply H; destruct Hr as [<-|[<-|[<-|[]]]]; left; reflexivity).
    destruct Hp as [<-|[<-|[<-|[]]]], Hr as [<-|[<-|[<-|[]]]]; try reflexivity; exfalso; destruct K as [K|[K|[]]]; discriminate.
Qed.
Lemma toy_coherent k : coherent (toy_surr k).
Proof.
  constructor.
  - intros [|[| |q|] x]; reflexivity.
  - intros x. reflexivity.
  - intros C D x y Hy. cbn [toy_surr s_acq s_std]. rewrite app_length.
    assert (nleb (nq 1 (Pos.of_succ_nat (length C + length D))) (nq 1 (Pos.of_succ_nat (length C))) = true) as K.
    { unfold nq. cbn [nleb]. apply qleb_le. unfold Qcle. rewrite !this_Q2Qc. unfold Qle. cbn [Qnum Qden]. lia. }
    unfold nq in *. destruct y as [| |q|]; try reflexivity; [discriminate|]. cbn [nadd nleb] in *. apply qleb_le in K. apply qleb_le.
    apply Qcplus_le_compat; [apply Qcle_refl|exact K].
  - intros [|[| |q|] x]; discriminate.
Qed.
(** The hypotheses of C39 and C94 hold along these calls. *)
Example C39_example : (forall k X ws, In k toy_calls -> k_ns k = Ok (X, ws) -> told_apart X)
  /\ reached toy_exp stable_argsort NoMpi 2 (fst (history toy_exp stable_argsort NoMpi 2 (firstn 3 toy_calls) new_nora))
       (snd (history toy_exp stable_argsort NoMpi 2 (firstn 3 toy_calls) new_nora))
  /\ forall k, In k toy_calls -> coherent (k_surr k).
Proof.
  assert (forall k X ws, In k toy_calls -> k_ns k = Ok (X, ws) -> told_apart X) as H.
  { intros k X ws Hk E. destruct Hk as [<-|[<-|[<-|[<-|[<-|[]]]]]]; injection E as <- <-; apply X3_told_apart. }
  split; [exact H|]. split.
  - exists (firstn 3 toy_calls). split; [apply surjective_pairing|]. intros k X ws Hk. apply H. cbn [firstn toy_calls] in *.
    destruct Hk as [<-|[<-|[<-|[]]]]; [left|right; left|do 2 right; left]; reflexivity.
  - intros k [<-|[<-|[<-|[<-|[<-|[]]]]]]; apply toy_coherent.
Qed.
(** Re-weighting three points sampled with weights 1, 2, 1 from predictions 1, 3, 5 when these have become 2, 6, 10, with
    bounds that exclude the last. *)
Definition toy_rows : list row := [mkRow (P2 1 2) (nz 1) (nz 1); mkRow (P2 3 4) (nz 3) (nz 2); mkRow (P2 5 6) (nz 5) (nz 1)].
Definition toy_stored : nora :=
  mkNora 1 (Some (mkSample X3 (Some [nz 1; nz 3; nz 5]) (Some [nz 1; nz 1; nz 1]) (Some [nz 1; nz 2; nz 1]))) None (Some false) (Some []).
Example C38_example : stored toy_stored toy_rows
  /\ (forall r, In r toy_rows -> within below5 (rx r) = true ->
        isfin (new_weight toy_exp (toy_surr 2) r) = true /\ nleb (nz 0) (new_weight toy_exp (toy_surr 2) r) = true)
  /\ (exists r, In r toy_rows /\ within below5 (rx r) = true /\ new_weight toy_exp (toy_surr 2) r <> nz 0)
  /\ last_MC_sample (fst (reweight toy_exp NoMpi (toy_surr 2) below5 toy_stored))
     = Some (mkSample [P2 1 2; P2 3 4] (Some [nz 2; nz 6]) (Some [nz 1; nz 1]) (Some [nq 1 4; nz 1])).
Proof.
  split; [|split; [|split]].
  - exists (mkSample X3 (Some [nz 1; nz 3; nz 5]) (Some [nz 1; nz 1; nz 1]) (Some [nz 1; nz 2; nz 1])). repeat split; try reflexivity. left; reflexivity.
  - intros r [<-|[<-|[<-|[]]]] _; split; vm_compute; reflexivity.
  - exists (mkRow (P2 1 2) (nz 1) (nz 1)). split; [left; reflexivity|]. split; [vm_compute; reflexivity|vm_compute; discriminate].
  - vm_compute. repeat match goal with
      | |- Fin _ = Fin _ => f_equal; apply Qc_is_canon; reflexivity
      | |- Some _ = Some _ => f_equal | |- mkSample _ _ _ _ = _ => f_equal | |- _ :: _ = _ :: _ => f_equal | |- [] = [] => reflexivity end.
Qed.
(** Bounds that contain no point of the sample: this call and all following ones raise. *)
Example C38_empty_example : snd (history toy_exp stable_argsort NoMpi 5
    [call_ 1 1 None false X3; call_ 1 1 (Some (fun _ => false)) false X3; call_ 1 1 (Some (fun _ => false)) false X3] new_nora)
  = [(true, Ok ([P2 5 6], [nz 5], [nz 6])); (false, Err ValueError); (false, Err ValueError)].
Proof. vm_compute. reflexivity. Qed.
Example C93_example : exists n', multi_add toy_exp stable_argsort (Mpi 2) 2 (toy_surr 1) 2 None false (Ok (X3, None)) new_nora
  = (n', true, Ok ([P2 5 6; P2 3 4], [nz 5; nz 3], [nz 6; nz 4])).
Proof. eexists. vm_compute. reflexivity. Qed.

(** Refuted without telling points apart by their sets of coordinates: (1, 2) and (2, 1) are different points of a
    sample, the second is proposed by the first call. In the next one the first is deleted in its place, so that the
    second is proposed again, and the first, though proposed never, is not. *)
Theorem C39_twice_refuted : forall w, w = NoMpi \/ w = Mpi 2 -> exists n,
  history toy_exp stable_argsort w 2 [call_ 1 1 None false [P2 1 2; P2 2 1]; call_ 1 2 None false []] new_nora
  = (n, [(true, Ok ([P2 2 1], [nz 2], [nz 3])); (false, Ok ([P2 2 1], [nz 2], [nz 3]))]).
Proof. intros w [-> | ->]; eexists; vm_compute; reflexivity. Qed.
Print Assumptions C39_twice_refuted.

(** * C95 *)
(** UltraNest gets the prediction of the surrogate where this is not -infinity, and ranks points as the surrogate does
    if it is never below the value put in place of -infinity. *)
Theorem C95_ultranest_partial : forall tiny s,
  (forall x, s_mean s x <> NInf -> ultranest_logp tiny s x = polychord_logp s x)
  /\ (isnan tiny = false -> (forall x, s_mean s x <> NInf -> nleb tiny (s_mean s x) = true) ->
      forall x y, nleb (polychord_logp s x) (polychord_logp s y) = true -> nleb (ultranest_logp tiny s x) (ultranest_logp tiny s y) = true).
Proof.
  intros tiny s. unfold ultranest_logp, polychord_logp. split.
  - intros x H. destruct (s_mean s x); try reflexivity. contradiction.
  - intros Ht H x y Hxy. destruct (neqb (s_mean s x) NInf) eqn:Ex, (neqb (s_mean s y) NInf) eqn:Ey; auto.
    + apply nleb_refl. auto.
    + apply H. intros E. rewrite E in Ey. discriminate.
    + apply neqb_eq in Ey. rewrite Ey in Hxy. apply nleb_ninf in Hxy. rewrite Hxy in Ex. discriminate.
Qed.
Print Assumptions C95_ultranest_partial.
(** Refuted otherwise: -infinity is replaced with a number (-1e-300 in the code) which is above the prediction at points
    with any lower log-posterior, so that points excluded by the classifier look better than those. *)
Theorem C95_ultranest_refuted : forall tiny s x y, s_mean s x = NInf -> nltb (s_mean s y) tiny = true -> s_mean s y <> NInf ->
  nltb (polychord_logp s x) (polychord_logp s y) = true /\ nltb (ultranest_logp tiny s y) (ultranest_logp tiny s x) = true.
Proof.
  intros tiny s x y Hx Hy Hne. unfold ultranest_logp, polychord_logp. rewrite Hx. change (neqb NInf NInf) with true. cbv iota.
  destruct (s_mean s y); try contradiction; try discriminate; split; auto.
Qed.
Print Assumptions C95_ultranest_refuted.
Definition bounded_surr : surrogate :=
  mkSurr (fun x => match x with Fin q :: _ => if qltb q 0 then NInf else Fin (- q)%Qc | _ => NInf end) (fun _ => nz 1) (fun _ _ => nz 1) nadd.
Definition minus_1e_300 : num := nq (-1) (10 ^ 300).
Example C95_example : nltb (polychord_logp bounded_surr (P2 (-1) 0)) (polychord_logp bounded_surr (P2 1 0)) = true
  /\ nltb (ultranest_logp minus_1e_300 bounded_surr (P2 1 0)) (ultranest_logp minus_1e_300 bounded_surr (P2 (-1) 0)) = true.
Proof. split; vm_compute; reflexivity. Qed.
(** With UltraNest such a point can be in the sample; all weights are then lost at the next call. *)
Example C38_infinite_example :
  let n := mkNora 1 (Some (mkSample [P2 (-1) 0; P2 1 0] (Some [NInf; nz (-1)]) (Some [nz 1; nz 1]) None)) None (Some false) (Some []) in
  stored n [mkRow (P2 (-1) 0) NInf (nz 1); mkRow (P2 1 0) (nz (-1)) (nz 1)]
  /\ option_map m_w (last_MC_sample (fst (reweight toy_exp NoMpi bounded_surr None n))) = Some (Some [NaN; NaN]).
Proof.
  split; [|vm_compute; reflexivity]. eexists. split; [reflexivity|]. repeat split; try reflexivity. right. split; [reflexivity|].
  intros r [<-|[<-|[]]]; reflexivity.
Qed.
(** A call of the function sampled by UltraNest that returns leaves the surrogate as it was. Refuted for one that raises:
    -infinity stays replaced in all later predictions. *)
Theorem C95_restored : forall tiny miv predict v, snd (ultranest_call tiny miv predict) = Ok v -> fst (ultranest_call tiny miv predict) = miv.
Proof. intros tiny miv predict v. unfold ultranest_call. destruct (predict tiny); [reflexivity|discriminate]. Qed.
Theorem C95_not_restored_refuted : forall tiny miv predict x, snd (ultranest_call tiny miv predict) = Err x -> fst (ultranest_call tiny miv predict) = tiny.
Proof. intros tiny miv predict x. unfold ultranest_call. destruct (predict tiny); [discriminate|reflexivity]. Qed.
Print Assumptions C95_not_restored_refuted.

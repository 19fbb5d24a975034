(** C109 (hyperparameters of acquisition functions) and C110 (equality of acquisition functions). *)
From Coq Require Import Lra Lia Permutation.
From Verif Require Import MAcqHyper.
Open Scope R_scope.
Open Scope list_scope.
Set Default Goal Selector "!".
Set Bullet Behavior "Strict Subproofs".

(** The objects that a composite consists of. *)
Fixpoint objects (k : tree) : list nat :=
  match k with HLeaf l => [l] | HSum k1 k2 | HProduct k1 k2 => objects k1 ++ objects k2 | HPower k _ => objects k end.

Lemma store_at_same st l f : store_at st l f l = f.
Proof. unfold store_at. rewrite Nat.eqb_refl. reflexivity. Qed.
Lemma store_at_other st l f l' : l' <> l -> store_at st l f l' = st l'.
Proof. intros H. unfold store_at. apply Nat.eqb_neq in H. rewrite H. reflexivity. Qed.
Lemma log_exp v : log (exp v) = MAcqFunc.Real v.
Proof. unfold log. destruct (Rlt_dec 0 (exp v)) as [_|N]; [rewrite ln_exp; reflexivity|]. destruct N. apply exp_pos. Qed.
Lemma log_real a v : log a = MAcqFunc.Real v -> exp v = a.
Proof.
  unfold log. destruct (Rlt_dec 0 a) as [P|_]; [|destruct (Rlt_dec a 0); discriminate]. intros H. injection H as <-. apply exp_ln. exact P.
Qed.
Lemma leaf_get_set f t f' : leaf_set f t = Some f' -> leaf_theta f' = Some (map MAcqFunc.Real t).
Proof.
  destruct f as [c a []|c z s []]; destruct t as [|v [|w [|]]]; cbn; intros H; try discriminate; injection H as <-; cbn; rewrite ?log_exp; reflexivity.
Qed.
Lemma leaf_set_get f t : leaf_theta f = Some (map MAcqFunc.Real t) -> leaf_set f t = Some f.
Proof.
  destruct f as [c a []|c z s []]; cbn.
  - destruct t; [reflexivity|discriminate].
  - intros H. destruct t as [|v [|]]; try discriminate. assert (log a = MAcqFunc.Real v) as E by (cbn in H; congruence). rewrite (log_real _ _ E). reflexivity.
  - destruct t; [reflexivity|discriminate].
  - destruct s as [s|]; [|discriminate]. intros H. destruct t as [|v [|w [|]]]; try discriminate.
    assert (log s = MAcqFunc.Real v) as E1 by (cbn in H; congruence). assert (log z = MAcqFunc.Real w) as E2 by (cbn in H; congruence).
    rewrite (log_real _ _ E1), (log_real _ _ E2). reflexivity.
Qed.
(** What the setter leaves: the class, the flag, and whether [theta] can be read. *)
Definition shape (f f' : leaf) : Prop := forall th, leaf_theta f = Some th -> exists th', leaf_theta f' = Some th' /\ length th' = length th.
Lemma shape_refl f : shape f f.
Proof. intros th H. eauto. Qed.
Lemma shape_trans f g h : shape f g -> shape g h -> shape f h.
Proof. intros A B th H. destruct (A th H) as (th1 & H1 & L1). destruct (B th1 H1) as (th2 & H2 & L2). exists th2. split; [exact H2|congruence]. Qed.
Lemma leaf_set_shape f t f' : leaf_set f t = Some f' -> shape f f'.
Proof.
  destruct f as [c a []|c z s []]; destruct t as [|v [|w [|]]]; cbn; intros H; try discriminate; injection H as <-; intros th E; cbn in *;
    try (exists th; split; [exact E|reflexivity]); eexists; (split; [reflexivity|]).
  - injection E as <-. reflexivity.
  - destruct s; [|discriminate]. injection E as <-. reflexivity.
Qed.
Lemma leaf_set_fixed f t f' : leaf_set f t = Some f' -> is_fixed f = true -> f' = f.
Proof. destruct f as [c a []|c z s []]; destruct t as [|v [|w [|]]]; cbn; intros H F; try discriminate; injection H as <-; reflexivity. Qed.
Lemma aset_shape k : forall st t l, shape (st l) (fst (aset st k t) l).
Proof.
  assert (B : forall k1 k2 : tree, (forall st t l, shape (st l) (fst (aset st k1 t) l)) -> (forall st t l, shape (st l) (fst (aset st k2 t) l)) ->
    forall st t l, shape (st l) (fst (aset st (HSum k1 k2) t) l)).
  { intros k1 k2 I1 I2 st t l. cbn [aset]. destruct (n_dims st k1) as [d|]; [|apply shape_refl]. cbv zeta. destruct (snd _); [|apply I1].
    eapply shape_trans; [apply I1|apply I2]. }
  induction k as [l0|k1 I1 k2 I2|k1 I1 k2 I2|k IH e]; [|apply B; assumption|exact (B k1 k2 I1 I2)|exact IH].
  intros st t l. cbn. destruct (leaf_set (st l0) t) as [f|] eqn:E; [|apply shape_refl]. cbn [fst]. destruct (Nat.eq_dec l l0) as [->|N].
  - rewrite store_at_same. apply (leaf_set_shape _ _ _ E).
  - rewrite store_at_other by exact N. apply shape_refl.
Qed.
Lemma atheta_shape k : forall st st' th, (forall l, shape (st l) (st' l)) -> atheta st k = Some th -> exists th', atheta st' k = Some th' /\ length th' = length th.
Proof.
  assert (B : forall k1 k2 : tree, (forall st st' th, (forall l, shape (st l) (st' l)) -> atheta st k1 = Some th -> exists th', atheta st' k1 = Some th' /\ length th' = length th) ->
    (forall st st' th, (forall l, shape (st l) (st' l)) -> atheta st k2 = Some th -> exists th', atheta st' k2 = Some th' /\ length th' = length th) ->
    forall st st' th, (forall l, shape (st l) (st' l)) -> atheta st (HSum k1 k2) = Some th -> exists th', atheta st' (HSum k1 k2) = Some th' /\ length th' = length th).
  { intros k1 k2 I1 I2 st st' th S. cbn [atheta]. destruct (atheta st k1) as [a|] eqn:E1; [|discriminate]. destruct (atheta st k2) as [b|] eqn:E2; [|discriminate].
    intros H. injection H as <-. destruct (I1 _ _ _ S E1) as (a' & -> & La). destruct (I2 _ _ _ S E2) as (b' & -> & Lb). cbn. eexists. split; [reflexivity|].
    rewrite !app_length. lia. }
  induction k as [l0|k1 I1 k2 I2|k1 I1 k2 I2|k IH e]; [|apply B; assumption|exact (B k1 k2 I1 I2)|exact IH].
  intros st st' th S H. exact (S l0 th H).
Qed.
(** Only objects of the composite that are not fixed change, even if the call raises. *)
Lemma aset_only k : forall st t l, ~ In l (objects k) \/ is_fixed (st l) = true -> fst (aset st k t) l = st l.
Proof.
  assert (B : forall k1 k2 : tree, (forall st t l, ~ In l (objects k1) \/ is_fixed (st l) = true -> fst (aset st k1 t) l = st l) ->
    (forall st t l, ~ In l (objects k2) \/ is_fixed (st l) = true -> fst (aset st k2 t) l = st l) ->
    forall st t l, ~ In l (objects k1 ++ objects k2) \/ is_fixed (st l) = true -> fst (aset st (HSum k1 k2) t) l = st l).
  { intros k1 k2 I1 I2 st t l H. cbn [aset]. rewrite in_app_iff in H. destruct (n_dims st k1) as [d|]; [|reflexivity]. cbv zeta.
    assert (E1 : fst (aset st k1 (firstn d t)) l = st l) by (apply I1; tauto). destruct (snd _); [|exact E1]. rewrite I2; [exact E1|]. rewrite E1. tauto. }
  induction k as [l0|k1 I1 k2 I2|k1 I1 k2 I2|k IH e]; [|apply B; assumption|exact (B k1 k2 I1 I2)|exact IH].
  intros st t l H. cbn in *. destruct (leaf_set (st l0) t) as [f|] eqn:E; [|reflexivity]. cbn [fst]. destruct (Nat.eq_dec l l0) as [->|N].
  - rewrite store_at_same. destruct H as [H|H]; [destruct H; auto|]. apply (leaf_set_fixed _ _ _ E H).
  - apply store_at_other. exact N.
Qed.
Lemma atheta_ext k : forall st st', (forall l, In l (objects k) -> st' l = st l) -> atheta st' k = atheta st k.
Proof.
  induction k as [l0|k1 I1 k2 I2|k1 I1 k2 I2|k IH e]; cbn; intros st st' H; [rewrite H by auto; reflexivity| | |apply IH; exact H];
    rewrite (I1 st st'), (I2 st st'); try reflexivity; intros l Hl; apply H, in_or_app; auto.
Qed.
Lemma NoDup_app_l {A} (a b : list A) : NoDup (a ++ b) -> NoDup a /\ NoDup b /\ forall x, In x a -> ~ In x b.
Proof.
  induction a as [|y a IH]; cbn; intros H; [repeat split; [constructor|exact H|intros x []]|].
  inversion H as [|? ? N D]; subst. destruct (IH D) as (A1 & B1 & C1). rewrite in_app_iff in N. repeat split; [constructor; tauto|exact B1|].
  intros x [->|Hx]; [tauto|apply C1; exact Hx].
Qed.

Theorem C109_only : forall st k t l, ~ In l (objects k) \/ is_fixed (st l) = true -> fst (aset st k t) l = st l.
Proof. intros. apply aset_only. assumption. Qed.
(** What has been set is what is read. *)
Theorem C109_get_set : forall st k t st', NoDup (objects k) -> aset st k t = (st', true) -> atheta st' k = Some (map MAcqFunc.Real t).
Proof.
  intros st k. revert st.
  assert (B : forall k1 k2 : tree, (forall st t st', NoDup (objects k1) -> aset st k1 t = (st', true) -> atheta st' k1 = Some (map MAcqFunc.Real t)) ->
    (forall st t st', NoDup (objects k2) -> aset st k2 t = (st', true) -> atheta st' k2 = Some (map MAcqFunc.Real t)) ->
    forall st t st', NoDup (objects k1 ++ objects k2) -> aset st (HSum k1 k2) t = (st', true) -> atheta st' (HSum k1 k2) = Some (map MAcqFunc.Real t)).
  { intros k1 k2 I1 I2 st t st' D H. destruct (NoDup_app_l _ _ D) as (D1 & D2 & D3). cbn [aset] in H. destruct (n_dims st k1) as [d|]; [|discriminate]. cbv zeta in H.
    destruct (aset st k1 (firstn d t)) as [st1 ok] eqn:E1. cbn [fst snd] in H. destruct ok; [|discriminate].
    cbn [atheta]. rewrite (I2 _ _ _ D2 H). rewrite (atheta_ext k1 st1 st'); [rewrite (I1 _ _ _ D1 E1); cbn; rewrite <- map_app, firstn_skipn; reflexivity|].
    intros l Hl. pose proof (aset_only k2 st1 (skipn d t) l (or_introl (D3 l Hl))) as E. rewrite H in E. exact E. }
  induction k as [l0|k1 I1 k2 I2|k1 I1 k2 I2|k IH e]; [|apply B; assumption|exact (B k1 k2 I1 I2)|exact IH].
  intros st t st' _ H. cbn in *. destruct (leaf_set (st l0) t) as [f|] eqn:E; [|discriminate]. injection H as <-. rewrite store_at_same. apply (leaf_get_set _ _ _ E).
Qed.
(** Setting what has been read changes nothing. *)
Theorem C109_set_get : forall st k t, atheta st k = Some (map MAcqFunc.Real t) -> snd (aset st k t) = true /\ forall l, fst (aset st k t) l = st l.
Proof.
  intros st0 k. revert st0.
  assert (B : forall k1 k2 : tree, (forall st t, atheta st k1 = Some (map MAcqFunc.Real t) -> snd (aset st k1 t) = true /\ forall l, fst (aset st k1 t) l = st l) ->
    (forall st t, atheta st k2 = Some (map MAcqFunc.Real t) -> snd (aset st k2 t) = true /\ forall l, fst (aset st k2 t) l = st l) ->
    forall st t, atheta st (HSum k1 k2) = Some (map MAcqFunc.Real t) -> snd (aset st (HSum k1 k2) t) = true /\ forall l, fst (aset st (HSum k1 k2) t) l = st l).
  { intros k1 k2 I1 I2 st t H. cbn [atheta] in H. destruct (atheta st k1) as [a|] eqn:E1; [|discriminate]. destruct (atheta st k2) as [b|] eqn:E2; [|discriminate].
    injection H as H. cbn [aset]. unfold n_dims. rewrite E1. cbn [option_map]. cbv zeta.
    assert (Ha : a = map MAcqFunc.Real (firstn (length a) t)).
    { rewrite <- firstn_map, <- H. rewrite firstn_app, Nat.sub_diag, firstn_all. cbn. rewrite app_nil_r. reflexivity. }
    assert (Hb : b = map MAcqFunc.Real (skipn (length a) t)).
    { rewrite <- skipn_map, <- H. rewrite skipn_app, Nat.sub_diag, skipn_all. reflexivity. }
    destruct (I1 st (firstn (length a) t)) as [O1 S1]; [rewrite E1, <- Ha; reflexivity|]. rewrite O1.
    destruct (I2 (fst (aset st k1 (firstn (length a) t))) (skipn (length a) t)) as [O2 S2].
    { rewrite (atheta_ext k2 st); [rewrite E2, <- Hb; reflexivity|]. intros l _. apply S1. }
    split; [exact O2|]. intros l. rewrite S2. apply S1. }
  induction k as [l0|k1 I1 k2 I2|k1 I1 k2 I2|k IH e]; [|apply B; assumption|exact (B k1 k2 I1 I2)|exact IH].
  intros st t H. cbn in *. rewrite (leaf_set_get _ _ H). split; [reflexivity|]. intros l. cbn [fst]. destruct (Nat.eq_dec l l0) as [->|N]; [apply store_at_same|apply store_at_other; exact N].
Qed.
(** The setter returns exactly for vectors of the length of [theta]. *)
Theorem C109_length : forall st k t th, atheta st k = Some th -> (snd (aset st k t) = true <-> length t = length th).
Proof.
  intros st0 k. revert st0.
  assert (B : forall k1 k2 : tree, (forall st t th, atheta st k1 = Some th -> (snd (aset st k1 t) = true <-> length t = length th)) ->
    (forall st t th, atheta st k2 = Some th -> (snd (aset st k2 t) = true <-> length t = length th)) ->
    forall st t th, atheta st (HSum k1 k2) = Some th -> (snd (aset st (HSum k1 k2) t) = true <-> length t = length th)).
  { intros k1 k2 I1 I2 st t th H. cbn [atheta] in H. destruct (atheta st k1) as [a|] eqn:E1; [|discriminate]. destruct (atheta st k2) as [b|] eqn:E2; [|discriminate].
    injection H as <-. rewrite app_length. cbn [aset]. unfold n_dims. rewrite E1. cbn [option_map]. cbv zeta.
    pose proof (I1 st (firstn (length a) t) a E1) as J1. rewrite firstn_length in J1.
    destruct (atheta_shape k2 st (fst (aset st k1 (firstn (length a) t))) b (aset_shape k1 st (firstn (length a) t)) E2) as (b' & E3 & Lb).
    pose proof (I2 _ (skipn (length a) t) b' E3) as J2. rewrite skipn_length, Lb in J2.
    destruct (snd (aset st k1 (firstn (length a) t))) eqn:O.
    - rewrite J2. assert (Nat.min (length a) (length t) = length a) by (apply J1; reflexivity). lia.
    - split; [congruence|]. intros L. rewrite O in *. apply J1. lia. }
  induction k as [l0|k1 I1 k2 I2|k1 I1 k2 I2|k IH e]; [|apply B; assumption|exact (B k1 k2 I1 I2)|exact IH].
  intros st t th H. cbn in *. destruct (st l0) as [c a []|c z [s|] []]; cbn in H; try discriminate; injection H as <-;
    destruct t as [|v [|w [|]]]; cbn; split; intros; try reflexivity; try discriminate; try lia.
Qed.
(** If it raises for a function that is not a composite, nothing has changed. *)
Theorem C109_leaf_atomic : forall st l t, snd (aset st (HLeaf l) t) = false -> fst (aset st (HLeaf l) t) = st.
Proof. intros st l t. cbn. destruct (leaf_set (st l) t); [discriminate|reflexivity]. Qed.
(** [hyperparameters] of one that is not a composite lists as free exactly as many as [theta] has. *)
Definition free_count (h : list (string * bool)) : nat := length (filter (fun e => negb (snd e)) h).
Theorem C109_leaf_free : forall st l d, n_dims st (HLeaf l) = Some d -> free_count (ahypers st (HLeaf l)) = d.
Proof. intros st l d. unfold n_dims. cbn. destruct (st l) as [c a []|c z [s|] []]; cbn; intros H; try discriminate; injection H as <-; reflexivity. Qed.

(** The names listed are all different. *)
Lemma relabel_names p l : NoDup (map fst l) -> NoDup (map fst (map (relabel p) l)).
Proof.
  intros H. induction l as [|[n b] l IH]; [constructor|]. inversion H as [|? ? N H']; subst. cbn in *. constructor; [|apply IH, H'].
  intros C. apply N. rewrite map_map in C. cbn in C. apply in_map_iff in C as ([n' b'] & E & I). cbn in E. apply in_map_iff. exists (n', b'). split; [|exact I]. cbn.
  clear -E. induction p as [|a p IH]; cbn in E; [exact E|]. injection E as E. apply IH, E.
Qed.
Theorem C109_names : forall st k, NoDup (map fst (ahypers st k)).
Proof.
  intros st k. assert (B : forall k1 k2, NoDup (map fst (ahypers st k1)) -> NoDup (map fst (ahypers st k2)) ->
    NoDup (map fst (map (relabel "k1__") (ahypers st k1) ++ map (relabel "k2__") (ahypers st k2)))).
  { intros k1 k2 H1 H2. rewrite map_app. apply (relabel_names "k1__") in H1. apply (relabel_names "k2__") in H2. remember (map fst (map (relabel "k1__") (ahypers st k1))) as A eqn:EA.
    assert (D : forall n, In n A -> ~ In n (map fst (map (relabel "k2__") (ahypers st k2)))).
    { subst A. intros n I J. rewrite map_map in I, J. apply in_map_iff in I as (x & <- & _). apply in_map_iff in J as (y & E & _). cbn in E. discriminate E. }
    clear EA. induction A as [|n A IH]; [exact H2|]. inversion H1 as [|? ? N H']; subst. cbn. constructor; [|apply IH; [exact H'|intros m Hm; apply D; right; exact Hm]].
    intros C. apply in_app_iff in C as [C|C]; [apply N, C|]. apply (D n); [left; reflexivity|exact C]. }
  induction k as [l|k1 I1 k2 I2|k1 I1 k2 I2|k IH e]; cbn [ahypers]; [|apply B; assumption|apply B; assumption|apply relabel_names, IH].
  destruct (st l); cbn; repeat constructor; cbn; intros H; repeat (destruct H as [H|H]; try discriminate H); destruct H.
Qed.
(** Examples: (2 + LogExp(zeta=1/2, sigma_n=1, fixed)) * ExponentialStd(3). *)
Definition st_ex : store := fun l => match l with O => One COne 2 false | 1%nat => Two CLogExp (/ 2) (Some 1) true | _ => One CExponentialStd 3 false end.
Definition k_ex : tree := HProduct (HSum (HLeaf 0) (HLeaf 1)) (HLeaf 2).
Lemma log_pos v : 0 < v -> log v = MAcqFunc.Real (ln v).
Proof. intros H. unfold log. destruct (Rlt_dec 0 v); [reflexivity|contradiction]. Qed.
Lemma theta_ex : atheta st_ex k_ex = Some (map MAcqFunc.Real [ln 2; ln 3]).
Proof. cbn. rewrite !log_pos by lra. reflexivity. Qed.
Example C109_case : NoDup (objects k_ex) /\ exists st', aset st_ex k_ex [0; 1] = (st', true) /\ st' 0%nat = One COne (exp 0) false /\ st' 1%nat = st_ex 1%nat /\
  st' 2%nat = One CExponentialStd (exp 1) false /\ snd (aset st_ex k_ex [0]) = false.
Proof.
  split; [repeat constructor; cbn; lia|]. eexists. split; [reflexivity|]. repeat split; try reflexivity.
Qed.
Example C109_names_case : map fst (ahypers st_ex k_ex) = ["k1__k1__constant_value"; "k1__k2__sigma_n"; "k1__k2__zeta"; "k2__a"]%string.
Proof. reflexivity. Qed.
(** Refuted: the same object twice ([k * k]); what is read afterwards is not what was set. *)
Theorem C109_shared_refuted : forall st t st', (exists a c, st 0%nat = One c a false) -> aset st (HProduct (HLeaf 0) (HLeaf 0)) [t; t + 1] = (st', true) ->
  atheta st' (HProduct (HLeaf 0) (HLeaf 0)) = Some (map MAcqFunc.Real [t + 1; t + 1]).
Proof.
  intros st t st' (a & c & E) H. cbn in H. unfold n_dims in H. cbn in H. rewrite E in H. cbn in H. injection H as <-. cbn. rewrite !log_exp. reflexivity.
Qed.
Example C109_shared_case : exists st', aset (fun _ => One CStd 1 false) (HProduct (HLeaf 0) (HLeaf 0)) [0; 0 + 1] = (st', true).
Proof. eexists. reflexivity. Qed.
(** Refuted: a composite that raises for a vector of the wrong length has already changed its first part. *)
Theorem C109_atomic_refuted : exists st k t l, NoDup (objects k) /\ (exists th, atheta st k = Some th) /\ snd (aset st k t) = false /\ fst (aset st k t) l <> st l.
Proof.
  exists st_ex, (HSum (HLeaf 0) (HLeaf 2)), [0; 1; 2], 0%nat. split; [repeat constructor; cbn; lia|]. split; [eexists; reflexivity|]. split; [reflexivity|].
  cbn. intros H. injection H as H. rewrite exp_0 in H. lra.
Qed.
(** Refuted: [theta] of LogExp without [sigma_n], its default, raises, and so do [theta], [n_dims] and the setter of any composite with it as first part. *)
Theorem C109_logexp_refuted : forall st l c z k2, st l = Two c z None false ->
  atheta st (HLeaf l) = None /\ n_dims st (HSum (HLeaf l) k2) = None /\ forall t, aset st (HSum (HLeaf l) k2) t = (st, false).
Proof. intros st l c z k2 E. unfold n_dims. cbn. unfold n_dims. cbn. rewrite E. repeat split. Qed.
Example C109_logexp_case : exists st : store, st 0%nat = Two CLogExp (/ 2) None false.
Proof. exists (fun _ => Two CLogExp (/ 2) None false). reflexivity. Qed.
(** Refuted: composites list fixed hyperparameters as free. *)
Theorem C109_free_refuted : exists st k d, n_dims st k = Some d /\ free_count (ahypers st k) <> d.
Proof. exists st_ex, k_ex, 2%nat. split; [unfold n_dims; rewrite theta_ex; reflexivity|]. cbn. lia. Qed.

(** *** C110 *)
Lemma req_true a b : req a b = true <-> a = b.
Proof. unfold req. destruct (Req_EM_T a b); split; congruence. Qed.
Lemma oreq_true a b : oreq a b = true <-> a = b.
Proof. destruct a, b; cbn; rewrite ?req_true; split; congruence. Qed.
Lemma one_id_inj c c' : one_id c = one_id c' -> c = c'.
Proof. destruct c, c'; cbn; congruence. Qed.
Lemma logexps_id_inj c c' : logexps_id c = logexps_id c' -> c = c'.
Proof. destruct c, c'; cbn; congruence. Qed.
Lemma leaf_eq_true f g : leaf_eq f g = true <-> f = g.
Proof.
  destruct f as [c a b|c z s b], g as [c' a' b'|c' z' s' b']; cbn; try (split; congruence); rewrite !andb_true_iff, Nat.eqb_eq, req_true, Bool.eqb_true_iff.
  - split; [intros (A & -> & ->); rewrite (one_id_inj _ _ A); reflexivity|]. intros H. injection H as -> -> ->. auto.
  - rewrite oreq_true. split; [intros (A & -> & -> & ->); rewrite (logexps_id_inj _ _ A); reflexivity|]. intros H. injection H as -> -> -> ->. auto.
Qed.
Lemma power_eq_true e e' : power_eq e e' = true <-> e = e'.
Proof. destruct e, e'; cbn; rewrite ?Nat.eqb_eq, ?req_true; split; congruence. Qed.
Lemma row2_comm f g : (forall a b : R, f a b = g b a) -> forall l l', row2 f l l' = row2 g l' l.
Proof. intros H l. unfold row2. induction l as [|a l IH]; intros [|b l']; cbn; auto. rewrite H, IH. reflexivity. Qed.
Lemma two_comm {A B} (f g : A -> A -> B) : (forall a b, f a b = g b a) -> forall a b, two f a b = two g b a.
Proof. intros H [a|] [b|]; cbn; try reflexivity. rewrite H. reflexivity. Qed.
(** Equal acquisition functions have the same value and the same gradient, at every point, for every surrogate. *)
Theorem C110_same : forall st a b, tree_eq st a b = true ->
  forall gp x, avalue gp (tree_acq gp st a) x = avalue gp (tree_acq gp st b) x /\ agrad gp (tree_acq gp st a) x = agrad gp (tree_acq gp st b) x.
Proof.
  intros st a. induction a as [l|a1 I1 a2 I2|a1 I1 a2 I2|a IH e]; intros [l'|b1 b2|b1 b2|b e']; cbn [tree_eq]; intros H gp x; try discriminate.
  - apply leaf_eq_true in H. cbn [tree_acq]. rewrite H. auto.
  - apply orb_true_iff in H as [H|H]; apply andb_true_iff in H as [H1 H2]; destruct (I1 _ H1 gp x) as [V1 G1]; destruct (I2 _ H2 gp x) as [V2 G2];
      cbn [tree_acq avalue agrad]; rewrite V1, V2, G1, G2; [auto|].
    split; [apply two_comm; intros; ring|]. apply two_comm. intros r1 r2. apply row2_comm. intros. ring.
  - apply orb_true_iff in H as [H|H]; apply andb_true_iff in H as [H1 H2]; destruct (I1 _ H1 gp x) as [V1 G1]; destruct (I2 _ H2 gp x) as [V2 G2];
      cbn [tree_acq avalue agrad]; rewrite V1, V2, G1, G2; [auto|].
    split; [apply two_comm; intros; ring|]. destruct (avalue gp (tree_acq gp st b1) x) as [v1|], (avalue gp (tree_acq gp st b2) x) as [v2|]; try reflexivity.
    apply two_comm. intros r1 r2. apply row2_comm. intros. ring.
  - apply andb_true_iff in H as [H1 H2]. apply power_eq_true in H2. subst e'. destruct (IH _ H1 gp x) as [V G]. cbn [tree_acq avalue agrad]. rewrite V, G. auto.
Qed.
(** They also have the same hyperparameters up to order. *)
Theorem C110_same_theta : forall st a b tha, tree_eq st a b = true -> atheta st a = Some tha -> exists thb, atheta st b = Some thb /\ Permutation tha thb.
Proof.
  intros st a. induction a as [l|a1 I1 a2 I2|a1 I1 a2 I2|a IH e]; intros [l'|b1 b2|b1 b2|b e'] tha; cbn [tree_eq]; intros H; try discriminate.
  - apply leaf_eq_true in H. cbn [atheta]. rewrite H. intros E. exists tha. split; [exact E|]. apply Permutation_refl.
  - cbn [atheta]. destruct (atheta st a1) as [p|]; [|discriminate]. destruct (atheta st a2) as [q|]; [|discriminate]. intros E. injection E as <-.
    apply orb_true_iff in H as [H|H]; apply andb_true_iff in H as [H1 H2]; destruct (I1 _ _ H1 eq_refl) as (p' & -> & P); destruct (I2 _ _ H2 eq_refl) as (q' & -> & Q);
      eexists; (split; [reflexivity|]); [apply Permutation_app; auto|].
    eapply Permutation_trans; [apply Permutation_app_comm|]. apply Permutation_app; auto.
  - cbn [atheta]. destruct (atheta st a1) as [p|]; [|discriminate]. destruct (atheta st a2) as [q|]; [|discriminate]. intros E. injection E as <-.
    apply orb_true_iff in H as [H|H]; apply andb_true_iff in H as [H1 H2]; destruct (I1 _ _ H1 eq_refl) as (p' & -> & P); destruct (I2 _ _ H2 eq_refl) as (q' & -> & Q);
      eexists; (split; [reflexivity|]); [apply Permutation_app; auto|].
    eapply Permutation_trans; [apply Permutation_app_comm|]. apply Permutation_app; auto.
  - apply andb_true_iff in H as [H1 _]. cbn [atheta]. apply IH. exact H1.
Qed.
(** An equivalence. *)
Lemma tree_eq_refl st a : tree_eq st a a = true.
Proof.
  induction a as [l|a1 I1 a2 I2|a1 I1 a2 I2|a IH e]; cbn; [apply leaf_eq_true; reflexivity|rewrite I1, I2; reflexivity|rewrite I1, I2; reflexivity|].
  rewrite IH. apply power_eq_true. reflexivity.
Qed.
Lemma tree_eq_sym st a : forall b, tree_eq st a b = true -> tree_eq st b a = true.
Proof.
  induction a as [l|a1 I1 a2 I2|a1 I1 a2 I2|a IH e]; intros [l'|b1 b2|b1 b2|b e']; cbn [tree_eq]; intros H; try discriminate.
  - apply leaf_eq_true. symmetry. apply leaf_eq_true. exact H.
  - apply orb_true_iff in H as [H|H]; apply andb_true_iff in H as [H1 H2]; rewrite (I1 _ H1), (I2 _ H2); rewrite ?orb_true_r; reflexivity.
  - apply orb_true_iff in H as [H|H]; apply andb_true_iff in H as [H1 H2]; rewrite (I1 _ H1), (I2 _ H2); rewrite ?orb_true_r; reflexivity.
  - apply andb_true_iff in H as [H1 H2]. rewrite (IH _ H1). apply power_eq_true. symmetry. apply power_eq_true. exact H2.
Qed.
Lemma tree_eq_trans st a : forall b c, tree_eq st a b = true -> tree_eq st b c = true -> tree_eq st a c = true.
Proof.
  induction a as [l|a1 I1 a2 I2|a1 I1 a2 I2|a IH e]; intros [l'|b1 b2|b1 b2|b e'] [l''|c1 c2|c1 c2|c e'']; cbn [tree_eq]; intros H G; try discriminate.
  - apply leaf_eq_true in H. apply leaf_eq_true in G. apply leaf_eq_true. congruence.
  - apply orb_true_iff in H as [H|H]; apply andb_true_iff in H as [H1 H2]; apply orb_true_iff in G as [G|G]; apply andb_true_iff in G as [G1 G2]; apply orb_true_iff;
      rewrite !andb_true_iff; eauto 6.
  - apply orb_true_iff in H as [H|H]; apply andb_true_iff in H as [H1 H2]; apply orb_true_iff in G as [G|G]; apply andb_true_iff in G as [G1 G2]; apply orb_true_iff;
      rewrite !andb_true_iff; eauto 6.
  - apply andb_true_iff in H as [H1 H2]. apply andb_true_iff in G as [G1 G2]. apply power_eq_true in H2. apply power_eq_true in G2. rewrite (IH _ _ H1 G1).
    apply power_eq_true. congruence.
Qed.
Theorem C110_equivalence : forall st a b c, tree_eq st a a = true /\ (tree_eq st a b = true -> tree_eq st b a = true) /\
  (tree_eq st a b = true -> tree_eq st b c = true -> tree_eq st a c = true).
Proof. intros st a b c. split; [apply tree_eq_refl|]. split; [apply tree_eq_sym|apply tree_eq_trans]. Qed.
Example C110_case : tree_eq st_ex k_ex (HProduct (HLeaf 3) (HSum (HLeaf 1) (HLeaf 0))) = true /\ tree_eq st_ex (HLeaf 0) (HLeaf 1) = false.
Proof. split; [|reflexivity]. cbn. unfold req. repeat (destruct (Req_EM_T _ _); try lra); reflexivity. Qed.
(** Refuted: sums of three are not recognised as equal though they have the same value. *)
Theorem C110_associative_refuted : exists st a b, tree_eq st a b = false /\ forall gp x, avalue gp (tree_acq gp st a) x = avalue gp (tree_acq gp st b) x.
Proof.
  exists st_ex, (HSum (HSum (HLeaf 0) (HLeaf 2)) (HLeaf 1)), (HSum (HLeaf 0) (HSum (HLeaf 2) (HLeaf 1))). split.
  - reflexivity.
  - intros gp x. cbn. destruct (number _); cbn; [|reflexivity]. f_equal. ring.
Qed.

Print Assumptions C109_only.
Print Assumptions C109_get_set.
Print Assumptions C109_set_get.
Print Assumptions C109_length.
Print Assumptions C109_leaf_atomic.
Print Assumptions C109_leaf_free.
Print Assumptions C109_names.
Print Assumptions C109_shared_refuted.
Print Assumptions C109_atomic_refuted.
Print Assumptions C109_logexp_refuted.
Print Assumptions C109_free_refuted.
Print Assumptions C110_same.
Print Assumptions C110_same_theta.
Print Assumptions C110_equivalence.
Print Assumptions C110_associative_refuted.

(** C61, C92: proposers. *)
From Coq Require Import Lia.
From Verif Require Import Base Num MTools STools PTools TTools MProposal.
Set Default Goal Selector "!".

(** ** Vocabulary *)
(** All bounds of a proposer, also nested ones, are [b]. *)
Fixpoint bounded (b : box) (p : proposer) : Prop :=
  match p with
  | Sampled b' | Uniform b' | MeanCov b' _ _ | Centroids b' _ _ => b' = b
  | Partial _ b' p => b' = b /\ bounded b p
  end.
(** Bounds with two finite ends in order. *)
Definition proper (b : box) : Prop := Forall (fun lh => isfin (fst lh) = true /\ isfin (snd lh) = true /\ le (fst lh) (snd lh)) b.
(** Training points are finite. *)
Definition finite_points (d : nat) (m : mat) : Prop := nc m = d /\ Forall (fun r => length r = d /\ Forall (fun v => isfin v = true) r) (rows m).
Fixpoint trained (d : nat) (p : proposer) : Prop :=
  match p with
  | Partial _ _ p => trained d p
  | MeanCov _ m _ => length m = d
  | Centroids _ t t_ => (forall m, t = Some m -> finite_points d m) /\ (forall m, t_ = Some m -> finite_points d m)
  | _ => True
  end.
(** Samples of a distribution are the only proposals. *)
Definition only_sampled (p : proposer) : Prop :=
  match p with Sampled _ | MeanCov _ _ _ => True | _ => False end.

Lemma reject_in b draws x ds : reject b draws = Some (Ok x, ds) -> in_box b x.
Proof.
  induction draws as [|[y| | | |] draws IH]; try discriminate. cbn [reject]. destruct (Nat.eqb_spec (length y) (length b)); [|discriminate].
  destruct (C06_one_point b y false) as (v & E & Hv); auto. rewrite E. destruct v; [|auto]. intros H. injection H as <- <-. apply Hv. auto.
Qed.
Lemma reject_never b draws e ds : reject b draws <> Some (Err e, ds).
Proof.
  induction draws as [|[y| | | |] draws IH]; try discriminate. cbn [reject]. destruct (Nat.eqb_spec (length y) (length b)); [|discriminate].
  destruct (C06_one_point b y false) as (v & E & Hv); auto. rewrite E. destruct v; [discriminate|auto].
Qed.
Lemma uniform_in b draws x ds : proper b -> uniform_get b draws = Some (Ok x, ds) -> in_box b x.
Proof.
  intros Hb H. unfold uniform_get in H. destruct (negb _); [discriminate|]. destruct draws as [|[|u| | |] draws]; try discriminate.
  destruct (unit_draw (length b) u) eqn:U; [|discriminate]. injection H as <- <-. unfold unit_draw in U. apply andb_true_iff in U as [L U].
  apply Nat.eqb_eq in L. revert u L U. induction Hb as [|[lo hi] b (Fl & Fh & Hl) Hb IH]; intros [|v u] L U; try discriminate; [constructor|].
  cbn in L, U. injection L as L. apply andb_true_iff in U as [U1 U]. apply andb_true_iff in U1 as [U0 U1]. cbn [combine map]. constructor; [|apply IH; auto].
  cbn [fst snd] in *. destruct lo as [| |lo|], hi as [| |hi|]; try discriminate. destruct v as [| |v|]; try discriminate.
  unfold le, nz, nsub in *. cbn [nleb nltb nadd nmul nneg fst snd] in Hl, U0, U1 |- *.
  assert (this (qc_of_Z 0) == 0)%Q as E0 by apply this_Q2Qc. assert (this (qc_of_Z 1) == 1)%Q as E1 by apply this_Q2Qc.
  clear - Hl U0 U1 E0 E1. split; qc_norm; rewrite E0 in U0; rewrite E1 in U1; nra.
Qed.
Lemma clip_in x lo hi : isfin x = true -> isfin lo = true -> isfin hi = true -> le lo hi -> le lo (clip x lo hi) /\ le (clip x lo hi) hi.
Proof.
  intros Fx Fl Fh H. destruct x as [| |x|], lo as [| |lo|], hi as [| |hi|]; try discriminate. clear Fx Fl Fh.
  unfold clip, le, npmin2, npmax2, pymax, pymin in *. cbn [isnan orb nltb nleb] in *.
  destruct (qltb x lo) eqn:E1; cbn [isnan orb nltb nleb]; [destruct (qltb hi lo) eqn:E2|destruct (qltb hi x) eqn:E2]; cbn [nleb]; split; qc_norm; lra.
Qed.
Lemma fold_fin l : Forall (fun v => isfin v = true) l -> forall x, isfin x = true -> isfin (fold_left nadd l x) = true.
Proof. induction 1 as [|v l Hv Hl IH]; intros x Hx; [auto|]. cbn. apply IH. destruct x, v; try discriminate. reflexivity. Qed.
Lemma average_fin d subset i : i < d -> subset <> [] -> Forall (fun r => length r = d /\ Forall (fun v => isfin v = true) r) subset ->
  isfin (average subset i) = true.
Proof.
  intros Hi Hs H. unfold average.
  assert (isfin (fold_left nadd (map (fun x => nth i x NaN) subset) (nz 0)) = true) as F.
  { apply fold_fin; [|reflexivity]. apply Forall_map. rewrite Forall_forall in *. intros r Hr. destruct (H r Hr) as [L Hf]. rewrite Forall_forall in Hf.
    apply Hf, nth_In. lia. }
  destruct (fold_left _ _ _) as [| |q|]; try discriminate. unfold nz, ndiv.
  match goal with |- context [qeqb ?a ?b] => destruct (qeqb a b) eqn:E end; [|reflexivity]. exfalso. apply qeqb_eq in E. apply Qceq_this in E. unfold qc_of_Z in E.
  rewrite this_Q2Qc in E. destruct subset; [congruence|]. unfold inject_Z, Qeq in E. cbn in E. lia.
Qed.
Lemma Forall2_seq {A B} (R : A -> B -> Prop) (dflt : A) (l : list A) : forall (f : nat -> B), (forall i, i < length l -> R (nth i l dflt) (f i)) ->
  Forall2 R l (map f (seq 0 (length l))).
Proof.
  induction l as [|x l IH]; intros f H; [constructor|]. cbn [length seq map]. constructor; [apply (H 0); cbn; lia|].
  rewrite <- seq_shift, map_map. apply IH. intros i Hi. apply (H (S i)). cbn. lia.
Qed.
Lemma kicked_in b subset js k : proper b -> Forall (fun r => length r = length b /\ Forall (fun v => isfin v = true) r) subset ->
  subset <> [] -> choice_draw (length subset) (length b) js = true -> kick_draw (length b) k = true -> in_box b (kicked b subset js k).
Proof.
  intros Hb Hs Hn Hj Hk. unfold in_box, kicked.
  assert (forall i, i < length b -> let lh := nth i b (NaN, NaN) in
    let c := average subset i in
    let kick := nmul (nadd (nneg c) (nth i (nth (nth i js 0) subset []) NaN)) (nth i k NaN) in
    le (fst lh) (clip (nadd c kick) (fst lh) (snd lh)) /\ le (clip (nadd c kick) (fst lh) (snd lh)) (snd lh)) as K.
  { intros i Hi. cbv zeta. unfold proper in Hb. rewrite Forall_forall in Hb. destruct (Hb (nth i b (NaN, NaN))) as (F1 & F2 & L); [apply nth_In; auto|].
    apply clip_in; auto. assert (isfin (average subset i) = true) as Fc by (apply (average_fin (length b)); auto).
    assert (isfin (nth i k NaN) = true) as Fk.
    { unfold kick_draw in Hk. apply andb_true_iff in Hk as [L1 Hk]. apply Nat.eqb_eq in L1. rewrite forallb_forall in Hk.
      specialize (Hk (nth i k NaN)). rewrite andb_true_iff in Hk. apply Hk. apply nth_In. lia. }
    assert (isfin (nth i (nth (nth i js 0) subset []) NaN) = true) as Fs.
    { unfold choice_draw in Hj. apply andb_true_iff in Hj as [Hj _]. apply andb_true_iff in Hj as [L1 Hj]. apply Nat.eqb_eq in L1. rewrite forallb_forall in Hj.
      specialize (Hj (nth i js 0)). rewrite Nat.ltb_lt in Hj. rewrite Forall_forall in Hs.
      destruct (Hs (nth (nth i js 0) subset [])) as [L2 Hf]; [apply nth_In, Hj, nth_In; lia|]. rewrite Forall_forall in Hf. apply Hf, nth_In. lia. }
    destruct (average subset i); try discriminate. destruct (nth i k NaN); try discriminate. destruct (nth i (nth (nth i js 0) subset []) NaN); try discriminate. reflexivity. }
  apply (Forall2_seq _ (NaN, NaN)). exact K.
Qed.
Lemma in_nth {A} (l : list A) i d : i < length l -> In (nth i l d) l. Proof. apply nth_In. Qed.
Lemma centroids_in b t t_ draws x ds : proper b -> trained (length b) (Centroids b t t_) -> centroids_get b t t_ draws = Some (Ok x, ds) -> in_box b x.
Proof.
  intros Hb [T1 T2] H. unfold centroids_get in H. destruct t_ as [t_|]; [|discriminate]. specialize (T2 t_ eq_refl).
  assert (exists m, finite_points (length b) m /\ (if S (length b) <=? length (rows t_) then Some (rows t_) else
      match t with Some t => if S (length b) <=? length (rows t) then Some (rows t) else None | None => None end) = Some (rows m) \/
    (if S (length b) <=? length (rows t_) then Some (rows t_) else
      match t with Some t => if S (length b) <=? length (rows t) then Some (rows t) else None | None => None end) = None) as (m & [[Hm Em]|Em]).
  { destruct (_ <=? _); [exists t_; auto|]. destruct t as [t|]; [|exists t_; auto]. destruct (_ <=? _); [exists t; left; auto|exists t_; auto]. }
  - rewrite Em in H. destruct draws as [|[| | |idx|] [|[| | |js|] [|[| | | |k] draws]]]; try discriminate.
    destruct (choice_draw (length (rows m)) (S (length b)) idx && choice_draw (S (length b)) (length b) js && kick_draw (length b) k) eqn:E; [|discriminate].
    injection H as <- <-. apply andb_true_iff in E as [E E3]. apply andb_true_iff in E as [E1 E2].
    unfold choice_draw in E1. apply andb_true_iff in E1 as [E1 _]. apply andb_true_iff in E1 as [L E1]. apply Nat.eqb_eq in L.
    rewrite forallb_forall in E1. apply kicked_in; auto.
    + apply Forall_map, Forall_forall. intros i Hi. destruct Hm as [_ Hm]. rewrite Forall_forall in Hm. apply Hm, nth_In. apply Nat.ltb_lt, E1. auto.
    + destruct idx; discriminate.
    + rewrite map_length, L. auto.
  - rewrite Em in H. discriminate.
Qed.

(** ** C61 *)
(** Whatever is drawn, and whichever of the classes are nested: a proposal is within the bounds. *)
Theorem C61_in_bounds :
  forall p main b draws x p' ds, bounded b p -> proper b -> trained (length b) p ->
    get main p draws = Some (Ok x, p', ds) -> in_box b x /\ bounded b p' /\ trained (length b) p'.
Proof.
  induction p as [b0|b0|rpf b0 p IH|b0 m u|b0 t t_]; intros main b draws x p' ds Hb Hp Ht H; cbn [bounded] in Hb; cbn [get] in H.
  - subst b0. destruct (reject b draws) as [[r ds']|] eqn:E; [|discriminate]. injection H as -> <- <-. apply reject_in in E. cbn. auto.
  - subst b0. destruct (uniform_get b draws) as [[r ds']|] eqn:E; [|discriminate]. injection H as -> <- <-. apply uniform_in in E; cbn; auto.
  - destruct Hb as [-> Hb]. destruct draws as [|[| |c| |] draws]; try discriminate. destruct (nltb rpf c).
    + destruct (get main p draws) as [[[r q] ds']|] eqn:E; [|discriminate]. injection H as -> <- <-.
      destruct (IH _ _ _ _ _ _ Hb Hp Ht E) as (I1 & I2 & I3). cbn. auto.
    + destruct (uniform_get b draws) as [[r ds']|] eqn:E; [|discriminate]. injection H as -> <- <-. apply uniform_in in E; cbn; auto.
  - subst b0. destruct (reject b _) as [[r ds']|] eqn:E; [|discriminate]. injection H as -> <- <-. apply reject_in in E. cbn. auto.
  - subst b0. destruct (centroids_get b t t_ draws) as [[r ds']|] eqn:E; [|discriminate]. injection H as -> <- <-. apply centroids_in in E; [|auto|auto].
    split; [exact E|]. split; [reflexivity|exact Ht].
Qed.
(** Proposals from centroids: where the points of the subset lie between two values in some dimension, and the kick is at most 1, so
    does the proposal; without a kick it is their mean. *)
Lemma qc_plus_le x y u v : qleb x u = true -> qleb y v = true -> qleb (x + y)%Qc (u + v)%Qc = true.
Proof. intros H1 H2. qc_norm. lra. Qed.
Lemma fold_between (lo hi : Qc) : forall (l : list num) acc n, Forall (fun v => le (Fin lo) v /\ le v (Fin hi)) l ->
  (n * this lo <= this acc)%Q -> (this acc <= n * this hi)%Q ->
  exists q, fold_left nadd l (Fin acc) = Fin q /\ ((n + inject_Z (Z.of_nat (length l))) * this lo <= this q)%Q /\ (this q <= (n + inject_Z (Z.of_nat (length l))) * this hi)%Q.
Proof.
  induction l as [|v l IH]; intros acc n H H1 H2; cbn [fold_left length].
  - exists acc. split; [reflexivity|]. cbn. unfold inject_Z. split; lra.
  - inversion H as [|? ? [Hl Hh] Hr]; subst. destruct v as [| |v|]; try discriminate.
    destruct (IH (acc + v)%Qc (n + 1)%Q Hr) as (q & E & Q1 & Q2).
    + unfold le in *. cbn [nleb] in *. qc_norm. lra.
    + unfold le in *. cbn [nleb] in *. qc_norm. lra.
    + exists q. split; [exact E|]. rewrite Nat2Z.inj_succ, <- Z.add_1_r, inject_Z_plus. unfold inject_Z at 2 4. split; lra.
Qed.
Lemma nth_map_seq {A} (f : nat -> A) n i d : i < n -> nth i (map f (seq 0 n)) d = f i.
Proof.
  intros H. rewrite (nth_indep _ d (f 0)) by (rewrite map_length, seq_length; exact H).
  rewrite (map_nth f), seq_nth by exact H. reflexivity.
Qed.
Theorem C61_centroid :
  forall b subset js k i lo hi, proper b -> i < length b -> subset <> [] ->
    Forall (fun x => le (Fin lo) (nth i x NaN) /\ le (nth i x NaN) (Fin hi)) subset -> nth i js 0 < length subset ->
    le (fst (nth i b (NaN, NaN))) (Fin lo) -> le (Fin hi) (snd (nth i b (NaN, NaN))) ->
    le (nz 0) (nth i k NaN) -> le (nth i k NaN) (nz 1) ->
    le (Fin lo) (nth i (kicked b subset js k) NaN) /\ le (nth i (kicked b subset js k) NaN) (Fin hi).
Proof.
  intros b subset js k i lo hi Hb Hi Hn Hs Hj Bl Bh K0 K1. unfold kicked.
  rewrite nth_map_seq by exact Hi. cbv beta zeta.
  assert (exists c, average subset i = Fin c /\ (this lo <= this c)%Q /\ (this c <= this hi)%Q) as (c & -> & C1 & C2).
  { unfold average. destruct (fold_between lo hi (map (fun x => nth i x NaN) subset) (qc_of_Z 0) 0%Q) as (q & E & Q1 & Q2).
    - apply Forall_map. exact Hs.
    - assert (this (qc_of_Z 0) == 0)%Q as E0 by apply this_Q2Qc. lra.
    - assert (this (qc_of_Z 0) == 0)%Q as E0 by apply this_Q2Qc. lra.
    - unfold nz at 1. rewrite E. rewrite map_length in Q1, Q2. unfold nz, ndiv.
      assert (0 < inject_Z (Z.of_nat (length subset)))%Q as Lp.
      { destruct subset; [congruence|]. unfold Qlt, inject_Z. cbn. lia. }
      assert (this (qc_of_Z (Z.of_nat (length subset))) == inject_Z (Z.of_nat (length subset)))%Q as EL by (unfold qc_of_Z; apply this_Q2Qc).
      match goal with |- context [qeqb ?a ?b] => destruct (qeqb a b) eqn:Ez end.
      + exfalso. apply qeqb_eq in Ez. apply Qceq_this in Ez. rewrite EL in Ez. assert (this (qc_of_Z 0) == 0)%Q as E0 by apply this_Q2Qc.
        change (this 0%Qc) with 0%Q in Ez. lra.
      + eexists. split; [reflexivity|]. unfold Qcdiv, Qcmult, Qcinv. rewrite !this_Q2Qc, EL.
        split; [apply Qle_shift_div_l|apply Qle_shift_div_r]; lra. }
  unfold point in *. rewrite Forall_forall in Hs. destruct (Hs (nth (nth i js 0) subset []) (nth_In _ _ Hj)) as [S1 S2].
  unfold proper in Hb. rewrite Forall_forall in Hb. destruct (Hb (nth i b (NaN, NaN)) (nth_In _ _ Hi)) as (F1 & F2 & L).
  destruct (nth i b (NaN, NaN)) as [lb hb]. cbn [fst snd] in *. destruct lb as [| |lb|], hb as [| |hb|]; try discriminate.
  destruct (nth i (nth (nth i js 0) subset []) NaN) as [| |s|]; try discriminate. destruct (nth i k NaN) as [| |kk|]; try discriminate.
  cbn [nneg nadd nmul]. set (x := (c + (- c + s) * kk)%Qc).
  assert ((this lo <= this x)%Q /\ (this x <= this hi)%Q) as [X1 X2].
  { unfold x, le, nz in *. cbn [nleb] in *. assert (this (qc_of_Z 0) == 0)%Q as E0 by apply this_Q2Qc. assert (this (qc_of_Z 1) == 1)%Q as E1 by apply this_Q2Qc.
    clear - C1 C2 S1 S2 K0 K1 E0 E1. qc_norm. rewrite E0 in K0. rewrite E1 in K1. split; nra. }
  unfold clip, le, npmin2, npmax2, pymax, pymin in *. cbn [isnan orb nltb nleb] in *. clearbody x. clear - X1 X2 Bl Bh L.
  destruct (qltb x lb) eqn:E1; cbn [isnan orb nltb nleb]; [destruct (qltb hb lb) eqn:E2|destruct (qltb hb x) eqn:E2]; cbn [nleb]; split; qc_norm; lra.
Qed.
Example C61_case_centroid :
  kicked [(nz (-5), nz 5); (nz (-5), nz 5)] [[nz 1; nz 2]; [nz 3; nz 2]; [nz 2; nz (-1)]] [0; 2] [nz 0; nz 1] = [nz 2; nz (-1)].
Proof. vm_compute. reflexivity. Qed.
(** Samples of a distribution are within any bounds, also infinite or empty ones, and no error is raised. *)
Theorem C61_sampled :
  forall p main b draws r p' ds, only_sampled p -> bounded b p -> get main p draws = Some (r, p', ds) -> exists x, r = Ok x /\ in_box b x.
Proof.
  intros p main b draws r p' ds Ho Hb H. destruct p as [b0|b0|rpf b0 p|b0 m u|b0 t t_]; cbn in Ho; try tauto; cbn [bounded] in Hb; cbn [get] in H; subst b0;
    (destruct (reject b _) as [[[x|e] ds']|] eqn:E; [|apply reject_never in E; tauto|discriminate]; injection H as <- <- <-; exists x; split; [auto|apply reject_in in E; auto]).
Qed.
(** New bounds reach all nested proposers, and a new surrogate changes no bounds. *)
Theorem C61_update_bounds :
  forall p b p', update_bounds b p = Ok p' -> bounded b p'.
Proof.
  induction p as [b0|b0|rpf b0 p IH|b0 m u|b0 t t_]; intros b p' H; cbn [update_bounds] in H.
  - injection H as <-. reflexivity.
  - injection H as <-. reflexivity.
  - destruct (update_bounds b p) as [q|] eqn:E; [|discriminate]. injection H as <-. cbn. auto.
  - injection H as <-. reflexivity.
  - destruct t as [X|]; [|injection H as <-; reflexivity]. destruct (is_in_bounds _ _ _); [|discriminate]. injection H as <-. reflexivity.
Qed.
Lemma update_bounded X p b : bounded b p -> bounded b (update X p).
Proof. induction p; cbn; auto. intros [-> H]. auto. Qed.
Lemma update_trained X p d : finite_points d X -> trained d p -> trained d (update X p).
Proof. induction p; cbn; auto. intros F [H1 H2]. split; [intros m E; injection E as <-; auto|auto]. Qed.
Lemma mask_incl {A} m : forall (l : list A) x, In x (mask m l) -> In x l.
Proof. induction m as [|[] m IH]; intros [|y l] x; cbn; auto; try tauto. intros [->|H]; eauto. Qed.
Lemma update_bounds_ok b p : trained (length b) p -> exists p', update_bounds b p = Ok p' /\ trained (length b) p'.
Proof.
  induction p as [b0|b0|rpf b0 p IH|b0 m u|b0 t t_]; intros H; cbn [update_bounds].
  - eexists. split; [reflexivity|exact I].
  - eexists. split; [reflexivity|exact I].
  - destruct (IH H) as (q & -> & Hq). eexists. split; [reflexivity|auto].
  - eexists. split; [reflexivity|auto].
  - destruct t as [X|]; [|eexists; split; [reflexivity|auto]]. destruct H as [H1 H2]. destruct (H1 X eq_refl) as [HX HF].
    assert (is_in_bounds (Mat X) (box_arr b) true = Ok (map (box_test b) (rows X))) as E.
    { destruct X as [d rws]. cbn in HX. subst d. apply is_in_bounds_eq; auto. cbn in *. eapply Forall_impl; [|exact HF]. intros a [Ha _]. exact Ha. }
    rewrite E. eexists. split; [reflexivity|]. split; [auto|]. intros m Em. injection Em as <-. split; [auto|]. cbn [rows].
    rewrite Forall_forall in *. intros r Hr. apply HF. eapply mask_incl; eauto.
Qed.
(** All histories: after any sequence of calls the next proposal is within the bounds that were set last. *)
Inductive op := Update (X : mat) | Bounds (b : box) | Get (main : bool) (draws : list draw).
Inductive runs : proposer -> list op -> proposer -> Prop :=
| R_nil p : runs p [] p
| R_update p X ops p' : runs (update X p) ops p' -> runs p (Update X :: ops) p'
| R_bounds p b q ops p' : update_bounds b p = Ok q -> runs q ops p' -> runs p (Bounds b :: ops) p'
| R_get p main draws r q ds ops p' : get main p draws = Some (r, q, ds) -> runs q ops p' -> runs p (Get main draws :: ops) p'.
Definition sane_op (d : nat) (o : op) : Prop := match o with Update X => finite_points d X | Bounds b => length b = d | Get _ _ => True end.
Definition last_bounds (b : box) (ops : list op) : box := fold_left (fun b o => match o with Bounds b' => b' | _ => b end) ops b.
Lemma get_keeps p : forall main b draws r p' ds, bounded b p -> trained (length b) p -> get main p draws = Some (r, p', ds) -> bounded b p' /\ trained (length b) p'.
Proof.
  induction p as [b0|b0|rpf b0 p IH|b0 m u|b0 t t_]; intros main b draws r p' ds Hb Ht H; cbn [get] in H.
  - destruct (reject _ _) as [[]|]; [|discriminate]. injection H as <- <- <-. auto.
  - destruct (uniform_get _ _) as [[]|]; [|discriminate]. injection H as <- <- <-. auto.
  - destruct draws as [|[| |c| |] draws]; try discriminate. destruct (nltb rpf c).
    + destruct (get main p draws) as [[[r' q] ds']|] eqn:E; [|discriminate]. injection H as <- <- <-. destruct Hb as [-> Hb].
      destruct (IH _ _ _ _ _ _ Hb Ht E). cbn. auto.
    + destruct (uniform_get _ _) as [[]|]; [|discriminate]. injection H as <- <- <-. auto.
  - destruct (reject _ _) as [[]|]; [|discriminate]. injection H as <- <- <-. auto.
  - destruct (centroids_get _ _ _ _) as [[]|]; [|discriminate]. injection H as <- <- <-. auto.
Qed.
Theorem C61_histories :
  forall p ops p' b main draws x q ds, bounded b p -> trained (length b) p -> Forall (sane_op (length b)) ops -> runs p ops p' ->
    proper (last_bounds b ops) -> get main p' draws = Some (Ok x, q, ds) -> in_box (last_bounds b ops) x.
Proof.
  intros p ops p' b main draws x q ds Hb Ht Ho Hr Hp Hg.
  assert (bounded (last_bounds b ops) p' /\ trained (length (last_bounds b ops)) p') as [K1 K2].
  { clear Hp Hg. revert b Hb Ht Ho. induction Hr as [p|p X ops p' Hr IH|p b' p1 ops p' E Hr IH|p mn dr r p1 ds1 ops p' E Hr IH]; intros b Hb Ht Ho;
      [auto|..]; inversion Ho as [|? ? Ho1 Ho2]; subst; cbn [last_bounds fold_left].
    - apply IH; auto; [apply update_bounded; auto|apply update_trained; auto].
    - cbn in Ho1. rewrite <- Ho1 in *. destruct (update_bounds_ok b' p Ht) as (p2 & E2 & T). rewrite E in E2. injection E2 as <-.
      apply IH; auto. eapply C61_update_bounds; eauto.
    - destruct (get_keeps _ _ _ _ _ _ _ Hb Ht E). apply IH; auto. }
  eapply C61_in_bounds; eauto.
Qed.
(** The mean is the first proposal of the main process, if it is within the bounds, and only then. *)
Theorem C61_mean :
  forall b mean draws, length mean = length b ->
    (in_box b mean -> get true (new_meancov b mean true) draws = Some (Ok mean, MeanCov b mean true, draws))
    /\ (~ in_box b mean -> get true (new_meancov b mean true) draws = get true (new_meancov b mean false) draws)
    /\ get false (new_meancov b mean true) draws = get false (new_meancov b mean false) draws.
Proof.
  intros b mean draws L. destruct (C06_one_point b mean false L) as (v & E & Hv). unfold new_meancov. cbn [get negb andb reject].
  rewrite L, Nat.eqb_refl, E. split; [|split; [|reflexivity]].
  - intros Hi. apply Hv in Hi. subst v. reflexivity.
  - intros Hi. destruct v; [destruct Hi; apply Hv; auto|reflexivity].
Qed.
(** The mixture: with a fraction of 1 every proposal is the uniform one, with a fraction of 0 none is, unless the coin
    shows exactly 0. The smaller the fraction, the more often the other proposer is used. *)
Definition same_point (r r' : option (res point * proposer * list draw)) : Prop :=
  option_map (fun t => (fst (fst t), snd t)) r = option_map (fun t => (fst (fst t), snd t)) r'.
Theorem C61_fraction :
  forall b p rpf mix main u draws, new_partial b p rpf = Ok mix -> nleb (nz 0) u && nltb u (nz 1) = true ->
    (rpf = nz 1 -> same_point (get main mix (DCoin u :: draws)) (get main (Uniform b) draws))
    /\ (rpf = nz 0 -> u <> nz 0 -> same_point (get main mix (DCoin u :: draws)) (get main p draws))
    /\ (le u rpf -> same_point (get main mix (DCoin u :: draws)) (get main (Uniform b) draws))
    /\ (le rpf u -> rpf <> u -> same_point (get main mix (DCoin u :: draws)) (get main p draws)).
Proof.
  intros b p rpf mix main u draws Hn Hu. unfold new_partial in Hn. destruct (nltb (nz 1) rpf || nltb rpf (nz 0)); [discriminate|]. injection Hn as <-.
  apply andb_true_iff in Hu as [U0 U1]. unfold same_point. cbn [get].
  assert (nltb rpf u = false -> option_map (fun t => (fst (fst t), snd t)) (if nltb rpf u then option_map (fun r => (fst (fst r), Partial rpf b (snd (fst r)), snd r)) (get main p draws)
            else option_map (fun r => (fst r, Partial rpf b p, snd r)) (uniform_get b draws))
          = option_map (fun t => (fst (fst t), snd t)) (option_map (fun r => (fst r, Uniform b, snd r)) (uniform_get b draws))) as A0.
  { intros ->. destruct (uniform_get b draws) as [[r ds]|]; reflexivity. }
  assert (nltb rpf u = true -> option_map (fun t => (fst (fst t), snd t)) (if nltb rpf u then option_map (fun r => (fst (fst r), Partial rpf b (snd (fst r)), snd r)) (get main p draws)
            else option_map (fun r => (fst r, Partial rpf b p, snd r)) (uniform_get b draws))
          = option_map (fun t => (fst (fst t), snd t)) (get main p draws)) as A1.
  { intros ->. destruct (get main p draws) as [[[r q] ds]|]; reflexivity. }
  assert (forall x y, nltb x y = true -> nltb y x = false) as As.
  { intros x y H. apply nleb_ltb_false. apply nltb_leb. exact H. }
  assert (forall x y, nleb x y = true -> x <> y -> nltb x y = true) as strict.
  { intros [| |x|] [| |y|] H Ne; try discriminate H; try reflexivity; try congruence.
    cbn [nleb nltb] in *. destruct (qltb x y) eqn:E; [reflexivity|]. exfalso. apply Ne. f_equal. apply qleb_le in H. apply qltb_nlt in E. apply Qcle_antisym; auto. }
  split; [|split; [|split]].
  - intros ->. apply A0. apply As. exact U1.
  - intros -> Hz. apply A1. apply strict; auto.
  - intros H. apply A0. apply nleb_ltb_false. exact H.
  - intros H Ne. apply A1. apply strict; auto.
Qed.
(** The constructor of the mixture does not pass its bounds on to the other proposer. *)
Theorem C61_mismatch_refuted :
  exists b b' p x, new_partial b (Uniform b') (ndiv (nz 1) (nz 4)) = Ok p /\ proper b /\ proper b'
    /\ (exists draws q ds, get true p draws = Some (Ok x, q, ds)) /\ ~ in_box b x.
Proof.
  exists [(nz 0, nz 1)], [(nz 5, nz 6)]. eexists. exists [nz 5]. split; [reflexivity|]. split; [repeat constructor|]. split; [repeat constructor|]. split.
  - exists [DCoin (ndiv (nz 1) (nz 2)); DUnit [nz 0]]. do 2 eexists. vm_compute. reflexivity.
  - intros H. inversion H as [|? ? ? ? [_ H1]]; subst. discriminate.
Qed.
(** With an infinite bound, the uniform proposer proposes NaN. *)
Theorem C61_infinite_refuted :
  forall u draws hi, unit_draw 1 [u] = true -> hi <> NaN -> hi <> NInf ->
    exists q ds, get true (Uniform [(NInf, hi)]) (DUnit [u] :: draws) = Some (Ok [NaN], q, ds).
Proof.
  intros u draws hi U H1 H2.
  assert (nsub hi NInf = PInf) as E by (destruct hi; try congruence; reflexivity).
  cbn [get]. unfold uniform_get. change (length [(NInf, hi)]) with 1. rewrite U.
  cbn [forallb fst snd map combine]. rewrite E. cbn [nleb nz negb andb option_map fst snd].
  do 2 eexists. do 4 f_equal. destruct u as [| |u|]; cbn; auto; try discriminate. unfold inf_times. destruct (_ =? _)%Z; [reflexivity|]. destruct (_ <? _)%Z eqn:El; [|reflexivity].
  exfalso. unfold unit_draw in U. cbn [length Nat.eqb forallb andb nleb nltb] in U. apply andb_true_iff in U as [U _]. apply andb_true_iff in U as [U _].
  unfold qsgn in El. match type of El with context [qltb u ?z] => destruct (qltb u z) eqn:Eu end; [|destruct (qeqb u _); discriminate].
  unfold nz in U. cbn [nleb] in U. unfold qc_of_Z in U. clear El. qc_norm. change (this 0) with 0%Q in *. unfold inject_Z in *. lra.
Qed.
Print Assumptions C61_centroid.
Print Assumptions C61_in_bounds.
Print Assumptions C61_sampled.
Print Assumptions C61_update_bounds.
Print Assumptions C61_histories.
Print Assumptions C61_mean.
Print Assumptions C61_fraction.
Print Assumptions C61_mismatch_refuted.
Print Assumptions C61_infinite_refuted.
(** A mixture of the normal around a mean and the uniform, nested twice, in two dimensions; the second draw of the
    normal is accepted. *)
Definition demo_box : box := [(nz 0, nz 4); (nz (-1), nz 1)].
Definition demo_mix : proposer := Partial (nz 0) demo_box (Partial (nz 0) demo_box (new_meancov demo_box [nz 9; nz 0] true)).
Example C61_example :
  bounded demo_box demo_mix /\ proper demo_box /\ trained 2 demo_mix
  /\ option_map fst (get true demo_mix [DCoin (ndiv (nz 1) (nz 2)); DCoin (ndiv (nz 1) (nz 2)); DPoint [nz 1; nz 2]; DPoint [nz 1; nz 1]])
     = Some (Ok [nz 1; nz 1], Partial (nz 0) demo_box (Partial (nz 0) demo_box (MeanCov demo_box [nz 9; nz 0] true)))
  /\ option_map (fun r => fst (fst r)) (get true demo_mix [DCoin (nz 0); DUnit [ndiv (nz 1) (nz 2); nz 0]]) = Some (Ok [nz 2; nz (-1)]).
Proof.
  split; [repeat split|]. split; [repeat constructor|]. split; [reflexivity|]. split; [vm_compute; reflexivity|].
  vm_compute. do 2 f_equal.
Qed.

(** ** C92: proposals around centroids *)
Definition inside (b : box) (X : mat) : list point := filter (box_test b) (rows X).
Lemma mask_filter {A} (f : A -> bool) l : mask (map f l) l = filter f l.
Proof. induction l as [|x l IH]; cbn; [reflexivity|]. destruct (f x); rewrite IH; reflexivity. Qed.
Lemma centroids_ready b0 b X t t_ : finite_points (length b) X ->
  update_bounds b (update X (Centroids b0 t t_)) = Ok (Centroids b (Some X) (Some (mkMat (nc X) (inside b X)))).
Proof.
  intros [HX HF]. cbn [update update_bounds].
  assert (is_in_bounds (Mat X) (box_arr b) true = Ok (map (box_test b) (rows X))) as E.
  { destruct X as [d rws]. cbn in HX. subst d. apply is_in_bounds_eq; auto. cbn in *. eapply Forall_impl; [|exact HF]. intros a [Ha _]. exact Ha. }
  rewrite E. cbn [bind]. rewrite mask_filter. reflexivity.
Qed.
(** If there are enough training points within the bounds, the proposals depend on no others: surrogates with the
    same points inside give the same proposals (updating first the surrogate and then the bounds, as the
    acquisition does). *)
Theorem C92_only_inside :
  forall b b0 t t_ b0' t' t_' X X' p p' main draws, finite_points (length b) X -> finite_points (length b) X' ->
    (forall x, in_box b x -> forall i, (nth_error (filter (box_test b) (rows X)) i = Some x <-> nth_error (filter (box_test b) (rows X')) i = Some x)) ->
    length b < length (filter (box_test b) (rows X)) ->
    update_bounds b (update X (Centroids b0 t t_)) = Ok p -> update_bounds b (update X' (Centroids b0' t' t_')) = Ok p' ->
    option_map (fun r => (fst (fst r), snd r)) (get main p draws) = option_map (fun r => (fst (fst r), snd r)) (get main p' draws).
Proof.
  intros b b0 t t_ b0' t' t_' X X' p p' main draws HX HX' Hs Hn E E'. rewrite centroids_ready in E by auto. rewrite centroids_ready in E' by auto.
  injection E as <-. injection E' as <-.
  assert (filter (box_test b) (rows X) = filter (box_test b) (rows X')) as Es.
  { assert (forall Y, finite_points (length b) Y -> forall x, In x (filter (box_test b) (rows Y)) -> in_box b x) as K.
    { intros Y [_ HY] x Hx. apply filter_In in Hx as [H1 H2]. rewrite Forall_forall in HY. apply box_test_spec; auto. apply HY. auto. }
    apply nth_error_ext. intros i. destruct (nth_error (filter (box_test b) (rows X)) i) as [x|] eqn:Ei.
    - symmetry. apply Hs; auto. apply (K X); auto. eapply nth_error_In; eauto.
    - destruct (nth_error (filter (box_test b) (rows X')) i) as [x|] eqn:Ei'; auto. apply Hs in Ei'; [congruence|]. apply (K X'); auto. eapply nth_error_In; eauto. }
  cbn [get]. unfold centroids_get, inside. cbn [rows]. rewrite <- Es. apply Nat.ltb_lt in Hn. unfold Nat.ltb in Hn. rewrite Hn.
  destruct draws as [|[| | |idx|] [|[| | |js|] [|[| | | |k] draws]]]; try reflexivity. destruct (_ && _ && _); reflexivity.
Qed.
(** With fewer than [d + 1] training points in all, proposing raises. *)
Theorem C92_too_few :
  forall b b0 t t_ X p main draws, finite_points (length b) X -> length (rows X) <= length b ->
    update_bounds b (update X (Centroids b0 t t_)) = Ok p -> get main p draws = Some (Err ValueError, p, draws).
Proof.
  intros b b0 t t_ X p main draws HX Hn E. rewrite centroids_ready in E by auto. injection E as <-. cbn [get]. unfold centroids_get, inside. cbn [rows].
  assert (length (filter (box_test b) (rows X)) <= length (rows X)) as L.
  { clear. generalize (rows X) as l. induction l as [|x l IH]; cbn [filter length]; [auto|]. destruct (box_test b x); cbn [length]; lia. }
  assert (forall n, n <= length b -> (S (length b) <=? n) = false) as F by (intros n H; apply Nat.leb_gt; lia).
  rewrite !F by lia. reflexivity.
Qed.
(** Updating the surrogate without updating the bounds: never any proposal for a new proposer, ... *)
Theorem C92_untrained_refuted :
  forall b X main draws, get main (update X (new_centroids b)) draws = Some (Err TypeError, update X (new_centroids b), draws).
Proof. reflexivity. Qed.
(** ... and proposals from the points of the previous surrogate for the others. *)
Theorem C92_stale_refuted :
  forall b b0 t t_ X X' p main draws, finite_points (length b) X -> length b < length (filter (box_test b) (rows X)) ->
    update_bounds b (update X (Centroids b0 t t_)) = Ok p ->
    option_map (fun r => (fst (fst r), snd r)) (get main (update X' p) draws) = option_map (fun r => (fst (fst r), snd r)) (get main p draws).
Proof.
  intros b b0 t t_ X X' p main draws HX Hn E. rewrite centroids_ready in E by auto. injection E as <-. cbn [update get]. unfold centroids_get, inside. cbn [rows].
  apply Nat.ltb_lt in Hn. unfold Nat.ltb in Hn. rewrite Hn.
  destruct draws as [|[| | |idx|] [|[| | |js|] [|[| | | |k] draws]]]; try reflexivity. destruct (_ && _ && _); reflexivity.
Qed.
Print Assumptions C92_only_inside.
Print Assumptions C92_too_few.
Print Assumptions C92_untrained_refuted.
Print Assumptions C92_stale_refuted.
(** Two dimensions, five points, one of them outside. *)
Definition demo_X : mat := mkMat 2 [[nz 0; nz 0]; [nz 9; nz 0]; [nz 3; nz 0]; [nz 0; nz (-1)]; [nz 4; nz 1]].
Example C92_example :
  finite_points 2 demo_X /\ length (filter (box_test demo_box) (rows demo_X)) = 4
  /\ exists p, update_bounds demo_box (update demo_X (new_centroids demo_box)) = Ok p
     /\ option_map (fun r => fst (fst r)) (get true p [DChoice [0; 1; 3]; DChoice [1; 2]; DKick [nz 0; nz 9]])
        = Some (Ok [average [[nz 0; nz 0]; [nz 3; nz 0]; [nz 4; nz 1]] 0; nz 1]).
Proof.
  split; [repeat constructor|]. split; [reflexivity|]. eexists. split; [vm_compute; reflexivity|].
  cbn [get centroids_get rows length]. vm_compute. do 2 f_equal.
Qed.

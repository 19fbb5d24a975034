(** Where the points proposed by [BatchOptimizer] lie (gp_acquisition.py:212-523), with the preprocessors of
    preprocessing.py. *)
From Verif Require Import Base Num MTools PTools MMpi PMpi MBatch TBatch MPreproc PPreproc TPreproc.
From Verif Require MPool PPool4 MWhiten TWhiten.
From Coq Require Reals.
Set Default Goal Selector "!".
Set Bullet Behavior "Strict Subproofs".

(** * Specification *)
Section Spec.
Context {G pt box : Type}.
Variable inside : pt -> box -> Prop.
(** The optimiser does not leave the box that it is given, if it is started inside. *)
Definition stays (w : inputs G pt box) : Prop := forall ip i f x0 b x v,
  inside x0 b -> w_opt w ip i f x0 b = Ok (x, v) -> inside x b.
(** The proposals lie inside of the box. *)
Definition draws_inside (w : inputs G pt box) (b : box) : Prop := forall ip i k x, w_draw w ip i k = Ok x -> inside x b.
End Spec.
(** A point of finite numbers inside of a box: as many coordinates as there are intervals, each within its own. *)
Definition within (x : list num) (b : list (num * num)) : Prop :=
  Forall2 (fun v i => isfin v = true /\ nleb (fst i) v = true /\ nleb v (snd i) = true) x b.
(** The acquisition uses [Normalize_bounds(bounds)] for the points; [is_in_bounds] finds the training points inside. *)
Definition normalised {G} (e : env G (list num) (list (num * num))) (p : norm_bounds) : Prop :=
  (forall x y, nb_transform p x = Ok y -> e_fwd e x = y) /\
  (forall x y, nb_inverse_transform p x = Ok y -> e_bwd e x = y) /\
  (forall b, e_fwd_box e b = nb_transform_bounds b) /\
  forall x b, e_inb e x b = true <-> within x b.
(** The acquisition uses no preprocessor. *)
Definition plain {G} (e : env G (list num) (list (num * num))) : Prop :=
  (forall x, e_fwd e x = x) /\ (forall x, e_bwd e x = x) /\ (forall b, e_fwd_box e b = b) /\
  forall x b, e_inb e x b = true <-> within x b.

(** * Lemmas *)
Section General.
Context {G pt box : Type}.
Variable e : env G pt box.
Variable c : config box.
Variable w : inputs G pt box.

Let none : nat -> option G := fun _ => None.
Lemma everywhere (P : pt -> Prop) size g n b l g' : size <> 0 ->
  let b' := match b with Some b => b | None => c_bounds c end in
  (forall ip i f x0 x v, (exists t, x0 = e_fwd e t /\ (e_inb e t b' = true \/ exists ip i k, w_draw w ip i k = Ok t)) ->
     w_opt w ip i f x0 (e_fwd_box e b') = Ok (x, v) -> P (e_bwd e x)) ->
  (forall ip i k t, w_draw w ip i k = Ok t -> P (e_bwd e (e_fwd e t))) ->
  snd (multi_add e c w size none g n b) = Ok (l, g') -> Forall (fun p => P (fst (fst p))) l.
Proof.
  intros Hs b' R1 R2 H. unfold multi_add in H. destruct (Z.leb_spec n 0); [discriminate|]. fold b' in H.
  assert (believer e (fun _ _ x _ => P x) (e_copy e g) 0 l) as B.
  { eapply points_spec; eauto. clear g n l g' H H0. intros g ip l x v Ho Hc.
    rewrite outcomes_all in Ho by auto. apply mapM_Forall2 in Ho. pose proof (choose_in _ _ Hc) as Hin.
    destruct (Forall2_in_r _ _ _ Ho _ Hin) as (i & _ & E). unfold optimize in E.
    destruct (w_update w g b'); cbn [bind] in E; [|discriminate]. unfold captured in E.
    destruct (e_check e g); cbn [bind] in E; [|discriminate].
    destruct (Nat.eqb_spec i 0) as [->|Hi0].
    - destruct (rev (e_X_train e g)) as [|r0 r]; [discriminate|].
      destruct (find _ _) as [t|] eqn:Ef; [|discriminate]. eapply R1; [|exact E]. exists t. split; [reflexivity|]. left.
      apply find_some in Ef. apply Ef.
    - destruct (tries e c w g ip i 0 (10 * c_d c * c_restarts c) [] None) as [[acc last]|] eqn:Et; cbn [bind] in E; [|discriminate].
      destruct (tries_spec _ _ _ _ _ _ _ _ _ _ _ _ Et) as (A1 & A2 & A3 & A4 & A5); [reflexivity|cbn [length]; lia|].
      cbn [fst snd] in E. destruct acc as [|h0 acc0].
      + destruct last as [[x0 v0]|]; [|discriminate]. injection E as <- <-.
        destruct A4 as [A4|(p & j & Ep & _ & Ej)]; [discriminate|]. injection Ep as <-. eapply R2; eauto.
      + destruct (MPool.argmax (map snd (h0 :: acc0))) as [ja|]; cbn [bind] in E; [|discriminate].
        destruct (nth_error (h0 :: acc0) ja) as [[x0 v0]|] eqn:En; [|discriminate]. eapply R1; [|exact E]. exists x0. split; [reflexivity|]. right.
        apply nth_error_In in En. destruct (A2 _ En) as [[]|(_ & _ & j & Ej)]. eauto. }
  clear -B. revert B. generalize (e_copy e g), 0. induction l as [|[[x y] a] l IH]; intros g1 ip B; constructor.
  - cbn [fst]. apply B.
  - cbn [believer] in B. destruct B as (_ & _ & [->|(g2 & _ & B)]); auto. eapply IH; eauto.
Qed.

(** One process, one restart, one point. *)
Lemma one g b x0 z v : c_restarts c = 1 -> w_update w (e_copy e g) b = Ok tt -> e_check e (e_copy e g) = Ok tt ->
  find (fun x => e_inb e x b) (rev (e_X_train e (e_copy e g))) = Some x0 ->
  w_opt w 0 0 (objective e (e_copy e g)) (e_fwd e x0) (e_fwd_box e b) = Ok (z, v) ->
  snd (multi_add e c w 1 none g 1 (Some b)) = Ok ([(e_bwd e z, e_predict e (e_copy e g) (e_bwd e z), nneg v)], e_copy e g).
Proof.
  intros Hc Hu Hk Hf Ho. unfold multi_add. cbn [Z.leb Z.compare]. change (Z.to_nat 1) with 1%nat. cbn [points].
  assert (K : optimize e c w None (e_copy e g) 0 0 (Some b) = Ok (z, v)).
  { unfold optimize, captured. rewrite Hu, Hk. cbn [bind Nat.eqb]. destruct (rev (e_X_train e (e_copy e g))) as [|r0 r]; [cbn in Hf; discriminate|]. rewrite Hf. exact Ho. }
  unfold none. rewrite outcomes_all by lia. rewrite Hc. cbn [seq mapM]. rewrite K. cbn [bind].
  assert (C : choose [(z, v)] = Ok (z, v)).
  { unfold choose. cbn [map snd existsb]. destruct (isfin v); reflexivity. }
  rewrite C. reflexivity.
Qed.
End General.

Lemma fin_between a b v : nleb (Fin a) v = true -> nleb v (Fin b) = true -> isfin v = true.
Proof. destruct v; cbn; congruence. Qed.
(** Points between finite bounds are finite. *)
Lemma within_fin x qb : within x (fb qb) -> exists q, x = map Fin q /\ length q = length qb /\
  Forall2 (fun x b => (fst b <= x)%Qc /\ (x <= snd b)%Qc) q qb.
Proof.
  intros H. unfold within, fb in H. revert x H. induction qb as [|b qb IH]; intros x H; inversion H as [|v i x' b' Hv Hx]; subst; [exists []; auto|].
  destruct (IH _ Hx) as (q & -> & Hl & Hq). destruct Hv as (Hf & H1 & H2). destruct v as [| |v|]; try discriminate. exists (v :: q).
  split; [reflexivity|]. split; [cbn; congruence|]. constructor; [|exact Hq]. cbn [fst snd] in *. split; apply qleb_le; assumption.
Qed.
Lemma fin_within q qb : Forall2 (fun x b => (fst b <= x)%Qc /\ (x <= snd b)%Qc) q qb -> within (map Fin q) (fb qb).
Proof. intros H. unfold within, fb. induction H as [|x b q qb [H1 H2] _ IH]; constructor; [|exact IH]. cbn [fst snd]. split; [reflexivity|]. split; apply qleb_le; assumption. Qed.
(** The unit box. *)
Lemma unit_fb b : nb_transform_bounds b = fb (map (fun _ => (0%Qc, 1%Qc)) b).
Proof.
  unfold nb_transform_bounds, fb. rewrite map_map. apply map_ext. intros _. cbn [fst snd]. unfold nz.
  f_equal; f_equal; apply Qc_is_canon; reflexivity.
Qed.
Lemma unit_box q n (b : list (num * num)) : length b = n -> Forall2 (fun x i => (fst i <= x)%Qc /\ (x <= snd i)%Qc) q (map (fun _ => (0%Qc, 1%Qc)) b) <->
  length q = n /\ Forall (fun t => (0 <= t)%Qc /\ (t <= 1)%Qc) q.
Proof.
  revert n q. induction b as [|i b IH]; intros n q Hn; cbn [map].
  - split; [intros H; inversion H; subst; auto|]. intros [Hl _]. destruct q; [constructor|cbn in *; lia].
  - cbn in Hn. split.
    + intros H. inversion H as [|x ? q' ? Hx Hq]; subst. destruct (proj1 (IH _ _ eq_refl) Hq) as [Hl HF]. split; [cbn; lia|]. constructor; assumption.
    + intros [Hl HF]. destruct q as [|x q]; [cbn in *; lia|]. inversion HF; subst. constructor; [assumption|]. apply (IH (length b)); [reflexivity|]. split; [cbn in Hl; lia|assumption].
Qed.

(** * Theorems *)
Section Theorems.
Context {G : Type}.
Variable e : env G (list num) (list (num * num)).
Variable c : config (list (num * num)).
Variable w : inputs G (list num) (list (num * num)).
Let none : nat -> option G := fun _ => None.

(** Without preprocessor: inside of the bounds that are asked for. *)
Theorem C106_plain : forall size g n b l g', size <> 0 -> plain e -> stays within w -> draws_inside within w b ->
  snd (multi_add e c w size none g n (Some b)) = Ok (l, g') -> Forall (fun p => within (fst (fst p)) b) l.
Proof.
  intros size g n b l g' Hs (F1 & F2 & F3 & F4) St Dr H. apply (everywhere e c w (fun x => within x b) size g n (Some b) l g' Hs); [| |exact H].
  - intros ip i f x0 x v (t & -> & Ht) Ho. rewrite F2. rewrite F1, F3 in Ho. eapply St; [|exact Ho].
    destruct Ht as [Ht|(a & j & k & Ht)]; [apply F4; exact Ht|eapply Dr; exact Ht].
  - intros ip i k t Ht. rewrite F1, F2. eapply Dr; exact Ht.
Qed.
(** With [Normalize_bounds]: inside of the prior, for whatever bounds inside of it are asked for. *)
Theorem C106_prior : forall qb p size g n b l g', size <> 0 -> positive_width qb -> new_norm_bounds (fb qb) = Ok p -> normalised e p ->
  length b = length qb -> (forall x, within x b -> within x (fb qb)) -> stays within w -> draws_inside within w b ->
  snd (multi_add e c w size none g n (Some b)) = Ok (l, g') -> Forall (fun p => within (fst (fst p)) (fb qb)) l.
Proof.
  intros qb p size g n b l g' Hs W Hp (F1 & F2 & F3 & F4) Hb Hsub St Dr H. destruct (C11_bounds_round_trip qb W) as (p' & Hp' & T1 & T2).
  rewrite Hp in Hp'. injection Hp' as <-.
  assert (Fw : forall t, within t b -> exists q, e_fwd e t = map Fin q /\ within (map Fin q) (nb_transform_bounds b) /\ e_bwd e (map Fin q) = t).
  { intros t Ht. destruct (within_fin _ _ (Hsub _ Ht)) as (q & -> & Hl & Hq). destruct (T1 q Hl) as (s & Ls & E1 & E2 & E3).
    exists s. split; [apply F1; exact E1|]. split; [|apply F2; exact E2]. rewrite unit_fb. apply fin_within. apply (unit_box _ (length qb)); [exact Hb|].
    split; [exact Ls|]. apply E3. exact Hq. }
  apply (everywhere e c w (fun x => within x (fb qb)) size g n (Some b) l g' Hs); [| |exact H].
  - intros ip i f x0 x v (t & -> & Ht) Ho. assert (Ht' : within t b) by (destruct Ht as [Ht|(a & j & k & Ht)]; [apply F4; exact Ht|eapply Dr; exact Ht]).
    destruct (Fw _ Ht') as (q & E1 & E2 & _). rewrite E1, F3 in Ho. pose proof (St _ _ _ _ _ _ _ E2 Ho) as Hx. rewrite unit_fb in Hx.
    destruct (within_fin _ _ Hx) as (s & -> & _ & Hs'). apply (unit_box _ (length qb)) in Hs'; [|exact Hb]. destruct Hs' as [Ls Hs'].
    destruct (T2 s Ls) as (y & Ly & E3 & E4 & _). rewrite (F2 _ _ E3). apply fin_within. destruct (T1 y Ly) as (s' & _ & E5 & _ & E6).
    rewrite E4 in E5. injection E5 as E5. apply E6. replace s' with s; [exact Hs'|]. clear - E5. revert s' E5. induction s as [|a s IH]; intros [|b s'] E5; try discriminate; [reflexivity|].
    injection E5 as -> E5. f_equal. apply IH. exact E5.
  - intros ip i k t Ht. apply Hsub. destruct (Fw t (Dr _ _ _ _ Ht)) as (q & E1 & _ & E2). rewrite E1, E2. eapply Dr; exact Ht.
Qed.
End Theorems.

(** Refuted: the points lie inside of the trust region that is asked for. [Normalize_bounds] answers the unit box whatever the bounds, so
    that any point [x] of the prior, however far from the trust region [b], is returned by an optimiser that finds it better
    than the last training point inside. *)
Definition withinb (t : list num) (b : list (num * num)) : bool :=
  (length t =? length b) && forallb (fun p => isfin (fst p) && nleb (fst (snd p)) (fst p) && nleb (fst p) (snd (snd p))) (combine t b).
Definition finds {G} (e : env G (list num) (list (num * num))) (t : list num) : inputs G (list num) (list (num * num)) :=
  mkInputs (fun _ _ => Ok tt) (fun _ _ _ => Err StopIteration)
    (fun _ _ f x0 b => if withinb t b && nleb (f t) (f x0)
                       then Ok (t, f t) else Ok (x0, f x0)).
Lemma finds_test t b : withinb t b = true <-> within t b.
Proof.
  unfold within, withinb. revert b. induction t as [|v t IH]; intros [|i b]; cbn [length combine forallb fst snd Nat.eqb andb].
  - split; auto.
  - split; [discriminate|intros H; inversion H].
  - split; [discriminate|intros H; inversion H].
  - specialize (IH b). rewrite !andb_true_iff in *. split.
    + intros (H1 & (H2 & H3) & H4). constructor; [tauto|]. apply IH. tauto.
    + intros H. inversion H; subst. split; [apply IH; assumption|]. split; [tauto|]. apply IH; assumption.
Qed.
Theorem C106_trust_refuted : forall G (e : env G (list num) (list (num * num))) c qb p g b x t0, positive_width qb -> new_norm_bounds (fb qb) = Ok p ->
  normalised e p -> length b = length qb -> within x (fb qb) -> c_restarts c = 1 -> e_check e (e_copy e g) = Ok tt ->
  find (fun x => e_inb e x b) (rev (e_X_train e (e_copy e g))) = Some t0 -> within t0 (fb qb) ->
  nltb (e_acq e (e_copy e g) t0) (e_acq e (e_copy e g) x) = true ->
  exists w, stays within w /\ draws_inside within w b /\ descends w /\
    snd (multi_add e c w 1 (fun _ => None) g 1 (Some b)) = Ok ([(x, e_predict e (e_copy e g) x, e_acq e (e_copy e g) x)], e_copy e g).
Proof.
  intros G e c qb p g b x t0 W Hp HN Hb Hx Hc Hk Hf Ht0 Ha. pose proof HN as (F1 & F2 & F3 & F4). destruct (C11_bounds_round_trip qb W) as (p' & Hp' & T1 & _T2).
  rewrite Hp in Hp'. injection Hp' as <-. destruct (within_fin _ _ Hx) as (q & -> & Hl & Hq). destruct (T1 q Hl) as (t & Lt & E1 & E2 & E3).
  destruct (within_fin _ _ Ht0) as (q0 & -> & Hl0 & Hq0). destruct (T1 q0 Hl0) as (s & Ls & D1 & D2 & D3).
  exists (finds e (map Fin t)). split; [|split; [|split]].
  - intros ip i f x0 b0 y v Hi Ho. cbn [finds w_opt] in Ho. destruct (_ && nleb _ _) eqn:E; injection Ho as <- <-; [|exact Hi].
    apply andb_prop in E as [E _]. apply finds_test. exact E.
  - intros ip i k y Hy. discriminate.
  - intros ip i f x0 b0 y v Hn Ho. cbn [finds w_opt] in Ho. destruct (_ && nleb _ _) eqn:E; injection Ho as <- <-; split; try reflexivity.
    + apply andb_prop in E as [_ E]. exact E.
    + apply nleb_refl. exact Hn.
  - erewrite (one _ _ _ _ _ _ (map Fin t) (objective e (e_copy e g) (map Fin t))); [rewrite (F2 _ _ E2)| | | | |]; try eassumption.
    + unfold objective. rewrite nneg_nneg, (F2 _ _ E2). reflexivity.
    + reflexivity.
    + cbn [finds w_opt]. rewrite (F1 _ _ D1), F3. replace (_ && nleb _ _) with true; [reflexivity|]. symmetry. apply andb_true_intro. split.
      * apply finds_test. rewrite unit_fb. apply fin_within. apply (unit_box _ (length qb)); [exact Hb|]. split; [exact Lt|]. apply E3, Hq.
      * unfold objective. rewrite (F2 _ _ E2), (F2 _ _ D2), nneg_le. apply nltb_leb. exact Ha.
Qed.
(** Beside the theorems: the prior is [0, 10], the trust region [2, 3], the training points 2 and 5/2; the acquisition function is the coordinate
    itself. Three processes, two restarts; the optimiser returns the upper corner of its box if that is better. *)
Definition corner_env (p : option norm_bounds) : env (list (list num)) (list num) (list (num * num)) :=
  mkEnv (fun _ => Ok tt) (fun g => g) (fun g => g) (fun _ _ => nz 0) (fun g x _ => Ok (g ++ [x])) (fun _ x => nth 0 x NaN) withinb
    (fun x => match p with Some p => match nb_transform p x with Ok y => y | Err _ => [] end | None => x end)
    (fun x => match p with Some p => match nb_inverse_transform p x with Ok y => y | Err _ => [] end | None => x end)
    (match p with Some _ => nb_transform_bounds | None => fun b => b end).
Definition corner_inputs : inputs (list (list num)) (list num) (list (num * num)) :=
  mkInputs (fun _ _ => Ok tt) (fun _ _ _ => Ok [nq 5 2])
    (fun _ _ f x0 b => if withinb (map snd b) b && nleb (f (map snd b)) (f x0) then Ok (map snd b, f (map snd b)) else Ok (x0, f x0)).
Definition prior1 : list (Qc * Qc) := [(qc_of_Z 0, qc_of_Z 10)].
Definition trust1 : list (num * num) := [(nz 2, nz 3)].
Definition norm1 : norm_bounds := mkNB [nz 0] [nz 10].
Definition corner_config : config (list (num * num)) := mkConfig (fb prior1) 1 2 1.
Example corner_norm : new_norm_bounds (fb prior1) = Ok norm1 /\ positive_width prior1.
Proof. split; [reflexivity|repeat constructor]. Qed.
Example corner_normalised : normalised (corner_env (Some norm1)) norm1 /\ plain (corner_env None).
Proof.
  split; [split; [|split; [|split]]|split; [|split; [|split]]]; try reflexivity; try (intros x b; apply finds_test).
  - intros x y H. cbn [corner_env e_fwd]. rewrite H. reflexivity.
  - intros x y H. cbn [corner_env e_bwd]. rewrite H. reflexivity.
Qed.
Example corner_stays : stays within corner_inputs /\ draws_inside within corner_inputs trust1 /\ descends corner_inputs.
Proof.
  split; [|split].
  - intros ip i f x0 b x v Hi H. cbn [corner_inputs w_opt] in H. destruct (_ && nleb _ _) eqn:E; injection H as <- <-; [|exact Hi].
    apply andb_prop in E as [E _]. apply finds_test. exact E.
  - intros ip i k x H. injection H as <-. apply finds_test. reflexivity.
  - intros ip i f x0 b x v Hn H. cbn [corner_inputs w_opt] in H. destruct (_ && nleb _ _) eqn:E; injection H as <- <-; split; try reflexivity.
    + apply andb_prop in E as [_ E]. exact E.
    + apply nleb_refl. exact Hn.
Qed.
(** Without preprocessor the upper end of the trust region is found, with [Normalize_bounds] that of the prior. *)
Example C106_case :
  (forall x, within x trust1 -> within x (fb prior1)) /\ length trust1 = length prior1 /\
  (exists y, snd (multi_add (corner_env None) corner_config corner_inputs 3 (fun _ => None) [[nz 2]; [nq 5 2]] 1 (Some trust1)) = Ok ([([nz 3], y, nz 3)], [[nz 2]; [nq 5 2]])) /\
  (exists x y a, snd (multi_add (corner_env (Some norm1)) corner_config corner_inputs 3 (fun _ => None) [[nz 2]; [nq 5 2]] 1 (Some trust1)) = Ok ([([x], y, a)], [[nz 2]; [nq 5 2]]) /\
     x = nz 10 /\ ~ within [x] trust1).
Proof.
  split; [|split; [reflexivity|split]].
  - intros x H. inversion H as [|v ? x' ? (Hf & H1 & H2) Hx]; subst. inversion Hx; subst. constructor; [|constructor]. cbn [fst snd] in *.
    split; [exact Hf|]. split; [eapply nleb_trans; [|exact H1]|eapply nleb_trans; [exact H2|]]; reflexivity.
  - eexists. vm_compute. reflexivity.
  - do 3 eexists. split; [vm_compute; reflexivity|]. split; [unfold nz; f_equal; apply Qc_is_canon; reflexivity|].
    intros H. apply finds_test in H. vm_compute in H. discriminate.
Qed.

(** Refuted: with [Whitening] the points lie inside of the prior. The box around the transformed prior has corners that come from outside. *)
Section Whitened.
Import Coq.Reals.Reals Coq.micromega.Lra SWhiten MWhiten TWhiten.
Local Open Scope R_scope.
(** The acquisition uses [Whitening] in the state [W]. *)
Definition whitened {G} (e : env G (list R) (list (R * R))) (W : MPreproc.whitening (list R) (list (list R))) : Prop :=
  (forall x y, transform W x = Ok y -> e_fwd e x = y) /\ (forall x y, inverse_transform W x = Ok y -> e_bwd e x = y) /\
  (forall b b', transform_bounds W b = Ok b' -> e_fwd_box e b = b') /\ forall x b, e_inb e x b = true <-> in_box x b.
Fixpoint in_boxb (x : list R) (b : list (R * R)) : bool :=
  match x, b with
  | [], [] => true
  | v :: x, i :: b => if Rle_dec (fst i) v then if Rle_dec v (snd i) then in_boxb x b else false else false
  | _, _ => false
  end.
Lemma in_boxb_spec x : forall b, in_boxb x b = true <-> in_box x b.
Proof.
  induction x as [|v x IH]; intros [|i b]; cbn [in_boxb]; try (split; [discriminate|intros H; inversion H]).
  - split; [constructor|reflexivity].
  - destruct (Rle_dec (fst i) v) as [L|L]; [|split; [discriminate|intros H; inversion H as [|? ? ? ? [A B] ?]; subst; contradiction]].
    destruct (Rle_dec v (snd i)) as [M|M]; [|split; [discriminate|intros H; inversion H as [|? ? ? ? [A B] ?]; subst; contradiction]].
    rewrite IH. split; [intros H; constructor; [split; assumption|exact H]|intros H; inversion H; assumption].
Qed.
Definition finds_R {G} (t : list R) : inputs G (list R) (list (R * R)) :=
  mkInputs (fun _ _ => Ok tt) (fun _ _ _ => Err StopIteration)
    (fun _ _ f x0 b => if in_boxb t b && nleb (f t) (f x0) then Ok (t, f t) else Ok (x0, f x0)).
Theorem C106_whitening_refuted : exists eigh W x, new eigh [1/2; 1/2] None (Some C0) false = Ok W /\ ~ in_box x [(0, 1); (0, 1)] /\
  forall G (e : env G (list R) (list (R * R))) c g t0, whitened e W -> c_restarts c = 1%nat -> e_check e (e_copy e g) = Ok tt ->
  find (fun x => e_inb e x [(0, 1); (0, 1)]) (rev (e_X_train e (e_copy e g))) = Some t0 ->
  nltb (e_acq e (e_copy e g) t0) (e_acq e (e_copy e g) x) = true ->
  exists w, stays in_box w /\ draws_inside in_box w [(0, 1); (0, 1)] /\ descends w /\
    snd (multi_add e c w 1 (fun _ => None) g 1 (Some [(0, 1); (0, 1)])) = Ok ([(x, e_predict e (e_copy e g) x, e_acq e (e_copy e g) x)], e_copy e g).
Proof.
  destruct box_outside as (b' & z & x & HB & Hz & HI & Hx). exists eigh0, W0, x. split; [exact W0_new|]. split; [exact Hx|].
  intros G e c g t0 (F1 & F2 & F3 & F4) Hc Hk Hf Ha. exists (finds_R z).
  assert (I0 : in_box t0 [(0, 1); (0, 1)]) by (apply find_some in Hf; apply F4; apply Hf).
  assert (B0 : e_bwd e (e_fwd e t0) = t0).
  { inversion I0 as [|a ? ? ? _ I1]; subst. inversion I1 as [|b ? ? ? _ I2]; subst. inversion I2; subst.
    rewrite (F1 [a; b] _ eq_refl). apply F2. cbn. do 2 f_equal; [|f_equal]; field. }
  split; [|split; [|split]].
  - intros ip i f x0 b0 y v Hi Ho. cbn [finds_R w_opt] in Ho. destruct (_ && nleb _ _) eqn:E; injection Ho as <- <-; [|exact Hi].
    apply andb_prop in E as [E _]. apply in_boxb_spec. exact E.
  - intros ip i k y Hy. discriminate.
  - intros ip i f x0 b0 y v Hn Ho. cbn [finds_R w_opt] in Ho. destruct (_ && nleb _ _) eqn:E; injection Ho as <- <-; split; try reflexivity.
    + apply andb_prop in E as [_ E]. exact E.
    + apply nleb_refl. exact Hn.
  - erewrite (one _ _ _ _ _ t0 z (objective e (e_copy e g) z)); [rewrite (F2 _ _ HI)| | | | |]; try eassumption.
    + unfold objective. rewrite nneg_nneg, (F2 _ _ HI). reflexivity.
    + reflexivity.
    + cbn [finds_R w_opt]. rewrite (F3 _ _ HB). replace (_ && nleb _ _) with true; [reflexivity|]. symmetry. apply andb_true_intro. split.
      * apply in_boxb_spec. exact Hz.
      * unfold objective. rewrite (F2 _ _ HI), B0, nneg_le. apply nltb_leb. exact Ha.
Qed.
(** An acquisition as in the theorem: it grows with the second coordinate. *)
Example C106_whitening_case : exists e : env (list (list R)) (list R) (list (R * R)), whitened e W0 /\
  find (fun x => e_inb e x [(0, 1); (0, 1)]) (rev (e_X_train e (e_copy e [[1/2; 1/2]]))) = Some [1/2; 1/2] /\
  forall x, 1 < nth 1 x 0 -> nltb (e_acq e [[1/2; 1/2]] [1/2; 1/2]) (e_acq e [[1/2; 1/2]] x) = true.
Proof.
  exists (mkEnv (fun _ => Ok tt) (fun g => g) (fun g => g) (fun _ _ => nz 0) (fun g x _ => Ok (g ++ [x])) (fun _ x => if Rlt_dec 1 (nth 1 x 0) then nz 1 else nz 0) in_boxb
    (fun x => match transform W0 x with Ok y => y | Err _ => [] end) (fun x => match inverse_transform W0 x with Ok y => y | Err _ => [] end)
    (fun b => match transform_bounds W0 b with Ok y => y | Err _ => [] end)).
  split; [split; [|split; [|split]]|split].
  - intros x y H. cbn [e_fwd]. rewrite H. reflexivity.
  - intros x y H. cbn [e_bwd]. rewrite H. reflexivity.
  - intros x y H. cbn [e_fwd_box]. rewrite H. reflexivity.
  - intros x b. apply in_boxb_spec.
  - cbn. repeat (destruct (Rle_dec _ _); try lra). reflexivity.
  - intros x Hx. cbn [e_acq]. destruct (Rlt_dec 1 (nth 1 x 0)); [|contradiction]. cbn [nth]. destruct (Rlt_dec 1 (1/2)); [lra|reflexivity].
Qed.
End Whitened.

Print Assumptions C106_plain.
Print Assumptions C106_prior.
Print Assumptions C106_trust_refuted.
Print Assumptions C106_whitening_refuted.

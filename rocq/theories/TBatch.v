(** C36: points proposed by optimising the acquisition function. *)
From Verif Require Import Base Num MTools PTools MMpi PMpi MBatch.
From Verif Require MPool PPool4.
Set Default Goal Selector "!".

(** * What is asked for *)
Section Spec.
Context {G pt box : Type}.
Variable e : env G pt box.
Variable w : inputs G pt box.

(** Kriging believer: each lie is the prediction of the regressor to which the previous points have been
    added with their lies. [Q] is what is asked of the point number [ip], with its value of the acquisition
    function. *)
Fixpoint believer (Q : G -> nat -> pt -> num -> Prop) (g : G) (ip : nat) (l : list (pt * num * num)) : Prop :=
  match l with
  | [] => True
  | (x, y, a) :: l =>
      y = e_predict e g x /\ Q g ip x a
      /\ (l = [] \/ exists g', e_append e g x y = Ok g' /\ believer Q g' (S ip) l)
  end.

(** The last training point inside of the bounds. *)
Definition last_inside (g : G) (b : box) (t : pt) : Prop :=
  exists l l', e_X_train e g = l ++ t :: l' /\ e_inb e t b = true /\ forall u, In u l' -> e_inb e u b = false.
(** Proposal [k] of a restart, as long as not more than [m] earlier ones had a finite acquisition function. *)
Definition finite_draw (g : G) (ip i j : nat) : bool :=
  match w_draw w ip i j with Ok u => isfin (e_acq e g u) | Err _ => false end.
Definition tried (m : nat) (g : G) (ip i k : nat) (t : pt) : Prop :=
  w_draw w ip i k = Ok t /\ length (filter (finite_draw g ip i) (seq 0 k)) <= m.

(** The optimiser returns the value of the function at the point that it returns, and this is not worse than the
    starting point. *)
Definition descends : Prop := forall ip i f x0 b x v,
  isnan (f x0) = false -> w_opt w ip i f x0 b = Ok (x, v) -> v = f x /\ nleb v (f x0) = true.
(** The preprocessor can be inverted, and the acquisition function gives numbers or -infinity. *)
Definition invertible : Prop := forall x, e_bwd e (e_fwd e x) = x.
Definition below_infinity : Prop := forall g x, nltb (e_acq e g x) PInf = true.
(** The optimiser and the proposer respect the bounds. *)
Definition respects (b : box) : Prop :=
  (forall ip i f x0 x v, w_opt w ip i f x0 (e_fwd_box e b) = Ok (x, v) -> e_inb e (e_bwd e x) b = true)
  /\ forall ip i k x, w_draw w ip i k = Ok x -> e_inb e x b = true.
End Spec.

(** * Lemmas *)
Lemma argmin_from_spec l : forall pre best bv,
  nth_error pre best = Some bv ->
  (isnan bv = true \/ forall w, In w pre -> nleb bv w = true) ->
  exists v, nth_error (pre ++ l) (argmin_from best bv (length pre) l) = Some v /\
    (isnan v = true \/ forall w, In w (pre ++ l) -> nleb v w = true).
Proof.
  induction l as [|v l IH]; intros pre best bv Hb Hm; simpl.
  - exists bv. rewrite app_nil_r. auto.
  - assert (best < length pre) as Hlt by (apply nth_error_Some; congruence).
    destruct (isnan bv) eqn:En.
    + exists bv. rewrite nth_error_app1 by auto. auto.
    + destruct Hm as [Hm|Hm]; [discriminate|].
      assert (pre ++ v :: l = (pre ++ [v]) ++ l) as Ea by (rewrite <- app_assoc; reflexivity).
      assert (S (length pre) = length (pre ++ [v])) as El by (rewrite app_length; simpl; lia).
      rewrite Ea. rewrite El.
      destruct (isnan v || nltb v bv) eqn:Eb.
      * apply IH.
        -- rewrite nth_error_app2, Nat.sub_diag by lia. reflexivity.
        -- apply orb_true_iff in Eb as [Eb|Eb]; auto.
           destruct (isnan v) eqn:Ev; auto. right. intros w Hw. apply in_app_or in Hw as [Hw|[<-|[]]].
           ++ eapply nleb_trans; [apply nltb_leb; exact Eb|]. apply Hm; auto.
           ++ apply nleb_refl; auto.
      * apply IH.
        -- rewrite nth_error_app1 by auto. auto.
        -- right. intros w Hw. apply in_app_or in Hw as [Hw|[<-|[]]]; auto.
           apply orb_false_iff in Eb as [Ev Eb].
           rewrite nltb_not_leb in Eb by auto. apply negb_false_iff in Eb. auto.
Qed.
Lemma argmin_spec l : l <> [] -> exists i v, argmin l = Ok i /\ nth_error l i = Some v /\
  (isnan v = true \/ forall w, In w l -> nleb v w = true).
Proof.
  destruct l as [|a l]; [congruence|]. intros _. simpl.
  destruct (argmin_from_spec l [a] 0 a eq_refl) as (v & Hv & Hm).
  - destruct (isnan a) eqn:E; auto. right. intros w [<-|[]]. apply nleb_refl; auto.
  - exists (argmin_from 0 a 1 l), v. auto.
Qed.
Lemma mapM_app {A B} (f : A -> res B) l k :
  mapM f (l ++ k) = do a <- mapM f l; do b <- mapM f k; Ok (a ++ b).
Proof.
  induction l as [|x l IH]; cbn [mapM app bind].
  - destruct (mapM f k); reflexivity.
  - destruct (f x); cbn [bind]; auto. rewrite IH. destruct (mapM f l); cbn [bind]; auto.
    destruct (mapM f k); reflexivity.
Qed.
Lemma mapM_concat {A B} (f : A -> res B) ls :
  (do l <- mapM (mapM f) ls; Ok (concat l)) = mapM f (concat ls).
Proof.
  induction ls as [|l ls IH]; [reflexivity|]. cbn [mapM concat]. rewrite mapM_app, <- IH.
  destruct (mapM f l); cbn [bind]; auto. destruct (mapM (mapM f) ls); reflexivity.
Qed.
Lemma mapM_map {A B C} (f : B -> res C) (h : A -> B) l : mapM f (map h l) = mapM (fun x => f (h x)) l.
Proof. induction l as [|x l IH]; [reflexivity|]. cbn [map mapM]. rewrite IH. reflexivity. Qed.
Lemma mapM_ext {A B} (f h : A -> res B) l : (forall x, f x = h x) -> mapM f l = mapM h l.
Proof. intros E. induction l as [|x l IH]; [reflexivity|]. cbn [mapM]. rewrite IH, E. reflexivity. Qed.
Lemma firstn_S_sum (l : list nat) : forall k, list_sum (firstn (S k) l) = list_sum (firstn k l) + nth k l 0.
Proof.
  induction l as [|a l IH]; intros [|k]; cbn [firstn list_sum nth fold_right]; try reflexivity.
  - unfold list_sum. simpl. lia.
  - specialize (IH k). cbn [firstn] in IH. unfold list_sum in *. cbn [fold_right]. lia.
Qed.
Lemma shares_all counts : forall k, k <= length counts ->
  concat (map (share counts) (seq 0 k)) = seq 0 (list_sum (firstn k counts)).
Proof.
  induction k as [|k IH]; intros Hk; [reflexivity|].
  rewrite seq_S, map_app, concat_app, IH by lia. cbn [map concat]. rewrite app_nil_r, Nat.add_0_l.
  unfold share. rewrite firstn_S_sum, seq_app. reflexivity.
Qed.
Lemma Forall2_in_r {A B} (R : A -> B -> Prop) l k : Forall2 R l k -> forall y, In y k -> exists x, In x l /\ R x y.
Proof. induction 1; intros z []; subst; [eexists; split; [left|]; eauto|]. destruct (IHForall2 _ H1) as (u & ? & ?). eexists; split; [right|]; eauto. Qed.
Lemma Forall2_in_l {A B} (R : A -> B -> Prop) l k : Forall2 R l k -> forall x, In x l -> exists y, In y k /\ R x y.
Proof. induction 1; intros z []; subst; [eexists; split; [left|]; eauto|]. destruct (IHForall2 _ H1) as (u & ? & ?). eexists; split; [right|]; eauto. Qed.
Lemma Forall2_len {A B} (R : A -> B -> Prop) l k : Forall2 R l k -> length l = length k.
Proof. induction 1; simpl; auto. Qed.
Lemma find_rev {A} (p : A -> bool) l : forall t, find p (rev l) = Some t ->
  exists l1 l2, l = l1 ++ t :: l2 /\ p t = true /\ forall u, In u l2 -> p u = false.
Proof.
  induction l as [|a l IH] using rev_ind; intros t H; [discriminate|].
  rewrite rev_app_distr in H. cbn [rev app find] in H. destruct (p a) eqn:E.
  - injection H as <-. exists l, []. split; [reflexivity|]. split; [auto|]. intros u [].
  - destruct (IH t H) as (l1 & l2 & -> & Hp & Hl). exists l1, (l2 ++ [a]).
    rewrite <- app_assoc. split; [reflexivity|]. split; [auto|]. intros u Hu.
    apply in_app_or in Hu as [Hu|[<-|[]]]; auto.
Qed.
Lemma nneg_nneg x : nneg (nneg x) = x.
Proof. destruct x; cbn [nneg]; auto. f_equal. ring. Qed.
Lemma nneg_le x y : nleb (nneg x) (nneg y) = nleb y x.
Proof.
  destruct x as [| |p|], y as [| |q|]; try reflexivity. cbn [nneg nleb].
  destruct (qleb q p) eqn:E.
  - apply qleb_le in E. apply qleb_le. unfold Qcle in *. rewrite !this_opp. lra.
  - apply qleb_nle in E. apply qleb_nle. unfold Qclt in *. rewrite !this_opp. lra.
Qed.

Section C36.
Context {G pt box : Type}.
Variable e : env G pt box.
Variable c : config box.
Variable w : inputs G pt box.
Notation none := (fun _ : nat => @None G).

(** All restarts are made once, in order, however many processes there are. *)
Lemma outcomes_all size o g ip b : size <> 0 ->
  outcomes e c w size (fun _ => o) g ip b = mapM (fun i => optimize e c w o g ip i (Some b)) (seq 0 (c_restarts c)).
Proof.
  intros Hs. unfold outcomes. destruct (split_number (c_restarts c) size) as [counts|x] eqn:E; cbn [bind].
  2:{ rewrite split_number_spec in E by auto. discriminate. }
  pose proof (split_sum _ _ _ E) as Hsum.
  assert (length counts = size) as Hl.
  { rewrite split_number_spec in E by auto. injection E as <-. rewrite map_length, seq_length. auto. }
  rewrite (mapM_ext _ (fun r => mapM (fun i => optimize e c w o g ip i (Some b)) (share counts r))) by reflexivity.
  rewrite <- (mapM_map (mapM (fun i => optimize e c w o g ip i (Some b))) (share counts)).
  rewrite mapM_concat, shares_all by lia. rewrite <- Hl, firstn_all, Hsum. reflexivity.
Qed.
Lemma choose_in (l : list (pt * num)) q : choose l = Ok q -> In q l.
Proof.
  unfold choose. intros H. destruct (if existsb isfin (map snd l) then _ else _) as [p|]; cbn [bind] in H; [|discriminate].
  destruct (nth_error l p) eqn:E; [|discriminate]. injection H as <-. eapply nth_error_In; eauto.
Qed.
Lemma choose_least (l : list (pt * num)) q : choose l = Ok q ->
  (forall q', In q' l -> isnan (snd q') = false /\ snd q' <> NInf) ->
  forall q', In q' l -> nleb (snd q) (snd q') = true.
Proof.
  intros H Hn q' Hq'. pose proof (choose_in _ _ H) as Hq. unfold choose in H.
  destruct (existsb isfin (map snd l)) eqn:E.
  - destruct (argmin_spec (map snd l)) as (i & v & Hi & Hv & Hm).
    { destruct l; [destruct Hq|discriminate]. }
    rewrite Hi in H. cbn [bind] in H. destruct (nth_error l i) eqn:En; [|discriminate]. injection H as <-.
    rewrite nth_error_map, En in Hv. cbn [option_map] in Hv. injection Hv as <-.
    destruct Hm as [Hm|Hm].
    + destruct (Hn p Hq) as [C _]. congruence.
    + apply Hm. apply in_map. auto.
  - assert (forall q, In q l -> snd q = PInf) as A.
    { intros p Hp. destruct (Hn p Hp) as [N1 N2]. destruct (isfin (snd p)) eqn:F.
      - assert (existsb isfin (map snd l) = true) as C; [|congruence].
        apply existsb_exists. exists (snd p). split; [apply in_map|]; auto.
      - destruct (snd p); try discriminate; congruence. }
    rewrite (A q Hq), (A q' Hq'). reflexivity.
Qed.

(** Shape of the results. *)
Lemma points_spec size (Q : G -> nat -> pt -> num -> Prop) b : size <> 0 ->
  (forall g ip l x v, outcomes e c w size none g ip b = Ok l -> choose l = Ok (x, v) -> Q g ip (e_bwd e x) (nneg v)) ->
  forall n ip g l g', snd (points e c w size n ip none g b) = Ok (l, g') ->
  length l = n /\ believer e Q g ip l.
Proof.
  intros Hs HQ. induction n as [|n IH]; intros ip g l g' H; cbn [points] in H.
  - cbn [snd] in H. injection H as <- <-. split; [reflexivity|exact I].
  - destruct (outcomes e c w size none g ip b) as [o|] eqn:Eo; [|discriminate].
    destruct (choose o) as [[x v]|] eqn:Ec; [|discriminate].
    destruct (if n =? 0 then Ok g else e_append e g (e_bwd e x) (e_predict e g (e_bwd e x))) as [g1|] eqn:Ea; [|discriminate].
    cbn [snd] in H. destruct (snd (points e c w size n (S ip) none g1 b)) as [[l1 g2]|] eqn:Ep; [|discriminate].
    cbn [bind fst snd] in H. injection H as <- <-. destruct (IH _ _ _ _ Ep) as [Hl Hb].
    split; [simpl; congruence|]. cbn [believer]. split; [reflexivity|]. split; [eapply HQ; eauto|].
    destruct (Nat.eqb_spec n 0) as [->|Hn].
    + left. destruct l1; auto. discriminate.
    + right. exists g1. auto.
Qed.
Lemma believer_weaken (Q Q' : G -> nat -> pt -> num -> Prop) l : (forall g ip x a, Q g ip x a -> Q' g ip x a) ->
  forall g ip, believer e Q g ip l -> believer e Q' g ip l.
Proof.
  intros HQ. induction l as [|[[x y] a] l IH]; intros g ip H; cbn [believer] in *; auto.
  destruct H as (H1 & H2 & H3). split; auto. split; auto. destruct H3 as [->|(g' & H3 & H4)]; auto. right. exists g'. auto.
Qed.

Theorem C36_points : forall size g n b l g', size <> 0 ->
  snd (multi_add e c w size none g n b) = Ok (l, g') ->
  (0 < n)%Z /\ length l = Z.to_nat n /\ believer e (fun _ _ _ _ => True) (e_copy e g) 0 l.
Proof.
  intros size g n b l g' Hs H. unfold multi_add in H. destruct (Z.leb_spec n 0); [discriminate|].
  split; [auto|]. eapply points_spec; eauto.
Qed.

Theorem C36_clean : forall size g n b r,
  snd (multi_add e c w size none g n b) = Ok r -> forall i, fst (multi_add e c w size none g n b) i = None.
Proof.
  intros size g n b r H. unfold multi_add in *. destruct (Z.leb_spec n 0); [discriminate|].
  revert H. generalize (Z.to_nat n), 0, (e_copy e g), r, (match b with Some b => b | None => c_bounds c end).
  clear. intros n. induction n as [|n IH]; intros ip g r b H i; cbn [points] in *; auto.
  destruct (outcomes e c w size none g ip b) as [o|]; [|discriminate].
  destruct (choose o) as [[x v]|]; [|discriminate].
  destruct (if n =? 0 then Ok g else e_append e g (e_bwd e x) (e_predict e g (e_bwd e x))) as [g1|]; [|discriminate].
  cbn [snd fst] in *. destruct (snd (points e c w size n (S ip) none g1 b)) as [r1|] eqn:Ep; [|discriminate].
  eapply IH; eauto.
Qed.

Theorem C36_processes : forall size g n b, size <> 0 ->
  snd (multi_add e c w size none g n b) = snd (multi_add e c w 1 none g n b).
Proof.
  intros size g n b Hs. unfold multi_add. destruct (Z.leb_spec n 0); [reflexivity|].
  assert (forall n ip g b, snd (points e c w size n ip none g b) = snd (points e c w 1 n ip none g b)) as K; [|apply K].
  clear -Hs. intros n. induction n as [|n IH]; intros ip g b; cbn [points]; auto.
  rewrite !outcomes_all by auto. destruct (mapM _ _) as [o|]; [|reflexivity].
  destruct (choose o) as [[x v]|]; [|reflexivity].
  destruct (if n =? 0 then Ok g else e_append e g (e_bwd e x) (e_predict e g (e_bwd e x))) as [g1|]; [|reflexivity].
  cbn [snd]. rewrite IH. reflexivity.
Qed.

(** The tries. *)
Lemma tries_spec g ip i : forall n k acc last acc' last',
  tries e c w g ip i k n acc last = Ok (acc', last') ->
  length acc = length (filter (finite_draw e w g ip i) (seq 0 k)) ->
  length acc <= c_repeats c ->
  (forall p, In p acc -> In p acc')
  /\ (forall p, In p acc' -> In p acc \/ snd p = e_acq e g (fst p) /\ isfin (snd p) = true /\ exists j, w_draw w ip i j = Ok (fst p))
  /\ (forall j t, k <= j < k + n -> tried e w (c_repeats c) g ip i j t -> isfin (e_acq e g t) = true -> In (t, e_acq e g t) acc')
  /\ (last' = last \/ exists p j, last' = Some p /\ snd p = e_acq e g (fst p) /\ w_draw w ip i j = Ok (fst p))
  /\ (last = None -> n <> 0 -> last' <> None).
Proof.
  induction n as [|n IH]; intros k acc last acc' last' H Hl Hr; cbn [tries] in H.
  - injection H as <- <-. split; [auto|]. split; [auto|]. split; [intros; lia|]. split; [auto|congruence].
  - destruct (w_draw w ip i k) as [x0|] eqn:Ed; [|discriminate]. cbn [bind] in H. cbv zeta in H.
    assert (length (filter (finite_draw e w g ip i) (seq 0 (S k)))
            = length acc + (if isfin (e_acq e g x0) then 1 else 0)) as Hf.
    { rewrite seq_S, filter_app, app_length, Nat.add_0_l, <- Hl. cbn [filter].
      assert (finite_draw e w g ip i k = isfin (e_acq e g x0)) as -> by (unfold finite_draw; rewrite Ed; reflexivity).
      destruct (isfin (e_acq e g x0)); reflexivity. }
    destruct (isfin (e_acq e g x0)) eqn:Ef.
    + assert (length (acc ++ [(x0, e_acq e g x0)]) = S (length acc)) as La by (rewrite app_length; simpl; lia).
      destruct (Nat.ltb_spec (c_repeats c) (length (acc ++ [(x0, e_acq e g x0)]))) as [Hs|Hs].
      * injection H as <- <-. split; [intros p Hp; apply in_or_app; auto|]. split; [|split; [|split]].
        -- intros p Hp. apply in_app_or in Hp as [Hp|[<-|[]]]; auto. right. cbn [fst snd]. eauto.
        -- intros j t Hj [T1 T2] T3. destruct (Nat.eq_dec j k) as [->|Hjk].
           ++ rewrite Ed in T1. injection T1 as <-. apply in_or_app. right. left. reflexivity.
           ++ exfalso. assert (length (filter (finite_draw e w g ip i) (seq 0 (S k))) <= length (filter (finite_draw e w g ip i) (seq 0 j))) as M.
              { replace (seq 0 j) with (seq 0 (S k) ++ seq (S k) (j - S k)).
                - rewrite filter_app, app_length. lia.
                - replace j with (S k + (j - S k)) at 2 by lia. rewrite seq_app. reflexivity. }
              rewrite Hf in M. lia.
        -- right. exists (x0, e_acq e g x0), k. auto.
        -- discriminate.
      * destruct (IH _ _ _ _ _ H) as (A1 & A2 & A3 & A4 & A5); [rewrite La, Hf; lia|auto|].
        split; [intros p Hp; apply A1, in_or_app; auto|]. split; [|split; [|split]].
        -- intros p Hp. apply A2 in Hp as [Hp|Hp]; auto. apply in_app_or in Hp as [Hp|[<-|[]]]; auto.
           right. cbn [fst snd]. eauto.
        -- intros j t Hj [T1 T2] T3. destruct (Nat.eq_dec j k) as [->|Hjk].
           ++ rewrite Ed in T1. injection T1 as <-. apply A1, in_or_app. right. left. reflexivity.
           ++ apply (A3 j); [lia|split; auto|auto].
        -- right. destruct A4 as [->|A4]; auto. exists (x0, e_acq e g x0), k. auto.
        -- intros _ _. destruct A4 as [->|(p & j & -> & _)]; discriminate.
    + destruct (IH _ _ _ _ _ H) as (A1 & A2 & A3 & A4 & A5); [rewrite Hf; lia|auto|].
      split; [auto|]. split; [auto|]. split; [|split].
      * intros j t Hj [T1 T2] T3. destruct (Nat.eq_dec j k) as [->|Hjk].
        -- rewrite Ed in T1. injection T1 as <-. congruence.
        -- apply (A3 j); [lia|split; auto|auto].
      * right. destruct A4 as [->|A4]; auto. exists (x0, e_acq e g x0), k. auto.
      * intros _ _. destruct A4 as [->|(p & j & -> & _)]; discriminate.
Qed.

(** One restart. *)
Definition from_value (g : G) (x : pt) (v : num) : Prop := v = nneg (e_acq e g (e_bwd e x)).
Lemma optimize_ok g ip i b x v : descends w -> invertible e -> below_infinity e ->
  optimize e c w None g ip i (Some b) = Ok (x, v) ->
  from_value g x v
  /\ (i = 0 -> forall t, last_inside e g b t -> nleb (e_acq e g t) (nneg v) = true)
  /\ (i <> 0 -> forall k t, k < 10 * c_d c * c_restarts c -> tried e w (c_repeats c) g ip i k t ->
      nleb (e_acq e g t) (nneg v) = true).
Proof.
  intros Hd Hi Hb H. unfold optimize in H.
  destruct (w_update w g b); cbn [bind] in H; [|discriminate]. unfold captured in H.
  destruct (e_check e g); cbn [bind] in H; [|discriminate].
  assert (forall x0 x v, w_opt w ip i (objective e g) (e_fwd e x0) (e_fwd_box e b) = Ok (x, v) ->
    from_value g x v /\ nleb (e_acq e g x0) (nneg v) = true) as K.
  { intros x0 x' v' E. apply Hd in E as [E1 E2].
    2:{ unfold objective. rewrite Hi. pose proof (Hb g x0) as B. destruct (e_acq e g x0); try discriminate; reflexivity. }
    split; [exact E1|]. unfold objective in E2. rewrite Hi in E2.
    rewrite <- (nneg_nneg v'), nneg_le in E2. auto. }
  destruct (Nat.eqb_spec i 0) as [->|Hi0].
  - destruct (rev (e_X_train e g)) as [|u us] eqn:Er; [discriminate|]. rewrite <- Er in H. clear Er u us.
    destruct (find (fun x => e_inb e x b) (rev (e_X_train e g))) as [x0|] eqn:Ef; [|discriminate].
    destruct (K _ _ _ H) as [K1 K2]. split; [auto|]. split; [|congruence].
    intros _ t (l & l' & El & Et & Eu).
    apply find_rev in Ef as (l1 & l2 & El1 & Ex & Eu1).
    assert (t = x0) as ->; [|auto]. rewrite El in El1. clear -El1 Et Ex Eu Eu1. revert l1 El1.
    induction l as [|a l IH]; intros [|a1 l1] E; cbn [app] in E; injection E as E1 E2; subst; auto.
    + assert (e_inb e x0 b = false) by (apply Eu, in_or_app; right; left; auto). congruence.
    + assert (e_inb e t b = false) by (apply Eu1, in_or_app; right; left; auto). congruence.
    + eapply IH; eauto.
  - destruct (tries e c w g ip i 0 (10 * c_d c * c_restarts c) [] None) as [[acc last]|] eqn:Et; cbn [bind] in H; [|discriminate].
    destruct (tries_spec _ _ _ _ _ _ _ _ _ Et) as (_ & A2 & A3 & A4 & A5); [reflexivity|cbn [length]; lia|].
    cbn [fst snd] in H. destruct acc as [|h0 acc0].
    + destruct last as [[x0 v0]|]; [|discriminate]. injection H as <- <-.
      destruct A4 as [A4|(p & j & Ep & Ev & _)]; [discriminate|]. injection Ep as <-. cbn [fst snd] in Ev. subst v0.
      split; [unfold from_value; rewrite Hi; reflexivity|]. split; [congruence|]. intros _ k t Hk Ht.
      rewrite nneg_nneg. destruct (isfin (e_acq e g t)) eqn:F.
      * destruct (A3 k t); [lia|auto|auto].
      * pose proof (Hb g t) as B1. pose proof (Hb g x0) as B2. destruct (e_acq e g t); try discriminate.
        destruct (e_acq e g x0); try discriminate; reflexivity.
    + set (acc := h0 :: acc0) in *.
      destruct (PPool4.argmax_spec (map snd acc)) as (j & vj & Hj & Hvj & Hm); [discriminate|].
      rewrite Hj in H. cbn [bind] in H. destruct (nth_error acc j) as [[x0 v0]|] eqn:En; [|discriminate].
      rewrite nth_error_map, En in Hvj. cbn [option_map snd] in Hvj. injection Hvj as <-.
      assert (In (x0, v0) acc) as Hin by (eapply nth_error_In; eauto).
      destruct (A2 _ Hin) as [[]|(Ev & Efin & _)]. cbn [fst snd] in Ev, Efin. subst v0.
      destruct (K _ _ _ H) as [K1 K2]. split; [auto|]. split; [congruence|]. intros _ k t Hk Ht.
      destruct (isfin (e_acq e g t)) eqn:F.
      * destruct Hm as [Hm|Hm]; [apply isfin_notnan in Efin; congruence|].
        eapply nleb_trans; [|exact K2]. apply Hm. change (e_acq e g t) with (snd (t, e_acq e g t)). apply in_map, (A3 k t); [lia|auto|auto].
      * pose proof (Hb g t) as B1. apply nleb_notnan_r in K2. destruct (e_acq e g t); try discriminate.
        destruct (nneg v); try discriminate; reflexivity.
Qed.

(** What is asked of a point: the value returned is that of the acquisition function of the regressor with the lies so
    far, and it is not worse than at any of the places where a search started: the last training point inside of the
    bounds, and every finite proposal of every other restart. *)
Definition best (b : box) (g : G) (ip : nat) (x : pt) (a : num) : Prop :=
  a = e_acq e g x
  /\ (forall t, last_inside e g b t -> nleb (e_acq e g t) a = true)
  /\ forall i k t, 0 < i < c_restarts c -> k < 10 * c_d c * c_restarts c -> tried e w (c_repeats c) g ip i k t ->
     nleb (e_acq e g t) a = true.
Theorem C36_best : forall size g n b l g', size <> 0 ->
  descends w -> invertible e -> below_infinity e ->
  snd (multi_add e c w size none g n b) = Ok (l, g') ->
  believer e (best (match b with Some b => b | None => c_bounds c end)) (e_copy e g) 0 l.
Proof.
  intros size g n b l g' Hs Hd Hi Hb H. unfold multi_add in H. destruct (Z.leb_spec n 0); [discriminate|].
  eapply points_spec; eauto. clear g n l g' H H0. intros g ip l x v Ho Hc.
  rewrite outcomes_all in Ho by auto. apply mapM_Forall2 in Ho.
  set (b' := match b with Some b => b | None => c_bounds c end) in *.
  assert (forall q, In q l -> isnan (snd q) = false /\ snd q <> NInf) as Hn.
  { intros [x1 v1] Hq. destruct (Forall2_in_r _ _ _ Ho _ Hq) as (i & _ & Ei). destruct (optimize_ok _ _ _ _ _ _ Hd Hi Hb Ei) as [F _].
    red in F. cbn [snd]. rewrite F. specialize (Hb g (e_bwd e x1)). destruct (e_acq e g (e_bwd e x1)); try discriminate; split; auto; discriminate. }
  pose proof (choose_least _ _ Hc Hn) as Hm. cbn [snd] in Hm. pose proof (choose_in _ _ Hc) as Hin.
  destruct (Forall2_in_r _ _ _ Ho _ Hin) as (i0 & Hi0 & E0). apply in_seq in Hi0.
  assert (forall i, i < c_restarts c -> exists x1 v1, optimize e c w None g ip i (Some b') = Ok (x1, v1) /\ nleb (nneg v1) (nneg v) = true) as K.
  { intros i Hi1. destruct (Forall2_in_l _ _ _ Ho i) as ([x1 v1] & Hq & Eq); [apply in_seq; lia|].
    exists x1, v1. split; auto. rewrite nneg_le. apply (Hm (x1, v1)). auto. }
  unfold best. split; [|split].
  - destruct (optimize_ok _ _ _ _ _ _ Hd Hi Hb E0) as [F _]. rewrite F. apply nneg_nneg.
  - intros t Ht. destruct (K 0) as (x1 & v1 & E1 & L1); [lia|].
    destruct (optimize_ok _ _ _ _ _ _ Hd Hi Hb E1) as (_ & F & _). eapply nleb_trans; [apply F; auto|exact L1].
  - intros i k t Hi1 Hk Ht. destruct (K i) as (x1 & v1 & E1 & L1); [lia|].
    destruct (optimize_ok _ _ _ _ _ _ Hd Hi Hb E1) as (_ & _ & F). eapply nleb_trans; [eapply F; eauto; lia|exact L1].
Qed.

Theorem C36_in_bounds : forall size g n b l g', size <> 0 -> invertible e ->
  respects e w (match b with Some b => b | None => c_bounds c end) ->
  snd (multi_add e c w size none g n b) = Ok (l, g') ->
  Forall (fun p => e_inb e (fst (fst p)) (match b with Some b => b | None => c_bounds c end) = true) l.
Proof.
  intros size g n b l g' Hs Hi [R1 R2] H. unfold multi_add in H. destruct (Z.leb_spec n 0); [discriminate|].
  set (b' := match b with Some b => b | None => c_bounds c end) in *.
  assert (believer e (fun _ _ x _ => e_inb e x b' = true) (e_copy e g) 0 l) as B.
  { eapply points_spec; eauto. clear g n l g' H H0. intros g ip l x v Ho Hc.
    rewrite outcomes_all in Ho by auto. apply mapM_Forall2 in Ho. pose proof (choose_in _ _ Hc) as Hin.
    destruct (Forall2_in_r _ _ _ Ho _ Hin) as (i & _ & E). unfold optimize in E.
    destruct (w_update w g b'); cbn [bind] in E; [|discriminate]. unfold captured in E.
    destruct (e_check e g); cbn [bind] in E; [|discriminate].
    destruct (Nat.eqb_spec i 0) as [->|Hi0].
    - destruct (rev (e_X_train e g)); [discriminate|].
      destruct (find _ _); [|discriminate]. eapply R1; eauto.
    - destruct (tries e c w g ip i 0 (10 * c_d c * c_restarts c) [] None) as [[acc last]|] eqn:Et; cbn [bind] in E; [|discriminate].
      destruct (tries_spec _ _ _ _ _ _ _ _ _ Et) as (_ & A2 & A3 & A4 & A5); [reflexivity|cbn [length]; lia|].
      cbn [fst snd] in E. destruct acc as [|h0 acc0].
      + destruct last as [[x0 v0]|]; [|discriminate]. injection E as <- <-. rewrite Hi.
        destruct A4 as [A4|(p & j & Ep & _ & Ej)]; [discriminate|]. injection Ep as <-. eapply R2; eauto.
      + destruct (MPool.argmax (map snd (h0 :: acc0))) as [ja|]; cbn [bind] in E; [|discriminate].
        destruct (nth_error (h0 :: acc0) ja) as [[x0 v0]|]; [|discriminate]. eapply R1; eauto. }
  clear -B. revert B. generalize (e_copy e g), 0. induction l as [|[[x y] a] l IH]; intros g1 ip B; constructor.
  - cbn [fst]. apply B.
  - cbn [believer] in B. destruct B as (_ & _ & [->|(g2 & _ & B)]); auto. eapply IH; eauto.
Qed.

(** The call returns, if nothing it relies on raises, there is a restart, and there are training points inside. *)
Theorem C36_returns : forall (ok : G -> Prop) size g n b, size <> 0 -> c_restarts c <> 0 -> c_d c <> 0 -> (0 < n)%Z ->
  let b' := match b with Some b => b | None => c_bounds c end in
  ok (e_copy e g) ->
  (forall g, ok g -> e_check e g = Ok tt /\ w_update w g b' = Ok tt /\ (exists t, In t (e_X_train e g) /\ e_inb e t b' = true)
     /\ forall x y, exists g', e_append e g x y = Ok g' /\ ok g') ->
  (forall ip i k, exists x, w_draw w ip i k = Ok x) ->
  (forall ip i f x0 b, exists q, w_opt w ip i f x0 b = Ok q) ->
  exists r, snd (multi_add e c w size none g n b) = Ok r.
Proof.
  intros ok size g n b Hs Hr Hd Hn b' Hg Hok Hw Ho. unfold multi_add. destruct (Z.leb_spec n 0); [lia|]. fold b'.
  revert Hg. generalize (Z.to_nat n), 0, (e_copy e g). clear g n Hn H.
  assert (forall g ip i, ok g -> exists q, optimize e c w None g ip i (Some b') = Ok q) as K.
  { intros g ip i Hg. destruct (Hok g Hg) as (C1 & C2 & (t & T1 & T2) & _). unfold optimize, captured. rewrite C1, C2. cbn [bind].
    destruct (Nat.eqb_spec i 0) as [->|Hi].
    - destruct (rev (e_X_train e g)) as [|u us] eqn:Er.
      { apply in_rev in T1. rewrite Er in T1. destruct T1. }
      rewrite <- Er. destruct (find (fun x => e_inb e x b') (rev (e_X_train e g))) as [x0|] eqn:Ef; auto.
      apply in_rev in T1. pose proof (find_none _ _ Ef _ T1) as C. cbv beta in C. congruence.
    - assert (forall n k acc last, exists r, tries e c w g ip i k n acc last = Ok r) as T.
      { induction n as [|n IH]; intros k acc last; cbn [tries]; eauto. destruct (Hw ip i k) as [x ->]. cbn [bind]. cbv zeta.
        destruct (isfin (e_acq e g x)); auto. destruct (_ <? _); eauto. }
      destruct (T (10 * c_d c * c_restarts c) 0 [] None) as [[acc last] Et]. rewrite Et. cbn [bind fst snd].
      destruct (tries_spec _ _ _ _ _ _ _ _ _ Et) as (_ & _ & _ & _ & A5); [reflexivity|cbn [length]; lia|].
      destruct acc as [|h0 acc0].
      + destruct last as [[]|]; eauto. exfalso. apply A5; auto. destruct (c_d c), (c_restarts c); simpl; lia.
      + destruct (PPool4.argmax_spec (map snd (h0 :: acc0))) as (j & v & Hj & Hv & _); [discriminate|].
        rewrite Hj. cbn [bind]. rewrite nth_error_map in Hv. destruct (nth_error (h0 :: acc0) j) as [[]|]; [|discriminate]. auto. }
  intros n. induction n as [|n IH]; intros ip g Hg; cbn [points]; [eexists; reflexivity|].
  rewrite outcomes_all by auto.
  assert (exists l, mapM (fun i => optimize e c w None g ip i (Some b')) (seq 0 (c_restarts c)) = Ok l /\ length l = c_restarts c) as (l & -> & Hl).
  { assert (forall is, exists l, mapM (fun i => optimize e c w None g ip i (Some b')) is = Ok l /\ length l = length is) as M.
    { induction is as [|i is (l & E & L)]; cbn [mapM]; [exists []; auto|]. destruct (K g ip i Hg) as [q ->]. cbn [bind]. rewrite E.
      cbn [bind]. exists (q :: l). simpl. auto. }
    destruct (M (seq 0 (c_restarts c))) as (l & E & L). exists l. rewrite seq_length in L. auto. }
  assert (exists q, choose l = Ok q) as [[x v] ->].
  { assert (l <> []) as Hne by (destruct l; [simpl in Hl; congruence|discriminate]). unfold choose. destruct (existsb isfin (map snd l)).
    - destruct (argmin_spec (map snd l)) as (i & v & -> & Hv & _); [destruct l; [congruence|discriminate]|].
      cbn [bind]. rewrite nth_error_map in Hv. destruct (nth_error l i); [eauto|discriminate].
    - destruct (Nat.eqb_spec (length l) 0) as [E|E]; [rewrite Hl in E; congruence|]. cbn [bind].
      destruct (nth_error l (length l - 1)) eqn:En; eauto. apply nth_error_None in En. lia. }
  destruct (Hok g Hg) as (_ & _ & _ & Ha). destruct (Ha (e_bwd e x) (e_predict e g (e_bwd e x))) as (g1 & Ea & Hg1).
  destruct (Nat.eqb_spec n 0) as [->|Hn0].
  - destruct (IH (S ip) g Hg) as [r Er]. cbn [snd]. rewrite Er. eexists; reflexivity.
  - rewrite Ea. destruct (IH (S ip) g1 Hg1) as [r Er]. cbn [snd]. rewrite Er. eexists; reflexivity.
Qed.

(** Refuted: "n_restarts_optimizer == 0 implies that one run is performed" (line 193). *)
Theorem C36_zero_restarts_refuted : forall size g n b, size <> 0 -> (0 < n)%Z -> c_restarts c = 0 ->
  snd (multi_add e c w size none g n b) = Err IndexError.
Proof.
  intros size g n b Hs Hn Hr. unfold multi_add. destruct (Z.leb_spec n 0); [lia|].
  destruct (Z.to_nat n) eqn:E; [lia|]. cbn [points]. rewrite outcomes_all, Hr by auto. reflexivity.
Qed.
(** Refuted: the bounds are optional in [optimize_acquisition_function] (documented signature, default None). *)
Theorem C36_default_bounds_refuted : forall obj g ip r, e_X_train e g <> [] ->
  optimize e c w obj g ip 0 None <> Ok r.
Proof.
  intros obj g ip r Hx H. unfold optimize in H. destruct (w_update w g _); cbn [bind] in H; [|discriminate].
  destruct (captured e obj g); cbn [bind] in H; [|discriminate]. cbn [Nat.eqb] in H.
  destruct (rev (e_X_train e g)); discriminate.
Qed.
(** Only processes that had something to optimise can keep an objective function from a call. *)
Theorem C36_stale_only : forall size g n b i o, fst (multi_add e c w size none g n b) i = Some o ->
  exists counts, split_number (c_restarts c) size = Ok counts /\ nth i counts 0 <> 0.
Proof.
  intros size g n b i o H. unfold multi_add in H. destruct (Z.leb_spec n 0); [discriminate H|].
  assert (K : forall m ip g b, fst (points e c w size m ip none g b) i = Some o -> exists counts, split_number (c_restarts c) size = Ok counts /\ nth i counts 0 <> 0); [|eapply K; exact H].
  clear. intros n. induction n as [|n IH]; intros ip g b H; cbn [points] in H; [discriminate H|].
  destruct (outcomes e c w size none g ip b) as [l|].
  - destruct (choose l) as [[x v]|]; [|discriminate H].
    destruct (if n =? 0 then Ok g else e_append e g (e_bwd e x) (e_predict e g (e_bwd e x))) as [g1|]; [|discriminate H]. cbn [fst] in H. eapply IH. exact H.
  - cbn [fst] in H. unfold left_over in H. destruct (split_number (c_restarts c) size) as [counts|]; [|discriminate H]. exists counts. split; [reflexivity|].
    destruct (e_check e g); [|discriminate H]. destruct (Nat.eqb_spec (nth i counts 0) 0) as [|N]; [discriminate H|exact N].
Qed.
End C36.
Print Assumptions C36_stale_only.
Print Assumptions C36_points.
Print Assumptions C36_clean.
Print Assumptions C36_processes.
Print Assumptions C36_best.
Print Assumptions C36_in_bounds.
Print Assumptions C36_returns.
Print Assumptions C36_zero_restarts_refuted.
Print Assumptions C36_default_bounds_refuted.

(** * Examples
    Points are integers, a regressor is its list of training points with values. The acquisition function is the
    distance to the closest training point minus a tenth of the distance to 3, and -infinity beyond 9. The optimiser
    walks up to 8 steps of 1 or -1 while the function decreases. *)
Open Scope Z_scope.
Definition toy := list (Z * num).
Definition dist (g : toy) (x : Z) : Z := fold_right Z.min 100 (map (fun p => Z.abs (fst p - x)) g).
Definition toy_acq (g : toy) (x : Z) : num := if Z.abs x <=? 9 then nz (10 * dist g x - Z.abs (x - 3)) else NInf.
Definition toy_env : env toy Z (Z * Z) :=
  mkEnv (fun g => match g with [] => Err AttributeError | _ => Ok tt end) (fun g => g) (map fst)
    (fun g x => nz (dist g x)) (fun g x y => Ok (g ++ [(x, y)])) toy_acq
    (fun x b => (fst b <=? x) && (x <=? snd b)) (fun x => x + 100) (fun x => x - 100) (fun b => (fst b + 100, snd b + 100)).
Fixpoint walk (n : nat) (f : Z -> num) (x : Z) (b : Z * Z) : Z :=
  match n with
  | O => x
  | S n => if (x <? snd b) && nltb (f (x + 1)) (f x) then walk n f (x + 1) b
           else if (fst b <? x) && nltb (f (x - 1)) (f x) then walk n f (x - 1) b else x
  end.
Definition toy_inputs : inputs toy Z (Z * Z) :=
  mkInputs (fun _ _ => Ok tt) (fun ip i k => Ok (nth (ip + 3 * i + 5 * k) [12; -6; 2; -1; 7; 15; 0] (-3)))
    (fun _ _ f x b => let z := walk 8 f x b in Ok (z, f z)).
Definition toy_config : config (Z * Z) := mkConfig (-20, 20) 1 3 1.
Definition toy_g : toy := [(0, nz 5); (11, nz 1)].
Lemma walk_descends n f b : forall x, isnan (f x) = false -> nleb (f (walk n f x b)) (f x) = true.
Proof.
  induction n as [|n IH]; intros x Hx; cbn [walk]; [apply nleb_refl; auto|].
  destruct (_ && nltb (f (x + 1)) (f x)) eqn:E.
  - apply andb_prop in E as [_ E]. apply nltb_leb in E. eapply nleb_trans; [apply IH; eapply nleb_notnan_l; eauto|auto].
  - clear E. destruct (_ && nltb (f (x - 1)) (f x)) eqn:E; [|apply nleb_refl; auto].
    apply andb_prop in E as [_ E]. apply nltb_leb in E. eapply nleb_trans; [apply IH; eapply nleb_notnan_l; eauto|auto].
Qed.
(** Three processes, two points. *)
Example C36_example :
  snd (multi_add toy_env toy_config toy_inputs 3 (fun _ => None) toy_g 2 (Some (-10, 10)))
  = Ok ([(-9, nz 9, nz 78); (5, nz 5, nz 48)], [(0, nz 5); (11, nz 1); (-9, nz 9)])
  /\ last_inside toy_env toy_g (-10, 10) 0
  /\ tried toy_env toy_inputs 1 toy_g 0 1 0 (-1)
  /\ invertible toy_env /\ below_infinity toy_env.
Proof.
  split; [vm_compute; reflexivity|]. split; [exists [], [11]; split; [reflexivity|]; split; [reflexivity|]; intros u [<-|[]]; reflexivity|].
  split; [split; [reflexivity|]; simpl; lia|]. split.
  - intros x. cbn [toy_env e_bwd e_fwd]. lia.
  - intros g x. cbn [toy_env e_acq]. unfold toy_acq. destruct (_ <=? _); reflexivity.
Qed.
Example C36_example_optimiser : descends toy_inputs.
Proof.
  intros ip i f x0 b x v Hn H. cbn [toy_inputs w_opt] in H. cbv zeta in H.
  pose proof (walk_descends 8 f b x0 Hn) as K. revert H K. generalize (walk 8 f x0 b). intros z H K. injection H as <- <-. auto.
Qed.

(** Refuted: the best of the optima is chosen. The optimiser ends at a place where the acquisition function is not a
    number in the last restart, and this place is chosen in spite of the finite optima. *)
Definition nan_env : env toy Z (Z * Z) :=
  mkEnv (e_check toy_env) (e_copy toy_env) (e_X_train toy_env) (e_predict toy_env) (e_append toy_env)
    (fun g x => if x =? 7 then NaN else toy_acq g x)
    (e_inb toy_env) (e_fwd toy_env) (e_bwd toy_env) (e_fwd_box toy_env).
Definition nan_inputs : inputs toy Z (Z * Z) :=
  mkInputs (w_update toy_inputs) (w_draw toy_inputs)
    (fun ip i f x b => if Nat.eqb i 2 then Ok (107, f 107) else w_opt toy_inputs ip i f x b).
Theorem C36_nan_refuted :
  exists a, snd (multi_add nan_env toy_config nan_inputs 1 (fun _ => None) toy_g 1 (Some (-10, 10)))
    = Ok ([(7, nz 4, a)], toy_g) /\ isnan a = true
  /\ optimize nan_env toy_config nan_inputs None toy_g 0 1 (Some (-10, 10)) = Ok (91, nz (-78)).
Proof. eexists. split; [vm_compute; reflexivity|]. split; vm_compute; reflexivity. Qed.

(** Refuted: a call optimises the acquisition function of the regressor that it is given. If the optimiser has raised
    (say, a keyboard interrupt or a linear algebra error) the objective function of that call is still used in the next
    one: here its regressor had no point at -9, the one of the second call has, and the result is this very point,
    with the acquisition value of the old regressor. *)
Definition bad_inputs : inputs toy Z (Z * Z) :=
  mkInputs (w_update toy_inputs) (w_draw toy_inputs) (fun _ _ _ _ _ => Err RuntimeError).
Theorem C36_stale_refuted :
  exists obj g' l x y a,
    multi_add toy_env toy_config bad_inputs 1 (fun _ => None) toy_g 1 (Some (-10, 10)) = (obj, Err RuntimeError)
    /\ snd (multi_add toy_env toy_config toy_inputs 1 obj (toy_g ++ [(-9, nz 2)]) 1 (Some (-10, 10))) = Ok (l, g')
    /\ l = [(x, y, a)] /\ a = nz 78 /\ toy_acq (toy_g ++ [(-9, nz 2)]) x = nz (-12)
    /\ snd (multi_add toy_env toy_config toy_inputs 1 (fun _ => None) (toy_g ++ [(-9, nz 2)]) 1 (Some (-10, 10)))
       = Ok ([(-4, nz 4, nz 33)], toy_g ++ [(-9, nz 2)]).
Proof.
  do 6 eexists. split; [reflexivity|]. split; [vm_compute; reflexivity|]. split; [reflexivity|].
  split; [reflexivity|]. split; vm_compute; reflexivity.
Qed.
(** Five processes for three restarts: the last two have nothing to optimise. *)
Example C36_stale_case : exists obj, multi_add toy_env toy_config bad_inputs 5 (fun _ => None) toy_g 1 (Some (-10, 10)) = (obj, Err RuntimeError) /\
  obj 0%nat = Some toy_g /\ obj 2%nat = Some toy_g /\ obj 4%nat = None.
Proof. eexists. split; [reflexivity|]. split; [|split]; vm_compute; reflexivity. Qed.
Print Assumptions C36_nan_refuted.
Print Assumptions C36_stale_refuted.

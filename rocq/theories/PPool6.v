(** The pool applies the acquisition function to the means of its entries only: two acquisition functions that agree
    on means that are numbers give the same pool, if all means offered are numbers. *)
From Verif Require Import Base Num MPool SPool Argsort PPool PPool2 PPool3 PPool4 PPool5.
Set Default Goal Selector "!".

Definition numbers (l : list num) : Prop := Forall (fun y => isnan y = false) l.
Lemma numbers_incl l k : incl k l -> numbers l -> numbers k.
Proof. unfold numbers. rewrite !Forall_forall. auto. Qed.
Lemma slice_incl {A} a b (l : list A) : incl (slice a b l) l.
Proof.
  unfold slice. intros x Hx. rewrite <- (firstn_skipn a l). apply in_or_app. right.
  rewrite <- (firstn_skipn (b - a) (skipn a l)). apply in_or_app; auto.
Qed.
Lemma take_incl {A} (l : list A) : forall idx r, take l idx = Ok r -> incl r l.
Proof.
  induction idx as [|i idx IH]; intros r H; cbn [take] in H; [injection H as <-; intros ? []|].
  unfold get in H. destruct (nth_error l i) as [a|] eqn:E; [|discriminate]. cbn [bind] in H.
  destruct (take l idx) as [r'|]; [|discriminate]. injection H as <-. intros x [<-|Hx]; [eapply nth_error_In; eauto|apply (IH r'); auto].
Qed.
Lemma set_slice_incl {A} (l : list A) a b v r : set_slice l a b v = Ok r -> incl v l -> incl r l.
Proof.
  unfold set_slice. destruct (_ =? _); [|discriminate]. intros H Hv. injection H as <-. intros x Hx.
  apply in_app_or in Hx as [Hx|Hx]; [rewrite <- (firstn_skipn a l); apply in_or_app; auto|].
  apply in_app_or in Hx as [Hx|Hx]; [auto|rewrite <- (firstn_skipn b l); apply in_or_app; auto].
Qed.
Lemma set_numbers l i v r : set l i v = Ok r -> isnan v = false -> numbers l -> numbers r.
Proof.
  unfold set. destruct (_ <? _); [|discriminate]. intros H Hv Hl. injection H as <-. unfold numbers in *. rewrite Forall_forall in *.
  intros x Hx. apply In_nth_error in Hx as [j Hj].
  assert (forall l i j, nth_error (upd l i v) j = Some x -> x = v \/ In x l) as K.
  { clear. induction l as [|y l IH]; intros [|i] [|j] H; cbn [upd nth_error] in H; try discriminate.
    - injection H as <-. auto.
    - right. right. eapply nth_error_In; eauto.
    - injection H as <-. right. left; auto.
    - destruct (IH i j H); auto. right. right; auto. }
  destruct (K _ _ _ Hj) as [->|]; auto.
Qed.
Lemma get_in {A} (l : list A) i a : get l i = Ok a -> In a l.
Proof. unfold get. destruct (nth_error l i) eqn:E; [|discriminate]. intros H. injection H as <-. eapply nth_error_In; eauto. Qed.

Section Ext.
Context {pt : Type}.
Variable std : list (pt * num) -> pt -> num.
Variable mean : pt -> num.
Variables f f' : num -> num -> num.
Variable argsort : list num -> list nat.
Hypothesis agree : forall y s, isnan y = false -> f y s = f' y s.

Lemma map2_agree l : numbers l -> forall k, map2 f l k = map2 f' l k.
Proof. induction 1 as [|y l Hy Hl IH]; intros [|s k]; cbn [map2]; auto. rewrite agree, IH; auto. Qed.

Definition same {A} (P : A -> Prop) (r r' : res A) : Prop := r = r' /\ forall a, r = Ok a -> P a.
Lemma same_bind {A B} (P : A -> Prop) (Q : B -> Prop) (r r' : res A) (k k' : A -> res B) :
  same P r r' -> (forall a, P a -> same Q (k a) (k' a)) -> same Q (bind r k) (bind r' k').
Proof.
  intros [<- Hp] Hk. destruct r as [a|x]; cbn [bind]; [apply Hk; auto|]. split; [reflexivity|discriminate].
Qed.
Lemma same_refl {A} (P : A -> Prop) (r : res A) : (forall a, r = Ok a -> P a) -> same P r r.
Proof. split; auto. Qed.
Definition yok (p : pool pt) : Prop := numbers (py p).

Lemma cache_same p i : yok p -> same (fun q => yok (snd q)) (cache_model_above p i) (cache_model_above p i).
Proof.
  intros Hp. apply same_refl. intros [m q] H. destruct i as [|k]; cbn [cache_model_above] in H.
  - injection H as <- <-. auto.
  - destruct (set _ _ _); [|discriminate]. injection H as <- <-. exact Hp.
Qed.
Lemma sort_same : forall k i p, yok p -> same yok (sort_ std f argsort k i p) (sort_ std f' argsort k i p).
Proof.
  induction k as [|k IH]; intros i p Hp; cbn [sort_]; [split; [reflexivity|]; intros a H; injection H as <-; auto|].
  apply same_bind with (P := fun q => yok (snd q)); [apply cache_same; auto|]. intros [m q] Hq. cbn [snd] in Hq.
  apply same_bind with (P := fun _ => True); [apply same_refl; auto|]. intros a _.
  destruct (is_ninf a); [split; [reflexivity|]; intros a0 H; injection H as <-; auto|]. cbv zeta.
  apply same_bind with (P := fun _ => True); [apply same_refl; auto|]. intros ub _.
  rewrite (map2_agree (slice i (match find_idx is_ninf (pacqc q) with Some j => j | None => plen q + 1 end) (py q)))
    by (eapply numbers_incl; [apply slice_incl|exact Hq]).
  apply same_bind with (P := fun _ => True); [apply same_refl; auto|]. intros j0 _.
  apply same_bind with (P := fun _ => True); [apply same_refl; auto|]. intros amax _.
  destruct (is_ninf amax).
  - apply same_bind with (P := fun _ => True); [apply same_refl; auto|]. intros ac _.
    split; [reflexivity|]. intros a0 H. injection H as <-. exact Hq.
  - apply same_bind with (P := fun _ => True); [apply same_refl; auto|]. intros X' _.
    apply same_bind with (P := numbers).
    { apply same_refl. intros y' Hy. destruct (take (py q) _) as [v|] eqn:Ev; [|discriminate]. cbn [bind] in Hy.
      eapply numbers_incl; [|exact Hq]. eapply set_slice_incl; [exact Hy|]. eapply take_incl; eauto. }
    intros y' Hy.
    do 3 (apply same_bind with (P := fun _ => True); [apply same_refl; auto|]; intros ? _).
    apply IH. exact Hy.
Qed.
Lemma rerank_same : forall fuel (p : pool pt) x y a i, isnan y = false -> rerank std f fuel p x y a i = rerank std f' fuel p x y a i.
Proof.
  induction fuel as [|fuel IH]; intros p x y a i Hy; cbn [rerank]; [reflexivity|]. cbv zeta.
  destruct (_ || _ || _); [reflexivity|]. destruct (get (gcond p) _) as [[m|]|]; cbn [bind]; auto.
  rewrite agree by auto. apply IH; auto.
Qed.
Lemma insert_numbers i v l : isnan v = false -> numbers l -> numbers (insert_shift i v l).
Proof.
  intros Hv Hl. unfold insert_shift, numbers in *. rewrite Forall_forall in *. intros x Hx.
  apply in_app_or in Hx as [Hx|[<-|Hx]]; auto.
  - apply Hl. rewrite <- (firstn_skipn i l). apply in_or_app; auto.
  - apply Hl. rewrite <- (firstn_skipn i l). apply in_or_app. right. rewrite removelast_firstn' in Hx.
    rewrite <- (firstn_skipn (length (skipn i l) - 1) (skipn i l)). apply in_or_app; auto.
Qed.
Lemma add_one_core_same p x y sg a nn : yok p -> isnan y = false ->
  same yok (add_one_core std f argsort p x y sg a nn) (add_one_core std f' argsort p x y sg a nn).
Proof.
  intros Hp Hy. unfold add_one_core. apply same_bind with (P := fun _ => True); [apply same_refl; auto|]. intros mn _.
  destruct (nleb a mn); [apply same_refl; intros q H; injection H as <-; auto|].
  destruct (isnan a && negb nn); [apply same_refl; discriminate|]. cbv zeta. rewrite rerank_same by auto.
  apply same_bind with (P := fun _ => True); [apply same_refl; auto|]. intros [i ac] _.
  destruct (plen p <=? i); [apply same_refl; intros q H; injection H as <-; auto|].
  apply same_bind with (P := fun _ => True); [apply same_refl; auto|]. intros a' _.
  destruct (negb (nltb NInf a')); [apply same_refl; discriminate|]. unfold sort.
  apply same_bind with (P := yok); [apply sort_same; unfold yok; cbn [py]; apply insert_numbers; auto|]. intros p2 Hp2.
  apply same_bind with (P := fun _ => True); [apply same_refl; auto|]. intros c _. apply same_refl. intros q H. injection H as <-. exact Hp2.
Qed.
Lemma bmask_numbers m l r : bmask m l = Ok r -> numbers l -> numbers r.
Proof. unfold bmask. destruct (_ =? _); [|discriminate]. intros H. injection H as <-. apply numbers_incl. apply Base.mask_incl. Qed.
Lemma add_bulk_same : forall fuel p X y sg a i, yok p -> numbers y ->
  same yok (add_bulk std f fuel p X y sg a i) (add_bulk std f' fuel p X y sg a i).
Proof.
  induction fuel as [|fuel IH]; intros p X y sg a i Hp Hy; cbn [add_bulk]; [apply same_refl; discriminate|].
  apply same_bind with (P := fun q => yok (snd q)); [apply cache_same; auto|]. intros [m q] Hq. cbn [snd] in Hq. cbv zeta.
  rewrite (map2_agree y) by auto.
  destruct (match i with 0 => a | S _ => map2 f' y (map (std m) X) end) as [|c0 cs] eqn:Ec; [apply same_refl; intros b H; injection H as <-; auto|].
  do 2 (apply same_bind with (P := fun _ => True); [apply same_refl; auto|]; intros ? _).
  destruct (neqb _ PInf); [apply same_refl; intros b H; injection H as <-; auto|].
  do 2 (apply same_bind with (P := fun _ => True); [apply same_refl; auto|]; intros ? _).
  apply same_bind with (P := fun v => isnan v = false).
  { apply same_refl. intros v Hv. apply get_in in Hv. unfold numbers in Hy. rewrite Forall_forall in Hy. auto. }
  intros y1 Hy1. apply same_bind with (P := numbers); [apply same_refl; intros y' Hy'; eapply set_numbers; eauto|]. intros y' Hy'.
  do 5 (apply same_bind with (P := fun _ => True); [apply same_refl; auto|]; intros ? _).
  destruct (S i =? _); [apply same_refl; intros b H; injection H as <-; exact Hy'|].
  apply same_bind with (P := fun _ => True); [apply same_refl; auto|]; intros ? _.
  apply same_bind with (P := numbers); [apply same_refl; intros y2 Hy2; eapply bmask_numbers; eauto|]. intros y2 Hy2.
  do 2 (apply same_bind with (P := fun _ => True); [apply same_refl; auto|]; intros ? _).
  apply IH; auto.
Qed.
Lemma add_one_same p x y sg a nn : yok p -> isnan (fst (filled std mean x y sg)) = false ->
  same yok (add_one std mean f argsort p x y sg a nn) (add_one std mean f' argsort p x y sg a nn).
Proof.
  intros Hp Hy. destruct a as [a|]; [|apply same_refl; discriminate]. rewrite !add_one_eq.
  destruct (filled std mean x y sg) as [m sd]. apply add_one_core_same; auto.
Qed.
Lemma add_each_same X y sg a : numbers y -> forall idx p, yok p ->
  same yok (add_each std mean f argsort p X y sg a idx) (add_each std mean f' argsort p X y sg a idx).
Proof.
  intros Hy. induction idx as [|i idx IH]; intros p Hp; cbn [add_each]; [apply same_refl; intros q H; injection H as <-; auto|].
  apply same_bind with (P := fun _ => True); [apply same_refl; auto|]; intros x _.
  apply same_bind with (P := fun v => isnan v = false).
  { apply same_refl. intros v Hv. apply get_in in Hv. unfold numbers in Hy. rewrite Forall_forall in Hy. auto. }
  intros yi Hyi. do 2 (apply same_bind with (P := fun _ => True); [apply same_refl; auto|]; intros ? _).
  apply same_bind with (P := yok); [apply add_one_same; auto|]. intros p' Hp'. apply IH; auto.
Qed.

Lemma arrays_numbers X y sg a m : well_formed (AddMany X y sg a m) -> numeric std mean f (AddMany X y sg a m) ->
  numbers (match y with Some y' => y' | None => map mean X end).
Proof.
  intros Hw Hn. pose proof (offered_arrays pt std mean f X y sg a m Hw) as [E _].
  assert (match y with Some y' => y' | None => map mean X end = map sy (tuple_slots pt (offered std mean f (AddMany X y sg a m)))) as ->.
  { unfold arrays in E. destruct y as [y'|]; [destruct sg|]; apply (f_equal (fun q => fst (fst q))) in E; exact E. }
  unfold numbers. rewrite Forall_forall. intros v Hv. apply in_map_iff in Hv as (t & <- & Ht).
  apply in_map_iff in Ht as ([[[x m'] s] a'] & Et & Hin). subst t. cbn [sy]. eapply Hn; eauto.
Qed.
Lemma add_same p X y sg a m : yok p -> numbers (match y with Some y' => y' | None => map mean X end) ->
  same yok (add std mean f argsort p X y sg a m) (add std mean f' argsort p X y sg a m).
Proof.
  intros Hp Hy. unfold add.
  assert (exists y1 s1, (match y, sg with None, _ => (map mean X, map (std []) X) | Some y', None => (y', map (std []) X) | Some y', Some s' => (y', s') end) = (y1, s1)
    /\ numbers y1) as (y1 & s1 & E & Hy1).
  { destruct y as [y'|]; [destruct sg|]; do 2 eexists; split; try reflexivity; auto. }
  rewrite E. rewrite (map2_agree y1) by auto. set (acq := match a with Some a => a | None => map2 f' y1 s1 end).
  destruct m; try (apply add_each_same; auto); [apply add_bulk_same; auto|apply same_refl; discriminate|apply same_refl; discriminate].
Qed.
Lemma step_same p o : yok p -> well_formed o -> numeric std mean f o -> (forall x y sg nn, o <> AddOne x y sg None nn) ->
  same yok (step std mean f argsort p o) (step std mean f' argsort p o).
Proof.
  intros Hp Hw Hn Hsome. destruct o as [x y sg a nn|X y sg a m]; cbn [step].
  - destruct a as [a|]; [|exfalso; eapply Hsome; reflexivity]. apply add_one_same; auto. unfold numeric, offered in Hn.
    destruct (filled std mean x y sg) as [m sd]. apply (Hn x m sd a). left; auto.
  - apply add_same; auto. apply (arrays_numbers X y sg a m Hw Hn).
Qed.
Lemma step_same' p o : yok p -> well_formed o -> numeric std mean f o ->
  same yok (step std mean f argsort p o) (step std mean f' argsort p o).
Proof.
  intros Hp Hw Hn. destruct o as [x y sg [a|] nn|]; try (apply step_same; auto; discriminate). cbn [step]. apply same_refl. discriminate.
Qed.
Lemma run_same : forall ops p, yok p -> Forall well_formed ops -> Forall (numeric std mean f) ops ->
  same yok (run std mean f argsort p ops) (run std mean f' argsort p ops).
Proof.
  induction ops as [|o ops IH]; intros p Hp Hw Hn; cbn [run]; [apply same_refl; intros q H; injection H as <-; auto|].
  inversion Hw; inversion Hn; subst. apply same_bind with (P := yok); [apply step_same'; auto|]. intros p' Hp'. apply IH; auto.
Qed.
Lemma new_yok (x0 : pt) n : yok (new_pool x0 n).
Proof. unfold yok, new_pool. cbn [py]. unfold numbers. rewrite Forall_forall. intros y Hy. apply repeat_spec in Hy. subst. reflexivity. Qed.
Lemma offer_same X : forall y sg a i, (forall x m s b, In (x, m, s, b) (offer_many std mean f X y sg a i) -> isnan m = false) ->
  offer_many std mean f X y sg a i = offer_many std mean f' X y sg a i.
Proof.
  induction X as [|x X IH]; intros y sg a i H; cbn [offer_many] in *; [reflexivity|].
  destruct (filled std mean x (nth_opt y i) (nth_opt sg i)) as [m s]. rewrite IH.
  - f_equal. destruct (nth_opt a i); [reflexivity|]. rewrite agree; [reflexivity|]. eapply H. left; reflexivity.
  - intros x' m' s' b' Hin. eapply H. right; eauto. Unshelve. all: try exact (nz 0); try exact x.
Qed.
Lemma offered_same o : numeric std mean f o -> offered std mean f o = offered std mean f' o.
Proof. destruct o; intros Hn; [reflexivity|]. cbn [offered]. apply offer_same. exact Hn. Qed.
End Ext.

(** The acquisition function made total: -infinity where the mean is not a number. *)
Definition guard (f : num -> num -> num) (y s : num) : num := if isnan y then NInf else f y s.
Lemma guard_agree f y s : isnan y = false -> f y s = guard f y s.
Proof. unfold guard. intros ->. reflexivity. Qed.
Lemma guard_nn {pt} (std : list (pt * num) -> pt -> num) f : (forall C x y, isnan y = false -> isnan (f y (std C x)) = false) ->
  forall C x y, isnan (guard f y (std C x)) = false.
Proof. intros H C x y. unfold guard. destruct (isnan y) eqn:E; [reflexivity|auto]. Qed.
Lemma guard_mono {pt} (std : list (pt * num) -> pt -> num) f :
  (forall C D x y, isnan y = false -> nleb (f y (std (C ++ D) x)) (f y (std C x)) = true) ->
  forall C D x y, nleb (guard f y (std (C ++ D) x)) (guard f y (std C x)) = true.
Proof. intros H C D x y. unfold guard. destruct (isnan y) eqn:E; [reflexivity|auto]. Qed.
Lemma guard_own {pt} (std : list (pt * num) -> pt -> num) mean f o : numeric std mean f o -> own_acquisition std mean f o -> own_acquisition std mean (guard f) o.
Proof.
  intros Hn H x m s a Hin. rewrite <- (offered_same std mean f (guard f) (guard_agree f)) in Hin by auto.
  destruct (H x m s a Hin) as [-> Hp]. split; [|auto]. unfold guard. rewrite (Hn _ _ _ _ Hin). reflexivity.
Qed.
Lemma guard_own_all {pt} (std : list (pt * num) -> pt -> num) mean f ops : Forall (numeric std mean f) ops ->
  Forall (own_acquisition std mean f) ops -> Forall (own_acquisition std mean (guard f)) ops.
Proof. rewrite !Forall_forall. intros Hn H o Ho. apply guard_own; auto. Qed.
Lemma yok_slot {pt} (p : pool pt) j x y s a c : yok p -> slot_at p j = Some (x, y, s, a, c) -> isnan y = false.
Proof.
  intros Hy Hs1. unfold slot_at in Hs1. unfold yok, numbers in Hy. rewrite Forall_forall in Hy. apply Hy.
  destruct (nth_error (pX p) j), (nth_error (py p) j) eqn:Ey, (nth_error (psig p) j), (nth_error (pacq p) j), (nth_error (pacqc p) j); try discriminate.
  injection Hs1 as _ -> _ _ _. eapply nth_error_In; eauto.
Qed.
Lemma yok_held {pt} (p : pool pt) x y s a : yok p -> In (x, y, s, a) (held p) -> isnan y = false.
Proof.
  intros Hy H. unfold held in H. apply in_flat_map in H as (j & _ & H). destruct (slot_at p j) as [[[[[x' y'] s'] a'] c']|] eqn:E; [|destruct H].
  pose proof (yok_slot p j _ _ _ _ _ Hy E) as K. destruct c'; cbn [In] in H; intuition congruence.
Qed.
Lemma guard_greedy {pt} (std : list (pt * num) -> pt -> num) f n p : yok p -> exact_and_greedy std (guard f) n p -> exact_and_greedy std f n p.
Proof.
  intros Hy H i x y s a c Hi Hs Hc. destruct (H i x y s a c Hi Hs Hc) as [E K].
  pose proof (fun j x y s a c => yok_slot p j x y s a c Hy) as Hny.
  split.
  - rewrite E. unfold guard. rewrite (Hny _ _ _ _ _ _ Hs). reflexivity.
  - intros j x' y' s' a' c' Hij Hj Hs' Hc'. specialize (K j x' y' s' a' c' Hij Hj Hs' Hc'). unfold guard in K.
    rewrite (Hny _ _ _ _ _ _ Hs') in K. exact K.
Qed.
Lemma guard_better {pt} (std : list (pt * num) -> pt -> num) f n p d : (forall x m s a, In (x, m, s, a) d -> isnan m = false) ->
  none_better std (guard f) n p d -> none_better std f n p d.
Proof.
  intros Hd H x' y' s' a' Hin i x y s a c Hi Hs. specialize (H x' y' s' a' Hin i x y s a c Hi Hs). unfold guard in H.
  rewrite (Hd _ _ _ _ Hin) in H. exact H.
Qed.

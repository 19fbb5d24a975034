(** Property C23: predictions respect classifier, trust region and clipping. *)
From Verif Require Import MPredict SGpr PSvm PGpr TGpr.
Set Default Goal Selector "!".

Lemma svm_predict_pointwise {A M} (p : M -> A -> bool) s X l : svm_predict p s X = Ok l ->
  exists lab, l = map lab X /\ forall Y, svm_predict p s Y = Ok (map lab Y).
Proof.
  assert (forall (b : bool) (Y : list A), repeat b (length Y) = map (fun _ => b) Y) as R.
  { intros b Y. induction Y; simpl; congruence. }
  unfold svm_predict. intros H. destruct (s_data s); [|discriminate].
  destruct (s_all s); [exists (fun _ => true); rewrite <- R; split; [congruence|intros; rewrite R; auto]|].
  destruct (negb (s_some s)); [exists (fun _ => false); rewrite <- R; split; [congruence|intros; rewrite R; auto]|].
  destruct (s_svc s) as [m|]; [|discriminate]. exists (p m). split; [congruence|auto].
Qed.
Lemma unmask_map {A B} (lab : A -> bool) (h : A -> B) d (X : list A) :
  unmask (map lab X) (map h (mask (map lab X) X)) (repeat d (length X)) = map (fun x => if lab x then h x else d) X.
Proof. induction X as [|x X IH]; simpl; auto. destruct (lab x); simpl; congruence. Qed.
Lemma combine_map2 {A B C D} (f : A -> B) (g : A -> C) (h : B * C -> D) (X : list A) :
  map h (combine (map f X) (map g X)) = map (fun x => h (f x, g x)) X.
Proof. induction X; simpl; congruence. Qed.
Lemma repeat_map {A B} (b : B) (X : list A) : repeat b (length X) = map (fun _ => b) X.
Proof. induction X; simpl; congruence. Qed.

Lemma fold_max l M : pymax_list l = Ok M -> (forall w, In w l -> isfin w = true) ->
  In M l /\ forall w, In w l -> nleb w M = true.
Proof.
  destruct l as [|x l]; [discriminate|]. simpl. intros H. injection H as <-. revert x.
  induction l as [|y l IH]; intros x F; simpl.
  - split; auto. intros w [<-|[]]. apply nleb_refl. specialize (F x). destruct x; simpl in F; auto; discriminate F; auto.
  - assert (isnan x = false /\ isnan y = false) as [Nx Ny].
    { split; [specialize (F x)|specialize (F y)]; [destruct x|destruct y]; auto; discriminate F; simpl; auto. }
    destruct (IH (pymax x y)) as [A B].
    { intros w [<-|Hw]; apply F; simpl; auto. unfold pymax. destruct (nltb x y); auto. }
    assert (nleb x (pymax x y) = true /\ nleb y (pymax x y) = true) as [C D].
    { unfold pymax. destruct (nltb x y) eqn:E; split; auto using nleb_refl, nltb_leb.
      rewrite nltb_not_leb in E; auto. destruct (nleb y x); auto; discriminate. }
    split.
    + destruct A as [A|A]; auto. rewrite <- A. unfold pymax. destruct (nltb x y); auto.
    + intros w [<-|[<-|Hw]]; [| |apply B; simpl; auto]; eapply nleb_trans; eauto; apply B; simpl; auto.
Qed.
Lemma fold_min l M : pymin_list l = Ok M -> (forall w, In w l -> isfin w = true) ->
  In M l /\ forall w, In w l -> nleb M w = true.
Proof.
  destruct l as [|x l]; [discriminate|]. simpl. intros H. injection H as <-. revert x.
  induction l as [|y l IH]; intros x F; simpl.
  - split; auto. intros w [<-|[]]. apply nleb_refl. specialize (F x). destruct x; simpl in F; auto; discriminate F; auto.
  - assert (isnan x = false /\ isnan y = false) as [Nx Ny].
    { split; [specialize (F x)|specialize (F y)]; [destruct x|destruct y]; auto; discriminate F; simpl; auto. }
    destruct (IH (pymin x y)) as [A B].
    { intros w [<-|Hw]; apply F; simpl; auto. unfold pymin. destruct (nltb y x); auto. }
    assert (nleb (pymin x y) x = true /\ nleb (pymin x y) y = true) as [C D].
    { unfold pymin. destruct (nltb y x) eqn:E; split; auto using nleb_refl, nltb_leb.
      rewrite nltb_not_leb in E; auto. destruct (nleb x y); auto; discriminate. }
    split.
    + destruct A as [A|A]; auto. rewrite <- A. unfold pymin. destruct (nltb y x); auto.
    + intros w [<-|[<-|Hw]]; [| |apply B; simpl; auto].
      * apply nleb_trans with (pymin x y); [apply B; simpl; auto|exact C].
      * apply nleb_trans with (pymin x y); [apply B; simpl; auto|exact D].
Qed.
Lemma npmin2_below a b : isnan (npmin2 a b) = false -> nleb (npmin2 a b) b = true.
Proof.
  unfold npmin2. destruct (isnan a || isnan b) eqn:E; [discriminate|]. apply orb_false_iff in E as [Na Nb]. intros _.
  unfold pymin. destruct (nltb b a) eqn:F; [apply nleb_refl; auto|]. rewrite nltb_not_leb in F; auto.
  destruct (nleb a b); auto; discriminate.
Qed.

Section C23.
Context {pt pt_ PX PY model theta box : Type}.
Variable e : env pt pt_ PX PY model theta box.
Variable pe : penv pt pt_ PY model theta box.
Variable c : config theta.
Variable clip : num.
Implicit Types g : gpr pt pt_ PX PY model theta box.

(** The X-preprocessor works row by row. *)
Definition rowwise g : Prop := exists f, forall X, trX e (g_pX g) X = Ok (map f X).
Definition outside g (a : pargs) (x : pt) : bool :=
  match g_trust g with Some b => negb (p_ignore a) && negb (in_box pe b x) | None => false end.
(** What the classifier says about a point; everything is finite without one. *)
Definition says g (x : pt) (b : bool) : Prop :=
  if c_classifier c then predict_is_finite e pe c g [x] = Ok [b] else b = true.

Lemma labels g X l f : (forall X, trX e (g_pX g) X = Ok (map f X)) ->
  (if c_classifier c then do X_ <- trX e (g_pX g) X; svm_predict (svc_predict pe) (g_svm g) X_
   else Ok (repeat true (length X))) = Ok l ->
  exists lab, l = map lab X /\ forall x, says g x (lab x).
Proof.
  intros Hf H. unfold says, predict_is_finite. destruct (c_classifier c).
  - rewrite Hf in H. simpl in H. apply svm_predict_pointwise in H as (lab & -> & H).
    exists (fun x => lab (f x)). rewrite map_map. split; auto. intros x. rewrite Hf. simpl. rewrite H. reflexivity.
  - injection H as <-. exists (fun _ => true). rewrite repeat_map. auto.
Qed.
Lemma says_fun g x b b' : says g x b -> says g x b' -> b = b'.
Proof. unfold says. destruct (c_classifier c); congruence. Qed.
Lemma all_infinite {A} (lab : A -> bool) X : forallb negb (map lab X) = true -> forall x, In x X -> lab x = false.
Proof. rewrite forallb_forall. intros H x Hx. apply negb_true_iff, H, in_map, Hx. Qed.

(** Everything about a call: one entry per query, that depends on this query only. *)
Lemma predict_ok g a X r : rowwise g -> predict e pe c clip g a X = Ok r ->
  exists lab, (forall x, says g x (lab x))
  /\ ((r_mean r = map (fun _ => NInf) X /\ (forall x, In x X -> lab x = false)
       /\ (r_std r = if p_std a then Some (map (fun _ => nz 0) X) else None))
      \/ (exists f k top, (forall X, trX e (g_pX g) X = Ok (map f X)) /\ cached g = Ok k /\ ceiling clip (g_y g) = Ok top
         /\ r_mean r = map (fun x => if outside g a x then NInf
                          else if lab x then npmin2 (invY pe (g_pY g) (gp_mean pe k (f x))) top else NInf) X
         /\ r_std r = if p_std a then Some (map (fun x => if lab x
                        then invscaleY pe (g_pY g) (root pe (clip_var (gp_var pe k (f x)))) else nz 0) X) else None)).
Proof.
  intros [f Hf] H. unfold predict in H.
  destruct (p_sgrad a && _); [discriminate|]. destruct (negb (length X =? 1) && _); [discriminate|].
  match type of H with (do _ <- ?q; _) = _ => destruct q as [l|] eqn:El; [|discriminate] end.
  apply (labels g X l f Hf) in El as (lab & -> & Hl). exists lab. split; auto. cbn [bind] in H.
  match type of H with (if ?q then _ else _) = _ => destruct q eqn:Ea end.
  - left. injection H as <-. apply andb_true_iff in Ea as [_ Ea]. cbn [r_mean r_std]. rewrite !repeat_map.
    split; auto. split; auto. apply all_infinite; auto.
  - right. unfold masked in H. rewrite map_length, Nat.eqb_refl in H. cbn [bind] in H. rewrite Hf in H. cbn [bind] in H.
    destruct (cached g) as [k|] eqn:Ek; [|discriminate]. cbn [bind] in H.
    destruct (ceiling clip (g_y g)) as [top|] eqn:Et; [|discriminate]. cbn [bind] in H.
    exists f, k, top. split; auto. split; auto. split; auto. injection H as <-. cbn [r_mean r_std]. rewrite !map_map. rewrite !unmask_map.
    split; auto.
    assert ((match g_trust g with
             | Some b => if p_ignore a then repeat false (length X) else map (fun x => negb (in_box pe b x)) X
             | None => repeat false (length X) end) = map (outside g a) X) as ->.
    { unfold outside. destruct (g_trust g); [destruct (p_ignore a)|]; rewrite ?repeat_map; reflexivity. }
    rewrite combine_map2. reflexivity.
Qed.

Lemma predict_alone g a x lab : p_mgrad a = false -> p_sgrad a = false -> says g x lab ->
  predict e pe c clip g a [x] =
    if negb lab then Ok (mkPred [NInf] (if p_std a then Some [nz 0] else None) None None)
    else do X_ <- trX e (g_pX g) [x]; do k <- cached g; do top <- ceiling clip (g_y g);
         Ok (mkPred (map (fun p : bool * num => if fst p then NInf else snd p) (combine [outside g a x]
                 (unmask [true] (map (fun x => npmin2 (invY pe (g_pY g) (gp_mean pe k x)) top) X_) [NInf])))
               (if p_std a then Some (unmask [true] (map (fun x => invscaleY pe (g_pY g) (root pe (clip_var (gp_var pe k x)))) X_) [nz 0]) else None) None None).
Proof.
  intros Hm Hs Hl. unfold predict, outside. rewrite Hm, Hs. cbn [andb orb length Nat.eqb negb].
  unfold says, predict_is_finite in Hl. destruct (c_classifier c).
  - rewrite Hl. cbn [bind forallb andb negb]. destruct lab; cbn [negb andb].
    + unfold masked. cbn [length Nat.eqb mask bind repeat].
      destruct (trX e (g_pX g) [x]) as [X_|]; [|reflexivity]. cbn [bind].
      destruct (cached g); [|reflexivity]. cbn [bind]. destruct (ceiling clip (g_y g)); [|reflexivity]. cbn [bind].
      destruct (g_trust g); [|reflexivity]. destruct (p_ignore a); reflexivity.
    + reflexivity.
  - subst lab. unfold masked. cbn [length Nat.eqb mask bind repeat negb andb].
    destruct (trX e (g_pX g) [x]) as [X_|]; [|reflexivity]. cbn [bind].
    destruct (cached g); [|reflexivity]. cbn [bind]. destruct (ceiling clip (g_y g)); [|reflexivity]. cbn [bind].
    destruct (g_trust g); [|reflexivity]. destruct (p_ignore a); reflexivity.
Qed.

(** One value per query, and each is what the query alone would give. *)
Theorem C23_one_per_query :
  forall g a X r, rowwise g -> p_mgrad a = false -> p_sgrad a = false ->
    predict e pe c clip g a X = Ok r ->
    length (r_mean r) = length X
    /\ (forall s, r_std r = Some s -> length s = length X)
    /\ forall i x, nth_error X i = Some x ->
         exists r1, predict e pe c clip g a [x] = Ok r1
           /\ (exists v, r_mean r1 = [v] /\ nth_error (r_mean r) i = Some v)
           /\ forall s, r_std r = Some s -> exists w, r_std r1 = Some [w] /\ nth_error s i = Some w.
Proof.
  intros g a X r Hr Hm Hs H. pose proof H as H0. apply predict_ok in H as (lab & Hl & [(E1 & E2 & E3)|(f & k & top & Hf & Hk & Ht & E1 & E2)]); auto.
  - rewrite E1, E3. split; [apply map_length|]. split.
    { intros s Es. destruct (p_std a); [|discriminate]. injection Es as <-. apply map_length. }
    intros i x Hi. pose proof (E2 x (nth_error_In _ _ Hi)) as Ex. pose proof (Hl x) as Hx. rewrite Ex in Hx.
    rewrite (predict_alone _ _ _ _ Hm Hs Hx). cbn [negb]. eexists. split; [reflexivity|]. cbn [r_mean r_std]. split.
    + exists NInf. split; auto. rewrite nth_error_map, Hi. reflexivity.
    + intros s Es. destruct (p_std a); [|discriminate]. injection Es as <-. exists (nz 0). split; auto.
      rewrite nth_error_map, Hi. reflexivity.
  - rewrite E1, E2. split; [apply map_length|]. split.
    { intros s Es. destruct (p_std a); [|discriminate]. injection Es as <-. apply map_length. }
    intros i x Hi. rewrite (predict_alone _ _ _ _ Hm Hs (Hl x)). rewrite nth_error_map, Hi. cbn [option_map].
    destruct (lab x) eqn:Ex; cbn [negb].
    + rewrite Hf, Hk, Ht. cbn [bind map unmask combine fst snd]. eexists. split; [reflexivity|]. cbn [r_mean r_std]. split.
      * eexists. split; reflexivity.
      * intros s Es. destruct (p_std a); [|discriminate]. injection Es as <-. eexists. split; [reflexivity|].
        rewrite nth_error_map, Hi. cbn [option_map]. rewrite Ex. reflexivity.
    + eexists. split; [reflexivity|]. cbn [r_mean r_std]. split.
      * exists NInf. split; auto. destruct (outside g a x); reflexivity.
      * intros s Es. destruct (p_std a); [|discriminate]. injection Es as <-. eexists. split; [reflexivity|].
        rewrite nth_error_map, Hi. cbn [option_map]. rewrite Ex. reflexivity.
Qed.

(** -inf for the queries classified infinite or outside the trust region, and for no others as long as
    the GP itself predicts finite values from finite training values. *)
Definition finite_gp g : Prop :=
  (forall v, In v (g_y g) -> isfin v = true) /\ isfin clip = true
  /\ forall k x, isfin (invY pe (g_pY g) (gp_mean pe k x)) = true.
Theorem C23_minus_inf :
  forall g a X r i x v b, rowwise g -> predict e pe c clip g a X = Ok r ->
    nth_error X i = Some x -> nth_error (r_mean r) i = Some v -> says g x b ->
    (b = false \/ outside g a x = true -> v = NInf)
    /\ (finite_gp g -> b = true -> outside g a x = false -> isfin v = true).
Proof.
  intros g a X r i x v b Hr H Hi Hv Hb.
  apply predict_ok in H as (lab & Hl & [(E1 & E2 & _)|(f & k & top & Hf & Hk & Ht & E1 & _)]); auto;
    rewrite E1, nth_error_map, Hi in Hv; cbn [option_map] in Hv; injection Hv as <-;
    assert (lab x = b) as Ex by (eapply says_fun; eauto).
  - split; auto. intros _ ->. rewrite E2 in Ex; [discriminate|]. eapply nth_error_In; eauto.
  - rewrite Ex. split; [intros [-> | ->]; auto; destruct (outside g a x); auto|].
    intros (F1 & F2 & F3) -> ->. specialize (F3 k (f x)).
    assert (isfin top = true) as Ft.
    { unfold ceiling in Ht. destruct (pymax_list (g_y g)) as [M|] eqn:EM; [|discriminate]. cbn [bind] in Ht.
      destruct (pymin_list (g_y g)) as [m|] eqn:Em; [|discriminate]. cbn [bind] in Ht. injection Ht as <-.
      assert (isfin M = true) as FM by (apply F1; apply fold_max in EM as [EM _]; auto).
      assert (isfin m = true) as Fm by (apply F1; apply fold_min in Em as [Em _]; auto).
      destruct clip, M, m; try discriminate. reflexivity. }
    destruct (invY _ _ _); try discriminate. destruct top; try discriminate. unfold npmin2, pymin. cbn [isnan orb].
    destruct (nltb _ _); reflexivity.
Qed.

(** Never above the ceiling: the best training value plus [clip_factor - 1] times the spread. *)
Theorem C23_ceiling :
  forall g a X r v M m, rowwise g -> predict e pe c clip g a X = Ok r -> In v (r_mean r) ->
    isfin clip = true -> (forall w, In w (g_y g) -> isfin w = true) ->
    In M (g_y g) -> In m (g_y g) -> (forall w, In w (g_y g) -> nleb m w = true /\ nleb w M = true) ->
    isnan v = false ->
    nleb v (nadd M (nmul (nsub clip (nz 1)) (nsub M m))) = true.
Proof.
  intros g a X r v M m Hr H Hv Fc Fy HM Hm Hb Hn.
  assert (isfin M = true /\ isfin m = true) as [FM Fm] by auto.
  assert (v = NInf -> nleb v (nadd M (nmul (nsub clip (nz 1)) (nsub M m))) = true) as Hinf.
  { intros ->. destruct clip, M, m; try discriminate. reflexivity. }
  apply predict_ok in H as (lab & Hl & [(E1 & E2 & _)|(f & k & top & Hf & Hk & Ht & E1 & _)]); auto;
    rewrite E1 in Hv; apply in_map_iff in Hv as (x & Ev & Hx).
  - apply Hinf. auto.
  - destruct (outside g a x); [apply Hinf; auto|]. destruct (lab x); [|apply Hinf; auto].
    unfold ceiling in Ht. destruct (pymax_list (g_y g)) as [M'|] eqn:EM; [|discriminate]. cbn [bind] in Ht.
    destruct (pymin_list (g_y g)) as [m'|] eqn:Em; [|discriminate]. cbn [bind] in Ht. injection Ht as <-.
    apply fold_max in EM as [A1 A2]; [|auto]. apply fold_min in Em as [B1 B2]; [|auto].
    assert (M' = M) as -> by (apply nleb_antisym; [apply Hb; auto|apply A2; auto]).
    assert (m' = m) as -> by (apply nleb_antisym; [apply B2; auto|apply Hb; auto]).
    subst v. assert (nadd M (nmul (nsub clip (nz 1)) (nsub M m)) = nsub (nmul clip M) (nmul (nsub clip (nz 1)) m)) as ->.
    { destruct clip, M, m; try discriminate. unfold nsub, nz.
      cbn [nadd nmul nneg]. f_equal. replace (qc_of_Z 1) with 1%Qc by reflexivity. ring. }
    apply npmin2_below. auto.
Qed.

(** Standard deviations: never negative, and 0 for the queries classified infinite. *)
Theorem C23_std :
  forall g a X r s i x w b, rowwise g -> predict e pe c clip g a X = Ok r -> r_std r = Some s ->
    nth_error X i = Some x -> nth_error s i = Some w -> says g x b ->
    (forall v, nleb (nz 0) v = true -> nleb (nz 0) (root pe v) = true) ->
    (forall v, nleb (nz 0) v = true -> nleb (nz 0) (invscaleY pe (g_pY g) v) = true) ->
    (forall k x, isnan (gp_var pe k x) = false) ->
    nleb (nz 0) w = true /\ (b = false -> w = nz 0).
Proof.
  intros g a X r s i x w b Hr H Hs Hi Hw Hb Hroot Hsc Hvar.
  apply predict_ok in H as (lab & Hl & [(_ & E2 & E1)|(f & k & top & Hf & Hk & Ht & _ & E1)]); auto;
    rewrite E1 in Hs; destruct (p_std a); try discriminate; injection Hs as <-;
    rewrite nth_error_map, Hi in Hw; cbn [option_map] in Hw; injection Hw as <-.
  - auto.
  - assert (lab x = b) as -> by (eapply says_fun; eauto). destruct b; [|auto]. split; [|discriminate].
    apply Hsc, Hroot. specialize (Hvar k (f x)). unfold clip_var. destruct (nltb _ _) eqn:E; [reflexivity|].
    rewrite nltb_not_leb in E; auto. apply negb_false_iff in E. exact E.
Qed.

(** [predict_std] gives the standard deviations of [predict]. *)
Theorem C23_predict_std :
  forall g a X r s, predict e pe c clip g a X = Ok r -> r_std r = Some s -> predict_std e pe c g X = Ok s.
Proof.
  intros g a X r s H Hs. unfold predict in H. unfold predict_std.
  destruct (p_sgrad a && _); [discriminate|]. destruct (negb (length X =? 1) && _); [discriminate|].
  match type of H with (do _ <- ?q; _) = _ => destruct q as [l|] eqn:El; [|discriminate] end. cbn [bind] in *.
  match type of H with (if ?q then _ else _) = _ => destruct q eqn:Ea end.
  - injection H as <-. cbn [r_std] in Hs. destruct (p_std a); [|discriminate]. congruence.
  - destruct (masked l X) as [Xf|]; [|discriminate]. cbn [bind] in *. destruct (trX e (g_pX g) Xf); [|discriminate]. cbn [bind] in *.
    destruct (cached g); [|discriminate]. cbn [bind] in *. destruct (ceiling clip (g_y g)); [|discriminate]. cbn [bind] in *.
    injection H as <-. cbn [r_std] in Hs. destruct (p_std a); [|discriminate]. congruence.
Qed.
(** Gradients are returned for a single query only, one row each, and asking for them changes neither mean nor standard deviation. The gradient of the standard deviation is given only
    together with the other two. Here the kernel has gradients (see C66); a row stands for an array with or without a first axis of length 1. *)
Definition no_gradients (a : pargs) : pargs := mkPargs (p_std a) false false (p_ignore a).
Theorem C23_gradients :
  forall g a x, rowwise g -> p_sgrad a = false \/ p_std a = true /\ p_mgrad a = true ->
    match predict e pe c clip g (no_gradients a) [x], predict e pe c clip g a [x] with
    | Ok r0, Ok r => r_mean r = r_mean r0 /\ r_std r = r_std r0
        /\ (if p_mgrad a then exists row, r_mgrad r = Some [row] else r_mgrad r = None)
        /\ (if p_sgrad a then exists row, r_sgrad r = Some [row] else r_sgrad r = None)
    | Err k0, Err k => k0 = k
    | _, _ => False
    end.
Proof.
  intros g a x [f Hf] Ha. unfold predict, no_gradients. cbn [p_std p_mgrad p_sgrad p_ignore andb orb length Nat.eqb negb].
  assert (p_sgrad a && negb (p_std a && p_mgrad a) = false) as -> by (destruct Ha as [->|[-> ->]]; cbn; auto using andb_false_r).
  match goal with |- context [do _ <- ?q; _] => destruct q as [l|] eqn:El; [|reflexivity] end. cbn [bind].
  destruct (c_classifier c && forallb negb l) eqn:Ea.
  { cbn [r_mean r_std r_mgrad r_sgrad map]. repeat split; auto; [destruct (p_mgrad a)|destruct (p_sgrad a)]; eauto. }
  apply (labels g [x] l f Hf) in El as (lab & -> & Hl). unfold masked. cbn [map length Nat.eqb bind mask].
  assert (lab x = true) as ->.
  { destruct (c_classifier c) eqn:Ec; [|specialize (Hl x); unfold says in Hl; rewrite Ec in Hl; exact Hl].
    cbn in Ea. destruct (lab x); [reflexivity|discriminate]. }
  rewrite Hf. cbn [bind map]. destruct (cached g) as [k|]; [|reflexivity]. cbn [bind]. destruct (ceiling clip (g_y g)) as [top|]; [|reflexivity]. cbn [bind combine map].
  cbn [r_mean r_std r_mgrad r_sgrad]. repeat split; auto; [destruct (p_mgrad a)|destruct (p_sgrad a)]; eauto.
Qed.
Theorem C23_gradients_refused :
  forall g a X, (length X <> 1 /\ (p_mgrad a = true \/ p_sgrad a = true)) \/ (p_sgrad a = true /\ (p_std a = false \/ p_mgrad a = false)) -> predict e pe c clip g a X = Err ValueError.
Proof.
  intros g a X H. unfold predict. destruct (p_sgrad a && negb (p_std a && p_mgrad a)) eqn:E; [reflexivity|]. destruct H as [[HL HG]|[Hs Hn]].
  - apply Nat.eqb_neq in HL. rewrite HL. cbn [negb andb]. destruct HG as [->| ->]; rewrite ?orb_true_r; reflexivity.
  - rewrite Hs in E. destruct Hn as [Hn|Hn]; rewrite Hn in E; [discriminate|]. rewrite andb_false_r in E. discriminate.
Qed.
End C23.
Print Assumptions C23_one_per_query.
Print Assumptions C23_minus_inf.
Print Assumptions C23_ceiling.
Print Assumptions C23_std.
Print Assumptions C23_predict_std.
Print Assumptions C23_gradients.
Print Assumptions C23_gradients_refused.

(** A regressor with three training points of which one is infinite, seen by a classifier that takes
    points up to 2 for finite; the GP predicts ten times the (only) coordinate with variance -1, 0, 1, ... *)
Definition demo_pe (trust : Z -> bool) : penv Z Z unit unit nat unit :=
  mkPenv (fun _ x => (x <=? 2)%Z) (fun _ x => nz (10 * x)) (fun _ x => nz (x - 2))
    (fun _ _ => [nz 10]) (fun _ _ => [nz 1]) (fun _ v => v) (fun _ v => v) (fun _ => trust)
    (fun v => v) (fun v => neqb v (nz 0)) (fun _ => 1).
Definition demo_g : gpr Z Z unit unit unit nat unit :=
  set_trust (Some tt) (fst (do_all demo (demo_c true 1)
    [OAppend (add [1; 2; 3]%Z [nz 5; nz 7; NInf] FTrue true)] demo_new)).
Definition with_std : pargs := mkPargs true false false false.
Example C23_example :
  snd (do_all demo (demo_c true 1) [OAppend (add [1; 2; 3]%Z [nz 5; nz 7; NInf] FTrue true)] demo_new) = Ok tt
  /\ rowwise demo demo_g
  /\ (exists q, predict demo (demo_pe (fun _ => true)) (demo_c true 1) (nq 11 10) demo_g with_std [0; 2; 3; 1]%Z
      = Ok (mkPred [nz 0; Fin q; NInf; Fin q] (Some [nz 0; nz 0; nz 0; nz 0]) None None) /\ neqb (Fin q) (nq 72 10) = true)
  /\ map (fun x => predict_is_finite demo (demo_pe (fun _ => true)) (demo_c true 1) demo_g [x]) [2; 3]%Z = [Ok [true]; Ok [false]].
Proof.
  split; [vm_compute; reflexivity|]. split; [exists (fun x => x); intros X; rewrite map_id; reflexivity|].
  split; [|vm_compute; reflexivity]. eexists. split; [vm_compute; reflexivity|]. vm_compute. reflexivity.
Qed.

Example C23_gradients_case :
  let all := mkPargs true true true false in let P := predict demo (demo_pe (fun _ => true)) (demo_c true 1) (nq 11 10) demo_g in
  P all [0]%Z = Ok (mkPred [nz 0] (Some [nz 0]) (Some [[nz 10]]) (Some [[nz 0]])) /\ P (no_gradients all) [0]%Z = Ok (mkPred [nz 0] (Some [nz 0]) None None)
  /\ P all [3]%Z = Ok (mkPred [NInf] (Some [nz 0]) (Some [[PInf]]) (Some [[nz 0]])) /\ P all [0; 1]%Z = Err ValueError /\ P (mkPargs true false true false) [0]%Z = Err ValueError.
Proof. vm_compute. auto. Qed.

(** False for standard deviations outside the trust region: the mean is -inf, the standard deviation is
    that of the GP. *)
Definition demo_pe2 : penv Z Z unit unit nat unit :=
  mkPenv (fun _ x => (x <=? 2)%Z) (fun _ x => nz (10 * x)) (fun _ x => nz 4)
    (fun _ _ => [nz 10]) (fun _ _ => [nz 1]) (fun _ v => v) (fun _ v => v) (fun _ x => (1 <=? x)%Z)
    (fun v => v) (fun v => neqb v (nz 0)) (fun _ => 1).
Theorem C23_trust_std_refuted :
  predict demo demo_pe2 (demo_c true 1) (nq 11 10) demo_g with_std [0; 3]%Z
  = Ok (mkPred [NInf; NInf] (Some [nz 4; nz 0]) None None).
Proof. vm_compute. reflexivity. Qed.
Print Assumptions C23_trust_std_refuted.
(** Without a classifier, [predict_is_finite] returns one entry per training point instead. *)
Theorem C23_predict_is_finite_refuted :
  forall {pt pt_ PX PY model theta box} (e : env pt pt_ PX PY model theta box) pe c (g : gpr pt pt_ PX PY model theta box) X l,
    c_classifier c = false -> predict_is_finite e pe c g X = Ok l -> length l = length (g_yall g).
Proof.
  intros pt pt_ PX PY model theta box e pe c g X l Hc H. unfold predict_is_finite in H. rewrite Hc in H.
  injection H as <-. apply repeat_length.
Qed.
Print Assumptions C23_predict_is_finite_refuted.

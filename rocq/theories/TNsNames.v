(** C151: names of parameters and nested samples. *)
From Verif Require Import MNsNames TTruth.
From Coq Require Import Lia.
Set Default Goal Selector "!".
Set Bullet Behavior "Strict Subproofs".
Open Scope nat_scope.

(** The forms of [param_names] in the documentation, for [d] parameters; the names and labels meant. *)
Definition meant (d : nat) (p : option (list pname)) (names labels : list string) : Prop :=
  match p with
  | None => generic_params_names d "x_" = Ok names /\ labels = names
  | Some l => length l = d /\ (l = map Name names /\ labels = names
                               \/ length labels = length names /\ l = map (fun q => Pair (fst q) (snd q)) (combine names labels))
  end.
Lemma pname_eqb_spec p q : reflect (p = q) (pname_eqb p q).
Proof.
  destruct p as [s|s l], q as [t|t m]; cbn.
  - destruct (String.eqb_spec s t); constructor; congruence.
  - constructor. discriminate.
  - constructor. discriminate.
  - destruct (String.eqb_spec s t); cbn; [|constructor; congruence]. destruct (String.eqb_spec l m); constructor; congruence.
Qed.

(** ** PolyChord is given exactly the names and labels meant, in order. *)
Theorem C151_polychord : forall d p names labels, 0 < d -> meant d p names labels -> polychord_names d p = Ok (combine names labels) /\ length names = d.
Proof.
  intros d p names labels Hd H. destruct p as [l|]; cbn in H.
  - destruct H as [Hl [[-> ->]|[Hn ->]]].
    + rewrite map_length in Hl. split; [|exact Hl]. destruct names as [|s names]; [cbn in Hl; lia|]. cbn [map polychord_names].
      change (Name s :: map Name names) with (map Name (s :: names)). generalize (s :: names). clear.
      induction l as [|a l IH]; [reflexivity|]. cbn. rewrite IH. reflexivity.
    + rewrite map_length, combine_length in Hl. split; [|lia].
      destruct names as [|s names]; [cbn in Hl; lia|]. destruct labels as [|t labels]; [cbn in Hl; lia|].
      cbn [combine map polychord_names fst snd].
      assert (forall l, mapM as_pair (map (fun q => Pair (fst q) (snd q)) l) = Ok l) as E.
      { induction l as [|[a b] l IH]; [reflexivity|]. cbn. rewrite IH. reflexivity. }
      exact (E ((s, t) :: combine names labels)).
  - destruct H as [H ->]. split; [|apply (generic_nodup _ _ _ H)]. cbn. rewrite H. cbn. f_equal.
    clear. induction names as [|a l IH]; [reflexivity|]. cbn. rewrite IH. reflexivity.
Qed.

(** ** UltraNest and nessai are given the names as long as they are given without labels; pairs are handed over as they are: what should be a name is a tuple. *)
Definition is_string (p : pname) : bool := match p with Name _ => true | _ => false end.
Theorem C151_ultranest : forall d p names labels, 0 < d -> meant d p names labels -> (forall l, p = Some l -> forallb is_string l = true) ->
  ultranest_names d p = Ok (map Name names).
Proof.
  intros d p names labels Hd H Hs. destruct p as [l|]; cbn in H.
  - specialize (Hs l eq_refl). destruct H as [Hl [[-> ->]|[Hn ->]]].
    + destruct names; [cbn in Hl; lia|]. reflexivity.
    + destruct names as [|s names], labels as [|t labels]; cbn in Hl, Hn, Hs; try lia; discriminate.
  - destruct H as [H ->]. cbn. rewrite H. reflexivity.
Qed.
Theorem C151_labels_refuted : forall (B : Type) d (bounds : list B) names labels l, 0 < d -> length bounds = d -> length names = d -> length labels = d ->
  l = map (fun q => Pair (fst q) (snd q)) (combine names labels) ->
  ultranest_names d (Some l) = Ok l
  /\ (forall m, nessai_model (Some l) bounds = Ok m -> forallb (fun p => negb (is_string p)) (names_of m) = true)
  /\ existsb is_string l = false.
Proof.
  intros B d bounds names labels l Hd Hb Hn Hl ->.
  assert (forall l : list (string * string), forallb (fun p => negb (is_string p)) (map (fun q => Pair (fst q) (snd q)) l) = true) as E.
  { clear. induction l as [|a l IH]; [reflexivity|]. exact IH. }
  split; [|split].
  - destruct names as [|s names], labels as [|t labels]; cbn in *; try lia. reflexivity.
  - intros m. cbn [nessai_model bind].
    assert (forall ns (bs : list B) m0, forallb (fun p => negb (is_string p)) ns = true -> forallb (fun p => negb (is_string p)) (names_of m0) = true ->
            forall m1, fill ns bs m0 = Ok m1 -> forallb (fun p => negb (is_string p)) (names_of m1) = true) as F.
    { clear. induction ns as [|n ns IH]; intros bs m0 Hn Hm m1 H; cbn in H; [injection H as <-; exact Hm|].
      destruct bs as [|b bs]; [discriminate|]. cbn in Hn. apply andb_prop in Hn as [Hn Hns].
      apply (IH bs (dset n b m0) Hns); [|exact H]. clear - Hn Hm.
      induction m0 as [|[k v] m0 IH]; cbn in *; [rewrite Hn; reflexivity|]. apply andb_prop in Hm as [H1 H2].
      destruct (pname_eqb n k); cbn; rewrite H1; [exact H2|]. apply IH. exact H2. }
    apply F; [apply E|reflexivity].
  - specialize (E (combine names labels)). clear - E. induction (map _ _) as [|p l IH]; [reflexivity|]. cbn in *.
    apply andb_prop in E as [E1 E2]. destruct (is_string p); [discriminate|]. apply IH. exact E2.
Qed.

(** ** nessai. With different names, one for each parameter: the model has each name with its own bounds, in order, and the function gets the coordinates in order. *)
Lemma dset_new {B} (k : pname) (v : B) m : ~ In k (names_of m) -> dset k v m = m ++ [(k, v)].
Proof.
  induction m as [|[k' v'] m IH]; intros H; [reflexivity|]. cbn in *. destruct (pname_eqb_spec k k') as [->|Hn].
  - exfalso. apply H. left. reflexivity.
  - rewrite IH; auto.
Qed.
Lemma fill_distinct {B} : forall names (bounds : list B) m, length names <= length bounds -> NoDup (names_of m ++ names) ->
  fill names bounds m = Ok (m ++ combine names bounds).
Proof.
  induction names as [|n names IH]; intros bounds m Hl Hd; [cbn; rewrite app_nil_r; reflexivity|].
  destruct bounds as [|b bounds]; [cbn in Hl; lia|]. cbn [fill combine].
  rewrite dset_new.
  - rewrite IH.
    + rewrite <- app_assoc. reflexivity.
    + cbn in Hl. lia.
    + unfold names_of. rewrite map_app. cbn. rewrite <- app_assoc. exact Hd.
  - apply NoDup_remove_2 in Hd. intros Hin. apply Hd. apply in_or_app. left. exact Hin.
Qed.
Lemma fst_combine_le {A B} : forall (a : list A) (b : list B), length a <= length b -> map fst (combine a b) = a.
Proof. induction a as [|x a IH]; intros [|y b] H; cbn in *; try lia; [reflexivity|reflexivity|]. f_equal. apply IH. lia. Qed.
Lemma field_combine {V} : forall (names : list pname) (v : list V), NoDup names -> length v = length names -> mapM (field (combine names v)) names = Ok v.
Proof.
  intros names v Hd Hl.
  assert (forall (pre : list pname) (w : list V) ns (x : list V), NoDup (ns ++ pre) -> length w = length ns -> length x = length pre ->
          mapM (field (combine (ns ++ pre) (w ++ x))) pre = Ok x) as A.
  { clear. intros pre. induction pre as [|p pre IH]; intros w ns x Hd Hw Hx; destruct x as [|a x]; cbn in Hx; try lia; [reflexivity|].
    cbn [mapM].
    assert (field (combine (ns ++ p :: pre) (w ++ a :: x)) p = Ok a) as ->.
    { clear - Hd Hw. revert w Hw. induction ns as [|n ns IH]; intros [|b w] Hw; cbn in Hw; try lia.
      - cbn. unfold field. cbn. destruct (pname_eqb_spec p p); [reflexivity|congruence].
      - cbn in Hd. inversion Hd as [|? ? Hn Hd']; subst. cbn [app combine]. unfold field. cbn [find fst].
        destruct (pname_eqb_spec p n) as [->|_].
        + exfalso. apply Hn. apply in_or_app. right. left. reflexivity.
        + apply IH; [exact Hd'|lia]. }
    cbn [bind].
    specialize (IH (w ++ [a]) (ns ++ [p]) x).
    rewrite <- !app_assoc in IH. cbn [app] in IH. rewrite IH; [reflexivity|exact Hd|rewrite !app_length; cbn; lia|lia]. }
  apply (A names [] [] v); auto.
Qed.
Theorem C151_nessai : forall (B V : Type) d (p : option (list pname)) names labels (bounds : list B), 0 < d -> length bounds = d ->
  meant d p names labels -> (forall l, p = Some l -> forallb is_string l = true) -> NoDup names ->
  exists m, nessai_model p bounds = Ok m
    /\ m = combine (map Name names) bounds
    /\ names_of m = map Name names
    /\ forall v : list V, length v = d -> coordinates m (combine (map Name names) v) = Ok v.
Proof.
  intros B V d p names labels bounds Hd Hb H Hs Hn.
  assert (length names = d) as Hl.
  { destruct (C151_polychord d p names labels Hd H) as [_ E]. exact E. }
  assert (NoDup (map Name names)) as Hn'. { apply FinFun.Injective_map_NoDup; [|exact Hn]. intros a b E. injection E. auto. }
  assert (nessai_model p bounds = fill (map Name names) bounds []) as E.
  { destruct p as [l|]; cbn [meant] in H; unfold nessai_model.
    - specialize (Hs l eq_refl). destruct H as [Hl' [[-> ->]|[Hll ->]]]; [reflexivity|].
      destruct names as [|s names], labels as [|t labels]; cbn in Hl, Hll, Hs; try lia; discriminate.
    - destruct H as [H _]. rewrite Hb, H. reflexivity. }
  exists (combine (map Name names) bounds). split; [|split; [reflexivity|split]].
  - rewrite E. rewrite fill_distinct; [reflexivity|rewrite map_length; lia|exact Hn'].
  - unfold names_of. apply fst_combine_le. rewrite map_length. lia.
  - intros v Hv. unfold coordinates. unfold names_of. rewrite fst_combine_le by (rewrite map_length; lia).
    apply field_combine; [exact Hn'|]. rewrite map_length. lia.
Qed.
(** So which names are used does not matter: the boxes of the prior and the function in terms of the coordinates are the same. *)
Theorem C151_renamed : forall (B V : Type) d p p' names names' labels labels' (bounds : list B), 0 < d -> length bounds = d ->
  meant d p names labels -> meant d p' names' labels' -> (forall l, p = Some l -> forallb is_string l = true) -> (forall l, p' = Some l -> forallb is_string l = true) ->
  NoDup names -> NoDup names' ->
  exists m m', nessai_model p bounds = Ok m /\ nessai_model p' bounds = Ok m' /\ map snd m = map snd m'
    /\ forall v : list V, length v = d -> coordinates m (combine (names_of m) v) = coordinates m' (combine (names_of m') v).
Proof.
  intros B V d p p' names names' labels labels' bounds Hd Hb H H' Hs Hs' Hn Hn'.
  destruct (C151_nessai B V d p names labels bounds Hd Hb H Hs Hn) as (m & E & Em & En & Ev).
  destruct (C151_nessai B V d p' names' labels' bounds Hd Hb H' Hs' Hn') as (m' & E' & Em' & En' & Ev').
  exists m, m'. split; [exact E|]. split; [exact E'|].
  destruct (C151_polychord d p names labels Hd H) as [_ L]. destruct (C151_polychord d p' names' labels' Hd H') as [_ L'].
  split.
  - subst m m'. clear - L L' Hb.
    assert (forall (ns : list pname) (bs : list B), length ns = length bs -> map snd (combine ns bs) = bs) as A.
    { induction ns as [|n ns IH]; intros [|b bs] Hl; cbn in *; try lia; [reflexivity|]. f_equal. apply IH. lia. }
    rewrite (A (map Name names)), (A (map Name names')); rewrite ?map_length; [reflexivity|lia|lia].
  - intros v Hv. rewrite En, En', Ev, Ev' by auto. reflexivity.
Qed.

(** ** What is not checked. A name given twice: the function gets points with too few coordinates, and the bounds of the first of the two are lost. *)
Lemma dset_length {B} (k : pname) (v : B) m : length (dset k v m) <= S (length m) /\ (In k (names_of m) -> length (dset k v m) = length m).
Proof.
  induction m as [|[k' v'] m IH]; cbn; [split; [lia|intros []]|]. destruct (pname_eqb_spec k k') as [->|Hn]; cbn; [split; [lia|reflexivity]|].
  destruct IH as [IH1 IH2]. split; [lia|]. intros [->|Hi]; [congruence|]. rewrite IH2; auto.
Qed.
Lemma dset_in {B} (k : pname) (v : B) m : In k (names_of (dset k v m)) /\ (forall q, In q (names_of m) -> In q (names_of (dset k v m))).
Proof.
  induction m as [|[k' v'] m [IH1 IH2]]; cbn; [split; [auto|intros q []]|]. destruct (pname_eqb_spec k k') as [->|Hn]; cbn; [auto|].
  split; [auto|]. intros q [->|Hq]; auto.
Qed.
Lemma fill_length {B} : forall names (bounds : list B) m m', fill names bounds m = Ok m' ->
  length m' <= length m + length names /\ (~ NoDup names \/ (exists q, In q names /\ In q (names_of m)) -> length m' < length m + length names).
Proof.
  induction names as [|n names IH]; intros bounds m m' H; cbn in H.
  - injection H as <-. cbn. split; [lia|]. intros [Hn|(q & [] & _)]. exfalso. apply Hn. constructor.
  - destruct bounds as [|b bounds]; [discriminate|]. destruct (dset_length n b m) as [L1 L2]. destruct (dset_in n b m) as [D1 D2].
    destruct (IH _ _ _ H) as [I1 I2]. cbn [length]. split; [lia|].
    intros [Hn|(q & Hq & Hm)].
    + destruct (in_dec (fun p q => match pname_eqb_spec p q with ReflectT _ e => left e | ReflectF _ e => right e end) n names) as [Hi|Hi].
      * assert (length m' < length (dset n b m) + length names) as A; [|lia]. apply I2. right. exists n. auto.
      * assert (length m' < length (dset n b m) + length names) as A; [|lia]. apply I2. left. intros Hd. apply Hn. constructor; auto.
    + destruct Hq as [->|Hq].
      * specialize (L2 Hm). lia.
      * assert (length m' < length (dset n b m) + length names) as A; [|lia]. apply I2. right. exists q. auto.
Qed.
Lemma mapM_length {A C} (f : A -> res C) : forall l r, mapM f l = Ok r -> length r = length l.
Proof.
  induction l as [|a l IH]; intros r H; cbn in H; [injection H as <-; reflexivity|].
  destruct (f a); [|discriminate]. cbn in H. destruct (mapM f l) as [y|]; [|discriminate]. injection H as <-. cbn. f_equal. apply IH. reflexivity.
Qed.
Theorem C151_repeated_refuted : forall (B V : Type) (l : list pname) (bounds : list B), length l <= length bounds -> ~ NoDup l ->
  exists m, nessai_model (Some l) bounds = Ok m /\ forall (x : list (pname * V)) v, coordinates m x = Ok v -> length v < length l.
Proof.
  intros B V l bounds Hl Hn.
  assert (forall (names : list pname) (bs : list B) m, length names <= length bs -> exists m', fill names bs m = Ok m') as A.
  { clear. induction names as [|n names IH]; intros [|b bs] m H; cbn in *; try lia; [eexists; reflexivity|eexists; reflexivity|]. apply IH. lia. }
  destruct (A l bounds [] Hl) as [m Hm]. exists m. split; [exact Hm|]. intros x v Hv.
  destruct (fill_length _ _ _ _ Hm) as [_ L]. unfold coordinates in Hv. apply mapM_length in Hv. unfold names_of in Hv. rewrite map_length in Hv.
  specialize (L (or_introl Hn)). cbn in L. lia.
Qed.
(** The number of names: too many raise, too few do not, and the function gets points with as many coordinates as there are names. *)
Theorem C151_number_refuted : forall (B V : Type) (l : list pname) (bounds : list B), NoDup l ->
  (length bounds < length l -> nessai_model (Some l) bounds = Err IndexError)
  /\ (length l < length bounds -> exists m, nessai_model (Some l) bounds = Ok m /\ forall v : list V, length v = length l -> coordinates m (combine l v) = Ok v).
Proof.
  intros B V l bounds Hn. split; intros Hl.
  - cbn. generalize (@nil (pname * B)) as m. clear - Hl. revert bounds Hl. induction l as [|a l IH]; intros [|b bounds] Hl m; cbn in *; try lia; [reflexivity|].
    apply IH. lia.
  - exists (combine l bounds). split.
    + cbn. rewrite fill_distinct; [reflexivity|lia|exact Hn].
    + intros v Hv. unfold coordinates, names_of. rewrite fst_combine_le by lia. apply field_combine; auto.
Qed.
(** An empty list: the run of PolyChord raises at its end, the one of UltraNest uses generic names, that of nessai has no parameters at all. *)
Theorem C151_empty_refuted : forall (B : Type) d (bounds : list B),
  polychord_names d (Some []) = Err IndexError /\ ultranest_names d (Some []) = ultranest_names d None /\ nessai_model (Some []) bounds = Ok [].
Proof. intros. repeat split. Qed.
(** A list that starts with a string is taken for a list of strings, another one for a list of pairs: the two cannot be mixed for PolyChord. *)
Theorem C151_mixed : forall d s s' t l p, In (Pair s t) l -> In (Name s') p -> String.length s' <> 2 ->
  (exists x, polychord_names d (Some (Name s' :: l)) = Err x) /\ (exists x, polychord_names d (Some (Pair s t :: p)) = Err x).
Proof.
  intros d s s' t l p Hl Hp H2. split; cbn [polychord_names].
  - assert (forall l, In (Pair s t) l -> exists x, mapM twice l = Err x) as A.
    { clear. induction l as [|q l IH]; intros []; cbn.
      - subst q. eexists. reflexivity.
      - destruct (twice q); cbn; [|eexists; reflexivity]. destruct (IH H) as [x ->]. eexists. reflexivity. }
    apply A. right. exact Hl.
  - assert (forall l, In (Name s') l -> exists x, mapM as_pair l = Err x) as A.
    { clear - H2. induction l as [|q l IH]; intros []; cbn.
      - subst q. destruct s' as [|a [|b [|c s']]]; cbn in *; try (eexists; reflexivity). lia.
      - destruct (as_pair q); cbn; [|eexists; reflexivity]. destruct (IH H) as [x ->]. eexists. reflexivity. }
    apply A. right. exact Hp.
Qed.

Example C151_case :
  polychord_names 2 None = Ok [("x_1", "x_1"); ("x_2", "x_2")]%string
  /\ polychord_names 2 (Some [Name "H0"; Name "tau"])%string = Ok [("H0", "H0"); ("tau", "tau")]%string
  /\ polychord_names 2 (Some [Pair "H0" "H_0"; Pair "tau" "\tau"])%string = Ok [("H0", "H_0"); ("tau", "\tau")]%string
  /\ nessai_model (Some [Name "H0"; Name "tau"])%string [(60, 80); (0, 1)] = Ok [(Name "H0", (60, 80)); (Name "tau", (0, 1))]%string
  /\ coordinates [(Name "H0", (60, 80)); (Name "tau", (0, 1))]%string [(Name "tau", 0); (Name "H0", 70)]%string = Ok [70; 0]
  /\ nessai_model (Some [Name "a"; Name "b"; Name "a"])%string [1; 2; 3] = Ok [(Name "a", 3); (Name "b", 2)]%string
  /\ nessai_model (Some [Name "a"; Name "b"])%string [1] = Err IndexError
  /\ polychord_names 2 (Some [Pair "H0" "H_0"; Name "tau"])%string = Err ValueError.
Proof. repeat split. Qed.
Example C151_meant_case : meant 2 (Some [Name "H0"; Name "tau"])%string ["H0"; "tau"]%string ["H0"; "tau"]%string
  /\ meant 2 (Some [Pair "H0" "H_0"; Pair "tau" "\tau"])%string ["H0"; "tau"]%string ["H_0"; "\tau"]%string
  /\ meant 2 None ["x_1"; "x_2"]%string ["x_1"; "x_2"]%string.
Proof. split; [split; [reflexivity|left; split; reflexivity]|]. split; [split; [reflexivity|right; split; reflexivity]|]. split; reflexivity. Qed.
Print Assumptions C151_polychord.
Print Assumptions C151_ultranest.
Print Assumptions C151_labels_refuted.
Print Assumptions C151_nessai.
Print Assumptions C151_renamed.
Print Assumptions C151_repeated_refuted.
Print Assumptions C151_number_refuted.
Print Assumptions C151_empty_refuted.
Print Assumptions C151_mixed.

(** C140: parameters of acquisition functions by name. *)
From Coq Require Import ZArith.
From Verif Require Import MParams.
Set Default Goal Selector "!".
Set Bullet Behavior "Strict Subproofs".
Local Open Scope string_scope.
Local Open Scope list_scope.

Section C140.
Context {plain : Type}.
Variable none : plain.
Variable is_none : plain -> bool.
Variable auto_zeta : plain -> plain -> res plain.
Notation value := (value plain).
Notation object := (object plain).
Notation heap := (list object).
Variable shown : heap -> nat -> res unit.
Implicit Types (h : heap) (l : nat) (x : object) (a k : string) (v : value).
Notation get_params := (get_params plain none).
Notation set_params := (set_params plain none shown).
Notation clone := (clone plain none is_none auto_zeta).

(** ** Vocabulary *)
(** An acquisition function is nested at most [d] deep: the parts of composites are acquisition functions, other arguments are not. *)
Fixpoint nested (d : nat) h l : Prop :=
  match d with
  | 0 => False
  | S d' => exists x, nth_error h l = Some x
      /\ (composite (kind x) = true -> forall a, In a (arguments (kind x)) -> attrs x a <> None)
      /\ forall a, In a (arguments (kind x)) ->
           (In a (parts (kind x)) -> exists l', attrs x a = Some (Ref l') /\ nested d' h l')
           /\ (~ In a (parts (kind x)) -> forall l', attrs x a <> Some (Ref l'))
  end.
(** The object that is found by going from part to part. *)
Fixpoint follow h l (path : list string) : option nat :=
  match path with
  | [] => Some l
  | a :: path' =>
      match nth_error h l with
      | Some x => if in_dec string_dec a (parts (kind x)) then match attrs x a with Some (Ref l') => follow h l' path' | _ => None end else None
      | None => None
      end
  end.
(** The name of an argument of the object that is found there. *)
Definition named (path : list string) a : string := String.concat "__" (path ++ [a]).
(** The value of an attribute, [None] if there is none. *)
Definition read h l a : value :=
  match nth_error h l with Some x => match attrs x a with Some v => v | None => Plain none end | None => Plain none end.
Definition is_argument h l a : Prop := exists x, nth_error h l = Some x /\ In a (arguments (kind x)).
(** Only that attribute of that object differs, and has that value. *)
Definition only_change h h' l a v : Prop :=
  length h' = length h
  /\ (forall x, nth_error h l = Some x -> exists x', nth_error h' l = Some x' /\ kind x' = kind x /\ attrs x' a = Some v
        /\ forall b, b <> a -> attrs x' b = attrs x b)
  /\ forall l', l' <> l -> nth_error h' l' = nth_error h l'.

(** ** Keys *)
Lemma parts_arguments c a : In a (parts c) -> In a (arguments c).
Proof. destruct c; cbn; tauto. Qed.
Definition all_classes := [CConstant; CMu; CExponentialMu; CStd; CExponentialStd; CImprovement; CLogExp; CNonlinear; CSum; CProduct; CPower].
Lemma simple_argument c a : In a (arguments c) -> split_once a = None.
Proof. intros H. destruct c; cbn [arguments In] in H; repeat (destruct H as [<-|H]; [reflexivity|]); destruct H. Qed.
Lemma split_part c a s : In a (parts c) -> split_once (a ++ "__" ++ s) = Some (a, s).
Proof. intros H. destruct c; cbn [parts In] in H; repeat (destruct H as [<-|H]; [reflexivity|]); destruct H. Qed.
Lemma split_sound : forall s p r, split_once s = Some (p, r) -> s = (p ++ "__" ++ r)%string.
Proof.
  induction s as [|c s IH]; intros p r H; [discriminate|]. cbn [split_once] in H. destruct s as [|c2 s']; [discriminate|].
  destruct ((c =? "_")%char && (c2 =? "_")%char)%bool eqn:E.
  - injection H as <- <-. apply andb_true_iff in E as [E1 E2]. apply Ascii.eqb_eq in E1, E2. subst. reflexivity.
  - destruct (split_once (String c2 s')) as [[p' r']|]; [|discriminate]. cbn in H. injection H as <- <-.
    rewrite (IH p' r' eq_refl). reflexivity.
Qed.
Lemma append_assoc : forall s t u, ((s ++ t) ++ u = s ++ (t ++ u))%string.
Proof. induction s as [|c s IH]; intros t u; [reflexivity|]. cbn. rewrite IH. reflexivity. Qed.
Lemma append_longer s t : (s ++ "__" ++ t)%string <> s.
Proof. induction s as [|c s IH]; [discriminate|]. cbn. intros H. injection H as H. exact (IH H). Qed.
Lemma named_nil a : named [] a = a. Proof. reflexivity. Qed.
Lemma named_cons b path a : named (b :: path) a = (b ++ "__" ++ named path a)%string.
Proof. unfold named. destruct path; reflexivity. Qed.

(** ** Memory *)
Lemma setattr_change h l a v : l < length h -> only_change h (setattr h l a v) l a v.
Proof.
  intros L. split; [|split].
  - clear L. revert l. induction h as [|x h IH]; intros [|l]; cbn; auto.
  - intros x Hx. clear L. revert l Hx. induction h as [|y h IH]; intros [|l] Hx; try discriminate; cbn in *.
    + injection Hx as <-. eexists. split; [reflexivity|]. cbn. split; [reflexivity|]. rewrite String.eqb_refl. split; [reflexivity|].
      intros b Hb. apply String.eqb_neq in Hb. rewrite Hb. reflexivity.
    + apply IH. exact Hx.
  - intros l' Hl. clear L. revert l l' Hl. induction h as [|y h IH]; intros [|l] [|l'] Hl; cbn; auto; congruence.
Qed.

(** ** Reading *)
Lemma lookup_app k (m m' : list (string * value)) : lookup k (m ++ m') = match lookup k m with Some v => Some v | None => lookup k m' end.
Proof. unfold lookup. induction m as [|[b w] m IH]; [reflexivity|]. cbn. destruct (b =? k)%string; [reflexivity|exact IH]. Qed.
Lemma lookup_map (f : string -> string) k (m : list (string * value)) : (forall b c, f b = f c -> b = c) ->
  lookup (f k) (map (fun q => (f (fst q), snd q)) m) = lookup k m.
Proof.
  intros Hf. unfold lookup. induction m as [|[b w] m IH]; [reflexivity|]. cbn.
  assert ((f b =? f k)%string = (b =? k)%string) as ->.
  { destruct (b =? k)%string eqn:E; [apply String.eqb_eq in E; subst; apply String.eqb_refl|].
    apply String.eqb_neq in E. apply String.eqb_neq. intros E'. apply E, Hf, E'. }
  destruct (b =? k)%string; [reflexivity|exact IH].
Qed.
Lemma prefix_inj a b c : (a ++ "__" ++ b)%string = (a ++ "__" ++ c)%string -> b = c.
Proof. induction a as [|x a IH]; cbn; intros H; [injection H as H; exact H|]. injection H as H. auto. Qed.
Lemma lookup_none k (m : list (string * value)) : (forall q, In q m -> fst q <> k) -> lookup k m = None.
Proof.
  unfold lookup. induction m as [|q m IH]; intros H; [reflexivity|]. cbn.
  rewrite (proj2 (String.eqb_neq _ _) (H q (or_introl eq_refl))). apply IH. intros q' Hq. apply H. right. exact Hq.
Qed.
Lemma lookup_in k v (m : list (string * value)) : lookup k m = Some v -> In (k, v) m.
Proof.
  unfold lookup. induction m as [|[b w] m IH]; [discriminate|]. cbn. destruct (b =? k)%string eqn:E; cbn.
  - intros H. injection H as <-. apply String.eqb_eq in E. subst. auto.
  - auto.
Qed.
(** What [get_params] consists of. *)
Definition deep_params d h x (a : string) : res (list (string * value)) :=
  do v <- attr plain x a;
  match v with
  | Plain _ => Err AttributeError
  | Ref l' => do m <- get_params d h l'; Ok (map (fun q => ((a ++ "__" ++ fst q)%string, snd q)) m)
  end.
Lemma own_ok x : (composite (kind x) = true -> forall a, In a (arguments (kind x)) -> attrs x a <> None) ->
  own_params plain none x = Ok (map (fun a => (a, match attrs x a with Some v => v | None => Plain none end)) (arguments (kind x))).
Proof.
  intros H. unfold own_params. destruct (composite (kind x)); [|reflexivity]. specialize (H eq_refl). revert H. generalize (arguments (kind x)).
  induction l as [|a l IH]; intros H; [reflexivity|]. cbn. unfold attr at 1. destruct (attrs x a) eqn:E; [|destruct (H a (or_introl eq_refl) E)].
  cbn. rewrite IH; [reflexivity|]. intros b Hb. apply H. right. exact Hb.
Qed.
Lemma get_nested : forall d h l, nested d h l -> exists m, get_params d h l = Ok m.
Proof.
  induction d as [|d IH]; intros h l H; [destruct H|]. destruct H as (x & Hx & Hc & Ha). cbn [MParams.get_params]. rewrite Hx.
  rewrite (own_ok x Hc). cbn [bind].
  assert (forall ps, (forall a, In a ps -> In a (parts (kind x))) -> exists ms, mapM (deep_params d h x) ps = Ok ms) as M.
  { induction ps as [|a ps IHp]; intros Hp; [eexists; reflexivity|]. cbn [mapM].
    pose proof (Hp a (or_introl eq_refl)) as Hin. destruct (proj1 (Ha a (parts_arguments _ _ Hin)) Hin) as (l' & El & Hn).
    unfold deep_params at 1, attr. rewrite El. cbn [bind]. destruct (IH h l' Hn) as [m ->]. cbn [bind].
    destruct IHp as [ms ->]; [intros b Hb; apply Hp; right; exact Hb|]. eexists. reflexivity. }
  destruct (M (parts (kind x)) (fun a H => H)) as [ms E]. unfold deep_params in E. rewrite E. eexists. reflexivity.
Qed.
Lemma get_inv d h l m : nested (S d) h l -> get_params (S d) h l = Ok m -> exists x ms, nth_error h l = Some x
  /\ mapM (deep_params d h x) (parts (kind x)) = Ok ms
  /\ m = map (fun a => (a, read h l a)) (arguments (kind x)) ++ concat ms.
Proof.
  intros (x & Hx & Hc & _) H. cbn [MParams.get_params] in H. rewrite Hx in H. rewrite (own_ok x Hc) in H. cbn [bind] in H.
  fold (deep_params d h x) in H. change (mapM _ (parts (kind x))) with (mapM (deep_params d h x) (parts (kind x))) in H.
  destruct (mapM (deep_params d h x) (parts (kind x))) as [ms|] eqn:Em; [|discriminate]. cbn [bind] in H. injection H as <-.
  exists x, ms. split; [exact Hx|]. split; [exact Em|]. unfold read. rewrite Hx. reflexivity.
Qed.
Lemma deep_in d h x : forall ps ms k v, mapM (deep_params d h x) ps = Ok ms -> In (k, v) (concat ms) ->
  exists b l' m k', In b ps /\ attrs x b = Some (Ref l') /\ get_params d h l' = Ok m /\ In (k', v) m /\ k = (b ++ "__" ++ k')%string.
Proof.
  induction ps as [|b ps IH]; intros ms k v E H; cbn [mapM] in E; [injection E as <-; destruct H|].
  destruct (deep_params d h x b) as [mb|] eqn:Eb; [|discriminate]. cbn [bind] in E.
  destruct (mapM (deep_params d h x) ps) as [ms'|]; [|discriminate]. injection E as <-. cbn [concat] in H.
  apply in_app_or in H as [H|H].
  - unfold deep_params, attr in Eb. destruct (attrs x b) as [[p|l']|] eqn:Ea; try discriminate. cbn [bind] in Eb.
    destruct (get_params d h l') as [m|] eqn:Em; [|discriminate]. injection Eb as <-. apply in_map_iff in H as ([k' w] & E & H). injection E as <- <-.
    exists b, l', m, k'. split; [left; reflexivity|]. auto.
  - destruct (IH ms' k v eq_refl H) as (b' & l' & m & k' & H1 & H2). exists b', l', m, k'. split; [right; exact H1|exact H2].
Qed.
Lemma deep_lookup d h x c b l' mb k v : attrs x b = Some (Ref l') -> get_params d h l' = Ok mb -> lookup k mb = Some v ->
  forall ps ms, (forall a, In a ps -> In a (parts c)) -> mapM (deep_params d h x) ps = Ok ms -> In b ps ->
  lookup (b ++ "__" ++ k) (concat ms) = Some v.
Proof.
  intros Hb Hm Hk. induction ps as [|a ps IH]; intros ms Hp E Hin; [destruct Hin|]. cbn [mapM] in E.
  destruct (deep_params d h x a) as [ma|] eqn:Ea; [|discriminate]. cbn [bind] in E.
  destruct (mapM (deep_params d h x) ps) as [ms'|]; [|discriminate]. injection E as <-. cbn [concat]. rewrite lookup_app.
  unfold deep_params, attr in Ea. destruct (attrs x a) as [[p|la]|] eqn:Eaa; try discriminate. cbn [bind] in Ea.
  destruct (get_params d h la) as [m|] eqn:Em; [|discriminate].
  assert (ma = map (fun q => ((a ++ "__" ++ fst q)%string, snd q)) m) as -> by (injection Ea as Ea; symmetry; exact Ea). clear Ea.
  destruct (string_dec a b) as [->|N].
  - rewrite Hb in Eaa. injection Eaa as ->. rewrite Hm in Em. injection Em as <-.
    rewrite (lookup_map (fun s => b ++ "__" ++ s)%string k mb (prefix_inj b)), Hk. reflexivity.
  - rewrite lookup_none.
    + apply IH; [intros a' Ha'; apply Hp; right; exact Ha'|reflexivity|]. destruct Hin as [Hin|Hin]; [congruence|exact Hin].
    + intros q Hq Eq. apply in_map_iff in Hq as (q' & <- & _). cbn [fst] in Eq. apply (f_equal split_once) in Eq.
      rewrite (split_part c a (fst q')), (split_part c b k) in Eq; [congruence| |]; apply Hp; [exact Hin|left; reflexivity].
Qed.
Lemma own_lookup h l c k : lookup k (map (fun a => (a, read h l a)) (arguments c)) = if in_dec string_dec k (arguments c) then Some (read h l k) else None.
Proof.
  generalize (arguments c). induction l0 as [|a l0 IH]; [reflexivity|]. unfold lookup in *. cbn [map find fst].
  destruct (string_dec a k) as [->|N].
  - rewrite String.eqb_refl. destruct (in_dec string_dec k (k :: l0)) as [_|H]; [reflexivity|]. destruct H. left. reflexivity.
  - rewrite (proj2 (String.eqb_neq a k) N), IH. destruct (in_dec string_dec k l0) as [H|H], (in_dec string_dec k (a :: l0)) as [H'|H']; auto.
    + destruct H'. right. exact H.
    + destruct H' as [H'|H']; contradiction.
Qed.
Lemma get_in : forall d h l m k v, nested d h l -> get_params d h l = Ok m -> In (k, v) m ->
  exists path l' a, follow h l path = Some l' /\ is_argument h l' a /\ k = named path a /\ v = read h l' a.
Proof.
  induction d as [|d IH]; intros h l m k v N E H; [destruct N|].
  pose proof N as (y & Hy & Hc & Ha). apply get_inv in E as (x & ms & Hx & Ems & ->); [|exact N].
  rewrite Hy in Hx. injection Hx as <-. apply in_app_or in H as [H|H].
  - apply in_map_iff in H as (a & E & H). injection E as <- <-. exists [], l, a. split; [reflexivity|]. split; [exists y; auto|]. auto.
  - apply (deep_in d h y) with (ps := parts (kind y)) in H as (b & l' & mb & k' & Hb & El & Eg & Hin & ->); [|exact Ems].
    destruct (proj1 (Ha b (parts_arguments _ _ Hb)) Hb) as (l2 & E2 & N2). rewrite El in E2. injection E2 as <-.
    destruct (IH h l' mb k' v N2 Eg Hin) as (path & l3 & a & Hf & Hi & -> & ->). exists (b :: path), l3, a.
    split; [|split; [exact Hi|]; split; [symmetry; apply named_cons|reflexivity]].
    cbn [follow]. rewrite Hy, El. destruct (in_dec _ _ _); [exact Hf|contradiction].
Qed.
(** Reading a parameter by its name gives the attribute of the object that is meant. *)
Lemma get_lookup : forall d h l m k v, nested d h l -> get_params d h l = Ok m ->
  (lookup k m = Some v <-> exists path l' a, follow h l path = Some l' /\ is_argument h l' a /\ k = named path a /\ v = read h l' a).
Proof.
  intros d h l m k v N E. split; [intros H; eapply get_in; eauto; apply lookup_in; exact H|].
  revert h l m k v N E. induction d as [|d IH]; intros h l m k v N E; [destruct N|].
  pose proof N as (y & Hy & Hc & Ha). apply get_inv in E as (x & ms & Hx & Ems & ->); [|exact N].
  rewrite Hy in Hx. injection Hx as <-.
  intros (path & l' & a & Hf & Hi & -> & ->). rewrite lookup_app, own_lookup. destruct path as [|b path].
  - cbn in Hf. injection Hf as <-. rewrite named_nil. destruct Hi as (x & Hx & Hi). rewrite Hy in Hx. injection Hx as <-.
      destruct (in_dec _ _ _); [reflexivity|contradiction].
  - cbn [follow] in Hf. rewrite Hy in Hf. destruct (in_dec string_dec b (parts (kind y))) as [Hb|]; [|discriminate].
      destruct (attrs y b) as [[|l1]|] eqn:Eb; try discriminate. rewrite named_cons.
      destruct (in_dec _ _ _) as [Hx|_].
      { apply simple_argument in Hx. rewrite (split_part (kind y)) in Hx by exact Hb. discriminate. }
      destruct (proj1 (Ha b (parts_arguments _ _ Hb)) Hb) as (l2 & E2 & N2). rewrite Eb in E2. injection E2 as <-.
      destruct (get_nested d h l1 N2) as [mb Eg].
      apply (deep_lookup d h y (kind y) b l1 mb) with (ps := parts (kind y)); try assumption; [|auto].
      apply (IH h l1 mb _ _ N2 Eg). exists path, l', a. auto.
Qed.
(** C140. *)
Theorem C140_get :
  forall d h l, nested d h l -> exists m, get_params d h l = Ok m
    /\ forall k v, lookup k m = Some v <-> exists path l' a, follow h l path = Some l' /\ is_argument h l' a /\ k = named path a /\ v = read h l' a.
Proof. intros d h l N. destruct (get_nested d h l N) as [m E]. exists m. split; [exact E|]. intros k v. apply (get_lookup d h l m k v N E). Qed.

(** ** Setting *)
Lemma nth_lt h l x : nth_error h l = Some x -> l < length h.
Proof. intros H. apply nth_error_Some. congruence. Qed.
Lemma set_one : forall path d h l l' a v, nested d h l -> follow h l path = Some l' -> is_argument h l' a ->
  set_params d h l [(named path a, v)] = (setattr h l' a v, Ok tt).
Proof.
  induction path as [|b path IH]; intros d h l l' a v N Hf Hi.
  - cbn in Hf. injection Hf as <-. rewrite named_nil. destruct (get_nested d h l N) as [m E].
    assert (lookup a m = Some (read h l a)) as L.
    { apply (get_lookup d h l m _ _ N E). exists [], l, a. split; [reflexivity|]. split; [exact Hi|]. auto. }
    destruct d as [|d]; [destruct N|]. cbn [MParams.set_params]. rewrite E. cbn [fold_left fst snd].
    destruct Hi as (x & _ & Hi). rewrite (simple_argument _ _ Hi), L. reflexivity.
  - destruct (get_nested d h l N) as [m E]. destruct d as [|d]; [destruct N|].
    pose proof N as (y & Hy & Hc & Ha). cbn [follow] in Hf. rewrite Hy in Hf.
    destruct (in_dec string_dec b (parts (kind y))) as [Hb|]; [|discriminate].
    destruct (attrs y b) as [[|l1]|] eqn:Eb; try discriminate. rewrite named_cons.
    destruct (proj1 (Ha b (parts_arguments _ _ Hb)) Hb) as (l2 & E2 & N2). rewrite Eb in E2. injection E2 as <-.
    assert (lookup b m = Some (Ref l1)) as L.
    { apply (get_lookup _ h l m _ _ N E). exists [], l, b. split; [reflexivity|]. split; [exists y; split; [exact Hy|apply parts_arguments, Hb]|].
      split; [reflexivity|]. unfold read. rewrite Hy, Eb. reflexivity. }
    cbn [MParams.set_params]. rewrite E. cbn [fold_left fst snd]. rewrite (split_part (kind y)) by exact Hb. rewrite L.
    apply IH; assumption.
Qed.
Theorem C140_set :
  forall d h l path l' a v, nested d h l -> follow h l path = Some l' -> is_argument h l' a ->
    exists h', set_params d h l [(named path a, v)] = (h', Ok tt) /\ only_change h h' l' a v.
Proof.
  intros d h l path l' a v N Hf Hi. eexists. split; [apply set_one; eassumption|]. apply setattr_change.
  destruct Hi as (x & Hx & _). eapply nth_lt; eauto.
Qed.
(** A name that does not denote anything: the call raises and changes nothing. *)
Theorem C140_unknown :
  forall d h l k v, nested d h l -> (forall path l' a, follow h l path = Some l' -> is_argument h l' a -> k <> named path a) ->
    exists e, set_params d h l [(k, v)] = (h, Err e).
Proof.
  induction d as [|d IH]; intros h l k v N Hk; [destruct N|]. destruct (get_nested _ h l N) as [m E].
  pose proof N as (y & Hy & Hc & Ha).
  cbn [MParams.set_params]. rewrite E. cbn [fold_left fst snd]. destruct (split_once k) as [[p s]|] eqn:Es.
  - destruct (lookup p m) as [[|l1]|] eqn:L; [eexists; reflexivity| |].
    + apply (get_lookup _ h l m _ _ N E) in L as (path & l' & a & Hf & (x & Hx & Hi) & -> & Er).
      pose proof Es as Es'. apply split_sound in Es. rewrite Es in Es'.
      destruct path as [|b path].
      2: { exfalso. cbn [follow] in Hf. rewrite Hy in Hf. destruct (in_dec string_dec b (parts (kind y))) as [Hb|]; [|discriminate].
           rewrite named_cons in *. rewrite !append_assoc in Es'. rewrite (split_part (kind y)) in Es' by exact Hb. injection Es' as E' _.
           symmetry in E'. exact (append_longer _ _ E'). }
      cbn in Hf. injection Hf as <-. rewrite Hy in Hx. injection Hx as <-. rewrite named_nil in *.
      unfold read in Er. rewrite Hy in Er. destruct (in_dec string_dec a (parts (kind y))) as [Hp|Hp].
      * destruct (proj1 (Ha a Hi) Hp) as (l2 & E2 & N2). rewrite E2 in Er. injection Er as ->. apply IH; [exact N2|].
        intros path l' b Hf Hi' ->. apply (Hk (a :: path) l' b).
        -- cbn [follow]. rewrite Hy, E2. destruct (in_dec _ _ _); [exact Hf|contradiction].
        -- exact Hi'.
        -- rewrite named_cons. exact Es.
      * exfalso. destruct (attrs y a) as [[|l2]|] eqn:E2; try discriminate. apply (proj2 (Ha a Hi) Hp l2). exact E2.
    + destruct (shown h l); eexists; reflexivity.
  - destruct (lookup k m) as [w|] eqn:L; [|eexists; reflexivity]. exfalso.
    apply (get_lookup _ h l m _ _ N E) in L as (path & l' & a & Hf & Hi & -> & _). apply (Hk path l' a Hf Hi). reflexivity.
Qed.

(** ** Writing back *)
(** Memory of the same shape in which every attribute reads the same. *)
Definition reads_as h h' : Prop :=
  length h' = length h
  /\ forall l x, nth_error h l = Some x -> exists x', nth_error h' l = Some x' /\ kind x' = kind x
       /\ forall a, attrs x' a = attrs x a \/ (attrs x a = None /\ attrs x' a = Some (Plain none)).
Lemma reads_as_refl h : reads_as h h.
Proof. split; [reflexivity|]. intros l x Hx. exists x. split; [exact Hx|]. split; [reflexivity|]. intros a. left. reflexivity. Qed.
Lemma reads_as_read h h' l a : reads_as h h' -> read h' l a = read h l a.
Proof.
  intros [L H]. unfold read. destruct (nth_error h l) as [x|] eqn:E.
  - destruct (H l x E) as (x' & -> & _ & Ha). destruct (Ha a) as [->|[-> ->]]; reflexivity.
  - apply nth_error_None in E. rewrite <- L in E. apply nth_error_None in E. rewrite E. reflexivity.
Qed.
Lemma reads_as_nested h h' : reads_as h h' -> forall d l, nested d h l -> nested d h' l.
Proof.
  intros [L H]. induction d as [|d IH]; intros l N; [destruct N|]. destruct N as (x & Hx & Hc & Ha).
  destruct (H l x Hx) as (x' & Hx' & Ek & Hr). exists x'. split; [exact Hx'|]. rewrite Ek. split.
  - intros C a Ia. destruct (Hr a) as [->|[_ ->]]; [apply Hc; assumption|discriminate].
  - intros a Ia. split.
    + intros Ip. destruct (proj1 (Ha a Ia) Ip) as (l' & E & N'). exists l'. split; [|apply IH, N'].
      destruct (Hr a) as [->|[E' _]]; [exact E|congruence].
    + intros Ip l' E. destruct (Hr a) as [E'|[_ E']]; [|congruence]. apply (proj2 (Ha a Ia) Ip l'). congruence.
Qed.
Lemma reads_as_follow h h' : reads_as h h' -> forall path l, follow h' l path = follow h l path.
Proof.
  intros [L H]. induction path as [|b path IH]; intros l; [reflexivity|]. cbn [follow].
  destruct (nth_error h l) as [x|] eqn:E.
  - destruct (H l x E) as (x' & -> & -> & Ha). destruct (in_dec string_dec b (parts (kind x))); [|reflexivity].
    destruct (Ha b) as [->|[-> ->]]; [|reflexivity]. destruct (attrs x b) as [[|l']|]; auto.
  - apply nth_error_None in E. rewrite <- L in E. apply nth_error_None in E. rewrite E. reflexivity.
Qed.
Lemma reads_as_set h h' l a : l < length h -> reads_as h h' -> reads_as h (setattr h' l a (read h l a)).
Proof.
  intros Hl [L H]. pose proof (setattr_change h' l a (read h l a)) as C. rewrite L in C. destruct (C Hl) as (L' & Hs & Ho).
  split; [congruence|]. intros l0 x Hx. destruct (H l0 x Hx) as (x' & Hx' & Ek & Ha).
  destruct (Nat.eq_dec l0 l) as [->|Hn].
  - destruct (Hs x' Hx') as (x2 & E2 & K2 & A2 & B2). exists x2. split; [exact E2|]. split; [congruence|]. intros b.
    destruct (string_dec b a) as [->|Hb].
    + rewrite A2. unfold read. rewrite Hx. destruct (attrs x a); [left|right]; auto.
    + rewrite (B2 b Hb). apply Ha.
  - exists x'. split; [rewrite Ho by congruence; exact Hx'|]. split; [exact Ek|exact Ha].
Qed.
(** [f.set_params( **f.get_params())] changes nothing (a missing attribute may be there as [None] afterwards, which is what reading
    it gave before). *)
Theorem C140_again :
  forall d h l, nested d h l -> exists m h', get_params d h l = Ok m /\ set_params d h l m = (h', Ok tt) /\ reads_as h h'.
Proof.
  intros d h l N. destruct (get_nested d h l N) as [m E]. exists m.
  assert (exists h', set_params d h l m = (h', Ok tt) /\ reads_as h h') as (h' & A & B); [|exists h'; auto].
  pose proof (fun k v => proj1 (get_lookup d h l m k v N E)) as G.
  pose proof (fun k v => proj2 (get_lookup d h l m k v N E)) as G'.
  assert (forall q, In q m -> exists path l' a, follow h l path = Some l' /\ is_argument h l' a /\ fst q = named path a /\ snd q = read h l' a) as GI.
  { intros [k v] Hq. exact (get_in d h l m k v N E Hq). }
  destruct d as [|d]; [destruct N|]. cbn [MParams.set_params]. destruct m as [|q0 m0].
  { exists h. split; [reflexivity|apply reads_as_refl]. }
  rewrite E. clear E. remember (q0 :: m0) as valid eqn:Ev. clear Ev.
  match goal with |- context [fold_left ?f valid (h, Ok tt)] =>
    enough (forall ps h1, reads_as h h1 -> (forall q, In q ps -> In q valid) -> exists h', fold_left f ps (h1, Ok tt) = (h', Ok tt) /\ reads_as h h') as Q
      by (apply Q; [apply reads_as_refl|auto]) end.
  induction ps as [|[k v] ps IH]; intros h1 R Hin.
  { exists h1. split; [reflexivity|exact R]. }
  cbn [fold_left fst snd].
  destruct (GI (k, v) (Hin _ (or_introl eq_refl))) as (path & l' & a & Hf & Hi & Ek & Ev). cbn [fst snd] in Ek, Ev. subst k v.
  assert (l' < length h) as Hl' by (destruct Hi as (x & Hx & _); eapply nth_lt; eauto).
  destruct path as [|b path].
  - cbn in Hf. injection Hf as <-. rewrite named_nil.
    rewrite (G' a (read h l a)).
    2: { exists [], l, a. split; [reflexivity|]. split; [exact Hi|]. auto. }
    destruct Hi as (x & Hx & Hi). rewrite (simple_argument _ _ Hi).
    apply IH; [apply reads_as_set; assumption|intros q Hq; apply Hin; right; exact Hq].
  - pose proof N as (y & Hy & Hc & Ha). pose proof Hf as Hf0. cbn [follow] in Hf. rewrite Hy in Hf.
    destruct (in_dec string_dec b (parts (kind y))) as [Hb|]; [|discriminate].
    destruct (attrs y b) as [[|l1]|] eqn:Eb; try discriminate. rewrite named_cons, (split_part (kind y)) by exact Hb.
    destruct (proj1 (Ha b (parts_arguments _ _ Hb)) Hb) as (l2 & E2 & N2). rewrite Eb in E2. injection E2 as <-.
    rewrite (G' b (Ref l1)).
    2: { exists [], l, b. split; [reflexivity|]. split; [exists y; split; [exact Hy|apply parts_arguments, Hb]|].
         split; [reflexivity|]. unfold read. rewrite Hy, Eb. reflexivity. }
    rewrite (set_one path d h1 l1 l' a).
    + apply IH; [apply reads_as_set; assumption|intros q Hq; apply Hin; right; exact Hq].
    + apply (reads_as_nested h h1 R). exact N2.
    + rewrite (reads_as_follow h h1 R). exact Hf.
    + destruct Hi as (x & Hx & Hi). destruct (proj2 R l' x Hx) as (x' & Hx' & Ek & _). exists x'. rewrite Ek. auto.
Qed.

(** ** Effects on other objects *)
(** The objects that can be reached by reading arguments. *)
Inductive reaches h : nat -> nat -> Prop :=
| reaches_here l : reaches h l l
| reaches_on l x a l' l'' : nth_error h l = Some x -> In a (arguments (kind x)) -> attrs x a = Some (Ref l') -> reaches h l' l'' -> reaches h l l''.
(** Calls one after the other; whether they raise or not. *)
Definition calls (d : nat) h l (pss : list (list (string * value))) : heap :=
  fold_left (fun h ps => fst (set_params d h l ps)) pss h.
Definition plain_values (ps : list (string * value)) : Prop := forall q, In q ps -> exists p, snd q = Plain p.
Lemma own_in x own k v : own_params plain none x = Ok own -> In (k, v) own -> In k (arguments (kind x)) /\ (attrs x k = Some v \/ attrs x k = None /\ v = Plain none).
Proof.
  unfold own_params. destruct (composite (kind x)).
  - generalize (arguments (kind x)) as l. intros l. revert own. induction l as [|a l IH]; intros own E Hi; cbn in E.
    + injection E as <-. destruct Hi.
    + unfold attr at 1 in E. destruct (attrs x a) as [w|] eqn:Ew; [|discriminate]. cbn [bind] in E.
      destruct (mapM _ l) as [r|]; [|discriminate]. cbn [bind] in E. injection E as <-. destruct Hi as [Hi|Hi].
      * injection Hi as <- <-. split; [left; reflexivity|]. left. exact Ew.
      * destruct (IH r eq_refl Hi). split; [right; assumption|assumption].
  - intros E Hi. injection E as <-. apply in_map_iff in Hi as (a & Ea & Ia). injection Ea as <- <-. split; [exact Ia|].
    unfold attr_or_none. destruct (attrs x a); [left|right]; auto.
Qed.
Lemma get_reaches : forall d h l m k l', get_params d h l = Ok m -> In (k, Ref l') m -> reaches h l l'.
Proof.
  induction d as [|d IH]; intros h l m k l' E Hi; [discriminate|]. cbn [MParams.get_params] in E.
  destruct (nth_error h l) as [x|] eqn:Ex; [|discriminate]. destruct (own_params plain none x) as [own|] eqn:Eo; [|discriminate].
  cbn [bind] in E. destruct (mapM _ (parts (kind x))) as [deep|] eqn:Ed; [|discriminate]. cbn [bind] in E. injection E as <-.
  apply in_app_iff in Hi as [Hi|Hi].
  - destruct (own_in x own k _ Eo Hi) as [Ha [Hv|[_ Hv]]]; [|discriminate].
    eapply reaches_on; [exact Ex|exact Ha|exact Hv|apply reaches_here].
  - assert (forall a, In a (parts (kind x)) -> In a (arguments (kind x))) as Hp by (intros a; apply parts_arguments).
    revert deep Ed Hi Hp. generalize (parts (kind x)) as ps. induction ps as [|a ps IHp]; intros deep Ed Hi Hp; cbn in Ed.
    + injection Ed as <-. destruct Hi.
    + unfold attr at 1 in Ed. destruct (attrs x a) as [[|l1]|] eqn:Ea; [discriminate| |discriminate]. cbn [bind] in Ed.
      destruct (get_params d h l1) as [m1|] eqn:E1; [|discriminate]. cbn [bind] in Ed.
      destruct (mapM _ ps) as [r|]; [|discriminate]. cbn [bind] in Ed. injection Ed as <-.
      cbn [concat] in Hi. apply in_app_iff in Hi as [Hi|Hi].
      * apply in_map_iff in Hi as ([k1 v1] & Eq & Hq). injection Eq as _ Ev. cbn in Ev. subst v1.
        eapply reaches_on; [exact Ex|apply Hp; left; reflexivity|exact Ea|]. eapply IH; eauto.
      * apply (IHp r eq_refl Hi). intros b Hb. apply Hp. right. exact Hb.
Qed.
Lemma lookup_in_list k (m : list (string * value)) v : lookup k m = Some v -> exists k', In (k', v) m.
Proof.
  unfold lookup. destruct (find _ m) as [[k' w]|] eqn:E; [|discriminate]. cbn. intros H. injection H as <-.
  apply find_some in E as [E _]. exists k'. exact E.
Qed.
(** What calls with plain values on the object [l] may do: only objects that [l] reaches are touched, and no object reaches more. *)
Definition tame h h' l : Prop :=
  (forall l0, ~ reaches h l l0 -> nth_error h' l0 = nth_error h l0) /\ (forall l1 l2, reaches h' l1 l2 -> reaches h l1 l2).
Lemma tame_refl h l : tame h h l. Proof. split; auto. Qed.
Lemma reaches_trans h l1 l2 l3 : reaches h l1 l2 -> reaches h l2 l3 -> reaches h l1 l3.
Proof. induction 1 as [|l x a l' l'' Hx Ha Er _ IH]; intros H; [exact H|]. eapply reaches_on; eauto. Qed.
Lemma tame_trans h h1 h2 l l1 : tame h h1 l -> tame h1 h2 l1 -> reaches h l l1 -> tame h h2 l.
Proof.
  intros [A B] [A' B'] R. split; [|auto]. intros l0 H. rewrite A'; [apply A, H|]. intros H'. apply H. eapply reaches_trans; [exact R|apply B, H'].
Qed.
Lemma tame_set h l a p : tame h (setattr h l a (Plain p)) l.
Proof.
  destruct (Nat.lt_ge_cases l (length h)) as [Hl|Hl].
  - destruct (setattr_change h l a (Plain p) Hl) as (L & Hs & Ho). split.
    + intros l0 H. apply Ho. intros ->. apply H, reaches_here.
    + intros l1 l2 R. induction R as [l1|l1 x b l' l'' Hx Hb Er _ IH]; [apply reaches_here|].
      destruct (Nat.eq_dec l1 l) as [->|Hn].
      * destruct (nth_error h l) as [y|] eqn:Ey; [|apply nth_error_None in Ey; lia].
        destruct (Hs y eq_refl) as (x' & Ex & Ek & Ea & Eb). assert (x' = x) as -> by congruence.
        destruct (string_dec b a) as [->|Hba]; [congruence|].
        eapply reaches_on; [exact Ey|rewrite <- Ek; exact Hb|rewrite <- Eb by exact Hba; exact Er|exact IH].
      * rewrite Ho in Hx by exact Hn. eapply reaches_on; eauto.
  - assert (setattr h l a (Plain p) = h) as ->; [|apply tame_refl].
    revert l Hl. induction h as [|y h IH]; intros [|l] Hl; cbn in *; try reflexivity; try lia. rewrite IH by lia. reflexivity.
Qed.
Lemma set_tame : forall d h l ps, plain_values ps -> tame h (fst (set_params d h l ps)) l.
Proof.
  induction d as [|d IH]; intros h l ps Hp; [apply tame_refl|]. cbn [MParams.set_params]. destruct ps as [|q0 ps0]; [apply tame_refl|].
  destruct (get_params (S d) h l) as [valid|] eqn:E; [|apply tame_refl]. revert Hp. generalize (q0 :: ps0) as ps. intros ps Hp.
  match goal with |- context [fold_left ?f ps (h, Ok tt)] =>
    enough (forall h1 r, tame h h1 l -> tame h (fst (fold_left f ps (h1, r))) l) as Q by (apply Q, tame_refl) end.
  induction ps as [|[k v] ps IHp]; intros h1 r T; [exact T|]. cbn [fold_left fst snd].
  assert (plain_values ps) as Hp' by (intros q Hq; apply Hp; right; exact Hq).
  destruct (Hp (k, v) (or_introl eq_refl)) as [p Ep]. cbn in Ep. subst v.
  destruct r as [u|e]; [|exact (IHp Hp' h1 (Err e) T)].
  destruct (split_once k) as [[name sub]|].
  - destruct (lookup name valid) as [[w|l1]|] eqn:El; [exact (IHp Hp' h1 _ T)| |exact (IHp Hp' h1 _ T)].
    destruct (set_params d h1 l1 [(sub, Plain p)]) as [h2 r2] eqn:E2. apply (IHp Hp' h2).
    apply (tame_trans h h1 h2 l l1 T).
    + replace h2 with (fst (set_params d h1 l1 [(sub, Plain p)])) by (rewrite E2; reflexivity). apply IH.
      intros q [<-|[]]. exists p. reflexivity.
    + apply lookup_in_list in El as [k' El]. exact (get_reaches _ _ _ _ _ _ E El).
  - destruct (lookup k valid); [|exact (IHp Hp' h1 _ T)]. apply (IHp Hp').
    apply (tame_trans h h1 _ l l T); [apply tame_set|apply reaches_here].
Qed.
Theorem C140_apart :
  forall d h l pss l0, Forall plain_values pss -> ~ reaches h l l0 -> nth_error (calls d h l pss) l0 = nth_error h l0.
Proof.
  intros d h l pss l0 Hp Hr. enough (tame h (calls d h l pss) l) as [T _] by (apply T, Hr).
  unfold calls. enough (forall h1, tame h h1 l -> tame h (fold_left (fun h ps => fst (set_params d h l ps)) pss h1) l) as Q by (apply Q, tame_refl).
  induction Hp as [|ps pss Hq Hp IH]; intros h1 T; [exact T|]. cbn [fold_left]. apply IH.
  apply (tame_trans h h1 _ l l T); [apply set_tame; exact Hq|apply reaches_here].
Qed.

(** ** Copies *)
Hypothesis none_is_none : forall p, is_none p = true <-> p = none.
(** Arguments that no object keeps. *)
Definition forgotten : list string := ["dimension"; "zeta_scaling"; "linear"].
(** Nobody has set an argument that is not kept, and [zeta] is there. *)
Definition usual h l : Prop :=
  forall path l' x, follow h l path = Some l' -> nth_error h l' = Some x ->
    (forall a, In a forgotten -> attrs x a = None \/ attrs x a = Some (Plain none))
    /\ (kind x = CLogExp \/ kind x = CNonlinear -> exists z, attrs x "zeta" = Some (Plain z) /\ z <> none).
(** Same class, and other arguments than parts read the same. *)
Definition alike h l h' l' : Prop :=
  exists x x', nth_error h l = Some x /\ nth_error h' l' = Some x' /\ kind x' = kind x
    /\ forall a, In a (arguments (kind x)) -> ~ In a (parts (kind x)) -> read h' l' a = read h l a.
(** In memory [h], the object [l2] is a copy of [l], made of objects that are not older than [b]. *)
Fixpoint copied (d b : nat) h l l2 : Prop :=
  match d with
  | 0 => False
  | S d' => b <= l2 /\ alike h l h l2
      /\ forall a x, nth_error h l = Some x -> In a (parts (kind x)) ->
           exists x2 l' l2', attrs x a = Some (Ref l') /\ nth_error h l2 = Some x2 /\ attrs x2 a = Some (Ref l2') /\ copied d' b h l' l2'
  end.
Lemma nth_app h n l x : nth_error h l = Some x -> nth_error (h ++ n) l = Some x.
Proof. intros H. rewrite nth_error_app1; [exact H|eapply nth_lt; eauto]. Qed.
Lemma read_app h n l a x : nth_error h l = Some x -> read (h ++ n) l a = read h l a.
Proof. intros H. unfold read. rewrite (nth_app h n l x H), H. reflexivity. Qed.
Lemma alike_app h l h' l' n n' : alike h l h' l' -> alike (h ++ n) l (h' ++ n') l'.
Proof.
  intros (x & x' & E & E' & K & R). exists x, x'. split; [apply nth_app, E|]. split; [apply nth_app, E'|]. split; [exact K|].
  intros a Ia Ip. rewrite (read_app h' n' l' a x' E'), (read_app h n l a x E). apply R; assumption.
Qed.
Lemma copied_app n : forall d b h l l2, copied d b h l l2 -> copied d b (h ++ n) l l2.
Proof.
  induction d as [|d IH]; intros b h l l2 H; [exact H|]. cbn [copied] in *. destruct H as (Hb & Ha & H). split; [exact Hb|].
  split; [apply alike_app, Ha|]. intros a x Hx Ip. destruct Ha as (x0 & x0' & E & E' & _). rewrite (nth_app h n l x0 E) in Hx. injection Hx as <-.
  destruct (H a x0 E Ip) as (x2 & l' & l2' & A & B & C & D). exists x2, l', l2'. split; [exact A|]. split; [apply nth_app, B|].
  split; [exact C|]. apply IH, D.
Qed.
Lemma copied_later d : forall b b' h l l2, b' <= b -> copied d b h l l2 -> copied d b' h l l2.
Proof.
  induction d as [|d IH]; intros b b' h l l2 L H; [exact H|]. cbn [copied] in *. destruct H as (Hb & Ha & H). split; [lia|]. split; [exact Ha|].
  intros a x Hx Ip. destruct (H a x Hx Ip) as (x2 & l' & l2' & A & B & C & D). exists x2, l', l2'. repeat (split; [assumption|]). eapply IH; eauto.
Qed.
Lemma nested_app n : forall d h l, nested d h l -> nested d (h ++ n) l.
Proof.
  induction d as [|d IH]; intros h l H; [exact H|]. cbn [nested] in *. destruct H as (x & Hx & Hc & Ha). exists x. split; [apply nth_app, Hx|].
  split; [exact Hc|]. intros a Ia. split; [|apply (Ha a Ia)]. intros Ip. destruct (proj1 (Ha a Ia) Ip) as (l' & E & N). exists l'. auto.
Qed.
Lemma follow_app n : forall path d h l, nested d h l -> follow (h ++ n) l path = follow h l path.
Proof.
  induction path as [|b path IH]; intros d h l N; [reflexivity|]. destruct d as [|d]; [destruct N|]. destruct N as (x & Hx & Hc & Ha).
  cbn [follow]. rewrite Hx, (nth_app h n l x Hx). destruct (in_dec string_dec b (parts (kind x))) as [Ip|]; [|reflexivity].
  destruct (proj1 (Ha b (parts_arguments _ _ Ip)) Ip) as (l' & -> & N'). apply (IH d), N'.
Qed.
Lemma follow_some : forall path d h l l', nested d h l -> follow h l path = Some l' -> exists d', nested d' h l'.
Proof.
  induction path as [|b path IH]; intros d h l l' N Hf; [cbn in Hf; injection Hf as <-; eauto|]. destruct d as [|d]; [destruct N|].
  destruct N as (x & Hx & Hc & Ha). cbn [follow] in Hf. rewrite Hx in Hf. destruct (in_dec string_dec b (parts (kind x))) as [Ip|]; [|discriminate].
  destruct (proj1 (Ha b (parts_arguments _ _ Ip)) Ip) as (l1 & E & N'). rewrite E in Hf. eapply IH; eauto.
Qed.
Lemma usual_app n d h l : nested d h l -> usual h l -> usual (h ++ n) l.
Proof.
  intros N U path l' x Hf Hx. rewrite (follow_app n path d h l N) in Hf. destruct (follow_some path d h l l' N Hf) as [d' N'].
  destruct d' as [|d']; [destruct N'|]. destruct N' as (y & Hy & _). rewrite (nth_app h n l' y Hy) in Hx. injection Hx as <-. eapply U; eauto.
Qed.
Lemma usual_part d h l x a l' : nested d h l -> usual h l -> nth_error h l = Some x -> In a (parts (kind x)) -> attrs x a = Some (Ref l') -> usual h l'.
Proof.
  intros N U Hx Ip E path l2 y Hf Hy. apply (U (a :: path) l2 y); [|exact Hy]. cbn [follow]. rewrite Hx, E.
  destruct (in_dec _ _ _); [exact Hf|contradiction].
Qed.
(** New objects refer to new objects only. *)
Definition fresh (b : nat) (new : heap) : Prop := forall y a l', In y new -> attrs y a = Some (Ref l') -> b <= l'.
(** The arguments of an object without parts. *)
Definition leaf_value x a : plain := match attrs x a with Some (Plain p) => p | _ => none end.
Lemma clone_plain d (f : string -> plain) h : forall (args : list string) (m : list (string * value)),
  fold_left (fun acc (q : string * value) =>
               match acc with
               | (h, Err e) => (h, Err e)
               | (h, Ok m) =>
                   match snd q with
                   | Plain p => (h, Ok (m ++ [(fst q, Plain p)]))
                   | Ref l' => match clone d h l' with
                               | (h', Ok l2) => (h', Ok (m ++ [(fst q, Ref l2)]))
                               | (h', Err e) => (h', Err e)
                               end
                   end
               end) (map (fun a => (a, Plain (f a))) args) (h, Ok m)
  = (h, Ok (m ++ map (fun a => (a, Plain (f a))) args)).
Proof.
  induction args as [|a args IH]; intros m; cbn [map fold_left]; [rewrite app_nil_r; reflexivity|]. cbn [fst snd]. rewrite IH, <- app_assoc. reflexivity.
Qed.
Lemma leaf_ok x : composite (kind x) = false -> (forall a l', In a (arguments (kind x)) -> attrs x a <> Some (Ref l')) ->
  own_params plain none x = Ok (map (fun a => (a, Plain (leaf_value x a))) (arguments (kind x))).
Proof.
  intros C H. unfold own_params. rewrite C. f_equal. apply map_ext_in. intros a Ia. f_equal. unfold attr_or_none, leaf_value.
  specialize (H a). destruct (attrs x a) as [[p|l']|]; auto. destruct (H l' Ia). reflexivity.
Qed.
Lemma is_none_none : is_none none = true. Proof. apply none_is_none. reflexivity. Qed.
Lemma is_none_other p : p <> none -> is_none p = false.
Proof. intros H. destruct (is_none p) eqn:E; [|reflexivity]. apply none_is_none in E. contradiction. Qed.
Lemma leaf_forgotten x a : (attrs x a = None \/ attrs x a = Some (Plain none)) -> leaf_value x a = none.
Proof. unfold leaf_value. intros [->| ->]; reflexivity. Qed.
Lemma leaf_read h l x a : nth_error h l = Some x -> (forall l', attrs x a <> Some (Ref l')) -> read h l a = Plain (leaf_value x a).
Proof. intros H R. unfold read, leaf_value. rewrite H. destruct (attrs x a) as [[p|l']|]; auto. destruct (R l'). reflexivity. Qed.
Lemma leaf_construct x : composite (kind x) = false ->
  (forall a, In a forgotten -> attrs x a = None \/ attrs x a = Some (Plain none)) ->
  (kind x = CLogExp \/ kind x = CNonlinear -> exists z, attrs x "zeta" = Some (Plain z) /\ z <> none) ->
  let m := map (fun a => (a, Plain (leaf_value x a))) (arguments (kind x)) in
  exists y, construct plain is_none auto_zeta (kind x) (argument plain none m) = Ok y
    /\ forallb (kept_argument plain is_none (kind x) (argument plain none m)) (arguments (kind x)) = true
    /\ kind y = kind x /\ (forall a l', attrs y a <> Some (Ref l'))
    /\ forall a, In a (arguments (kind x)) -> match attrs y a with Some v => v | None => Plain none end = Plain (leaf_value x a).
Proof.
  intros C F Z m.
  assert (forall a l', argument plain none m a <> Ref l') as NR.
  { intros a l'. unfold argument. destruct (lookup a m) as [v|] eqn:E; [|discriminate]. apply lookup_in_list in E as [k E].
    apply in_map_iff in E as (b & E & _). injection E as _ <-. discriminate. }
  assert (leaf_value x "dimension" = none) as F1 by (apply leaf_forgotten, F; cbn; auto).
  assert (leaf_value x "zeta_scaling" = none) as F2 by (apply leaf_forgotten, F; cbn; auto).
  assert (leaf_value x "linear" = none) as F3 by (apply leaf_forgotten, F; cbn; auto).
  pose proof is_none_none as I.
  assert (kind x = CLogExp \/ kind x = CNonlinear -> is_none (leaf_value x "zeta") = false) as Z'.
  { intros H. destruct (Z H) as (z & Ez & Nz). unfold leaf_value. rewrite Ez. apply is_none_other, Nz. }
  clear Z F.
  destruct (kind x) eqn:K; try discriminate C;
    try specialize (Z' (or_introl eq_refl)); try specialize (Z' (or_intror eq_refl));
    (eexists; split; [cbn; try rewrite Z'; cbn; reflexivity|]; split; [cbn; rewrite ?Z', ?F1, ?F2, ?F3, ?I; reflexivity|]; split; [reflexivity|]; split;
      [intros a l'; cbn [attrs];
       repeat match goal with |- context [if ?c then _ else _] => destruct c end; try discriminate; try (intros E; injection E as E; exact (NR _ _ E))
      |intros a Ia; cbn [arguments In] in Ia; repeat (destruct Ia as [<-|Ia]; [cbn; rewrite ?F1, ?F2, ?F3; reflexivity|]); destruct Ia]).
Qed.
Lemma clone_ok : forall d h l, nested d h l -> usual h l ->
  exists new l2, clone d h l = (h ++ new, Ok l2) /\ copied d (length h) (h ++ new) l l2 /\ fresh (length h) new.
Proof.
  induction d as [|d IH]; intros h l N U; [destruct N|]. pose proof N as (x & Hx & Hc & Ha).
  destruct (U [] l x eq_refl Hx) as [UF UZ].
  destruct (composite (kind x)) eqn:C.
  - assert (forall c, kind x = c -> c = CSum \/ c = CProduct ->
      exists new l2, clone (S d) h l = (h ++ new, Ok l2) /\ copied (S d) (length h) (h ++ new) l l2 /\ fresh (length h) new) as Two.
    { intros c K Hk. assert (parts c = ["k1"; "k2"] /\ arguments c = ["k1"; "k2"]) as [P A] by (destruct Hk as [->| ->]; split; reflexivity).
      rewrite K, P, A in Ha. destruct (proj1 (Ha "k1" (or_introl eq_refl)) (or_introl eq_refl)) as (l1 & E1 & N1).
      destruct (proj1 (Ha "k2" (or_intror (or_introl eq_refl))) (or_intror (or_introl eq_refl))) as (l2 & E2 & N2).
      assert (usual h l1) as U1 by (eapply (usual_part (S d) h l x "k1"); eauto; rewrite K, P; left; reflexivity).
      assert (usual h l2) as U2 by (eapply (usual_part (S d) h l x "k2"); eauto; rewrite K, P; right; left; reflexivity).
      destruct (IH h l1 N1 U1) as (n1 & m1 & C1 & D1 & G1).
      destruct (IH (h ++ n1) l2 (nested_app n1 d h l2 N2) (usual_app n1 d h l2 N2 U2)) as (n2 & m2 & C2 & D2 & G2).
      set (y := mkObject c (fun a => if is_stored c a then Some (argument plain none [("k1", Ref m1); ("k2", Ref m2)] a) else None)).
      assert (forall a l', attrs y a = Some (Ref l') -> l' = m1 \/ l' = m2) as Ry.
      { intros a l'. cbn [y attrs]. destruct (is_stored c a); [|discriminate]. unfold argument, lookup. cbn [find fst].
        destruct ("k1" =? a)%string; [cbn; intros E; injection E; auto|]. destruct ("k2" =? a)%string; cbn; intros E; [injection E; auto|discriminate]. }
      exists (n1 ++ n2 ++ [y]), (length ((h ++ n1) ++ n2)).
      assert (length h <= m1 /\ length h <= m2) as [B1 B2].
      { destruct d as [|d0]; [destruct N1|]. destruct D1 as (B1 & _). destruct D2 as (B2 & _). rewrite app_length in B2. lia. }
      assert (h ++ n1 ++ n2 ++ [y] = ((h ++ n1) ++ n2) ++ [y]) as Eh by (rewrite <- !app_assoc; reflexivity). rewrite Eh.
      assert (nth_error (((h ++ n1) ++ n2) ++ [y]) (length ((h ++ n1) ++ n2)) = Some y) as Ey
        by (rewrite nth_error_app2, Nat.sub_diag; [reflexivity|lia]).
      assert (nth_error (((h ++ n1) ++ n2) ++ [y]) l = Some x) as Ex by (apply nth_app, nth_app, nth_app, Hx).
      split; [|split].
      - cbn [MParams.clone]. rewrite Hx. unfold own_params. rewrite K, A.
        assert (composite c = true) as -> by (destruct Hk as [->| ->]; reflexivity).
        cbn [mapM]. unfold attr. rewrite E1, E2. cbn [bind fold_left fst snd]. rewrite C1, C2. cbn [app].
        destruct Hk as [->| ->]; reflexivity.
      - cbn [copied]. split; [rewrite !app_length; lia|]. split.
        + exists x, y. split; [exact Ex|]. split; [exact Ey|]. split; [symmetry; exact K|]. rewrite K, P, A. intros a Ia Ip. contradiction.
        + intros a x0 Hx0 Ip. rewrite Ex in Hx0. injection Hx0 as <-. rewrite K, P in Ip.
          destruct Ip as [<-|[<-|[]]].
          * exists y, l1, m1. split; [exact E1|]. split; [exact Ey|]. split; [destruct Hk as [->| ->]; reflexivity|].
            apply copied_app, copied_app. exact D1.
          * exists y, l2, m2. split; [exact E2|]. split; [exact Ey|]. split; [destruct Hk as [->| ->]; reflexivity|].
            apply copied_app. apply (copied_later d (length (h ++ n1))); [rewrite app_length; lia|exact D2].
      - intros z a l' Hz Er. apply in_app_iff in Hz as [Hz|Hz]; [eapply G1; eauto|]. apply in_app_iff in Hz as [Hz|[<-|[]]].
        + pose proof (G2 z a l' Hz Er) as Q. rewrite app_length in Q. lia.
        + destruct (Ry a l' Er) as [->| ->]; assumption. }
    destruct (kind x) eqn:K; try discriminate C; [apply (Two CSum)|apply (Two CProduct)|]; auto. clear Two.
    assert (attrs x "exponent" <> None) as Ne by (apply Hc; [reflexivity|cbn; auto]).
    destruct (proj1 (Ha "acquisition_function" (or_introl eq_refl)) (or_introl eq_refl)) as (l1 & E1 & N1).
    assert (forall l', attrs x "exponent" <> Some (Ref l')) as Nr by (apply (proj2 (Ha "exponent" (or_intror (or_introl eq_refl)))); intros [Q|[]]; discriminate).
    destruct (attrs x "exponent") as [[p|l']|] eqn:Ee; [|destruct (Nr l' eq_refl)|contradiction].
    assert (usual h l1) as U1 by (eapply (usual_part (S d) h l x "acquisition_function"); eauto; rewrite K; left; reflexivity).
    destruct (IH h l1 N1 U1) as (n1 & m1 & C1 & D1 & G1).
    set (y := mkObject CPower (fun a => if is_stored CPower a then Some (argument plain none [("acquisition_function", Ref m1); ("exponent", Plain p)] a) else None)).
    exists (n1 ++ [y]), (length (h ++ n1)).
    assert (length h <= m1) as B1 by (destruct d as [|d0]; [destruct N1|]; destruct D1 as (B1 & _); exact B1).
    rewrite app_assoc.
    assert (nth_error ((h ++ n1) ++ [y]) (length (h ++ n1)) = Some y) as Ey by (rewrite nth_error_app2, Nat.sub_diag; [reflexivity|lia]).
    assert (nth_error ((h ++ n1) ++ [y]) l = Some x) as Ex by (apply nth_app, nth_app, Hx).
    split; [|split].
    + cbn [MParams.clone]. rewrite Hx. unfold own_params. rewrite K. cbn [composite parts arguments mapM]. unfold attr. rewrite E1, Ee.
      cbn [bind fold_left fst snd]. rewrite C1. reflexivity.
    + cbn [copied]. split; [rewrite app_length; lia|]. split.
      * exists x, y. split; [exact Ex|]. split; [exact Ey|]. split; [symmetry; exact K|]. rewrite K. intros a Ia Ip.
        destruct Ia as [<-|[<-|[]]]; [destruct Ip; left; reflexivity|]. unfold read. rewrite Ex, Ey, Ee. reflexivity.
      * intros a x0 Hx0 Ip. rewrite Ex in Hx0. injection Hx0 as <-. rewrite K in Ip. destruct Ip as [<-|[]].
        exists y, l1, m1. split; [exact E1|]. split; [exact Ey|]. split; [reflexivity|]. apply copied_app. exact D1.
    + intros z a l' Hz Er. apply in_app_iff in Hz as [Hz|[<-|[]]]; [eapply G1; eauto|]. revert Er. cbn [y attrs].
      destruct (is_stored CPower a); [|discriminate]. unfold argument, lookup. cbn [find fst].
      destruct ("acquisition_function" =? a)%string; [cbn; intros E; injection E as <-; exact B1|].
      destruct ("exponent" =? a)%string; cbn; intros E; discriminate.
  - assert (parts (kind x) = []) as P by (destruct (kind x); try reflexivity; discriminate).
    assert (forall a l', In a (arguments (kind x)) -> attrs x a <> Some (Ref l')) as NR.
    { intros a l' Ia. apply (proj2 (Ha a Ia)). rewrite P. intros []. }
    destruct (leaf_construct x C UF UZ) as (y & Ec & Ek & Ky & Ry & Vy). cbv zeta in Ec, Ek.
    exists [y], (length h).
    assert (nth_error (h ++ [y]) (length h) = Some y) as Ey by (rewrite nth_error_app2, Nat.sub_diag; [reflexivity|lia]).
    assert (nth_error (h ++ [y]) l = Some x) as Ex by (apply nth_app, Hx).
    split; [|split].
    + cbn [MParams.clone]. rewrite Hx, (leaf_ok x C NR), clone_plain. cbn [app]. rewrite Ec, Ek. reflexivity.
    + cbn [copied]. split; [lia|]. split.
      * exists x, y. split; [exact Ex|]. split; [exact Ey|]. split; [exact Ky|]. intros a Ia _.
        rewrite (leaf_read (h ++ [y]) l x a Ex (fun l' => NR a l' Ia)). unfold read. rewrite Ey. apply Vy, Ia.
      * intros a x0 Hx0 Ip. rewrite Ex in Hx0. injection Hx0 as <-. rewrite P in Ip. destruct Ip.
    + intros z a l' [<-|[]] Er. destruct (Ry a l' Er).
Qed.
Lemma copied_follow : forall path d b h l l2, copied d b h l l2 ->
  match follow h l path, follow h l2 path with
  | Some l', Some l2' => b <= l2' /\ alike h l' h l2'
  | None, None => True
  | _, _ => False
  end.
Proof.
  induction path as [|a path IH]; intros d b h l l2 D; (destruct d as [|d]; [destruct D|]); destruct D as (B & A & D).
  - cbn [follow]. auto.
  - pose proof A as (x & y & Ex & Ey & K & _). cbn [follow]. rewrite Ex, Ey, K.
    destruct (in_dec string_dec a (parts (kind x))) as [Ip|]; [|exact I].
    destruct (D a x Ex Ip) as (x2 & l' & l2' & E1 & E2 & E3 & E4). rewrite Ey in E2. injection E2 as <-. rewrite E1, E3. eapply IH; eauto.
Qed.
Lemma alike_before h n l l2 : (exists x, nth_error h l = Some x) -> alike (h ++ n) l (h ++ n) l2 -> alike h l (h ++ n) l2.
Proof.
  intros (x & Hx) (x0 & x2 & E & E2 & K & R). rewrite (nth_app h n l x Hx) in E. injection E as <-. exists x, x2. split; [exact Hx|].
  split; [exact E2|]. split; [exact K|]. intros a Ia Ip. rewrite <- (read_app h n l a x Hx). apply R; assumption.
Qed.
Lemma nested_reaches n h l l0 : reaches (h ++ n) l l0 -> forall d, nested d h l -> l0 < length h.
Proof.
  induction 1 as [l|l x a l' l'' Hx Ha Er R IH]; intros d N; (destruct d as [|d]; [destruct N|]); destruct N as (y & Hy & Hc & Hq).
  - exact (nth_lt h l y Hy).
  - rewrite (nth_app h n l y Hy) in Hx. injection Hx as <-.
    destruct (in_dec string_dec a (parts (kind y))) as [Ip|Ip]; [|destruct (proj2 (Hq a Ha) Ip l' Er)].
    destruct (proj1 (Hq a Ha) Ip) as (l3 & E3 & N3). rewrite Er in E3. injection E3 as <-. exact (IH d N3).
Qed.
(** Copies: existing objects stay as they are, the copy consists of new objects, has the same classes at the same places, and all
    arguments that are not acquisition functions read the same; changing the copy by name leaves all old objects as they are, and
    changing the original leaves the copy as it is. *)
Theorem C140_clone :
  forall d h l, nested d h l -> usual h l ->
  exists new l2, clone d h l = (h ++ new, Ok l2)
    /\ (forall path, match follow h l path, follow (h ++ new) l2 path with
                     | Some l', Some l2' => length h <= l2' /\ alike h l' (h ++ new) l2'
                     | None, None => True
                     | _, _ => False
                     end)
    /\ (forall d' pss l0, Forall plain_values pss -> l0 < length h -> nth_error (calls d' (h ++ new) l2 pss) l0 = nth_error h l0)
    /\ (forall d' pss l0, Forall plain_values pss -> length h <= l0 -> nth_error (calls d' (h ++ new) l pss) l0 = nth_error (h ++ new) l0).
Proof.
  intros d h l N U. destruct (clone_ok d h l N U) as (new & l2 & E & D & F). exists new, l2. split; [exact E|]. split; [|split].
  - intros path. pose proof (copied_follow path d _ _ _ _ D) as Q. rewrite (follow_app new path d h l N) in Q.
    destruct (follow h l path) as [l'|] eqn:Ef; [|exact Q]. destruct (follow (h ++ new) l2 path); [|exact Q]. destruct Q as [B A].
    split; [exact B|]. apply alike_before; [|exact A]. destruct (follow_some path d h l l' N Ef) as [d' N'].
    destruct d' as [|d']; [destruct N'|]. destruct N' as (x & Hx & _). eauto.
  - intros d' pss l0 Hp Hl. rewrite C140_apart; [rewrite nth_error_app1 by exact Hl; reflexivity|exact Hp|].
    assert (length h <= l2) as B by (destruct d as [|d]; [destruct N|]; destruct D as (B & _); exact B).
    intros R. assert (length h <= l0); [|lia]. clear Hl E D. induction R as [|l1 x a l' l'' Hx Ha Er R IH]; [exact B|]. apply IH.
    rewrite nth_error_app2 in Hx by exact B. apply nth_error_In in Hx. exact (F x a l' Hx Er).
  - intros d' pss l0 Hp Hl. apply C140_apart; [exact Hp|]. intros R. enough (l0 < length h) by lia. clear Hl.
    exact (nested_reaches new h l l0 R d N).
Qed.
(** [LogExp] without [zeta] needs the dimension: otherwise ValueError, whatever the scaling. So there is no copy of one whose [zeta] was set to None: the dimension is not kept. *)
Theorem C140_no_zeta :
  forall c args s, c = CLogExp \/ c = CNonlinear -> args "zeta" = Plain none -> args "zeta_scaling" = Plain s ->
    (args "dimension" = Plain none -> construct plain is_none auto_zeta c args = Err ValueError)
    /\ (forall d z, args "dimension" = Plain d -> d <> none -> auto_zeta d s = Ok z ->
        exists x, construct plain is_none auto_zeta c args = Ok x /\ kind x = c /\ attrs x "zeta" = Some (Plain z)).
Proof.
  intros c args s Hc Hz Hs. assert (is_none none = true) as N by (apply none_is_none; reflexivity). split.
  - intros Hd. destruct Hc as [-> | ->]; unfold construct; rewrite Hz, N, Hd, Hs, N; reflexivity.
  - intros d z Hd Nd A. destruct (is_none d) eqn:E; [apply none_is_none in E; contradiction|].
    destruct Hc as [-> | ->]; unfold construct; rewrite Hz, N, Hd, Hs, E, A; cbn [bind]; eexists; repeat split.
Qed.
End C140.

(** ** A case: [(LogExp(zeta=1) + Mu(a=2)) ** 2] *)
Definition plain_z : Type := option Z.
Definition z_none (p : plain_z) : bool := match p with None => true | Some _ => false end.
Definition z_auto (d s : plain_z) : res plain_z := match d with Some n => Ok (Some (n * 2)%Z) | None => Err ValueError end.
Definition z_shown (h : list (object plain_z)) (l : nat) : res unit := Ok tt.
Definition attributes (m : list (string * value plain_z)) (a : string) : option (value plain_z) := lookup a m.
Definition p_log : object plain_z := mkObject CLogExp (attributes [("zeta", Plain (Some 1%Z)); ("sigma_n", Plain None); ("fixed", Plain (Some 0%Z))]).
Definition p_mu : object plain_z := mkObject CMu (attributes [("a", Plain (Some 2%Z)); ("fixed", Plain (Some 0%Z))]).
Definition p_sum : object plain_z := mkObject CSum (attributes [("k1", Ref 0); ("k2", Ref 1)]).
Definition p_power : object plain_z := mkObject CPower (attributes [("acquisition_function", Ref 2); ("exponent", Plain (Some 2%Z))]).
Definition p_heap := [p_log; p_mu; p_sum; p_power].
Definition z_get := get_params plain_z None.
Definition z_set := set_params plain_z None z_shown.
Definition z_clone := clone plain_z None z_none z_auto.
Lemma z_none_is p : z_none p = true <-> p = None. Proof. destruct p; split; intros H; try discriminate; reflexivity. Qed.
Fixpoint nested_b (d : nat) (h : list (object plain_z)) (l : nat) : bool :=
  match d, nth_error h l with
  | S d', Some x =>
      forallb (fun a => match attrs x a with
                        | Some (Ref l') => existsb (String.eqb a) (parts (kind x)) && nested_b d' h l'
                        | Some (Plain _) => negb (existsb (String.eqb a) (parts (kind x)))
                        | None => negb (composite (kind x))
                        end) (arguments (kind x))
  | _, _ => false
  end.
Lemma existsb_in a ps : existsb (String.eqb a) ps = true <-> In a ps.
Proof.
  rewrite existsb_exists. split; [intros (b & Hb & E); apply String.eqb_eq in E; subst; exact Hb|]. intros H. exists a. split; [exact H|apply String.eqb_refl].
Qed.
Lemma nested_sound : forall d h l, nested_b d h l = true -> nested d h l.
Proof.
  induction d as [|d IH]; intros h l H; [discriminate|]. cbn [nested_b] in H. destruct (nth_error h l) as [x|] eqn:Ex; [|discriminate].
  pose proof (proj1 (forallb_forall _ _) H) as Q. clear H. cbn [nested]. exists x. split; [exact Ex|]. split.
  - intros C a Ia E. specialize (Q a Ia). cbv beta in Q. rewrite E, C in Q. discriminate.
  - intros a Ia. specialize (Q a Ia). cbv beta in Q. split.
    + intros Ip. destruct (attrs x a) as [[p|l']|]; [| |].
      * apply existsb_in in Ip. rewrite Ip in Q. discriminate.
      * exists l'. split; [reflexivity|]. apply IH. apply andb_true_iff in Q. apply Q.
      * exfalso. unfold composite in Q. destruct (parts (kind x)); [destruct Ip|discriminate].
    + intros Ip l' E. rewrite E in Q. apply andb_true_iff in Q as [Q _]. apply existsb_in in Q. contradiction.
Qed.
Ltac show_nested := apply nested_sound; vm_compute; reflexivity.
Example C140_case_nested : nested 3 p_heap 3.
Proof. show_nested. Qed.
Example C140_case_get : option_map (fun m => map fst m) (match z_get 3 p_heap 3 with Ok m => Some m | Err _ => None end)
  = Some ["acquisition_function"; "exponent"; "acquisition_function__k1"; "acquisition_function__k2"; "acquisition_function__k1__zeta";
          "acquisition_function__k1__sigma_n"; "acquisition_function__k1__fixed"; "acquisition_function__k1__dimension";
          "acquisition_function__k1__zeta_scaling"; "acquisition_function__k1__linear"; "acquisition_function__k2__a";
          "acquisition_function__k2__fixed"; "acquisition_function__k2__dimension"].
Proof. vm_compute. reflexivity. Qed.
Example C140_case_set : let r := z_set 3 p_heap 3 [("acquisition_function__k1__zeta", Plain (Some 5%Z)); ("exponent", Plain (Some 3%Z))] in
  snd r = Ok tt /\ read None (fst r) 0 "zeta" = Plain (Some 5%Z) /\ read None (fst r) 3 "exponent" = Plain (Some 3%Z) /\ read None (fst r) 1 "a" = Plain (Some 2%Z).
Proof. vm_compute. auto. Qed.
Example C140_case_unknown : snd (z_set 3 p_heap 3 [("zeta", Plain (Some 5%Z))]) = Err ValueError
  /\ snd (z_set 3 p_heap 3 [("exponent__zeta", Plain (Some 5%Z))]) = Err AttributeError.
Proof. vm_compute. auto. Qed.
Example C140_case_usual : usual None p_heap 3.
Proof.
  intros path l' x Hf Hx. assert (In l' [0; 1; 2; 3]) as Hl.
  { assert (l' < 4) as L by (apply nth_lt in Hx; exact Hx). cbn. lia. }
  cbn in Hl. destruct Hl as [<-|[<-|[<-|[<-|[]]]]]; injection Hx as <-; (split; [intros a Ha; cbn in Ha; repeat (destruct Ha as [<-|Ha]; [left; reflexivity|]); destruct Ha|]);
    intros [K|K]; try discriminate K. exists (Some 1%Z). split; [reflexivity|discriminate].
Qed.
Example C140_case_clone : let r := z_clone 3 p_heap 3 in
  snd r = Ok 7 /\ length (fst r) = 8 /\ follow (fst r) 7 ["acquisition_function"; "k1"] = Some 4
  /\ read None (fst r) 4 "zeta" = Plain (Some 1%Z)
  /\ read None (fst (z_set 3 (fst r) 7 [("acquisition_function__k1__zeta", Plain (Some 5%Z))])) 0 "zeta" = Plain (Some 1%Z)
  /\ read None (fst (z_set 3 (fst r) 7 [("acquisition_function__k1__zeta", Plain (Some 5%Z))])) 4 "zeta" = Plain (Some 5%Z).
Proof. vm_compute. repeat split. Qed.

Example C140_case_no_zeta : snd (z_clone 1 (fst (z_set 1 [p_log] 0 [("zeta", Plain None)])) 0) = Err ValueError
  /\ construct plain_z z_none (fun _ _ => Ok (Some 7%Z)) CLogExp (fun _ => Plain None) = Err ValueError
  /\ option_map (fun x => attrs x "zeta") (match construct plain_z z_none z_auto CLogExp (fun a => if (a =? "dimension")%string then Plain (Some 3%Z) else Plain None) with Ok x => Some x | _ => None end)
     = Some (Some (Plain (Some 6%Z))).
Proof. vm_compute. auto. Qed.

(** ** What does not hold *)
(** Calls that raise may have changed parameters. *)
Theorem C140_atomic_refuted :
  ~ (forall d h l ps h' e l0 a, nested d h l -> z_set d h l ps = (h', Err e) -> read None h' l0 a = read None h l0 a).
Proof.
  intros H. specialize (H 3 p_heap 3 [("exponent", Plain (Some 3%Z)); ("zeta", Plain (Some 5%Z))] _ _ 3 "exponent" C140_case_nested eq_refl).
  vm_compute in H. discriminate.
Qed.
(** A part and a parameter of it in one call: the parameter is set in the part that was there before. *)
Theorem C140_new_part_refuted :
  ~ (forall d h l new a v h', nested d h l -> nested d h new -> z_set d h l [("k1", Ref new); (named ["k1"] a, v)] = (h', Ok tt) ->
       follow h' l ["k1"] = Some new /\ read None h' new a = v).
Proof.
  intros H. specialize (H 3 [p_mu; p_mu; p_sum; p_mu] 2 3 "a" (Plain (Some 7%Z)) _ ltac:(show_nested) ltac:(show_nested) eq_refl).
  destruct H as [_ H]. vm_compute in H. discriminate.
Qed.
(** What was given to the constructor cannot always be read back. *)
Theorem C140_given_refuted :
  ~ (forall c args x a, construct plain_z z_none z_auto c args = Ok x -> In a (arguments c) -> args a <> Plain None ->
       exists m, z_get 1 [x] 0 = Ok m /\ lookup a m = Some (args a)).
Proof.
  intros H. destruct (H CLogExp (fun a => if (a =? "dimension")%string then Plain (Some 3%Z) else Plain None) _ "dimension" eq_refl ltac:(cbn; tauto) ltac:(discriminate)) as (m & E & L).
  vm_compute in E. injection E as <-. vm_compute in L. discriminate.
Qed.
(** Setting a parameter that [get_params] lists may make copies impossible. *)
Theorem C140_clone_after_set_refuted :
  ~ (forall c args x k v h h' l2, construct plain_z z_none z_auto c args = Ok x -> z_clone 1 [x] 0 = (h, Ok l2) -> z_set 1 [x] 0 [(k, v)] = (h', Ok tt) ->
       exists h2 l3, z_clone 1 h' 0 = (h2, Ok l3)).
Proof.
  intros H. destruct (H CLogExp (fun a => if (a =? "dimension")%string then Plain (Some 3%Z) else Plain None) _ "dimension" (Plain (Some 4%Z)) _ _ _ eq_refl eq_refl eq_refl) as (h2 & l3 & E).
  vm_compute in E. discriminate.
Qed.
(** Parts that are shared are not shared by the copy: [f + f] and its copy behave differently when a parameter is set. *)
Definition p_shared := [p_mu; mkObject CSum (attributes [("k1", Ref 0); ("k2", Ref 0)])].
Theorem C140_shared_refuted :
  ~ (forall d h l h1 l2 k v k', nested d h l -> z_clone d h l = (h1, Ok l2) ->
       forall m m2, z_get d (fst (z_set d h1 l [(k, v)])) l = Ok m -> z_get d (fst (z_set d h1 l2 [(k, v)])) l2 = Ok m2 ->
       (exists p, lookup k' m = Some (Plain p)) -> lookup k' m2 = lookup k' m).
Proof.
  intros H. specialize (H 2 p_shared 1 _ _ "k1__a" (Plain (Some 9%Z)) "k2__a" ltac:(show_nested) eq_refl _ _ eq_refl eq_refl).
  assert (forall A B : Prop, A -> (A -> B) -> B) as X by auto. eapply X in H.
  2: { vm_compute. eexists. reflexivity. }
  vm_compute in H. discriminate.
Qed.
Print Assumptions C140_get. Print Assumptions C140_set. Print Assumptions C140_unknown. Print Assumptions C140_again.
Print Assumptions C140_apart. Print Assumptions C140_clone. Print Assumptions C140_atomic_refuted. Print Assumptions C140_new_part_refuted.
Print Assumptions C140_given_refuted. Print Assumptions C140_clone_after_set_refuted. Print Assumptions C140_shared_refuted.
Print Assumptions C140_no_zeta.

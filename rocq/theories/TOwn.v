(** C141: dictionaries that users pass stay as they are. *)
From Coq Require Import ZArith.
From Verif Require Import MOwn.
Set Default Goal Selector "!".
Set Bullet Behavior "Strict Subproofs".
Local Open Scope string_scope.
Local Open Scope list_scope.

(** ** Vocabulary *)
(** The contents of a value: dictionaries within dictionaries, up to a depth. *)
Fixpoint all_some {A} (l : list (option A)) : option (list A) :=
  match l with
  | [] => Some []
  | None :: _ => None
  | Some x :: l => match all_some l with Some r => Some (x :: r) | None => None end
  end.
Fixpoint contents (n : nat) (mem : memory) (v : mval) : option val :=
  match n, v with
  | 0, _ => None
  | S n, MPrim p => Some p
  | S n, MRef l =>
      match nth_error mem l with
      | None => None
      | Some m => option_map VMap (all_some (map (fun kv => option_map (fun x => (fst kv, x)) (contents n mem (snd kv))) m))
      end
  end.
(** A value, or all values of a dictionary, that refer only to dictionaries made at time [b] or later. *)
Definition new_value (b : nat) (v : mval) : Prop := match v with MPrim _ => True | MRef l => b <= l end.
Definition new_dict (b : nat) (m : mdict) : Prop := forall k v, In (k, v) m -> new_value b v.
(** What deepcopy does: only new dictionaries, which refer to new ones, with the same contents. *)
Definition copies (deepcopy : memory -> mval -> memory * mval) : Prop :=
  forall mem v, exists new v', deepcopy mem v = (mem ++ new, v')
    /\ Forall (new_dict (length mem)) new /\ new_value (length mem) v'
    /\ forall n x, contents n mem v = Some x -> contents n (mem ++ new) v' = Some x.
(** ** Lemmas *)
Definition safe (b : nat) (mem : memory) : Prop := forall l m, b <= l -> nth_error mem l = Some m -> new_dict b m.
Definition inv (b : nat) (mem0 mem : memory) : Prop :=
  b <= length mem /\ (forall l, l < b -> nth_error mem l = nth_error mem0 l) /\ safe b mem.
Lemma write_nth : forall mem l m l', nth_error (write mem l m) l' = if Nat.eqb l' l then (match nth_error mem l with Some _ => Some m | None => None end) else nth_error mem l'.
Proof. induction mem as [|m0 mem IH]; intros [|l] m [|l']; cbn [write nth_error Nat.eqb]; auto; try (destruct (Nat.eqb l' l); reflexivity). Qed.
Lemma write_length : forall mem l m, length (write mem l m) = length mem.
Proof. induction mem as [|m0 mem IH]; intros [|l] m; cbn; auto. Qed.
Lemma inv_write b mem0 mem l m : inv b mem0 mem -> b <= l -> new_dict b m -> inv b mem0 (write mem l m).
Proof.
  intros (L & O & S) Hl Hm. split; [rewrite write_length; exact L|]. split.
  - intros l' H. rewrite write_nth. replace (Nat.eqb l' l) with false by (symmetry; apply Nat.eqb_neq; lia). apply O, H.
  - intros l' m' H E. rewrite write_nth in E. destruct (Nat.eqb l' l); [|eapply S; eauto]. destruct (nth_error mem l); [|discriminate].
    injection E as <-. exact Hm.
Qed.
Lemma inv_app b mem0 mem new : inv b mem0 mem -> Forall (new_dict b) new -> inv b mem0 (mem ++ new).
Proof.
  intros (L & O & S) H. split; [rewrite app_length; lia|]. split.
  - intros l Hl. rewrite nth_error_app1 by lia. apply O, Hl.
  - intros l m Hl E. destruct (Nat.lt_ge_cases l (length mem)) as [C|C].
    + rewrite nth_error_app1 in E by exact C. eapply S; eauto.
    + rewrite nth_error_app2 in E by exact C. apply nth_error_In in E. exact (proj1 (Forall_forall _ _) H _ E).
Qed.
Lemma inv_alloc b mem0 mem m : inv b mem0 mem -> new_dict b m -> inv b mem0 (mem ++ [m]).
Proof. intros H Hm. apply inv_app; [exact H|constructor; [exact Hm|constructor]]. Qed.
Lemma inv_length b mem0 mem : inv b mem0 mem -> b <= length mem. Proof. intros (L & _). exact L. Qed.
Lemma inv_refl mem : inv (length mem) mem mem.
Proof.
  split; [lia|]. split; [reflexivity|]. intros l m H E. assert (l < length mem) by (apply nth_error_Some; congruence). lia.
Qed.
Lemma inv_cell b mem0 mem l : inv b mem0 mem -> b <= l -> new_dict b (cell mem l).
Proof.
  intros (_ & _ & S) H. unfold cell. destruct (nth_error mem l) as [m|] eqn:E.
  - rewrite (nth_error_nth _ _ _ E). eapply S; eauto.
  - apply nth_error_None in E. rewrite nth_overflow by exact E. intros k v [].
Qed.
Lemma new_put b k v m : new_value b v -> new_dict b m -> new_dict b (mput k v m).
Proof.
  intros Hv. induction m as [|[k' v'] m IH]; intros Hm k0 v0 H; cbn in H.
  - destruct H as [H|[]]. injection H as _ <-. exact Hv.
  - assert (new_dict b m) as Hm' by (intros k1 v1 H1; apply (Hm k1); right; exact H1).
    destruct (k =? k')%string; destruct H as [H|H].
    + injection H as _ <-. exact Hv.
    + apply (Hm' k0), H.
    + injection H as _ <-. apply (Hm k'). left. reflexivity.
    + apply (IH Hm' k0 v0 H).
Qed.
Lemma new_fill b defaults : forall m, new_dict b defaults -> new_dict b m -> new_dict b (mfill m defaults).
Proof.
  unfold mfill. induction defaults as [|[k v] r IH]; intros m Hd Hm; [exact Hm|]. cbn [fold_left fst snd]. apply IH.
  - intros k0 v0 H. apply (Hd k0). right. exact H.
  - destruct (mlookup k m); [exact Hm|]. apply new_put; [apply (Hd k); left; reflexivity|exact Hm].
Qed.
Lemma new_prims b (l : list (string * val)) : new_dict b (map (fun kv => (fst kv, MPrim (snd kv))) l).
Proof. intros k v H. apply in_map_iff in H as (x & E & _). injection E as _ <-. exact I. Qed.
Lemma new_lookup b m k v : new_dict b m -> mlookup k m = Some v -> new_value b v.
Proof.
  induction m as [|[k' v'] m IH]; intros H E; [discriminate|]. cbn in E. destruct (k =? k')%string.
  - injection E as <-. apply (H k'). left. reflexivity.
  - apply IH; [intros k1 v1 H1; apply (H k1); right; exact H1|exact E].
Qed.
Lemma new_nil b : new_dict b []. Proof. intros k v []. Qed.
Lemma new_one b k v : new_value b v -> new_dict b [(k, v)].
Proof. intros H k' v' [E|[]]. injection E as _ <-. exact H. Qed.
Lemma inv_or_new b mem0 mem v mem' o : inv b mem0 mem -> new_value b v -> or_new mem v = (mem', o) ->
  inv b mem0 mem' /\ match o with Some l => b <= l | None => True end.
Proof.
  intros H Hv. unfold or_new. pose proof (inv_length _ _ _ H) as L.
  destruct v as [p|l].
  - destruct (or_empty p); cbn [alloc]; intros E; injection E as <- <-; split; auto. apply inv_alloc; [exact H|apply new_nil].
  - destruct (cell mem l); cbn [alloc]; intros E; injection E as <- <-; split; auto. apply inv_alloc; [exact H|apply new_nil].
Qed.

Section C141.
Variables (d size : Z).
Variables (bounds pre_X pre_y rng verbose truth : val).
Variable xnum : mval -> res Z.
Variable ctor : string -> mdict -> res unit.
Variables (functions engines criteria : list string).
Variable deepcopy : memory -> mval -> memory * mval.
Hypothesis deepcopy_copies : copies deepcopy.
Notation own_gpr := (own_gpr d size bounds pre_X pre_y rng verbose xnum ctor deepcopy).
Notation own_function := (own_function d ctor functions).
Notation own_engine := (own_engine d ctor functions).
Notation own_acq := (own_acq d bounds verbose ctor functions engines deepcopy).
Notation own_proposer := (own_proposer bounds truth ctor deepcopy).
Notation own_criterion := (own_criterion d ctor).
Notation own_copies := (own_copies deepcopy).
Notation own_criteria := (own_criteria d ctor criteria).
Notation own_convergence := (own_convergence d ctor criteria deepcopy).
Notation own_mc := (own_mc deepcopy).
Notation own_runner := (own_runner d size bounds pre_X pre_y rng verbose truth xnum ctor functions engines criteria deepcopy).

Lemma inv_copy b mem0 mem v mem' v' : inv b mem0 mem -> deepcopy mem v = (mem', v') -> inv b mem0 mem' /\ new_value b v'.
Proof.
  intros H E. destruct (deepcopy_copies mem v) as (new & v1 & E1 & N & V & _). rewrite E in E1. injection E1 as -> ->.
  pose proof (inv_length _ _ _ H) as L. split.
  - apply inv_app; [exact H|]. rewrite Forall_forall in *. intros m Hm k w Hk. specialize (N m Hm k w Hk). destruct w; [exact I|cbn in *; lia].
  - destruct v1; [exact I|cbn in *; lia].
Qed.
Ltac done := repeat lazymatch goal with
  | H : (_, _) = (_, _) |- _ => apply pair_equal_spec in H as [<- _]
  | H : inv ?b ?m ?x |- inv ?b ?m ?x => exact H
  | |- inv _ _ (write _ _ _) => apply inv_write
  | |- inv _ _ (_ ++ [_]) => apply inv_alloc
  | |- new_dict _ [_] => apply new_one
  | |- new_dict _ [] => apply new_nil
  | |- new_dict _ (mfill _ _) => apply new_fill
  | |- new_dict _ (mput _ _ _) => apply new_put
  | |- new_dict _ (map _ _) => apply new_prims
  | _ : inv _ ?M _ |- new_dict _ (cell _ _) => apply (inv_cell _ M)
  | |- new_value _ (MPrim _) => exact I
  | |- inv _ _ _ => eassumption
  | |- _ <= _ => first [eassumption|rewrite ?app_length, ?write_length; cbn [length]; lia]
  end.
Lemma inv_gpr b mem0 mem v mem' r : inv b mem0 mem -> own_gpr mem v = (mem', r) -> inv b mem0 mem'.
Proof.
  intros H E. cbv beta delta [MOwn.own_gpr] in E. pose proof (inv_length _ _ _ H) as L.
  match type of E with (let go := ?g in @?f go) = _ => set (go := g) in E end. cbv zeta in E.
  assert (forall mem l, inv b mem0 mem -> b <= l -> forall mem' r, go mem l = (mem', r) -> inv b mem0 mem') as G.
  { clear. intros mem l H Hl mem' r E. unfold go in E.
    destruct (mlookup _ _) as [x|]; [|done]. destruct (xnum x); done. }
  destruct v as [p|l].
  - destruct p as [| | | |k id| |]; try (done; fail).
    + cbn [alloc] in E. eapply G; [| |exact E]; done.
    + destruct k; done.
  - destruct (deepcopy mem (MRef l)) as [mem1 v1] eqn:Ed. destruct (inv_copy _ _ _ _ _ _ H Ed) as [H1 V1].
    destruct v1 as [p|l1]; [done|]. eapply G; [exact H1|exact V1|exact E].
Qed.
Lemma inv_function b mem0 mem v mem' r : inv b mem0 mem -> new_value b v -> own_function mem v = (mem', r) -> inv b mem0 mem'.
Proof.
  intros H V E. cbv beta delta [MOwn.own_function] in E. pose proof (inv_length _ _ _ H) as L.
  match type of E with (let go := ?g in @?f go) = _ => set (go := g) in E end. cbv zeta in E.
  assert (forall mem name a, inv b mem0 mem -> new_value b a -> forall mem' r, go mem name a = (mem', r) -> inv b mem0 mem') as G.
  { clear. intros mem name a H Ha mem' r E. unfold go in E. destruct (or_new mem a) as [mem1 [l|]] eqn:Eo.
    - destruct (inv_or_new _ _ _ _ _ _ H Ha Eo) as [H1 L1]. done.
    - destruct (inv_or_new _ _ _ _ _ _ H Ha Eo) as [H1 _]. done. }
  destruct v as [p|l].
  - destruct p as [| | | |k id| |]; try (done; fail).
    + cbn [alloc] in E. eapply G; [| |exact E]; [done|cbn; lia].
    + destruct k; done.
  - destruct (cell mem l) as [|[name a] c] eqn:Ec; [done|]. eapply G; [exact H| |exact E].
    apply (inv_cell _ _ _ _ H V name). rewrite Ec. left. reflexivity.
Qed.
Lemma inv_engine b mem0 mem name args mem' r : inv b mem0 mem -> new_dict b args -> own_engine mem name args = (mem', r) -> inv b mem0 mem'.
Proof.
  intros H A E. unfold MOwn.own_engine in E.
  match type of E with context [MOwn.own_function d ctor functions mem ?f] => destruct (own_function mem f) as [mem1 [m|x]] eqn:Ef end;
    apply pair_equal_spec in E as [<- _]; (eapply inv_function; [exact H| |exact Ef]); destruct (mlookup "acq_func" args) eqn:El; try exact I; eapply new_lookup; eauto.
Qed.
Lemma inv_acq b mem0 mem p v mem' r : inv b mem0 mem -> own_acq mem p v = (mem', r) -> inv b mem0 mem'.
Proof.
  intros H E. cbv beta delta [MOwn.own_acq] in E. pose proof (inv_length _ _ _ H) as L.
  match type of E with (let go := ?g in @?f go) = _ => set (go := g) in E end. cbv zeta in E.
  assert (forall mem l, inv b mem0 mem -> b <= l -> forall mem' r, go mem l = (mem', r) -> inv b mem0 mem') as G.
  { clear H E L mem mem' r v. intros mem l H Hl mem' r E. unfold go in E. pose proof (inv_length _ _ _ H) as L.
    destruct (cell mem l) as [|[name a] c] eqn:Ec; [done|].
    assert (new_value b a) as Ha by (apply (inv_cell _ _ _ _ H Hl name); rewrite Ec; left; reflexivity).
    match type of E with context [if known functions name then ?x else ?y] => destruct (if known functions name then x else y) as [[mem1 name1] a1] eqn:Et end.
    assert (inv b mem0 mem1 /\ new_value b a1) as [H1 Ha1].
    { destruct (known functions name).
      - cbn [alloc] in Et. injection Et as <- _ <-. split; [done; cbn; rewrite ?app_length; cbn; lia|cbn; rewrite ?app_length; cbn; lia].
      - injection Et as <- _ <-. auto. }
    destruct (or_new mem1 a1) as [mem2 [la|]] eqn:Eo; destruct (inv_or_new _ _ _ _ _ _ H1 Ha1 Eo) as [H2 L2]; [|done].
    cbn [alloc] in E. pose proof (inv_length _ _ _ H2) as L3.
    match type of E with context [write ?m la ?c] => assert (inv b mem0 (write m la c)) as H3 end.
    { done; cbn; rewrite ?app_length; cbn; try lia.
      intros k w [Q|[Q|[Q|[Q|[]]]]]; injection Q as _ <-; cbn; rewrite ?app_length; cbn; try exact I; lia. }
    destruct (known engines name1); [|done].
    match type of E with context [MOwn.own_engine d ctor functions ?m ?n ?a] => destruct (own_engine m n a) as [mem4 r4] eqn:E4 end.
    apply pair_equal_spec in E as [<- _]. eapply inv_engine; [exact H3| |exact E4]. eapply inv_cell; eauto. }
  destruct v as [q|l].
  - destruct q as [| | | |k id| |]; try (done; fail).
    + cbn [alloc] in E. eapply G; [| |exact E]; done; cbn; rewrite ?app_length; cbn; lia.
    + cbn [alloc] in E. eapply G; [| |exact E]; done; cbn; rewrite ?app_length; cbn; lia.
    + destruct k; done.
  - destruct (deepcopy mem (MRef l)) as [mem1 v1] eqn:Ed. destruct (inv_copy _ _ _ _ _ _ H Ed) as [H1 V1].
    destruct v1 as [q|l1]; [done|]. eapply G; [exact H1|exact V1|exact E].
Qed.
Lemma inv_proposer b mem0 mem v mem' r : inv b mem0 mem -> own_proposer mem v = (mem', r) -> inv b mem0 mem'.
Proof.
  intros H E. cbv beta delta [MOwn.own_proposer] in E. pose proof (inv_length _ _ _ H) as L.
  match type of E with (let go := ?g in @?f go) = _ => set (go := g) in E end. cbv zeta in E.
  assert (forall mem l, inv b mem0 mem -> b <= l -> forall mem' r, go mem l = (mem', r) -> inv b mem0 mem') as G.
  { clear. intros mem l H Hl mem' r E. unfold go in E. destruct (cell mem l) as [|[name [q|la]] c] eqn:Ec; [done|done|].
    assert (new_value b (MRef la)) as Ha by (apply (inv_cell _ _ _ _ H Hl name); rewrite Ec; left; reflexivity).
    apply pair_equal_spec in E as [<- _]. done. }
  destruct v as [q|l].
  - destruct q as [| | | |k id| |]; try (done; fail).
    + cbn [alloc] in E. eapply G; [| |exact E]; done; cbn; rewrite ?app_length; cbn; lia.
    + destruct k; done.
  - destruct (deepcopy mem (MRef l)) as [mem1 v1] eqn:Ed. destruct (inv_copy _ _ _ _ _ _ H Ed) as [H1 V1].
    destruct v1 as [q|l1]; [done|]. eapply G; [exact H1|exact V1|exact E].
Qed.
Lemma new_unset b k v m : new_dict b m -> new_dict b (set_unset k v m).
Proof. intros H. unfold set_unset. destruct (unset k m); [apply new_put; [exact I|exact H]|exact H]. Qed.
Lemma inv_criterion b mem0 mem cls l mem' r : inv b mem0 mem -> b <= l -> own_criterion mem cls l = (mem', r) -> inv b mem0 mem'.
Proof.
  intros H Hl E. unfold MOwn.own_criterion in E. cbv zeta in E. pose proof (inv_length _ _ _ H) as L.
  match type of E with (match ?t with _ => _ end) = _ => destruct t as [mem1 l1] eqn:Et end.
  assert (inv b mem0 mem1 /\ b <= l1) as [H1 L1].
  { destruct (cell mem l); [cbn [alloc] in Et; injection Et as <- <-; split; done|injection Et as <- <-; auto]. }
  apply pair_equal_spec in E as [<- _]. apply inv_write; [exact H1|exact L1|]. pose proof (inv_cell _ _ _ _ H1 L1) as C.
  destruct (cls =? "GaussianKLTrain")%string; [apply new_unset, new_unset, C|].
  destruct (cls =? "TrainAlignment")%string; [apply new_unset, new_unset, C|exact C].
Qed.
Lemma inv_copies : forall items b mem0 mem mem' items', inv b mem0 mem -> own_copies mem items = (mem', items') -> inv b mem0 mem' /\ new_dict b items'.
Proof.
  induction items as [|[k v] items IH]; intros b mem0 mem mem' items' H E; cbn [MOwn.own_copies] in E.
  - apply pair_equal_spec in E as [<- <-]. split; [exact H|apply new_nil].
  - match type of E with (match ?t with _ => _ end) = _ => destruct t as [mem1 v1] eqn:Et end.
    assert (inv b mem0 mem1 /\ new_value b v1) as [H1 V1].
    { destruct v as [p|l]; [|eapply inv_copy; eauto]. destruct p as [| | | |[]| |]; try (eapply inv_copy; eauto; fail).
      injection Et as <- <-. split; [exact H|exact I]. }
    destruct (own_copies mem1 items) as [mem2 r] eqn:E2. destruct (IH _ _ _ _ _ H1 E2) as [H2 D2]. apply pair_equal_spec in E as [<- <-].
    split; [exact H2|]. intros k0 v0 [Q|Q]; [injection Q as _ <-; exact V1|apply (D2 k0 v0 Q)].
Qed.
Lemma inv_criteria : forall items b mem0 mem mem' r, inv b mem0 mem -> new_dict b items -> own_criteria mem items = (mem', r) -> inv b mem0 mem'.
Proof.
  induction items as [|[k v] items IH]; intros b mem0 mem mem' r H D E; cbn [MOwn.own_criteria] in E.
  - apply pair_equal_spec in E as [<- _]. exact H.
  - assert (new_dict b items) as D' by (intros k0 v0 Q; apply (D k0 v0); right; exact Q).
    destruct (known criteria k); [|apply pair_equal_spec in E as [<- _]; exact H].
    destruct (or_new mem v) as [mem1 [l|]] eqn:Eo;
      destruct (inv_or_new _ _ _ _ _ _ H (D k v (or_introl eq_refl)) Eo) as [H1 L1]; [|apply pair_equal_spec in E as [<- _]; exact H1].
    destruct (own_criterion mem1 k l) as [mem2 [m|x]] eqn:Ec; pose proof (inv_criterion _ _ _ _ _ _ _ H1 L1 Ec) as H2; [|apply pair_equal_spec in E as [<- _]; exact H2].
    destruct (own_criteria mem2 items) as [mem3 [rest|x]] eqn:Er; apply pair_equal_spec in E as [<- _]; eapply IH; eauto.
Qed.
Lemma inv_convergence b mem0 mem l mem' r : inv b mem0 mem -> own_convergence mem l = (mem', r) -> inv b mem0 mem'.
Proof.
  intros H E. unfold MOwn.own_convergence in E. destruct (own_copies mem (cell mem l)) as [mem1 items] eqn:E1.
  destruct (inv_copies _ _ _ _ _ _ H E1) as [H1 D1]. eapply inv_criteria; eauto.
Qed.
Lemma inv_mc b mem0 mem v mem' r : inv b mem0 mem -> own_mc mem v = (mem', r) -> inv b mem0 mem' /\ forall v', r = Ok v' -> new_value b v'.
Proof.
  intros H E. unfold MOwn.own_mc in E. pose proof (inv_length _ _ _ H) as L. destruct v as [p|l].
  - destruct p as [| | | |k id| |]; try (apply pair_equal_spec in E as [<- <-]; split; [exact H|intros ? Q; discriminate Q]).
    + cbn [alloc] in E. apply pair_equal_spec in E as [<- <-]. split; [done|]. intros v' Q. injection Q as <-. exact L.
    + cbn [alloc] in E. apply pair_equal_spec in E as [<- <-]. split; [done; cbn; rewrite ?app_length; cbn; lia|]. intros v' Q. injection Q as <-. cbn. rewrite app_length. lia.
  - destruct (Nat.ltb 1 (length (cell mem l))); [apply pair_equal_spec in E as [<- <-]; split; [exact H|intros ? Q; discriminate Q]|].
    destruct (deepcopy mem (MRef l)) as [mem1 v1] eqn:Ed. destruct (inv_copy _ _ _ _ _ _ H Ed) as [H1 V1]. apply pair_equal_spec in E as [<- <-].
    split; [exact H1|]. intros v' Q. injection Q as <-. exact V1.
Qed.
Lemma inv_runner mem p i mem' r : own_runner mem p i = (mem', r) -> inv (length mem) mem mem'
  /\ forall mc o, r = Ok (mc, o) -> new_value (length mem) mc /\ new_value (length mem) o.
Proof.
  intros E. unfold MOwn.own_runner in E. pose proof (inv_refl mem) as H0.
  destruct (own_gpr mem (i_gpr i)) as [m1 [x1|x1]] eqn:E1; pose proof (inv_gpr _ _ _ _ _ _ H0 E1) as H1;
    [|apply pair_equal_spec in E as [<- <-]; split; [exact H1|intros ? ? Q; discriminate Q]].
  destruct (own_acq m1 p (i_acq i)) as [m2 [x2|x2]] eqn:E2; pose proof (inv_acq _ _ _ _ _ _ _ H1 E2) as H2;
    [|apply pair_equal_spec in E as [<- <-]; split; [exact H2|intros ? ? Q; discriminate Q]].
  destruct (own_proposer m2 (i_proposer i)) as [m3 [x3|x3]] eqn:E3; pose proof (inv_proposer _ _ _ _ _ _ H2 E3) as H3;
    [|apply pair_equal_spec in E as [<- <-]; split; [exact H3|intros ? ? Q; discriminate Q]].
  destruct (own_convergence m3 (i_convergence i)) as [m4 [x4|x4]] eqn:E4; pose proof (inv_convergence _ _ _ _ _ _ H3 E4) as H4;
    [|apply pair_equal_spec in E as [<- <-]; split; [exact H4|intros ? ? Q; discriminate Q]].
  destruct (own_mc m4 (i_mc i)) as [m5 [x5|x5]] eqn:E5; destruct (inv_mc _ _ _ _ _ _ H4 E5) as [H5 V5];
    [|apply pair_equal_spec in E as [<- <-]; split; [exact H5|intros ? ? Q; discriminate Q]].
  destruct (deepcopy m5 (i_options i)) as [m6 o] eqn:E6. destruct (inv_copy _ _ _ _ _ _ H5 E6) as [H6 V6]. apply pair_equal_spec in E as [<- <-].
  split; [exact H6|]. intros mc o' Q. injection Q as <- <-. split; [apply V5; reflexivity|exact V6].
Qed.

(** ** C141 *)
(** Creating a runner leaves all dictionaries that existed before as they are, whether it returns or raises. *)
Theorem C141_unchanged :
  forall mem p i mem' r l, own_runner mem p i = (mem', r) -> l < length mem -> nth_error mem' l = nth_error mem l.
Proof. intros mem p i mem' r l E Hl. destruct (inv_runner mem p i mem' r E) as [(_ & O & _) _]. apply O, Hl. Qed.
Lemma contents_new b mem mem' : safe b mem -> (forall l, b <= l -> nth_error mem' l = nth_error mem l) ->
  forall n v, new_value b v -> contents n mem' v = contents n mem v.
Proof.
  intros S Q. induction n as [|n IH]; intros v V; [reflexivity|]. destruct v as [p|l]; [reflexivity|]. cbn [contents]. cbn in V.
  rewrite (Q l V). destruct (nth_error mem l) as [m|] eqn:E; [|reflexivity]. f_equal. f_equal. apply map_ext_in. intros [k w] Hw. cbn [fst snd].
  rewrite IH; [reflexivity|]. exact (S l m V E k w Hw).
Qed.
(** Whatever is done to those dictionaries later has no effect on the options that the runner keeps. *)
Theorem C141_kept :
  forall mem p i mem' mc o mem'' n, own_runner mem p i = (mem', Ok (mc, o)) -> (forall l, length mem <= l -> nth_error mem'' l = nth_error mem' l) ->
    contents n mem'' mc = contents n mem' mc /\ contents n mem'' o = contents n mem' o.
Proof.
  intros mem p i mem' mc o mem'' n E Q. destruct (inv_runner mem p i mem' _ E) as [(_ & _ & S) V]. destruct (V mc o eq_refl) as [V1 V2].
  split; apply (contents_new (length mem)); assumption.
Qed.
Lemma all_some_map {A B} (f g : A -> option B) : forall l r, (forall a x, In a l -> f a = Some x -> g a = Some x) ->
  all_some (map f l) = Some r -> all_some (map g l) = Some r.
Proof.
  induction l as [|a l IH]; intros r H E; [exact E|]. cbn [map all_some] in *. destruct (f a) as [x|] eqn:Ef; [|discriminate].
  rewrite (H a x (or_introl eq_refl) Ef). destruct (all_some (map f l)) as [y|] eqn:El; [|discriminate].
  rewrite (IH y (fun a' x' Q => H a' x' (or_intror Q)) eq_refl). exact E.
Qed.
Lemma contents_more mem mem' : (forall l m, nth_error mem l = Some m -> nth_error mem' l = Some m) ->
  forall n v x, contents n mem v = Some x -> contents n mem' v = Some x.
Proof.
  intros Q. induction n as [|n IH]; intros v x E; [discriminate|]. destruct v as [p|l]; [exact E|]. cbn [contents] in *.
  destruct (nth_error mem l) as [m|] eqn:El; [|discriminate]. rewrite (Q _ _ El).
  destruct (all_some _) as [y|] eqn:Ey in E; [|discriminate].
  erewrite (all_some_map _ _ m y); [exact E| |exact Ey].
  intros [k w] z _ Ez. cbn [fst snd] in *. destruct (contents n mem w) as [c|] eqn:Ec; [|discriminate]. rewrite (IH _ _ Ec). exact Ez.
Qed.
(** Those options are the ones that were given. *)
Theorem C141_given :
  forall mem p i mem' mc o n, own_runner mem p i = (mem', Ok (mc, o)) ->
    (forall x, contents n mem (i_options i) = Some x -> contents n mem' o = Some x)
    /\ forall l x, i_mc i = MRef l -> contents n mem (MRef l) = Some x -> contents n mem' mc = Some x.
Proof.
  intros mem p i mem' mc o n E. unfold MOwn.own_runner in E. pose proof (inv_refl mem) as H0.
  destruct (own_gpr mem (i_gpr i)) as [m1 [x1|x1]] eqn:E1; pose proof (inv_gpr _ _ _ _ _ _ H0 E1) as H1; [|discriminate].
  destruct (own_acq m1 p (i_acq i)) as [m2 [x2|x2]] eqn:E2; pose proof (inv_acq _ _ _ _ _ _ _ H1 E2) as H2; [|discriminate].
  destruct (own_proposer m2 (i_proposer i)) as [m3 [x3|x3]] eqn:E3; pose proof (inv_proposer _ _ _ _ _ _ H2 E3) as H3; [|discriminate].
  destruct (own_convergence m3 (i_convergence i)) as [m4 [x4|x4]] eqn:E4; pose proof (inv_convergence _ _ _ _ _ _ H3 E4) as H4; [|discriminate].
  destruct (own_mc m4 (i_mc i)) as [m5 [x5|x5]] eqn:E5; destruct (inv_mc _ _ _ _ _ _ H4 E5) as [H5 V5]; [|discriminate].
  destruct (deepcopy_copies m5 (i_options i)) as (new & v6 & E6 & _ & _ & C6). rewrite E6 in E. apply pair_equal_spec in E as [<- E]; injection E as <- <-.
  assert (forall m, inv (length mem) mem m -> forall v x, contents n mem v = Some x -> contents n m v = Some x) as K.
  { intros m (_ & O & _). apply contents_more. intros l c El. rewrite O; [exact El|]. apply nth_error_Some. congruence. }
  split; [intros x Ex; apply C6, (K m5 H5), Ex|]. intros l x El Ex.
  apply (contents_more m5); [intros l' c Ec; rewrite nth_error_app1; [exact Ec|apply nth_error_Some; congruence]|].
  rewrite El in E5. unfold MOwn.own_mc in E5. destruct (Nat.ltb 1 (length (cell m4 l))); [discriminate|].
  destruct (deepcopy_copies m4 (MRef l)) as (new5 & v5 & Ed & _ & _ & Q). rewrite Ed in E5. injection E5 as <- <-.
  apply Q, (K m4 H4), Ex.
Qed.
End C141.

(** ** Samples *)
Lemma mlookup_put k v : forall m, mlookup k (mput k v m) = Some v.
Proof.
  induction m as [|[k' v'] m IH]; cbn; [rewrite String.eqb_refl; reflexivity|].
  destruct (k =? k')%string eqn:E; cbn; rewrite E; [reflexivity|exact IH].
Qed.
Lemma mlookup_other k k' v : forall m, k <> k' -> mlookup k (mput k' v m) = mlookup k m.
Proof.
  induction m as [|[k1 v1] m IH]; intros N; cbn.
  - destruct (k =? k')%string eqn:E; [apply String.eqb_eq in E; contradiction|reflexivity].
  - destruct (k' =? k1)%string eqn:E; cbn.
    + apply String.eqb_eq in E as <-. destruct (k =? k')%string eqn:E2; [apply String.eqb_eq in E2; contradiction|reflexivity].
    + destruct (k =? k1)%string; [reflexivity|apply IH, N].
Qed.
Definition nlive_only (d : Z) (mem mem' : memory) (l : nat) : Prop :=
  mlookup "nlive" (cell mem l) = None /\ nth_error mem' l = Some (mput "nlive" (MPrim (VNum (50 * d))) (cell mem l)).
Lemma write_same mem l : write mem l (cell mem l) = mem.
Proof. unfold cell. revert l; induction mem as [|m mem IH]; intros [|l]; cbn; f_equal; auto. Qed.
Lemma or_new_old mem a mem' o : or_new mem a = (mem', o) -> forall l, l < length mem -> nth_error mem' l = nth_error mem l.
Proof.
  intros E l Hl. unfold or_new in E. destruct a as [p|la].
  - destruct (or_empty p); cbn [alloc] in E; apply pair_equal_spec in E as [<- _]; try reflexivity. apply nth_error_app1, Hl.
  - destruct (cell mem la); cbn [alloc] in E; apply pair_equal_spec in E as [<- _]; [apply nth_error_app1, Hl|reflexivity].
Qed.
Lemma or_new_which mem a mem' l : or_new mem a = (mem', Some l) -> (a = MRef l /\ mem' = mem) \/ (length mem <= l /\ cell mem' l = []).
Proof.
  assert (cell (mem ++ [[]]) (length mem) = []) as Q by (unfold cell; rewrite app_nth2, Nat.sub_diag by lia; reflexivity).
  intros E. unfold or_new in E. destruct a as [p|la].
  - destruct (or_empty p); cbn [alloc] in E; try discriminate E. apply pair_equal_spec in E as [<- E]. injection E as <-. right. split; [lia|exact Q].
  - destruct (cell mem la); cbn [alloc] in E; apply pair_equal_spec in E as [<- E]; injection E as <-; [right; split; [lia|exact Q]|left; auto].
Qed.
(** Drawing a sample changes no dictionary of the user except that "nested" completes the options of the sampler with nlive. *)
Theorem C141_sample :
  forall d mem v mem' r l, own_sample d mem v = (mem', r) -> l < length mem ->
    nth_error mem' l = nth_error mem l
    \/ exists l0 name rest, v = MRef l0 /\ nth_error mem l0 = Some ((name, MRef l) :: rest) /\ lower name = "nested" /\ nlive_only d mem mem' l.
Proof.
  intros d mem v mem' r l E Hl. cbv beta delta [own_sample] in E.
  match type of E with (let go := ?g in @?f go) = _ => set (go := g) in E end. cbv zeta in E.
  assert (forall mem1 name a, length mem <= length mem1 -> (forall l, l < length mem -> nth_error mem1 l = nth_error mem l) ->
            go mem1 name a = (mem', r) ->
            nth_error mem' l = nth_error mem l \/ (a = MRef l /\ lower name = "nested" /\ nlive_only d mem mem' l)) as G.
  { intros mem1 name a L1 O1 E1. unfold go in E1. destruct (or_new mem1 a) as [mem2 [la|]] eqn:Eo.
    2: { apply pair_equal_spec in E1 as [<- _]. left. rewrite (or_new_old _ _ _ _ Eo) by lia. apply O1, Hl. }
    destruct (lower name =? "nested")%string eqn:En.
    2: { apply pair_equal_spec in E1 as [<- _]. left. rewrite (or_new_old _ _ _ _ Eo) by lia. apply O1, Hl. }
    apply pair_equal_spec in E1 as [<- _]. rewrite write_nth. destruct (Nat.eqb l la) eqn:Ela.
    2: { left. rewrite (or_new_old _ _ _ _ Eo) by lia. apply O1, Hl. }
    apply Nat.eqb_eq in Ela as <-. destruct (or_new_which _ _ _ _ Eo) as [[-> ->]|[Hge _]]; [|lia].
    unfold mfill. cbn [fold_left fst snd]. destruct (nth_error mem1 l) as [c|] eqn:Ec; [|apply nth_error_None in Ec; lia].
    assert (cell mem1 l = c) as Ecell by (unfold cell; apply nth_error_nth, Ec).
    assert (cell mem l = c) as Ecell0 by (unfold cell; apply nth_error_nth; rewrite <- Ec; symmetry; apply O1, Hl).
    rewrite Ecell. destruct (mlookup "nlive" c) eqn:El.
    - left. rewrite <- O1 by exact Hl. symmetry. exact Ec.
    - right. split; [reflexivity|]. split; [apply String.eqb_eq, En|]. split; [rewrite Ecell0; exact El|].
      rewrite write_nth, Nat.eqb_refl, Ec, Ecell0. reflexivity. }
  destruct v as [p|l0].
  - destruct p as [|s| | | | |]; try (apply pair_equal_spec in E as [<- _]; left; reflexivity).
    cbn [alloc] in E. apply G in E; [|rewrite app_length; lia|intros l' H; apply nth_error_app1, H].
    destruct E as [E|(Q & _)]; [left; exact E|injection Q as Q; lia].
  - destruct (cell mem l0) as [|[name a] c] eqn:Ec; [apply pair_equal_spec in E as [<- _]; left; reflexivity|].
    apply G in E; [|lia|reflexivity]. destruct E as [E|(-> & N & Q)]; [left; exact E|]. right. exists l0, name, c. split; [reflexivity|].
    split; [|split; [exact N|exact Q]]. unfold cell in Ec. destruct (nth_error mem l0) as [m|] eqn:Em.
    + rewrite (nth_error_nth _ _ _ Em) in Ec. congruence.
    + apply nth_error_None in Em. rewrite nth_overflow in Ec by exact Em. discriminate.
Qed.
(** The sampler gets all options that were given. *)
Theorem C141_sample_options :
  forall d mem l0 mem' name opts key l rest k x, own_sample d mem (MRef l0) = (mem', Ok (name, opts)) -> cell mem l0 = (key, MRef l) :: rest ->
    mlookup k (cell mem l) = Some x -> mlookup k opts = Some x.
Proof.
  intros d mem l0 mem' name opts key l rest k x E Ec Ex. unfold own_sample in E. rewrite Ec in E.
  destruct (or_new mem (MRef l)) as [mem2 [la|]] eqn:Eo; [|discriminate].
  assert (la = l /\ mem2 = mem) as [-> ->].
  { cbn [or_new] in Eo. destruct (cell mem l); [discriminate|]. apply pair_equal_spec in Eo as [<- Q]. injection Q as <-. auto. }
  destruct (lower key =? "nested")%string.
  - apply pair_equal_spec in E as [_ E]. injection E as _ <-. unfold cell at 1.
    destruct (nth_error mem l) as [c|] eqn:El; [|unfold cell in Ex; apply nth_error_None in El; rewrite nth_overflow in Ex by exact El; discriminate].
    assert (cell mem l = c) as Q by (unfold cell; apply nth_error_nth, El).
    match goal with |- context [nth l ?m []] => assert (nth_error m l = Some (mfill c [("nlive", MPrim (VNum (50 * d)))])) as H end.
    { rewrite write_nth, Nat.eqb_refl, El, Q. reflexivity. }
    rewrite (nth_error_nth _ _ _ H). unfold mfill. cbn [fold_left fst snd]. rewrite Q in Ex.
    destruct (mlookup "nlive" c) eqn:En; [exact Ex|]. rewrite mlookup_other; [exact Ex|]. intros ->. congruence.
  - apply pair_equal_spec in E as [_ E]. injection E as _ <-. exact Ex.
Qed.

(** ** What does not hold outside of [Runner] *)
Definition sampler_memory : memory := [[("max_ncalls", MPrim (VNum 100))]; [("nested", MRef 0)]].
(** The dictionary of the sampler given by the user is changed... *)
Theorem C141_sample_refuted :
  ~ forall d mem v mem' r l, own_sample d mem v = (mem', r) -> l < length mem -> nth_error mem' l = nth_error mem l.
Proof.
  intros H. specialize (H 2%Z sampler_memory (MRef 1) _ _ 0 eq_refl ltac:(cbn; lia)). vm_compute in H. discriminate.
Qed.
(** ...so that the same dictionary used later for a surrogate of another dimension gets the number of live points of the first. *)
Theorem C141_twice_refuted :
  forall d1 d2, d1 <> d2 -> exists mem v mem1 r1, own_sample d1 mem v = (mem1, Ok r1)
    /\ snd (own_sample d2 mem1 v) = Ok r1 /\ snd (own_sample d2 mem v) <> Ok r1.
Proof.
  intros d1 d2 N. exists sampler_memory, (MRef 1), (write sampler_memory 0 (mput "nlive" (MPrim (VNum (50 * d1))) (cell sampler_memory 0))),
    ("nested", [("max_ncalls", MPrim (VNum 100)); ("nlive", MPrim (VNum (50 * d1)))]).
  split; [reflexivity|]. split; [reflexivity|]. intros E. cbv -[Z.mul] in E.
  assert ((50 * d2)%Z = (50 * d1)%Z) by congruence. lia.
Qed.
(** An acquisition object made directly puts the dimension into the dictionary that describes its function. *)
Theorem C141_engine_refuted :
  ~ forall d ctor functions mem name args mem' r l, own_engine d ctor functions mem name args = (mem', r) -> l < length mem -> nth_error mem' l = nth_error mem l.
Proof.
  intros H. specialize (H 2%Z (fun _ _ => Ok tt) ["LogExp"] [[("zeta", MPrim (VNum 1))]; [("LogExp", MRef 0)]] "BatchOptimizer" [("acq_func", MRef 1)] _ _ 0
    eq_refl ltac:(cbn; lia)). vm_compute in H. discriminate.
Qed.
(** A convergence criterion made directly puts its limits into the dictionary of its parameters: made again from it for another
    dimension, it has the limit of the first. *)
Theorem C141_criterion_refuted :
  forall d1 d2, d1 <> d2 -> exists ctor mem l mem1 r1, own_criterion d1 ctor mem "GaussianKLTrain" l = (mem1, Ok r1)
    /\ nth_error mem1 l <> nth_error mem l
    /\ snd (own_criterion d2 ctor mem1 "GaussianKLTrain" l) = Ok r1 /\ snd (own_criterion d2 ctor mem "GaussianKLTrain" l) <> Ok r1.
Proof.
  intros d1 d2 N. exists (fun _ _ => Ok tt), [[("n_draws", MPrim (VNum 7))]], 0. eexists. eexists. split; [reflexivity|].
  split; [intros E; cbv in E; discriminate|]. split; [reflexivity|]. intros E. cbv in E. injection E as E. congruence.
Qed.

(** None counts as not given; a limit given is kept. *)
Example C141_criterion_case : snd (own_criterion 3 (fun _ _ => Ok tt) [[("limit", MPrim VNone); ("limit_times", MPrim (VNum 5))]] "GaussianKLTrain" 0)
  = Ok (MMake "GaussianKLTrain" [("limit", MPrim (VNum 3)); ("limit_times", MPrim (VNum 5))]).
Proof. reflexivity. Qed.

(** ** Instances *)
(** A deepcopy: copies all of the memory. *)
Definition shift (n : nat) (v : mval) : mval := match v with MPrim p => MPrim p | MRef l => MRef (n + l) end.
Definition copy_all (mem : memory) (v : mval) : memory * mval :=
  (mem ++ map (map (fun kv => (fst kv, shift (length mem) (snd kv)))) mem, shift (length mem) v).
Lemma copy_all_copies : copies copy_all.
Proof.
  intros mem v. exists (map (map (fun kv => (fst kv, shift (length mem) (snd kv)))) mem), (shift (length mem) v). split; [reflexivity|].
  assert (forall w, new_value (length mem) (shift (length mem) w)) as N by (intros [p|l]; cbn; [exact I|lia]).
  split; [|split; [apply N|]].
  - rewrite Forall_forall. intros m Hm k w Hw. apply in_map_iff in Hm as (m0 & <- & _). apply in_map_iff in Hw as ([k0 w0] & E & _). injection E as _ <-. apply N.
  - intros n. revert v. induction n as [|n IH]; intros v x E; [discriminate|]. destruct v as [p|l]; [exact E|]. cbn [shift contents] in *.
    destruct (nth_error mem l) as [m|] eqn:El; [|discriminate]. rewrite nth_error_app2 by lia. replace (length mem + l - length mem) with l by lia.
    rewrite (map_nth_error _ _ _ El). destruct (all_some _) as [y|] eqn:Ey in E; [|discriminate]. rewrite map_map.
    erewrite (all_some_map _ _ m y); [exact E| |exact Ey].
    intros [k w] z _ Ez. cbn [fst snd] in *. destruct (contents n mem w) as [c|] eqn:Ec; [|discriminate]. rewrite (IH _ _ Ec). exact Ez.
Qed.
Definition some_memory : memory :=
  [[("GaussianKLTrain", MRef 1); ("CorrectCounter", MPrim VNone)]; [("n_draws", MPrim (VNum 7))];
   [("kernel", MPrim (VStr "RBF"))]; [("LogExp", MRef 4)]; [("zeta", MPrim (VNum 1))];
   [("n_initial", MPrim (VNum 8)); ("nested", MRef 6)]; [("x", MPrim (VNum 1))]; [("nested", MRef 6)]].
Definition some_inputs : inputs := mkInputs (MRef 2) (MRef 3) (MPrim (VStr "reference")) 0 (MRef 7) (MRef 5).
Definition some_runner := own_runner 2 1 (VStr "bounds") VNone VNone VNone (VNum 1) (VStr "truth") (fun _ => Ok 3%Z) (fun _ _ => Ok tt) ["LogExp"]
  ["BatchOptimizer"; "NORA"] ["GaussianKLTrain"; "CorrectCounter"] copy_all.
Example C141_case_returns : exists mem' mc o, some_runner some_memory VNone some_inputs = (mem', Ok (mc, o))
  /\ firstn (length some_memory) mem' = some_memory /\ Nat.ltb (length some_memory) (length mem') = true
  /\ contents 3 mem' o = Some (VMap [("n_initial", VNum 8); ("nested", VMap [("x", VNum 1)])]).
Proof. eexists. eexists. eexists. split; [vm_compute; reflexivity|]. vm_compute. repeat split. Qed.
(** Raising also leaves them as they are: no such convergence criterion. *)
Example C141_case_raises : exists mem' r, own_runner 2 1 (VStr "bounds") VNone VNone VNone (VNum 1) (VStr "truth") (fun _ => Ok 3%Z) (fun _ _ => Ok tt) ["LogExp"]
  ["BatchOptimizer"; "NORA"] ["GaussianKLTrain"] copy_all some_memory VNone some_inputs = (mem', Err r)
  /\ firstn (length some_memory) mem' = some_memory.
Proof. eexists. eexists. split; [vm_compute; reflexivity|]. vm_compute. reflexivity. Qed.
Example C141_case_sample : own_sample 2 sampler_memory (MRef 1)
  = ([[("max_ncalls", MPrim (VNum 100)); ("nlive", MPrim (VNum 100))]; [("nested", MRef 0)]],
     Ok ("nested", [("max_ncalls", MPrim (VNum 100)); ("nlive", MPrim (VNum 100))])).
Proof. reflexivity. Qed.

Print Assumptions C141_unchanged.
Print Assumptions C141_kept.
Print Assumptions C141_given.
Print Assumptions C141_sample.
Print Assumptions C141_sample_options.
Print Assumptions C141_sample_refuted.
Print Assumptions C141_twice_refuted.
Print Assumptions C141_engine_refuted.
Print Assumptions C141_criterion_refuted.

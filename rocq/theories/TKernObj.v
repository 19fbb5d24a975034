(** C142: kernels given by users are never changed, and surrogates do not share hyperparameters. *)
From Coq Require Import Lra.
From Verif Require Import MKernObj.
Set Default Goal Selector "!".
Set Bullet Behavior "Strict Subproofs".
Open Scope nat_scope.

(** ** Vocabulary *)
(** The same events where every surrogate has its own kernels, as values: [user l] is the kernel of the user that it is made from. *)
Definition values := list (kern * option kern).
Definition vstep (user : nat -> res kern) (vs : values) (e : event) : values * res unit :=
  match e with
  | ENew l => match user l with Ok k => (vs ++ [(k, None)], Ok tt) | Err x => (vs, Err x) end
  | EFit i custom runs draw n cur =>
      match nth_error vs i with
      | None => (vs, Err KeyError)
      | Some (k0, k_) => let (k', r) := fit_kernel k0 k_ custom runs draw n cur in (replace vs i (k0, k'), r)
      end
  | ELml i t cloned =>
      match nth_error vs i with
      | None => (vs, Err KeyError)
      | Some (k0, None) => (vs, Err AttributeError)
      | Some (k0, Some k) => let (k', r) := set_theta k t in (if cloned then vs else replace vs i (k0, Some k'), r)
      end
  | ECopy i => match nth_error vs i with None => (vs, Err KeyError) | Some v => (vs ++ [v], Ok tt) end
  end.
Fixpoint vrun (user : nat -> res kern) (vs : values) (es : list event) : values * list (res unit) :=
  match es with
  | [] => (vs, [])
  | e :: es => let (vs, r) := vstep user vs e in let (vs, rs) := vrun user vs es in (vs, r :: rs)
  end.
(** Surrogates are made from kernels that the user has, at [h0], not too deep for the interpreter. *)
Definition from_user (depth : nat) (h0 : kheap) (es : list event) : Prop := forall l, In (ENew l) es -> exists k, read depth h0 l = Ok k.
(** Events that may change surrogate [j]. *)
Definition about (j : nat) (e : event) : bool :=
  match e with EFit i _ _ _ _ _ => Nat.eqb i j | ELml i _ cloned => Nat.eqb i j && negb cloned | _ => false end.

(** ** Trees that occupy a range of addresses *)
Inductive ctree (h : kheap) : nat -> nat -> nat -> nat -> kern -> Prop :=
| CLeaf lo k : nth_error h lo = Some (OLeaf k) -> ctree h 0 lo (S lo) lo k
| CSum n1 n2 lo m p l1 l2 k1 k2 : ctree h n1 lo m l1 k1 -> ctree h n2 m p l2 k2 -> nth_error h p = Some (OSum l1 l2) ->
    ctree h (S (Nat.max n1 n2)) lo (S p) p (KSum k1 k2)
| CProd n1 n2 lo m p l1 l2 k1 k2 : ctree h n1 lo m l1 k1 -> ctree h n2 m p l2 k2 -> nth_error h p = Some (OProd l1 l2) ->
    ctree h (S (Nat.max n1 n2)) lo (S p) p (KProd k1 k2)
| CPow n1 lo p l1 k1 e : ctree h n1 lo p l1 k1 -> nth_error h p = Some (OPow l1 e) -> ctree h (S n1) lo (S p) p (KPow k1 e).
Lemma ctree_bounds h n lo hi r k : ctree h n lo hi r k -> lo <= r < hi /\ hi <= length h.
Proof.
  intros H. induction H as [lo k E|n1 n2 lo m p l1 l2 k1 k2 H1 [I1 J1] H2 [I2 J2] E|n1 n2 lo m p l1 l2 k1 k2 H1 [I1 J1] H2 [I2 J2] E|n1 lo p l1 k1 e H1 [I1 J1] E];
    assert (nth_error h _ <> None) as Q by (rewrite E; discriminate); apply nth_error_Some in Q; lia.
Qed.
Lemma ctree_frame h h' n lo hi r k : ctree h n lo hi r k -> (forall l, lo <= l < hi -> nth_error h' l = nth_error h l) -> ctree h' n lo hi r k.
Proof.
  intros H. induction H as [lo k E|n1 n2 lo m p l1 l2 k1 k2 H1 IH1 H2 IH2 E|n1 n2 lo m p l1 l2 k1 k2 H1 IH1 H2 IH2 E|n1 lo p l1 k1 e H1 IH1 E]; intros F.
  - constructor. rewrite F by lia. exact E.
  - pose proof (ctree_bounds _ _ _ _ _ _ H1). pose proof (ctree_bounds _ _ _ _ _ _ H2).
    econstructor; [apply IH1|apply IH2|rewrite F by lia; exact E]; intros l Hl; apply F; lia.
  - pose proof (ctree_bounds _ _ _ _ _ _ H1). pose proof (ctree_bounds _ _ _ _ _ _ H2).
    econstructor; [apply IH1|apply IH2|rewrite F by lia; exact E]; intros l Hl; apply F; lia.
  - pose proof (ctree_bounds _ _ _ _ _ _ H1). econstructor; [apply IH1|rewrite F by lia; exact E]; intros l Hl; apply F; lia.
Qed.
Lemma ctree_read h n lo hi r k : ctree h n lo hi r k -> forall depth, n < depth -> read depth h r = Ok k.
Proof.
  intros H. induction H as [lo k E|n1 n2 lo m p l1 l2 k1 k2 H1 IH1 H2 IH2 E|n1 n2 lo m p l1 l2 k1 k2 H1 IH1 H2 IH2 E|n1 lo p l1 k1 e H1 IH1 E];
    intros [|depth] D; try lia; cbn [read]; rewrite E; [reflexivity| | |]; rewrite IH1 by lia; cbn [bind]; try (rewrite IH2 by lia); reflexivity.
Qed.
Lemma read_more h h' : (forall l o, nth_error h l = Some o -> nth_error h' l = Some o) -> forall depth l k, read depth h l = Ok k -> read depth h' l = Ok k.
Proof.
  intros F. induction depth as [|depth IH]; intros l k E; [discriminate|]. cbn [read] in *. destruct (nth_error h l) as [o|] eqn:El; [|discriminate].
  rewrite (F _ _ El). destruct o as [k0|l1 l2|l1 l2|l1 e]; [exact E| | |]; destruct (read depth h l1) as [k1|] eqn:E1; try discriminate;
    rewrite (IH _ _ E1); cbn [bind] in *; try exact E; destruct (read depth h l2) as [k2|] eqn:E2; try discriminate; rewrite (IH _ _ E2); exact E.
Qed.
Lemma app_more (h new : kheap) l o : nth_error h l = Some o -> nth_error (h ++ new) l = Some o.
Proof. intros E. rewrite nth_error_app1; [exact E|]. apply nth_error_Some. congruence. Qed.
Lemma nth_end (h : kheap) o : nth_error (h ++ [o]) (length h) = Some o.
Proof. rewrite nth_error_app2 by lia. rewrite Nat.sub_diag. reflexivity. Qed.
Lemma frame_app (h new : kheap) l : l < length h -> nth_error (h ++ new) l = nth_error h l.
Proof. intros H. apply nth_error_app1, H. Qed.
Lemma clone_ok : forall depth h l k, read depth h l = Ok k -> exists new r n,
  clone depth h l = (h ++ new, Ok r) /\ ctree (h ++ new) n (length h) (length (h ++ new)) r k /\ n < depth.
Proof.
  induction depth as [|depth IH]; intros h l k E; [discriminate|]. cbn [read clone] in *. destruct (nth_error h l) as [o|] eqn:El; [|discriminate].
  assert (forall l1 l2 k1 k2, read depth h l1 = Ok k1 -> read depth h l2 = Ok k2 ->
            exists new1 new2 r1 r2 n1 n2, clone depth h l1 = (h ++ new1, Ok r1) /\ clone depth (h ++ new1) l2 = ((h ++ new1) ++ new2, Ok r2)
              /\ ctree ((h ++ new1) ++ new2) n1 (length h) (length (h ++ new1)) r1 k1
              /\ ctree ((h ++ new1) ++ new2) n2 (length (h ++ new1)) (length ((h ++ new1) ++ new2)) r2 k2 /\ n1 < depth /\ n2 < depth) as B.
  { intros l1 l2 k1 k2 E1 E2. destruct (IH _ _ _ E1) as (new1 & r1 & n1 & C1 & T1 & N1).
    destruct (IH (h ++ new1) l2 k2 (read_more _ _ (app_more h new1) _ _ _ E2)) as (new2 & r2 & n2 & C2 & T2 & N2).
    exists new1, new2, r1, r2, n1, n2. split; [exact C1|]. split; [exact C2|]. split; [|auto].
    apply (ctree_frame _ _ _ _ _ _ _ T1). intros l0 H0. apply frame_app. lia. }
  destruct o as [k0|l1 l2|l1 l2|l1 e].
  - injection E as <-. exists [OLeaf k0], (length h), 0. split; [reflexivity|]. split; [|lia].
    rewrite app_length. cbn [length]. rewrite Nat.add_1_r. constructor. apply nth_end.
  - destruct (read depth h l1) as [k1|] eqn:E1; [|discriminate]. destruct (read depth h l2) as [k2|] eqn:E2; [|discriminate]. injection E as <-.
    destruct (B _ _ _ _ E1 E2) as (new1 & new2 & r1 & r2 & n1 & n2 & -> & C2 & T1 & T2 & N1 & N2). rewrite C2.
    exists (new1 ++ new2 ++ [OSum r1 r2]), (length ((h ++ new1) ++ new2)), (S (Nat.max n1 n2)).
    split; [rewrite <- !app_assoc; reflexivity|]. split; [|lia]. rewrite !app_assoc. rewrite (app_length _ [OSum r1 r2]). cbn [length]. rewrite Nat.add_1_r.
    apply CSum with (m := length (h ++ new1)) (l1 := r1) (l2 := r2); [| |apply nth_end];
      [apply (ctree_frame _ _ _ _ _ _ _ T1)|apply (ctree_frame _ _ _ _ _ _ _ T2)]; intros l0 H0; apply frame_app;
      [pose proof (ctree_bounds _ _ _ _ _ _ T1); lia|lia].
  - destruct (read depth h l1) as [k1|] eqn:E1; [|discriminate]. destruct (read depth h l2) as [k2|] eqn:E2; [|discriminate]. injection E as <-.
    destruct (B _ _ _ _ E1 E2) as (new1 & new2 & r1 & r2 & n1 & n2 & -> & C2 & T1 & T2 & N1 & N2). rewrite C2.
    exists (new1 ++ new2 ++ [OProd r1 r2]), (length ((h ++ new1) ++ new2)), (S (Nat.max n1 n2)).
    split; [rewrite <- !app_assoc; reflexivity|]. split; [|lia]. rewrite !app_assoc. rewrite (app_length _ [OProd r1 r2]). cbn [length]. rewrite Nat.add_1_r.
    apply CProd with (m := length (h ++ new1)) (l1 := r1) (l2 := r2); [| |apply nth_end];
      [apply (ctree_frame _ _ _ _ _ _ _ T1)|apply (ctree_frame _ _ _ _ _ _ _ T2)]; intros l0 H0; apply frame_app;
      [pose proof (ctree_bounds _ _ _ _ _ _ T1); lia|lia].
  - destruct (read depth h l1) as [k1|] eqn:E1; [|discriminate]. injection E as <-.
    destruct (IH _ _ _ E1) as (new1 & r1 & n1 & -> & T1 & N1). exists (new1 ++ [OPow r1 e]), (length (h ++ new1)), (S n1).
    split; [rewrite <- !app_assoc; reflexivity|]. split; [|lia]. rewrite !app_assoc. rewrite (app_length _ [OPow r1 e]). cbn [length]. rewrite Nat.add_1_r.
    apply CPow with (l1 := r1); [|apply nth_end]. apply (ctree_frame _ _ _ _ _ _ _ T1). intros l0 H0. apply frame_app. lia.
Qed.
(** Changes within a range of addresses only. *)
Definition within_range (lo hi : nat) (h h' : kheap) : Prop := length h' = length h /\ forall l, ~ (lo <= l < hi) -> nth_error h' l = nth_error h l.
Lemma range_refl lo hi h : within_range lo hi h h. Proof. split; auto. Qed.
Lemma range_trans lo hi h1 h2 h3 : within_range lo hi h1 h2 -> within_range lo hi h2 h3 -> within_range lo hi h1 h3.
Proof. intros [L1 F1] [L2 F2]. split; [congruence|]. intros l H. rewrite F2, F1 by exact H. reflexivity. Qed.
Lemma range_wider lo hi lo' hi' h h' : within_range lo hi h h' -> lo' <= lo -> hi <= hi' -> within_range lo' hi' h h'.
Proof. intros [L F] H1 H2. split; [exact L|]. intros l H. apply F. lia. Qed.
Lemma kwrite_nth : forall h l o l', nth_error (kwrite h l o) l' = if Nat.eqb l' l then (match nth_error h l with Some _ => Some o | None => None end) else nth_error h l'.
Proof. induction h as [|o0 h IH]; intros [|l] o [|l']; cbn [kwrite nth_error Nat.eqb]; auto; try (destruct (Nat.eqb l' l); reflexivity). Qed.
Lemma kwrite_length : forall h l o, length (kwrite h l o) = length h.
Proof. induction h as [|o0 h IH]; intros [|l] o; cbn; auto. Qed.
Lemma put_ok : forall depth h n lo hi r k t k' x, ctree h n lo hi r k -> n < depth -> set_theta k t = (k', x) ->
  exists h', put_theta depth h r t = (h', x) /\ ctree h' n lo hi r k' /\ within_range lo hi h h'.
Proof.
  induction depth as [|depth IH]; intros h n lo hi r k t k' x T D E; [lia|]. cbn [put_theta].
  assert (forall n1 n2 lo m p l1 l2 k1 k2 (f : kern -> kern -> kern), ctree h n1 lo m l1 k1 -> ctree h n2 m p l2 k2 -> n1 < depth -> n2 < depth ->
     match theta k1 with
     | Err e => (f k1 k2, Err e)
     | Ok t1 => match set_theta k1 (firstn (length t1) t) with
                | (k1', Err e) => (f k1' k2, Err e)
                | (k1', Ok _) => let (k2', r) := set_theta k2 (skipn (length t1) t) in (f k1' k2', r)
                end
     end = (k', x) ->
     exists h' k1' k2', match (do k1 <- read depth h l1; theta k1) with
        | Err e => (h, Err e)
        | Ok t1 => match put_theta depth h l1 (firstn (length t1) t) with
                   | (h, Err e) => (h, Err e)
                   | (h, Ok _) => put_theta depth h l2 (skipn (length t1) t)
                   end
        end = (h', x) /\ k' = f k1' k2' /\ ctree h' n1 lo m l1 k1' /\ ctree h' n2 m p l2 k2' /\ within_range lo p h h') as B.
  { clear T E D n lo hi r k. intros n1 n2 lo m p l1 l2 k1 k2 f T1 T2 D1 D2 E. rewrite (ctree_read _ _ _ _ _ _ T1 _ D1). cbn [bind].
    pose proof (ctree_bounds _ _ _ _ _ _ T1) as B1. pose proof (ctree_bounds _ _ _ _ _ _ T2) as B2.
    destruct (theta k1) as [t1|e].
    2: { injection E as <- <-. exists h, k1, k2. repeat (split; [first [reflexivity|assumption]|]). apply range_refl. }
    destruct (set_theta k1 (firstn (length t1) t)) as [k1' r1] eqn:E1. destruct (IH _ _ _ _ _ _ _ _ _ T1 D1 E1) as (h1 & -> & T1' & W1).
    assert (ctree h1 n2 m p l2 k2) as T2' by (apply (ctree_frame _ _ _ _ _ _ _ T2); intros l0 H0; apply W1; lia).
    destruct r1 as [u|e].
    2: { injection E as <- <-. exists h1, k1', k2. repeat (split; [first [reflexivity|assumption]|]). apply (range_wider _ _ _ _ _ _ W1); lia. }
    destruct (set_theta k2 (skipn (length t1) t)) as [k2' r2] eqn:E2. destruct (IH _ _ _ _ _ _ _ _ _ T2' D2 E2) as (h2 & -> & T2'' & W2).
    injection E as <- <-. exists h2, k1', k2'. split; [reflexivity|]. split; [reflexivity|]. split.
    - apply (ctree_frame _ _ _ _ _ _ _ T1'). intros l0 H0. apply W2. lia.
    - split; [exact T2''|]. apply range_trans with h1; [apply (range_wider _ _ _ _ _ _ W1)|apply (range_wider _ _ _ _ _ _ W2)]; lia. }
  inversion T as [lo0 k0 E0|n1 n2 lo0 m p l1 l2 k1 k2 T1 T2 E0|n1 n2 lo0 m p l1 l2 k1 k2 T1 T2 E0|n1 lo0 p l1 k1 e T1 E0]; subst; rewrite E0.
  - rewrite E. exists (kwrite h r (OLeaf k')). split; [reflexivity|]. split.
    + constructor. rewrite kwrite_nth, Nat.eqb_refl, E0. reflexivity.
    + split; [apply kwrite_length|]. intros l H. rewrite kwrite_nth. replace (Nat.eqb l r) with false by (symmetry; apply Nat.eqb_neq; lia). reflexivity.
  - destruct (B n1 n2 lo m r l1 l2 k1 k2 KSum T1 T2 ltac:(lia) ltac:(lia) E) as (h' & k1' & k2' & -> & -> & T1' & T2' & W).
    exists h'. split; [reflexivity|]. split; [|apply (range_wider _ _ _ _ _ _ W); lia].
    apply CSum with (m := m) (l1 := l1) (l2 := l2); [exact T1'|exact T2'|]. rewrite (proj2 W) by lia. exact E0.
  - destruct (B n1 n2 lo m r l1 l2 k1 k2 KProd T1 T2 ltac:(lia) ltac:(lia) E) as (h' & k1' & k2' & -> & -> & T1' & T2' & W).
    exists h'. split; [reflexivity|]. split; [|apply (range_wider _ _ _ _ _ _ W); lia].
    apply CProd with (m := m) (l1 := l1) (l2 := l2); [exact T1'|exact T2'|]. rewrite (proj2 W) by lia. exact E0.
  - cbn [set_theta] in E. destruct (set_theta k1 t) as [k1' r1] eqn:E1. destruct (IH _ _ _ _ _ _ _ _ _ T1 ltac:(lia) E1) as (h' & -> & T1' & W).
    injection E as <- <-. exists h'. split; [reflexivity|]. split; [|apply (range_wider _ _ _ _ _ _ W); lia].
    apply CPow with (l1 := l1); [exact T1'|]. rewrite (proj2 W) by lia. exact E0.
Qed.
Lemma evaluate_ok depth n lo hi r : n < depth -> forall ts h k k' x, ctree h n lo hi r k -> evaluate k ts = (k', x) ->
  exists h', oevaluate depth h r ts = (h', x) /\ ctree h' n lo hi r k' /\ within_range lo hi h h'.
Proof.
  intros D. induction ts as [|t ts IH]; intros h k k' x T E; cbn [evaluate oevaluate] in *.
  - injection E as <- <-. exists h. split; [reflexivity|]. split; [exact T|apply range_refl].
  - destruct (set_theta k t) as [k1 r1] eqn:E1. destruct (put_ok _ _ _ _ _ _ _ _ _ _ T D E1) as (h1 & -> & T1 & W1). destruct r1 as [u|e].
    + destruct (IH _ _ _ _ T1 E) as (h2 & -> & T2 & W2). exists h2. split; [reflexivity|]. split; [exact T2|]. eapply range_trans; eauto.
    + injection E as <- <-. exists h1. auto.
Qed.
Lemma optimise_ok depth n lo hi r runs draw B cur : n < depth -> forall m i h k acc k' x, ctree h n lo hi r k -> optimise runs draw B cur i m k acc = (k', x) ->
  exists h', ooptimise depth runs draw B cur i m h r acc = (h', x) /\ ctree h' n lo hi r k' /\ within_range lo hi h h'.
Proof.
  intros D. induction m as [|m IH]; intros i h k acc k' x T E; cbn [optimise ooptimise] in *.
  - injection E as <- <-. exists h. split; [reflexivity|]. split; [exact T|apply range_refl].
  - rewrite (ctree_read _ _ _ _ _ _ T _ D). cbn [bind]. destruct (if (cur && Nat.eqb i 0)%bool then theta k else Ok (draw i)) as [start|e].
    2: { injection E as <- <-. exists h. split; [reflexivity|]. split; [exact T|apply range_refl]. }
    cbv zeta in *. destruct (evaluate k (o_evals (runs i start B))) as [k1 r1] eqn:E1.
    destruct (evaluate_ok _ _ _ _ _ D _ _ _ _ _ T E1) as (h1 & -> & T1 & W1). destruct r1 as [u|e]; [|injection E as <- <-; exists h1; auto].
    destruct (o_end (runs i start B)) as [y|e]; [|injection E as <- <-; exists h1; auto].
    destruct (IH _ _ _ _ _ _ T1 E) as (h2 & -> & T2 & W2). exists h2. split; [reflexivity|]. split; [exact T2|]. eapply range_trans; eauto.
Qed.
(** A surrogate of which [kernel_] occupies a range and stands for a value. *)
Definition holds (depth : nat) (h : kheap) (lo hi : nat) (f : option nat) (v : option kern) : Prop :=
  match f with None => v = None | Some l => exists k n, v = Some k /\ n < depth /\ ctree h n lo hi l k end.
Lemma fit_ok depth h g lo hi k0 k_ custom runs draw n cur k_' x :
  read depth h (g_kernel g) = Ok k0 -> holds depth h lo hi (g_fitted g) k_ -> fit_kernel k0 k_ custom runs draw n cur = (k_', x) ->
  exists h' g' lo' hi', ofit depth h g custom runs draw n cur = (h', g', x) /\ g_kernel g' = g_kernel g /\ length h <= length h'
    /\ holds depth h' lo' hi' (g_fitted g') k_' /\ (forall l, l < length h -> ~ (lo' <= l < hi') -> nth_error h' l = nth_error h l)
    /\ ((g_fitted g <> None /\ lo' = lo /\ hi' = hi) \/ (g_fitted g = None /\ length h <= lo')).
Proof.
  intros R0 H E. unfold ofit, fit_kernel in *. rewrite R0. cbn [bind]. destruct (theta k0) as [t0|e].
  2: { injection E as <- <-. exists h, g. destruct (g_fitted g) as [l|] eqn:Eg.
       - exists lo, hi. repeat (split; [first [reflexivity|lia|assumption|exact H]|]). left. split; [discriminate|auto].
       - exists (length h), (length h). repeat (split; [first [reflexivity|lia|assumption|exact H]|]). right. auto. }
  destruct (Nat.eqb (length t0) 0 || Nat.eqb n 0)%bool.
  { destruct (g_fitted g) as [l|] eqn:Eg.
    - destruct H as (k & m & -> & D & T). rewrite (ctree_read _ _ _ _ _ _ T _ D). cbn [bind]. destruct (theta k) as [t|e].
      + destruct (set_theta k t) as [k' r] eqn:Es. destruct (put_ok _ _ _ _ _ _ _ _ _ _ T D Es) as (h1 & -> & T1 & W1). injection E as <- <-.
        exists h1, g, lo, hi. split; [reflexivity|]. split; [reflexivity|]. split; [rewrite (proj1 W1); lia|]. rewrite Eg. split; [exists k', m; auto|].
        split; [intros l0 _ H0; apply W1, H0|]. left. split; [discriminate|auto].
      + injection E as <- <-. exists h, g, lo, hi. rewrite Eg. repeat (split; [first [reflexivity|lia]|]). split; [exists k, m; auto|].
        split; [reflexivity|]. left. split; [discriminate|auto].
    - cbn in H. subst k_. injection E as <- <-. exists h, g, (length h), (length h). rewrite Eg. repeat (split; [first [reflexivity|lia]|]). right. auto. }
  assert (exists h1 l lo1 hi1 k m, match g_fitted g with Some l => (h, Ok l) | None => clone depth h (g_kernel g) end = (h1, Ok l)
            /\ match k_ with Some k => k | None => k0 end = k /\ ctree h1 m lo1 hi1 l k /\ m < depth
            /\ length h <= length h1 /\ (forall l0, l0 < length h -> nth_error h1 l0 = nth_error h l0)
            /\ ((g_fitted g <> None /\ lo1 = lo /\ hi1 = hi) \/ (g_fitted g = None /\ length h <= lo1))) as (h1 & l & lo1 & hi1 & k & m & C & Ek & T & D & L & F & W).
  { destruct (g_fitted g) as [l|].
    - destruct H as (k & m & -> & D & T). exists h, l, lo, hi, k, m. repeat (split; [first [reflexivity|lia|assumption]|]). left. split; [discriminate|auto].
    - cbn in H. subst k_. destruct (clone_ok _ _ _ _ R0) as (new & r & m & C & T & D). exists (h ++ new), r, (length h), (length (h ++ new)), k0, m.
      repeat (split; [first [reflexivity|lia|assumption|rewrite app_length; lia]|]). split; [apply frame_app|]. right. auto. }
  rewrite C. rewrite Ek in E. cbv zeta. rewrite (ctree_read _ _ _ _ _ _ T _ D). cbn [bind].
  assert (forall h2 k2 (y : res unit), ctree h2 m lo1 hi1 l k2 -> within_range lo1 hi1 h1 h2 -> exists h' g' lo' hi', (h2, mkSurrogate (g_kernel g) (Some l), y) = (h', g', y)
            /\ g_kernel g' = g_kernel g /\ length h <= length h' /\ holds depth h' lo' hi' (g_fitted g') (Some k2)
            /\ (forall l0, l0 < length h -> ~ (lo' <= l0 < hi') -> nth_error h' l0 = nth_error h l0)
            /\ ((g_fitted g <> None /\ lo' = lo /\ hi' = hi) \/ (g_fitted g = None /\ length h <= lo'))) as K.
  { intros h2 k2 y T2 [L2 F2]. exists h2, (mkSurrogate (g_kernel g) (Some l)), lo1, hi1. split; [reflexivity|]. split; [reflexivity|]. split; [lia|].
    split; [exists k2, m; auto|]. split; [|exact W]. intros l0 H0 H1. rewrite F2 by exact H1. apply F, H0. }
  destruct (match custom with Some B => Ok B | None => bounds k end) as [B|e]; [|injection E as <- <-; apply K; [exact T|apply range_refl]].
  destruct (optimise runs draw B cur 0 n k []) as [k1 r1] eqn:Eo. destruct (optimise_ok _ _ _ _ _ _ _ _ _ D _ _ _ _ _ _ _ T Eo) as (h2 & -> & T2 & W2).
  destruct r1 as [[|y ys]|e]; [injection E as <- <-; apply K; assumption| |injection E as <- <-; apply K; assumption].
  destruct (set_theta k1 (fst (best y ys))) as [k2 r2] eqn:Es. destruct (put_ok _ _ _ _ _ _ _ _ _ _ T2 D Es) as (h3 & -> & T3 & W3).
  injection E as <- <-. apply K; [exact T3|]. eapply range_trans; eauto.
Qed.

(** ** The simulation *)
Lemma replace_nth {A} : forall (l : list A) i x j, nth_error (replace l i x) j = if Nat.eqb j i then (match nth_error l i with Some _ => Some x | None => None end) else nth_error l j.
Proof. induction l as [|y l IH]; intros [|i] x [|j]; cbn [replace nth_error Nat.eqb]; auto; try (destruct (Nat.eqb j i); reflexivity). Qed.
Lemma replace_length {A} : forall (l : list A) i x, length (replace l i x) = length l.
Proof. induction l as [|y l IH]; intros [|i] x; cbn; auto. Qed.
Definition linked (depth : nat) (h0 h : kheap) (b : nat * nat) (g : surrogate) (v : kern * option kern) : Prop :=
  read depth h0 (g_kernel g) = Ok (fst v) /\ holds depth h (fst b) (snd b) (g_fitted g) (snd v) /\ (g_fitted g <> None -> length h0 <= fst b).
Definition disjoint (b b' : nat * nat) : Prop := snd b <= fst b' \/ snd b' <= fst b.
Definition inv (depth : nat) (h0 : kheap) (s : kheap * list surrogate) (vs : values) : Prop :=
  length (snd s) = length vs /\ length h0 <= length (fst s) /\ (forall l, l < length h0 -> nth_error (fst s) l = nth_error h0 l) /\
  exists blk : nat -> nat * nat,
    (forall i g, nth_error (snd s) i = Some g -> exists v, nth_error vs i = Some v /\ linked depth h0 (fst s) (blk i) g v)
    /\ forall i j gi gj, i <> j -> nth_error (snd s) i = Some gi -> nth_error (snd s) j = Some gj ->
         g_fitted gi <> None -> g_fitted gj <> None -> disjoint (blk i) (blk j).
Lemma inv_read depth h0 s vs l k : inv depth h0 s vs -> read depth h0 l = Ok k -> read depth (fst s) l = Ok k.
Proof.
  intros (_ & _ & F & _). apply read_more. intros l' o E. rewrite F; [exact E|]. apply nth_error_Some. congruence.
Qed.
Lemma holds_frame depth h h' lo hi f v : holds depth h lo hi f v -> (forall l, l < length h -> lo <= l < hi -> nth_error h' l = nth_error h l) -> holds depth h' lo hi f v.
Proof.
  intros H F. destruct f as [l|]; [|exact H]. destruct H as (k & n & E & D & T). exists k, n. split; [exact E|]. split; [exact D|].
  apply (ctree_frame _ _ _ _ _ _ _ T). intros l0 H0. apply F; [|exact H0]. pose proof (ctree_bounds _ _ _ _ _ _ T). lia.
Qed.
Lemma holds_bounds depth h lo hi l v : holds depth h lo hi (Some l) v -> lo < hi /\ hi <= length h.
Proof. intros (k & n & _ & _ & T). pose proof (ctree_bounds _ _ _ _ _ _ T). lia. Qed.
Lemma nth_app {A} (l : list A) x i y : nth_error (l ++ [x]) i = Some y -> nth_error l i = Some y \/ (i = length l /\ y = x).
Proof.
  intros E. destruct (Nat.lt_ge_cases i (length l)) as [H|H]; [left; rewrite nth_error_app1 in E by exact H; exact E|right].
  rewrite nth_error_app2 in E by exact H. destruct (i - length l) as [|m] eqn:Em; [|destruct m; discriminate]. injection E as <-. split; [lia|reflexivity].
Qed.
(** Changes to the memory that leave the surrogates as they are. *)
Lemma inv_heap depth h0 h gs vs h' : inv depth h0 (h, gs) vs -> length h <= length h' -> (forall l, l < length h -> nth_error h' l = nth_error h l) -> inv depth h0 (h', gs) vs.
Proof.
  intros (Ln & L0 & F0 & blk & H & Dj) L F. cbn [fst snd] in *. split; [exact Ln|]. split; [cbn; lia|]. split; [cbn; intros l Hl; rewrite F by lia; apply F0, Hl|].
  exists blk. split; [|exact Dj]. cbn [fst snd]. intros i g E. destruct (H i g E) as (v & Ev & Hr & Hh & Hb). exists v. split; [exact Ev|].
  split; [exact Hr|]. split; [|exact Hb]. apply (holds_frame _ _ _ _ _ _ _ Hh). intros l Hl _. apply F, Hl.
Qed.
(** A new surrogate. *)
Lemma inv_add depth h0 h gs vs g v b : inv depth h0 (h, gs) vs -> linked depth h0 h b g v ->
  (forall j gj bj, nth_error gs j = Some gj -> g_fitted gj <> None -> g_fitted g <> None ->
     holds depth h (fst bj) (snd bj) (g_fitted gj) (match nth_error vs j with Some v => snd v | None => None end) -> snd bj <= fst b) ->
  inv depth h0 (h, gs ++ [g]) (vs ++ [v]).
Proof.
  intros (Ln & L0 & F0 & blk & H & Dj) Lk Hd. cbn [fst snd] in *. split; [cbn; rewrite !app_length; cbn; lia|]. split; [exact L0|]. split; [exact F0|].
  exists (fun i => if Nat.eqb i (length gs) then b else blk i). cbn [fst snd]. split.
  - intros i gi E. destruct (nth_app _ _ _ _ E) as [E'|[-> ->]].
    + assert (i < length gs) by (apply nth_error_Some; congruence). replace (Nat.eqb i (length gs)) with false by (symmetry; apply Nat.eqb_neq; lia).
      destruct (H i gi E') as (vi & Ev & Lki). exists vi. split; [rewrite nth_error_app1 by lia; exact Ev|exact Lki].
    + rewrite Nat.eqb_refl. exists v. split; [|exact Lk]. rewrite nth_error_app2 by lia. replace (length gs - length vs) with 0 by lia. reflexivity.
  - intros i j gi gj Nij Ei Ej Fi Fj. destruct (nth_app _ _ _ _ Ei) as [Ei'|[-> ->]]; destruct (nth_app _ _ _ _ Ej) as [Ej'|[-> ->]]; [| | |congruence].
    + assert (i < length gs) by (apply nth_error_Some; congruence). assert (j < length gs) by (apply nth_error_Some; congruence).
      replace (Nat.eqb i (length gs)) with false by (symmetry; apply Nat.eqb_neq; lia). replace (Nat.eqb j (length gs)) with false by (symmetry; apply Nat.eqb_neq; lia). eapply Dj; eauto.
    + assert (i < length gs) by (apply nth_error_Some; congruence). replace (Nat.eqb i (length gs)) with false by (symmetry; apply Nat.eqb_neq; lia). rewrite Nat.eqb_refl.
      left. destruct (H i gi Ei') as (vi & Ev & _ & Hh & _). apply (Hd i gi (blk i) Ei' Fi Fj). rewrite Ev. exact Hh.
    + assert (j < length gs) by (apply nth_error_Some; congruence). replace (Nat.eqb j (length gs)) with false by (symmetry; apply Nat.eqb_neq; lia). rewrite Nat.eqb_refl.
      right. destruct (H j gj Ej') as (vj & Ev & _ & Hh & _). apply (Hd j gj (blk j) Ej' Fj Fi). rewrite Ev. exact Hh.
Qed.
(** One surrogate changes within its range, or gets a new range at the end. *)
Lemma inv_change depth h0 h gs vs i g g' v' h' :
  inv depth h0 (h, gs) vs -> nth_error gs i = Some g -> g_kernel g' = g_kernel g -> length h <= length h' ->
  (forall lo hi, length h0 <= lo \/ g_fitted g = None -> holds depth h lo hi (g_fitted g) (match nth_error vs i with Some v => snd v | None => None end) ->
     exists lo' hi', holds depth h' lo' hi' (g_fitted g') v'
       /\ (forall l, l < length h -> ~ (lo' <= l < hi') -> nth_error h' l = nth_error h l)
       /\ ((g_fitted g <> None /\ lo' = lo /\ hi' = hi) \/ (g_fitted g = None /\ length h <= lo'))) ->
  exists k0, nth_error vs i = Some (k0, match nth_error vs i with Some v => snd v | None => None end) /\ inv depth h0 (h', replace gs i g') (replace vs i (k0, v')).
Proof.
  intros (Ln & L0 & F0 & blk & H & Dj) Eg Kg L S. cbn [fst snd] in *. destruct (H i g Eg) as ([k0 v] & Ev & Hr & Hh & Hb). cbn [fst snd] in *.
  rewrite Ev in *. cbn [snd] in *. exists k0. split; [reflexivity|].
  assert (length h0 <= fst (blk i) \/ g_fitted g = None) as Hb' by (destruct (g_fitted g); [left; apply Hb; discriminate|right; reflexivity]).
  destruct (S (fst (blk i)) (snd (blk i)) Hb' Hh) as (lo' & hi' & Hh' & F & W). clear S.
  assert (length h0 <= lo') as Lo by (destruct W as [(Fg & -> & ->)|[Fg Hl]]; [apply Hb, Fg|lia]).
  (* ranges of the others are not touched *)
  assert (forall j gj vj, j <> i -> nth_error gs j = Some gj -> nth_error vs j = Some vj -> g_fitted gj <> None -> linked depth h0 h (blk j) gj vj ->
            disjoint (blk j) (lo', hi') /\ linked depth h0 h' (blk j) gj vj) as O.
  { intros j gj vj Nj Ej Evj Fj (Rj & Hj & Bj). destruct (g_fitted gj) as [lj|] eqn:Egj; [|congruence]. pose proof (holds_bounds _ _ _ _ _ _ Hj) as Bdj.
    assert (disjoint (blk j) (lo', hi')) as Q.
    { destruct W as [(Fg & -> & ->)|[Fg Hl]]; [|left; cbn; lia]. rewrite <- surjective_pairing. apply (Dj j i gj g Nj Ej Eg); [congruence|exact Fg]. }
    split; [exact Q|]. split; [exact Rj|]. rewrite Egj. split; [|intros _; apply Bj; discriminate].
    apply (holds_frame _ _ _ _ _ _ _ Hj). intros l Hl Hlj. apply F; [exact Hl|]. destruct Q as [Q|Q]; cbn in Q; lia. }
  split; [cbn; rewrite !replace_length; exact Ln|]. split; [cbn; lia|]. split; [cbn; intros l Hl; rewrite F by lia; apply F0, Hl|].
  exists (fun j => if Nat.eqb j i then (lo', hi') else blk j). cbn [fst snd]. split.
  - intros j gj Ej. rewrite replace_nth in Ej. rewrite replace_nth. destruct (Nat.eqb j i) eqn:Eji.
    + rewrite Eg in Ej. injection Ej as <-. rewrite Ev. exists (k0, v'). split; [reflexivity|]. split; [cbn; rewrite Kg; exact Hr|]. split; [exact Hh'|]. intros _. exact Lo.
    + destruct (H j gj Ej) as (vj & Evj & Lk). exists vj. split; [exact Evj|]. apply Nat.eqb_neq in Eji.
      destruct (g_fitted gj) eqn:Egj.
      * apply (O j gj vj Eji Ej Evj); [congruence|exact Lk].
      * destruct Lk as (Rj & Hj & Bj). split; [exact Rj|]. split; [rewrite Egj in *; exact Hj|exact Bj].
  - intros a b ga gb Nab Ea Eb Fa Fb. rewrite replace_nth in Ea, Eb. destruct (Nat.eqb a i) eqn:Eai; destruct (Nat.eqb b i) eqn:Ebi.
    + apply Nat.eqb_eq in Eai, Ebi. congruence.
    + apply Nat.eqb_neq in Ebi. destruct (H b gb Eb) as (vb & Evb & Lk). destruct (O b gb vb Ebi Eb Evb Fb Lk) as [[Q|Q] _]; [right|left]; exact Q.
    + apply Nat.eqb_neq in Eai. destruct (H a ga Ea) as (va & Eva & Lk). apply (O a ga va Eai Ea Eva Fa Lk).
    + eapply Dj; eauto.
Qed.
Lemma inv_get depth h0 h gs vs i g : inv depth h0 (h, gs) vs -> nth_error gs i = Some g -> exists v lo hi,
  nth_error vs i = Some v /\ read depth h (g_kernel g) = Ok (fst v) /\ holds depth h lo hi (g_fitted g) (snd v) /\ read depth h0 (g_kernel g) = Ok (fst v)
  /\ (g_fitted g <> None -> length h0 <= lo).
Proof.
  intros I E. pose proof I as (Ln & L0 & F0 & blk & H & Dj). destruct (H i g E) as (v & Ev & Hr & Hh & Hb). exists v, (fst (blk i)), (snd (blk i)).
  split; [exact Ev|]. split; [apply (inv_read _ _ _ _ _ _ I Hr)|]. auto.
Qed.
Lemma inv_none depth h0 h gs vs i : inv depth h0 (h, gs) vs -> nth_error gs i = None -> nth_error vs i = None.
Proof. intros (Ln & _) E. apply nth_error_None in E. apply nth_error_None. cbn in Ln. lia. Qed.
Lemma step_ok depth h0 s vs e s' r : inv depth h0 s vs -> (forall l, e = ENew l -> exists k, read depth h0 l = Ok k) -> ostep depth s e = (s', r) ->
  exists vs', vstep (read depth h0) vs e = (vs', r) /\ inv depth h0 s' vs'.
Proof.
  destruct s as [h gs]. intros I U E. destruct e as [l|i custom runs draw n cur|i t cloned|i]; cbn [ostep vstep] in *.
  - destruct (U l eq_refl) as (k & Ek). rewrite Ek. injection E as <- <-. exists (vs ++ [(k, None)]). split; [reflexivity|].
    apply inv_add with (b := (0, 0)); [exact I| |intros j gj bj _ _ Q; cbn in Q; congruence]. split; [exact Ek|]. split; [reflexivity|cbn; congruence].
  - destruct (nth_error gs i) as [g|] eqn:Eg; [|rewrite (inv_none _ _ _ _ _ _ I Eg); injection E as <- <-; exists vs; auto].
    destruct (inv_get _ _ _ _ _ _ _ I Eg) as ([k0 k_] & lo & hi & Ev & R & Hh & _). cbn [fst snd] in *. rewrite Ev.
    destruct (fit_kernel k0 k_ custom runs draw n cur) as [k' x] eqn:Ef.
    destruct (fit_ok _ _ _ _ _ _ _ _ _ _ _ _ _ _ R Hh Ef) as (h' & g' & _ & _ & Eo & Kg & L & _ & _ & _). rewrite Eo in E. injection E as <- <-.
    exists (replace vs i (k0, k')). split; [reflexivity|].
    destruct (inv_change _ _ _ _ _ i g g' k' h' I Eg Kg L) as (k1 & E1 & I1).
    { intros lo1 hi1 _ H1. rewrite Ev in H1. cbn [snd] in H1. destruct (fit_ok _ _ _ _ _ _ _ _ _ _ _ _ _ _ R H1 Ef) as (h2 & g2 & lo2 & hi2 & Eo2 & _ & _ & H2 & F2 & W2).
      rewrite Eo in Eo2. injection Eo2 as <- <-. exists lo2, hi2. auto. }
    rewrite Ev in E1. injection E1 as <-. exact I1.
  - destruct (nth_error gs i) as [g|] eqn:Eg; [|rewrite (inv_none _ _ _ _ _ _ I Eg); injection E as <- <-; exists vs; auto].
    destruct (inv_get _ _ _ _ _ _ _ I Eg) as ([k0 k_] & lo & hi & Ev & R & Hh & _). cbn [fst snd] in *. rewrite Ev.
    destruct (g_fitted g) as [l|] eqn:Ef; [|cbn in Hh; subst k_; injection E as <- <-; exists vs; auto].
    pose proof Hh as (k & m & -> & D & T). destruct (set_theta k t) as [k' x] eqn:Es. destruct cloned.
    + destruct (clone_ok _ _ _ _ (ctree_read _ _ _ _ _ _ T _ D)) as (new & l' & m' & Ec & T' & D'). rewrite Ec in E.
      destruct (put_ok _ _ _ _ _ _ _ _ _ _ T' D' Es) as (h2 & E2 & _ & W2). rewrite E2 in E. injection E as <- <-. exists vs. split; [reflexivity|].
      apply (inv_heap _ _ h); [exact I|rewrite (proj1 W2), app_length; lia|]. intros l0 H0. rewrite (proj2 W2) by lia. apply frame_app, H0.
    + destruct (put_ok _ _ _ _ _ _ _ _ _ _ T D Es) as (h2 & E2 & T2 & W2). rewrite E2 in E. injection E as <- <-. exists (replace vs i (k0, Some k')). split; [reflexivity|].
      destruct (inv_change _ _ _ _ _ i g g (Some k') h2 I Eg eq_refl) as (k1 & E1 & I1); [rewrite (proj1 W2); lia| |].
      { intros lo1 hi1 _ H1. rewrite Ev, Ef in H1. destruct H1 as (k2 & m2 & Q & D2 & T1). cbn [snd] in Q. injection Q as <-.
        destruct (put_ok _ _ _ _ _ _ _ _ _ _ T1 D2 Es) as (h3 & E3 & T3 & W3). rewrite E2 in E3. injection E3 as <-. exists lo1, hi1. rewrite Ef.
        split; [exists k', m2; auto|]. split; [intros l0 _ H0; apply W3, H0|]. left. split; [discriminate|auto]. }
      rewrite Ev in E1. injection E1 as <-.
      assert (replace gs i g = gs) as Q.
      { clear - Eg. revert i Eg; induction gs as [|g0 gs IH]; intros [|i] Eg; cbn in *; try discriminate; [injection Eg as ->; reflexivity|rewrite IH by exact Eg; reflexivity]. }
      rewrite Q in I1. exact I1.
  - destruct (nth_error gs i) as [g|] eqn:Eg; [|rewrite (inv_none _ _ _ _ _ _ I Eg); injection E as <- <-; exists vs; auto].
    destruct (inv_get _ _ _ _ _ _ _ I Eg) as (v & lo & hi & Ev & R & Hh & R0 & B). rewrite Ev.
    destruct (g_fitted g) as [l|] eqn:Ef.
    + pose proof Hh as (k & m & Es & D & T). destruct (clone_ok _ _ _ _ (ctree_read _ _ _ _ _ _ T _ D)) as (new & l' & m' & Ec & T' & D'). rewrite Ec in E.
      injection E as <- <-. exists (vs ++ [v]). split; [reflexivity|].
      assert (inv depth h0 (h ++ new, gs) vs) as I'.
      { apply (inv_heap _ _ h); [exact I|rewrite app_length; lia|]. intros l0 H0. apply frame_app, H0. }
      apply inv_add with (b := (length h, length (h ++ new))); [exact I'| |].
      * split; [exact R0|]. split; [cbn; exists k, m'; auto|]. intros _. destruct I as (_ & L0 & _). exact L0.
      * intros j gj bj Ej Fj _ Hj. cbn [fst].
        destruct I as (_ & _ & _ & blk & H & _). destruct (H j gj Ej) as (vj & Evj & _ & Hhj & _).
        rewrite Evj in Hj. destruct (g_fitted gj) as [lj|] eqn:Egj; [|congruence].
        destruct Hj as (k1 & m1 & Q1 & D1 & T1). destruct Hhj as (k2 & m2 & Q2 & D2 & T2).
        assert (lj < length h) as Lj by (pose proof (ctree_bounds _ _ _ _ _ _ T2) as Q; cbn [fst] in Q; lia).
        pose proof (ctree_bounds _ _ _ _ _ _ T1) as Bd.
        assert (snd bj = S lj) as -> by (inversion T1; reflexivity). lia.
    + injection E as <- <-. exists (vs ++ [v]). split; [reflexivity|].
      apply inv_add with (b := (0, 0)); [exact I| |intros j gj bj _ _ Q; congruence]. split; [exact R0|]. rewrite Ef. split; [exact Hh|congruence].
Qed.
Lemma inv_start depth h0 : inv depth h0 (h0, []) [].
Proof.
  split; [reflexivity|]. split; [cbn; lia|]. split; [reflexivity|]. exists (fun _ => (0, 0)). split; [intros [|i] g E; discriminate|intros [|i] j gi gj _ E; discriminate].
Qed.
Lemma run_ok depth h0 : forall es s vs s' rs, inv depth h0 s vs -> from_user depth h0 es -> orun depth s es = (s', rs) ->
  exists vs', vrun (read depth h0) vs es = (vs', rs) /\ inv depth h0 s' vs'.
Proof.
  induction es as [|e es IH]; intros s vs s' rs I U E; cbn [orun vrun] in *.
  - injection E as <- <-. exists vs. auto.
  - destruct (ostep depth s e) as [s1 r] eqn:E1. destruct (orun depth s1 es) as [s2 rs2] eqn:E2. injection E as <- <-.
    destruct (step_ok _ _ _ _ _ _ _ I (fun l Q => U l (or_introl Q)) E1) as (vs1 & V1 & I1). rewrite V1.
    destruct (IH _ _ _ _ I1 (fun l Q => U l (or_intror Q)) E2) as (vs2 & V2 & I2). rewrite V2. exists vs2. auto.
Qed.

(** ** C142 *)
(** No kernel of the user is changed, whatever is done with the surrogates made from them, also when something raises. *)
Theorem C142_user : forall depth h0 es s rs l, from_user depth h0 es -> orun depth (h0, []) es = (s, rs) -> l < length h0 ->
  nth_error (fst s) l = nth_error h0 l.
Proof.
  intros depth h0 es s rs l U E Hl. destruct (run_ok _ _ _ _ _ _ _ (inv_start depth h0) U E) as (vs & _ & _ & _ & F & _). apply F, Hl.
Qed.
(** Every surrogate has the hyperparameters, and every call returns or raises, as if each of them had kernels of its own. *)
Theorem C142_values : forall depth h0 es s rs, from_user depth h0 es -> orun depth (h0, []) es = (s, rs) ->
  exists vs, vrun (read depth h0) [] es = (vs, rs) /\ length vs = length (snd s) /\
    forall i g k0 k_, nth_error (snd s) i = Some g -> nth_error vs i = Some (k0, k_) ->
      read depth (fst s) (g_kernel g) = Ok k0 /\ match g_fitted g, k_ with Some l, Some k => read depth (fst s) l = Ok k | None, None => True | _, _ => False end.
Proof.
  intros depth h0 es s rs U E. destruct (run_ok _ _ _ _ _ _ _ (inv_start depth h0) U E) as (vs & V & I). exists vs. split; [exact V|]. destruct s as [h gs].
  split; [symmetry; apply I|]. cbn [fst snd]. intros i g k0 k_ Eg Ev. destruct (inv_get _ _ _ _ _ _ _ I Eg) as (v & lo & hi & Ev' & R & Hh & _).
  rewrite Ev in Ev'. injection Ev' as <-. cbn [fst snd] in *. split; [exact R|]. destruct (g_fitted g) as [l|]; [|cbn in Hh; subst; exact Logic.I].
  destruct Hh as (k & n & -> & D & T). apply (ctree_read _ _ _ _ _ _ T _ D).
Qed.
(** An event that is not about a surrogate leaves it, and what its kernels stand for, as they are. *)
Theorem C142_others : forall depth h0 es s rs e s' r j g, from_user depth h0 (es ++ [e]) -> orun depth (h0, []) es = (s, rs) -> ostep depth s e = (s', r) ->
  about j e = false -> nth_error (snd s) j = Some g ->
  nth_error (snd s') j = Some g /\ read depth (fst s') (g_kernel g) = read depth (fst s) (g_kernel g)
  /\ forall l, g_fitted g = Some l -> read depth (fst s') l = read depth (fst s) l.
Proof.
  intros depth h0 es s rs e s' r j g U E1 E2 A Eg.
  destruct (run_ok _ _ _ _ _ _ _ (inv_start depth h0) (fun l Q => U l (in_or_app _ _ _ (or_introl Q))) E1) as (vs & V1 & I1).
  assert (forall l, e = ENew l -> exists k, read depth h0 l = Ok k) as U2 by (intros l Q; apply U, in_or_app; right; left; exact Q).
  destruct (step_ok _ _ _ _ _ _ _ I1 U2 E2) as (vs' & V2 & I2).
  destruct s as [h gs], s' as [h' gs']. cbn [fst snd] in *.
  destruct (inv_get _ _ _ _ _ _ _ I1 Eg) as (v & lo & hi & Ev & R & Hh & _).
  assert (nth_error gs' j = Some g) as Eg'.
  { assert (j < length gs) as Lj by (apply nth_error_Some; congruence).
    destruct e as [l|i custom runs draw n cur|i t cloned|i]; cbn [ostep about] in *.
    - injection E2 as _ <- _. rewrite nth_error_app1 by exact Lj. exact Eg.
    - destruct (nth_error gs i) as [gi|]; [|injection E2 as _ <- _; exact Eg]. destruct (ofit depth h gi custom runs draw n cur) as [[h2 g2] r2]. injection E2 as _ <- _.
      rewrite replace_nth, Nat.eqb_sym, A. exact Eg.
    - destruct (nth_error gs i) as [gi|]; [|injection E2 as _ <- _; exact Eg]. destruct (g_fitted gi) as [li|]; [|injection E2 as _ <- _; exact Eg]. destruct cloned.
      + destruct (clone depth h li) as [h2 [l2|e2]]; [destruct (put_theta depth h2 l2 t) as [h3 r3]|]; injection E2 as _ <- _; exact Eg.
      + destruct (put_theta depth h li t) as [h3 r3]. injection E2 as _ <- _; exact Eg.
    - destruct (nth_error gs i) as [gi|]; [|injection E2 as _ <- _; exact Eg]. destruct (g_fitted gi) as [li|].
      + destruct (clone depth h li) as [h2 [l2|e2]]; injection E2 as _ <- _; [rewrite nth_error_app1 by exact Lj|]; exact Eg.
      + injection E2 as _ <- _. rewrite nth_error_app1 by exact Lj. exact Eg. }
  assert (nth_error vs' j = Some v) as Ev'.
  { assert (j < length vs) as Lj by (apply nth_error_Some; congruence).
    destruct e as [l|i custom runs draw n cur|i t cloned|i]; cbn [vstep about] in *.
    - destruct (read depth h0 l); injection V2 as <- _; [rewrite nth_error_app1 by exact Lj|]; exact Ev.
    - destruct (nth_error vs i) as [[k0 k_]|]; [|injection V2 as <- _; exact Ev]. destruct (fit_kernel k0 k_ custom runs draw n cur) as [k' x]. injection V2 as <- _.
      rewrite replace_nth, Nat.eqb_sym, A. exact Ev.
    - destruct (nth_error vs i) as [[k0 [k|]]|]; [|injection V2 as <- _; exact Ev|injection V2 as <- _; exact Ev]. destruct (set_theta k t) as [k' x]. injection V2 as <- _.
      destruct cloned; [exact Ev|]. rewrite replace_nth, Nat.eqb_sym. cbn [negb] in A. rewrite Bool.andb_true_r in A. rewrite A. exact Ev.
    - destruct (nth_error vs i) as [vi|]; injection V2 as <- _; [rewrite nth_error_app1 by exact Lj|]; exact Ev. }
  destruct (inv_get _ _ _ _ _ _ _ I2 Eg') as (v2 & lo2 & hi2 & Ev2 & R2 & Hh2 & _). rewrite Ev' in Ev2. injection Ev2 as <-.
  split; [exact Eg'|]. split; [congruence|]. intros l El. rewrite El in Hh, Hh2. destruct Hh as (k & n & Q & D & T). destruct Hh2 as (k2 & n2 & Q2 & D2 & T2).
  rewrite (ctree_read _ _ _ _ _ _ T _ D), (ctree_read _ _ _ _ _ _ T2 _ D2). congruence.
Qed.

(** ** What does not hold *)
Definition some_bounds : hbounds := BRows (1 / 10, 10)%R [].
Definition some_kernel : kern := KConst 1 some_bounds.
(** An optimiser that returns one vector. *)
Definition finds (t : list R) : nat -> list R -> list (R * R) -> opt_run := fun _ _ _ => Run [] (Ok (t, 0%R)).
Lemma exp_0_1 : exp 0 <> exp 1.
Proof. intros E. apply exp_inv in E. lra. Qed.
(** Surrogates made from the fitted kernel of another one ([kernel=gp.kernel_]) depend on it. *)
Theorem C142_fitted_refuted :
  ~ forall depth h0 es s rs e s' r j g, orun depth (h0, []) es = (s, rs) -> ostep depth s e = (s', r) -> about j e = false -> nth_error (snd s) j = Some g ->
      read depth (fst s') (g_kernel g) = read depth (fst s) (g_kernel g).
Proof.
  intros H. specialize (H 2 [OLeaf some_kernel] [ENew 0; EFit 0 None (finds [0%R]) (fun _ => []) 1 false; ENew 1] _ _
    (EFit 0 None (finds [1%R]) (fun _ => []) 1 false) _ _ 1 (mkSurrogate 1 None) eq_refl eq_refl eq_refl eq_refl).
  cbn in H. injection H as H. apply exp_0_1. symmetry. exact H.
Qed.
(** A kernel in which one object occurs twice: both occurrences have the same hyperparameters, whatever they are set to... *)
Definition twice : kheap := [OLeaf some_kernel; OSum 0 0].
(** ...but surrogates make two kernels of it. *)
Theorem C142_shared_refuted :
  (forall t h r k1 k2, put_theta 3 twice 1 t = (h, r) -> read 3 h 1 = Ok (KSum k1 k2) -> k1 = k2)
  /\ exists s g l k1 k2, orun 3 (twice, []) [ENew 1; EFit 0 None (finds [0%R; 1%R]) (fun _ => []) 1 false] = (s, [Ok tt; Ok tt])
       /\ nth_error (snd s) 0 = Some g /\ g_fitted g = Some l /\ read 3 (fst s) l = Ok (KSum k1 k2) /\ k1 <> k2.
Proof.
  split.
  - intros t h r k1 k2 E R. assert (exists o, nth_error h 1 = Some (OSum 0 0) /\ nth_error h 0 = Some (OLeaf o)) as (o & E1 & E0).
    { unfold twice in E. cbn [put_theta nth_error read bind] in E.
      destruct (theta some_kernel) as [t1|e]; [|apply pair_equal_spec in E as [<- _]; exists some_kernel; auto].
      destruct (set_theta some_kernel (firstn (length t1) t)) as [k r1]. cbn [kwrite] in E. destruct r1 as [u|e]; [|apply pair_equal_spec in E as [<- _]; exists k; auto].
      cbn [nth_error] in E. destruct (set_theta k (skipn (length t1) t)) as [k' r2]. apply pair_equal_spec in E as [<- _]. exists k'. auto. }
    cbn [read] in R. rewrite E1, E0 in R. cbn [bind] in R. assert (KSum o o = KSum k1 k2) as Q by congruence. injection Q as <- <-. reflexivity.
  - do 5 eexists. split; [reflexivity|]. split; [reflexivity|]. split; [reflexivity|]. split; [reflexivity|]. cbn. intros E. injection E as E. exact (exp_0_1 E).
Qed.

(** ** Instances *)
(** Two surrogates and a copy, all made from the same kernel object. *)
Definition some_events : list event :=
  [ENew 1; ENew 1; EFit 0 None (finds [0%R; 1%R]) (fun _ => []) 1 false; ECopy 0; EFit 2 None (finds [1%R; 0%R]) (fun _ => []) 1 true; ELml 0 [1%R; 1%R] true].
Example C142_case_from_user : from_user 3 twice some_events.
Proof. intros l [H|[H|[H|[H|[H|[H|[]]]]]]]; try discriminate H; injection H as <-; eexists; reflexivity. Qed.
Example C142_case : exists s, orun 3 (twice, []) some_events = (s, [Ok tt; Ok tt; Ok tt; Ok tt; Ok tt; Ok tt])
  /\ map g_fitted (snd s) = [Some 4; None; Some 7]
  /\ read 3 (fst s) 4 = Ok (KSum (KConst (exp 0) some_bounds) (KConst (exp 1) some_bounds))
  /\ read 3 (fst s) 7 = Ok (KSum (KConst (exp 1) some_bounds) (KConst (exp 0) some_bounds))
  /\ read 3 (fst s) 1 = Ok (KSum some_kernel some_kernel).
Proof. eexists. split; [reflexivity|]. repeat split. Qed.

Print Assumptions C142_user.
Print Assumptions C142_values.
Print Assumptions C142_others.
Print Assumptions C142_fitted_refuted.
Print Assumptions C142_shared_refuted.

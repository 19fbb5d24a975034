(** Proofs about the ranked pool. The five arrays are viewed as one list of slots. *)
From Verif Require Import MPool Argsort.
Set Default Goal Selector "!".

(** List operations commute with [map]. *)
Definition rmap {A B} (f : A -> B) (r : res A) : res B :=
  match r with Ok a => Ok (f a) | Err e => Err e end.

Lemma slice_map {A B} (f : A -> B) a b l : slice a b (map f l) = map f (slice a b l).
Proof. unfold slice. rewrite skipn_map, firstn_map. reflexivity. Qed.
Lemma get_map {A B} (f : A -> B) l i : get (map f l) i = rmap f (get l i).
Proof. unfold get. rewrite nth_error_map. destruct (nth_error l i); reflexivity. Qed.
Lemma take_map {A B} (f : A -> B) l idx : take (map f l) idx = rmap (map f) (take l idx).
Proof.
  induction idx as [|i idx IH]; simpl; auto.
  rewrite get_map. destruct (get l i); simpl; auto. rewrite IH. destruct (take l idx); reflexivity.
Qed.
Lemma set_slice_map {A B} (f : A -> B) l a b v :
  set_slice (map f l) a b (map f v) = rmap (map f) (set_slice l a b v).
Proof.
  unfold set_slice. rewrite slice_map, !map_length.
  destruct (length v =? length (slice a b l)); auto. simpl.
  rewrite !map_app, firstn_map, skipn_map. reflexivity.
Qed.
Lemma upd_map {A B} (f : A -> B) l i v : upd (map f l) i (f v) = map f (upd l i v).
Proof. revert i; induction l as [|x l IH]; intros [|i]; simpl; auto. rewrite IH; auto. Qed.
Lemma set_map {A B} (f : A -> B) l i v : set (map f l) i (f v) = rmap (map f) (set l i v).
Proof. unfold set. rewrite map_length, upd_map. destruct (i <? length l); auto. Qed.
Lemma find_idx_map {A B} (f : A -> B) P l : find_idx P (map f l) = find_idx (fun x => P (f x)) l.
Proof. induction l as [|x l IH]; simpl; auto. rewrite IH. reflexivity. Qed.
Lemma insert_shift_map {A B} (f : A -> B) i v l :
  insert_shift i (f v) (map f l) = map f (insert_shift i v l).
Proof.
  unfold insert_shift. rewrite map_app, firstn_map, skipn_map. simpl. do 2 f_equal.
  generalize (skipn i l) as k. induction k as [|x k IH]; simpl; auto.
  destruct k; simpl in *; auto. f_equal. auto.
Qed.
Lemma combine_map2 {A B C} (f : A -> B) (g : A -> C) l :
  combine (map f l) (map g l) = map (fun x => (f x, g x)) l.
Proof. induction l as [|x l IH]; simpl; auto. rewrite IH. auto. Qed.
Lemma map2_map {A B C D E} (h : B -> D -> E) (f : A -> B) (g : C -> D) (k : A -> C) l :
  map2 h (map f l) (map g (map k l)) = map (fun x => h (f x) (g (k x))) l.
Proof. induction l as [|x l IH]; simpl; auto. rewrite IH. auto. Qed.

Lemma upd_length {A} (l : list A) i v : length (upd l i v) = length l.
Proof. revert i; induction l as [|x l IH]; intros [|i]; simpl; auto. Qed.
Lemma upd_same {A} (l : list A) i v : i < length l -> nth_error (upd l i v) i = Some v.
Proof. revert i; induction l as [|x l IH]; intros [|i] H; simpl in *; try lia; auto. apply IH; lia. Qed.
Lemma upd_other {A} (l : list A) i j v : i <> j -> nth_error (upd l i v) j = nth_error l j.
Proof.
  revert i j; induction l as [|x l IH]; intros [|i] [|j] H; simpl in *; try lia; auto.
Qed.

Lemma nth_error_slice {A} (l : list A) a b j : a + j < b ->
  nth_error (slice a b l) j = nth_error l (a + j).
Proof.
  intros H. unfold slice.
  assert (nth_error (skipn a l) j = nth_error l (a + j)) as <-.
  { clear. revert a. induction l as [|x l IH]; intros [|a]; simpl; auto. destruct j; auto. }
  assert (j < b - a) as Hj by lia.
  generalize (b - a), (skipn a l), Hj. clear. intros n l. revert n j.
  induction l as [|x l IH]; intros [|n] [|j] H; simpl; try lia; auto. apply IH; lia.
Qed.
Lemma slice_length {A} (l : list A) a b : b <= length l -> length (slice a b l) = b - a.
Proof. intros H. unfold slice. rewrite firstn_length, skipn_length. lia. Qed.
Lemma skipn_skipn' {A} (l : list A) : forall a b, skipn b (skipn a l) = skipn (a + b) l.
Proof.
  induction l as [|x l IH]; intros [|a] b; simpl; auto. apply skipn_nil.
Qed.
Lemma slice_split {A} (l : list A) a b : a <= b -> l = firstn a l ++ slice a b l ++ skipn b l.
Proof.
  intros H1. unfold slice. rewrite <- (firstn_skipn a l) at 1. f_equal.
  rewrite <- (firstn_skipn (b - a) (skipn a l)) at 1. f_equal.
  rewrite skipn_skipn'. f_equal. lia.
Qed.

Lemma find_idx_some {A} (f : A -> bool) l : forall i, find_idx f l = Some i ->
  (exists x, nth_error l i = Some x /\ f x = true) /\
  (forall j x, j < i -> nth_error l j = Some x -> f x = false).
Proof.
  induction l as [|y l IH]; intros i H; simpl in H; [discriminate|].
  destruct (f y) eqn:E.
  - injection H as <-. split; [exists y; auto|]. intros; lia.
  - destruct (find_idx f l) as [k|] eqn:Ek; [|discriminate]. injection H as <-.
    destruct (IH k eq_refl) as [H1 H2]. split; auto.
    intros [|j] x Hj Hx; simpl in *; [congruence|]. apply (H2 j); auto; lia.
Qed.
Lemma find_idx_none {A} (f : A -> bool) l : find_idx f l = None ->
  forall j x, nth_error l j = Some x -> f x = false.
Proof.
  induction l as [|y l IH]; intros H j x Hx; [destruct j; discriminate|]. simpl in H.
  destruct (f y) eqn:E; [discriminate|].
  destruct (find_idx f l) eqn:Ek; [discriminate|].
  destruct j; simpl in Hx; [congruence|]. eapply IH; eauto.
Qed.

(** Reordering by a permutation of the indices. *)
Lemma take_all {A} (l : list A) idx : (forall i, In i idx -> i < length l) ->
  exists r, take l idx = Ok r /\ length r = length idx /\
    forall a i, nth_error idx a = Some i -> nth_error r a = nth_error l i.
Proof.
  induction idx as [|i idx IH]; intros H; simpl.
  - exists []. repeat split. intros [|a] i; discriminate.
  - destruct (nth_error l i) as [x|] eqn:Ex.
    2:{ apply nth_error_None in Ex. specialize (H i (or_introl eq_refl)). lia. }
    unfold get at 1. rewrite Ex. simpl.
    destruct IH as (r & Hr & Hl & Hn); [intros; apply H; right; auto|].
    rewrite Hr. simpl. exists (x :: r). repeat split; simpl; auto.
    intros [|a] k Hk; simpl in *; [congruence|auto].
Qed.
Lemma take_perm {A} (l : list A) idx : Permutation idx (seq 0 (length l)) ->
  exists r, take l idx = Ok r /\ Permutation r l /\
    forall a i, nth_error idx a = Some i -> nth_error r a = nth_error l i.
Proof.
  intros Hp.
  assert (forall i, In i idx -> i < length l) as Hin.
  { intros i Hi. apply (Permutation_in _ Hp) in Hi. apply in_seq in Hi. lia. }
  destruct (take_all l idx Hin) as (r & Hr & Hl & Hn). exists r. repeat split; auto.
  assert (forall (d : A) l, map (fun i => nth i l d) (seq 0 (length l)) = l) as Hseq.
  { clear. intros d. induction l as [|x l IH]; simpl; auto. f_equal.
    rewrite <- seq_shift, map_map. auto. }
  destruct l as [|d l'].
  - simpl in Hp. apply Permutation_sym, Permutation_nil in Hp. subst idx. simpl in Hr.
    injection Hr as <-. auto.
  - set (l := d :: l') in *.
    assert (r = map (fun i => nth i l d) idx) as ->.
    { apply nth_error_ext. intros a. rewrite nth_error_map.
      destruct (nth_error idx a) as [i|] eqn:Ei; cbn [option_map].
      - rewrite (Hn _ _ Ei). apply nth_error_nth'. apply Hin. eapply nth_error_In; eauto.
      - apply nth_error_None. apply nth_error_None in Ei. lia. }
    transitivity (map (fun i => nth i l d) (seq 0 (length l))); [apply Permutation_map; auto|].
    rewrite Hseq. auto.
Qed.

(** ** Position in the list and the re-ranking loop *)
Lemma nth_error_rev {A} (l : list A) i : i < length l ->
  nth_error (rev l) i = nth_error l (length l - 1 - i).
Proof.
  intros Hi. destruct l as [|d l'] eqn:E; [simpl in Hi; lia|]. rewrite <- E in *.
  rewrite (nth_error_nth' (rev l) d) by (rewrite rev_length; auto).
  rewrite (nth_error_nth' l d) by lia. f_equal.
  rewrite rev_nth by auto. f_equal. lia.
Qed.
Lemma nth_error_firstn {A} (l : list A) n j : j < n -> nth_error (firstn n l) j = nth_error l j.
Proof.
  revert n j. induction l as [|x l IH]; intros [|n] [|j] H; simpl; auto; try lia. apply IH. lia.
Qed.

Lemma position_spec {pt} (p : pool pt) a : plen p <= length (pacqc p) ->
  position p a <= plen p /\
  (position p a = 0 \/ exists c, nth_error (pacqc p) (position p a - 1) = Some c /\ nleb a c = true) /\
  (forall h c, position p a <= h -> h < plen p -> nth_error (pacqc p) h = Some c -> nleb a c = false).
Proof.
  intros Hl. unfold position. set (n := plen p) in Hl |- *. set (l := firstn n (pacqc p)).
  assert (length l = n) as Hll by (unfold l; rewrite firstn_length; lia).
  destruct (find_idx _ (rev l)) as [i|] eqn:E.
  - apply find_idx_some in E as [(c & Hc & Hac) Hbefore].
    assert (i < n) as Hi.
    { rewrite <- Hll, <- rev_length. apply nth_error_Some. congruence. }
    rewrite nth_error_rev in Hc by lia. unfold l in Hc. rewrite nth_error_firstn in Hc by (fold l; lia).
    fold l in Hc. rewrite Hll in Hc.
    split; [lia|]. split.
    + right. exists c. split; auto. rewrite <- Hc. f_equal. lia.
    + intros h c' Hh Hhn Hc'. apply (Hbefore (n - 1 - h) c'); [lia|].
      rewrite nth_error_rev by lia. unfold l. rewrite nth_error_firstn by (fold l; lia).
      fold l. rewrite Hll. rewrite <- Hc'. f_equal. lia.
  - split; [lia|]. split; auto. intros h c' _ Hhn Hc'.
    apply (find_idx_none _ _ E (n - 1 - h)). rewrite nth_error_rev by lia.
    unfold l. rewrite nth_error_firstn by (fold l; lia). fold l. rewrite Hll. rewrite <- Hc'. f_equal. lia.
Qed.

Lemma pymin_le a b : isnan a = false -> nleb (pymin a b) a = true.
Proof.
  intros Ha. unfold pymin. destruct (nltb b a) eqn:E; [apply nltb_leb; auto | apply nleb_refl; auto].
Qed.
Lemma pymin_keeps a b c : nleb a c = true -> nleb (pymin a b) c = true.
Proof.
  intros H. eapply nleb_trans; [apply pymin_le|exact H]. eapply nleb_notnan_l; eauto.
Qed.
Lemma pymin_le_r a b : isnan a = false -> isnan b = false -> nleb (pymin a b) b = true.
Proof.
  intros Ha Hb. unfold pymin. destruct (nltb b a) eqn:E; [apply nleb_refl; auto|].
  rewrite nltb_not_leb in E by auto. apply negb_false_iff in E; auto.
Qed.
Lemma pymin_notnan a b : isnan a = false -> isnan (pymin a b) = false.
Proof. intros Ha. eapply nleb_notnan_l. apply pymin_le; auto. Qed.

Lemma rerank_fuel {pt} (std : list (pt * num) -> pt -> num) (acqf : num -> num -> num) (p : pool pt) x y : plen p <= length (pacqc p) ->
  forall fuel a i_last L,
  (L = 0 \/ (i_last = L /\ L < plen p /\ exists c, nth_error (pacqc p) (L - 1) = Some c /\ nleb a c = true)) ->
  plen p - L < fuel ->
  rerank std acqf fuel p x y a i_last <> Err OutOfFuel.
Proof.
  intros Hl. induction fuel as [|fuel IH]; intros a i_last L HL Hf; [lia|]. simpl.
  destruct (position_spec p a Hl) as (Hq & Hq1 & Hq2). set (q := position p a) in Hq, Hq1, Hq2 |- *.
  destruct ((q =? 0) || (q =? i_last) || (q =? plen p)) eqn:Eb; [discriminate|].
  apply orb_false_iff in Eb as [Eb E3]. apply orb_false_iff in Eb as [E1 E2].
  apply Nat.eqb_neq in E1, E2, E3.
  destruct Hq1 as [Hq1|(c & Hc & Hac)]; [lia|].
  assert (L < q) as HLq.
  { destruct HL as [->|(-> & HLn & c' & Hc' & Hac')]; [lia|].
    destruct (Nat.lt_ge_cases q L) as [Hlt|Hge]; [|lia].
    rewrite (Hq2 (L - 1) c') in Hac'; [discriminate|lia|lia|auto]. }
  unfold get. destruct (nth_error (gcond p) (q - 1)) as [[m|]|]; simpl; try discriminate.
  apply (IH _ _ q); [|lia]. right. split; auto. split; [lia|]. exists c. split; auto.
  apply pymin_keeps; auto.
Qed.

(** ** Insertion *)
Lemma removelast_firstn' {A} (l : list A) : removelast l = firstn (length l - 1) l.
Proof.
  induction l as [|x l IH]; auto. destruct l as [|y l]; auto.
  change (removelast (x :: y :: l)) with (x :: removelast (y :: l)). rewrite IH.
  simpl. rewrite Nat.sub_0_r. reflexivity.
Qed.
Lemma insert_nth {A} (l : list A) q t j : q < length l ->
  nth_error (insert_shift q t l) j =
  if j <? q then nth_error l j else if j =? q then Some t
  else if j <? length l then nth_error l (j - 1) else None.
Proof.
  intros Hq. unfold insert_shift.
  assert (length (firstn q l) = q) as Hf by (rewrite firstn_length; lia).
  destruct (Nat.ltb_spec j q).
  - rewrite nth_error_app1 by lia. apply nth_error_firstn; auto.
  - rewrite nth_error_app2 by lia. rewrite Hf. destruct (Nat.eqb_spec j q) as [->|].
    + rewrite Nat.sub_diag. reflexivity.
    + replace (j - q) with (S (j - q - 1)) by lia. simpl. rewrite removelast_firstn', skipn_length.
      destruct (Nat.ltb_spec j (length l)).
      * rewrite nth_error_firstn by lia.
        assert (forall (m : list A) a b, nth_error (skipn a m) b = nth_error m (a + b)) as K.
        { clear. intros m a; revert m. induction a as [|a IH]; intros [|x m] b; simpl; auto.
          destruct b; auto. }
        rewrite K. f_equal. lia.
      * apply nth_error_None. rewrite firstn_length, skipn_length. lia.
Qed.
Lemma insert_length {A} (l : list A) q t : q < length l -> length (insert_shift q t l) = length l.
Proof.
  intros Hq. unfold insert_shift. rewrite app_length. simpl.
  rewrite removelast_firstn', !firstn_length, skipn_length. lia.
Qed.
Lemma insert_firstn {A} (l : list A) q t j : q < length l -> j <= q ->
  firstn j (insert_shift q t l) = firstn j l.
Proof.
  intros Hq Hj. unfold insert_shift. rewrite firstn_app, firstn_firstn, firstn_length.
  replace (j - Nat.min q (length l)) with 0 by lia. rewrite firstn_O, app_nil_r. f_equal. lia.
Qed.

Section P.
Variable pt : Type.
Variable std : list (pt * num) -> pt -> num.
Variable acqf : num -> num -> num.
Variable argsort : list num -> list nat.
Hypothesis Harg : argsort_ok argsort.

Record slot := mkSlot { sx : pt; sy : num; ss : num; sa : num; sc : num }.
Definition setc (v : num) (t : slot) : slot := mkSlot (sx t) (sy t) (ss t) (sa t) v.
Definition of_slots (s : list slot) g c : pool pt :=
  mkPool (map sx s) (map sy s) (map ss s) (map sa s) (map sc s) g c.
Definition pts (s : list slot) : list (pt * num) := map (fun t => (sx t, sy t)) s.
Definition cacheg (i : nat) (s : list slot) (g : list (option (list (pt * num)))) :=
  match i with 0 => g | S k => upd g k (Some (pts (firstn (S k) s))) end.
Definition first_inf (s : list slot) : nat :=
  match find_idx (fun t => is_ninf (sc t)) s with Some j => j | None => length s end.
Definition upper (s : list slot) (i : nat) : num :=
  match i with
  | 0 => PInf
  | S h => match nth_error s h with Some t => sc t | None => PInf end
  end.
Definition val (s : list slot) (i : nat) (t : slot) : num :=
  npmin2 (acqf (sy t) (std (pts (firstn i s)) (sx t))) (upper s i).
Definition mid_of (s : list slot) (i : nat) : list slot := slice i (first_inf s) s.
Definition reord (s : list slot) (i : nat) : res (list slot) :=
  take (mid_of s i) (argsort (map nneg (map (val s i) (mid_of s i)))).
Definition reorder_slots (s : list slot) (i : nat) (r : list slot) : list slot :=
  firstn i s ++ map (fun t => setc (val s i t) t) r ++ skipn (first_inf s) s.
Definition kill_slots (s : list slot) (i : nat) : list slot :=
  firstn i s ++ map (setc NInf) (mid_of s i) ++ skipn (first_inf s) s.

Lemma points_above_slots s g c i : points_above (of_slots s g c) i = pts (firstn i s).
Proof. unfold points_above, of_slots, pts. simpl. rewrite !firstn_map. apply combine_map2. Qed.

Lemma cache_above_slots s g c i : i <= length g ->
  exists c', cache_model_above (of_slots s g c) i = Ok (pts (firstn i s), of_slots s (cacheg i s g) c').
Proof.
  intros Hi. destruct i as [|k]; simpl.
  - exists c. reflexivity.
  - unfold set. destruct (Nat.ltb_spec k (length g)); [|lia].
    cbn [bind]. exists (S c). rewrite points_above_slots. reflexivity.
Qed.

Lemma reord_ok s i : exists r, reord s i = Ok r /\ Permutation r (mid_of s i) /\
  (forall a b t u, a <= b -> nth_error r a = Some t -> nth_error r b = Some u ->
     np_le (nneg (val s i t)) (nneg (val s i u)) = true).
Proof.
  unfold reord. set (mid := mid_of s i).
  set (vs := map nneg (map (val s i) mid)).
  assert (length vs = length mid) as Hlen by (unfold vs; rewrite !map_length; auto).
  destruct (Harg vs) as [Hp Hs]. rewrite Hlen in Hp.
  destruct (take_perm mid _ Hp) as (r & Hr & Hpr & Hn). exists r. repeat split; auto.
  intros a b t u Hab Ha Hb.
  assert (length r = length (argsort vs)) as Hrl.
  { rewrite (Permutation_length Hpr), (Permutation_length Hp), seq_length. auto. }
  destruct (nth_error (argsort vs) a) as [ia|] eqn:Ea.
  2:{ apply nth_error_None in Ea. assert (a < length r) by (apply nth_error_Some; congruence). lia. }
  destruct (nth_error (argsort vs) b) as [ib|] eqn:Eb.
  2:{ apply nth_error_None in Eb. assert (b < length r) by (apply nth_error_Some; congruence). lia. }
  pose proof (Hn _ _ Ea) as Ha'. pose proof (Hn _ _ Eb) as Hb'. rewrite Ha in Ha'. rewrite Hb in Hb'.
  eapply (Hs a b ia ib); eauto; unfold vs; rewrite map_map, nth_error_map.
  - rewrite <- Ha'. reflexivity.
  - rewrite <- Hb'. reflexivity.
Qed.

Lemma of_slots_ext s s' g c :
  map sx s = map sx s' -> map sy s = map sy s' -> map ss s = map ss s' -> map sa s = map sa s' ->
  map sc s = map sc s' -> of_slots s g c = of_slots s' g c.
Proof. unfold of_slots. intros -> -> -> -> ->. reflexivity. Qed.

Lemma map_setc (r : list slot) (f : slot -> num) :
  map sx (map (fun t => setc (f t) t) r) = map sx r /\
  map sy (map (fun t => setc (f t) t) r) = map sy r /\
  map ss (map (fun t => setc (f t) t) r) = map ss r /\
  map sa (map (fun t => setc (f t) t) r) = map sa r /\
  map sc (map (fun t => setc (f t) t) r) = map f r.
Proof. repeat split; rewrite map_map; apply map_ext; reflexivity. Qed.

Lemma find_first_inf s g c :
  match find_idx is_ninf (pacqc (of_slots s g c)) with
  | Some j => j | None => plen (of_slots s g c) + 1 end
  = if length s =? 0 then 1 else first_inf s.
Proof.
  unfold first_inf, plen, of_slots; simpl. rewrite find_idx_map, map_length.
  destruct s as [|t s]; auto.
  destruct (find_idx (fun t0 => is_ninf (sc t0)) (t :: s)); simpl; auto. lia.
Qed.

Lemma take_shift {A} (l : list A) i b idx :
  (forall j, In j idx -> j < length (slice i b l)) ->
  take l (map (fun j => i + j) idx) = take (slice i b l) idx.
Proof.
  induction idx as [|j idx IH]; intros H; simpl; auto.
  rewrite IH by (intros; apply H; right; auto).
  unfold get. assert (j < length (slice i b l)) as Hj by (apply H; left; auto).
  rewrite nth_error_slice; auto.
  unfold slice in Hj. rewrite firstn_length in Hj. lia.
Qed.

Lemma sort_unfold k i s g c : i < length s -> length g = length s ->
  exists c',
  sort_ std acqf argsort (S k) i (of_slots s g c) =
  match nth_error s i with
  | None => Err IndexError
  | Some t =>
      if is_ninf (sc t) then Ok (of_slots s (cacheg i s g) c')
      else match reord s i with
           | Err e => Err e
           | Ok [] => Err IndexError
           | Ok ((t0 :: _) as r) =>
               if is_ninf (val s i t0) then Ok (of_slots (kill_slots s i) (cacheg i s g) c')
               else sort_ std acqf argsort k (S i) (of_slots (reorder_slots s i r) (cacheg i s g) c')
           end
  end.
Proof.
  intros Hi Hg.
  destruct (cache_above_slots s g c i ltac:(lia)) as (c' & Hc). exists c'.
  cbn [sort_]. rewrite Hc. cbn [bind].
  change (pacqc (of_slots s (cacheg i s g) c')) with (map sc s).
  rewrite get_map. unfold get at 1. destruct (nth_error s i) as [t|] eqn:Et; [|reflexivity].
  cbn [rmap bind]. destruct (is_ninf (sc t)) eqn:Einf; [reflexivity|].
  pose proof (find_first_inf s (cacheg i s g) c') as Hf.
  change (pacqc (of_slots s (cacheg i s g) c')) with (map sc s) in Hf. rewrite Hf.
  destruct (Nat.eqb_spec (length s) 0); [lia|].
  assert ((match i with 0 => Ok PInf | S h => get (map sc s) h end) = Ok (upper s i)) as Hub.
  { destruct i as [|h]; auto. rewrite get_map. simpl. unfold get.
    destruct (nth_error s h) eqn:Eh; auto. apply nth_error_None in Eh. lia. }
  rewrite Hub. cbn [bind].
  cbn [pX py psig pacq pacqc gcond counter of_slots].
  rewrite !slice_map. fold (mid_of s i).
  rewrite map2_map.
  assert (map (fun v => npmin2 v (upper s i))
            (map (fun x => acqf (sy x) (std (pts (firstn i s)) (sx x))) (mid_of s i))
          = map (val s i) (mid_of s i)) as -> by (rewrite map_map; reflexivity).
  set (mid := mid_of s i) in *.
  set (js := argsort (map nneg (map (val s i) mid))) in *.
  destruct (reord_ok s i) as (r & Hr & Hpr & _).
  rewrite Hr. unfold reord in Hr. fold mid in Hr. fold js in Hr.
  assert (Permutation js (seq 0 (length mid))) as Hjp.
  { unfold js. destruct (Harg (map nneg (map (val s i) mid))) as [Hp _].
    rewrite !map_length in Hp. exact Hp. }
  assert (forall j, In j js -> j < length mid) as Hjin.
  { intros j Hj. apply (Permutation_in _ Hjp) in Hj. apply in_seq in Hj. lia. }
  destruct js as [|j0 js'] eqn:Ejs.
  { simpl in Hr. injection Hr as <-. reflexivity. }
  cbn [get nth_error bind]. change (get (j0 :: js') 0) with (@Ok nat j0). cbn [bind].
  rewrite get_map.
  destruct r as [|t0 r'].
  { simpl in Hr. destruct (get mid j0); simpl in Hr; [|discriminate].
    destruct (take mid js'); simpl in Hr; discriminate. }
  assert (get mid j0 = Ok t0) as Hg0.
  { simpl in Hr. destruct (get mid j0); simpl in Hr; [|discriminate].
    destruct (take mid js'); simpl in Hr; [|discriminate]. injection Hr as <- _. auto. }
  rewrite Hg0. cbn [rmap bind].
  destruct (is_ninf (val s i t0)) eqn:E0.
  - rewrite map_length.
    assert (repeat NInf (length mid) = map sc (map (setc NInf) mid)) as ->.
    { clear. induction mid; simpl; f_equal; auto. }
    rewrite set_slice_map.
    unfold set_slice. rewrite map_length. fold (mid_of s i). fold mid.
    rewrite Nat.eqb_refl. cbn [rmap bind]. unfold kill_slots. fold mid.
    unfold of_slots. destruct (map_setc mid (fun _ => NInf)) as (E1 & E2 & E3 & E4 & _).
    destruct (Nat.le_gt_cases i (first_inf s)) as [Hle|Hgt].
    + pose proof (slice_split s i (first_inf s) Hle) as Hs.
      assert (forall (A : Type) (f : slot -> A), map f (map (fun t => setc NInf t) mid) = map f mid ->
        map f s = map f (firstn i s ++ map (setc NInf) mid ++ skipn (first_inf s) s)) as K.
      { intros A f Hf'. rewrite Hs at 1. rewrite !map_app. f_equal. f_equal. symmetry. exact Hf'. }
      rewrite <- (K _ sx E1), <- (K _ sy E2), <- (K _ ss E3), <- (K _ sa E4). reflexivity.
    + assert (mid = []) as Hm.
      { unfold mid, mid_of, slice. replace (first_inf s - i) with 0 by lia. reflexivity. }
      rewrite Hm in Hg0. destruct j0; discriminate.
  - assert (forall (A : Type) (f : slot -> A),
      (do v <- take (map f s) (map (fun j => i + j) (j0 :: js')); set_slice (map f s) i (first_inf s) v)
      = Ok (map f (firstn i s ++ (t0 :: r') ++ skipn (first_inf s) s))) as K.
    { intros A f. rewrite take_map, (take_shift s i (first_inf s)) by exact Hjin.
      fold (mid_of s i). fold mid. rewrite Hr. cbn [rmap bind]. rewrite set_slice_map.
      unfold set_slice. fold (mid_of s i). fold mid. rewrite (Permutation_length Hpr), Nat.eqb_refl.
      reflexivity. }
    rewrite !K. cbn [bind].
    rewrite take_map, Hr. cbn [rmap bind].
    assert (map (val s i) (t0 :: r') = map sc (map (fun t => setc (val s i t) t) (t0 :: r'))) as ->.
    { symmetry. apply map_setc. }
    rewrite set_slice_map. unfold set_slice. rewrite map_length. fold (mid_of s i). fold mid.
    rewrite (Permutation_length Hpr), Nat.eqb_refl. cbn [rmap bind].
    unfold reorder_slots, of_slots.
    destruct (map_setc (t0 :: r') (val s i)) as (E1 & E2 & E3 & E4 & _).
    rewrite !map_app. rewrite E1, E2, E3, E4. reflexivity.
Qed.


(** ** The sort as a relation *)
Inductive SR : nat -> nat -> list slot -> list (option (list (pt * num))) ->
               list slot -> list (option (list (pt * num))) -> Prop :=
| SR_done i s g : SR 0 i s g s g
| SR_empty k i s g t :
    nth_error s i = Some t -> sc t = NInf -> SR (S k) i s g s (cacheg i s g)
| SR_kill k i s g t t0 r :
    nth_error s i = Some t -> sc t <> NInf -> reord s i = Ok (t0 :: r) -> val s i t0 = NInf ->
    SR (S k) i s g (kill_slots s i) (cacheg i s g)
| SR_rec k i s g t t0 r s' g' :
    nth_error s i = Some t -> sc t <> NInf -> reord s i = Ok (t0 :: r) -> val s i t0 <> NInf ->
    SR k (S i) (reorder_slots s i (t0 :: r)) (cacheg i s g) s' g' ->
    SR (S k) i s g s' g'.

Lemma is_ninf_true a : is_ninf a = true <-> a = NInf.
Proof. unfold is_ninf. destruct a; simpl; split; congruence. Qed.
Lemma is_ninf_false a : is_ninf a = false <-> a <> NInf.
Proof. rewrite <- is_ninf_true. destruct (is_ninf a); split; congruence. Qed.

Lemma first_inf_le s : first_inf s <= length s.
Proof.
  unfold first_inf. destruct (find_idx _ s) as [j|] eqn:E; auto.
  apply find_idx_some in E as [(x & Hx & _) _].
  assert (j < length s) by (apply nth_error_Some; congruence). lia.
Qed.
Lemma first_inf_below s j t : j < first_inf s -> nth_error s j = Some t -> sc t <> NInf.
Proof.
  unfold first_inf. intros Hj Ht. apply is_ninf_false. destruct (find_idx _ s) as [k|] eqn:E.
  - apply find_idx_some in E as [_ H]. eapply (H j); eauto.
  - eapply (find_idx_none _ _ E j); eauto.
Qed.
Lemma first_inf_at s t : nth_error s (first_inf s) = Some t -> sc t = NInf.
Proof.
  unfold first_inf. intros Ht. destruct (find_idx _ s) as [k|] eqn:E.
  - apply find_idx_some in E as [(x & Hx & Hi) _]. apply is_ninf_true. congruence.
  - assert (length s < length s) by (apply nth_error_Some; congruence). lia.
Qed.

Lemma mid_length s i : length (mid_of s i) = first_inf s - i.
Proof. unfold mid_of. apply slice_length, first_inf_le. Qed.

Lemma reord_perm s i r : reord s i = Ok r -> Permutation r (mid_of s i).
Proof. destruct (reord_ok s i) as (r' & H & Hp & _). congruence. Qed.
Lemma reord_sorted s i r : reord s i = Ok r ->
  forall a b t u, a <= b -> nth_error r a = Some t -> nth_error r b = Some u ->
     np_le (nneg (val s i t)) (nneg (val s i u)) = true.
Proof.
  destruct (reord_ok s i) as (r' & H & _ & Hs). intros Hr.
  assert (r = r') as -> by congruence. exact Hs.
Qed.

Lemma reord_nonempty s i t r : reord s i = Ok (t :: r) -> i < first_inf s.
Proof.
  intros H. apply reord_perm, Permutation_length in H. rewrite mid_length in H. simpl in H. lia.
Qed.

Lemma nth_three {A} (l m : list A) i b j : i <= b -> b <= length l -> length m = b - i ->
  nth_error (firstn i l ++ m ++ skipn b l) j =
  if j <? i then nth_error l j else if j <? b then nth_error m (j - i) else nth_error l j.
Proof.
  intros Hi Hb Hm.
  assert (length (firstn i l) = i) as Hf by (rewrite firstn_length; lia).
  destruct (Nat.ltb_spec j i) as [Hj|Hj].
  - rewrite nth_error_app1 by lia. rewrite <- (firstn_skipn i l) at 2.
    rewrite nth_error_app1 by lia. reflexivity.
  - rewrite nth_error_app2 by lia. rewrite Hf. destruct (Nat.ltb_spec j b).
    + rewrite nth_error_app1 by lia. reflexivity.
    + rewrite nth_error_app2 by lia. rewrite Hm.
      rewrite <- (firstn_skipn b l) at 2. rewrite nth_error_app2; rewrite firstn_length.
      * f_equal. lia.
      * lia.
Qed.

Lemma reorder_nth s i r j : i <= first_inf s -> length r = first_inf s - i ->
  nth_error (reorder_slots s i r) j =
  if j <? i then nth_error s j
  else if j <? first_inf s then option_map (fun t => setc (val s i t) t) (nth_error r (j - i))
  else nth_error s j.
Proof.
  intros Hi Hr. unfold reorder_slots. rewrite nth_three; auto.
  - rewrite nth_error_map. reflexivity.
  - apply first_inf_le.
  - rewrite map_length; auto.
Qed.
Lemma kill_nth s i j : i <= first_inf s ->
  nth_error (kill_slots s i) j =
  if j <? i then nth_error s j
  else if j <? first_inf s then option_map (setc NInf) (nth_error s j)
  else nth_error s j.
Proof.
  intros Hi. unfold kill_slots. rewrite nth_three; auto.
  - rewrite nth_error_map. destruct (Nat.ltb_spec j i); auto.
    destruct (Nat.ltb_spec j (first_inf s)); auto.
    unfold mid_of. rewrite nth_error_slice by lia. do 2 f_equal. lia.
  - apply first_inf_le.
  - rewrite map_length. apply mid_length.
Qed.
Lemma reorder_length s i r : i <= first_inf s -> length r = first_inf s - i ->
  length (reorder_slots s i r) = length s.
Proof.
  intros Hi Hr. unfold reorder_slots. pose proof (first_inf_le s).
  rewrite !app_length, map_length, skipn_length, firstn_length. lia.
Qed.
Lemma kill_length s i : i <= first_inf s -> length (kill_slots s i) = length s.
Proof.
  intros Hi. unfold kill_slots. pose proof (first_inf_le s).
  rewrite !app_length, map_length, skipn_length, firstn_length, mid_length. lia.
Qed.
Lemma firstn_three {A} (l m : list A) i : i <= length l -> firstn i (firstn i l ++ m) = firstn i l.
Proof.
  intros Hi. rewrite firstn_app, firstn_firstn, Nat.min_id, firstn_length.
  replace (i - Nat.min i (length l)) with 0 by lia. rewrite firstn_O, app_nil_r. reflexivity.
Qed.

Lemma cacheg_length i s g : length (cacheg i s g) = length g.
Proof. destruct i; simpl; auto. apply upd_length. Qed.

Lemma SR_prefix k i s g s' g' : SR k i s g s' g' -> i <= length s ->
  length s' = length s /\ firstn i s' = firstn i s /\ length g' = length g.
Proof.
  induction 1 as [|k i s g t Ht Hinf|k i s g t t0 r Ht Hinf Hr Hv|k i s g t t0 r s' g' Ht Hinf Hr Hv HS IH];
    intros Hi; auto.
  - rewrite cacheg_length. auto.
  - pose proof (reord_nonempty _ _ _ _ Hr). rewrite kill_length, cacheg_length by lia.
    split; auto. split; auto. unfold kill_slots. apply firstn_three. lia.
  - pose proof (reord_nonempty _ _ _ _ Hr). pose proof (reord_perm _ _ _ Hr) as Hp.
    apply Permutation_length in Hp. rewrite mid_length in Hp. pose proof (first_inf_le s).
    rewrite reorder_length in IH by lia. destruct IH as (H1 & H2 & H3); [lia|].
    rewrite cacheg_length in H3. split; auto. split; auto.
    assert (firstn i s' = firstn i (firstn (S i) s')) as -> by (rewrite firstn_firstn; f_equal; lia).
    rewrite H2, firstn_firstn, Nat.min_l by lia. unfold reorder_slots. apply firstn_three. lia.
Qed.

(** Every run of the sort either raises or is described by [SR]. *)
Lemma sort_cases : forall k i s g c, length g = length s -> i + k < length s ->
  (exists e, sort_ std acqf argsort k i (of_slots s g c) = Err e) \/
  (exists s' g' c', sort_ std acqf argsort k i (of_slots s g c) = Ok (of_slots s' g' c')
                    /\ SR k i s g s' g').
Proof.
  induction k as [|k IH]; intros i s g c Hg Hik.
  - right. exists s, g, c. split; [reflexivity|constructor].
  - destruct (sort_unfold k i s g c ltac:(lia) Hg) as (c' & ->).
    destruct (nth_error s i) as [t|] eqn:Et; [|left; eauto].
    destruct (is_ninf (sc t)) eqn:Ei.
    + right. exists s, (cacheg i s g), c'. split; auto. eapply SR_empty; eauto. apply is_ninf_true; auto.
    + apply is_ninf_false in Ei.
      destruct (reord s i) as [[|t0 r]|e] eqn:Er; [left; eauto| |left; eauto].
      pose proof (reord_nonempty _ _ _ _ Er). pose proof (reord_perm _ _ _ Er) as Hp.
      apply Permutation_length in Hp. rewrite mid_length in Hp.
      destruct (is_ninf (val s i t0)) eqn:E0.
      * right. exists (kill_slots s i), (cacheg i s g), c'. split; auto.
        eapply SR_kill; eauto. apply is_ninf_true; auto.
      * apply is_ninf_false in E0.
        destruct (IH (S i) (reorder_slots s i (t0 :: r)) (cacheg i s g) c') as [He|(s' & g' & c2 & Hok & HS)].
        -- rewrite reorder_length, cacheg_length; lia.
        -- rewrite reorder_length; lia.
        -- left; auto.
        -- right. exists s', g', c2. split; auto. eapply SR_rec; eauto.
Qed.

(** ** Contents: the occupied slots, without their conditioned acquisition *)
Definition strip (t : slot) : pt * num * num * num := (sx t, sy t, ss t, sa t).
Definition occ (s : list slot) : list slot := filter (fun t => negb (is_ninf (sc t))) s.
Definition contents (s : list slot) := map strip (occ s).
Definition subm {A} (l k : list A) : Prop := exists r, Permutation (l ++ r) k.

Lemma subm_refl {A} (l : list A) : subm l l.
Proof. exists []. rewrite app_nil_r; auto. Qed.
Lemma subm_trans {A} (l k m : list A) : subm l k -> subm k m -> subm l m.
Proof.
  intros [r1 H1] [r2 H2]. exists (r1 ++ r2). rewrite app_assoc, H1. auto.
Qed.
Lemma subm_perm {A} (l k : list A) : Permutation l k -> subm l k.
Proof. intros H. exists []. rewrite app_nil_r; auto. Qed.
Lemma subm_app {A} (l k l' k' : list A) : subm l k -> subm l' k' -> subm (l ++ l') (k ++ k').
Proof.
  intros [r1 H1] [r2 H2]. exists (r1 ++ r2). rewrite <- H1, <- H2.
  rewrite <- !app_assoc. apply Permutation_app_head.
  rewrite !app_assoc. apply Permutation_app_tail. apply Permutation_app_comm.
Qed.
Lemma subm_nil {A} (l : list A) : subm [] l.
Proof. exists l. auto. Qed.
Lemma subm_map {A B} (f : A -> B) l k : subm l k -> subm (map f l) (map f k).
Proof. intros [r H]. exists (map f r). rewrite <- map_app. apply Permutation_map; auto. Qed.
Lemma subm_filter {A} (f : A -> bool) l : subm (filter f l) l.
Proof.
  induction l as [|x l IH]; simpl; [apply subm_refl|]. destruct IH as [r H].
  destruct (f x).
  - exists r. simpl. auto.
  - exists (x :: r). eapply Permutation_trans; [symmetry; apply Permutation_middle|]. constructor. auto.
Qed.

Lemma contents_app s s' : contents (s ++ s') = contents s ++ contents s'.
Proof.
  unfold contents, occ. rewrite <- map_app. f_equal.
  induction s as [|t s IH]; simpl; auto. destruct (negb _); simpl; rewrite IH; auto.
Qed.
Lemma contents_all s : (forall t, In t s -> sc t <> NInf) -> contents s = map strip s.
Proof.
  intros H. unfold contents, occ. f_equal. induction s as [|t s IH]; simpl; auto.
  assert (is_ninf (sc t) = false) as -> by (apply is_ninf_false, H; left; auto).
  simpl. f_equal. apply IH. intros; apply H; right; auto.
Qed.
Lemma contents_sub s : subm (contents s) (map strip s).
Proof. apply subm_map, subm_filter. Qed.
Lemma mid_occ s i t : In t (mid_of s i) -> sc t <> NInf.
Proof.
  intros H. apply In_nth_error in H as [j Hj].
  assert (j < first_inf s - i) as Hlt.
  { rewrite <- mid_length. apply nth_error_Some. congruence. }
  unfold mid_of in Hj. rewrite nth_error_slice in Hj by lia.
  eapply (first_inf_below s (i + j)); eauto. lia.
Qed.
Lemma mid_split s i : i <= first_inf s -> s = firstn i s ++ mid_of s i ++ skipn (first_inf s) s.
Proof. intros. apply slice_split; auto. Qed.

Lemma reorder_contents s i r : reord s i = Ok r -> i <= first_inf s ->
  subm (contents (reorder_slots s i r)) (contents s).
Proof.
  intros Hr Hi. rewrite (mid_split s i Hi) at 2. unfold reorder_slots. rewrite !contents_app.
  apply subm_app; [apply subm_refl|]. apply subm_app; [|apply subm_refl].
  rewrite (contents_all (mid_of s i)) by (intros; eapply mid_occ; eauto).
  eapply subm_trans; [apply contents_sub|]. rewrite map_map.
  change (map (fun x => strip (setc (val s i x) x)) r) with (map strip r).
  apply subm_perm, Permutation_map, reord_perm; auto.
Qed.
Lemma kill_contents s i : i <= first_inf s -> subm (contents (kill_slots s i)) (contents s).
Proof.
  intros Hi. rewrite (mid_split s i Hi) at 2. unfold kill_slots. rewrite !contents_app.
  apply subm_app; [apply subm_refl|]. apply subm_app; [|apply subm_refl].
  assert (contents (map (setc NInf) (mid_of s i)) = []) as ->; [|apply subm_nil].
  unfold contents, occ. induction (mid_of s i); simpl; auto.
Qed.

Lemma SR_contents k i s g s' g' : SR k i s g s' g' -> subm (contents s') (contents s).
Proof.
  induction 1 as [|k i s g t Ht Hinf|k i s g t t0 r Ht Hinf Hr Hv|k i s g t t0 r s' g' Ht Hinf Hr Hv HS IH].
  - apply subm_refl.
  - apply subm_refl.
  - apply kill_contents. apply reord_nonempty in Hr. lia.
  - eapply subm_trans; [exact IH|]. apply reorder_contents; auto. apply reord_nonempty in Hr. lia.
Qed.

(** ** Order *)
Definition sorted (s : list slot) : Prop :=
  forall i j t u, i <= j -> nth_error s i = Some t -> nth_error s j = Some u ->
  nleb (sc u) (sc t) = true.

Lemma sorted_notnan s i t : sorted s -> nth_error s i = Some t -> isnan (sc t) = false.
Proof. intros Hs Ht. eapply nleb_notnan_l. eapply (Hs i i); eauto. Qed.
Lemma nleb_ninf a : nleb a NInf = true -> a = NInf.
Proof. destruct a; simpl; congruence. Qed.
Lemma ninf_leb a : isnan a = false -> nleb NInf a = true.
Proof. destruct a; simpl; congruence. Qed.

Lemma sorted_after_inf s j t : sorted s -> first_inf s <= j -> nth_error s j = Some t -> sc t = NInf.
Proof.
  intros Hs Hj Ht. destruct (nth_error s (first_inf s)) as [u|] eqn:Eu.
  - apply nleb_ninf. rewrite <- (first_inf_at _ _ Eu). eapply (Hs (first_inf s) j); eauto.
  - apply nth_error_None in Eu. assert (j < length s) by (apply nth_error_Some; congruence). lia.
Qed.
Lemma sorted_inf_pos s i t : sorted s -> nth_error s i = Some t -> sc t <> NInf -> i < first_inf s.
Proof.
  intros Hs Ht Hn. destruct (Nat.lt_ge_cases i (first_inf s)) as [|H]; auto.
  exfalso. apply Hn. eapply sorted_after_inf; eauto.
Qed.

Lemma np_le_neg a b : isnan a = false -> isnan b = false -> np_le (nneg a) (nneg b) = true ->
  nleb b a = true.
Proof. unfold np_le. destruct a, b; simpl; auto; try discriminate. intros _ _ H. qc. Qed.
Lemma npmin2_notnan a b : isnan a = false -> isnan b = false -> isnan (npmin2 a b) = false.
Proof. unfold npmin2, pymin. intros Ha Hb. rewrite Ha, Hb. simpl. destruct (nltb b a); auto. Qed.
Lemma npmin2_le_l a b : isnan a = false -> isnan b = false -> nleb (npmin2 a b) a = true.
Proof.
  intros Ha Hb. unfold npmin2, pymin. rewrite Ha, Hb. simpl. destruct (nltb b a) eqn:E.
  - apply nltb_leb; auto.
  - apply nleb_refl; auto.
Qed.
Lemma npmin2_le_r a b : isnan a = false -> isnan b = false -> nleb (npmin2 a b) b = true.
Proof.
  intros Ha Hb. unfold npmin2, pymin. rewrite Ha, Hb. simpl. destruct (nltb b a) eqn:E.
  - apply nleb_refl; auto.
  - rewrite nltb_not_leb in E by auto. apply negb_false_iff in E; auto.
Qed.

Section NoNaN.
Hypothesis acqf_nn : forall C x y, isnan (acqf y (std C x)) = false.

Lemma upper_nn s i : sorted s -> isnan (upper s i) = false.
Proof.
  intros Hs. unfold upper. destruct i as [|h]; auto. destruct (nth_error s h) eqn:E; auto.
  eapply sorted_notnan; eauto.
Qed.
Lemma val_nn s i t : sorted s -> isnan (val s i t) = false.
Proof. intros Hs. apply npmin2_notnan; auto. apply upper_nn; auto. Qed.
Lemma val_le_upper s i t : sorted s -> nleb (val s i t) (upper s i) = true.
Proof. intros Hs. apply npmin2_le_r; auto. apply upper_nn; auto. Qed.
Lemma val_le_acq s i t : sorted s ->
  nleb (val s i t) (acqf (sy t) (std (pts (firstn i s)) (sx t))) = true.
Proof. intros Hs. apply npmin2_le_l; auto. apply upper_nn; auto. Qed.
Lemma upper_le s i j t : sorted s -> j < i -> i <= length s -> nth_error s j = Some t ->
  nleb (upper s i) (sc t) = true.
Proof.
  intros Hs Hj Hi Ht. destruct i as [|h]; [lia|]. unfold upper.
  destruct (nth_error s h) as [u|] eqn:Eu.
  - eapply (Hs j h); eauto. lia.
  - apply nth_error_None in Eu. lia.
Qed.

Lemma reorder_sorted s i r : sorted s -> reord s i = Ok r -> i <= first_inf s ->
  sorted (reorder_slots s i r).
Proof.
  intros Hs Hr Hi.
  pose proof (reord_perm _ _ _ Hr) as Hp. apply Permutation_length in Hp. rewrite mid_length in Hp.
  pose proof (first_inf_le s) as Hb.
  intros a b t u Hab Ha Hb'. rewrite reorder_nth in Ha, Hb' by auto.
  destruct (Nat.ltb_spec a i) as [Hai|Hai].
  - destruct (Nat.ltb_spec b i) as [Hbi|Hbi]; [eapply (Hs a b); eauto|].
    destruct (Nat.ltb_spec b (first_inf s)) as [Hbf|Hbf]; [|eapply (Hs a b); eauto].
    destruct (nth_error r (b - i)) as [u'|] eqn:Eu; [|discriminate]. simpl in Hb'. injection Hb' as <-.
    simpl. eapply nleb_trans; [apply val_le_upper; auto|]. eapply upper_le; eauto. lia.
  - destruct (Nat.ltb_spec b i) as [Hbi|Hbi]; [lia|].
    destruct (Nat.ltb_spec a (first_inf s)) as [Haf|Haf].
    + destruct (nth_error r (a - i)) as [t'|] eqn:Et; [|discriminate]. simpl in Ha. injection Ha as <-.
      simpl. destruct (Nat.ltb_spec b (first_inf s)) as [Hbf|Hbf].
      * destruct (nth_error r (b - i)) as [u'|] eqn:Eu; [|discriminate]. simpl in Hb'. injection Hb' as <-.
        simpl. apply np_le_neg; try (apply val_nn; auto).
        eapply (reord_sorted _ _ _ Hr (a - i) (b - i)); eauto. lia.
      * rewrite (sorted_after_inf s b u) by auto. apply ninf_leb, val_nn; auto.
    + destruct (Nat.ltb_spec b (first_inf s)); [lia|]. eapply (Hs a b); eauto.
Qed.
Lemma kill_sorted s i : sorted s -> i <= first_inf s -> sorted (kill_slots s i).
Proof.
  intros Hs Hi a b t u Hab Ha Hb. rewrite kill_nth in Ha, Hb by auto.
  assert (sc u = NInf \/ nth_error s b = Some u) as Hu.
  { destruct (b <? i); auto. destruct (b <? first_inf s); auto.
    destruct (nth_error s b); [|discriminate]. injection Hb as <-. auto. }
  assert (isnan (sc t) = false) as Hnt.
  { destruct (a <? i); [eapply sorted_notnan; eauto|].
    destruct (a <? first_inf s); [|eapply sorted_notnan; eauto].
    destruct (nth_error s a); [|discriminate]. injection Ha as <-. auto. }
  destruct Hu as [->|Hu]; [apply ninf_leb; auto|].
  destruct (Nat.ltb_spec a i) as [Hai|Hai]; [eapply (Hs a b); eauto|].
  destruct (Nat.ltb_spec a (first_inf s)) as [Haf|Haf]; [|eapply (Hs a b); eauto].
  destruct (Nat.ltb_spec b i) as [Hbi|Hbi]; [lia|].
  destruct (Nat.ltb_spec b (first_inf s)) as [Hbf|Hbf].
  - rewrite Hu in Hb. injection Hb as <-. simpl. apply ninf_leb; auto.
  - rewrite (sorted_after_inf s b u) by auto. apply ninf_leb; auto.
Qed.

Lemma SR_sorted k i s g s' g' : SR k i s g s' g' -> sorted s -> sorted s'.
Proof.
  induction 1 as [|k i s g t Ht Hinf|k i s g t t0 r Ht Hinf Hr Hv|k i s g t t0 r s' g' Ht Hinf Hr Hv HS IH];
    intros Hs; auto.
  - apply kill_sorted; auto. apply reord_nonempty in Hr. lia.
  - apply IH, reorder_sorted; auto. apply reord_nonempty in Hr. lia.
Qed.

Lemma sort_ok : forall k i s g c, length g = length s -> i + k < length s -> sorted s ->
  exists s' g' c', sort_ std acqf argsort k i (of_slots s g c) = Ok (of_slots s' g' c')
                   /\ SR k i s g s' g'.
Proof.
  induction k as [|k IH]; intros i s g c Hg Hik Hs.
  - exists s, g, c. split; [reflexivity|constructor].
  - destruct (sort_unfold k i s g c ltac:(lia) Hg) as (c' & ->).
    destruct (nth_error s i) as [t|] eqn:Et.
    2:{ apply nth_error_None in Et. lia. }
    destruct (is_ninf (sc t)) eqn:Ei.
    + exists s, (cacheg i s g), c'. split; auto. eapply SR_empty; eauto. apply is_ninf_true; auto.
    + apply is_ninf_false in Ei.
      pose proof (sorted_inf_pos _ _ _ Hs Et Ei) as Hpos.
      destruct (reord_ok s i) as (r & Er & Hp & _). rewrite Er.
      apply Permutation_length in Hp. rewrite mid_length in Hp.
      destruct r as [|t0 r]; [simpl in Hp; lia|].
      destruct (is_ninf (val s i t0)) eqn:E0.
      * exists (kill_slots s i), (cacheg i s g), c'. split; auto.
        eapply SR_kill; eauto. apply is_ninf_true; auto.
      * apply is_ninf_false in E0.
        destruct (IH (S i) (reorder_slots s i (t0 :: r)) (cacheg i s g) c') as (s' & g' & c2 & Hok & HS).
        -- rewrite reorder_length, cacheg_length; lia.
        -- rewrite reorder_length; lia.
        -- apply reorder_sorted; auto. lia.
        -- exists s', g', c2. split; auto. eapply SR_rec; eauto.
Qed.

(** Bound on the stored value, and the cache. *)
Definition condle (s : list slot) (j : nat) : Prop :=
  forall t, nth_error s j = Some t -> sc t <> NInf ->
  nleb (sc t) (acqf (sy t) (std (pts (firstn j s)) (sx t))) = true.
Definition cached (s : list slot) (g : list (option (list (pt * num)))) (j : nat) : Prop :=
  nth_error g j = Some (Some (pts (firstn (S j) s))).

Lemma firstn_eq_le {A} (l l' : list A) i j : firstn i l = firstn i l' -> j <= i -> firstn j l = firstn j l'.
Proof.
  intros H Hj. assert (firstn j l = firstn j (firstn i l)) as -> by (rewrite firstn_firstn; f_equal; lia).
  rewrite H, firstn_firstn. f_equal. lia.
Qed.
Lemma firstn_eq_nth {A} (l l' : list A) i j : firstn i l = firstn i l' -> j < i ->
  nth_error l j = nth_error l' j.
Proof.
  intros H Hj.
  assert (forall (m : list A), nth_error m j = nth_error (firstn i m) j) as K.
  { clear H. revert i Hj. induction j as [|j IH]; intros [|i] Hj [|x m]; simpl; auto; try lia.
    apply IH. lia. }
  rewrite (K l), (K l'), H. reflexivity.
Qed.

Lemma SR_cond k i s g s' g' : SR k i s g s' g' -> sorted s -> i + k = length s - 1 -> i <= length s ->
  forall j, i <= j -> j < length s - 1 -> condle s' j.
Proof.
  induction 1 as [|k i s g t Ht Hinf|k i s g t t0 r Ht Hinf Hr Hv|k i s g t t0 r s' g' Ht Hinf Hr Hv HS IH];
    intros Hs Hk Hil j Hij Hj.
  - lia.
  - intros u Hu Hn. exfalso. apply Hn. apply nleb_ninf. rewrite <- Hinf. eapply (Hs i j); eauto.
  - pose proof (reord_nonempty _ _ _ _ Hr) as Hne. intros u Hu Hn. exfalso. apply Hn.
    rewrite kill_nth in Hu by lia. destruct (Nat.ltb_spec j i); [lia|].
    destruct (Nat.ltb_spec j (first_inf s)).
    + destruct (nth_error s j); [|discriminate]. injection Hu as <-. auto.
    + eapply sorted_after_inf; eauto.
  - pose proof (reord_nonempty _ _ _ _ Hr) as Hne. pose proof (reord_perm _ _ _ Hr) as Hp.
    apply Permutation_length in Hp. rewrite mid_length in Hp. pose proof (first_inf_le s) as Hfl.
    assert (i <= first_inf s) as Hif by lia.
    pose proof (reorder_length s i _ Hif Hp) as Hrl.
    pose proof (reorder_sorted s i _ Hs Hr Hif) as Hrs.
    destruct (Nat.eq_dec j i) as [->|Hne'].
    + destruct (SR_prefix _ _ _ _ _ _ HS) as (_ & Hpre & _); [lia|].
      intros u Hu Hn. rewrite (firstn_eq_nth _ _ (S i) i Hpre) in Hu by lia.
      rewrite (firstn_eq_le _ _ (S i) i Hpre) by lia.
      rewrite reorder_nth in Hu by auto. destruct (Nat.ltb_spec i i); [lia|].
      destruct (Nat.ltb_spec i (first_inf s)); [|lia]. rewrite Nat.sub_diag in Hu. simpl in Hu.
      injection Hu as <-. simpl.
      assert (firstn i (reorder_slots s i (t0 :: r)) = firstn i s) as ->.
      { unfold reorder_slots. apply firstn_three. lia. }
      apply val_le_acq; auto.
    + apply IH; auto; try lia.
Qed.

Lemma cacheg_other i s g j : S j <> i -> nth_error (cacheg i s g) j = nth_error g j.
Proof. destruct i as [|k]; simpl; auto. intros. apply upd_other. lia. Qed.

Lemma SR_cache k i s g s' g' : SR k i s g s' g' -> i <= length s -> length g = length s ->
  i + k = length s - 1 ->
  (forall j, S j < i -> nth_error g' j = nth_error g j) /\
  (sorted s -> forall j t, i <= S j -> S j < length s - 1 -> nth_error s' j = Some t -> sc t <> NInf ->
     cached s' g' j).
Proof.
  induction 1 as [|k i s g t Ht Hinf|k i s g t t0 r Ht Hinf Hr Hv|k i s g t t0 r s' g' Ht Hinf Hr Hv HS IH];
    intros Hil Hg Hk.
  - split; auto. intros Hs j t Hij Hj Ht Hn. lia.
  - split; [intros; apply cacheg_other; lia|].
    intros Hs j u Hij Hj Hu Hn. destruct (Nat.eq_dec (S j) i) as [<-|Hne].
    + unfold cached, cacheg. apply upd_same. lia.
    + exfalso. apply Hn, nleb_ninf. rewrite <- Hinf. eapply (Hs i j); eauto. lia.
  - pose proof (reord_nonempty _ _ _ _ Hr) as Hne.
    split; [intros; apply cacheg_other; lia|].
    intros Hs j u Hij Hj Hu Hn. destruct (Nat.eq_dec (S j) i) as [<-|Hne'].
    + unfold cached, cacheg. rewrite upd_same by lia. do 3 f_equal.
      unfold kill_slots. rewrite firstn_three by lia. reflexivity.
    + exfalso. apply Hn. rewrite kill_nth in Hu by lia. destruct (Nat.ltb_spec j i); [lia|].
      destruct (Nat.ltb_spec j (first_inf s)).
      * destruct (nth_error s j); [|discriminate]. injection Hu as <-. auto.
      * eapply sorted_after_inf; eauto.
  - pose proof (reord_nonempty _ _ _ _ Hr) as Hne. pose proof (reord_perm _ _ _ Hr) as Hp.
    apply Permutation_length in Hp. rewrite mid_length in Hp. pose proof (first_inf_le s) as Hfl.
    assert (i <= first_inf s) as Hif by lia.
    pose proof (reorder_length s i _ Hif Hp) as Hrl.
    rewrite Hrl, cacheg_length in IH. destruct IH as [IH1 IH2]; try lia.
    split.
    + intros j Hj. rewrite IH1 by lia. apply cacheg_other; lia.
    + intros Hs j u Hij Hj Hu Hn. pose proof (reorder_sorted s i _ Hs Hr Hif) as Hrs.
      destruct (Nat.eq_dec (S j) i) as [<-|Hne'].
      * unfold cached. rewrite IH1 by lia. unfold cacheg. rewrite upd_same by lia. do 3 f_equal.
        destruct (SR_prefix _ _ _ _ _ _ HS) as (_ & Hpre & _); [lia|].
        rewrite (firstn_eq_le _ _ (S (S j)) (S j) Hpre) by lia.
        unfold reorder_slots. rewrite firstn_three by lia. reflexivity.
      * eapply IH2; eauto. lia.
Qed.

End NoNaN.

Lemma insert_slots s g c q x y sg a ac :
  mkPool (insert_shift q x (map sx s)) (insert_shift q y (map sy s))
         (insert_shift q sg (map ss s)) (insert_shift q a (map sa s))
         (insert_shift q ac (map sc s)) g c
  = of_slots (insert_shift q (mkSlot x y sg a ac) s) g c.
Proof.
  unfold of_slots. set (t := mkSlot x y sg a ac).
  change x with (sx t) at 1. change y with (sy t) at 1. change sg with (ss t) at 1.
  change a with (sa t) at 1. change ac with (sc t) at 1.
  rewrite !insert_shift_map. reflexivity.
Qed.

Lemma contents_cons t s : contents (t :: s) =
  (if is_ninf (sc t) then [] else [strip t]) ++ contents s.
Proof. unfold contents, occ. simpl. destruct (is_ninf (sc t)); reflexivity. Qed.

Lemma insert_contents q t s :
  subm (contents (insert_shift q t s)) (strip t :: contents s).
Proof.
  unfold insert_shift. rewrite <- (firstn_skipn q s) at 3. rewrite !contents_app, contents_cons.
  assert (subm (contents (removelast (skipn q s))) (contents (skipn q s))) as H1.
  { generalize (skipn q s) as l. intros l. destruct l as [|z l] using rev_ind; [apply subm_refl|].
    rewrite removelast_last, contents_app. exists (contents [z]). auto. }
  eapply subm_trans with (contents (firstn q s) ++ [strip t] ++ contents (skipn q s)).
  - apply subm_app; [apply subm_refl|]. apply subm_app; auto.
    destruct (is_ninf (sc t)); [apply subm_nil | apply subm_refl].
  - apply subm_perm. symmetry. apply Permutation_middle.
Qed.
Lemma upd_contents_inf s i t : sc t = NInf -> subm (contents (upd s i t)) (contents s).
Proof.
  intros Ht. revert i. induction s as [|u s IH]; intros [|i]; simpl; try apply subm_refl.
  - rewrite !contents_cons. rewrite (proj2 (is_ninf_true _) Ht). simpl.
    exists (if is_ninf (sc u) then [] else [strip u]). apply Permutation_app_comm.
  - rewrite !contents_cons. apply subm_app; [apply subm_refl|apply IH].
Qed.
Lemma upd_contents s i t : subm (contents (upd s i t)) (strip t :: contents s).
Proof.
  revert i. induction s as [|u s IH]; intros [|i]; simpl; try apply subm_nil.
  - rewrite !contents_cons. change (strip t :: ?l) with ([strip t] ++ l).
    apply subm_app; [destruct (is_ninf (sc t)); [apply subm_nil|apply subm_refl]|].
    exists (if is_ninf (sc u) then [] else [strip u]). apply Permutation_app_comm.
  - rewrite !contents_cons. eapply subm_trans; [apply subm_app; [apply subm_refl|apply IH]|].
    apply subm_perm. symmetry. apply Permutation_middle.
Qed.

(** ** add_one: contents, for any surrogate and acquisition function *)
Definition shaped (n : nat) (s : list slot) (g : list (option (list (pt * num)))) : Prop :=
  length s = S n /\ length g = S n.

Lemma plen_slots s g c : plen (of_slots s g c) = length s - 1.
Proof. unfold plen, of_slots. simpl. rewrite map_length. reflexivity. Qed.

Lemma set_last_slots s v : s <> [] ->
  exists t, nth_error s (length s - 1) = Some t /\
    upd (map sc s) (length s - 1) v = map sc (upd s (length s - 1) (setc v t)) /\
    map sx (upd s (length s - 1) (setc v t)) = map sx s /\
    map sy (upd s (length s - 1) (setc v t)) = map sy s /\
    map ss (upd s (length s - 1) (setc v t)) = map ss s /\
    map sa (upd s (length s - 1) (setc v t)) = map sa s.
Proof using Type.
  intros Hs. destruct (nth_error s (length s - 1)) as [t|] eqn:E.
  2:{ apply nth_error_None in E. destruct s; [congruence|]. simpl in E. rewrite Nat.sub_0_r in E.
      destruct (Nat.nle_succ_diag_l _ E). }
  exists t. split; auto. split.
  { change v with (sc (setc v t)) at 1. apply upd_map. }
  assert (forall (A : Type) (f : slot -> A), f (setc v t) = f t ->
            map f (upd s (length s - 1) (setc v t)) = map f s) as K.
  { intros A f Hf. rewrite <- upd_map, Hf. generalize dependent (length s - 1). clear.
    induction s as [|u s IH]; intros [|i] E; simpl in *; auto; [congruence|]. f_equal; auto. }
  repeat split; apply K; reflexivity.
Qed.

Lemma add_one_core_slots n s g c x y sg a nn p' : shaped n s g ->
  add_one_core std acqf argsort (of_slots s g c) x y sg a nn = Ok p' ->
  exists s' g' c', p' = of_slots s' g' c' /\ shaped n s' g' /\
    subm (contents s') ((x, y, sg, a) :: contents s).
Proof.
  intros [Hs Hg] H. unfold add_one_core in H.
  destruct (min_acq (of_slots s g c)) as [mn|] eqn:Emn; [|discriminate]. cbn [bind] in H.
  assert (subm (contents s) ((x, y, sg, a) :: contents s)) as Hkeep.
  { exists [(x, y, sg, a)]. rewrite Permutation_app_comm. reflexivity. }
  destruct (nleb a mn).
  { injection H as <-. exists s, g, c. repeat split; auto. }
  destruct (isnan a && negb nn); [discriminate|].
  set (a1 := if isnan a then NInf else a) in *.
  destruct (rerank std acqf (S (plen (of_slots s g c))) (of_slots s g c) x y a1 (plen (of_slots s g c)))
    as [[q ac]|] eqn:Err; [|discriminate]. cbn [bind] in H.
  rewrite plen_slots, Hs in H. replace (S n - 1) with n in H by lia.
  destruct (Nat.leb_spec n q).
  { injection H as <-. exists s, g, c. repeat split; auto. }
  cbn [pX py psig pacq pacqc gcond counter of_slots] in H.
  rewrite insert_slots in H. set (t := mkSlot x y sg a1 ac) in *.
  set (s1 := insert_shift q t s) in *.
  assert (length s1 = S n) as Hs1 by (unfold s1; rewrite insert_length; lia).
  assert (get (insert_shift q ac (map sc s)) q = Ok ac) as Hget.
  { change ac with (sc t) at 1. rewrite insert_shift_map. unfold get. rewrite nth_error_map.
    rewrite insert_nth by lia. rewrite Nat.ltb_irrefl, Nat.eqb_refl. reflexivity. }
  rewrite Hget in H. cbn [bind] in H.
  destruct (nltb NInf ac) eqn:Eac; simpl negb in H; cbn [negb] in H; [|discriminate].
  unfold sort in H. rewrite plen_slots, Hs1 in H.
  destruct (sort_cases (S n - 1 - S q) (S q) s1 g c) as [(e & He)|(s2 & g2 & c2 & Hok & HS)];
    [lia|lia| |].
  { rewrite He in H. discriminate. }
  rewrite Hok in H. cbn [bind] in H.
  destruct (SR_prefix _ _ _ _ _ _ HS) as (Hl2 & _ & Hg2); [lia|].
  change (pacqc (of_slots s2 g2 c2)) with (map sc s2) in H.
  unfold set in H. rewrite map_length in H.
  destruct (Nat.ltb_spec (length s2 - 1) (length s2)); [|discriminate]. cbn [bind] in H.
  injection H as <-. cbn [pX py psig pacq gcond counter of_slots].
  destruct (set_last_slots s2 NInf) as (u & Hu & E1 & E2 & E3 & E4 & E5).
  { intros ->. simpl in *. lia. }
  rewrite E1.
  exists (upd s2 (length s2 - 1) (setc NInf u)), g2, c2.
  split; [unfold of_slots; rewrite E2, E3, E4, E5; reflexivity|]. split.
  { split; [rewrite upd_length|]; lia. }
  eapply subm_trans; [apply upd_contents_inf; reflexivity|].
  eapply subm_trans; [eapply SR_contents; eauto|].
  eapply subm_trans; [apply insert_contents|].
  destruct (isnan a) eqn:Ena; [|apply subm_refl].
  (* a NaN turned into -inf is never inserted *)
  exfalso. unfold a1 in Err.
  assert (forall fuel i_last q ac, rerank std acqf fuel (of_slots s g c) x y NInf i_last = Ok (q, ac) ->
            ac = NInf) as K.
  { clear. induction fuel as [|fuel IH]; intros i_last q ac H; simpl in H; [discriminate|].
    destruct (_ || _ || _); [injection H as _ <-; reflexivity|].
    destruct (get g _) as [[m|]|]; simpl in H; try discriminate.
    assert (pymin NInf (acqf y (std m x)) = NInf) as E.
    { unfold pymin. destruct (acqf y (std m x)); reflexivity. }
    rewrite E in H. eapply IH; eauto. }
  apply K in Err. subst ac. discriminate.
Qed.

End P.

Arguments mkSlot {pt}. Arguments sx {pt}. Arguments sy {pt}. Arguments ss {pt}. Arguments sa {pt}.
Arguments sc {pt}. Arguments setc {pt}. Arguments of_slots {pt}. Arguments pts {pt}.
Arguments cacheg {pt}. Arguments first_inf {pt}. Arguments upper {pt}. Arguments val {pt}.
Arguments mid_of {pt}. Arguments reord {pt}. Arguments reorder_slots {pt}. Arguments kill_slots {pt}.
Arguments SR {pt}. Arguments strip {pt}. Arguments occ {pt}. Arguments contents {pt}.
Arguments sorted {pt}. Arguments condle {pt}. Arguments cached {pt}. Arguments shaped {pt}.

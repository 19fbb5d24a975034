(** C24 (continued): random numbers of a regressor and its copies. *)
From Verif Require Import MCopySeed.
From Coq Require Import Lia.
Set Default Goal Selector "!".
Set Bullet Behavior "Strict Subproofs".

Lemma cset_length (i : nat) (g : gen) (l : list gen) : i < length l -> length (cset i g l) = length l.
Proof. intros H. unfold cset. rewrite app_length. cbn [length]. rewrite firstn_length, skipn_length. lia. Qed.
Lemma cset_same (i : nat) (g : gen) (l : list gen) : i < length l -> nth_error (cset i g l) i = Some g.
Proof.
  intros H. unfold cset. rewrite nth_error_app2; rewrite firstn_length; [|lia].
  replace (i - Nat.min i (length l)) with 0 by lia. reflexivity.
Qed.
Lemma cset_other (g : gen) : forall (i j : nat) (l : list gen), i < length l -> j <> i -> nth_error (cset i g l) j = nth_error l j.
Proof.
  induction i as [|i IH]; intros j l H Hj; destruct l as [|a l]; cbn in H; try lia.
  - destruct j as [|j]; [lia|]. reflexivity.
  - destruct j as [|j]; [reflexivity|]. cbn. apply IH; lia.
Qed.
Lemma nth_error_lt {A} (l : list A) (i : nat) (a : A) : nth_error l i = Some a -> i < length l.
Proof. intros H. apply nth_error_Some. congruence. Qed.

(** The regressors keep their random states; new ones are added. *)
Lemma step_objs r w o i h : nth_error (cw_objs w) i = Some h -> nth_error (cw_objs (fst (cstep r w o))) i = Some h.
Proof.
  intros H. pose proof (nth_error_lt _ _ _ H) as Hi.
  destruct o as [k|k|k n]; cbn [cstep fst].
  - unfold copy_of. destruct (nth_error (cw_objs w) k); [|exact H]. cbn. rewrite nth_error_app1; auto.
  - unfold loaded_from. destruct (nth_error (cw_objs w) k) as [[j| |]|]; [|cbn; rewrite nth_error_app1; auto|cbn; rewrite nth_error_app1; auto|exact H].
    destruct (nth_error (cw_gens w) j); [|exact H]. cbn. rewrite nth_error_app1; auto.
  - unfold fit_of. destruct (nth_error (cw_objs w) k) as [[j| |]|]; try exact H.
    destruct (nth_error (cw_gens w) j); exact H.
Qed.
Lemma runs_objs r l : forall w i h, nth_error (cw_objs w) i = Some h -> nth_error (cw_objs (fst (cruns r w l))) i = Some h.
Proof.
  induction l as [|o l IH]; intros w i h H; cbn; [exact H|].
  pose proof (step_objs r w o i h H) as H1. destruct (cstep r w o) as [w1 t]. cbn in H1.
  specialize (IH w1 i h H1). destruct (cruns r w1 l). exact IH.
Qed.
Lemma runs_app r l l' : forall w, fst (cruns r w (l ++ l')) = fst (cruns r (fst (cruns r w l)) l').
Proof.
  induction l as [|o l IH]; intros w; cbn [app cruns]; [reflexivity|].
  destruct (cstep r w o) as [w1 t]. specialize (IH w1).
  destruct (cruns r w1 (l ++ l')), (cruns r w1 l). cbn in *. exact IH.
Qed.

(** A regressor with an integer for a seed: whatever happens to it and to any other one, copied from it or not, each of its fits draws the same numbers, those of a new
    generator with this seed; and the same holds for its copies. *)
Theorem C24_generator_seed : forall r w i s l n,
  nth_error (cw_objs w) i = Some (HInt s) ->
  starts r (fst (cruns r w l)) i n = map (fun k => (Legacy s, k)) (seq 0 n)
  /\ starts r (fst (cruns r (copy_of w i) l)) (length (cw_objs w)) n = map (fun k => (Legacy s, k)) (seq 0 n).
Proof.
  intros r w i s l n H. split.
  - unfold starts, fit_of. rewrite (runs_objs r l w i _ H). reflexivity.
  - unfold starts, fit_of.
    assert (nth_error (cw_objs (copy_of w i)) (length (cw_objs w)) = Some (HInt s)) as Hc.
    { unfold copy_of. rewrite H. cbn. rewrite nth_error_app2 by lia. rewrite Nat.sub_diag. reflexivity. }
    rewrite (runs_objs r l _ _ _ Hc). reflexivity.
Qed.

(** A regressor with a generator. After a copy of it was fitted with at least one random starting point, the original starts its next fit from other points than if the copy had
    not been fitted: a fit of a copy changes what the original does next. *)
Theorem C24_generator_refuted : forall r w i j g n m,
  nth_error (cw_objs w) i = Some (HGen j) -> nth_error (cw_gens w) j = Some g -> 0 < n -> 0 < m ->
  let c := copy_of w i in
  starts r (fst (cruns r c [CFit (length (cw_objs w)) n])) i m <> starts r c i m
  /\ (forall x, In x (starts r (fst (cruns r c [CFit (length (cw_objs w)) n])) i m) -> ~ In x (starts r c (length (cw_objs w)) n)).
Proof.
  intros r w i j g n m Hi Hj Hn Hm c.
  assert (cw_objs c = cw_objs w ++ [HGen j] /\ cw_gens c = cw_gens w) as [Ho Hg].
  { unfold c, copy_of. rewrite Hi. split; reflexivity. }
  pose proof (nth_error_lt _ _ _ Hi) as Hil. pose proof (nth_error_lt _ _ _ Hj) as Hjl.
  assert (nth_error (cw_objs c) i = Some (HGen j)) as Hci by (rewrite Ho, nth_error_app1; auto).
  assert (nth_error (cw_objs c) (length (cw_objs w)) = Some (HGen j)) as Hcc.
  { rewrite Ho, nth_error_app2 by lia. rewrite Nat.sub_diag. reflexivity. }
  assert (starts r (fst (cruns r c [CFit (length (cw_objs w)) n])) i m = map (fun k => (fst g, snd g + n + k)) (seq 0 m)) as E1.
  { cbn [cruns cstep]. unfold fit_of at 1. rewrite Hcc, Hg, Hj. cbn [draw fst snd].
    unfold starts, fit_of. cbn [cw_objs cw_gens]. rewrite Hci, cset_same by auto. reflexivity. }
  assert (forall k p, nth_error (cw_objs c) k = Some (HGen j) -> starts r c k p = map (fun q => (fst g, snd g + q)) (seq 0 p)) as E2.
  { intros k p Hk. unfold starts, fit_of. rewrite Hk, Hg, Hj. reflexivity. }
  rewrite E1, (E2 i m Hci), (E2 _ n Hcc). split.
  - destruct m as [|m]; [lia|]. cbn. intros E. injection E. intros _ E'. lia.
  - intros x Hx Hx'. apply in_map_iff in Hx as (a & <- & Ha). apply in_map_iff in Hx' as (b & E & Hb).
    apply in_seq in Ha, Hb. injection E. lia.
Qed.

(** As long as no other regressor with the same generator draws (they may be copied, saved, given points without a fit, or fitted from their current hyperparameters alone), the
    original draws what it would have drawn: this is what the acquisition does with its copies. *)
Definition idle (w : cworld) (j : nat) (o : cop) : Prop :=
  match o with CFit k n => n = 0 \/ (forall q, nth_error (cw_objs w) k = Some (HGen q) -> q <> j) /\ k < length (cw_objs w) | _ => True end.
Lemma step_gen r w o j g : nth_error (cw_gens w) j = Some g -> idle w j o -> nth_error (cw_gens (fst (cstep r w o))) j = Some g.
Proof.
  intros H Hid. pose proof (nth_error_lt _ _ _ H) as Hj. destruct o as [k|k|k n]; cbn [cstep fst].
  - unfold copy_of. destruct (nth_error (cw_objs w) k); exact H.
  - unfold loaded_from. destruct (nth_error (cw_objs w) k) as [[q| |]|]; try exact H.
    destruct (nth_error (cw_gens w) q) as [g'|]; [|exact H]. cbn. rewrite nth_error_app1; auto.
  - unfold fit_of. destruct (nth_error (cw_objs w) k) as [[q| |]|] eqn:Ek; try exact H.
    destruct (nth_error (cw_gens w) q) as [g'|] eqn:Eq; [|exact H]. cbn [draw fst snd cw_gens].
    pose proof (nth_error_lt _ _ _ Eq) as Hq.
    destruct (Nat.eq_dec j q) as [->|Hn].
    + rewrite cset_same by auto. cbn in Hid. destruct Hid as [->|[Hid _]].
      * rewrite H in Eq. injection Eq as <-. rewrite Nat.add_0_r. destruct g; reflexivity.
      * exfalso. apply (Hid q Ek). reflexivity.
    + rewrite cset_other by auto. exact H.
Qed.
(** [l] draws nothing from generator [j]. *)
Fixpoint idles (r : nat) (w : cworld) (j : nat) (l : list cop) : Prop :=
  match l with [] => True | o :: l => idle w j o /\ idles r (fst (cstep r w o)) j l end.
Theorem C24_generator_idle : forall r w i j g l n,
  nth_error (cw_objs w) i = Some (HGen j) -> nth_error (cw_gens w) j = Some g -> idles r w j l ->
  starts r (fst (cruns r w l)) i n = starts r w i n.
Proof.
  intros r w i j g l n Hi Hj Hl.
  assert (forall l w, nth_error (cw_gens w) j = Some g -> idles r w j l -> nth_error (cw_gens (fst (cruns r w l))) j = Some g) as HG.
  { clear. induction l as [|o l IH]; intros w H Hd; cbn; [exact H|]. cbn in Hd. destruct Hd as [Hd Hd'].
    pose proof (step_gen r w o j g H Hd) as H1. destruct (cstep r w o) as [w1 t]. cbn in H1, Hd'.
    specialize (IH w1 H1 Hd'). destruct (cruns r w1 l). exact IH. }
  specialize (HG l w Hj Hl). unfold starts, fit_of. rewrite (runs_objs r l w i _ Hi), Hi, HG, Hj. reflexivity.
Qed.

(** The other side: the numbers drawn by a regressor with a generator and by all its copies, in any history of copies and fits, are all different; nothing is drawn twice. *)
Definition nosave (o : cop) : Prop := match o with CLoad _ => False | _ => True end.
(** One generator for all regressors. *)
Definition all_share (w : cworld) : Prop := Forall (fun h => h = HGen 0) (cw_objs w).
Theorem C24_generator_distinct : forall r i0 g l,
  Forall nosave l -> NoDup (snd (cruns r (mkCw [g] i0 [HGen 0]) l)).
Proof.
  intros r i0 g l Hl.
  assert (forall l, Forall nosave l -> forall w g, cw_gens w = [g] -> all_share w ->
          exists m, snd (cruns r w l) = map (fun k => (fst g, snd g + k)) (seq 0 m)) as H.
  { clear. induction l as [|o l IH]; intros Hl w g Hg Ha; [exists 0; reflexivity|].
    inversion Hl as [|? ? Ho Hl']; subst. specialize (IH Hl').
    destruct o as [k|k|k n]; cbn in Ho; [| contradiction |].
    - cbn. assert (cw_gens (copy_of w k) = [g] /\ all_share (copy_of w k)) as [H1 H2].
      { unfold copy_of. destruct (nth_error (cw_objs w) k) as [h|] eqn:E; [|auto]. split; [exact Hg|].
        unfold all_share in *. cbn. apply Forall_app. split; [exact Ha|]. constructor; [|constructor].
        eapply Forall_forall in Ha; [exact Ha|]. eapply nth_error_In. exact E. }
      destruct (IH _ g H1 H2) as [m Hm]. exists m. destruct (cruns r (copy_of w k) l). exact Hm.
    - cbn [cruns cstep]. unfold fit_of. destruct (nth_error (cw_objs w) k) as [h|] eqn:E.
      + assert (h = HGen 0) as ->. { eapply Forall_forall in Ha; [exact Ha|]. eapply nth_error_In. exact E. }
        rewrite Hg. cbn [nth_error draw].
        destruct (IH (mkCw (cset 0 (fst g, snd g + n) [g]) (cw_global w) (cw_objs w)) (fst g, snd g + n) eq_refl Ha) as [m Hm].
        exists (n + m). destruct (cruns r _ l) as [w2 t2]. cbn [snd fst] in *. rewrite Hm.
        rewrite seq_app, map_app. f_equal. cbn [plus]. clear.
        assert (forall b, map (fun k => (fst g, snd g + n + k)) (seq b m) = map (fun k => (fst g, snd g + k)) (seq (n + b) m)) as A.
        { induction m as [|m IH]; intros b; [reflexivity|]. cbn. f_equal; [f_equal; lia|]. rewrite IH. f_equal. f_equal. lia. }
        rewrite A. rewrite Nat.add_0_r. reflexivity.
      + destruct (IH w g Hg Ha) as [m Hm]. exists m. destruct (cruns r w l). exact Hm. }
  destruct (H l Hl (mkCw [g] i0 [HGen 0]) g eq_refl ltac:(repeat constructor)) as [m ->].
  assert (forall b, NoDup (map (fun k => (fst g, snd g + k)) (seq b m))) as N; [|apply N].
  clear. induction m as [|m IH]; intros b; cbn; constructor; [|apply IH].
  intros Hin. apply in_map_iff in Hin as (x & E & Hx). apply in_seq in Hx. injection E. lia.
Qed.
(** One that was saved and loaded is different: it draws what the original draws. *)
Theorem C24_generator_loaded_refuted : forall r w i j g n,
  nth_error (cw_objs w) i = Some (HGen j) -> nth_error (cw_gens w) j = Some g ->
  starts r (fst (cruns r (loaded_from w i) [CFit i n])) (length (cw_objs w)) n = starts r w i n.
Proof.
  intros r w i j g n Hi Hj. pose proof (nth_error_lt _ _ _ Hi) as Hil. pose proof (nth_error_lt _ _ _ Hj) as Hjl.
  unfold loaded_from. rewrite Hi, Hj. cbn [cruns cstep]. unfold fit_of at 1. cbn [cw_objs cw_gens].
  rewrite nth_error_app1 by auto. rewrite Hi. rewrite nth_error_app1 by auto. rewrite Hj. cbn [draw fst snd].
  unfold starts, fit_of. cbn [cw_objs cw_gens]. rewrite nth_error_app2 by lia. rewrite Nat.sub_diag. cbn [nth_error].
  rewrite cset_other by (rewrite ?app_length; cbn; lia). rewrite nth_error_app2 by lia. rewrite Nat.sub_diag. cbn [nth_error].
  rewrite Hi, Hj. reflexivity.
Qed.

(** Regressors without a random state, copies or not, share numpy's global generator: over any history the numbers drawn from it by all of them are consecutive, so that none is
    drawn twice. *)
Definition from_global (x : token) : bool := match fst x with Global _ => true | _ => false end.
Definition own_generators (w : cworld) : Prop := Forall (fun g : gen => match fst g with Global _ => False | _ => True end) (cw_gens w).
Lemma filter_none {A} (f : A -> bool) (l : list A) : (forall x, In x l -> f x = false) -> filter f l = [].
Proof. induction l as [|a l IH]; intros H; [reflexivity|]. cbn. rewrite (H a (or_introl eq_refl)). apply IH. intros x Hx. apply H. right. exact Hx. Qed.
Lemma filter_all {A} (f : A -> bool) (l : list A) : (forall x, In x l -> f x = true) -> filter f l = l.
Proof. induction l as [|a l IH]; intros H; [reflexivity|]. cbn. rewrite (H a (or_introl eq_refl)). f_equal. apply IH. intros x Hx. apply H. right. exact Hx. Qed.
Lemma map_seq_shift {A} (f : nat -> A) n : forall a, map (fun k => f (a + k)) (seq 0 n) = map f (seq a n).
Proof.
  induction n as [|n IH]; intros a; [reflexivity|]. cbn [seq map]. rewrite Nat.add_0_r. f_equal. rewrite <- (IH (S a)), <- seq_shift, map_map.
  apply map_ext. intros k. f_equal. lia.
Qed.
Lemma drawn_own (g : gen) n : match fst g with Global _ => False | _ => True end -> filter from_global (snd (draw g n)) = [].
Proof.
  intros H. apply filter_none. intros x Hx. cbn [draw snd] in Hx. apply in_map_iff in Hx as (k & <- & _). unfold from_global. cbn [fst]. destruct (fst g); try reflexivity. destruct H.
Qed.
Lemma step_global r w o : own_generators w -> own_generators (fst (cstep r w o)) /\ exists n,
  filter from_global (snd (cstep r w o)) = map (fun k => (Global r, k)) (seq (cw_global w) n) /\ cw_global (fst (cstep r w o)) = cw_global w + n.
Proof.
  intros H. assert (Z0 : exists n, filter from_global [] = map (fun k => (Global r, k)) (seq (cw_global w) n) /\ cw_global w = cw_global w + n) by (exists 0; split; [reflexivity|lia]).
  destruct o as [k|k|k n]; cbn [cstep fst snd].
  - unfold copy_of. destruct (nth_error (cw_objs w) k); (split; [exact H|exact Z0]).
  - unfold loaded_from. destruct (nth_error (cw_objs w) k) as [[j| |]|]; try (split; [exact H|exact Z0]).
    destruct (nth_error (cw_gens w) j) as [g|] eqn:E; [|split; [exact H|exact Z0]]. split; [|exact Z0]. unfold own_generators in *. cbn [cw_gens]. apply Forall_app. split; [exact H|].
    constructor; [|constructor]. rewrite Forall_forall in H. apply H. eapply nth_error_In. exact E.
  - unfold fit_of. destruct (nth_error (cw_objs w) k) as [[j|z|]|]; try (split; [exact H|exact Z0]).
    + destruct (nth_error (cw_gens w) j) as [g|] eqn:E; [|split; [exact H|exact Z0]].
      assert (G : match fst g with Global _ => False | _ => True end) by (unfold own_generators in H; rewrite Forall_forall in H; apply H; eapply nth_error_In; exact E).
      pose proof (drawn_own g n G) as D. unfold draw in *. cbn [fst snd] in *. split.
      * unfold own_generators in *. cbn [cw_gens]. unfold cset. pose proof H as H'. rewrite <- (firstn_skipn j (cw_gens w)) in H. apply Forall_app in H as [H1 _].
        rewrite <- (firstn_skipn (S j) (cw_gens w)) in H'. apply Forall_app in H' as [_ H2]. apply Forall_app. split; [exact H1|]. constructor; [exact G|exact H2].
      * exists 0. rewrite D. split; [reflexivity|cbn [cw_global]; lia].
    + split; [exact H|]. exists 0. cbn [fst snd]. rewrite drawn_own; [split; [reflexivity|lia]|exact I].
    + split; [exact H|]. exists n. cbn [fst snd cw_global draw]. split; [|reflexivity]. rewrite filter_all.
      * apply (map_seq_shift (fun k => (Global r, k))).
      * intros x Hx. apply in_map_iff in Hx as (q & <- & _). reflexivity.
Qed.
Theorem C24_generator_global : forall r w l, own_generators w -> exists n,
  filter from_global (snd (cruns r w l)) = map (fun k => (Global r, k)) (seq (cw_global w) n) /\ cw_global (fst (cruns r w l)) = cw_global w + n
  /\ forall i m, nth_error (cw_objs w) i = Some HNone -> starts r (fst (cruns r w l)) i m = map (fun k => (Global r, k)) (seq (cw_global w + n) m).
Proof.
  intros r w l H.
  assert (K : exists n, filter from_global (snd (cruns r w l)) = map (fun k => (Global r, k)) (seq (cw_global w) n) /\ cw_global (fst (cruns r w l)) = cw_global w + n).
  { revert w H. induction l as [|o l IH]; intros w H; [exists 0; split; [reflexivity|cbn; lia]|]. cbn [cruns]. destruct (step_global r w o H) as (H1 & n & F & G).
    destruct (cstep r w o) as [w1 t]. cbn [fst snd] in *. destruct (IH w1 H1) as (m & F1 & G1). destruct (cruns r w1 l) as [w2 t2]. cbn [fst snd] in *. exists (n + m).
    rewrite filter_app, F, F1, G, seq_app, map_app. split; [reflexivity|]. rewrite G1, G. lia. }
  destruct K as (n & F & G). exists n. split; [exact F|]. split; [exact G|]. intros i m Hi. pose proof (runs_objs r l w i HNone Hi) as Hr.
  unfold starts, fit_of. rewrite Hr. cbn [snd draw fst]. rewrite G. apply (map_seq_shift (fun k => (Global r, k))).
Qed.
(** Two regressors without a random state and one with the seed 7; a copy of the first. *)
Example C24_global_case : let w := mkCw [(User 0, 3)] 0 [HNone; HNone; HInt 7] in own_generators w /\
  snd (cruns 1 w [CCopy 0; CFit 3 2; CFit 2 1; CFit 1 1]) = [(Global 1, 0); (Global 1, 1); (Legacy 7, 0); (Global 1, 2)] /\ starts 1 (fst (cruns 1 w [CCopy 0; CFit 3 2; CFit 2 1; CFit 1 1])) 0 1 = [(Global 1, 3)].
Proof. split; [repeat constructor|]. split; reflexivity. Qed.
Print Assumptions C24_generator_global.

(** A regressor with a generator that has drawn 3 numbers, one with the seed 7; a copy of each. *)
Definition two : cworld := mkCw [(User 0, 3)] 0 [HGen 0; HInt 7].
Example C24_generator_case :
  starts 0 (fst (cruns 0 two [CCopy 0])) 0 2 = [(User 0, 3); (User 0, 4)]
  /\ starts 0 (fst (cruns 0 two [CCopy 0; CFit 2 1])) 0 2 = [(User 0, 4); (User 0, 5)]
  /\ starts 0 (fst (cruns 0 two [CCopy 0; CFit 2 0])) 0 2 = [(User 0, 3); (User 0, 4)]
  /\ starts 0 (fst (cruns 0 two [CCopy 1; CFit 2 5; CFit 1 2])) 1 2 = [(Legacy 7, 0); (Legacy 7, 1)]
  /\ snd (cruns 0 two [CCopy 0; CFit 0 2; CFit 2 2; CFit 0 1]) = [(User 0, 3); (User 0, 4); (User 0, 5); (User 0, 6); (User 0, 7)]
  /\ snd (cruns 0 two [CLoad 0; CFit 0 2; CFit 2 2]) = [(User 0, 3); (User 0, 4); (User 0, 3); (User 0, 4)].
Proof. repeat split. Qed.
Example C24_idle_case : idles 0 two 0 [CCopy 0; CFit 2 0; CCopy 1; CFit 3 4] /\ starts 0 (fst (cruns 0 two [CCopy 0; CFit 2 0; CCopy 1; CFit 3 4])) 0 1 = [(User 0, 3)].
Proof. cbn. repeat split; try (left; reflexivity). right. split; [discriminate|lia]. Qed.
Print Assumptions C24_generator_seed.
Print Assumptions C24_generator_refuted.
Print Assumptions C24_generator_idle.
Print Assumptions C24_generator_distinct.
Print Assumptions C24_generator_loaded_refuted.

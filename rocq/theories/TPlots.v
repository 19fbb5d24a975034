(** C121: references of plots. C122: the histogram of distances. C123: the training points in triangle plots. *)
From Verif Require Import MPlots.
From Coq Require Import Lra Lia Psatz.
Set Default Goal Selector "!".
Set Bullet Behavior "Strict Subproofs".
Open Scope R_scope.

(** ** References *)
Lemma get_set k k' v m : get k (set k' v m) = if String.eqb k k' then Some v else get k m.
Proof.
  induction m as [|[k0 v0] m IH]; cbn; [reflexivity|]. destruct (String.eqb_spec k' k0) as [->|N]; cbn; [destruct (String.eqb_spec k k0); reflexivity|].
  rewrite IH. destruct (String.eqb_spec k k0) as [->|]; [|reflexivity]. destruct (String.eqb_spec k0 k') as [->|]; [congruence|reflexivity].
Qed.
(** What may be given for a parameter, and what should become of it: a single value is the centre; nothing given, nothing known. *)
Definition valid (v : refval) : Prop := match v with RNumber _ => True | RSeq l => length l = 1%nat \/ length l = 5%nat | RNone => False end.
Definition filled (before after : option refval) : Prop :=
  match before with
  | None => after = Some (RSeq [None; None; None; None; None])
  | Some (RNumber x) => after = Some (RSeq [None; None; Some x; None; None])
  | Some (RSeq [v]) => after = Some (RSeq [None; None; v; None; None])
  | Some (RSeq [a; b; c; d; e]) => after = Some (RSeq [a; b; c; d; e])
  | _ => False
  end.
Definition five (v : option refval) : Prop := exists a b c d e, v = Some (RSeq [a; b; c; d; e]).
Lemma filled_five a b : filled a b -> five b /\ (five a -> b = a).
Proof.
  intros H. unfold filled in H. destruct a as [[x|[|v0 [|v1 [|v2 [|v3 [|v4 [|]]]]]]|]|]; try contradiction; subst b; (split; [repeat eexists|]); intros (? & ? & ? & ? & ? & E); try discriminate E; try reflexivity.
Qed.
Lemma filled_self a : five a -> filled a a.
Proof. intros (? & ? & ? & ? & ? & ->). reflexivity. Qed.
Lemma complete_spec params : forall m, (forall p v, In p params -> get p m = Some v -> valid v) ->
  exists m', complete params m = (m', Ok tt) /\ (forall k, In k params -> filled (get k m) (get k m')) /\ (forall k, ~ In k params -> get k m' = get k m).
Proof.
  induction params as [|p params IH]; intros m V; [exists m; cbn; repeat split; tauto|]. cbn [complete].
  set (m1 := match get p m with Some _ => m | None => _ end).
  assert (G1 : forall k, k <> p -> get k m1 = get k m). { intros k N. unfold m1. destruct (get p m); [reflexivity|]. rewrite get_set. apply String.eqb_neq in N. rewrite N. reflexivity. }
  assert (G0 : exists v, get p m1 = Some v /\ valid v /\ (forall b, filled (Some v) b -> filled (get p m) b)).
  { unfold m1. destruct (get p m) as [v|] eqn:E; [exists v; split; [exact E|]; split; [apply (V p v (or_introl eq_refl) E)|auto]|]. rewrite get_set, String.eqb_refl. eexists. split; [reflexivity|]. split; [right; reflexivity|]. intros b Hb. exact Hb. }
  destruct G0 as (v & Gv & Vv & Fv). rewrite Gv.
  assert (STEP : forall m2, filled (Some v) (get p m2) -> (forall k, k <> p -> get k m2 = get k m1) ->
    exists m', complete params m2 = (m', Ok tt) /\ (forall k, p = k \/ In k params -> filled (get k m) (get k m')) /\ (forall k, ~ (p = k \/ In k params) -> get k m' = get k m)).
  { intros m2 F2 G2. destruct (filled_five _ _ F2) as [F5 _]. destruct (IH m2) as (m' & E & I1 & I2).
    - intros q w Hq Hw. destruct (string_dec q p) as [->|N]; [destruct F5 as (? & ? & ? & ? & ? & F5); rewrite F5 in Hw; injection Hw as <-; right; reflexivity|]. rewrite G2, G1 in Hw by exact N. apply (V q w (or_intror Hq) Hw).
    - exists m'. split; [exact E|]. split.
      + intros k Hk. destruct (string_dec k p) as [->|N].
        * apply Fv. destruct (in_dec string_dec p params) as [Hp|Hp]; [|rewrite I2 by exact Hp; exact F2]. destruct (filled_five _ _ (I1 p Hp)) as [_ Same]. rewrite Same by exact F5. exact F2.
        * destruct Hk as [->|Hk]; [congruence|]. specialize (I1 k Hk). rewrite G2, G1 in I1 by exact N. exact I1.
      + intros k Hk. rewrite I2 by tauto. rewrite G2, G1 by (intros ->; tauto). reflexivity. }
  destruct v as [x|l|]; [|destruct Vv as [L|L]; rewrite L|destruct Vv].
  - cbn [length Nat.eqb]. apply STEP; [rewrite get_set, String.eqb_refl; reflexivity|]. intros k N. rewrite get_set. apply String.eqb_neq in N. rewrite N. reflexivity.
  - cbn [Nat.eqb]. apply STEP; [rewrite get_set, String.eqb_refl; destruct l as [|a [|]]; try discriminate L; reflexivity|]. intros k N. rewrite get_set. apply String.eqb_neq in N. rewrite N. reflexivity.
  - cbn [Nat.eqb]. apply STEP; [|reflexivity]. rewrite Gv. destruct l as [|a [|b [|c [|d [|e [|]]]]]]; try discriminate L. reflexivity.
Qed.
(** A dictionary: each parameter gets five values, other entries are kept. *)
Theorem C121_dict : forall params m, (forall p v, In p params -> get p m = Some v -> valid v) ->
  exists m', snd (prepare_reference true params (RefDict m)) = Ok (Some m') /\ (forall k, In k params -> filled (get k m) (get k m')) /\ (forall k, ~ In k params -> get k m' = get k m).
Proof. intros params m V. destruct (complete_spec params m V) as (m' & E & H). exists m'. unfold prepare_reference. cbn [negb]. rewrite E. split; [reflexivity|exact H]. Qed.
Lemma get_combine params : forall (l : list refval) j p v, NoDup params -> nth_error params j = Some p -> nth_error l j = Some v -> get p (combine params l) = Some v.
Proof.
  induction params as [|q params IH]; intros l j p v ND Hp Hv; [destruct j; discriminate|]. destruct l as [|w l]; [destruct j; discriminate|]. inversion ND as [|? ? N ND']; subst. cbn [combine get]. destruct j as [|j].
  - injection Hp as ->. injection Hv as ->. rewrite String.eqb_refl. reflexivity.
  - cbn in Hp, Hv. destruct (String.eqb_spec p q) as [->|]; [exfalso; apply N; apply nth_error_In in Hp; exact Hp|]. apply (IH l j); assumption.
Qed.
Lemma get_combine_in params : forall (l : list refval) p v, get p (combine params l) = Some v -> In v l.
Proof. induction params as [|q params IH]; intros [|w l] p v H; try discriminate H. cbn [combine get] in H. destruct (String.eqb p q); [injection H as ->; left; reflexivity|right; apply (IH l p v H)]. Qed.
(** A list: one entry for each parameter, in order. *)
Theorem C121_list : forall params l, NoDup params -> length l = length params -> Forall valid l ->
  exists m', prepare_reference true params (RefList l) = (RefList l, Ok (Some m')) /\ forall j p v, nth_error params j = Some p -> nth_error l j = Some v -> filled (Some v) (get p m').
Proof.
  intros params l ND L V. rewrite Forall_forall in V. destruct (complete_spec params (combine params l)) as (m' & E & H1 & _); [intros p v _ Hv; apply V, (get_combine_in params l p v Hv)|].
  exists m'. unfold prepare_reference. cbn [negb]. rewrite L, Nat.eqb_refl, E. split; [reflexivity|]. intros j p v Hp Hv. rewrite <- (get_combine params l j p v ND Hp Hv). apply H1. apply nth_error_In in Hp. exact Hp.
Qed.
(** Samples: the 95% and 68% limits around the mean. *)
Lemma of_samples_spec s params : (forall p, In p params -> exists mean l68 h68 l95 h95 rest, s p = Some (mean, (l68, h68) :: (l95, h95) :: rest)) ->
  exists m, of_samples s params = Ok m /\ forall p, In p params -> exists mean l68 h68 l95 h95 rest, s p = Some (mean, (l68, h68) :: (l95, h95) :: rest) /\ get p m = Some (RSeq [Some l95; Some l68; Some mean; Some h68; Some h95]).
Proof.
  induction params as [|p params IH]; intros H; [exists []; split; [reflexivity|intros p []]|]. destruct (H p (or_introl eq_refl)) as (mean & l68 & h68 & l95 & h95 & rest & E). destruct (IH (fun q Hq => H q (or_intror Hq))) as (m & Em & Hm).
  cbn [of_samples]. rewrite E, Em. cbn [bind]. eexists. split; [reflexivity|]. intros q Hq. destruct (String.eqb_spec q p) as [->|N].
  - exists mean, l68, h68, l95, h95, rest. split; [exact E|]. rewrite get_set, String.eqb_refl. reflexivity.
  - destruct Hq as [->|Hq]; [congruence|]. destruct (Hm q Hq) as (a & b & c & d & e & f & E1 & E2). exists a, b, c, d, e, f. split; [exact E1|]. rewrite get_set. apply String.eqb_neq in N. rewrite N. exact E2.
Qed.
Theorem C121_samples : forall params s, (forall p, In p params -> exists mean l68 h68 l95 h95 rest, s p = Some (mean, (l68, h68) :: (l95, h95) :: rest)) ->
  exists m', prepare_reference true params (RefSamples s) = (RefSamples s, Ok (Some m')) /\
    forall p, In p params -> exists mean l68 h68 l95 h95 rest, s p = Some (mean, (l68, h68) :: (l95, h95) :: rest) /\ get p m' = Some (RSeq [Some l95; Some l68; Some mean; Some h68; Some h95]).
Proof.
  intros params s H. destruct (of_samples_spec s params H) as (m & Em & Hm).
  destruct (complete_spec params m) as (m' & E & H1 & _). { intros p v Hp Hv. destruct (Hm p Hp) as (a & b & c & d & e & f & E1 & E2). rewrite E2 in Hv. injection Hv as <-. right. reflexivity. }
  exists m'. unfold prepare_reference. cbn [negb]. rewrite Em. cbn [bind]. rewrite E. split; [reflexivity|]. intros p Hp. destruct (Hm p Hp) as (a & b & c & d & e & f & E1 & E2). exists a, b, c, d, e, f. split; [exact E1|].
  specialize (H1 p Hp). rewrite E2 in H1. exact H1.
Qed.
(** Preparing a reference again changes nothing. *)
Theorem C121_again : forall params m m', snd (prepare_reference true params (RefDict m)) = Ok (Some m') -> (forall p v, In p params -> get p m = Some v -> valid v) ->
  prepare_reference true params (RefDict m') = (RefDict m', Ok (Some m')).
Proof.
  intros params m m' H V. destruct (complete_spec params m V) as (m1 & E & H1 & _). unfold prepare_reference in *. cbn [negb] in *. rewrite E in H. cbn in H. injection H as <-.
  assert (F : forall ps, (forall p, In p ps -> five (get p m1)) -> complete ps m1 = (m1, Ok tt)).
  { induction ps as [|p ps IH]; intros Hp; [reflexivity|]. cbn [complete]. destruct (Hp p (or_introl eq_refl)) as (a & b & c & d & e & Ep). rewrite !Ep. cbn [length Nat.eqb]. apply IH. intros q Hq. apply Hp. right. exact Hq. }
  rewrite F; [reflexivity|]. intros p Hp. apply (filled_five _ _ (H1 p Hp)).
Qed.
(** Refuted: the reference given is left as it is. A dictionary without some parameter is changed for the caller. *)
Theorem C121_caller_refuted : forall p params m, get p m = None -> fst (prepare_reference true (p :: params) (RefDict m)) <> RefDict m.
Proof.
  intros p params m H. unfold prepare_reference. cbn [negb]. destruct (complete (p :: params) m) as [m' u] eqn:E. cbn [fst]. intros C. injection C as ->. cbn [complete] in E. rewrite H in E. rewrite get_set, String.eqb_refl in E. cbn [length repeat Nat.eqb] in E.
  assert (Mono : forall ps a b r, complete ps a = (b, r) -> get p a <> None -> get p b <> None).
  { clear. induction ps as [|q ps IH]; intros a b r E N; [injection E as <- _; exact N|]. cbn [complete] in E. set (a1 := match get q a with Some _ => a | None => _ end) in *.
    assert (N1 : get p a1 <> None). { unfold a1. destruct (get q a); [exact N|]. rewrite get_set. destruct (String.eqb p q); [discriminate|exact N]. }
    assert (Go : forall l b r, (if Nat.eqb (length l) 1 then complete ps (set q (RSeq ([None; None] ++ l ++ [None; None])) a1) else if Nat.eqb (length l) 5 then complete ps a1 else (a1, Err ValueError)) = (b, r) -> get p b <> None).
    { intros l b0 r0 E0. destruct (Nat.eqb (length l) 1); [|destruct (Nat.eqb (length l) 5)].
      - apply (IH _ _ _ E0). rewrite get_set. destruct (String.eqb p q); [discriminate|exact N1].
      - apply (IH _ _ _ E0 N1).
      - injection E0 as <- _. exact N1. }
    destruct (get q a1) as [[x|l|]|]; [apply (Go [Some x] _ _ E)|apply (Go l _ _ E)| |]; injection E as <- _; exact N1. }
  apply (Mono _ _ _ _ E); [rewrite get_set, String.eqb_refl; discriminate|exact H].
Qed.
(** Refuted: a parameter that the samples do not have is reported as ValueError. *)
Theorem C121_missing_refuted : forall s p params, s p = None -> snd (prepare_reference true (p :: params) (RefSamples s)) = Err AttributeError.
Proof. intros s p params H. unfold prepare_reference. cbn [negb snd of_samples]. rewrite H. reflexivity. Qed.
(** Refuted: numbers need no GetDist. Without it every reference is ignored. *)
Theorem C121_getdist_refuted : forall params r, snd (prepare_reference false params r) = Ok None.
Proof. reflexivity. Qed.
Example C121_case : prepare_reference true ["a"; "b"; "c"]%string (RefDict [("b"%string, RNumber 3); ("c"%string, RSeq [Some 7])]) =
  (RefDict [("b"%string, RSeq [None; None; Some 3; None; None]); ("c"%string, RSeq [None; None; Some 7; None; None]); ("a"%string, RSeq [None; None; None; None; None])],
   Ok (Some [("b"%string, RSeq [None; None; Some 3; None; None]); ("c"%string, RSeq [None; None; Some 7; None; None]); ("a"%string, RSeq [None; None; None; None; None])])).
Proof. reflexivity. Qed.

(** ** The histogram *)
(** [n] elements have the property. *)
Inductive tally (P : R -> Prop) : list R -> nat -> Prop :=
| tally_nil : tally P [] 0
| tally_yes r l n : P r -> tally P l n -> tally P (r :: l) (S n)
| tally_no r l n : ~ P r -> tally P l n -> tally P (r :: l) n.
Definition total (l : list R) : R := fold_right Rplus 0 l.

Lemma largest_spec l : l <> [] -> In (largest l) l /\ forall x, In x l -> x <= largest l.
Proof.
  induction l as [|a [|b l] IH]; intros H; [congruence|cbn; split; [auto|intros x [->|[]]; lra]|]. destruct IH as [I1 I2]; [discriminate|]. change (largest (a :: b :: l)) with (Rmax a (largest (b :: l))). split.
  - unfold Rmax. destruct (Rle_dec _ _); [right; exact I1|left; reflexivity].
  - intros x [->|Hx]; [apply Rmax_l|]. eapply Rle_trans; [apply I2, Hx|apply Rmax_r].
Qed.
Lemma floor_spec x n : IZR n <= x < IZR n + 1 -> floor x = n.
Proof. intros H. unfold floor. destruct (base_Int_part x) as [A B]. assert (IZR (Int_part x) < IZR (n + 1)) by (rewrite plus_IZR; lra). assert (IZR n < IZR (Int_part x + 1)) by (rewrite plus_IZR; lra). apply lt_IZR in H0, H1. lia. Qed.
Lemma ceil_spec x : IZR (ceil x) - 1 < x <= IZR (ceil x).
Proof. unfold ceil. rewrite opp_IZR. destruct (base_Int_part (- x)). lra. Qed.
(** The number of bins: the largest distance, rounded up. *)
Lemma bins_spec l : (forall r, In r l -> 0 <= r) -> l <> [] -> (forall r, In r l -> r <= INR (n_bins l)) /\ exists r, In r l /\ INR (n_bins l) - 1 < r.
Proof.
  intros P N. destruct (largest_spec l N) as [I M]. pose proof (ceil_spec (largest l)) as C. pose proof (P _ I) as P0. unfold n_bins.
  assert (0 <= ceil (largest l))%Z by (apply le_IZR; lra). rewrite INR_IZR_INZ, Z2Nat.id by assumption. split; [intros r Hr; specialize (M r Hr); lra|]. exists (largest l). split; [exact I|lra].
Qed.
(** Bin [k] of [n]. *)
Definition shell (n k : nat) (r : R) : Prop := INR k <= r < INR k + 1 \/ ((k + 1)%nat = n /\ r = INR n).
Lemma in_bin_spec n k r : in_bin n k r = true <-> shell n k r.
Proof.
  unfold in_bin, shell. destruct (Rle_dec (INR k) r) as [A|A]; [destruct (Rlt_dec r (INR k + 1)) as [B|B]|].
  - split; [intros _; left; lra|reflexivity].
  - destruct (Nat.eqb_spec (k + 1) n) as [E|E]; [destruct (Req_EM_T r (INR n)) as [F|F]|].
    + split; [intros _; right; auto|reflexivity].
    + split; [discriminate|]. intros [C|[_ C]]; [lra|contradiction].
    + split; [discriminate|]. intros [C|[C _]]; [lra|contradiction].
  - split; [discriminate|]. intros [C|[C D]]; [lra|]. exfalso. apply A. rewrite D. apply le_INR. lia.
Qed.
Lemma tally_filter n k l (f : R -> R) : exists c, tally (shell n k) l c /\
  fold_right Rplus 0 (map snd (filter (fun p => in_bin n k (fst p)) (combine l (map f l)))) = fold_right Rplus 0 (map f (filter (in_bin n k) l)) /\ length (filter (in_bin n k) l) = c.
Proof.
  induction l as [|r l IH]; [exists O; repeat split; constructor|]. destruct IH as (c & T & E & L). cbn [map combine filter fst]. destruct (in_bin n k r) eqn:B.
  - exists (S c). split; [constructor; [apply in_bin_spec, B|exact T]|]. cbn. rewrite E, L. split; reflexivity.
  - exists c. split; [apply tally_no; [intros C; apply in_bin_spec in C; congruence|exact T]|]. split; [exact E|exact L].
Qed.
Lemma sum_const c (l : list R) : fold_right Rplus 0 (map (fun _ => c) l) = INR (length l) * c.
Proof. induction l as [|r l IH]; [cbn; ring|]. cbn [map fold_right length]. rewrite IH, S_INR. ring. Qed.
(** Each point is in exactly one bin. *)
Lemma one_bin n r (w : R) : (0 < n)%nat -> 0 <= r <= INR n -> exists k, (k < n)%nat /\ forall i, (i < n)%nat -> in_bin n i r = Nat.eqb i k.
Proof.
  intros Hn Hr. assert (U : forall i j, (i < n)%nat -> (j < n)%nat -> shell n i r -> shell n j r -> i = j).
  { assert (W : forall i j, (i < j)%nat -> (j < n)%nat -> shell n i r -> shell n j r -> False).
    { intros i j Hij Hj [A|[A A']] B; [|lia]. assert (INR i + 1 <= INR j) by (rewrite <- S_INR; apply le_INR; lia). destruct B as [B|[B B']]; [lra|]. rewrite B', <- B, plus_INR in A. cbn in A. lra. }
    intros i j Hi Hj A B. destruct (lt_eq_lt_dec i j) as [[H|H]|H]; [exfalso; apply (W i j)|exact H|exfalso; apply (W j i)]; assumption. }
  assert (E : exists k, (k < n)%nat /\ shell n k r).
  { destruct (Req_dec r (INR n)) as [->|N]; [exists (n - 1)%nat; split; [lia|]; right; split; [lia|reflexivity]|]. destruct (base_Int_part r) as [A B]. assert (0 <= Int_part r)%Z. { assert (-1 < Int_part r)%Z; [|lia]. apply lt_IZR. lra. }
    exists (Z.to_nat (Int_part r)). assert (INR (Z.to_nat (Int_part r)) = IZR (Int_part r)) as E by (rewrite INR_IZR_INZ, Z2Nat.id by assumption; reflexivity). split; [apply INR_lt; lra|left; lra]. }
  destruct E as (k & Hk & S). exists k. split; [exact Hk|]. intros i Hi. destruct (Nat.eqb_spec i k) as [->|N]; [apply in_bin_spec, S|]. destruct (in_bin n i r) eqn:B; [|reflexivity]. exfalso. apply N. apply U; try assumption. apply in_bin_spec, B.
Qed.
Lemma sum_indicator n k c : (k < n)%nat -> fold_right Rplus 0 (map (fun i => if Nat.eqb i k then c else 0) (seq 0 n)) = c.
Proof.
  assert (G : forall m s, (s <= k < s + m)%nat -> fold_right Rplus 0 (map (fun i => if Nat.eqb i k then c else 0) (seq s m)) = c).
  { induction m as [|m IH]; intros s H; [lia|]. cbn [seq map fold_right]. destruct (Nat.eqb_spec s k) as [->|N].
    - assert (Z : forall m s, (k < s)%nat -> fold_right Rplus 0 (map (fun i => if Nat.eqb i k then c else 0) (seq s m)) = 0).
      { clear. induction m as [|m IH]; intros s H; [reflexivity|]. cbn [seq map fold_right]. destruct (Nat.eqb_spec s k); [lia|]. rewrite IH by lia. ring. }
      rewrite Z by lia. ring.
    - rewrite IH by lia. ring. }
  intros H. apply G. lia.
Qed.
Lemma sum_map_plus (l : list nat) f g : fold_right Rplus 0 (map (fun i => f i + g i) l) = fold_right Rplus 0 (map f l) + fold_right Rplus 0 (map g l).
Proof. induction l as [|a l IH]; cbn; [ring|]. rewrite IH. ring. Qed.
Lemma total_bins n l (f : R -> R) : (0 < n)%nat -> (forall r, In r l -> 0 <= r <= INR n) ->
  fold_right Rplus 0 (map (fun k => fold_right Rplus 0 (map f (filter (in_bin n k) l))) (seq 0 n)) = fold_right Rplus 0 (map f l).
Proof.
  intros Hn. induction l as [|r l IH]; intros H; [cbn; clear; generalize (seq 0 n); induction l as [|a l IH]; [reflexivity|]; cbn; rewrite IH; ring|]. destruct (one_bin n r 0 Hn (H r (or_introl eq_refl))) as (k & Hk & B).
  rewrite (map_ext_in _ (fun i => (if Nat.eqb i k then f r else 0) + fold_right Rplus 0 (map f (filter (in_bin n i) l)))).
  - rewrite sum_map_plus, sum_indicator, IH by first [exact Hk|intros x Hx; apply H; right; exact Hx]. reflexivity.
  - intros i Hi. apply in_seq in Hi. cbn [filter]. rewrite B by lia. destruct (Nat.eqb i k); cbn; ring.
Qed.

Section C122.
Variable gamma : R -> R.
(** Numbers of points: each bin has the points in it, and every point is in one. *)
Theorem C122_numbers : forall dim radii, (forall r, In r radii -> 0 <= r) -> (exists r, In r radii /\ 0 < r) ->
  exists n h, heights gamma dim false radii = Ok h /\ length h = n /\ (forall r, In r radii -> r <= INR n) /\ (exists r, In r radii /\ INR n - 1 < r) /\
    (forall k, (k < n)%nat -> exists c, tally (shell n k) radii c /\ nth_error h k = Some (INR c)) /\ total h = INR (length radii).
Proof.
  intros dim radii P (r0 & I0 & P0). assert (N : radii <> []) by (intros ->; destruct I0). destruct (bins_spec radii P N) as [B1 B2]. assert (Hn : (0 < n_bins radii)%nat) by (apply INR_lt; cbn; specialize (B1 r0 I0); lra).
  eexists (n_bins radii), _. split; [reflexivity|]. split; [rewrite map_length, seq_length; reflexivity|]. split; [exact B1|]. split; [exact B2|]. split.
  - intros k Hk. destruct (tally_filter (n_bins radii) k radii (fun _ => 1)) as (c & T & E & L). exists c. split; [exact T|]. rewrite nth_error_map, (nth_error_nth' _ O) by (rewrite seq_length; exact Hk). rewrite seq_nth by exact Hk. cbn [option_map plus]. f_equal.
    rewrite E, sum_const, L. ring.
  - unfold total. rewrite (map_ext _ (fun k => fold_right Rplus 0 (map (fun _ => 1) (filter (in_bin (n_bins radii) k) radii)))).
    + rewrite total_bins by first [exact Hn|intros r Hr; split; [apply P, Hr|apply B1, Hr]]. rewrite sum_const. ring.
    + intros k. destruct (tally_filter (n_bins radii) k radii (fun _ => 1)) as (c & _ & E & _). exact E.
Qed.
(** Volumes: those of balls, by the recursion in the dimension. *)
Theorem C122_volume : (forall x, 0 < x -> gamma (x + 1) = x * gamma x) -> gamma (1 / 2) = sqrt PI -> gamma 1 = 1 ->
  forall r, volume_sphere gamma r 0 = 1 /\ volume_sphere gamma r 1 = 2 * r /\ forall d, gamma (INR d / 2 + 1) <> 0 -> volume_sphere gamma r (d + 2) = 2 * PI * r ^ 2 / INR (d + 2) * volume_sphere gamma r d.
Proof.
  intros G Gh G1 r. unfold volume_sphere. pose proof PI_RGT_0 as PP. split; [|split].
  - cbn [INR]. replace (0 / 2 + 1) with 1 by field. rewrite G1. replace (0 / 2) with 0 by field. rewrite Rpower_O by exact PP. cbn. field.
  - cbn [INR]. rewrite (G (1 / 2)) by lra. rewrite Gh. assert (0 < sqrt PI) by (apply sqrt_lt_R0, PP). replace (1 / 2) with (/ 2) by field. rewrite Rpower_sqrt by exact PP. cbn. field. lra.
  - intros d Hg. assert (0 <= INR d) by apply pos_INR. rewrite plus_INR. cbn [INR]. replace ((INR d + (1 + 1)) / 2) with (INR d / 2 + 1) by field. rewrite (G (INR d / 2 + 1)) by lra. rewrite Rpower_plus, Rpower_1 by exact PP.
    replace (r ^ (d + 2)) with (r ^ d * r ^ 2) by (rewrite pow_add; reflexivity). field. split; [exact Hg|lra].
Qed.
Lemma volumes_grow dim k : (0 < dim)%nat -> 0 < gamma (INR dim / 2 + 1) -> 0 < volume_sphere gamma (INR (k + 1)) dim - volume_sphere gamma (INR k) dim.
Proof.
  intros Hd Hg. unfold volume_sphere. rewrite <- Rmult_minus_distr_l. apply Rmult_lt_0_compat; [apply Rdiv_lt_0_compat; [apply exp_pos|exact Hg]|]. rewrite plus_INR. cbn [INR]. pose proof (pos_INR k).
  assert (INR k ^ dim < (INR k + 1) ^ dim); [|lra]. clear Hg. destruct dim as [|m]; [lia|]. clear Hd.
  assert (Hm : INR k ^ m <= (INR k + 1) ^ m) by (apply pow_incr; lra). assert (0 < (INR k + 1) ^ m) by (apply pow_lt; lra). cbn [pow]. nra.
Qed.
Lemma weights_density n : forall l vols, length vols = n -> (forall r, In r l -> 0 <= r < INR n) -> look_up vols l = Ok (map (fun r => 1 / nth (Z.to_nat (floor r)) vols 0) l).
Proof.
  intros l vols L. induction l as [|r l IH]; intros H; [reflexivity|]. specialize (IH (fun x Hx => H x (or_intror Hx))). destruct (H r (or_introl eq_refl)) as [A B]. destruct (base_Int_part r) as [C D].
  assert (0 <= floor r)%Z. { unfold floor. assert (-1 < Int_part r)%Z; [|lia]. apply lt_IZR. lra. }
  assert (Hl : (Z.to_nat (floor r) < n)%nat). { apply INR_lt. rewrite INR_IZR_INZ, Z2Nat.id by assumption. unfold floor. lra. }
  cbn [look_up]. rewrite (nth_error_nth' vols 0) by (rewrite L; exact Hl). rewrite IH. reflexivity.
Qed.
(** Densities: the number of points divided by the volume of the shell. *)
Theorem C122_densities : forall dim radii n, (0 < dim)%nat -> 0 < gamma (INR dim / 2 + 1) -> radii <> [] -> (forall r, In r radii -> 0 <= r < INR n) -> (exists r, In r radii /\ INR n - 1 < r) ->
  exists h, heights gamma dim true radii = Ok h /\ length h = n /\
    forall k, (k < n)%nat -> exists c x, tally (fun r => INR k <= r < INR k + 1) radii c /\ nth_error h k = Some x /\ x * (volume_sphere gamma (INR (k + 1)) dim - volume_sphere gamma (INR k) dim) = INR c.
Proof.
  intros dim radii n Hd Hg N H (r0 & I0 & P0). destruct (bins_spec radii (fun r Hr => proj1 (H r Hr)) N) as [B1 (r1 & I1 & B2)].
  assert (n_bins radii = n) as En. { pose proof (H r1 I1). pose proof (B1 r0 I0). assert (INR (n_bins radii) < INR (n + 1)) by (rewrite plus_INR; cbn; lra). assert (INR n < INR (n_bins radii + 1)) by (rewrite plus_INR; cbn; lra). apply INR_lt in H2, H3. lia. }
  unfold heights, weights. rewrite En. set (vols := volumes gamma dim n). assert (L : length vols = n) by (unfold vols, volumes; rewrite map_length, seq_length; reflexivity). rewrite (weights_density n radii vols L H). cbn [bind].
  eexists. split; [reflexivity|]. split; [rewrite map_length, seq_length; reflexivity|]. intros k Hk. destruct (tally_filter n k radii (fun r => 1 / nth (Z.to_nat (floor r)) vols 0)) as (c & T & E2 & Lc).
  exists c. eexists. split; [|split; [rewrite nth_error_map, (nth_error_nth' _ O) by (rewrite seq_length; exact Hk); rewrite seq_nth by exact Hk; cbn [option_map plus]; reflexivity|]].
  - clear - T H. induction T as [|r l c S T IH|r l c S T IH]; [constructor| |].
    + apply tally_yes; [destruct S as [S|[_ S]]; [exact S|]; exfalso; destruct (H r (or_introl eq_refl)); lra|]. apply IH. intros x Hx. apply H. right. exact Hx.
    + apply tally_no; [intros C; apply S; left; exact C|]. apply IH. intros x Hx. apply H. right. exact Hx.
  - rewrite E2. pose proof (volumes_grow dim k Hd Hg) as V. set (v := volume_sphere gamma (INR (k + 1)) dim - volume_sphere gamma (INR k) dim) in *.
    assert (M : map (fun r => 1 / nth (Z.to_nat (floor r)) vols 0) (filter (in_bin n k) radii) = map (fun _ => 1 / v) (filter (in_bin n k) radii)).
    { apply map_ext_in. intros r Hr. apply filter_In in Hr as [Hr B]. apply in_bin_spec in B. destruct B as [B|[_ B]]; [|exfalso; destruct (H r Hr); lra]. f_equal.
      rewrite (floor_spec r (Z.of_nat k)) by (rewrite <- INR_IZR_INZ; exact B). rewrite Nat2Z.id. unfold vols, volumes. rewrite (nth_indep _ 0 (volume_sphere gamma (INR (O + 1)) dim - volume_sphere gamma (INR O) dim)) by (rewrite map_length, seq_length; exact Hk).
      rewrite (map_nth (fun k => volume_sphere gamma (INR (k + 1)) dim - volume_sphere gamma (INR k) dim)), seq_nth by exact Hk. reflexivity. }
    rewrite M, sum_const, Lc. field. lra.
Qed.
(** Refuted: densities can be drawn for all training sets. If the largest distance is an integer they cannot. *)
Theorem C122_integer_refuted : forall dim radii n, In (INR n) radii -> (forall r, In r radii -> 0 <= r <= INR n) -> heights gamma dim true radii = Err IndexError.
Proof.
  intros dim radii n I H. assert (N : radii <> []) by (intros ->; destruct I). destruct (bins_spec radii (fun r Hr => proj1 (H r Hr)) N) as [B1 (r1 & I1 & B2)].
  assert (n_bins radii = n) as En. { pose proof (proj2 (H r1 I1)). pose proof (B1 _ I). assert (INR (n_bins radii) < INR (n + 1)) by (rewrite plus_INR; cbn; lra). apply INR_lt in H2. apply INR_le in H1. lia. }
  unfold heights, weights. rewrite En. set (vols := volumes gamma dim n). assert (L : length vols = n) by (unfold vols, volumes; rewrite map_length, seq_length; reflexivity).
  match goal with |- context [bind ?t _] => assert (t = Err IndexError) as ->; [|reflexivity] end.
  clear N B1 B2 I1 En. induction radii as [|r l IH]; [destruct I|]. cbn [look_up]. destruct (Req_dec r (INR n)) as [->|Nr].
  - rewrite (floor_spec (INR n) (Z.of_nat n)) by (rewrite <- INR_IZR_INZ; lra). rewrite Nat2Z.id. replace (nth_error vols n) with (@None R) by (symmetry; apply nth_error_None; lia). reflexivity.
  - destruct I as [->|I]; [congruence|]. destruct (nth_error vols _); [|reflexivity]. rewrite IH; [reflexivity|exact I|intros x Hx; apply H; right; exact Hx].
Qed.
(** Refuted: every point is shown. If all are at the mean, none is. *)
Theorem C122_centre_refuted : forall dim m, heights gamma dim false (repeat 0 (S m)) = Ok [].
Proof.
  intros dim m. unfold heights, weights, n_bins. cbn [bind].
  replace (largest (repeat 0 (S m))) with 0; [|induction m as [|m IH]; [reflexivity|]; change (largest (repeat 0 (S (S m)))) with (Rmax 0 (largest (repeat 0 (S m)))); rewrite <- IH; unfold Rmax; destruct (Rle_dec 0 0); reflexivity].
  unfold ceil. replace (- 0) with 0 by ring. change (Int_part 0) with (floor 0). rewrite (floor_spec 0 0) by lra. reflexivity.
Qed.
End C122.
Example C122_case : exists h, heights (fun _ => 1) 2 false [1 / 2; 1 / 3; 3 / 2] = Ok h /\ h = [2; 1].
Proof.
  destruct (C122_numbers (fun _ => 1) 2 [1 / 2; 1 / 3; 3 / 2]) as (n & h & E & L & B1 & (r & Hr & B2) & T & _).
  - intros r Hr. cbn in Hr. repeat destruct Hr as [<-|Hr]; try lra; contradiction.
  - exists (1 / 2). split; [left; reflexivity|lra].
  - exists h. split; [exact E|]. pose proof (B1 (3 / 2) ltac:(cbn; auto)) as B3. assert (r <= 3 / 2) by (cbn in Hr; repeat destruct Hr as [<-|Hr]; try lra; contradiction).
    assert (n = 2%nat) as ->. { assert (INR n < INR 3) by (cbn; lra). assert (INR 1 < INR n) by (cbn; lra). apply INR_lt in H0, H1. lia. }
    assert (U : forall c k, tally (shell 2 k) [1 / 2; 1 / 3; 3 / 2] c -> (k = O -> c = 2%nat) /\ (k = 1%nat -> c = 1%nat)).
    { intros c k Hc. unfold shell in Hc. split; intros ->; cbn [INR] in Hc.
      - inversion Hc as [|? ? ? A1 T1|? ? ? A1 T1]; subst; [|exfalso; apply A1; left; lra]. inversion T1 as [|? ? ? A2 T2|? ? ? A2 T2]; subst; [|exfalso; apply A2; left; lra]. inversion T2 as [|? ? ? A3 T3|? ? ? A3 T3]; subst; [exfalso; destruct A3 as [A3|[A3 _]]; [lra|discriminate]|]. inversion T3; reflexivity.
      - inversion Hc as [|? ? ? A1 T1|? ? ? A1 T1]; subst; [exfalso; destruct A1 as [A1|[_ A1]]; lra|]. inversion T1 as [|? ? ? A2 T2|? ? ? A2 T2]; subst; [exfalso; destruct A2 as [A2|[_ A2]]; lra|]. inversion T2 as [|? ? ? A3 T3|? ? ? A3 T3]; subst; [|exfalso; apply A3; left; lra]. inversion T3; reflexivity. }
    destruct (T 0%nat ltac:(lia)) as (c0 & T0 & E0). destruct (T 1%nat ltac:(lia)) as (c1 & T1 & E1). destruct h as [|h0 [|h1 [|]]]; try discriminate L. injection E0 as ->. injection E1 as ->. rewrite (proj1 (U c0 O T0) eq_refl), (proj2 (U c1 1%nat T1) eq_refl). cbn. repeat f_equal; lra.
Qed.

(** ** Training points in a triangle plot *)
Lemma kept_all A ranges : forall i (X : list (list R * A)), Forall (fun b => fst b < snd b) ranges -> kept i ranges X = X.
Proof.
  induction ranges as [|b ranges IH]; intros i X H; [reflexivity|]. inversion H as [|? ? H0 H1]; subst. cbn [kept]. replace (keep i b X) with X; [apply IH, H1|].
  unfold keep. symmetry. induction X as [|p X IX]; [reflexivity|]. cbn [filter]. destruct (Rlt_dec (fst b) _) as [L|L]; cbn [orb]; [rewrite IX; reflexivity|]. destruct (Rlt_dec _ (snd b)) as [L'|L']; [rewrite IX; reflexivity|]. exfalso. lra.
Qed.
(** Every training point is drawn, finite ones with their values, and the colours cover all values. *)
Theorem C123_drawn : forall ranges X y X_inf, Forall (fun b => fst b < snd b) ranges -> length X = length y -> X <> [] ->
  exists lo hi, add_training ranges X y X_inf = Some (X_inf, combine X y, Some (lo, hi)) /\ In lo y /\ In hi y /\ forall v, In v y -> lo <= v <= hi.
Proof.
  intros ranges X y X_inf H L N. unfold add_training. rewrite !kept_all by exact H. rewrite map_map, map_id. destruct (combine X y) as [|p l] eqn:E; [destruct X; [congruence|]; destruct y; discriminate|]. rewrite <- E. do 2 eexists. split; [reflexivity|].
  assert (map snd (combine X y) = y) as Ey. { clear - L. revert y L. induction X as [|x X IH]; intros [|v y] L; try discriminate L; [reflexivity|]. cbn. f_equal. apply IH. injection L as L. exact L. }
  assert (map (fun p => - snd p) (combine X y) = map Ropp y) as Ey'. { rewrite <- Ey at 2. rewrite map_map. reflexivity. }
  rewrite Ey, Ey'. assert (Ny : y <> []) by (intros ->; destruct X; discriminate). destruct (largest_spec y Ny) as [A B]. destruct (largest_spec (map Ropp y)) as [C D]; [destruct y; [congruence|discriminate]|].
  split; [apply in_map_iff in C as (z & <- & Hz); rewrite Ropp_involutive; exact Hz|]. split; [exact A|]. intros v Hv. split; [|apply B, Hv]. specialize (D (- v) (in_map Ropp y v Hv)). lra.
Qed.
(** Refuted: points outside of the ranges of the plot are left out, so that the colours cover the values of those inside. Here the one inside has the value 0. *)
Theorem C123_ranges_refuted : exists fin, add_training [(0, 1); (0, 1)] [[1 / 2; 1 / 2]; [10; 10]] [0; -1000] [] = Some ([], fin, Some (-1000, 0)) /\ In ([10; 10], -1000) fin.
Proof.
  destruct (C123_drawn [(0, 1); (0, 1)] [[1 / 2; 1 / 2]; [10; 10]] [0; -1000] []) as (lo & hi & E & L & H & B); [repeat constructor; cbn; lra|reflexivity|discriminate|]. exists (combine [[1 / 2; 1 / 2]; [10; 10]] [0; -1000]). rewrite E. split; [|right; left; reflexivity].
  pose proof (B 0 (or_introl eq_refl)). pose proof (B (-1000) (or_intror (or_introl eq_refl))). assert (lo = -1000 /\ hi = 0) as [-> ->]; [|reflexivity].
  cbn in L, H. destruct L as [<-|[<-|[]]], H as [<-|[<-|[]]]; split; lra.
Qed.
(** In general: what is drawn are the points each of whose coordinates is above the lower or below the upper end of its range. *)
Lemma kept_in A ranges : forall i (X : list (list R * A)) p, In p (kept i ranges X) <-> In p X /\ forall j lo hi, nth_error ranges j = Some (lo, hi) -> lo < nth (i + j) (fst p) 0 \/ nth (i + j) (fst p) 0 < hi.
Proof.
  induction ranges as [|b ranges IH]; intros i X p; cbn [kept]; [split; [intros H; split; [exact H|intros [|j] lo hi E; discriminate]|intros [H _]; exact H]|].
  rewrite IH. unfold keep. rewrite filter_In. split.
  - intros [[H B] K]. split; [exact H|]. intros [|j] lo hi E; [injection E as ->; rewrite Nat.add_0_r; cbn [fst snd] in B; destruct (Rlt_dec lo _); [left; assumption|destruct (Rlt_dec _ hi); [right; assumption|discriminate B]]|].
    specialize (K j lo hi E). rewrite <- plus_n_Sm. exact K.
  - intros [H K]. split; [split; [exact H|]|].
    + destruct b as [lo hi]. specialize (K O lo hi eq_refl). rewrite Nat.add_0_r in K. cbn [fst snd]. destruct (Rlt_dec lo _); [reflexivity|]. destruct (Rlt_dec _ hi); [reflexivity|]. destruct K; contradiction.
    + intros j lo hi E. specialize (K (S j) lo hi E). rewrite <- plus_n_Sm in K. exact K.
Qed.
Theorem C123_points : forall ranges X y X_inf,
  let shown x := forall j lo hi, nth_error ranges j = Some (lo, hi) -> lo < nth j x 0 \/ nth j x 0 < hi in
  match add_training ranges X y X_inf with
  | Some (inf, fin, colours) => (forall x, In x inf <-> In x X_inf /\ shown x) /\ (forall x v, In (x, v) fin <-> In (x, v) (combine X y) /\ shown x) /\ (colours = None <-> fin = [])
  | None => (forall x, In x X_inf -> ~ shown x) /\ (forall x v, In (x, v) (combine X y) -> ~ shown x)
  end.
Proof.
  intros ranges X y X_inf shown. unfold add_training.
  assert (forall x v, In (x, v) (kept 0 ranges (combine X y)) <-> In (x, v) (combine X y) /\ shown x) as F by (intros x v; rewrite kept_in; reflexivity).
  assert (forall x, In x (map fst (kept 0 ranges (map (fun x => (x, tt)) X_inf))) <-> In x X_inf /\ shown x) as I.
  { intros x. rewrite in_map_iff. split.
    - intros ([x' []] & <- & H). apply kept_in in H as [H K]. apply in_map_iff in H as (z & E & Hz). injection E as <-. split; [exact Hz|exact K].
    - intros [H K]. exists (x, tt). split; [reflexivity|]. apply kept_in. split; [apply in_map_iff; exists x; auto|exact K]. }
  set (fin := kept 0 ranges (combine X y)) in *. set (inf := map fst _) in *. clearbody fin inf.
  assert (match fin, inf with [], [] => (forall x, In x X_inf -> ~ shown x) /\ (forall x v, In (x, v) (combine X y) -> ~ shown x) | _, _ => True end) as N.
  { destruct fin; [|exact Logic.I]. destruct inf; [|exact Logic.I]. split; [intros x H S; apply (I x); auto|intros x v H S; apply (F x v); auto]. }
  destruct fin as [|p fin]; [destruct inf as [|q inf]; [exact N|]|]; cbn zeta iota.
  - split; [exact I|]. split; [exact F|]. split; reflexivity.
  - split; [exact I|]. split; [exact F|]. split; discriminate.
Qed.
(** No finite point: the crosses are still drawn. A range from 1 down to 0 hides the points between. *)
Example C123_crosses : add_training [(0, 1); (0, 1)] [] [] [[3; 4]] = Some ([[3; 4]], [], None).
Proof. unfold add_training. rewrite !kept_all by (repeat constructor; cbn; lra). reflexivity. Qed.
Example C123_reversed : add_training [(0, 1); (1, 0)] [[5; 1 / 2]] [7] [[1 / 2; 5]] = Some ([[1 / 2; 5]], [], None).
Proof. unfold add_training, kept, keep. cbn. repeat (destruct (Rlt_dec _ _); try (exfalso; lra); cbn). reflexivity. Qed.
Print Assumptions C121_dict.
Print Assumptions C121_list.
Print Assumptions C121_samples.
Print Assumptions C121_again.
Print Assumptions C121_caller_refuted.
Print Assumptions C121_missing_refuted.
Print Assumptions C121_getdist_refuted.
Print Assumptions C122_numbers.
Print Assumptions C122_volume.
Print Assumptions C122_densities.
Print Assumptions C122_integer_refuted.
Print Assumptions C122_centre_refuted.
Print Assumptions C123_drawn.
Print Assumptions C123_ranges_refuted.
Print Assumptions C123_points.

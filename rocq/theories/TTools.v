(** Properties C06 to C10 (gpry/tools.py). *)
From Verif Require Import MTools STools PTools.
Set Default Goal Selector "!".

Definition F (z : Z) : num := nz z.

(** ** C06 *)
(** For every box and every array of points of its dimension, one verdict per point, true exactly
    when the point is in the closed box; with or without the shape check. *)
Theorem C06_closed_box :
  forall box d pts check_shape, Forall (fun r => length r = d) pts -> length box = d ->
  exists verdicts, is_in_bounds (points_arr d pts) (box_arr box) check_shape = Ok verdicts
    /\ Forall2 (fun p v => v = true <-> in_box box p) pts verdicts.
Proof.
  intros box d pts cs Hp Hb. exists (map (box_test box) pts). split; [apply is_in_bounds_eq; auto|].
  induction Hp as [|r pts Hr _ IH]; simpl; constructor; auto. apply box_test_spec. congruence.
Qed.
Print Assumptions C06_closed_box.
(** One point given as a vector. *)
Theorem C06_one_point :
  forall box x check_shape, length x = length box ->
  exists v, is_in_bounds (Vec x) (box_arr box) check_shape = Ok [v] /\ (v = true <-> in_box box x).
Proof.
  intros box x cs H.
  assert (is_in_bounds (Vec x) (box_arr box) cs = is_in_bounds (points_arr (length x) [x]) (box_arr box) cs) as -> by reflexivity.
  rewrite is_in_bounds_eq by auto. exists (box_test box x). split; auto. apply box_test_spec; auto.
Qed.
Print Assumptions C06_one_point.
Theorem C06_nan_is_outside :
  forall box x, In NaN x -> ~ in_box box x.
Proof.
  intros box x Hin H. induction H as [|b xi box x [H1 H2] _ IH]; [destruct Hin|]. destruct Hin as [->|Hin]; auto.
  destruct (fst b); discriminate.
Qed.
Print Assumptions C06_nan_is_outside.
(** With [check_shape], bounds that are not (d, 2) are a TypeError, and any mismatch of dimensions
    a ValueError. *)
Theorem C06_shape_check :
  forall points bounds,
  (nc (atleast_2d bounds) <> 2 -> is_in_bounds points bounds true = Err TypeError)
  /\ (nc (atleast_2d bounds) = 2 -> length (rows (atleast_2d bounds)) <> nc (atleast_2d points) ->
      is_in_bounds points bounds true = Err ValueError).
Proof.
  intros p b. unfold is_in_bounds, check_and_return_bounds. split.
  - intros H. apply Nat.eqb_neq in H. rewrite H. reflexivity.
  - intros H K. rewrite H. apply Nat.eqb_neq in K. simpl. rewrite K. reflexivity.
Qed.
Print Assumptions C06_shape_check.
(** Without it, numpy broadcasting accepts a one-coordinate point against a box of any dimension. *)
Theorem C06_no_shape_check_refuted :
  exists box x, length x <> length box /\ is_in_bounds (Vec x) (box_arr box) false = Ok [true].
Proof.
  exists [(F 0, F 2); (F (-1), F 1)], [F 1]. split; [discriminate|]. vm_compute. reflexivity.
Qed.
Print Assumptions C06_no_shape_check_refuted.
(** Exactly what happens without the check: one pair of bounds is used for all coordinates, one coordinate is compared with all bounds, and any other mismatch raises. *)
Theorem C06_broadcast :
  forall box x, length x <> length box ->
  (forall b, box = [b] -> exists v, is_in_bounds (Vec x) (box_arr box) false = Ok [v] /\ (v = true <-> in_box (map (fun _ => b) x) x))
  /\ (forall c, x = [c] -> exists v, is_in_bounds (Vec x) (box_arr box) false = Ok [v] /\ (v = true <-> in_box box (map (fun _ => c) box)))
  /\ (length x <> 1 -> length box <> 1 -> is_in_bounds (Vec x) (box_arr box) false = Err ValueError).
Proof.
  intros box x Hl.
  assert (combine (map (fun b : num * num => fst b) box) (map (fun b : num * num => snd b) box) = box) as Hc.
  { clear. induction box as [|[a b] box IH]; [reflexivity|]. cbn. f_equal. exact IH. }
  assert (is_in_bounds (Vec x) (box_arr box) false
          = do m <- bcast2 (fun x lh => nleb (fst lh) x && nleb x (snd lh)) x box; Ok [forallb (fun b => b) m]) as E.
  { unfold is_in_bounds, box_arr, col. cbn [bind nc rows atleast_2d Nat.ltb Nat.leb mapM]. rewrite !map_map. cbn [nth].
    rewrite Hc. destruct (bcast2 _ x box); reflexivity. }
  rewrite E. unfold bcast2. apply Nat.eqb_neq in Hl. rewrite Hl. split; [|split].
  - intros b ->. exists (forallb (fun x => nleb (fst b) x && nleb x (snd b)) x). split.
    + destruct x as [|c [|c' x]]; cbn [bind]; [reflexivity|discriminate|]. do 2 f_equal. rewrite forallb_map. reflexivity.
    + rewrite forallb_forall. clear. induction x as [|c x IH]; cbn [map]; split; intros H.
      * constructor.
      * intros c [].
      * constructor; [apply andb_true_iff, H; left; reflexivity|]. apply IH. intros c' Hc'. apply H. right. exact Hc'.
      * inversion H as [|? ? ? ? H1 H2]; subst. intros c' [<-|Hc']; [apply andb_true_iff, H1|]. apply (proj2 IH H2). exact Hc'.
  - intros c ->. exists (forallb (fun lh => nleb (fst lh) c && nleb c (snd lh)) box). split.
    + destruct box as [|b [|b' box]]; cbn [bind]; [reflexivity|discriminate|]. do 2 f_equal. rewrite forallb_map. reflexivity.
    + rewrite forallb_forall. clear. induction box as [|b box IH]; cbn [map]; split; intros H.
      * constructor.
      * intros b [].
      * constructor; [apply andb_true_iff, H; left; reflexivity|]. apply IH. intros b' Hb'. apply H. right. exact Hb'.
      * inversion H as [|? ? ? ? H1 H2]; subst. intros b' [<-|Hb']; [apply andb_true_iff, H1|]. apply (proj2 IH H2). exact Hb'.
  - intros Hx Hb. apply Nat.eqb_neq in Hl. destruct x as [|c [|c' x]], box as [|b [|b' box]]; try reflexivity; cbn in *; lia.
Qed.
Print Assumptions C06_broadcast.
Example C06_broadcast_case :
  is_in_bounds (Vec [F 1; F 2; F 0]) (box_arr [(F 0, F 2)]) false = Ok [true] /\ is_in_bounds (Vec [F 1; F 3]) (box_arr [(F 0, F 2)]) false = Ok [false]
  /\ is_in_bounds (Vec [F 1; F 2; F 0]) (box_arr [(F 0, F 2); (F 0, F 2)]) false = Err ValueError.
Proof. vm_compute. auto. Qed.
Example C06_case :
  is_in_bounds (points_arr 2 [[F 0; F 1]; [F 3; F 0]; [NaN; F 0]; [F 2; F (-1)]])
    (box_arr [(F 0, F 2); (F (-1), F 1)]) true = Ok [true; false; false; true].
Proof. vm_compute. reflexivity. Qed.

(** ** C07 *)
(** What the filter calls "already in the training set" is exactly equality, after preprocessing
    and rounding, with a (rounded) training point. *)
Definition rounded (rnd : num -> num) (tr : option (list num -> list num)) (l : list (list num)) :=
  map (fun x => map rnd (match tr with Some f => f x | None => x end)) l.
Lemma rounded_eq rnd tr l :
  map (map rnd) (match tr with Some f => map f l | None => l end) = rounded rnd tr l.
Proof. unfold rounded. destruct tr; [rewrite map_map|]; reflexivity. Qed.
Theorem C07_in_training_exact :
  forall rnd tr train new, (forall r, In r (rounded rnd tr new) -> no_nan r) ->
  Forall2 (fun x b => b = true <-> In (map rnd (match tr with Some f => f x | None => x end)) (map (map rnd) train))
    new (fst (check_candidates rnd tr train new)).
Proof.
  intros rnd tr train new Hn. unfold check_candidates. rewrite rounded_eq. simpl. unfold rounded in *.
  rewrite map_map. induction new as [|x new IH]; simpl; constructor.
  - rewrite existsb_exists. split.
    + intros (t & Ht & E). apply rowb_eq in E. subst. auto.
    + intros H. eexists. split; [exact H|]. apply rowb_refl. apply Hn. left. reflexivity.
  - apply IH. intros r Hr. apply Hn. right. auto.
Qed.
Print Assumptions C07_in_training_exact.

Lemma dup_nth rnd tr train new i : i < length new ->
  let R := rounded rnd tr new in
  nth_error (snd (check_candidates rnd tr train new)) i =
  Some (forallb (fun v => existsb (fun w => neqb v w) (concat (filter (fun r => 1 <? count r R) R))) (nth i R [])
        && negb ((1 <? count (nth i R []) R) && (first_index (nth i R []) R =? i))).
Proof.
  intros Hi R. unfold check_candidates. rewrite rounded_eq. fold R. cbn [snd].
  rewrite nth_error_map. assert (length R = length new) as -> by (unfold R, rounded; apply map_length).
  assert (nth_error (seq 0 (length new)) i = Some i) as ->; [|reflexivity].
  rewrite (nth_error_nth' _ 0) by (rewrite seq_length; auto). rewrite seq_nth by auto. reflexivity.
Qed.

(** Every point that repeats an earlier point of the batch is flagged, so no two equal points are
    both evaluated. *)
Theorem C07_repeats_flagged :
  forall rnd tr train new i, (forall r, In r (rounded rnd tr new) -> no_nan r) ->
  repeats_earlier (rounded rnd tr new) i ->
  nth_error (snd (check_candidates rnd tr train new)) i = Some true.
Proof.
  intros rnd tr train new i Hn (j & r & Hji & Hj & Hi).
  assert (i < length new) as Hlt.
  { assert (i < length (rounded rnd tr new)) as K by (apply nth_error_Some; congruence).
    unfold rounded in K. rewrite map_length in K. auto. }
  rewrite dup_nth by auto. set (R := rounded rnd tr new) in *.
  assert (no_nan r) as Hr by (apply Hn; eapply nth_error_In; eauto).
  rewrite (nth_error_nth _ _ _ Hi).
  assert (1 < count r R) as Hc by (eapply (count_gt1 r R j i); eauto).
  assert (first_index r R <= j) as Hf by (apply first_index_le; auto).
  f_equal. apply andb_true_iff. split.
  - apply forallb_forall. intros v Hv. apply existsb_exists. exists v. split.
    + apply in_concat. exists r. split; auto. apply filter_In. split; [eapply nth_error_In; eauto|].
      apply Nat.ltb_lt. auto.
    + apply neqb_refl. unfold no_nan in Hr. rewrite Forall_forall in Hr. auto.
  - apply negb_true_iff. apply andb_false_iff. right. apply Nat.eqb_neq. lia.
Qed.
Print Assumptions C07_repeats_flagged.

(** The first of several equal points is never flagged as a repetition: one of each group remains. *)
Theorem C07_first_kept :
  forall rnd tr train new i r, (forall r, In r (rounded rnd tr new) -> no_nan r) ->
  nth_error (rounded rnd tr new) i = Some r ->
  (forall j, j < i -> nth_error (rounded rnd tr new) j <> Some r) ->
  (exists j, i < j /\ nth_error (rounded rnd tr new) j = Some r) ->
  nth_error (snd (check_candidates rnd tr train new)) i = Some false.
Proof.
  intros rnd tr train new i r Hn Hi Hfirst (j & Hij & Hj).
  assert (i < length new) as Hlt.
  { assert (i < length (rounded rnd tr new)) as K by (apply nth_error_Some; congruence).
    unfold rounded in K. rewrite map_length in K. auto. }
  rewrite dup_nth by auto. set (R := rounded rnd tr new) in *. rewrite (nth_error_nth _ _ _ Hi).
  assert (no_nan r) as Hr by (apply Hn; eapply nth_error_In; eauto).
  assert (1 < count r R) as Hc by (eapply (count_gt1 r R i j); eauto).
  assert (first_index r R = i) as Hf.
  { pose proof (first_index_le r R i Hr Hi). destruct (Nat.eq_dec (first_index r R) i); auto.
    exfalso. apply (Hfirst (first_index r R)); [lia|]. apply first_index_nth. lia. }
  f_equal. rewrite Hf, Nat.eqb_refl. apply Nat.ltb_lt in Hc. rewrite Hc. simpl. apply andb_false_r.
Qed.
Print Assumptions C07_first_kept.

(** In one dimension the flags are exact. *)
Theorem C07_one_dimension :
  forall rnd tr train new i, (forall r, In r (rounded rnd tr new) -> no_nan r /\ length r = 1) ->
  i < length new ->
  nth_error (snd (check_candidates rnd tr train new)) i = Some true <-> repeats_earlier (rounded rnd tr new) i.
Proof.
  intros rnd tr train new i Hn Hi. split; [|apply C07_repeats_flagged; intros; apply Hn; auto].
  rewrite dup_nth by auto. set (R := rounded rnd tr new) in *. intros H. injection H as H.
  apply andb_true_iff in H as [H1 H2].
  assert (i < length R) as HiR by (unfold R, rounded; rewrite map_length; auto).
  destruct (nth_error R i) as [r|] eqn:Er; [|apply nth_error_None in Er; lia].
  rewrite (nth_error_nth _ _ _ Er) in *.
  destruct (Hn r) as [Hr Hl]; [eapply nth_error_In; eauto|].
  destruct r as [|v [|]]; try discriminate. simpl in H1. rewrite andb_true_r in H1.
  apply existsb_exists in H1 as (w & Hw & E). apply neqb_eq in E. subst w.
  apply in_concat in Hw as (k & Hk & Hvk). apply filter_In in Hk as [HkR Hc].
  destruct (Hn k HkR) as [_ Hlk]. destruct k as [|v' [|]]; try discriminate. destruct Hvk as [->|[]].
  rewrite Hc in H2. simpl in H2. apply negb_true_iff, Nat.eqb_neq in H2. apply Nat.ltb_lt in Hc.
  pose proof (first_index_le [v] R i Hr Er). exists (first_index [v] R), [v].
  split; [lia|]. split; [apply first_index_nth; lia|auto].
Qed.
Print Assumptions C07_one_dimension.

(** What flags a point that repeats nothing: each of its coordinates occurs somewhere in points
    that are repeated in the batch. *)
Theorem C07_false_flags_partial :
  forall rnd tr train new i r, (forall r, In r (rounded rnd tr new) -> no_nan r) ->
  nth_error (rounded rnd tr new) i = Some r ->
  nth_error (snd (check_candidates rnd tr train new)) i = Some true ->
  forall v, In v r -> exists k j j', j <> j' /\ nth_error (rounded rnd tr new) j = Some k
     /\ nth_error (rounded rnd tr new) j' = Some k /\ In v k.
Proof.
  intros rnd tr train new i r Hn Hi. 
  assert (i < length new) as Hlt.
  { assert (i < length (rounded rnd tr new)) as K by (apply nth_error_Some; congruence).
    unfold rounded in K. rewrite map_length in K. auto. }
  rewrite dup_nth by auto. set (R := rounded rnd tr new) in *. rewrite (nth_error_nth _ _ _ Hi).
  intros H v Hv. injection H as H. apply andb_true_iff in H as [H _].
  rewrite forallb_forall in H. specialize (H v Hv). apply existsb_exists in H as (w & Hw & E).
  apply neqb_eq in E. subst w. apply in_concat in Hw as (k & Hk & Hvk). apply filter_In in Hk as [HkR Hc].
  apply Nat.ltb_lt in Hc. destruct (count_two k R Hc) as (j & H1 & H2).
  exists k, (first_index k R), j. split; [lia|]. split; [apply first_index_nth; lia|auto].
Qed.
Print Assumptions C07_false_flags_partial.

(** The exact claim fails from two dimensions on: a point that repeats nothing is rejected because
    its coordinates occur, in different places, in a repeated pair of other points. *)
Theorem C07_distinct_point_rejected_refuted :
  exists new x, In x new /\ length (filter (rowb x) new) = 1
    /\ ~ In x (accepted_candidates (fun v => v) None [] new).
Proof.
  exists [[F 1; F 2]; [F 1; F 2]; [F 2; F 1]], [F 2; F 1]. split; [simpl; tauto|].
  split; [vm_compute; reflexivity|]. vm_compute. intros [K|[]]. discriminate.
Qed.
Print Assumptions C07_distinct_point_rejected_refuted.
Example C07_case :
  let new := [[F 1; F 2]; [F 3; F 5]; [F 1; F 2]; [F 7; F 7]] in
  (forall r, In r (rounded (fun v => v) None new) -> no_nan r)
  /\ repeats_earlier (rounded (fun v => v) None new) 2
  /\ check_candidates (fun v => v) None [[F 7; F 7]] new = ([false; false; false; true], [false; false; true; false])
  /\ accepted_candidates (fun v => v) None [[F 7; F 7]] new = [[F 1; F 2]; [F 3; F 5]].
Proof.
  split; [|split; [|split]].
  - intros r H. simpl in H. repeat (destruct H as [<-|H]; [repeat constructor|]). destruct H.
  - exists 0, [F 1; F 2]. repeat split; auto.
  - vm_compute. reflexivity.
  - vm_compute. reflexivity.
Qed.

(** ** C08 *)
Definition fin_ge1 (f : num) : Prop := exists q, f = Fin q /\ (1 <= q)%Qc.
Lemma npmin2_spec a b : isnan a = false -> isnan b = false ->
  nleb (npmin2 a b) a = true /\ nleb (npmin2 a b) b = true /\ (npmin2 a b = a \/ npmin2 a b = b).
Proof.
  intros Ha Hb. unfold npmin2, pymin. rewrite Ha, Hb. simpl. destruct (nltb b a) eqn:E.
  - split; [apply nltb_leb; auto|]. split; [apply nleb_refl; auto|auto].
  - split; [apply nleb_refl; auto|]. split; auto. rewrite nltb_not_leb in E by auto.
    apply negb_false_iff in E. auto.
Qed.
Lemma npmax2_spec a b : isnan a = false -> isnan b = false ->
  nleb a (npmax2 a b) = true /\ nleb b (npmax2 a b) = true /\ (npmax2 a b = a \/ npmax2 a b = b).
Proof.
  intros Ha Hb. assert (isnan (npmax2 a b) = false) as K by (rewrite npmax2_nan, Ha, Hb; auto).
  split; [apply npmax2_ge_l; auto|]. split; [apply npmax2_ge_r; auto|].
  unfold npmax2, pymax. rewrite Ha, Hb. simpl. destruct (nltb a b); auto.
Qed.
Lemma npmax2_left x a : nleb a x = true -> npmax2 x a = x.
Proof.
  intros H. unfold npmax2, pymax. rewrite (nleb_notnan_l _ _ H), (nleb_notnan_r _ _ H). simpl.
  rewrite (nleb_ltb_false _ _ H). reflexivity.
Qed.
Lemma npmin2_left x a : nleb x a = true -> npmin2 x a = x.
Proof.
  intros H. unfold npmin2, pymin. rewrite (nleb_notnan_l _ _ H), (nleb_notnan_r _ _ H). simpl.
  rewrite (nleb_ltb_false _ _ H). reflexivity.
Qed.
Lemma npmin_spec x l : isnan x = false -> Forall (fun v => isnan v = false) l ->
  In (npmin x l) (x :: l) /\ forall v, In v (x :: l) -> nleb (npmin x l) v = true.
Proof.
  intros Hx Hl. revert x Hx; induction Hl as [|y l Hy _ IH]; intros x Hx.
  - split; [left; auto|]. intros v [<-|[]]. apply nleb_refl; auto.
  - unfold npmin in *. cbn [fold_left]. destruct (npmin2_spec x y Hx Hy) as (H1 & H2 & H3).
    destruct (IH (npmin2 x y)) as [H4 H5].
    { destruct H3 as [->| ->]; auto. }
    split.
    + destruct H4 as [H4|H4]; [|right; right; auto]. rewrite <- H4. destruct H3 as [->| ->]; simpl; auto.
    + pose proof (H5 _ (or_introl eq_refl)) as H6.
      intros v [<-|[<-|Hv]]; [eapply nleb_trans; eauto|eapply nleb_trans; eauto|]. apply H5. right; auto.
Qed.
Lemma npmax_spec x l : isnan x = false -> Forall (fun v => isnan v = false) l ->
  In (npmax x l) (x :: l) /\ forall v, In v (x :: l) -> nleb v (npmax x l) = true.
Proof.
  intros Hx Hl. assert (isnan (npmax x l) = false) as K.
  { rewrite npmax_nan, Hx. simpl. induction Hl as [|y l Hy _ IH]; simpl; auto. rewrite Hy. auto. }
  split; [apply npmax_in; auto|]. intros v Hv. apply npmax_ge; auto.
Qed.

Definition finite_row (r : list num) : Prop := Forall (fun x => isfin x = true) r.
Lemma column_finite S j : Forall finite_row S -> Forall (fun r => j < length r) S ->
  Forall (fun x => isfin x = true) (map (fun r => nth j r NaN) S).
Proof.
  intros H K. rewrite Forall_forall in *. intros x Hx. apply in_map_iff in Hx as (r & <- & Hr).
  specialize (H r Hr). specialize (K r Hr). unfold finite_row in H. rewrite Forall_forall in H.
  apply H. apply nth_In. auto.
Qed.

(** One dimension: [x :: xs] are the samples, the prior interval is [a, b]. *)
Lemma shrink_dim_spec f a b x xs : fin_ge1 f -> isnan a = false -> isnan b = false ->
  isfin x = true -> Forall (fun v => isfin v = true) xs ->
  let '(lo, hi) := shrink_dim f (a, b) x xs in
  le a lo /\ le hi b
  /\ (forall v, In v (x :: xs) -> le a v -> le v b -> le lo v /\ le v hi)
  /\ exists m M, In m (x :: xs) /\ In M (x :: xs) /\
       (forall v, In v (x :: xs) -> le m v /\ le v M) /\
       (f = nz 1 -> le a m -> le M b -> lo = m /\ hi = M) /\
       (forall q qm qM, f = Fin q -> m = Fin qm -> M = Fin qM ->
          (le a (Fin (qm - (q - 1) / qc_of_Z 2 * (qM - qm))) -> lo = Fin (qm - (q - 1) / qc_of_Z 2 * (qM - qm))) /\
          (le (Fin (qM + (q - 1) / qc_of_Z 2 * (qM - qm))) b -> hi = Fin (qM + (q - 1) / qc_of_Z 2 * (qM - qm))))%Qc.
Proof.
  intros (q & -> & Hq) Ha Hb Hx Hxs.
  assert (Forall (fun v => isnan v = false) xs) as Hxs' by (eapply Forall_impl; [|exact Hxs]; intros; apply isfin_notnan; auto).
  destruct (npmin_spec x xs (isfin_notnan _ Hx) Hxs') as [Hm1 Hm2].
  destruct (npmax_spec x xs (isfin_notnan _ Hx) Hxs') as [HM1 HM2].
  assert (forall v, In v (x :: xs) -> isfin v = true) as Hall.
  { intros v [<-|Hv]; auto. rewrite Forall_forall in Hxs. auto. }
  unfold shrink_dim, le.
  destruct (npmin x xs) as [| |qm|] eqn:Em; try (specialize (Hall _ Hm1); discriminate).
  destruct (npmax x xs) as [| |qM|] eqn:EM; try (specialize (Hall _ HM1); discriminate).
  assert (qm <= qM)%Qc as Hle.
  { assert (nleb (Fin qm) (Fin qM) = true) as K by (apply Hm2; auto). apply qleb_le; auto. }
  assert (isnan (nsub (Fin qm) (nmul (ndiv (nsub (Fin q) (nz 1)) (nz 2)) (nsub (Fin qM) (Fin qm)))) = false
     /\ nsub (Fin qm) (nmul (ndiv (nsub (Fin q) (nz 1)) (nz 2)) (nsub (Fin qM) (Fin qm))) = Fin (qm - (q - 1) / qc_of_Z 2 * (qM - qm))%Qc
     /\ nadd (Fin qM) (nmul (ndiv (nsub (Fin q) (nz 1)) (nz 2)) (nsub (Fin qM) (Fin qm))) = Fin (qM + (q - 1) / qc_of_Z 2 * (qM - qm))%Qc) as (_ & E1 & E2).
  { cbn -[Qcplus Qcmult Qcopp Qcdiv]. 
    replace (qeqb (qc_of_Z 2) 0) with false by reflexivity.
    split; auto. }
  cbn [fst snd]. rewrite E1, E2. clear E1 E2.
  assert (0 <= (q - 1) / qc_of_Z 2 * (qM - qm))%Qc as Hpos.
  { assert (0 <= (q - 1) / qc_of_Z 2)%Qc as K.
    { unfold Qcdiv. assert (/ qc_of_Z 2 = Q2Qc (1 # 2))%Qc as -> by (apply Qc_is_canon; reflexivity). qc. }
    revert K. generalize ((q - 1) / qc_of_Z 2)%Qc. qc. }
  set (D := ((q - 1) / qc_of_Z 2 * (qM - qm))%Qc) in *.
  destruct (npmax2_spec (Fin (qm - D)) a eq_refl Ha) as (L1 & L2 & L3).
  destruct (npmin2_spec (Fin (qM + D)) b eq_refl Hb) as (U1 & U2 & U3).
  split; auto. split; auto. split; [|exists (Fin qm), (Fin qM); split; [auto|split; [auto|split; [auto|split]]]].
  - intros v Hv Hav Hvb. pose proof (Hm2 v Hv) as H1. pose proof (HM2 v Hv) as H2. split.
    + destruct L3 as [->| ->]; auto. eapply nleb_trans; [|exact H1]. cbn. apply qleb_le. clear - Hpos. qc.
    + destruct U3 as [->| ->]; auto. eapply nleb_trans; [exact H2|]. cbn. apply qleb_le. clear - Hpos. qc.
  - intros E. injection E as ->. assert (D = 0)%Qc as HD.
    { unfold D. replace (qc_of_Z 1 - 1)%Qc with 0%Qc by (apply Qc_is_canon; reflexivity).
      unfold Qcdiv. rewrite !Qcmult_0_l. reflexivity. }
    rewrite HD. replace (qm - 0)%Qc with qm by qc. replace (qM + 0)%Qc with qM by qc.
    intros H1 H2. split; [apply npmax2_left|apply npmin2_left]; auto.
  - intros q' qm' qM' E1 E2 E3. injection E1 as <-. injection E2 as <-. injection E3 as <-. fold D.
    split; intros H; [apply npmax2_left|apply npmin2_left]; auto.
Qed.

Lemma Some_inj {A} (x y : A) : Some x = Some y -> x = y. Proof. congruence. Qed.
(** For every prior box (possibly infinite), every non-empty set of finite samples and every factor
    of at least 1: the result stays in the prior and contains each sample that is in the prior; with
    factor 1 and all samples in the prior it is the smallest such interval. *)
Theorem C08_shrink_bounds :
  forall box d S f, length box = d -> S <> [] -> fin_ge1 f ->
  Forall (fun r => length r = d) S -> Forall finite_row S ->
  Forall (fun b => isnan (fst b) = false /\ isnan (snd b) = false) box ->
  exists out, shrink_bounds (box_arr box) (points_arr d S) f = Ok out /\ length out = d
  /\ forall j a b lo hi, nth_error box j = Some (a, b) -> nth_error out j = Some (lo, hi) ->
     le a lo /\ le hi b
     /\ (forall r v, In r S -> nth_error r j = Some v -> le a v -> le v b -> le lo v /\ le v hi)
     /\ (f = nz 1 -> (forall r v, In r S -> nth_error r j = Some v -> le a v /\ le v b) ->
          (exists r, In r S /\ nth_error r j = Some lo) /\ (exists r, In r S /\ nth_error r j = Some hi)).
Proof.
  intros box d S f Hb HS Hf HdS HfS Hnn. unfold shrink_bounds, box_arr, points_arr, check_and_return_bounds.
  cbn [atleast_2d nc rows Nat.eqb bind]. rewrite map_length, Hb, Nat.eqb_refl. cbn [negb].
  destruct S as [|r0 S]; [congruence|]. eexists. split; [reflexivity|].
  split; [rewrite map_length, seq_length; auto|].
  intros j a b lo hi Hj Ho.
  assert (j < d) as Hjd by (rewrite <- Hb; apply nth_error_Some; congruence).
  rewrite nth_error_map in Ho.
  rewrite (nth_error_nth' (seq 0 d) 0) in Ho by (rewrite seq_length; auto).
  rewrite seq_nth in Ho by auto. cbn [option_map plus] in Ho.
  unfold column in Ho. cbn [rows map] in Ho. rewrite !map_map in Ho.
  assert (nth j (map (fun x => nth 0 [fst x; snd x] NaN) box) NaN = a
          /\ nth j (map (fun x => nth 1 [fst x; snd x] NaN) box) NaN = b) as [Ea Eb].
  { split; apply nth_error_nth; rewrite nth_error_map, Hj; reflexivity. }
  rewrite Ea, Eb in Ho. clear Ea Eb. apply Some_inj in Ho.
  assert (isnan a = false /\ isnan b = false) as [Ha Hbn].
  { rewrite Forall_forall in Hnn. apply (Hnn (a, b)). eapply nth_error_In; eauto. }
  set (V := map (fun r => nth j r NaN) (r0 :: S)) in *.
  assert (Forall (fun x => isfin x = true) V) as HV.
  { unfold V. apply column_finite; auto. eapply Forall_impl; [|exact HdS]. simpl. intros; lia. }
  assert (forall r v, In r (r0 :: S) -> nth_error r j = Some v -> In v V) as HinV.
  { intros r v Hr Hv. unfold V. apply in_map_iff. exists r. split; auto. apply nth_error_nth; auto. }
  assert (forall v, In v V -> exists r, In r (r0 :: S) /\ nth_error r j = Some v) as HVin.
  { intros v Hv. apply in_map_iff in Hv as (r & <- & Hr). exists r. split; auto.
    apply nth_error_nth'. rewrite Forall_forall in HdS. rewrite HdS; auto. }
  unfold V in *. cbn [map] in *. clear V. inversion HV as [|? ? HV1 HV2]; subst.
  pose proof (shrink_dim_spec f a b _ _ Hf Ha Hbn HV1 HV2) as K. rewrite Ho in K.
  destruct K as (K1 & K2 & K3 & (m & M & Hm & HM & K4 & K5 & _)).
  split; auto. split; auto. split.
  - intros r v Hr Hv. apply K3. eapply HinV; eauto.
  - intros E1 Hin. assert (le a m /\ le m b) as [? _].
    { destruct (HVin m Hm) as (r & Hr & Hrm). eapply Hin; eauto. }
    assert (le a M /\ le M b) as [_ ?].
    { destruct (HVin M HM) as (r & Hr & HrM). eapply Hin; eauto. }
    destruct K5 as [-> ->]; auto.
Qed.
Print Assumptions C08_shrink_bounds.

(** With a factor [q], wherever the prior does not cut, the width is multiplied by [q] about the
    same centre. *)
Theorem C08_factor :
  forall a b x xs q lo hi, (1 <= q)%Qc -> isnan a = false -> isnan b = false ->
  isfin x = true -> Forall (fun v => isfin v = true) xs ->
  shrink_dim (Fin q) (a, b) x xs = (lo, hi) ->
  exists m M, In (Fin m) (x :: xs) /\ In (Fin M) (x :: xs)
   /\ (forall v, In v (x :: xs) -> le (Fin m) v /\ le v (Fin M))
   /\ exists l h, (h - l = q * (M - m))%Qc /\ (h + l = M + m)%Qc
      /\ (le a (Fin l) -> lo = Fin l) /\ (le (Fin h) b -> hi = Fin h).
Proof.
  intros a b x xs q lo hi Hq Ha Hb Hx Hxs Ho.
  pose proof (shrink_dim_spec (Fin q) a b x xs (ex_intro _ q (conj eq_refl Hq)) Ha Hb Hx Hxs) as K. rewrite Ho in K.
  destruct K as (_ & _ & _ & (m & M & Hm & HM & K4 & _ & K6)).
  assert (forall v, In v (x :: xs) -> isfin v = true) as Hall.
  { intros v [<-|Hv]; auto. rewrite Forall_forall in Hxs. auto. }
  destruct m as [| |qm|]; try (specialize (Hall _ Hm); discriminate).
  destruct M as [| |qM|]; try (specialize (Hall _ HM); discriminate).
  exists qm, qM. split; auto. split; auto. split; auto. do 2 eexists.
  split; [|split; [|apply (K6 q qm qM); auto]].
  - unfold Qcdiv. assert (/ qc_of_Z 2 = Q2Qc (1 # 2))%Qc as -> by (apply Qc_is_canon; reflexivity). qc.
  - unfold Qcdiv. assert (/ qc_of_Z 2 = Q2Qc (1 # 2))%Qc as -> by (apply Qc_is_canon; reflexivity). qc.
Qed.
Print Assumptions C08_factor.
(** Samples that are all outside the prior give an inverted interval, without an error. *)
Theorem C08_samples_outside_refuted :
  exists lo hi, shrink_bounds (box_arr [(F 0, F 1)]) (points_arr 1 [[F 5]; [F 6]]) (nz 1) = Ok [(lo, hi)]
    /\ nltb hi lo = true.
Proof. do 2 eexists. split; [vm_compute; reflexivity|]. vm_compute. reflexivity. Qed.
Print Assumptions C08_samples_outside_refuted.
Example C08_case :
  shrink_bounds (box_arr [(F 0, F 10); (NInf, F 4)]) (points_arr 2 [[F 2; F 1]; [F 6; F 3]; [F 12; F (-1)]]) (nz 2)
  = Ok [(F 0, F 10); (F (-3), F 4)].
Proof. vm_compute. reflexivity. Qed.

(** ** C09 *)
Definition non_null (w : num) : bool := negb (neqb w (nz 0)).
Definition companion_ok {A} (weights kept : list num) (a a' : option (list A)) : Prop :=
  match a, a' with
  | None, None => True
  | Some l, Some l' => length l = length weights /\ length l' = length kept
      /\ combine kept l' = filter (fun p => non_null (fst p)) (combine weights l)
  | _, _ => False
  end.
Theorem C09_zero_weights_removed :
  forall A (weights : list num) (arrays : list (option (list A))) kept arrays',
  remove_0_weight_samples weights arrays = Ok (kept, arrays') ->
  kept = filter non_null weights /\ Forall2 (companion_ok weights kept) arrays arrays'.
Proof.
  intros A w arrays kept arrays' H. unfold remove_0_weight_samples in H.
  destruct (mapM _ arrays) as [l|] eqn:E; [|discriminate]. simpl in H. injection H as <- <-.
  rewrite mask_map_filter. split; [reflexivity|].
  apply mapM_Forall2 in E. induction E as [|a a' arrays l Ha _ IH]; constructor; auto. clear IH.
  destruct a as [k|]; [|injection Ha as <-; exact I].
  destruct (Nat.eqb_spec (length k) (length w)) as [Hl|]; [|discriminate]. injection Ha as <-. cbn.
  split; auto. rewrite <- (mask_map_filter (fun w => negb (neqb w (nz 0))) w). split.
  - rewrite !mask_length; rewrite ?map_length; auto.
  - rewrite <- mask_combine by auto. rewrite <- mask_map_filter. f_equal.
    clear - Hl. revert k Hl; induction w as [|x w IH]; intros [|y k] Hl; simpl in *; try discriminate; auto.
    f_equal. apply IH. lia.
Qed.
Print Assumptions C09_zero_weights_removed.
(** It fails, with ValueError, exactly when some companion has another length. *)
Theorem C09_errors :
  forall A (weights : list num) (arrays : list (option (list A))),
  (exists l, In (Some l) arrays /\ length l <> length weights)
  <-> remove_0_weight_samples weights arrays = Err ValueError.
Proof.
  intros A w arrays. unfold remove_0_weight_samples. split.
  - intros (l & Hin & Hl). induction arrays as [|a arrays IH]; [destruct Hin|].
    cbn [mapM]. destruct Hin as [->|Hin].
    + apply Nat.eqb_neq in Hl. rewrite Hl. reflexivity.
    + specialize (IH Hin). destruct a as [k|].
      * destruct (length k =? length w); [|reflexivity]. cbn [bind].
        destruct (mapM _ arrays); cbn in *; congruence.
      * cbn [bind]. destruct (mapM _ arrays); cbn in *; congruence.
  - induction arrays as [|a arrays IH]; cbn [mapM bind]; [discriminate|].
    destruct a as [k|].
    + destruct (Nat.eqb_spec (length k) (length w)) as [E|E].
      * cbn [bind]. intros H. destruct IH as (l & ? & ?); [|exists l; split; auto; right; auto].
        destruct (mapM _ arrays); cbn in *; congruence.
      * intros _. exists k. split; [left|]; auto.
    + cbn [bind]. intros H. destruct IH as (l & ? & ?); [|exists l; split; auto; right; auto].
      destruct (mapM _ arrays); cbn in *; congruence.
Qed.
Print Assumptions C09_errors.
Example C09_case :
  remove_0_weight_samples [F 1; F 0; NaN; F 0; F 3] [Some [10; 11; 12; 13; 14]; None]
  = Ok ([F 1; NaN; F 3], [Some [10; 12; 14]; None]).
Proof. vm_compute. reflexivity. Qed.

(** ** C10 *)
(** "Nd" with optional N and optional power: N * d ** a, where N (default 1) and a are what Python
    reads from the text around the letter; ValueError if it cannot read them. *)
Definition read_or_1 (pyfloat : string -> option num) (n : string) : option num :=
  match n with EmptyString => Some (nz 1) | _ => pyfloat n end.
Definition power_of (pyfloat : string -> option num) (pow : num -> num -> num) (X : num) (a : string) : option num :=
  match a with EmptyString => Some X | _ => option_map (pow X) (pyfloat a) end.
(** The characters of numbers and of lists of numbers cannot be the letter. *)
Definition reserved : string := " .-+eE,;".
Definition allowed (letter : ascii) : Prop := has_char letter reserved = false.
Lemma allowed_test letter : allowed letter -> existsb (Ascii.eqb letter) not_allowed = false.
Proof.
  unfold allowed. cbn [reserved has_char existsb not_allowed]. auto.
Qed.
(** With a letter that could be part of a number every call is a ValueError. *)
Theorem C10_reserved :
  forall pyfloat pow V (dtype : num -> res V) letter value X, has_char letter reserved = true ->
  get_Xnumber pyfloat pow V dtype value letter X = Err ValueError /\
  get_Xnumber_parts pyfloat V dtype value letter = Err ValueError.
Proof.
  intros pyfloat pow V dtype letter value X H. unfold get_Xnumber, get_Xnumber_parts.
  assert (existsb (Ascii.eqb letter) not_allowed = true) as ->; [|auto].
  rewrite <- H. reflexivity.
Qed.
Print Assumptions C10_reserved.
Example C10_reserved_case : has_char "e" reserved = true /\ has_char "." reserved = true /\ allowed "d" /\ allowed "s".
Proof. repeat split. Qed.
Lemma split_X_letter letter N a : letter <> "1"%char -> has_char letter N = false -> has_char letter a = false ->
  split_X (PStr (N ++ String letter a)) letter =
          Ok ((match N, a with EmptyString, EmptyString => PStr "1" | EmptyString, _ => PNum (nz 1) | _, _ => PStr N end),
              true, match a with EmptyString => None | _ => Some a end).
Proof.
  intros Hl1 HN Ha. unfold split_X. destruct (String.eqb_spec (N ++ String letter a) (str_of_ascii letter)) as [E|E].
    - assert (N = EmptyString /\ a = EmptyString) as [-> ->].
      { destruct N as [|c N]; simpl in E; injection E as E; auto. destruct N; discriminate. }
      cbn [String.append]. assert (has_char letter (String "1" (str_of_ascii letter)) = true) as ->.
      { simpl. rewrite Ascii.eqb_refl. apply orb_true_r. }
      cbn [String.append str_of_ascii split_char].
      destruct (Ascii.eqb_spec letter "1") as [|E1]; [contradiction|].
      rewrite Ascii.eqb_refl. reflexivity.
    - rewrite has_char_app, split_char_app by auto. destruct N, a; auto. simpl in E. unfold str_of_ascii in E. congruence.
Qed.
Theorem C10_scaled :
  forall pyfloat pow V (dtype : num -> res V) letter N a X,
  allowed letter -> letter <> "1"%char -> has_char letter N = false -> has_char letter a = false ->
  pyfloat "1"%string = Some (nz 1) ->
  get_Xnumber pyfloat pow V dtype (PStr (N ++ String letter a)) letter X =
  match read_or_1 pyfloat N, power_of pyfloat pow X a with
  | Some n, Some x => as_value_error (dtype (nmul n x))
  | _, _ => Err ValueError
  end.
Proof.
  intros pyfloat pow V dtype letter N a X Hal Hl1 HN Ha H1. unfold get_Xnumber. rewrite allowed_test by auto.
  rewrite split_X_letter by auto.
  cbn [bind]. destruct N as [|c N].
  - destruct a as [|c a]; cbn [read_or_1 power_of to_float].
    + rewrite H1. reflexivity.
    + cbn [bind]. destruct (pyfloat (String c a)); reflexivity.
  - destruct a as [|c' a]; cbn [read_or_1 power_of to_float].
    + destruct (pyfloat (String c N)); reflexivity.
    + destruct (pyfloat (String c N)); [|reflexivity]. cbn [bind].
      destruct (pyfloat (String c' a)); reflexivity.
Qed.
Print Assumptions C10_scaled.
(** Asked for the parts instead of the product (as for thresholds like "20s"): the number, that the letter is there, the power if any. *)
Theorem C10_parts :
  forall pyfloat V (dtype : num -> res V) letter N a,
  allowed letter -> letter <> "1"%char -> has_char letter N = false -> has_char letter a = false ->
  pyfloat "1"%string = Some (nz 1) ->
  get_Xnumber_parts pyfloat V dtype (PStr (N ++ String letter a)) letter =
  match read_or_1 pyfloat N with
  | Some n => as_value_error (do v <- dtype n;
                match a with
                | EmptyString => Ok (v, true, None)
                | _ => match pyfloat a with Some e => Ok (v, true, Some e) | None => Err ValueError end
                end)
  | None => Err ValueError
  end.
Proof.
  intros pyfloat V dtype letter N a Hal Hl1 HN Ha H1. unfold get_Xnumber_parts. rewrite allowed_test by auto.
  rewrite split_X_letter by auto. cbn [bind]. destruct N as [|c N].
  - destruct a as [|c a]; cbn [read_or_1 to_float].
    + rewrite H1. cbn [bind]. destruct (dtype (nz 1)); reflexivity.
    + cbn [bind]. destruct (dtype (nz 1)); [|reflexivity]. cbn [bind to_float]. destruct (pyfloat (String c a)); reflexivity.
  - destruct a as [|c' a]; cbn [read_or_1 to_float]; (destruct (pyfloat (String c N)); [|reflexivity]); cbn [bind]; (destruct (dtype n); [|reflexivity]); cbn [bind to_float].
    + reflexivity.
    + destruct (pyfloat (String c' a)); reflexivity.
Qed.
Print Assumptions C10_parts.
(** Without the letter: the number alone. *)
Theorem C10_parts_plain :
  forall pyfloat V (dtype : num -> res V) letter, allowed letter ->
  (forall x, get_Xnumber_parts pyfloat V dtype (PNum x) letter = as_value_error (do v <- dtype x; Ok (v, false, None)))
  /\ (forall s, has_char letter s = false ->
      get_Xnumber_parts pyfloat V dtype (PStr s) letter =
      match pyfloat s with Some x => as_value_error (do v <- dtype x; Ok (v, false, None)) | None => Err ValueError end).
Proof.
  intros pyfloat V dtype letter Hal. unfold get_Xnumber_parts. rewrite allowed_test by auto. split.
  - intros x. cbn [split_X bind to_float]. destruct (dtype x); reflexivity.
  - intros s Hs. unfold split_X. destruct (String.eqb_spec s (str_of_ascii letter)) as [->|_].
    + simpl in Hs. rewrite Ascii.eqb_refl in Hs. discriminate.
    + rewrite Hs. cbn [bind to_float]. destruct (pyfloat s) as [n|]; [|reflexivity]. cbn [bind]. destruct (dtype n); reflexivity.
Qed.
Print Assumptions C10_parts_plain.
(** A number, or a string without the letter, is read as it is (times 1); anything else, in
    particular a string with the letter twice, is a ValueError. *)
Theorem C10_plain :
  forall pyfloat pow V (dtype : num -> res V) letter X,
  allowed letter ->
  (forall x, get_Xnumber pyfloat pow V dtype (PNum x) letter X = as_value_error (dtype (nmul x (nz 1))))
  /\ (forall s, has_char letter s = false ->
      get_Xnumber pyfloat pow V dtype (PStr s) letter X =
      match pyfloat s with Some x => as_value_error (dtype (nmul x (nz 1))) | None => Err ValueError end)
  /\ get_Xnumber pyfloat pow V dtype POther letter X = Err ValueError
  /\ (forall s, 1 < occurrences letter s -> get_Xnumber pyfloat pow V dtype (PStr s) letter X = Err ValueError).
Proof.
  intros pyfloat pow V dtype letter X Hal. unfold get_Xnumber. rewrite allowed_test by auto.
  split; [|split; [|split]].
  - intros x. reflexivity.
  - intros s Hs. unfold split_X. destruct (String.eqb_spec s (str_of_ascii letter)) as [->|_].
    + simpl in Hs. rewrite Ascii.eqb_refl in Hs. discriminate.
    + rewrite Hs. cbn [bind to_float]. destruct (pyfloat s); reflexivity.
  - reflexivity.
  - intros s Hs. unfold split_X. destruct (String.eqb_spec s (str_of_ascii letter)) as [->|_].
    + simpl in Hs. rewrite Ascii.eqb_refl in Hs. lia.
    + pose proof (split_char_count letter s) as K.
      destruct (has_char letter s) eqn:E.
      * destruct (split_char letter s) as [|x [|y [|z r]]]; simpl in K; try lia. reflexivity.
      * rewrite split_char_none in K by auto. simpl in K. lia.
Qed.
Print Assumptions C10_plain.
(** Multiplying by 1 changes nothing, so plain numbers are mapped to themselves. *)
Theorem C10_plain_value : forall x, nmul x (nz 1) = x.
Proof. intros [| |q|]; try reflexivity. simpl. f_equal.
  rewrite (Qc_is_canon (qc_of_Z 1) 1) by reflexivity. apply Qcmult_1_r.
Qed.
Print Assumptions C10_plain_value.
(** Every way of failing is a ValueError, unless the requested type raises something else than
    ValueError or TypeError (int raises OverflowError for infinite values). *)
Theorem C10_errors :
  forall pyfloat pow V (dtype : num -> res V) value letter X e,
  (forall x e', dtype x = Err e' -> e' = ValueError \/ e' = TypeError) ->
  get_Xnumber pyfloat pow V dtype value letter X = Err e -> e = ValueError.
Proof.
  intros pyfloat pow V dtype value letter X e Hd. unfold get_Xnumber.
  destruct (existsb _ _); [congruence|].
  destruct (split_X value letter) as [[[n h] p]|e0] eqn:E; cbn [bind].
  - assert (forall r : res V, (forall e', r = Err e' -> e' = ValueError \/ e' = TypeError) ->
            as_value_error r = Err e -> e = ValueError) as K.
    { intros [v|e'] H; simpl; [discriminate|]. destruct (H e' eq_refl) as [->| ->]; congruence. }
    apply K. intros e' H'. destruct (to_float pyfloat n) eqn:En; cbn [bind] in H'.
    + destruct h; cbn [bind] in H'; [|eapply Hd; eauto]. destruct p as [s|]; [|eapply Hd; eauto].
      simpl in H'. destruct (pyfloat s); cbn in H'; [eapply Hd; eauto|left; congruence].
    + unfold to_float in En. destruct n as [s| |]; try congruence; [destruct (pyfloat s)|]; 
        injection H' as <-; injection En as <- || discriminate En; auto.
  - unfold split_X in E. intros H. injection H as <-.
    destruct value as [s| |]; try discriminate.
    destruct (String.eqb s (str_of_ascii letter)).
    + destruct (has_char _ _); [|discriminate]. destruct (split_char _ _) as [|? [|? [|]]]; try discriminate; congruence.
    + destruct (has_char _ _); [|discriminate]. destruct (split_char _ _) as [|? [|? [|]]]; try discriminate; congruence.
Qed.
Print Assumptions C10_errors.
(** A concrete [float] for natural numbers in decimal, and int as the type. *)
Definition read_digits (s : string) : option num :=
  match s with
  | "1"%string => Some (nz 1) | "5"%string => Some (nz 5) | "2"%string => Some (nz 2) | "50"%string => Some (nz 50)
  | _ => None end.
Definition square (x e : num) : num := if neqb e (nz 2) then nmul x x else x.
Example C10_case :
  get_Xnumber read_digits square num Ok (PStr "5d") "d" (nz 3) = Ok (nz 15)
  /\ get_Xnumber read_digits square num Ok (PStr "d") "d" (nz 3) = Ok (nz 3)
  /\ get_Xnumber read_digits square num Ok (PStr "50") "d" (nz 3) = Ok (nz 50)
  /\ get_Xnumber read_digits square num Ok (PStr "5d2") "d" (nz 3) = Ok (nz 45)
  /\ get_Xnumber read_digits square num Ok (PStr "2dd") "d" (nz 3) = Err ValueError
  /\ get_Xnumber read_digits square num Ok (PStr "five") "d" (nz 3) = Err ValueError
  /\ get_Xnumber_parts read_digits num Ok (PStr "5s") "s" = Ok (nz 5, true, None)
  /\ get_Xnumber_parts read_digits num Ok (PStr "5s2") "s" = Ok (nz 5, true, Some (nz 2))
  /\ get_Xnumber_parts read_digits num Ok (PStr "50") "s" = Ok (nz 50, false, None)
  /\ allowed "d".
Proof. repeat split; vm_compute; reflexivity. Qed.

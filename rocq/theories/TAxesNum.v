(** C148, continued: bounds, trust regions and the filter of candidates do not depend on the order of the parameters. With the numbers of the
    machine model (infinities and NaN included) and any rounding function. *)
From Coq Require Import Lia Permutation.
From Verif Require Import MTools MTrust.
Set Default Goal Selector "!". Set Bullet Behavior "Strict Subproofs".

(** A point with its [d] parameters in the order [p]; rows of bounds in this order. *)
Definition ordered (p : list nat) (x : list num) : list num := map (fun i => nth i x NaN) p.
Definition ordered_rows {A} (def : A) (p : list nat) (b : list A) : list A := map (fun i => nth i b def) p.

Lemma forallb_perm {A} (f : A -> bool) l l' : Permutation l l' -> forallb f l = forallb f l'.
Proof. induction 1; cbn [forallb]; [reflexivity|f_equal; assumption|rewrite !Bool.andb_assoc, (Bool.andb_comm (f y)); reflexivity|congruence]. Qed.
Lemma existsb_perm {A} (f : A -> bool) l l' : Permutation l l' -> existsb f l = existsb f l'.
Proof. induction 1; cbn [existsb]; [reflexivity|f_equal; assumption|rewrite !Bool.orb_assoc, (Bool.orb_comm (f y)); reflexivity|congruence]. Qed.
Lemma combine_nths {A B} (a : A) (b : B) x : forall y, length x = length y -> combine x y = map (fun i => (nth i x a, nth i y b)) (seq 0 (length x)).
Proof.
  induction x as [|u x IH]; intros [|v y] H; try discriminate H; [reflexivity|]. cbn [combine length seq map nth]. f_equal. rewrite <- seq_shift, map_map. apply IH. cbn in H. lia.
Qed.
Lemma combine_maps {I A B} (f : I -> A) (h : I -> B) l : combine (map f l) (map h l) = map (fun i => (f i, h i)) l.
Proof. induction l as [|i l IH]; [reflexivity|]. cbn. f_equal. exact IH. Qed.
Lemma mask_map {A B} (f : A -> B) m : forall l, mask m (map f l) = map f (mask m l).
Proof. induction m as [|b m IH]; intros [|x l]; try reflexivity; try (destruct b; reflexivity). cbn [map mask]. destruct b; rewrite IH; reflexivity. Qed.

Lemma forallb_id_map {A} (f : A -> bool) (l : list A) : forallb (fun b : bool => b) (map f l) = forallb f l.
Proof. induction l as [|a l IH]; [reflexivity|]. cbn [map forallb]. rewrite IH. reflexivity. Qed.

Section Order.
Variables (d : nat) (p : list nat).
Hypothesis Hp : Permutation p (seq 0 d).
Lemma plen : length p = d.
Proof. rewrite (Permutation_length Hp). apply seq_length. Qed.
Lemma pin i : In i p -> i < d.
Proof. intros H. apply (Permutation_in _ Hp), in_seq in H. lia. Qed.
Lemma combine_ordered {A} (a : A) (x : list num) (y : list A) (f : num * A -> bool) : length x = d -> length y = d ->
  forallb f (combine (ordered p x) (ordered_rows a p y)) = forallb f (combine x y).
Proof.
  intros Hx Hy. unfold ordered, ordered_rows. rewrite combine_maps, (combine_nths NaN a x y) by lia. rewrite Hx. apply forallb_perm, Permutation_map, Hp.
Qed.
Lemma nth_ordered_rows {A} (a : A) b j : j < d -> nth j (ordered_rows a p b) a = nth (nth j p 0) b a.
Proof.
  intros H. unfold ordered_rows. rewrite (nth_indep _ a (nth 0 b a)) by (rewrite map_length, plen; exact H). rewrite (map_nth (fun i => nth i b a)). reflexivity.
Qed.
Lemma rowb_ordered x y : length x = d -> length y = d -> rowb (ordered p x) (ordered p y) = rowb x y.
Proof.
  intros Hx Hy. unfold rowb. unfold ordered at 1 2. rewrite !map_length, Hx, Hy, !Nat.eqb_refl. cbn [andb]. apply (combine_ordered NaN x y (fun q => neqb (fst q) (snd q))); assumption.
Qed.
End Order.

(** ** Bounds *)
Theorem C148_in_bounds : forall d p X B check, Permutation p (seq 0 d) -> Forall (fun x => length x = d) X -> length B = d -> Forall (fun b => length b = 2) B ->
  is_in_bounds (Mat (mkMat d (map (ordered p) X))) (Mat (mkMat 2 (ordered_rows [] p B))) check = is_in_bounds (Mat (mkMat d X)) (Mat (mkMat 2 B)) check.
Proof.
  intros d p X B check Hp HX HB H2. unfold is_in_bounds, check_and_return_bounds. cbn [atleast_2d nc rows]. rewrite Nat.eqb_refl. cbn [bind rows].
  unfold ordered_rows at 1. rewrite map_length, (plen d p Hp), HB, Nat.eqb_refl. 
  assert (E : forall check : bool, (if check then Ok (mkMat 2 B) else Ok (mkMat 2 B)) = Ok (mkMat 2 B)) by (intros []; reflexivity).
  assert (E' : forall check : bool, (if check then Ok (mkMat 2 (ordered_rows [] p B)) else Ok (mkMat 2 (ordered_rows [] p B))) = Ok (mkMat 2 (ordered_rows [] p B))) by (intros []; reflexivity).
  rewrite E, E'. cbn [bind]. unfold col. cbn [nc rows Nat.ltb Nat.leb bind].
  assert (C : forall j, map (fun r => nth j r NaN) (ordered_rows [] p B) = ordered p (map (fun r => nth j r NaN) B)).
  { intros j. unfold ordered_rows, ordered. rewrite map_map. apply map_ext_in. intros i Hi. apply (pin d p Hp) in Hi.
    rewrite (nth_indep (map _ B) NaN (nth j [] NaN)) by (rewrite map_length; lia). rewrite (map_nth (fun r => nth j r NaN)). reflexivity. }
  rewrite !C. set (lo := map (fun r => nth 0 r NaN) B). set (hi := map (fun r => nth 1 r NaN) B).
  assert (P : combine (ordered p lo) (ordered p hi) = ordered_rows (NaN, NaN) p (combine lo hi)).
  { unfold ordered, ordered_rows. rewrite combine_maps. apply map_ext_in. intros i Hi. rewrite combine_nth; [reflexivity|]. unfold lo, hi. rewrite !map_length. reflexivity. }
  rewrite P. clear E E' C P. induction HX as [|x X Hx HX IH]; [reflexivity|]. cbn [map mapM]. rewrite IH. clear IH HX.
  assert (L : length (combine lo hi) = d) by (unfold lo, hi; rewrite combine_length, !map_length; lia).
  unfold bcast2. unfold ordered at 1. unfold ordered_rows at 1. rewrite !map_length, (plen d p Hp), Hx, L, Nat.eqb_refl. cbn [bind].
  rewrite !forallb_id_map, (combine_ordered d p Hp (NaN, NaN) x (combine lo hi)) by assumption. reflexivity.
Qed.
Theorem C148_shrink : forall d p X B factor, Permutation p (seq 0 d) -> Forall (fun x => length x = d) X -> length B = d -> Forall (fun b => length b = 2) B ->
  shrink_bounds (Mat (mkMat 2 (ordered_rows [] p B))) (Mat (mkMat d (map (ordered p) X))) factor =
  match shrink_bounds (Mat (mkMat 2 B)) (Mat (mkMat d X)) factor with Ok b => Ok (ordered_rows (NaN, NaN) p b) | Err e => Err e end.
Proof.
  intros d p X B factor Hp HX HB H2. unfold shrink_bounds, check_and_return_bounds. cbn [atleast_2d nc rows]. rewrite Nat.eqb_refl. cbn [bind rows].
  unfold ordered_rows at 1. rewrite map_length, (plen d p Hp), HB, Nat.eqb_refl. cbn [negb].
  destruct X as [|x X]; [reflexivity|]. cbn [map]. f_equal. change (ordered p x :: map (ordered p) X) with (map (ordered p) (x :: X)).
  set (f := fun j => match column (mkMat d (x :: X)) j with [] => (NaN, NaN) | y :: ys => shrink_dim factor (nth j (column (mkMat 2 B) 0) NaN, nth j (column (mkMat 2 B) 1) NaN) y ys end).
  assert (P : p = map (fun i => nth i p 0) (seq 0 d)).
  { apply nth_ext with (d := 0) (d' := 0); [rewrite map_length, seq_length; exact (plen d p Hp)|]. intros n Hn. rewrite (plen d p Hp) in Hn.
    rewrite (nth_indep (map _ _) 0 (nth 0 p 0)) by (rewrite map_length, seq_length; exact Hn). rewrite (map_nth (fun i => nth i p 0)), seq_nth by exact Hn. reflexivity. }
  unfold ordered_rows at 3. transitivity (map f p).
  - transitivity (map f (map (fun i => nth i p 0) (seq 0 d))); [|f_equal; symmetry; exact P]. rewrite map_map. apply map_ext_in. intros j Hj. apply in_seq in Hj. assert (Hj' : j < d) by lia. unfold f.
    assert (C : forall k, nth j (column (mkMat 2 (ordered_rows [] p B)) k) NaN = nth (nth j p 0) (column (mkMat 2 B) k) NaN).
    { intros k. unfold column. cbn [rows]. assert (Hq : nth j p 0 < d) by (apply (pin d p Hp), nth_In; rewrite (plen d p Hp); exact Hj').
      rewrite (nth_indep (map _ B) NaN (nth k [] NaN)) by (rewrite map_length; lia). rewrite (map_nth (fun r => nth k r NaN)).
      rewrite (nth_indep (map _ (ordered_rows [] p B)) NaN (nth k [] NaN)) by (unfold ordered_rows; rewrite !map_length, (plen d p Hp); exact Hj').
      rewrite (map_nth (fun r => nth k r NaN)), (nth_ordered_rows d p Hp) by exact Hj'. reflexivity. }
    assert (C2 : column (mkMat d (map (ordered p) (x :: X))) j = column (mkMat d (x :: X)) (nth j p 0)).
    { unfold column. cbn [rows]. rewrite map_map. apply map_ext. intros y. apply (nth_ordered_rows d p Hp NaN y j Hj'). }
    rewrite C2, !C. reflexivity.
  - apply map_ext_in. intros i Hi. apply (pin d p Hp) in Hi. rewrite (nth_indep _ (NaN, NaN) (f 0)) by (rewrite map_length, seq_length; exact Hi).
    rewrite (map_nth f), seq_nth by exact Hi. reflexivity.
Qed.
Theorem C148_trust : forall delta fuel d p factor nstd X y B, Permutation p (seq 0 d) -> Forall (fun x => length x = d) X -> length B = d -> Forall (fun b => length b = 2) B ->
  update_trust_region delta fuel d factor nstd (Mat (mkMat 2 (ordered_rows [] p B))) (map (ordered p) X) y =
  match update_trust_region delta fuel d factor nstd (Mat (mkMat 2 B)) X y with Ok b => Ok (option_map (ordered_rows (NaN, NaN) p) b) | Err e => Err e end.
Proof.
  intros delta fuel d p factor nstd X y B Hp HX HB H2. unfold update_trust_region. destruct factor as [f|]; [|reflexivity].
  assert (W : forall fuel need cur n, widen delta fuel need (map (ordered p) X) y (map (ordered p) cur) n = match widen delta fuel need X y cur n with Ok l => Ok (map (ordered p) l) | Err e => Err e end).
  { clear fuel. induction fuel as [|fuel IH]; intros need cur n; cbn [widen]; rewrite map_length; destruct (length cur <? need); try reflexivity.
    rewrite <- IH. f_equal. unfold select. apply mask_map. }
  assert (U : used delta fuel d nstd (map (ordered p) X) y = match used delta fuel d nstd X y with Ok l => Ok (map (ordered p) l) | Err e => Err e end).
  { unfold used. destruct nstd as [n|]; [|reflexivity]. apply (W fuel _ []). }
  rewrite U. destruct (used delta fuel d nstd X y) as [l|e] eqn:EU; [|reflexivity]. cbn [bind].
  assert (HL : Forall (fun x => length x = d) l).
  { assert (M : forall m (X : list (list num)), Forall (fun x => length x = d) X -> Forall (fun x => length x = d) (mask m X)).
    { induction m as [|b m IH]; intros [|x X'] H; try apply List.Forall_nil. cbn [mask]. apply List.Forall_cons_iff in H as [Hx H]. destruct b; [constructor|]; auto. }
    assert (W2 : forall fuel need cur n l, Forall (fun x => length x = d) cur -> widen delta fuel need X y cur n = Ok l -> Forall (fun x => length x = d) l).
    { clear - HX M. induction fuel as [|fuel IH]; intros need cur n l Hc; cbn [widen]; destruct (length cur <? need); try discriminate.
      - intros E. injection E as <-. exact Hc.
      - apply IH. apply M, HX.
      - intros E. injection E as <-. exact Hc. }
    unfold used in EU. destruct nstd as [n|]; [|injection EU as <-; exact HX]. exact (W2 _ _ [] _ _ (Forall_nil _) EU). }
  rewrite (C148_shrink d p l B f Hp HL HB H2). destruct (shrink_bounds _ _ f); reflexivity.
Qed.

(** ** The filter of candidates *)
Section Candidates.
Variables (d : nat) (p : list nat) (rnd : num -> num).
Hypothesis Hp : Permutation p (seq 0 d).
Lemma round_ordered x : length x = d -> map rnd (ordered p x) = ordered p (map rnd x).
Proof.
  intros H. unfold ordered. rewrite map_map. apply map_ext_in. intros i Hi. apply (pin d p Hp) in Hi. rewrite (nth_indep (map rnd x) NaN (rnd NaN)) by (rewrite map_length; lia).
  rewrite map_nth. reflexivity.
Qed.
Lemma rounds_ordered X : Forall (fun x => length x = d) X -> map (map rnd) (map (ordered p) X) = map (ordered p) (map (map rnd) X) /\ Forall (fun x => length x = d) (map (map rnd) X).
Proof.
  intros H. split.
  - rewrite !map_map. apply map_ext_in. intros x Hx. apply round_ordered. exact (proj1 (List.Forall_forall _ _) H x Hx).
  - apply List.Forall_map. eapply List.Forall_impl; [|exact H]. intros x Hx. cbv beta. rewrite map_length. exact Hx.
Qed.
Lemma filter_map_eq {A B} (f : A -> B) (t : B -> bool) l : filter t (map f l) = map f (filter (fun x => t (f x)) l).
Proof. induction l as [|a l IH]; [reflexivity|]. cbn [map filter]. destruct (t (f a)); rewrite IH; reflexivity. Qed.
Lemma count_ordered r l : length r = d -> Forall (fun x => length x = d) l -> count (ordered p r) (map (ordered p) l) = count r l.
Proof.
  intros Hr Hl. unfold count. rewrite filter_map_eq, map_length. f_equal. apply filter_ext_in. intros x Hx. apply (rowb_ordered d p Hp r x Hr). exact (proj1 (List.Forall_forall _ _) Hl x Hx).
Qed.
Lemma first_ordered r l : length r = d -> Forall (fun x => length x = d) l -> first_index (ordered p r) (map (ordered p) l) = first_index r l.
Proof.
  intros Hr Hl. induction Hl as [|x l Hx Hl IH]; [reflexivity|]. cbn [map first_index]. rewrite (rowb_ordered d p Hp r x Hr Hx), IH. reflexivity.
Qed.
Lemma ordered_perm x : length x = d -> Permutation (ordered p x) x.
Proof.
  intros H. unfold ordered. rewrite (Permutation_map (fun i => nth i x NaN) Hp). assert (E : map (fun i => nth i x NaN) (seq 0 d) = x); [|rewrite E; reflexivity].
  rewrite <- H. clear. induction x as [|a x IH]; [reflexivity|]. cbn [length seq map nth]. f_equal. rewrite <- seq_shift, map_map. exact IH.
Qed.
Lemma concat_ordered L : Forall (fun x => length x = d) L -> Permutation (concat (map (ordered p) L)) (concat L).
Proof. intros H. induction H as [|x L Hx H IH]; [reflexivity|]. cbn [map concat]. apply Permutation_app; [apply ordered_perm, Hx|exact IH]. Qed.
Lemma forall_filter (t : list num -> bool) L : Forall (fun x => length x = d) L -> Forall (fun x => length x = d) (filter t L).
Proof. intros H. apply List.Forall_forall. intros x Hx. apply filter_In in Hx as [Hx _]. exact (proj1 (List.Forall_forall _ _) H x Hx). Qed.
Lemma forallb_ext_in {A} (f h : A -> bool) l : (forall x, In x l -> f x = h x) -> forallb f l = forallb h l.
Proof. intros H. induction l as [|a l IH]; [reflexivity|]. cbn [forallb]. rewrite H, IH; [reflexivity| |left; reflexivity]. intros x Hx. apply H. right. exact Hx. Qed.

(** The same candidates are already known or repeated; with a preprocessor, if it too treats the parameters in the new order. *)
Theorem C148_candidates : forall transform transform' X new_X, Forall (fun x => length x = d) X -> Forall (fun x => length x = d) new_X ->
  match transform, transform' with
  | None, None => True
  | Some f, Some f' => forall x, length x = d -> length (f x) = d /\ f' (ordered p x) = ordered p (f x)
  | _, _ => False
  end ->
  check_candidates rnd transform' (map (ordered p) X) (map (ordered p) new_X) = check_candidates rnd transform X new_X.
Proof.
  intros tr tr' X new HX HN HT. unfold check_candidates.
  assert (T : exists N, match tr with Some f => map f new | None => new end = N /\ match tr' with Some f => map f (map (ordered p) new) | None => map (ordered p) new end = map (ordered p) N
    /\ Forall (fun x => length x = d) N).
  { destruct tr as [f|], tr' as [f'|]; try contradiction.
    - exists (map f new). split; [reflexivity|]. split.
      + rewrite !map_map. apply map_ext_in. intros x Hx. apply HT. exact (proj1 (List.Forall_forall _ _) HN x Hx).
      + apply List.Forall_map. eapply List.Forall_impl; [|exact HN]. intros x Hx. apply HT, Hx.
    - exists new. auto. }
  destruct T as (N & -> & -> & HN'). destruct (rounds_ordered N HN') as [-> HR]. destruct (rounds_ordered X HX) as [-> HRX].
  set (R := map (map rnd) N) in *. set (T := map (map rnd) X) in *. clearbody R T. cbv zeta. f_equal.
  - rewrite map_map. apply map_ext_in. intros r Hr. pose proof (proj1 (List.Forall_forall _ _) HR r Hr) as Lr. cbv beta in Lr. clear - Lr HRX Hp.
    induction HRX as [|t T Ht HT IH]; [reflexivity|]. cbn [map existsb]. rewrite (rowb_ordered d p Hp t r Ht Lr), IH. reflexivity.
  - rewrite map_length. apply map_ext_in. intros i Hi. apply in_seq in Hi. assert (Hi' : i < length R) by lia.
    assert (E : nth i (map (ordered p) R) [] = ordered p (nth i R [])) by (rewrite (nth_indep _ [] (ordered p [])) by (rewrite map_length; exact Hi'); apply map_nth).
    rewrite E. assert (Li : length (nth i R []) = d) by (apply (proj1 (List.Forall_forall _ _) HR), nth_In, Hi').
    rewrite (count_ordered _ _ Li HR), (first_ordered _ _ Li HR). f_equal. rewrite (forallb_perm _ _ _ (ordered_perm (nth i R []) Li)). apply forallb_ext_in. intros v _. apply existsb_perm.
    rewrite filter_map_eq. rewrite (filter_ext_in (fun x => 1 <? count (ordered p x) (map (ordered p) R)) (fun r => 1 <? count r R) R).
    + apply concat_ordered, forall_filter, HR.
    + intros x Hx. rewrite count_ordered; [reflexivity| |exact HR]. exact (proj1 (List.Forall_forall _ _) HR x Hx).
Qed.
Theorem C148_accepted : forall X new_X, Forall (fun x => length x = d) X -> Forall (fun x => length x = d) new_X ->
  accepted_candidates rnd None (map (ordered p) X) (map (ordered p) new_X) = map (ordered p) (accepted_candidates rnd None X new_X).
Proof.
  intros X new HX HN. unfold accepted_candidates. rewrite (C148_candidates None None X new HX HN I). destruct (check_candidates rnd None X new) as [t u]. apply mask_map.
Qed.
End Candidates.

(** Exchanging two parameters: a box, a trust region around two points, and a repeated candidate. *)
Example C148_bounds_case :
  ordered [1; 0] [nz 3; nz 30] = [nz 30; nz 3]
  /\ is_in_bounds (Mat (mkMat 2 [[nz 3; nz 30]; [nz 30; nz 3]])) (Mat (mkMat 2 [[nz 0; nz 10]; [nz 0; nz 100]])) true = Ok [true; false]
  /\ is_in_bounds (Mat (mkMat 2 [[nz 30; nz 3]; [nz 3; nz 30]])) (Mat (mkMat 2 [[nz 0; nz 100]; [nz 0; nz 10]])) true = Ok [true; false]
  /\ shrink_bounds (Mat (mkMat 2 [[nz 0; nz 10]; [nz 0; nz 100]])) (Mat (mkMat 2 [[nz 3; nz 30]; [nz 5; nz 50]])) (nz 2) = Ok [(nz 2, nz 6); (nz 20, nz 60)]
  /\ shrink_bounds (Mat (mkMat 2 [[nz 0; nz 100]; [nz 0; nz 10]])) (Mat (mkMat 2 [[nz 30; nz 3]; [nz 50; nz 5]])) (nz 2) = Ok [(nz 20, nz 60); (nz 2, nz 6)]
  /\ check_candidates (fun x => x) None [[nz 1; nz 2]] [[nz 1; nz 2]; [nz 2; nz 1]; [nz 2; nz 1]] = ([true; false; false], [true; false; true])
  /\ check_candidates (fun x => x) None [[nz 2; nz 1]] [[nz 2; nz 1]; [nz 1; nz 2]; [nz 1; nz 2]] = ([true; false; false], [true; false; true]).
Proof. repeat split; vm_compute; reflexivity. Qed.
Print Assumptions C148_in_bounds.
Print Assumptions C148_shrink.
Print Assumptions C148_trust.
Print Assumptions C148_candidates.
Print Assumptions C148_accepted.

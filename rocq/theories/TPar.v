(** Property C100: processes never wait for each other for ever. Batch acquisition, parallel fits, initial training and
    the main loop. *)
From Coq Require Import String.
From Verif Require Import TGpr SRun PMpi TMpi PRun PInit TInit TRun.
From Verif Require MBatch TBatch MProgress TProgress TFit.
From Verif Require Import Base Num MTools MMpi MRun MColl MPar PColl TColl.
Set Default Goal Selector "!".

Lemma mapM_seq {A} (f : nat -> res A) d n l : mapM f (seq 0 n) = Ok l ->
  l = map (fun r => or_else d (f r)) (seq 0 n) /\ forall r, r < n -> f r = Ok (or_else d (f r)).
Proof.
  assert (forall k l, mapM f k = Ok l -> l = map (fun r => or_else d (f r)) k /\ forall r, In r k -> f r = Ok (or_else d (f r))) as K.
  { induction k as [|x k IH]; intros l' H; cbn [mapM map] in *; [injection H as <-; split; [reflexivity|intros r []]|].
    destruct (f x) as [b|] eqn:E; [|discriminate]. cbn [bind] in H. destruct (mapM f k) as [l0|]; [|discriminate].
    injection H as <-. destruct (IH l0 eq_refl) as [-> H]. split; [reflexivity|]. intros r [->|Hr]; [rewrite E; reflexivity|auto]. }
  intros H. apply K in H as [-> H]. split; [reflexivity|]. intros r Hr. apply H. apply seq_in. auto.
Qed.

Section Batch.
Context {G pt box : Type}.
Variable e : MBatch.env G pt box.
Variable c : MBatch.config box.
Variable w : MBatch.inputs G pt box.
Variable size : nat.
Hypothesis Hsize : size <> 0.
Notation obj := (obj pt G).
Notation prog := (prog obj).

Lemma combine_app {A B} (a : list A) (b : list B) a' b' : length a = length b ->
  combine (a ++ a') (b ++ b') = combine a b ++ combine a' b'.
Proof. revert b. induction a as [|x a IH]; intros [|y b] H; try discriminate; [reflexivity|]. cbn. rewrite IH; auto. Qed.
Lemma combine_concat {A B} (ls : list (list (A * B))) : combine (concat (map (map fst) ls)) (concat (map (map snd) ls)) = concat ls.
Proof.
  induction ls as [|l ls IH]; [reflexivity|]. cbn [map concat]. rewrite combine_app, IH by (rewrite !map_length; reflexivity).
  f_equal. clear. induction l as [|[a b] l IH]; [reflexivity|]. cbn. rewrite IH. reflexivity.
Qed.
Lemma multi_gather_all (X : nat -> list pt) (v : nat -> list num) :
  spmd (M := obj) size (fun r => multi_gather_array size r (X r) (v r))
  = Finished (map (fun r => Ok (if r =? 0 then Some (concat (map X (seq 0 size)), concat (map v (seq 0 size))) else None)) (seq 0 size)).
Proof.
  unfold multi_gather_array. rewrite spmd_gather by auto. apply spmd_ret. intros r _. destruct (r =? 0); [|reflexivity].
  assert (mapM as_pair (map (fun r0 => OPair (OPts (X r0)) (OVec (v r0))) (seq 0 size))
          = Ok (map (fun r0 => (OPts (X r0) : obj, OVec (v r0) : obj)) (seq 0 size))) as ->.
  { generalize (seq 0 size) as l. induction l as [|x l IH]; cbn [map mapM]; auto. cbn [as_pair bind]. rewrite IH. reflexivity. }
  rewrite bind_local. rewrite !map_map. cbn [fst snd].
  rewrite (mapM_map_ok as_pts OPts X) by reflexivity. rewrite bind_local.
  rewrite (mapM_map_ok as_vec OVec v) by reflexivity. reflexivity.
Qed.
Lemma batch_points_all counts b : split_number (MBatch.c_restarts c) size = Ok counts ->
  forall n ip (ob : nat -> option G) g accs ob' l g',
  MBatch.points e c w size n ip ob g b = (ob', Ok (l, g')) ->
  spmd (M := obj) size (fun r => batch_points e c w size r n ip (ob r) g b counts (accs r))
  = Finished (map (fun r => Ok (if r =? 0 then accs r ++ l else accs r)) (seq 0 size)).
Proof.
  intros Ec. induction n as [|n IH]; intros ip ob g accs ob' l g' H; cbn [MBatch.points batch_points] in *.
  - injection H as <- <- <-. apply spmd_ret. intros r _. rewrite app_nil_r. destruct (r =? 0); reflexivity.
  - unfold MBatch.outcomes in H. rewrite Ec in H. cbn [bind] in H.
    destruct (mapM (MBatch.rank_outcomes e c w ob g ip b counts) (seq 0 size)) as [ls|x] eqn:Em; [|discriminate].
    cbn [bind] in H. apply (mapM_seq _ []) in Em as [Els Em].
    set (out := fun r => or_else [] (MBatch.rank_outcomes e c w ob g ip b counts r)) in *.
    etransitivity.
    { apply spmd_ext. intros r Hr.
      assert (MBatch.rank_outcomes e c w (fun _ => ob r) g ip b counts r = Ok (out r)) as ->
        by exact (Em r Hr).
      rewrite bind_local. reflexivity. }
    rewrite (spmd_bind size _ _ _ (multi_gather_all (fun r => map fst (out r)) (fun r => map snd (out r)))).
    assert (combine (concat (map (fun r => map fst (out r)) (seq 0 size))) (concat (map (fun r => map snd (out r)) (seq 0 size))) = concat ls) as Ecomb.
    { rewrite <- (combine_concat ls). rewrite Els. rewrite !map_map. reflexivity. }
    destruct (MBatch.choose (concat ls)) as [[x v]|y] eqn:Ech; [|discriminate].
    destruct (if n =? 0 then Ok g else MBatch.e_append e g (MBatch.e_bwd e x) (MBatch.e_predict e g (MBatch.e_bwd e x)))
      as [g2|y] eqn:Eap; [|discriminate].
    destruct (MBatch.points e c w size n (S ip) (fun _ => None) g2 b) as [ob2 [[l2 g3]|y]] eqn:Ep; [|discriminate].
    cbn [fst snd bind] in H. injection H as <- <- <-.
    set (entry := (MBatch.e_bwd e x, MBatch.e_predict e g (MBatch.e_bwd e x), nneg v)) in *.
    rewrite (spmd_bind size _ _ (fun r => if r =? 0 then (accs r ++ [entry], OGpr g2) else (accs r, ONone))).
    2:{ apply spmd_ret. intros r _. destruct (r =? 0); [|reflexivity]. rewrite Ecomb. unfold pick. rewrite Ech.
        cbn [bind fst snd]. rewrite Eap. reflexivity. }
    rewrite spmd_bcast by lia. cbn [Nat.eqb snd as_gpr].
    etransitivity; [apply spmd_ext; intros r _; rewrite bind_local; reflexivity|].
    rewrite (IH (S ip) (fun _ => None) g2 (fun r => fst (if r =? 0 then (accs r ++ [entry], OGpr g2) else (accs r, ONone (P := pt)))) _ _ _ Ep).
    f_equal. apply map_ext. intros r. destruct (r =? 0); cbn [fst]; [|reflexivity]. rewrite <- app_assoc. reflexivity.
Qed.
Lemma unpack_pack (l : list (pt * num * num)) : unpack (pack (G := G) l) = Ok l.
Proof.
  unfold unpack, pack. cbn [as_pair bind fst snd as_pts as_vec]. f_equal.
  induction l as [|[[x y] a] l IH]; [reflexivity|]. cbn [map zip3 fst snd]. rewrite IH. reflexivity.
Qed.
(** C100, batch acquisition: whenever the lockstep model (the subject of C36) returns points, all processes end with these
    points, whatever regressors the processes other than the main one are called with. *)
Theorem C100_batch :
  forall (ob : nat -> option G) (g : nat -> G) n_points bounds ob' l g',
  MBatch.multi_add e c w size ob (g 0) n_points bounds = (ob', Ok (l, g')) ->
  spmd (M := obj) size (fun r => batch_add e c w size r (ob r) (g r) n_points bounds)
  = Finished (map (fun _ => Ok l) (seq 0 size)).
Proof.
  intros ob g n_points bounds ob' l g' H. unfold MBatch.multi_add in H. unfold batch_add.
  destruct (n_points <=? 0)%Z; [discriminate|]. rewrite spmd_bcast by lia. cbn [Nat.eqb as_gpr].
  destruct (C01_split_number (MBatch.c_restarts c) size Hsize) as (counts & Ec & _). rewrite Ec.
  set (b := match bounds with Some b => b | None => MBatch.c_bounds c end) in *.
  etransitivity; [apply spmd_ext; intros r _; rewrite !bind_local; reflexivity|].
  rewrite (spmd_bind size _ _ _ (batch_points_all counts b Ec _ _ ob _ (fun _ => []) _ _ _ H)).
  rewrite spmd_bcast by lia. cbn [Nat.eqb app]. rewrite unpack_pack. apply spmd_ret. reflexivity.
Qed.
(** C100 fails if the optimisation raises in one process and not in another one. *)
Theorem C100_batch_raises_refuted :
  forall (ob : nat -> option G) (g : nat -> G) n_points b counts p q x l, 1 < size -> p < size -> q < size ->
  (0 < n_points)%Z -> split_number (MBatch.c_restarts c) size = Ok counts ->
  MBatch.rank_outcomes e c w ob (MBatch.e_copy e (g 0)) 0 b counts q = Err x ->
  MBatch.rank_outcomes e c w ob (MBatch.e_copy e (g 0)) 0 b counts p = Ok l ->
  spmd (M := obj) size (fun r => batch_add e c w size r (ob r) (g r) n_points (Some b)) = Stuck.
Proof.
  intros ob g n b counts p q x l H1 Hp Hq Hn Ec Eq Ep. unfold batch_add.
  destruct (Z.leb_spec n 0); [lia|]. rewrite spmd_bcast by lia. cbn [Nat.eqb as_gpr]. rewrite Ec.
  etransitivity; [apply spmd_ext; intros r _; rewrite !bind_local; reflexivity|].
  destruct (Z.to_nat n) as [|k] eqn:Ek; [lia|]. cbn [batch_points].
  eapply (spmd_stuck size _ p q Gather _ _ Hp Hq).
  - assert (MBatch.rank_outcomes e c w (fun _ => ob p) (MBatch.e_copy e (g 0)) 0 b counts p = Ok l) as -> by exact Ep.
    unfold multi_gather_array, gather, multiple. rewrite (proj2 (Nat.ltb_lt _ _) H1). reflexivity.
  - intros m f. assert (MBatch.rank_outcomes e c w (fun _ => ob q) (MBatch.e_copy e (g 0)) 0 b counts q = Err x) as -> by exact Eq.
    discriminate.
Qed.
End Batch.

Section Par.
Context {pt pt_ PX PY model theta box : Type}.
Variable e : env pt pt_ PX PY model theta box.
Variable c : config theta.
Variable o : options.
Variables (size : nat) (verbose : bool) (loaded : bool).
Hypothesis Hsize : size <> 0.
Notation gpr := (gpr pt pt_ PX PY model theta box).
Notation rstate := (rstate pt pt_ PX PY model theta box).
Notation obj := (obj pt gpr).
Notation prog := (prog obj).
Implicit Types g : gpr.

(** ** Fit *)
Lemma restarts_length it ns : restarts_by_rank c o size it = Ok ns -> length ns = size.
Proof.
  unfold restarts_by_rank. destruct (negb (o_full o =? 0) && is_this_iter it (o_full o)).
  - destruct (C01_split_number (Z.to_nat (c_restarts c)) size Hsize) as (l & E & L & _). rewrite E. intros H. injection H as <-. auto.
  - intros H. injection H as <-. apply repeat_length.
Qed.
Lemma combine_seq_map {A} (l : list A) d : forall i, combine (seq i (length l)) l = map (fun r => (r, nth (r - i) l d)) (seq i (length l)).
Proof.
  induction l as [|x l IH]; intros i; [reflexivity|]. cbn [length seq combine map]. rewrite Nat.sub_diag. cbn [nth]. f_equal.
  rewrite IH. apply map_ext_in. intros r Hr. apply in_seq in Hr. replace (r - i) with (S (r - S i)) by lia. reflexivity.
Qed.
Lemma all_ok_map {A B} (f : nat -> A * res B) d k l : all_ok (map f k) = Ok l ->
  l = map (fun r => (fst (f r), or_else d (snd (f r)))) k /\ forall r, In r k -> snd (f r) = Ok (or_else d (snd (f r))).
Proof.
  revert l. induction k as [|x k IH]; intros l H; cbn [map all_ok] in *; [injection H as <-; split; [reflexivity|intros r []]|].
  destruct (f x) as [a [b|]] eqn:E; [|discriminate]. cbn [bind] in H.
  destruct (all_ok (map f k)) as [l0|]; [|discriminate]. injection H as <-. destruct (IH l0 eq_refl) as [-> H].
  split; [reflexivity|]. intros r [->|Hr]; [rewrite E; reflexivity|auto].
Qed.
Lemma share_gpr_all root (g : nat -> gpr) : root < size ->
  spmd (M := obj) size (fun r => share_gpr size root (g r)) = Finished (map (fun _ => Ok (g root)) (seq 0 size)).
Proof. intros H. unfold share_gpr. rewrite spmd_bcast by auto. apply spmd_ret. reflexivity. Qed.
(** C100, parallel fit: whenever the lockstep model (the subject of C51) succeeds, all processes end with its surrogate. *)
Theorem C100_fit :
  forall it i X y g g', fit_gpr_parallel e c o size it i X y g = (g', Ok tt) ->
  spmd (M := obj) size (fun r => fit_par e c o size r it i X y g) = Finished (map (fun _ => Ok g') (seq 0 size)).
Proof.
  intros it i X y g g' H. unfold fit_gpr_parallel in H. unfold fit_par. rewrite spmd_bcast by lia.
  destruct (restarts_by_rank c o size it) as [ns|x] eqn:En; [|discriminate].
  pose proof (restarts_length it ns En) as Ln. rewrite (combine_seq_map ns 0), Ln, map_map in H. cbn [fst snd] in H.
  set (f := fun r => fit_rank e c i X y g r (nth (r - 0) ns 0)) in *.
  destruct (all_ok (map f (seq 0 size))) as [l|x] eqn:El; [|discriminate]. cbn [bind] in H.
  apply (all_ok_map f NaN) in El as [-> El]. rewrite map_map in H. cbn [snd] in H.
  set (v := fun r => or_else NaN (snd (f r))) in *.
  destruct (np_argmax (map v (seq 0 size))) as [b|x] eqn:Eb; [|discriminate]. cbn [bind] in H.
  change (fun r => (fst (f r), or_else NaN (snd (f r)))) with (fun r => (fst (f r), v r)) in H.
  destruct (nth_error (map (fun r => (fst (f r), v r)) (seq 0 size)) b) as [p|] eqn:Ep; [|discriminate]. assert (fst p = g') as <- by congruence. clear H.
  assert (b < size) as Hb.
  { assert (nth_error (map (fun r => (fst (f r), v r)) (seq 0 size)) b <> None) as K by congruence.
    apply nth_error_Some in K. rewrite map_length, seq_length in K. auto. }
  rewrite nth_error_seq in Ep by auto. injection Ep as <-. cbn [fst].
  etransitivity.
  { apply spmd_ext. intros r Hr. rewrite bind_local.
    rewrite (nth_error_nth' ns 0) by lia. rewrite bind_local.
    assert (fit_rank e c i X y g r (nth r ns 0) = f r) as -> by (unfold f; rewrite Nat.sub_0_r; reflexivity).
    rewrite (El r) by (apply seq_in; auto). rewrite bind_local. reflexivity. }
  rewrite spmd_allgather by auto.
  assert (mapM as_pair (map (fun r => OPair (ONat r) (ONum (or_else NaN (snd (f r))))) (seq 0 size))
          = Ok (map (fun r => (ONat r : obj, ONum (v r) : obj)) (seq 0 size))) as Epair.
  { generalize (seq 0 size) as l. induction l as [|x l IH]; cbn [map mapM]; auto. cbn [as_pair bind]. rewrite IH. reflexivity. }
  etransitivity.
  { apply spmd_ext. intros r Hr. rewrite Epair, bind_local. rewrite !map_map. cbn [fst snd].
    rewrite (mapM_map_ok as_num ONum v) by reflexivity. rewrite bind_local, Eb, bind_local.
    rewrite nth_error_seq by auto. cbn [as_nat]. rewrite bind_local. reflexivity. }
  apply (share_gpr_all b (fun r => fst (f r)) Hb).
Qed.
(** C100 fails if the fit raises in one process and not in another one. *)
Theorem C100_fit_raises_refuted :
  forall it i X y g ns p q np nq x v, 1 < size -> p < size -> q < size -> restarts_by_rank c o size it = Ok ns ->
  nth_error ns q = Some nq -> snd (fit_rank e c i X y g q nq) = Err x ->
  nth_error ns p = Some np -> snd (fit_rank e c i X y g p np) = Ok v ->
  spmd (M := obj) size (fun r => fit_par e c o size r it i X y g) = Stuck.
Proof.
  intros it i X y g ns p q np nq x v H1 Hp Hq En Nq Eq Np Ep. unfold fit_par. rewrite spmd_bcast by lia. rewrite En.
  eapply (spmd_stuck size _ p q Allgather _ _ Hp Hq).
  - rewrite bind_local, Np, bind_local, Ep, bind_local. unfold allgather, multiple. rewrite (proj2 (Nat.ltb_lt _ _) H1). reflexivity.
  - intros m k. rewrite bind_local, Nq, bind_local, Eq. discriminate.
Qed.

(** ** Initial training *)
Lemma init_rounds_all i needed npp : forall more k X y X' y' b,
  init_loop c size i needed npp k more X y = (X', Ok (y', b)) ->
  forall Xs ys, Xs 0 = X -> ys 0 = y ->
  exists Xe ye, Xe 0 = X' /\ ye 0 = y' /\
  spmd (M := obj) size (fun r => init_rounds c size r i needed npp k more (Xs r) (ys r))
  = Finished (map (fun r => Ok (Xe r, ye r, b)) (seq 0 size)).
Proof.
  induction more as [|more IH]; intros k X y X' y' b H Xs ys HX Hy; cbn [init_loop init_rounds] in *.
  - injection H as <- <- <-. exists Xs, ys. split; [auto|]. split; [auto|]. apply spmd_ret. reflexivity.
  - set (mine := fun r => map (fun j => draw_init i k r j) (seq 0 npp)) in *.
    set (new := init_round size i npp k) in *.
    destruct (count_init c (y ++ map (truth_init i) new)) as [n|x] eqn:En; [|discriminate].
    set (X1 := fun r => if r =? 0 then X ++ new else Xs r).
    set (y1 := fun r => if r =? 0 then y ++ map (truth_init i) new else ys r).
    assert (forall (tail : nat -> list pt * list num * obj -> prog (list pt * list num * bool)),
      spmd size (fun r => let* Xs0 := gather size r (OPts (mine r)) in
                 let* ys0 := gather size r (OVec (map (truth_init i) (mine r))) in
                 let* s := match Xs0, ys0 with
                           | Some Xs0, Some ys0 =>
                               let* Xl := local (mapM as_pts Xs0) in
                               let* yl := local (mapM as_vec ys0) in
                               let X2 := Xs r ++ concat Xl in
                               let y2 := ys r ++ concat yl in
                               let* n0 := local (count_init c y2) in Ret (X2, y2, OBool (needed <=? n0))
                           | _, _ => Ret (Xs r, ys r, ONone)
                           end in tail r s)
      = spmd size (fun r => tail r (X1 r, y1 r, if r =? 0 then OBool (needed <=? n) else ONone))) as K.
    { intros tail. rewrite spmd_gather by auto. rewrite spmd_gather by auto.
      apply (spmd_bind size _ tail (fun r => (X1 r, y1 r, if r =? 0 then OBool (needed <=? n) else ONone))).
      apply spmd_ret. intros r _. unfold X1, y1. destruct (Nat.eqb_spec r 0) as [->|Hr]; [|reflexivity].
      rewrite (mapM_map_ok as_pts OPts mine) by reflexivity. rewrite bind_local.
      rewrite (mapM_map_ok as_vec OVec (fun r0 => map (truth_init i) (mine r0))) by reflexivity. rewrite bind_local.
      rewrite HX, Hy.
      assert (concat (map (fun r0 => map (truth_init i) (mine r0)) (seq 0 size)) = map (truth_init i) new) as ->.
      { unfold new, init_round. rewrite concat_map, map_map. reflexivity. }
      rewrite En. reflexivity. }
    rewrite K. clear K. rewrite spmd_bcast by lia. cbn [snd Nat.eqb as_bool fst].
    destruct (needed <=? n) eqn:Le.
    + injection H as <- <- <-. exists X1, y1. split; [reflexivity|]. split; [reflexivity|]. apply spmd_ret. reflexivity.
    + destruct (IH (S k) _ _ X' y' b H X1 y1 eq_refl eq_refl) as (Xe & ye & HXe & Hye & E).
      exists Xe, ye. split; [auto|]. split; [auto|]. rewrite <- E. apply spmd_ext. reflexivity.
Qed.
Lemma init_rounds_stuck {B} i needed npp : 1 < size -> forall more k X y X' x,
  init_loop c size i needed npp k more X y = (X', Err x) ->
  forall Xs ys (f : nat -> list pt * list num * bool -> prog B), Xs 0 = X -> ys 0 = y ->
  spmd (M := obj) size (fun r => pbind (init_rounds c size r i needed npp k more (Xs r) (ys r)) (f r)) = Stuck.
Proof.
  intros H1. induction more as [|more IH]; intros k X y X' x H Xs ys f HX Hy; cbn [init_loop init_rounds] in *; [discriminate|].
  set (mine := fun r => map (fun j => draw_init i k r j) (seq 0 npp)) in *.
  set (new := init_round size i npp k) in *.
  rewrite spmd_gather2 by auto. rewrite spmd_gather2 by auto.
  assert (concat (map (fun r0 => map (truth_init i) (mine r0)) (seq 0 size)) = map (truth_init i) new) as Ey.
  { unfold new, init_round. rewrite concat_map, map_map. reflexivity. }
  assert (mapM as_pts (map (fun r0 => OPts (mine r0) : obj) (seq 0 size)) = Ok (map mine (seq 0 size))) as Mp
    by (apply mapM_map_ok; reflexivity).
  assert (mapM as_vec (map (fun r0 => OVec (map (truth_init i) (mine r0)) : obj) (seq 0 size))
          = Ok (map (fun r0 => map (truth_init i) (mine r0)) (seq 0 size))) as Mv by (apply mapM_map_ok; reflexivity).
  assert (concat (map mine (seq 0 size)) = new) as Ex by reflexivity.
  unfold mine in Ey, Mp, Mv, Ex. clear mine. clearbody new.
  destruct (count_init c (y ++ map (truth_init i) new)) as [n|x'] eqn:En.
  - set (X1 := fun r => if r =? 0 then X ++ new else Xs r).
    set (y1 := fun r => if r =? 0 then y ++ map (truth_init i) new else ys r).
    etransitivity.
    { apply spmd_ext. intros r _.
      instantiate (1 := fun r => pbind (let* m := bcast size 0 (if r =? 0 then OBool (needed <=? n) else ONone) in
                                        let* enough := local (as_bool m) in
                                        if enough then Ret (X1 r, y1 r, true)
                                        else init_rounds c size r i needed npp (S k) more (X1 r) (y1 r)) (f r)).
      unfold X1, y1. destruct (Nat.eqb_spec r 0) as [->|Hr]; [|reflexivity]. rewrite Mp, bind_local, Mv, bind_local, HX, Hy, ?Ex, Ey, En.
      reflexivity. }
    rewrite spmd_bcast2 by lia. cbn [Nat.eqb as_bool].
    destruct (needed <=? n) eqn:Le; [discriminate|]. apply (IH _ _ _ _ _ H X1 y1 f eq_refl eq_refl).
  - eapply (spmd_stuck size _ 1 0 (Bcast 0)); [lia|lia| |].
    + unfold bcast, multiple. rewrite (proj2 (Nat.ltb_lt _ _) H1). reflexivity.
    + intros m' k'. cbn [Nat.eqb]. rewrite Mp, bind_local, Mv, bind_local, HX, Hy, ?Ex, Ey, En. discriminate.
Qed.
(** The progress tables of the processes have a row each, and can be synchronised. *)
Lemma tables_sync (t : nat -> MProgress.table) : (forall r, r < size -> t r <> []) ->
  exists t', spmd (M := obj) size (fun r => mpi_sync size r (t r)) = Finished (map (fun r => Ok (t' r)) (seq 0 size)).
Proof.
  intros H. destruct (Nat.eq_dec size 1) as [E1|E1].
  - exists t. unfold mpi_sync, multiple. rewrite E1. reflexivity.
  - set (ps := map (fun r => (removelast (t r), last (t r) MProgress.nan_row)) (seq 0 size)).
    destruct (TProgress.C89_sync ps) as (ps' & E & F & _).
    { unfold ps. rewrite map_length, seq_length. lia. }
    assert (TProgress.tables ps = map t (seq 0 size)) as Et.
    { unfold TProgress.tables, ps. rewrite map_map. apply map_ext_in. intros r Hr. apply seq_in in Hr. cbn [fst snd].
      symmetry. apply app_removelast_last. auto. }
    rewrite Et in E. apply (C100_progress (P := pt) (G := gpr) size Hsize) in E. rewrite E.
    assert (length (TProgress.tables ps') = size) as L.
    { unfold TProgress.tables. rewrite map_length.
      assert (length (map fst ps') = length (map fst ps)) as Hl by (f_equal; exact F). rewrite !map_length in Hl.
      etransitivity; [exact Hl|]. unfold ps. rewrite map_length. apply seq_length. }
    exists (fun r => nth r (TProgress.tables ps') []). f_equal. revert L. clear. generalize (TProgress.tables ps') as ts. intros ts <-.
    induction ts as [|t ts IH]; [reflexivity|]. cbn [length seq map nth]. f_equal. rewrite <- seq_shift, map_map. apply IH.
Qed.
(** C100, initial training: whenever the lockstep model (the subject of C50) succeeds, all processes end with its
    surrogate. *)
Theorem C100_init :
  forall i t g g' ev, (forall r, r < size -> t r <> []) ->
  do_initial_training e c o size verbose i g = (g', ev, Ok tt) ->
  spmd (M := obj) size (fun r => init_par e c o size verbose r i (t r) g) = Finished (map (fun _ => Ok g') (seq 0 size)).
Proof.
  intros i t g g' ev Ht H. unfold do_initial_training in H. unfold init_par. rewrite spmd_bcast by lia. cbn [Nat.eqb as_nat].
  set (pre := length (g_y g)) in *. set (needed := o_n_initial o - pre) in *. set (npp := ceil_div needed size) in *.
  destruct (npp =? 0) eqn:E0.
  { destruct verbose; [|discriminate]. injection H as <- <-. apply spmd_ret. intros r _. rewrite bind_local, E0. reflexivity. }
  etransitivity; [apply spmd_ext; intros r _; rewrite bind_local, E0; reflexivity|].
  rewrite spmd_sync by auto.
  destruct (init_loop c size i needed npp 0 (ceil_div (o_max_initial o) npp) (if 0 <? pre then g_X g else []) (if 0 <? pre then g_y g else []))
    as [X [[y [|]]|x]] eqn:El; [|discriminate|discriminate].
  destruct (append_to_data e c (mkAppend (Some X) (Some y) NoNoise FTrue true (fit_init i)) g) as [g2 r2] eqn:Ea.
  injection H as -> <- ->.
  destruct (init_rounds_all i needed npp _ 0 _ _ _ _ _ El (fun _ => if 0 <? pre then g_X g else []) (fun _ => if 0 <? pre then g_y g else []) eq_refl eq_refl)
    as (Xe & ye & HX & Hy & E).
  rewrite (spmd_bind size _ _ _ E). cbn [fst snd].
  rewrite (spmd_bind size _ _ (fun r => if r =? 0 then g' else g)).
  2:{ apply spmd_ret. intros r _. destruct (Nat.eqb_spec r 0) as [->|Hr]; [|reflexivity]. rewrite HX, Hy, Ea. reflexivity. }
  rewrite (spmd_bind size _ _ (fun _ => g')) by (apply (share_gpr_all 0 (fun r => if r =? 0 then g' else g)); lia).
  destruct (tables_sync t Ht) as (t' & E'). rewrite (spmd_bind size _ _ _ E'). apply spmd_ret. reflexivity.
Qed.
(** C100 fails whenever initial training of several processes fails, say because it does not find enough points: the
    main process raises, as it should, but the others wait for ever. *)
Theorem C100_init_fails_refuted :
  forall i t g g' ev x, 1 < size -> length (g_y g) < o_n_initial o ->
  do_initial_training e c o size verbose i g = (g', ev, Err x) ->
  spmd (M := obj) size (fun r => init_par e c o size verbose r i (t r) g) = Stuck.
Proof.
  intros i t g g' ev x H1 Hn H. unfold do_initial_training in H. unfold init_par. rewrite spmd_bcast by lia. cbn [Nat.eqb as_nat].
  set (pre := length (g_y g)) in *. set (needed := o_n_initial o - pre) in *. set (npp := ceil_div needed size) in *.
  destruct (npp =? 0) eqn:E0.
  { apply Nat.eqb_eq in E0. apply ceil_div_zero in E0; auto. unfold needed in E0. lia. }
  etransitivity; [apply spmd_ext; intros r _; rewrite bind_local, E0; reflexivity|].
  rewrite spmd_sync by auto.
  destruct (init_loop c size i needed npp 0 (ceil_div (o_max_initial o) npp) (if 0 <? pre then g_X g else []) (if 0 <? pre then g_y g else []))
    as [X [[y b]|x']] eqn:El.
  - destruct (init_rounds_all i needed npp _ 0 _ _ _ _ _ El (fun _ => if 0 <? pre then g_X g else []) (fun _ => if 0 <? pre then g_y g else []) eq_refl eq_refl)
      as (Xe & ye & HX & Hy & E).
    rewrite (spmd_bind size _ _ _ E). cbn [fst snd].
    eapply (spmd_stuck size _ 1 0 (Bcast 0)); [lia|lia| |].
    + unfold share_gpr, bcast, multiple. rewrite (proj2 (Nat.ltb_lt _ _) H1). reflexivity.
    + intros m k. cbn [Nat.eqb]. destruct b; [|discriminate]. rewrite HX, Hy.
      destruct (append_to_data e c (mkAppend (Some X) (Some y) NoNoise FTrue true (fit_init i)) g) as [g2 r2] eqn:Ea.
      assert (r2 = Err x) as -> by congruence. discriminate.
  - eapply (init_rounds_stuck i needed npp H1 _ 0 _ _ _ _ El (fun _ => if 0 <? pre then g_X g else []) (fun _ => if 0 <? pre then g_y g else []) _ eq_refl eq_refl).
Qed.

(** ** A pass of the loop *)
(** What the outside world does in a pass harms nobody: the acquisition engine gives all processes [X] (C100_batch), no
    callback raises, each criterion is as in C100_verdict with [results], the Monte Carlo runs end in all processes, the
    diagnosis gives [b], there are rows in the progress tables, and the checkpoint can be written. *)
Notation par_input := (par_input pt pt_ PX PY model theta box).
Definition diagnosed (q : par_input) (b : bool) : Prop :=
  exists b1, q_diag q = Ok b1 /\ match q_diag2 q with None => b = b1 | Some d => exists b2, d = Ok b2 /\ b = b1 && b2 end.
Definition sampled (q : par_input) : Prop :=
  exists ms, spmd size (q_mc q) = Finished (map (fun r => Ok (ms r)) (seq 0 size)).
Definition harmless (q : par_input) (X : list pt) (results : list (nat -> res bool)) (b : bool) : Prop :=
  spmd size (q_acq q) = Finished (map (fun _ => Ok X) (seq 0 size))
  /\ match q_callback q with
     | None => True
     | Some (aware, f) => forall r, r < size -> aware || (r =? 0) = true -> f r = Ok tt
     end
  /\ Forall2 (fun k res => checked size (k_aware k) (k_check k) res /\ settled size res) (q_crit q) results
  /\ sampled q /\ diagnosed q b /\ (forall r, r < size -> q_table q r <> []) /\ q_save q = Ok tt.
(** What the lockstep model is given then. *)
Definition lockstep (q : par_input) (X : list pt) (results : list (nat -> res bool)) (b : bool) : pass_input pt theta :=
  mkPass (Ok X) (q_keep q) (q_truth q) (q_fit q) (Ok tt)
    (map (fun p => (k_policy (fst p), outcome_of size (k_aware (fst p)) (snd p))) (combine (q_crit q) results)) (Ok tt) (Ok b) (Ok tt).

Lemma mean_all mean : spmd (M := obj) size (fun r => update_mean_cov size r mean) = Finished (map (fun _ => Ok tt) (seq 0 size)).
Proof. unfold update_mean_cov. rewrite spmd_bcast by lia. rewrite spmd_bcast by lia. apply spmd_ret. reflexivity. Qed.
Lemma mc_all q : sampled q -> spmd size (fun r => generate_mc size r q) = Finished (map (fun _ => Ok tt) (seq 0 size)).
Proof.
  intros [ms E]. unfold generate_mc. rewrite (spmd_bind size _ _ ms E). rewrite spmd_bcast by lia. apply mean_all.
Qed.
Lemma diagnose_all q b : diagnosed q b -> spmd size (fun r => diagnose size r q) = Finished (map (fun _ => Ok b) (seq 0 size)).
Proof.
  intros (b1 & E1 & H). unfold diagnose.
  rewrite (spmd_bind size _ _ (fun r => if r =? 0 then OBool b1 else ONone)).
  2:{ apply spmd_ret. intros r _. destruct (r =? 0); [rewrite E1|]; reflexivity. }
  rewrite spmd_bcast by lia. cbn [Nat.eqb as_bool].
  destruct (q_diag2 q) as [d|]; [|subst b; apply spmd_ret; reflexivity].
  destruct H as (b2 & -> & ->). rewrite (spmd_ext size _ (fun r =>
    let* m := (if r =? 0 then let* b' := local (Ok b2) in Ret (OBool (b1 && b')) else Ret ONone) in
    let* m := bcast size 0 m in local (as_bool m))) by reflexivity.
  rewrite (spmd_bind size _ _ (fun r => if r =? 0 then OBool (b1 && b2) else ONone)).
  2:{ apply spmd_ret. intros r _. destruct (r =? 0); reflexivity. }
  rewrite spmd_bcast by lia. apply spmd_ret. reflexivity.
Qed.
Lemma learn_all q X0 results b X s s' v : harmless q X0 results b -> learn e c o size (lockstep q X0 results b) X s = (s', Ok v) ->
  spmd size (fun r => learn_par e c o size r q X s) = Finished (map (fun _ => Ok (s', v)) (seq 0 size)).
Proof.
  intros (_ & Hcb & Hk & Hmc & Hd & Ht & Hs) H. unfold learn in H. cbn [p_truth p_fit p_callback p_checks p_mean p_mc p_save lockstep] in H.
  destruct (eval_truth_parallel_ok size (q_truth q) X Hsize) as (shares & Et & _ & _). rewrite Et in H.
  unfold learn_par. rewrite spmd_sync by auto.
  rewrite (spmd_bind size _ _ _ (C100_truth (G := gpr) size Hsize (q_truth q) X)). rewrite spmd_sync by auto.
  set (s1 := log (EvEval X) (with_resamples 0 s)) in *.
  destruct (fit_gpr_parallel e c o size (r_iter s1) (q_fit q) X (map (q_truth q) X) (r_gpr s1)) as [g' r'] eqn:Ef.
  destruct r' as [[]|x]; [|discriminate]. cbn [bind] in H.
  rewrite (spmd_bind size _ _ _ (C100_fit _ _ _ _ _ _ Ef)). rewrite spmd_sync by auto. rewrite spmd_bcast by lia.
  set (s2 := log (EvFit (r_iter s1)) (with_gpr g' s1)) in *.
  rewrite (spmd_bind size _ _ (fun _ => tt)).
  2:{ destruct (q_callback q) as [[aware f]|]; [|apply spmd_ret; reflexivity].
      rewrite (spmd_bind size _ _ (fun _ => tt)).
      - apply sync_all. auto.
      - apply spmd_ret. intros r Hr. destruct (aware || (r =? 0)) eqn:Ea; [rewrite (Hcb r Hr Ea)|]; reflexivity. }
  rewrite spmd_sync by auto.
  destruct (C100_verdict (P := pt) (G := gpr) size Hsize _ _ Hk) as (v' & Ev & Sv). rewrite Ev in H.
  rewrite (spmd_bind size _ _ _ Sv). rewrite spmd_sync by auto. rewrite spmd_bcast by lia.
  etransitivity; [apply spmd_ext; intros r _; cbn [as_bool]; rewrite bind_local; reflexivity|].
  rewrite spmd_sync by auto. rewrite (spmd_bind size _ _ _ (mean_all (q_mean q))).
  set (s3 := log (EvVerdict v') (with_converged v' s2)) in *.
  set (s4 := if v' then log (EvDiagnosis b) (if b then s3 else with_converged false s3) else s3).
  rewrite (spmd_bind size _ _ (fun _ => s4)).
  2:{ unfold s4. destruct v'; [|apply spmd_ret; reflexivity]. rewrite (spmd_bind size _ _ _ (mc_all q Hmc)).
      rewrite (spmd_bind size _ _ _ (diagnose_all q b Hd)). rewrite spmd_sync by auto. apply spmd_ret. reflexivity. }
  destruct (tables_sync _ Ht) as (t' & E'). rewrite (spmd_bind size _ _ _ E').
  assert (s' = s4 /\ v = false) as [-> ->].
  { unfold s4. destruct v'; cbn [bind] in H; split; congruence. }
  apply spmd_ret. intros r _. destruct (r =? 0); [rewrite Hs|]; reflexivity.
Qed.
(** C100, a pass of the loop: whenever the lockstep model (the subject of C46 to C49 and C53) succeeds, all processes
    end it with the same state, and agree on whether to leave the loop. *)
Theorem C100_pass :
  forall q X results b s s' v, harmless q X results b -> one_pass e c o size (lockstep q X results b) s = (s', Ok v) ->
  spmd size (fun r => pass_par e c o size r q s) = Finished (map (fun _ => Ok (s', v)) (seq 0 size)).
Proof.
  intros q X results b s s' v Hq H. unfold one_pass in H. cbn [p_acq p_keep lockstep bind] in H.
  unfold pass_par. rewrite spmd_sync by auto. rewrite (spmd_bind size _ _ _ (proj1 Hq)).
  set (s1 := log (EvAcquire (n_total c (r_gpr s)) (n_finite (r_gpr s))) (next_iter s)) in *.
  destruct (match X with [] => Ok [] | _ => masked (q_keep q) X end) as [Y|x] eqn:Ek; [|discriminate].
  etransitivity; [apply spmd_ext; intros r _; rewrite bind_local; reflexivity|].
  destruct (length Y <? Nat.max 1 (o_npa o / 2)); [|eapply learn_all; eauto].
  rewrite spmd_bcast by lia. cbn [Nat.eqb andb as_bool]. injection H as <- <-. apply spmd_ret. reflexivity.
Qed.

(** ** The loop and the run *)
Lemma broke i s s' : one_pass e c o size i s = (s', Ok true) -> goes_on c o s' = goes_on c o s.
Proof.
  unfold one_pass. set (s1 := log (EvAcquire (n_total c (r_gpr s)) (n_finite (r_gpr s))) (next_iter s)).
  destruct (do X <- p_acq i; match X with [] => Ok [] | _ => masked (p_keep i) X end) as [Y|x]; [|discriminate].
  destruct (length Y <? Nat.max 1 (o_npa o / 2)); [intros H; injection H as <- _; reflexivity|].
  unfold learn. destruct (eval_truth_parallel size (p_truth i) Y) as [[sh y]|x]; [|discriminate].
  destruct (fit_gpr_parallel _ _ _ _ _ _ _ _ _) as [g' r']. destruct (bind r' _) as [v|x]; [|discriminate].
  destruct (p_mean i); [|discriminate]. destruct v; [destruct (p_mc i); [|discriminate]|]; destruct (p_save i); discriminate.
Qed.
Lemma loop_all fuel : forall inputs X results b final bf s s',
  (forall k, harmless (inputs k) (X k) (results k) (b k)) ->
  loop e c o size fuel (fun k => lockstep (inputs k) (X k) (results k) (b k)) (Ok bf) s = (s', Ok tt) ->
  (goes_on c o s' || r_converged s' = true \/ size = 1 /\ sampled final /\ diagnosed final bf ->
   spmd size (fun r => loop_par e c o size r fuel inputs final s) = Finished (map (fun _ => Ok s') (seq 0 size)))
  /\ (goes_on c o s' = false -> r_converged s' = false -> 1 < size -> (forall x, q_mc final 0 <> Raise x) ->
      spmd size (fun r => loop_par e c o size r fuel inputs final s) = Stuck).
Proof.
  induction fuel as [|fuel IH]; intros inputs X results b final bf s s' Hi H; cbn [loop loop_par] in *; [discriminate|].
  destruct (goes_on c o s) eqn:Eg.
  - destruct (one_pass e c o size (lockstep (inputs 0) (X 0) (results 0) (b 0)) s) as [s1 [v|x]] eqn:Ep; [|discriminate].
    pose proof (C100_pass _ _ _ _ _ _ _ (Hi 0) Ep) as E. rewrite (spmd_bind size _ _ _ E). cbn [fst snd].
    destruct v.
    + injection H as <-. pose proof (broke _ _ _ Ep) as B. split; [intros _; apply spmd_ret; reflexivity|]. intros K. congruence.
    + apply (IH (fun k => inputs (S k)) (fun k => X (S k)) (fun k => results (S k)) (fun k => b (S k)) final bf s1 s'); auto.
  - rewrite spmd_sync by auto. destruct (r_converged s) eqn:Ec.
    + injection H as <-. cbn [negb]. split; [|congruence]. intros _. apply spmd_ret. intros r _. rewrite andb_false_r. reflexivity.
    + assert (s' = log (EvDiagnosis bf) s) as -> by congruence. clear H. cbn [negb]. split.
      * intros [K|(H1 & Hm & Hd)]; [change (goes_on c o s || r_converged s = true) in K; rewrite Eg, Ec in K; discriminate|].
        rewrite (spmd_ext size _ (fun r => let* _ := generate_mc size r final in
          let* b := diagnose size r final in let* _ := sync_processes size in Ret (log (EvDiagnosis b) s))).
        2:{ intros r Hr. assert (r = 0) as -> by lia. reflexivity. }
        rewrite (spmd_bind size _ _ _ (mc_all _ Hm)). rewrite (spmd_bind size _ _ _ (diagnose_all _ _ Hd)).
        rewrite spmd_sync by auto. apply spmd_ret. reflexivity.
      * intros _ _ H1 Hm. unfold generate_mc.
        destruct (q_mc final 0) as [m|x|c' m k] eqn:E0; [|exfalso; apply (Hm x); reflexivity|].
        -- eapply (spmd_stuck size _ 0 1 (Bcast 0)); [lia|lia| |].
           ++ cbn [Nat.eqb andb]. rewrite E0. unfold bcast at 1, multiple at 1. rewrite (proj2 (Nat.ltb_lt _ _) H1). reflexivity.
           ++ intros m' k'. discriminate.
        -- eapply (spmd_stuck size _ 0 1 c'); [lia|lia| |].
           ++ cbn [Nat.eqb andb]. rewrite E0. reflexivity.
           ++ intros m' k'. discriminate.
Qed.
(** C100, the whole run: whenever the lockstep model (the subject of C46 to C49 and C53) returns, with a converged surrogate or
    after giving up for lack of candidates, or with a single process, all processes end with the same state. *)
Theorem C100_run :
  forall fuel init t0 inputs X results b final bf ev s s',
  (forall r, r < size -> t0 r <> []) ->
  (forall k, harmless (inputs k) (X k) (results k) (b k)) ->
  ev = snd (fst (do_initial_training e c o size verbose init (r_gpr s))) ->
  run e c o size verbose loaded fuel init (Ok tt) (fun k => lockstep (inputs k) (X k) (results k) (b k)) (Ok bf) s = (s', Ok tt) ->
  goes_on c o s' || r_converged s' = true \/ size = 1 /\ sampled final /\ diagnosed final bf ->
  spmd size (fun r => run_par e c o size verbose loaded r fuel init t0 (Ok tt) inputs final ev s)
  = Finished (map (fun _ => Ok s') (seq 0 size)).
Proof.
  intros fuel init t0 inputs X results b final bf ev s s' Ht Hi -> H Hend. unfold run in H. unfold run_par.
  destruct (r_has_run s); [injection H as <-; apply spmd_ret; reflexivity|].
  destruct (if loaded then _ else _) as [s1 r1] eqn:E1 in H. destruct r1 as [u1|x]; [|discriminate].
  rewrite (spmd_bind size _ _ (fun _ => s1)).
  2:{ destruct loaded; [injection E1 as <-; apply spmd_ret; reflexivity|].
      destruct (do_initial_training e c o size verbose init (r_gpr s)) as [[g ev] r] eqn:Ed. cbn [fst snd].
      destruct r as [[]|x]; [|discriminate]. injection E1 as <- _.
      rewrite (spmd_bind size _ _ _ (C100_init _ _ _ _ _ Ht Ed)). apply spmd_ret. intros r _. destruct (r =? 0); reflexivity. }
  destruct (loop _ _ _ _ _ _ _ _) as [s2 [[]|x]] eqn:El; [|discriminate]. injection H as <-.
  rewrite (spmd_bind size _ _ (fun _ => s2)) by (eapply loop_all; eauto). apply spmd_ret. reflexivity.
Qed.
(** C100 fails at the end of every other run of several processes, that is, one that reaches the maximum number of
    evaluations: only the main process starts the last Monte Carlo run, and it waits for the others for ever. The runner is
    still in [loop_par]; the others may even have returned from [run]. *)
Theorem C100_end_refuted :
  forall fuel init t0 inputs X results b final bf ev s s',
  1 < size -> r_has_run s = false -> (forall r, r < size -> t0 r <> []) ->
  (forall k, harmless (inputs k) (X k) (results k) (b k)) ->
  ev = snd (fst (do_initial_training e c o size verbose init (r_gpr s))) ->
  run e c o size verbose loaded fuel init (Ok tt) (fun k => lockstep (inputs k) (X k) (results k) (b k)) (Ok bf) s = (s', Ok tt) ->
  goes_on c o s' = false -> r_converged s' = false -> (forall x, q_mc final 0 <> Raise x) ->
  spmd size (fun r => run_par e c o size verbose loaded r fuel init t0 (Ok tt) inputs final ev s) = Stuck.
Proof.
  intros fuel init t0 inputs X results b final bf ev s s' H1 Hr Ht Hi -> H Hg Hc Hm. unfold run in H. unfold run_par.
  rewrite Hr in *. destruct (if loaded then _ else _) as [s1 r1] eqn:E1 in H. destruct r1 as [u1|x]; [|discriminate].
  rewrite (spmd_bind size _ _ (fun _ => s1)).
  2:{ destruct loaded; [injection E1 as <-; apply spmd_ret; reflexivity|].
      destruct (do_initial_training e c o size verbose init (r_gpr s)) as [[g ev] r] eqn:Ed. cbn [fst snd].
      destruct r as [[]|x]; [|discriminate]. injection E1 as <- _.
      rewrite (spmd_bind size _ _ _ (C100_init _ _ _ _ _ Ht Ed)). apply spmd_ret. intros r _. destruct (r =? 0); reflexivity. }
  destruct (loop _ _ _ _ _ _ _ _) as [s2 [[]|x]] eqn:El; [|discriminate]. injection H as <-.
  apply (spmd_quiet size _ (fun _ s => finished s)).
  eapply (proj2 (loop_all _ _ _ _ _ final _ _ _ Hi El)); auto.
Qed.
End Par.
Print Assumptions C100_batch.
Print Assumptions C100_batch_raises_refuted.
Print Assumptions C100_fit.
Print Assumptions C100_fit_raises_refuted.
Print Assumptions C100_init.
Print Assumptions C100_init_fails_refuted.
Print Assumptions C100_pass.
Print Assumptions C100_run.
Print Assumptions C100_end_refuted.

(** ** Examples *)
(** Batch acquisition of three processes, with the regressor and the optimiser of C36_example; the regressors of the
    others are not looked at. *)
Example C100_batch_case :
  spmd 3 (fun r => batch_add TBatch.toy_env TBatch.toy_config TBatch.toy_inputs 3 r None
                     (if r =? 0 then TBatch.toy_g else []) 2 (Some (-10, 10)%Z))
  = Finished (repeat (Ok [((-9)%Z, nz 9, nz 78); (5%Z, nz 5, nz 48)]) 3).
Proof. vm_compute. reflexivity. Qed.
(** If the optimiser raises in the last process only, the others wait. *)
Definition bad_inputs : MBatch.inputs TBatch.toy Z (Z * Z) :=
  MBatch.mkInputs (MBatch.w_update TBatch.toy_inputs) (MBatch.w_draw TBatch.toy_inputs)
    (fun ip i f x b => if i =? 2 then Err RuntimeError else MBatch.w_opt TBatch.toy_inputs ip i f x b).
Example C100_batch_raises_case :
  spmd 3 (fun r => batch_add TBatch.toy_env TBatch.toy_config bad_inputs 3 r None TBatch.toy_g 2 (Some (-10, 10)%Z)) = Stuck.
Proof. vm_compute. reflexivity. Qed.
(** The parallel fit of C25_process_example. *)
Example C100_fit_case :
  let c := mkConfig true 1 (nz 20) true 5 true 0 in
  exists g', spmd 3 (fun r => fit_par TFit.stay c (TFit.sched 1 1) 3 r 0 TFit.draws [1; 2]%Z [nz 0; nz 1] demo_new) = Finished [Ok g'; Ok g'; Ok g']
    /\ g_kernel g' = Some 6 /\ g_lml g' = Some (nz (-1)).
Proof. cbv zeta. eexists. split; [vm_compute; reflexivity|]. split; [reflexivity|]. vm_compute. reflexivity. Qed.
(** Initial training: the case of C50_example, and one in which all points are infinite. *)
Definition row_of (r : nat) : MProgress.table := [fun _ => nz (Z.of_nat r)].
Example C100_init_case :
  exists g, spmd 2 (fun r => init_par demo (demo_c true 1) (demo_opts 3 6 20 2) 2 true r
                      (demo_init (fun _ r j => (Z.of_nat (2 * r + j) - 1)%Z)) (row_of r) demo_new) = Finished [Ok g; Ok g]
    /\ g_Xall g = [-1; 0; 1; 2]%Z.
Proof. eexists. split; [vm_compute; reflexivity|]. reflexivity. Qed.
Example C100_init_fails_case :
  spmd 2 (fun r => init_par demo (demo_c true 1) (demo_opts 3 6 20 2) 2 true r (demo_init (fun _ _ _ => (-1)%Z)) (row_of r) demo_new) = Stuck.
Proof. vm_compute. reflexivity. Qed.
(** A run of two processes: the engine sends the proposals from the main process; the main process alone checks the
    criterion; the sampler gathers something. *)
Definition par_pass (X : list Z) (conv diag : bool) : par_input Z Z unit unit unit nat unit :=
  mkPar (fun r => let* m := bcast 2 0 (if r =? 0 then OPts X else ONone) in local (as_pts m))
    (map (fun _ => true) X) demo_truth demo_fit (Some (true, fun _ => Ok tt))
    [mkCrit false "n"%string (fun _ => Ret conv)] (ONone, ONone)
    (fun r => let* _ := gather 2 r (ONat r) in Ret ONone) (Ok diag) None row_of (Ok tt).
Definition par_inputs (l : list (list Z * bool * bool)) (k : nat) : par_input Z Z unit unit unit nat unit :=
  let q := nth k l ([], false, false) in par_pass (fst (fst q)) (snd (fst q)) (snd q).
Definition par_story : list (list Z * bool * bool) := [([5; 6]%Z, false, false); ([], false, false); ([7; 8]%Z, true, false); ([9; -1]%Z, true, true)].
Definition par_results (l : list (list Z * bool * bool)) (k : nat) : list (nat -> res bool) :=
  [fun _ => Ok (snd (fst (nth k l ([], false, false))))].
Lemma par_harmless l k :
  harmless 2 (par_inputs l k) (fst (fst (nth k l ([], false, false)))) (par_results l k) (snd (nth k l ([], false, false))).
Proof.
  unfold par_inputs, par_results. destruct (nth k l ([], false, false)) as [[X conv] diag]. cbn [fst snd].
  repeat split; cbn [q_acq q_callback q_crit q_table q_save par_pass]; auto.
  - constructor; [|constructor]. split; [reflexivity|intros r x Hr; discriminate].
  - exists (fun _ => ONone). reflexivity.
  - exists diag. split; reflexivity.
  - discriminate.
Qed.
Example C100_run_case :
  exists s, spmd 2 (fun r => run_par demo (demo_c true 1) (demo_opts 2 2 20 2) 2 true false r 50 (demo_init demo_draw) row_of (Ok tt)
                      (par_inputs par_story) (par_pass [] false true) [0; 2]%Z demo_start) = Finished [Ok s; Ok s]
    /\ r_converged s = true /\ n_total (demo_c true 1) (r_gpr s) = 8 /\ (forall k, exists X rs b, harmless 2 (par_inputs par_story k) X rs b).
Proof.
  eexists. split; [vm_compute; reflexivity|]. split; [reflexivity|]. split; [reflexivity|].
  intros k. do 3 eexists. apply par_harmless.
Qed.
(** With [max_total = 4] the first pass is the last one, and the main process waits for ever. *)
Example C100_end_case :
  spmd 2 (fun r => run_par demo (demo_c true 1) (demo_opts 2 2 4 2) 2 true false r 50 (demo_init demo_draw) row_of (Ok tt)
            (par_inputs par_story) (par_pass [] false true) [0; 2]%Z demo_start) = Stuck
  /\ exists s, run demo (demo_c true 1) (demo_opts 2 2 4 2) 2 true false 50 (demo_init demo_draw) (Ok tt)
       (fun k => lockstep 2 (par_inputs par_story k) (fst (fst (nth k par_story ([], false, false)))) (par_results par_story k)
                   (snd (nth k par_story ([], false, false)))) (Ok true) demo_start = (s, Ok tt)
     /\ goes_on (demo_c true 1) (demo_opts 2 2 4 2) s = false /\ r_converged s = false.
Proof. split; [vm_compute; reflexivity|]. eexists. split; [vm_compute; reflexivity|]. split; reflexivity. Qed.

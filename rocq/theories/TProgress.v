(** C62, C89, C90: the progress table. *)
From Coq Require Import List ZArith QArith Qcanon Lia Bool.
From Verif Require Import Base Num MProgress.
Import ListNotations.
Set Default Goal Selector "!".
Close Scope Q_scope. Close Scope Qc_scope.

(** ** Vocabulary *)
(** What an event says about a column. *)
Definition says (ev : event) (c : col) : option num :=
  match ev, c with
  | AddCurrentNTruth n _, n_total => Some n
  | AddCurrentNTruth _ nf, n_finite => Some nf
  | AddAcquisition t _, time_acquire => Some t
  | AddAcquisition _ e, evals_acquire => Some e
  | AddTruth t _, time_truth => Some t
  | AddTruth _ e, evals_truth => Some e
  | AddFit t _, time_fit => Some t
  | AddFit _ e, evals_fit => Some e
  | AddConvergence t _ _, time_convergence => Some t
  | AddConvergence _ e _, evals_convergence => Some e
  | AddConvergence _ _ x, convergence_crit_value => Some x
  | _, _ => None
  end.
(** The value that was said last in an iteration, [d] if there is none. *)
Fixpoint last_said (d : num) (seg : list event) (c : col) : num :=
  match seg with
  | [] => d
  | ev :: seg => last_said (match says ev c with Some v => v | None => d end) seg c
  end.
(** A history as iterations: what is said in each of them. *)
Definition history (segs : list (list event)) : list event := flat_map (fun seg => AddIteration :: seg) segs.
Definition is_start (ev : event) : bool := match ev with AddIteration => true | _ => false end.
Definition within (seg : list event) : Prop := Forall (fun ev => is_start ev = false) seg.

Lemma set_last_app t r c v : set_last c v (t ++ [r]) = Ok (t ++ [set_row r c v]).
Proof.
  induction t as [|x t IH]; [reflexivity|]. cbn [app set_last]. rewrite IH.
  destruct (t ++ [r]) eqn:E; [destruct t; discriminate|]. reflexivity.
Qed.
Lemma get_last_app t r c : get_last c (t ++ [r]) = Ok (r c).
Proof. unfold get_last. rewrite rev_app_distr. reflexivity. Qed.

Lemma record_app ev t r : is_start ev = false ->
  exists r', record ev (t ++ [r]) = Ok (t ++ [r']) /\ forall c, r' c = match says ev c with Some v => v | None => r c end.
Proof.
  intros H. destruct ev; [discriminate|..]; cbn [record]; rewrite ?set_last_app; cbn [bind]; rewrite ?set_last_app; cbn [bind];
    rewrite ?set_last_app; (eexists; split; [reflexivity|intros c; destruct c; reflexivity]).
Qed.
Lemma record_seg seg : forall t r, within seg ->
  exists r', record_all seg (t ++ [r]) = Ok (t ++ [r']) /\ forall c, r' c = last_said (r c) seg c.
Proof.
  induction seg as [|ev seg IH]; intros t r H; [exists r; auto|]. inversion H as [|? ? He Hs]; subst.
  destruct (record_app ev t r He) as (r1 & E & Hr). cbn [record_all]. rewrite E. cbn [bind].
  destruct (IH t r1 Hs) as (r2 & E2 & Hr2). exists r2. split; [auto|]. intros c. rewrite Hr2, Hr. reflexivity.
Qed.
Lemma record_all_app a : forall b t, record_all (a ++ b) t = do t' <- record_all a t; record_all b t'.
Proof.
  induction a as [|ev a IH]; intros b t; [reflexivity|]. cbn [app record_all]. destruct (record ev t); cbn [bind]; auto.
Qed.

(** ** C62 *)
(** One row per started iteration, after those there were before, which stay as they were; each value is in the
    row of its own iteration: the last one said, or missing. *)
Theorem C62_rows :
  forall segs t0, Forall within segs -> exists rows, record_all (history segs) t0 = Ok (t0 ++ rows)
    /\ length rows = length segs
    /\ forall i seg c, nth_error segs i = Some seg -> option_map (fun r => r c) (nth_error rows i) = Some (last_said NaN seg c).
Proof.
  induction segs as [|seg segs IH]; intros t0 H.
  { exists []. rewrite app_nil_r. split; [reflexivity|]. split; [reflexivity|]. intros [|i] seg c E; discriminate. }
  inversion H as [|? ? Hs Hr]; subst. destruct (record_seg seg t0 nan_row Hs) as (r & E & Er).
  destruct (IH (t0 ++ [r]) Hr) as (rows & E2 & L & V). exists (r :: rows). split.
  - cbn [history flat_map app record_all record bind]. unfold add_iteration. rewrite record_all_app, E. cbn [bind].
    change (flat_map _ segs) with (history segs). rewrite E2, <- app_assoc. reflexivity.
  - split; [cbn; auto|]. intros [|i] seg' c Hi.
    + injection Hi as <-. cbn. rewrite Er. reflexivity.
    + apply V. auto.
Qed.
(** This covers all histories of a new table: anything said before the first iteration raises. *)
Theorem C62_histories :
  forall evs t, record_all evs new_table = Ok t -> exists segs, Forall within segs /\ evs = history segs.
Proof.
  intros evs t H. destruct evs as [|ev evs]; [exists []; split; [constructor|reflexivity]|].
  destruct ev; try discriminate. clear H.
  assert (forall evs, exists seg segs, within seg /\ Forall within segs /\ evs = seg ++ history segs) as K.
  { clear. induction evs as [|ev evs (seg & segs & H1 & H2 & ->)].
    - exists [], []. repeat split; constructor.
    - destruct (is_start ev) eqn:E.
      + destruct ev; try discriminate. exists [], (seg :: segs). repeat split; [constructor|constructor; auto].
      + exists (ev :: seg), segs. repeat split; [constructor; auto|auto]. }
  destruct (K evs) as (seg & segs & H1 & H2 & ->). exists (seg :: segs). split; [constructor; auto|reflexivity].
Qed.
(** From any table with rows: events never raise, and never change, remove or reorder rows other than the last. *)
Theorem C62_frozen :
  forall evs t r, exists r' rows, record_all evs (t ++ [r]) = Ok (t ++ r' :: rows)
    /\ length rows = length (filter is_start evs)
    /\ (hd_error evs = Some AddIteration -> r' = r).
Proof.
  induction evs as [|ev evs IH]; intros t r; [exists r, []; auto|]. destruct (is_start ev) eqn:E.
  - destruct ev; try discriminate. cbn [record_all record bind]. unfold add_iteration.
    destruct (IH (t ++ [r]) nan_row) as (r' & rows & H & L & _). exists r, (r' :: rows).
    rewrite H, <- app_assoc. cbn. auto.
  - destruct (record_app ev t r E) as (r1 & H1 & _). cbn [record_all]. rewrite H1. cbn [bind].
    destruct (IH t r1) as (r' & rows & H & L & _). exists r', rows. split; [auto|]. split; [cbn; rewrite E; auto|].
    intros Hd. injection Hd as ->. discriminate.
Qed.
Print Assumptions C62_rows.
Print Assumptions C62_histories.
Print Assumptions C62_frozen.
(** Two iterations; the second is a re-sampling one without truth evaluations. *)
Example C62_example :
  exists t, record_all (history [[AddCurrentNTruth (nz 0) (nz 0); AddTruth (nz 3) (nz 12); AddTruth (nz 4) (nz 12)];
                                 [AddCurrentNTruth (nz 12) (nz 9); AddAcquisition (nz 1) (nz 500)]]) new_table = Ok t
    /\ map (fun r => (r n_total, r n_finite, r time_truth, r evals_acquire)) t
       = [(nz 0, nz 0, nz 4, NaN); (nz 12, nz 9, NaN, nz 500)].
Proof. eexists. split; reflexivity. Qed.

(** ** C89: synchronisation *)
(** Tables with a last row. *)
Definition tables (ps : list (table * row)) : list table := map (fun p => fst p ++ [snd p]) ps.
Lemma do_all_map {A B} (f : A -> res B) (g : A -> B) l : (forall x, In x l -> f x = Ok (g x)) -> do_all f l = Ok (map g l).
Proof.
  induction l as [|x l IH]; intros H; [reflexivity|]. cbn [do_all map]. rewrite H by (left; auto). cbn [bind].
  rewrite IH by (intros; apply H; right; auto). reflexivity.
Qed.
Definition synced (c : col) (op : operation) (ps : list (table * row)) : list (table * row) :=
  map (fun p => (fst p, set_row (snd p) c (combine_values op (map (fun p => snd p c) ps)))) ps.
Lemma bcast_tables c op ps : bcast_operation c op (tables ps) = Ok (tables (synced c op ps)).
Proof.
  unfold bcast_operation, tables.
  assert (do_all (get_last c) (map (fun p => fst p ++ [snd p]) ps) = Ok (map (fun p => snd p c) ps)) as E.
  { induction ps as [|p ps IH]; [reflexivity|]. cbn [map do_all]. rewrite get_last_app. cbn [bind]. rewrite IH. reflexivity. }
  rewrite E. cbn [bind]. unfold synced. rewrite map_map. generalize (combine_values op (map (fun p => snd p c) ps)) as v.
  intros v. clear E. induction ps as [|p ps IH]; [reflexivity|]. cbn [map do_all]. rewrite set_last_app. cbn [bind]. rewrite IH. reflexivity.
Qed.
Lemma col_eqb_eq a b : col_eqb a b = true <-> a = b.
Proof. split; [destruct a, b; (reflexivity || discriminate)|intros ->; destruct b; reflexivity]. Qed.
Lemma plan_tables plan : forall ps, exists ps', run_plan plan (tables ps) = Ok (tables ps') /\ map fst ps' = map fst ps
  /\ (NoDup (map fst plan) -> forall c, map (fun p => snd p c) ps' =
       match find (fun x => col_eqb (fst x) c) plan with
       | Some (_, op) => repeat (combine_values op (map (fun p => snd p c) ps)) (length ps)
       | None => map (fun p => snd p c) ps
       end).
Proof.
  induction plan as [|[c0 op0] plan IH]; intros ps; [exists ps; auto|]. cbn [run_plan]. rewrite bcast_tables. cbn [bind].
  destruct (IH (synced c0 op0 ps)) as (ps' & E & F & V). exists ps'. split; [auto|]. split.
  - rewrite F. unfold synced. rewrite map_map. reflexivity.
  - intros N c. cbn [map fst] in N. inversion N as [|? ? N1 N2]; subst. rewrite V by auto. cbn [find fst].
    assert (map (fun p => snd p c) (synced c0 op0 ps) =
      if col_eqb c0 c then repeat (combine_values op0 (map (fun p => snd p c) ps)) (length ps) else map (fun p => snd p c) ps) as Es.
    { unfold synced. rewrite map_map. cbn [snd]. unfold set_row. destruct (col_eqb c0 c) eqn:Ec; [|reflexivity].
      apply col_eqb_eq in Ec. subst c0. generalize (combine_values op0 (map (fun p => snd p c) ps)). intros v.
      clear. induction ps as [|p ps IHp]; cbn; congruence. }
    rewrite Es. destruct (col_eqb c0 c) eqn:Ec; auto.
    + apply col_eqb_eq in Ec. subst c0. destruct (find _ plan) as [[c1 op1]|] eqn:Ef; [|reflexivity].
      apply find_some in Ef as [Hi Hc]. cbn in Hc. apply col_eqb_eq in Hc. subst c1. destruct N1. apply in_map_iff. exists (c, op1). auto.
    + unfold synced. rewrite map_length. reflexivity.
Qed.

(** The largest and the sum of the finite ones among some values; missing if there are none. *)
Definition largest (vals : list num) (m : num) : Prop :=
  (m = NaN /\ forall v, In v vals -> isfin v = false)
  \/ (isfin m = true /\ In m vals /\ forall v, In v vals -> isfin v = true -> nleb v m = true).
Fixpoint finite_total (vals : list num) : Qc :=
  match vals with [] => Q2Qc 0 | Fin q :: l => Qcplus q (finite_total l) | _ :: l => finite_total l end.
Definition total (vals : list num) (m : num) : Prop :=
  (m = NaN /\ forall v, In v vals -> isfin v = false)
  \/ (m = Fin (finite_total vals) /\ exists v, In v vals /\ isfin v = true).

Lemma np_max_list_spec l : l <> [] -> Forall (fun v => isfin v = true) l ->
  In (np_max_list l) l /\ forall v, In v l -> nleb v (np_max_list l) = true.
Proof.
  induction l as [|x l IH]; [congruence|]. intros _ H. inversion H as [|? ? Hx Hl]; subst. destruct l as [|y l].
  - cbn. split; [auto|]. intros v [<-|[]]. apply nleb_refl, isfin_notnan. auto.
  - destruct IH as [I1 I2]; [discriminate|auto|]. change (np_max_list (x :: y :: l)) with
      (let m := np_max_list (y :: l) in if nltb x m then m else x). cbv zeta.
    set (m := np_max_list (y :: l)) in *. assert (isfin m = true) as Hm by (rewrite Forall_forall in Hl; auto).
    assert (isnan x = false) as Nx by (apply isfin_notnan; auto). assert (isnan m = false) as Nm by (apply isfin_notnan; auto).
    destruct (nltb x m) eqn:E.
    + split; [right; auto|]. intros v [<-|Hv]; [apply nltb_leb; auto|auto].
    + split; [left; auto|]. assert (nleb m x = true) as Hmx.
      { rewrite nltb_not_leb in E by auto. destruct (nleb m x); auto. }
      intros v [<-|Hv]; [apply nleb_refl; auto|]. eapply nleb_trans; [apply I2; auto|auto].
Qed.
Lemma combine_max vals : largest vals (combine_values Max vals).
Proof.
  unfold combine_values. destruct (filter isfin vals) as [|x l] eqn:E.
  - left. split; [auto|]. intros v Hv. destruct (isfin v) eqn:F; auto. assert (In v (filter isfin vals)) as K by (apply filter_In; auto).
    rewrite E in K. destruct K.
  - right. rewrite <- E. destruct (np_max_list_spec (filter isfin vals)) as [H1 H2].
    + rewrite E. discriminate.
    + apply Forall_forall. intros v Hv. apply filter_In in Hv. tauto.
    + apply filter_In in H1 as [H1 H3]. split; [auto|]. split; [auto|]. intros v Hv Fv. apply H2. apply filter_In. auto.
Qed.
Lemma sum_finite l : forall q, fold_left nadd (filter isfin l) (Fin q) = Fin (Qcplus q (finite_total l)).
Proof.
  induction l as [|x l IH]; intros q; cbn [filter finite_total fold_left].
  - f_equal. ring.
  - destruct x; cbn [isfin]; auto. cbn [fold_left nadd]. rewrite IH. f_equal. ring.
Qed.
Lemma combine_sum vals : total vals (combine_values Sum vals).
Proof.
  unfold combine_values. destruct (filter isfin vals) as [|x l] eqn:E.
  - left. split; [auto|]. intros v Hv. destruct (isfin v) eqn:F; auto. assert (In v (filter isfin vals)) as K by (apply filter_In; auto).
    rewrite E in K. destruct K.
  - right. rewrite <- E. split.
    + unfold sum_list, nz. rewrite sum_finite. f_equal. change (qc_of_Z 0) with (Q2Qc 0). ring.
    + exists x. assert (In x (filter isfin vals)) as K by (rewrite E; left; auto). apply filter_In in K. tauto.
Qed.

Definition is_time (c : col) : Prop := c = time_acquire \/ c = time_truth \/ c = time_fit \/ c = time_convergence.
Definition is_evals (c : col) : Prop := c = evals_acquire \/ c = evals_truth \/ c = evals_fit \/ c = evals_convergence.
(** After synchronising two or more processes, all of which have a row: earlier rows are as they were; in the
    last one, all processes agree on the largest times, the sums of the counts, and the criterion of the first
    process; the numbers of training points stay those of each process. *)
Theorem C89_sync :
  forall ps, (2 <= length ps)%nat -> exists ps', mpi_sync (tables ps) = Ok (tables ps') /\ map fst ps' = map fst ps
    /\ (forall c, c = n_total \/ c = n_finite -> map (fun p => snd p c) ps' = map (fun p => snd p c) ps)
    /\ (forall c, is_time c -> exists m, largest (map (fun p => snd p c) ps) m /\ forall p, In p ps' -> snd p c = m)
    /\ (forall c, is_evals c -> exists m, total (map (fun p => snd p c) ps) m /\ forall p, In p ps' -> snd p c = m)
    /\ (forall p, In p ps' -> snd p convergence_crit_value = hd NaN (map (fun p => snd p convergence_crit_value) ps)).
Proof.
  intros ps Hl. destruct (plan_tables sync_plan ps) as (ps' & E & F & V). exists ps'.
  assert (NoDup (map fst sync_plan)) as N.
  { cbn. repeat (constructor; [cbn; intuition discriminate|]). constructor. }
  specialize (V N).
  assert (forall c v n, map (fun p : table * row => snd p c) ps' = repeat v n -> forall p, In p ps' -> snd p c = v) as K.
  { intros c v n H p Hp. apply (repeat_spec n). rewrite <- H. apply (in_map (fun p : table * row => snd p c)). auto. }
  split; [|split; [auto|split; [|split; [|split]]]].
  - unfold mpi_sync. replace (length (tables ps) <=? 1)%nat with false; auto. unfold tables. rewrite map_length. symmetry. apply Nat.leb_gt. exact Hl.
  - intros c Hc. rewrite V. destruct Hc as [-> | ->]; reflexivity.
  - intros c Hc. exists (combine_values Max (map (fun p => snd p c) ps)). split; [apply combine_max|].
    apply (K c _ (length ps)). rewrite V. destruct Hc as [-> |[-> |[-> | ->]]]; reflexivity.
  - intros c Hc. exists (combine_values Sum (map (fun p => snd p c) ps)). split; [apply combine_sum|].
    apply (K c _ (length ps)). rewrite V. destruct Hc as [-> |[-> |[-> | ->]]]; reflexivity.
  - apply (K _ _ (length ps)). rewrite V. reflexivity.
Qed.
(** What only one process has recorded, as the runner does for truth evaluations and fits, all get. *)
Theorem C89_single :
  forall (ps1 : list (table * row)) (p0 : table * row) (ps2 : list (table * row)) c q, is_time c \/ is_evals c -> snd p0 c = Fin q -> (forall p : table * row, In p (ps1 ++ ps2) -> snd p c = NaN) ->
    (2 <= length (ps1 ++ p0 :: ps2))%nat -> exists ps', mpi_sync (tables (ps1 ++ p0 :: ps2)) = Ok (tables ps')
      /\ length ps' = length (ps1 ++ p0 :: ps2) /\ forall p, In p ps' -> snd p c = Fin q.
Proof.
  intros ps1 p0 ps2 c q Hc H0 Hn Hl. destruct (C89_sync _ Hl) as (ps' & E & F & _ & T & V & _). exists ps'. split; [auto|].
  split; [rewrite <- (map_length fst), F, map_length; auto|].
  assert (forall v, In v (map (fun p : table * row => snd p c) (ps1 ++ p0 :: ps2)) -> isfin v = true -> v = Fin q) as K.
  { intros v Hv Fv. apply in_map_iff in Hv as (p & <- & Hp). cbv beta in Fv. apply in_app_iff in Hp as [Hp|[<-|Hp]]; [|exact H0|].
    - enough (isfin NaN = true) by discriminate. rewrite <- (Hn p); [exact Fv|apply in_app_iff; auto].
    - enough (isfin NaN = true) by discriminate. rewrite <- (Hn p); [exact Fv|apply in_app_iff; auto]. }
  assert (In (Fin q) (map (fun p : table * row => snd p c) (ps1 ++ p0 :: ps2))) as I0.
  { rewrite <- H0. apply (in_map (fun p : table * row => snd p c)). apply in_app_iff. right. left. auto. }
  destruct Hc as [Hc|Hc].
  - destruct (T c Hc) as (m & [[-> H]|(H1 & H2 & H3)] & Hm); [specialize (H _ I0); discriminate|].
    rewrite <- (K m) by auto. auto.
  - destruct (V c Hc) as (m & [[-> H]|(-> & _)] & Hm); [specialize (H _ I0); discriminate|].
    replace q with (finite_total (map (fun p : table * row => snd p c) (ps1 ++ p0 :: ps2))); auto.
    assert (forall l : list (table * row), (forall p : table * row, In p l -> snd p c = NaN) -> finite_total (map (fun p : table * row => snd p c) l) = Q2Qc 0) as Z.
    { clear. induction l as [|p l IH]; intros H; [reflexivity|]. cbn. rewrite (H p) by (left; auto). apply IH. intros; apply H; right; auto. }
    assert (forall a b, finite_total (a ++ b) = Qcplus (finite_total a) (finite_total b)) as A.
    { clear. induction a as [|x a IH]; intros b; cbn; [ring|]. destruct x; auto. rewrite IH. ring. }
    rewrite map_app, A. cbn [map finite_total]. rewrite H0, !Z; [ring|intros; apply Hn, in_app_iff; auto..].
Qed.
(** A single process is left alone. *)
Theorem C89_alone : forall t, mpi_sync [t] = Ok [t].
Proof. reflexivity. Qed.
(** Synchronising again counts everything again: it is not idempotent. *)
Theorem C89_idempotent_refuted :
  exists ps ts ts', mpi_sync (tables ps) = Ok ts /\ mpi_sync ts = Ok ts'
    /\ map (fun t => map (fun r => r evals_acquire) t) ts = [[nz 5]; [nz 5]]
    /\ map (fun t => map (fun r => r evals_acquire) t) ts' = [[nz 10]; [nz 10]].
Proof.
  exists [([], set_row nan_row evals_acquire (nz 2)); ([], set_row nan_row evals_acquire (nz 3))].
  eexists. eexists. split; [vm_compute; reflexivity|]. split; [vm_compute; reflexivity|]. split; vm_compute; reflexivity.
Qed.
Print Assumptions C89_sync.
Print Assumptions C89_single.
Print Assumptions C89_alone.
Print Assumptions C89_idempotent_refuted.
(** Three processes; only the first has evaluated the truth. *)
Example C89_example :
  let r k := fun c => match c with time_acquire => nz k | evals_acquire => nz (10 * k) | n_total => nz 12
                                 | evals_truth => if (k =? 1)%Z then nz 4 else NaN | _ => NaN end in
  exists ts, mpi_sync (tables [([nan_row], r 1%Z); ([nan_row], r 3%Z); ([nan_row], r 2%Z)]) = Ok ts
    /\ map (fun t => map (fun r => (r time_acquire, r evals_acquire, r evals_truth, r time_fit, r n_total)) t) ts
       = let l := [(NaN, NaN, NaN, NaN, NaN); (nz 3, nz 60, nz 4, NaN, nz 12)] in [l; l; l].
Proof. cbv zeta. eexists. split; [vm_compute; reflexivity|]. vm_compute. reflexivity. Qed.

(** ** C90: total times *)
(** Without gaps (but for the last value of the convergence time), totals are those of the recorded times. *)
Theorem C90_totals :
  forall c t r, Forall (fun r => isfin (r c) = true) t -> isfin (r c) = true \/ (c = time_convergence /\ r c = NaN) ->
    plot_total c (t ++ [r]) = Fin (finite_total (map (fun r => r c) (t ++ [r]))).
Proof.
  intros c t r Ht Hr. unfold plot_total, column. rewrite map_app. cbn [map]. rewrite last_last.
  assert (forall l, Forall (fun v => isfin v = true) l -> sum_list l = Fin (finite_total l)) as S.
  { intros l Hl. assert (filter isfin l = l) as El.
    { induction Hl as [|x l Hx Hl IH]; cbn; [auto|]. rewrite Hx, IH. auto. }
    rewrite <- El at 1. unfold sum_list, nz. rewrite sum_finite. f_equal. change (qc_of_Z 0) with (Q2Qc 0). ring. }
  assert (Forall (fun v => isfin v = true) (map (fun r => r c) t)) as Ht' by (apply Forall_map; auto).
  destruct Hr as [Hr|[-> Hr]].
  - rewrite isfin_notnan by auto. assert (Forall (fun v => isfin v = true) (map (fun r => r c) t ++ [r c])) as H by (apply Forall_app; auto).
    destruct (col_eqb c time_convergence); rewrite S by auto; reflexivity.
  - rewrite Hr. cbn [col_eqb isnan]. unfold replace_last. rewrite removelast_last, S by (apply Forall_app; auto).
    f_equal. assert (forall a b, finite_total (a ++ b) = Qcplus (finite_total a) (finite_total b)) as A.
    { clear. induction a as [|x a IH]; intros b; cbn; [ring|]. destruct x; auto. rewrite IH. ring. }
    rewrite !A. cbn [finite_total nz]. change (qc_of_Z 0) with (Q2Qc 0). ring.
Qed.
(** But any iteration without a value makes the total undefined: a re-sampling one has no truth evaluations. *)
Theorem C90_gap_refuted :
  forall c t1 r t2, r c = NaN -> c <> time_convergence \/ t2 <> [] -> plot_total c (t1 ++ r :: t2) = NaN.
Proof.
  intros c t1 r t2 Hr Hc. unfold plot_total, column.
  assert (forall l x, In NaN l -> fold_left nadd l x = NaN) as K.
  { assert (forall l, fold_left nadd l NaN = NaN) as K0 by (induction l; cbn; auto).
    induction l as [|y l IH]; intros x H; [destruct H|]. cbn. destruct H as [-> |H]; [|auto].
    replace (nadd x NaN) with NaN by (destruct x; reflexivity). apply K0. }
  unfold sum_list. apply K. rewrite map_app. cbn [map]. rewrite Hr.
  destruct (col_eqb c time_convergence) eqn:E; [|apply in_app_iff; right; left; auto].
  apply col_eqb_eq in E. destruct Hc as [Hc|Hc]; [congruence|].
  assert (In NaN (removelast (map (fun r => r c) t1 ++ NaN :: map (fun r => r c) t2))) as I.
  { destruct t2 as [|r2 t2]; [congruence|]. rewrite removelast_app by discriminate. apply in_app_iff. right. left. auto. }
  destruct (isnan _).
  - unfold replace_last. apply in_app_iff. left. auto.
  - apply in_app_iff. right. left. auto.
Qed.
Print Assumptions C90_totals.
Print Assumptions C90_gap_refuted.
(** Three iterations of which the second only re-samples. *)
Example C90_example :
  exists t, record_all (history [[AddTruth (nz 3) (nz 12)]; [AddAcquisition (nz 1) (nz 500)]; [AddTruth (nz 2) (nz 4)]]) new_table = Ok t
    /\ plot_total time_truth t = NaN /\ finite_total (map (fun r => r time_truth) t) = qc_of_Z 5.
Proof. eexists. split; [reflexivity|]. split; [reflexivity|]. apply Qc_is_canon. reflexivity. Qed.

(** ** C91: evaluation counts *)
Definition zsum (l : list Z) : Z := fold_right Z.add 0%Z l.
Lemma timer_evals_sum a : forall b, length a = length b -> timer_evals a b = (zsum b - zsum a)%Z.
Proof.
  unfold timer_evals.
  assert (forall l x, fold_left Z.add l x = (x + zsum l)%Z) as F by (induction l as [|y l IH]; intros x; unfold zsum in *; cbn [fold_left fold_right]; [lia|rewrite IH; lia]).
  intros b. rewrite F. revert b. induction a as [|x a IH]; intros [|y b] H; try discriminate; [reflexivity|].
  injection H as H. specialize (IH b H). cbn [combine map fst snd]. unfold zsum in *. cbn [fold_right]. lia.
Qed.
(** The counts of blocks that follow each other add up to no more than all evaluations made. [cs]: for each block, the counters of all surrogates on entering and leaving. *)
Inductive blocks (n : nat) : list Z -> list (list Z * list Z) -> list Z -> Prop :=
| B_end s e : length s = n -> length e = n -> Forall2 Z.le s e -> blocks n s [] e
| B_block s a b cs e : length s = n -> length a = n -> length b = n -> Forall2 Z.le s a -> Forall2 Z.le a b -> blocks n b cs e ->
    blocks n s ((a, b) :: cs) e.
Lemma zsum_le a b : Forall2 Z.le a b -> (zsum a <= zsum b)%Z.
Proof. unfold zsum. induction 1; cbn [fold_right]; lia. Qed.
Theorem C91_counts :
  forall n s cs e, blocks n s cs e ->
    (0 <= zsum (map (fun p => timer_evals (fst p) (snd p)) cs) <= zsum e - zsum s)%Z
    /\ Forall (fun p => 0 <= timer_evals (fst p) (snd p))%Z cs.
Proof.
  intros n s cs e H. induction H as [s e H1 H2 H|s a b cs e H1 H2 H3 H4 H5 H6 [I1 I2]].
  - apply zsum_le in H. cbn. split; [lia|constructor].
  - apply zsum_le in H4, H5. cbn [map fst snd zsum fold_right]. fold (zsum (map (fun p => timer_evals (fst p) (snd p)) cs)).
    rewrite timer_evals_sum by congruence. split; [lia|]. constructor; [|auto]. cbn [fst snd]. rewrite timer_evals_sum by congruence. lia.
Qed.
(** They add up to exactly all if there were none in between: each block starts where the previous one ended. *)
Fixpoint consecutive (s : list Z) (l : list (list Z)) : list (list Z * list Z) :=
  match l with [] => [] | b :: l => (s, b) :: consecutive b l end.
Theorem C91_exact :
  forall n l s, length s = n -> Forall (fun b => length b = n) l ->
    zsum (map (fun p => timer_evals (fst p) (snd p)) (consecutive s l)) = (zsum (last l s) - zsum s)%Z.
Proof.
  intros n. induction l as [|b l IH]; intros s Hs Hl; [unfold zsum; cbn [consecutive map fold_right last]; lia|].
  inversion Hl as [|? ? Hb Hl']; subst. cbn [consecutive map fst snd]. unfold zsum at 1. cbn [fold_right].
  fold (zsum (map (fun p => timer_evals (fst p) (snd p)) (consecutive b l))). rewrite IH by auto. rewrite timer_evals_sum by congruence.
  replace (last (b :: l) s) with (last l b); [lia|]. clear. revert b. induction l as [|y l IH]; intros b; [reflexivity|].
  transitivity (last l y); [|apply IH]. destruct l as [|z l]; [reflexivity|]. clear. revert z. induction l as [|w l IH]; intros z; [reflexivity|]. apply (IH w).
Qed.
(** The same surrogate given twice is counted twice. *)
Theorem C91_twice : forall a b, timer_evals [a; a] [b; b] = (2 * (b - a))%Z.
Proof. intros. rewrite timer_evals_sum by reflexivity. unfold zsum. cbn [fold_right]. lia. Qed.
Print Assumptions C91_counts.
Print Assumptions C91_exact.
Print Assumptions C91_twice.
Example C91_example :
  blocks 2 [0; 5]%Z [([0; 5], [7; 6]); ([8; 6], [9; 6])]%Z [9; 6]%Z
  /\ map (fun p => timer_evals (fst p) (snd p)) [([0; 5], [7; 6]); ([8; 6], [9; 6])]%Z = [8; 1]%Z.
Proof.
  split; [|reflexivity].
  apply B_block; [reflexivity..| | |apply B_block; [reflexivity..| | |apply B_end; [reflexivity..|]]]; repeat constructor; lia.
Qed.

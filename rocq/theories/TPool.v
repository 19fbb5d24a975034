(** Properties C29 to C35 (the ranked pool of proposals, gpry/gp_acquisition.py:1194-1670). *)
From Verif Require Import MPool SPool Argsort PPool PPool2 PPool3 PPool4 PPool5 PPool6.
Set Default Goal Selector "!".

(** ** A concrete surrogate and acquisition function for the examples: points are numbers, each
    conditioning point at distance at most 1 lowers the acquisition by 3. *)
Definition near (a b : nat) : bool := (a <=? S b) && (b <=? S a).
Definition ex_std (C : list (nat * num)) (x : nat) : num :=
  Fin (- (Q2Qc (inject_Z (Z.of_nat (3 * length (filter (fun c => near (fst c) x) C))))))%Qc.
Definition ex_mean (x : nat) : num := Fin (Q2Qc (inject_Z (Z.of_nat x))).
Definition ex_acq (y s : num) : num := nadd y s.
Definition F (z : Z) : num := Fin (Q2Qc (inject_Z z)).

Lemma ex_finite y C x : isnan y = false -> isnan (ex_acq y (ex_std C x)) = false.
Proof. destruct y; simpl; congruence. Qed.

Lemma ex_mono : forall C D x y, isnan y = false ->
  nleb (ex_acq y (ex_std (C ++ D) x)) (ex_acq y (ex_std C x)) = true.
Proof.
  intros C D x y Hy. unfold ex_acq, ex_std. rewrite filter_app, app_length.
  generalize (length (filter (fun c => near (fst c) x) C)) as a.
  generalize (length (filter (fun c => near (fst c) x) D)) as b. intros b a.
  assert (Q2Qc (inject_Z (Z.of_nat (3 * a))) <= Q2Qc (inject_Z (Z.of_nat (3 * (a + b)))))%Qc as K.
  { unfold Qcle. rewrite !this_Q2Qc. rewrite <- Zle_Qle. lia. }
  revert K. generalize (Q2Qc (inject_Z (Z.of_nat (3 * a)))) as u.
  generalize (Q2Qc (inject_Z (Z.of_nat (3 * (a + b))))) as v. intros v u K.
  destruct y; cbn [isnan nadd nleb] in *; auto. apply qleb_le. qc.
Qed.

(** ** C29 *)
(** After any sequence of additions one by one, in any order and with any offered values, to a
    new pool: the conditioned acquisition never increases down the list (so empty slots come
    last), and the spare slot is empty. *)
Lemma pool_sorted_total :
  forall pt std mean acqf argsort, argsort_ok argsort ->
  (forall C (x : pt) y, isnan (acqf y (std C x)) = false) ->
  forall x0 size ops p,
  Forall one_by_one ops -> Forall well_formed ops ->
  run std mean acqf argsort (new_pool x0 size) ops = Ok p ->
  length (pacqc p) = S size
  /\ (forall i j a b, i <= j -> nth_error (pacqc p) i = Some a -> nth_error (pacqc p) j = Some b ->
        nleb b a = true)
  /\ nth_error (pacqc p) size = Some NInf.
Proof.
  intros pt std mean acqf argsort Harg Hnn x0 size ops p Ho Hw H. rewrite new_pool_slots in H.
  destruct (run_inv pt std mean acqf argsort Harg Hnn size ops Ho Hw _ _ _ _ (new_inv pt std acqf x0 size) H)
    as (s & g & c & -> & HI).
  destruct (inv_shape HI) as [Hs Hg]. simpl. split; [rewrite map_length; auto|]. split.
  - intros i j a b Hij Ha Hb. rewrite nth_error_map in Ha, Hb.
    destruct (nth_error s i) as [t|] eqn:Et; [|discriminate]. destruct (nth_error s j) as [u|] eqn:Eu; [|discriminate].
    injection Ha as <-. injection Hb as <-. eapply (inv_sorted HI i j); eauto.
  - rewrite nth_error_map. destruct (nth_error s size) as [t|] eqn:Et.
    + simpl. f_equal. eapply (inv_last HI); eauto.
    + apply nth_error_None in Et. lia.
Qed.
Theorem C29_pool_sorted :
  forall pt std mean acqf argsort, argsort_ok argsort ->
  (forall C (x : pt) y, isnan y = false -> isnan (acqf y (std C x)) = false) ->
  forall x0 size ops p,
  Forall one_by_one ops -> Forall well_formed ops -> Forall (numeric std mean acqf) ops ->
  run std mean acqf argsort (new_pool x0 size) ops = Ok p ->
  length (pacqc p) = S size
  /\ (forall i j a b, i <= j -> nth_error (pacqc p) i = Some a -> nth_error (pacqc p) j = Some b ->
        nleb b a = true)
  /\ nth_error (pacqc p) size = Some NInf.
Proof.
  intros pt std mean acqf argsort Harg Hnn x0 size ops p Ho Hw Hn H.
  rewrite (proj1 (run_same std mean acqf (guard acqf) argsort (guard_agree acqf) ops _ (new_yok x0 size) Hw Hn)) in H.
  eapply pool_sorted_total; eauto. apply guard_nn; auto.
Qed.
Print Assumptions C29_pool_sorted.

(** The same when the first call is a bulk addition, as in NORA's merge of the pools, if
    conditioning never increases the acquisition. *)
Lemma pool_sorted_bulk_first_total :
  forall pt std mean acqf argsort, argsort_ok argsort ->
  (forall C D (x : pt) y, nleb (acqf y (std (C ++ D) x)) (acqf y (std C x)) = true) ->
  forall x0 size X y sigma acq ops p, 0 < size ->
  let first := AddMany X y sigma acq Bulk in
  well_formed first -> own_acquisition std mean acqf first ->
  Forall one_by_one ops -> Forall well_formed ops ->
  run std mean acqf argsort (new_pool x0 size) (first :: ops) = Ok p ->
  length (pacqc p) = S size
  /\ (forall i j a b, i <= j -> nth_error (pacqc p) i = Some a -> nth_error (pacqc p) j = Some b ->
        nleb b a = true)
  /\ nth_error (pacqc p) size = Some NInf.
Proof.
  intros pt std mean acqf argsort Harg Hmono x0 size X y sigma acq ops p Hsz first Hw1 Hown Ho Hw H.
  cbn [run] in H.
  destruct (bulk_new pt std mean acqf argsort Hmono x0 size X y sigma acq Hsz Hw1 Hown)
    as (s0 & g0 & c0 & E & HM & _).
  unfold first in H. rewrite E in H. cbn [bind] in H.
  destruct (run_inv pt std mean acqf argsort Harg (mono_nn pt std acqf Hmono) size ops Ho Hw _ _ _ _ (invm_inv _ _ _ _ _ _ HM) H)
    as (s & g & c & -> & HI).
  destruct (inv_shape HI) as [Hs Hg]. simpl. split; [rewrite map_length; auto|]. split.
  - intros i j a b Hij Ha Hb. rewrite nth_error_map in Ha, Hb.
    destruct (nth_error s i) as [t|] eqn:Et; [|discriminate]. destruct (nth_error s j) as [u|] eqn:Eu; [|discriminate].
    injection Ha as <-. injection Hb as <-. eapply (inv_sorted HI i j); eauto.
  - rewrite nth_error_map. destruct (nth_error s size) as [t|] eqn:Et.
    + simpl. f_equal. eapply (inv_last HI); eauto.
    + apply nth_error_None in Et. lia.
Qed.
Theorem C29_pool_sorted_bulk_first :
  forall pt std mean acqf argsort, argsort_ok argsort ->
  (forall C D (x : pt) y, isnan y = false ->
     nleb (acqf y (std (C ++ D) x)) (acqf y (std C x)) = true) ->
  forall x0 size X y sigma acq ops p, 0 < size ->
  let first := AddMany X y sigma acq Bulk in
  well_formed first -> numeric std mean acqf first -> own_acquisition std mean acqf first ->
  Forall one_by_one ops -> Forall well_formed ops -> Forall (numeric std mean acqf) ops ->
  run std mean acqf argsort (new_pool x0 size) (first :: ops) = Ok p ->
  length (pacqc p) = S size
  /\ (forall i j a b, i <= j -> nth_error (pacqc p) i = Some a -> nth_error (pacqc p) j = Some b ->
        nleb b a = true)
  /\ nth_error (pacqc p) size = Some NInf.
Proof.
  intros pt std mean acqf argsort Harg Hm x0 size X y sigma acq ops p Hsz first Hw1 Hn1 Hown Ho Hw Hn H.
  rewrite (proj1 (run_same std mean acqf (guard acqf) argsort (guard_agree acqf) (first :: ops) _ (new_yok x0 size)
    (Forall_cons _ Hw1 Hw) (Forall_cons _ Hn1 Hn))) in H.
  eapply (pool_sorted_bulk_first_total pt std mean (guard acqf)); eauto; [apply guard_mono; auto|apply guard_own; auto].
Qed.
Print Assumptions C29_pool_sorted_bulk_first.
Definition ex_ops : list (op nat) :=
  [AddMany [5; 9; 4; 1] None None None SortAcq; AddOne 7 None None (Some (F 7)) false;
   AddOne 3 None None (Some NaN) true; AddMany [2; 10] (Some [F 20; F 1]) None None Single].
Example C29_case :
  Forall one_by_one ex_ops /\ Forall well_formed ex_ops /\
  exists p, run ex_std ex_mean ex_acq stable_argsort (new_pool 0 3) ex_ops = Ok p /\
    pX p = [2; 9; 7; 5] /\ pacqc p = [F 20; F 9; F 7; NInf].
Proof.
  split; [repeat constructor|]. split; [repeat constructor|]. eexists. split; [vm_compute; reflexivity|].
  split; reflexivity.
Qed.
Ltac all_numeric := repeat (apply Forall_cons; [intros ? ? ? ? H_; vm_compute in H_;
  repeat (destruct H_ as [H_|H_]; [injection H_ as <- <- <- <-; reflexivity|]); destruct H_|]); apply Forall_nil.
(** The means are numbers, and the acquisition of a number is one ([ex_finite]) and does not grow ([ex_mono]). *)
Example C29_case_numeric : Forall (numeric ex_std ex_mean ex_acq) ex_ops.
Proof. all_numeric. Qed.
Example C29_case_bulk :
  exists p, run ex_std ex_mean ex_acq stable_argsort (new_pool 0 3)
              (AddMany [5; 9; 4; 1] None None None Bulk :: ex_ops) = Ok p /\
    pX p = [2; 9; 7; 9] /\ pacqc p = [F 20; F 9; F 7; NInf].
Proof. eexists. split; [vm_compute; reflexivity|]. split; reflexivity. Qed.

(** The hypothesis on NaN is needed: if the acquisition of a conditioned surrogate is NaN, the
    pool stores it and is no longer ordered. *)
Definition nan_acq (y s : num) : num := if neqb s (F (-3)) then NaN else nadd y s.
Theorem C29_nan_acquisition_refuted :
  exists p a b, run ex_std ex_mean nan_acq stable_argsort (new_pool 0 3)
                  [AddMany [8; 9] None None None Single] = Ok p
  /\ nth_error (pacqc p) 0 = Some a /\ nth_error (pacqc p) 1 = Some b /\ nleb b a = false.
Proof. do 3 eexists. split; [vm_compute; reflexivity|]. split; [reflexivity|]. split; reflexivity. Qed.
Print Assumptions C29_nan_acquisition_refuted.

(** Refuted for a bulk addition to a pool that holds points, which overwrites its top. *)
Theorem C29_bulk_on_nonempty_pool_refuted :
  exists p, run ex_std ex_mean ex_acq stable_argsort (new_pool 0 2)
       [AddOne 10 None None (Some (F 10)) false; AddOne 7 None None (Some (F 7)) false; AddMany [5] None None None Bulk] = Ok p
    /\ pacqc p = [F 5; F 7; NInf].
Proof. eexists. split; [vm_compute; reflexivity|]. reflexivity. Qed.
Print Assumptions C29_bulk_on_nonempty_pool_refuted.

(** ** C30 *)
(** Whatever the calls (bulk or not, on any surrogate and acquisition, NaN included), what the
    pool holds is a sub-multiset of what was offered: each entry carries the mean, sigma and
    acquisition it was offered with, and appears at most as often as it was offered. *)
Theorem C30_pool_contents :
  forall pt std mean acqf argsort, argsort_ok argsort ->
  forall (x0 : pt) size ops p, 0 < size -> Forall well_formed ops ->
  run std mean acqf argsort (new_pool x0 size) ops = Ok p ->
  exists dropped, Permutation (held p ++ dropped) (flat_map (offered std mean acqf) ops).
Proof.
  intros pt std mean acqf argsort Harg x0 size ops p Hsz Hw H. rewrite new_pool_slots in H.
  assert (shaped size (repeat (mkSlot x0 (Fin 0) (Fin 0) (Fin 0) NInf) (S size)) (repeat None (S size))) as Hs.
  { split; apply repeat_length. }
  destruct (run_contents pt std mean acqf argsort Harg size ops Hsz Hw _ _ _ _ Hs H) as (s & g & c & -> & _ & (r & Hr)).
  exists r. rewrite held_slots. rewrite Hr.
  assert (contents (repeat (mkSlot x0 (Fin 0) (Fin 0) (Fin 0) NInf) (S size)) = []) as ->.
  { unfold contents, occ. generalize (S size) as n. induction n; simpl; auto. }
  rewrite app_nil_r. reflexivity.
Qed.
Print Assumptions C30_pool_contents.
(** Distinct offers stay distinct. *)
Theorem C30_no_duplicates :
  forall pt std mean acqf argsort, argsort_ok argsort ->
  forall (x0 : pt) size ops p, 0 < size -> Forall well_formed ops ->
  run std mean acqf argsort (new_pool x0 size) ops = Ok p ->
  NoDup (map (fun e => fst (fst (fst e))) (flat_map (offered std mean acqf) ops)) ->
  NoDup (map (fun e => fst (fst (fst e))) (held p)).
Proof.
  intros pt std mean acqf argsort Harg x0 size ops p Hsz Hw H Hnd.
  destruct (C30_pool_contents pt std mean acqf argsort Harg x0 size ops p Hsz Hw H) as (d & Hd).
  apply (Permutation_map (fun e => fst (fst (fst e)))) in Hd. rewrite <- Hd in Hnd.
  rewrite map_app in Hnd. revert Hnd.
  generalize (map (fun e : pt * num * num * num => fst (fst (fst e))) d) as k. intros k.
  induction (map (fun e : pt * num * num * num => fst (fst (fst e))) (held p)) as [|e l IH]; intros Hnd; [constructor|].
  inversion Hnd as [|e' l' Hin Hnd']; subst. constructor; [|apply IH; auto].
  intros Hl. apply Hin. apply in_or_app; auto.
Qed.
Print Assumptions C30_no_duplicates.
Example C30_case :
  exists p, run ex_std ex_mean ex_acq stable_argsort (new_pool 0 3) ex_ops = Ok p /\
    held p = [(2, F 20, ex_std [] 2, F 20); (9, F 9, ex_std [] 9, F 9); (7, F 7, ex_std [] 7, F 7)] /\
    length (flat_map (offered ex_std ex_mean ex_acq) ex_ops) = 8.
Proof. eexists. split; [vm_compute; reflexivity|]. split; reflexivity. Qed.

(** ** C31 *)
(** Every occupied slot stores at most its acquisition under the surrogate augmented with the
    points above it (for the top slot: at most the acquisition it was offered with), and the
    cached surrogates are those of the current pool. *)
Lemma conditioned_on_points_above_total :
  forall pt std mean acqf argsort, argsort_ok argsort ->
  (forall C (x : pt) y, isnan (acqf y (std C x)) = false) ->
  forall x0 size ops p,
  Forall one_by_one ops -> Forall well_formed ops ->
  run std mean acqf argsort (new_pool x0 size) ops = Ok p ->
  forall i x y s a c, i < size -> slot_at p i = Some (x, y, s, a, c) -> c <> NInf ->
  (if i =? 0 then nleb c a = true else nleb c (acqf y (std (above p i) x)) = true)
  /\ (S i < size -> nth_error (gcond p) i = Some (Some (above p (S i)))).
Proof.
  intros pt std mean acqf argsort Harg Hnn x0 size ops p Ho Hw H i x y s a c Hi Hsl Hc.
  rewrite new_pool_slots in H.
  destruct (run_inv pt std mean acqf argsort Harg Hnn size ops Ho Hw _ _ _ _ (new_inv pt std acqf x0 size) H)
    as (l & g & k & -> & HI).
  rewrite slot_at_slots in Hsl. rewrite !above_slots. simpl gcond.
  destruct (nth_error l i) as [t|] eqn:Et; [|discriminate]. injection Hsl as <- <- <- <- <-. split.
  - destruct (Nat.eqb_spec i 0) as [->|].
    + apply (inv_top HI); auto.
    + apply (inv_cond HI i); auto. lia.
  - intros HS. apply (inv_cache HI i t); auto.
Qed.
Theorem C31_conditioned_on_points_above :
  forall pt std mean acqf argsort, argsort_ok argsort ->
  (forall C (x : pt) y, isnan y = false -> isnan (acqf y (std C x)) = false) ->
  forall x0 size ops p,
  Forall one_by_one ops -> Forall well_formed ops -> Forall (numeric std mean acqf) ops ->
  run std mean acqf argsort (new_pool x0 size) ops = Ok p ->
  forall i x y s a c, i < size -> slot_at p i = Some (x, y, s, a, c) -> c <> NInf ->
  (if i =? 0 then nleb c a = true else nleb c (acqf y (std (above p i) x)) = true)
  /\ (S i < size -> nth_error (gcond p) i = Some (Some (above p (S i)))).
Proof.
  intros pt std mean acqf argsort Harg Hnn x0 size ops p Ho Hw Hn H i x y s a c Hi Hs Hc.
  pose proof (run_same std mean acqf (guard acqf) argsort (guard_agree acqf) ops _ (new_yok x0 size) Hw Hn) as [E Hy].
  specialize (Hy p H). rewrite E in H.
  destruct (conditioned_on_points_above_total pt std mean (guard acqf) argsort Harg (guard_nn std acqf Hnn) x0 size ops p Ho Hw H
    i x y s a c Hi Hs Hc) as [K L]. split; [|exact L]. destruct (i =? 0); [exact K|].
  unfold guard in K. rewrite (yok_slot p i x y s a c Hy Hs) in K. exact K.
Qed.
Print Assumptions C31_conditioned_on_points_above.

(** When conditioning never increases the acquisition and the offered acquisitions are those of
    the surrogate, the stored values are exact and the order is the greedy one: no entry below a
    slot would have ranked better in it. Also after an initial bulk addition. *)
Lemma invM_exact_greedy {pt} std acqf n (s : list (slot pt)) g c : InvM pt std acqf n s g ->
  exact_and_greedy std acqf n (of_slots s g c).
Proof.
  intros HM i x y sd a cc Hi Hsl Hc. rewrite slot_at_slots in Hsl. rewrite above_slots.
  destruct (nth_error s i) as [t|] eqn:Et; [|discriminate]. injection Hsl as <- <- <- <- <-. split.
  - apply (invm_exact _ _ _ _ _ _ HM i Hi t); auto.
  - intros j x' y' s' a' c' Hij Hj Hslj Hc'. rewrite slot_at_slots in Hslj.
    destruct (nth_error s j) as [u|] eqn:Eu; [|discriminate]. injection Hslj as <- <- <- <- <-.
    apply (invm_greedy _ _ _ _ _ _ HM i j Hij Hj t u); auto.
Qed.
Lemma reach_invM {pt} std mean acqf argsort (Harg : argsort_ok argsort) :
  (forall C D (x : pt) y, nleb (acqf y (std (C ++ D) x)) (acqf y (std C x)) = true) ->
  forall x0 size ops p, 0 < size ->
  bulk_only_first ops -> Forall well_formed ops -> Forall (own_acquisition std mean acqf) ops ->
  run std mean acqf argsort (new_pool x0 size) ops = Ok p ->
  exists s g c, p = of_slots s g c /\ InvM pt std acqf size s g.
Proof.
  intros Hm x0 size ops p Hsz Ho Hw Hown H.
  destruct ops as [|o ops].
  { injection H as <-. rewrite new_pool_slots. do 3 eexists. split; [reflexivity|]. apply new_invM. }
  unfold bulk_only_first in Ho. cbn [tl] in Ho. inversion Hw as [|? ? Hw1 Hw2]; inversion Hown as [|? ? Hown1 Hown2]; subst.
  assert ((exists X y sg acq, o = AddMany X y sg acq Bulk) \/ one_by_one o) as [(X & y & sg & acq & ->)|Ho1].
  { destruct o as [|X y sg acq []]; simpl; auto. left. eauto. }
  - cbn [run] in H. destruct (bulk_new pt std mean acqf argsort Hm x0 size X y sg acq) as (s0 & g0 & c0 & E & HM & _); auto.
    rewrite E in H. cbn [bind] in H.
    eapply (run_invM pt std mean acqf argsort Harg Hm size ops); eauto.
  - rewrite new_pool_slots in H.
    eapply (run_invM pt std mean acqf argsort Harg Hm size (o :: ops)); eauto. apply new_invM.
Qed.
Lemma exact_total :
  forall pt std mean acqf argsort, argsort_ok argsort ->
  (forall C D (x : pt) y, nleb (acqf y (std (C ++ D) x)) (acqf y (std C x)) = true) ->
  forall x0 size ops p, 0 < size ->
  bulk_only_first ops -> Forall well_formed ops -> Forall (own_acquisition std mean acqf) ops ->
  run std mean acqf argsort (new_pool x0 size) ops = Ok p ->
  exact_and_greedy std acqf size p.
Proof.
  intros pt std mean acqf argsort Harg Hm x0 size ops p Hsz Ho Hw Hown H.
  destruct (reach_invM std mean acqf argsort Harg Hm x0 size ops p Hsz Ho Hw Hown H) as (s & g & c & -> & HM).
  apply invM_exact_greedy; auto.
Qed.
(** The cached surrogates also after an initial bulk addition. *)
Theorem C31_conditioned_on_points_above_bulk_first :
  forall pt std mean acqf argsort, argsort_ok argsort ->
  (forall C D (x : pt) y, isnan y = false -> nleb (acqf y (std (C ++ D) x)) (acqf y (std C x)) = true) ->
  forall x0 size ops p, 0 < size ->
  bulk_only_first ops -> Forall well_formed ops -> Forall (numeric std mean acqf) ops -> Forall (own_acquisition std mean acqf) ops ->
  run std mean acqf argsort (new_pool x0 size) ops = Ok p ->
  forall i x y s a c, i < size -> slot_at p i = Some (x, y, s, a, c) -> c <> NInf -> S i < size ->
  nth_error (gcond p) i = Some (Some (above p (S i))).
Proof.
  intros pt std mean acqf argsort Harg Hm x0 size ops p Hsz Ho Hw Hn Hown H i x y s a c Hi Hsl Hc HS.
  rewrite (proj1 (run_same std mean acqf (guard acqf) argsort (guard_agree acqf) ops _ (new_yok x0 size) Hw Hn)) in H.
  destruct (reach_invM std mean (guard acqf) argsort Harg (guard_mono std acqf Hm) x0 size ops p Hsz Ho Hw (guard_own_all std mean acqf ops Hn Hown) H)
    as (l & g & k & -> & HM). pose proof (invm_inv _ _ _ _ _ _ HM) as HI.
  rewrite slot_at_slots in Hsl. rewrite above_slots. simpl gcond.
  destruct (nth_error l i) as [t|] eqn:Et; [|discriminate]. injection Hsl as <- <- <- <- <-. apply (inv_cache HI i t); auto.
Qed.
Print Assumptions C31_conditioned_on_points_above_bulk_first.
Theorem C31_exact :
  forall pt std mean acqf argsort, argsort_ok argsort ->
  (forall C D (x : pt) y, isnan y = false ->
     nleb (acqf y (std (C ++ D) x)) (acqf y (std C x)) = true) ->
  forall x0 size ops p, 0 < size ->
  bulk_only_first ops -> Forall well_formed ops -> Forall (numeric std mean acqf) ops -> Forall (own_acquisition std mean acqf) ops ->
  run std mean acqf argsort (new_pool x0 size) ops = Ok p ->
  exact_and_greedy std acqf size p.
Proof.
  intros pt std mean acqf argsort Harg Hm x0 size ops p Hsz Ho Hw Hn Hown H.
  pose proof (run_same std mean acqf (guard acqf) argsort (guard_agree acqf) ops _ (new_yok x0 size) Hw Hn) as [E Hy].
  specialize (Hy p H). rewrite E in H. apply guard_greedy; auto.
  exact (exact_total pt std mean (guard acqf) argsort Harg (guard_mono std acqf Hm) x0 size ops p Hsz Ho Hw (guard_own_all std mean acqf ops Hn Hown) H).
Qed.
Print Assumptions C31_exact.
(** [ex_ops] without the call with a NaN acquisition. *)
Definition ex_ops2 : list (op nat) :=
  [AddMany [5; 9; 4; 1] None None None SortAcq; AddOne 10 None None (Some (F 10)) false].
Example C31_case :
  Forall (numeric ex_std ex_mean ex_acq) ex_ops2 /\
  bulk_only_first ex_ops2 /\ Forall well_formed ex_ops2 /\
  Forall (own_acquisition ex_std ex_mean ex_acq) ex_ops2 /\
  exists p, run ex_std ex_mean ex_acq stable_argsort (new_pool 0 3) ex_ops2 = Ok p /\
    pX p = [10; 9; 5; 4] /\ pacqc p = [F 10; F 6; F 5; NInf].
Proof.
  split; [all_numeric|].
  split; [repeat constructor|]. split; [repeat constructor|]. split.
  - apply Forall_cons; [|apply Forall_cons; [|apply Forall_nil]]; intros x m s a H; cbn in H; repeat (destruct H as [H|H]; [inversion H; subst; split; [vm_compute; reflexivity|discriminate]|]); destruct H.
  - eexists. split; [vm_compute; reflexivity|]. split; reflexivity.
Qed.

(** After [reset_cache] the pool still has its points, but it cannot take another that ranks between them: [add_one] raises
    AttributeError, as there is no surrogate for the points above. *)
Theorem C31_after_reset : forall pt std mean acqf argsort (p : pool pt) x y s a top mn,
  length (pX p) = length (pacqc p) -> S (plen p) = length (pacqc p) ->
  nth_error (pacqc p) 0 = Some top -> nleb a top = true -> min_acq p = Ok mn -> nleb a mn = false ->
  pX (reset_cache p) = pX p /\ pacqc (reset_cache p) = pacqc p /\
  add_one std mean acqf argsort (reset_cache p) x (Some y) (Some s) (Some a) false = Err AttributeError.
Proof.
  intros pt std mean acqf argsort p x y s a top mn HX HL Ht Hat Hm Ham. split; [reflexivity|]. split; [reflexivity|].
  set (q := reset_cache p). assert (min_acq q = Ok mn) as Emn by exact Hm.
  assert (isnan a = false) as Hna by (destruct a; auto; destruct top; discriminate).
  unfold add_one. rewrite Emn. cbn [bind]. rewrite Ham. unfold add_one_core. rewrite Emn. cbn [bind]. rewrite Ham, Hna. cbn [andb negb].
  assert (plen q <= length (pacqc q)) as Hl by (change (plen p <= length (pacqc p)); lia).
  destruct (position_spec q a Hl) as (P1 & P2 & P3). change (plen q) with (plen p) in *. change (pacqc q) with (pacqc p) in *.
  unfold min_acq in Hm. destruct (nth_error (pacqc p) (plen p - 1)) as [m|] eqn:Em; [|discriminate]. injection Hm as ->.
  assert (plen p <> 0) as Hz by (intros Z; rewrite Z in Em; change (0 - 1) with 0 in Em; congruence).
  assert (position q a <> 0) as N0 by (intros E; rewrite (P3 0 top) in Hat; auto; [discriminate|rewrite E; auto|lia]).
  assert (position q a <> plen p) as Nn by (intros E; destruct P2 as [P2|(c & Hc & Hac)]; [lia|]; rewrite E in Hc; congruence).
  cbn [rerank]. apply Nat.eqb_neq in N0, Nn. change (plen q) with (plen p). rewrite N0, Nn. cbn [orb].
  assert (get (gcond q) (position q a - 1) = Ok None) as ->; [|reflexivity].
  unfold get. change (gcond q) with (repeat (@None (list (pt * num))) (length (pX p))). rewrite (nth_error_repeat None); [reflexivity|]. apply Nat.eqb_neq in N0, Nn. lia.
Qed.
Print Assumptions C31_after_reset.
Example C31_reset_case :
  exists p, run ex_std ex_mean ex_acq stable_argsort (new_pool 0 3) ex_ops2 = Ok p /\
    (exists p', add_one ex_std ex_mean ex_acq stable_argsort p 7 (Some (F 7)) (Some (F 0)) (Some (F 7)) false = Ok p' /\ pX p' = [10; 7; 9; 5]) /\
    add_one ex_std ex_mean ex_acq stable_argsort (reset_cache p) 7 (Some (F 7)) (Some (F 0)) (Some (F 7)) false = Err AttributeError.
Proof.
  eexists. split; [vm_compute; reflexivity|]. split; [eexists; split; [vm_compute; reflexivity|reflexivity]|vm_compute; reflexivity].
Qed.

(** ** C32 *)
Lemma nof_bind {A B} (r : res A) (f : A -> res B) : r <> Err OutOfFuel ->
  (forall a, r = Ok a -> f a <> Err OutOfFuel) -> bind r f <> Err OutOfFuel.
Proof. intros H1 H2. destruct r as [a|e]; simpl; [auto|congruence]. Qed.
Lemma nof_get {A} (l : list A) i : get l i <> Err OutOfFuel.
Proof. unfold get. destruct (nth_error l i); congruence. Qed.
Lemma nof_set {A} (l : list A) i v : set l i v <> Err OutOfFuel.
Proof. unfold set. destruct (i <? length l); congruence. Qed.
Lemma nof_slice {A} (l : list A) a b v : set_slice l a b v <> Err OutOfFuel.
Proof. unfold set_slice. destruct (_ =? _); congruence. Qed.
Lemma nof_take {A} (l : list A) idx : take l idx <> Err OutOfFuel.
Proof.
  induction idx as [|i idx IH]; simpl; [congruence|]. apply nof_bind; [apply nof_get|].
  intros a _. apply nof_bind; auto. congruence.
Qed.
Lemma nof_cache {pt} (p : pool pt) i : cache_model_above p i <> Err OutOfFuel.
Proof. destruct i; simpl; [congruence|]. apply nof_bind; [apply nof_set|congruence]. Qed.
Lemma nof_sort {pt} std acqf argsort : forall k i (p : pool pt), sort_ std acqf argsort k i p <> Err OutOfFuel.
Proof.
  induction k as [|k IH]; intros i p; cbn [sort_]; [congruence|].
  apply nof_bind; [apply nof_cache|]. intros [m p'] _.
  apply nof_bind; [apply nof_get|]. intros a _. destruct (is_ninf a); [congruence|].
  apply nof_bind; [destruct i; [congruence|apply nof_get]|]. intros ub _. cbv zeta.
  apply nof_bind; [apply nof_get|]. intros j0 _.
  apply nof_bind; [apply nof_get|]. intros amax _. destruct (is_ninf amax).
  - apply nof_bind; [apply nof_slice|congruence].
  - repeat (apply nof_bind; [apply nof_bind; [apply nof_take|intros; apply nof_slice]|intros ? _]). apply IH.
Qed.

(** The re-ranking loop makes at most pool-size + 1 rounds (the fuel given to it in the model),
    whatever the pool holds and whatever the acquisition function returns, NaN included. *)
Theorem C32_add_one_terminates :
  forall pt std mean acqf argsort (p : pool pt) x y sigma acq nan_is_null,
  length (pacqc p) = length (py p) ->
  add_one std mean acqf argsort p x y sigma acq nan_is_null <> Err OutOfFuel.
Proof.
  intros pt std mean acqf argsort p x y sigma [a|] nn Hl; [|discriminate].
  rewrite add_one_eq. destruct (filled std mean x y sigma) as [m sd]. unfold add_one_core.
  apply nof_bind.
  { unfold min_acq. destruct (nth_error _ _); congruence. }
  intros mn _. destruct (nleb a mn); [congruence|]. destruct (isnan a && negb nn); [congruence|].
  cbv zeta. apply nof_bind.
  { apply (rerank_fuel std acqf p x m) with (L := 0); [unfold plen; lia|auto|lia]. }
  intros [q ac] _. destruct (plen p <=? q); [congruence|].
  apply nof_bind; [apply nof_get|]. intros a' _. destruct (nltb NInf a'); [|simpl; congruence]. simpl negb. cbv iota.
  apply nof_bind; [apply nof_sort|]. intros p2 _. apply nof_bind; [apply nof_set|congruence].
Qed.
Print Assumptions C32_add_one_terminates.
(** So a sequence of calls on a pool of positive size never runs out of fuel. *)
Theorem C32_calls_terminate :
  forall pt std mean acqf argsort, argsort_ok argsort ->
  forall (x0 : pt) size ops, 0 < size -> Forall well_formed ops ->
  run std mean acqf argsort (new_pool x0 size) ops <> Err OutOfFuel.
Proof.
  intros pt std mean acqf argsort Harg x0 size ops Hsz Hw. rewrite new_pool_slots.
  assert (shaped size (repeat (mkSlot x0 (Fin 0) (Fin 0) (Fin 0) NInf) (S size)) (repeat None (S size))) as Hs.
  { split; apply repeat_length. }
  revert Hs. generalize (repeat (mkSlot x0 (Fin 0) (Fin 0) (Fin 0) NInf) (S size)) as s.
  generalize (@repeat (option (list (pt * num))) None (S size)) as g. generalize 0 as c.
  induction Hw as [|o ops Ho Hops IH]; intros c g s Hs; cbn [run]; [congruence|].
  assert (forall n s g c t, shaped n s g ->
     add_one_core std acqf argsort (of_slots s g c) (sx t) (sy t) (ss t) (sa t) false <> Err OutOfFuel) as Hone.
  { intros n s1 g1 c1 t [Hl _].
    pose proof (C32_add_one_terminates pt std mean acqf argsort (of_slots s1 g1 c1) (sx t) (Some (sy t)) (Some (ss t)) (Some (sa t)) false) as K.
    rewrite add_one_eq in K. apply K. simpl. rewrite !map_length. auto. }
  apply nof_bind.
  - destruct o as [x y sg a nn|X y sg acq m].
    + cbn [step]. apply C32_add_one_terminates. simpl. rewrite !map_length. auto.
    + cbn [step]. rewrite add_eq by auto. cbv zeta. set (cs := tuple_slots _ _).
      assert (forall idx, add_each std mean acqf argsort (of_slots s g c) (map sx cs) (map sy cs) (map ss cs) (map sa cs) idx <> Err OutOfFuel) as K.
      { intros idx. clear - Hs Harg Hone. revert s g c Hs. induction idx as [|i idx IH]; intros s g c Hs; [simpl; congruence|].
        rewrite add_each_cons. destruct (nth_error cs i) as [t|]; [|congruence].
        apply nof_bind; [apply (Hone size); auto|]. intros p' E.
        apply (add_one_core_slots pt std acqf argsort Harg size) in E as (s' & g' & c' & -> & Hs' & _); auto. }
      destruct m; try congruence; auto.
      destruct Hs as [H1 H2].
      destruct (bulk_ok pt std acqf (S (length cs)) 0 s g c cs) as (s' & g' & c' & -> & _); [lia|lia|lia|congruence].
  - intros p' E. apply (step_contents pt std mean acqf argsort Harg size) in E as (s' & g' & c' & -> & Hs' & _); auto.
Qed.
Print Assumptions C32_calls_terminate.
Example C32_case : (* every slot and every conditioned acquisition NaN *)
  exists e, add_one (fun _ _ => NaN) ex_mean (fun _ _ => NaN) stable_argsort
     (mkPool [1; 2; 3] [NaN; NaN; NaN] [NaN; NaN; NaN] [NaN; NaN; NaN] [NaN; NaN; NaN] [Some []; Some []; Some []] 0)
     5 (Some NaN) (Some NaN) (Some (F 1)) true = e /\ e <> Err OutOfFuel.
Proof. eexists. split; [vm_compute; reflexivity|]. discriminate. Qed.

(** ** C33 *)
(** The copy without empty slots of a pool that has some keeps exactly the occupied ones, in
    order; the copy of a full pool is the pool. In both cases the first [size] slots of the copy
    are occupied and equal to those of the pool. *)
Lemma drop_empty_inv pt std acqf size (s : list (slot pt)) g c : Inv std acqf size s g ->
  let p := of_slots s g c in let q := copy_pool p true in
  held q = held p
  /\ (forall i, i < length (held p) -> slot_at q i = slot_at p i)
  /\ (forall i e, i < size -> slot_at q i = Some e -> snd e <> NInf)
  /\ (length (held p) < size -> length (pX q) = length (held p)).
Proof.
  intros HI p q. subst p.
  destruct (inv_shape HI) as [Hs _]. pose proof (inv_sorted HI) as Hso.
  set (m := first_inf s).
  assert (m <= size) as Hm.
  { destruct (Nat.le_gt_cases m size) as [|Hgt]; auto. exfalso.
    destruct (nth_error s size) as [t|] eqn:Et; [|apply nth_error_None in Et; lia].
    apply (first_inf_below pt s size t Hgt Et). apply (inv_last HI). auto. }
  assert (contents s = map strip (firstn m s)) as Hcon.
  { rewrite <- (firstn_skipn m s) at 1. rewrite contents_app.
    rewrite (contents_all pt (firstn m s)).
    2:{ intros t Ht. apply In_nth_error in Ht as [j Hj]. assert (j < m) as Hjm.
        { apply nth_lt in Hj. rewrite firstn_length in Hj. lia. }
        rewrite nth_error_firstn in Hj by auto. eapply first_inf_below; eauto. }
    assert (contents (skipn m s) = []) as ->; [|apply app_nil_r].
    assert (forall t, In t (skipn m s) -> sc t = NInf) as K.
    { intros t Ht. apply In_nth_error in Ht as [j Hj]. rewrite nth_error_skipn' in Hj.
      apply (sorted_after_inf pt s (m + j)); auto. unfold m. lia. }
    unfold contents, occ. induction (skipn m s) as [|a l IH]; auto. simpl. rewrite (K a) by (left; auto).
    simpl. apply IH. intros; apply K; right; auto. }
  assert (length (contents s) = m) as Hlen.
  { rewrite Hcon, map_length, firstn_length. lia. }
  assert (m < size /\ q = of_slots (firstn m s) [] c \/ m = size /\ q = of_slots s [] c) as Hq.
  { assert (q = match find_idx (fun x => is_ninf (sc x)) (firstn size s) with
                 | Some i => of_slots (firstn i s) [] c | None => of_slots s [] c end) as ->.
    { unfold q, copy_pool. change (pacqc (of_slots s g c)) with (map sc s).
      rewrite removelast_firstn', map_length, firstn_map, find_idx_map.
      replace (length s - 1) with size by lia.
      destruct (find_idx (fun x => is_ninf (sc x)) (firstn size s)) as [i|]; auto.
      unfold of_slots. cbn [pX py psig pacq pacqc counter]. rewrite !firstn_map. reflexivity. }
    destruct (find_idx (fun x => is_ninf (sc x)) (firstn size s)) as [i|] eqn:Ei.
    - left. apply find_idx_some in Ei as [(t & Ht & Hi) Hbefore].
      assert (i < size) as Hisz. { apply nth_lt in Ht. rewrite firstn_length in Ht. lia. }
      rewrite nth_error_firstn in Ht by auto. apply is_ninf_true in Hi.
      assert (i = m) as ->.
      { destruct (Nat.lt_total i m) as [Hlt|[|Hgt]]; auto; exfalso.
        - apply (first_inf_below pt s i t Hlt Ht Hi).
        - destruct (nth_error s m) as [u|] eqn:Eu; [|apply nth_error_None in Eu; lia].
          assert (is_ninf (sc u) = false) as K; [apply (Hbefore m); [lia|rewrite nth_error_firstn by lia; auto]|].
          apply first_inf_at in Eu. rewrite Eu in K. discriminate. }
      split; auto.
    - right. split; auto. destruct (Nat.eq_dec m size) as [|Hne]; auto. exfalso.
      destruct (nth_error s m) as [u|] eqn:Eu; [|apply nth_error_None in Eu; lia].
      pose proof (find_idx_none _ _ Ei m u) as K. rewrite nth_error_firstn in K by lia. specialize (K Eu).
      apply first_inf_at in Eu. rewrite Eu in K. discriminate. }
  rewrite held_slots, Hlen.
  destruct Hq as [[Hlt ->]|[Heq ->]].
  - split.
    { rewrite held_slots, Hcon. apply contents_all. intros t Ht. apply In_nth_error in Ht as [j Hj].
      assert (j < m) as Hjm. { apply nth_lt in Hj. rewrite firstn_length in Hj. lia. }
      rewrite nth_error_firstn in Hj by auto. eapply first_inf_below; eauto. }
    split; [|split].
    + intros i Hi. rewrite !slot_at_slots. rewrite nth_error_firstn by auto. reflexivity.
    + intros i e Hi He. rewrite slot_at_slots in He. destruct (nth_error (firstn m s) i) as [t|] eqn:Et; [|discriminate].
      injection He as <-. simpl. assert (i < m) as Hjm. { apply nth_lt in Et. rewrite firstn_length in Et. lia. }
      rewrite nth_error_firstn in Et by auto. eapply first_inf_below; eauto.
    + intros _. simpl. rewrite map_length, firstn_length. lia.
  - split; [apply held_slots|]. split; [|split].
    + intros i Hi. rewrite !slot_at_slots. reflexivity.
    + intros i e Hi He. rewrite slot_at_slots in He. destruct (nth_error s i) as [t|] eqn:Et; [|discriminate].
      injection He as <-. simpl. apply (first_inf_below pt s i t); auto. fold m. lia.
    + lia.
Qed.
Lemma drop_empty_total :
  forall pt std mean acqf argsort, argsort_ok argsort ->
  (forall C (x : pt) y, isnan (acqf y (std C x)) = false) ->
  forall x0 size ops p,
  Forall one_by_one ops -> Forall well_formed ops ->
  run std mean acqf argsort (new_pool x0 size) ops = Ok p ->
  let q := copy_pool p true in
  held q = held p
  /\ (forall i, i < length (held p) -> slot_at q i = slot_at p i)
  /\ (forall i e, i < size -> slot_at q i = Some e -> snd e <> NInf)
  /\ (length (held p) < size -> length (pX q) = length (held p)).
Proof.
  intros pt std mean acqf argsort Harg Hnn x0 size ops p Ho Hw H.
  rewrite new_pool_slots in H.
  destruct (run_inv pt std mean acqf argsort Harg Hnn size ops Ho Hw _ _ _ _ (new_inv pt std acqf x0 size) H)
    as (s & g & c & -> & HI). apply drop_empty_inv with (std := std) (acqf := acqf). auto.
Qed.
Theorem C33_drop_empty :
  forall pt std mean acqf argsort, argsort_ok argsort ->
  (forall C (x : pt) y, isnan y = false -> isnan (acqf y (std C x)) = false) ->
  forall x0 size ops p,
  Forall one_by_one ops -> Forall well_formed ops -> Forall (numeric std mean acqf) ops ->
  run std mean acqf argsort (new_pool x0 size) ops = Ok p ->
  let q := copy_pool p true in
  held q = held p
  /\ (forall i, i < length (held p) -> slot_at q i = slot_at p i)
  /\ (forall i e, i < size -> slot_at q i = Some e -> snd e <> NInf)
  /\ (length (held p) < size -> length (pX q) = length (held p)).
Proof.
  intros pt std mean acqf argsort Harg Hnn x0 size ops p Ho Hw Hn H.
  rewrite (proj1 (run_same std mean acqf (guard acqf) argsort (guard_agree acqf) ops _ (new_yok x0 size) Hw Hn)) in H.
  eapply drop_empty_total; eauto. apply guard_nn; auto.
Qed.
Print Assumptions C33_drop_empty.
(** The same when the first call is a bulk addition, if conditioning never increases the acquisition. *)
Theorem C33_drop_empty_bulk_first :
  forall pt std mean acqf argsort, argsort_ok argsort ->
  (forall C D (x : pt) y, isnan y = false -> nleb (acqf y (std (C ++ D) x)) (acqf y (std C x)) = true) ->
  forall x0 size ops p, 0 < size ->
  bulk_only_first ops -> Forall well_formed ops -> Forall (numeric std mean acqf) ops -> Forall (own_acquisition std mean acqf) ops ->
  run std mean acqf argsort (new_pool x0 size) ops = Ok p ->
  let q := copy_pool p true in
  held q = held p
  /\ (forall i, i < length (held p) -> slot_at q i = slot_at p i)
  /\ (forall i e, i < size -> slot_at q i = Some e -> snd e <> NInf)
  /\ (length (held p) < size -> length (pX q) = length (held p)).
Proof.
  intros pt std mean acqf argsort Harg Hm x0 size ops p Hsz Ho Hw Hn Hown H.
  rewrite (proj1 (run_same std mean acqf (guard acqf) argsort (guard_agree acqf) ops _ (new_yok x0 size) Hw Hn)) in H.
  destruct (reach_invM std mean (guard acqf) argsort Harg (guard_mono std acqf Hm) x0 size ops p Hsz Ho Hw (guard_own_all std mean acqf ops Hn Hown) H)
    as (s & g & c & -> & HM). eapply drop_empty_inv. eapply invm_inv; eauto.
Qed.
Print Assumptions C33_drop_empty_bulk_first.
(** Refuted for bulk additions to a pool that holds points: a candidate of acquisition -inf overwrites the top slot, and
    the copy drops all points below it. *)
Theorem C33_bulk_on_nonempty_pool_refuted :
  exists p, run ex_std ex_mean ex_acq stable_argsort (new_pool 0 3)
       [AddOne 10 None None (Some (F 10)) false; AddOne 7 None None (Some (F 7)) false; AddMany [4] (Some [NInf]) None None Bulk] = Ok p
    /\ map (fun e => fst (fst (fst e))) (held p) = [7] /\ held (copy_pool p true) = [].
Proof. eexists. split; [vm_compute; reflexivity|]. split; reflexivity. Qed.
Print Assumptions C33_bulk_on_nonempty_pool_refuted.
Example C33_case :
  exists p, run ex_std ex_mean ex_acq stable_argsort (new_pool 0 5) ex_ops2 = Ok p /\
    length (held p) = 5 /\ plen (copy_pool p true) = 5.
Proof. eexists. split; [vm_compute; reflexivity|]. split; reflexivity. Qed.
(** But the copy without empty slots has no spare slot, so its [len()] is one less than the
    number of points it holds (a pool with two points out of three has length 3, its compact
    copy has two points and length 1). *)
Theorem C33_len_of_compact_copy_refuted :
  exists p, run ex_std ex_mean ex_acq stable_argsort (new_pool 0 3)
              [AddMany [5; 9] None None None Single] = Ok p /\
    length (held (copy_pool p true)) = 2 /\ plen (copy_pool p true) = 1.
Proof. eexists. split; [vm_compute; reflexivity|]. split; reflexivity. Qed.
Print Assumptions C33_len_of_compact_copy_refuted.

(** ** C34 *)
(** A bulk addition to a new pool never fails, picks at each slot a remaining candidate of maximal
    conditioned acquisition, keeps every candidate either held or in the rest, none of which would
    rank better in any slot, and leaves the pool sorted. *)
Lemma bulk_greedy_total :
  forall pt std mean acqf argsort,
  (forall C D (x : pt) y, nleb (acqf y (std (C ++ D) x)) (acqf y (std C x)) = true) ->
  forall x0 size X y sigma acq, 0 < size ->
  let call := AddMany X y sigma acq Bulk in
  well_formed call -> own_acquisition std mean acqf call ->
  exists p rest, step std mean acqf argsort (new_pool x0 size) call = Ok p
  /\ Permutation (held p ++ rest) (offered std mean acqf call)
  /\ exact_and_greedy std acqf size p
  /\ none_better std acqf size p rest
  /\ (forall i j a b, i <= j -> nth_error (pacqc p) i = Some a -> nth_error (pacqc p) j = Some b ->
        nleb b a = true).
Proof.
  intros pt std mean acqf argsort Hm x0 size X y sigma acq Hsz call Hw Hown.
  destruct (bulk_new pt std mean acqf argsort Hm x0 size X y sigma acq Hsz Hw Hown)
    as (s & g & c & E & HM & (rest & [Gp Gr Gf Ge Gm Gm2 Gem])).
  exists (of_slots s g c), (map strip rest). split; auto.
  destruct (inv_shape (invm_inv _ _ _ _ _ _ HM)) as [Hs _].
  split; [|split; [|split]].
  - rewrite held_slots, Permutation_app_comm. cbn [skipn] in Gp. rewrite Gp, tuple_strip. reflexivity.
  - apply invM_exact_greedy; auto.
  - intros x' y' s' a' Hin i x1 y1 s1 a1 c1 Hi Hsl. apply in_map_iff in Hin as (u & Hu & Hin).
    rewrite slot_at_slots in Hsl. rewrite above_slots.
    destruct (nth_error s i) as [t|] eqn:Et; [|discriminate]. injection Hsl as <- <- <- <- <-.
    injection Hu as <- <- <- <-. destruct (is_ninf (sc t)) eqn:Einf.
    + apply is_ninf_true in Einf. destruct (Gem i t) as [G1 _]; auto; try lia.
      specialize (G1 u Hin). unfold condv in G1. rewrite G1, Einf. reflexivity.
    + apply is_ninf_false in Einf. apply (Gm i t); auto. lia.
  - intros i j a b Hij Ha Hb. simpl in Ha, Hb. rewrite nth_error_map in Ha, Hb.
    destruct (nth_error s i) as [t|] eqn:Et; [|discriminate]. destruct (nth_error s j) as [u|] eqn:Eu; [|discriminate].
    injection Ha as <-. injection Hb as <-. eapply (inv_sorted (invm_inv _ _ _ _ _ _ HM) i j); eauto.
Qed.
Theorem C34_bulk_greedy :
  forall pt std mean acqf argsort,
  (forall C D (x : pt) y, isnan y = false ->
     nleb (acqf y (std (C ++ D) x)) (acqf y (std C x)) = true) ->
  forall x0 size X y sigma acq, 0 < size ->
  let call := AddMany X y sigma acq Bulk in
  well_formed call -> numeric std mean acqf call -> own_acquisition std mean acqf call ->
  exists p rest, step std mean acqf argsort (new_pool x0 size) call = Ok p
  /\ Permutation (held p ++ rest) (offered std mean acqf call)
  /\ exact_and_greedy std acqf size p
  /\ none_better std acqf size p rest
  /\ (forall i j a b, i <= j -> nth_error (pacqc p) i = Some a -> nth_error (pacqc p) j = Some b ->
        nleb b a = true).
Proof.
  intros pt std mean acqf argsort Hm x0 size X y sigma acq Hsz call Hw Hn Hown.
  pose proof (step_same' std mean acqf (guard acqf) argsort (guard_agree acqf) _ call (new_yok x0 size) Hw Hn) as [E Hy].
  rewrite (offered_same std mean acqf (guard acqf) (guard_agree acqf) call Hn).
  destruct (bulk_greedy_total pt std mean (guard acqf) argsort (guard_mono std acqf Hm) x0 size X y sigma acq Hsz Hw
    (guard_own std mean acqf call Hn Hown)) as (p & rest & E1 & Hp & Hg & Hb & Hs).
  fold call in E1, Hp. exists p, rest. rewrite E. rewrite E in Hy. split; [exact E1|]. split; [exact Hp|].
  split; [apply guard_greedy; auto|]. split; [|exact Hs]. apply guard_better; auto.
  intros x m sd a Hin. apply (Hn x m sd a). rewrite (offered_same std mean acqf (guard acqf) (guard_agree acqf) call Hn).
  eapply Permutation_in; [exact Hp|]. apply in_or_app; auto.
Qed.
Print Assumptions C34_bulk_greedy.
Example C34_case :
  let call := AddMany [5; 9; 8; 4; 1] None None None Bulk in
  well_formed call /\ own_acquisition ex_std ex_mean ex_acq call /\
  exists p, step ex_std ex_mean ex_acq stable_argsort (new_pool 0 3) call = Ok p /\
    pX p = [9; 5; 8; 0] /\ pacqc p = [F 9; F 5; F 5; NInf].
Proof.
  split; [repeat constructor|]. split.
  - intros x m s a H. cbn in H. repeat (destruct H as [H|H]; [inversion H; subst; split; [vm_compute; reflexivity|discriminate]|]). destruct H.
  - eexists. split; [vm_compute; reflexivity|]. split; reflexivity.
Qed.

(** ** C35 *)
(** Adding one point to a pool reached by any additions (bulk only on the new pool): nothing is
    lost but what would not rank better in any slot of the result, which is again ranked exactly
    and greedily. *)
Lemma add_one_drops_no_better_point_total :
  forall pt std mean acqf argsort, argsort_ok argsort ->
  (forall C D (x : pt) y, nleb (acqf y (std (C ++ D) x)) (acqf y (std C x)) = true) ->
  forall x0 size ops p, 0 < size ->
  bulk_only_first ops -> Forall well_formed ops -> Forall (own_acquisition std mean acqf) ops ->
  run std mean acqf argsort (new_pool x0 size) ops = Ok p ->
  forall x y sigma acq nan_is_null,
  let call := AddOne x y sigma (Some acq) nan_is_null in
  own_acquisition std mean acqf call ->
  exists p' dropped, step std mean acqf argsort p call = Ok p'
  /\ Permutation (held p' ++ dropped) (offered std mean acqf call ++ held p)
  /\ none_better std acqf size p' dropped
  /\ exact_and_greedy std acqf size p'.
Proof.
  intros pt std mean acqf argsort Harg Hm x0 size ops p Hsz Ho Hw Hown H x y sigma acq nn call Hc.
  destruct (reach_invM std mean acqf argsort Harg Hm x0 size ops p Hsz Ho Hw Hown H) as (s & g & c & -> & HM).
  unfold call, own_acquisition in *. cbn [step]. rewrite add_one_eq. unfold offered in *.
  destruct (filled std mean x y sigma) as [m sd].
  destruct (add_one_core_invM pt std acqf argsort Harg Hm size s g c x m sd acq nn HM) as (s' & g' & c' & E & HM' & (d & Hp & Hd)).
  { apply (Hc x m sd acq). left; auto. }
  exists (of_slots s' g' c'), (map strip d). split; auto. rewrite !held_slots. split; [exact Hp|].
  split; [|apply invM_exact_greedy; auto].
  intros x' y' s2 a' Hin i x1 y1 s1 a1 c1 Hi Hsl. apply in_map_iff in Hin as (u & Hu & Hin).
  rewrite slot_at_slots in Hsl. rewrite above_slots.
  destruct (nth_error s' i) as [t|] eqn:Et; [|discriminate]. injection Hsl as <- <- <- <- <-.
  injection Hu as <- <- <- <-. apply (Hd u i t); auto. destruct (inv_shape (invm_inv _ _ _ _ _ _ HM')) as [Hs' _]. lia.
Qed.
Theorem C35_add_one_drops_no_better_point :
  forall pt std mean acqf argsort, argsort_ok argsort ->
  (forall C D (x : pt) y, isnan y = false ->
     nleb (acqf y (std (C ++ D) x)) (acqf y (std C x)) = true) ->
  forall x0 size ops p, 0 < size ->
  bulk_only_first ops -> Forall well_formed ops -> Forall (numeric std mean acqf) ops -> Forall (own_acquisition std mean acqf) ops ->
  run std mean acqf argsort (new_pool x0 size) ops = Ok p ->
  forall x y sigma acq nan_is_null,
  let call := AddOne x y sigma (Some acq) nan_is_null in
  numeric std mean acqf call -> own_acquisition std mean acqf call ->
  exists p' dropped, step std mean acqf argsort p call = Ok p'
  /\ Permutation (held p' ++ dropped) (offered std mean acqf call ++ held p)
  /\ none_better std acqf size p' dropped
  /\ exact_and_greedy std acqf size p'.
Proof.
  intros pt std mean acqf argsort Harg Hm x0 size ops p Hsz Ho Hw Hn Hown H x y sigma acq nn call Hnc Hc.
  pose proof (run_same std mean acqf (guard acqf) argsort (guard_agree acqf) ops _ (new_yok x0 size) Hw Hn) as [E Hy].
  specialize (Hy p H). rewrite E in H.
  pose proof (step_same' std mean acqf (guard acqf) argsort (guard_agree acqf) p call Hy I Hnc) as [E' Hy'].
  rewrite (offered_same std mean acqf (guard acqf) (guard_agree acqf) call Hnc).
  destruct (add_one_drops_no_better_point_total pt std mean (guard acqf) argsort Harg (guard_mono std acqf Hm) x0 size ops p Hsz Ho Hw
    (guard_own_all std mean acqf ops Hn Hown) H x y sigma acq nn (guard_own std mean acqf call Hnc Hc)) as (p' & d & E1 & Hp & Hb & Hg).
  fold call in E1, Hp. exists p', d. rewrite E'. rewrite E' in Hy'. split; [exact E1|]. split; [exact Hp|].
  split; [|apply guard_greedy; auto]. apply guard_better; auto.
  intros x' m sd a Hin. assert (In (x', m, sd, a) (offered std mean (guard acqf) call ++ held p)) as K.
  { eapply Permutation_in; [exact Hp|]. apply in_or_app; auto. }
  apply in_app_or in K as [K|K]; [|eapply yok_held; eauto].
  rewrite <- (offered_same std mean acqf (guard acqf) (guard_agree acqf) call Hnc) in K. eapply Hnc; eauto.
Qed.
Print Assumptions C35_add_one_drops_no_better_point.
(** [ex_ops2] reaches a pool to which 11 is then added. *)
Example C35_case :
  bulk_only_first (AddMany [5; 9; 8; 4; 1] None None None Bulk :: ex_ops2)
  /\ exists p p', run ex_std ex_mean ex_acq stable_argsort (new_pool 0 3)
       [AddMany [5; 9; 8; 4; 1] None None None Bulk; AddOne 2 None None (Some (F 2)) false] = Ok p
     /\ step ex_std ex_mean ex_acq stable_argsort p (AddOne 6 None None (Some (F 6)) false) = Ok p'
     /\ pX p = [9; 5; 8; 0] /\ pX p' = [9; 6; 8; 5].
Proof.
  split; [vm_compute; repeat constructor|]. do 2 eexists. split; [vm_compute; reflexivity|].
  split; [vm_compute; reflexivity|]. split; reflexivity.
Qed.

(** A bulk addition to a pool that already holds points overwrites its top: the best point is lost
    to a worse one, and the ranking is no longer sorted. *)
Theorem C35_bulk_on_nonempty_pool_refuted :
  exists p x p' a b,
    run ex_std ex_mean ex_acq stable_argsort (new_pool 0 2)
        [AddOne 10 None None (Some (F 10)) false; AddOne 7 None None (Some (F 7)) false] = Ok p
    /\ step ex_std ex_mean ex_acq stable_argsort p (AddMany [x] None None None Bulk) = Ok p'
    /\ In 10 (map (fun e => fst (fst (fst e))) (held p))
    /\ ~ In 10 (map (fun e => fst (fst (fst e))) (held p'))
    /\ nltb (ex_acq (ex_mean x) (ex_std [] x)) (ex_acq (ex_mean 10) (ex_std [] 10)) = true
    /\ nth_error (pacqc p') 0 = Some a /\ nth_error (pacqc p') 1 = Some b /\ nltb a b = true.
Proof.
  eexists. exists 5. do 3 eexists. split; [vm_compute; reflexivity|]. split; [vm_compute; reflexivity|].
  split; [vm_compute; auto|]. split; [vm_compute; intuition discriminate|].
  split; [vm_compute; reflexivity|]. split; [reflexivity|]. split; [reflexivity|]. vm_compute; reflexivity.
Qed.
Print Assumptions C35_bulk_on_nonempty_pool_refuted.

(** Batches added one by one can lose a point that would have ranked better than one that is kept:
    a point is dropped for its rank at that moment, and a point coming later can lower the rank
    of the one that displaced it. This happens for "single" on a full pool and for
    "single sort acq" even on a new pool. *)
Definition loses_better (o : op nat) (p' : pool nat) : Prop :=
  exists x y s a i t, In (x, y, s, a) (offered ex_std ex_mean ex_acq o)
    /\ ~ In (x, y, s, a) (held p')
    /\ slot_at p' i = Some t /\ i < plen p'
    /\ nltb (snd t) (ex_acq y (ex_std (above p' i) x)) = true.
Definition zeros (n : nat) : option (list num) := Some (repeat (F 0) n).
Theorem C35_batch_single_refuted :
  exists ops o p p', bulk_only_first ops /\ Forall (own_acquisition ex_std ex_mean ex_acq) (ops ++ [o])
    /\ o = AddMany [50; 14] (Some [F 6; F 25]) (zeros 2) None Single
    /\ run ex_std ex_mean ex_acq stable_argsort (new_pool 0 3) ops = Ok p
    /\ step ex_std ex_mean ex_acq stable_argsort p o = Ok p' /\ loses_better o p'.
Proof.
  exists [AddMany [40; 15; 13] (Some [F 20; F 8; F 7]) (zeros 3) None Single].
  do 3 eexists. split; [constructor|].
  split; [|split; [reflexivity|]].
  { apply Forall_cons; [|apply Forall_cons; [|apply Forall_nil]]; intros x m s a H; vm_compute in H;
      repeat (destruct H as [H|H]; [inversion H; subst; split; [vm_compute; reflexivity|discriminate]|]); destruct H. }
  split; [vm_compute; reflexivity|]. split; [vm_compute; reflexivity|].
  exists 50, (F 6), (F 0), (F 6), 2. eexists. split; [left; vm_compute; reflexivity|].
  split; [vm_compute; intuition discriminate|]. split; [vm_compute; reflexivity|].
  split; [vm_compute; lia|]. vm_compute. reflexivity.
Qed.
Print Assumptions C35_batch_single_refuted.
Theorem C35_batch_sorted_refuted :
  exists o p', own_acquisition ex_std ex_mean ex_acq o
    /\ o = AddMany [40; 44; 41; 43; 39; 42] (Some [F 30; F 29; F 20; F 20; F 19; F 18]) (zeros 6) None SortAcq
    /\ step ex_std ex_mean ex_acq stable_argsort (new_pool 0 4) o = Ok p' /\ loses_better o p'.
Proof.
  do 2 eexists. split; [|split; [reflexivity|]].
  { intros x m s a H; vm_compute in H;
      repeat (destruct H as [H|H]; [inversion H; subst; split; [vm_compute; reflexivity|discriminate]|]); destruct H. }
  split; [vm_compute; reflexivity|].
  exists 39, (F 19), (F 0), (F 19), 3. eexists. split; [vm_compute; tauto|].
  split; [vm_compute; intuition discriminate|]. split; [vm_compute; reflexivity|].
  split; [vm_compute; lia|]. vm_compute. reflexivity.
Qed.
Print Assumptions C35_batch_sorted_refuted.

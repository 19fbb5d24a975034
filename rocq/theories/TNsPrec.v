(** C99: the sampler of NORA and its precision. *)
From Coq Require Import Lia.
From Verif Require Import Base Num MTools MNs MRun MNora MNsPrec TNs TTools.
Set Default Goal Selector "!".
Open Scope string_scope.
Open Scope list_scope.
Open Scope nat_scope.

(** ** Choice of the sampler *)
(** Names of the samplers, in any capitalisation. *)
Definition names (i : ns_name) : string := match i with PolyChord => "polychord" | UltraNest => "ultranest" | Nessai => "nessai" end.
(** Without a choice: PolyChord, or UltraNest if PolyChord is missing, or an error. *)
Theorem C99_default :
  forall installed, nora_sampler installed None =
    if installed PolyChord then Ok (Interface PolyChord) else if installed UltraNest then Ok (Interface UltraNest) else Err NotInstalled.
Proof. reflexivity. Qed.
(** A choice is respected: another sampler is never used. *)
Theorem C99_choice :
  forall installed s,
    (forall i, nora_sampler installed (Some (Some s)) = Ok (Interface i) <-> lower s = names i /\ installed i = true)
    /\ (nora_sampler installed (Some (Some s)) = Ok Uniformly <-> lower s = "uniform")
    /\ (nora_sampler installed (Some (Some s)) = Err NotInstalled <-> exists i, lower s = names i /\ installed i = false)
    /\ (nora_sampler installed (Some (Some s)) = Err ValueError <-> lower s <> "uniform" /\ forall i, lower s <> names i).
Proof.
  intros f s. unfold nora_sampler, interface.
  destruct (String.eqb_spec (lower s) "polychord") as [E1|E1]; [|destruct (String.eqb_spec (lower s) "ultranest") as [E2|E2];
    [|destruct (String.eqb_spec (lower s) "nessai") as [E3|E3]; [|destruct (String.eqb_spec (lower s) "uniform") as [E4|E4]]]].
  - rewrite E1. destruct (f PolyChord) eqn:F; (split; [|split; [|split]]).
    all: try (intros i; destruct i); cbn [names]; split; try discriminate; intros H.
    all: try (split; [reflexivity|exact F]).
    all: try (destruct H as [H1 H2]; congruence).
    all: try (destruct H as [[] [H1 H2]]; cbn in H1; congruence).
    all: try (destruct H as [_ H]; destruct (H PolyChord); reflexivity).
    all: try (exists PolyChord; auto).
  - rewrite E2. destruct (f UltraNest) eqn:F; (split; [|split; [|split]]).
    all: try (intros i; destruct i); cbn [names]; split; try discriminate; intros H.
    all: try (split; [reflexivity|exact F]).
    all: try (destruct H as [H1 H2]; congruence).
    all: try (destruct H as [[] [H1 H2]]; cbn in H1; congruence).
    all: try (destruct H as [_ H]; destruct (H UltraNest); reflexivity).
    all: try (exists UltraNest; auto).
  - rewrite E3. destruct (f Nessai) eqn:F; (split; [|split; [|split]]).
    all: try (intros i; destruct i); cbn [names]; split; try discriminate; intros H.
    all: try (split; [reflexivity|exact F]).
    all: try (destruct H as [H1 H2]; congruence).
    all: try (destruct H as [[] [H1 H2]]; cbn in H1; congruence).
    all: try (destruct H as [_ H]; destruct (H Nessai); reflexivity).
    all: try (exists Nessai; auto).
  - split; [|split; [|split]].
    + intros i. split; [discriminate|]. intros [H _]. destruct i; cbn in H; congruence.
    + split; auto.
    + split; [discriminate|]. intros (i & H & _). destruct i; cbn in H; congruence.
    + split; [discriminate|]. intros [H _]. congruence.
  - split; [|split; [|split]].
    + intros i. split; [discriminate|]. intros [H _]. destruct i; cbn in H; congruence.
    + split; [discriminate|congruence].
    + split; [discriminate|]. intros (i & H & _). destruct i; cbn in H; congruence.
    + split; [|reflexivity]. intros _. split; [exact E4|]. intros []; auto.
Qed.
(** Anything but a string (such as a dictionary of options) is an AttributeError. *)
Theorem C99_not_a_name : forall installed, nora_sampler installed (Some None) = Err AttributeError.
Proof. reflexivity. Qed.

(** ** Precision *)
Section C99.
Variable pyfloat : string -> option num.
Variable pow : num -> num -> num.
Notation new_precision := (new_precision pyfloat pow).
Notation nora_set_precision := (nora_set_precision pyfloat pow).
Notation scaled := (scaled pyfloat pow).
Lemma py_int_nz z : py_int (nmul (nz z) (nz 1)) = Ok z.
Proof.
  unfold nz, nmul. replace (qc_of_Z z * qc_of_Z 1)%Qc with (qc_of_Z z).
  - unfold py_int, qc_of_Z. assert (this (Q2Qc (inject_Z z)) = inject_Z z) as ->.
    { apply Qred_identity. cbn. rewrite Z.gcd_1_r. reflexivity. }
    cbn [Qnum Qden inject_Z]. f_equal. apply Z.quot_1_r.
  - change (qc_of_Z 1) with 1%Qc. ring.
Qed.
Lemma in_units_nz d z : in_units pyfloat pow d (PNum (nz z)) = Ok (PNum (nz z)).
Proof.
  assert (scaled d (PNum (nz z)) = Ok z) as K.
  { unfold MNsPrec.scaled. rewrite (proj1 (C10_plain pyfloat pow Z py_int "d"%char (nz (Z.of_nat d)) ltac:(vm_compute; intuition discriminate))).
    rewrite py_int_nz. reflexivity. }
  unfold in_units. rewrite K. reflexivity.
Qed.
(** The name of the number of live points for each sampler. *)
Definition live_name (i : ns_name) : string := match i with UltraNest => "min_num_live_points" | _ => "nlive" end.
(** The cap: [nlive_max] read in units of the dimension, or the deprecated option times the dimension. *)
Definition cap (d : nat) (nlive_max : pyvalue) (per_dim : option Z) (m : Z) : Prop :=
  match per_dim with Some k => m = (k * Z.of_nat d)%Z | None => scaled d nlive_max = Ok m end.
(** What a run with [n] training points is given: the number of live points is [per * n], but at most the cap. *)
Theorem C99_live :
  forall d per mx dep rep dep_rep crit nprior ncalls p i n s s' m,
    new_precision d per mx dep rep dep_rep crit nprior ncalls = Ok p -> cap d mx dep m ->
    nora_set_precision d i p n s = (s', Ok tt) ->
    exists l, setting (live_name i) s' = Some (PNum (nz l))
      /\ ((per * Z.of_nat n <= m)%Z -> l = (per * Z.of_nat n)%Z) /\ ((m < per * Z.of_nat n)%Z -> l = m).
Proof.
  intros d per mx dep rep dep_rep crit nprior ncalls p i n s s' m Hp Hm H. unfold MNsPrec.new_precision in Hp.
  assert (pr_per_training p = per /\ pr_max p = m) as [E1 E2].
  { unfold cap in Hm. destruct dep as [k|]; [|rewrite Hm in Hp]; cbn [bind] in Hp;
      (destruct dep_rep as [k'|]; [|destruct (scaled d rep); [|discriminate]]; cbn [bind] in Hp; injection Hp as <-; subst; auto). }
  exists (nlive per (Z.of_nat n) m). split.
  - apply C86_sets in H as (_ & H & _). destruct (H "nlive" (live_name i) true (PNum (nz (nlive per (Z.of_nat n) m)))) as (u & Hu & R).
    + destruct i; cbn; auto.
    + destruct i; cbn; rewrite E1, E2; reflexivity.
    + cbn iota in Hu. rewrite in_units_nz in Hu. injection Hu as <-. exact R.
  - unfold nlive. lia.
Qed.
(** More training points never mean fewer live points (for a positive factor). *)
Theorem C99_monotone :
  forall d p i n n' s1 s2 s1' s2' l l', (0 <= pr_per_training p)%Z -> n <= n' ->
    nora_set_precision d i p n s1 = (s1', Ok tt) -> nora_set_precision d i p n' s2 = (s2', Ok tt) ->
    setting (live_name i) s1' = Some (PNum (nz l)) -> setting (live_name i) s2' = Some (PNum (nz l')) -> (l <= l')%Z.
Proof.
  intros d p i n n' s1 s2 s1' s2' l l' Hp Hn H1 H2 E1 E2.
  assert (forall n s s' l, nora_set_precision d i p n s = (s', Ok tt) -> setting (live_name i) s' = Some (PNum (nz l)) -> l = nlive (pr_per_training p) (Z.of_nat n) (pr_max p)) as K.
  { clear. intros n s s' l H E. apply C86_sets in H as (_ & H & _).
    destruct (H "nlive" (live_name i) true (PNum (nz (nlive (pr_per_training p) (Z.of_nat n) (pr_max p))))) as (u & Hu & R).
    - destruct i; cbn; auto.
    - destruct i; reflexivity.
    - cbn iota in Hu. rewrite in_units_nz in Hu. injection Hu as <-. rewrite E in R.
      assert (py_int (nmul (nz l) (nz 1)) = py_int (nmul (nz (nlive (pr_per_training p) (Z.of_nat n) (pr_max p))) (nz 1))) as Q by congruence.
      rewrite !py_int_nz in Q. congruence. }
  rewrite (K _ _ _ _ H1 E1), (K _ _ _ _ H2 E2). unfold nlive.
  assert (pr_per_training p * Z.of_nat n <= pr_per_training p * Z.of_nat n')%Z by (apply Z.mul_le_mono_nonneg_l; lia). lia.
Qed.
(** The other settings, and that setting them does not fail. *)
Theorem C99_others :
  forall d per mx dep rep dep_rep crit nprior ncalls p n s r,
    new_precision d per mx dep rep dep_rep crit nprior ncalls = Ok p -> cap d rep dep_rep r ->
    (forall v, ncalls = Some v -> exists z, scaled d v = Ok z) ->
    forall i, exists s', nora_set_precision d i p n s = (s', Ok tt)
      /\ match i with
         | PolyChord => setting "num_repeats" s' = Some (PNum (nz r)) /\ setting "precision_criterion" s' = Some crit
             /\ (exists l, setting "nlive" s' = Some (PNum (nz l)) /\ setting "nprior" s' = Some (PNum (nz (nprior * l))))
             /\ match ncalls with None => setting "max_ncalls" s' = setting "max_ncalls" s
                | Some v => exists z, scaled d v = Ok z /\ setting "max_ncalls" s' = Some (PNum (nz z)) end
         | UltraNest => setting "frac_remain" s' = Some crit
             /\ match ncalls with None => setting "max_ncalls" s' = setting "max_ncalls" s
                | Some v => exists z, scaled d v = Ok z /\ setting "max_ncalls" s' = Some (PNum (nz z)) end
         | Nessai => setting "stopping" s' = Some crit /\ setting "max_ncalls" s' = setting "max_ncalls" s
         end.
Proof.
  intros d per mx dep rep dep_rep crit nprior ncalls p n s r Hp Hr Hc i. unfold MNsPrec.new_precision in Hp.
  assert (pr_repeats p = r /\ pr_criterion p = crit /\ pr_nprior p = nprior /\ pr_ncalls p = ncalls) as (E1 & E2 & E3 & E4).
  { destruct (match dep with Some k => Ok (k * Z.of_nat d)%Z | None => scaled d mx end); cbn [bind] in Hp; [|discriminate].
    unfold cap in Hr. destruct dep_rep as [k'|]; [|rewrite Hr in Hp]; cbn [bind] in Hp; injection Hp as <-; subst; auto. }
  assert (forall v, ncalls = Some v -> exists z, scaled d v = Ok z /\ in_units pyfloat pow d v = Ok (PNum (nz z))) as Hc'.
  { intros v Hv. destruct (Hc v Hv) as [z Hz]. exists z. split; [exact Hz|]. unfold in_units. rewrite Hz. reflexivity. }
  set (l := nlive (pr_per_training p) (Z.of_nat n) (pr_max p)).
  exists (fst (nora_set_precision d i p n s)).
  assert (snd (nora_set_precision d i p n s) = Ok tt) as R.
  { apply C86_returns. intros k t v Ho Hv. destruct i; cbn [has_option In] in Ho.
    - destruct Ho as [<- Ho]. repeat (destruct Ho as [Ho|Ho]; [first [discriminate Ho|injection Ho as <-];
        cbn in Hv; first [injection Hv as <-; eexists; apply in_units_nz | rewrite E4 in Hv; destruct (Hc' v Hv) as (z & _ & ->); eauto]|]). destruct Ho.
    - repeat (destruct Ho as [Ho|Ho]; [first [discriminate Ho|injection Ho as <- <-];
        cbn in Hv; first [injection Hv as <-; eexists; apply in_units_nz | rewrite E4 in Hv; destruct (Hc' v Hv) as (z & _ & ->); eauto]|]). destruct Ho.
    - repeat (destruct Ho as [Ho|Ho]; [first [discriminate Ho|injection Ho as <- <-]; cbn in Hv; injection Hv as <-; eexists; apply in_units_nz|]). destruct Ho. }
  assert (nora_set_precision d i p n s = (fst (nora_set_precision d i p n s), Ok tt)) as E by (rewrite <- R; apply surjective_pairing).
  split; [exact E|]. apply C86_sets in E as (K1 & K2 & K3). revert K1 K2 K3. generalize (fst (nora_set_precision d i p n s)) as s'.
  intros s' K1 K2 K3. destruct i.
  - split; [|split; [|split]].
    + destruct (K2 "num_repeats" "num_repeats" true (PNum (nz r))) as (u & Hu & Q); [cbn; auto 6|cbn; rewrite E1; reflexivity|].
      cbn iota in Hu. rewrite in_units_nz in Hu. injection Hu as <-. exact Q.
    + destruct (K2 "precision_criterion" "precision_criterion" false crit) as (u & Hu & Q); [cbn; auto 7|cbn; rewrite E2; reflexivity|].
      injection Hu as <-. exact Q.
    + exists l. split.
      * destruct (K2 "nlive" "nlive" true (PNum (nz l))) as (u & Hu & Q); [cbn; auto|reflexivity|].
        cbn iota in Hu. rewrite in_units_nz in Hu. injection Hu as <-. exact Q.
      * destruct (K2 "nprior" "nprior" true (PNum (nz (nprior * l)))) as (u & Hu & Q); [cbn; auto 7|cbn; rewrite E3; reflexivity|].
        cbn iota in Hu. rewrite in_units_nz in Hu. injection Hu as <-. exact Q.
    + destruct ncalls as [v|].
      * destruct (K2 "max_ncalls" "max_ncalls" true v) as (u & Hu & Q); [cbn; auto 7|cbn; exact E4|].
        destruct (Hc' v eq_refl) as (z & Hz & Hw). exists z. split; [exact Hz|]. cbn iota in Hu. rewrite Hw in Hu. injection Hu as <-. exact Q.
      * apply (K1 "max_ncalls" "max_ncalls" true); [cbn; auto 7|cbn; exact E4].
  - split.
    + destruct (K2 "precision_criterion" "frac_remain" false crit) as (u & Hu & Q); [cbn; auto 7|cbn; rewrite E2; reflexivity|].
      injection Hu as <-. exact Q.
    + destruct ncalls as [v|].
      * destruct (K2 "max_ncalls" "max_ncalls" true v) as (u & Hu & Q); [cbn; auto 7|cbn; exact E4|].
        destruct (Hc' v eq_refl) as (z & Hz & Hw). exists z. split; [exact Hz|]. cbn iota in Hu. rewrite Hw in Hu. injection Hu as <-. exact Q.
      * apply (K1 "max_ncalls" "max_ncalls" true); [cbn; auto 7|cbn; exact E4].
  - split.
    + destruct (K2 "precision_criterion" "stopping" false crit) as (u & Hu & Q); [cbn; auto 7|cbn; rewrite E2; reflexivity|].
      injection Hu as <-. exact Q.
    + apply K3. intros k b Hk. cbn in Hk. intuition congruence.
Qed.
End C99.
Print Assumptions C99_default.
Print Assumptions C99_choice.
Print Assumptions C99_not_a_name.
Print Assumptions C99_live.
Print Assumptions C99_monotone.
Print Assumptions C99_others.
(** Two dimensions, the default options: three live points per training point, at most 50. *)
Definition demo_float (s : string) : option num := if String.eqb s "25" then Some (nz 25) else if String.eqb s "5" then Some (nz 5) else None.
Example C99_example :
  exists p, new_precision demo_float (fun x _ => x) 2 3 (PStr "25d") None (PStr "5d") None (PNum (nz 7)) 10 None = Ok p
  /\ cap demo_float (fun x _ => x) 2 (PStr "25d") None 50
  /\ setting "nlive" (fst (nora_set_precision demo_float (fun x _ => x) 2 PolyChord p 4 [])) = Some (PNum (nz 12))
  /\ setting "min_num_live_points" (fst (nora_set_precision demo_float (fun x _ => x) 2 UltraNest p 40 [])) = Some (PNum (nz 50))
  /\ nora_sampler (fun i => match i with PolyChord => false | _ => true end) None = Ok (Interface UltraNest)
  /\ nora_sampler (fun _ => true) (Some (Some "Nessai")) = Ok (Interface Nessai).
Proof. eexists. split; [vm_compute; reflexivity|]. repeat split; vm_compute; reflexivity. Qed.

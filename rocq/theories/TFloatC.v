(** C152: the upper clipping of predictions in double precision. *)
From Coq Require Import Reals Lra Lia.
From Flocq Require Import Relative Sterbenz.
From Verif Require Import MFloat MFloatC PFloat TFloat TFloatY.
From Coq Require Import Lra.
Set Default Goal Selector "!".
Set Bullet Behavior "Strict Subproofs".
Open Scope R_scope.

(** The ceiling without rounding. *)
Definition exact_top (c best worst : R) : R := c * best - (c - 1) * worst.
(** Rounding errors. *)
Definition slack (c best worst : R) : R := 3 * u53 * (c * Rabs best + (c - 1) * Rabs worst) + bpow radix2 (-500).
(** Factors between 1 and 2 (the default is 1.1). *)
Definition factor (c : f64) : Prop := isfinite c = true /\ 1 <= real c <= 2.

Lemma minus_one c : factor c -> real (fsub c (fz 1)) = real c - 1 /\ isfinite (fsub c (fz 1)) = true.
Proof.
  intros [F C]. assert (rnd (real c - real (fz 1)) = real c - 1) as E.
  { rewrite one_real. apply round_generic; [typeclasses eauto|]. rewrite <- one_real at 1. apply sterbenz; [typeclasses eauto|typeclasses eauto|apply format|apply format|].
    rewrite one_real. lra. }
  destruct (fsub_real c (fz 1)) as [A B]; [exact F|reflexivity| |].
  - rewrite E. apply Rle_lt_trans with (bpow radix2 0); [rewrite Rabs_pos_eq; cbn; lra|apply bpow_lt; lia].
  - rewrite A, E. split; [reflexivity|exact B].
Qed.
Lemma top_error c best worst : 1 <= c <= 2 -> Rabs best <= huge -> Rabs worst <= huge ->
  Rabs (rnd (c * best)) <= bpow radix2 502 /\ Rabs (rnd ((c - 1) * worst)) <= bpow radix2 502 /\ Rabs (rnd (c * best) - rnd ((c - 1) * worst)) <= bpow radix2 504 /\
  Rabs (rnd (rnd (c * best) - rnd ((c - 1) * worst)) - exact_top c best worst) <= slack c best worst.
Proof.
  intros C B W.
  pose proof (err (c * best)) as E1. pose proof (err ((c - 1) * worst)) as E2. set (a := rnd (c * best)) in *. set (b := rnd ((c - 1) * worst)) in *.
  pose proof (err (a - b)) as E3. set (r := rnd (a - b)) in *.
  pose proof u53_small as U. pose proof tiny_le_small as T. pose proof hundred_small as H. pose proof (bpow_gt_0 radix2 (-1075)) as T0.
  assert (small <= huge) as SH by (apply bpow_le; lia).
  assert (bpow radix2 502 = 4 * huge) as K2 by (change 502%Z with (2 + 500)%Z; rewrite bpow_plus; f_equal; cbn; lra).
  assert (bpow radix2 504 = 16 * huge) as K4 by (change 504%Z with (4 + 500)%Z; rewrite bpow_plus; f_equal; cbn; lra).
  unfold exact_top, slack. rewrite K2, K4.
  rewrite Rabs_mult, (Rabs_pos_eq c) in E1 by lra. rewrite Rabs_mult, (Rabs_pos_eq (c - 1)) in E2 by lra.
  assert (0 <= c * Rabs best <= 2 * huge) as PB.
  { pose proof (Rabs_pos best). split; [apply Rmult_le_pos; lra|]. apply Rmult_le_compat; lra. }
  assert (0 <= (c - 1) * Rabs worst <= huge) as PW.
  { pose proof (Rabs_pos worst). split; [apply Rmult_le_pos; lra|]. rewrite <- (Rmult_1_l huge). apply Rmult_le_compat; lra. }
  assert (Rabs a <= c * Rabs best + Rabs (a - c * best)) as A.
  { rewrite <- (Rabs_pos_eq c) at 1 by lra. rewrite <- Rabs_mult. replace a with (c * best + (a - c * best)) at 1 by ring. apply Rabs_triang. }
  assert (Rabs b <= (c - 1) * Rabs worst + Rabs (b - (c - 1) * worst)) as Bb.
  { rewrite <- (Rabs_pos_eq (c - 1)) at 1 by lra. rewrite <- Rabs_mult. replace b with ((c - 1) * worst + (b - (c - 1) * worst)) at 1 by ring. apply Rabs_triang. }
  assert (Rabs (a - b) <= Rabs a + Rabs b) as AB. { unfold Rminus. eapply Rle_trans; [apply Rabs_triang|]. rewrite Rabs_Ropp. lra. }
  set (X := c * Rabs best) in *. set (Y := (c - 1) * Rabs worst) in *. set (u := u53) in *. set (h := tiny) in *. set (g := small) in *. set (f := bpow radix2 (-500)) in *. set (B' := huge) in *.
  assert (0 <= u * X <= / 100 * X) as UX by (split; [apply Rmult_le_pos; lra|apply Rmult_le_compat_r; lra]).
  assert (0 <= u * Y <= / 100 * Y) as UY by (split; [apply Rmult_le_pos; lra|apply Rmult_le_compat_r; lra]).
  assert (0 <= u * h <= / 100 * h) as UH by (split; [apply Rmult_le_pos; lra|apply Rmult_le_compat_r; lra]).
  split; [lra|]. split; [lra|]. split; [lra|].
  assert (u * Rabs (a - b) <= u * X + u * (u * X) + u * Y + u * (u * Y) + 2 * (u * h)) as UAB.
  { replace (u * X + u * (u * X) + u * Y + u * (u * Y) + 2 * (u * h)) with (u * (X + u * X + Y + u * Y + 2 * h)) by ring. apply Rmult_le_compat_l; lra. }
  assert (u * (u * X) <= / 100 * (u * X)) as UUX by (apply Rmult_le_compat_r; lra).
  assert (u * (u * Y) <= / 100 * (u * Y)) as UUY by (apply Rmult_le_compat_r; lra).
  replace (r - (c * best - (c - 1) * worst)) with ((r - (a - b)) + ((a - c * best) + - (b - (c - 1) * worst))) by ring.
  eapply Rle_trans; [apply Rabs_triang|].
  assert (Rabs ((a - c * best) + - (b - (c - 1) * worst)) <= Rabs (a - c * best) + Rabs (b - (c - 1) * worst)) as S2.
  { eapply Rle_trans; [apply Rabs_triang|]. rewrite Rabs_Ropp. lra. }
  lra.
Qed.
(** The ceiling is finite, and what it should be up to some roundings. *)
Theorem C152_top c best worst : factor c -> moderate best -> moderate worst ->
  isfinite (top c best worst) = true /\ Rabs (real (top c best worst) - exact_top (real c) (real best) (real worst)) <= slack (real c) (real best) (real worst).
Proof.
  intros C [FB B] [FW W]. destruct (minus_one c C) as [M FM]. destruct C as [FC C].
  destruct (top_error (real c) (real best) (real worst) C B W) as (A1 & A2 & A3 & A4).
  destruct (fmul_real c best FC FB) as [E1 F1]; [apply Rle_lt_trans with (1 := A1); apply bpow_lt; lia|].
  destruct (fmul_real (fsub c (fz 1)) worst FM FW) as [E2 F2]; [rewrite M; apply Rle_lt_trans with (1 := A2); apply bpow_lt; lia|].
  rewrite M in E2.
  destruct (fsub_real _ _ F1 F2) as [E3 F3]; [rewrite E1, E2; apply (below_big _ 504); [lia|exact A3]|].
  unfold top. split; [exact F3|]. rewrite E3, E1, E2. exact A4.
Qed.
(** So it is not below the best training value as soon as the values are spread more than the roundings: nothing that was observed is cut. *)
Theorem C152_not_below c best worst : factor c -> moderate best -> moderate worst ->
  slack (real c) (real best) (real worst) <= (real c - 1) * (real best - real worst) -> real best <= real (top c best worst).
Proof.
  intros C B W S. destruct (C152_top c best worst C B W) as [_ E]. apply Rabs_le_inv in E. unfold exact_top in E. lra.
Qed.
(** In particular for the default factor 1.1, and values whose spread is not a rounding error. *)
Theorem C152_default best worst : moderate best -> moderate worst ->
  bpow radix2 (-44) * (Rabs (real best) + Rabs (real worst)) + bpow radix2 (-490) <= real best - real worst -> real best <= real (top (dec 11 1) best worst).
Proof.
  intros B W S. assert (factor (dec 11 1) /\ 109 / 100 <= real (dec 11 1) <= 111 / 100) as [F C].
  { assert (109 / 100 <= real (dec 11 1) <= 111 / 100) as A.
    { rewrite real_SF. let s := eval vm_compute in (B2SF (dec 11 1)) in replace (B2SF (dec 11 1)) with s by (vm_compute; reflexivity).
      cbn [SF2R]. unfold F2R. cbn [Fnum Fexp cond_Zopp]. cbn. lra. }
    split; [|exact A]. split; [vm_compute; reflexivity|lra]. }
  apply C152_not_below; [exact F|exact B|exact W|]. unfold slack.
  pose proof (Rabs_pos (real best)) as PB. pose proof (Rabs_pos (real worst)) as PW. set (c := real (dec 11 1)) in *. set (x := Rabs (real best)) in *. set (y := Rabs (real worst)) in *.
  assert (bpow radix2 (-44) = 512 * u53) as K by (change (-44)%Z with (9 + -53)%Z; rewrite bpow_plus; f_equal; cbn; lra).
  assert (bpow radix2 (-490) = 1024 * bpow radix2 (-500)) as K' by (change (-490)%Z with (10 + -500)%Z; rewrite bpow_plus; f_equal; cbn; lra).
  rewrite K, K' in S. pose proof u53_small as U. pose proof (bpow_gt_0 radix2 (-500)) as G. set (u := u53) in *. set (g := bpow radix2 (-500)) in *.
  assert (c * x + (c - 1) * y <= 2 * (x + y)) as X.
  { assert (c * x <= 2 * x) by (apply Rmult_le_compat_r; lra). assert ((c - 1) * y <= 2 * y) by (apply Rmult_le_compat_r; lra). lra. }
  assert (u * (c * x + (c - 1) * y) <= u * (2 * (x + y))) as UX by (apply Rmult_le_compat_l; lra).
  assert (0 <= u * (x + y)) as P by (apply Rmult_le_pos; lra).
  assert ((9 / 100) * (512 * u * (x + y) + 1024 * g) <= (c - 1) * (real best - real worst)) as Q.
  { apply Rmult_le_compat; [lra| |lra|exact S]. assert (0 <= 512 * u * (x + y)) by lra. lra. }
  lra.
Qed.
(** Never much below. *)
Theorem C152_bounded c best worst : factor c -> moderate best -> moderate worst -> real worst <= real best ->
  real best - slack (real c) (real best) (real worst) <= real (top c best worst).
Proof.
  intros C B W L. destruct (C152_top c best worst C B W) as [_ E]. apply Rabs_le_inv in E. unfold exact_top in E.
  assert (0 <= (real c - 1) * (real best - real worst)) by (destruct C as [_ C]; apply Rmult_le_pos; lra). lra.
Qed.
(** Exactly the best value for the factor 1; at least the best value for the factor 2, whatever the values are. *)
Theorem C152_one best worst : isfinite best = true -> isfinite worst = true -> real (top (fz 1) best worst) = real best.
Proof.
  intros B W. unfold top.
  assert (factor (fz 1)) as F by (split; [reflexivity|rewrite one_real; lra]). destruct (minus_one _ F) as [M FM]. rewrite one_real in M.
  destruct (fmul_real (fz 1) best) as [E1 F1]; [reflexivity|exact B|rewrite one_real, Rmult_1_l, rnd_real; apply real_lt_big|].
  rewrite one_real, Rmult_1_l, rnd_real in E1.
  assert (Rabs (rnd (real (fsub (fz 1) (fz 1)) * real worst)) < big) as Z.
  { rewrite M. replace ((1 - 1) * real worst) with 0 by ring. rewrite rnd_0, Rabs_R0. apply bpow_gt_0. }
  destruct (fmul_real (fsub (fz 1) (fz 1)) worst FM W Z) as [E2 F2]. rewrite M in E2. replace ((1 - 1) * real worst) with 0 in E2 by ring. rewrite rnd_0 in E2.
  destruct (fsub_real _ _ F1 F2) as [E3 F3]; rewrite ?E1, ?E2, ?Rminus_0_r, ?rnd_real; [apply real_lt_big|]. rewrite E3, E1, E2, Rminus_0_r. apply rnd_real.
Qed.
Theorem C152_two best worst : moderate best -> moderate worst -> real worst <= real best -> real best <= real (top (fz 2) best worst).
Proof.
  intros B W L. assert (real (fz 2) = 2) as T by (apply (fz_real 2); lia).
  assert (factor (fz 2)) as F by (split; [reflexivity|rewrite T; lra]). destruct (minus_one _ F) as [M FM]. rewrite T in M.
  destruct B as [FB B], W as [FW W].
  destruct (top_error 2 (real best) (real worst) ltac:(lra) B W) as (A1 & A2 & A3 & _).
  destruct (fmul_real (fz 2) best) as [E1 F1]; [reflexivity|exact FB|rewrite T; apply Rle_lt_trans with (1 := A1); apply bpow_lt; lia|]. rewrite T in E1.
  destruct (fmul_real (fsub (fz 2) (fz 1)) worst FM FW) as [E2 F2]; [rewrite M; apply Rle_lt_trans with (1 := A2); apply bpow_lt; lia|]. rewrite M in E2.
  destruct (fsub_real _ _ F1 F2) as [E3 F3]; [rewrite E1, E2; apply (below_big _ 504); [lia|exact A3]|].
  unfold top. rewrite E3, E1, E2. apply rnd_ge_real. replace ((2 - 1) * real worst) with (real worst) by ring. rewrite rnd_real.
  assert (rnd (2 * real best) = 2 * real best) as D; [|lra].
  apply round_generic; [typeclasses eauto|]. rewrite fe_flt. rewrite Rmult_comm. change 2 with (bpow radix2 1).
  apply generic_format_FLT. destruct (FLT_format_generic radix2 (-1074) 53 (real best)) as [fl E N X]; [rewrite <- fe_flt; apply format|].
  exists (Float radix2 (Fnum fl) (Fexp fl + 1)); [|exact N|cbn; lia]. rewrite E. unfold F2R. cbn [Fnum Fexp]. rewrite bpow_plus. ring.
Qed.
(** What is predicted: never above the ceiling; at least the prediction or the ceiling; and unchanged if the GP predicts no more than the best value and the values are spread. *)
Theorem C152_unchanged c y v : factor c -> moderate (pymax y) -> moderate (pymin y) -> isfinite v = true ->
  slack (real c) (real (pymax y)) (real (pymin y)) <= (real c - 1) * (real (pymax y) - real (pymin y)) -> real v <= real (pymax y) -> clipped c y v = v.
Proof.
  intros C B W F S L. unfold clipped. cbv zeta. destruct (C152_top c _ _ C B W) as [FT _]. pose proof (C152_not_below c _ _ C B W S) as K.
  assert (fle v (top c (pymax y) (pymin y)) = true) as ->; [|reflexivity]. apply fle_real; [exact F|exact FT|lra].
Qed.
(** The largest and the smallest training value are such. *)
Lemma max_fold : forall l v, isfinite v = true -> Forall (fun w => isfinite w = true) l ->
  let m := fold_left (fun m v => if flt m v then v else m) l v in In m (v :: l) /\ real v <= real m /\ forall w, In w l -> real w <= real m.
Proof.
  induction l as [|a l IH]; intros v V L; cbn [fold_left]; cbv zeta.
  - split; [left; reflexivity|]. split; [lra|intros w []].
  - inversion L as [|? ? A L']; subst. destruct (flt v a) eqn:E.
    + apply flt_real in E; [|exact V|exact A]. destruct (IH a A L') as (I & M & K). split; [right; exact I|]. split; [lra|]. intros w [<-|Hw]; [exact M|exact (K w Hw)].
    + assert (real a <= real v) as E'. { apply Rnot_lt_le. intros H. apply (flt_real v a V A) in H. congruence. }
      destruct (IH v V L') as (I & M & K). split; [destruct I as [I|I]; [left; exact I|right; right; exact I]|]. split; [exact M|].
      intros w [<-|Hw]; [lra|exact (K w Hw)].
Qed.
Lemma min_fold : forall l v, isfinite v = true -> Forall (fun w => isfinite w = true) l ->
  let m := fold_left (fun m v => if flt v m then v else m) l v in In m (v :: l) /\ real m <= real v /\ forall w, In w l -> real m <= real w.
Proof.
  induction l as [|a l IH]; intros v V L; cbn [fold_left]; cbv zeta.
  - split; [left; reflexivity|]. split; [lra|intros w []].
  - inversion L as [|? ? A L']; subst. destruct (flt a v) eqn:E.
    + apply flt_real in E; [|exact A|exact V]. destruct (IH a A L') as (I & M & K). split; [right; exact I|]. split; [lra|]. intros w [<-|Hw]; [exact M|exact (K w Hw)].
    + assert (real v <= real a) as E'. { apply Rnot_lt_le. intros H. apply (flt_real a v A V) in H. congruence. }
      destruct (IH v V L') as (I & M & K). split; [destruct I as [I|I]; [left; exact I|right; right; exact I]|]. split; [exact M|].
      intros w [<-|Hw]; [lra|exact (K w Hw)].
Qed.
Lemma best_worst y : y <> [] -> Forall moderate y -> moderate (pymax y) /\ moderate (pymin y) /\ In (pymax y) y /\ In (pymin y) y /\ forall v, In v y -> real (pymin y) <= real v <= real (pymax y).
Proof.
  intros N H. destruct y as [|v l]; [congruence|]. pose proof (proj1 (Forall_forall _ _) H) as F. inversion H as [|? ? V L]; subst.
  assert (Forall (fun w => isfinite w = true) l) as L' by (eapply Forall_impl; [|exact L]; intros a [A _]; exact A).
  destruct (max_fold l v (proj1 V) L') as (I & M & K). destruct (min_fold l v (proj1 V) L') as (I' & M' & K'). cbn [pymax pymin].
  split; [apply F, I|]. split; [apply F, I'|]. split; [exact I|]. split; [exact I'|]. intros w [<-|Hw]; [lra|]. specialize (K w Hw). specialize (K' w Hw). lra.
Qed.
(** So for any training values whose spread is not a rounding error: predictions that reproduce a training value, or anything below the best one, are unchanged by the default
    clipping, also in double precision; and what is cut is set to a value at least as large as all training values. *)
Theorem C152_training y : y <> [] -> Forall moderate y ->
  (exists a b, In a y /\ In b y /\ bpow radix2 (-44) * (Rabs (real a) + Rabs (real b)) + bpow radix2 (-490) <= real a - real b /\ forall v, In v y -> real b <= real v <= real a) ->
  (forall v, isfinite v = true -> (exists w, In w y /\ real v <= real w) -> clipped (dec 11 1) y v = v)
  /\ (forall v w, isfinite v = true -> In w y -> clipped (dec 11 1) y v <> v -> real w <= real (clipped (dec 11 1) y v) < real v).
Proof.
  intros N H (a & b & Ia & Ib & S & AB). destruct (best_worst y N H) as (B & W & IB & IW & K).
  assert (real (pymax y) = real a) as EA. { pose proof (AB _ IB). pose proof (K _ Ia). lra. }
  assert (real (pymin y) = real b) as EB. { pose proof (AB _ IW). pose proof (K _ Ib). lra. }
  rewrite <- EA, <- EB in S. pose proof (C152_default _ _ B W S) as T.
  assert (isfinite (top (dec 11 1) (pymax y) (pymin y)) = true) as FT.
  { apply C152_top; [|exact B|exact W]. split; [vm_compute; reflexivity|].
    rewrite real_SF. let s := eval vm_compute in (B2SF (dec 11 1)) in replace (B2SF (dec 11 1)) with s by (vm_compute; reflexivity).
    cbn [SF2R]. unfold F2R. cbn [Fnum Fexp cond_Zopp]. cbn. lra. }
  split.
  - intros v F (w & Iw & L). unfold clipped. cbv zeta. specialize (K w Iw).
    assert (fle v (top (dec 11 1) (pymax y) (pymin y)) = true) as ->; [|reflexivity]. apply fle_real; [exact F|exact FT|lra].
  - intros v w F Iw. unfold clipped. cbv zeta. destruct (fle v (top (dec 11 1) (pymax y) (pymin y))) eqn:E; [congruence|]. intros _.
    specialize (K w Iw). split; [lra|]. apply Rnot_le_lt. intros G. apply (fle_real v _ F FT) in G. congruence.
Qed.
(** Refuted in general, for the default factor: with the single training value -63 (or several equal ones), a prediction of exactly this value is lowered. *)
Theorem C152_single_refuted : let y := [fz (-63)] in let v := clipped (dec 11 1) y (fz (-63)) in
  flt v (fz (-63)) = true /\ real v < real (pymax y) /\ flt (clipped (dec 11 1) [fz 15; fz 15] (fz 15)) (fz 15) = true.
Proof.
  cbv zeta. split; [vm_compute; reflexivity|]. split; [|vm_compute; reflexivity].
  apply flt_real; vm_compute; reflexivity.
Qed.
(** With a spread nothing is cut: values 15, 3 and -63, with the factor 1.1. *)
Example C152_case : B2SF (clipped (dec 11 1) [fz 15; fz (-63); fz 3] (fz 15)) = B2SF (fz 15) /\ B2SF (clipped (dec 11 1) [fz 15; fz (-63); fz 3] (fz 22)) = B2SF (fz 22)
  /\ flt (clipped (dec 11 1) [fz 15; fz (-63); fz 3] (fz 23)) (fz 23) = true /\ factor (dec 11 1) /\ moderate (fz 15) /\ moderate (fz (-63)).
Proof.
  split; [vm_compute; reflexivity|]. split; [vm_compute; reflexivity|]. split; [vm_compute; reflexivity|].
  assert (forall n, (Z.abs n <= 2 ^ 53)%Z -> moderate (fz n)) as M.
  { intros n H. destruct (fz_real n H) as [E F]. split; [exact F|]. rewrite E, <- abs_IZR. apply Rle_trans with (bpow radix2 53); [|apply bpow_le; lia].
    rewrite <- IZR_Zpower by lia. apply IZR_le. exact H. }
  split; [|split; apply M; lia]. split; [vm_compute; reflexivity|].
  rewrite real_SF. let s := eval vm_compute in (B2SF (dec 11 1)) in replace (B2SF (dec 11 1)) with s by (vm_compute; reflexivity).
  cbn [SF2R]. unfold F2R. cbn [Fnum Fexp cond_Zopp]. cbn. lra.
Qed.
Print Assumptions C152_top.
Print Assumptions C152_not_below.
Print Assumptions C152_default.
Print Assumptions C152_bounded.
Print Assumptions C152_one.
Print Assumptions C152_two.
Print Assumptions C152_unchanged.
Print Assumptions C152_training.
Print Assumptions C152_single_refuted.

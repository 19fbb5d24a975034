(** C158: the convergence plot. C159: numbers in the texts of plots. *)
From Coq Require Import Lia ZArith.
From Verif Require Import MPlotConv.
Import ListNotations.
Set Default Goal Selector "!".
Set Bullet Behavior "Strict Subproofs".
Open Scope nat_scope.

(** * C158 *)
(** A criterion that has been computed: as many values as numbers of evaluations. *)
Definition computed (c : crit) : Prop := exists v n a, cr_history c = Some (v, n, a) /\ v <> [] /\ length n = length v /\ length a = length v.
(** What should be drawn for it: its values against the total or the accepted number of evaluations, and its limit, in its colour. *)
Definition shows (accepted : bool) (i : nat) (c : crit) (d : list drawn) : Prop :=
  exists v n a, cr_history c = Some (v, n, a) /\ d = Curve i (cr_name c) (combine (if accepted then a else n) v) :: match cr_limit c with Some y => [Line i y] | None => [] end.
Definition word (accepted : bool) : string := if accepted then "accepted" else "total".

Lemma plot_one_computed colors acc i c : computed c -> i < colors -> exists d, plot_one colors (word acc) i c = (d, Ok tt) /\ shows acc i c d.
Proof.
  intros (v & n & a & H & Nv & Ln & La) Hi. unfold plot_one. apply Nat.leb_gt in Hi. rewrite Hi. unfold get_history. rewrite H.
  assert (Nat.eqb (length v) 0 || Nat.eqb (length n) 0 = false) as ->. { rewrite Ln. destruct v; [destruct (Nv eq_refl)|reflexivity]. }
  cbn [bind fst snd]. unfold choose, word. exists (Curve i (cr_name c) (combine (if acc then a else n) v) :: match cr_limit c with Some y => [Line i y] | None => [] end).
  split; [|exists v, n, a; auto]. destruct acc; cbn [String.eqb Ascii.eqb Bool.eqb bind]; unfold curve; [rewrite La|rewrite Ln]; rewrite Nat.eqb_refl; reflexivity.
Qed.
(** All criteria are drawn, in order, each with its own colour, if all have been computed and there are no more of them than colours. *)
Theorem C158_all : forall colors acc l, Forall computed l -> length l <= colors ->
  exists ds, plot_convergence colors (word acc) l = (concat ds, Ok tt) /\ length ds = length l /\ forall i c d, nth_error l i = Some c -> nth_error ds i = Some d -> shows acc i c d.
Proof.
  intros colors acc l H Hc. unfold plot_convergence.
  assert (forall k, k + length l <= colors -> exists ds, plot_from colors (word acc) k l = (concat ds, Ok tt) /\ length ds = length l /\
            forall i c d, nth_error l i = Some c -> nth_error ds i = Some d -> shows acc (k + i) c d) as F; [|apply (F 0); exact Hc].
  clear Hc. induction H as [|c l Hc H IH]; intros k Hk.
  - exists []. split; [reflexivity|]. split; [reflexivity|]. intros [|i] c d E; discriminate E.
  - cbn [length] in Hk. destruct (plot_one_computed colors acc k c Hc ltac:(lia)) as (d & E & Hd). destruct (IH (S k) ltac:(lia)) as (ds & Es & Ls & Hs).
    exists (d :: ds). cbn [plot_from]. rewrite E, Es. split; [reflexivity|]. split; [cbn [length]; congruence|].
    intros [|i] c' d' E1 E2; cbn [nth_error] in E1, E2.
    + injection E1 as <-. injection E2 as <-. rewrite Nat.add_0_r. exact Hd.
    + replace (k + S i) with (S k + i) by lia. apply Hs; auto.
Qed.
(** The same in the plot of the trace. *)
Theorem C158_trace : forall colors l, Forall computed l -> length l <= colors -> trace_panel colors l = plot_convergence colors "total" l.
Proof. intros colors l H Hc. unfold trace_panel. destruct (C158_all colors false l H Hc) as (ds & E & _). change (word false) with "total"%string in E. rewrite E. reflexivity. Qed.
(** Refuted: another value of [evaluations] raises ValueError, as intended. It raises KeyError. *)
Theorem C158_evaluations_refuted : forall colors ev c l, computed c -> 0 < colors -> ev <> "total"%string -> ev <> "accepted"%string -> plot_convergence colors ev (c :: l) = ([], Err KeyError).
Proof.
  intros colors ev c l (v & n & a & H & Nv & Ln & La) Hc N1 N2. unfold plot_convergence. cbn [plot_from]. unfold plot_one. apply Nat.leb_gt in Hc. rewrite Hc. unfold get_history. rewrite H.
  assert (Nat.eqb (length v) 0 || Nat.eqb (length n) 0 = false) as ->. { rewrite Ln. destruct v; [destruct (Nv eq_refl)|reflexivity]. }
  cbn [bind fst snd]. unfold choose. apply String.eqb_neq in N1, N2. rewrite N1, N2. reflexivity.
Qed.
(** Refuted: a criterion that has not been computed yet does not affect the others. Those after it are missing, in the plot of the trace without any error. *)
Theorem C158_hidden_refuted : forall colors pre c post, Forall computed pre -> (exists n a, cr_history c = Some ([], n, a)) -> length pre < colors ->
  plot_convergence colors "total" (pre ++ c :: post) = (fst (plot_convergence colors "total" pre), Err ValueError) /\
  trace_panel colors (pre ++ c :: post) = (fst (plot_convergence colors "total" pre), Ok tt).
Proof.
  intros colors pre c post H (n & a & Hc) L.
  assert (plot_convergence colors "total" (pre ++ c :: post) = (fst (plot_convergence colors "total" pre), Err ValueError)) as E.
  { unfold plot_convergence. assert (forall k, k + length pre < colors -> plot_from colors "total" k (pre ++ c :: post) = (fst (plot_from colors "total" k pre), Err ValueError)) as F; [|apply F; exact L].
    clear L. induction H as [|p pre Hp H IH]; intros k Hk; cbn [length] in Hk.
    - cbn [app plot_from]. unfold plot_one. rewrite (proj2 (Nat.leb_gt colors k)) by lia. unfold get_history. rewrite Hc. reflexivity.
    - cbn [app plot_from]. destruct (plot_one_computed colors false k p Hp ltac:(lia)) as (d & E & _). change (word false) with "total"%string in E. rewrite E, IH by lia. reflexivity. }
  split; [exact E|]. unfold trace_panel. rewrite E. reflexivity.
Qed.
(** Refuted: any number of criteria can be drawn. With more than there are colours (10, usually) an exception is raised, also in the plot of the trace. *)
Theorem C158_colors_refuted : forall colors l c post, Forall computed l -> length l = colors ->
  snd (plot_convergence colors "total" (l ++ c :: post)) = Err IndexError /\ snd (trace_panel colors (l ++ c :: post)) = Err IndexError.
Proof.
  intros colors l c post H L.
  assert (snd (plot_convergence colors "total" (l ++ c :: post)) = Err IndexError) as E.
  { unfold plot_convergence. assert (forall k, k + length l = colors -> snd (plot_from colors "total" k (l ++ c :: post)) = Err IndexError) as F; [|apply F; exact L].
    clear L. induction H as [|p l Hp H IH]; intros k Hk; cbn [length] in Hk.
    - cbn [app plot_from]. unfold plot_one. rewrite (proj2 (Nat.leb_le colors k)) by lia. reflexivity.
    - cbn [app plot_from]. destruct (plot_one_computed colors false k p Hp ltac:(lia)) as (d & E & _). change (word false) with "total"%string in E. rewrite E. cbn [snd]. apply IH. lia. }
  split; [exact E|]. unfold trace_panel. destruct (plot_convergence colors "total" (l ++ c :: post)) as [d r]. cbn [snd] in E. rewrite E. reflexivity.
Qed.
Print Assumptions C158_all.
Print Assumptions C158_trace.
Print Assumptions C158_evaluations_refuted.
Print Assumptions C158_hidden_refuted.
Print Assumptions C158_colors_refuted.
(** Two criteria after two iterations. *)
Definition kl : crit := mkCrit "GaussianKL" (Some ([NaN; nq 1 2], [4; 6], [4; 5])) (Some (nq 1 50)).
Definition counter : crit := mkCrit "CorrectCounter" (Some ([nz 3; nz 1], [4; 6], [4; 5])) (Some (nz 2)).
Definition new_crit : crit := mkCrit "TrainAlignment" (Some ([], [], [])) (Some (nz 1)).
Example C158_case : Forall computed [kl; counter] /\
  plot_convergence 10 "accepted" [kl; counter] = ([Curve 0 "GaussianKL" [(4, NaN); (5, nq 1 2)]; Line 0 (nq 1 50); Curve 1 "CorrectCounter" [(4, nz 3); (5, nz 1)]; Line 1 (nz 2)], Ok tt) /\
  trace_panel 10 [kl; new_crit; counter] = ([Curve 0 "GaussianKL" [(4, NaN); (6, nq 1 2)]; Line 0 (nq 1 50)], Ok tt) /\
  plot_convergence 10 "finite" [kl] = ([], Err KeyError) /\ snd (plot_convergence 1 "total" [kl; counter]) = Err IndexError.
Proof.
  assert (computed kl) as K1 by (exists [NaN; nq 1 2], [4; 6], [4; 5]; split; [reflexivity|split; [discriminate|split; reflexivity]]).
  assert (computed counter) as K2 by (exists [nz 3; nz 1], [4; 6], [4; 5]; split; [reflexivity|split; [discriminate|split; reflexivity]]).
  split; [apply Forall_cons; [auto|apply Forall_cons; [auto|apply Forall_nil]]|]. repeat split.
Qed.

(** * C159 *)
(** Decimal digits, and the number they stand for. *)
Definition digit (c : ascii) : option nat := let n := nat_of_ascii c in if Nat.leb 48 n && Nat.leb n 57 then Some (n - 48) else None.
Fixpoint reads (acc : nat) (s : string) : option nat := match s with EmptyString => Some acc | String c s => match digit c with Some k => reads (10 * acc + k) s | None => None end end.
Definition no_e (s : string) : Prop := has_char letter_e s = false.

Lemma split_none c s : has_char c s = false -> split_at c s = (s, []).
Proof.
  induction s as [|x s IH]; [reflexivity|]. cbn [has_char split_at]. intros H. apply Bool.orb_false_iff in H as [H1 H2]. rewrite IH by auto. rewrite H1. reflexivity.
Qed.
Lemma has_app c a b : has_char c (a ++ b) = has_char c a || has_char c b.
Proof. induction a as [|x a IH]; [reflexivity|]. cbn [String.append has_char]. rewrite IH, Bool.orb_assoc. reflexivity. Qed.
Lemma split_app c a b : has_char c a = false -> split_at c (a ++ String c b) = (a, fst (split_at c b) :: snd (split_at c b)).
Proof.
  induction a as [|x a IH]; intros H.
  - cbn [String.append split_at]. rewrite Ascii.eqb_refl. reflexivity.
  - cbn [has_char] in H. apply Bool.orb_false_iff in H as [H1 H2]. cbn [String.append split_at]. rewrite IH by auto. rewrite H1. reflexivity.
Qed.
Lemma digits_no_e acc s n : reads acc s = Some n -> no_e s.
Proof.
  revert acc. induction s as [|c s IH]; intros acc H; [reflexivity|]. unfold no_e in *. cbn [reads] in H. cbn [has_char]. destruct (digit c) as [k|] eqn:E; [|discriminate H]. rewrite (IH _ H).
  destruct (Ascii.eqb_spec c letter_e) as [->|]; [discriminate E|reflexivity].
Qed.
Lemma lstrip_reads s : forall n, reads 0 s = Some n -> reads 0 (lstrip0 s) = Some n.
Proof.
  induction s as [|c s IH]; intros n H; [exact H|]. cbn [lstrip0]. destruct (Ascii.eqb_spec c "0") as [->|]; [|exact H]. apply IH. exact H.
Qed.
Lemma reads_zero acc s : reads acc s = Some 0 -> acc = 0 /\ lstrip0 s = ""%string.
Proof.
  revert acc. induction s as [|c s IH]; intros acc H; cbn [reads] in H; [injection H as ->; auto|]. destruct (digit c) as [k|] eqn:E; [|discriminate H]. apply IH in H as [H1 H2].
  assert (acc = 0 /\ k = 0) as [-> ->] by lia. split; [reflexivity|]. cbn [lstrip0]. assert (c = "0"%char) as ->; [|exact H2].
  unfold digit in E. destruct (Nat.leb 48 (nat_of_ascii c) && Nat.leb (nat_of_ascii c) 57) eqn:B; [|discriminate E]. injection E as E. apply andb_prop in B as [B1 B2]. apply Nat.leb_le in B1, B2.
  rewrite <- (ascii_nat_embedding c). replace (nat_of_ascii c) with 48 by lia. reflexivity.
Qed.
Lemma lstrip_head s : String.prefix "0" (lstrip0 s) = false.
Proof.
  induction s as [|c s IH]; [reflexivity|]. cbn [lstrip0]. destruct (Ascii.eqb_spec c "0") as [->|N]; [exact IH|]. cbn [String.prefix]. destruct (ascii_dec "0" c) as [E|]; [destruct (N (eq_sym E))|reflexivity].
Qed.
Lemma prefix_plus s : String.prefix "+" (String "+" s) = true.
Proof. destruct s; reflexivity. Qed.
(** A number with a non-zero exponent keeps its digits and its exponent: the power of ten has the same number as exponent, without zeros in front. *)
Theorem C159_exponent : forall m (neg : bool) ds n, no_e m -> reads 0 ds = Some n -> n <> 0 ->
  exists ds', simple_latex (m ++ "e" ++ (if neg then "-" else "+") ++ ds) = Ok (m ++ "\cdot 10^{" ++ (if neg then "-" else "") ++ ds' ++ "}")%string /\
    reads 0 ds' = Some n /\ ds' <> ""%string /\ String.prefix "0" ds' = false.
Proof.
  intros m neg ds n Hm Hd Hn. exists (lstrip0 ds). split; [|split; [apply lstrip_reads; exact Hd|split; [|apply lstrip_head]]].
  - unfold simple_latex. rewrite has_app. cbn [String.append has_char]. change (Ascii.eqb "e" letter_e) with true. rewrite Bool.orb_true_r. cbn [negb].
    change (String "e" ((if neg then "-" else "+") ++ ds)) with (String letter_e ((if neg then "-" else "+") ++ ds)). rewrite split_app by exact Hm.
    rewrite split_none; [destruct neg; cbn [fst snd]; [reflexivity|change ("+" ++ ds)%string with (String "+" ds); rewrite prefix_plus; reflexivity]|]. rewrite has_app. pose proof (digits_no_e 0 ds n Hd) as E. unfold no_e in E. rewrite E. destruct neg; reflexivity.
  - intros E. pose proof (lstrip_reads ds n Hd) as K. rewrite E in K. cbn [reads] in K. injection K as K. auto.
Qed.
(** A number without exponent stays as it is. *)
Theorem C159_plain : forall s, no_e s -> simple_latex s = Ok s.
Proof. intros s H. unfold simple_latex. rewrite H. reflexivity. Qed.
(** Refuted: so does a number in the format %e, documented too, whose exponent is zero. Its exponent is lost. *)
Theorem C159_zero_refuted : forall m ds, no_e m -> reads 0 ds = Some 0 -> simple_latex (m ++ "e+" ++ ds) = Ok (m ++ "\cdot 10^{}")%string.
Proof.
  intros m ds Hm Hd. unfold simple_latex. rewrite has_app. cbn [String.append has_char]. change (Ascii.eqb "e" letter_e) with true. rewrite Bool.orb_true_r. cbn [negb].
  change (String "e" (String "+" ds)) with (String letter_e (String "+" ds)). rewrite split_app by exact Hm.
  rewrite split_none; [cbn [fst snd]; rewrite prefix_plus, (proj2 (reads_zero 0 ds Hd)); reflexivity|]. pose proof (digits_no_e 0 ds 0 Hd) as E. exact E.
Qed.
Print Assumptions C159_exponent.
Print Assumptions C159_plain.
Print Assumptions C159_zero_refuted.
Example C159_case : simple_latex "1.2e+05" = Ok "1.2\cdot 10^{5}"%string /\ simple_latex "-3e-10" = Ok "-3\cdot 10^{-10}"%string /\ simple_latex "0.25" = Ok "0.25"%string /\
  simple_latex "1.2e+00" = Ok "1.2\cdot 10^{}"%string /\ no_e "1.2" /\ reads 0 "05" = Some 5 /\ reads 0 "00" = Some 0.
Proof. repeat split. Qed.

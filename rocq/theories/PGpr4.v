(** Lemmas about refitting: what the result depends on, and when the cached solution is current. *)
From Verif Require Import MGpr SGpr PSvm PGpr PGpr2 PGpr3.
Set Default Goal Selector "!".

Section Refit.
Context {pt pt_ PX PY model theta box : Type}.
Variable e : env pt pt_ PX PY model theta box.
Variable c : config theta.
Local Notation gpr := (gpr pt pt_ PX PY model theta box).
Implicit Types g : gpr.

(** The same object with other counters, cached solution and trust region. *)
Definition other n m k ca t g : gpr := set_nlast n (set_nlastfin m (set_newinv k (set_cache ca (set_trust t g)))).

Lemma restarts_other n m k ca t d draw start : forall N i g,
  restarts e d draw start i N (other n m k ca t g)
  = (other n m k ca t (fst (restarts e d draw start i N g)), snd (restarts e d draw start i N g)).
Proof.
  induction N as [|N IH]; intros i g; [reflexivity|].
  cbn [restarts]. unfold seq_, get, ret, raise, modify, lift.
  change (g_kernel (other n m k ca t g)) with (g_kernel g).
  destruct ((i =? 0) && start).
  - destruct (g_kernel g) as [th0|]; [|reflexivity].
    destruct (optimize e d th0) as [th [v|x]]; [|reflexivity].
    change (set_kernel (Some th) (other n m k ca t g)) with (other n m k ca t (set_kernel (Some th) g)).
    rewrite IH. destruct (restarts e d draw start (S i) N (set_kernel (Some th) g)) as [g1 [l|x]]; reflexivity.
  - destruct (optimize e d (draw i)) as [th [v|x]]; [|reflexivity].
    change (set_kernel (Some th) (other n m k ca t g)) with (other n m k ca t (set_kernel (Some th) g)).
    rewrite IH. destruct (restarts e d draw start (S i) N (set_kernel (Some th) g)) as [g1 [l|x]]; reflexivity.
Qed.
Lemma update_other n m k ca t g g' : g_newinv g <> 0 -> k <> 0 -> update_model e g = (g', Ok tt) ->
  update_model e (other n m k ca t g) = (other n m 0 (g_cache g') t g', Ok tt).
Proof.
  intros H0 Hk. unfold update_model, seq_, get, ret, raise, modify, lift.
  change (g_newinv (other n m k ca t g)) with k. change (g_kernel (other n m k ca t g)) with (g_kernel g).
  change (the_data (other n m k ca t g)) with (the_data g).
  destruct (Nat.ltb_spec (g_newinv g) 1); [lia|]. destruct (Nat.ltb_spec k 1); [lia|].
  destruct (g_kernel g) as [th|]; [|discriminate]. destruct (the_data g) as [d|x]; [|discriminate].
  destruct (cholesky e th d); [|discriminate]. intros E. injection E as <-. reflexivity.
Qed.
Lemma fit_other kw n m k ca t g g' : g_newinv g <> 0 -> k <> 0 ->
  fit_gpr_hyperparameters e c kw g = (g', Ok tt) ->
  fit_gpr_hyperparameters e c kw (other n m k ca t g) = (other n m 0 (g_cache g') t g', Ok tt).
Proof.
  intros H0 Hk H. unfold fit_gpr_hyperparameters in *. unfold seq_, get, modify, lift in *. cbv beta iota zeta in *.
  change (g_fitted (other n m k ca t g)) with (g_fitted g).
  change (g_kernel (other n m k ca t g)) with (g_kernel g).
  change (the_data (other n m k ca t g)) with (the_data g).
  match goal with |- (if ?b then _ else _) _ = _ => destruct b end.
  - destruct (g_kernel g) as [th|]; [|discriminate]. destruct (the_data g) as [d|x]; [|discriminate].
    change (set_lml (Some (lml e d th)) (other n m k ca t g)) with (other n m k ca t (set_lml (Some (lml e d th)) g)).
    apply update_other; auto.
  - cbv beta iota zeta in *. change (g_kernel (other n m k ca t g)) with (g_kernel g). set (k0 := match g_kernel g with Some t0 => Some t0 | None => Some (c_theta0 c) end) in *.
    change (set_kernel k0 (other n m k ca t g)) with (other n m k ca t (set_kernel k0 g)).
    match goal with |- (if ?b then _ else _) _ = _ => destruct b end; [discriminate|].
    destruct (the_data g) as [d|x]; [|discriminate]. rewrite restarts_other.
    match type of H with context [restarts e d ?a ?b ?i ?N ?z] => destruct (restarts e d a b i N z) as [g1 r] eqn:Er end.
    cbn [fst snd]. destruct r as [optima|x]; [|discriminate]. destruct (np_argmin (map snd optima)) as [j|]; [|discriminate].
    destruct (nth_error optima j) as [[th v]|]; [|discriminate].
    apply restarts_ok in Er as (_ & k2 & ->).
    match type of H with context [update_model e ?z] => destruct (update_model e z) as [g2 [[]|x]] eqn:Eu; [|discriminate];
      apply (update_other n m k ca t) in Eu; auto end.
    injection H as <-.
    match type of Eu with ?a = _ => match goal with |- context [update_model e ?z] =>
      change (update_model e z) with a; rewrite Eu end end.
    reflexivity.
Qed.

Lemma svm_fit_again (s s' : svm pt_ model) X y d l :
  svm_fit (svc_train e) s X y d = (s', Ok l) -> svm_fit (svc_train e) s' X y d = (s', Ok l).
Proof.
  unfold svm_fit. destruct (forallb _ y); [intros H; injection H as <- <-; reflexivity|].
  destruct (pymax_list y) as [m|]; [|discriminate]. destruct (forallb _ (is_finite_raw y d m)).
  - intros H. injection H as <- <-. reflexivity.
  - destruct (svc_fit _ X _) as [mo|]; [|discriminate]. intros H. injection H as <- <-. reflexivity.
Qed.
End Refit.

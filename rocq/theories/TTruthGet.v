(** C162: which likelihood a run is given. *)
From Verif Require Import MTruthGet TTruth.
Import ListNotations.
Set Default Goal Selector "!".
Set Bullet Behavior "Strict Subproofs".

Lemma mapM_labels (f : string -> option string) ps ls : mapM (fun p => match f p with Some l => Ok l | None => Err KeyError end) ps = Ok ls <-> Forall2 (fun p l => f p = Some l) ps ls.
Proof.
  revert ls. induction ps as [|p ps IH]; intros ls; cbn [mapM].
  - split; [intros H; injection H as <-; constructor|intros H; inversion H; reflexivity].
  - destruct (f p) as [l|] eqn:E; cbn [bind].
    + destruct (mapM _ ps) as [r|x]; cbn [bind].
      * split; [intros H; injection H as <-; constructor; [exact E|apply IH; reflexivity]|]. intros H. inversion H as [|? l' ? ls' E1 H1]; subst. rewrite E in E1. injection E1 as <-. apply IH in H1. injection H1 as <-. reflexivity.
      * split; [discriminate|]. intros H. inversion H as [|? l' ? ls' E1 H1]; subst. apply IH in H1. discriminate H1.
    + split; [discriminate|]. intros H. inversion H as [|? l' ? ls' E1 H1]; subst. rewrite E in E1. discriminate E1.
Qed.

Lemma f2_length {A B} (R : A -> B -> Prop) l m : Forall2 R l m -> length l = length m.
Proof. induction 1; cbn [length]; auto. Qed.
Lemma f2_impl {A B} (R S : A -> B -> Prop) l m : (forall a b, R a b -> S a b) -> Forall2 R l m -> Forall2 S l m.
Proof. intros H. induction 1; constructor; auto. Qed.

Section C162.
Context {I M : Type} (ln : num -> num) (get_model : I -> made M) (info : M -> I) (bounds_of : M -> list (num * num)) (sampled : M -> list string) (label_of : M -> string -> option string).
Notation gt := (get_truth I M ln get_model bounds_of sampled label_of).
(** What users rely on: the parameters of a model in its order, each with its own label, the bounds of its prior. *)
Definition describes (t : truth_cobaya M) (m : M) : Prop :=
  tc_params t = sampled m /\ Forall2 (fun p l => label_of m p = Some l) (tc_params t) (tc_labels t) /\ tc_bounds t = bounds_of m.

(** A function is never taken for a model, with or without Cobaya; it needs bounds, and gets those given. *)
Theorem C162_function : forall f b r p,
  gt true (a_function f) b r p = gt false (a_function f) b r p /\ gt true (a_function f) None r p = (false, Err ValueError) /\
  (forall w t, gt true (a_function f) b r p = (w, Ok t) -> w = false /\ exists a bs u, b = Some a /\ check_and_return_bounds a = Ok bs /\ t = Box u /\ prior_bounds u = bs /\ (forall l, p = PSeq l -> params_ u = l) /\
    (forall rs, r = Some rs -> Forall2 (fun e v => e = option_map (fun q => [fst q; snd q]) v) rs (ref_bounds_ u))).
Proof.
  intros f b r p. split; [reflexivity|]. split; [reflexivity|]. intros w t H. unfold get_truth in H. cbn [a_function o_callable] in H. apply pair_equal_spec in H as [<- H]. split; [reflexivity|].
  unfold new_truth in H. destruct b as [a|]; [|discriminate H]. exists a. destruct (check_and_return_bounds a) as [bs|]; [|discriminate H]. cbn [bind] in H. exists bs.
  destruct (wrap_likelihood f _) as [ll|]; [|discriminate H]. cbn [bind] in H. destruct (read_ref_bounds _ r) as [rf|] eqn:Er; [|discriminate H]. cbn [bind] in H. destruct (read_params _ p) as [[q l]|] eqn:Ep; [|discriminate H]. cbn [bind] in H.
  injection H as <-. eexists. split; [reflexivity|]. split; [reflexivity|]. split; [reflexivity|]. split; [reflexivity|]. cbn [params_ ref_bounds_]. split.
  - intros l0 ->. cbn [read_params] in Ep. destruct (_ =? _) in Ep; [|discriminate Ep]. injection Ep as <- _. reflexivity.
  - intros rs ->. cbn [read_ref_bounds] in Er. destruct (_ =? _) in Er; [|discriminate Er]. clear - Er. revert rf Er. induction rs as [|e rs IH]; intros rf Er; cbn [mapM] in Er; [injection Er as <-; constructor|].
    destruct e as [[|x [|y [|z e]]]|]; cbn [bind] in Er; try discriminate Er; match type of Er with context [mapM ?f rs] => destruct (mapM f rs) as [w|]; cbn [bind] in Er; [|discriminate Er] end; injection Er as <-; (constructor; [reflexivity|apply IH; reflexivity]).
Qed.
(** A model whose parameters all have labels is accepted, and described by the result (the volume of the prior is that of a function with the same bounds), whatever the other arguments; these are ignored, with a warning exactly if some are given. *)
Theorem C162_model : forall m b r p, (forall q, In q (sampled m) -> label_of m q <> None) ->
  exists t, gt true (a_model m) b r p = (negb (is_none b && is_none r && no_params p), Ok (Cobaya t)) /\ tc_model t = m /\ describes t m /\ tc_volume t = log_volume ln (mkMat 2 (map (fun q => [fst q; snd q]) (bounds_of m))) /\
    (length (bounds_of m) = length (sampled m) -> dim_cobaya M t = length (tc_params t) /\ length (tc_labels t) = length (tc_params t)).
Proof.
  intros m b r p H. assert (exists ls, Forall2 (fun q l => label_of m q = Some l) (sampled m) ls) as (ls & F).
  { revert H. induction (sampled m) as [|q qs IH]; intros H; [exists []; constructor|]. destruct (label_of m q) as [l|] eqn:E; [|destruct (H q (or_introl eq_refl) E)].
    destruct IH as (ls & F); [intros q' Hq; apply H; right; exact Hq|]. exists (l :: ls). constructor; [exact E|exact F]. }
  unfold get_truth. cbn [a_model o_callable o_mapping o_model]. unfold new_cobaya. rewrite (proj2 (mapM_labels (label_of m) (sampled m) ls) F). cbn [bind]. eexists. split; [reflexivity|].
  unfold describes, dim_cobaya. cbn [tc_model tc_params tc_labels tc_bounds]. cbn [tc_volume]. split; [reflexivity|]. split; [auto|]. split.
  { unfold log_volume, column. cbn [rows]. f_equal. rewrite !map_map. clear. induction (bounds_of m) as [|[x y] l IH]; [reflexivity|]. cbn [map combine fst snd]. rewrite IH. reflexivity. }
  intros L. split; [exact L|]. apply f2_length in F. auto.
Qed.
(** A dictionary is the same as the model that Cobaya makes of it. *)
Theorem C162_dict : forall i m b r p, get_model i = Made m -> gt true (a_dict i) b r p = gt true (a_model m) b r p.
Proof. intros i m b r p H. unfold get_truth. cbn [a_dict a_model o_callable o_mapping o_model]. rewrite H. reflexivity. Qed.
(** All else is refused with TypeError: what is none of the three, dictionaries that Cobaya refuses, and anything but functions without Cobaya. *)
Theorem C162_refused : forall o b r p, o_callable o = None ->
  (o_mapping o = None -> o_model o = None -> forall installed, snd (gt installed o b r p) = Err TypeError) /\
  (forall i, o_mapping o = Some i -> get_model i = Logged -> forall installed, snd (gt installed o b r p) = Err TypeError) /\
  snd (gt false o b r p) = Err TypeError.
Proof.
  intros o b r p H. unfold get_truth. rewrite H. split; [|split; [|reflexivity]].
  - intros -> -> [|]; reflexivity.
  - intros i -> E [|]; [rewrite E|]; reflexivity.
Qed.
(** Refuted: a dictionary that cannot be used is refused with TypeError. Other exceptions of Cobaya are raised as they are. *)
Theorem C162_raised_refuted : forall i x b r p, get_model i = Raised x -> gt true (a_dict i) b r p = (false, Err x).
Proof. intros i x b r p H. unfold get_truth. cbn [a_dict o_callable o_mapping]. rewrite H. reflexivity. Qed.
(** The likelihood read from a checkpoint is that of the run: if Cobaya makes of the [info] of a model one with the same parameters, labels and bounds (an assumption on Cobaya), these are kept, and no warning is given. *)
Theorem C162_rebuild : forall o b r p w t m', gt true o b r p = (w, Ok (Cobaya t)) -> get_model (info (tc_model t)) = Made m' ->
  sampled m' = sampled (tc_model t) -> (forall q, label_of m' q = label_of (tc_model t) q) -> bounds_of m' = bounds_of (tc_model t) ->
  exists t', rebuild_cobaya I M ln get_model info bounds_of sampled label_of true t = (false, Ok (Cobaya t')) /\ tc_model t' = m' /\
    tc_params t' = tc_params t /\ tc_labels t' = tc_labels t /\ tc_bounds t' = tc_bounds t /\ tc_volume t' = tc_volume t /\ describes t (tc_model t).
Proof.
  intros o b r p w t m' H G Hs Hl Hb.
  assert (new_cobaya M ln bounds_of sampled label_of (tc_model t) = Ok t) as T.
  { unfold get_truth in H. destruct (o_callable o) as [f|].
    - apply pair_equal_spec in H as [_ H]. destruct (new_truth ln f b r p); cbn [bind] in H; discriminate H.
    - destruct (match o_mapping o with Some i => _ | None => _ end) as [[m|]|x]; apply pair_equal_spec in H as [_ H]; try discriminate H.
      destruct (new_cobaya _ _ _ _ _ m) as [t0|x] eqn:E; cbn [bind] in H; [|discriminate H]. injection H as <-. pose proof E as E'. unfold new_cobaya in E. destruct (mapM _ _) as [ls|]; cbn [bind] in E; [|discriminate E].
      injection E as <-. exact E'. }
  unfold rebuild_cobaya, get_truth, as_dict_cobaya. cbn [a_dict o_callable o_mapping]. rewrite G. cbn [is_none no_params andb negb].
  unfold new_cobaya in T. destruct (mapM (fun p0 => match label_of (tc_model t) p0 with Some l => Ok l | None => Err KeyError end) (sampled (tc_model t))) as [ls|] eqn:E; cbn [bind] in T; [|discriminate T].
  apply mapM_labels in E. assert (Forall2 (fun q l => label_of m' q = Some l) (sampled m') ls) as E'. { rewrite Hs. eapply f2_impl; [|exact E]. intros q l K. rewrite Hl. exact K. }
  unfold new_cobaya. rewrite (proj2 (mapM_labels _ _ _) E'). cbn [bind]. eexists. split; [reflexivity|]. injection T as T. unfold describes. rewrite <- T. cbn [tc_model tc_params tc_labels tc_bounds tc_volume]. rewrite Hb, Hs. auto 10.
Qed.
End C162.
Print Assumptions C162_function.
Print Assumptions C162_model.
Print Assumptions C162_dict.
Print Assumptions C162_refused.
Print Assumptions C162_raised_refuted.
Print Assumptions C162_rebuild.
(** * Examples: models are given by a number, dictionaries too; 0 is refused, 1 raises. *)
Definition ex_get (i : nat) : made nat := match i with 0 => Logged | 1 => Raised ValueError | S (S m) => Made m end.
Definition ex_label (_ : nat) (p : string) : option string := if String.eqb p "x" then Some "X"%string else if String.eqb p "y" then Some "Y"%string else None.
Example C162_case : let gt := get_truth nat nat (fun x => x) ex_get (fun _ => [(nz 0, nz 1); (nz 2, nz 5)]) (fun m => if Nat.eqb m 7 then ["z"%string] else ["y"; "x"]%string) ex_label in
  let t := mkTruthC nat 3 [(nz 0, nz 1); (nz 2, nz 5)] (nz 4) ["y"; "x"]%string ["Y"; "X"]%string in
  gt true (a_model 3) (Some (Vec [])) None PNone = (true, Ok (Cobaya t)) /\ gt true (a_dict 5) None None PNone = (false, Ok (Cobaya t)) /\
  gt true (a_dict 0) None None PNone = (false, Err TypeError) /\ gt true (a_dict 1) None None PNone = (false, Err ValueError) /\ gt false (a_model 3) None None PNone = (false, Err TypeError) /\
  gt true (a_model 7) None None PNone = (false, Err KeyError) /\
  rebuild_cobaya nat nat (fun x => x) ex_get (fun m => S (S m)) (fun _ => [(nz 0, nz 1); (nz 2, nz 5)]) (fun _ => ["y"; "x"]%string) ex_label true t = (false, Ok (Cobaya t)).
Proof. repeat split. Qed.
Example C162_function_case : exists t, get_truth nat nat ex_ln ex_get (fun _ => []) (fun _ => []) ex_label false (a_function half_sum) (Some (Mat (mkMat 2 [[nz 0; nz 2]; [nz (-1); nz 0]]))) None (PSeq ["a"; "b"]%string) = (false, Ok (Box t)) /\
  rows (prior_bounds t) = [[nz 0; nz 2]; [nz (-1); nz 0]] /\ params_ t = ["a"; "b"]%string.
Proof. eexists. split; [reflexivity|]. split; reflexivity. Qed.

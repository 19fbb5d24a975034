(** Property C138: the reference box of a [Truth] and the points drawn from it and from the prior (gpry/truth.py). *)
From Verif Require Import MRef STools PTools TTruth.
Set Default Goal Selector "!".
Set Bullet Behavior "Strict Subproofs".

(** Boxes with finite limits in order. *)
Definition proper (b : num * num) : Prop := exists x y, b = (Fin x, Fin y) /\ (x <= y)%Qc.
(** Numbers of the generator. *)
Definition unit_draws (u : list num) : Prop := Forall (fun v => exists q, v = Fin q /\ (0 <= q <= 1)%Qc) u.

Lemma uniform_in unordered b u : proper b -> (exists q, u = Fin q /\ (0 <= q <= 1)%Qc) ->
  exists v, uniform unordered b u = Ok v /\ le (fst b) v /\ le v (snd b).
Proof.
  intros (x & y & -> & H) (q & -> & Hq). unfold uniform. cbn [fst snd nsub nneg nadd isfin negb nltb nz nmul].
  change (qc_of_Z 0) with 0%Qc. destruct (qltb (y + - x) 0) eqn:E; [exfalso; qc|].
  eexists. split; [reflexivity|]. unfold le. cbn [nleb]. split; apply qleb_le; qc.
Qed.
Lemma uniforms_in unordered box : forall u, Forall proper box -> unit_draws u -> length u = length box ->
  exists x, uniforms unordered box u = Ok x /\ length x = length box /\ in_box box x.
Proof.
  unfold uniforms, in_box. induction box as [|b box IH]; intros [|v u] Hb Hu L; cbn [length] in L; try discriminate.
  - exists []. cbn. auto.
  - inversion Hb; subst. inversion Hu; subst. destruct (IH u) as (x & E & Lx & Hx); auto.
    destruct (uniform_in unordered b v) as (w & Ew & Hw); auto. exists (w :: x). cbn [combine mapM fst snd].
    rewrite Ew. cbn [bind]. rewrite E. cbn [bind length]. auto.
Qed.
Lemma read_box ln f box ref params t : new_truth ln f (Some (box_arr box)) ref params = Ok t ->
  combine (column (prior_bounds t) 0) (column (prior_bounds t) 1) = box.
Proof.
  intros H. apply new_truth_inv in H as (-> & _). unfold column. cbn [rows]. rewrite !map_map. cbn [nth].
  induction box as [|[a b] box IH]; cbn; [auto|]. f_equal. exact IH.
Qed.

(** ** The reference box *)
(** What the user asked for: for each parameter its own limits if they gave some, and those of the prior otherwise. *)
Definition asked (box : list (num * num)) (ref : option (list ref_entry)) (i : nat) (b : num * num) : Prop :=
  match ref with
  | None => nth_error box i = Some b
  | Some l => nth_error l i = Some None /\ nth_error box i = Some b \/ nth_error l i = Some (Some [fst b; snd b])
  end.
Theorem C138_reference :
  forall ln f box ref params t, new_truth ln f (Some (box_arr box)) ref params = Ok t ->
    length (ref_bounds_default_prior t) = length box
    /\ forall i b, nth_error (ref_bounds_default_prior t) i = Some b <-> i < length box /\ asked box ref i b.
Proof.
  intros ln f box ref params t H. apply new_truth_inv in H as (_ & _ & _ & Hr & _ & ->).
  assert (length (ref_bounds_ t) = length box /\ forall i, i < length box -> match ref with
    | None => nth_error (ref_bounds_ t) i = Some None
    | Some l => nth_error l i = Some None /\ nth_error (ref_bounds_ t) i = Some None
        \/ exists b, nth_error l i = Some (Some [fst b; snd b]) /\ nth_error (ref_bounds_ t) i = Some (Some b) end) as [L K].
  { unfold read_ref_bounds in Hr. destruct ref as [l|].
    - destruct (Nat.eqb_spec (length l) (length box)) as [E|]; [|discriminate]. pose proof (mapM_length _ _ _ Hr) as L.
      split; [etransitivity; [exact L|exact E]|]. rewrite <- E. clear - Hr. revert Hr. generalize (ref_bounds_ t).
      induction l as [|v l IH]; intros k Hr i Hi; [cbn in Hi; lia|]. cbn [mapM] in Hr.
      destruct v as [[|a [|b [|]]]|]; cbn [bind] in Hr; try discriminate;
        (match type of Hr with context [mapM ?F l] => destruct (mapM F l) as [m|] end; [|discriminate]); injection Hr as <-.
      + destruct i as [|i]; [right; exists (a, b); auto|]. apply (IH m eq_refl i). cbn in Hi. lia.
      + destruct i as [|i]; [left; auto|]. apply (IH m eq_refl i). cbn in Hi. lia.
    - injection Hr as <-. split; [apply repeat_length|]. intros i Hi. rewrite nth_error_repeat; auto. }
  split; [rewrite map_length, combine_length; lia|]. intros i b. rewrite nth_error_map.
  assert (forall (l : list (option (num * num))) (k : list (num * num)) i, nth_error (combine l k) i =
    match nth_error l i, nth_error k i with Some a, Some c => Some (a, c) | _, _ => None end) as C.
  { clear. induction l as [|a l IH]; intros [|c k] [|i]; cbn; auto. destruct (nth_error l i); auto. }
  rewrite C. destruct (Nat.lt_ge_cases i (length box)) as [Hi|Hi].
  2: { assert (nth_error box i = None) as -> by (apply nth_error_None; lia). destruct (nth_error _ i); cbn; split; try discriminate; lia. }
  specialize (K i Hi). destruct (nth_error box i) as [p|] eqn:Ep; [|apply nth_error_None in Ep; lia].
  unfold asked. destruct ref as [l|].
  - destruct K as [(-> & ->)|([x y] & -> & ->)]; cbn [option_map fst snd].
    + split; [intros E; injection E as <-; auto|]. rewrite Ep. intros (_ & [(_ & E)|E]); congruence.
    + split; [intros E; injection E as <-; auto|]. intros (_ & [(E & _)|E]); [discriminate|]. injection E as -> ->.
      destruct b; auto.
  - rewrite K. cbn [option_map fst snd]. rewrite Ep. split; [auto|tauto].
Qed.
(** ** Points of the prior *)
(** Whatever the generator gives, the point is in the prior: the log-posterior there is the likelihood minus
    the log of the volume of the prior. *)
Theorem C138_prior :
  forall unordered ln f box ref params t u,
    new_truth ln f (Some (box_arr box)) ref params = Ok t -> Forall proper box -> unit_draws u -> length u = length box ->
    exists x, prior_sample unordered t u = Ok x /\ length x = length box /\ in_box box x
      /\ (volume_of ln box <> PInf -> logp t (OVec x) =
           ((do l <- call (loglike_ t) [OVec x]; Ok (nadd (nneg (volume_of ln box)) l)), [OVec x])).
Proof.
  intros unordered ln f box ref params t u Ht Hb Hu L. unfold prior_sample. rewrite (read_box _ _ _ _ _ _ Ht).
  destruct (uniforms_in unordered box u Hb Hu L) as (x & E & Lx & Hx). exists x. split; [exact E|].
  split; [exact Lx|]. split; [exact Hx|]. apply (C04_logp ln f box ref params t x Ht Lx). exact Hx.
Qed.
(** ** Points of the reference *)
(** The points are in the reference box; if that lies within the prior, they are in the prior. *)
Definition within (b p : num * num) : Prop := le (fst p) (fst b) /\ le (snd b) (snd p).
Theorem C138_ref :
  forall unordered ln f box ref params t u,
    new_truth ln f (Some (box_arr box)) ref params = Ok t -> Forall proper (ref_bounds_default_prior t) ->
    unit_draws u -> length u = length box ->
    exists x, ref_sample unordered t u = Ok x /\ in_box (ref_bounds_default_prior t) x
      /\ (Forall2 within (ref_bounds_default_prior t) box -> in_box box x).
Proof.
  intros unordered ln f box ref params t u Ht Hb Hu L. pose proof (C138_reference _ _ _ _ _ _ Ht) as [Lr _].
  destruct (uniforms_in unordered (ref_bounds_default_prior t) u Hb Hu) as (x & E & Lx & Hx); [congruence|].
  exists x. split; [exact E|]. split; [exact Hx|]. intros Hw. clear E Lx. revert x Hx. clear - Hw. unfold in_box.
  induction Hw as [|b p l k [H1 H2] Hw IH]; intros x Hx; inversion Hx as [|? v ? x' [H3 H4] H5]; subst; [constructor|].
  constructor; [|apply IH; exact H5]. split; [eapply nleb_trans; eauto|eapply nleb_trans; eauto].
Qed.
(** A reference that misses the prior is accepted: no point drawn from it is ever evaluated. *)
Theorem C138_outside_refuted :
  forall unordered ln f box ref params t i p b,
    new_truth ln f (Some (box_arr box)) ref params = Ok t -> Forall proper (ref_bounds_default_prior t) ->
    nth_error box i = Some p -> nth_error (ref_bounds_default_prior t) i = Some b ->
    nltb (snd b) (fst p) = true \/ nltb (snd p) (fst b) = true ->
    forall u, unit_draws u -> length u = length box ->
    exists x, ref_sample unordered t u = Ok x /\ logp t (OVec x) = (Ok NInf, []).
Proof.
  intros unordered ln f box ref params t i p b Ht Hb Hp Hr Hm u Hu L. pose proof (C138_reference _ _ _ _ _ _ Ht) as [Lr _].
  destruct (uniforms_in unordered (ref_bounds_default_prior t) u Hb Hu) as (x & E & Lx & Hx); [congruence|].
  exists x. split; [exact E|]. apply (C04_logp ln f box ref params t x Ht); [congruence|]. intros Hi.
  assert (exists v, nth_error x i = Some v /\ le (fst b) v /\ le v (snd b) /\ le (fst p) v /\ le v (snd p)) as (v & _ & H1 & H2 & H3 & H4).
  { clear E Lx Hb Ht Hu L Lr Hm. revert i Hp Hr x Hx Hi. generalize (ref_bounds_default_prior t). intros l. revert box.
    induction l as [|c l IH]; intros box [|i] Hp Hr x Hx Hi; cbn [nth_error] in Hr; try discriminate.
    - injection Hr as ->. inversion Hx as [|? v ? x' Hv Hx']; subst. inversion Hi; subst. cbn in Hp. injection Hp as ->.
      exists v. cbn. tauto.
    - inversion Hx as [|? v ? x' Hv Hx']; subst. inversion Hi; subst. cbn in Hp |- *. eapply IH; eauto. }
  unfold le in *. destruct Hm as [Hm|Hm].
  - assert (nltb (snd b) (snd b) = true) as C; [|rewrite nltb_irrefl in C; discriminate].
    eapply nltb_leb_trans; [exact Hm|]. eapply nleb_trans; eauto.
  - assert (nltb (snd p) (snd p) = true) as C; [|rewrite nltb_irrefl in C; discriminate].
    eapply nltb_leb_trans; [exact Hm|]. eapply nleb_trans; eauto.
Qed.
(** So is a prior whose limits are exchanged: the log-posterior is then -inf everywhere. *)
Theorem C138_exchanged_refuted :
  forall ln f box ref params t i p x,
    new_truth ln f (Some (box_arr box)) ref params = Ok t -> nth_error box i = Some p -> nltb (snd p) (fst p) = true ->
    length x = length box -> logp t (OVec x) = (Ok NInf, []).
Proof.
  intros ln f box ref params t i p x Ht Hp Hm Lx. apply (C04_logp ln f box ref params t x Ht Lx). intros Hi.
  assert (exists v, le (fst p) v /\ le v (snd p)) as (v & H1 & H2).
  { clear - Hp Hi. revert i Hp. unfold in_box in Hi. induction Hi as [|c v l x Hv Hi IH]; intros [|i] Hp; cbn in Hp; try discriminate.
    - injection Hp as ->. eauto.
    - eauto. }
  assert (nltb (snd p) (snd p) = true) as C; [|rewrite nltb_irrefl in C; discriminate].
  eapply nltb_leb_trans; [exact Hm|]. eapply nleb_trans; eauto.
Qed.
(** ** Names and labels *)
Theorem C138_names :
  forall ln f box ref t l m,
    (new_truth ln f (Some (box_arr box)) ref (PSeq l) = Ok t -> params_ t = l /\ labels_ t = l /\ length l = length box)
    /\ (new_truth ln f (Some (box_arr box)) ref (PMap m) = Ok t ->
        params_ t = map fst m /\ labels_ t = map snd m /\ length m = length box)
    /\ (new_truth ln f (Some (box_arr box)) ref PNone = Ok t ->
        NoDup (params_ t) /\ length (params_ t) = length box
        /\ forall i, i < length box -> nth_error (params_ t) i = Some ("x_" ++ str_of_nat (i + 1))%string
            /\ nth_error (labels_ t) i = Some ("x_{" ++ str_of_nat (i + 1) ++ "}")%string).
Proof.
  intros ln f box ref t l m. split; [|split]; intros H; apply new_truth_inv in H as (_ & _ & _ & _ & H & _); unfold read_params in H.
  - destruct (Nat.eqb_spec (length l) (length box)); [|discriminate]. injection H as <- <-. auto.
  - destruct (Nat.eqb_spec (length m) (length box)); [|discriminate]. injection H as <- <-. auto.
  - destruct (generic_params_names (length box) "x_") as [p|] eqn:Ep; [|discriminate]. cbn [bind] in H.
    destruct (generic_params_names (length box) "x_{") as [q|] eqn:Eq; [|discriminate]. cbn [bind] in H.
    injection H as <- <-. destruct (generic_nodup _ _ _ Ep) as [N L]. split; [exact N|]. split; [exact L|].
    intros i Hi. unfold generic_params_names in Ep, Eq. destruct (length box =? 0); [discriminate|].
    injection Ep as <-. injection Eq as <-. rewrite !nth_error_map.
    assert (nth_error (seq 0 (length box)) i = Some i) as ->.
    { rewrite nth_error_nth' with (d := 0) by (rewrite seq_length; exact Hi). rewrite seq_nth; auto. }
    cbn [option_map Nat.add]. split; [reflexivity|]. f_equal.
Qed.
(** ** Boxes that cannot be sampled *)
(** Without limits (or with NaN) in some direction, the others as above: no point, but OverflowError, whatever the generator gives. *)
Definition unlimited (b : num * num) : Prop := ~ exists x y, b = (Fin x, Fin y).
(** Limits in the wrong order. *)
Definition exchanged (b : num * num) : Prop := exists x y, b = (Fin x, Fin y) /\ (y < x)%Qc.
Lemma uniforms_raise unordered e (bad : num * num -> Prop) box : (forall b u, bad b -> (exists q, u = Fin q /\ (0 <= q <= 1)%Qc) -> uniform unordered b u = Err e) ->
  forall u, Forall (fun b => proper b \/ bad b) box -> Exists bad box -> unit_draws u -> length u = length box -> uniforms unordered box u = Err e.
Proof.
  intros Hbad. unfold uniforms. induction box as [|b box IH]; intros [|v u] Hb He Hu L; cbn [length] in L; try discriminate; [inversion He|].
  inversion Hb as [|? ? Hb1 Hb2]; subst. inversion Hu as [|? ? Hu1 Hu2]; subst. cbn [combine mapM fst snd].
  destruct Hb1 as [Hp|Hp]; [|rewrite Hbad by assumption; reflexivity].
  destruct (uniform_in unordered b v Hp Hu1) as (w & Ew & Hw). rewrite Ew. cbn [bind].
  inversion He as [? ? H|? ? H]; subst; [rewrite Hbad in Ew by assumption; discriminate|]. rewrite IH by auto. reflexivity.
Qed.
Lemma unlimited_raises unordered b u : unlimited b -> (exists q, u = Fin q /\ (0 <= q <= 1)%Qc) -> uniform unordered b u = Err OverflowError.
Proof.
  intros H _. destruct b as [lo hi]. unfold uniform. cbn [fst snd]. replace (isfin (nsub hi lo)) with false; [reflexivity|].
  destruct lo, hi; try reflexivity. exfalso. apply H. eauto.
Qed.
Lemma exchanged_left unordered b u : exchanged b -> uniform unordered b u = unordered b u.
Proof.
  intros (x & y & -> & H). unfold uniform. cbn [fst snd nsub nneg nadd isfin negb nltb nz]. change (qc_of_Z 0) with 0%Qc.
  destruct (qltb (y + - x) 0) eqn:E; [reflexivity|exfalso; qc].
Qed.
Theorem C138_unlimited :
  forall unordered ln f box ref params t u,
    new_truth ln f (Some (box_arr box)) ref params = Ok t -> unit_draws u -> length u = length box ->
    (Forall (fun b => proper b \/ unlimited b) box -> Exists unlimited box -> prior_sample unordered t u = Err OverflowError)
    /\ (Forall (fun b => proper b \/ unlimited b) (ref_bounds_default_prior t) -> Exists unlimited (ref_bounds_default_prior t) ->
        ref_sample unordered t u = Err OverflowError).
Proof.
  intros unordered ln f box ref params t u Ht Hu L. pose proof (C138_reference _ _ _ _ _ _ Ht) as [Lr _]. unfold prior_sample, ref_sample. rewrite (read_box _ _ _ _ _ _ Ht).
  split; intros H E; apply (uniforms_raise unordered OverflowError unlimited); auto using unlimited_raises; congruence.
Qed.
(** Limits in the wrong order are left to numpy: if it raises, so does the draw. *)
Theorem C138_exchanged_draw :
  forall unordered e ln f box ref params t u,
    new_truth ln f (Some (box_arr box)) ref params = Ok t -> unit_draws u -> length u = length box ->
    (forall b v, exchanged b -> unordered b v = Err e) ->
    (Forall (fun b => proper b \/ exchanged b) box -> Exists exchanged box -> prior_sample unordered t u = Err e)
    /\ (Forall (fun b => proper b \/ exchanged b) (ref_bounds_default_prior t) -> Exists exchanged (ref_bounds_default_prior t) -> ref_sample unordered t u = Err e).
Proof.
  intros unordered e ln f box ref params t u Ht Hu L Hn. pose proof (C138_reference _ _ _ _ _ _ Ht) as [Lr _]. unfold prior_sample, ref_sample. rewrite (read_box _ _ _ _ _ _ Ht).
  split; intros H E; (apply (uniforms_raise unordered e exchanged); [intros b v Hb _; rewrite exchanged_left by exact Hb; auto|exact H|exact E|exact Hu|congruence]).
Qed.
(** A parameter between 0 and infinity beside one between 0 and 2; and one with the limits 2 and 0. *)
Example C138_unlimited_case :
  (exists t, new_truth ex_ln half_sum (Some (box_arr [(F 0, F 2); (F 0, PInf)])) None PNone = Ok t
    /\ prior_sample (fun _ _ => Err ValueError) t [nq 1 2; nq 1 4] = Err OverflowError)
  /\ (exists t, new_truth ex_ln half_sum (Some (box_arr [(F 0, F 2); (F 2, F 0)])) None PNone = Ok t
    /\ prior_sample (fun _ _ => Err ValueError) t [nq 1 2; nq 1 4] = Err ValueError).
Proof. split; eexists; (split; [reflexivity|]); vm_compute; reflexivity. Qed.
Print Assumptions C138_unlimited.
Print Assumptions C138_exchanged_draw.
Print Assumptions C138_reference.
Print Assumptions C138_prior.
Print Assumptions C138_ref.
Print Assumptions C138_outside_refuted.
Print Assumptions C138_exchanged_refuted.
Print Assumptions C138_names.

(** Two parameters: a reference for the second one only; the generator gives one half and one quarter. *)
Example C138_case :
  exists t, new_truth ex_ln half_sum (Some (box_arr [(F 0, F 2); (F (-1), F 0)])) (Some [None; Some [nq (-1) 2; nq (-1) 4]]) PNone = Ok t
    /\ ref_bounds_default_prior t = [(F 0, F 2); (nq (-1) 2, nq (-1) 4)]
    /\ Forall proper (ref_bounds_default_prior t) /\ unit_draws [nq 1 2; nq 1 4]
    /\ prior_sample (fun _ _ => Err ValueError) t [nq 1 2; nq 1 4] = Ok [F 1; nq (-3) 4]
    /\ ref_sample (fun _ _ => Err ValueError) t [nq 1 2; nq 1 4] = Ok [F 1; nq (-7) 16]
    /\ nth_error (labels_ t) 1 = Some "x_{2}"%string.
Proof.
  eexists. split; [reflexivity|]. split; [reflexivity|]. split; [|split; [|split; [|split]]].
  - repeat constructor; do 2 eexists; (split; [reflexivity|]); unfold Qcle; vm_compute; discriminate.
  - repeat constructor; eexists; (split; [reflexivity|]); split; unfold Qcle; vm_compute; discriminate.
  - vm_compute. apply f_equal. repeat (apply f_equal2; [apply f_equal, Qc_is_canon; reflexivity|]). reflexivity.
  - vm_compute. apply f_equal. repeat (apply f_equal2; [apply f_equal, Qc_is_canon; reflexivity|]). reflexivity.
  - reflexivity.
Qed.
(** Any number of initial points is drawn in vain if the reference is [3, 4] and the prior [0, 2]. *)
Example C138_outside_case :
  exists t, new_truth ex_ln half_sum (Some (box_arr [(F 0, F 2); (F (-1), F 0)])) (Some [Some [F 3; F 4]; None]) PNone = Ok t
    /\ nth_error (ref_bounds_default_prior t) 0 = Some (F 3, F 4) /\ nltb (F 2) (F 3) = true
    /\ ref_sample (fun _ _ => Err ValueError) t [nq 1 2; nq 1 4] = Ok [nq 7 2; nq (-3) 4]
    /\ logp t (OVec [nq 7 2; nq (-3) 4]) = (Ok NInf, []).
Proof.
  eexists. split; [reflexivity|]. split; [reflexivity|]. split; [reflexivity|]. split; [|vm_compute; reflexivity].
  vm_compute. apply f_equal. repeat (apply f_equal2; [apply f_equal, Qc_is_canon; reflexivity|]). reflexivity.
Qed.

(** Properties C04 and C05 (gpry/truth.py). *)
From Coq Require Import DecimalString DecimalNat.
From Verif Require Import MTruth STools PTools.
Set Default Goal Selector "!".

Definition F (z : Z) : num := nz z.

(** ** C04 *)
(** The log of the volume of a box. *)
Definition volume_of (ln : num -> num) (box : list (num * num)) : num :=
  fold_left nadd (map (fun b => ln (nsub (snd b) (fst b))) box) (nz 0).

Lemma new_truth_inv ln f box ref params t :
  new_truth ln f (Some (box_arr box)) ref params = Ok t ->
  prior_bounds t = mkMat 2 (map (fun b => [fst b; snd b]) box)
  /\ log_prior_volume t = volume_of ln box
  /\ wrap_likelihood f (length box) = Ok (loglike_ t)
  /\ read_ref_bounds (length box) ref = Ok (ref_bounds_ t)
  /\ read_params (length box) params = Ok (params_ t, labels_ t)
  /\ ref_bounds_default_prior t = map (fun q => match fst q with Some v => v | None => snd q end) (combine (ref_bounds_ t) box).
Proof.
  unfold new_truth, box_arr, check_and_return_bounds. cbn [atleast_2d nc Nat.eqb bind rows].
  rewrite map_length. intros H.
  destruct (wrap_likelihood f (length box)) as [ll|]; [|discriminate]. cbn [bind] in H.
  destruct (read_ref_bounds (length box) ref) as [rb|]; [|discriminate]. cbn [bind] in H.
  destruct (read_params (length box) params) as [[p l]|]; [|discriminate]. cbn [bind] in H. injection H as <-.
  cbn [prior_bounds log_prior_volume loglike_ ref_bounds_ ref_bounds_default_prior params_ labels_].
  assert (combine (column (mkMat 2 (map (fun b : num * num => [fst b; snd b]) box)) 0)
             (column (mkMat 2 (map (fun b : num * num => [fst b; snd b]) box)) 1) = box) as E.
  { unfold column. cbn [rows]. rewrite !map_map. cbn [nth]. apply combine_fst_snd. }
  repeat split; auto.
  - unfold log_volume, volume_of. rewrite E. reflexivity.
  - rewrite E. reflexivity.
Qed.

Lemma neg_one v : nmul (nz (-1)) v = nneg v.
Proof. destruct v; reflexivity. Qed.

(** For every likelihood, box, and point of its dimension: outside the box -inf and no call of the
    likelihood; inside, minus the log of the volume of the box plus the likelihood, called exactly
    once, at that point (or its exception), provided that the volume is not infinite. *)
Theorem C04_logp :
  forall ln f box ref params t x,
  new_truth ln f (Some (box_arr box)) ref params = Ok t -> length x = length box ->
  (~ in_box box x -> logp t (OVec x) = (Ok NInf, []))
  /\ (in_box box x -> volume_of ln box <> PInf ->
      logp t (OVec x) =
      ((do l <- call (loglike_ t) [OVec x]; Ok (nadd (nneg (volume_of ln box)) l)), [OVec x])).
Proof.
  intros ln f box ref params t x Ht Hx. apply new_truth_inv in Ht as (Hb & Hv & _).
  unfold logp, logprior, arr_of_obj. rewrite Hb.
  change (Mat (mkMat 2 (map (fun b => [fst b; snd b]) box))) with (box_arr box).
  change (Vec x) with (Vec x).
  assert (is_in_bounds (Vec x) (box_arr box) false = Ok [box_test box x]) as ->.
  { change (is_in_bounds (Vec x) (box_arr box) false) with (is_in_bounds (points_arr (length x) [x]) (box_arr box) false).
    rewrite is_in_bounds_eq by auto. reflexivity. }
  cbn [bind]. pose proof (box_test_spec box x Hx) as K. destruct (box_test box x).
  - split; [intros H; exfalso; apply H, K; auto|]. intros _ Hvol. rewrite neg_one, Hv.
    destruct (neqb (nneg (volume_of ln box)) NInf) eqn:E; [|reflexivity].
    apply neqb_eq in E. destruct (volume_of ln box); simpl in E; try discriminate. congruence.
  - split; [reflexivity|]. intros H. apply K in H. discriminate.
Qed.
Print Assumptions C04_logp.

(** The likelihood that is called is the user's: with one argument per parameter, or with the
    point as one vector. *)
Definition n_positional (s : list param) : nat := length (filter is_positional s).
Definition simple_sig (n : nat) : list param := repeat (PosOrKw, false) n.
Lemma simple_counts n : length (filter is_positional (simple_sig n)) = n /\ filter is_kwonly (simple_sig n) = []
  /\ has_varpos (simple_sig n) = false /\ has_varkw (simple_sig n) = false.
Proof. induction n as [|n (H1 & H2 & H3 & H4)]; simpl in *; auto. Qed.
Theorem C04_user_likelihood :
  forall ln f box ref params t x, length x = length box -> 2 <= length box ->
  new_truth ln f (Some (box_arr box)) ref params = Ok t ->
  (sig f = simple_sig (length box) -> call (loglike_ t) [OVec x] = call f (map ONum x))
  /\ (sig f = simple_sig 1 -> call (loglike_ t) [OVec x] = call f [OVec x]).
Proof.
  intros ln f box ref params t x Hx Hd Ht. apply new_truth_inv in Ht as (_ & _ & Hw & _).
  unfold wrap_likelihood in Hw. split; intros Hs; rewrite Hs in Hw.
  - destruct (simple_counts (length box)) as (H1 & H2 & _). rewrite H1, Nat.eqb_refl in Hw. simpl in Hw.
    injection Hw as <-. reflexivity.
  - simpl in Hw. destruct (length box) as [|[|n]]; try lia. simpl in Hw. injection Hw as <-. reflexivity.
Qed.
Print Assumptions C04_user_likelihood.
(** In one dimension a likelihood of one argument receives the coordinate, not a vector. *)
Theorem C04_one_dimension :
  forall ln f box ref params t v, length box = 1 -> sig f = simple_sig 1 ->
  new_truth ln f (Some (box_arr box)) ref params = Ok t ->
  call (loglike_ t) [OVec [v]] = call f [ONum v].
Proof.
  intros ln f box ref params t v Hd Hs Ht. apply new_truth_inv in Ht as (_ & _ & Hw & _).
  unfold wrap_likelihood in Hw. rewrite Hs, Hd in Hw. simpl in Hw. injection Hw as <-. reflexivity.
Qed.
Print Assumptions C04_one_dimension.

(** Any other signature, [def f(...)]: parameters that can be given by position (before or after a [/], with or without default), [*args], those after [*] or [*args] that need
    their name, [**kwargs]. *)
Definition by_position (p : param) : Prop := fst p = PosOnly \/ fst p = PosOrKw.
Lemma all_positional s : Forall by_position s -> filter is_positional s = s /\ filter is_kwonly s = [] /\ has_varpos s = false.
Proof.
  induction s as [|[k b] s IH]; intros H; [auto|]. inversion H as [|? ? [Hk|Hk] H']; subst; cbn in Hk; subst k; destruct (IH H') as (H1 & H2 & H3); cbn in *; rewrite H1, H2; auto.
Qed.
(** One parameter by position for each dimension: called with the coordinates. *)
Theorem C04_by_position :
  forall ln f box ref params t x, new_truth ln f (Some (box_arr box)) ref params = Ok t ->
  Forall by_position (sig f) -> length (sig f) = length box -> length x = length box ->
  call (loglike_ t) [OVec x] = body f (map ONum x).
Proof.
  intros ln f box ref params t x Ht Hs Hl Hx. apply new_truth_inv in Ht as (_ & _ & Hw & _).
  destruct (all_positional _ Hs) as (H1 & H2 & H3). unfold wrap_likelihood in Hw. rewrite H1, Hl, Nat.eqb_refl in Hw. cbn [orb] in Hw. injection Hw as <-.
  unfold call at 1. cbn [sig wrapped fits]. change (fits [(PosOrKw, false)] (length [OVec x])) with true. cbn [wrapped body star bind].
  unfold call. assert (fits (sig f) (length (map ONum x)) = true) as ->; [|reflexivity].
  unfold fits. rewrite map_length, Hx, H1, Hl, Nat.leb_refl, orb_true_r, andb_true_r.
  assert (existsb (fun p => is_kwonly p && negb (snd p)) (sig f) = false) as ->.
  { clear - Hs. induction Hs as [|[k b] s [H|H] Hs IH]; [reflexivity| |]; cbn in H; subst k; exact IH. }
  rewrite andb_true_r. apply Nat.leb_le. rewrite <- Hl.
  assert (forall (h : param -> bool) s, length (filter h s) <= length s) as A; [|apply A]. induction s as [|p s IH]; [auto|]. cbn. destruct (h p); cbn; lia.
Qed.
(** Refuted for parameters that need their name, as in [def f(a, *, b)]: they are counted, the likelihood is accepted, but it is called by position: each evaluation raises. *)
Theorem C04_keyword_only_refuted :
  forall ln f box ref params t x, new_truth ln f (Some (box_arr box)) ref params = Ok t ->
  has_varpos (sig f) = false -> length (filter is_positional (sig f)) < length box -> length (filter is_positional (sig f)) + length (filter is_kwonly (sig f)) = length box ->
  length x = length box -> call (loglike_ t) [OVec x] = Err TypeError.
Proof.
  intros ln f box ref params t x Ht Hv Hp Ha Hx. apply new_truth_inv in Ht as (_ & _ & Hw & _).
  unfold wrap_likelihood in Hw. rewrite Ha, Nat.eqb_refl, orb_true_r in Hw. injection Hw as <-.
  unfold call at 1. cbn [sig wrapped fits]. change (fits [(PosOrKw, false)] (length [OVec x])) with true. cbn [wrapped body star bind].
  unfold call, fits. rewrite map_length, Hx, Hv. cbn [orb].
  assert (length box <=? length (filter is_positional (sig f)) = false) as ->; [apply Nat.leb_gt; exact Hp|]. rewrite andb_false_r. reflexivity.
Qed.
(** Refused, though they could be called with one number per parameter: those with [*args] in place of the parameters, and those with more parameters than dimensions of which the
    others have defaults. *)
Theorem C04_refused_refuted :
  forall ln f box ref params t, 2 <= length box ->
  ((forall p, In p (sig f) -> fst p = VarPos) -> new_truth ln f (Some (box_arr box)) ref params <> Ok t)
  /\ (Forall by_position (sig f) -> length box < length (sig f) -> new_truth ln f (Some (box_arr box)) ref params <> Ok t).
Proof.
  intros ln f box ref params t Hd. split.
  - intros H Ht. apply new_truth_inv in Ht as (_ & _ & Hw & _). unfold wrap_likelihood in Hw.
    assert (filter is_positional (sig f) = [] /\ filter is_kwonly (sig f) = []) as [E1 E2].
    { clear - H. induction (sig f) as [|[k b] s IH]; [auto|]. assert (k = VarPos) as -> by (apply (H (k, b)); left; reflexivity). cbn. apply IH. intros p Hp. apply H. right. exact Hp. }
    rewrite E1, E2 in Hw. cbn [length] in Hw. destruct (length box); [lia|]. cbn in Hw. discriminate.
  - intros Hs Hl Ht. apply new_truth_inv in Ht as (_ & _ & Hw & _). destruct (all_positional _ Hs) as (H1 & H2 & H3). unfold wrap_likelihood in Hw. rewrite H1, H2 in Hw.
    cbn [length] in Hw. rewrite Nat.add_0_r in Hw.
    assert (length (sig f) =? length box = false) as E by (apply Nat.eqb_neq; lia). assert (length (sig f) =? 1 = false) as E1 by (apply Nat.eqb_neq; lia).
    rewrite E, E1 in Hw. cbn in Hw. discriminate.
Qed.
Print Assumptions C04_by_position.
Print Assumptions C04_keyword_only_refuted.
Print Assumptions C04_refused_refuted.

Definition half_sum : fn := mkFn (simple_sig 2) (fun a =>
  match a with [ONum u; ONum v] => Ok (nadd u v) | _ => Err TypeError end).
(** A logarithm good enough for the widths 1 and 2 of the examples. *)
Definition ex_ln (x : num) : num :=
  if neqb x (F 0) then NInf else if neqb x (F 1) then F 0 else if neqb x (F 2) then nq 7 10 else PInf.
Example C04_case : exists t, new_truth ex_ln half_sum (Some (box_arr [(F 0, F 2); (F (-1), F 0)])) None PNone = Ok t
  /\ logp t (OVec [F 2; F (-1)]) = (Ok (nadd (nq (-7) 10) (F 1)), [OVec [F 2; F (-1)]])
  /\ logp t (OVec [F 2; F 1]) = (Ok NInf, [])
  /\ logp t (OVec [NaN; F 0]) = (Ok NInf, []).
Proof. eexists. split; [reflexivity|]. repeat split; vm_compute; reflexivity. Qed.

Definition two_numbers (s : list param) : fn := mkFn s (fun a => match a with [ONum u; ONum v] => Ok (nadd u v) | _ => Err TypeError end).
Example C04_signatures_case : let T s := new_truth ex_ln (two_numbers s) (Some (box_arr [(F 0, F 2); (F (-1), F 0)])) None PNone in
  (exists t, T [(PosOnly, false); (PosOrKw, true)] = Ok t /\ call (loglike_ t) [OVec [F 1; F 0]] = Ok (F 1))
  /\ (exists t, T [(PosOrKw, false); (KwOnly, false)] = Ok t /\ call (loglike_ t) [OVec [F 1; F 0]] = Err TypeError)
  /\ T [(VarPos, false)] = Err ValueError /\ T [(PosOrKw, false); (PosOrKw, false); (PosOrKw, true)] = Err ValueError.
Proof.
  cbv zeta. split; [eexists; split; [reflexivity|vm_compute; reflexivity]|]. split; [eexists; split; [reflexivity|vm_compute; reflexivity]|]. split; vm_compute; reflexivity.
Qed.

(** A parameter whose interval has no width makes the log-prior +inf inside the prior. *)
Theorem C04_zero_width_refuted :
  exists t l, new_truth ex_ln half_sum (Some (box_arr [(F 0, F 2); (F 1, F 1)])) None PNone = Ok t
  /\ call half_sum [ONum (F 1); ONum (F 1)] = Ok l /\ isfin l = true
  /\ fst (logp t (OVec [F 1; F 1])) = Ok PInf.
Proof. do 2 eexists. split; [reflexivity|]. repeat split; vm_compute; reflexivity. Qed.
Print Assumptions C04_zero_width_refuted.

(** ** C05 *)
Lemma mapM_ref l : mapM (fun v : ref_entry => match v with
      | None => Ok None | Some [a; b] => Ok (Some (a, b)) | Some _ => Err TypeError end)
    (map (option_map (fun p : num * num => [fst p; snd p])) l) = Ok l.
Proof.
  induction l as [|a l IH]; simpl; auto.
  destruct a as [[u v]|]; cbn [option_map fst snd bind]; rewrite IH; reflexivity.
Qed.
Lemma mapM_length {A B} (f : A -> res B) l k : mapM f l = Ok k -> length k = length l.
Proof. intros H. apply mapM_Forall2 in H. induction H; simpl; auto. Qed.

Lemma to_dict_id l : NoDup (map fst l) -> to_dict l = l.
Proof.
  unfold to_dict. assert (forall k m, NoDup (map fst (m ++ k)) ->
    fold_left (fun m (p : string * string) => dict_put (fst p) (snd p) m) k m = m ++ k) as H.
  { induction k as [|[a b] k IH]; intros m Hm; simpl; [rewrite app_nil_r; auto|].
    assert (dict_put a b m = m ++ [(a, b)]) as ->.
    { unfold dict_put. destruct (existsb _ m) eqn:E; auto. exfalso.
      apply existsb_exists in E as ((c, v) & Hc & Ec). apply String.eqb_eq in Ec. simpl in Ec. subst c.
      rewrite map_app in Hm. simpl in Hm. apply NoDup_remove_2 in Hm. apply Hm.
      apply in_or_app. left. apply in_map_iff. exists (a, v). auto. }
    rewrite IH; rewrite <- app_assoc; auto. }
  intros Hl. rewrite H; auto.
Qed.

Lemma str_of_nat_inj a b : str_of_nat a = str_of_nat b -> a = b.
Proof.
  unfold str_of_nat. intros H. apply (f_equal NilEmpty.uint_of_string) in H.
  rewrite !NilEmpty.usu in H. injection H as H. apply DecimalNat.Unsigned.to_uint_inj; auto.
Qed.
Lemma append_inj p a b : String.append p a = String.append p b -> a = b.
Proof. induction p; simpl; intros H; auto. injection H; auto. Qed.
Lemma generic_nodup n p l : generic_params_names n p = Ok l -> NoDup l /\ length l = n.
Proof.
  unfold generic_params_names. destruct (n =? 0); [discriminate|]. intros H. injection H as <-.
  split; [|rewrite map_length, seq_length; auto].
  apply FinFun.Injective_map_NoDup; [|apply seq_NoDup].
  intros a b H. apply append_inj, str_of_nat_inj in H. lia.
Qed.

(** Rebuilding a truth from what it saves gives the same truth (bounds, reference bounds, names,
    labels, prior volume, and the same function), for any likelihood accepted by [Truth] in at
    least two dimensions, when no name is given twice. *)
Theorem C05_rebuild :
  forall ln f box ref params t, 2 <= length box ->
  new_truth ln f (Some (box_arr box)) ref params = Ok t ->
  (match params with PSeq l => NoDup l | PMap m => NoDup (map fst m) | _ => True end) ->
  rebuild ln (as_dict t) = Ok t.
Proof.
  intros ln f box ref params t Hd Ht Hp.
  apply new_truth_inv in Ht as (Hb & Hv & Hw & Hr & Hpl & Hdef).
  assert (wrap_likelihood (loglike_ t) (length box) = Ok (loglike_ t)) as Hw'.
  { unfold wrap_likelihood in Hw.
    destruct ((length (filter is_positional (sig f)) =? length box)
        || (length (filter is_positional (sig f)) + length (filter is_kwonly (sig f)) =? length box)) eqn:E1.
    - injection Hw as <-. unfold wrap_likelihood. simpl.
      destruct (length box) as [|[|n]]; try lia. reflexivity.
    - destruct ((length (filter is_positional (sig f)) =? 1) && negb (has_varpos (sig f)) && negb (has_varkw (sig f))) eqn:E2; [|discriminate].
      injection Hw as <-. unfold wrap_likelihood. rewrite E1, E2. reflexivity. }
  assert (length (ref_bounds_ t) = length box) as Hrl.
  { unfold read_ref_bounds in Hr. destruct ref as [l|].
    - destruct (Nat.eqb_spec (length l) (length box)) as [E|]; [|discriminate]. apply mapM_length in Hr. etransitivity; [exact Hr|exact E].
    - injection Hr as <-. apply repeat_length. }
  assert (NoDup (params_ t) /\ length (params_ t) = length box /\ length (labels_ t) = length box) as (Hnd & Hpn & Hln).
  { unfold read_params in Hpl. destruct params as [|l|m|]; try discriminate.
    - destruct (generic_params_names (length box) "x_") as [p|] eqn:Ep; [|discriminate]. cbn [bind] in Hpl.
      destruct (generic_params_names (length box) "x_{") as [l|] eqn:El; [|discriminate]. cbn [bind] in Hpl.
      injection Hpl as <- <-. apply generic_nodup in Ep as [? ?]. apply generic_nodup in El as [? ?].
      rewrite map_length. auto.
    - destruct (Nat.eqb_spec (length l) (length box)) as [E|]; [|discriminate]. injection Hpl as <- <-. auto.
    - destruct (Nat.eqb_spec (length m) (length box)) as [E|]; [|discriminate]. injection Hpl as <- <-.
      rewrite !map_length. auto. }
  assert (map fst (combine (params_ t) (labels_ t)) = params_ t /\ map snd (combine (params_ t) (labels_ t)) = labels_ t) as [E1 E2].
  { revert Hpn Hln. generalize (length box). generalize (labels_ t). generalize (params_ t).
    induction l as [|a l IH]; intros [|b k] n H1 H2; simpl in *; subst; try discriminate; auto.
    destruct (IH k (length l)) as [-> ->]; auto. }
  assert (rebuild ln (as_dict t) = new_truth ln (loglike_ t) (Some (box_arr box))
     (Some (map (option_map (fun p => [fst p; snd p])) (ref_bounds_ t)))
     (PMap (combine (params_ t) (labels_ t)))) as ->.
  { unfold rebuild, as_dict. cbn [arg_loglike arg_bounds arg_ref arg_params].
    rewrite Hb, to_dict_id by (rewrite E1; auto). reflexivity. }
  unfold new_truth, box_arr, check_and_return_bounds. cbn [atleast_2d nc Nat.eqb bind rows].
  rewrite map_length, Hw'. cbn [bind]. unfold read_ref_bounds. rewrite map_length, Hrl, Nat.eqb_refl.
  rewrite mapM_ref. cbn [bind]. unfold read_params.
  rewrite combine_length, Hpn, Hln, Nat.min_id, Nat.eqb_refl. cbn [bind]. rewrite E1, E2.
  assert (combine (column (mkMat 2 (map (fun b : num * num => [fst b; snd b]) box)) 0)
             (column (mkMat 2 (map (fun b : num * num => [fst b; snd b]) box)) 1) = box) as E.
  { unfold column. cbn [rows]. rewrite !map_map. cbn [nth]. apply combine_fst_snd. }
  unfold log_volume. rewrite E. destruct t; simpl in *. subst. reflexivity.
Qed.
Print Assumptions C05_rebuild.
Example C05_case : exists t, new_truth ex_ln half_sum (Some (box_arr [(F 0, F 2); (F (-1), F 0)]))
    (Some [None; Some [F (-1); F (-1)]]) (PMap [("a", "\alpha"); ("b", "\beta")])%string = Ok t
  /\ rebuild ex_ln (as_dict t) = Ok t
  /\ params_ t = ["a"; "b"]%string /\ labels_ t = ["\alpha"; "\beta"]%string.
Proof. eexists. split; [reflexivity|]. split; [apply (C05_rebuild ex_ln half_sum [(F 0, F 2); (F (-1), F 0)] (Some [None; Some [F (-1); F (-1)]]) (PMap [("a", "\alpha"); ("b", "\beta")])%string); simpl; auto; repeat constructor; simpl; intuition discriminate|]. split; reflexivity. Qed.

(** In one dimension the rebuilt truth raises TypeError on every evaluation inside the prior,
    whatever the likelihood. *)
Theorem C05_one_dimension_refuted :
  forall ln f box ref params t, length box = 1 -> sig f = simple_sig 1 ->
  new_truth ln f (Some (box_arr box)) ref params = Ok t ->
  exists t', rebuild ln (as_dict t) = Ok t' /\
  (forall v, in_box box [v] -> volume_of ln box <> PInf -> fst (logp t' (OVec [v])) = Err TypeError)
  /\ (forall v, in_box box [v] -> volume_of ln box <> PInf ->
      fst (logp t (OVec [v])) = do l <- call f [ONum v]; Ok (nadd (nneg (volume_of ln box)) l)).
Proof.
  intros ln f box ref params t Hd Hs Ht. pose proof Ht as Ht0.
  apply new_truth_inv in Ht as (Hb & Hv & Hw & Hr & Hpl & Hdef).
  rewrite Hd in *.
  assert (loglike_ t = wrapped f) as Hll.
  { unfold wrap_likelihood in Hw. rewrite Hs in Hw. simpl in Hw. congruence. }
  assert (length (ref_bounds_ t) = 1) as Hrl.
  { unfold read_ref_bounds in Hr. destruct ref as [l|].
    - destruct (Nat.eqb_spec (length l) 1) as [E|]; [|discriminate]. apply mapM_length in Hr. etransitivity; [exact Hr|exact E].
    - injection Hr as <-. reflexivity. }
  assert (exists a b, params_ t = [a] /\ labels_ t = [b]) as (a & b & Ea & Eb).
  { unfold read_params in Hpl. destruct params as [|l|m|]; try discriminate.
    - cbn in Hpl. injection Hpl as <- <-. eauto.
    - destruct l as [|x [|]]; try discriminate. injection Hpl as <- <-. eauto.
    - destruct m as [|x [|]]; try discriminate. injection Hpl as <- <-. eauto. }
  assert (rebuild ln (as_dict t) = new_truth ln (loglike_ t) (Some (box_arr box))
     (Some (map (option_map (fun p => [fst p; snd p])) (ref_bounds_ t))) (PMap [(a, b)])) as Er.
  { unfold rebuild, as_dict. cbn [arg_loglike arg_bounds arg_ref arg_params].
    rewrite Hb, Ea, Eb. reflexivity. }
  destruct (new_truth ln (loglike_ t) (Some (box_arr box))
     (Some (map (option_map (fun p => [fst p; snd p])) (ref_bounds_ t))) (PMap [(a, b)])) as [t'|] eqn:Et'.
  2:{ exfalso. revert Et'. unfold new_truth, box_arr, check_and_return_bounds. cbn [atleast_2d nc Nat.eqb bind rows].
      rewrite map_length, Hd, Hll. cbn [wrap_likelihood wrapped sig bind]. simpl.
      rewrite map_length, Hrl. simpl. rewrite mapM_ref. discriminate. }
  exists t'. split; auto. split.
  - intros v Hin Hvol. destruct (C04_logp _ _ _ _ _ _ [v] Et' ltac:(simpl; lia)) as [_ K].
    rewrite (K Hin Hvol). apply new_truth_inv in Et' as (_ & _ & Hw' & _).
    rewrite Hd, Hll in Hw'. cbn in Hw'. injection Hw' as <-. reflexivity.
  - intros v Hin Hvol. destruct (C04_logp _ _ _ _ _ _ [v] Ht0 ltac:(simpl; lia)) as [_ K].
    rewrite (K Hin Hvol), Hll. reflexivity.
Qed.
Print Assumptions C05_one_dimension_refuted.
Example C05_one_dimension_case :
  let f := mkFn (simple_sig 1) (fun a => match a with [ONum v] => Ok v | _ => Err TypeError end) in
  exists t t', new_truth ex_ln f (Some (box_arr [(F 0, F 2)])) None PNone = Ok t
   /\ rebuild ex_ln (as_dict t) = Ok t' /\ is_ok (fst (logp t (OVec [F 1]))) = true
   /\ fst (logp t' (OVec [F 1])) = Err TypeError.
Proof. do 2 eexists. split; [reflexivity|]. split; [reflexivity|]. split; vm_compute; reflexivity. Qed.

(** A list of names with a repetition is accepted, but what it saves cannot be read back. *)
Theorem C05_repeated_name_refuted :
  exists t, new_truth ex_ln half_sum (Some (box_arr [(F 0, F 2); (F (-1), F 0)])) None (PSeq ["a"; "a"]%string) = Ok t
  /\ rebuild ex_ln (as_dict t) = Err TypeError.
Proof. eexists. split; vm_compute; reflexivity. Qed.
Print Assumptions C05_repeated_name_refuted.
(** A likelihood with a keyword-only parameter without default is accepted (if that parameter completes the number of
    dimensions, or if it comes in addition) but can never be evaluated. *)
Theorem C05_keyword_only_refuted :
  forall f, In (sig f) [[(PosOrKw, false); (KwOnly, false)]; [(PosOrKw, false); (PosOrKw, false); (KwOnly, false)]] ->
  exists t, new_truth ex_ln f (Some (box_arr [(F 0, F 2); (F (-1), F 0)])) None PNone = Ok t
  /\ (forall v w, in_box [(F 0, F 2); (F (-1), F 0)] [v; w] -> fst (logp t (OVec [v; w])) = Err TypeError).
Proof.
  intros [s b] Hs. cbn [sig] in Hs.
  destruct Hs as [<-|[<-|[]]]; eexists; (split; [reflexivity|]); intros v w H; match goal with |- context [logp ?t _] => set (t0 := t) end.
  - destruct (C04_logp ex_ln (mkFn [(PosOrKw, false); (KwOnly, false)] b) [(F 0, F 2); (F (-1), F 0)] None PNone t0 [v; w]) as [_ K]; auto.
    rewrite K; [reflexivity|auto|vm_compute; discriminate].
  - destruct (C04_logp ex_ln (mkFn [(PosOrKw, false); (PosOrKw, false); (KwOnly, false)] b) [(F 0, F 2); (F (-1), F 0)] None PNone t0 [v; w]) as [_ K]; auto.
    rewrite K; [reflexivity|auto|vm_compute; discriminate].
Qed.
Print Assumptions C05_keyword_only_refuted.

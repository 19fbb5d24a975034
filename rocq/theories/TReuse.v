(** How GaussianKL uses an earlier Monte Carlo sample again (C114). *)
From Verif Require Import SConv MReuse.
From Verif Require MReweight PKl TKl.
Set Default Goal Selector "!".
Set Bullet Behavior "Strict Subproofs".

Section C114.
Context {M S G : Type}.
Variable kl : M -> M -> res num.
Variable reweighted : G -> S -> res M.
Variable sample : G -> option M -> res S.
Variable mean_cov : S -> M.
Variable limit : num.
Variable max_reused : nat.
Notation check := (check kl reweighted sample mean_cov limit max_reused).
Notation checks := (checks kl reweighted sample mean_cov limit max_reused).
Notation from_mc := (from_mc kl reweighted sample mean_cov limit max_reused).
Notation new_mean_cov := (new_mean_cov kl reweighted sample mean_cov limit max_reused).
Notation state := (state M S).
Notation request := (request M G).

(** The checks that used an earlier sample again. *)
Definition reuses (rs : list (res bool * bool)) : nat := count_true (map snd rs).

Lemma reusable_spec vs n k b : reusable limit max_reused vs n k = Ok b -> b = true -> n < max_reused.
Proof.
  unfold reusable. destruct (py_max vs); cbn [bind]; [|discriminate]. destruct (py_end vs); cbn [bind]; [|discriminate].
  intros E ->. injection E as E. apply andb_true_iff in E as [_ E]. apply Nat.ltb_lt, E.
Qed.
Lemma from_mc_count st g st' r : from_mc st g = (st', r) ->
  crit st' = crit st /\ match r with Ok (_, true) => n_reused st' = 1 + n_reused st /\ n_reused st < max_reused | _ => n_reused st' = n_reused st end.
Proof.
  unfold from_mc. cbn [crit n_reused last_collection thres]. destruct (last_collection st) as [s|].
  - destruct (reweighted g s) as [m|x]; cbn [bind]; [|intros E; injection E as <- <-; auto].
    destruct (kl_reweight kl m (last_mc (crit st))) as [k|x]; cbn [bind]; [|intros E; injection E as <- <-; auto].
    destruct (reusable limit max_reused _ _ k) as [[]|x] eqn:Er; cbn [bind].
    + intros E; injection E as <- <-. cbn. split; [reflexivity|]. split; [reflexivity|]. apply (reusable_spec _ _ _ _ Er eq_refl).
    + destruct (sample g (Some m)); intros E; injection E as <- <-; auto.
    + intros E; injection E as <- <-; auto.
  - destruct (sample g None); intros E; injection E as <- <-; auto.
Qed.
Lemma check_count value lt st q st' v b : check value lt st q = (st', v, b) ->
  n_reused st' = n_reused st + (if b then 1 else 0) /\ (b = true -> n_reused st < max_reused).
Proof.
  unfold MReuse.check, MReuse.new_mean_cov. destruct (from_acquisition q) as [r|].
  - destruct r as [m|x]; cbn [bind]; destruct (kl_is_converged _ _ _ _ _) as [c w]; intros E; injection E as <- <- <-; cbn; split; try lia; discriminate.
  - destruct (MReuse.from_mc _ _ _ _ _ _ st (surrogate q)) as [st1 r] eqn:Em. apply from_mc_count in Em as [_ Em].
    destruct (kl_is_converged _ _ _ _ _) as [c w]. intros E. injection E as <- <- <-. cbn [n_reused].
    destruct r as [[m []]|x]; [destruct Em; split; [lia|auto]| |]; (split; [lia|discriminate]).
Qed.
Lemma checks_count value lt : forall qs st st' rs, checks value lt st qs = (st', rs) -> n_reused st <= max_reused ->
  n_reused st' = n_reused st + reuses rs /\ n_reused st' <= max_reused.
Proof.
  induction qs as [|q qs IH]; intros st st' rs E H; cbn [MReuse.checks] in E.
  - injection E as <- <-. cbn. lia.
  - destruct (check value lt st q) as [[st1 v] b] eqn:E1. destruct (checks value lt st1 qs) as [st2 rs'] eqn:E2. injection E as <- <-.
    destruct (check_count _ _ _ _ _ _ _ E1) as [C1 C2]. assert (n_reused st1 <= max_reused) as H1 by (destruct b; [specialize (C2 eq_refl); lia|lia]).
    destruct (IH _ _ _ E2 H1) as [I1 I2]. unfold reuses, count_true in *. cbn [map filter snd]. destruct b; cbn [filter length]; lia.
Qed.
(** Whatever happens, at most [max_reused] of the checks of a run use an earlier sample again (for GaussianKL and its subclasses). *)
Theorem C114_at_most : forall value lt qs st rs, checks value lt new_state qs = (st, rs) -> reuses rs <= max_reused.
Proof. intros value lt qs st rs E. apply checks_count in E; [cbn [n_reused new_state] in E; lia|cbn; lia]. Qed.

(** ** GaussianKL: when *)
Notation value := (gaussian_kl_value kl).
Definition invariant (st : state) : Prop :=
  (values (hist (crit st)) = [] -> last_collection st = None /\ last_mc (crit st) = None) /\ (forall v l, values (hist (crit st)) = v :: l -> v = NaN).
Lemma app_first {A} (l : list A) x v l' : l ++ [x] = v :: l' -> match l with [] => x = v | y :: _ => y = v end.
Proof. destruct l; cbn; intros E; injection E; auto. Qed.
Lemma kl_record (st : state) k c v : gaussian_kl_value kl (crit st) k = (c, v) ->
  (exists x, new_mc k = Err x /\ c = crit st) \/ (exists w, values (hist c) = values (hist (crit st)) ++ [w] /\ (last_mc (crit st) = None -> w = NaN)).
Proof.
  intros E. unfold gaussian_kl_value in E. destruct (new_mc k) as [m|x]; [|destruct (is_check_error x); [|injection E as <- _; left; eauto]].
  - right. destruct (last_mc (crit st)) as [old|]; [|injection E as <- _; cbn; eauto].
    destruct (kl m old) as [w|x]; [destruct (nltb w (nz 0))|]; injection E as <- _; cbn; eexists; (split; [reflexivity|discriminate]).
  - injection E as <- _. right. cbn. eauto.
Qed.
Lemma check_invariant lt st q st' v b : invariant st -> check value lt st q = (st', v, b) -> invariant st'.
Proof.
  intros [I1 I2] E. unfold MReuse.check in E. destruct (new_mean_cov st q) as [st1 r] eqn:En.
  assert (crit st1 = crit st /\ (forall x, r = Err x -> last_collection st1 = last_collection st)) as (C1 & C2).
  { unfold MReuse.new_mean_cov in En. destruct (from_acquisition q).
    - injection En as <- <-. auto.
    - split; [apply (from_mc_count _ _ _ _ En)|]. intros x ->. unfold MReuse.from_mc in En. cbn [last_collection crit] in En.
      destruct (last_collection st) as [s|] eqn:El; [|destruct (sample _ _); injection En as <- ?; [discriminate|reflexivity]].
      destruct (reweighted (surrogate q) s) as [m|y]; cbn [bind] in En; [|injection En as <- _; reflexivity].
      destruct (kl_reweight kl m (last_mc (crit st))) as [k|y]; cbn [bind] in En; [|injection En as <- _; reflexivity].
      destruct (reusable limit max_reused _ _ k) as [[]|y]; cbn [bind] in En; [injection En as <- ?; discriminate| |injection En as <- _; reflexivity].
      destruct (sample _ _); injection En as <- ?; [discriminate|reflexivity]. }
  unfold kl_is_converged in E. destruct (gaussian_kl_value kl (crit st1) _) as [c w] eqn:Ev. injection E as <- _ _.
  assert (Ev' := Ev). apply kl_record in Ev. rewrite C1 in *. unfold invariant. cbn [crit last_collection].
  destruct Ev as [(x & Ex & ->)|(w' & Ew & Hw)].
  - split; [|exact I2]. cbn [new_mc] in Ex. destruct r as [[m b']|y]; [discriminate|]. rewrite (C2 y eq_refl). exact I1.
  - rewrite Ew. split; [intros N; apply app_eq_nil in N as [_ N]; discriminate|]. intros v0 l0 E0. apply app_first in E0.
    destruct (values (hist (crit st))) as [|y ys] eqn:Evs; [|subst y; eapply I2; reflexivity].
    destruct (I1 eq_refl) as [_ Hm]. subst v0. apply Hw, Hm.
Qed.
Lemma checks_invariant lt : forall qs st st' rs, invariant st -> checks value lt st qs = (st', rs) -> invariant st'.
Proof.
  induction qs as [|q qs IH]; intros st st' rs H E; cbn [MReuse.checks] in E; [injection E as <- _; exact H|].
  destruct (check value lt st q) as [[st1 v] b] eqn:E1. destruct (checks value lt st1 qs) as [st2 rs'] eqn:E2. injection E as <- _.
  apply (IH _ _ _ (check_invariant _ _ _ _ _ _ H E1) E2).
Qed.
Lemma max_nan l : fold_left pymax l NaN = NaN.
Proof. induction l as [|x l IH]; [reflexivity|exact IH]. Qed.
(** A check of GaussianKL, after any others, uses the earlier sample again exactly if the engine has no sample, and both divergences between the approximation
    with new weights and the last one are below the last value recorded, the larger of them positive, unless [max_reused] checks have done so already. *)
Theorem C114_when : forall lt qs st rs q, checks value lt new_state qs = (st, rs) ->
  (snd (check value lt st q) = true <->
   from_acquisition q = None /\ reuses rs < max_reused /\
   exists s m old a b l v, last_collection st = Some s /\ last_mc (crit st) = Some old /\ values (hist (crit st)) = l ++ [v] /\
     reweighted (surrogate q) s = Ok m /\ kl m old = Ok a /\ kl old m = Ok b /\ nltb (nz 0) (pymax a b) = true /\ nltb (pymax a b) v = true).
Proof.
  intros lt qs st rs q E. assert (I : invariant st).
  { apply (checks_invariant lt qs new_state st rs); [|exact E]. split; cbn; auto. discriminate. }
  apply checks_count in E as [E _]; [|cbn; lia]. cbn [n_reused new_state Nat.add] in E. rewrite <- E. destruct I as [I1 I2].
  unfold MReuse.check, MReuse.new_mean_cov. destruct (from_acquisition q) as [r|].
  { destruct (kl_is_converged _ _ _ _ _) as [c w]. cbn [snd]. split; [|intros [C _]; discriminate]. destruct r; cbn; discriminate. }
  assert (K : forall X : state * res (M * bool), snd (let (st1, r) := X in let k := mkCall (do x <- r; Ok (fst x)) (q_train q) (q_total q) (q_n q) in
     let (c, v) := kl_is_converged value limit lt (crit st1) k in (mkSt c (n_reused st1) (last_collection st1) (thres st1), v, match r with Ok (_, b) => b | Err _ => false end))
     = match snd X with Ok (_, b) => b | Err _ => false end).
  { intros [st1 r]. cbn [snd]. destruct (kl_is_converged _ _ _ _ _). reflexivity. }
  rewrite K. clear K. unfold MReuse.from_mc. cbn [crit n_reused last_collection thres].
  destruct (last_collection st) as [s|] eqn:El.
  2:{ split; [destruct (sample _ _); discriminate|]. intros (_ & _ & s & m & old & a & b & l & v & C & _). discriminate. }
  destruct (values (hist (crit st))) as [|v0 vs] eqn:Ev; [destruct (I1 eq_refl); discriminate|].
  specialize (I2 _ _ eq_refl). subst v0.
  destruct (exists_last (l := NaN :: vs)) as (l & v & Elv); [discriminate|].
  assert (R : forall k, reusable limit max_reused (NaN :: vs) (n_reused st) k = Ok (nltb (nz 0) k && nltb k v && (n_reused st <? max_reused))).
  { intros k. unfold reusable, py_max. rewrite max_nan. cbn [bind nltb]. unfold py_end. rewrite Elv, rev_unit. reflexivity. }
  split.
  - destruct (reweighted (surrogate q) s) as [m|x] eqn:Em; cbn [bind snd]; [|discriminate].
    destruct (kl_reweight kl m (last_mc (crit st))) as [k|x] eqn:Ek; cbn [bind snd]; [|discriminate]. rewrite R. cbn [bind].
    destruct (nltb (nz 0) k && nltb k v && (n_reused st <? max_reused)) eqn:B; [|destruct (sample _ _); discriminate]. intros _.
    apply andb_true_iff in B as [B B3]. apply andb_true_iff in B as [B1 B2]. apply Nat.ltb_lt in B3. split; [reflexivity|]. split; [exact B3|].
    unfold kl_reweight in Ek. destruct (last_mc (crit st)) as [old|]; [|discriminate]. destruct (kl m old) as [a|] eqn:Ea; [|discriminate].
    destruct (kl old m) as [b|] eqn:Eb; [|discriminate]. injection Ek as <-. exists s, m, old, a, b, l, v. repeat split; auto.
  - intros (_ & Hn & s' & m & old & a & b & l' & v' & Es & Eo & Ev' & Em & Ea & Eb & H1 & H2). injection Es as <-.
    rewrite Em. cbn [bind]. unfold kl_reweight. rewrite Eo, Ea, Eb. cbn [bind]. rewrite R. cbn [bind].
    rewrite Ev' in Elv. apply app_inj_tail in Elv as [_ <-]. rewrite H1, H2. apply Nat.ltb_lt in Hn. rewrite Hn. reflexivity.
Qed.
End C114.
Print Assumptions C114_at_most.
Print Assumptions C114_when.

(** A toy: approximations are numbers, the divergence is their distance, the approximation of a surrogate (a number) is itself. *)
Definition toy_kl (a b : num) : res num := Ok (nabs (nsub a b)).
Definition toy_check := check (S := num) (G := num) toy_kl (fun g _ => Ok g) (fun g _ => Ok g) (fun s => s) (nz 1).
Definition toy_checks := checks (S := num) (G := num) toy_kl (fun g _ => Ok g) (fun g _ => Ok g) (fun s => s) (nz 1).
Definition ask (g : num) : request num num := mkReq None g (Err ValueError) 0 0.
Example C114_case :
  map snd (snd (toy_checks 4 (gaussian_kl_value toy_kl) 1 new_state [ask (nz 0); ask (nz 5); ask (nz 6); ask (nz 9); ask (nq 17 2)])) = [false; false; true; false; true].
Proof. vm_compute. reflexivity. Qed.
(** The comment of lines 399-400 asks for a new sample if the divergence is very small (below limit/100) once all values are below ten times the limit. This
    never happens: the first value is always NaN, and so is their maximum. *)
Theorem C114_floor_refuted : exists qs q, let st := fst (toy_checks 4 (gaussian_kl_value toy_kl) 1 new_state qs) in
  Forall (fun v => isnan v = true \/ nltb v (nmul (nz 10) (nz 1)) = true) (values (hist (crit st))) /\ (exists v, In v (values (hist (crit st))) /\ isnan v = false) /\
  (exists m, last_mc (crit st) = Some m /\ nltb (nabs (nsub (surrogate q) m)) (nq 1 100) = true) /\
  snd (toy_check 4 (gaussian_kl_value toy_kl) 1 st q) = true.
Proof.
  exists [ask (nz 0); ask (nz 1)], (ask (nq 1001 1000)). vm_compute. split; [apply Forall_cons; [left; reflexivity|apply Forall_cons; [right; reflexivity|constructor]]|]. split; [eexists; split; [right; left; reflexivity|reflexivity]|].
  split; [eexists; split; reflexivity|reflexivity].
Qed.
(** [max_reused] is documented as the number of times that a sample can be used again. The count is never set back: of the samples drawn later on none is used again,
    although everything else (C114_when) allows it. *)
Theorem C114_each_sample_refuted : exists qs q rs, let r := toy_checks 1 (gaussian_kl_value toy_kl) 1 new_state qs in
  map snd (snd r) = rs ++ [false] /\ snd (toy_check 1 (gaussian_kl_value toy_kl) 1 (fst r) q) = false /\ snd (toy_check 2 (gaussian_kl_value toy_kl) 1 (fst r) q) = true.
Proof. exists [ask (nz 0); ask (nz 5); ask (nz 6); ask (nz 9)], (ask (nq 17 2)), [false; false; true]. vm_compute. repeat split. Qed.
Print Assumptions C114_floor_refuted.
Print Assumptions C114_each_sample_refuted.

(** ** One parameter *)
Import MReweight.
Section One.
Variable inv : mat -> res mat.
(** What becomes of the result of [kl_norm] as a floating point number. *)
Variable rounded : fl -> Num.num.
Definition kl_of (a b : vec * array) : res Num.num := do k <- kl_norm inv (fst a) (snd a) (fst b) (snd b); Ok (rounded k).
(** A sample of Cobaya: points, weights, values of the surrogate; the surrogate gives new values. *)
Definition collection := (list (list R) * list R * list R)%type.
Definition again (d : nat) (g : list (list R) -> list (option R)) (s : collection) : res (vec * array) :=
  let '(X, w, old) := s in reweight d X w old (g X).
Lemma again_scalar g s m : again 1 g s = Ok m -> exists x, snd m = Scalar x.
Proof.
  destruct s as [[X w] old]. unfold again, reweight. destruct (np_average 1 _ _); cbn [bind]; [|discriminate]. unfold np_cov_of. destruct (negative _); cbn [bind Nat.eqb]; [discriminate|].
  intros E. injection E as <-. cbn. eauto.
Qed.
Lemma kl_scalar a b x : snd a = Scalar x -> exists e, kl_of a b = Err e.
Proof.
  intros E. unfold kl_of, kl_norm. rewrite E. destruct (snd b) as [y|[c|]]; cbn [bind]; eauto. destruct (inv c); cbn [bind]; eauto.
Qed.
(** With one parameter and an engine without samples GaussianKL never converges: no check after any others gives a verdict, whatever the sampler returns. *)
Theorem C114_one_parameter_refuted : forall (sample : (list (list R) -> list (option R)) -> option (vec * array) -> res collection) mean_cov limit max_reused lt qs,
  Forall (fun q => from_acquisition q = None) qs ->
  Forall (fun r => exists x, r = (Err x, false)) (snd (checks kl_of (again 1) sample mean_cov limit max_reused (gaussian_kl_value kl_of) lt new_state qs)).
Proof.
  intros sample mean_cov limit mr lt.
  assert (G : forall qs (st : state (vec * array) collection), (last_collection st = None -> last_mc (crit st) = None) -> Forall (fun q => from_acquisition q = None) qs ->
    Forall (fun r => exists x, r = (Err x, false)) (snd (checks kl_of (again 1) sample mean_cov limit mr (gaussian_kl_value kl_of) lt st qs))); [|intros qs; apply G; auto].
  induction qs as [|q qs IH]; intros st I F; [constructor|]. inversion F as [|? ? Fq F']; subst. cbn [checks].
  destruct (check _ _ _ _ _ _ _ lt st q) as [[st1 v] b] eqn:E. destruct (checks _ _ _ _ _ _ _ lt st1 qs) as [st2 rs] eqn:E2. cbn [snd].
  assert (exists x, v = Err x /\ b = false /\ (last_collection st1 = None -> last_mc (crit st1) = None)) as (x & -> & -> & I1).
  { clear E2 IH. unfold check, new_mean_cov in E. rewrite Fq in E. unfold from_mc in E. cbn [last_collection crit n_reused thres] in E.
    destruct (last_collection st) as [s|] eqn:El.
    - destruct (again 1 (surrogate q) s) as [m|x] eqn:Em; cbn [bind] in E.
      + destruct (again_scalar _ _ _ Em) as (y & Ey). assert (exists e, kl_reweight kl_of m (last_mc (crit st)) = Err e) as (e & Ee).
        { unfold kl_reweight. destruct (last_mc (crit st)) as [old|]; [|eauto]. destruct (kl_scalar m old y Ey) as (e & ->). eauto. }
        rewrite Ee in E. cbn [bind] in E. unfold kl_is_converged, gaussian_kl_value in E. cbn [new_mc crit] in E. destruct (is_check_error e); cbn in E; injection E as <- <- <-; eexists; (split; [reflexivity|]); cbn; rewrite ?El; (split; [reflexivity|discriminate]).
      + unfold kl_is_converged, gaussian_kl_value in E. cbn [new_mc crit bind] in E. destruct (is_check_error x); cbn in E; injection E as <- <- <-; eexists; (split; [reflexivity|]); cbn; rewrite ?El; (split; [reflexivity|discriminate]).
    - specialize (I eq_refl). destruct (sample (surrogate q) None) as [s|x]; cbn [bind] in E; unfold kl_is_converged, gaussian_kl_value in E; cbn [new_mc crit bind] in E.
      + rewrite I in E. cbn in E. injection E as <- <- <-. eexists. split; [reflexivity|]. split; [reflexivity|]. cbn. discriminate.
      + destruct (is_check_error x); cbn in E; injection E as <- <- <-; eexists; (split; [reflexivity|]); cbn; rewrite ?El; (split; [reflexivity|auto]). }
  constructor; [eauto|]. specialize (IH st1 I1 F'). rewrite E2 in IH. exact IH.
Qed.
End One.
Print Assumptions C114_one_parameter_refuted.

(** ** The new weights *)
Open Scope R_scope.
From Coq Require Import Lra.
(** The importance weight of a point: its weight times the ratio of the new and the old posterior density. *)
Definition importance (w old : R) (new : option R) : R := match new with Some n => w * exp (n - old) | None => 0 end.
Definition as_triples (w old : list R) (new : list (option R)) : list R := map (fun p => importance (fst p) (fst (snd p)) (snd (snd p))) (combine w (combine old new)).
Lemma omax_spec l m : omax l = Some m -> In (Some m) l /\ (forall a, In (Some a) l -> a <= m).
Proof.
  revert m. induction l as [|x l IH]; intros m E; cbn in E; [discriminate|]. destruct x as [a|].
  - destruct (omax l) as [b|] eqn:Eb; injection E as <-.
    + destruct (IH b eq_refl) as [I1 I2]. unfold Rmax. destruct (Rle_dec a b); split.
      * right; exact I1.
      * intros c [C|C]; [injection C as <-; lra|apply I2, C].
      * left; reflexivity.
      * intros c [C|C]; [injection C as <-; lra|]. specialize (I2 c C). lra.
    + split; [left; reflexivity|]. intros c [C|C]; [injection C as <-; lra|]. exfalso. clear -C Eb. induction l as [|y l IH]; [destruct C|]. cbn in Eb.
      destruct C as [->|C]; [destruct (omax l); discriminate|]. destruct y; [destruct (omax l); discriminate|]. apply IH; assumption.
  - destruct (IH m E) as [I1 I2]. split; [right; exact I1|]. intros c [C|C]; [discriminate|apply I2, C].
Qed.
Lemma omax_unique l m : In (Some m) l -> (forall a, In (Some a) l -> a <= m) -> omax l = Some m.
Proof.
  intros H1 H2. destruct (omax l) as [b|] eqn:E.
  - destruct (omax_spec l b E) as [B1 B2]. f_equal. apply Rle_antisym; [apply H2, B1|apply B2, H1].
  - exfalso. clear H2. revert E. induction l as [|y l IH]; [destruct H1|]. cbn. destruct H1 as [->|H1]; [destruct (omax l); discriminate|].
    destruct y; [destruct (omax l); discriminate|]. apply IH, H1.
Qed.
Lemma weights_scaled w old new top : length old = length w -> length new = length w ->
  omax (logratio old new) = Some top -> new_weights w (logratio old new) = map (Rmult (exp (- top))) (as_triples w old new).
Proof.
  intros L1 L2 E. unfold new_weights. rewrite E. unfold as_triples, logratio. clear E. revert w new L1 L2. induction old as [|o old IH]; intros [|a w] [|n new] L1 L2; try discriminate; [reflexivity|].
  cbn [combine map fst snd]. f_equal; [|apply IH; [injection L1; auto|injection L2; auto]]. destruct n as [n|]; cbn [option_map importance]; [|ring].
  replace (n - o - top) with (- top + (n - o)) by ring. rewrite exp_plus. ring.
Qed.
(** Mean and covariance are those of the importance weights, of the points whose importance weight is above [1e-8] times the largest ratio of the densities. *)
Theorem C114_weights : forall d X w old new top, length X = length w -> length old = length w -> length new = length w ->
  (exists o n, In (o, Some n) (combine old new) /\ n - o = top) -> (forall o n, In (o, Some n) (combine old new) -> n - o <= top) ->
  let kept := filter (fun p => if Rlt_dec (1 / 100000000 * exp top) (fst p) then true else false) (combine (as_triples w old new) X) in
  reweight d X w old new = mean_covmat_from_samples d (map snd kept) (Some (map fst kept)).
Proof.
  intros d X w old new top LX LO LN (o & n & Hin & Ht) Hmax kept.
  assert (E : omax (logratio old new) = Some top).
  { apply omax_unique.
    - unfold logratio. apply in_map_iff. exists (o, Some n). cbn. rewrite Ht. auto.
    - intros a Ha. unfold logratio in Ha. apply in_map_iff in Ha as ([o' [n'|]] & Ea & Hi); cbn in Ea; [|discriminate]. injection Ea as <-. apply Hmax, Hi. }
  unfold reweight. rewrite (weights_scaled w old new top LO LN E).
  assert (K : filter (fun p => if Rlt_dec (1 / 100000000) (fst p) then true else false) (combine (map (Rmult (exp (- top))) (as_triples w old new)) X)
              = map (fun p => (exp (- top) * fst p, snd p)) kept).
  { unfold kept. generalize (as_triples w old new) as v. clear. intros v. revert X. induction v as [|a v IH]; intros [|x X]; [reflexivity|reflexivity|reflexivity|].
    cbn [map combine filter fst]. rewrite IH. assert (P := exp_pos top). assert (Q : exp (- top) * exp top = 1) by (rewrite <- exp_plus, Rplus_opp_l; apply exp_0). assert (P' := exp_pos (- top)).
    destruct (Rlt_dec (1 / 100000000) (exp (- top) * a)) as [A|A], (Rlt_dec (1 / 100000000 * exp top) a) as [B|B]; cbn [map fst snd]; try reflexivity; exfalso.
    - apply B. apply (Rmult_lt_compat_l (exp top)) in A; [|exact P]. rewrite <- Rmult_assoc, (Rmult_comm (exp top) (exp (- top))), Q in A. lra.
    - apply A. apply (Rmult_lt_compat_l (exp (- top))) in B; [|exact P']. replace (exp (- top) * (1 / 100000000 * exp top)) with (1 / 100000000 * (exp (- top) * exp top)) in B by ring. rewrite Q in B. lra. }
  rewrite K, !map_map. cbn [fst snd].
  transitivity (mean_covmat_from_samples d (map snd kept) (Some (map (Rmult (exp (- top))) (map fst kept)))).
  - rewrite map_map. reflexivity.
  - apply TKl.C112_samples_scale, exp_pos.
Qed.
(** If the surrogate has not changed but for a constant, nor do mean and covariance (weights above [1e-8]; those of Cobaya's chains are integers). *)
Theorem C114_unchanged : forall d X w old c, length X = length w -> length old = length w -> w <> [] -> (forall a, In a w -> 1 / 100000000 < a) ->
  reweight d X w old (map (fun o => Some (o + c)) old) = mean_covmat_from_samples d X (Some w).
Proof.
  intros d X w old c LX LO Hw HW. rewrite (C114_weights d X w old _ c LX LO); [|rewrite map_length; exact LO| |].
  - assert (K : filter (fun p => if Rlt_dec (1 / 100000000 * exp c) (fst p) then true else false) (combine (as_triples w old (map (fun o => Some (o + c)) old)) X)
                = combine (map (Rmult (exp c)) w) X).
    { assert (A : as_triples w old (map (fun o => Some (o + c)) old) = map (Rmult (exp c)) w).
      { unfold as_triples. clear - LO. revert old LO. induction w as [|a w IH]; intros [|o old] LO; try discriminate; [reflexivity|]. cbn [map combine fst snd]. f_equal; [|apply IH; injection LO; auto].
        cbn [importance]. replace (o + c - o) with c by ring. ring. }
      rewrite A. clear A LX LO Hw old. revert X. induction w as [|a w IH]; intros [|x X]; [reflexivity|reflexivity|reflexivity|]. cbn [map combine filter fst].
      rewrite IH by (intros b Hb; apply HW; right; exact Hb). destruct (Rlt_dec (1 / 100000000 * exp c) (exp c * a)) as [|N]; [reflexivity|]. exfalso. apply N.
      rewrite (Rmult_comm (exp c) a). apply Rmult_lt_compat_r; [apply exp_pos|]. apply HW. left; reflexivity. }
    rewrite K. assert (L : length (map (Rmult (exp c)) w) = length X) by (rewrite map_length; auto).
    assert (forall (l : list R) (l' : list (list R)), length l = length l' -> map fst (combine l l') = l /\ map snd (combine l l') = l') as Z.
    { induction l as [|y l IH]; intros [|z l'] H; try discriminate; [auto|]. cbn. injection H as H. destruct (IH l' H) as [-> ->]. auto. }
    destruct (Z _ _ L) as [-> ->]. apply TKl.C112_samples_scale, exp_pos.
  - destruct old as [|o old]; [destruct w; [congruence|discriminate]|]. exists o, (o + c). split; [left; reflexivity|ring].
  - intros o n Hi. clear - Hi. induction old as [|y old IH]; [destruct Hi|]. destruct Hi as [Hi|Hi]; [injection Hi as <- <-; lra|apply IH, Hi].
Qed.
(** If the surrogate is minus infinity at all the points of the earlier sample, the check raises ZeroDivisionError, which ends the run: it is not one of the failures
    that a check reports. *)
Theorem C114_infinite_refuted : forall d X w old, length X = length w -> length old = length w -> reweight d X w old (map (fun _ => None) X) = Err ZeroDivisionError.
Proof.
  intros d X w old LX LO. unfold reweight. assert (E : omax (logratio old (map (fun _ => None) X)) = None).
  { destruct (omax _) as [m|] eqn:E; [|reflexivity]. apply omax_spec in E as [E _]. unfold logratio in E. apply in_map_iff in E as ([o n] & E & Hi). apply in_combine_r in Hi.
    apply in_map_iff in Hi as (x & <- & _). discriminate. }
  unfold new_weights. rewrite E.
  assert (K : forall n (Y : list (list R)), filter (fun p : R * list R => if Rlt_dec (1 / 100000000) (fst p) then true else false) (combine (repeat 0 n) Y) = []).
  { induction n as [|n IH]; intros [|y Y]; cbn [repeat combine filter fst]; try reflexivity. rewrite IH. destruct (Rlt_dec (1 / 100000000) 0); [lra|reflexivity]. }
  rewrite K. cbn [map]. unfold np_average. cbn [length Nat.eqb negb]. destruct (Req_EM_T (sum_of []) 0) as [|N]; [reflexivity|]. exfalso. apply N. reflexivity.
Qed.
Print Assumptions C114_weights.
Print Assumptions C114_unchanged.
Print Assumptions C114_infinite_refuted.
(** Two points; the second one becomes three times as probable, relative to the first. *)
Example C114_weights_case : exists m a, reweight 2 [[0; 0]; [4; 8]] [1; 1] [0; 0] [Some (ln 1); Some (ln 3)] = Ok (m, a) /\ nth 0 m 0 = 3 /\ nth 1 m 0 = 6.
Proof.
  rewrite (C114_weights 2 _ _ _ _ (ln 3)); try reflexivity.
  - assert (E3 : exp (ln 3) = 3) by (apply exp_ln; lra). unfold as_triples. cbn [combine map fst snd importance]. rewrite !Rminus_0_r, !E3, ln_1, exp_0. cbn [filter fst].
    destruct (Rlt_dec _ (1 * 1)) as [|N]; [|lra]. destruct (Rlt_dec _ (1 * 3)) as [|N]; [|lra]. cbn [map fst snd].
    destruct (TKl.C112_samples 2 [[0; 0]; [4; 8]] [1 * 1; 1 * 3]) as (m & a & E & _ & Em & _); [reflexivity| | |].
    + intros x [<-|[<-|[]]]; lra.
    + exists (1 * 1). split; [left; reflexivity|lra].
    + exists m, a. split; [exact E|]. rewrite !Em by (repeat constructor). split; unfold SDet.wmean, sum; cbn; lra.
  - exists 0, (ln 3). split; [right; left; reflexivity|ring].
  - intros o n [H|[H|[]]]; injection H as <- <-; [rewrite ln_1; assert (0 < ln 3) by (rewrite <- ln_1; apply ln_increasing; lra)|]; lra.
Qed.

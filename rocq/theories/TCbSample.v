(** C153: the sampler Cobaya is asked for. *)
From Verif Require Import MCbSample.
From Coq Require Import Lia.
Set Default Goal Selector "!".
Set Bullet Behavior "Strict Subproofs".

(** ** Dictionaries *)
Lemma put_in {A} (k : string) (v : A) d : NoDup (map fst d) -> NoDup (map fst (put k v d)) /\ forall k' e, In (k', e) (put k v d) <-> (k' = k /\ e = v) \/ (k' <> k /\ In (k', e) d).
Proof.
  induction d as [|[k0 v0] d IH]; intros N; cbn [put map fst].
  - split; [repeat constructor; intros []|]. intros k' e. cbn. split.
    + intros [E|[]]. injection E as <- <-. auto.
    + intros [[-> ->]|[_ []]]. auto.
  - cbn [map fst] in N. inversion N as [|? ? N0 N1 E0]. destruct (IH N1) as [P Q]. destruct (String.eqb_spec k k0) as [->|K].
    + split; [exact N|]. intros k' e. split.
      * intros [E|E]; [injection E as <- <-; auto|]. right. split; [|right; exact E]. intros ->. apply N0. apply (in_map fst) in E. exact E.
      * intros [[-> ->]|[K [E|E]]]; [left; reflexivity| |right; exact E]. injection E as E _. congruence.
    + split.
      * cbn [map fst]. constructor; [|exact P]. intros I. apply in_map_iff in I as ([k1 v1] & E & I). cbn in E. subst k1. apply Q in I as [[-> _]|[_ I]]; [congruence|].
        apply N0. apply (in_map fst) in I. exact I.
      * intros k' e. cbn [In]. rewrite Q. split.
        -- intros [E|[E|[K' I]]]; [injection E as <- <-; right; split; [congruence|left; reflexivity]|left; exact E|right; split; [exact K'|right; exact I]].
        -- intros [E|[K' [E|I]]]; auto.
Qed.
Lemma put_all_in {A} (l : list (string * A)) : NoDup (map fst l) -> forall d, NoDup (map fst d) -> NoDup (map fst (put_all l d)) /\
  forall k e, In (k, e) (put_all l d) <-> In (k, e) l \/ (~ In k (map fst l) /\ In (k, e) d).
Proof.
  induction l as [|[k v] l IH]; intros N d D; cbn [put_all fold_left map fst].
  - split; [exact D|]. intros k e. cbn. tauto.
  - cbn [map fst] in N. inversion N as [|? ? N0 N1 E0]. destruct (put_in k v d D) as [P Q]. destruct (IH N1 (put k v d) P) as [P1 Q1]. unfold put_all in *. cbn [fst snd]. split; [exact P1|].
    intros k' e. rewrite Q1, Q. cbn [In]. split.
    + intros [I|[X [[-> ->]|[K I]]]]; [auto|auto|]. right. split; [|exact I]. intros [->|I']; auto.
    + intros [[E|I]|[X I]]; [injection E as <- <-; auto|auto|]. right. split; [tauto|]. right. split; [|exact I]. intros ->. apply X. auto.
Qed.
Lemma put_own {A} (k : string) (v w : A) : put k v [(k, w)] = [(k, v)].
Proof. cbn. rewrite String.eqb_refl. reflexivity. Qed.

Section C153.
Context {M V O : Type}.
Variable valid : M -> bool.
Notation cb_call := (cb_call M V). Notation entry := (entry M V).
(** ** What is expected *)
(** The covariance matrix meant, and whether it is any good. *)
Definition covariance (c : cb_call) (m : option M) : Prop := match c_covmat c with Some x => m = Some x | None => match c_acq c with Some x => m = Some x | None => m = c_conv c end end.
Definition usable (m : option M) : Prop := exists x, m = Some x /\ valid x = true.
Definition quiet (v : verbosity) : Prop := match v with VNone => False | VBool _ => True | VNum x => nleb (nz 2) x = false end.
(** The names of its rows: those passed with it, else those of the parameters, else those of the model. *)
Definition row_names (c : cb_call) (names l : list string) : Prop :=
  let given := match c_covmat c, c_covmat_params c with Some _, Some l => Some l | _, _ => c_params c end in
  (given = Some l /\ l <> []) \/ ((given = None \/ given = Some []) /\ l = names).
(** The options a sampler has unless the user sets them. *)
Definition default_option (c : cb_call) (name : string) (names : list string) (k : string) (e : entry) : Prop :=
  (k = "measure_speeds"%string /\ e = EFlag false) \/
  (name = "mcmc"%string /\ ((k = "max_tries"%string /\ e = ENum 100000%Z) \/
     exists m, covariance c m /\ (usable m \/ quiet (c_verbose c)) /\ ((k = "covmat"%string /\ e = ECov m) \/ (k = "covmat_params"%string /\ exists l, row_names c names l /\ e = ENames l)))).
Definition options (c : cb_call) : list (string * V) := match c_options c with Some o => o | None => [] end.
Definition well_cased (name : string) : Prop := (lower name = "mcmc"%string -> name = "mcmc"%string) /\ (lower name = "polychord"%string -> name = "polychord"%string).

Lemma covariance_is (c : cb_call) (m : option M) : covariance c m <-> m = choose_cov M (c_covmat c) (c_acq c) (c_conv c).
Proof. unfold covariance, choose_cov. destruct (c_covmat c); [reflexivity|]. destruct (c_acq c); reflexivity. Qed.
Lemma row_names_are (c : cb_call) (names l : list string) : row_names c names l <->
  l = match match c_covmat c, c_covmat_params c with Some _, Some l => Some l | _, _ => c_params c end with Some (n :: l) => n :: l | _ => names end.
Proof.
  unfold row_names. destruct (match c_covmat c, c_covmat_params c with Some _, Some l => Some l | _, _ => c_params c end) as [[|n q]|]; split.
  - intros [[E N]|[_ E]]; [injection E as <-; destruct (N eq_refl)|exact E].
  - intros ->. right. auto.
  - intros [[E N]|[[E|E] _]]; [injection E as <-; reflexivity|discriminate E|discriminate E].
  - intros ->. left. split; [reflexivity|discriminate].
  - intros [[E _]|[_ E]]; [discriminate E|exact E].
  - intros ->. right. auto.
Qed.
Lemma covmat_asked_eq (m : option M) v : (usable m /\ covmat_asked valid m v = Ok (Some m)) \/ (~ usable m /\
  ((v = VNone /\ covmat_asked valid m v = Err TypeError) \/ (quiet v /\ covmat_asked valid m v = Ok (Some m)) \/ (v <> VNone /\ ~ quiet v /\ covmat_asked valid m v = Ok None))).
Proof.
  unfold covmat_asked, covmat_entry. destruct m as [x|].
  - destruct (valid x) eqn:E; cbn [negb].
    + left. split; [exists x; auto|reflexivity].
    + right. split; [intros (y & H & Hy); injection H as <-; congruence|]. destruct v as [|b|y]; cbn [verb_num andb quiet].
      * left. auto.
      * right. left. split; [exact I|]. destruct b; reflexivity.
      * destruct (nleb (nz 2) y) eqn:L; [right; right; split; [discriminate|]; split; [discriminate|reflexivity]|right; left; split; reflexivity].
  - right. split; [intros (y & H & Hy); discriminate H|]. destruct v as [|b|y]; cbn [verb_num andb quiet].
    + left. auto.
    + right. left. split; [exact I|]. destruct b; reflexivity.
    + destruct (nleb (nz 2) y) eqn:L; [right; right; split; [discriminate|]; split; [discriminate|reflexivity]|right; left; split; reflexivity].
Qed.

Lemma user_in (l : list (string * V)) k (e : entry) : In (k, e) (map (fun e => (fst e, EUser (snd e))) l) <-> exists v, e = EUser v /\ In (k, v) l.
Proof.
  rewrite in_map_iff. split.
  - intros ([k' v] & E & I). injection E as <- <-. exists v. auto.
  - intros (v & -> & I). exists (k, v). auto.
Qed.
Lemma merged (o : list (string * V)) (d : list (string * entry)) : NoDup (map fst o) -> NoDup (map fst d) ->
  let r := put_all (map (fun e => (fst e, EUser (snd e))) o) d in
  NoDup (map fst r) /\ forall k e, In (k, e) r <-> (exists v, e = EUser v /\ In (k, v) o) \/ (~ In k (map fst o) /\ In (k, e) d).
Proof.
  intros N D r. assert (F : map fst (map (fun e : string * V => (fst e, EUser (M := M) (snd e))) o) = map fst o) by (rewrite map_map; apply map_ext; reflexivity).
  destruct (put_all_in (map (fun e : string * V => (fst e, EUser (M := M) (snd e))) o)) with (d := d) as [P Q]; [rewrite F; exact N|exact D|]. split; [exact P|].
  intros k e. subst r. etransitivity; [apply Q|]. rewrite F, user_in. reflexivity.
Qed.

(** The input computed: one sampler, under the name given; each option of the user as given, and the default ones it leaves open; nothing else. *)
Lemma input_spec names (c : cb_call) name input : NoDup (map fst (options c)) -> sampler_input valid names c name = Ok input ->
  well_cased name /\ exists d, input = [(name, d)] /\ NoDup (map fst d) /\
  forall k e, In (k, e) d <-> (exists v, e = EUser v /\ In (k, v) (options c)) \/ (~ In k (map fst (options c)) /\ default_option c name names k e).
Proof.
  intros N H. unfold sampler_input in H. fold (options c) in H.
  assert (Fin : forall n d, lower name = n \/ True -> match get name [(n, d)] with None => Err KeyError | Some d0 => Ok (put name (put_all (map (fun e => (fst e, EUser (snd e))) (options c)) d0) [(n, d)]) end = Ok input ->
    NoDup (map fst d) -> name = n /\ exists d', input = [(name, d')] /\ NoDup (map fst d') /\ forall k e, In (k, e) d' <-> (exists v, e = EUser v /\ In (k, v) (options c)) \/ (~ In k (map fst (options c)) /\ In (k, e) d)).
  { intros n d _ E D. unfold get in E. cbn [find fst] in E. destruct (String.eqb_spec name n) as [->|K]; [|discriminate E]. cbn [option_map snd] in E. rewrite put_own in E. injection E as <-.
    split; [reflexivity|]. destruct (merged (options c) d N D) as [P Q]. eexists. split; [reflexivity|]. split; [exact P|exact Q]. }
  destruct (String.eqb_spec (lower name) "mcmc") as [L|L].
  - unfold mcmc_info in H. set (cov := choose_cov M (c_covmat c) (c_acq c) (c_conv c)) in H. set (given := match c_covmat c, c_covmat_params c with Some _, Some l => Some l | _, _ => c_params c end) in H.
    assert (RN : forall l, row_names c names l <-> l = match given with Some (n :: l) => n :: l | _ => names end) by (intros l; apply row_names_are).
    set (rows := match given with Some (n :: l) => n :: l | _ => names end) in H, RN.
    assert (CV : forall m, covariance c m <-> m = cov) by (intros m; apply covariance_is). clearbody cov given rows.
    destruct (covmat_asked_eq cov (c_verbose c)) as [(U & E)|(U & [(Vn & E)|[(Q & E)|(Vn & Q & E)]])]; rewrite E in H; cbn [bind] in H; try discriminate H.
    1,2: apply Fin in H; [|auto|repeat constructor; cbn; intuition discriminate].
    1,2: destruct H as (-> & d & -> & P & R); (split; [split; [reflexivity|discriminate]|]); exists d; split; [reflexivity|]; (split; [exact P|]);
      intros k e; rewrite R; apply or_iff_compat_l, and_iff_compat_l; unfold default_option; cbn [In app]; split.
    1,3: intros [E1|[E1|[E1|[E1|[]]]]]; injection E1 as <- <-; [left; auto|right; split; [reflexivity|left; auto]| |]; (right; split; [reflexivity|]; right; exists cov; split; [apply CV; reflexivity|]; split; [auto|]);
      [left; auto|right; split; [reflexivity|]; exists rows; split; [apply RN; reflexivity|reflexivity]].
    1,2: intros [(-> & ->)|(_ & [(-> & ->)|(m & Hm & _ & [(-> & ->)|(-> & l & Hl & ->)])])]; [auto|auto| |]; apply CV in Hm; subst m; [auto|]; apply RN in Hl; subst l; auto.
    apply Fin in H; [|auto|repeat constructor; cbn; intuition discriminate].
    destruct H as (-> & d & -> & P & R). split; [split; [reflexivity|discriminate]|]. exists d. split; [reflexivity|]. split; [exact P|].
    intros k e. rewrite R. apply or_iff_compat_l, and_iff_compat_l. unfold default_option. cbn [In]. split.
    + intros [E1|[E1|[]]]; injection E1 as <- <-; [left; auto|right; split; [reflexivity|left; auto]].
    + intros [(-> & ->)|(_ & [(-> & ->)|(m & Hm & [X|X] & _)])]; [auto|auto| |contradiction]. apply CV in Hm. subst m. contradiction.
  - assert (D0 : NoDup (map fst [("measure_speeds"%string, EFlag (M := M) (V := V) false)])) by (repeat constructor; intros []).
    assert (DO : forall k (e : entry), name <> "mcmc"%string -> In (k, e) [("measure_speeds"%string, EFlag false)] <-> default_option c name names k e).
    { intros k e X. unfold default_option. cbn [In]. split; [intros [E|[]]; injection E as <- <-; left; auto|intros [(-> & ->)|(E & _)]; [auto|contradiction]]. }
    assert (X : name <> "mcmc"%string) by (intros ->; apply L; reflexivity).
    destruct (String.eqb_spec (lower name) "polychord") as [L'|L']; cbn [bind] in H; apply Fin in H; auto; destruct H as (E & d & -> & P & R).
    + split; [split; [intros Y; contradiction|intros _; exact E]|]. exists d. split; [reflexivity|]. split; [exact P|]. intros k e. rewrite R, (DO k e X). reflexivity.
    + split; [split; intros Y; contradiction|]. exists d. split; [reflexivity|]. split; [exact P|]. intros k e. rewrite R, (DO k e X). reflexivity.
Qed.

(** What is returned comes from a sampler that got exactly this, with the output asked for: an earlier one is resumed if wanted, else overwritten, never both; and the sampler is run if
    asked. *)
Theorem C153_asked : forall installed fitted model make sample (c : cb_call) key ran (s : O), NoDup (map fst (options c)) ->
  mc_sample_from_gp_cobaya valid installed fitted model make sample c = Ok (key, ran, s) ->
  exists name names d out, c_sampler c = Some name /\ model = Ok names /\ fitted = Some true /\ make [(name, d)] out = Ok s /\ NoDup (map fst d)
  /\ (forall k e, In (k, e) d <-> (exists v, e = EUser v /\ In (k, v) (options c)) \/ (~ In k (map fst (options c)) /\ default_option c name names k e))
  /\ match c_output c with None => out = None | Some p => exists force, out = Some (p, c_resume c, force) /\ (force = true <-> c_resume c = false) end
  /\ ran = c_run c /\ (c_run c = true -> sample s = Ok tt).
Proof.
  intros installed fitted model make sample c key ran s N H. unfold mc_sample_from_gp_cobaya in H. destruct installed; [cbn [negb] in H|discriminate H].
  destruct (c_sampler c) as [name|]; [|discriminate H]. destruct fitted as [[|]|]; try discriminate H. destruct model as [names|]; [cbn [bind] in H|discriminate H].
  destruct (get_cobaya_log_level (c_verbose c)); [cbn [bind] in H|discriminate H]. destruct (sampler_input valid names c name) as [input|] eqn:E; [cbn [bind] in H|discriminate H].
  destruct (make input (output_asked c)) as [o|] eqn:K; [cbn [bind] in H|discriminate H].
  destruct (if c_run c then sample o else Ok tt) as [[]|] eqn:R; [cbn [bind] in H|discriminate H]. injection H as <- <- <-.
  destruct (input_spec names c name input N E) as (_ & d & -> & P & Q). exists name, names, d, (output_asked c). repeat (split; [assumption || reflexivity|]). split.
  - unfold output_asked. destruct (c_output c) as [p|]; [|reflexivity]. exists (negb (c_resume c)). split; [reflexivity|]. destruct (c_resume c); cbn; split; congruence.
  - split; [reflexivity|]. intros Y. rewrite Y in R. exact R.
Qed.
(** If Cobaya works, all that is refused is a name in capitals of one of the two samplers with defaults, and [verbose=None] where it matters. *)
Theorem C153_accepted : forall model make sample (c : cb_call) name names, NoDup (map fst (options c)) -> c_sampler c = Some name -> model = Ok names ->
  (exists n, get_cobaya_log_level (c_verbose c) = Ok n) -> (forall i o, exists s, make i o = Ok s) -> (forall s : O, sample s = Ok tt) ->
  ((exists r, mc_sample_from_gp_cobaya valid true (Some true) model make sample c = Ok r) <->
   well_cased name /\ (name = "mcmc"%string -> c_verbose c = VNone -> exists m, covariance c m /\ usable m)).
Proof.
  intros model make sample c name names N Hs -> [n Hv] Hm Hr. unfold mc_sample_from_gp_cobaya. cbn [negb]. rewrite Hs. cbn [bind]. rewrite Hv. cbn [bind].
  assert (K : (exists r, sampler_input valid names c name = Ok r) <-> well_cased name /\ (name = "mcmc"%string -> c_verbose c = VNone -> exists m, covariance c m /\ usable m)).
  { split.
    - intros [r H]. split; [exact (proj1 (input_spec _ _ _ _ N H))|]. intros -> V0. unfold sampler_input in H. cbn in H. unfold mcmc_info in H.
      exists (choose_cov M (c_covmat c) (c_acq c) (c_conv c)). split; [apply covariance_is; reflexivity|].
      destruct (covmat_asked_eq (choose_cov M (c_covmat c) (c_acq c) (c_conv c)) (c_verbose c)) as [(U & E)|(U & [(Vn & E)|[(Q & E)|(Vn & Q & E)]])]; [exact U| |rewrite V0 in Q; destruct Q|congruence].
      rewrite E in H. discriminate H.
    - intros [[W1 W2] W3]. unfold sampler_input. destruct (String.eqb_spec (lower name) "mcmc") as [L|L].
      + specialize (W1 L). subst name. specialize (W3 eq_refl). unfold mcmc_info.
        destruct (covmat_asked_eq (choose_cov M (c_covmat c) (c_acq c) (c_conv c)) (c_verbose c)) as [(U & E)|(U & [(Vn & E)|[(Q & E)|(Vn & Q & E)]])]; rewrite E; cbn [bind]; try (eexists; reflexivity).
        destruct (W3 Vn) as (m & Hc & Hu). apply covariance_is in Hc. subst m. contradiction.
      + destruct (String.eqb_spec (lower name) "polychord") as [L'|L']; [rewrite (W2 L'); eexists; reflexivity|].
        cbn [bind]. unfold get. cbn [find fst]. rewrite String.eqb_refl. eexists. reflexivity. }
  rewrite <- K. split.
  - intros [r H]. destruct (sampler_input valid names c name) as [i|]; [eexists; reflexivity|discriminate H].
  - intros [i E]. rewrite E. cbn [bind]. destruct (Hm i (output_asked c)) as [s Es]. rewrite Es. cbn [bind]. destruct (c_run c); [rewrite Hr|]; eexists; reflexivity.
Qed.
(** What is refused, in this order: no Cobaya, a sampler that is not a string, a surrogate that cannot be loaded or has no points, bounds or names that do not fit, a verbosity that is no level;
    none of them gets to a sampler. *)
Theorem C153_refused : forall model make sample (c : cb_call),
  let go i f m := mc_sample_from_gp_cobaya (O := O) valid i f m make sample c in
  (forall f, go false f model = Err NotInstalled) /\
  (c_sampler c = None -> forall f, go true f model = Err ValueError) /\
  (forall name, c_sampler c = Some name ->
     go true None model = Err ValueError /\ go true (Some false) model = Err ValueError /\ (forall x, go true (Some true) (Err x) = Err x) /\
     (forall x names, get_cobaya_log_level (c_verbose c) = Err x -> go true (Some true) (Ok names) = Err x)).
Proof.
  intros model make sample c go. subst go. unfold mc_sample_from_gp_cobaya. cbn [negb]. split; [reflexivity|]. split; [intros ->; reflexivity|]. intros name ->.
  split; [reflexivity|]. split; [reflexivity|]. split; [reflexivity|]. intros x names Hv. cbn [bind]. rewrite Hv. reflexivity.
Qed.
(** Refuted: the case of the name does not matter (it is compared in lower case). Whatever Cobaya does, "MCMC" or "PolyChord" raises. The runner passes names in lower case. *)
Theorem C153_case_refuted : forall make sample (c : cb_call) name names, c_sampler c = Some name -> ~ well_cased name -> (exists n, get_cobaya_log_level (c_verbose c) = Ok n) -> c_verbose c <> VNone ->
  mc_sample_from_gp_cobaya (O := O) valid true (Some true) (Ok names) make sample c = Err KeyError.
Proof.
  intros make sample c name names Hs W [n Hv] Vn. unfold mc_sample_from_gp_cobaya. cbn [negb]. rewrite Hs. cbn [bind]. rewrite Hv. cbn [bind].
  enough (sampler_input valid names c name = Err KeyError) as -> by reflexivity. unfold sampler_input.
  destruct (String.eqb_spec (lower name) "mcmc") as [L|L].
  - assert (X : String.eqb name "mcmc" = false).
    { destruct (String.eqb_spec name "mcmc") as [->|]; [|reflexivity]. exfalso. apply W. split; [reflexivity|discriminate]. }
    unfold mcmc_info. destruct (covmat_asked_eq (choose_cov M (c_covmat c) (c_acq c) (c_conv c)) (c_verbose c)) as [(U & E)|(U & [(V0 & E)|[(Q & E)|(V0 & Q & E)]])]; [..|]; try contradiction; rewrite E; cbn [bind]; unfold get; cbn [find fst]; rewrite X; reflexivity.
  - destruct (String.eqb_spec (lower name) "polychord") as [L'|L'].
    + assert (X : String.eqb name "polychord" = false).
      { destruct (String.eqb_spec name "polychord") as [->|]; [|reflexivity]. exfalso. apply W. split; [discriminate|reflexivity]. }
      cbn [bind]. unfold get, polychord_info. cbn [find fst]. rewrite X. reflexivity.
    + exfalso. apply W. split; intros Y; contradiction.
Qed.
Theorem C153_runner : forall name, well_cased (lower name).
Proof.
  intros name. assert (E : lower (lower name) = lower name); [|split; congruence].
  induction name as [|a s IH]; [reflexivity|]. cbn [lower]. f_equal; [|exact IH]. destruct a as [[] [] [] [] [] [] [] []]; reflexivity.
Qed.
(** Refuted: the sampler is listed under its name in the information returned. The key is the sampler itself, also if it is not run. *)
Theorem C153_key_refuted : forall installed fitted model make sample (c : cb_call) key ran (s : O),
  mc_sample_from_gp_cobaya valid installed fitted model make sample c = Ok (key, ran, s) -> key = KObject s /\ forall name, key <> KName name.
Proof.
  intros installed fitted model make sample c key ran s H. unfold mc_sample_from_gp_cobaya in H. destruct installed; [cbn [negb] in H|discriminate H].
  destruct (c_sampler c) as [name|]; [|discriminate H]. destruct fitted as [[|]|]; try discriminate H. destruct model as [names|]; [cbn [bind] in H|discriminate H].
  destruct (get_cobaya_log_level (c_verbose c)); [cbn [bind] in H|discriminate H]. destruct (sampler_input valid names c name) as [input|]; [cbn [bind] in H|discriminate H].
  destruct (make input (output_asked c)) as [o|]; [cbn [bind] in H|discriminate H].
  destruct (if c_run c then sample o else Ok tt); [cbn [bind] in H|discriminate H]. injection H as <- <- <-. split; [reflexivity|discriminate].
Qed.
(** Refuted: [verbose=None] is a level like any other (it is the default one of Cobaya's log). Without a valid covariance matrix the default sampler raises TypeError, with any number
    in its place it does not. *)
Theorem C153_verbose_refuted : forall make sample (c : cb_call) names, c_sampler c = Some "mcmc"%string -> c_verbose c = VNone -> (forall m, covariance c m -> ~ usable m) ->
  (exists n, get_cobaya_log_level (c_verbose c) = Ok n) /\ mc_sample_from_gp_cobaya (O := O) valid true (Some true) (Ok names) make sample c = Err TypeError.
Proof.
  intros make sample c names Hs Hv U. split; [rewrite Hv; eexists; reflexivity|]. unfold mc_sample_from_gp_cobaya. cbn [negb]. rewrite Hs, Hv. cbn [bind get_cobaya_log_level verb_num].
  unfold sampler_input. cbn [lower]. rewrite Hv. change (String.eqb _ "mcmc"%string) with true. cbv iota. unfold mcmc_info.
  destruct (covmat_asked_eq (choose_cov M (c_covmat c) (c_acq c) (c_conv c)) VNone) as [(X & E)|(X & [(V0 & E)|[(Q & E)|(V0 & Q & E)]])].
  - destruct (U _ (proj2 (covariance_is c _) eq_refl) X).
  - rewrite E. reflexivity.
  - destruct Q.
  - congruence.
Qed.
End C153.
Print Assumptions C153_asked.
Print Assumptions C153_accepted.
Print Assumptions C153_refused.
Print Assumptions C153_case_refuted.
Print Assumptions C153_runner.
Print Assumptions C153_key_refuted.
Print Assumptions C153_verbose_refuted.

(** * Examples *)
(** Matrices are numbers, valid if not 0; a sampler is what it was made from. The user sets "max_tries" and "burn_in"; the covariance matrix of the criterion is used, with the names given. *)
Definition wanted (name : string) (v : verbosity) : cb_call nat nat := mkCb (Some name) (Some [("burn_in", 3); ("max_tries", 7)]%string) None (Some ["q"]%string) (Some ["a"; "b"]%string)
  None (Some 4) (Some "chains/x"%string) false true v.
Definition sampled (c : cb_call nat nat) := mc_sample_from_gp_cobaya (fun m => negb (Nat.eqb m 0)) true (Some true) (Ok ["a"; "b"]%string) (fun i o => Ok (i, o)) (fun _ => Ok tt) c.
Example C153_asked_case : sampled (wanted "mcmc" (VNum (nz 3))) = let s := ([("mcmc", [("measure_speeds", EFlag false); ("max_tries", EUser 7); ("covmat", ECov (Some 4)); ("covmat_params", ENames ["a"; "b"]); ("burn_in", EUser 3)])]%string,
    Some ("chains/x"%string, true, false)) in Ok (KObject s, false, s).
Proof. reflexivity. Qed.
Example C153_refused_case : sampled (wanted "mcmc" (VNum (nq 5 2))) = Err ValueError /\ sampled (mkCb None None None None None None None None true false (VNum (nz 3))) = Err ValueError.
Proof. split; reflexivity. Qed.
Example C153_case_case : ~ well_cased "MCMC" /\ sampled (wanted "MCMC" (VNum (nz 3))) = Err KeyError /\ exists r, sampled (wanted "Minimize" (VNum (nz 3))) = Ok r.
Proof. split; [intros [H _]; specialize (H eq_refl); discriminate H|]. split; [reflexivity|eexists; reflexivity]. Qed.
Example C153_verbose_case : let c v := mkCb (V := nat) (Some "mcmc"%string) None (Some 0) None None None None None true false v in
  (forall m, covariance (c VNone) m -> ~ usable (fun m => negb (Nat.eqb m 0)) m) /\ sampled (c VNone) = Err TypeError /\ exists r, sampled (c (VNum (nz 3))) = Ok r.
Proof. split; [|split; [reflexivity|eexists; reflexivity]]. intros m Hm (x & -> & Hx). cbn in Hm. injection Hm as ->. discriminate Hx. Qed.
(** An invalid matrix and a low verbosity: the matrix is passed on all the same (see C78), with the names given for it. *)
Example C153_rows_case : let c := mkCb (V := nat) (Some "mcmc"%string) None (Some 0) (Some ["b"; "a"]%string) (Some ["a"; "b"]%string) None None None true false (VNum (nz 1)) in
  exists s, sampled c = Ok (KObject s, true, s) /\ In ("covmat_params"%string, ENames ["b"; "a"]%string) (snd (hd ("", [])%string (fst s))) /\ In ("covmat"%string, ECov (Some 0)) (snd (hd ("", [])%string (fst s))).
Proof. eexists. split; [reflexivity|]. cbn. auto 10. Qed.

(** C119: the wrapper for Cobaya. *)
From Verif Require Import MCobaya TBuild.
From Coq Require Import Lia ZArith.
Set Default Goal Selector "!".
Set Bullet Behavior "Strict Subproofs".
Open Scope string_scope.

Notation keys m := (map fst m).
Lemma lookup_none k (m : dict) : lookup k m = None <-> ~ In k (keys m).
Proof.
  induction m as [|[k' v] m IH]; cbn; [tauto|]. destruct (String.eqb_spec k k') as [->|N]; [split; [discriminate|intros H; exfalso; apply H; left; reflexivity]|].
  rewrite IH. split; [intros H [E|E]; congruence|tauto].
Qed.
Lemma lookup_remove k k' m : NoDup (keys m) -> lookup k (remove_key k' m) = if String.eqb k k' then None else lookup k m.
Proof.
  induction m as [|[k0 v0] m IH]; cbn; intros H; [destruct (String.eqb k k'); reflexivity|]. inversion H as [|? ? N H']; subst. destruct (String.eqb_spec k' k0) as [->|E].
  - destruct (String.eqb_spec k k0) as [->|]; [apply lookup_none, N|reflexivity].
  - cbn. rewrite (IH H'). destruct (String.eqb_spec k k0) as [->|]; [|reflexivity]. apply not_eq_sym, String.eqb_neq in E. rewrite E. reflexivity.
Qed.
Lemma keys_remove k m : NoDup (keys m) -> NoDup (keys (remove_key k m)) /\ forall x, In x (keys (remove_key k m)) -> In x (keys m).
Proof.
  induction m as [|[k0 v0] m IH]; cbn; intros H; [auto|]. inversion H as [|? ? N H']; subst. destruct (IH H') as [I1 I2]. destruct (String.eqb k k0); [auto|]. cbn. split; [constructor; auto|]. intros x [->|Hx]; auto.
Qed.
Lemma keys_put k v m : NoDup (keys m) -> NoDup (keys (put k v m)) /\ forall x, In x (keys (put k v m)) <-> x = k \/ In x (keys m).
Proof.
  induction m as [|[k0 v0] m IH]; cbn; intros H; [split; [constructor; [intros []|constructor]|intros x; split; [intros [->|[]]; auto|intros [->|[]]; auto]]|].
  inversion H as [|? ? N H']; subst. destruct (IH H') as [I1 I2]. destruct (String.eqb_spec k k0) as [->|E]; cbn.
  - split; [exact H|]. intros x. split; [intros [->|]; auto|intros [->|[->|]]; auto].
  - split; [constructor; [|exact I1]; intros C; apply I2 in C as [->|C]; [congruence|contradiction]|]. intros x. rewrite I2. split; [intros [->|[->|]]; auto|intros [->|[->|]]; auto].
Qed.
Lemma update_spec m' : forall m, NoDup (keys m') -> NoDup (keys m) ->
  NoDup (keys (update m m')) /\ forall k, lookup k (update m m') = match lookup k m' with Some v => Some v | None => lookup k m end.
Proof.
  induction m' as [|[k0 v0] m' IH]; intros m H' H; [cbn; auto|]. unfold update in *. cbn [fold_left fst snd]. inversion H' as [|? ? N H'']; subst. destruct (IH (put k0 v0 m) H'' (proj1 (keys_put k0 v0 m H))) as [I1 I2]. split; [exact I1|].
  intros k. rewrite I2, lookup_put. cbn [lookup]. destruct (String.eqb_spec k k0) as [->|]; [|reflexivity]. apply lookup_none in N. rewrite N. reflexivity.
Qed.
Definition option_key (k : string) : bool := starts "options_" k.
Definition meant_for (engine k : string) : bool := option_key k && ends (lower engine) (lower k).
(** Keys of options of other engines are dropped. *)
Lemma merge_others engine ks : forall m, NoDup (keys m) -> Forall (fun k => meant_for engine k = false) ks ->
  exists r, merge_options engine ks m = Ok r /\ NoDup (keys r) /\ forall k, lookup k r = if option_key k && existsb (String.eqb k) ks then None else lookup k m.
Proof.
  induction ks as [|k0 ks IH]; intros m H F; [exists m; cbn; split; [reflexivity|]; split; [exact H|]; intros k; rewrite andb_false_r; reflexivity|].
  inversion F as [|? ? F0 F']; subst. cbn [merge_options]. unfold meant_for, option_key in F0. destruct (starts "options_" k0) eqn:S.
  - cbn [andb] in F0. rewrite F0. destruct (IH (remove_key k0 m) (proj1 (keys_remove k0 m H)) F') as (r & E & N & L). exists r. split; [exact E|]. split; [exact N|]. intros k. rewrite L, lookup_remove by exact H.
    cbn [existsb]. destruct (String.eqb_spec k k0) as [->|]; cbn [orb]; [|reflexivity]. unfold option_key. rewrite S. cbn [andb]. destruct (existsb _ ks); reflexivity.
  - destruct (IH m H F') as (r & E & N & L). exists r. split; [exact E|]. split; [exact N|]. intros k. rewrite L. cbn [existsb]. destruct (String.eqb_spec k k0) as [->|]; [|reflexivity].
    unfold option_key. rewrite S. reflexivity.
Qed.
Lemma merge_app engine k1 k2 : forall m, merge_options engine (k1 ++ k2) m = bind (merge_options engine k1 m) (merge_options engine k2).
Proof.
  induction k1 as [|k k1 IH]; intros m; [reflexivity|]. cbn [app merge_options]. destruct (starts "options_" k); [|apply IH]. destruct (ends _ _); [|apply IH].
  destruct (lookup k m) as [v|]; [|reflexivity]. destruct (or_empty v); try reflexivity. apply IH.
Qed.
Lemma clean_lookup m : NoDup (keys m) -> NoDup (keys (filter not_none m)) /\ forall k, lookup k (filter not_none m) = match lookup k m with Some VNone => None | r => r end.
Proof.
  induction m as [|[k0 v0] m IH]; cbn; intros H; [split; [constructor|reflexivity]|]. inversion H as [|? ? N H']; subst. destruct (IH H') as [I1 I2].
  assert (M : forall x, In x (keys (filter not_none m)) -> In x (keys m)) by (intros x Hx; apply in_map_iff in Hx as (y & <- & Hy); apply filter_In in Hy; apply in_map, Hy).
  unfold not_none at 1 3. cbn [snd]. destruct v0; cbn; (split; [try (constructor; [intros C; apply N, M, C|exact I1]); try exact I1|]); intros k9; destruct (String.eqb_spec k9 k0) as [->|]; try reflexivity; try apply I2.
  rewrite I2. apply lookup_none in N. rewrite N. reflexivity.
Qed.
(** The engine asked for gets the common options and its own, which go first; nothing of the other engines, and no option that was left empty. *)
Theorem C119_options : forall m engine own opts, NoDup (keys m) -> lookup "engine" m = Some (VStr engine) ->
  option_key own = true -> lookup own m = Some (VMap opts) -> (forall k, In k (keys m) -> meant_for engine k = true <-> k = own) ->
  NoDup (keys opts) -> Forall (fun k => option_key k = false) (keys opts) ->
  exists r, acquisition_input (VMap m) = Ok [(engine, VMap r)] /\
    forall k, lookup k r = match lookup k opts with
                           | Some v => Some v
                           | None => if option_key k || String.eqb k "engine" then None else match lookup k m with Some VNone => None | o => o end
                           end.
Proof.
  intros m engine own opts Hm He Ho Hown Hu No Fo. unfold acquisition_input. cbn [clean bind]. destruct (clean_lookup m Hm) as [Nc Lc]. set (c := filter not_none m) in *. rewrite (Lc "engine"), He.
  set (c' := remove_key "engine" c). assert (Nc' : NoDup (keys c')) by apply keys_remove, Nc.
  assert (Lc' : forall k, lookup k c' = if String.eqb k "engine" then None else lookup k c) by (intros k; apply lookup_remove, Nc).
  assert (Io : In own (keys c')).
  { destruct (in_dec string_dec own (keys c')) as [|N]; [assumption|]. apply lookup_none in N. rewrite Lc', Lc, Hown in N. destruct (String.eqb_spec own "engine") as [->|]; [|discriminate]. congruence. }
  destruct (in_split _ _ Io) as (k1 & k2 & E). assert (ND : NoDup (k1 ++ own :: k2)) by (rewrite <- E; exact Nc'). assert (Hn : forall k, In k (k1 ++ k2) -> k <> own) by (intros k Hk ->; apply NoDup_remove_2 in ND; contradiction).
  assert (Sub : forall k, In k (keys c') -> In k (keys m)).
  { intros k Hk. apply keys_remove in Hk; [|exact Nc]. unfold c in Hk. apply in_map_iff in Hk as (y & <- & Hy). apply filter_In in Hy. apply in_map, Hy. }
  assert (F : forall ks, (forall k, In k ks -> In k (k1 ++ k2)) -> Forall (fun k => meant_for engine k = false) ks).
  { intros ks Hks. apply Forall_forall. intros k Hk. pose proof (Hks k Hk) as Hk2. destruct (meant_for engine k) eqn:M; [|reflexivity]. exfalso. apply (Hn k Hk2). apply Hu; [|exact M]. apply Sub. rewrite E. apply in_app_iff. apply in_app_iff in Hk2 as [|]; [left|right; right]; assumption. }
  rewrite E, merge_app. destruct (merge_others engine k1 c' Nc' (F k1 ltac:(intros; apply in_app_iff; auto))) as (r1 & E1 & N1 & L1). rewrite E1. cbn [bind merge_options].
  assert (Mo : meant_for engine own = true) by (apply Hu; [apply Sub, Io|reflexivity]). unfold meant_for in Mo. apply andb_true_iff in Mo as [Mo1 Mo2]. fold (option_key own). rewrite Mo1, Mo2.
  assert (existsb (String.eqb own) k1 = false) as X1. { apply not_true_iff_false. intros X. apply existsb_exists in X as (x & Hx & Ex). apply String.eqb_eq in Ex. subst x. apply (Hn own); [apply in_app_iff; auto|reflexivity]. }
  assert (lookup own r1 = Some (VMap opts)) as Lo.
  { rewrite L1, X1, andb_false_r, Lc'. destruct (String.eqb_spec own "engine") as [->|]; [congruence|]. rewrite Lc, Hown. reflexivity. }
  rewrite Lo. replace (or_empty (VMap opts)) with (VMap opts) by (destruct opts; reflexivity).
  destruct (update_spec opts (remove_key own r1) No (proj1 (keys_remove own r1 N1))) as [N2 L2].
  destruct (merge_others engine k2 (update (remove_key own r1) opts) N2 (F k2 ltac:(intros; apply in_app_iff; auto))) as (r & Er & Nr & Lr). rewrite Er. cbn [bind]. exists r. split; [reflexivity|].
  intros k. rewrite Lr, L2, lookup_remove, L1 by exact N1. destruct (lookup k opts) as [v|] eqn:Lk.
  - assert (option_key k = false) as ->; [|reflexivity]. rewrite Forall_forall in Fo. apply Fo. destruct (in_dec string_dec k (keys opts)) as [|N]; [assumption|]. apply lookup_none in N. congruence.
  - destruct (option_key k) eqn:Ok; cbn [orb andb].
    + destruct (existsb (String.eqb k) k2) eqn:X2; [reflexivity|]. destruct (String.eqb_spec k own) as [->|No']; [reflexivity|]. destruct (existsb (String.eqb k) k1) eqn:X3; [reflexivity|].
      apply lookup_none. rewrite E. intros C. apply in_app_iff in C as [C|[C|C]]; [|congruence|].
      * assert (existsb (String.eqb k) k1 = true) by (apply existsb_exists; exists k; split; [exact C|apply String.eqb_refl]). congruence.
      * assert (existsb (String.eqb k) k2 = true) by (apply existsb_exists; exists k; split; [exact C|apply String.eqb_refl]). congruence.
    + destruct (String.eqb_spec k own) as [->|_]; [congruence|]. rewrite Lc', Lc. reflexivity.
Qed.
(** More output for lower levels of the logger. *)
Theorem C119_verbosity : forall a b, (0 < a <= b -> verbosity b <= verbosity a)%Z.
Proof. intros a b H. unfold verbosity. destruct (Z.eqb_spec a 0), (Z.eqb_spec b 0), (Z.leb_spec a 10), (Z.leb_spec b 10), (Z.leb_spec a 20), (Z.leb_spec b 20); lia. Qed.

(** Refuted: the wrapper can be initialised. The runner has no parameter [model]. *)
Theorem C119_initialize_refuted : forall runner (construct : dict -> dict -> res runner) gpr acquisition, exists x, initialize construct gpr acquisition = Err x.
Proof. intros runner construct gpr acquisition. unfold initialize. destruct (clean gpr); [|eexists; reflexivity]. cbn [bind]. destruct (acquisition_input acquisition); [|eexists; reflexivity]. eexists. reflexivity. Qed.
(** Refuted: with a runner made otherwise, [run] ends with the sample. It reads attributes that a runner does not have. *)
Theorem C119_run_refuted : forall learn sample, wrapper_run learn sample = Err RuntimeError.
Proof. intros [[]|x] [[]|y]; reflexivity. Qed.
(** Refuted: plots. *)
Theorem C119_plots_refuted : first_plot = Err TypeError.
Proof. reflexivity. Qed.
(** Refuted: the files of a checkpoint are those Cobaya is told about (to delete them before a new run). One is not; the others are. *)
Theorem C119_files_refuted : In "tru.pkl" checkpoint_files /\ ~ In "tru.pkl" expected_files /\ (forall f, In f checkpoint_files -> f <> "tru.pkl" -> In f expected_files).
Proof.
  split; [left; reflexivity|]. split; [cbn; intros H; repeat (destruct H as [H|H]; [discriminate H|]); exact H|].
  intros f Hf N. cbn in *. repeat (destruct Hf as [<-|Hf]; [tauto|]). destruct Hf.
Qed.
(** Refuted: without output there is a temporary folder. There is none, and asking for the files raises. *)
Theorem C119_no_output_refuted : checkpoint_dir None = None /\ output_files None = Err TypeError.
Proof. split; reflexivity. Qed.
(** With output, it is the folder that Cobaya makes of its prefix. *)
Example C119_output_case : output_files (Some (fun s => "chains/run1_" ++ s)) = Ok ("chains/run1_gpry_output", expected_files).
Proof. reflexivity. Qed.
(** Refuted: NORA is cited if it is used. With the documented options it is used but not recognised, and if it is recognised it is not used. *)
Theorem C119_nora_refuted :
  (exists m r, is_nora (VMap m) = Ok false /\ acquisition_input (VMap m) = Ok [("NORA", VMap r)]) /\
  (forall m r, NoDup (keys m) -> lookup "engine" m = None -> is_nora (VMap m) = Ok true -> acquisition_input (VMap m) = Ok r -> exists o, r = [("BatchOptimizer", o)]).
Proof.
  split.
  - exists [("acq_func", VMap [("LogExp", VMap [])]); ("engine", VStr "NORA"); ("options_NORA", VMap [("mc_every", VStr "2d")])]. eexists. split; reflexivity.
  - intros m r Hm He _ H. unfold acquisition_input in H. cbn [clean bind] in H. rewrite (proj2 (clean_lookup m Hm)), He in H. apply bind_ok in H as (o & _ & H). injection H as <-. eauto.
Qed.
Print Assumptions C119_options.
Print Assumptions C119_verbosity.
Print Assumptions C119_initialize_refuted.
Print Assumptions C119_run_refuted.
Print Assumptions C119_plots_refuted.
Print Assumptions C119_files_refuted.
Print Assumptions C119_no_output_refuted.
Print Assumptions C119_nora_refuted.
Example C119_case :
  acquisition_input (VMap [("acq_func", VStr "LogExp"); ("verbose", VNone); ("engine", VStr "NORA"); ("options_BatchOptimizer", VMap [("n_restarts_optimizer", VStr "5d")]);
                           ("options_NORA", VMap [("mc_every", VStr "2d"); ("sampler", VNone)])]) =
  Ok [("NORA", VMap [("acq_func", VStr "LogExp"); ("mc_every", VStr "2d"); ("sampler", VNone)])].
Proof. reflexivity. Qed.
Example C119_applies : exists r, acquisition_input (VMap [("engine", VStr "NORA"); ("verbose", VNum 2); ("options_NORA", VMap [("mc_every", VNum 2)])]) = Ok [("NORA", VMap r)] /\
  lookup "mc_every" r = Some (VNum 2) /\ lookup "verbose" r = Some (VNum 2) /\ lookup "options_NORA" r = None.
Proof.
  destruct (C119_options [("engine", VStr "NORA"); ("verbose", VNum 2); ("options_NORA", VMap [("mc_every", VNum 2)])] "NORA" "options_NORA" [("mc_every", VNum 2)]) as (r & E & L); try reflexivity.
  - repeat constructor; cbn; intros H; repeat (destruct H as [H|H]; [discriminate H|]); exact H.
  - intros k Hk. cbn in Hk. repeat (destruct Hk as [<-|Hk]; [split; intros H; try discriminate H; reflexivity|]). destruct Hk.
  - repeat constructor. intros [].
  - repeat constructor.
  - exists r. split; [exact E|]. rewrite !L. repeat split; reflexivity.
Qed.

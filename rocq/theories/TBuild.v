(** C117: components given as names or dictionaries. *)
From Verif Require Import MBuild.
From Coq Require Import Lia ZArith.
Set Default Goal Selector "!".
Set Bullet Behavior "Strict Subproofs".
Open Scope string_scope.

(** Spec: keyword arguments in which what the user gave goes before the defaults, and there is nothing else. *)
Definition merged (user defaults args : dict) : Prop :=
  forall k, lookup k args = match lookup k user with Some v => Some v | None => lookup k defaults end.
(** The largest multiple of [size] that is not above [n]; [n] itself if it is not above [size]. *)
Definition rounded (size n m : Z) : Prop := (n <= size -> m = n)%Z /\ (size < n -> m <= n < m + size /\ (size | m))%Z.
Definition is_map (v : val) (m : dict) : Prop := v = VMap m \/ m = [] /\ v = VNone.

Lemma lookup_put k k' v m : lookup k (put k' v m) = if String.eqb k k' then Some v else lookup k m.
Proof.
  induction m as [|[k0 v0] m IH]; cbn; [reflexivity|]. destruct (String.eqb_spec k' k0) as [->|N]; cbn.
  - destruct (String.eqb k k0); reflexivity.
  - rewrite IH. destruct (String.eqb_spec k k0) as [->|]; [|reflexivity]. apply String.eqb_neq in N. rewrite String.eqb_sym, N. reflexivity.
Qed.
Lemma fill_merged defaults : forall user, merged user defaults (fill user defaults).
Proof.
  unfold fill. induction defaults as [|[k0 v0] defaults IH]; intros user k; cbn [fold_left fst snd]; [destruct (lookup k user); reflexivity|].
  rewrite IH. destruct (lookup k0 user) as [w|] eqn:E.
  - destruct (lookup k user) eqn:F; [reflexivity|]. cbn [lookup]. destruct (String.eqb_spec k k0) as [->|]; [congruence|reflexivity].
  - rewrite lookup_put. cbn [lookup]. destruct (String.eqb_spec k k0) as [->|]; [rewrite E; reflexivity|reflexivity].
Qed.
Lemma bind_ok {A B} (r : res A) (f : A -> res B) x : bind r f = Ok x -> exists a, r = Ok a /\ f a = Ok x.
Proof. destruct r; [eauto|discriminate]. Qed.

Section C117.
Variables (d size : Z).
Variables (bounds pre_X pre_y rng verbose truth : val).
Variable xnum : val -> res Z.
Variable ctor : string -> dict -> res unit.
Variable criterion : string -> val -> res unit.
Variables (functions engines criteria : list string).
Notation gpr := (build_gpr d size bounds pre_X pre_y rng verbose xnum ctor).
Notation acq := (build_acq bounds verbose ctor functions engines).
Notation function := (build_function d ctor functions).
Notation proposer := (build_proposer bounds truth ctor).
Notation convergence := (build_convergence criterion criteria).
Notation defaults := (gpr_defaults d bounds pre_X pre_y rng verbose).

Lemma round_spec n : (0 < size)%Z -> rounded size n (round_restarts size n).
Proof.
  intros Hs. unfold round_restarts, rounded. pose proof (Z.div_mod n size) as E. pose proof (Z.mod_pos_bound n size Hs) as B.
  destruct (Z.ltb_spec size n) as [L|L]; cbn [andb].
  - split; [lia|]. intros _. destruct (Z.eqb_spec (n mod size) 0) as [Z0|Z0]; cbn [negb].
    + split; [lia|]. exists (n / size)%Z. lia.
    + split; [lia|]. exists (n / size)%Z. lia.
  - split; [reflexivity|lia].
Qed.
(** The regressor: what was given, with defaults for the rest; a multiple of the number of processes as number of restarts. *)
Theorem C117_gpr : forall g m, (0 < size)%Z -> gpr (VMap g) = Ok m ->
  exists args n r, m = Make "GaussianProcessRegressor" args /\
    (forall k, k <> "n_restarts_optimizer" -> lookup k args = match lookup k g with Some v => Some v | None => lookup k defaults end) /\
    xnum (match lookup "n_restarts_optimizer" g with Some v => v | None => VNum (10 + 2 * d) end) = Ok n /\ rounded size n r /\
    lookup "n_restarts_optimizer" args = Some (VNum r).
Proof.
  intros g m Hs H. unfold build_gpr in H. pose proof (fill_merged defaults g) as M. set (f := fill g defaults) in *. rewrite (M "n_restarts_optimizer") in H.
  replace (match lookup "n_restarts_optimizer" g with Some v => Some v | None => lookup "n_restarts_optimizer" defaults end) with
    (Some (match lookup "n_restarts_optimizer" g with Some v => v | None => VNum (10 + 2 * d) end)) in H by (destruct (lookup "n_restarts_optimizer" g); reflexivity).
  apply bind_ok in H as (n & En & H). apply bind_ok in H as (u & _ & H). injection H as <-. do 3 eexists. split; [reflexivity|]. split; [|split; [exact En|split; [apply round_spec, Hs|]]].
  - intros k Hk. rewrite lookup_put. apply String.eqb_neq in Hk. rewrite Hk. apply M.
  - rewrite lookup_put. reflexivity.
Qed.
Theorem C117_gpr_name : forall s, gpr (VStr s) = gpr (VMap [("kernel", VStr s)]).
Proof. reflexivity. Qed.
(** The acquisition object, given as {engine: arguments}. *)
Theorem C117_acquisition : forall p name a rest user m, is_map a user -> known functions name = false -> acq p (VMap ((name, a) :: rest)) = Ok m ->
  exists args, m = Make name args /\ merged user (acq_defaults bounds verbose p) args /\ ctor name args = Ok tt.
Proof.
  intros p name a rest user m Ha Hn H. unfold build_acq in H. rewrite Hn in H.
  assert (or_empty a = VMap user) as E by (destruct Ha as [->|[-> ->]]; [destruct user; reflexivity|reflexivity]). rewrite E in H.
  destruct (known engines name); [|discriminate]. apply bind_ok in H as (u & Hu & H). injection H as <-. eexists. split; [reflexivity|]. split; [apply fill_merged|].
  unfold any_error in Hu. destruct (ctor name _) as [[]|]; [reflexivity|discriminate].
Qed.
Theorem C117_acquisition_name : forall p s, acq p (VStr s) = acq p (VMap [(s, VMap [])]) /\ acq p VNone = acq p (VStr "BatchOptimizer").
Proof. split; reflexivity. Qed.
(** The name of an acquisition function stands for the default engine with that function. *)
Theorem C117_function_name : forall p s m, known functions s = true -> known functions "BatchOptimizer" = false -> acq p (VStr s) = Ok m ->
  exists args, m = Make "BatchOptimizer" args /\ lookup "acq_func" args = Some (VMap [(s, VMap [])]) /\
    merged [("acq_func", VMap [(s, VMap [])])] (acq_defaults bounds verbose p) args.
Proof.
  intros p s m Hs Hb H. unfold build_acq in H. rewrite Hs in H. cbn [or_empty] in H. destruct (known engines "BatchOptimizer"); [|discriminate]. apply bind_ok in H as (u & _ & H). injection H as <-.
  eexists. split; [reflexivity|]. split; [|apply (fill_merged (acq_defaults bounds verbose p) [("acq_func", VMap [(s, VMap [])])])]. reflexivity.
Qed.
(** The acquisition function: what was given, and the dimension. *)
Theorem C117_function : forall name a rest user m, is_map a user -> function (VMap ((name, a) :: rest)) = Ok m ->
  exists args, m = Make name args /\ lookup "dimension" args = Some (VNum d) /\ forall k, k <> "dimension" -> lookup k args = lookup k user.
Proof.
  intros name a rest user m Ha H. unfold build_function in H. assert (or_empty a = VMap user) as E by (destruct Ha as [->|[-> ->]]; [destruct user; reflexivity|reflexivity]). rewrite E in H.
  destruct (known functions name); [|discriminate]. apply bind_ok in H as (u & _ & H). injection H as <-. eexists. split; [reflexivity|]. split; [rewrite lookup_put; reflexivity|].
  intros k Hk. rewrite lookup_put. apply String.eqb_neq in Hk. rewrite Hk. reflexivity.
Qed.
(** The proposer: the class of that name, upper or lower case, with or without "proposer". *)
Definition proposer_class (s : string) : option string :=
  if String.eqb (lower s) "reference" || String.eqb (lower s) "referenceproposer" then Some "ReferenceProposer"
  else if String.eqb (lower s) "prior" || String.eqb (lower s) "priorproposer" then Some "PriorProposer"
  else if String.eqb (lower s) "uniform" || String.eqb (lower s) "uniformproposer" then Some "UniformProposer"
  else if String.eqb (lower s) "meancov" || String.eqb (lower s) "meancovproposer" then Some "MeanCovProposer" else None.
Lemma drop_app s : drop_suffix "proposer" s = s \/ s = drop_suffix "proposer" s ++ "proposer".
Proof.
  induction s as [|c s IH]; [left; reflexivity|]. cbn [drop_suffix]. destruct (String.eqb_spec (String c s) "proposer") as [E|N]; [right; exact E|].
  destruct IH as [IH|IH]; [left; rewrite IH; reflexivity|right; cbn; f_equal; exact IH].
Qed.
Lemma drop_is s t : drop_suffix "proposer" t = t -> drop_suffix "proposer" (t ++ "proposer") = t -> (String.eqb (drop_suffix "proposer" s) t) = (String.eqb s t || String.eqb s (t ++ "proposer")).
Proof.
  intros T1 T2. apply Bool.eq_iff_eq_true. rewrite orb_true_iff, !String.eqb_eq. split.
  - intros E. destruct (drop_app s) as [A|A]; [left; congruence|right; congruence].
  - intros [->| ->]; assumption.
Qed.
Theorem C117_proposer : forall s m, proposer (VStr s) = Ok m ->
  exists cls args, proposer_class s = Some cls /\ m = Make cls args /\ lookup "bounds" args = Some bounds /\
    (cls = "ReferenceProposer" \/ cls = "PriorProposer" -> lookup "truth" args = Some truth).
Proof.
  intros s m H. unfold build_proposer in H. cbn [fill fold_left lookup fst snd put] in H. unfold proposer_class.
  assert (forall cls args, (do _ <- ctor cls args; Ok (Make cls args)) = Ok m -> m = Make cls args) as C by (intros cls args E; apply bind_ok in E as (u & _ & E); injection E; auto).
  rewrite (drop_is (lower s) "reference"), (drop_is (lower s) "prior"), (drop_is (lower s) "uniform"), (drop_is (lower s) "meancov") in H by reflexivity. cbn [append] in H.
  destruct (String.eqb (lower s) "reference" || String.eqb (lower s) "referenceproposer"); [apply C in H as ->; do 2 eexists; repeat split|].
  destruct (String.eqb (lower s) "prior" || String.eqb (lower s) "priorproposer"); [apply C in H as ->; do 2 eexists; repeat split|].
  destruct (String.eqb (lower s) "uniform" || String.eqb (lower s) "uniformproposer"); [apply C in H as ->; do 2 eexists; repeat split; intros [E|E]; discriminate|].
  destruct (String.eqb (lower s) "meancov" || String.eqb (lower s) "meancovproposer"); [apply C in H as ->; do 2 eexists; repeat split; intros [E|E]; discriminate|discriminate].
Qed.
(** Criteria: one for each entry of the dictionary, in order, with its parameters; one for each name or object of a list. *)
Theorem C117_criteria : forall mc m l, convergence mc (VMap m) = Ok l -> Forall (fun kv => exists u, is_map (snd kv) u) m ->
  Forall2 (fun kv c => exists u, is_map (snd kv) u /\ c = MakeCriterion (fst kv) (VMap u)) m l.
Proof.
  intros mc m l H F. cbn in H. revert l H. induction F as [|[k v] m (u & Hu) F IH]; intros l H; cbn in H; [injection H as <-; constructor|].
  cbn in Hu. assert (or_empty v = VMap u) as E by (destruct Hu as [->|[-> ->]]; [destruct u; reflexivity|reflexivity]). rewrite E in H.
  apply bind_ok in H as (c & Hc & H). apply bind_ok in H as (r & Hr & H). injection H as <-. constructor; [|apply IH, Hr]. exists u. split; [exact Hu|].
  destruct (known criteria k); [|discriminate]. apply bind_ok in Hc as (? & _ & Hc). injection Hc as <-. reflexivity.
Qed.
Theorem C117_criteria_list : forall mc l r, convergence mc (VList l) = Ok r ->
  Forall2 (fun x c => c = Given x /\ (exists i, x = VObj KCriterion i) \/ exists s, x = VStr s /\ c = MakeCriterion s (VMap [])) l r.
Proof.
  intros mc l. cbn. induction l as [|x l IH]; intros r H; cbn in H; [injection H as <-; constructor|].
  apply bind_ok in H as (c & Hc & H). apply bind_ok in H as (r' & Hr & H). injection H as <-. constructor; [|apply IH, Hr].
  destruct x as [| | |s|[] i| |]; try discriminate.
  - right. exists s. cbn in Hc. destruct (known criteria s); [|discriminate]. apply bind_ok in Hc as (? & _ & Hc). injection Hc as <-. auto.
  - left. injection Hc as <-. eauto.
Qed.
Theorem C117_criteria_default :
  (forall mc l, convergence mc VNone = Ok l ->
     l = MakeCriterion "CorrectCounter" (VMap [("policy", VStr "s")]) ::
         match mc with
         | true => [MakeCriterion "GaussianKL" (VMap [("policy", VStr "s")]); MakeCriterion "TrainAlignment" (VMap [("policy", VStr "n")])]
         | false => []
         end) /\
  forall mc, convergence mc (VBool false) = Ok [MakeCriterion "DontConverge" VNone].
Proof.
  split; [|reflexivity]. intros [] l H.
  - apply (C117_criteria true [("CorrectCounter", _); ("GaussianKL", _); ("TrainAlignment", _)]) in H.
    2: { repeat constructor; eexists; left; reflexivity. }
    repeat match goal with
    | H : Forall2 _ (_ :: _) _ |- _ => inversion H; subst; clear H
    | H : Forall2 _ [] _ |- _ => inversion H; subst; clear H
    | H : exists _, _ |- _ => destruct H as (? & [H|[_ H]] & ?); cbn in H; [injection H as <-|discriminate H]; subst
    end. reflexivity.
  - apply (C117_criteria false [("CorrectCounter", _)]) in H.
    2: { repeat constructor; eexists; left; reflexivity. }
    repeat match goal with
    | H : Forall2 _ (_ :: _) _ |- _ => inversion H; subst; clear H
    | H : Forall2 _ [] _ |- _ => inversion H; subst; clear H
    | H : exists _, _ |- _ => destruct H as (? & [H|[_ H]] & ?); cbn in H; [injection H as <-|discriminate H]; subst
    end. reflexivity.
Qed.
(** Objects are passed on. *)
Theorem C117_objects : forall i, gpr (VObj KRegressor i) = Ok (Given (VObj KRegressor i)) /\ (forall p, acq p (VObj KAcquisition i) = Ok (Given (VObj KAcquisition i))) /\
  proposer (VObj KProposer i) = Ok (Given (VObj KProposer i)) /\ (forall mc, convergence mc (VObj KCriterion i) = Ok [Given (VObj KCriterion i)]) /\
  function (VObj KFunction i) = Ok (Given (VObj KFunction i)).
Proof. intros i. repeat split. Qed.

(** Refuted: the arguments of an acquisition function given by name are dropped without a word. *)
Theorem C117_options_dropped_refuted : forall p s a, known functions s = true -> acq p (VMap [(s, a)]) = acq p (VStr s).
Proof. intros p s a H. unfold build_acq. rewrite H. reflexivity. Qed.
(** So are all entries but the first. *)
Theorem C117_other_entries_refuted : forall p e rest, acq p (VMap (e :: rest)) = acq p (VMap [e]).
Proof. intros p [name a] rest. reflexivity. Qed.
(** Refuted: the documentation of [gpr] allows None; it raises. *)
Theorem C117_none_refuted : gpr VNone = Err TypeError.
Proof. reflexivity. Qed.
(** Refuted: a proposer without arguments, {"reference": None} (as from a YAML file), raises. *)
Theorem C117_proposer_none_refuted : forall s, proposer (VMap [(s, VNone)]) = Err TypeError.
Proof. reflexivity. Qed.
(** Refuted: dictionaries in a list raise, though the message of the error asks for them. *)
Theorem C117_list_refuted : forall mc m l, convergence mc (VList (VMap m :: l)) = Err TypeError.
Proof. reflexivity. Qed.
(** Refuted: a criterion as value of a dictionary, which the code takes care not to copy, is used as the parameters of a new one: never returned as given. *)
Theorem C117_instance_refuted : forall mc s i l, convergence mc (VMap [(s, VObj KCriterion i)]) = Ok l -> l = [MakeCriterion s (VObj KCriterion i)] /\ criterion s (VObj KCriterion i) = Ok tt.
Proof.
  intros mc s i l H. cbn in H. destruct (known criteria s); [|discriminate]. unfold any_error in H. destruct (criterion s (VObj KCriterion i)) as [[]|]; [|discriminate]. cbn in H. injection H as <-. auto.
Qed.
(** Which exceptions a user may see: those of constructors of acquisition objects, acquisition functions and criteria are all raised again as ValueError. *)
Theorem C117_errors : forall v x, ((exists p, acq p v = Err x) \/ function v = Err x -> x = ValueError \/ x = TypeError \/ x = IndexError) /\
  (forall mc, convergence mc v = Err x -> x = ValueError \/ x = TypeError).
Proof.
  assert (A : forall (r : res unit) (m : made) x, (do _ <- any_error r; Ok m) = Err x -> x = ValueError) by (intros [[]|y] m x H; [discriminate H|injection H as <-; reflexivity]).
  intros v x. split.
  - assert (D : forall (l : list string) name args (m : made) y, (if known l name then do _ <- any_error (ctor name args); Ok m else Err ValueError) = Err y -> y = ValueError \/ y = TypeError \/ y = IndexError).
    { intros l name args m y H. left. destruct (known l name); [eapply A; exact H|injection H as <-; reflexivity]. }
    intros [[p H]|H].
    + unfold build_acq in H. destruct v as [| | |s|k i|m|l]; try (injection H as <-; auto); try (destruct k; [..]; (discriminate H || injection H as <-; auto)).
      all: cbv zeta iota in H.
      * destruct (known functions "BatchOptimizer"); cbv zeta iota in H; cbn [or_empty] in H; eapply D; exact H.
      * destruct (known functions s); cbv zeta iota in H; cbn [or_empty] in H; eapply D; exact H.
      * destruct m as [|[name a] m]; [injection H as <-; auto|]. destruct (known functions name); cbv zeta iota in H; [cbn [or_empty] in H; eapply D; exact H|].
        destruct (or_empty a); try (injection H as <-; auto). eapply D. exact H.
    + unfold build_function in H. destruct v as [| | |s|k i|m|l]; try (injection H as <-; auto); try (destruct k; [..]; (discriminate H || injection H as <-; auto)).
      * cbn [or_empty] in H. eapply D. exact H.
      * destruct m as [|[name a] m]; [injection H as <-; auto|]. destruct (or_empty a); try (injection H as <-; auto). eapply D. exact H.
  - intros mc H. assert (B : forall l y, build_all criterion criteria l = Err y -> y = ValueError \/ y = TypeError).
    { induction l as [|[cc a] l IH]; intros y E; cbn [build_all] in E; [discriminate E|]. destruct (build_one criterion criteria cc a) as [m|z] eqn:F; cbn [bind] in E.
      - destruct (build_all criterion criteria l) as [r|z]; cbn [bind] in E; [discriminate E|]. apply IH. exact E.
      - injection E as <-. unfold build_one in F. destruct cc as [| | |s|k i|m'|l']; try (injection F as <-; auto); try (destruct k; (discriminate F || injection F as <-; auto)).
        left. destruct (known criteria s); [eapply A; exact F|injection F as <-; reflexivity]. }
    unfold build_convergence in H. destruct v as [|[]| |s|k i|m|l]; try discriminate H; eapply B; exact H.
Qed.
End C117.
Print Assumptions C117_errors.
Print Assumptions C117_gpr.
Print Assumptions C117_gpr_name.
Print Assumptions C117_acquisition.
Print Assumptions C117_acquisition_name.
Print Assumptions C117_function_name.
Print Assumptions C117_function.
Print Assumptions C117_proposer.
Print Assumptions C117_criteria.
Print Assumptions C117_criteria_list.
Print Assumptions C117_criteria_default.
Print Assumptions C117_objects.
Print Assumptions C117_options_dropped_refuted.
Print Assumptions C117_other_entries_refuted.
Print Assumptions C117_none_refuted.
Print Assumptions C117_proposer_none_refuted.
Print Assumptions C117_list_refuted.
Print Assumptions C117_instance_refuted.

(** Three dimensions, four processes: 18 restarts are rounded down to 16; the given noise level is kept. *)
Definition number (v : val) : res Z := match v with VNum z => Ok z | _ => Err TypeError end.
Definition fine (_ : string) (_ : dict) : res unit := Ok tt.
Example C117_gpr_case : exists args, build_gpr 3 4 (VObj KOther 0) (VObj KOther 1) (VObj KOther 2) (VObj KOther 3) (VNum 3) number fine
    (VMap [("noise_level", VNum 7); ("n_restarts_optimizer", VNum 18); ("verbose", VNum 1)]) = Ok (Make "GaussianProcessRegressor" args) /\
  lookup "noise_level" args = Some (VNum 7) /\ lookup "n_restarts_optimizer" args = Some (VNum 16) /\ lookup "verbose" args = Some (VNum 1) /\
  lookup "kernel" args = Some (VStr "RBF") /\ lookup "bounds" args = Some (VObj KOther 0).
Proof. eexists. repeat split; reflexivity. Qed.
Example C117_acq_case :
  build_acq (VObj KOther 0) (VNum 3) fine ["LogExp"] ["NORA"; "BatchOptimizer"] (VObj KOther 1) (VMap [("NORA", VMap [("mc_every", VNum 1)])]) =
    Ok (Make "NORA" [("mc_every", VNum 1); ("bounds", VObj KOther 0); ("preprocessing_X", VObj KOther 1);
                     ("acq_func", VMap [("LogExp", VMap [("zeta_scaling", VStr "0.85")])]); ("verbose", VNum 3)]) /\
  build_acq (VObj KOther 0) (VNum 3) fine ["LogExp"] ["NORA"; "BatchOptimizer"] (VObj KOther 1) (VMap [("LogExp", VMap [("zeta", VNum 1)])]) =
    Ok (Make "BatchOptimizer" [("acq_func", VMap [("LogExp", VMap [])]); ("bounds", VObj KOther 0); ("preprocessing_X", VObj KOther 1); ("verbose", VNum 3)]).
Proof. split; reflexivity. Qed.
Example C117_criteria_case :
  build_convergence (fun _ _ => Ok tt) ["CorrectCounter"; "GaussianKL"] false (VMap [("GaussianKL", VMap [("limit", VNum 2)]); ("CorrectCounter", VNone)]) =
    Ok [MakeCriterion "GaussianKL" (VMap [("limit", VNum 2)]); MakeCriterion "CorrectCounter" (VMap [])].
Proof. reflexivity. Qed.
Example C117_proposer_case : exists args, build_proposer (VObj KOther 0) (VObj KOther 4) fine (VStr "UniformProposer") = Ok (Make "UniformProposer" args).
Proof. eexists. reflexivity. Qed.
(** The options of the engine are wrong; an unknown engine. *)
Example C117_errors_case : let picky name (m : dict) := match lookup "wrong" m with Some _ => Err KeyError | None => Ok tt end in
  build_acq (VObj KOther 0) (VNum 3) picky ["LogExp"] ["NORA"; "BatchOptimizer"] (VObj KOther 1) (VMap [("NORA", VMap [("wrong", VNum 1)])]) = Err ValueError /\
  build_acq (VObj KOther 0) (VNum 3) picky ["LogExp"] ["NORA"; "BatchOptimizer"] (VObj KOther 1) (VStr "Nora") = Err ValueError /\
  build_convergence (fun _ _ => Err KeyError) ["GaussianKL"] false (VMap [("GaussianKL", VMap [("limit", VNum 2)])]) = Err ValueError.
Proof. split; [|split]; reflexivity. Qed.

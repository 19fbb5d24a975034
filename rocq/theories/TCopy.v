(** Property C24: deep copies. *)
From Verif Require Import MCopy SGpr PSvm PGpr PGpr3 TGpr TPredict.
Set Default Goal Selector "!".

Section C24.
Context {pt pt_ PX PY model theta box : Type}.
Variable e : env pt pt_ PX PY model theta box.
Variable pe : penv pt pt_ PY model theta box.
Variable c : config theta.

(** Right after copying: same predictions, for the default clip factor and without a trust region (or
    ignoring it). *)
Theorem C24_same_predictions :
  forall o a X, o_clip o = nq 11 10 -> g_trust (o_gpr o) = None \/ p_ignore a = true ->
    predict_copy e pe c (copied o) a X = predict_orig e pe c (copied o) a X
    /\ predict_orig e pe c (copied o) a X = predict e pe c (o_clip o) (o_gpr o) a X.
Proof.
  intros [cl g] a X Hc Ht. simpl in Hc, Ht. subst cl. unfold predict_copy, predict_orig, seen, copied.
  cbn [w_copy w_orig w_X w_Y o_clip o_gpr deepcopy]. destruct g. cbn in *.
  split; [|reflexivity]. destruct Ht as [-> | Ht]; [reflexivity|].
  unfold predict. cbn. rewrite Ht. destruct g_trust; reflexivity.
Qed.
Theorem C24_same_std :
  forall o X, predict_std e pe c (seen (copied o) (w_copy (copied o))) X = predict_std e pe c (o_gpr o) X.
Proof. intros [cl g] X. destruct g; reflexivity. Qed.

(** Preprocessors that are never changed by fitting, as the default one. *)
Definition stateless : Prop :=
  (forall p X y p', fitX e p X y = Ok p' -> p' = p) /\ (forall p X y p', fitY e p X y = Ok p' -> p' = p).

Local Notation G := (gpr pt pt_ PX PY model theta box).
Local Notation M := (meth pt pt_ PX PY model theta box).
(** What no call changes, whether it returns or raises. *)
Definition keeps {A} (P : G -> Prop) (m : M A) : Prop :=
  forall g, P g -> P (fst (m g)).
Lemma keeps_seq {A B} (P : G -> Prop) (m : M A) (k : A -> M B) :
  keeps P m -> (forall a, keeps P (k a)) -> keeps P (seq_ m k).
Proof.
  intros Hm Hk g Hg. specialize (Hm g Hg). unfold seq_. destruct (m g) as [g' [a|x]]; auto. apply Hk. auto.
Qed.
Lemma keeps_get {B} (P : G -> Prop) (k : G -> M B) : (forall g, P g -> keeps P (k g)) -> keeps P (seq_ get k).
Proof. intros Hk g Hg. apply Hk; auto. Qed.
Lemma keeps_lift {A B} (P : G -> Prop) (r : res A) (k : A -> M B) :
  (forall a, r = Ok a -> keeps P (k a)) -> keeps P (seq_ (lift r) k).
Proof. intros Hk g Hg. unfold seq_, lift. destruct r; auto. apply Hk; auto. Qed.
Lemma keeps_ret {A} (P : G -> Prop) (a : A) : keeps P (ret a). Proof. intros g Hg. auto. Qed.
Lemma keeps_raise {A} (P : G -> Prop) x : keeps P (@raise pt pt_ PX PY model theta box A x). Proof. intros g Hg. auto. Qed.
Lemma keeps_lift1 {A} (P : G -> Prop) (r : res A) : keeps P (lift r). Proof. intros g Hg. auto. Qed.
Lemma keeps_modify (P : G -> Prop) f : (forall g, P g -> P (f g)) -> keeps P (modify f).
Proof. intros Hf g Hg. apply Hf. auto. Qed.
Ltac keep :=
  first [ apply keeps_get; intros ? ? | apply keeps_lift; intros ? ? | apply keeps_seq; [|intros ?]
        | apply keeps_ret | apply keeps_raise | apply keeps_lift1 ].

Definition pres pX pY (g : gpr pt pt_ PX PY model theta box) : Prop := g_pX g = pX /\ g_pY g = pY.
Lemma keeps_update pX pY : keeps (pres pX pY) (update_model e).
Proof.
  unfold update_model. keep. destruct (_ <? 1); [keep|]. destruct (g_kernel g); [|keep]. keep.
  destruct (cholesky e _ _); [|keep]. apply keeps_modify. auto.
Qed.
Lemma keeps_restarts pX pY d draw start n : forall i, keeps (pres pX pY) (restarts e d draw start i n).
Proof.
  induction n as [|n IH]; intros i; cbn [restarts]; [keep|]. keep. keep.
  - destruct (_ && start); [destruct (g_kernel g)|]; keep.
  - destruct (optimize e d a) as [th r]. keep; [apply keeps_modify; auto|]. keep. keep; [apply IH|]. keep.
Qed.
Lemma keeps_fit pX pY kw : keeps (pres pX pY) (fit_gpr_hyperparameters e c kw).
Proof.
  unfold fit_gpr_hyperparameters. keep. match goal with |- keeps _ (if ?b then _ else _) => destruct b end.
  - destruct (g_kernel g); [|keep]. keep. keep; [apply keeps_modify; auto|apply keeps_update].
  - keep; [apply keeps_modify; auto|]. match goal with |- keeps _ (if ?b then _ else _) => destruct b end; [keep|].
    keep. keep; [apply keeps_restarts|]. keep. destruct (nth_error _ _) as [[th v]|]; [|keep].
    do 2 (keep; [apply keeps_modify; auto|]). keep; [apply keeps_update|apply keeps_modify; auto].
Qed.
Lemma keeps_append pX pY a : stateless -> keeps (pres pX pY) (append_to_data e c a).
Proof.
  intros [SX SY]. assert (forall kw, keeps (pres pX pY) (append_body e c a kw)) as H.
  2: { unfold append_to_data. destruct (a_fit a); auto. keep. }
  intros kw. unfold append_body. keep.
  { destruct (a_X a), (a_y a); try keep. destruct (a_noise a); keep. }
  destruct a0 as [[X y] force]. keep. keep. keep; [apply keeps_modify; auto|].
  destruct (negb (dim_ok e X)); [keep|]. keep; [apply keeps_modify; auto|]. keep. keep. keep; [apply keeps_modify; auto|].
  keep. match goal with |- keeps _ (match ?q with _ => _ end) => destruct q as [finite thr] end. keep; [destruct (c_classifier c); keep|].
  keep.
  { match goal with |- keeps _ (if ?b then _ else _) => destruct b end; [|keep]. keep. keep.
    keep; [apply keeps_modify; intros; match goal with K : fitX _ _ _ _ = _ |- _ => apply SX in K end; unfold pres in *; cbn; intuition congruence|].
    keep. apply keeps_modify; intros; match goal with K : fitY _ _ _ _ = _ |- _ => apply SY in K end; unfold pres in *; cbn; intuition congruence. }
  keep. keep. keep. keep. keep; [apply keeps_modify; auto|]. keep.
  { match goal with |- keeps _ (if ?b then _ else _) => destruct b end; [|keep]. keep. keep.
    match goal with |- keeps _ (let '(_, _) := ?q in _) => destruct q end.
    keep; [apply keeps_modify; auto|]. keep. destruct (bool_list_eqb _ _); keep. }
  keep; [apply keeps_modify; auto|]. match goal with |- keeps _ (if ?b then _ else _) => destruct b end; [keep|].
  repeat first [ keep; [apply keeps_modify; solve [auto]|] | apply keeps_get; intros ? ? | apply keeps_lift; intros ? ?
    | apply keeps_seq; [destruct kw; [apply keeps_fit|apply keeps_update]|intros ?]].
  apply keeps_modify. intros gz Hz. match goal with |- context [match ?b with Some _ => _ | None => _ end] => destruct b end; auto.
Qed.
Lemma step_pre o g : stateless -> g_pX (fst (step e c o g)) = g_pX g /\ g_pY (fst (step e c o g)) = g_pY g.
Proof.
  intros S. destruct o as [a|kw]; cbn [step].
  - apply (keeps_append _ _ a S). split; reflexivity.
  - apply keeps_fit. split; reflexivity.
Qed.

(** For these, every later history leaves each object as its own calls alone would have. *)
Definition alone (ops : list (op pt theta)) g := fold_left (fun g o => fst (step e c o g)) ops g.
Definition calls_on (which : bool) (l : list (bool * op pt theta)) : list (op pt theta) :=
  map snd (filter (fun p => Bool.eqb (fst p) which) l).
Lemma seen_id (w : @world pt pt_ PX PY model theta box) (o : @object pt pt_ PX PY model theta box) : g_pX (o_gpr o) = w_X w -> g_pY (o_gpr o) = w_Y w -> seen w o = o_gpr o.
Proof. intros A B. unfold seen. rewrite <- A, <- B. destruct o as [k []]. reflexivity. Qed.
Lemma later_alone l : stateless -> forall w : @world pt pt_ PX PY model theta box,
  g_pX (o_gpr (w_orig w)) = w_X w -> g_pY (o_gpr (w_orig w)) = w_Y w ->
  g_pX (o_gpr (w_copy w)) = w_X w -> g_pY (o_gpr (w_copy w)) = w_Y w ->
  let w' := later e c l w in
  seen w' (w_orig w') = alone (calls_on true l) (o_gpr (w_orig w))
  /\ seen w' (w_copy w') = alone (calls_on false l) (o_gpr (w_copy w))
  /\ o_clip (w_orig w') = o_clip (w_orig w) /\ o_clip (w_copy w') = o_clip (w_copy w).
Proof.
  intros S. induction l as [|[b o] l IH]; intros w H1 H2 H3 H4; cbn zeta.
  - unfold later, calls_on, alone. simpl. rewrite !seen_id by auto. auto.
  - unfold later. cbn [fold_left fst snd].
    destruct b.
    + destruct (step_pre o (seen w (w_orig w)) S) as [P1 P2].
      assert (g_pX (seen w (w_orig w)) = w_X w /\ g_pY (seen w (w_orig w)) = w_Y w) as [Q1 Q2] by (split; reflexivity).
      destruct (IH (on_orig e c o w)) as (R1 & R2 & R3 & R4);
        [unfold on_orig; cbn [w_orig w_copy w_X w_Y o_gpr o_clip]; congruence..|].
      unfold later in *. rewrite R1, R2, R3, R4. unfold on_orig. cbn [w_orig w_copy o_gpr o_clip].
      unfold calls_on. cbn [filter fst snd Bool.eqb map]. unfold alone. cbn [fold_left]. rewrite seen_id by auto. auto.
    + destruct (step_pre o (seen w (w_copy w)) S) as [P1 P2].
      assert (g_pX (seen w (w_copy w)) = w_X w /\ g_pY (seen w (w_copy w)) = w_Y w) as [Q1 Q2] by (split; reflexivity).
      destruct (IH (on_copy e c o w)) as (R1 & R2 & R3 & R4);
        [unfold on_copy; cbn [w_orig w_copy w_X w_Y o_gpr o_clip]; congruence..|].
      unfold later in *. rewrite R1, R2, R3, R4. unfold on_copy. cbn [w_orig w_copy o_gpr o_clip].
      unfold calls_on. cbn [filter fst snd Bool.eqb map]. unfold alone. cbn [fold_left]. rewrite seen_id by auto. auto.
Qed.
Theorem C24_independent :
  forall o l, stateless ->
    let w := later e c l (copied o) in
    seen w (w_orig w) = alone (calls_on true l) (o_gpr o)
    /\ seen w (w_copy w) = alone (calls_on false l) (o_gpr (deepcopy o))
    /\ (calls_on false l = [] -> forall a X, predict_copy e pe c w a X = predict_copy e pe c (copied o) a X)
    /\ (calls_on true l = [] -> forall a X, predict_orig e pe c w a X = predict_orig e pe c (copied o) a X).
Proof.
  intros o l S w. destruct (later_alone l S (copied o)) as (R1 & R2 & R3 & R4); [reflexivity..|].
  fold w in R1, R2, R3, R4. split; [exact R1|]. split; [exact R2|]. split.
  - intros E a X. unfold predict_copy. rewrite R2, R4, E. rewrite (seen_id (copied o)) by reflexivity. reflexivity.
  - intros E a X. unfold predict_orig. rewrite R1, R3, E. rewrite (seen_id (copied o)) by reflexivity. reflexivity.
Qed.
(** A lie of BatchOptimizer.multi_add (gpry/gp_acquisition.py:488-491), and of RankedPool.cache_model (1551-1553):
    hyperparameters, classifier and preprocessors are not refitted. *)
Definition lie (a : append_args pt theta) : Prop := a_fit a = FFalse /\ a_classifier a = false.
Lemma keeps_lie pX pY a : lie a -> keeps (pres pX pY) (append_to_data e c a).
Proof.
  intros [Hf Hc]. unfold append_to_data. rewrite Hf. cbn [kwargs]. unfold append_body. rewrite Hc. cbn [orb]. keep.
  { destruct (a_X a), (a_y a); try keep. destruct (a_noise a); keep. }
  destruct a0 as [[X y] force]. keep. keep. keep; [apply keeps_modify; auto|].
  destruct (negb (dim_ok e X)); [keep|]. keep; [apply keeps_modify; auto|]. keep. keep. keep; [apply keeps_modify; auto|].
  keep. match goal with |- keeps _ (match ?q with _ => _ end) => destruct q as [finite thr] end. keep; [destruct (c_classifier c); keep|].
  rewrite andb_false_r.
  repeat match goal with
  | |- keeps _ (seq_ get _) => apply keeps_get; intros ? ?
  | |- keeps _ (seq_ (lift _) _) => apply keeps_lift; intros ? ?
  | |- keeps _ (seq_ (ret _) _) => apply keeps_seq; [apply keeps_ret|intros ?]
  | |- keeps _ (seq_ (modify _) _) => apply keeps_seq; [apply keeps_modify; solve [auto]|intros ?]
  end.
  match goal with |- keeps _ (if ?b then _ else _) => destruct b end; [keep|].
  repeat match goal with
  | |- keeps _ (seq_ get _) => apply keeps_get; intros ? ?
  | |- keeps _ (seq_ (lift _) _) => apply keeps_lift; intros ? ?
  | |- keeps _ (seq_ (modify _) _) => apply keeps_seq; [apply keeps_modify; solve [auto]|intros ?]
  | |- keeps _ (seq_ (update_model _) _) => apply keeps_seq; [apply keeps_update|intros ?]
  end.
  apply keeps_modify. intros gz Hz. match goal with |- context [match ?b with Some _ => _ | None => _ end] => destruct b end; auto.
Qed.
(** Whatever lies are added to the copy, the original stays as it was, for all preprocessors. *)
Theorem C36_untouched :
  forall o lies, Forall lie lies ->
    let w := later e c (map (fun a => (false, OAppend a)) lies) (copied o) in
    seen w (w_orig w) = o_gpr o
    /\ forall a X, predict_orig e pe c w a X = predict e pe c (o_clip o) (o_gpr o) a X.
Proof.
  intros o lies Hl w.
  assert (w_orig w = o /\ w_X w = g_pX (o_gpr o) /\ w_Y w = g_pY (o_gpr o)) as (H1 & H2 & H3).
  { subst w. set (w0 := copied o). assert (w_orig w0 = o /\ w_X w0 = g_pX (o_gpr o) /\ w_Y w0 = g_pY (o_gpr o)) as H0 by (repeat split).
    revert H0. generalize w0. clear w0. induction Hl as [|a l Ha Hl IH]; intros w0 (A & B & C).
    - unfold later. cbn [map fold_left]. auto.
    - unfold later in *. cbn [map fold_left fst snd]. apply IH. unfold on_copy. cbn [w_orig w_X w_Y].
      destruct (keeps_lie (w_X w0) (w_Y w0) a Ha (seen w0 (w_copy w0))) as [K1 K2]; [split; reflexivity|].
      cbn [step]. rewrite K1, K2. auto. }
  assert (seen w (w_orig w) = o_gpr o) as E by (rewrite seen_id; congruence). split; [exact E|].
  intros a X. unfold predict_orig. rewrite E, H1. reflexivity.
Qed.
End C24.
Print Assumptions C36_untouched.
Print Assumptions C24_same_predictions.
Print Assumptions C24_same_std.
Print Assumptions C24_independent.

(** The default preprocessors have no state. After the copy is made, points are added to both. *)
Definition start_obj : object := mkObj (nq 11 10) (set_trust None demo_g).
Definition two_calls : list (bool * op Z nat) :=
  [(true, OAppend (add [0]%Z [nz 20] FTrue true)); (false, OAppend (add [-1]%Z [nz 9] FTrue true))].
Example C24_example :
  stateless demo
  /\ let w := later demo (demo_c true 1) two_calls (copied start_obj) in
     g_Xall (o_gpr (w_orig w)) = [1; 2; 3; 0]%Z /\ g_Xall (o_gpr (w_copy w)) = [1; 2; 3; -1]%Z.
Proof.
  split; [split; intros [] ? ? []; auto|]. cbn zeta. vm_compute. auto.
Qed.

(** False with a trust region: the copy has none. *)
Theorem C24_trust_refuted :
  exists (o : object) (X : list Z) r r', g_trust (o_gpr o) = Some tt
    /\ predict_orig demo demo_pe2 (demo_c true 1) (copied o) with_std X = Ok r
    /\ predict_copy demo demo_pe2 (demo_c true 1) (copied o) with_std X = Ok r'
    /\ r_mean r = [NInf] /\ r_mean r' = [nz 0].
Proof.
  exists (mkObj (nq 11 10) demo_g), [0]%Z. do 2 eexists. split; [reflexivity|].
  split; [vm_compute; reflexivity|]. split; [vm_compute; reflexivity|]. split; reflexivity.
Qed.
(** False for other clip factors: the ceilings differ. *)
Theorem C24_clip_refuted :
  exists (o : object) (X : list Z) r r', o_clip o = nz 2
    /\ predict_orig demo demo_pe2 (demo_c true 1) (copied o) with_std X = Ok r
    /\ predict_copy demo demo_pe2 (demo_c true 1) (copied o) with_std X = Ok r'
    /\ exists v v', r_mean r = [v] /\ r_mean r' = [v'] /\ neqb v (nz 9) = true /\ neqb v' (nq 72 10) = true.
Proof.
  exists (mkObj (nz 2) (set_trust None demo_g)), [2]%Z. do 2 eexists. split; [reflexivity|].
  split; [vm_compute; reflexivity|]. split; [vm_compute; reflexivity|].
  do 2 eexists. split; [reflexivity|]. split; [reflexivity|]. split; reflexivity.
Qed.
(** False with preprocessors that learn from the data: the copy is only made once, and then points are
    appended to the original. The copy, which was not touched, transforms queries with the new
    preprocessor. (Here the preprocessor subtracts the number of points it was fitted to.) *)
Definition learning : env Z Z Z unit unit nat unit :=
  mkEnv (fun _ X _ => Ok (Z.of_nat (length X))) (fun p X => Ok (map (fun x => (x - p)%Z) X)) (fun p _ _ => Ok p) (fun _ y => Ok y)
    (fun _ y => Ok y) (fun _ v => Ok v) (fun _ _ => Ok tt) (fun _ _ => true)
    (fun d th => nz 0) (fun d th => (S th, Ok (nz 0))) (fun _ _ => Ok None) (fun _ => true).
Theorem C24_shared_preprocessor_refuted :
  exists (o : object) (l : list (bool * op Z nat)) (X : list Z) r r',
    calls_on false l = []
    /\ predict_copy learning (demo_pe (fun _ => true)) (demo_c true 1) (copied o) with_std X = Ok r
    /\ predict_copy learning (demo_pe (fun _ => true)) (demo_c true 1) (later learning (demo_c true 1) l (copied o)) with_std X = Ok r'
    /\ r_mean r = [nz (-10)] /\ r_mean r' = [nz (-30)].
Proof.
  exists (mkObj (nq 11 10) (fst (do_all learning (demo_c true 1)
    [OAppend (add [1]%Z [nz 5] FTrue true)] (new_gpr 0%Z tt (Scalar (nq 1 100)))))).
  exists [(true, OAppend (add [2; 3]%Z [nz 6; nz 7] FTrue true))], [0]%Z. do 2 eexists. split; [reflexivity|].
  split; [vm_compute; reflexivity|]. split; [vm_compute; reflexivity|]. split; reflexivity.
Qed.
Print Assumptions C24_trust_refuted.
Print Assumptions C24_clip_refuted.
Print Assumptions C24_shared_preprocessor_refuted.

(** Two lies with a preprocessor that learns: the copy changes, the original does not. *)
Example C36_untouched_example :
  let o := mkObj (nq 11 10) (fst (do_all learning (demo_c true 1)
    [OAppend (add [1]%Z [nz 5] FTrue true)] (new_gpr 0%Z tt (Scalar (nq 1 100))))) in
  let lies := [add [2]%Z [nz 6] FFalse false; add [3]%Z [nz 7] FFalse false] in
  let w := later learning (demo_c true 1) (map (fun a => (false, OAppend a)) lies) (copied o) in
  Forall lie lies /\ seen w (w_orig w) = o_gpr o /\ g_Xall (o_gpr (w_copy w)) = [1; 2; 3]%Z
  /\ g_Xall (o_gpr (w_orig w)) = [1]%Z.
Proof.
  cbv zeta. split; [repeat constructor|]. split; [apply (C36_untouched learning (demo_pe (fun _ => true))); repeat constructor|].
  split; vm_compute; reflexivity.
Qed.

(** C139: a run returns if nothing in it fails. *)
From Verif Require Import SRun PMpi PSvm PGpr PGpr2 PGpr3 TGpr TGpr2 PRun PInit TInit TRun TTotal.
Set Default Goal Selector "!".
Set Bullet Behavior "Strict Subproofs".

Section C139.
Context {pt pt_ PX PY model theta box : Type}.
Variable e : env pt pt_ PX PY model theta box.
Variable c : config theta.
Variable o : options.
Variables (size : nat) (verbose loaded : bool).
Notation gpr := (gpr pt pt_ PX PY model theta box).
Notation rstate := (rstate pt pt_ PX PY model theta box).
Implicit Types (g : gpr) (s : rstate).

(** ** What calls that return preserve *)
(** A log-marginal likelihood is known if hyperparameters are. *)
Definition known g : Prop := g_kernel g <> None -> g_lml g <> None.
Definition stays {A} (m : gpr -> gpr * res A) : Prop := forall g g' a, known g -> m g = (g', Ok a) -> known g'.
Lemma stays_ret {A} (a : A) : stays (ret a). Proof. intros g g' b K H. injection H as <- _. exact K. Qed.
Lemma stays_raise {A} x : stays (@raise pt pt_ PX PY model theta box A x). Proof. intros g g' b K H. discriminate. Qed.
Lemma stays_lift {A} (r : res A) : stays (lift r). Proof. intros g g' b K H. destruct r; [|discriminate]. injection H as <- _. exact K. Qed.
Lemma stays_get : stays (@MGpr.get pt pt_ PX PY model theta box). Proof. intros g g' b K H. injection H as <- _. exact K. Qed.
Lemma stays_modify f : (forall g, known g -> known (f g)) -> stays (modify f). Proof. intros F g g' b K H. injection H as <- _. auto. Qed.
Lemma stays_seq {A B} (m : gpr -> gpr * res A) (k : A -> gpr -> gpr * res B) :
  stays m -> (forall a, stays (k a)) -> stays (seq_ m k).
Proof.
  intros Hm Hk g g' b K H. unfold seq_ in H. destruct (m g) as [g1 [a|x]] eqn:E; [|discriminate].
  eapply Hk; [eapply Hm; eauto|exact H].
Qed.
Lemma stays_svm (s : svm pt_ model) (r : res (list bool)) (k : list bool -> gpr -> gpr * res unit) :
  (forall l, stays (k l)) -> stays (let '(s, r) := (s, r) in seq_ (modify (set_svm s)) (fun _ => seq_ (lift r) k)).
Proof. intros H. apply stays_seq; [apply stays_modify; intros g K; exact K|]. intros _. apply stays_seq; [apply stays_lift|exact H]. Qed.
Lemma stays_update : stays (update_model e).
Proof.
  intros g g' [] K H. apply update_model_ok in H as [[_ ->]|[_ (th & d & _ & _ & ->)]]; exact K.
Qed.
Lemma stays_fit kw : stays (fit_gpr_hyperparameters e c kw).
Proof.
  intros g g' [] _ H _. unfold fit_gpr_hyperparameters in H. unfold seq_ at 1, MGpr.get at 1 in H. cbv beta iota zeta in H.
  match type of H with (if ?b then _ else _) _ = _ => destruct b end.
  - destruct (g_kernel g) as [th|]; [|discriminate]. unfold seq_ at 1, lift at 1 in H. destruct (the_data g) as [d|]; [|discriminate].
    unfold seq_ at 1, modify at 1 in H. apply update_model_ok in H as [[_ ->]|[_ (t & d' & _ & _ & ->)]]; discriminate.
  - unfold seq_ at 1, modify at 1 in H. match type of H with (if ?b then _ else _) _ = _ => destruct b; [discriminate|] end.
    unfold seq_ at 1, lift at 1 in H. destruct (the_data g) as [d|]; [|discriminate]. unfold seq_ at 1 in H.
    destruct (restarts e d _ _ _ _ _) as [g1 [l|]]; [|discriminate]. unfold seq_ at 1, lift at 1 in H.
    destruct (np_argmin _) as [b|]; [|discriminate]. destruct (nth_error l b) as [[th v]|]; [|discriminate].
    unfold seq_ at 1, modify at 1 in H. unfold seq_ at 1, modify at 1 in H. unfold seq_ at 1 in H.
    destruct (update_model e _) as [g2 [[]|]] eqn:E; [|discriminate]. injection H as <-.
    apply update_model_ok in E as [[_ ->]|[_ (t & d' & _ & _ & ->)]]; discriminate.
Qed.
Ltac st := repeat first
  [ apply stays_fit | apply stays_update | apply stays_ret | apply stays_raise | apply stays_lift | apply stays_get
  | apply stays_modify; let G := fresh in let K' := fresh in intros G K'; exact K'
  | apply stays_seq; [|intros ?a]
  | match goal with |- stays (match ?x with _ => _ end) => destruct x end
  | match goal with |- stays (if ?x then _ else _) => destruct x end
  | match goal with |- stays (let '_ := ?x in _) => destruct x end ].
Lemma append_known a g g' : known g -> append_to_data e c a g = (g', Ok tt) -> known g'.
Proof.
  intros K H. unfold append_to_data in H.
  assert (forall kw, stays (append_body e c a kw)) as S; [|destruct (a_fit a); try (eapply S; eauto; fail); discriminate].
  intros kw. unfold append_body. st.
  all: apply stays_modify; intros g1 K1; match goal with |- known (match ?x with _ => _ end) => destruct x end; exact K1.
Qed.

(** ** The surrogate of a run that goes well *)
Definition settled g : Prop := consistent c g /\ prepared g /\ known g /\ exists n, g_noise g = MGpr.Scalar n.
Hypothesis W : well_behaved e.
Hypothesis U : usable c.
Hypothesis Hsize : size <> 0.
Lemma append_settled a g X y : settled g -> a_X a = Some X -> a_y a = Some y -> a_noise a = NoNoise ->
  length X = length y -> y <> [] -> acceptable c y -> dim_ok e X = true ->
  (a_fit a = FFalse \/ exists kw, a_fit a = FKw kw /\ f_bounds_finite kw = true) ->
  exists g', append_to_data e c a g = (g', Ok tt) /\ settled g'.
Proof.
  intros (C & P & K & n & N) HX Hy Hn L Hne Ha Hd Hf.
  destruct (C73_returns e c a g W U C) as (g' & E & C' & P' & _).
  { split.
    - unfold fit_fits. destruct Hf as [->|(kw & -> & Hb)]; [apply P|]. split; [exact Hb|]. left. apply P.
    - left. exists X, y. rewrite Hn, N. repeat (split; [assumption|]). exact I. }
  exists g'. split; [exact E|]. split; [exact C'|]. split; [apply P', P|]. split; [eapply append_known; eauto|].
  apply append_noise in E as (nv & Ev & Eu). rewrite Hn, N in Ev. cbn in Ev. injection Ev as <-. rewrite N in Eu. cbn in Eu.
  injection Eu as Eu. eauto.
Qed.

(** ** The parallel fit *)
Lemma all_ok_total {A B} (l : list (A * res B)) : (forall p, In p l -> exists b, snd p = Ok b) ->
  exists l', all_ok l = Ok l' /\ length l' = length l.
Proof.
  induction l as [|[a r] l IH]; intros H; [exists []; auto|]. destruct (H (a, r) (or_introl eq_refl)) as [b E]. cbn in E. subst r.
  destruct IH as (l' & E' & L); [intros p Hp; apply H; right; exact Hp|]. exists ((a, b) :: l'). cbn. rewrite E'. cbn. rewrite L. auto.
Qed.
Lemma restarts_total' it : exists ns, restarts_by_rank c o size it = Ok ns /\ length ns = size.
Proof.
  unfold restarts_by_rank. destruct (_ && _).
  - rewrite split_number_spec by exact Hsize. eexists. split; [reflexivity|]. rewrite map_length, seq_length. reflexivity.
  - eexists. split; [reflexivity|]. apply repeat_length.
Qed.
Lemma rank_settled i X y g r n : settled g -> length X = length y -> y <> [] -> acceptable c y -> dim_ok e X = true ->
  i_bounds_finite i = true -> exists g', append_to_data e c (rank_args i X y r n) g = (g', Ok tt) /\ settled g'.
Proof.
  intros S L Hne Ha Hd Hb. apply append_settled with X y; try assumption; try reflexivity.
  cbn [rank_args a_fit]. destruct (n =? 0); [left; reflexivity|]. right. exists (rank_kw i r n). split; [reflexivity|exact Hb].
Qed.
Lemma parallel_settled it i X y g : settled g -> length X = length y -> y <> [] -> acceptable c y -> dim_ok e X = true ->
  i_bounds_finite i = true -> exists g', fit_gpr_parallel e c o size it i X y g = (g', Ok tt) /\ settled g'.
Proof.
  intros S L Hne Ha Hd Hb.
  assert (exists g', fit_gpr_parallel e c o size it i X y g = (g', Ok tt)) as [g' E].
  2: { exists g'. split; [exact E|]. apply fit_parallel_ok in E as (ns & b & n & v & _ & _ & _ & E & _).
       destruct (rank_settled i X y g b n) as (g2 & E2 & S2); try assumption. rewrite E in E2. injection E2 as <-. exact S2. }
  unfold fit_gpr_parallel. destruct (restarts_total' it) as (ns & -> & Ln). set (ranks := map _ _).
  destruct (all_ok_total ranks) as (l & -> & Ll).
  { intros p Hp. apply in_map_iff in Hp as ([r n] & <- & _). cbn [fst snd]. unfold fit_rank. destruct (_ || _); [|eexists; reflexivity].
    fold (rank_kw i r n). fold (rank_args i X y r n).
    destruct (rank_settled i X y g r n) as (g2 & -> & _ & (_ & K1) & K2 & _); try assumption. cbn [snd].
    specialize (K2 K1). destruct (g_lml g2); [eexists; reflexivity|congruence]. }
  cbn [bind]. assert (length l = size) as Ls.
  { rewrite Ll. unfold ranks. rewrite map_length, combine_length, seq_length, Nat.min_id. exact Ln. }
  destruct (np_argmax (map snd l)) as [b|] eqn:Eb.
  2: { destruct l; [cbn in Ls; congruence|discriminate]. }
  cbn [bind]. apply argmax_spec in Eb as (v & Hv & _). rewrite nth_error_map in Hv. destruct (nth_error l b) as [p|]; [|discriminate].
  eexists. reflexivity.
Qed.

(** ** A pass in which nothing fails *)
(** The acquisition returns points, the mask of those that pass belongs to them; they have the right dimension, their values are
    ordinary; bounds of hyperparameters are finite; callback, update of the covariance, Monte Carlo run and checkpoint return; every
    criterion gives a verdict, or the error that stands for no verdict. *)
Definition good_pass (i : pass_input pt theta) : Prop :=
  exists Y, p_acq i = Ok Y /\ (Y = [] \/ length (p_keep i) = length Y)
    /\ dim_ok e (mask (p_keep i) Y) = true /\ acceptable c (map (p_truth i) (mask (p_keep i) Y))
    /\ i_bounds_finite (p_fit i) = true /\ p_callback i = Ok tt
    /\ (forall p r, In (p, r) (p_checks i) -> (exists b, r = Ok b) \/ r = Err ConvergenceCheckError)
    /\ p_mean i = Ok tt /\ (exists b, p_mc i = Ok b) /\ p_save i = Ok tt.
Lemma checks_total l : (forall p r, In (p, r) l -> (exists b, r = Ok b) \/ r = Err ConvergenceCheckError) ->
  exists v, check_convergence l = Ok v.
Proof.
  intros H. unfold check_convergence.
  assert (forall a, exists a', check_loop a l = Ok a') as T.
  { induction l as [|[p r] l IH]; intros a; [eexists; reflexivity|]. cbn [check_loop].
    assert (forall p r, In (p, r) l -> (exists b, r = Ok b) \/ r = Err ConvergenceCheckError) as Hl by (intros p' r' Hp; apply (H p' r'); right; exact Hp).
    destruct (H p r (or_introl eq_refl)) as [[b ->]| ->]; cbn; apply IH; exact Hl. }
  destruct (T (mkAcc true 0 false 0)) as [a' ->]. eexists. reflexivity.
Qed.
Lemma pass_returns i s : good_pass i -> settled (r_gpr s) ->
  exists s' b, one_pass e c o size i s = (s', Ok b) /\ settled (r_gpr s').
Proof.
  intros (Y & EY & Hm & Hd & Ha & Hb & Hc & Hk & Hmean & (b & Hmc) & Hs) S. unfold one_pass. rewrite EY. cbn [bind].
  assert (exists X, match Y with [] => Ok [] | _ => masked (p_keep i) Y end = Ok X /\ X = mask (p_keep i) Y) as (X & -> & EX).
  { destruct Y as [|x Y]; [exists []; split; [reflexivity|destruct (p_keep i) as [|[] ?]; reflexivity]|].
    destruct Hm as [Hm|Hm]; [discriminate|]. eexists. split; [|reflexivity]. unfold masked. rewrite Hm, Nat.eqb_refl. reflexivity. }
  rewrite <- EX in Hd, Ha. destruct (length X <? _) eqn:El; [do 2 eexists; split; [reflexivity|exact S]|].
  apply Nat.ltb_ge in El. unfold learn. destruct (eval_truth_parallel_ok size (p_truth i) X Hsize) as (sh & -> & _).
  assert (map (p_truth i) X <> []) as Hne.
  { intros H0. apply map_eq_nil in H0. subst X. rewrite H0 in El. change (@length pt []) with 0 in El. lia. }
  cbn [with_resamples log next_iter r_gpr r_iter].
  destruct (parallel_settled (Datatypes.S (r_iter s)) (p_fit i) X (map (p_truth i) X) (r_gpr s)) as (g' & -> & S'); try assumption.
  { rewrite map_length. reflexivity. }
  rewrite Hc. cbn [bind]. destruct (checks_total _ Hk) as [v ->]. rewrite Hmean.
  destruct v.
  - rewrite Hmc, Hs. do 2 eexists. split; [reflexivity|]. destruct b; exact S'.
  - rewrite Hs. do 2 eexists. split; [reflexivity|]. exact S'.
Qed.
Lemma Hlen : forall p y y', trY e p y = Ok y' -> length y' = length y.
Proof.
  intros p y y' H. destruct W as (_ & _ & _ & W4 & _). destruct (W4 p) as (mu & sg & _ & E & _). rewrite E in H. injection H as <-. apply map_length.
Qed.
Lemma loop_returns : forall fuel inputs final s b, final = Ok b -> (forall k, good_pass (inputs k)) -> settled (r_gpr s) ->
  n_total c (r_gpr s) <= length (g_yall (r_gpr s)) -> r_resamples s <= tries o -> pass_bound c o s < fuel ->
  exists s', loop e c o size fuel inputs final s = (s', Ok tt) /\ settled (r_gpr s').
Proof.
  induction fuel as [|fuel IH]; intros inputs final s b Hf Hg S Hc Hr Hb; [lia|]. cbn [loop].
  destruct (goes_on c o s) eqn:Eg.
  2: { destruct (r_converged s); [eexists; split; [reflexivity|exact S]|]. rewrite Hf. eexists. split; [reflexivity|exact S]. }
  apply goes_on_total in Eg. destruct (pass_returns (inputs 0) s (Hg 0) S) as (s1 & v & E1 & S1). rewrite E1.
  destruct v; [eexists; split; [reflexivity|exact S1]|].
  destruct (pass_decreases e c o size Hlen Hsize _ _ _ Hc Hr Eg E1) as (Hc1 & Hr1 & Hb1).
  apply IH with b; try assumption; [intros k; apply Hg|lia].
Qed.

(** ** The initial training *)
(** The draws have the right dimension, the values are ordinary, bounds of hyperparameters finite. *)
Definition good_init (i : init_input pt theta) : Prop :=
  (forall X, (forall x, In x X -> exists k r j, x = draw_init i k r j) -> dim_ok e X = true)
  /\ (forall k r j, acceptable c [truth_init i (draw_init i k r j)]) /\ f_bounds_finite (fit_init i) = true.
(** Fewer values within the threshold than asked for. *)
Definition few (y : list num) : Prop := exists l, labels_right y (c_diff c) l /\ count_true l < o_n_initial o.
(** There is something to optimise, at least once. *)
Definition trainable : Prop := c_optimizer c = true /\ c_hyper c = true /\ (0 < c_restarts c)%Z.
Lemma drawn_draws (i : init_input pt theta) npp k m x : In x (drawn size i npp k m) -> exists k r j, x = draw_init i k r j.
Proof.
  unfold drawn. intros H. apply in_flat_map in H as (k' & _ & H). unfold init_round in H. apply in_concat in H as (l & Hl & H).
  apply in_map_iff in Hl as (r & <- & _). apply in_map_iff in H as (j & <- & _). eauto.
Qed.
Lemma acceptable_all (f : pt -> num) X : (forall x, In x X -> acceptable c [f x]) -> acceptable c (map f X).
Proof.
  intros H. split.
  - intros v Hv. apply in_map_iff in Hv as (x & <- & Hx). destruct (H x Hx) as [O _]. apply O. left. reflexivity.
  - intros Hc Hv. apply in_map_iff in Hv as (x & Ex & Hx). destruct (H x Hx) as [_ A]. apply (A Hc). left. exact Ex.
Qed.
(** Finite for the initial training: within the threshold, if there is one. *)
Lemma init_finite_within y m v : acceptable c y -> pymax_list y = Ok m -> In v y ->
  (c_classifier c = true -> (init_finite c (nsub m v) = true <-> within y (c_diff c) v))
  /\ (c_classifier c = false -> init_finite c (nsub m v) = true).
Proof.
  intros [O A] Hm Hv. pose proof (ordinary_no_nan _ O) as Hn. apply pymax_list_spec in Hm as (Hin & Hnan & Hmax); [|exact Hn].
  unfold init_finite. split; intros Hc; rewrite Hc.
  - unfold is_finite_raw. cbn [map forallb]. rewrite andb_true_r, andb_true_iff. unfold usable in U.
    destruct (O v Hv) as [->|[q ->]]; [|destruct (O m Hin) as [->|[qm ->]]].
    + split; [|intros [[q H] _]; discriminate]. intros [_ H]. destruct (O m Hin) as [->|[qm ->]]; discriminate.
    + specialize (Hmax _ Hv). discriminate.
    + split.
      * intros [H _]. split; [eauto|]. intros w Hw. specialize (Hmax w Hw). destruct (O w Hw) as [->|[qw ->]].
        -- destruct (c_diff c); try discriminate; reflexivity.
        -- destruct (c_diff c) as [| |d|]; try discriminate; cbn in *; auto. apply qleb_le. apply qleb_le in H, Hmax.
           change (qc_of_Z 0) with 0%Qc in H. qc.
      * intros [_ H]. specialize (H _ Hin). split; [|reflexivity]. destruct (c_diff c) as [| |d|]; try discriminate; cbn in *; auto.
        apply qleb_le. apply qleb_le in H. change (qc_of_Z 0) with 0%Qc. qc.
  - destruct (O v Hv) as [->|[q ->]]; [destruct (A Hc Hv)|]. destruct (O m Hin) as [->|[qm ->]]; [destruct (A Hc Hin)|]. reflexivity.
Qed.
Lemma init_loop_total (i : init_input pt theta) needed npp : (forall k r j, acceptable c [truth_init i (draw_init i k r j)]) -> 1 <= npp -> needed <= size * npp ->
  forall left k X y, (forall x, In x X -> exists k r j, x = draw_init i k r j) -> y = map (truth_init i) X ->
  exists X' b, init_loop c size i needed npp k left X y = (X', Ok (map (truth_init i) X', b))
    /\ (forall x, In x X' -> exists k r j, x = draw_init i k r j)
    /\ (b = true -> X' <> [] /\ exists n, count_init c (map (truth_init i) X') = Ok n /\ needed <= n)
    /\ (b = false -> left = 0 /\ X' = X \/ c_classifier c = true /\ X' <> [] /\ exists n, count_init c (map (truth_init i) X') = Ok n /\ n < needed).
Proof.
  intros Ha Hp Hq. induction left as [|left IH]; intros k X y HX ->; cbn [init_loop].
  { exists X, false. split; [reflexivity|]. split; [exact HX|]. split; [discriminate|]. auto. }
  set (new := init_round size i npp k). rewrite <- map_app.
  assert (forall x, In x (X ++ new) -> exists k r j, x = draw_init i k r j) as HX'.
  { intros x Hx. apply in_app_or in Hx as [Hx|Hx]; [auto|]. apply (drawn_draws i npp k 1). unfold drawn. cbn. rewrite app_nil_r. exact Hx. }
  assert (length new = size * npp) as Ln by apply init_round_length.
  assert (X ++ new <> []) as Hne.
  { intros E. apply app_eq_nil in E as [_ E]. rewrite E in Ln. cbn in Ln. symmetry in Ln. apply Nat.mul_eq_0 in Ln. lia. }
  assert (acceptable c (map (truth_init i) (X ++ new))) as Acc.
  { apply acceptable_all. intros x Hx. destruct (HX' x Hx) as (? & ? & ? & ->). apply Ha. }
  assert (exists n, count_init c (map (truth_init i) (X ++ new)) = Ok n /\ (c_classifier c = false -> needed <= n)) as (n & En & Hn).
  { unfold count_init. destruct (pymax_list_ok (map (truth_init i) (X ++ new))) as [m Em].
    { intros E. apply map_eq_nil in E. contradiction. }
    rewrite Em. cbn [bind]. eexists. split; [reflexivity|]. intros Hc.
    rewrite (filter_every (fun v => init_finite c (nsub m v))).
    - rewrite map_length, app_length. lia.
    - intros v Hv. apply (init_finite_within _ m v Acc Em Hv). exact Hc. }
  rewrite En. destruct (Nat.leb_spec needed n) as [L|L].
  - exists (X ++ new), true. split; [reflexivity|]. split; [exact HX'|]. split; [|discriminate]. intros _. split; [exact Hne|]. eauto.
  - assert (c_classifier c = true) as Hc by (destruct (c_classifier c); [reflexivity|specialize (Hn eq_refl); lia]).
    destruct (IH (Datatypes.S k) (X ++ new) (map (truth_init i) (X ++ new)) HX' eq_refl) as (X' & b & E & H1 & H2 & H3).
    exists X', b. split; [exact E|]. split; [exact H1|]. split; [exact H2|]. intros Hb. right. split; [exact Hc|].
    destruct (H3 Hb) as [[_ ->]|[_ ?]]; [split; [exact Hne|eauto]|assumption].
Qed.
Lemma init_returns i pX pY n : good_init i -> trainable -> 1 <= o_n_initial o -> 1 <= o_max_initial o ->
  exists g' ev r, do_initial_training e c o size verbose i (new_gpr pX pY (MGpr.Scalar n)) = (g', ev, r)
    /\ (r = Ok tt /\ settled g' \/ r = Err RuntimeError /\ ev <> [] /\ c_classifier c = true /\ few (map (truth_init i) ev)).
Proof.
  intros (Hd & Ha & Hb) (T1 & T2 & T3) H1 H2. set (g := new_gpr pX pY (MGpr.Scalar n)).
  unfold do_initial_training. change (length (g_y g)) with 0. rewrite Nat.sub_0_r. cbn [Nat.ltb Nat.leb].
  set (npp := ceil_div (o_n_initial o) size).
  assert (1 <= npp) as Hp by (apply ceil_div_pos; lia).
  assert (o_n_initial o <= size * npp) as Hq by (rewrite Nat.mul_comm; apply ceil_div_mul; exact Hsize).
  destruct (Nat.eqb_spec npp 0) as [E|_]; [lia|].
  destruct (init_loop_total i (o_n_initial o) npp Ha Hp Hq (ceil_div (o_max_initial o) npp) 0 [] []) as (X & b & -> & HX & Ht & Hf).
  { intros x []. }
  { reflexivity. }
  cbn [length skipn].
  assert (acceptable c (map (truth_init i) X)) as Acc.
  { apply acceptable_all. intros x Hx. destruct (HX x Hx) as (? & ? & ? & ->). apply Ha. }
  destruct b.
  2: { do 3 eexists. split; [reflexivity|]. right. split; [reflexivity|].
       assert (1 <= ceil_div (o_max_initial o) npp) as Hl by (apply ceil_div_pos; lia).
       destruct (Hf eq_refl) as [[E _]|(Hc & Hne & k & Hk & Hlt)]; [lia|]. split; [exact Hne|]. split; [exact Hc|].
       unfold count_init in Hk. set (y := map (truth_init i) X) in *. destruct (pymax_list y) as [m|] eqn:Em; [|discriminate]. cbn in Hk. injection Hk as Hk.
       exists (map (fun v => init_finite c (nsub m v)) y). split.
       - split; [apply map_length|]. intros j v w Hv Hw. rewrite nth_error_map, Hw in Hv. injection Hv as <-.
         apply nth_error_In in Hw. apply (init_finite_within y m w Acc Em Hw). exact Hc.
       - rewrite <- Hk in Hlt. assert (forall l, count_true (map (fun v => init_finite c (nsub m v)) l) = length (filter (fun v => init_finite c (nsub m v)) l)) as ->; [|exact Hlt].
         unfold count_true. induction l as [|v l IH]; [reflexivity|]. cbn [map filter]. destruct (init_finite c (nsub m v)); cbn [length]; rewrite IH; reflexivity. }
  destruct (Ht eq_refl) as (Hne & k & Hk & Hle).
  set (a := mkAppend _ _ _ _ _ _).
  assert (consistent c g) as C.
  { split; [reflexivity|]. split; [|exact I]. split; [intros v []|intros _ []]. }
  destruct (C73_returns e c a g W U C) as (g' & E & C' & _ & P).
  { split.
    - cbn [fit_fits a a_fit]. split; [exact Hb|]. right. split; [exact T1|]. split; [exact T2|]. right. exact T3.
    - left. exists X, (map (truth_init i) X). split; [reflexivity|]. split; [reflexivity|]. split; [rewrite map_length; reflexivity|].
      split; [intros E; apply map_eq_nil in E; contradiction|]. split; [exact Acc|]. split; [apply Hd, HX|exact I]. }
  rewrite E. do 3 eexists. split; [reflexivity|]. left. split; [reflexivity|]. split; [exact C'|]. split.
  { destruct P as [P|P]; [intros q []| |exact P]. exfalso.
    unfold count_init in Hk. set (y := map (truth_init i) X) in *. destruct (pymax_list y) as [m|] eqn:Em; [|discriminate]. cbn in Hk. injection Hk as Hk.
    destruct (filter (fun v => init_finite c (nsub m v)) y) as [|v l] eqn:Ef; [cbn in Hk; lia|].
    assert (In v y /\ init_finite c (nsub m v) = true) as [Hv Hi] by (apply (proj1 (filter_In (fun v => init_finite c (nsub m v)) v y)); rewrite Ef; left; reflexivity).
    assert (g_yall g' = y) as Ey by (apply append_sets in E as (? & ? & ? & _ & E & _); exact E).
    assert (exists q, v = Fin q) as [q ->]; [|apply (P q); rewrite Ey; exact Hv].
    destruct (c_classifier c) eqn:Hc.
    - apply (init_finite_within y m v Acc Em Hv) in Hi; [|exact Hc]. apply Hi.
    - destruct Acc as [O A]. destruct (O v Hv) as [->|?]; [destruct (A Hc Hv)|assumption]. }
  split; [eapply append_known; [|exact E]; intros Hk0; destruct (Hk0 eq_refl)|].
  apply append_noise in E as (nv & Ev & Eu). cbn in Ev. injection Ev as <-. cbn in Eu. injection Eu as Eu. eauto.
Qed.

(** C139. A run on a surrogate without points and one noise level for all, in which nothing fails, returns, and leaves a surrogate
    that can be used; the only exception is an initial training that found fewer values within the threshold than asked for (so there
    is none without the classifier). *)
Theorem C139_fresh :
  forall fuel i inputs final s pX pY n b, trainable -> 1 <= o_n_initial o -> 1 <= o_max_initial o ->
    good_init i -> (forall k, good_pass (inputs k)) -> final = Ok b ->
    r_gpr s = new_gpr pX pY (MGpr.Scalar n) -> r_has_run s = false -> r_resamples s = 0 -> max_passes o < fuel ->
    exists s', run e c o size verbose false fuel i (Ok tt) inputs final s = (s', Ok tt) /\ settled (r_gpr s')
      \/ run e c o size verbose false fuel i (Ok tt) inputs final s = (s', Err RuntimeError) /\ c_classifier c = true
         /\ exists ev, r_log s' = r_log s ++ [EvEval ev] /\ few (map (truth_init i) ev).
Proof.
  intros fuel i inputs final s pX pY n b T H1 H2 Hi Hp Hf Hg Hr H0 Hm. unfold run. rewrite Hr, Hg.
  destruct (init_returns i pX pY n Hi T H1 H2) as (g' & ev & r & E & [[-> S]|(-> & Hne & Hc & F)]); rewrite E; cbn [bind].
  - set (s1 := with_converged false _).
    assert (r_gpr s1 = g') as Eg by (destruct ev; reflexivity).
    assert (r_resamples s1 = 0) as E0 by (destruct ev; exact H0).
    assert (n_total c (new_gpr pX pY (MGpr.Scalar n) : gpr) <= length (g_yall (new_gpr pX pY (MGpr.Scalar n) : gpr))) as Hn0.
    { unfold n_total. destruct (c_classifier c); apply Nat.le_refl. }
    destruct (init_total e c o size verbose Hlen i _ g' ev Hsize Hn0 E) as [Ht _].
    destruct (loop_returns fuel inputs final s1 b Hf Hp) as (s2 & E2 & S2).
    + rewrite Eg. exact S.
    + rewrite Eg. apply Ht.
    + rewrite E0. lia.
    + pose proof (bound_le c o s1). lia.
    + rewrite E2. exists (finished s2). left. split; [reflexivity|exact S2].
  - eexists. right. split; [reflexivity|]. split; [exact Hc|]. exists ev. split; [|exact F].
    destruct ev; [congruence|reflexivity].
Qed.
(** Resuming with such a surrogate always returns: there is no initial training. *)
Theorem C139_resumed :
  forall fuel i save0 inputs final s b, (forall k, good_pass (inputs k)) -> final = Ok b -> ready e c size s ->
    settled (r_gpr s) -> r_resamples s = 0 -> max_passes o < fuel ->
    exists s', run e c o size verbose true fuel i save0 inputs final s = (s', Ok tt) /\ settled (r_gpr s').
Proof.
  intros fuel i save0 inputs final s b Hp Hf (_ & _ & pX & pY & n & ops & R) S H0 Hm.
  pose proof (counted_runs e c Hlen ops pX pY n (r_gpr s) R) as [Hc _].
  unfold run. destruct (r_has_run s); [exists s; split; [reflexivity|exact S]|].
  destruct (loop_returns fuel inputs final (with_converged false s) b Hf Hp S Hc) as (s2 & E2 & S2).
  - cbn. rewrite H0. lia.
  - pose proof (bound_le c o (with_converged false s)). lia.
  - rewrite E2. exists (finished s2). split; [reflexivity|exact S2].
Qed.
End C139.
Print Assumptions C139_fresh.
Print Assumptions C139_resumed.

(** The run of C46 in the environment of C73, whose preprocessor moves the values: the hypotheses hold for two processes. Value -inf at
    a proposed point is rejected; one criterion cannot be evaluated. *)
Definition shifted_pass (X : list Z) (conv : bool) : pass_input Z nat :=
  mkPass (Ok X) (map (fun _ => true) X) demo_truth demo_fit (Ok tt) [("n"%string, Ok conv); ("s"%string, Err ConvergenceCheckError); ("s"%string, Ok true)] (Ok tt) (Ok true) (Ok tt).
Definition shifted_inputs (k : nat) : pass_input Z nat :=
  nth k [shifted_pass [5; 6]%Z false; shifted_pass [] false; shifted_pass [9; -1]%Z true] (shifted_pass [] false).
Example C139_case :
  let c := demo_c true 20 in
  trainable c /\ good_init shifted c (demo_init demo_draw) /\ (forall k, good_pass shifted c (shifted_inputs k))
  /\ exists s', run shifted c (demo_opts 2 2 20 2) 2 true false 70 (demo_init demo_draw) (Ok tt) shifted_inputs (Ok true) demo_start = (s', Ok tt)
       /\ settled c (r_gpr s') /\ r_converged s' = true /\ g_yall (r_gpr s') = [nz 0; nz 2; nz 5; nz 6; nz 9; NInf].
Proof.
  assert (forall x, acceptable (demo_c true 20) [demo_truth x]) as A.
  { intros x. split; [|discriminate]. intros v [<-|[]]. unfold demo_truth. destruct (x <? 0)%Z; [left; reflexivity|right; eexists; reflexivity]. }
  assert (forall k, good_pass shifted (demo_c true 20) (shifted_inputs k)) as P.
  { assert (forall X b, good_pass shifted (demo_c true 20) (shifted_pass X b)) as Q.
    { intros X b. exists X. split; [reflexivity|]. split; [right; apply map_length|]. split; [reflexivity|].
      split; [apply acceptable_all; intros x _; apply A|]. split; [reflexivity|]. split; [reflexivity|].
      split; [|split; [reflexivity|]; split; [eexists; reflexivity|reflexivity]].
      intros p r [E|[E|[E|[]]]]; injection E as <- <-; [left; eexists; reflexivity|right; reflexivity|left; eexists; reflexivity]. }
    intros k. unfold shifted_inputs. do 3 (destruct k as [|k]; [apply Q|]). cbn [nth]. destruct k; apply Q. }
  assert (good_init shifted (demo_c true 20) (demo_init demo_draw)) as I.
  { split; [reflexivity|]. split; [|reflexivity]. intros k r j. apply A. }
  assert (trainable (demo_c true 20)) as T by (split; [reflexivity|]; split; reflexivity).
  cbv zeta. split; [exact T|]. split; [exact I|]. split; [exact P|].
  destruct (C139_fresh shifted (demo_c true 20) (demo_opts 2 2 20 2) 2 true shifted_works eq_refl ltac:(discriminate) 70 (demo_init demo_draw)
    shifted_inputs (Ok true) demo_start tt tt (nq 1 100) true T ltac:(cbn; lia) ltac:(cbn; lia) I P eq_refl eq_refl eq_refl eq_refl) as (s' & [[E S]|[E _]]).
  { vm_compute. lia. }
  - exists s'. split; [exact E|]. split; [exact S|]. revert E. vm_compute. intros E. injection E as <-. split; reflexivity.
  - exfalso. revert E. vm_compute. discriminate.
Qed.

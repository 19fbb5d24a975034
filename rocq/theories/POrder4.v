(** Histories of calls with the points in another order: lemmas. *)
From Coq Require Import Permutation Lia.
From Verif Require Import MPredict Argsort POrder3 PTools PGpr PGpr2 SOrder.
Set Default Goal Selector "!".
Set Bullet Behavior "Strict Subproofs".

Lemma combine_fst {A B} (l : list A) (m : list B) : length l = length m -> map fst (combine l m) = l.
Proof. revert m. induction l as [|x l IH]; intros [|y m] H; try discriminate; auto. cbn. f_equal. auto. Qed.
Lemma combine_snd {A B} (l : list A) (m : list B) : length l = length m -> map snd (combine l m) = m.
Proof. revert m. induction l as [|x l IH]; intros [|y m] H; try discriminate; auto. cbn. f_equal. auto. Qed.
Lemma combine_map2 {A B C D} (f : A -> C) (g : B -> D) l m : combine (map f l) (map g m) = map (fun p => (f (fst p), g (snd p))) (combine l m).
Proof. revert m. induction l as [|x l IH]; intros [|y m]; auto. cbn. f_equal. auto. Qed.
Lemma combine_self {A B C} (f : A -> B) (g : A -> C) l : combine (map f l) (map g l) = map (fun x => (f x, g x)) l.
Proof. induction l as [|x l IH]; auto. cbn. f_equal. auto. Qed.
Lemma pairs_self {A B} (D : list (A * B)) : combine (map fst D) (map snd D) = D.
Proof. induction D as [|[a b] D IH]; auto. cbn. f_equal. auto. Qed.
Lemma same_points_iff {pt V} (X : list pt) (y : list V) X' y' : same_points X y X' y' <->
  exists D D', Permutation D D' /\ X = map fst D /\ y = map snd D /\ X' = map fst D' /\ y' = map snd D'.
Proof.
  split.
  - intros (H1 & H2 & HP). exists (combine X y), (combine X' y'). rewrite !combine_fst, !combine_snd by auto. auto.
  - intros (D & D' & HP & -> & -> & -> & ->). unfold same_points. rewrite !map_length, !pairs_self. auto.
Qed.
Lemma same_points_y {pt V} (X : list pt) (y : list V) X' y' : same_points X y X' y' -> Permutation y y'.
Proof. intros H. apply same_points_iff in H as (D & D' & HP & -> & -> & -> & ->). apply Permutation_map. auto. Qed.
Lemma same_points_X {pt V} (X : list pt) (y : list V) X' y' : same_points X y X' y' -> Permutation X X'.
Proof. intros H. apply same_points_iff in H as (D & D' & HP & -> & -> & -> & ->). apply Permutation_map. auto. Qed.
Lemma same_points_app {pt V} (X : list pt) (y : list V) X' y' U v U' v' : same_points X y X' y' -> same_points U v U' v' ->
  same_points (X ++ U) (y ++ v) (X' ++ U') (y' ++ v').
Proof.
  intros H K. apply same_points_iff in H as (D & D' & HP & -> & -> & -> & ->). apply same_points_iff in K as (E & E' & KP & -> & -> & -> & ->).
  apply same_points_iff. exists (D ++ E), (D' ++ E'). rewrite !map_app. split; auto. apply Permutation_app; auto.
Qed.
Lemma same_points_sym {pt V} (X : list pt) (y : list V) X' y' : same_points X y X' y' -> same_points X' y' X y.
Proof. intros (H1 & H2 & HP). repeat split; auto. symmetry. auto. Qed.
Lemma mask_pairs {A} (t : num -> bool) (D : list (A * num)) : mask (map t (map snd D)) (map fst D) = map fst (filter (fun d => t (snd d)) D).
Proof. apply mask_filter. Qed.
Lemma mask_self (t : num -> bool) {A} (D : list (A * num)) : mask (map t (map snd D)) (map snd D) = map snd (filter (fun d => t (snd d)) D).
Proof. induction D as [|[x v] D IH]; auto. cbn. destruct (t v); cbn; rewrite IH; reflexivity. Qed.
Lemma Forall2_mapM {A B} (f : A -> res B) l k : Forall2 (fun x y => f x = Ok y) l k -> mapM f l = Ok k.
Proof. induction 1 as [|x y l k H H2 IH]; auto. cbn. rewrite H. cbn. rewrite IH. reflexivity. Qed.
Lemma mapM_length {A B} (f : A -> res B) l k : mapM f l = Ok k -> length k = length l.
Proof. intros H. apply mapM_Forall2 in H. induction H; cbn; auto. Qed.

(** Two maps over the two columns, at once. *)
Lemma mapM_rows {A B C D} (f : A -> res C) (h : B -> res D) (E : list (A * B)) u v :
  mapM f (map fst E) = Ok u -> mapM h (map snd E) = Ok v ->
  length u = length v /\ Forall2 (fun d q => f (fst d) = Ok (fst q) /\ h (snd d) = Ok (snd q)) E (combine u v).
Proof.
  revert u v. induction E as [|[a b] E IH]; intros u v; cbn.
  - intros E1 E2. injection E1 as <-. injection E2 as <-. cbn. split; [auto|constructor].
  - destruct (f a) as [c|] eqn:Ea; cbn; [|discriminate]. destruct (mapM f (map fst E)) as [u0|]; cbn; [|discriminate].
    destruct (h b) as [d|] eqn:Eb; cbn; [|discriminate]. destruct (mapM h (map snd E)) as [v0|]; cbn; [|discriminate].
    intros E1 E2. injection E1 as <-. injection E2 as <-. destruct (IH u0 v0 eq_refl eq_refl) as [H1 H2]. cbn. split; [lia|]. constructor; auto.
Qed.
Lemma rows_mapM {A B C D} (f : A -> res C) (h : B -> res D) (E : list (A * B)) Q :
  Forall2 (fun d q => f (fst d) = Ok (fst q) /\ h (snd d) = Ok (snd q)) E Q ->
  mapM f (map fst E) = Ok (map fst Q) /\ mapM h (map snd E) = Ok (map snd Q).
Proof. induction 1 as [|d q E Q [H1 H2] H IH]; auto. destruct IH as [I1 I2]. cbn. rewrite H1, H2. cbn. rewrite I1, I2. auto. Qed.
Lemma columns_perm {A B C D} (f : A -> res C) (h : B -> res D) (E E' : list (A * B)) u v : Permutation E E' ->
  mapM f (map fst E) = Ok u -> mapM h (map snd E) = Ok v ->
  exists Q Q', Permutation Q Q' /\ u = map fst Q /\ v = map snd Q /\ mapM f (map fst E') = Ok (map fst Q') /\ mapM h (map snd E') = Ok (map snd Q')
  /\ Forall2 (fun d q => f (fst d) = Ok (fst q) /\ h (snd d) = Ok (snd q)) E Q
  /\ Forall2 (fun d q => f (fst d) = Ok (fst q) /\ h (snd d) = Ok (snd q)) E' Q'.
Proof.
  intros HP Hu Hv. destruct (mapM_rows f h E u v Hu Hv) as [Hl HF]. destruct (Permutation_Forall2 HP HF) as (Q' & HP' & HF').
  exists (combine u v), Q'. rewrite combine_fst, combine_snd by auto. destruct (rows_mapM f h E' Q' HF') as [I1 I2]. auto 10.
Qed.
Lemma mapM_repeat {A B} (f : A -> res B) a n r : mapM f (repeat a n) = Ok r -> (n = 0 /\ r = []) \/ exists b, f a = Ok b /\ r = repeat b n.
Proof.
  revert r. induction n as [|n IH]; intros r; cbn.
  - intros E. injection E as <-. auto.
  - destruct (f a) as [b|] eqn:Eb; cbn; [|discriminate]. destruct (mapM f (repeat a n)) as [r0|]; cbn; [|discriminate].
    intros E. injection E as <-. right. exists b. split; auto. destruct (IH r0 eq_refl) as [[-> ->]|(b' & Hb & ->)]; [auto|]. cbn. congruence.
Qed.
Lemma mask_repeat {A} (b : A) l : mask l (repeat b (length l)) = repeat b (count_true l).
Proof. induction l as [|[] l IH]; cbn; auto. rewrite IH. unfold count_true. cbn. reflexivity. Qed.
Lemma count_true_perm l l' : Permutation l l' -> count_true l = count_true l'.
Proof. intros HP. unfold count_true. apply Permutation_length. apply POrder3.filter_perm. exact HP. Qed.
Lemma count_filter {A} (t : A -> bool) l : count_true (map t l) = length (filter t l).
Proof. unfold count_true. induction l as [|a l IH]; auto. cbn. destruct (t a); cbn; rewrite IH; auto. Qed.

Section Order.
Context {pt pt_ PX PY model theta box : Type}.
Variable okY : PY -> Prop.
Variable e : env pt pt_ PX PY model theta box.
Hypothesis OL : orderless okY e.
Local Notation gpr := (gpr pt pt_ PX PY model theta box).
Local Notation reordered := (@reordered pt pt_ PX PY model theta box).

Definition usable (g : gpr) : Prop := (exists v, g_noise g = Scalar v) /\ okY (g_pY g) /\ existsb isnan (g_yall g) = false /\ existsb isnan (g_y g) = false.

(** What the fit reads and writes. *)
Lemma set_kernel_re k g g' : reordered g g' -> reordered (set_kernel k g) (set_kernel k g').
Proof. intros []. constructor; cbn; auto. Qed.
Lemma set_lml_re k g g' : reordered g g' -> reordered (set_lml k g) (set_lml k g').
Proof. intros []. constructor; cbn; auto. Qed.
Lemma set_fitted_re k g g' : reordered g g' -> reordered (set_fitted k g) (set_fitted k g').
Proof. intros []. constructor; cbn; auto. Qed.
Lemma set_trust_re k g g' : reordered g g' -> reordered (set_trust k g) (set_trust k g').
Proof. intros []. constructor; cbn; auto. Qed.

Definition sim {A} (m m' : meth pt pt_ PX PY model theta box A) : Prop :=
  forall g g' g1 a, reordered g g' -> m g = (g1, Ok a) -> exists g1', m' g' = (g1', Ok a) /\ reordered g1 g1'.
Lemma sim_seq {A B} (m m' : meth pt pt_ PX PY model theta box A) (k k' : A -> meth pt pt_ PX PY model theta box B) :
  sim m m' -> (forall a, sim (k a) (k' a)) -> sim (seq_ m k) (seq_ m' k').
Proof.
  intros H K g g' g1 b HR E. apply seq_ok in E as (a & g2 & E1 & E2). destruct (H g g' g2 a HR E1) as (g2' & F1 & R2).
  destruct (K a g2 g2' g1 b R2 E2) as (g1' & F2 & R1). exists g1'. split; auto. unfold seq_. rewrite F1. exact F2.
Qed.
Lemma sim_ret {A} (a : A) : sim (ret a) (ret a).
Proof. intros g g' g1 b HR E. apply ret_ok in E as [-> ->]. exists g'. auto. Qed.
Lemma sim_raise {A} x : sim (raise x) (raise x : meth pt pt_ PX PY model theta box A).
Proof. intros g g' g1 b HR E. apply raise_ok in E. contradiction. Qed.
Lemma sim_lift {A} (r : res A) : sim (lift r) (lift r).
Proof. intros g g' g1 b HR E. apply lift_ok in E as [-> ->]. exists g'. auto. Qed.
Lemma sim_modify f : (forall g g', reordered g g' -> reordered (f g) (f g')) -> sim (modify f) (modify f).
Proof. intros H g g' g1 b HR E. assert (b = tt) as -> by (destruct b; auto). apply modify_ok in E as ->. exists (f g'). split; auto. Qed.
Lemma sim_if {A} (b : bool) (m m' n n' : meth pt pt_ PX PY model theta box A) : sim m m' -> sim n n' -> sim (if b then m else n) (if b then m' else n').
Proof. destruct b; auto. Qed.
(** Reading the object: what is read is the same. *)
Lemma sim_get {A} (k k' : gpr -> meth pt pt_ PX PY model theta box A) :
  (forall g g', reordered g g' -> sim (fun h => k g h) (fun h => k' g' h)) -> sim (seq_ get k) (seq_ get k').
Proof.
  intros H g g' g1 b HR E. apply seq_ok in E as (a & g2 & E1 & E2). apply get_ok in E1 as [-> ->].
  destruct (H g g' HR g g' g1 b HR E2) as (g1' & F & R1). exists g1'. auto.
Qed.
Lemma the_data_re g g' d : reordered g g' -> the_data g = Ok d -> exists d', the_data g' = Ok d' /\ same_problem d d'.
Proof. intros HR E. pose proof (re_data _ _ HR) as H. rewrite E in H. destruct (the_data g') as [d'|]; [eauto|contradiction]. Qed.
Lemma sim_data {A} g g' (k k' : data pt_ -> meth pt pt_ PX PY model theta box A) : reordered g g' ->
  (forall d d', same_problem d d' -> sim (k d) (k' d')) -> sim (seq_ (lift (the_data g)) k) (seq_ (lift (the_data g')) k').
Proof.
  intros HR H h h' h1 b Hh E. apply seq_ok in E as (d & h2 & E1 & E2). apply lift_ok in E1 as [-> E1].
  destruct (the_data_re g g' d HR E1) as (d' & E1' & HS). destruct (H d d' HS h h' h1 b Hh E2) as (h1' & F & R1).
  exists h1'. split; auto. unfold seq_, lift. rewrite E1'. exact F.
Qed.
Lemma update_sim : sim (update_model e) (update_model e).
Proof.
  unfold update_model. apply sim_get. intros g g' HR. destruct (re_counts _ _ HR) as (_ & _ & ->).
  destruct (g_newinv g <? 1)%nat; [apply sim_ret|]. rewrite (re_kernel _ _ HR). destruct (g_kernel g) as [th|]; [|apply sim_raise].
  apply (sim_data g g' _ _ HR). intros d d' HS. rewrite <- (or_chol _ _ OL th d d' HS). destruct (cholesky e th d); [|apply sim_raise].
  intros h h' h1 b Hh E. assert (b = tt) as -> by (destruct b; auto). apply modify_ok in E as ->. eexists. split; [reflexivity|].
  destruct Hh. constructor; cbn; auto.
  destruct re_counts as (? & ? & ?). auto.
Qed.
Lemma restarts_sim d d' draw start : same_problem d d' -> forall n i, sim (restarts e d draw start i n) (restarts e d' draw start i n).
Proof.
  intros HS. induction n as [|n IH]; intros i; cbn [restarts]; [apply sim_ret|].
  apply sim_get. intros g g' HR. rewrite (re_kernel _ _ HR). apply sim_seq.
  - destruct ((i =? 0)%nat && start); [destruct (g_kernel g); [apply sim_ret|apply sim_raise]|apply sim_ret].
  - intros th0. rewrite <- (or_opt _ _ OL th0 d d' HS). destruct (optimize e d th0) as [th r]. apply sim_seq; [apply sim_modify, set_kernel_re|].
    intros _. apply sim_seq; [apply sim_lift|]. intros v. apply sim_seq; [apply IH|]. intros rest. apply sim_ret.
Qed.
Lemma fit_sim c kw : sim (fit_gpr_hyperparameters e c kw) (fit_gpr_hyperparameters e c kw).
Proof.
  unfold fit_gpr_hyperparameters. apply sim_get. intros g g' HR. rewrite (re_kernel _ _ HR), (re_fitted _ _ HR).
  match goal with |- sim (fun h => (if ?b then _ else _) h) _ => destruct b end.
  - destruct (g_kernel g) as [th|]; [|apply sim_raise]. apply (sim_data g g' _ _ HR). intros d d' HS.
    rewrite <- (or_lml _ _ OL th d d' HS). apply sim_seq; [apply sim_modify, set_lml_re|]. intros _. apply update_sim.
  - apply sim_seq.
    + apply sim_modify. intros h h' Hh. rewrite (re_kernel _ _ Hh). apply set_kernel_re. exact Hh.
    + intros _. match goal with |- sim (if ?b then _ else _) _ => destruct b end; [apply sim_raise|].
      apply (sim_data g g' _ _ HR). intros d d' HS. apply sim_seq; [apply restarts_sim; exact HS|]. intros optima.
      apply sim_seq; [apply sim_lift|]. intros best. destruct (nth_error optima best) as [[th v]|]; [|apply sim_raise].
      apply sim_seq; [apply sim_modify, set_lml_re|]. intros _. apply sim_seq; [apply sim_modify, set_kernel_re|]. intros _.
      apply sim_seq; [apply update_sim|]. intros _. apply sim_modify, set_fitted_re.
Qed.
End Order.

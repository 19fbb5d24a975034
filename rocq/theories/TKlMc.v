(** C145: the Monte Carlo estimate of the Kullback-Leibler divergence. *)
From Coq Require Import Reals Lra Lia Permutation Setoid.
From Verif Require Import Num MKlMc.
From Coq Require Import Lra.
Set Default Goal Selector "!".
Set Bullet Behavior "Strict Subproofs".
Open Scope R_scope.

(** A sample: point, log-density there, weight. *)
Definition sample (A : Type) : Type := A * ereal * R.
Definition point_of {A} (s : sample A) : A := fst (fst s).
Definition logp_of {A} (s : sample A) : ereal := snd (fst s).
Definition weight_of {A} (s : sample A) : R := snd s.
(** The call with the three arrays of a list of samples. *)
Definition estimate {A} (logq : A -> ereal) (S : list (sample A)) : res ereal :=
  kl_mc (map point_of S) logq (Some (map logp_of S)) None (Some (map weight_of S)).
Definition has_logp {A} (s : sample A) : bool := efinite (logp_of s).
Definition term {A} (logq : A -> ereal) (s : sample A) : ereal := escale (weight_of s) (eadd (logp_of s) (eneg (logq (point_of s)))).

Lemma masked_map {A B} (f : sample A -> B) S : masked (map efinite (map logp_of S)) (map f S) = Ok (map f (filter has_logp S)).
Proof.
  induction S as [|s S IH]; [reflexivity|]. cbn [map masked filter]. rewrite IH. cbn [bind]. unfold has_logp. destruct (efinite (logp_of s)); reflexivity.
Qed.
Lemma combine_map {A B C} (f : A -> B) (g : A -> C) l : combine (map f l) (map g l) = map (fun a => (f a, g a)) l.
Proof. induction l as [|a l IH]; [reflexivity|]. cbn. rewrite IH. reflexivity. Qed.
Lemma estimate_is {A} (logq : A -> ereal) S :
  estimate logq S = Ok (ediv (esum (map (term logq) (filter has_logp S))) (rsum (map weight_of (filter has_logp S)))).
Proof.
  unfold estimate, kl_mc. cbn [bind]. rewrite 3 masked_map. cbn [bind]. do 2 f_equal. rewrite map_map, combine_map, map_map, combine_map, map_map. reflexivity.
Qed.

(** *** Sums *)
Lemma eadd_comm a b : eadd a b = eadd b a.
Proof. destruct a, b; cbn; try reflexivity. f_equal. ring. Qed.
Lemma eadd_assoc a b c : eadd a (eadd b c) = eadd (eadd a b) c.
Proof. destruct a, b, c; cbn; try reflexivity. f_equal. ring. Qed.
Lemma eadd_0_l a : eadd (Fin 0) a = a.
Proof. destruct a; cbn; try reflexivity. f_equal. ring. Qed.
Lemma esum_app l m : esum (l ++ m) = eadd (esum l) (esum m).
Proof. induction l as [|a l IH]; [symmetry; apply eadd_0_l|]. cbn [esum fold_right app] in *. fold (esum (l ++ m)). rewrite IH. apply eadd_assoc. Qed.
Lemma esum_perm l m : Permutation l m -> esum l = esum m.
Proof.
  induction 1 as [|a l m _ IH|a b l|l m n _ IH1 _ IH2]; [reflexivity| | |congruence].
  - cbn. fold (esum l) (esum m). rewrite IH. reflexivity.
  - cbn. fold (esum l). rewrite 2 eadd_assoc, (eadd_comm a b). reflexivity.
Qed.
Lemma rsum_perm l m : Permutation l m -> rsum l = rsum m.
Proof. induction 1 as [|a l m _ IH|a b l|l m n _ IH1 _ IH2]; unfold rsum in *; cbn in *; lra. Qed.
Lemma rsum_app l m : rsum (l ++ m) = rsum l + rsum m.
Proof. induction l as [|a l IH]; unfold rsum in *; cbn in *; lra. Qed.
Lemma esum_fin {A} (f : A -> ereal) (g : A -> R) l : (forall a, In a l -> f a = Fin (g a)) -> esum (map f l) = Fin (rsum (map g l)).
Proof.
  induction l as [|a l IH]; intros H; [reflexivity|]. cbn. fold (esum (map f l)) (rsum (map g l)). rewrite IH by (intros b Hb; apply H; right; exact Hb). rewrite H by (left; reflexivity). reflexivity.
Qed.
Lemma esign_pos r : 0 < r -> esign r = Gt.
Proof. intros H. unfold esign. destruct (Rlt_dec 0 r); [reflexivity|contradiction]. Qed.
Lemma esign_0 : esign 0 = Eq.
Proof. unfold esign. destruct (Rlt_dec 0 0); [lra|reflexivity]. Qed.
Lemma esign_scale k r : 0 < k -> esign (k * r) = esign r.
Proof.
  intros K. unfold esign. destruct (Rlt_dec 0 r) as [P|P].
  - destruct (Rlt_dec 0 (k * r)) as [Q|Q]; [reflexivity|]. exfalso. apply Q, Rmult_lt_0_compat; assumption.
  - destruct (Rlt_dec 0 (k * r)) as [Q|Q]. { exfalso. apply P. apply Rmult_lt_reg_l with k; [exact K|]. lra. }
    destruct (Rlt_dec r 0) as [N|N].
    + destruct (Rlt_dec (k * r) 0) as [M|M]; [reflexivity|]. exfalso. apply M. replace 0 with (k * 0) by ring. apply Rmult_lt_compat_l; assumption.
    + destruct (Rlt_dec (k * r) 0) as [M|M]; [|reflexivity]. exfalso. apply N. apply Rmult_lt_reg_l with k; [exact K|]. lra.
Qed.
Lemma ediv_fin a t : t <> 0 -> ediv (Fin a) t = Fin (a / t).
Proof.
  intros T. unfold ediv, esign. destruct (Rlt_dec 0 t); [reflexivity|]. destruct (Rlt_dec t 0); [reflexivity|]. exfalso. apply T. lra.
Qed.

(** *** What is computed *)
(** Without weights all samples count the same; a function instead of the values is evaluated at the points; one of the two is needed. *)
Lemma masked_ones (mask : list bool) {B} (l : list B) m : masked mask l = Ok m -> masked mask (map (fun _ => 1) mask) = Ok (repeat 1 (length m)).
Proof.
  revert l m. induction mask as [|b mask IH]; intros [|x l] m; cbn; try discriminate; [intros H; injection H as <-; reflexivity|].
  destruct (masked mask l) as [r|e] eqn:E; cbn; [|discriminate]. intros H. injection H as <-. rewrite (IH l r E). cbn. destruct b; reflexivity.
Qed.
Lemma rsum_ones n : rsum (repeat 1 n) = INR n.
Proof. induction n as [|n IH]; [reflexivity|]. rewrite S_INR. unfold rsum in *. cbn [repeat fold_right] in *. lra. Qed.
Lemma masked_self (l : list ereal) : exists m, masked (map efinite l) l = Ok m.
Proof. induction l as [|a l [m IH]]; [exists []; reflexivity|]. cbn. rewrite IH. cbn. eexists. reflexivity. Qed.
Theorem C145_defaults {A} (X : list A) logq lp (f : option (A -> ereal)) (g : A -> ereal) w :
  kl_mc X logq (Some lp) f None = kl_mc X logq (Some lp) f (Some (map (fun _ => 1) lp)) /\
  kl_mc X logq None (Some g) w = kl_mc X logq (Some (map g X)) f w /\
  kl_mc X logq None None w = Err ValueError.
Proof.
  split; [|split; reflexivity]. unfold kl_mc. cbn [bind]. destruct (masked_self lp) as [m M]. rewrite M. cbn [bind]. 
  replace (map (fun _ : ereal => 1) lp) with (map (fun _ : bool => 1) (map efinite lp)) by (rewrite map_map; reflexivity). rewrite (masked_ones _ _ _ M). cbn [bind]. rewrite rsum_ones. reflexivity.
Qed.
(** The weighted mean of the differences. *)
Theorem C145_mean {A} (logq : A -> ereal) (S : list (sample A)) (lp lq : A -> R) :
  (forall s, In s S -> logp_of s = Fin (lp (point_of s)) /\ logq (point_of s) = Fin (lq (point_of s))) -> rsum (map weight_of S) <> 0 ->
  estimate logq S = Ok (Fin (rsum (map (fun s => weight_of s * (lp (point_of s) - lq (point_of s))) S) / rsum (map weight_of S))).
Proof.
  intros H W. rewrite estimate_is. assert (filter has_logp S = S) as E.
  { clear W. induction S as [|s S IH]; [reflexivity|]. cbn. unfold has_logp at 1. rewrite (proj1 (H s (or_introl eq_refl))). cbn. f_equal. apply IH. intros t T. apply H. right. exact T. }
  rewrite E. rewrite (esum_fin _ (fun s => weight_of s * (lp (point_of s) - lq (point_of s)))).
  - rewrite ediv_fin by exact W. reflexivity.
  - intros s Hs. destruct (H s Hs) as [P Q]. unfold term. rewrite P, Q. cbn. f_equal.
Qed.
(** If the samples stand for a distribution (all its points, weights in proportion to the probabilities) and the logs are those of it and of another one, not
    more than normalised, up to a common constant: the divergence; not negative, and 0 just for equal distributions. *)
Definition divergence {A} (p q : A -> R) (l : list A) : R := rsum (map (fun x => p x * ln (p x / q x)) l).
Lemma ln_le x : 0 < x -> ln x <= x - 1.
Proof. intros H. pose proof (exp_ineq1_le (ln x)) as K. rewrite exp_ln in K by exact H. lra. Qed.
Lemma ln_lt x : 0 < x -> x <> 1 -> ln x < x - 1.
Proof.
  intros H N. assert (ln x <> 0) as L. { intros E. apply N. rewrite <- (exp_ln x H), E. apply exp_0. }
  pose proof (exp_ineq1 (ln x) L) as K. rewrite exp_ln in K by exact H. lra.
Qed.
Lemma gibbs_term p q : 0 < p -> 0 < q -> p - q <= p * ln (p / q) /\ (p * ln (p / q) = p - q -> p = q).
Proof.
  intros P Q. assert (0 < q / p) as D by (apply Rdiv_lt_0_compat; assumption).
  assert (p * ln (p / q) = - (p * ln (q / p))) as E. { replace (p / q) with (/ (q / p)) by (field; lra). rewrite ln_Rinv by exact D. ring. }
  assert (p * (q / p - 1) = q - p) as F by (field; lra). rewrite E. split.
  - assert (p * ln (q / p) <= p * (q / p - 1)) by (apply Rmult_le_compat_l; [lra|apply ln_le, D]). lra.
  - intros G. destruct (Req_dec (q / p) 1) as [R|R]. { apply Rmult_eq_compat_r with (r := p) in R. replace (q / p * p) with q in R by (field; lra). lra. }
    assert (p * ln (q / p) < p * (q / p - 1)) by (apply Rmult_lt_compat_l; [exact P|apply ln_lt; assumption]). lra.
Qed.
Lemma gibbs {A} (p q : A -> R) l : (forall x, In x l -> 0 < p x /\ 0 < q x) ->
  rsum (map p l) - rsum (map q l) <= divergence p q l /\ (divergence p q l = rsum (map p l) - rsum (map q l) -> forall x, In x l -> p x = q x).
Proof.
  unfold divergence. induction l as [|a l IH]; intros H; [cbn; split; [lra|intros _ x []]|].
  destruct IH as [I1 I2]; [intros x X; apply H; right; exact X|]. destruct (H a (or_introl eq_refl)) as [P Q]. destruct (gibbs_term (p a) (q a) P Q) as [G1 G2].
  cbn [map rsum fold_right] in *. fold (rsum (map p l)) (rsum (map q l)) (rsum (map (fun x => p x * ln (p x / q x)) l)) in *. split; [lra|].
  intros E x [<-|X]; [apply G2; lra|apply I2; [lra|exact X]].
Qed.
Lemma rsum_scale {A} (f : A -> R) k l : rsum (map (fun x => k * f x) l) = k * rsum (map f l).
Proof. unfold rsum. induction l as [|a l IH]; cbn in *; [ring|]. rewrite IH. ring. Qed.
Lemma rsum_ext {A} (f g : A -> R) l : (forall x, In x l -> f x = g x) -> rsum (map f l) = rsum (map g l).
Proof. induction l as [|a l IH]; intros H; [reflexivity|]. unfold rsum in *. cbn in *. rewrite IH by (intros x X; apply H; right; exact X). rewrite H by (left; reflexivity). reflexivity. Qed.
Theorem C145_divergence {A} (l : list A) (p q : A -> R) (logq : A -> ereal) (c k : R) :
  (forall x, In x l -> 0 < p x /\ 0 < q x /\ logq x = Fin (ln (q x) + c)) -> rsum (map p l) = 1 -> rsum (map q l) <= 1 -> 0 < k ->
  exists D, estimate logq (map (fun x => (x, Fin (ln (p x) + c), k * p x)) l) = Ok (Fin D) /\ D = divergence p q l /\
    0 <= D /\ (D = 0 -> forall x, In x l -> p x = q x) /\ ((forall x, In x l -> p x = q x) -> D = 0).
Proof.
  intros H P Q K. exists (divergence p q l). 
  assert (rsum (map weight_of (map (fun x => (x, Fin (ln (p x) + c), k * p x)) l)) = k) as W. { rewrite map_map. cbn. rewrite rsum_scale, P. ring. }
  split; [|split; [reflexivity|]].
  - rewrite (C145_mean logq _ (fun x => ln (p x) + c) (fun x => ln (q x) + c)); [|intros s Hs; apply in_map_iff in Hs as [x [<- X]]; split; [reflexivity|apply H, X]|lra].
    rewrite W. do 2 f_equal. rewrite map_map. unfold weight_of, point_of. cbn [fst snd].
    rewrite (rsum_ext _ (fun x => k * (p x * ln (p x / q x)))).
    + rewrite rsum_scale. unfold divergence. field. lra.
    + intros x X. destruct (H x X) as (Px & Qx & _). unfold Rdiv. rewrite ln_mult by (try apply Rinv_0_lt_compat; assumption). rewrite ln_Rinv by exact Qx. ring.
  - destruct (gibbs p q l) as [G1 G2]; [intros x X; split; apply (H x X)|]. split; [lra|]. split.
    + intros E. apply G2. lra.
    + intros E. unfold divergence. rewrite (rsum_ext _ (fun _ => 0 * 0)); [rewrite (rsum_scale (fun _ : A => 0)); ring|]. intros x X. destruct (H x X) as (Px & Qx & _). rewrite (E x X).
      replace (q x / q x) with 1 by (field; lra). rewrite ln_1. ring.
Qed.

(** *** What makes no difference *)
(** The order of the samples. *)
Lemma filter_perm {A} (f : A -> bool) l m : Permutation l m -> Permutation (filter f l) (filter f m).
Proof.
  induction 1 as [|a l m _ IH|a b l|l m n _ IH1 _ IH2]; cbn; [constructor| | |etransitivity; eassumption].
  - destruct (f a); [constructor|]; exact IH.
  - destruct (f a), (f b); try apply Permutation_refl. apply perm_swap.
Qed.
Theorem C145_order {A} (logq : A -> ereal) S S' : Permutation S S' -> estimate logq S = estimate logq S'.
Proof.
  intros H. rewrite 2 estimate_is. apply (filter_perm has_logp) in H. rewrite (esum_perm _ _ (Permutation_map (term logq) H)), (rsum_perm _ _ (Permutation_map weight_of H)). reflexivity.
Qed.
(** Samples whose log-density is not finite. *)
Lemma filter_filter {A} (f : A -> bool) l : filter f (filter f l) = filter f l.
Proof. induction l as [|a l IH]; [reflexivity|]. cbn. destruct (f a) eqn:E; [cbn; rewrite E, IH; reflexivity|exact IH]. Qed.
Theorem C145_dropped {A} (logq : A -> ereal) S : estimate logq S = estimate logq (filter has_logp S).
Proof. rewrite 2 estimate_is, filter_filter. reflexivity. Qed.
(** The normalisation of the two densities, if it is the same. *)
Theorem C145_constant {A} (logq : A -> ereal) c S :
  estimate (fun x => eadd (logq x) (Fin c)) (map (fun s => (point_of s, eadd (logp_of s) (Fin c), weight_of s)) S) = estimate logq S.
Proof.
  rewrite 2 estimate_is.
  assert (filter has_logp (map (fun s => (point_of s, eadd (logp_of s) (Fin c), weight_of s)) S) = map (fun s => (point_of s, eadd (logp_of s) (Fin c), weight_of s)) (filter has_logp S)) as E.
  { induction S as [|s S IH]; [reflexivity|]. cbn [map filter]. rewrite IH. replace (has_logp (point_of s, eadd (logp_of s) (Fin c), weight_of s)) with (has_logp s); [destruct (has_logp s); reflexivity|].
    unfold has_logp, logp_of. cbn. destruct (snd (fst s)); reflexivity. }
  rewrite E, 2 map_map. do 2 f_equal. f_equal. apply map_ext. intros [[x lp] w]. unfold term, weight_of, logp_of, point_of. cbn [fst snd]. f_equal. destruct lp, (logq x); cbn; try reflexivity. f_equal. ring.
Qed.
(** A common factor of the weights. *)
Lemma escale_mult k w e : 0 < k -> escale (k * w) e = escale k (escale w e).
Proof.
  intros K. pose proof (esign_scale k w K) as E. pose proof (esign_pos k K) as S. destruct e; cbn; rewrite ?E; [f_equal; ring| | |reflexivity]; destruct (esign w); cbn; rewrite ?S; reflexivity.
Qed.
Lemma escale_add k a b : 0 < k -> escale k (eadd a b) = eadd (escale k a) (escale k b).
Proof. intros K. pose proof (esign_pos k K) as S. destruct a, b; cbn; rewrite ?S; cbn; try reflexivity. f_equal. ring. Qed.
Lemma esum_scale {A} (f : A -> ereal) k l : 0 < k -> esum (map (fun a => escale k (f a)) l) = escale k (esum (map f l)).
Proof. intros K. induction l as [|a l IH]; [cbn; f_equal; ring|]. cbn [map esum fold_right]. fold (esum (map (fun a => escale k (f a)) l)) (esum (map f l)). rewrite IH, escale_add by exact K. reflexivity. Qed.
Lemma ediv_scale k e t : 0 < k -> ediv (escale k e) (k * t) = ediv e t.
Proof.
  intros K. pose proof (esign_pos k K) as S. pose proof (esign_scale k t K) as E. destruct e as [r| | |]; unfold ediv, escale; rewrite ?S, E; [|reflexivity..].
  rewrite (esign_scale k r K). unfold esign at 1 3. destruct (Rlt_dec 0 t) as [P|P]; [f_equal; field; lra|]. destruct (Rlt_dec t 0) as [N|N]; [f_equal; field; lra|]. reflexivity.
Qed.
Definition reweigh {A} (k : R) (s : sample A) : sample A := (fst s, k * weight_of s).
Theorem C145_weights {A} (logq : A -> ereal) k S : 0 < k -> estimate logq (map (reweigh k) S) = estimate logq S.
Proof.
  intros K. rewrite 2 estimate_is.
  assert (filter has_logp (map (reweigh k) S) = map (reweigh k) (filter has_logp S)) as E.
  { induction S as [|s S IH]; [reflexivity|]. cbn [map filter]. rewrite IH. change (has_logp (reweigh k s)) with (has_logp s). destruct (has_logp s); reflexivity. }
  rewrite E, 2 map_map. set (T := filter has_logp S).
  replace (map (fun x => term logq (reweigh k x)) T) with (map (fun x => escale k (term logq x)) T) by (apply map_ext; intros s; symmetry; apply (escale_mult k (weight_of s)), K).
  rewrite esum_scale by exact K. change (map (fun x => weight_of (reweigh k x)) T) with (map (fun x : sample A => k * weight_of x) T).
  rewrite rsum_scale, ediv_scale by exact K. reflexivity.
Qed.
(** A sample repeated n times counts as one of weight n (n at least 1). *)
Definition once {A} (s : A * ereal) : sample A := (s, 1).
Definition counted {A} (s : A * ereal * nat) : sample A := (fst s, INR (snd s)).
Definition repeated {A} (l : list (A * ereal * nat)) : list (sample A) := flat_map (fun s => repeat (once (fst s)) (snd s)) l.
Lemma filter_repeat {A} (f : A -> bool) a n : filter f (repeat a n) = if f a then repeat a n else [].
Proof. induction n as [|n IH]; cbn; [destruct (f a); reflexivity|]. rewrite IH. destruct (f a); reflexivity. Qed.
Lemma map_repeat {A B} (f : A -> B) a n : map f (repeat a n) = repeat (f a) n.
Proof. induction n as [|n IH]; [reflexivity|]. cbn. rewrite IH. reflexivity. Qed.
Lemma esum_repeat e n : esum (repeat (escale 1 e) (S n)) = escale (INR (S n)) e.
Proof.
  assert (escale 1 e = e) as E. { unfold escale. rewrite esign_pos by lra. destruct e; try reflexivity. f_equal. ring. } rewrite E. clear E.
  induction n as [|n IH].
  - cbn [repeat esum fold_right INR]. rewrite eadd_comm, eadd_0_l. unfold escale. rewrite esign_pos by lra. destruct e; try reflexivity. f_equal. ring.
  - change (esum (repeat e (S (S n)))) with (eadd e (esum (repeat e (S n)))). rewrite IH. unfold escale. rewrite 2 esign_pos by (apply lt_0_INR; lia). destruct e; try reflexivity.
    cbn [eadd]. f_equal. rewrite (S_INR (S n)). ring.
Qed.
Theorem C145_repeated {A} (logq : A -> ereal) (l : list (A * ereal * nat)) : (forall s, In s l -> (0 < snd s)%nat) ->
  estimate logq (repeated l) = estimate logq (map counted l).
Proof.
  intros H. rewrite 2 estimate_is.
  assert (esum (map (term logq) (filter has_logp (repeated l))) = esum (map (term logq) (filter has_logp (map counted l))) /\
          rsum (map weight_of (filter has_logp (repeated l))) = rsum (map weight_of (filter has_logp (map counted l)))) as [E1 E2]; [|rewrite E1, E2; reflexivity].
  induction l as [|[s n] l IH]; [split; reflexivity|]. destruct IH as [I1 I2]; [intros t T; apply H; right; exact T|]. specialize (H (s, n) (or_introl eq_refl)). cbn [snd] in H.
  change (repeated ((s, n) :: l)) with (repeat (once s) n ++ repeated l). change (map counted ((s, n) :: l)) with (counted (s, n) :: map counted l).
  rewrite filter_app, filter_repeat. cbn [filter]. change (has_logp (counted (s, n))) with (has_logp (once s)). destruct (has_logp (once s)); [|split; [exact I1|exact I2]].
  rewrite 2 map_app, esum_app, rsum_app, I1, I2. rewrite 2 map_repeat. destruct n as [|n]; [lia|]. split.
  - change (map (term logq) (counted (s, S n) :: filter has_logp (map counted l))) with (escale (INR (S n)) (eadd (snd s) (eneg (logq (fst s)))) :: map (term logq) (filter has_logp (map counted l))).
    change (term logq (once s)) with (escale 1 (eadd (snd s) (eneg (logq (fst s))))). rewrite esum_repeat. reflexivity.
  - change (weight_of (once s)) with 1. rewrite rsum_ones. reflexivity.
Qed.

(** *** Where the other density vanishes *)
Lemma weights_pos (T : list R) : T <> [] -> (forall w, In w T -> 0 < w) -> 0 < rsum T.
Proof.
  destruct T as [|a T]; [congruence|]. intros _ H. pose proof (H a (or_introl eq_refl)) as P. assert (0 <= rsum T) as Q; [|cbn; fold (rsum T); lra].
  assert (forall w, In w T -> 0 < w) as H' by (intros w W; apply H; right; exact W). clear H P. induction T as [|b T IH]; [cbn; lra|]. cbn. fold (rsum T). pose proof (H' b (or_introl eq_refl)). specialize (IH (fun w W => H' w (or_intror W))). lra.
Qed.
(** Infinite just if a sample that counts lies there. *)
Theorem C145_infinite {A} (logq : A -> ereal) S : (forall s, In s S -> 0 < weight_of s) -> (forall x, logq x = NInf \/ exists r, logq x = Fin r) -> (exists s, In s S /\ has_logp s = true) ->
  (estimate logq S = Ok PInf <-> exists s, In s S /\ has_logp s = true /\ logq (point_of s) = NInf) /\
  ((exists s, In s S /\ has_logp s = true /\ logq (point_of s) = NInf) \/ exists r, estimate logq S = Ok (Fin r)).
Proof.
  intros W Q N. rewrite estimate_is. set (T := filter has_logp S).
  assert (forall s, In s T <-> In s S /\ has_logp s = true) as HT by (intros s; apply filter_In).
  assert (0 < rsum (map weight_of T)) as P.
  { apply weights_pos; [destruct N as [s Hs]; apply HT in Hs; destruct T; [destruct Hs|discriminate]|]. intros w Hw. apply in_map_iff in Hw as [s [<- Hs]]. apply W, HT, Hs. }
  assert (((exists s, In s T /\ logq (point_of s) = NInf) /\ esum (map (term logq) T) = PInf) \/
          ((forall s, In s T -> logq (point_of s) <> NInf) /\ exists r, esum (map (term logq) T) = Fin r)) as D.
  { assert (forall s, In s T -> 0 < weight_of s /\ has_logp s = true) as H by (intros s Hs; apply HT in Hs; split; [apply W|]; apply Hs). clear - H Q.
    induction T as [|s T IH]; [right; split; [intros s []|exists 0; reflexivity]|]. 
    assert (forall t, In t T -> 0 < weight_of t /\ has_logp t = true) as H' by (intros t Ht; apply H; right; exact Ht). specialize (IH H'). destruct (H s (or_introl eq_refl)) as [Ws Ls].
    cbn [map esum fold_right]. fold (esum (map (term logq) T)). unfold has_logp in Ls. destruct (logp_of s) as [lp| | |] eqn:Lp; try discriminate.
    destruct (Q (point_of s)) as [E|[r E]].
    - left. split; [exists s; split; [left; reflexivity|exact E]|]. unfold term at 1. rewrite Lp, E. cbn. rewrite esign_pos by exact Ws. destruct IH as [[_ ->]|[_ [r ->]]]; reflexivity.
    - assert (term logq s = Fin (weight_of s * (lp + - r))) as Ts by (unfold term; rewrite Lp, E; reflexivity). rewrite Ts. destruct IH as [[[t [Ht Et]] ->]|[F [r' ->]]].
      + left. split; [exists t; split; [right; exact Ht|exact Et]|reflexivity].
      + right. split; [intros t [<-|Ht]; [rewrite E; discriminate|apply F, Ht]|]. cbn. eexists. reflexivity. }
  destruct D as [[[s [Hs E]] D]|[F [r D]]]; rewrite D.
  - assert (exists s, In s S /\ has_logp s = true /\ logq (point_of s) = NInf) as X by (apply HT in Hs; exists s; tauto). unfold ediv. rewrite esign_pos by exact P. split; [split; [intros _; exact X|reflexivity]|left; exact X].
  - rewrite ediv_fin by lra. split; [|right; eexists; reflexivity]. split; [discriminate|]. intros [s (H1 & H2 & H3)]. exfalso. apply (F s); [apply HT; tauto|exact H3].
Qed.
(** What does not hold: a sample of weight 0 may make the estimate NaN; without any finite log-density it is NaN; for samples that do not stand for the
    distribution it may be negative. *)
Theorem C145_zero_weight_refuted : exists (logq : bool -> ereal) S s, weight_of s = 0 /\ estimate logq S = Ok (Fin 1) /\ estimate logq (s :: S) = Ok ENaN.
Proof.
  exists (fun b : bool => if b then Fin 0 else NInf), [(true, Fin 1, 1)], (false, Fin 2, 0). split; [reflexivity|]. split.
  - rewrite (C145_mean _ _ (fun _ => 1) (fun _ => 0)); [cbn; do 2 f_equal; field|intros s [<-|[]]; split; reflexivity|cbn; lra].
  - rewrite estimate_is. cbn [filter has_logp logp_of fst snd efinite map esum fold_right]. unfold term at 1. cbn. rewrite esign_0. cbn. unfold ediv. destruct (esign _); reflexivity.
Qed.
Theorem C145_nan_refuted {A} (logq : A -> ereal) S : (forall s, In s S -> has_logp s = false) -> estimate logq S = Ok ENaN.
Proof.
  intros H. rewrite estimate_is. replace (filter has_logp S) with (@nil (sample A)).
  - change (rsum (map weight_of (@nil (sample A)))) with 0. change (esum (map (term logq) [])) with (Fin 0). unfold ediv. rewrite esign_0. reflexivity.
  - induction S as [|s S IH]; [reflexivity|]. cbn. rewrite (H s (or_introl eq_refl)). apply IH. intros t T. apply H. right. exact T.
Qed.
Theorem C145_negative_refuted : exists (p q : bool -> R) S, p true + p false = 1 /\ q true + q false = 1 /\ (forall b, 0 < p b /\ 0 < q b) /\
  (forall s, In s S -> logp_of s = Fin (ln (p (point_of s))) /\ weight_of s = 1) /\ S <> [] /\ exists r, r < 0 /\ estimate (fun b => Fin (ln (q b))) S = Ok (Fin r).
Proof.
  exists (fun b : bool => if b then 1 / 4 else 3 / 4), (fun b => 1 / 2), [(true, Fin (ln (1 / 4)), 1)]. split; [lra|]. split; [lra|]. split; [intros []; lra|]. split; [intros s [<-|[]]; split; reflexivity|]. split; [discriminate|].
  exists (ln (1 / 4) - ln (1 / 2)). split.
  - assert (ln (1 / 4) < ln (1 / 2)) by (apply ln_increasing; lra). lra.
  - rewrite (C145_mean _ _ (fun b => ln (1 / 4)) (fun b => ln (1 / 2))); [cbn; do 2 f_equal; field|intros s [<-|[]]; split; reflexivity|cbn; lra].
Qed.

(** An instance of C145_divergence: two points, probabilities 1/4 and 3/4 against 1/2 and 1/2, logs off by 5, weights 2 and 6; by C145_dropped the third sample does not count. *)
Example C145_case :
  let p b := if b : bool then 1 / 4 else 3 / 4 in let q (b : bool) := 1 / 2 in
  exists D, estimate (fun b => Fin (ln (q b) + 5)) [(true, Fin (ln (1 / 4) + 5), 2); (false, Fin (ln (3 / 4) + 5), 6); (true, NInf, 9)] = Ok (Fin D) /\
    D = 1 / 4 * ln (1 / 4 / (1 / 2)) + 3 / 4 * ln (3 / 4 / (1 / 2)) /\ 0 < D.
Proof.
  intros p q. destruct (C145_divergence [true; false] p q (fun b => Fin (ln (q b) + 5)) 5 8) as [D (E & V & P & Z & _)].
  - intros b _. unfold p, q. split; [destruct b; lra|]. split; [lra|reflexivity].
  - cbn. lra.
  - cbn. unfold q. lra.
  - lra.
  - exists D. split; [|split].
    + rewrite C145_dropped. cbn [filter has_logp logp_of fst snd efinite]. rewrite <- E. cbn [map]. unfold p. do 2 f_equal; [|f_equal]; f_equal; lra.
    + rewrite V. unfold divergence, p, q. cbn. ring.
    + destruct P as [P|P]; [exact P|]. specialize (Z (eq_sym P) true (or_introl eq_refl)). unfold p, q in Z. lra.
Qed.
Print Assumptions C145_defaults. Print Assumptions C145_mean. Print Assumptions C145_divergence. Print Assumptions C145_order. Print Assumptions C145_dropped. Print Assumptions C145_constant.
Print Assumptions C145_weights. Print Assumptions C145_repeated. Print Assumptions C145_infinite. Print Assumptions C145_zero_weight_refuted. Print Assumptions C145_nan_refuted. Print Assumptions C145_negative_refuted.

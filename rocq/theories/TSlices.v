(** C120: slices of a function through a point. *)
From Verif Require Import MSlices.
From Coq Require Import Lra Lia Psatz.
Set Default Goal Selector "!".
Set Bullet Behavior "Strict Subproofs".
Open Scope R_scope.

Lemma mapM_nth A B (f : A -> res B) (P : A -> B -> Prop) l : (forall x, In x l -> exists y, f x = Ok y /\ P x y) ->
  exists r, mapM f l = Ok r /\ length r = length l /\ forall j x, nth_error l j = Some x -> exists y, nth_error r j = Some y /\ P x y.
Proof.
  induction l as [|a l IH]; intros H; [exists []; repeat split; intros [|j] x Hx; discriminate|].
  destruct (H a (or_introl eq_refl)) as (y & Ey & Py). destruct (IH (fun x Hx => H x (or_intror Hx))) as (r & Er & Lr & Nr). exists (y :: r). cbn [mapM]. rewrite Ey, Er. split; [reflexivity|]. split; [cbn; congruence|].
  intros [|j] x Hx; [injection Hx as <-; exists y; split; [reflexivity|exact Py]|]. apply Nr, Hx.
Qed.
Lemma mapM_err A B (f : A -> res B) e l : (forall x, In x l -> (exists y, f x = Ok y) \/ f x = Err e) -> (exists x, In x l /\ f x = Err e) -> mapM f l = Err e.
Proof.
  induction l as [|a l IH]; intros H (x & Hx & Ex); [destruct Hx|]. cbn [mapM]. destruct (H a (or_introl eq_refl)) as [(y & Ey)|Ey]; rewrite Ey; [|reflexivity]. cbn [bind].
  destruct Hx as [->|Hx]; [congruence|]. rewrite IH; [reflexivity|intros z Hz; apply H; right; exact Hz|eauto].
Qed.
Lemma set_at_spec i v l : length (set_at i v l) = length l /\ forall c, nth c (set_at i v l) 0 = if (c =? i)%nat && (c <? length l)%nat then v else nth c l 0.
Proof.
  revert i. induction l as [|x l IH]; intros [|i]; cbn; try (split; [reflexivity|]; intros [|c]; reflexivity).
  - split; [reflexivity|]. intros c. rewrite andb_false_r. destruct c; reflexivity.
  - destruct (IH i) as [L N]. split; [rewrite L; reflexivity|]. intros [|c]; [reflexivity|]. rewrite N. reflexivity.
Qed.
Lemma nth_seq_error k n : nth_error (seq 0 n) k = if (k <? n)%nat then Some k else None.
Proof.
  destruct (Nat.ltb_spec k n) as [H|H]; [|apply nth_error_None; rewrite seq_length; exact H]. rewrite (nth_error_nth' _ O) by (rewrite seq_length; exact H). rewrite seq_nth by exact H. reflexivity.
Qed.
Lemma linspace_spec a b n k : (2 <= n)%nat -> (k < n)%nat -> nth_error (linspace a b n) k = Some (a + INR k * ((b - a) / INR (n - 1))).
Proof.
  intros Hn Hk. unfold linspace. rewrite nth_error_map, nth_seq_error. destruct (Nat.ltb_spec k n) as [_|]; [|lia]. cbn [option_map]. destruct (Nat.eqb_spec (k + 1) n) as [E|]; [|reflexivity].
  f_equal. replace (n - 1)%nat with k by lia. assert (INR k <> 0) by (apply not_0_INR; lia). field. assumption.
Qed.
Lemma linspace_length a b n : length (linspace a b n) = n.
Proof. unfold linspace. rewrite map_length, seq_length. reflexivity. Qed.

Section C120.
Context {Y : Type}.
Variable nan : Y.
Variable func : list R -> res Y.
Notation prepare := (prepare_slices_func nan func).
(** What a slice should be: [n] points that agree with [x] but in coordinate [i], which goes from the lower to the upper bound in equal steps. *)
Definition is_slice (x : list R) (i : nat) (lo hi : R) (n : nat) (X : list (list R)) : Prop :=
  length X = n /\ forall k p, nth_error X k = Some p -> length p = length x /\ nth i p 0 = lo + INR k * ((hi - lo) / INR (n - 1)) /\ forall c, c <> i -> nth c p 0 = nth c x 0.
(** The values: those of the function; NaN where it raises. *)
Definition are_values (X : list (list R)) (y : list Y) : Prop :=
  length y = length X /\ forall k p, nth_error X k = Some p -> nth_error y k = Some (match func p with Ok v => v | Err _ => nan end).

Lemma slice_ok x i lo hi n : (i < length x)%nat -> (2 <= n)%nat -> exists X, slice x (Z.of_nat i) (lo, hi) n = Ok X /\ is_slice x i lo hi n X.
Proof.
  intros Hi Hn. unfold slice, py_index. replace (Z.leb 0 (Z.of_nat i) && Z.ltb (Z.of_nat i) (Z.of_nat (length x)))%bool with true by (symmetry; apply andb_true_intro; split; [apply Z.leb_le|apply Z.ltb_lt]; lia).
  cbn [bind fst snd]. rewrite Nat2Z.id. eexists. split; [reflexivity|]. split; [rewrite map_length; apply linspace_length|]. intros k p Hp. rewrite nth_error_map in Hp.
  destruct (nth_error (linspace lo hi n) k) as [v|] eqn:E; [|discriminate]. injection Hp as <-. assert (k < n)%nat by (rewrite <- (linspace_length lo hi n); apply nth_error_Some; congruence). rewrite linspace_spec in E by assumption. injection E as <-.
  destruct (set_at_spec i (lo + INR k * ((hi - lo) / INR (n - 1))) x) as [L N]. split; [exact L|]. split.
  - rewrite N, Nat.eqb_refl. replace (i <? length x)%nat with true by (symmetry; apply Nat.ltb_lt; exact Hi). reflexivity.
  - intros c Hc. rewrite N. destruct (Nat.eqb_spec c i); [contradiction|reflexivity].
Qed.
Lemma values_ok X : (forall p, In p X -> func p <> Err TypeError) -> exists y, mapM (value nan func) X = Ok y /\ are_values X y.
Proof.
  intros H. destruct (mapM_nth _ _ (value nan func) (fun p v => v = match func p with Ok v => v | Err _ => nan end) X) as (y & E & L & N).
  - intros p Hp. specialize (H p Hp). unfold value. destruct (func p) as [v|[]]; eauto. congruence.
  - exists y. split; [exact E|]. split; [exact L|]. intros k p Hp. destruct (N k p Hp) as (v & Hv & ->). exact Hv.
Qed.
Lemma one_ok x b n i : (forall p, func p <> Err TypeError) -> (i < length x)%nat -> length b = length x -> (2 <= n)%nat ->
  exists X y, one_slice nan func x b n (Z.of_nat i) = Ok (X, y) /\ is_slice x i (fst (nth i b (0, 0))) (snd (nth i b (0, 0))) n X /\ are_values X y.
Proof.
  intros H Hi Hb Hn. unfold one_slice, py_index at 1. rewrite Hb. replace (Z.leb 0 (Z.of_nat i) && Z.ltb (Z.of_nat i) (Z.of_nat (length x)))%bool with true by (symmetry; apply andb_true_intro; split; [apply Z.leb_le|apply Z.ltb_lt]; lia).
  cbn [bind]. rewrite Nat2Z.id. destruct (nth i b (0, 0)) as [lo hi]. destruct (slice_ok x i lo hi n Hi Hn) as (X & E & S). rewrite E. cbn [bind]. destruct (values_ok X (fun p _ => H p)) as (y & Ey & Hy). rewrite Ey. cbn [bind]. eauto.
Qed.
Lemma names_ok dim params i : length params = dim -> (i < dim)%nat -> (do k <- py_index dim (Z.of_nat i); Ok (nth k params ""%string)) = Ok (nth i params ""%string).
Proof.
  intros L Hi. unfold py_index. replace (Z.leb 0 (Z.of_nat i) && Z.ltb (Z.of_nat i) (Z.of_nat dim))%bool with true by (symmetry; apply andb_true_intro; split; [apply Z.leb_le|apply Z.ltb_lt]; lia). cbn [bind]. rewrite Nat2Z.id. reflexivity.
Qed.
(** A point and bounds given as lists: for each index asked for the slice along it, with its name and values; without indices one for each. *)
Theorem C120_slices : forall x b is n, x <> [] -> length b = length x -> (2 <= n)%Z -> (forall p, func p <> Err TypeError) -> Forall (fun i => (i < length x)%nat) is ->
  exists names s, prepare (FList x) (BList b) (Some (map (fun i => IInt (Z.of_nat i)) is)) (Some n) = Ok (map Z.of_nat is, names, s) /\
    length s = length is /\ length names = length is /\
    forall j i, nth_error is j = Some i -> nth_error names j = Some (String.append "x_" (str_of_nat (i + 1))) /\
      exists X y, nth_error s j = Some (X, y) /\ is_slice x i (fst (nth i b (0, 0))) (snd (nth i b (0, 0))) (Z.to_nat n) X /\ are_values X y.
Proof.
  intros x b is n Hx Hb Hn Hf Hi. unfold prepare_slices_func, generic_params_names. destruct (Nat.eqb_spec (length x) 0) as [E|_]; [destruct x; [congruence|discriminate]|]. cbn [bind].
  set (params := map (fun i => String.append "x_" (str_of_nat (i + 1))) (seq 0 (length x))). assert (Lp : length params = length x) by (unfold params; rewrite map_length, seq_length; reflexivity).
  assert (Ei : mapM (as_int (length x)) (map (fun i => IInt (Z.of_nat i)) is) = Ok (map Z.of_nat is)).
  { induction Hi as [|i is Hi _ IH]; [reflexivity|]. cbn [map mapM as_int]. replace (Z.ltb (Z.of_nat i) (Z.of_nat (length x))) with true by (symmetry; apply Z.ltb_lt; lia). cbn [bind]. rewrite IH. reflexivity. }
  rewrite Ei. cbn [bind]. rewrite Hb, Nat.ltb_irrefl. replace (Z.ltb n 2) with false by (symmetry; apply Z.ltb_ge; exact Hn).
  rewrite Forall_forall in Hi.
  destruct (mapM_nth _ _ (one_slice nan func x b (Z.to_nat n)) (fun z r => exists i, z = Z.of_nat i /\ is_slice x i (fst (nth i b (0, 0))) (snd (nth i b (0, 0))) (Z.to_nat n) (fst r) /\ are_values (fst r) (snd r)) (map Z.of_nat is)) as (s & Es & Ls & Ns).
  { intros z Hz. apply in_map_iff in Hz as (i & <- & Hz). destruct (one_ok x b (Z.to_nat n) i Hf (Hi i Hz) Hb ltac:(lia)) as (X & y & E & S1 & S2). exists (X, y). split; [exact E|]. exists i. auto. }
  rewrite Es. cbn [bind].
  destruct (mapM_nth _ _ (fun i => do k <- py_index (length x) i; Ok (nth k params ""%string)) (fun z r => exists i, z = Z.of_nat i /\ r = nth i params ""%string) (map Z.of_nat is)) as (names & En & Ln & Nn).
  { intros z Hz. apply in_map_iff in Hz as (i & <- & Hz). rewrite names_ok by (try exact Lp; apply Hi, Hz). eauto. }
  rewrite En. cbn [bind]. exists names, s. rewrite map_length in *. repeat (split; [first [reflexivity|assumption]|]). intros j i Hj.
  assert (Hj' : nth_error (map Z.of_nat is) j = Some (Z.of_nat i)) by (rewrite nth_error_map, Hj; reflexivity).
  assert (Hl : (i < length x)%nat) by (apply Hi; apply nth_error_In in Hj; exact Hj). split.
  - destruct (Nn j _ Hj') as (r & Hr & i' & Ei' & ->). apply Nat2Z.inj in Ei'. subst i'. rewrite Hr. f_equal. unfold params. rewrite (nth_indep _ ""%string (String.append "x_" (str_of_nat (O + 1)))) by (rewrite map_length, seq_length; exact Hl).
    rewrite (map_nth (fun i => String.append "x_" (str_of_nat (i + 1)))). rewrite seq_nth by exact Hl. reflexivity.
  - destruct (Ns j _ Hj') as ([X y] & Hr & i' & Ei' & S1 & S2). apply Nat2Z.inj in Ei'. subst i'. exists X, y. auto.
Qed.
Theorem C120_all : forall x b n, prepare (FList x) b None n = prepare (FList x) b (Some (map (fun i => IInt (Z.of_nat i)) (seq 0 (length x)))) n.
Proof.
  intros x b n. unfold prepare_slices_func. destruct (generic_params_names _ _) as [params|]; [|reflexivity]. cbn [bind].
  assert (E : forall l, (forall i, In i l -> (i < length x)%nat) -> mapM (as_int (length x)) (map (fun i => IInt (Z.of_nat i)) l) = Ok (map Z.of_nat l)).
  { induction l as [|i l IH]; intros H; [reflexivity|]. cbn [map mapM as_int]. replace (Z.ltb (Z.of_nat i) (Z.of_nat (length x))) with true by (symmetry; apply Z.ltb_lt, inj_lt, H; left; reflexivity). cbn [bind]. rewrite IH; [reflexivity|]. intros z Hz. apply H. right. exact Hz. }
  rewrite E; [reflexivity|]. intros i Hi. apply in_seq in Hi. lia.
Qed.
(** A function that cannot be called with such arguments is reported. *)
Theorem C120_type_error : forall x b i n, length b = length x -> (2 <= n)%Z -> (i < length x)%nat -> (forall p, func p = Err TypeError) ->
  prepare (FList x) (BList b) (Some [IInt (Z.of_nat i)]) (Some n) = Err TypeError.
Proof.
  intros x b i n Hb Hn Hi Hf.
  assert (E1 : one_slice nan func x b (Z.to_nat n) (Z.of_nat i) = Err TypeError).
  { unfold one_slice, py_index at 1. rewrite Hb. replace (Z.leb 0 (Z.of_nat i) && Z.ltb (Z.of_nat i) (Z.of_nat (length x)))%bool with true by (symmetry; apply andb_true_intro; split; [apply Z.leb_le|apply Z.ltb_lt]; lia).
    cbn [bind]. rewrite Nat2Z.id. destruct (nth i b (0, 0)) as [lo hi]. destruct (slice_ok x i lo hi (Z.to_nat n) Hi ltac:(lia)) as (X & E & S). rewrite E. cbn [bind].
    rewrite (mapM_err _ _ _ TypeError X); [reflexivity| |].
    - intros p _. right. unfold value. rewrite Hf. reflexivity.
    - destruct S as [L _]. destruct X as [|p X]; [cbn in L; lia|]. exists p. split; [left; reflexivity|]. unfold value. rewrite Hf. reflexivity. }
  unfold prepare_slices_func, generic_params_names. destruct (Nat.eqb_spec (length x) 0) as [E|_]; [lia|]. cbn [bind mapM as_int].
  replace (Z.ltb (Z.of_nat i) (Z.of_nat (length x))) with true by (symmetry; apply Z.ltb_lt; lia). cbn [bind]. rewrite Hb, Nat.ltb_irrefl. replace (Z.ltb n 2) with false by (symmetry; apply Z.ltb_ge; exact Hn).
  cbn [mapM]. rewrite E1. reflexivity.
Qed.
(** Negative indices, as usual in Python, with bounds for each parameter. *)
Theorem C120_negative : forall x b n i, (i < length x)%nat -> length b = length x ->
  one_slice nan func x b n (Z.of_nat i - Z.of_nat (length x)) = one_slice nan func x b n (Z.of_nat i).
Proof.
  intros x b n i Hi Hb. unfold one_slice, slice. rewrite Hb.
  assert (py_index (length x) (Z.of_nat i - Z.of_nat (length x)) = py_index (length x) (Z.of_nat i)) as ->; [|reflexivity].
  unfold py_index. replace (Z.leb 0 (Z.of_nat i - Z.of_nat (length x))) with false by (symmetry; apply Z.leb_gt; lia). cbn [andb].
  replace (Z.ltb (Z.of_nat i - Z.of_nat (length x)) 0) with true by (symmetry; apply Z.ltb_lt; lia). replace (Z.of_nat i - Z.of_nat (length x) + Z.of_nat (length x))%Z with (Z.of_nat i) by lia.
  replace (Z.leb 0 (Z.of_nat i)) with true by (symmetry; apply Z.leb_le; lia). replace (Z.ltb (Z.of_nat i) (Z.of_nat (length x))) with true by (symmetry; apply Z.ltb_lt; lia). reflexivity.
Qed.
(** Refuted: a point can be given as a dictionary. The names of the parameters are lost, and the call raises whatever else is given. *)
Theorem C120_dict_refuted : forall m b indices n, m <> [] -> exists x, prepare (FDict m) b indices n = Err x.
Proof.
  intros m b indices n Hm. unfold prepare_slices_func. match goal with |- context [bind ?r _] => destruct r as [i|x] end; cbn [bind]; [|eauto]. destruct (map snd m) eqn:E; [destruct m; [congruence|discriminate]|]. destruct b; eauto.
Qed.
End C120.
(** Refuted: bounds of another length are rejected. Longer ones are accepted, and then negative indices get the bounds of another parameter. *)
Theorem C120_longer_refuted : exists names X y,
  prepare_slices_func 0 (fun p => Ok (nth 1 p 0)) (FList [5; 7]) (BList [(0, 1); (10, 20); (30, 40)]) (Some [IInt (-1)]) (Some 2%Z) = Ok ([(-1)%Z], names, [(X, y)]) /\
  X = [[5; 30]; [5; 40]].
Proof.
  do 3 eexists. split; [reflexivity|]. cbn. change (Pos.to_nat 2) with 2%nat. try change (Pos.to_nat 1) with 1%nat. cbn. repeat f_equal; field.
Qed.
(** A slice of x0 + x1 along the second coordinate, with a function that fails in the middle. *)
Example C120_case : exists X, slice [5; 7] 1 (0, 1) 3 = Ok X /\ X = [[5; 0]; [5; 1 / 2]; [5; 1]].
Proof. eexists. split; [reflexivity|]. cbn. change (Pos.to_nat 1) with 1%nat. cbn. repeat apply (f_equal2 cons); try reflexivity; field. Qed.
Example C120_applies : exists names s, prepare_slices_func 0 (fun p => if Req_EM_T (nth 0 p 0) (1 / 2) then Err ValueError else Ok (nth 0 p 0)) (FList [5; 7]) (BList [(0, 1); (10, 20)]) (Some [IInt 0]) (Some 3%Z)
  = Ok ([0%Z], names, s) /\ exists X y, s = [(X, y)] /\ y = [0; 0; 1].
Proof.
  set (f := fun p : list R => if Req_EM_T (nth 0 p 0) (1 / 2) then Err ValueError else Ok (nth 0 p 0)). destruct (C120_slices 0 f [5; 7] [(0, 1); (10, 20)] [O] 3%Z) as (names & s & E & Ls & _ & H); try reflexivity; try discriminate.
  - intros p. unfold f. destruct (Req_EM_T _ _); discriminate.
  - repeat constructor.
  - exists names, s. split; [exact E|]. destruct (H O O eq_refl) as (_ & X & y & Es & (LX & SX) & (Ly & Hy)). exists X, y. destruct s as [|s0 [|]]; try discriminate Ls. injection Es as ->. split; [reflexivity|].
    change (Z.to_nat 3) with 3%nat in *. destruct X as [|p0 [|p1 [|p2 [|]]]]; try discriminate LX. destruct y as [|y0 [|y1 [|y2 [|]]]]; try discriminate Ly.
    destruct (SX 0%nat p0 eq_refl) as (_ & A0 & _). destruct (SX 1%nat p1 eq_refl) as (_ & A1 & _). destruct (SX 2%nat p2 eq_refl) as (_ & A2 & _). cbn [fst snd nth Nat.sub INR] in A0, A1, A2.
    pose proof (Hy 0%nat p0 eq_refl) as B0. pose proof (Hy 1%nat p1 eq_refl) as B1. pose proof (Hy 2%nat p2 eq_refl) as B2. injection B0 as ->. injection B1 as ->. injection B2 as ->. unfold f. rewrite A0, A1, A2.
    repeat match goal with |- context [Req_EM_T ?a ?b] => destruct (Req_EM_T a b) end; try lra; repeat f_equal; lra.
Qed.
Print Assumptions C120_slices.
Print Assumptions C120_all.
Print Assumptions C120_type_error.
Print Assumptions C120_negative.
Print Assumptions C120_dict_refuted.
Print Assumptions C120_longer_refuted.

(** Lemmas about hyperparameters, [theta] and [bounds]. *)
From Coq Require Import Lra.
From Verif Require Import MHyper SHyper.
Set Default Goal Selector "!". Set Bullet Behavior "Strict Subproofs".
Open Scope R_scope.

(** ** Names *)
Lemma prefix_eqb p a b : String.eqb (p ++ a)%string (p ++ b)%string = String.eqb a b.
Proof. induction p as [|c p IH]; simpl; [reflexivity|]. rewrite Ascii.eqb_refl. exact IH. Qed.
Lemma lookup_under p n l : lookup (p ++ n)%string (under p l) = lookup n l.
Proof. induction l as [|[m v] l IH]; simpl; [reflexivity|]. rewrite prefix_eqb. destruct (String.eqb m n); auto. Qed.
Lemma lookup_key n l e : lookup n l = Err e -> e = KeyError.
Proof. induction l as [|[m v] l IH]; simpl; [congruence|]. destruct (String.eqb m n); [discriminate|auto]. Qed.
Lemma lookup_app n a b : lookup n (a ++ b) = match lookup n a with Ok v => Ok v | Err _ => lookup n b end.
Proof. induction a as [|[m v] a IH]; simpl; [reflexivity|]. destruct (String.eqb m n); auto. Qed.
Lemma lookup_k1_k2 n l : lookup ("k1__" ++ n)%string (under "k2__" l) = Err KeyError.
Proof. induction l as [|[m v] l IH]; simpl; [reflexivity|]. exact IH. Qed.
Lemma lookup_k2_k1 n l : lookup ("k2__" ++ n)%string (under "k1__" l) = Err KeyError.
Proof. induction l as [|[m v] l IH]; simpl; [reflexivity|]. exact IH. Qed.
Lemma lookup_first n a b : lookup ("k1__" ++ n)%string (under "k1__" a ++ under "k2__" b) = lookup n a.
Proof.
  rewrite lookup_app, lookup_under, lookup_k1_k2. destruct (lookup n a) eqn:E; [reflexivity|].
  apply lookup_key in E. subst. reflexivity.
Qed.
Lemma lookup_second n a b : lookup ("k2__" ++ n)%string (under "k1__" a ++ under "k2__" b) = lookup n b.
Proof. rewrite lookup_app, lookup_k2_k1. apply lookup_under. Qed.

(** ** Specifications made again under another name *)
Definition renamed (p : string) (h : hyper) : hyper := Hyper (p ++ h_name h) (h_bounds h) (h_max h) (h_n h).
Definition made (h : hyper) : Prop := forall n, mk_hyper n (h_bounds h) (h_max h) (h_n h) = Ok (Hyper n (h_bounds h) (h_max h) (h_n h)).
Lemma mk_made n b ml c h : mk_hyper n b ml c = Ok h -> made h /\ h_name h = n /\ h_max h = ml /\ h_n h = c.
Proof.
  unfold mk_hyper. destruct b as [| |r m].
  - intros H. injection H as <-. repeat split.
  - intros H. injection H as <-. repeat split.
  - destruct (Nat.ltb 1 c) eqn:Ec.
    + destruct m as [|r2 m].
      * intros H. injection H as <-. repeat split. intros n'. cbn [h_bounds h_max h_n]. unfold mk_hyper. rewrite Ec.
        destruct c as [|[|c]]; [discriminate|discriminate|]. cbn [Nat.sub repeat].
        replace (Nat.eqb (S (length (r :: repeat r c))) (S (S c))) with true; [reflexivity|].
        symmetry. apply Nat.eqb_eq. cbn [length]. rewrite repeat_length. lia.
      * destruct (Nat.eqb (S (length (r2 :: m))) c) eqn:E2; [|discriminate]. intros H. injection H as <-. repeat split.
        intros n'. cbn [h_bounds h_max h_n]. unfold mk_hyper. rewrite Ec, E2. reflexivity.
    + intros H. injection H as <-. repeat split. intros n'. cbn [h_bounds h_max h_n]. unfold mk_hyper. rewrite Ec. reflexivity.
Qed.
Lemma relabel_made p l : List.Forall made l -> relabel p l = Ok (map (renamed p) l).
Proof.
  induction 1 as [|h l Hh Hl IH]; [reflexivity|]. cbn [relabel map]. rewrite Hh. cbn [bind]. rewrite IH. reflexivity.
Qed.
Lemma renamed_made p l : List.Forall made l -> List.Forall made (map (renamed p) l).
Proof. induction 1 as [|h l Hh Hl IH]; simpl; constructor; auto. Qed.
Lemma hypers_made k l : hypers k = Ok l -> List.Forall made l.
Proof.
  revert l. induction k as [nu ls lb ml|c cb|n nb|ls a|ls p|s|k1 IH1 k2 IH2|k1 IH1 k2 IH2|k IH e]; intros l H; cbn [hypers] in H;
    try discriminate.
  - destruct (mk_hyper _ _ _ _) as [h|] eqn:E; [|discriminate]. injection H as <-. constructor; [apply (mk_made _ _ _ _ _ E)|constructor].
  - destruct (mk_hyper _ _ _ _) as [h|] eqn:E; [|discriminate]. injection H as <-. constructor; [apply (mk_made _ _ _ _ _ E)|constructor].
  - destruct (mk_hyper _ _ _ _) as [h|] eqn:E; [|discriminate]. injection H as <-. constructor; [apply (mk_made _ _ _ _ _ E)|constructor].
  - destruct (hypers k1) as [l1|] eqn:E1; [|discriminate]. cbn [bind] in H. rewrite (relabel_made _ _ (IH1 _ eq_refl)) in H. cbn [bind] in H.
    destruct (hypers k2) as [l2|] eqn:E2; [|discriminate]. cbn [bind] in H. rewrite (relabel_made _ _ (IH2 _ eq_refl)) in H. injection H as <-.
    apply Forall_app; split; apply renamed_made; auto.
  - destruct (hypers k1) as [l1|] eqn:E1; [|discriminate]. cbn [bind] in H. rewrite (relabel_made _ _ (IH1 _ eq_refl)) in H. cbn [bind] in H.
    destruct (hypers k2) as [l2|] eqn:E2; [|discriminate]. cbn [bind] in H. rewrite (relabel_made _ _ (IH2 _ eq_refl)) in H. injection H as <-.
    apply Forall_app; split; apply renamed_made; auto.
  - destruct (hypers k) as [l1|] eqn:E1; [|discriminate]. cbn [bind] in H. rewrite (relabel_made _ _ (IH _ eq_refl)) in H. injection H as <-.
    apply renamed_made; auto.
Qed.
(** Sums and products. *)
Lemma hypers_both k k1 k2 l : k = KSum k1 k2 \/ k = KProd k1 k2 -> hypers k = Ok l ->
  exists l1 l2, hypers k1 = Ok l1 /\ hypers k2 = Ok l2 /\ l = map (renamed "k1__") l1 ++ map (renamed "k2__") l2.
Proof.
  intros Hk H.
  assert (H' : (do l1 <- hypers k1; do l1 <- relabel "k1__" l1; do l2 <- hypers k2; do l2 <- relabel "k2__" l2; Ok (l1 ++ l2)%list) = Ok l)
    by (destruct Hk; subst k; exact H). clear H.
  destruct (hypers k1) as [l1|] eqn:E1; [|discriminate]. cbn [bind] in H'. rewrite (relabel_made _ _ (hypers_made _ _ E1)) in H'. cbn [bind] in H'.
  destruct (hypers k2) as [l2|] eqn:E2; [|discriminate]. cbn [bind] in H'. rewrite (relabel_made _ _ (hypers_made _ _ E2)) in H'.
  injection H' as <-. eauto.
Qed.
Lemma hypers_pow k e l : hypers (KPow k e) = Ok l -> exists l1, hypers k = Ok l1 /\ l = map (renamed "kernel__") l1.
Proof.
  cbn [hypers]. intros H. destruct (hypers k) as [l1|] eqn:E1; [|discriminate]. cbn [bind] in H.
  rewrite (relabel_made _ _ (hypers_made _ _ E1)) in H. injection H as <-. eauto.
Qed.

(** ** Bounds of sums, products and powers *)
Lemma bound_rows_renamed p P P' l : (forall n, lookup (p ++ n)%string P' = lookup n P) -> bound_rows P' (map (renamed p) l) = bound_rows P l.
Proof.
  intros HP. induction l as [|h l IH]; [reflexivity|]. cbn [map bound_rows]. rewrite IH. unfold renamed; cbn [h_bounds h_name h_max].
  rewrite HP. reflexivity.
Qed.
Lemma bound_rows_app P a b r : bound_rows P (a ++ b) = Ok r ->
  exists r1 r2, bound_rows P a = Ok r1 /\ bound_rows P b = Ok r2 /\ r = r1 ++ r2.
Proof.
  revert r. induction a as [|h a IH]; intros r H; [exists [], r; auto|].
  cbn [app bound_rows] in H |- *. destruct (match h_bounds h with BFixed => Ok [] | BDynamic => _ | BRows r0 m => _ end) as [x|]; [|discriminate].
  cbn [bind] in H |- *. destruct (bound_rows P (a ++ b)) as [y|] eqn:E; [|discriminate]. injection H as <-.
  destruct (IH _ eq_refl) as (r1 & r2 & E1 & E2 & ->). rewrite E1. exists (x ++ r1), r2. rewrite app_assoc. auto.
Qed.
Lemma bound_rows_join P a b r1 r2 : bound_rows P a = Ok r1 -> bound_rows P b = Ok r2 -> bound_rows P (a ++ b) = Ok (r1 ++ r2).
Proof.
  intros H1 H2. revert r1 H1. induction a as [|h a IH]; intros r1 H1; [injection H1 as <-; exact H2|].
  cbn [app bound_rows] in H1 |- *. destruct (match h_bounds h with BFixed => Ok [] | BDynamic => _ | BRows r0 m => _ end) as [x|]; [|discriminate].
  cbn [bind] in H1 |- *. destruct (bound_rows P a) as [y|]; [|discriminate]. injection H1 as <-. rewrite (IH _ eq_refl). cbn [bind].
  rewrite app_assoc. reflexivity.
Qed.
Lemma bounds_both k k1 k2 B : k = KSum k1 k2 \/ k = KProd k1 k2 -> bounds k = Ok B ->
  exists B1 B2, bounds k1 = Ok B1 /\ bounds k2 = Ok B2 /\ B = B1 ++ B2.
Proof.
  intros Hk H. unfold bounds in H. destruct (hypers k) as [l|] eqn:E; [|discriminate]. cbn [bind] in H.
  destruct (bound_rows _ l) as [r|] eqn:Er; [|discriminate]. injection H as <-.
  destruct (hypers_both k k1 k2 l Hk E) as (l1 & l2 & E1 & E2 & ->).
  assert (Hp : get_params k = under "k1__" (get_params k1) ++ under "k2__" (get_params k2)) by (destruct Hk; subst k; reflexivity).
  rewrite Hp in Er. apply bound_rows_app in Er. destruct Er as (r1 & r2 & R1 & R2 & ->).
  rewrite (bound_rows_renamed _ (get_params k1)) in R1 by (intros; apply lookup_first).
  rewrite (bound_rows_renamed _ (get_params k2)) in R2 by (intros; apply lookup_second).
  exists (map ln_row r1), (map ln_row r2). unfold bounds. rewrite E1, E2. cbn [bind]. rewrite R1, R2, map_app. auto.
Qed.
Lemma bounds_pow k e : bounds (KPow k e) = bounds k.
Proof.
  unfold bounds. destruct (hypers (KPow k e)) as [l|] eqn:E.
  - destruct (hypers_pow k e l E) as (l1 & E1 & ->). rewrite E1. cbn [bind get_params].
    rewrite (bound_rows_renamed _ (get_params k)) by (intros; apply lookup_under). reflexivity.
  - cbn [hypers] in E. destruct (hypers k) as [l1|] eqn:E1; [|cbn [bind] in E |- *; congruence]. cbn [bind] in E.
    rewrite (relabel_made _ _ (hypers_made _ _ E1)) in E. discriminate.
Qed.

(** ** One hyperparameter *)
(** What setting [theta] does to a kernel with one hyperparameter, value by value. *)
Definition set_value (b : hbounds) (v : hval) (t : list R) : res hval :=
  match b with
  | BFixed => match t with [] => Ok v | _ => Err ValueError end
  | _ => if Nat.ltb 1 (n_elements v) then
           if Nat.eqb (length t) (n_elements v) then Ok (HVec (map exp t)) else Err ValueError
         else match t with [] => Err IndexError | [x] => Ok (HNum (exp x)) | _ => Err ValueError end
  end.
Lemma mk_fixed n b ml c h : mk_hyper n b ml c = Ok h -> (h_bounds h = BFixed <-> b = BFixed) /\ (h_bounds h = BDynamic <-> b = BDynamic).
Proof.
  unfold mk_hyper. destruct b as [| |r m].
  - intros H. injection H as <-. cbn. intuition congruence.
  - intros H. injection H as <-. cbn. intuition congruence.
  - destruct (Nat.ltb 1 c); [destruct m; [|destruct (Nat.eqb _ _)]|]; intros H; try discriminate; injection H as <-; cbn; split; split; discriminate.
Qed.
Lemma assign_one n b ml v h t : mk_hyper n b ml (n_elements v) = Ok h ->
  assign [h] t [(n, v)] = do w <- set_value b v t; Ok [(n, w)].
Proof.
  intros H. destruct (mk_made _ _ _ _ _ H) as (_ & Hn & _ & Hc). destruct (mk_fixed _ _ _ _ _ H) as [Hf _]. cbn [assign]. rewrite Hn, Hc.
  cbn [update]. rewrite String.eqb_refl.
  assert (G : forall A (x y : A), b <> BFixed -> (match h_bounds h with BFixed => x | _ => y end) = y).
  { intros A x y Hb. destruct (h_bounds h); try reflexivity. exfalso. apply Hb, Hf. reflexivity. }
  destruct b as [| |r m].
  - replace (h_bounds h) with BFixed by (symmetry; apply Hf; reflexivity). destruct t; reflexivity.
  - rewrite G by discriminate. cbn [set_value]. destruct (Nat.ltb 1 (n_elements v)) eqn:E1.
    + destruct (Nat.ltb (length t) (n_elements v)) eqn:E2.
      * apply Nat.ltb_lt in E2. replace (Nat.eqb (length t) (n_elements v)) with false; [reflexivity|]. symmetry. apply Nat.eqb_neq. lia.
      * apply Nat.ltb_ge in E2. destruct (Nat.eqb (length t) (n_elements v)) eqn:E3.
        -- apply Nat.eqb_eq in E3. rewrite <- E3, skipn_all, firstn_all. reflexivity.
        -- apply Nat.eqb_neq in E3. destruct (skipn (n_elements v) t) eqn:E4; [|reflexivity].
           apply (f_equal (@length _)) in E4. rewrite skipn_length in E4. cbn in E4. lia.
    + destruct t as [|x [|y t]]; reflexivity.
  - rewrite G by discriminate. cbn [set_value]. destruct (Nat.ltb 1 (n_elements v)) eqn:E1.
    + destruct (Nat.ltb (length t) (n_elements v)) eqn:E2.
      * apply Nat.ltb_lt in E2. replace (Nat.eqb (length t) (n_elements v)) with false; [reflexivity|]. symmetry. apply Nat.eqb_neq. lia.
      * apply Nat.ltb_ge in E2. destruct (Nat.eqb (length t) (n_elements v)) eqn:E3.
        -- apply Nat.eqb_eq in E3. rewrite <- E3, skipn_all, firstn_all. reflexivity.
        -- apply Nat.eqb_neq in E3. destruct (skipn (n_elements v) t) eqn:E4; [|reflexivity].
           apply (f_equal (@length _)) in E4. rewrite skipn_length in E4. cbn in E4. lia.
    + destruct t as [|x [|y t]]; reflexivity.
Qed.
Lemma n_elements_count v : elements v <> [] -> n_elements v = length (elements v).
Proof.
  destruct v as [x|l]; [reflexivity|]. cbn [elements]. intros H. destruct l as [|a [|b l]]; [contradiction|reflexivity|reflexivity].
Qed.
Lemma set_value_count b v t w : elements v <> [] -> set_value b v t = Ok w ->
  length t = count v b /\ length (elements w) = length (elements v) /\ (b = BFixed -> w = v) /\ (b <> BFixed -> elements w = map exp t).
Proof.
  intros Hv H. unfold set_value in H. unfold count.
  assert (G : forall r, (if Nat.ltb 1 (n_elements v) then if Nat.eqb (length t) (n_elements v) then Ok (HVec (map exp t)) else Err ValueError
     else match t with [] => Err IndexError | [x] => Ok (HNum (exp x)) | _ => Err ValueError end) = Ok r ->
     length t = length (elements v) /\ length (elements r) = length (elements v) /\ elements r = map exp t).
  { intros r Hr. destruct (Nat.ltb 1 (n_elements v)) eqn:E1.
    - destruct (Nat.eqb (length t) (n_elements v)) eqn:E2; [|discriminate]. apply Nat.eqb_eq in E2. injection Hr as <-.
      rewrite n_elements_count in E2 by exact Hv. cbn [elements]. rewrite map_length. auto.
    - apply Nat.ltb_ge in E1. rewrite n_elements_count in E1 by exact Hv.
      assert (E2 : length (elements v) = 1%nat) by (destruct (elements v); [contradiction|cbn in *; lia]).
      destruct t as [|x [|y t]]; try discriminate. injection Hr as <-. cbn. auto. }
  destruct b as [| |r m].
  - destruct t; [|discriminate]. injection H as <-. repeat split; auto. intros C; contradiction.
  - destruct (G _ H) as (G1 & G2 & G3). repeat split; auto. discriminate.
  - destruct (G _ H) as (G1 & G2 & G3). repeat split; auto. discriminate.
Qed.
Lemma set_value_some b v t : elements v <> [] -> length t = count v b -> exists w, set_value b v t = Ok w.
Proof.
  intros Hv Hl. unfold set_value, count in *.
  assert (G : length t = length (elements v) -> exists w, (if Nat.ltb 1 (n_elements v) then if Nat.eqb (length t) (n_elements v) then Ok (HVec (map exp t)) else Err ValueError
     else match t with [] => Err IndexError | [x] => Ok (HNum (exp x)) | _ => Err ValueError end) = Ok w).
  { intros E. rewrite n_elements_count by exact Hv. destruct (Nat.ltb 1 (length (elements v))) eqn:E1.
    - replace (Nat.eqb _ _) with true by (symmetry; apply Nat.eqb_eq; exact E). eauto.
    - apply Nat.ltb_ge in E1. destruct t as [|x [|y t]]; cbn in E; [|eauto|lia]. destruct (elements v); [contradiction|discriminate]. }
  destruct b; [|apply G; exact Hl|apply G; exact Hl]. destruct t; [eauto|discriminate].
Qed.

(** The kernels with one hyperparameter, seen in the same way. *)
Inductive leaf : kern -> string -> hval -> hbounds -> option (list R) -> (hval -> kern) -> Prop :=
| leaf_length nu ls lb ml : leaf (KLength nu ls lb ml) "length_scale" ls lb ml (fun v => KLength nu v lb ml)
| leaf_const c cb : leaf (KConst c cb) "constant_value" (HNum c) cb None (fun v => KConst (hd c (elements v)) cb)
| leaf_white n nb : leaf (KWhite n nb) "noise_level" (HNum n) nb None (fun v => KWhite (hd n (elements v)) nb).
Lemma leaf_hypers k n v b ml f : leaf k n v b ml f -> hypers k = (do h <- mk_hyper n b ml (n_elements v); Ok [h]) /\ get_params k = [(n, v)].
Proof. destruct 1; split; reflexivity. Qed.
Lemma leaf_set k n v b ml f t : leaf k n v b ml f ->
  set_theta k t = match (do h <- mk_hyper n b ml (n_elements v); set_value b v t) with Ok w => (f w, Ok tt) | Err e => (k, Err e) end.
Proof.
  intros L. destruct (leaf_hypers _ _ _ _ _ _ L) as [H1 H2].
  assert (E : set_theta k t = match (do l <- hypers k; assign l t (get_params k)) with Ok p => (set_params k p, Ok tt) | Err e => (k, Err e) end)
    by (destruct L; reflexivity).
  rewrite E, H1, H2. destruct (mk_hyper n b ml (n_elements v)) as [h|e] eqn:Eh; [|reflexivity]. cbn [bind].
  rewrite (assign_one n b ml v h t Eh). destruct (set_value b v t) as [w|] eqn:Ew; [|reflexivity]. cbn [bind].
  f_equal. destruct L.
  - cbn [set_params]. cbn [lookup]. reflexivity.
  - unfold set_params. cbn [lookup String.eqb]. cbn. destruct w as [x|l]; [reflexivity|]. unfold set_value in Ew. cbn in Ew.
    destruct cb; destruct t as [|x [|y t]]; discriminate.
  - unfold set_params. cbn. destruct w as [x|l]; [reflexivity|]. unfold set_value in Ew. cbn in Ew.
    destruct nb; destruct t as [|x [|y t]]; discriminate.
Qed.
Lemma leaf_theta k n v b ml f : leaf k n v b ml f ->
  theta k = do h <- mk_hyper n b ml (n_elements v); Ok (map ln (match b with BFixed => [] | _ => elements v end)).
Proof.
  intros L. destruct (leaf_hypers _ _ _ _ _ _ L) as [H1 H2].
  assert (E : theta k = do l <- hypers k; do v <- free_values (get_params k) l; Ok (map ln v)) by (destruct L; reflexivity).
  rewrite E, H1, H2. destruct (mk_hyper n b ml (n_elements v)) as [h|e] eqn:Eh; [|reflexivity]. cbn [bind free_values].
  destruct (mk_made _ _ _ _ _ Eh) as (_ & Hn & _ & _). destruct (mk_fixed _ _ _ _ _ Eh) as [Hf _]. rewrite Hn. cbn [lookup].
  rewrite String.eqb_refl. cbn [bind]. destruct (h_bounds h) eqn:Eb.
  - replace b with BFixed by (symmetry; apply Hf; reflexivity). reflexivity.
  - destruct b; [exfalso; destruct Hf as [_ Hf]; discriminate (Hf eq_refl)| |]; cbn; rewrite app_nil_r; reflexivity.
  - destruct b; [exfalso; destruct Hf as [_ Hf]; discriminate (Hf eq_refl)| |]; cbn; rewrite app_nil_r; reflexivity.
Qed.

(** ** Trees of kernels *)
(** Induction over kernels: one hyperparameter; none that can be listed; two kernels; powers. *)
Definition pair_of (k k1 k2 : kern) (f : kern -> kern -> kern) : Prop := (f = KSum \/ f = KProd) /\ k = f k1 k2.
Definition none (k : kern) : Prop := match k with KRQ _ _ | KExpSine _ _ | KDot _ => True | _ => False end.
Lemma kern_cases (P : kern -> Prop) :
  (forall k n v b ml f, leaf k n v b ml f -> P k) ->
  (forall k, none k -> P k) ->
  (forall k k1 k2 f, pair_of k k1 k2 f -> P k1 -> P k2 -> P k) ->
  (forall k e, P k -> P (KPow k e)) -> forall k, P k.
Proof.
  intros H1 H2 H3 H4 k. induction k as [nu ls lb ml|c cb|n nb|ls a|ls p|s|k1 IH1 k2 IH2|k1 IH1 k2 IH2|k IH e].
  - eapply H1. constructor.
  - eapply H1. constructor.
  - eapply H1. constructor.
  - apply H2; exact I.
  - apply H2; exact I.
  - apply H2; exact I.
  - apply (H3 _ k1 k2 KSum); auto. split; auto.
  - apply (H3 _ k1 k2 KProd); auto. split; auto.
  - auto.
Qed.
Lemma none_theta k : none k -> theta k = Err TypeError /\ hypers k = Err TypeError /\ free k = O /\ forall t, set_theta k t = (k, Err TypeError).
Proof. destruct k; cbn; try contradiction; repeat split; auto. Qed.
Lemma leaf_free k n v b ml f : leaf k n v b ml f -> free k = count v b.
Proof. destruct 1; reflexivity. Qed.
Lemma leaf_sensible k n v b ml f : leaf k n v b ml f -> sensible k -> elements v <> [] /\ pos_bounds b ml.
Proof. destruct 1; cbn; auto; intros H; (split; [discriminate|exact H]). Qed.
Lemma pair_theta k k1 k2 f : pair_of k k1 k2 f -> theta k = do t1 <- theta k1; do t2 <- theta k2; Ok (t1 ++ t2)%list.
Proof. intros [[-> | ->] ->]; reflexivity. Qed.
Lemma pair_set k k1 k2 f t : pair_of k k1 k2 f -> set_theta k t =
  match theta k1 with
  | Err e => (k, Err e)
  | Ok t1 =>
      match set_theta k1 (firstn (length t1) t) with
      | (k1', Err e) => (f k1' k2, Err e)
      | (k1', Ok _) => let (k2', r) := set_theta k2 (skipn (length t1) t) in (f k1' k2', r)
      end
  end.
Proof. intros [[-> | ->] ->]; reflexivity. Qed.
Lemma pair_free k k1 k2 f : pair_of k k1 k2 f -> free k = (free k1 + free k2)%nat.
Proof. intros [[-> | ->] ->]; reflexivity. Qed.
Lemma pair_sensible k k1 k2 f : pair_of k k1 k2 f -> sensible k -> sensible k1 /\ sensible k2.
Proof. intros [[-> | ->] ->]; auto. Qed.
Lemma pair_usable k k1 k2 f : pair_of k k1 k2 f -> (usable k <-> usable k1 /\ usable k2).
Proof. intros [[-> | ->] ->]; reflexivity. Qed.
Lemma pair_or k k1 k2 f : pair_of k k1 k2 f -> k = KSum k1 k2 \/ k = KProd k1 k2.
Proof. intros [[-> | ->] ->]; auto. Qed.

Lemma theta_free k : forall t, theta k = Ok t -> length t = free k.
Proof.
  induction k as [k n v b ml f L|k N|k k1 k2 f Hp IH1 IH2|k e IH] using kern_cases; intros t H.
  - rewrite (leaf_theta _ _ _ _ _ _ L) in H. destruct (mk_hyper n b ml (n_elements v)); [|discriminate]. injection H as <-.
    rewrite map_length, (leaf_free _ _ _ _ _ _ L). destruct b; reflexivity.
  - destruct (none_theta k N) as (N1 & N2 & N3 & N4). congruence.
  - rewrite (pair_theta _ _ _ _ Hp) in H. destruct (theta k1) as [t1|] eqn:E1; [|discriminate].
    destruct (theta k2) as [t2|] eqn:E2; [|discriminate]. injection H as <-. rewrite app_length, (pair_free _ _ _ _ Hp), (IH1 _ eq_refl), (IH2 _ eq_refl). reflexivity.
  - exact (IH t H).
Qed.
Lemma theta_exists k : (exists l, hypers k = Ok l) -> exists t, theta k = Ok t.
Proof.
  induction k as [k n v b ml f L|k N|k k1 k2 f Hp IH1 IH2|k e IH] using kern_cases; intros [l H].
  - rewrite (leaf_theta _ _ _ _ _ _ L). destruct (leaf_hypers _ _ _ _ _ _ L) as [H1 _]. rewrite H1 in H.
    destruct (mk_hyper n b ml (n_elements v)); [|discriminate]. cbn [bind]. eauto.
  - destruct (none_theta k N) as (N1 & N2 & N3 & N4). congruence.
  - destruct (hypers_both _ _ _ _ (pair_or _ _ _ _ Hp) H) as (l1 & l2 & E1 & E2 & _).
    destruct IH1 as [t1 T1]; [eauto|]. destruct IH2 as [t2 T2]; [eauto|].
    rewrite (pair_theta _ _ _ _ Hp), T1, T2. cbn [bind]. eauto.
  - apply IH. destruct (hypers_pow _ _ _ H) as (l1 & E1 & _). eauto.
Qed.
Lemma theta_usable k : forall t, theta k = Ok t -> usable k.
Proof.
  induction k as [k n v b ml f L|k N|k k1 k2 f Hp IH1 IH2|k e IH] using kern_cases; intros t H.
  - destruct L; exact I.
  - destruct (none_theta k N) as (N1 & N2 & N3 & N4). congruence.
  - rewrite (pair_theta _ _ _ _ Hp) in H. destruct (theta k1) as [t1|] eqn:E1; [|discriminate].
    destruct (theta k2) as [t2|] eqn:E2; [|discriminate]. apply (pair_usable _ _ _ _ Hp). eauto.
  - exact (IH t H).
Qed.

(** Setting [theta]. *)

Lemma n_elements_max v : n_elements v = Nat.max 1 (length (elements v)).
Proof. destruct v as [x|[|a [|b l]]]; reflexivity. Qed.
Lemma alike_refl k : alike k k.
Proof.
  induction k as [nu ls lb ml|c cb|n nb|ls a|ls p|s|k1 IH1 k2 IH2|k1 IH1 k2 IH2|k IH e]; cbn; auto. repeat split; auto.
Qed.
Lemma alike_trans k : forall k' k'', alike k k' -> alike k' k'' -> alike k k''.
Proof.
  induction k as [nu ls lb ml|c cb|n nb|ls a|ls p|s|k1 IH1 k2 IH2|k1 IH1 k2 IH2|k IH e]; intros k' k'' H H'; destruct k'; cbn in H; try discriminate;
    try (injection H as -> -> || injection H as ->); destruct k''; cbn in H' |- *; try discriminate; try congruence.
  - destruct H as (-> & -> & -> & H1 & H2). destruct H' as (-> & -> & -> & H3 & H4). repeat split; [congruence|].
    intros E. rewrite (H4 E). auto.
  - destruct H as (-> & H1). destruct H' as (-> & H3). split; [reflexivity|]. intros E. rewrite (H3 E). auto.
  - destruct H as (-> & H1). destruct H' as (-> & H3). split; [reflexivity|]. intros E. rewrite (H3 E). auto.
  - destruct H, H'. eauto.
  - destruct H, H'. eauto.
  - destruct H as [-> H], H' as [-> H']. eauto.
Qed.
(** Kernels that are alike have the same specifications, bounds and number of values. *)
Lemma alike_leaf k n v b ml f k' : leaf k n v b ml f -> alike k k' ->
  exists v' f', leaf k' n v' b ml f' /\ length (elements v') = length (elements v) /\ (b = BFixed -> v' = v) /\
    (forall w, (b <> BFixed -> elements w <> []) -> f' w = f w \/ (b = BFixed)) /\ (b = BFixed -> f' v' = f v).
Proof.
  intros L A. destruct L; destruct k' as [nu' ls' lb' ml'|c' cb'|n' nb'| | | | | | ]; cbn in A; try discriminate; try contradiction.
  - destruct A as (-> & -> & -> & A1 & A2). do 2 eexists. split; [constructor|]. repeat split; auto. intros E. rewrite (A2 E). reflexivity.
  - destruct A as (-> & A2). do 2 eexists. split; [constructor|]. repeat split; auto.
    + intros E. rewrite (A2 E). reflexivity.
    + intros w Hw. destruct cb; [right; reflexivity|left|left]; destruct (elements w); try reflexivity; contradiction Hw; discriminate || reflexivity.
    + intros E. rewrite (A2 E). reflexivity.
  - destruct A as (-> & A2). do 2 eexists. split; [constructor|]. repeat split; auto.
    + intros E. rewrite (A2 E). reflexivity.
    + intros w Hw. destruct nb; [right; reflexivity|left|left]; destruct (elements w); try reflexivity; contradiction Hw; discriminate || reflexivity.
    + intros E. rewrite (A2 E). reflexivity.
Qed.
Lemma alike_pair k k1 k2 f k' : pair_of k k1 k2 f -> alike k k' -> exists k1' k2', pair_of k' k1' k2' f /\ alike k1 k1' /\ alike k2 k2'.
Proof.
  intros [[-> | ->] ->] A; destruct k'; cbn in A; try discriminate; try contradiction; destruct A as [A1 A2];
    do 2 eexists; (split; [split; [|reflexivity]|split; eassumption]); auto.
Qed.
Lemma alike_pow k e k' : alike (KPow k e) k' -> exists k1, k' = KPow k1 e /\ alike k k1.
Proof. destruct k'; cbn; try discriminate; try contradiction. intros [-> A]. eauto. Qed.

Lemma rows_length_dyn ml : forall n t r, dynamic_rows ml t n = Ok r -> length r = n /\
  exists l, (n = O \/ ml = Some l) /\ forall i x, nth_error r i = Some x -> option_map (fun m => (m / 1000, m * 100)) (nth_error l (t + i)) = Some x.
Proof.
  induction n as [|n IH]; intros t r H; cbn [dynamic_rows] in H.
  - injection H as <-. split; [reflexivity|]. exists []. split; [auto|]. intros [|i] x Hx; discriminate.
  - destruct ml as [l|]; [|discriminate]. destruct (nth_error l t) as [m|] eqn:Em; [|discriminate]. cbn [bind] in H.
    destruct (dynamic_rows (Some l) (S t) n) as [r'|] eqn:E; [|discriminate]. injection H as <-.
    destruct (IH _ _ E) as (L & l' & Hl & Hr). split; [cbn; lia|]. exists l. split; [auto|]. intros [|i] x Hx.
    + injection Hx as <-. rewrite Nat.add_0_r, Em. reflexivity.
    + cbn in Hx. rewrite Nat.add_succ_r. change (S (t + i)) with (S t + i)%nat. destruct Hl as [-> | Hl].
      * destruct r'; [destruct i; discriminate|discriminate].
      * injection Hl as <-. apply Hr. exact Hx.
Qed.
(** The rows of one hyperparameter are at least as many as its values, and are those given for them. *)
Lemma leaf_bounds k n v b ml f B : leaf k n v b ml f -> bounds k = Ok B ->
  exists rows, B = map ln_row rows /\ (count v b <= length rows)%nat /\
    (b <> BFixed -> forall i r, nth_error rows i = Some r -> given b ml i = Some r) /\ (b = BFixed -> rows = []).
Proof.
  intros L H. destruct (leaf_hypers _ _ _ _ _ _ L) as [H1 H2]. unfold bounds in H. rewrite H1, H2 in H.
  destruct (mk_hyper n b ml (n_elements v)) as [h|] eqn:Eh; [|discriminate]. cbn [bind] in H.
  destruct (bound_rows [(n, v)] [h]) as [rows|] eqn:Er; [|discriminate]. injection H as <-. exists rows. split; [reflexivity|].
  destruct (mk_made _ _ _ _ _ Eh) as (_ & Hn & Hm & Hc). cbn [bound_rows] in Er. rewrite Hn, Hm in Er. cbn [lookup] in Er. rewrite String.eqb_refl in Er.
  unfold mk_hyper in Eh. destruct b as [| |r m].
  - injection Eh as <-. cbn in Er. injection Er as <-. repeat split; auto. congruence.
  - injection Eh as <-. cbn [h_bounds bind] in Er. destruct (dynamic_rows ml 0 (length (elements v))) as [r1|] eqn:Ed; [|discriminate]. cbn in Er. rewrite app_nil_r in Er. injection Er as <-.
    destruct (rows_length_dyn _ _ _ _ Ed) as (Hl & l & Hml & Hr). repeat split.
    + cbn. lia.
    + intros _ i x Hx. cbn. destruct Hml as [E0 | ->].
      * rewrite E0 in Hl. destruct r1; [destruct i; discriminate|discriminate].
      * apply (Hr i x Hx).
    + discriminate.
  - assert (G : exists r' m', h_bounds h = BRows r' m' /\ (length (elements v) <= S (length m'))%nat /\ forall i x, nth_error (r' :: m') i = Some x -> given (BRows r m) ml i = Some x).
    { rewrite n_elements_max in Eh. destruct (Nat.ltb 1 (Nat.max 1 (length (elements v)))) eqn:E1.
      - apply Nat.ltb_lt in E1. destruct m as [|r2 m].
        + injection Eh as <-. cbn [h_bounds]. exists r, (repeat r (Nat.max 1 (length (elements v)) - 1)). split; [reflexivity|]. rewrite repeat_length. split; [lia|].
          intros i x Hx. cbn [given]. change (r :: repeat r (Nat.max 1 (length (elements v)) - 1)) with (repeat r (S (Nat.max 1 (length (elements v)) - 1))) in Hx.
          apply nth_error_In, repeat_spec in Hx. congruence.
        + destruct (Nat.eqb _ _) eqn:E2; [|discriminate]. apply Nat.eqb_eq in E2. injection Eh as <-. do 2 eexists. split; [reflexivity|]. split; [lia|]. intros i x Hx. exact Hx.
      - apply Nat.ltb_ge in E1. injection Eh as <-. do 2 eexists. split; [reflexivity|]. split; [lia|]. intros i x Hx. cbn. destruct m; [|exact Hx].
        destruct i; [exact Hx|destruct i; discriminate]. }
    destruct G as (r' & m' & Hb & Hl & Hg). rewrite Hb in Er. cbn [bind] in Er. rewrite app_nil_r in Er. injection Er as <-. repeat split.
    + cbn. lia.
    + intros _ i x Hx. apply Hg. exact Hx.
    + discriminate.
Qed.
Lemma bounds_free k : forall B, bounds k = Ok B -> (free k <= length B)%nat.
Proof.
  induction k as [k n v b ml f L|k N|k k1 k2 f Hp IH1 IH2|k e IH] using kern_cases; intros B H.
  - destruct (leaf_bounds _ _ _ _ _ _ _ L H) as (rows & -> & Hc & _). rewrite map_length, (leaf_free _ _ _ _ _ _ L). exact Hc.
  - destruct (none_theta k N) as (_ & _ & N3 & _). rewrite N3. lia.
  - destruct (bounds_both _ _ _ _ (pair_or _ _ _ _ Hp) H) as (B1 & B2 & E1 & E2 & ->). rewrite app_length, (pair_free _ _ _ _ Hp).
    specialize (IH1 _ E1). specialize (IH2 _ E2). lia.
  - rewrite bounds_pow in H. exact (IH B H).
Qed.

(** ** Setting [theta] *)
(** The value after setting it: the elements are those of the new value. *)
Lemma leaf_put k n v b ml f w : leaf k n v b ml f -> length (elements w) = length (elements v) -> (b = BFixed -> w = v) ->
  alike k (f w) /\ exists v' f', leaf (f w) n v' b ml f' /\ elements v' = elements w.
Proof.
  intros L Hl Hw. destruct L.
  - split; [cbn; repeat split; auto|]. do 2 eexists. split; [constructor|reflexivity].
  - split.
    + cbn. split; [reflexivity|]. intros E. rewrite (Hw E). reflexivity.
    + do 2 eexists. split; [constructor|]. cbn in Hl. destruct (elements w) as [|a [|a' l]]; [discriminate|reflexivity|discriminate].
  - split.
    + cbn. split; [reflexivity|]. intros E. rewrite (Hw E). reflexivity.
    + do 2 eexists. split; [constructor|]. cbn in Hl. destruct (elements w) as [|a [|a' l]]; [discriminate|reflexivity|discriminate].
Qed.
Lemma pair_alike k k1 k2 f k1' k2' : pair_of k k1 k2 f -> alike k1 k1' -> alike k2 k2' -> alike k (f k1' k2').
Proof. intros [[-> | ->] ->] A1 A2; cbn; auto. Qed.
Lemma pair_again k k1 k2 f k1' k2' : pair_of k k1 k2 f -> pair_of (f k1' k2') k1' k2' f.
Proof. intros [[-> | ->] ->]; split; auto. Qed.
(** What setting [theta] of a sum or product does. *)
Lemma pair_set_ok k k1 k2 f t k' : pair_of k k1 k2 f -> set_theta k t = (k', Ok tt) ->
  exists t1 k1' k2', theta k1 = Ok t1 /\ set_theta k1 (firstn (length t1) t) = (k1', Ok tt) /\
    set_theta k2 (skipn (length t1) t) = (k2', Ok tt) /\ k' = f k1' k2'.
Proof.
  intros Hp H. rewrite (pair_set _ _ _ _ t Hp) in H. destruct (theta k1) as [t1|]; [|discriminate].
  destruct (set_theta k1 (firstn (length t1) t)) as [k1' [[]|]] eqn:E1; [|discriminate].
  destruct (set_theta k2 (skipn (length t1) t)) as [k2' r] eqn:E2. injection H as <- ->. exists t1, k1', k2'. auto.
Qed.
Lemma ln_exp_all t : map ln (map exp t) = t.
Proof. rewrite map_map. rewrite <- (map_id t) at 2. apply map_ext. intros. apply ln_exp. Qed.
Lemma set_shape k : forall t k', sensible k -> set_theta k t = (k', Ok tt) -> length t = free k /\ alike k k' /\ theta k' = Ok t.
Proof.
  induction k as [k n v b ml f L|k N|k k1 k2 f Hp IH1 IH2|k e IH] using kern_cases; intros t k' S H.
  - destruct (leaf_sensible _ _ _ _ _ _ L S) as [S1 _]. rewrite (leaf_set _ _ _ _ _ _ t L) in H.
    destruct (mk_hyper n b ml (n_elements v)) as [h|] eqn:Eh; [|discriminate]. cbn [bind] in H.
    destruct (set_value b v t) as [w|] eqn:Ew; [|discriminate]. injection H as <-.
    destruct (set_value_count _ _ _ _ S1 Ew) as (H1 & H2 & H3 & H4). rewrite (leaf_free _ _ _ _ _ _ L).
    destruct (leaf_put _ _ _ _ _ _ w L H2 H3) as (A & v' & f' & L' & Hv'). repeat split; auto.
    rewrite (leaf_theta _ _ _ _ _ _ L'). rewrite n_elements_max, Hv', H2, <- n_elements_max, Eh. cbn [bind].
    destruct b.
    + unfold count in H1. destruct t; [reflexivity|discriminate].
    + rewrite H4, ln_exp_all by discriminate. reflexivity.
    + rewrite H4, ln_exp_all by discriminate. reflexivity.
  - destruct (none_theta k N) as (_ & _ & _ & N4). rewrite N4 in H. discriminate.
  - destruct (pair_sensible _ _ _ _ Hp S) as [S1 S2].
    destruct (pair_set_ok _ _ _ _ _ _ Hp H) as (t1 & k1' & k2' & T1 & E1 & E2 & ->).
    destruct (IH1 _ _ S1 E1) as (L1 & A1 & B1). destruct (IH2 _ _ S2 E2) as (L2 & A2 & B2). repeat split.
    + rewrite (pair_free _ _ _ _ Hp), <- L1, <- L2, <- app_length, firstn_skipn. reflexivity.
    + apply (pair_alike _ _ _ _ _ _ Hp); auto.
    + rewrite (pair_theta _ _ _ _ (pair_again _ _ _ _ _ _ Hp)), B1, B2. cbn [bind]. rewrite firstn_skipn. reflexivity.
  - cbn [set_theta] in H. destruct (set_theta k t) as [k1' r] eqn:E1. injection H as <- ->.
    destruct (IH _ _ S E1) as (L1 & A1 & B1). repeat split; auto.
Qed.
Lemma set_exists k : forall t l, sensible k -> hypers k = Ok l -> length t = free k -> exists k', set_theta k t = (k', Ok tt).
Proof.
  induction k as [k n v b ml f L|k N|k k1 k2 f Hp IH1 IH2|k e IH] using kern_cases; intros t l S Hh Ht.
  - destruct (leaf_sensible _ _ _ _ _ _ L S) as [S1 _]. rewrite (leaf_set _ _ _ _ _ _ t L). destruct (leaf_hypers _ _ _ _ _ _ L) as [H1 _].
    rewrite H1 in Hh. destruct (mk_hyper n b ml (n_elements v)) as [h|] eqn:Eh; [|discriminate]. cbn [bind].
    rewrite (leaf_free _ _ _ _ _ _ L) in Ht. destruct (set_value_some b v t S1 Ht) as [w ->]. eauto.
  - destruct (none_theta k N) as (_ & N2 & _ & N4). congruence.
  - destruct (pair_sensible _ _ _ _ Hp S) as [S1 S2].
    destruct (hypers_both _ _ _ _ (pair_or _ _ _ _ Hp) Hh) as (l1 & l2 & E1 & E2 & _).
    destruct (theta_exists k1 (ex_intro _ _ E1)) as [t1 T1]. pose proof (theta_free _ _ T1) as F1.
    rewrite (pair_free _ _ _ _ Hp) in Ht. rewrite (pair_set _ _ _ _ t Hp), T1.
    destruct (IH1 (firstn (length t1) t) l1 S1 E1) as [k1' ->]; [rewrite firstn_length; lia|].
    destruct (IH2 (skipn (length t1) t) l2 S2 E2) as [k2' ->]; [rewrite skipn_length; lia|]. eauto.
  - destruct (hypers_pow _ _ _ Hh) as (l1 & E1 & _). destruct (IH t l1 S E1 Ht) as [k' E]. cbn [set_theta]. rewrite E. eauto.
Qed.
Lemma Forall2_len {A C} (P : A -> C -> Prop) a b : Forall2 P a b -> length a = length b.
Proof. induction 1; cbn; congruence. Qed.
Lemma Forall2_nth {A C} (P : A -> C -> Prop) a b : Forall2 P a b -> forall i x, nth_error a i = Some x -> exists y, nth_error b i = Some y /\ P x y.
Proof.
  induction 1 as [|x y a b H _ IH]; intros i z Hz; [destruct i; discriminate|]. destruct i; [injection Hz as <-; cbn; eauto|]. apply IH. exact Hz.
Qed.
Lemma given_pos b ml i r : pos_bounds b ml -> given b ml i = Some r -> 0 < fst r /\ 0 < snd r.
Proof.
  intros [H1 H2] H. destruct b as [| |r0 m]; cbn [given] in H; [discriminate| |].
  - destruct ml as [l|]; [|discriminate]. destruct (nth_error l i) as [x|] eqn:E; [|discriminate]. injection H as <-. cbn.
    assert (0 < x) by (apply nth_error_In in E; rewrite Forall_forall in H2; apply H2; exact E). split; lra.
  - rewrite Forall_forall in H1. apply H1. cbn [rows_of]. destruct m as [|r1 m].
    + injection H as <-. left; reflexivity.
    + apply nth_error_In in H. exact H.
Qed.
Lemma leaf_respects k n v b ml f : leaf k n v b ml f -> (respects k <-> inside v b ml).
Proof. destruct 1; reflexivity. Qed.
Lemma pair_respects k k1 k2 f : pair_of k k1 k2 f -> respects k1 -> respects k2 -> respects k.
Proof. intros [[-> | ->] ->]; cbn; auto. Qed.
(** Values within the bounds that the kernel reports are within the bounds that were given. *)
Lemma set_respects k : forall t k' B, sensible k -> bounds k = Ok B -> Forall2 (fun x r => fst r <= x <= snd r) t B ->
  set_theta k t = (k', Ok tt) -> respects k'.
Proof.
  induction k as [k n v b ml f L|k N|k k1 k2 f Hp IH1 IH2|k e IH] using kern_cases; intros t k' B S HB HF H.
  - destruct (leaf_sensible _ _ _ _ _ _ L S) as [S1 S2]. rewrite (leaf_set _ _ _ _ _ _ t L) in H.
    destruct (mk_hyper n b ml (n_elements v)) as [h|] eqn:Eh; [|discriminate]. cbn [bind] in H.
    destruct (set_value b v t) as [w|] eqn:Ew; [|discriminate]. injection H as <-.
    destruct (set_value_count _ _ _ _ S1 Ew) as (H1 & H2 & H3 & H4).
    destruct (leaf_put _ _ _ _ _ _ w L H2 H3) as (_ & v' & f' & L' & Hv'). rewrite (leaf_respects _ _ _ _ _ _ L').
    destruct (leaf_bounds _ _ _ _ _ _ _ L HB) as (rows & -> & _ & Hg & _). unfold inside. rewrite Hv'.
    destruct b as [| |r m]; [left; reflexivity|right|right].
    + rewrite H4 by discriminate. intros i x Hx. rewrite nth_error_map in Hx. destruct (nth_error t i) as [y|] eqn:Ey; [|discriminate]. injection Hx as <-.
      destruct (Forall2_nth _ _ _ HF i y Ey) as (r & Hr & Hin). rewrite nth_error_map in Hr. destruct (nth_error rows i) as [r0|] eqn:Er; [|discriminate].
      injection Hr as <-. cbn in Hin. pose proof (Hg ltac:(discriminate) i r0 Er) as Hg0. destruct (given_pos _ _ _ _ S2 Hg0) as [P1 P2].
      exists (fst r0), (snd r0). rewrite Hg0. split; [destruct r0; reflexivity|].
      split; [rewrite <- (exp_ln (fst r0)) by exact P1|rewrite <- (exp_ln (snd r0)) by exact P2].
      * destruct (proj1 Hin) as [C|C]; [left; apply exp_increasing; exact C|right; rewrite C; reflexivity].
      * destruct (proj2 Hin) as [C|C]; [left; apply exp_increasing; exact C|right; rewrite C; reflexivity].
    + rewrite H4 by discriminate. intros i x Hx. rewrite nth_error_map in Hx. destruct (nth_error t i) as [y|] eqn:Ey; [|discriminate]. injection Hx as <-.
      destruct (Forall2_nth _ _ _ HF i y Ey) as (r' & Hr & Hin). rewrite nth_error_map in Hr. destruct (nth_error rows i) as [r0|] eqn:Er; [|discriminate].
      injection Hr as <-. cbn in Hin. pose proof (Hg ltac:(discriminate) i r0 Er) as Hg0. destruct (given_pos _ _ _ _ S2 Hg0) as [P1 P2].
      exists (fst r0), (snd r0). rewrite Hg0. split; [destruct r0; reflexivity|].
      split; [rewrite <- (exp_ln (fst r0)) by exact P1|rewrite <- (exp_ln (snd r0)) by exact P2].
      * destruct (proj1 Hin) as [C|C]; [left; apply exp_increasing; exact C|right; rewrite C; reflexivity].
      * destruct (proj2 Hin) as [C|C]; [left; apply exp_increasing; exact C|right; rewrite C; reflexivity].
  - destruct (none_theta k N) as (_ & _ & _ & N4). rewrite N4 in H. discriminate.
  - destruct (pair_sensible _ _ _ _ Hp S) as [S1 S2].
    destruct (pair_set_ok _ _ _ _ _ _ Hp H) as (t1 & k1' & k2' & T1 & E1 & E2 & ->).
    destruct (bounds_both _ _ _ _ (pair_or _ _ _ _ Hp) HB) as (B1 & B2 & EB1 & EB2 & ->).
    destruct (set_shape _ _ _ S1 E1) as (L1 & _ & _). destruct (set_shape _ _ _ S2 E2) as (L2 & _ & _).
    pose proof (theta_free _ _ T1) as F1. pose proof (bounds_free _ _ EB1) as G1. pose proof (bounds_free _ _ EB2) as G2.
    pose proof (Forall2_len _ _ _ HF) as HL. rewrite app_length in HL. rewrite firstn_length in L1. rewrite skipn_length in L2.
    assert (HB1 : length B1 = length t1) by lia.
    rewrite <- (firstn_skipn (length t1) t) in HF. apply Forall2_app_inv_l in HF. destruct HF as (C1 & C2 & HC1 & HC2 & EC).
    assert (C1 = B1 /\ C2 = B2) as [-> ->].
    { pose proof (Forall2_len _ _ _ HC1) as LC. rewrite firstn_length in LC. assert (LC' : length C1 = length B1) by lia. clear -EC LC'.
      revert B1 EC LC'. induction C1 as [|c C1 IH]; intros [|b B1] EC LC'; cbn in *; try discriminate; [auto|].
      injection EC as -> EC. destruct (IH B1 EC) as [-> ->]; [lia|]. auto. }
    apply (pair_respects _ _ _ _ (pair_again _ _ _ _ _ _ Hp)); [eapply IH1|eapply IH2]; eassumption.
  - rewrite bounds_pow in HB. cbn [set_theta] in H. destruct (set_theta k t) as [k1' r] eqn:E1. injection H as <- ->.
    cbn [respects]. eapply IH; eassumption.
Qed.

(** ** Kernels that are alike *)
Lemma leaf_unique k n v b ml f : leaf k n v b ml f -> none k -> False.
Proof. destruct 1; exact (fun x => x). Qed.
Lemma alike_hypers k : forall k', alike k k' -> hypers k' = hypers k.
Proof.
  induction k as [k n v b ml f L|k N|k k1 k2 f Hp IH1 IH2|k e IH] using kern_cases; intros k' A.
  - destruct (alike_leaf _ _ _ _ _ _ _ L A) as (v' & f' & L' & Hl & _). destruct (leaf_hypers _ _ _ _ _ _ L) as [-> _].
    destruct (leaf_hypers _ _ _ _ _ _ L') as [-> _]. rewrite !n_elements_max, Hl. reflexivity.
  - destruct k; cbn in N; try contradiction; cbn in A; subst; reflexivity.
  - destruct (alike_pair _ _ _ _ _ Hp A) as (k1' & k2' & Hp' & A1 & A2).
    destruct Hp as [[-> | ->] ->], Hp' as [_ ->]; cbn [hypers]; rewrite (IH1 _ A1), (IH2 _ A2); reflexivity.
  - destruct (alike_pow _ _ _ A) as (k1 & -> & A1). cbn [hypers]. rewrite (IH _ A1). reflexivity.
Qed.
Lemma alike_free k : forall k', alike k k' -> free k' = free k.
Proof.
  induction k as [k n v b ml f L|k N|k k1 k2 f Hp IH1 IH2|k e IH] using kern_cases; intros k' A.
  - destruct (alike_leaf _ _ _ _ _ _ _ L A) as (v' & f' & L' & Hl & _). rewrite (leaf_free _ _ _ _ _ _ L), (leaf_free _ _ _ _ _ _ L').
    unfold count. rewrite Hl. reflexivity.
  - destruct k; cbn in N; try contradiction; cbn in A; subst; reflexivity.
  - destruct (alike_pair _ _ _ _ _ Hp A) as (k1' & k2' & Hp' & A1 & A2).
    rewrite (pair_free _ _ _ _ Hp), (pair_free _ _ _ _ Hp'), (IH1 _ A1), (IH2 _ A2). reflexivity.
  - destruct (alike_pow _ _ _ A) as (k1 & -> & A1). exact (IH _ A1).
Qed.
Lemma alike_sensible k : forall k', alike k k' -> sensible k -> sensible k'.
Proof.
  induction k as [nu ls lb ml|c cb|n nb|ls a|ls p|s|k1 IH1 k2 IH2|k1 IH1 k2 IH2|k IH e]; intros k' A S; destruct k'; cbn in A; try discriminate; try contradiction; cbn in S |- *; auto.
  - destruct A as (-> & -> & -> & A1 & _). split; [|tauto]. intros E. rewrite E in A1. cbn in A1. destruct (elements ls); [tauto|discriminate].
  - destruct A as (-> & _). exact S.
  - destruct A as (-> & _). exact S.
  - destruct A, S; auto.
  - destruct A, S; auto.
  - destruct A; auto.
Qed.
Lemma bounds_alike k : forall k' B, alike k k' -> bounds k = Ok B -> bounds k' = Ok B.
Proof.
  induction k as [k n v b ml f L|k N|k k1 k2 f Hp IH1 IH2|k e IH] using kern_cases; intros k' B A H.
  - destruct (alike_leaf _ _ _ _ _ _ _ L A) as (v' & f' & L' & Hl & _). destruct (leaf_hypers _ _ _ _ _ _ L) as [H1 H2].
    destruct (leaf_hypers _ _ _ _ _ _ L') as [H1' H2']. unfold bounds in *. rewrite H1', H2'. rewrite H1, H2 in H.
    rewrite n_elements_max, Hl, <- n_elements_max. destruct (mk_hyper n b ml (n_elements v)) as [h|] eqn:Eh; [|discriminate]. cbn [bind bound_rows] in *.
    destruct (mk_made _ _ _ _ _ Eh) as (_ & Hn & _). rewrite Hn in *. cbn [lookup] in *. rewrite String.eqb_refl in *. cbn [bind] in *.
    rewrite Hl. exact H.
  - destruct k; cbn in N; try contradiction; cbn in A; subst; exact H.
  - destruct (alike_pair _ _ _ _ _ Hp A) as (k1' & k2' & Hp' & A1 & A2).
    pose proof H as H0. destruct (bounds_both _ _ _ _ (pair_or _ _ _ _ Hp) H0) as (B1 & B2 & EB1 & EB2 & EB).
    specialize (IH1 _ _ A1 EB1). specialize (IH2 _ _ A2 EB2).
    unfold bounds in H |- *. rewrite (alike_hypers _ _ A). destruct (hypers k) as [l|] eqn:El; [|discriminate]. cbn [bind] in H |- *.
    destruct (hypers_both _ _ _ _ (pair_or _ _ _ _ Hp) El) as (l1 & l2 & E1 & E2 & ->).
    assert (Hpar : get_params k' = under "k1__" (get_params k1') ++ under "k2__" (get_params k2')) by (destruct Hp' as [[-> | ->] ->]; reflexivity).
    unfold bounds in IH1, IH2. rewrite (alike_hypers _ _ A1), E1 in IH1. rewrite (alike_hypers _ _ A2), E2 in IH2. cbn [bind] in IH1, IH2.
    destruct (bound_rows (get_params k1') l1) as [r1|] eqn:R1; [|discriminate]. destruct (bound_rows (get_params k2') l2) as [r2|] eqn:R2; [|discriminate].
    injection IH1 as <-. injection IH2 as <-.
    assert (R : bound_rows (get_params k') (map (renamed "k1__") l1 ++ map (renamed "k2__") l2) = Ok (r1 ++ r2)).
    { rewrite Hpar.
      assert (X1 : bound_rows (under "k1__" (get_params k1') ++ under "k2__" (get_params k2')) (map (renamed "k1__") l1) = Ok r1)
        by (rewrite (bound_rows_renamed _ (get_params k1')) by (intros; apply lookup_first); exact R1).
      assert (X2 : bound_rows (under "k1__" (get_params k1') ++ under "k2__" (get_params k2')) (map (renamed "k2__") l2) = Ok r2)
        by (rewrite (bound_rows_renamed _ (get_params k2')) by (intros; apply lookup_second); exact R2).
      apply bound_rows_join; assumption. }
    rewrite R. cbn [bind]. rewrite map_app. congruence.
  - destruct (alike_pow _ _ _ A) as (k1 & -> & A1). rewrite bounds_pow in H |- *. exact (IH _ _ A1 H).
Qed.
(** The new values replace all that are not fixed. *)
Lemma alike_set k : forall k' t a, sensible k -> alike k k' -> set_theta k t = (a, Ok tt) -> set_theta k' t = (a, Ok tt).
Proof.
  induction k as [k n v b ml f L|k N|k k1 k2 f Hp IH1 IH2|k e IH] using kern_cases; intros k' t a S A H.
  - destruct (leaf_sensible _ _ _ _ _ _ L S) as [S1 _].
    destruct (alike_leaf _ _ _ _ _ _ _ L A) as (v' & f' & L' & Hl & Hv & Hf & Hff). rewrite (leaf_set _ _ _ _ _ _ t L) in H.
    rewrite (leaf_set _ _ _ _ _ _ t L'). assert (En : n_elements v' = n_elements v) by (rewrite !n_elements_max, Hl; reflexivity).
    rewrite En. destruct (mk_hyper n b ml (n_elements v)) as [h|]; [|discriminate]. cbn [bind] in *.
    destruct (set_value b v t) as [w|] eqn:Ew; [|discriminate]. injection H as <-.
    destruct (set_value_count _ _ _ _ S1 Ew) as (H1 & H2 & H3 & H4).
    assert (Ew' : set_value b v' t = do _ <- Ok w; match b with BFixed => Ok v' | _ => Ok w end).
    { unfold set_value in *. rewrite En. destruct b; cbn [bind]; auto. destruct t; [reflexivity|discriminate]. }
    rewrite Ew'. cbn [bind].
    assert (Hw : elements w <> []) by (intros C; rewrite C in H2; destruct (elements v); [contradiction|discriminate]).
    destruct b.
    + rewrite (Hff eq_refl), (H3 eq_refl). reflexivity.
    + destruct (Hf w (fun _ => Hw)) as [-> | C]; [reflexivity|discriminate].
    + destruct (Hf w (fun _ => Hw)) as [-> | C]; [reflexivity|discriminate].
  - destruct (none_theta k N) as (_ & _ & _ & N4). rewrite N4 in H. discriminate.
  - destruct (pair_sensible _ _ _ _ Hp S) as [S1 S2].
    destruct (pair_set_ok _ _ _ _ _ _ Hp H) as (t1 & k1' & k2' & T1 & E1 & E2 & ->).
    destruct (alike_pair _ _ _ _ _ Hp A) as (k1'' & k2'' & Hp' & A1 & A2). rewrite (pair_set _ _ _ _ t Hp').
    assert (T1' : exists t1', theta k1'' = Ok t1' /\ length t1' = length t1).
    { assert (exists l, hypers k1 = Ok l) as [l El].
      { destruct (hypers k1) as [l|e0] eqn:El; [eauto|exfalso]. clear -El T1. revert t1 T1 e0 El.
        induction k1 as [k n v b ml f L|k N|k k1 k2 f Hp IH1 IH2|k e IH] using kern_cases; intros t1 T1 e0 El.
        - rewrite (leaf_theta _ _ _ _ _ _ L) in T1. destruct (leaf_hypers _ _ _ _ _ _ L) as [H1 _]. rewrite H1 in El.
          destruct (mk_hyper n b ml (n_elements v)); discriminate.
        - destruct (none_theta k N) as (N1 & _). congruence.
        - rewrite (pair_theta _ _ _ _ Hp) in T1. destruct (theta k1) as [u1|] eqn:U1; [|discriminate]. destruct (theta k2) as [u2|] eqn:U2; [|discriminate].
          assert (X : forall l1 l2, hypers k1 = Ok l1 -> hypers k2 = Ok l2 -> exists l, hypers k = Ok l).
          { intros l1 l2 X1 X2. destruct Hp as [[-> | ->] ->]; cbn [hypers]; rewrite X1, X2; cbn [bind];
              rewrite (relabel_made _ _ (hypers_made _ _ X1)), (relabel_made _ _ (hypers_made _ _ X2)); cbn [bind]; eauto. }
          destruct (hypers k1) as [l1|] eqn:X1; [|eapply IH1; eauto]. destruct (hypers k2) as [l2|] eqn:X2; [|eapply IH2; eauto].
          destruct (X _ _ eq_refl eq_refl). congruence.
        - cbn [hypers] in El. destruct (hypers k) as [l|] eqn:X; [|eapply IH; eauto]. cbn [bind] in El.
          rewrite (relabel_made _ _ (hypers_made _ _ X)) in El. discriminate. }
      rewrite <- (alike_hypers _ _ A1) in El. destruct (theta_exists _ (ex_intro _ _ El)) as [t1' T1']. exists t1'. split; [exact T1'|].
      rewrite (theta_free _ _ T1'), (theta_free _ _ T1). apply alike_free. exact A1. }
    destruct T1' as (t1' & -> & ->). rewrite (IH1 _ _ _ S1 A1 E1), (IH2 _ _ _ S2 A2 E2). reflexivity.
  - destruct (alike_pow _ _ _ A) as (k1 & -> & A1). cbn [set_theta] in *. destruct (set_theta k t) as [k1' r] eqn:E1. injection H as <- ->.
    rewrite (IH _ _ _ S A1 E1). reflexivity.
Qed.
(** Fixed values never change, not even if setting the others raises. *)
Lemma set_alike k : forall t k' r, sensible k -> set_theta k t = (k', r) -> alike k k'.
Proof.
  induction k as [k n v b ml f L|k N|k k1 k2 f Hp IH1 IH2|k e IH] using kern_cases; intros t k' r S H.
  - destruct r as [[]|e0]; [apply (set_shape _ _ _ S H)|]. rewrite (leaf_set _ _ _ _ _ _ t L) in H.
    destruct (mk_hyper n b ml (n_elements v)) as [h|]; cbn [bind] in H; [|injection H as <- _; apply alike_refl].
    destruct (set_value b v t); [discriminate|]. injection H as <- _. apply alike_refl.
  - destruct (none_theta k N) as (_ & _ & _ & N4). rewrite N4 in H. injection H as <- _. apply alike_refl.
  - destruct (pair_sensible _ _ _ _ Hp S) as [S1 S2]. rewrite (pair_set _ _ _ _ t Hp) in H.
    destruct (theta k1) as [t1|]; [|injection H as <- _; apply alike_refl].
    destruct (set_theta k1 (firstn (length t1) t)) as [k1' [u|]] eqn:E1.
    + destruct (set_theta k2 (skipn (length t1) t)) as [k2' r2] eqn:E2. injection H as <- _. apply (pair_alike _ _ _ _ _ _ Hp); eauto.
    + injection H as <- _. apply (pair_alike _ _ _ _ _ _ Hp); eauto using alike_refl.
  - cbn [set_theta] in H. destruct (set_theta k t) as [k1' r1] eqn:E1. injection H as <- _. cbn. split; [reflexivity|]. eauto.
Qed.

(** ** Bounds and values match *)
Lemma dynamic_some l : forall n t, (t + n <= length l)%nat -> exists r, dynamic_rows (Some l) t n = Ok r.
Proof.
  induction n as [|n IH]; intros t H; cbn [dynamic_rows]; [eauto|]. destruct (nth_error l t) as [m|] eqn:E.
  - cbn [bind]. destruct (IH (S t)) as [r ->]; [lia|]. cbn [bind]. eauto.
  - apply nth_error_None in E. lia.
Qed.
Lemma leaf_well k n v b ml f : leaf k n v b ml f -> (well_given k <-> matching v b ml).
Proof. destruct 1; reflexivity. Qed.
Lemma leaf_well_bounds k n v b ml f : leaf k n v b ml f -> elements v <> [] -> matching v b ml ->
  exists l B t, hypers k = Ok l /\ bounds k = Ok B /\ theta k = Ok t /\ length B = count v b.
Proof.
  intros L Hv M. destruct (leaf_hypers _ _ _ _ _ _ L) as [H1 H2]. unfold bounds. rewrite (leaf_theta _ _ _ _ _ _ L), H1, H2.
  assert (Em : exists h, mk_hyper n b ml (n_elements v) = Ok h).
  { unfold mk_hyper. destruct b as [| |r m]; eauto. rewrite n_elements_count by exact Hv. destruct (Nat.ltb 1 (length (elements v))); eauto.
    destruct m as [|r2 m]; eauto. destruct M as [M|[_ M]]; [discriminate|]. replace (Nat.eqb _ _) with true by (symmetry; apply Nat.eqb_eq; exact M). eauto. }
  destruct Em as [h Eh]. rewrite Eh. cbn [bind bound_rows]. destruct (mk_made _ _ _ _ _ Eh) as (_ & Hn & Hm & _). rewrite Hn, Hm. cbn [lookup].
  rewrite String.eqb_refl. cbn [bind].
  assert (Er : exists r, match h_bounds h with BFixed => Ok [] | BDynamic => dynamic_rows ml 0 (length (elements v)) | BRows r m => Ok (r :: m) end = Ok r /\ length r = count v b).
  { unfold mk_hyper in Eh. destruct b as [| |r m].
    - injection Eh as <-. cbn. eauto.
    - injection Eh as <-. cbn [h_bounds]. destruct M as (l & -> & Hl). destruct (dynamic_some l (length (elements v)) 0) as [r Er]; [lia|].
      exists r. split; [exact Er|]. apply (rows_length_dyn _ _ _ _ Er).
    - rewrite n_elements_count in Eh by exact Hv. destruct (Nat.ltb 1 (length (elements v))) eqn:E1.
      + apply Nat.ltb_lt in E1. destruct m as [|r2 m].
        * injection Eh as <-. cbn [h_bounds]. eexists. split; [reflexivity|]. cbn [length count]. rewrite repeat_length. lia.
        * destruct (Nat.eqb _ _) eqn:E2; [|discriminate]. injection Eh as <-. cbn [h_bounds]. eexists. split; [reflexivity|]. apply Nat.eqb_eq in E2. exact E2.
      + apply Nat.ltb_ge in E1. injection Eh as <-. cbn [h_bounds]. eexists. split; [reflexivity|]. destruct M as [-> |[M _]]; [|lia]. cbn.
        destruct (elements v); [contradiction|]. cbn in *. lia. }
  destruct Er as (r & -> & Hr). cbn [bind]. do 3 eexists. repeat split. rewrite map_length, app_nil_r. exact Hr.
Qed.
Lemma pair_well k k1 k2 f : pair_of k k1 k2 f -> well_given k -> well_given k1 /\ well_given k2.
Proof. intros [[-> | ->] ->]; auto. Qed.
Lemma well_bounds k : usable k -> sensible k -> well_given k ->
  exists l B t, hypers k = Ok l /\ bounds k = Ok B /\ theta k = Ok t /\ length B = free k.
Proof.
  induction k as [k n v b ml f L|k N|k k1 k2 f Hp IH1 IH2|k e IH] using kern_cases; intros U S W.
  - rewrite (leaf_free _ _ _ _ _ _ L). apply (leaf_well_bounds _ _ _ _ _ _ L); [apply (leaf_sensible _ _ _ _ _ _ L S)|].
    apply (leaf_well _ _ _ _ _ _ L). exact W.
  - destruct k; cbn in N; try contradiction.
  - apply (pair_usable _ _ _ _ Hp) in U. destruct U as [U1 U2]. destruct (pair_sensible _ _ _ _ Hp S) as [S1 S2].
    destruct (pair_well _ _ _ _ Hp W) as [W1 W2]. destruct (IH1 U1 S1 W1) as (l1 & B1 & t1 & E1 & EB1 & ET1 & L1).
    destruct (IH2 U2 S2 W2) as (l2 & B2 & t2 & E2 & EB2 & ET2 & L2).
    assert (El : hypers k = Ok (map (renamed "k1__") l1 ++ map (renamed "k2__") l2)).
    { destruct Hp as [[-> | ->] ->]; cbn [hypers]; rewrite E1, E2; cbn [bind]; rewrite (relabel_made _ _ (hypers_made _ _ E1)), (relabel_made _ _ (hypers_made _ _ E2)); reflexivity. }
    assert (EB : bounds k = Ok (B1 ++ B2)).
    { unfold bounds in *. rewrite El. rewrite E1 in EB1. rewrite E2 in EB2. cbn [bind] in *.
      destruct (bound_rows (get_params k1) l1) as [r1|] eqn:R1; [|discriminate]. destruct (bound_rows (get_params k2) l2) as [r2|] eqn:R2; [|discriminate].
      injection EB1 as <-. injection EB2 as <-.
      assert (Hpar : get_params k = under "k1__" (get_params k1) ++ under "k2__" (get_params k2)) by (destruct Hp as [[-> | ->] ->]; reflexivity).
      rewrite (bound_rows_join _ _ _ r1 r2).
      - cbn [bind]. rewrite map_app. reflexivity.
      - rewrite Hpar, (bound_rows_renamed _ (get_params k1)) by (intros; apply lookup_first). exact R1.
      - rewrite Hpar, (bound_rows_renamed _ (get_params k2)) by (intros; apply lookup_second). exact R2. }
    do 3 eexists. split; [exact El|]. split; [exact EB|]. split.
    + rewrite (pair_theta _ _ _ _ Hp), ET1, ET2. reflexivity.
    + rewrite app_length, (pair_free _ _ _ _ Hp). lia.
  - destruct (IH U S W) as (l1 & B1 & t1 & E1 & EB1 & ET1 & L1). do 3 eexists. split; [|split; [rewrite bounds_pow; exact EB1|split; [exact ET1|exact L1]]].
    cbn [hypers]. rewrite E1. cbn [bind]. rewrite (relabel_made _ _ (hypers_made _ _ E1)). reflexivity.
Qed.
Lemma alike_well k : forall k', alike k k' -> well_given k -> well_given k'.
Proof.
  induction k as [nu ls lb ml|c cb|n nb|ls a|ls p|s|k1 IH1 k2 IH2|k1 IH1 k2 IH2|k IH e]; intros k' A S; destruct k'; cbn in A; try discriminate; try contradiction; cbn in S |- *; auto.
  - destruct A as (-> & -> & -> & A1 & _). unfold matching in *. rewrite A1. exact S.
  - destruct A as (-> & _). exact S.
  - destruct A as (-> & _). exact S.
  - destruct A, S; auto.
  - destruct A, S; auto.
  - destruct A; auto.
Qed.
Lemma alike_usable k : forall k', alike k k' -> usable k -> usable k'.
Proof.
  induction k as [nu ls lb ml|c cb|n nb|ls a|ls p|s|k1 IH1 k2 IH2|k1 IH1 k2 IH2|k IH e]; intros k' A S; destruct k'; cbn in A; try discriminate; try contradiction; cbn in S |- *; auto.
  - destruct A, S; auto.
  - destruct A, S; auto.
  - destruct A; eauto.
Qed.

(** ** Setting [theta] to what it is *)
Lemma leaf_put_same k n v b ml f w : leaf k n v b ml f -> elements w = elements v -> same_values k (f w).
Proof. intros L E. destruct L; cbn; auto; cbn in E; rewrite E; reflexivity. Qed.
Lemma pair_same k k1 k2 f k1' k2' : pair_of k k1 k2 f -> same_values k1 k1' -> same_values k2 k2' -> same_values k (f k1' k2').
Proof. intros [[-> | ->] ->] A1 A2; cbn; auto. Qed.
Lemma leaf_positive k n v b ml f : leaf k n v b ml f -> positive k -> b = BFixed \/ List.Forall (Rlt 0) (elements v).
Proof. destruct 1; cbn; auto; intros [E|E]; auto; right; constructor; auto. Qed.
Lemma pair_positive k k1 k2 f : pair_of k k1 k2 f -> positive k -> positive k1 /\ positive k2.
Proof. intros [[-> | ->] ->]; auto. Qed.
Lemma exp_ln_all l : List.Forall (Rlt 0) l -> map exp (map ln l) = l.
Proof. induction 1 as [|x l Hx _ IH]; cbn; [reflexivity|]. rewrite exp_ln by exact Hx. rewrite IH. reflexivity. Qed.
Lemma set_same k : forall t, sensible k -> positive k -> theta k = Ok t -> exists k', set_theta k t = (k', Ok tt) /\ same_values k k'.
Proof.
  induction k as [k n v b ml f L|k N|k k1 k2 f Hp IH1 IH2|k e IH] using kern_cases; intros t S P H.
  - destruct (leaf_sensible _ _ _ _ _ _ L S) as [S1 _]. rewrite (leaf_set _ _ _ _ _ _ t L). rewrite (leaf_theta _ _ _ _ _ _ L) in H.
    destruct (mk_hyper n b ml (n_elements v)) as [h|]; [|discriminate]. cbn [bind] in *. injection H as <-.
    destruct (set_value_some b v (map ln (match b with BFixed => [] | _ => elements v end)) S1) as [w Ew].
    { unfold count. rewrite map_length. destruct b; reflexivity. }
    rewrite Ew. eexists. split; [reflexivity|]. apply (leaf_put_same _ _ _ _ _ _ _ L).
    destruct (set_value_count _ _ _ _ S1 Ew) as (_ & _ & H3 & H4).
    destruct (leaf_positive _ _ _ _ _ _ L P) as [-> |P1]; [rewrite (H3 eq_refl); reflexivity|].
    destruct b; [rewrite (H3 eq_refl); reflexivity| |]; rewrite H4, exp_ln_all by (discriminate || exact P1); reflexivity.
  - destruct (none_theta k N) as (N1 & _). congruence.
  - destruct (pair_sensible _ _ _ _ Hp S) as [S1 S2]. destruct (pair_positive _ _ _ _ Hp P) as [P1 P2].
    rewrite (pair_theta _ _ _ _ Hp) in H. destruct (theta k1) as [t1|] eqn:E1; [|discriminate]. destruct (theta k2) as [t2|] eqn:E2; [|discriminate].
    injection H as <-. rewrite (pair_set _ _ _ _ _ Hp), E1.
    rewrite firstn_app, firstn_all, Nat.sub_diag, app_nil_r, skipn_app, skipn_all, Nat.sub_diag. cbn [firstn skipn app].
    destruct (IH1 _ S1 P1 eq_refl) as (k1' & -> & V1). destruct (IH2 _ S2 P2 eq_refl) as (k2' & -> & V2).
    eexists. split; [reflexivity|]. apply (pair_same _ _ _ _ _ _ Hp); auto.
  - destruct (IH t S P H) as (k' & E & V). exists (KPow k' e). cbn [set_theta]. rewrite E. split; [reflexivity|]. cbn. auto.
Qed.
Lemma same_respects k : forall k', same_values k k' -> respects k -> respects k'.
Proof.
  induction k as [nu ls lb ml|c cb|n nb|ls a|ls p|s|k1 IH1 k2 IH2|k1 IH1 k2 IH2|k IH e]; intros k' A S; destruct k'; cbn in A; try discriminate; try contradiction; cbn in S |- *; auto.
  - destruct A as (-> & -> & -> & A1). unfold inside in *. rewrite A1. exact S.
  - injection A as -> ->. exact S.
  - injection A as -> ->. exact S.
  - destruct A, S; auto.
  - destruct A, S; auto.
  - destruct A; eauto.
Qed.
Lemma inside_positive v b ml : pos_bounds b ml -> inside v b ml -> b = BFixed \/ List.Forall (Rlt 0) (elements v).
Proof.
  intros P [H|H]; [auto|right]. apply Forall_forall. intros x Hx. apply In_nth_error in Hx. destruct Hx as [i Hi].
  destruct (H i x Hi) as (lo & hi & G & H1 & _). destruct (given_pos _ _ _ _ P G) as [P1 _]. cbn in P1. lra.
Qed.
Lemma respects_positive k : sensible k -> respects k -> positive k.
Proof.
  induction k as [nu ls lb ml|c cb|n nb|ls a|ls p|s|k1 IH1 k2 IH2|k1 IH1 k2 IH2|k IH e]; cbn; intros S R; auto.
  - destruct S as [_ S]. eapply inside_positive; eauto.
  - destruct (inside_positive _ _ _ S R) as [E|E]; [auto|right]. inversion E; auto.
  - destruct (inside_positive _ _ _ S R) as [E|E]; [auto|right]. inversion E; auto.
  - destruct S, R; auto.
  - destruct S, R; auto.
Qed.

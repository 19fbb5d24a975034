(** Lemmas about the convergence criteria. *)
From Verif Require Export MConv.
Set Default Goal Selector "!".

(** Elements that are a suffix of a list. *)
Lemma py_last_suffix {A} k (l : list A) : k <> 0 -> k <= length l ->
  exists pre, l = pre ++ py_last k l /\ length (py_last k l) = k.
Proof.
  intros Hk Hl. unfold py_last. destruct (Nat.eqb_spec k 0) as [E|E]; [contradiction|].
  exists (firstn (length l - k) l). rewrite firstn_skipn, skipn_length. split; [reflexivity|lia].
Qed.
Lemma suffix_unique {A} (l p1 s1 p2 s2 : list A) :
  l = p1 ++ s1 -> l = p2 ++ s2 -> length s1 = length s2 -> s1 = s2.
Proof.
  intros -> H Hl. assert (length p1 = length p2) as Hp by (apply (f_equal (@length A)) in H; rewrite !app_length in H; lia).
  revert p2 H Hp. induction p1 as [|x p1 IH]; intros [|y p2] H Hp; simpl in *; try lia; auto.
  injection H as _ H. eapply IH; eauto.
Qed.

(** ** [check_convergence] *)
Definition outcome_of (r : res bool) : option bool :=
  match r with Ok b => Some b | Err e => if is_check_error e then Some false else None end.
Definition holds (r : res bool) : bool := match r with Ok b => b | Err _ => false end.
Definition nec (p : string) : bool := has_char "n" (lower p).
Definition suf (p : string) : bool := has_char "s" (lower p).
Definition crashes (r : res bool) : bool := match r with Err e => negb (is_check_error e) | Ok _ => false end.

Lemma check_loop_ok checks : forall a, existsb (fun c => crashes (snd c)) checks = false ->
  check_loop a checks =
  Ok (mkAcc (all_necessary a && forallb (fun c => negb (nec (fst c)) || holds (snd c)) checks)
            (n_necessary a + length (filter (fun c => nec (fst c)) checks))
            (any_sufficient a || existsb (fun c => suf (fst c) && holds (snd c)) checks)
            (n_sufficient a + length (filter (fun c => suf (fst c)) checks))).
Proof.
  induction checks as [|[p r] checks IH]; intros a H.
  - simpl. destruct a; simpl. rewrite andb_true_r, orb_false_r, !Nat.add_0_r. reflexivity.
  - simpl in H. apply orb_false_iff in H as [Hr H].
    assert (match r with Ok b => Ok b | Err e => if is_check_error e then Ok false else Err e end = Ok (holds r)) as E.
    { destruct r as [b|e]; [reflexivity|]. simpl in Hr |- *. destruct (is_check_error e); [reflexivity|discriminate]. }
    simpl. rewrite E. simpl. rewrite IH by auto. unfold count_check. fold (nec p) (suf p).
    destruct a as [an nn as_ ns]; destruct (nec p), (suf p); simpl; f_equal; f_equal; try lia;
      rewrite ?andb_assoc, ?orb_assoc; reflexivity.
Qed.
Lemma check_loop_crash checks : forall a, existsb (fun c => crashes (snd c)) checks = true ->
  exists e, check_loop a checks = Err e.
Proof.
  induction checks as [|[p r] checks IH]; intros a H; [discriminate|].
  simpl in H |- *. destruct r as [b|e]; simpl in *.
  - apply IH; auto.
  - destruct (is_check_error e); simpl in *; [apply IH; auto|eauto].
Qed.

(** ** KL histories *)
Section KL.
Context {M : Type}.
Implicit Types (c : @klcrit M).
Definition hist_ok (n : nat) (h : history) : Prop :=
  length (values h) = n /\ length (n_posterior_evals h) = n /\ length (n_accepted_evals h) = n.
Lemma record_ok n h v t m : hist_ok n h -> hist_ok (S n) (record h v t m).
Proof. intros (H1 & H2 & H3). unfold record, hist_ok; simpl. rewrite !app_length; simpl. lia. Qed.
End KL.

(** ** CorrectCounter *)
Section Counter.
Variables reltol abstol : num.
Definition correct (y_max : num) (p : num * num) : bool :=
  nltb (nabs (nsub (snd p) (fst p))) (tolerance reltol abstol y_max (fst p)).
(** Length of the final run of [true]. *)
Fixpoint run_from (n : nat) (l : list bool) : nat :=
  match l with [] => n | b :: l' => run_from (if b then S n else 0) l' end.
Lemma fold_pred y_max pts : forall a,
  b_pred (fold_left (count_point reltol abstol y_max) pts a) =
  run_from (b_pred a) (map (correct y_max) (filter (fun p => negb (neqb (fst p) NInf)) pts)).
Proof.
  induction pts as [|[yn yl] pts IH]; intros a; [reflexivity|].
  cbn [fold_left filter fst]. rewrite IH. unfold count_point at 1.
  destruct (neqb yn NInf); [reflexivity|]. cbn [negb map run_from]. f_equal. cbn [b_pred].
  unfold correct; cbn [fst snd]. destruct (nltb (nabs (nsub yl yn)) _); [|reflexivity].
  destruct (nltb (max_val a) _); reflexivity.
Qed.
Lemma run_from_app l1 : forall n l2, run_from n (l1 ++ l2) = run_from (run_from n l1) l2.
Proof. induction l1 as [|b l1 IH]; intros n l2; simpl; [reflexivity|apply IH]. Qed.
Lemma run_from_trues l : forall n, Forall (eq true) l -> run_from n l = n + length l.
Proof.
  induction l as [|b l IH]; intros n H; simpl; [lia|]. inversion H as [|? ? <- H']; subst.
  rewrite IH by auto. lia.
Qed.
Lemma run_from_le l : forall n, run_from 0 l <= run_from n l.
Proof.
  assert (forall l n m, n <= m -> run_from n l <= run_from m l) as G.
  { clear. induction l as [|b l IH]; intros n m H; simpl; [auto|]. apply IH. destruct b; lia. }
  intros n. apply G; lia.
Qed.
(** The final run has at least [k] elements iff a suffix of length [k] is all [true]. *)
Lemma run_suffix l k : k <= run_from 0 l <-> exists pre suf, l = pre ++ suf /\ length suf = k /\ Forall (eq true) suf.
Proof.
  split.
  - revert k. induction l as [|b l IH] using rev_ind; intros k H.
    + simpl in H. exists [], []. simpl. repeat split; [lia|constructor].
    + rewrite run_from_app in H. simpl in H. destruct b.
      * destruct k as [|k].
        -- exists (l ++ [true]), []. rewrite app_nil_r. repeat split; constructor.
        -- destruct (IH k) as (pre & suf & -> & Hl & Hs); [lia|].
           exists pre, (suf ++ [true]). rewrite app_assoc, app_length; simpl. repeat split; [lia|].
           apply Forall_app; auto.
      * exists (l ++ [false]), []. rewrite app_nil_r. simpl. repeat split; [lia|constructor].
  - intros (pre & suf & -> & <- & Hs). rewrite run_from_app, run_from_trues by auto. lia.
Qed.
End Counter.

Lemma qc_of_Z_le a b : (a <= b)%Z -> (qc_of_Z a <= qc_of_Z b)%Qc.
Proof.
  intros H. unfold qc_of_Z, Qcle. change (this (Q2Qc (inject_Z a))) with (Qred (inject_Z a)).
  change (this (Q2Qc (inject_Z b))) with (Qred (inject_Z b)). rewrite !Qred_correct.
  rewrite <- Zle_Qle. exact H.
Qed.
Lemma nltb_nz_mono x a b : (a <= b)%Z -> nltb x (nz a) = true -> nltb x (nz b) = true.
Proof.
  intros H. destruct x as [| |q|]; simpl; auto. intros H1. apply qltb_lt in H1. apply qltb_lt.
  eapply Qclt_le_trans; [exact H1|]. apply qc_of_Z_le; auto.
Qed.

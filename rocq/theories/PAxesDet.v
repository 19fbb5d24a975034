(** Determinants do not change if rows and columns are listed in another order. *)
From Coq Require Import Lra Lia Permutation List.
From Verif Require Import SDet PLinAlg PWhiten PDet.
Import ListNotations.
Open Scope R_scope.
Set Default Goal Selector "!". Set Bullet Behavior "Strict Subproofs".

(** Exchange [c] and [S c]. *)
Definition tau (c i : nat) : nat := if Nat.eqb i c then S c else if Nat.eqb i (S c) then c else i.
Lemma tau_S c i : tau (S c) (S i) = S (tau c i).
Proof. unfold tau. change (Nat.eqb (S i) (S c)) with (Nat.eqb i c). change (Nat.eqb (S i) (S (S c))) with (Nat.eqb i (S c)). destruct (Nat.eqb i c); [reflexivity|]. destruct (Nat.eqb i (S c)); reflexivity. Qed.
Lemma tau_lt c n i : (S c < n)%nat -> (i < n)%nat -> (tau c i < n)%nat.
Proof. unfold tau. intros. destruct (Nat.eqb_spec i c); [lia|]. destruct (Nat.eqb_spec i (S c)); lia. Qed.

Lemma det_rows n M c : (S c < n)%nat -> det n (fun i j => M (tau c i) j) = - det n M.
Proof.
  intros H. transitivity (det n (set_row (set_row M c (M (S c))) (S c) (M c))).
  - apply det_ext. intros i j _ _. unfold tau. destruct (Nat.eqb_spec i c) as [->|Hc].
    + rewrite set_row_other by lia. rewrite set_row_same. reflexivity.
    + destruct (Nat.eqb_spec i (S c)) as [->|Hs]; [rewrite set_row_same; reflexivity|]. rewrite !set_row_other by assumption. reflexivity.
  - rewrite det_exchange by exact H. f_equal. apply det_ext. intros i j _ _. destruct (Nat.eq_dec i (S c)) as [->|Hs]; [apply set_row_same|].
    rewrite set_row_other by exact Hs. destruct (Nat.eq_dec i c) as [->|Hc]; [apply set_row_same|apply set_row_other, Hc].
Qed.

Lemma sum_skip m f i : (i <= m)%nat -> sum (S m) f = f i + sum m (fun a => f (skip i a)).
Proof.
  revert i. induction m as [|m IH]; intros i H.
  - assert (i = O) as -> by lia. cbn. ring.
  - destruct (Nat.eq_dec i (S m)) as [->|N].
    + cbn [sum]. rewrite (sum_ext m (fun a => f (skip (S m) a)) f) by (intros k Hk; unfold skip; destruct (Nat.ltb_spec k (S m)); [reflexivity|lia]).
      unfold skip. destruct (Nat.ltb_spec m (S m)); [|lia]. ring.
    + change (sum (S (S m)) f) with (sum (S m) f + f (S m)). rewrite (IH i) by lia. cbn [sum].
      replace (skip i m) with (S m) by (unfold skip; destruct (Nat.ltb_spec m i); [lia|reflexivity]). ring.
Qed.
(** The number of row [j] among the rows other than [i]. *)
Definition unskip (i j : nat) : nat := if Nat.ltb j i then j else pred j.
Lemma unskip_skip i a : unskip i (skip i a) = a.
Proof. unfold unskip, skip. destruct (Nat.ltb_spec a i) as [H|H]; [destruct (Nat.ltb_spec a i); [reflexivity|lia]|]. destruct (Nat.ltb_spec (S a) i); [lia|reflexivity]. Qed.
Lemma skip_ne i a : skip i a <> i.
Proof. unfold skip. destruct (Nat.ltb_spec a i); lia. Qed.
Lemma skip_both i j u : i <> j -> skip i (skip (unskip i j) u) = skip j (skip (unskip j i) u).
Proof.
  intros H. unfold unskip. destruct (Nat.ltb_spec j i), (Nat.ltb_spec i j); try lia; unfold skip.
  - destruct (Nat.ltb_spec u j), (Nat.ltb_spec u (pred i)); destruct (Nat.ltb_spec u i), (Nat.ltb_spec (S u) i), (Nat.ltb_spec u j), (Nat.ltb_spec (S u) j); lia.
  - destruct (Nat.ltb_spec u i), (Nat.ltb_spec u (pred j)); destruct (Nat.ltb_spec u j), (Nat.ltb_spec (S u) j), (Nat.ltb_spec u i), (Nat.ltb_spec (S u) i); lia.
Qed.
Lemma sign_both i j : i <> j -> (-1) ^ (i + unskip i j) = - (-1) ^ (j + unskip j i).
Proof.
  intros H. unfold unskip. destruct (Nat.ltb_spec j i), (Nat.ltb_spec i j); try lia.
  - replace (i + j)%nat with (S (j + pred i)) by lia. cbn [pow]. ring.
  - replace (j + i)%nat with (S (i + pred j)) by lia. cbn [pow]. ring.
Qed.
Definition off (n : nat) (G : nat -> nat -> R) : R := sum n (fun i => sum n (fun j => if Nat.eqb i j then 0 else G i j)).
Lemma det_two m M : det (S (S m)) M =
  off (S (S m)) (fun i j => (-1) ^ (i + unskip i j) * M i 0%nat * M j 1%nat * det m (fun a b => M (skip i (skip (unskip i j) a)) (S (S b)))).
Proof.
  unfold off. cbn [det]. apply sum_ext. intros i Hi.
  rewrite (sum_skip (S m) (fun j => if Nat.eqb i j then 0 else _) i) by lia. rewrite Nat.eqb_refl, Rplus_0_l.
  rewrite <- sum_scal. apply sum_ext. intros a Ha. destruct (Nat.eqb_spec i (skip i a)) as [E|_]; [exfalso; exact (skip_ne i a (eq_sym E))|].
  rewrite unskip_skip, pow_add. ring.
Qed.
Lemma det_cols n : forall M c, (S c < n)%nat -> det n (fun i j => M i (tau c j)) = - det n M.
Proof.
  induction n as [|n IH]; intros M c H; [lia|]. destruct c as [|c].
  - destruct n as [|m]; [lia|]. rewrite !det_two. unfold off. rewrite sum_swap.
    replace (- sum (S (S m)) (fun i => sum (S (S m)) (fun j => if Nat.eqb i j then 0 else (-1) ^ (i + unskip i j) * M i 0%nat * M j 1%nat * det m (fun a b => M (skip i (skip (unskip i j) a)) (S (S b))))))
      with ((-1) * sum (S (S m)) (fun i => sum (S (S m)) (fun j => if Nat.eqb i j then 0 else (-1) ^ (i + unskip i j) * M i 0%nat * M j 1%nat * det m (fun a b => M (skip i (skip (unskip i j) a)) (S (S b)))))) by ring.
    rewrite <- sum_scal. apply sum_ext. intros i _. rewrite <- sum_scal. apply sum_ext. intros j _. rewrite (Nat.eqb_sym j i).
    destruct (Nat.eqb_spec i j) as [_|E]; [ring|]. rewrite (sign_both j i) by auto.
    rewrite (det_ext m (fun a b => M (skip j (skip (unskip j i) a)) (tau 0 (S (S b)))) (fun a b => M (skip i (skip (unskip i j) a)) (S (S b)))).
    + change (tau 0 0) with 1%nat. change (tau 0 1) with 0%nat. ring.
    + intros a b _ _. rewrite (skip_both j i) by auto. reflexivity.
  - cbn [det]. replace (- sum (S n) (fun i => (-1) ^ i * M i O * det n (fun a b => M (skip i a) (S b)))) with ((-1) * sum (S n) (fun i => (-1) ^ i * M i O * det n (fun a b => M (skip i a) (S b)))) by ring.
    rewrite <- sum_scal. apply sum_ext. intros i _. change (tau (S c) 0) with 0%nat.
    rewrite (det_ext n _ (fun a b => (fun a b => M (skip i a) (S b)) a (tau c b))) by (intros a b _ _; rewrite tau_S; reflexivity).
    rewrite (IH (fun a b => M (skip i a) (S b)) c) by lia. ring.
Qed.
Lemma det_tau n M c : (S c < n)%nat -> det n (fun i j => M (tau c i) (tau c j)) = det n M.
Proof. intros H. rewrite (det_rows n (fun i j => M i (tau c j)) c H), (det_cols n M c H). ring. Qed.
Lemma nth_tau (l1 l2 : list nat) x y i : nth i (l1 ++ y :: x :: l2) 0%nat = nth (tau (length l1) i) (l1 ++ x :: y :: l2) 0%nat.
Proof.
  unfold tau. destruct (Nat.eqb_spec i (length l1)) as [->|N].
  - rewrite !app_nth2 by lia. rewrite Nat.sub_diag. replace (S (length l1) - length l1)%nat with 1%nat by lia. reflexivity.
  - destruct (Nat.eqb_spec i (S (length l1))) as [->|N2].
    + rewrite !app_nth2 by lia. rewrite Nat.sub_diag. replace (S (length l1) - length l1)%nat with 1%nat by lia. reflexivity.
    + destruct (Nat.lt_ge_cases i (length l1)) as [H|H]; [rewrite !app_nth1 by exact H; reflexivity|]. rewrite !app_nth2 by lia.
      replace (i - length l1)%nat with (S (S (i - length l1 - 2))) by lia. reflexivity.
Qed.
Lemma det_lists M (p q : list nat) : Permutation p q -> det (length p) (fun i j => M (nth i p 0%nat) (nth j p 0%nat)) = det (length q) (fun i j => M (nth i q 0%nat) (nth j q 0%nat)).
Proof.
  revert p q. apply (Permutation_ind_transp (fun p q => det (length p) (fun i j => M (nth i p 0%nat) (nth j p 0%nat)) = det (length q) (fun i j => M (nth i q 0%nat) (nth j q 0%nat)))).
  - reflexivity.
  - intros x y l1 l2. rewrite <- (det_tau _ (fun i j => M (nth i (l1 ++ x :: y :: l2) 0%nat) (nth j (l1 ++ x :: y :: l2) 0%nat)) (length l1)) by (rewrite app_length; cbn [length]; lia).
    rewrite !app_length. cbn [length]. apply det_ext. intros i j _ _. rewrite <- !nth_tau. reflexivity.
  - intros l l' l'' _ E _ E'. rewrite E. exact E'.
Qed.
Lemma det_reorder n M p : Permutation p (seq 0 n) -> det n (fun i j => M (nth i p 0%nat) (nth j p 0%nat)) = det n M.
Proof.
  intros H. pose proof (det_lists M p (seq 0 n) H) as E. rewrite (Permutation_length H), seq_length in E. rewrite E. apply det_ext. intros i j Hi Hj.
  rewrite !seq_nth by assumption. reflexivity.
Qed.
Lemma sum_fold n f : sum n f = fold_right Rplus 0 (map f (seq 0 n)).
Proof.
  induction n as [|n IH]; [reflexivity|]. cbn [sum]. rewrite IH, seq_S, map_app, fold_right_app. cbn [map fold_right].
  generalize (map f (seq 0 n)). intros l. cbn [Nat.add]. rewrite Rplus_0_r. induction l as [|a l IHl]; cbn [fold_right]; [ring|]. rewrite <- IHl. ring.
Qed.
Lemma sum_reorder n f p : Permutation p (seq 0 n) -> sum n (fun i => f (nth i p 0%nat)) = sum n f.
Proof.
  intros H. rewrite !sum_fold. assert (E : map (fun i => f (nth i p 0%nat)) (seq 0 n) = map f p).
  { rewrite <- (map_map (fun i => nth i p 0%nat) f). f_equal. apply nth_ext with (d := O) (d' := O); rewrite map_length, seq_length; [symmetry; rewrite (Permutation_length H); apply seq_length|].
    intros i Hi. rewrite (nth_indep _ 0%nat (nth 0 p 0%nat)) by (rewrite map_length, seq_length; exact Hi). rewrite (map_nth (fun i => nth i p 0%nat)), seq_nth by exact Hi. reflexivity. }
  rewrite E. clear E. apply (Permutation_map f) in H. revert H. generalize (map f p) (map f (seq 0 n)). intros l l' H.
  induction H; cbn [fold_right]; lra.
Qed.
Lemma order_lt n p i : Permutation p (seq 0 n) -> (i < n)%nat -> (nth i p 0 < n)%nat.
Proof.
  intros H Hi. assert (In (nth i p 0%nat) (seq 0 n)) as Hs; [|apply in_seq in Hs; lia]. apply (Permutation_in _ H), nth_In. rewrite (Permutation_length H), seq_length. exact Hi.
Qed.
Lemma order_inj n p i j : Permutation p (seq 0 n) -> (i < n)%nat -> (j < n)%nat -> nth i p 0%nat = nth j p 0%nat -> i = j.
Proof.
  intros H Hi Hj E. assert (N : NoDup p) by (apply (Permutation_NoDup (Permutation_sym H)), seq_NoDup). pose proof (Permutation_length H) as L. rewrite seq_length in L.
  apply (proj1 (NoDup_nth p 0%nat) N); [lia|lia|exact E].
Qed.

(** Properties C01, C02, C03 (work distribution among MPI processes). *)
From Verif Require Import MMpi PMpi.

(** C01. The shares add up to [n], each is [n/p] or [n/p + 1], lower ranks get no fewer. *)
Theorem C01_split_number :
  forall n p, p <> 0 ->
  exists shares, split_number n p = Ok shares
    /\ length shares = p
    /\ list_sum shares = n
    /\ (forall i j a b, nth_error shares i = Some a -> nth_error shares j = Some b ->
          i <= j -> b <= a /\ a <= b + 1).
Proof.
  intros n p Hp. exists (map (fun c => n / p + (if c <? n mod p then 1 else 0)) (seq 0 p)).
  rewrite split_number_spec by auto. split; [reflexivity|].
  split; [rewrite map_length, seq_length; auto|]. split.
  - apply (split_sum n p). apply split_number_spec; auto.
  - intros i j a b Hi Hj Hij. rewrite nth_error_map in Hi, Hj.
    destruct (nth_error (seq 0 p) i) as [x|] eqn:Ei; [|discriminate].
    destruct (nth_error (seq 0 p) j) as [y|] eqn:Ej; [|discriminate].
    assert (forall k z, nth_error (seq 0 p) k = Some z -> z = k) as Hseq.
    { intros k z H. assert (k < p) as Hk.
      { rewrite <- (seq_length p 0). apply nth_error_Some. congruence. }
      apply (nth_error_nth _ _ 0) in H. rewrite seq_nth in H by auto. lia. }
    apply Hseq in Ei, Ej. subst x y. simpl in Hi, Hj. injection Hi as <-. injection Hj as <-.
    destruct (Nat.ltb_spec i (n mod p)), (Nat.ltb_spec j (n mod p)); lia.
Qed.
Print Assumptions C01_split_number.
Example C01_case : split_number 5 3 = Ok [2; 2; 1]. Proof. reflexivity. Qed.
Example C01_case_few : split_number 2 4 = Ok [1; 1; 0; 0]. Proof. reflexivity. Qed.

(** C02. Splitting with a stride among [size] ranks and merging gives the list back, and the
    pieces have together as many elements as the list. *)
Theorem C02_step_split_merge :
  forall (A : Type) (zero : A) (l : list A) size, size <> 0 ->
  merge_step_split zero (map (fun r => step_split size r l) (seq 0 size)) = Ok l.
Proof. intros A zero l size. apply merge_step_split_ok. Qed.
Print Assumptions C02_step_split_merge.
Example C02_case :
  map (fun r => step_split 3 r [10; 11; 12; 13; 14]) (seq 0 3) = [[10; 13]; [11; 14]; [12]].
Proof. reflexivity. Qed.

(** C02, use in compute_y_parallel: for any number of processes the means and stds that rank 0
    receives are the pointwise predictions, in order. *)
Theorem C02_compute_y_parallel :
  forall (P : Type) (pred pstd : P -> num) w (X : list P), wsize w <> 0 ->
  compute_y_parallel pred pstd w X None None true = Ok (map pred X, Some (map pstd X))
  /\ compute_y_parallel pred pstd w X None None false = Ok (map pred X, None)
  /\ (forall y size, w = Mpi size ->
        compute_y_parallel pred pstd w X (Some y) None true = Ok (y, Some (map pstd X))).
Proof.
  intros P pred pstd w X Hw. unfold compute_y_parallel.
  rewrite !merge_step_split_map by auto. simpl.
  repeat split. intros y size ->. reflexivity.
Qed.
Print Assumptions C02_compute_y_parallel.

(** C02, the same call when the means are already known: without mpi4py it raises instead of
    returning them (gpry/mpi.py:207 uses [comm] directly). *)
Theorem C02_compute_y_parallel_given_y_refuted :
  exists (X : list nat) (y : list num),
    compute_y_parallel (fun _ => Fin 0) (fun _ => Fin 0) NoMpi X (Some y) None true
    = Err AttributeError.
Proof. exists [0], [Fin 0]. reflexivity. Qed.
Print Assumptions C02_compute_y_parallel_given_y_refuted.

(** C03. Whatever the number of processes, the values returned are those of evaluating the
    points one by one in order; the lists of points evaluated by the ranks, put together in rank
    order, are the points: each is evaluated exactly once. *)
Theorem C03_eval_truth_parallel :
  forall (P Y : Type) size (f : P -> Y) (X : list P), size <> 0 ->
  exists shares, eval_truth_parallel size f X = Ok (shares, map f X)
    /\ length shares = size /\ concat shares = X.
Proof. intros P Y size f X. apply eval_truth_parallel_ok. Qed.
Print Assumptions C03_eval_truth_parallel.
Example C03_case :
  eval_truth_parallel 3 (fun x => x * x) [1; 2; 3; 4; 5] = Ok ([[1; 2]; [3; 4]; [5]], [1; 4; 9; 16; 25]).
Proof. reflexivity. Qed.

(** C67. Arrays gathered from all processes: each object holds the ranks' pieces in rank order, so
    that element [k] of the piece of rank [r] of every object lands at the same position of the
    gathered objects (the sizes of the pieces of the lower ranks, plus [k]). *)
Theorem C67_gather_aligned :
  forall (A : Type) (nobj : nat) (all_arrs : list (list (list A))) (sizes : list nat),
  Forall2 (fun arrs n => length arrs = nobj /\ Forall (fun a => length a = n) arrs) all_arrs sizes ->
  length (multi_gather nobj all_arrs) = nobj
  /\ forall r i k arrs a, nth_error all_arrs r = Some arrs -> nth_error arrs i = Some a -> k < length a ->
     exists g, nth_error (multi_gather nobj all_arrs) i = Some g
               /\ length g = list_sum sizes
               /\ nth_error g (list_sum (firstn r sizes) + k) = nth_error a k.
Proof.
  intros A nobj all_arrs sizes HF. unfold multi_gather. split; [rewrite map_length, seq_length; reflexivity|].
  intros r i k arrs a Hr Hi Hk.
  assert (i < nobj) as Hin.
  { clear Hk. revert r Hr. induction HF as [|x n l ns [Hx _] HF IH]; intros [|r] Hr; try discriminate; simpl in Hr.
    - injection Hr as <-. rewrite <- Hx. apply nth_error_Some. congruence.
    - eapply IH; eauto. }
  exists (concat (map (fun arrs => nth i arrs []) all_arrs)).
  split; [rewrite nth_error_map, (nth_error_nth' _ 0) by (rewrite seq_length; auto);
          rewrite seq_nth by auto; reflexivity|].
  split.
  - clear Hr. induction HF as [|x n l ns [Hx HFx] HF IH]; [reflexivity|].
    simpl. rewrite app_length, IH. f_equal. rewrite Forall_forall in HFx. apply HFx, nth_In. lia.
  - revert r Hr. induction HF as [|x n l ns [Hx HFx] HF IH]; intros [|r] Hr; try discriminate; simpl in Hr |- *.
    + injection Hr as ->. rewrite (nth_error_nth _ _ _ Hi). apply nth_error_app1; auto.
    + rewrite Forall_forall in HFx. assert (length (nth i x []) = n) as En by (apply HFx, nth_In; lia).
      rewrite nth_error_app2 by lia. rewrite En. rewrite <- (IH r Hr). f_equal. lia.
Qed.
Print Assumptions C67_gather_aligned.
Example C67_case :
  multi_gather 2 [[[1; 2]; [10; 20]]; [[]; []]; [[3]; [30]]] = [[1; 2; 3]; [10; 20; 30]].
Proof. reflexivity. Qed.

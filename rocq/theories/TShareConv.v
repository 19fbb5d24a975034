(** C164: criteria of convergence in parallel runs. *)
From Verif Require Import MShareConv.
Import ListNotations.
Set Default Goal Selector "!".
Set Bullet Behavior "Strict Subproofs".

Fixpoint indexed {A B} (f : nat -> A -> B) (i : nat) (l : list A) : list B := match l with [] => [] | x :: l => f i x :: indexed f (S i) l end.
Lemma nth_indexed {A B} (f : nat -> A -> B) l : forall i j, nth_error (indexed f i l) j = option_map (f (i + j)) (nth_error l j).
Proof. induction l as [|x l IH]; intros i [|j]; cbn [indexed nth_error option_map]; [reflexivity|reflexivity|rewrite Nat.add_0_r; reflexivity|]. rewrite IH. f_equal. f_equal. lia. Qed.

Section C164.
Variable value : nat -> nat -> num.
Variable rank : nat.
(** A criterion, the [i]th, after [n] checks. *)
Definition after (n i : nat) (h : held) : held :=
  match h with Real c => if aware c || Nat.eqb rank 0 then Real (mkCc (aware c) (vals c ++ map (fun k => value k i) (seq 0 n))) else Real c | Dummy => Dummy end.
Definition readable (h : held) : Prop := match h with Real c => aware c = true \/ rank = 0 \/ vals c <> [] | Dummy => rank <> 0 end.
Lemma check_after n l : forall i, Forall readable l -> check_from value rank n i (indexed (after n) i l) = Ok (indexed (after (S n)) i l).
Proof.
  induction l as [|h l IH]; intros i F; [reflexivity|]. inversion F as [|? ? Fh Fl]; subst. cbn [indexed check_from].
  assert (check_held rank (value n i) (after n i h) = Ok (after (S n) i h)) as ->.
  { destruct h as [[a v]|]; cbn [after aware vals].
    - destruct (a || Nat.eqb rank 0) eqn:E; cbn [check_held aware vals]; rewrite E; [|reflexivity]. rewrite seq_S, map_app, app_assoc. reflexivity.
    - cbn [check_held readable] in *. destruct (Nat.eqb_spec rank 0) as [K|]; [destruct (Fh K)|reflexivity]. }
  cbn [bind]. rewrite IH by exact Fl. reflexivity.
Qed.
(** What is read after at least one check. *)
Definition reading (n i : nat) (h : held) : num :=
  match h with Dummy => NaN | Real c => if aware c || Nat.eqb rank 0 then value n i else last (vals c) NaN end.
Lemma last_rev {A} (l : list A) d : l <> [] -> exists r, rev l = last l d :: r.
Proof. intros N. destruct (exists_last N) as (m & x & ->). rewrite last_last, rev_app_distr. exists (rev m). reflexivity. Qed.
Lemma read_after n l : forall i, Forall readable l -> mapM last_value (indexed (after (S n)) i l) = Ok (indexed (reading n) i l).
Proof.
  induction l as [|h l IH]; intros i F; [reflexivity|]. inversion F as [|? ? Fh Fl]; subst. cbn [indexed mapM].
  assert (last_value (after (S n) i h) = Ok (reading n i h)) as ->; [|cbn [bind]; rewrite IH by exact Fl; reflexivity].
  destruct h as [[a v]|]; cbn [after reading aware vals]; [|reflexivity]. destruct (a || Nat.eqb rank 0) eqn:E; cbn [last_value vals].
  - rewrite seq_S, map_app, app_assoc. cbn [map Nat.add]. rewrite rev_app_distr. reflexivity.
  - cbn [readable aware vals] in Fh. apply orb_false_iff in E as [-> E]. apply Nat.eqb_neq in E. destruct Fh as [Fh|[Fh|Fh]]; [discriminate Fh|destruct (E Fh)|]. destruct (last_rev v NaN Fh) as (r & ->). reflexivity.
Qed.
Lemma iterations_after n l : Forall readable l -> iterations value rank (S n) l = Ok (indexed (after (S n)) 0 l, indexed (reading n) 0 l).
Proof.
  intros F. assert (exists r, iterations value rank n l = Ok (indexed (after n) 0 l, r)) as (r & E).
  { induction n as [|n (r & IH)].
    - exists []. cbn [iterations]. assert (forall i, indexed (after 0) i l = l) as ->; [|reflexivity]. clear. induction l as [|h l IH]; intros i; [reflexivity|]. cbn [indexed]. rewrite IH. f_equal. destruct h as [[a v]|]; cbn [after aware vals seq map]; [|reflexivity]. rewrite app_nil_r. destruct (_ || _); reflexivity.
    - exists (indexed (reading n) 0 l). cbn [iterations]. rewrite IH. cbn [bind]. rewrite check_after by exact F. cbn [bind]. rewrite read_after by exact F. reflexivity. }
  cbn [iterations]. rewrite E. cbn [bind]. rewrite check_after by exact F. cbn [bind]. rewrite read_after by exact F. reflexivity.
Qed.
End C164.

(** A new run, in any process and any number of iterations: nothing is raised; the main process reads the values of the last check, the others the same for criteria that handle MPI and NaN for the rest. *)
Theorem C164_new_run : forall value rank main n, exists l r, iterations value rank (S n) (shared rank main) = Ok (l, r) /\ length r = length main /\
  forall i c, nth_error main i = Some c ->
    nth_error r i = Some (if Nat.eqb rank 0 then value n i else if aware c then value n i else NaN) /\
    (rank = 0 \/ aware c = true -> exists d, nth_error l i = Some (Real d) /\ aware d = aware c /\ vals d = vals c ++ map (fun k => value k i) (seq 0 (S n))).
Proof.
  intros value rank main n. assert (Forall (readable rank) (shared rank main)) as F.
  { unfold shared. destruct (Nat.eqb_spec rank 0) as [E|E]; apply Forall_forall; intros h H; apply in_map_iff in H as (c & <- & _); cbn [readable]; [auto|]. destruct (aware c) eqn:A; cbn [readable]; auto. }
  exists (indexed (after value rank (S n)) 0 (shared rank main)), (indexed (reading value rank n) 0 (shared rank main)). split; [apply iterations_after; exact F|].
  assert (forall A B (f : nat -> A -> B) m i, length (indexed f i m) = length m) as L by (intros A B f m; induction m as [|x m IH]; intros i; cbn [indexed length]; auto).
  assert (length (shared rank main) = length main) as Ls by (unfold shared; destruct (Nat.eqb rank 0); apply map_length).
  split; [rewrite L; exact Ls|]. intros i c H. rewrite !nth_indexed. cbn [Nat.add]. unfold shared. destruct (Nat.eqb_spec rank 0) as [->|E].
  - rewrite (map_nth_error Real _ _ H). cbn [option_map reading after aware vals]. rewrite orb_true_r. split; [reflexivity|]. intros _. eexists. split; [reflexivity|]. split; reflexivity.
  - rewrite (map_nth_error (fun c => if aware c then Real c else Dummy) _ _ H). cbn [option_map]. destruct (aware c) eqn:A; cbn [reading after]; rewrite ?A; cbn [orb].
    + split; [reflexivity|]. intros _. eexists. split; [reflexivity|]. split; [cbn [aware]; auto|reflexivity].
    + split; [reflexivity|]. intros [K|K]; [destruct (E K)|discriminate K].
Qed.
(** A resumed run, if every criterion that does not handle MPI has been checked before: nothing is raised; such criteria keep their saved value in other processes than the main one. *)
Theorem C164_resumed : forall value rank saved n, Forall (fun c => aware c = true \/ vals c <> []) saved -> exists l r, iterations value rank (S n) (resumed saved) = Ok (l, r) /\
  forall i c, nth_error saved i = Some c -> nth_error r i = Some (if Nat.eqb rank 0 then value n i else if aware c then value n i else last (vals c) NaN).
Proof.
  intros value rank saved n H. assert (Forall (readable rank) (resumed saved)) as F.
  { unfold resumed. apply Forall_forall. intros h K. apply in_map_iff in K as (c & <- & Kc). rewrite Forall_forall in H. destruct (H c Kc); cbn [readable]; auto. }
  exists (indexed (after value rank (S n)) 0 (resumed saved)), (indexed (reading value rank n) 0 (resumed saved)). split; [apply iterations_after; exact F|].
  intros i c K. rewrite nth_indexed. unfold resumed. rewrite (map_nth_error Real _ _ K). cbn [option_map reading Nat.add]. destruct (aware c), (Nat.eqb rank 0); reflexivity.
Qed.
(** Refuted: a run can be resumed in parallel from any checkpoint. The first one, saved after the initial training, has criteria without values: every process but the main one raises IndexError in the first iteration if one of them does not handle MPI. *)
Theorem C164_first_refuted : forall value rank saved n, rank <> 0 -> (exists c, In c saved /\ aware c = false) -> Forall (fun c => vals c = []) saved ->
  iterations value rank (S n) (resumed saved) = Err IndexError.
Proof.
  intros value rank saved n Hr (c & Hc & Ha) F.
  assert (forall k i l, Forall (fun h => exists c, h = Real c) l -> exists l', check_from value rank k i l = Ok l' /\ Forall (fun h => exists c, h = Real c) l' /\
    (forall c, In (Real c) l -> aware c = false -> In (Real c) l') /\ (Forall (fun h => match h with Real c => aware c = true \/ vals c = [] | Dummy => False end) l -> Forall (fun h => match h with Real c => vals c <> [] \/ vals c = [] /\ aware c = false | Dummy => False end) l')) as S.
  { intros k i l. revert i. induction l as [|h l IH]; intros i K.
    - exists []. split; [reflexivity|]. split; [constructor|]. split; [auto|constructor].
    - inversion K as [|? ? (d & ->) Kl]; subst. destruct (IH (S i) Kl) as (l' & E & R & In' & Q). cbn [check_from check_held]. apply Nat.eqb_neq in Hr. rewrite Hr, orb_false_r. destruct (aware d) eqn:A; cbn [bind]; rewrite E; cbn [bind]; eexists; (split; [reflexivity|]);
        (split; [constructor; [eexists; reflexivity|exact R]|]); split.
      + intros x [X|X] Ax; [congruence|right; apply In'; auto].
      + intros G. inversion G as [|? ? G1 G2]; subst. constructor; [left; cbn [vals]; intros X; apply app_eq_nil in X as [_ X]; discriminate X|apply Q; exact G2].
      + intros x [X|X] Ax; [left; exact X|right; apply In'; auto].
      + intros G. inversion G as [|? ? G1 G2]; subst. constructor; [destruct G1 as [G1|G1]; [congruence|right; auto]|apply Q; exact G2]. }
  induction n as [|n IH].
  - cbn [iterations]. cbn [bind]. destruct (S 0 0 (resumed saved)) as (l' & E & R & In' & Q).
    { unfold resumed. apply Forall_forall. intros h K. apply in_map_iff in K as (d & <- & _). exists d. reflexivity. }
    rewrite E. cbn [bind].
    assert (In (Real c) l') as Hl by (apply In'; [unfold resumed; apply in_map; exact Hc|exact Ha]). assert (vals c = []) as Hv by (rewrite Forall_forall in F; auto).
    assert (Forall (fun h => match h with Real c => vals c <> [] \/ vals c = [] /\ aware c = false | Dummy => False end) l') as Ql.
    { apply Q. unfold resumed. apply Forall_forall. intros h K. apply in_map_iff in K as (d & <- & Kd). right. rewrite Forall_forall in F. auto. }
    assert (mapM last_value l' = Err IndexError) as ->; [|reflexivity].
    clear - Hl Hv Ql. induction l' as [|h l IH]; [destruct Hl|]. inversion Ql as [|? ? Qh Qr]; subst. cbn [mapM]. destruct h as [d|]; [|destruct Qh]. cbn [last_value]. destruct (rev (vals d)) as [|v r] eqn:Er; cbn [bind]; [reflexivity|].
    destruct Hl as [Hl|Hl]; [injection Hl as ->; rewrite Hv in Er; discriminate Er|]. rewrite (IH Hl Qr). reflexivity.
  - cbn [iterations] in *. rewrite IH. reflexivity.
Qed.
Print Assumptions C164_new_run.
Print Assumptions C164_resumed.
Print Assumptions C164_first_refuted.
(** * Examples: a criterion that handles MPI and one that does not. *)
Example C164_case : let v k i := nz (Z.of_nat (10 * k + i)) in let cs := [mkCc true []; mkCc false []] in
  iterations v 0 2 (shared 0 cs) = Ok ([Real (mkCc true [nz 0; nz 10]); Real (mkCc false [nz 1; nz 11])], [nz 10; nz 11]) /\
  iterations v 3 2 (shared 3 cs) = Ok ([Real (mkCc true [nz 0; nz 10]); Dummy], [nz 10; NaN]) /\
  iterations v 3 1 (resumed [mkCc true [nz 7]; mkCc false [nz 8]]) = Ok ([Real (mkCc true [nz 7; nz 0]); Real (mkCc false [nz 8])], [nz 0; nz 8]) /\
  iterations v 3 1 (resumed cs) = Err IndexError /\ iterations v 0 1 (resumed cs) = Ok ([Real (mkCc true [nz 0]); Real (mkCc false [nz 1])], [nz 0; nz 1]).
Proof. repeat split. Qed.

(** Properties C76 - C83: samples of the surrogate (gpry/mc.py). *)
From Verif Require Import MMc.
Set Default Goal Selector "!".

(** ** C76 *)
Lemma nltb_nz a b : nltb (nz a) (nz b) = (a <? b)%Z.
Proof.
  unfold nltb, nz, qltb, qleb, qc_of_Z. rewrite !this_Q2Qc. unfold Qle_bool, inject_Z. cbn. rewrite !Z.mul_1_r.
  rewrite Z.ltb_antisym. reflexivity.
Qed.
Lemma neqb_nz a b : neqb (nz a) (nz b) = (a =? b)%Z.
Proof.
  unfold neqb, nz, qeqb, qc_of_Z. rewrite !this_Q2Qc. unfold Qeq_bool, inject_Z. cbn. rewrite !Z.mul_1_r.
  unfold Zeq_bool. rewrite Z.eqb_compare. reflexivity.
Qed.
(** The level of the logger for every integer verbosity. *)
Definition level_of (z : Z) : nat :=
  if (3 <? z)%Z then 10 else if (z =? 3)%Z then 20 else if (z =? 2)%Z then 30 else if (z =? 1)%Z then 40 else 50.
Theorem C76_integers :
  forall z, get_cobaya_log_level (VNum (nz z)) = Ok (level_of z)
    /\ forall z', (z <= z')%Z -> level_of z' <= level_of z.
Proof.
  intros z. split.
  - unfold get_cobaya_log_level, verb_num, level_of. rewrite !neqb_nz, !nltb_nz.
    destruct (Z.eqb_spec z 3), (Z.ltb_spec 3 z), (Z.eqb_spec z 2), (Z.eqb_spec z 1), (Z.ltb_spec z 1); try lia; auto.
  - intros z' H. unfold level_of.
    destruct (Z.ltb_spec 3 z), (Z.ltb_spec 3 z'), (Z.eqb_spec z 3), (Z.eqb_spec z' 3), (Z.eqb_spec z 2),
      (Z.eqb_spec z' 2), (Z.eqb_spec z 1), (Z.eqb_spec z' 1); lia.
Qed.
(** Between the integers it raises: 2.5 is neither. *)
Theorem C76_fraction_refuted : get_cobaya_log_level (VNum (nq 5 2)) = Err ValueError.
Proof. reflexivity. Qed.
(** [None] is the usual level; [False] is silent, [True] shows errors only. *)
Theorem C76_other :
  get_cobaya_log_level VNone = Ok (level_of 3) /\ get_cobaya_log_level (VBool false) = Ok 50
  /\ get_cobaya_log_level (VBool true) = Ok 40.
Proof. repeat split. Qed.
Print Assumptions C76_integers.
Print Assumptions C76_other.
Print Assumptions C76_fraction_refuted.
Example C76_example : map (fun z => get_cobaya_log_level (VNum (nz z))) [5; 3; 1; -1]%Z = [Ok 10; Ok 20; Ok 40; Ok 50].
Proof. reflexivity. Qed.

(** ** C77 *)
Section C77.
Variable argsort : list num -> list nat.
Hypothesis sorts : argsort_ok argsort.
Context {point : Type}.

Lemma map_nth_seq (y : list num) : map (fun i => nth i y NaN) (seq 0 (length y)) = y.
Proof.
  apply nth_ext with (d := NaN) (d' := NaN); rewrite map_length, seq_length; [auto|]. intros n H.
  rewrite nth_indep with (d' := nth 0 y NaN) by (rewrite map_length, seq_length; auto).
  rewrite (map_nth (fun i => nth i y NaN)). rewrite seq_nth by auto. auto.
Qed.
Lemma filter_none {A} (p : A -> bool) l : (forall x, In x l -> p x = false) -> filter p l = [].
Proof. induction l as [|x l IH]; intros H; simpl; [auto|]. rewrite H by (left; auto). apply IH. intros; apply H; right; auto. Qed.
Lemma filter_every {A} (p : A -> bool) l : (forall x, In x l -> p x = true) -> filter p l = l.
Proof. induction l as [|x l IH]; intros H; simpl; [auto|]. rewrite H by (left; auto). f_equal. apply IH. intros; apply H; right; auto. Qed.
Lemma filter_perm {A} (p : A -> bool) l k : Permutation l k -> length (filter p l) = length (filter p k).
Proof.
  induction 1 as [|x l k H IH|x y l|l k m H1 IH1 H2 IH2]; simpl.
  - auto.
  - destruct (p x); simpl; auto.
  - destruct (p x), (p y); simpl; auto.
  - congruence.
Qed.
Lemma filter_length_le {A} (p : A -> bool) l : length (filter p l) <= length l.
Proof. induction l as [|x l IH]; simpl; [auto|]. destruct (p x); simpl; lia. Qed.

Lemma reference_index X y rank (x : option point) : length X = length y ->
  mcmc_reference argsort point X y rank = Ok x ->
  (rank < length y -> exists i, nth_error (argsort y) (length y - (rank + 1)) = Some i /\ i < length y /\ x = nth_error X i)
  /\ (length y <= rank -> x = None).
Proof.
  intros HX H. destruct (sorts y) as [P _]. assert (length (argsort y) = length y) as L.
  { apply Permutation_length in P. rewrite seq_length in P. auto. }
  unfold mcmc_reference, MGpr.py_neg_index in H. rewrite L in H. destruct (Nat.eqb_spec (rank + 1) 0); [lia|].
  destruct (Nat.ltb_spec (length y) (rank + 1)); split; intros; try lia.
  - congruence.
  - destruct (nth_error (argsort y) (length y - (rank + 1))) as [i|] eqn:E.
    + exists i. split; [auto|]. assert (i < length y) as Hi.
      { apply nth_error_In in E. eapply Permutation_in in E; [|exact P]. apply in_seq in E. lia. }
      split; [auto|]. destruct (nth_error X i) as [p|] eqn:E2; [congruence|]. apply nth_error_None in E2. lia.
    + exfalso. apply nth_error_None in E. lia.
Qed.

(** Process [rank] starts its chain at the ([rank]+1)-th best training point: fewer than [rank]+1 points
    are better, at least [rank]+1 are as good. Processes beyond the number of points draw from the prior. *)
Theorem C77_start :
  forall (X : list point) y rank, length X = length y -> (forall v, In v y -> isnan v = false) ->
    (rank < length y ->
       exists i x v, mcmc_reference argsort point X y rank = Ok (Some x)
         /\ nth_error X i = Some x /\ nth_error y i = Some v
         /\ length (filter (fun u => nltb v u) y) <= rank < length (filter (fun u => nleb v u) y))
    /\ (length y <= rank -> mcmc_reference argsort point X y rank = Ok None).
Proof.
  intros X y rank HX Hn. destruct (sorts y) as [P S].
  assert (length (argsort y) = length y) as L. { apply Permutation_length in P. rewrite seq_length in P. auto. }
  assert (exists x, mcmc_reference argsort point X y rank = Ok x) as [x Hx].
  { unfold mcmc_reference, MGpr.py_neg_index. destruct (rank + 1 =? 0); [destruct (argsort y) as [|i l]; eauto; destruct (nth_error X i); eauto|].
    destruct (length (argsort y) <? rank + 1); eauto. destruct (nth_error (argsort y) (length (argsort y) - (rank + 1))) as [i|]; eauto.
    destruct (nth_error X i); eauto. }
  rewrite Hx. destruct (reference_index X y rank x HX Hx) as [H1 H2]. split.
  2: { intros Hr. rewrite H2; auto. }
  intros Hr. destruct (H1 Hr) as (i & Hi & Hlt & ->).
  destruct (nth_error X i) as [p|] eqn:Ep; [|apply nth_error_None in Ep; lia].
  destruct (nth_error y i) as [v|] eqn:Ev; [|apply nth_error_None in Ev; lia].
  exists i, p, v. split; [auto|]. split; [auto|]. split; [auto|].
  set (s := map (fun i => nth i y NaN) (argsort y)).
  assert (Permutation s y) as Ps. { eapply Permutation_trans; [apply Permutation_map, P|]. rewrite map_nth_seq. auto. }
  rewrite <- (filter_perm _ _ _ Ps), <- (filter_perm (fun u => nleb v u) _ _ Ps).
  set (k := length y - (rank + 1)) in *.
  assert (nth_error s k = Some v) as Hk.
  { unfold s. rewrite nth_error_map, Hi. simpl. f_equal. apply nth_error_nth; auto. }
  assert (forall j u, nth_error s j = Some u -> np_le (if j <=? k then u else v) (if j <=? k then v else u) = true) as Hs.
  { intros j u Hj. unfold s in Hj. rewrite nth_error_map in Hj. destruct (nth_error (argsort y) j) as [i'|] eqn:Ej; [|discriminate].
    injection Hj as Hj. assert (i' < length y) as Hi'.
    { apply nth_error_In in Ej. eapply Permutation_in in Ej; [|exact P]. apply in_seq in Ej. lia. }
    assert (nth_error y i' = Some u) as Hu. { rewrite <- Hj. apply nth_error_nth'. auto. }
    destruct (Nat.leb_spec j k).
    - apply (S j k i' i); auto.
    - apply (S k j i i'); auto. lia. }
  assert (forall u, In u s -> isnan u = false) as Hns.
  { intros u Hu. apply Hn. eapply Permutation_in; [exact Ps|auto]. }
  assert (length s = length y) as Ls by (unfold s; rewrite map_length; auto).
  destruct (nth_error_split s k Hk) as (l1 & l2 & Es & Lk).
  assert (length l1 + 1 + length l2 = length y) as Lt.
  { rewrite <- Ls, Es, app_length. simpl. lia. }
  assert (forall u, In u l1 -> nleb u v = true) as Ha.
  { intros u Hu. destruct (In_nth_error _ _ Hu) as [j Hj]. assert (j < length l1) by (apply nth_error_Some; congruence).
    specialize (Hs j u). rewrite Es, nth_error_app1 in Hs by auto. specialize (Hs Hj).
    destruct (Nat.leb_spec j k); [|lia]. unfold np_le in Hs. rewrite Hns in Hs; [auto|]. apply nth_error_In in Hk. auto. }
  assert (forall u, In u l2 -> nleb v u = true) as Hb.
  { intros u Hu. destruct (In_nth_error _ _ Hu) as [j Hj]. specialize (Hs (length l1 + (1 + j)) u).
    rewrite Es, nth_error_app2 in Hs by lia. replace (length l1 + (1 + j) - length l1) with (1 + j) in Hs by lia.
    specialize (Hs Hj). destruct (Nat.leb_spec (length l1 + (1 + j)) k); [lia|]. unfold np_le in Hs. rewrite Hns in Hs; [auto|].
    rewrite Es. apply in_app_iff. right. right. auto. }
  rewrite Es, !filter_app, !app_length. split.
  - rewrite filter_none.
    + assert (isnan v = false) as Hv by (apply Hns; rewrite Es; apply in_app_iff; right; left; auto).
      cbn [filter]. rewrite (nltb_not_leb v v Hv Hv), nleb_refl by auto. cbn [negb length].
      pose proof (filter_length_le (fun u => nltb v u) l2). lia.
    + intros u Hu. rewrite nltb_not_leb; [rewrite Ha; auto| |]; apply Hns; rewrite Es; apply in_app_iff; [right; left; auto|left; auto].
  - rewrite (filter_every _ (v :: l2)).
    + simpl. lia.
    + intros u [<-|Hu]; [|auto]. apply nleb_refl. apply Hns. rewrite Es. apply in_app_iff. right; left; auto.
Qed.
(** Two processes that start from training points start from different ones. *)
Theorem C77_distinct :
  forall (X : list point) y r r' p p', length X = length y -> NoDup X -> r <> r' ->
    mcmc_reference argsort point X y r = Ok (Some p) -> mcmc_reference argsort point X y r' = Ok (Some p') -> p <> p'.
Proof.
  intros X y r r' p p' HX Hd Hr H H' E.
  assert (r < length y) as L. { destruct (Nat.lt_ge_cases r (length y)) as [|G]; auto. apply reference_index in H as [_ H]; auto. specialize (H G). discriminate. }
  assert (r' < length y) as L'. { destruct (Nat.lt_ge_cases r' (length y)) as [|G]; auto. apply reference_index in H' as [_ H']; auto. specialize (H' G). discriminate. }
  apply reference_index in H as [H _]; auto. apply reference_index in H' as [H' _]; auto.
  destruct (H L) as (i & Hi & Li & Ei), (H' L') as (i' & Hi' & Li' & Ei'). subst p'.
  assert (i = i') as ->. { apply (proj1 (NoDup_nth_error X) Hd); congruence. }
  destruct (sorts y) as [P _]. assert (NoDup (argsort y)) as Hn.
  { eapply Permutation_NoDup; [apply Permutation_sym; exact P|apply seq_NoDup]. }
  assert (length y - (r + 1) = length y - (r' + 1)) as Q; [|lia].
  apply (proj1 (NoDup_nth_error _) Hn); [apply nth_error_Some|]; congruence.
Qed.
End C77.
Print Assumptions C77_start.
Print Assumptions C77_distinct.
Example C77_example :
  map (mcmc_reference stable_argsort Z [10; 11; 12]%Z [nz (-5); nz 2; nz 0]) [0; 1; 2; 3] = [Ok (Some 11%Z); Ok (Some 12%Z); Ok (Some 10%Z); Ok None].
Proof. reflexivity. Qed.

(** ** C78 *)
Section C78.
Context {M : Type}.
Variable valid : M -> bool.
(** With normal verbosity, only a valid matrix is handed over, and always when there is one. *)
Theorem C78_valid :
  forall cov verbose, nleb (nz 2) verbose = true ->
    covmat_entry M valid cov verbose = match cov with Some c => if valid c then Some (Some c) else None | None => None end.
Proof. intros [c|] v Hv; unfold covmat_entry; rewrite Hv; [destruct (valid c); auto|auto]. Qed.
(** The matrix passed by the user has precedence. *)
Theorem C78_precedence :
  forall c a v, choose_cov M (Some c) a v = Some c /\ choose_cov M None (Some c) v = Some c /\ choose_cov M None None v = v.
Proof. auto. Qed.
(** When the run is quiet, an invalid matrix is handed over too. *)
Theorem C78_quiet_refuted :
  forall cov verbose, nltb verbose (nz 2) = true -> covmat_entry M valid cov verbose = Some cov.
Proof.
  intros cov v Hv. unfold covmat_entry. assert (nleb (nz 2) v = false) as ->; [|rewrite andb_false_r; auto].
  destruct (nleb (nz 2) v) eqn:E; [|auto]. rewrite nltb_not_leb in Hv; [rewrite E in Hv; discriminate| |auto].
  destruct v; auto.
Qed.
End C78.
Print Assumptions C78_valid.
Print Assumptions C78_precedence.
Print Assumptions C78_quiet_refuted.
(** Matrices are integers, valid when positive. *)
Example C78_example :
  covmat_entry Z (fun c => (0 <? c)%Z) (Some (-1)%Z) (nz 3) = None
  /\ covmat_entry Z (fun c => (0 <? c)%Z) (Some 4%Z) (nz 3) = Some (Some 4%Z)
  /\ covmat_entry Z (fun c => (0 <? c)%Z) (Some (-1)%Z) (nz 1) = Some (Some (-1)%Z)
  /\ covmat_entry Z (fun c => (0 <? c)%Z) None (nz 1) = Some None.
Proof. repeat split. Qed.

(** ** C79 *)
Lemma kwarg_in kw name v : NoDup (map fst kw) -> In (name, v) kw -> kwarg kw name = Ok v.
Proof.
  unfold kwarg. induction kw as [|[k a] kw IH]; intros Hn Hi; [destruct Hi|]. simpl in *. inversion Hn; subst.
  destruct (String.eqb_spec k name) as [->|N].
  - destruct Hi as [Hi|Hi]; [injection Hi as ->; reflexivity|]. exfalso. apply H1. apply in_map_iff. exists (name, v). auto.
  - destruct Hi as [Hi|Hi]; [congruence|]. auto.
Qed.
Lemma mapM_ok {A B} (f : A -> res B) (g : A -> B) l : (forall a, In a l -> f a = Ok (g a)) -> mapM f l = Ok (map g l).
Proof. induction l as [|a l IH]; intros H; simpl; [auto|]. rewrite H by (left; auto). simpl. rewrite IH by (intros; apply H; right; auto). auto. Qed.
Lemma mapM_combine (kw : list (string * num)) : forall params x, length x = length params ->
  (forall p v, In (p, v) (combine params x) -> kwarg kw p = Ok v) -> mapM (kwarg kw) params = Ok x.
Proof.
  induction params as [|p params IH]; intros [|v x] L H; simpl in *; try discriminate; [auto|].
  rewrite (H p v) by (left; auto). simpl. rewrite (IH x); auto.
Qed.
Lemma fst_combine {A B} (l : list A) (k : list B) : length k = length l -> map fst (combine l k) = l.
Proof. revert k. induction l as [|x l IH]; intros [|y k] H; simpl in *; try discriminate; [auto|]. rewrite IH; auto. Qed.
(** The model handed to Cobaya: one prior per parameter, equal to its bounds; called with the value of
    each parameter under its name, in any order, the likelihood is the prediction at that point plus
    the log-volume. *)
Theorem C79_model :
  forall predict log_volume d g bounds params b ps,
    b = match bounds with Some b => b | None => g end -> length b = d -> length g = d ->
    ps = match params with Some ps => ps | None => map (fun i => String.append "x_" (str_of_nat (i + 1))) (seq 0 d) end ->
    length ps = d -> 0 < d -> NoDup ps ->
    exists m, cobaya_generate_gp_model_input predict log_volume d (Some g) (option_map BArray bounds) params = Ok m
      /\ in_params m = ps
      /\ (forall j p l, nth_error ps j = Some p -> nth_error b j = Some l -> nth_error (in_prior m) j = Some (p, l))
      /\ forall x kw, length x = d -> Permutation kw (combine ps x) ->
           in_like m kw = Ok (nadd (predict x) (log_volume b)).
Proof.
  intros predict lv d g bounds params b ps Eb Lb Lg Ep Lp Hd Hn.
  exists (mkInput ps (combine ps b) (fun kw => do xs <- mapM (kwarg kw) ps; Ok (nadd (predict xs) (lv b)))).
  split; [|split; [auto|split]].
  - unfold cobaya_generate_gp_model_input, generic_params_names. destruct (Nat.eqb_spec d 0); [lia|].
    destruct bounds as [b'|]; cbn [option_map]; subst b; cbn [pairs].
    + rewrite Lb, Lg, Nat.eqb_refl. simpl. destruct params as [ps'|]; subst ps; [rewrite Lp, Nat.eqb_refl|]; reflexivity.
    + simpl. destruct params as [ps'|]; subst ps; [rewrite Lp, Nat.eqb_refl|]; reflexivity.
  - cbn [in_prior]. clear. revert b. induction ps as [|q ps IH]; intros [|c b] [|j] p l H1 H2; simpl in *; try discriminate; [congruence|auto].
  - intros x kw Lx HP. cbn [in_like]. rewrite (mapM_combine kw ps x); [reflexivity|lia|].
    intros p v Hi. apply kwarg_in.
    + eapply Permutation_NoDup; [apply Permutation_map, Permutation_sym, HP|]. rewrite fst_combine by lia. auto.
    + eapply Permutation_in; [apply Permutation_sym, HP|auto].
Qed.
(** A call without one of the parameters raises. *)
Theorem C79_missing :
  forall predict log_volume d gp_bounds bounds params m p kw,
    cobaya_generate_gp_model_input predict log_volume d gp_bounds bounds params = Ok m ->
    In p (in_params m) -> ~ In p (map fst kw) -> in_like m kw = Err KeyError.
Proof.
  intros predict lv d g b params m p kw H Hp Hk.
  assert (forall ps, In p ps -> forall q, mapM (kwarg kw) ps = Ok q -> False) as K.
  { clear - Hk. induction ps as [|q ps IH]; intros Hp x H; [destruct Hp|]. cbn [mapM] in H. destruct Hp as [<-|Hp].
    - destruct (kwarg kw q) as [v|] eqn:E; [|discriminate]. apply Hk. unfold kwarg in E.
      destruct (find _ kw) as [[k w]|] eqn:Ef; [|discriminate]. apply find_some in Ef as [Hi He].
      apply String.eqb_eq in He. cbn in He. subst k. apply in_map_iff. exists (q, w). auto.
    - destruct (kwarg kw q); [|discriminate]. cbn [bind] in H. destruct (mapM (kwarg kw) ps) as [y|] eqn:E; [|discriminate].
      eapply IH; eauto. }
  assert (forall ps x, mapM (kwarg kw) ps = Err x -> x = KeyError) as Kx.
  { clear. induction ps as [|q ps IH]; intros x H; cbn [mapM] in H; [discriminate|]. unfold kwarg at 1 in H.
    destruct (find _ kw); cbn [bind] in H; [|congruence]. destruct (mapM (kwarg kw) ps) as [y|]; cbn [bind] in H; [discriminate|].
    apply IH. congruence. }
  unfold cobaya_generate_gp_model_input in H.
  match type of H with bind ?r _ = _ => destruct r as [b'|]; [|discriminate] end. cbn [bind] in H.
  match type of H with bind ?r _ = _ => destruct r as [ps|]; [|discriminate] end. cbn [bind] in H.
  destruct b' as [b'|]; [|discriminate]. injection H as <-. cbn [in_like in_params] in *.
  destruct (mapM (kwarg kw) ps) as [y|x] eqn:E; [destruct (K _ Hp _ E)|]. cbn [bind]. f_equal. exact (Kx _ _ E).
Qed.
(** The documented form of [bounds], a list of pairs, is never accepted. *)
Theorem C79_list_refuted :
  forall predict log_volume d g b params m,
    cobaya_generate_gp_model_input predict log_volume d g (Some (BList b)) params <> Ok m.
Proof.
  intros predict lv d g b params m. unfold cobaya_generate_gp_model_input. cbn [pairs].
  assert (forall A B (r : res A) (k : A -> res B) m, (forall a, k a <> Ok m) -> (do x <- r; k x) <> Ok m) as K.
  { intros A B [a|e] k m' H; simpl; [apply H|discriminate]. }
  intros H. revert H. destruct g as [g|]; [destruct (length b =? length g); [|discriminate]|]; cbn [bind]; apply K; intros; discriminate.
Qed.
Print Assumptions C79_model.
Print Assumptions C79_missing.
Print Assumptions C79_list_refuted.
Example C79_example :
  match cobaya_generate_gp_model_input (fun x => nadd (nth 0 x NaN) (nmul (nz 10) (nth 1 x NaN))) (fun _ => nz 100) 2
          (Some [(nz 0, nz 1); (nz 0, nz 2)]) None None with
  | Ok m => in_params m = ["x_1"; "x_2"]%string /\ in_like m [("x_2", nz 2); ("x_1", nz 1)]%string = Ok (nz 121)
  | Err _ => False
  end.
Proof. vm_compute. split; reflexivity. Qed.

(** ** C80 *)
(** Only an unnamed sampler is chosen by what is installed (PolyChord first); a named one is used or the
    call raises, whatever the capitals. *)
Definition named (s : string) (i : ns_name) : Prop :=
  lower s = match i with PolyChord => "polychord" | UltraNest => "ultranest" | Nessai => "nessai" end%string.
Theorem C80_default :
  forall installed i, ns_sampler installed None = Ok i <->
    (i = PolyChord /\ installed PolyChord = true)
    \/ (i = UltraNest /\ installed PolyChord = false /\ installed UltraNest = true).
Proof.
  intros f i. unfold ns_sampler. simpl. destruct (f PolyChord), (f UltraNest); intuition congruence.
Qed.
Theorem C80_named :
  forall installed s i, lower s <> "nested"%string ->
    (ns_sampler installed (Some (Some s)) = Ok i <-> named s i /\ installed i = true).
Proof.
  intros f s i Hs. unfold ns_sampler, named. simpl. destruct (String.eqb_spec (lower s) "nested"); [congruence|].
  unfold interface. destruct (String.eqb_spec (lower s) "polychord") as [E|E1].
  - rewrite E. destruct (f PolyChord) eqn:F; split; intros H.
    + injection H as <-. auto.
    + destruct H as [H1 H2]. destruct i; (reflexivity || discriminate).
    + discriminate.
    + destruct H as [H1 H2]. destruct i; (congruence || discriminate).
  - destruct (String.eqb_spec (lower s) "ultranest") as [E|E2].
    + rewrite E. destruct (f UltraNest) eqn:F; split; intros H.
      * injection H as <-. auto.
      * destruct H as [H1 H2]. destruct i; (reflexivity || discriminate).
      * discriminate.
      * destruct H as [H1 H2]. destruct i; (congruence || discriminate).
    + destruct (String.eqb_spec (lower s) "nessai") as [E|E3].
      * rewrite E. destruct (f Nessai) eqn:F; split; intros H.
        -- injection H as <-. auto.
        -- destruct H as [H1 H2]. destruct i; (reflexivity || discriminate).
        -- discriminate.
        -- destruct H as [H1 H2]. destruct i; (congruence || discriminate).
      * split; [discriminate|]. intros [H _]. destruct i; congruence.
Qed.
(** [s] is the word [w] but for capitals. *)
Fixpoint spelled (s w : string) : Prop :=
  match s, w with
  | EmptyString, EmptyString => True
  | String c s, String d w =>
      (c = d \/ exists k, String.get k "ABCDEFGHIJKLMNOPQRSTUVWXYZ" = Some c /\ String.get k "abcdefghijklmnopqrstuvwxyz" = Some d)
      /\ spelled s w
  | _, _ => False
  end.
Lemma spelled_lower : forall w s, lower w = w -> spelled s w -> lower s = w.
Proof.
  induction w as [|d w IH]; intros [|c s] Hw H; cbn [spelled] in H; try contradiction; [reflexivity|].
  cbn [lower] in Hw |- *. injection Hw as Hd Hw. destruct H as [Hc H]. rewrite (IH s Hw H). f_equal.
  destruct Hc as [->|(k & E1 & E2)]; [exact Hd|].
  do 26 (destruct k as [|k]; [injection E1 as <-; injection E2 as <-; reflexivity|]). destruct k; discriminate.
Qed.
(** However it is spelled, an installed sampler is used. *)
Theorem C80_spelling :
  forall installed s i, spelled s (match i with PolyChord => "polychord" | UltraNest => "ultranest" | Nessai => "nessai" end) ->
    installed i = true -> ns_sampler installed (Some (Some s)) = Ok i.
Proof.
  intros f s i H Hi. assert (named s i) as Hn by (apply spelled_lower; [destruct i; reflexivity|exact H]).
  apply C80_named; [|auto]. rewrite Hn. destruct i; discriminate.
Qed.
Print Assumptions C80_spelling.
Print Assumptions C80_default.
Print Assumptions C80_named.
Example C80_example :
  let only_ultranest i := match i with UltraNest => true | _ => false end in
  ns_sampler only_ultranest None = Ok UltraNest /\ ns_sampler only_ultranest (Some (Some "PolyChord"%string)) = Err NotInstalled
  /\ ns_sampler only_ultranest (Some (Some "UltraNest"%string)) = Ok UltraNest
  /\ spelled "uLTRANEST" "ultranest".
Proof.
  cbv zeta. split; [reflexivity|]. split; [reflexivity|]. split; [reflexivity|]. cbn [spelled].
  split; [left; reflexivity|]. repeat split; right; [exists 11|exists 19|exists 17|exists 0|exists 13|exists 4|exists 18|exists 19]; split; reflexivity.
Qed.

(** ** C81 *)
(** The file holds, for each point, its weight (1 if all are equal), minus its log-posterior and its
    coordinates, under a header naming the columns. *)
Theorem C81_rows :
  forall params X y w, length y = length X -> (forall v, w = Some v -> length v = length X) ->
    exists rows, ns_file (Some params) X y w = Ok ("w" :: "minuslogp" :: params, rows)%string
      /\ length rows = length X
      /\ forall i x a, nth_error X i = Some x -> nth_error y i = Some a ->
           exists v, nth_error rows i = Some (v :: nneg a :: x)
             /\ match w with Some w => nth_error w i = Some v | None => v = nz 1 end.
Proof.
  intros params X y w Hy Hw. unfold ns_file. simpl.
  set (w' := match w with Some w => w | None => repeat (nz 1) (length y) end).
  assert (length w' = length X) as Lw. { unfold w'. destruct w as [v|]; [auto|]. rewrite repeat_length. auto. }
  rewrite Lw, Hy, !Nat.eqb_refl. cbn [andb]. eexists. split; [reflexivity|]. split.
  { rewrite map_length, !combine_length. lia. }
  intros i x a Hx Ha. assert (i < length X) as Li by (apply nth_error_Some; congruence).
  destruct (nth_error w' i) as [v|] eqn:Ev; [|apply nth_error_None in Ev; lia]. exists v. split.
  - rewrite nth_error_map. enough (nth_error (combine (combine w' y) X) i = Some ((v, a), x)) as -> by reflexivity.
    clearbody w'. clear - Hx Ha Ev. revert X y w' Hx Ha Ev. induction i as [|i IH]; intros [|x' X] [|a' y] [|v' w0] Hx Ha Ev; simpl in *;
      try discriminate; [congruence|auto].
  - unfold w' in Ev. destruct w as [w|]; [auto|]. apply nth_error_In in Ev. apply repeat_spec in Ev. auto.
Qed.
(** Without parameter names it is never written. *)
Theorem C81_default_refuted : forall X y w, ns_file None X y w = Err NameError.
Proof. reflexivity. Qed.
Print Assumptions C81_rows.
Print Assumptions C81_default_refuted.
Example C81_example :
  ns_file (Some ["a"]%string) [[nz 5]; [nz 6]] [nz (-1); nz (-2)] None
  = Ok (["w"; "minuslogp"; "a"]%string, [[nz 1; nz 1; nz 5]; [nz 1; nz 2; nz 6]]).
Proof. reflexivity. Qed.

(** ** C82 *)
(** Samples already in the right form are passed on under the same keys; paths are read. *)
Theorem C82_known :
  forall load installed d (f : gd_value -> nat),
    (forall k v, In (k, v) d -> match v with GPath s => load s = Ok (f v) | GSamples n => f v = n | _ => False end) ->
    process_gdsamples load installed d = Ok (map (fun kv => (fst kv, f (snd kv))) d).
Proof.
  intros load installed d f H. apply mapM_ok. intros [k v] Hi. specialize (H k v Hi). simpl. destruct v; try contradiction.
  - rewrite H. reflexivity.
  - congruence.
Qed.
(** Cobaya's samples, which the code means to convert, always make it raise. *)
Theorem C82_cobaya_refuted :
  forall load installed d k n r, In (k, GCollection n) d -> process_gdsamples load installed d <> Ok r.
Proof.
  intros load installed d k n. unfold process_gdsamples. induction d as [|[k' v] d IH]; intros r Hi H; [destruct Hi|].
  simpl in H. destruct Hi as [Hi|Hi].
  - injection Hi as -> ->. destruct installed; discriminate.
  - destruct v as [s|m|m|]; simpl in H.
    + destruct (load s); simpl in H; [|discriminate]. match type of H with bind ?m _ = _ => destruct m as [l|] eqn:E end; [|discriminate]. exact (IH l Hi eq_refl).
    + match type of H with bind ?m _ = _ => destruct m as [l|] eqn:E end; [|discriminate]. exact (IH l Hi eq_refl).
    + destruct installed; discriminate.
    + destruct installed; discriminate.
Qed.
Print Assumptions C82_known.
Print Assumptions C82_cobaya_refuted.
Example C82_example :
  process_gdsamples (fun s => Ok (String.length s)) true [("a", GPath "root"); ("b", GSamples 7)]%string = Ok [("a", 4); ("b", 7)]%string
  /\ process_gdsamples (fun s => Ok 0) true [("b", GCollection 7)]%string = Err NameError.
Proof. split; reflexivity. Qed.

(** ** C83 *)
Lemma add_logs s l : forall cols names labels,
  (forall k v, In k (map fst l) -> get_key k s = Ok (CVec v) -> v <> []) ->
  exists extra : list ((string * string) * list num),
    fold_left (add_log s) l (Ok (cols, names, labels))
      = Ok (cols ++ map snd extra, names ++ map (fun e => (fst (fst e) ++ "*")%string) extra, labels ++ map (fun e => snd (fst e)) extra)
    /\ (forall k v, In (k, v) extra -> In k l /\ get_key (fst k) s = Ok (CVec v))
    /\ (forall k v a b, In k l -> get_key (fst k) s = Ok (CVec v) -> py_list_max v = Ok a -> py_list_min v = Ok b ->
         close_to_0 (nsub a b) = false -> In (k, v) extra).
Proof.
  induction l as [|[k lab] l IH]; intros cols names labels H.
  - exists []. rewrite !app_nil_r. simpl. intuition.
  - cbn [fold_left In]. assert (forall k v, In k (map fst l) -> get_key k s = Ok (CVec v) -> v <> []) as H' by (intros ? ? ?; apply H; right; auto).
    assert (forall cols names labels, exists extra,
      fold_left (add_log s) l (Ok (cols, names, labels))
      = Ok (cols ++ map snd extra, names ++ map (fun e => (fst (fst e) ++ "*")%string) extra, labels ++ map (fun e => snd (fst e)) extra)
      /\ (forall k v, In (k, v) extra -> In k l /\ get_key (fst k) s = Ok (CVec v))
      /\ (forall k v a b, In k l -> get_key (fst k) s = Ok (CVec v) -> py_list_max v = Ok a -> py_list_min v = Ok b ->
           close_to_0 (nsub a b) = false -> In (k, v) extra)) as IH' by (intros; apply IH; auto).
    clear IH. unfold add_log at 2. cbn [bind fst snd].
    assert (forall cols names labels,
      (forall v a b, get_key k s = Ok (CVec v) -> py_list_max v = Ok a -> py_list_min v = Ok b -> close_to_0 (nsub a b) = false -> False) ->
      exists extra : list ((string * string) * list num),
      fold_left (add_log s) l (Ok (cols, names, labels))
      = Ok (cols ++ map snd extra, names ++ map (fun e => (fst (fst e) ++ "*")%string) extra, labels ++ map (fun e => snd (fst e)) extra)
      /\ (forall k0 v, In (k0, v) extra -> ((k, lab) = k0 \/ In k0 l) /\ get_key (fst k0) s = Ok (CVec v))
      /\ (forall k0 v a b, (k, lab) = k0 \/ In k0 l -> get_key (fst k0) s = Ok (CVec v) -> py_list_max v = Ok a -> py_list_min v = Ok b ->
           close_to_0 (nsub a b) = false -> In (k0, v) extra)) as Skip.
    { intros c n b Hno. destruct (IH' c n b) as (extra & E & H1 & H2). exists extra. split; [auto|]. split.
      - intros k0 v Hi. destruct (H1 k0 v Hi). auto.
      - intros k0 v x y [<-|Hi] Hk Ha Hb Hc; [|eauto]. destruct (Hno v x y Hk Ha Hb Hc). }
    destruct (get_key k s) as [[|y|m]|e] eqn:Ek; try (apply Skip; congruence).
    destruct y as [|a y]; [exfalso; apply (H k []); [left; auto|auto|auto]|]. cbn [py_list_max py_list_min bind].
    destruct (close_to_0 (nsub (fold_left pymax y a) (fold_left pymin y a))) eqn:Ec.
    + apply Skip. intros v x z Hv Hx Hz Hc. injection Hv as <-. injection Hx as <-. injection Hz as <-. congruence.
    + destruct (IH' (cols ++ [a :: y]) (names ++ [(k ++ "*")%string]) (labels ++ [lab])) as (extra & E & H1 & H2).
      exists (((k, lab), a :: y) :: extra). split; [|split].
      * rewrite E. cbn [map fst snd]. rewrite <- !app_assoc. reflexivity.
      * intros k0 v [Hi|Hi]; [injection Hi as <- <-; auto|]. destruct (H1 k0 v Hi). auto.
      * intros k0 v x z [<-|Hi] Hk Hx Hz Hc; [left; cbn [fst] in Hk; congruence|right; eauto].
Qed.
Lemma mapM_length {A B} (f : A -> res B) l k : mapM f l = Ok k -> length k = length l.
Proof.
  revert k. induction l as [|a l IH]; intros k H; simpl in H; [injection H as <-; auto|].
  destruct (f a); simpl in H; [|discriminate]. destruct (mapM f l) eqn:E; simpl in H; [|discriminate].
  injection H as <-. simpl. f_equal. apply IH; auto.
Qed.
Definition two_points : sample :=
  store_sample (fun _ => nz (-1)) [[nz 1; nz 2]; [nz 3; nz 4]] [nz (-5); nz (-6)] None.
(** For a stored sample with at least one point and one pair of bounds per parameter: every column of the
    result goes with the name at the same place, first the parameters (with their bounds as ranges), then
    those log-densities that vary by more than 1e-8; weights and minus log-posteriors are handed over. *)
Theorem C83_columns :
  forall logprior X y w names bounds, X <> [] -> length y = length X -> length bounds = length names -> names <> [] ->
    let s := store_sample logprior X y w in
    exists g, samples_dict_to_getdist s (Some (map Name names)) (Some bounds) = Ok g
      /\ length (gd_columns g) = length (gd_names g) /\ length (gd_labels g) = length (gd_names g)
      /\ gd_loglikes g = Some (map nneg y) /\ get_key "w" s = Ok (gd_weights g)
      /\ (forall j p, nth_error names j = Some p ->
           nth_error (gd_names g) j = Some p /\ nth_error (gd_columns g) j = Some (map (fun x => nth j x NaN) X))
      /\ gd_ranges g = combine names bounds
      /\ (forall j c, length names <= j -> nth_error (gd_columns g) j = Some c ->
           exists k, nth_error (gd_names g) j = Some (k ++ "*")%string /\ get_key k s = Ok (CVec c))
      /\ (forall k v a b, In k ["logpost"; "logprior"; "loglike"]%string -> get_key k s = Ok (CVec v) ->
           py_list_max v = Ok a -> py_list_min v = Ok b -> close_to_0 (nsub a b) = false ->
           In ((k ++ "*")%string, v) (combine (gd_names g) (gd_columns g))).
Proof.
  intros logprior X y w names bounds HX Hy Hb Hnm s.
  destruct (add_logs s log_columns (transpose (length names) X) names names) as (extra & E & H1 & H2).
  { intros k v Hk Hg. assert (length v = length X) as Lv.
    { unfold s, store_sample in Hg. simpl in Hk. destruct Hk as [<-|[<-|[<-|[]]]]; vm_compute in Hg; injection Hg as <-.
      - auto.
      - apply map_length.
      - change (length (map (fun q => nsub (fst q) (snd q)) (combine y (map logprior X))) = length X).
        rewrite map_length, combine_length, map_length. lia. }
    destruct X; [congruence|]. intros ->. discriminate. }
  assert (forall f, mapM (name_and_label (Name f)) (map Name names) = Ok (map (fun n => (n, n)) names)) as En.
  { intros f. clear. induction names as [|n names IH]; [auto|]. cbn [map mapM name_and_label bind]. rewrite IH. auto. }
  assert (map fst (map (fun n : string => (n, n)) names) = names) as Ef by (rewrite map_map; simpl; apply map_id).
  assert (map snd (map (fun n : string => (n, n)) names) = names) as Es by (rewrite map_map; simpl; apply map_id).
  eexists. split.
  { unfold samples_dict_to_getdist. change (get_key "X" s) with (Ok (CMat X)). cbn [bind].
    assert (match map Name names with [] => Ok [] | p :: _ => mapM (name_and_label p) (map Name names) end
            = Ok (map (fun n => (n, n)) names)) as ->.
    { destruct names as [|n names]; [congruence|]. cbn [map]. apply (En n). }
    cbn [bind]. rewrite Ef, Es, map_length, E. cbn [bind]. reflexivity. }
  cbn [gd_columns gd_names gd_labels gd_weights gd_loglikes gd_ranges].
  assert (length (transpose (length names) X) = length names) as Lt by (unfold transpose; rewrite map_length, seq_length; auto).
  split; [rewrite !app_length, !map_length, Lt; auto|]. split; [rewrite !app_length, !map_length; auto|].
  split; [reflexivity|]. split; [reflexivity|]. split; [|split; [|split]].
  - intros j p Hj. assert (j < length names) as Lj by (apply nth_error_Some; congruence).
    rewrite !nth_error_app1 by lia. split; [auto|]. unfold transpose. rewrite nth_error_map.
    assert (nth_error (seq 0 (length names)) j = Some j) as ->; [|reflexivity].
    rewrite nth_error_nth' with (d := 0) by (rewrite seq_length; auto). rewrite seq_nth; auto.
  - clear - Hb. revert names Hb. induction bounds as [|b bounds IH]; intros [|n names] Hb; try discriminate; simpl.
    + destruct (map _ extra); auto.
    + f_equal. apply IH. auto.
  - intros j c Hj Hc. rewrite nth_error_app2 in Hc |- * by lia. rewrite Lt in Hc. rewrite nth_error_map in Hc |- *.
    destruct (nth_error extra (j - length names)) as [[k v]|] eqn:Ex; [|discriminate]. injection Hc as <-.
    exists (fst k). split; [reflexivity|]. apply nth_error_In in Ex. apply (H1 k v Ex).
  - intros k v a b Hk Hv Ha Hb' Hc. assert (exists lab, In (k, lab) log_columns) as [lab Hl].
    { simpl in Hk. destruct Hk as [<-|[<-|[<-|[]]]]; eexists; [left|right; left|right; right; left]; reflexivity. }
    specialize (H2 (k, lab) v a b Hl Hv Ha Hb' Hc). apply in_split in H2 as (l1 & l2 & ->).
    apply nth_error_In with (n := length names + length l1).
    enough (forall (A B : Type) (l : list A) (m : list B) i x z, nth_error l i = Some x -> nth_error m i = Some z ->
      nth_error (combine l m) i = Some (x, z)) as C.
    { apply C; (rewrite nth_error_app2 by lia); rewrite ?Lt; (replace (length names + length l1 - length names) with (length l1) by lia);
        rewrite nth_error_map, nth_error_app2, Nat.sub_diag by lia; reflexivity. }
    clear. intros A B l. induction l as [|u l IH]; intros [|t m] [|i] x z P Q; simpl in *; try discriminate; [congruence|auto].
Qed.
(** Without bounds, the default, it never returns. *)
(** Given as pairs, names are names and labels are labels. *)
Theorem C83_labels :
  forall logprior X y w nls bounds, X <> [] -> length y = length X -> length bounds = length nls -> nls <> [] ->
    let s := store_sample logprior X y w in
    exists g, samples_dict_to_getdist s (Some (map (fun nl => Pair (fst nl) (snd nl)) nls)) (Some bounds) = Ok g
      /\ firstn (length nls) (gd_names g) = map fst nls /\ firstn (length nls) (gd_labels g) = map snd nls
      /\ (forall j c, j < length nls -> nth_error (gd_columns g) j = Some c -> c = map (fun x => nth j x NaN) X)
      /\ firstn (length nls) (gd_ranges g) = combine (map fst nls) bounds.
Proof.
  intros logprior X y w nls bounds HX Hy Hb Hnm s.
  destruct (add_logs s log_columns (transpose (length nls) X) (map fst nls) (map snd nls)) as (extra & E & H1 & H2).
  { intros k v Hk Hg. assert (length v = length X) as Lv.
    { unfold s, store_sample in Hg. simpl in Hk. destruct Hk as [<-|[<-|[<-|[]]]]; vm_compute in Hg; injection Hg as <-.
      - auto.
      - apply map_length.
      - change (length (map (fun q => nsub (fst q) (snd q)) (combine y (map logprior X))) = length X).
        rewrite map_length, combine_length, map_length. lia. }
    destruct X; [congruence|]. intros ->. discriminate. }
  assert (forall f l, mapM (name_and_label (Pair f l)) (map (fun nl => Pair (fst nl) (snd nl)) nls) = Ok nls) as En.
  { intros f l. clear. induction nls as [|[n b] nls IH]; [auto|]. cbn [map mapM name_and_label bind fst snd]. rewrite IH. auto. }
  eexists. split.
  { unfold samples_dict_to_getdist. change (get_key "X" s) with (Ok (CMat X)). cbn [bind].
    assert (match map (fun nl : string * string => Pair (fst nl) (snd nl)) nls with [] => Ok [] | p :: _ => mapM (name_and_label p) (map (fun nl => Pair (fst nl) (snd nl)) nls) end
            = Ok nls) as ->.
    { destruct nls as [|n nls]; [congruence|]. apply (En (fst n) (snd n)). }
    cbn [bind]. rewrite map_length, E. cbn [bind]. reflexivity. }
  cbn [gd_columns gd_names gd_labels gd_weights gd_loglikes gd_ranges].
  assert (forall A (l k : list A), firstn (length l) (l ++ k) = l) as Ff.
  { clear. intros A l k. rewrite firstn_app, Nat.sub_diag, firstn_all. cbn. apply app_nil_r. }
  rewrite <- (map_length fst nls) at 1. rewrite Ff. split; [auto|].
  rewrite <- (map_length snd nls) at 1. rewrite Ff. split; [auto|]. split.
  - intros j c Hj Hc. assert (length (transpose (length nls) X) = length nls) as Lt by (unfold transpose; rewrite map_length, seq_length; auto).
    rewrite nth_error_app1 in Hc by lia. unfold transpose in Hc. rewrite nth_error_map in Hc.
    rewrite nth_error_nth' with (d := 0) in Hc by (rewrite seq_length; auto). rewrite seq_nth in Hc by auto. cbn in Hc. congruence.
  - revert Hb. clear. revert bounds. generalize (map (fun e : (string * string) * list num => (fst (fst e) ++ "*")%string) extra).
    intros k. induction nls as [|n nls IH]; intros [|b bounds] Hb; cbn in Hb |- *; try discriminate; [auto|]. f_equal. apply IH. lia.
Qed.
Theorem C83_default_refuted : forall s params g, samples_dict_to_getdist s params None <> Ok g.
Proof.
  intros s params g. unfold samples_dict_to_getdist.
  assert (forall A B (r : res A) (k : A -> res B) m, (forall a, k a <> Ok m) -> (do x <- r; k x) <> Ok m) as K.
  { intros A B [a|e] k m' H; simpl; [apply H|discriminate]. }
  apply K. intros [| |X]; try discriminate. apply K. intros ps. apply K. intros nl. apply K. intros [[cols names] labels].
  apply K. discriminate.
Qed.
Print Assumptions C83_columns.
Print Assumptions C83_labels.
Print Assumptions C83_default_refuted.
(** The log-prior is the same everywhere, so it is left out. *)
Example C83_example :
  match samples_dict_to_getdist two_points (Some [Name "a"; Name "b"]) (Some [(nz 0, nz 9); (nz 0, nz 8)]) with
  | Ok g => gd_names g = ["a"; "b"; "logpost*"; "loglike*"]%string /\ nth_error (gd_columns g) 2 = Some [nz (-5); nz (-6)]
            /\ gd_ranges g = [("a", (nz 0, nz 9)); ("b", (nz 0, nz 8))]%string
  | Err _ => False
  end.
Proof. vm_compute. repeat split. Qed.

(** Properties C54, C55, C56 and C75: fiducial points and Monte Carlo samples of a [Runner]. *)
From Verif Require Import MRunData.
Set Default Goal Selector "!".

(** ** C54 *)
Lemma sub_add l p : isfin p = true -> nsub (nadd l p) p = l.
Proof.
  destruct p as [| |p|]; try discriminate. intros _. destruct l as [| |l|]; auto. unfold nsub, nneg, nadd. f_equal. ring.
Qed.
Lemma add_sub y p : isfin p = true -> nadd (nsub y p) p = y.
Proof.
  destruct p as [| |p|]; try discriminate. intros _. destruct y as [| |y|]; auto. unfold nsub, nneg, nadd. f_equal. ring.
Qed.
Section C54.
Context {pt : Type}.
Variable dim_ok : pt -> bool.
Variable logprior : pt -> num.
(** The true log-posterior and log-likelihood. *)
Variables post like : pt -> num.
Hypothesis post_like : forall x, post x = nadd (like x) (logprior x).

(** What is stored belongs to the stored point. *)
Definition right (f : fiducial pt) : Prop :=
  forall X, f_X f = Some X ->
    (forall p, f_logpost f = Some p -> p = post X) /\ (forall l, f_loglike f = Some l -> l = like X).
Definition right_mc (f : fiducial_mc pt) : Prop :=
  forall X, m_X f = Some X ->
    (forall p, m_logpost f = Some p -> p = map post X) /\ (forall l, m_loglike f = Some l -> l = map like X).
(** The values handed over are the true ones. *)
Definition true_values (X : pt) (logpost loglike : val_arg) : Prop :=
  (logpost = Absent \/ logpost = Val (post X)) /\ (loglike = Absent \/ loglike = Val (like X)).
Definition true_values_mc (X : list pt) (logpost loglike : option (list num)) : Prop :=
  (logpost = None \/ logpost = Some (map post X)) /\ (loglike = None \/ loglike = Some (map like X)).

(** In any state, a call that returns and gives one of the values leaves the point with both of its
    values. *)
Theorem C54_point :
  forall X logpost loglike f f', isfin (logprior X) = true -> true_values X logpost loglike ->
    logpost <> Absent \/ loglike <> Absent ->
    set_fiducial_point dim_ok logprior X logpost loglike f = (f', Ok tt) ->
    f_X f' = Some X /\ f_logpost f' = Some (post X) /\ f_loglike f' = Some (like X) /\ right f'.
Proof.
  intros X lp ll f f' Hp [H1 H2] Hg H. unfold set_fiducial_point in H. destruct (dim_ok X); [|discriminate]. cbn [negb] in H.
  enough (f' = mkFid (Some X) (Some (post X)) (Some (like X))) as ->.
  { repeat split; simpl in *; congruence. }
  destruct H1 as [-> | ->], H2 as [-> | ->]; try discriminate.
  - destruct Hg; congruence.
  - injection H as <-. rewrite post_like. auto.
  - injection H as <-. rewrite post_like, sub_add by auto. auto.
Qed.
(** The first call leaves nothing wrong, even if it raises. *)
Theorem C54_first :
  forall X logpost loglike f' r, isfin (logprior X) = true -> true_values X logpost loglike ->
    set_fiducial_point dim_ok logprior X logpost loglike no_fiducial = (f', r) -> right f'.
Proof.
  intros X lp ll f' r Hp [H1 H2] H. unfold set_fiducial_point, no_fiducial in H. cbn [f_logpost f_loglike] in H.
  destruct (dim_ok X); cbn [negb] in H.
  2: { injection H as <- <-. intros Y HY. discriminate. }
  destruct H1 as [-> | ->], H2 as [-> | ->]; injection H as <- <-; intros Y HY; injection HY as <-; cbn; split; intros v Hv;
    try discriminate; injection Hv as <-; rewrite ?post_like, ?sub_add by auto; auto.
Qed.
(** The same for samples; their weights are the ones given, one per point. *)
Theorem C54_sample :
  forall X logpost loglike w f f', (forall x, In x X -> isfin (logprior x) = true) -> true_values_mc X logpost loglike ->
    logpost <> None \/ loglike <> None ->
    set_fiducial_MC dim_ok logprior X logpost loglike w f = (f', Ok tt) ->
    m_X f' = Some X /\ m_logpost f' = Some (map post X) /\ m_loglike f' = Some (map like X) /\ right_mc f'
    /\ (forall v, w = Some v -> m_w f' = Some v /\ length v = length X)
    /\ (w = None -> m_w f' = m_w f).
Proof.
  intros X lp ll w f f' Hp [H1 H2] Hg H. unfold set_fiducial_MC in H. destruct (forallb dim_ok X); [|discriminate]. cbn [negb] in H.
  set (f0 := mkFidMC (Some X) (m_w f) (m_logpost f) (m_loglike f)) in *.
  assert (map post X = map (fun q => nadd (fst q) (snd q)) (combine (map like X) (map logprior X))) as E1.
  { clear - post_like. induction X as [|x X IH]; simpl; [auto|]. rewrite IH, post_like. auto. }
  assert (map like X = map (fun q => nsub (fst q) (snd q)) (combine (map post X) (map logprior X))) as E2.
  { clear - post_like Hp. induction X as [|x X IH]; simpl; [auto|]. rewrite <- IH by (intros; apply Hp; right; auto).
    rewrite post_like, sub_add by (apply Hp; left; auto). auto. }
  enough (exists w', f' = mkFidMC (Some X) w' (Some (map post X)) (Some (map like X))
            /\ (forall v, w = Some v -> w' = Some v /\ length v = length X) /\ (w = None -> w' = m_w f)) as (w' & -> & H3 & H4).
  { cbn. split; [auto|]. split; [auto|]. split; [auto|]. split; [|auto].
    intros Y HY. injection HY as <-. cbn. split; congruence. }
  destruct w as [w|].
  - destruct (Nat.eqb_spec (length w) (length X)) as [L|]; [|discriminate]. exists (Some w).
    split; [|split; [intros v Hv; injection Hv as <-; auto|discriminate]].
    destruct H1 as [-> | ->], H2 as [-> | ->]; try discriminate.
    + destruct Hg; congruence.
    + rewrite map_length, Nat.eqb_refl in H. injection H as <-. rewrite E1. auto.
    + rewrite map_length, Nat.eqb_refl in H. injection H as <-. rewrite E2. auto.
  - exists (m_w f). split; [|split; [discriminate|auto]].
    destruct H1 as [-> | ->], H2 as [-> | ->]; try discriminate.
    + destruct Hg; congruence.
    + rewrite map_length, Nat.eqb_refl in H. injection H as <-. rewrite E1. auto.
    + rewrite map_length, Nat.eqb_refl in H. injection H as <-. rewrite E2. auto.
Qed.
End C54.
Print Assumptions C54_point.
Print Assumptions C54_first.
Print Assumptions C54_sample.

(** Points are integers, the log-likelihood is minus the point, the log-prior is -1. *)
Definition fid_prior (x : Z) : num := nz (-1).
Definition fid_like (x : Z) : num := nz (- x).
Definition fid_post (x : Z) : num := nz (- x - 1).
Lemma fid_post_like x : fid_post x = nadd (fid_like x) (fid_prior x).
Proof. unfold fid_post, fid_like, fid_prior, nadd, nz, qc_of_Z. f_equal. apply Qc_is_canon. unfold Qcplus. rewrite !this_Q2Qc. unfold Qeq, Qplus, inject_Z. cbn. lia. Qed.
Example C54_example :
  true_values fid_post fid_like 3%Z Absent (Val (fid_like 3)) /\ isfin (fid_prior 3) = true
  /\ set_fiducial_point (fun _ => true) fid_prior 3%Z Absent (Val (fid_like 3)) (mkFid (Some 5%Z) (Some NInf) None)
     = (mkFid (Some 3%Z) (Some (nz (-4))) (Some (nz (-3))), Ok tt).
Proof. split; [split; auto|]. split; reflexivity. Qed.
(** A second point without value keeps the value of the first. *)
Theorem C54_point_refuted :
  exists f1 f2,
    set_fiducial_point (fun _ => true) fid_prior 3%Z (Val (fid_post 3)) Absent no_fiducial = (f1, Ok tt)
    /\ set_fiducial_point (fun _ => true) fid_prior 7%Z Absent Absent f1 = (f2, Ok tt)
    /\ f_X f2 = Some 7%Z /\ f_logpost f2 = Some (nz (-4)) /\ fid_post 7 = nz (-8) /\ ~ right fid_post fid_like f2.
Proof.
  do 2 eexists. split; [reflexivity|]. split; [reflexivity|]. split; [reflexivity|]. split; [reflexivity|]. split; [reflexivity|].
  intros H. destruct (H 7%Z eq_refl) as [H1 _]. specialize (H1 _ eq_refl). vm_compute in H1. discriminate.
Qed.
(** So does one whose call raises because both values are given. *)
Theorem C54_error_refuted :
  exists f1 f2,
    set_fiducial_point (fun _ => true) fid_prior 3%Z (Val (fid_post 3)) Absent no_fiducial = (f1, Ok tt)
    /\ set_fiducial_point (fun _ => true) fid_prior 7%Z (Val (fid_post 7)) (Val (fid_like 7)) f1 = (f2, Err TypeError)
    /\ f_X f2 = Some 7%Z /\ ~ right fid_post fid_like f2.
Proof.
  do 2 eexists. split; [reflexivity|]. split; [reflexivity|]. split; [reflexivity|].
  intros H. destruct (H 7%Z eq_refl) as [H1 _]. specialize (H1 _ eq_refl). vm_compute in H1. discriminate.
Qed.
(** A second sample without weights keeps those of the first, here fewer than there are points. *)
Theorem C54_weights_refuted :
  exists f1 f2,
    set_fiducial_MC (fun _ => true) fid_prior [1; 2]%Z (Some [fid_post 1; fid_post 2]) None (Some [nz 3; nz 4]) no_fiducial_mc = (f1, Ok tt)
    /\ set_fiducial_MC (fun _ => true) fid_prior [1; 2; 3]%Z (Some [fid_post 1; fid_post 2; fid_post 3]) None None f1 = (f2, Ok tt)
    /\ m_X f2 = Some [1; 2; 3]%Z /\ m_w f2 = Some [nz 3; nz 4].
Proof. do 2 eexists. split; [reflexivity|]. split; [reflexivity|]. split; reflexivity. Qed.
Print Assumptions C54_point_refuted.
Print Assumptions C54_error_refuted.
Print Assumptions C54_weights_refuted.

(** ** C55 *)
(** Unless it is asked for a table without a copy, [last_mc_samples] does not touch what is stored. *)
Theorem C55_unchanged :
  forall params copy as_pandas as_getdist stored, copy = true \/ as_pandas = false \/ as_getdist = true ->
    fst (last_mc_samples params copy as_pandas as_getdist stored) = stored.
Proof.
  intros params copy p g stored H. unfold last_mc_samples. destruct p, g; auto. cbn [andb].
  destruct H as [->|[H|H]]; try discriminate. destruct stored as [s|]; [|auto]. destruct (to_frame params s). auto.
Qed.
(** A table without a copy: the points are gone from the stored sample, and the next reading fails. *)
Definition two_samples : sample :=
  store_sample (fun _ => nz (-1)) [[nz 1; nz 2]; [nz 3; nz 4]] [nz (-5); nz (-6)] None.
Theorem C55_pandas_refuted :
  let params := ["a"; "b"]%string in
  exists s' f, last_mc_samples params false true false (Some two_samples) = (Some s', Ok (RFrame f))
    /\ get_key "X" two_samples = Ok (CMat [[nz 1; nz 2]; [nz 3; nz 4]]) /\ get_key "X" s' = Err KeyError
    /\ snd (last_mc_samples params true true false (Some s')) = Err KeyError.
Proof. cbv zeta. do 2 eexists. split; [vm_compute; reflexivity|]. split; [reflexivity|]. split; reflexivity. Qed.
Print Assumptions C55_unchanged.
Print Assumptions C55_pandas_refuted.

(** ** C56 *)
(** The columns of a generated sample: one entry per point in each, and the log-likelihood and log-prior
    of a point within the prior add up to its log-posterior, which is what the sampler reported. *)
Theorem C56_consistent :
  forall logprior X y w s, s = store_sample logprior X y w -> length y = length X ->
    exists lp pr ll, get_key "X" s = Ok (CMat X) /\ get_key "logpost" s = Ok (CVec lp)
      /\ get_key "logprior" s = Ok (CVec pr) /\ get_key "loglike" s = Ok (CVec ll)
      /\ length lp = length X /\ length pr = length X /\ length ll = length X
      /\ get_key "w" s = Ok (match w with Some w => CVec w | None => CNone end)
      /\ forall i x a, nth_error X i = Some x -> nth_error y i = Some a ->
           nth_error lp i = Some a /\ nth_error pr i = Some (logprior x)
           /\ exists l, nth_error ll i = Some l
                /\ (isfin (logprior x) = true -> nadd l (logprior x) = a).
Proof.
  intros logprior X y w s -> Hl. exists y, (map logprior X), (map (fun q => nsub (fst q) (snd q)) (combine y (map logprior X))).
  split; [reflexivity|]. split; [reflexivity|]. split; [reflexivity|]. split; [reflexivity|]. split; [auto|].
  split; [apply map_length|]. split; [rewrite map_length, combine_length, map_length; lia|]. split; [reflexivity|].
  intros i x a Hx Ha. split; [auto|]. split; [rewrite nth_error_map, Hx; reflexivity|].
  exists (nsub a (logprior x)). split; [|apply add_sub].
  revert X y Hl Hx Ha. induction i as [|i IH]; intros [|x' X] [|a' y] Hl Hx Ha; try discriminate; simpl in *.
  - congruence.
  - apply (IH X y); auto.
Qed.
(** For a sample made by Cobaya, the log-posterior is the prediction of the surrogate. *)
Theorem C56_cobaya :
  forall predict log_volume x, isfin log_volume = true -> cobaya_logpost predict log_volume x = predict x.
Proof.
  intros predict v x Hv. unfold cobaya_logpost. destruct v as [| |v|]; try discriminate.
  destruct (predict x) as [| |p|]; auto. unfold nneg, nadd. f_equal. ring.
Qed.
Print Assumptions C56_consistent.
Print Assumptions C56_cobaya.
Example C56_example : get_key "loglike" two_samples = Ok (CVec [nz (-4); nz (-5)]).
Proof. reflexivity. Qed.

(** ** C75 *)
(** A table has the coordinates, the log-densities and the weights (ones if there are none) under their
    names, if no parameter has the name of one of the other columns or of another parameter. *)
Lemma get_put_same k v s : get_key k (put_key k v s) = Ok v.
Proof.
  unfold get_key. induction s as [|[k' v'] s IH]; simpl.
  - rewrite String.eqb_refl. auto.
  - destruct (String.eqb k' k) eqn:E; simpl; [rewrite String.eqb_refl; auto|]. rewrite E. exact IH.
Qed.
Lemma get_put_other k k' v s : k <> k' -> get_key k (put_key k' v s) = get_key k s.
Proof.
  intros H. unfold get_key. induction s as [|[a b] s IH]; simpl.
  - destruct (String.eqb_spec k' k); congruence.
  - destruct (String.eqb_spec a k') as [->|N]; simpl.
    + destruct (String.eqb_spec k' k); [congruence|]. auto.
    + destruct (String.eqb a k); auto.
Qed.
Lemma get_del_other k k' s : k <> k' -> get_key k (del_key k' s) = get_key k s.
Proof.
  intros H. unfold get_key, del_key. induction s as [|[a b] s IH]; simpl; [auto|].
  destruct (String.eqb_spec a k') as [->|N]; simpl.
  - destruct (String.eqb_spec k' k); [congruence|]. exact IH.
  - destruct (String.eqb a k); auto.
Qed.
Lemma get_fold_other k l : forall s, ~ In k (map fst l) ->
  get_key k (fold_left (fun s q => put_key (fst q) (CVec (snd q)) s) l s) = get_key k s.
Proof.
  induction l as [|[a b] l IH]; intros s H; simpl in *; [auto|]. rewrite IH by tauto. apply get_put_other. intuition congruence.
Qed.
Lemma get_fold l : forall s j k v, NoDup (map fst l) -> nth_error l j = Some (k, v) ->
  get_key k (fold_left (fun s q => put_key (fst q) (CVec (snd q)) s) l s) = Ok (CVec v).
Proof.
  induction l as [|[a b] l IH]; intros s [|j] k v Hn Hj; simpl in *; try discriminate; inversion Hn; subst.
  - injection Hj as -> ->. rewrite get_fold_other by auto. apply get_put_same.
  - apply (IH _ j); auto.
Qed.
Lemma nth_combine {A B} (l : list A) (k : list B) : forall j a b,
  nth_error l j = Some a -> nth_error k j = Some b -> nth_error (combine l k) j = Some (a, b).
Proof.
  revert k. induction l as [|x l IH]; intros [|y k] [|j] a b Ha Hb; simpl in *; try discriminate; [congruence|auto].
Qed.
Lemma fst_combine {A B} (l : list A) (k : list B) : length k = length l -> map fst (combine l k) = l.
Proof. revert k. induction l as [|x l IH]; intros [|y k] H; simpl in *; try discriminate; [auto|]. rewrite IH; auto. Qed.
Theorem C75_table :
  forall logprior X y w params copy, NoDup params ->
    (forall p, In p params -> ~ In p ["w"; "X"; "logpost"; "logprior"; "loglike"]%string) ->
    exists f stored', last_mc_samples params copy true false (Some (store_sample logprior X y w)) = (stored', Ok (RFrame f))
      /\ get_key "w" f = Ok (CVec (match w with Some w => w | None => repeat (nz 1) (length y) end))
      /\ (forall k, In k ["logpost"; "logprior"; "loglike"]%string -> get_key k f = get_key k (store_sample logprior X y w))
      /\ (forall j p, nth_error params j = Some p -> get_key p f = Ok (CVec (map (fun x => nth j x NaN) X))).
Proof.
  intros logprior X y w params copy Hn Hr.
  set (s := store_sample logprior X y w). set (w' := match w with Some w => w | None => repeat (nz 1) (length y) end).
  set (s1 := del_key "X" (put_key "w" (CVec w') s)).
  set (f := fold_left (fun s q => put_key (fst q) (CVec (snd q)) s) (combine params (transpose (length params) X)) s1).
  assert (to_frame params s = (f, Ok f)) as E by (unfold f, s1, s, w'; destruct w; reflexivity).
  exists f, (Some (if copy then s else f)). split.
  { unfold last_mc_samples. cbn [andb]. rewrite E. reflexivity. }
  assert (map fst (combine params (transpose (length params) X)) = params) as Ef.
  { apply fst_combine. unfold transpose. rewrite map_length, seq_length. auto. }
  assert (forall k, In k ["w"; "X"; "logpost"; "logprior"; "loglike"]%string -> get_key k f = get_key k s1) as Hk.
  { intros k Hk. apply get_fold_other. rewrite Ef. intros Hp. exact (Hr k Hp Hk). }
  split; [|split].
  - rewrite Hk by (simpl; auto). unfold s1. rewrite get_del_other by discriminate. apply get_put_same.
  - intros k Hin. rewrite Hk by (simpl in *; intuition). unfold s1.
    simpl in Hin. destruct Hin as [<-|[<-|[<-|[]]]]; rewrite get_del_other, get_put_other by discriminate; auto.
  - intros j p Hj. apply (get_fold _ _ j); [rewrite Ef; auto|].
    apply nth_combine; [auto|]. unfold transpose. rewrite nth_error_map.
    assert (j < length params) as L by (apply nth_error_Some; congruence).
    assert (nth_error (seq 0 (length params)) j = Some j) as ->; [|reflexivity].
    rewrite nth_error_nth' with (d := 0) by (rewrite seq_length; auto). rewrite seq_nth; auto.
Qed.
Print Assumptions C75_table.
Example C75_example :
  let params := ["a"; "b"]%string in
  exists f, snd (last_mc_samples params true true false (Some two_samples)) = Ok (RFrame f)
    /\ map fst f = ["w"; "logpost"; "logprior"; "loglike"; "a"; "b"]%string
    /\ get_key "b" f = Ok (CVec [nz 2; nz 4]) /\ get_key "w" f = Ok (CVec [nz 1; nz 1])
    /\ NoDup params /\ (forall p, In p params -> ~ In p ["w"; "X"; "logpost"; "logprior"; "loglike"]%string).
Proof.
  cbv zeta. eexists. split; [vm_compute; reflexivity|]. split; [reflexivity|]. split; [reflexivity|]. split; [reflexivity|].
  split; [repeat constructor; simpl; intuition discriminate|]. intros p Hp Hq. simpl in *. intuition subst; discriminate.
Qed.
(** A parameter called [w] replaces the weights. *)
Theorem C75_name_refuted :
  let params := ["w"; "b"]%string in
  let s := store_sample (fun _ => nz (-1)) [[nz 1; nz 2]; [nz 3; nz 4]] [nz (-5); nz (-6)] (Some [nz 10; nz 20]) in
  exists f, snd (last_mc_samples params true true false (Some s)) = Ok (RFrame f)
    /\ map fst f = ["w"; "logpost"; "logprior"; "loglike"; "b"]%string /\ get_key "w" f = Ok (CVec [nz 1; nz 3]).
Proof. cbv zeta. eexists. split; [vm_compute; reflexivity|]. split; reflexivity. Qed.
Print Assumptions C75_name_refuted.

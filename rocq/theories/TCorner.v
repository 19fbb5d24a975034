(** C161: triangle plots. *)
From Coq Require Import Lia.
From Verif Require Import MMc MCorner.
Import ListNotations.
Set Default Goal Selector "!".
Set Bullet Behavior "Strict Subproofs".

Lemma dget_dset {A} k v j (d : list (string * A)) : dget j (dset k v d) = if String.eqb k j then Some v else dget j d.
Proof.
  induction d as [|[a w] d IH]; cbn [dset dget]; [reflexivity|]. destruct (String.eqb_spec a k) as [->|N]; cbn [dget].
  - destruct (String.eqb k j); reflexivity.
  - rewrite IH. destruct (String.eqb_spec a j) as [->|]; [|reflexivity]. destruct (String.eqb_spec k j) as [->|]; [destruct (N eq_refl)|reflexivity].
Qed.
Lemma dset_new {A} k (v : A) d : ~ In k (map fst d) -> dset k v d = d ++ [(k, v)].
Proof.
  induction d as [|[a w] d IH]; intros N; cbn [dset app map fst In] in *; [reflexivity|]. destruct (String.eqb_spec a k) as [->|]; [destruct N; auto|]. rewrite IH; auto.
Qed.
Lemma dupdate_new {A} (e d : list (string * A)) : NoDup (map fst (d ++ e)) -> dupdate d e = d ++ e.
Proof.
  unfold dupdate. revert d. induction e as [|[k v] e IH]; intros d H; cbn [fold_left fst snd]; [rewrite app_nil_r; reflexivity|].
  rewrite dset_new.
  - rewrite IH; rewrite <- app_assoc; [reflexivity|exact H].
  - rewrite map_app in H. cbn [map fst] in H. apply NoDup_remove_2 in H. intros K. apply H. apply in_or_app. auto.
Qed.
Lemma combine_fst {A B} (l : list A) (m : list B) : length l = length m -> map fst (combine l m) = l.
Proof. revert m. induction l as [|x l IH]; intros [|y m] H; try discriminate H; [reflexivity|]. cbn [combine map fst]. f_equal. apply IH. auto. Qed.
Lemma filter_all {A} (f : A -> bool) l : Forall (fun x => f x = true) l -> filter f l = l.
Proof. induction 1 as [|x l H _ IH]; [reflexivity|]. cbn [filter]. rewrite H, IH. reflexivity. Qed.
Lemma mem_in p l : mem p l = true <-> In p l.
Proof. unfold mem. rewrite existsb_exists. split; [intros (x & H & E); apply String.eqb_eq in E; subst; auto|intros H; exists p; split; [auto|apply String.eqb_refl]]. Qed.

(** Parameters that the last sample has are plotted, in the order asked for, with the bounds given in that order. *)
Theorem C161_bounds : forall samples l last ps bs f, (exists init, samples = init ++ [(l, last)]) -> Forall (fun p => In p last) ps -> NoDup ps -> length bs = length ps ->
  exists c, plot_corner samples (Some ps) (BoundsList bs) f NoTraining = Ok c /\ co_params c = Some ps /\ co_limits c = combine ps (map Some bs) /\ co_labels c = map fst samples.
Proof.
  intros samples l last ps bs f (init & ->) Hin Hn L. unfold plot_corner. cbn [training_params bind]. unfold plot_params. rewrite rev_app_distr. cbn [rev app].
  rewrite filter_all by (eapply Forall_impl; [|exact Hin]; intros p Hp; apply mem_in; exact Hp). cbn [bind limits]. rewrite (proj2 (Nat.eqb_eq _ _) L). cbn [bind]. eexists. split; [reflexivity|].
  cbn [co_params co_limits co_labels]. split; [reflexivity|]. split; [|reflexivity]. rewrite dupdate_new; [reflexivity|]. cbn [app]. rewrite combine_fst; [exact Hn|]. rewrite map_length. auto.
Qed.
(** The same with a dictionary, whatever its order. *)
Theorem C161_bounds_dict : forall samples l last ps d f p, (exists init, samples = init ++ [(l, last)]) -> NoDup ps -> In p ps -> In p last ->
  exists c, plot_corner samples (Some ps) (BoundsDict d) f NoTraining = Ok c /\ dget p (co_limits c) = Some (dget p d).
Proof.
  intros samples l last ps d f p (init & ->) Hn Hp Hl. unfold plot_corner. cbn [training_params bind]. unfold plot_params. rewrite rev_app_distr. cbn [rev app bind limits]. eexists. split; [reflexivity|].
  cbn [co_limits]. assert (In p (filter (fun p => mem p last) ps)) as K by (apply filter_In; split; [exact Hp|apply mem_in; exact Hl]). assert (NoDup (filter (fun p => mem p last) ps)) as N by (apply NoDup_filter; exact Hn).
  rewrite dupdate_new.
  - cbn [app]. revert K. generalize (filter (fun p => mem p last) ps). clear. intros ps. induction ps as [|q ps IH]; intros K; [destruct K|]. destruct K as [->|H]; cbn [map dget].
    + rewrite String.eqb_refl. reflexivity.
    + destruct (String.eqb_spec q p) as [->|]; [reflexivity|]. apply IH. exact H.
  - cbn [app]. rewrite map_map. cbn [fst]. rewrite map_id. exact N.
Qed.
(** Refuted: bounds in the order of the parameters asked for are accepted. If the last sample lacks a parameter, ValueError is raised. *)
Theorem C161_missing_refuted : forall samples l last ps bs f t tp, (exists init, samples = init ++ [(l, last)]) -> training_params samples t = Ok tp -> length bs = length ps -> (exists p, In p ps /\ ~ In p last) ->
  plot_corner samples (Some ps) (BoundsList bs) f t = Err ValueError.
Proof.
  intros samples l last ps bs f t tp (init & ->) Ht L (p & Hp & Hl). unfold plot_corner. rewrite Ht. cbn [bind]. unfold plot_params. rewrite rev_app_distr. cbn [rev app bind limits].
  assert (length (filter (fun p => mem p last) ps) < length ps) as K.
  { assert (mem p last = false) as Hm. { destruct (mem p last) eqn:E; [apply mem_in in E; destruct (Hl E)|reflexivity]. }
    clear - Hp Hm. induction ps as [|q ps IH]; [destruct Hp|]. destruct Hp as [->|Hp].
    - cbn [filter length]. rewrite Hm. clear. induction ps as [|q ps IH]; cbn [filter length]; [lia|]. destruct (mem q last); cbn [length]; lia.
    - specialize (IH Hp). cbn [filter length]. destruct (mem q last); cbn [length]; lia. }
  rewrite (proj2 (Nat.eqb_neq _ _)) by lia. reflexivity.
Qed.
(** Refuted: bounds without parameters, which are optional. TypeError is raised. *)
Theorem C161_default_refuted : forall samples b f t tp, training_params samples t = Ok tp -> b <> NoBounds -> plot_corner samples None b f t = Err TypeError.
Proof. intros samples b f t tp Ht N. unfold plot_corner. rewrite Ht. cbn [bind plot_params]. destruct b; [destruct (N eq_refl)| |]; reflexivity. Qed.
(** Contours are filled as asked for each sample, by default if nothing is said. *)
Theorem C161_filled : forall samples ps t c f i lab p, plot_corner samples ps NoBounds f t = Ok c -> NoDup (map fst samples) -> nth_error samples i = Some (lab, p) ->
  nth_error (co_labels c) i = Some lab /\
  nth_error (co_filled c) i = Some (match f with NoFilled => true | FilledDict d => match dget lab d with Some b => b | None => true end | FilledList l => nth i l true end).
Proof.
  intros samples ps t c f i lab p H N E. unfold plot_corner in H. destruct (training_params samples t) as [tp|]; [|discriminate H]. cbn [bind] in H. destruct (plot_params samples ps) as [q|]; [|discriminate H].
  cbn [bind limits] in H. injection H as <-. cbn [co_labels co_filled]. apply (map_nth_error fst) in E. cbn [fst] in E. split; [exact E|]. revert N E. generalize (map fst samples). clear. intros labels N E.
  unfold filled_flags. rewrite (map_nth_error (fun k => match dget k (match f with NoFilled => [] | FilledDict d => d | FilledList l => map (fun p => (fst p, nth (snd p) l true)) (combine labels (seq 0 (length labels))) end) with Some b => b | None => true end) _ _ E).
  f_equal. destruct f as [|d|l]; [reflexivity|reflexivity|].
  assert (forall k labels i, NoDup labels -> nth_error labels i = Some lab -> dget lab (map (fun p => (fst p, nth (snd p) l true)) (combine labels (seq k (length labels)))) = Some (nth (k + i) l true)) as F.
  { clear. intros k labels. revert k. induction labels as [|a labels IH]; intros k i N E; [destruct i; discriminate E|]. inversion N as [|? ? Na Nl]; subst. cbn [length seq combine map fst snd dget]. destruct i as [|i]; cbn [nth_error] in E.
    - injection E as ->. rewrite String.eqb_refl, Nat.add_0_r. reflexivity.
    - destruct (String.eqb_spec a lab) as [->|]; [destruct Na; eapply nth_error_In; exact E|]. rewrite (IH (S k) i Nl E). do 2 f_equal. lia. }
  rewrite (F 0 labels i N E). reflexivity.
Qed.
(** Training points are drawn with the names of the sample of the surrogate, in more than one dimension; the samples of the plot are the fiducial one, that of the surrogate and those added, in order. *)
Theorem C161_plot_mc : forall names logp d train fiducial evals surrogate extra c,
  NoDup ((match fiducial with Some _ => ["Fiducial"%string] | None => [] end) ++ base_label evals :: map fst extra) ->
  plot_mc names logp d train fiducial evals surrogate (inl extra) = Ok c ->
  co_labels c = (match fiducial with Some _ => ["Fiducial"%string] | None => [] end) ++ base_label evals :: map fst extra /\
  co_training c = (if train && Nat.ltb 1 d then Some surrogate else None) /\ Forall (fun b => b = true) (co_filled c).
Proof.
  intros names logp d train fiducial evals surrogate extra c N H.
  assert (mc_samples fiducial evals surrogate (inl extra) = (match fiducial with Some p => [("Fiducial"%string, p)] | None => [] end) ++ (base_label evals, surrogate) :: extra) as E.
  { unfold mc_samples. rewrite dset_new, dupdate_new.
    - rewrite <- app_assoc. reflexivity.
    - rewrite !map_app. cbn [map fst]. destruct fiducial; cbn [map fst app] in *; exact N.
    - destruct fiducial; cbn [map fst app] in *; [|intros []]. intros [K|[]]. inversion N as [|? ? K' _]; subst. apply K'. left. auto. }
  unfold plot_mc in H. rewrite E in H. unfold plot_corner in H. destruct (training_params _ _) as [tp|] eqn:Et; [|discriminate H]. cbn [bind] in H. destruct (plot_params _ _) as [q|]; [|discriminate H].
  cbn [bind limits] in H. injection H as <-. cbn [co_labels co_training co_filled]. split; [destruct fiducial; reflexivity|]. split.
  - destruct train; cbn [training_params] in Et; [|injection Et as <-; reflexivity].
    assert (dget (base_label evals) ((match fiducial with Some p => [("Fiducial"%string, p)] | None => [] end) ++ (base_label evals, surrogate) :: extra) = Some surrogate) as G.
    { destruct fiducial; cbn [app dget]; [|rewrite String.eqb_refl; reflexivity]. destruct (String.eqb_spec "Fiducial" (base_label evals)) as [Q|]; [discriminate Q|]. rewrite String.eqb_refl. reflexivity. }
    rewrite G in Et. injection Et as <-. cbn [andb]. reflexivity.
  - unfold filled_flags. apply Forall_forall. intros b Hb. apply in_map_iff in Hb as (k & <- & _). reflexivity.
Qed.
(** Training points alone are drawn with the names of the first sample, those with a label with the names of that sample, those with names with these; unknown labels and other data are refused. *)
Theorem C161_training : forall samples ps f d, d > 1 -> samples <> [] ->
  (forall lab p rest, samples = (lab, p) :: rest -> exists c, plot_corner samples ps NoBounds f (TrainGpr d) = Ok c /\ co_training c = Some p) /\
  (forall init lab p rest, samples = init ++ (lab, p) :: rest -> ~ In lab (map fst init) -> exists c, plot_corner samples ps NoBounds f (TrainLabel lab d) = Ok c /\ co_training c = Some p) /\
  (forall names, exists c, plot_corner samples ps NoBounds f (TrainNames names d) = Ok c /\ co_training c = Some names) /\
  (forall lab b, ~ In lab (map fst samples) -> plot_corner samples ps b f (TrainLabel lab d) = Err ValueError) /\
  (forall b, plot_corner samples ps b f TrainOther = Err TypeError).
Proof.
  intros samples ps f d Hd Hs. apply Nat.ltb_lt in Hd.
  assert (exists q, plot_params samples ps = Ok q) as (q & Q).
  { unfold plot_params. destruct ps as [ps|]; [|exists None; reflexivity]. destruct (rev samples) as [|[l p] r] eqn:E; [|eexists; reflexivity].
    apply (f_equal (@rev _)) in E. rewrite rev_involutive in E. destruct (Hs E). }
  split; [|split; [|split; [|split]]].
  - intros lab p rest ->. unfold plot_corner. cbn [training_params bind]. rewrite Q. cbn [bind limits]. rewrite Hd. eexists. split; reflexivity.
  - intros init lab p rest E N. assert (dget lab samples = Some p) as G.
    { rewrite E. clear - N. induction init as [|[a w] init IH]; cbn [app dget map fst In] in *; [rewrite String.eqb_refl; reflexivity|]. destruct (String.eqb_spec a lab) as [->|]; [destruct N; auto|]. apply IH. auto. }
    unfold plot_corner. cbn [training_params]. rewrite G. cbn [bind]. rewrite Q. cbn [bind limits]. rewrite Hd. eexists. split; reflexivity.
  - intros names. unfold plot_corner. cbn [training_params bind]. rewrite Q. cbn [bind limits]. rewrite Hd. eexists. split; reflexivity.
  - intros lab b N. assert (dget lab samples = None) as G.
    { clear - N. induction samples as [|[a w] l IH]; cbn [dget map fst In] in *; [reflexivity|]. destruct (String.eqb_spec a lab) as [->|]; [destruct N; auto|]. apply IH. auto. }
    unfold plot_corner. cbn [training_params]. rewrite G. reflexivity.
  - reflexivity.
Qed.
(** A single sample to compare with is that of a dictionary with the label "Add. samples"; no parameters but those of the run and its log-posterior are plotted, and all of these that the last sample has. *)
Theorem C161_single : forall names logp d train fiducial evals surrogate p,
  plot_mc names logp d train fiducial evals surrogate (inr (Some p)) = plot_mc names logp d train fiducial evals surrogate (inl [("Add. samples"%string, p)]) /\
  plot_mc names logp d train fiducial evals surrogate (inr None) = plot_mc names logp d train fiducial evals surrogate (inl []) /\
  exists c ps, plot_mc names logp d false fiducial evals surrogate (inr (Some p)) = Ok c /\ co_params c = Some ps /\ (forall q, In q ps <-> (In q names \/ q = logp) /\ In q p) /\ In "Add. samples"%string (co_labels c).
Proof.
  intros names logp d train fiducial evals surrogate p. split; [reflexivity|]. split; [reflexivity|].
  assert (exists init, mc_samples fiducial evals surrogate (inr (Some p)) = init ++ [("Add. samples"%string, p)]) as (init & E).
  { unfold mc_samples. destruct fiducial as [fp|].
    - exists [("Fiducial"%string, fp); (base_label evals, surrogate)]. reflexivity.
    - exists [(base_label evals, surrogate)]. reflexivity. }
  unfold plot_mc. rewrite E. unfold plot_corner. cbn [training_params bind]. unfold plot_params. rewrite rev_app_distr. cbn [rev app bind limits].
  eexists. exists (filter (fun q => mem q p) (names ++ [logp])). split; [reflexivity|]. cbn [co_params co_labels]. split; [reflexivity|]. split.
  - intros q. rewrite filter_In, in_app_iff, mem_in. cbn [In]. split; [intros [[A|[A|[]]] B]; auto|intros [[A|A] B]; auto].
  - rewrite map_app. apply in_or_app. right. left. reflexivity.
Qed.
(** Refuted: adding a sample to compare with leaves the rest of the plot as it is. Parameters that the added sample lacks are no longer plotted for any. *)
Theorem C161_added_refuted : forall names logp d evals surrogate lab p q, lab <> base_label evals -> In q names -> ~ In q p ->
  (exists c ps, plot_mc names logp d false None evals surrogate (inl []) = Ok c /\ co_params c = Some ps /\ (In q surrogate -> In q ps)) /\
  (exists c ps, plot_mc names logp d false None evals surrogate (inl [(lab, p)]) = Ok c /\ co_params c = Some ps /\ ~ In q ps).
Proof.
  intros names logp d evals surrogate lab p q N Hq Hp. split.
  - do 2 eexists. split; [reflexivity|]. cbn [co_params]. split; [reflexivity|]. intros Hs. apply filter_In. split; [apply in_or_app; auto|apply mem_in; exact Hs].
  - unfold plot_mc, mc_samples. cbn [dset dupdate fold_left fst snd]. apply String.eqb_neq in N. rewrite String.eqb_sym in N. rewrite N. do 2 eexists. split; [reflexivity|]. cbn [co_params]. split; [reflexivity|].
    intros K. apply filter_In in K as [_ K]. apply mem_in in K. exact (Hp K).
Qed.
Lemma star_end a : ends_in_star (a ++ "*")%string = true.
Proof. induction a as [|c a IH]; [reflexivity|]. cbn [String.append ends_in_star]. rewrite IH. destruct a; reflexivity. Qed.
Lemma running_logs s L acc cols names labels : fold_left (add_log s) L acc = Ok (cols, names, labels) -> exists c n l, acc = Ok (c, n, l) /\ running names = running n.
Proof.
  revert acc. induction L as [|x L IH]; intros acc H; cbn [fold_left] in H; [exists cols, names, labels; auto|].
  destruct (IH _ H) as (c & n & l & E & R). destruct acc as [[[c0 n0] l0]|]; cbn [add_log bind] in E; [|discriminate E]. exists c0, n0, l0. split; [reflexivity|]. rewrite R. unfold add_log in E. cbn [bind] in E.
  assert (n = n0 \/ n = n0 ++ [(fst x ++ "*")%string]) as [->| ->].
  { destruct (get_key (fst x) s) as [[| y | ]|]; try (injection E as _ <- _; left; reflexivity). destruct (py_list_max y) as [a|]; [|discriminate E]. cbn [bind] in E. destruct (py_list_min y) as [b|]; [|discriminate E]. cbn [bind] in E.
    destruct (close_to_0 _) in E; injection E as _ <- _; [left|right]; reflexivity. }
  - reflexivity.
  - unfold running. rewrite filter_app. cbn [filter]. rewrite star_end. cbn [negb]. apply app_nil_r.
Qed.
(** Refuted: the log-posterior, which the plot of a run asks for, is shown. In the samples of runs it is a derived parameter, so that it is always left out. *)
Theorem C161_logp_refuted : forall s pl b g d train evals, samples_dict_to_getdist s (Some (map (fun p => Pair (fst p) (snd p)) pl)) b = Ok g ->
  Forall (fun p => ends_in_star p = false) (map fst pl) -> ~ In "logpost"%string (map fst pl) ->
  running (gd_names g) = map fst pl /\ exists c, plot_mc (map fst pl) "logpost"%string d train None evals (running (gd_names g)) (inr None) = Ok c /\ co_params c = Some (map fst pl).
Proof.
  intros s pl b g d train evals H F N. assert (running (gd_names g) = map fst pl) as R.
  { unfold samples_dict_to_getdist in H. destruct (get_key "X" s) as [[]|]; cbn [bind] in H; try discriminate H.
    assert (match map (fun p => Pair (fst p) (snd p)) pl with [] => Ok [] | p :: _ => mapM (name_and_label p) (map (fun p => Pair (fst p) (snd p)) pl) end = Ok pl) as E.
    { assert (forall u v (l : list (string * string)), mapM (name_and_label (Pair u v)) (map (fun p => Pair (fst p) (snd p)) l) = Ok l) as G.
      { intros u v l. induction l as [|[a e] l IH]; [reflexivity|]. cbn [map mapM name_and_label bind fst snd]. rewrite IH. reflexivity. }
      destruct pl as [|p pl]; [reflexivity|]. exact (G (fst p) (snd p) (p :: pl)). }
    rewrite E in H. cbn [bind] in H. destruct (fold_left (add_log s) log_columns _) as [[[cols names] labels]|] eqn:Ef; cbn [bind] in H; [|discriminate H].
    destruct (get_key "w" s) as [w|]; cbn [bind] in H; [|discriminate H]. destruct b as [b|]; [|discriminate H]. injection H as <-. cbn [gd_names].
    destruct (running_logs _ _ _ _ _ _ Ef) as (c & n & l & E1 & ->). injection E1 as _ <- _. unfold running. apply filter_all. eapply Forall_impl; [|exact F]. intros p ->. reflexivity. }
  split; [exact R|]. rewrite R. unfold plot_mc, mc_samples. cbn [dset dupdate fold_left].
  assert (filter (fun p => mem p (map fst pl)) (map fst pl ++ ["logpost"%string]) = map fst pl) as E.
  { rewrite filter_app. cbn [filter]. destruct (mem "logpost" (map fst pl)) eqn:M; [apply mem_in in M; destruct (N M)|]. rewrite app_nil_r. apply filter_all. apply Forall_forall. intros p Hp. apply mem_in. exact Hp. }
  unfold plot_corner, plot_params. destruct train; cbn [training_params dget]; [rewrite String.eqb_refl|]; cbn [bind rev app limits]; eexists; (split; [reflexivity|]); cbn [co_params]; rewrite E; reflexivity.
Qed.
Print Assumptions C161_bounds.
Print Assumptions C161_logp_refuted.
Print Assumptions C161_bounds_dict.
Print Assumptions C161_missing_refuted.
Print Assumptions C161_default_refuted.
Print Assumptions C161_filled.
Print Assumptions C161_plot_mc.
Print Assumptions C161_training.
Print Assumptions C161_single.
Print Assumptions C161_added_refuted.
(** * Examples *)
Local Open Scope string_scope.
Local Open Scope list_scope.
Example C161_case : let s := [("a", ["x"; "y"; "logp"]); ("b", ["y"; "x"])]%string in
  plot_corner s (Some ["y"; "x"]%string) (BoundsList [(nz 0, nz 1); (nz 2, nz 3)]) (FilledList [false]) (TrainLabel "a"%string 2) =
    Ok (mkCorner (Some ["y"; "x"]%string) ["a"; "b"]%string [false; true] [("y", Some (nz 0, nz 1)); ("x", Some (nz 2, nz 3))]%string (Some ["x"; "y"; "logp"]%string)) /\
  plot_corner s (Some ["x"; "logp"]%string) (BoundsDict [("x", (nz 2, nz 3))]%string) (FilledDict [("b"%string, false)]) (TrainGpr 1) =
    Ok (mkCorner (Some ["x"]%string) ["a"; "b"]%string [true; false] [("x", Some (nz 2, nz 3))]%string None) /\
  plot_corner s (Some ["x"; "logp"]%string) (BoundsList [(nz 0, nz 1); (nz 2, nz 3)]) NoFilled NoTraining = Err ValueError /\
  plot_corner s None (BoundsList []) NoFilled NoTraining = Err TypeError /\ plot_corner s None NoBounds NoFilled (TrainLabel "c"%string 2) = Err ValueError.
Proof. repeat split. Qed.
Example C161_mc_case : let p := ["x"; "y"; "logp"]%string in
  plot_mc ["x"; "y"]%string "logp"%string 2 true (Some p) "40"%string p (inl [("other", ["x"])]%string) =
    Ok (mkCorner (Some ["x"]%string) ["Fiducial"; "MC samples from GP (40 evals.)"; "other"]%string [true; true; true] [] (Some p)) /\
  plot_mc ["x"; "y"]%string "logp"%string 2 true None "40"%string p (inr None) = Ok (mkCorner (Some p) ["MC samples from GP (40 evals.)"]%string [true] [] (Some p)).
Proof. repeat split. Qed.
Example C161_training_case : let s := [("a", ["x"; "y"]); ("b", ["y"; "x"; "z"])] in
  map (fun t => match plot_corner s None NoBounds NoFilled t with Ok c => co_training c | Err _ => Some [] end) [TrainGpr 2; TrainLabel "b"%string 2; TrainNames ["u"; "v"] 2; TrainNames ["u"] 1; TrainOther] =
    [Some ["x"; "y"]; Some ["y"; "x"; "z"]; Some ["u"; "v"]; None; Some []] /\
  plot_mc ["x"; "y"] "logp"%string 2 true None "40"%string ["x"; "y"; "logp"] (inr (Some ["logp"; "y"; "w"])) =
    Ok (mkCorner (Some ["y"; "logp"]) ["MC samples from GP (40 evals.)"; "Add. samples"] [true; true] [] (Some ["x"; "y"; "logp"])).
Proof. repeat split. Qed.
Example C161_logp_case : exists g, samples_dict_to_getdist [("w", CVec [nz 1; nz 1]); ("X", CMat [[nz 0]; [nz 1]]); ("logpost", CVec [nz 2; nz 3])] (Some [Pair "x" "X"]%string) (Some [(nz 0, nz 1)]) = Ok g /\
  gd_names g = ["x"; "logpost*"] /\ running (gd_names g) = ["x"].
Proof. eexists. split; [reflexivity|]. split; reflexivity. Qed.

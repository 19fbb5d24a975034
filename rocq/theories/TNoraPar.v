(** Property C100: processes never wait for each other for ever. NORA. *)
From Coq Require Import String.
From Verif Require Import PMpi TMpi Argsort PPool5 TNora MPool SPool.
From Verif Require Import Base Num MTools MMpi MColl PColl TColl MNora MNoraPar TPar.
Set Default Goal Selector "!".

Section NoraPar.
Variable expf : num -> num.
Variable argsort : list num -> list nat.
Variable w : world.
Hypothesis Hsize : wsize w <> 0.
Notation obj := (obj point (pool point)).
Notation prog := (prog obj).
Notation size := (wsize w).

Lemma predict_all_ok s X (arg : nat -> obj) : arg 0 = OPts X ->
  spmd size (fun r => predict_all w r s (arg r))
  = Finished (map (fun r => Ok (if r =? 0 then (Some (map (s_mean s) X), Some (map (s_sigma s) X)) else (None, None))) (seq 0 size)).
Proof.
  intros H. unfold predict_all.
  etransitivity; [apply (C100_predictions (P := point) (G := pool point) size Hsize (s_mean s) (s_sigma s) w X arg (fun _ => None) (fun _ => None) true eq_refl H)|].
  destruct (C02_compute_y_parallel point (s_mean s) (s_sigma s) w X Hsize) as (E & _). rewrite E. reflexivity.
Qed.
Lemma step_split_vec_all v (f : nat -> obj) : f 0 = OVec v ->
  spmd size (fun r => step_split_vec size r (f r)) = Finished (map (fun r => Ok (step_split size r v)) (seq 0 size)).
Proof.
  intros H. unfold step_split_vec. rewrite spmd_bcast by lia. rewrite H. cbn [as_vec]. apply spmd_ret. reflexivity.
Qed.
Lemma gather_pts_all (X : nat -> list point) :
  spmd (M := obj) size (fun r => gather_pts w r (X r))
  = Finished (map (fun r => Ok (if r =? 0 then Some (concat (map X (seq 0 size))) else None)) (seq 0 size)).
Proof.
  unfold gather_pts. rewrite spmd_gather by auto. apply spmd_ret. intros r _. destruct (r =? 0); [|reflexivity].
  rewrite (mapM_map_ok as_pts OPts X) by reflexivity. reflexivity.
Qed.
Lemma gather_vec_all (v : nat -> list num) :
  spmd (M := obj) size (fun r => gather_vec w r (v r))
  = Finished (map (fun r => Ok (if r =? 0 then Some (concat (map v (seq 0 size))) else None)) (seq 0 size)).
Proof.
  unfold gather_vec. rewrite spmd_gather by auto. apply spmd_ret. intros r _. destruct (r =? 0); [|reflexivity].
  rewrite (mapM_map_ok as_vec OVec v) by reflexivity. reflexivity.
Qed.
Lemma merge_all s np (p : nat -> pool point) m : merge_pools argsort size s np (map p (seq 0 size)) = Ok m ->
  spmd size (fun r => merge_par argsort w r s np (p r)) = Finished (map (fun _ => Ok m) (seq 0 size)).
Proof.
  intros H. unfold merge_par, multiple. unfold merge_pools in H. destruct (Nat.leb_spec size 1) as [H1|H1].
  - assert (size = 1) as E by lia. rewrite E in *. cbn [seq map] in H. injection H as <-. apply spmd_ret. intros r Hr.
    assert (r = 0) as -> by lia. reflexivity.
  - replace (1 <? size) with true by (symmetry; apply Nat.ltb_lt; auto). cbn [negb].
    rewrite (spmd_bind size _ _ _ (gather_pts_all (fun r => firstn (plen (p r)) (pX (p r))))).
    rewrite (spmd_bind size _ _ _ (gather_vec_all (fun r => firstn (plen (p r)) (py (p r))))).
    rewrite (spmd_bind size _ _ _ (gather_vec_all (fun r => firstn (plen (p r)) (psig (p r))))).
    rewrite (spmd_bind size _ _ _ (gather_vec_all (fun r => firstn (plen (p r)) (pacq (p r))))).
    rewrite (spmd_bind size _ _ _ (gather_vec_all (fun r => firstn (plen (p r)) (pacqc (p r))))).
    unfold gathered in H. rewrite !map_map in H.
    rewrite (spmd_bind size _ _ (fun r => if r =? 0 then OGpr m else ONone)).
    2:{ apply spmd_ret. intros r _. destruct (r =? 0); [|reflexivity]. rewrite H. reflexivity. }
    rewrite spmd_bcast by lia. apply spmd_ret. reflexivity.
Qed.
Lemma rank_all s np X y sg (aX ay asg : nat -> obj) l : aX 0 = OPts X -> ay 0 = OVec y -> asg 0 = OVec sg ->
  rank argsort w s np X y sg = Ok l ->
  spmd size (fun r => rank_par argsort w r s np (aX r) (ay r) (asg r)) = Finished (map (fun _ => Ok l) (seq 0 size)).
Proof.
  intros HX Hy Hs H. unfold rank in H. unfold rank_par.
  destruct (mapM (rank_pool argsort size s np X y sg) (seq 0 size)) as [ps|x] eqn:Em; [|discriminate]. cbn [bind] in H.
  apply (mapM_seq _ (new_pool zero_point np)) in Em as [Eps Em].
  set (p := fun r => or_else (new_pool zero_point np) (rank_pool argsort size s np X y sg r)) in *.
  rewrite (spmd_bind size _ _ _ (step_split_pts_all (P := point) (G := pool point) size Hsize X aX HX)).
  rewrite (spmd_bind size _ _ _ (step_split_vec_all y ay Hy)).
  rewrite (spmd_bind size _ _ _ (step_split_vec_all sg asg Hs)).
  rewrite spmd_sync by auto.
  etransitivity.
  { apply spmd_ext. intros r Hr. pose proof (Em r Hr) as E. unfold rank_pool in E at 1. cbv zeta in E. rewrite E. rewrite bind_local.
    change (or_else (new_pool zero_point np) (rank_pool argsort size s np X y sg r)) with (p r). reflexivity. }
  rewrite Eps in H. destruct (merge_pools argsort size s np (map p (seq 0 size))) as [m|x] eqn:E; [|discriminate]. cbn [bind] in H.
  rewrite (spmd_bind size _ _ _ (merge_all s np p m E)). injection H as <-. apply spmd_ret. reflexivity.
Qed.
Lemma reweight_ok s b n n1 : reweight expf w s b n = (n1, Ok tt) ->
  exists mc y_mc q, n_mc n = Some mc /\ m_y mc = Some y_mc
  /\ reweighted expf b mc y_mc (map (s_mean s) (mask (within_of b mc) (m_X mc)))
       (Some (map (s_sigma s) (mask (within_of b mc) (m_X mc)))) = Ok q
  /\ n1 = mkNora (n_i n) (n_mc n) (Some q) (Some true) (n_prop n).
Proof.
  unfold reweight. destruct (n_mc n) as [mc|] eqn:Emc; [|discriminate]. destruct (m_y mc) as [y_mc|] eqn:Ey; [|discriminate].
  fold (within_of b mc). set (X := mask (within_of b mc) (m_X mc)).
  destruct (C02_compute_y_parallel point (s_mean s) (s_sigma s) w X Hsize) as (E & _). rewrite E. cbv zeta.
  intros H. exists mc, y_mc. unfold reweighted. fold X. cbv zeta.
  destruct (pymax_list _) as [m|x]; [|discriminate]. cbn [bind]. eexists. split; [reflexivity|]. split; [auto|]. split; [reflexivity|].
  injection H as <-. reflexivity.
Qed.
Lemma reweight_all s b (n : nat -> nora) n1 : reweight expf w s b (n 0) = (n1, Ok tt) ->
  exists st, st 0 = n1 /\ (forall r, n_i (st r) = n_i (n r) /\ n_prop (st r) = n_prop (n r))
  /\ spmd size (fun r => reweight_par expf w r s b (n r)) = Finished (map (fun r => Ok (st r)) (seq 0 size)).
Proof.
  intros H. destruct (reweight_ok s b (n 0) n1 H) as (mc & y_mc & q & E1 & E2 & E3 & ->).
  exists (fun r => mkNora (n_i (n r)) (n_mc (n r)) (if r =? 0 then Some q else None) (Some true) (n_prop (n r))).
  split; [reflexivity|]. split; [intros r; split; reflexivity|]. unfold reweight_par.
  rewrite spmd_bcast by lia. rewrite E1. cbn [negb andb Nat.eqb raise_shared].
  rewrite (spmd_bind size _ _ (fun _ => tt)) by (apply spmd_ret; reflexivity).
  rewrite spmd_bcast by lia. rewrite E1, E2. cbn [negb andb Nat.eqb raise_shared].
  rewrite (spmd_bind size _ _ (fun _ => tt)) by (apply spmd_ret; reflexivity).
  set (X := mask (within_of b mc) (m_X mc)) in *.
  rewrite (spmd_bind size _ _ _ (predict_all_ok s X (fun r => match n_mc (n r) with
                              | Some mc => if r =? 0 then OPts (mask (within_of b mc) (m_X mc)) else ONone
                              | None => ONone
                              end) ltac:(cbv beta; rewrite E1; reflexivity))).
  rewrite (spmd_bind size _ _ (fun r => if r =? 0 then Some q else None)).
  2:{ apply spmd_ret. intros r _. destruct (Nat.eqb_spec r 0) as [->|Hr].
      - rewrite E1. destruct mc as [mX my ms mw]. cbn [m_y] in E2. subst my. cbn [fst snd]. rewrite E3. reflexivity.
      - destruct (n_mc (n r)) as [[mX [my|] ms mw]|]; reflexivity. }
  apply spmd_ret. reflexivity.
Qed.
(** C100, NORA: if the processes have made the same calls so far (their counters and the proposals they remember are the
    same), the sampler ends in all of them, giving its sample to the main process, and the lockstep model (the subject of
    C37 to C39 and C93 to C95) returns proposals, then all processes end with these proposals, and again with the same
    counters and proposals. *)
Theorem C100_nora :
  forall every s np b force (ns : nat -> prog (option (list point * option (list num)))) q X ws (n : nat -> nora) n' sampled l,
  (forall r, r < size -> n_i (n r) = n_i (n 0) /\ n_prop (n r) = n_prop (n 0)) ->
  spmd size ns = Finished (map (fun r => Ok (q r)) (seq 0 size)) -> q 0 = Some (X, ws) ->
  multi_add expf argsort w every s np b force (Ok (X, ws)) (n 0) = (n', sampled, Ok l) ->
  exists st, st 0 = n' /\ (forall r, r < size -> n_i (st r) = n_i (st 0) /\ n_prop (st r) = n_prop (st 0))
  /\ spmd size (fun r => nora_add expf argsort w r every s np b force (ns r) (n r))
     = Finished (map (fun r => Ok (st r, l)) (seq 0 size)).
Proof.
  intros every s np b force ns q X ws n n' sampled l Hn Hns Hq H. unfold multi_add in H. unfold nora_add.
  destruct (np =? 0); [discriminate|]. destruct (every =? 0); [discriminate|].
  set (smp := (n_i (n 0) mod every =? 0) || force) in *.
  assert (exists st1 n1, st1 0 = n1 /\ (forall r, r < size -> n_i (st1 r) = n_i n1 /\ n_prop (st1 r) = n_prop n1)
    /\ (if smp then
          let '(n1, r1) := set_MC_sample w s X ws (n 0) in
          match r1 with
          | Ok _ => (mkNora (n_i n1) (n_mc n1) (n_re n1) (n_flag n1) (Some []), Ok tt)
          | Err x => (n1, Err x)
          end
        else reweight expf w s b (n 0)) = (n1, Ok tt)
    /\ spmd size (fun r => if (n_i (n r) mod every =? 0) || force then let* q := ns r in set_par w r s q (n r) else reweight_par expf w r s b (n r))
       = Finished (map (fun r => Ok (st1 r)) (seq 0 size))) as K.
  { assert (forall p p' : nat -> prog nora, spmd size (fun r => if (n_i (n r) mod every =? 0) || force then p r else p' r) = spmd size (if smp then p else p')) as E.
    { intros p p'. apply spmd_ext. intros r Hr. rewrite (proj1 (Hn r Hr)). fold smp. destruct smp; reflexivity. }
    destruct smp.
    - exists (fun r => mkNora (n_i (n r)) (match q r with Some q => Some (mkSample (fst q) (if r =? 0 then Some (map (s_mean s) X) else None)
                                                              (if r =? 0 then Some (map (s_sigma s) X) else None) (snd q)) | None => None end)
                        (n_re (n r)) (Some false) (Some [])).
      eexists. split; [reflexivity|]. split; [intros r Hr; split; [apply (Hn r Hr)|reflexivity]|]. split.
      + unfold set_MC_sample. destruct (C02_compute_y_parallel point (s_mean s) (s_sigma s) w X Hsize) as (E2 & _). rewrite E2.
        rewrite Hq. reflexivity.
      + rewrite E. rewrite (spmd_bind size _ _ _ Hns). unfold set_par.
        rewrite (spmd_bind size _ _ _ (predict_all_ok s X (fun r => match q r with Some q => OPts (fst q) | None => ONone end) ltac:(cbv beta; rewrite Hq; reflexivity))).
        apply spmd_ret. intros r _. destruct (r =? 0); reflexivity.
    - destruct (reweight expf w s b (n 0)) as [n1 [[]|x]] eqn:Er; [|discriminate].
      destruct (reweight_all s b n n1 Er) as (st1 & E0 & Es & Ep). exists st1, n1. split; [auto|].
      split; [intros r Hr; rewrite <- E0; destruct (Es r) as [-> ->]; destruct (Es 0) as [-> ->]; apply (Hn r Hr)|].
      split; [reflexivity|]. rewrite E. exact Ep. }
  destruct K as (st1 & n1 & E0 & Es & El & Ep).
  rewrite El in H. clear El. rewrite (spmd_bind size _ _ _ Ep).
  set (n2 := mkNora (S (n_i n1)) (n_mc n1) (n_re n1) (n_flag n1) (n_prop n1)) in *.
  set (st2 := fun r => mkNora (S (n_i (st1 r))) (n_mc (st1 r)) (n_re (st1 r)) (n_flag (st1 r)) (n_prop (st1 r))).
  assert (st2 0 = n2) as E2 by (unfold st2, n2; rewrite E0; reflexivity).
  destruct (last_MC_sample n2) as [[X2 [y2|] [sg2|] w2]|] eqn:Elast; try (destruct (n_prop n2); discriminate).
  destruct (n_prop n2) as [prop|] eqn:Eprop; [|discriminate].
  destruct (rank argsort w s np (exclude prop X2 X2) (exclude prop X2 y2) (exclude prop X2 sg2)) as [[[Xp yp] ap]|x] eqn:Erank; [|discriminate].
  injection H as <- _ <-.
  exists (fun r => mkNora (n_i (st2 r)) (n_mc (st2 r)) (n_re (st2 r)) (n_flag (st2 r)) (Some (prop ++ Xp))).
  split; [rewrite E2; reflexivity|]. split; [intros r Hr; cbn [n_i n_prop]; split; [unfold st2; cbn [n_i]; rewrite E0; f_equal; apply (Es r Hr)|reflexivity]|].
  etransitivity.
  { apply spmd_ext. intros r Hr. change (mkNora (S (n_i (st1 r))) (n_mc (st1 r)) (n_re (st1 r)) (n_flag (st1 r)) (n_prop (st1 r))) with (st2 r).
    assert (n_prop (st2 r) = Some prop) as -> by (rewrite <- Eprop; apply (Es r Hr)). rewrite bind_local. reflexivity. }
  set (arg := fun r => match last_MC_sample (st2 r) with
                       | Some q => if r =? 0 then (OPts (exclude prop X2 X2), OVec (exclude prop X2 y2), OVec (exclude prop X2 sg2)) 
                                   else (OPts (m_X q), OArr (m_y q), OArr (m_sigma q))
                       | None => (ONone, ONone, ONone) : obj * obj * obj
                       end).
  rewrite (spmd_bind size _ _ arg).
  2:{ apply spmd_ret. intros r _. unfold arg. destruct (Nat.eqb_spec r 0) as [->|Hr].
      - rewrite E2, Elast. destruct prop; reflexivity.
      - destruct (last_MC_sample (st2 r)) as [[X3 y3 sg3 w3]|]; reflexivity. }
  assert (arg 0 = (OPts (exclude prop X2 X2), OVec (exclude prop X2 y2), OVec (exclude prop X2 sg2))) as E3.
  { unfold arg. rewrite E2, Elast. reflexivity. }
  rewrite (spmd_bind size _ _ (fun _ => (Xp, yp, ap))).
  2:{ apply (rank_all s np (exclude prop X2 X2) (exclude prop X2 y2) (exclude prop X2 sg2)); try (rewrite E3; reflexivity). exact Erank. }
  rewrite spmd_sync by auto. apply spmd_ret. reflexivity.
Qed.
(** C100 fails if NORA re-weights its last sample and no point of it is within the bounds: the main process raises, as it
    does with a single process, but the others wait for ever. *)
Theorem C100_nora_bounds_refuted :
  forall every s np b (ns : nat -> prog (option (list point * option (list num)))) (n : nat -> nora) mc y,
  1 < size -> np <> 0 -> every <> 0 -> n_i (n 0) mod every <> 0 ->
  (forall r, r < size -> n_i (n r) = n_i (n 0)) -> (forall r, r < size -> exists prop, n_prop (n r) = Some prop) ->
  n_mc (n 0) = Some mc -> m_y mc = Some y -> (forall x, In x (m_X mc) -> b x = false) ->
  spmd size (fun r => nora_add expf argsort w r every s np (Some b) false (ns r) (n r)) = Stuck.
Proof.
  intros every s np b ns n mc y H1 Hnp Hev Hi Hn Hp Emc Ey Hb. unfold nora_add.
  rewrite (proj2 (Nat.eqb_neq np 0) Hnp), (proj2 (Nat.eqb_neq every 0) Hev).
  etransitivity.
  { apply spmd_ext. intros r Hr. rewrite (Hn r Hr), (proj2 (Nat.eqb_neq _ _) Hi). cbn [orb]. unfold reweight_par. reflexivity. }
  rewrite spmd_bcast2 by lia. rewrite Emc. cbn [negb andb Nat.eqb raise_shared].
  rewrite (spmd_bind2 size _ _ _ (fun _ => tt)) by (apply spmd_ret; reflexivity).
  rewrite spmd_bcast2 by lia. rewrite Emc, Ey. cbn [negb andb Nat.eqb raise_shared].
  rewrite (spmd_bind2 size _ _ _ (fun _ => tt)) by (apply spmd_ret; reflexivity).
  rewrite (spmd_bind2 size _ _ _ _ (predict_all_ok s (mask (within_of (Some b) mc) (m_X mc)) (fun r => match n_mc (n r) with
                              | Some mc => if r =? 0 then OPts (mask (within_of (Some b) mc) (m_X mc)) else ONone
                              | None => ONone
                              end) ltac:(cbv beta; rewrite Emc; reflexivity))).
  assert (forall A (l : list A), mask (within_of (Some b) mc) l = []) as Em.
  { intros A. unfold within_of. clear -Hb. induction (m_X mc) as [|x X IH]; intros [|a l]; try reflexivity. cbn [map mask].
    rewrite Hb by (left; auto). apply IH. intros z Hz. apply Hb. right. auto. }
  destruct (Hp 1 H1) as [prop Eprop].
  destruct (n_mc (n 1)) as [[mX [my|] ms mw]|] eqn:E1; (eapply (spmd_stuck size _ 1 0 (Bcast 0)); [lia|lia| |];
  [rewrite E1; cbn; rewrite Eprop; cbn; unfold rank_par, step_split_pts, bcast, multiple;
     rewrite (proj2 (Nat.ltb_lt _ _) H1); reflexivity|];
  intros m k; rewrite Emc; destruct mc as [mX0 my0 ms0 mw0]; cbn [m_y] in Ey; subst my0; cbn [Nat.eqb fst];
    unfold reweighted; rewrite !Em; cbn [m_w]; destruct mw0; rewrite ?Em; cbn; discriminate).
Qed.
End NoraPar.
Print Assumptions C100_nora.
Print Assumptions C100_nora_bounds_refuted.

(** Two processes, the first two calls of C37_example: the second re-weights the sample of the first. *)
Definition sampler_of (r : nat) : prog (obj point (pool point)) (option (list point * option (list num))) :=
  let* _ := sync_processes 2 in Ret (if r =? 0 then Some (X3, None) else None).
Example C100_nora_case :
  spmd 2 (fun r => let* q := nora_add toy_exp stable_argsort (Mpi 2) r 2 (toy_surr 1) 1 None false (sampler_of r) new_nora in
                   let* q' := nora_add toy_exp stable_argsort (Mpi 2) r 2 (toy_surr 2) 1 None false (sampler_of r) (fst q) in
                   Ret (n_i (fst q'), n_prop (fst q'), fst (fst (snd q)), fst (fst (snd q'))))
  = Finished (repeat (Ok (2, Some [P2 5 6; P2 3 4], [P2 5 6], [P2 3 4])) 2)
  /\ spmd 2 sampler_of = Finished (map (fun r => Ok (if r =? 0 then Some (X3, None) else None)) (seq 0 2)).
Proof. split; vm_compute; reflexivity. Qed.
(** As C38_empty_example: the second call has bounds without any point of the sample. *)
Example C100_nora_bounds_case :
  spmd 2 (fun r => let* q := nora_add toy_exp stable_argsort (Mpi 2) r 2 (toy_surr 1) 1 None false (sampler_of r) new_nora in
                   nora_add toy_exp stable_argsort (Mpi 2) r 2 (toy_surr 2) 1 (Some (fun _ => false)) false (sampler_of r) (fst q)) = Stuck.
Proof. vm_compute. reflexivity. Qed.

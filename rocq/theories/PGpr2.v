(** Lemmas about thresholds and classification. *)
From Verif Require Import MGpr SGpr PSvm.
From Coq Require Import Permutation Sorting.Sorted.
Set Default Goal Selector "!".

(** ** Sorting *)
Lemma insert_perm x l : Permutation (insert_num x l) (x :: l).
Proof.
  induction l as [|y l IH]; simpl; [reflexivity|]. destruct (np_le x y); [reflexivity|].
  rewrite IH. apply perm_swap.
Qed.
Lemma sort_perm l : Permutation (np_sort l) l.
Proof. induction l as [|x l IH]; simpl; [reflexivity|]. rewrite insert_perm, IH. reflexivity. Qed.
Definition le_ (a b : num) : Prop := np_le a b = true.
Lemma insert_sorted x l : StronglySorted le_ l -> StronglySorted le_ (insert_num x l).
Proof.
  induction l as [|y l IH]; intros H; simpl; [repeat constructor|].
  apply StronglySorted_inv in H as [H1 H2]. destruct (np_le x y) eqn:E.
  - constructor; [constructor; auto|]. constructor; [exact E|].
    eapply Forall_impl; [|exact H2]. intros z Hz. eapply np_le_trans; eauto.
  - constructor; [auto|]. eapply Permutation_Forall; [apply Permutation_sym, insert_perm|].
    constructor; auto. apply np_le_total. exact E.
Qed.
Lemma sort_sorted l : StronglySorted le_ (np_sort l).
Proof. induction l; simpl; [constructor|]. apply insert_sorted; auto. Qed.
Lemma sort_length l : length (np_sort l) = length l.
Proof. apply Permutation_length, sort_perm. Qed.
Lemma le_num a b : isnan b = false -> le_ a b -> nleb a b = true.
Proof. unfold le_, np_le. destruct a, b; simpl; intros; try discriminate; auto. Qed.
Lemma filter_perm {A} (f : A -> bool) l l' : Permutation l l' -> length (filter f l) = length (filter f l').
Proof.
  induction 1 as [|x l l' _ IH|x y l|l1 l2 l3 _ IH1 _ IH2]; simpl; auto.
  - destruct (f x); simpl; auto.
  - destruct (f x), (f y); simpl; auto.
  - congruence.
Qed.
Lemma no_nan_in y v : no_nan y -> In v y -> isnan v = false.
Proof. intros H Hv. destruct v; auto. contradiction. Qed.
Lemma filter_none {A} (f : A -> bool) l : (forall x, In x l -> f x = false) -> filter f l = [].
Proof.
  induction l as [|x l IH]; simpl; intros H; auto. rewrite (H x) by auto. apply IH. auto.
Qed.
Lemma filter_every {A} (f : A -> bool) l : (forall x, In x l -> f x = true) -> filter f l = l.
Proof.
  induction l as [|x l IH]; simpl; intros H; auto. rewrite (H x) by auto. f_equal. apply IH. auto.
Qed.
Lemma filter_le {A} (f : A -> bool) l : length (filter f l) <= length l.
Proof. induction l as [|x l IH]; simpl; [lia|]. destruct (f x); simpl; lia. Qed.

Lemma sorted_split l1 v l2 : StronglySorted le_ (l1 ++ v :: l2) ->
  (forall w, In w l1 -> le_ w v) /\ (forall w, In w l2 -> le_ v w).
Proof.
  induction l1 as [|x l1 IH]; simpl; intros H; apply StronglySorted_inv in H as [H1 H2].
  - split; [tauto|]. rewrite Forall_forall in H2. auto.
  - destruct (IH H1) as [A B]. split; auto. intros w [->|Hw]; auto.
    rewrite Forall_forall in H2. apply H2, in_or_app. simpl. auto.
Qed.
Lemma neg_index_kth y k v : no_nan y -> 1 <= k -> py_neg_index (np_sort y) k = Ok v -> kth_largest y k v.
Proof.
  intros Hn Hk H. unfold py_neg_index in H. destruct (Nat.eqb_spec k 0); [lia|].
  destruct (Nat.ltb_spec (length (np_sort y)) k) as [L|L]; [discriminate|].
  destruct (nth_error (np_sort y) (length (np_sort y) - k)) as [w|] eqn:E; [|discriminate].
  injection H as ->. apply nth_error_split in E as (l1 & l2 & E & El).
  assert (length l2 = k - 1) as E2.
  { apply (f_equal (@length num)) in E. rewrite app_length in E. simpl in E. lia. }
  pose proof (sort_perm y) as P. pose proof (sort_sorted y) as S. rewrite E in P, S.
  apply sorted_split in S as [S1 S2].
  assert (forall w, In w (l1 ++ v :: l2) -> isnan w = false) as Hnn.
  { intros w Hw. eapply no_nan_in; [exact Hn|]. eapply Permutation_in; eauto. }
  assert (isnan v = false) as Hv by (apply Hnn, in_or_app; simpl; auto).
  split; [|split].
  - eapply Permutation_in; [exact P|]. apply in_or_app. simpl. auto.
  - rewrite <- (filter_perm _ _ _ P), filter_app. simpl. rewrite nltb_irrefl.
    rewrite (filter_none _ l1), app_nil_l.
    + pose proof (filter_le (fun w => nltb v w) l2). lia.
    + intros w Hw. apply nleb_ltb_false. apply le_num; auto.
  - rewrite <- (filter_perm _ _ _ P), filter_app. simpl. rewrite nleb_refl by auto.
    rewrite (filter_every _ l2); [rewrite app_length; simpl; lia|].
    intros w Hw. apply le_num; auto. apply Hnn, in_or_app. simpl. auto.
Qed.
Lemma kth_one_best y b : no_nan y -> kth_largest y 1 b -> best y b.
Proof.
  intros Hn (Hb & H1 & _). split; auto. intros w Hw.
  destruct (nleb w b) eqn:E; auto. exfalso.
  assert (nltb b w = true) as E'.
  { rewrite nltb_not_leb, E; eauto using no_nan_in. }
  assert (In w (filter (fun w => nltb b w) y)) as Hin by (apply filter_In; auto).
  destruct (filter _ y); simpl in *; [contradiction|lia].
Qed.
Lemma neg_index_ok y k : 1 <= k <= length y -> exists v, py_neg_index (np_sort y) k = Ok v.
Proof.
  intros Hk. unfold py_neg_index. destruct (Nat.eqb_spec k 0); [lia|].
  rewrite sort_length. destruct (Nat.ltb_spec (length y) k); [lia|].
  destruct (nth_error (np_sort y) (length y - k)) as [v|] eqn:E; [eauto|].
  apply nth_error_None in E. rewrite sort_length in E. lia.
Qed.

(** ** The threshold in use, and the labels *)
Lemma threshold_ok y keep diff T : no_nan y -> y <> [] ->
  diff_threshold_if_keep_n_finite y keep diff = Ok T -> threshold_in_use y keep diff T.
Proof.
  unfold diff_threshold_if_keep_n_finite, threshold_in_use. intros Hn Hy H.
  destruct (Nat.leb_spec keep 1).
  - left. split; [lia|congruence].
  - right. split; [lia|]. simpl in H. destruct (py_neg_index (np_sort y) 1) as [b|] eqn:Eb; [|discriminate].
    simpl in H. rewrite sort_length in H.
    destruct (py_neg_index (np_sort y) (Nat.min keep (length y))) as [v|] eqn:Ev; [|discriminate].
    injection H as <-. exists b, v. split; [|split; auto].
    + apply kth_one_best; auto. apply neg_index_kth; auto.
    + apply neg_index_kth; auto. destruct y; [congruence|]. simpl. lia.
Qed.
Lemma classify_ok {theta} (c : config theta) y finite T : c_classifier c = true -> no_nan y ->
  classify c y = Ok (finite, T) ->
  y <> [] /\ threshold_in_use y (c_keep c) (c_diff c) T /\ labels_right y T finite.
Proof.
  unfold classify. intros -> Hn H.
  destruct (diff_threshold_if_keep_n_finite y (c_keep c) (c_diff c)) as [t|] eqn:Et; [|discriminate].
  simpl in H. destruct (is_finite_raw_self y t) as [l|] eqn:El; [|discriminate].
  simpl in H. injection H as -> ->. destruct y as [|v y]; [discriminate|].
  split; [congruence|]. split; [apply threshold_ok; auto; congruence|].
  simpl in El. injection El as <-. apply (npmax_spec v y) in Hn as (H1 & _ & H3).
  apply (raw_right (v :: y) T (npmax v y)); auto.
Qed.
Lemma labels_kept {pt} (P : num -> Prop) : forall (f : list bool) (X : list pt) (y : list num),
  length f = length y -> length X = length y ->
  (forall i b v, nth_error f i = Some b -> nth_error y i = Some v -> (b = true <-> P v)) ->
  length (mask f X) = length (mask f y) /\ kept P (combine X y) (combine (mask f X) (mask f y)).
Proof.
  induction f as [|b f IH]; intros X y Hf HX H; destruct y as [|v y], X as [|x X]; simpl in *; try lia.
  - split; [auto|constructor].
  - destruct (IH X y) as [A B]; try lia.
    { intros i b' v' H1 H2. apply (H (S i)); auto. }
    pose proof (H 0 b v eq_refl eq_refl) as H0. destruct b; simpl.
    + split; [lia|]. constructor; tauto.
    + split; [lia|]. constructor; auto. intuition discriminate.
Qed.
Lemma masked_ok {A} m (l k : list A) : masked m l = Ok k -> length m = length l /\ k = mask m l.
Proof. unfold masked. destruct (Nat.eqb_spec (length m) (length l)); [|discriminate]. intros H. split; congruence. Qed.

Lemma right_of_labels {pt theta} (c : config theta) (Xall X : list pt) yall finite T :
  c_classifier c = true -> no_nan yall -> classify c yall = Ok (finite, T) -> masked finite Xall = Ok X ->
  training_set_right (c_keep c) (c_diff c) Xall yall X (mask finite yall).
Proof.
  intros Hc Hn H HX. apply masked_ok in HX as [HX ->]. apply classify_ok in H as (H1 & H2 & H3 & H4); auto.
  destruct (labels_kept (within yall T) finite Xall yall) as [A B]; auto; try congruence.
  repeat split; auto; [congruence|]. eauto.
Qed.

(** ** Adding points that are out of the threshold changes nothing for the others *)
Lemma ordinary_no_nan y : ordinary y -> no_nan y.
Proof. intros H N. destruct (H _ N) as [E|[q E]]; discriminate. Qed.
Lemma kth_unique y k v w : no_nan y -> kth_largest y k v -> kth_largest y k w -> v = w.
Proof.
  intros Hn. assert (forall v w, kth_largest y k v -> kth_largest y k w -> nleb v w = true) as H.
  { clear v w. intros v w (Hv & A & B) (Hw & C & D). destruct (nleb v w) eqn:E; auto. exfalso.
    assert (nltb w v = true) as E' by (rewrite nltb_not_leb, E; eauto using no_nan_in).
    assert (length (filter (fun u => nleb v u) y) <= length (filter (fun u => nltb w u) y)) as L; [|lia].
    clear - E'. induction y as [|u y IH]; simpl; auto. destruct (nleb v u) eqn:F.
    - rewrite (nltb_leb_trans _ _ _ E' F). simpl. lia.
    - destruct (nltb w u); simpl; lia. }
  intros A B. apply nleb_antisym; auto.
Qed.
Lemma within_best y T b v : best y b -> (within y T v <-> (exists q, v = Fin q) /\ nleb (nsub b T) v = true).
Proof.
  intros [Hb Hmax]. unfold within. split; intros [[q ->] H]; split; eauto.
  intros w Hw. eapply sub_mono; eauto.
Qed.
Lemma best_exists y : no_nan y -> y <> [] -> exists b, best y b.
Proof.
  destruct y as [|v y]; [congruence|]. intros Hn _. apply npmax_spec in Hn as (H1 & _ & H3).
  exists (npmax v y). split; auto.
Qed.
Lemma threshold_pos y keep diff T : nleb (nz 0) diff = true -> threshold_in_use y keep diff T -> nleb (nz 0) T = true.
Proof.
  intros Hd [[_ ->]|(_ & b & v & _ & _ & ->)]; auto. unfold pymax.
  destruct (nltb diff _) eqn:E; auto. eapply nleb_trans; [exact Hd|]. apply nltb_leb. exact E.
Qed.
Lemma reach diff b v u : nleb (nz 0) diff = true -> v = NInf \/ (exists q, v = Fin q) ->
  nleb v (Fin u) = true ->
  nleb (nsub (Fin b) (pymax diff (nadd (nsub (Fin b) v) (nq 1 1000000)))) (Fin u) = true.
Proof.
  intros Hd [->|[q ->]] Hu.
  - simpl. destruct diff as [| |d|]; try discriminate; reflexivity.
  - destruct diff as [| |d|]; try discriminate; [|reflexivity].
    change (nsub (Fin b) (Fin q)) with (Fin (b + - q)). unfold nq.
    change (nadd (Fin (b + - q)) (Fin (Q2Qc (1 # 1000000)))) with (Fin (b + - q + Q2Qc (1 # 1000000))).
    change (qleb q u = true) in Hu. apply qleb_le in Hu. unfold Qcle in Hu. unfold pymax.
    set (eps := Q2Qc (1 # 1000000)). assert (0 < this eps)%Q as He by (unfold eps; rewrite this_Q2Qc; reflexivity).
    destruct (nltb (Fin d) (Fin (b + - q + eps))) eqn:E.
    + change (qleb (b + - (b + - q + eps)) u = true). apply qleb_le. unfold Qcle.
      rewrite this_plus, this_opp, this_plus, this_plus, this_opp. lra.
    + change (qltb d (b + - q + eps) = false) in E. apply qltb_nlt in E. unfold Qcle in E.
      change (qleb (b + - d) u = true). apply qleb_le. unfold Qcle.
      rewrite this_plus, this_plus, this_opp in E. rewrite this_plus, this_opp. lra.
Qed.
Lemma kth_ordinary y k v : ordinary y -> kth_largest y k v -> v = NInf \/ exists q, v = Fin q.
Proof. intros H [Hv _]. auto. Qed.
Lemma filter_length_app {A} (f : A -> bool) l k :
  length (filter f (l ++ k)) = length (filter f l) + length (filter f k).
Proof. rewrite filter_app, app_length. reflexivity. Qed.
Lemma filter_weaken {A} (f h : A -> bool) l : (forall x, f x = true -> h x = true) ->
  length (filter f l) <= length (filter h l).
Proof.
  intros H. induction l as [|x l IH]; simpl; [lia|]. destruct (f x) eqn:E.
  - rewrite (H _ E). simpl. lia.
  - destruct (h x); simpl; lia.
Qed.
Lemma filter_full {A} (f : A -> bool) l x : length l <= length (filter f l) -> In x l -> f x = true.
Proof.
  induction l as [|y l IH]; simpl; [tauto|]. intros H [->|Hx].
  - destruct (f x); auto. pose proof (filter_le f l). lia.
  - apply IH; auto. destruct (f y); simpl in H; [lia|]. pose proof (filter_le f l). lia.
Qed.
Lemma not_leb_ltb a b : isnan a = false -> isnan b = false -> nleb a b = false -> nltb b a = true.
Proof. intros A B H. rewrite nltb_not_leb, H; auto. Qed.

Lemma within_stable keep diff y new T T' :
  nleb (nz 0) diff = true -> ordinary (y ++ new) -> y <> [] ->
  threshold_in_use y keep diff T -> threshold_in_use (y ++ new) keep diff T' ->
  (forall w, In w new -> ~ within (y ++ new) T' w) ->
  forall u, In u y -> (within y T u <-> within (y ++ new) T' u).
Proof.
  intros Hd Ho Hy HT HT' Hnew u Hu.
  assert (ordinary y) as Ho1 by (intros v Hv; apply Ho, in_or_app; auto).
  pose proof (ordinary_no_nan _ Ho) as Hn. pose proof (ordinary_no_nan _ Ho1) as Hn1.
  destruct (Ho1 u Hu) as [->|[q ->]].
  { unfold within. split; intros [[q E] _]; discriminate. }
  destruct (best_exists y Hn1 Hy) as [b Hb].
  assert (exists bq, b = Fin bq) as [bq ->].
  { destruct Hb as [Hb1 Hb2]. specialize (Hb2 _ Hu). destruct (Ho1 b Hb1) as [->|E]; [discriminate|auto]. }
  assert (best (y ++ new) (Fin bq)) as Hb'.
  { destruct (best_exists (y ++ new) Hn) as [b' [B1 B2]].
    { destruct y; [congruence|discriminate]. }
    split; [apply in_or_app; left; apply Hb|]. intros w Hw. apply in_app_or in Hw as [Hw|Hw].
    - apply Hb; auto.
    - destruct (nleb w (Fin bq)) eqn:E; auto. exfalso.
      assert (isnan w = false) as Nw by (eapply no_nan_in; [exact Hn|apply in_or_app; auto]).
      apply not_leb_ltb in E; auto.
      assert (nleb w b' = true) as L by (apply B2, in_or_app; auto).
      pose proof (nltb_leb_trans _ _ _ E L) as E2.
      assert (isfin b' = true) as Fb.
      { destruct (Ho b' B1) as [->|[z ->]]; [discriminate|reflexivity]. }
      apply in_app_or in B1 as [B1|B1].
      + destruct Hb as [_ Hb]. specialize (Hb _ B1). apply nleb_ltb_false in Hb. congruence.
      + apply (Hnew b' B1). apply pos_sub_within; auto.
        * apply in_or_app; auto.
        * eapply threshold_pos; eauto. }
  rewrite (within_best _ _ _ _ Hb), (within_best _ _ _ _ Hb').
  destruct HT as [[K ->]|(K & b1 & v & B1 & V & ET)], HT' as [[K' ->]|(K' & b2 & v' & B2 & V' & ET')]; try lia; [tauto|].
  assert (b1 = Fin bq) as -> by (apply nleb_antisym; [apply Hb, B1|apply B1, Hb]).
  assert (b2 = Fin bq) as -> by (apply nleb_antisym; [apply Hb', B2|apply B2, Hb']).
  destruct (kth_ordinary _ _ _ Ho V') as [->|[vq ->]].
  - assert (nleb (nsub (Fin bq) T') (Fin q) = true) as R'.
    { rewrite ET'. apply reach; auto. }
    assert (nleb (nsub (Fin bq) T) (Fin q) = true) as R; [|tauto].
    rewrite ET. apply reach; auto; [eapply kth_ordinary; eauto|].
    destruct (kth_ordinary _ _ _ Ho1 V) as [->|[w ->]]; [reflexivity|].
    destruct V as (_ & _ & V). destruct V' as (_ & V' & _). rewrite filter_length_app, app_length in V'.
    assert (length (filter (fun x => nleb (Fin w) x) y) <= length (filter (fun x => nltb NInf x) y)) as L.
    { apply filter_weaken. intros [| |z|]; simpl; auto. }
    apply (filter_full (fun x => nleb (Fin w) x) y); auto. lia.
  - assert (forall w, In w new -> nltb w (Fin vq) = true) as Hlow.
    { intros w Hw. assert (In w (y ++ new)) as Hw' by (apply in_or_app; auto).
      destruct (Ho w Hw') as [->|[z ->]]; [reflexivity|].
      apply not_leb_ltb; auto. destruct (nleb (Fin vq) (Fin z)) eqn:E; auto. exfalso.
      apply (Hnew _ Hw). apply (within_best _ _ _ _ Hb'). split; [eauto|].
      rewrite ET'. apply reach; eauto. }
    assert (filter (fun w => nltb (Fin vq) w) new = []) as F1.
    { apply filter_none. intros w Hw. apply nleb_ltb_false, nltb_leb; auto. }
    assert (filter (fun w => nleb (Fin vq) w) new = []) as F2.
    { apply filter_none. intros w Hw. specialize (Hlow w Hw).
      destruct (nleb (Fin vq) w) eqn:E; auto. apply nleb_ltb_false in E. congruence. }
    destruct V' as (Vin & V1 & V2). rewrite filter_length_app, F1 in V1. rewrite filter_length_app, F2 in V2.
    cbn [length] in V1, V2. rewrite Nat.add_0_r in V1, V2. pose proof (filter_le (fun w => nleb (Fin vq) w) y).
    rewrite app_length in *.
        assert (Nat.min keep (length y) = Nat.min keep (length y + length new)) as EK by lia.
    assert (v = Fin vq) as ->.
    { eapply kth_unique; [exact Hn1|exact V|]. rewrite EK. split; [|lia].
      apply in_app_or in Vin as [Vin|Vin]; auto. specialize (Hlow _ Vin).
      rewrite nltb_irrefl in Hlow. discriminate. }
    rewrite <- ET' in ET. rewrite ET. tauto.
Qed.

(** ** Which points stay *)
Lemma threshold_kept keep diff y T b : nleb (nz 0) diff = true -> ordinary y -> best y b ->
  threshold_in_use y keep diff T -> (exists q, In (Fin q) y) ->
  within y T b
  /\ Nat.min keep (length (filter isfin y)) <= length (filter (fun v => nleb (nsub b T) v && isfin v) y).
Proof.
  intros Hd Ho Hb HT [q Hq].
  assert (exists bq, b = Fin bq) as [bq ->].
  { destruct Hb as [Hb1 Hb2]. specialize (Hb2 _ Hq). destruct (Ho b Hb1) as [->|E]; [discriminate|auto]. }
  pose proof (ordinary_no_nan _ Ho) as Hn.
  assert (within y T (Fin bq)) as Hw.
  { apply pos_sub_within; auto; try apply Hb. eapply threshold_pos; eauto. }
  split; auto. apply (within_best _ _ _ _ Hb) in Hw as [_ Hw].
  destruct HT as [[K ->]|(K & b1 & v & B1 & V & ET)].
  - assert (In (Fin bq) (filter (fun v => nleb (nsub (Fin bq) diff) v && isfin v) y)) as Hin.
    { apply filter_In. split; [apply Hb|]. rewrite Hw. reflexivity. }
    destruct (filter (fun v => nleb (nsub (Fin bq) diff) v && isfin v) y); simpl in *; [contradiction|lia].
  - assert (b1 = Fin bq) as -> by (apply nleb_antisym; [apply Hb, B1|apply B1, Hb]).
    assert (forall u, nleb v (Fin u) = true -> nleb (nsub (Fin bq) T) (Fin u) = true) as R.
    { intros u Hu. rewrite ET. apply reach; auto. eapply kth_ordinary; eauto. }
    destruct (kth_ordinary _ _ _ Ho V) as [->|[vq ->]].
    + transitivity (length (filter isfin y)); [lia|]. apply filter_weaken.
      intros [| |u|] Hu; try discriminate. rewrite R by reflexivity. reflexivity.
    + destruct V as (_ & _ & V).
      transitivity (length (filter (fun w => nleb (Fin vq) w) y)).
      * pose proof (filter_le isfin y). lia.
      * clear - R Ho. induction y as [|w y IH]; [simpl; lia|]. cbn [filter].
        assert (ordinary y) as Ho' by (intros z Hz; apply Ho; simpl; auto). specialize (IH Ho').
        destruct (Ho w) as [->|[z ->]]; [simpl; auto| |].
        { cbn [isfin]. rewrite andb_false_r. exact IH. }
        destruct (nleb (Fin vq) (Fin z)) eqn:E.
        { rewrite (R _ E). cbn [isfin andb length]. lia. }
        { match goal with |- context [if ?x then _ else _] => destruct x end; cbn [length]; lia. }
Qed.
Lemma classify_length {theta} (c : config theta) y f T : classify c y = Ok (f, T) -> length f = length y.
Proof.
  unfold classify. destruct (c_classifier c).
  - destruct (diff_threshold_if_keep_n_finite y _ _) as [t|]; [|discriminate]. simpl.
    destruct y as [|v y]; [discriminate|]. simpl. intros H. injection H as <- <-.
    simpl. unfold is_finite_raw. rewrite map_length. reflexivity.
  - intros H. injection H as <- <-. apply repeat_length.
Qed.
Lemma classify_nan {theta} (c : config theta) y f T : c_classifier c = true -> In NaN y ->
  classify c y = Ok (f, T) -> f = repeat false (length y).
Proof.
  unfold classify. intros -> Hn. destruct (diff_threshold_if_keep_n_finite y _ _) as [t|]; [|discriminate]. simpl.
  destruct y as [|v y]; [contradiction|]. simpl. intros E. injection E as <- <-.
  assert (npmax v y = NaN) as ->.
  { assert (isnan (npmax v y) = true) as E; [|destruct (npmax v y); auto; discriminate].
    rewrite npmax_nan. destruct Hn as [->|Hin]; [reflexivity|]. apply orb_true_iff. right.
    apply existsb_exists. exists NaN. auto. }
  simpl. f_equal. unfold is_finite_raw. clear. induction y; simpl; f_equal; auto.
Qed.

(** Properties C84 - C87: the interfaces to nested samplers (gpry/ns_interfaces.py). *)
From Verif Require Import MNs.
Set Default Goal Selector "!".

(** ** C84 *)
(** A point of the prior volume. *)
Definition in_box (bounds : list (num * num)) (x : list num) : Prop :=
  length x = length bounds /\
  forall i b v, nth_error bounds i = Some b -> nth_error x i = Some v -> nleb (fst b) v = true /\ nleb v (snd b) = true.
Definition finite_box (bounds : list (num * num)) : Prop :=
  forall b, In b bounds -> isfin (fst b) = true /\ isfin (snd b) = true /\ nleb (fst b) (snd b) = true.
Definition unit_cube (d : nat) (q : list num) : Prop :=
  length q = d /\ forall v, In v q -> nleb (nz 0) v = true /\ nleb v (nz 1) = true.
Lemma affine_in q a b : isfin a = true -> isfin b = true -> nleb a b = true -> nleb (nz 0) q = true -> nleb q (nz 1) = true ->
  let v := nadd (nmul q (nsub b a)) a in nleb a v = true /\ nleb v b = true.
Proof.
  destruct a as [| |a|]; try discriminate. destruct b as [| |b|]; try discriminate. destruct q as [| |q|]; try discriminate.
  intros _ _. unfold nleb, nz, nadd, nsub, nmul, nneg, nadd. cbv zeta.
  intros H1 H2 H3. revert H1 H2 H3. change (qleb a b = true -> qleb (qc_of_Z 0) q = true -> qleb q (qc_of_Z 1) = true ->
    qleb a (q * (b + - a) + a)%Qc = true /\ qleb (q * (b + - a) + a)%Qc b = true).
  unfold qleb. rewrite !Qle_bool_iff. intros H1 H2 H3.
  change (a <= b)%Qc in H1. change (qc_of_Z 0 <= q)%Qc in H2. change (q <= qc_of_Z 1)%Qc in H3.
  change ((a <= q * (b + - a) + a)%Qc /\ (q * (b + - a) + a <= b)%Qc).
  assert (0 <= b + - a)%Qc as Hw. { apply Qcle_minus_iff in H1. exact H1. }
  assert (qc_of_Z 0 = 0%Qc) as E0 by reflexivity. assert (qc_of_Z 1 = 1%Qc) as E1 by reflexivity. rewrite E0 in H2. rewrite E1 in H3.
  split.
  - apply Qcle_minus_iff. replace (q * (b + - a) + a + - a)%Qc with (q * (b + - a))%Qc by ring.
    replace 0%Qc with (0 * (b + - a))%Qc by ring. apply Qcmult_le_compat_r; auto.
  - apply Qcle_minus_iff. replace (b + - (q * (b + - a) + a))%Qc with ((1 + - q) * (b + - a))%Qc by ring.
    replace 0%Qc with (0 * (b + - a))%Qc by ring. apply Qcmult_le_compat_r; auto. apply Qcle_minus_iff in H3. auto.
Qed.
(** UltraNest only ever looks at points within the bounds. *)
Theorem C84_ultranest :
  forall bounds q, finite_box bounds -> unit_cube (length bounds) q -> in_box bounds (uniform_prior_transform bounds q).
Proof.
  intros bounds q Hf [Hl Hq]. split.
  { unfold uniform_prior_transform. rewrite map_length, combine_length. lia. }
  intros i b v Hb Hv. unfold uniform_prior_transform in Hv. rewrite nth_error_map in Hv.
  assert (exists u, nth_error q i = Some u) as [u Hu].
  { destruct (nth_error q i) eqn:E; eauto. apply nth_error_None in E. assert (i < length bounds) by (apply nth_error_Some; congruence). lia. }
  assert (nth_error (combine q bounds) i = Some (u, b)) as Ec.
  { clear - Hb Hu. revert q bounds Hb Hu. induction i as [|i IH]; intros [|x q] [|y bounds] Hb Hu; simpl in *; try discriminate; [congruence|auto]. }
  rewrite Ec in Hv. injection Hv as <-. cbn [fst snd].
  destruct (Hf b (nth_error_In _ _ Hb)) as (F1 & F2 & F3). destruct (Hq u (nth_error_In _ _ Hu)). apply affine_in; auto.
Qed.
(** The corners of the cube go to the corners of the box, so all of it is covered. *)
Theorem C84_corners :
  forall bounds, finite_box bounds ->
    uniform_prior_transform bounds (repeat (nz 0) (length bounds)) = map fst bounds
    /\ uniform_prior_transform bounds (repeat (nz 1) (length bounds)) = map snd bounds.
Proof.
  intros bounds Hf. unfold uniform_prior_transform. induction bounds as [|[a b] bounds IH]; [auto|].
  destruct IH as [I1 I2]; [intros c Hc; apply Hf; right; auto|].
  destruct (Hf (a, b) (or_introl eq_refl)) as (F1 & F2 & _). cbn [fst snd] in *.
  cbn [length repeat combine map fst snd]. rewrite I1, I2.
  destruct a as [| |a|]; try discriminate. destruct b as [| |b|]; try discriminate.
  split; f_equal; unfold nadd, nmul, nz, nsub, nneg, nadd; f_equal; [change (qc_of_Z 0) with 0%Qc|change (qc_of_Z 1) with 1%Qc]; ring.
Qed.
(** Nessai: right for a single point. *)
Theorem C84_nessai_single : forall b, nessai_log_prior [b] = if b then nz 0 else NInf.
Proof. intros []; reflexivity. Qed.
(** In a batch, a point outside the bounds gets the prior density of the inside if any other is inside. *)
Theorem C84_nessai_batch_refuted :
  forall inside, In true inside -> In false inside -> nessai_log_prior inside = nz 0.
Proof.
  intros l H _. unfold nessai_log_prior. assert (existsb (fun b => b) l = true) as ->; [|auto]. apply existsb_exists. exists true. auto.
Qed.
Print Assumptions C84_ultranest.
Print Assumptions C84_corners.
Print Assumptions C84_nessai_single.
Print Assumptions C84_nessai_batch_refuted.
Example C84_example :
  finite_box [(nz (-1), nz 3); (nz 10, nz 20)] /\ unit_cube 2 [nq 1 2; nq 1 4]
  /\ uniform_prior_transform [(nz (-1), nz 3); (nz 10, nz 20)] [nq 1 2; nq 1 4] = [nz 1; nq 25 2].
Proof.
  split; [|split].
  - intros b [<-|[<-|[]]]; repeat split.
  - split; [auto|]. intros v [<-|[<-|[]]]; split; reflexivity.
  - reflexivity.
Qed.

(** ** C85 *)
(** What belongs to a PolyChord run: files called like its root up to a dot or an underscore. *)
Definition starts_with (p s : string) : Prop := exists t, s = (p ++ t)%string.
Definition polychord_file (base_dir file_root : string) (f : file) : Prop :=
  (fst f = base_dir /\ (starts_with (file_root ++ ".") (snd f) \/ starts_with (file_root ++ "_") (snd f)))
  \/ (fst f = (base_dir ++ "/clusters")%string /\ starts_with (file_root ++ "_") (snd f)).
Lemma prefix_starts p s : String.prefix p s = true <-> starts_with p s.
Proof.
  unfold starts_with. revert s. induction p as [|c p IH]; intros s; simpl.
  - split; [intros _; exists s; auto|]. destruct s; auto.
  - destruct s as [|c' s]; [split; [discriminate|intros [t H]; discriminate]|].
    cbn. destruct (Ascii.ascii_dec c c') as [->|N].
    + cbn. rewrite IH. split; intros [t H]; exists t; simpl in *; congruence.
    + split; [discriminate|]. intros [t H]. simpl in H. congruence.
Qed.
Section C85.
Variable abspath : string -> string.
(** A path [folder/root] without a slash in [root] and a folder that does not end in one. *)
Definition no_slash (s : string) : Prop := forall p q, s <> (p ++ "/" ++ q)%string.
Lemma append_assoc a b c : ((a ++ b) ++ c)%string = (a ++ (b ++ c))%string.
Proof. induction a; simpl; congruence. Qed.
Lemma at_last_no_slash t : no_slash t -> at_last_slash t = (EmptyString, t).
Proof.
  induction t as [|c t IH]; intros H; [auto|]. simpl. rewrite IH.
  2: { intros p q E. apply (H (String c p) q). rewrite E. reflexivity. }
  destruct (Ascii.eqb_spec c slash) as [->|N]; [|auto]. exfalso. apply (H EmptyString t). reflexivity.
Qed.
Lemma at_last_join d t : no_slash t -> at_last_slash (d ++ String slash t) = ((d ++ String slash EmptyString)%string, t).
Proof.
  intros H. induction d as [|c d IH]; simpl.
  - rewrite at_last_no_slash by auto. reflexivity.
  - rewrite IH. destruct d; reflexivity.
Qed.
(** After deleting, exactly the files of that run are gone. *)
Theorem C85_polychord :
  forall last out_dir fs base_dir file_root fs',
    (base_dir, file_root) = match out_dir with
                            | None => last
                            | Some s => match process_out_dir abspath None (Some s) with Ok br => br | Err _ => last end
                            end ->
    file_root <> EmptyString -> polychord_delete abspath last out_dir fs = Ok fs' ->
    forall f, In f fs' <-> In f fs /\ ~ polychord_file base_dir file_root f.
Proof.
  intros last out_dir fs base root fs' Hb Hr H f.
  assert (fs' = filter (fun f => negb (polychord_matches base root f)) fs) as ->.
  { unfold polychord_delete in H. destruct out_dir as [s|].
    - destruct (process_out_dir abspath None (Some s)) as [br|]; simpl in H; [|discriminate]. subst br. simpl in H.
      destruct (String.eqb_spec root ""); [congruence|]. congruence.
    - subst last. simpl in H. destruct (String.eqb_spec root ""); congruence. }
  rewrite filter_In, negb_true_iff, <- not_true_iff_false. unfold polychord_matches, polychord_file, sub.
  rewrite orb_true_iff, !andb_true_iff, orb_true_iff, !prefix_starts, !String.eqb_eq.
  change ("/" ++ "clusters")%string with "/clusters"%string. tauto.
Qed.
(** The path is split into folder and root. *)
Theorem C85_path :
  forall folder root random, no_slash root -> root <> EmptyString -> folder <> EmptyString ->
    (forall p, folder <> (p ++ "/")%string) ->
    process_out_dir abspath random (Some (folder ++ "/" ++ root)%string) = Ok (abspath folder, root)
    /\ process_out_dir abspath random (Some (folder ++ "/")%string) = Ok (abspath folder, "ns_samples"%string).
Proof.
  intros folder root random Hn Hr Hf Hs.
  assert (rstrip_slashes (folder ++ "/") = folder) as R.
  { clear - Hf Hs. induction folder as [|c f IH]; [congruence|].
    destruct f as [|c' f].
    - simpl. destruct (Ascii.eqb_spec c slash) as [->|N]; [exfalso; apply (Hs EmptyString); reflexivity|]. simpl. reflexivity.
    - assert (rstrip_slashes (String c' f ++ "/") = String c' f) as I.
      { apply IH; [discriminate|]. intros p E. apply (Hs (String c p)). rewrite E. reflexivity. }
      change (String c (String c' f) ++ "/")%string with (String c (String c' f ++ "/")).
      change (rstrip_slashes (String c (String c' f ++ "/"))) with
        (if all_slashes (String c (String c' f ++ "/")) then EmptyString else String c (rstrip_slashes (String c' f ++ "/"))).
      rewrite I. destruct (all_slashes (String c (String c' f ++ "/"))) eqn:A; [|auto].
      exfalso. cbn [all_slashes] in A. apply andb_prop in A as [_ A]. simpl (String c' f ++ "/")%string in *.
      cbn [rstrip_slashes] in I. rewrite A in I. discriminate. }
  assert (all_slashes (folder ++ "/") = false) as A.
  { destruct (all_slashes (folder ++ "/")) eqn:E; [|auto]. exfalso. destruct folder as [|c f]; [congruence|].
    simpl (String c f ++ "/")%string in *. cbn [rstrip_slashes] in R. rewrite E in R. discriminate. }
  assert (forall t, no_slash t -> os_path_split (folder ++ "/" ++ t) = (folder, t)) as K.
  { intros t Ht. unfold os_path_split. change ("/" ++ t)%string with (String slash t). rewrite at_last_join by auto.
    change (String slash EmptyString) with "/"%string. rewrite A, R. reflexivity. }
  unfold process_out_dir. split.
  - rewrite (K root Hn). destruct (String.eqb_spec folder ""); [congruence|]. destruct (String.eqb_spec root ""); [congruence|]. auto.
  - pose proof (K EmptyString) as K0. simpl ("/" ++ "")%string in K0. rewrite K0.
    2: { intros p q E. destruct p; discriminate. }
    destruct (String.eqb_spec folder ""); [congruence|]. reflexivity.
Qed.
(** Nessai removes the folder that was asked for, with everything in it. *)
Theorem C85_nessai :
  forall last out_dir fs fs', nessai_delete abspath last out_dir fs = Ok fs' ->
    exists d, d = match out_dir with
                  | None => last
                  | Some s => match process_out_dir abspath None (Some s) with Ok br => fst br | Err _ => last end
                  end
      /\ forall f, In f fs' <-> In f fs /\ fst f <> d /\ ~ starts_with (d ++ "/") (fst f).
Proof.
  intros last out_dir fs fs' H. eexists. split; [reflexivity|]. intros f.
  set (d := match out_dir with None => _ | Some s => _ end).
  assert (fs' = rmtree d fs) as ->.
  { unfold nessai_delete, d in *. destruct out_dir as [s|]; [|simpl in H; congruence].
    destruct (process_out_dir abspath None (Some s)) as [br|]; simpl in H; [congruence|discriminate]. }
  unfold rmtree, within_folder. rewrite filter_In, negb_true_iff, orb_false_iff.
  rewrite <- !not_true_iff_false, prefix_starts, String.eqb_eq. tauto.
Qed.
End C85.
Print Assumptions C85_polychord.
Print Assumptions C85_path.
Print Assumptions C85_nessai.
Definition ident (s : string) : string := s.
Example C85_example :
  let fs := [("/out", "run1.txt"); ("/out", "run1_dead.txt"); ("/out/clusters", "run1_1.txt"); ("/out", "notes.txt")]%string in
  polychord_delete ident ("/tmp/x", "ns_samples")%string (Some "/out/run1"%string) fs = Ok [("/out", "notes.txt")]%string.
Proof. reflexivity. Qed.
(** PolyChord: deleting the output of the run [run] deletes that of the run [run_2] in the same folder. *)
Theorem C85_polychord_refuted :
  polychord_delete ident ("/out", "run")%string None [("/out", "run.txt"); ("/out", "run_2.txt")]%string = Ok [].
Proof. reflexivity. Qed.
(** UltraNest: asked to delete the output in one folder, it deletes the last one instead. *)
Theorem C85_ultranest_refuted :
  forall abspath last s fs fs', ultranest_delete abspath last (Some s) fs = Ok fs' -> fs' = rmtree last fs.
Proof.
  intros abspath last s fs fs' H. unfold ultranest_delete in H.
  destruct (process_out_dir abspath None (Some s)); simpl in H; [congruence|discriminate].
Qed.
Example C85_ultranest_example :
  ultranest_delete ident "/b"%string (Some "/a/"%string) [("/a", "chain"); ("/b", "chain")]%string = Ok [("/a", "chain")]%string.
Proof. reflexivity. Qed.
(** Nessai and UltraNest ignore the file root: output asked for in [/home/run1] takes [/home] with it. *)
Theorem C85_folder_refuted :
  process_out_dir ident None (Some "/home/run1"%string) = Ok ("/home", "run1")%string
  /\ nessai_delete ident "/home"%string None [("/home", "thesis.tex"); ("/home/data", "x")]%string = Ok []
  /\ ultranest_delete ident "/home"%string None [("/home", "thesis.tex"); ("/home/data", "x")]%string = Ok [].
Proof. repeat split. Qed.
Print Assumptions C85_polychord_refuted.
Print Assumptions C85_ultranest_refuted.
Print Assumptions C85_folder_refuted.

(** ** C86 *)
Section C86.
Variable A : Type.
Lemma setting_same k (v : A) s : setting k (set_setting k v s) = Some v.
Proof.
  unfold setting. induction s as [|[a b] s IH]; simpl.
  - rewrite String.eqb_refl. auto.
  - destruct (String.eqb a k) eqn:E; simpl; [rewrite String.eqb_refl; auto|]. rewrite E. exact IH.
Qed.
Lemma setting_other k k' (v : A) s : k <> k' -> setting k (set_setting k' v s) = setting k s.
Proof.
  intros H. unfold setting. induction s as [|[a b] s IH]; simpl.
  - destruct (String.eqb_spec k' k); [congruence|auto].
  - destruct (String.eqb_spec a k') as [->|N]; simpl.
    + destruct (String.eqb_spec k' k); [congruence|]. auto.
    + destruct (String.eqb a k); auto.
Qed.
Variable in_units_of_d : A -> res A.
(** The names of the options for each sampler, and whether they count in units of the dimension. *)
Definition has_option (i : ns_name) (k t : string) (in_d : bool) : Prop :=
  match i with
  | PolyChord => k = t /\ (In (k, in_d) [("nlive", true); ("num_repeats", true); ("nprior", true); ("max_ncalls", true); ("precision_criterion", false)])
  | UltraNest => In (k, t, in_d) [("nlive", "min_num_live_points", true); ("precision_criterion", "frac_remain", false); ("max_ncalls", "max_ncalls", true)]
  | Nessai => In (k, t, in_d) [("nlive", "nlive", true); ("precision_criterion", "stopping", false)]
  end%string.
Lemma has_option_known i k t b : has_option i k t b <-> In (k, t, b) (known_options i).
Proof.
  destruct i; cbn [has_option known_options]; [|tauto|tauto]. split.
  - intros [<- H]. cbn [In] in *. repeat (destruct H as [H|H]; [injection H as <- <-; auto 10|]). destruct H.
  - cbn [In]. intros H. repeat (destruct H as [H|H]; [injection H as <- <- <-; split; cbn [In]; auto 10|]). destruct H.
Qed.
Lemma set_known_sets kw : forall known s s', NoDup (map (fun p => snd (fst p)) known) -> set_known A in_units_of_d known kw s = (s', Ok tt) ->
  (forall k t b, In (k, t, b) known -> option_value kw k = None -> setting t s' = setting t s)
  /\ (forall k t b v, In (k, t, b) known -> option_value kw k = Some v -> exists u, (if b then in_units_of_d v else Ok v) = Ok u /\ setting t s' = Some u)
  /\ (forall t, (forall k b, ~ In (k, t, b) known) -> setting t s' = setting t s).
Proof.
  induction known as [|[[k0 t0] b0] known IH]; intros s s' Hn H; cbn [set_known] in H.
  - injection H as <-. repeat split; auto. intros k t b v [].
  - cbn [map fst snd] in Hn. inversion Hn as [|x y Hx Hy]; subst.
    assert (forall k t b, In (k, t, b) known -> t <> t0) as Ne.
    { intros k t b Hi ->. apply Hx. apply in_map_iff. exists (k, t0, b). auto. }
    assert (forall k b, ~ In (k, t0, b) known) as N0 by (intros k b Hi; exact (Ne _ _ _ Hi eq_refl)).
    destruct (option_value kw k0) as [v0|] eqn:Ev.
    + destruct (if b0 then in_units_of_d v0 else Ok v0) as [u0|] eqn:Eu; [|discriminate].
      destruct (IH _ _ Hy H) as (I1 & I2 & I3). repeat split.
      * intros k t b [E|Hi] Ho; [injection E as <- <- <-; congruence|]. rewrite (I1 _ _ _ Hi Ho). apply setting_other. eauto.
      * intros k t b v [E|Hi] Ho; [|eauto]. injection E as <- <- <-. rewrite Ho in Ev. injection Ev as ->. exists u0. split; [auto|].
        rewrite (I3 _ N0). apply setting_same.
      * intros t Ht. rewrite I3 by (intros k b Hi; apply (Ht k b); right; auto). apply setting_other. intros ->. apply (Ht k0 b0). left; auto.
    + destruct (IH _ _ Hy H) as (I1 & I2 & I3). repeat split.
      * intros k t b [E|Hi] Ho; [injection E as <- <- <-; apply I3; auto|eauto].
      * intros k t b v [E|Hi] Ho; [injection E as <- <- <-; congruence|eauto].
      * intros t Ht. apply I3. intros k b Hi. apply (Ht k b). right; auto.
Qed.
(** A call that returns sets exactly the known options that were given (converted if they count in units of
    the dimension) and leaves all others alone. *)
Theorem C86_sets :
  forall i kw s s', set_precision in_units_of_d i kw s = (s', Ok tt) ->
    (forall k t b, has_option i k t b -> option_value kw k = None -> setting t s' = setting t s)
    /\ (forall k t b v, has_option i k t b -> option_value kw k = Some v ->
          exists u, (if b then in_units_of_d v else Ok v) = Ok u /\ setting t s' = Some u)
    /\ (forall t, (forall k b, ~ has_option i k t b) -> setting t s' = setting t s).
Proof.
  intros i kw s s' H. assert (NoDup (map (fun p => snd (fst p)) (known_options i))) as Hn.
  { destruct i; repeat constructor; simpl; intuition discriminate. }
  destruct (set_known_sets kw _ _ _ Hn H) as (I1 & I2 & I3). repeat split.
  - intros k t b Ho. apply (I1 k t b). apply has_option_known. auto.
  - intros k t b v Ho. apply (I2 k t b v). apply has_option_known. auto.
  - intros t Ht. apply I3. intros k b Hi. apply (Ht k b). apply has_option_known. auto.
Qed.
(** It returns if all conversions do. *)
Theorem C86_returns :
  forall i kw s, (forall k t v, has_option i k t true -> option_value kw k = Some v -> exists u, in_units_of_d v = Ok u) ->
    snd (set_precision in_units_of_d i kw s) = Ok tt.
Proof.
  intros i kw s H. assert (forall k t v, In (k, t, true) (known_options i) -> option_value kw k = Some v -> exists u, in_units_of_d v = Ok u) as H'.
  { intros k t v Hi. apply (H k t v). apply has_option_known. auto. }
  clear H. unfold set_precision. revert s H'. generalize (known_options i) as known.
  induction known as [|[[k t] b] known IH]; intros s H; cbn [set_known]; [auto|].
  assert (forall s, snd (set_known A in_units_of_d known kw s) = Ok tt) as I by (intros s0; apply IH; intros k0 t0 v Hi; apply (H k0 t0 v); right; auto).
  destruct (option_value kw k) as [v|] eqn:E; [|auto].
  destruct b; [destruct (H k t v (or_introl eq_refl) E) as [u ->]|]; auto.
Qed.
End C86.
Print Assumptions C86_sets.
Print Assumptions C86_returns.
(** A raising call leaves the options before the wrong one set. *)
Theorem C86_error_refuted :
  exists kw s', set_precision (fun v => if nltb v (nz 0) then Err ValueError else Ok v) PolyChord kw [("nlive", nz 1)]%string
    = (s', Err ValueError) /\ setting "nlive" s' = Some (nz 50).
Proof. exists [("nlive", Some (nz 50)); ("nprior", Some (nz (-1)))]%string. eexists. split; reflexivity. Qed.
Print Assumptions C86_error_refuted.
Example C86_example :
  set_precision (fun v => Ok (nmul v (nz 3))) PolyChord [("nlive", Some (nz 50)); ("unknown", Some (nz 1)); ("nprior", None)]%string
    [("max_ncalls", nz 7)]%string = ([("max_ncalls", nz 7); ("nlive", nz 150)]%string, Ok tt)
  /\ set_precision (fun v => Ok (nmul v (nz 3))) UltraNest [("nlive", Some (nz 50)); ("num_repeats", Some (nz 1)); ("precision_criterion", Some (nz 2))]%string
    [("frac_remain", nz 7)]%string = ([("frac_remain", nz 2); ("min_num_live_points", nz 150)]%string, Ok tt).
Proof. split; reflexivity. Qed.

(** ** C87 *)
(** The file of PolyChord has, per line, a weight, minus twice the log-posterior and the coordinates: with
    two lines or more, they become the weights, log-posteriors and points, in the same order. *)
Definition polychord_line (w y : num) (x : list num) : list num := w :: nmul (nz (-2)) y :: x.
Theorem C87_polychord :
  forall samples : list (num * num * list num), 2 <= length samples ->
    polychord_result (loadtxt (map (fun s => polychord_line (fst (fst s)) (snd (fst s)) (snd s)) samples))
    = Ok (Samples (map snd samples) (map (fun s => snd (fst s)) samples) (map (fun s => fst (fst s)) samples)).
Proof.
  intros l Hl. assert (loadtxt (map (fun s => polychord_line (fst (fst s)) (snd (fst s)) (snd s)) l)
    = Table (map (fun s => polychord_line (fst (fst s)) (snd (fst s)) (snd s)) l)) as ->.
  { destruct l as [|a [|b l]]; simpl in *; try lia. reflexivity. }
  unfold polychord_result. rewrite !map_map. cbn [skipn polychord_line nth].
  assert (forall y, nmul half (nmul (nz (-2)) y) = y) as E.
  { intros [| |y|]; try reflexivity. unfold half, nq, nz, nmul. f_equal.
    rewrite Qcmult_assoc. replace (Q2Qc (-1 # 2) * qc_of_Z (-2))%Qc with 1%Qc by (apply Qc_is_canon; reflexivity). ring. }
  do 2 f_equal. apply map_ext. intros s. apply E.
Qed.
Theorem C87_nessai :
  forall samples : list (list num * (num * num * num)),
    nessai_result (map (fun s => fst s ++ [fst (fst (snd s)); snd (fst (snd s)); snd (snd s)]) samples)
    = (map fst samples, map (fun s => snd (fst (snd s))) samples).
Proof.
  intros l. unfold nessai_result. rewrite !map_map. f_equal; apply map_ext; intros [x [[p y] it]]; cbn [fst snd].
  - rewrite app_length. cbn [length]. replace (length x + 3 - 3) with (length x) by lia.
    rewrite firstn_app, Nat.sub_diag, firstn_all. simpl. apply app_nil_r.
  - rewrite app_length. cbn [length]. replace (length x + 3 - 2) with (length x + 1) by lia.
    rewrite app_nth2 by lia. replace (length x + 1 - length x) with 1 by lia. reflexivity.
Qed.
(** A single line gives a vector and numbers, not lists of one. *)
Theorem C87_single_refuted :
  forall w y x, exists y', polychord_result (loadtxt [polychord_line w y x]) = Ok (Single x y' w).
Proof. intros. eexists. reflexivity. Qed.
Print Assumptions C87_polychord.
Print Assumptions C87_nessai.
Print Assumptions C87_single_refuted.
Example C87_example :
  polychord_result (loadtxt [[nq 1 2; nz 4; nz 7]; [nz 1; nz 2; nz 8]]) = Ok (Samples [[nz 7]; [nz 8]] [nz (-2); nz (-1)] [nq 1 2; nz 1]).
Proof.
  assert (nmul half (nz 4) = nz (-2)) as E1 by (unfold half, nq, nz, nmul; f_equal; apply Qc_is_canon; reflexivity).
  assert (nmul half (nz 2) = nz (-1)) as E2 by (unfold half, nq, nz, nmul; f_equal; apply Qc_is_canon; reflexivity).
  unfold polychord_result, loadtxt. cbn [map skipn nth]. rewrite E1, E2. reflexivity.
Qed.

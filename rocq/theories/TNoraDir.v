(** C165: the output folders of the nested samplers run by NORA. *)
From Coq Require Import Lia DecimalString DecimalNat.
From Verif Require Import TPlotRun MNoraDir.
Import ListNotations.
Set Default Goal Selector "!".
Set Bullet Behavior "Strict Subproofs".

(** Names of files: not empty, without slashes, neither "." nor "..". *)
Definition no_slash (s : string) : Prop := split_slash s = [s].
Definition name (s : string) : Prop := no_slash s /\ s <> ""%string /\ s <> "."%string /\ s <> ".."%string.

Lemma split_nonempty s : split_slash s <> [].
Proof. destruct s as [|c s]; cbn [split_slash]; [discriminate|]. destruct (Ascii.eqb c slash); [discriminate|]. destruct (split_slash s); discriminate. Qed.
Lemma digits_split u : no_slash (NilEmpty.string_of_uint u).
Proof. unfold no_slash. induction u; cbn [NilEmpty.string_of_uint split_slash]; try (reflexivity); rewrite IHu; reflexivity. Qed.
Lemma str_name n : name (str_of_nat n).
Proof.
  unfold name, str_of_nat. split; [apply digits_split|].
  assert (Nat.to_uint n <> Decimal.Nil) as H. { intros H. assert (n = 0) as -> by (rewrite <- (Unsigned.of_to n), H; reflexivity). discriminate H. }
  destruct (Nat.to_uint n); try (exfalso; apply H; reflexivity); cbn [NilEmpty.string_of_uint]; repeat split; discriminate.
Qed.
Lemma str_inj i j : str_of_nat i = str_of_nat j -> i = j.
Proof.
  assert (forall n, decode (str_of_nat n) = Some n) as D. { intros n. unfold decode, str_of_nat. rewrite NilEmpty.usu. cbn [option_map]. rewrite Unsigned.of_to. reflexivity. }
  intros H. apply (f_equal decode) in H. rewrite !D in H. injection H as H. exact H.
Qed.

Lemma split_app a b : split_slash (a ++ "/" ++ b)%string = split_slash a ++ split_slash b.
Proof.
  induction a as [|c a IH]; [reflexivity|]. cbn [String.append split_slash]. cbn [String.append] in IH. rewrite IH. destruct (Ascii.eqb c slash); [reflexivity|].
  destruct (split_slash a) as [|h t] eqn:E; [exfalso; exact (split_nonempty a E)|reflexivity].
Qed.
Lemma split_ends a d : no_slash d -> ends_in_slash a = true \/ a = ""%string -> exists l, split_slash a = l ++ [""%string] /\ split_slash (a ++ d)%string = l ++ [d].
Proof.
  intros Hd. induction a as [|c a IH]; intros H; [exists []; split; [reflexivity|exact Hd]|].
  destruct H as [H|H]; [|discriminate H]. destruct a as [|c' a].
  - cbn [ends_in_slash] in H. exists [""%string]. cbn [String.append split_slash]. rewrite H. unfold no_slash in Hd. rewrite Hd. split; reflexivity.
  - destruct IH as (l & E1 & E2); [left; exact H|]. remember (String c' a) as s. cbn [String.append split_slash]. rewrite E1, E2.
    destruct (Ascii.eqb c slash); [exists (""%string :: l); split; reflexivity|].
    destruct l as [|h t].
    + exfalso. subst s. cbn [split_slash] in E1. destruct (Ascii.eqb c' slash); [injection E1 as E1; exact (split_nonempty a E1)|]. destruct (split_slash a); discriminate E1.
    + exists (String c h :: t). split; reflexivity.
Qed.
Lemma components_join a d : no_slash d -> components (os_path_join a d) = push (components a) d.
Proof.
  intros Hd. unfold components, os_path_join. destruct (String.eqb a "" || ends_in_slash a) eqn:E.
  - destruct (split_ends a d Hd) as (l & -> & ->).
    + apply Bool.orb_true_iff in E. destruct E as [E|E]; [right; apply String.eqb_eq, E|left; exact E].
    + rewrite !fold_left_app. reflexivity.
  - rewrite split_app, fold_left_app. unfold no_slash in Hd. rewrite Hd. reflexivity.
Qed.
Lemma push_name st d : name d -> push st d = d :: st.
Proof. intros (_ & A & B & C). unfold push. apply String.eqb_neq in A, B, C. rewrite A, B, C. reflexivity. Qed.
Lemma leading_join p d : starts_in_slash p = true -> starts_in_slash d = false -> d <> ""%string -> leading (os_path_join p d) = leading p.
Proof.
  intros H Hd Nd. destruct p as [|c p]; [discriminate H|]. cbn [starts_in_slash] in H. unfold os_path_join. cbn [String.eqb orb].
  destruct p as [|c1 p]; [cbn [ends_in_slash]; rewrite H; destruct d as [|e d]; [reflexivity|]; cbn [starts_in_slash] in Hd; cbn [String.append leading]; rewrite Hd; reflexivity|].
  destruct p as [|c2 p].
  - cbn [ends_in_slash]. destruct (Ascii.eqb c1 slash) eqn:E; cbn [String.append leading]; rewrite E; [rewrite Hd; reflexivity|reflexivity].
  - destruct (ends_in_slash (String c (String c1 (String c2 p)))); reflexivity.
Qed.
Lemma leading_slash p : leading p = "/"%string \/ leading p = "//"%string.
Proof. destruct p as [|c [|c1 p]]; [left|left|]; try reflexivity. cbn [leading]. destruct (Ascii.eqb c1 slash && negb (starts_in_slash p)); [right|left]; reflexivity. Qed.
Lemma no_slash_start d : no_slash d -> starts_in_slash d = false.
Proof. destruct d as [|c d]; [reflexivity|]. unfold no_slash. cbn [split_slash starts_in_slash]. destruct (Ascii.eqb c slash); [discriminate|reflexivity]. Qed.
Lemma no_slash_end d : no_slash d -> ends_in_slash d = false.
Proof.
  induction d as [|c d IH]; [reflexivity|]. unfold no_slash. cbn [split_slash]. destruct (Ascii.eqb c slash) eqn:E; [discriminate|]. intros H. destruct d as [|c' d]; [exact E|].
  apply IH. unfold no_slash. destruct (split_slash (String c' d)) as [|h t] eqn:F; [exfalso; exact (split_nonempty _ F)|]. injection H as -> ->. reflexivity.
Qed.
Lemma app_assoc_s a b c : ((a ++ b) ++ c = a ++ (b ++ c))%string.
Proof. induction a as [|x a IH]; [reflexivity|]. cbn [String.append]. rewrite IH. reflexivity. Qed.
Lemma ends_app a b : b <> ""%string -> ends_in_slash (a ++ b)%string = ends_in_slash b.
Proof.
  intros Hb. induction a as [|x a IH]; [reflexivity|]. cbn [String.append]. destruct (a ++ b)%string as [|y s] eqn:E; [destruct a; [exfalso; apply Hb; exact E|discriminate E]|]. exact IH.
Qed.
Lemma split_pieces s : Forall no_slash (split_slash s).
Proof.
  induction s as [|c s IH]; [repeat constructor|]. cbn [split_slash]. destruct (Ascii.eqb c slash) eqn:E; [constructor; [reflexivity|exact IH]|].
  destruct (split_slash s) as [|h t]; [repeat constructor; unfold no_slash; cbn [split_slash]; rewrite E; reflexivity|].
  inversion IH as [|? ? Hh Ht]; subst. constructor; [|exact Ht]. unfold no_slash in *. cbn [split_slash]. rewrite E, Hh. reflexivity.
Qed.
Lemma components_names p : Forall name (components p).
Proof.
  unfold components. assert (forall l st, Forall no_slash l -> Forall name st -> Forall name (fold_left push l st)) as G.
  { induction l as [|x l IH]; intros st Hl Hs; [exact Hs|]. inversion Hl as [|? ? Hx Hl']; subst. cbn [fold_left]. apply IH; [exact Hl'|]. unfold push.
    destruct (String.eqb x "") eqn:A; [exact Hs|]. destruct (String.eqb x ".") eqn:B; [exact Hs|]. destruct (String.eqb x "..") eqn:C; [destruct Hs; [constructor|assumption]|].
    constructor; [|exact Hs]. apply String.eqb_neq in A, B, C. repeat split; assumption. }
  apply G; [apply split_pieces|constructor].
Qed.
Lemma concat_snoc l d : l <> [] -> String.concat "/" (l ++ [d]) = (String.concat "/" l ++ "/" ++ d)%string.
Proof.
  induction l as [|x l IH]; intros H; [exfalso; apply H; reflexivity|]. destruct l as [|y l]; [reflexivity|].
  change (String.concat "/" ((x :: y :: l) ++ [d])) with (x ++ "/" ++ String.concat "/" ((y :: l) ++ [d]))%string. rewrite IH by discriminate.
  change (String.concat "/" (x :: y :: l)) with (x ++ "/" ++ String.concat "/" (y :: l))%string. rewrite !app_assoc_s. reflexivity.
Qed.
Lemma concat_end l : l <> [] -> Forall name l -> ends_in_slash (String.concat "/" l) = false /\ String.concat "/" l <> ""%string.
Proof.
  intros H F. destruct (exists_last H) as (l' & d & ->). apply Forall_app in F. destruct F as [_ F]. inversion F as [|? ? (Hd & Nd & _) _]; subst.
  destruct l' as [|x l']; [split; [apply no_slash_end, Hd|exact Nd]|]. rewrite concat_snoc by discriminate. split.
  - rewrite ends_app by discriminate. rewrite (ends_app "/") by exact Nd. apply no_slash_end, Hd.
  - destruct (String.concat "/" (x :: l')); discriminate.
Qed.
Lemma normpath_join p d : starts_in_slash p = true -> name d -> normpath (os_path_join p d) = os_path_join (normpath p) d.
Proof.
  intros H N. pose proof N as (Hd & Nd & _). unfold normpath. rewrite components_join, push_name, leading_join by (try assumption; apply no_slash_start, Hd). cbn [rev].
  pose proof (components_names p) as F. apply Forall_rev in F. destruct (rev (components p)) as [|x l] eqn:E.
  - cbn [List.app]. change (String.concat "/" []) with ""%string. change (String.concat "/" [d]) with d. unfold os_path_join. destruct (leading_slash p) as [-> | ->]; reflexivity.
  - rewrite concat_snoc by discriminate. destruct (concat_end (x :: l) ltac:(discriminate) F) as [A B]. unfold os_path_join. rewrite ends_app by exact B. rewrite A.
    assert (String.eqb (leading p ++ String.concat "/" (x :: l)) "" = false) as -> by (destruct (leading_slash p) as [-> | ->]; reflexivity). cbn [orb]. rewrite !app_assoc_s. reflexivity.
Qed.
Lemma app_nil_s a : (a ++ "" = a)%string.
Proof. induction a as [|x a IH]; [reflexivity|]. cbn [String.append]. rewrite IH. reflexivity. Qed.
Lemma join_assoc a t d : starts_in_slash a = true -> os_path_join a (os_path_join t d) = os_path_join (os_path_join a t) d.
Proof.
  intros H. assert (String.eqb a "" = false) as A by (destruct a; [discriminate H|reflexivity]). assert (forall b, String.eqb (a ++ b) "" = false) as K by (intros b; destruct a; [discriminate H|reflexivity]).
  unfold os_path_join. rewrite A. cbn [orb]. destruct (String.eqb t "") eqn:T.
  - apply String.eqb_eq in T. subst t. cbn [orb String.append]. destruct (ends_in_slash a) eqn:E.
    + rewrite app_nil_s, A, E. reflexivity.
    + rewrite K, ends_app by discriminate. cbn [orb]. rewrite !app_assoc_s. reflexivity.
  - apply String.eqb_neq in T. cbn [orb]. destruct (ends_in_slash a).
    + rewrite K, ends_app by exact T. cbn [orb]. destruct (ends_in_slash t); rewrite ?app_assoc_s; reflexivity.
    + rewrite K, ends_app by discriminate. cbn [orb]. rewrite (ends_app "/") by exact T. destruct (ends_in_slash t); rewrite !app_assoc_s; reflexivity.
Qed.
Lemma abspath_join cwd t d : starts_in_slash cwd = true -> name d -> abspath cwd (os_path_join t d) = os_path_join (abspath cwd t) d.
Proof.
  intros H N. pose proof N as (Hd & Nd & _). apply no_slash_start in Hd. unfold abspath.
  assert (starts_in_slash (os_path_join t d) = starts_in_slash t) as ->. { unfold os_path_join. destruct t as [|c t]; [exact Hd|]. destruct (String.eqb _ _ || _); reflexivity. }
  destruct (starts_in_slash t) eqn:E; [apply normpath_join; assumption|]. rewrite join_assoc by exact H. apply normpath_join; [|exact N].
  unfold os_path_join. destruct cwd as [|c cwd]; [discriminate H|]. destruct (String.eqb _ _ || _); exact H.
Qed.
Lemma join_end a d : name d -> ends_in_slash (os_path_join a d) = false.
Proof. intros (Hd & Nd & _). unfold os_path_join. destruct (String.eqb a "" || ends_in_slash a); rewrite ?ends_app; try discriminate; try exact Nd; apply no_slash_end, Hd || (rewrite (ends_app "/") by exact Nd; apply no_slash_end, Hd). Qed.
Lemma split_concat l : l <> [] -> Forall no_slash l -> split_slash (String.concat "/" l) = l.
Proof.
  induction l as [|x l IH]; intros H F; [exfalso; apply H; reflexivity|]. inversion F as [|? ? Hx Fl]; subst. destruct l as [|y l]; [exact Hx|].
  change (String.concat "/" (x :: y :: l)) with (x ++ "/" ++ String.concat "/" (y :: l))%string. rewrite split_app, IH by (try discriminate; exact Fl). unfold no_slash in Hx. rewrite Hx. reflexivity.
Qed.
Lemma push_all l st : Forall name l -> fold_left push l st = rev l ++ st.
Proof. revert st. induction l as [|x l IH]; intros st F; [reflexivity|]. inversion F as [|? ? Hx Fl]; subst. cbn [fold_left rev]. rewrite push_name by exact Hx. rewrite IH by exact Fl. rewrite <- app_assoc. reflexivity. Qed.
Lemma concat_start l : Forall name l -> starts_in_slash (String.concat "/" l) = false.
Proof.
  intros F. destruct l as [|x l]; [reflexivity|]. inversion F as [|? ? (Hx & Nx & _) _]; subst. apply no_slash_start in Hx. destruct x as [|c x]; [exfalso; apply Nx; reflexivity|]. destruct l; exact Hx.
Qed.
Lemma normpath_idem p : normpath (normpath p) = normpath p.
Proof.
  unfold normpath at 1. pose proof (components_names p) as F. apply Forall_rev in F. set (l := rev (components p)) in *.
  assert (components (normpath p) = rev l) as E.
  { unfold components, normpath. fold l. assert (fold_left push (split_slash (String.concat "/" l)) [] = rev l) as G.
    { destruct l as [|x l'] eqn:El; [reflexivity|]. assert (Forall no_slash (x :: l')) as F2 by (eapply Forall_impl; [|exact F]; intros a (A & _); exact A). rewrite split_concat by (try discriminate; exact F2). rewrite push_all, app_nil_r by exact F. reflexivity. }
    destruct (leading_slash p) as [-> | ->]; exact G. }
  rewrite E, rev_involutive. unfold normpath. fold l. pose proof (concat_start l F) as S. f_equal. destruct (leading_slash p) as [-> | ->]; cbn [String.append leading].
  - destruct (String.concat "/" l) as [|c s]; [reflexivity|]. cbn [starts_in_slash] in S. rewrite S. reflexivity.
  - change (Ascii.eqb "/" slash) with true. rewrite S. reflexivity.
Qed.
Lemma normpath_start p : starts_in_slash (normpath p) = true.
Proof. unfold normpath. destruct (leading_slash p) as [-> | ->]; reflexivity. Qed.
Lemma abspath_idem cwd p : abspath cwd (abspath cwd p) = abspath cwd p.
Proof. unfold abspath. rewrite normpath_start. apply normpath_idem. Qed.
Lemma abspath_start cwd p : starts_in_slash (abspath cwd p) = true.
Proof. apply normpath_start. Qed.
Lemma split_path x : x <> ""%string -> ends_in_slash x = false -> os_path_split (x ++ "/") = (x, ""%string).
Proof.
  intros Hx E. assert (forall s, at_last_slash (s ++ "/") = (s ++ "/", "")%string) as A.
  { induction s as [|c s IH]; [reflexivity|]. cbn [String.append at_last_slash]. rewrite IH. destruct s; reflexivity. }
  assert (forall s, s <> ""%string -> ends_in_slash s = false -> all_slashes (s ++ "/") = false) as B.
  { induction s as [|c s IH]; intros H G; [exfalso; apply H; reflexivity|]. cbn [String.append all_slashes]. destruct s as [|c' s]; [cbn [ends_in_slash] in G; rewrite G; reflexivity|].
    rewrite (IH ltac:(discriminate) G). apply Bool.andb_false_r. }
  assert (forall s, s = ""%string \/ ends_in_slash s = false -> rstrip_slashes (s ++ "/") = s) as C.
  { induction s as [|c s IH]; intros H; [reflexivity|]. destruct H as [H|H]; [discriminate H|]. change (rstrip_slashes (String c s ++ "/")) with (if all_slashes (String c s ++ "/") then ""%string else String c (rstrip_slashes (s ++ "/"))).
    rewrite B by (try discriminate; exact H). rewrite IH; [reflexivity|]. destruct s; [left; reflexivity|right; exact H]. }
  unfold os_path_split. rewrite A, B by assumption. rewrite C by (right; exact E). reflexivity.
Qed.

(** The folder of the [i]-th run. *)
Definition folder (cwd tmpdir : string) (i : nat) : string := os_path_join (abspath cwd tmpdir) (str_of_nat i).

(** With a folder given, the sampler of each run gets the next of its subfolders 0, 1, 2..., with one slash at its end. *)
Theorem C165_folders : forall cwd t rs i, starts_in_slash cwd = true ->
    output_folders true cwd rs (mkOutdir (Some t) i) = (mkOutdir (Some t) (i + length rs), map (fun j => Some (folder cwd t j ++ "/")%string) (seq i (length rs))).
Proof.
  intros cwd t rs i H. revert i. induction rs as [|r rs IH]; intros i; [cbn [output_folders length seq map]; rewrite Nat.add_0_r; reflexivity|].
  cbn [output_folders get_output_folder negb o_tmpdir o_i]. unfold get_output_folder. cbn [negb o_tmpdir o_i]. rewrite abspath_join by (try assumption; apply str_name).
  rewrite join_end by apply str_name. rewrite IH. cbn [length seq map]. unfold folder. rewrite <- plus_n_Sm. reflexivity.
Qed.
(** No two runs get the same one. *)
Theorem C165_distinct : forall cwd t rs, starts_in_slash cwd = true -> NoDup (snd (output_folders true cwd rs (new_outdir (Some t)))).
Proof.
  intros cwd t rs H. unfold new_outdir. rewrite C165_folders by exact H. cbn [snd]. apply FinFun.Injective_map_NoDup; [|apply seq_NoDup].
  intros i j E. injection E as E. apply append_inj_r, join_inj, str_inj in E. exact E.
Qed.
(** The interface writes to that subfolder, with its default prefix. *)
Theorem C165_used : forall cwd t i random, starts_in_slash cwd = true -> process_out_dir (abspath cwd) random (Some (folder cwd t i ++ "/")%string) = Ok (folder cwd t i, "ns_samples"%string).
Proof.
  intros cwd t i random H. unfold process_out_dir, folder. pose proof (str_name i) as N. pose proof (abspath_start cwd t) as S.
  assert (os_path_join (abspath cwd t) (str_of_nat i) <> ""%string) as J. { unfold os_path_join. destruct (abspath cwd t) as [|c s]; [discriminate S|]. destruct (String.eqb _ _ || _); discriminate. }
  rewrite split_path by (try exact J; apply join_end, N). apply String.eqb_neq in J. rewrite J. rewrite abspath_join, abspath_idem by assumption. reflexivity.
Qed.
(** Without one, the folder is the random one of the call; other processes than the main one get none. *)
Theorem C165_random : forall cwd rs i, output_folders true cwd rs (mkOutdir None i) = (mkOutdir None i, map (fun r => Some (if ends_in_slash r then r else (r ++ "/")%string)) rs).
Proof. intros cwd rs i. induction rs as [|r rs IH]; [reflexivity|]. cbn [output_folders]. unfold get_output_folder. cbn [negb o_tmpdir map]. rewrite IH. reflexivity. Qed.
Theorem C165_others : forall cwd rs o, output_folders false cwd rs o = (o, repeat None (length rs)).
Proof. intros cwd rs o. induction rs as [|r rs IH]; [reflexivity|]. cbn [output_folders]. unfold get_output_folder. cbn [negb length repeat]. rewrite IH. reflexivity. Qed.

(** What the samplers delete after the run in folder [d]. *)
Definition deletions (cwd d : string) (fs : list file) : list (res (list file)) :=
  [polychord_delete (abspath cwd) (d, "ns_samples"%string) None fs; ultranest_delete (abspath cwd) d None fs; nessai_delete (abspath cwd) d None fs].
Lemma prefix_app a b : String.prefix a b = true -> exists c, b = (a ++ c)%string.
Proof.
  revert b. induction a as [|x a IH]; intros b H; [exists b; reflexivity|]. destruct b as [|y b]; [discriminate H|]. cbn [String.prefix] in H. destruct (Ascii.ascii_dec x y) as [->|]; [|discriminate H].
  destruct (IH b H) as [c ->]. exists c. reflexivity.
Qed.
Lemma length_app a b : String.length (a ++ b)%string = String.length a + String.length b.
Proof. induction a as [|x a IH]; [reflexivity|]. cbn [String.append String.length]. rewrite IH. reflexivity. Qed.
Lemma length_join a d : d <> ""%string -> String.length a < String.length (os_path_join a d).
Proof. intros H. unfold os_path_join. destruct d as [|c d]; [exfalso; apply H; reflexivity|]. destruct (String.eqb a "" || ends_in_slash a); rewrite !length_app; cbn [String.length]; lia. Qed.
(** Files of the user in the folder given are kept. *)
Theorem C165_kept : forall cwd t i fs f, In f fs -> fst f = abspath cwd t -> Forall (fun r => exists l, r = Ok l /\ In f l) (deletions cwd (folder cwd t i) fs).
Proof.
  intros cwd t i fs f Hf E. destruct (str_name i) as (_ & N & _). pose proof (length_join (abspath cwd t) (str_of_nat i) N) as L. fold (folder cwd t i) in L. set (d := folder cwd t i) in *.
  assert (String.eqb (fst f) d = false) as A. { rewrite E. apply String.eqb_neq. intros K. rewrite K in L. lia. }
  assert (forall s, String.length d <= String.length s -> String.eqb (fst f) s = false) as A2. { intros s Hs. rewrite E. apply String.eqb_neq. intros K. rewrite K in L. lia. }
  assert (within_folder d f = false) as W.
  { unfold within_folder. rewrite A. cbn [orb]. destruct (String.prefix (d ++ "/") (fst f)) eqn:P; [|reflexivity]. apply prefix_app in P. destruct P as [c P]. rewrite E in P. rewrite P, !length_app in L. lia. }
  assert (In f (rmtree d fs)) as R. { unfold rmtree. apply filter_In. split; [exact Hf|]. rewrite W. reflexivity. }
  unfold deletions. repeat constructor.
  - eexists. split; [reflexivity|]. apply filter_In. split; [exact Hf|]. unfold polychord_matches. rewrite A, A2 by (unfold sub; rewrite length_app; lia). reflexivity.
  - eexists. split; [reflexivity|exact R].
  - eexists. split; [reflexivity|exact R].
Qed.
(** Refuted: the subfolder is not checked to be new. Another acquisition object with the same folder gets the same ones; UltraNest and Nessai delete all that was in them. *)
Theorem C165_new_refuted : forall cwd t, starts_in_slash cwd = true ->
    (forall rs rs', length rs = length rs' -> snd (output_folders true cwd rs (new_outdir (Some t))) = snd (output_folders true cwd rs' (new_outdir (Some t)))) /\
    forall i fs f, fst f = folder cwd t i -> Forall (fun r => exists l, r = Ok l /\ ~ In f l) (tl (deletions cwd (folder cwd t i) fs)).
Proof.
  intros cwd t H. split; [intros rs rs' E; unfold new_outdir; rewrite !C165_folders by exact H; cbn [snd]; rewrite E; reflexivity|].
  intros i fs f E. unfold deletions. cbn [tl]. repeat constructor; eexists; (split; [reflexivity|]); intros K; apply filter_In in K; destruct K as [_ K]; unfold within_folder in K; rewrite E, String.eqb_refl in K; discriminate K.
Qed.

(** A relative folder, with a slash at its end and dots; the root; no folder; another process. *)
Example C165_example : output_folders true "/home/u" ["/tmp/a"; "/tmp/b"]%string (new_outdir (Some "../v/./ns/"%string)) = (mkOutdir (Some "../v/./ns/"%string) 2, [Some "/home/v/ns/0/"; Some "/home/v/ns/1/"]%string)
  /\ snd (output_folders true "/home/u" ["/tmp/a"]%string (mkOutdir (Some "/"%string) 12)) = [Some "/12/"%string]
  /\ snd (output_folders true "/home/u" ["/tmp/a"]%string (mkOutdir (Some ""%string) 0)) = [Some "/home/u/0/"%string]
  /\ snd (output_folders true "/home/u" ["/tmp/a"]%string (mkOutdir (Some "//x/.."%string) 3)) = [Some "//3/"%string]
  /\ snd (output_folders true "/home/u" ["/tmp/a"]%string (mkOutdir (Some "///x///y/."%string) 3)) = [Some "/x/y/3/"%string]
  /\ snd (output_folders true "/home/u" ["/tmp/a"; "/tmp/b/"]%string (new_outdir None)) = [Some "/tmp/a/"; Some "/tmp/b/"]%string
  /\ output_folders false "/home/u" ["/tmp/a"]%string (new_outdir (Some "ns"%string)) = (new_outdir (Some "ns"%string), [None]).
Proof. repeat split; reflexivity. Qed.
Example C165_used_example : process_out_dir (abspath "/home/u") None (Some "/home/v/ns/0/"%string) = Ok ("/home/v/ns/0", "ns_samples")%string.
Proof. reflexivity. Qed.
(** With one file in the folder and one in its first subfolder, which PolyChord keeps as it does not have the prefix of its own. *)
Example C165_deleted_example :
  let fs := [("/home/v/ns", "mine.txt"); ("/home/v/ns/0", "mine.txt"); ("/home/v/ns/0", "ns_samples.stats")]%string in
  deletions "/home/u" (folder "/home/u" "../v/ns" 0) fs = [Ok (firstn 2 fs); Ok (firstn 1 fs); Ok (firstn 1 fs)].
Proof. reflexivity. Qed.
Print Assumptions C165_folders.
Print Assumptions C165_distinct.
Print Assumptions C165_used.
Print Assumptions C165_random.
Print Assumptions C165_others.
Print Assumptions C165_kept.
Print Assumptions C165_new_refuted.

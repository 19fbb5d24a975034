(** C154: where the sample of a nested sampler is written. *)
From Verif Require Import MNsFile.
From Coq Require Import Lia.
Set Default Goal Selector "!".
Set Bullet Behavior "Strict Subproofs".
Local Open Scope string_scope.

(** ** What is expected *)
Definition no_slash (s : string) : Prop := forall p q, s <> p ++ "/" ++ q.
(** A folder is given by a path that does not end in a slash. *)
Definition folder_path (s : string) : Prop := s <> "" /\ forall p, s <> p ++ "/".
(** An extension: a dot after something else than dots. *)
Definition extension (n : string) : Prop := exists p c q r, c <> dot /\ n = p ++ String c (q ++ "." ++ r).
(** The name of the file for a name [n] in a path, possibly empty (after a final slash). *)
Definition name_for (n m : string) : Prop := (n = "" /\ m = "mc_samples.txt") \/ (n <> "" /\ extension n /\ m = n) \/ (n <> "" /\ ~ extension n /\ m = n ++ ".txt").

Lemma append_assoc a b c : (a ++ b) ++ c = a ++ (b ++ c).
Proof. induction a; cbn; congruence. Qed.
Lemma append_nil a : a ++ "" = a.
Proof. induction a; cbn; congruence. Qed.
Lemma append_cancel a b b' : a ++ b = a ++ b' -> b = b'.
Proof. induction a; cbn; [auto|]. intros H. injection H. auto. Qed.
Lemma append_cancel_r b a a' : a ++ b = a' ++ b -> a = a'.
Proof.
  assert (L : forall x y, String.length (x ++ y) = String.length x + String.length y) by (induction x; cbn; auto).
  revert a'. induction a as [|c a IH]; intros [|c' a'] H; [reflexivity| | |].
  - apply (f_equal String.length) in H. cbn in H. rewrite L in H. lia.
  - apply (f_equal String.length) in H. cbn in H. rewrite L in H. lia.
  - cbn in H. injection H as -> H. f_equal. apply IH. exact H.
Qed.
Lemma last_slash_none t : no_slash t -> at_last_slash t = ("", t).
Proof.
  induction t as [|c t IH]; intros H; [auto|]. simpl. rewrite IH.
  2: { intros p q E. apply (H (String c p) q). rewrite E. reflexivity. }
  destruct (Ascii.eqb_spec c slash) as [->|N]; [|auto]. exfalso. apply (H EmptyString t). reflexivity.
Qed.
Lemma last_slash_join d t : no_slash t -> at_last_slash (d ++ String slash t) = (d ++ String slash "", t).
Proof.
  intros H. induction d as [|c d IH]; simpl.
  - rewrite last_slash_none by auto. reflexivity.
  - rewrite IH. destruct d; reflexivity.
Qed.
Lemma last_slash_snd s : no_slash (snd (at_last_slash s)).
Proof.
  induction s as [|c s IH]; [intros [|? ?] q E; discriminate E|]. cbn [at_last_slash]. destruct (at_last_slash s) as [h t]. cbn [snd] in *.
  destruct (String.eqb h "" && negb (Ascii.eqb c slash)) eqn:E; cbn [snd]; [|exact IH].
  apply andb_prop in E as [_ E]. intros [|c' p] q X; cbn in X; injection X as -> X; [discriminate E|]. apply (IH p q X).
Qed.
Lemma rstrip_folder f : folder_path f -> rstrip_slashes (f ++ "/") = f /\ all_slashes (f ++ "/") = false.
Proof.
  intros [N H]. assert (R : forall s, s <> "" -> (forall p, s <> p ++ "/") -> all_slashes (s ++ "/") = false).
  { induction s as [|c s IH]; intros N1 H1; [congruence|]. cbn [append all_slashes]. destruct s as [|c' s].
    - cbn [append all_slashes]. destruct (Ascii.eqb_spec c slash) as [->|X]; [|reflexivity]. exfalso. apply (H1 ""). reflexivity.
    - rewrite IH; [apply andb_false_r|discriminate|]. intros p E. apply (H1 (String c p)). cbn. rewrite E. reflexivity. }
  split; [|apply R; auto]. induction f as [|c f IH]; [congruence|]. cbn [append rstrip_slashes]. change (all_slashes (String c (f ++ "/"))) with (all_slashes (String c f ++ "/")). rewrite (R _ N H).
  f_equal. destruct f as [|c' f]; [reflexivity|]. apply IH; [discriminate|]. intros p E. apply (H (String c p)). cbn. rewrite E. reflexivity.
Qed.
(** The name. *)
Lemma last_dot_some s a b : at_last_dot s = Some (a, b) -> s = a ++ b /\ exists r, b = "." ++ r.
Proof.
  revert a b. induction s as [|c s IH]; intros a b H; [discriminate H|]. cbn [at_last_dot] in H. destruct (at_last_dot s) as [[a' b']|].
  - injection H as <- <-. destruct (IH a' b' eq_refl) as [-> E]. split; [reflexivity|exact E].
  - destruct (Ascii.eqb_spec c dot) as [->|X]; [|discriminate H]. injection H as <- <-. split; [reflexivity|]. exists s. reflexivity.
Qed.
Lemma last_dot_found s p q : s = p ++ "." ++ q -> exists a b t, at_last_dot s = Some (a, b) /\ a = p ++ t.
Proof.
  revert p. induction s as [|c s IH]; intros p E; [destruct p; discriminate E|]. cbn [at_last_dot]. destruct p as [|c' p]; cbn in E; injection E as -> E.
  - destruct (at_last_dot s) as [[a b]|]; [exists (String dot a), b, (String dot a); split; reflexivity|]. exists "", (String dot s), "". split; reflexivity.
  - destruct (IH p E) as (a & b & t & -> & ->). exists (String c' (p ++ t)), b, t. split; reflexivity.
Qed.
Lemma all_dots_spec s : all_dots s = false <-> exists p c q, c <> dot /\ s = p ++ String c q.
Proof.
  induction s as [|c s IH]; cbn [all_dots].
  - split; [discriminate|]. intros ([|] & c & q & _ & E); discriminate E.
  - destruct (Ascii.eqb_spec c dot) as [->|X]; cbn [andb].
    + rewrite IH. split.
      * intros (p & c & q & X & ->). exists (String dot p), c, q. split; [exact X|reflexivity].
      * intros ([|c' p] & c & q & X & E); cbn [append] in E; injection E as E0 E; [exfalso; apply X; symmetry; exact E0|]. exists p, c, q. auto.
    + split; [|reflexivity]. intros _. exists "", c, s. auto.
Qed.
Lemma splitext_spec n : (extension n /\ exists a b, os_path_splitext n = (a, b) /\ a ++ b = n /\ b <> "") \/ (~ extension n /\ os_path_splitext n = (n, "")).
Proof.
  unfold os_path_splitext. destruct (at_last_dot n) as [[a b]|] eqn:E.
  - destruct (last_dot_some _ _ _ E) as [Hn [r ->]]. destruct (all_dots a) eqn:D.
    + right. split; [|reflexivity]. intros (p & c & q & r' & X & E'). assert (E2 : n = (p ++ String c q) ++ "." ++ r') by (rewrite E', append_assoc; reflexivity).
      destruct (last_dot_found n _ _ E2) as (a' & b' & t & E3 & ->). rewrite E in E3. injection E3 as -> _.
      assert (all_dots ((p ++ String c q) ++ t) = false); [|congruence]. apply all_dots_spec. exists p, c, (q ++ t). split; [exact X|]. rewrite append_assoc. reflexivity.
    + left. apply all_dots_spec in D as (p & c & q & X & ->). split.
      * exists p, c, q, r. split; [exact X|]. rewrite Hn, append_assoc. reflexivity.
      * do 2 eexists. split; [reflexivity|]. split; [auto|discriminate].
  - right. split; [|reflexivity]. intros (p & c & q & r & X & E'). assert (E2 : n = (p ++ String c q) ++ "." ++ r) by (rewrite E', append_assoc; reflexivity).
    destruct (last_dot_found n _ _ E2) as (a' & b' & t & E3 & _). congruence.
Qed.
Lemma mc_samples_extension : extension "mc_samples.txt".
Proof. exists "", "m"%char, "c_samples", "txt". split; [discriminate|reflexivity]. Qed.
Section C154.
Variable abspath : string -> string.
Lemma named d n : no_slash n -> exists m, name_for n m /\
  (let '(file_root, file_ext) := os_path_splitext (if String.eqb n "" then "mc_samples.txt" else n) in
   (abspath d, file_root ++ (if String.eqb file_ext "" then ".txt" else file_ext))) = (abspath d, m).
Proof.
  intros Hn. destruct (String.eqb_spec n "") as [->|N].
  - exists "mc_samples.txt". split; [left; auto|reflexivity].
  - destruct (splitext_spec n) as [(E & a & b & -> & H & B)|(E & ->)].
    + exists n. split; [right; left; auto|]. destruct (String.eqb_spec b ""); [contradiction|]. rewrite H. reflexivity.
    + exists (n ++ ".txt"). split; [right; right; auto|reflexivity].
Qed.
(** The file is in the folder of the path given (the current one if there is none), under its last component, with ".txt" added if that has no extension; after a final slash it is called
    "mc_samples.txt". *)
Theorem C154_where : forall n, no_slash n -> exists m, name_for n m /\
  (n <> "" -> sample_file abspath n = (abspath ".", m)) /\ sample_file abspath ("/" ++ n) = (abspath "/", m) /\
  forall folder, folder_path folder -> sample_file abspath (folder ++ "/" ++ n) = (abspath folder, m).
Proof.
  intros n Hn. destruct (named "" n Hn) as (m & Hm & E). exists m. split; [exact Hm|].
  assert (R : forall d, (let '(file_root, file_ext) := os_path_splitext (if String.eqb n "" then "mc_samples.txt" else n) in
   (abspath d, file_root ++ (if String.eqb file_ext "" then ".txt" else file_ext))) = (abspath d, m)).
  { intros d. destruct (os_path_splitext (if String.eqb n "" then "mc_samples.txt" else n)) as [a b]. apply pair_equal_spec in E as [_ ->]. reflexivity. }
  clear E. split; [|split].
  - intros N. unfold sample_file, os_path_split. rewrite last_slash_none by exact Hn. cbn [all_slashes String.eqb]. cbv iota. apply (R ".").
  - unfold sample_file, os_path_split. change ("/" ++ n) with ("" ++ String slash n). rewrite last_slash_join by exact Hn. cbn [append all_slashes]. cbv iota. apply (R "/").
  - intros folder F. unfold sample_file, os_path_split. change ("/" ++ n) with (String slash n). rewrite last_slash_join by exact Hn. change (String slash "") with "/".
    destruct (rstrip_folder folder F) as [R1 R2]. rewrite R1, R2. destruct (String.eqb_spec folder "") as [X|_]; [destruct F; contradiction|]. apply (R folder).
Qed.
(** Whatever the path, the file is a proper one in that folder: its name has no slash and is not empty, "." or "..". *)
Theorem C154_plain : forall s, let m := snd (sample_file abspath s) in no_slash m /\ m <> "" /\ m <> "." /\ m <> "..".
Proof.
  intros s m. subst m. unfold sample_file. destruct (os_path_split s) as [h n] eqn:E. assert (Hn : no_slash n).
  { unfold os_path_split in E. pose proof (last_slash_snd s) as L. destruct (at_last_slash s) as [h' t']. injection E as _ <-. exact L. }
  destruct (named (if String.eqb h "" then "." else h) n Hn) as (m & Hm & E2). clear E. cbv zeta. rewrite E2. cbn [snd].
  assert (NS : forall p q, "mc_samples.txt" <> p ++ "/" ++ q).
  { intros p q X. assert (Y : no_slash (snd (at_last_slash "mc_samples.txt"))) by apply last_slash_snd. apply (Y p q). exact X. }
  destruct Hm as [(-> & ->)|[(N & X & ->)|(N & X & ->)]].
  - split; [exact NS|]. repeat split; discriminate.
  - split; [exact Hn|]. split; [exact N|]. destruct X as (p & c & q & r & X & ->). destruct p as [|c0 p]; cbn.
    + split; intros Y; injection Y as Y _; apply X; exact Y.
    + split; intros Y; injection Y as Y0 Y.
      * destruct p; discriminate Y.
      * destruct p as [|c1 p]; cbn in Y; injection Y as Y1 Y2; [apply X; exact Y1|]. destruct p; discriminate Y2.
  - split.
    + intros p q Y. assert (K : forall a, no_slash a -> no_slash (a ++ ".txt")).
      { clear. induction a as [|c a IH]; intros H p q E.
        - pose proof (last_slash_snd ".txt") as L. apply (L p q). exact E.
        - destruct p as [|c' p]; cbn in E; injection E as -> E; [apply (H "" a); reflexivity|]. apply (IH (fun p q X => H (String c' p) q (f_equal (String c') X)) p q E). }
      apply (K n Hn p q Y).
    + destruct n as [|c n]; [congruence|]. split; [discriminate|]. split; cbn; intros Y; injection Y as _ Y; destruct n as [|c1 [|]]; discriminate Y.
Qed.
(** Two names for samples in the same folder are the same file only if they differ by ".txt". *)
Theorem C154_distinct : forall n n' m, n <> "" -> n' <> "" -> name_for n m -> name_for n' m -> n = n' \/ n' = n ++ ".txt" \/ n = n' ++ ".txt".
Proof.
  intros n n' m N N' [(E & _)|[(_ & _ & ->)|(_ & _ & ->)]] [(E' & _)|[(_ & _ & E')|(_ & _ & E')]]; try contradiction; auto.
  left. apply append_cancel_r in E'. exact E'.
Qed.
(** Without an output, the sample of a runner with a checkpoint is next to it. *)
Theorem C154_default : forall c, folder_path c -> exists s, runner_output (Some c) ONone = OPath s /\ sample_file abspath s = (abspath (c ++ "/chains"), "mc_samples.txt").
Proof.
  intros c [N H]. exists (c ++ "/chains/mc_samples"). split.
  - cbn. unfold os_path_join. destruct (String.eqb_spec c "") as [X|_]; [contradiction|].
    assert (E : ends_in_slash c = false); [|rewrite E; reflexivity]. clear N. induction c as [|a c IH]; [reflexivity|]. cbn [ends_in_slash]. destruct c as [|b c].
    + destruct (Ascii.eqb_spec a slash) as [->|X]; [|reflexivity]. exfalso. apply (H ""). reflexivity.
    + apply IH. intros p E. apply (H (String a p)). cbn. rewrite E. reflexivity.
  - destruct (C154_where "mc_samples") as (m & Hm & _ & _ & K).
    { pose proof (last_slash_snd "mc_samples") as L. exact L. }
    change (c ++ "/chains/mc_samples") with (c ++ ("/chains" ++ ("/" ++ "mc_samples"))). rewrite <- append_assoc, K.
    + f_equal. destruct Hm as [(E & _)|[(_ & X & _)|(_ & _ & ->)]]; [discriminate E| |reflexivity].
      exfalso. destruct (splitext_spec "mc_samples") as [(_ & a & b & E & E2 & B)|(Y & _)]; [|contradiction]. vm_compute in E. injection E as _ <-. congruence.
    + split; [destruct c; discriminate|]. intros p E. assert (X : at_last_slash (c ++ "/chains") = at_last_slash (p ++ "/")) by (rewrite E; reflexivity).
      change "/chains" with (String slash "chains") in X. rewrite last_slash_join in X by (pose proof (last_slash_snd "chains") as L; exact L).
      change "/" with (String slash "") in X. rewrite last_slash_join in X by (intros [|] q Y; discriminate Y). discriminate X.
Qed.
(** The main process writes that file and leaves all others as they are; nobody else writes, nor anybody if no output is asked for. *)
Theorem C154_saved : forall (C : Type) (content : res C) fs,
  (forall s c, content = Ok c -> exists fs', save_sample abspath true (OPath s) content fs = Ok fs' /\ forall f c', In (f, c') fs' <-> (f = sample_file abspath s /\ c' = c) \/ (f <> sample_file abspath s /\ In (f, c') fs))
  /\ (forall o, save_sample abspath false o content fs = Ok fs) /\ (forall main, save_sample abspath main (runner_output None ONone) content fs = Ok fs).
Proof.
  intros C content fs. split; [|split; [intros []; reflexivity|reflexivity]].
  intros s c ->. cbn [save_sample negb bind]. eexists. split; [reflexivity|]. intros f c'. unfold write. destruct (sample_file abspath s) as [d n]. cbn [In fst snd]. rewrite filter_In. cbn [fst snd].
  assert (Q : negb (String.eqb d (fst f) && String.eqb n (snd f)) = true <-> f <> (d, n)).
  { rewrite negb_true_iff, <- not_true_iff_false, andb_true_iff, !String.eqb_eq. destruct f as [d' n']. cbn [fst snd]. split; [intros X Y; injection Y as -> ->; auto|intros X [-> ->]; auto]. }
  rewrite Q. split.
  - intros [E|[I X]]; [injection E as <- <-; auto|auto].
  - intros [[-> ->]|[X I]]; auto.
Qed.
(** Refuted: without output if [output=False], as documented for the runner. In the main process it raises, after the sample has been drawn; the other processes go on, so that with several of
    them the next collective operation is not entered by all. With or without a checkpoint. *)
Theorem C154_false_refuted : forall (C : Type) (content : res C) fs checkpoint, save_sample abspath true (runner_output checkpoint OFalse) content fs = Err TypeError /\
  save_sample abspath false (runner_output checkpoint OFalse) content fs = Ok fs.
Proof. intros C content fs [c|]; split; reflexivity. Qed.
End C154.
Print Assumptions C154_where.
Print Assumptions C154_plain.
Print Assumptions C154_distinct.
Print Assumptions C154_default.
Print Assumptions C154_saved.
Print Assumptions C154_false_refuted.

(** * Examples *)
Definition abs (s : string) : string := if String.eqb s "." then "/home" else if String.prefix "/" s then s else "/home/" ++ s.
Example C154_case : map (sample_file abs) ["chains/run"; "chains/run.dat"; "run"; "chains/"; "/tmp/.hidden"; ".."; "v0.1/run"; "run."; "chains/run.v0.1"; "/tmp/.run.dat"] =
  [("/home/chains", "run.txt"); ("/home/chains", "run.dat"); ("/home", "run.txt"); ("/home/chains", "mc_samples.txt"); ("/tmp", ".hidden.txt"); ("/home", "...txt"); ("/home/v0.1", "run.txt"); ("/home", "run."); ("/home/chains", "run.v0.1"); ("/tmp", ".run.dat")].
Proof. reflexivity. Qed.
Example C154_default_case : folder_path "out" /\ runner_output (Some "out") ONone = OPath "out/chains/mc_samples" /\ runner_output (Some "out/") ONone = OPath "out/chains/mc_samples" /\ runner_output (Some "out") (OPath "a") = OPath "a".
Proof. split; [|repeat split]. split; [discriminate|]. intros [|? [|? [|? [|? ?]]]] E; discriminate E. Qed.
Example C154_saved_case : save_sample abs true (OPath "chains/run") (Ok 3) [(("/home/chains", "run.txt"), 1); (("/home/chains", "run"), 2)] = Ok [(("/home/chains", "run.txt"), 3); (("/home/chains", "run"), 2)].
Proof. reflexivity. Qed.

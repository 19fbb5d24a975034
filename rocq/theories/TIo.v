(** Properties C57 - C60 and C88: checkpoints. *)
From Verif Require Import MIo.
Set Default Goal Selector "!".

(** Short names: objects are left implicit. *)
Arguments Whole {V}. Arguments Torn {V}. Arguments mkObjects {V}.
Arguments NoTruth {T}. Arguments ATruth {T}. Arguments NotTruth {T}.
Arguments check_checkpoint {V}. Arguments empty_folder {V}. Arguments after {V}. Arguments GPath {V}. Arguments GObject {V}. Arguments GWrong {V}.
Arguments Resumed {V T}. Arguments Fresh {V T}.

(** ** Specification *)
Section Spec.
Context {V T : Type}.
(** The object a complete save puts into each file. *)
Definition saved_object (truth_dict : V) (o : objects V) (i : slot) : V :=
  match i with
  | STruth => truth_dict | SGpr => o_gpr _ o | SAcq => o_acq _ o | SConv => o_conv _ o | SOpt => o_opt _ o | SProg => o_prog _ o
  end.
Definition holds (f : slot -> option (content V)) (d : V) (o : objects V) : Prop :=
  forall i, f i = Some (Whole (saved_object d o i)).
(** All files are there. *)
Definition complete (f : slot -> option (content V)) : Prop := forall i, f i <> None.
Definition parts (t : T) (o : objects V) : loaded_parts V T :=
  (t, Some (o_gpr _ o), Some (o_acq _ o), Some (o_conv _ o), Some (o_opt _ o), Some (o_prog _ o)).
(** The place of a file in the order of writing. *)
Definition place (i : slot) : nat :=
  match i with STruth => 0 | SGpr => 1 | SAcq => 2 | SConv => 3 | SOpt => 4 | SProg => 5 end.
End Spec.

Section Io.
Context {V T : Type}.
Variable as_dict : T -> V.
Variable get_truth : V -> res T.
Notation save_steps := (save_steps V T as_dict).
Notation save_checkpoint := (save_checkpoint V T as_dict).
Notation read_checkpoint := (read_checkpoint V T get_truth).
Notation runner_save := (runner_save V T as_dict).

Lemma complete_flags (f : slot -> option (content V)) : complete f -> check_checkpoint (@Some (folder V) (Some f)) = [true; true; true; true; true; true].
Proof.
  intros H. unfold check_checkpoint, slots. simpl.
  destruct (f STruth) eqn:E0; [|destruct (H _ E0)]. destruct (f SGpr) eqn:E1; [|destruct (H _ E1)].
  destruct (f SAcq) eqn:E2; [|destruct (H _ E2)]. destruct (f SConv) eqn:E3; [|destruct (H _ E3)].
  destruct (f SOpt) eqn:E4; [|destruct (H _ E4)]. destruct (f SProg) eqn:E5; [|destruct (H _ E5)]. reflexivity.
Qed.
Lemma flags_complete (f : slot -> option (content V)) : forallb (fun b => b) (check_checkpoint (@Some (folder V) (Some f))) = true -> complete f.
Proof.
  unfold check_checkpoint, slots. simpl. intros H i E.
  destruct i; rewrite E in H; repeat match type of H with context [match ?x with Some _ => _ | None => _ end] => destruct x end; discriminate.
Qed.
Lemma read_holds f d o t : holds f d o -> get_truth d = Ok t ->
  read_checkpoint (Some f) NoTruth = Ok (parts t o) /\ forall t', read_checkpoint (Some f) (ATruth t') = Ok (parts t' o).
Proof.
  intros H Ht. assert (complete f) as C by (intros i; rewrite H; discriminate).
  unfold MIo.read_checkpoint. cbv beta zeta. rewrite (complete_flags f C). unfold load. cbn [nth].
  rewrite !H. cbn [bind saved_object]. rewrite Ht. split; [|intros t']; reflexivity.
Qed.
Lemma saved_all truth o f i :
  after (length (save_steps truth o)) (save_steps truth o) f i =
  match i, truth with
  | STruth, None => f STruth
  | STruth, Some t => Some (Whole (as_dict t))
  | _, _ => Some (Whole (saved_object (match truth with Some t => as_dict t | None => o_gpr _ o end) o i))
  end.
Proof. destruct truth as [t|], i; reflexivity. Qed.

(** ** C57 *)
(** Whatever was in the folder: after a save that returns, the checkpoint is reported complete, and reading it
    gives the saved objects, with the truth rebuilt from its description or the one passed. *)
Theorem C57_roundtrip :
  forall mkdir t t' o path path', get_truth (as_dict t) = Ok t' ->
    save_checkpoint mkdir None (Some t) o (Some path) = (path', Ok tt) ->
    exists fo, path' = Some fo /\ Forall (fun b => b = true) (check_checkpoint path')
      /\ read_checkpoint fo NoTruth = Ok (parts t' o) /\ forall t2, read_checkpoint fo (ATruth t2) = Ok (parts t2 o).
Proof.
  intros mkdir t t' o path path' Ht H. unfold MIo.save_checkpoint in H. cbv zeta in H.
  destruct (match path with Some f => Some f | None => if mkdir then Some empty_folder else None end) as [f|]; [|discriminate].
  injection H as <-. eexists. split; [reflexivity|].
  match goal with |- context [Some (Some ?g)] => set (f' := g) end.
  assert (holds f' (as_dict t) o) as Hh by (intros i; destruct i; reflexivity).
  split.
  - rewrite complete_flags; [repeat constructor|]. intros i. rewrite Hh. discriminate.
  - apply (read_holds f' (as_dict t) o t'); auto.
Qed.
(** The saves of one runner, each of which returns. *)
Inductive saves (t : T) : bool * option (folder V) -> bool * option (folder V) -> option (objects V) -> Prop :=
| saves_none st : saves t st st None
| saves_more st st1 st2 o0 o mkdir upd : saves t st st1 o0 ->
    runner_save mkdir None upd t o st1 = (st2, Ok tt) -> saves t st st2 (Some o).
(** However many times a runner saved: the checkpoint holds the objects of the last time, and its truth. *)
Theorem C57_history :
  forall t t' path st o, get_truth (as_dict t) = Ok t' -> saves t (false, Some path) st (Some o) ->
    exists fo, snd st = Some fo /\ Forall (fun b => b = true) (check_checkpoint (snd st))
      /\ read_checkpoint fo NoTruth = Ok (parts t' o).
Proof.
  intros t t' path st o Ht H.
  assert (forall st0 st o, saves t st0 st o -> st0 = (false, Some path) ->
    match o with
    | None => st = st0
    | Some o => exists f, st = (true, Some (Some f)) /\ holds f (as_dict t) o
    end) as Inv.
  { clear - as_dict. intros st0 st o H. induction H as [|st0 st1 st2 o0 o mkdir upd H IH E]; intros E0; [auto|].
    specialize (IH E0). unfold MIo.runner_save in E. destruct o0 as [o0|].
    - destruct IH as (f & -> & Hf). cbn [negb orb] in E. rewrite orb_false_r in E.
      unfold MIo.save_checkpoint in E. cbv zeta in E. injection E as <-. eexists. split; [reflexivity|].
      intros i. destruct upd, i; try reflexivity. apply (Hf STruth).
    - subst st1 st0. cbn [negb orb] in E. rewrite orb_true_r in E. unfold MIo.save_checkpoint in E. cbv zeta in E.
      destruct (match path with Some f => Some f | None => if mkdir then Some empty_folder else None end) as [f|]; [|discriminate].
      injection E as <-. eexists. split; [reflexivity|]. intros i. destruct i; reflexivity. }
  specialize (Inv _ _ _ H eq_refl). destruct Inv as (f & -> & Hf). exists (Some f). split; [auto|]. split.
  - cbn [snd]. rewrite complete_flags; [repeat constructor|]. intros i. rewrite Hf. discriminate.
  - apply (read_holds f (as_dict t) o t'); auto.
Qed.
(** Without a path nothing is written, and nothing raises. *)
Theorem C57_no_path :
  forall mkdir fails upd t o written, exists w, runner_save mkdir fails upd t o (written, None) = ((w, None), Ok tt).
Proof. intros mkdir fails upd t o written. unfold MIo.runner_save, MIo.save_checkpoint. eexists. reflexivity. Qed.
(** A first save that fails while writing the truth: later saves that return never write it again, and the
    checkpoint cannot be read. *)
Theorem C57_failed_save_refuted :
  forall t o o' path, exists st1 st2,
    runner_save true (Some 1) false t o (false, Some path) = (st1, Err RuntimeError)
    /\ runner_save true None false t o' st1 = (st2, Ok tt)
    /\ Forall (fun b => b = true) (check_checkpoint (snd st2))
    /\ match snd st2 with Some fo => read_checkpoint fo NoTruth = Err EOFError | None => False end.
Proof.
  intros t o o' path. unfold MIo.runner_save, MIo.save_checkpoint. cbn [negb orb].
  destruct path as [f|]; do 2 eexists; (split; [reflexivity|]; split; [reflexivity|]; cbn [snd]; split; [repeat constructor|reflexivity]).
Qed.

(** ** C58 *)
(** After a crash: there is one file up to which everything is new and from which on everything is old. That
    file itself may be cut off. *)
Theorem C58_prefix :
  forall truth o f n, exists k,
    (forall i, place i < k -> i <> STruth \/ truth <> None ->
       after n (save_steps truth o) f i = Some (Whole (saved_object (match truth with Some t => as_dict t | None => o_gpr _ o end) o i)))
    /\ (forall i, k < place i \/ (i = STruth /\ truth = None) -> after n (save_steps truth o) f i = f i)
    /\ (forall i, place i = k -> after n (save_steps truth o) f i = f i \/ after n (save_steps truth o) f i = Some Torn).
Proof.
  intros truth o f n. destruct truth as [t|].
  - destruct (Nat.le_gt_cases 12 n) as [G|G].
    + exists 6. assert (after n (save_steps (Some t) o) f = after (length (save_steps (Some t) o)) (save_steps (Some t) o) f) as E.
      { unfold after. rewrite !firstn_all2; auto. }
      rewrite E. split; [|split]; intros i H; [|destruct i; cbn [place] in H; intuition (lia || discriminate)|destruct i; cbn [place] in H; lia].
      intros _. rewrite saved_all. destruct i; reflexivity.
    + exists (Nat.div2 n). do 12 (destruct n as [|n]; [cbn [Nat.div2]; split; [|split]; intros [] H; cbn [place] in H; intros;
        solve [lia | intuition (lia || discriminate) | reflexivity | left; reflexivity | right; reflexivity]|]). lia.
  - destruct (Nat.le_gt_cases 10 n) as [G|G].
    + exists 6. assert (after n (save_steps None o) f = after (length (save_steps None o)) (save_steps None o) f) as E.
      { unfold after. rewrite !firstn_all2; auto. }
      rewrite E. split; [|split]; intros i H.
      * intros [N|N]; [|congruence]. rewrite saved_all. destruct i; [congruence|reflexivity..].
      * destruct H as [H|[-> _]]; [destruct i; cbn [place] in H; lia|]. rewrite saved_all. reflexivity.
      * destruct i; cbn [place] in H; lia.
    + exists (S (Nat.div2 n)). do 10 (destruct n as [|n]; [cbn [Nat.div2]; split; [|split]; intros [] H; cbn [place] in H; intros;
        solve [lia | intuition (lia || congruence) | reflexivity | left; reflexivity | right; reflexivity]|]). lia.
Qed.
(** The first checkpoint of a run, in a folder without one: after a crash it is reported incomplete, or reading it
    raises, or it is the one that was being saved. *)
Theorem C58_first :
  forall t o n, let f := after n (save_steps (Some t) o) empty_folder in
    Exists (fun b => b = false) (check_checkpoint (@Some (folder V) (Some f)))
    \/ (forall a p, read_checkpoint (Some f) a <> Ok p)
    \/ holds f (as_dict t) o.
Proof.
  intros t o n f. destruct (Nat.le_gt_cases 12 n) as [G|G].
  - right. right. intros i. unfold f. assert (after n (save_steps (Some t) o) empty_folder = after (length (save_steps (Some t) o)) (save_steps (Some t) o) empty_folder) as E.
    { unfold after. rewrite !firstn_all2; auto. }
    rewrite E, saved_all. destruct i; reflexivity.
  - do 11 (destruct n as [|n]; [left; unfold f; cbn; solve [repeat (first [apply Exists_cons_hd; reflexivity|apply Exists_cons_tl])]|]).
    destruct n as [|n]; [|lia]. right. left. intros a p H. unfold f in H. destruct a as [|t1|]; cbv in H.
    + destruct (get_truth (as_dict t)); discriminate.
    + discriminate.
    + discriminate.
Qed.
(** Over an existing complete checkpoint, no crash is ever detected by looking for the files. *)
Theorem C58_undetected_refuted :
  forall truth o f n, complete f -> Forall (fun b => b = true) (check_checkpoint (Some (Some (after n (save_steps truth o) f)))).
Proof.
  intros truth o f n H. rewrite complete_flags; [repeat constructor|].
  assert (forall l (g : slot -> option (content V)), complete g -> complete (fold_left (fun f s => do_step V s f) l g)) as K.
  { induction l as [|s l IH]; intros g Hg; [auto|]. simpl. apply IH. intros i. destruct s as [j|j v]; unfold do_step, put; simpl;
      destruct (slot_eqb i j); try discriminate; apply Hg. }
  apply K. auto.
Qed.
(** And a crash between two files leaves a checkpoint that is read without complaint: here the new surrogate
    with the old everything else. *)
Theorem C58_mixed_refuted :
  forall d t t1 o o', get_truth d = Ok t1 -> forall f, holds f d o ->
    read_checkpoint (Some (after 2 (save_steps None o') f)) (ATruth t) =
      Ok (t, Some (o_gpr _ o'), Some (o_acq _ o), Some (o_conv _ o), Some (o_opt _ o), Some (o_prog _ o))
    /\ read_checkpoint (Some (after 2 (save_steps None o') f)) NoTruth =
      Ok (t1, Some (o_gpr _ o'), Some (o_acq _ o), Some (o_conv _ o), Some (o_opt _ o), Some (o_prog _ o)).
Proof.
  intros d t t1 o o' Hd f H.
  assert (holds (after 2 (save_steps None o') f) d (mkObjects (o_gpr _ o') (o_acq _ o) (o_conv _ o) (o_opt _ o) (o_prog _ o))) as K.
  { intros i. destruct i; [apply (H STruth)|reflexivity|apply (H SAcq)|apply (H SConv)|apply (H SOpt)|apply (H SProg)]. }
  apply (read_holds _ _ _ t1) in K as [K1 K2]; [|auto]. split; [apply K2|apply K1].
Qed.

(** ** C59 *)
(** What reading returns is what the files hold, and all of them (but the truth if one is passed) are there and
    whole: nothing is ever [None]. *)
Theorem C59_complete :
  forall f a p, read_checkpoint (Some f) a = Ok p ->
    exists t g ac c o pr, p = (t, Some g, Some ac, Some c, Some o, Some pr)
      /\ f SGpr = Some (Whole g) /\ f SAcq = Some (Whole ac) /\ f SConv = Some (Whole c)
      /\ f SOpt = Some (Whole o) /\ f SProg = Some (Whole pr)
      /\ match a with ATruth t' => t = t' | NoTruth => exists d, f STruth = Some (Whole d) /\ get_truth d = Ok t | NotTruth => False end.
Proof.
  intros f a p H. unfold MIo.read_checkpoint in H. cbv beta zeta in H.
  assert (forall A B (r : res A) (k : A -> res B) y, (do x <- r; k x) = Ok y -> exists x, r = Ok x /\ k x = Ok y) as bind_ok.
  { intros A B [x|e] k y E; [exists x; auto|discriminate]. }
  apply bind_ok in H as (t & Ht & H). apply bind_ok in H as (g & Hg & H). apply bind_ok in H as (ac & Ha & H).
  apply bind_ok in H as (c & Hc & H). apply bind_ok in H as (o & Ho & H). apply bind_ok in H as (pr & Hp & H). injection H as <-.
  assert (f SOpt <> None /\ f SProg <> None) as [N1 N2].
  { split; intros E; [unfold load in Ho; rewrite E in Ho|unfold load in Hp; rewrite E in Hp]; discriminate. }
  unfold load, check_checkpoint, slots in *. cbn [map nth] in *.
  destruct (f SGpr) as [[g'|]|] eqn:E1; try discriminate. destruct (f SAcq) as [[a'|]|] eqn:E2; try discriminate.
  destruct (f SConv) as [[c'|]|] eqn:E3; try discriminate. destruct (f SProg) as [[p'|]|] eqn:E5; try (discriminate || congruence).
  2: { destruct (f SOpt); [discriminate|congruence]. }
  destruct (f SOpt) as [[o'|]|] eqn:E4; try (discriminate || congruence).
  injection Hg as <-. injection Ha as <-. injection Hc as <-. injection Ho as <-. injection Hp as <-.
  exists t, g', a', c', o', p'. repeat split. destruct a as [|t0|].
  - destruct (f STruth) as [[d|]|] eqn:E0; try discriminate. cbn [bind] in Ht. eauto.
  - congruence.
  - discriminate.
Qed.
(** A missing file makes it raise; it does not return [None] for it. *)
(** What [check_checkpoint] reports: the flag of a file is set exactly if there is a folder with that file. *)
Theorem C59_reported :
  forall path, length (check_checkpoint path) = 6
    /\ forall n i, nth_error [STruth; SGpr; SAcq; SConv; SOpt; SProg] n = Some i ->
         (nth n (check_checkpoint path) false = true <-> exists f : slot -> option (content V), path = Some (Some f) /\ f i <> None).
Proof.
  intros path. split; [destruct path as [[f|]|]; reflexivity|].
  assert (forall (f : slot -> option (content V)) i, match f i with Some _ => true | None => false end = true
            <-> exists f', Some (Some f) = Some (Some f') /\ f' i <> None) as K.
  { intros f i. split.
    - intros H. exists f. split; [reflexivity|]. intros E. rewrite E in H. discriminate.
    - intros (f' & E & H). injection E as <-. destruct (f i); congruence. }
  assert (forall n, n < 6 -> nth n (check_checkpoint (V := V) None) false = false /\ nth n (check_checkpoint (V := V) (Some None)) false = false) as Z.
  { intros n Hn. do 6 (destruct n as [|n]; [split; reflexivity|]). do 6 apply Nat.succ_lt_mono in Hn. destruct (Nat.nlt_0_r _ Hn). }
  intros n i H. assert (n < 6) as Hn by (apply (nth_error_Some [STruth; SGpr; SAcq; SConv; SOpt; SProg]); congruence).
  destruct (Z n Hn) as [Z1 Z2]. destruct path as [[f|]|].
  - do 6 (destruct n as [|n]; [injection H as <-; apply K|]). destruct n; discriminate.
  - split; [intros K1; pose proof (eq_trans (eq_sym K1) Z2); discriminate|intros (f & E & _); discriminate].
  - split; [intros K1; pose proof (eq_trans (eq_sym K1) Z1); discriminate|intros (f & E & _); discriminate].
Qed.
Theorem C59_missing_refuted :
  forall f a i, f i = None -> i <> STruth \/ a = NoTruth -> forall p, read_checkpoint (Some f) a <> Ok p.
Proof.
  intros f a i Hi Ha p H. apply C59_complete in H as (t & g & ac & c & o & pr & _ & H1 & H2 & H3 & H4 & H5 & H6).
  destruct i; try congruence. destruct Ha as [Ha| ->]; [congruence|]. destruct H6 as (d & H6 & _). congruence.
Qed.
End Io.
Print Assumptions C57_roundtrip.
Print Assumptions C57_history.
Print Assumptions C57_no_path.
Print Assumptions C57_failed_save_refuted.
Print Assumptions C58_prefix.
Print Assumptions C58_first.
Print Assumptions C58_undetected_refuted.
Print Assumptions C58_mixed_refuted.
Print Assumptions C59_complete.
Print Assumptions C59_reported.
Print Assumptions C59_missing_refuted.
(** Objects and truths are numbers; the description of a truth is its successor. *)
Definition demo_objects (k : nat) : objects nat := mkObjects (k + 1) (k + 2) (k + 3) (k + 4) (k + 5).
Definition demo_get (d : nat) : res nat := match d with 0 => Err TypeError | S t => Ok t end.
Example C57_example :
  let '(path, r) := save_checkpoint nat nat S true None (Some 7) (demo_objects 10) (Some (Some (fun i => match i with SAcq => Some Torn | _ => None end))) in
  r = Ok tt /\ match path with
               | Some fo => read_checkpoint nat nat demo_get fo NoTruth = Ok (7, Some 11, Some 12, Some 13, Some 14, Some 15)
               | None => False
               end.
Proof. split; reflexivity. Qed.
(** Old objects from 10, new ones from 20: a crash in the middle of writing the acquisition, and just after. *)
Example C58_example :
  let old := after 12 (save_steps nat nat S (Some 7) (demo_objects 10)) empty_folder in
  let crash n := after n (save_steps nat nat S None (demo_objects 20)) old in
  read_checkpoint nat nat demo_get (Some (crash 3)) NoTruth = Err EOFError
  /\ read_checkpoint nat nat demo_get (Some (crash 4)) NoTruth = Ok (7, Some 21, Some 22, Some 13, Some 14, Some 15).
Proof. split; reflexivity. Qed.
Example C59_example :
  read_checkpoint nat nat demo_get (Some (fun i => match i with SProg => None | _ => Some (Whole 3) end)) NoTruth = Err FileNotFoundError.
Proof. reflexivity. Qed.

(** ** C60 *)
(** [s] is the word [w] but for capitals. *)
Fixpoint spelled (s w : string) : Prop :=
  match s, w with
  | EmptyString, EmptyString => True
  | String c s, String d w =>
      (c = d \/ exists k, String.get k "ABCDEFGHIJKLMNOPQRSTUVWXYZ" = Some c /\ String.get k "abcdefghijklmnopqrstuvwxyz" = Some d)
      /\ spelled s w
  | _, _ => False
  end.
Lemma spelled_lower : forall w s, lower w = w -> spelled s w -> lower s = w.
Proof.
  induction w as [|d w IH]; intros [|c s] Hw H; cbn [spelled] in H; try contradiction; [reflexivity|].
  cbn [lower] in Hw |- *. injection Hw as Hd Hw. destruct H as [Hc H]. rewrite (IH s Hw H). f_equal.
  destruct Hc as [->|(k & E1 & E2)]; [exact Hd|].
  do 26 (destruct k as [|k]; [injection E1 as <-; injection E2 as <-; reflexivity|]). destruct k; discriminate.
Qed.
Section Start.
Context {V T : Type}.
Variable get_truth : V -> res T.
Variables (fresh : T -> res (objects V)) (usable : option V -> res unit).
Notation start := (start V T get_truth).
Notation read_checkpoint := (read_checkpoint V T get_truth).
(** Creating a runner changes no file of an existing folder, and creates no file. *)
Theorem C60_untouched :
  forall mkdir truth path ld, let path' := fst (start mkdir truth fresh usable path ld) in
    path' = path \/ (path = Some None /\ path' = Some (Some empty_folder)).
Proof.
  intros mkdir truth path ld. unfold MIo.start. cbv zeta. destruct path as [[f|]|].
  - destruct ld as [|s|]; cbn; auto. destruct (_ || _); cbn; auto.
  - destruct ld as [|s|]; cbn; auto. destruct (_ || _); cbn; auto. destruct mkdir; cbn; auto.
  - cbn. auto.
Qed.
(** A path without a valid instruction is refused. *)
Theorem C60_refused :
  forall mkdir truth fo ld, (forall s, ld = LStr s -> lower s <> "resume"%string /\ lower s <> "overwrite"%string) ->
    start mkdir truth fresh usable (Some fo) ld = (Some fo, Err ValueError).
Proof.
  intros mkdir truth fo ld H. unfold MIo.start. cbv zeta. destruct ld as [|s|]; try reflexivity.
  destruct (H s eq_refl). destruct (String.eqb_spec (lower s) "resume"), (String.eqb_spec (lower s) "overwrite"); try congruence. reflexivity.
Qed.
(** Capitals in the instruction make no difference. *)
Theorem C60_spelling :
  forall mkdir truth path s w, In w ["resume"; "overwrite"]%string -> spelled s w ->
    start mkdir truth fresh usable path (LStr s) = start mkdir truth fresh usable path (LStr w).
Proof.
  intros mkdir truth path s w Hw H. assert (lower w = w) as E by (destruct Hw as [<-|[<-|[]]]; reflexivity).
  apply spelled_lower in H; [|exact E]. unfold MIo.start. rewrite H, E. reflexivity.
Qed.
(** Told to resume, with all files there: what is read from them is used, or an error is raised; never a fresh
    start. *)
Theorem C60_resume :
  forall mkdir t f s, lower s = "resume"%string -> complete f ->
    snd (start mkdir (Some (Ok t)) fresh usable (Some (Some f)) (LStr s)) =
      do p <- read_checkpoint (Some f) (ATruth t);
      let '(_, _, _, _, o, _) := p in do _ <- usable o; Ok (Resumed p).
Proof.
  intros mkdir t f s Hs Hc. unfold MIo.start. rewrite Hs. cbv zeta. cbn [String.eqb orb].
  change (check_checkpoint _) with (check_checkpoint (@Some (folder V) (Some f))). rewrite (complete_flags f Hc). reflexivity.
Qed.
(** In particular, a whole checkpoint is loaded with the truth that was passed. *)
Theorem C60_loaded :
  forall mkdir t f s d o t1, lower s = "resume"%string -> holds f d o -> get_truth d = Ok t1 -> usable (Some (o_opt _ o)) = Ok tt ->
    snd (start mkdir (Some (Ok t)) fresh usable (Some (Some f)) (LStr s)) = Ok (Resumed (parts t o)).
Proof.
  intros mkdir t f s d o t1 Hs Hh Hd Hu. rewrite C60_resume by (auto; intros i; rewrite Hh; discriminate).
  destruct (read_holds get_truth f d o t1 Hh Hd) as [_ R]. rewrite R. cbn [bind parts]. rewrite Hu. reflexivity.
Qed.
(** A folder that is not there: a fresh start in a new, empty folder, or an error if it cannot be created. *)
Theorem C60_no_folder :
  forall mkdir t s, lower s = "overwrite"%string \/ lower s = "resume"%string ->
    start mkdir (Some (Ok t)) fresh usable (Some None) (LStr s) =
      if mkdir then (Some (Some empty_folder), do o <- fresh t; Ok (Fresh t o)) else (Some None, Err OSError).
Proof. intros mkdir t s [Hs|Hs]; unfold MIo.start; rewrite Hs; cbv zeta; destruct mkdir; reflexivity. Qed.
(** No path: a fresh start, whatever the instruction. *)
Theorem C60_no_path :
  forall mkdir t ld, start mkdir (Some (Ok t)) fresh usable None ld = (None, do o <- fresh t; Ok (Fresh t o)).
Proof. intros mkdir t ld. reflexivity. Qed.
(** Told to overwrite, or to resume without all files: a fresh start that does not depend on the files. *)
Theorem C60_fresh :
  forall mkdir t f s, lower s = "overwrite"%string \/ (lower s = "resume"%string /\ ~ complete f) ->
    snd (start mkdir (Some (Ok t)) fresh usable (Some (Some f)) (LStr s)) = do o <- fresh t; Ok (Fresh t o).
Proof.
  intros mkdir t f s [Hs|[Hs Hc]]; unfold MIo.start; rewrite Hs; cbv zeta.
  - reflexivity.
  - cbn [String.eqb Ascii.eqb Bool.eqb orb andb]. match goal with |- context [forallb ?p ?l] => destruct (forallb p l) eqn:E end; [|reflexivity].
    destruct (Hc (flags_complete f E)).
Qed.
(** Resuming without giving the likelihood, as documented, always raises. *)
Theorem C60_no_loglike_refuted :
  forall mkdir f s, lower s = "resume"%string -> complete f ->
    snd (start mkdir None fresh usable (Some (Some f)) (LStr s)) = Err TypeError.
Proof.
  intros mkdir f s Hs Hc. unfold MIo.start. rewrite Hs. cbv zeta. cbn [String.eqb orb]. change (check_checkpoint _) with (check_checkpoint (@Some (folder V) (Some f))). rewrite (complete_flags f Hc). reflexivity.
Qed.
End Start.
Print Assumptions C60_untouched.
Print Assumptions C60_refused.
Print Assumptions C60_spelling.
Print Assumptions C60_resume.
Print Assumptions C60_loaded.
Print Assumptions C60_no_folder.
Print Assumptions C60_no_path.
Print Assumptions C60_fresh.
Print Assumptions C60_no_loglike_refuted.
Example C60_example :
  let f := after 12 (save_steps nat nat S (Some 7) (demo_objects 10)) empty_folder in
  let go f s := snd (start nat nat demo_get true (Some (Ok 8)) (fun t => Ok (demo_objects (100 + t))) (fun _ => Ok tt) (Some (Some f)) (LStr s)) in
  go f "Resume"%string = Ok (Resumed (8, Some 11, Some 12, Some 13, Some 14, Some 15))
  /\ go f "overwrite"%string = Ok (Fresh 8 (demo_objects 108))
  /\ go (fun i => match i with SProg => None | _ => f i end) "resume"%string = Ok (Fresh 8 (demo_objects 108))
  /\ go f "continue"%string = Err ValueError
  /\ start nat nat demo_get true (Some (Ok 8)) (fun t => Ok (demo_objects (100 + t))) (fun _ => Ok tt) (Some None) (LStr "resume"%string)
     = (Some (Some (@empty_folder nat)), Ok (Fresh 8 (demo_objects 108))).
Proof. repeat split. Qed.

(** ** C88 *)
Section Ensure.
Context {V T : Type}.
Variable get_truth : V -> res T.
Variable truthy : V -> bool.
Notation ensure_gpr := (ensure_gpr V T get_truth truthy).
(** Objects passed as keywords are preferred to the loaded ones, the others are the loaded ones. *)
Definition prefer (given loaded result : option V) : Prop :=
  match given with Some v => result = Some v | None => result = loaded end.
Theorem C88_loaded :
  forall f d o t t1 (given : option T) acq conv opt prog, holds f d o -> get_truth d = Ok t1 ->
    t = match given with Some t => t | None => t1 end ->
    (forall v, In (Some v) [acq; conv; opt; prog] -> truthy v = true) ->
    exists a c op p, ensure_gpr (GPath (Some f)) (match given with Some t => ATruth t | None => NoTruth end) acq conv opt prog
        = Ok (Some t, Some (o_gpr _ o), a, c, op, p)
      /\ prefer acq (Some (o_acq _ o)) a /\ prefer conv (Some (o_conv _ o)) c
      /\ prefer opt (Some (o_opt _ o)) op /\ prefer prog (Some (o_prog _ o)) p.
Proof.
  intros f d o t t1 given acq conv opt prog Hh Hd Ht Hv.
  assert (forall x y, In x [acq; conv; opt; prog] -> prefer x y (py_or V truthy x y)) as K.
  { intros [v|] y Hi; simpl; [|auto]. rewrite Hv; auto. }
  destruct (read_holds get_truth f d o t1 Hh Hd) as [R1 R2]. unfold MIo.ensure_gpr.
  exists (py_or V truthy acq (Some (o_acq _ o))), (py_or V truthy conv (Some (o_conv _ o))),
    (py_or V truthy opt (Some (o_opt _ o))), (py_or V truthy prog (Some (o_prog _ o))).
  split; [|split; [|split; [|split]]]; try (apply K; simpl; auto).
  destruct given as [t'|]; [rewrite R2|rewrite R1]; subst t; reflexivity.
Qed.
(** With a regressor nothing is read. *)
Theorem C88_object :
  forall g truth acq conv opt prog, exists a c op p,
    ensure_gpr (GObject g) truth acq conv opt prog = Ok (match truth with ATruth t => Some t | _ => None end, Some g, a, c, op, p).
Proof. intros. do 4 eexists. reflexivity. Qed.
(** An empty dictionary of options is replaced by the stored one. *)
Theorem C88_empty_refuted :
  forall f d o t1 v, holds f d o -> get_truth d = Ok t1 -> truthy v = false ->
    ensure_gpr (GPath (Some f)) NoTruth None None (Some v) None
    = Ok (Some t1, Some (o_gpr _ o), Some (o_acq _ o), Some (o_conv _ o), Some (o_opt _ o), Some (o_prog _ o)).
Proof.
  intros f d o t1 v Hh Hd Hv. destruct (read_holds get_truth f d o t1 Hh Hd) as [R1 R2]. unfold MIo.ensure_gpr.
  rewrite R1. cbn [bind parts py_or]. rewrite Hv. reflexivity.
Qed.
End Ensure.
Print Assumptions C88_loaded.
Print Assumptions C88_object.
Print Assumptions C88_empty_refuted.
(** 0 stands for an empty dictionary. *)
Example C88_example :
  let f := after 12 (save_steps nat nat S (Some 7) (demo_objects 10)) empty_folder in
  let go := fun opt => ensure_gpr nat nat demo_get (fun v => negb (v =? 0)) (GPath (Some f)) NoTruth None None opt None in
  go (Some 99) = Ok (Some 7, Some 11, Some 12, Some 13, Some 99, Some 15)
  /\ go (Some 0) = Ok (Some 7, Some 11, Some 12, Some 13, Some 14, Some 15).
Proof. split; reflexivity. Qed.

(** C150: what the interfaces to nested samplers store, return and pass on, run after run. *)
From Coq Require Import Lia.
From Verif Require Import MNsRun.
Set Default Goal Selector "!". Set Bullet Behavior "Strict Subproofs".

Section C150.
Context {pt val : Type}.
Notation iface := (iface pt val). Notation sample := (sample pt val). Notation sampler_run := (sampler_run pt val). Notation call := (call pt val).

(** One result of process 0 and nothing in [n] others. *)
Definition main_only {A} (a : A) (n : nat) : list (option A) := Some a :: repeat None n.
(** All evaluations, process by process, with their values. *)
Definition all_evaluations (f : pt -> val) (ls : list (list pt)) : list (pt * val) := concat (map (map (fun x => (x, f x))) ls).
Definition everybody_or_nobody (ls : list (list pt)) : Prop := Forall (fun l => l = []) ls \/ Forall (fun l => l <> []) ls.

Lemma each_map {A B C} (g : A -> B) (h : nat -> B -> C) l : forall k, in_each_from k h (map g l) = in_each_from k (fun r a => h r (g a)) l.
Proof. induction l as [|a l IH]; intros k; [reflexivity|]. cbn. rewrite IH. reflexivity. Qed.
Lemma map_each {A B C} (g : B -> C) (h : nat -> A -> B) l : forall k, map g (in_each_from k h l) = in_each_from k (fun r a => g (h r a)) l.
Proof. induction l as [|a l IH]; intros k; [reflexivity|]. cbn. rewrite IH. reflexivity. Qed.
Lemma each_each {A B C} (g : nat -> B -> C) (h : nat -> A -> B) l : forall k, in_each_from k g (in_each_from k h l) = in_each_from k (fun r a => g r (h r a)) l.
Proof. induction l as [|a l IH]; intros k; [reflexivity|]. cbn. rewrite IH. reflexivity. Qed.
Lemma each_ext {A B} (h h' : nat -> A -> B) l : forall k, (forall r a, k <= r -> h r a = h' r a) -> in_each_from k h l = in_each_from k h' l.
Proof. induction l as [|a l IH]; intros k H; [reflexivity|]. cbn. rewrite H by lia. f_equal. apply IH. intros r b Hr. apply H. lia. Qed.
Lemma each_const {A B} (b : B) (l : list A) : forall k, in_each_from k (fun _ _ => b) l = repeat b (length l).
Proof. induction l as [|a l IH]; intros k; [reflexivity|]. cbn. rewrite IH. reflexivity. Qed.
Lemma each_length {A B} (h : nat -> A -> B) l : forall k, length (in_each_from k h l) = length l.
Proof. induction l as [|a l IH]; intros k; [reflexivity|]. cbn. rewrite IH. reflexivity. Qed.
Lemma each_main {A B} (h : nat -> A -> B) (b : B) a l : (forall r x, 0 < r -> h r x = b) -> in_each_from 0 h (a :: l) = h 0 a :: repeat b (length l).
Proof. intros H. cbn. f_equal. rewrite <- (each_const b l 1). apply each_ext. intros r x Hr. apply H. lia. Qed.

Lemma concatenate_ok (ls : list (list (pt * val))) : concatenate ls = Ok (concat ls) <-> Forall (fun l => l = []) ls \/ Forall (fun l => l <> []) ls.
Proof.
  unfold concatenate. destruct (forallb _ ls) eqn:E.
  - rewrite forallb_forall in E. assert (F : Forall (fun l : list (pt * val) => l = []) ls) by (apply Forall_forall; intros l Hl; specialize (E l Hl); destruct l; [reflexivity|discriminate E]).
    assert (concat ls = []) as -> by (clear E; induction F as [|l ls -> F IH]; [reflexivity|exact IH]). tauto.
  - destruct (existsb _ ls) eqn:X.
    + split; [discriminate|]. intros [F|F].
      * exfalso. assert (forallb (fun l : list (pt * val) => match l with [] => true | _ => false end) ls = true) as K; [|rewrite K in E; discriminate E].
        apply forallb_forall. intros l Hl. rewrite Forall_forall in F. rewrite (F l Hl). reflexivity.
      * exfalso. apply existsb_exists in X as (l & Hl & Hx). rewrite Forall_forall in F. specialize (F l Hl). destruct l; [apply F; reflexivity|discriminate Hx].
    + split; [|reflexivity]. intros _. right. apply Forall_forall. intros l Hl ->. assert (existsb (fun l : list (pt * val) => match l with [] => true | _ => false end) ls = true) as K; [|rewrite K in X; discriminate X].
      apply existsb_exists. exists []. split; [exact Hl|reflexivity].
Qed.
Lemma concatenate_cases (ls : list (list (pt * val))) : concatenate ls = Ok (concat ls) \/ concatenate ls = Err ValueError.
Proof.
  destruct (concatenate ls) as [l|x] eqn:E; unfold concatenate in E.
  - left. rewrite <- E. destruct (forallb _ ls) eqn:F; [|destruct (existsb _ ls); [discriminate E|reflexivity]]. f_equal. rewrite forallb_forall in F.
    clear E. induction ls as [|a ls IH]; [reflexivity|]. pose proof (F a (or_introl eq_refl)) as H. destruct a; [|discriminate H]. cbn. apply IH. intros y Hy. apply F. right. exact Hy.
  - right. destruct (forallb _ ls); [discriminate E|]. destruct (existsb _ ls); [injection E as <-; reflexivity|discriminate E].
Qed.

(** The run with its results computed. *)
Definition seed_used (c : call) (is_ : list iface) : option Z := match c_seed c with Some s => Some s | None => match is_ with i :: _ => i_seed i | [] => None end end.
Definition place (c : call) : string * string := match c_out c with Some o => o | None => c_random c end.
Definition evals (c : call) (s : sampler_run) (r : nat) : list (pt * val) := map (fun x => (x, c_f c x)) (nth r (evaluated s) []).
Lemma run_eq sampler c (i0 : iface) rest : polychord_run sampler c (i0 :: rest) =
  let seed := seed_used c (i0 :: rest) in let s := sampler seed in
  let make all mc := mkIface seed (Some (place c)) all mc in
  let kept r := make (if c_keep c then Some (evals c s r) else None) None in
  match outcome s with
  | Err x => (in_each (fun r _ => kept r) (i0 :: rest), seed, Err x)
  | Ok mc =>
      match (if c_keep c then do l <- concatenate (map (evals c s) (seq 0 (S (length rest)))); Ok (Some l) else Ok None) with
      | Err x => (kept 0 :: repeat (make None None) (length rest), seed, Err x)
      | Ok all => (make all (Some mc) :: repeat (make None None) (length rest), seed, Ok (main_only mc (length rest)))
      end
  end.
Proof.
  cbv zeta. unfold polychord_run. set (seed := seed_used c (i0 :: rest)).
  set (is1 := shared _). assert (E1 : is1 = repeat (mkIface seed (Some (place c)) None None) (length (i0 :: rest))).
  { subst is1. unfold in_each. cbn [map in_each_from shared]. cbn [length repeat]. f_equal. rewrite each_map, map_each. rewrite <- (each_const _ rest 1). apply each_ext. reflexivity. }
  rewrite E1. clear is1 E1. cbn [length repeat]. cbv zeta iota. cbn [i_seed].
  set (is2 := in_each _ (_ :: _)). assert (E2 : is2 = in_each (fun r _ => mkIface seed (Some (place c)) (if c_keep c then Some (evals c (sampler seed) r) else None) None) (i0 :: rest)).
  { subst is2. unfold in_each. cbn [in_each_from i_seed i_out i_mc]. f_equal. generalize 1. clear. induction rest as [|i rest IH]; intros k; [reflexivity|]. cbn [length repeat in_each_from i_seed i_out i_mc]. f_equal. apply IH. }
  rewrite E2. clear is2 E2. destruct (outcome (sampler seed)) as [mc|x]; [|reflexivity].
  assert (L : length (in_each (fun r (_ : iface) => mkIface (pt := pt) (val := val) seed (Some (place c)) (if c_keep c then Some (evals c (sampler seed) r) else None) None) (i0 :: rest)) = S (length rest)) by (unfold in_each; rewrite each_length; reflexivity).
  rewrite L. clear L. fold (evals c (sampler seed)). unfold in_each. destruct (if c_keep c then _ else _) as [all|x]; rewrite !each_each.
  - rewrite map_each. f_equal; [f_equal|f_equal].
    + rewrite (each_main _ (mkIface seed (Some (place c)) None None) i0 rest); [reflexivity|]. intros r y Hr. assert (is_main r = false) as -> by (destruct r; [lia|reflexivity]). reflexivity.
    + rewrite (each_main _ None i0 rest); [reflexivity|]. intros r y Hr. destruct r; [lia|reflexivity].
  - f_equal. f_equal. rewrite (each_main _ (mkIface seed (Some (place c)) None None) i0 rest); [reflexivity|]. intros r y Hr. assert (is_main r = false) as -> by (destruct r; [lia|reflexivity]). reflexivity.
Qed.

(** Each process returns what it stores: process 0 the new sample, the others nothing, whatever was stored before. *)
Theorem C150_returned : forall sampler c (is_ is' : list iface) seed l, is_ <> [] -> polychord_run sampler c is_ = (is', seed, Ok l) ->
  exists mc, outcome (sampler seed) = Ok mc /\ l = main_only mc (length is_ - 1) /\ map i_mc is' = l.
Proof.
  intros sampler c [|i0 rest] is' seed l N H; [destruct (N eq_refl)|]. rewrite run_eq in H. cbv zeta in H. destruct (outcome (sampler (seed_used c (i0 :: rest)))) as [mc|x] eqn:O; [|discriminate H].
  destruct (if c_keep c then _ else _) as [all|x]; [|discriminate H]. apply pair_equal_spec in H as [H Hl]. apply pair_equal_spec in H as [<- <-]. injection Hl as <-.
  exists mc. split; [exact O|]. cbn [length]. rewrite Nat.sub_succ, Nat.sub_0_r. split; [reflexivity|]. unfold main_only. cbn [map i_mc]. f_equal. clear. induction (length rest) as [|n IH]; [reflexivity|]. cbn. f_equal. exact IH.
Qed.
(** The evaluations kept are all evaluations, each once, with the values of the function; it returns iff the sampler does and no process is idle while another is not. *)
Theorem C150_kept : forall sampler c (is_ : list iface), is_ <> [] -> c_keep c = true -> let s := sampler (seed_used c is_) in length (evaluated s) = length is_ ->
  (forall (is' : list iface) seed l, polychord_run sampler c is_ = (is', seed, Ok l) -> map i_all is' = main_only (all_evaluations (c_f c) (evaluated s)) (length is_ - 1)) /\
  ((exists is' seed l, polychord_run sampler c is_ = (is', seed, Ok l)) <-> (exists mc, outcome s = Ok mc) /\ everybody_or_nobody (evaluated s)).
Proof.
  intros sampler c [|i0 rest] N K s L; [destruct (N eq_refl)|]. rewrite run_eq. cbv zeta. fold s. rewrite K. cbn [length] in *.
  assert (E : map (evals c s) (seq 0 (S (length rest))) = map (map (fun x => (x, c_f c x))) (evaluated s)).
  { rewrite <- L. unfold evals. clear. apply (nth_ext _ _ [] []); [rewrite !map_length, seq_length; reflexivity|]. intros i Hi. rewrite map_length, seq_length in Hi.
    rewrite (nth_indep (map _ (seq _ _)) [] ((fun r => map (fun x => (x, c_f c x)) (nth r (evaluated s) [])) 0)) by (rewrite map_length, seq_length; exact Hi). rewrite (map_nth (fun r => map (fun x => (x, c_f c x)) (nth r (evaluated s) []))), seq_nth by exact Hi.
    change (@nil (pt * val)) with (map (fun x => (x, c_f c x)) []). rewrite map_nth. reflexivity. }
  rewrite E. pose proof (concatenate_ok (map (map (fun x => (x, c_f c x))) (evaluated s))) as CO. pose proof (concatenate_cases (map (map (fun x => (x, c_f c x))) (evaluated s))) as CC.
  assert (EN : (Forall (fun l => l = []) (map (map (fun x => (x, c_f c x))) (evaluated s)) \/ Forall (fun l => l <> []) (map (map (fun x => (x, c_f c x))) (evaluated s))) <-> everybody_or_nobody (evaluated s)).
  { unfold everybody_or_nobody. rewrite !Forall_map, !Forall_forall. assert (Z : forall l : list pt, map (fun x => (x, c_f c x)) l = [] <-> l = []) by (intros []; cbn; split; congruence).
    split; (intros [F|F]; [left|right]; intros l Hl; specialize (F l Hl); rewrite Z in *; exact F). }
  fold (all_evaluations (c_f c) (evaluated s)) in CO, CC. split.
  - intros is' seed l H. destruct (outcome s) as [mc|x]; [|discriminate H]. destruct CC as [CC|CC]; rewrite CC in H; cbn [bind] in H; [|discriminate H]. apply pair_equal_spec in H as [H _]. apply pair_equal_spec in H as [<- _].
    rewrite Nat.sub_succ, Nat.sub_0_r. unfold main_only. cbn [map i_all]. f_equal. clear. induction (length rest) as [|n IH]; [reflexivity|]. cbn. f_equal. exact IH.
  - split.
    + intros (is' & seed & l & H). destruct (outcome s) as [mc|x]; [|discriminate H]. split; [exists mc; reflexivity|]. apply EN, CO. destruct CC as [CC|CC]; [exact CC|]. rewrite CC in H. discriminate H.
    + intros [[mc ->] F]. apply EN, CO in F. rewrite F. cbn [bind]. do 3 eexists. reflexivity.
Qed.
(** Runs with a seed do not depend on earlier ones. *)
Theorem C150_independent : forall sampler c (is1 is2 : list iface) s, c_seed c = Some s -> length is1 = length is2 -> is1 <> [] -> polychord_run sampler c is1 = polychord_run sampler c is2.
Proof.
  intros sampler c [|a is1] [|b is2] s S L N; try discriminate L; [destruct (N eq_refl)|]. rewrite !run_eq. cbv zeta. unfold seed_used. rewrite S. injection L as L. rewrite L.
  unfold in_each. cbn [in_each_from].
  assert (E : forall k (h : nat -> iface), in_each_from k (fun r _ => h r) is1 = in_each_from k (fun r _ => h r) is2).
  { revert is2 L. clear. induction is1 as [|a is1 IH]; intros [|b is2] L k h; try discriminate L; [reflexivity|]. cbn. f_equal. apply IH. injection L as L. exact L. }
  rewrite (E 1 (fun r => mkIface (Some s) (Some (place c)) (if c_keep c then Some (evals c (sampler (Some s)) r) else None) None)). reflexivity.
Qed.
(** If PolyChord fails, no earlier sample is left that could be taken for a new one. *)
Theorem C150_failed : forall sampler c (is_ is' : list iface) seed x, polychord_run sampler c is_ = (is', seed, Err x) -> Forall (fun i => i_mc i = None) is'.
Proof.
  intros sampler c [|i0 rest] is' seed x H.
  - unfold polychord_run in H. cbn in H. destruct (outcome (sampler None)) as [mc|y]; [|injection H as <- _ _; constructor]. destruct (c_keep c); [|discriminate H]. cbn in H. discriminate H.
  - rewrite run_eq in H. cbv zeta in H. destruct (outcome _) as [mc|y].
    + destruct (if c_keep c then _ else _) as [all|y]; [discriminate H|]. apply pair_equal_spec in H as [H _]. apply pair_equal_spec in H as [<- _]. constructor; [reflexivity|]. apply Forall_forall. intros i Hi. apply repeat_spec in Hi. subst i. reflexivity.
    + apply pair_equal_spec in H as [H _]. apply pair_equal_spec in H as [<- _]. unfold in_each. generalize (seed_used c (i0 :: rest)). intros sd. generalize (i0 :: rest), 0. clear. intros l. induction l as [|i l IH]; intros k; cbn; [constructor|constructor; [reflexivity|apply IH]].
Qed.
(** UltraNest: in every history of runs of a new interface only process 0 stores and returns samples, and always the new one. *)
Theorem C150_ultranest : forall cs n sampler c (is' : list iface) seed l, ultranest_run sampler c (history ultranest_run cs (repeat new_iface (S n))) = (is', seed, Ok l) ->
  exists mc, outcome (sampler None) = Ok mc /\ l = main_only mc n /\ map i_mc is' = l.
Proof.
  intros cs n sampler c is' seed l H.
  set (ok := fun is_ : list iface => length is_ = S n /\ Forall (fun i => i_mc i = None) (tl is_)).
  assert (Step : forall s c (is_ is' : list iface) sd r, ok is_ -> ultranest_run s c is_ = (is', sd, r) -> ok is' /\ forall l, r = Ok l -> exists mc, outcome (s None) = Ok mc /\ l = main_only mc n /\ map i_mc is' = l).
  { clear. intros s c is_ is' sd r [L F] H. unfold ultranest_run in H. destruct (c_keep c); [injection H as <- _ <-; split; [split; assumption|discriminate]|]. destruct is_ as [|i0 rest]; [discriminate L|]. injection L as L. cbn [tl] in F.
    unfold in_each in H. cbn [in_each_from] in H. destruct (outcome (s None)) as [mc|x].
    - cbn [is_main Nat.eqb i_seed i_out i_all i_mc] in H. rewrite each_each in H. set (rest' := in_each_from 1 _ rest) in H.
      assert (R : map i_mc rest' = repeat None n /\ length rest' = n).
      { subst rest'. rewrite map_each, each_length. split; [|exact L]. rewrite <- L. clear -F. generalize (Nat.lt_0_1). generalize 1. induction F as [|i rest Hi F IH]; intros k Hk; [reflexivity|]. cbn. rewrite IH by lia.
        assert (is_main k = false) as -> by (destruct k; [lia|reflexivity]). rewrite Hi. reflexivity. }
      destruct R as [R1 R2]. apply pair_equal_spec in H as [H <-]. apply pair_equal_spec in H as [<- _]. split.
      + split; [cbn; rewrite R2; reflexivity|]. cbn [tl]. apply Forall_forall. intros i Hi. apply (in_map i_mc) in Hi. rewrite R1 in Hi. apply repeat_spec in Hi. exact Hi.
      + intros l H. injection H as <-. exists mc. split; [reflexivity|]. cbn [map i_mc]. rewrite R1. split; reflexivity.
    - apply pair_equal_spec in H as [H <-]. apply pair_equal_spec in H as [<- _]. split; [|discriminate]. split; [cbn; rewrite each_length, L; reflexivity|]. cbn [tl]. clear -F. generalize 1. induction F as [|i rest Hi F IH]; intros k; cbn; [constructor|constructor; [exact Hi|apply IH]]. }
  assert (O : ok (history ultranest_run cs (repeat new_iface (S n)))).
  { unfold history. assert (G : forall is_, ok is_ -> ok (fold_left (fun is_ sc => fst (fst (ultranest_run (fst sc) (snd sc) is_))) cs is_)).
    { clear -Step. induction cs as [|sc cs IH]; intros is_ H; [exact H|]. cbn. apply IH. destruct (ultranest_run (fst sc) (snd sc) is_) as [[is' sd] r] eqn:E. apply (Step _ _ _ _ _ _ H E). }
    apply G. split; [apply repeat_length|]. cbn [repeat tl]. apply Forall_forall. intros i Hi. apply repeat_spec in Hi. subst i. reflexivity. }
  exact (proj2 (Step _ _ _ _ _ _ O H) l eq_refl).
Qed.
(** Refuted: a run without a seed is not affected by earlier ones. PolyChord keeps the seed. *)
Theorem C150_seed_refuted : forall sampler sampler' c c' (is_ : list iface) s, is_ <> [] -> c_seed c = Some s -> c_seed c' = None ->
  snd (fst (polychord_run sampler' c' (fst (fst (polychord_run sampler c is_))))) = Some s.
Proof.
  intros sampler sampler' c c' [|i0 rest] s N S S'; [destruct (N eq_refl)|].
  assert (K : forall smp c (i : iface) l, snd (fst (polychord_run smp c (i :: l))) = seed_used c (i :: l) /\ exists i' l', fst (fst (polychord_run smp c (i :: l))) = i' :: l' /\ i_seed i' = seed_used c (i :: l)).
  { clear. intros smp c i l. rewrite run_eq. cbv zeta. destruct (outcome _) as [mc|x]; [destruct (if c_keep c then _ else _) as [all|x]|]; (split; [reflexivity|]); do 2 eexists; (split; [reflexivity|reflexivity]). }
  destruct (K sampler c i0 rest) as (_ & i' & l' & E & Hs). rewrite E, (proj1 (K sampler' c' i' l')). unfold seed_used. rewrite S', Hs. unfold seed_used. rewrite S. reflexivity.
Qed.
(** Refuted: with a seed runs are reproducible. UltraNest is not given it (nessai is). *)
Theorem C150_ultranest_seed_refuted : forall sampler c (is_ : list iface) i, snd (fst (ultranest_run sampler c is_)) = None /\ snd (fst (nessai_run sampler c i)) = c_seed c.
Proof.
  intros sampler c is_ i. unfold ultranest_run, nessai_run. destruct (c_keep c); [split; reflexivity|]. destruct (outcome (sampler None)); (split; [reflexivity|]); destruct (outcome (sampler (c_seed c))); reflexivity.
Qed.
(** Whatever the processes hold, after a run (also a failed one) all hold the seed the sampler got, and the folder the main process chose. *)
Theorem C150_shared : forall sampler c (is_ is' : list iface) seed r, is_ <> [] -> polychord_run sampler c is_ = (is', seed, r) ->
  Forall (fun i => i_seed i = seed /\ i_out i = Some (match c_out c with Some o => o | None => c_random c end)) is' /\ length is' = length is_.
Proof.
  intros sampler c [|i0 rest] is' seed r N H; [destruct (N eq_refl)|]. rewrite run_eq in H. cbv zeta in H. fold (place c).
  assert (E : forall (h : nat -> iface) k l, (forall r, i_seed (h r) = seed_used c (i0 :: rest) /\ i_out (h r) = Some (place c)) ->
    Forall (fun i : iface => i_seed i = seed_used c (i0 :: rest) /\ i_out i = Some (place c)) (in_each_from k (fun r _ => h r) (l : list iface))).
  { intros h k l Hh. revert k. induction l as [|a l IH]; intros k; constructor; auto. }
  destruct (outcome _) as [mc|x].
  - destruct (if c_keep c then _ else _) as [all|y]; apply pair_equal_spec in H as [H _]; apply pair_equal_spec in H as [<- <-];
      (split; [|cbn [length]; rewrite repeat_length; reflexivity]); (constructor; [split; reflexivity|]);
      apply Forall_forall; intros i Hi; apply repeat_spec in Hi; subst i; split; reflexivity.
  - apply pair_equal_spec in H as [H _]; apply pair_equal_spec in H as [<- <-]. split; [|unfold in_each; rewrite each_length; reflexivity]. unfold in_each. apply E. intros; split; reflexivity.
Qed.
(** nessai samples with the seed given, and what it returns and stores has no weights. *)
Theorem C150_nessai : forall sampler c (i i' : iface) seed l, nessai_run sampler c i = (i', seed, Ok l) ->
  exists X y w, outcome (sampler (c_seed c)) = Ok (X, y, w) /\ l = Some (X, y, None) /\ i_mc i' = l /\ seed = c_seed c /\ c_keep c = false.
Proof.
  intros sampler c i i' seed l H. unfold nessai_run in H. destruct (c_keep c); [discriminate H|]. destruct (outcome (sampler (c_seed c))) as [[[X y] w]|x]; [|discriminate H].
  apply pair_equal_spec in H as [H Hl]. apply pair_equal_spec in H as [<- <-]. injection Hl as <-. exists X, y, w. repeat split.
Qed.
End C150.
Print Assumptions C150_shared.
Print Assumptions C150_nessai.
Print Assumptions C150_returned.
Print Assumptions C150_kept.
Print Assumptions C150_independent.
Print Assumptions C150_failed.
Print Assumptions C150_ultranest.
Print Assumptions C150_seed_refuted.
Print Assumptions C150_ultranest_seed_refuted.

(** * Examples *)
Definition square (x : Z) : Z := (x * x)%Z.
Definition asked (keep : bool) (seed : option Z) : call Z Z := mkCall square (Some ("chains"%string, "run"%string)) keep seed ("/tmp/a"%string, "ns_samples"%string).
(** A sampler in three processes, that evaluates the seed too; one that leaves process 0 idle; one that fails. *)
Definition busy (seed : option Z) : sampler_run Z Z := mkSampler [[1; 2]; [3]; [match seed with Some s => s | None => 0 end]]%Z (Ok ([3]%Z, [9]%Z, Some [1]%Z)).
Definition idle (seed : option Z) : sampler_run Z Z := mkSampler [[]; [3]; [4]]%Z (Ok ([3]%Z, [9]%Z, Some [1]%Z)).
Definition broken (seed : option Z) : sampler_run Z Z := mkSampler [[1]; [3]; [4]]%Z (Err RuntimeError).
Example C150_case : exists is', polychord_run busy (asked true (Some 5%Z)) (repeat new_iface 3) = (is', Some 5%Z, Ok [Some ([3]%Z, [9]%Z, Some [1]%Z); None; None]) /\
  map i_all is' = [Some [(1, 1); (2, 4); (3, 9); (5, 25)]%Z; None; None] /\ everybody_or_nobody (evaluated (busy (Some 5%Z))).
Proof. eexists. split; [reflexivity|]. split; [reflexivity|]. right. cbn. repeat constructor; discriminate. Qed.
(** Processes that hold different things; the seed of the main one is used. *)
Example C150_shared_case : let is_ := [mkIface (Some 2%Z) None None None; mkIface (Some 4%Z) (Some ("a", "b")%string) None (Some ([], [], None)); mkIface None None (Some []) None] in
  snd (fst (polychord_run busy (asked true None) is_)) = Some 2%Z /\ map i_seed (fst (fst (polychord_run busy (asked true None) is_))) = repeat (Some 2%Z) 3.
Proof. split; reflexivity. Qed.
Example C150_nessai_case : snd (nessai_run (fun s => match s with Some s => mkSampler [] (Ok ([s], [(s + 1)%Z], Some [1]%Z)) | None => broken None end) (asked false (Some 5%Z)) new_iface) = Ok (Some ([5]%Z, [6]%Z, None)).
Proof. reflexivity. Qed.
(** Three runs one after another: the second, with another seed, fails and leaves no sample, only the evaluations of each process; the third has no seed and gets that of the second. *)
Example C150_history_case :
  let h k := history polychord_run (firstn k [(busy, asked true (Some 5%Z)); (broken, asked true (Some 7%Z)); (busy, asked false None)]) (repeat new_iface 3) in
  map i_mc (h 1) = [Some ([3]%Z, [9]%Z, Some [1]%Z); None; None] /\ map i_mc (h 2) = [None; None; None]
  /\ map i_all (h 2) = [Some [(1, 1)]%Z; Some [(3, 9)]%Z; Some [(4, 16)]%Z] /\ map i_seed (h 2) = [Some 7; Some 7; Some 7]%Z
  /\ snd (fst (polychord_run busy (asked false None) (h 2))) = Some 7%Z /\ map i_all (h 3) = [None; None; None].
Proof. repeat split. Qed.
(** Refuted: evaluations can be kept. If a process did none (as the one that coordinates the others) the run raises after the sampler has finished, and the sample is lost. *)
Theorem C150_idle_refuted : exists is', polychord_run idle (asked true None) (repeat new_iface 3) = (is', None, Err ValueError) /\ map i_mc is' = [None; None; None] /\
  snd (polychord_run idle (asked false None) (repeat new_iface 3)) = Ok [Some ([3]%Z, [9]%Z, Some [1]%Z); None; None].
Proof. eexists. split; [reflexivity|]. split; reflexivity. Qed.
(** Refuted: after a failed run there is no sample. UltraNest leaves the one of the run before. *)
Theorem C150_stale_refuted : exists is' mc, ultranest_run broken (asked false None) (fst (fst (ultranest_run busy (asked false None) (repeat new_iface 2)))) = (is', None, Err RuntimeError) /\
  map i_mc is' = [Some mc; None].
Proof. do 2 eexists. split; reflexivity. Qed.
Print Assumptions C150_idle_refuted.
Print Assumptions C150_stale_refuted.

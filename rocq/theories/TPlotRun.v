(** C160: the progress plots of a run. *)
From Coq Require Import Lia DecimalString DecimalNat.
From Verif Require Import MPlotRun TTruth.
Import ListNotations.
Set Default Goal Selector "!".
Set Bullet Behavior "Strict Subproofs".

(** The plots asked for: the last one is that of the final sample, with the corner plot of a run that has converged. *)
Definition asked (converged : bool) (o : plot_options) (p : plot) : bool :=
  match p with Timing => p_timing o | Convergence => p_convergence o | Trace => p_trace o | Slices => p_slices o | Corner => p_corner o | Triangle => p_corner o && converged end.
Definition all_plots : list plot := [Timing; Convergence; Trace; Slices; Corner; Triangle].

Lemma andthen_ok a b : andthen (a, Ok tt) b = (a ++ fst b, snd b).
Proof. reflexivity. Qed.
(** If no plot fails, exactly the plots asked for are written in each iteration. *)
Theorem C160_written : forall outcome fid converged folder it d o, d <> [] -> set_options default_plots d = Ok o -> (forall p, outcome p = Ok tt) ->
  loop_plots outcome (Ok tt) (Ok true) fid converged folder it (PlotsDict d) = map (file_of folder it o) (filter (asked converged o) all_plots).
Proof.
  intros outcome fid converged folder it d o N E H. unfold loop_plots. destruct d as [|e d]; [destruct (N eq_refl)|]. rewrite E. unfold plot_progress, corner_part, make_plot. rewrite !H.
  unfold all_plots. cbn [filter asked]. destruct (p_trace o || p_corner o && fid);
  destruct (p_timing o), (p_convergence o), (p_trace o), (p_slices o), (p_corner o), converged; reflexivity.
Qed.
(** With plots=True: the timing, the convergence and the trace. *)
Theorem C160_default : forall outcome cs fid converged folder it, (forall p, outcome p = Ok tt) ->
  loop_plots outcome (Ok tt) cs fid converged folder it (PlotsBool true) = map (fun s => os_path_join folder (s ++ ".png")%string) ["timing"; "convergence"; "trace"]%string /\
  loop_plots outcome (Ok tt) cs fid converged folder it (PlotsBool false) = [].
Proof. intros outcome cs fid converged folder it H. split; [|reflexivity]. unfold loop_plots, plot_progress, corner_part, make_plot. rewrite !H. reflexivity. Qed.
(** Whatever fails, nothing is raised (the result is the files) and only plots asked for are written. *)
Theorem C160_only : forall outcome fidr cs fid converged folder it d o f, set_options default_plots d = Ok o ->
  In f (loop_plots outcome fidr cs fid converged folder it (PlotsDict d)) -> exists p, asked converged o p = true /\ outcome p = Ok tt /\ f = file_of folder it o p.
Proof.
  intros outcome fidr cs fid converged folder it d o f E H. unfold loop_plots in H. destruct d as [|e d]; [destruct H|]. rewrite E in H.
  assert (forall a b, In f (fst (andthen a b)) -> In f (fst a) \/ In f (fst b)) as A.
  { intros [l [u|x]] b K; cbn [andthen fst] in K; [apply in_app_or in K; exact K|left; exact K]. }
  assert (forall b p, In f (fst (make_plot outcome folder it o b p)) -> b = true /\ outcome p = Ok tt /\ f = file_of folder it o p) as M.
  { intros b p K. unfold make_plot in K. destruct b; [|destruct K]. destruct (outcome p) as [[]|x]; [|destruct K]. destruct K as [K|[]]. auto. }
  unfold plot_progress in H. apply A in H as [H|H]; [apply M in H as (? & ? & ?); exists Timing; auto|].
  apply A in H as [H|H]; [apply M in H as (? & ? & ?); exists Convergence; auto|]. apply A in H as [[]|H].
  apply A in H as [H|H]; [apply M in H as (? & ? & ?); exists Trace; auto|]. apply A in H as [H|H]; [apply M in H as (? & ? & ?); exists Slices; auto|].
  unfold corner_part in H. destruct (p_corner o) eqn:Ec; [|destruct H]. destruct cs as [any|x]; [|destruct H]. cbn [fst] in H.
  apply A in H as [H|H]; apply M in H as (E1 & E2 & E3); [exists Corner|exists Triangle]; cbn [asked]; rewrite Ec; auto.
Qed.
(** The value of an option in a dictionary, its keys being different. *)
Fixpoint given (k : string) (d : list (string * plot_value)) : option plot_value := match d with [] => None | (a, v) :: d => if String.eqb a k then Some v else given k d end.
Definition or_default (default : bool) (v : option plot_value) : bool := match v with Some v => truthy v | None => default end.
(** Known options are accepted; each has the value given for it, those left out the default one. *)
Theorem C160_options : forall d, Forall (fun kv => In (fst kv) ["ext"; "timing"; "convergence"; "trace"; "slices"; "corner"]%string) d -> NoDup (map fst d) ->
  exists o, set_options default_plots d = Ok o /\
    p_ext o = match given "ext" d with Some v => as_text v | None => "png"%string end /\ p_timing o = or_default true (given "timing" d) /\ p_convergence o = or_default true (given "convergence" d) /\
    p_trace o = or_default true (given "trace" d) /\ p_slices o = or_default false (given "slices" d) /\ p_corner o = or_default false (given "corner" d).
Proof.
  assert (forall k d, ~ In k (map fst d) -> given k d = None) as G.
  { induction d as [|[a v] d IH]; intros N; cbn [given map fst In] in *; [reflexivity|]. destruct (String.eqb_spec a k) as [->|]; [destruct N; auto|]. apply IH. auto. }
  assert (forall d o0, Forall (fun kv => In (fst kv) ["ext"; "timing"; "convergence"; "trace"; "slices"; "corner"]%string) d -> NoDup (map fst d) ->
    exists o, set_options o0 d = Ok o /\ p_ext o = match given "ext" d with Some v => as_text v | None => p_ext o0 end /\ p_timing o = or_default (p_timing o0) (given "timing" d) /\
    p_convergence o = or_default (p_convergence o0) (given "convergence" d) /\ p_trace o = or_default (p_trace o0) (given "trace" d) /\ p_slices o = or_default (p_slices o0) (given "slices" d) /\
    p_corner o = or_default (p_corner o0) (given "corner" d)) as K.
  { induction d as [|[k v] d IH]; intros o0 F N; [exists o0; cbn [set_options given or_default]; auto 10|].
    inversion F as [|? ? Fk Fd]; inversion N as [|? ? Nk Nd]; subst. cbn [fst] in Fk, Nk. cbn [set_options given]. apply G in Nk.
    destruct Fk as [<-|[<-|[<-|[<-|[<-|[<-|[]]]]]]]; cbn [bind set_option String.eqb Ascii.eqb Bool.eqb];
      match goal with |- context [set_options ?o1 d] => destruct (IH o1 Fd Nd) as (o & E1 & E2 & E3 & E4 & E5 & E6 & E7) end; exists o; rewrite Nk in *; cbn [p_ext p_timing p_convergence p_trace p_slices p_corner or_default] in *; auto 10. }
  intros d F N. exact (K d default_plots F N).
Qed.
(** Called directly, failures of the corner plot and of that of the final sample are not raised either; without samples there is no corner plot, while that of the final sample is made. *)
Theorem C160_direct : forall outcome any fid converged folder it o, (forall p, p <> Corner -> p <> Triangle -> outcome p = Ok tt) ->
  snd (plot_progress outcome (Ok tt) (Ok any) fid converged folder it o) = Ok tt /\
  (p_corner o = true -> converged = true -> outcome Triangle = Ok tt ->
    fst (plot_progress outcome (Ok tt) (Ok false) fid converged folder it o) = map (file_of folder it o) (filter (fun p => match p with Corner => false | _ => asked converged o p end) all_plots)).
Proof.
  intros outcome any fid converged folder it o H. unfold plot_progress, corner_part, make_plot. rewrite !H by discriminate. split.
  - destruct (p_trace o || p_corner o && fid); destruct (p_timing o), (p_convergence o), (p_trace o), (p_slices o), (p_corner o); reflexivity.
  - intros Hc -> Ht. rewrite Hc, Ht. unfold all_plots. cbn [filter asked]. rewrite Hc. cbn [andb]. destruct (p_trace o || fid); destruct (p_timing o), (p_convergence o), (p_trace o), (p_slices o); reflexivity.
Qed.
(** Refuted: a plot that fails does not affect others. Those after it are not made, in any iteration. *)
Theorem C160_isolated_refuted : forall outcome x cs fid converged folder it d o, set_options default_plots d = Ok o -> d <> [] -> outcome Convergence = Err x -> p_convergence o = true ->
  forall f, In f (loop_plots outcome (Ok tt) cs fid converged folder it (PlotsDict d)) -> f = file_of folder it o Timing.
Proof.
  intros outcome x cs fid converged folder it d o E N H Hc f. unfold loop_plots. destruct d as [|e d]; [destruct (N eq_refl)|]. rewrite E. unfold plot_progress, make_plot. rewrite Hc, H.
  destruct (p_timing o); [destruct (outcome Timing) as [[]|y]|]; cbn [andthen fst app In]; intros K; first [destruct K as [K|[]]; auto|destruct K].
Qed.
(** The corner plot and that of the final sample, which come last, never affect the others. *)
Theorem C160_corner : forall outcome cs fid converged folder it o,
  let without := mkPlots (p_ext o) (p_timing o) (p_convergence o) (p_trace o) (p_slices o) false in
  incl (fst (plot_progress outcome (Ok tt) cs fid converged folder it without)) (fst (plot_progress outcome (Ok tt) cs fid converged folder it o)).
Proof.
  intros outcome cs fid converged folder it o without. unfold without, plot_progress, corner_part, make_plot. cbn [p_timing p_convergence p_trace p_slices p_corner p_ext andb orb].
  assert (forall q, file_of folder it (mkPlots (p_ext o) (p_timing o) (p_convergence o) (p_trace o) (p_slices o) false) q = file_of folder it o q) as F by reflexivity. rewrite !F.
  assert (forall (b : bool), (if b then Ok tt else Ok tt) = (Ok tt : res unit)) as B by (intros []; reflexivity). rewrite !B. intros f.
  set (last := if p_corner o then _ else _). clearbody last.
  destruct (p_timing o); [destruct (outcome Timing) as [[]|]|]; destruct (p_convergence o); try destruct (outcome Convergence) as [[]|]; destruct (p_trace o); try destruct (outcome Trace) as [[]|];
    destruct (p_slices o); try destruct (outcome Slices) as [[]|]; cbn [andthen fst snd app In]; tauto.
Qed.
(** Refuted: an unknown option is reported. It disables all plots in all iterations (a message is logged). *)
Theorem C160_unknown_refuted : forall outcome fidr cs fid converged folder it d k v, In (k, v) d -> ~ In k ["ext"; "timing"; "convergence"; "trace"; "slices"; "corner"]%string ->
  loop_plots outcome fidr cs fid converged folder it (PlotsDict d) = [].
Proof.
  intros outcome fidr cs fid converged folder it d k v H N. unfold loop_plots.
  assert (forall o, set_option o k v = Err TypeError) as K.
  { intros o. unfold set_option. repeat match goal with |- context [String.eqb k ?s] => destruct (String.eqb_spec k s) as [->|_]; [exfalso; apply N; simpl; tauto|] end. reflexivity. }
  assert (forall o, exists x, set_options o d = Err x) as S.
  { induction d as [|[a b] d IH]; [destruct H|]. intros o. cbn [set_options]. destruct H as [H|H].
    - apply pair_equal_spec in H as [-> ->]. rewrite K. exists TypeError. reflexivity.
    - destruct (set_option o a b) as [o'|x]; [apply IH; exact H|exists x; reflexivity]. }
  destruct d as [|e d]; [reflexivity|]. destruct (S default_plots) as (x & ->). reflexivity.
Qed.
(** Refuted: options left out of the dictionary have their default values. An empty one gives no plots. *)
Theorem C160_empty_refuted : forall outcome fidr cs fid converged folder it, loop_plots outcome fidr cs fid converged folder it (PlotsDict []) = [].
Proof. reflexivity. Qed.

Lemma join_inj a b c : os_path_join a b = os_path_join a c -> b = c.
Proof. unfold os_path_join. destruct (String.eqb a "" || ends_in_slash a); intros H; apply append_inj in H; [exact H|]. apply (append_inj "/") in H. exact H. Qed.
Definition decode (s : string) : option nat := option_map Nat.of_uint (NilEmpty.uint_of_string s).
Lemma decode_zero s : decode (String "0" s) = decode s.
Proof. unfold decode. cbn. destruct (NilEmpty.uint_of_string s); reflexivity. Qed.
Lemma decode_pad n : decode (pad3 n) = Some n.
Proof.
  assert (decode (str_of_nat n) = Some n) as D. { unfold decode, str_of_nat. rewrite NilEmpty.usu. cbn [option_map]. rewrite Unsigned.of_to. reflexivity. }
  unfold pad3. destruct (String.length (str_of_nat n)) as [|[|[|k]]]; rewrite ?decode_zero; exact D.
Qed.
Lemma append_inj_r a b c : (a ++ c = b ++ c -> a = b)%string.
Proof.
  intros H. assert (forall u v, String.length (u ++ v)%string = String.length u + String.length v) as L by (induction u as [|x u IH]; intros v; [reflexivity|cbn [String.append String.length]; rewrite IH; reflexivity]).
  assert (String.length a = String.length b) as E by (apply (f_equal String.length) in H; rewrite !L in H; lia).
  revert b H E. induction a as [|x a IH]; intros [|y b] H E; try discriminate E; [reflexivity|]. cbn [String.append] in H. injection H as -> H. f_equal. apply IH; auto.
Qed.
(** Corner plots of different iterations are different files. *)
Theorem C160_iterations : forall folder o i j, i <> j -> file_of folder i o Corner <> file_of folder j o Corner.
Proof.
  intros folder o i j N H. apply N. unfold file_of in H. apply join_inj in H. apply append_inj_r in H. apply (append_inj "corner_it_") in H.
  apply (f_equal decode) in H. rewrite !decode_pad in H. injection H as H. exact H.
Qed.
(** So are the two files of the distances, whatever the output asked for. *)
Theorem C160_distances : forall folder ext output split, (forall p, (fst (split p) ++ snd (split p))%string = p) -> fst (distance_files folder ext output split) <> snd (distance_files folder ext output split).
Proof.
  intros folder ext [p|] split Hs; cbn [distance_files fst snd]; intros H.
  - rewrite <- (Hs p) in H at 1. apply append_inj in H. apply (f_equal String.length) in H. cbn [String.append String.length] in H. lia.
  - apply join_inj in H. discriminate H.
Qed.
Print Assumptions C160_written.
Print Assumptions C160_default.
Print Assumptions C160_only.
Print Assumptions C160_options.
Print Assumptions C160_direct.
Print Assumptions C160_isolated_refuted.
Print Assumptions C160_corner.
Print Assumptions C160_unknown_refuted.
Print Assumptions C160_empty_refuted.
Print Assumptions C160_iterations.
Print Assumptions C160_distances.
(** * Examples *)
Example C160_case : let d := [("trace", PBool false); ("corner", PBool true); ("ext", PStr "svg")]%string in
  loop_plots (fun _ => Ok tt) (Ok tt) (Ok true) true true (plots_path (Some "out"%string)) 7 (PlotsDict d) =
    ["out/images/timing.svg"; "out/images/convergence.svg"; "out/images/corner_it_007.svg"; "out/images/Surrogate_triangle.svg"]%string /\
  loop_plots (fun p => match p with Convergence => Err ValueError | _ => Ok tt end) (Ok tt) (Ok true) true true (plots_path None) 7 (PlotsDict d) = ["images/timing.svg"]%string /\
  loop_plots (fun p => match p with Corner => Err ValueError | _ => Ok tt end) (Ok tt) (Ok true) true true (plots_path None) 7 (PlotsDict d) = ["images/timing.svg"; "images/convergence.svg"]%string /\
  loop_plots (fun _ => Ok tt) (Ok tt) (Ok true) true true (plots_path None) 7 (PlotsDict (("timings", PBool true) :: d)%string) = [].
Proof. repeat split. Qed.
Example C160_files_case : map pad3 [0; 42; 123; 1234] = ["000"; "042"; "123"; "1234"]%string /\
  distance_files "images" "png" (Some "a/b.pdf"%string) (fun p => if String.eqb p "a/b.pdf" then ("a/b", ".pdf")%string else (p, ""%string)) = ("a/b.pdf", "a/b_density.pdf")%string /\
  distance_files "images" "png" None (fun p => (p, ""%string)) = ("images/Distance_distribution.png", "images/Distance_distribution_density.png")%string.
Proof. repeat split. Qed.
Example C160_options_case : set_options default_plots [("corner", PStr "yes"); ("timing", PBool false)]%string = Ok (mkPlots "png" false true true false true).
Proof. reflexivity. Qed.
Example C160_direct_case : plot_progress (fun p => match p with Corner => Err ValueError | _ => Ok tt end) (Ok tt) (Ok false) true true "images" 7 (mkPlots "png" false false false false true) = (["images/Surrogate_triangle.png"]%string, Ok tt) /\
  plot_progress (fun p => match p with Corner => Err ValueError | _ => Ok tt end) (Ok tt) (Ok true) true true "images" 7 (mkPlots "png" false false false false true) = ([], Ok tt).
Proof. repeat split. Qed.

(** C156: the functions of a runner for the posterior and the likelihood. *)
From Verif Require Import MRunFns MDiagCb STools PTools TTruth.
Set Default Goal Selector "!".
Set Bullet Behavior "Strict Subproofs".

(** A single point as users pass it: a vector, or a list with one point. *)
Definition single (x : list num) (X : arr) : Prop := X = Vec x \/ X = points_arr (length x) [x].
Lemma single_rows x X : single x X -> atleast_2d X = mkMat (length x) [x].
Proof. intros [->| ->]; reflexivity. Qed.
Lemma logprior_points t box x X : prior_bounds t = mkMat 2 (map (fun b => [fst b; snd b]) box) -> length x = length box -> single x X ->
  logprior_arr t X = Ok (if box_test box x then nneg (log_prior_volume t) else NInf).
Proof.
  intros Hb Hx HX. unfold logprior_arr. rewrite Hb. change (Mat (mkMat 2 (map (fun b => [fst b; snd b]) box))) with (box_arr box).
  assert (is_in_bounds X (box_arr box) false = Ok [box_test box x]) as ->.
  { destruct HX as [->| ->]; [change (is_in_bounds (Vec x) (box_arr box) false) with (is_in_bounds (points_arr (length x) [x]) (box_arr box) false)|];
      rewrite is_in_bounds_eq by auto; reflexivity. }
  cbn [bind]. destruct (box_test box x); [rewrite neg_one|]; reflexivity.
Qed.
(** Inside the bounds, the likelihood of the surrogate at a point is its prediction times the volume of the prior, whether the point is passed alone or in a list. *)
Theorem C156_point : forall ln f box ref params t predict x X v,
  new_truth ln f (Some (box_arr box)) ref params = Ok t -> length x = length box -> in_box box x -> single x X -> predict (mkMat (length x) [x]) = Ok [v] ->
  runner_logp predict X = Ok [v] /\ runner_logL predict (logprior_arr t) X = Ok [nsub v (nneg (volume_of ln box))].
Proof.
  intros ln f box ref params t predict x X v Ht Hx Hin HX Hp. apply new_truth_inv in Ht as (Hb & Hv & _). unfold runner_logp, runner_logL. rewrite (single_rows x X HX), Hp. split; [reflexivity|].
  cbn [bind]. rewrite (logprior_points t box x X Hb Hx HX). apply (box_test_spec box x Hx) in Hin. rewrite Hin, Hv. reflexivity.
Qed.
(** Where the surrogate agrees with the true posterior, its likelihood agrees with the true likelihood. *)
Theorem C156_agrees : forall ln f box ref params t predict x X v vol l,
  new_truth ln f (Some (box_arr box)) ref params = Ok t -> length x = length box -> in_box box x -> single x X -> volume_of ln box = Fin vol ->
  predict (mkMat (length x) [x]) = Ok [v] -> runner_logp_truth t (OVec x) = Ok v -> runner_logL_truth t (OVec x) = Ok l ->
  runner_logL predict (logprior_arr t) X = Ok [l].
Proof.
  intros ln f box ref params t predict x X v vol l Ht Hx Hin HX Hvol Hp Hlp Hll.
  rewrite (proj2 (C156_point ln f box ref params t predict x X v Ht Hx Hin HX Hp)).
  destruct (C04_logp ln f box ref params t x Ht Hx) as [_ K]. unfold runner_logp_truth in Hlp. rewrite K in Hlp; auto; [|rewrite Hvol; discriminate].
  unfold runner_logL_truth in Hll. rewrite Hll in Hlp. cbn [bind fst] in Hlp. injection Hlp as <-. rewrite Hvol. destruct l as [| |q|]; try reflexivity.
  cbn [nneg nadd nsub]. do 2 f_equal. unfold nsub. cbn [nneg nadd]. f_equal. ring.
Qed.
(** Refuted: the likelihood of the surrogate at a list of points. For two points or more it raises ValueError. *)
Theorem C156_list_refuted : forall ln f box ref params t predict pts y,
  new_truth ln f (Some (box_arr box)) ref params = Ok t -> Forall (fun x => length x = length box) pts -> 2 <= length pts -> predict (mkMat (length box) pts) = Ok y ->
  runner_logp predict (points_arr (length box) pts) = Ok y /\ runner_logL predict (logprior_arr t) (points_arr (length box) pts) = Err ValueError.
Proof.
  intros ln f box ref params t predict pts y Ht Hl Hn Hp. apply new_truth_inv in Ht as (Hb & _). unfold runner_logp, runner_logL. cbn [points_arr atleast_2d]. rewrite Hp. split; [reflexivity|].
  cbn [bind]. unfold logprior_arr. rewrite Hb. change (Mat (mkMat 2 (map (fun b => [fst b; snd b]) box))) with (box_arr box).
  change (Mat (mkMat (length box) pts)) with (points_arr (length box) pts).
  rewrite (is_in_bounds_eq box (length box) pts false) by auto. cbn [bind]. destruct pts as [|a [|b l]]; cbn [length] in Hn; [inversion Hn|inversion Hn; inversion H0|].
  cbn [map]. destruct (box_test box a); reflexivity.
Qed.
(** Refuted: outside the bounds the likelihood of the surrogate is the one it predicts, or zero. It is infinite (or NaN, if the classifier excludes the point), above any value inside. *)
Theorem C156_outside_refuted : forall ln f box ref params t predict x X v,
  new_truth ln f (Some (box_arr box)) ref params = Ok t -> length x = length box -> ~ in_box box x -> single x X -> predict (mkMat (length x) [x]) = Ok [v] ->
  (forall q, v = Fin q -> runner_logL predict (logprior_arr t) X = Ok [PInf]) /\ (v = NInf -> runner_logL predict (logprior_arr t) X = Ok [NaN]).
Proof.
  intros ln f box ref params t predict x X v Ht Hx Hout HX Hp. apply new_truth_inv in Ht as (Hb & _). unfold runner_logL. rewrite (single_rows x X HX), Hp. cbn [bind].
  rewrite (logprior_points t box x X Hb Hx HX). destruct (box_test box x) eqn:E; [apply (box_test_spec box x Hx) in E; destruct (Hout E)|].
  split; [intros q ->|intros ->]; reflexivity.
Qed.
(** Refuted: the likelihood can be recovered from the posterior with the runner's [log_prior_volume]. The runner has no such attribute. *)
Theorem C156_volume_refuted : MDiagCb.getattr runner_attrs "log_prior_volume" = Err AttributeError.
Proof. reflexivity. Qed.
(** With a Cobaya model, likewise, where its prior is finite; *)
Theorem C156_cobaya : forall D (m : cobaya_model D) predict x v p,
  predict (mkMat (length x) [x]) = Ok [v] -> cb_logprior m x = Fin p -> runner_logp_truth_cobaya m x = VNumber v ->
  runner_logL predict (cobaya_logprior m) (Vec x) = Ok [fst (cb_loglike m x)].
Proof.
  intros D m predict x v p Hp Hpr Hv. unfold runner_logL. cbn [atleast_2d]. rewrite Hp. cbn [bind cobaya_logprior]. rewrite Hpr. cbn [map].
  unfold runner_logp_truth_cobaya, cobaya_logpost in Hv. rewrite Hpr in Hv. change (neqb (Fin p) NInf) with false in Hv. cbv iota in Hv. injection Hv as <-.
  destruct (fst (cb_loglike m x)) as [| |q|]; try reflexivity. do 2 f_equal. unfold nsub. cbn [nneg nadd]. f_equal. ring.
Qed.
(** where its prior is zero, so is the posterior, while the likelihood of the surrogate is infinite; *)
Theorem C156_cobaya_outside_refuted : forall D (m : cobaya_model D) predict x q,
  cb_logprior m x = NInf -> predict (mkMat (length x) [x]) = Ok [Fin q] ->
  runner_logp_truth_cobaya m x = VNumber NInf /\ runner_logL predict (cobaya_logprior m) (Vec x) = Ok [PInf].
Proof.
  intros D m predict x q Hpr Hp. unfold runner_logp_truth_cobaya, cobaya_logpost, runner_logL. cbn [atleast_2d]. rewrite Hp. cbn [bind cobaya_logprior]. rewrite Hpr. split; reflexivity.
Qed.
(** and, refuted: the true likelihood is a number. It is a pair with the derived parameters. *)
Theorem C156_cobaya_refuted : forall D (m : cobaya_model D) x v, runner_logL_truth_cobaya m x <> VNumber v.
Proof. discriminate. Qed.
Print Assumptions C156_point.
Print Assumptions C156_agrees.
Print Assumptions C156_list_refuted.
Print Assumptions C156_outside_refuted.
Print Assumptions C156_volume_refuted.
Print Assumptions C156_cobaya.
Print Assumptions C156_cobaya_outside_refuted.
Print Assumptions C156_cobaya_refuted.

(** * Examples *)
(** The sum of the coordinates in the box from 0 to 2 and from 0 to 4; [ln] stands for a logarithm (2 |-> 1, 4 |-> 2). *)
Definition sum2 : fn := two_numbers (simple_sig 2).
Definition toy_ln (x : num) : num := if neqb x (nz 2) then nz 1 else if neqb x (nz 4) then nz 2 else NaN.
Definition toy_box : list (num * num) := [(nz 0, nz 2); (nz 0, nz 4)].
(** A surrogate that agrees with the true posterior, also outside the bounds. *)
Definition toy_predict (m : mat) : res (list num) := Ok (map (fun r => nsub (fold_left nadd r (nz 0)) (nz 3)) (rows m)).
Example C156_case : exists t, new_truth toy_ln sum2 (Some (box_arr toy_box)) None PNone = Ok t /\ volume_of toy_ln toy_box = nz 3 /\ in_box toy_box [nz 1; nz 3] /\
  runner_logp_truth t (OVec [nz 1; nz 3]) = Ok (nz 1) /\ runner_logL_truth t (OVec [nz 1; nz 3]) = Ok (nz 4) /\
  runner_logL toy_predict (logprior_arr t) (Vec [nz 1; nz 3]) = Ok [nz 4] /\ runner_logL toy_predict (logprior_arr t) (points_arr 2 [[nz 1; nz 3]]) = Ok [nz 4] /\
  runner_logL toy_predict (logprior_arr t) (points_arr 2 [[nz 1; nz 3]; [nz 1; nz 1]]) = Err ValueError /\ runner_logL toy_predict (logprior_arr t) (Vec [nz 1; nz 5]) = Ok [PInf] /\
  runner_logp toy_predict (points_arr 2 [[nz 1; nz 3]; [nz 1; nz 1]]) = Ok [nz 1; nz (-1)].
Proof.
  eexists. split; [reflexivity|]. split; [reflexivity|]. split; [apply (box_test_spec toy_box [nz 1; nz 3]); reflexivity|]. repeat split.
Qed.
Definition toy_cobaya : cobaya_model nat := mkCobaya (fun x => if nltb (nth 0 x NaN) (nz 0) then NInf else nneg (nth 0 x NaN)) (fun x => (nth 1 x NaN, 7)).
Example C156_cobaya_case : runner_logp_truth_cobaya toy_cobaya [nz 2; nz 5] = VNumber (nz 3) /\ runner_logL (fun _ => Ok [nz 3]) (cobaya_logprior toy_cobaya) (Vec [nz 2; nz 5]) = Ok [nz 5] /\
  runner_logL_truth_cobaya toy_cobaya [nz 2; nz 5] = VPair (nz 5) 7 /\ cb_logprior toy_cobaya [nz (-1); nz 5] = NInf.
Proof. repeat split. Qed.

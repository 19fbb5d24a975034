(** C163: the chains of GaussianKL. *)
From Coq Require Import QArith Qcanon Lia.
From Verif Require Import MKlMcmc.
Import ListNotations.
Set Default Goal Selector "!".
Set Bullet Behavior "Strict Subproofs".

Section C163.
Context {M : Type} (valid : M -> bool).
Notation opts := (kl_mcmc_options valid).
Definition ok (o : option M) : Prop := match o with Some m => valid m = true | None => False end.

Lemma options_of names (c : klm (M := M)) cov : let h := high_precision (k_values c) in
  opts names c cov = Ok (let p := proposal valid c cov in
    [("measure_speeds", EFlag false); ("max_tries", ENum 100000%Z)]%string
    ++ (match p with Some m => if valid m then [("covmat", ECov (Some m)); ("covmat_params", ENames names)]%string else [] | None => [] end)
    ++ [("temperature", ENum 2%Z); ("Rminus1_stop", EUser (if h then nq 1 100 else nq 2 10)); ("Rminus1_cl_stop", EUser (if h then nq 2 10 else nq 5 10))]%string).
Proof.
  intros h. unfold kl_mcmc_options, mcmc_info, covmat_asked. cbv zeta. destruct (proposal valid c cov) as [m|].
  - destruct (valid m) eqn:E; cbn [negb].
    + cbn [bind]. reflexivity.
    + unfold verb_num, covmat_entry. rewrite E. cbn [negb andb]. change (nleb (nz 2) (nz 3)) with true. reflexivity.
  - unfold verb_num, covmat_entry. cbn [negb andb]. change (nleb (nz 2) (nz 3)) with true. reflexivity.
Qed.
(** The chains are run to the strict limits exactly if the last value of the criterion is a number below 1 (not if there is none, or it is NaN); always at temperature 2. *)
Theorem C163_precision : forall names c cov, exists d, opts names c cov = Ok d /\ get "temperature" d = Some (ENum 2%Z) /\
  (forall init x, k_values c = init ++ [Fin x] -> (x < 1)%Qc -> get "Rminus1_stop" d = Some (EUser (nq 1 100)) /\ get "Rminus1_cl_stop" d = Some (EUser (nq 2 10))) /\
  (k_values c = [] \/ (exists init, k_values c = init ++ [NaN]) \/ (exists init x, k_values c = init ++ [Fin x] /\ (1 <= x)%Qc) -> get "Rminus1_stop" d = Some (EUser (nq 2 10)) /\ get "Rminus1_cl_stop" d = Some (EUser (nq 5 10))).
Proof.
  intros names c cov. rewrite options_of. eexists. split; [reflexivity|]. cbv zeta.
  assert (forall h, let d := [("measure_speeds", EFlag false); ("max_tries", ENum 100000%Z)]%string ++ (match proposal valid c cov with Some m => if valid m then [("covmat", ECov (Some m)); ("covmat_params", ENames names)]%string else [] | None => [] end)
    ++ [("temperature", ENum 2%Z); ("Rminus1_stop", EUser (if h : bool then nq 1 100 else nq 2 10)); ("Rminus1_cl_stop", EUser (if h then nq 2 10 else nq 5 10))]%string in
    get "temperature" d = Some (ENum 2%Z) /\ get "Rminus1_stop" d = Some (EUser (if h then nq 1 100 else nq 2 10)) /\ get "Rminus1_cl_stop" d = Some (EUser (if h then nq 2 10 else nq 5 10))) as G.
  { intros h. destruct (proposal valid c cov) as [m|]; [destruct (valid m)|]; (split; [|split]); reflexivity. }
  destruct (G (high_precision (k_values c))) as (G1 & G2 & G3). split; [exact G1|]. split.
  - intros init x E Hx. rewrite G2, G3. unfold high_precision. rewrite E, rev_app_distr. cbn [rev app].
    assert (nltb (Fin x) (nz 1) = true) as -> by (apply qltb_lt; exact Hx). auto.
  - intros K. rewrite G2, G3. assert (high_precision (k_values c) = false) as ->; [|auto]. unfold high_precision. destruct K as [->|[(init & ->)|(init & x & -> & Hx)]]; [reflexivity| |]; rewrite rev_app_distr; cbn [rev app]; [reflexivity|].
    apply qltb_nlt. exact Hx.
Qed.
(** The proposal: the covariance matrix from the earlier sample if it is valid, else that of the last check if it is, else none; its rows are the parameters of the model. *)
Theorem C163_proposal : forall names c cov, exists d, opts names c cov = Ok d /\
  (forall m, cov = Some m -> valid m = true -> get "covmat" d = Some (ECov (Some m))) /\
  (forall m, ~ ok cov -> k_cov c = Some m -> valid m = true -> get "covmat" d = Some (ECov (Some m))) /\
  (~ ok cov -> ~ ok (k_cov c) -> get "covmat" d = None /\ get "covmat_params" d = None) /\
  (get "covmat" d <> None -> get "covmat_params" d = Some (ENames names)).
Proof.
  intros names c cov. rewrite options_of. eexists. split; [reflexivity|]. cbv zeta. unfold proposal.
  split; [|split; [|split]].
  - intros m -> Hv. rewrite !Hv. reflexivity.
  - intros m N E Hv. assert ((match cov with Some m0 => if valid m0 then Some m0 else k_cov c | None => k_cov c end) = Some m) as ->; [|rewrite Hv; reflexivity].
    destruct cov as [m0|]; [|exact E]. cbn [ok] in N. destruct (valid m0); [destruct (N eq_refl)|exact E].
  - intros N N'. assert ((match cov with Some m0 => if valid m0 then Some m0 else k_cov c | None => k_cov c end) = k_cov c) as ->.
    { destruct cov as [m0|]; [|reflexivity]. cbn [ok] in N. destruct (valid m0); [destruct (N eq_refl)|reflexivity]. }
    destruct (k_cov c) as [m|]; [|split; reflexivity]. cbn [ok] in N'. destruct (valid m); [destruct (N' eq_refl)|split; reflexivity].
  - destruct (match cov with Some m0 => _ | None => _ end) as [m|]; [destruct (valid m)|]; [reflexivity| |]; intros K; destruct (K eq_refl).
Qed.
(** Passing both options about the number of draws is refused; zero counts as not passing it, and 10 per square of the dimension is the default. *)
Theorem C163_both : forall n p, n <> 0%Z -> p <> 0%Z -> read_draws (Some n) (Some p) = Err ValueError /\ read_draws (Some 0%Z) (Some p) = Ok (PerDimSquared p) /\ read_draws (Some n) (Some 0%Z) = Ok (Draws n) /\ read_draws None None = Ok (PerDimSquared 10).
Proof. intros n p Hn Hp. unfold read_draws, truth_z. apply Z.eqb_neq in Hn, Hp. rewrite Hn, Hp. repeat split. Qed.
(** Refuted: they set the number of steps of the chains. Either is accepted and stored, and the chains are the same for all values. *)
Theorem C163_draws_refuted : forall n n', n <> 0%Z -> n' <> 0%Z -> n <> n' ->
  read_draws (Some n) None = Ok (Draws n) /\ read_draws None (Some n') = Ok (PerDimSquared n') /\
  (forall a b names cv vs cov, opts names (mkKlm cv vs a) cov = opts names (mkKlm cv vs b) cov).
Proof. intros n n' Hn Hn' _. unfold read_draws, truth_z. apply Z.eqb_neq in Hn. rewrite Hn. split; [reflexivity|]. split; reflexivity. Qed.
(** Refuted: in several processes all chains have the same options. The main process proposes with the covariance matrix from the earlier sample, the others with that of the last check. *)
Theorem C163_parallel_refuted : forall names c m size, valid m = true -> k_cov c <> Some m -> 2 <= size ->
  exists d0 d1, nth_error (all_mcmc_options valid names c (Some m) size) 0 = Some (Ok d0) /\ nth_error (all_mcmc_options valid names c (Some m) size) 1 = Some (Ok d1) /\
    get "covmat" d0 = Some (ECov (Some m)) /\ get "covmat" d1 <> get "covmat" d0.
Proof.
  intros names c m size Hv N L. destruct size as [|[|size]]; [lia|lia|]. unfold all_mcmc_options. cbn [seq map nth_error Nat.eqb]. rewrite !options_of. cbv zeta. eexists. eexists. split; [reflexivity|]. split; [reflexivity|].
  unfold proposal. rewrite !Hv. split; [reflexivity|]. destruct (k_cov c) as [m'|]; [destruct (valid m')|]; [|discriminate|discriminate].
  change (Some (@ECov M num (Some m')) <> Some (ECov (Some m))). intros K. apply N. congruence.
Qed.
(** Without an earlier sample they do. *)
Theorem C163_parallel : forall names c size i j, i < size -> j < size -> nth_error (all_mcmc_options valid names c None size) i = nth_error (all_mcmc_options valid names c None size) j.
Proof.
  intros names c size i j Hi Hj. assert (forall k, k < size -> nth_error (all_mcmc_options valid names c None size) k = Some (opts names c None)) as A; [|rewrite !A by assumption; reflexivity].
  intros k Hk. unfold all_mcmc_options. erewrite map_nth_error; [|rewrite nth_error_nth' with (d := 0); [reflexivity|rewrite seq_length; exact Hk]]. destruct (Nat.eqb _ 0); reflexivity.
Qed.
End C163.
Print Assumptions C163_precision.
Print Assumptions C163_proposal.
Print Assumptions C163_both.
Print Assumptions C163_draws_refuted.
Print Assumptions C163_parallel_refuted.
Print Assumptions C163_parallel.
(** * Examples: covariance matrices are numbers, valid if positive. *)
Example C163_case : let v := Nat.ltb 0 in let o := kl_mcmc_options v ["x_1"; "x_2"]%string in
  (forall d, o (mkKlm (M := nat) (Some 3) [nz 5; nq 1 2] (Draws 7)) (Some 2) = Ok d -> get "covmat" d = Some (ECov (Some 2)) /\ get "covmat_params" d = Some (ENames ["x_1"; "x_2"]%string) /\ get "Rminus1_stop" d = Some (EUser (nq 1 100)) /\ get "Rminus1_cl_stop" d = Some (EUser (nq 2 10))) /\
  (forall d, o (mkKlm (M := nat) (Some 3) [nq 1 2; NaN] (Draws 7)) (Some 0) = Ok d -> get "covmat" d = Some (ECov (Some 3)) /\ get "Rminus1_stop" d = Some (EUser (nq 2 10))) /\
  o (mkKlm (M := nat) None [] (PerDimSquared 10)) None = Ok [("measure_speeds", EFlag false); ("max_tries", ENum 100000%Z); ("temperature", ENum 2%Z); ("Rminus1_stop", EUser (nq 2 10)); ("Rminus1_cl_stop", EUser (nq 5 10))]%string /\
  map (fun r => match r with Ok d => get "covmat" d | Err _ => None end) (all_mcmc_options v ["x_1"]%string (mkKlm (M := nat) (Some 3) [] (Draws 7)) (Some 2) 3) = [Some (ECov (Some 2)); Some (ECov (Some 3)); Some (ECov (Some 3))].
Proof. split; [|split; [|split]]; [intros d H; injection H as <-; repeat split|intros d H; injection H as <-; split; reflexivity|reflexivity|reflexivity]. Qed.
Example C163_draws_case : read_draws (Some 100%Z) None = Ok (Draws 100) /\ read_draws (Some 0%Z) (Some 5%Z) = Ok (PerDimSquared 5) /\ read_draws None None = Ok (PerDimSquared 10) /\ read_draws (Some 100%Z) (Some 5%Z) = Err ValueError.
Proof. repeat split. Qed.

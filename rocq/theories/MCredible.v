(** Model of the credible volumes of gpry/tools.py:100-131, over the real numbers. [None] stands for NaN. Definitions only. *)
From Coq Require Export Reals List.
Export ListNotations.
Open Scope R_scope.

Section Credible.
(** scipy's [chi2.cdf(x, d)], [chi2.isf(q, d)] and [erfc]. *)
Variable cdf : R -> nat -> R.
Variable isf : R -> nat -> option R.
Variable erfc : R -> R.
(** tools.py:106. Left out: the warning if the result is infinite, which happens only through underflow of [erfc]. *)
Definition nstd_of_1d_nstd (n1 : R) (d : nat) : option R := option_map sqrt (isf (erfc (n1 / sqrt 2)) d).
(** tools.py:118. *)
Definition delta_logp_of_1d_nstd (n1 : R) (d : nat) : option R := option_map (fun r => 1 / 2 * r ^ 2) (nstd_of_1d_nstd n1 d).
(** tools.py:126. *)
Definition credibility_of_nstd (n : R) (d : nat) : R := cdf (n ^ 2) d.
(** convergence.py:703-707, [criterion_value_from_means_cov] of [TrainAlignment]: [chi2] is the squared Mahalanobis distance of the means. *)
Definition alignment (chi2 : R) (d : nat) : R := credibility_of_nstd (sqrt chi2) d.
(** convergence.py:739-742: the value reported. *)
Definition reported (chi2 : R) (d : nat) : option R := if Rlt_dec (alignment chi2 d) 0 then None else Some (Rmax (alignment chi2 d) (1 / 1000)).
End Credible.

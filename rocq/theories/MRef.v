(** Model of the samples of gpry/truth.py: from the prior and from the reference distribution, for
    [Truth]. Model definitions only. *)
From Verif Require Export MTruth.

Section Ref.
(** What [rng.uniform] does if the lower limit is above the upper one (it depends on the version of numpy). *)
Variable unordered : num * num -> num -> res num.
(** [rng.uniform(low, high)] for the number [u] in [0, 1) of the generator: exact here. A range that is not
    finite raises OverflowError. *)
Definition uniform (b : num * num) (u : num) : res num :=
  let range := nsub (snd b) (fst b) in
  if negb (isfin range) then Err OverflowError
  else if nltb range (nz 0) then unordered b u
  else Ok (nadd (fst b) (nmul range u)).
(** One number of the generator per dimension. *)
Definition uniforms (box : list (num * num)) (u : list num) : res (list num) :=
  mapM (fun q => uniform (fst q) (snd q)) (combine box u).
(** [prior_sample], gpry/truth.py:157-159. *)
Definition prior_sample (t : truth) (u : list num) : res (list num) :=
  uniforms (combine (column (prior_bounds t) 0) (column (prior_bounds t) 1)) u.
(** [ref_sample], gpry/truth.py:161-163. *)
Definition ref_sample (t : truth) (u : list num) : res (list num) := uniforms (ref_bounds_default_prior t) u.
End Ref.

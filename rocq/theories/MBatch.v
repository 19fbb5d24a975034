(** Model of gpry/gp_acquisition.py: class BatchOptimizer, lines 212-523 (points proposed by optimising the
    acquisition function). Definitions only.

    Left abstract, so that the theorems hold for all of them: the regressor [G] (its training points, prediction,
    [append_to_data] without refits, deep copy), the acquisition function, the preprocessor of the acquisition, the
    local optimiser and the random proposals. The optimiser and the proposals may depend on the point and the restart
    for which they are used, and may raise. The acquisition function and the prediction return. *)
From Verif Require Import Base Num MTools MMpi.
From Verif Require MPool.

(** [np.argmin]: the first NaN if there is one, else the first smallest; ValueError if empty. *)
Fixpoint argmin_from (best : nat) (bv : num) (i : nat) (l : list num) : nat :=
  match l with
  | [] => best
  | v :: l' =>
      if isnan bv then best
      else if isnan v || nltb v bv then argmin_from i v (S i) l'
      else argmin_from best bv (S i) l'
  end.
Definition argmin (l : list num) : res nat :=
  match l with [] => Err ValueError | v :: l' => Ok (argmin_from 0 v 1 l') end.

Section Batch.
Context {G pt box : Type}.

Record env := mkEnv {
  e_check : G -> res unit;          (* lines 302-315: ValueError, AttributeError if it cannot be used *)
  e_copy : G -> G;                  (* [deepcopy(gpr)] *)
  e_X_train : G -> list pt;         (* [gpr.X_train] *)
  e_predict : G -> pt -> num;       (* [gpr.predict] of one point *)
  e_append : G -> pt -> num -> res G;  (* [append_to_data(..., fit_gpr=False, fit_classifier=False)] *)
  e_acq : G -> pt -> num;           (* [self.acq_func(X, gpr)] *)
  e_inb : pt -> box -> bool;        (* [is_in_bounds(X, bounds)] *)
  e_fwd : pt -> pt;                 (* [preprocessing_X.transform]; the identity if there is none *)
  e_bwd : pt -> pt;                 (* [preprocessing_X.inverse_transform] *)
  e_fwd_box : box -> box }.         (* [preprocessing_X.transform_bounds] *)

(** The configuration of the acquisition object: [bounds_], their number [n_d], [n_restarts_optimizer] (after
    [get_Xnumber]) and [n_repeats_propose]. *)
Record config := mkConfig { c_bounds : box; c_d : nat; c_restarts : nat; c_repeats : nat }.

(** The outside world. [w_update g b]: [proposer.update(gpr)] and [update_bounds], lines 295-297.
    [w_draw ip i k]: what the proposer returns in try [k] of restart [i] of point [ip].
    [w_opt ip i f x0 b]: [_constrained_optimization(f, x0, b)], lines 502-523, giving a point and a value. *)
Record inputs := mkInputs {
  w_update : G -> box -> res unit;
  w_draw : nat -> nat -> nat -> res pt;
  w_opt : nat -> nat -> (pt -> num) -> pt -> box -> res (pt * num) }.

Variable e : env.
Variable c : config.
Variable w : inputs.

(** The objective function of lines 317-334, which captures the regressor. *)
Definition objective (g : G) : pt -> num := fun x => nneg (e_acq e g (e_bwd e x)).
(** Lines 299-336: [obj_func] is made only if there is none. *)
Definition captured (obj : option G) (g : G) : res G :=
  match obj with Some o => Ok o | None => do _ <- e_check e g; Ok g end.

(** The tries of lines 355-372. Result: the points with a finite value, in order, and the last point tried. *)
Fixpoint tries (g : G) (ip i k n : nat) (acc : list (pt * num)) (last : option (pt * num))
  : res (list (pt * num) * option (pt * num)) :=
  match n with
  | 0 => Ok (acc, last)
  | S n =>
      do x0 <- w_draw w ip i k;
      let value := e_acq e g x0 in
      if isfin value then
        let acc := acc ++ [(x0, value)] in
        if c_repeats c <? length acc then Ok (acc, Some (x0, value))
        else tries g ip i (S k) n acc (Some (x0, value))
      else tries g ip i (S k) n acc (Some (x0, value))
  end.

(** [optimize_acquisition_function(gpr, i, bounds)], lines 270-389. [is_in_bounds(X, None)] in line 347 cannot
    subscript None. [x0] and [value] of lines 388-389 are unbound after no try. *)
Definition optimize (obj : option G) (g : G) (ip i : nat) (b : option box) : res (pt * num) :=
  let ub := match b with Some b => b | None => c_bounds c end in
  do _ <- w_update w g ub;
  do o <- captured obj g;
  let tb := e_fwd_box e ub in
  if i =? 0 then
    match b, rev (e_X_train e g) with
    | _, [] => Err StopIteration
    | None, _ => Err TypeError
    | Some b, X =>
        match find (fun x => e_inb e x b) X with
        | None => Err StopIteration
        | Some x0 => w_opt w ip i (objective o) (e_fwd e x0) tb
        end
    end
  else
    do r <- tries g ip i 0 (10 * c_d c * c_restarts c) [] None;
    match fst r with
    | [] => match snd r with
            | None => Err NameError
            | Some (x0, value) => Ok (e_fwd e x0, nneg value)
            end
    | acc =>
        do j <- MPool.argmax (map snd acc);
        match nth_error acc j with
        | None => Err IndexError
        | Some (x0, _) => w_opt w ip i (objective o) (e_fwd e x0) tb
        end
    end.

(** [multi_add], lines 391-500, in a communicator of [size] processes.
    [share counts r]: the restarts of process [r], lines 443-446. [obj r] is the [obj_func] that process [r] has
    when the point is started; within a point it does not change once set. *)
Definition share (counts : list nat) (r : nat) : list nat :=
  seq (list_sum (firstn r counts)) (nth r counts 0).
Definition rank_outcomes (obj : nat -> option G) (g : G) (ip : nat) (b : box) (counts : list nat) (r : nat)
  : res (list (pt * num)) :=
  mapM (fun i => optimize (obj r) g ip i (Some b)) (share counts r).
Definition outcomes (size : nat) (obj : nat -> option G) (g : G) (ip : nat) (b : box) : res (list (pt * num)) :=
  do counts <- split_number (c_restarts c) size;
  do l <- mapM (rank_outcomes obj g ip b counts) (seq 0 size);
  Ok (concat l).
(** Lines 460-465; index -1 of an empty array is an IndexError. *)
Definition choose (l : list (pt * num)) : res (pt * num) :=
  do p <- (if existsb isfin (map snd l) then argmin (map snd l)
           else if length l =? 0 then Err IndexError else Ok (length l - 1));
  match nth_error l p with None => Err IndexError | Some q => Ok q end.
(** The [obj_func] left behind if a point fails before line 457. *)
Definition left_over (size : nat) (obj : nat -> option G) (g : G) : nat -> option G :=
  fun r => match obj r with
           | Some o => Some o
           | None => match split_number (c_restarts c) size, e_check e g with
                     | Ok counts, Ok _ => if nth r counts 0 =? 0 then None else Some g
                     | _, _ => None
                     end
           end.
(** Lines 449-497. An entry of the result: point, lie, value of the acquisition function. Also returned: the
    [obj_func] of the processes after the call, and the private copy of the regressor. In a communicator of several
    processes an exception in one of them leaves the others waiting; here the call raises. *)
Fixpoint points (size n ip : nat) (obj : nat -> option G) (g : G) (b : box)
  : (nat -> option G) * res (list (pt * num * num) * G) :=
  match n with
  | 0 => (obj, Ok ([], g))
  | S n =>
      match outcomes size obj g ip b with
      | Err x => (left_over size obj g, Err x)
      | Ok l =>
          let obj := fun _ => None in
          match choose l with
          | Err x => (obj, Err x)
          | Ok (x, v) =>
              let x := e_bwd e x in
              let y := e_predict e g x in
              match (if n =? 0 then Ok g else e_append e g x y) with
              | Err x => (obj, Err x)
              | Ok g =>
                  let r := points size n (S ip) obj g b in
                  (fst r, do q <- snd r; Ok ((x, y, nneg v) :: fst q, snd q))
              end
          end
      end
  end.
(** [n_points] that are not of class int, which raise as well, are left out. *)
Definition multi_add (size : nat) (obj : nat -> option G) (g : G) (n_points : Z) (bounds : option box)
  : (nat -> option G) * res (list (pt * num * num) * G) :=
  if (n_points <=? 0)%Z then (obj, Err ValueError)
  else points size (Z.to_nat n_points) 0 obj (e_copy e g)
         (match bounds with Some b => b | None => c_bounds c end).
End Batch.
Arguments env : clear implicits.
Arguments config : clear implicits.
Arguments inputs : clear implicits.

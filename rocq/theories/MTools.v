(** Model of gpry/tools.py: bounds, candidate filter, sample weights, option strings, likelihood
    signatures. Model definitions only. *)
From Coq Require Export String Ascii.
From Coq Require Import DecimalString DecimalNat.
From Verif Require Export Num.

(** ** numpy arrays of at most two dimensions *)
(** A two-dimensional array: [nc] columns, one list per row ([wf_mat]: each of length [nc]). *)
Record mat := mkMat { nc : nat; rows : list (list num) }.
Definition wf_mat (m : mat) : Prop := Forall (fun r => length r = nc m) (rows m).
Inductive arr := Scalar (x : num) | Vec (v : list num) | Mat (m : mat).
Definition wf_arr (a : arr) : Prop := match a with Mat m => wf_mat m | _ => True end.

(** [np.atleast_2d] *)
Definition atleast_2d (a : arr) : mat :=
  match a with
  | Scalar x => mkMat 1 [[x]]
  | Vec v => mkMat (length v) [v]
  | Mat m => m
  end.
(** [m[:, j]] *)
Definition col (m : mat) (j : nat) : res (list num) :=
  if j <? nc m then Ok (map (fun r => nth j r NaN) (rows m)) else Err IndexError.

(** Row of length [d] against a vector of length [m]: numpy broadcasting (length 1 stretches,
    other mismatches raise ValueError). *)
Definition bcast2 {A B} (f : num -> A -> B) (r : list num) (v : list A) : res (list B) :=
  if length r =? length v then Ok (map (fun p => f (fst p) (snd p)) (combine r v))
  else match r, v with
       | _, [b] => Ok (map (fun x => f x b) r)
       | [x], _ => Ok (map (fun b => f x b) v)
       | _, _ => Err ValueError
       end.

Fixpoint mapM {A B} (f : A -> res B) (l : list A) : res (list B) :=
  match l with
  | [] => Ok []
  | x :: l' => do y <- f x; do ys <- mapM f l'; Ok (y :: ys)
  end.

(** ** Bounds *)
(** gpry/tools.py:292-305 [check_and_return_bounds] (ragged inputs, which numpy rejects with
    ValueError, are not representable here). *)
Definition check_and_return_bounds (b : arr) : res mat :=
  let b' := atleast_2d b in
  if nc b' =? 2 then Ok b' else Err TypeError.

(** gpry/tools.py:263-289 [is_in_bounds]. Without [check_shape] the bounds must already be
    two-dimensional ([bounds[:, 0]] of a vector raises IndexError). The shapes of all rows are
    equal, so comparing row by row raises exactly when numpy does, except for 0 points. *)
Definition is_in_bounds (points bounds : arr) (check_shape : bool) : res (list bool) :=
  let pts := atleast_2d points in
  do b <- (if check_shape then
             do b <- check_and_return_bounds bounds;
             if length (rows b) =? nc pts then Ok b else Err ValueError
           else match bounds with Mat b => Ok b | _ => Err IndexError end);
  do lo <- col b 0;
  do hi <- col b 1;
  mapM (fun r => do m <- bcast2 (fun x lh => nleb (fst lh) x && nleb x (snd lh)) r (combine lo hi);
                 Ok (forallb (fun b => b) m)) (rows pts).

(** [np.array([a, b]).max(axis=0)] and min, per entry: NaN propagates. *)
(** gpry/tools.py:308-361 [shrink_bounds]. [samples.min(axis=0)] of no samples raises
    ValueError. *)
Definition shrink_dim (factor : num) (bound : num * num) (s : num) (ss : list num) : num * num :=
  let lo := npmin s ss in
  let hi := npmax s ss in
  let width := nsub hi lo in
  let Delta := nmul (ndiv (nsub factor (nz 1)) (nz 2)) width in
  (npmax2 (nsub lo Delta) (fst bound), npmin2 (nadd hi Delta) (snd bound)).
Definition column (m : mat) (j : nat) : list num := map (fun r => nth j r NaN) (rows m).
Definition shrink_bounds (bounds samples : arr) (factor : num) : res (list (num * num)) :=
  do b <- check_and_return_bounds bounds;
  let s := atleast_2d samples in
  if negb (length (rows b) =? nc s) then Err TypeError
  else match rows s with
       | [] => Err ValueError
       | _ => Ok (map (fun j =>
                match column s j with
                | [] => (NaN, NaN)
                | x :: xs => shrink_dim factor (nth j (column b 0) NaN, nth j (column b 1) NaN) x xs
                end) (seq 0 (nc s)))
       end.

(** ** Candidate filter, gpry/tools.py:237-260 *)
Definition rowb (r k : list num) : bool :=
  (length r =? length k) && forallb (fun p => neqb (fst p) (snd p)) (combine r k).
Definition count (r : list num) (l : list (list num)) : nat := length (filter (rowb r) l).
Fixpoint first_index (r : list num) (l : list (list num)) : nat :=
  match l with [] => 0 | k :: l' => if rowb r k then 0 else S (first_index r l') end.
(** [rnd] is [np.round(., decimals)], [transform] the (possibly absent) preprocessor of the
    surrogate. [np.unique(axis=0)] with return_index/return_counts gives each distinct row, the
    index of its first occurrence and its number of occurrences; a row with a NaN equals
    nothing. Line 257 tests membership number by number, line 258 clears the first
    occurrences. *)
Definition check_candidates (rnd : num -> num) (transform : option (list num -> list num))
    (X_train new_X : list (list num)) : list bool * list bool :=
  let new_X := match transform with Some f => map f new_X | None => new_X end in
  let new_r := map (map rnd) new_X in
  let train_r := map (map rnd) X_train in
  let in_training := map (fun r => existsb (fun t => rowb t r) train_r) new_r in
  let dup_values := concat (filter (fun r => 1 <? count r new_r) new_r) in
  let duplicates := map (fun i =>
      let r := nth i new_r [] in
      forallb (fun v => existsb (fun w => neqb v w) dup_values) r
      && negb ((1 <? count r new_r) && (first_index r new_r =? i)))
    (seq 0 (length new_r)) in
  (in_training, duplicates).

(** What the main loop keeps: gpry/run.py:848, 863, 877
    [new_X[np.logical_not(np.logical_or(in_training_set, duplicates))]]. *)
Definition accepted_candidates (rnd : num -> num) (transform : option (list num -> list num))
    (X_train new_X : list (list num)) : list (list num) :=
  let '(t, d) := check_candidates rnd transform X_train new_X in
  mask (map (fun p => negb (fst p || snd p)) (combine t d)) new_X.

(** ** Weights, gpry/tools.py:400-418 [remove_0_weight_samples] *)
Definition remove_0_weight_samples {A} (weights : list num) (arrays : list (option (list A)))
    : res (list num * list (option (list A))) :=
  let keep := map (fun w => negb (neqb w (nz 0))) weights in
  do arrs <- mapM (fun a =>
      match a with
      | None => Ok None
      | Some l => if length l =? length weights then Ok (Some (mask keep l)) else Err ValueError
      end) arrays;
  Ok (mask keep weights, arrs).

(** ** Option strings, gpry/tools.py:185-234 [get_Xnumber] *)
Inductive pyvalue := PStr (s : string) | PNum (x : num) | POther.
Definition str_of_ascii (c : ascii) : string := String c EmptyString.
Definition not_allowed : list ascii :=
  [" "; "."; "-"; "+"; "e"; "E"; ","; ";"]%char.
Fixpoint has_char (c : ascii) (s : string) : bool :=
  match s with EmptyString => false | String a s' => Ascii.eqb c a || has_char c s' end.
(** [s.split(c)] for a one-character separator. *)
Fixpoint split_char (c : ascii) (s : string) : list string :=
  match s with
  | EmptyString => [EmptyString]
  | String a s' =>
      if Ascii.eqb c a then EmptyString :: split_char c s'
      else match split_char c s' with
           | [] => [String a EmptyString]
           | w :: r => String a w :: r
           end
  end.
Section Xnumber.
(** [pyfloat] is Python's [float(str)] (None: ValueError), [pow] its [**], [dtype] the call
    [dtype(x)] of the requested type. The letter is one character, as in all the callers. *)
Variable pyfloat : string -> option num.
Variable pow : num -> num -> num.
Variable V : Type.
Variable dtype : num -> res V.
Definition to_float (v : pyvalue) : res num :=
  match v with
  | PNum x => Ok x
  | PStr s => match pyfloat s with Some x => Ok x | None => Err ValueError end
  | POther => Err TypeError
  end.
(** The [try]/[except (ValueError, TypeError)] of lines 212-234. *)
Definition as_value_error {A} (r : res A) : res A :=
  match r with
  | Err TypeError => Err ValueError
  | r => r
  end.
(** Lines 199-211: the number, whether the letter is there, and the power. *)
Definition split_X (value : pyvalue) (letter : ascii) : res (pyvalue * bool * option string) :=
  let value := match value with
               | PStr s => if String.eqb s (str_of_ascii letter)
                           then PStr (String.append "1" (str_of_ascii letter)) else PStr s
               | v => v end in
  match value with
  | PStr s =>
      if has_char letter s then
        match split_char letter s with
        | [n; p] => Ok ((match n with EmptyString => PNum (nz 1) | _ => PStr n end), true,
                        match p with EmptyString => None | _ => Some p end)
        | _ => Err ValueError                      (* unpacking, outside the [try] *)
        end
      else Ok (value, false, None)
  | _ => Ok (value, false, None)
  end.
Definition get_Xnumber (value : pyvalue) (letter : ascii) (X_value : num) : res V :=
  if existsb (Ascii.eqb letter) not_allowed then Err ValueError
  else
    do (n, has_X, power) <- split_X value letter;
    as_value_error
      (do x <- to_float n;
       do m <- (if has_X : bool then
                  match power with
                  | Some p => do e <- to_float (PStr p); Ok (pow X_value e)
                  | None => Ok X_value
                  end
                else Ok (nz 1));
       dtype (nmul x m)).
(** The case [X_value is None], lines 215-220. *)
Definition get_Xnumber_parts (value : pyvalue) (letter : ascii) : res (V * bool * option num) :=
  if existsb (Ascii.eqb letter) not_allowed then Err ValueError
  else
    do (n, has_X, power) <- split_X value letter;
    as_value_error
      (do x <- to_float n;
       do v <- dtype x;
       do e <- match power with
               | Some p => do e <- to_float (PStr p); Ok (Some e)
               | None => Ok None
               end;
       Ok (v, has_X, e)).
End Xnumber.

(** ** Parameter names, gpry/tools.py:147-161 [generic_params_names], for a positive integer. *)
Definition str_of_nat (n : nat) : string := NilEmpty.string_of_uint (Nat.to_uint n).
Definition generic_params_names (n : nat) (prefix : string) : res (list string) :=
  if n =? 0 then Err TypeError
  else Ok (map (fun i => String.append prefix (str_of_nat (i + 1))) (seq 0 n)).

(** ** Likelihood signatures *)
(** Python callables, as far as GPry looks at them: the kinds and defaults of the parameters
    ([inspect.signature]) and what a call with positional arguments gives. [uid] identifies the
    function the user wrote. *)
Inductive kind := PosOnly | PosOrKw | VarPos | KwOnly | VarKw.
Definition param := (kind * bool)%type.   (* kind, has a default *)
Inductive obj := ONum (x : num) | OVec (v : list num).
Record fn := mkFn { sig : list param; body : list obj -> res num }.
Definition is_positional (p : param) : bool :=
  match fst p with PosOnly | PosOrKw => true | _ => false end.
Definition is_kwonly (p : param) : bool := match fst p with KwOnly => true | _ => false end.
Definition has_varpos (s : list param) : bool :=
  existsb (fun p => match fst p with VarPos => true | _ => false end) s.
Definition has_varkw (s : list param) : bool :=
  existsb (fun p => match fst p with VarKw => true | _ => false end) s.
(** A call [f( *args )]: TypeError unless the number of arguments fits and no keyword-only
    parameter is left without a value. *)
Definition fits (s : list param) (n : nat) : bool :=
  (length (filter (fun p => is_positional p && negb (snd p)) s) <=? n)
  && (has_varpos s || (n <=? length (filter is_positional s)))
  && negb (existsb (fun p => is_kwonly p && negb (snd p)) s).
Definition call (f : fn) (args : list obj) : res num :=
  if fits (sig f) (length args) then body f args else Err TypeError.
(** [*X]: iterating over a number raises TypeError. *)
Definition star (X : obj) : res (list obj) :=
  match X with OVec v => Ok (map ONum v) | ONum _ => Err TypeError end.
(** The closure of lines 388-389. *)
Definition wrapped (f : fn) : fn :=
  mkFn [(PosOrKw, false)]
       (fun args => match args with
                    | [X] => do a <- star X; call f a
                    | _ => Err TypeError
                    end).
(** gpry/tools.py:363-397 [wrap_likelihood]. *)
Definition wrap_likelihood (f : fn) (ndim : nat) : res fn :=
  let n_args := length (filter is_positional (sig f)) in
  let n_all := n_args + length (filter is_kwonly (sig f)) in
  if (n_args =? ndim) || (n_all =? ndim) then Ok (wrapped f)
  else if (n_args =? 1) && negb (has_varpos (sig f)) && negb (has_varkw (sig f)) then Ok f
  else Err ValueError.

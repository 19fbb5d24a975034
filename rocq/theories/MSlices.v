(** Model of the slices of a function, gpry/plots.py:49-162, over the real numbers. Definitions only. *)
From Verif Require Export MTools.
From Coq Require Export Reals.
Open Scope R_scope.

(** [l[i] = v] for an index in range *)
Fixpoint set_at (i : nat) (v : R) (l : list R) : list R :=
  match l, i with
  | [], _ => []
  | _ :: l, 0%nat => v :: l
  | x :: l, S i => x :: set_at i v l
  end.
(** An index of Python: negative ones count from the end. *)
Definition py_index (len : nat) (i : Z) : res nat :=
  if (Z.leb 0 i && Z.ltb i (Z.of_nat len))%bool then Ok (Z.to_nat i)
  else if (Z.ltb i 0 && Z.leb 0 (i + Z.of_nat len))%bool then Ok (Z.to_nat (i + Z.of_nat len))
  else Err IndexError.
(** [np.linspace(a, b, n)], [n > 1] *)
Definition linspace (a b : R) (n : nat) : list R :=
  map (fun k => if Nat.eqb (k + 1) n then b else a + INR k * ((b - a) / INR (n - 1))) (seq 0 n).
(** [param_samples_for_slices], :49-61, for one point [x]. *)
Definition slice (x : list R) (i : Z) (bounds : R * R) (n : nat) : res (list (list R)) :=
  do j <- py_index (length x) i;
  Ok (map (fun v => set_at j v x) (linspace (fst bounds) (snd bounds) n)).

(** What can be given: the fiducial point, the bounds, the indices. *)
Inductive fiducial := FList (l : list R) | FDict (m : list (string * R)).
Inductive bounds := BList (l : list (R * R)) | BDict (m : list (string * (R * R))).
Inductive index := IInt (i : Z) | IName (s : string) | IOther.

Section Slices.
(** Values, NaN, and what the function does when called with positional arguments. *)
Context {Y : Type}.
Variable nan : Y.
Variable func : list R -> res Y.

(** :139-161, one point: TypeError is raised again, other exceptions give NaN. *)
Definition value (x : list R) : res Y :=
  match func x with
  | Ok y => Ok y
  | Err TypeError => Err TypeError
  | Err _ => Ok nan
  end.
(** One slice. *)
Definition one_slice (x : list R) (b : list (R * R)) (n : nat) (i : Z) : res (list (list R) * list Y) :=
  do k <- py_index (length b) i;
  do X <- slice x i (nth k b (0, 0)) n;
  do y <- mapM value X;
  Ok (X, y).
Definition as_int (dim : nat) (i : index) : res Z :=
  match i with IInt i => if Z.ltb i (Z.of_nat dim) then Ok i else Err ValueError | _ => Err ValueError end.
(** [l.index(v)] for a list of numbers: names are not found in it. *)
Fixpoint find_number (v : R) (l : list R) : option nat :=
  match l with [] => None | x :: l => if Req_EM_T v x then Some 0%nat else option_map S (find_number v l) end.
(** [prepare_slices_func], :64-162. [n]: None if it is not an integer. The result: indices, names, points and values. *)
Definition prepare_slices_func (x : fiducial) (b : bounds) (indices : option (list index)) (n : option Z) :
    res (list Z * list string * list (list (list R) * list Y)) :=
  match x with
  | FDict m =>
      (** :101-102: [X_fiducial] is replaced by the array of its values before the names are taken from it, so the names are numbers. *)
      let params := map snd m in
      do i <- match indices with
              | None => match mapM (fun p => match find_number p params with Some k => Ok (Z.of_nat k) | None => Err ValueError end) params with Ok i => Ok i | Err _ => Err ValueError end
              | Some l => mapM (fun _ => Err ValueError) l
              end;
      match params with
      | [] => match n with Some z => if Z.ltb z 2 then Err ValueError else Ok (i, [], []) | None => Err ValueError end
      | _ => match b with BDict _ => Err KeyError | BList _ => Err ValueError end
      end
  | FList l =>
      let dim := length l in
      do params <- generic_params_names dim "x_";
      do i <- match indices with
              | None => Ok (map Z.of_nat (seq 0 dim))
              | Some is => mapM (as_int dim) is
              end;
      if Nat.ltb (match b with BList b => length b | BDict m => length m end) dim then Err ValueError
      else
        match n with
        | None => Err ValueError
        | Some z =>
            if Z.ltb z 2 then Err ValueError
            else
              do s <- match b with BList b => mapM (one_slice l b (Z.to_nat z)) i | BDict _ => mapM (fun _ => Err KeyError) i end;
              do names <- mapM (fun i => do k <- py_index dim i; Ok (nth k params ""%string)) i;
              Ok (i, names, s)
        end
  end.
End Slices.

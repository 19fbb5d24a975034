(** Model of the data behind plots, gpry/plots.py: references (:747-812), the histogram of distances (:958-1037), the training points of triangle
    plots (:556-676). Over the real numbers. Definitions only. *)
From Verif Require Export MTools.
From Coq Require Export Reals.
Open Scope R_scope.

(** ** References *)
(** A number, a sequence, or something without [len], e.g. None. *)
Inductive refval := RNumber (x : R) | RSeq (l : list (option R)) | RNone.
Notation refdict := (list (string * refval)).
Fixpoint get (k : string) (m : refdict) : option refval :=
  match m with [] => None | (k', v) :: m => if String.eqb k k' then Some v else get k m end.
Fixpoint set (k : string) (v : refval) (m : refdict) : refdict :=
  match m with
  | [] => [(k, v)]
  | (k', v') :: m => if String.eqb k k' then (k', v) :: m else (k', v') :: set k v m
  end.
(** :795-811: the loop over the parameters; it changes the dictionary, also if it raises. *)
Fixpoint complete (params : list string) (m : refdict) : refdict * res unit :=
  match params with
  | [] => (m, Ok tt)
  | p :: params =>
      let m := match get p m with Some _ => m | None => set p (RSeq (repeat None 5)) m end in
      match get p m with
      | Some RNone | None => (m, Err TypeError)
      | Some v =>
          let l := match v with RSeq l => l | RNumber x => [Some x] | RNone => [] end in
          if Nat.eqb (length l) 1 then complete params (set p (RSeq ([None; None] ++ l ++ [None; None])) m)
          else if Nat.eqb (length l) 5 then complete params m
          else (m, Err ValueError)
      end
  end.
(** GetDist samples: for each parameter its mean and limits (68%, 95%, ...). *)
Inductive reference := RefList (l : list refval) | RefDict (m : refdict) | RefSamples (s : string -> option (R * list (R * R))).
(** :764-787: the dictionary made from samples. A parameter that is not there: [parWithName] returns None, and [None.name] raises. *)
Fixpoint of_samples (s : string -> option (R * list (R * R))) (params : list string) : res refdict :=
  match params with
  | [] => Ok []
  | p :: params =>
      match s p with
      | None => Err AttributeError
      | Some (mean, (lo68, hi68) :: (lo95, hi95) :: _) => do m <- of_samples s params; Ok (set p (RSeq [Some lo95; Some lo68; Some mean; Some hi68; Some hi95]) m)
      | Some _ => Err IndexError
      end
  end.
(** [_prepare_reference], :747-812. The first result: the reference of the caller afterwards. *)
Definition prepare_reference (getdist : bool) (params : list string) (r : reference) : reference * res (option refdict) :=
  if negb getdist then (r, Ok None)    (** :788-789 *)
  else
    match r with
    | RefDict m => let (m', u) := complete params m in (RefDict m', do _ <- u; Ok (Some m'))
    | RefList l =>
        if Nat.eqb (length l) (length params) then let (m', u) := complete params (combine params l) in (r, do _ <- u; Ok (Some m'))
        else (r, Err ValueError)
    | RefSamples s =>
        (r, do m <- of_samples s params; let (m', u) := complete params m in do _ <- u; Ok (Some m'))
    end.

(** ** The histogram of distances *)
(** [np.floor], [np.ceil] *)
Definition floor (x : R) : Z := Int_part x.
Definition ceil (x : R) : Z := (- Int_part (- x))%Z.
(** [np.max] of a non-empty list. *)
Fixpoint largest (l : list R) : R := match l with [] => 0 | [x] => x | x :: l => Rmax x (largest l) end.
Section Histogram.
(** [scipy.special.gamma] *)
Variable gamma : R -> R.
(** tools.py:129-131. *)
Definition volume_sphere (r : R) (dim : nat) : R := Rpower PI (INR dim / 2) / gamma (INR dim / 2 + 1) * r ^ dim.
(** :992: the number of bins: [0, 1), [1, 2), ..., the last with its upper end. *)
Definition n_bins (radii : list R) : nat := Z.to_nat (ceil (largest radii)).
Definition in_bin (n k : nat) (r : R) : bool :=
  if Rle_dec (INR k) r then if Rlt_dec r (INR k + 1) then true else if Nat.eqb (k + 1) n then if Req_EM_T r (INR n) then true else false else false else false.
(** :994-1001: the volumes of the shells and the weights. *)
Definition volumes (dim n : nat) : list R := map (fun k => volume_sphere (INR (k + 1)) dim - volume_sphere (INR k) dim) (seq 0 n).
Fixpoint look_up (vols : list R) (radii : list R) : res (list R) :=
  match radii with
  | [] => Ok []
  | r :: radii => match nth_error vols (Z.to_nat (floor r)) with
                  | None => Err IndexError
                  | Some v => do w <- look_up vols radii; Ok (1 / v :: w)
                  end
  end.
Definition weights (dim : nat) (density : bool) (radii : list R) : res (list R) :=
  if density then look_up (volumes dim (n_bins radii)) radii else Ok (map (fun _ => 1) radii).
(** [ax.hist], the heights of the bins, of stacked points as of points that are not. *)
Definition heights (dim : nat) (density : bool) (radii : list R) : res (list R) :=
  do w <- weights dim density radii;
  Ok (map (fun k => fold_right Rplus 0 (map snd (filter (fun p => in_bin (n_bins radii) k (fst p)) (combine radii w)))) (seq 0 (n_bins radii))).
End Histogram.

(** ** Training points in a triangle plot *)
(** :607-617, for two or more parameters and a range for each: the points [(mini < x) or (x < maxi)], parameter after parameter, with what belongs to them. *)
Definition keep {A} (i : nat) (range : R * R) (X : list (list R * A)) : list (list R * A) :=
  filter (fun p => (if Rlt_dec (fst range) (nth i (fst p) 0) then true else false) || (if Rlt_dec (nth i (fst p) 0) (snd range) then true else false))%bool X.
Fixpoint kept {A} (i : nat) (ranges : list (R * R)) (X : list (list R * A)) : list (list R * A) :=
  match ranges with [] => X | b :: ranges => kept (S i) ranges (keep i b X) end.
(** What is drawn: crosses, and points with the limits of the colours (:632-640); None: nothing at all (:629-630). *)
Definition add_training (ranges : list (R * R)) (X : list (list R)) (y : list R) (X_inf : list (list R)) :
    option (list (list R) * list (list R * R) * option (R * R)) :=
  let fin := kept 0 ranges (combine X y) in
  let inf := map fst (kept 0 ranges (map (fun x => (x, tt)) X_inf)) in
  match fin, inf with
  | [], [] => None
  | _, _ => Some (inf, fin, match fin with [] => None | _ => Some (- largest (map (fun p => - snd p) fin), largest (map snd fin)) end)
  end.

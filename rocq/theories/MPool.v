(** Model of RankedPool (gpry/gp_acquisition.py:1194-1670): the Kriging-believer ranked pool of
    proposals. Model definitions only.

    The surrogate enters through [std C x]: the predicted standard deviation at [x] of a copy of
    the surrogate to which the points [C] (location, believed value), in order, have been
    appended without refitting hyperparameters (cache_model, lines 1550-1553), and [mean x], the
    mean prediction of the surrogate itself. The acquisition function is [acqf y sigma], applied
    entry by entry to arrays. np.argsort leaves the order of ties open: it is a parameter.
    Logging and verbosity are not modelled. *)
From Verif Require Export MMpi.

(** A location in parameter space. Nothing in the pool looks inside it. *)
Section Pool.
Variable pt : Type.
Variable std : list (pt * num) -> pt -> num.
Variable mean : pt -> num.
Variable acqf : num -> num -> num.
Variable argsort : list num -> list nat.

(** Attributes of RankedPool, lines 1222-1232. Each array has one entry more than the pool
    size; [gcond i] is [gpr_cond[i]], None or the list of the points the cached copy has been
    augmented with. *)
Record pool := mkPool {
  pX : list pt; py : list num; psig : list num; pacq : list num; pacqc : list num;
  gcond : list (option (list (pt * num)));
  counter : nat }.

(** [RankedPool.__init__], lines 1217-1232. [x0] is the zero vector of np.zeros. *)
Definition new_pool (x0 : pt) (size : nat) : pool :=
  mkPool (repeat x0 (S size)) (repeat (Fin 0) (S size)) (repeat (Fin 0) (S size))
         (repeat (Fin 0) (S size)) (repeat NInf (S size)) (repeat None (S size)) 0.

(** [__len__], line 1235. *)
Definition plen (p : pool) : nat := length (py p) - 1.

(** [min_acq], line 1247. For size 0 the index -1 is the only element, index 0. *)
Definition min_acq (p : pool) : res num :=
  match nth_error (pacqc p) (plen p - 1) with Some a => Ok a | None => Err IndexError end.

(** numpy helpers. [l[i] = v] and fancy indexing [l[idx]] with IndexError, slice assignment with
    ValueError on a length mismatch, first index satisfying a condition (StopIteration = None). *)
Definition get {A} (l : list A) (i : nat) : res A :=
  match nth_error l i with Some a => Ok a | None => Err IndexError end.
Fixpoint upd {A} (l : list A) (i : nat) (v : A) : list A :=
  match l, i with
  | [], _ => []
  | _ :: l', 0 => v :: l'
  | x :: l', S i' => x :: upd l' i' v
  end.
Definition set {A} (l : list A) (i : nat) (v : A) : res (list A) :=
  if i <? length l then Ok (upd l i v) else Err IndexError.
Fixpoint take {A} (l : list A) (idx : list nat) : res (list A) :=
  match idx with
  | [] => Ok []
  | i :: idx' => do a <- get l i; do r <- take l idx'; Ok (a :: r)
  end.
Definition set_slice {A} (l : list A) (a b : nat) (v : list A) : res (list A) :=
  if length v =? length (slice a b l) then Ok (firstn a l ++ v ++ skipn b l) else Err ValueError.
Fixpoint find_idx {A} (f : A -> bool) (l : list A) : option nat :=
  match l with
  | [] => None
  | x :: l' => if f x then Some 0 else option_map S (find_idx f l')
  end.
Definition is_ninf (x : num) : bool := neqb x NInf.
Fixpoint map2 {A B C} (f : A -> B -> C) (l : list A) (k : list B) : list C :=
  match l, k with
  | a :: l', b :: k' => f a b :: map2 f l' k'
  | _, _ => []
  end.

(** The points above position [i], with their believed values: [self.X[:i], self.y[:i]]. *)
Definition points_above (p : pool) (i : nat) : list (pt * num) :=
  combine (firstn i (pX p)) (firstn i (py p)).

(** [cache_model(i - 1)], lines 1522-1555; [i = 0] is the case [i - 1 < 0], which returns the
    original surrogate and caches nothing. *)
Definition cache_model_above (p : pool) (i : nat) : res (list (pt * num) * pool) :=
  match i with
  | 0 => Ok ([], p)
  | S k =>
      let m := points_above p (S k) in
      do g <- set (gcond p) k (Some m);
      Ok (m, mkPool (pX p) (py p) (psig p) (pacq p) (pacqc p) g (S (counter p)))
  end.

(** [sort(i_start)], lines 1598-1670. [k] is [len(self) - i_start], the number of positions from
    [i_start] to the last one (the recursion of line 1670 increases [i_start] by one, and line
    1612 stops it when none is left). *)
Fixpoint sort_ (k i : nat) (p : pool) : res pool :=
  match k with
  | 0 => Ok p                                                       (* 1612-1616 *)
  | S k' =>
      do (m, p) <- cache_model_above p i;                           (* 1621 *)
      do a <- get (pacqc p) i;
      if is_ninf a then Ok p                                        (* 1623-1625 *)
      else
        let b := match find_idx is_ninf (pacqc p) with              (* 1627-1630 *)
                 | Some j => j | None => plen p + 1 end in
        let sigma_cond := map (std m) (slice i b (pX p)) in         (* 1631 *)
        do ub <- (match i with 0 => Ok PInf | S h => get (pacqc p) h end);
        let acq_cond := map (fun v => npmin2 v ub)                  (* 1635-1638 *)
                            (map2 acqf (slice i b (py p)) sigma_cond) in
        let j_sort := argsort (map nneg acq_cond) in                (* 1642 *)
        do j0 <- get j_sort 0;
        do amax <- get acq_cond j0;                                 (* 1643 *)
        if is_ninf amax then                                        (* 1645-1651 *)
          do ac <- set_slice (pacqc p) i b (repeat NInf (length (slice i b (pacqc p))));
          Ok (mkPool (pX p) (py p) (psig p) (pacq p) ac (gcond p) (counter p))
        else
          let idx := map (fun j => i + j) j_sort in                 (* 1658 *)
          do X' <- (do v <- take (pX p) idx; set_slice (pX p) i b v);
          do y' <- (do v <- take (py p) idx; set_slice (py p) i b v);
          do s' <- (do v <- take (psig p) idx; set_slice (psig p) i b v);
          do a' <- (do v <- take (pacq p) idx; set_slice (pacq p) i b v);
          do c' <- (do v <- take acq_cond j_sort; set_slice (pacqc p) i b v);  (* 1665 *)
          sort_ k' (S i) (mkPool X' y' s' a' c' (gcond p) (counter p))
  end.
Definition sort (i : nat) (p : pool) : res pool := sort_ (plen p - i) i p.

(** Lines 1470-1474: walk from the bottom (position len-1) to the top, stop at the first slot
    whose conditioned acquisition is not below [a]; the position is the one just below it. *)
Definition position (p : pool) (a : num) : nat :=
  match find_idx (fun c => nleb a c) (rev (firstn (plen p) (pacqc p))) with
  | Some i => plen p - i
  | None => 0
  end.

(** The loop of lines 1464-1494. Returns the final position and conditioned acquisition. *)
Fixpoint rerank (fuel : nat) (p : pool) (x : pt) (y : num) (acq_cond : num) (i_last : nat)
    : res (nat * num) :=
  match fuel with
  | 0 => Err OutOfFuel
  | S fuel' =>
      let i_new := position p acq_cond in
      if (i_new =? 0) || (i_new =? i_last) || (i_new =? plen p) then Ok (i_new, acq_cond)
      else
        do g <- get (gcond p) (i_new - 1);
        match g with
        | None => Err AttributeError                       (* None.predict_std *)
        | Some m => rerank fuel' p x y (pymin acq_cond (acqf y (std m x))) i_new
        end
  end.

(** Lines 1507-1508: [pool[i+1:] = pool[i:-1]; pool[i] = v]. *)
Definition insert_shift {A} (i : nat) (v : A) (l : list A) : list A :=
  firstn i l ++ v :: removelast (skipn i l).

(** [add_one], lines 1392-1520, after its optional arguments have been filled in. *)
Definition add_one_core (p : pool) (x : pt) (y sigma acq : num) (nan_is_null : bool) : res pool :=
  do mn <- min_acq p;
  if nleb acq mn then Ok p                                            (* 1432, 1450 *)
  else if isnan acq && negb nan_is_null then Err ValueError           (* 1453-1455 *)
  else
    let acq := if isnan acq then NInf else acq in                     (* 1456 *)
    do (i_new, acq_cond) <- rerank (S (plen p)) p x y acq (plen p);
    if plen p <=? i_new then Ok p                                     (* 1496 *)
    else
      let p1 := mkPool (insert_shift i_new x (pX p)) (insert_shift i_new y (py p))
                       (insert_shift i_new sigma (psig p)) (insert_shift i_new acq (pacq p))
                       (insert_shift i_new acq_cond (pacqc p)) (gcond p) (counter p) in
      do a <- get (pacqc p1) i_new;
      if negb (nltb NInf a) then Err AssertionError                   (* 1511 *)
      else
        do p2 <- sort (S i_new) p1;                                   (* 1515 *)
        do ac <- set (pacqc p2) (length (pacqc p2) - 1) NInf;         (* 1520 *)
        Ok (mkPool (pX p2) (py p2) (psig p2) (pacq p2) ac (gcond p2) (counter p2)).

(** [add_one] with its optional arguments, lines 1432-1444. Comparing [None <= float] raises. *)
Definition add_one (p : pool) (x : pt) (y sigma acq : option num) (nan_is_null : bool) : res pool :=
  match acq with
  | None => Err TypeError
  | Some a =>
      do mn <- min_acq p;
      if nleb a mn then Ok p
      else
        let '(yv, sv) :=
          match y, sigma with
          | None, _ => (mean x, std [] x)
          | Some y', None => (y', std [] x)
          | Some y', Some s' => (y', s')
          end in
        add_one_core p x yv sv a nan_is_null
  end.

(** [np.argmax]: the first NaN if there is one, else the first largest; ValueError if empty. *)
Fixpoint argmax_from (best : nat) (bv : num) (i : nat) (l : list num) : nat :=
  match l with
  | [] => best
  | v :: l' =>
      if isnan bv then best
      else if isnan v || nltb bv v then argmax_from i v (S i) l'
      else argmax_from best bv (S i) l'
  end.
Definition argmax (l : list num) : res nat :=
  match l with [] => Err ValueError | v :: l' => Ok (argmax_from 0 v 1 l') end.

(** numpy boolean indexing: IndexError if the mask has another length. *)
Definition bmask {A} (m : list bool) (l : list A) : res (list A) :=
  if length m =? length l then Ok (mask m l) else Err IndexError.

(** [add_bulk], lines 1337-1390. Every recursive call has fewer candidates, so the number of
    candidates plus one is enough fuel. Line 1367 compares with +inf (sic). *)
Fixpoint add_bulk (fuel : nat) (p : pool) (X : list pt) (y sigma acq : list num) (i : nat)
    : res pool :=
  match fuel with
  | 0 => Err OutOfFuel
  | S fuel' =>
      do (m, p) <- cache_model_above p i;
      let acq_cond := match i with 0 => acq | S _ => map2 acqf y (map (std m) X) end in
      match acq_cond with
      | [] => Ok p                                                   (* 1358 *)
      | _ :: _ =>
          do im <- argmax acq_cond;
          do am <- get acq_cond im;
          if neqb am PInf then Ok p                                  (* 1367 *)
          else
            do x1 <- get X im; do X' <- set (pX p) i x1;
            do y1 <- get y im; do y' <- set (py p) i y1;
            do s1 <- get sigma im; do s' <- set (psig p) i s1;
            do a1 <- get acq im; do a' <- set (pacq p) i a1;
            do c' <- set (pacqc p) i am;
            let p' := mkPool X' y' s' a' c' (gcond p) (counter p) in
            if S i =? plen p' then Ok p'                             (* 1378 *)
            else
              let keep := upd (map (fun c => negb (is_ninf c)) acq_cond) im false in
              do X2 <- bmask keep X; do y2 <- bmask keep y;
              do s2 <- bmask keep sigma; do a2 <- bmask keep acq;
              add_bulk fuel' p' X2 y2 s2 a2 (S i)
      end
  end.

(** The [method] string of [add], lines 1323-1335, by what it is recognised as: "bulk",
    "single...", "single... sort ... acq", "... y", "single ... sort ... other", other. *)
Inductive method := Bulk | Single | SortAcq | SortY | SortOther | Unknown.

Fixpoint add_each (p : pool) (X : list pt) (y sigma acq : list num) (idx : list nat) : res pool :=
  match idx with
  | [] => Ok p
  | i :: idx' =>
      do x <- get X i; do yi <- get y i; do si <- get sigma i; do ai <- get acq i;
      do p' <- add_one p x (Some yi) (Some si) (Some ai) false;
      add_each p' X y sigma acq idx'
  end.

(** [add], lines 1290-1335. *)
Definition add (p : pool) (X : list pt) (y sigma acq : option (list num)) (meth : method)
    : res pool :=
  let '(y, sigma) :=
    match y, sigma with
    | None, _ => (map mean X, map (std []) X)
    | Some y', None => (y', map (std []) X)
    | Some y', Some s' => (y', s')
    end in
  let acq := match acq with None => map2 acqf y sigma | Some a => a end in
  match meth with
  | Bulk => add_bulk (S (length acq)) p X y sigma acq 0
  | Single => add_each p X y sigma acq (seq 0 (length X))
  | SortAcq => add_each p X y sigma acq (rev (argsort acq))
  | SortY => add_each p X y sigma acq (rev (argsort y))
  | SortOther => Err KeyError
  | Unknown => Err ValueError
  end.

(** [copy(drop_empty)], lines 1575-1596: the arrays of the copy (the surrogate, acquisition
    function and cache are not copied, lines 1568-1573). *)
Definition copy_pool (p : pool) (drop_empty : bool) : pool :=
  let bare := mkPool (pX p) (py p) (psig p) (pacq p) (pacqc p) [] (counter p) in
  if drop_empty then
    match find_idx is_ninf (removelast (pacqc p)) with
    | None => bare
    | Some i => mkPool (firstn i (pX p)) (firstn i (py p)) (firstn i (psig p))
                       (firstn i (pacq p)) (firstn i (pacqc p)) [] (counter p)
    end
  else bare.

(** [reset_cache], line 1562 ([len(self.X - 1)] is [len(self.X)]). *)
Definition reset_cache (p : pool) : pool :=
  mkPool (pX p) (py p) (psig p) (pacq p) (pacqc p) (repeat None (length (pX p))) (counter p).

End Pool.

Arguments mkPool {pt}. Arguments pX {pt}. Arguments py {pt}. Arguments psig {pt}.
Arguments pacq {pt}. Arguments pacqc {pt}. Arguments gcond {pt}. Arguments counter {pt}.
Arguments new_pool {pt}. Arguments plen {pt}. Arguments min_acq {pt}.
Arguments points_above {pt}. Arguments cache_model_above {pt}. Arguments sort_ {pt}.
Arguments sort {pt}. Arguments position {pt}. Arguments rerank {pt}.
Arguments add_one_core {pt}. Arguments add_one {pt}. Arguments add_bulk {pt}.
Arguments add_each {pt}. Arguments add {pt}. Arguments copy_pool {pt}. Arguments reset_cache {pt}.

(** Model of the values and gradients of the kernels of gpry/kernels.py, over the real numbers. Model
    definitions only. [__call__] is inherited from scikit-learn (sklearn/gaussian_process/kernels.py), whose
    formulas for two arguments are used. *)
From Coq Require Export Reals List Bool Arith.
Export ListNotations.
Open Scope R_scope.

(** [length_scale]: a number or one per dimension (numpy broadcasts the number). *)
Inductive scales := Iso (l : R) | Aniso (ls : list R).
Definition per_dim (s : scales) (d : nat) : list R := match s with Iso l => repeat l d | Aniso ls => ls end.

(** [nu] of [Matern]; for other values scikit-learn uses another function of the distance. *)
Inductive smoothness := Half | ThreeHalves | FiveHalves | Other (f : R -> R).
(** An exponent that is a natural number, or one for which the base must be positive. *)
Inductive power := Nat (n : nat) | Real (e : R).

Inductive kernel :=
| RBF (s : scales)
| Matern (nu : smoothness) (s : scales)
| RationalQuadratic (l alpha : R)
| ExpSineSquared (l p : R)
| ConstantKernel (c : R)
| WhiteKernel (noise_level : R)
| DotProduct (sigma_0 : R)
| Sum (k1 k2 : kernel)
| Product (k1 k2 : kernel)
| Exponentiation (k : kernel) (e : power).

(** [(x - X_train) / length_scale] for one training point. *)
Fixpoint scaled_diff (ls x y : list R) : list R :=
  match ls, x, y with
  | l :: ls', a :: x', b :: y' => (a - b) / l :: scaled_diff ls' x' y'
  | _, _, _ => []
  end.
(** [np.sum(diff**2)]. *)
Fixpoint sum_sq (v : list R) : R := match v with [] => 0 | a :: v' => a ^ 2 + sum_sq v' end.
Fixpoint inner (x y : list R) : R :=
  match x, y with a :: x', b :: y' => a * b + inner x' y' | _, _ => 0 end.
Definition npow (b : R) (e : power) : R := match e with Nat n => b ^ n | Real r => Rpower b r end.

(** The kernel between a point and a training point. [WhiteKernel] is 0 between two given sets. *)
Fixpoint value (k : kernel) (x y : list R) : R :=
  match k with
  | RBF s => exp (- / 2 * sum_sq (scaled_diff (per_dim s (length x)) x y))
  | Matern nu s =>
      let dist := sqrt (sum_sq (scaled_diff (per_dim s (length x)) x y)) in
      match nu with
      | Half => exp (- dist)
      | ThreeHalves => (1 + dist * sqrt 3) * exp (- (dist * sqrt 3))
      | FiveHalves => let K := dist * sqrt 5 in (1 + K + K ^ 2 / 3) * exp (- K)
      | Other f => f dist
      end
  | RationalQuadratic l alpha =>
      Rpower (1 + sum_sq (scaled_diff (repeat 1 (length x)) x y) / (2 * alpha * l ^ 2)) (- alpha)
  | ExpSineSquared l p =>
      let dist := sqrt (sum_sq (scaled_diff (repeat 1 (length x)) x y)) in
      exp (- 2 * (sin (PI / p * dist) / l) ^ 2)
  | ConstantKernel c => c
  | WhiteKernel _ => 0
  | DotProduct s => inner x y + s ^ 2
  | Sum k1 k2 => value k1 x y + value k2 x y
  | Product k1 k2 => value k1 x y * value k2 x y
  | Exponentiation k e => npow (value k x y) e
  end.

(** Kernels that do not look at their arguments; the others only accept arrays with two axes. *)
Fixpoint flat (k : kernel) : bool :=
  match k with
  | ConstantKernel _ | WhiteKernel _ => true
  | Sum k1 k2 | Product k1 k2 => flat k1 && flat k2
  | Exponentiation k _ => flat k
  | _ => false
  end.
(** Elementwise operations on rows. *)
Definition row2 (f : R -> R -> R) (a b : list R) : list R := map (fun p => f (fst p) (snd p)) (combine a b).
Definition both (f : list R -> list R -> list R) (a b : option (list R)) : option (list R) :=
  match a, b with Some a, Some b => Some (f a b) | _, _ => None end.

(** [gradient_x] for one training point: one row of the result (rows are independent of each other).
    [axes]: how many axes the array [x] has beyond one. None: the call raises, or what it returns is not
    an array with one row per training point and one column per dimension. *)
Fixpoint grad (axes : nat) (k : kernel) (x y : list R) : option (list R) :=
  match k with
  | RBF s => (* gpry/kernels.py:257-278 *)
      if 1 <? axes then None else
      let ls := per_dim s (length x) in
      let diff := scaled_diff ls x y in
      let e := - exp (sum_sq diff * - / 2) in
      Some (row2 (fun d l => e * d / l) diff ls)
  | Matern nu s => (* gpry/kernels.py:326-432 *)
      if 1 <? axes then None else
      let ls := per_dim s (length x) in
      let diff := scaled_diff ls x y in
      let dist_sq := sum_sq diff in
      let dist := sqrt dist_sq in
      match nu with
      | Half => (* the result gets [x.shape[0]] columns *)
          if (axes =? 1) && negb (length x =? 1) then None else
          Some (row2 (fun d l => (if Req_EM_T dist 0 then -1 else - exp (- dist) / dist * d) / l) diff ls)
      | ThreeHalves =>
          let f := 1 + sqrt 3 * dist in
          let by_dist := if Req_EM_T dist 0 then 0 else sqrt 3 / dist in
          let g := exp (- (sqrt 3 * dist)) in
          Some (row2 (fun d l => g * (d / l * by_dist) * (f * -1 + 1)) diff ls)
      | FiveHalves =>
          let f := 5 / 3 * dist_sq + sqrt 5 * dist + 1 in
          let inv := (if Req_EM_T dist 0 then dist else / dist) * sqrt 5 in
          let g := exp (- (sqrt 5 * dist)) in
          Some (row2 (fun d l =>
                  let f1 := inv * (d / l) in
                  let f2 := 10 / 3 * (d / l) in
                  f * (- g * f1) + g * (f1 + f2)) diff ls)
      | Other _ => None
      end
  | RationalQuadratic l alpha => (* gpry/kernels.py:491-512 *)
      if 1 <? axes then None else
      let diff := scaled_diff (repeat l (length x)) x y in
      let scaled := Rpower (sum_sq diff / (2 * alpha) + 1) (- alpha - 1) * -1 in
      Some (map (fun d => scaled * (d / l)) diff)
  | ExpSineSquared l p => (* gpry/kernels.py:572-598 *)
      if 1 <? axes then None else
      let diff := scaled_diff (repeat 1 (length x)) x y in
      let dist := sqrt (sum_sq diff) in
      let arg := dist * (PI / p) in
      let wrt_exp := -2 * sin (2 * arg) / l ^ 2 in
      let wrt_theta := if Req_EM_T dist 0 then 0 else PI / (p * dist) in
      Some (map (fun d => wrt_theta * exp (-2 * (sin arg / l) ^ 2) * wrt_exp * d) diff)
  | ConstantKernel _ | WhiteKernel _ => Some (map (fun _ => 0) y) (* gpry/kernels.py:601-620 *)
  | DotProduct _ => Some y (* gpry/kernels.py:702-709 *)
  | Sum k1 k2 => both (row2 Rplus) (grad axes k1 x y) (grad axes k2 x y) (* gpry/kernels.py:671-678 *)
  | Product k1 k2 => (* gpry/kernels.py:681-699: [x] gets one more axis *)
      if (0 <? axes)%nat && negb (flat k1 && flat k2) then None else
      both (row2 Rplus)
        (option_map (map (fun v => value k1 x y * v)) (grad (S axes) k2 x y))
        (option_map (map (fun v => value k2 x y * v)) (grad (S axes) k1 x y))
  | Exponentiation k e => (* gpry/kernels.py:646-668: one more axis for the value only *)
      if (0 <? axes)%nat && negb (flat k) then None else
      let K := value k x y in
      option_map (map (fun v => match e with
                                | Nat n => INR n * K ^ (n - 1) * v
                                | Real r => r * Rpower K (r - 1) * v
                                end)) (grad axes k x y)
  end.
(** All rows. *)
Definition gradient_x (k : kernel) (x : list R) (X_train : list (list R)) : option (list (list R)) :=
  fold_right (fun y acc => match grad 0 k x y, acc with Some r, Some l => Some (r :: l) | _, _ => None end)
             (Some []) X_train.

(** Model of gpry/acquisition_functions.py, over the real numbers. Model definitions only.
    Everything is for one point: the code treats the points of a batch independently, and gradients are
    only available for one point. *)
From Coq Require Export Reals List Bool Arith.
From Coquelicot Require Import Coquelicot.
From Verif Require Export MKernel.
Export ListNotations.
Open Scope R_scope.

(** A float: a real number, an infinity, or NaN. *)
Inductive ext := Real (r : R) | PosInf | NegInf | NotANumber.
(** [noise_level] of the regressor: a number, or one per training point. *)
Inductive noise := OneNoise (n : R) | Noises (ns : list R).
(** The surrogate as an acquisition function sees it: [predict] with its optional results, [noise_level],
    [y_max]. [two_axes]: whether gradients are arrays with two axes (if there is a classifier of
    infinities, gpry/gpr.py:1146) or one. *)
Record surrogate := {
  mean : list R -> ext;
  std : list R -> R;
  mean_grad : list R -> list R;
  std_grad : list R -> list R;
  noise_level : noise;
  y_max : R;
  two_axes : bool
}.

(** [std > n] and so on as booleans. *)
Definition gtb (a b : R) : bool := if Rlt_dec b a then true else false.
Definition is_real (e : ext) : bool := match e with Real _ => true | _ => false end.
(** [np.mean]. *)
Definition average (ns : list R) : R := fold_right Rplus 0 ns / INR (length ns).

(** gpry/acquisition_functions.py:974-981: which noise is subtracted. *)
Definition noise_used (sigma_n : option R) (gp : surrogate) : R :=
  match sigma_n with
  | Some s => s
  | None => match noise_level gp with OneNoise n => n | Noises ns => average ns end
  end.
(** [LogExp.f], gpry/acquisition_functions.py:1069-1074, for numbers. *)
Definition logexp_f (mu sd baseline n zeta : R) : R :=
  2 * zeta * (mu - baseline) + ln (sqrt (Rmax (sd ^ 2 - n ^ 2) 0)).
(** [BaseLogExp.__call__] of [LogExp], gpry/acquisition_functions.py:961-992. *)
Definition logexp (zeta : R) (sigma_n : option R) (gp : surrogate) (x : list R) : ext :=
  let n := noise_used sigma_n gp in
  match mean gp x with
  | Real mu =>
      if gtb (std gp x ^ 2 - n ^ 2) 0 then Real (logexp_f mu (std gp x) (y_max gp) n zeta) else NegInf
  | _ => NegInf
  end.
(** Its gradient, gpry/acquisition_functions.py:993-1007. None: the call raises (the variable [sigma_n] is
    only bound if the attribute is None; arrays that do not fit), or the gradient is infinite. *)
Definition logexp_grad (zeta : R) (sigma_n : option R) (gp : surrogate) (x : list R) : option (list R) :=
  match sigma_n with
  | Some _ => None
  | None =>
      let row ns := map (fun p => fst (snd p) / (std gp x - fst p) + 2 * zeta * snd (snd p))
                        (combine ns (combine (std_grad gp x) (mean_grad gp x))) in
      let d := length (std_grad gp x) in
      if two_axes gp then
        if is_real (mean gp x) && gtb (std gp x ^ 2 - noise_used None gp ^ 2) 0 then
          match noise_level gp with
          | OneNoise n => Some (row (repeat n d))
          | Noises [n] => Some (row (repeat n d))
          | Noises ns => if length ns =? d then Some (row ns) else None
          end
        else None
      else
        match noise_level gp with
        | OneNoise n | Noises [n] => if gtb (std gp x) n then Some (row (repeat n d)) else None
        | Noises _ => None (* truth value of an array *)
        end
  end.
(** gpry/acquisition_functions.py:933-934 *)
Definition auto_zeta (dimension scaling : R) : R := Rpower dimension (- scaling).
(** [BaseLogExp.__init__], gpry/acquisition_functions.py:906-917: [None] if it raises. *)
Definition logexp_zeta (zeta dimension : option R) (scaling : R) : option R :=
  match zeta, dimension with
  | Some z, _ => Some z
  | None, Some d => Some (auto_zeta d scaling)
  | None, None => None
  end.

(** [norm.pdf] and [norm.cdf]. *)
Definition pdf (t : R) : R := exp (- (t ^ 2) / 2) / sqrt (2 * PI).
Definition cdf (t : R) : R := / 2 + RInt pdf 0 t.

(** Acquisition functions. [Custom]: a user's own, with its value and gradient. *)
Inductive acq :=
| ConstantAcqFunc (c : R)
| Mu (a : R)
| Std (a : R)
| ExponentialMu (a : R)
| ExponentialStd (a : R)
| ExpectedImprovement (xi : R)
| LogExp (zeta : R) (sigma_n : option R)
| Custom (f : list R -> option R) (g : list R -> option (list R))
| ASum (k1 k2 : acq)
| AProduct (k1 k2 : acq)
| APower (k : acq) (e : power).

Definition number (e : ext) : option R := match e with Real r => Some r | _ => None end.
Definition two {A B C} (f : A -> B -> C) (a : option A) (b : option B) : option C :=
  match a, b with Some a, Some b => Some (f a b) | _, _ => None end.
Definition scale (c : R) (v : list R) : list R := map (Rmult c) v.

(** The value, if no part of it is infinite or NaN. *)
Fixpoint avalue (gp : surrogate) (k : acq) (x : list R) : option R :=
  match k with
  | ConstantAcqFunc c => Some c (* gpry/acquisition_functions.py:460-468 *)
  | Mu _ => number (mean gp x) (* :525-541, [a] is not used *)
  | Std _ => Some (std gp x) (* :669-684, [a] is not used *)
  | ExponentialMu a => option_map (fun m => exp (a * m)) (number (mean gp x)) (* :598-611 *)
  | ExponentialStd a => Some (exp (a * std gp x)) (* :742-756 *)
  | ExpectedImprovement xi => (* :822-862 *)
      option_map (fun mu =>
        if gtb (std gp x) 0 then
          let improve := mu - y_max gp - xi in
          let scaled := improve / std gp x in
          improve * cdf scaled + std gp x * pdf scaled
        else 0) (number (mean gp x))
  | LogExp zeta s => number (logexp zeta s gp x)
  | Custom f _ => f x
  | ASum k1 k2 => two Rplus (avalue gp k1 x) (avalue gp k2 x) (* :1296-1302 *)
  | AProduct k1 k2 => two Rmult (avalue gp k1 x) (avalue gp k2 x) (* :1317-1323 *)
  | APower k e => option_map (fun v => npow v e) (avalue gp k x) (* :1439-1446 *)
  end.
(** The second result if [eval_gradient]. None: the call raises or something is not a number. *)
Fixpoint agrad (gp : surrogate) (k : acq) (x : list R) : option (list R) :=
  match k with
  | ConstantAcqFunc _ => Some (map (fun _ => 0) x)
  | Mu _ => option_map (fun _ => mean_grad gp x) (number (mean gp x))
  | Std _ => Some (std_grad gp x)
  | ExponentialMu a => option_map (fun m => map (fun g => a * g * exp (a * m)) (mean_grad gp x)) (number (mean gp x))
  | ExponentialStd a => Some (map (fun g => a * g * exp (a * std gp x)) (std_grad gp x))
  | ExpectedImprovement xi =>
      option_map (fun mu =>
        if gtb (std gp x) 0 then
          let sd := std gp x in
          let improve := mu - y_max gp - xi in
          let scaled := improve / sd in
          row2 (fun mg sg =>
            let improve_grad := (- mg * sd - sg * improve) / sd ^ 2 in
            let cdf_grad := improve_grad * pdf scaled in
            let pdf_grad := - improve * cdf_grad in
            let exploit_grad := - mg * cdf scaled - pdf_grad in
            let explore_grad := sg * pdf scaled + pdf_grad in
            exploit_grad + explore_grad) (mean_grad gp x) (std_grad gp x)
        else map (fun _ => 0) (std_grad gp x)) (number (mean gp x))
  | LogExp zeta s => logexp_grad zeta s gp x
  | Custom _ g => g x
  | ASum k1 k2 => two (row2 Rplus) (agrad gp k1 x) (agrad gp k2 x)
  | AProduct k1 k2 =>
      match avalue gp k1 x, avalue gp k2 x with
      | Some v1, Some v2 => two (row2 (fun g1 g2 => g1 * v2 + g2 * v1)) (agrad gp k1 x) (agrad gp k2 x)
      | _, _ => None
      end
  | APower k e =>
      match avalue gp k x with
      | Some v => option_map (map (fun g => match e with
                                           | Nat n => g * INR n * v ^ (n - 1)
                                           | MKernel.Real r => g * r * Rpower v (r - 1)
                                           end)) (agrad gp k x)
      | None => None
      end
  end.

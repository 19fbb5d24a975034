(** Vocabulary of the statements about predictions near a point and far away from the training points. *)
From Coq Require Import Reals List.
From Coquelicot Require Export Coquelicot.
From Verif Require Import MKernel MWhite.
Import ListNotations.
Open Scope R_scope.

(** Points of dimension [d], one after another, whose coordinates tend to those of [x]. *)
Definition approach (d : nat) (xs : nat -> list R) (x : list R) : Prop :=
  length x = d /\ (forall j, length (xs j) = d) /\ forall i, is_lim_seq (fun j => nth i (xs j) 0) (nth i x 0).
(** Points of dimension [d] of which some coordinate grows beyond all bounds, up or down. *)
Definition escape (d : nat) (xs : nat -> list R) : Prop :=
  (forall j, length (xs j) = d) /\ exists i, (i < d)%nat /\ is_lim_seq (fun j => Rabs (nth i (xs j) 0)) p_infty.

(** Kernels that are continuous: all, but for roots of numbers that may be negative and unknown functions. *)
Fixpoint smooth (k : kernel) : Prop :=
  match k with
  | Matern (Other f) _ => forall r, continuous f r
  | RationalQuadratic l alpha => 0 < alpha /\ l <> 0
  | Sum k1 k2 | Product k1 k2 => smooth k1 /\ smooth k2
  | Exponentiation k (Nat _) => smooth k
  | Exponentiation k (Real _) => smooth k /\ (forall x y, 0 < value k x y) /\ (forall x, 0 < own k x)
  | _ => True
  end.

(** Kernels of points of dimension [d] that vanish at large distances: those of the default surrogate and others. *)
Definition good_scales (d : nat) (s : scales) : Prop :=
  match s with Iso l => 0 < l | Aniso ls => length ls = d /\ Forall (fun l => 0 < l) ls end.
Inductive fading (d : nat) : kernel -> Prop :=
| fading_rbf s : good_scales d s -> fading d (RBF s)
| fading_matern nu s : good_scales d s -> nu = Half \/ nu = ThreeHalves \/ nu = FiveHalves -> fading d (Matern nu s)
| fading_rq l alpha : 0 < alpha -> 0 < l -> fading d (RationalQuadratic l alpha)
| fading_white n : fading d (WhiteKernel n)
| fading_sum k1 k2 : fading d k1 -> fading d k2 -> fading d (Sum k1 k2)
| fading_product k1 k2 : fading d k1 -> fading d k2 -> fading d (Product k1 k2)
| fading_constant_l c k : fading d k -> fading d (Product (ConstantKernel c) k)
| fading_constant_r c k : fading d k -> fading d (Product k (ConstantKernel c))
| fading_power k n : fading d k -> fading d (Exponentiation k (Nat (S n))).

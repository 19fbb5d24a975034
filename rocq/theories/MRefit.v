(** Model of a fit together with the quantities that predictions use (gpry/gpr.py: [fit_gpr_hyperparameters], [_update_model],
    [predict]), from the bookkeeping of MHyper, the kernels of MKernel and the linear algebra of MLinAlg. Definitions only. *)
From Verif Require Import MKernel MLinAlg MHyper.
Import ListNotations.
Open Scope R_scope.

(** The kernel as a function of two points. [sm]: which formula Matern uses for a value of [nu]. *)
Fixpoint as_kernel (sm : R -> smoothness) (k : kern) : kernel :=
  let s v := match v with HNum x => Iso x | HVec [x] => Iso x | HVec l => Aniso l end in
  match k with
  | KLength None v _ _ => RBF (s v)
  | KLength (Some nu) v _ _ => Matern (sm nu) (s v)
  | KConst c _ => ConstantKernel c
  | KWhite n _ => WhiteKernel n
  | KRQ v a => RationalQuadratic (nth 0 (elements v) 0) a
  | KExpSine v p => ExpSineSquared (nth 0 (elements v) 0) p
  | KDot s0 => DotProduct s0
  | KSum k1 k2 => Sum (as_kernel sm k1) (as_kernel sm k2)
  | KProd k1 k2 => Product (as_kernel sm k1) (as_kernel sm k2)
  | KPow k e => Exponentiation (as_kernel sm k) (Real e)
  end.

(** The attributes of the regressor, in transformed coordinates: [kernel], [kernel_], [L_]/[V_]/[alpha_], [X_train_],
    [y_train_], [alpha] (squared noise per point), [newly_appended_for_inv]. *)
Record surrogate := Surrogate { s_k0 : kern; s_kernel : option kern; s_gp : option gp; s_X : list (list R); s_y : list R;
                                s_noise : list R; s_new : nat }.
Definition with_kernel (k : option kern) (s : surrogate) : surrogate :=
  Surrogate (s_k0 s) k (s_gp s) (s_X s) (s_y s) (s_noise s) (s_new s).

(** gpr.py:883-1019. After the hyperparameters are set, [_update_model] computes [L_], [V_] and [alpha_] again, but only if
    points were appended since the last time (lines 1011-1014). A matrix that is not positive definite raises (LinAlgError, here
    ValueError, its base class). *)
Definition refit (sm : R -> smoothness) (s : surrogate) (custom : option (list (R * R))) (runs : nat -> list R -> list (R * R) -> opt_run)
    (draw : nat -> list R) (n : nat) (cur : bool) : surrogate * res unit :=
  match fit_kernel (s_k0 s) (s_kernel s) custom runs draw n cur with
  | (k', Err e) => (with_kernel k' s, Err e)
  | (k', Ok _) =>
      match k' with
      | None => (with_kernel k' s, Err AttributeError)
      | Some k =>
          if Nat.eqb (s_new s) 0 then (with_kernel k' s, Ok tt)
          else match update_model (value (as_kernel sm k)) (s_X s) (s_noise s) (s_y s) with
               | None => (with_kernel k' s, Err ValueError)
               | Some g => (Surrogate (s_k0 s) k' (Some g) (s_X s) (s_y s) (s_noise s) 0, Ok tt)
               end
      end
  end.
(** gpr.py:1179-1182: the mean before the y-preprocessor, with the current [kernel_] and the stored [alpha_]. *)
Definition mean_at (sm : R -> smoothness) (s : surrogate) (x : list R) : option R :=
  match s_kernel s, s_gp s with
  | Some k, Some g => Some (gp_mean (value (as_kernel sm k)) (s_X s) g x)
  | _, _ => None
  end.

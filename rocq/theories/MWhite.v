(** Model of kernels of a set of points with itself, in which [WhiteKernel] adds its noise: sklearn's [kernel(X)] and [kernel.diag(X)] as used in gpry/gpr.py:1015-1017 and 1204-1209.
    Definitions only. *)
From Verif Require Export MKernel MLinAlg.
Open Scope R_scope.

(** The kernel of a point with itself: an entry of the diagonal of [kernel(X)] and of [kernel.diag(X)] (sklearn, [Sum], [Product], [Exponentiation]: entry by entry). *)
Fixpoint own (k : kernel) (x : list R) : R :=
  match k with
  | WhiteKernel n => n
  | Sum k1 k2 => own k1 x + own k2 x
  | Product k1 k2 => own k1 x * own k2 x
  | Exponentiation k e => npow (own k x) e
  | _ => value k x x
  end.
(** [_update_model], gpr.py:1015-1017: [K = kernel_(X_train_)], then the noise variances on the diagonal. *)
Definition own_row (k : kernel) (X : list (list R)) (i : nat) (x : list R) (n : R) : list R :=
  map (fun q => if Nat.eqb (fst q) i then own k x + n else value k x (snd q)) (combine (seq 0 (length X)) X).
Definition own_matrix (k : kernel) (X : list (list R)) (noise : list R) : list (list R) :=
  map (fun q => own_row k X (fst q) (fst (snd q)) (snd (snd q))) (combine (seq 0 (length X)) (combine X noise)).
Definition update_own (k : kernel) (X : list (list R)) (noise y : list R) : option gp := kernel_inverse (own_matrix k X noise) y.
(** gpr.py:1204-1209: the variance, with [kernel_.diag(X_)]. *)
Definition own_var (k : kernel) (X : list (list R)) (g : gp) (x : list R) : R :=
  let M := mul_columns (length (g_L g)) (g_V g) (map (value k x) X) in own k x - dot M M.

(** Model of the curves of the convergence plot: [plot_convergence] (gpry/plots.py:679-744), histories of criteria (gpry/convergence.py:97-115), its use in [plot_trace] (gpry/plots.py:850-860); and of
    numbers in the texts of plots: [simple_latex_sci_notation] (gpry/plots.py:33-46). Drawing itself is left out. Definitions only. *)
From Coq Require Export String Ascii.
From Coq Require Import List.
From Verif Require Export Base Num.
Import ListNotations.

(** A criterion: the name of its class, [values], [n_posterior_evals] and [n_accepted_evals] (None: not saved), [limit] if it has one. *)
Record crit := mkCrit { cr_name : string; cr_history : option (list num * list nat * list nat); cr_limit : option num }.
(** convergence.py:97-115. *)
Definition get_history (c : crit) : res (list num * list nat * list nat) :=
  match cr_history c with
  | None => Err AttributeError
  | Some (v, n, a) => if Nat.eqb (length v) 0 || Nat.eqb (length n) 0 then Err ValueError else Ok (v, n, a)
  end.
(** What is drawn: a curve with its colour and label, or a horizontal line. *)
Inductive drawn := Curve (color : nat) (label : string) (points : list (nat * num)) | Line (color : nat) (y : num).
(** The dictionary of line 725. *)
Definition choose (evaluations : string) (n a : list nat) : res (list nat) :=
  if String.eqb evaluations "total" then Ok n else if String.eqb evaluations "accepted" then Ok a else Err KeyError.
(** Line 729: matplotlib refuses lists of different lengths (of these, ValueError). *)
Definition curve (i : nat) (c : crit) (xs : list nat) (v : list num) : res drawn :=
  if Nat.eqb (length xs) (length v) then Ok (Curve i (cr_name c) (combine xs v)) else Err ValueError.
(** Lines 720-736 for the [i]-th criterion; [colors]: length of the cycle of colours. What is drawn before an exception stays. *)
Definition plot_one (colors : nat) (evaluations : string) (i : nat) (c : crit) : list drawn * res unit :=
  if Nat.leb colors i then ([], Err IndexError) else
  match (do (va, a) <- get_history c; do xs <- choose evaluations (snd va) a; curve i c xs (fst va)) with
  | Err x => ([], Err x)
  | Ok d => (d :: match cr_limit c with Some y => [Line i y] | None => [] end, Ok tt)
  end.
Fixpoint plot_from (colors : nat) (evaluations : string) (i : nat) (l : list crit) : list drawn * res unit :=
  match l with
  | [] => ([], Ok tt)
  | c :: l =>
      match plot_one colors evaluations i c with
      | (d, Err x) => (d, Err x)
      | (d, Ok _) => let r := plot_from colors evaluations (S i) l in (d ++ fst r, snd r)
      end
  end.
Definition plot_convergence (colors : nat) (evaluations : string) (l : list crit) : list drawn * res unit := plot_from colors evaluations 0 l.
(** plots.py:850-860: the upper panel of the plot of the trace. *)
Definition trace_panel (colors : nat) (l : list crit) : list drawn * res unit :=
  match plot_convergence colors "total" l with (d, Err ValueError) => (d, Ok tt) | r => r end.

(** ** Numbers *)
Definition letter_e : ascii := "e".
Fixpoint has_char (c : ascii) (s : string) : bool := match s with EmptyString => false | String x s => Ascii.eqb x c || has_char c s end.
(** [s.split(c)]: never empty. *)
Fixpoint split_at (c : ascii) (s : string) : string * list string :=
  match s with
  | EmptyString => (EmptyString, [])
  | String x s => let r := split_at c s in if Ascii.eqb x c then (EmptyString, fst r :: snd r) else (String x (fst r), snd r)
  end.
(** [s.lstrip("0")] *)
Fixpoint lstrip0 (s : string) : string := match s with String x s' => if Ascii.eqb x "0" then lstrip0 s' else s | EmptyString => EmptyString end.
(** Lines 33-46. *)
Definition simple_latex (s : string) : res string :=
  if negb (has_char letter_e s) then Ok s else
  match split_at letter_e s with
  | (sigfigs, [exp]) =>
      let sign := if String.prefix "+" exp then EmptyString else "-"%string in
      let rest := match exp with String _ r => r | EmptyString => EmptyString end in
      Ok (sigfigs ++ "\cdot 10^{" ++ sign ++ lstrip0 rest ++ "}")%string
  | _ => Err ValueError
  end.

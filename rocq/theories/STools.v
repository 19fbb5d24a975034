(** Vocabulary of the statements about bounds, samples and option strings. *)
From Verif Require Export MTools.

Definition le (a b : num) : Prop := nleb a b = true.
(** The closed box. NaN is never below or above anything. *)
Definition in_box (box : list (num * num)) (x : list num) : Prop :=
  Forall2 (fun b xi => le (fst b) xi /\ le xi (snd b)) box x.
(** A box as a (d, 2) array. *)
Definition box_arr (box : list (num * num)) : arr :=
  Mat (mkMat 2 (map (fun b => [fst b; snd b]) box)).
Definition points_arr (d : nat) (pts : list (list num)) : arr := Mat (mkMat d pts).

(** Row [i] repeats an earlier row, number by number. *)
Definition repeats_earlier (l : list (list num)) (i : nat) : Prop :=
  exists j r, j < i /\ nth_error l j = Some r /\ nth_error l i = Some r.
Definition no_nan (r : list num) : Prop := Forall (fun x => isnan x = false) r.

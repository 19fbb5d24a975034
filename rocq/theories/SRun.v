(** Specification vocabulary for the properties of the [Runner]: what can be read off the record of what
    it did. *)
From Verif Require Export SGpr MRun.

(** All points at which the true posterior was evaluated, in order. *)
Definition evaluated {pt} (l : list (event pt)) : list pt :=
  flat_map (fun v => match v with EvEval X => X | _ => [] end) l.
(** The number of passes through the loop. *)
Definition passes {pt} (l : list (event pt)) : nat :=
  length (filter (fun v => match v with EvAcquire _ _ => true | _ => false end) l).
(** Something that happens every [every] iterations, for the first time in iteration [every - 1], is
    due in iteration [i]. *)
Definition due (every i : nat) : Prop := exists k, S i = k * every.

(** Model of kernels as mutable objects that surrogates and users share: copies of kernels ([clone] of sklearn.base, gpry/gpr.py:953,
    1407), setting their hyperparameters (sklearn [Kernel.theta], gpr.py:936, 944-950, 989), and what surrogates keep (gpr.py:364-375,
    1354-1363). Values as in [MHyper], over the real numbers; definitions only. *)
From Verif Require Export MHyper.
Open Scope list_scope.

(** Kernels that are not made of kernels hold their values; sums, products and powers refer to the kernels they are made of. *)
Inductive kobj := OLeaf (k : kern) | OSum (l1 l2 : nat) | OProd (l1 l2 : nat) | OPow (l : nat) (e : R).
Notation kheap := (list kobj).
Fixpoint kwrite (h : kheap) (l : nat) (o : kobj) : kheap :=
  match h, l with
  | [], _ => []
  | _ :: h', O => o :: h'
  | o' :: h', S l' => o' :: kwrite h' l' o
  end.
(** The kernel that an object stands for. [depth]: how deep the interpreter allows calls to be nested (RecursionError is a
    RuntimeError). Everything that only reads a kernel does so through its parts. *)
Fixpoint read (depth : nat) (h : kheap) (l : nat) : res kern :=
  match depth with
  | O => Err RuntimeError
  | S depth =>
      match nth_error h l with
      | None => Err AttributeError
      | Some (OLeaf k) => Ok k
      | Some (OSum l1 l2) => do k1 <- read depth h l1; do k2 <- read depth h l2; Ok (KSum k1 k2)
      | Some (OProd l1 l2) => do k1 <- read depth h l1; do k2 <- read depth h l2; Ok (KProd k1 k2)
      | Some (OPow l1 e) => do k1 <- read depth h l1; Ok (KPow k1 e)
      end
  end.
(** [clone]: the parts are cloned in the order of the constructor's arguments; the constructors store what they are given. Parts
    that were the same object are two in the copy. *)
Fixpoint clone (depth : nat) (h : kheap) (l : nat) : kheap * res nat :=
  match depth with
  | O => (h, Err RuntimeError)
  | S depth =>
      let both f l1 l2 :=
        match clone depth h l1 with
        | (h, Err e) => (h, Err e)
        | (h, Ok l1') => match clone depth h l2 with
                         | (h, Err e) => (h, Err e)
                         | (h, Ok l2') => (h ++ [f l1' l2'], Ok (length h))
                         end
        end in
      match nth_error h l with
      | None => (h, Err AttributeError)
      | Some (OLeaf k) => (h ++ [OLeaf k], Ok (length h))
      | Some (OSum l1 l2) => both OSum l1 l2
      | Some (OProd l1 l2) => both OProd l1 l2
      | Some (OPow l1 e) => match clone depth h l1 with
                            | (h, Err x) => (h, Err x)
                            | (h, Ok l1') => (h ++ [OPow l1' e], Ok (length h))
                            end
      end
  end.
(** Setting [theta]: sums and products give the first [k1.n_dims] values to their first kernel, then the rest to the second. *)
Fixpoint put_theta (depth : nat) (h : kheap) (l : nat) (t : list R) : kheap * res unit :=
  match depth with
  | O => (h, Err RuntimeError)
  | S depth =>
      let both l1 l2 :=
        match (do k1 <- read depth h l1; theta k1) with
        | Err e => (h, Err e)
        | Ok t1 => match put_theta depth h l1 (firstn (length t1) t) with
                   | (h, Err e) => (h, Err e)
                   | (h, Ok _) => put_theta depth h l2 (skipn (length t1) t)
                   end
        end in
      match nth_error h l with
      | None => (h, Err AttributeError)
      | Some (OLeaf k) => let (k', r) := set_theta k t in (kwrite h l (OLeaf k'), r)
      | Some (OSum l1 l2) | Some (OProd l1 l2) => both l1 l2
      | Some (OPow l1 e) => put_theta depth h l1 t
      end
  end.

Section Fit.
Variable depth : nat.
(** [MHyper.evaluate], [MHyper.optimise] and [MHyper.fit_kernel] (gpr.py:921-989) for objects. *)
Fixpoint oevaluate (h : kheap) (l : nat) (ts : list (list R)) : kheap * res unit :=
  match ts with
  | [] => (h, Ok tt)
  | t :: ts => match put_theta depth h l t with (h, Ok _) => oevaluate h l ts | (h, Err e) => (h, Err e) end
  end.
Fixpoint ooptimise (runs : nat -> list R -> list (R * R) -> opt_run) (draw : nat -> list R) (B : list (R * R)) (cur : bool)
    (i n : nat) (h : kheap) (l : nat) (acc : list (list R * R)) : kheap * res (list (list R * R)) :=
  match n with
  | O => (h, Ok acc)
  | S n =>
      match (if cur && Nat.eqb i 0 then do k <- read depth h l; theta k else Ok (draw i)) with
      | Err e => (h, Err e)
      | Ok start =>
          let r := runs i start B in
          match oevaluate h l (o_evals r) with
          | (h, Err e) => (h, Err e)
          | (h, Ok _) => match o_end r with
                         | Err e => (h, Err e)
                         | Ok x => ooptimise runs draw B cur (S i) n h l (acc ++ [x])
                         end
          end
      end
  end.
(** A surrogate: [kernel], the object given at construction, and [kernel_]. *)
Record surrogate := mkSurrogate { g_kernel : nat; g_fitted : option nat }.
Definition ofit (h : kheap) (g : surrogate) (custom : option (list (R * R)))
    (runs : nat -> list R -> list (R * R) -> opt_run) (draw : nat -> list R) (n : nat) (cur : bool) : kheap * surrogate * res unit :=
  match (do k <- read depth h (g_kernel g); theta k) with
  | Err e => (h, g, Err e)
  | Ok t0 =>
    if Nat.eqb (length t0) 0 || Nat.eqb n 0 then
      match g_fitted g with
      | None => (h, g, Err AttributeError)
      | Some l => match (do k <- read depth h l; theta k) with
                  | Err e => (h, g, Err e)
                  | Ok t => let (h, r) := put_theta depth h l t in (h, g, r)
                  end
      end
    else
      match (match g_fitted g with Some l => (h, Ok l) | None => clone depth h (g_kernel g) end) with
      | (h, Err e) => (h, g, Err e)
      | (h, Ok l) =>
          let g := mkSurrogate (g_kernel g) (Some l) in
          match (match custom with Some B => Ok B | None => do k <- read depth h l; bounds k end) with
          | Err e => (h, g, Err e)
          | Ok B =>
              match ooptimise runs draw B cur 0 n h l [] with
              | (h, Err e) => (h, g, Err e)
              | (h, Ok []) => (h, g, Err ValueError)
              | (h, Ok (x :: xs)) => let (h, r) := put_theta depth h l (fst (best x xs)) in (h, g, r)
              end
          end
      end
  end.

(** What can be done with surrogates: make one from a kernel, fit it, compute the log-marginal likelihood at [t] (sklearn:
    [clone_with_theta], or with [clone_kernel=False] by setting [theta] of [kernel_]), copy it (gpr.py:1354-1363, 1406-1407: [kernel]
    is shared, [kernel_] is copied; its parts are different objects, so that [deepcopy] does the same as [clone]). *)
Inductive event :=
| ENew (l : nat)
| EFit (i : nat) (custom : option (list (R * R))) (runs : nat -> list R -> list (R * R) -> opt_run) (draw : nat -> list R) (n : nat) (cur : bool)
| ELml (i : nat) (t : list R) (cloned : bool)
| ECopy (i : nat).
Fixpoint replace {A} (l : list A) (i : nat) (x : A) : list A :=
  match l, i with [], _ => [] | _ :: l, O => x :: l | y :: l, S i => y :: replace l i x end.
Definition ostep (s : kheap * list surrogate) (e : event) : (kheap * list surrogate) * res unit :=
  let '(h, gs) := s in
  match e with
  | ENew l => ((h, gs ++ [mkSurrogate l None]), Ok tt)
  | EFit i custom runs draw n cur =>
      match nth_error gs i with
      | None => (s, Err KeyError)
      | Some g => let '(h, g, r) := ofit h g custom runs draw n cur in ((h, replace gs i g), r)
      end
  | ELml i t cloned =>
      match nth_error gs i with
      | None => (s, Err KeyError)
      | Some g =>
          match g_fitted g with
          | None => (s, Err AttributeError)
          | Some l =>
              if cloned then match clone depth h l with
                             | (h, Err e) => ((h, gs), Err e)
                             | (h, Ok l) => let (h, r) := put_theta depth h l t in ((h, gs), r)
                             end
              else let (h, r) := put_theta depth h l t in ((h, gs), r)
          end
      end
  | ECopy i =>
      match nth_error gs i with
      | None => (s, Err KeyError)
      | Some g =>
          match g_fitted g with
          | None => ((h, gs ++ [g]), Ok tt)
          | Some l => match clone depth h l with
                      | (h, Err e) => ((h, gs), Err e)
                      | (h, Ok l) => ((h, gs ++ [mkSurrogate (g_kernel g) (Some l)]), Ok tt)
                      end
          end
      end
  end.
Fixpoint orun (s : kheap * list surrogate) (es : list event) : (kheap * list surrogate) * list (res unit) :=
  match es with
  | [] => (s, [])
  | e :: es => let (s, r) := ostep s e in let (s, rs) := orun s es in (s, r :: rs)
  end.
End Fit.

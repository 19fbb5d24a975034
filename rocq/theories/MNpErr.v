(** Model of [NumpyErrorHandling], gpry/tools.py:164-183, and of its uses. Definitions only. The settings of numpy are per process
    (threads are left out). *)
From Verif Require Export MKl MKlMc.

(** How numpy treats a floating point error, and the errors. *)
Inductive mode := Ignore | Warn | RaiseIt | CallIt | Print | Log.
Inductive kind := Divide | Over | Under | Invalid.
(** [np.geterr()] *)
Record settings := Settings { divide : mode; over : mode; under : mode; invalid : mode }.
Definition mode_of (s : settings) (k : kind) : mode := match k with Divide => divide s | Over => over s | Under => under s | Invalid => invalid s end.
(** [np.seterr(all=m)] *)
Definition all_to (m : mode) : settings := Settings m m m m.

Inductive npexn := Py (e : exn) | FloatingPointError.
Inductive outcome (A : Type) := Returned (a : A) | Raised (e : npexn).
Arguments Returned {A} a.
Arguments Raised {A} e.
(** What the user sees besides the result: warnings, calls, messages. *)
Definition report := list (kind * mode).
Definition M A := settings -> outcome A * settings * report.
Definition mret {A} (a : A) : M A := fun s => (Returned a, s, []).
Definition mraise {A} (e : npexn) : M A := fun s => (Raised e, s, []).
Definition mbind {A B} (m : M A) (k : A -> M B) : M B :=
  fun s => match m s with
           | (Returned a, s1, r) => match k a s1 with (o, s2, r') => (o, s2, r ++ r') end
           | (Raised e, s1, r) => (Raised e, s1, r)
           end.
Definition geterr : M settings := fun s => (Returned s, s, []).
Definition seterr (s' : settings) : M unit := fun _ => (Returned tt, s', []).
(** The floating point flags of an operation, treated one by one. *)
Fixpoint signal (flags : list kind) : M unit :=
  match flags with
  | [] => mret tt
  | k :: flags => fun s => match mode_of s k with
                          | Ignore => signal flags s
                          | RaiseIt => (Raised FloatingPointError, s, [])
                          | m => match signal flags s with (o, s1, r) => (o, s1, (k, m) :: r) end
                          end
  end.

(** [__init__], lines 172-174; [__enter__], lines 176-177; [__exit__], lines 179-182: the bare [raise] raises what was raised in the block. *)
Record handler := Handler { all : mode; error_handler : settings }.
Definition new_handler (m : mode) : M handler := mbind geterr (fun s => mret (Handler m s)).
Definition h_enter (h : handler) : M unit := seterr (all_to (all h)).
Definition h_exit (h : handler) (e : option npexn) : M unit :=
  mbind (seterr (error_handler h)) (fun _ => match e with Some e => mraise e | None => mret tt end).
(** [with h as _: body] *)
Definition with_statement {A} (h : handler) (body : M A) : M A :=
  mbind (h_enter h) (fun _ s =>
    match body s with
    | (Returned a, s1, r) => match h_exit h None s1 with
                            | (Returned _, s2, r') => (Returned a, s2, r ++ r')
                            | (Raised e, s2, r') => (Raised e, s2, r ++ r')
                            end
    | (Raised e, s1, r) => match h_exit h (Some e) s1 with
                          | (Returned _, s2, r') => (Raised e, s2, r ++ r')
                          | (Raised e', s2, r') => (Raised e', s2, r ++ r')
                          end
    end).

(** Code that uses numpy: it returns, raises, does operations that set flags, changes the settings, and uses the context, as
    [with NumpyErrorHandling(all=m) as _:] does. *)
Inductive prog : Type -> Type :=
| Ret {A} (a : A) : prog A
| Fail {A} (e : exn) : prog A
| Op {A} (flags : list kind) (p : prog A) : prog A
| Set_err {A} (s : settings) (p : prog A) : prog A
| With {A B} (m : mode) (body : prog B) (k : B -> prog A) : prog A.
Fixpoint run {A} (p : prog A) : M A :=
  match p with
  | Ret a => mret a
  | Fail e => mraise (Py e)
  | Op flags p => mbind (signal flags) (fun _ => run p)
  | Set_err s p => mbind (seterr s) (fun _ => run p)
  | With m body k => mbind (mbind (new_handler m) (fun h => with_statement h (run body))) (fun b => run (k b))
  end.
Definition of_res {A} (r : res A) : prog A := match r with Ok a => Ret a | Err e => Fail e end.

(** [kl_norm], gpry/tools.py:20-36, with the flags of its operations: those of logarithms and of infinities, and any others ([rounding]:
    overflow, underflow). [np.linalg.inv] (line 27, outside the context) sets its own handling. *)
Definition log_flags (x : R) : list kind := if Rlt_dec 0 x then [] else if Req_EM_T x 0 then [Divide] else [Invalid].
Definition add_flags (a b : fl) : list kind := match a, b with Inf, MInf | MInf, Inf => [Invalid] | _, _ => [] end.
Definition kl_norm_body (rounding : list kind) (inverse : mat) (mean_0 : vec) (cov_0 : mat) (mean_1 : vec) (cov_1 : mat) : prog fl :=
  let n := length mean_0 in
  let l1 := flog (det n (at2 cov_1)) in
  let l0 := fneg (flog (det n (at2 cov_0))) in
  Op rounding (Op (log_flags (det n (at2 cov_1))) (Op (log_flags (det n (at2 cov_0))) (Op (add_flags l1 l0)
    (Ret (fhalf (fadd (fadd (fadd (fadd l1 l0) (F (- INR n))) (F (trace_product n inverse cov_0))) (F (form inverse (vsub mean_1 mean_0))))))))).
Definition kl_norm_np (rounding : list kind) (inv : mat -> res mat) (mean_0 : vec) (cov_0 : mat) (mean_1 : vec) (cov_1 : mat) : prog fl :=
  match inv cov_1 with
  | Err e => Fail e
  | Ok b => With Ignore (kl_norm_body rounding b mean_0 cov_0 mean_1 cov_1) (fun v => Ret v)
  end.
(** [kl_mc], gpry/tools.py:39-63, without weights: no context. The division of line 63 is 0 / 0 if no point is left. *)
Definition kl_mc_np {A} (X : list A) (logq logp : A -> ereal) : prog ereal :=
  Op (match filter (fun x => efinite (logp x)) X with [] => [Invalid] | _ => [] end) (of_res (kl_mc X logq None (Some logp) None)).

(** The program of a single process in NORA.multi_add, gpry/gp_acquisition.py:971-1191. Definitions only.

    The lockstep model is in MNora; the local parts are taken from there. The surrogate is the same in all processes.
    What is sent where a regressor stands in MColl is here a pool of candidates. *)
From Verif Require Import Base Num MTools MMpi MPool MColl.
From Verif Require Import MNora.

Section NoraPar.
Variable expf : num -> num.
Variable argsort : list num -> list nat.
Variable w : world.
Let size := wsize w.
Notation obj := (obj point (pool point)).
Notation prog := (prog obj).

(** [compute_y_parallel(gpr, X, None, None, ensure_sigma_y=True)] as in lines 871-873 and 900-902. *)
Definition predict_all (r : nat) (s : surrogate) (X : obj) : prog (option (list num) * option (list num)) :=
  compute_y size (match w with NoMpi => false | Mpi _ => true end)
    (fun l => Ok (map (s_mean s) l)) (fun l => Ok (map (s_sigma s) l)) r X None None true.
(** [_set_MC_sample] of what the sampler gives, lines 858-873: [q] is None if it gives [None] (as it does in all but the
    main process); lines 1020-1023. *)
Definition set_par (r : nat) (s : surrogate) (q : option (list point * option (list num))) (n : nora) : prog nora :=
  let* ys := predict_all r s (match q with Some q => OPts (fst q) | None => ONone end) in
  Ret (mkNora (n_i n) (match q with Some q => Some (mkSample (fst q) (fst ys) (snd ys) (snd q)) | None => None end)
         (n_re n) (Some false) (Some [])).
(** [_reweight_last_MC_sample], lines 875-919. The part of the main process after the predictions [y], [sg]. *)
Definition within_of (b : option (point -> bool)) (mc : sample) : list bool :=
  match b with Some b => map b (m_X mc) | None => map (fun _ => true) (m_X mc) end.
Definition reweighted (b : option (point -> bool)) (mc : sample) (y_mc y : list num) (sg : option (list num)) : res sample :=
  let X := mask (within_of b mc) (m_X mc) in
  let y_old := mask (within_of b mc) y_mc in
  let w_old := match m_w mc with Some v => mask (within_of b mc) v | None => map (fun _ => nz 1) X end in
  let w_new := map2 nmul w_old (map2 (fun a b => expf (nsub a b)) y y_old) in
  do m <- pymax_list w_new;
  let w_norm := map (fun v => ndiv v m) w_new in
  let keep := map (fun v => negb (neqb v (nz 0))) w_norm in
  Ok (mkSample (mask keep X) (Some (mask keep y)) (option_map (mask keep) sg) (Some (mask keep w_norm))).
Definition raise_shared (m : obj) : prog unit := match m with OErr x => Raise x | _ => Ret tt end.
Definition reweight_par (r : nat) (s : surrogate) (b : option (point -> bool)) (n : nora) : prog nora :=
  let has := match n_mc n with Some _ => true | None => false end in
  let has_y := match n_mc n with Some mc => match m_y mc with Some _ => true | None => false end | None => false end in
  let* m := bcast size 0 (if (r =? 0) && negb has then OErr ValueError else ONone) in
  let* _ := raise_shared m in
  let* m := bcast size 0 (if (r =? 0) && negb has_y then OErr ValueError else ONone) in
  let* _ := raise_shared m in
  let* ys := predict_all r s (match n_mc n with
                              | Some mc => if r =? 0 then OPts (mask (within_of b mc) (m_X mc)) else ONone
                              | None => ONone
                              end) in
  let* re := match n_mc n with
             | Some (mkSample _ (Some y_mc) _ _ as mc) =>
                 if r =? 0 then
                   match fst ys with
                   | Some y => let* q := local (reweighted b mc y_mc y (snd ys)) in Ret (Some q)
                   | None => Raise TypeError
                   end
                 else Ret None
             | _ => Ret None
             end in
  Ret (mkNora (n_i n) (n_mc n) re (Some true) (n_prop n)).

(** [_gather_pools], lines 1148-1171: the four arrays, in the main process. *)
Definition gather_pts (r : nat) (X : list point) : prog (option (list point)) :=
  let* l := gather size r (OPts X) in
  match l with Some l => let* l := local (mapM as_pts l) in Ret (Some (concat l)) | None => Ret None end.
Definition gather_vec (r : nat) (v : list num) : prog (option (list num)) :=
  let* l := gather size r (OVec v) in
  match l with Some l => let* l := local (mapM as_vec l) in Ret (Some (concat l)) | None => Ret None end.
(** [_merge_pools], lines 1173-1191. *)
Definition merge_par (r : nat) (s : surrogate) (np : nat) (p : pool point) : prog (pool point) :=
  if negb (multiple size) then Ret p
  else
    let* X := gather_pts r (firstn (plen p) (pX p)) in
    let* y := gather_vec r (firstn (plen p) (py p)) in
    let* sg := gather_vec r (firstn (plen p) (psig p)) in
    let* a := gather_vec r (firstn (plen p) (pacq p)) in
    let* ac := gather_vec r (firstn (plen p) (pacqc p)) in
    let* m := match X, y, sg, a, ac with
              | Some X, Some y, Some sg, Some a, Some ac =>
                  let k := map isfin ac in
                  let* q := local (add (s_std s) (s_mean s) (s_acq s) argsort (new_pool zero_point np)
                                     (mask k X) (Some (mask k y)) (Some (mask k sg)) (Some (mask k a)) Bulk) in
                  Ret (OGpr q)
              | _, _, _, _, _ => Ret ONone
              end in
    let* m := bcast size 0 m in
    local (as_gpr m).
(** Lines 1042-1099: split, rank, merge. [X], [y], [sg] matter in the main process. *)
Definition rank_par (r : nat) (s : surrogate) (np : nat) (X y sg : obj) : prog (list point * list num * list num) :=
  let* tX := step_split_pts size r X in
  let* ty := step_split_vec size r y in
  let* ts := step_split_vec size r sg in
  let* _ := sync_processes size in
  let* p := local (add (s_std s) (s_mean s) (s_acq s) argsort (new_pool zero_point np) tX (Some ty) (Some ts)
                     (Some (map2 (s_acq s) ty ts)) SortAcq) in
  let* p := merge_par r s np p in
  let q := copy_pool p true in
  let yq := firstn np (py q) in
  Ret (firstn np (pX q), yq, map2 (s_acq s) yq (firstn np (psig q))).
(** [multi_add]; [ns] is what this process does in the sampler. The random generator is one already (the runner passes
    its own), so that it is not scattered (line 1019). *)
Definition nora_add (r every : nat) (s : surrogate) (np : nat) (b : option (point -> bool)) (force : bool)
    (ns : prog (option (list point * option (list num)))) (n : nora) : prog (nora * (list point * list num * list num)) :=
  if np =? 0 then Raise ValueError
  else if every =? 0 then Raise ZeroDivisionError
  else
    let* n := (if (n_i n mod every =? 0) || force then let* q := ns in set_par r s q n else reweight_par r s b n) in
    let n := mkNora (S (n_i n)) (n_mc n) (n_re n) (n_flag n) (n_prop n) in
    let* prop := local (match n_prop n with Some prop => Ok prop | None => Err AttributeError end) in
    let* q := match last_MC_sample n with
              | Some (mkSample X y sg _) =>
                  if r =? 0 then
                    match prop, y, sg with
                    | [], _, _ => Ret (OPts X, OArr y, OArr sg)
                    | _, Some y, Some sg => Ret (OPts (exclude prop X X), OVec (exclude prop X y), OVec (exclude prop X sg))
                    | _, _, _ => Raise TypeError
                    end
                  else Ret (OPts X, OArr y, OArr sg)
              | None => Ret (ONone, ONone, ONone)
              end in
    let* l := rank_par r s np (fst (fst q)) (snd (fst q)) (snd q) in
    let* _ := sync_processes size in
    Ret (mkNora (n_i n) (n_mc n) (n_re n) (n_flag n) (Some (prop ++ fst (fst l))), l).
End NoraPar.

(** Model of the data a [Runner] keeps besides the surrogate: fiducial points (gpry/run.py:1354-1457) and
    Monte Carlo samples (gpry/run.py:1594-1745, gpry/mc.py). Model definitions only. *)
From Verif Require Export MTools.

(** ** Fiducial points *)
Section Fiducial.
Context {pt : Type}.
(** Whether a point has the dimension of the surrogate; the log-prior (which does not raise for those). *)
Variable dim_ok : pt -> bool.
Variable logprior : pt -> num.

(** A value that should be a number: absent, a number, something else. *)
Inductive val_arg := Absent | Val (v : num) | NotVal.
Record fiducial := mkFid { f_X : option pt; f_logpost : option num; f_loglike : option num }.
(** Set in the constructor, gpry/run.py:296-298. *)
Definition no_fiducial : fiducial := mkFid None None None.
(** [set_fiducial_point], gpry/run.py:1354-1398: the attributes left behind and whether it raised. *)
Definition set_fiducial_point (X : pt) (logpost loglike : val_arg) (f : fiducial) : fiducial * res unit :=
  if negb (dim_ok X) then (f, Err TypeError)
  else
    let f := mkFid (Some X) (f_logpost f) (f_loglike f) in
    match logpost, loglike with
    | Absent, Absent => (f, Ok tt)
    | Val p, Absent => (mkFid (Some X) (Some p) (Some (nsub p (logprior X))), Ok tt)
    | Absent, Val l => (mkFid (Some X) (Some (nadd l (logprior X))) (Some l), Ok tt)
    | _, _ => (f, Err TypeError)
    end.

Record fiducial_mc := mkFidMC {
  m_X : option (list pt); m_w : option (list num); m_logpost : option (list num); m_loglike : option (list num) }.
(** Set in the constructor, gpry/run.py:299-302. *)
Definition no_fiducial_mc : fiducial_mc := mkFidMC None None None None.
(** [set_fiducial_MC], gpry/run.py:1400-1457 (points of the wrong dimension all have the same). *)
Definition set_fiducial_MC (X : list pt) (logpost loglike w : option (list num)) (f : fiducial_mc)
    : fiducial_mc * res unit :=
  if negb (forallb dim_ok X) then (f, Err TypeError)
  else
    let f := mkFidMC (Some X) (m_w f) (m_logpost f) (m_loglike f) in
    match (match w with
           | None => Ok f
           | Some w => if length w =? length X then Ok (mkFidMC (m_X f) (Some w) (m_logpost f) (m_loglike f))
                       else Err TypeError
           end) with
    | Err x => (f, Err x)
    | Ok f =>
        let prior := map logprior X in
        match logpost, loglike with
        | Some _, Some _ => (f, Err TypeError)
        | None, None => (f, Ok tt)
        | Some p, None =>
            if length p =? length X
            then (mkFidMC (m_X f) (m_w f) (Some p) (Some (map (fun q => nsub (fst q) (snd q)) (combine p prior))), Ok tt)
            else (f, Err TypeError)
        | None, Some l =>
            if length l =? length X
            then (mkFidMC (m_X f) (m_w f) (Some (map (fun q => nadd (fst q) (snd q)) (combine l prior))) (Some l), Ok tt)
            else (f, Err TypeError)
        end
    end.
End Fiducial.
Arguments fiducial : clear implicits. Arguments fiducial_mc : clear implicits.

(** ** Monte Carlo samples *)
(** A dictionary from names to columns: [None], one number per sample, or one point per sample. *)
Inductive column_ := CNone | CVec (v : list num) | CMat (m : list (list num)).
Definition sample := list (string * column_).
Definition get_key (k : string) (s : sample) : res column_ :=
  match find (fun p => String.eqb (fst p) k) s with Some p => Ok (snd p) | None => Err KeyError end.
(** [d[k] = v]. *)
Fixpoint put_key (k : string) (v : column_) (s : sample) : sample :=
  match s with
  | [] => [(k, v)]
  | p :: s' => if String.eqb (fst p) k then (k, v) :: s' else p :: put_key k v s'
  end.
Definition del_key (k : string) (s : sample) : sample := filter (fun p => negb (String.eqb (fst p) k)) s.

(** The part of [generate_mc_sample] after the sampler, gpry/run.py:1672-1679 and 1702-1711, for points
    [X], log-posteriors [y] and weights [w]. *)
Definition store_sample (logprior : list num -> num) (X : list (list num)) (y : list num) (w : option (list num))
    : sample :=
  let prior := map logprior X in
  [("w", match w with Some w => CVec w | None => CNone end);
   ("X", CMat X);
   ("logpost", CVec y);
   ("logprior", CVec prior);
   ("loglike", CVec (map (fun q => nsub (fst q) (snd q)) (combine y prior)))]%string.
(** The log-posterior Cobaya stores for the model of gpry/mc.py:42-101: its own normalised uniform prior
    within the bounds plus the likelihood, which is the prediction plus the logarithm of the prior volume
    (lines 93-98); [minuslogpost] is negated again in gpry/run.py:1704. *)
Definition cobaya_logpost (predict : list num -> num) (log_volume : num) (x : list num) : num :=
  let lkl := nadd (predict x) log_volume in
  let minuslogpost := nneg (nadd (nneg log_volume) lkl) in
  nneg minuslogpost.

(** What [last_mc_samples] returns. *)
Inductive mc_result := RDict (s : option sample) | RFrame (s : sample) | RGetdist.
(** The columns of [X.T], [d] of them. *)
Definition transpose (d : nat) (X : list (list num)) : list (list num) :=
  map (fun j => map (fun x => nth j x NaN) X) (seq 0 d).
(** Lines 1729-1735, on the dictionary; also returns what is left of it. All points have as many
    coordinates as there are parameters, so the columns have the same length. *)
Definition to_frame (params : list string) (s : sample) : sample * res sample :=
  match get_key "w" s with
  | Err x => (s, Err x)
  | Ok w =>
      match (match w with
             | CNone => match get_key "logpost" s with
                        | Ok (CVec y) => Ok (put_key "w" (CVec (repeat (nz 1) (length y))) s)
                        | Ok _ => Err TypeError
                        | Err x => Err x
                        end
             | _ => Ok s
             end) with
      | Err x => (s, Err x)
      | Ok s =>
          match get_key "X" s with
          | Err x => (s, Err x)
          | Ok (CMat X) =>
              let s := del_key "X" s in
              let s := fold_left (fun s q => put_key (fst q) (CVec (snd q)) s)
                         (combine params (transpose (length params) X)) s in
              (s, Ok s)
          | Ok _ => (del_key "X" s, Err AttributeError)
          end
      end
  end.
(** [last_mc_samples], gpry/run.py:1716-1745: the stored sample afterwards, and the result. GetDist
    works on a copy (np.copy in gpry/mc.py:517). With no sample stored, [None["w"]] and [None.get]. *)
Definition last_mc_samples (params : list string) (copy as_pandas as_getdist : bool) (stored : option sample)
    : option sample * res mc_result :=
  if as_pandas && as_getdist then (stored, Err ValueError)
  else if as_pandas then
    match stored with
    | None => (None, Err TypeError)
    | Some s => let '(s', r) := to_frame params s in
                (Some (if copy then s else s'), do f <- r; Ok (RFrame f))
    end
  else if as_getdist then (stored, match stored with None => Err AttributeError | Some _ => Ok RGetdist end)
  else (stored, Ok (RDict stored)).

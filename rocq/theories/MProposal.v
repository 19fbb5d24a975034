(** Model of gpry/proposal.py: the proposers that are in use (the ones after line 322 are marked there as unused).

    Randomness is a list of draws that are consumed in order; a draw that the generator could not have produced at
    that place, or the end of the list, gives [None]. So [get] returning [Some] means that the call has ended, and
    the theorems hold for all lists of draws. Points are vectors, also in one dimension. Warnings are left out. *)
From Verif Require Import Base Num MTools STools.

Definition point := list num.
Definition box := list (num * num).

Inductive draw :=
| DPoint (x : point)         (* [truth.prior_sample], [truth.ref_sample], a multivariate normal *)
| DUnit (u : list num)       (* the underlying draw of scipy.stats.uniform, in [0, 1) per dimension *)
| DCoin (u : num)            (* [rng.random()] *)
| DChoice (idx : list nat)   (* [rng.choice(n, size=m, replace=False)] *)
| DKick (k : list num).      (* [kicking_pdf.rvs(d)], exponential *)

(** The classes. [Sampled]: ReferenceProposer (gpry/proposal.py:97-114) and PriorProposer (117-133).
    [Uniform]: 136-160. [Partial]: 163-215, with the bounds of its uniform proposer. [MeanCov]: 218-255.
    [Centroids]: 258-319. *)
Inductive proposer :=
| Sampled (b : box)
| Uniform (b : box)
| Partial (rpf : num) (b : box) (p : proposer)
| MeanCov (b : box) (mean : point) (mean_used : bool)
| Centroids (b : box) (training training_ : option mat).

(** [PartialProposer.__init__], gpry/proposal.py:187-200. *)
Definition new_partial (b : box) (p : proposer) (rpf : num) : res proposer :=
  if nltb (nz 1) rpf || nltb rpf (nz 0) then Err ValueError else Ok (Partial rpf b p).
(** [MeanCovProposer.__init__], gpry/proposal.py:241-247; [CentroidsProposer.__init__], 272-278. *)
Definition new_meancov (b : box) (mean : point) (include_mean : bool) : proposer := MeanCov b mean (negb include_mean).
Definition new_centroids (b : box) : proposer := Centroids b None None.

(** [update], gpry/proposal.py:80-88, 210-211, 310-312. [X] is [gpr.X_train]. *)
Fixpoint update (X : mat) (p : proposer) : proposer :=
  match p with
  | Partial rpf b p => Partial rpf b (update X p)
  | Centroids b _ t_ => Centroids b (Some X) t_
  | p => p
  end.
(** [update_bounds], gpry/proposal.py:68-78, 150-156, 213-215, 314-319. *)
Fixpoint update_bounds (b : box) (p : proposer) : res proposer :=
  match p with
  | Sampled _ => Ok (Sampled b)
  | Uniform _ => Ok (Uniform b)
  | Partial rpf _ p => do p <- update_bounds b p; Ok (Partial rpf b p)
  | MeanCov _ m u => Ok (MeanCov b m u)
  | Centroids _ None t_ => Ok (Centroids b None t_)
  | Centroids _ (Some X) _ =>
      do within <- is_in_bounds (Mat X) (box_arr b) true;
      Ok (Centroids b (Some X) (Some (mkMat (nc X) (mask within (rows X)))))
  end.

(** The loop of [check_in_bounds], gpry/proposal.py:29-40. The first test, of [np.nan], fails (there is at least
    one dimension). *)
Fixpoint reject (b : box) (draws : list draw) : option (res point * list draw) :=
  match draws with
  | DPoint x :: ds =>
      if length x =? length b then
        match is_in_bounds (Vec x) (box_arr b) false with
        | Ok (true :: _) => Some (Ok x, ds)
        | Ok _ => reject b ds
        | Err e => Some (Err e, ds)
        end
      else None
  | _ => None
  end.

(** [UniformProposer.get], gpry/proposal.py:150-160: [scipy.stats.uniform(loc, scale).rvs] raises for a scale that is not at least 0. *)
Definition unit_draw (n : nat) (u : list num) : bool :=
  (length u =? n) && forallb (fun v => nleb (nz 0) v && nltb v (nz 1)) u.
Definition uniform_get (b : box) (draws : list draw) : option (res point * list draw) :=
  if negb (forallb (fun lh => nleb (nz 0) (nsub (snd lh) (fst lh))) b) then Some (Err ValueError, draws)
  else match draws with
  | DUnit u :: ds =>
      if unit_draw (length b) u then
        Some (Ok (map (fun p => nadd (nmul (snd p) (nsub (snd (fst p)) (fst (fst p)))) (fst (fst p))) (combine b u)), ds)
      else None
  | _ => None
  end.

Definition choice_draw (n m : nat) (idx : list nat) : bool :=
  (length idx =? m) && forallb (fun i => i <? n) idx && (length (nodup Nat.eq_dec idx) =? m).
Definition kick_draw (n : nat) (k : list num) : bool := (length k =? n) && forallb (fun v => isfin v && nleb (nz 0) v) k.
(** [np.clip]. *)
Definition clip (x lo hi : num) : num := npmin2 (npmax2 x lo) hi.
(** [np.average(subset, axis=0)] in dimension [i]. *)
Definition average (subset : list point) (i : nat) : num :=
  ndiv (fold_left nadd (map (fun x => nth i x NaN) subset) (nz 0)) (nz (Z.of_nat (length subset))).
(** [CentroidsProposer.get], gpry/proposal.py:297-308, after the choice of the subset. *)
Definition kicked (b : box) (subset : list point) (js : list nat) (k : list num) : point :=
  map (fun i =>
    let c := average subset i in
    let kick := nmul (nadd (nneg c) (nth i (nth (nth i js 0) subset []) NaN)) (nth i k NaN) in
    let lh := nth i b (NaN, NaN) in
    clip (nadd c kick) (fst lh) (snd lh)) (seq 0 (length b)).
(** [CentroidsProposer.get], gpry/proposal.py:286-308. *)
Definition centroids_get (b : box) (training training_ : option mat) (draws : list draw) : option (res point * list draw) :=
  let m := S (length b) in
  match training_ with
  | None => Some (Err TypeError, draws)             (* len(None) *)
  | Some t_ =>
      let source := if m <=? length (rows t_) then Some (rows t_) else
                    match training with
                    | Some t => if m <=? length (rows t) then Some (rows t) else None
                    | None => None
                    end in
      match source with
      | None => Some (Err (match training with Some _ => ValueError | None => TypeError end), draws)
      | Some pts =>
          match draws with
          | DChoice idx :: DChoice js :: DKick k :: ds =>
              if choice_draw (length pts) m idx && choice_draw m (length b) js && kick_draw (length b) k then
                Some (Ok (kicked b (map (fun i => nth i pts []) idx) js k), ds)
              else None
          | _ => None
          end
      end
  end.

(** [get]; [main]: whether this is the main process, gpry/proposal.py:253. *)
Fixpoint get (main : bool) (p : proposer) (draws : list draw) : option (res point * proposer * list draw) :=
  match p with
  | Sampled b => option_map (fun r => (fst r, p, snd r)) (reject b draws)
  | Uniform b => option_map (fun r => (fst r, p, snd r)) (uniform_get b draws)
  | Partial rpf b p0 =>                                                  (* 204-208 *)
      match draws with
      | DCoin u :: ds =>
          if nltb rpf u then option_map (fun r => (fst (fst r), Partial rpf b (snd (fst r)), snd r)) (get main p0 ds)
          else option_map (fun r => (fst r, p, snd r)) (uniform_get b ds)
      | _ => None
      end
  | MeanCov b mean used =>                                               (* 250-255 *)
      let draws := if negb used && main then DPoint mean :: draws else draws in
      option_map (fun r => (fst r, MeanCov b mean true, snd r)) (reject b draws)
  | Centroids b t t_ => option_map (fun r => (fst r, p, snd r)) (centroids_get b t t_ draws)
  end.

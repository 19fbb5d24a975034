(** Model of the mean and covariance matrix a runner reports: [Runner.update_mean_cov] (gpry/run.py:1335-1352), which looks for them in the sample given, in the acquisition engine
    (gpry/gp_acquisition.py:267-268 for [BatchOptimizer], 946-954 for [NORA]) and in the convergence criteria (gpry/convergence.py:297-298, 487-509); and of the covariance matrix found in a
    checkpoint (gpry/mc.py:276-283). What is computed from a sample is in [MKl]. Definitions only. *)
From Verif Require Export MCbSample.

Inductive attr := Mean | Cov.
Section MeanCov.
(** Means and covariance matrices; samples. [stats]: [mean_covmat_from_samples]; [average], [covariance]: [np.average] and [np.cov] with [ddof=0]. *)
Context {V S : Type}.
Variable stats : S -> res (V * V).
Variable average covariance : S -> res V.
(** An object, as far as these attributes go: reading one may raise, or give None. *)
Definition object := attr -> res (option V).
(** [getattr(o, a, None)]: of what a property raises only AttributeError is caught. *)
Definition getattr (o : object) (a : attr) : res (option V) := match o a with Err AttributeError => Ok None | r => r end.
(** [BatchOptimizer]: [mean_] and [cov] are None, there is no [mean]. *)
Definition batch_optimizer : object := fun a => match a with Mean => Err AttributeError | Cov => Ok None end.
(** [NORA] with its last sample, if any; [None.T] raises AttributeError. *)
Definition nora (last : option S) : object := fun a =>
  match last with
  | None => Err AttributeError
  | Some s => do v <- match a with Mean => average s | Cov => covariance s end; Ok (Some v)
  end.
(** A criterion based on a divergence, with what it has found so far; other criteria have neither attribute. *)
Inductive criterion := Divergence (mean cov : option V) | OtherCriterion.
Definition criterion_object (c : criterion) : object := fun a =>
  match c with Divergence m c => Ok (match a with Mean => m | Cov => c end) | OtherCriterion => Err AttributeError end.
(** [Runner.convergence] is a list of criteria: a list has neither attribute. *)
Definition list_of_criteria (l : list criterion) : object := fun _ => Err AttributeError.

(** Lines 1344-1351 in the main process; [given]: from the sample passed. *)
Definition attribute (given : option (V * V)) (acq conv : object) (a : attr) : res (option V) :=
  match given with
  | Some p => Ok (Some (match a with Mean => fst p | Cov => snd p end))
  | None => do v <- getattr acq a; match v with Some v => Ok (Some v) | None => getattr conv a end
  end.
(** [update_mean_cov] in all processes, each with its [mean] and [cov]; the main process sends its own to the others, one attribute after the other. [sample]: passed in all processes. *)
Definition update_mean_cov (sample : option S) (acq conv : object) (procs : list (option V * option V)) : list (option V * option V) * res unit :=
  match (match sample with Some s => do p <- stats s; Ok (Some p) | None => Ok None end) with
  | Err x => (procs, Err x)
  | Ok given =>
      match attribute given acq conv Mean with
      | Err x => (procs, Err x)
      | Ok m =>
          let procs := map (fun p => (m, snd p)) procs in
          match attribute given acq conv Cov with
          | Err x => (procs, Err x)
          | Ok c => (map (fun p => (fst p, c)) procs, Ok tt)
          end
      end
  end.
(** mc.py:276-283 for a surrogate loaded from a checkpoint: the covariance matrices of the engine and of the criteria. *)
Definition checkpoint_covs (acq conv : object) : res (option V * option V) :=
  do a <- getattr acq Cov;
  match a with Some _ => Ok (a, None) | None => do c <- getattr conv Cov; Ok (None, c) end.
End MeanCov.
Arguments object : clear implicits. Arguments criterion : clear implicits.

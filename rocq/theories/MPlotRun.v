(** Model of the progress plots of a run: [Runner.plot_progress] (gpry/run.py:1470-1592), how the loop calls it (gpry/run.py:1011-1019), and where plots are saved (gpry/run.py:678-690, 1910-1925).
    What is drawn is left out; any plot may fail. Definitions only. *)
From Verif Require Export MNsFile.

(** The options of [plot_progress]. *)
Record plot_options := mkPlots { p_ext : string; p_timing : bool; p_convergence : bool; p_trace : bool; p_slices : bool; p_corner : bool }.
Definition default_plots : plot_options := mkPlots "png" true true true false false.
(** The argument [plots] of a runner: a boolean, or a dictionary of options. *)
Inductive plot_value := PBool (b : bool) | PStr (s : string).
Inductive plots_arg := PlotsBool (b : bool) | PlotsDict (d : list (string * plot_value)).
(** [plot_progress( **d )]: unknown names raise TypeError. For the flags any value counts by its truth; a flag as [ext] gives its name as extension. *)
Definition truthy (v : plot_value) : bool := match v with PBool b => b | PStr s => negb (String.eqb s "") end.
Definition as_text (v : plot_value) : string := match v with PBool b => if b then "True" else "False" | PStr s => s end.
Definition set_option (o : plot_options) (k : string) (v : plot_value) : res plot_options :=
  if String.eqb k "ext" then Ok (mkPlots (as_text v) (p_timing o) (p_convergence o) (p_trace o) (p_slices o) (p_corner o))
  else if String.eqb k "timing" then Ok (mkPlots (p_ext o) (truthy v) (p_convergence o) (p_trace o) (p_slices o) (p_corner o))
  else if String.eqb k "convergence" then Ok (mkPlots (p_ext o) (p_timing o) (truthy v) (p_trace o) (p_slices o) (p_corner o))
  else if String.eqb k "trace" then Ok (mkPlots (p_ext o) (p_timing o) (p_convergence o) (truthy v) (p_slices o) (p_corner o))
  else if String.eqb k "slices" then Ok (mkPlots (p_ext o) (p_timing o) (p_convergence o) (p_trace o) (truthy v) (p_corner o))
  else if String.eqb k "corner" then Ok (mkPlots (p_ext o) (p_timing o) (p_convergence o) (p_trace o) (p_slices o) (truthy v))
  else Err TypeError.
Fixpoint set_options (o : plot_options) (d : list (string * plot_value)) : res plot_options :=
  match d with [] => Ok o | (k, v) :: d => do o <- set_option o k v; set_options o d end.

(** ["%03d"] *)
Definition pad3 (n : nat) : string :=
  let s := str_of_nat n in
  match String.length s with 1 => String "0" (String "0" s) | 2 => String "0" s | _ => s end.
(** Lines 678-685. *)
Definition plots_path (checkpoint : option string) : string := match checkpoint with Some c => os_path_join c "images" | None => "images"%string end.

(** The plots. *)
Inductive plot := Timing | Convergence | Trace | Slices | Corner | Triangle.
Section Run.
(** Whether preparing, drawing and saving each plot succeeds; whether the fiducial sample can be turned into one of GetDist; whether the samples of the corner plot can be prepared, and there are any. *)
Variable outcome : plot -> res unit.
Variable fiducial : res unit.
Variable corner_samples : res bool.
Variables has_fiducial converged : bool.
Variable folder : string.
Variable iteration : nat.
Definition file_of (o : plot_options) (p : plot) : string :=
  os_path_join folder (match p with
    | Timing => "timing" | Convergence => "convergence" | Trace => "trace" | Slices => "slices" | Corner => "corner_it_" ++ pad3 iteration | Triangle => "Surrogate_triangle" end
    ++ "." ++ p_ext o)%string.
(** One plot: its file is there if it succeeds. *)
Definition make_plot (o : plot_options) (asked : bool) (p : plot) : list string * res unit :=
  if asked then match outcome p with Ok _ => ([file_of o p], Ok tt) | Err x => ([], Err x) end else ([], Ok tt).
Definition andthen (a b : list string * res unit) : list string * res unit :=
  match a with (l, Ok _) => (l ++ fst b, snd b) | (l, Err x) => (l, Err x) end.
(** Lines 1566-1592: exceptions of the corner plot, and of the plot of the final sample after it, are caught. *)
Definition corner_part (o : plot_options) : list string * res unit :=
  if p_corner o then
    match corner_samples with
    | Err x => ([], Err x)
    | Ok any => (fst (andthen (make_plot o any Corner) (make_plot o converged Triangle)), Ok tt)
    end
  else ([], Ok tt).
(** [plot_progress] in the main process: the files written. *)
Definition plot_progress (o : plot_options) : list string * res unit :=
  andthen (make_plot o (p_timing o) Timing)
  (andthen (make_plot o (p_convergence o) Convergence)
  (andthen ([], if p_trace o || p_corner o && has_fiducial then fiducial else Ok tt)
  (andthen (make_plot o (p_trace o) Trace)
  (andthen (make_plot o (p_slices o) Slices) (corner_part o))))).
(** Lines 1011-1019, in each iteration: files written; what is raised is caught (and logged). An empty dictionary is false. *)
Definition loop_plots (plots : plots_arg) : list string :=
  match plots with
  | PlotsBool false | PlotsDict [] => []
  | PlotsBool true => fst (plot_progress default_plots)
  | PlotsDict d => match set_options default_plots d with Ok o => fst (plot_progress o) | Err _ => [] end
  end.
End Run.

(** [plot_distance_distribution], lines 1910-1925: its two files. [splitext] of a path looks at its last component only. *)
Definition distance_files (folder : string) (ext : string) (output : option string) (split : string -> string * string) : string * string :=
  match output with
  | None => (os_path_join folder ("Distance_distribution." ++ ext), os_path_join folder ("Distance_distribution_density." ++ ext))
  | Some p => (p, (fst (split p) ++ "_density" ++ snd (split p)))
  end%string.

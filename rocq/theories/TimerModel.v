(** The timing report: OpenMPTimer and SimpleTimer (src/utils/monitoring), the
    places where the solvers start and stop their timers, and
    print_solver_monitoring_info (src/shared/solver_utils.h:16-62).

    Clock readings are exact reals, each at least the one before it
    (simplifications: no rounding of the sums, a clock that is never set back).
    CudaTimer measures with events instead; it is not modelled. *)
From Coq Require Import Reals List Bool ZArith.
From Verif Require Import FactoryModel.
Import ListNotations.
Open Scope R_scope.

(** TimerIds, SolverBase.h:35-42. *)
Inductive tid := TIMER_TOTAL | TIMER_IO | TIMER_DT | TIMER_BOUNDARIES | TIMER_NUM_SCHEME.
Definition tid_eqb (a b : tid) : bool :=
  match a, b with
  | TIMER_TOTAL, TIMER_TOTAL | TIMER_IO, TIMER_IO | TIMER_DT, TIMER_DT
  | TIMER_BOUNDARIES, TIMER_BOUNDARIES | TIMER_NUM_SCHEME, TIMER_NUM_SCHEME => true
  | _, _ => false
  end.

(** OpenMPTimer.h:41-44. *)
Record timer := Timer { start_time : R; total_time : R }.
(** OpenMPTimer::start, stop, elapsed (OpenMPTimer.cpp:50-76; SimpleTimer.cpp:54-92):
    [now] is the clock reading. *)
Definition t_start (now : R) (x : timer) : timer := Timer now (total_time x).
Definition t_stop (now : R) (x : timer) : timer := Timer (start_time x) (total_time x + (now - start_time x)).
Definition elapsed (x : timer) : R := total_time x.
(** The map of timers, SolverBase.h:156-157. *)
Definition timers := tid -> timer.
Definition upd (m : timers) (i : tid) (x : timer) : timers := fun j => if tid_eqb j i then x else m j.
(** The constructors, SolverBase.cpp:41-45 and OpenMPTimer.cpp:20-25: the clock
    readings of the implied [start()] are arbitrary. *)
Definition fresh (c : tid -> R) : timers := fun i => Timer (c i) 0.

Inductive event := Start (i : tid) | Stop (i : tid).
Definition act (e : event) (now : R) (m : timers) : timers :=
  match e with Start i => upd m i (t_start now (m i)) | Stop i => upd m i (t_stop now (m i)) end.
(** The events of a program part happen in order; arbitrary work, so arbitrary time,
    passes before each. *)
Inductive exec : timers -> R -> list event -> timers -> R -> Prop :=
| ex_nil m t : exec m t [] m t
| ex_cons m t e es m' t' now : t <= now -> exec (act e now m) now es m' t' -> exec m t (e :: es) m' t'.

(** save_solution_impl: SolverHydroMuscl.h:812-818, SolverMHDMuscl.h:899-905,
    SolverHydroMood.h:1660-1666, SolverHydroSDM.h:2045-2049. *)
Definition save_events : list event := [Start TIMER_IO; Stop TIMER_IO].
(** The rest of a step.  Hydro: next_iteration_impl and godunov_unsplit_impl
    (SolverHydroMuscl.h:731-737, SolverHydroMuscl.cpp:263-321, 336-401); MOOD:
    SolverHydroMood.h:821-823, 864-896; SDM: SolverHydroSDM.h:925-927, 959-987.
    MHD: SolverMHDMuscl.cpp:379-456, 471-570, the time step is computed inside the
    scheme. *)
Definition step_events (s : solver) : list event :=
  match s with
  | SolverMHDMuscl _ =>
      [Start TIMER_BOUNDARIES; Stop TIMER_BOUNDARIES; Start TIMER_NUM_SCHEME;
       Start TIMER_DT; Stop TIMER_DT; Stop TIMER_NUM_SCHEME]
  | _ =>
      [Start TIMER_DT; Stop TIMER_DT; Start TIMER_BOUNDARIES; Stop TIMER_BOUNDARIES;
       Start TIMER_NUM_SCHEME; Stop TIMER_NUM_SCHEME]
  end.
(** One step; [o] tells whether an output is due (SolverHydroMuscl.h:705-730 and the
    same place of the other solvers). *)
Definition iteration_events (s : solver) (o : bool) : list event :=
  (if o then save_events else []) ++ step_events s.
(** main.cpp:145-166: [edge] is [params.nOutput != 0], [outs] has an entry per step. *)
Definition main_events (s : solver) (edge : bool) (outs : list bool) : list event :=
  (if edge then save_events else []) ++
  [Start TIMER_TOTAL] ++ flat_map (fun o => iteration_events s (edge && o)) outs ++ [Stop TIMER_TOTAL] ++
  (if edge then save_events else []).

(** print_solver_monitoring_info, solver_utils.h:20-60: the five times, the
    percentage of a part, and the performance figure. *)
Definition percent (m : timers) (i : tid) : R := 100 * elapsed (m i) / elapsed (m TIMER_TOTAL).
Definition perf (m : timers) (m_iteration m_nCells nProcs : Z) : R :=
  IZR (m_iteration * m_nCells * nProcs) / elapsed (m TIMER_TOTAL) * / 1000000.
(** m_nCells: SolverHydroMuscl.h:196, SolverMHDMuscl.h:256, SolverHydroMood.h:255-258,
    SolverHydroSDM.h:425-433 (C++ int is unbounded). *)
Definition m_nCells (dim isize jsize ksize : Z) : Z :=
  (if dim =? 2 then isize * jsize else isize * jsize * ksize)%Z.

(** The main loop: src/main.cpp:143-180 and src/shared/SolverBase.cpp, with
    SolverHydroMuscl::next_iteration_impl.  SolverMHDMuscl computes the time step
    inside godunov_unsplit, after the conversion to primitive variables; see MhdLoop2.v.

    The time variables [m_t], [m_dt], [m_tEnd] are C++ doubles; their arithmetic
    is the parameter [TT].  The field data live in a memory [store T]; the
    numerical scheme enters through two relations, the local CFL time step and
    one integration step.  Counters are C++ ints; they never exceed nStepmax + 2
    resp. the number of iterations + 2, so overflow is not modelled.  Console
    output and timers are not modelled.  A zero [nlog] makes
    [m_iteration % m_nlog] undefined, so an iteration requires [nlog <> 0]. *)
From Coq Require Import ZArith List Bool.
From Verif Require Import Arith Par HydroKernels.
Import ListNotations.
Open Scope Z_scope.

(** Settings read by SolverBase::read_config (SolverBase.cpp:116-144) and
    HydroParams::setup (HydroParams.cpp:30-36). *)
Record lconf (TT : Type) := LConf {
  l_tEnd : TT;
  l_nStepmax : Z;
  l_nOutput : Z;
  l_nlog : Z
}.
Arguments LConf {TT}. Arguments l_tEnd {TT}. Arguments l_nStepmax {TT}. Arguments l_nOutput {TT}. Arguments l_nlog {TT}.

(** A snapshot given to the writer: file number, time, and the array and memory
    it is taken from. *)
Record snap (TT T : Type) := Snap { sn_num : Z; sn_time : TT; sn_array : Z; sn_mem : store T }.
Arguments Snap {TT T}. Arguments sn_num {TT T}. Arguments sn_time {TT T}. Arguments sn_array {TT T}. Arguments sn_mem {TT T}.

(** The solver object: members m_t, m_dt, m_iteration, m_times_saved, the
    arrays, and the snapshots written so far (most recent first). *)
Record sim (TT T : Type) := Sim {
  m_t : TT; m_dt : TT; m_iteration : Z; m_times_saved : Z;
  mem : store T;
  written : list (snap TT T)
}.
Arguments Sim {TT T}. Arguments m_t {TT T}. Arguments m_dt {TT T}. Arguments m_iteration {TT T}.
Arguments m_times_saved {TT T}. Arguments mem {TT T}. Arguments written {TT T}.

Section Loop.
Context {TT T : Type} {AT : Arith TT}.
Variable c : lconf TT.
(** compute_dt_local on the array given; one Godunov step from one array to the
    other with a given time step. *)
Variable dt_local : Z -> store T -> TT -> Prop.
Variable godunov : Z -> Z -> TT -> store T -> store T -> Prop.

(** C++ [m_iteration % 2 == 0] ? U : U2 (SolverHydroMuscl.h:656-660, 748-757,
    811-816).  m_iteration is never negative. *)
Definition current (it : Z) : Z := if Z.rem it 2 =? 0 then aU else aU2.
Definition other (it : Z) : Z := if Z.rem it 2 =? 0 then aU2 else aU.

(** SolverBase::compute_dt (SolverBase.cpp:149-179), the clipping part.  The
    reduction over processes is in MpiModel.v. *)
Definition clip_dt (t dtl : TT) : TT :=
  if ltb (l_tEnd c) (add t dtl) then sub (l_tEnd c) t else dtl.

(** SolverBase::finished (SolverBase.cpp:196-201). *)
Definition finished (s : sim TT T) : bool :=
  leb (sub (l_tEnd c) (lit 1 100000000000000)) (m_t s) || (l_nStepmax c <=? m_iteration s).

(** SolverBase::save_solution (SolverBase.cpp:235-244) with
    SolverHydroMuscl::save_solution_impl (SolverHydroMuscl.h:807-820). *)
Definition save_solution (s : sim TT T) : sim TT T :=
  Sim (m_t s) (m_dt s) (m_iteration s) (m_times_saved s + 1) (mem s)
      (Snap (m_times_saved s) (m_t s) (current (m_iteration s)) (mem s) :: written s).

(** SolverBase::should_save_solution (SolverBase.cpp:265-290);
    THRESHOLD is 1e-12 (src/shared/utils.h:20-22). *)
Definition should_save_solution (s : sim TT T) : bool :=
  let interval := div (l_tEnd c) (lit (l_nOutput c) 1) in
  if l_nOutput c <? 0 then true
  else if ltb interval (sub (m_t s) (mul (lit (m_times_saved s - 1) 1) interval)) then true
  else if ltb (absv (sub (m_t s) (l_tEnd c))) (lit 1 1000000000000) then true
  else false.

(** HydroParams.cpp:34-36: enableOutput is cleared when nOutput is 0. *)
Definition enableOutput : bool := negb (l_nOutput c =? 0).

(** The output part of next_iteration_impl (SolverHydroMuscl.h:714-729). *)
Definition maybe_save (s : sim TT T) : sim TT T :=
  if enableOutput then if should_save_solution s then save_solution s else s else s.

(** SolverBase::next_iteration (SolverBase.cpp:206-220) with
    SolverHydroMuscl::next_iteration_impl (SolverHydroMuscl.h:695-739) and
    godunov_unsplit (746-760). *)
Inductive next_iteration (s : sim TT T) : sim TT T -> Prop :=
| NextIteration dtl mem' :
    l_nlog c <> 0 ->
    dt_local (current (m_iteration s)) (mem s) dtl ->
    godunov (current (m_iteration s)) (other (m_iteration s)) (clip_dt (m_t s) dtl) (mem s) mem' ->
    next_iteration s
      (Sim (add (m_t s) (clip_dt (m_t s) dtl)) (clip_dt (m_t s) dtl) (m_iteration s + 1)
           (m_times_saved (maybe_save s)) mem' (written (maybe_save s))).

(** [while (!solver->finished()) solver->next_iteration();] (main.cpp:154-159):
    [loop n s s'] - after [n] iterations the loop has gone from [s] to [s']. *)
Inductive loop : nat -> sim TT T -> sim TT T -> Prop :=
| LoopZero s : loop 0 s s
| LoopMore n s s1 s2 : loop n s s1 -> finished s1 = false -> next_iteration s1 s2 -> loop (S n) s s2.

(** The run: initial save, loop, final save (main.cpp:145-166); both saves are
    guarded by [params.nOutput != 0]. *)
Definition edge_save (s : sim TT T) : sim TT T := if l_nOutput c =? 0 then s else save_solution s.
Inductive run (s s' : sim TT T) : Prop :=
| Run n s1 : loop n (edge_save s) s1 -> finished s1 = true -> s' = edge_save s1 -> run s s'.
End Loop.

(** Memory safety as a property of executions: in every reachable configuration
    the next access of every thread is to an allocated location. *)
From Coq Require Import ZArith List Bool.
From Verif Require Import Arith Par GridModel HydroState HydroKernels MoodPoly MoodKernels.
Import ListNotations.
Open Scope Z_scope.

Definition next_in {T} (P : loc -> Prop) (q : prog T unit) : Prop :=
  match q with
  | Ret _ => True
  | Rd l _ => P l
  | Wr l _ _ => P l
  | Rmw l _ _ => P l
  end.
(** Loop [ps] started in [s], whatever the schedule. *)
Definition loop_safe {T} (P : loc -> Prop) (s : store T) (ps : list (prog T unit)) : Prop :=
  forall s' ps', pstar (s, ps) (s', ps') -> forall q, In q ps' -> next_in P q.
(** A sequence of loops. *)
Fixpoint loops_safe {T} (P : loc -> Prop) (kers : list (list (prog T unit))) (s : store T) : Prop :=
  match kers with
  | [] => True
  | ps :: kers' => loop_safe P s ps /\ forall s', par_exec s ps s' -> loops_safe P kers' s'
  end.

(** The arrays allocated by the constructor, SolverHydroMood.h:266-385:
    [MoodFlags] has one component, the others [nbvar]; U_RK1 and U_RK2 exist only
    for the integrators that use them. *)
Definition allocatedM {T} (m : mcfg T) (g : grid) (ti : integrator) (l : loc) : Prop :=
  0 <= li l < isize g /\ 0 <= lj l < jsize g /\ (if d3 m then 0 <= lk l < ksize g else lk l = 0) /\
  ((la l = aFlags /\ lv l = 0) \/
   (0 <= lv l < nbvar g /\
    (In (la l) [aU; aU2; aFx; aFy] \/ (d3 m = true /\ la l = aFz) \/
     (exists icoef, 0 <= icoef < Z.of_nat (ncoefs m) /\ la l = aPoly icoef) \/
     (la l = aRK1 /\ ti <> FE) \/ (la l = aRK2 /\ (ti = RK3 \/ ti = RK54))))).

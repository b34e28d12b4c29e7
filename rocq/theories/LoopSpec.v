(** Vocabulary for the statements about the main loop. *)
From Coq Require Import ZArith List Bool Reals.
From Verif Require Import Arith Par GridModel BoundarySpec HydroState HydroPoint HydroKernels HydroSpec ReduceModel.
Import ListNotations.
Open Scope Z_scope.

(** A numerical solution: starting from time and data [z], each step uses a
    time step allowed by the CFL condition of the current data, shortened so as
    not to pass [tEnd]. *)
Section Trajectory.
Context {TT X : Type} {AT : Arith TT}.
Variable tEnd : TT.
Variable cfl_dt : X -> TT -> Prop.
Variable adv : TT -> X -> X.
Definition shortened (t d : TT) : TT := if ltb tEnd (add t d) then sub tEnd t else d.
Inductive trajectory : nat -> TT * X -> TT * X -> Prop :=
| traj_start z : trajectory 0 z z
| traj_step n z t x d : trajectory n z (t, x) -> cfl_dt x d ->
    trajectory (S n) z (add t (shortened t d), adv (shortened t d) x).
End Trajectory.

(** Interior contents of a state array in memory. *)
Definition holds2 {T} (g : grid) (u : Z -> Z -> Z -> T) (a : Z) (m : store T) : Prop :=
  forall i j v, inside2 g i j -> 0 <= v < 4 -> m (Loc a i j 0 v) = u i j v.
Definition holds3 {T} (g : grid) (u : Z -> Z -> Z -> Z -> T) (a : Z) (m : store T) : Prop :=
  forall i j k v, inside3 g i j k -> 0 <= v < 5 -> m (Loc a i j k v) = u i j k v.
(** The gravity field in memory. *)
Definition gravity_is2 {T} (G : Z -> Z -> Z -> T) (m : store T) : Prop := forall i j d, m (Loc aG i j 0 d) = G i j d.
Definition gravity_is3 {T} (G : Z -> Z -> Z -> Z -> T) (m : store T) : Prop := forall i j k d, m (Loc aG i j k d) = G i j k d.

(** Consecutive numbers starting at [k]. *)
Definition numbers (k : Z) (n : nat) : list Z := map (fun i => k + Z.of_nat i) (List.seq 0 n).

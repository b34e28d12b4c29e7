(** Kokkos::parallel_reduce and the time-step computation of the hydrodynamics
    solver. *)
From Coq Require Import ZArith List Bool Permutation.
From Verif Require Import Arith Par GridModel HydroState HydroPoint HydroKernels.
Import ListNotations.
Open Scope Z_scope.

(** Kokkos::parallel_reduce with a reducer: the iterations are distributed over
    threads in any way and order; every thread starts from the reducer's
    identity value and applies the functor to its iterations; the partial
    results are joined in any order. *)
Section Reduce.
Context {I T : Type}.
Variable ident : T.
Variable step : I -> T -> T.     (* functor body: new value of the thread's accumulator *)
Variable join : T -> T -> T.
Inductive partial : list I -> T -> Prop :=
| p_init : partial [] ident
| p_step l acc x : partial l acc -> partial (x :: l) (step x acc)
| p_join l1 l2 a b : partial l1 a -> partial l2 b -> partial (l1 ++ l2) (join a b).
Definition reduces (items : list I) (r : T) : Prop :=
  exists l, Permutation l items /\ partial l r.
End Reduce.

Section ComputeDt.
Context {T : Type} {A : Arith T}.
Variable p : hparams T.
Variable g : grid.
(** Kokkos::reduction_identity<real_t>::max(), the lowest finite number. *)
Variable lowest : T.

(** ComputeDtFunctor2D::operator(), HydroRunFunctors2D.h:46-77, and
    ComputeDtGravityFunctor2D::operator(), 125-172. *)
Definition load_hs2 (s : store T) (a i j : Z) : hs T :=
  HS (s (Loc a i j 0 ID)) (s (Loc a i j 0 IP)) (s (Loc a i j 0 IU)) (s (Loc a i j 0 IV)) zero.
Definition load_hs3 (s : store T) (a i j k : Z) : hs T :=
  HS (s (Loc a i j k ID)) (s (Loc a i j k IP)) (s (Loc a i j k IU)) (s (Loc a i j k IV)) (s (Loc a i j k IW)).
Definition dt_body2 (ge : bool) (s : store T) (a : Z) (c : Z * Z * Z) (acc : T) : T :=
  let '(i, j, _) := c in
  if interior2 g i j then
    let u := load_hs2 s a i j in
    maxv acc (if ge then invdt_cell_gravity2 p u (s (Loc aG i j 0 IX)) (s (Loc aG i j 0 IY))
              else invdt_cell2 p u)
  else acc.
(** ComputeDtFunctor3D, HydroRunFunctors3D.h:48-84 and ComputeDtGravityFunctor3D,
    131-185. *)
Definition dt_body3 (ge : bool) (s : store T) (a : Z) (c : Z * Z * Z) (acc : T) : T :=
  let '(i, j, k) := c in
  if interior3 g i j k then
    let u := load_hs3 s a i j k in
    maxv acc (if ge then invdt_cell_gravity3 p u (s (Loc aG i j k IX)) (s (Loc aG i j k IY)) (s (Loc aG i j k IZ))
              else invdt_cell3 p u)
  else acc.

(** SolverHydroMuscl<dim>::compute_dt_local, SolverHydroMuscl.h:649-691: [a] is
    the current array (U on even iterations, U2 on odd ones). *)
Definition compute_dt_local2 (ge : bool) (s : store T) (a : Z) (dt : T) : Prop :=
  exists invDt, reduces lowest (dt_body2 ge s a) maxv (cells2 g) invDt /\ dt = div (cfl p) invDt.
Definition compute_dt_local3 (ge : bool) (s : store T) (a : Z) (dt : T) : Prop :=
  exists invDt, reduces lowest (dt_body3 ge s a) maxv (cells3 g) invDt /\ dt = div (cfl p) invDt.
End ComputeDt.

(** The borders of the problem "wedge" of the MOOD solver, 2D:
    src/shared/BoundariesFunctorsWedge.h and the choice in make_boundaries,
    src/mood/SolverHydroMood.h:1430-1461. *)
From Coq Require Import ZArith List Bool.
From Verif Require Import Arith Par GridModel HydroState HydroKernels MhdState MhdInit HydroInit BoundaryModel SdmInit SdmBc.
Import ListNotations.
Open Scope Z_scope.

Section MoodWedge.
Context {T : Type} {A : Arith T}.
Variable m : slibm T.
Variable g : grid.
Variable h : hparams T.
Variable bx : MhdInit.box T.
Variable w : wedge T.
(** m_t, the time given to WedgeParams (SolverHydroMood.h:1442). *)
Variable t : T.
Variable a : Z.

(** Udata(i,j,ID) = rho1; Udata(i,j,IP) = e_tot1; ... (73-76, 114-117, 154-157). *)
Definition inflow_cell (i j : Z) : prog T unit :=
  let u := par_cons (wd_gamma w) (wd_post w) in
  bind (wr (Loc a i j 0 ID) (hD u)) (fun _ =>
  bind (wr (Loc a i j 0 IP) (hP u)) (fun _ =>
  bind (wr (Loc a i j 0 IU) (hU u)) (fun _ =>
  wr (Loc a i j 0 IV) (hV u)))).
(** for (iVar ...) Udata(i,j,iVar) = Udata(i0,j0,iVar) (93-95, 163-165). *)
Definition outflow_cell (i j i0 j0 : Z) : prog T unit :=
  for_each (zrange 0 (nbvar g)) (fun v => bind (rd (Loc a i0 j0 0 v)) (fun x => wr (Loc a i j 0 v) x)).
(** The reflecting loop (122-130); [sign] stays -1 once iVar has reached IV. *)
Definition wall_sign (v : Z) : T := if IV <=? v then opp one else one.

(** x, y (107, 147-148). *)
Definition wx (i : Z) : T := (xmin bx + dx h / two + ofZ (i - gw g) * dx h)%A.
Definition wy (j : Z) : T := (ymin bx + dy h / two + ofZ (j - gw g) * dy h)%A.

(** MakeBoundariesFunctor2D_wedge::operator() (33-175). *)
Definition wedge_functor (f : face) (index : Z) : prog T unit :=
  match f with
  | FACE_XMIN =>
      let j := index / gw g in
      let i := index - j * gw g in
      if (jmin g <=? j) && (j <=? jmax g) && (0 <=? i) && (i <? gw g) then inflow_cell i j else skip
  | FACE_XMAX =>
      let j := index / gw g in
      let i := index - j * gw g in
      let i := i + (nx g + gw g) in
      if (jmin g <=? j) && (j <=? jmax g) && (nx g + gw g <=? i) && (i <=? nx g + 2 * gw g - 1)
      then outflow_cell i j (nx g + gw g - 1) j else skip
  | FACE_YMIN =>
      let i := index / gw g in
      let j := index - i * gw g in
      if (imin g <=? i) && (i <=? imax g) && (0 <=? j) && (j <? gw g) then
        if (wx i <? wd_x w)%A then inflow_cell i j
        else assign_cell a (nbvar g) (i, j, 0) (i, 2 * gw g - 1 - j, 0) wall_sign
      else skip
  | FACE_YMAX =>
      let i := index / gw g in
      let j := index - i * gw g in
      let j := j + (ny g + gw g) in
      if (imin g <=? i) && (i <=? imax g) && (ny g + gw g <=? j) && (j <=? ny g + 2 * gw g - 1) then
        if (wx i <? wd_x w + wy j / ftan m (wd_angle w) + wd_delta m w t)%A then inflow_cell i j
        else outflow_cell i j i (ny g + gw g - 1)
      else skip
  | _ => skip
  end.

(** make_boundaries with m_problem_name = "wedge" (1436-1461). *)
Definition mood_wedge_boundaries : list (list (prog T unit)) :=
  let nbIter := gw g * Z.max (isize g) (jsize g) in
  map (fun f => parallel_for nbIter (wedge_functor f)) [FACE_XMIN; FACE_XMAX; FACE_YMIN; FACE_YMAX].
End MoodWedge.

(** The special borders of the problems "wedge" and "jet" of the spectral difference solver:
    src/sdm/SDM_Boundaries_Functors_Wedge.h, src/sdm/SDM_Boundaries_Functors_Jet.h, and the
    choice of the border, src/sdm/SolverHydroSDM.h:1574-1697, 1704-1852.

    As in SdmKernels.v the loop runs over the ghost cells of a face (the decoding of the
    loop index is that of src/shared/BoundariesFunctors.h), and what a cell does to a variable of
    a solution point is a task.  MPI: one process in each direction. *)
From Coq Require Import ZArith List Bool.
From Verif Require Import Arith Par GridModel BoundaryModel HydroState HydroKernels CellKernels MhdState MoodKernels MhdInit HydroInit
  TaskModel SdmGeom SdmKernels SdmInit.
Import ListNotations.
Open Scope Z_scope.

(** What a solution point of a ghost cell gets: a state, or the values of another point, each
    variable multiplied with a factor if there is one. *)
Inductive fill (T : Type) := Fixed (u : hs T) | From (n : Z) (q : cell) (sign : option (Z -> T)).
Arguments Fixed {T}. Arguments From {T}.

Section SdmBc.
Context {T : Type} {A : Arith T}.
Variable m : slibm T.
Notation lm := (hm (sm m)).
Variable b3 : bool.
Variable P : points T.
Variable g : grid.
Variable h : hparams T.
Variable bx : MhdInit.box T.
Notation N := (npts P).

Definition state_var (u : hs T) (v : Z) : T :=
  if v =? ID then hD u else if v =? IP then hP u else if v =? IU then hU u else if v =? IV then hV u else hW u.
(** [rule c q]: for point q of ghost cell c of the face at the low or high end of direction a;
    [From n q' f]: point q' of the cell with coordinate n along a. *)
Definition fill_task (arr a : Z) (rule : cell -> cell -> fill T) (c : cell) (k : cell * Z) : task T :=
  let '(q, v) := k in
  match rule c q with
  | Fixed u => Task [] [sloc b3 P arr c q v] (fun _ => [state_var u v])
  | From n q' f => Task [sloc b3 P arr (setc a n c) q' v] [sloc b3 P arr c q v]
      (fun vs => [match f with Some sg => mul (getl vs 0) (sg v) | None => getl vs 0 end])
  end.
Definition fill_face (arr a : Z) (hi : bool) (rule : cell -> cell -> fill T) : list (prog T unit) :=
  tasks_loop (filter (in_slab g a hi) (cells b3 g)) (fun c => map (fill_task arr a rule c) (list_prod (dofs b3 P) (vars b3))).

(** ** Wedge, 2D.  Distance travelled by the front along x: WedgeParams.h:48-51 *)
Definition wd_delta (w : wedge T) (t : T) : T := (wd_speed w / fcos lm (fpi lm / two - wd_angle w) * t)%A.
(** SDM_Boundaries_Functors_Wedge.h:104-127 (xmin), 129-157 (xmax), 159-212 (ymin), 214-272 (ymax) *)
Definition wedge_rule (w : wedge T) (t : T) (a : Z) (hi : bool) (c q : cell) : fill T :=
  let '(i, j, _) := c in let '(ix, iy, _) := q in
  let post := Fixed (par_cons (wd_gamma w) (wd_post w)) in
  let pre := Fixed (par_cons (wd_gamma w) (wd_pre w)) in
  let x := spx P g h bx i ix in
  let y := spy P g h bx j iy in
  if a =? IX then if hi then From (nx g + gw g - 1) (setc IX (N - 1 - ix) q) None else post
  else if hi then if (x <? wd_x w + y / ftan m (wd_angle w) + wd_delta w t)%A then post else pre
  else if (x <? wd_x w)%A then post
  else From (2 * gw g - 1 - j) (setc IY (N - 1 - iy) q) (Some (fun v => if IV <=? v then opp one else one)).
(** ** Jet: SDM_Boundaries_Functors_Jet.h:112-244 (2D), 311-562 (3D) *)
Definition in_nozzle (w : jet T) (y z : T) : bool :=
  if b3 then ((y - jt_pos w) * (y - jt_pos w) + (z - jt_pos w) * (z - jt_pos w) <? lit 1 4 * jt_width w * jt_width w)%A
  else ((jt_pos w - half * jt_width w <? y) && (y <? jt_pos w + half * jt_width w))%A.
Definition jet_rule (w : jet T) (a : Z) (hi : bool) (c q : cell) : fill T :=
  let '(i, j, k) := c in let '(ix, iy, iz) := q in
  if a =? IX then
    if hi then From (nx g + gw g - 1) (if b3 then q else setc IX (N - 1 - ix) q) None
    else if in_nozzle w (spy P g h bx j iy) (spz P g h bx k iz)
    then Fixed (par_cons (jt_gamma w) (jt_jet w)) else Fixed (par_cons (jt_gamma w) (jt_bulk w))
  else From (if hi then sizeN g a + gw g - 1 else gw g) q None.

(** ** Choice: make_boundaries_sdm_serial, SolverHydroSDM.h:1639-1697; with MPI
    make_boundaries_sdm_mpi, 1704-1852, which on one process and with no periodic border is
    make_boundary_sdm for each face (SdmKernels.boundaries). *)
Definition fill_all (arr : Z) (rule : Z -> bool -> cell -> cell -> fill T) : list (list (prog T unit)) :=
  concat (map (fun a => [fill_face arr a false (rule a false); fill_face arr a true (rule a true)]) (dirs b3)).
Definition sdm_boundaries (mpi_build : bool) (pr : sproblem T) (t : T) (arr : Z) : list (list (prog T unit)) :=
  if mpi_build then boundaries b3 P g arr
  else match pr with
  | SWedge w => if b3 then boundaries b3 P g arr else fill_all arr (wedge_rule w t)
  | SJet w => fill_all arr (jet_rule w)
  | _ => boundaries b3 P g arr
  end.
End SdmBc.

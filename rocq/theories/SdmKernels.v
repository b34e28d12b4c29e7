(** The parallel loops of the spectral difference solver and their sequence in one
    time step: src/sdm/SDM_Run_Functors.h, src/sdm/SDM_Interpolate_Functors.h,
    src/sdm/SDM_Flux_Functors.h, src/sdm/SDM_Boundaries_Functors.h,
    src/sdm/SolverHydroSDM.h.

    The code writes each functor once per dimension and direction; the model has
    one definition with a flag [b3] and a direction [dir].  A 2D cell (i,j) is
    (i,j,0), and a point inside a 2D cell has third coordinate 0.

    Modelled: the inviscid scheme without limiter and positivity correction
    (the defaults), the boundary conditions of every problem but "wedge" and
    "jet".  The loops [for ivar] that read or write one state are tasks. *)
From Coq Require Import ZArith List Bool.
From Verif Require Import Arith Par GridModel BoundaryModel HydroState RiemannModel HydroPoint
  HydroKernels MoodKernels TaskModel SdmGeom EulerModel.
Import ListNotations.
Open Scope Z_scope.
Open Scope prog_scope.

(** Array numbers (members of SolverHydroSDM, SolverHydroSDM.h:95-140). *)
Definition aFdiv := 30.
Definition aSF := 31.                        (* Fluxes *)
Definition aK (n : Z) := 40 + n.             (* U_RK1 ... U_RK4 *)

(** Replace one coordinate. *)
Definition setc (a n : Z) (q : cell) : cell :=
  let '(x, y, z) := q in if a =? IX then (n, y, z) else if a =? IY then (x, n, z) else (x, y, n).
Definition sizeN (g : grid) (a : Z) : Z := if a =? IX then nx g else if a =? IY then ny g else nz g.
Definition bc_of (g : grid) (a : Z) (hi : bool) : Z :=
  bc g (if a =? IX then (if hi then FACE_XMAX else FACE_XMIN)
        else if a =? IY then (if hi then FACE_YMAX else FACE_YMIN)
        else (if hi then FACE_ZMAX else FACE_ZMIN)).

Section Sdm.
Context {T : Type} {A : Arith T}.
Variable b3 : bool.
Variable P : points T.
Variable p : hparams T.
Variable g : grid.
Variable dt : T.
(** Contents of the uninitialised local variable [flux]. *)
Variable junk : cell -> cell -> hs T.
Notation N := (npts P).

Definition nbv : Z := if b3 then 5 else 4.
Definition vars : list Z := zrange 0 nbv.
Definition cells : list cell := cellsD b3 g.
Definition inside (c : cell) : bool := guard b3 g 0 (fun _ => 0) c.

(** Points of a cell: [m a] of them along direction [a]. *)
Definition box (m : Z -> Z) : list cell :=
  list_prod (list_prod (zrange 0 (m IX)) (zrange 0 (m IY))) (if b3 then zrange 0 (m IZ) else [0]).
Definition dofs : list cell := box (fun _ => N).
(** Lines of points along [dir], each named by its point with coordinate 0. *)
Definition lines (dir : Z) : list cell := box (fun a => if a =? dir then 1 else N).

Definition sloc (a : Z) (c q : cell) (v : Z) : loc :=
  let '(x, y, z) := q in at_cell a c (DofMap b3 N x y z v).
Definition floc (dir : Z) (c q : cell) (v : Z) : loc :=
  let '(x, y, z) := q in at_cell aSF c (DofMapFlux b3 N dir x y z v).

Definition getl (vs : list T) (i : Z) : T := nth (Z.to_nat i) vs zero.
(** HydroState as an array of [nbvar] values. *)
Definition of_list (vs : list T) : hs T :=
  HS (getl vs ID) (getl vs IP) (getl vs IU) (getl vs IV) (if b3 then getl vs IW else zero).
Definition to_list (f : hs T) : list T :=
  [hD f; hP f; hU f; hV f] ++ (if b3 then [hW f] else []).

(** ** SDM_Erase_Functor, SDM_Run_Functors.h:26-172; fluxes are erased through the
    numbering of direction X. *)
Definition erase_sol_task (a : Z) (c : cell) (k : cell * Z) : task T :=
  Task [] [sloc a c (fst k) (snd k)] (fun _ => [zero]).
Definition erase_sol (a : Z) : list (prog T unit) :=
  tasks_loop cells (fun c => map (erase_sol_task a c) (list_prod dofs vars)).
Definition erase_flux_task (c : cell) (k : cell * Z) : task T :=
  Task [] [floc IX c (fst k) (snd k)] (fun _ => [zero]).
Definition erase_flux : list (prog T unit) :=
  tasks_loop cells (fun c =>
    map (erase_flux_task c) (list_prod (box (fun a => if a =? IX then N + 1 else N)) vars)).

(** ** Interpolate_At_FluxPoints_Functor, SDM_Interpolate_Functors.h:68-162 (2D),
    164-332 (3D). *)
Definition floor_density (v : Z) (x : T) : T := if v =? ID then maxv x (smallr p) else x.
Definition interp_task (dir aIn : Z) (c : cell) (k : cell * Z) : task T :=
  let '(q, v) := k in
  Task (map (fun n => sloc aIn c (setc dir n q) v) (zrange 0 N))
       (map (fun n => floc dir c (setc dir n q) v) (zrange 0 (N + 1)))
       (fun vs => map (fun n => floor_density v (sol2flux P (getl vs) n)) (zrange 0 (N + 1))).
Definition interp (dir aIn : Z) : list (prog T unit) :=
  tasks_loop cells (fun c => map (interp_task dir aIn c) (list_prod (lines dir) vars)).

(** ** ComputeFluxAtFluxPoints_Functor, SDM_Flux_Functors.h:68-270 (2D), 280-585 (3D). *)
(** Flux at a point inside the cell (102-130, 183-211, ...). *)
Definition point_flux (dir : Z) (q : hs T) : hs T :=
  eul_flux b3 dir q (compute_pressure b3 (gamma0 p) q).
(** Flux at a face (136-172, 217-262, ...). *)
Definition face_flux (dir : Z) (qL qR j : hs T) : hs T :=
  let wL := swapd dir (convert_to_primitive b3 (gamma0 p) qL) in
  let wR := swapd dir (convert_to_primitive b3 (gamma0 p) qR) in
  swapd dir (if b3 then riemann_hydro3 p wL wR j else riemann_hydro2 p wL wR j).
(** First the points inside the cell, then, if there is a cell to the left, the
    face towards it, whose flux is stored in both cells. *)
Definition flux_keys (dir : Z) (c : cell) : list (cell * Z + cell) :=
  map inl (list_prod (lines dir) (zrange 1 N)) ++
  (if 0 <? coord c dir then map inr (lines dir) else []).
Definition flux_task (dir : Z) (c : cell) (k : cell * Z + cell) : task T :=
  match k with
  | inl (q, n) =>
      let l := map (floc dir c (setc dir n q)) vars in
      Task l l (fun vs => to_list (point_flux dir (of_list vs)))
  | inr q =>
      let l := map (floc dir (along_dir dir (-1) c) (setc dir N q)) vars ++
               map (floc dir c (setc dir 0 q)) vars in
      Task l l (fun vs =>
        let f := to_list (face_flux dir (of_list (firstn (Z.to_nat nbv) vs))
                            (of_list (skipn (Z.to_nat nbv) vs)) (junk c q)) in
        f ++ f)
  end.
Definition compute_flux (dir : Z) : list (prog T unit) :=
  tasks_loop cells (fun c => map (flux_task dir c) (flux_keys dir c)).

(** ** Interpolate_At_SolutionPoints_Functor with INTERPOLATE_DERIVATIVE,
    SDM_Interpolate_Functors.h:394-502 (2D), 504-704 (3D). *)
Definition spacing (dir : Z) : T := if dir =? IX then dx p else if dir =? IY then dy p else dz p.
Definition deriv_task (dir : Z) (c : cell) (k : cell * Z) : task T :=
  let '(q, v) := k in
  Task (map (fun n => floc dir c (setc dir n q) v) (zrange 0 (N + 1)) ++
        map (fun n => sloc aFdiv c (setc dir n q) v) (zrange 0 N))
       (map (fun n => sloc aFdiv c (setc dir n q) v) (zrange 0 N))
       (fun vs => map (fun n => add (getl vs (N + 1 + n))
                                    (flux2sol_derivative P (getl vs) n (div one (spacing dir))))
                      (zrange 0 N)).
Definition derivative (dir : Z) : list (prog T unit) :=
  tasks_loop cells (fun c => map (deriv_task dir c) (list_prod (lines dir) vars)).

(** ** compute_fluxes_divergence, SolverHydroSDM.h:1230-1263 and 1075-1095. *)
Definition per_dir (aIn dir : Z) : list (list (prog T unit)) :=
  [erase_flux; interp dir aIn; compute_flux dir; derivative dir].
Definition fluxes_divergence (aIn : Z) : list (list (prog T unit)) :=
  [erase_sol aFdiv] ++ concat (map (per_dir aIn) (dirs b3)) ++ (if b3 then [] else [erase_flux]).

(** ** SDM_Update_RK_Functor, SDM_Run_Functors.h:467-650. *)
Definition update_task (aOut a0 a1 : Z) (c0 c1 c2 : T) (c : cell) (k : cell * Z) : task T :=
  let '(q, v) := k in
  Task [sloc a0 c q v; sloc a1 c q v; sloc aFdiv c q v] [sloc aOut c q v]
       (fun vs => [add (add (mul c0 (getl vs 0)) (mul c1 (getl vs 1))) (mul (mul c2 dt) (getl vs 2))]).
Definition update_keys (c : cell) : list (cell * Z) := if inside c then list_prod dofs vars else [].
Definition update_RK (aOut a0 a1 : Z) (cf : T * T * T) : list (prog T unit) :=
  let '(c0, c1, c2) := cf in
  tasks_loop cells (fun c => map (update_task aOut a0 a1 c0 c1 c2 c) (update_keys c)).

(** ** MakeBoundariesFunctor_SDM, SDM_Boundaries_Functors.h:57-263 (2D), 265-690 (3D),
    for the face at the low or high end of direction [a].  The decoding of the
    loop index is that of src/shared/BoundariesFunctors.h (BoundaryModel.v), which
    visits every ghost cell of the face once; here the loop runs over these cells. *)
Definition in_slab (a : Z) (hi : bool) (c : cell) : bool :=
  if hi then (sizeN g a + gw g <=? coord c a) && (coord c a <=? sizeN g a + 2 * gw g - 1)
  else (0 <=? coord c a) && (coord c a <? gw g).
Definition bsource (bt : Z) (hi : bool) (n w i : Z) : Z :=
  if hi then
    if bt =? BC_DIRICHLET then 2 * n + 2 * w - 1 - i else if bt =? BC_NEUMANN then n + w - 1 else i - n
  else
    if bt =? BC_DIRICHLET then 2 * w - 1 - i else if bt =? BC_NEUMANN then w else n + i.
(** Index of the normal momentum. *)
Definition ivel (a : Z) : Z := if a =? IX then IU else if a =? IY then IV else IW.
Definition bc_task (arr a : Z) (hi : bool) (c : cell) (k : cell * Z) : task T :=
  let '(q, v) := k in
  let bt := bc_of g a hi in
  let src := setc a (bsource bt hi (sizeN g a) (gw g) (coord c a)) c in
  let q' := if bt =? BC_DIRICHLET then setc a (N - 1 - coord q a) q else q in
  Task [sloc arr src q' v] [sloc arr c q v]
       (fun vs => [if bt =? BC_DIRICHLET
                   then mul (getl vs 0) (if v =? ivel a then opp one else one) else getl vs 0]).
Definition make_boundary (arr a : Z) (hi : bool) : list (prog T unit) :=
  tasks_loop (filter (in_slab a hi) cells) (fun c => map (bc_task arr a hi c) (list_prod dofs vars)).
(** make_boundaries_sdm_serial, SolverHydroSDM.h:1636-1693. *)
Definition boundaries (arr : Z) : list (list (prog T unit)) :=
  concat (map (fun a => [make_boundary arr a false; make_boundary arr a true]) (dirs b3)).

(** ** Time integrators, SolverHydroSDM.h:1271-1530. *)
Definition forward_euler (a : Z) : list (list (prog T unit)) :=
  fluxes_divergence a ++ [update_RK a a a (one, zero, opp one)].
Definition ssprk2 (a : Z) : list (list (prog T unit)) :=
  fluxes_divergence a ++ [update_RK (aK 1) a a (one, zero, opp one)] ++
  boundaries (aK 1) ++ fluxes_divergence (aK 1) ++ [update_RK a a (aK 1) (half, half, opp half)].
Definition ssprk3 (a : Z) : list (list (prog T unit)) :=
  fluxes_divergence a ++ [update_RK (aK 1) a a (one, zero, opp one)] ++
  boundaries (aK 1) ++ fluxes_divergence (aK 1) ++
  [update_RK (aK 2) a (aK 1) (lit 3 4, lit 1 4, opp (lit 1 4))] ++
  boundaries (aK 2) ++ fluxes_divergence (aK 2) ++
  [update_RK a a (aK 2) (div one (lit 3 1), div two (lit 3 1), div (opp two) (lit 3 1))].
(** [rk54_coef]: decimals with 15 digits. *)
Definition dec (n : Z) : T := lit n 1000000000000000.
Definition rk54 (i : nat) : T * T * T :=
  nth i [(one, zero, dec (-391752226571890));
         (dec 444370493651235, dec 555629506348765, dec (-368410593050371));
         (dec 620101851488403, dec 379898148511597, dec (-251891774271694));
         (dec 178079954393132, dec 821920045606868, dec (-544974750228521));
         (dec 517231671970585, dec 96059710526147, dec (-63692468666290));
         (one, dec 386708617503269, dec (-226007483236906))] (zero, zero, zero).
Definition ssprk54 (a : Z) : list (list (prog T unit)) :=
  fluxes_divergence a ++ [update_RK (aK 1) a a (rk54 0)] ++
  boundaries (aK 1) ++ fluxes_divergence (aK 1) ++ [update_RK (aK 2) a (aK 1) (rk54 1)] ++
  boundaries (aK 2) ++ fluxes_divergence (aK 2) ++ [update_RK (aK 3) a (aK 2) (rk54 2)] ++
  boundaries (aK 3) ++ fluxes_divergence (aK 3) ++ [update_RK (aK 4) a (aK 3) (rk54 3)] ++
  [update_RK a (aK 2) (aK 3) (rk54 4)] ++
  boundaries (aK 4) ++ fluxes_divergence (aK 4) ++ [update_RK a a (aK 4) (rk54 5)].
(** time_integration_impl, SolverHydroSDM.h:935-989. *)
Definition time_integration (ti : integrator) (a : Z) : list (list (prog T unit)) :=
  boundaries a ++
  match ti with
  | FE => forward_euler a
  | RK2 => ssprk2 a
  | RK3 => ssprk3 a
  | RK54 => ssprk54 a
  end.
End Sdm.

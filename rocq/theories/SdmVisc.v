(** The viscous terms of the spectral difference solver:
    src/sdm/SDM_Interpolate_viscous_Functors.h, src/sdm/SDM_Viscous_Flux_Functors.h,
    src/sdm/SolverHydroSDM.h:1097-1220 and 1254-1263, and the pointwise viscous fluxes,
    src/shared/EulerEquations.h:183-240 (2D), 605-697 (3D).
    They are enabled when the viscosity mu is positive (SolverHydroSDM.h). *)
From Coq Require Import ZArith List Bool.
From Verif Require Import Arith Par GridModel BoundaryModel HydroState RiemannModel HydroPoint
  HydroKernels MoodKernels TaskModel SdmGeom EulerModel SdmKernels.
Import ListNotations.
Open Scope Z_scope.
Open Scope prog_scope.

(** Array numbers: Ugradx_v, Ugrady_v, Ugradz_v and FUgrad (SolverHydroSDM.h:190-197). *)
Definition aGv (dir : Z) := 71 + dir.
Definition aFU := 75.

Section Visc.
Context {T : Type} {A : Arith T}.
Variable b3 : bool.
Variable P : points T.
Variable p : hparams T.
Variable g : grid.
Variable mu : T.
Notation N := (npts P).

Definition dimn : Z := if b3 then 3 else 2.

(** ** flux_visc_x, flux_visc_y, flux_visc_z, EulerEquations.h:198-240 (2D), 621-697 (3D).
    [gt i j] is the derivative of velocity component [i] along direction [j]
    (enum gradientV_IDS_2d/3d, enums.h:93-119), [f] the diffusive term. *)
Section Flux.
Variable gt : Z -> Z -> T.
Variable vel f : Z -> T.
Definition tau_diag (a : Z) : T :=
  if b3 then mul (mul two mu) (sub (gt a a) (mul (div one (lit 3 1)) (add (add (gt IX IX) (gt IY IY)) (gt IZ IZ))))
  else mul (mul two mu) (sub (gt a a) (mul half (add (gt IX IX) (gt IY IY)))).
Definition flux_visc2 (dir : Z) : hs T :=
  if dir =? IX then
    let xx := tau_diag IX in let xy := mul mu (add (gt IY IX) (gt IX IY)) in
    HS zero (add (add (mul (vel IX) xx) (mul (vel IY) xy)) (f IX)) xx xy zero
  else
    let yy := tau_diag IY in let xy := mul mu (add (gt IY IX) (gt IX IY)) in
    HS zero (add (add (mul (vel IX) xy) (mul (vel IY) yy)) (f IY)) xy yy zero.
Definition flux_visc3 (dir : Z) : hs T :=
  let mk a b c := HS zero (add (add (add (mul (vel IX) a) (mul (vel IY) b)) (mul (vel IZ) c)) (f dir)) a b c in
  if dir =? IX then mk (tau_diag IX) (mul mu (add (gt IY IX) (gt IX IY))) (mul mu (add (gt IZ IX) (gt IX IZ)))
  else if dir =? IY then mk (mul mu (add (gt IX IY) (gt IY IX))) (tau_diag IY) (mul mu (add (gt IZ IY) (gt IY IZ)))
  else mk (mul mu (add (gt IX IZ) (gt IZ IX))) (mul mu (add (gt IY IZ) (gt IZ IY))) (tau_diag IZ).
Definition flux_visc (dir : Z) : hs T := if b3 then flux_visc3 dir else flux_visc2 dir.
End Flux.

(** Value [v] at a flux point, in the array [a]. *)
Definition gloc (a dir : Z) (c q : cell) (v : Z) : loc :=
  let '(x, y, z) := q in at_cell a c (DofMapFlux b3 N dir x y z v).

(** ** Interpolate_velocities_Sol2Flux_Functor, lines 88-190 (2D), 192-338 (3D), and
    Interpolate_velocity_gradients_Sol2Flux_Functor, lines 1016-1130 (2D), 1131-1301 (3D):
    along each line, the values of component [num] divided by those of component
    [den] at the solution points, interpolated to the flux points, become component [out]. *)
Definition ratio_task (dir aIn aOut num den out : Z) (c q : cell) : task T :=
  Task (map (fun n => sloc b3 P aIn c (setc dir n q) num) (zrange 0 N) ++
        map (fun n => sloc b3 P aIn c (setc dir n q) den) (zrange 0 N))
       (map (fun n => gloc aOut dir c (setc dir n q) out) (zrange 0 (N + 1)))
       (fun vs => map (fun n => sol2flux P (fun m => div (getl vs m) (getl vs (N + m))) n) (zrange 0 (N + 1))).
Definition vinterp (dir aIn aOut : Z) : list (prog T unit) :=
  tasks_loop (cells b3 g) (fun c =>
    map (fun k => ratio_task dir aIn aOut (IU + snd k) ID (snd k) c (fst k)) (list_prod (lines b3 P dir) (zrange 0 dimn))).
(** The gradients are divided by component ID, number 0, of the gradient array,
    which is the gradient of the x-velocity. *)
Definition ginterp (dir dg : Z) : list (prog T unit) :=
  tasks_loop (cells b3 g) (fun c =>
    map (fun k => ratio_task dir (aGv dg) aFU (snd k) ID (dimn + dimn * snd k + dg) c (fst k))
        (list_prod (lines b3 P dir) (zrange 0 dimn))).

(** ** Average_component_at_cell_borders_Functor, lines 419-497 (2D), 503-622 (3D).
    The constructor (379-387) initialises its member [var_index] with zeros, not with
    its argument, so that component 0 is averaged [nb] times. *)
Definition vaverage_task (dir arr : Z) (nb : nat) (c q : cell) : task T :=
  let l := [gloc arr dir (along_dir dir (-1) c) (setc dir N q) 0; gloc arr dir c (setc dir 0 q) 0] in
  Task l l (fun vs =>
    let '(a, b) := Nat.iter nb (fun ab => let m := mul half (add (fst ab) (snd ab)) in (m, m)) (getl vs 0, getl vs 1) in [a; b]).
Definition vaverage (dir arr : Z) (nb : nat) : list (prog T unit) :=
  tasks_loop (cells b3 g) (fun c =>
    map (vaverage_task dir arr nb c) (if 0 <? coord c dir then lines b3 P dir else [])).

(** ** Interp_grad_velocity_at_SolutionPoints_Functor, lines 696-790 (2D), 792-935 (3D):
    the derivative is stored for direction X in 2D (752), and added to the former
    value otherwise (778, 846, 882, 918). *)
Definition vgrad_acc (dir : Z) : bool := b3 || negb (dir =? IX).
Definition vgrad_task (dir : Z) (c : cell) (k : cell * Z) : task T :=
  let '(q, v) := k in
  Task (map (fun n => gloc aSF dir c (setc dir n q) v) (zrange 0 (N + 1)) ++
        map (fun n => sloc b3 P (aGv dir) c (setc dir n q) v) (zrange 0 N))
       (map (fun n => sloc b3 P (aGv dir) c (setc dir n q) v) (zrange 0 N))
       (fun vs => map (fun n =>
          let d := flux2sol_derivative P (getl vs) n (div one (spacing p dir)) in
          if vgrad_acc dir then add (getl vs (N + 1 + n)) d else d) (zrange 0 N)).
Definition vgrad (dir : Z) : list (prog T unit) :=
  tasks_loop (cells b3 g) (fun c => map (vgrad_task dir c) (list_prod (lines b3 P dir) (zrange 0 dimn))).

(** ** ComputeViscousFluxAtFluxPoints_Functor, SDM_Viscous_Flux_Functors.h:76-395.
    The constructor (76-85) does not initialise the member FUgrad: the velocities
    and gradients are read through an unset view (undefined behaviour).  [vnull dir c q k]
    stands for what such a read of component [k] yields. *)
Variable vnull : Z -> cell -> cell -> Z -> T.
Definition vflux_task (dir : Z) (c : cell) (k : cell * Z) : task T :=
  let '(q, n) := k in
  let r := vnull dir c (setc dir n q) in
  Task [] (map (floc b3 P dir c (setc dir n q)) (vars b3))
       (fun _ => to_list b3 (flux_visc (fun i j => r (dimn + dimn * i + j)) r (fun _ => zero) dir)).
Definition vflux (dir : Z) : list (prog T unit) :=
  tasks_loop (cells b3 g) (fun c => map (vflux_task dir c) (list_prod (lines b3 P dir) (zrange 0 (N + 1)))).

(** ** Interpolate_At_SolutionPoints_Functor with INTERPOLATE_DERIVATIVE_NEGATIVE,
    SDM_Interpolate_Functors.h:394-704, called with FUgrad (SolverHydroSDM.h:1170-1175). *)
Definition nderiv_task (dir : Z) (c : cell) (k : cell * Z) : task T :=
  let '(q, v) := k in
  Task (map (fun n => gloc aFU dir c (setc dir n q) v) (zrange 0 (N + 1)) ++
        map (fun n => sloc b3 P aFdiv c (setc dir n q) v) (zrange 0 N))
       (map (fun n => sloc b3 P aFdiv c (setc dir n q) v) (zrange 0 N))
       (fun vs => map (fun n => sub (getl vs (N + 1 + n))
                                    (flux2sol_derivative P (getl vs) n (div one (spacing p dir))))
                      (zrange 0 N)).
Definition nderiv (dir : Z) : list (prog T unit) :=
  tasks_loop (cells b3 g) (fun c => map (nderiv_task dir c) (list_prod (lines b3 P dir) (vars b3))).

(** ** compute_velocity_gradients, SolverHydroSDM.h:1183-1207. *)
Definition velocity_gradients (aIn dir : Z) : list (list (prog T unit)) :=
  [vinterp dir aIn aSF; vaverage dir aSF (Z.to_nat dimn); vgrad dir].
(** ** compute_viscous_fluxes_divergence_per_dir, SolverHydroSDM.h:1099-1177. *)
Definition viscous_per_dir (aIn dir : Z) : list (list (prog T unit)) :=
  [vinterp dir aIn aFU; vaverage dir aFU (Z.to_nat dimn)] ++ map (ginterp dir) (dirs b3) ++
  [vaverage dir aFU (Z.to_nat (dimn * dimn)); vflux dir; nderiv dir].
(** ** The end of compute_fluxes_divergence, SolverHydroSDM.h:1254-1263. *)
Definition viscous_terms (aIn : Z) : list (list (prog T unit)) :=
  concat (map (velocity_gradients aIn) (dirs b3)) ++ concat (map (viscous_per_dir aIn) (dirs b3)).
End Visc.

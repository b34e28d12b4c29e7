(** Time step and cell averages of the spectral difference solver:
    src/sdm/SDM_Dt_Functor.h, src/sdm/SolverHydroSDM.h (compute_dt_local) and
    Average_Conservative_Variables_Functor of src/sdm/SDM_Limiter_Functors.h. *)
From Coq Require Import ZArith List Bool Reals.
From Verif Require Import Arith Par GridModel HydroState HydroKernels MoodKernels ReduceModel SdmGeom EulerModel SdmKernels.
Import ListNotations.
Open Scope Z_scope.

Section Dt.
Context {T : Type} {A : Arith T}.
Local Open Scope arith_scope.
Variable b3 : bool.
Variable P : points T.
Variable p : hparams T.
Variable g : grid.
(** The initial value of the reduction, std::numeric_limits<real_t>::min(). *)
Variable tiny : T.

(** One point of ComputeDt_Functor_2d::operator(), SDM_Dt_Functor.h:277-315, and
    ComputeDt_Functor_3d::operator(), 409-470. *)
Definition sdm_rate (u : hs T) : T :=
  let dx := dx p / lit (npts P) 1 in
  let dy := dy p / lit (npts P) 1 in
  let dz := dz p / lit (npts P) 1 in
  let q := convert_to_primitive b3 (gamma0 p) u in
  let c := compute_speed_of_sound (gamma0 p) q in
  let vx := c + absv (hU q) in
  let vy := c + absv (hV q) in
  let vz := c + absv (hW q) in
  if b3 then vx / dx + vy / dy + vz / dz else vx / dx + vy / dy.
Definition load_point (s : store T) (a : Z) (c q : cell) : hs T :=
  of_list b3 (map (fun v => s (sloc b3 P a c q v)) (vars b3)).
(** The loop over the points of the cell; the order of the points is that of
    [dofs] (the code runs x fastest: for a maximum the order is immaterial). *)
Definition sdm_dt_body (s : store T) (a : Z) (c : cell) (acc : T) : T :=
  if inside b3 g c then fold_left (fun m q => maxv m (sdm_rate (load_point s a c q))) (dofs b3 P) acc else acc.
(** join, SDM_Dt_Functor.h:322-340, 474-492. *)
Definition sdm_join (dst src : T) : T := if ltb dst src then src else dst.
(** compute_dt_local, SolverHydroSDM.h:866-889; [pow3] stands for
    [pow(dt, (N + 1.0) / 3.0)]. *)
Definition rescale_sdm (pow3 : T -> T) (rescale : bool) (ti : integrator) (dt : T) : T :=
  if rescale && (2 <=? npts P)%Z && match ti with RK3 | RK54 => true | _ => false end then pow3 dt else dt.
Definition compute_dt_sdm (pow3 : T -> T) (rescale : bool) (ti : integrator) (s : store T) (a : Z) (dt : T) : Prop :=
  exists invDt, reduces tiny (sdm_dt_body s a) sdm_join (cells b3 g) invDt /\
    dt = rescale_sdm pow3 rescale ti (cfl p / invDt).
End Dt.

(** Average_Conservative_Variables_Functor, SDM_Limiter_Functors.h:70-116 (2D),
    122-178 (3D), for variable [v] of a cell with values [U] at its points.  The
    model is over the reals: the code uses M_PI and sqrt.  [fold_left] runs over
    [dofs], the code runs x fastest. *)
Section Average.
Variable b3 : bool.
Variable N : Z.
Variable p : hparams R.
Local Open Scope R_scope.
Definition cheb_weight (i : Z) : R := let x := sol_ptsR N i in R_sqrt.sqrt (x - x * x).
Definition sdm_average (U : cell -> R) (v : Z) : R :=
  let tmp := fold_left (fun tmp q => let '(x, y, z) := q in
      tmp + (if b3 then U q * cheb_weight x * cheb_weight y * cheb_weight z else U q * cheb_weight x * cheb_weight y))
      (dofs b3 (sdm_points N)) 0 in
  let h := PI / IZR N in
  let tmp := tmp * (if b3 then h * h * h else h * h) in
  if (v =? ID)%Z then (if Rlt_dec (smallr p) tmp then tmp else smallr p) else tmp.
End Average.

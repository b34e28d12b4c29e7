(** Initial conditions of the spectral difference solver: src/sdm/init/*.h,
    src/shared/problems/JetParams.h, WedgeParams.h, and the choice of the problem,
    src/sdm/SolverHydroSDM.h:665-723, 1866-2036.

    The formulas of implosion, blast, Kelvin-Helmholtz, four quadrants and isentropic
    vortex are those of the finite volume solver, written again at the solution points; they
    are the definitions of HydroInit.v here.  A value that an iteration writes and
    reads back at once is reused instead of re-read. *)
From Coq Require Import ZArith List Bool.
From Verif Require Import Arith Par GridModel HydroState HydroKernels CellKernels MhdState MoodKernels MhdInit HydroInit
  TaskModel SdmGeom SdmKernels.
Import ListNotations.
Open Scope Z_scope.

(** Further functions of <math.h>: fmod, tan. *)
Record slibm (T : Type) := SLibm { sm : hlibm T; ffmod : T -> T -> T; ftan : T -> T }.
Arguments SLibm {T}. Arguments sm {T}. Arguments ffmod {T}. Arguments ftan {T}.

(** JetParams.h:22-90: the value of gamma0 the constructor reads, the states (primitive
    variables) of the jet and of the bulk, position and width of the nozzle. *)
Record jet (T : Type) := Jet { jt_gamma : T; jt_jet : hs T; jt_bulk : hs T; jt_pos : T; jt_width : T }.
Arguments Jet {T}. Arguments jt_gamma {T}. Arguments jt_jet {T}. Arguments jt_bulk {T}. Arguments jt_pos {T}. Arguments jt_width {T}.
(** WedgeParams.h:21-82: gamma0, front position and angle, shock speed, states (primitive
    variables) behind and before the shock. *)
Record wedge (T : Type) := Wedge { wd_gamma : T; wd_x : T; wd_angle : T; wd_speed : T; wd_post : hs T; wd_pre : hs T }.
Arguments Wedge {T}. Arguments wd_gamma {T}. Arguments wd_x {T}. Arguments wd_angle {T}. Arguments wd_speed {T}.
Arguments wd_post {T}. Arguments wd_pre {T}.

Section SdmInit.
Context {T : Type} {A : Arith T}.
Variable m : slibm T.
Notation hmm := (sm m).
Notation lm := (hm (sm m)).
Variable b3 : bool.
Variable P : points T.
Variable g : grid.
Variable h : hparams T.
Variable bx : MhdInit.box T.

(** Lower left corner, then the point: x = xmin + (i + nx*i_mpi - ghostWidth)*dx;
    x += solution_pts_1d(idx)*dx, e.g. InitSodFunctor.h:98-103, 179-186. *)
Definition spx (i n : Z) : T := (xmin bx + ofZ (i + nx g * mpi bx IX - gw g)%Z * dx h + solp P n * dx h)%A.
Definition spy (j n : Z) : T := (ymin bx + ofZ (j + ny g * mpi bx IY - gw g)%Z * dy h + solp P n * dy h)%A.
Definition spz (k n : Z) : T := (zmin bx + ofZ (k + nz g * mpi bx IZ - gw g)%Z * dz h + solp P n * dz h)%A.
(** InitFourQuadrantFunctor.h:101-113: half a cell further. *)
Definition spx4 (i n : Z) : T := (xmin bx + dx h / two + ofZ (i + nx g * mpi bx IX - gw g)%Z * dx h + solp P n * dx h)%A.
Definition spy4 (j n : Z) : T := (ymin bx + dy h / two + ofZ (j + ny g * mpi bx IY - gw g)%Z * dy h + solp P n * dy h)%A.

(** ** Sod: InitSodFunctor.h:53-127 (2D), 134-217 (3D) *)
Definition ssod (x : T) : list (Z * T) :=
  if (x <? lit 1 2)%A then cons_assign b3 one (one / (gamma0 h - one))%A zero zero zero
  else cons_assign b3 (lit 1 8) (lit 1 10 / (gamma0 h - one))%A zero zero zero.

(** ** Shu-Osher: InitShuOsherFunctor.h:53-133 (2D), 139-228 (3D) *)
Definition sshu (x : T) : list (Z * T) :=
  let rho1 := (ofZ 27 / ofZ 7)%A in
  let p1 := (ofZ 31 / ofZ 3)%A in
  let v1 := (ofZ 4 * sqr (ofZ 35) / ofZ 9)%A in
  let rho2 := (one + fsin lm (ofZ 5 * x) / ofZ 5)%A in
  if (x <? ofZ (-4))%A
  then cons_assign b3 rho1 (p1 / (gamma0 h - one) + half * rho1 * v1 * v1)%A (rho1 * v1)%A zero zero
  else cons_assign b3 rho2 (one / (gamma0 h - one) + half * rho2 * zero * zero)%A (rho2 * zero)%A zero zero.

(** ** Gresho vortex: InitGreshoVortexFunctor.h:59-151 (2D), 157-262 (3D) *)
Definition sgresho (q : gresho T) (x y : T) : list (Z * T) :=
  let rho0 := gr_rho0 q in
  let p0 := (rho0 / (gamma0 h * gr_Ma q * gr_Ma q))%A in
  let r := sqr (x * x + y * y)%A in
  let theta := fatan2 hmm y x in
  let cosT := fcos lm theta in
  let sinT := fsin lm theta in
  let '(uphi, pr) := hgresho_profile hmm p0 r in
  let mu := (rho0 * (- sinT * uphi))%A in
  let mv := (rho0 * (cosT * uphi))%A in
  let mw := zero in
  cons_assign b3 rho0
    (pr / (gamma0 h - one) + half * (if b3 then mu * mu + mv * mv + mw * mw else mu * mu + mv * mv) / rho0)%A
    mu mv mw.

(** ** Isentropic vortex: InitIsentropicVortexFunctor.h:62-153 (2D), 160-263 (3D).  With
    [use_tEnd] (100-112, 205-218) the centre is moved to where it is at [tEnd]. *)
Definition moved_centre (q : vortex T) (tEnd : option T) : vortex T :=
  match tEnd with
  | None => q
  | Some t => Vortex (iv_rho q) (iv_p q) (iv_T q) (iv_u q) (iv_v q)
      (ffmod m (iv_x q + t * iv_u q) (xmax bx - xmin bx))%A (ffmod m (iv_y q + t * iv_v q) (ymax bx - ymin bx))%A (iv_beta q)
  end.
Definition svortex (q : vortex T) (tEnd : option T) (x y : T) : list (Z * T) := hvortex hmm b3 h (moved_centre q tEnd) x y.

(** ** Conservative variables of the jet and the wedge: JetParams.h:60-64, 77-81,
    WedgeParams.h:60-64, 74-78 (the energy has the z velocity also in 2D) *)
Definition par_cons (gam : T) (q : hs T) : hs T :=
  HS (hD q) (hP q / (gam - one) + half * hD q * (hU q * hU q + hV q * hV q + hW q * hW q))%A
     (hD q * hU q)%A (hD q * hV q)%A (hD q * hW q)%A.
Definition put_state (u : hs T) : list (Z * T) := cons_assign b3 (hD u) (hP u) (hU u) (hV u) (hW u).
(** ** Jet: InitJetFunctor.h:72-97 (2D), 104-133 (3D) *)
Definition sjet (q : jet T) : list (Z * T) := put_state (par_cons (jt_gamma q) (jt_bulk q)).
(** ** Wedge: InitWedgeFunctor.h:67-134 (2D), 141-220 (3D); slope_f = tan(angle_f), WedgeParams.h:46 *)
Definition swedge (q : wedge T) (x y : T) : list (Z * T) :=
  if (ftan m (wd_angle q) * (x - wd_x q) <? y)%A
  then put_state (par_cons (wd_gamma q) (wd_post q)) else put_state (par_cons (wd_gamma q) (wd_pre q)).

(** What WedgeParams.h:40-78 gives for a front at [x] with [angle] if nothing else is set. *)
Definition default_wedge (gam x angle : T) : wedge T :=
  let a := (angle - fpi lm / two)%A in
  Wedge gam x angle (ofZ 10) (HS (ofZ 8) (lit 1165 10) (lit 825 100 * fcos lm a)%A (lit 825 100 * fsin lm a)%A zero)
    (HS (lit 14 10) one zero zero zero).

(** ** Choice of the problem: SolverHydroSDM.h:665-723.  A name that is not recognised gives
    the implosion.  [rnd c q n]: the n-th number drawn at point q of cell c. *)
Inductive sproblem : Type :=
  | SSod | SImplode (q : implode T) | SBlast (q : blast T) | SFourQuadrant (n : Z) (xt yt : T)
  | SKelvinHelmholtz (rnd : cell -> cell -> Z -> T) (q : kh T) | SGresho (q : gresho T) | SWedge (q : wedge T) | SJet (q : jet T)
  | SVortex (q : vortex T) (tEnd : option T) | SShuOsher.
(** The assignments at one solution point; four quadrants in 3D: none
    (InitFourQuadrantFunctor.h:167-221). *)
Definition spoint (pr : sproblem) (c q : cell) : list (Z * T) :=
  let '(i, j, k) := c in let '(ix, iy, iz) := q in
  let x := spx i ix in let y := spy j iy in let z := spz k iz in
  match pr with
  | SSod => ssod x
  | SImplode a => himplode b3 h bx a x y z
  | SBlast a => hblast b3 h a x y z
  | SFourQuadrant n xt yt => if b3 then [] else hfour b3 h n xt yt (spx4 i ix) (spy4 j iy)
  | SKelvinHelmholtz rnd a => hkh hmm b3 h bx (rnd c q) a x y z
  | SGresho a => sgresho a x y
  | SWedge a => swedge a x y
  | SJet a => sjet a
  | SVortex a t => svortex a t x y
  | SShuOsher => sshu x
  end.
Definition init_task (pr : sproblem) (c q : cell) : task T :=
  let l := spoint pr c q in Task [] (map (fun a => sloc b3 P aU c q (fst a)) l) (fun _ => map snd l).
Definition init_sdm (pr : sproblem) : list (list (prog T unit)) :=
  [tasks_loop (cells b3 g) (fun c => map (init_task pr c) (dofs b3 P))].
End SdmInit.
Arguments sproblem : clear implicits.

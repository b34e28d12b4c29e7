(** Vocabulary for the statements about the initial conditions of the MOOD solver.  Shared with
    the other solvers (HydroInitSpec.v, SdmInitSpec.v): [prescribed], [either], [held], [point],
    [position], [behind_front], [vortex_gas]. *)
From Coq Require Import ZArith List Bool Reals.
From Coquelicot Require Import Coquelicot.
From Verif Require Import Arith Par GridModel HydroState HydroKernels CellKernels HydroSpec Physics MhdState MhdInit MhdInitSpec HydroInit HydroInitSpec MoodKernels TaskModel
  SdmGeom SdmKernels SdmInit SdmInitSpec MoodInit.
Import ListNotations.
Local Open Scope R_scope.

(** The primitive state that the parameters of the problem prescribe at a point.  The vortex is
    not prescribed at points: the cells hold averages (below). *)
Definition mprescribed (b3 : bool) (h : hparams R) (bx : MhdInit.box R) (pr : mproblem R) (X : point) (q : hs R) : Prop :=
  match pr with
  | MImplode => either (if b3 then / 2 < px X + py X + pz X < 5 / 2 else / 2 < px X + py X)
                  (HS 1 1 0 0 0) (HS (/ 8) (14 / 100) 0 0 0) q
  | MBlast a => prescribed b3 h bx (HBlast a) X q
  | MFourQuadrant n xt yt => prescribed b3 h bx (HFourQuadrant n xt yt) X q
  | MKelvinHelmholtz _ a => if kh_rand a then kh_random b3 bx a X q else q = kh_smooth b3 a X
  | MWedge a => either (behind_front a X) (planar b3 (wd_post a)) (planar b3 (wd_pre a)) q
  | MVortexP _ => False
  end.
(** Settings for which the prescribed state is reached. *)
Definition mgood (b3 : bool) (h : hparams R) (pr : mproblem R) : Prop :=
  match pr with
  | MImplode | MBlast _ | MFourQuadrant _ _ _ => True
  | MKelvinHelmholtz rnd a => 0 < kh_d_in a /\ 0 < kh_d_out a /\
      ((kh_rand a = true /\ forall c n, 0 <= rnd c n <= 1) \/ (kh_rand a = false /\ kh_sine_rob a = true /\ 0 < kh_delta a))
  | MWedge a => wd_gamma a = gamma0 h /\ 0 < cos (wd_angle a) /\ (b3 = false -> hW (wd_post a) = 0 /\ hW (wd_pre a) = 0)
  | MVortexP _ => False
  end.
Definition mmisses (b3 : bool) (h : hparams R) (bx : MhdInit.box R) (pr : mproblem R) (X : point) (u : hs R) : Prop :=
  forall q, mprescribed b3 h bx pr X q -> u <> conservative (gamma0 h) q.

(** The box of the process whose part of the domain begins at the lower corner. *)
Definition first_process (bx : MhdInit.box R) : MhdInit.box R :=
  MhdInit.Box (xmin bx) (xmax bx) (ymin bx) (ymax bx) (zmin bx) (zmax bx) (fun _ => 0%Z).

(** Mean of a function over the cell of sizes [a], [b] around (x, y). *)
Definition cell_mean (f : R -> R -> R) (x y a b : R) : R :=
  RInt (fun v => RInt (fun u => f u v) (x - a / 2) (x + a / 2)) (y - b / 2) (y + b / 2) / (a * b).
(** Polynomial with coefficients [l], lowest degree first. *)
Fixpoint poly (l : list R) (u : R) : R := match l with [] => 0 | c :: l => c + u * poly l u end.
(** Sum of products of a polynomial in u and one in v. *)
Fixpoint poly2 (l : list (list R * list R)) (u v : R) : R :=
  match l with [] => 0 | (p, q) :: l => poly p u * poly q v + poly2 l u v end.

(** Average of a state over the cell around (x, y), by [n] points per direction. *)
Definition averaged (h : hparams R) (n : Z) (G : R -> R -> hs R) (x y : R) : hs R :=
  HS (quadrature h n (fun u v => hD (G u v)) x y) (quadrature h n (fun u v => hP (G u v)) x y)
     (quadrature h n (fun u v => hU (G u v)) x y) (quadrature h n (fun u v => hV (G u v)) x y)
     (quadrature h n (fun u v => hW (G u v)) x y).

(** Vocabulary for the statements about the initial conditions of the spectral difference
    solver.  Shared with the finite volume solver (HydroInitSpec.v): [prescribed], [either],
    [gresho_gas], [vortex_gas], [point]. *)
From Coq Require Import ZArith List Bool Reals.
From Verif Require Import Arith Par GridModel HydroState HydroKernels CellKernels HydroSpec Physics MhdState MhdInit MhdInitSpec HydroInit HydroInitSpec MoodKernels TaskModel
  SdmGeom SdmKernels SdmInit.
Import ListNotations.
Local Open Scope R_scope.

(** fmod of C: same sign as [x], below [y] in absolute value. *)
Definition Rfmod (x y : R) : R :=
  if Rle_dec 0 (x / y) then x - y * IZR (Int_part (x / y)) else x + y * IZR (Int_part (- (x / y))).
Definition RSLibm : slibm R := SLibm RHLibm Rfmod tan.

(** Where solution point q of cell c of this process is. *)
Definition dof_position (P : points R) (g : grid) (h : hparams R) (bx : MhdInit.box R) (c q : cell) : point :=
  let '(i, j, k) := c in let '(ix, iy, iz) := q in
  Point (xmin bx + (IZR (i + nx g * mpi bx IX - gw g) + solp P ix) * dx h)
        (ymin bx + (IZR (j + ny g * mpi bx IY - gw g) + solp P iy) * dy h)
        (zmin bx + (IZR (k + nz g * mpi bx IZ - gw g) + solp P iz) * dz h).
(** Conservative state held at the point. *)
Definition sheld (b3 : bool) (P : points R) (s : store R) (c q : cell) : hs R :=
  HS (s (sloc b3 P aU c q ID)) (s (sloc b3 P aU c q IP)) (s (sloc b3 P aU c q IU)) (s (sloc b3 P aU c q IV))
     (if b3 then s (sloc b3 P aU c q IW) else 0).
Definition planar (b3 : bool) (q : hs R) : hs R := HS (hD q) (hP q) (hU q) (hV q) (if b3 then hW q else 0).

(** Behind the front: the line through (x,0) with the given angle to the x-axis. *)
Definition behind_front (w : wedge R) (X : point) : Prop := (px X - wd_x w) * sin (wd_angle w) < py X * cos (wd_angle w).
(** The vortex with its centre moved with the flow during [t], brought back into the periodic box. *)
Definition vortex_at (gam : R) (bx : MhdInit.box R) (q : vortex R) (t : R) (X : point) (u : hs R) : Prop :=
  exists n l : Z,
    let x := iv_x q + t * iv_u q + IZR n * (xmax bx - xmin bx) in
    let y := iv_y q + t * iv_v q + IZR l * (ymax bx - ymin bx) in
    xmin bx <= x < xmax bx /\ ymin bx <= y < ymax bx /\
    u = vortex_gas gam (Vortex (iv_rho q) (iv_p q) (iv_T q) (iv_u q) (iv_v q) x y (iv_beta q)) (px X) (py X).
(** Left state of the Shu-Osher problem, and the right one at x. *)
Definition shu_left : hs R := HS (27 / 7) (31 / 3) (4 * sqrt 35 / 9) 0 0.
Definition shu_right (x : R) : hs R := HS (1 + sin (5 * x) / 5) 1 0 0 0.

(** The primitive state that the parameters of the problem prescribe at a point *)
Definition sprescribed (b3 : bool) (h : hparams R) (bx : MhdInit.box R) (pr : sproblem R) (X : point) (q : hs R) : Prop :=
  match pr with
  | SSod => either (px X < / 2) (HS 1 1 0 0 0) (HS (/ 8) (/ 10) 0 0 0) q
  | SImplode a => prescribed b3 h bx (HImplode a) X q
  | SBlast a => prescribed b3 h bx (HBlast a) X q
  | SFourQuadrant n xt yt => prescribed b3 h bx (HFourQuadrant n xt yt) X q
  | SKelvinHelmholtz _ a => if kh_rand a then kh_random b3 bx a X q else q = kh_smooth b3 a X
  | SGresho a => q = gresho_gas (gamma0 h) a X
  | SWedge a => either (behind_front a X) (planar b3 (wd_post a)) (planar b3 (wd_pre a)) q
  | SJet a => q = planar b3 (jt_bulk a)
  | SVortex a None => q = vortex_gas (gamma0 h) a (px X) (py X)
  | SVortex a (Some t) => vortex_at (gamma0 h) bx a t X q
  | SShuOsher => either (px X < -4) shu_left (shu_right (px X)) q
  end.
(** Settings for which the prescribed state is reached. *)
Definition sgood (b3 : bool) (h : hparams R) (bx : MhdInit.box R) (pr : sproblem R) (X : point) : Prop :=
  match pr with
  | SImplode a => forall r, r = im_in a \/ r = im_out a -> at_rest b3 r \/ mD r = 1
  | SSod | SBlast _ | SShuOsher => True
  | SKelvinHelmholtz rnd a => (kh_rand a = true /\ forall c q n, 0 <= rnd c q n <= 1) \/ (kh_rand a = false /\ kh_sine_rob a = true)
  | SGresho a => gr_rho0 a <> 0 /\ gr_u a = 0 /\ gr_v a = 0 /\ gr_w a = 0
  | SFourQuadrant _ _ _ => False
  | SWedge a => wd_gamma a = gamma0 h /\ 0 < cos (wd_angle a) /\ (b3 = false -> hW (wd_post a) = 0 /\ hW (wd_pre a) = 0)
  | SJet a => jt_gamma a = gamma0 h /\ (b3 = false -> hW (jt_bulk a) = 0)
  | SVortex a t => iv_p a = iv_rho a * iv_T a /\ 0 < iv_T a /\
      (forall q, q = moved_centre RSLibm bx a t -> 0 < vortex_T (gamma0 h) q (px X) (py X)) /\
      match t with
      | None => True
      | Some t => xmin bx = 0 /\ ymin bx = 0 /\ 0 < xmax bx /\ 0 < ymax bx /\ 0 <= iv_x a + t * iv_u a /\ 0 <= iv_y a + t * iv_v a
      end
  end.
Definition smisses (b3 : bool) (h : hparams R) (bx : MhdInit.box R) (pr : sproblem R) (X : point) (u : hs R) : Prop :=
  forall q, sprescribed b3 h bx pr X q -> u <> conservative (gamma0 h) q.

(** The parallel loops of the MOOD solver and their sequence in one time step:
    src/mood/MoodPolynomialReconstructionFunctors.h, src/mood/MoodFluxesFunctors.h,
    src/mood/MoodUpdateFunctors.h, src/mood/MoodBaseFunctor.h,
    src/mood/SolverHydroMood.h.

    The code writes each functor twice, for 2D and for 3D.  The model has one
    definition with a flag [d3]; a 2D cell (i,j) is (i,j,0).  Every difference
    between the two versions shows as a test of [d3].

    [Kokkos::parallel_for(nbCells, functor)] with [index2coord] visits each cell of
    the array once (property C07), so the index sets are the lists of cells. *)
From Coq Require Import ZArith List Bool.
From Verif Require Import Arith Par GridModel BoundaryModel HydroState RiemannModel HydroPoint
  HydroKernels MoodPoly.
Import ListNotations.
Open Scope Z_scope.
Open Scope prog_scope.

(** Array numbers (members of SolverHydroMood, SolverHydroMood.h:95-130);
    U, U2 and the fluxes keep the numbers [aU], [aU2], [aFx], [aFy], [aFz]. *)
Definition aFlags := 20.
Definition aRK1 := 21.
Definition aRK2 := 22.
(** PolyCoefs[icoef]. *)
Definition aPoly (icoef : Z) := 100 + icoef.

Definition cell := (Z * Z * Z)%type.
Definition coord (c : cell) (a : Z) : Z :=
  let '(i, j, k) := c in if a =? IX then i else if a =? IY then j else k.
Definition shift (c : cell) (o : Z * Z * Z) : cell :=
  let '(i, j, k) := c in let '(x, y, z) := o in (i + x, j + y, k + z).
(** The neighbour at distance [n] along direction [dir]. *)
Definition unit_vec (dir n : Z) : Z * Z * Z :=
  if dir =? IX then (n, 0, 0) else if dir =? IY then (0, n, 0) else (0, 0, n).
Definition along_dir (dir n : Z) (c : cell) : cell := shift c (unit_vec dir n).
Definition at_cell (a : Z) (c : cell) (v : Z) : loc := let '(i, j, k) := c in Loc a i j k v.
Definition aFlux (dir : Z) : Z := if dir =? IX then aFx else if dir =? IY then aFy else aFz.
Definition sizeA (g : grid) (a : Z) : Z :=
  if a =? IX then isize g else if a =? IY then jsize g else ksize g.

(** What the template parameters <dim, degree, stencilId> and the constructor
    fix: the monomial map, the stencil, the number of quadrature points along a
    face edge, the pseudo-inverse and its number of columns. *)
Record mcfg (T : Type) := MCfg {
  d3 : bool;
  mm : list (list Z);
  os : list (Z * Z * Z);
  nbq : nat;
  mat_pi : nat -> nat -> T;
  mat_cols : nat
}.
Arguments MCfg {T}. Arguments d3 {T}. Arguments mm {T}. Arguments os {T}. Arguments nbq {T}.
Arguments mat_pi {T}. Arguments mat_cols {T}.

Definition dirs (b3 : bool) : list Z := if b3 then [IX; IY; IZ] else [IX; IY].
Definition cellsD (b3 : bool) (g : grid) : list cell := if b3 then cells3 g else cells2 g.

(** Cells whose coordinates [x] satisfy [ghostWidth + lo <= x < size - ghostWidth + hi a]
    in every direction [a]. *)
Definition guard (b3 : bool) (g : grid) (lo : Z) (hi : Z -> Z) (c : cell) : bool :=
  forallb (fun a => (gw g + lo <=? coord c a) && (coord c a <? sizeA g a - gw g + hi a)) (dirs b3).

Section Mood.
Context {T : Type} {A : Arith T}.

(** ** Local programs *)
(** State vector of a cell; in 2D there is no third momentum. *)
Definition ldv (b3 : bool) (a : Z) (c : cell) : prog T (hs T) :=
  d <- rd (at_cell a c ID) ;; e <- rd (at_cell a c IP) ;;
  u <- rd (at_cell a c IU) ;; v <- rd (at_cell a c IV) ;;
  if b3 then w <- rd (at_cell a c IW) ;; Ret (HS d e u v w) else Ret (HS d e u v zero).
Definition putv (b3 : bool) (a : Z) (c : cell) (q : hs T) : prog T unit :=
  wr (at_cell a c ID) (hD q) ;;; wr (at_cell a c IP) (hP q) ;;;
  wr (at_cell a c IU) (hU q) ;;; wr (at_cell a c IV) (hV q) ;;;
  if b3 then wr (at_cell a c IW) (hW q) else skip.
(** Read a list of things. *)
Fixpoint load_all {X Y} (f : X -> prog T Y) (xs : list X) : prog T (list Y) :=
  match xs with
  | [] => Ret []
  | x :: xs' => y <- f x ;; ys <- load_all f xs' ;; Ret (y :: ys)
  end.
Fixpoint assoc (o : Z * Z * Z) (os : list (Z * Z * Z)) (vs : list T) : T :=
  match os, vs with
  | o' :: os', v :: vs' =>
      let '(x, y, z) := o in let '(x', y', z') := o' in
      if (x =? x') && (y =? y') && (z =? z') then v else assoc o os' vs'
  | _, _ => zero
  end.

Variable m : mcfg T.
Variable p : hparams T.
Variable g : grid.
Variable dt : T.
(** Contents of uninitialised local variables: [flux_tmp] per cell and direction,
    [rhs] per cell and variable. *)
Variable junk : cell -> Z -> hs T.
Variable junkR : cell -> Z -> nat -> T.

Definition ncoefs : nat := length (mm m).
Definition nvar : Z := if d3 m then 5 else 4.
Definition interior (c : cell) : bool := guard (d3 m) g 0 (fun _ => 0) c.

(** ** Reconstruction, MoodPolynomialReconstructionFunctors.h:80-140 (2D),
    143-207 (3D).  In 3D the lower guard is [>= ghostWidth], not
    [>= ghostWidth-1]. *)
Definition recon_guard (c : cell) : bool :=
  guard (d3 m) g (if d3 m then 0 else -1) (fun _ => 1) c.
Definition put_poly (c : cell) (v : Z) (coefs : list T) : prog T unit :=
  for_each (combine (zrange 0 (Z.of_nat ncoefs)) coefs) (fun '(icoef, x) =>
    wr (at_cell (aPoly icoef) c v) x).
Definition reconstruct_body (aIn : Z) (c : cell) : prog T unit :=
  if recon_guard c then
    for_each (zrange 0 nvar) (fun v =>
      let l := (0, 0, 0) :: os m in
      vs <- load_all (fun o => rd (at_cell aIn (shift c o) v)) l ;;
      put_poly c v (poly_coefs (mat_pi m) (pred ncoefs) (mat_cols m) (os m)
                      (fun o => assoc o l vs) (junkR c v)))
  else skip.
Definition reconstruct (aIn : Z) := md_for (cellsD (d3 m) g) (reconstruct_body aIn).

(** ** Fluxes *)
(** isValid, MoodBaseFunctor.h:162-184 (2D: tests against 1e-6), 195-217 (3D:
    tests against 0).  computePrimitives of MoodBaseFunctor.h:84-152 is the
    function of HydroBaseFunctor2D/3D.h (same statements). *)
Definition prims (u : hs T) : hs T :=
  snd (if d3 m then computePrimitives3 p u else computePrimitives2 p u).
Definition valid_bound : T := if d3 m then zero else lit 1 1000000.
Definition isValid (u : hs T) : bool :=
  negb (ltb (hD u) valid_bound) && negb (ltb (hP (prims u)) valid_bound).

Definition map_hs {X Y} (f : X -> Y) (q : hs X) : hs Y :=
  HS (f (hD q)) (f (hP q)) (f (hU q)) (f (hV q)) (f (hW q)).

(** Coefficients of the polynomials of one cell, MoodFluxesFunctors.h:134-139. *)
Definition load_coefs (c : cell) (v : Z) : prog T (list T) :=
  load_all (fun icoef => rd (at_cell (aPoly icoef) c v)) (zrange 0 (Z.of_nat ncoefs)).
Definition load_poly (c : cell) : prog T (hs (list T)) :=
  d <- load_coefs c ID ;; e <- load_coefs c IP ;; u <- load_coefs c IU ;; v <- load_coefs c IV ;;
  if d3 m then w <- load_coefs c IW ;; Ret (HS d e u v w) else Ret (HS d e u v []).

(** Reconstructed state at quadrature point [iq] of a face: the upper face in
    direction [dir] when [max], else the lower one (MoodFluxesFunctors.h:141-157,
    417-437). *)
Definition state_at (P : hs (list T)) (dir : Z) (max : bool) (iq : nat) : hs T :=
  let '(x, y, z) :=
    if d3 m then quad_loc3 SQRT_3 SQRT_3_5 (nbq m) dir max iq
    else let '(x, y) := quad_loc2 SQRT_3 SQRT_3_5 (nbq m) dir max iq in (x, y, zero) in
  map_hs (eval (if d3 m then 3 else 2) (mm m) (mul x (dx p)) (mul y (dy p)) (mul z (dz p))) P.
(** polyCoefs[0] of a cell, all variables. *)
Definition state_0 (P : hs (list T)) : hs T := map_hs (fun l => nth 0 l zero) P.
(** Replacement of invalid states by cell values: both sides together in 2D
    (MoodFluxesFunctors.h:176-185), each side separately in 3D (444-460). *)
Definition pick (PL PR : hs (list T)) (dir : Z) (iq : nat) : hs T * hs T :=
  let UL := state_at PL dir true iq in
  let UR := state_at PR dir false iq in
  if d3 m then
    (if isValid UL then UL else state_0 PL, if isValid UR then UR else state_0 PR)
  else if negb (isValid UL) || negb (isValid UR) then (state_0 PL, state_0 PR) else (UL, UR).

Definition swapd (dir : Z) (q : hs T) : hs T :=
  if dir =? IX then q else if dir =? IY then swapUV q else swapUW q.
Definition riemann (ql qr j : hs T) : hs T :=
  if d3 m then riemann_hydro3 p ql qr j else riemann_hydro2 p ql qr j.
Definition sum_points (f : nat -> T) : T :=
  if d3 m then face_sum3 (nbq m) f else face_sum2 (nbq m) f.
(** Factor of the stored flux: [dtdx], [dtdy], and in 3D [dtdy] again for the Z
    flux (MoodFluxesFunctors.h:226,346,508,628,750). *)
Definition flux_factor (dir : Z) : T := if dir =? IX then dtdx p dt else dtdy p dt.
(** ComputeFluxesFunctor, one direction: MoodFluxesFunctors.h:112-228 and 234-348
    (2D); 392-510, 515-630, 633-752 (3D). *)
Definition high_flux (PL PR : hs (list T)) (dir : Z) (j : hs T) : hs T :=
  let pt iq := let '(UL, UR) := pick PL PR dir iq in
               riemann (swapd dir (prims UL)) (swapd dir (prims UR)) j in
  scale (swapd dir
    (HS (sum_points (fun iq => hD (pt iq))) (sum_points (fun iq => hP (pt iq)))
        (sum_points (fun iq => hU (pt iq))) (sum_points (fun iq => hV (pt iq)))
        (sum_points (fun iq => hW (pt iq))))) (flux_factor dir).
Definition face_guard (dir : Z) (c : cell) : bool :=
  guard (d3 m) g 0 (fun a => if a =? dir then 1 else 0) c.
Definition fluxes_body (c : cell) : prog T unit :=
  for_each (dirs (d3 m)) (fun dir =>
    if face_guard dir c then
      PR <- load_poly c ;; PL <- load_poly (along_dir dir (-1) c) ;;
      putv (d3 m) (aFlux dir) c (high_flux PL PR dir (junk c dir))
    else skip).
Definition compute_fluxes := md_for (cellsD (d3 m) g) fluxes_body.

(** ** Flags, MoodUpdateFunctors.h:551-609 (2D), 610-684 (3D) *)
(** Lower and upper flux of a cell in each direction. *)
Definition load_faces (c : cell) : prog T (list (hs T * hs T)) :=
  load_all (fun dir =>
    f <- ldv (d3 m) (aFlux dir) c ;; f' <- ldv (d3 m) (aFlux dir) (along_dir dir 1 c) ;;
    Ret (f, f')) (dirs (d3 m)).
(** [x + Fx(i) - Fx(i+1) + Fy(j) - Fy(j+1) ...] for one variable. *)
Definition add_faces (sel : hs T -> T) (fs : list (hs T * hs T)) (x : T) : T :=
  fold_left (fun acc ff => sub (add acc (sel (fst ff))) (sel (snd ff))) fs x.
(** The test uses [rho_new], but the pressure of the old state: [UNew] is built
    from [rho], [e], [u], [v] (MoodUpdateFunctors.h:589-593, 659-664). *)
Definition flag_value (u : hs T) (fs : list (hs T * hs T)) : T :=
  if ltb (add_faces hD fs (hD u)) zero || ltb (hP (prims u)) zero then one else zero.
Definition flags_body (aIn : Z) (c : cell) : prog T unit :=
  wr (at_cell aFlags c 0) zero ;;;
  if interior c then
    u <- ldv (d3 m) aIn c ;; fs <- load_faces c ;;
    wr (at_cell aFlags c 0) (flag_value u fs)
  else skip.
Definition compute_flags (aIn : Z) := md_for (cellsD (d3 m) g) (flags_body aIn).

(** ** RecomputeFluxesFunctor, MoodFluxesFunctors.h:820-946 (2D), 948-1128 (3D).
    [flagx], [flagy], [flagz] stay 0: the statements [Flags(i - 1, j, 0);] read
    and drop the neighbour's flag.  (Simplification: that read is left out.)
    2D always uses the HLL solver, 3D the configured one.  There is no test that
    the cell is an interior one. *)
Definition low_riemann (ql qr j : hs T) : hs T :=
  if d3 m then riemann_hydro3 p ql qr j else riemann_hll p false ql qr.
Definition low_factor (dir : Z) : T :=
  if dir =? IX then dtdx p dt else if dir =? IY then dtdy p dt else dtdz p dt.
Definition low_flux (uL uR : hs T) (dir : Z) (j : hs T) : hs T :=
  scale (swapd dir (low_riemann (swapd dir (prims uL)) (swapd dir (prims uR)) j)) (low_factor dir).
Definition recompute_body (aIn : Z) (c : cell) : prog T unit :=
  flag <- rd (at_cell aFlags c 0) ;;
  for_each (dirs (d3 m)) (fun dir =>
    if ltb zero flag then
      uL <- ldv (d3 m) aIn (along_dir dir (-1) c) ;; uR <- ldv (d3 m) aIn c ;;
      putv (d3 m) (aFlux dir) c (low_flux uL uR dir (HS zero zero zero zero zero))
    else skip).
Definition recompute (aIn : Z) := md_for (cellsD (d3 m) g) (recompute_body aIn).

(** ** Updates *)
Definition each (f : (hs T -> T) -> T) : hs T := HS (f hD) (f hP) (f hU) (f hV) (f hW).
(** UpdateFunctor, MoodUpdateFunctors.h:46-92, 97-163. *)
Definition update (aOld aNew : Z) : list (prog T unit) :=
  md_for (cellsD (d3 m) g) (fun c =>
    if interior c then
      u <- ldv (d3 m) aOld c ;; fs <- load_faces c ;;
      putv (d3 m) aNew c (each (fun sel => add_faces sel fs (sel u)))
    else skip).
(** UpdateFunctor_ssprk2, MoodUpdateFunctors.h:211-257, 262-329. *)
Definition update_ssprk2 (aOld aRK aNew : Z) : list (prog T unit) :=
  md_for (cellsD (d3 m) g) (fun c =>
    if interior c then
      u <- ldv (d3 m) aOld c ;; w <- ldv (d3 m) aRK c ;; fs <- load_faces c ;;
      putv (d3 m) aNew c
        (each (fun sel => mul half (add_faces sel fs (add (sel u) (sel w)))))
    else skip).
(** [tmp2]: [Fx(i) - Fx(i+1) + Fy(j) - ...], starting with the first flux. *)
Definition faces_only (sel : hs T -> T) (fs : list (hs T * hs T)) : T :=
  match fs with
  | [] => zero
  | ff :: fs' => add_faces sel fs' (sub (sel (fst ff)) (sel (snd ff)))
  end.
(** UpdateFunctor_weight, MoodUpdateFunctors.h:383-431, 435-505. *)
Definition update_weight (aOld aRK aNew : Z) (wold wrk wflux : T) : list (prog T unit) :=
  md_for (cellsD (d3 m) g) (fun c =>
    if interior c then
      u <- ldv (d3 m) aOld c ;; w <- ldv (d3 m) aRK c ;; fs <- load_faces c ;;
      putv (d3 m) aNew c
        (each (fun sel => add (add (mul wold (sel u)) (mul wrk (sel w))) (mul wflux (faces_only sel fs))))
    else skip).

(** ** Time integration *)
(** The four loops that every stage starts with (e.g. SolverHydroMood.h:921-996). *)
Definition stage_fluxes (aIn : Z) : list (list (prog T unit)) :=
  [reconstruct aIn; compute_fluxes; compute_flags aIn; recompute aIn].
(** make_boundaries, SolverHydroMood.h, for the problems other than "wedge". *)
Definition boundaries (a : Z) : list (list (prog T unit)) :=
  if d3 m then make_boundaries_serial3d false g a else make_boundaries_serial2d false g a.
Definition copy (dst src : Z) : list (prog T unit) := deep_copy g (cellsD (d3 m) g) dst src.

(** time_int_forward_euler, SolverHydroMood.h:907-1008. *)
Definition forward_euler (aIn aOut : Z) : list (list (prog T unit)) :=
  stage_fluxes aIn ++ [update aIn aOut].
(** time_int_ssprk2, SolverHydroMood.h:1033-1164. *)
Definition ssprk2 (aIn aOut : Z) : list (list (prog T unit)) :=
  [copy aRK1 aIn] ++ stage_fluxes aIn ++ [update aIn aRK1] ++ boundaries aRK1 ++
  stage_fluxes aRK1 ++ [update_ssprk2 aIn aRK1 aOut].
(** time_int_ssprk3, SolverHydroMood.h:1191-1380. *)
Definition ssprk3 (aIn aOut : Z) : list (list (prog T unit)) :=
  [copy aRK1 aIn] ++ stage_fluxes aIn ++ [update aIn aRK1] ++ boundaries aRK1 ++
  stage_fluxes aRK1 ++ [update_weight aIn aRK1 aRK2 (lit 3 4) (lit 1 4) (lit 1 4)] ++
  boundaries aRK2 ++ stage_fluxes aRK2 ++
  [update_weight aIn aRK2 aOut (div one (lit 3 1)) (div two (lit 3 1)) (div two (lit 3 1))].
(** time_int_ssprk54, SolverHydroMood.h:1406-1421: only the copy. *)
Definition ssprk54 (aIn aOut : Z) : list (list (prog T unit)) := [copy aRK1 aIn].

(** The switches of SolverHydroMood.h:328-331 in the order in which they are
    tested. *)
Inductive integrator := FE | RK2 | RK3 | RK54.
(** time_integration_impl, SolverHydroMood.h:858-898. *)
Definition time_integration (ti : integrator) (aIn aOut : Z) : list (list (prog T unit)) :=
  boundaries aIn ++ [copy aOut aIn] ++
  match ti with
  | FE => forward_euler aIn aOut
  | RK2 => ssprk2 aIn aOut
  | RK3 => ssprk3 aIn aOut
  | RK54 => ssprk54 aIn aOut
  end.

(** compute_dt_local, SolverHydroMood.h:763-791, the part after the reduction
    (MoodDtFunctor.h, the same reduction as the MUSCL solver): [pow3] stands for
    [pow(dt, (degree + 1.0) / 3.0)]. *)
Definition rescale_dt (pow3 : T -> T) (degree : nat) (ti : integrator) (invDt : T) : T :=
  let dt := div (cfl p) invDt in
  match ti with
  | RK3 => if (2 <=? degree)%nat then pow3 dt else dt
  | _ => dt
  end.
End Mood.

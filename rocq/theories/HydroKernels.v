(** The parallel loops of the MUSCL hydrodynamics solver and their sequence in
    one time step: src/muscl/HydroRunFunctors2D.h, src/muscl/HydroRunFunctors3D.h,
    src/muscl/SolverHydroMuscl.cpp, src/muscl/SolverHydroMuscl.h. *)
From Coq Require Import ZArith List Bool.
From Verif Require Import Arith Par GridModel BoundaryModel HydroState RiemannModel HydroPoint.
Import ListNotations.
Open Scope Z_scope.
Open Scope prog_scope.

(** Array numbers (members of SolverHydroMuscl, SolverHydroMuscl.h:80-98). *)
Definition aU := 0.   Definition aU2 := 1.  Definition aQ := 2.
Definition aFx := 3.  Definition aFy := 4.  Definition aFz := 5.
Definition aSx := 6.  Definition aSy := 7.  Definition aSz := 8.
Definition aG := 9.
Definition IX := 0.  Definition IY := 1.  Definition IZ := 2.

(** [Direction], src/shared/enums.h:165-173. *)
Inductive direction := XDIR | YDIR | ZDIR.

(** Index sets of [MDRangePolicy<Rank<2>>({0,0},{isize,jsize})] and
    [MDRangePolicy<Rank<3>>({0,0,0},{isize,jsize,ksize})].  A 2D cell (i,j) is
    represented by (i,j,0). *)
Definition cells2 (g : grid) : list (Z * Z * Z) :=
  list_prod (list_prod (zrange 0 (isize g)) (zrange 0 (jsize g))) [0].
Definition cells3 (g : grid) : list (Z * Z * Z) :=
  list_prod (list_prod (zrange 0 (isize g)) (zrange 0 (jsize g))) (zrange 0 (ksize g)).

Section Kernels.
Context {T : Type} {A : Arith T}.

Definition md_for (cells : list (Z * Z * Z)) (body : Z * Z * Z -> prog T unit)
  : list (prog T unit) := map body cells.

(** Reading and writing one state vector.  In the code the reads of several
    cells are interleaved variable by variable; no other thread writes the array
    being read, so the order is immaterial. *)
Definition load2 (a i j : Z) : prog T (hs T) :=
  d <- rd (Loc a i j 0 ID) ;; e <- rd (Loc a i j 0 IP) ;;
  u <- rd (Loc a i j 0 IU) ;; v <- rd (Loc a i j 0 IV) ;;
  Ret (HS d e u v zero).
Definition load3 (a i j k : Z) : prog T (hs T) :=
  d <- rd (Loc a i j k ID) ;; e <- rd (Loc a i j k IP) ;;
  u <- rd (Loc a i j k IU) ;; v <- rd (Loc a i j k IV) ;;
  w <- rd (Loc a i j k IW) ;; Ret (HS d e u v w).
Definition put2 (a i j : Z) (q : hs T) : prog T unit :=
  wr (Loc a i j 0 ID) (hD q) ;;; wr (Loc a i j 0 IP) (hP q) ;;;
  wr (Loc a i j 0 IU) (hU q) ;;; wr (Loc a i j 0 IV) (hV q).
Definition put3 (a i j k : Z) (q : hs T) : prog T unit :=
  wr (Loc a i j k ID) (hD q) ;;; wr (Loc a i j k IP) (hP q) ;;;
  wr (Loc a i j k IU) (hU q) ;;; wr (Loc a i j k IV) (hV q) ;;; wr (Loc a i j k IW) (hW q).

(** [Udata(..., v) op= FluxData(..., v)] for one variable. *)
Definition accum (op : T -> T -> T) (la lb : loc) : prog T unit :=
  x <- rd la ;; y <- rd lb ;; wr la (op x y).
Definition accum2 (op : T -> T -> T) (a i j b i' j' : Z) : prog T unit :=
  accum op (Loc a i j 0 ID) (Loc b i' j' 0 ID) ;;;
  accum op (Loc a i j 0 IP) (Loc b i' j' 0 IP) ;;;
  accum op (Loc a i j 0 IU) (Loc b i' j' 0 IU) ;;;
  accum op (Loc a i j 0 IV) (Loc b i' j' 0 IV).
Definition accum3 (op : T -> T -> T) (a i j k b i' j' k' : Z) : prog T unit :=
  accum op (Loc a i j k ID) (Loc b i' j' k' ID) ;;;
  accum op (Loc a i j k IP) (Loc b i' j' k' IP) ;;;
  accum op (Loc a i j k IU) (Loc b i' j' k' IU) ;;;
  accum op (Loc a i j k IV) (Loc b i' j' k' IV) ;;;
  accum op (Loc a i j k IW) (Loc b i' j' k' IW).

(** Kokkos::deep_copy(dst, src): every element is copied. *)
Definition deep_copy (g : grid) (cells : list (Z * Z * Z)) (dst src : Z) : list (prog T unit) :=
  md_for cells (fun '(i, j, k) =>
    for_each (zrange 0 (nbvar g)) (fun v =>
      x <- rd (Loc src i j k v) ;; wr (Loc dst i j k v) x)).

Variable p : hparams T.
Variable g : grid.
Variable dt : T.
Variable gravity_enabled : bool.
(** Contents of uninitialised local variables of the kernel bodies, per cell and
    per variable (0-2: dqX,dqY,dqZ; 3-5: the neighbour's; 6-8: flux_x,y,z). *)
Variable junk : Z * Z * Z -> Z -> hs T.

(** dtdx(dt / params.dx), ... (HydroRunFunctors2D.h:515-516). *)
Definition dtdx := div dt (dx p).
Definition dtdy := div dt (dy p).
Definition dtdz := div dt (dz p).

(** Loop guards. *)
Definition interior2 (i j : Z) : bool :=
  (gw g <=? j) && (j <? jsize g - gw g) && (gw g <=? i) && (i <? isize g - gw g).
Definition interior3 (i j k : Z) : bool :=
  (gw g <=? k) && (k <? ksize g - gw g) && (gw g <=? j) && (j <? jsize g - gw g) &&
  (gw g <=? i) && (i <? isize g - gw g).
Definition faces2 (i j : Z) : bool :=
  (gw g <=? j) && (j <=? jsize g - gw g) && (gw g <=? i) && (i <=? isize g - gw g).
Definition faces3 (i j k : Z) : bool :=
  (gw g <=? k) && (k <=? ksize g - gw g) && (gw g <=? j) && (j <=? jsize g - gw g) &&
  (gw g <=? i) && (i <=? isize g - gw g).

(** ConvertToPrimitivesFunctor2D, HydroRunFunctors2D.h:182-244. *)
Definition convert2 (aIn : Z) : list (prog T unit) :=
  md_for (cells2 g) (fun '(i, j, _) =>
    if (0 <=? j) && (j <? jsize g) && (0 <=? i) && (i <? isize g) then
      u <- load2 aIn i j ;; put2 aQ i j (snd (computePrimitives2 p u))
    else skip).

(** ConvertToPrimitivesFunctor3D, HydroRunFunctors3D.h:196-261. *)
Definition convert3 (aIn : Z) : list (prog T unit) :=
  md_for (cells3 g) (fun '(i, j, k) =>
    if (0 <=? k) && (k <? ksize g) && (0 <=? j) && (j <? jsize g) && (0 <=? i) && (i <? isize g)
    then u <- load3 aIn i j k ;; put3 aQ i j k (snd (computePrimitives3 p u))
    else skip).

(** Load the primitive state of cell (i,j) and its four neighbours and compute
    the limited slopes: HydroRunFunctors2D.h:579-604 for the cell itself,
    607-637 with i-1 (left neighbour along X), 679-709 with j-1 (along Y),
    979-1004 (ComputeSlopesFunctor2D). *)
Definition fetch_slopes2 (i j : Z) (jx jy : hs T) : prog T (hs T * (hs T * hs T)) :=
  q <- load2 aQ i j ;;
  q0 <- load2 aQ (i + 1) j ;; q1 <- load2 aQ (i - 1) j ;;
  q2 <- load2 aQ i (j + 1) ;; q3 <- load2 aQ i (j - 1) ;;
  Ret (q, slope_unsplit_hydro_2d p q q0 q1 q2 q3 jx jy).

(** Same in 3D: HydroRunFunctors3D.h:371-420, 423-472 (i-1), 516-565 (j-1),
    611-660 (k-1), 990-1039 (ComputeSlopesFunctor3D). *)
Definition fetch_slopes3 (i j k : Z) (jx jy jz : hs T)
  : prog T (hs T * (hs T * hs T * hs T)) :=
  q <- load3 aQ i j k ;;
  q0 <- load3 aQ (i + 1) j k ;; q1 <- load3 aQ (i - 1) j k ;;
  q2 <- load3 aQ i (j + 1) k ;; q3 <- load3 aQ i (j - 1) k ;;
  q4 <- load3 aQ i j (k + 1) ;; q5 <- load3 aQ i j (k - 1) ;;
  Ret (q, slope_unsplit_hydro_3d p q q0 q1 q2 q3 q4 q5 jx jy jz).

(** Gravity predictor, HydroRunFunctors2D.h:655-659 and similar places. *)
Definition predict2 (i j : Z) (q : hs T) : prog T (hs T) :=
  if gravity_enabled then
    gx <- rd (Loc aG i j 0 IX) ;; gy <- rd (Loc aG i j 0 IY) ;;
    Ret (HS (hD q) (hP q) (add (hU q) (mul (mul half dt) gx))
            (add (hV q) (mul (mul half dt) gy)) (hW q))
  else Ret q.
Definition predict3 (i j k : Z) (q : hs T) : prog T (hs T) :=
  if gravity_enabled then
    gx <- rd (Loc aG i j k IX) ;; gy <- rd (Loc aG i j k IY) ;; gz <- rd (Loc aG i j k IZ) ;;
    Ret (HS (hD q) (hP q) (add (hU q) (mul (mul half dt) gx))
            (add (hV q) (mul (mul half dt) gy)) (add (hW q) (mul (mul half dt) gz)))
  else Ret q.

(** ComputeAndStoreFluxesFunctor2D, HydroRunFunctors2D.h:487-760. *)
Definition fluxes_body2 (i j : Z) : prog T unit :=
  if faces2 i j then
    let jk := junk (i, j, 0) in
    (* left interface along X: 574-672 *)
    s <- fetch_slopes2 i j (jk 0) (jk 1) ;;
    let '(qLoc, (dqX, dqY)) := s in
    n <- fetch_slopes2 (i - 1) j (jk 3) (jk 4) ;;
    let '(qLocNeighbor, (dqXn, dqYn)) := n in
    let qright := trace_unsplit_2d_along_dir p qLoc dqX dqY dtdx dtdy FACE_XMIN in
    let qleft := trace_unsplit_2d_along_dir p qLocNeighbor dqXn dqYn dtdx dtdy FACE_XMAX in
    qleft <- predict2 (i - 1) j qleft ;;
    qright <- predict2 i j qright ;;
    let flux_x := riemann_hydro2 p qleft qright (jk 6) in
    put2 aFx i j (scale flux_x dtdx) ;;;
    (* left interface along Y: 674-746 *)
    n <- fetch_slopes2 i (j - 1) dqXn dqYn ;;
    let '(qLocNeighbor, (dqXn, dqYn)) := n in
    let qright := trace_unsplit_2d_along_dir p qLoc dqX dqY dtdx dtdy FACE_YMIN in
    let qleft := trace_unsplit_2d_along_dir p qLocNeighbor dqXn dqYn dtdx dtdy FACE_YMAX in
    qleft <- predict2 i (j - 1) qleft ;;
    qright <- predict2 i j qright ;;
    let flux_y := riemann_hydro2 p (swapUV qleft) (swapUV qright) (jk 7) in
    put2 aFy i j (scale (swapUV flux_y) dtdy)
  else skip.
Definition compute_and_store_fluxes2 := md_for (cells2 g) (fun '(i, j, _) => fluxes_body2 i j).

(** ComputeAndStoreFluxesFunctor3D, HydroRunFunctors3D.h:267-713. *)
Definition fluxes_body3 (i j k : Z) : prog T unit :=
  if faces3 i j k then
    let jk := junk (i, j, k) in
    (* left interface along X: 366-509 *)
    s <- fetch_slopes3 i j k (jk 0) (jk 1) (jk 2) ;;
    let '(qLoc, (dqX, dqY, dqZ)) := s in
    n <- fetch_slopes3 (i - 1) j k (jk 3) (jk 4) (jk 5) ;;
    let '(qN, (dqXn, dqYn, dqZn)) := n in
    let qright := trace_unsplit_3d_along_dir p qLoc dqX dqY dqZ dtdx dtdy dtdz FACE_XMIN in
    let qleft := trace_unsplit_3d_along_dir p qN dqXn dqYn dqZn dtdx dtdy dtdz FACE_XMAX in
    qleft <- predict3 (i - 1) j k qleft ;;
    qright <- predict3 i j k qright ;;
    let flux_x := riemann_hydro3 p qleft qright (jk 6) in
    put3 aFx i j k (scale flux_x dtdx) ;;;
    (* left interface along Y: 511-604 *)
    n <- fetch_slopes3 i (j - 1) k dqXn dqYn dqZn ;;
    let '(qN, (dqXn, dqYn, dqZn)) := n in
    let qright := trace_unsplit_3d_along_dir p qLoc dqX dqY dqZ dtdx dtdy dtdz FACE_YMIN in
    let qleft := trace_unsplit_3d_along_dir p qN dqXn dqYn dqZn dtdx dtdy dtdz FACE_YMAX in
    qleft <- predict3 i (j - 1) k qleft ;;
    qright <- predict3 i j k qright ;;
    let flux_y := riemann_hydro3 p (swapUV qleft) (swapUV qright) (jk 7) in
    put3 aFy i j k (scale (swapUV flux_y) dtdy) ;;;
    (* left interface along Z: 606-699 *)
    n <- fetch_slopes3 i j (k - 1) dqXn dqYn dqZn ;;
    let '(qN, (dqXn, dqYn, dqZn)) := n in
    let qright := trace_unsplit_3d_along_dir p qLoc dqX dqY dqZ dtdx dtdy dtdz FACE_ZMIN in
    let qleft := trace_unsplit_3d_along_dir p qN dqXn dqYn dqZn dtdx dtdy dtdz FACE_ZMAX in
    qleft <- predict3 i j (k - 1) qleft ;;
    qright <- predict3 i j k qright ;;
    let flux_z := riemann_hydro3 p (swapUW qleft) (swapUW qright) (jk 8) in
    put3 aFz i j k (scale (swapUW flux_z) dtdz)
  else skip.
Definition compute_and_store_fluxes3 :=
  md_for (cells3 g) (fun '(i, j, k) => fluxes_body3 i j k).

(** UpdateFunctor2D, HydroRunFunctors2D.h:765-837. *)
Definition update2 (aOut : Z) : list (prog T unit) :=
  md_for (cells2 g) (fun '(i, j, _) =>
    if interior2 i j then
      accum2 add aOut i j aFx i j ;;; accum2 sub aOut i j aFx (i + 1) j ;;;
      accum2 add aOut i j aFy i j ;;; accum2 sub aOut i j aFy i (j + 1)
    else skip).

(** UpdateFunctor3D, HydroRunFunctors3D.h:718-816. *)
Definition update3 (aOut : Z) : list (prog T unit) :=
  md_for (cells3 g) (fun '(i, j, k) =>
    if interior3 i j k then
      accum3 add aOut i j k aFx i j k ;;; accum3 sub aOut i j k aFx (i + 1) j k ;;;
      accum3 add aOut i j k aFy i j k ;;; accum3 sub aOut i j k aFy i (j + 1) k ;;;
      accum3 add aOut i j k aFz i j k ;;; accum3 sub aOut i j k aFz i j (k + 1)
    else skip).

(** UpdateDirFunctor2D, HydroRunFunctors2D.h:843-916 (ZDIR does nothing). *)
Definition update_dir2 (d : direction) (aOut aF : Z) : list (prog T unit) :=
  md_for (cells2 g) (fun '(i, j, _) =>
    if interior2 i j then
      match d with
      | XDIR => accum2 add aOut i j aF i j ;;; accum2 sub aOut i j aF (i + 1) j
      | YDIR => accum2 add aOut i j aF i j ;;; accum2 sub aOut i j aF i (j + 1)
      | ZDIR => skip
      end
    else skip).

(** UpdateDirFunctor3D, HydroRunFunctors3D.h:822-916. *)
Definition update_dir3 (d : direction) (aOut aF : Z) : list (prog T unit) :=
  md_for (cells3 g) (fun '(i, j, k) =>
    if interior3 i j k then
      match d with
      | XDIR => accum3 add aOut i j k aF i j k ;;; accum3 sub aOut i j k aF (i + 1) j k
      | YDIR => accum3 add aOut i j k aF i j k ;;; accum3 sub aOut i j k aF i (j + 1) k
      | ZDIR => accum3 add aOut i j k aF i j k ;;; accum3 sub aOut i j k aF i j (k + 1)
      end
    else skip).

(** ComputeSlopesFunctor2D, HydroRunFunctors2D.h:922-1026: dqX, dqY are
    value-initialised (lines 975-976). *)
Definition compute_slopes2 : list (prog T unit) :=
  md_for (cells2 g) (fun '(i, j, _) =>
    if (gw g - 1 <=? j) && (j <=? jsize g - gw g) && (gw g - 1 <=? i) && (i <=? isize g - gw g)
    then
      s <- fetch_slopes2 i j zero_state zero_state ;;
      let '(_, (dqX, dqY)) := s in
      put2 aSx i j dqX ;;; put2 aSy i j dqY
    else skip).

(** ComputeSlopesFunctor3D, HydroRunFunctors3D.h:922-1069: dqX, dqY, dqZ are
    not initialised (lines 985-987). *)
Definition compute_slopes3 : list (prog T unit) :=
  md_for (cells3 g) (fun '(i, j, k) =>
    if (gw g - 1 <=? k) && (k <=? ksize g - gw g) && (gw g - 1 <=? j) && (j <=? jsize g - gw g) &&
       (gw g - 1 <=? i) && (i <=? isize g - gw g)
    then
      let jk := junk (i, j, k) in
      s <- fetch_slopes3 i j k (jk 0) (jk 1) (jk 2) ;;
      let '(_, (dqX, dqY, dqZ)) := s in
      put3 aSx i j k dqX ;;; put3 aSy i j k dqY ;;; put3 aSz i j k dqZ
    else skip).

(** ComputeTraceAndFluxes_Functor2D<dir>, HydroRunFunctors2D.h:1031-1256. *)
Definition trace_body2 (d : direction) (aF i j : Z) : prog T unit :=
  if faces2 i j then
    let jk := junk (i, j, 0) in
    qLoc <- load2 aQ i j ;; dqX <- load2 aSx i j ;; dqY <- load2 aSy i j ;;
    match d with
    | XDIR =>
        qright <- predict2 i j (trace_unsplit_2d_along_dir p qLoc dqX dqY dtdx dtdy FACE_XMIN) ;;
        qN <- load2 aQ (i - 1) j ;; dqXn <- load2 aSx (i - 1) j ;; dqYn <- load2 aSy (i - 1) j ;;
        qleft <- predict2 (i - 1) j
                   (trace_unsplit_2d_along_dir p qN dqXn dqYn dtdx dtdy FACE_XMAX) ;;
        let flux := riemann_hydro2 p qleft qright (jk 6) in
        put2 aF i j (scale flux dtdx)
    | YDIR =>
        qright <- predict2 i j (trace_unsplit_2d_along_dir p qLoc dqX dqY dtdx dtdy FACE_YMIN) ;;
        qN <- load2 aQ i (j - 1) ;; dqXn <- load2 aSx i (j - 1) ;; dqYn <- load2 aSy i (j - 1) ;;
        qleft <- predict2 i (j - 1)
                   (trace_unsplit_2d_along_dir p qN dqXn dqYn dtdx dtdy FACE_YMAX) ;;
        let flux := riemann_hydro2 p (swapUV qleft) (swapUV qright) (jk 6) in
        put2 aF i j (scale (swapUV flux) dtdy)
    | ZDIR => skip
    end
  else skip.
Definition trace_and_fluxes2 (d : direction) (aF : Z) :=
  md_for (cells2 g) (fun '(i, j, _) => trace_body2 d aF i j).

(** ComputeTraceAndFluxes_Functor3D<dir>, HydroRunFunctors3D.h:1074-1421.  For
    ZDIR (1343-1408) the code applies the gravity predictor to qleft only. *)
Definition trace_body3 (d : direction) (aF i j k : Z) : prog T unit :=
  if faces3 i j k then
    let jk := junk (i, j, k) in
    qLoc <- load3 aQ i j k ;;
    dqX <- load3 aSx i j k ;; dqY <- load3 aSy i j k ;; dqZ <- load3 aSz i j k ;;
    match d with
    | XDIR =>
        qright <- predict3 i j k
          (trace_unsplit_3d_along_dir p qLoc dqX dqY dqZ dtdx dtdy dtdz FACE_XMIN) ;;
        qN <- load3 aQ (i - 1) j k ;; dqXn <- load3 aSx (i - 1) j k ;;
        dqYn <- load3 aSy (i - 1) j k ;; dqZn <- load3 aSz (i - 1) j k ;;
        qleft <- predict3 (i - 1) j k
          (trace_unsplit_3d_along_dir p qN dqXn dqYn dqZn dtdx dtdy dtdz FACE_XMAX) ;;
        let flux := riemann_hydro3 p qleft qright (jk 6) in
        put3 aF i j k (scale flux dtdx)
    | YDIR =>
        qright <- predict3 i j k
          (trace_unsplit_3d_along_dir p qLoc dqX dqY dqZ dtdx dtdy dtdz FACE_YMIN) ;;
        qN <- load3 aQ i (j - 1) k ;; dqXn <- load3 aSx i (j - 1) k ;;
        dqYn <- load3 aSy i (j - 1) k ;; dqZn <- load3 aSz i (j - 1) k ;;
        qleft <- predict3 i (j - 1) k
          (trace_unsplit_3d_along_dir p qN dqXn dqYn dqZn dtdx dtdy dtdz FACE_YMAX) ;;
        let flux := riemann_hydro3 p (swapUV qleft) (swapUV qright) (jk 6) in
        put3 aF i j k (scale (swapUV flux) dtdy)
    | ZDIR =>
        let qright := trace_unsplit_3d_along_dir p qLoc dqX dqY dqZ dtdx dtdy dtdz FACE_ZMIN in
        qN <- load3 aQ i j (k - 1) ;; dqXn <- load3 aSx i j (k - 1) ;;
        dqYn <- load3 aSy i j (k - 1) ;; dqZn <- load3 aSz i j (k - 1) ;;
        qleft <- predict3 i j (k - 1)
          (trace_unsplit_3d_along_dir p qN dqXn dqYn dqZn dtdx dtdy dtdz FACE_ZMAX) ;;
        let flux := riemann_hydro3 p (swapUW qleft) (swapUW qright) (jk 6) in
        put3 aF i j k (scale (swapUW flux) dtdz)
    end
  else skip.
Definition trace_and_fluxes3 (d : direction) (aF : Z) :=
  md_for (cells3 g) (fun '(i, j, k) => trace_body3 d aF i j k).

(** GravitySourceTermFunctor2D, HydroRunFunctors2D.h:1262-1338. *)
Definition gravity_term2 (aIn aOut : Z) : list (prog T unit) :=
  md_for (cells2 g) (fun '(i, j, _) =>
    if interior2 i j then
      rhoOld <- rd (Loc aIn i j 0 ID) ;;
      u <- load2 aOut i j ;;
      gx <- rd (Loc aG i j 0 IX) ;; gy <- rd (Loc aG i j 0 IY) ;;
      let u' := gravity_source2 p dt rhoOld u gx gy in
      wr (Loc aOut i j 0 IU) (hU u') ;;; wr (Loc aOut i j 0 IV) (hV u') ;;;
      wr (Loc aOut i j 0 IE) (hP u')
    else skip).

(** GravitySourceTermFunctor3D, HydroRunFunctors3D.h:1426-1508. *)
Definition gravity_term3 (aIn aOut : Z) : list (prog T unit) :=
  md_for (cells3 g) (fun '(i, j, k) =>
    if interior3 i j k then
      rhoOld <- rd (Loc aIn i j k ID) ;;
      u <- load3 aOut i j k ;;
      gx <- rd (Loc aG i j k IX) ;; gy <- rd (Loc aG i j k IY) ;; gz <- rd (Loc aG i j k IZ) ;;
      let u' := gravity_source3 dt rhoOld u gx gy gz in
      wr (Loc aOut i j k IU) (hU u') ;;; wr (Loc aOut i j k IV) (hV u') ;;;
      wr (Loc aOut i j k IW) (hW u') ;;; wr (Loc aOut i j k IE) (hP u')
    else skip).

(** Scheme part of SolverHydroMuscl<2>::godunov_unsplit_impl,
    SolverHydroMuscl.cpp:275-319, after the ghost cells of [aIn] are filled and
    [aIn] is copied to [aOut].  In version 1 the flux arrays of all directions
    are the same array (SolverHydroMuscl.h:236, 276-277). *)
Definition scheme2 (impl aIn aOut : Z) : list (list (prog T unit)) :=
  convert2 aIn ::
  (if impl =? 0 then
     [compute_and_store_fluxes2; update2 aOut] ++
     (if gravity_enabled then [gravity_term2 aIn aOut] else [])
   else if impl =? 1 then
     [compute_slopes2;
      trace_and_fluxes2 XDIR aFx; update_dir2 XDIR aOut aFx;
      trace_and_fluxes2 YDIR aFx; update_dir2 YDIR aOut aFx] ++
     (if gravity_enabled then [gravity_term2 aIn aOut] else [])
   else []).

(** SolverHydroMuscl<2>::godunov_unsplit_impl, SolverHydroMuscl.cpp:257-323
    (single process: make_boundaries = make_boundaries_serial). *)
Definition godunov2 (impl aIn aOut : Z) : list (list (prog T unit)) :=
  make_boundaries_serial2d false g aIn ++ deep_copy g (cells2 g) aOut aIn ::
  scheme2 impl aIn aOut.

(** Scheme part of SolverHydroMuscl<3>::godunov_unsplit_impl,
    SolverHydroMuscl.cpp:347-399. *)
Definition scheme3 (impl aIn aOut : Z) : list (list (prog T unit)) :=
  convert3 aIn ::
  (if impl =? 0 then
     [compute_and_store_fluxes3; update3 aOut] ++
     (if gravity_enabled then [gravity_term3 aIn aOut] else [])
   else if impl =? 1 then
     [compute_slopes3;
      trace_and_fluxes3 XDIR aFx; update_dir3 XDIR aOut aFx;
      trace_and_fluxes3 YDIR aFx; update_dir3 YDIR aOut aFx;
      trace_and_fluxes3 ZDIR aFx; update_dir3 ZDIR aOut aFx] ++
     (if gravity_enabled then [gravity_term3 aIn aOut] else [])
   else []).

(** SolverHydroMuscl<3>::godunov_unsplit_impl, SolverHydroMuscl.cpp:330-403. *)
Definition godunov3 (impl aIn aOut : Z) : list (list (prog T unit)) :=
  make_boundaries_serial3d false g aIn ++ deep_copy g (cells3 g) aOut aIn ::
  scheme3 impl aIn aOut.
End Kernels.

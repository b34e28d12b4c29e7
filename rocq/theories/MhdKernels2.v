(** The parallel loops of the 2D MUSCL MHD solver and their sequence in one time
    step: src/muscl/MHDRunFunctors2D.h, src/muscl/SolverMHDMuscl.cpp. *)
From Coq Require Import ZArith List Bool.
From Verif Require Import Arith Par GridModel BoundaryModel HydroState HydroKernels
  MhdState MhdRiemann MhdPoint.
Import ListNotations.
Open Scope Z_scope.
Open Scope prog_scope.

(** Array numbers (members of SolverMHDMuscl, SolverMHDMuscl.h:71-125) besides
    those shared with the hydrodynamics solver (U, U2, Q, Fluxes_x/y/z, Slopes_x/y/z). *)
Definition aQmx := 10.  Definition aQmy := 11.  Definition aQmz := 12.
Definition aQpx := 13.  Definition aQpy := 14.  Definition aQpz := 15.
Definition aRT := 16.   Definition aRB := 17.   Definition aLT := 18.   Definition aLB := 19.
Definition aRT2 := 20.  Definition aRB2 := 21.  Definition aLT2 := 22.  Definition aLB2 := 23.
Definition aRT3 := 24.  Definition aRB3 := 25.  Definition aLT3 := 26.  Definition aLB3 := 27.
Definition aEmf := 28.  Definition aEl := 29.   Definition aSf := 30.   Definition aQ2 := 31.
Definition aDA := 32.   Definition aDB := 33.   Definition aDC := 34.

Section Kernels.
Context {T : Type} {AT : Arith T}.

(** get_state / set_state, MHDBaseFunctor2D.h:49-82, MHDBaseFunctor3D.h:49-82:
    the eight variables of a cell (2D: k = 0). *)
Definition mload (a i j k : Z) : prog T (ms T) :=
  d <- rd (Loc a i j k ID) ;; e <- rd (Loc a i j k IP) ;;
  u <- rd (Loc a i j k IU) ;; v <- rd (Loc a i j k IV) ;; w <- rd (Loc a i j k IW) ;;
  x <- rd (Loc a i j k IA) ;; y <- rd (Loc a i j k IB) ;; z <- rd (Loc a i j k IC) ;;
  Ret (MS d e u v w x y z).
Definition mput (a i j k : Z) (q : ms T) : prog T unit :=
  wr (Loc a i j k ID) (mD q) ;;; wr (Loc a i j k IP) (mP q) ;;;
  wr (Loc a i j k IU) (mU q) ;;; wr (Loc a i j k IV) (mV q) ;;; wr (Loc a i j k IW) (mW q) ;;;
  wr (Loc a i j k IA) (mA q) ;;; wr (Loc a i j k IB) (mB q) ;;; wr (Loc a i j k IC) (mC q).
(** get_magField, MHDBaseFunctor2D.h:88-96. *)
Definition bload (a i j k : Z) : prog T (T * T * T) :=
  x <- rd (Loc a i j k IA) ;; y <- rd (Loc a i j k IB) ;; z <- rd (Loc a i j k IC) ;; Ret (x, y, z).

(** A loop [for (d : ds) nb[d] = f(d)] filling a local array. *)
Fixpoint gather {B} (f : Z -> prog T B) (dflt : B) (ds : list Z) : prog T (Z -> B) :=
  match ds with
  | [] => Ret (fun _ => dflt)
  | d :: ds => x <- f d ;; r <- gather f dflt ds ;; Ret (fun e => if e =? d then x else r e)
  end.

(** Kokkos::atomic_add / atomic_sub. *)
Definition atomic_add (l : loc) (d : T) : prog T unit := rmw l (fun x => add x d).
Definition atomic_sub (l : loc) (d : T) : prog T unit := rmw l (fun x => sub x d).

(** Atomic accumulation of a flux into the cell-centred variables of a cell: in
    2D density, energy, momenta and Bz (MHDRunFunctors2D.h:544-604), in 3D
    without the magnetic field (MHDRunFunctors3D.h:2006-2085). *)
Definition atomic_flux (op : loc -> T -> prog T unit) (withC : bool) (a i j k : Z) (f : ms T) (s : T)
  : prog T unit :=
  op (Loc a i j k ID) (mD f * s)%A ;;; op (Loc a i j k IP) (mP f * s)%A ;;;
  op (Loc a i j k IU) (mU f * s)%A ;;; op (Loc a i j k IV) (mV f * s)%A ;;;
  op (Loc a i j k IW) (mW f * s)%A ;;;
  (if withC then op (Loc a i j k IC) (mC f * s)%A else skip).

Definition when (b : bool) (q : prog T unit) : prog T unit := if b then q else skip.

Variable p : mparams T.
Variable g : grid.
Variable dt : T.
(** Contents of uninitialised local variables of the kernel bodies, per cell:
    0, 1: dq; 2: flux. *)
Variable junk : Z * Z * Z -> Z -> ms T.
Local Notation h := (mh p).
Local Notation Dx := (dtdx h dt).
Local Notation Dy := (dtdy h dt).

(** Range of the trace loops: ghostWidth-2 <= i < isize-ghostWidth+1. *)
Definition trace_range2 (i j : Z) : bool :=
  (gw g - 2 <=? j) && (j <? jsize g - gw g + 1) && (gw g - 2 <=? i) && (i <? isize g - gw g + 1).

(** ConvertToPrimitivesFunctor2D_MHD, MHDRunFunctors2D.h:82-154: the last row and
    column are not converted; the Bz "neighbour" is 0 (line 136). *)
Definition mconvert2 (aIn : Z) : list (prog T unit) :=
  md_for (cells2 g) (fun '(i, j, _) =>
    when ((0 <=? j) && (j <? jsize g - 1) && (0 <=? i) && (i <? isize g - 1))
     (u <- mload aIn i j 0 ;;
      nA <- rd (Loc aIn (i + 1) j 0 IA) ;; nB <- rd (Loc aIn i (j + 1) 0 IB) ;;
      mput aQ i j 0 (constoprim_mhd p u nA nB zero))).

(** ComputeTraceFunctor2D_MHD, MHDRunFunctors2D.h:782-904. *)
Definition mtrace_body2 (aIn i j : Z) : prog T unit :=
  when (trace_range2 i j)
   (q <- gather (fun di => gather (fun dj => mload aQ (i + di) (j + dj) 0) ms_zero [-1; 0; 1])
                (fun _ => ms_zero) [-1; 0; 1] ;;
    b <- gather (fun di => gather (fun dj => bload aIn (i + di) (j + dj) 0) (zero, zero, zero)
                             [-1; 0; 1; 2])
                (fun _ => (zero, zero, zero)) [-1; 0; 1; 2] ;;
    let t := trace_unsplit_mhd_2d p q b (junk (i, j, 0) 0) (junk (i, j, 0) 1) Dx Dy in
    mput aQmx i j 0 (t_mx t) ;;; mput aQpx i j 0 (t_px t) ;;;
    mput aQmy i j 0 (t_my t) ;;; mput aQpy i j 0 (t_py t) ;;;
    mput aRT i j 0 (t_RT t) ;;; mput aRB i j 0 (t_RB t) ;;;
    mput aLT i j 0 (t_LT t) ;;; mput aLB i j 0 (t_LB t)).
Definition mtrace2 (aIn : Z) := md_for (cells2 g) (fun '(i, j, _) => mtrace_body2 aIn i j).

(** The two fluxes of a cell from the traced states (the Y flux in its rotated
    frame): MHDRunFunctors2D.h:424-466 and 515-542, 566-586.  The same local variable
    receives both fluxes. *)
Definition load_fluxes2 (i j : Z) : prog T (ms T * ms T) :=
  ql <- mload aQmx (i - 1) j 0 ;; qr <- mload aQpx i j 0 ;;
  let fx := riemann_mhd p ql qr (junk (i, j, 0) 2) in
  ql <- mload aQmy i (j - 1) 0 ;; qr <- mload aQpy i j 0 ;;
  let fy := riemann_mhd p (mswapY ql) (mswapY qr) fx in
  Ret (fx, fy).

(** ComputeFluxesAndStoreFunctor2D_MHD, MHDRunFunctors2D.h:375-473. *)
Definition mflux_store2 : list (prog T unit) :=
  md_for (cells2 g) (fun '(i, j, _) =>
    when (faces2 g i j)
     (f <- load_fluxes2 i j ;; mput aFx i j 0 (fst f) ;;; mput aFy i j 0 (snd f))).

(** Guarded accumulation of the flux through the left faces of (i,j):
    MHDRunFunctors2D.h:544-562 (X), 588-604 (Y). *)
Definition add_fluxX2 (aOut i j : Z) (f : ms T) : prog T unit :=
  when ((j <? jsize g - gw g) && (i <? isize g - gw g)) (atomic_flux atomic_add true aOut i j 0 f Dx) ;;;
  when ((j <? jsize g - gw g) && (gw g <? i)) (atomic_flux atomic_sub true aOut (i - 1) j 0 f Dx).
Definition add_fluxY2 (aOut i j : Z) (f : ms T) : prog T unit :=
  when ((j <? jsize g - gw g) && (i <? isize g - gw g)) (atomic_flux atomic_add true aOut i j 0 f Dy) ;;;
  when ((gw g <? j) && (i <? isize g - gw g)) (atomic_flux atomic_sub true aOut i (j - 1) 0 f Dy).

(** ComputeFluxesAndUpdateFunctor2D_MHD, MHDRunFunctors2D.h:475-610. *)
Definition mflux_update2 (aOut : Z) : list (prog T unit) :=
  md_for (cells2 g) (fun '(i, j, _) =>
    when (faces2 g i j)
     (f <- load_fluxes2 i j ;;
      add_fluxX2 aOut i j (fst f) ;;; add_fluxY2 aOut i j (mswapY (snd f)))).

(** Electromotive force at the lower left corner from the traced states:
    MHDRunFunctors2D.h:661-676. *)
Definition load_emf2 (i j : Z) : prog T T :=
  rt <- mload aRT (i - 1) (j - 1) 0 ;; rb <- mload aRB (i - 1) j 0 ;;
  lt <- mload aLT i (j - 1) 0 ;; lb <- mload aLB i j 0 ;;
  Ret (compute_emf p EMFZ rt rb lt lb).

(** ComputeEmfAndStoreFunctor2D, MHDRunFunctors2D.h:612-689. *)
Definition memf_store2 : list (prog T unit) :=
  md_for (cells2 g) (fun '(i, j, _) =>
    when (faces2 g i j) (e <- load_emf2 i j ;; wr (Loc aEmf i j 0 0) e)).

(** The four (unguarded) atomic updates of the face fields around an edge,
    MHDRunFunctors2D.h:766-771 and 1519-1524. *)
Definition add_emf2 (aOut i j : Z) (e : T) : prog T unit :=
  atomic_sub (Loc aOut i j 0 IA) (e * Dy)%A ;;; atomic_add (Loc aOut i j 0 IB) (e * Dx)%A ;;;
  atomic_add (Loc aOut i (j - 1) 0 IA) (e * Dy)%A ;;; atomic_sub (Loc aOut (i - 1) j 0 IB) (e * Dx)%A.

(** ComputeEmfAndUpdateFunctor2D, MHDRunFunctors2D.h:691-780. *)
Definition memf_update2 (aOut : Z) : list (prog T unit) :=
  md_for (cells2 g) (fun '(i, j, _) =>
    when (faces2 g i j) (e <- load_emf2 i j ;; add_emf2 aOut i j e)).

(** UpdateFunctor2D_MHD, MHDRunFunctors2D.h:1532-1634: the Y flux is in the
    rotated frame; Bx and By are written back unchanged. *)
Definition upd_flux (op : T -> T -> T) (u f : ms T) (s : T) : ms T :=
  MS (op (mD u) (mD f * s)%A) (op (mP u) (mP f * s)%A) (op (mU u) (mU f * s)%A)
     (op (mV u) (mV f * s)%A) (op (mW u) (mW f * s)%A) (mA u) (mB u) (op (mC u) (mC f * s)%A).
Definition mupdate2 (aOut : Z) : list (prog T unit) :=
  md_for (cells2 g) (fun '(i, j, _) =>
    when (interior2 g i j)
     (u <- mload aOut i j 0 ;;
      f <- mload aFx i j 0 ;; let u := upd_flux add u f Dx in
      f <- mload aFx (i + 1) j 0 ;; let u := upd_flux sub u f Dx in
      f <- mload aFy i j 0 ;; let u := upd_flux add u (mswapY f) Dy in
      f <- mload aFy i (j + 1) 0 ;; let u := upd_flux sub u (mswapY f) Dy in
      mput aOut i j 0 u)).

(** UpdateEmfFunctor2D, MHDRunFunctors2D.h:1640-1693. *)
Definition mupdate_emf2 (aOut : Z) : list (prog T unit) :=
  md_for (cells2 g) (fun '(i, j, _) =>
    when (interior2 g i j)
     (x <- rd (Loc aOut i j 0 IA) ;; e1 <- rd (Loc aEmf i (j + 1) 0 0) ;; e0 <- rd (Loc aEmf i j 0 0) ;;
      wr (Loc aOut i j 0 IA) (x + (e1 - e0) * Dy)%A ;;;
      x <- rd (Loc aOut i j 0 IB) ;; e1 <- rd (Loc aEmf (i + 1) j 0 0) ;; e0 <- rd (Loc aEmf i j 0 0) ;;
      wr (Loc aOut i j 0 IB) (x - (e1 - e0) * Dx)%A)).

(** ComputeSlopesFunctor2D_MHD, MHDRunFunctors2D.h:160-243: one local variable dq
    for both directions. *)
Definition mslopes2 (aIn : Z) : list (prog T unit) :=
  md_for (cells2 g) (fun '(i, j, _) =>
    when ((1 <=? j) && (j <? jsize g - 1) && (1 <=? i) && (i <? isize g - 1))
     (q <- mload aQ i j 0 ;; qm <- mload aQ (i - 1) j 0 ;; qp <- mload aQ (i + 1) j 0 ;;
      let dqX := slope_mhd p q qp qm (junk (i, j, 0) 0) in
      mput aSx i j 0 dqX ;;;
      a1 <- rd (Loc aIn (i + 1) j 0 IA) ;; a0 <- rd (Loc aIn i j 0 IA) ;;
      wr (Loc aSx i j 0 IA) (a1 - a0)%A ;;;
      qm <- mload aQ i (j - 1) 0 ;; qp <- mload aQ i (j + 1) 0 ;;
      let dqY := slope_mhd p q qp qm dqX in
      mput aSy i j 0 dqY ;;;
      b1 <- rd (Loc aIn i (j + 1) 0 IB) ;; b0 <- rd (Loc aIn i j 0 IB) ;;
      wr (Loc aSy i j 0 IB) (b1 - b0)%A)).

(** ComputeElecFieldFunctor2D, MHDRunFunctors2D.h:249-308. *)
Definition melec2 (aIn : Z) : list (prog T unit) :=
  md_for (cells2 g) (fun '(i, j, _) =>
    when ((0 <? j) && (j <? jsize g) && (0 <? i) && (i <? isize g))
     (q1 <- mload aQ (i - 1) (j - 1) 0 ;; q2 <- mload aQ (i - 1) j 0 ;;
      q3 <- mload aQ i (j - 1) 0 ;; q4 <- mload aQ i j 0 ;;
      Am <- rd (Loc aIn i (j - 1) 0 IA) ;; A0 <- rd (Loc aIn i j 0 IA) ;;
      Bm <- rd (Loc aIn (i - 1) j 0 IB) ;; B0 <- rd (Loc aIn i j 0 IB) ;;
      wr (Loc aEl i j 0 0) (elec_z q1 q2 q3 q4 Am A0 Bm B0))).

(** ComputeSourceFaceMagFunctor2D, MHDRunFunctors2D.h:314-364. *)
Definition msface2 : list (prog T unit) :=
  md_for (cells2 g) (fun '(i, j, _) =>
    when ((0 <? j) && (j <? jsize g - 1) && (0 <? i) && (i <? isize g - 1))
     (e1 <- rd (Loc aEl i (j + 1) 0 0) ;; e0 <- rd (Loc aEl i j 0 0) ;;
      wr (Loc aSf i j 0 IX) ((e1 - e0) * half * Dy)%A ;;;
      e1 <- rd (Loc aEl (i + 1) j 0 0) ;; e0 <- rd (Loc aEl i j 0 0) ;;
      wr (Loc aSf i j 0 IY) (- (e1 - e0) * half * Dx)%A)).

(** ComputeUpdatedPrimVarFunctor2D_MHD, MHDRunFunctors2D.h:906-1044. *)
Definition mprimvar2 (aIn : Z) : list (prog T unit) :=
  md_for (cells2 g) (fun '(i, j, _) =>
    when (trace_range2 i j)
     (q <- mload aQ i j 0 ;; dqX <- mload aSx i j 0 ;; dqY <- mload aSy i j 0 ;;
      a1 <- rd (Loc aIn (i + 1) j 0 IA) ;; a0 <- rd (Loc aIn i j 0 IA) ;;
      b1 <- rd (Loc aIn i (j + 1) 0 IB) ;; b0 <- rd (Loc aIn i j 0 IB) ;;
      mput aQ2 i j 0 (primvar2 p q dqX dqY (a1 - a0)%A (b1 - b0)%A Dx Dy))).

(** ComputeFluxAndUpdateAlongDirFunctor2D_MHD<DIR_X>, MHDRunFunctors2D.h:1050-1275. *)
Definition mfluxX2 (aIn aOut : Z) : list (prog T unit) :=
  md_for (cells2 g) (fun '(i, j, _) =>
    when (faces2 g i j)
     (dq <- mload aSx i j 0 ;; q2 <- mload aQ2 i j 0 ;;
      a <- rd (Loc aIn i j 0 IA) ;; s <- rd (Loc aSf i j 0 IX) ;;
      dqN <- mload aSx (i - 1) j 0 ;; q2N <- mload aQ2 (i - 1) j 0 ;;
      let qR := with_A (face_minus p q2 dq) (a + s)%A in
      let qL := with_A (face_plus p q2N dqN) (mA qR) in
      add_fluxX2 aOut i j (riemann_mhd p qL qR (junk (i, j, 0) 2)))).
(** Same, DIR_Y. *)
Definition mfluxY2 (aIn aOut : Z) : list (prog T unit) :=
  md_for (cells2 g) (fun '(i, j, _) =>
    when (faces2 g i j)
     (dq <- mload aSy i j 0 ;; q2 <- mload aQ2 i j 0 ;;
      b <- rd (Loc aIn i j 0 IB) ;; s <- rd (Loc aSf i j 0 IY) ;;
      dqN <- mload aSy i (j - 1) 0 ;; q2N <- mload aQ2 i (j - 1) 0 ;;
      let qR := with_B (face_minus p q2 dq) (b + s)%A in
      let qL := with_B (face_plus p q2N dqN) (mB qR) in
      add_fluxY2 aOut i j (mswapY (riemann_mhd p (mswapY qL) (mswapY qR) (junk (i, j, 0) 2))))).

(** reconstruct_state_at_edge, MHDRunFunctors2D.h:1347-1436, for a state q2 of
    cell (i0,j0); (ia,ja) and (ib,jb) are the faces carrying Bx and By. *)
Definition recon_edge2 (aIn : Z) (q2 : ms T) (i0 j0 ia ja ib jb : Z) (sx sy sa sb : bool)
  : prog T (ms T) :=
  a <- rd (Loc aIn ia ja 0 IA) ;; fa <- rd (Loc aSf ia ja 0 IX) ;;
  ap <- rd (Loc aIn ia (ja + 1) 0 IA) ;; am <- rd (Loc aIn ia (ja - 1) 0 IA) ;;
  b <- rd (Loc aIn ib jb 0 IB) ;; fb <- rd (Loc aSf ib jb 0 IY) ;;
  bp <- rd (Loc aIn (ib + 1) jb 0 IB) ;; bm <- rd (Loc aIn (ib - 1) jb 0 IB) ;;
  dqX <- mload aSx i0 j0 0 ;; dqY <- mload aSy i0 j0 0 ;;
  Ret (recon2 p sx sy sa sb q2 dqX dqY
         (a + fa)%A (limit1 (slope_type h) a ap am) (b + fb)%A (limit1 (slope_type h) b bp bm)).

(** ReconstructEdgeComputeEmfAndUpdateFunctor2D, MHDRunFunctors2D.h:1282-1526. *)
Definition mrecon2 (aIn aOut : Z) : list (prog T unit) :=
  md_for (cells2 g) (fun '(i, j, _) =>
    when (faces2 g i j)
     (qLB <- mload aQ2 i j 0 ;; qLT <- mload aQ2 i (j - 1) 0 ;;
      qRB <- mload aQ2 (i - 1) j 0 ;; qRT <- mload aQ2 (i - 1) (j - 1) 0 ;;
      qLB <- recon_edge2 aIn qLB i j i j i j false false false false ;;
      qRT <- recon_edge2 aIn qRT (i - 1) (j - 1) (i - 1 + 1) (j - 1) (i - 1) (j - 1 + 1) true true true true ;;
      qRB <- recon_edge2 aIn qRB (i - 1) j (i - 1 + 1) j (i - 1) j true false false true ;;
      qLT <- recon_edge2 aIn qLT i (j - 1) i (j - 1) i (j - 1 + 1) false true true false ;;
      add_emf2 aOut i j (compute_emf p EMFZ qRT qRB qLT qLB))).

(** Scheme part of SolverMHDMuscl<2>::godunov_unsplit_impl
    (SolverMHDMuscl.cpp:375-458), after the ghost cells of [aIn] are filled and
    [aIn] is copied to [aOut]. *)
Definition mscheme2 (impl aIn aOut : Z) : list (list (prog T unit)) :=
  mconvert2 aIn ::
  (if impl =? 0 then
     [mtrace2 aIn; mflux_store2; memf_store2; mupdate2 aOut; mupdate_emf2 aOut]
   else if impl =? 1 then
     [mtrace2 aIn; mflux_update2 aOut; memf_update2 aOut]
   else if impl =? 2 then
     [mslopes2 aIn; mprimvar2 aIn; melec2 aIn; msface2;
      mfluxX2 aIn aOut; mfluxY2 aIn aOut; mrecon2 aIn aOut]
   else []).

(** SolverMHDMuscl<2>::godunov_unsplit_impl (single process). *)
Definition mgodunov2 (impl aIn aOut : Z) : list (list (prog T unit)) :=
  make_boundaries_serial2d true g aIn ++ deep_copy g (cells2 g) aOut aIn ::
  mscheme2 impl aIn aOut.
End Kernels.

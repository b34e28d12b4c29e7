(** The parallel loops of the 3D MUSCL MHD solver and their sequence in one time
    step: src/muscl/MHDRunFunctors3D.h, src/muscl/SolverMHDMuscl.cpp.
    The code spells out each of the three directions; here they are instances of one
    definition indexed by the axis. *)
From Coq Require Import ZArith List Bool.
From Verif Require Import Arith Par GridModel BoundaryModel HydroState HydroKernels
  MhdState MhdRiemann MhdPoint MhdPoint3 MhdKernels2.
Import ListNotations.
Open Scope Z_scope.
Open Scope prog_scope.

(** Cells and neighbours. *)
Definition cell := (Z * Z * Z)%type.
Definition cx (c : cell) : Z := fst (fst c).
Definition cy (c : cell) : Z := snd (fst c).
Definition cz (c : cell) : Z := snd c.
Definition coord (d : comp3) (c : cell) : Z := match d with CX => cx c | CY => cy c | CZ => cz c end.
Definition move (d : comp3) (n : Z) (c : cell) : cell :=
  match d with
  | CX => (cx c + n, cy c, cz c) | CY => (cx c, cy c + n, cz c) | CZ => (cx c, cy c, cz c + n)
  end.
Definition at3 (a : Z) (c : cell) (v : Z) : loc := Loc a (cx c) (cy c) (cz c) v.
(** Upper neighbour along d if [s]. *)
Definition up (d : comp3) (s : bool) (c : cell) : cell := if s then move d 1 c else c.

(** Arrays indexed by axis: face states (lower face Qp, upper face Qm), edge states,
    stored fluxes, slopes, face-field slopes; entries of Emf ([EmfIndex], enums.h:212-217). *)
Definition aFace (d : comp3) (s : bool) : Z :=
  match d with CX => if s then aQmx else aQpx | CY => if s then aQmy else aQpy | CZ => if s then aQmz else aQpz end.
Definition aEdge (e : comp3) (a b : bool) : Z :=
  match e with
  | CX => if a then (if b then aRT else aRB) else (if b then aLT else aLB)
  | CY => if a then (if b then aRT2 else aRB2) else (if b then aLT2 else aLB2)
  | CZ => if a then (if b then aRT3 else aRB3) else (if b then aLT3 else aLB3)
  end.
Definition aFl (d : comp3) : Z := match d with CX => aFx | CY => aFy | CZ => aFz end.
Definition aSl (d : comp3) : Z := match d with CX => aSx | CY => aSy | CZ => aSz end.
Definition aDb (d : comp3) : Z := match d with CX => aDA | CY => aDB | CZ => aDC end.
Definition iDir (d : comp3) : Z := match d with CX => IX | CY => IY | CZ => IZ end.
Definition iB (d : comp3) : Z := match d with CX => IA | CY => IB | CZ => IC end.
Definition iEmf (e : comp3) : Z := match e with CZ => 0 | CY => 1 | CX => 2 end.
Definition emfd (e : comp3) : emfdir := match e with CX => EMFX | CY => EMFY | CZ => EMFZ end.

Section Kernels.
Context {T : Type} {AT : Arith T}.
Definition load (a : Z) (c : cell) : prog T (ms T) := mload a (cx c) (cy c) (cz c).
Definition put (a : Z) (c : cell) (q : ms T) : prog T unit := mput a (cx c) (cy c) (cz c) q.

Variable p : mparams T.
Variable g : grid.
Variable dt : T.
(** Contents of uninitialised local variables of the kernel bodies, per cell: 0: dq; 2, 3, 4:
    the flux variable before the X, Y and Z Riemann problem (in the code one variable serves the three in
    turn; an arbitrary value covers that). *)
Variable junk : cell -> Z -> ms T.
Local Notation h := (mh p).
Local Notation Dx := (dtdx h dt).
Local Notation Dy := (dtdy h dt).
Local Notation Dz := (dtdz h dt).
Definition dtd (d : comp3) : T := match d with CX => Dx | CY => Dy | CZ => Dz end.
Definition jflux (d : comp3) (c : cell) : ms T := junk c (match d with CX => 2 | CY => 3 | CZ => 4 end).

(** Loop guards: lo <= i < isize - hi and the same for j, k. *)
Definition rng3 (lo hi : Z) (c : cell) : bool :=
  (lo <=? cz c) && (cz c <? ksize g - hi) && (lo <=? cy c) && (cy c <? jsize g - hi) &&
  (lo <=? cx c) && (cx c <? isize g - hi).

(** ConvertToPrimitivesFunctor3D_MHD, MHDRunFunctors3D.h:107-158. *)
Definition mconvert3 (aIn : Z) : list (prog T unit) :=
  md_for (cells3 g) (fun c => when (rng3 0 1 c)
     (u <- load aIn c ;;
      nA <- rd (at3 aIn (move CX 1 c) IA) ;; nB <- rd (at3 aIn (move CY 1 c) IB) ;;
      nC <- rd (at3 aIn (move CZ 1 c) IC) ;;
      put aQ c (constoprim_mhd p u nA nB nC))).

(** ComputeElecFieldFunctor3D, MHDRunFunctors3D.h:301-356: one component. *)
Definition elec_at (aIn : Z) (e : comp3) (c : cell) : prog T T :=
  let d1 := axis1 e in let d2 := axis2 e in
  q00 <- load aQ (move d1 (-1) (move d2 (-1) c)) ;; q01 <- load aQ (move d1 (-1) c) ;;
  q10 <- load aQ (move d2 (-1) c) ;; q11 <- load aQ c ;;
  x1 <- rd (at3 aIn (move d2 (-1) c) (iB d1)) ;; x0 <- rd (at3 aIn c (iB d1)) ;;
  y1 <- rd (at3 aIn (move d1 (-1) c) (iB d2)) ;; y0 <- rd (at3 aIn c (iB d2)) ;;
  Ret (elec3 e q00 q01 q10 q11 x1 x0 y1 y0).
Definition melec3 (aIn : Z) : list (prog T unit) :=
  md_for (cells3 g) (fun c => when (rng3 1 1 c)
     (x <- elec_at aIn CX c ;; wr (at3 aEl c IX) x ;;;
      y <- elec_at aIn CY c ;; wr (at3 aEl c IY) y ;;;
      z <- elec_at aIn CZ c ;; wr (at3 aEl c IZ) z)).

(** ComputeMagSlopesFunctor3D, MHDRunFunctors3D.h:470-532: slopes of the face component
    d along d'; the slope of a component along its own axis is set to zero. *)
Definition mag_at (aIn : Z) (d d' : comp3) (c : cell) : prog T T :=
  b <- rd (at3 aIn c (iB d)) ;; bp <- rd (at3 aIn (move d' 1 c) (iB d)) ;;
  bm <- rd (at3 aIn (move d' (-1) c) (iB d)) ;; Ret (slope_face3 p b bp bm).
Definition mmag3 (aIn : Z) : list (prog T unit) :=
  md_for (cells3 g) (fun c => when (rng3 1 1 c)
     (ay <- mag_at aIn CX CY c ;; az <- mag_at aIn CX CZ c ;;
      bx <- mag_at aIn CY CX c ;; bz <- mag_at aIn CY CZ c ;;
      ex <- mag_at aIn CZ CX c ;; ey <- mag_at aIn CZ CY c ;;
      wr (at3 aDA c IX) zero ;;; wr (at3 aDA c IY) ay ;;; wr (at3 aDA c IZ) az ;;;
      wr (at3 aDB c IX) bx ;;; wr (at3 aDB c IY) zero ;;; wr (at3 aDB c IZ) bz ;;;
      wr (at3 aDC c IX) ex ;;; wr (at3 aDC c IY) ey ;;; wr (at3 aDC c IZ) zero)).

(** A loop over the three axes filling a local array. *)
Definition gather3 {B} (f : comp3 -> prog T B) : prog T (comp3 -> B) :=
  x <- f CX ;; y <- f CY ;; z <- f CZ ;;
  Ret (fun d : comp3 => match d with CX => x | CY => y | CZ => z end).
Definition gatherB {B} (f : bool -> prog T B) : prog T (bool -> B) :=
  x <- f false ;; y <- f true ;; Ret (fun s : bool => if s then y else x).

(** Cell centre, MHDRunFunctors3D.h:701. *)
Definition xpos3 (c : cell) : T :=
  (xmin0 p + dx h / two + lit (cx c - gw g) 1 * dx h)%A.

(** ComputeTraceFunctor3D_MHD, MHDRunFunctors3D.h:668-844.  The model also loads the slopes of each face
    component along its own axis, which the code does not read and the trace does not use. *)
Definition load_trace3 (aIn : Z) (c : cell) : prog T tr3 :=
  q <- load aQ c ;;
  qp <- gather3 (fun d => load aQ (move d 1 c)) ;;
  qm <- gather3 (fun d => load aQ (move d (-1) c)) ;;
  fc <- gather3 (fun d => gatherB (fun s => rd (at3 aIn (up d s c) (iB d)))) ;;
  db <- gather3 (fun d => gather3 (fun d' => gatherB (fun s => rd (at3 (aDb d) (up d s c) (iDir d'))))) ;;
  E <- gather3 (fun e => gatherB (fun a => gatherB (fun b =>
         rd (at3 aEl (up (axis1 e) a (up (axis2 e) b c)) (iDir e))))) ;;
  Ret (trace3_core p (xpos3 c) q (slope_hydro3 p q qp qm) E fc db Dx Dy Dz).
Definition put_faces (c : cell) (t : tr3) (d : comp3) : prog T unit :=
  put (aFace d true) c (tf t d true) ;;; put (aFace d false) c (tf t d false).
Definition put_edges (c : cell) (t : tr3) (e : comp3) : prog T unit :=
  put (aEdge e true true) c (te t e true true) ;;; put (aEdge e true false) c (te t e true false) ;;;
  put (aEdge e false true) c (te t e false true) ;;; put (aEdge e false false) c (te t e false false).
Definition mtrace3 (aIn : Z) : list (prog T unit) :=
  md_for (cells3 g) (fun c => when (rng3 (gw g - 2) (gw g - 1) c)
     (t <- load_trace3 aIn c ;;
      put_faces c t CX ;;; put_faces c t CY ;;; put_faces c t CZ ;;;
      put_edges c t CX ;;; put_edges c t CY ;;; put_edges c t CZ)).

(** Flux through the lower face along d from the traced states, in the frame of d:
    MHDRunFunctors3D.h:1857-1899, 1983-2085. *)
Definition load_flux3 (d : comp3) (c : cell) : prog T (ms T) :=
  ql <- load (aFace d true) (move d (-1) c) ;; qr <- load (aFace d false) c ;;
  Ret (riemann_mhd p (mrot d ql) (mrot d qr) (jflux d c)).

(** ComputeFluxesAndStoreFunctor3D_MHD, MHDRunFunctors3D.h:1837-1902. *)
Definition mflux_store3 : list (prog T unit) :=
  md_for (cells3 g) (fun c => when (rng3 (gw g) (gw g - 1) c)
     (f <- load_flux3 CX c ;; put aFx c f ;;;
      f <- load_flux3 CY c ;; put aFy c f ;;;
      f <- load_flux3 CZ c ;; put aFz c f)).

(** Guards of the atomic updates: [below c] for the cell itself, [above d c] for its lower
    neighbour along d (e.g. MHDRunFunctors3D.h:2006-2085). *)
Definition hi_ok (d : comp3) (c : cell) : bool :=
  match d with CX => cx c <? isize g - gw g | CY => cy c <? jsize g - gw g | CZ => cz c <? ksize g - gw g end.
Definition below (c : cell) : bool := hi_ok CZ c && hi_ok CY c && hi_ok CX c.
Definition above (d : comp3) (c : cell) : bool :=
  match d with
  | CX => hi_ok CZ c && hi_ok CY c && (gw g <? cx c)
  | CY => hi_ok CZ c && (gw g <? cy c) && hi_ok CX c
  | CZ => (gw g <? cz c) && hi_ok CY c && hi_ok CX c
  end.
Definition flux_at (op : loc -> T -> prog T unit) (a : Z) (c : cell) (f : ms T) (s : T) : prog T unit :=
  atomic_flux op false a (cx c) (cy c) (cz c) f s.
Definition add_flux3 (d : comp3) (aOut : Z) (c : cell) (f : ms T) : prog T unit :=
  when (below c) (flux_at atomic_add aOut c f (dtd d)) ;;;
  when (above d c) (flux_at atomic_sub aOut (move d (-1) c) f (dtd d)).

(** ComputeFluxesAndUpdateFunctor3D_MHD, MHDRunFunctors3D.h:1962-2088. *)
Definition mflux_update3 (aOut : Z) : list (prog T unit) :=
  md_for (cells3 g) (fun c => when (rng3 (gw g) (gw g - 1) c)
     (f <- load_flux3 CX c ;; add_flux3 CX aOut c (mrot CX f) ;;;
      f <- load_flux3 CY c ;; add_flux3 CY aOut c (mrot CY f) ;;;
      f <- load_flux3 CZ c ;; add_flux3 CZ aOut c (mrot CZ f))).

(** Electromotive force along the lower edge in direction e, MHDRunFunctors3D.h:2195-2228,
    2340-2415: for Y edges the roles of RB and LT are exchanged. *)
Definition edge_order (e : comp3) (rb lt : ms T) : ms T * ms T :=
  match e with CY => (lt, rb) | _ => (rb, lt) end.
Definition emf_of (e : comp3) (rt rb lt lb : ms T) : T :=
  compute_emf p (emfd e) rt (fst (edge_order e rb lt)) (snd (edge_order e rb lt)) lb.
Definition load_emf3 (e : comp3) (c : cell) : prog T T :=
  rt <- load (aEdge e true true) (move (axis1 e) (-1) (move (axis2 e) (-1) c)) ;;
  rb <- load (aEdge e true false) (move (axis1 e) (-1) c) ;;
  lt <- load (aEdge e false true) (move (axis2 e) (-1) c) ;;
  lb <- load (aEdge e false false) c ;;
  Ret (emf_of e rt rb lt lb).

(** ComputeEmfAndStoreFunctor3D, MHDRunFunctors3D.h:2181-2230. *)
Definition memf_store3 : list (prog T unit) :=
  md_for (cells3 g) (fun c => when (rng3 (gw g) (gw g - 1) c)
     (z <- load_emf3 CZ c ;; wr (at3 aEmf c (iEmf CZ)) z ;;;
      y <- load_emf3 CY c ;; wr (at3 aEmf c (iEmf CY)) y ;;;
      x <- load_emf3 CX c ;; wr (at3 aEmf c (iEmf CX)) x)).

(** Atomic updates of the face fields around an edge along e (MHDRunFunctors3D.h:1590-1609,
    1662-1675, 1715-1728 and 2340-2415).  The face components touched are those along [axis1 e], whose
    second face lies in direction [axis2 e], and along [axis2 e], in direction [axis1 e]; for Y edges the signs
    are opposite to those of X and Z edges. *)
Definition add_emf3 (e : comp3) (aOut : Z) (c : cell) (x : T) : prog T unit :=
  let d1 := axis1 e in let d2 := axis2 e in
  let op1 := match e with CY => atomic_add | _ => atomic_sub end in
  let op2 := match e with CY => atomic_sub | _ => atomic_add end in
  when (below c) (op1 (at3 aOut c (iB d1)) (x * dtd d2)%A ;;; op2 (at3 aOut c (iB d2)) (x * dtd d1)%A) ;;;
  when (above d2 c) (op2 (at3 aOut (move d2 (-1) c) (iB d1)) (x * dtd d2)%A) ;;;
  when (above d1 c) (op1 (at3 aOut (move d1 (-1) c) (iB d2)) (x * dtd d1)%A).

(** ComputeEmfAndUpdateFunctor3D, MHDRunFunctors3D.h:2324-2416. *)
Definition memf_update3 (aOut : Z) : list (prog T unit) :=
  md_for (cells3 g) (fun c => when (rng3 (gw g) (gw g - 1) c)
     (z <- load_emf3 CZ c ;; add_emf3 CZ aOut c z ;;;
      y <- load_emf3 CY c ;; add_emf3 CY aOut c y ;;;
      x <- load_emf3 CX c ;; add_emf3 CX aOut c x)).

(** UpdateFunctor3D_MHD, MHDRunFunctors3D.h:2469-2538: the stored Y and Z fluxes are in
    their rotated frames; the magnetic field is written back unchanged. *)
Definition upd_flux3 (op : T -> T -> T) (u f : ms T) (s : T) : ms T :=
  MS (op (mD u) (mD f * s)%A) (op (mP u) (mP f * s)%A) (op (mU u) (mU f * s)%A)
     (op (mV u) (mV f * s)%A) (op (mW u) (mW f * s)%A) (mA u) (mB u) (mC u).
Definition mupdate3 (aOut : Z) : list (prog T unit) :=
  md_for (cells3 g) (fun c => when (rng3 (gw g) (gw g) c)
     (u <- load aOut c ;;
      f <- load aFx c ;; let u := upd_flux3 add u f Dx in
      f <- load aFx (move CX 1 c) ;; let u := upd_flux3 sub u f Dx in
      f <- load aFy c ;; let u := upd_flux3 add u (mswapY f) Dy in
      f <- load aFy (move CY 1 c) ;; let u := upd_flux3 sub u (mswapY f) Dy in
      f <- load aFz c ;; let u := upd_flux3 add u (mswapZ f) Dz in
      f <- load aFz (move CZ 1 c) ;; let u := upd_flux3 sub u (mswapZ f) Dz in
      put aOut c u)).

(** UpdateEmfFunctor3D, MHDRunFunctors3D.h:2581-2622.  e00 etc.: the electromotive forces
    read at the cell and at its upper neighbours. *)
Definition induct (u : ms T) (z0 zx zy y0 yx yz x0 xy xz : T) : ms T :=
  let u := with_A u (mA u + (zy - z0) * Dy)%A in
  let u := with_B u (mB u - (zx - z0) * Dx)%A in
  let u := with_A u (mA u - (yz - y0) * Dz)%A in
  let u := with_B u (mB u + (xz - x0) * Dz)%A in
  let u := with_C u (mC u + (yx - y0) * Dx)%A in
  with_C u (mC u - (xy - x0) * Dy)%A.
Definition mupdate_emf3 (aOut : Z) : list (prog T unit) :=
  md_for (cells3 g) (fun c => when (rng3 (gw g) (gw g) c)
     (u <- load aOut c ;;
      z0 <- rd (at3 aEmf c (iEmf CZ)) ;; zx <- rd (at3 aEmf (move CX 1 c) (iEmf CZ)) ;;
      zy <- rd (at3 aEmf (move CY 1 c) (iEmf CZ)) ;;
      y0 <- rd (at3 aEmf c (iEmf CY)) ;; yx <- rd (at3 aEmf (move CX 1 c) (iEmf CY)) ;;
      yz <- rd (at3 aEmf (move CZ 1 c) (iEmf CY)) ;;
      x0 <- rd (at3 aEmf c (iEmf CX)) ;; xy <- rd (at3 aEmf (move CY 1 c) (iEmf CX)) ;;
      xz <- rd (at3 aEmf (move CZ 1 c) (iEmf CX)) ;;
      let u := induct u z0 zx zy y0 yx yz x0 xy xz in
      wr (at3 aOut c IA) (mA u) ;;; wr (at3 aOut c IB) (mB u) ;;; wr (at3 aOut c IC) (mC u))).

(** *** Low-memory variant *)
(** slope_unsplit_hydro_3d (one direction), MHDBaseFunctor3D.h:510-538, is [slope_mhd].
    ComputeSlopesFunctor3D_MHD, MHDRunFunctors3D.h:215-268: one local variable dq for the three
    directions. *)
Definition slope_dir3 (aIn : Z) (q : ms T) (d : comp3) (c : cell) (j : ms T) : prog T (ms T) :=
  qm <- load aQ (move d (-1) c) ;; qp <- load aQ (move d 1 c) ;;
  let dq := slope_mhd p q qp qm j in
  put (aSl d) c dq ;;;
  b1 <- rd (at3 aIn (move d 1 c) (iB d)) ;; b0 <- rd (at3 aIn c (iB d)) ;;
  wr (at3 (aSl d) c (iB d)) (b1 - b0)%A ;;; Ret dq.
Definition mslopes3 (aIn : Z) : list (prog T unit) :=
  md_for (cells3 g) (fun c => when (rng3 1 1 c)
     (q <- load aQ c ;;
      dq <- slope_dir3 aIn q CX c (junk c 0) ;; dq <- slope_dir3 aIn q CY c dq ;;
      dq <- slope_dir3 aIn q CZ c dq ;; skip)).

(** ComputeSourceFaceMagFunctor3D, MHDRunFunctors3D.h:399-430. *)
Definition msface3 : list (prog T unit) :=
  md_for (cells3 g) (fun c => when (rng3 1 1 c)
     (zy <- rd (at3 aEl (move CY 1 c) IZ) ;; z0 <- rd (at3 aEl c IZ) ;;
      yz <- rd (at3 aEl (move CZ 1 c) IY) ;; y0 <- rd (at3 aEl c IY) ;;
      zx <- rd (at3 aEl (move CX 1 c) IZ) ;; yx <- rd (at3 aEl (move CX 1 c) IY) ;;
      xz <- rd (at3 aEl (move CZ 1 c) IX) ;; xy <- rd (at3 aEl (move CY 1 c) IX) ;; x0 <- rd (at3 aEl c IX) ;;
      wr (at3 aSf c IX) ((zy - z0) * half * Dy - (yz - y0) * half * Dz)%A ;;;
      wr (at3 aSf c IY) (- (zx - z0) * half * Dx + (xz - x0) * half * Dz)%A ;;;
      wr (at3 aSf c IZ) ((yx - y0) * half * Dx - (xy - x0) * half * Dy)%A)).

(** ComputeUpdatedPrimVarFunctor3D_MHD, MHDRunFunctors3D.h:911-1015. *)
Definition mprimvar3 (aIn : Z) : list (prog T unit) :=
  md_for (cells3 g) (fun c => when (rng3 (gw g - 2) (gw g - 1) c)
     (q <- load aQ c ;; sX <- load aSx c ;; sY <- load aSy c ;; sZ <- load aSz c ;;
      fc <- gather3 (fun d => gatherB (fun s => rd (at3 aIn (up d s c) (iB d)))) ;;
      let db d := (fc d true - fc d false)%A in
      put aQ2 c (primvar3 p q sX sY sZ (db CX) (db CY) (db CZ) Dx Dy Dz))).

(** ComputeFluxAndUpdateAlongDirFunctor3D_MHD<dir>, MHDRunFunctors3D.h:1096-1315. *)
Definition mflux_dir3 (d : comp3) (aIn aOut : Z) : list (prog T unit) :=
  md_for (cells3 g) (fun c => when (rng3 (gw g) (gw g - 1) c)
     (dq <- load (aSl d) c ;; q2 <- load aQ2 c ;;
      b <- rd (at3 aIn c (iB d)) ;; s <- rd (at3 aSf c (iDir d)) ;;
      dqN <- load (aSl d) (move d (-1) c) ;; q2N <- load aQ2 (move d (-1) c) ;;
      let qR := setb d (face_minus p q2 dq) (b + s)%A in
      let qL := setb d (face_plus p q2N dqN) (b + s)%A in
      add_flux3 d aOut c (mrot d (riemann_mhd p (mrot d qL) (mrot d qR) (jflux d c))))).

(** reconstruct_state_at_edge<dir0, dir1>, MHDRunFunctors3D.h:1406-1529, for the state [q2] of cell [c];
    [a], [b] tell whether the edge is on the upper side along dir0 and dir1 (edge location). *)
Definition recon_edge3 (aIn : Z) (e : comp3) (a b : bool) (q2 : ms T) (c : cell) : prog T (ms T) :=
  let d0 := axis1 e in let d1 := axis2 e in
  let c0 := up d0 a c in let c1 := up d1 b c in
  b0 <- rd (at3 aIn c0 (iB d0)) ;; f0 <- rd (at3 aSf c0 (iDir d0)) ;;
  b0p <- rd (at3 aIn (move d1 1 c0) (iB d0)) ;; b0m <- rd (at3 aIn (move d1 (-1) c0) (iB d0)) ;;
  b1 <- rd (at3 aIn c1 (iB d1)) ;; f1 <- rd (at3 aSf c1 (iDir d1)) ;;
  b1p <- rd (at3 aIn (move d0 1 c1) (iB d1)) ;; b1m <- rd (at3 aIn (move d0 (-1) c1) (iB d1)) ;;
  dq0 <- load (aSl d0) c ;; dq1 <- load (aSl d1) c ;;
  Ret (recon3 p d0 d1 a b b a q2 dq0 dq1
         (b0 + f0)%A (limited_slope3 p d1 b0 b0p b0m) (b1 + f1)%A (limited_slope3 p d0 b1 b1p b1m)).

(** ReconstructEdgeComputeEmfAndUpdateFunctor3D<dir>, MHDRunFunctors3D.h:1531-1770. *)
Definition mrecon3 (e : comp3) (aIn aOut : Z) : list (prog T unit) :=
  md_for (cells3 g) (fun c => when (rng3 (gw g) (gw g - 1) c)
     (let cLT := move (axis2 e) (-1) c in let cRB := move (axis1 e) (-1) c in
      let cRT := move (axis1 e) (-1) (move (axis2 e) (-1) c) in
      qLB <- load aQ2 c ;; qLT <- load aQ2 cLT ;; qRB <- load aQ2 cRB ;; qRT <- load aQ2 cRT ;;
      qLB <- recon_edge3 aIn e false false qLB c ;;
      qRT <- recon_edge3 aIn e true true qRT cRT ;;
      qRB <- recon_edge3 aIn e true false qRB cRB ;;
      qLT <- recon_edge3 aIn e false true qLT cLT ;;
      add_emf3 e aOut c (emf_of e qRT qRB qLT qLB))).

(** Scheme part of SolverMHDMuscl<3>::godunov_unsplit_impl (SolverMHDMuscl.cpp:489-572). *)
Definition mscheme3 (impl aIn aOut : Z) : list (list (prog T unit)) :=
  mconvert3 aIn ::
  (if impl =? 0 then
     [melec3 aIn; mmag3 aIn; mtrace3 aIn; mflux_store3; memf_store3; mupdate3 aOut; mupdate_emf3 aOut]
   else if impl =? 1 then
     [melec3 aIn; mmag3 aIn; mtrace3 aIn; mflux_update3 aOut; memf_update3 aOut]
   else if impl =? 2 then
     [mslopes3 aIn; mprimvar3 aIn; melec3 aIn; msface3;
      mflux_dir3 CX aIn aOut; mflux_dir3 CY aIn aOut; mflux_dir3 CZ aIn aOut;
      mrecon3 CX aIn aOut; mrecon3 CY aIn aOut; mrecon3 CZ aIn aOut]
   else []).

(** SolverMHDMuscl<3>::godunov_unsplit_impl (single process), SolverMHDMuscl.cpp:467-572. *)
Definition mgodunov3 (impl aIn aOut : Z) : list (list (prog T unit)) :=
  make_boundaries_serial3d true g aIn ++ deep_copy g (cells3 g) aOut aIn ::
  mscheme3 impl aIn aOut.
End Kernels.

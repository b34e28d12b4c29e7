(** Ghost-cell filling (serial build). *)
From Coq Require Import ZArith List Bool.
From Verif Require Import Arith Par GridModel.
Import ListNotations.
Open Scope Z_scope.

Section Boundary.
Context {T : Type} {A : Arith T}.

(** The inner loop [for (iVar = 0; iVar < nbvar; iVar++)
    Udata(dst, iVar) = Udata(src, iVar) * sign] shared by all functors of
    src/shared/BoundariesFunctors.h (e.g. lines 69-90). *)
Definition assign_cell (a : Z) (nb : Z) (dst src : Z * Z * Z) (sign : Z -> T) : prog T unit :=
  let '(i, j, k) := dst in
  let '(i0, j0, k0) := src in
  for_each (zrange 0 nb) (fun iVar =>
    bind (rd (Loc a i0 j0 k0 iVar)) (fun v =>
    wr (Loc a i j k iVar) (mul v (sign iVar)))).

(** [sign] for a face normal to x: -1 on the normal momentum when reflecting;
    the MHD functors also negate the normal magnetic field.
    src/shared/BoundariesFunctors.h:72-79 (hydro), 590-599 (MHD); y: 151-158,
    673-682; z: 453-460, 982-989. *)
Definition sign_of (mhd : bool) (boundary_type : Z) (ivel imag : Z) (iVar : Z) : T :=
  if (boundary_type =? BC_DIRICHLET)
     && ((iVar =? ivel) || (mhd && (iVar =? imag)))
  then opp one else one.

(** src/shared/BoundariesFunctors.h:35-212 (MakeBoundariesFunctor2D::operator())
    and 552-739 (MakeBoundariesFunctor2D_MHD), [a] is the array filled.
    2D arrays are stored at k = 0.  Both classes are textually identical up to
    the extra sign for the magnetic field, hence the flag [mhd]. *)
Definition make_boundaries_functor2d (mhd : bool) (g : grid) (f : face) (a : Z) (index : Z)
  : prog T unit :=
  let bt := bc g f in
  match f with
  | FACE_XMIN =>
      let j := index / gw g in
      let i := index - j * gw g in
      if (jmin g <=? j) && (j <=? jmax g) && (0 <=? i) && (i <? gw g) then
        let i0 := if bt =? BC_DIRICHLET then 2 * gw g - 1 - i
                  else if bt =? BC_NEUMANN then gw g
                  else nx g + i in
        assign_cell a (nbvar g) (i, j, 0) (i0, j, 0) (sign_of mhd bt IU IA)
      else skip
  | FACE_XMAX =>
      let j := index / gw g in
      let i := index - j * gw g in
      let i := i + (nx g + gw g) in
      if (jmin g <=? j) && (j <=? jmax g) && (nx g + gw g <=? i) && (i <=? nx g + 2 * gw g - 1) then
        let i0 := if bt =? BC_DIRICHLET then 2 * nx g + 2 * gw g - 1 - i
                  else if bt =? BC_NEUMANN then nx g + gw g - 1
                  else i - nx g in
        assign_cell a (nbvar g) (i, j, 0) (i0, j, 0) (sign_of mhd bt IU IA)
      else skip
  | FACE_YMIN =>
      let i := index / gw g in
      let j := index - i * gw g in
      if (imin g <=? i) && (i <=? imax g) && (0 <=? j) && (j <? gw g) then
        let j0 := if bt =? BC_DIRICHLET then 2 * gw g - 1 - j
                  else if bt =? BC_NEUMANN then gw g
                  else ny g + j in
        assign_cell a (nbvar g) (i, j, 0) (i, j0, 0) (sign_of mhd bt IV IB)
      else skip
  | FACE_YMAX =>
      let i := index / gw g in
      let j := index - i * gw g in
      let j := j + (ny g + gw g) in
      if (imin g <=? i) && (i <=? imax g) && (ny g + gw g <=? j) && (j <=? ny g + 2 * gw g - 1) then
        let j0 := if bt =? BC_DIRICHLET then 2 * ny g + 2 * gw g - 1 - j
                  else if bt =? BC_NEUMANN then ny g + gw g - 1
                  else j - ny g in
        assign_cell a (nbvar g) (i, j, 0) (i, j0, 0) (sign_of mhd bt IV IB)
      else skip
  | FACE_ZMIN | FACE_ZMAX => skip
  end.

(** src/shared/BoundariesFunctors.h:244-518 (MakeBoundariesFunctor3D::operator())
    and 767-1048 (MakeBoundariesFunctor3D_MHD). *)
Definition make_boundaries_functor3d (mhd : bool) (g : grid) (f : face) (a : Z) (index : Z)
  : prog T unit :=
  let bt := bc g f in
  match f with
  | FACE_XMIN =>
      let k := index / (gw g * jsize g) in
      let j := (index - k * gw g * jsize g) / gw g in
      let i := index - j * gw g - k * gw g * jsize g in
      if (kmin g <=? k) && (k <=? kmax g) && (jmin g <=? j) && (j <=? jmax g)
         && (0 <=? i) && (i <? gw g) then
        let i0 := if bt =? BC_DIRICHLET then 2 * gw g - 1 - i
                  else if bt =? BC_NEUMANN then gw g
                  else nx g + i in
        assign_cell a (nbvar g) (i, j, k) (i0, j, k) (sign_of mhd bt IU IA)
      else skip
  | FACE_XMAX =>
      let k := index / (gw g * jsize g) in
      let j := (index - k * gw g * jsize g) / gw g in
      let i := index - j * gw g - k * gw g * jsize g in
      let i := i + (nx g + gw g) in
      if (kmin g <=? k) && (k <=? kmax g) && (jmin g <=? j) && (j <=? jmax g)
         && (nx g + gw g <=? i) && (i <=? nx g + 2 * gw g - 1) then
        let i0 := if bt =? BC_DIRICHLET then 2 * nx g + 2 * gw g - 1 - i
                  else if bt =? BC_NEUMANN then nx g + gw g - 1
                  else i - nx g in
        assign_cell a (nbvar g) (i, j, k) (i0, j, k) (sign_of mhd bt IU IA)
      else skip
  | FACE_YMIN =>
      let k := index / (isize g * gw g) in
      let j := (index - k * isize g * gw g) / isize g in
      let i := index - j * isize g - k * isize g * gw g in
      if (kmin g <=? k) && (k <=? kmax g) && (0 <=? j) && (j <? gw g)
         && (imin g <=? i) && (i <=? imax g) then
        let j0 := if bt =? BC_DIRICHLET then 2 * gw g - 1 - j
                  else if bt =? BC_NEUMANN then gw g
                  else ny g + j in
        assign_cell a (nbvar g) (i, j, k) (i, j0, k) (sign_of mhd bt IV IB)
      else skip
  | FACE_YMAX =>
      let k := index / (isize g * gw g) in
      let j := (index - k * isize g * gw g) / isize g in
      let i := index - j * isize g - k * isize g * gw g in
      let j := j + (ny g + gw g) in
      if (kmin g <=? k) && (k <=? kmax g) && (ny g + gw g <=? j) && (j <=? ny g + 2 * gw g - 1)
         && (imin g <=? i) && (i <=? imax g) then
        let j0 := if bt =? BC_DIRICHLET then 2 * ny g + 2 * gw g - 1 - j
                  else if bt =? BC_NEUMANN then ny g + gw g - 1
                  else j - ny g in
        assign_cell a (nbvar g) (i, j, k) (i, j0, k) (sign_of mhd bt IV IB)
      else skip
  | FACE_ZMIN =>
      let k := index / (isize g * jsize g) in
      let j := (index - k * isize g * jsize g) / isize g in
      let i := index - j * isize g - k * isize g * jsize g in
      if (0 <=? k) && (k <? gw g) && (jmin g <=? j) && (j <=? jmax g)
         && (imin g <=? i) && (i <=? imax g) then
        let k0 := if bt =? BC_DIRICHLET then 2 * gw g - 1 - k
                  else if bt =? BC_NEUMANN then gw g
                  else nz g + k in
        assign_cell a (nbvar g) (i, j, k) (i, j, k0) (sign_of mhd bt IW IC)
      else skip
  | FACE_ZMAX =>
      let k := index / (isize g * jsize g) in
      let j := (index - k * isize g * jsize g) / isize g in
      let i := index - j * isize g - k * isize g * jsize g in
      let k := k + (nz g + gw g) in
      if (nz g + gw g <=? k) && (k <=? nz g + 2 * gw g - 1) && (jmin g <=? j) && (j <=? jmax g)
         && (imin g <=? i) && (i <=? imax g) then
        let k0 := if bt =? BC_DIRICHLET then 2 * nz g + 2 * gw g - 1 - k
                  else if bt =? BC_NEUMANN then nz g + gw g - 1
                  else k - nz g in
        assign_cell a (nbvar g) (i, j, k) (i, j, k0) (sign_of mhd bt IW IC)
      else skip
  end.

(** src/shared/SolverBase.cpp:338-405, make_boundary (2D). *)
Definition make_boundary2d (mhd : bool) (g : grid) (a : Z) (f : face) : list (prog T unit) :=
  let nbIter := gw g * Z.max (isize g) (jsize g) in
  parallel_for nbIter (make_boundaries_functor2d mhd g f a).

(** src/shared/SolverBase.cpp:409-509, make_boundary (3D). *)
Definition make_boundary3d (mhd : bool) (g : grid) (a : Z) (f : face) : list (prog T unit) :=
  let max_size := Z.max (isize g) (jsize g) in
  let max_size := Z.max max_size (ksize g) in
  let nbIter := gw g * max_size * max_size in
  parallel_for nbIter (make_boundaries_functor3d mhd g f a).

(** src/shared/SolverBase.cpp:513-522, make_boundaries_serial (2D). *)
Definition make_boundaries_serial2d (mhd : bool) (g : grid) (a : Z) : list (list (prog T unit)) :=
  map (make_boundary2d mhd g a) [FACE_XMIN; FACE_XMAX; FACE_YMIN; FACE_YMAX].

(** src/shared/SolverBase.cpp:526-537, make_boundaries_serial (3D). *)
Definition make_boundaries_serial3d (mhd : bool) (g : grid) (a : Z) : list (list (prog T unit)) :=
  map (make_boundary3d mhd g a)
      [FACE_XMIN; FACE_XMAX; FACE_YMIN; FACE_YMAX; FACE_ZMIN; FACE_ZMAX].

End Boundary.

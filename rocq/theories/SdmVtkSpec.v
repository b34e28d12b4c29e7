(** Vocabulary for the statements about the result files of the spectral difference solver: what
    a reader of a VTK unstructured grid sees. *)
From Coq Require Import ZArith List Bool Reals String.
From Verif Require Import Arith Par GridModel HydroState HydroKernels CellKernels MhdState MhdInit HydroInitSpec SdmGeom SdmInitSpec VtkSpec SdmVtk.
Import ListNotations.
Local Open Scope R_scope.

(** Cell [m] of a file: the points named by the connectivity between the offsets of the cell
    before and of this cell. *)
Definition read_cell (f : vtu R) (m : Z) : option (list (option (R * R * R))) :=
  match (if (m =? 0)%Z then Some 0%Z else at_ (vt_offsets f) (m - 1)), at_ (vt_offsets f) m with
  | Some a, Some b => Some (map (at_ (vt_nodes f)) (firstn (Z.to_nat (b - a)) (skipn (Z.to_nat a) (vt_connectivity f))))
  | _, _ => None
  end.
(** A box; the corners of a quadrilateral (type 9) and of a hexahedron (type 12) in VTK's order. *)
Record vbox := VBox { x0 : R; x1 : R; y0 : R; y1 : R; z0 : R; z1 : R }.
Definition quad_corners (b : vbox) : list (R * R * R) :=
  [(x0 b, y0 b, 0); (x1 b, y0 b, 0); (x1 b, y1 b, 0); (x0 b, y1 b, 0)].
Definition hexa_corners (b : vbox) : list (R * R * R) :=
  [(x0 b, y0 b, z0 b); (x1 b, y0 b, z0 b); (x1 b, y1 b, z0 b); (x0 b, y1 b, z0 b);
   (x0 b, y0 b, z1 b); (x1 b, y0 b, z1 b); (x1 b, y1 b, z1 b); (x0 b, y1 b, z1 b)].
(** Cell [m] of the file is the box [b]. *)
Definition cell_is (b3 : bool) (f : vtu R) (m : Z) (b : vbox) : Prop :=
  read_cell f m = Some (map Some (if b3 then hexa_corners b else quad_corners b)) /\
  at_ (vt_types f) m = Some (if b3 then 12 else 9)%Z.
(** Inside of the box. *)
Definition inner (b3 : bool) (b : vbox) (X : point) : Prop :=
  x0 b < px X < x1 b /\ y0 b < py X < y1 b /\ (b3 = true -> z0 b < pz X < z1 b).
(** In the box, lower faces included. *)
Definition within (b3 : bool) (b : vbox) (X : point) : Prop :=
  x0 b <= px X < x1 b /\ y0 b <= py X < y1 b /\ (b3 = true -> z0 b <= pz X < z1 b).
(** The part of the domain of this process. *)
Definition process_box (g : grid) (h : hparams R) (bx : MhdInit.box R) : vbox :=
  VBox (xmin bx + IZR (nx g * mpi bx IX) * dx h) (xmin bx + IZR (nx g * mpi bx IX + nx g) * dx h)
       (ymin bx + IZR (ny g * mpi bx IY) * dy h) (ymin bx + IZR (ny g * mpi bx IY + ny g) * dy h)
       (zmin bx + IZR (nz g * mpi bx IZ) * dz h) (zmin bx + IZR (nz g * mpi bx IZ + nz g) * dz h).
(** The solution points of the scheme: at least one, increasing, inside (0, 1). *)
Definition ordered_points (P : points R) : Prop :=
  (1 <= npts P)%Z /\ (forall a, (0 <= a < npts P)%Z -> 0 < solp P a < 1) /\
  (forall a b, (0 <= a < b)%Z -> (b < npts P)%Z -> solp P a < solp P b).
Definition sized (b3 : bool) (g : grid) (h : hparams R) : Prop :=
  (0 < nx g)%Z /\ (0 < ny g)%Z /\ (b3 = true -> (0 < nz g)%Z) /\ 0 < dx h /\ 0 < dy h /\ (b3 = true -> 0 < dz h).
(** Place of solution point (ix, iy, iz) of cell (i, j, k) in the arrays of the file. *)
Definition place (b3 : bool) (P : points R) (g : grid) (c q : Z * Z * Z) : Z :=
  let '(i, j, k) := c in let '(ix, iy, iz) := q in let N := npts P in
  ((i + nx g * (j + ny g * k)) * (if b3 then N * N * N else N * N) + (ix + N * (iy + N * iz)))%Z.
Definition in_range (b3 : bool) (P : points R) (g : grid) (c q : Z * Z * Z) : Prop :=
  let '(i, j, k) := c in let '(ix, iy, iz) := q in
  (0 <= i < nx g /\ 0 <= j < ny g /\ (if b3 then 0 <= k < nz g else k = 0) /\
   0 <= ix < npts P /\ 0 <= iy < npts P /\ (if b3 then 0 <= iz < npts P else iz = 0))%Z.
(** ** Binary files.  The bytes of the arrays of a file, in order: nodes, connectivity, offsets,
    types, and the values of each variable. *)
Definition file_arrays {byte} (encf encr : R -> list byte) (enc64 enc8 : Z -> list byte) (f : vtu R) : list (list byte) :=
  [flat_map (fun p : R * R * R => let '(x, y, z) := p in encf x ++ encf y ++ encf z) (vt_nodes f);
   flat_map enc64 (vt_connectivity f); flat_map enc64 (vt_offsets f); flat_map enc8 (vt_types f)]
  ++ map (fun v => flat_map encr (snd v)) (vt_vars f).
Definition encodes {X byte} (enc : X -> list byte) (n : Z) : Prop := forall x, Z.of_nat (List.length (enc x)) = n.

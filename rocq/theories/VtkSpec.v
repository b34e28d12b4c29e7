(** Vocabulary for the statements about VTK files. *)
From Coq Require Import ZArith List Bool.
From Verif Require Import GridModel MpiModel.
Open Scope Z_scope.

(** Element [n] of a list. *)
Definition at_ {A} (l : list A) (n : Z) : option A := if n <? 0 then None else nth_error l (Z.to_nat n).
(** Number of layers of cells along z. *)
Definition layers (b3 : bool) (g : grid) : Z := if b3 then nz g else 1.
Definition vtk_grid (b3 : bool) (g : grid) : Prop := 0 < nx g /\ 0 < ny g /\ (b3 = true -> 0 < nz g) /\ 0 <= gw g /\ 0 <= nbvar g.
(** A cell (X,Y,Z) lies in a box of points. *)
Definition covers (e : (Z * Z) * (Z * Z) * (Z * Z)) (X Y W : Z) : Prop :=
  let '((x0, x1), (y0, y1), (z0, z1)) := e in x0 <= X < x1 /\ y0 <= Y < y1 /\ z0 <= W < z1.

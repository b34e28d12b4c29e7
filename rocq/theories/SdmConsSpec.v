(** Cell averages and totals of the spectral difference solver. *)
From Coq Require Import ZArith List Bool Reals.
From Coquelicot Require Import Coquelicot.
From Verif Require Import Arith Par GridModel HydroState HydroKernels MoodKernels SdmGeom SdmSpec SdmKernels.
Import ListNotations.
Open Scope R_scope.

(** Sum over a list. *)
Fixpoint lsum {X} (f : X -> R) (l : list X) : R :=
  match l with [] => 0 | x :: l' => f x + lsum f l' end.

(** Integral over the unit interval of the polynomial that is 1 at solution point
    [j] and 0 at the others: the weight of point [j] in the exact integral of the
    polynomial through the solution points. *)
Definition point_weight (P : points R) (j : Z) : R := RInt (lagrange (npts P) (solp P) j) 0 1.
(** Product over the directions: the weight of a point of a cell. *)
Definition quad (b3 : bool) (P : points R) (q : cell) : R :=
  fold_right (fun a r => point_weight P (coord q a) * r) 1 (dirs b3).

(** Average over cell [c] of variable [v] of a field given per cell and point. *)
Definition average (b3 : bool) (P : points R) (U : cell -> cell -> Z -> R) (c : cell) (v : Z) : R :=
  lsum (fun q => quad b3 P q * U c q v) (dofs b3 P).
(** The field stored in array [a]. *)
Definition stored (b3 : bool) (P : points R) (s : store R) (a : Z) : cell -> cell -> Z -> R :=
  fun c q v => s (sloc b3 P a c q v).
(** Cells with lo <= coordinate < hi. *)
Definition rbox (b3 : bool) (lo hi : Z -> Z) : list cell :=
  list_prod (list_prod (zrange (lo IX) (hi IX)) (zrange (lo IY) (hi IY))) (if b3 then zrange (lo IZ) (hi IZ) else [0%Z]).
(** Interior cells. *)
Definition interior (b3 : bool) (g : grid) : list cell :=
  rbox b3 (fun _ => gw g) (fun a => (gw g + sizeN g a)%Z).
(** Total of variable [v] over the domain, in units of the volume of a cell. *)
Definition total_sdm (b3 : bool) (P : points R) (g : grid) (s : store R) (a v : Z) : R :=
  lsum (fun c => average b3 P (stored b3 P s a) c v) (interior b3 g).

(** Periodic in every direction. *)
Definition periodic_sdm (b3 : bool) (g : grid) : Prop :=
  forall a hi, In a (dirs b3) -> bc_of g a hi = BC_PERIODIC.

(** Points on which the interpolation theory applies. *)
Definition points_ok (P : points R) : Prop :=
  distinct (npts P) (solp P) /\ distinct (npts P + 1) (flxp P) /\
  (forall i j, (0 <= i < npts P)%Z -> (0 <= j <= npts P)%Z -> solp P i <> flxp P j).
(** The first and the last flux point are the ends of the cell. *)
Definition ends_ok (P : points R) : Prop := flxp P 0 = 0 /\ flxp P (npts P) = 1.

(** Vocabulary for the symmetries of a run: exchange of two axes and reflection
    of the x axis. *)
From Coq Require Import ZArith List Bool Reals.
From Verif Require Import Arith Par GridModel BoundarySpec HydroState HydroKernels HydroSpec.
Open Scope R_scope.

(** Parameters with two cell spacings exchanged. *)
Definition par_xy (p : hparams R) : hparams R :=
  HParams R (gamma0 p) (gamma6 p) (smallr p) (smallc p) (smallp p) (smallpp p) (slope_type p) (cfl p)
    (dy p) (dx p) (dz p) (riemann_type p).
Definition par_xz (p : hparams R) : hparams R :=
  HParams R (gamma0 p) (gamma6 p) (smallr p) (smallc p) (smallp p) (smallpp p) (slope_type p) (cfl p)
    (dz p) (dy p) (dx p) (riemann_type p).

Definition face_xy (f : face) : face :=
  match f with FACE_XMIN => FACE_YMIN | FACE_XMAX => FACE_YMAX | FACE_YMIN => FACE_XMIN | FACE_YMAX => FACE_XMAX
  | f => f end.
Definition face_xz (f : face) : face :=
  match f with FACE_XMIN => FACE_ZMIN | FACE_XMAX => FACE_ZMAX | FACE_ZMIN => FACE_XMIN | FACE_ZMAX => FACE_XMAX
  | f => f end.
Definition flipx (f : face) : face :=
  match f with FACE_XMIN => FACE_XMAX | FACE_XMAX => FACE_XMIN | f => f end.

Definition dir_xy (d : Z) : Z := if Z.eqb d IX then IY else if Z.eqb d IY then IX else d.   (* IX, IY, IZ = 0, 1, 2 *)
Definition dir_xz (d : Z) : Z := if Z.eqb d IX then IZ else if Z.eqb d IZ then IX else d.
(** The momentum (2, 3, 4) along the exchanged axes. *)
Definition var_xy (v : Z) : Z := (if v =? 2 then 3 else if v =? 3 then 2 else v)%Z.
Definition var_xz (v : Z) : Z := (if v =? 2 then 4 else if v =? 4 then 2 else v)%Z.

(** The same domain with the axes exchanged, or with the x axis reversed. *)
Definition grid_xy (g : grid) : grid :=
  Grid (ny g) (nx g) (nz g) (gw g) (nbvar g) (fun f => bc g (face_xy f)).
Definition grid_xz (g : grid) : grid :=
  Grid (nz g) (ny g) (nx g) (gw g) (nbvar g) (fun f => bc g (face_xz f)).
Definition grid_mx (g : grid) : grid :=
  Grid (nx g) (ny g) (nz g) (gw g) (nbvar g) (fun f => bc g (flipx f)).
(** Array index of the mirror image of column [i]. *)
Definition mir (g : grid) (i : Z) : Z := (2 * gw g + nx g - 1 - i)%Z.

Open Scope Z_scope.

(** Array [a] of [t] is array [a] of [s] with axes exchanged, in the interior. *)
Definition exchanged_xy2 (g : grid) (a : Z) (s t : store R) : Prop :=
  forall i j v, inside2 g i j -> 0 <= v < 4 -> t (Loc a j i 0 v) = s (Loc a i j 0 (var_xy v)).
Definition exchanged_xy3 (g : grid) (a : Z) (s t : store R) : Prop :=
  forall i j k v, inside3 g i j k -> 0 <= v < 5 -> t (Loc a j i k v) = s (Loc a i j k (var_xy v)).
Definition exchanged_xz3 (g : grid) (a : Z) (s t : store R) : Prop :=
  forall i j k v, inside3 g i j k -> 0 <= v < 5 -> t (Loc a k j i v) = s (Loc a i j k (var_xz v)).
(** The gravity field likewise (everywhere: it is not a state array). *)
Definition gravity_xy2 (s t : store R) : Prop :=
  forall i j d, 0 <= d < 2 -> t (Loc aG j i 0 d) = s (Loc aG i j 0 (dir_xy d)).
Definition gravity_xy3 (s t : store R) : Prop :=
  forall i j k d, 0 <= d < 3 -> t (Loc aG j i k d) = s (Loc aG i j k (dir_xy d)).
Definition gravity_xz3 (s t : store R) : Prop :=
  forall i j k d, 0 <= d < 3 -> t (Loc aG k j i d) = s (Loc aG i j k (dir_xz d)).

(** Array [a] of [t] is array [a] of [s] reflected along x, in the interior:
    the x momentum (and the x component of gravity) changes sign. *)
Definition sign_mx (v w : Z) (x : R) : R := if v =? w then (- x)%R else x.
Definition reflected2 (g : grid) (a : Z) (s t : store R) : Prop :=
  forall i j v, inside2 g i j -> 0 <= v < 4 -> t (Loc a (mir g i) j 0 v) = sign_mx v 2 (s (Loc a i j 0 v)).
Definition reflected3 (g : grid) (a : Z) (s t : store R) : Prop :=
  forall i j k v, inside3 g i j k -> 0 <= v < 5 -> t (Loc a (mir g i) j k v) = sign_mx v 2 (s (Loc a i j k v)).
Definition gravity_mx2 (g : grid) (s t : store R) : Prop :=
  forall i j d, 0 <= d < 2 -> t (Loc aG (mir g i) j 0 d) = sign_mx d 0 (s (Loc aG i j 0 d)).
Definition gravity_mx3 (g : grid) (s t : store R) : Prop :=
  forall i j k d, 0 <= d < 3 -> t (Loc aG (mir g i) j k d) = sign_mx d 0 (s (Loc aG i j k d)).

(** Solvers whose flux of the mirrored problem is the mirrored flux. *)
Definition symmetric_solver2 {T} (p : hparams T) : Prop :=
  riemann_type p = RIEMANN_HLL \/ riemann_type p = RIEMANN_HLLC \/ riemann_type p = RIEMANN_LLF.
Definition symmetric_solver3 {T} (p : hparams T) : Prop :=
  riemann_type p = RIEMANN_HLLC \/ riemann_type p = RIEMANN_LLF.

(** A direction is periodic, or closed by two reflecting walls. *)
Definition periodic_dir (lo hi : bckind) : Prop := lo = Periodic /\ hi = Periodic.
Definition closed_dir (lo hi : bckind) : Prop := periodic_dir lo hi \/ (lo = Reflecting /\ hi = Reflecting).

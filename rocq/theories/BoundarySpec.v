(** What the boundary fill should do, independently of the code.

    Positions are counted from the first interior cell: along a direction with
    [n] interior cells and ghost width [w] the array holds positions
    [-w .. n+w-1], the interior is [0 .. n-1]. *)
From Coq Require Import ZArith Bool.
From Verif Require Import Arith Par GridModel.
Open Scope Z_scope.

Inductive bckind := Reflecting | Outflow | Periodic.

(** Meaning of the boundary codes of the parameter file: 1 reflecting,
    2 outflow, 3 periodic.  (The single-process code treats every other code
    as periodic.) *)
Definition kind_of_code (c : Z) : bckind :=
  if c =? 1 then Reflecting else if c =? 2 then Outflow else Periodic.

(** Interior position that position [p] is an image of. *)
Definition image (lo hi : bckind) (n p : Z) : Z :=
  if p <? 0 then
    match lo with Reflecting => - 1 - p | Outflow => 0 | Periodic => p + n end
  else if n <=? p then
    match hi with Reflecting => 2 * n - 1 - p | Outflow => n - 1 | Periodic => p - n end
  else p.

(** Is the image obtained by reflection? *)
Definition reflected (lo hi : bckind) (n p : Z) : bool :=
  match (if p <? 0 then Some lo else if n <=? p then Some hi else None) with
  | Some Reflecting => true
  | _ => false
  end.

Definition is_ghost (n p : Z) : bool := (p <? 0) || (n <=? p).

(** Components that change sign under reflection along x, y, z: the normal
    momentum (variables 2, 3, 4) and, in MHD, the normal field (5, 6, 7). *)
Definition flips (mhd : bool) (dir : Z) (v : Z) : bool :=
  (v =? 2 + dir) || (mhd && (v =? 5 + dir)).

Section Spec.
Context {T : Type} {A : Arith T}.

(** Effect of one direction on a value: a ghost value is the image value times
    +1 or -1; an interior value is unchanged.  (Multiplying by 1.0 is kept
    visible because the statement holds for any arithmetic.) *)
Definition along (mhd : bool) (dir : Z) (lo hi : bckind) (n p v : Z) (x : T) : T :=
  if is_ghost n p
  then mul x (if reflected lo hi n p && flips mhd dir v then opp one else one)
  else x.

Definition kx0 g := kind_of_code (bc g FACE_XMIN).
Definition kx1 g := kind_of_code (bc g FACE_XMAX).
Definition ky0 g := kind_of_code (bc g FACE_YMIN).
Definition ky1 g := kind_of_code (bc g FACE_YMAX).
Definition kz0 g := kind_of_code (bc g FACE_ZMIN).
Definition kz1 g := kind_of_code (bc g FACE_ZMAX).

(** Value prescribed at array index (i, j) of a 2D array with contents [u]. *)
Definition filled2d (mhd : bool) (g : grid) (u : Z -> Z -> Z -> T) (i j v : Z) : T :=
  let p := i - gw g in let q := j - gw g in
  along mhd 1 (ky0 g) (ky1 g) (ny g) q v
    (along mhd 0 (kx0 g) (kx1 g) (nx g) p v
       (u (gw g + image (kx0 g) (kx1 g) (nx g) p)
          (gw g + image (ky0 g) (ky1 g) (ny g) q) v)).

(** Same in 3D. *)
Definition filled3d (mhd : bool) (g : grid) (u : Z -> Z -> Z -> Z -> T) (i j k v : Z) : T :=
  let p := i - gw g in let q := j - gw g in let r := k - gw g in
  along mhd 2 (kz0 g) (kz1 g) (nz g) r v
    (along mhd 1 (ky0 g) (ky1 g) (ny g) q v
      (along mhd 0 (kx0 g) (kx1 g) (nx g) p v
        (u (gw g + image (kx0 g) (kx1 g) (nx g) p)
           (gw g + image (ky0 g) (ky1 g) (ny g) q)
           (gw g + image (kz0 g) (kz1 g) (nz g) r) v))).

(** Allocated part of a 2D / 3D state array [a]. *)
Definition alloc2d (g : grid) (a : Z) (l : loc) : Prop :=
  la l = a /\ 0 <= li l < nx g + 2 * gw g /\ 0 <= lj l < ny g + 2 * gw g /\ lk l = 0
  /\ 0 <= lv l < nbvar g.
Definition alloc3d (g : grid) (a : Z) (l : loc) : Prop :=
  la l = a /\ 0 <= li l < nx g + 2 * gw g /\ 0 <= lj l < ny g + 2 * gw g
  /\ 0 <= lk l < nz g + 2 * gw g /\ 0 <= lv l < nbvar g.

(** The grid sizes for which the fill is meaningful. *)
Definition grid_ok2d (g : grid) : Prop := 0 < gw g /\ gw g <= nx g /\ gw g <= ny g /\ 0 <= nbvar g.
Definition grid_ok3d (g : grid) : Prop := grid_ok2d g /\ gw g <= nz g.

(** Condition under which the loop over one face has no race: at least ghost
    width cells in that direction, or a non-periodic code. *)
Definition no_race_dir (bt n w : Z) : Prop := w <= n \/ bt = BC_DIRICHLET \/ bt = BC_NEUMANN.

Definition no_race_f (g : grid) (f : face) : Prop :=
  match f with
  | FACE_XMIN | FACE_XMAX => no_race_dir (bc g f) (nx g) (gw g)
  | FACE_YMIN | FACE_YMAX => no_race_dir (bc g f) (ny g) (gw g)
  | FACE_ZMIN | FACE_ZMAX => no_race_dir (bc g f) (nz g) (gw g)
  end.

End Spec.

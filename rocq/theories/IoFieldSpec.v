(** Vocabulary for the statements about a field read at twice the resolution. *)
From Coq Require Import ZArith Reals.
From Verif Require Import Par GridModel HydroSpec.
Open Scope R_scope.

(** Divergence in cell (i,j,k) of a field stored on the low faces of the cells. *)
Definition face_div (b3 : bool) (hx hy hz : R) (F : Z -> Z -> Z -> Z -> R) (i j k : Z) : R :=
  (F (i + 1)%Z j k IA - F i j k IA) / hx + (F i (j + 1)%Z k IB - F i j k IB) / hy
  + (if b3 then (F i j (k + 1)%Z IC - F i j k IC) / hz else 0).

(** Sum over the interior cells. *)
Definition total (b3 : bool) (g : grid) (F : Z -> Z -> Z -> R) : R :=
  sumZ (gw g) (gw g + nx g) (fun i => sumZ (gw g) (gw g + ny g) (fun j =>
    if b3 then sumZ (gw g) (gw g + nz g) (fun k => F i j k) else F i j 0%Z)).


(** Vocabulary for the statements about the borders of the problems "wedge" and "jet". *)
From Coq Require Import ZArith List Bool Reals.
From Verif Require Import Arith Par GridModel HydroState HydroKernels CellKernels HydroSpec Physics MhdState MhdInit MhdInitSpec HydroInit HydroInitSpec
  MoodKernels TaskModel SdmGeom SdmKernels SdmInit SdmInitSpec.
Import ListNotations.
Local Open Scope R_scope.

(** Cell c lies before, behind or inside the domain along direction a. *)
Definition low (g : grid) (a : Z) (c : cell) : Prop := (coord c a < gw g)%Z.
Definition high (g : grid) (a : Z) (c : cell) : Prop := (sizeN g a + gw g <= coord c a)%Z.
Definition within (g : grid) (a : Z) (c : cell) : Prop := (gw g <= coord c a < gw g + sizeN g a)%Z.

(** State that array [arr] holds at point q of cell c. *)
Definition held_at (b3 : bool) (P : points R) (arr : Z) (s : store R) (c q : cell) : hs R :=
  HS (s (sloc b3 P arr c q ID)) (s (sloc b3 P arr c q IP)) (s (sloc b3 P arr c q IU)) (s (sloc b3 P arr c q IV))
     (if b3 then s (sloc b3 P arr c q IW) else 0).
(** The first and the last cell of the domain on the line of c along a; the point opposite to q along a. *)
Definition first_cell (g : grid) (a : Z) (c : cell) : cell := setc a (gw g) c.
Definition last_cell (g : grid) (a : Z) (c : cell) : cell := setc a (gw g + sizeN g a - 1)%Z c.
Definition opposite (P : points R) (a : Z) (q : cell) : cell := setc a (npts P - 1 - coord q a)%Z q.
(** Image of the ghost cell c behind the wall before the domain along a. *)
Definition wall_image (g : grid) (a : Z) (c : cell) : cell := setc a (2 * gw g - 1 - coord c a)%Z c.
Definition bounced_y (u : hs R) : hs R := HS (hD u) (hP u) (hU u) (- hV u) (hW u).

(** The front: a line that moves with the given speed along its normal (sin angle, - cos angle). *)
Definition shocked (w : wedge R) (t : R) (X : point) : Prop :=
  (px X - wd_x w) * sin (wd_angle w) - py X * cos (wd_angle w) < wd_speed w * t.

(** Borders of the wedge problem at time t. *)
Definition wedge_borders (P : points R) (g : grid) (h : hparams R) (bx : MhdInit.box R) (w : wedge R) (t : R) (U U' : cell -> cell -> hs R) : Prop :=
  forall c q, In c (cells false g) -> In q (dofs false P) ->
  let X := dof_position P g h bx c q in
  let post := conservative (gamma0 h) (wd_post w) in
  let pre := conservative (gamma0 h) (wd_pre w) in
  (within g IX c -> within g IY c -> U' c q = U c q) /\
  (** left: gas behind the shock flows in; right: the gas flows out *)
  (low g IX c -> within g IY c -> U' c q = post) /\
  (high g IX c -> within g IY c -> U' c q = U' (last_cell g IX c) (opposite P IX q)) /\
  (** below: inflow before the wedge, then a wall *)
  (low g IY c -> px X < wd_x w -> U' c q = post) /\
  (low g IY c -> wd_x w <= px X -> U' c q = bounced_y (U' (wall_image g IY c) (opposite P IY q))) /\
  (** above: the moving front *)
  (high g IY c -> shocked w t X -> U' c q = post) /\
  (high g IY c -> ~ shocked w t X -> U' c q = pre).

(** The nozzle of the jet, an interval or a disk. *)
Definition nozzle (b3 : bool) (w : jet R) (X : point) : Prop :=
  if b3 then (py X - jt_pos w) * (py X - jt_pos w) + (pz X - jt_pos w) * (pz X - jt_pos w) < (jt_width w / 2) * (jt_width w / 2)
  else Rabs (py X - jt_pos w) < jt_width w / 2.
Definition jet_borders (b3 : bool) (P : points R) (g : grid) (h : hparams R) (bx : MhdInit.box R) (w : jet R) (U U' : cell -> cell -> hs R) : Prop :=
  forall c q, In c (cells b3 g) -> In q (dofs b3 P) ->
  let X := dof_position P g h bx c q in
  let y_inside := within g IY c in
  let z_inside := b3 = true -> within g IZ c in
  (within g IX c -> y_inside -> z_inside -> U' c q = U c q) /\
  (** left: the jet enters through the nozzle *)
  (low g IX c -> y_inside -> z_inside -> nozzle b3 w X -> U' c q = conservative (gamma0 h) (jt_jet w)) /\
  (low g IX c -> y_inside -> z_inside -> ~ nozzle b3 w X -> U' c q = conservative (gamma0 h) (jt_bulk w)) /\
  (** elsewhere the gas flows out *)
  (high g IX c -> y_inside -> z_inside -> U' c q = U' (last_cell g IX c) (if b3 then q else opposite P IX q)) /\
  (low g IY c -> z_inside -> U' c q = U' (first_cell g IY c) q) /\
  (high g IY c -> z_inside -> U' c q = U' (last_cell g IY c) q) /\
  (b3 = true -> low g IZ c -> U' c q = U' (first_cell g IZ c) q) /\
  (b3 = true -> high g IZ c -> U' c q = U' (last_cell g IZ c) q).

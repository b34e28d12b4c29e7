(** The positivity preserving correction of the spectral difference solver:
    Apply_positivity_Functor_v2, src/sdm/SDM_Positivity_preserving.h:929-1790
    (2D: 973-1295, 3D: 1304-1783), called by apply_positivity_preserving,
    src/sdm/SolverHydroSDM.h:1014-1022. *)
From Coq Require Import ZArith List Bool.
From Verif Require Import Arith Par GridModel HydroState HydroKernels MoodKernels TaskModel SdmGeom SdmKernels.
Import ListNotations.
Open Scope Z_scope.

(** Array Uaverage (SolverHydroSDM.h:95-140). *)
Definition aAve := 50.

Section Pos.
Context {T : Type} {A : Arith T}.
Variable b3 : bool.
Variable P : points T.
Variable p : hparams T.
(** std::numeric_limits<real_t>::max() (992-996, 1330-1334). *)
Variable big : T.
Notation N := (npts P).
Open Scope A.

(** Values of the variables at the solution points of one cell. *)
Definition local := cell -> Z -> T.

(** The flux points in the order of the loops: direction, line, number on the line
    (998-1043, 1337-1414).  Simplification: inside one direction the code runs
    through the lines with the last coordinate outermost, the model with the first. *)
Definition fpoints : list (Z * cell * Z) :=
  flat_map (fun dir => map (fun k => (dir, fst k, snd k)) (list_prod (lines b3 P dir) (zrange 0 (N + 1)))) (dirs b3).
(** sol2flux_vector on the values of variable [v] on the line of a flux point. *)
Definition at_fpoint (V : local) (k : Z * cell * Z) (v : Z) : T :=
  let '(dir, q, n) := k in sol2flux P (fun i => V (setc dir i q) v) n.

(** 988-1043, 1326-1414 *)
Definition rho_min (V : local) : T :=
  fold_left (fun m k => let r := at_fpoint V k ID in if ltb m r then m else r) fpoints big.
(** 1045-1048, 1416-1419 *)
Definition theta1 (V : local) (ave : Z -> T) : T :=
  let eps1 := smallr p in
  let ratio := (ave ID - eps1) / (ave ID - rho_min V) + lit 1 10000000000000 in
  if ltb ratio one then ratio else one.
(** [theta * (val - ave) + ave], 1063, 1437, 1267-1282, 1755-1774 *)
Definition squeeze (theta val ave : T) : T := theta * (val - ave) + ave.
(** 1050-1073, 1421-1446 *)
Definition density_stage (V : local) (ave : Z -> T) : local :=
  let th := theta1 V ave in
  if ltb th one then fun q v => if (v =? ID)%Z then squeeze th (V q v) (ave v) else V q v else V.

(** Product of two momentum vectors. *)
Definition mdot (x y : Z -> T) : T :=
  if b3 then x IU * y IU + x IV * y IV + x IW * y IW else x IU * y IU + x IV * y IV.
(** 1117, 1504-1505 *)
Definition fpressure (x : Z -> T) : T :=
  (gamma0 p - one) * (x IE - half * mdot x x / x ID).
(** 1121-1165, 1509-1555; [x] is the state at the flux point. *)
Definition solve_t (x ave : Z -> T) : T :=
  let eps2 := lit 1 10000000000000 in
  let d := fun v => x v - ave v in
  let a1 := two * d ID * d IE - mdot d d in
  let b1 := two * d ID * (ave IE - eps2 / (gamma0 p - one)) + two * ave ID * d IE - two * mdot ave d in
  let c1 := two * ave ID * ave IE - mdot ave ave - two * eps2 * ave ID / (gamma0 p - one) in
  let b1 := b1 / a1 in
  let c1 := c1 / a1 in
  let D := sqr (absv (b1 * b1 - lit 4 1 * c1)) in
  let t1 := half * (opp b1 - D) in
  let t2 := half * (opp b1 + D) in
  let tol := lit 1 1000000000000 in
  let near := fun t => ltb (opp tol) t && ltb t (one + tol) in
  let t := if near t1 then t1 else if near t2 then t2 else zero in
  let t := if ltb t one then t else one in
  let t := if ltb zero t then t else zero in
  if ltb (absv (one - t)) (lit 1 100000000000000) then zero else t.
(** 1083-1250, 1456-1735 *)
Definition theta2 (V : local) (ave : Z -> T) : T :=
  fold_left (fun th k =>
    let x := at_fpoint V k in
    if ltb (fpressure x) (lit 1 1000000000000)
    then let t := solve_t x ave in if ltb th t then th else t
    else th) fpoints one.
(** 1252-1290, 1737-1781 *)
Definition pressure_stage (V : local) (ave : Z -> T) : local :=
  let th := theta2 V ave in
  if ltb th one then fun q v => squeeze th (V q v) (ave v) else V.
Definition positivity_cell (V : local) (ave : Z -> T) : local :=
  pressure_stage (density_stage V ave) ave.

(** The loop over the cells, ghost cells included (954-962).  Simplification: a
    cell reads its values and averages once, computes, and writes all its values;
    the code reads them again from the array when needed and writes only in the
    two stages. *)
Variable g : grid.
Definition local_keys : list (cell * Z) := list_prod (dofs b3 P) (vars b3).
Definition eq_key (k k' : cell * Z) : bool :=
  let '(x, y, z, v) := k in let '(x', y', z', v') := k' in
  ((x =? x') && (y =? y') && (z =? z') && (v =? v'))%Z.
Definition local_of (vs : list T) : local := fun q v =>
  match find (fun e => eq_key (q, v) (fst e)) (combine local_keys vs) with Some e => snd e | None => zero end.
Definition positivity_task (a : Z) (c : cell) (_ : unit) : task T :=
  let l := map (fun k => sloc b3 P a c (fst k) (snd k)) local_keys in
  Task (map (fun v => at_cell aAve c v) (vars b3) ++ l) l
       (fun vs =>
          let ave := getl (firstn (Z.to_nat (nbv b3)) vs) in
          let V := local_of (skipn (Z.to_nat (nbv b3)) vs) in
          map (fun k => positivity_cell V ave (fst k) (snd k)) local_keys).
Definition apply_positivity (a : Z) : list (prog T unit) :=
  tasks_loop (cells b3 g) (fun c => map (positivity_task a c) [tt]).
End Pos.

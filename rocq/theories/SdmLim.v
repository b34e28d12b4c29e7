(** The slope limiter of the spectral difference solver: the functors of
    src/sdm/SDM_Limiter_Functors.h as called by apply_pre_step_computation and
    apply_limiting, src/sdm/SolverHydroSDM.h:993-1007 and 1026-1068.  Not modelled:
    MinMax_Conservative_Variables_Functor, whose call is commented out. *)
From Coq Require Import ZArith List Bool.
From Verif Require Import Arith Par GridModel HydroState HydroKernels MoodKernels TaskModel SdmGeom EulerModel SdmKernels SdmPos.
Import ListNotations.
Open Scope Z_scope.

(** Arrays Ugradx, Ugrady, Ugradz (SolverHydroSDM.h:95-140). *)
Definition aGrad (dir : Z) := 51 + dir.

Section Lim.
Context {T : Type} {A : Arith T}.
Variable b3 : bool.
Variable P : points T.
Variable p : hparams T.
(** M_PI, and Mdx2 (the setting M_TVB of section sdm, 1053-1057). *)
Variables mpi mdx2 : T.
Notation N := (npts P).
Open Scope A.

(** ** The quadrature of the averages *)
(** [sqrt(x - x * x)] at solution point [i] (97-103). *)
Definition wcheb (i : Z) : T := let x := solp P i in sqr (x - x * x).
(** 91-111, 151-177.  Simplification: the sum runs over the points with the first
    coordinate outermost, the code with the last (the gradients: in the order of
    the lines along their direction). *)
Definition quadrature (f : cell -> T) : T :=
  let tmp := fold_left (fun tmp q => let '(x, y, z) := q in
      tmp + (if b3 then f q * wcheb x * wcheb y * wcheb z else f q * wcheb x * wcheb y)) (dofs b3 P) zero in
  let h := mpi / lit N 1 in
  tmp * (if b3 then h * h * h else h * h).
(** Average_Conservative_Variables_Functor, 70-116 (2D), 122-178 (3D). *)
Definition cell_average (V : local) (v : Z) : T :=
  let tmp := quadrature (fun q => V q v) in
  if (v =? ID)%Z then (if ltb (smallr p) tmp then tmp else smallr p) else tmp.
(** Average_Gradient_Functor, 434-558 (2D), 564-795 (3D): derivative along [dir] of
    the polynomial of each line at its solution points. *)
Definition gradient_at (dir : Z) (V : local) (v : Z) (q : cell) : T :=
  dot N (fun i => V (setc dir i q) v) (m_sol2sol_derivative P) (coord q dir).
Definition cell_gradient (dir : Z) (V : local) (v : Z) : T := quadrature (gradient_at dir V v).

(** ** Apply_limiter_Functor *)
(** 870-886 *)
Definition minmod (a b c : T) : T :=
  let aa := absv a in
  if ltb aa mdx2 then a
  else if ltb zero (a * b) && ltb zero (b * c) then
    (if ltb zero a then one else opp one) * minv aa (minv (absv b) (absv c))
  else zero.
(** HydroState as a function of the index of the variable, and back. *)
Definition hs_of (f : Z -> T) : hs T := HS (f ID) (f IP) (f IU) (f IV) (if b3 then f IW else zero).
Definition hget (q : hs T) (v : Z) : T :=
  if (v =? ID)%Z then hD q else if (v =? IP)%Z then hP q else if (v =? IU)%Z then hU q else if (v =? IV)%Z then hV q else hW q.
(** What the limiter reads: the averages of the cell and of its neighbours before
    and after it along each direction, and the average gradients (919-944, 1050-1077). *)
Record inputs := Inputs { i_ave : hs T; i_lo : Z -> hs T; i_hi : Z -> hs T; i_grad : Z -> hs T }.
(** 926, 1057: the conservative state is passed where the function expects
    primitive variables. *)
Definition lim_speed (I : inputs) : T := compute_speed_of_sound (gamma0 p) (i_ave I).
Definition to_charac (dir : Z) (I : inputs) (d : hs T) : hs T :=
  cons_to_charac b3 (gamma0 p) dir d (i_ave I) (lim_speed I).
(** 929-957, 1060-1095; [dx] is 1.0 (914, 1045). *)
Definition du (dir : Z) (I : inputs) : hs T :=
  to_charac dir I (hs_of (fun v => hget (i_grad I dir) v * one)).
Definition du_lo (dir : Z) (I : inputs) : hs T :=
  to_charac dir I (hs_of (fun v => hget (i_ave I) v - hget (i_lo I dir) v)).
Definition du_hi (dir : Z) (I : inputs) : hs T :=
  to_charac dir I (hs_of (fun v => hget (i_hi I dir) v - hget (i_ave I) v)).
(** 964-972, 1103-1114; [beta] is 1.0. *)
Definition du_new (dir : Z) (I : inputs) : hs T :=
  hs_of (fun v => minmod (hget (du dir I) v) (one * hget (du_lo dir I) v) (one * hget (du_hi dir I) v)).
(** [change_x] and its companions (959-974, 1097-1117). *)
Definition change (dir : Z) (I : inputs) : T :=
  fold_left (fun acc v => acc + absv (hget (du_new dir I) v - hget (du dir I) v)) (vars b3) zero / lit (nbv b3) 1.
(** 979, 1121 *)
Definition active (I : inputs) : bool :=
  ltb (lit 1 10000000000)
    (if b3 then change IX I + change IY I + change IZ I else change IX I + change IY I).
(** 982-989, 1124-1133 *)
Definition slope (dir : Z) (I : inputs) : hs T :=
  charac_to_cons b3 (gamma0 p) dir (hs_of (fun v => hget (du_new dir I) v / one)) (i_ave I) (lim_speed I).
(** 992-1014, 1136-1166 *)
Definition linear_value (I : inputs) (q : cell) (v : Z) : T :=
  let '(x, y, z) := q in
  let r := fun i => solp P i - half in
  if b3 then hget (i_ave I) v + r x * hget (slope IX I) v + r y * hget (slope IY I) v + r z * hget (slope IZ I) v
  else hget (i_ave I) v + r x * hget (slope IX I) v + r y * hget (slope IY I) v.
Definition limiter_cell (V : local) (I : inputs) : local :=
  fun q v => if active I then linear_value I q v else V q v.

(** ** The loops *)
Variable g : grid.
(** Average_Conservative_Variables_Functor over all cells (47-56). *)
Definition average_task (a : Z) (c : cell) (_ : unit) : task T :=
  Task (map (fun k => sloc b3 P a c (fst k) (snd k)) (local_keys b3 P)) (map (fun v => at_cell aAve c v) (vars b3))
       (fun vs => map (cell_average (local_of b3 P vs)) (vars b3)).
Definition compute_averages (a : Z) : list (prog T unit) :=
  tasks_loop (cells b3 g) (fun c => map (average_task a c) [tt]).
(** Average_Gradient_Functor over all cells (420-429). *)
Definition gradient_task (dir a : Z) (c : cell) (_ : unit) : task T :=
  Task (map (fun k => sloc b3 P a c (fst k) (snd k)) (local_keys b3 P)) (map (fun v => at_cell (aGrad dir) c v) (vars b3))
       (fun vs => map (cell_gradient dir (local_of b3 P vs)) (vars b3)).
Definition compute_gradients (dir a : Z) : list (prog T unit) :=
  tasks_loop (cells b3 g) (fun c => map (gradient_task dir a c) [tt]).

(** The locations a cell of Apply_limiter_Functor reads, named by a tag, a point and
    a variable: 0 value at a point, 1 average, 2 + dir and 5 + dir averages of the
    neighbours, 8 + dir gradient. *)
Definition lkey : Type := Z * cell * Z.
Definition no_point : cell := (0, 0, 0)%Z.
Definition lkeys : list lkey :=
  map (fun k => (0%Z, fst k, snd k)) (local_keys b3 P) ++
  map (fun k => (fst k, no_point, snd k))
    (list_prod (1%Z :: flat_map (fun d => [2 + d; 5 + d; 8 + d]%Z) (dirs b3)) (vars b3)).
Definition lloc (a : Z) (c : cell) (k : lkey) : loc :=
  let '(t, q, v) := k in
  if (t =? 0)%Z then sloc b3 P a c q v
  else if (t =? 1)%Z then at_cell aAve c v
  else if (t <? 5)%Z then at_cell aAve (along_dir (t - 2) (-1) c) v
  else if (t <? 8)%Z then at_cell aAve (along_dir (t - 5) 1 c) v
  else at_cell (aGrad (t - 8)) c v.
Definition eq_lkey (k k' : lkey) : bool :=
  let '(t, q, v) := k in let '(t', q', v') := k' in (t =? t')%Z && eq_key (q, v) (q', v').
Definition lval (vs : list T) (k : lkey) : T :=
  match find (fun e => eq_lkey k (fst e)) (combine lkeys vs) with Some e => snd e | None => zero end.
Definition inputs_of (val : lkey -> T) : inputs :=
  Inputs (hs_of (fun v => val (1%Z, no_point, v))) (fun d => hs_of (fun v => val (2 + d, no_point, v)%Z))
    (fun d => hs_of (fun v => val (5 + d, no_point, v)%Z)) (fun d => hs_of (fun v => val (8 + d, no_point, v)%Z)).
(** Simplification: a cell reads everything first and writes all its values, the
    code writes only if the limiter is active. *)
Definition limiter_task (a : Z) (c : cell) (_ : unit) : task T :=
  Task (map (lloc a c) lkeys) (map (fun k => sloc b3 P a c (fst k) (snd k)) (local_keys b3 P))
       (fun vs => map (fun k => limiter_cell (fun q v => lval vs (0%Z, q, v)) (inputs_of (lval vs)) (fst k) (snd k)) (local_keys b3 P)).
(** Cells on the rim of the array are left out (916-917, 1047-1048). *)
Definition off_rim (c : cell) : bool :=
  forallb (fun a => (0 <? coord c a)%Z && (coord c a <? sizeN g a + 2 * gw g - 1)%Z) (dirs b3).
Definition apply_limiter (a : Z) : list (prog T unit) :=
  tasks_loop (cells b3 g) (fun c => map (limiter_task a c) (if off_rim c then [tt] else [])).

(** apply_pre_step_computation followed by apply_limiting, both enabled by the
    setting limiter_enabled. *)
Definition limiting (a : Z) : list (list (prog T unit)) :=
  [compute_averages a] ++ map (fun dir => compute_gradients dir a) (dirs b3) ++ [apply_limiter a].
End Lim.
Arguments inputs T : clear implicits.

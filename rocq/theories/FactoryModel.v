(** The choice of the solver: HydroParams::setup (HydroParams.cpp:28-129, the part
    that depends on the solver's name), SolverFactory (SolverFactory.cpp:19-55,
    SolverFactory.h:72-115), the table of MOOD names (StencilUtils.h:31-51, 82-102)
    and the beginning of main (main.cpp:132-143).

    The two build options are booleans.  (Simplification: [#if USE_SDM] and
    [#ifdef USE_SDM] are the same test, the option is either absent or 1.)  The
    callbacks of the factory are kept as the template they instantiate. *)
From Coq Require Import ZArith Bool String List.
From Verif Require Import MoodPoly.
Import ListNotations.
Open Scope Z_scope.

(** The classes instantiated by the factory, with their template arguments. *)
Inductive solver :=
| SolverHydroMuscl (dim : Z) | SolverMHDMuscl (dim : Z)
| SolverHydroSDM (dim N : Z) | SolverHydroMood (dim degree : Z).

(** The fields of HydroParams that the name decides (HydroParams.h:82-91). *)
Record nparams := NP { dimType : Z; nbvar : Z; ghostWidth : Z; mhdEnabled : bool }.
(** The constructor's values, HydroParams.h:174-181. *)
Definition np0 : nparams := NP 2 4 2 false.

(** [s.find(pat) != std::string::npos]. *)
Definition found (pat s : string) : bool :=
  match String.index 0 pat s with Some _ => true | None => false end.

(** make_valid_solver_names, StencilUtils.h:82-102, in the order of the enum. *)
Definition valid_solver_names : list (string * stencil_id) :=
  [("Hydro_Mood_2D_degree1", S2_1); ("Hydro_Mood_2D_degree2", S2_2); ("Hydro_Mood_2D_degree3", S2_3);
   ("Hydro_Mood_2D_degree3_V2", S2_3v2); ("Hydro_Mood_2D_degree4", S2_4); ("Hydro_Mood_2D_degree5", S2_5);
   ("Hydro_Mood_3D_degree1", S3_1); ("Hydro_Mood_3D_degree2", S3_2); ("Hydro_Mood_3D_degree3", S3_3);
   ("Hydro_Mood_3D_degree4", S3_4); ("Hydro_Mood_3D_degree5", S3_5); ("Hydro_Mood_3D_degree5_V2", S3_5v2)]%string.
(** The first entry with exactly this key. *)
Fixpoint assoc {B : Type} (name : string) (l : list (string * B)) : option B :=
  match l with [] => None | (k, b) :: r => if String.eqb name k then Some b else assoc name r end.
(** get_stencilId_from_solver_name, StencilUtils.h:31-51: None is STENCIL_TOTAL_NUMBER. *)
Definition get_stencilId_from_solver_name (name : string) : option stencil_id := assoc name valid_solver_names.
(** get_stencil_ghostwidth with its last [return 0], Stencil.h:250-288. *)
Definition get_stencil_ghostwidth (s : option stencil_id) : Z :=
  match s with Some i => stencil_ghostwidth i | None => 0 end.

(** HydroParams.cpp:42-129. *)
Definition setup (sdm mood : bool) (solver_name : string) (q : nparams) : nparams :=
  if String.eqb solver_name "Hydro_Muscl_2D" then NP 2 4 2 (mhdEnabled q)
  else if String.eqb solver_name "Hydro_Muscl_3D" then NP 3 5 2 (mhdEnabled q)
  else if String.eqb solver_name "MHD_Muscl_2D" then NP 2 8 3 true
  else if String.eqb solver_name "MHD_Muscl_3D" then NP 3 8 3 true
  else if found "Hydro_Sdm_2D" solver_name || found "Hydro_SDM_2D" solver_name then
    if sdm then NP 2 4 1 (mhdEnabled q) else q
  else if found "Hydro_Sdm_3D" solver_name || found "Hydro_SDM_3D" solver_name then
    if sdm then NP 3 5 1 (mhdEnabled q) else q
  else if found "Hydro_Mood_2D" solver_name then
    if mood then NP 2 4 (get_stencil_ghostwidth (get_stencilId_from_solver_name solver_name)) (mhdEnabled q) else q
  else if found "Hydro_Mood_3D" solver_name then
    if mood then NP 3 5 (get_stencil_ghostwidth (get_stencilId_from_solver_name solver_name)) (mhdEnabled q) else q
  else q.

(** registerSolver, SolverFactory.h:72-76: [m_solverCreateMap[key] = cfn].  The map
    is a list in which the newest entry of a key comes first. *)
Definition registerSolver (key : string) (cfn : solver) (m : list (string * solver)) := (key, cfn) :: m.
Definition registerAll (l : list (string * solver)) (m : list (string * solver)) : list (string * solver) :=
  fold_left (fun m kc => registerSolver (fst kc) (snd kc) m) l m.
(** SolverFactory::SolverFactory, SolverFactory.cpp:19-55. *)
Definition SolverFactory (sdm mood : bool) : list (string * solver) :=
  let m := registerAll
    [("Hydro_Muscl_2D", SolverHydroMuscl 2); ("Hydro_Muscl_3D", SolverHydroMuscl 3);
     ("MHD_Muscl_2D", SolverMHDMuscl 2); ("MHD_Muscl_3D", SolverMHDMuscl 3)]%string [] in
  let m := if sdm then registerAll
    [("Hydro_SDM_2D_degree1", SolverHydroSDM 2 1); ("Hydro_SDM_2D_degree2", SolverHydroSDM 2 2);
     ("Hydro_SDM_2D_degree3", SolverHydroSDM 2 3); ("Hydro_SDM_2D_degree4", SolverHydroSDM 2 4);
     ("Hydro_SDM_2D_degree5", SolverHydroSDM 2 5); ("Hydro_SDM_2D_degree6", SolverHydroSDM 2 6);
     ("Hydro_SDM_3D_degree2", SolverHydroSDM 3 2); ("Hydro_SDM_3D_degree3", SolverHydroSDM 3 3);
     ("Hydro_SDM_3D_degree4", SolverHydroSDM 3 4)]%string m else m in
  if mood then registerAll
    [("Hydro_Mood_2D_degree1", SolverHydroMood 2 1); ("Hydro_Mood_2D_degree2", SolverHydroMood 2 2);
     ("Hydro_Mood_2D_degree3", SolverHydroMood 2 3); ("Hydro_Mood_2D_degree4", SolverHydroMood 2 4);
     ("Hydro_Mood_3D_degree1", SolverHydroMood 3 1)]%string m else m.
(** SolverFactory::create, SolverFactory.h:82-115: None is std::abort(). *)
Definition create (sdm mood : bool) (solver_name : string) : option solver :=
  assoc solver_name (SolverFactory sdm mood).

(** configMap.getString("run", "solver_name", default): [entry] is the value in the
    parameter file, if there is one. *)
Definition getString (entry : option string) (default : string) : string :=
  match entry with Some s => s | None => default end.
(** main.cpp:136-143 up to the creation of the solver; None when the program aborts. *)
Definition start (sdm mood : bool) (entry : option string) : option (solver * nparams) :=
  let params := setup sdm mood (getString entry "unknown") np0 in
  match create sdm mood (getString entry "Unknown") with Some s => Some (s, params) | None => None end.

(** The difference of two solutions of the spectral difference solver: Compute_Error_Functor_2d
    and _3d, src/sdm/SDM_Compute_error.h.  The overloads for the other dimension (75-83, 216-224),
    which return -1, are not modelled. *)
From Coq Require Import ZArith List Bool.
From Verif Require Import Arith Par GridModel HydroState HydroKernels MoodKernels ReduceModel SdmGeom SdmKernels SdmVtk.
Import ListNotations.
Open Scope Z_scope.

(** norm_type, 23-27. *)
Inductive norm_type := NORM_L1 | NORM_L2.

Section Error.
Context {T : Type} {A : Arith T}.
Variable b3 : bool.
Variable P : points T.
Variable g : grid.
Variable norm : norm_type.
Variable s : store T.
(** Udata1, Udata2 and varId. *)
Variable a1 a2 varId : Z.

(** 122-137, 276-291. *)
Definition err_term (c q : cell) : T :=
  let tmp1 := s (sloc b3 P a1 c q varId) in
  let tmp2 := s (sloc b3 P a2 c q varId) in
  match norm with
  | NORM_L1 => absv (tmp1 - tmp2)%A
  | NORM_L2 => ((tmp1 - tmp2) * (tmp1 - tmp2))%A
  end.
(** operator(), 102-145, 244-300: the points of an interior cell, x fastest. *)
Definition err_body (c : cell) (sum : T) : T :=
  if inside b3 g c then fold_left (fun sum q => (sum + err_term c q)%A) (vsub b3 (npts P)) sum else sum.
(** apply, 62-73, 203-214: init is 0, join is a sum; [error] is what it returns. *)
Definition compute_error (error : T) : Prop := reduces zero err_body add (cellsD b3 g) error.
End Error.

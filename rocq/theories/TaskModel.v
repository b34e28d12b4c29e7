(** Loops whose body is a sequence of small tasks: each task reads a list of
    locations into local variables, computes, and writes a list of locations.
    The kernels of the spectral difference solver have this shape. *)
From Coq Require Import ZArith List Bool.
From Verif Require Import Arith Par MoodKernels.
Import ListNotations.
Open Scope Z_scope.
Open Scope prog_scope.

Section Tasks.
Context {T : Type}.

Record task := Task { tr : list loc; tw : list loc; tv : list T -> list T }.
Fixpoint put_all (ls : list loc) (vs : list T) : prog T unit :=
  match ls, vs with
  | l :: ls', v :: vs' => wr l v ;;; put_all ls' vs'
  | _, _ => skip
  end.
Definition task_prog (t : task) : prog T unit :=
  vs <- load_all rd (tr t) ;; put_all (tw t) (tv t vs).
(** One thread per cell; the thread performs its tasks in order. *)
Definition tasks_loop {C} (cells : list C) (ts : C -> list task) : list (prog T unit) :=
  map (fun c => for_each (ts c) task_prog) cells.

End Tasks.
Arguments task T : clear implicits.

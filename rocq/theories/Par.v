(** Memory, kernel programs and the semantics of [Kokkos::parallel_for].

    A kernel body is a program over a shared memory whose cells are
    addressed by (array, i, j, k, variable), the way the Kokkos views
    [DataArray2d]/[DataArray3d] are indexed (src/shared/kokkos_shared.h:20-75).
    [Kokkos::parallel_for(n, functor)] starts one thread per index; threads
    interleave at the granularity of single memory accesses in any order.
    The memory is sequentially consistent (simplification: C++ weak memory is
    not modelled; for race-free loops the two coincide). *)
From Coq Require Import ZArith List Bool Lia.
Import ListNotations.
Open Scope Z_scope.

Record loc := Loc { la : Z; li : Z; lj : Z; lk : Z; lv : Z }.

Definition loc_eqb (x y : loc) : bool :=
  (la x =? la y) && (li x =? li y) && (lj x =? lj y) && (lk x =? lk y) && (lv x =? lv y).

Section Par.
Context {T : Type}.

Definition store := loc -> T.
Definition upd (s : store) (l : loc) (v : T) : store :=
  fun l' => if loc_eqb l l' then v else s l'.

(** Programs.  [Rmw l f] is an atomic read-modify-write
    ([Kokkos::atomic_add]/[atomic_sub]). *)
Inductive prog (A : Type) : Type :=
| Ret (a : A)
| Rd (l : loc) (k : T -> prog A)
| Wr (l : loc) (v : T) (k : prog A)
| Rmw (l : loc) (f : T -> T) (k : prog A).

Fixpoint bind {A B} (p : prog A) (f : A -> prog B) : prog B :=
  match p with
  | Ret _ a => f a
  | Rd _ l k => Rd B l (fun v => bind (k v) f)
  | Wr _ l v k => Wr B l v (bind k f)
  | Rmw _ l g k => Rmw B l g (bind k f)
  end.

Definition rd (l : loc) : prog T := Rd T l (fun v => Ret T v).
Definition wr (l : loc) (v : T) : prog unit := Wr unit l v (Ret unit tt).
Definition rmw (l : loc) (f : T -> T) : prog unit := Rmw unit l f (Ret unit tt).
Definition skip : prog unit := Ret unit tt.

(** Execution of one program alone. *)
Fixpoint run {A} (p : prog A) (s : store) : A * store :=
  match p with
  | Ret _ a => (a, s)
  | Rd _ l k => run (k (s l)) s
  | Wr _ l v k => run k (upd s l v)
  | Rmw _ l f k => run k (upd s l (f (s l)))
  end.

Definition exec {A} (p : prog A) (s : store) : store := snd (run p s).

(** One memory access of one thread. *)
Inductive tstep : store -> prog unit -> store -> prog unit -> Prop :=
| ts_rd s l k : tstep s (Rd unit l k) s (k (s l))
| ts_wr s l v k : tstep s (Wr unit l v k) (upd s l v) k
| ts_rmw s l f k : tstep s (Rmw unit l f k) (upd s l (f (s l))) k.

(** One step of the pool: some thread performs one access. *)
Inductive pstep : store * list (prog unit) -> store * list (prog unit) -> Prop :=
| ps_intro s s' pre p p' post :
    tstep s p s' p' -> pstep (s, pre ++ p :: post) (s', pre ++ p' :: post).

Inductive pstar : store * list (prog unit) -> store * list (prog unit) -> Prop :=
| pstar_refl c : pstar c c
| pstar_step c1 c2 c3 : pstep c1 c2 -> pstar c2 c3 -> pstar c1 c3.

Definition all_done (ps : list (prog unit)) : Prop := forall p, In p ps -> p = Ret unit tt.

(** [par_exec s ps s']: some complete interleaving of [ps] started in [s] ends
    in [s']. *)
Definition par_exec (s : store) (ps : list (prog unit)) (s' : store) : Prop :=
  exists ps', pstar (s, ps) (s', ps') /\ all_done ps'.

(** A sequence of parallel loops, each completed before the next one starts
    (kernels of one execution space run in order; [Kokkos::fence]). *)
Inductive run_kernels : list (list (prog unit)) -> store -> store -> Prop :=
| rk_nil s : run_kernels [] s s
| rk_cons ps kers s s1 s2 :
    par_exec s ps s1 -> run_kernels kers s1 s2 -> run_kernels (ps :: kers) s s2.

(** Sequential [for] loop inside a kernel body. *)
Fixpoint for_each {I} (xs : list I) (f : I -> prog unit) : prog unit :=
  match xs with
  | [] => Ret unit tt
  | x :: xs => bind (f x) (fun _ => for_each xs f)
  end.

(** Footprints: which locations a program may read or modify, whatever values
    it reads. *)
Fixpoint reads_in {A} (P : loc -> Prop) (p : prog A) : Prop :=
  match p with
  | Ret _ _ => True
  | Rd _ l k => P l /\ forall v, reads_in P (k v)
  | Wr _ _ _ k => reads_in P k
  | Rmw _ _ _ k => reads_in P k
  end.

Fixpoint writes_in {A} (P : loc -> Prop) (p : prog A) : Prop :=
  match p with
  | Ret _ _ => True
  | Rd _ _ k => forall v, writes_in P (k v)
  | Wr _ l _ k => P l /\ writes_in P k
  | Rmw _ _ _ k => writes_in P k
  end.

Fixpoint rmws_in {A} (P : loc -> Prop) (p : prog A) : Prop :=
  match p with
  | Ret _ _ => True
  | Rd _ _ k => forall v, rmws_in P (k v)
  | Wr _ _ _ k => rmws_in P k
  | Rmw _ l _ k => P l /\ rmws_in P k
  end.

(** All accesses of a program stay within [P]: memory safety. *)
Definition accesses_in {A} (P : loc -> Prop) (p : prog A) : Prop :=
  reads_in P p /\ writes_in P p /\ rmws_in P p.

Definition no_rmw {A} (p : prog A) : Prop := rmws_in (fun _ => False) p.

(** Pointwise equality of memories. *)
Definition seq (s s' : store) : Prop := forall l, s l = s' l.

End Par.

Arguments prog T A : clear implicits.
Arguments Ret {T A} a.
Arguments Rd {T A} l k.
Arguments Wr {T A} l v k.
Arguments Rmw {T A} l f k.
Arguments store T : clear implicits.

Declare Scope prog_scope.
Delimit Scope prog_scope with P.
Notation "x <- p ;; q" := (bind p (fun x => q))
  (at level 61, p at next level, right associativity) : prog_scope.
Notation "p ;;; q" := (bind p (fun _ => q))
  (at level 61, right associativity) : prog_scope.

(** Integer ranges [a, a+1, ..., b-1]. *)
Definition zrange (a b : Z) : list Z :=
  map (fun n => a + Z.of_nat n) (List.seq 0 (Z.to_nat (b - a))).

(** [Kokkos::parallel_for(RangePolicy<>(0, n), functor)]: one thread per index. *)
Definition parallel_for {T} (n : Z) (body : Z -> prog T unit) : list (prog T unit) :=
  map body (zrange 0 n).

(** The time step reduction of a single-precision build, at the level of the
    bytes in memory. *)
From Coq Require Import ZArith List Bool Reals Lia Lra.
From Flocq Require Import Core IEEE754.Binary IEEE754.Bits.
Import ListNotations.
Open Scope Z_scope.

(** A double in memory, as two 32-bit words (little-endian: the low word comes
    first); value of such a double. *)
Record dbl := Dbl { lo : Z; hi : Z }.
Definition value (d : dbl) : R := B2R 53 1024 (b64_of_bits (hi d * 2 ^ 32 + lo d)).

(** SolverBase::compute_dt, src/shared/SolverBase.cpp:154-165, when real_t is
    float: dt_local and dt_global are doubles, but params.data_type is FLOAT
    (HydroParams.cpp:227-228), which MpiComm::getDataType turns into MPI_FLOAT
    (MpiComm.cpp:522-523).  MPI_Allreduce with count 1 reads one float, the first
    four bytes of dt_local, and writes one float into dt_global.  [junk] is the
    previous contents of the uninitialised dt_global on the process. *)
Definition float_of (w : Z) : R := B2R 24 128 (b32_of_bits w).
Inductive min_word : list Z -> Z -> Prop :=
| MinWord l w : In w l -> (forall x, In x l -> (float_of w <= float_of x)%R) -> min_word l w.
Definition allreduce_float (locals : list dbl) (junk : dbl) (global : dbl) : Prop :=
  exists w, min_word (map lo locals) w /\ global = Dbl w (hi junk).

Definition one_d : dbl := Dbl 0 1072693248.
Lemma value_one : value one_d = 1%R.
Proof.
  unfold value. rewrite <- FF2R_B2FF.
  replace (B2FF _ _ _) with (F754_finite false 4503599627370496 (-52)) by (vm_compute; reflexivity).
  unfold FF2R, F2R. cbn [Fnum Fexp cond_Zopp].
  change (bpow radix2 (-52)) with (/ IZR (2 ^ 52))%R. replace (2 ^ 52)%Z with 4503599627370496%Z by reflexivity. field.
Qed.

(** Two processes, both with the local time step 1: the global time step can be
    0, depending on the contents of the uninitialised variable. *)
Lemma float_build : exists junk global,
  allreduce_float [one_d; one_d] junk global /\ value one_d = 1%R /\ value global = 0%R.
Proof.
  exists (Dbl 0 0), (Dbl 0 0). split; [|split; [apply value_one|]].
  - exists 0. split; [|reflexivity]. constructor; [left; reflexivity|]. intros x [<-|[<-|[]]]; apply Rle_refl.
  - unfold value. assert (E : b64_of_bits (hi (Dbl 0 0) * 2 ^ 32 + lo (Dbl 0 0)) = B754_zero 53 1024 false) by reflexivity.
    rewrite E. reflexivity.
Qed.

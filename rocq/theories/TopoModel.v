(** The start of a distributed run: the process grid of HydroParams::setup_mpi
    (src/shared/HydroParams.cpp:218-280) and the constructors of MpiCommCart
    (src/utils/mpiUtils/MpiCommCart.cpp:17-66).

    MPI is modelled by its standard: MPI_Cart_create fails if a dimension is not
    positive or the grid needs more processes than there are; processes beyond the
    grid get MPI_COMM_NULL, on which MPI_Comm_rank fails (MpiComm::init,
    MpiComm.cpp:552-564).  Ranks are those of the new communicator, numbered in
    row-major order; [reorder] is a permutation of the world's and does not matter. *)
From Coq Require Import ZArith List Bool.
From Verif Require Import MpiModel.
Import ListNotations.
Open Scope Z_scope.

(** The dimensions handed to MPI_Cart_create, HydroParams.cpp:250-260. *)
Definition cart_dims (three_d : bool) (tp : topo) : list Z :=
  if three_d then [mx tp; my tp; mz tp] else [mx tp; my tp].
Definition product (l : list Z) : Z := fold_right Z.mul 1 l.
(** [nProcs != mx * my * mz]: the message "Inconsistent MPI cartesian virtual
    topology geometry", HydroParams.cpp:241-247.  The run goes on. *)
Definition message (tp : topo) (nProcs : Z) : bool := negb (nProcs =? mx tp * my tp * mz tp).
(** MPI_Cart_create succeeds. *)
Definition cart_create (dims : list Z) (nProcs : Z) : bool :=
  forallb (fun d => 1 <=? d) dims && (product dims <=? nProcs).
(** MPI_Cart_coords, row-major: last dimension fastest. *)
Fixpoint cart_coords (dims : list Z) (r : Z) : list Z :=
  match dims with [] => [] | d :: ds => (r / product ds) mod d :: cart_coords ds r end.
(** myMpiPos of process [r] (HydroParams.cpp:266-277: the array starts at zero);
    None if a call of the constructor fails. *)
Definition place (three_d : bool) (tp : topo) (nProcs r : Z) : option (Z * Z * Z) :=
  let dims := cart_dims three_d tp in
  if cart_create dims nProcs then
    if r <? product dims then
      match cart_coords dims r with
      | [x; y; z] => Some (x, y, z)
      | [x; y] => Some (x, y, 0)
      | _ => None
      end
    else None
  else None.

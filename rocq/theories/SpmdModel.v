(** Several processes running the same program and communicating through MPI.

    A program is a list of operations executed by every process ("rank"): local
    work, MPI_Sendrecv with one destination and one source, and collectives
    (MPI_Barrier, MPI_Allreduce).  These are the only MPI calls of the time loop
    (src/shared/SolverBase.cpp:149-179 compute_dt, 543-693 make_boundaries_mpi,
    773-925 transfert_boundaries_2d/3d), wrapped by
    src/utils/mpiUtils/MpiComm.cpp (sendrecv, synchronize, allReduce).

    Processes run asynchronously.  MPI is modelled by what the standard promises:
    - messages with the same source, destination and tag are received in the
      order in which they were sent; nothing is promised across channels;
    - the send half and the receive half of MPI_Sendrecv proceed independently;
    - a send may finish as soon as the message has left ([rendezvous = false])
      or only after the matching receive took the message ([rendezvous = true]);
      a correct program must not rely on the former;
    - a collective returns on no process before every process has entered it,
      and delivers the same result to all of them.
    Failures of processes or of the network are not modelled.  One communicator
    is used for all communications (params.communicator), so messages are
    identified by source, destination and tag. *)
From Coq Require Import ZArith List Bool PeanoNat.
Import ListNotations.

Section Spmd.
Context {S M : Type}.     (* memory of a process; contents of a message *)

(** Arguments are indexed by the rank of the executing process. *)
Inductive op :=
| Local (f : nat -> S -> S -> Prop)
| Sendrecv (dest source : nat -> nat) (tag : Z) (pay : nat -> S -> M) (put : nat -> M -> S -> S)
| Collective (contrib : nat -> S -> M) (red : list M -> M -> Prop) (fin : nat -> M -> S -> S).

Record rank_state := Rank { pc : nat; sent : bool; got : option M; st : S }.
Record config := Config {
  ranks : nat -> rank_state;
  net : nat -> nat -> Z -> list (nat * M);     (* channel source dest tag; messages carry the number of the operation that sent them *)
  board : nat -> nat -> option M;              (* collective, rank: contribution *)
  result : nat -> option M                     (* collective: result *)
}.

Definition set_rank (c : config) (r : nat) (x : rank_state) : nat -> rank_state :=
  fun r' => if r' =? r then x else ranks c r'.
Definition set_net (c : config) (a b : nat) (tag : Z) (q : list (nat * M)) : nat -> nat -> Z -> list (nat * M) :=
  fun a' b' t => if (a' =? a) && (b' =? b) && Z.eqb t tag then q else net c a' b' t.
Definition set_board (c : config) (k r : nat) (m : M) : nat -> nat -> option M :=
  fun k' r' => if (k' =? k) && (r' =? r) then Some m else board c k' r'.
Definition set_result (c : config) (k : nat) (m : M) : nat -> option M :=
  fun k' => if k' =? k then Some m else result c k'.

Variable P : nat.              (* number of processes *)
Variable prg : list op.
Variable rendezvous : bool.

Inductive step (c : config) : config -> Prop :=
| StepLocal r f s' :
    r < P -> nth_error prg (pc (ranks c r)) = Some (Local f) -> f r (st (ranks c r)) s' ->
    step c (Config (set_rank c r (Rank (1 + pc (ranks c r)) false None s')) (net c) (board c) (result c))
| StepSend r dest source tag pay put :
    r < P -> nth_error prg (pc (ranks c r)) = Some (Sendrecv dest source tag pay put) ->
    sent (ranks c r) = false ->
    step c (Config
      (set_rank c r (Rank (pc (ranks c r)) true (got (ranks c r)) (st (ranks c r))))
      (set_net c r (dest r) tag (net c r (dest r) tag ++ [(pc (ranks c r), pay r (st (ranks c r)))]))
      (board c) (result c))
| StepRecv r dest source tag pay put k m q :
    r < P -> nth_error prg (pc (ranks c r)) = Some (Sendrecv dest source tag pay put) ->
    got (ranks c r) = None -> net c (source r) r tag = (k, m) :: q ->
    step c (Config
      (set_rank c r (Rank (pc (ranks c r)) (sent (ranks c r)) (Some m) (st (ranks c r))))
      (set_net c (source r) r tag q) (board c) (result c))
| StepDone r dest source tag pay put m :
    r < P -> nth_error prg (pc (ranks c r)) = Some (Sendrecv dest source tag pay put) ->
    sent (ranks c r) = true -> got (ranks c r) = Some m ->
    (rendezvous = true -> ~ In (pc (ranks c r)) (map fst (net c r (dest r) tag))) ->
    step c (Config
      (set_rank c r (Rank (1 + pc (ranks c r)) false None (put r m (st (ranks c r)))))
      (net c) (board c) (result c))
| StepEnter r contrib red fin :
    r < P -> nth_error prg (pc (ranks c r)) = Some (Collective contrib red fin) ->
    board c (pc (ranks c r)) r = None ->
    step c (Config (ranks c) (net c) (set_board c (pc (ranks c r)) r (contrib r (st (ranks c r)))) (result c))
| StepReduce k contrib red fin ms x :
    nth_error prg k = Some (Collective contrib red fin) -> result c k = None ->
    map (board c k) (seq 0 P) = map Some ms -> red ms x ->
    step c (Config (ranks c) (net c) (board c) (set_result c k x))
| StepLeave r contrib red fin x :
    r < P -> nth_error prg (pc (ranks c r)) = Some (Collective contrib red fin) ->
    result c (pc (ranks c r)) = Some x ->
    step c (Config
      (set_rank c r (Rank (1 + pc (ranks c r)) false None (fin r x (st (ranks c r)))))
      (net c) (board c) (result c)).

Inductive steps : nat -> config -> config -> Prop :=
| steps_0 c : steps 0 c c
| steps_S n c c1 c2 : steps n c c1 -> step c1 c2 -> steps (1 + n) c c2.

(** All processes start the program with the given memories; no message is in
    flight. *)
Definition start (s : nat -> S) : config :=
  Config (fun r => Rank 0 false None (s r)) (fun _ _ _ => []) (fun _ _ => None) (fun _ => None).
Definition completed (c : config) : Prop := forall r, r < P -> pc (ranks c r) = length prg.
End Spmd.
Arguments op S M : clear implicits.
Arguments config S M : clear implicits.

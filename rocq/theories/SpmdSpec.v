(** The meaning of an SPMD program when all processes advance together. *)
From Coq Require Import ZArith List.
From Verif Require Import SpmdModel.
Import ListNotations.

Section Spec.
Context {S M : Type}.
Variable P : nat.

(** One operation executed by all processes at once. *)
Definition together (o : op S M) (s s' : nat -> S) : Prop :=
  match o with
  | Local f => forall r, r < P -> f r (s r) (s' r)
  | Sendrecv dest source tag pay put =>
      forall r, r < P -> s' r = put r (pay (source r) (s (source r))) (s r)
  | Collective contrib red fin =>
      exists x, red (map (fun r => contrib r (s r)) (seq 0 P)) x /\
                forall r, r < P -> s' r = fin r x (s r)
  end.
Inductive lockstep : list (op S M) -> (nat -> S) -> (nat -> S) -> Prop :=
| lockstep_nil s : lockstep [] s s
| lockstep_cons o os s s1 s2 : together o s s1 -> lockstep os s1 s2 -> lockstep (o :: os) s s2.

(** Every send has its receive: within each Sendrecv, the destination of a
    process expects to receive from it, and vice versa. *)
Definition matched (o : op S M) : Prop :=
  match o with
  | Sendrecv dest source _ _ _ =>
      forall r, r < P -> dest r < P /\ source (dest r) = r /\ source r < P /\ dest (source r) = r
  | _ => True
  end.
(** Local work and reductions always have an outcome. *)
Definition productive (o : op S M) : Prop :=
  match o with
  | Local f => forall r s, r < P -> exists s', f r s s'
  | Collective _ red _ => forall ms, length ms = P -> exists x, red ms x
  | _ => True
  end.
End Spec.

(** Arithmetic interface.

    The C++ code computes with [real_t] (src/shared/real_type.h:10-40), which is
    [float] or [double] depending on the build.  The model is written once,
    against the record of operations below, and is then used

    - for an arbitrary instance: such theorems hold for IEEE single and double
      precision too, since nothing is assumed about the operations;
    - for the instance over the real numbers: algebraic laws.

    No law is part of the record. *)
From Coq Require Import ZArith Reals QArith.

Class Arith (T : Type) := {
  zero : T;  one : T;  two : T;  half : T;
  (** the literal [n/d] of the source code, e.g. [lit 1 4] for 0.25 *)
  lit : Z -> positive -> T;
  add : T -> T -> T;
  sub : T -> T -> T;
  mul : T -> T -> T;
  div : T -> T -> T;
  opp : T -> T;
  sqr : T -> T;          (* sqrt  *)
  copysign1 : T -> T;    (* COPYSIGN(ONE_F, x), src/shared/real_type.h *)
  absv : T -> T;         (* fabs  *)
  minv : T -> T -> T;    (* fmin  *)
  maxv : T -> T -> T;    (* fmax  *)
  ltb : T -> T -> bool;  (* <  ; [a > b]  is modelled as [ltb b a] *)
  leb : T -> T -> bool;  (* <= ; [a >= b] is modelled as [leb b a] *)
  eqb : T -> T -> bool   (* == *)
}.

Declare Scope arith_scope.
Delimit Scope arith_scope with A.
Infix "+" := add : arith_scope.
Infix "-" := sub : arith_scope.
Infix "*" := mul : arith_scope.
Infix "/" := div : arith_scope.
Notation "- x" := (opp x) : arith_scope.
Infix "<?" := ltb : arith_scope.
Infix "<=?" := leb : arith_scope.
Infix "=?" := eqb : arith_scope.

(** Exact real arithmetic. *)
Global Instance RArith : Arith R := {
  zero := 0%R; one := 1%R; two := 2%R; half := (/ 2)%R;
  lit n d := (IZR n / IZR (Zpos d))%R;
  add := Rplus; sub := Rminus; mul := Rmult; div := Rdiv; opp := Ropp;
  sqr := R_sqrt.sqrt;
  copysign1 x := if Rlt_dec x 0 then (-1)%R else 1%R;
  absv := Rabs; minv := Rmin; maxv := Rmax;
  ltb x y := if Rlt_dec x y then true else false;
  leb x y := if Rle_dec x y then true else false;
  eqb x y := if Req_EM_T x y then true else false
}.

(** Exact rational arithmetic, for computed examples only.  The square root is
    the exact one on squares of rationals (the examples use only such
    arguments) and truncated otherwise. *)
Definition qred2 (f : Q -> Q -> Q) (x y : Q) : Q := Qred (f x y).
Definition qsqrt (x : Q) : Q :=
  let r := Qred x in
  Qred (Z.sqrt (Qnum r) # Pos.sqrt (Qden r)).
Definition qltb (x y : Q) : bool := (Qnum x * QDen y <? Qnum y * QDen x)%Z.
Definition qabs (x : Q) : Q := (Z.abs (Qnum x)) # (Qden x).

Global Instance QArith_inst : Arith Q := {
  zero := 0%Q; one := 1%Q; two := 2%Q; half := (1 # 2)%Q;
  lit n d := Qred (n # d);
  add := qred2 Qplus; sub := qred2 Qminus; mul := qred2 Qmult; div := qred2 Qdiv;
  opp x := Qred (Qopp x);
  sqr := qsqrt;
  copysign1 x := if qltb x 0 then (-1)%Q else 1%Q;
  absv := qabs;
  minv x y := if qltb y x then y else x;
  maxv x y := if qltb x y then y else x;
  ltb := qltb;
  leb x y := negb (qltb y x);
  eqb x y := Qeq_bool x y
}.

(** Polynomials, for the specification of the interpolation operators of the
    Spectral Difference solver. *)
From Coq Require Import ZArith List Reals.
From Coquelicot Require Import Coquelicot.
Import ListNotations.
Open Scope R_scope.

(** Value at [x] of the polynomial with coefficients [l], lowest degree first.
    A list of length at most n is a polynomial of degree less than n. *)
Fixpoint peval (l : list R) (x : R) : R :=
  match l with
  | [] => 0
  | a :: l' => a + x * peval l' x
  end.

(** The nodes [y 0 .. y (n-1)] are pairwise different. *)
Definition distinct (n : Z) (y : Z -> R) : Prop :=
  forall i j, (0 <= i < n)%Z -> (0 <= j < n)%Z -> y i = y j -> i = j.

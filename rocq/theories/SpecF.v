(** IEEE-754 binary64 arithmetic as an instance of the arithmetic interface: the
    standard library's executable specification Coq.Floats.SpecFloat (round to
    nearest, ties to even, with infinities, signed zeros and NaN).  fmin and fmax
    ignore a NaN argument, comparisons with NaN are false; the sign of a NaN is
    taken as positive.  Used to exhibit what the code computes in double precision. *)
From Coq Require Import ZArith Floats.SpecFloat.
From Verif Require Import Arith.

Local Notation prec := 53%Z.
Local Notation emax := 1024%Z.
Definition f64_of_Z (n : Z) : spec_float := binary_normalize prec emax n 0 false.
Definition is_nan_sf (x : spec_float) : bool := match x with S754_nan => true | _ => false end.
Definition f64_min (x y : spec_float) : spec_float :=
  if is_nan_sf x then y else if is_nan_sf y then x else if SFltb y x then y else x.
Definition f64_max (x y : spec_float) : spec_float :=
  if is_nan_sf x then y else if is_nan_sf y then x else if SFltb x y then y else x.
Definition f64_copysign1 (x : spec_float) : spec_float :=
  match x with
  | S754_zero true | S754_infinity true | S754_finite true _ _ => f64_of_Z (-1)
  | _ => f64_of_Z 1
  end.
Definition F64 : Arith spec_float := {|
  zero := S754_zero false; one := f64_of_Z 1; two := f64_of_Z 2; half := SFdiv prec emax (f64_of_Z 1) (f64_of_Z 2);
  lit := fun n d => SFdiv prec emax (f64_of_Z n) (f64_of_Z (Zpos d));
  add := SFadd prec emax; sub := SFsub prec emax; mul := SFmul prec emax; div := SFdiv prec emax; opp := SFopp;
  sqr := SFsqrt prec emax;
  copysign1 := f64_copysign1; absv := SFabs; minv := f64_min; maxv := f64_max;
  ltb := SFltb; leb := SFleb; eqb := SFeqb |}.

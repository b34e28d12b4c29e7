(** Polynomial machinery of the MOOD solver: src/mood/Binomial.h,
    polynomials_utils.cpp, monomials_ordering.h, MonomialMap.h, Polynomial.h,
    Stencil.h, Stencil.cpp, GeometricTerms.cpp, mood_utils.h, Matrix.h,
    Matrix.cpp, QuadratureRules.h and the quadrature tables of
    SolverHydroMood.h.  Integers are unbounded except in [binom]. *)
From Coq Require Import ZArith List Bool Reals.
From Verif Require Import Arith.
Import ListNotations.
Open Scope Z_scope.

(** ** Binomial coefficients *)

(** [Binomial<n,k>::value], Binomial.h:13-42.  [None]: the template recursion
    reaches a negative [n] and never ends (a compile-time error). *)
Fixpoint Binomial (n k : nat) : option Z :=
  match n with
  | O => match k with O => Some 1 | S _ => None end
  | S n' =>
      match k with
      | O => Some 1
      | S k' =>
          if Nat.eqb (S n') (S k') then Some 1
          else match Binomial n' k', Binomial n' k with
               | Some a, Some b => Some (a + b)
               | _, _ => None
               end
      end
  end.

(** 32-bit [int]; [None] is overflow, which is undefined behaviour in C++. *)
Definition int32 (z : Z) : option Z :=
  if (-2147483648 <=? z) && (z <=? 2147483647) then Some z else None.

(** The loop of [binom], Binomial.h:66-70; [c] iterations remain. *)
Fixpoint binom_loop (n : Z) (c : nat) (i res : Z) : option Z :=
  match c with
  | O => Some res
  | S c' =>
      match int32 (res * (n - i)) with
      | None => None
      | Some r => binom_loop n c' (i + 1) (Z.quot r (i + 1))
      end
  end.

(** [binom(int n, int k)], Binomial.h:47-73. *)
Definition binom (n k : Z) : option Z :=
  if n <? k then Some 0
  else if (k =? 0) || (n =? 1) then Some 1
  else if (n =? 2) && (k =? 1) then Some 2
  else if (n =? 2) && (k =? 2) then Some 1
  else if n =? k then Some 1
  else
    let k := if n - k <? k then n - k else k in
    binom_loop n (Z.to_nat k) 0 1.

(** [get_number_of_coefficients<2>] and [<3>], polynomials_utils.cpp:11-26. *)
Definition get_number_of_coefficients (dim : nat) (order : Z) : Z :=
  match dim with
  | 2%nat => (order + 1) * (order + 2) / 2
  | 3%nat => (order + 1) * (order + 2) * (order + 3) / 6
  | _ => order + 1
  end.

(** ** Monomials *)

(** An exponent vector [std::array<int,dim>] is the list of its entries. *)
Definition entry (e : list Z) (i : nat) : Z := nth i e 0.
Fixpoint set_entry (e : list Z) (i : nat) (x : Z) : list Z :=
  match e, i with
  | [], _ => []
  | _ :: e', O => x :: e'
  | y :: e', S i' => y :: set_entry e' i' x
  end.
Definition sum_e (e : list Z) : Z := fold_left Z.add e 0.

(** The search loop of [mono_next_grlex], monomials_ordering.h:67-75: [j] runs
    from [dim] down to 1. *)
Fixpoint scan (dim : nat) (e : list Z) (j : nat) : nat :=
  match j with
  | O => O
  | S j' => if 0 <? entry e (dim - j) then j else scan dim e j'
  end.

(** [mono_next_grlex], monomials_ordering.h:55-108. *)
Definition mono_next_grlex (dim : nat) (e : list Z) : list Z :=
  match scan dim e dim with
  | O => set_entry e 0 1
  | 1%nat =>
      let e := set_entry e 0 (entry e 0 + entry e (dim - 1) + 1) in
      set_entry e (dim - 1) 0
  | i =>
      let t := entry e (dim - i) in
      let e := set_entry e (dim - i) 0 in
      let e := set_entry e (dim - i + 1) (entry e (dim - i + 1) + 1) in
      set_entry e 0 (entry e 0 + t - 1)
  end.

(** The while loop of [MonomialMap::init_map], MonomialMap.h:81-107, as a
    big-step relation: [init_loop dim degree e rows] when the loop started at
    exponent vector [e] ends after storing [rows]. *)
Inductive init_loop (dim : nat) (degree : Z) : list Z -> list (list Z) -> Prop :=
| il_stop e : degree < sum_e e -> init_loop dim degree e []
| il_more e rows : sum_e e <= degree ->
    init_loop dim degree (mono_next_grlex dim e) rows -> init_loop dim degree e (e :: rows).

(** [MonomialMap::init_map], MonomialMap.h:65-109: [e] starts at zero (70-72);
    row number [index] of [data_h] receives the exponents. *)
Definition init_map (dim : nat) (degree : Z) (rows : list (list Z)) : Prop :=
  init_loop dim degree (repeat 0 dim) rows.

(** ** Stencils: Stencil.h:78-92 (names), 126-139 (sizes), 154-181 (degrees),
    STENCIL_MAPP (Stencil.h:111-115), QuadratureRules.h:36-49. *)
Inductive stencil_id :=
| S2_1 | S2_2 | S2_3 | S2_3v2 | S2_4 | S2_5 | S3_1 | S3_2 | S3_3 | S3_4 | S3_5 | S3_5v2.

Definition STENCIL_SIZE (s : stencil_id) : Z :=
  match s with
  | S2_1 => 5 | S2_2 => 9 | S2_3 => 13 | S2_3v2 => 16 | S2_4 => 25 | S2_5 => 36
  | S3_1 => 7 | S3_2 => 27 | S3_3 => 33 | S3_4 => 63 | S3_5 => 88 | S3_5v2 => 131
  end.
Definition STENCIL_DEGREE (s : stencil_id) : Z :=
  match s with
  | S2_1 => 1 | S2_2 => 2 | S2_3 => 3 | S2_3v2 => 3 | S2_4 => 4 | S2_5 => 5
  | S3_1 => 1 | S3_2 => 2 | S3_3 => 3 | S3_4 => 4 | S3_5 => 5 | S3_5v2 => 5
  end.
(** [get_stencil_ghostwidth], Stencil.h:231-265. *)
Definition stencil_ghostwidth (s : stencil_id) : Z :=
  match s with
  | S2_1 => 2 | S2_2 => 2 | S2_3 => 3 | S2_3v2 => 3 | S2_4 => 3 | S2_5 => 4
  | S3_1 => 2 | S3_2 => 2 | S3_3 => 3 | S3_4 => 3 | S3_5 => 4 | S3_5v2 => 4
  end.
Definition stencil_dim (s : stencil_id) : nat :=
  match s with S2_1 | S2_2 | S2_3 | S2_3v2 | S2_4 | S2_5 => 2%nat | _ => 3%nat end.
(** STENCIL_MAPP[(dim-2)*5+degree-1], Stencil.h:111-115, SolverHydroMood.h:80. *)
Definition select_stencil (dim : nat) (degree : Z) : stencil_id :=
  match dim, degree with
  | 2%nat, 1 => S2_1 | 2%nat, 2 => S2_2 | 2%nat, 3 => S2_3 | 2%nat, 4 => S2_4 | 2%nat, _ => S2_5
  | _, 1 => S3_1 | _, 2 => S3_2 | _, 3 => S3_3 | _, 4 => S3_4 | _, _ => S3_5
  end.
Definition QUADRATURE_NUM_POINTS (s : stencil_id) : nat :=
  match s with
  | S2_1 => 1 | S2_2 => 2 | S2_3 => 2 | S2_3v2 => 2 | S2_4 => 3 | S2_5 => 3
  | S3_1 => 1 | S3_2 => 2 | S3_3 => 2 | S3_4 => 3 | S3_5 => 3 | S3_5v2 => 3
  end%nat.

(** The nested offset loops of [Stencil::init_stencil]: x is the fastest index. *)
Definition ints (lo hi : Z) : list Z :=
  map (fun n => lo + Z.of_nat n) (seq 0 (Z.to_nat (hi - lo + 1))).
Definition box2 (lo hi : Z) : list (Z * Z * Z) :=
  flat_map (fun j => map (fun i => (i, j, 0)) (ints lo hi)) (ints lo hi).
Definition box3 (lo hi : Z) : list (Z * Z * Z) :=
  flat_map (fun k => flat_map (fun j => map (fun i => (i, j, k)) (ints lo hi)) (ints lo hi)) (ints lo hi).

(** The assignments of [Stencil::init_stencil], Stencil.cpp:11-877: entries
    0, 1, 2, ... of [offsets_h], in order. *)
Definition assigned (s : stencil_id) : list (Z * Z * Z) :=
  match s with
  | S2_1 => [(0,0,0); (1,0,0); (0,1,0); (-1,0,0); (0,-1,0)]
  | S2_2 => box2 (-1) 1
  | S2_3 => box2 (-1) 1 ++ [(2,0,0); (0,2,0); (-2,0,0); (0,-2,0)]
  | S2_3v2 => box2 (-2) 1
  | S2_4 => box2 (-2) 2
  | S2_5 => box2 (-3) 2
  | S3_1 => [(0,0,0); (1,0,0); (0,1,0); (-1,0,0); (0,-1,0); (0,0,1); (0,0,-1)]
  | S3_2 => box3 (-1) 1
  | S3_3 => box3 (-1) 1 ++ [(2,0,0); (-2,0,0); (0,2,0); (0,-2,0); (0,0,2); (0,0,-2)]
  | S3_4 => box3 (-1) 1 ++
      [(2,0,0); (2,-1,0); (2,1,0); (2,0,-1); (2,0,1);
       (-2,0,0); (-2,-1,0); (-2,1,0); (-2,0,-1); (-2,0,1);
       (0,2,0); (-1,2,0); (1,2,0); (0,2,-1); (0,2,1);
       (0,-2,0); (-1,-2,0); (1,-2,0); (0,-2,-1); (0,-2,1);
       (0,0,2); (-1,0,2); (1,0,2); (0,-1,2); (0,1,2);
       (0,0,-2); (-1,0,-2); (1,0,-2); (0,-1,-2); (0,1,-2)]
  | S3_5 => box3 (-2) 1 ++
      [(2,-1,-1); (2,-1,0); (2,0,-1); (2,0,0); (-3,-1,-1); (-3,-1,0); (-3,0,-1); (-3,0,0);
       (-1,2,-1); (-1,2,0); (0,2,-1); (0,2,0); (-1,-3,-1); (-1,-3,0); (0,-3,-1); (0,-3,0);
       (-1,-1,2); (-1,0,2); (0,-1,2); (0,0,2); (-1,-1,-3); (-1,0,-3); (0,-1,-3); (0,0,-3)]
  | S3_5v2 => box3 (-2) 2 ++ [(3,0,0); (-3,0,0); (0,3,0); (0,-3,0); (0,0,3); (0,0,-3)]
  end.

(** The array [offsets]: Kokkos views start zero-initialised, so entries that
    [init_stencil] does not assign are (0,0,0). *)
Definition offsets (s : stencil_id) : list (Z * Z * Z) :=
  assigned s ++ repeat (0, 0, 0) (Z.to_nat (STENCIL_SIZE s) - length (assigned s)).

(** [if (x != 0 or y != 0)] / [(x != 0 or y != 0 or z != 0)], mood_utils.h:52,83
    and MoodPolynomialReconstructionFunctors.h (2D and 3D functors). *)
Definition non_central (o : Z * Z * Z) : bool :=
  let '(x, y, z) := o in negb (x =? 0) || negb (y =? 0) || negb (z =? 0).
Definition neighbours (os : list (Z * Z * Z)) : list (Z * Z * Z) := filter non_central os.

Section Poly.
Context {T : Type} {A : Arith T}.
Open Scope A.

(** [pow(x, n)] for a non-negative integer [n] (simplification: libm's [pow] is
    repeated multiplication). *)
Fixpoint powi (x : T) (n : nat) : T :=
  match n with O => one | S n' => x * powi x n' end.
Definition int (z : Z) : T := lit z 1.

(** ** Geometric terms *)
(** [pow(i + 0.5, n + 1) - pow(i - 0.5, n + 1)], GeometricTerms.cpp:39. *)
Definition pow_diff (i : Z) (n : nat) : T :=
  powi (int i + half) (S n) - powi (int i - half) (S n).
(** [eval_moment] 2D, GeometricTerms.cpp:35-42. *)
Definition eval_moment2 (dx dy : T) (i j : Z) (n m : nat) : T :=
  one / dx / dy * powi dx (S n) / int (Z.of_nat (S n)) * pow_diff i n *
  powi dy (S m) / int (Z.of_nat (S m)) * pow_diff j m.
(** [eval_moment] 3D, GeometricTerms.cpp:46-55. *)
Definition eval_moment3 (dx dy dz : T) (i j k : Z) (n m l : nat) : T :=
  one / dx / dy / dz * powi dx (S n) / int (Z.of_nat (S n)) * pow_diff i n *
  powi dy (S m) / int (Z.of_nat (S m)) * pow_diff j m *
  powi dz (S l) / int (Z.of_nat (S l)) * pow_diff k l.

Definition expo (e : list Z) (i : nat) : nat := Z.to_nat (entry e i).
(** The overload chosen by the dimension (mood_utils.h:41,70). *)
Definition eval_moment (dim : nat) (d : T * T * T) (o : Z * Z * Z) (e : list Z) : T :=
  let '(dx, dy, dz) := d in
  let '(x, y, z) := o in
  match dim with
  | 2%nat => eval_moment2 dx dy x y (expo e 0) (expo e 1)
  | _ => eval_moment3 dx dy dz x y z (expo e 0) (expo e 1) (expo e 2)
  end.
(** [eval_hat], GeometricTerms.cpp:59-75. *)
Definition eval_hat (dim : nat) (d : T * T * T) (o : Z * Z * Z) (e : list Z) : T :=
  eval_moment dim d o e - eval_moment dim d (0%Z, 0%Z, 0%Z) e.

(** [fill_geometry_matrix], mood_utils.h:26-101: one row per neighbour, one
    column per non-constant monomial.  The matrix has STENCIL_SIZE-1 rows and
    ncoefs-1 columns and starts as zero (Matrix.h:33-39, SolverHydroMood.h:246),
    so rows that are not filled stay zero. *)
Definition geom_rows (dim : nat) (d : T * T * T) (os : list (Z * Z * Z)) (mm : list (list Z))
  : list (list T) :=
  map (fun o => map (eval_hat dim d o) (tl mm)) (neighbours os).
Definition geom_matrix (dim : nat) (d : T * T * T) (os : list (Z * Z * Z)) (mm : list (list Z))
  (i j : nat) : T := nth j (nth i (geom_rows dim d os mm) []) zero.

(** ** Reconstruction in one cell (MoodPolynomialReconstructionFunctors.h, 2D and
    3D functors): [u o] is the value of one variable in the cell at offset [o];
    [mat_pi] has [nc] rows and [ns] columns; [junk] is what the entries of the
    local array [rhs] contain that are not assigned. *)
Definition rhs (os : list (Z * Z * Z)) (u : Z * Z * Z -> T) (junk : nat -> T) (ik : nat) : T :=
  match nth_error (map (fun o => u o - u (0%Z, 0%Z, 0%Z)) (neighbours os)) ik with
  | Some r => r
  | None => junk ik
  end.
Definition poly_coefs (mat_pi : nat -> nat -> T) (nc ns : nat) (os : list (Z * Z * Z))
  (u : Z * Z * Z -> T) (junk : nat -> T) : list T :=
  u (0%Z, 0%Z, 0%Z) ::
  map (fun icoef => fold_left (fun tmp ik => tmp + mat_pi icoef ik * rhs os u junk ik) (seq 0 ns) zero)
      (seq 0 nc).

(** ** Evaluation: PolynomialEvaluator::eval, Polynomial.h:102-149. *)
Definition monomial (dim : nat) (x y z : T) (c : T) (e : list Z) : T :=
  match dim with
  | 2%nat => c * powi x (expo e 0) * powi y (expo e 1)
  | _ => c * powi x (expo e 0) * powi y (expo e 1) * powi z (expo e 2)
  end.
Definition eval (dim : nat) (mm : list (list Z)) (x y z : T) (coefs : list T) : T :=
  fold_left (fun result ce => result + monomial dim x y z (fst ce) (snd ce)) (combine coefs mm) zero.

(** ** Quadrature *)
(** QuadratureRules.h:19-20. *)
Definition SQRT_3 : T := lit 1732050807568877293527446341505872367 1000000000000000000000000000000000000.
Definition SQRT_3_5 : T := lit 7745966692414834042779148148838430643 10000000000000000000000000000000000000.

Variables s3 s35 : T.
(** Coordinates along a face used by the tables of SolverHydroMood.h:510-751;
    [nb] points. *)
Definition abscissa2 (nb iq : nat) : T :=
  match nb, iq with
  | 2%nat, O => - half / s3
  | 2%nat, _ => half / s3
  | 3%nat, O => - half * s35
  | 3%nat, 2%nat => half * s35
  | _, _ => zero
  end.
Definition abscissa3 (nb i : nat) : T :=
  match nb with
  | 2%nat => half / s3 * int (2 * Z.of_nat i - 1)
  | 3%nat => half * s35 * int (Z.of_nat i - 1)
  | _ => zero
  end.
(** FACE_MIN: -0.5, FACE_MAX: 0.5. *)
Definition face_pos (max : bool) : T := if max then half else - half.
(** QUAD_LOC_2D(nb-1, dir, face, iq, .), SolverHydroMood.h:524-606; dir 0 is X. *)
Definition quad_loc2 (nb : nat) (dir : Z) (max : bool) (iq : nat) : T * T :=
  if (dir =? 0)%Z then (face_pos max, abscissa2 nb iq) else (abscissa2 nb iq, face_pos max).
(** QUAD_LOC_3D(nb-1, dir, face, iq, .), SolverHydroMood.h:624-747: index
    [iq = i + nb*j]. *)
Definition quad_loc3 (nb : nat) (dir : Z) (max : bool) (iq : nat) : T * T * T :=
  let i := Nat.modulo iq nb in
  let j := Nat.div iq nb in
  if (dir =? 0)%Z then (face_pos max, abscissa3 nb i, abscissa3 nb j)
  else if (dir =? 1)%Z then (abscissa3 nb i, face_pos max, abscissa3 nb j)
  else (abscissa3 nb i, abscissa3 nb j, face_pos max).
(** QUADRATURE_WEIGHTS_N1/N2/N3, MoodFluxesFunctors.h:89-96. *)
Definition weight (nb iq : nat) : T :=
  match nb, iq with
  | 1%nat, _ => one
  | 2%nat, _ => half
  | _, 1%nat => int 8 / int 18
  | _, _ => int 5 / int 18
  end.
(** Accumulation over the points of a 2D face, MoodFluxesFunctors.h:191-221. *)
Definition face_sum2 (nb : nat) (f : nat -> T) : T :=
  match nb with
  | 1%nat => f O
  | _ => fold_left (fun acc iq => acc + f iq * weight nb iq) (seq 0 nb) zero
  end.
(** 3D: iq1 = iq / nb, iq2 = iq - iq1*nb, MoodFluxesFunctors.h:470-502. *)
Definition face_sum3 (nb : nat) (f : nat -> T) : T :=
  match nb with
  | 1%nat => f O
  | _ => fold_left (fun acc iq =>
           let iq1 := Nat.div iq nb in
           let iq2 := (iq - iq1 * nb)%nat in
           acc + f iq * weight nb iq1 * weight nb iq2) (seq 0 (nb * nb)) zero
  end.
End Poly.

(** ** Pseudo-inverse, Matrix.cpp:37-94, over the reals.

    LAPACKE_dgeqrf and cblas_dtrsm are not modelled; their contract is: the upper
    triangle [R] satisfies [R^T R = A^T A] (QR factorisation with orthogonal Q),
    the first solve gives [R^T X = A^T], the second [R P = X], provided the
    diagonal of [R] has no zero. *)
Fixpoint rsum (n : nat) (f : nat -> R) : R :=
  match n with O => 0%R | S n' => (rsum n' f + f n')%R end.
Definition pseudo_inverse (m n : nat) (a p : nat -> nat -> R) : Prop :=
  exists r x : nat -> nat -> R,
    (forall i j, (i < n)%nat -> (j < i)%nat -> r i j = 0%R) /\
    (forall i, (i < n)%nat -> r i i <> 0%R) /\
    (forall i j, (i < n)%nat -> (j < n)%nat ->
       rsum n (fun k => r k i * r k j)%R = rsum m (fun k => a k i * a k j)%R) /\
    (forall i j, (i < n)%nat -> (j < m)%nat -> rsum n (fun k => r k i * x k j)%R = a j i) /\
    (forall i j, (i < n)%nat -> (j < m)%nat -> rsum n (fun k => r i k * p k j)%R = x i j).

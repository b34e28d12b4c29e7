(** Geometry of the Spectral Difference Method solver: interpolation matrices
    (src/sdm/SDM_Geometry.h), their application (src/sdm/SDMBaseFunctor.h) and the
    numbering of degrees of freedom inside a cell (src/sdm/sdm_shared.h).

    [N] is the template parameter: number of solution points per direction. *)
From Coq Require Import ZArith List Bool Reals.
From Verif Require Import Arith Par GridModel HydroKernels.
Import ListNotations.
Open Scope Z_scope.

(** Solution points (N of them) and flux points (N+1 of them) of one direction:
    [solution_pts_1d], [flux_pts_1d]. *)
Record points (T : Type) := Points { npts : Z; solp : Z -> T; flxp : Z -> T }.
Arguments Points {T}. Arguments npts {T}. Arguments solp {T}. Arguments flxp {T}.

Section Geom.
Context {T : Type} {A : Arith T}.
Open Scope A.

(** [for (k = 0; k < n; ++k) acc = f(k, acc)]. *)
Definition loopv (n : Z) (f : Z -> T -> T) (acc : T) : T :=
  fold_left (fun a k => f k a) (zrange 0 n) acc.

(** Value at [x] of the [i]-th Lagrange polynomial of the nodes [y(0..n-1)]:
    SDM_Geometry.h:529-560 (solution points), 584-615 (flux points). *)
Definition lagrange (n : Z) (y : Z -> T) (i : Z) (x : T) : T :=
  loopv n (fun k l => if (k =? i)%Z then l else l * ((x - y k) / (y i - y k))) one.

Variable P : points T.
Let N := npts P.

(** SDM_Geometry.h:520-563 *)
Definition m_sol2flux (i j : Z) : T := lagrange N (solp P) i (flxp P j).
(** SDM_Geometry.h:575-618 *)
Definition m_flux2sol (i j : Z) : T := lagrange (N + 1) (flxp P) i (solp P j).
(** SDM_Geometry.h:629-680 *)
Definition m_flux2sol_derivative (i j : Z) : T :=
  loopv (N + 1) (fun k sum => if (k =? i)%Z then sum else sum + one / (solp P j - flxp P k)) zero
  * m_flux2sol i j.
(** SDM_Geometry.h:691-750 *)
Definition m_sol2sol_derivative (i j : Z) : T :=
  loopv N (fun l acc =>
    if (l =? i)%Z then acc else
    acc + loopv N (fun k tmp =>
            if ((k =? i) || (k =? l))%Z then tmp
            else tmp * ((solp P j - solp P k) / (solp P i - solp P k)))
          (one / (solp P i - solp P l))) zero.

(** [val = 0; for k<n: val += v(k) * m(k, index)]. *)
Definition dot (n : Z) (v : Z -> T) (m : Z -> Z -> T) (index : Z) : T :=
  loopv n (fun k val => val + v k * m k index) zero.
(** SDMBaseFunctor.h, sol2flux / sol2flux_vector *)
Definition sol2flux (sol : Z -> T) (index : Z) : T := dot N sol m_sol2flux index.
(** flux2sol / flux2sol_vector *)
Definition flux2sol (flux : Z -> T) (index : Z) : T := dot (N + 1) flux m_flux2sol index.
(** flux2sol_derivative / flux2sol_derivative_vector *)
Definition flux2sol_derivative (flux : Z -> T) (index : Z) (rescale : T) : T :=
  dot (N + 1) flux m_flux2sol_derivative index * rescale.
(** sol2sol_derivative / sol2sol_derivative_vector *)
Definition sol2sol_derivative (sol : Z -> T) (index : Z) (rescale : T) : T :=
  dot N sol m_sol2sol_derivative index * rescale.

(** Flux points, SDM_Geometry.h:436-488.  For N outside 1..6 the array keeps the
    zeros it is allocated with. *)
Definition flux_pts (n j : Z) : T :=
  let tab := fun l => nth (Z.to_nat j) l zero in
  match n with
  | 1 => tab [zero; one]
  | 2 => tab [zero; half; one]
  | 3 => tab [zero; (one - one / sqr (lit 3 1)) / two; (one + one / sqr (lit 3 1)) / two; one]
  | 4 => tab [zero; half * (one - sqr (lit 3 1 / lit 5 1)); half;
              half * (one + sqr (lit 3 1 / lit 5 1)); one]
  | 5 => let a := sqr (lit 3 1 / lit 7 1 + two / lit 7 1 * sqr (lit 6 1 / lit 5 1)) in
         let b := sqr (lit 3 1 / lit 7 1 - two / lit 7 1 * sqr (lit 6 1 / lit 5 1)) in
         tab [zero; half * (one - a); half * (one - b); half * (one + b); half * (one + a); one]
  | 6 => let a := sqr (lit 5 1 + two * sqr (lit 10 1 / lit 7 1)) in
         let b := sqr (lit 5 1 - two * sqr (lit 10 1 / lit 7 1)) in
         let t := one / lit 3 1 in
         tab [zero; half * (one - t * a); half * (one - t * b); half;
              half * (one + t * b); half * (one + t * a); one]
  | _ => zero
  end.
End Geom.

(** Solution points over the reals, SDM_Geometry.h:412-419. *)
Definition sol_ptsR (n i : Z) : R := (/ 2 * (1 - cos (PI * (2 * IZR i + 1) / 2 / IZR n)))%R.
Definition sdm_points (n : Z) : points R := Points n (sol_ptsR n) (flux_pts n).

(** Numbering of degrees of freedom, sdm_shared.h:16-23 (DofMap), 33-62
    (DofMapFlux). *)
Definition DofMap (d3 : bool) (N i j k iv : Z) : Z :=
  if d3 then i + N * j + N * N * k + N * N * N * iv else i + N * j + N * N * iv.
Definition DofMapFlux (d3 : bool) (N dir i j k iv : Z) : Z :=
  if dir =? IX then
    if d3 then i + (N + 1) * j + (N + 1) * N * k + (N + 1) * N * N * iv
    else i + (N + 1) * j + (N + 1) * N * iv
  else if dir =? IY then
    if d3 then i + N * j + N * (N + 1) * k + N * (N + 1) * N * iv
    else i + N * j + N * (N + 1) * iv
  else
    if d3 then i + N * j + N * N * k + N * N * (N + 1) * iv else 0.

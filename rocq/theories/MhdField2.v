(** The 2D MHD step as a function of the cell states (ghost cells included). *)
From Coq Require Import ZArith List Bool Lia.
From Verif Require Import Arith GridModel HydroState HydroKernels MhdState MhdRiemann MhdPoint MhdKernels2.
Import ListNotations.
Open Scope Z_scope.

Section F2.
Context {T : Type} {AT : Arith T}.
Variable p : mparams T.
Variable dt : T.
Variable junk : Z * Z * Z -> Z -> ms T.
Local Notation h := (mh p).
Local Notation Dx := (dtdx h dt).
Local Notation Dy := (dtdy h dt).
Notation field := (Z -> Z -> ms T).

Definition prim2 (U : field) (i j : Z) : ms T :=
  constoprim_mhd p (U i j) (mA (U (i + 1) j)) (mB (U i (j + 1))) zero.
Definition bfs (u : ms T) : T * T * T := (mA u, mB u, mC u).
Definition trace2f (Q U : field) (i j : Z) : tr2 :=
  trace_unsplit_mhd_2d p (fun di dj => Q (i + di) (j + dj)) (fun di dj => bfs (U (i + di) (j + dj)))
    (junk (i, j, 0) 0) (junk (i, j, 0) 1) Dx Dy.
Definition fluxX2f (Q U : field) (i j : Z) : ms T :=
  riemann_mhd p (t_mx (trace2f Q U (i - 1) j)) (t_px (trace2f Q U i j)) (junk (i, j, 0) 2).
(** In the rotated frame. *)
Definition fluxY2f (Q U : field) (i j : Z) : ms T :=
  riemann_mhd p (mswapY (t_my (trace2f Q U i (j - 1)))) (mswapY (t_py (trace2f Q U i j))) (fluxX2f Q U i j).
Definition emf2f (Q U : field) (i j : Z) : T :=
  compute_emf p EMFZ (t_RT (trace2f Q U (i - 1) (j - 1))) (t_RB (trace2f Q U (i - 1) j))
    (t_LT (trace2f Q U i (j - 1))) (t_LB (trace2f Q U i j)).

Definition new2 (u fx0 fx1 fy0 fy1 : ms T) (e00 e10 e01 : T) : ms T :=
  let v := upd_flux sub (upd_flux add (upd_flux sub (upd_flux add u fx0 Dx) fx1 Dx) (mswapY fy0) Dy)
             (mswapY fy1) Dy in
  with_B (with_A v (mA v + (e01 - e00) * Dy)%A) (mB v - (e10 - e00) * Dx)%A.
Definition mstep2 (U : field) (i j : Z) : ms T :=
  let Q := prim2 U in
  new2 (U i j) (fluxX2f Q U i j) (fluxX2f Q U (i + 1) j) (fluxY2f Q U i j) (fluxY2f Q U i (j + 1))
    (emf2f Q U i j) (emf2f Q U (i + 1) j) (emf2f Q U i (j + 1)).

(** Locality. *)
Lemma trace2f_ext Q Q' U U' i j :
  (forall i' j', i - 1 <= i' <= i + 1 -> j - 1 <= j' <= j + 1 -> Q i' j' = Q' i' j') ->
  (forall i' j', i - 1 <= i' <= i + 1 -> j - 1 <= j' <= j + 1 -> U i' j' = U' i' j') ->
  trace2f Q U i j = trace2f Q' U' i j.
Proof.
  intros HQ HU. unfold trace2f, trace_unsplit_mhd_2d.
  rewrite !HQ by lia. rewrite !HU by lia. reflexivity.
Qed.
Lemma trace2_ext2 (q q' : Z -> Z -> ms T) b b' jX jY :
  (forall d e, -1 <= d <= 1 -> -1 <= e <= 1 -> q d e = q' d e) ->
  (forall d e, -1 <= d <= 1 -> -1 <= e <= 1 -> b d e = b' d e) ->
  trace_unsplit_mhd_2d p q b jX jY Dx Dy = trace_unsplit_mhd_2d p q' b' jX jY Dx Dy.
Proof.
  intros HQ HU. unfold trace_unsplit_mhd_2d.
  rewrite !HQ by lia. rewrite !HU by lia. reflexivity.
Qed.
Lemma flux2f_ext Q Q' U U' i j :
  (forall i' j', i - 2 <= i' <= i + 1 -> j - 2 <= j' <= j + 1 -> Q i' j' = Q' i' j') ->
  (forall i' j', i - 2 <= i' <= i + 1 -> j - 2 <= j' <= j + 1 -> U i' j' = U' i' j') ->
  fluxX2f Q U i j = fluxX2f Q' U' i j /\ fluxY2f Q U i j = fluxY2f Q' U' i j /\
  emf2f Q U i j = emf2f Q' U' i j.
Proof.
  intros HQ HU.
  assert (E : forall a b, i - 1 <= a <= i -> j - 1 <= b <= j -> trace2f Q U a b = trace2f Q' U' a b).
  { intros a b Ha Hb. apply trace2f_ext; intros; [apply HQ|apply HU]; lia. }
  assert (EX : fluxX2f Q U i j = fluxX2f Q' U' i j).
  { unfold fluxX2f. rewrite !E by lia. reflexivity. }
  split; [exact EX|]. unfold fluxY2f, emf2f. rewrite EX, !E by lia. auto.
Qed.
Lemma mstep2_ext U U' i j :
  (forall i' j', i - 2 <= i' <= i + 3 -> j - 2 <= j' <= j + 3 -> U i' j' = U' i' j') ->
  mstep2 U i j = mstep2 U' i j.
Proof.
  intros HU. unfold mstep2. cbv zeta.
  assert (HQ : forall i' j', i - 2 <= i' <= i + 2 -> j - 2 <= j' <= j + 2 -> prim2 U i' j' = prim2 U' i' j').
  { intros i' j' Hi Hj. unfold prim2. rewrite !HU by lia. reflexivity. }
  destruct (flux2f_ext (prim2 U) (prim2 U') U U' i j) as (-> & -> & ->);
    [intros; apply HQ; lia|intros; apply HU; lia|].
  destruct (flux2f_ext (prim2 U) (prim2 U') U U' (i + 1) j) as (-> & _ & ->);
    [intros; apply HQ; lia|intros; apply HU; lia|].
  destruct (flux2f_ext (prim2 U) (prim2 U') U U' i (j + 1)) as (_ & -> & ->);
    [intros; apply HQ; lia|intros; apply HU; lia|].
  rewrite HU by lia. reflexivity.
Qed.
End F2.

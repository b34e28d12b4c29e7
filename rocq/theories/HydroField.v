(** Pure description of one MUSCL-Hancock step on whole fields (functions of
    the cell indices), used in the proofs about the loops of HydroKernels.v. *)
From Coq Require Import ZArith Bool.
From Verif Require Import Arith Par GridModel HydroState RiemannModel HydroPoint HydroKernels.
Open Scope Z_scope.

Section Field.
Context {T : Type} {A : Arith T}.
Variable p : hparams T.
Variable dt : T.
Variable ge : bool.

(** State vector stored at a cell. *)
Definition st2 (s : store T) (a i j : Z) : hs T :=
  HS (s (Loc a i j 0 ID)) (s (Loc a i j 0 IP)) (s (Loc a i j 0 IU)) (s (Loc a i j 0 IV)) zero.
Definition st3 (s : store T) (a i j k : Z) : hs T :=
  HS (s (Loc a i j k ID)) (s (Loc a i j k IP)) (s (Loc a i j k IU)) (s (Loc a i j k IV))
     (s (Loc a i j k IW)).

Definition w0 (q : hs T) : hs T := HS (hD q) (hP q) (hU q) (hV q) zero.
Definition hs_map2 (op : T -> T -> T) (x y : hs T) : hs T :=
  HS (op (hD x) (hD y)) (op (hP x) (hP y)) (op (hU x) (hU y)) (op (hV x) (hV y)) (op (hW x) (hW y)).
Definition zs : hs T := zero_state.

(** The settings for which nothing uninitialised is used. *)
Definition slopes_defined : bool :=
  eqb (slope_type p) zero || eqb (slope_type p) one || eqb (slope_type p) two.
Definition riemann_defined2 : bool :=
  (riemann_type p =? RIEMANN_APPROX) || (riemann_type p =? RIEMANN_HLL)
  || (riemann_type p =? RIEMANN_HLLC) || (riemann_type p =? RIEMANN_LLF).
Definition riemann_defined3 : bool :=
  (riemann_type p =? RIEMANN_APPROX) || (riemann_type p =? RIEMANN_HLLC)
  || (riemann_type p =? RIEMANN_LLF).

(** Gravity predictor. *)
Definition pred2 (gx gy : T) (q : hs T) : hs T :=
  if ge then HS (hD q) (hP q) (add (hU q) (mul (mul half dt) gx))
                (add (hV q) (mul (mul half dt) gy)) (hW q)
  else q.
Definition pred3 (gx gy gz : T) (q : hs T) : hs T :=
  if ge then HS (hD q) (hP q) (add (hU q) (mul (mul half dt) gx))
                (add (hV q) (mul (mul half dt) gy)) (add (hW q) (mul (mul half dt) gz))
  else q.

Section F2.
Variable Q : Z -> Z -> hs T.
Variable G : Z -> Z -> Z -> T.   (* gravity: G i j dir *)

Definition slopes2 (i j : Z) (jx jy : hs T) : hs T * hs T :=
  slope_unsplit_hydro_2d p (Q i j) (Q (i + 1) j) (Q (i - 1) j) (Q i (j + 1)) (Q i (j - 1)) jx jy.
Definition face2 (i j : Z) (f : face) : hs T :=
  let sl := slopes2 i j zs zs in
  pred2 (G i j IX) (G i j IY)
    (trace_unsplit_2d_along_dir p (Q i j) (fst sl) (snd sl) (dtdx p dt) (dtdy p dt) f).
Definition fluxX2 (i j : Z) : hs T :=
  scale (riemann_hydro2 p (face2 (i - 1) j FACE_XMAX) (face2 i j FACE_XMIN) zs) (dtdx p dt).
Definition fluxY2 (i j : Z) : hs T :=
  scale (swapUV (riemann_hydro2 p (swapUV (face2 i (j - 1) FACE_YMAX))
                                  (swapUV (face2 i j FACE_YMIN)) zs)) (dtdy p dt).
End F2.

Section F3.
Variable Q : Z -> Z -> Z -> hs T.
Variable G : Z -> Z -> Z -> Z -> T.

Definition slopes3 (i j k : Z) (jx jy jz : hs T) : hs T * hs T * hs T :=
  slope_unsplit_hydro_3d p (Q i j k) (Q (i + 1) j k) (Q (i - 1) j k) (Q i (j + 1) k)
    (Q i (j - 1) k) (Q i j (k + 1)) (Q i j (k - 1)) jx jy jz.
Definition tr3 (i j k : Z) (f : face) : hs T :=
  let sl := slopes3 i j k zs zs zs in
  trace_unsplit_3d_along_dir p (Q i j k) (fst (fst sl)) (snd (fst sl)) (snd sl)
    (dtdx p dt) (dtdy p dt) (dtdz p dt) f.
Definition face3 (i j k : Z) (f : face) : hs T :=
  pred3 (G i j k IX) (G i j k IY) (G i j k IZ) (tr3 i j k f).
Definition fluxX3 (i j k : Z) : hs T :=
  scale (riemann_hydro3 p (face3 (i - 1) j k FACE_XMAX) (face3 i j k FACE_XMIN) zs) (dtdx p dt).
Definition fluxY3 (i j k : Z) : hs T :=
  scale (swapUV (riemann_hydro3 p (swapUV (face3 i (j - 1) k FACE_YMAX))
                                  (swapUV (face3 i j k FACE_YMIN)) zs)) (dtdy p dt).
Definition fluxZ3 (i j k : Z) : hs T :=
  scale (swapUW (riemann_hydro3 p (swapUW (face3 i j (k - 1) FACE_ZMAX))
                                  (swapUW (face3 i j k FACE_ZMIN)) zs)) (dtdz p dt).
(** The z flux of implementation version 1, whose right state misses the
    gravity predictor. *)
Definition fluxZ3' (i j k : Z) : hs T :=
  scale (swapUW (riemann_hydro3 p (swapUW (face3 i j (k - 1) FACE_ZMAX))
                                  (swapUW (tr3 i j k FACE_ZMIN)) zs)) (dtdz p dt).
End F3.

(** New state of an interior cell. *)
Definition step2 (U : Z -> Z -> hs T) (G : Z -> Z -> Z -> T) (i j : Z) : hs T :=
  let Q := fun i j => snd (computePrimitives2 p (U i j)) in
  let X := fluxX2 Q G in let Y := fluxY2 Q G in
  let u := w0 (hs_map2 sub (hs_map2 add (hs_map2 sub (hs_map2 add (U i j) (X i j)) (X (i + 1) j))
                 (Y i j)) (Y i (j + 1))) in
  if ge then gravity_source2 p dt (hD (U i j)) u (G i j IX) (G i j IY) else u.

Definition step3 (zflux : (Z -> Z -> Z -> hs T) -> (Z -> Z -> Z -> Z -> T) -> Z -> Z -> Z -> hs T)
  (U : Z -> Z -> Z -> hs T) (G : Z -> Z -> Z -> Z -> T) (i j k : Z) : hs T :=
  let Q := fun i j k => snd (computePrimitives3 p (U i j k)) in
  let X := fluxX3 Q G in let Y := fluxY3 Q G in let W := zflux Q G in
  let u := hs_map2 sub (hs_map2 add
            (hs_map2 sub (hs_map2 add
              (hs_map2 sub (hs_map2 add (U i j k) (X i j k)) (X (i + 1) j k))
                (Y i j k)) (Y i (j + 1) k)) (W i j k)) (W i j (k + 1)) in
  if ge then gravity_source3 dt (hD (U i j k)) u (G i j k IX) (G i j k IY) (G i j k IZ) else u.
End Field.

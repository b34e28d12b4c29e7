(** The 3D MHD step as a function of the cell states (ghost cells included). *)
From Coq Require Import ZArith List Bool Lia.
From Verif Require Import Arith GridModel HydroState HydroKernels MhdState MhdRiemann MhdPoint MhdPoint3
  MhdKernels2 MhdKernels3.
Import ListNotations.
Open Scope Z_scope.

(** Cells between c - n and c + m along every axis. *)
Definition near (n m : Z) (c c' : cell) : Prop :=
  cx c - n <= cx c' <= cx c + m /\ cy c - n <= cy c' <= cy c + m /\ cz c - n <= cz c' <= cz c + m.
Ltac pos3 := unfold near, up, move, coord, cx, cy, cz in *; cbn [fst snd] in *.
Lemma near_move d n a b c : 0 <= a -> 0 <= b -> - a <= n <= b -> near a b c (move d n c).
Proof. destruct c as [[x y] z], d; pos3; lia. Qed.
Lemma near_refl a b c : 0 <= a -> 0 <= b -> near a b c c.
Proof. destruct c as [[x y] z]; pos3; lia. Qed.
Lemma near_trans a b a' b' x y c c' c'' : near a b c c' -> near a' b' c' c'' -> a + a' <= x -> b + b' <= y -> near x y c c''.
Proof. destruct c as [[? ?] ?], c' as [[? ?] ?], c'' as [[? ?] ?]; pos3; lia. Qed.

Section F3.
Context {T : Type} {AT : Arith T}.
Variable p : mparams T.
Variable g : grid.
Variable dt : T.
Variable junk : cell -> Z -> ms T.
Local Notation h := (mh p).
Local Notation Dx := (dtdx h dt).
Local Notation Dy := (dtdy h dt).
Local Notation Dz := (dtdz h dt).
Notation field := (cell -> ms T).

Definition prim3 (U : field) (c : cell) : ms T :=
  constoprim_mhd p (U c) (mA (U (move CX 1 c))) (mB (U (move CY 1 c))) (mC (U (move CZ 1 c))).
Definition elecf (Q U : field) (e : comp3) (c : cell) : T :=
  let d1 := axis1 e in let d2 := axis2 e in
  elec3 e (Q (move d1 (-1) (move d2 (-1) c))) (Q (move d1 (-1) c)) (Q (move d2 (-1) c)) (Q c)
    (bcomp d1 (U (move d2 (-1) c))) (bcomp d1 (U c)) (bcomp d2 (U (move d1 (-1) c))) (bcomp d2 (U c)).
Definition magf (U : field) (d d' : comp3) (c : cell) : T :=
  if is d d' then zero
  else slope_face3 p (bcomp d (U c)) (bcomp d (U (move d' 1 c))) (bcomp d (U (move d' (-1) c))).

(** Variants 0 and 1. *)
Definition trace3f (Q U : field) (c : cell) : tr3 :=
  trace3_core p (xpos3 p g c) (Q c)
    (slope_hydro3 p (Q c) (fun d => Q (move d 1 c)) (fun d => Q (move d (-1) c)))
    (fun e a b => elecf Q U e (up (axis1 e) a (up (axis2 e) b c)))
    (fun d s => bcomp d (U (up d s c))) (fun d d' s => magf U d d' (up d s c)) Dx Dy Dz.
(** Flux through the lower face along d, in the frame of the grid. *)
Definition flux3f (Q U : field) (d : comp3) (c : cell) : ms T :=
  mrot d (riemann_mhd p (mrot d (tf (trace3f Q U (move d (-1) c)) d true)) (mrot d (tf (trace3f Q U c) d false))
            (jflux junk d c)).
Definition emf3f (Q U : field) (e : comp3) (c : cell) : T :=
  emf_of p e (te (trace3f Q U (move (axis1 e) (-1) (move (axis2 e) (-1) c))) e true true)
    (te (trace3f Q U (move (axis1 e) (-1) c)) e true false)
    (te (trace3f Q U (move (axis2 e) (-1) c)) e false true) (te (trace3f Q U c) e false false).

(** Update of a cell from face fluxes F and edge electromotive forces E. *)
Definition accf (F : comp3 -> field) (u : ms T) (c : cell) : ms T :=
  upd_flux3 sub (upd_flux3 add (upd_flux3 sub (upd_flux3 add (upd_flux3 sub (upd_flux3 add u
    (F CX c) Dx) (F CX (move CX 1 c)) Dx) (F CY c) Dy) (F CY (move CY 1 c)) Dy) (F CZ c) Dz)
    (F CZ (move CZ 1 c)) Dz.
Definition indf (E : comp3 -> cell -> T) (u : ms T) (c : cell) : ms T :=
  induct p dt u (E CZ c) (E CZ (move CX 1 c)) (E CZ (move CY 1 c))
    (E CY c) (E CY (move CX 1 c)) (E CY (move CZ 1 c))
    (E CX c) (E CX (move CY 1 c)) (E CX (move CZ 1 c)).
Definition new3 (F : comp3 -> field) (E : comp3 -> cell -> T) (u : ms T) (c : cell) : ms T :=
  indf E (accf F u c) c.
Definition mstep3 (U : field) (c : cell) : ms T :=
  new3 (flux3f (prim3 U) U) (emf3f (prim3 U) U) (U c) c.

(** Low-memory variant, for the slope types it handles. *)
Definition slopef (Q U : field) (d : comp3) (c : cell) : ms T :=
  setb d (slope_vec p (Q c) (Q (move d 1 c)) (Q (move d (-1) c)))
    (bcomp d (U (move d 1 c)) - bcomp d (U c))%A.
Definition sfacef (Q U : field) (d : comp3) (c : cell) : T :=
  match d with
  | CX => ((elecf Q U CZ (move CY 1 c) - elecf Q U CZ c) * half * Dy
           - (elecf Q U CY (move CZ 1 c) - elecf Q U CY c) * half * Dz)%A
  | CY => (- (elecf Q U CZ (move CX 1 c) - elecf Q U CZ c) * half * Dx
           + (elecf Q U CX (move CZ 1 c) - elecf Q U CX c) * half * Dz)%A
  | CZ => ((elecf Q U CY (move CX 1 c) - elecf Q U CY c) * half * Dx
           - (elecf Q U CX (move CY 1 c) - elecf Q U CX c) * half * Dy)%A
  end.
Definition q2f (Q U : field) (c : cell) : ms T :=
  primvar3 p (Q c) (slopef Q U CX c) (slopef Q U CY c) (slopef Q U CZ c)
    (bcomp CX (U (move CX 1 c)) - bcomp CX (U c))%A (bcomp CY (U (move CY 1 c)) - bcomp CY (U c))%A
    (bcomp CZ (U (move CZ 1 c)) - bcomp CZ (U c))%A Dx Dy Dz.
Definition lflux3f (Q U : field) (d : comp3) (c : cell) : ms T :=
  let b := (bcomp d (U c) + sfacef Q U d c)%A in
  mrot d (riemann_mhd p (mrot d (setb d (face_plus p (q2f Q U (move d (-1) c)) (slopef Q U d (move d (-1) c))) b))
            (mrot d (setb d (face_minus p (q2f Q U c) (slopef Q U d c)) b)) (jflux junk d c)).
Definition ledgef (Q U : field) (e : comp3) (a b : bool) (c : cell) : ms T :=
  let d0 := axis1 e in let d1 := axis2 e in
  let c0 := up d0 a c in let c1 := up d1 b c in
  recon3 p d0 d1 a b b a (q2f Q U c) (slopef Q U d0 c) (slopef Q U d1 c)
    (bcomp d0 (U c0) + sfacef Q U d0 c0)%A
    (limited_slope3 p d1 (bcomp d0 (U c0)) (bcomp d0 (U (move d1 1 c0))) (bcomp d0 (U (move d1 (-1) c0))))
    (bcomp d1 (U c1) + sfacef Q U d1 c1)%A
    (limited_slope3 p d0 (bcomp d1 (U c1)) (bcomp d1 (U (move d0 1 c1))) (bcomp d1 (U (move d0 (-1) c1)))).
Definition lemf3f (Q U : field) (e : comp3) (c : cell) : T :=
  emf_of p e (ledgef Q U e true true (move (axis1 e) (-1) (move (axis2 e) (-1) c)))
    (ledgef Q U e true false (move (axis1 e) (-1) c))
    (ledgef Q U e false true (move (axis2 e) (-1) c)) (ledgef Q U e false false c).
(** Fluxes and electromotive forces of each variant, and the step. *)
Definition flux_of (impl : Z) := if impl =? 2 then lflux3f else flux3f.
Definition emff_of (impl : Z) := if impl =? 2 then lemf3f else emf3f.
Definition vstep3 (impl : Z) (U : field) (c : cell) : ms T :=
  new3 (flux_of impl (prim3 U) U) (emff_of impl (prim3 U) U) (U c) c.

(** ** Extensionality and locality *)
Lemma slope_hydro3_ext q qp qp' qm qm' d : (forall d, qp d = qp' d) -> (forall d, qm d = qm' d) ->
  slope_hydro3 p q qp qm d = slope_hydro3 p q qp' qm' d.
Proof. intros H1 H2. unfold slope_hydro3. rewrite !H1, !H2. reflexivity. Qed.
Lemma trace3_core_ext x q d d' E E' fc fc' db db' : (forall a, d a = d' a) -> (forall e a b, E e a b = E' e a b) ->
  (forall a s, fc a s = fc' a s) -> (forall a b s, db a b s = db' a b s) ->
  (forall a s, tf (trace3_core p x q d E fc db Dx Dy Dz) a s = tf (trace3_core p x q d' E' fc' db' Dx Dy Dz) a s) /\
  (forall e a b, te (trace3_core p x q d E fc db Dx Dy Dz) e a b = te (trace3_core p x q d' E' fc' db' Dx Dy Dz) e a b).
Proof.
  intros H1 H2 H3 H4. unfold trace3_core; cbn [tf te].
  rewrite !H1, !H3.
  split; intros; rewrite ?H1, ?H2, ?H3, ?H4; reflexivity.
Qed.

Lemma elecf_ext Q Q' U U' e c : (forall c', near 1 0 c c' -> Q c' = Q' c') -> (forall c', near 1 0 c c' -> U c' = U' c') ->
  elecf Q U e c = elecf Q' U' e c.
Proof.
  intros HQ HU. unfold elecf. destruct c as [[x y] z].
  destruct e; cbn [axis1 axis2]; rewrite !HQ, !HU by (pos3; lia); reflexivity.
Qed.
Lemma magf_ext U U' d d' c : (forall c', (if is d d' then False else c' = c \/ c' = move d' 1 c \/ c' = move d' (-1) c) -> U c' = U' c') ->
  magf U d d' c = magf U' d d' c.
Proof. intros H. clear junk. unfold magf. destruct (is d d'); [reflexivity|]. rewrite !H by auto. reflexivity. Qed.

Definition teq (t t' : tr3 (T:=T)) : Prop := (forall a s, tf t a s = tf t' a s) /\ (forall e a b, te t e a b = te t' e a b).

Lemma trace3f_ext Q Q' U U' c : (forall c', near 1 1 c c' -> Q c' = Q' c') -> (forall c', near 1 1 c c' -> U c' = U' c') ->
  teq (trace3f Q U c) (trace3f Q' U' c).
Proof.
  intros HQ HU. unfold trace3f, teq.
  rewrite (HQ c) by (apply near_refl; lia).
  apply trace3_core_ext.
  - intros d. apply slope_hydro3_ext; intros d'; apply HQ, near_move; lia.
  - intros e a b. unfold elecf. destruct c as [[x y] z].
    destruct e; cbn [axis1 axis2]; rewrite !HQ, !HU by (destruct a, b; pos3; lia); reflexivity.
  - intros d s. rewrite HU; [reflexivity|]. destruct s; [apply near_move|apply near_refl]; lia.
  - intros d d' s. apply magf_ext. intros c' H. apply HU. destruct c as [[x y] z], c' as [[x' y'] z'].
    destruct d, d'; cbn [is] in H; try tauto; destruct s; destruct H as [H|[H|H]]; injection H as -> -> ->; pos3; lia.
Qed.

Lemma flux3f_ext Q Q' U U' d c : (forall c', near 2 1 c c' -> Q c' = Q' c') -> (forall c', near 2 1 c c' -> U c' = U' c') ->
  flux3f Q U d c = flux3f Q' U' d c.
Proof.
  intros HQ HU. unfold flux3f.
  assert (E : forall c0, near 1 0 c c0 -> teq (trace3f Q U c0) (trace3f Q' U' c0)).
  { intros c0 H0. apply trace3f_ext; intros c' H'; [apply HQ|apply HU]; eapply near_trans; eauto; lia. }
  destruct (E (move d (-1) c)) as [E1 _]; [apply near_move; lia|].
  destruct (E c) as [E2 _]; [apply near_refl; lia|]. rewrite E1, E2. reflexivity.
Qed.
Lemma near_edge e c : near 1 0 c (move (axis1 e) (-1) (move (axis2 e) (-1) c)).
Proof. destruct c as [[x y] z], e; pos3; cbn; lia. Qed.
Lemma emf3f_ext Q Q' U U' e c : (forall c', near 2 1 c c' -> Q c' = Q' c') -> (forall c', near 2 1 c c' -> U c' = U' c') ->
  emf3f Q U e c = emf3f Q' U' e c.
Proof.
  intros HQ HU. unfold emf3f.
  assert (E : forall c0, near 1 0 c c0 -> teq (trace3f Q U c0) (trace3f Q' U' c0)).
  { intros c0 H0. apply trace3f_ext; intros c' H'; [apply HQ|apply HU]; eapply near_trans; eauto; lia. }
  destruct (E _ (near_edge e c)) as [_ E1].
  destruct (E (move (axis1 e) (-1) c)) as [_ E2]; [apply near_move; lia|].
  destruct (E (move (axis2 e) (-1) c)) as [_ E3]; [apply near_move; lia|].
  destruct (E c) as [_ E4]; [apply near_refl; lia|]. rewrite E1, E2, E3, E4. reflexivity.
Qed.

Lemma new3_ext F F' E E' u c :
  (forall d c', c' = c \/ c' = move d 1 c -> F d c' = F' d c') ->
  (forall e d c', c' = c \/ (d <> e /\ c' = move d 1 c) -> E e c' = E' e c') ->
  new3 F E u c = new3 F' E' u c.
Proof.
  intros HF HE. unfold new3, indf, accf.
  rewrite !(HF CX), !(HF CY), !(HF CZ) by auto.
  assert (A : forall e, E e c = E' e c) by (intros e; apply (HE e e); auto).
  assert (B : forall e d, d <> e -> E e (move d 1 c) = E' e (move d 1 c)) by (intros e d N; apply (HE e d); auto).
  rewrite !A, !B by discriminate. reflexivity.
Qed.

(** Low-memory variant. *)
Lemma slopef_ext Q Q' U U' d c : (forall c', near 1 1 c c' -> Q c' = Q' c') -> (forall c', near 1 1 c c' -> U c' = U' c') ->
  slopef Q U d c = slopef Q' U' d c.
Proof.
  intros HQ HU. unfold slopef. rewrite !HQ, !HU by (apply near_move || apply near_refl; lia). reflexivity.
Qed.
Lemma sfacef_ext Q Q' U U' d c :
  (forall c', near 1 1 c c' -> Q c' = Q' c') -> (forall c', near 1 1 c c' -> U c' = U' c') ->
  sfacef Q U d c = sfacef Q' U' d c.
Proof.
  intros HQ HU. unfold sfacef, elecf. destruct c as [[x y] z].
  destruct d; cbn [axis1 axis2]; rewrite !HQ, !HU by (pos3; lia); reflexivity.
Qed.
Lemma q2f_ext Q Q' U U' c : (forall c', near 1 1 c c' -> Q c' = Q' c') -> (forall c', near 1 1 c c' -> U c' = U' c') ->
  q2f Q U c = q2f Q' U' c.
Proof.
  intros HQ HU. unfold q2f. rewrite !(slopef_ext Q Q' U U') by auto.
  rewrite !HQ, !HU by (apply near_move || apply near_refl; lia). reflexivity.
Qed.
Lemma lflux3f_ext Q Q' U U' d c : (forall c', near 2 1 c c' -> Q c' = Q' c') -> (forall c', near 2 1 c c' -> U c' = U' c') ->
  lflux3f Q U d c = lflux3f Q' U' d c.
Proof.
  intros HQ HU. unfold lflux3f.
  assert (N : forall c0 c', near 1 0 c c0 -> near 1 1 c0 c' -> near 2 1 c c') by (intros; eapply near_trans; eauto; lia).
  assert (N1 : near 1 0 c c) by (apply near_refl; lia).
  assert (N2 : near 1 0 c (move d (-1) c)) by (apply near_move; lia).
  rewrite (sfacef_ext Q Q' U U'), !(q2f_ext Q Q' U U'), !(slopef_ext Q Q' U U') by eauto.
  rewrite HU by (apply near_refl; lia). reflexivity.
Qed.
Lemma ledgef_ext Q Q' U U' e a b c : (forall c', near 1 1 c c' -> Q c' = Q' c') -> (forall c', near 1 1 c c' -> U c' = U' c') ->
  ledgef Q U e a b c = ledgef Q' U' e a b c.
Proof.
  intros HQ HU. unfold ledgef.
  rewrite !(q2f_ext Q Q' U U'), !(slopef_ext Q Q' U U') by auto.
  assert (S1 : sfacef Q U (axis1 e) (up (axis1 e) a c) = sfacef Q' U' (axis1 e) (up (axis1 e) a c)).
  { unfold sfacef, elecf. destruct c as [[x y] z].
    destruct e; cbn [axis1 axis2]; rewrite !HQ, !HU by (destruct a; pos3; lia); reflexivity. }
  assert (S2 : sfacef Q U (axis2 e) (up (axis2 e) b c) = sfacef Q' U' (axis2 e) (up (axis2 e) b c)).
  { unfold sfacef, elecf. destruct c as [[x y] z].
    destruct e; cbn [axis1 axis2]; rewrite !HQ, !HU by (destruct b; pos3; lia); reflexivity. }
  rewrite S1, S2.
  rewrite !HU; [reflexivity|..]; destruct c as [[x y] z], e, a, b; pos3; cbn [axis1 axis2 fst snd]; lia.
Qed.
Lemma lemf3f_ext Q Q' U U' e c : (forall c', near 2 1 c c' -> Q c' = Q' c') -> (forall c', near 2 1 c c' -> U c' = U' c') ->
  lemf3f Q U e c = lemf3f Q' U' e c.
Proof.
  intros HQ HU. unfold lemf3f.
  assert (E : forall a b c0, near 1 0 c c0 -> ledgef Q U e a b c0 = ledgef Q' U' e a b c0).
  { intros a b c0 H0. apply ledgef_ext; intros c' H'; [apply HQ|apply HU]; eapply near_trans; eauto; lia. }
  rewrite !E; [reflexivity|apply near_refl; lia|apply near_move; lia|apply near_move; lia|apply near_edge].
Qed.
Lemma flux_of_ext impl Q Q' U U' d c : (forall c', near 2 1 c c' -> Q c' = Q' c') -> (forall c', near 2 1 c c' -> U c' = U' c') ->
  flux_of impl Q U d c = flux_of impl Q' U' d c.
Proof. unfold flux_of. destruct (impl =? 2); [apply lflux3f_ext|apply flux3f_ext]. Qed.
Lemma emff_of_ext impl Q Q' U U' e c : (forall c', near 2 1 c c' -> Q c' = Q' c') -> (forall c', near 2 1 c c' -> U c' = U' c') ->
  emff_of impl Q U e c = emff_of impl Q' U' e c.
Proof. unfold emff_of. destruct (impl =? 2); [apply lemf3f_ext|apply emf3f_ext]. Qed.
Lemma prim3_ext U U' c : (forall c', near 0 1 c c' -> U c' = U' c') -> prim3 U c = prim3 U' c.
Proof. intros H. unfold prim3. rewrite !H by (apply near_move || apply near_refl; lia). reflexivity. Qed.
End F3.

(** Flows that solve the Euler equations: rotation about a moving axis, hydrostatic balance. *)
From Coq Require Import List Bool Reals Lra ZArith Lia.
From Coquelicot Require Import Coquelicot.
From Verif Require Import Arith HydroState Physics MhdInit HydroInit HydroInitSpec FlowSpec.
Import ListNotations.
Local Open Scope R_scope.

(** Changing the fields where they agree nearby along each axis. *)
Lemma solves_ext gam a (w w' : flow) t x y z :
  locally t (fun t => w t x y z = w' t x y z) -> locally x (fun x => w t x y z = w' t x y z) ->
  locally y (fun y => w t x y z = w' t x y z) -> locally z (fun z => w t x y z = w' t x y z) ->
  solves gam a w t x y z -> solves gam a w' t x y z.
Proof.
  intros Ht Hx Hy Hz H c Hc. destruct (H c Hc) as (dt & dx & dy & dz & H1 & H2 & H3 & H4 & H5).
  exists dt, dx, dy, dz. refine (conj _ (conj _ (conj _ (conj _ _)))).
  - eapply is_derive_ext_loc; [|exact H1]. eapply filter_imp; [|exact Ht]. intros u Hu. cbn beta in Hu |- *. rewrite Hu. reflexivity.
  - eapply is_derive_ext_loc; [|exact H2]. eapply filter_imp; [|exact Hx]. intros u Hu. cbn beta in Hu |- *. rewrite Hu. reflexivity.
  - eapply is_derive_ext_loc; [|exact H3]. eapply filter_imp; [|exact Hy]. intros u Hu. cbn beta in Hu |- *. rewrite Hu. reflexivity.
  - eapply is_derive_ext_loc; [|exact H4]. eapply filter_imp; [|exact Hz]. intros u Hu. cbn beta in Hu |- *. rewrite Hu. reflexivity.
  - rewrite H5. rewrite (locally_singleton _ _ Ht). reflexivity.
Qed.

(** Derivatives of the conservative state and of the fluxes of a planar motion, from those of the
    primitive variables. *)
Section Along.
Variable gam : R.
Variables r q u v : R -> R.
Variables (x r' q' u' v' : R).
Hypothesis Hr : is_derive r x r'.
Hypothesis Hq : is_derive q x q'.
Hypothesis Hu : is_derive u x u'.
Hypothesis Hv : is_derive v x v'.
Let e := q x / (gam - 1) + r x * (u x * u x + v x * v x) / 2.
Let e' := q' / (gam - 1) + (r' * (u x * u x + v x * v x) + 2 * r x * (u x * u' + v x * v')) / 2.
Definition d_cons : hs R := HS r' e' (r' * u x + r x * u') (r' * v x + r x * v') 0.
Definition d_flux_x : hs R :=
  HS (r' * u x + r x * u') (u' * (e + q x) + u x * (e' + q'))
     ((r' * u x + r x * u') * u x + r x * u x * u' + q') ((r' * u x + r x * u') * v x + r x * u x * v') 0.
Definition d_flux_y : hs R :=
  HS (r' * v x + r x * v') (v' * (e + q x) + v x * (e' + q'))
     ((r' * v x + r x * v') * u x + r x * v x * u') ((r' * v x + r x * v') * v x + r x * v x * v' + q') 0.
Local Notation st := (fun x => HS (r x) (q x) (u x) (v x) 0).
Ltac go :=
  cbn [hD hP hU hV hW];
  auto_derive; [repeat split; first [eexists; eassumption | exact I] |];
  change (fun x => r x) with r; change (fun x => q x) with q; change (fun x => u x) with u; change (fun x => v x) with v;
  rewrite ?(is_derive_unique _ _ _ Hr), ?(is_derive_unique _ _ _ Hq), ?(is_derive_unique _ _ _ Hu), ?(is_derive_unique _ _ _ Hv);
  unfold e', e; unfold Rdiv; ring.
Lemma along_cons c : In c [hD; hP; hU; hV; hW] -> is_derive (fun x => c (conservative gam (st x))) x (c d_cons).
Proof.
  intros Hc. repeat destruct Hc as [<-|Hc]; [| | | | |contradiction]; unfold conservative, total_energy, d_cons; go.
Qed.
Lemma along_flux_x c : In c [hD; hP; hU; hV; hW] -> is_derive (fun x => c (euler_flux gam (st x))) x (c d_flux_x).
Proof.
  intros Hc. repeat destruct Hc as [<-|Hc]; [| | | | |contradiction]; unfold euler_flux, total_energy, d_flux_x; go.
Qed.
Lemma along_flux_y c : In c [hD; hP; hU; hV; hW] -> is_derive (fun x => c (flux_y gam (st x))) x (c d_flux_y).
Proof.
  intros Hc. repeat destruct Hc as [<-|Hc]; [| | | | |contradiction]; unfold flux_y, swap_y, euler_flux, total_energy, d_flux_y; go.
Qed.
End Along.
Lemma along_flux_z gam (w : R -> hs R) z pz c : (forall z, hW (w z) = 0) -> is_derive (fun z => hP (w z)) z pz ->
  In c [hD; hP; hU; hV; hW] -> is_derive (fun z => c (flux_z gam (w z))) z (c (HS 0 0 0 0 pz)).
Proof.
  intros Hw Hp Hc.
  assert (Z : forall f : R -> R, (forall z, f z = 0) -> is_derive f z 0).
  { intros f Hf. apply (is_derive_ext (fun _ => 0)); [intros; rewrite Hf; reflexivity|]. apply @is_derive_const. }
  repeat destruct Hc as [<-|Hc]; [| | | | |contradiction]; unfold flux_z, swap_z, euler_flux; cbn [hD hP hU hV hW].
  - apply Z. intros. rewrite Hw. ring.
  - apply Z. intros. rewrite Hw. ring.
  - apply Z. intros. rewrite Hw. ring.
  - apply Z. intros. rewrite Hw. ring.
  - eapply is_derive_ext; [|exact Hp]. intros. cbn. rewrite Hw. ring.
Qed.

(** ** Rotation about the axis through (x0 + U t, y0 + V t): density, pressure and angular
    velocity are functions of the squared distance and of z. *)
Section Rotation.
Variables gam x0 y0 U V : R.
Variables rho p om : R -> R -> R.
Definition rot (t x y z : R) : hs R :=
  let X := x - x0 - U * t in let Y := y - y0 - V * t in
  let s := X * X + Y * Y in
  HS (rho s z) (p s z) (U - Y * om s z) (V + X * om s z) 0.

Lemma comp_derive (f g : R -> R) (x f' g' : R) : is_derive f (g x) f' -> is_derive g x g' -> is_derive (fun x => f (g x)) x (g' * f').
Proof. intros Hf Hg. apply (is_derive_comp f g x f' g' Hf Hg). Qed.

Lemma prod_derive (A : R) (g f : R -> R) (x g' f' : R) : is_derive g x g' -> is_derive f x f' ->
  is_derive (fun x => A + g x * f x) x (g' * f x + g x * f').
Proof.
  intros Hg Hf. auto_derive; [repeat split; eexists; eassumption|].
  change (fun x => g x) with g. change (fun x => f x) with f.
  rewrite (is_derive_unique _ _ _ Hg), (is_derive_unique _ _ _ Hf). ring.
Qed.
Lemma derive_to (f g : R -> R) (x a b : R) : is_derive f x a -> (forall x, f x = g x) -> a = b -> is_derive g x b.
Proof. intros Hf He <-. eapply is_derive_ext; [|exact Hf]. intros. apply He. Qed.

Lemma rotation_sum t x y z (rho' p' om' pz : R) : gam - 1 <> 0 ->
  let X := x - x0 - U * t in let Y := y - y0 - V * t in let s := X * X + Y * Y in
  is_derive (fun s => rho s z) s rho' -> is_derive (fun s => p s z) s p' -> is_derive (fun s => om s z) s om' ->
  is_derive (fun z => p s z) z pz ->
  let f := 2 * p' - rho s z * (om s z * om s z) in
  forall c, In c [hD; hP; hU; hV; hW] -> exists dt dx dy dz,
    is_derive (fun t => c (conservative gam (rot t x y z))) t dt /\
    is_derive (fun x => c (euler_flux gam (rot t x y z))) x dx /\
    is_derive (fun y => c (flux_y gam (rot t x y z))) y dy /\
    is_derive (fun z => c (flux_z gam (rot t x y z))) z dz /\
    dt + dx + dy + dz = c (HS 0 (f * (U * X + V * Y)) (f * X) (f * Y) pz).
Proof.
  intros Hg X Y s Hr Hp Ho Hz f c Hc.
  set (st := fun t => (x - x0 - U * t) * (x - x0 - U * t) + (y - y0 - V * t) * (y - y0 - V * t)).
  set (sx := fun x => (x - x0 - U * t) * (x - x0 - U * t) + Y * Y).
  set (sy := fun y => X * X + (y - y0 - V * t) * (y - y0 - V * t)).
  assert (Dt : is_derive st t (- 2 * (U * X + V * Y))) by (unfold st, X, Y; auto_derive; [exact I|ring]).
  assert (Dx : is_derive sx x (2 * X)) by (unfold sx, X, Y; auto_derive; [exact I|ring]).
  assert (Dy : is_derive sy y (2 * Y)) by (unfold sy, X, Y; auto_derive; [exact I|ring]).
  assert (Rt := comp_derive _ st t _ _ Hr Dt). assert (Rx := comp_derive _ sx x _ _ Hr Dx). assert (Ry := comp_derive _ sy y _ _ Hr Dy).
  assert (Pt := comp_derive _ st t _ _ Hp Dt). assert (Px := comp_derive _ sx x _ _ Hp Dx). assert (Py := comp_derive _ sy y _ _ Hp Dy).
  assert (Ot := comp_derive _ st t _ _ Ho Dt). assert (Ox := comp_derive _ sx x _ _ Ho Dx). assert (Oy := comp_derive _ sy y _ _ Ho Dy).
  cbn beta in Rt, Rx, Ry, Pt, Px, Py, Ot, Ox, Oy.
  set (o := om s z) in *.
  (* velocities *)
  assert (Ut : is_derive (fun t => U - (y - y0 - V * t) * om (st t) z) t (V * o - Y * (- 2 * (U * X + V * Y) * om'))).
  { eapply derive_to; [refine (prod_derive U (fun t => - (y - y0 - V * t)) (fun t => om (st t) z) _ (V) _ _ Ot); auto_derive; [exact I|ring]| |]; [intros; cbn beta; ring|cbn beta; change (om (st t) z) with o; unfold X, Y; ring]. }
  assert (Vt : is_derive (fun t => V + (x - x0 - U * t) * om (st t) z) t (- U * o + X * (- 2 * (U * X + V * Y) * om'))).
  { eapply derive_to; [refine (prod_derive V (fun t => x - x0 - U * t) (fun t => om (st t) z) _ (- U) _ _ Ot); auto_derive; [exact I|ring]| |]; [intros; cbn beta; ring|cbn beta; change (om (st t) z) with o; unfold X, Y; ring]. }
  assert (Ux : is_derive (fun x => U - Y * om (sx x) z) x (- Y * (2 * X * om'))).
  { eapply derive_to; [refine (prod_derive U (fun x => - Y) (fun x => om (sx x) z) _ (0) _ _ Ox); auto_derive; [exact I|ring]| |]; [intros; cbn beta; ring|cbn beta; change (om (sx x) z) with o; unfold X, Y; ring]. }
  assert (Vx : is_derive (fun x => V + (x - x0 - U * t) * om (sx x) z) x (o + X * (2 * X * om'))).
  { eapply derive_to; [refine (prod_derive V (fun x => x - x0 - U * t) (fun x => om (sx x) z) _ (1) _ _ Ox); auto_derive; [exact I|ring]| |]; [intros; cbn beta; ring|cbn beta; change (om (sx x) z) with o; unfold X, Y; ring]. }
  assert (Uy : is_derive (fun y => U - (y - y0 - V * t) * om (sy y) z) y (- o - Y * (2 * Y * om'))).
  { eapply derive_to; [refine (prod_derive U (fun y => - (y - y0 - V * t)) (fun y => om (sy y) z) _ (- 1) _ _ Oy); auto_derive; [exact I|ring]| |]; [intros; cbn beta; ring|cbn beta; change (om (sy y) z) with o; unfold X, Y; ring]. }
  assert (Vy : is_derive (fun y => V + X * om (sy y) z) y (X * (2 * Y * om'))).
  { eapply derive_to; [refine (prod_derive V (fun y => X) (fun y => om (sy y) z) _ (0) _ _ Oy); auto_derive; [exact I|ring]| |]; [intros; cbn beta; ring|cbn beta; change (om (sy y) z) with o; unfold X, Y; ring]. }
  assert (At := along_cons gam _ _ _ _ _ _ _ _ _ Rt Pt Ut Vt c Hc).
  assert (Ax := along_flux_x gam _ _ _ _ _ _ _ _ _ Rx Px Ux Vx c Hc).
  assert (Ay := along_flux_y gam _ _ _ _ _ _ _ _ _ Ry Py Uy Vy c Hc).
  assert (Az := along_flux_z gam (fun z => rot t x y z) z pz c (fun _ => eq_refl) Hz Hc).
  do 4 eexists. refine (conj At (conj Ax (conj Ay (conj Az _)))).
  clear At Ax Ay Az.
  change (st t) with s. change (sx x) with s. change (sy y) with s.
  unfold d_cons, d_flux_x, d_flux_y, f. cbv zeta. fold X Y. fold s. change (st t) with s. change (sx x) with s. change (sy y) with s.
  change (x - x0 - U * t) with X. change (y - y0 - V * t) with Y. fold o.
  set (r := rho s z) in *. set (q := p s z) in *. 
  clearbody r q o X Y. clear - Hg Hc.
  repeat destruct Hc as [<-|Hc]; [| | | | |contradiction]; cbn [hD hP hU hV hW]; field; auto.
Qed.
Lemma rotation_solves t x y z (rho' p' om' pz k gz : R) : gam - 1 <> 0 ->
  let X := x - x0 - U * t in let Y := y - y0 - V * t in let s := X * X + Y * Y in
  is_derive (fun s => rho s z) s rho' -> is_derive (fun s => p s z) s p' -> is_derive (fun s => om s z) s om' ->
  is_derive (fun z => p s z) z pz ->
  2 * p' = rho s z * (om s z * om s z + k) -> pz = rho s z * gz ->
  solves gam (k * X, k * Y, gz) rot t x y z.
Proof.
  intros Hg X Y s Hr Hp Ho Hz E1 E2 c Hc.
  destruct (rotation_sum t x y z _ _ _ _ Hg Hr Hp Ho Hz c Hc) as (dt & dx & dy & dz & D1 & D2 & D3 & D4 & E).
  exists dt, dx, dy, dz. refine (conj D1 (conj D2 (conj D3 (conj D4 _)))). rewrite E. clear - Hc E1 E2.
  unfold rot, gravity_source. cbv zeta. fold X Y. fold s. change (x - x0 - U * t) with X. change (y - y0 - V * t) with Y. fold s.
  rewrite E1, E2.
  repeat destruct Hc as [<-|Hc]; [| | | | |contradiction]; cbn [hD hP hU hV hW]; ring.
Qed.
(** Conversely the acceleration that a rotation needs. *)
Lemma rotation_needs t x y z (rho' p' om' pz ax ay az : R) : gam - 1 <> 0 ->
  let X := x - x0 - U * t in let Y := y - y0 - V * t in let s := X * X + Y * Y in
  is_derive (fun s => rho s z) s rho' -> is_derive (fun s => p s z) s p' -> is_derive (fun s => om s z) s om' ->
  is_derive (fun z => p s z) z pz ->
  solves gam (ax, ay, az) rot t x y z ->
  let f := 2 * p' - rho s z * (om s z * om s z) in
  f * X = rho s z * ax /\ f * Y = rho s z * ay /\ pz = rho s z * az.
Proof.
  intros Hg X Y s Hr Hp Ho Hz Hs f.
  assert (K : forall c, In c [hD; hP; hU; hV; hW] -> c (HS 0 (f * (U * X + V * Y)) (f * X) (f * Y) pz) = c (gravity_source (ax, ay, az) (rot t x y z))).
  { intros c Hc. destruct (rotation_sum t x y z _ _ _ _ Hg Hr Hp Ho Hz c Hc) as (dt & dx & dy & dz & D1 & D2 & D3 & D4 & E).
    destruct (Hs c Hc) as (dt' & dx' & dy' & dz' & D1' & D2' & D3' & D4' & E').
    apply is_derive_unique in D1, D2, D3, D4, D1', D2', D3', D4'.
    rewrite <- E'. transitivity (dt + dx + dy + dz); [symmetry; exact E|]. congruence. }
  split; [|split].
  - apply (K hU). cbn. auto.
  - apply (K hV). cbn. auto.
  - apply (K hW). cbn. auto 6.
Qed.
End Rotation.

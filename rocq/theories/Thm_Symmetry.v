(** Theorems about the symmetries of a time step and about walls
    (properties C30, C54, C55), in exact arithmetic. *)
From Coq Require Import ZArith List Bool Reals Lia Lra.
From Verif Require Import Arith Par ParProofs GridModel BoundarySpec HydroState RiemannModel HydroPoint HydroKernels
  HydroSpec Physics SymmetrySpec HydroRuns Thm_Riemann.
Import ListNotations.
Open Scope Z_scope.

(** ** C30: the axes are interchangeable *)
Theorem C30_exchange_xy_2d : forall (p : hparams R) g dt ge, hydro_grid2 g ->
  forall junk junk' impl impl' aIn aOut (s s' t t' : store R),
  impl = 0 \/ impl = 1 -> impl' = 0 \/ impl' = 1 ->
  arr_ok aIn aOut -> slope_ok p -> riemann_ok2 p ->
  run_kernels (godunov2 p g dt ge junk impl aIn aOut) s s' ->
  run_kernels (godunov2 (par_xy p) (grid_xy g) dt ge junk' impl' aIn aOut) t t' ->
  exchanged_xy2 g aIn s t -> (ge = true -> gravity_xy2 s t) ->
  exchanged_xy2 g aOut s' t'.
Proof. exact exchange2. Qed.
Print Assumptions C30_exchange_xy_2d.

(** In 3D version 1 with gravity is excluded: there the z flux misses the
    gravity predictor on one side (C21_versions_agree_3d_gravity_refuted). *)
Theorem C30_exchange_xy_3d : forall (p : hparams R) g dt ge, hydro_grid3 g ->
  forall junk junk' impl impl' aIn aOut (s s' t t' : store R),
  impl = 0 \/ impl = 1 -> impl' = 0 \/ impl' = 1 -> (impl = 0 /\ impl' = 0) \/ ge = false ->
  arr_ok aIn aOut -> slope_ok p -> riemann_ok3 p ->
  run_kernels (godunov3 p g dt ge junk impl aIn aOut) s s' ->
  run_kernels (godunov3 (par_xy p) (grid_xy g) dt ge junk' impl' aIn aOut) t t' ->
  exchanged_xy3 g aIn s t -> (ge = true -> gravity_xy3 s t) ->
  exchanged_xy3 g aOut s' t'.
Proof. exact exchange3. Qed.
Print Assumptions C30_exchange_xy_3d.

Theorem C30_exchange_xz_3d : forall (p : hparams R) g dt ge, hydro_grid3 g ->
  forall junk junk' impl impl' aIn aOut (s s' t t' : store R),
  impl = 0 \/ impl = 1 -> impl' = 0 \/ impl' = 1 -> (impl = 0 /\ impl' = 0) \/ ge = false ->
  arr_ok aIn aOut -> slope_ok p -> riemann_ok3 p ->
  run_kernels (godunov3 p g dt ge junk impl aIn aOut) s s' ->
  run_kernels (godunov3 (par_xz p) (grid_xz g) dt ge junk' impl' aIn aOut) t t' ->
  exchanged_xz3 g aIn s t -> (ge = true -> gravity_xz3 s t) ->
  exchanged_xz3 g aOut s' t'.
Proof. exact exchange3z. Qed.
Print Assumptions C30_exchange_xz_3d.

(** A shear flow in a channel with walls in y, and its image. *)
Definition channel2 : grid := Grid 4 3 1 2 4 (fun f => match f with FACE_YMIN | FACE_YMAX => 1 | _ => 3 end).
Definition channel3 : grid := Grid 4 3 5 2 5 (fun f => match f with FACE_YMIN | FACE_YMAX => 1 | FACE_ZMAX => 2 | _ => 3 end).
Definition shear : store R := fun l => if la l =? aG then IZR (lv l + li l) else (IZR (10 + lj l + lv l))%R.
Definition shear_xy : store R := fun l => shear (Loc (la l) (lj l) (li l) (lk l) (if la l =? aG then dir_xy (lv l) else var_xy (lv l))).
Definition shear_xz : store R := fun l => shear (Loc (la l) (lk l) (lj l) (li l) (if la l =? aG then dir_xz (lv l) else var_xz (lv l))).
Lemma gas_slope r : slope_ok (gas r).
Proof. right. left. cbn. destruct Req_EM_T; auto; lra. Qed.

Example C30_hypotheses_hold : exists (s' t' : store R),
  hydro_grid2 channel2 /\ arr_ok aU aU2 /\ slope_ok (gas RIEMANN_APPROX) /\ riemann_ok2 (gas RIEMANN_APPROX) /\
  run_kernels (godunov2 (gas RIEMANN_APPROX) channel2 (1/10)%R true (fun _ _ => HS 0 0 0 0 0)%R 0 aU aU2) shear s' /\
  run_kernels (godunov2 (par_xy (gas RIEMANN_APPROX)) (grid_xy channel2) (1/10)%R true (fun _ _ => HS 0 0 0 0 0)%R 1 aU aU2) shear_xy t' /\
  exchanged_xy2 channel2 aU shear shear_xy /\ gravity_xy2 shear shear_xy /\
  ~ exchanged_xy2 channel2 aU shear shear /\
  hydro_grid3 channel3 /\ riemann_ok3 (gas RIEMANN_APPROX) /\
  exchanged_xy3 channel3 aU shear shear_xy /\ gravity_xy3 shear shear_xy /\
  exchanged_xz3 channel3 aU shear shear_xz /\ gravity_xz3 shear shear_xz.
Proof.
  eexists. eexists.
  split; [unfold hydro_grid2; cbn; lia|]. split; [left; auto|]. split; [apply gas_slope|]. split; [cbn; auto|].
  split; [apply run_kernels_seq|]. split; [apply run_kernels_seq|].
  split; [intros i j v _ _; reflexivity|]. split; [intros i j d _; reflexivity|].
  split. { intros H. specialize (H 2 3 0). unfold inside2, shear in H. cbn in H. specialize (H ltac:(lia) ltac:(lia)). apply eq_IZR in H. lia. }
  split; [unfold hydro_grid3; cbn; lia|]. split; [cbn; auto|].
  split; [intros i j k v _ _; reflexivity|]. split; [intros i j k d _; reflexivity|].
  split; [intros i j k v _ _; reflexivity|]. intros i j k d _; reflexivity.
Qed.

(** ** C54: the mirror image of a flow evolves into the mirror image *)
Theorem C54_reflection_2d : forall (p : hparams R) g dt ge, hydro_grid2 g ->
  forall junk junk' impl impl' aIn aOut (s s' t t' : store R),
  impl = 0 \/ impl = 1 -> impl' = 0 \/ impl' = 1 ->
  arr_ok aIn aOut -> slope_ok p -> params_ok p -> symmetric_solver2 p ->
  run_kernels (godunov2 p g dt ge junk impl aIn aOut) s s' ->
  run_kernels (godunov2 p (grid_mx g) dt ge junk' impl' aIn aOut) t t' ->
  reflected2 g aIn s t -> (ge = true -> gravity_mx2 g s t) ->
  reflected2 g aOut s' t'.
Proof. exact reflect2. Qed.
Print Assumptions C54_reflection_2d.

Theorem C54_reflection_3d : forall (p : hparams R) g dt ge, hydro_grid3 g ->
  forall junk junk' impl impl' aIn aOut (s s' t t' : store R),
  impl = 0 \/ impl = 1 -> impl' = 0 \/ impl' = 1 -> (impl = 0 /\ impl' = 0) \/ ge = false ->
  arr_ok aIn aOut -> slope_ok p -> params_ok p -> symmetric_solver3 p ->
  run_kernels (godunov3 p g dt ge junk impl aIn aOut) s s' ->
  run_kernels (godunov3 p (grid_mx g) dt ge junk' impl' aIn aOut) t t' ->
  reflected3 g aIn s t -> (ge = true -> gravity_mx3 g s t) ->
  reflected3 g aOut s' t'.
Proof. exact reflect3. Qed.
Print Assumptions C54_reflection_3d.

Definition shear_mx g : store R := fun l =>
  sign_mx (lv l) (if la l =? aG then 0 else 2) (shear (Loc (la l) (mir g (li l)) (lj l) (lk l) (lv l))).
Lemma mir_mir g i : mir g (mir g i) = i. Proof. unfold mir. lia. Qed.
Example C54_hypotheses_hold :
  params_ok (gas RIEMANN_HLLC) /\ symmetric_solver2 (gas RIEMANN_HLLC) /\ symmetric_solver3 (gas RIEMANN_HLLC) /\
  symmetric_solver2 (gas RIEMANN_HLL) /\
  reflected2 channel2 aU shear (shear_mx channel2) /\ gravity_mx2 channel2 shear (shear_mx channel2) /\
  reflected3 channel3 aU shear (shear_mx channel3) /\ gravity_mx3 channel3 shear (shear_mx channel3) /\
  shear (Loc aU 2 2 0 2) <> shear_mx channel2 (Loc aU 2 2 0 2).
Proof.
  unfold params_ok, symmetric_solver2, symmetric_solver3, gas. cbn [riemann_type gamma0 smallr smallp smallc].
  split; [lra|]. split; [auto|]. split; [auto|]. split; [auto|].
  split. { intros i j v _ _. unfold shear_mx. cbn [la li lj lk lv]. rewrite mir_mir. reflexivity. }
  split. { intros i j v _. unfold shear_mx. cbn [la li lj lk lv]. rewrite mir_mir. reflexivity. }
  split. { intros i j k v _ _. unfold shear_mx. cbn [la li lj lk lv]. rewrite mir_mir. reflexivity. }
  split. { intros i j k v _. unfold shear_mx. cbn [la li lj lk lv]. rewrite mir_mir. reflexivity. }
  unfold shear_mx, shear, sign_mx. cbn. lra.
Qed.

(** ** C55: reflecting walls let nothing through *)

(** In a domain closed by walls (or periodic) in each direction, total mass and
    energy are conserved, and so is each momentum along a periodic direction. *)
Theorem C55_closed_domain_2d : forall (p : hparams R) g dt junk impl aIn aOut (s s' : store R) v,
  impl = 0 \/ impl = 1 -> arr_ok aIn aOut -> hydro_grid2 g -> slope_ok p -> params_ok p -> symmetric_solver2 p ->
  closed_dir (kx0 g) (kx1 g) -> closed_dir (ky0 g) (ky1 g) ->
  v = 0 \/ v = 1 \/ (v = 2 /\ periodic_dir (kx0 g) (kx1 g)) \/ (v = 3 /\ periodic_dir (ky0 g) (ky1 g)) ->
  run_kernels (godunov2 p g dt false junk impl aIn aOut) s s' ->
  total2 g s' aOut v = total2 g s aIn v.
Proof. exact closed2. Qed.
Print Assumptions C55_closed_domain_2d.

Theorem C55_closed_domain_3d : forall (p : hparams R) g dt junk impl aIn aOut (s s' : store R) v,
  impl = 0 \/ impl = 1 -> arr_ok aIn aOut -> hydro_grid3 g -> slope_ok p -> params_ok p -> symmetric_solver3 p ->
  closed_dir (kx0 g) (kx1 g) -> closed_dir (ky0 g) (ky1 g) -> closed_dir (kz0 g) (kz1 g) ->
  v = 0 \/ v = 1 \/ (v = 2 /\ periodic_dir (kx0 g) (kx1 g)) \/ (v = 3 /\ periodic_dir (ky0 g) (ky1 g))
    \/ (v = 4 /\ periodic_dir (kz0 g) (kz1 g)) ->
  run_kernels (godunov3 p g dt false junk impl aIn aOut) s s' ->
  total3 g s' aOut v = total3 g s aIn v.
Proof. exact closed3. Qed.
Print Assumptions C55_closed_domain_3d.

Definition box3 : grid := Grid 4 3 5 2 5 (fun f => match f with FACE_XMIN | FACE_XMAX => 3 | _ => 1 end).
Example C55_hypotheses_hold :
  closed_dir (kx0 channel2) (kx1 channel2) /\ closed_dir (ky0 channel2) (ky1 channel2) /\
  periodic_dir (kx0 channel2) (kx1 channel2) /\ ky0 channel2 = Reflecting /\
  hydro_grid3 box3 /\ closed_dir (kx0 box3) (kx1 box3) /\ closed_dir (ky0 box3) (ky1 box3) /\
  closed_dir (kz0 box3) (kz1 box3) /\ kz1 box3 = Reflecting.
Proof.
  unfold closed_dir, periodic_dir, hydro_grid3. cbn. repeat split; auto; try lia.
Qed.

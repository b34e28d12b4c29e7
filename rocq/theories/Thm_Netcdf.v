(** netCDF result files (C85). *)
From Coq Require Import ZArith List Bool String Permutation Lia.
From Verif Require Import Arith Par ParProofs GridModel HydroState HydroPoint RiemannModel HydroKernels CellKernels HydroField HydroExec HydroSpec
  HydroProofs2 HydroStep2 BoundaryModel BoundarySpec HydroConserve LoopModel LoopSpec MpiModel MpiSpec MpiTopo MpiRun IoModel IoSpec IoProofs IoFile IoMpi NetcdfModel NetcdfProofs.
Import ListNotations.
Open Scope Z_scope.

(** A netCDF file holds the field [G] on the box of size [NX] x [NY] ( x [NZ]):
    density, total energy, momenta and magnetic field (as many as the problem
    has), each with these extents and stored x-fastest. *)
Definition nc_variables : list string := ["rho"; "E"; "rho_vx"; "rho_vy"; "rho_vz"; "Bx"; "By"; "Bz"]%string.
Definition nc_holds {T} (b3 : bool) (nv NX NY NZ : Z) (G : Z -> Z -> Z -> Z -> T) (sets : list (string * dataset T)) : Prop :=
  forall n name, nth_error nc_variables n = Some name -> Z.of_nat n < nv ->
    exists ds, find_set sets name = Some ds /\ ds_dims ds = (if b3 then [NZ; NY; NX] else [NY; NX]) /\
      forall i j k, 0 <= i < NX -> 0 <= j < NY -> (if b3 then 0 <= k < NZ else k = 0) ->
        ds_val ds (i + NX * (j + NY * k)) = G i j k (Z.of_nat n).

Lemma nc_name n name : nth_error nc_variables n = Some name -> nc_names (Z.of_nat n) = name.
Proof. do 8 (destruct n as [|n]; [intros H; injection H as <-; reflexivity|]). destruct n; discriminate. Qed.

(** Array in C order: the file is the global array with its ghost cells, as long
    as the parts of the processes agree with it. *)
Theorem C85_global_array : forall (T TT : Type) b3 mhd g tp fill (m : nat -> buf T) junk step (time : TT) o G,
  io_grid b3 mhd g -> io_topo b3 tp ->
  (forall r i j k v, (r < nprocs tp)%nat -> in_array b3 g i j k -> 0 <= v < nbvar g ->
     elem b3 LayoutRight g (m r) i j k v = G (rx tp r * nx g + i) (ry tp r * ny g + j) (rz tp r * nz g + k) v) ->
  save_nc b3 mhd LayoutRight g tp (nbvar g) fill m junk step time o ->
  exists sets, o = NcFile sets step time /\
    nc_holds b3 (nbvar g) (mx tp * nx g + 2 * gw g) (my tp * ny g + 2 * gw g) (mz tp * nz g + 2 * gw g) G sets.
Proof.
  intros T TT b3 mhd g tp fill m junk step time o G Hg Htp HG Hs.
  apply (nc_file (TT := TT) b3 mhd LayoutRight g tp Hg Htp) in Hs as (sets & -> & F). exists sets. split; [reflexivity|].
  intros n name Hn Hv. destruct (F (Z.of_nat n) ltac:(lia)) as (ds & E & D & V). rewrite (nc_name n name Hn) in E.
  exists ds. split; [exact E|]. split; [rewrite D; destruct b3; reflexivity|]. intros X Y Z0 HX HY HZ.
  change (X + _ * (Y + _ * Z0)) with (X + wx g tp * (Y + wy g tp * Z0)).
  rewrite V by (split; [exact HX|split; [exact HY|exact HZ]]).
  pose proof Hg as (Gx & Gy & Gz & Gw & _). pose proof Htp as (Mx & My & Mz & Mz1).
  assert (Htp' : topo_ok tp) by (repeat split; auto).
  destruct (own_cover g (nx g) (mx tp) X Gx Mx Gw HX) as (Qx & I). destruct (own_cover g (ny g) (my tp) Y Gy My Gw HY) as (Qy & J).
  set (qx := own (nx g) (mx tp) X) in *. set (qy := own (ny g) (my tp) Y) in *.
  set (qz := if b3 then own (nz g) (mz tp) Z0 else 0).
  assert (Qz : 0 <= qz < mz tp /\ (if b3 then 0 <= Z0 - qz * nz g < part g (nz g) (mz tp) qz else Z0 - qz * nz g = 0)).
  { unfold qz. destruct b3; [apply own_cover; auto|]. lia. }
  destruct Qz as (Qz & K). destruct (coords_rank_in tp Htp' qx qy qz Qx Qy Qz) as (Ex & Ey & Ez).
  assert (P : forall n0 m0 q, 0 < n0 -> part g n0 m0 q <= n0 + 2 * gw g) by (intros n0 m0 q Hp; unfold part; destruct (q =? m0 - 1); lia).
  unfold nc_val. fold qx qy qz. cbn [moved]. rewrite Ex, Ey, Ez. rewrite HG; [|apply cart_rank_lt; apply Htp'| |lia].
  - rewrite Ex, Ey, Ez. f_equal; [lia|lia|]. destruct b3; lia.
  - pose proof (P _ (mx tp) qx Gx). pose proof (P _ (my tp) qy Gy).
    split; [unfold isize, imax, imin; lia|]. split; [unfold jsize, jmax, jmin; lia|].
    destruct b3; [|reflexivity]. pose proof (P _ (mz tp) qz (Gz eq_refl)). unfold ksize, kmax, kmin. lia.
Qed.
Print Assumptions C85_global_array.

(** Each process contributes its own cells: the ghost cells of low index, and
    those of high index for the last process in a direction. *)
Theorem C85_parts : forall (T TT : Type) b3 mhd g tp fill (m : nat -> buf T) junk step (time : TT) o,
  io_grid b3 mhd g -> io_topo b3 tp ->
  save_nc b3 mhd LayoutRight g tp (nbvar g) fill m junk step time o ->
  exists sets, o = NcFile sets step time /\ forall n name, nth_error nc_variables n = Some name -> Z.of_nat n < nbvar g ->
  exists ds, find_set sets name = Some ds /\
  forall r i j k, (r < nprocs tp)%nat ->
  0 <= i < nx g + (if rx tp r =? mx tp - 1 then 2 * gw g else 0) -> 0 <= j < ny g + (if ry tp r =? my tp - 1 then 2 * gw g else 0) ->
  (if b3 then 0 <= k < nz g + (if rz tp r =? mz tp - 1 then 2 * gw g else 0) else k = 0) ->
  ds_val ds (rx tp r * nx g + i + (mx tp * nx g + 2 * gw g) * (ry tp r * ny g + j + (my tp * ny g + 2 * gw g) * (rz tp r * nz g + k))) =
  elem b3 LayoutRight g (m r) i j k (Z.of_nat n).
Proof.
  intros T TT b3 mhd g tp fill m junk step time o Hg Htp Hs.
  apply (nc_part (TT := TT) b3 mhd LayoutRight g tp Hg Htp) in Hs as (sets & -> & F). exists sets. split; [reflexivity|].
  intros n name Hn Hv. destruct (F (Z.of_nat n) ltac:(lia)) as (ds & E & D & V). rewrite (nc_name n name Hn) in E.
  exists ds. split; [exact E|]. intros r i j k Hr Hi Hj Hk. apply (V r i j k Hr).
  split; [rewrite sx_part; unfold part; destruct (rx tp r =? mx tp - 1); lia|].
  split; [rewrite sy_part; unfold part; destruct (ry tp r =? my tp - 1); lia|].
  destruct b3; [|exact Hk]. rewrite sz_part; unfold part; destruct (rz tp r =? mz tp - 1); lia.
Qed.
Print Assumptions C85_parts.

(** The calls of the library: 2D hydrodynamics gets the file above. *)
Theorem C85_hydro_2d : forall (T TT : Type) g tp fill (m : nat -> buf T) junk step (time : TT) o G,
  io_grid false false g -> io_topo false tp ->
  (forall r i j v, (r < nprocs tp)%nat -> 0 <= i < isize g -> 0 <= j < jsize g -> 0 <= v < 4 ->
     elem false LayoutRight g (m r) i j 0 v = G (rx tp r * nx g + i) (ry tp r * ny g + j) v) ->
  save_data_nc false false LayoutRight g tp fill m junk step time o ->
  exists sets, o = NcFile sets step time /\
    nc_holds false 4 (mx tp * nx g + 2 * gw g) (my tp * ny g + 2 * gw g) 1 (fun i j _ v => G i j v) sets.
Proof.
  intros T TT g tp fill m junk step time o G Hg Htp HG Hs. assert (E4 : nbvar g = 4) by apply Hg.
  unfold save_data_nc in Hs. rewrite <- E4 in Hs.
  apply (C85_global_array T TT false false g tp fill m junk step time o (fun i j _ v => G i j v) Hg Htp) in Hs.
  - destruct Hs as (sets & -> & H). exists sets. split; [reflexivity|]. rewrite E4 in H. exact H.
  - intros r i j k v Hr (Hi & Hj & ->) Hv. apply HG; auto. lia.
Qed.
Print Assumptions C85_hydro_2d.

(** 3D and MHD problems never get a file: the identifiers of the variables are
    stored in an array of four integers. *)
Theorem C85_other_problems_refuted : forall (T TT : Type) b3 mhd ly g tp fill (m : nat -> buf T) junk step (time : TT) o,
  b3 = true \/ mhd = true -> save_data_nc b3 mhd ly g tp fill m junk step time o -> o = NcUndefined.
Proof.
  intros T TT b3 mhd ly g tp fill m junk step time o Hb. unfold save_data_nc, save_nc.
  assert (E : nc_defined b3 mhd 4 = false) by (destruct Hb as [-> | ->]; [destruct mhd|destruct b3]; reflexivity).
  rewrite E. auto.
Qed.
Print Assumptions C85_other_problems_refuted.

(** Array in Fortran order: the values of every part are permuted. *)
Theorem C85_layout_left_refuted : forall (T TT : Type) g tp fill (m : nat -> buf T) junk step (time : TT) o,
  io_grid false false g -> io_topo false tp ->
  save_data_nc false false LayoutLeft g tp fill m junk step time o ->
  exists sets, o = NcFile sets step time /\ forall n name, nth_error nc_variables n = Some name -> Z.of_nat n < 4 ->
  exists ds, find_set sets name = Some ds /\
  forall r i j, (r < nprocs tp)%nat ->
  let wi := nx g + (if rx tp r =? mx tp - 1 then 2 * gw g else 0) in
  let wj := ny g + (if ry tp r =? my tp - 1 then 2 * gw g else 0) in
  0 <= i < wi -> 0 <= j < wj ->
  (* the places of a column after the other hold the cells of a row after the other *)
  forall x y, 0 <= x < wi -> 0 <= y < wj -> y + wj * x = i + wi * j ->
  ds_val ds (rx tp r * nx g + i + (mx tp * nx g + 2 * gw g) * (ry tp r * ny g + j)) = elem false LayoutLeft g (m r) x y 0 (Z.of_nat n).
Proof.
  intros T TT g tp fill m junk step time o Hg Htp Hs. assert (E4 : nbvar g = 4) by apply Hg.
  unfold save_data_nc in Hs. rewrite <- E4 in Hs.
  apply (nc_part (TT := TT) false false LayoutLeft g tp Hg Htp) in Hs as (sets & -> & F). exists sets. split; [reflexivity|].
  intros n name Hn Hv. destruct (F (Z.of_nat n) ltac:(lia)) as (ds & E & D & V). rewrite (nc_name n name Hn) in E.
  exists ds. split; [exact E|]. intros r i j Hr wi wj Hi Hj x y Hx Hy Exy.
  assert (Sx : sx g tp r = wi) by (rewrite sx_part; unfold part, wi; destruct (rx tp r =? mx tp - 1); lia).
  assert (Sy : sy g tp r = wj) by (rewrite sy_part; unfold part, wj; destruct (ry tp r =? my tp - 1); lia).
  assert (Rz : rz tp r = 0).
  { destruct Htp as (A & B & C & E1). assert (Htp' : topo_ok tp) by (repeat split; auto).
    destruct (coords_range tp Htp' r Hr) as (_ & _ & Cz). rewrite E1 in Cz by reflexivity. lia. }
  specialize (V r i j 0 Hr). rewrite Rz in V. rewrite Sx, Sy in V. specialize (V ltac:(split; [lia|split; [lia|reflexivity]])).
  replace (ry tp r * ny g + j + wy g tp * (0 * nz g + 0)) with (ry tp r * ny g + j) in V by lia.
  change (mx tp * nx g + 2 * gw g) with (wx g tp). rewrite V. cbn [moved]. rewrite Sx, Sy.
  replace (i + wi * (j + wj * 0)) with (y + wj * x) by lia. rewrite Z.mul_1_r, Z.div_1_r, Z.mod_1_r.
  replace (y + wj * x) with (x * wj + y) by lia. rewrite Z.div_add_l, Z.div_small by lia.
  rewrite (Z.add_comm (x * wj)), Z.mod_add, Z.mod_small by lia. rewrite Z.add_0_r. reflexivity.
Qed.
Print Assumptions C85_layout_left_refuted.

(** Between the parts of two processes the file of a distributed run holds the
    previous step: a process writes the ghost cells it had before the step, not
    the cells its neighbour has computed. *)
Theorem C85_seams_refuted : forall (T TT : Type) (A : Arith T) g tp p dt ge hjunk impl a b fill (m : nat -> buf T) junk step (time : TT) o (s s' : nat -> store T),
  io_grid false false g -> io_topo false tp -> hydro_grid2 g -> (impl = 0 \/ impl = 1) -> arr_ok a b -> slope_ok p -> riemann_ok2 p ->
  (forall r, (r < nprocs tp)%nat -> run_kernels (deep_copy g (cells2 g) b a :: scheme2 p g dt ge hjunk impl a b) (s r) (s' r)) ->
  (forall r i j v, (r < nprocs tp)%nat -> 0 <= i < isize g -> 0 <= j < jsize g -> 0 <= v < 4 -> elem false LayoutRight g (m r) i j 0 v = s' r (Loc b i j 0 v)) ->
  save_data_nc false false LayoutRight g tp fill m junk step time o ->
  exists sets, o = NcFile sets step time /\ forall n name, nth_error nc_variables n = Some name -> Z.of_nat n < 4 ->
  exists ds, find_set sets name = Some ds /\
  forall r i j, (r < nprocs tp)%nat -> 
  0 <= i < nx g + (if rx tp r =? mx tp - 1 then 2 * gw g else 0) -> 0 <= j < ny g + (if ry tp r =? my tp - 1 then 2 * gw g else 0) ->
  ds_val ds (rx tp r * nx g + i + (mx tp * nx g + 2 * gw g) * (ry tp r * ny g + j)) =
  if interior2 g i j then comp (step2 p dt ge (st2 (s r) a) (gr2 (s r)) i j) (Z.of_nat n) else s r (Loc a i j 0 (Z.of_nat n)).
Proof.
  intros T TT A g tp p dt ge hjunk impl a b fill m junk step time o s s' Hg Htp Hh Himpl Ha Hsl Hri Hrun Hm Hs.
  assert (E4 : nbvar g = 4) by apply Hg. unfold save_data_nc in Hs. rewrite <- E4 in Hs.
  apply (C85_parts T TT false false g tp) in Hs as (sets & -> & F); auto. exists sets. split; [reflexivity|].
  intros n name Hn Hv. destruct (F n name Hn ltac:(lia)) as (ds & E & V). exists ds. split; [exact E|].
  intros r i j Hr Hi Hj. specialize (V r i j 0 Hr Hi Hj eq_refl).
  assert (Rz : rz tp r = 0).
  { destruct Htp as (A1 & B & C & E1). assert (Htp' : topo_ok tp) by (repeat split; auto).
    destruct (coords_range tp Htp' r Hr) as (_ & _ & Cz). rewrite E1 in Cz by reflexivity. lia. }
  rewrite Rz in V. replace (ry tp r * ny g + j + (my tp * ny g + 2 * gw g) * (0 * nz g + 0)) with (ry tp r * ny g + j) in V by lia.
  rewrite V. pose proof Hg as (_ & _ & _ & Gw & _).
  assert (Bi : 0 <= i < isize g) by (unfold isize, imax, imin; destruct (rx tp r =? mx tp - 1); lia).
  assert (Bj : 0 <= j < jsize g) by (unfold jsize, jmax, jmin; destruct (ry tp r =? my tp - 1); lia).
  rewrite Hm by (auto; lia). specialize (Hrun r Hr).
  destruct (interior2 g i j) eqn:Ei.
  - apply scheme_after_fill2 in Hrun as (S1 & _); auto. rewrite <- S1 by (apply interior2_inside; exact Ei).
    assert (Cn : Z.of_nat n = 0 \/ Z.of_nat n = 1 \/ Z.of_nat n = 2 \/ Z.of_nat n = 3) by lia.
    destruct Cn as [-> | [-> | [-> | ->]]]; reflexivity.
  - apply rk_inv in Hrun as (s2 & Hc & Hk). pose proof Hh as (G1 & G2 & G3 & G4).
    assert (Hne : b <> a) by (clear - Ha; arrays; lia).
    destruct (deep_copy_spec g (cells2 g) b a (s r) s2 (NoDup_cells2 g) Hne Hc) as [D1 D2].
    assert (Hg2 : 2 <= gw g) by (clear - G1; lia).
    destruct (scheme2_spec p g dt ge hjunk impl a b s2 (s' r) Himpl Ha Hg2 (slope_ok_spec p Hsl) (riemann_ok2_spec p Hri) Hk) as (_ & S2 & _).
    rewrite S2 by exact Ei. apply D1; [apply in2; lia|lia].
Qed.
Print Assumptions C85_seams_refuted.

(** Saving has an outcome whatever the arrays hold. *)
Theorem C85_completes : forall (T TT : Type) b3 mhd ly g tp fill (m : nat -> buf T) junk step (time : TT),
  exists o, save_data_nc b3 mhd ly g tp fill m junk step time o.
Proof.
  intros. unfold save_data_nc, save_nc. destruct (nc_defined b3 mhd 4); [|eauto].
  pose (wr := fun v => map (fun r => write_list (H5Dcreate fill (nc_space b3 g tp r)) (nc_memory b3 g tp r) (nc_space b3 g tp r)
     (nc_buffer b3 ly g tp (m r) (junk r v) r v)) (List.seq 0 (nprocs tp))).
  pose (ds := fun v => DS (ds_dims (H5Dcreate fill (nc_space b3 g tp 0))) (assign (ds_val (H5Dcreate fill (nc_space b3 g tp 0))) (List.concat (wr v)))).
  eexists. exists (map (fun v => (nc_names v, ds v)) (nc_fields b3 mhd)). split; [reflexivity|]. split; [rewrite map_map; reflexivity|].
  intros n v nd Hn Hnd. rewrite nth_error_map, Hn in Hnd. cbn in Hnd. injection Hnd as <-.
  exists (List.concat (wr v)). split; [apply Permutation_refl|reflexivity].
Qed.
Print Assumptions C85_completes.

(** Two processes in x, three in y; the value of a cell is its global position. *)
Definition nc_grid : grid := Grid 4 5 1 2 4 (fun _ => 3).
Definition nc_topo : topo := Topo 2 3 1.
Definition nc_field (i j v : Z) : Z := i + 100 * j + 10000 * v.
Definition nc_mem (r : nat) : buf Z := fun n =>
  nc_field (rx nc_topo r * 4 + n / 4 / 9) (ry nc_topo r * 5 + (n / 4) mod 9) (n mod 4).
Example C85_example : io_grid false false nc_grid /\ io_topo false nc_topo /\
  (forall r i j v, (r < nprocs nc_topo)%nat -> 0 <= i < isize nc_grid -> 0 <= j < jsize nc_grid -> 0 <= v < 4 ->
     elem false LayoutRight nc_grid (nc_mem r) i j 0 v = nc_field (rx nc_topo r * nx nc_grid + i) (ry nc_topo r * ny nc_grid + j) v) /\
  exists o, save_data_nc false false LayoutRight nc_grid nc_topo 0 nc_mem (fun _ _ _ => 0) 3 7 o.
Proof.
  split; [repeat split; cbn; lia|]. split; [repeat split; cbn; lia|]. split; [|apply C85_completes].
  intros r i j v Hr Hi Hj Hv. unfold elem, voff, nc_mem. change (jsize nc_grid) with 9 in *. change (nbvar nc_grid) with 4. change (nx nc_grid) with 4. change (ny nc_grid) with 5.
  rewrite Z.div_add_l, (Z.div_small v 4) by lia. rewrite Z.add_0_r, Z.div_add_l, (Z.div_small j 9) by lia.
  rewrite (Z.add_comm (i * 9)), Z.mod_add, (Z.mod_small j 9) by lia. rewrite (Z.add_comm ((j + i * 9) * 4)), Z.mod_add, (Z.mod_small v 4) by lia.
  rewrite Z.add_0_r. reflexivity.
Qed.
(** The arrays of a run on a device that stores them in Fortran order: the file
    holds cell (0, 1) of a process at place (1, 0) of its part. *)
Example C85_layout_left_example : forall o, save_data_nc false false LayoutLeft nc_grid nc_topo 0 (fun _ n => n) (fun _ _ _ => 0) 3 7 o ->
  exists sets ds, o = NcFile sets 3 7 /\ find_set sets "rho"%string = Some ds /\ ds_val ds 1 = 8 /\ elem false LayoutLeft nc_grid (fun n => n) 1 0 0 0 = 1.
Proof.
  intros o H. apply C85_layout_left_refuted in H as (sets & -> & F); [|repeat split; cbn; lia|repeat split; cbn; lia].
  destruct (F 0%nat "rho"%string eq_refl ltac:(lia)) as (ds & E & V). exists sets, ds. split; [reflexivity|]. split; [exact E|].
  split; [|reflexivity]. specialize (V 0%nat 1 0 ltac:(cbn; lia)). cbn in V. rewrite (V ltac:(lia) ltac:(lia) 0 1) by lia. reflexivity.
Qed.
(** Place (4, 2) of the file lies at the left edge of process 3: it is
    an interior cell of the domain and a ghost cell of that process. *)
Example C85_seams_example : (3 < nprocs nc_topo)%nat /\ rx nc_topo 3 = 1 /\ ry nc_topo 3 = 0 /\ 2 * 4 + 2 * 2 = 12 /\
  inside2 (MpiSpec.whole nc_topo nc_grid) 4 2 /\ interior2 nc_grid 0 2 = false /\ hydro_grid2 nc_grid /\ arr_ok aU aU2.
Proof.
  split; [cbn; lia|]. split; [reflexivity|]. split; [reflexivity|]. split; [reflexivity|]. split; [repeat split; cbn; lia|].
  split; [reflexivity|]. split; [repeat split; cbn; lia|]. left. split; reflexivity.
Qed.

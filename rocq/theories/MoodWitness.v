(** Concrete IEEE double precision runs of the MOOD solver, evaluated inside Coq. *)
From Coq Require Import ZArith List Bool Lia Floats.SpecFloat.
From Verif Require Import Arith SpecF Par ParProofs GridModel BoundaryModel BoundarySpec BoundaryProofs
  HydroState RiemannModel HydroPoint HydroKernels HydroSpec HydroField CellKernels
  MoodPoly MoodKernels MoodProofs MoodStage MoodSpec MoodRun.
Import ListNotations.
Open Scope Z_scope.
Local Notation f n d := (@lit _ F64 n d).

(** Degree 1, five-point stencil, unit cells: the pseudo-inverse takes centred differences. *)
Definition pi2 (i j : nat) : spec_float :=
  match i, j with
  | 0%nat, 0%nat => f 1 2 | 0%nat, 2%nat => f (-1) 2
  | 1%nat, 1%nat => f 1 2 | 1%nat, 3%nat => f (-1) 2
  | _, _ => f 0 1 end.
Definition mood2 : mcfg spec_float := config S2_1 [[0;0]; [1;0]; [0;1]] pi2.
(** The same in 3D; the y coefficients are divided by [dy = h]. *)
Definition pi3 (h : positive) (i j : nat) : spec_float :=
  match i, j with
  | 0%nat, 0%nat => f 1 2 | 0%nat, 2%nat => f (-1) 2
  | 1%nat, 1%nat => f 1 (2 * h) | 1%nat, 3%nat => f (-1) (2 * h)
  | 2%nat, 4%nat => f 1 2 | 2%nat, 5%nat => f (-1) 2
  | _, _ => f 0 1 end.
Definition mood3 (h : positive) : mcfg spec_float := config S3_1 [[0;0;0]; [1;0;0]; [0;1;0]; [0;0;1]] (pi3 h).
(** gamma = 3/2, floors 1e-5, dx = dz = 1, dy = h, Lax-Friedrichs. *)
Definition wpar (h : positive) : hparams spec_float :=
  HParams _ (f 3 2) (f 1 1) (f 1 100000) (f 1 100000) (f 1 100000) (f 1 100000) (f 1 1) (f 4 5) (f 1 1) (f (Z.pos h) 1) (f 1 1) RIEMANN_LLF.
(** Conservative state with density [r], pressure [pr] and velocity [u] along x. *)
Definition gas (r pr u : spec_float) (v : Z) : spec_float :=
  if v =? ID then r else if v =? IU then @mul _ F64 r u
  else if v =? IP then @add _ F64 (@mul _ F64 (f 2 1) pr) (@mul _ F64 (f 1 2) (@mul _ F64 (@mul _ F64 r u) u))
  else f 0 1.
(** A store with state [st] in array U and zeros everywhere else. *)
Definition wstore (st : Z -> Z -> Z -> Z -> spec_float) : store spec_float :=
  fun l => if la l =? aU then st (li l) (lj l) (lk l) (lv l) else f 0 1.
Definition wjunk : cell -> Z -> hs spec_float := fun _ _ => HS (f 0 1) (f 0 1) (f 0 1) (f 0 1) (f 0 1).
Definition wjunkR : cell -> Z -> nat -> spec_float := fun _ _ _ => f 0 1.

Lemma mood2_ok n bcs : 2 <= n -> mood_ok mood2 (Grid n 2 1 2 4 bcs).
Proof.
  intros Hn. split; [discriminate|split; [reflexivity|split; [|split; [reflexivity|]]]].
  - unfold grid_ok2d; cbn. lia.
  - intros x y z. cbn. intros H. repeat (destruct H as [H|H]; [injection H as <- <- <-; lia|]). destruct H.
Qed.
Lemma mood3_ok h n bcs : 2 <= n -> mood_ok (mood3 h) (Grid n n n 2 5 bcs).
Proof.
  intros Hn. split; [discriminate|split; [reflexivity|split; [|split; [reflexivity|]]]].
  - unfold grid_ok3d, grid_ok2d; cbn. lia.
  - intros x y z. cbn. intros H. repeat (destruct H as [H|H]; [injection H as <- <- <-; lia|]). destruct H.
Qed.

(** One forward Euler step from [s]: the new state of a cell, the flag, a stored flux. *)
Section Eval.
Variable m : mcfg spec_float.
Variable g : grid.
Variable p : hparams spec_float.
Variable dt : spec_float.
Variable s : store spec_float.
Definition wV := fillF (A := F64) m g (fv s aU).
Definition wflux dir c := stageF (A := F64) m g p dt wjunk wjunkR (polyS m s) wV dir c.
Definition wflag c := stageFlag (A := F64) m g p dt wjunk wjunkR (polyS m s) wV c.
Definition wnew c : hs spec_float :=
  let fs := facesF m wflux c in
  let u := stF (A := F64) (d3 m) wV c in
  wn (A := F64) (d3 m) (each (fun sel => add_faces (A := F64) sel fs (sel u))).

Definition wrun := time_integration (A := F64) m p g dt wjunk wjunkR FE aU aU2.
Definition wend := fold_left (fun s ps => seq_exec ps s) wrun s.
Lemma wend_run : run_kernels wrun s wend.
Proof. apply run_kernels_seq. Qed.
Lemma wend_spec : mood_ok m g ->
  (forall c, interior m g c = true -> (d3 m = false -> coord c IZ = 0) -> stF (A := F64) (d3 m) (fv wend aU2) c = wnew c) /\
  (forall dir c, In dir (dirs (d3 m)) -> In c (cellsD (d3 m) g) -> face_guard m g dir c = true ->
     fluxS (A := F64) m wend dir c = wflux dir c) /\
  (forall c, In c (cellsD (d3 m) g) -> wend (at_cell aFlags c 0) = wflag c).
Proof.
  intros Hm.
  assert (N : stateA aU /\ stateA aU2 /\ aU <> aU2) by (ma; lia). destruct N as (N1 & N2 & N3).
  destruct (step_fe_spec (A := F64) m g p dt wjunk wjunkR aU aU2 s wend Hm N1 N2 N3 wend_run) as (K1 & _ & _ & _ & _ & K6 & K7).
  split; [|split].
  - intros c Hi Hz. rewrite K1 by auto. reflexivity.
  - exact K6.
  - exact K7.
Qed.

Lemma witness : mood_ok m g -> exists s', run_kernels wrun s s' /\
  (forall i j k, interior m g (i, j, k) = true -> (d3 m = false -> k = 0) ->
     s' (Loc aU2 i j k ID) = hD (wnew (i, j, k)) /\ s' (Loc aU2 i j k IP) = hP (wnew (i, j, k))) /\
  (forall dir i j k, In dir (dirs (d3 m)) -> In (i, j, k) (cellsD (d3 m) g) -> face_guard m g dir (i, j, k) = true ->
     s' (Loc (aFlux dir) i j k ID) = hD (wflux dir (i, j, k))) /\
  (forall i j k, In (i, j, k) (cellsD (d3 m) g) -> s' (Loc aFlags i j k 0) = wflag (i, j, k)).
Proof.
  intros Hm. exists wend. split; [apply wend_run|]. destruct (wend_spec Hm) as (K1 & K2 & K3). split; [|split].
  - intros i j k Hi Hz. specialize (K1 (i, j, k) Hi Hz). split; rewrite <- K1; reflexivity.
  - intros dir i j k Hd Hc Hf. rewrite <- (K2 dir (i, j, k) Hd Hc Hf). reflexivity.
  - intros i j k Hc. apply (K3 (i, j, k) Hc).
Qed.
End Eval.

(** ** Data *)
(** Densities 1/4, 9, 4, 1 moving at speed 16 through a periodic domain. *)
Definition grid4 : grid := Grid 4 2 1 2 4 (fun _ => 3).
Definition stream (i j k v : Z) : spec_float :=
  gas (if i =? 2 then f 1 4 else if i =? 3 then f 9 1 else if i =? 4 then f 4 1 else f 1 1) (f 1 1) (f 16 1) v.
Definition dt36 : spec_float := f 1 36.
Lemma stream_faces :
  @ltb _ F64 (f 1 50) (@sub _ F64 (hD (wflux mood2 grid4 (wpar 1) dt36 (wstore stream) IX (6, 2, 0)))
                                  (hD (wflux mood2 grid4 (wpar 1) dt36 (wstore stream) IX (2, 2, 0)))) = true.
Proof. vm_cast_no_check (eq_refl true). Qed.
Lemma stream_flag : wflag mood2 grid4 (wpar 1) dt36 (wstore stream) (2, 2, 0) = f 1 1.
Proof. vm_cast_no_check (eq_refl (f 1 1)). Qed.
Lemma stream_new : @ltb _ F64 (hD (wnew mood2 grid4 (wpar 1) dt36 (wstore stream) (2, 2, 0))) (f (-1) 10) = true.
Proof. vm_cast_no_check (eq_refl true). Qed.

(** Three states (density, pressure, velocity): (1, 1/64, 8), (1, 1/16, 1), (4, 1/16, -4). *)
Definition grid3 : grid := Grid 3 2 1 2 4 (fun _ => 3).
Definition clash (i j k v : Z) : spec_float :=
  if i =? 2 then gas (f 1 1) (f 1 64) (f 8 1) v
  else if i =? 3 then gas (f 1 1) (f 1 16) (f 1 1) v
  else gas (f 4 1) (f 1 16) (f (-4) 1) v.
Definition dt11 : spec_float := f 1 11.
Lemma clash_flag : wflag mood2 grid3 (wpar 1) dt11 (wstore clash) (2, 2, 0) = f 0 1.
Proof. vm_cast_no_check (eq_refl (f 0 1)). Qed.
Lemma clash_new : (let q := wnew mood2 grid3 (wpar 1) dt11 (wstore clash) (2, 2, 0) in
  @ltb _ F64 (f 1 5) (hD q) && @ltb _ F64 (hP q) (f (-1000) 1)) = true.
Proof. vm_cast_no_check (eq_refl true). Qed.

(** 3D: uniform gas at rest. *)
Definition cube2 : grid := Grid 2 2 2 2 5 (fun _ => 3).
Definition rest (i j k v : Z) : spec_float := gas (f 1 1) (f 1 1) (f 0 1) v.
Definition dt10 : spec_float := f 1 10.
Lemma rest_new : @ltb _ F64 (hD (wnew (mood3 1) cube2 (wpar 1) dt10 (wstore rest) (2, 2, 2))) (f 9 10) = true.
Proof. vm_cast_no_check (eq_refl true). Qed.

(** 3D: a layer of density 2 at k = 3; the flux through a z face for two cell heights [dy]. *)
Definition cube3 : grid := Grid 3 3 3 2 5 (fun _ => 3).
Definition layer (i j k v : Z) : spec_float := gas (if k =? 3 then f 2 1 else f 1 1) (f 1 1) (f 0 1) v.
Lemma layer_flux :
  hD (wflux (mood3 1) cube3 (wpar 1) dt10 (wstore layer) IZ (3, 3, 3)) =
  @mul _ F64 (f 2 1) (hD (wflux (mood3 2) cube3 (wpar 2) dt10 (wstore layer) IZ (3, 3, 3))) /\
  @ltb _ F64 (hD (wflux (mood3 1) cube3 (wpar 1) dt10 (wstore layer) IZ (3, 3, 3))) (f (-1) 100) = true.
Proof. vm_compute. split; reflexivity. Qed.

(** The low-memory variant of the 2D MHD step (variant 2): what its loops compute,
    and that in exact arithmetic the step is that of variant 0. *)
From Coq Require Import ZArith List Bool Lia Reals Lra.
From Verif Require Import Arith Par ParProofs GridModel BoundaryModel BoundarySpec BoundaryProofs
  HydroState HydroKernels CellKernels HydroExec HydroSpec HydroProofs2 HydroStep2
  MhdState MhdRiemann MhdPoint MhdKernels2 MhdSpec MhdExec MhdField2 MhdProofs2 Atomic MhdAtomic2 MhdStep2.
Import ListNotations.
Open Scope Z_scope.
Open Scope prog_scope.

Section L2.
Context {T : Type} {AT : Arith T}.
Notation store := (store T).
Variable p : mparams T.
Variable g : grid.
Variable dt : T.
Variable junk : Z * Z * Z -> Z -> ms T.
Local Notation h := (mh p).
Local Notation Dx := (dtdx h dt).
Local Notation Dy := (dtdy h dt).

Lemma mst_wrA (s : store) a i j k x : mst (upd s (Loc a i j k IA) x) a i j k = with_A (mst s a i j k) x.
Proof. unfold mst. rewrite !upd_eq. reflexivity. Qed.
Lemma mst_wrB (s : store) a i j k x : mst (upd s (Loc a i j k IB) x) a i j k = with_B (mst s a i j k) x.
Proof. unfold mst. rewrite !upd_eq. reflexivity. Qed.
Lemma mst_upd_other (s : store) l x a i j k : la l <> a -> mst (upd s l x) a i j k = mst s a i j k.
Proof. intros H. apply mst_frame. intros l' Hl. apply upd_other. intros E. subst. congruence. Qed.

Lemma exec_wr_end l v (s : store) : exec (wr l v) s = upd s l v.
Proof. reflexivity. Qed.

(** The quantities computed by the loops of variant 2. *)
Section Fields.
Variables Q U : Z -> Z -> ms T.
Definition lowSX i j := slope_mhd p (Q i j) (Q (i + 1) j) (Q (i - 1) j) (junk (i, j, 0) 0).
Definition lowX i j := with_A (lowSX i j) (mA (U (i + 1) j) - mA (U i j))%A.
Definition lowY i j := with_B (slope_mhd p (Q i j) (Q i (j + 1)) (Q i (j - 1)) (lowSX i j)) (mB (U i (j + 1)) - mB (U i j))%A.
Definition lowEz i j :=
  elec_z (Q (i - 1) (j - 1)) (Q (i - 1) j) (Q i (j - 1)) (Q i j) (mA (U i (j - 1))) (mA (U i j)) (mB (U (i - 1) j)) (mB (U i j)).
Definition lowSA i j := ((lowEz i (j + 1) - lowEz i j) * half * Dy)%A.
Definition lowSB i j := (- (lowEz (i + 1) j - lowEz i j) * half * Dx)%A.
Definition lowQ2 i j := primvar2 p (Q i j) (lowX i j) (lowY i j)
   (mA (U (i + 1) j) - mA (U i j))%A (mB (U i (j + 1)) - mB (U i j))%A Dx Dy.
End Fields.
Section Fluxes.
Variables SX SY Q2 U : Z -> Z -> ms T.
Variables SA SB : Z -> Z -> T.
Definition lowfX i j :=
  let qR := with_A (face_minus p (Q2 i j) (SX i j)) (mA (U i j) + SA i j)%A in
  let qL := with_A (face_plus p (Q2 (i - 1) j) (SX (i - 1) j)) (mA qR) in
  riemann_mhd p qL qR (junk (i, j, 0) 2).
Definition lowfY i j :=
  let qR := with_B (face_minus p (Q2 i j) (SY i j)) (mB (U i j) + SB i j)%A in
  let qL := with_B (face_plus p (Q2 i (j - 1)) (SY i (j - 1))) (mB qR) in
  riemann_mhd p (mswapY qL) (mswapY qR) (junk (i, j, 0) 2).
Definition lowR i0 j0 ia ja ib jb sx sy sa sb :=
  recon2 p sx sy sa sb (Q2 i0 j0) (SX i0 j0) (SY i0 j0)
    (mA (U ia ja) + SA ia ja)%A (limit1 (slope_type h) (mA (U ia ja)) (mA (U ia (ja + 1))) (mA (U ia (ja - 1))))
    (mB (U ib jb) + SB ib jb)%A (limit1 (slope_type h) (mB (U ib jb)) (mB (U (ib + 1) jb)) (mB (U (ib - 1) jb))).
Definition lowE i j :=
  compute_emf p EMFZ
    (lowR (i - 1) (j - 1) (i - 1 + 1) (j - 1) (i - 1) (j - 1 + 1) true true true true)
    (lowR (i - 1) j (i - 1 + 1) j (i - 1) j true false false true)
    (lowR i (j - 1) i (j - 1) i (j - 1 + 1) false true true false)
    (lowR i j i j i j false false false false).
End Fluxes.

Lemma mslopes2_spec aIn aOut (s s' : store) : arr_ok aIn aOut -> par_exec s (mslopes2 p g junk aIn) s' ->
  (forall i j, 1 <= i < isize g - 1 -> 1 <= j < jsize g - 1 ->
     m2 s' aSx i j = lowX (m2 s aQ) (m2 s aIn) i j /\ m2 s' aSy i j = lowY (m2 s aQ) (m2 s aIn) i j) /\
  (forall l, ~ In (la l) [aSx; aSy] -> s' l = s l).
Proof. clear dt.
  intros Ha Hex. unfold mslopes2 in Hex. cells_ok [aSx; aSy].
  { clear Hex. cells2_intro. nums. unfold cellprog. macc; mfp. }
  split.
  - intros i j Hi Hj.
    assert (Ni : aSx <> aIn /\ aSy <> aIn) by (clear - Ha; marrays; lia). destruct Ni as [Nx Ny].
    unfold m2 at 1 4.
    rewrite (mst_cellwise _ _ _ s s' aSx i j 0 (NoDup_cells2 g) Hok Hex) by (cbn; auto; apply in2; lia).
    rewrite (mst_cellwise _ _ _ s s' aSy i j 0 (NoDup_cells2 g) Hok Hex) by (cbn; auto; apply in2; lia).
    cbn beta iota. rewrite !when_true.
    2:{ rewrite !andb_true_iff, !Z.leb_le, !Z.ltb_lt. lia. }
    rewrite !exec_mload, !exec_mput, !exec_rd, !exec_wr, !exec_mload, !exec_mput, !exec_rd.
    rewrite !exec_wr_end.
    repeat first [rewrite mst_wrB | rewrite mst_mput_same | rewrite mst_mput_other by (left; discriminate)
      | rewrite mst_wrA | rewrite mst_upd_other by (cbn [la]; discriminate)
      | rewrite upd_other by (apply loc_neq_a; congruence) | rewrite mput_other by (left; cbn [la]; congruence)].
    split; reflexivity.
  - intros l Hl. eapply cellwise_other; eauto using NoDup_cells2.
Qed.

Lemma mprimvar2_spec aIn aOut (s s' : store) : arr_ok aIn aOut -> 2 <= gw g -> par_exec s (mprimvar2 p g dt aIn) s' ->
  (forall i j, gw g - 2 <= i <= isize g - gw g -> gw g - 2 <= j <= jsize g - gw g ->
     m2 s' aQ2 i j = primvar2 p (m2 s aQ i j) (m2 s aSx i j) (m2 s aSy i j)
       (mA (m2 s aIn (i + 1) j) - mA (m2 s aIn i j))%A (mB (m2 s aIn i (j + 1)) - mB (m2 s aIn i j))%A Dx Dy) /\
  (forall l, la l <> aQ2 -> s' l = s l).
Proof. clear junk.
  intros Ha Hg Hex. unfold mprimvar2 in Hex. cells_ok [aQ2].
  { clear Hex. cells2_intro. nums. unfold cellprog. macc; mfp. }
  split.
  - intros i j Hi Hj. unfold m2 at 1.
    rewrite (mst_cellwise _ _ _ s s' aQ2 i j 0 (NoDup_cells2 g) Hok Hex) by (cbn; auto; apply in2; lia).
    cbn beta iota. rewrite !when_true by (apply trace_range2_spec; lia).
    rewrite !exec_mload, !exec_rd, mst_mput_same. reflexivity.
  - intros l Hl. eapply cellwise_other; eauto using NoDup_cells2. cbn. intuition.
Qed.

Lemma melec2_spec aIn aOut (s s' : store) : arr_ok aIn aOut -> par_exec s (melec2 g aIn) s' ->
  (forall i j, 0 < i < isize g -> 0 < j < jsize g -> s' (Loc aEl i j 0 0) = lowEz (m2 s aQ) (m2 s aIn) i j) /\
  (forall l, la l <> aEl -> s' l = s l).
Proof. clear junk dt p.
  intros Ha Hex. unfold melec2 in Hex. cells_ok [aEl].
  { clear Hex. cells2_intro. nums. unfold cellprog. macc; mfp. }
  split.
  - intros i j Hi Hj.
    rewrite (val_cellwise _ _ _ s s' aEl i j 0 0 (NoDup_cells2 g) Hok Hex) by (cbn; auto; apply in2; lia).
    cbn beta iota. rewrite when_true.
    2:{ rewrite !andb_true_iff, !Z.ltb_lt. lia. }
    rewrite !exec_mload, !exec_rd. unfold exec; cbn [run wr snd]. rewrite upd_same. reflexivity.
  - intros l Hl. eapply cellwise_other; eauto using NoDup_cells2. cbn. intuition.
Qed.

Lemma msface2_spec (s s' : store) : par_exec s (msface2 p g dt) s' ->
  (forall i j, 0 < i < isize g - 1 -> 0 < j < jsize g - 1 ->
     s' (Loc aSf i j 0 IX) = ((s (Loc aEl i (j + 1) 0 0) - s (Loc aEl i j 0 0)) * half * Dy)%A /\
     s' (Loc aSf i j 0 IY) = (- (s (Loc aEl (i + 1) j 0 0) - s (Loc aEl i j 0 0)) * half * Dx)%A) /\
  (forall l, la l <> aSf -> s' l = s l).
Proof. clear junk.
  intros Hex. unfold msface2 in Hex. cells_ok [aSf].
  { clear Hex. cells2_intro. unfold cellprog. macc; mfp. }
  split.
  - intros i j Hi Hj.
    rewrite !(val_cellwise _ _ _ s s' aSf i j 0 _ (NoDup_cells2 g) Hok Hex) by (cbn; auto; apply in2; lia).
    cbn beta iota. rewrite !when_true.
    2:{ rewrite !andb_true_iff, !Z.ltb_lt. lia. }
    rewrite !exec_rd, exec_wr, !exec_rd.
    unfold exec; cbn [run wr snd]. rewrite !upd_eq. split; [reflexivity|].
    rewrite !upd_other by (apply loc_neq_a; discriminate). reflexivity.
  - intros l Hl. eapply cellwise_other; eauto using NoDup_cells2. cbn. intuition.
Qed.
End L2.

Section Core.
Context {T : Type} {AT : Arith T}.
Variable p : mparams T.
Variable dt : T.
Variable junk : Z * Z * Z -> Z -> ms T.
Variables Q U : Z -> Z -> ms T.
Local Notation h := (mh p).
Local Notation Dx := (dtdx h dt).
Local Notation Dy := (dtdy h dt).

Ltac znorm := repeat match goal with
  | |- context [?i + 0] => replace (i + 0) with i by lia
  | |- context [?i + 1 - 1] => replace (i + 1 - 1) with i by lia
  | |- context [?i - 1 + 1] => replace (i - 1 + 1) with i by lia
  | |- context [?i + -1] => replace (i + -1) with (i - 1) by lia
  end.

Lemma trace2f_core i j : trace2f p dt junk Q U i j =
  trace2_core p (Q i j)
    (slope_mhd p (Q i j) (Q (i + 1) j) (Q (i - 1) j) (junk (i, j, 0) 0))
    (slope_mhd p (Q i j) (Q i (j + 1)) (Q i (j - 1)) (junk (i, j, 0) 1))
    (lowEz Q U i j) (lowEz Q U i (j + 1)) (lowEz Q U (i + 1) j) (lowEz Q U (i + 1) (j + 1))
    (mA (U i j)) (mA (U (i + 1) j)) (mB (U i j)) (mB (U i (j + 1)))
    (half * limit1 (slope_type h) (mA (U i j)) (mA (U i (j + 1))) (mA (U i (j - 1))))%A
    (half * limit1 (slope_type h) (mA (U (i + 1) j)) (mA (U (i + 1) (j + 1))) (mA (U (i + 1) (j - 1))))%A
    (half * limit1 (slope_type h) (mB (U i j)) (mB (U (i + 1) j)) (mB (U (i - 1) j)))%A
    (half * limit1 (slope_type h) (mB (U i (j + 1))) (mB (U (i + 1) (j + 1))) (mB (U (i - 1) (j + 1))))%A
    Dx Dy.
Proof.
  unfold trace2f, trace_unsplit_mhd_2d, lowEz. cbv zeta. unfold bX, bY, bfs. cbn [fst snd]. znorm. reflexivity.
Qed.
End Core.

Section RL2.
Variable p : mparams R.
Variable g : grid.
Variable dt : R.
Variable junk : Z * Z * Z -> Z -> ms R.
Local Notation h := (mh p).
Local Notation Dx := (dtdx h dt).
Local Notation Dy := (dtdy h dt).

Section Eq.
Variables Q U : Z -> Z -> ms R.
Hypothesis Hs : slope12 p = true.

Lemma slope_any q qp qm j1 j2 : slope_mhd p q qp qm j1 = slope_mhd p q qp qm j2.
Proof. unfold slope_mhd. rewrite Hs. reflexivity. Qed.

Definition hX i j := slope_mhd p (Q i j) (Q (i + 1) j) (Q (i - 1) j) (junk (i, j, 0) 0).
Definition hY i j := slope_mhd p (Q i j) (Q i (j + 1)) (Q i (j - 1)) (junk (i, j, 0) 1).

(** Half-step state: the predictor is linear in the slopes. *)
Lemma half_step q (dX dY : ms R) a b x y :
  primvar2 p q (with_A dX a) (with_B dY b) x y Dx Dy =
  ms_map2 add q (source2 p q (ms_map (fun x => mul x half) dX) (ms_map (fun x => mul x half) dY)
    (half * x)%A (half * y)%A Dx Dy).
Proof.
  unfold primvar2, source2, ms_map2, ms_map, with_A, with_B. destruct q, dX, dY; cbn.
  f_equal; unfold Rdiv; ring.
Qed.

Lemma lowX_eq i j : lowX p junk Q U i j = with_A (hX i j) (mA (U (i + 1) j) - mA (U i j))%R.
Proof. reflexivity. Qed.
Lemma lowY_eq i j : lowY p junk Q U i j = with_B (hY i j) (mB (U i (j + 1)) - mB (U i j))%R.
Proof. unfold lowY, hY. f_equal. apply slope_any. Qed.

Section OneCell.
Variables (q dX dY : ms R) (a b ELL ELR ERL ERR AL AR BL BR lAL lAR lBL lBR : R).
Local Open Scope R_scope.
Let tc := trace2_core p q dX dY ELL ELR ERL ERR AL AR BL BR (half * lAL)%A (half * lAR)%A (half * lBL)%A (half * lBR)%A Dx Dy.
Let q2 := primvar2 p q (with_A dX a) (with_B dY b) (AR - AL)%A (BR - BL)%A Dx Dy.

Lemma with_A_floors e x : with_A (floors p e) x = floors p (with_A e x).
Proof. reflexivity. Qed.
Lemma with_B_floors e x : with_B (floors p e) x = floors p (with_B e x).
Proof. reflexivity. Qed.

Ltac cell := unfold q2; rewrite half_step;
  unfold tc, trace2_core; cbv zeta; cbn [t_mx t_px t_my t_py t_RT t_RB t_LT t_LB];
  match goal with |- context [source2 p q ?x ?y ?z ?t Dx Dy] =>
    generalize (source2 p q x y z t Dx Dy); intros sr end;
  unfold face_minus, face_plus, recon2; cbv zeta; rewrite ?with_A_floors, ?with_B_floors; f_equal.
Ltac fin := destruct q, dX, dY; unfold ms_map2, ms_map, with_A, with_B, sgn1; cbn; f_equal; lra.

Lemma core_px : t_px tc = with_A (face_minus p q2 (with_A dX a)) (AL + (ELR - ELL) * half * Dy)%A.
Proof. cell. fin. Qed.
Lemma core_mx : t_mx tc = with_A (face_plus p q2 (with_A dX a)) (AR + (ERR - ERL) * half * Dy)%A.
Proof. cell. fin. Qed.
Lemma core_py : t_py tc = with_B (face_minus p q2 (with_B dY b)) (BL + - (ERL - ELL) * half * Dx)%A.
Proof. cell. fin. Qed.
Lemma core_my : t_my tc = with_B (face_plus p q2 (with_B dY b)) (BR + - (ERR - ELR) * half * Dx)%A.
Proof. cell. fin. Qed.
Lemma core_RT : t_RT tc = recon2 p true true true true q2 (with_A dX a) (with_B dY b)
  (AR + (ERR - ERL) * half * Dy)%A lAR (BR + - (ERR - ELR) * half * Dx)%A lBR.
Proof. cell. fin. Qed.
Lemma core_RB : t_RB tc = recon2 p true false false true q2 (with_A dX a) (with_B dY b)
  (AR + (ERR - ERL) * half * Dy)%A lAR (BL + - (ERL - ELL) * half * Dx)%A lBL.
Proof. cell. fin. Qed.
Lemma core_LT : t_LT tc = recon2 p false true true false q2 (with_A dX a) (with_B dY b)
  (AL + (ELR - ELL) * half * Dy)%A lAL (BR + - (ERR - ELR) * half * Dx)%A lBR.
Proof. cell. fin. Qed.
Lemma core_LB : t_LB tc = recon2 p false false false false q2 (with_A dX a) (with_B dY b)
  (AL + (ELR - ELL) * half * Dy)%A lAL (BL + - (ERL - ELL) * half * Dx)%A lBL.
Proof. cell. fin. Qed.
End OneCell.

(** The states of variant 2 are those of variant 0. *)
Let SX := lowX p junk Q U.
Let SY := lowY p junk Q U.
Let Q2 := lowQ2 p dt junk Q U.
Let SA := lowSA p dt Q U.
Let SB := lowSB p dt Q U.

Lemma Q2_eq i j : Q2 i j = primvar2 p (Q i j) (with_A (hX i j) (mA (U (i + 1) j) - mA (U i j))%A)
   (with_B (hY i j) (mB (U i (j + 1)) - mB (U i j))%A) (mA (U (i + 1) j) - mA (U i j))%A (mB (U i (j + 1)) - mB (U i j))%A Dx Dy.
Proof. unfold Q2, lowQ2. rewrite lowY_eq. reflexivity. Qed.

Lemma px_low i j : t_px (trace2f p dt junk Q U i j) = with_A (face_minus p (Q2 i j) (SX i j)) (mA (U i j) + SA i j)%R.
Proof.
  rewrite trace2f_core. fold (hX i j) (hY i j). rewrite Q2_eq. unfold SX, SY. rewrite ?lowX_eq, ?lowY_eq.
  unfold SA, lowSA, SB, lowSB. rewrite core_px with (a := (mA (U (i + 1) j) - mA (U i j))%A) (b := (mB (U i (j + 1)) - mB (U i j))%A).
  reflexivity.
Qed.
Lemma mx_low i j : t_mx (trace2f p dt junk Q U i j) = with_A (face_plus p (Q2 i j) (SX i j)) (mA (U (i + 1)%Z j) + SA (i + 1)%Z j)%R.
Proof.
  rewrite trace2f_core. fold (hX i j) (hY i j). rewrite Q2_eq. unfold SX, SY. rewrite ?lowX_eq, ?lowY_eq.
  unfold SA, lowSA, SB, lowSB. rewrite core_mx with (a := (mA (U (i + 1) j) - mA (U i j))%A) (b := (mB (U i (j + 1)) - mB (U i j))%A).
  reflexivity.
Qed.
Lemma py_low i j : t_py (trace2f p dt junk Q U i j) = with_B (face_minus p (Q2 i j) (SY i j)) (mB (U i j) + SB i j)%R.
Proof.
  rewrite trace2f_core. fold (hX i j) (hY i j). rewrite Q2_eq. unfold SX, SY. rewrite ?lowX_eq, ?lowY_eq.
  unfold SA, lowSA, SB, lowSB. rewrite core_py with (a := (mA (U (i + 1) j) - mA (U i j))%A) (b := (mB (U i (j + 1)) - mB (U i j))%A).
  reflexivity.
Qed.
Lemma my_low i j : t_my (trace2f p dt junk Q U i j) = with_B (face_plus p (Q2 i j) (SY i j)) (mB (U i (j + 1)%Z) + SB i (j + 1)%Z)%R.
Proof.
  rewrite trace2f_core. fold (hX i j) (hY i j). rewrite Q2_eq. unfold SX, SY. rewrite ?lowX_eq, ?lowY_eq.
  unfold SA, lowSA, SB, lowSB. rewrite core_my with (a := (mA (U (i + 1) j) - mA (U i j))%A) (b := (mB (U i (j + 1)) - mB (U i j))%A).
  reflexivity.
Qed.
Lemma RT_low i j : t_RT (trace2f p dt junk Q U i j) = recon2 p true true true true (Q2 i j) (SX i j) (SY i j)
  (mA (U (i + 1)%Z j) + SA (i + 1)%Z j)%R (limit1 (slope_type h) (mA (U (i + 1) j)) (mA (U (i + 1) (j + 1))) (mA (U (i + 1) (j - 1))))
  (mB (U i (j + 1)%Z) + SB i (j + 1)%Z)%R (limit1 (slope_type h) (mB (U i (j + 1))) (mB (U (i + 1) (j + 1))) (mB (U (i - 1) (j + 1)))).
Proof.
  rewrite trace2f_core. fold (hX i j) (hY i j). rewrite Q2_eq. unfold SX, SY. rewrite ?lowX_eq, ?lowY_eq.
  unfold SA, lowSA, SB, lowSB. rewrite core_RT with (a := (mA (U (i + 1) j) - mA (U i j))%A) (b := (mB (U i (j + 1)) - mB (U i j))%A).
  reflexivity.
Qed.
Lemma RB_low i j : t_RB (trace2f p dt junk Q U i j) = recon2 p true false false true (Q2 i j) (SX i j) (SY i j)
  (mA (U (i + 1)%Z j) + SA (i + 1)%Z j)%R (limit1 (slope_type h) (mA (U (i + 1) j)) (mA (U (i + 1) (j + 1))) (mA (U (i + 1) (j - 1))))
  (mB (U i j) + SB i j)%R (limit1 (slope_type h) (mB (U i j)) (mB (U (i + 1) j)) (mB (U (i - 1) j))).
Proof.
  rewrite trace2f_core. fold (hX i j) (hY i j). rewrite Q2_eq. unfold SX, SY. rewrite ?lowX_eq, ?lowY_eq.
  unfold SA, lowSA, SB, lowSB. rewrite core_RB with (a := (mA (U (i + 1) j) - mA (U i j))%A) (b := (mB (U i (j + 1)) - mB (U i j))%A).
  reflexivity.
Qed.
Lemma LT_low i j : t_LT (trace2f p dt junk Q U i j) = recon2 p false true true false (Q2 i j) (SX i j) (SY i j)
  (mA (U i j) + SA i j)%R (limit1 (slope_type h) (mA (U i j)) (mA (U i (j + 1))) (mA (U i (j - 1))))
  (mB (U i (j + 1)%Z) + SB i (j + 1)%Z)%R (limit1 (slope_type h) (mB (U i (j + 1))) (mB (U (i + 1) (j + 1))) (mB (U (i - 1) (j + 1)))).
Proof.
  rewrite trace2f_core. fold (hX i j) (hY i j). rewrite Q2_eq. unfold SX, SY. rewrite ?lowX_eq, ?lowY_eq.
  unfold SA, lowSA, SB, lowSB. rewrite core_LT with (a := (mA (U (i + 1) j) - mA (U i j))%A) (b := (mB (U i (j + 1)) - mB (U i j))%A).
  reflexivity.
Qed.
Lemma LB_low i j : t_LB (trace2f p dt junk Q U i j) = recon2 p false false false false (Q2 i j) (SX i j) (SY i j)
  (mA (U i j) + SA i j)%R (limit1 (slope_type h) (mA (U i j)) (mA (U i (j + 1))) (mA (U i (j - 1))))
  (mB (U i j) + SB i j)%R (limit1 (slope_type h) (mB (U i j)) (mB (U (i + 1) j)) (mB (U (i - 1) j))).
Proof.
  rewrite trace2f_core. fold (hX i j) (hY i j). rewrite Q2_eq. unfold SX, SY. rewrite ?lowX_eq, ?lowY_eq.
  unfold SA, lowSA, SB, lowSB. rewrite core_LB with (a := (mA (U (i + 1) j) - mA (U i j))%A) (b := (mB (U i (j + 1)) - mB (U i j))%A).
  reflexivity.
Qed.

Lemma lowfX_eq i j : lowfX p junk SX Q2 U SA i j = fluxX2f p dt junk Q U i j.
Proof.
  unfold lowfX, fluxX2f. cbv zeta. rewrite px_low, mx_low. replace (i - 1 + 1) with i by lia. reflexivity.
Qed.
Lemma lowfY_eq i j : mriemann_ok p -> lowfY p junk SY Q2 U SB i j = fluxY2f p dt junk Q U i j.
Proof.
  intros Hr. unfold lowfY, fluxY2f. cbv zeta. rewrite py_low, my_low. replace (j - 1 + 1) with j by lia.
  generalize (fluxX2f p dt junk Q U i j) (junk (i, j, 0) 2). intros f1 f2. cbn [mB with_B].
  unfold riemann_mhd. destruct Hr as [<-|[<-|[<-|[]]]]; reflexivity.
Qed.
Lemma lowE_eq i j : lowE p SX SY Q2 U SA SB i j = emf2f p dt junk Q U i j.
Proof.
  unfold lowE, emf2f, lowR. rewrite RT_low, RB_low, LT_low, LB_low.
  reflexivity.
Qed.
End Eq.

(** The accumulating loops. *)
Lemma mfluxX2_spec aIn aOut (s s' : store R) : arr_ok aIn aOut -> 0 < gw g ->
  par_exec s (mfluxX2 p g dt junk aIn aOut) s' ->
  let F := lowfX p junk (m2 s aSx) (m2 s aQ2) (m2 s aIn) (fun i j => s (Loc aSf i j 0 IX)) in
  (forall i j, interior2 g i j = true -> m2 s' aOut i j =
     upd_flux sub (upd_flux add (m2 s aOut i j) (F i j) Dx) (F (i + 1) j) Dx) /\
  (forall l, la l <> aOut -> s' l = s l).
Proof.
  intros Ha Hg Hex F. unfold mfluxX2 in Hex.
  eapply (fluxX_loop2 p g dt _ F); [exact Hg| | |exact Hex].
  - cells2_intro. nums. apply at_when. intros _.
    repeat (apply at_bind; [first [apply at_mload; intros; cbn [la]; marrays_goal; lia | apply at_rd; cbn [la]; marrays_goal; lia]|intros ?]).
    apply at_fluxX. reflexivity.
  - intros a b i j v _. cbn beta iota. rewrite contrib_when. reflexivity.
Qed.
Lemma mfluxY2_spec aIn aOut (s s' : store R) : arr_ok aIn aOut -> 0 < gw g ->
  par_exec s (mfluxY2 p g dt junk aIn aOut) s' ->
  let F := fun i j => mswapY (lowfY p junk (m2 s aSy) (m2 s aQ2) (m2 s aIn) (fun i j => s (Loc aSf i j 0 IY)) i j) in
  (forall i j, interior2 g i j = true -> m2 s' aOut i j =
     upd_flux sub (upd_flux add (m2 s aOut i j) (F i j) Dy) (F i (j + 1)) Dy) /\
  (forall l, la l <> aOut -> s' l = s l).
Proof.
  intros Ha Hg Hex F. unfold mfluxY2 in Hex.
  eapply (fluxY_loop2 p g dt _ F); [exact Hg| | |exact Hex].
  - cells2_intro. nums. apply at_when. intros _.
    repeat (apply at_bind; [first [apply at_mload; intros; cbn [la]; marrays_goal; lia | apply at_rd; cbn [la]; marrays_goal; lia]|intros ?]).
    apply at_fluxY. reflexivity.
  - intros a b i j v _. cbn beta iota. rewrite contrib_when. reflexivity.
Qed.
Lemma mrecon2_spec aIn aOut (s s' : store R) : arr_ok aIn aOut -> 0 < gw g ->
  par_exec s (mrecon2 p g dt aIn aOut) s' ->
  let E := lowE p (m2 s aSx) (m2 s aSy) (m2 s aQ2) (m2 s aIn) (fun i j => s (Loc aSf i j 0 IX)) (fun i j => s (Loc aSf i j 0 IY)) in
  (forall i j, interior2 g i j = true -> m2 s' aOut i j =
     ind2 p dt (m2 s aOut i j) (E i j) (E (i + 1) j) (E i (j + 1))) /\
  (forall l, la l <> aOut -> s' l = s l).
Proof. clear junk.
  intros Ha Hg Hex E. unfold mrecon2 in Hex.
  eapply (emf_loop2 p g dt _ E); [exact Hg| | |exact Hex].
  - cells2_intro. nums. apply at_when. intros _.
    repeat (apply at_bind; [apply at_mload; intros; cbn [la]; marrays_goal; lia|intros ?]).
    unfold recon_edge2.
    repeat (apply at_bind; [repeat (apply at_bind; [first [apply at_mload; intros; cbn [la]; marrays_goal; lia | apply at_rd; cbn [la]; marrays_goal; lia]|intros ?]); apply at_ret|intros ?]).
    apply at_emf. reflexivity.
  - intros a b i j v _. cbn beta iota. rewrite contrib_when. reflexivity.
Qed.

(** Locality of the fluxes of variant 2. *)
Lemma lowfX_ext SX SX' Q2 Q2' U U' SA SA' i j :
  (forall a b, i - 1 <= a <= i -> j - 1 <= b <= j -> SX a b = SX' a b /\ Q2 a b = Q2' a b) ->
  U i j = U' i j -> SA i j = SA' i j ->
  lowfX p junk SX Q2 U SA i j = lowfX p junk SX' Q2' U' SA' i j.
Proof.
  intros H HU HS. unfold lowfX. cbv zeta.
  destruct (H i j) as [-> ->]; try lia. destruct (H (i - 1) j) as [-> ->]; try lia. rewrite HU, HS. reflexivity.
Qed.
Lemma lowfY_ext SY SY' Q2 Q2' U U' SB SB' i j :
  (forall a b, i - 1 <= a <= i -> j - 1 <= b <= j -> SY a b = SY' a b /\ Q2 a b = Q2' a b) ->
  U i j = U' i j -> SB i j = SB' i j ->
  lowfY p junk SY Q2 U SB i j = lowfY p junk SY' Q2' U' SB' i j.
Proof.
  intros H HU HS. unfold lowfY. cbv zeta.
  destruct (H i j) as [-> ->]; try lia. destruct (H i (j - 1)) as [-> ->]; try lia. rewrite HU, HS. reflexivity.
Qed.
Lemma lowE_ext SX SX' SY SY' Q2 Q2' U SA SA' SB SB' i j :
  (forall a b, i - 1 <= a <= i -> j - 1 <= b <= j -> SX a b = SX' a b /\ SY a b = SY' a b /\ Q2 a b = Q2' a b) ->
  (forall a b, i - 1 <= a <= i -> j - 1 <= b <= j -> SA a b = SA' a b /\ SB a b = SB' a b) ->
  lowE p SX SY Q2 U SA SB i j = lowE p SX' SY' Q2' U SA' SB' i j.
Proof.
  intros H HS. unfold lowE, lowR.
  replace (i - 1 + 1) with i by lia. replace (j - 1 + 1) with j by lia.
  destruct (H i j) as (-> & -> & ->); try lia. destruct (H (i - 1) j) as (-> & -> & ->); try lia.
  destruct (H i (j - 1)) as (-> & -> & ->); try lia. destruct (H (i - 1) (j - 1)) as (-> & -> & ->); try lia.
  destruct (HS i j) as (-> & ->); try lia. destruct (HS i (j - 1)) as (-> & _); try lia.
  destruct (HS (i - 1) j) as (_ & ->); try lia. reflexivity.
Qed.

Lemma lowX_ext Q Q' U U' i j :
  (forall a b, i - 1 <= a <= i + 1 -> j - 1 <= b <= j + 1 -> Q a b = Q' a b) ->
  (forall a b, i - 1 <= a <= i + 1 -> j - 1 <= b <= j + 1 -> U a b = U' a b) ->
  lowX p junk Q U i j = lowX p junk Q' U' i j /\ lowY p junk Q U i j = lowY p junk Q' U' i j.
Proof.
  intros HQ HU. unfold lowX, lowY, lowSX. rewrite !HQ, !HU by lia. auto.
Qed.
Lemma lowEz_ext Q Q' U U' i j :
  (forall a b, i - 1 <= a <= i -> j - 1 <= b <= j -> Q a b = Q' a b) ->
  (forall a b, i - 1 <= a <= i -> j - 1 <= b <= j -> U a b = U' a b) ->
  lowEz (AT := RArith) Q U i j = lowEz Q' U' i j.
Proof.
  intros HQ HU. unfold lowEz. rewrite !HQ, !HU by lia. auto.
Qed.

Lemma mscheme2_2 aIn aOut : arr_ok aIn aOut -> 3 <= gw g -> slope12 p = true -> mriemann_ok p ->
  scheme_ok2 p g dt junk 2 aIn aOut.
Proof.
  intros Ha Hg Hs12 Hr s s' Hk. unfold mscheme2 in Hk. cbn [Z.eqb Pos.eqb] in Hk.
  apply rk_inv in Hk. destruct Hk as (s1 & H1 & Hk). apply rk_inv in Hk. destruct Hk as (s2 & H2 & Hk).
  apply rk_inv in Hk. destruct Hk as (s3 & H3 & Hk). apply rk_inv in Hk. destruct Hk as (s4 & H4 & Hk).
  apply rk_inv in Hk. destruct Hk as (s5 & H5 & Hk). apply rk_inv in Hk. destruct Hk as (s6 & H6 & Hk).
  apply rk_inv in Hk. destruct Hk as (s7 & H7 & Hk). apply rk_inv in Hk. destruct Hk as (s8 & H8 & Hk).
  apply rk_nil_inv in Hk. subst s8.
  apply (mconvert2_spec p g aIn aOut) in H1; auto. destruct H1 as [C1 C2].
  apply (mslopes2_spec p g junk aIn aOut) in H2; auto. destruct H2 as [S1 S2].
  apply (mprimvar2_spec p g dt aIn aOut) in H3; auto; [|lia]. destruct H3 as [P1 P2].
  apply (melec2_spec g aIn aOut) in H4; auto. destruct H4 as [E1 E2].
  apply (msface2_spec p g dt) in H5. destruct H5 as [F1 F2].
  apply (mfluxX2_spec aIn aOut) in H6; auto; [|lia]. destruct H6 as [X1 X2].
  apply (mfluxY2_spec aIn aOut) in H7; auto; [|lia]. destruct H7 as [Y1 Y2].
  apply (mrecon2_spec aIn aOut) in H8; auto; [|lia]. destruct H8 as [R1 R2].
  set (U := m2 s aIn) in *. set (Q := prim2 p U) in *.
  assert (NQ : aIn <> aQ /\ ~ In aIn [aSx; aSy] /\ aIn <> aQ2 /\ aIn <> aEl /\ aIn <> aSf /\ aIn <> aOut).
  { clear - Ha. split; [marrays; lia|]. split; [intros Hc; cbn [In] in Hc; marrays; lia|marrays; lia]. }
  destruct NQ as (N1 & N2 & N3 & N4 & N5 & N6).
  assert (NO : aOut <> aQ /\ ~ In aOut [aSx; aSy] /\ aOut <> aQ2 /\ aOut <> aEl /\ aOut <> aSf).
  { clear - Ha. split; [marrays; lia|]. split; [intros Hc; cbn [In] in Hc; marrays; lia|marrays; lia]. }
  destruct NO as (O1 & O2 & O3 & O4 & O5).
  assert (NS : forall a, In a [aSx; aSy; aQ2; aEl; aSf] -> a <> aOut).
  { intros a Hi. clear - Ha Hi. cbn [In] in Hi. marrays. lia. }
  (* input field *)
  assert (I1 : forall i j, m2 s1 aIn i j = U i j) by (intros; apply m2_frame; intros l Hl; apply C2; congruence).
  assert (I2 : forall i j, m2 s2 aIn i j = U i j).
  { intros. rewrite <- I1. apply m2_frame; intros l Hl; apply S2; rewrite Hl; auto. }
  assert (I3 : forall i j, m2 s3 aIn i j = U i j).
  { intros. rewrite <- I2. apply m2_frame; intros l Hl; apply P2; rewrite Hl; auto. }
  assert (I5 : forall i j, m2 s5 aIn i j = U i j).
  { intros. rewrite <- I3. transitivity (m2 s4 aIn i j).
    - apply m2_frame; intros l Hl; apply F2; rewrite Hl; auto.
    - apply m2_frame; intros l Hl; apply E2; rewrite Hl; auto. }
  (* slopes and half-step states *)
  assert (SXY : forall i j, 1 <= i <= isize g - 3 -> 1 <= j <= jsize g - 3 ->
     m2 s5 aSx i j = lowX p junk Q U i j /\ m2 s5 aSy i j = lowY p junk Q U i j).
  { intros i j Hi Hj. destruct (S1 i j ltac:(lia) ltac:(lia)) as [A1 A2].
    destruct (lowX_ext (m2 s1 aQ) Q (m2 s1 aIn) U i j) as [B1 B2].
    { intros a b Ha' Hb. apply C1; lia. }
    { intros; apply I1. }
    rewrite <- B1, <- B2, <- A1, <- A2.
    split; apply m2_frame; intros l Hl; rewrite F2, E2, P2; auto; rewrite Hl; discriminate. }
  assert (SQ2 : forall i j, 1 <= i <= isize g - gw g -> 1 <= j <= jsize g - gw g -> gw g = 3 \/ gw g - 2 <= i /\ gw g - 2 <= j ->
     m2 s5 aQ2 i j = lowQ2 p dt junk Q U i j).
  { intros i j Hi Hj Hij. transitivity (m2 s3 aQ2 i j).
    { apply m2_frame; intros l Hl; rewrite F2, E2; auto; rewrite Hl; discriminate. }
    rewrite P1 by lia. rewrite !I2. unfold lowQ2.
    destruct (SXY i j ltac:(lia) ltac:(lia)) as [A1 A2]. rewrite <- A1, <- A2.
    replace (m2 s2 aQ i j) with (Q i j).
    2:{ rewrite <- C1 by lia. symmetry. apply m2_frame. intros l Hl. apply S2. rewrite Hl. cbn. unfold aQ, aSx, aSy. lia. }
    rewrite (m2_frame s2 s5 aSx), (m2_frame s2 s5 aSy); auto;
      intros l Hl; rewrite F2, E2, P2; auto; rewrite Hl; discriminate. }
  assert (SEz : forall i j, 0 < i <= isize g - 2 -> 0 < j <= jsize g - 2 -> s4 (Loc aEl i j 0 0) = lowEz Q U i j).
  { intros i j Hi Hj. rewrite E1 by lia. apply lowEz_ext.
    - intros a b Ha' Hb. rewrite <- (C1 a b) by lia. apply m2_frame. intros l Hl. rewrite P2, S2; auto; rewrite Hl; [|discriminate].
      cbn. unfold aQ, aSx, aSy. lia.
    - intros; apply I3. }
  assert (SAB : forall i j, 0 < i <= isize g - 3 -> 0 < j <= jsize g - 3 ->
     s5 (Loc aSf i j 0 IX) = lowSA p dt Q U i j /\ s5 (Loc aSf i j 0 IY) = lowSB p dt Q U i j).
  { intros i j Hi Hj. destruct (F1 i j ltac:(lia) ltac:(lia)) as [A1 A2]. rewrite A1, A2.
    rewrite !SEz by lia. split; reflexivity. }
  (* fluxes *)
  assert (EX : forall i j, faces2 g i j = true ->
     lowfX p junk (m2 s5 aSx) (m2 s5 aQ2) (m2 s5 aIn) (fun i j => s5 (Loc aSf i j 0 IX)) i j = fluxX2f p dt junk Q U i j).
  { intros i j Hf. apply faces2_spec in Hf. rewrite <- lowfX_eq by exact Hs12. apply lowfX_ext.
    - intros a b Ha' Hb. split; [apply SXY; lia|apply SQ2; lia].
    - apply I5.
    - apply SAB; lia. }
  assert (EY : forall i j, faces2 g i j = true ->
     lowfY p junk (m2 s6 aSy) (m2 s6 aQ2) (m2 s6 aIn) (fun i j => s6 (Loc aSf i j 0 IY)) i j = fluxY2f p dt junk Q U i j).
  { intros i j Hf. apply faces2_spec in Hf. rewrite <- lowfY_eq by auto. apply lowfY_ext.
    - intros a b Ha' Hb. rewrite !(m2_frame s5 s6) by (intros l Hl; apply X2; rewrite Hl; apply NS; cbn; tauto).
      split; [apply SXY; lia|apply SQ2; lia].
    - rewrite (m2_frame s5 s6) by (intros l Hl; apply X2; rewrite Hl; auto). apply I5.
    - rewrite X2 by (cbn [la]; apply NS; cbn; tauto). apply SAB; lia. }
  assert (F7 : forall l, la l <> aOut -> s7 l = s5 l) by (intros l Hl; rewrite Y2, X2; auto).
  assert (EE : forall i j, faces2 g i j = true ->
     lowE p (m2 s7 aSx) (m2 s7 aSy) (m2 s7 aQ2) (m2 s7 aIn) (fun i j => s7 (Loc aSf i j 0 IX)) (fun i j => s7 (Loc aSf i j 0 IY)) i j
     = emf2f p dt junk Q U i j).
  { intros i j Hf. apply faces2_spec in Hf. rewrite <- lowE_eq by auto.
    transitivity (lowE p (lowX p junk Q U) (lowY p junk Q U) (lowQ2 p dt junk Q U) (m2 s7 aIn) (lowSA p dt Q U) (lowSB p dt Q U) i j).
    - apply lowE_ext.
      + intros a b Ha' Hb. rewrite !(m2_frame s5 s7) by (intros l Hl; apply F7; rewrite Hl; apply NS; cbn; tauto).
        split; [apply SXY; lia|]. split; [apply SXY; lia|apply SQ2; lia].
      + intros a b Ha' Hb. rewrite !F7 by (cbn [la]; apply NS; cbn; tauto). apply SAB; lia.
    - unfold lowE, lowR. rewrite !(m2_frame s5 s7) by (intros l Hl; apply F7; rewrite Hl; auto).
      rewrite !I5. reflexivity. }
  assert (EO : forall i j, m2 s5 aOut i j = m2 s aOut i j).
  { intros i j. apply m2_frame. intros l Hl. rewrite F2, E2, P2, S2, C2; auto; rewrite Hl; auto. }
  split.
  - intros i j Hi. destruct (interior_faces2 g i j Hi) as (Fa & Fb & Fc).
    rewrite R1 by auto. rewrite !EE by auto. rewrite Y1 by auto. rewrite !EY by auto.
    rewrite X1 by auto. rewrite !EX by auto. rewrite EO. reflexivity.
  - intros l Hl.
    assert (Hn : la l <> aOut /\ la l <> aSf /\ la l <> aEl /\ la l <> aQ2 /\ la l <> aQ /\ la l <> aSx /\ la l <> aSy).
    { clear - Hl. unfold mscratch2, mout2 in Hl. repeat split; intros Hc; apply Hl;
        [left; exact Hc|..]; right; apply in_or_app; left; rewrite Hc; cbn [In]; tauto. }
    clear - Hn R2 Y2 X2 F2 E2 P2 S2 C2. destruct Hn as (M1 & M2 & M3 & M4 & M5 & M6 & M7).
    rewrite R2, Y2, X2, F2, E2, P2, S2, C2; auto. intros [E|[E|[]]]; auto.
Qed.
End RL2.

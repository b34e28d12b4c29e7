(** The exchange of ghost cells between processes amounts to filling the ghost
    cells of the whole domain. *)
From Coq Require Import ZArith List Bool Lia.
From Verif Require Import Arith Par ParProofs GridModel BoundaryModel BoundarySpec BoundaryProofs GridProofs
  HydroState HydroKernels SpmdModel SpmdSpec MpiModel MpiSpec MpiTopo MpiCopy.
Import ListNotations.
Open Scope Z_scope.

Definition getc (d : direction) (c : cell) : Z := let '(i, j, k) := c in match d with XDIR => i | YDIR => j | ZDIR => k end.
Definition setc (d : direction) (c : cell) (x : Z) : cell :=
  let '(i, j, k) := c in match d with XDIR => (x, j, k) | YDIR => (i, x, k) | ZDIR => (i, j, x) end.
Definition ndir (g : grid) (d : direction) : Z := match d with XDIR => nx g | YDIR => ny g | ZDIR => nz g end.
Definition dnum (d : direction) : Z := match d with XDIR => 0 | YDIR => 1 | ZDIR => 2 end.

Lemma moved_setc d o c : moved d o c = setc d c (o + getc d c).
Proof. destruct c as [[i j] k], d; reflexivity. Qed.
Lemma getc_setc d c x : getc d (setc d c x) = x.
Proof. destruct c as [[i j] k], d; reflexivity. Qed.
Lemma setc_getc d c : setc d c (getc d c) = c.
Proof. destruct c as [[i j] k], d; reflexivity. Qed.
Lemma setc_setc d c x y : setc d (setc d c x) y = setc d c y.
Proof. destruct c as [[i j] k], d; reflexivity. Qed.

Ltac codes := unfold kind_of_code;
  change (BC_DIRICHLET =? 1) with true; change (BC_NEUMANN =? 1) with false; change (BC_NEUMANN =? 2) with true;
  change (BC_DIRICHLET =? BC_DIRICHLET) with true; change (BC_NEUMANN =? BC_DIRICHLET) with false;
  change (BC_NEUMANN =? BC_NEUMANN) with true; cbv iota.

Section Exchange.
Context {T : Type} {A : Arith T}.
Variable tp : topo.
Variable g : grid.
Variable ly : layout.
Variable d3 : bool.
Variable mhd : bool.
Hypothesis Htp : topo_ok tp.
Hypothesis Hw : 0 < gw g.
Hypothesis Hnx : gw g <= nx g.
Hypothesis Hny : gw g <= ny g.
Hypothesis Hnz : if d3 then gw g <= nz g else True.

Notation P := (nprocs tp).
Notation pst := (pstate T).

Lemma in_arr_getc d c : dims_ok g d3 d -> in_arr g d3 c -> 0 <= getc d c < ndir g d + 2 * gw g.
Proof.
  destruct c as [[i j] k]. unfold in_arr, dims_ok, getc, ndir, isize, jsize, ksize, imax, imin, jmax, jmin, kmax, kmin.
  clear Hnz. intros Hd (H1 & H2 & H3). destruct d; [lia|lia|]. destruct d3; [lia|congruence].
Qed.
Lemma in_arr_setc d c x : dims_ok g d3 d -> in_arr g d3 c -> 0 <= x < ndir g d + 2 * gw g -> in_arr g d3 (setc d c x).
Proof.
  destruct c as [[i j] k]. unfold in_arr, dims_ok, setc, ndir, isize, jsize, ksize, imax, imin, jmax, jmin, kmax, kmin.
  clear Hnz. intros Hd (H1 & H2 & H3) Hx. destruct d, d3; try congruence; lia.
Qed.
Lemma dims_n d : dims_ok g d3 d -> gw g <= ndir g d.
Proof. intros Hd. destruct d; [assumption..|]. unfold dims_ok in Hd. destruct d3; [assumption|congruence]. Qed.
Lemma buf_dom_setc d c x : dims_ok g d3 d -> in_arr g d3 c -> 0 <= x < gw g -> buf_dom g d3 d (setc d c x).
Proof.
  destruct c as [[i j] k]. unfold in_arr, dims_ok, setc, buf_dom.
  clear Hnz. intros Hd (H1 & H2 & H3) Hx. destruct d; [auto|auto|]. destruct d3; [auto|congruence].
Qed.
Lemma buf_dom_arr d c x : dims_ok g d3 d -> buf_dom g d3 d c -> 0 <= x < ndir g d + 2 * gw g -> in_arr g d3 (setc d c x).
Proof.
  destruct c as [[i j] k]. unfold in_arr, dims_ok, setc, buf_dom, ndir, isize, jsize, ksize, imax, imin, jmax, jmin, kmax, kmin.
  clear Hnz. intros Hd (H1 & H2 & H3) Hx. destruct d; [repeat split; try lia; assumption|repeat split; try lia; assumption|].
  destruct d3; [repeat split; lia|congruence].
Qed.
Lemma buf_dom_getc d c : dims_ok g d3 d -> buf_dom g d3 d c -> 0 <= getc d c < gw g.
Proof.
  destruct c as [[i j] k]. unfold dims_ok, getc, buf_dom. clear Hnz. intros Hd (H1 & H2 & H3).
  destruct d; auto. destruct d3; [auto|congruence].
Qed.
Lemma dir_lo d : dir_of (face_lo d) = d. Proof. destruct d; reflexivity. Qed.
Lemma dir_hi d : dir_of (face_hi d) = d. Proof. destruct d; reflexivity. Qed.
Lemma off_s_lo d : offset_send g (face_lo d) = gw g. Proof. destruct d; reflexivity. Qed.
Lemma off_s_hi d : offset_send g (face_hi d) = ndir g d.
Proof. destruct d; unfold offset_send, ndir, face_hi, isize, jsize, ksize, imax, imin, jmax, jmin, kmax, kmin; lia. Qed.
Lemma off_r_lo d : offset_recv g (face_lo d) = 0. Proof. destruct d; reflexivity. Qed.
Lemma off_r_hi d : offset_recv g (face_hi d) = ndir g d + gw g.
Proof. destruct d; unfold offset_recv, ndir, face_hi, isize, jsize, ksize, imax, imin, jmax, jmin, kmax, kmin; lia. Qed.

Lemma in_buf_spec d f c v : dir_of f = d -> dims_ok g d3 d -> buf_dom g d3 d c -> 0 <= v < nbvar g ->
  in_buf g d3 f (at_cell (bufR f) c v) = true.
Proof.
  intros Hf Hd Hc Hv. destruct c as [[i j] k]. unfold in_buf, at_cell. rewrite Hf. cbn [la li lj lk lv].
  destruct Hc as (H1 & H2 & H3). clear Hnz. unfold dims_ok in Hd.
  destruct d, d3; try congruence; rewrite Z.eqb_refl; cbn [andb];
    repeat (apply andb_true_intro; split); try apply Z.leb_le; try apply Z.ltb_lt; lia.
Qed.
Lemma in_buf_la f l : la l <> bufR f -> in_buf g d3 f l = false.
Proof.
  intros H. unfold in_buf. destruct (Z.eqb_spec (la l) (bufR f)); [contradiction|].
  destruct (dir_of f); destruct d3; reflexivity.
Qed.

(** Filling from the inside, one face. *)
Definition wall (a : Z) (f : face) : list (prog T unit) :=
  if d3 then make_boundary3d mhd g a f else make_boundary2d mhd g a f.

Lemma wall_lo a d s s' : dims_ok g d3 d -> par_exec s (wall a (face_lo d)) s' ->
  (forall c v, in_arr g d3 c -> getc d c < gw g -> 0 <= v < nbvar g ->
     s' (at_cell a c v) = mul (s (at_cell a (setc d c (src_lo (bc g (face_lo d)) (ndir g d) (gw g) (getc d c))) v))
                              (sign_of mhd (bc g (face_lo d)) (2 + dnum d) (5 + dnum d) v)) /\
  (forall l, (forall c v, in_arr g d3 c -> getc d c < gw g -> 0 <= v < nbvar g -> l <> at_cell a c v) -> s' l = s l).
Proof.
  intros Hd Hex. unfold wall in Hex. unfold dims_ok in Hd.
  assert (SZ : isize g = nx g + 2 * gw g /\ jsize g = ny g + 2 * gw g /\ ksize g = nz g + 2 * gw g)
    by (unfold isize, jsize, ksize, imax, imin, jmax, jmin, kmax, kmin; lia). destruct SZ as (SZ1 & SZ2 & SZ3).
  destruct d3.
  - destruct (face3_spec mhd g (face_lo d) a s s') as [H1 H2]; try lia; auto.
    { destruct d; cbn; left; assumption. }
    assert (E : forall c, slab3 g (face_lo d) c <-> in_arr g true c /\ getc d c < gw g).
    { intros [[i j] k]. unfold slab3, in_arr, getc. rewrite SZ1, SZ2, SZ3. destruct d; cbn [face_lo]; lia. }
    split.
    + intros [[i j] k] v Hc Hg Hv. rewrite H1 by (auto; apply E; auto). destruct d; reflexivity.
    + intros l Hl. apply H2. intros c v Hc Hv. apply E in Hc. destruct Hc. apply Hl; auto.
  - destruct (face2_spec mhd g (face_lo d) a s s') as [H1 H2]; try lia; auto.
    { destruct d; cbn; left; try assumption. congruence. }
    assert (E : forall c, slab2 g (face_lo d) c <-> in_arr g false c /\ getc d c < gw g).
    { intros [[i j] k]. unfold slab2, in_arr, getc. rewrite SZ1, SZ2. destruct d; cbn [face_lo]; [lia|lia|congruence]. }
    split.
    + intros [[i j] k] v Hc Hg Hv. rewrite H1 by (auto; apply E; auto). destruct d; reflexivity.
    + intros l Hl. apply H2. intros c v Hc Hv. apply E in Hc. destruct Hc. apply Hl; auto.
Qed.

Lemma wall_hi a d s s' : dims_ok g d3 d -> par_exec s (wall a (face_hi d)) s' ->
  (forall c v, in_arr g d3 c -> ndir g d + gw g <= getc d c -> 0 <= v < nbvar g ->
     s' (at_cell a c v) = mul (s (at_cell a (setc d c (src_hi (bc g (face_hi d)) (ndir g d) (gw g) (getc d c))) v))
                              (sign_of mhd (bc g (face_hi d)) (2 + dnum d) (5 + dnum d) v)) /\
  (forall l, (forall c v, in_arr g d3 c -> ndir g d + gw g <= getc d c -> 0 <= v < nbvar g -> l <> at_cell a c v) -> s' l = s l).
Proof.
  intros Hd Hex. unfold wall in Hex. unfold dims_ok in Hd.
  assert (SZ : isize g = nx g + 2 * gw g /\ jsize g = ny g + 2 * gw g /\ ksize g = nz g + 2 * gw g)
    by (unfold isize, jsize, ksize, imax, imin, jmax, jmin, kmax, kmin; lia). destruct SZ as (SZ1 & SZ2 & SZ3).
  destruct d3.
  - destruct (face3_spec mhd g (face_hi d) a s s') as [H1 H2]; try lia; auto.
    { destruct d; cbn; left; assumption. }
    assert (E : forall c, slab3 g (face_hi d) c <-> in_arr g true c /\ ndir g d + gw g <= getc d c).
    { intros [[i j] k]. unfold slab3, in_arr, getc, ndir. rewrite SZ1, SZ2, SZ3. destruct d; cbn [face_hi]; lia. }
    split.
    + intros [[i j] k] v Hc Hg Hv. rewrite H1 by (auto; apply E; auto). destruct d; reflexivity.
    + intros l Hl. apply H2. intros c v Hc Hv. apply E in Hc. destruct Hc. apply Hl; auto.
  - destruct (face2_spec mhd g (face_hi d) a s s') as [H1 H2]; try lia; auto.
    { destruct d; cbn; left; try assumption. congruence. }
    assert (E : forall c, slab2 g (face_hi d) c <-> in_arr g false c /\ ndir g d + gw g <= getc d c).
    { intros [[i j] k]. unfold slab2, in_arr, getc, ndir. rewrite SZ1, SZ2. destruct d; cbn [face_hi]; [lia|lia|congruence]. }
    split.
    + intros [[i j] k] v Hc Hg Hv. rewrite H1 by (auto; apply E; auto). destruct d; reflexivity.
    + intros l Hl. apply H2. intros c v Hc Hv. apply E in Hc. destruct Hc. apply Hl; auto.
Qed.

(** What one face receives. *)
Definition copies (b : Z) : bool := (b =? BC_COPY) || (b =? BC_PERIODIC).
Definition val_lo (s : store T) (a : Z) (d : direction) (r : nat) (c : cell) (v : Z) : T :=
  if copies (neighborsBC tp g r (face_lo d)) then s (at_cell (bufR (face_lo d)) c v)
  else mul (s (at_cell a (setc d c (src_lo (bc g (face_lo d)) (ndir g d) (gw g) (getc d c))) v))
           (sign_of mhd (bc g (face_lo d)) (2 + dnum d) (5 + dnum d) v).
Definition val_hi (s : store T) (a : Z) (d : direction) (r : nat) (c : cell) (v : Z) : T :=
  if copies (neighborsBC tp g r (face_hi d)) then s (at_cell (bufR (face_hi d)) (setc d c (getc d c - (ndir g d + gw g))) v)
  else mul (s (at_cell a (setc d c (src_hi (bc g (face_hi d)) (ndir g d) (gw g) (getc d c))) v))
           (sign_of mhd (bc g (face_hi d)) (2 + dnum d) (5 + dnum d) v).
Definition fill_face (a : Z) (r : nat) (f : face) : list (prog T unit) :=
  (if d3 then fill_face3 tp g ly else fill_face2 tp g ly) mhd a r f.

Lemma fill_lo a d r s s' : dims_ok g d3 d -> a <> bufR (face_lo d) -> par_exec s (fill_face a r (face_lo d)) s' ->
  (forall c v, in_arr g d3 c -> getc d c < gw g -> 0 <= v < nbvar g -> s' (at_cell a c v) = val_lo s a d r c v) /\
  (forall l, (forall c v, in_arr g d3 c -> getc d c < gw g -> 0 <= v < nbvar g -> l <> at_cell a c v) -> s' l = s l).
Proof.
  intros Hd Ha Hex. unfold val_lo.
  destruct (copies (neighborsBC tp g r (face_lo d))) eqn:Eb.
  - assert (Hex' : par_exec s ((if d3 then from_buf3 g ly else from_buf2 g ly) a (face_lo d)) s').
    { revert Hex. clear - Eb. unfold copies in Eb. unfold fill_face. destruct d3; unfold fill_face2, fill_face3; cbv zeta;
        rewrite Eb; auto. }
    apply from_buf_spec in Hex'; [|lia..|rewrite dir_lo; assumption|assumption].
    rewrite dir_lo, off_r_lo in Hex'. destruct Hex' as [H1 H2].
    assert (M : forall c, moved d 0 c = c) by (intros c; rewrite moved_setc, Z.add_0_l; apply setc_getc).
    split.
    + intros c v Hc Hg Hv. rewrite <- (H1 c v); [rewrite M; reflexivity| |assumption].
      rewrite <- (setc_getc d c). apply buf_dom_setc; auto. pose proof (in_arr_getc d c Hd Hc). lia.
    + intros l Hl. apply H2. intros c v Hc Hv. rewrite M.
      pose proof (buf_dom_getc d c Hd Hc) as G. apply Hl; [|lia|assumption].
      rewrite <- (setc_getc d c). apply buf_dom_arr; auto. pose proof (dims_n d Hd). lia.
  - assert (Hex' : par_exec s (wall a (face_lo d)) s').
    { revert Hex. clear - Eb. unfold copies in Eb. unfold fill_face, wall. destruct d3; unfold fill_face2, fill_face3; cbv zeta;
        rewrite Eb; auto. }
    apply wall_lo in Hex'; assumption.
Qed.

Lemma fill_hi a d r s s' : dims_ok g d3 d -> a <> bufR (face_hi d) -> par_exec s (fill_face a r (face_hi d)) s' ->
  (forall c v, in_arr g d3 c -> ndir g d + gw g <= getc d c -> 0 <= v < nbvar g -> s' (at_cell a c v) = val_hi s a d r c v) /\
  (forall l, (forall c v, in_arr g d3 c -> ndir g d + gw g <= getc d c -> 0 <= v < nbvar g -> l <> at_cell a c v) -> s' l = s l).
Proof.
  intros Hd Ha Hex. unfold val_hi.
  destruct (copies (neighborsBC tp g r (face_hi d))) eqn:Eb.
  - assert (Hex' : par_exec s ((if d3 then from_buf3 g ly else from_buf2 g ly) a (face_hi d)) s').
    { revert Hex. clear - Eb. unfold copies in Eb. unfold fill_face. destruct d3; unfold fill_face2, fill_face3; cbv zeta;
        rewrite Eb; auto. }
    apply from_buf_spec in Hex'; [|lia..|rewrite dir_hi; assumption|assumption].
    rewrite dir_hi, off_r_hi in Hex'. destruct Hex' as [H1 H2].
    split.
    + intros c v Hc Hg Hv. set (y := getc d c - (ndir g d + gw g)).
      assert (Ec : c = moved d (ndir g d + gw g) (setc d c y)).
      { rewrite moved_setc, setc_setc, getc_setc. unfold y.
        replace (ndir g d + gw g + (getc d c - (ndir g d + gw g))) with (getc d c) by lia. symmetry; apply setc_getc. }
      rewrite Ec at 1. apply H1; [|assumption]. apply buf_dom_setc; auto. pose proof (in_arr_getc d c Hd Hc). unfold y. lia.
    + intros l Hl. apply H2. intros c v Hc Hv.
      pose proof (buf_dom_getc d c Hd Hc) as G. pose proof (dims_n d Hd) as N.
      rewrite moved_setc. apply Hl; [|rewrite getc_setc; lia|assumption].
      apply buf_dom_arr; auto. lia.
  - assert (Hex' : par_exec s (wall a (face_hi d)) s').
    { revert Hex. clear - Eb. unfold copies in Eb. unfold fill_face, wall. destruct d3; unfold fill_face2, fill_face3; cbv zeta;
        rewrite Eb; auto. }
    apply wall_hi in Hex'; assumption.
Qed.

(** ** One direction *)
Lemma lock5 (o1 o2 o3 o4 o5 : op pst (msg T)) (s s' : nat -> pst) :
  lockstep P [o1; o2; o3; o4; o5] s s' -> exists s1 s2 s3 s4,
    together P o1 s s1 /\ together P o2 s1 s2 /\ together P o3 s2 s3 /\ together P o4 s3 s4 /\ together P o5 s4 s'.
Proof.
  intros H.
  inversion H as [|? ? ? s1 ? T1 H1]; subst. inversion H1 as [|? ? ? s2 ? T2 H2]; subst.
  inversion H2 as [|? ? ? s3 ? T3 H3]; subst. inversion H3 as [|? ? ? s4 ? T4 H4]; subst.
  inversion H4 as [|? ? ? s5 ? T5 H5]; subst. inversion H5; subst.
  exists s1, s2, s3, s4. auto.
Qed.

Definition is_buffer (b : Z) : Prop := exists f, b = bufS f \/ b = bufR f.
Lemma bufS_lo_hi d : bufS (face_lo d) <> bufS (face_hi d). Proof. destruct d; discriminate. Qed.
Lemma bufR_lo_hi d : bufR (face_lo d) <> bufR (face_hi d). Proof. destruct d; discriminate. Qed.
Lemma bufR_S f f' : bufR f <> bufS f'. Proof. destruct f, f'; discriminate. Qed.

Lemma stage_raw d tag cur a (s s' : nat -> pst) :
  dims_ok g d3 d -> ~ is_buffer a -> (forall x m, cur (with_mem x m) = cur x) ->
  (forall r, (r < P)%nat -> cur (s r) = a) ->
  lockstep P (exchange_dir tp g ly d3 mhd cur (face_lo d) (face_hi d) tag) s s' ->
  forall r, (r < P)%nat ->
  s' r = with_mem (s r) (p_mem (s' r)) /\
  (forall l, la l <> a -> ~ is_buffer (la l) -> p_mem (s' r) l = p_mem (s r) l) /\
  (forall c v, in_arr g d3 c -> 0 <= v < nbvar g ->
     p_mem (s' r) (at_cell a c v) =
     if getc d c <? gw g then
       (if copies (neighborsBC tp g r (face_lo d))
        then p_mem (s (neighbor tp (face_lo d) r)) (at_cell a (setc d c (ndir g d + getc d c)) v)
        else mul (p_mem (s r) (at_cell a (setc d c (src_lo (bc g (face_lo d)) (ndir g d) (gw g) (getc d c))) v))
             (sign_of mhd (bc g (face_lo d)) (2 + dnum d) (5 + dnum d) v))
     else if ndir g d + gw g <=? getc d c then
       (if copies (neighborsBC tp g r (face_hi d))
        then p_mem (s (neighbor tp (face_hi d) r)) (at_cell a (setc d c (getc d c - ndir g d)) v)
        else mul (p_mem (s r) (at_cell a (setc d c (src_hi (bc g (face_hi d)) (ndir g d) (gw g) (getc d c))) v))
             (sign_of mhd (bc g (face_hi d)) (2 + dnum d) (5 + dnum d) v))
     else p_mem (s r) (at_cell a c v)).
Proof.
  intros Hd Hbuf Hcur Hca HL r Hr.
  assert (Ba : forall f, a <> bufS f /\ a <> bufR f) by (intros f; split; intros E; apply Hbuf; exists f; auto).
  apply lock5 in HL. destruct HL as (s1 & s2 & s3 & s4 & T1 & T2 & T3 & T4 & T5).
  (* copies to the send buffers *)
  assert (F1 : forall q, (q < P)%nat -> s1 q = with_mem (s q) (p_mem (s1 q)) /\
    (forall l, la l <> bufS (face_lo d) -> la l <> bufS (face_hi d) -> p_mem (s1 q) l = p_mem (s q) l) /\
    (forall c v, buf_dom g d3 d c -> 0 <= v < nbvar g ->
       p_mem (s1 q) (at_cell (bufS (face_lo d)) c v) = p_mem (s q) (at_cell a (setc d c (gw g + getc d c)) v)) /\
    (forall c v, buf_dom g d3 d c -> 0 <= v < nbvar g ->
       p_mem (s1 q) (at_cell (bufS (face_hi d)) c v) = p_mem (s q) (at_cell a (setc d c (ndir g d + getc d c)) v))).
  { intros q Hq. specialize (T1 q Hq). cbn [together launch] in T1. destruct T1 as (m & Hk & Em).
    rewrite Hca in Hk by assumption. apply run_kernels_2 in Hk. destruct Hk as (sm & K1 & K2).
    assert (K1' : par_exec (p_mem (s q)) ((if d3 then to_buf3 g ly else to_buf2 g ly) a (face_lo d)) sm) by exact K1.
    assert (K2' : par_exec sm ((if d3 then to_buf3 g ly else to_buf2 g ly) a (face_hi d)) m) by exact K2.
    apply to_buf_spec in K1'; [|lia..|rewrite dir_lo; assumption|apply Ba].
    apply to_buf_spec in K2'; [|lia..|rewrite dir_hi; assumption|apply Ba].
    rewrite dir_lo in K1'. rewrite dir_hi in K2'. destruct K1' as [A1 A2], K2' as [B1 B2].
    rewrite off_s_lo in A1. rewrite off_s_hi in B1.
    split; [rewrite Em; reflexivity|]. rewrite Em. cbn [p_mem with_mem]. repeat split.
    - intros l L1 L2. rewrite B2, A2 by assumption. reflexivity.
    - intros c v Hc Hv. rewrite B2, A1 by (auto; rewrite at_cell_la; apply bufS_lo_hi). now rewrite moved_setc.
    - intros c v Hc Hv. rewrite B1 by assumption. rewrite A2, moved_setc; [reflexivity|]. rewrite at_cell_la. apply Ba. }
  assert (F2 : forall q, (q < P)%nat -> s2 q = with_mem (s q) (p_mem (s2 q)) /\
    (forall l, la l <> bufR (face_hi d) -> p_mem (s2 q) l = p_mem (s1 q) l) /\
    (forall c v, buf_dom g d3 d c -> 0 <= v < nbvar g ->
       p_mem (s2 q) (at_cell (bufR (face_hi d)) c v) =
       p_mem (s (neighbor tp (face_hi d) q)) (at_cell a (setc d c (gw g + getc d c)) v))).
  { intros q Hq. specialize (T2 q Hq). cbn [together exchange] in T2.
    destruct (neighbors_inverse tp Htp d q Hq) as (N1 & N2 & N3 & N4).
    destruct (F1 q Hq) as (I1 & I2 & _ & _). destruct (F1 _ N2) as (_ & _ & J3 & _).
    rewrite T2. cbn [p_mem with_mem]. split; [rewrite I1; reflexivity|]. split.
    - intros l Hl. rewrite in_buf_la by assumption. reflexivity.
    - intros c v Hc Hv. rewrite (in_buf_spec d) by (auto using dir_hi).
      rewrite <- (J3 c v Hc Hv). destruct c as [[i j] k]. reflexivity. }
  assert (F3 : forall q, (q < P)%nat -> s3 q = with_mem (s q) (p_mem (s3 q)) /\
    (forall l, la l <> bufR (face_lo d) -> p_mem (s3 q) l = p_mem (s2 q) l) /\
    (forall c v, buf_dom g d3 d c -> 0 <= v < nbvar g ->
       p_mem (s3 q) (at_cell (bufR (face_lo d)) c v) =
       p_mem (s (neighbor tp (face_lo d) q)) (at_cell a (setc d c (ndir g d + getc d c)) v))).
  { intros q Hq. specialize (T3 q Hq). cbn [together exchange] in T3.
    destruct (neighbors_inverse tp Htp d q Hq) as (N1 & N2 & N3 & N4).
    destruct (F2 q Hq) as (I1 & I2 & _). destruct (F2 _ N1) as (_ & K2 & _). destruct (F1 _ N1) as (_ & _ & _ & J4).
    rewrite T3. cbn [p_mem with_mem]. split; [rewrite I1; reflexivity|]. split.
    - intros l Hl. rewrite in_buf_la by assumption. reflexivity.
    - intros c v Hc Hv. rewrite (in_buf_spec d) by (auto using dir_lo).
      rewrite <- (J4 c v Hc Hv). rewrite <- K2 by (rewrite at_cell_la; intros E; symmetry in E; revert E; apply bufR_S).
      destruct c as [[i j] k]. reflexivity. }
  assert (E5 : s' r = s4 r).
  { destruct T5 as (x & _ & T5). apply (T5 r Hr). }
  specialize (T4 r Hr). cbn [together launch] in T4. destruct T4 as (m & Hk & Em).
  assert (Ca : cur (s3 r) = a).
  { destruct (F3 r Hr) as (I1 & _). rewrite I1, Hcur. apply Hca; assumption. }
  rewrite Ca in Hk. apply run_kernels_2 in Hk. destruct Hk as (sm & K1 & K2).
  assert (K1' : par_exec (p_mem (s3 r)) (fill_face a r (face_lo d)) sm) by exact K1.
  assert (K2' : par_exec sm (fill_face a r (face_hi d)) m) by exact K2.
  apply fill_lo in K1'; [|assumption|apply Ba]. apply fill_hi in K2'; [|assumption|apply Ba].
  destruct K1' as [A1 A2], K2' as [B1 B2].
  destruct (F3 r Hr) as (I3 & G3 & R3). destruct (F2 r Hr) as (I2 & G2 & R2). destruct (F1 r Hr) as (I1 & G1 & _ & _).
  assert (Mem : forall l, ~ is_buffer (la l) -> p_mem (s3 r) l = p_mem (s r) l).
  { intros l Hl. rewrite G3, G2, G1; [reflexivity|..]; intros E; apply Hl; rewrite E; eexists; eauto. }
  rewrite E5, Em. cbn [p_mem with_mem].
  split; [rewrite I3; reflexivity|]. split.
  - intros l L1 L2. rewrite B2, A2, Mem; auto; intros c v _ _ _ E; apply L1; rewrite E; apply at_cell_la.
  - intros c v Hc Hv. pose proof (in_arr_getc d c Hd Hc) as Gc. pose proof (dims_n d Hd) as N.
    destruct (Z.ltb_spec (getc d c) (gw g)) as [L|L].
    + rewrite B2; [|intros c' v' _ H' _ E; apply at_cell_inj in E; destruct E as [<- _]; lia].
      rewrite A1 by assumption. unfold val_lo.
      destruct (copies (neighborsBC tp g r (face_lo d))).
      * rewrite R3; [reflexivity| |assumption]. rewrite <- (setc_getc d c). apply buf_dom_setc; auto. lia.
      * rewrite Mem; [reflexivity|]. rewrite at_cell_la. assumption.
    + destruct (Z.leb_spec (ndir g d + gw g) (getc d c)) as [U|U].
      * rewrite B1 by assumption. unfold val_hi.
        destruct (copies (neighborsBC tp g r (face_hi d))) eqn:Ec.
        -- set (y := getc d c - (ndir g d + gw g)).
           assert (Hb : buf_dom g d3 d (setc d c y)) by (apply buf_dom_setc; auto; unfold y; lia).
           rewrite A2; [|intros c' v' _ _ _ E; apply (f_equal la) in E; rewrite !at_cell_la in E; apply (proj2 (Ba (face_hi d))); congruence].
           rewrite G3 by (rewrite at_cell_la; intros E; symmetry in E; revert E; apply bufR_lo_hi).
           rewrite R2 by assumption. rewrite setc_setc, getc_setc. unfold y.
           replace (gw g + (getc d c - (ndir g d + gw g))) with (getc d c - ndir g d) by lia. reflexivity.
        -- rewrite A2.
           ++ rewrite Mem; [reflexivity|]. rewrite at_cell_la. assumption.
           ++ intros c' v' _ H' _ E. apply at_cell_inj in E. destruct E as [E _]. rewrite <- E, getc_setc in H'.
              assert (Hs : no_race_dir (bc g (face_hi d)) (ndir g d) (gw g)) by (left; assumption).
              (* a wall reads from the inside *)
              revert H'. unfold src_hi. destruct (_ =? BC_DIRICHLET); [lia|]. destruct (_ =? BC_NEUMANN); lia.
      * rewrite B2; [|intros c' v' _ H' _ E; apply at_cell_inj in E; destruct E as [<- _]; lia].
        rewrite A2; [|intros c' v' _ H' _ E; apply at_cell_inj in E; destruct E as [<- _]; lia].
        apply Mem. rewrite at_cell_la. assumption.
Qed.

(** The same, in terms of positions in the whole domain. *)
Hypothesis Hcodes : known_codes g.
Lemma stage d tag cur a (s s' : nat -> pst) :
  dims_ok g d3 d -> ~ is_buffer a -> (forall x m, cur (with_mem x m) = cur x) ->
  (forall r, (r < P)%nat -> cur (s r) = a) ->
  lockstep P (exchange_dir tp g ly d3 mhd cur (face_lo d) (face_hi d) tag) s s' ->
  forall r, (r < P)%nat ->
  s' r = with_mem (s r) (p_mem (s' r)) /\
  (forall l, la l <> a -> ~ is_buffer (la l) -> p_mem (s' r) l = p_mem (s r) l) /\
  (forall c v, in_arr g d3 c -> 0 <= v < nbvar g ->
     let lo := kind_of_code (bc g (face_lo d)) in let hi := kind_of_code (bc g (face_hi d)) in
     let n := ndir g d in let N := n * mdir tp d in
     let X := crd tp d r * n + getc d c - gw g in
     let I := image lo hi N X in
     let V := p_mem (s (at_pos tp d r (I / n))) (at_cell a (setc d c (gw g + I mod n)) v) in
     mul V one = V ->
     p_mem (s' r) (at_cell a c v) = along mhd (dnum d) lo hi N X v V).
Proof.
  intros Hd Hbuf Hcur Hca HL r Hr.
  destruct (stage_raw d tag cur a s s' Hd Hbuf Hcur Hca HL r Hr) as (H1 & H2 & H3).
  split; [exact H1|]. split; [exact H2|]. intros c v Hc Hv lo hi n N X I V HV. revert HV. unfold V. clear V. intros mul_one.
  rewrite (H3 c v Hc Hv). clear H1 H2 H3 HL.
  pose proof (in_arr_getc d c Hd Hc) as Gc. pose proof (dims_n d Hd) as Hn.
  pose proof (crd_range tp Htp d r Hr) as Cr. pose proof (mdir_pos tp Htp d) as Hm.
  set (x := getc d c) in *. set (q := crd tp d r) in *. set (m := mdir tp d) in *. set (w := gw g) in *.
  fold n in Gc, Hn |- *.
  assert (DM : forall k y, 0 <= y < n -> (k * n + y) / n = k /\ (k * n + y) mod n = y).
  { intros k y Hy. split; [symmetry; apply Z.div_unique with y; lia|symmetry; apply Z.mod_unique with k; lia]. }
  assert (QN : 0 <= q * n /\ q * n + n <= N) by (unfold N; nia).
  destruct (Z.ltb_spec x w) as [L|L].
  - rewrite neighborsBC_lo. fold q. destruct (Z.eqb_spec q 0) as [E0|E0].
    + assert (EX : X = x - w) by (unfold X; rewrite E0; lia).
      assert (C : copies (bc g (face_lo d)) = true /\ lo = Periodic \/
                  copies (bc g (face_lo d)) = false /\ (bc g (face_lo d) = BC_DIRICHLET \/ bc g (face_lo d) = BC_NEUMANN)).
      { unfold lo. destruct (Hcodes (face_lo d)) as [<-|[<-|[<-|[<-|[]]]]]; cbn; auto. }
      destruct C as [[-> Elo]|[-> Hb]].
      * assert (EI : I = (m - 1) * n + (n + x - w)).
        { unfold I, image. rewrite EX, Elo. destruct (Z.ltb_spec (x - w) 0); [|lia]. unfold N. lia. }
        destruct (DM (m - 1) (n + x - w)) as [D1 D2]; [lia|]. rewrite EI, D1, D2 in mul_one |- *.
        unfold along. rewrite EX, Elo. unfold is_ghost, reflected.
        destruct (Z.ltb_spec (x - w) 0); [|lia]. cbn [orb andb]. rewrite mul_one.
        rewrite neighbor_lo. fold q. rewrite E0.
        replace (w + (n + x - w)) with (n + x) by lia.
        rewrite (at_pos_mod tp Htp d r (0 - 1)), (at_pos_mod tp Htp d r (m - 1)). fold m.
        replace ((0 - 1) mod m) with ((m - 1) mod m); [reflexivity|].
        replace (m - 1) with (0 - 1 + 1 * m) by lia. apply Z_mod_plus_full.
      * assert (EI : w + I = src_lo (bc g (face_lo d)) n w x /\ 0 <= I < n).
        { unfold I, image, src_lo. rewrite EX. destruct (Z.ltb_spec (x - w) 0); [|lia].
          unfold lo. destruct Hb as [-> | ->]; codes; lia. }
        destruct EI as [E1 E2]. destruct (DM 0 I E2) as [D1 D2]. cbn [Z.mul Z.add] in D1, D2.
        rewrite D1, D2, E1. unfold lo. rewrite EX. fold w. rewrite along_lo by lia.
        rewrite <- E0. unfold q. rewrite at_pos_self by assumption. reflexivity.
    + cbn [copies]. replace (copies BC_COPY) with true by reflexivity.
      assert (EX : X = (q - 1) * n + (n + x - w)) by (unfold X; lia).
      destruct (DM (q - 1) (n + x - w)) as [D1 D2]; [lia|].
      assert (RX : 0 <= X < N) by (unfold X; nia).
      assert (EI : I = X) by (apply image_id; exact RX).
      rewrite EI, along_int by exact RX. rewrite EX, D1, D2, neighbor_lo. fold q.
      replace (w + (n + x - w)) with (n + x) by lia. reflexivity.
  - destruct (Z.leb_spec (n + w) x) as [U|U].
    + rewrite neighborsBC_hi. fold q m. destruct (Z.eqb_spec q (m - 1)) as [E0|E0].
      * assert (EX : X = N + (x - w - n)) by (unfold X, N; rewrite E0; lia).
        assert (C : copies (bc g (face_hi d)) = true /\ hi = Periodic \/
                    copies (bc g (face_hi d)) = false /\ (bc g (face_hi d) = BC_DIRICHLET \/ bc g (face_hi d) = BC_NEUMANN)).
        { unfold hi. destruct (Hcodes (face_hi d)) as [<-|[<-|[<-|[<-|[]]]]]; cbn; auto. }
        assert (NN : 0 < N) by (unfold N; nia).
        destruct C as [[-> Ehi]|[-> Hb]].
        -- assert (EI : I = 0 * n + (x - w - n)).
           { unfold I, image. rewrite EX, Ehi. destruct (Z.ltb_spec (N + (x - w - n)) 0); [lia|].
             destruct (Z.leb_spec N (N + (x - w - n))); lia. }
           destruct (DM 0 (x - w - n)) as [D1 D2]; [lia|]. rewrite EI, D1, D2 in mul_one |- *.
           unfold along. rewrite EX, Ehi. unfold is_ghost, reflected.
           destruct (Z.ltb_spec (N + (x - w - n)) 0); [lia|].
           destruct (Z.leb_spec N (N + (x - w - n))); [|lia]. cbn [orb andb]. rewrite mul_one.
           rewrite neighbor_hi. fold q. rewrite E0.
           replace (w + (x - w - n)) with (x - n) by lia.
           rewrite (at_pos_mod tp Htp d r (m - 1 + 1)). fold m.
           replace (m - 1 + 1) with m by lia. rewrite Z_mod_same_full. reflexivity.
        -- assert (EI : w + (I - (m - 1) * n) = src_hi (bc g (face_hi d)) n w x /\ 0 <= I - (m - 1) * n < n).
           { unfold I, image, src_hi. rewrite EX. destruct (Z.ltb_spec (N + (x - w - n)) 0); [lia|].
             destruct (Z.leb_spec N (N + (x - w - n))); [|lia].
             unfold hi, N. destruct Hb as [-> | ->]; codes; lia. }
           destruct EI as [E1 E2]. destruct (DM (m - 1) (I - (m - 1) * n) E2) as [D1 D2].
           replace ((m - 1) * n + (I - (m - 1) * n)) with I in D1, D2 by lia.
           rewrite D1, D2, E1. unfold hi.
           replace X with (N + (x - n) - w) by lia. rewrite along_hi by lia.
           rewrite <- E0. unfold q. rewrite at_pos_self by assumption. reflexivity.
      * replace (copies BC_COPY) with true by reflexivity.
        assert (EX : X = (q + 1) * n + (x - w - n)) by (unfold X; lia).
        destruct (DM (q + 1) (x - w - n)) as [D1 D2]; [lia|].
        assert (RX : 0 <= X < N) by (unfold X, N; nia).
        assert (EI : I = X) by (apply image_id; exact RX).
        rewrite EI, along_int by exact RX. rewrite EX, D1, D2, neighbor_hi. fold q.
        replace (w + (x - w - n)) with (x - n) by lia. reflexivity.
    + assert (EX : X = q * n + (x - w)) by (unfold X; lia).
      destruct (DM q (x - w)) as [D1 D2]; [lia|].
      assert (RX : 0 <= X < N) by (unfold X; lia).
      assert (EI : I = X) by (apply image_id; exact RX).
      rewrite EI, along_int by exact RX. rewrite EX, D1, D2. unfold q. rewrite at_pos_self by assumption.
      replace (w + (x - w)) with x by lia. unfold x. rewrite setc_getc. reflexivity.
Qed.
End Exchange.

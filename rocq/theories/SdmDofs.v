(** Points inside a cell and the memory locations of their values. *)
From Coq Require Import ZArith List Bool Lia.
From Verif Require Import Arith Par ParProofs GridModel HydroState HydroKernels CellKernels
  MoodKernels MoodProofs SdmGeom SdmKernels.
Import ListNotations.
Open Scope Z_scope.

(** ** Mixed radix numbers *)
Lemma radix_inj a x y x' y' : 0 <= x < a -> 0 <= x' < a -> x + a * y = x' + a * y' -> x = x' /\ y = y'.
Proof.
  intros Hx Hx' H. assert (y = y').
  { destruct (Z.lt_trichotomy y y') as [L|[E|L]]; auto; exfalso; nia. }
  subst. lia.
Qed.
Lemma radix_range a b x y : 0 <= x < a -> 0 <= y < b -> 0 <= x + a * y < a * b.
Proof. intros. nia. Qed.
Lemma radix_surj a b n : 0 < a -> 0 <= n < a * b -> exists x y, 0 <= x < a /\ 0 <= y < b /\ n = x + a * y.
Proof.
  intros Ha Hn. exists (n mod a), (n / a).
  pose proof (Z.mod_pos_bound n a Ha). pose proof (Z.div_mod n a ltac:(lia)).
  repeat split; try lia. apply Z.div_pos; lia. apply Z.div_lt_upper_bound; lia.
Qed.

Definition mixed (d3 : bool) (mx my mz x y z v : Z) : Z :=
  if d3 then x + mx * (y + my * (z + mz * v)) else x + mx * (y + my * v).
Lemma DofMap_mixed d3 N x y z v : DofMap d3 N x y z v = mixed d3 N N N x y z v.
Proof. unfold DofMap, mixed. destruct d3; ring. Qed.
(** Points per direction of the flux grid of direction [dir]. *)
Definition mF (N dir a : Z) : Z := if a =? dir then N + 1 else N.
Lemma DofMapFlux_mixed d3 N dir x y z v : In dir (dirs d3) ->
  DofMapFlux d3 N dir x y z v = mixed d3 (mF N dir IX) (mF N dir IY) (mF N dir IZ) x y z v.
Proof.
  intros Hd. apply dirs_cases in Hd. unfold DofMapFlux, mixed, mF.
  destruct Hd as [->|[->|[-> ->]]]; cbn [IX IY IZ Z.eqb Pos.eqb]; try destruct d3; cbn; try ring.
Qed.
Definition in_box (d3 : bool) (m : Z -> Z) (q : cell) : Prop :=
  (forall a, In a (dirs d3) -> 0 <= coord q a < m a) /\ (d3 = false -> coord q IZ = 0).
Lemma in_box_coords d3 m x y z : in_box d3 m (x, y, z) <->
  0 <= x < m IX /\ 0 <= y < m IY /\ (if d3 then 0 <= z < m IZ else z = 0).
Proof.
  unfold in_box. destruct d3; cbn [dirs coord]; split.
  - intros [H _]. split; [apply (H IX)|split; [apply (H IY)|apply (H IZ)]]; cbn; auto.
  - intros (Hx & Hy & Hz). split; [|discriminate]. intros a [<-|[<-|[<-|[]]]]; cbn; auto.
  - intros [H H']. split; [apply (H IX)|split; [apply (H IY)|apply H']]; cbn; auto.
  - intros (Hx & Hy & Hz). split; [|auto]. intros a [<-|[<-|[]]]; cbn; auto.
Qed.
Lemma mixed_inj d3 m x y z v x' y' z' v' : in_box d3 m (x, y, z) -> in_box d3 m (x', y', z') ->
  mixed d3 (m IX) (m IY) (m IZ) x y z v = mixed d3 (m IX) (m IY) (m IZ) x' y' z' v' ->
  (x, y, z) = (x', y', z') /\ v = v'.
Proof.
  rewrite !in_box_coords. intros (Hx & Hy & Hz) (Hx' & Hy' & Hz') H. unfold mixed in H. destruct d3.
  - apply radix_inj in H; auto. destruct H as [-> H]. apply radix_inj in H; auto. destruct H as [-> H].
    apply radix_inj in H; auto. destruct H as [-> ->]. auto.
  - apply radix_inj in H; auto. destruct H as [-> H]. apply radix_inj in H; auto. destruct H as [-> ->].
    subst; auto.
Qed.
Definition vol (d3 : bool) (m : Z -> Z) : Z := if d3 then m IX * (m IY * m IZ) else m IX * m IY.
Lemma mixed_range d3 m x y z v n : in_box d3 m (x, y, z) -> 0 <= v < n ->
  0 <= mixed d3 (m IX) (m IY) (m IZ) x y z v < vol d3 m * n.
Proof.
  rewrite in_box_coords. intros (Hx & Hy & Hz) Hv. unfold mixed, vol. destruct d3.
  - replace (m IX * (m IY * m IZ) * n) with (m IX * (m IY * (m IZ * n))) by ring. repeat apply radix_range; auto.
  - replace (m IX * m IY * n) with (m IX * (m IY * n)) by ring. repeat apply radix_range; auto.
Qed.
Lemma mixed_surj d3 m n i : (forall a, 0 < m a) -> 0 <= i < vol d3 m * n ->
  exists x y z v, in_box d3 m (x, y, z) /\ 0 <= v < n /\ i = mixed d3 (m IX) (m IY) (m IZ) x y z v.
Proof.
  intros Hm Hi. unfold vol in Hi. destruct d3.
  - replace (m IX * (m IY * m IZ) * n) with (m IX * (m IY * (m IZ * n))) in Hi by ring.
    apply radix_surj in Hi; auto. destruct Hi as (x & r & Hx & Hr & ->).
    apply radix_surj in Hr; auto. destruct Hr as (y & r' & Hy & Hr' & ->).
    apply radix_surj in Hr'; auto. destruct Hr' as (z & v & Hz & Hv & ->).
    exists x, y, z, v. rewrite in_box_coords. auto.
  - replace (m IX * m IY * n) with (m IX * (m IY * n)) in Hi by ring.
    apply radix_surj in Hi; auto. destruct Hi as (x & r & Hx & Hr & ->).
    apply radix_surj in Hr; auto. destruct Hr as (y & v & Hy & Hv & ->).
    exists x, y, 0, v. rewrite in_box_coords. auto.
Qed.

(** ** Coordinates *)
Lemma coord_setc a n q b : a = IX \/ a = IY \/ a = IZ -> b = IX \/ b = IY \/ b = IZ ->
  coord (setc a n q) b = if b =? a then n else coord q b.
Proof. destruct q as [[x y] z]. intros [->|[->| ->]] [->|[->| ->]]; reflexivity. Qed.
Lemma cell_ext (q q' : cell) : coord q IX = coord q' IX -> coord q IY = coord q' IY -> coord q IZ = coord q' IZ -> q = q'.
Proof. destruct q as [[x y] z], q' as [[x' y'] z']. cbn. intros. subst. reflexivity. Qed.
Lemma setc_setc a n n' q : setc a n (setc a n' q) = setc a n q.
Proof. destruct q as [[x y] z]. unfold setc. destruct (a =? IX); [|destruct (a =? IY)]; reflexivity. Qed.
Lemma setc_coord a q : a = IX \/ a = IY \/ a = IZ -> setc a (coord q a) q = q.
Proof. destruct q as [[x y] z]. intros [->|[->| ->]]; reflexivity. Qed.
Lemma dir_any b a : In a (dirs b) -> a = IX \/ a = IY \/ a = IZ.
Proof. intros H. apply dirs_cases in H. tauto. Qed.
Lemma setc_inj a n n' q q' : a = IX \/ a = IY \/ a = IZ -> coord q a = coord q' a -> setc a n q = setc a n' q' -> q = q' /\ n = n'.
Proof.
  intros Ha Hc H. destruct q as [[x y] z], q' as [[x' y'] z'].
  destruct Ha as [->|[->| ->]]; cbn in *; injection H; intros; subst; auto.
Qed.

Section B.
Context {T : Type}.
Variable b3 : bool.
Variable P : points T.
Notation N := (npts P).

Lemma In_box m q : In q (box b3 m) <-> in_box b3 m q.
Proof.
  destruct q as [[x y] z]. rewrite in_box_coords. unfold box, cell. rewrite !in_prod_iff. rewrite !In_zrange.
  destruct b3; [rewrite In_zrange|cbn [In]]; intuition.
Qed.
Lemma NoDup_box m : NoDup (box b3 m).
Proof.
  unfold box. apply NoDup_list_prod; [apply NoDup_list_prod; apply NoDup_zrange|].
  destruct b3; [apply NoDup_zrange|]. repeat constructor. intros [].
Qed.
Lemma NoDup_vars : NoDup (vars b3).
Proof. apply NoDup_zrange. Qed.
Lemma In_vars v : In v (vars b3) <-> 0 <= v < nbv b3.
Proof. apply In_zrange. Qed.

Definition mL (dir : Z) (a : Z) : Z := if a =? dir then 1 else N.
Lemma In_lines dir q : In q (lines b3 P dir) <-> in_box b3 (mL dir) q.
Proof. apply In_box. Qed.
Lemma In_dofs q : In q (dofs b3 P) <-> in_box b3 (fun _ => N) q.
Proof. apply In_box. Qed.
Lemma line_coord dir q : In dir (dirs b3) -> In q (lines b3 P dir) -> coord q dir = 0.
Proof.
  intros Hd Hq. apply In_lines in Hq. destruct Hq as [Hq _]. specialize (Hq dir Hd). unfold mL in Hq.
  rewrite Z.eqb_refl in Hq. lia.
Qed.
Lemma line_flux dir q n : In dir (dirs b3) -> In q (lines b3 P dir) -> 0 <= n <= N -> in_box b3 (mF N dir) (setc dir n q).
Proof.
  intros Hd Hq Hn. apply In_lines in Hq. destruct Hq as [Hq Hz]. split.
  - intros a Ha. rewrite coord_setc by (eapply dir_any; eauto). specialize (Hq a Ha). unfold mL in Hq. unfold mF.
    destruct (a =? dir); lia.
  - intros H. rewrite coord_setc; [|eapply dir_any; eauto|auto].
    assert (IZ =? dir = false) as ->; [|auto]. apply Z.eqb_neq. subst b3. destruct Hd as [<-|[<-|[]]]; discriminate.
Qed.
Lemma line_sol dir q n : In dir (dirs b3) -> In q (lines b3 P dir) -> 0 <= n < N -> in_box b3 (fun _ => N) (setc dir n q).
Proof.
  intros Hd Hq Hn. apply In_lines in Hq. destruct Hq as [Hq Hz]. split.
  - intros a Ha. rewrite coord_setc by (eapply dir_any; eauto). specialize (Hq a Ha). unfold mL in Hq.
    destruct (a =? dir); lia.
  - intros H. rewrite coord_setc; [|eapply dir_any; eauto|auto].
    assert (IZ =? dir = false) as ->; [|auto]. apply Z.eqb_neq. subst b3. destruct Hd as [<-|[<-|[]]]; discriminate.
Qed.
Lemma dof_line dir q : In dir (dirs b3) -> In q (dofs b3 P) ->
  In (setc dir 0 q) (lines b3 P dir) /\ 0 <= coord q dir < N /\ q = setc dir (coord q dir) (setc dir 0 q).
Proof.
  intros Hd Hq. apply In_dofs in Hq. destruct Hq as [Hq Hz]. split; [|split].
  - apply In_lines. split.
    + intros a Ha. rewrite coord_setc by (eapply dir_any; eauto). specialize (Hq a Ha). unfold mL.
      destruct (a =? dir); lia.
    + intros H. rewrite coord_setc; [|eapply dir_any; eauto|auto].
      assert (IZ =? dir = false) as ->; [|auto]. apply Z.eqb_neq. subst b3. destruct Hd as [<-|[<-|[]]]; discriminate.
  - auto.
  - rewrite setc_setc, setc_coord by (eapply dir_any; eauto). reflexivity.
Qed.
Lemma flux_line dir q : In dir (dirs b3) -> in_box b3 (mF N dir) q ->
  In (setc dir 0 q) (lines b3 P dir) /\ 0 <= coord q dir <= N /\ q = setc dir (coord q dir) (setc dir 0 q).
Proof.
  intros Hd Hq. destruct Hq as [Hq Hz]. split; [|split].
  - apply In_lines. split.
    + intros a Ha. rewrite coord_setc by (eapply dir_any; eauto). specialize (Hq a Ha). unfold mL. unfold mF in Hq.
      destruct (a =? dir); lia.
    + intros H. rewrite coord_setc; [|eapply dir_any; eauto|auto].
      assert (IZ =? dir = false) as ->; [|auto]. apply Z.eqb_neq. subst b3. destruct Hd as [<-|[<-|[]]]; discriminate.
  - specialize (Hq dir Hd). unfold mF in Hq. rewrite Z.eqb_refl in Hq. lia.
  - rewrite setc_setc, setc_coord by (eapply dir_any; eauto). reflexivity.
Qed.

(** ** Locations *)
Lemma la_sloc a c q v : la (sloc b3 P a c q v) = a.
Proof. destruct q as [[x y] z]. apply la_at_cell. Qed.
Lemma la_floc dir c q v : la (floc b3 P dir c q v) = aSF.
Proof. destruct q as [[x y] z]. apply la_at_cell. Qed.
Lemma at_sloc a c q v : at_of (sloc b3 P a c q v) = c.
Proof. destruct q as [[x y] z]. apply at_of_at_cell. Qed.
Lemma at_floc dir c q v : at_of (floc b3 P dir c q v) = c.
Proof. destruct q as [[x y] z]. apply at_of_at_cell. Qed.
Lemma sloc_inj a c q v a' c' q' v' : in_box b3 (fun _ => N) q -> in_box b3 (fun _ => N) q' ->
  sloc b3 P a c q v = sloc b3 P a' c' q' v' -> a = a' /\ c = c' /\ q = q' /\ v = v'.
Proof.
  destruct q as [[x y] z], q' as [[x' y'] z']. intros Hq Hq' H. unfold sloc in H. apply at_cell_inj in H.
  destruct H as (-> & -> & H). rewrite !DofMap_mixed in H. apply (mixed_inj b3 (fun _ => N)) in H. tauto. all: auto.
Qed.
Lemma floc_inj dir c q v c' q' v' : In dir (dirs b3) -> in_box b3 (mF N dir) q -> in_box b3 (mF N dir) q' ->
  floc b3 P dir c q v = floc b3 P dir c' q' v' -> c = c' /\ q = q' /\ v = v'.
Proof.
  destruct q as [[x y] z], q' as [[x' y'] z']. intros Hd Hq Hq' H. unfold floc in H. apply at_cell_inj in H.
  destruct H as (_ & -> & H). rewrite !DofMapFlux_mixed in H by auto. apply mixed_inj in H. tauto. all: auto.
Qed.
End B.

(** C88: the error norms of the spectral difference solver. *)
From Coq Require Import ZArith List Bool Reals Lia Lra Permutation.
From Verif Require Import Arith Par ParProofs GridModel HydroState HydroKernels CellKernels MoodKernels MoodProofs ReduceModel SdmGeom SdmKernels SdmVtk SdmError.
Import ListNotations.
Open Scope Z_scope.

(** ** Specification. *)
(** (c, q): solution point q of an interior cell c. *)
Definition interior_point (b3 : bool) (N : Z) (g : grid) (cq : cell * cell) : Prop :=
  let '((i, j, k), (ix, iy, iz)) := cq in
  gw g <= i < gw g + nx g /\ gw g <= j < gw g + ny g /\ (if b3 then gw g <= k < gw g + nz g else k = 0) /\
  0 <= ix < N /\ 0 <= iy < N /\ (if b3 then 0 <= iz < N else iz = 0).
(** A list of all of them, each once, in any order. *)
Definition lists_interior b3 N g (L : list (cell * cell)) : Prop := NoDup L /\ forall x, In x L <-> interior_point b3 N g x.
Fixpoint sum_list {X} (f : X -> R) (l : list X) : R := match l with [] => 0%R | x :: l => (f x + sum_list f l)%R end.
(** Value of variable [v] of array [a] at a point. *)
Definition value b3 (P : points R) (s : store R) (a v : Z) (x : cell * cell) : R := s (sloc b3 P a (fst x) (snd x) v).

(** ** Sums. *)
Lemma sum_app {X} (f : X -> R) l m : sum_list f (l ++ m) = (sum_list f l + sum_list f m)%R.
Proof. induction l as [|x l IH]; cbn; [ring|]. rewrite IH. ring. Qed.
Lemma sum_perm {X} (f : X -> R) l m : Permutation l m -> sum_list f l = sum_list f m.
Proof. induction 1; cbn; try lra. Qed.
Lemma sum_ext {X} (f h : X -> R) l : (forall x, In x l -> f x = h x) -> sum_list f l = sum_list h l.
Proof. induction l as [|x l IH]; intros H; cbn; [reflexivity|]. rewrite (H x) by (left; reflexivity). rewrite IH; [reflexivity|]. intros y Hy. apply H. right. exact Hy. Qed.
Lemma sum_le {X} (f h : X -> R) l : (forall x, f x <= h x)%R -> (sum_list f l <= sum_list h l)%R.
Proof. intros H. induction l as [|x l IH]; cbn; [lra|]. pose proof (H x). lra. Qed.
Lemma sum_nonneg {X} (f : X -> R) l : (forall x, 0 <= f x)%R -> (0 <= sum_list f l)%R.
Proof. intros H. induction l as [|x l IH]; cbn; [lra|]. pose proof (H x). lra. Qed.
Lemma sum_zero {X} (f : X -> R) l : (forall x, 0 <= f x)%R -> sum_list f l = 0%R -> forall x, In x l -> f x = 0%R.
Proof.
  intros H. induction l as [|y l IH]; cbn; [intros _ x []|]. intros E x [->|Hx]; pose proof (sum_nonneg f l H) as B.
  - pose proof (H x). lra.
  - apply IH; [|exact Hx]. pose proof (H y). lra.
Qed.
Lemma sum_flat {X Y} (f : Y -> R) (u : X -> list Y) l : sum_list f (flat_map u l) = sum_list (fun x => sum_list f (u x)) l.
Proof. induction l as [|x l IH]; cbn; [reflexivity|]. rewrite sum_app, IH. reflexivity. Qed.
Lemma sum_map {X Y} (f : Y -> R) (u : X -> Y) l : sum_list f (map u l) = sum_list (fun x => f (u x)) l.
Proof. induction l as [|x l IH]; cbn; [reflexivity|]. rewrite IH. reflexivity. Qed.
Lemma sum_plus {X} (f h : X -> R) l : sum_list (fun x => f x + h x)%R l = (sum_list f l + sum_list h l)%R.
Proof. induction l as [|x l IH]; cbn; [ring|]. rewrite IH. ring. Qed.
Lemma fold_sum {X} (f : X -> R) l a : fold_left (fun sum q => (sum + f q)%A) l a = (a + sum_list f l)%R.
Proof. revert a. induction l as [|x l IH]; intros a; cbn; [ring|]. rewrite IH. cbn. ring. Qed.

(** ** Points. *)
Lemma NoDup_flat_map {X Y} (u : X -> list Y) l : NoDup l -> (forall x, NoDup (u x)) -> (forall x y z, In z (u x) -> In z (u y) -> x = y) -> NoDup (flat_map u l).
Proof.
  intros Hl Hu Hd. induction Hl as [|x l Hx Hl IH]; cbn; [constructor|]. apply NoDup_app_intro; auto.
  intros z Hz Hz'. apply in_flat_map in Hz'. destruct Hz' as [y [Hy Hzy]]. rewrite (Hd x y z Hz Hzy) in Hx. contradiction.
Qed.
Lemma In_loop3 a b c i j k : In (i, j, k) (loop3 a b c) <-> 0 <= i < a /\ 0 <= j < b /\ 0 <= k < c.
Proof.
  unfold loop3. rewrite in_flat_map. split.
  - intros [k' [Hk H]]. apply in_flat_map in H. destruct H as [j' [Hj H]]. apply in_map_iff in H. destruct H as [i' [E Hi]].
    injection E as -> -> ->. rewrite In_zrange in *. auto.
  - intros (Hi & Hj & Hk). exists k. split; [apply In_zrange; exact Hk|]. apply in_flat_map. exists j. split; [apply In_zrange; exact Hj|].
    apply in_map_iff. exists i. split; [reflexivity|]. apply In_zrange. exact Hi.
Qed.
Lemma NoDup_loop3 a b c : NoDup (loop3 a b c).
Proof.
  unfold loop3. apply NoDup_flat_map; [apply NoDup_zrange| |].
  - intros k. apply NoDup_flat_map; [apply NoDup_zrange| |].
    + intros j. apply FinFun.Injective_map_NoDup; [|apply NoDup_zrange]. intros x y E. injection E as E. exact E.
    + intros x y z Hx Hy. apply in_map_iff in Hx. apply in_map_iff in Hy. destruct Hx as [? [<- _]], Hy as [? [E _]]. congruence.
  - intros x y z Hx Hy. apply in_flat_map in Hx. apply in_flat_map in Hy. destruct Hx as [? [_ Hx]], Hy as [? [_ Hy]].
    apply in_map_iff in Hx. apply in_map_iff in Hy. destruct Hx as [? [<- _]], Hy as [? [E _]]. congruence.
Qed.
Definition pts (b3 : bool) (N : Z) (g : grid) : list (cell * cell) :=
  flat_map (fun c => if inside b3 g c then map (pair c) (vsub b3 N) else []) (cellsD b3 g).
Lemma inside_cell b3 g i j k : 0 <= gw g -> (In (i, j, k) (cellsD b3 g) /\ inside b3 g (i, j, k) = true <->
  gw g <= i < gw g + nx g /\ gw g <= j < gw g + ny g /\ (if b3 then gw g <= k < gw g + nz g else k = 0)).
Proof.
  intros Hw. destruct b3; cbn [cellsD].
  - rewrite In_cells3. unfold inside, guard. cbn [dirs forallb coord fst snd]. rewrite !andb_true_iff, !Z.leb_le, !Z.ltb_lt.
    unfold sizeA, isize, jsize, ksize, imax, jmax, kmax, imin, jmin, kmin. cbn -[Z.mul Z.add Z.sub Z.le Z.lt]. split; [intros [HA HB]; decompose [and] HA; decompose [and] HB|intros HA; decompose [and] HA]; repeat split; try lia.
  - rewrite In_cells2. unfold inside, guard. cbn [dirs forallb coord fst snd]. rewrite !andb_true_iff, !Z.leb_le, !Z.ltb_lt.
    unfold sizeA, isize, jsize, ksize, imax, jmax, kmax, imin, jmin, kmin. cbn -[Z.mul Z.add Z.sub Z.le Z.lt]. split; [intros [HA HB]; decompose [and] HA; decompose [and] HB|intros HA; decompose [and] HA]; repeat split; try lia.
Qed.
Lemma pts_interior b3 N g : 0 <= gw g -> lists_interior b3 N g (pts b3 N g).
Proof.
  intros Hw. split.
  - apply NoDup_flat_map; [apply NoDup_cellsD| |].
    + intros c. destruct (inside b3 g c); [|constructor]. apply FinFun.Injective_map_NoDup; [|apply NoDup_loop3]. intros x y E. injection E as E. exact E.
    + intros x y z Hx Hy. destruct (inside b3 g x), (inside b3 g y); try contradiction.
      apply in_map_iff in Hx. apply in_map_iff in Hy. destruct Hx as [? [<- _]], Hy as [? [E _]]. congruence.
  - intros [[[i j] k] [[ix iy] iz]]. unfold pts. rewrite in_flat_map. cbn [interior_point].
    assert (V : In (ix, iy, iz) (vsub b3 N) <-> 0 <= ix < N /\ 0 <= iy < N /\ (if b3 then 0 <= iz < N else iz = 0)).
    { unfold vsub, alongz. rewrite In_loop3. destruct b3; [reflexivity|]. lia. }
    pose proof (inside_cell b3 g i j k Hw) as C. split.
    + intros [c [Hc H]]. destruct (inside b3 g c) eqn:E; [|destruct H]. apply in_map_iff in H. destruct H as [q [E' Hq]].
      injection E' as -> ->. apply V in Hq. destruct (proj1 C (conj Hc E)) as (H1 & H2 & H3). tauto.
    + intros (H1 & H2 & H3 & H4). destruct (proj2 C (conj H1 (conj H2 H3))) as [Hc E]. exists (i, j, k). split; [exact Hc|].
      rewrite E. apply in_map_iff. exists (ix, iy, iz). split; [reflexivity|]. apply V. exact H4.
Qed.

Section Value.
Variable b3 : bool.
Variable P : points R.
Variable g : grid.
Variable norm : norm_type.
Variable s : store R.
Variable a1 a2 v : Z.
Notation term := (fun x : cell * cell => err_term b3 P norm s a1 a2 v (fst x) (snd x)).
Definition cell_sum (c : cell) : R := if inside b3 g c then sum_list (err_term b3 P norm s a1 a2 v c) (vsub b3 (npts P)) else 0%R.
Lemma body_sum c a : err_body b3 P g norm s a1 a2 v c a = (a + cell_sum c)%R.
Proof. unfold err_body, cell_sum. destruct (inside b3 g c); [apply fold_sum|ring]. Qed.
Lemma partial_sum l r : partial zero (err_body b3 P g norm s a1 a2 v) add l r -> r = sum_list cell_sum l.
Proof.
  induction 1 as [|l a x H IH|l m a b Ha IHa Hb IHb]; [reflexivity| |].
  - rewrite body_sum, IH. cbn. ring.
  - rewrite sum_app, <- IHa, <- IHb. reflexivity.
Qed.
Lemma error_pts r : compute_error b3 P g norm s a1 a2 v r -> r = sum_list term (pts b3 (npts P) g).
Proof.
  intros [l [Hl H]]. apply partial_sum in H. rewrite H, (sum_perm _ _ _ Hl). unfold pts. rewrite sum_flat. apply sum_ext.
  intros c _. unfold cell_sum. destruct (inside b3 g c); [|reflexivity]. rewrite sum_map. reflexivity.
Qed.
Lemma partial_exists l : exists r, partial zero (err_body b3 P g norm s a1 a2 v) add l r.
Proof. induction l as [|c l [r IH]]; [exists zero; constructor|]. eexists. constructor. exact IH. Qed.
End Value.

(** ** The theorems. *)
(** However the cells are distributed over threads and joined, the result exists and is the sum,
    over all solution points of the interior cells, of the distance of the two values (of its
    square for NORM_L2). *)
Theorem C88_value : forall b3 P g norm (s : store R) a1 a2 v, 0 <= gw g ->
  (exists r, compute_error b3 P g norm s a1 a2 v r) /\
  forall r L, compute_error b3 P g norm s a1 a2 v r -> lists_interior b3 (npts P) g L ->
    r = sum_list (fun x => match norm with
                           | NORM_L1 => Rabs (value b3 P s a1 v x - value b3 P s a2 v x)
                           | NORM_L2 => (value b3 P s a1 v x - value b3 P s a2 v x) ^ 2
                           end%R) L.
Proof.
  intros b3 P g norm s a1 a2 v Hw. split.
  - destruct (partial_exists b3 P g norm s a1 a2 v (cellsD b3 g)) as [r H]. exists r, (cellsD b3 g). split; [reflexivity|exact H].
  - intros r L H [HL1 HL2]. apply error_pts in H. rewrite H. destruct (pts_interior b3 (npts P) g Hw) as [N1 N2].
    rewrite (sum_perm _ (pts b3 (npts P) g) L).
    + apply sum_ext. intros [c q] _. unfold err_term, value. destruct norm; cbn; [reflexivity|ring].
    + apply NoDup_Permutation; auto. intros x. rewrite HL2, N2. reflexivity.
Qed.
Print Assumptions C88_value.

(** It is zero exactly if the two solutions agree at these points. *)
Theorem C88_zero : forall b3 P g norm (s : store R) a1 a2 v r, 0 <= gw g -> compute_error b3 P g norm s a1 a2 v r ->
  (0 <= r)%R /\ (r = 0%R <-> forall x, interior_point b3 (npts P) g x -> value b3 P s a1 v x = value b3 P s a2 v x).
Proof.
  intros b3 P g norm s a1 a2 v r Hw H. destruct (C88_value b3 P g norm s a1 a2 v Hw) as [_ E].
  specialize (E r _ H (pts_interior b3 (npts P) g Hw)). destruct (pts_interior b3 (npts P) g Hw) as [_ M].
  match type of E with r = sum_list ?f _ => assert (F : forall x, (0 <= f x)%R); [|pose (t := f)] end.
  { intros x. destruct norm; [apply Rabs_pos|]. rewrite <- Rsqr_pow2. apply Rle_0_sqr. }
  fold t in E, F. split; [rewrite E; apply sum_nonneg; exact F|]. split.
  - intros Z x Hx. apply M in Hx. assert (T0 : t x = 0%R) by (eapply sum_zero; [exact F| |exact Hx]; rewrite <- E; exact Z).
    unfold t in T0. destruct norm.
    + destruct (Req_dec (value b3 P s a1 v x - value b3 P s a2 v x) 0) as [D|D]; [lra|]. apply Rabs_no_R0 in D. contradiction.
    + rewrite <- Rsqr_pow2 in T0. apply Rsqr_0_uniq in T0. lra.
  - intros Q. rewrite E. rewrite (sum_ext _ (fun _ => 0%R)).
    + clear. induction (pts b3 (npts P) g); cbn; lra.
    + intros x Hx. apply M in Hx. unfold t. rewrite (Q x Hx). destruct norm; [rewrite Rminus_diag_eq by reflexivity; apply Rabs_R0|ring].
Qed.
Print Assumptions C88_zero.

(** Order of the arguments; triangle inequality of NORM_L1. *)
Theorem C88_distance : forall b3 P g norm (s : store R) a1 a2 a3 v r12 r21 r13 r23, 0 <= gw g ->
  compute_error b3 P g norm s a1 a2 v r12 -> compute_error b3 P g norm s a2 a1 v r21 ->
  compute_error b3 P g norm s a1 a3 v r13 -> compute_error b3 P g norm s a2 a3 v r23 ->
  r12 = r21 /\ (norm = NORM_L1 -> (r13 <= r12 + r23)%R).
Proof.
  intros b3 P g norm s a1 a2 a3 v r12 r21 r13 r23 Hw H12 H21 H13 H23.
  pose proof (pts_interior b3 (npts P) g Hw) as L.
  rewrite (proj2 (C88_value b3 P g norm s a1 a2 v Hw) _ _ H12 L), (proj2 (C88_value b3 P g norm s a2 a1 v Hw) _ _ H21 L),
    (proj2 (C88_value b3 P g norm s a1 a3 v Hw) _ _ H13 L), (proj2 (C88_value b3 P g norm s a2 a3 v Hw) _ _ H23 L). split.
  - apply sum_ext. intros x _. destruct norm; [apply Rabs_minus_sym|ring].
  - intros ->. rewrite <- sum_plus. apply sum_le. intros x.
    replace (value b3 P s a1 v x - value b3 P s a3 v x)%R with ((value b3 P s a1 v x - value b3 P s a2 v x) + (value b3 P s a2 v x - value b3 P s a3 v x))%R by ring.
    apply Rabs_triang.
Qed.
Print Assumptions C88_distance.

(** ** A case: one interior cell with one point. *)
Definition ex_pt : points R := Points 1 (fun _ => (1 / 2)%R) (fun _ => 0%R).
Definition ex_eg : grid := Grid 1 1 1 1 4 (fun _ => 1).
Definition ex_store (d : R) : store R := fun l => if la l =? 1 then d else 0%R.
Lemma ex_list : lists_interior false 1 ex_eg [((1, 1, 0), (0, 0, 0))].
Proof.
  split; [constructor; [intros []|constructor]|]. intros [[[i j] k] [[ix iy] iz]]. cbn. split.
  - intros [E|[]]. injection E as <- <- <- <- <- <-. lia.
  - intros H. left. repeat f_equal; lia.
Qed.
Lemma ex_value norm d r : compute_error false ex_pt ex_eg norm (ex_store d) 1 2 ID r ->
  r = match norm with NORM_L1 => Rabs d | NORM_L2 => (d ^ 2)%R end.
Proof.
  intros H. destruct (C88_value false ex_pt ex_eg norm (ex_store d) 1 2 ID ltac:(cbn; lia)) as [_ E].
  rewrite (E r _ H ex_list). cbn [sum_list]. unfold value. destruct norm; cbn; [|ring].
  rewrite Rplus_0_r, Rminus_0_r. reflexivity.
Qed.
Example ex_error : exists r, compute_error false ex_pt ex_eg NORM_L1 (ex_store (-3)) 1 2 ID r /\ r = 3%R.
Proof.
  destruct (C88_value false ex_pt ex_eg NORM_L1 (ex_store (-3)) 1 2 ID ltac:(cbn; lia)) as [[r H] _]. exists r. split; [exact H|].
  rewrite (ex_value _ _ _ H). rewrite Rabs_left; lra.
Qed.
(** NORM_L2 does not give the L2 norm: it is not even homogeneous (the root is left to the caller). *)
Theorem C88_l2_refuted : ~ (forall b3 P g (s s' : store R) a1 a2 v r r', 0 <= gw g ->
  compute_error b3 P g NORM_L2 s a1 a2 v r -> compute_error b3 P g NORM_L2 s' a1 a2 v r' ->
  (forall x, interior_point b3 (npts P) g x -> value b3 P s' a1 v x - value b3 P s' a2 v x = 2 * (value b3 P s a1 v x - value b3 P s a2 v x))%R ->
  r' = (2 * r)%R).
Proof.
  intros H.
  destruct (C88_value false ex_pt ex_eg NORM_L2 (ex_store 1) 1 2 ID ltac:(cbn; lia)) as [[r Hr] _].
  destruct (C88_value false ex_pt ex_eg NORM_L2 (ex_store 2) 1 2 ID ltac:(cbn; lia)) as [[r' Hr'] _].
  assert (E : r' = (2 * r)%R).
  { apply (H false ex_pt ex_eg (ex_store 1) (ex_store 2) 1 2 ID); auto; [cbn; lia|].
    intros [[[i j] k] [[ix iy] iz]] _. unfold value. cbn. ring. }
  rewrite (ex_value _ _ _ Hr), (ex_value _ _ _ Hr') in E. lra.
Qed.
Print Assumptions C88_l2_refuted.

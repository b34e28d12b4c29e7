(** What the loops of the viscous terms compute, for every schedule. *)
From Coq Require Import ZArith List Bool Lia.
From Verif Require Import Arith Par ParProofs GridModel BoundaryModel BoundaryProofs HydroState RiemannModel HydroPoint
  HydroKernels CellKernels HydroField HydroExec HydroSpec HydroConserve HydroStep2 MoodKernels MoodProofs
  TaskModel TaskKernels SdmGeom EulerModel SdmKernels SdmDofs SdmProofs SdmVisc.
Import ListNotations.
Open Scope Z_scope.

Section VP.
Context {T : Type} {A : Arith T}.
Notation store := (store T).
Variable b3 : bool.
Variable P : points T.
Variable p : hparams T.
Variable g : grid.
Notation N := (npts P).
Hypothesis HN : 1 <= N.
Notation C := (cells b3 g).
Notation D := (dofs b3 P).
Notation V := (vars b3).
Notation fieldS := (cell -> cell -> Z -> T).
Notation sv := (sv b3 P).
Notation fbox := (fbox b3 P).
Notation dimn := (dimn b3).
Definition gv (s : store) (a dir : Z) : fieldS := fun c q v => s (gloc b3 P a dir c q v).

Lemma la_gloc a dir c q v : la (gloc b3 P a dir c q v) = a.
Proof. destruct q as [[x y] z]. apply la_at_cell. Qed.
Lemma gloc_inj a dir c q v a' c' q' v' : In dir (dirs b3) -> fbox dir q -> fbox dir q' ->
  gloc b3 P a dir c q v = gloc b3 P a' dir c' q' v' -> c = c' /\ q = q' /\ v = v'.
Proof.
  destruct q as [[x y] z], q' as [[x' y'] z']. intros Hd Hq Hq' H. unfold gloc in H. apply at_cell_inj in H.
  destruct H as (_ & -> & H). rewrite !DofMapFlux_mixed in H by auto. apply mixed_inj in H. tauto. all: auto.
Qed.
Lemma gloc_line a dir c q n v c' q' n' v' : In dir (dirs b3) -> In q (lines b3 P dir) -> In q' (lines b3 P dir) ->
  0 <= n <= N -> 0 <= n' <= N -> gloc b3 P a dir c (setc dir n q) v = gloc b3 P a dir c' (setc dir n' q') v' ->
  c = c' /\ n = n' /\ q = q' /\ v = v'.
Proof.
  intros Hd Hq Hq' Hn Hn' E. apply gloc_inj in E; [|auto|apply line_flux; auto|apply line_flux; auto].
  destruct E as (-> & E & ->). apply setc_inj in E; [tauto|apply (dir_any b3 dir Hd)|].
  rewrite !(line_coord b3 P dir) by tauto. reflexivity.
Qed.
Lemma getl_appL (f h : Z -> T) n m i : 0 <= i < n -> getl (map f (zrange 0 n) ++ map h (zrange 0 m)) i = f i.
Proof.
  intros Hi. unfold getl. rewrite app_nth1 by (rewrite map_length, zrange_length; lia). apply (getl_map f n i Hi).
Qed.
Lemma getl_appR (f h : Z -> T) n m i : 0 <= n -> 0 <= i < m -> getl (map f (zrange 0 n) ++ map h (zrange 0 m)) (n + i) = h i.
Proof.
  intros Hn Hi. unfold getl. rewrite app_nth2 by (rewrite map_length, zrange_length; lia).
  rewrite map_length, zrange_length. replace (Z.to_nat (n + i) - Z.to_nat (n - 0))%nat with (Z.to_nat i) by lia. apply (getl_map h m i Hi).
Qed.

(** ** Ratios interpolated to the flux points *)
Definition ratioF (dir num den : Z) (U : fieldS) : cell -> cell -> T := fun c q =>
  sol2flux P (fun n => div (U c (setc dir n q) num) (U c (setc dir n q) den)) (coord q dir).
Lemma ratio_spec dir aIn aOut (num out : Z -> Z) den (s s' : store) : In dir (dirs b3) -> aIn <> aOut ->
  (forall k k', 0 <= k < dimn -> 0 <= k' < dimn -> out k = out k' -> k = k') ->
  par_exec s (tasks_loop C (fun c => map (fun k => ratio_task b3 P dir aIn aOut (num (snd k)) den (out (snd k)) c (fst k))
    (list_prod (lines b3 P dir) (zrange 0 dimn)))) s' ->
  (forall c q k, In c C -> fbox dir q -> 0 <= k < dimn -> gv s' aOut dir c q (out k) = ratioF dir (num k) den (sv s aIn) c q) /\
  (forall c q v, fbox dir q -> (forall k, 0 <= k < dimn -> out k <> v) -> gv s' aOut dir c q v = gv s aOut dir c q v) /\
  (forall l, la l <> aOut -> s' l = s l).
Proof.
  intros Hd Ha Hout Hex. pose proof (dir_any b3 dir Hd) as Hany.
  apply (tasks_spec C (fun _ => list_prod (lines b3 P dir) (zrange 0 dimn))
    (fun c k => ratio_task b3 P dir aIn aOut (num (snd k)) den (out (snd k)) c (fst k))) in Hex.
  - destruct Hex as [H1 H2]. split; [|split].
    + intros c q k Hc Hq Hk. destruct (flux_line b3 P dir q Hd Hq) as (Hl & Hn & Eq).
      apply (H1 c (setc dir 0 q, k)); auto. apply in_prod; [auto|apply In_zrange; auto].
      cbn [ratio_task tw tv tr fst snd].
      rewrite map_app, !map_map. set (vs := map _ _ ++ map _ _).
      replace (gloc b3 P aOut dir c q (out k)) with (gloc b3 P aOut dir c (setc dir (coord q dir) (setc dir 0 q)) (out k)) by (rewrite <- Eq; reflexivity).
      replace (ratioF dir (num k) den (sv s aIn) c q) with (sol2flux P (fun m => div (getl vs m) (getl vs (N + m))) (coord q dir)).
      2:{ unfold ratioF. apply sol2flux_ext. intros n Hn'. unfold vs. rewrite getl_appL, getl_appR by lia. rewrite setc_setc. reflexivity. }
      apply (In_combine_map (fun n => gloc b3 P aOut dir c (setc dir n (setc dir 0 q)) (out k))
        (fun n => sol2flux P (fun m => div (getl vs m) (getl vs (N + m))) n)). apply In_zrange. lia.
    + intros c q v Hq Hv. apply H2. intros c' [q' k'] Hc' Hk Hin. apply in_prod_iff in Hk. rewrite In_zrange in Hk. cbn in Hin.
      apply in_map_iff in Hin. destruct Hin as (n & E & Hn). apply In_zrange in Hn. cbn [fst snd] in E.
      apply gloc_inj in E; [|auto|apply line_flux; auto; [tauto|lia]|auto]. destruct E as (_ & _ & E). apply (Hv k'); tauto.
    + intros l Hl. apply H2. intros c [q v] Hc Hk Hin. cbn in Hin. apply in_map_iff in Hin. destruct Hin as (n & <- & _).
      rewrite la_gloc in Hl. auto.
  - apply NoDup_C.
  - intros; apply NoDup_list_prod; [apply NoDup_box|apply NoDup_zrange].
  - intros c [q v] Hc Hk. apply in_prod_iff in Hk. cbn. apply NoDup_map_in; [|apply NoDup_zrange].
    intros n n' Hn Hn' E. apply In_zrange in Hn. apply In_zrange in Hn'. apply gloc_line in E; try tauto; lia.
  - intros c [q v] c' [q' v'] l Hc Hk Hc' Hk' Hw Hw'. cbn in Hw, Hw'. apply in_prod_iff in Hk. apply in_prod_iff in Hk'.
    rewrite In_zrange in Hk, Hk'.
    apply in_map_iff in Hw. destruct Hw as (n & <- & Hn). apply In_zrange in Hn. destruct Hw' as [Hw'|Hw'].
    + apply in_map_iff in Hw'. destruct Hw' as (n' & E & Hn'). apply In_zrange in Hn'.
      apply gloc_line in E; try tauto; try lia. destruct E as (-> & _ & -> & E). apply Hout in E; try tauto. subst. auto.
    + exfalso. apply in_app_iff in Hw'. destruct Hw' as [Hw'|Hw']; apply in_map_iff in Hw'; destruct Hw' as (n' & E & _);
        apply (f_equal la) in E; rewrite la_gloc, la_sloc in E; contradiction.
Qed.

(** ** Averages at the cell borders *)
Definition avg2 (nb : nat) (a b : T) : T * T :=
  Nat.iter nb (fun ab => let m := mul half (add (fst ab) (snd ab)) in (m, m)) (a, b).
Definition avgF (dir : Z) (nb : nat) (X : cell -> cell -> T) : cell -> cell -> T := fun c q =>
  let n := coord q dir in
  if n =? 0 then if 0 <? coord c dir then snd (avg2 nb (X (along_dir dir (-1) c) (setc dir N q)) (X c (setc dir 0 q))) else X c q
  else if n =? N then if coord c dir + 1 <? sizeA g dir then fst (avg2 nb (X c (setc dir N q)) (X (along_dir dir 1 c) (setc dir 0 q))) else X c q
  else X c q.
Lemma avgF_ext dir nb X Y c q : In dir (dirs b3) -> (forall c q, In c C -> fbox dir q -> X c q = Y c q) -> In c C -> fbox dir q ->
  avgF dir nb X c q = avgF dir nb Y c q.
Proof.
  intros Hd H Hc Hq. unfold avgF. cbv zeta. destruct (flux_line b3 P dir q Hd Hq) as (Hl & Hn & Eq).
  pose proof (coord_C b3 g dir c Hd Hc) as Hcc.
  assert (Hb : forall n, 0 <= n <= N -> fbox dir (setc dir n q)).
  { intros n Hn'. rewrite Eq, setc_setc. apply line_flux; auto. }
  destruct (Z.eqb_spec (coord q dir) 0).
  - destruct (Z.ltb_spec 0 (coord c dir)); [|auto]. rewrite !H; auto; try (apply Hb; lia). apply along_in; auto. lia.
  - destruct (Z.eqb_spec (coord q dir) N); [|auto]. destruct (Z.ltb_spec (coord c dir + 1) (sizeA g dir)); [|auto].
    rewrite !H; auto; try (apply Hb; lia). apply along_in; auto. lia.
Qed.
Lemma vaverage_spec dir arr nb (s s' : store) : In dir (dirs b3) -> par_exec s (vaverage b3 P g dir arr nb) s' ->
  (forall c q, In c C -> fbox dir q -> gv s' arr dir c q 0 = avgF dir nb (fun c q => gv s arr dir c q 0) c q) /\
  (forall c q v, In c C -> fbox dir q -> v <> 0 -> gv s' arr dir c q v = gv s arr dir c q v) /\
  (forall l, la l <> arr -> s' l = s l).
Proof.
  intros Hd Hex. pose proof (dir_any b3 dir Hd) as Hany.
  assert (KEY : forall c q, In q (if 0 <? coord c dir then lines b3 P dir else []) <-> In q (lines b3 P dir) /\ 0 < coord c dir).
  { intros c q. destruct (Z.ltb_spec 0 (coord c dir)); cbn; intuition lia. }
  apply (tasks_spec C (fun c => if 0 <? coord c dir then lines b3 P dir else []) (fun c q => vaverage_task b3 P dir arr nb c q)) in Hex.
  - destruct Hex as [H1 H2]. split; [|split].
    + assert (HF : forall cR q, In cR C -> 0 < coord cR dir -> In q (lines b3 P dir) ->
        gv s' arr dir (along_dir dir (-1) cR) (setc dir N q) 0 =
          fst (avg2 nb (gv s arr dir (along_dir dir (-1) cR) (setc dir N q) 0) (gv s arr dir cR (setc dir 0 q) 0)) /\
        gv s' arr dir cR (setc dir 0 q) 0 =
          snd (avg2 nb (gv s arr dir (along_dir dir (-1) cR) (setc dir N q) 0) (gv s arr dir cR (setc dir 0 q) 0))).
      { intros cR q Hc Hp Hq. split; apply (H1 cR q); auto; try (apply KEY; auto);
          cbn [vaverage_task tw tv tr map]; unfold getl; change (Z.to_nat 0) with 0%nat; change (Z.to_nat 1) with 1%nat; cbn [nth];
          unfold gv, avg2; destruct (Nat.iter nb _ _) as [a b]; cbn; auto. }
      intros c q Hc Hq. destruct (flux_line b3 P dir q Hd Hq) as (Hl & Hn & Eq). unfold avgF. cbv zeta.
      pose proof (coord_C b3 g dir c Hd Hc) as Hcc.
      destruct (Z.eqb_spec (coord q dir) 0) as [E0|E0].
      * assert (Eq0 : setc dir 0 q = q) by (rewrite E0 in Eq; rewrite setc_setc in Eq; symmetry; exact Eq).
        destruct (Z.ltb_spec 0 (coord c dir)).
        -- destruct (HF c (setc dir 0 q) Hc H Hl) as [_ E]. rewrite !setc_setc in E. rewrite Eq0 in E |- *. exact E.
        -- apply H2. intros c' q' Hc' Hk' Hw. apply KEY in Hk'. destruct Hk' as [Hq' Hx']. cbn in Hw.
           rewrite <- Eq0 in Hw. rewrite <- (setc_setc dir 0 0 q) in Hw. destruct Hw as [E|[E|[]]]; apply gloc_line in E; auto; try lia.
           destruct E as (-> & _). lia.
      * destruct (Z.eqb_spec (coord q dir) N) as [E1|E1].
        -- assert (EqN : setc dir N q = q) by (rewrite E1 in Eq; rewrite setc_setc in Eq; symmetry; exact Eq).
           destruct (Z.ltb_spec (coord c dir + 1) (sizeA g dir)).
           ++ assert (Hc1 : In (along_dir dir 1 c) C) by (apply along_in; auto; lia).
              assert (Hp1 : 0 < coord (along_dir dir 1 c) dir) by (rewrite (coord_along dir 1 c dir b3), Z.eqb_refl by auto; lia).
              destruct (HF (along_dir dir 1 c) (setc dir 0 q) Hc1 Hp1 Hl) as [E _].
              rewrite !setc_setc in E. rewrite !along_along in E. change (-1 + 1) with 0 in E. rewrite !along_zero in E.
              rewrite EqN in E |- *. exact E.
           ++ apply H2. intros c' q' Hc' Hk' Hw. apply KEY in Hk'. destruct Hk' as [Hq' Hx']. cbn in Hw.
              rewrite <- EqN in Hw. rewrite <- (setc_setc dir N 0 q) in Hw. destruct Hw as [E|[E|[]]]; apply gloc_line in E; auto; try lia.
              destruct E as (E & _). subst c. pose proof (coord_C b3 g dir c' Hd Hc') as Hcc'.
              rewrite (coord_along dir (-1) c' dir b3), Z.eqb_refl in H by auto. lia.
        -- apply H2. intros c' q' Hc' Hk' Hw. apply KEY in Hk'. destruct Hk' as [Hq' Hx']. cbn in Hw.
           rewrite Eq in Hw. destruct Hw as [E|[E|[]]]; apply gloc_line in E; auto; try lia.
    + intros c q v Hc Hq Hv. apply H2. intros c' q' Hc' Hk' Hw. apply KEY in Hk'. destruct Hk' as [Hq' Hx']. cbn in Hw.
      destruct Hw as [E|[E|[]]]; (apply gloc_inj in E; [|auto|apply line_flux; auto; lia|auto]); destruct E as (_ & _ & E); congruence.
    + intros l Hl. apply H2. intros c q Hc Hk Hin. cbn in Hin. destruct Hin as [<-|[<-|[]]]; rewrite la_gloc in Hl; auto.
  - apply NoDup_C.
  - intros c _. destruct (0 <? coord c dir); [apply NoDup_box|constructor].
  - intros c q Hc Hk. apply KEY in Hk. cbn. constructor; [|constructor; [intros []|constructor]].
    intros [E|[]]. apply gloc_line in E; try tauto; lia.
  - intros c q c' q' l Hc Hk Hc' Hk' Hw Hw'. apply KEY in Hk. apply KEY in Hk'. cbn in Hw, Hw'.
    assert (G : In l (tw (vaverage_task b3 P dir arr nb c' q'))) by (cbn; tauto). clear Hw'. cbn in G.
    destruct Hw as [<-|[<-|[]]]; destruct G as [E|[E|[]]]; apply gloc_line in E; try tauto; try lia.
    + destruct E as (E & _ & -> & _). apply along_inj in E. auto.
    + destruct E as (-> & _ & -> & _). auto.
Qed.

(** ** Derivatives *)
Definition dF (dir : Z) (X : fieldS) : fieldS := fun c q v =>
  flux2sol_derivative P (fun n => X c (setc dir n q) v) (coord q dir) (div one (spacing p dir)).
Lemma dF_ext dir X Y c q v : In dir (dirs b3) -> (forall q, fbox dir q -> X c q v = Y c q v) -> In q D -> dF dir X c q v = dF dir Y c q v.
Proof.
  intros Hd H Hq. unfold dF. apply deriv_ext. intros n Hn. apply H. destruct (dof_line b3 P dir q Hd Hq) as (Hl & _ & Eq).
  rewrite Eq, setc_setc. apply line_flux; auto.
Qed.
Lemma deriv_loop_spec dir aF aS m (op : T -> T -> T) (s s' : store) : In dir (dirs b3) -> aF <> aS ->
  par_exec s (tasks_loop C (fun c => map (fun k => let '(q, v) := k in
    Task (map (fun n => gloc b3 P aF dir c (setc dir n q) v) (zrange 0 (N + 1)) ++
          map (fun n => sloc b3 P aS c (setc dir n q) v) (zrange 0 N))
         (map (fun n => sloc b3 P aS c (setc dir n q) v) (zrange 0 N))
         (fun vs => map (fun n => op (getl vs (N + 1 + n)) (flux2sol_derivative P (getl vs) n (div one (spacing p dir)))) (zrange 0 N)))
    (list_prod (lines b3 P dir) (zrange 0 m)))) s' ->
  (forall c q v, In c C -> In q D -> 0 <= v < m -> sv s' aS c q v = op (sv s aS c q v) (dF dir (gv s aF dir) c q v)) /\
  (forall l, la l <> aS -> s' l = s l).
Proof.
  intros Hd Hne Hex. pose proof (dir_any b3 dir Hd) as Hany.
  apply (tasks_spec C (fun _ => list_prod (lines b3 P dir) (zrange 0 m)) (fun c k => let '(q, v) := k in
    Task (map (fun n => gloc b3 P aF dir c (setc dir n q) v) (zrange 0 (N + 1)) ++
          map (fun n => sloc b3 P aS c (setc dir n q) v) (zrange 0 N))
         (map (fun n => sloc b3 P aS c (setc dir n q) v) (zrange 0 N))
         (fun vs => map (fun n => op (getl vs (N + 1 + n)) (flux2sol_derivative P (getl vs) n (div one (spacing p dir)))) (zrange 0 N)))) in Hex.
  - destruct Hex as [H1 H2]. split.
    + intros c q v Hc Hq Hv. destruct (dof_line b3 P dir q Hd Hq) as (Hl & Hn & Eq).
      apply (H1 c (setc dir 0 q, v)); auto. apply in_prod; [auto|apply In_zrange; auto]. cbn [tw tv tr].
      rewrite map_app, !map_map. set (vs := map _ _ ++ map _ _).
      replace (sv s aS c q v) with (getl vs (N + 1 + coord q dir)).
      2:{ unfold vs. rewrite getl_appR by lia. rewrite <- Eq. reflexivity. }
      unfold dF.
      replace (flux2sol_derivative P (fun n => gv s aF dir c (setc dir n q) v) (coord q dir) (div one (spacing p dir))) with
        (flux2sol_derivative P (getl vs) (coord q dir) (div one (spacing p dir))).
      2:{ apply deriv_ext. intros k Hk. unfold vs. rewrite getl_appL by lia. rewrite setc_setc. reflexivity. }
      replace (sloc b3 P aS c q v) with (sloc b3 P aS c (setc dir (coord q dir) (setc dir 0 q)) v) by (rewrite <- Eq; reflexivity).
      apply (In_combine_map (fun n => sloc b3 P aS c (setc dir n (setc dir 0 q)) v)
        (fun n => op (getl vs (N + 1 + n)) (flux2sol_derivative P (getl vs) n (div one (spacing p dir))))).
      apply In_zrange. lia.
    + intros l Hl. apply H2. intros c [q v] Hc Hk Hin. cbn in Hin. apply in_map_iff in Hin. destruct Hin as (n & <- & _).
      rewrite la_sloc in Hl. auto.
  - apply NoDup_C.
  - intros; apply NoDup_list_prod; [apply NoDup_box|apply NoDup_zrange].
  - intros c [q v] Hc Hk. apply in_prod_iff in Hk. cbn. apply NoDup_map_in; [|apply NoDup_zrange].
    intros n n' Hn Hn' E. apply In_zrange in Hn. apply In_zrange in Hn'. apply sloc_line in E; auto; tauto.
  - intros c [q v] c' [q' v'] l Hc Hk Hc' Hk' Hw Hw'. cbn in Hw, Hw'. apply in_prod_iff in Hk. apply in_prod_iff in Hk'.
    apply in_map_iff in Hw. destruct Hw as (n & <- & Hn). apply In_zrange in Hn. rewrite in_app_iff in Hw'.
    assert (G : In (sloc b3 P aS c (setc dir n q) v) (map (fun n => sloc b3 P aS c' (setc dir n q') v') (zrange 0 N))).
    { destruct Hw' as [H|[H|H]]; auto. apply in_map_iff in H. destruct H as (n' & E & _). apply (f_equal la) in E.
      rewrite la_gloc, la_sloc in E. contradiction. }
    apply in_map_iff in G. destruct G as (n' & E & Hn'). apply In_zrange in Hn'. symmetry in E.
    apply sloc_line in E; auto; try tauto. destruct E as (-> & _ & -> & ->). auto.
Qed.
Lemma aGv_ne d a : In d (dirs b3) -> a < 71 -> a <> aGv d.
Proof. intros Hd Ha. apply dir_any in Hd. unfold aGv, IX, IY, IZ in *. lia. Qed.
Lemma aGv_FU d : In d (dirs b3) -> aGv d <> aFU.
Proof. intros Hd. apply dir_any in Hd. unfold aGv, aFU, IX, IY, IZ in *. lia. Qed.
Lemma aGv_inj d d' : aGv d = aGv d' -> d = d'.
Proof. unfold aGv. lia. Qed.

Definition gacc (dir : Z) (old d : T) : T := if vgrad_acc b3 dir then add old d else d.
Lemma vgrad_spec dir (s s' : store) : In dir (dirs b3) -> par_exec s (vgrad b3 P p g dir) s' ->
  (forall c q v, In c C -> In q D -> 0 <= v < dimn -> sv s' (aGv dir) c q v = gacc dir (sv s (aGv dir) c q v) (dF dir (gv s aSF dir) c q v)) /\
  (forall l, la l <> aGv dir -> s' l = s l).
Proof.
  intros Hd Hex. apply (deriv_loop_spec dir aSF (aGv dir) dimn (gacc dir)); auto. apply aGv_ne; auto. unfold aSF; lia.
Qed.
Lemma nderiv_spec dir (s s' : store) : In dir (dirs b3) -> par_exec s (nderiv b3 P p g dir) s' ->
  (forall c q v, In c C -> In q D -> In v V -> sv s' aFdiv c q v = sub (sv s aFdiv c q v) (dF dir (gv s aFU dir) c q v)) /\
  (forall l, la l <> aFdiv -> s' l = s l).
Proof.
  intros Hd Hex. destruct (deriv_loop_spec dir aFU aFdiv (nbv b3) sub s s') as [H1 H2]; auto; [discriminate|].
  split; auto. intros c q v Hc Hq Hv. apply H1; auto. apply In_vars; auto.
Qed.
Lemma vflux_frame mu vnull dir (s s' : store) : In dir (dirs b3) -> par_exec s (vflux b3 P g mu vnull dir) s' -> forall l, la l <> aSF -> s' l = s l.
Proof.
  intros Hd Hex. apply (tasks_spec C (fun _ => list_prod (lines b3 P dir) (zrange 0 (N + 1))) (fun c k => vflux_task b3 P mu vnull dir c k)) in Hex.
  - destruct Hex as [_ H2]. intros l Hl. apply H2. intros c [q n] Hc Hk Hin. cbn in Hin. apply in_map_iff in Hin.
    destruct Hin as (v & <- & _). rewrite la_floc in Hl. auto.
  - apply NoDup_C.
  - intros; apply NoDup_list_prod; [apply NoDup_box|apply NoDup_zrange].
  - intros c [q n] Hc Hk. apply in_prod_iff in Hk. rewrite In_zrange in Hk. cbn. apply NoDup_map_in; [|apply NoDup_vars].
    intros v v' _ _ E. apply floc_line in E; try tauto; lia.
  - intros c [q n] c' [q' n'] l Hc Hk Hc' Hk' Hw Hw'. cbn in Hw, Hw'. apply in_prod_iff in Hk. apply in_prod_iff in Hk'.
    rewrite In_zrange in Hk, Hk'. destruct Hw' as [Hw'|[]]. apply in_map_iff in Hw. apply in_map_iff in Hw'.
    destruct Hw as (v & <- & _). destruct Hw' as (v' & E & _). apply floc_line in E; try tauto; try lia.
    destruct E as (-> & -> & -> & _). auto.
Qed.

(** ** Composition *)
Definition velF (dir v : Z) (U : fieldS) : cell -> cell -> T := ratioF dir (IU + v) ID U.
Definition borderF (dir : Z) (U : fieldS) : fieldS := fun c q v =>
  if v =? 0 then avgF dir (Z.to_nat dimn) (velF dir 0 U) c q else velF dir v U c q.
Lemma ratioF_ext dir num den U U' c q : In dir (dirs b3) -> fbox dir q ->
  (forall q, In q D -> U c q num = U' c q num /\ U c q den = U' c q den) -> ratioF dir num den U c q = ratioF dir num den U' c q.
Proof.
  intros Hd Hq H. unfold ratioF. apply sol2flux_ext. intros n Hn. destruct (H (setc dir n q)) as [-> ->]; [|reflexivity].
  apply flux_line in Hq; auto. destruct Hq as (Hl & _ & ->). rewrite setc_setc. apply In_dofs. apply line_sol; auto.
Qed.
Lemma vinterp_spec dir aIn aOut (s s' : store) : In dir (dirs b3) -> aIn <> aOut -> par_exec s (vinterp b3 P g dir aIn aOut) s' ->
  (forall c q v, In c C -> fbox dir q -> 0 <= v < dimn -> gv s' aOut dir c q v = velF dir v (sv s aIn) c q) /\
  (forall l, la l <> aOut -> s' l = s l).
Proof.
  intros Hd Ha Hex. destruct (ratio_spec dir aIn aOut (fun k => IU + k) (fun k => k) ID s s') as (H1 & _ & H3); auto.
Qed.
Lemma dim_dir d : In d (dirs b3) -> 0 <= d < dimn.
Proof. intros H. apply dirs_cases in H. unfold SdmVisc.dimn, IX, IY, IZ in *. destruct b3; intuition (try lia; try discriminate). Qed.
Lemma dim_vars v : In v V -> 0 <= v /\ (dimn <= v -> In (v - dimn) (dirs b3)).
Proof.
  intros H. apply In_vars in H. unfold nbv in H. unfold SdmVisc.dimn. destruct b3; split; try lia; intros Hv; cbn.
  - assert (v = 3 \/ v = 4) as [->| ->] by lia; auto.
  - assert (v = 2 \/ v = 3) as [->| ->] by lia; auto.
Qed.
Lemma vel_vars v : 0 <= v < dimn -> In (IU + v) V.
Proof. intros H. apply In_vars. unfold SdmVisc.dimn in H. unfold nbv, IU. destruct b3; lia. Qed.
Lemma ID_vars : In ID V. Proof. apply In_vars. unfold nbv, ID. destruct b3; lia. Qed.

Lemma velF_ext dir v U U' c q : In dir (dirs b3) -> fbox dir q -> 0 <= v < dimn ->
  (forall q v, In q D -> In v V -> U c q v = U' c q v) -> velF dir v U c q = velF dir v U' c q.
Proof. intros. apply ratioF_ext; auto. intros q' Hq'. split; apply H2; auto using ID_vars, vel_vars. Qed.
Lemma borderF_ext dir v U U' c q : In dir (dirs b3) -> In c C -> fbox dir q -> 0 <= v < dimn ->
  agreeS b3 P g U U' -> borderF dir U c q v = borderF dir U' c q v.
Proof.
  intros Hd Hc Hq Hv H. unfold borderF. destruct (Z.eqb_spec v 0).
  - apply avgF_ext; auto. intros c' q' Hc' Hq'. apply velF_ext; auto. lia.
  - apply velF_ext; auto.
Qed.

Lemma vgrads_spec aIn dir (s s' : store) : In dir (dirs b3) -> aIn <> aSF ->
  run_kernels (velocity_gradients b3 P p g aIn dir) s s' ->
  (forall c q v, In c C -> In q D -> 0 <= v < dimn ->
     sv s' (aGv dir) c q v = gacc dir (sv s (aGv dir) c q v) (dF dir (borderF dir (sv s aIn)) c q v)) /\
  (forall l, la l <> aSF -> la l <> aGv dir -> s' l = s l).
Proof.
  intros Hd Ha Hk. unfold velocity_gradients in Hk.
  apply rk_inv in Hk. destruct Hk as (s1 & K1 & Hk). apply rk_inv in Hk. destruct Hk as (s2 & K2 & Hk).
  apply rk_inv in Hk. destruct Hk as (s3 & K3 & Hk). apply rk_nil_inv in Hk. subst s3.
  apply vinterp_spec in K1; auto. destruct K1 as [I1 I2].
  apply vaverage_spec in K2; auto. destruct K2 as (A1 & A2 & A3).
  apply vgrad_spec in K3; auto. destruct K3 as [G1 G2].
  assert (Hne : aGv dir <> aSF) by (intros E; apply (aGv_ne dir aSF Hd); [unfold aSF; lia|auto]). split.
  - intros c q v Hc Hq Hv. rewrite G1 by auto. f_equal.
    + unfold SdmProofs.sv. rewrite A3, I2; auto; rewrite la_sloc; auto.
    + apply dF_ext; auto. intros q' Hq'. unfold borderF. destruct (Z.eqb_spec v 0) as [->|Hv0].
      * rewrite A1 by auto. apply avgF_ext; auto.
      * rewrite A2 by auto. apply I1; auto.
  - intros l H1 H2. rewrite G2, A3, I2; auto.
Qed.
Definition newgrad (s : store) (aIn dir : Z) : fieldS := fun c q v =>
  gacc dir (sv s (aGv dir) c q v) (dF dir (borderF dir (sv s aIn)) c q v).
Lemma NoDup_dirs : NoDup (dirs b3).
Proof. destruct b3; repeat constructor; cbn; unfold IX, IY, IZ; intuition discriminate. Qed.
Lemma all_vgrads aIn (s s' : store) : aIn <> aSF -> (forall d, In d (dirs b3) -> aIn <> aGv d) ->
  run_kernels (concat (map (velocity_gradients b3 P p g aIn) (dirs b3))) s s' ->
  (forall dir c q v, In dir (dirs b3) -> In c C -> In q D -> 0 <= v < dimn -> sv s' (aGv dir) c q v = newgrad s aIn dir c q v) /\
  (forall l, la l <> aSF -> (forall d, In d (dirs b3) -> la l <> aGv d) -> s' l = s l).
Proof.
  intros Ha Hg.
  assert (G : forall ds (t t' : store), NoDup ds -> incl ds (dirs b3) -> agreeS b3 P g (sv t aIn) (sv s aIn) ->
    run_kernels (concat (map (velocity_gradients b3 P p g aIn) ds)) t t' ->
    (forall dir c q v, In dir ds -> In c C -> In q D -> 0 <= v < dimn ->
       sv t' (aGv dir) c q v = gacc dir (sv t (aGv dir) c q v) (dF dir (borderF dir (sv s aIn)) c q v)) /\
    (forall l, la l <> aSF -> (forall d, In d ds -> la l <> aGv d) -> t' l = t l)).
  { induction ds as [|d ds IH]; intros t t' Hnd Hi Ht Hr; cbn [map concat] in Hr.
    - apply rk_nil_inv in Hr. subst. split; [intros dir c q v []|auto].
    - inversion Hnd as [|? ? Hn Hnd']; subst. apply run_kernels_app in Hr. destruct Hr as (t1 & R1 & R2).
      assert (Hd : In d (dirs b3)) by (apply Hi; left; auto).
      apply vgrads_spec in R1; auto. destruct R1 as [A1 A2].
      assert (Ht1 : agreeS b3 P g (sv t1 aIn) (sv s aIn)).
      { intros c q v Hc Hq Hv. rewrite <- Ht by auto. unfold SdmProofs.sv. apply A2; rewrite la_sloc; auto. }
      apply IH in R2; auto; [|intros x Hx; apply Hi; right; auto]. destruct R2 as [B1 B2].
      split.
      + intros dir c q v [<-|Hin] Hc Hq Hv.
        * transitivity (sv t1 (aGv d) c q v).
          -- unfold SdmProofs.sv. apply B2; rewrite la_sloc.
             ++ intros E; apply (aGv_ne d aSF Hd); [unfold aSF; lia|auto].
             ++ intros d' Hd' E. apply aGv_inj in E. subst. contradiction.
          -- rewrite A1 by auto. f_equal. apply dF_ext; auto. intros q' Hq'. apply borderF_ext; auto.
        * assert (Hd' : In dir (dirs b3)) by (apply Hi; right; auto). rewrite B1 by auto. f_equal. unfold SdmProofs.sv. apply A2; rewrite la_sloc.
          -- intros E; apply (aGv_ne dir aSF Hd'); [unfold aSF; lia|auto].
          -- intros E. apply aGv_inj in E. subst. contradiction.
      + intros l H1 H2. rewrite B2, A2; auto.
        * apply H2; left; auto.
        * intros d' Hd'. apply H2; right; auto. }
  intros Hr. apply (G (dirs b3) s s'); auto using NoDup_dirs, incl_refl. intros c q v _ _ _. reflexivity.
Qed.

Lemma ginterps_spec dir ds (s s' : store) : In dir (dirs b3) -> NoDup ds -> incl ds (dirs b3) ->
  run_kernels (map (ginterp b3 P g dir) ds) s s' ->
  (forall dg c q, In dg ds -> In c C -> fbox dir q -> gv s' aFU dir c q (dimn + dg) = ratioF dir 0 ID (sv s (aGv dg)) c q) /\
  (forall c q v, fbox dir q -> (v < dimn \/ (v < dimn + dimn /\ ~ In (v - dimn) ds)) -> gv s' aFU dir c q v = gv s aFU dir c q v) /\
  (forall l, la l <> aFU -> s' l = s l).
Proof.
  intros Hd. revert s s'. induction ds as [|dg ds IH]; intros s s' Hnd Hi Hr; cbn [map] in Hr.
  - apply rk_nil_inv in Hr. subst. split; [intros dg c q []|auto].
  - inversion Hnd as [|? ? Hn Hnd']; subst. apply rk_inv in Hr. destruct Hr as (s1 & R1 & R2).
    assert (Hdg : In dg (dirs b3)) by (apply Hi; left; auto). pose proof (dim_dir dg Hdg) as Hr.
    destruct (ratio_spec dir (aGv dg) aFU (fun k => k) (fun k => dimn + dimn * k + dg) ID s s1) as (A1 & A2 & A3); auto using aGv_FU.
    { intros k k' Hk Hk' E. nia. }
    apply IH in R2; auto; [|intros x Hx; apply Hi; right; auto]. destruct R2 as (B1 & B2 & B3).
    split; [|split].
    + intros d c q [<-|Hin] Hc Hq.
      * rewrite B2; auto.
        -- replace (dimn + dg) with (dimn + dimn * 0 + dg) by lia. rewrite A1; auto. lia.
        -- right. split; [lia|]. replace (dimn + dg - dimn) with dg by lia. auto.
      * rewrite B1 by auto. apply ratioF_ext; auto. intros q' Hq'. unfold SdmProofs.sv. split; apply A3; rewrite la_sloc; apply aGv_FU; apply Hi; right; auto.
    + intros c q v Hq Hv. rewrite B2; auto.
      * apply A2; auto. intros k Hk E. destruct Hv as [Hv|[Hv Hv']]; [nia|]. apply Hv'. left. assert (k = 0) by nia. subst k. lia.
      * destruct Hv as [Hv|[Hv Hv']]; [left; auto|right; split; auto]. intros Hx. apply Hv'. right; auto.
    + intros l Hl. rewrite B3, A3; auto.
Qed.

(** What is differentiated into the rates. *)
Definition fuF (dir : Z) (U : fieldS) (G : Z -> fieldS) : fieldS := fun c q v =>
  if v =? 0 then avgF dir (Z.to_nat (dimn * dimn)) (avgF dir (Z.to_nat dimn) (velF dir 0 U)) c q
  else if v <? dimn then velF dir v U c q
  else ratioF dir 0 ID (G (v - dimn)) c q.
Lemma vper_dir_spec mu vnull aIn dir (s s' : store) : In dir (dirs b3) -> aIn <> aFU ->
  run_kernels (viscous_per_dir b3 P p g mu vnull aIn dir) s s' ->
  (forall c q v, In c C -> In q D -> In v V ->
     sv s' aFdiv c q v = sub (sv s aFdiv c q v) (dF dir (fuF dir (sv s aIn) (fun d => sv s (aGv d))) c q v)) /\
  (forall l, la l <> aSF -> la l <> aFU -> la l <> aFdiv -> s' l = s l).
Proof.
  intros Hd Ha Hk. unfold viscous_per_dir in Hk. cbn [app] in Hk.
  apply rk_inv in Hk. destruct Hk as (s1 & K1 & Hk). apply rk_inv in Hk. destruct Hk as (s2 & K2 & Hk).
  apply run_kernels_app in Hk. destruct Hk as (s3 & K3 & Hk).
  apply rk_inv in Hk. destruct Hk as (s4 & K4 & Hk). apply rk_inv in Hk. destruct Hk as (s5 & K5 & Hk).
  apply rk_inv in Hk. destruct Hk as (s6 & K6 & Hk). apply rk_nil_inv in Hk. subst s6.
  apply vinterp_spec in K1; auto. destruct K1 as [I1 I2].
  apply vaverage_spec in K2; auto. destruct K2 as (A1 & A2 & A3).
  apply ginterps_spec in K3; auto using NoDup_dirs, incl_refl. destruct K3 as (B1 & B2 & B3).
  apply vaverage_spec in K4; auto. destruct K4 as (C1 & C2 & C3).
  pose proof (vflux_frame mu vnull dir _ _ Hd K5) as F.
  apply nderiv_spec in K6; auto. destruct K6 as [D1 D2].
  assert (HD : 2 <= dimn) by (unfold SdmVisc.dimn; destruct b3; lia).
  split.
  - intros c q v Hc Hq Hv. rewrite D1 by auto. f_equal.
    + unfold SdmProofs.sv. rewrite F, C3, B3, A3, I2; auto; rewrite la_sloc; discriminate.
    + apply dF_ext; auto. intros q' Hq'. unfold gv at 1. rewrite F by (rewrite la_gloc; discriminate).
      fold (gv s4 aFU dir c q' v). unfold fuF. destruct (Z.eqb_spec v 0) as [->|Hv0].
      * rewrite C1 by auto. apply avgF_ext; auto. intros c1 q1 Hc1 Hq1. rewrite B2 by (auto; left; lia).
        rewrite A1 by auto. apply avgF_ext; auto. intros c2 q2 Hc2 Hq2. apply I1; auto. lia.
      * rewrite C2 by auto. destruct (dim_vars v Hv) as [Hp Hdv]. destruct (Z.ltb_spec v dimn).
        -- rewrite B2, A2, I1; auto.
        -- replace v with (dimn + (v - dimn)) at 1 by lia. rewrite B1 by auto. apply ratioF_ext; auto.
           intros q2 Hq2. unfold SdmProofs.sv. split; rewrite A3, I2; auto; rewrite la_sloc; apply aGv_FU; auto.
  - intros l H1 H2 H3. rewrite D2, F, C3, B3, A3, I2; auto.
Qed.
Lemma fuF_ext dir U U' G G' c q v : In dir (dirs b3) -> In c C -> fbox dir q -> In v V -> agreeS b3 P g U U' ->
  (forall d q, In d (dirs b3) -> In q D -> G d c q 0 = G' d c q 0) -> fuF dir U G c q v = fuF dir U' G' c q v.
Proof.
  intros Hd Hc Hq Hv H HG. unfold fuF. destruct (dim_vars v Hv) as [Hp Hdv].
  assert (HD : 2 <= dimn) by (unfold SdmVisc.dimn; destruct b3; lia). destruct (Z.eqb_spec v 0).
  - apply avgF_ext; auto. intros c1 q1 Hc1 Hq1. apply avgF_ext; auto. intros c2 q2 Hc2 Hq2. apply velF_ext; auto. lia.
  - destruct (Z.ltb_spec v dimn).
    + apply velF_ext; auto.
    + apply ratioF_ext; auto.
Qed.

(** The rates after the viscous terms. *)
Definition viscF (s : store) (aIn : Z) (c q : cell) (v : Z) : T :=
  fold_left (fun acc dir => sub acc (dF dir (fuF dir (sv s aIn) (newgrad s aIn)) c q v)) (dirs b3) (sv s aFdiv c q v).
Theorem viscous_spec mu vnull aIn (s s' : store) :
  aIn <> aSF -> aIn <> aFU -> aIn <> aFdiv -> (forall d, In d (dirs b3) -> aIn <> aGv d) ->
  run_kernels (viscous_terms b3 P p g mu vnull aIn) s s' ->
  (forall c q v, In c C -> In q D -> In v V -> sv s' aFdiv c q v = viscF s aIn c q v) /\
  (forall dir c q v, In dir (dirs b3) -> In c C -> In q D -> 0 <= v < dimn -> sv s' (aGv dir) c q v = newgrad s aIn dir c q v) /\
  (forall l, la l <> aSF -> la l <> aFU -> la l <> aFdiv -> (forall d, In d (dirs b3) -> la l <> aGv d) -> s' l = s l).
Proof.
  intros H1 H2 H3 H4 Hr. unfold viscous_terms in Hr. apply run_kernels_app in Hr. destruct Hr as (s1 & R1 & R2).
  apply all_vgrads in R1; auto. destruct R1 as [A1 A2].
  assert (HD : 0 <= 0 < dimn) by (unfold SdmVisc.dimn; destruct b3; lia).
  assert (G : forall ds (t t' : store), incl ds (dirs b3) -> agreeS b3 P g (sv t aIn) (sv s aIn) ->
    (forall dir c q, In dir (dirs b3) -> In c C -> In q D -> sv t (aGv dir) c q 0 = newgrad s aIn dir c q 0) ->
    run_kernels (concat (map (viscous_per_dir b3 P p g mu vnull aIn) ds)) t t' ->
    (forall c q v, In c C -> In q D -> In v V ->
       sv t' aFdiv c q v = fold_left (fun acc dir => sub acc (dF dir (fuF dir (sv s aIn) (newgrad s aIn)) c q v)) ds (sv t aFdiv c q v)) /\
    (forall l, la l <> aSF -> la l <> aFU -> la l <> aFdiv -> t' l = t l)).
  { induction ds as [|d ds IH]; intros t t' Hi Ht Hg Hr; cbn [map concat] in Hr.
    - apply rk_nil_inv in Hr. subst. auto.
    - apply run_kernels_app in Hr. destruct Hr as (t1 & Q1 & Q2).
      assert (Hd : In d (dirs b3)) by (apply Hi; left; auto).
      apply vper_dir_spec in Q1; auto. destruct Q1 as [B1 B2].
      apply IH in Q2.
      + destruct Q2 as [E1 E2]. split.
        * intros c q v Hc Hq Hv. rewrite E1 by auto. cbn [fold_left]. rewrite B1 by auto. f_equal. f_equal.
          apply dF_ext; auto. intros q' Hq'. apply fuF_ext; auto.
        * intros l L1 L2 L3. rewrite E2, B2; auto.
      + intros x Hx; apply Hi; right; auto.
      + intros c q v Hc Hq Hv. rewrite <- Ht by auto. unfold SdmProofs.sv. apply B2; rewrite la_sloc; auto.
      + intros dir c q Hdir Hc Hq. rewrite <- Hg by auto. unfold SdmProofs.sv. apply B2; rewrite la_sloc.
        * intros E; apply (aGv_ne dir aSF Hdir); [unfold aSF; lia|auto].
        * apply aGv_FU; auto.
        * intros E; apply (aGv_ne dir aFdiv Hdir); [unfold aFdiv; lia|auto]. }
  apply G in R2; auto using incl_refl.
  - destruct R2 as [B1 B2]. split; [|split].
    + intros c q v Hc Hq Hv. rewrite B1 by auto. unfold viscF. f_equal. unfold SdmProofs.sv. apply A2; rewrite la_sloc; [discriminate|].
      intros d Hd. apply aGv_ne; auto. unfold aFdiv; lia.
    + intros dir c q v Hdir Hc Hq Hv. rewrite <- A1 by auto. unfold SdmProofs.sv. apply B2; rewrite la_sloc.
      * intros E; apply (aGv_ne dir aSF Hdir); [unfold aSF; lia|auto].
      * apply aGv_FU; auto.
      * intros E; apply (aGv_ne dir aFdiv Hdir); [unfold aFdiv; lia|auto].
    + intros l L1 L2 L3 L4. rewrite B2, A2; auto.
  - intros c q v Hc Hq Hv. unfold SdmProofs.sv. apply A2; rewrite la_sloc; auto.
Qed.
End VP.

(** What each loop of the spectral difference solver computes, for every schedule. *)
From Coq Require Import ZArith List Bool Lia.
From Verif Require Import Arith Par ParProofs GridModel BoundaryModel HydroState RiemannModel HydroPoint
  HydroKernels CellKernels HydroField HydroExec HydroSpec HydroConserve HydroStep2 MoodKernels MoodProofs
  TaskModel TaskKernels SdmGeom EulerModel SdmKernels SdmDofs.
Import ListNotations.
Open Scope Z_scope.

Lemma In_combine_map {X Y Z'} (f : X -> Y) (h : X -> Z') ks k : In k ks -> In (f k, h k) (combine (map f ks) (map h ks)).
Proof. induction ks as [|k0 ks IH]; [intros []|]. intros [->|H]; [left; reflexivity|right; auto]. Qed.
Lemma combine_app {X Y} (a a' : list X) (b b' : list Y) : length a = length b ->
  combine (a ++ a') (b ++ b') = combine a b ++ combine a' b'.
Proof.
  revert b. induction a as [|x a IH]; intros [|y b] H; try discriminate; [reflexivity|].
  cbn. f_equal. apply IH. cbn in H. lia.
Qed.
Lemma NoDup_map_in {X Y} (f : X -> Y) l : (forall x y, In x l -> In y l -> f x = f y -> x = y) -> NoDup l -> NoDup (map f l).
Proof.
  intros H Hnd. induction Hnd as [|x l Hx Hnd IH]; [constructor|]. cbn. constructor.
  - intros Hin. apply in_map_iff in Hin. destruct Hin as (y & Hy & Hyl).
    assert (x = y) by (apply H; [left; auto|right; auto|auto]). subst. contradiction.
  - apply IH. intros; apply H; auto; right; auto.
Qed.

Section SP.
Context {T : Type} {A : Arith T}.
Notation store := (store T).
Variable b3 : bool.
Variable P : points T.
Variable p : hparams T.
Variable g : grid.
Variable dt : T.
Variable junk : cell -> cell -> hs T.
Notation N := (npts P).
Hypothesis HN : 1 <= N.

Lemma getl_map (f : Z -> T) n i : 0 <= i < n -> getl (map f (zrange 0 n)) i = f i.
Proof. clear HN junk.
  intros Hi. unfold getl. rewrite (nth_indep _ zero (f 0)) by (rewrite map_length, zrange_length; lia).
  rewrite (map_nth f). rewrite nth_zrange by lia. f_equal. lia.
Qed.
Lemma loopv_ext n (f h : Z -> T -> T) a : (forall k x, 0 <= k < n -> f k x = h k x) -> loopv n f a = loopv n h a.
Proof. clear HN junk.
  intros H. unfold loopv. assert (G : forall l a0, (forall k, In k l -> 0 <= k < n) ->
    fold_left (fun a1 k => f k a1) l a0 = fold_left (fun a1 k => h k a1) l a0).
  { induction l as [|k l IH]; intros a0 Hl; [reflexivity|]. cbn. rewrite H by (apply Hl; left; auto). apply IH.
    intros; apply Hl; right; auto. }
  apply G. intros k Hk. apply In_zrange in Hk. auto.
Qed.
Lemma sol2flux_ext (f h : Z -> T) n : (forall k, 0 <= k < N -> f k = h k) -> sol2flux P f n = sol2flux P h n.
Proof. clear HN junk. intros H. unfold sol2flux, dot. apply loopv_ext. intros k x Hk. rewrite H by auto. reflexivity. Qed.
Lemma deriv_ext (f h : Z -> T) n r : (forall k, 0 <= k <= N -> f k = h k) -> flux2sol_derivative P f n r = flux2sol_derivative P h n r.
Proof. clear HN junk.
  intros H. unfold flux2sol_derivative, dot. f_equal. apply loopv_ext. intros k x Hk. rewrite H by lia. reflexivity.
Qed.

(** ** State vectors *)
Definition stV (V : Z -> T) : hs T := HS (V ID) (V IP) (V IU) (V IV) (if b3 then V IW else zero).
Lemma of_list_map (V : Z -> T) : of_list b3 (map V (vars b3)) = stV V.
Proof. clear HN junk.
  unfold of_list, stV, vars. rewrite !getl_map by (unfold nbv, ID, IP, IU, IV; destruct b3; lia).
  destruct b3; [rewrite getl_map by (unfold nbv, IW; lia)|]; reflexivity.
Qed.
Lemma to_list_map (f : hs T) : to_list b3 f = map (comp f) (vars b3).
Proof. unfold to_list, vars, nbv. destruct f, b3; reflexivity. Qed.
Lemma stV_ext (V V' : Z -> T) : (forall v, In v (vars b3) -> V v = V' v) -> stV V = stV V'.
Proof.
  intros H. assert (H' : forall v, 0 <= v < nbv b3 -> V v = V' v) by (intros; apply H; apply In_vars; auto).
  unfold stV. unfold nbv in H'. rewrite !H' by (unfold ID, IP, IU, IV; destruct b3; lia).
  destruct b3; [rewrite H' by (unfold IW; lia)|]; reflexivity.
Qed.
Lemma comp_stV (V : Z -> T) v : In v (vars b3) -> comp (stV V) v = V v.
Proof.
  intros H. apply In_vars in H. unfold nbv in H. unfold stV, comp, ID, IP, IU, IV, IW.
  destruct b3.
  - assert (v = 0 \/ v = 1 \/ v = 2 \/ v = 3 \/ v = 4) as [->|[->|[->|[->| ->]]]] by lia; reflexivity.
  - assert (v = 0 \/ v = 1 \/ v = 2 \/ v = 3) as [->|[->|[->| ->]]] by lia; reflexivity.
Qed.

(** ** Views *)
Definition fieldS := cell -> cell -> Z -> T.
Definition sv (s : store) (a : Z) : fieldS := fun c q v => s (sloc b3 P a c q v).
Definition fx (s : store) (dir : Z) : fieldS := fun c q v => s (floc b3 P dir c q v).
Notation C := (cells b3 g).
Notation D := (dofs b3 P).
Notation V := (vars b3).
Definition fbox dir q := in_box b3 (mF N dir) q.
(** Equal at the points of the cells of the grid. *)
Definition agreeS (X Y : fieldS) : Prop := forall c q v, In c C -> In q D -> In v V -> X c q v = Y c q v.

Lemma frame_sv (s s' : store) a b : a <> b -> (forall l, la l <> b -> s' l = s l) -> agreeS (sv s' a) (sv s a).
Proof. intros Hab H c q v _ _ _. unfold sv. apply H. rewrite la_sloc. exact Hab. Qed.

Lemma NoDup_C : NoDup C. Proof. clear HN junk. apply NoDup_cellsD. Qed.
Lemma NoDup_keysS : NoDup (list_prod D V).
Proof. clear HN junk. apply NoDup_list_prod; [apply NoDup_box|apply NoDup_vars]. Qed.
Lemma NoDup_keysL dir : NoDup (list_prod (lines b3 P dir) V).
Proof. apply NoDup_list_prod; [apply NoDup_box|apply NoDup_vars]. Qed.

(** Common shape: the loop writes only array [b]. *)
Ltac only_writes := intros l Hl; match goal with H : (forall l, _ -> _ = _) |- _ => apply H end.

(** ** Erase *)
Lemma erase_sol_spec a (s s' : store) : par_exec s (erase_sol b3 P g a) s' ->
  (forall c q v, In c C -> In q D -> In v V -> sv s' a c q v = zero) /\ (forall l, la l <> a -> s' l = s l).
Proof. clear HN junk.
  intros Hex. apply tasks_spec in Hex.
  - destruct Hex as [H1 H2]. split.
    + intros c q v Hc Hq Hv. apply (H1 c (q, v)); auto. apply in_prod; auto. left; reflexivity.
    + intros l Hl. apply H2. intros c [q v] Hc Hk [<-|[]]. rewrite la_sloc in Hl. auto.
  - apply NoDup_C.
  - intros; apply NoDup_keysS.
  - intros. repeat constructor. intros [].
  - intros c [q v] c' [q' v'] l Hc Hk Hc' Hk' [<-|[]] [[E|[]]|[]].
    apply in_prod_iff in Hk. apply in_prod_iff in Hk'. cbn [fst snd] in E.
    apply sloc_inj in E; try (apply In_dofs; tauto). destruct E as (_ & -> & -> & ->). auto.
Qed.
Lemma IX_dirs b : In IX (dirs b). Proof. destruct b; left; reflexivity. Qed.
Lemma erase_flux_spec (s s' : store) : par_exec s (erase_flux b3 P g) s' ->
  (forall l, la l <> aSF -> s' l = s l).
Proof. clear HN junk.
  intros Hex. apply tasks_spec in Hex.
  - destruct Hex as [H1 H2]. intros l Hl. apply H2. intros c [q v] Hc Hk [<-|[]]. rewrite la_floc in Hl. auto.
  - apply NoDup_C.
  - intros. apply NoDup_list_prod; [apply NoDup_box|apply NoDup_vars].
  - intros. repeat constructor. intros [].
  - intros c [q v] c' [q' v'] l Hc Hk Hc' Hk' [<-|[]] [[E|[]]|[]].
    apply in_prod_iff in Hk. apply in_prod_iff in Hk'. cbn [fst snd] in E.
    apply floc_inj in E; [|apply IX_dirs|apply In_box; tauto|apply In_box; tauto]. destruct E as (-> & -> & ->). auto.
Qed.

(** ** Interpolation to the flux points *)
Definition interpF (dir : Z) (U : fieldS) : fieldS := fun c q v =>
  floor_density p v (sol2flux P (fun n => U c (setc dir n q) v) (coord q dir)).
Lemma interp_ext dir U U' c q v : In dir (dirs b3) -> agreeS U U' -> In c C -> fbox dir q -> In v V ->
  interpF dir U c q v = interpF dir U' c q v.
Proof.
  intros Hd H Hc Hq Hv. unfold interpF. f_equal. apply sol2flux_ext. intros k Hk. apply H; auto.
  apply flux_line in Hq; auto. destruct Hq as (Hl & _ & ->). rewrite setc_setc. apply In_dofs. apply line_sol; auto.
Qed.
Lemma interp_spec dir aIn (s s' : store) : In dir (dirs b3) -> aIn <> aSF -> par_exec s (interp b3 P p g dir aIn) s' ->
  (forall c q v, In c C -> fbox dir q -> In v V -> fx s' dir c q v = interpF dir (sv s aIn) c q v) /\
  (forall l, la l <> aSF -> s' l = s l).
Proof.
  intros Hd Ha Hex. pose proof (dir_any b3 dir Hd) as Hany. apply tasks_spec in Hex.
  - destruct Hex as [H1 H2]. split.
    + intros c q v Hc Hq Hv. destruct (flux_line b3 P dir q Hd Hq) as (Hl & Hn & Eq).
      apply (H1 c (setc dir 0 q, v)); auto. apply in_prod; auto. cbn [interp_task tw tv tr].
      replace (floc b3 P dir c q v) with (floc b3 P dir c (setc dir (coord q dir) (setc dir 0 q)) v) by (rewrite <- Eq; reflexivity).
      unfold interpF.
      replace (sol2flux P (fun n => sv s aIn c (setc dir n q) v) (coord q dir)) with
        (sol2flux P (getl (map s (map (fun n => sloc b3 P aIn c (setc dir n (setc dir 0 q)) v) (zrange 0 N)))) (coord q dir)).
      2:{ apply sol2flux_ext. intros k Hk. rewrite map_map. rewrite getl_map by auto. rewrite setc_setc. reflexivity. }
      apply (In_combine_map (fun n => floc b3 P dir c (setc dir n (setc dir 0 q)) v)
        (fun n => floor_density p v (sol2flux P (getl (map s (map (fun n => sloc b3 P aIn c (setc dir n (setc dir 0 q)) v) (zrange 0 N)))) n))).
      apply In_zrange. lia.
    + intros l Hl. apply H2. intros c [q v] Hc Hk Hin. cbn in Hin. apply in_map_iff in Hin. destruct Hin as (n & <- & _).
      rewrite la_floc in Hl. auto.
  - apply NoDup_C.
  - intros; apply NoDup_keysL.
  - intros c [q v] Hc Hk. apply in_prod_iff in Hk. cbn. apply NoDup_map_in; [|apply NoDup_zrange].
    intros n n' Hn Hn' E. apply In_zrange in Hn. apply In_zrange in Hn'.
    apply floc_inj in E; [|auto|apply line_flux; auto; try tauto; lia|apply line_flux; auto; try tauto; lia].
    destruct E as (_ & E & _). apply setc_inj in E; tauto.
  - intros c [q v] c' [q' v'] l Hc Hk Hc' Hk' Hw Hw'. cbn in Hw, Hw'. apply in_prod_iff in Hk. apply in_prod_iff in Hk'.
    apply in_map_iff in Hw. destruct Hw as (n & <- & Hn). apply In_zrange in Hn. destruct Hw' as [Hw'|Hw'].
    + apply in_map_iff in Hw'. destruct Hw' as (n' & E & Hn'). apply In_zrange in Hn'.
      apply floc_inj in E; [|auto|apply line_flux; auto; try tauto; lia|apply line_flux; auto; try tauto; lia].
      destruct E as (-> & E & ->). apply setc_inj in E; [destruct E as [-> _]; auto|auto|].
      rewrite !(line_coord b3 P dir) by tauto. reflexivity.
    + apply in_map_iff in Hw'. destruct Hw' as (n' & E & _). apply (f_equal la) in E. rewrite la_floc, la_sloc in E. contradiction.
Qed.

(** ** Fluxes *)
Definition fluxF (dir : Z) (I : fieldS) : fieldS := fun c q v =>
  let n := coord q dir in
  let face cL cR := comp (face_flux b3 p dir (stV (I cL (setc dir N q))) (stV (I cR (setc dir 0 q))) (junk cR (setc dir 0 q))) v in
  if n =? 0 then if 0 <? coord c dir then face (along_dir dir (-1) c) c else I c q v
  else if n =? N then if coord c dir + 1 <? sizeA g dir then face c (along_dir dir 1 c) else I c q v
  else comp (point_flux b3 p dir (stV (I c q))) v.

Lemma along_in dir c n : In dir (dirs b3) -> In c C -> 0 <= coord c dir + n < sizeA g dir -> In (along_dir dir n c) C.
Proof. clear HN junk.
  intros Hd Hc Hn. unfold cells in *. apply In_cellsD in Hc. apply In_cellsD. destruct Hc as [Hc Hz]. split.
  - intros a Ha. rewrite (coord_along dir n c a b3) by auto. specialize (Hc a Ha). destruct (Z.eqb_spec a dir); subst; lia.
  - intros H. rewrite coord_along_Z by (rewrite H in Hd; exact Hd). apply Hz; exact H.
Qed.
Lemma along_along dir c n m : along_dir dir n (along_dir dir m c) = along_dir dir (n + m) c.
Proof. clear HN junk.
  destruct c as [[x y] z]. unfold along_dir, unit_vec. destruct (dir =? IX); [|destruct (dir =? IY)]; apply cell_ext; cbn; lia.
Qed.
Lemma along_zero dir c : along_dir dir 0 c = c.
Proof. clear HN junk. unfold along_dir, unit_vec. destruct (dir =? IX); [|destruct (dir =? IY)]; apply shift_0. Qed.
Lemma along_inj dir n c c' : along_dir dir n c = along_dir dir n c' -> c = c'.
Proof. clear HN junk.
  intros H. apply (f_equal (along_dir dir (- n))) in H. rewrite !along_along in H.
  replace (- n + n) with 0 in H by lia. now rewrite !along_zero in H.
Qed.
Lemma coord_C dir c : In dir (dirs b3) -> In c C -> 0 <= coord c dir < sizeA g dir.
Proof. clear HN junk. intros Hd Hc. unfold cells in Hc. apply In_cellsD in Hc. destruct Hc as [Hc _]. auto. Qed.

Lemma floc_line dir c q n v c' q' n' v' : In dir (dirs b3) -> In q (lines b3 P dir) -> In q' (lines b3 P dir) ->
  0 <= n <= N -> 0 <= n' <= N -> floc b3 P dir c (setc dir n q) v = floc b3 P dir c' (setc dir n' q') v' ->
  c = c' /\ n = n' /\ q = q' /\ v = v'.
Proof. clear HN junk.
  intros Hd Hq Hq' Hn Hn' E. apply floc_inj in E; [|auto|apply line_flux; auto|apply line_flux; auto].
  destruct E as (-> & E & ->). apply setc_inj in E; [tauto|apply (dir_any b3 dir Hd)|].
  rewrite !(line_coord b3 P dir) by tauto. reflexivity.
Qed.

(** A location written by a flux task. *)
Definition writesF (dir : Z) (c : cell) (k : cell * Z + cell) (l : loc) : Prop :=
  match k with
  | inl (q, n) => exists v, In v V /\ l = floc b3 P dir c (setc dir n q) v
  | inr q => (exists v, In v V /\ l = floc b3 P dir (along_dir dir (-1) c) (setc dir N q) v) \/
             (exists v, In v V /\ l = floc b3 P dir c (setc dir 0 q) v)
  end.
Lemma writesF_tw dir c k l : In l (tw (flux_task b3 P p junk dir c k)) <-> writesF dir c k l.
Proof.
  destruct k as [[q n]|q]; cbn.
  - rewrite in_map_iff. split; intros (v & H1 & H2); exists v; auto.
  - rewrite in_app_iff, !in_map_iff. split; (intros [(v & H1 & H2)|(v & H1 & H2)]; [left|right]; exists v; auto).
Qed.
Lemma flux_tr_tw dir c k : tr (flux_task b3 P p junk dir c k) = tw (flux_task b3 P p junk dir c k).
Proof. destruct k as [[q n]|q]; reflexivity. Qed.
Lemma flux_key dir c k : In k (flux_keys b3 P dir c) <->
  match k with
  | inl (q, n) => In q (lines b3 P dir) /\ 1 <= n < N
  | inr q => In q (lines b3 P dir) /\ 0 < coord c dir
  end.
Proof.
  unfold flux_keys. rewrite in_app_iff, in_map_iff. destruct k as [[q n]|q].
  - split.
    + intros [([q' n'] & E & H)|H].
      * injection E as -> ->. apply in_prod_iff in H. rewrite In_zrange in H. exact H.
      * exfalso. destruct (0 <? coord c dir); [|destruct H]. apply in_map_iff in H. destruct H as (x & E & _). discriminate.
    + intros [H1 H2]. left. exists (q, n). split; auto. apply in_prod_iff. rewrite In_zrange. auto.
  - split.
    + intros [([q' n'] & E & H)|H]; [discriminate|]. destruct (Z.ltb_spec 0 (coord c dir)); [|destruct H].
      apply in_map_iff in H. destruct H as (x & E & Hx). injection E as ->. auto.
    + intros [H1 H2]. right. rewrite (proj2 (Z.ltb_lt _ _)) by auto. apply in_map. auto.
Qed.
Lemma NoDup_flux_keys dir c : NoDup (flux_keys b3 P dir c).
Proof.
  unfold flux_keys. apply NoDup_app_intro.
  - apply NoDup_map_in; [congruence|]. apply NoDup_list_prod; [apply NoDup_box|apply NoDup_zrange].
  - destruct (0 <? coord c dir); [|constructor]. apply NoDup_map_in; [congruence|]. apply NoDup_box.
  - intros k H1 H2. apply in_map_iff in H1. destruct H1 as (x & <- & _).
    destruct (0 <? coord c dir); [|destruct H2]. apply in_map_iff in H2. destruct H2 as (y & E & _). discriminate.
Qed.
Lemma flux_disjoint dir c k c' k' l : In dir (dirs b3) -> In c C -> In k (flux_keys b3 P dir c) -> In c' C ->
  In k' (flux_keys b3 P dir c') -> writesF dir c k l -> writesF dir c' k' l -> c = c' /\ k = k'.
Proof.
  intros Hd Hc Hk Hc' Hk' Hw Hw'. apply flux_key in Hk. apply flux_key in Hk'.
  destruct k as [[q n]|q], k' as [[q' n']|q']; cbn [writesF] in Hw, Hw'; destruct Hk as [Hq Hx]; destruct Hk' as [Hq' Hx'].
  - destruct Hw as (v & Hv & ->). destruct Hw' as (v' & Hv' & E).
    apply floc_line in E; auto; try lia. destruct E as (-> & -> & -> & _). auto.
  - exfalso. destruct Hw as (v & Hv & ->). destruct Hw' as [(v' & Hv' & E)|(v' & Hv' & E)]; apply floc_line in E; auto; lia.
  - exfalso. destruct Hw' as (v & Hv & ->). destruct Hw as [(v' & Hv' & E)|(v' & Hv' & E)]; apply floc_line in E; auto; lia.
  - destruct Hw as [(v & Hv & ->)|(v & Hv & ->)]; destruct Hw' as [(v' & Hv' & E)|(v' & Hv' & E)];
      apply floc_line in E; auto; try lia.
    + destruct E as (E & _ & -> & _). apply along_inj in E. subst. auto.
    + destruct E as (-> & _ & -> & _). auto.
Qed.

Lemma len_vars : Z.to_nat (nbv b3) = length V.
Proof. clear HN junk. unfold vars. rewrite zrange_length. f_equal. lia. Qed.

Lemma flux_spec dir (s s' : store) : In dir (dirs b3) -> par_exec s (compute_flux b3 P p g junk dir) s' ->
  (forall c q v, In c C -> fbox dir q -> In v V -> fx s' dir c q v = fluxF dir (fx s dir) c q v) /\
  (forall l, la l <> aSF -> s' l = s l).
Proof.
  intros Hd Hex. pose proof (dir_any b3 dir Hd) as Hany. apply tasks_spec in Hex.
  - destruct Hex as [H1 H2]. split.
    + assert (HF : forall cR q v n, In cR C -> 0 < coord cR dir -> In q (lines b3 P dir) -> In v V -> n = -1 \/ n = 0 ->
        fx s' dir (along_dir dir n cR) (setc dir (if n =? 0 then 0 else N) q) v =
        comp (face_flux b3 p dir (stV (fx s dir (along_dir dir (-1) cR) (setc dir N q))) (stV (fx s dir cR (setc dir 0 q))) (junk cR q)) v).
      { intros cR q v n Hc Hpos Hq Hv Hn. apply (H1 cR (inr q)); auto; [apply flux_key; auto|].
        cbn [flux_task tw tv tr]. rewrite map_app, !map_map.
        assert (EL : firstn (Z.to_nat (nbv b3)) (map (fun x => s (floc b3 P dir (along_dir dir (-1) cR) (setc dir N q) x)) V ++
           map (fun x => s (floc b3 P dir cR (setc dir 0 q) x)) V) = map (fun x => s (floc b3 P dir (along_dir dir (-1) cR) (setc dir N q) x)) V).
        { rewrite len_vars. rewrite firstn_app, map_length, Nat.sub_diag, firstn_O, app_nil_r.
          rewrite firstn_all2; [reflexivity|rewrite map_length; lia]. }
        assert (ER : skipn (Z.to_nat (nbv b3)) (map (fun x => s (floc b3 P dir (along_dir dir (-1) cR) (setc dir N q) x)) V ++
           map (fun x => s (floc b3 P dir cR (setc dir 0 q) x)) V) = map (fun x => s (floc b3 P dir cR (setc dir 0 q) x)) V).
        { rewrite len_vars. rewrite skipn_app, map_length, Nat.sub_diag. cbn [skipn].
          rewrite skipn_all2; [reflexivity|rewrite map_length; lia]. }
        rewrite EL, ER, !of_list_map, to_list_map. rewrite combine_app by (rewrite !map_length; reflexivity).
        apply in_or_app. destruct Hn as [->| ->]; [left|right].
        - apply (In_combine_map (floc b3 P dir (along_dir dir (-1) cR) (setc dir N q))); auto.
        - rewrite along_zero. apply (In_combine_map (floc b3 P dir cR (setc dir 0 q))); auto. }
      intros c q v Hc Hq Hv. destruct (flux_line b3 P dir q Hd Hq) as (Hl & Hn & Eq). unfold fluxF. cbv zeta.
      pose proof (coord_C dir c Hd Hc) as Hcc.
      destruct (Z.eqb_spec (coord q dir) 0) as [E0|E0].
      * assert (Eq0 : setc dir 0 q = q) by (rewrite E0 in Eq; rewrite setc_setc in Eq; symmetry; exact Eq).
        destruct (Z.ltb_spec 0 (coord c dir)).
        -- pose proof (HF c (setc dir 0 q) v 0 Hc H Hl Hv (or_intror eq_refl)) as E. cbn [Z.eqb] in E.
           rewrite along_zero, !setc_setc in E. rewrite !Eq0 in E. rewrite !Eq0. exact E.
        -- apply H2. intros c' k' Hc' Hk' Hw. apply writesF_tw in Hw. apply flux_key in Hk'.
           destruct k' as [[q' n']|q']; cbn [writesF] in Hw; destruct Hk' as [Hq' Hx'].
           ++ destruct Hw as (v' & Hv' & E). rewrite <- Eq0 in E. rewrite <- (setc_setc dir 0 0) in E. apply floc_line in E; auto; lia.
           ++ destruct Hw as [(v' & Hv' & E)|(v' & Hv' & E)]; rewrite <- Eq0 in E; rewrite <- (setc_setc dir 0 0) in E; apply floc_line in E; auto; try lia.
              destruct E as (-> & _). lia.
      * destruct (Z.eqb_spec (coord q dir) N) as [E1|E1].
        -- assert (EqN : setc dir N q = q) by (rewrite E1 in Eq; rewrite setc_setc in Eq; symmetry; exact Eq).
           destruct (Z.ltb_spec (coord c dir + 1) (sizeA g dir)).
           ++ assert (Hc1 : In (along_dir dir 1 c) C) by (apply along_in; auto; lia).
              assert (Hp1 : 0 < coord (along_dir dir 1 c) dir) by (rewrite (coord_along dir 1 c dir b3), Z.eqb_refl by auto; lia).
              pose proof (HF (along_dir dir 1 c) (setc dir 0 q) v (-1) Hc1 Hp1 Hl Hv (or_introl eq_refl)) as E.
              cbn [Z.eqb] in E. rewrite !setc_setc in E. rewrite !along_along in E. change (-1 + 1) with 0 in E. rewrite !along_zero in E.
              rewrite EqN in E. rewrite EqN. exact E.
           ++ apply H2. intros c' k' Hc' Hk' Hw. apply writesF_tw in Hw. apply flux_key in Hk'.
              destruct k' as [[q' n']|q']; cbn [writesF] in Hw; destruct Hk' as [Hq' Hx'].
              ** destruct Hw as (v' & Hv' & E). rewrite <- EqN in E. rewrite <- (setc_setc dir N 0) in E. apply floc_line in E; auto; lia.
              ** destruct Hw as [(v' & Hv' & E)|(v' & Hv' & E)]; rewrite <- EqN in E; rewrite <- (setc_setc dir N 0) in E; apply floc_line in E; auto; try lia.
                 destruct E as (E & _). subst c. pose proof (coord_C dir c' Hd Hc') as Hcc'.
                 rewrite (coord_along dir (-1) c' dir b3), Z.eqb_refl in H by auto. lia.
        -- apply (H1 c (inl (setc dir 0 q, coord q dir))); auto; [apply flux_key; split; auto; lia|].
           cbn [flux_task tw tv tr]. rewrite map_map, of_list_map, to_list_map. rewrite <- Eq.
           apply (In_combine_map (floc b3 P dir c q)). auto.
    + intros l Hl. apply H2. intros c k Hc Hk Hw. apply writesF_tw in Hw. apply Hl.
      destruct k as [[q n]|q]; cbn in Hw.
      * destruct Hw as (v & _ & ->). apply la_floc.
      * destruct Hw as [(v & _ & ->)|(v & _ & ->)]; apply la_floc.
  - apply NoDup_C.
  - intros; apply NoDup_flux_keys.
  - intros c k Hc Hk. apply flux_key in Hk. destruct k as [[q n]|q]; cbn; destruct Hk as [Hq Hx].
    + apply NoDup_map_in; [|apply NoDup_vars]. intros v v' _ _ E. apply floc_line in E; [tauto|auto; lia..].
    + apply NoDup_app_intro.
      * apply NoDup_map_in; [|apply NoDup_vars]. intros v v' _ _ E. apply floc_line in E; [tauto|auto; lia..].
      * apply NoDup_map_in; [|apply NoDup_vars]. intros v v' _ _ E. apply floc_line in E; [tauto|auto; lia..].
      * intros l H1 H2. apply in_map_iff in H1. apply in_map_iff in H2. destruct H1 as (v & <- & _). destruct H2 as (v' & E & _).
        apply floc_line in E; auto; lia.
  - intros c k c' k' l Hc Hk Hc' Hk' Hw Hw'. rewrite flux_tr_tw in Hw'. assert (In l (tw (flux_task b3 P p junk dir c' k'))) by tauto.
    apply writesF_tw in Hw. apply writesF_tw in H. eapply flux_disjoint; eauto.
Qed.

(** ** Derivative *)
Definition derivF (dir : Z) (F : fieldS) : fieldS := fun c q v =>
  flux2sol_derivative P (fun n => F c (setc dir n q) v) (coord q dir) (div one (spacing p dir)).
Lemma getl_app_l (f : Z -> T) n r i : 0 <= i < n -> getl (map f (zrange 0 n) ++ r) i = f i.
Proof. clear HN junk.
  intros Hi. unfold getl. rewrite app_nth1 by (rewrite map_length, zrange_length; lia). apply getl_map; auto.
Qed.
Lemma getl_app_r (f : Z -> T) n r i : 0 <= i -> 0 <= n -> getl (map f (zrange 0 n) ++ r) (n + i) = getl r i.
Proof. clear HN junk.
  intros Hi Hn. unfold getl. rewrite app_nth2 by (rewrite map_length, zrange_length; lia).
  rewrite map_length, zrange_length. f_equal. lia.
Qed.
Lemma sloc_line dir a c q n v c' q' n' v' : In dir (dirs b3) -> In q (lines b3 P dir) -> In q' (lines b3 P dir) ->
  0 <= n < N -> 0 <= n' < N -> sloc b3 P a c (setc dir n q) v = sloc b3 P a c' (setc dir n' q') v' ->
  c = c' /\ n = n' /\ q = q' /\ v = v'.
Proof. clear HN junk.
  intros Hd Hq Hq' Hn Hn' E. apply sloc_inj in E; try (apply line_sol; auto).
  destruct E as (_ & -> & E & ->). apply setc_inj in E; [tauto|apply (dir_any b3 dir Hd)|].
  rewrite !(line_coord b3 P dir) by tauto. reflexivity.
Qed.
Lemma derivative_spec dir (s s' : store) : In dir (dirs b3) -> par_exec s (derivative b3 P p g dir) s' ->
  (forall c q v, In c C -> In q D -> In v V -> sv s' aFdiv c q v = add (sv s aFdiv c q v) (derivF dir (fx s dir) c q v)) /\
  (forall l, la l <> aFdiv -> s' l = s l).
Proof. clear HN junk.
  intros Hd Hex. pose proof (dir_any b3 dir Hd) as Hany. apply tasks_spec in Hex.
  - destruct Hex as [H1 H2]. split.
    + intros c q v Hc Hq Hv. destruct (dof_line b3 P dir q Hd Hq) as (Hl & Hn & Eq).
      apply (H1 c (setc dir 0 q, v)); auto. apply in_prod; auto. cbn [deriv_task tw tv tr].
      rewrite map_app, !map_map.
      set (vs := map (fun x => s (floc b3 P dir c (setc dir x (setc dir 0 q)) v)) (zrange 0 (N + 1)) ++
                 map (fun x => s (sloc b3 P aFdiv c (setc dir x (setc dir 0 q)) v)) (zrange 0 N)).
      replace (sv s aFdiv c q v) with (getl vs (N + 1 + coord q dir)).
      2:{ unfold vs. rewrite getl_app_r by lia. rewrite getl_map by lia. rewrite <- Eq. reflexivity. }
      unfold derivF.
      replace (flux2sol_derivative P (fun n => fx s dir c (setc dir n q) v) (coord q dir) (div one (spacing p dir))) with
        (flux2sol_derivative P (getl vs) (coord q dir) (div one (spacing p dir))).
      2:{ apply deriv_ext. intros k Hk. unfold vs. rewrite getl_app_l by lia. rewrite setc_setc. reflexivity. }
      replace (sloc b3 P aFdiv c q v) with (sloc b3 P aFdiv c (setc dir (coord q dir) (setc dir 0 q)) v) by (rewrite <- Eq; reflexivity).
      apply (In_combine_map (fun n => sloc b3 P aFdiv c (setc dir n (setc dir 0 q)) v)
        (fun n => add (getl vs (N + 1 + n)) (flux2sol_derivative P (getl vs) n (div one (spacing p dir))))).
      apply In_zrange. lia.
    + intros l Hl. apply H2. intros c [q v] Hc Hk Hin. cbn in Hin. apply in_map_iff in Hin. destruct Hin as (n & <- & _).
      rewrite la_sloc in Hl. auto.
  - apply NoDup_C.
  - intros; apply NoDup_keysL.
  - intros c [q v] Hc Hk. apply in_prod_iff in Hk. cbn. apply NoDup_map_in; [|apply NoDup_zrange].
    intros n n' Hn Hn' E. apply In_zrange in Hn. apply In_zrange in Hn'. apply sloc_line in E; auto; tauto.
  - intros c [q v] c' [q' v'] l Hc Hk Hc' Hk' Hw Hw'. cbn in Hw, Hw'. apply in_prod_iff in Hk. apply in_prod_iff in Hk'.
    apply in_map_iff in Hw. destruct Hw as (n & <- & Hn). apply In_zrange in Hn. rewrite in_app_iff in Hw'.
    assert (G : In (sloc b3 P aFdiv c (setc dir n q) v) (map (fun n => sloc b3 P aFdiv c' (setc dir n q') v') (zrange 0 N))).
    { destruct Hw' as [H|[H|H]]; auto. apply in_map_iff in H. destruct H as (n' & E & _). apply (f_equal la) in E.
      rewrite la_floc, la_sloc in E. discriminate. }
    apply in_map_iff in G. destruct G as (n' & E & Hn'). apply In_zrange in Hn'. symmetry in E.
    apply sloc_line in E; auto; try tauto. destruct E as (-> & _ & -> & ->). auto.
Qed.

(** ** Update *)
Lemma In_update_keys c q v : In (q, v) (update_keys b3 P g c) <-> inside b3 g c = true /\ In q D /\ In v V.
Proof. clear HN junk.
  unfold update_keys. destruct (inside b3 g c).
  - rewrite in_prod_iff. tauto.
  - cbn. intuition congruence.
Qed.
Lemma update_spec aOut a0 a1 c0 c1 c2 (s s' : store) : aOut <> aFdiv ->
  par_exec s (update_RK b3 P g dt aOut a0 a1 (c0, c1, c2)) s' ->
  (forall c q v, In c C -> inside b3 g c = true -> In q D -> In v V -> sv s' aOut c q v =
     add (add (mul c0 (sv s a0 c q v)) (mul c1 (sv s a1 c q v))) (mul (mul c2 dt) (sv s aFdiv c q v))) /\
  (forall c q v, In c C -> inside b3 g c = false -> In q D -> In v V -> sv s' aOut c q v = sv s aOut c q v) /\
  (forall l, la l <> aOut -> s' l = s l).
Proof. clear HN junk.
  intros Ha Hex. cbn [update_RK] in Hex. apply tasks_spec in Hex.
  - destruct Hex as [H1 H2]. split; [|split].
    + intros c q v Hc Hi Hq Hv. apply (H1 c (q, v)); auto; [apply In_update_keys; auto|]. left. reflexivity.
    + intros c q v Hc Hi Hq Hv. apply H2. intros c' [q' v'] Hc' Hk [E|[]]. apply In_update_keys in Hk.
      apply sloc_inj in E; try (apply In_dofs; tauto). destruct E as (_ & -> & _). destruct Hk as [Hk _]. congruence.
    + intros l Hl. apply H2. intros c [q v] Hc Hk [<-|[]]. rewrite la_sloc in Hl. auto.
  - apply NoDup_C.
  - intros c _. unfold update_keys. destruct (inside b3 g c); [apply NoDup_keysS|constructor].
  - intros c [q v] _ _. repeat constructor. intros [].
  - intros c [q v] c' [q' v'] l Hc Hk Hc' Hk' Hw Hw'. apply In_update_keys in Hk. apply In_update_keys in Hk'.
    destruct Hw as [<-|[]]. cbn in Hw'.
    assert (G : exists a, sloc b3 P a c' q' v' = sloc b3 P aOut c q v) by (repeat destruct Hw' as [Hw'|Hw']; try contradiction; eauto).
    destruct G as (a & E). apply sloc_inj in E; try (apply In_dofs; tauto). destruct E as (_ & -> & -> & ->). auto.
Qed.
End SP.

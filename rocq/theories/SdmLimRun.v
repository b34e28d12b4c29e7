(** What the loops of the limiter compute, in any interleaving of the cells. *)
From Coq Require Import ZArith List Bool Lia.
From Verif Require Import Arith Par ParProofs GridModel HydroState HydroKernels CellKernels BoundaryProofs MoodKernels MoodProofs
  TaskModel TaskKernels SdmGeom SdmKernels SdmDofs SdmProofs SdmPos SdmPosRun SdmLim.
Import ListNotations.
Open Scope Z_scope.

Section Run.
Context {T : Type} {A : Arith T}.
Variable b3 : bool.
Variable P : points T.
Variable p : hparams T.
Variables mpi mdx2 : T.
Variable g : grid.
Notation store := (store T).
Notation K := (local_keys b3 P).

(** The values of a cell stored in array [a]. *)
Definition held (s : store) (a : Z) (c : cell) : local := fun q v => s (sloc b3 P a c q v).

Lemma fold_left_ext_in {X Y} (f h : X -> Y -> X) l a : (forall x y, In y l -> f x y = h x y) -> fold_left f l a = fold_left h l a.
Proof.
  revert a. induction l as [|y l IH]; intros a H; [reflexivity|]. cbn [fold_left]. rewrite H by (left; auto). apply IH. intros; apply H; right; auto.
Qed.
Lemma quadrature_ext (f h : cell -> T) : (forall q, In q (dofs b3 P) -> f q = h q) -> quadrature b3 P mpi f = quadrature b3 P mpi h.
Proof.
  intros H. unfold quadrature. cbv zeta. f_equal. apply fold_left_ext_in. intros t [[x y] z] Hq. rewrite H by auto. reflexivity.
Qed.
Lemma cell_average_ext (V V' : local) v : (forall q, In q (dofs b3 P) -> V q v = V' q v) ->
  cell_average b3 P p mpi V v = cell_average b3 P p mpi V' v.
Proof. intros H. unfold cell_average. rewrite (quadrature_ext _ (fun q => V' q v)); auto. Qed.
Lemma setc_dofs dir i q : In dir (dirs b3) -> In q (dofs b3 P) -> 0 <= i < npts P -> In (setc dir i q) (dofs b3 P).
Proof.
  destruct q as [[x y] z]. intros Hd H Hi. apply dirs_cases in Hd. unfold dofs, box, cell in *. rewrite !in_prod_iff in H.
  destruct Hd as [->|[->|[-> ->]]]; unfold setc; cbn [Z.eqb Pos.eqb IX IY IZ]; rewrite !in_prod_iff, !In_zrange in *; tauto.
Qed.
Lemma dot_ext n (f h : Z -> T) m j : (forall i, 0 <= i < n -> f i = h i) -> dot n f m j = dot n h m j.
Proof. intros H. unfold dot, loopv. apply fold_left_ext_in. intros x y Hy. apply In_zrange in Hy. rewrite H by auto. reflexivity. Qed.
Lemma cell_gradient_ext dir (V V' : local) v : In dir (dirs b3) -> (forall q, In q (dofs b3 P) -> V q v = V' q v) ->
  cell_gradient b3 P mpi dir V v = cell_gradient b3 P mpi dir V' v.
Proof.
  intros Hd H. unfold cell_gradient. apply quadrature_ext. intros q Hq. unfold gradient_at. apply dot_ext.
  intros i Hi. apply H. apply setc_dofs; auto.
Qed.

Lemma NoDup_at a (c : cell) : NoDup (map (fun v => at_cell a c v) (vars b3)).
Proof.
  apply NoDup_map_in; [|apply NoDup_vars]. intros v v' _ _ E. destruct c as [[x y] z]. unfold at_cell in E. injection E; auto.
Qed.
Lemma at_cell_inj a a' c c' v v' : at_cell a c v = at_cell a' c' v' -> a = a' /\ c = c' /\ v = v'.
Proof. destruct c as [[x y] z], c' as [[x' y'] z']. unfold at_cell. intros E. injection E as -> -> -> -> ->. auto. Qed.
Lemma la_at a c v : la (at_cell a c v) = a.
Proof. destruct c as [[x y] z]. reflexivity. Qed.

(** A loop that stores in array [b] one value per variable computed from the values
    of the cell in array [a]. *)
Lemma per_cell_run (f : local -> Z -> T) a b (s s' : store) : a <> b ->
  (forall V V' v, (forall q, In q (dofs b3 P) -> V q v = V' q v) -> f V v = f V' v) ->
  par_exec s (tasks_loop (cells b3 g) (fun c => map (fun _ : unit =>
     Task (map (fun k => sloc b3 P a c (fst k) (snd k)) K) (map (fun v => at_cell b c v) (vars b3))
          (fun vs => map (f (local_of b3 P vs)) (vars b3))) [tt])) s' ->
  (forall c v, In c (cells b3 g) -> In v (vars b3) -> s' (at_cell b c v) = f (held s a c) v) /\
  (forall l, la l <> b -> s' l = s l).
Proof.
  intros Hab Hf Hex.
  set (mk := fun c (_ : unit) => Task (map (fun k => sloc b3 P a c (fst k) (snd k)) K) (map (fun v => at_cell b c v) (vars b3))
          (fun vs => map (f (local_of b3 P vs)) (vars b3))) in *.
  apply (tasks_spec (cells b3 g) (fun _ => [tt]) mk) in Hex.
  - destruct Hex as [H1 H2]. split.
    + intros c v Hc Hv. apply (H1 c tt); auto. left; auto. unfold mk. cbn [tw tr tv]. rewrite map_map.
      replace (f (held s a c) v) with (f (local_of b3 P (map (fun k => s (sloc b3 P a c (fst k) (snd k))) K)) v).
      * apply (In_combine_map (fun v => at_cell b c v) (f _) (vars b3) v). auto.
      * apply Hf. intros q Hq. rewrite local_of_map; auto.
    + intros l Hl. apply H2. intros c k Hc _ Hin. unfold mk in Hin. cbn [tw] in Hin. apply in_map_iff in Hin.
      destruct Hin as (v & <- & _). rewrite la_at in Hl. auto.
  - apply NoDup_cellsD.
  - intros. repeat constructor. intros [].
  - intros. apply NoDup_at.
  - intros c [] c' [] l Hc _ Hc' _ Hl Hor. split; [|reflexivity]. unfold mk in *. cbn [tw tr] in *.
    apply in_map_iff in Hl. destruct Hl as (v & <- & _). destruct Hor as [Hor|Hor].
    + apply in_map_iff in Hor. destruct Hor as (v' & E & _). apply at_cell_inj in E. symmetry. tauto.
    + apply in_map_iff in Hor. destruct Hor as (k & E & _). apply (f_equal la) in E. rewrite la_sloc, la_at in E. contradiction.
Qed.
Lemma averages_run a (s s' : store) : a <> aAve -> par_exec s (compute_averages b3 P p mpi g a) s' ->
  (forall c v, In c (cells b3 g) -> In v (vars b3) -> s' (at_cell aAve c v) = cell_average b3 P p mpi (held s a c) v) /\
  (forall l, la l <> aAve -> s' l = s l).
Proof. intros Ha. apply per_cell_run; auto. intros. apply cell_average_ext; auto. Qed.
Lemma gradients_run dir a (s s' : store) : In dir (dirs b3) -> a <> aGrad dir -> par_exec s (compute_gradients b3 P mpi g dir a) s' ->
  (forall c v, In c (cells b3 g) -> In v (vars b3) -> s' (at_cell (aGrad dir) c v) = cell_gradient b3 P mpi dir (held s a c) v) /\
  (forall l, la l <> aGrad dir -> s' l = s l).
Proof. intros Hd Ha. apply (per_cell_run (cell_gradient b3 P mpi dir)); auto. intros. apply cell_gradient_ext; auto. Qed.

(** *** The limiter itself *)
Lemma eq_lkey_iff k k' : eq_lkey k k' = true <-> k = k'.
Proof.
  destruct k as [[t q] v], k' as [[t' q'] v']. unfold eq_lkey. rewrite andb_true_iff, Z.eqb_eq, eq_key_iff. split.
  - intros [-> E]. injection E as -> ->. reflexivity.
  - intros E. injection E as -> -> ->. auto.
Qed.
Lemma find_lkey (f : lkey -> T) l k : In k l ->
  find (fun e => eq_lkey k (fst e)) (combine l (map f l)) = Some (k, f k).
Proof.
  induction l as [|k0 l IH]; intros H; [contradiction|]. cbn [map combine find fst].
  destruct (eq_lkey k k0) eqn:E.
  - apply eq_lkey_iff in E. subst. reflexivity.
  - destruct H as [->|H]; [|apply IH; auto]. rewrite (proj2 (eq_lkey_iff k k) eq_refl) in E. discriminate.
Qed.
Lemma lval_map (f : lkey -> T) k : In k (lkeys b3 P) -> lval b3 P (map f (lkeys b3 P)) k = f k.
Proof. intros H. unfold lval. rewrite find_lkey by auto. reflexivity. Qed.

Lemma In_lkeys_val q v : In q (dofs b3 P) -> In v (vars b3) -> In (0, q, v) (lkeys b3 P).
Proof. intros Hq Hv. apply in_or_app. left. apply in_map_iff. exists (q, v). split; auto. apply in_prod; auto. Qed.
Lemma In_lkeys_tag t v : t = 1 \/ (exists d, In d (dirs b3) /\ (t = 2 + d \/ t = 5 + d \/ t = 8 + d)) -> In v (vars b3) ->
  In (t, no_point, v) (lkeys b3 P).
Proof.
  intros Ht Hv. apply in_or_app. right. apply in_map_iff. exists (t, v). split; auto. apply in_prod; auto.
  destruct Ht as [->|(d & Hd & Ht)]; [left; auto|]. right. apply in_flat_map. exists d. split; auto.
  destruct Ht as [->|[->| ->]]; [left|right; left|right; right; left]; auto.
Qed.
Lemma lkeys_inv t q v : In (t, q, v) (lkeys b3 P) -> In v (vars b3) /\
  ((t = 0 /\ In q (dofs b3 P)) \/ t = 1 \/ (exists d, In d (dirs b3) /\ (t = 2 + d \/ t = 5 + d \/ t = 8 + d))).
Proof.
  intros H. apply in_app_or in H. destruct H as [H|H]; apply in_map_iff in H; destruct H as (k & E & H).
  - injection E as <- <- <-. destruct k as [q v]. apply in_prod_iff in H. cbn [fst snd]. tauto.
  - injection E as <- <- <-. destruct k as [t v]. apply in_prod_iff in H. cbn [fst snd]. destruct H as [[H|H] Hv]; [auto|].
    apply in_flat_map in H. destruct H as (d & Hd & H). split; auto. right. right. exists d. split; auto.
    cbn in H. destruct H as [H|[H|[H|[]]]]; auto.
Qed.

(** The states the limiter works with, read from a store. *)
Definition ave_state (s : store) (c : cell) : hs T := hs_of b3 (fun v => s (at_cell aAve c v)).
Definition grad_state (s : store) (dir : Z) (c : cell) : hs T := hs_of b3 (fun v => s (at_cell (aGrad dir) c v)).
Definition inputs_at (s : store) (c : cell) : inputs T :=
  Inputs (ave_state s c) (fun d => ave_state s (along_dir d (-1) c)) (fun d => ave_state s (along_dir d 1 c)) (fun d => grad_state s d c).

Lemma hs_of_ext (f h : Z -> T) : (forall v, In v (vars b3) -> f v = h v) -> hs_of b3 f = hs_of b3 h.
Proof.
  intros H. unfold hs_of. assert (V : forall v, 0 <= v < 4 -> In v (vars b3)).
  { intros v Hv. apply In_vars. unfold nbv. destruct b3; lia. }
  rewrite !(H ID), !(H IP), !(H IU), !(H IV) by (apply V; unfold ID, IP, IU, IV; lia).
  destruct b3 eqn:Eb; [|reflexivity]. rewrite (H IW); [reflexivity|]. apply In_vars. unfold IW. cbn. lia.
Qed.
Definition same_inputs (I I' : inputs T) : Prop :=
  i_ave I = i_ave I' /\ forall d, In d (dirs b3) -> i_lo I d = i_lo I' d /\ i_hi I d = i_hi I' d /\ i_grad I d = i_grad I' d.
Lemma du_new_ext d I I' : same_inputs I I' -> In d (dirs b3) ->
  du b3 p d I = du b3 p d I' /\ du_new b3 p mdx2 d I = du_new b3 p mdx2 d I' /\ change b3 p mdx2 d I = change b3 p mdx2 d I' /\
  slope b3 p mdx2 d I = slope b3 p mdx2 d I'.
Proof.
  intros [H1 H2] Hd. destruct (H2 d Hd) as (E1 & E2 & E3).
  assert (A1 : du b3 p d I = du b3 p d I') by (unfold du, to_charac, lim_speed; rewrite H1, E3; reflexivity).
  assert (A2 : du_lo b3 p d I = du_lo b3 p d I') by (unfold du_lo, to_charac, lim_speed; rewrite H1, E1; reflexivity).
  assert (A3 : du_hi b3 p d I = du_hi b3 p d I') by (unfold du_hi, to_charac, lim_speed; rewrite H1, E2; reflexivity).
  assert (A4 : du_new b3 p mdx2 d I = du_new b3 p mdx2 d I') by (unfold du_new; rewrite A1, A2, A3; reflexivity).
  split; [auto|split; [auto|split]].
  - unfold change. rewrite A4, A1. reflexivity.
  - unfold slope, lim_speed. rewrite A4, H1. reflexivity.
Qed.
Lemma limiter_cell_ext V V' I I' q v : same_inputs I I' -> V q v = V' q v ->
  limiter_cell b3 P p mdx2 V I q v = limiter_cell b3 P p mdx2 V' I' q v.
Proof.
  intros HI HV. pose proof HI as [H1 _].
  assert (G : forall d, In d (dirs b3) -> change b3 p mdx2 d I = change b3 p mdx2 d I' /\ slope b3 p mdx2 d I = slope b3 p mdx2 d I')
    by (intros d Hd; destruct (du_new_ext d I I' HI Hd) as (_ & _ & E1 & E2); auto).
  destruct (G IX) as [X1 X2]; [unfold dirs; destruct b3; cbn; auto|]. destruct (G IY) as [Y1 Y2]; [unfold dirs; destruct b3; cbn; auto|].
  assert (Z0 : b3 = true -> change b3 p mdx2 IZ I = change b3 p mdx2 IZ I' /\ slope b3 p mdx2 IZ I = slope b3 p mdx2 IZ I')
    by (intros Eb; apply G; unfold dirs; rewrite Eb; cbn; auto).
  unfold limiter_cell, active, linear_value. destruct q as [[x y] z]. destruct b3.
  - destruct Z0 as [Z1 Z2]; auto. rewrite HV, H1, X1, X2, Y1, Y2, Z1, Z2. reflexivity.
  - rewrite HV, H1, X1, X2, Y1, Y2. reflexivity.
Qed.

Lemma limiter_run a (s s' : store) : a <> aAve -> (forall d, In d (dirs b3) -> a <> aGrad d) ->
  par_exec s (apply_limiter b3 P p mdx2 g a) s' ->
  (forall c q v, In c (cells b3 g) -> In q (dofs b3 P) -> In v (vars b3) ->
     s' (sloc b3 P a c q v) = if off_rim b3 g c then limiter_cell b3 P p mdx2 (held s a c) (inputs_at s c) q v else s (sloc b3 P a c q v)) /\
  (forall l, la l <> a -> s' l = s l).
Proof.
  intros Ha Hg Hex. unfold apply_limiter in Hex.
  apply (tasks_spec (cells b3 g) (fun c => if off_rim b3 g c then [tt] else []) (limiter_task b3 P p mdx2 a)) in Hex.
  - destruct Hex as [H1 H2]. split.
    + intros c q v Hc Hq Hv. destruct (off_rim b3 g c) eqn:Er.
      * apply (H1 c tt); auto. rewrite Er; left; auto. unfold limiter_task. cbn [tr tw tv]. rewrite map_map.
        set (vs := map (fun x => s (lloc b3 P a c x)) (lkeys b3 P)).
        replace (limiter_cell b3 P p mdx2 (held s a c) (inputs_at s c) q v)
          with (limiter_cell b3 P p mdx2 (fun q v => lval b3 P vs (0, q, v)) (inputs_of b3 (lval b3 P vs)) q v).
        -- apply (In_combine_map (fun k => sloc b3 P a c (fst k) (snd k))
             (fun k => limiter_cell b3 P p mdx2 (fun q v => lval b3 P vs (0, q, v)) (inputs_of b3 (lval b3 P vs)) (fst k) (snd k)) K (q, v)).
           apply in_prod; auto.
        -- apply limiter_cell_ext.
           ++ split; [|intros d Hd; split; [|split]]; unfold inputs_of, inputs_at; cbn [i_ave i_lo i_hi i_grad]; apply hs_of_ext; intros w Hw;
                unfold vs; rewrite lval_map by (apply In_lkeys_tag; eauto 8).
              ** reflexivity.
              ** apply dirs_cases in Hd. destruct Hd as [->|[->|[-> _]]]; reflexivity.
              ** apply dirs_cases in Hd. destruct Hd as [->|[->|[-> _]]]; reflexivity.
              ** apply dirs_cases in Hd. destruct Hd as [->|[->|[-> _]]]; reflexivity.
           ++ unfold vs. rewrite lval_map by (apply In_lkeys_val; auto). reflexivity.
      * apply H2. intros c' k Hc' Hk Hin. destruct (off_rim b3 g c') eqn:Er'; [|contradiction].
        unfold limiter_task in Hin. cbn [tw] in Hin. apply in_map_iff in Hin. destruct Hin as (k' & E & _).
        apply (f_equal at_of) in E. rewrite !at_sloc in E. congruence.
    + intros l Hl. apply H2. intros c k Hc _ Hin. unfold limiter_task in Hin. cbn [tw] in Hin.
      apply in_map_iff in Hin. destruct Hin as (k' & <- & _). rewrite la_sloc in Hl. auto.
  - apply NoDup_cellsD.
  - intros c _. destruct (off_rim b3 g c); repeat constructor. intros [].
  - intros. apply NoDup_slocs.
  - intros c [] c' [] l Hc _ Hc' _ Hl Hor. split; [|reflexivity]. unfold limiter_task in *. cbn [tw tr] in *.
    apply in_map_iff in Hl. destruct Hl as ([q v] & <- & _). cbn [fst snd] in *. destruct Hor as [Hor|Hor].
    + apply in_map_iff in Hor. destruct Hor as (k' & E & _). apply (f_equal at_of) in E. rewrite !at_sloc in E. auto.
    + apply in_map_iff in Hor. destruct Hor as ([[t x] w] & E & Hk). apply lkeys_inv in Hk. destruct Hk as (_ & Hk).
      destruct Hk as [[-> Hx]|[->|(d & Hd & Hk)]].
      * change (lloc b3 P a c' (0, x, w)) with (sloc b3 P a c' x w) in E. apply (f_equal at_of) in E. rewrite !at_sloc in E. auto.
      * exfalso. apply Ha. change (lloc b3 P a c' (1, x, w)) with (at_cell aAve c' w) in E. apply (f_equal la) in E. rewrite la_sloc, la_at in E. auto.
      * exfalso. pose proof (Hg d Hd) as Hgd. apply dirs_cases in Hd.
        assert (Q : lloc b3 P a c' (t, x, w) = at_cell aAve (along_dir d (-1) c') w \/ lloc b3 P a c' (t, x, w) = at_cell aAve (along_dir d 1 c') w \/
          lloc b3 P a c' (t, x, w) = at_cell (aGrad d) c' w).
        { destruct Hd as [->|[->|[-> _]]]; destruct Hk as [->|[->| ->]]; [left|right; left|right; right|left|right; left|right; right|left|right; left|right; right]; reflexivity. }
        destruct Q as [Q|[Q|Q]]; rewrite Q in E; apply (f_equal la) in E; rewrite la_sloc, la_at in E; congruence.
Qed.
End Run.

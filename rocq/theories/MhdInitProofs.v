(** What the initial condition loops of the MHD problems leave in memory, for every
    schedule. *)
From Coq Require Import ZArith List Bool Lia.
From Verif Require Import Arith Par ParProofs GridModel BoundaryModel BoundaryProofs HydroState HydroKernels
  CellKernels HydroExec HydroStep2 MhdState MhdKernels2 MoodKernels MoodProofs MhdInit.
Import ListNotations.
Open Scope Z_scope.
Open Scope prog_scope.

Section VarWise.
Context {T : Type}.
Notation store := (store T).

(** Loops whose iteration [c] writes only the variables [V] of cell [c] of array [a]. *)
Definition varR (a : Z) (V : Z -> Prop) (c : cell) (l : loc) : Prop := la l = a -> V (lv l) -> at_of l = c.
Definition varW (a : Z) (V : Z -> Prop) (c : cell) (l : loc) : Prop := la l = a /\ V (lv l) /\ at_of l = c.
Definition varprog a V c (q : prog T unit) : Prop := acc (varR a V c) (varW a V c) q.

Lemma varwise_spec a V (cells : list cell) (body : cell -> prog T unit) (s s' : store) :
  NoDup cells -> (forall c, In c cells -> varprog a V c (body c)) ->
  par_exec s (md_for cells body) s' ->
  (forall c v, In c cells -> V v -> s' (at_cell a c v) = exec (body c) s (at_cell a c v)) /\
  (forall l, ~ (la l = a /\ V (lv l) /\ In (at_of l) cells) -> s' l = s l).
Proof.
  intros Hnd Hok Hex.
  assert (Hrf : forall i j l, In i cells -> In j cells -> i <> j -> varW a V i l -> ~ varW a V j l /\ ~ varR a V j l).
  { intros i j l Hi Hj Hij (Ha & Hv & Hl). split.
    - intros (_ & _ & Hl'). congruence.
    - intros Hr. specialize (Hr Ha Hv). congruence. }
  destruct (par_for_spec cells (varR a V) (varW a V) Hrf body s s' Hnd Hok Hex) as [H1 H2].
  split.
  - intros c v Hin Hv. apply (H1 c); auto. split; [apply la_at_cell|]. rewrite lv_at_cell, at_of_at_cell. auto.
  - intros l Hl. apply H2. intros i Hi (Ha & Hv & He). apply Hl. subst i. auto.
Qed.

(** Value of variable [v] after the assignments [l], from the old value. *)
Definition assigned (l : list (Z * T)) (v : Z) (old : T) : T :=
  fold_left (fun o vx => if fst vx =? v then snd vx else o) l old.

Lemma exec_assign a c l (s : store) v :
  exec (assign a c l) s (at_cell a c v) = assigned l v (s (at_cell a c v)).
Proof.
  unfold assign, assigned. revert s. induction l as [|[w x] l IH]; intros s; [reflexivity|].
  cbn [for_each fst snd fold_left]. rewrite exec_wr, IH. f_equal. apply upd_cell_same.
Qed.
Lemma exec_assign_other a c (l : list (Z * T)) (s : store) x : la x <> a -> exec (assign a c l) s x = s x.
Proof.
  intros H. unfold assign. revert s. induction l as [|[w y] l IH]; intros s; [reflexivity|].
  cbn [for_each fst snd]. rewrite exec_wr, IH. apply upd_cell_other. auto.
Qed.
Lemma acc_assign (R W : loc -> Prop) a c (l : list (Z * T)) :
  (forall v, In v (map fst l) -> W (at_cell a c v)) -> acc R W (assign a c l).
Proof. intros H. apply acc_for. intros [v x] Hv. apply acc_wr. apply H. apply in_map_iff. exists (v, x). auto. Qed.
End VarWise.

Section Init.
Context {T : Type} {AT : Arith T}.
Notation store := (store T).
Variable m : libm T.
Variable b3 : bool.
Variable g : grid.
Variable p : mparams T.
Variable bx : box T.

Lemma assign_all_spec f (s s' : store) : par_exec s (assign_all b3 g f) s' ->
  (forall c v, In c (cellsD b3 g) -> s' (at_cell aU c v) = assigned (f c) v (s (at_cell aU c v))) /\
  (forall l, ~ (la l = aU /\ In (at_of l) (cellsD b3 g)) -> s' l = s l).
Proof.
  intros H. apply (varwise_spec aU (fun _ => True)) in H.
  - destruct H as [H1 H2]. split; [|intros l Hl; apply H2; tauto].
    intros c v Hc. rewrite H1 by auto. apply exec_assign.
  - apply NoDup_cellsD.
  - intros c _. apply acc_assign. intros v _. split; [apply la_at_cell|]. split; [exact I|apply at_of_at_cell].
Qed.

(** Loops that set the energy only. *)
Lemma only_energy (body : cell -> prog T unit) (s s' : store) :
  (forall c, varprog aU (fun v => v = IP) c (body c)) ->
  par_exec s (md_for (cellsD b3 g) body) s' ->
  (forall c, In c (cellsD b3 g) -> s' (at_cell aU c IP) = exec (body c) s (at_cell aU c IP)) /\
  (forall l, lv l <> IP \/ la l <> aU -> s' l = s l).
Proof.
  intros Hb H. apply (varwise_spec aU (fun v => v = IP)) in H; [|apply NoDup_cellsD|auto].
  destruct H as [H1 H2]. split; [auto|]. intros l Hl. apply H2. intuition.
Qed.
Lemma acc_when (R W : loc -> Prop) b (q : prog T unit) : acc R W q -> acc R W (when b q).
Proof. destruct b; auto. intros _. apply acc_skip. Qed.
Lemma varR_other c c' v : v <> IP -> varR aU (fun v => v = IP) c (at_cell aU c' v).
Proof. intros H _. rewrite lv_at_cell. tauto. Qed.
Ltac rdo := apply acc_bind; [apply acc_rd; apply varR_other; discriminate|intros ?].
Lemma wrE c x : acc (varR aU (fun v => v = IP) c) (varW aU (fun v => v = IP) c) (wr (T := T) (at_cell aU c IP) x).
Proof. apply acc_wr. split; [apply la_at_cell|]. split; [apply lv_at_cell|apply at_of_at_cell]. Qed.
Lemma ot_energy_prog c : varprog aU (fun v => v = IP) c (ot_energy m g p c).
Proof.
  destruct c as [[i j] k]. unfold ot_energy. apply acc_when. unfold rdU. do 7 rdo. apply wrE.
Qed.
Lemma loop_energy_prog c : varprog aU (fun v => v = IP) c (loop_energy b3 g p c).
Proof.
  unfold loop_energy. apply acc_when. apply acc_if; intros _; [apply wrE|]. unfold rdU. do 7 rdo.
  apply acc_if; intros _; [do 3 rdo|]; apply wrE.
Qed.

(** ** The vector potential *)
Lemma potential_spec (f : cell -> list (Z * T)) (s s' : store) :
  par_exec s (md_for (cellsD b3 g) (fun c => assign aVP c (f c))) s' ->
  (forall c v, In c (cellsD b3 g) -> s' (at_cell aVP c v) = assigned (f c) v (s (at_cell aVP c v))) /\
  (forall l, la l <> aVP -> s' l = s l).
Proof.
  intros H. apply (varwise_spec aVP (fun _ => True)) in H.
  - destruct H as [H1 H2]. split; [|intros l Hl; apply H2; tauto].
    intros c v Hc. rewrite H1 by auto. apply exec_assign.
  - apply NoDup_cellsD.
  - intros c _. apply acc_assign. intros v _. split; [apply la_at_cell|]. split; [exact I|apply at_of_at_cell].
Qed.

(** Discrete curl of a potential. *)
Definition curl (A : cell -> Z -> T) (c : cell) (v : Z) (old : T) : T :=
  let h := mh p in
  if b3 then
    if v =? IA then ((A (along_dir IY 1 c) IZ - A c IZ) / dy h - (A (along_dir IZ 1 c) IY - A c IY) / dz h)%A
    else if v =? IB then ((A (along_dir IZ 1 c) IX - A c IX) / dz h - (A (along_dir IX 1 c) IZ - A c IZ) / dx h)%A
    else if v =? IC then ((A (along_dir IX 1 c) IY - A c IY) / dx h - (A (along_dir IY 1 c) IX - A c IX) / dy h)%A
    else old
  else
    if v =? IA then ((A (along_dir IY 1 c) IZ - A c IZ) / dy h)%A
    else if v =? IB then (- (A (along_dir IX 1 c) IZ - A c IZ) / dx h)%A
    else if v =? IC then zero else old.

Lemma exec_curl c (s : store) v :
  exec (curl_assign b3 p c) s (at_cell aU c v) =
  curl (fun c v => s (at_cell aVP c v)) c v (s (at_cell aU c v)).
Proof.
  unfold curl_assign, curl, vp.
  destruct b3; rewrite !exec_rd, exec_assign; unfold assigned; cbn [fold_left fst snd];
  destruct (Z.eqb_spec v IA) as [->|]; try reflexivity;
  destruct (Z.eqb_spec v IB) as [->|]; try reflexivity;
  destruct (Z.eqb_spec v IC) as [->|]; try reflexivity;
  repeat match goal with |- context [?a =? v] => destruct (Z.eqb_spec a v); [congruence|] end; reflexivity.
Qed.
Lemma acc_vp (W : loc -> Prop) V c c' v : acc (varR aU V c) W (vp (T := T) c' v).
Proof. apply acc_rd. intros H. rewrite la_at_cell in H. discriminate. Qed.
Lemma curl_prog c : varprog aU (fun _ => True) c (curl_assign b3 p c).
Proof.
  assert (HA : forall l, varprog aU (fun _ => True) c (assign (T := T) aU c l)).
  { intros l. apply acc_assign. intros v _. split; [apply la_at_cell|]. split; [exact I|apply at_of_at_cell]. }
  unfold curl_assign. apply acc_if; intros _; repeat (apply acc_bind; [apply acc_vp|intros ?]); apply HA.
Qed.

Lemma loop_condition_spec q (s s' : store) :
  par_exec s (md_for (cellsD b3 g) (loop_condition b3 g p bx q)) s' ->
  (forall c v, In c (cellsD b3 g) -> inner b3 g c = true -> v = IA \/ v = IB \/ v = IC ->
     s' (at_cell aU c v) = curl (fun c v => s (at_cell aVP c v)) c v (s (at_cell aU c v))) /\
  (forall c v, In c (cellsD b3 g) -> s' (at_cell aU c v) = exec (loop_condition b3 g p bx q c) s (at_cell aU c v)) /\
  (forall l, la l <> aU -> s' l = s l).
Proof.
  intros H. apply (varwise_spec aU (fun _ => True)) in H.
  - destruct H as [H1 H2]. split; [|split; [intros; apply H1; auto|intros l Hl; apply H2; tauto]].
    intros c v Hc Hi Hv. rewrite H1 by auto. unfold loop_condition. rewrite Hi. cbn [when].
    rewrite exec_bind. rewrite exec_curl.
    unfold curl. rewrite !exec_assign_other by (rewrite la_at_cell; discriminate).
    destruct Hv as [->|[->| ->]]; reflexivity.
  - apply NoDup_cellsD.
  - intros c _. unfold loop_condition. apply acc_when. apply acc_bind; [|intros _; apply curl_prog].
    apply acc_assign. intros v _. split; [apply la_at_cell|]. split; [exact I|apply at_of_at_cell].
Qed.
Lemma wave_field_spec (s s' : store) :
  par_exec s (md_for (cellsD b3 g) (wave_field b3 g p)) s' ->
  (forall c v, In c (cellsD b3 g) -> guard b3 g (-1) (fun _ => 1) c = true ->
     s' (at_cell aU c v) = curl (fun c v => s (at_cell aVP c v)) c v (s (at_cell aU c v))) /\
  (forall l, la l <> aU -> s' l = s l).
Proof.
  intros H. apply (varwise_spec aU (fun _ => True)) in H.
  - destruct H as [H1 H2]. split; [|intros l Hl; apply H2; tauto].
    intros c v Hc Hi. rewrite H1 by auto. unfold wave_field. rewrite Hi. apply exec_curl.
  - apply NoDup_cellsD.
  - intros c _. unfold wave_field. apply acc_when. apply curl_prog.
Qed.
(** The last loop of the wave problem leaves the magnetic field alone. *)
Lemma wave_condition_spec q (s s' : store) :
  par_exec s (md_for (cellsD b3 g) (wave_condition m b3 g p bx q)) s' ->
  (forall l, lv l = IA \/ lv l = IB \/ lv l = IC -> s' l = s l) /\ (forall l, la l <> aU -> s' l = s l).
Proof.
  intros H. apply (varwise_spec aU (fun v => In v [ID; IU; IV; IW; IP])) in H.
  - destruct H as [H1 H2]. split; intros l Hl; apply H2; [|tauto].
    intros (_ & H & _). destruct Hl as [Hl|[Hl|Hl]]; rewrite Hl in H; cbn in H; unfold ID, IP, IU, IV, IW, IA, IB, IC in H; intuition lia.
  - apply NoDup_cellsD.
  - intros [[i j] k] _. unfold wave_condition. apply acc_when. apply acc_assign. intros v Hv.
    split; [apply la_at_cell|]. split; [rewrite lv_at_cell; exact Hv|apply at_of_at_cell].
Qed.

(** ** Magnetic field left by each problem at an interior cell *)
(** The potential of the field loop and of the wave. *)
Definition loop_A (q : field_loop T) (c : cell) (v : Z) : T :=
  if v =? IZ then
    let r := loop_radius g p bx c in
    if (r <? fl_radius q)%A then (fl_amplitude q * (fl_radius q - r))%A else zero
  else zero.
Definition wave_A (q : wave T) (c : cell) (v : Z) : T :=
  let '(i, j, k) := c in let h := mh p in
  let x := xpos g p bx i in let y := ypos g p bx j in let z := zpos g p bx k in
  let xm := (x - dx h / two)%A in let ym := (y - dy h / two)%A in let zm := (z - dz h / two)%A in
  if v =? IX then (- wave_Ay m q x ym zm * wv_sin3 q - wave_Az m q x ym zm * wv_sin2 q * wv_cos3 q)%A
  else if v =? IY then (wave_Ay m q xm y zm * wv_cos3 q - wave_Az m q xm y zm * wv_sin2 q * wv_sin3 q)%A
  else (wave_Az m q xm ym z * wv_cos2 q)%A.

Lemma inner_in c : 0 <= gw g -> inner b3 g c = true -> (b3 = false -> coord c IZ = 0) -> In c (cellsD b3 g).
Proof.
  intros Hg Hi Hz. apply In_cellsD. split; auto. intros a Ha.
  unfold inner in Hi. rewrite guard_spec in Hi. specialize (Hi a Ha). lia.
Qed.
Lemma inner_next c d : 1 <= gw g -> In d (dirs b3) -> inner b3 g c = true -> (b3 = false -> coord c IZ = 0) ->
  In (along_dir d 1 c) (cellsD b3 g).
Proof.
  intros Hg Hd Hi Hz. apply In_cellsD. split.
  - intros a Ha. unfold inner in Hi. rewrite guard_spec in Hi. specialize (Hi a Ha).
    rewrite (coord_along d 1 c a b3) by auto. destruct (a =? d); lia.
  - intros Eb. subst b3. rewrite coord_along_Z; auto.
Qed.
Lemma curl_ext (A A' : cell -> Z -> T) c v o :
  (forall c' w, (c' = c \/ exists d, In d (dirs b3) /\ c' = along_dir d 1 c) -> In w (if b3 then [IX; IY; IZ] else [IZ]) -> A c' w = A' c' w) ->
  curl A c v o = curl A' c v o.
Proof.
  intros H. unfold curl. destruct b3; cbn [dirs] in H.
  - rewrite !H; try reflexivity; cbn; auto; right; eexists; split; try reflexivity; cbn; auto.
  - rewrite !H; try reflexivity; cbn; auto; right; eexists; split; try reflexivity; cbn; auto.
Qed.

Lemma field_loop_field q (s s' : store) c v :
  1 <= gw g -> run_kernels (init_field_loop b3 g p bx q) s s' ->
  inner b3 g c = true -> (b3 = false -> coord c IZ = 0) -> v = IA \/ v = IB \/ v = IC ->
  s' (at_cell aU c v) = curl (loop_A q) c v zero.
Proof.
  intros Hg Hr Hi Hz Hv. unfold init_field_loop in Hr.
  apply rk_inv in Hr. destruct Hr as (s1 & H1 & Hr). apply rk_inv in Hr. destruct Hr as (s2 & H2 & Hr).
  apply rk_inv in Hr. destruct Hr as (s3 & H3 & Hr). apply rk_nil_inv in Hr. subst s3.
  apply only_energy in H3; [|intros; apply loop_energy_prog]. destruct H3 as [_ H3].
  rewrite H3 by (left; rewrite lv_at_cell; destruct Hv as [->|[->| ->]]; discriminate).
  apply loop_condition_spec in H2. destruct H2 as (H2 & _ & _).
  rewrite H2 by (auto; apply inner_in; auto; lia).
  unfold loop_potential in H1. apply potential_spec in H1. destruct H1 as [H1 _].
  transitivity (curl (loop_A q) c v (s1 (at_cell aU c v))).
  - apply curl_ext. intros c' w Hc' Hw.
    assert (Hin : In c' (cellsD b3 g)).
    { destruct Hc' as [->|(d & Hd & ->)]; [apply inner_in; auto; lia|apply inner_next; auto]. }
    rewrite H1 by auto. unfold loop_A. destruct b3; cbn in Hw.
    + destruct Hw as [<-|[<-|[<-|[]]]]; reflexivity.
    + destruct Hw as [<-|[]]; reflexivity.
  - unfold curl. destruct Hv as [->|[->| ->]]; destruct b3; reflexivity.
Qed.

Lemma wave_field_field q (s s' : store) c v : b3 = true ->
  2 <= gw g -> run_kernels (init_wave m b3 g p bx q) s s' ->
  inner b3 g c = true -> v = IA \/ v = IB \/ v = IC ->
  s' (at_cell aU c v) = curl (wave_A q) c v zero.
Proof.
  intros Eb Hg Hr Hi Hv. unfold init_wave in Hr. rewrite Eb in Hr. rewrite <- Eb in Hr.
  apply rk_inv in Hr. destruct Hr as (s1 & H1 & Hr). apply rk_inv in Hr. destruct Hr as (s2 & H2 & Hr).
  apply rk_inv in Hr. destruct Hr as (s3 & H3 & Hr). apply rk_nil_inv in Hr. subst s3.
  apply wave_condition_spec in H3. destruct H3 as [H3 _].
  rewrite H3 by (rewrite lv_at_cell; tauto).
  assert (Hz : b3 = false -> coord c IZ = 0) by congruence.
  apply wave_field_spec in H2. destruct H2 as (H2 & _).
  rewrite H2; [|apply inner_in; auto; lia|].
  2:{ unfold inner in Hi. rewrite guard_spec in Hi |- *. intros a Ha. specialize (Hi a Ha). lia. }
  assert (H1' : par_exec s (md_for (cellsD b3 g) (fun c => assign aVP c
     [(IX, wave_A q c IX); (IY, wave_A q c IY); (IZ, wave_A q c IZ)])) s1).
  { replace (md_for (cellsD b3 g) (fun c => assign aVP c [(IX, wave_A q c IX); (IY, wave_A q c IY); (IZ, wave_A q c IZ)]))
      with (md_for (cellsD b3 g) (wave_potential m g p bx q)); [exact H1|].
    unfold md_for. apply map_ext. intros [[i j] k]. reflexivity. }
  apply potential_spec in H1'. destruct H1' as [HA _].
  transitivity (curl (wave_A q) c v (s1 (at_cell aU c v))).
  - apply curl_ext. intros c' w Hc' Hw.
    assert (Hin : In c' (cellsD b3 g)).
    { destruct Hc' as [->|(d & Hd & ->)]; [apply inner_in; auto; lia|apply inner_next; auto; lia]. }
    rewrite HA by auto. rewrite Eb in Hw. cbn in Hw. destruct Hw as [<-|[<-|[<-|[]]]]; reflexivity.
  - unfold curl. destruct Hv as [->|[->| ->]]; destruct b3; reflexivity.
Qed.

(** Problems written by a single loop of assignments. *)
Lemma single_field f (s s' : store) c v : run_kernels [assign_all b3 g f] s s' -> In c (cellsD b3 g) ->
  s' (at_cell aU c v) = assigned (f c) v (s (at_cell aU c v)).
Proof.
  intros Hr Hc. apply rk_inv in Hr. destruct Hr as (s1 & H1 & Hr). apply rk_nil_inv in Hr. subst s1.
  apply assign_all_spec in H1. apply H1. auto.
Qed.
Lemma ot_field kt (s s' : store) c v : run_kernels (init_orszag_tang m b3 g p bx kt) s s' -> In c (cellsD b3 g) ->
  v <> IP -> s' (at_cell aU c v) = assigned (ot_state m b3 g p bx kt c) v (s (at_cell aU c v)).
Proof.
  intros Hr Hc Hv. unfold init_orszag_tang in Hr.
  apply rk_inv in Hr. destruct Hr as (s1 & H1 & Hr). apply rk_inv in Hr. destruct Hr as (s2 & H2 & Hr).
  apply rk_nil_inv in Hr. subst s2.
  apply only_energy in H2; [|intros; apply ot_energy_prog]. destruct H2 as [_ H2].
  rewrite H2 by (left; rewrite lv_at_cell; auto). apply assign_all_spec in H1. apply H1. auto.
Qed.
End Init.

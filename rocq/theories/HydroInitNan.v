(** The disk problem in double precision: a cell centre that falls on the axis of the disk. *)
From Coq Require Import ZArith List Bool Lia Floats.SpecFloat.
From Verif Require Import Arith SpecF Par GridModel HydroState HydroKernels MhdState MhdInit MhdInitProofs
  HydroInit HydroInitSpec HydroInitProofs.
Import ListNotations.
Open Scope Z_scope.

Definition is_zero_sf (x : spec_float) : bool := match x with S754_zero _ => true | _ => false end.

Lemma div_by_zero (x : spec_float) : SFdiv 53 1024 x (S754_zero false) = S754_nan \/
  exists b, SFdiv 53 1024 x (S754_zero false) = S754_infinity b.
Proof. destruct x as [b|b| |b mm e]; cbn; eauto. Qed.
Lemma soft_nan (w x y e : spec_float) : is_zero_sf w = true -> is_zero_sf x = true -> is_zero_sf y = true ->
  (mul (Arith := F64) w (div (Arith := F64) e (sqr (Arith := F64) (add (Arith := F64) (mul (Arith := F64) x x) (mul (Arith := F64) y y))))) = S754_nan.
Proof.
  intros Hw Hx Hy. destruct w as [bw| | |]; try discriminate. destruct x as [bx| | |]; try discriminate. destruct y as [by'| | |]; try discriminate.
  assert (Er : sqr (Arith := F64) (add (Arith := F64) (mul (Arith := F64) (S754_zero bx) (S754_zero bx)) (mul (Arith := F64) (S754_zero by') (S754_zero by'))) = S754_zero false)
    by (destruct bx, by'; reflexivity).
  rewrite Er. destruct (div_by_zero e) as [E|[b E]]; cbn [div F64]; rewrite E; reflexivity.
Qed.
Lemma disk_axis (m : hlibm spec_float) b3 (h : hparams spec_float) q so (x y z : spec_float) :
  is_zero_sf (sub (Arith := F64) x (dk_xc q)) = true -> is_zero_sf (sub (Arith := F64) y (dk_yc q)) = true ->
  exists d e mw, fst (hdisk (AT := F64) m b3 h q so x y z) = cons_assign b3 d e S754_nan S754_nan mw.
Proof.
  intros Hx Hy. unfold hdisk. cbv zeta. destruct (source_eval so _ _ _) as [[gx gy] gz]. cbn [fst].
  rewrite !soft_nan by auto. do 3 eexists. f_equal.
Qed.
Lemma disk_nan (m : hlibm spec_float) b3 g (h : hparams spec_float) bx q so s s' i j k :
  run_kernels (init_hydro (AT := F64) m b3 g h bx (HDisk q so)) s s' -> in_array b3 g i j k ->
  is_zero_sf (sub (Arith := F64) (hx (AT := F64) g h bx i) (dk_xc q)) = true ->
  is_zero_sf (sub (Arith := F64) (hy (AT := F64) g h bx j) (dk_yc q)) = true ->
  s' (Loc aU i j k IU) = S754_nan /\ s' (Loc aU i j k IV) = S754_nan.
Proof.
  intros Hrun Hin Hx Hy.
  pose proof (init_cells (AT := F64) m b3 g h bx _ s s' Hrun (i, j, k)) as Hc.
  destruct (Hc IU (In_array _ _ _ _ _ Hin)) as [E1 _]. destruct (Hc IV (In_array _ _ _ _ _ Hin)) as [E2 _].
  cbn [hcell] in E1, E2.
  destruct (disk_axis m b3 h q so (hx (AT := F64) g h bx i) (hy (AT := F64) g h bx j) (hz (AT := F64) g h bx k) Hx Hy) as (d & e & mw & El).
  rewrite El in E1, E2. split; [etransitivity; [exact E1|]|etransitivity; [exact E2|]]; destruct b3; reflexivity.
Qed.

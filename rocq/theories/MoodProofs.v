(** What each loop of the MOOD solver computes, for every schedule. *)
From Coq Require Import ZArith List Bool Lia.
From Verif Require Import Arith Par ParProofs GridModel BoundaryModel BoundarySpec BoundaryProofs
  HydroState RiemannModel HydroPoint HydroKernels CellKernels HydroField HydroExec HydroSpec HydroProofs2
  HydroStep2 MoodPoly MoodKernels.
Import ListNotations.
Open Scope Z_scope.
Open Scope prog_scope.

Lemma at_of_at_cell a c v : at_of (at_cell a c v) = c.
Proof. destruct c as [[i j] k]. reflexivity. Qed.
Lemma la_at_cell a c v : la (at_cell a c v) = a.
Proof. destruct c as [[i j] k]. reflexivity. Qed.
Lemma lv_at_cell a c v : lv (at_cell a c v) = v.
Proof. destruct c as [[i j] k]. reflexivity. Qed.
Lemma at_cell_eta l : l = at_cell (la l) (at_of l) (lv l).
Proof. destruct l; reflexivity. Qed.
Lemma at_cell_inj a c v a' c' v' : at_cell a c v = at_cell a' c' v' -> a = a' /\ c = c' /\ v = v'.
Proof.
  intros H. pose proof (f_equal la H) as H1. pose proof (f_equal at_of H) as H2. pose proof (f_equal lv H) as H3.
  rewrite !la_at_cell in H1. rewrite !at_of_at_cell in H2. rewrite !lv_at_cell in H3. auto.
Qed.

Lemma upd_cell {T} (s : store T) a c v x l :
  upd s (at_cell a c v) x l = if loc_eqb (at_cell a c v) l then x else s l.
Proof. reflexivity. Qed.
Lemma upd_cell_same {T} (s : store T) a c v v' x :
  upd s (at_cell a c v) x (at_cell a c v') = if v =? v' then x else s (at_cell a c v').
Proof. destruct c as [[i j] k]. apply upd_eq. Qed.
Lemma upd_cell_other {T} (s : store T) a c v x l :
  la l <> a \/ at_of l <> c -> upd s (at_cell a c v) x l = s l.
Proof. intros H. apply upd_other. intros E. subst l. rewrite la_at_cell, at_of_at_cell in H. tauto. Qed.

Lemma nth_zrange a b n d : (n < Z.to_nat (b - a))%nat -> nth n (zrange a b) d = a + Z.of_nat n.
Proof.
  revert a. induction n as [|n IH]; intros a Hn; rewrite zrange_cons by lia; cbn [nth]; [lia|].
  rewrite IH by lia. lia.
Qed.
Lemma exec_assoc {T X Y B} (q : prog T X) (f : X -> prog T Y) (h : Y -> prog T B) s :
  exec (bind (bind q f) h) s = exec (bind q (fun x => bind (f x) h)) s.
Proof. unfold exec. rewrite !run_bind. reflexivity. Qed.

Section MP.
Context {T : Type} {A : Arith T}.
Notation store := (store T).

(** ** Views of the store *)
Definition fv (s : store) (a : Z) : cell -> Z -> T := fun c v => s (at_cell a c v).
Definition stF (b3 : bool) (V : cell -> Z -> T) (c : cell) : hs T :=
  HS (V c ID) (V c IP) (V c IU) (V c IV) (if b3 then V c IW else zero).
Definition wn (b3 : bool) (q : hs T) : hs T := if b3 then q else w0 q.

Lemma exec_ldv {B} b a c (f : hs T -> prog T B) s :
  exec (bind (ldv b a c) f) s = exec (f (stF b (fv s a) c)) s.
Proof. destruct b; reflexivity. Qed.
Lemma exec_load_all {X Y B} (f : X -> prog T Y) (val : X -> Y) xs (h : list Y -> prog T B) (s : store) :
  (forall x (k : Y -> prog T B), In x xs -> exec (bind (f x) k) s = exec (k (val x)) s) ->
  exec (bind (load_all f xs) h) s = exec (h (map val xs)) s.
Proof.
  revert h. induction xs as [|x xs IH]; intros h H; [reflexivity|].
  cbn [load_all]. rewrite exec_assoc. rewrite H by (left; reflexivity).
  rewrite exec_assoc. rewrite IH by (intros; apply H; right; auto). reflexivity.
Qed.
Lemma acc_load_all {X Y} (R W : loc -> Prop) (f : X -> prog T Y) xs :
  (forall x, In x xs -> acc R W (f x)) -> acc R W (load_all f xs).
Proof.
  induction xs as [|x xs IH]; intros H; cbn [load_all]; [apply acc_ret|].
  apply acc_bind; [apply H; left; auto|]. intros y. apply acc_bind; [apply IH; intros; apply H; right; auto|].
  intros; apply acc_ret.
Qed.
Definition nv (b3 : bool) : Z := if b3 then 5 else 4.
Lemma acc_ldv (R W : loc -> Prop) b a c :
  (forall v, 0 <= v < nv b -> R (at_cell a c v)) -> acc R W (ldv (T:=T) b a c).
Proof.
  intros H. unfold ldv.
  do 4 (apply acc_bind; [apply acc_rd; apply H; destruct b; unfold nv, ID, IP, IU, IV; lia|intros ?]).
  destruct b; [|apply acc_ret]. apply acc_bind; [apply acc_rd; apply H; unfold nv, IW; lia|intros ?]. apply acc_ret.
Qed.
Lemma acc_putv (R W : loc -> Prop) b a c q :
  (forall v, 0 <= v < nv b -> W (at_cell a c v)) -> acc R W (putv (T:=T) b a c q).
Proof.
  intros H. unfold putv.
  do 4 (apply acc_bind; [apply acc_wr; apply H; destruct b; unfold nv, ID, IP, IU, IV; lia|intros ?]).
  destruct b; [|apply acc_skip]. apply acc_wr. apply H; unfold nv, IW; lia.
Qed.
Lemma putv_other b a c q (s : store) l : la l <> a \/ at_of l <> c -> exec (putv b a c q) s l = s l.
Proof.
  intros H. unfold putv. rewrite !exec_wr. destruct b.
  - unfold exec; cbn [run snd wr]. rewrite !upd_cell_other by auto. reflexivity.
  - unfold exec; cbn [run snd skip]. rewrite !upd_cell_other by auto. reflexivity.
Qed.
Lemma putv_same b a c q (s : store) : stF b (fv (exec (putv b a c q) s) a) c = wn b q.
Proof.
  unfold putv, stF, fv. rewrite !exec_wr. destruct b; unfold exec; cbn [run snd skip wr wn];
  rewrite !upd_cell_same; destruct q; reflexivity.
Qed.
Lemma stF_frame b (s s' : store) a c :
  (forall v, s' (at_cell a c v) = s (at_cell a c v)) -> stF b (fv s' a) c = stF b (fv s a) c.
Proof. intros H. unfold stF, fv. rewrite !H. reflexivity. Qed.
Lemma stF_ext b (V V' : cell -> Z -> T) c : (forall v, 0 <= v < nv b -> V c v = V' c v) -> stF b V c = stF b V' c.
Proof.
  intros H. unfold stF. rewrite !H by (destruct b; unfold nv, ID, IP, IU, IV; lia).
  destruct b; [rewrite H by (unfold nv, IW; lia)|]; reflexivity.
Qed.

(** ** Cells *)
Lemma NoDup_cellsD b g : NoDup (cellsD b g).
Proof. destruct b; [apply NoDup_cells3|apply NoDup_cells2]. Qed.
Definition in_grid (b3 : bool) (g : grid) (c : cell) : Prop :=
  (forall a, In a (dirs b3) -> 0 <= coord c a < sizeA g a) /\ (b3 = false -> coord c IZ = 0).
Lemma In_cellsD b g c : In c (cellsD b g) <-> in_grid b g c.
Proof.
  destruct c as [[i j] k]. unfold in_grid. destruct b; cbn [cellsD dirs].
  - rewrite In_cells3. cbn. split.
    + intros (H1 & H2 & H3). split; [|discriminate]. intros a [<-|[<-|[<-|[]]]]; cbn; auto.
    + intros [H _]. repeat split; try apply (H IX); try apply (H IY); try apply (H IZ); cbn; auto.
  - rewrite In_cells2. cbn. split.
    + intros (H1 & H2 & H3). split; [|auto]. intros a [<-|[<-|[]]]; cbn; auto.
    + intros [H H3]. repeat split; try apply (H IX); try apply (H IY); auto; cbn; auto.
Qed.
Lemma guard_spec b g lo hi c : guard b g lo hi c = true <->
  forall a, In a (dirs b) -> gw g + lo <= coord c a < sizeA g a - gw g + hi a.
Proof.
  unfold guard. rewrite forallb_forall. split; intros H a Ha; specialize (H a Ha).
  - apply andb_true_iff in H. rewrite Z.leb_le, Z.ltb_lt in H. exact H.
  - apply andb_true_iff. rewrite Z.leb_le, Z.ltb_lt. exact H.
Qed.
Lemma shift_0 c : shift c (0, 0, 0) = c.
Proof. destruct c as [[i j] k]. cbn. rewrite !Z.add_0_r. reflexivity. Qed.
Lemma shift_shift c x y z x' y' z' : shift (shift c (x, y, z)) (x', y', z') = shift c (x + x', y + y', z + z').
Proof. destruct c as [[i j] k]. cbn. rewrite !Z.add_assoc. reflexivity. Qed.
Lemma dirs_cases b d : In d (dirs b) -> d = IX \/ d = IY \/ (d = IZ /\ b = true).
Proof. destruct b; cbn; intuition. Qed.
Lemma coord_along dir n c a b : In dir (dirs b) -> In a (dirs b) ->
  coord (along_dir dir n c) a = coord c a + (if a =? dir then n else 0).
Proof.
  intros Hd Ha. destruct c as [[i j] k]. apply dirs_cases in Hd. apply dirs_cases in Ha.
  destruct Hd as [->|[->|[-> _]]]; destruct Ha as [->|[->|[-> _]]]; cbn; lia.
Qed.
Lemma coord_along_Z dir n c : In dir (dirs false) -> coord (along_dir dir n c) IZ = coord c IZ.
Proof. intros Hd. destruct c as [[i j] k]. apply dirs_cases in Hd. destruct Hd as [->|[->|[-> H]]]; cbn; lia. Qed.

Lemma dirs_NoDup b : NoDup (dirs b).
Proof. destruct b; cbn; repeat constructor; cbn; unfold IX, IY, IZ; intuition lia. Qed.
Lemma aFlux_inj b d d' : In d (dirs b) -> In d' (dirs b) -> aFlux d = aFlux d' -> d = d'.
Proof.
  intros H H'. apply dirs_cases in H. apply dirs_cases in H'.
  destruct H as [->|[->|[-> _]]]; destruct H' as [->|[->|[-> _]]]; cbn; unfold aFx, aFy, aFz; intuition; try lia.
Qed.

Variable m : mcfg T.
Notation b3 := (d3 m).
Notation NC := (ncoefs m).

(** ** Polynomials *)
(** What the coefficient arrays hold at a cell. *)
Definition stored (s : store) (c : cell) (v : Z) : list T :=
  map (fun icoef => s (at_cell (aPoly icoef) c v)) (zrange 0 (Z.of_nat NC)).
Definition polyS (s : store) (c : cell) : hs (list T) :=
  HS (stored s c ID) (stored s c IP) (stored s c IU) (stored s c IV) (if b3 then stored s c IW else []).

Lemma exec_load_poly {B} c (f : hs (list T) -> prog T B) (s : store) :
  exec (bind (load_poly m c) f) s = exec (f (polyS s c)) s.
Proof.
  unfold load_poly, polyS.
  assert (E : forall v B' (h : list T -> prog T B'), exec (bind (load_coefs m c v) h) s = exec (h (stored s c v)) s).
  { intros v B' h. unfold load_coefs, stored.
    apply (exec_load_all _ (fun icoef => s (at_cell (aPoly icoef) c v))). intros. apply exec_rd. }
  do 4 (rewrite exec_assoc, E). destruct b3.
  - rewrite exec_assoc, E. reflexivity.
  - reflexivity.
Qed.
Definition polyA (a : Z) : Prop := aPoly 0 <= a < aPoly (Z.of_nat NC).
Lemma acc_load_poly (R W : loc -> Prop) c :
  (forall icoef v, 0 <= icoef < Z.of_nat NC -> 0 <= v < nv b3 -> R (at_cell (aPoly icoef) c v)) ->
  acc R W (load_poly m c).
Proof.
  intros H. unfold load_poly.
  assert (E : forall v, 0 <= v < nv b3 -> acc R W (load_coefs m c v)).
  { intros v Hv. apply acc_load_all. intros ic Hic. apply In_zrange in Hic. apply acc_rd. auto. }
  do 4 (apply acc_bind; [apply E; destruct b3; unfold nv, ID, IP, IU, IV; lia|intros ?]).
  destruct b3; [|apply acc_ret]. apply acc_bind; [apply E; unfold nv, IW; lia|intros ?]. apply acc_ret.
Qed.

Lemma assoc_map (V : Z * Z * Z -> T) l o : In o l -> assoc o l (map V l) = V o.
Proof.
  induction l as [|o' l IH]; [intros []|]. intros Hin. cbn [map assoc].
  destruct o as [[x y] z], o' as [[x' y'] z'].
  destruct (Z.eqb_spec x x') as [->|]; cbn [andb]; [|apply IH; destruct Hin; [congruence|auto]].
  destruct (Z.eqb_spec y y') as [->|]; cbn [andb]; [|apply IH; destruct Hin; [congruence|auto]].
  destruct (Z.eqb_spec z z') as [->|]; [reflexivity|apply IH; destruct Hin; [congruence|auto]].
Qed.
Lemma poly_coefs_ext (M : nat -> nat -> T) nc ns l (u u' : Z * Z * Z -> T) j :
  u (0, 0, 0) = u' (0, 0, 0) -> (forall o, In o l -> u o = u' o) ->
  poly_coefs M nc ns l u j = poly_coefs M nc ns l u' j.
Proof.
  intros H0 H. unfold poly_coefs. rewrite H0. f_equal. apply map_ext. intros ic.
  assert (E : forall ik, rhs l u j ik = rhs l u' j ik).
  { intros ik. unfold rhs.
    replace (map (fun o => sub (u o) (u (0, 0, 0))) (neighbours l)) with (map (fun o => sub (u' o) (u' (0, 0, 0))) (neighbours l)).
    - reflexivity.
    - apply map_ext_in. intros o Ho. apply filter_In in Ho. rewrite H0, H by tauto. reflexivity. }
  revert ns. assert (G : forall l' acc0, fold_left (fun tmp ik => add tmp (mul (M ic ik) (rhs l u j ik))) l' acc0 =
     fold_left (fun tmp ik => add tmp (mul (M ic ik) (rhs l u' j ik))) l' acc0).
  { induction l' as [|x l' IH]; intros a0; cbn; [reflexivity|]. rewrite E. apply IH. }
  intros ns. apply G.
Qed.
Lemma put_poly_exec c v coefs (s : store) ic : length coefs = NC -> 0 <= ic < Z.of_nat NC ->
  exec (put_poly m c v coefs) s (at_cell (aPoly ic) c v) = nth (Z.to_nat ic) coefs zero.
Proof.
  intros Hl Hic. unfold put_poly.
  assert (G : forall (l : list T) (n lo : Z) (s0 : store), length l = Z.to_nat n -> 0 <= n -> lo <= ic < lo + n ->
     exec (for_each (combine (zrange lo (lo + n)) l) (fun '(icoef, x) => wr (at_cell (aPoly icoef) c v) x)) s0
       (at_cell (aPoly ic) c v) = nth (Z.to_nat (ic - lo)) l zero).
  { clear. induction l as [|x l IH]; intros n lo s0 Hl Hn Hic; [cbn in Hl; lia|].
    rewrite (zrange_cons lo (lo + n)) by lia. cbn [combine for_each]. rewrite exec_wr.
    destruct (Z.eq_dec ic lo) as [->|Hne].
    - rewrite Z.sub_diag. cbn [Z.to_nat nth].
      assert (F : forall (l' : list T) lo' hi (s1 : store), lo < lo' ->
        exec (for_each (combine (zrange lo' hi) l') (fun '(icoef, x) => wr (at_cell (aPoly icoef) c v) x)) s1 (at_cell (aPoly lo) c v)
        = s1 (at_cell (aPoly lo) c v)).
      { clear. intros l' lo' hi s1 Hlt.
        assert (forall (q : list T) (l'' : list Z), (forall z, In z l'' -> lo < z) -> forall s1 : store,
          exec (for_each (combine l'' q) (fun '(icoef, x) => wr (at_cell (aPoly icoef) c v) x)) s1 (at_cell (aPoly lo) c v)
          = s1 (at_cell (aPoly lo) c v)) as G.
        { induction q as [|y q IH]; intros [|z l''] Hz s2; try reflexivity.
          cbn [combine for_each]. rewrite exec_wr, IH by (intros; apply Hz; right; auto).
          apply upd_cell_other. left. rewrite la_at_cell. specialize (Hz z (or_introl eq_refl)). unfold aPoly. lia. }
        apply G. intros z Hz. apply In_zrange in Hz. lia. }
      rewrite F by lia. rewrite upd_cell_same, Z.eqb_refl. reflexivity.
    - replace (lo + n) with ((lo + 1) + (n - 1)) by lia. rewrite IH; try (cbn in Hl; lia).
      replace (Z.to_nat (ic - lo)) with (S (Z.to_nat (ic - (lo + 1)))) by lia. reflexivity. }
  replace (zrange 0 (Z.of_nat NC)) with (zrange 0 (0 + Z.of_nat NC)) by (f_equal; lia).
  rewrite G by lia. rewrite Z.sub_0_r. reflexivity.
Qed.
Lemma put_poly_other c v coefs (s : store) l : lv l <> v \/ at_of l <> c \/ ~ polyA (la l) ->
  exec (put_poly m c v coefs) s l = s l.
Proof.
  intros H. unfold put_poly.
  assert (G : forall (q : list T) (l' : list Z), (forall z, In z l' -> 0 <= z < Z.of_nat NC) -> forall s1 : store,
     exec (for_each (combine l' q) (fun '(icoef, x) => wr (at_cell (aPoly icoef) c v) x)) s1 l = s1 l).
  { induction q as [|y q IH]; intros [|z l'] Hz s2; try reflexivity.
    cbn [combine for_each]. rewrite exec_wr, IH by (intros; apply Hz; right; auto).
    apply upd_other. intros E. subst l. rewrite lv_at_cell, at_of_at_cell, la_at_cell in H.
    specialize (Hz z (or_introl eq_refl)). unfold polyA, aPoly in H. destruct H as [H|[H|H]]; try tauto. apply H. lia. }
  apply G. intros z Hz. apply In_zrange in Hz. lia.
Qed.

Lemma stored_spec (s : store) c v l : length l = NC ->
  (forall ic, 0 <= ic < Z.of_nat NC -> s (at_cell (aPoly ic) c v) = nth (Z.to_nat ic) l zero) -> stored s c v = l.
Proof.
  intros Hl H. unfold stored.
  apply (nth_ext _ _ zero zero).
  - rewrite map_length, zrange_length. lia.
  - intros n Hn. rewrite map_length, zrange_length in Hn.
    set (f := fun icoef => s (at_cell (aPoly icoef) c v)).
    rewrite (nth_indep _ zero (f 0)) by (rewrite map_length, zrange_length; lia).
    rewrite (map_nth f). rewrite nth_zrange by lia. unfold f. rewrite H by lia.
    apply (f_equal (fun k => nth k l zero)). lia.
Qed.

Variable g : grid.
Variable junkR : cell -> Z -> nat -> T.
Definition coefsF (V : cell -> Z -> T) (c : cell) (v : Z) : list T :=
  poly_coefs (mat_pi m) (pred NC) (mat_cols m) (os m) (fun o => V (shift c o) v) (junkR c v).
Definition polyF (V : cell -> Z -> T) (c : cell) : hs (list T) :=
  HS (coefsF V c ID) (coefsF V c IP) (coefsF V c IU) (coefsF V c IV) (if b3 then coefsF V c IW else []).
Lemma coefsF_length V c v : (0 < NC)%nat -> length (coefsF V c v) = NC.
Proof. intros H. unfold coefsF, poly_coefs. cbn [length]. rewrite map_length, seq_length. lia. Qed.

(** ** Reconstruction *)
Definition polyArrays : list Z := map aPoly (zrange 0 (Z.of_nat NC)).
Lemma In_polyArrays a : In a polyArrays <-> polyA a.
Proof.
  unfold polyArrays, polyA, aPoly. rewrite in_map_iff. split.
  - intros (x & <- & H). apply In_zrange in H. lia.
  - intros H. exists (a - 100). split; [lia|]. apply In_zrange. lia.
Qed.
Lemma reconstruct_acc (R W : loc -> Prop) aIn c :
  (forall o v, recon_guard m g c = true -> o = (0, 0, 0) \/ In o (os m) -> 0 <= v < nv b3 -> R (at_cell aIn (shift c o) v)) ->
  (forall icoef v, recon_guard m g c = true -> 0 <= icoef < Z.of_nat NC -> 0 <= v < nv b3 -> W (at_cell (aPoly icoef) c v)) ->
  acc R W (reconstruct_body m g junkR aIn c).
Proof.
  intros HR HW. unfold reconstruct_body. apply acc_if; intros Hg; [|apply acc_skip].
  apply acc_for. intros v Hv. apply In_zrange in Hv. cbv zeta.
  apply acc_bind.
  - apply acc_load_all. intros o Ho. apply acc_rd. apply HR; auto. cbn in Ho. intuition.
  - intros vs. unfold put_poly. apply acc_for. intros [ic x] Hic. apply acc_wr.
    apply in_combine_l in Hic. apply In_zrange in Hic. auto.
Qed.

Lemma reconstruct_exec aIn c (s : store) v ic :
  (0 < NC)%nat -> ~ polyA aIn -> recon_guard m g c = true -> 0 <= v < nv b3 -> 0 <= ic < Z.of_nat NC ->
  exec (reconstruct_body m g junkR aIn c) s (at_cell (aPoly ic) c v) = nth (Z.to_nat ic) (coefsF (fv s aIn) c v) zero.
Proof.
  intros HNC HaIn Hg Hv Hic. unfold reconstruct_body. rewrite Hg. unfold nvar.
  replace (if b3 then 5 else 4) with (nv b3) by reflexivity.
  assert (G : forall vs (s0 : store), NoDup vs -> In v vs ->
     (forall l, la l = aIn -> s0 l = s l) ->
     exec (for_each vs (fun v0 =>
       let l := (0, 0, 0) :: os m in
       vs <- load_all (fun o => rd (at_cell aIn (shift c o) v0)) l ;;
       put_poly m c v0 (poly_coefs (mat_pi m) (pred NC) (mat_cols m) (os m) (fun o => assoc o l vs) (junkR c v0)))) s0
       (at_cell (aPoly ic) c v) = nth (Z.to_nat ic) (coefsF (fv s aIn) c v) zero).
  { induction vs as [|w vs IH]; intros s0 Hnd Hin Hs0; [destruct Hin|].
    inversion Hnd as [|w' vs' Hw Hvs]; subst. cbn [for_each]. rewrite exec_bind. cbv zeta.
    rewrite (exec_load_all _ (fun o => s0 (at_cell aIn (shift c o) w))) by (intros; apply exec_rd).
    rewrite (poly_coefs_ext _ _ _ _ _ (fun o => fv s aIn (shift c o) w)).
    2:{ rewrite assoc_map by (left; reflexivity). unfold fv. apply Hs0. apply la_at_cell. }
    2:{ intros o Ho. rewrite assoc_map by (right; exact Ho). unfold fv. apply Hs0. apply la_at_cell. }
    change (poly_coefs (mat_pi m) (Init.Nat.pred NC) (mat_cols m) (os m) (fun o => fv s aIn (shift c o) w) (junkR c w))
      with (coefsF (fv s aIn) c w).
    destruct (Z.eq_dec w v) as [->|Hne].
    - (* later variables do not touch it *)
      assert (F : forall vs0 (s1 : store), ~ In v vs0 -> 
        exec (for_each vs0 (fun v0 =>
          let l := (0, 0, 0) :: os m in
          vs <- load_all (fun o => rd (at_cell aIn (shift c o) v0)) l ;;
          put_poly m c v0 (poly_coefs (mat_pi m) (pred NC) (mat_cols m) (os m) (fun o => assoc o l vs) (junkR c v0)))) s1
          (at_cell (aPoly ic) c v) = s1 (at_cell (aPoly ic) c v)).
      { clear IH Hin Hnd Hvs Hw Hs0 s0. induction vs0 as [|x vs0 IH]; intros s1 Hni; [reflexivity|]. cbn [for_each]. rewrite exec_bind. cbv zeta.
        rewrite (exec_load_all _ (fun o => s1 (at_cell aIn (shift c o) x))) by (intros; apply exec_rd).
        rewrite IH by (intros H; apply Hni; right; auto).
        apply put_poly_other. left. rewrite lv_at_cell. intros E. apply Hni. left. auto. }
      rewrite F by auto. apply put_poly_exec; auto. apply coefsF_length; auto.
    - apply IH; auto.
      + destruct Hin; [contradiction|auto].
      + intros l Hl. rewrite put_poly_other; [auto|]. right. right. rewrite Hl. exact HaIn. }
  apply G; auto using NoDup_zrange. apply In_zrange; auto.
Qed.

(** Values of polynomials available after the reconstruction loop. *)
Definition polyAfter (s : store) (aIn : Z) (c : cell) : hs (list T) :=
  if recon_guard m g c then polyF (fv s aIn) c else polyS s c.

Lemma reconstruct_spec aIn (s s' : store) : (0 < NC)%nat -> ~ polyA aIn ->
  par_exec s (reconstruct m g junkR aIn) s' ->
  (forall c, In c (cellsD b3 g) -> polyS s' c = polyAfter s aIn c) /\
  (forall l, ~ polyA (la l) -> s' l = s l) /\
  (forall l, ~ In (at_of l) (cellsD b3 g) -> s' l = s l).
Proof.
  intros HNC HaIn Hex. unfold reconstruct in Hex.
  assert (Hok : forall c, In c (cellsD b3 g) -> cellprog polyArrays c (reconstruct_body m g junkR aIn c)).
  { intros c Hc. apply reconstruct_acc.
    - intros o v _ _ _. unfold cellR. rewrite la_at_cell, In_polyArrays. tauto.
    - intros ic v _ Hic _. unfold cellW. rewrite la_at_cell, at_of_at_cell, In_polyArrays. unfold polyA, aPoly. split; [lia|auto]. }
  destruct (cellwise_spec _ _ _ s s' (NoDup_cellsD b3 g) Hok Hex) as [H1 H2].
  split; [|split].
  - intros c Hc. unfold polyAfter, polyS.
    assert (Hrd : forall ic v, 0 <= ic < Z.of_nat NC ->
       s' (at_cell (aPoly ic) c v) = exec (reconstruct_body m g junkR aIn c) s (at_cell (aPoly ic) c v)).
    { intros ic v Hic. rewrite H1; rewrite ?at_of_at_cell; auto. rewrite la_at_cell, In_polyArrays. unfold polyA, aPoly. lia. }
    destruct (recon_guard m g c) eqn:Hg.
    + assert (E : forall v, 0 <= v < nv b3 -> stored s' c v = coefsF (fv s aIn) c v).
      { intros v Hv. apply stored_spec; [apply coefsF_length; auto|]. intros ic Hic. rewrite Hrd by auto.
        apply reconstruct_exec; auto. }
      unfold polyF. rewrite !E by (destruct b3; unfold nv, ID, IP, IU, IV; lia).
      destruct b3; [rewrite E by (unfold nv, IW; lia)|]; reflexivity.
    + assert (E : forall v, stored s' c v = stored s c v).
      { intros v. apply map_ext_in. intros ic Hic. apply In_zrange in Hic. rewrite Hrd by auto.
        unfold reconstruct_body. rewrite Hg. reflexivity. }
      rewrite !E. reflexivity.
  - intros l Hl. apply H2. rewrite In_polyArrays. tauto.
  - intros l Hl. apply H2. tauto.
Qed.
End MP.

(** C91: the solver's name in the parameter file. *)
From Coq Require Import ZArith Bool String List Lia.
From Verif Require Import MoodPoly FactoryModel.
Import ListNotations.
Open Scope Z_scope.

(** ** Specification *)
Definition dimension (s : solver) : Z :=
  match s with SolverHydroMuscl d | SolverMHDMuscl d | SolverHydroSDM d _ | SolverHydroMood d _ => d end.
Definition magnetic (s : solver) : bool := match s with SolverMHDMuscl _ => true | _ => false end.
(** Density, energy and one momentum per dimension; with a magnetic field there
    are always three momenta and three field components. *)
Definition variables (s : solver) : Z := if magnetic s then 2 + 3 + 3 else 2 + dimension s.
(** The ghost layers [g] suffice for the scheme: two for MUSCL hydro (slopes in the
    neighbour), three for MHD, one for SDM, and for MOOD the reach of the stencil of
    this dimension and degree, centred in a cell next to the domain. *)
Definition layers_suffice (s : solver) (g : Z) : Prop :=
  match s with
  | SolverHydroMuscl _ => 2 <= g
  | SolverMHDMuscl _ => 3 <= g
  | SolverHydroSDM _ _ => 1 <= g
  | SolverHydroMood d n => forall x y z, In (x, y, z) (offsets (select_stencil (Z.to_nat d) n)) ->
      1 + Z.abs x <= g /\ 1 + Z.abs y <= g /\ 1 + Z.abs z <= g
  end.
(** No larger than needed: some offset touches the outermost layer. *)
Definition layers_needed (s : solver) (g : Z) : Prop :=
  match s with
  | SolverHydroMuscl _ => g = 2
  | SolverMHDMuscl _ => g = 3
  | SolverHydroSDM _ _ => g = 1
  | SolverHydroMood d n => exists x y z, In (x, y, z) (offsets (select_stencil (Z.to_nat d) n)) /\
      (1 + Z.abs x = g \/ 1 + Z.abs y = g \/ 1 + Z.abs z = g)
  end.
(** The solvers a build offers. *)
Definition offered (sdm mood : bool) (s : solver) : Prop :=
  match s with
  | SolverHydroMuscl d | SolverMHDMuscl d => d = 2 \/ d = 3
  | SolverHydroSDM d n => sdm = true /\ ((d = 2 /\ 1 <= n <= 6) \/ (d = 3 /\ 2 <= n <= 4))
  | SolverHydroMood d n => mood = true /\ ((d = 2 /\ 1 <= n <= 4) \/ (d = 3 /\ n = 1))
  end.
Definition digit (z : Z) : string := String.substring (Z.to_nat z) 1 "0123456789".
(** The name that stands for a solver in the parameter file. *)
Definition spelled (s : solver) : string :=
  match s with
  | SolverHydroMuscl d => "Hydro_Muscl_" ++ digit d ++ "D"
  | SolverMHDMuscl d => "MHD_Muscl_" ++ digit d ++ "D"
  | SolverHydroSDM d n => "Hydro_SDM_" ++ digit d ++ "D_degree" ++ digit n
  | SolverHydroMood d n => "Hydro_Mood_" ++ digit d ++ "D_degree" ++ digit n
  end%string.

(** ** Proofs *)
Lemma assoc_in {B} name (l : list (string * B)) b : assoc name l = Some b -> In (name, b) l.
Proof.
  induction l as [|[k c] l IH]; [discriminate|]. cbn [assoc]. destruct (String.eqb name k) eqn:E.
  - intros H. injection H as ->. apply String.eqb_eq in E. subst. now left.
  - intros H. right. now apply IH.
Qed.
Lemma create_cases sdm mood name s : create sdm mood name = Some s ->
  In (name, s) (SolverFactory sdm mood).
Proof. apply assoc_in. Qed.
Ltac entries H := cbn in H;
  repeat match type of H with
  | _ \/ _ => destruct H as [H|H]; [injection H as <- <-|]
  | False => contradiction
  end.

(** Exactly the offered solvers can be created, each under its own name. *)
Theorem C91_names : forall sdm mood name s,
  create sdm mood name = Some s <-> offered sdm mood s /\ name = spelled s.
Proof.
  intros sdm mood name s. split.
  - intros H. apply create_cases in H.
    destruct sdm, mood; entries H; (split; [cbn; try split; try reflexivity; lia|reflexivity]).
  - intros [O ->]. destruct s as [d|d|d n|d n]; cbn in O.
    + destruct O as [-> | ->]; destruct sdm, mood; reflexivity.
    + destruct O as [-> | ->]; destruct sdm, mood; reflexivity.
    + destruct O as [-> [[-> O]|[-> O]]].
      * assert (n = 1 \/ n = 2 \/ n = 3 \/ n = 4 \/ n = 5 \/ n = 6) as [-> |[-> |[-> |[-> |[-> | ->]]]]] by lia;
          destruct mood; reflexivity.
      * assert (n = 2 \/ n = 3 \/ n = 4) as [-> |[-> | ->]] by lia; destruct mood; reflexivity.
    + destruct O as [-> [[-> O]|[-> O]]].
      * assert (n = 1 \/ n = 2 \/ n = 3 \/ n = 4) as [-> |[-> |[-> | ->]]] by lia; destruct sdm; reflexivity.
      * subst n. destruct sdm; reflexivity.
Qed.
Print Assumptions C91_names.

Lemma fits_dec s g : forallb (fun o => let '(x, y, z) := o in
    (1 + Z.abs x <=? g) && (1 + Z.abs y <=? g) && (1 + Z.abs z <=? g)) (offsets s) = true ->
  forall x y z, In (x, y, z) (offsets s) -> 1 + Z.abs x <= g /\ 1 + Z.abs y <= g /\ 1 + Z.abs z <= g.
Proof.
  intros B x y z H. rewrite forallb_forall in B. specialize (B _ H). cbn beta iota in B.
  apply andb_prop in B. destruct B as [B B3]. apply andb_prop in B. destruct B as [B1 B2].
  apply Z.leb_le in B1, B2, B3. auto.
Qed.
Lemma touch_dec s g : existsb (fun o => let '(x, y, z) := o in
    (1 + Z.abs x =? g) || (1 + Z.abs y =? g) || (1 + Z.abs z =? g)) (offsets s) = true ->
  exists x y z, In (x, y, z) (offsets s) /\ (1 + Z.abs x = g \/ 1 + Z.abs y = g \/ 1 + Z.abs z = g).
Proof.
  intros B. apply existsb_exists in B. destruct B as ([[x y] z] & I & B).
  exists x, y, z. split; [exact I|]. apply orb_prop in B. destruct B as [B|B]; [apply orb_prop in B; destruct B as [B|B]|];
    apply Z.eqb_eq in B; auto.
Qed.

(** Whatever the parameter file says, a run that starts has parameters that agree
    with its solver. *)
Theorem C91_consistent : forall sdm mood entry s q, start sdm mood entry = Some (s, q) ->
  (exists name, entry = Some name /\ name = spelled s) /\ offered sdm mood s /\
  dimType q = dimension s /\ nbvar q = variables s /\ mhdEnabled q = magnetic s /\
  layers_suffice s (ghostWidth q) /\ layers_needed s (ghostWidth q).
Proof.
  intros sdm mood entry s q H. unfold start in H.
  destruct entry as [name|]; cbn [getString] in H; [|destruct sdm, mood; discriminate H].
  destruct (create sdm mood name) as [s'|] eqn:C; [|discriminate H]. injection H as -> <-.
  pose proof (proj1 (C91_names _ _ _ _) C) as [O E].
  split; [now exists name|]. split; [exact O|]. clear E.
  apply create_cases in C. clear O.
  destruct sdm, mood; entries C;
    (split; [reflexivity|split; [reflexivity|split; [reflexivity|]]]);
    (split; [cbn [layers_suffice]; first [apply fits_dec; vm_compute; reflexivity | vm_compute; discriminate]
            |cbn [layers_needed]; first [apply touch_dec; vm_compute; reflexivity | reflexivity]]).
Qed.
Print Assumptions C91_consistent.

(** Any other name, or none, ends the program before a solver exists. *)
Theorem C91_unknown : forall sdm mood entry,
  (forall s, offered sdm mood s -> entry <> Some (spelled s)) -> start sdm mood entry = None.
Proof.
  intros sdm mood entry H. destruct (start sdm mood entry) as [[s q]|] eqn:E; [|reflexivity].
  destruct (C91_consistent _ _ _ _ _ E) as ((name & -> & ->) & O & _). exfalso. now apply (H s O).
Qed.
Print Assumptions C91_unknown.

(** Every offered solver can be started, and no two share a name. *)
Theorem C91_offered : forall sdm mood s, offered sdm mood s ->
  (exists q, start sdm mood (Some (spelled s)) = Some (s, q)) /\
  forall s', offered sdm mood s' -> spelled s' = spelled s -> s' = s.
Proof.
  intros sdm mood s O. pose proof (proj2 (C91_names sdm mood _ s) (conj O eq_refl)) as C. split.
  - unfold start. cbn [getString]. rewrite C. eauto.
  - intros s' O' E. pose proof (proj2 (C91_names sdm mood (spelled s') s') (conj O' eq_refl)) as C'.
    rewrite E, C in C'. now injection C'.
Qed.
Print Assumptions C91_offered.

(** The claim that a name which the parameters accept can also be run is false:
    the fifth-degree MOOD scheme gets its four ghost layers, and
    "Hydro_Sdm_..." is an accepted spelling, yet neither is registered. *)
Theorem C91_accepted_refuted :
  (setup true true "Hydro_Mood_2D_degree5" np0 = NP 2 4 4 false /\
   In "Hydro_Mood_2D_degree5"%string (map fst valid_solver_names) /\
   start true true (Some "Hydro_Mood_2D_degree5"%string) = None) /\
  (setup true true "Hydro_Sdm_3D_degree2" np0 = setup true true "Hydro_SDM_3D_degree2" np0 /\
   start true true (Some "Hydro_Sdm_3D_degree2"%string) = None).
Proof. repeat split; try reflexivity. cbn. tauto. Qed.
Print Assumptions C91_accepted_refuted.

Example C91_case : start false true (Some "Hydro_Mood_2D_degree4"%string) = Some (SolverHydroMood 2 4, NP 2 4 3 false) /\
  start false false (Some "Hydro_Mood_2D_degree4"%string) = None /\ start true true None = None /\
  start true true (Some "Hydro_SDM_2D_degree7"%string) = None.
Proof. repeat split; reflexivity. Qed.
Example C91_case_unknown : forall s, offered true true s -> Some "Hydro_SDM_2D_degree7"%string <> Some (spelled s).
Proof.
  intros s O E. injection E as E. pose proof (proj2 (C91_names true true _ s) (conj O E)). discriminate.
Qed.
Example C91_case_offered : offered true false (SolverHydroSDM 3 4).
Proof. cbn. split; [reflexivity|lia]. Qed.

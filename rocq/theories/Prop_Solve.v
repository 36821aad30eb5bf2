(** C58: a run on a uniform mesh gives the solution on one grid. *)
From Coq Require Import ZArith QArith List Bool Lia.
From Verif Require Import Base_Float Model_Face Model_Mesh Spec_Mesh Model_Fill Model_FillExec Spec_Fill Model_Solve Spec_Solve Proof_Solve6 Proof_Solve7.
From Verif Require Model_Grid Spec_Grid Model_Ghost Model_Step Spec_Step Model_Advance.
Import ListNotations.
Open Scope Z_scope.

(** the cells in each direction of a patch, the number of components *)
Notation msize U := (Model_Grid.mx (Model_Ghost.g_d (s_opts U))).
Notation ncomp U := (Model_Grid.meqn (Model_Ghost.g_d (s_opts U))).
(** the lengths of the steps in the list *)
Definition lengths (cfg : Model_Advance.config) (l : list (Q * Q)) : list Q := map (fun x => taken cfg (snd x)) l.
(** a mesh on some processes, all of it as the library expects *)
Definition well_run (w : world) (geo : geometry) (L : layout) (U : setup) (views : Z -> view) (dx dy : Q) (X : field) : Prop :=
  forest_ok w geo /\ machine_ok w geo (mkReq (lvl L) (lvl L) false) views /\ laid_out w geo L /\ setup_ok w L U dx dy X /\ once w L views.

(** If ghost cells are filled after initialization, a run on any number of processes completes, and afterwards all patches have in their
    cells the values which the method gives on one grid, and in their ghost cells the continuation of these, whatever was in memory. *)
Theorem C58_one_grid : forall w geo L U views dx dy X async R cfg cfl l u G, well_run w geo L U views dx dy X -> one_level L cfg -> has w L U false u G ->
  let B := rect L (msize U) (s_mthbc U) in
  exists G', solve w views U true async R cfg cfl l G = Some G' /\
    has w L U true (continued B (evolves (s_arith U) (s_solver U) (ncomp U) B X dx dy (lengths cfg l) u)) G'.
Proof. intros w geo L U views dx dy X async R cfg cfl l u G (F & M & LA & S & O) OL H. cbv zeta. exact (solve_all w geo L U dx dy X views F M LA S O async R cfg cfl l u G OL H). Qed.
Print Assumptions C58_one_grid.

(** The same without filling if the ghost cells have the right values at the beginning. *)
Theorem C58_ghosts_given : forall w geo L U views dx dy X async R cfg cfl l u G, well_run w geo L U views dx dy X -> one_level L cfg ->
  let B := rect L (msize U) (s_mthbc U) in
  has w L U true (continued B u) G ->
  exists G', solve w views U false async R cfg cfl l G = Some G' /\
    has w L U true (continued B (evolves (s_arith U) (s_solver U) (ncomp U) B X dx dy (lengths cfg l) u)) G'.
Proof. intros w geo L U views dx dy X async R cfg cfl l u G (F & M & LA & S & O) OL. cbv zeta. intros H. exact (advances_all w geo L U dx dy X views F M LA S O async R cfg cfl l u G OL H). Qed.
Print Assumptions C58_ghosts_given.

(** one update alone: it gives the ghost cells the continuation of the solution *)
Theorem C58_ghost_cells : forall w geo L U views dx dy X async old u G, well_run w geo L U views dx dy X -> has w L U false u G ->
  exists G', fill_update w views U async (lvl L) (lvl L) false old G = Some G' /\ has w L U true (continued (rect L (msize U) (s_mthbc U)) u) G'.
Proof. intros w geo L U views dx dy X async old u G (F & M & LA & S & O) H. exact (fill_all w geo L U dx dy X views F M LA S u async old G H). Qed.
Print Assumptions C58_ghost_cells.

(** Two runs of the same problem, on different numbers of processes, with patches distributed differently, with other patch sizes and levels
    for the same grid, with or without communication in the background, with other contents of memory that is not initialized: the
    same values in every cell. *)
Theorem C58_same_results : forall dx dy X u l
  w1 geo1 L1 U1 views1 async1 R1 cfg1 cfl1 G1 w2 geo2 L2 U2 views2 async2 R2 cfg2 cfl2 G2,
  well_run w1 geo1 L1 U1 views1 dx dy X -> one_level L1 cfg1 -> has w1 L1 U1 false u G1 ->
  well_run w2 geo2 L2 U2 views2 dx dy X -> one_level L2 cfg2 -> has w2 L2 U2 false u G2 ->
  s_arith U1 = s_arith U2 -> s_solver U1 = s_solver U2 -> ncomp U1 = ncomp U2 -> s_mthbc U1 = s_mthbc U2 ->
  across_x L1 * msize U1 = across_x L2 * msize U2 -> across_y L1 * msize U1 = across_y L2 * msize U2 -> per_x L1 = per_x L2 -> per_y L1 = per_y L2 ->
  lengths cfg1 l = lengths cfg2 l ->
  exists G1' G2', solve w1 views1 U1 true async1 R1 cfg1 cfl1 l G1 = Some G1' /\ solve w2 views2 U2 true async2 R2 cfg2 cfl2 l G2 = Some G2' /\
    forall x1 i1 j1 x2 i2 j2 k, is_patch w1 x1 -> Model_Grid.in_q (Model_Ghost.g_d (s_opts U1)) (i1, j1, k) = true ->
      is_patch w2 x2 -> Model_Grid.in_q (Model_Ghost.g_d (s_opts U2)) (i2, j2, k) = true ->
      col L1 (msize U1) x1 i1 = col L2 (msize U2) x2 i2 -> row L1 (msize U1) x1 j1 = row L2 (msize U2) x2 j2 ->
      G1' (fst x1) x1 false (i1, j1, k) = G2' (fst x2) x2 false (i2, j2, k).
Proof.
  intros dx dy X u l w1 geo1 L1 U1 views1 async1 R1 cfg1 cfl1 G1 w2 geo2 L2 U2 views2 async2 R2 cfg2 cfl2 G2 W1 O1 H1 W2 O2 H2 EA ES EN EB EX EY PX PY EL.
  destruct (C58_one_grid w1 geo1 L1 U1 views1 dx dy X async1 R1 cfg1 cfl1 l u G1 W1 O1 H1) as (G1' & E1 & V1).
  destruct (C58_one_grid w2 geo2 L2 U2 views2 dx dy X async2 R2 cfg2 cfl2 l u G2 W2 O2 H2) as (G2' & E2 & V2).
  exists G1', G2'. split; [exact E1|]. split; [exact E2|]. intros x1 i1 j1 x2 i2 j2 k P1 Q1 P2 Q2 EC ER.
  rewrite (proj2 (V1 (fst x1) (proj1 P1) x1 P1) eq_refl i1 j1 k Q1 (or_introl eq_refl)).
  rewrite (proj2 (V2 (fst x2) (proj1 P2) x2 P2) eq_refl i2 j2 k Q2 (or_introl eq_refl)).
  assert (rect L1 (msize U1) (s_mthbc U1) = rect L2 (msize U2) (s_mthbc U2)) as -> by (unfold rect; rewrite EX, EY, PX, PY, EB; reflexivity).
  rewrite EC, ER, EA, ES, EN, EL. reflexivity.
Qed.
Print Assumptions C58_same_results.

(** On a domain that is periodic in both directions, with exact arithmetic and fluctuations that are flux differences, a run changes no total
    of a component (weighted by the capacity function, if there is one), on any number of processes and for any number of steps. *)
Theorem C58_conserved : forall w geo L U views dx dy X async R cfg cfl l u G f, well_run w geo L U views dx dy X -> one_level L cfg -> has w L U false u G ->
  s_arith U = Model_Step.exact -> per_x L = true -> per_y L = true -> Spec_Step.flux_difference (s_solver U) (ncomp U) f ->
  let n := across_x L * msize U in let m := across_y L * msize U in let c := Spec_Step.capacity (s_solver U) X in
  periodic n m X -> (forall i j, 1 <= i <= n -> 1 <= j <= m -> ~ (c i j == 0)%Q) ->
  exists G' v, solve w views U true async R cfg cfl l G = Some G' /\ has w L U true v G' /\ periodic n m v /\
    forall k, 1 <= k <= ncomp U -> (grid_total n m (fun i j => c i j * v i j k) == grid_total n m (fun i j => c i j * u i j k))%Q.
Proof.
  intros w geo L U views dx dy X async R cfg cfl l u G f W OL H EA PX PY FD. cbv zeta. intros XP CAP.
  destruct (C58_one_grid w geo L U views dx dy X async R cfg cfl l u G W OL H) as (G' & E & V). rewrite EA in V.
  assert (SZ : 1 <= across_x L * msize U /\ 1 <= across_y L * msize U).
  { destruct W as (_ & _ & (L1 & L2 & L3 & _) & (_ & (_ & _ & S1 & _) & _) & _). pose proof (Z.pow_pos_nonneg 2 (lvl L) ltac:(lia) ltac:(lia)). unfold across_x, across_y. nia. }
  assert (OPT : Spec_Step.options_ok (s_solver U)) by (destruct W as (_ & _ & _ & (_ & _ & _ & _ & US & _) & _); apply US).
  exists G'. eexists. split; [exact E|]. split; [exact V|]. split.
  - apply (continued_per (rect L (msize U) (s_mthbc U))); cbn [perx pery nx ny rect]; try assumption; lia.
  - intros k Hk. rewrite <- (evolves_total (s_solver U) (ncomp U) f (rect L (msize U) (s_mthbc U)) X dx dy (lengths cfg l) u k OPT FD); cbn [perx pery nx ny rect]; try assumption; try lia.
    unfold grid_total. apply Proof_Grid2.qsum_ext. intros i Hi. apply Proof_Grid2.qsum_ext. intros j Hj. rewrite continued_in; cbn [perx pery nx ny rect]; try assumption. reflexivity.
Qed.
Print Assumptions C58_conserved.

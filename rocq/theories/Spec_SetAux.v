(** Specification vocabulary for the bathymetry of patches. *)
From Coq Require Import ZArith QArith.
From Verif Require Import Model_Topo Model_SetAux.   (* types only *)
Open Scope Q_scope.

(** The patch is cells a+1, ..., a+mx and b+1, ..., b+my of a grid of nx by ny cells over the
    domain. *)
Record placed (g : grid) (nx ny a b : Z) : Prop := {
  p_dx : 0 < g_dx g; p_dy : 0 < g_dy g;
  p_mx : (1 <= g_mx g)%Z; p_my : (1 <= g_my g)%Z; p_mbc : (1 <= g_mbc g)%Z;
  p_xup : g_xupper g == g_xlower g + inject_Z nx * g_dx g;
  p_yup : g_yupper g == g_ylower g + inject_Z ny * g_dy g;
  p_xlow : g_xlow g == g_xlower g + inject_Z a * g_dx g;
  p_ylow : g_ylow g == g_ylower g + inject_Z b * g_dy g;
  p_a : (0 <= a /\ a + g_mx g <= nx)%Z; p_b : (0 <= b /\ b + g_my g <= ny)%Z }.

(** Cell (k, l) of the grid over the domain. *)
Definition gridcell (g : grid) (k l : Z) : rect :=
  mkRect (g_xlower g + inject_Z (k - 1) * g_dx g) (g_xlower g + inject_Z k * g_dx g)
         (g_ylower g + inject_Z (l - 1) * g_dy g) (g_ylower g + inject_Z l * g_dy g).
(** The number between 1 and n nearest to k. *)
Definition nearest (n k : Z) : Z := if (k <? 1)%Z then 1%Z else if (n <? k)%Z then n else k.

(** A position of the array of the patch. *)
Definition in_array (g : grid) (i j : Z) : Prop :=
  (1 - g_mbc g <= i <= g_mx g + g_mbc g /\ 1 - g_mbc g <= j <= g_my g + g_mbc g)%Z.
(** A copy of another process's patch has only the cells within 2*mbc of its sides. *)
Definition held (g : grid) (i j : Z) : Prop :=
  g_ghost g = true ->
  (i <= 2 * g_mbc g \/ g_mx g - 2 * g_mbc g < i \/ j <= 2 * g_mbc g \/ g_my g - 2 * g_mbc g < j)%Z.

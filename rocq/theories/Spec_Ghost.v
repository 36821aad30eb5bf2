(** What a message with the data of one patch has to contain, and what time interpolation
    has to produce. *)
From Coq Require Import ZArith QArith List Lia Bool.
From Verif Require Import Model_Face Model_Grid Spec_Grid Model_Ghost.
Open Scope Z_scope.

(** Cell (i,j) of the array lies in the ghost layers or within [w] cells of the boundary
    of the patch. *)
Definition near (d : dims) (w i j : Z) : Prop :=
  1 - mbc d <= i <= mx d + mbc d /\ 1 - mbc d <= j <= my d + mbc d /\
  (i <= w \/ mx d - w < i \/ j <= w \/ my d - w < j).

(** Width needed by averaging: a ghost cell of the coarse neighbor covers refratio cells. *)
Definition width_sent (o : gopts) : Z := refratio o * mbc (g_d o).

(** Number of cells of one field in the message. *)
Definition cells_sent (o : gopts) : Z :=
  (mx (g_d o) + 2 * mbc (g_d o)) * (my (g_d o) + 2 * mbc (g_d o))
  - (mx (g_d o) - 2 * width_sent o) * (my (g_d o) - 2 * width_sent o).

(** The locations whose values the receiver gets. *)
Definition sent (o : gopts) (l : loc) : Prop :=
  let d := g_d o in
  match l with
  | LQ (i, j, mq) => near d (width_sent o) i j /\ 1 <= mq <= meqn d
  | LA i j => packarea o = true /\ near d (width_sent o) i j
  | LX n => 0 <= n < cells_sent o * packextra o
  | LFm k j | LFp k j => time_sync o = true /\ 0 <= k < 2 /\ 0 <= j < my d * meqn d
  | LGm k j | LGp k j => time_sync o = true /\ 0 <= k < 2 /\ 0 <= j < mx d * meqn d
  | LEf k j => time_sync o = true /\ 0 <= k < 4 /\ 0 <= j < 2 * (if k <? 2 then my d else mx d) * meqn d
  | LEl k j | LAr k j => time_sync o = true /\ 0 <= k < 4 /\ 0 <= j < (if k <? 2 then my d else mx d)
  end.

(** The strips on opposite sides do not overlap. *)
Definition large_enough (o : gopts) : Prop :=
  1 <= mbc (g_d o) /\ 1 <= meqn (g_d o) /\ 1 <= refratio o /\ 0 <= packextra o /\
  2 * width_sent o <= mx (g_d o) /\ 2 * width_sent o <= my (g_d o).

(** What is expected of the entry that packs extra fields of a solver. *)
Definition copies_extra (f : Z -> Z -> Z -> Z -> pst -> option (pst * Z)) : Prop :=
  forall mint base size mode s, 0 <= base -> 0 <= size ->
  exists s', f mint base size mode s = Some (s', 0) /\
    if Z.even mode then
      mem s' = mem s /\ (forall n, 0 <= n < size -> buf s' (base + n) = mem s (LX n)) /\
      (forall n, ~ (base <= n < base + size) -> buf s' n = buf s n)
    else
      buf s' = buf s /\ (forall n, 0 <= n < size -> mem s' (LX n) = buf s (base + n)) /\
      (forall l, (forall n, 0 <= n < size -> l <> LX n) -> mem s' l = mem s l).
Definition extra_ok (o : gopts) : Prop :=
  packextra o = 0 \/ exists f, aux o = Some f /\ copies_extra f.

(** Interior cells within [w] cells of the boundary. *)
Definition rim (d : dims) (w : Z) (c : cell) : Prop :=
  let '(i, j, mq) := c in interior d c /\ (i <= w \/ mx d - w < i \/ j <= w \/ my d - w < j).

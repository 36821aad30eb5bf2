(** C65: vectors over the data of the patches. *)
From Coq Require Import ZArith QArith List Lia Bool.
From Verif Require Import Base_Float Model_Face Model_Grid Spec_Grid Model_Elliptic Spec_Elliptic Proof_Elliptic9.
Import ListNotations.
Open Scope Z_scope.

(** A vector made from the patches: the patches are numbered block by block, and cell (i, j) of field m is where the
    patch keeps it. *)
Theorem C65_vector_view : forall d num_blocks block,
  1 <= mx d -> 1 <= my d -> 0 <= mbc d -> 0 <= meqn d -> 0 <= num_blocks ->
  numbered num_blocks (fun b => before (block b)) (fun b => patches_in (block b)) ->
  exists v, get_vector d num_blocks block = Some v /\
    (forall M b q i j m, 0 <= b < num_blocks -> 0 <= q < patches_in (block b) ->
       view M v (before (block b) + q) i j m = Some (M b q (double_at d i j m))) /\
    (forall M k i j m, k < 0 \/ before (block num_blocks) <= k -> view M v k i j m = None).
Proof.
  intros d num_blocks block Hx Hy Hb Hm Hn HN. destruct (get_ok d num_blocks block Hn HN) as (v & E & A & B).
  exists v. split; [exact E|]. split; [|exact B]. intros M b q i j m H1 H2. apply A. now split.
Qed.
Print Assumptions C65_vector_view.

(** Storing a vector writes every cell of every patch, ghost cells included, and nothing else; a vector made from the
    patches then shows the stored values. *)
Theorem C65_vector_store : forall d num_blocks block vec M,
  1 <= mx d -> 1 <= my d -> 0 <= mbc d -> 0 <= meqn d -> 0 <= num_blocks ->
  numbered num_blocks (fun b => before (block b)) (fun b => patches_in (block b)) ->
  exists M' v, store_vector d num_blocks block vec M = Some M' /\ get_vector d num_blocks block = Some v /\
    (forall b q i j m, 0 <= b < num_blocks -> 0 <= q < patches_in (block b) -> with_ghosts d i j m ->
       view M' v (before (block b) + q) i j m = Some (vec (before (block b) + q) i j m)) /\
    (forall b q a, ~ (0 <= b < num_blocks /\ 0 <= q < patches_in (block b)) \/ ~ (0 <= a < patch_doubles d) -> M' b q a = M b q a).
Proof.
  intros d num_blocks block vec M Hx Hy Hb Hm Hn HN. destruct (get_ok d num_blocks block Hn HN) as (v & E & A & B).
  destruct (store_vector_ok d Hx Hy Hb Hm num_blocks block Hn HN vec M) as (M' & E' & S1 & S2). exists M', v. split; [exact E'|]. split; [exact E|]. split.
  - intros b q i j m H1 H2 G. rewrite A by now split. rewrite S1; [reflexivity|now split|exact G].
  - intros b q a H. apply S2. destruct H as [H|H]; [left; intros (D1 & D2); apply H; now split|now right].
Qed.
Print Assumptions C65_vector_store.

(** Storing what the vector shows changes nothing. *)
Theorem C65_vector_round_trip : forall d num_blocks block M v vec,
  1 <= mx d -> 1 <= my d -> 0 <= mbc d -> 0 <= meqn d -> 0 <= num_blocks ->
  numbered num_blocks (fun b => before (block b)) (fun b => patches_in (block b)) ->
  get_vector d num_blocks block = Some v -> (forall k i j m x, view M v k i j m = Some x -> vec k i j m = x) ->
  exists M', store_vector d num_blocks block vec M = Some M' /\ forall b q a, M' b q a = M b q a.
Proof.
  intros d num_blocks block M v vec Hx Hy Hb Hm Hn HN EV HV. destruct (get_ok d num_blocks block Hn HN) as (v' & E & A & B).
  rewrite EV in E. assert (v = v') by congruence. subst v'.
  destruct (store_vector_ok d Hx Hy Hb Hm num_blocks block Hn HN vec M) as (M' & E' & S1 & S2). exists M'. split; [exact E'|]. intros b q a.
  assert (DD : in_domain num_blocks block b q \/ ~ in_domain num_blocks block b q) by (unfold in_domain; lia).
  assert (DA : 0 <= a < patch_doubles d \/ ~ (0 <= a < patch_doubles d)) by lia.
  destruct DD as [D|D]; [|apply S2; now left]. destruct DA as [Da|Da]; [|apply S2; now right].
  destruct (every_double d Hx Hb Hm a Da) as (i & j & m & G & <-). rewrite (S1 b q i j m D G). apply HV. now apply A.
Qed.
Print Assumptions C65_vector_round_trip.

(** Two blocks with two patches and one patch. *)
Definition v_block (b : Z) : vblock := if b =? 0 then mkVblock 0 2 else mkVblock (1 + b) 1.
Example C65_vector_instance : numbered 2 (fun b => before (v_block b)) (fun b => patches_in (v_block b)) /\
  exists v, get_vector (mkDims 3 2 1 2) 2 v_block = Some v /\ starts v 2 = Some (1, 0) /\
    view (fun b q a => inject_Z (1000 * b + 100 * q + a)) v 2 0 1 1 = Some 1031%Q.
Proof.
  split.
  - split; [reflexivity|]. intros b Hb. assert (b = 0 \/ b = 1) as [->| ->] by lia; cbn; lia.
  - eexists. split; [reflexivity|]. split; vm_compute; reflexivity.
Qed.

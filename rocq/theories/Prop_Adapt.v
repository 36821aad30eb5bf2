(** C10, C11: refinement marks and smooth refinement. *)
From Coq Require Import ZArith List Lia Bool Permutation.
From Verif Require Import Model_Adapt Spec_Adapt Proof_Adapt.
Import ListNotations.
Local Open Scope Z_scope.

(* ------------------------------------------------------------------- C10 *)

(** A program of marks runs exactly when all the patches it names exist. *)
Theorem C10_marks_defined : forall q d l,
  mark_run q d l <> None <->
  Forall (fun o => match o with MRefine b p | MCoarsen b p =>
     (b < num_blocks d)%nat /\ (p < num_patches d b)%nat end) l.
Proof.
  intros q d l.
  assert (H : Forall (fun o => match o with MRefine b p | MCoarsen b p =>
     (b < num_blocks d)%nat /\ (p < num_patches d b)%nat end) l <->
     Forall (fun o => exists_patch d (fst (op_patch o)) (snd (op_patch o)) = true) l).
  { rewrite !Forall_forall. split; intros H o Ho; specialize (H o Ho); unfold exists_patch in *;
      destruct o; cbn [op_patch fst snd] in *; rewrite andb_true_iff, !Nat.ltb_lt in *; exact H. }
  rewrite H. split.
  - intros Hn. destruct (Forall_dec _ (fun o => bool_dec (exists_patch d (fst (op_patch o)) (snd (op_patch o))) true) l)
      as [HF|HF]; [exact HF|]. exfalso. apply Hn. now apply mark_run_out.
  - clear H. revert d. induction l as [|o tl IH]; intros d HF; [discriminate|].
    apply Forall_cons_iff in HF. destruct HF as [H1 H2]. rewrite mark_run_cons.
    destruct (apply_mark_ok q d (fst (op_patch o)) (snd (op_patch o)) (op_mark o)) as (d1 & E & HM & _);
      [destruct o; discriminate|exact H1|].
    rewrite E. apply IH. eapply Forall_impl; [|exact H2]. intros a Ha. now rewrite (same_exists d d1).
Qed.
Print Assumptions C10_marks_defined.

(** From a domain without requests, the last mark of each patch decides: the requested
    level is one more or one less than the level, cut off at the maximum level and at
    zero.  The level of the patch itself and every unmarked patch are unchanged. *)
Theorem C10_marks : forall q d l d', unmarked d -> mark_run q d l = Some d' ->
  forall b p,
    level (pat d' b p) = level (pat d b p) /\
    target (pat d' b p) = requested q (level (pat d b p)) (last_mark l b p NoMark) /\
    flag d' b p = if smooth_refine d then NoMark else last_mark l b p NoMark.
Proof.
  intros q d l d' HU E b p.
  assert (HF : Forall (fun o => exists_patch d (fst (op_patch o)) (snd (op_patch o)) = true) l).
  { destruct (Forall_dec _ (fun o => bool_dec (exists_patch d (fst (op_patch o)) (snd (op_patch o))) true) l)
      as [HF|HF]; [exact HF|]. exfalso. rewrite mark_run_out in E by exact HF. discriminate. }
  destruct (mark_run_ok q l d (fun _ _ => NoMark)) as (d1 & E1 & HM & HT & HFl).
  - intros b0 p0. cbn [requested]. apply HU.
  - intros b0 p0. rewrite (proj2 (HU b0 p0)). now destruct (smooth_refine d).
  - exact HF.
  - assert (d1 = d') by congruence. subst d1. split; [apply HM|]. split; [apply HT|apply HFl].
Qed.
Print Assumptions C10_marks.

(** In particular requests never leave [0, q] and move by at most one level; a mark
    away from the ends moves by exactly one. *)
Theorem C10_bounds : forall q d l d', unmarked d -> mark_run q d l = Some d' ->
  forall b p, 0 <= level (pat d b p) <= q ->
    0 <= target (pat d' b p) <= q /\
    level (pat d' b p) - 1 <= target (pat d' b p) <= level (pat d' b p) + 1 /\
    (last_mark l b p NoMark = Refine -> level (pat d b p) < q ->
       target (pat d' b p) = level (pat d' b p) + 1) /\
    (last_mark l b p NoMark = Coarsen -> 0 < level (pat d b p) ->
       target (pat d' b p) = level (pat d' b p) - 1) /\
    (last_mark l b p NoMark = NoMark -> target (pat d' b p) = level (pat d' b p)).
Proof.
  intros q d l d' HU E b p HL. destruct (C10_marks q d l d' HU E b p) as (A & B & _).
  rewrite A, B. unfold requested. destruct (last_mark l b p NoMark);
    destruct (Z.ltb_spec (level (pat d b p)) q), (Z.ltb_spec 0 (level (pat d b p)));
    repeat split; try discriminate; intros; lia.
Qed.
Print Assumptions C10_bounds.

(** Regridding: whatever the user's tagging functions answer, it runs, refines exactly
    the tagged patches below maxlevel, and coarsens exactly the members of tagged
    families above minlevel that are not refined. *)
Theorem C10_regrid_exact : forall q tagR tagC minlevel maxlevel fams d,
  unmarked d -> Forall (family d) fams ->
  exists d', regrid_tags q tagR tagC minlevel maxlevel fams d = Some d' /\
  forall b p, exists_patch d b p = true ->
    let wantR := level (pat d b p) < maxlevel /\ tagR b p = 1 in
    let wantC := exists p0, In (b, p0) fams /\ (p0 <= p <= p0 + 3)%nat /\
                            level (pat d b p) > minlevel /\ tagC b p0 = 1 in
    level (pat d' b p) = level (pat d b p) /\
    (wantR -> target (pat d' b p) = requested q (level (pat d b p)) Refine /\
       (smooth_refine d = false -> flag d' b p = Refine)) /\
    (~ wantR -> wantC -> target (pat d' b p) = requested q (level (pat d b p)) Coarsen /\
       (smooth_refine d = false -> flag d' b p = Coarsen)) /\
    (~ wantR -> ~ wantC -> target (pat d' b p) = level (pat d b p) /\ flag d' b p = NoMark) /\
    (smooth_refine d = true -> flag d' b p = NoMark).
Proof.
  intros q tagR tagC minlevel maxlevel fams d HU HF.
  destruct (regrid_ok q tagR tagC minlevel maxlevel fams d HU HF) as (d' & E & HM & H).
  exists d'. split; [exact E|]. intros b p Hex wantR wantC. destruct (H b p Hex) as [HT HFl].
  split; [apply HM|]. rewrite HT, HFl. clear HT HFl H E.
  assert (HR : (level (pat d b p) <? maxlevel) && (tagR b p =? 1) = true <-> wantR).
  { unfold wantR. rewrite andb_true_iff, Z.ltb_lt, Z.eqb_eq. reflexivity. }
  assert (HC : existsb (fun '(b', p') => Nat.eqb b' b && (p' <=? p)%nat && (p <=? p' + 3)%nat &&
                     (level (pat d b p) >? minlevel) && (tagC b' p' =? 1)) fams = true <-> wantC).
  { unfold wantC. rewrite existsb_exists. split.
    - intros ([b' p'] & Hin & Hc). rewrite !andb_true_iff, Nat.eqb_eq, !Nat.leb_le, Z.gtb_lt, Z.eqb_eq in Hc.
      destruct Hc as ((((-> & H1) & H2) & H3) & H4). exists p'. split; [exact Hin|]. split; [lia|]. split; [lia|exact H4].
    - intros (p0 & Hin & H1 & H2 & H3). exists (b, p0). split; [exact Hin|].
      rewrite !andb_true_iff, Nat.eqb_eq, !Nat.leb_le, Z.gtb_lt, Z.eqb_eq. repeat split; lia. }
  unfold regrid_mark.
  destruct ((level (pat d b p) <? maxlevel) && (tagR b p =? 1)).
  - pose proof (proj1 HR eq_refl) as W. split; [|split; [|split]].
    + intros _. split; [reflexivity|]. now intros ->.
    + intros N. now destruct (N W).
    + intros N. now destruct (N W).
    + now intros ->.
  - assert (W : ~ wantR) by (intros W; apply HR in W; discriminate). split; [now intros W'; destruct (W W')|].
    destruct (existsb _ fams).
    + pose proof (proj1 HC eq_refl) as WC. split; [|split].
      * intros _ _. split; [reflexivity|]. now intros ->.
      * intros _ N. now destruct (N WC).
      * now intros ->.
    + split; [|split].
      * intros _ WC. apply HC in WC. discriminate.
      * intros _ _. split; [reflexivity|]. now destruct (smooth_refine d).
      * now intros ->.
Qed.
Print Assumptions C10_regrid_exact.

(** Hence requests stay in [minlevel, maxlevel]. *)
Theorem C10_regrid_range : forall q tagR tagC minlevel maxlevel fams d d',
  unmarked d -> Forall (family d) fams -> 0 <= minlevel -> maxlevel <= q ->
  regrid_tags q tagR tagC minlevel maxlevel fams d = Some d' ->
  forall b p, exists_patch d b p = true -> minlevel <= level (pat d b p) <= maxlevel ->
    minlevel <= target (pat d' b p) <= maxlevel.
Proof.
  intros q tagR tagC minlevel maxlevel fams d d' HU HF H0 Hq E b p Hex HL.
  destruct (C10_regrid_exact q tagR tagC minlevel maxlevel fams d HU HF) as (d1 & E1 & H).
  assert (d1 = d') by congruence. subst d1. destruct (regrid_ok q tagR tagC minlevel maxlevel fams d HU HF) as (d2 & E2 & _ & H2).
  assert (d2 = d') by congruence. subst d2. rewrite (proj1 (H2 b p Hex)).
  unfold regrid_mark, requested.
  destruct (Z.ltb_spec (level (pat d b p)) maxlevel) as [Hm|Hm]; cbn [andb].
  - destruct (tagR b p =? 1).
    + destruct (Z.ltb_spec (level (pat d b p)) q); lia.
    + destruct (existsb _ fams) eqn:Ex; [|lia]. apply existsb_exists in Ex. destruct Ex as ([b' p'] & _ & Hc).
      rewrite !andb_true_iff, Z.gtb_lt in Hc. destruct (Z.ltb_spec 0 (level (pat d b p))); lia.
  - destruct (existsb _ fams) eqn:Ex; [|lia]. apply existsb_exists in Ex. destruct Ex as ([b' p'] & _ & Hc).
    rewrite !andb_true_iff, Z.gtb_lt in Hc. destruct (Z.ltb_spec 0 (level (pat d b p))); lia.
Qed.
Print Assumptions C10_regrid_range.

(** Five patches in one block: a family at level 2 and one patch at level 1. *)
Definition sample_marks (smooth : bool) : proc :=
  mkD 0 1 (fun _ => 5%nat) (fun _ p => if (p <? 4)%nat then mkP 2 2 else mkP 1 1)
      (fun _ _ => NoMark) 0 (fun _ => mkP 0 0) (fun _ => 0%nat) smooth 0.

(** All patches of the family are tagged for coarsening, patch 2 and patch 4 for
    refinement: refinement wins. *)
Example C10_instance :
  unmarked (sample_marks false) /\ Forall (family (sample_marks false)) [(0, 0)%nat] /\
  bind (regrid_tags 29 (fun _ p => if Nat.eqb p 2 || Nat.eqb p 4 then 1 else 0) (fun _ _ => 1) 1 3
          [(0, 0)%nat] (sample_marks false))
       (fun d => Some (map (fun p => (target (pat d 0 p), flag d 0%nat p)) [0; 1; 2; 3; 4]%nat)) =
  Some [(1, Coarsen); (1, Coarsen); (3, Refine); (1, Coarsen); (2, Refine)].
Proof.
  split; [|split].
  - intros b p. split; [|reflexivity]. unfold sample_marks. cbn [pat].
    destruct (p <? 4)%nat; reflexivity.
  - constructor; [|constructor]. split; [cbn; lia|]. split; [cbn; lia|]. intros k Hk.
    destruct k as [|[|[|[|k]]]]; [reflexivity..|lia].
  - reflexivity.
Qed.

(* ------------------------------------------------------------------- C11 *)

Lemma smoothed : forall faces corners F, mesh_ok faces corners F -> requests_ok F ->
  forall r order, smooth_refine (procs F r) = true ->
  (forall b p, flag (procs F r) b p = NoMark) -> visits_all (procs F r) order ->
  exists d', smooth_marks_in faces corners (fnbr F r) (cnbr F r) order (procs F r)
               (delivered F r) = Some d' /\
    pat d' = pat (procs F r) /\
    forall b p, exists_patch (procs F r) b p = true ->
      flag d' b p = smooth_flag faces corners F r b p NoMark.
Proof.
  intros faces corners F Hm Hq r order Hs Hu Hv. unfold smooth_marks_in. rewrite Hs.
  destruct (smooth_iterate_ok faces corners F Hm Hq r order
              (store_ghost_targets (procs F r) (delivered F r))) as (d' & E & Hd & Hf).
  - exact (during_start faces corners F Hm r).
  - apply Forall_forall. intros [b p] Hin. now apply Hv.
  - exists d'. split; [exact E|]. split; [apply Hd|]. intros b p Hex. rewrite Hf.
    assert (Hin : existsb (fun '(b', p') => Nat.eqb b b' && Nat.eqb p p') order = true).
    { apply existsb_exists. exists (b, p). split; [now apply Hv|]. now rewrite !Nat.eqb_refl. }
    rewrite Hin. cbn [flag store_ghost_targets]. now rewrite Hu.
Qed.

(** With smooth_refine, every process succeeds in whatever order it visits its patches,
    and flags a patch Refine exactly when it, or a face or corner neighbor on any
    process at or above the smooth level, asks for more than the patch's level; Coarsen
    exactly when it asks to be coarser and no such neighbor holds it. *)
Theorem C11_flags : forall faces corners F, mesh_ok faces corners F -> requests_ok F ->
  forall r order, smooth_refine (procs F r) = true ->
  (forall b p, flag (procs F r) b p = NoMark) -> visits_all (procs F r) order ->
  exists d', smooth_marks_in faces corners (fnbr F r) (cnbr F r) order (procs F r)
               (delivered F r) = Some d' /\
    pat d' = pat (procs F r) /\
    forall b p, exists_patch (procs F r) b p = true ->
      (flag d' b p = Refine <-> wants_finer faces corners F (smooth_level (procs F r)) (r, b, p)) /\
      (flag d' b p = Coarsen <-> may_coarsen faces corners F (smooth_level (procs F r)) (r, b, p)).
Proof.
  intros faces corners F Hm Hq r order Hs Hu Hv.
  destruct (smoothed faces corners F Hm Hq r order Hs Hu Hv) as (d' & E & Hp & Hf).
  exists d'. split; [exact E|]. split; [exact Hp|]. intros b p Hex. rewrite (Hf b p Hex). split.
  - now apply smooth_flag_refine.
  - now apply smooth_flag_coarsen.
Qed.
Print Assumptions C11_flags.

(** The order the code uses is one of these. *)
Theorem C11_code_order : forall d, visits_all d (all_patches d).
Proof. intros d b p. apply all_patches_in. Qed.
Print Assumptions C11_code_order.

(** Two orders give the same flags. *)
Theorem C11_order_independent : forall faces corners F, mesh_ok faces corners F -> requests_ok F ->
  (forall r, smooth_refine (procs F r) = true) ->
  (forall r b p, flag (procs F r) b p = NoMark) ->
  forall order order' flags flags',
  (forall r, visits_all (procs F r) (order r)) -> (forall r, visits_all (procs F r) (order' r)) ->
  all_smoothed faces corners F order flags -> all_smoothed faces corners F order' flags' ->
  forall g, is_patch F g -> flags g = flags' g.
Proof.
  intros faces corners F Hm Hq Hs Hu order order' flags flags' Hv Hv' H H' [[r b] p] Hg.
  destruct (H r b p Hg) as (d1 & E1 & ->). destruct (H' r b p Hg) as (d2 & E2 & ->).
  destruct (smoothed faces corners F Hm Hq r (order r) (Hs r) (Hu r) (Hv r)) as (d1' & E1' & _ & F1).
  destruct (smoothed faces corners F Hm Hq r (order' r) (Hs r) (Hu r) (Hv' r)) as (d2' & E2' & _ & F2).
  assert (d1' = d1) by congruence. assert (d2' = d2) by congruence. subst.
  rewrite F1, F2 by exact Hg. reflexivity.
Qed.
Print Assumptions C11_order_independent.

(** What the new mesh is, given what p4est_wrap_adapt does with the flags. *)
Theorem C11_adapt : forall q faces corners F sl, mesh_ok faces corners F -> requests_ok F ->
  (forall r, smooth_refine (procs F r) = true) -> (forall r, smooth_level (procs F r) = sl) ->
  (forall r b p, flag (procs F r) b p = NoMark) ->
  forall order flags sibling out, (forall r, visits_all (procs F r) (order r)) ->
  all_smoothed faces corners F order flags -> wrap_adapt_contract q F flags sibling out ->
  (forall g, is_patch F g -> wants_finer faces corners F sl g -> glevel F g < q -> out g = Refined) /\
  (forall g, is_patch F g -> out g = Coarsened ->
     forall h, sibling g h -> may_coarsen faces corners F sl h).
Proof.
  intros q faces corners F sl Hm Hq Hs Hsl Hu order flags sibling out Hv Hall [W1 W2].
  assert (K : forall g, is_patch F g -> (flags g = Refine <-> wants_finer faces corners F sl g) /\
                                        (flags g = Coarsen <-> may_coarsen faces corners F sl g)).
  { intros [[r b] p] Hg. destruct (Hall r b p Hg) as (d & E & ->).
    destruct (C11_flags faces corners F Hm Hq r (order r) (Hs r) (Hu r) (Hv r)) as (d1 & E1 & _ & H).
    assert (d1 = d) by congruence. subst. rewrite Hsl in H. now apply H. }
  split.
  - intros g Hg Hw Hl. apply W1; [exact Hg| |exact Hl]. now apply K.
  - intros g Hg Ho h Hs'. destruct (W2 g Hg Ho h Hs') as [Hh Hc]. now apply K.
Qed.
Print Assumptions C11_adapt.

(** A patch that asks to be finer is never held back or coarsened. *)
Theorem C11_refine_kept : forall q faces corners F sl, mesh_ok faces corners F -> requests_ok F ->
  (forall r, smooth_refine (procs F r) = true) -> (forall r, smooth_level (procs F r) = sl) ->
  (forall r b p, flag (procs F r) b p = NoMark) ->
  forall order flags sibling out, (forall r, visits_all (procs F r) (order r)) ->
  all_smoothed faces corners F order flags -> wrap_adapt_contract q F flags sibling out ->
  (forall g, sibling g g) ->
  forall g, is_patch F g -> gtarget F g > glevel F g ->
    out g <> Coarsened /\ (glevel F g < q -> out g = Refined).
Proof.
  intros q faces corners F sl Hm Hq Hs Hsl Hu order flags sibling out Hv Hall HW Hrefl g Hg Ht.
  destruct (C11_adapt q faces corners F sl Hm Hq Hs Hsl Hu order flags sibling out Hv Hall HW) as [A B].
  split.
  - intros Hc. pose proof (B g Hg Hc g (Hrefl g)) as [H _]. lia.
  - intros Hl. apply A; [exact Hg|now left|exact Hl].
Qed.
Print Assumptions C11_refine_kept.

(** Levels stay in range: if all requests are in [minlevel, maxlevel], so is what the
    flags ask for. *)
Theorem C11_range : forall faces corners F minlevel maxlevel,
  mesh_ok faces corners F -> requests_ok F ->
  (forall g, is_patch F g -> minlevel <= gtarget F g <= maxlevel) ->
  forall r order d', smooth_refine (procs F r) = true ->
  (forall b p, flag (procs F r) b p = NoMark) -> visits_all (procs F r) order ->
  smooth_marks_in faces corners (fnbr F r) (cnbr F r) order (procs F r) (delivered F r) = Some d' ->
  forall b p, exists_patch (procs F r) b p = true ->
    (flag d' b p = Refine -> level (pat d' b p) < maxlevel) /\
    (flag d' b p = Coarsen -> level (pat d' b p) > minlevel).
Proof.
  intros faces corners F lo hi Hm Hq Hr r order d' Hs Hu Hv E b p Hex.
  destruct (C11_flags faces corners F Hm Hq r order Hs Hu Hv) as (d1 & E1 & Hp & H).
  assert (d1 = d') by congruence. subst. destruct (H b p Hex) as [HR HC]. rewrite Hp.
  change (level (pat (procs F r) b p)) with (glevel F (r, b, p)). split.
  - intros Hf. apply HR in Hf. destruct Hf as [Hf|(h & Ht & _ & Hf)].
    + pose proof (Hr (r, b, p) Hex). lia.
    + destruct Ht as (x & Hx & <-).
      pose proof (during_start faces corners F Hm r) as Hd.
      pose proof (Hr _ (proj2 (get_neighbor_ok faces corners F Hm r _ b p x Hd Hex Hx))). lia.
  - intros Hf. apply HC in Hf. destruct Hf as [Hf _]. pose proof (Hr (r, b, p) Hex). lia.
Qed.
Print Assumptions C11_range.

(** Without smooth_refine the marks are passed on as they are. *)
Theorem C11_off : forall faces corners fn cn order d recv, smooth_refine d = false ->
  smooth_marks_in faces corners fn cn order d recv = Some d.
Proof. intros * H. unfold smooth_marks_in. now rewrite H. Qed.
Print Assumptions C11_off.

(** When nothing changed, all requests are withdrawn. *)
Theorem C11_withdrawn : forall d b p, exists_patch d b p = true ->
  target (pat (clean_targets d) b p) = level (pat d b p) /\
  level (pat (clean_targets d) b p) = level (pat d b p).
Proof. intros d b p H. cbn. now rewrite H. Qed.
Print Assumptions C11_withdrawn.

(** Two processes, each with two patches in a row 0-1-2-3 of level 2; the second patch
    of process 1 (patch 3) and the first patch of process 0 ask to be coarser, the first
    patch of process 1 asks to be finer.  Patch 1 on process 0 is pulled up through the
    ghost, patch 3 by its local neighbor; patch 0 is held by patch 1. *)
Definition sample_forest : forest :=
  mkForest
    (fun r => mkD r 1 (fun _ => 2%nat)
       (fun _ p => if r =? 0 then (if Nat.eqb p 0 then mkP 2 1 else mkP 2 2)
                   else (if Nat.eqb p 0 then mkP 2 3 else mkP 2 1))
       (fun _ _ => NoMark) 1 (fun _ => mkP 2 2) (fun _ => 0%nat) true 0)
    (fun r _ p f =>
       if r =? 0 then
         match p, f with
         | 0%nat, 1%nat => Samesize (0, 0%nat, 1%nat)
         | 1%nat, 0%nat => Samesize (0, 0%nat, 0%nat)
         | 1%nat, 1%nat => Samesize (1, 0%nat, 0%nat)
         | _, _ => Boundary end
       else
         match p, f with
         | 0%nat, 0%nat => Samesize (0, 0%nat, 0%nat)
         | 0%nat, 1%nat => Samesize (r, 0%nat, 1%nat)
         | 1%nat, 0%nat => Samesize (r, 0%nat, 0%nat)
         | _, _ => Boundary end)
    (fun _ _ _ _ => None)
    (fun r g => if r =? 0 then (1, 0%nat, 0%nat) else (0, 0%nat, 1%nat)).

Example C11_instance :
  mesh_ok 4 4 sample_forest /\ requests_ok sample_forest /\
  bind (smooth_marks 4 4 (fnbr sample_forest 0) (cnbr sample_forest 0) (procs sample_forest 0)
          (delivered sample_forest 0)) (fun d => Some (flag d 0%nat 0%nat, flag d 0%nat 1%nat)) =
    Some (NoMark, Refine) /\
  bind (smooth_marks 4 4 (fnbr sample_forest 1) (cnbr sample_forest 1) (procs sample_forest 1)
          (delivered sample_forest 1)) (fun d => Some (flag d 0%nat 0%nat, flag d 0%nat 1%nat)) =
    Some (Refine, Refine).
Proof.
  assert (E01 : forall r b p, exists_patch (procs sample_forest r) b p = true ->
                b = 0%nat /\ (p = 0 \/ p = 1)%nat).
  { intros r b p H. unfold exists_patch in H. rewrite andb_true_iff, !Nat.ltb_lt in H.
    unfold sample_forest in H. cbn [procs num_blocks num_patches] in H. lia. }
  split; [|split; [|split; reflexivity]].
  - split; [reflexivity|]. split; [|split; [|split]].
    + intros r g Hg. cbn in *. destruct (r =? 0); split; reflexivity.
    + intros r b p [[np nb] k] Hex Hn. destruct (E01 r b p Hex) as [-> Hp].
      destruct Hn as [(f & Hf & Hx)|(c & _ & Hx)]; [|discriminate Hx].
      cbn [fnbr sample_forest] in Hx. destruct (Z.eqb_spec r 0) as [->|Hr].
      * destruct Hp as [-> | ->]; destruct f as [|[|[|[|f]]]]; cbn in Hx; try tauto; try lia;
          destruct Hx as [Hx|[]]; injection Hx as <- <- <-; cbn; repeat split; intros; try lia.
      * destruct Hp as [-> | ->]; destruct f as [|[|[|[|f]]]]; cbn in Hx; try tauto; try lia;
          destruct Hx as [Hx|[]]; injection Hx as <- <- <-; cbn; repeat split; intros; try lia.
    + intros r b p f Hex Hf. destruct (E01 r b p Hex) as [-> Hp].
      cbn [fnbr sample_forest]. destruct (Z.eqb_spec r 0) as [->|Hr].
      * destruct Hp as [-> | ->]; destruct f as [|[|[|[|f]]]]; try exact I; try reflexivity.
      * destruct Hp as [-> | ->]; destruct f as [|[|[|[|f]]]]; try exact I;
          unfold resolve; try (rewrite Z.eqb_refl);
          try (destruct (Z.eqb_spec 0 r); [congruence|]);
          cbn; destruct (Z.eqb_spec r 0); try contradiction; reflexivity.
    + intros r b p c x _ _ H. discriminate H.
  - intros [[r b] p] H. apply E01 in H. destruct H as [-> [-> | ->]]; cbn; destruct (r =? 0); cbn; lia.
Qed.

(** The mesh of Prop_SolveInst with its sides joined in both directions, which meets the hypotheses of C58_conserved. *)
From Coq Require Import ZArith QArith List Bool Lia.
From Verif Require Import Base_Float Model_Face Model_Mesh Proof_Mesh Spec_Mesh Prop_Mesh Model_Fill Model_FillExec Spec_Fill Model_Solve Spec_Solve Proof_Solve6 Prop_Solve.
From Verif Require Import Prop_SolveInst.
From Verif Require Model_Grid Spec_Grid Prop_Grid Model_Ghost Spec_Ghost Model_Step Spec_Step Prop_Step Model_Advance.
Import ListNotations.
Open Scope Z_scope.

Definition w_torus (two : bool) : world := mkWorld (if two then 2 else 1) 1
  (fun p _ => if two then (if (p =? 0) || (p =? 1) then 2 else 0) else if p =? 0 then 4 else 0)
  (fun _ => 0) (fun _ => 1)
  (fun x f => match f with
    | 0 => Same (pat two (1 - px two x + 2 * py two x)) 1 | 1 => Same (pat two (1 - px two x + 2 * py two x)) 0
    | 2 => Same (pat two (px two x + 2 * (1 - py two x))) 3
    | 3 => Same (pat two (px two x + 2 * (1 - py two x))) 2
    | _ => Edge end)
  (fun x c => let y := pat two (1 - px two x + 2 * (1 - py two x)) in
     if eqb (c / 2 =? 1) (py two x =? 0) && eqb (c mod 2 =? 1) (px two x =? 0) then Inside y else Outside y (3 - c))
  (fun p => if two then match p with 0 => [(1, 0); (1, 1)] | 1 => [(0, 0); (0, 1)] | _ => [] end else []).
Definition geo_torus (two : bool) : geometry :=
  mkGeo (fun x f => match f with 0 => px two x =? 0 | 1 => px two x =? 1 | 2 => py two x =? 0 | _ => py two x =? 1 end) (fun _ _ i => i =? 1).
Definition L_torus (two : bool) : layout := mkLayout 1 1 1 true true (fun x => (px two x, py two x)).
Definition all_torus (two : bool) : list patch := map (pat two) [0; 1; 2; 3].

Definition position_torus (two : bool) (p : Z) (x : patch) : Z :=
  if fst x =? p then snd x else total (w_torus two) p + match lookup (map (fun y => 10 * fst y + snd y) (layer (w_torus two) p)) (10 * fst x + snd x) 0 with Some i => i | None => 0 end.
Definition entries_torus {T} (two : bool) (p k : Z) (f : Z -> Z -> T) : list T := flat_map (fun n => map (f n) (zrange 0 k)) (zrange 0 (total (w_torus two) p)).
Definition dom_torus (two : bool) (p : Z) : domain :=
  let w := w_torus two in
  let n := total w p in
  let g := Z.of_nat (length (layer w p)) in
  mkDom p (procs w) g n
    [mkB 0 0 n [false; false; false; false] (map (fun k => level_of w (p, k)) (zrange 0 n)) (zrange 0 n)] 0 0
    (mkMesh n g (map (fun k => block_of w (p, k)) (zrange 0 n)) (map fst (layer w p))
      (entries_torus two p 4 (fun n f => match face_of w (p, n) f with Edge => n | Same x _ | Coarser x _ _ => position_torus two p x | Finer _ _ => 4 * n + f end))
      (entries_torus two p 4 (fun n f => match face_of w (p, n) f with Edge => f | Same _ rf => rf | Finer _ rf => rf - 8 | Coarser _ s rf => 8 * (s + 1) + rf end))
      (entries_torus two p 4 (fun n f => []))
      (entries_torus two p 4 (fun k c => match corner_of w (p, k) c with NoCorner => -1 | Inside x => position_torus two p x | Outside x rc => n + g + 4 * position_torus two p x + rc | Many _ => n + g + 32 end))
      32 (zrange 0 33) (map (fun q => q / 4) (zrange 0 32)) (map (fun q => q mod 4) (zrange 0 32))
      (map (fun x => mkG (block_of w x) (snd x) (level_of w x)) (layer w p))
      (if two then match p with 0 => [0; 0; 2] | _ => [0; 2; 2] end else [0; 0])).

Lemma w_torus_patch : forall two x, is_patch (w_torus two) x -> In x (all_torus two).
Proof.
  intros two [p n] (H1 & _ & H3). destruct two; cbn [fst snd procs w_torus block_of] in *;
  cases H1; match type of H3 with before ?w ?p _ <= _ < _ => change (before w p 0) with 0 in H3 end;
  match type of H3 with context [count ?w ?p 0] => let v := eval vm_compute in (count w p 0) in change (count w p 0) with v in H3 end; cbn [Z.add] in H3;
  cases H3; vm_compute; tauto.
Qed.
Lemma w_torus_is : forall two x, In x (all_torus two) -> is_patch (w_torus two) x.
Proof. intros two x H. destruct two; vm_compute in H; repeat (destruct H as [<-|H]; [vm_compute; repeat split; congruence|]); contradiction. Qed.
Ltac patches_torus two H := apply w_torus_patch in H; destruct two; vm_compute in H.
Ltac each_torus H tac := repeat (destruct H as [<-|H]); try contradiction; tac.

Lemma w_torus_ok : forall two, world_ok D2 (w_torus two).
Proof.
  intros two. unfold world_ok. split; [vm_compute; congruence|]. split; [destruct two; vm_compute; congruence|].
  split; [intros p b Hp Hb; destruct two; cases Hp; vm_compute; congruence|].
  split; [intros p Hp; destruct two; cases Hp; vm_compute; reflexivity|].
  split; [intros p b k Hp Hb Hk; cases Hb; reflexivity|].
  split.
  { intros x f Hx Hf. patches_torus two Hx; each_torus Hx ltac:(cases Hf; vm_compute; first [exact Logic.I|repeat split; try congruence; intros [E1 E2]; congruence]). }
  split.
  { intros x c Hx Hc. patches_torus two Hx; each_torus Hx ltac:(cases Hc; vm_compute; first [exact Logic.I|repeat split; congruence]). }
  split.
  { intros p x Hp Hx. destruct two; cases Hp; cbn [layer w_torus In] in Hx;
    repeat (destruct Hx as [<-|Hx]; [split; [apply w_torus_is; vm_compute; tauto|vm_compute; congruence]|]); contradiction. }
  { intros p i j x y Hp Hij Hi Hj. destruct (zget_in _ _ _ _ Hi) as [_ Bi]. destruct (zget_in _ _ _ _ Hj) as [_ Bj].
    destruct two; cases Hp; cases Bi; cases Bj; try lia; cbv in Hi, Hj; injection Hi as <-; injection Hj as <-; cbn [fst snd]; lia. }
Qed.

Lemma number_torus : forall two p x, 0 <= p < procs (w_torus two) -> In x (all_torus two) -> number (w_torus two) p x (position_torus two p x).
Proof.
  intros two p x Hp Hx. destruct two; cases Hp; vm_compute in Hx;
  repeat (destruct Hx as [<-|Hx]; [
    first [ left; split; reflexivity
          | right; split; [vm_compute; congruence|]; first [exists 0; split; reflexivity|exists 1; split; reflexivity] ]|]);
  contradiction.
Qed.

Lemma dom_torus_ok : forall two p, 0 <= p < procs (w_torus two) -> represents D2 (w_torus two) p (dom_torus two p) /\ exchange_ok (w_torus two) p (dom_torus two p).
Proof.
  intros two p Hp. split.
  - unfold represents. split; [reflexivity|]. split; [reflexivity|]. split; [reflexivity|]. split; [reflexivity|]. split; [reflexivity|]. split; [reflexivity|].
    split.
    { intros b Hb. cases Hb. eexists. split; [reflexivity|]. cbn [b_num b_before b_offset b_boundary b_levels b_exchange].
      split; [destruct two; cases Hp; reflexivity|]. split; [reflexivity|]. split; [intros _; cbn; lia|].
      split. { intros f k Hf Hk EF. destruct two; cases Hp; vm_compute count in Hk; cases Hk; cases Hf; first [reflexivity|vm_compute in EF; discriminate EF]. }
      split; [intros k Hk; destruct two; cases Hp; vm_compute count in Hk; cases Hk; reflexivity|].
      intros k Hk. apply Proof_Mesh.in_range in Hk. destruct two; cases Hp; exact Hk. }
    split. { intros n Hn. destruct two; cases Hp; cases Hn; reflexivity. }
    split. { intros i x Hi. destruct (zget_in _ _ _ _ Hi) as [_ Bi]. destruct two; cases Hp; cases Bi; cbv in Hi; injection Hi as <-; split; reflexivity. }
    split.
    { intros n f Hn Hf. unfold face_entry.
      assert (forall q x, 0 <= q < procs (w_torus two) -> In x (all_torus two) -> forall id, id = position_torus two q x -> number (w_torus two) q x id) as N3
        by (intros; subst; apply number_torus; assumption).
      destruct two; cases Hp; cases Hn; cases Hf; (eexists; eexists; split; [reflexivity|]; split; [reflexivity|]);
      match goal with |- match ?a with Edge => _ | _ => _ end => let v := eval vm_compute in a in change a with v end; cbv iota;
      first [ split; reflexivity | split; [apply N3; [vm_compute; split; congruence|vm_compute; tauto|reflexivity]|reflexivity] ]. }
    split.
    { intros n c Hn Hc. unfold corner_entry.
      assert (forall q x, 0 <= q < procs (w_torus two) -> In x (all_torus two) -> forall id, id = position_torus two q x -> number (w_torus two) q x id) as N3
        by (intros; subst; apply number_torus; assumption).
      destruct two; cases Hp; cases Hn; cases Hc; (eexists; split; [reflexivity|]);
      match goal with |- match ?a with NoCorner => _ | _ => _ end => let v := eval vm_compute in a in change a with v end; cbv iota;
      first [ reflexivity
            | apply N3; [vm_compute; split; congruence|vm_compute; tauto|reflexivity]
            | match goal with |- exists id o q, _ = _ /\ _ /\ _ /\ _ /\ _ /\ number ?w ?p ?x q /\ zget _ o = Some ?rc =>
                match w with w_torus ?t => let i := eval vm_compute in (position_torus t p x) in let j := eval vm_compute in (4 * i + rc) in exists j, j, i end end;
              split; [reflexivity|]; split; [vm_compute; split; congruence|]; split; [reflexivity|]; split; [reflexivity|]; split; [reflexivity|]; split; [|reflexivity];
              apply N3; [vm_compute; split; congruence|vm_compute; tauto|reflexivity] ]. }
    exists (fun q => match zget (proc_offsets (dmesh (dom_torus two p))) q with Some o => o | None => 0 end).
    split; [destruct two; cases Hp; reflexivity|]. split; [destruct two; cases Hp; reflexivity|].
    split; [intros q Hq; destruct two; cases Hp; cases Hq; vm_compute; congruence|].
    split; [destruct two; cases Hp; reflexivity|].
    intros i x Hi. destruct (zget_in _ _ _ _ Hi) as [_ Bi]. destruct two; cases Hp; cases Bi; cbv in Hi; injection Hi as <-; vm_compute; split; congruence.
  - split; [destruct two; cases Hp; reflexivity|].
    intros r n Hr Hin. destruct two; cases Hp; cases Hr; cbn [layer w_torus In] in Hin;
    repeat (destruct Hin as [Hin|Hin]; [first [discriminate Hin|injection Hin as <-; vm_compute; tauto]|]); contradiction.
Qed.

Lemma forest_torus : forall two, forest_ok (w_torus two) (geo_torus two).
Proof.
  intros two. split; [apply w_torus_ok|]. split; [|split; [|split]].
  - intros x f Hx Hf. patches_torus two Hx; unfold face_symmetric; each_torus Hx ltac:(cases Hf; vm_compute; first [exact Logic.I|repeat split; reflexivity]).
  - intros x c Hx Hc. patches_torus two Hx; unfold corner_symmetric;
    each_torus Hx ltac:(cases Hc; intros P y c' Ed; vm_compute in P; try discriminate P; vm_compute in Ed; try discriminate Ed; injection Ed as <- <-;
      (split; [lia|]; split; [reflexivity|]; split; [reflexivity|]; split; [reflexivity|]; split; [intros _ H; first [split; reflexivity|exfalso; vm_compute in H; congruence]|];
      intros f Hf Hf0; vm_compute in Hf; subst f; first [lia|split; [reflexivity|]; split; [reflexivity|]; eexists; split; [|vm_compute; reflexivity]; reflexivity])).
  - split.
    + intros x f q sub rf Hx Hf Ef. exfalso. patches_torus two Hx; each_torus Hx ltac:(cases Hf; vm_compute in Ef; discriminate Ef).
    + intros x c y c' Hx Hc P Ed L. exfalso. vm_compute in L. discriminate L.
  - intros x f c Hx Hf HC. exfalso. patches_torus two Hx; each_torus Hx ltac:(cases Hf; vm_compute in HC; discriminate HC).
Qed.

Definition sent_torus (two : bool) (p : Z) : list (list Z) := match indirect_begin D2 (dom_torus two p) with Some l => l | None => [] end.
Definition received_torus (two : bool) (r i : Z) : option (list Z) := match zget (layer (w_torus two) r) i with Some (p, n) => zget (sent_torus two p) n | None => None end.
Definition view_torus (two : bool) (r : Z) : view :=
  mkView (dom_torus two r) (match indirect_end D2 (dom_torus two r) (received_torus two r) with Some l => l | None => [] end)
    (fun x f => match gid (w_torus two) r x with Some p => bface (geo_torus two) p f | None => false end)
    (fun _ _ => true)
    (fun l => filter (fun a => level_of (w_torus two) (r, snd a) =? l) (map (fun n => (0, n)) (zrange 0 (count (w_torus two) r 0))))
    false.

Lemma machine_torus : forall two, machine_ok (w_torus two) (geo_torus two) (mkReq 1 1 false) (view_torus two).
Proof.
  intros two. split; [intros x Hx; vm_compute; congruence|].
  intros r Hr. split.
  - unfold view_ok. split; [apply dom_torus_ok; exact Hr|]. split; [reflexivity|]. split; [|split; [|split]].
    + intros l b n. cbn [v_level view_torus]. rewrite filter_In, in_map_iff, Z.eqb_eq. change (nblocks (w_torus two)) with 1. split.
      * intros ((k & Ek & Hk) & EL). injection Ek as <- <-. apply Proof_Mesh.in_range in Hk. cbn [snd] in EL. split; [lia|]. split; [exact Hk|exact EL].
      * intros (Hb & Hn & EL). assert (b = 0) by lia. subst b. split; [|exact EL]. exists n. split; [reflexivity|]. apply Proof_Mesh.in_range. exact Hn.
    + intros x p f Hg. cbn [v_block_face view_torus]. rewrite Hg. reflexivity.
    + destruct (C28_indirect D2 (w_torus two) (dom_torus two) (w_torus_ok two) (dom_torus_ok two)) as [_ X].
      destruct (X (sent_torus two)) with (r := r) (received := received_torus two r) as (data & ED & H).
      * intros p Hp. unfold sent_torus. destruct two; cases Hp; reflexivity.
      * exact Hr.
      * intros i p n Hi. exists n. unfold received_torus. rewrite Hi. split; [|reflexivity]. destruct (zget_in _ _ _ _ Hi) as [_ Bi].
        destruct two; cases Hr; cases Bi; cbv in Hi; injection Hi as <- <-; reflexivity.
      * intros i x f Hi Hf. cbn [v_dom v_indirect view_torus]. rewrite ED. apply (proj1 (H i x Hi) f Hf).
    + intros b n Hb Hn x H. reflexivity.
  - split; [|split; [|split]].
    + intros x f y Hx Ex Hf Hy. patches_torus two Hx; each_torus Hx ltac:(cases Hf; vm_compute in Hy; try contradiction; vm_compute in Ex; subst r y; vm_compute; tauto).
    + intros x c y c' Hx Ex Hc Ed. patches_torus two Hx; each_torus Hx ltac:(cases Hc; vm_compute in Ed; try discriminate Ed; injection Ed as <- <-; vm_compute in Ex; subst r; vm_compute; tauto).
    + intros x f q sub rf Hx Ex Hf Ef. exfalso. patches_torus two Hx; each_torus Hx ltac:(cases Hf; vm_compute in Ef; discriminate Ef).
    + intros x c y c' Hx Ex Hc P Ed L. exfalso. vm_compute in L. discriminate L.
Qed.

Ltac there_torus :=
  try match goal with |- if ?b then _ else _ => let v := eval vm_compute in b in change b with v; cbv iota end;
  lazymatch goal with
  | |- exists y, _ /\ face_of ?w ?x ?f = _ /\ _ => let v := eval vm_compute in (face_of w x f) in lazymatch v with Same ?y _ => exists y end
  | |- exists y, _ /\ diag ?w ?x ?c = _ /\ _ => let v := eval vm_compute in (diag w x c) in lazymatch v with Some (?y, _) => exists y end
  | _ => idtac
  end;
  first [reflexivity|split; [apply w_torus_is; vm_compute; tauto|split; reflexivity]].
Lemma laid_torus : forall two, laid_out (w_torus two) (geo_torus two) (L_torus two).
Proof.
  intros two. split; [vm_compute; split; congruence|]. split; [vm_compute; congruence|]. split; [vm_compute; congruence|].
  intros x Hx. split; [reflexivity|]. split; [patches_torus two Hx; each_torus Hx ltac:(vm_compute; split; congruence)|]. split; [patches_torus two Hx; each_torus Hx ltac:(vm_compute; split; congruence)|]. split.
  - intros f Hf. patches_torus two Hx; each_torus Hx ltac:(cases Hf; (split; [reflexivity|]); cbv zeta; there_torus).
  - intros c Hc. patches_torus two Hx; each_torus Hx ltac:(cases Hc; cbv zeta; intros E; vm_compute in E; first [discriminate E|there_torus]).
Qed.

Definition quad_torus (two : bool) (x : patch) : Model_Face.patch :=
  Model_Face.mkPatch 1 (px two x # 2) (py two x # 2) 0 ((px two x + 1) # 2) ((py two x + 1) # 2) 1.
Definition U_torus (two : bool) : setup :=
  mkSetup (fun x => x) Model_Step.exact (Prop_Step.adv 0 2 2 4 false) (Model_Ghost.mkG d58 2 0 false false None) (fun _ => 1) false false
    (quad_torus two) (fun _ _ => Some 1%Q) (fun _ _ => Some 1%Q) (fun _ => (1 # 16)%Q) (fun _ => (1 # 16)%Q) (fun _ _ => 4).
(** the solution in the cells; [g] in ghost cells and in the memory for ghosts *)
Definition G_torus (two : bool) (g : Q) (r : Z) (x : patch) (ti : bool) : Model_Grid.arr := fun c => let '(i, j, k) := c in
  if (1 <=? i) && (i <=? 8) && (1 <=? j) && (j <=? 8) && (fst x =? r) then Some (u58 (col (L_torus two) 8 x i) (row (L_torus two) 8 x j) k) else Some g.

Lemma setup_torus : forall two, setup_ok (w_torus two) (L_torus two) (U_torus two) (1 # 16) (1 # 16) X58.
Proof.
  intros two. split; [intros q _; reflexivity|]. split; [vm_compute; repeat split; congruence|]. split; [vm_compute; repeat split; congruence|]. split; [left; reflexivity|].
  split; [unfold Prop_Step.usable, Spec_Step.options_ok; cbn; repeat split; try lia; intros; lia|]. split.
  { intros f Hf P. cases Hf; vm_compute in P; discriminate P. }
  intros x Hx. split; [patches_torus two Hx; each_torus Hx ltac:(vm_compute; repeat split; reflexivity)|]. split; [intros k _; discriminate|]. split; [reflexivity|]. split; [reflexivity|].
  intros i j k _ _ _. reflexivity.
Qed.
Lemma has_torus : forall two g, has (w_torus two) (L_torus two) (U_torus two) false u58 (G_torus two g).
Proof.
  intros two g r Hr x Hx. split.
  - intros i j k _. unfold G_torus. destruct ((1 <=? i) && (i <=? 8) && (1 <=? j) && (j <=? 8) && (fst x =? r)); discriminate.
  - intros Ex i j k _ [H|H]; [discriminate|]. change (Model_Grid.mx (Model_Ghost.g_d (s_opts (U_torus two)))) with 8 in *. unfold G_torus. rewrite Ex, Z.eqb_refl.
    destruct (Z.leb_spec 1 i), (Z.leb_spec i 8), (Z.leb_spec 1 j), (Z.leb_spec j 8); try lia. reflexivity.
Qed.
Lemma run_torus : forall two, well_run (w_torus two) (geo_torus two) (L_torus two) (U_torus two) (view_torus two) (1 # 16) (1 # 16) X58.
Proof.
  intros two. split; [apply forest_torus|]. split; [apply machine_torus|]. split; [apply laid_torus|]. split; [apply setup_torus|].
  intros r Hr. destruct two; cases Hr; vm_compute; repeat (apply NoDup_cons; [cbn; intuition congruence|]); apply NoDup_nil.
Qed.

(** the hypotheses of C58_conserved, for one and for two processes; the total is not zero, and a step changes the values *)
Example C58_conserved_instance : forall two sub g,
  well_run (w_torus two) (geo_torus two) (L_torus two) (U_torus two) (view_torus two) (1 # 16) (1 # 16) X58 /\ one_level (L_torus two) (cfg58 sub) /\
  has (w_torus two) (L_torus two) (U_torus two) false u58 (G_torus two g) /\ s_arith (U_torus two) = Model_Step.exact /\ per_x (L_torus two) = true /\ per_y (L_torus two) = true /\
  Spec_Step.flux_difference (s_solver (U_torus two)) 3 (fun ixy q _ _ => Prop_Step.adv_speed ixy * nth 0 q 0)%Q /\ periodic 16 16 X58 /\
  (forall i j, ~ (Spec_Step.capacity (s_solver (U_torus two)) X58 i j == 0)%Q) /\
  (grid_total 16%Z 16%Z (fun i j => u58 i j 2%Z) == 896 # 1)%Q /\
  ~ (evolves arith58 (s_solver (U_torus two)) 3%Z (rect (L_torus two) 8%Z (s_mthbc (U_torus two))) X58 (1 # 16) (1 # 16) (lengths (cfg58 true) steps58) u58 1%Z 1%Z 1%Z == u58 1%Z 1%Z 1%Z)%Q.
Proof.
  intros two sub g. split; [apply run_torus|]. split; [repeat split|]. split; [apply has_torus|]. split; [reflexivity|]. split; [reflexivity|]. split; [reflexivity|].
  split; [|split; [|split; [|split]]].
  - intros ixy ql qr al ar m Hm. cbn [s_solver U_torus Prop_Step.adv Model_Step.rpn Prop_Step.adv_rpn Model_Step.r_amdq Model_Step.r_apdq]. unfold Prop_Step.adv_speed. destruct (ixy =? 1).
    + change (Qminmax.Qmin 1 0) with 0%Q. change (Qminmax.Qmax 1 0) with 1%Q. ring.
    + change (Qminmax.Qmin (1 # 2) 0) with 0%Q. change (Qminmax.Qmax (1 # 2) 0) with (1 # 2)%Q. ring.
  - intros i j k. split; reflexivity.
  - intros i j H. vm_compute in H. discriminate H.
  - vm_compute. reflexivity.
  - destruct two; intros H; apply Qeq_bool_iff in H; vm_compute in H; discriminate H.
Qed.

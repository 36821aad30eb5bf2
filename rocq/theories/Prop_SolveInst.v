(** A uniform mesh of four patches of 8 by 8 cells, periodic in x, open below and with a wall above, on one process or on two, that meets the
    hypotheses of C58; and what happens if ghost cells are not filled at the beginning. *)
From Coq Require Import ZArith QArith List Bool Lia.
From Verif Require Import Base_Float Model_Face Model_Mesh Proof_Mesh Spec_Mesh Prop_Mesh Model_Fill Model_FillExec Spec_Fill Model_Solve Spec_Solve Proof_Solve6 Prop_Solve.
From Verif Require Model_Grid Spec_Grid Prop_Grid Model_Ghost Spec_Ghost Model_Step Spec_Step Prop_Step Model_Advance.
Import ListNotations.
Open Scope Z_scope.

(** [two]: on two processes, the lower two patches on process 0; patches are counted by rows *)
Definition pat (two : bool) (n : Z) : patch := if two then (n / 2, n mod 2) else (0, n).
Definition glob (two : bool) (x : patch) : Z := if two then 2 * fst x + snd x else snd x.
Definition px (two : bool) (x : patch) : Z := glob two x mod 2.
Definition py (two : bool) (x : patch) : Z := glob two x / 2.
Definition w58 (two : bool) : world := mkWorld (if two then 2 else 1) 1
  (fun p _ => if two then (if (p =? 0) || (p =? 1) then 2 else 0) else if p =? 0 then 4 else 0)
  (fun _ => 0) (fun _ => 1)
  (fun x f => match f with
    | 0 => Same (pat two (1 - px two x + 2 * py two x)) 1 | 1 => Same (pat two (1 - px two x + 2 * py two x)) 0
    | 2 => if py two x =? 0 then Edge else Same (pat two (px two x)) 3
    | 3 => if py two x =? 0 then Same (pat two (px two x + 2)) 2 else Edge
    | _ => Edge end)
  (fun x c => if eqb (c / 2 =? 1) (py two x =? 0) then
      let y := pat two (1 - px two x + 2 * (1 - py two x)) in
      if eqb (c mod 2 =? 1) (px two x =? 0) then Inside y else Outside y (3 - c)
    else NoCorner)
  (fun p => if two then match p with 0 => [(1, 0); (1, 1)] | 1 => [(0, 0); (0, 1)] | _ => [] end else []).
Definition geo58 (two : bool) : geometry :=
  mkGeo (fun x f => match f with 0 => px two x =? 0 | 1 => px two x =? 1 | 2 => py two x =? 0 | _ => py two x =? 1 end) (fun _ _ i => i =? 1).
Definition L58 (two : bool) : layout := mkLayout 1 1 1 true false (fun x => (px two x, py two x)).
Definition all58 (two : bool) : list patch := map (pat two) [0; 1; 2; 3].

Definition position58 (two : bool) (p : Z) (x : patch) : Z :=
  if fst x =? p then snd x else total (w58 two) p + match lookup (map (fun y => 10 * fst y + snd y) (layer (w58 two) p)) (10 * fst x + snd x) 0 with Some i => i | None => 0 end.
Definition entries58 {T} (two : bool) (p k : Z) (f : Z -> Z -> T) : list T := flat_map (fun n => map (f n) (zrange 0 k)) (zrange 0 (total (w58 two) p)).
Definition dom58 (two : bool) (p : Z) : domain :=
  let w := w58 two in
  let n := total w p in
  let g := Z.of_nat (length (layer w p)) in
  mkDom p (procs w) g n
    [mkB 0 0 n [false; false; true; true] (map (fun k => level_of w (p, k)) (zrange 0 n)) (zrange 0 n)] 0 0
    (mkMesh n g (map (fun k => block_of w (p, k)) (zrange 0 n)) (map fst (layer w p))
      (entries58 two p 4 (fun n f => match face_of w (p, n) f with Edge => n | Same x _ | Coarser x _ _ => position58 two p x | Finer _ _ => 4 * n + f end))
      (entries58 two p 4 (fun n f => match face_of w (p, n) f with Edge => f | Same _ rf => rf | Finer _ rf => rf - 8 | Coarser _ s rf => 8 * (s + 1) + rf end))
      (entries58 two p 4 (fun n f => []))
      (entries58 two p 4 (fun k c => match corner_of w (p, k) c with NoCorner => -1 | Inside x => position58 two p x | Outside x _ => n + g + position58 two p x | Many _ => n + g + 8 end))
      8 (zrange 0 9) (zrange 0 8)
      (map (fun q => let x := if q <? n then (p, q) else (1 - p, q - n) in px two x + 2 * (1 - py two x)) (zrange 0 8))
      (map (fun x => mkG (block_of w x) (snd x) (level_of w x)) (layer w p))
      (if two then match p with 0 => [0; 0; 2] | _ => [0; 2; 2] end else [0; 0])).

Lemma w58_patch : forall two x, is_patch (w58 two) x -> In x (all58 two).
Proof.
  intros two [p n] (H1 & _ & H3). destruct two; cbn [fst snd procs w58 block_of] in *;
  cases H1; match type of H3 with before ?w ?p _ <= _ < _ => change (before w p 0) with 0 in H3 end;
  match type of H3 with context [count ?w ?p 0] => let v := eval vm_compute in (count w p 0) in change (count w p 0) with v in H3 end; cbn [Z.add] in H3;
  cases H3; vm_compute; tauto.
Qed.
Lemma w58_is : forall two x, In x (all58 two) -> is_patch (w58 two) x.
Proof. intros two x H. destruct two; vm_compute in H; repeat (destruct H as [<-|H]; [vm_compute; repeat split; congruence|]); contradiction. Qed.
Ltac patches58 two H := apply w58_patch in H; destruct two; vm_compute in H.
Ltac each58 H tac := repeat (destruct H as [<-|H]); try contradiction; tac.

Lemma w58_ok : forall two, world_ok D2 (w58 two).
Proof.
  intros two. unfold world_ok. split; [vm_compute; congruence|]. split; [destruct two; vm_compute; congruence|].
  split; [intros p b Hp Hb; destruct two; cases Hp; vm_compute; congruence|].
  split; [intros p Hp; destruct two; cases Hp; vm_compute; reflexivity|].
  split; [intros p b k Hp Hb Hk; cases Hb; reflexivity|].
  split.
  { intros x f Hx Hf. patches58 two Hx; each58 Hx ltac:(cases Hf; vm_compute; first [exact Logic.I|repeat split; try congruence; intros [E1 E2]; congruence]). }
  split.
  { intros x c Hx Hc. patches58 two Hx; each58 Hx ltac:(cases Hc; vm_compute; first [exact Logic.I|repeat split; congruence]). }
  split.
  { intros p x Hp Hx. destruct two; cases Hp; cbn [layer w58 In] in Hx;
    repeat (destruct Hx as [<-|Hx]; [split; [apply w58_is; vm_compute; tauto|vm_compute; congruence]|]); contradiction. }
  { intros p i j x y Hp Hij Hi Hj. destruct (zget_in _ _ _ _ Hi) as [_ Bi]. destruct (zget_in _ _ _ _ Hj) as [_ Bj].
    destruct two; cases Hp; cases Bi; cases Bj; try lia; cbv in Hi, Hj; injection Hi as <-; injection Hj as <-; cbn [fst snd]; lia. }
Qed.

Lemma number58 : forall two p x, 0 <= p < procs (w58 two) -> In x (all58 two) -> number (w58 two) p x (position58 two p x).
Proof.
  intros two p x Hp Hx. destruct two; cases Hp; vm_compute in Hx;
  repeat (destruct Hx as [<-|Hx]; [
    first [ left; split; reflexivity
          | right; split; [vm_compute; congruence|]; first [exists 0; split; reflexivity|exists 1; split; reflexivity] ]|]);
  contradiction.
Qed.

Lemma dom58_ok : forall two p, 0 <= p < procs (w58 two) -> represents D2 (w58 two) p (dom58 two p) /\ exchange_ok (w58 two) p (dom58 two p).
Proof.
  intros two p Hp. split.
  - unfold represents. split; [reflexivity|]. split; [reflexivity|]. split; [reflexivity|]. split; [reflexivity|]. split; [reflexivity|]. split; [reflexivity|].
    split.
    { intros b Hb. cases Hb. eexists. split; [reflexivity|]. cbn [b_num b_before b_offset b_boundary b_levels b_exchange].
      split; [destruct two; cases Hp; reflexivity|]. split; [reflexivity|]. split; [intros _; cbn; lia|].
      split. { intros f k Hf Hk EF. destruct two; cases Hp; vm_compute count in Hk; cases Hk; cases Hf; first [reflexivity|vm_compute in EF; discriminate EF]. }
      split; [intros k Hk; destruct two; cases Hp; vm_compute count in Hk; cases Hk; reflexivity|].
      intros k Hk. apply Proof_Mesh.in_range in Hk. destruct two; cases Hp; exact Hk. }
    split. { intros n Hn. destruct two; cases Hp; cases Hn; reflexivity. }
    split. { intros i x Hi. destruct (zget_in _ _ _ _ Hi) as [_ Bi]. destruct two; cases Hp; cases Bi; cbv in Hi; injection Hi as <-; split; reflexivity. }
    split.
    { intros n f Hn Hf. unfold face_entry.
      assert (forall q x, 0 <= q < procs (w58 two) -> In x (all58 two) -> forall id, id = position58 two q x -> number (w58 two) q x id) as N3
        by (intros; subst; apply number58; assumption).
      destruct two; cases Hp; cases Hn; cases Hf; (eexists; eexists; split; [reflexivity|]; split; [reflexivity|]);
      match goal with |- match ?a with Edge => _ | _ => _ end => let v := eval vm_compute in a in change a with v end; cbv iota;
      first [ split; reflexivity | split; [apply N3; [vm_compute; split; congruence|vm_compute; tauto|reflexivity]|reflexivity] ]. }
    split.
    { intros n c Hn Hc. unfold corner_entry.
      assert (forall q x, 0 <= q < procs (w58 two) -> In x (all58 two) -> forall id, id = position58 two q x -> number (w58 two) q x id) as N3
        by (intros; subst; apply number58; assumption).
      destruct two; cases Hp; cases Hn; cases Hc; (eexists; split; [reflexivity|]);
      match goal with |- match ?a with NoCorner => _ | _ => _ end => let v := eval vm_compute in a in change a with v end; cbv iota;
      first [ reflexivity
            | apply N3; [vm_compute; split; congruence|vm_compute; tauto|reflexivity]
            | match goal with |- exists id o q, _ = _ /\ _ /\ _ /\ _ /\ _ /\ number ?w ?p ?x q /\ _ =>
                match w with w58 ?t => let i := eval vm_compute in (position58 t p x) in exists i, i, i end end;
              split; [reflexivity|]; split; [vm_compute; split; congruence|]; split; [reflexivity|]; split; [reflexivity|]; split; [reflexivity|]; split; [|reflexivity];
              apply N3; [vm_compute; split; congruence|vm_compute; tauto|reflexivity] ]. }
    exists (fun q => match zget (proc_offsets (dmesh (dom58 two p))) q with Some o => o | None => 0 end).
    split; [destruct two; cases Hp; reflexivity|]. split; [destruct two; cases Hp; reflexivity|].
    split; [intros q Hq; destruct two; cases Hp; cases Hq; vm_compute; congruence|].
    split; [destruct two; cases Hp; reflexivity|].
    intros i x Hi. destruct (zget_in _ _ _ _ Hi) as [_ Bi]. destruct two; cases Hp; cases Bi; cbv in Hi; injection Hi as <-; vm_compute; split; congruence.
  - split; [destruct two; cases Hp; reflexivity|].
    intros r n Hr Hin. destruct two; cases Hp; cases Hr; cbn [layer w58 In] in Hin;
    repeat (destruct Hin as [Hin|Hin]; [first [discriminate Hin|injection Hin as <-; vm_compute; tauto]|]); contradiction.
Qed.

Lemma forest58 : forall two, forest_ok (w58 two) (geo58 two).
Proof.
  intros two. split; [apply w58_ok|]. split; [|split; [|split]].
  - intros x f Hx Hf. patches58 two Hx; unfold face_symmetric; each58 Hx ltac:(cases Hf; vm_compute; first [exact Logic.I|repeat split; reflexivity]).
  - intros x c Hx Hc. patches58 two Hx; unfold corner_symmetric;
    each58 Hx ltac:(cases Hc; intros P y c' Ed; vm_compute in P; try discriminate P; vm_compute in Ed; try discriminate Ed; injection Ed as <- <-;
      (split; [lia|]; split; [reflexivity|]; split; [reflexivity|]; split; [reflexivity|]; split; [intros _ H; first [split; reflexivity|exfalso; vm_compute in H; congruence]|];
      intros f Hf Hf0; vm_compute in Hf; subst f; first [lia|split; [reflexivity|]; split; [reflexivity|]; eexists; split; [|vm_compute; reflexivity]; reflexivity])).
  - split.
    + intros x f q sub rf Hx Hf Ef. exfalso. patches58 two Hx; each58 Hx ltac:(cases Hf; vm_compute in Ef; discriminate Ef).
    + intros x c y c' Hx Hc P Ed L. exfalso. vm_compute in L. discriminate L.
  - intros x f c Hx Hf HC. exfalso. patches58 two Hx; each58 Hx ltac:(cases Hf; vm_compute in HC; discriminate HC).
Qed.

Definition sent58 (two : bool) (p : Z) : list (list Z) := match indirect_begin D2 (dom58 two p) with Some l => l | None => [] end.
Definition received58 (two : bool) (r i : Z) : option (list Z) := match zget (layer (w58 two) r) i with Some (p, n) => zget (sent58 two p) n | None => None end.
Definition view58 (two : bool) (r : Z) : view :=
  mkView (dom58 two r) (match indirect_end D2 (dom58 two r) (received58 two r) with Some l => l | None => [] end)
    (fun x f => match gid (w58 two) r x with Some p => bface (geo58 two) p f | None => false end)
    (fun _ _ => true)
    (fun l => filter (fun a => level_of (w58 two) (r, snd a) =? l) (map (fun n => (0, n)) (zrange 0 (count (w58 two) r 0))))
    false.

Lemma machine58 : forall two, machine_ok (w58 two) (geo58 two) (mkReq 1 1 false) (view58 two).
Proof.
  intros two. split; [intros x Hx; vm_compute; congruence|].
  intros r Hr. split.
  - unfold view_ok. split; [apply dom58_ok; exact Hr|]. split; [reflexivity|]. split; [|split; [|split]].
    + intros l b n. cbn [v_level view58]. rewrite filter_In, in_map_iff, Z.eqb_eq. change (nblocks (w58 two)) with 1. split.
      * intros ((k & Ek & Hk) & EL). injection Ek as <- <-. apply Proof_Mesh.in_range in Hk. cbn [snd] in EL. split; [lia|]. split; [exact Hk|exact EL].
      * intros (Hb & Hn & EL). assert (b = 0) by lia. subst b. split; [|exact EL]. exists n. split; [reflexivity|]. apply Proof_Mesh.in_range. exact Hn.
    + intros x p f Hg. cbn [v_block_face view58]. rewrite Hg. reflexivity.
    + destruct (C28_indirect D2 (w58 two) (dom58 two) (w58_ok two) (dom58_ok two)) as [_ X].
      destruct (X (sent58 two)) with (r := r) (received := received58 two r) as (data & ED & H).
      * intros p Hp. unfold sent58. destruct two; cases Hp; reflexivity.
      * exact Hr.
      * intros i p n Hi. exists n. unfold received58. rewrite Hi. split; [|reflexivity]. destruct (zget_in _ _ _ _ Hi) as [_ Bi].
        destruct two; cases Hr; cases Bi; cbv in Hi; injection Hi as <- <-; reflexivity.
      * intros i x f Hi Hf. cbn [v_dom v_indirect view58]. rewrite ED. apply (proj1 (H i x Hi) f Hf).
    + intros b n Hb Hn x H. reflexivity.
  - split; [|split; [|split]].
    + intros x f y Hx Ex Hf Hy. patches58 two Hx; each58 Hx ltac:(cases Hf; vm_compute in Hy; try contradiction; vm_compute in Ex; subst r y; vm_compute; tauto).
    + intros x c y c' Hx Ex Hc Ed. patches58 two Hx; each58 Hx ltac:(cases Hc; vm_compute in Ed; try discriminate Ed; injection Ed as <- <-; vm_compute in Ex; subst r; vm_compute; tauto).
    + intros x f q sub rf Hx Ex Hf Ef. exfalso. patches58 two Hx; each58 Hx ltac:(cases Hf; vm_compute in Ef; discriminate Ef).
    + intros x c y c' Hx Ex Hc P Ed L. exfalso. vm_compute in L. discriminate L.
Qed.

Ltac there58 :=
  try match goal with |- if ?b then _ else _ => let v := eval vm_compute in b in change b with v; cbv iota end;
  lazymatch goal with
  | |- exists y, _ /\ face_of ?w ?x ?f = _ /\ _ => let v := eval vm_compute in (face_of w x f) in lazymatch v with Same ?y _ => exists y end
  | |- exists y, _ /\ diag ?w ?x ?c = _ /\ _ => let v := eval vm_compute in (diag w x c) in lazymatch v with Some (?y, _) => exists y end
  | _ => idtac
  end;
  first [reflexivity|split; [apply w58_is; vm_compute; tauto|split; reflexivity]].
Lemma laid58 : forall two, laid_out (w58 two) (geo58 two) (L58 two).
Proof.
  intros two. split; [vm_compute; split; congruence|]. split; [vm_compute; congruence|]. split; [vm_compute; congruence|].
  intros x Hx. split; [reflexivity|]. split; [patches58 two Hx; each58 Hx ltac:(vm_compute; split; congruence)|]. split; [patches58 two Hx; each58 Hx ltac:(vm_compute; split; congruence)|]. split.
  - intros f Hf. patches58 two Hx; each58 Hx ltac:(cases Hf; (split; [reflexivity|]); cbv zeta; there58).
  - intros c Hc. patches58 two Hx; each58 Hx ltac:(cases Hc; cbv zeta; intros E; vm_compute in E; first [discriminate E|there58]).
Qed.

Definition d58 : Model_Grid.dims := Model_Grid.mkDims 8 8 2 3.
Definition quad58 (two : bool) (x : patch) : Model_Face.patch :=
  Model_Face.mkPatch 1 (px two x # 2) (py two x # 2) 0 ((px two x + 1) # 2) ((py two x + 1) # 2) 1.
(** exact arithmetic *)
Definition arith58 : Model_Step.arith := Model_Step.mkA (fun x y => Qred (x + y)) (fun x y => Qred (x - y)) (fun x y => Qred (x * y)) (fun x y => Qred (x / y)).
(** open below (2), a wall above (3) *)
Definition U58 (two : bool) : setup :=
  mkSetup (fun x => x) arith58 (Prop_Step.adv 0 2 2 4 false) (Model_Ghost.mkG d58 2 0 false false None) (fun f => if f =? 3 then 3 else 1) false false
    (quad58 two) (fun _ _ => Some 1%Q) (fun _ _ => Some 1%Q) (fun _ => (1 # 16)%Q) (fun _ => (1 # 16)%Q) (fun _ _ => 4).
Definition X58 : field := fun _ _ _ => 1%Q.
Definition u58 : field := fun i j k => if (i <=? 8) && (j <=? 8) then inject_Z (i + j + k) else 1%Q.
(** the solution in the cells; [g] in ghost cells and in the memory for ghosts *)
Definition G58 (two : bool) (g : Q) (r : Z) (x : patch) (ti : bool) : Model_Grid.arr := fun c => let '(i, j, k) := c in
  if (1 <=? i) && (i <=? 8) && (1 <=? j) && (j <=? 8) && (fst x =? r) then Some (u58 (col (L58 two) 8 x i) (row (L58 two) 8 x j) k) else Some g.
Definition cfg58 (sub : bool) : Model_Advance.config := Model_Advance.mkCfg 1 1 sub false false 1 1 1.
Definition R58 : rubbish := mkRubbish (fun _ _ _ => None) (fun _ _ _ _ => None).
Definition steps58 : list (Q * Q) := [(0%Q, (1 # 32)%Q)].

Lemma setup58 : forall two, setup_ok (w58 two) (L58 two) (U58 two) (1 # 16) (1 # 16) X58.
Proof.
  intros two. split; [intros q _; reflexivity|]. split; [vm_compute; repeat split; congruence|]. split; [vm_compute; repeat split; congruence|]. split; [left; reflexivity|].
  split; [unfold Prop_Step.usable, Spec_Step.options_ok; cbn; repeat split; try lia; intros; lia|]. split.
  { intros f Hf P. cases Hf; vm_compute in P; try discriminate P; vm_compute; [left; reflexivity|right; split; congruence]. }
  intros x Hx. split; [patches58 two Hx; each58 Hx ltac:(vm_compute; repeat split; reflexivity)|]. split; [intros k _; discriminate|]. split; [reflexivity|]. split; [reflexivity|].
  intros i j k _ _ _. reflexivity.
Qed.
Lemma has58 : forall two g, has (w58 two) (L58 two) (U58 two) false u58 (G58 two g).
Proof.
  intros two g r Hr x Hx. split.
  - intros i j k _. unfold G58. destruct ((1 <=? i) && (i <=? 8) && (1 <=? j) && (j <=? 8) && (fst x =? r)); discriminate.
  - intros Ex i j k _ [H|H]; [discriminate|]. change (Model_Grid.mx (Model_Ghost.g_d (s_opts (U58 two)))) with 8 in *. unfold G58. rewrite Ex, Z.eqb_refl.
    destruct (Z.leb_spec 1 i), (Z.leb_spec i 8), (Z.leb_spec 1 j), (Z.leb_spec j 8); try lia. reflexivity.
Qed.
Lemma run58 : forall two, well_run (w58 two) (geo58 two) (L58 two) (U58 two) (view58 two) (1 # 16) (1 # 16) X58.
Proof.
  intros two. split; [apply forest58|]. split; [apply machine58|]. split; [apply laid58|]. split; [apply setup58|].
  intros r Hr. destruct two; cases Hr; vm_compute; repeat (apply NoDup_cons; [cbn; intuition congruence|]); apply NoDup_nil.
Qed.

(** the hypotheses of C58_one_grid, for one and for two processes *)
Example C58_instance : forall two sub g, well_run (w58 two) (geo58 two) (L58 two) (U58 two) (view58 two) (1 # 16) (1 # 16) X58 /\ one_level (L58 two) (cfg58 sub) /\
  has (w58 two) (L58 two) (U58 two) false u58 (G58 two g).
Proof. intros two sub g. split; [apply run58|]. split; [repeat split|apply has58]. Qed.

(** after one fill: the ghost cell to the left of patch 0 has the value of patch 1, the one above patch 3 the mirror image with the third
    component turned; the same on one process and on two; after a step, cell (1, 1) has a new value *)
Definition look (two : bool) (n : Z) (c : Z * Z * Z) : option Q :=
  let x := pat two n in
  Model_Mesh.bind (solve (w58 two) (view58 two) (U58 two) true true R58 (cfg58 true) (fun _ _ _ => 0%Q) [] (G58 two 7)) (fun G => option_map Qred (G (fst x) x false c)).
Example C58_instance_values : forall two,
  look two 0 (0, 1, 1) = Some 1%Q /\ look two 1 (9, 3, 2) = Some 6%Q /\ look two 2 (0, 0, 1) = Some 1%Q /\ look two 3 (9, 10, 3) = Some (-1)%Q /\ look two 2 (8, -1, 1) = Some 16%Q /\
  (let B := rect (L58 two) 8%Z (s_mthbc (U58 two)) in ~ (evolves arith58 (s_solver (U58 two)) 3%Z B X58 (1 # 16) (1 # 16) (lengths (cfg58 true) steps58) u58 1%Z 1%Z 1%Z == u58 1%Z 1%Z 1%Z))%Q.
Proof. intros two. destruct two; (do 5 (split; [vm_compute; reflexivity|])); cbv zeta; intros H; apply Qeq_bool_iff in H; vm_compute in H; discriminate H. Qed.

(** The option init_ghostcell is off by default.  Then the first step uses what initialization has left in the ghost cells: here 7. *)
Definition found (x : patch) : field := fun i j k => if (1 <=? i) && (i <=? 8) && (1 <=? j) && (j <=? 8) then u58 (col (L58 true) 8 x i) (row (L58 true) 8 x j) k else 7%Q.
Definition got (dt : Q) : field := fun i j k =>
  let x := pat true ((i - 1) / 8 + 2 * ((j - 1) / 8)) in local_step (L58 true) (U58 true) (1 # 16) (1 # 16) X58 dt x (found x) ((i - 1) mod 8 + 1) ((j - 1) mod 8 + 1) k.
Theorem C58_ghosts_not_filled_refuted : exists w geo L U views dx dy X cfg u G, well_run w geo L U views dx dy X /\ one_level L cfg /\ has w L U false u G /\
  let dt := (1 # 32)%Q in
  forall async R cfl t, exists G' x i j k v, solve w views U false async R cfg cfl [(t, dt)] G = Some G' /\
    is_patch w x /\ 1 <= i <= msize U /\ 1 <= j <= msize U /\ 1 <= k <= ncomp U /\
    G' (fst x) x false (i, j, k) = Some v /\
    let B := rect L (msize U) (s_mthbc U) in
    ~ (v == evolves (s_arith U) (s_solver U) (ncomp U) B X dx dy (lengths cfg [(t, dt)]) u (col L (msize U) x i) (row L (msize U) x j) k)%Q.
Proof.
  exists (w58 true), (geo58 true), (L58 true), (U58 true), (view58 true), (1 # 16)%Q, (1 # 16)%Q, X58, (cfg58 true), u58, (G58 true 7).
  destruct (C58_instance true true 7) as (W & O & H). split; [exact W|]. split; [exact O|]. split; [exact H|].
  cbv zeta. intros async R cfl t. destruct W as (F & M & LA & S & ON).
  destruct (events (L58 true) (cfg58 true) cfl t (1 # 32)%Q O) as (t' & c & EV).
  destruct (step_any (w58 true) (geo58 true) (L58 true) (U58 true) (1 # 16) (1 # 16) X58 (view58 true) F M LA S ON found (1 # 32)%Q (r_work R t) (G58 true 7)) as (G1 & E1 & V1).
  { intros r Hr x Hx. split.
    - intros [[i j] k] HI. apply (proj1 (H r Hr x Hx) i j k HI).
    - intros Ex i j k _. unfold G58, found. rewrite Ex, Z.eqb_refl, andb_true_r. destruct ((1 <=? i) && (i <=? 8) && (1 <=? j) && (j <=? 8)); reflexivity. }
  destruct (fill_all (w58 true) (geo58 true) (L58 true) (U58 true) (1 # 16) (1 # 16) X58 (view58 true) F M LA S (got (1 # 32)) async (r_buffer R t') G1) as (G2 & E2 & V2).
  { intros r Hr x Hx. destruct (V1 r Hr x Hx) as [A1 A2]. split; [intros i j k HI; exact (A1 (i, j, k) HI)|].
    intros Ex i j k HI [HF|HC]; [discriminate|]. rewrite (A2 Ex i j k HI HC). f_equal.
    change (Model_Grid.mx (Model_Ghost.g_d (s_opts (U58 true)))) with 8 in *. unfold got.
    assert ((col (L58 true) 8 x i - 1) / 8 = px true x /\ (col (L58 true) 8 x i - 1) mod 8 = i - 1) as [C1 C2].
    { unfold col. cbn [L58 pos fst]. replace (px true x * 8 + i - 1) with ((i - 1) + px true x * 8) by lia. rewrite Z.div_add, Z_mod_plus_full by lia. rewrite Z.div_small, Z.mod_small by lia. lia. }
    assert ((row (L58 true) 8 x j - 1) / 8 = py true x /\ (row (L58 true) 8 x j - 1) mod 8 = j - 1) as [C3 C4].
    { unfold row. cbn [L58 pos snd]. replace (py true x * 8 + j - 1) with ((j - 1) + py true x * 8) by lia. rewrite Z.div_add, Z_mod_plus_full by lia. rewrite Z.div_small, Z.mod_small by lia. lia. }
    rewrite C1, C2, C3, C4, !Z.sub_add.
    assert (pat true (px true x + 2 * py true x) = x) as ->; [|reflexivity]. apply w58_patch in Hx. vm_compute in Hx. repeat (destruct Hx as [<-|Hx]; [reflexivity|]). contradiction. }
  assert (P0 : is_patch (w58 true) (0, 0)) by (vm_compute; repeat split; congruence).
  exists G2, (0, 0), 1, 1, 1. eexists. split.
  { unfold solve. cbn [Model_Mesh.bind advances]. unfold advance. rewrite EV. cbn [Model_Mesh.bind acts act]. change (taken (cfg58 true) (1 # 32)) with (1 # 32)%Q. rewrite E1. cbn [Model_Mesh.bind]. rewrite E2. reflexivity. }
  split; [exact P0|]. split; [vm_compute; split; congruence|]. split; [vm_compute; split; congruence|]. split; [vm_compute; split; congruence|]. split.
  { apply (proj2 (V2 0 (proj1 P0) (0, 0) P0) eq_refl 1 1 1); [reflexivity|left; reflexivity]. }
  intros HE. apply Qeq_bool_iff in HE. vm_compute in HE. discriminate HE.
Qed.
Print Assumptions C58_ghosts_not_filled_refuted.

(** Searching points and integrating along rays: src/fclaw2d_convenience.c:932-1282 (2D and, compiled with
    P4_TO_P8, 3D).

    p4est_search_local (external) is modelled as a recursion over a search tree for each block with local
    patches; which branch quadrants it asks about and in which order is left open (Spec_Search.search_tree_of).
    A failed FCLAW_ASSERT or an index out of range is [None].  Point coordinates are finite numbers. *)
From Coq Require Import ZArith QArith List Bool.
From Verif Require Import Base_Float Model_Face Model_Domain.
Import ListNotations.
Open Scope Z_scope.

Definition bind {A B} (x : option A) (f : A -> option B) : option B := match x with Some a => f a | None => None end.
Definition check {A} (b : bool) (x : option A) : option A := if b then x else None.
Definition zget {A} (l : list A) (i : Z) : option A := if i <? 0 then None else nth_error l (Z.to_nat i).
Fixpoint put {A} (l : list A) (i : nat) (v : A) : option (list A) :=
  match l, i with [], _ => None | _ :: l, O => Some (v :: l) | x :: l, S i => bind (put l i v) (fun l => Some (x :: l)) end.
Definition zput {A} (l : list A) (i : Z) (v : A) : option (list A) := if i <? 0 then None else put l (Z.to_nat i) v.

(** ** p4est_search_local (external) *)
Inductive stree := Leaf (q : quad) (local_num : Z) | Node (q : quad) (children : list stree).
Section Recursion.
  Variables St P : Type.
  (** callback: tree number, quadrant, local number (-1: not a leaf), point *)
  Variable fn : Z -> quad -> Z -> P -> St -> option (bool * St).
  (** ask all active points; the ones with a match stay active *)
  Fixpoint ask (tree : Z) (q : quad) (num : Z) (pts : list P) (st : St) : option (list P * St) :=
    match pts with
    | [] => Some ([], st)
    | pt :: pts => bind (fn tree q num pt st) (fun '(m, st) =>
                   bind (ask tree q num pts st) (fun '(act, st) => Some (if (m : bool) then pt :: act else act, st)))
    end.
  Fixpoint search (tree : Z) (t : stree) (pts : list P) (st : St) : option St :=
    match t with
    | Leaf q num => bind (ask tree q num pts st) (fun '(_, st) => Some st)
    | Node q ch => bind (ask tree q (-1) pts st) (fun '(act, st) =>
        (fix children (ch : list stree) (st : St) : option St :=
           match ch with [] => Some st | t :: ch => bind (search tree t act st) (children ch) end) ch st)
    end.
  Fixpoint search_local (tree : Z) (forest : list (option stree)) (pts : list P) (st : St) : option St :=
    match forest with
    | [] => Some st
    | None :: forest => search_local (tree + 1) forest pts st
    | Some t :: forest => bind (search tree t pts st) (search_local (tree + 1) forest pts)
    end.
End Recursion.

(** fclaw2d_domain_t of one process: blocks with the number of local patches before and the local patches *)
Record block := mkB { b_before : Z; b_patches : list quad }.
Record point := mkPt { pt_x : Q; pt_y : Q; pt_z : Q }.

Definition Qltb (a b : Q) : bool := negb (Qle_bool b a).

Section Search.
  Variable rnd : Q -> Q.
  Variable d : dim.

  (** fclaw2d_convenience.c:976-1004: the point lies outside the quadrant in one coordinate *)
  Definition outside (x : Q) (c qh : Z) : bool := Qltb x (coord rnd d c) || Qltb (coord rnd d (c + qh)) x.

  (** fclaw2d_convenience.c:940-1041 search_point_fn; the point is (block, index) *)
  Definition search_point_fn (blocks : list block) (coordinates : list point)
      (which_tree : Z) (q : quad) (local_num : Z) (entry : Z * Z) (results : list Z) : option (bool * list Z) :=
    let '(jb, ip) := entry in
    if negb (jb =? which_tree) then Some (false, results) else
    bind (zget coordinates ip) (fun pt =>
    let qh := quadrant_len d (q_level q) in
    if outside (pt_x pt) (q_x q) qh then Some (false, results) else
    if outside (pt_y pt) (q_y q) qh then Some (false, results) else
    if match d with D2 => false | D3 => outside (pt_z pt) (q_z q) qh end then Some (false, results) else
    if local_num <? 0 then check (local_num =? -1) (Some (true, results)) else
    bind (zget blocks jb) (fun b =>
    let now := local_num - b_before b in
    bind (zget (b_patches b) now) (fun patch =>
    let ph := quadrant_len d (q_level patch) in
    check (negb (outside (pt_x pt) (q_x patch) ph)) (
    check (negb (outside (pt_y pt) (q_y patch) ph)) (
    check (match d with D2 => true | D3 => negb (outside (pt_z pt) (q_z patch) ph) end) (
    bind (zget results ip) (fun earlier =>
    check ((-1 <=? earlier) && (earlier <? Z.of_nat (length (b_patches b)))) (
    let now := if 0 <=? earlier then Z.min earlier now else now in
    if now =? earlier then Some (true, results)
    else check ((earlier =? -1) || (now <? earlier))
         (bind (zput results ip now) (fun results => Some (true, results))))))))))).

  (** fclaw2d_convenience.c:1088-1108: block and number of each point *)
  Fixpoint range (from n : nat) : list Z := match n with O => [] | S n => Z.of_nat from :: range (S from) n end.
  Fixpoint make_points (jb pbegin : Z) (offsets : list Z) : option (list (Z * Z) * Z) :=
    match offsets with
    | [] => Some ([], pbegin)
    | pend :: offsets =>
        check (pbegin <=? pend) (
        bind (make_points (jb + 1) pend offsets) (fun '(l, last) =>
        Some (map (fun ip => (jb, ip)) (range (Z.to_nat pbegin) (Z.to_nat (pend - pbegin))) ++ l, last)))
    end.

  (** fclaw2d_convenience.c:1064-1124: the part of fclaw2d_domain_search_points before the communication *)
  Definition search_before (blocks : list block) (forest : list (option stree)) (offsets : list Z) (coordinates : list point) : option (list Z) :=
    check (Nat.eqb (S (length blocks)) (length offsets)) (
    bind (zget offsets 0) (fun o0 =>
    check (o0 =? 0) (
    bind (zget offsets (Z.of_nat (length blocks))) (fun num_points =>
    check (num_points =? Z.of_nat (length coordinates)) (
    let results := repeat (-1) (length coordinates) in
    bind (make_points 0 0 (tl offsets)) (fun '(points, pbegin) =>
    check (pbegin =? num_points) (
    search_local (list Z) (Z * Z) (search_point_fn blocks coordinates) 0 forest points results))))))).

  (** fclaw2d_convenience.c:1126-1148: the lowest process that found the point keeps it *)
  Definition found (mpisize mpirank : Z) (res : Z) : Z := if res <? 0 then mpisize else mpirank.
  Definition allreduce_min (l : list Z) (top : Z) : Z := fold_right Z.min top l.
  Definition keep (mpirank : Z) (buffer : Z) (res : Z) : Z := if buffer =? mpirank then res else -1.

  (** fclaw2d_domain_search_points on all processes: (blocks, search trees) of each process *)
  Fixpoint mapM {A B} (f : A -> option B) (l : list A) : option (list B) :=
    match l with [] => Some [] | x :: l => bind (f x) (fun y => bind (mapM f l) (fun ys => Some (y :: ys))) end.
  Definition number {A} (l : list A) : list (Z * A) := combine (map Z.of_nat (seq 0 (length l))) l.
  Definition search_points (procs : list (list block * list (option stree))) (offsets : list Z) (coordinates : list point) : option (list (list Z)) :=
    let size := Z.of_nat (length procs) in
    bind (mapM (fun '(b, f) => search_before b f offsets coordinates) procs) (fun res =>
    let founds := map (fun '(rank, r) => map (found size rank) r) (number res) in
    let buffer := map (fun ip => allreduce_min (map (fun f => nth ip f size) founds) size) (seq 0 (length coordinates)) in
    Some (map (fun '(rank, r) => map (fun '(b, x) => keep rank b x) (combine buffer r)) (number res))).

  (** ** Ray integrals *)
  Variable ray : Type.
  (** user callback integrate_ray: patch (bounds, level and flags are functions of the quadrant), block number,
      patch number (-1: not a leaf), ray; returns whether there may be an intersection, and the integral *)
  Variable integrate_ray : quad -> Z -> Z -> ray -> bool * Q.

  (** fclaw2d_convenience.c:1167-1223 integrate_ray_fn; the point is the index of the ray *)
  Definition integrate_ray_fn (blocks : list block) (rays : list ray)
      (which_tree : Z) (q : quad) (local_num : Z) (i : Z) (lints : list Q) : option (bool * list Q) :=
    bind (zget rays i) (fun r =>
    if 0 <=? local_num then
      bind (zget blocks which_tree) (fun b =>
      let patchno := local_num - b_before b in
      bind (zget (b_patches b) patchno) (fun patch =>
      let '(intersects, integral) := integrate_ray patch which_tree patchno r in
      bind (zget lints i) (fun s =>
      bind (zput lints i (s + integral)%Q) (fun lints => Some (intersects, lints)))))
    else
      let '(intersects, _) := integrate_ray q which_tree (-1) r in Some (intersects, lints)).

  (** fclaw2d_convenience.c:1225-1282 fclaw2d_domain_integrate_rays on all processes; the integrals are exact sums *)
  Definition integrate_local (blocks : list block) (forest : list (option stree)) (rays : list ray) : option (list Q) :=
    search_local (list Q) Z (integrate_ray_fn blocks rays) 0 forest (range 0 (length rays)) (repeat 0%Q (length rays)).
  Definition allreduce_sum (l : list Q) : Q := fold_right Qplus 0%Q l.
  Definition integrate_rays (procs : list (list block * list (option stree))) (rays : list ray) : option (list Q) :=
    bind (mapM (fun '(b, f) => integrate_local b f rays) procs) (fun res =>
    Some (map (fun i => allreduce_sum (map (fun r => nth i r 0%Q) res)) (seq 0 (length rays)))).
End Search.

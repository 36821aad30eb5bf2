(** Loops over arrays; the mesh points. *)
From Coq Require Import ZArith Reals List Bool Lia Lra.
From Verif Require Import Model_Map Model_Grid Spec_Map Model_Metric Spec_Metric.
Import ListNotations.
Open Scope R_scope.

Lemma loop_inv : forall {S} (I : Z -> S -> Prop) f lo hi s, (lo <= hi + 1)%Z -> I lo s ->
  (forall k s, (lo <= k <= hi)%Z -> I k s -> exists s', f k s = Some s' /\ I (k + 1)%Z s') -> exists s', loop lo hi f s = Some s' /\ I (hi + 1)%Z s'.
Proof.
  intros S I f lo hi s H. unfold loop. remember (Z.to_nat (hi - lo + 1)) as n eqn:E. revert lo s H E.
  induction n as [|n IH]; intros lo s H E HI HS; cbn [loop_n].
  - exists s. split; [reflexivity|]. replace (hi + 1)%Z with lo by lia. exact HI.
  - destruct (HS lo s ltac:(lia) HI) as (s' & -> & HI'). cbn [bind]. apply IH; [lia|lia|exact HI'|]. intros k t Hk. apply HS. lia.
Qed.
Lemma loop_empty : forall {S} f lo hi (s : S), (hi < lo)%Z -> loop lo hi f s = Some s.
Proof. intros S f lo hi s H. unfold loop. replace (Z.to_nat (hi - lo + 1)) with O by lia. reflexivity. Qed.

(** One loop, then two loops, that write one element at a time. *)
Lemma fill1 : forall {S X} (view : S -> Z -> X) (w : Z -> X) (skip : Z -> bool) (f : Z -> S -> option S) lo hi,
  (forall b s, (lo <= b <= hi)%Z -> exists s', f b s = Some s' /\ forall y, view s' y = if ((y =? b)%Z && negb (skip b)) then w b else view s y) ->
  forall s0, exists s', loop lo hi f s0 = Some s' /\
    forall y, view s' y = if ((lo <=? y)%Z && (y <=? hi)%Z && negb (skip y)) then w y else view s0 y.
Proof.
  intros S X view w skip f lo hi H s0. destruct (Z_lt_le_dec hi lo) as [L|L].
  - exists s0. split; [apply loop_empty; exact L|]. intros y. destruct (Z.leb_spec lo y), (Z.leb_spec y hi); cbn [andb]; try reflexivity. lia.
  - destruct (loop_inv (fun k s => forall y, view s y = if ((lo <=? y)%Z && (y <? k)%Z && negb (skip y)) then w y else view s0 y) f lo hi s0) as (s' & E & V).
    + lia.
    + intros y. destruct (Z.leb_spec lo y), (Z.ltb_spec y lo); cbn [andb]; try reflexivity. lia.
    + intros k s Hk V. destruct (H k s Hk) as (s' & E & V'). exists s'. split; [exact E|]. intros y. rewrite V', V.
      destruct (Z.eqb_spec y k) as [->|N]; cbn [andb].
      * destruct (Z.leb_spec lo k); [|lia]. destruct (Z.ltb_spec k (k + 1)); [|lia]. cbn [andb]. destruct (Z.ltb_spec k k); [lia|]. cbn [andb].
        destruct (negb (skip k)); reflexivity.
      * destruct (Z.ltb_spec y k), (Z.ltb_spec y (k + 1)); try lia; reflexivity.
    + exists s'. split; [exact E|]. intros y. rewrite V. destruct (Z.ltb_spec y (hi + 1)), (Z.leb_spec y hi); try lia; reflexivity.
Qed.
Lemma fill : forall {S X} (view : S -> Z -> Z -> X) (w : Z -> Z -> X) (skip : Z -> Z -> bool) (f : Z -> Z -> S -> option S) lo1 hi1 lo2 hi2,
  (forall a b s, (lo1 <= a <= hi1)%Z -> (lo2 <= b <= hi2)%Z ->
    exists s', f a b s = Some s' /\ forall x y, view s' x y = if ((x =? a)%Z && (y =? b)%Z && negb (skip a b)) then w a b else view s x y) ->
  forall s0, exists s', loop lo1 hi1 (fun a => loop lo2 hi2 (f a)) s0 = Some s' /\
    forall x y, view s' x y = if ((lo1 <=? x)%Z && (x <=? hi1)%Z && (lo2 <=? y)%Z && (y <=? hi2)%Z && negb (skip x y)) then w x y else view s0 x y.
Proof.
  intros S X view w skip f lo1 hi1 lo2 hi2 H s0. destruct (Z_lt_le_dec hi1 lo1) as [L|L].
  - exists s0. split; [apply loop_empty; exact L|]. intros x y. destruct (Z.leb_spec lo1 x), (Z.leb_spec x hi1); cbn [andb]; try reflexivity. lia.
  - destruct (loop_inv (fun k s => forall x y, view s x y = if ((lo1 <=? x)%Z && (x <? k)%Z && (lo2 <=? y)%Z && (y <=? hi2)%Z && negb (skip x y)) then w x y else view s0 x y)
                (fun a => loop lo2 hi2 (f a)) lo1 hi1 s0) as (s' & E & V).
    + lia.
    + intros x y. destruct (Z.leb_spec lo1 x), (Z.ltb_spec x lo1); cbn [andb]; try reflexivity. lia.
    + intros k s Hk V.
      destruct (loop_inv (fun m s' => forall x y, view s' x y = if ((x =? k)%Z && (lo2 <=? y)%Z && (y <? m)%Z && negb (skip x y)) then w x y else view s x y)
                  (f k) lo2 (Z.max hi2 (lo2 - 1)) s) as (s' & E & V').
      * lia.
      * intros x y. destruct (x =? k)%Z; cbn [andb]; [|reflexivity]. destruct (Z.leb_spec lo2 y), (Z.ltb_spec y lo2); cbn [andb]; try reflexivity. lia.
      * intros m t Hm VT. destruct (H k m t Hk ltac:(lia)) as (t' & E & VT'). exists t'. split; [exact E|]. intros x y. rewrite VT', VT.
        destruct (Z.eqb_spec x k) as [->|N]; cbn [andb]; [|reflexivity]. destruct (Z.eqb_spec y m) as [->|N]; cbn [andb].
        -- destruct (Z.leb_spec lo2 m); [|lia]. destruct (Z.ltb_spec m (m + 1)); [|lia]. destruct (Z.ltb_spec m m); [lia|]. cbn [andb]. destruct (negb (skip k m)); reflexivity.
        -- destruct (Z.ltb_spec y m), (Z.ltb_spec y (m + 1)); try lia; reflexivity.
      * exists s'. split.
        { destruct (Z_lt_le_dec hi2 (lo2 - 1)) as [L2|L2]; [|replace (Z.max hi2 (lo2 - 1)) with hi2 in E by lia; exact E].
          rewrite loop_empty by lia. rewrite loop_empty in E by lia. exact E. }
        intros x y. rewrite V', V. destruct (Z.eqb_spec x k) as [->|N]; cbn [andb].
        -- destruct (Z.leb_spec lo1 k); [|lia]. destruct (Z.ltb_spec k (k + 1)); [|lia]. destruct (Z.ltb_spec k k); [lia|]. cbn [andb].
           destruct (Z.leb_spec lo2 y), (Z.leb_spec y hi2), (Z.ltb_spec y (Z.max hi2 (lo2 - 1) + 1)); try lia; reflexivity.
        -- destruct (Z.ltb_spec x k), (Z.ltb_spec x (k + 1)); try lia; reflexivity.
    + exists s'. split; [exact E|]. intros x y. rewrite V. destruct (Z.ltb_spec x (hi1 + 1)), (Z.leb_spec x hi1); try lia; reflexivity.
Qed.

(** run the two loops of the goal: first the body, then the rest *)
Ltac run_fill view w skip s V :=
  match goal with |- context [loop ?a ?b (fun i => loop ?c ?d (@?F i)) ?s0] =>
    let H := fresh in let E := fresh in
    assert (H : forall i j t, (a <= i <= b)%Z -> (c <= j <= d)%Z ->
      exists t', F i j t = Some t' /\ forall x y, view t' x y = if ((x =? i)%Z && (y =? j)%Z && negb (skip i j)) then w i j else view t x y);
    [cbv beta|destruct (fill view w skip F a b c d H s0) as (s & E & V); cbv beta in E, V; rewrite E; clear H E]
  end.

Lemma same_pair : forall a b c d, same (a, b) (c, d) = ((a =? c)%Z && (b =? d)%Z).
Proof. reflexivity. Qed.
Lemma put_ok : forall {A} bounds c (v : A) a, bounds c = true -> put bounds c v a = Some (fun k => if same k c then Some v else a k).
Proof. intros A bounds c v a H. unfold put. rewrite H. reflexivity. Qed.
Lemma in_p_ok : forall p i j, in_p p (i, j) = true <-> cell_index p i j.
Proof.
  intros p i j. unfold in_p, cell_index. cbn [fst snd]. rewrite !andb_true_iff, !Z.leb_le. tauto.
Qed.
Lemma in_d_ok : forall p i j, in_d p (i, j) = true <-> node_index p i j.
Proof.
  intros p i j. unfold in_d, node_index. cbn [fst snd]. rewrite !andb_true_iff, !Z.leb_le. tauto.
Qed.
Lemma get_p : forall {A} p i j (a : grid A), cell_index p i j -> get (in_p p) (i, j) a = a (i, j).
Proof. intros A p i j a H. unfold get. rewrite (proj2 (in_p_ok p i j) H). reflexivity. Qed.
Lemma get_d : forall {A} p i j (a : grid A), node_index p i j -> get (in_d p) (i, j) a = a (i, j).
Proof. intros A p i j a H. unfold get. rewrite (proj2 (in_d_ok p i j) H). reflexivity. Qed.

(** Points: the componentwise operations of the model are the vector operations of the reference. *)
Lemma minus_sub : forall u v, minus u v = sub u v. Proof. intros [[a b] c] [[x y] z]. reflexivity. Qed.
Lemma plus_add : forall u v, plus u v = add u v. Proof. intros [[a b] c] [[x y] z]. reflexivity. Qed.
Lemma times_scale : forall s v, times s v = scale s v. Proof. intros s [[x y] z]. reflexivity. Qed.
Lemma inner_dot : forall u v, inner u v = dot u v. Proof. intros [[a b] c] [[x y] z]. reflexivity. Qed.

Section Mesh.
  Variable c2m : Z -> R -> R -> point.
  Variable p : mpatch.
  Hypothesis HB : (0 <= pmbc p)%Z.
  Hypothesis HX : (0 <= pmx p)%Z.
  Hypothesis HY : (0 <= pmy p)%Z.

  Definition mview (s : grid point * grid point) (i j : Z) : option point :=
    if Z.odd i then (if Z.odd j then snd s ((i + 1) / 2, (j + 1) / 2)%Z else None)
    else (if Z.odd j then None else fst s (i / 2, j / 2)%Z).
  Lemma rem_odd : forall i, Z.abs (Z.rem i 2) = if Z.odd i then 1%Z else 0%Z.
  Proof.
    intros i. pose proof (Z.rem_bound_abs i 2 ltac:(lia)) as B. pose proof (Z.quot_rem i 2 ltac:(lia)) as E.
    destruct (Z.odd i) eqn:O.
    - apply Z.odd_spec in O. destruct O as [k ->]. lia.
    - assert (Ev : Z.even i = true) by (rewrite <- Z.negb_odd, O; reflexivity). apply Z.even_spec in Ev. destruct Ev as [k ->]. lia.
  Qed.
  Lemma quot_even : forall k, Z.quot (2 * k) 2 = k.
  Proof. intros k. rewrite Z.mul_comm. apply Z.quot_mul. lia. Qed.
  Lemma div_even : forall k, (2 * k / 2 = k)%Z.
  Proof. intros k. rewrite Z.mul_comm. apply Z.div_mul. lia. Qed.

  Lemma mesh_ok : forall s0, exists s, compute_mesh c2m p s0 = Some s /\
    (forall i j, cell_index p i j -> fst s (i, j) = Some (centre (c2m (pblock p)) p i j)) /\
    (forall i j, node_index p i j -> snd s (i, j) = Some (node (c2m (pblock p)) p i j)).
  Proof.
    intros s0. unfold compute_mesh. cbv zeta.
    run_fill mview (fun i j => Some (c2m (pblock p) (xlower p + IZR (i - 1) * (pdx p / 2)) (ylower p + IZR (j - 1) * (pdy p / 2)))) (fun i j => negb (Bool.eqb (Z.odd i) (Z.odd j))) s V.
    - intros i j s Hi Hj. rewrite !rem_odd. destruct (Z.odd i) eqn:Oi, (Z.odd j) eqn:Oj; cbn [Z.eqb Pos.eqb negb Bool.eqb andb].
      + apply Z.odd_spec in Oi, Oj. destruct Oi as [k ->], Oj as [l ->]. replace (2 * k + 1 - 1)%Z with (2 * k)%Z by ring. replace (2 * l + 1 - 1)%Z with (2 * l)%Z by ring. rewrite !quot_even.
        rewrite put_ok by (apply in_d_ok; unfold node_index; lia). cbn [bind]. eexists. split; [reflexivity|]. intros x y. unfold mview. cbn [fst snd]. rewrite same_pair. rewrite andb_true_r.
        destruct (Z.odd x) eqn:Ox; destruct (Z.odd y) eqn:Oy; try (replace (_ && _) with false; [reflexivity|]; symmetry; apply andb_false_iff).
        * apply Z.odd_spec in Ox, Oy. destruct Ox as [m ->], Oy as [n ->]. replace (2 * m + 1 + 1)%Z with (2 * (m + 1))%Z by ring. replace (2 * n + 1 + 1)%Z with (2 * (n + 1))%Z by ring. rewrite !div_even.
          replace (m + 1 =? k + 1)%Z with (2 * m + 1 =? 2 * k + 1)%Z by (destruct (Z.eqb_spec (m + 1) (k + 1)), (Z.eqb_spec (2 * m + 1) (2 * k + 1)); lia).
          replace (n + 1 =? l + 1)%Z with (2 * n + 1 =? 2 * l + 1)%Z by (destruct (Z.eqb_spec (n + 1) (l + 1)), (Z.eqb_spec (2 * n + 1) (2 * l + 1)); lia). reflexivity.
        * right. apply Z.eqb_neq. intros ->. rewrite Z.add_comm, Z.odd_add_mul_2 in Oy. discriminate Oy.
        * left. apply Z.eqb_neq. intros ->. rewrite Z.add_comm, Z.odd_add_mul_2 in Ox. discriminate Ox.
        * left. apply Z.eqb_neq. intros ->. rewrite Z.add_comm, Z.odd_add_mul_2 in Ox. discriminate Ox.
      + eexists. split; [reflexivity|]. intros x y. rewrite andb_false_r. reflexivity.
      + eexists. split; [reflexivity|]. intros x y. rewrite andb_false_r. reflexivity.
      + assert (Ei : Z.even i = true) by (rewrite <- Z.negb_odd, Oi; reflexivity). assert (Ej : Z.even j = true) by (rewrite <- Z.negb_odd, Oj; reflexivity). clear Oi Oj.
        apply Z.even_spec in Ei, Ej. destruct Ei as [k ->], Ej as [l ->]. rewrite !quot_even.
        rewrite put_ok by (apply in_p_ok; unfold cell_index; lia). cbn [bind]. eexists. split; [reflexivity|]. intros x y. unfold mview. cbn [fst snd]. rewrite same_pair. rewrite andb_true_r.
        destruct (Z.odd x) eqn:Ox; destruct (Z.odd y) eqn:Oy; try (replace (_ && _) with false; [reflexivity|]; symmetry; apply andb_false_iff).
        * left. apply Z.eqb_neq. intros ->. rewrite Z.odd_mul in Ox. discriminate Ox.
        * left. apply Z.eqb_neq. intros ->. rewrite Z.odd_mul in Ox. discriminate Ox.
        * right. apply Z.eqb_neq. intros ->. rewrite Z.odd_mul in Oy. discriminate Oy.
        * assert (Ei : Z.even x = true) by (rewrite <- Z.negb_odd, Ox; reflexivity). assert (Ej : Z.even y = true) by (rewrite <- Z.negb_odd, Oy; reflexivity). clear Ox Oy.
          apply Z.even_spec in Ei, Ej. destruct Ei as [m ->], Ej as [n ->]. rewrite !div_even.
          replace (m =? k)%Z with (2 * m =? 2 * k)%Z by (destruct (Z.eqb_spec m k), (Z.eqb_spec (2 * m) (2 * k)); lia).
          replace (n =? l)%Z with (2 * n =? 2 * l)%Z by (destruct (Z.eqb_spec n l), (Z.eqb_spec (2 * n) (2 * l)); lia). reflexivity.
    - exists s. split; [reflexivity|]. split.
      + intros i j H. unfold cell_index in H. specialize (V (2 * i) (2 * j))%Z. unfold mview in V. rewrite !Z.odd_mul in V. cbn [Z.odd andb Bool.eqb negb] in V. rewrite !div_even in V.
        destruct (Z.leb_spec (-2 * pmbc p - 1) (2 * i)); [|lia]. destruct (Z.leb_spec (2 * i) (2 * (pmx p + pmbc p + 1) + 1)); [|lia].
        destruct (Z.leb_spec (-2 * pmbc p - 1) (2 * j)); [|lia]. destruct (Z.leb_spec (2 * j) (2 * (pmy p + pmbc p + 1) + 1)); [|lia]. cbn [andb] in V.
        rewrite V. unfold centre, centre_x, centre_y. rewrite !minus_IZR, !mult_IZR. do 2 f_equal; field.
      + intros i j H. unfold node_index in H. specialize (V (2 * (i - 1) + 1) (2 * (j - 1) + 1))%Z. unfold mview in V. rewrite !(Z.add_comm (2 * _)), !Z.odd_add_mul_2 in V. cbn [Z.odd andb Bool.eqb negb] in V.
        replace (1 + 2 * (i - 1) + 1)%Z with (2 * i)%Z in V by ring. replace (1 + 2 * (j - 1) + 1)%Z with (2 * j)%Z in V by ring. rewrite !div_even in V.
        destruct (Z.leb_spec (-2 * pmbc p - 1) (1 + 2 * (i - 1))); [|lia]. destruct (Z.leb_spec (1 + 2 * (i - 1)) (1 + 2 * (pmx p + pmbc p + 1))); [|lia].
        destruct (Z.leb_spec (-2 * pmbc p - 1) (1 + 2 * (j - 1))); [|lia]. destruct (Z.leb_spec (1 + 2 * (j - 1)) (1 + 2 * (pmy p + pmbc p + 1))); [|lia]. cbn [andb] in V.
        rewrite V. unfold node, corner_x, corner_y. replace (1 + 2 * (i - 1) - 1)%Z with (2 * (i - 1))%Z by ring. replace (1 + 2 * (j - 1) - 1)%Z with (2 * (j - 1))%Z by ring.
        rewrite !mult_IZR, !minus_IZR. apply f_equal, f_equal2; field.
  Qed.
End Mesh.

(** The boundary routine of extruded patches, side by side. *)
From Coq Require Import ZArith QArith List Lia Bool.
From Verif Require Import Base_Float Model_Face Model_Grid Model_Bc3 Spec_Bc3.
Import ListNotations.
Open Scope Z_scope.

(** ** Loops as lists of assignments *)
Fixpoint runl {A} (l : list (A -> option A)) (s : A) : option A :=
  match l with [] => Some s | f :: l => bind (f s) (runl l) end.
Lemma runl_app : forall {A} (a b : list (A -> option A)) s, runl (a ++ b) s = bind (runl a s) (runl b).
Proof. induction a as [|f a IH]; intros b s; cbn; [reflexivity|]. destruct (f s); cbn; [apply IH|reflexivity]. Qed.

Definition zs (lo hi : Z) : list Z := map (fun n => lo + Z.of_nat n) (seq 0 (Z.to_nat (hi - lo + 1))).
Lemma in_zs : forall lo hi k, In k (zs lo hi) <-> lo <= k <= hi.
Proof.
  intros lo hi k. unfold zs. rewrite in_map_iff. split.
  - intros (n & <- & H). apply in_seq in H. lia.
  - intro H. exists (Z.to_nat (k - lo)). split; [lia|]. apply in_seq. lia.
Qed.

Lemma loop_n_runl : forall {A} n k0 (f : Z -> A -> option A) (g : Z -> list (A -> option A)) j s,
  (forall k s, f k s = runl (g k) s) -> k0 + Z.of_nat j = k0 + Z.of_nat j ->
  loop_n n (k0 + Z.of_nat j) f s = runl (flat_map g (map (fun n => k0 + Z.of_nat n) (seq j n))) s.
Proof.
  induction n as [|n IH]; intros k0 f g j s H _; cbn [loop_n seq map flat_map]; [reflexivity|].
  rewrite runl_app, H. destruct (runl (g (k0 + Z.of_nat j)) s) as [s'|]; cbn [bind]; [|reflexivity].
  replace (k0 + Z.of_nat j + 1) with (k0 + Z.of_nat (S j)) by lia. apply IH; auto.
Qed.
Lemma loop_runl : forall {A} lo hi (f : Z -> A -> option A) (g : Z -> list (A -> option A)) s,
  (forall k s, f k s = runl (g k) s) -> loop lo hi f s = runl (flat_map g (zs lo hi)) s.
Proof.
  intros A lo hi f g s H. unfold loop, zs.
  replace lo with (lo + Z.of_nat 0) at 2 by lia. apply loop_n_runl; auto.
Qed.

Lemma cell3_eqb_spec : forall a b, cell3_eqb a b = true <-> a = b.
Proof.
  intros [[[i j] k] m] [[[i' j'] k'] m']. unfold cell3_eqb. rewrite !andb_true_iff, !Z.eqb_eq. split.
  - intros (((-> & ->) & ->) & ->). reflexivity.
  - intro E. injection E as -> -> -> ->. auto.
Qed.

Lemma cell_eq : forall i j k m i' j' k' m' : Z, i = i' -> j = j' -> k = k' -> m = m' ->
  (i, j, k, m) = (i', j', k', m').
Proof. intros; subst; reflexivity. Qed.

Section Bc3.
  Variable d : dims3.
  Notation mx := (mx3 d). Notation my := (my3 d). Notation mz := (mz3 d).
  Notation mbc := (mbc3 d). Notation meqn := (meqn3 d).

  Lemma in_q3_iff : forall i j k m, in_q3 d (i, j, k, m) = true <->
    1 - mbc <= i <= mx + mbc /\ 1 - mbc <= j <= my + mbc /\ 1 - mbc <= k <= mz + mbc /\ 1 <= m <= meqn.
  Proof. intros. unfold in_q3. rewrite !andb_true_iff, !Z.leb_le. lia. Qed.

  Definition asgs (f : Q -> Q) (l : list (cell3 * cell3)) : list (arr3 -> option arr3) :=
    map (fun p => asg3 d f (fst p) (snd p)) l.

  Lemma asgs_ok : forall f (T : cell3 -> bool) (origin : cell3 -> cell3) q0 l q,
    (forall p, In p l -> in_q3 d (fst p) = true /\ in_q3 d (snd p) = true /\ T (fst p) = true /\
       T (snd p) = false /\ origin (fst p) = snd p) ->
    (forall c, T c = false -> q c = q0 c) ->
    exists q', runl (asgs f l) q = Some q' /\
      (forall c, In c (map fst l) -> q' c = option_map f (q0 (origin c))) /\
      (forall c, ~ In c (map fst l) -> q' c = q c).
  Proof.
    intros f T origin q0. induction l as [|[dst src] l IH]; intros q H Hq; cbn [asgs map runl].
    - exists q. split; [reflexivity|]. split; [intros c []|reflexivity].
    - destruct (H (dst, src) (or_introl eq_refl)) as (A & B & C & D & E). cbn [fst snd] in *.
      unfold asg3 at 1. rewrite A, B. cbn [andb bind].
      set (q1 := fun c => if cell3_eqb c dst then option_map f (q src) else q c).
      assert (Hq1 : forall c, T c = false -> q1 c = q0 c).
      { intros c Hc. unfold q1. destruct (cell3_eqb c dst) eqn:X; [|now apply Hq].
        apply cell3_eqb_spec in X. congruence. }
      destruct (IH q1 (fun p Hp => H p (or_intror Hp)) Hq1) as (q' & R & R1 & R2).
      exists q'. split; [exact R|]. split.
      + intros c [<-|Hc]; [|now apply R1].
        destruct (in_dec (fun a b : cell3 => ltac:(repeat decide equality)) dst (map fst l)) as [Y|N]; [now apply R1|].
        rewrite R2 by exact N. unfold q1. rewrite (proj2 (cell3_eqb_spec dst dst) eq_refl), E, (Hq src D). reflexivity.
      + intros c Hc. rewrite R2 by (intro X; apply Hc; right; exact X). unfold q1. destruct (cell3_eqb c dst) eqn:X; [|reflexivity].
        apply cell3_eqb_spec in X. exfalso. apply Hc. left. auto.
  Qed.

  Definition list_one (n1 n2 : Z) (dst src : Z -> Z -> Z -> cell3) : list (cell3 * cell3) :=
    flat_map (fun b => flat_map (fun s => map (fun t => (dst b s t, src b s t)) (zs (1 - mbc) (n2 + mbc)))
      (zs (1 - mbc) (n1 + mbc))) (zs 1 mbc).
  Definition list_all (n1 n2 : Z) (dst src : Z -> Z -> Z -> Z -> cell3) : list (cell3 * cell3) :=
    flat_map (fun m => list_one n1 n2 (dst m) (src m)) (zs 1 meqn).

  Lemma asgs_flat : forall f {A} (g : A -> list (cell3 * cell3)) l,
    asgs f (flat_map g l) = flat_map (fun a => asgs f (g a)) l.
  Proof.
    intros f A g l. unfold asgs. induction l as [|a l IH]; cbn; [reflexivity|]. rewrite map_app, IH. reflexivity.
  Qed.
  Lemma flat_map_ext' : forall {A B} (f g : A -> list B) l, (forall a, f a = g a) -> flat_map f l = flat_map g l.
  Proof. intros A B f g l H. induction l as [|a l IH]; cbn; [reflexivity|]. rewrite H, IH. reflexivity. Qed.
  Lemma map_flat : forall {A B} (f : A -> B) l, map f l = flat_map (fun a => [f a]) l.
  Proof. intros A B f l. induction l as [|a l IH]; cbn; [reflexivity|]. rewrite IH. reflexivity. Qed.

  Lemma one_runl : forall n1 n2 f dst src q,
    one_eqn3 d n1 n2 (fun b s t => asg3 d f (dst b s t) (src b s t)) q = runl (asgs f (list_one n1 n2 dst src)) q.
  Proof.
    intros n1 n2 f dst src q. unfold one_eqn3, list_one. rewrite asgs_flat. apply loop_runl. intros b q1.
    rewrite asgs_flat. apply loop_runl. intros s q2.
    unfold asgs. rewrite map_map, map_flat. apply loop_runl. intros t q3. cbn [runl fst snd].
    destruct (asg3 d f (dst b s t) (src b s t) q3); reflexivity.
  Qed.
  Lemma all_runl : forall n1 n2 f dst src q,
    all_eqns3 d n1 n2 (fun m b s t => asg3 d f (dst m b s t) (src m b s t)) q = runl (asgs f (list_all n1 n2 dst src)) q.
  Proof.
    intros n1 n2 f dst src q. unfold all_eqns3, list_all. rewrite asgs_flat. apply loop_runl. intros m q1.
    apply (one_runl n1 n2 f (dst m) (src m)).
  Qed.

  Lemma in_list_one : forall n1 n2 dst src p, In p (list_one n1 n2 dst src) <->
    exists b s t, 1 <= b <= mbc /\ 1 - mbc <= s <= n1 + mbc /\ 1 - mbc <= t <= n2 + mbc /\ p = (dst b s t, src b s t).
  Proof.
    intros. unfold list_one. rewrite in_flat_map. split.
    - intros (b & Hb & H). apply in_flat_map in H. destruct H as (s & Hs & H). apply in_map_iff in H.
      destruct H as (t & E & Ht). apply in_zs in Hb, Hs, Ht. exists b, s, t. auto.
    - intros (b & s & t & Hb & Hs & Ht & E). exists b. split; [now apply in_zs|]. apply in_flat_map.
      exists s. split; [now apply in_zs|]. apply in_map_iff. exists t. split; [auto|now apply in_zs].
  Qed.
  Lemma in_list_all : forall n1 n2 dst src p, In p (list_all n1 n2 dst src) <->
    exists m b s t, 1 <= m <= meqn /\ 1 <= b <= mbc /\ 1 - mbc <= s <= n1 + mbc /\ 1 - mbc <= t <= n2 + mbc /\
      p = (dst m b s t, src m b s t).
  Proof.
    intros. unfold list_all. rewrite in_flat_map. split.
    - intros (m & Hm & H). apply in_list_one in H. destruct H as (b & s & t & H). apply in_zs in Hm. exists m, b, s, t. tauto.
    - intros (m & b & s & t & Hm & H). exists m. split; [now apply in_zs|]. apply in_list_one. exists b, s, t. exact H.
  Qed.

  (** pointwise, all equations *)
  Lemma all3_ok : forall n1 n2 (dst src : Z -> Z -> Z -> Z -> cell3) f (T : cell3 -> bool) (origin : cell3 -> cell3) q,
    (forall m b s t, 1 <= m <= meqn -> 1 <= b <= mbc -> 1 - mbc <= s <= n1 + mbc -> 1 - mbc <= t <= n2 + mbc ->
       in_q3 d (dst m b s t) = true /\ in_q3 d (src m b s t) = true /\ T (dst m b s t) = true /\
       T (src m b s t) = false /\ origin (dst m b s t) = src m b s t) ->
    (forall c, T c = true -> exists m b s t, 1 <= m <= meqn /\ 1 <= b <= mbc /\ 1 - mbc <= s <= n1 + mbc /\
       1 - mbc <= t <= n2 + mbc /\ c = dst m b s t) ->
    exists q', all_eqns3 d n1 n2 (fun m b s t => asg3 d f (dst m b s t) (src m b s t)) q = Some q' /\
      forall c, q' c = if T c then option_map f (q (origin c)) else q c.
  Proof.
    intros n1 n2 dst src f T origin q H1 H2. rewrite all_runl.
    destruct (asgs_ok f T origin q (list_all n1 n2 dst src) q) as (q' & E & A & B).
    - intros p Hp. apply in_list_all in Hp. destruct Hp as (m & b & s & t & Hm & Hb & Hs & Ht & ->). cbn [fst snd]. now apply H1.
    - reflexivity.
    - exists q'. split; [exact E|]. intros c. destruct (T c) eqn:Tc.
      + apply A. destruct (H2 c Tc) as (m & b & s & t & Hm & Hb & Hs & Ht & ->).
        apply in_map_iff. exists (dst m b s t, src m b s t). split; [reflexivity|]. apply in_list_all. exists m, b, s, t. auto.
      + apply B. intros Hc. apply in_map_iff in Hc. destruct Hc as (p & <- & Hp). apply in_list_all in Hp.
        destruct Hp as (m & b & s & t & Hm & Hb & Hs & Ht & ->). cbn [fst] in Tc.
        destruct (H1 m b s t Hm Hb Hs Ht) as (_ & _ & X & _). congruence.
  Qed.
  Lemma one3_ok : forall n1 n2 (dst src : Z -> Z -> Z -> cell3) f (T : cell3 -> bool) (origin : cell3 -> cell3) q,
    (forall b s t, 1 <= b <= mbc -> 1 - mbc <= s <= n1 + mbc -> 1 - mbc <= t <= n2 + mbc ->
       in_q3 d (dst b s t) = true /\ in_q3 d (src b s t) = true /\ T (dst b s t) = true /\
       T (src b s t) = false /\ origin (dst b s t) = src b s t) ->
    (forall c, T c = true -> exists b s t, 1 <= b <= mbc /\ 1 - mbc <= s <= n1 + mbc /\
       1 - mbc <= t <= n2 + mbc /\ c = dst b s t) ->
    exists q', one_eqn3 d n1 n2 (fun b s t => asg3 d f (dst b s t) (src b s t)) q = Some q' /\
      forall c, q' c = if T c then option_map f (q (origin c)) else q c.
  Proof.
    intros n1 n2 dst src f T origin q H1 H2. rewrite one_runl.
    destruct (asgs_ok f T origin q (list_one n1 n2 dst src) q) as (q' & E & A & B).
    - intros p Hp. apply in_list_one in Hp. destruct Hp as (b & s & t & Hb & Hs & Ht & ->). cbn [fst snd]. now apply H1.
    - reflexivity.
    - exists q'. split; [exact E|]. intros c. destruct (T c) eqn:Tc.
      + apply A. destruct (H2 c Tc) as (b & s & t & Hb & Hs & Ht & ->).
        apply in_map_iff. exists (dst b s t, src b s t). split; [reflexivity|]. apply in_list_one. exists b, s, t. auto.
      + apply B. intros Hc. apply in_map_iff in Hc. destruct Hc as (p & <- & Hp). apply in_list_one in Hp.
        destruct Hp as (b & s & t & Hb & Hs & Ht & ->). cbn [fst] in Tc.
        destruct (H1 b s t Hb Hs Ht) as (_ & _ & X & _). congruence.
  Qed.

  Lemma map_id3 : forall (x : option Q), option_map (fun x => x) x = x. Proof. now intros [x|]. Qed.

  Hypothesis Hb : 0 <= mbc.
  Hypothesis Hx : mbc <= mx.
  Hypothesis Hy : mbc <= my.
  Hypothesis Hz : mbc <= mz.

  (** ** One side: what the routine leaves, and what a direction with one active side means *)
  Definition dirx (lo hi : side3) (q : arr3) : arr3 := fun c => let '(i, j, k, m) := c in
    if in_q3 d c then
      let v := q (image3 lo hi mx i, j, k, m) in
      if mirrored3 lo hi mx i && (m =? 2) then option_map Qopp v else v
    else q c.
  Definition diry (lo hi : side3) (q : arr3) : arr3 := fun c => let '(i, j, k, m) := c in
    if in_q3 d c then
      let v := q (i, image3 lo hi my j, k, m) in
      if mirrored3 lo hi my j && (m =? 3) then option_map Qopp v else v
    else q c.
  Definition dirz (lo hi : side3) (q : arr3) : arr3 := fun c => let '(i, j, k, m) := c in
    if in_q3 d c then
      let v := q (i, j, image3 lo hi mz k, m) in
      if mirrored3 lo hi mz k && (m =? 4) then option_map Qopp v else v
    else q c.

  Ltac zcases := repeat match goal with
    | |- context [?a <? ?b] => destruct (Z.ltb_spec a b)
    | |- context [?a =? ?b] => destruct (Z.eqb_spec a b)
    end.

  (* targets of the loops *)
  Definition below (a : cell3 -> Z) (c : cell3) : bool := in_q3 d c && (a c <? 1).
  Definition above (a : cell3 -> Z) (n : Z) (c : cell3) : bool := in_q3 d c && (n <? a c).
  Definition ci (c : cell3) : Z := let '(i, _, _, _) := c in i.
  Definition cj (c : cell3) : Z := let '(_, j, _, _) := c in j.
  Definition ck (c : cell3) : Z := let '(_, _, k, _) := c in k.
  Definition cm (c : cell3) : Z := let '(_, _, _, m) := c in m.
  Definition onlym (m0 : Z) (T : cell3 -> bool) (c : cell3) : bool := T c && (cm c =? m0).

  (* side conditions of all3_ok and one3_ok *)
  Ltac solve_src := intros; unfold onlym, below, above, ci, cj, ck, cm;
    repeat split; rewrite ?andb_true_iff, ?andb_false_iff, ?in_q3_iff, ?Z.ltb_lt, ?Z.ltb_ge, ?Z.eqb_eq;
    try (repeat split; lia); try (left; right; lia); try (right; lia); try (apply cell_eq; lia).
  Ltac solve_dst := intros [[[i j] k] m]; unfold onlym, below, above, ci, cj, ck, cm;
    rewrite ?andb_true_iff, ?in_q3_iff, ?Z.ltb_lt, ?Z.eqb_eq; intro X.

  Ltac finish E A := eexists; split; [exact E|]; intros [[[i j] k] m]; rewrite A;
    unfold dirx, diry, dirz, onlym, below, above, ci, cj, ck, cm, image3, mirrored3;
    destruct (in_q3 d (i, j, k, m)) eqn:IN; cbn [andb orb]; [|reflexivity];
    zcases; cbn [andb orb]; rewrite ?map_id3; try reflexivity; try (exfalso; lia);
    try (f_equal; f_equal; f_equal; f_equal; lia).

  Definition code3 (s : side3) (k : Z) : Prop :=
    match s with Untouched => k <> 0 /\ k <> 1 /\ k <> 3 | Open3 => k = 1 | Wall3 => k = 3 | Periodic3 => False end.
  Definition code3z (s : side3) (k : Z) : Prop :=
    match s with Untouched => k <> 0 /\ k <> 1 /\ k <> 2 /\ k <> 3 | Open3 => k = 1 | Wall3 => k = 3 | Periodic3 => k = 2 end.

  Lemma skip3 : forall (q : arr3) (g : arr3 -> arr3), (forall c, g q c = q c) ->
    exists q', Some q = Some q' /\ forall c, q' c = g q c.
  Proof. intros q g H. exists q. split; [reflexivity|]. intro c. symmetry. apply H. Qed.

  Lemma dir_id : forall q c, dirx Untouched Untouched q c = q c /\ diry Untouched Untouched q c = q c /\
    dirz Untouched Untouched q c = q c.
  Proof.
    intros q [[[i j] k] m]. unfold dirx, diry, dirz, image3, mirrored3. destruct (in_q3 d (i, j, k, m)); [|auto].
    rewrite !andb_false_r. cbn [andb orb]. repeat split; zcases; reflexivity.
  Qed.

  Ltac finish2 E2 A1 A2 := eexists; split; [exact E2|]; intros [[[i j] k] m]; rewrite A2, !A1;
    unfold dirx, diry, dirz, onlym, below, above, ci, cj, ck, cm, image3, mirrored3;
    destruct (in_q3 d (i, j, k, m)) eqn:IN; cbn [andb orb]; [|reflexivity];
    zcases; cbn [andb orb]; rewrite ?andb_false_r; cbn [andb orb]; rewrite ?map_id3;
    try reflexivity; try (exfalso; lia).

  Lemma xlower_ok : forall s kb q, code3 s kb -> (s = Wall3 -> 2 <= meqn) ->
    exists q', bc3_xlower d kb q = Some q' /\ forall c, q' c = dirx s Untouched q c.
  Proof.
    intros s kb q C W. unfold bc3_xlower. destruct s; cbn in C.
    - destruct C as (C0 & C1 & C3). rewrite (proj2 (Z.eqb_neq kb 0) C0), (proj2 (Z.eqb_neq kb 1) C1), (proj2 (Z.eqb_neq kb 3) C3).
      apply (skip3 q (dirx Untouched Untouched)). intro c. apply dir_id.
    - subst kb. cbn [Z.eqb Pos.eqb].
      destruct (all3_ok my mz (fun m b j k => (1 - b, j, k, m)) (fun m b j k => (1, j, k, m)) (fun x => x)
        (below ci) (fun c => let '(i, j, k, m) := c in (1, j, k, m)) q) as (q' & E & A).
      + solve_src.
      + solve_dst. exists m, (1 - i), j, k. repeat split; try lia. apply cell_eq; lia.
      + unfold cpy3. finish E A.
    - subst kb. cbn [Z.eqb Pos.eqb]. specialize (W eq_refl).
      destruct (all3_ok my mz (fun m b j k => (1 - b, j, k, m)) (fun m b j k => (b, j, k, m)) (fun x => x)
        (below ci) (fun c => let '(i, j, k, m) := c in (1 - i, j, k, m)) q) as (q1 & E1 & A1).
      + solve_src.
      + solve_dst. exists m, (1 - i), j, k. repeat split; try lia. apply cell_eq; lia.
      + destruct (one3_ok my mz (fun b j k => (1 - b, j, k, 2)) (fun b j k => (b, j, k, 2)) Qopp
          (onlym 2 (below ci)) (fun c => let '(i, j, k, m) := c in (1 - i, j, k, m)) q1) as (q2 & E2 & A2).
        * solve_src.
        * solve_dst. exists (1 - i), j, k. repeat split; try lia. apply cell_eq; lia.
        * unfold cpy3, neg3. rewrite E1. cbn [bind]. finish2 E2 A1 A2.
    - contradiction.
  Qed.
  Lemma xupper_ok : forall s kb q, code3 s kb -> (s = Wall3 -> 2 <= meqn) ->
    exists q', bc3_xupper d kb q = Some q' /\ forall c, q' c = dirx Untouched s q c.
  Proof.
    intros s kb q C W. unfold bc3_xupper. destruct s; cbn in C.
    - destruct C as (C0 & C1 & C3). rewrite (proj2 (Z.eqb_neq kb 0) C0), (proj2 (Z.eqb_neq kb 1) C1), (proj2 (Z.eqb_neq kb 3) C3).
      apply (skip3 q (dirx Untouched Untouched)). intro c. apply dir_id.
    - subst kb. cbn [Z.eqb Pos.eqb].
      destruct (all3_ok my mz (fun m b j k => (mx + b, j, k, m)) (fun m b j k => (mx, j, k, m)) (fun x => x)
        (above ci mx) (fun c => let '(i, j, k, m) := c in (mx, j, k, m)) q) as (q' & E & A).
      + solve_src.
      + solve_dst. exists m, (i - mx), j, k. repeat split; try lia. apply cell_eq; lia.
      + unfold cpy3. finish E A.
    - subst kb. cbn [Z.eqb Pos.eqb]. specialize (W eq_refl).
      destruct (all3_ok my mz (fun m b j k => (mx + b, j, k, m)) (fun m b j k => (mx + 1 - b, j, k, m)) (fun x => x)
        (above ci mx) (fun c => let '(i, j, k, m) := c in (2 * mx + 1 - i, j, k, m)) q) as (q1 & E1 & A1).
      + solve_src.
      + solve_dst. exists m, (i - mx), j, k. repeat split; try lia. apply cell_eq; lia.
      + destruct (one3_ok my mz (fun b j k => (mx + b, j, k, 2)) (fun b j k => (mx + 1 - b, j, k, 2)) Qopp
          (onlym 2 (above ci mx)) (fun c => let '(i, j, k, m) := c in (2 * mx + 1 - i, j, k, m)) q1) as (q2 & E2 & A2).
        * solve_src.
        * solve_dst. exists (i - mx), j, k. repeat split; try lia. apply cell_eq; lia.
        * unfold cpy3, neg3. rewrite E1. cbn [bind]. finish2 E2 A1 A2.
    - contradiction.
  Qed.
  Lemma ylower_ok : forall s kb q, code3 s kb -> (s = Wall3 -> 3 <= meqn) ->
    exists q', bc3_ylower d kb q = Some q' /\ forall c, q' c = diry s Untouched q c.
  Proof.
    intros s kb q C W. unfold bc3_ylower. destruct s; cbn in C.
    - destruct C as (C0 & C1 & C3). rewrite (proj2 (Z.eqb_neq kb 0) C0), (proj2 (Z.eqb_neq kb 1) C1), (proj2 (Z.eqb_neq kb 3) C3).
      apply (skip3 q (diry Untouched Untouched)). intro c. apply dir_id.
    - subst kb. cbn [Z.eqb Pos.eqb].
      destruct (all3_ok mx mz (fun m b i k => (i, 1 - b, k, m)) (fun m b i k => (i, 1, k, m)) (fun x => x)
        (below cj) (fun c => let '(i, j, k, m) := c in (i, 1, k, m)) q) as (q' & E & A).
      + solve_src.
      + solve_dst. exists m, (1 - j), i, k. repeat split; try lia. apply cell_eq; lia.
      + unfold cpy3. finish E A.
    - subst kb. cbn [Z.eqb Pos.eqb]. specialize (W eq_refl).
      destruct (all3_ok mx mz (fun m b i k => (i, 1 - b, k, m)) (fun m b i k => (i, b, k, m)) (fun x => x)
        (below cj) (fun c => let '(i, j, k, m) := c in (i, 1 - j, k, m)) q) as (q1 & E1 & A1).
      + solve_src.
      + solve_dst. exists m, (1 - j), i, k. repeat split; try lia. apply cell_eq; lia.
      + destruct (one3_ok mx mz (fun b i k => (i, 1 - b, k, 3)) (fun b i k => (i, b, k, 3)) Qopp
          (onlym 3 (below cj)) (fun c => let '(i, j, k, m) := c in (i, 1 - j, k, m)) q1) as (q2 & E2 & A2).
        * solve_src.
        * solve_dst. exists (1 - j), i, k. repeat split; try lia. apply cell_eq; lia.
        * unfold cpy3, neg3. rewrite E1. cbn [bind]. finish2 E2 A1 A2.
    - contradiction.
  Qed.
  Lemma yupper_ok : forall s kb q, code3 s kb -> (s = Wall3 -> 3 <= meqn) ->
    exists q', bc3_yupper d kb q = Some q' /\ forall c, q' c = diry Untouched s q c.
  Proof.
    intros s kb q C W. unfold bc3_yupper. destruct s; cbn in C.
    - destruct C as (C0 & C1 & C3). rewrite (proj2 (Z.eqb_neq kb 0) C0), (proj2 (Z.eqb_neq kb 1) C1), (proj2 (Z.eqb_neq kb 3) C3).
      apply (skip3 q (diry Untouched Untouched)). intro c. apply dir_id.
    - subst kb. cbn [Z.eqb Pos.eqb].
      destruct (all3_ok mx mz (fun m b i k => (i, my + b, k, m)) (fun m b i k => (i, my, k, m)) (fun x => x)
        (above cj my) (fun c => let '(i, j, k, m) := c in (i, my, k, m)) q) as (q' & E & A).
      + solve_src.
      + solve_dst. exists m, (j - my), i, k. repeat split; try lia. apply cell_eq; lia.
      + unfold cpy3. finish E A.
    - subst kb. cbn [Z.eqb Pos.eqb]. specialize (W eq_refl).
      destruct (all3_ok mx mz (fun m b i k => (i, my + b, k, m)) (fun m b i k => (i, my + 1 - b, k, m)) (fun x => x)
        (above cj my) (fun c => let '(i, j, k, m) := c in (i, 2 * my + 1 - j, k, m)) q) as (q1 & E1 & A1).
      + solve_src.
      + solve_dst. exists m, (j - my), i, k. repeat split; try lia. apply cell_eq; lia.
      + destruct (one3_ok mx mz (fun b i k => (i, my + b, k, 3)) (fun b i k => (i, my + 1 - b, k, 3)) Qopp
          (onlym 3 (above cj my)) (fun c => let '(i, j, k, m) := c in (i, 2 * my + 1 - j, k, m)) q1) as (q2 & E2 & A2).
        * solve_src.
        * solve_dst. exists (j - my), i, k. repeat split; try lia. apply cell_eq; lia.
        * unfold cpy3, neg3. rewrite E1. cbn [bind]. finish2 E2 A1 A2.
    - contradiction.
  Qed.
  Lemma zlower_ok : forall s kb q, code3z s kb -> (s = Wall3 -> 4 <= meqn) ->
    exists q', bc3_zlower d kb q = Some q' /\ forall c, q' c = dirz s Untouched q c.
  Proof.
    intros s kb q C W. unfold bc3_zlower. destruct s; cbn in C.
    - destruct C as (C0 & C1 & C2 & C3). rewrite (proj2 (Z.eqb_neq kb 0) C0), (proj2 (Z.eqb_neq kb 1) C1), (proj2 (Z.eqb_neq kb 2) C2), (proj2 (Z.eqb_neq kb 3) C3).
      apply (skip3 q (dirz Untouched Untouched)). intro c. apply dir_id.
    - subst kb. cbn [Z.eqb Pos.eqb].
      destruct (all3_ok mx my (fun m b i j => (i, j, 1 - b, m)) (fun m b i j => (i, j, 1, m)) (fun x => x)
        (below ck) (fun c => let '(i, j, k, m) := c in (i, j, 1, m)) q) as (q' & E & A).
      + solve_src.
      + solve_dst. exists m, (1 - k), i, j. repeat split; try lia. apply cell_eq; lia.
      + unfold cpy3. finish E A.
    - subst kb. cbn [Z.eqb Pos.eqb]. specialize (W eq_refl).
      destruct (all3_ok mx my (fun m b i j => (i, j, 1 - b, m)) (fun m b i j => (i, j, b, m)) (fun x => x)
        (below ck) (fun c => let '(i, j, k, m) := c in (i, j, 1 - k, m)) q) as (q1 & E1 & A1).
      + solve_src.
      + solve_dst. exists m, (1 - k), i, j. repeat split; try lia. apply cell_eq; lia.
      + destruct (one3_ok mx my (fun b i j => (i, j, 1 - b, 4)) (fun b i j => (i, j, b, 4)) Qopp
          (onlym 4 (below ck)) (fun c => let '(i, j, k, m) := c in (i, j, 1 - k, m)) q1) as (q2 & E2 & A2).
        * solve_src.
        * solve_dst. exists (1 - k), i, j. repeat split; try lia. apply cell_eq; lia.
        * unfold cpy3, neg3. rewrite E1. cbn [bind]. finish2 E2 A1 A2.
    - subst kb. cbn [Z.eqb Pos.eqb].
      destruct (all3_ok mx my (fun m b i j => (i, j, 1 - b, m)) (fun m b i j => (i, j, mz + 1 - b, m)) (fun x => x)
        (below ck) (fun c => let '(i, j, k, m) := c in (i, j, k + mz, m)) q) as (q' & E & A).
      + solve_src.
      + solve_dst. exists m, (1 - k), i, j. repeat split; try lia. apply cell_eq; lia.
      + unfold cpy3. finish E A.
  Qed.
  Lemma zupper_ok : forall s kb q, code3z s kb -> (s = Wall3 -> 4 <= meqn) ->
    exists q', bc3_zupper d kb q = Some q' /\ forall c, q' c = dirz Untouched s q c.
  Proof.
    intros s kb q C W. unfold bc3_zupper. destruct s; cbn in C.
    - destruct C as (C0 & C1 & C2 & C3). rewrite (proj2 (Z.eqb_neq kb 0) C0), (proj2 (Z.eqb_neq kb 1) C1), (proj2 (Z.eqb_neq kb 2) C2), (proj2 (Z.eqb_neq kb 3) C3).
      apply (skip3 q (dirz Untouched Untouched)). intro c. apply dir_id.
    - subst kb. cbn [Z.eqb Pos.eqb].
      destruct (all3_ok mx my (fun m b i j => (i, j, mz + b, m)) (fun m b i j => (i, j, mz, m)) (fun x => x)
        (above ck mz) (fun c => let '(i, j, k, m) := c in (i, j, mz, m)) q) as (q' & E & A).
      + solve_src.
      + solve_dst. exists m, (k - mz), i, j. repeat split; try lia. apply cell_eq; lia.
      + unfold cpy3. finish E A.
    - subst kb. cbn [Z.eqb Pos.eqb]. specialize (W eq_refl).
      destruct (all3_ok mx my (fun m b i j => (i, j, mz + b, m)) (fun m b i j => (i, j, mz + 1 - b, m)) (fun x => x)
        (above ck mz) (fun c => let '(i, j, k, m) := c in (i, j, 2 * mz + 1 - k, m)) q) as (q1 & E1 & A1).
      + solve_src.
      + solve_dst. exists m, (k - mz), i, j. repeat split; try lia. apply cell_eq; lia.
      + destruct (one3_ok mx my (fun b i j => (i, j, mz + b, 4)) (fun b i j => (i, j, mz + 1 - b, 4)) Qopp
          (onlym 4 (above ck mz)) (fun c => let '(i, j, k, m) := c in (i, j, 2 * mz + 1 - k, m)) q1) as (q2 & E2 & A2).
        * solve_src.
        * solve_dst. exists (k - mz), i, j. repeat split; try lia. apply cell_eq; lia.
        * unfold cpy3, neg3. rewrite E1. cbn [bind]. finish2 E2 A1 A2.
    - subst kb. cbn [Z.eqb Pos.eqb].
      destruct (all3_ok mx my (fun m b i j => (i, j, mz + b, m)) (fun m b i j => (i, j, b, m)) (fun x => x)
        (above ck mz) (fun c => let '(i, j, k, m) := c in (i, j, k - mz, m)) q) as (q' & E & A).
      + solve_src.
      + solve_dst. exists m, (k - mz), i, j. repeat split; try lia. apply cell_eq; lia.
      + unfold cpy3. finish E A.
  Qed.

  (** ** The six sides together *)
  Lemma image_range : forall a b n t, mbc <= n -> 1 - mbc <= t <= n + mbc -> 1 - mbc <= image3 a b n t <= n + mbc.
  Proof. intros a b n t Hn Ht. unfold image3. destruct a, b; zcases; lia. Qed.
  Lemma image_two : forall a b n t, mbc <= n -> 1 - mbc <= t <= n + mbc ->
    image3 a Untouched n (image3 Untouched b n t) = image3 a b n t /\
    xorb (mirrored3 a Untouched n (image3 Untouched b n t)) (mirrored3 Untouched b n t) = mirrored3 a b n t /\
    (mirrored3 Untouched b n t = true -> mirrored3 a Untouched n (image3 Untouched b n t) = false).
  Proof.
    intros a b n t Hn Ht. unfold image3, mirrored3. destruct a, b; zcases; cbn [andb orb xorb];
      repeat split; try reflexivity; try discriminate; try lia.
  Qed.
  Lemma image_again : forall a b n t, mbc <= n -> 1 - mbc <= t <= n + mbc ->
    image3 a b n (image3 a b n t) = image3 a b n t /\ mirrored3 a b n (image3 a b n t) = false.
  Proof.
    intros a b n t Hn Ht. unfold image3, mirrored3. destruct a, b; zcases; cbn [andb orb];
      split; try reflexivity; try lia.
  Qed.

  Lemma dirx_two : forall a b q c, dirx Untouched b (dirx a Untouched q) c = dirx a b q c.
  Proof.
    intros a b q [[[i j] k] m]. unfold dirx. destruct (in_q3 d (i, j, k, m)) eqn:E; [|reflexivity].
    apply in_q3_iff in E. destruct E as (E1 & E2 & E3 & E4).
    rewrite (proj2 (in_q3_iff (image3 Untouched b mx i) j k m))
      by (split; [apply image_range; lia|auto]).
    destruct (image_two a b mx i Hx E1) as (A & B & C). rewrite A, <- B. clear A B.
    destruct (mirrored3 Untouched b mx i); [rewrite (C eq_refl)|rewrite xorb_false_r]; cbn [xorb andb]; reflexivity.
  Qed.
  Lemma diry_two : forall a b q c, diry Untouched b (diry a Untouched q) c = diry a b q c.
  Proof.
    intros a b q [[[i j] k] m]. unfold diry. destruct (in_q3 d (i, j, k, m)) eqn:E; [|reflexivity].
    apply in_q3_iff in E. destruct E as (E1 & E2 & E3 & E4).
    rewrite (proj2 (in_q3_iff i (image3 Untouched b my j) k m))
      by (split; [auto|split; [apply image_range; lia|auto]]).
    destruct (image_two a b my j Hy E2) as (A & B & C). rewrite A, <- B. clear A B.
    destruct (mirrored3 Untouched b my j); [rewrite (C eq_refl)|rewrite xorb_false_r]; cbn [xorb andb]; reflexivity.
  Qed.
  Lemma dirz_two : forall a b q c, dirz Untouched b (dirz a Untouched q) c = dirz a b q c.
  Proof.
    intros a b q [[[i j] k] m]. unfold dirz. destruct (in_q3 d (i, j, k, m)) eqn:E; [|reflexivity].
    apply in_q3_iff in E. destruct E as (E1 & E2 & E3 & E4).
    rewrite (proj2 (in_q3_iff i j (image3 Untouched b mz k) m))
      by (split; [auto|split; [auto|split; [apply image_range; lia|auto]]]).
    destruct (image_two a b mz k Hz E3) as (A & B & C). rewrite A, <- B. clear A B.
    destruct (mirrored3 Untouched b mz k); [rewrite (C eq_refl)|rewrite xorb_false_r]; cbn [xorb andb]; reflexivity.
  Qed.
  Lemma dir_ext : forall a b q q', (forall c, q c = q' c) -> forall c,
    dirx a b q c = dirx a b q' c /\ diry a b q c = diry a b q' c /\ dirz a b q c = dirz a b q' c.
  Proof. intros a b q q' H [[[i j] k] m]. unfold dirx, diry, dirz. rewrite !H. auto. Qed.

  Lemma six_sides : forall s q i j k m, in_q3 d (i, j, k, m) = true ->
    dirz (s 4) (s 5) (diry (s 2) (s 3) (dirx (s 0) (s 1) q)) (i, j, k, m) = bc3_value d s q i j k m.
  Proof.
    intros s q i j k m E. unfold bc3_value, dirz. rewrite E. unfold diry, dirx.
    apply in_q3_iff in E. destruct E as (E1 & E2 & E3 & E4).
    pose proof (image_range (s 4) (s 5) mz k Hz E3). pose proof (image_range (s 2) (s 3) my j Hy E2).
    rewrite (proj2 (in_q3_iff i j (image3 (s 4) (s 5) mz k) m)) by auto.
    rewrite (proj2 (in_q3_iff i (image3 (s 2) (s 3) my j) (image3 (s 4) (s 5) mz k) m)) by auto.
    destruct (Z.eqb_spec m 2), (Z.eqb_spec m 3), (Z.eqb_spec m 4); try (exfalso; lia);
      rewrite ?andb_false_r, ?andb_true_r, ?orb_false_r, ?orb_false_l; reflexivity.
  Qed.

  Definition codes (s : Z -> side3) (k : Z -> Z) : Prop :=
    (forall f, 0 <= f < 4 -> code3 (s f) (k f)) /\ (forall f, 4 <= f < 6 -> code3z (s f) (k f)).

  Lemma bc3_ok : forall s k q, codes s k -> (forall f, 0 <= f < 6 -> s f = Wall3 -> f / 2 + 2 <= meqn) ->
    exists q', bc3_default d k q = Some q' /\
      forall c, q' c = dirz (s 4) (s 5) (diry (s 2) (s 3) (dirx (s 0) (s 1) q)) c.
  Proof.
    intros s k q (C & CZ) W. unfold bc3_default.
    destruct (xlower_ok (s 0) (k 0) q (C 0 ltac:(lia)) (W 0 ltac:(lia))) as (q1 & E1 & A1).
    destruct (xupper_ok (s 1) (k 1) q1 (C 1 ltac:(lia)) (W 1 ltac:(lia))) as (q2 & E2 & A2).
    destruct (ylower_ok (s 2) (k 2) q2 (C 2 ltac:(lia)) (W 2 ltac:(lia))) as (q3 & E3 & A3).
    destruct (yupper_ok (s 3) (k 3) q3 (C 3 ltac:(lia)) (W 3 ltac:(lia))) as (q4 & E4 & A4).
    destruct (zlower_ok (s 4) (k 4) q4 (CZ 4 ltac:(lia)) (W 4 ltac:(lia))) as (q5 & E5 & A5).
    destruct (zupper_ok (s 5) (k 5) q5 (CZ 5 ltac:(lia)) (W 5 ltac:(lia))) as (q6 & E6 & A6).
    exists q6. rewrite E1. cbn [bind]. rewrite E2. cbn [bind]. rewrite E3. cbn [bind]. rewrite E4. cbn [bind].
    rewrite E5. cbn [bind]. split; [exact E6|].
    assert (B2 : forall c, q2 c = dirx (s 0) (s 1) q c).
    { intro c. rewrite A2, <- (dirx_two (s 0) (s 1)). apply (dir_ext _ _ _ _ A1). }
    assert (B4 : forall c, q4 c = diry (s 2) (s 3) (dirx (s 0) (s 1) q) c).
    { intro c. rewrite A4, <- (diry_two (s 2) (s 3)). apply (dir_ext Untouched (s 3)). intro c'. rewrite A3. apply (dir_ext _ _ _ _ B2). }
    intro c. rewrite A6, <- (dirz_two (s 4) (s 5)). apply (dir_ext Untouched (s 5)). intro c'. rewrite A5. apply (dir_ext _ _ _ _ B4).
  Qed.

  Lemma six_outside : forall s q c, in_q3 d c = false ->
    dirz (s 4) (s 5) (diry (s 2) (s 3) (dirx (s 0) (s 1) q)) c = q c.
  Proof. intros s q [[[i j] k] m] E. unfold dirz, diry, dirx. rewrite E. reflexivity. Qed.
End Bc3.

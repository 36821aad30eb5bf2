(** Proofs about the bathymetry of grid cells. *)
From Coq Require Import ZArith QArith Qround Qminmax List Bool Lia Lqa Sorted Setoid Morphisms Field.
From Verif Require Import Model_Topo Spec_Topo.
Import ListNotations.
Open Scope Q_scope.

(** * Sums *)
Lemma qsum_ext {A} (f g : A -> Q) l : (forall a, In a l -> f a == g a) -> qsum (map f l) == qsum (map g l).
Proof.
  unfold qsum. induction l as [|a l IH]; cbn [map fold_right]; intros H; [reflexivity|].
  rewrite (H a (or_introl eq_refl)), IH; [reflexivity|]. intros b Hb. apply H. now right.
Qed.
Lemma qsum_plus {A} (f g : A -> Q) l : qsum (map (fun a => f a + g a) l) == qsum (map f l) + qsum (map g l).
Proof.
  unfold qsum. induction l as [|a l IH]; cbn [map fold_right]; [ring|]. rewrite IH. ring.
Qed.
Lemma qsum_scal {A} (c : Q) (f : A -> Q) l : qsum (map (fun a => c * f a) l) == c * qsum (map f l).
Proof.
  unfold qsum. induction l as [|a l IH]; cbn [map fold_right]; [ring|]. rewrite IH. ring.
Qed.
Lemma qsum_zero {A} (l : list A) : qsum (map (fun _ => 0) l) == 0.
Proof. unfold qsum. induction l as [|a l IH]; cbn [map fold_right]; [ring|]. rewrite IH. ring. Qed.
Lemma qsum_cons {A} (f : A -> Q) a l : qsum (map f (a :: l)) = f a + qsum (map f l).
Proof. reflexivity. Qed.

Lemma riemann_unfold xs ys g : riemann xs ys g =
  qsum (map (fun p => qsum (map (fun q => width p * width q * g (mid p) (mid q)) (pairs ys))) (pairs xs)).
Proof. reflexivity. Qed.
Lemma riemann_ext xs ys g h :
  (forall p q, In p (pairs xs) -> In q (pairs ys) -> g (mid p) (mid q) == h (mid p) (mid q)) ->
  riemann xs ys g == riemann xs ys h.
Proof.
  intros H. rewrite !riemann_unfold. apply qsum_ext. intros p Hp. apply qsum_ext. intros q Hq.
  rewrite (H p q Hp Hq). reflexivity.
Qed.
Lemma riemann_plus xs ys g h :
  riemann xs ys (fun x y => g x y + h x y) == riemann xs ys g + riemann xs ys h.
Proof.
  rewrite !riemann_unfold. rewrite <- qsum_plus. apply qsum_ext. intros p _.
  rewrite <- qsum_plus. apply qsum_ext. intros q _. ring.
Qed.
Lemma riemann_scal xs ys c g : riemann xs ys (fun x y => c * g x y) == c * riemann xs ys g.
Proof.
  rewrite !riemann_unfold. rewrite <- qsum_scal. apply qsum_ext. intros p _.
  rewrite <- qsum_scal. apply qsum_ext. intros q _. ring.
Qed.
Lemma riemann_zero xs ys : riemann xs ys (fun _ _ => 0) == 0.
Proof.
  transitivity (riemann xs ys (fun x y => 0 * (fun _ _ => 0) x y)).
  - apply riemann_ext. intros; ring.
  - rewrite riemann_scal. ring.
Qed.
Lemma riemann_sum {A} xs ys (g : A -> Q -> Q -> Q) l :
  riemann xs ys (fun x y => qsum (map (fun k => g k x y) l)) == qsum (map (fun k => riemann xs ys (g k)) l).
Proof.
  induction l as [|k l IH].
  - cbn. apply riemann_zero.
  - rewrite qsum_cons, <- IH, <- riemann_plus. apply riemann_ext. intros. rewrite qsum_cons. reflexivity.
Qed.

(** * Partitions *)
Definition nocross (c : Q) (p : Q * Q) : Prop := c <= fst p \/ snd p <= c.

Lemma pairs_in l a b : In (a, b) (pairs l) -> In a l /\ In b l.
Proof.
  induction l as [|x [|y t] IH]; cbn [pairs]; try now intros [].
  intros [E|H].
  - injection E as <- <-. split; [now left|right; now left].
  - destruct (IH H) as [H1 H2]. split; now right.
Qed.
Lemma pairs_lt l p : StronglySorted Qlt l -> In p (pairs l) -> fst p < snd p.
Proof.
  intros S; induction S as [|x t S IH F]; [intros []|].
  destruct t as [|y t]; [intros []|]. cbn [pairs]. intros [<-|H].
  - cbn. inversion F; assumption.
  - now apply IH.
Qed.
Lemma pairs_nocross l c p : StronglySorted Qlt l -> has l c -> In p (pairs l) -> nocross c p.
Proof.
  intros S (z & Hz & Ez) Hp. unfold nocross. rewrite <- Ez. clear c Ez.
  induction S as [|x t S IH F]; [destruct Hp|].
  destruct t as [|y t]; [destruct Hp|]. change (pairs (x :: y :: t)) with ((x, y) :: pairs (y :: t)) in Hp.
  destruct Hp as [<-|Hp].
  - cbn [fst snd]. destruct Hz as [<-|[<-|Hz]].
    + left. apply Qle_refl.
    + right. apply Qle_refl.
    + right. inversion S as [|? ? ? F']; subst. rewrite Forall_forall in F'. apply Qlt_le_weak. now apply F'.
  - destruct Hz as [<-|Hz].
    + left. destruct p as [a b]. apply pairs_in in Hp. destruct Hp as [Ha _].
      rewrite Forall_forall in F. apply Qlt_le_weak. now apply F.
    + now apply IH.
Qed.

Lemma last_indep (y : Q) t d e : last (y :: t) d = last (y :: t) e.
Proof. revert y. induction t as [|z t IH]; intros y; [reflexivity|]. exact (IH z). Qed.
Lemma telescope (H : Q -> Q) x t :
  qsum (map (fun p => H (snd p) - H (fst p)) (pairs (x :: t))) == H (last (x :: t) x) - H x.
Proof.
  revert x. induction t as [|y t IH]; intros x; [cbn; ring|].
  change (pairs (x :: y :: t)) with ((x, y) :: pairs (y :: t)). rewrite qsum_cons, IH. cbn [fst snd].
  change (last (x :: y :: t) x) with (last (y :: t) x). rewrite (last_indep y t x y). ring.
Qed.
Lemma last_max x t z : StronglySorted Qlt (x :: t) -> In z (x :: t) -> z <= last (x :: t) x.
Proof.
  intros S. assert (G : forall d, In z (x :: t) -> z <= last (x :: t) d); [|apply G].
  revert x z S. induction t as [|y t IH]; intros x z S d Hz.
  - destruct Hz as [<-|[]]. apply Qle_refl.
  - change (last (x :: y :: t) d) with (last (y :: t) d). inversion S as [|? ? S' F]; subst.
    destruct Hz as [<-|Hz].
    + apply Qle_trans with y; [inversion F; subst; now apply Qlt_le_weak|]. apply IH; [assumption|now left].
    + now apply IH.
Qed.

Ltac qb := repeat match goal with
  | H : Qle_bool _ _ = true |- _ => apply Qle_bool_iff in H
  | H : Qle_bool ?a ?b = false |- _ => assert (b < a) by (apply Qnot_le_lt; intros ?HH; apply Qle_bool_iff in HH; congruence); clear H
  end.
Lemma qle_cases a b : (Qle_bool a b = true /\ a <= b) \/ (Qle_bool a b = false /\ b < a).
Proof. destruct (Qle_bool a b) eqn:E; qb; [left|right]; split; auto. Qed.
Ltac qcase a b := let E := fresh "E" in let L := fresh "L" in
  destruct (qle_cases a b) as [[E L]|[E L]]; rewrite ?E in *.

(** the integral of an affine function of one variable *)
Lemma affine_sum xs a b al be :
  StronglySorted Qlt xs -> has xs a -> has xs b -> a <= b ->
  qsum (map (fun p => width p * (if Qle_bool a (mid p) && Qle_bool (mid p) b then al + be * mid p else 0)) (pairs xs))
  == (b - a) * (al + be * ((1 # 2) * (a + b))).
Proof.
  intros S Ha Hb Hab.
  set (H := fun t => let c := if Qle_bool t a then a else if Qle_bool b t then b else t in
                     al * c + be * ((1 # 2) * (c * c))).
  transitivity (qsum (map (fun p => H (snd p) - H (fst p)) (pairs xs))).
  - apply qsum_ext. intros p Hp.
    pose proof (pairs_lt xs p S Hp) as Lt.
    pose proof (pairs_nocross xs a p S Ha Hp) as Na. pose proof (pairs_nocross xs b p S Hb Hp) as Nb.
    destruct p as [u v]. unfold nocross, H, width, mid in *. cbn [fst snd] in *.
    qcase a ((1 # 2) * (u + v)); qcase ((1 # 2) * (u + v)) b; cbn [andb]; qcase v a; qcase b v; qcase u a; qcase b u;
    cbn zeta; try (exfalso; destruct Na, Nb; lra); try ring.
    all: try (assert (X : u == a) by (destruct Na, Nb; lra); try rewrite X).
    all: try (assert (Y : v == b) by (destruct Na, Nb; lra); try rewrite Y).
    all: try ring.
    all: try (assert (Z : a == b) by (destruct Na, Nb; lra); rewrite Z; ring).
  - destruct xs as [|x t]; [destruct Ha as (? & [] & _)|]. rewrite telescope.
    assert (A : H x == al * a + be * ((1 # 2) * (a * a))).
    { destruct Ha as (z & Hz & Ez). unfold H.
      assert (x <= z) by (destruct Hz as [<-|Hz]; [apply Qle_refl|inversion S as [|? ? ? F]; subst; rewrite Forall_forall in F; apply Qlt_le_weak; now apply F]).
      qcase x a; [cbn zeta; reflexivity|exfalso; lra]. }
    assert (B : H (last (x :: t) x) == al * b + be * ((1 # 2) * (b * b))).
    { destruct Hb as (z & Hz & Ez). pose proof (last_max x t z S Hz) as Lm. generalize dependent (last (x :: t) x). intros l Lm.
      unfold H. qcase l a.
      - cbn zeta. assert (Z : a == b) by lra. rewrite Z. reflexivity.
      - qcase b l; [cbn zeta; reflexivity|exfalso; lra]. }
    rewrite A, B. ring.
Qed.

(** the integral of a bilinear function over a rectangle of the partition *)
Lemma bilinear_sum xs ys r a b c d x1 y1 dx dy :
  StronglySorted Qlt xs -> StronglySorted Qlt ys ->
  has xs (r_x1 r) -> has xs (r_x2 r) -> has ys (r_y1 r) -> has ys (r_y2 r) ->
  r_x1 r <= r_x2 r -> r_y1 r <= r_y2 r -> ~ dx == 0 -> ~ dy == 0 ->
  riemann xs ys (over r (fun x y => a * ((x - x1) / dx) + b * ((y - y1) / dy) + c * ((x - x1) / dx) * ((y - y1) / dy) + d))
  == ((1 # 2) * (a * ((r_x2 r + r_x1 r - 2 * x1) / dx) + b * ((r_y2 r + r_y1 r - 2 * y1) / dy))
      + (1 # 4) * c * ((r_x2 r + r_x1 r - 2 * x1) / dx) * ((r_y2 r + r_y1 r - 2 * y1) / dy) + d)
     * ((r_y2 r - r_y1 r) * (r_x2 r - r_x1 r)).
Proof.
  intros Sx Sy H1 H2 H3 H4 Lx Ly Nx Ny. destruct r as [xa xb ya yb]. cbn [r_x1 r_x2 r_y1 r_y2] in *.
  rewrite riemann_unfold. unfold over, inside. cbn [r_x1 r_x2 r_y1 r_y2].
  set (ym := (1 # 2) * (ya + yb)).
  set (al := (yb - ya) * (d - a * x1 / dx + (b - c * x1 / dx) * ((ym - y1) / dy))).
  set (be := (yb - ya) * (a / dx + c / dx * ((ym - y1) / dy))).
  transitivity (qsum (map (fun p => width p * (if Qle_bool xa (mid p) && Qle_bool (mid p) xb then al + be * mid p else 0)) (pairs xs))).
  - apply qsum_ext. intros p _.
    destruct (Qle_bool xa (mid p) && Qle_bool (mid p) xb); cbn [andb].
    + pose (s := (mid p - x1) / dx).
      transitivity (width p * qsum (map (fun q => width q * (if Qle_bool ya (mid q) && Qle_bool (mid q) yb
         then (a * s + d - (b + c * s) * y1 / dy) + ((b + c * s) / dy) * mid q else 0)) (pairs ys))).
      * rewrite <- qsum_scal. apply qsum_ext. intros q _.
        destruct (Qle_bool ya (mid q) && Qle_bool (mid q) yb); [|ring]. unfold s. field. auto.
      * rewrite (affine_sum ys ya yb _ _ Sy H3 H4 Ly). unfold al, be, s, ym. field. auto.
    + transitivity (qsum (map (fun _ : Q * Q => 0) (pairs ys))); [apply qsum_ext; intros; ring|]. rewrite qsum_zero. ring.
  - rewrite (affine_sum xs xa xb al be Sx H1 H2 Lx). unfold al, be, ym. field. auto.
Qed.

Lemma area_sum xs ys r :
  StronglySorted Qlt xs -> StronglySorted Qlt ys ->
  has xs (r_x1 r) -> has xs (r_x2 r) -> has ys (r_y1 r) -> has ys (r_y2 r) ->
  r_x1 r <= r_x2 r -> r_y1 r <= r_y2 r ->
  riemann xs ys (over r (fun _ _ => 1)) == (r_x2 r - r_x1 r) * (r_y2 r - r_y1 r).
Proof.
  intros. pose proof (bilinear_sum xs ys r 0 0 0 1 0 0 1 1) as B.
  transitivity (riemann xs ys (over r (fun x y => 0 * ((x - 0) / 1) + 0 * ((y - 0) / 1) + 0 * ((x - 0) / 1) * ((y - 0) / 1) + 1))).
  - apply riemann_ext. intros. unfold over. destruct (inside _ _ _); [field|reflexivity].
  - rewrite B; auto; try discriminate. field.
Qed.

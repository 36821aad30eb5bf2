(** C17, C18 and the message part of C25. *)
From Coq Require Import ZArith QArith Qfield Lqa List Lia Bool.
From Verif Require Import Model_Face Model_Grid Spec_Grid Model_Ghost Spec_Ghost Proof_Grid Prop_Grid Proof_Ghost Proof_Ghost2.
Import ListNotations.
Open Scope Z_scope.

(** ** C17 *)

(** Packing succeeds and changes nothing outside of the advertised number of elements. *)
Theorem C17_pack_size : forall o m b, large_enough o -> extra_ok o ->
  exists n b', ghost_pack_elems o = Some n /\
  n = cells_sent o * (meqn (g_d o) + b2z (packarea o) + packextra o)
      + (if time_sync o then 2 * (4 * meqn (g_d o) + 2) * (mx (g_d o) + my (g_d o)) else 0) /\
  local_ghost_pack o m b = Some b' /\
  (forall k, ~ (0 <= k < n) -> b' k = b k) /\
  (forall k, 0 <= k < n -> exists l, sent o l /\ b' k = m l) /\
  (forall l, sent o l -> exists k, 0 <= k < n /\ b' k = m l).
Proof.
  intros o m b HL HX. destruct (comm_pack o HL HX m b) as (b' & E & HB & HO).
  exists (elems o), b'. split; [now apply elems_ok|]. split; [reflexivity|]. split; [exact E|]. split; [exact HO|].
  pose proof (len_all o HL) as L. split.
  - intros k Hk. destruct (nth_error (all_list o) (Z.to_nat k)) as [l|] eqn:En.
    + exists l. split; [apply all_sent; [exact HL|]; eapply nth_error_In; exact En|].
      specialize (HB _ _ En). rewrite Z2Nat.id in HB by lia. exact HB.
    + apply nth_error_None in En. lia.
  - intros l Hl. apply all_sent in Hl; [|exact HL]. apply In_nth_error in Hl. destruct Hl as (n & En).
    exists (Z.of_nat n). split; [|exact (HB _ _ En)].
    assert ((n < length (all_list o))%nat) by (apply nth_error_Some; rewrite En; discriminate). lia.
Qed.
Print Assumptions C17_pack_size.

(** The receiver gets the values of the sender at every location sent and keeps all its
    other values. *)
Theorem C17_roundtrip : forall o m1 m2 b, large_enough o -> extra_ok o ->
  exists b' m2', local_ghost_pack o m1 b = Some b' /\ remote_ghost_unpack o m2 b' = Some m2' /\
  (forall l, sent o l -> m2' l = m1 l) /\ (forall l, ~ sent o l -> m2' l = m2 l).
Proof.
  intros o m1 m2 b HL HX. destruct (comm_pack o HL HX m1 b) as (b' & E & HB & HO).
  destruct (comm_unpack o HL HX m1 m2 b' HB) as (m2' & E2 & A & B).
  exists b', m2'. split; [exact E|]. split; [exact E2|]. now split.
Qed.
Print Assumptions C17_roundtrip.

(** What the receiver needs for its own ghost cells: every cell that averaging, copying or
    interpolation on a neighbor reads lies within refratio * mbc cells of the boundary. *)
Corollary C17_strips : forall o m1 m2 b, large_enough o -> extra_ok o ->
  exists b' m2', local_ghost_pack o m1 b = Some b' /\ remote_ghost_unpack o m2 b' = Some m2' /\
  (forall i j mq, 1 <= mq <= meqn (g_d o) -> near (g_d o) (refratio o * mbc (g_d o)) i j ->
     m2' (LQ (i, j, mq)) = m1 (LQ (i, j, mq))) /\
  (forall i j mq, refratio o * mbc (g_d o) < i <= mx (g_d o) - refratio o * mbc (g_d o) ->
     refratio o * mbc (g_d o) < j <= my (g_d o) - refratio o * mbc (g_d o) ->
     m2' (LQ (i, j, mq)) = m2 (LQ (i, j, mq))).
Proof.
  intros o m1 m2 b HL HX. destruct (C17_roundtrip o m1 m2 b HL HX) as (b' & m2' & E1 & E2 & A & B).
  exists b', m2'. split; [exact E1|]. split; [exact E2|]. split.
  - intros i j mq Hm Hn. apply A. now split.
  - intros i j mq Hi Hj. apply B. intros [(_ & _ & H) _]. unfold width_sent in H. lia.
Qed.
Print Assumptions C17_strips.

(** *** Instance: an 8 by 10 patch with two ghost layers, three fields, area, registers,
    and one extra field per cell *)
Definition copy_extra (_ base size mode : Z) (s : pst) : option (pst * Z) :=
  if Z.even mode then
    Some (mkPst (mem s) (fun n => if (base <=? n) && (n <? base + size) then mem s (LX (n - base)) else buf s n), 0)
  else
    Some (mkPst (fun l => match l with LX n => if (0 <=? n) && (n <? size) then buf s (base + n) else mem s l
                                     | _ => mem s l end) (buf s), 0).
Lemma copy_extra_ok : copies_extra copy_extra.
Proof.
  intros mint base size mode s Hb Hs. unfold copy_extra. destruct (Z.even mode).
  - eexists. split; [reflexivity|]. split; [reflexivity|]. cbn [buf]. split.
    + intros n Hn. rewrite (proj2 (Z.leb_le _ _)), (proj2 (Z.ltb_lt _ _)) by lia. cbn [andb]. f_equal. f_equal. lia.
    + intros n Hn. destruct (Z.leb_spec base n), (Z.ltb_spec n (base + size)); cbn [andb]; try reflexivity. lia.
  - eexists. split; [reflexivity|]. split; [reflexivity|]. cbn [mem]. split.
    + intros n Hn. rewrite (proj2 (Z.leb_le _ _)), (proj2 (Z.ltb_lt _ _)) by lia. reflexivity.
    + intros l H. destruct l as [c|i j|k j|k j|k j|k j|k j|k j|k j|n]; try reflexivity.
      destruct (Z.leb_spec 0 n), (Z.ltb_spec n size); cbn [andb]; try reflexivity. now destruct (H n ltac:(lia)).
Qed.

Definition o17 : gopts := mkG (mkDims 8 10 2 3) 2 1 true true (Some copy_extra).
Lemma o17_ok : large_enough o17 /\ extra_ok o17.
Proof.
  split; [repeat split; cbn; lia|]. right. exists copy_extra. split; [reflexivity|exact copy_extra_ok].
Qed.
Example C17_instance : exists b' m2',
  local_ghost_pack o17 (fun l => match l with LQ (i, j, mq) => Some (inject_Z (100 * i + 10 * j + mq)) | _ => Some 7%Q end) (fun _ => None) = Some b' /\
  remote_ghost_unpack o17 (fun _ => None) b' = Some m2' /\
  m2' (LQ (-1, 12, 3)) = Some 23%Q /\ m2' (LQ (4, 7, 1)) = Some 471%Q /\ m2' (LEf 3 47) = Some 7%Q /\
  m2' (LQ (5, 5, 1)) = Some 551%Q /\ m2' (LQ (20, 20, 1)) = None /\
  ghost_pack_elems o17 = Some (168 * 5 + 28 * 18).
Proof.
  destruct (C17_roundtrip o17 (fun l => match l with LQ (i, j, mq) => Some (inject_Z (100 * i + 10 * j + mq)) | _ => Some 7%Q end)
    (fun _ => None) (fun _ => None) (proj1 o17_ok) (proj2 o17_ok)) as (b' & m2' & E1 & E2 & A & B).
  exists b', m2'. split; [exact E1|]. split; [exact E2|].
  split. { rewrite A; [reflexivity|]. split; [|cbn; lia]. repeat split; cbn; lia. }
  split. { rewrite A; [reflexivity|]. split; [|cbn; lia]. repeat split; cbn; lia. }
  split. { rewrite A; [reflexivity|]. repeat split; cbn; lia. }
  split. { rewrite A; [reflexivity|]. split; [|cbn; lia]. repeat split; cbn; lia. }
  split. { rewrite B; [reflexivity|]. intros [(H & _) _]. cbn in H. lia. }
  vm_compute. reflexivity.
Qed.

(** The option check accepts patches with 2 mbc <= mx < 2 refratio mbc.  For them the strips
    overlap; the size computed from the "hole" still matches the loops, so that no check
    fails, and cells that a neighbor reads are not transferred. *)
Definition o17small : gopts := mkG (mkDims 4 4 2 1) 2 0 false false None.
Lemma bind2_inv : forall (A B C : Type) (x : option A) (f : A -> option B) (g : B -> C) c,
  bind x (fun a => bind (f a) (fun b => Some (g b))) = Some c -> exists a b, x = Some a /\ f a = Some b /\ g b = c.
Proof.
  intros A B C [a|] f g c H; [|discriminate H]. cbn [bind] in H. destruct (f a) as [b|] eqn:E; [|discriminate H].
  exists a, b. split; [reflexivity|]. split; [exact E|]. cbn [bind] in H. congruence.
Qed.
Lemma small_run : bind (local_ghost_pack o17small (fun _ => Some 1%Q) (fun _ => None)) (fun b =>
     bind (remote_ghost_unpack o17small (fun _ => None) b) (fun m => Some (m (LQ (2, 2, 1))))) = Some None.
Proof. vm_compute. reflexivity. Qed.
Theorem C17_small_patch_refuted :
  2 * mbc (g_d o17small) <= mx (g_d o17small) /\
  exists b' m2', local_ghost_pack o17small (fun _ => Some 1%Q) (fun _ => None) = Some b' /\
  remote_ghost_unpack o17small (fun _ => None) b' = Some m2' /\
  near (g_d o17small) (refratio o17small * mbc (g_d o17small)) 2 2 /\ m2' (LQ (2, 2, 1)) <> Some 1%Q.
Proof.
  split; [cbn; lia|].
  destruct (bind2_inv _ _ _ _ _ (fun m => m (LQ (2, 2, 1))) _ small_run) as (b' & m2' & E1 & E2 & E3). exists b', m2'.
  split; [exact E1|]. split; [exact E2|]. split; [repeat split; cbn; lia|]. rewrite E3. discriminate.
Qed.
Print Assumptions C17_small_patch_refuted.

(** ** C25, messages *)

(** The registers alone, with the size used for them in the message. *)
Definition register (d : dims) (l : loc) : Prop :=
  match l with
  | LFm k j | LFp k j => 0 <= k < 2 /\ 0 <= j < my d * meqn d
  | LGm k i | LGp k i => 0 <= k < 2 /\ 0 <= i < mx d * meqn d
  | LEf k j => 0 <= k < 4 /\ 0 <= j < 2 * (if k <? 2 then my d else mx d) * meqn d
  | LEl k j | LAr k j => 0 <= k < 4 /\ 0 <= j < (if k <? 2 then my d else mx d)
  | _ => False
  end.
Theorem C25_pack_registers : forall d cap base m1 m2 b, let size := 2 * (4 * meqn d + 2) * (mx d + my d) in
  0 <= mx d -> 0 <= my d -> 0 <= meqn d -> 0 <= base -> base + size <= cap ->
  exists b' m2', pack_registers d cap base size true (mkPst m1 b) = Some (mkPst m1 b', 0) /\
  (forall k, ~ (base <= k < base + size) -> b' k = b k) /\
  pack_registers d cap base size false (mkPst m2 b') = Some (mkPst m2' b', 0) /\
  (forall l, register d l -> m2' l = m1 l) /\ (forall l, ~ register d l -> m2' l = m2 l).
Proof.
  intros d cap base m1 m2 b size Hx Hy Hm Hb Hc. pose proof (len_regs d Hx Hy Hm) as L.
  assert (INL : forall l, In l (reg_list d) -> in_loc d l = true).
  { intros l Hl. apply in_regs in Hl; try assumption. 
    destruct l as [c|i j|k j|k j|k j|k j|k j|k j|k j|n]; try contradiction; cbn [in_loc]; rewrite andb_true_iff, !in_range_iff; exact Hl. }
  destruct (run_pack d cap (rxfer d cap base true) base (reg_list d) (mkPst m1 b) 0) as (b' & E1 & A1 & B1);
    [intros; reflexivity|exact INL|lia|unfold size in Hc; lia|].
  destruct (run_unpack d cap (rxfer d cap base false) base m1 (reg_list d) (mkPst m2 b') 0) as (m2' & E2 & A2 & B2 & _);
    [intros; reflexivity|exact INL|lia|unfold size in Hc; lia|exact A1|].
  pose proof (reg_run (mkG d 0 0 false false None)) as RR. cbn [g_d] in RR.
  exists b', m2'. rewrite !RR, E1, E2. cbn [bind fst snd mem buf]. rewrite Z.add_0_l, L. fold size. rewrite Z.eqb_refl.
  split; [reflexivity|]. split. { intros k Hk. apply B1. rewrite Z.add_0_r, L. exact Hk. }
  split; [reflexivity|].
  assert (R : forall l, In l (reg_list d) <-> register d l) by (intros l; apply in_regs; assumption).
  split; intros l Hl; [apply A2|apply B2]; now rewrite R.
Qed.
Print Assumptions C25_pack_registers.

Example C25_pack_instance : exists b' m2',
  pack_registers (mkDims 2 3 1 2) 104 3 100 true (mkPst (fun _ => Some 5%Q) (fun _ => Some 1%Q)) = Some (mkPst (fun _ => Some 5%Q) b', 0) /\
  b' 2 = Some 1%Q /\ b' 103 = Some 1%Q /\
  pack_registers (mkDims 2 3 1 2) 104 3 100 false (mkPst (fun _ => Some 0%Q) b') = Some (mkPst m2' b', 0) /\
  m2' (LFm 1 5) = Some 5%Q /\ m2' (LFm 1 6) = Some 0%Q /\ m2' (LEf 0 11) = Some 5%Q /\ m2' (LAr 3 1) = Some 5%Q.
Proof.
  destruct (C25_pack_registers (mkDims 2 3 1 2) 104 3 (fun _ => Some 5%Q) (fun _ => Some 0%Q) (fun _ => Some 1%Q)) as
    (b' & m2' & E1 & O & E2 & A & B); try (cbn; lia).
  exists b', m2'. split; [exact E1|]. split; [apply O; cbn; lia|]. split; [apply O; cbn; lia|]. split; [exact E2|].
  split; [apply A; cbn; lia|]. split; [apply B; cbn; lia|]. split; apply A; cbn; lia.
Qed.

(** ** C18 *)

Lemma interp_writes : forall d alpha fl fc qc ql V, holds d ql fl -> holds d qc fc -> 0 <= mbc d ->
  (forall i j m, interior d (i, j, m) -> V (i, j, m) = Some (fl i j m + alpha * (fc i j m - fl i j m))%Q) ->
  forall i j m s0, interior d (i, j, m) -> writes none s0 (interp_one d qc ql alpha i j m) (fun c => c = (i, j, m)) V.
Proof.
  intros d alpha fl fc qc ql V Hl Hc Hb HV i j m s0 Hi.
  assert (Hq : in_q d (i, j, m) = true) by (apply in_q_iff; unfold interior in Hi; lia).
  eapply writes_ext; [|apply (writes_cell none s0 d (i, j, m) (fl i j m + alpha * (fc i j m - fl i j m))%Q Hq V (HV _ _ _ Hi))].
  intros s. unfold interp_one, rd. rewrite Hq, (Hl _ _ _ Hi), (Hc _ _ _ Hi). reflexivity.
Qed.

Lemma writes_seq0 : forall s0 f g W W' V, writes none s0 f W V -> writes none s0 g W' V ->
  writes none s0 (fun s => bind (f s) g) (fun c => W c \/ W' c) V.
Proof.
  intros s0 f g W W' V Hf Hg. apply (writes_weaken (fun c => none c \/ none c) none s0 _ (fun c => W c \/ W' c)).
  - apply writes_seq; [exact Hf|exact Hg|]. intros c [].
  - intros c [H|H]; exact H.
  - intros c. reflexivity.
Qed.

Theorem C18_timeinterp : forall d width qcurr qlast fc fl alpha q,
  0 <= mbc d -> 2 * mbc d <= mx d -> 2 * mbc d <= my d -> 1 <= meqn d ->
  0 <= width -> 2 * (width / 2 + 1) <= mx d -> 2 * (width / 2 + 1) <= my d ->
  holds d qcurr fc -> holds d qlast fl ->
  exists q', setup_timeinterp d width qcurr qlast alpha q = Some q' /\
  (forall i j m, rim d (mbc d) (i, j, m) -> q' (i, j, m) = Some (fl i j m + alpha * (fc i j m - fl i j m))%Q) /\
  (forall c, ~ rim d (mbc d) c -> q' c = q c).
Proof.
  intros d width qc ql fc fl alpha q Hb Hx Hy Hm Hw Hwx Hwy Hc Hl. unfold setup_timeinterp.
  rewrite Z.quot_div_nonneg by lia. cbv zeta. set (w := width / 2 + 1) in *.
  assert (Hw2 : 0 <= width / 2) by (apply Z.div_pos; lia).
  rewrite (proj2 (Z.leb_le 0 _)) by (apply Z.mul_nonneg_nonneg; lia).
  rewrite (proj2 (Z.ltb_lt 0 _)) by nia. cbn [negb].
  set (V := fun c : cell => let '(i, j, m) := c in Some (fl i j m + alpha * (fc i j m - fl i j m))%Q).
  assert (HV : forall i j m, interior d (i, j, m) -> V (i, j, m) = Some (fl i j m + alpha * (fc i j m - fl i j m))%Q) by reflexivity.
  pose proof (fun i j m => interp_writes d alpha fl fc qc ql V Hl Hc Hb HV i j m q) as HW.
  assert (W : writes none q (fort_timeinterp d qc ql alpha) (rim d (mbc d)) V).
  { unfold fort_timeinterp. cbv zeta. eapply (writes_weaken none).
    - apply writes_loop0. intros m Hmq.
      apply writes_seq0; [|apply writes_seq0; [|apply writes_seq0]];
        (apply writes_loop0; intros j Hj; apply writes_loop0; intros i Hi; apply HW; unfold interior; lia).
    - intros c Hn. exact Hn.
    - intros [[i j] m]. unfold rim, interior. split.
      + intros (m' & Hm' & K). destruct K as [K|[K|[K|K]]]; destruct K as (j' & Hj & i' & Hi & Heq);
          (assert (i = i' /\ j = j' /\ m = m') as (-> & -> & ->) by (repeat split; congruence)); lia.
      + intros (Hin & Hr). exists m. split; [lia|].
        destruct (Z_le_gt_dec i (mbc d)) as [C1|C1]; [destruct (Z_le_gt_dec j (my d - mbc d)) as [C2|C2]|].
        * left. exists j. split; [lia|]. exists i. split; [lia|reflexivity].
        * right; right; right. exists j. split; [lia|]. exists i. split; [lia|reflexivity].
        * destruct (Z_le_gt_dec j (mbc d)) as [C2|C2].
          { right; left. exists j. split; [lia|]. exists i. split; [lia|reflexivity]. }
          destruct (Z_le_gt_dec i (mx d - mbc d)) as [C3|C3].
          { right; right; right. exists j. split; [lia|]. exists i. split; [lia|reflexivity]. }
          right; right; left. exists j. split; [lia|]. exists i. split; [lia|reflexivity]. }
  destruct (W q) as (q' & E & A & B & _); [unfold none; tauto|]. exists q'. split; [exact E|]. split.
  - intros i j m Hr. rewrite A by exact Hr. apply HV. now destruct Hr.
  - exact B.
Qed.
Print Assumptions C18_timeinterp.

(** No ghost cell is modified. *)
Corollary C18_ghosts_kept : forall d width qcurr qlast fc fl alpha q,
  0 <= mbc d -> 2 * mbc d <= mx d -> 2 * mbc d <= my d -> 1 <= meqn d ->
  0 <= width -> 2 * (width / 2 + 1) <= mx d -> 2 * (width / 2 + 1) <= my d ->
  holds d qcurr fc -> holds d qlast fl ->
  exists q', setup_timeinterp d width qcurr qlast alpha q = Some q' /\ forall c, ~ interior d c -> q' c = q c.
Proof.
  intros d width qc ql fc fl alpha q H1 H2 H3 H4 H5 H6 H7 H8 H9.
  destruct (C18_timeinterp d width qc ql fc fl alpha q H1 H2 H3 H4 H5 H6 H7 H8 H9) as (q' & E & _ & B).
  exists q'. split; [exact E|]. intros [[i j] m] Hn. apply B. intros [Hi _]. now apply Hn.
Qed.
Print Assumptions C18_ghosts_kept.

(** A solution linear in time, known at times t0 and t1, is reproduced at every time in
    between. *)
Corollary C18_linear_exact : forall d width qcurr qlast (a v : data) t0 t1 t q,
  0 <= mbc d -> 2 * mbc d <= mx d -> 2 * mbc d <= my d -> 1 <= meqn d ->
  0 <= width -> 2 * (width / 2 + 1) <= mx d -> 2 * (width / 2 + 1) <= my d -> ~ (t1 - t0 == 0)%Q ->
  holds d qlast (fun i j m => a i j m + t0 * v i j m)%Q -> holds d qcurr (fun i j m => a i j m + t1 * v i j m)%Q ->
  exists q', setup_timeinterp d width qcurr qlast ((t - t0) / (t1 - t0))%Q q = Some q' /\
  forall i j m, rim d (mbc d) (i, j, m) -> at_cell q' (i, j, m) (a i j m + t * v i j m)%Q.
Proof.
  intros d width qc ql a v t0 t1 t q H1 H2 H3 H4 H5 H6 H7 Ht Hl Hc.
  destruct (C18_timeinterp d width qc ql _ _ ((t - t0) / (t1 - t0))%Q q H1 H2 H3 H4 H5 H6 H7 Hc Hl) as (q' & E & A & _).
  exists q'. split; [exact E|]. intros i j m Hr. eexists. split; [apply A; exact Hr|]. field. exact Ht.
Qed.
Print Assumptions C18_linear_exact.

(** The result lies between the two time levels. *)
Corollary C18_between : forall d width qcurr qlast fc fl alpha q,
  0 <= mbc d -> 2 * mbc d <= mx d -> 2 * mbc d <= my d -> 1 <= meqn d ->
  0 <= width -> 2 * (width / 2 + 1) <= mx d -> 2 * (width / 2 + 1) <= my d ->
  holds d qcurr fc -> holds d qlast fl -> (0 <= alpha <= 1)%Q ->
  exists q', setup_timeinterp d width qcurr qlast alpha q = Some q' /\
  forall i j m lo hi, rim d (mbc d) (i, j, m) -> (lo <= fl i j m <= hi)%Q -> (lo <= fc i j m <= hi)%Q ->
    exists x, q' (i, j, m) = Some x /\ (lo <= x <= hi)%Q.
Proof.
  intros d width qc ql fc fl alpha q H1 H2 H3 H4 H5 H6 H7 H8 H9 Ha.
  destruct (C18_timeinterp d width qc ql fc fl alpha q H1 H2 H3 H4 H5 H6 H7 H8 H9) as (q' & E & A & _).
  exists q'. split; [exact E|]. intros i j m lo hi Hr Hf Hg. eexists. split; [apply A; exact Hr|].
  set (x := fl i j m) in *. set (y := fc i j m) in *. split; nra.
Qed.
Print Assumptions C18_between.

(** *** Instance *)
Example C18_instance : exists q',
  setup_timeinterp (mkDims 8 6 2 2) 3 (full (mkDims 8 6 2 2) (fun i j m => inject_Z (i + 10 * j + m)))
    (full (mkDims 8 6 2 2) (fun i j m => inject_Z (i + 10 * j))) (1#4) (fun _ => None) = Some q' /\
  at_cell q' (7, 3, 2) (37 + (1#2))%Q /\ q' (3, 3, 1) = None /\ q' (0, 3, 1) = None.
Proof.
  destruct (C18_timeinterp (mkDims 8 6 2 2) 3 (full (mkDims 8 6 2 2) (fun i j m => inject_Z (i + 10 * j + m)))
    (full (mkDims 8 6 2 2) (fun i j m => inject_Z (i + 10 * j))) (fun i j m => inject_Z (i + 10 * j + m))
    (fun i j m => inject_Z (i + 10 * j)) (1#4) (fun _ => None)) as (q' & E & A & B); try (cbn; lia); try apply full_holds.
  exists q'. split; [exact E|]. split; [|split].
  - exists (37 + (1#4) * (39 - 37))%Q. split; [|reflexivity]. rewrite A; [reflexivity|]. unfold rim, interior. cbn. lia.
  - apply B. unfold rim, interior. cbn. lia.
  - apply B. unfold rim, interior. cbn. lia.
Qed.

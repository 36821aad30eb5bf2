(** C24, C25: conservation. *)
From Coq Require Import ZArith QArith List Lia Lqa Bool Qfield.
From Verif Require Import Base_Float Model_Face Spec_Face Proof_Face5 Model_Grid Spec_Grid Proof_Grid Proof_Grid2 Proof_Grid4 Proof_Grid5
  Model_Sync Spec_Sync Proof_Sync Proof_Sync2 Proof_Sync3 Proof_Sync4 Proof_Sync5 Proof_Sync6 Proof_Sync7 Proof_Sync8 Proof_Sync9.
Import ListNotations.
Open Scope Z_scope.

(** ** New patches *)

(** A new patch starts with nothing recorded, and with the areas of the cells and lengths of the
    edges at its boundary. *)
Theorem C24_new : forall d m dx dy area el (manifold : bool) kappa G,
  mx d = m -> my d = m -> 0 <= mbc d ->
  (forall i j, 1 <= i <= m -> 1 <= j <= m -> ~ (kappa i j == 0)%Q /\
     if manifold then area (i, j) = Some (kappa i j) else kappa i j = (dx * dy)%Q) ->
  (forall i j, 1 <= i <= m + 1 -> 1 <= j <= m + 1 ->
     if manifold then el (i, j, 1) = Some (elx G i j) /\ el (i, j, 2) = Some (ely G i j) else elx G i j = dy /\ ely G i j = dx) ->
  exists r, time_sync_setup d dx dy area el manifold time_sync_new = Some r /\
    reg_ok d m kappa r /\ lengths d G r /\ no_records d m r.
Proof.
  intros d m dx dy area el manifold kappa G Hx Hy Hb Hk He.
  set (a := fun f t => let '(i, j) := inner_cell f m 1 t in kappa i j).
  set (e := fun f t => match f with 0 => elx G 1 t | 1 => elx G (m + 1) t | 2 => ely G t 1 | _ => ely G t (m + 1) end).
  assert (X : exists r, time_sync_setup d dx dy area el manifold time_sync_new = Some r /\
    (forall c, fst (fst c) < 16 -> r c = time_sync_new c) /\
    (forall k t, 0 <= k < 4 -> 1 <= t <= face_len d k -> r (AR k t) = Some (a k t) /\ r (EL k t) = Some (e k t))).
  { unfold time_sync_setup. destruct manifold.
    - assert (RA : forall i j, 1 <= i <= m -> 1 <= j <= m -> rd_area d area i j = Some (kappa i j)).
      { intros i j Hi Hj. unfold rd_area. repeat match goal with |- context [?x <=? ?y] => replace (x <=? y) with true by lia end. now apply Hk. }
      apply (setup_gen d a e time_sync_new (fun j => rd_area d area 1 j) (fun j => rd_area d area (mx d) j) (fun j => el (1, j, 1)) (fun j => el (mx d + 1, j, 1))
        (fun i => rd_area d area i 1) (fun i => rd_area d area i (my d)) (fun i => el (i, 1, 2)) (fun i => el (i, my d + 1, 2)));
      intros t Ht; unfold a, e; cbn [inner_cell]; repeat split; try rewrite RA by lia; rewrite ?Hx, ?Hy;
      rewrite ?Z.add_simpl_r, ?(Z.add_comm m 1), ?Z.add_simpl_l; try (apply He; lia); f_equal; f_equal; lia.
    - apply (setup_gen d a e time_sync_new (fun j => Some (dx * dy)%Q) (fun j => Some (dx * dy)%Q) (fun j => Some dy) (fun j => Some dy)
        (fun i => Some (dx * dy)%Q) (fun i => Some (dx * dy)%Q) (fun i => Some dx) (fun i => Some dx));
      intros t Ht; unfold a, e; cbn [inner_cell]; repeat split; f_equal; symmetry; first [apply Hk; lia | apply He; lia]. }
  destruct X as (r & E & R1 & R2). destruct (new_regs d a e r R1 R2) as (A1 & A2 & A3).
  exists r. split; [exact E|]. split; [|split].
  - split; [exact A1|]. split; [exact A2|]. intros f t Hf Ht.
    destruct (R2 f t Hf) as [E1 _]; [unfold face_len; destruct (f <? 2); lia|].
    assert (I : (let '(i, j) := inner_cell f m 1 t in 1 <= i <= m /\ 1 <= j <= m)) by (clear - Hf Ht; face4 f Hf; cbn [inner_cell]; lia).
    unfold a in E1. destruct (inner_cell f m 1 t) as [i j]. unfold val. rewrite E1. split; [reflexivity|]. now apply Hk.
  - split; intros t Ht; split.
    + apply (R2 0 t); [lia|exact Ht]. + rewrite Hx. apply (R2 1 t); [lia|exact Ht].
    + apply (R2 2 t); [lia|exact Ht]. + rewrite Hy. apply (R2 3 t); [lia|exact Ht].
  - intros f t mq Hf _ _. now apply A3.
Qed.
Print Assumptions C24_new.
Example C24_new_instance : bind (time_sync_setup (mkDims 2 2 2 1) (1#2) (1#4) (fun _ => None) (fun _ => None) false time_sync_new)
  (fun r => Some (r (AR 1 2), r (EL 0 1), r (EL 3 2), r (FP 1 1 1))) = Some (Some (1#8), Some (1#4), Some (1#2), Some 0)%Q.
Proof. vm_compute. reflexivity. Qed.

(** ** One patch *)

(** A time step of a patch runs, and the amount of every conserved quantity in the patch
    changes by exactly what the registers recorded as entering through its four faces, whatever
    the Riemann solver returned. *)
Theorem C24_step : forall d rpn2_cons maux mcapa aux fp fm gp gm dt dx dy G ka q r,
  1 <= mx d -> 1 <= my d -> 1 <= mbc d -> ~ (dx == 0)%Q -> ~ (dy == 0)%Q ->
  fluxes_of d rpn2_cons maux G q aux -> splits d G dx dy fp fm gp gm -> closed d G ->
  lengths d G r -> capacity d maux ka dx dy mcapa aux ->
  full d q -> full d fp -> full d fm -> full d gp -> full d gm -> assigned d r ->
  exists q' r', clawpack46_step d rpn2_cons maux true true dt dx dy mcapa aux fp fm gp gm q r = Some (q', r') /\
    assigned d r' /\ (consistent d r -> consistent d r') /\
    forall mq, 1 <= mq <= meqn d ->
      (mass d ka q' mq - mass d ka q mq == entered d r' mq - entered d r mq)%Q.
Proof.
  intros d rp maux mcapa aux fp fm gp gm dt dx dy G ka q r Hx Hy Hb Hdx Hdy HF Hsp Hcl Hlen Hcap Fq Ffp Ffm Fgp Fgm HA.
  assert (HH : step_hyps d rp maux G q aux dx dy fp fm gp gm mcapa ka).
  { unfold step_hyps. split; [lia|]. repeat (split; [assumption|]). assumption. }
  destruct (step_ok d rp maux G q aux dt dx dy fp fm gp gm mcapa ka r HH HA Hlen) as (q' & r' & E & A & _).
  exists q', r'. split; [exact E|]. split; [exact A|].
  exact (step_balance d rp maux G q aux dt dx dy fp fm gp gm mcapa ka r q' r' HH HA Hlen E).
Qed.
Print Assumptions C24_step.

(** ** Synchronisation *)

(** Whatever patches a process owns, its part of the synchronisation runs to the end. *)
Theorem C24_runs : forall rnd d m F K all kappa S own s lo hi, rounding rnd ->
  linked d m F K all -> state_ok d m all kappa S -> NoDup own -> incl own all -> sees F own s S -> lo <= hi ->
  exists s', correct_coarse_cells rnd d (mkForest own (lev F) (nbr F)) lo hi s = Some s'.
Proof.
  intros rnd d m F K all kappa S own s lo hi Hr HL HS ND HI HV Hle.
  destruct (process_ok rnd Hr d m F K all HL kappa S own s lo hi HS ND HI HV Hle) as (s' & E & _). now exists s'.
Qed.
Print Assumptions C24_runs.

(** Every cell: what is added is, for each face the cell touches, the amount by which the
    neighbor's record of the flux differs (half of it between patches of the same level), over the
    area of the cell.  The records are those before the synchronisation. *)
Theorem C24_cells : forall rnd d m F K all kappa procs lo hi S S', rounding rnd ->
  linked d m F K all -> state_ok d m all kappa S -> distributed all procs -> lo <= hi ->
  parallel_sync d F rnd procs lo hi S S' ->
  forall p i j mq, In p all -> interior d (i, j, mq) ->
  exists v, sol S' p (i, j, mq) = Some v /\
    (v == val (sol S p) (i, j, mq) + qsum 0 3 (fun f =>
       match piece m f i j with
       | Some t => if synced F lo hi p f then correction m F K S p f t mq / kappa p i j else 0
       | None => 0
       end))%Q.
Proof. intros rnd d m F K all kappa procs lo hi S S' Hr HL. exact (sync_cells rnd Hr d m F K all HL kappa procs lo hi S S'). Qed.
Print Assumptions C24_cells.

(** Mass minus what the registers still hold changes only by what came through the physical
    boundary. *)
Theorem C24_balance : forall rnd d m F K all kappa procs lo hi S S', rounding rnd ->
  linked d m F K all -> state_ok d m all kappa S -> distributed all procs -> lo <= hi ->
  parallel_sync d F rnd procs lo hi S S' ->
  state_ok d m all kappa S' /\
  forall mq, 1 <= mq <= meqn d ->
    (total_mass d all kappa S' mq - total_entered d all S' mq ==
     total_mass d all kappa S mq - total_entered d all S mq + boundary_inflow d F all lo hi S mq)%Q.
Proof.
  intros rnd d m F K all kappa procs lo hi S S' Hr HL HS HP Hle HSy.
  exact (event_ok rnd Hr d m F K all HL kappa S S' _ HS (sync rnd d F all kappa S S' procs lo hi HP Hle HSy)).
Qed.
Print Assumptions C24_balance.

(** ** Histories *)

Theorem C24_history : forall rnd d m F K all kappa S S' B, rounding rnd ->
  linked d m F K all -> state_ok d m all kappa S -> history rnd d F all kappa S S' B ->
  state_ok d m all kappa S' /\
  forall mq, 1 <= mq <= meqn d ->
    (total_mass d all kappa S' mq - total_entered d all S' mq == total_mass d all kappa S mq - total_entered d all S mq + B mq)%Q.
Proof. intros rnd d m F K all kappa S S' B Hr HL. exact (history_ok rnd Hr d m F K all HL kappa S S' B). Qed.
Print Assumptions C24_history.

(** From one complete synchronisation to another: the total changes only through the
    physical boundary. *)
Theorem C24_conserved : forall rnd d m F K all kappa S S' B, rounding rnd ->
  linked d m F K all -> state_ok d m all kappa S -> history rnd d F all kappa S S' B ->
  (forall p, In p all -> no_records d m (reg S p)) -> (forall p, In p all -> no_records d m (reg S' p)) ->
  forall mq, 1 <= mq <= meqn d ->
    (total_mass d all kappa S' mq == total_mass d all kappa S mq + B mq)%Q.
Proof.
  intros rnd d m F K all kappa S S' B Hr HL HS HH N N' mq Hmq.
  destruct (history_ok rnd Hr d m F K all HL kappa S S' B HS HH) as [_ HB]. specialize (HB mq Hmq).
  rewrite (no_entered d m F K all HL S mq Hmq N), (no_entered d m F K all HL S' mq Hmq N') in HB. lra.
Qed.
Print Assumptions C24_conserved.

(** ** Registers *)

(** All registers after a synchronisation: accumulators of the faces handled are zero,
    everything else is as before. *)
Theorem C25_reset : forall rnd d m F K all kappa procs lo hi S S', rounding rnd ->
  linked d m F K all -> state_ok d m all kappa S -> distributed all procs -> lo <= hi ->
  parallel_sync d F rnd procs lo hi S S' ->
  forall p, In p all ->
  (forall f k t mq, 0 <= f < 4 -> 1 <= t <= m -> 1 <= mq <= meqn d -> 0 <= k <= 1 ->
     let fluxes := match f with 0 => [FP 0 t mq; FM 0 t mq] | 1 => [FP 1 t mq; FM 1 t mq]
                   | 2 => [GP 0 t mq; GM 0 t mq] | _ => [GP 1 t mq; GM 1 t mq] end in
     forall c, In c (EF f t mq k :: fluxes) ->
       reg S' p c = if synced F lo hi p f then Some 0%Q else reg S p c) /\
  (forall f t, 0 <= f < 4 -> reg S' p (EL f t) = reg S p (EL f t) /\ reg S' p (AR f t) = reg S p (AR f t)).
Proof.
  intros rnd d m F K all kappa procs lo hi S S' Hr HL HS HP Hle HSy p Hp.
  destruct (sync_desc rnd Hr d m F K all HL kappa procs lo hi S S' HS HP Hle HSy) as [_ H].
  destruct (dims_all d m F K all HL p Hp) as (Hx & Hy & Hm).
  assert (R : forall c, reg S' p c = if accum d c && synced F lo hi p (face_of c) then Some 0%Q else reg S p c).
  { intros c. rewrite (H p c (or_introl Hp)). rewrite (synced_cleared F all lo hi p _ Hp). reflexivity. }
  split.
  - intros f k t mq Hf Ht Hmq Hk fluxes c Hc.
    assert (E : accum d c = true /\ face_of c = f).
    { assert (B : forall a, 0 <= a < 16 -> accum d (a, t, mq) = true).
      { intros a Ha. unfold accum, in_reg. cbn [fst snd]. rewrite Hx, Hy. destruct (along_y a);
        repeat match goal with |- context [?x <=? ?y] => replace (x <=? y) with true by lia | |- context [?x <? ?y] => replace (x <? y) with true by lia end;
        reflexivity. }
      assert (Ek : k = 0 \/ k = 1) by lia. subst fluxes.
      face4 f Hf; cbn [In] in Hc; unfold EF, FP, FM, GP, GM in Hc; destruct Ek as [->| ->];
      destruct Hc as [<-|[<-|[<-|[]]]]; (split; [apply B; lia|reflexivity]). }
    destruct E as [E1 E2]. rewrite R, E1, E2. reflexivity.
  - intros f t Hf. rewrite !R. unfold accum, EL, AR. cbn [fst].
    replace (16 + f <? 16) with false by lia. replace (20 + f <? 16) with false by lia. rewrite !andb_false_r. now split.
Qed.
Print Assumptions C25_reset.

(** If all levels are synchronised, all records are gone. *)
Theorem C25_complete : forall rnd d m F K all kappa procs lo hi S S', rounding rnd ->
  linked d m F K all -> state_ok d m all kappa S -> distributed all procs -> lo <= hi ->
  parallel_sync d F rnd procs lo hi S S' ->
  (forall p, In p all -> lo <= lev F p <= hi) ->
  forall p, In p all -> no_records d m (reg S' p) /\
    forall a t mq, 0 <= a < 16 -> 1 <= t <= m -> 1 <= mq <= meqn d -> reg S' p (a, t, mq) = Some 0%Q.
Proof.
  intros rnd d m F K all kappa procs lo hi S S' Hr HL HS HP Hle HSy Hlev p Hp.
  assert (Sy : forall f, 0 <= f < 4 -> synced F lo hi p f = true).
  { intros f Hf. pose proof HL as (_ & _ & _ & _ & HL'). destruct (HL' p Hp) as (E1 & _ & HF). specialize (HF f Hf).
    pose proof (Hlev p Hp) as HB. unfold synced, linked_face in *. destruct (nbr F p f) as [|n t|n t nm|].
    - lia. - lia.
    - destruct HF as [_ HF]. destruct (HF 0 ltac:(lia)) as (Hn & (ft & _ & Hh) & _). destruct Hh as [Hh _].
      pose proof (Hlev _ Hn). destruct (HL' _ Hn) as (E2 & _). lia.
    - destruct HF as (p' & f' & i & n & t & nm & _ & Hp' & Hf' & Hi & En & Ei & _). pose proof (Hlev p' Hp').
      destruct (HL' p' Hp') as (E2 & _ & HF'). specialize (HF' f' Hf'). rewrite En in HF'. destruct HF' as [_ HF'].
      destruct (HF' i Hi) as (_ & (ft & _ & Hh) & _). destruct Hh as [Hh _]. rewrite Ei in Hh. lia. }
  assert (Z0 : forall a t mq, 0 <= a < 16 -> 1 <= t <= m -> 1 <= mq <= meqn d -> reg S' p (a, t, mq) = Some 0%Q).
  { intros a t mq Ha Ht Hmq.
    destruct (sync_desc rnd Hr d m F K all HL kappa procs lo hi S S' HS HP Hle HSy) as [_ H].
    rewrite (H p (a, t, mq) (or_introl Hp)), (synced_cleared F all lo hi p _ Hp).
    destruct (dims_all d m F K all HL p Hp) as (Hx & Hy & Hm).
    assert (B : accum d (a, t, mq) = true).
    { unfold accum, in_reg. cbn [fst snd]. rewrite Hx, Hy. destruct (along_y a);
        repeat match goal with |- context [?x <=? ?y] => replace (x <=? y) with true by lia | |- context [?x <? ?y] => replace (x <? y) with true by lia end;
        reflexivity. }
    rewrite B, Sy; [reflexivity|]. unfold face_of. destruct (Z.ltb_spec a 4); [pose proof (Z.mod_pos_bound a 2); lia|].
    destruct (Z.ltb_spec a 8); [pose proof (Z.mod_pos_bound a 2); lia|]. split; [apply Z.div_pos; lia|apply Z.div_lt_upper_bound; lia]. }
  split; [|exact Z0].
  intros f t mq Hf Ht Hmq. face4 f Hf; cbn [inflow]; unfold val, EF, FP, FM, GP, GM; rewrite !Z0 by lia; reflexivity.
Qed.
Print Assumptions C25_complete.

(** ** Instance: a patch next to four smaller ones *)

Definition d2s : dims := mkDims 2 2 2 1.
Definition geo5 (p : nat) : patch :=
  match p with
  | 0%nat => mkPatch 0 0 0 0 1 1 1
  | 1%nat => mkPatch 1 0 0 0 (1#2) (1#2) 1
  | 2%nat => mkPatch 1 (1#2) 0 0 1 (1#2) 1
  | 3%nat => mkPatch 1 0 (1#2) 0 (1#2) 1 1
  | _ => mkPatch 1 (1#2) (1#2) 0 1 1 1
  end.
Definition intra5 (p n : nat) : neighbors := SameSize n (mkT (geo5 p) (geo5 n) face_transformation_intra).
Definition fine5 (i : Z) : nat := if i =? 0 then 1%nat else 3%nat.
Definition nbr5 (p : nat) (f : Z) : neighbors :=
  match p, f with
  | 0%nat, 1 => HalfSize fine5 (fun i => mkT (geo5 0) (geo5 (fine5 i)) (expand_face_transform_2d 1 0)) 1
  | 1%nat, 0 => DoubleSize | 3%nat, 0 => DoubleSize
  | 1%nat, 1 => intra5 1 2 | 2%nat, 0 => intra5 2 1
  | 1%nat, 3 => intra5 1 3 | 3%nat, 2 => intra5 3 1
  | 2%nat, 3 => intra5 2 4 | 4%nat, 2 => intra5 4 2
  | 3%nat, 1 => intra5 3 4 | 4%nat, 0 => intra5 4 3
  | _, _ => Boundary
  end.
Definition all5 : list nat := [0; 1; 2; 3; 4]%nat.
Definition F5 : forest := mkForest all5 (fun p => level (geo5 p)) nbr5.
Definition K5 : links := mkLinks geo5 (fun _ f => match f with 0 => 1 | 1 => 0 | 2 => 3 | _ => 2 end) (fun _ _ => false) (fun _ _ => false)
  (fun p _ => (0%nat, 1, match p with 1%nat => 0 | _ => 1 end)).

Lemma geo5_quadrant : forall p, quadrant D2 (geo5 p).
Proof.
  intros [|[|[|[|p]]]]; (split; [cbn; lia|]);
  (split; [first [exists 0; split; [cbn; lia|reflexivity] | exists 1; split; [cbn; lia|reflexivity]]|]);
  (split; [first [exists 0; split; [cbn; lia|reflexivity] | exists 1; split; [cbn; lia|reflexivity]]|discriminate]).
Qed.
Lemma linked5 : linked d2s 2 F5 K5 all5.
Proof.
  split. { repeat constructor; cbn [In]; intuition discriminate. }
  split; [now exists 1|]. split; [cbn; lia|]. split; [cbn; lia|].
  intros p Hp. split; [reflexivity|]. split.
  { assert (E : level (geo5 p) = 0 \/ level (geo5 p) = 1) by (destruct p as [|[|[|[|p]]]]; cbn; lia).
    change (square d2s 2 (level (geo5 p))). destruct E as [-> | ->]; (split; [reflexivity|split; [reflexivity|split; cbn; lia]]). }
  intros f Hf. unfold all5 in Hp. cbn [In] in Hp.
  destruct Hp as [<-|[<-|[<-|[<-|[<-|[]]]]]]; face4 f Hf; unfold linked_face, F5, nbr; cbn [nbr5 nface K5 rev geo]; try exact I;
  try (unfold intra5; split; [cbn; tauto|]; split;
    [eexists; split; [reflexivity|]; split; [reflexivity|]; split; [lia|]; split; [lia|];
     split; [apply geo5_quadrant|]; split; [apply geo5_quadrant|]; right; repeat split; reflexivity|];
    split; [eexists; reflexivity|reflexivity]);
  try (exists 0%nat, 1, 0; cbn; repeat eexists; try lia; try tauto; fail);
  try (exists 0%nat, 1, 1; cbn; repeat eexists; try lia; try tauto; fail).
  split; [reflexivity|]. intros i Hi. assert (Ei : i = 0 \/ i = 1) by lia. destruct Ei as [->| ->];
  (split; [cbn; tauto|]); (split;
    [eexists; split; [reflexivity|]; split; [reflexivity|]; split; [cbn; lia|]; split; [lia|]; split; [lia|];
     split; [apply geo5_quadrant|]; split; [apply geo5_quadrant|]; left; split; [reflexivity|]; split; [reflexivity|]; split; reflexivity|]);
  split; reflexivity.
Qed.

Definition kappa5 (p : nat) : areas := fun _ _ => match p with 0%nat => 1 # 4 | _ => 1 # 16 end.
Definition reg5 (p : nat) : regs := fun '(a, j, mq) =>
  if 20 <=? a then Some (kappa5 p 1 1) else if 16 <=? a then Some 1%Q
  else match p with
       | 0%nat => if (a =? 10) || (a =? 11) then Some 1%Q else Some 0%Q
       | _ => Some 0%Q
       end.
Definition S5 : state := mkState (fun _ _ => Some 0%Q) reg5.
Lemma state5 : state_ok d2s 2 all5 kappa5 S5.
Proof.
  intros p _. split; [|intros c _; now exists 0%Q]. split; [|split].
  - intros [[a j] mq] _. unfold S5, reg, reg5. destruct (20 <=? a); [eauto|]. destruct (16 <=? a); [eauto|]. destruct p; [destruct (_ || _); eauto|eauto].
  - intros f t mq Hf _ _. destruct p as [|p]; face4 f Hf; reflexivity.
  - intros f t Hf Ht. destruct p as [|p]; face4 f Hf; cbn [inner_cell]; (split; [reflexivity|discriminate]).
Qed.
Definition procs5 : list (list nat) := [[0; 2]; [1; 4; 3]]%nat.
Lemma procs5_ok : distributed all5 procs5.
Proof.
  split.
  - intros own Ho. unfold procs5 in Ho. cbn [In] in Ho. destruct Ho as [<-|[<-|[]]];
    (split; [repeat constructor; cbn [In]; intuition discriminate|intros x Hx; unfold all5; cbn [In] in *; intuition]).
  - intros p Hp. unfold all5 in Hp. cbn [In] in Hp.
    destruct Hp as [<-|[<-|[<-|[<-|[<-|[]]]]]];
    first [exists [0; 2]%nat; cbn; tauto | exists [1; 4; 3]%nat; cbn; tauto].
Qed.

(** Patch 0 recorded that 1 left through face 1, at both of its cells there; the finer
    patches recorded nothing.  Both coarse cells get it back; mass 0 was missing 2 units. *)
Example C24_instance :
  linked d2s 2 F5 K5 all5 /\ state_ok d2s 2 all5 kappa5 S5 /\ distributed all5 procs5 /\
  exists S', parallel_sync d2s F5 (fun x => x) procs5 0 1 S5 S' /\
    (val (sol S' 0%nat) (2, 1, 1)%Z == 4)%Q /\ (val (sol S' 0%nat) (1, 1, 1)%Z == 0)%Q /\
    (total_mass d2s all5 kappa5 S' 1%Z == 2)%Q /\ (total_entered d2s all5 S5 1%Z == - 2)%Q.
Proof.
  split; [exact linked5|]. split; [exact state5|]. split; [exact procs5_ok|].
  assert (V : forall own, In own procs5 -> sees F5 own S5 S5) by (intros own _; split; intros; auto).
  assert (R : forall own, In own procs5 -> exists s', correct_coarse_cells (fun x => x) d2s (mkForest own (lev F5) (nbr F5)) 0 1 S5 = Some s').
  { intros own Ho. destruct (proj1 procs5_ok own Ho) as [ND HI].
    exact (C24_runs _ _ _ _ _ _ _ _ _ _ 0 1 rounding_id linked5 state5 ND HI (V own Ho) ltac:(lia)). }
  destruct (R [0; 2]%nat ltac:(cbn; tauto)) as (sa & Ea). destruct (R [1; 4; 3]%nat ltac:(cbn; tauto)) as (sb & Eb).
  set (S' := mkState (fun p => if (p =? 0)%nat || (p =? 2)%nat then sol sa p else sol sb p)
                     (fun p => if (p =? 0)%nat || (p =? 2)%nat then reg sa p else reg sb p)).
  assert (P : parallel_sync d2s F5 (fun x => x) procs5 0 1 S5 S').
  { exists (fun _ => S5), (fun own => match own with 0%nat :: _ => sa | _ => sb end). split.
    - intros own Ho. split; [now apply V|]. unfold procs5 in Ho. cbn [In] in Ho. destruct Ho as [<-|[<-|[]]]; assumption.
    - intros own p Ho Hp. unfold procs5 in Ho. cbn [In] in Ho.
      destruct Ho as [<-|[<-|[]]]; cbn [In] in Hp; repeat destruct Hp as [<-|Hp]; try destruct Hp; split; reflexivity. }
  exists S'. split; [exact P|].
  assert (C : forall i j, 1 <= i <= 2 -> 1 <= j <= 2 -> (val (sol S' 0%nat) (i, j, 1%Z) ==
    qsum 0 3 (fun f => match piece 2 f i j with Some t => if synced F5 0 1 0%nat f then correction 2 F5 K5 S5 0%nat f t 1%Z / kappa5 0%nat i j else 0 | None => 0 end))%Q).
  { intros i j Hi Hj. destruct (C24_cells _ _ _ _ _ _ _ _ 0 1 _ _ rounding_id linked5 state5 procs5_ok ltac:(lia) P 0%nat i j 1) as (v & Ev & Hv);
      [cbn; tauto|unfold interior; cbn; lia|]. unfold val at 1. rewrite Ev, Hv. unfold S5 at 1, sol, val. ring. }
  split; [|split; [|split]].
  - rewrite C by lia. vm_compute. reflexivity.
  - rewrite C by lia. vm_compute. reflexivity.
  - pose proof (C24_balance _ _ _ _ _ _ _ _ 0 1 _ _ rounding_id linked5 state5 procs5_ok ltac:(lia) P) as [_ HB].
    specialize (HB 1 ltac:(cbn; lia)).
    assert (N : (total_entered d2s all5 S' 1%Z == 0)%Q).
    { apply (no_entered d2s 2 F5 K5 all5 linked5); [cbn; lia|]. intros p Hp.
      apply (C25_complete _ _ _ _ _ _ _ _ 0 1 _ _ rounding_id linked5 state5 procs5_ok ltac:(lia) P); [|exact Hp].
      intros p' Hp'. cbn [In all5] in Hp'. destruct Hp' as [<-|[<-|[<-|[<-|[<-|[]]]]]]; cbn; lia. }
    rewrite N in HB. 
    assert (X : (total_mass d2s all5 kappa5 S5 1%Z - total_entered d2s all5 S5 1%Z + boundary_inflow d2s F5 all5 0%Z 1%Z S5 1%Z == 2)%Q) by (vm_compute; reflexivity).
    rewrite X in HB. lra.
  - vm_compute. reflexivity.
Qed.

(** *** Instance of the step: advection to the right on data 1, 2, 3, ... *)
Definition rpn2x (idir iface : Z) (q auxvec_center auxvec_edge : Z -> option Q) (mq : Z) : option Q :=
  if idir =? 0 then q mq else Some 0%Q.
Definition qi : arr := fun '(i, _, _) => Some (inject_Z i).
Definition const (v : Q) : arr := fun _ => Some v.
Definition G5 : fluxes := mkFluxes (fun i _ _ => inject_Z i) (fun i _ _ => inject_Z i) (fun _ _ _ => 0%Q) (fun _ _ _ => 0%Q) (fun _ _ => 1#2) (fun _ _ => 1#2).
Definition rs : regs := fun '(a, j, mq) => if 20 <=? a then Some (1 # 4)%Q else if 16 <=? a then Some (1 # 2)%Q else Some 0%Q.
Example C24_step_instance :
  advanced d2s (fun _ _ => 1 # 4)%Q qi rs
    (match clawpack46_step d2s rpn2x 0 true true (1#4) (1#2) (1#2) 0 (const 0) (const (-1)) (const 0) (const 0) (const 0) qi rs with Some (q', _) => q' | None => qi end)
    (match clawpack46_step d2s rpn2x 0 true true (1#4) (1#2) (1#2) 0 (const 0) (const (-1)) (const 0) (const 0) (const 0) qi rs with Some (_, r') => r' | None => rs end) /\
  bind (clawpack46_step d2s rpn2x 0 true true (1#4) (1#2) (1#2) 0 (const 0) (const (-1)) (const 0) (const 0) (const 0) qi rs)
    (fun '(q', r') => Some (Qred (mass d2s (fun _ _ => 1 # 4)%Q q' 1), Qred (entered d2s r' 1))) = Some (1%Q, (-1 # 2)%Q).
Proof.
  split; [|vm_compute; reflexivity].
  exists rpn2x, 0, 0, (const 0), (const (-1)), (const 0), (const 0), (const 0), (1#4)%Q, (1#2)%Q, (1#2)%Q, G5.
  split; [discriminate|]. split; [discriminate|].
  assert (IQ : forall i j mq, 0 <= i <= 3 -> 0 <= j <= 3 -> 1 <= mq <= 1 -> at_q d2s qi i j mq = Some (inject_Z i)).
  { intros i j mq Hi Hj Hm. unfold at_q, rd, in_q, d2s. cbn [mx my mbc meqn].
    repeat match goal with |- context [?x <=? ?y] => replace (x <=? y) with true by lia end. reflexivity. }
  split.
  { intros mq Hm. cbn [meqn d2s] in Hm. unfold rpn2x. cbn [mx my d2s]. repeat split; intros i j Hi Hj; cbn [Z.eqb fl fr gl gr G5]; try reflexivity; apply IQ; lia. }
  split. { intros i j mq _. split; intros _ _; unfold val; cbn [elx ely fl fr gl gr G5]; [|reflexivity].
    assert (Y : (inject_Z (i - 1) == inject_Z i - 1)%Q) by (unfold Z.sub; rewrite inject_Z_plus; reflexivity).
    rewrite Y. change (const (-1) (i, j, mq)) with (Some (-1)%Q). change (const 0 (i, j, mq)) with (Some 0%Q). cbv iota. lra. }
  split. { intros i j mq _ _ _. cbn [elx ely fl fr gl gr G5]. ring. }
  split. { split; intros j _; split; reflexivity. }
  split. { split; [intros _ i j _ _; reflexivity|intros X; now contradiction X]. }
  split. { intros [[i j] mq] _. now exists (inject_Z i). }
  split; [intros c _; now eexists|]. split; [intros c _; now eexists|]. split; [intros c _; now eexists|]. split; [intros c _; now eexists|].
  assert (X : clawpack46_step d2s rpn2x 0 true true (1#4) (1#2) (1#2) 0 (const 0) (const (-1)) (const 0) (const 0) (const 0) qi rs <> None).
  { assert (Y : bind (clawpack46_step d2s rpn2x 0 true true (1#4) (1#2) (1#2) 0 (const 0) (const (-1)) (const 0) (const 0) (const 0) qi rs) (fun _ => Some tt) = Some tt) by (vm_compute; reflexivity).
    intros X. rewrite X in Y. discriminate Y. }
  destruct (clawpack46_step d2s rpn2x 0 true true (1#4) (1#2) (1#2) 0 (const 0) (const (-1)) (const 0) (const 0) (const 0) qi rs) as [[q' r']|]; [reflexivity|contradiction].
Qed.

(** ** One layer of ghost cells

    Both corrections fill a scratch array of the shape of the solution, two layers deep.  With one
    layer (mbc = 1, which the options accept) they write outside of it. *)
Theorem C24_one_ghost_layer_refuted : exists d f nf o ip op ft r rn q,
  mbc d = 1 /\ same_size f nf o ip op ft /\ square d 4 (level op) /\ assigned d r /\ assigned d rn /\ full d q /\
  time_sync_samesize (fun x => x) d f r rn (mkT ip op ft) q = None.
Proof.
  exists (mkDims 4 4 1 1), 1, 0, false, (geo5 1), (geo5 2), face_transformation_intra, rs, rs, (const 0).
  split; [reflexivity|]. split.
  { split; [reflexivity|]; split; [lia|]; split; [lia|]; split; [apply geo5_quadrant|]; split; [apply geo5_quadrant|]; right; repeat split; reflexivity. }
  split. { split; [reflexivity|split; [reflexivity|split; cbn; lia]]. }
  assert (A : assigned (mkDims 4 4 1 1) rs).
  { intros [[a j] mq] _. unfold rs. destruct (20 <=? a); [eauto|]. destruct (16 <=? a); eauto. }
  split; [exact A|]. split; [exact A|]. split; [intros c _; now eexists|]. vm_compute. reflexivity.
Qed.
Print Assumptions C24_one_ghost_layer_refuted.
Example two_layers_run : bind (time_sync_samesize (fun x => x) (mkDims 4 4 2 1) 1 rs rs (mkT (geo5 1) (geo5 2) face_transformation_intra) (const 0))
  (fun _ => Some tt) = Some tt.
Proof. vm_compute. reflexivity. Qed.

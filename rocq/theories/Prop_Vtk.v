(** C59: the VTK file. *)
From Coq Require Import String.
From Coq Require Import ZArith List Bool Lia.
From Verif Require Import Base_Mem Model_Mesh Proof_Mesh Model_Vtk Spec_Vtk Proof_Vtk1 Proof_Vtk2 Proof_Vtk3 Proof_Vtk4 Proof_Vtk5 Proof_Vtk6 Proof_Vtk7.
Import ListNotations.
Open Scope Z_scope.

Lemma ds_pos : forall n Ds, domains_ok n Ds -> (0 < List.length Ds)%nat.
Proof. intros n [|D l] (X & _); [congruence|cbn; lia]. Qed.

(** The return value is 0 on all processes if process 0 could write header and footer, and -1 on all processes if not. *)
Theorem C59_return : forall (text : list tag -> list Z) footer mpiio junk V d n (vtkspace : V) vtkwrite cc vc Ds header_ok footer_ok ret res,
  domains_ok n Ds ->
  write_file text footer mpiio junk d vtkspace vtkwrite cc vc Ds header_ok footer_ok ret res ->
  ret = (if header_ok && footer_ok then 0 else -1) /\ (ret = 0 <-> res <> None).
Proof.
  intros text footer mpiio junk V d n vtkspace vtkwrite cc vc Ds hok fok ret res DO W. pose proof (ds_pos n Ds DO) as P.
  destruct W as [fok H|fok s lists ws H1 H2 h begin F H3 H4 F'].
  - split; [reflexivity|]. split; [lia|congruence].
  - destruct fok; [split; [reflexivity|]; split; [discriminate|reflexivity]|]. rewrite (returned_ok _ false P). split; [reflexivity|]. split; [lia|congruence].
Qed.
Print Assumptions C59_return.

(** With parallel output, or with one process: whatever order the writes of the processes have, the file starts with the header and ends with
    the footer, every byte of it has been written, and a reader finds the forest in it.  There is no way to fail but in writing the header
    or the footer. *)
Theorem C59_file : forall (text : list tag -> list Z) footer mpiio junk V d n (vtkspace : V) vtkwrite cc vc Ds coordinates data,
  sizes_ok d n -> domains_ok n Ds -> few_blocks Ds -> callbacks_give d Ds cc vc coordinates data -> (mpiio = true \/ Z.of_nat (List.length Ds) = 1) ->
  (forall header_ok footer_ok, exists ret res, write_file text footer mpiio junk d vtkspace vtkwrite cc vc Ds header_ok footer_ok ret res) /\
  forall s F, write_file text footer mpiio junk d vtkspace vtkwrite cc vc Ds true true 0 (Some (s, F)) ->
    let begin := Z.of_nat (List.length (text (header s))) in
    bytes_at F 0 begin = Some (text (header s)) /\
    bytes_at F (size F - Z.of_nat (List.length footer)) (Z.of_nat (List.length footer)) = Some footer /\
    (forall o, 0 <= o < size F -> bytes F o <> None) /\
    holds d n coordinates data Ds (header s) F begin.
Proof.
  intros text footer mpiio junk V d n vtkspace vtkwrite cc vc Ds coordinates data SZ DO FB (RS & CC) MODE. pose proof (ds_pos n Ds DO) as P.
  destruct (made_ok d n SZ) as (s & ES & MD). assert (GN : forall D, In D Ds -> global_num_patches D = n) by apply DO. split.
  - intros [|] fok; [|exists (-1), None; apply no_header; exact (returned_ok _ false P)].
    destruct (lists_exist d n s Ds coordinates data cc vc SZ MD DO RS CC (text (header s)) mpiio junk MODE) as (lists & L). destruct (shuffle_exists lists) as (ws & SH).
    eexists. eexists. apply (written text footer mpiio junk d vtkspace vtkwrite cc vc Ds fok s lists ws); [|rewrite (returned_ok _ true P); lia|exact L|exact SH]. intros D I. now rewrite (GN D I).
  - intros s' F W. inversion W as [|fok s2 lists ws H1 H2 h begin F0 H3 H4 F' [E1 E2] E3 E4]. subst s2 fok. clear E1.
    assert (s' = s). { pose proof DO as (NE & _). destruct Ds as [|D l]; [congruence|]. specialize (H1 D (or_introl eq_refl)). rewrite (GN D (or_introl eq_refl)) in H1. congruence. } subst s'.
    pose proof (file_size d n s Ds coordinates data cc vc SZ MD DO RS CC (text (header s)) footer mpiio junk MODE lists ws H3 H4) as FS.
    pose proof (F2_header d n s Ds coordinates data cc vc SZ MD DO RS CC (text (header s)) footer mpiio junk MODE lists ws H3 H4) as FH.
    pose proof (F2_in d n s Ds coordinates data cc vc SZ MD DO RS CC (text (header s)) footer mpiio junk MODE lists ws H3 H4) as FF.
    pose proof (F2_full d n s Ds coordinates data cc vc SZ MD DO RS CC (text (header s)) footer mpiio junk MODE lists ws H3 H4) as FU.
    pose proof (F2_key d n s Ds coordinates data cc vc SZ MD DO RS CC (text (header s)) footer mpiio junk MODE lists ws H3 H4) as FK.
    fold h in FS, FH, FF, FU, FK. fold begin in FS, FH, FF, FU, FK. fold F0 in FS, FH, FF, FU, FK. fold F' in FS, FH, FF, FU, FK. cbv zeta. fold h. fold begin. match goal with H : write_at _ _ = F |- _ => rename H into E9 end. rewrite E9 in *.
    split; [|split; [|split]].
    + unfold bytes_at, begin. apply (mapM_known (bytes F) h 0). intros t Ht. change (0 + t) with t. now apply FH.
    + unfold bytes_at. apply (mapM_known (bytes F) footer). intros t Ht. rewrite FS. rewrite FF by lia. f_equal. lia.
    + exact FU.
    + destruct FB as (B1 & B2). exact (reads d n s Ds coordinates data SZ MD DO RS begin F FK B1 B2).
Qed.
Print Assumptions C59_file.

(** The partition is seen in the array mpirank only: two runs for the same forest give the same bytes everywhere else. *)
Theorem C59_partition : forall (text : list tag -> list Z) footer d n V (vtkspace : V) vtkwrite
    mpiio junk cc vc Ds coordinates data mpiio' junk' cc' vc' Ds' coordinates' data' s F s' F',
  sizes_ok d n ->
  domains_ok n Ds -> callbacks_give d Ds cc vc coordinates data -> (mpiio = true \/ Z.of_nat (List.length Ds) = 1) ->
  domains_ok n Ds' -> callbacks_give d Ds' cc' vc' coordinates' data' -> (mpiio' = true \/ Z.of_nat (List.length Ds') = 1) ->
  (forall g r b p r' b' p', is_number Ds g r b p -> is_number Ds' g r' b' p' -> b = b' /\ coordinates r b p = coordinates' r' b' p' /\ data r b p = data' r' b' p') ->
  write_file text footer mpiio junk d vtkspace vtkwrite cc vc Ds true true 0 (Some (s, F)) ->
  write_file text footer mpiio' junk' d vtkspace vtkwrite cc' vc' Ds' true true 0 (Some (s', F')) ->
  header s = header s' /\ size F = size F' /\
  exists ranks, array_tag (header s) "CellData" "mpirank" = Some ("Int32"%string, 1, ranks) /\
  let first := Z.of_nat (List.length (text (header s))) + ranks + 8 in
  forall o, 0 <= o < size F -> ~ (first <= o < first + 4 * (n * cells d)) -> bytes F o = bytes F' o.
Proof.
  intros text footer d n V vtkspace vtkwrite mpiio junk cc vc Ds coordinates data mpiio' junk' cc' vc' Ds' coordinates' data' s F s' F' SZ DO (RS & CC) MODE DO' (RS' & CC') MODE' SAME W W'.
  destruct (made_ok d n SZ) as (s0 & ES & MD).
  assert (GN : forall Ds s lists, domains_ok n Ds -> (forall D, In D Ds -> set_up d (global_num_patches D) = Some s) -> Forall2 (fun (_ : dom) (_ : list (Z * list Z)) => True) Ds lists -> s = s0).
  { intros Es t ls (NE & _ & X & _) Y _. destruct Es as [|D l]; [congruence|]. specialize (Y D (or_introl eq_refl)). rewrite (X D (or_introl eq_refl)) in Y. congruence. }
  inversion W as [|fok s2 lists ws H1 H2 h begin F0 H3 H4 F1 [E1 E2] E3 E4]. subst s2 fok. clear E1.
  inversion W' as [|fok s2 lists' ws' H1' H2' h' begin' F0' H3' H4' F1' [E1' E2'] E3' E4']. subst s2 fok. clear E1'.
  assert (s = s0) by (apply (GN Ds s lists DO H1); clear - H3; induction H3; constructor; auto). subst s.
  assert (s' = s0) by (apply (GN Ds' s' lists' DO' H1'); clear - H3'; induction H3'; constructor; auto). subst s'. rename s0 into s.
  pose proof (file_size d n s Ds coordinates data cc vc SZ MD DO RS CC (text (header s)) footer mpiio junk MODE lists ws H3 H4) as FS.
  pose proof (F2_header d n s Ds coordinates data cc vc SZ MD DO RS CC (text (header s)) footer mpiio junk MODE lists ws H3 H4) as FH.
  pose proof (F2_in d n s Ds coordinates data cc vc SZ MD DO RS CC (text (header s)) footer mpiio junk MODE lists ws H3 H4) as FF.
  pose proof (F2_key d n s Ds coordinates data cc vc SZ MD DO RS CC (text (header s)) footer mpiio junk MODE lists ws H3 H4) as FK.
  fold h in FS, FH, FF, FK. fold begin in FS, FH, FF, FK. fold F0 in FS, FH, FF, FK. fold F1 in FS, FH, FF, FK.
  pose proof (file_size d n s Ds' coordinates' data' cc' vc' SZ MD DO' RS' CC' (text (header s)) footer mpiio' junk' MODE' lists' ws' H3' H4') as FS'.
  pose proof (F2_header d n s Ds' coordinates' data' cc' vc' SZ MD DO' RS' CC' (text (header s)) footer mpiio' junk' MODE' lists' ws' H3' H4') as FH'.
  pose proof (F2_in d n s Ds' coordinates' data' cc' vc' SZ MD DO' RS' CC' (text (header s)) footer mpiio' junk' MODE' lists' ws' H3' H4') as FF'.
  pose proof (F2_key d n s Ds' coordinates' data' cc' vc' SZ MD DO' RS' CC' (text (header s)) footer mpiio' junk' MODE' lists' ws' H3' H4') as FK'.
  fold h' in FS', FH', FF', FK'. fold begin' in FS', FH', FF', FK'. fold F0' in FS', FH', FF', FK'. fold F1' in FS', FH', FF', FK'.
  match goal with H : write_at _ _ = F |- _ => rename H into E9 end. match goal with H : write_at _ _ = F' |- _ => rename H into E9' end. rewrite E9 in *. rewrite E9' in *. split; [reflexivity|]. split; [now rewrite FS, FS'|]. exists (offset s Mpirank). split; [exact (tag_ok s Mpirank)|]. cbv zeta. fold h. fold begin.
  change begin' with begin in *. intros o Ho NR. rewrite FS in Ho. destruct (Z_lt_le_dec o begin) as [A|A]; [now rewrite FH, FH' by lia|].
  destruct (Z_lt_le_dec o (begin + offset_end s)) as [B|B]; [|now rewrite FF, FF' by lia].
  destruct (covered d n s Ds coordinates data SZ MD DO RS h o) as (k & K & X); [fold begin; lia|]. fold begin in X.
  assert (Y : exists k', is_key Ds' k' /\ kpos s begin k' = kpos s begin k /\ kbytes d n s coordinates' data' k' = kbytes d n s coordinates data k).
  { destruct k as [f|f g r b p]; [exists (KCount f); repeat split|]. cbn [is_key] in K. pose proof (number_bounds _ _ _ _ _ _ DO K) as G. destruct (number_exists n Ds' g DO' G) as (r' & b' & p' & K').
    destruct (SAME g r b p r' b' p' K K') as (Eb & Ec & Ed). subst b'. exists (KPatch f g r' b p'). split; [exact K'|]. split; [reflexivity|].
    destruct f; cbn [kbytes content]; try reflexivity; try congruence.
    exfalso. apply NR. cbn [kpos kbytes] in X. rewrite (content_len d n s Ds coordinates data SZ MD RS Mpirank g r b p K) in X. pose proof (m_psize d n s MD Mpirank) as PS. cbn [size_of] in PS. rewrite PS in X.
    pose proof (grid_pos d n SZ) as (_ & C & _). split; [nia|]. assert (4 * cells d * g + 4 * cells d <= 4 * (n * cells d)) by nia. lia. }
  destruct Y as (k' & K' & Y1 & Y2). replace o with (kpos s begin k + (o - kpos s begin k)) by lia. rewrite FK by (assumption || lia). rewrite <- Y1, <- Y2. symmetry. apply FK'; [exact K'|]. rewrite Y2, Y1. lia.
Qed.
Print Assumptions C59_partition.

(** With the callbacks for clawpatches: the file holds the solution without ghost cells, converted to float, and the positions of the corners of the
    cells, mapped if there is a mapping. *)
Theorem C59_solution : forall R (zero : R) place double float c2m manifold (patch : Z -> Z -> Z -> clawpatch R)
    (text : list tag -> list Z) footer mpiio junk V d n (vtkspace : V) vtkwrite Ds s F,
  (forall x, Z.of_nat (List.length (double x)) = 8) -> (forall x, Z.of_nat (List.length (float x)) = 4) ->
  sizes_ok d n -> domains_ok n Ds -> few_blocks Ds -> (mpiio = true \/ Z.of_nat (List.length Ds) = 1) ->
  (forall g r b p, is_number Ds g r b p -> c_grid R (patch r b p) = d /\
     forall i j k m, in_grid d i j k -> 0 <= m < meqn d -> q R (patch r b p) (q_index d (mbc R (patch r b p)) i j k m) <> None) ->
  write_file text footer mpiio junk d vtkspace vtkwrite
    (fun r b p => Some (output_coordinates R zero place double c2m manifold b (patch r b p))) (fun r b p => output_values R float (patch r b p)) Ds true true 0 (Some (s, F)) ->
  let h := header s in let begin := Z.of_nat (List.length (text h)) in
  forall g r b p i j k, is_number Ds g r b p -> in_grid d i j k ->
    let c := g * cells d + cell_index d i j k in
    (forall m, 0 <= m < meqn d -> exists v, q R (patch r b p) (q_index d (mbc R (patch r b p)) i j k m) = Some v /\ value h F begin "CellData" "meqn" (meqn d * c + m) = Some (float v)) /\
    (forall v a, 0 <= v < corners d -> 0 <= a < 3 -> exists l, whole h F begin "Cells" "connectivity" (corners d * c + v) = Some l /\
       let '(di, dj, dk) := corner v in
       value h F begin "Points" "Position" (3 * l + a) = Some (double (coordinate (corner_position zero place c2m manifold b (patch r b p) (i + di) (j + dj) (k + dk)) a))).
Proof.
  intros R zero place double float c2m manifold patch text footer mpiio junk V d n vtkspace vtkwrite Ds s F D8 F4 SZ DO FB MODE PT W.
  set (coordinates := fun r b p => output_coordinates R zero place double c2m manifold b (patch r b p)).
  set (data := fun r b p => match output_values R float (patch r b p) with Some l => l | None => [] end).
  assert (GP : 1 <= mx d /\ 1 <= my d /\ 1 <= mz d /\ 1 <= meqn d) by (destruct SZ as (A & B & C & D & _); lia).
  assert (QD : forall g r b p, is_number Ds g r b p -> forall i j k m, in_grid d i j k -> 0 <= m < meqn d -> exists v, q R (patch r b p) (q_index d (mbc R (patch r b p)) i j k m) = Some v).
  { intros g r b p N i j k m IG Hm. destruct (PT g r b p N) as (_ & X). specialize (X i j k m IG Hm). destruct (q R (patch r b p) (q_index d (mbc R (patch r b p)) i j k m)) as [v|]; [now exists v|congruence]. }
  assert (VL : forall g r b p, is_number Ds g r b p -> output_values R float (patch r b p) = Some (data r b p) /\ Z.of_nat (List.length (data r b p)) = 4 * meqn d * cells d).
  { intros g r b p N. destruct (PT g r b p N) as (E & _). destruct (values_len R float F4 (patch r b p) ltac:(rewrite E; exact GP) ltac:(rewrite E; exact (QD g r b p N))) as (l & E1 & E2).
    unfold data. rewrite E1. rewrite E in E2. now split. }
  assert (CG : callbacks_give d Ds (fun r b p => Some (output_coordinates R zero place double c2m manifold b (patch r b p))) (fun r b p => output_values R float (patch r b p)) coordinates data).
  { split; intros g r b p N; destruct (VL g r b p N) as (E1 & E2).
    - split; [|exact E2]. destruct (PT g r b p N) as (E & _). unfold coordinates. rewrite <- E. apply coordinates_len; [exact D8|]. rewrite E. exact GP.
    - split; [reflexivity|exact E1]. }
  destruct (C59_file text footer mpiio junk V d n vtkspace vtkwrite _ _ Ds coordinates data SZ DO FB CG MODE) as (_ & X). specialize (X s F W). cbv zeta in X. destruct X as (_ & _ & _ & HO).
  cbv zeta. intros g r b p i j k N IG. unfold holds in HO. cbv zeta in HO. destruct HO as (_ & _ & _ & _ & _ & _ & _ & _ & _ & _ & _ & _ & HO).
  specialize (HO g r b p N i j k IG). destruct HO as (_ & _ & _ & _ & _ & HV & HP). destruct (PT g r b p N) as (E & _). split.
  - intros m Hm. destruct (HV m Hm) as (v & V1 & V2). destruct (VL g r b p N) as (E1 & _).
    destruct (values_get R float F4 (patch r b p) ltac:(rewrite E; exact GP) ltac:(rewrite E; exact (QD g r b p N)) (data r b p) i j k m E1 ltac:(rewrite E; exact IG) ltac:(rewrite E; exact Hm)) as (x & X1 & X2).
    rewrite E in X1, X2. exists x. split; [exact X1|]. rewrite V2. congruence.
  - intros v a Hv Ha. destruct (HP v Hv) as (l & L1 & _ & L2). exists l. split; [exact L1|]. destruct (L2 a Ha) as (x & X). destruct (corner v) as [[di dj] dk] eqn:EC. destruct X as (X1 & X2).
    rewrite X2. rewrite <- X1. destruct (corner_range d v di dj dk Hv EC) as (R1 & R2 & R3 & R4). destruct IG as (I1 & I2 & I3). unfold coordinates. rewrite <- E at 1.
    apply coordinates_get; rewrite ?E; try assumption; try lia. unfold layers in I3. destruct (cube d); [lia|]. rewrite R4 by reflexivity. lia.
Qed.
Print Assumptions C59_solution.

(** *** What does not hold *)
(** Without parallel output in p4est, a run with several processes uses a file that it has not opened, if a process other than 0 has a patch. *)
Theorem C59_several_processes_refuted :
  exists d n Ds (coordinates data : Z -> Z -> Z -> list Z), sizes_ok d n /\ domains_ok n Ds /\ few_blocks Ds /\
    callbacks_give d Ds (fun r b p => Some (coordinates r b p)) (fun r b p => Some (data r b p)) coordinates data /\
    forall (text : list tag -> list Z) footer junk (vtkspace : unit) vtkwrite footer_ok ret res,
      ~ write_file text footer false junk d vtkspace vtkwrite (fun r b p => Some (coordinates r b p)) (fun r b p => Some (data r b p)) Ds true footer_ok ret res.
Proof.
  set (Ds := [mkDom 0 2 0 [(1, 0)]; mkDom 1 2 1 [(1, 0)]]).
  exists (mkGrid 1 1 1 1 false), 2, Ds, (fun _ _ _ => repeat 0 96), (fun _ _ _ => repeat 0 4).
  split; [repeat split; vm_compute; congruence|]. split; [|split; [|split]].
  - split; [discriminate|]. split; [repeat split; vm_compute; congruence|]. split; [|reflexivity]. intros D [<-|[<-|[]]]; reflexivity.
  - split; [vm_compute; congruence|]. intros D [<-|[<-|[]]]; vm_compute; congruence.
  - split; intros g r b p _; split; reflexivity.
  - intros text footer junk vs vw fok ret res W. inversion W as [|fok' s lists ws H1 H2 h begin F H3 H4 F']. subst.
    inversion H3 as [|D0 l0 Ds0 ls0 X Y]. subst. inversion Y as [|D1 l1 Ds1 ls1 X1 Y1]. subst. specialize (H1 _ (or_introl eq_refl)). injection H1 as <-. discriminate X1.
Qed.
Print Assumptions C59_several_processes_refuted.

(** vtkspace is described as the relative width of the visual separation of patches: it has no effect on the file. *)
Theorem C59_separation_refuted : forall V (v v' : V) (text : list tag -> list Z) footer mpiio junk d vtkwrite cc vc Ds header_ok footer_ok ret res,
  write_file text footer mpiio junk d v vtkwrite cc vc Ds header_ok footer_ok ret res -> write_file text footer mpiio junk d v' vtkwrite cc vc Ds header_ok footer_ok ret res.
Proof. intros V v v' text footer mpiio junk d vw cc vc Ds hok fok ret res W. destruct W; [now constructor|now apply written with (lists := lists)]. Qed.
Print Assumptions C59_separation_refuted.

(** Patches for which a number of bytes does not fit into an int, although the number of cells does, cannot be written. *)
Theorem C59_large_patches_refuted :
  set_up (mkGrid 16384 8192 1 1 false) 1 = None /\ int32 (16384 * 8192) <> None /\ set_up (mkGrid 512 512 512 1 true) 1 = None /\ int32 (512 * 512 * 512) <> None.
Proof. repeat split; vm_compute; congruence. Qed.
Print Assumptions C59_large_patches_refuted.

(** *** A forest of three patches of 2 x 1 cells with two values each, in two blocks on two processes *)
Module Inst.
  Definition d := mkGrid 2 1 1 2 false.
  Definition Ds := [mkDom 0 3 0 [(1, 0); (1, 1)]; mkDom 1 3 2 [(0, 0); (1, 0)]].
  Definition one := [mkDom 0 3 0 [(1, 0); (2, 1)]].
  Definition double (x : Z) := le_bytes 8 x.
  Definition float (x : Z) := le_bytes 4 x.
  Definition place (a i w : Z) := a + i * w.
  (** patch number g of the forest; one layer of ghost cells *)
  Definition numbered (g : Z) : clawpatch Z := mkPatch Z d 1 (100 * g) 10 0 4 5 6 (fun o => if (0 <=? o) && (o <? 24) then Some (1000 * g + o) else None).
  Definition patch (r b p : Z) : clawpatch Z := numbered (if r =? 0 then b else 2).
  Definition patch1 (r b p : Z) : clawpatch Z := numbered (b + p).
  Definition c2m (b x y z : Z) := (x + b, y, z).
  Definition text (h : list tag) : list Z := map (fun t => Z.of_nat (String.length (t_name t))) h.
  Lemma domains : domains_ok 3 Ds /\ domains_ok 3 one.
  Proof.
    split; (split; [discriminate|]; split; [repeat split; vm_compute; congruence|]; split; [|reflexivity]).
    - intros D [<-|[<-|[]]]; reflexivity.
    - intros D [<-|[]]; reflexivity.
  Qed.
  Lemma sizes : sizes_ok d 3. Proof. repeat split; vm_compute; congruence. Qed.
  Lemma few : few_blocks Ds /\ few_blocks one.
  Proof. split; (split; [vm_compute; congruence|]); [intros D [<-|[<-|[]]]|intros D [<-|[]]]; vm_compute; congruence. Qed.
  Lemma patches : forall x, c_grid Z (numbered x) = d /\ forall i j k m, in_grid d i j k -> 0 <= m < meqn d -> q Z (numbered x) (q_index d (mbc Z (numbered x)) i j k m) <> None.
  Proof.
    intros x. split; [reflexivity|]. intros i j k m (Hi & Hj & Hk) Hm. unfold q_index, numbered. cbn [q mbc d cube mx my]. unfold layers in Hk. cbn [d mx my meqn cube] in *.
    match goal with |- (if ?b then _ else _) <> _ => replace b with true; [discriminate|symmetry; apply andb_true_intro; split; [apply Z.leb_le|apply Z.ltb_lt]; lia] end.
  Qed.
  Definition cc (r b p : Z) := Some (output_coordinates Z 0 place double c2m true b (patch r b p)).
  Definition vc (r b p : Z) := output_values Z float (patch r b p).
  Definition coords (r b p : Z) := output_coordinates Z 0 place double c2m true b (patch r b p).
  Definition vals (r b p : Z) := match vc r b p with Some l => l | None => [] end.
  Lemma gives : callbacks_give d Ds cc vc coords vals.
  Proof. split; intros g r b p N; unfold vals, vc, cc, coords, patch; [split; reflexivity|split; [reflexivity|]]. reflexivity. Qed.
  Theorem C59_instance : sizes_ok d 3 /\ domains_ok 3 Ds /\ few_blocks Ds /\ callbacks_give d Ds cc vc coords vals /\ is_number Ds 2 1 1 0 /\
    exists s F, write_file text [7; 7] true (fun _ _ _ => 0) d tt 0 cc vc Ds true true 0 (Some (s, F)) /\
      value (header s) F 30 "CellData" "meqn" (2 * (2 * 2 + 1) + 1) = Some (float 2018).
  Proof.
    split; [exact sizes|]. split; [apply domains|]. split; [apply few|]. split; [exact gives|].
    assert (N : is_number Ds 2 1 1 0) by (exists (mkDom 1 3 2 [(0, 0); (1, 0)]), 1, 0; repeat split; vm_compute; congruence). split; [exact N|].
    destruct (C59_file text [7; 7] true (fun _ _ _ => 0) unit d 3 tt 0 cc vc Ds coords vals sizes (proj1 domains) (proj1 few) gives (or_introl eq_refl)) as (X & _).
    destruct (X true true) as (ret & res & W). destruct (C59_return _ _ _ _ _ _ 3 _ _ _ _ _ _ _ _ _ (proj1 domains) W) as (E & ER). cbn [andb] in E. subst ret.
    destruct res as [[s F]|]; [|exfalso; now apply ER]. exists s, F. split; [exact W|].
    assert (L : Z.of_nat (List.length (text (header s))) = 30) by reflexivity.
    pose proof (C59_solution Z 0 place double float c2m true patch text [7; 7] true (fun _ _ _ => 0) unit d 3 tt 0 Ds s F ltac:(intros x; apply (f_equal Z.of_nat (le_bytes_length 8 x))) ltac:(intros x; apply (f_equal Z.of_nat (le_bytes_length 4 x)))
      sizes (proj1 domains) (proj1 few) (or_introl eq_refl) (fun g r b p _ => patches _) W) as Y. cbv zeta in Y. rewrite L in Y.
    destruct (Y 2 1 1 0 1 0 0 N) as (Y1 & _); [repeat split; vm_compute; congruence|]. destruct (Y1 1) as (v & V1 & V2); [vm_compute; split; congruence|]. injection V1 as <-. exact V2.
  Qed.

  (** the same forest on one process *)
  Definition cc1 (r b p : Z) := Some (output_coordinates Z 0 place double c2m true b (patch1 r b p)).
  Definition vc1 (r b p : Z) := output_values Z float (patch1 r b p).
  Definition coords1 (r b p : Z) := output_coordinates Z 0 place double c2m true b (patch1 r b p).
  Definition vals1 (r b p : Z) := match vc1 r b p with Some l => l | None => [] end.
  Lemma gives1 : callbacks_give d one cc1 vc1 coords1 vals1.
  Proof. split; intros g r b p N; unfold vals1, vc1, cc1, coords1, patch1; [split; reflexivity|split; [reflexivity|]]. reflexivity. Qed.
  Lemma numbers : forall g r b p, is_number Ds g r b p -> (r = 0 /\ b = g /\ p = 0 /\ 0 <= g < 2) \/ (g = 2 /\ r = 1 /\ b = 1 /\ p = 0).
  Proof.
    intros g r b p (D & num & bef & E1 & E2 & H & ->). pose proof (zget_dom _ _ _ E1) as B. change (Z.of_nat (List.length Ds)) with 2 in B.
    assert (C : r = 0 \/ r = 1) by lia. destruct C as [-> | ->]; injection E1 as <-; cbn [blocks global_num_patches_before] in *; pose proof (zget_dom _ _ _ E2) as B2; cbn [List.length] in B2;
    (assert (C : b = 0 \/ b = 1) by lia); destruct C as [-> | ->]; injection E2 as <- <-; lia.
  Qed.
  Lemma numbers1 : forall g r b p, is_number one g r b p -> r = 0 /\ g = b + p /\ b = (if g =? 0 then 0 else 1).
  Proof.
    intros g r b p (D & num & bef & E1 & E2 & H & ->). pose proof (zget_dom _ _ _ E1) as B. change (Z.of_nat (List.length one)) with 1 in B. assert (r = 0) by lia. subst r. injection E1 as <-.
    cbn [blocks global_num_patches_before] in *. pose proof (zget_dom _ _ _ E2) as B2. cbn [List.length] in B2. assert (C : b = 0 \/ b = 1) by lia. destruct C as [-> | ->]; injection E2 as <- <-.
    - assert (p = 0) by lia. subst p. repeat split.
    - split; [reflexivity|]. split; [lia|]. destruct (Z.eqb_spec (0 + 1 + p) 0); [lia|reflexivity].
  Qed.
  Theorem C59_partition_instance : exists s F s' F',
    write_file text [7; 7] true (fun _ _ _ => 0) d tt 0 cc vc Ds true true 0 (Some (s, F)) /\ write_file text [7; 7] false (fun _ _ _ => 0) d tt 0 cc1 vc1 one true true 0 (Some (s', F')) /\
    size F = size F' /\ bytes F (30 + offset s Patchno + 8) = bytes F' (30 + offset s Patchno + 8).
  Proof.
    assert (RUN : forall mp cc vc Ds coords vals, domains_ok 3 Ds -> few_blocks Ds -> callbacks_give d Ds cc vc coords vals -> (mp = true \/ Z.of_nat (List.length Ds) = 1) ->
      exists s F, write_file text [7; 7] mp (fun _ _ _ => 0) d tt 0 cc vc Ds true true 0 (Some (s, F))).
    { intros mp cc0 vc0 Es co va DO FB CG MO. destruct (C59_file text [7; 7] mp (fun _ _ _ => 0) unit d 3 tt 0 cc0 vc0 Es co va sizes DO FB CG MO) as (X & _).
      destruct (X true true) as (ret & res & W). destruct (C59_return _ _ _ _ _ _ 3 _ _ _ _ _ _ _ _ _ DO W) as (E & ER). cbn [andb] in E. subst ret.
      destruct res as [[s F]|]; [|exfalso; now apply ER]. exists s, F. exact W. }
    destruct (RUN true cc vc Ds coords vals (proj1 domains) (proj1 few) gives (or_introl eq_refl)) as (s & F & W).
    destruct (RUN false cc1 vc1 one coords1 vals1 (proj2 domains) (proj2 few) gives1 (or_intror eq_refl)) as (s' & F' & W'). exists s, F, s', F'. split; [exact W|]. split; [exact W'|].
    destruct (C59_partition text [7; 7] d 3 unit tt 0 true (fun _ _ _ => 0) cc vc Ds coords vals false (fun _ _ _ => 0) cc1 vc1 one coords1 vals1 s F s' F' sizes
      (proj1 domains) gives (or_introl eq_refl) (proj2 domains) gives1 (or_intror eq_refl)) as (_ & SF & ranks & T & X).
    - intros g r b p r' b' p' N N'. apply numbers in N. apply numbers1 in N'. destruct N' as (-> & E & Eb). unfold coords, vals, vc, coords1, vals1, vc1, patch, patch1.
      assert (BB : b' = b) by (destruct N as [(A & B & C & H)|(A & B & C & H)]; subst; [destruct (Z.eqb_spec (b' + p') 0); lia|destruct (Z.eqb_spec 2 0); lia]). rewrite BB in *. clear BB. split; [reflexivity|].
      replace (if r =? 0 then b else 2) with (b + p'); [split; reflexivity|]. destruct N as [(A & B & C & H)|(A & B & C & H)]; subst; [change (0 =? 0) with true; cbv iota; lia|change (1 =? 0) with false; cbv iota; lia].
    - exact W.
    - exact W'.
    - split; [exact SF|].
      assert (ES : set_up d 3 = Some s) by (inversion W; match goal with H : forall D, In D Ds -> _ |- _ => exact (H _ (or_introl eq_refl)) end).
      assert (30 + offset s Patchno + 8 < size F).
      { destruct (made_ok d 3 sizes) as (s0 & ES0 & MD). assert (s0 = s) by congruence. subst s0.
        destruct (C59_file text [7; 7] true (fun _ _ _ => 0) unit d 3 tt 0 cc vc Ds coords vals sizes (proj1 domains) (proj1 few) gives (or_introl eq_refl)) as (_ & Y).
        inversion W as [|fok s2 lists ws H1 H2 h begin F0 H3 H4 F1]. subst. pose proof (file_size d 3 s Ds coords vals cc vc sizes MD (proj1 domains) (proj1 gives) (proj2 gives) (text (header s)) [7; 7] true (fun _ _ _ => 0) (or_introl eq_refl) lists ws H3 H4) as FS.
        fold h in FS. fold begin in FS. fold F0 in FS. fold F1 in FS. unfold F1. rewrite FS. injection ES as <-. vm_compute. reflexivity. }
      apply X; [injection ES as <-; split; [vm_compute; congruence|assumption]|]. assert (TE : offset s Mpirank = ranks) by (pose proof (tag_ok s Mpirank) as T2; cbn [part name] in T2; rewrite T2 in T; injection T as T; exact T). subst ranks. injection ES as <-. vm_compute. intros [_ C]. discriminate C.
  Qed.
End Inst.

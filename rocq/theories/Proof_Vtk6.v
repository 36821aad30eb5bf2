(** The file that the processes write together. *)
From Coq Require Import String.
From Coq Require Import ZArith List Bool Lia.
From Verif Require Import Base_Mem Model_Mesh Proof_Mesh Model_Vtk Spec_Vtk Proof_Vtk1 Proof_Vtk2 Proof_Vtk3 Proof_Vtk4 Proof_Vtk5.
Import ListNotations.
Open Scope Z_scope.

Lemma shuffle_nil : forall {A} (ls : list (list A)) t, shuffle ls t -> shuffle ([] :: ls) t.
Proof.
  intros A ls t H. induction H as [ls F|a y l b t H IH]; [apply sh_done; now constructor|]. exact (sh_step ([] :: a) y l b t IH).
Qed.
Lemma shuffle_exists : forall {A} (ls : list (list A)), exists t, shuffle ls t.
Proof.
  intros A. induction ls as [|l ls (t & IH)]; [exists []; apply sh_done; constructor|]. exists (l ++ t). induction l as [|x l IHl]; [now apply shuffle_nil|].
  exact (sh_step [] x l ls (l ++ t) IHl).
Qed.
Lemma fold_min0 : forall l, Forall (eq 0) l -> fold_left Z.min l 0 = 0.
Proof. intros l H. induction H as [|x l E _ IH]; [reflexivity|]. cbn [fold_left]. rewrite <- E. exact IH. Qed.
Lemma fold_min1 : forall l, Forall (eq 0) l -> fold_left Z.min l (-1) = -1.
Proof. intros l H. induction H as [|x l E _ IH]; [reflexivity|]. cbn [fold_left]. rewrite <- E. exact IH. Qed.
Lemma returned_ok : forall n ok, (0 < n)%nat -> returned n ok = if ok then 0 else -1.
Proof.
  intros n ok H. destruct n as [|n]; [lia|]. unfold returned. cbn [seq map fold_left]. change (Nat.eqb 0 0) with true. cbv iota.
  assert (Z0 : Forall (eq 0) (map (fun r => if Nat.eqb r 0 then if ok then 0 else -1 else 0) (seq 1 n))).
  { apply Forall_forall. intros x Hx. apply in_map_iff in Hx. destruct Hx as (r & <- & Hr). apply in_seq in Hr. destruct (Nat.eqb_spec r 0); [lia|reflexivity]. }
  destruct ok; [exact (fold_min0 _ Z0)|exact (fold_min1 _ Z0)].
Qed.
Lemma forall2_exists : forall {A B} (P : A -> B -> Prop) l, (forall x, In x l -> exists y, P x y) -> exists m, Forall2 P l m.
Proof.
  intros A B P. induction l as [|x l IH]; intros H; [exists []; constructor|]. destruct (H x (or_introl eq_refl)) as (y & Y). destruct IH as (m & M); [intros z Hz; apply H; now right|].
  exists (y :: m). now constructor.
Qed.
Lemma forall2_left : forall {A B} (P : A -> B -> Prop) l m x, Forall2 P l m -> In x l -> exists y, In y m /\ P x y.
Proof.
  intros A B P l m x F. induction F as [|a b l m H F IH]; intros I; [destruct I|]. destruct I as [<-|I]; [exists b; split; [now left|exact H]|].
  destruct (IH I) as (y & Y & Z). exists y. split; [now right|exact Z].
Qed.
Lemma forall2_right : forall {A B} (P : A -> B -> Prop) l m y, Forall2 P l m -> In y m -> exists x, In x l /\ P x y.
Proof.
  intros A B P l m y F. induction F as [|a b l m H F IH]; intros I; [destruct I|]. destruct I as [<-|I]; [exists a; split; [now left|exact H]|].
  destruct (IH I) as (x & X & Z). exists x. split; [now right|exact Z].
Qed.
Lemma in_zget : forall {A} (l : list A) x, In x l -> exists i, zget l i = Some x.
Proof.
  intros A l x H. apply In_nth_error in H. destruct H as (i & H). exists (Z.of_nat i). unfold zget. destruct (Z.ltb_spec (Z.of_nat i) 0); [lia|]. now rewrite Nat2Z.id.
Qed.

Section File.
  Variable d : grid.
  Variable n : Z.
  Variable s : state.
  Variable Ds : list dom.
  Variable coordinates data : Z -> Z -> Z -> list Z.
  Variable cc vc : Z -> Z -> Z -> option (list Z).
  Hypothesis SZ : sizes_ok d n.
  Hypothesis MD : made d n s.
  Hypothesis DO : domains_ok n Ds.
  Hypothesis RS : right_sizes d Ds coordinates data.
  Hypothesis CC : forall g r b p, is_number Ds g r b p -> cc r b p = Some (coordinates r b p) /\ vc r b p = Some (data r b p).
  Variable text footer : list Z.
  Variable mpiio : bool.
  Variable junk : Z -> field -> Z -> Z.
  Hypothesis MODE : mpiio = true \/ len Ds = 1.
  Let begin := len text.
  Notation kpos := (kpos s begin).
  Notation kbytes := (kbytes d n s coordinates data).
  Notation kwrite := (kwrite d n s coordinates data begin).
  Notation is_key := (is_key Ds).

  Definition process (D : dom) (l : list (Z * list Z)) : Prop := write_data s D (cc (mpirank D)) (vc (mpirank D)) mpiio (junk (mpirank D)) begin = Some l.
  Lemma mode_of : forall r D, zget Ds r = Some D -> mpiio = true \/ Ds = [D].
  Proof.
    intros r D E. destruct MODE as [X|X]; [now left|right]. destruct Ds as [|D0 [|]]; cbn [length] in X; try lia. pose proof (zget_dom _ _ _ E) as B. cbn in B. assert (r = 0) by lia. subst r. cbn in E. congruence.
  Qed.
  Lemma process_ok : forall D, In D Ds -> exists l, process D l /\ forall w, In w l <-> exists k, is_key k /\ w = kwrite k /\ (match k with KCount _ => mpirank D = 0 | KPatch _ _ r' _ _ => r' = mpirank D end).
  Proof.
    intros D I. destruct (in_zget _ _ I) as (r & E). pose proof (rank_ok n Ds DO r D E) as (RK & _).
    destruct (write_data_ok d n s Ds coordinates data cc vc SZ MD DO RS CC begin mpiio (junk (mpirank D)) r D E (mode_of r D E)) as (ws & E1 & E2). exists ws. split; [exact E1|]. rewrite RK. exact E2.
  Qed.
  Lemma lists_exist : exists lists, Forall2 process Ds lists.
  Proof. apply forall2_exists. intros D I. destruct (process_ok D I) as (l & H & _). now exists l. Qed.

  Variable lists : list (list (Z * list Z)).
  Variable ws : list (Z * list Z).
  Hypothesis LS : Forall2 process Ds lists.
  Hypothesis SH : shuffle lists ws.
  Lemma ws_in : forall w, In w ws <-> exists k, is_key k /\ w = kwrite k.
  Proof.
    intros w. rewrite (shuffle_in _ _ SH w). split.
    - intros (l & Hl & Hw). destruct (forall2_right _ _ _ _ LS Hl) as (D & ID & PD). destruct (process_ok D ID) as (l' & PD' & M). assert (l' = l) by (unfold process in *; congruence). subst l'.
      apply M in Hw. destruct Hw as (k & K & W & _). now exists k.
    - intros (k & K & ->).
      assert (X : exists D, In D Ds /\ match k with KCount _ => mpirank D = 0 | KPatch _ _ r' _ _ => r' = mpirank D end).
      { destruct k as [f|f g r b p].
        - pose proof DO as (NE & OK & _). destruct Ds as [|D l]; [congruence|]. exists D. split; [now left|]. now destruct OK as (X & _).
        - destruct K as (D & num & bef & E & _). exists D. split; [exact (zget_some_in _ _ _ E)|]. now destruct (rank_ok n Ds DO r D E) as (X & _). }
      destruct X as (D & ID & X). destruct (process_ok D ID) as (l & PD & M). destruct (forall2_left _ _ _ _ LS ID) as (l' & Hl & PD'). assert (l' = l) by (unfold process in *; congruence). subst l'.
      exists l. split; [exact Hl|]. apply M. exists k. split; [exact K|]. now split.
  Qed.

  Let F0 := write_at empty_file (0, text).
  Let F1 := write_all (if mpiio then reserve F0 (begin + offset_end s) else F0) ws.
  Let F2 := write_at F1 (size F1, footer).
  Let E0 := begin + offset_end s.
  Lemma end_pos8 : 64 <= offset_end s.
  Proof.
    destruct (m_chain d n s MD) as (C0 & C1 & C2 & C3 & C4 & C5 & C6 & C7 & C8). pose proof (total_pos d n s SZ MD) as T.
    pose proof (T Position). pose proof (T Connectivity). pose proof (T Offsets). pose proof (T Types). pose proof (T Mpirank). pose proof (T Blockno). pose proof (T Patchno). pose proof (T Meqn). lia.
  Qed.
  Lemma key_range : forall k, is_key k -> begin <= kpos k /\ kpos k + len (kbytes k) <= E0 /\ 0 < len (kbytes k).
  Proof.
    intros k K. pose proof (key_in d n s Ds SZ MD DO begin k K) as (A & B). pose proof (offset_bounds d n s SZ MD (kfield k)) as (C & D). rewrite (klen_ok d n s Ds coordinates data SZ MD RS k K). unfold E0.
    split; [lia|]. split; [lia|]. destruct k; cbn [klen]; [lia|]. pose proof (psize_pos d n s SZ MD f). lia.
  Qed.
  Lemma begin_pos : 0 <= begin. Proof. unfold begin. lia. Qed.
  Lemma size0 : size F0 = begin.
  Proof. unfold F0. cbn [write_at size empty_file fst snd]. fold begin. pose proof begin_pos. destruct (Z.ltb_spec 0 begin); lia. Qed.
  (** every place after the header belongs to a piece *)
  Lemma covered : forall o, begin <= o < E0 -> exists k, is_key k /\ kpos k <= o < kpos k + len (kbytes k).
  Proof.
    intros o B. unfold E0 in B. assert (X : exists f, begin + offset s f <= o < begin + offset s f + 8 + psize s f * n).
    { destruct (m_chain d n s MD) as (C0 & C1 & C2 & C3 & C4 & C5 & C6 & C7 & C8).
      destruct (Z_lt_le_dec o (begin + offset s Connectivity)); [exists Position; lia|]. destruct (Z_lt_le_dec o (begin + offset s Offsets)); [exists Connectivity; lia|].
      destruct (Z_lt_le_dec o (begin + offset s Types)); [exists Offsets; lia|]. destruct (Z_lt_le_dec o (begin + offset s Mpirank)); [exists Types; lia|].
      destruct (Z_lt_le_dec o (begin + offset s Blockno)); [exists Mpirank; lia|]. destruct (Z_lt_le_dec o (begin + offset s Patchno)); [exists Blockno; lia|].
      destruct (Z_lt_le_dec o (begin + offset s Meqn)); [exists Patchno; lia|]. exists Meqn. lia. }
    destruct X as (f & X). pose proof (psize_pos d n s SZ MD f) as PP. destruct (Z_lt_le_dec o (begin + offset s f + 8)) as [L|L].
    - exists (KCount f). split; [exact Logic.I|]. rewrite (klen_ok d n s Ds coordinates data SZ MD RS (KCount f) Logic.I). cbn [Proof_Vtk4.kpos klen]. lia.
    - set (u := o - (begin + offset s f + 8)) in *. assert (U : 0 <= u < psize s f * n) by (unfold u; lia).
      assert (G : 0 <= u / psize s f < n) by (split; [apply Z.div_pos; lia|apply Z.div_lt_upper_bound; lia]).
      destruct (number_exists n Ds (u / psize s f) DO G) as (r & b & p & N). exists (KPatch f (u / psize s f) r b p). split; [exact N|].
      rewrite (klen_ok d n s Ds coordinates data SZ MD RS (KPatch f (u / psize s f) r b p) N). cbn [Proof_Vtk4.kpos klen].
      pose proof (Z.div_mod u (psize s f) ltac:(lia)). pose proof (Z.mod_pos_bound u (psize s f) ltac:(lia)). unfold u in *. lia.
  Qed.
  Lemma size1 : size F1 = E0.
  Proof.
    pose proof end_pos8 as EP. set (Fi := if mpiio then reserve F0 (begin + offset_end s) else F0) in *.
    assert (SI : size Fi <= E0) by (unfold Fi, E0; destruct mpiio; cbn [reserve size]; rewrite size0; lia).
    destruct (write_all_size ws Fi E0) as (A & B); [|exact SI|].
    - intros w Hw. apply ws_in in Hw. destruct Hw as (k & K & ->). cbn [Proof_Vtk4.kwrite fst snd]. pose proof (key_range k K). lia.
    - destruct (covered (E0 - 1)) as (k & K & X); [unfold E0; lia|]. specialize (B (kwrite k) ltac:(apply ws_in; now exists k)). cbn [Proof_Vtk4.kwrite fst snd] in B. unfold F1. fold Fi. lia.
  Qed.
  Lemma file_size : size F2 = E0 + len footer.
  Proof. unfold F2. cbn [write_at size fst snd]. rewrite size1. destruct (Z.ltb_spec 0 (len footer)); lia. Qed.
  Lemma F2_in : forall o, E0 <= o < E0 + len footer -> bytes F2 o = zget footer (o - E0).
  Proof. intros o H. unfold F2. rewrite write_at_in; cbn [fst snd covers]; rewrite size1; [reflexivity|]. unfold covers. cbn [fst snd]. lia. Qed.
  Lemma F2_out : forall o, o < E0 -> bytes F2 o = bytes F1 o.
  Proof. intros o H. unfold F2. apply write_at_out. unfold covers. cbn [fst snd]. rewrite size1. lia. Qed.
  Lemma F2_key : forall k, is_key k -> forall t, 0 <= t < len (kbytes k) -> bytes F2 (kpos k + t) = zget (kbytes k) t.
  Proof.
    intros k K t Ht. pose proof (key_range k K) as (A & B & _). rewrite F2_out by lia. unfold F1. apply write_all_in.
    - intros w Hw C. apply ws_in in Hw. destruct Hw as (k' & K' & ->). cbn [Proof_Vtk4.kwrite fst snd] in *. unfold covers in C. cbn [Proof_Vtk4.kwrite fst snd] in C.
      assert (k = k').
      { apply (key_disjoint d n s Ds SZ MD DO begin k k' (kpos k + t) K K'); rewrite <- (klen_ok d n s Ds coordinates data SZ MD RS) by assumption; lia. }
      subst k'. f_equal. lia.
    - exists (kwrite k). split; [apply ws_in; now exists k|]. unfold covers. cbn [Proof_Vtk4.kwrite fst snd]. lia.
  Qed.
  Lemma F2_header : forall o, 0 <= o < begin -> bytes F2 o = zget text o.
  Proof.
    intros o H. pose proof end_pos8. rewrite F2_out by (unfold E0; lia). unfold F1. rewrite write_all_out.
    - assert (X : bytes F0 o = zget text o) by (unfold F0; rewrite write_at_in; [cbn [fst snd]; f_equal; lia|unfold covers; cbn [fst snd]; fold begin; lia]). destruct mpiio; exact X.
    - intros w Hw C. apply ws_in in Hw. destruct Hw as (k & K & ->). unfold covers in C. cbn [Proof_Vtk4.kwrite fst snd] in C. pose proof (key_range k K). lia.
  Qed.
  Lemma F2_full : forall o, 0 <= o < size F2 -> bytes F2 o <> None.
  Proof.
    intros o H. rewrite file_size in H. destruct (Z_lt_le_dec o begin) as [A|A].
    - rewrite F2_header by lia. destruct (zget_lt text o ltac:(fold begin; lia)) as (x & ->). discriminate.
    - destruct (Z_lt_le_dec o E0) as [B|B].
      + destruct (covered o ltac:(lia)) as (k & K & X). replace o with (kpos k + (o - kpos k)) by lia. rewrite F2_key by (assumption || lia). destruct (zget_lt (kbytes k) (o - kpos k) ltac:(lia)) as (x & ->). discriminate.
      + rewrite F2_in by lia. destruct (zget_lt footer (o - E0) ltac:(lia)) as (x & ->). discriminate.
  Qed.
End File.

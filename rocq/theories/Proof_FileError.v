(** Lemmas about error reports. *)
From Coq Require Import ZArith String List Bool Lia.
From Verif Require Import Model_FileError Spec_FileError.
Import ListNotations.
Open Scope Z_scope.

(** * Worlds *)
Lemma all_some_map {A B C} (f : A -> B) (g : B -> option C) (h : A -> C) l : (forall x, In x l -> g (f x) = Some (h x)) -> all_some (map g (map f l)) = Some (map h l).
Proof. induction l as [|x l IH]; intros H; [reflexivity|]. cbn [map all_some]. rewrite H by now left. rewrite IH; [reflexivity|]. intros y Y. apply H. now right. Qed.
Lemma in_rest r n : In r (seq 1 (n - 1)) -> (r < n)%nat. Proof. rewrite in_seq. lia. Qed.
Lemma seq_split n : (1 <= n)%nat -> seq 0 n = 0%nat :: seq 1 (n - 1). Proof. intros H. destruct n as [|n]; [lia|]. replace (S n - 1)%nat with n by lia. reflexivity. Qed.

Lemma world_ret {A} (p : nat -> proc A) a n : (1 <= n)%nat -> (forall r, (r < n)%nat -> p r = Ret (a r)) -> world p n = Finished (map a (seq 0 n)).
Proof.
  intros N H. unfold world. rewrite H by lia. cbn [run]. rewrite (all_some_map p is_ret a); [rewrite (seq_split n N); reflexivity|]. intros r R. apply in_rest in R. rewrite H by exact R. reflexivity.
Qed.
Lemma world_ext {A} (p q : nat -> proc A) n : (1 <= n)%nat -> (forall r, (r < n)%nat -> p r = q r) -> world p n = world q n.
Proof. intros N H. unfold world. rewrite H by lia. f_equal. apply map_ext_in. intros r R. apply in_rest in R. apply H. exact R. Qed.
Lemma world_bcast {A} (p : nat -> proc A) v k n : (1 <= n)%nat -> (forall r, (r < n)%nat -> p r = Bcast (v r) (k r)) -> world p n = world (fun r => k r (v 0%nat)) n.
Proof.
  intros N H. unfold world. rewrite H by lia. cbn [run]. rewrite (all_some_map p is_bcast k); [rewrite map_map; reflexivity|]. intros r R. apply in_rest in R. rewrite H by exact R. reflexivity.
Qed.
Lemma world_lor {A} (p : nat -> proc A) b k n : (1 <= n)%nat -> (forall r, (r < n)%nat -> p r = Lor (b r) (k r)) -> world p n = world (fun r => k r (existsb b (seq 0 n))) n.
Proof.
  intros N H. unfold world. rewrite H by lia. cbn [run]. rewrite (all_some_map p is_lor (fun r => (b r, k r))).
  - rewrite map_map. cbn [snd]. rewrite (seq_split n N). cbn [existsb]. assert (existsb fst (map (fun r => (b r, k r)) (seq 1 (n - 1))) = existsb b (seq 1 (n - 1))) as ->; [|reflexivity].
    induction (seq 1 (n - 1)) as [|x l IH]; [reflexivity|]. cbn [map existsb fst]. rewrite IH. reflexivity.
  - intros r R. apply in_rest in R. rewrite H by exact R. reflexivity.
Qed.
Lemma world_coll {A} (p : nat -> proc A) c k n : (1 <= n)%nat -> (forall r, (r < n)%nat -> p r = Coll c (k r)) -> world p n = world k n.
Proof.
  intros N H. unfold world. rewrite H by lia. cbn [run]. rewrite (all_some_map p (is_coll c) k); [reflexivity|]. intros r R. apply in_rest in R. rewrite H by exact R. cbn. destruct c; reflexivity.
Qed.

(** sequential composition when all processes return the same *)
Lemma all_some_inv {A B} (g : A -> option B) l r : all_some (map g l) = Some r -> Forall2 (fun x y => g x = Some y) l r.
Proof. revert r. induction l as [|x l IH]; intros r H; cbn [map all_some] in H; [injection H as <-; constructor|]. destruct (g x) eqn:E; [|discriminate]. destruct (all_some (map g l)) eqn:E'; [|discriminate]. injection H as <-. constructor; [exact E|apply IH; reflexivity]. Qed.

Definition bind2 {A B} (x : proc A * (A -> proc B)) : proc B := pbind (fst x) (snd x).
Lemma run_bind {A B} (p0 : proc A) : forall (f0 : A -> proc B) pfs a n, run p0 (map fst pfs) = Finished (repeat a n) ->
  run (pbind p0 f0) (map bind2 pfs) = run (f0 a) (map (fun x => snd x a) pfs).
Proof.
  induction p0 as [a0| |v k IH|b k IH|c k IH]; intros f0 pfs a n H; cbn [run pbind] in H |- *.
  - destruct (all_some (map is_ret (map fst pfs))) as [l|] eqn:E; [|discriminate]. injection H as H. destruct n as [|n]; [discriminate|]. cbn [repeat] in H. injection H as -> ->. f_equal.
    apply all_some_inv in E. revert E. generalize n as q. induction pfs as [|x pfs IHp]; intros q E; [reflexivity|]. cbn [map] in E |- *. destruct q as [|q]; cbn [repeat] in E; inversion E as [|? ? ? ? E1 E2]; subst.
    rewrite (IHp q E2). f_equal. unfold bind2. destruct x as [p f]. cbn [fst snd] in *. destruct p; try discriminate E1. cbn in E1. injection E1 as ->. reflexivity.
  - discriminate.
  - destruct (all_some (map is_bcast (map fst pfs))) as [ks|] eqn:E; [|discriminate].
    assert (G : exists kfs, map fst kfs = ks /\ map snd kfs = map snd pfs /\ all_some (map is_bcast (map bind2 pfs)) = Some (map (fun kf z => pbind (fst kf z) (snd kf)) kfs)).
    { clear H. revert ks E. induction pfs as [|x pfs IHp]; intros ks E; cbn [map all_some] in E |- *; [injection E as <-; exists []; repeat split|].
      destruct x as [p f]. cbn [fst snd] in *. destruct p as [| |v' k'| |]; cbn [is_bcast] in E; try discriminate. destruct (all_some (map is_bcast (map fst pfs))) as [ks'|] eqn:E'; [|discriminate]. injection E as <-.
      destruct (IHp ks' eq_refl) as (kfs & K1 & K2 & K3). exists ((k', f) :: kfs). cbn [map fst snd bind2 pbind is_bcast]. rewrite K1, K2. cbn [bind2 fst snd pbind is_bcast]. rewrite K3. repeat split. }
    destruct G as (kfs & K1 & K2 & K3). rewrite K3. rewrite map_map. rewrite <- K1, map_map in H.
    specialize (IH v f0 (map (fun kf => (fst kf v, snd kf)) kfs) a n). rewrite map_map in IH. cbn [fst snd] in IH. rewrite !map_map in IH. unfold bind2 in IH at 1. cbn [fst snd] in IH. specialize (IH H).
    rewrite IH. f_equal. rewrite <- (map_map snd (fun f => f a) kfs), <- (map_map snd (fun f => f a) pfs), K2. reflexivity.
  - destruct (all_some (map is_lor (map fst pfs))) as [ks|] eqn:E; [|discriminate].
    assert (G : exists kfs : list ((bool * (bool -> proc A)) * (A -> proc B)), map fst kfs = ks /\ map snd kfs = map snd pfs /\ all_some (map is_lor (map bind2 pfs)) = Some (map (fun kf => (fst (fst kf), fun z => pbind (snd (fst kf) z) (snd kf))) kfs)).
    { clear H. revert ks E. induction pfs as [|x pfs IHp]; intros ks E; cbn [map all_some] in E |- *; [injection E as <-; exists []; repeat split|].
      destruct x as [p f]. cbn [fst snd] in *. destruct p as [| | |b' k'|]; cbn [is_lor] in E; try discriminate. destruct (all_some (map is_lor (map fst pfs))) as [ks'|] eqn:E'; [|discriminate]. injection E as <-.
      destruct (IHp ks' eq_refl) as (kfs & K1 & K2 & K3). exists (((b', k'), f) :: kfs). cbn [map fst snd bind2 pbind is_lor]. rewrite K1, K2. cbn [bind2 fst snd pbind is_lor]. rewrite K3. repeat split. }
    destruct G as (kfs & K1 & K2 & K3). rewrite K3. cbv zeta in H |- *.
    assert (EX : existsb fst (map (fun kf : (bool * (bool -> proc A)) * (A -> proc B) => (fst (fst kf), fun z => pbind (snd (fst kf) z) (snd kf))) kfs) = existsb fst ks).
    { rewrite <- K1. clear. induction kfs as [|x l IH]; [reflexivity|]. cbn [map existsb fst]. rewrite IH. reflexivity. }
    rewrite EX. set (g := b || existsb fst ks) in *. rewrite map_map. cbn [snd]. rewrite <- K1, map_map in H.
    specialize (IH g f0 (map (fun kf => (snd (fst kf) g, snd kf)) kfs) a n). rewrite map_map in IH. cbn [fst snd] in IH. rewrite !map_map in IH. unfold bind2 in IH at 1. cbn [fst snd] in IH. specialize (IH H).
    rewrite IH. f_equal. rewrite <- (map_map snd (fun f => f a) kfs), <- (map_map snd (fun f => f a) pfs), K2. reflexivity.
  - destruct (all_some (map (is_coll c) (map fst pfs))) as [ks|] eqn:E; [|discriminate].
    assert (G : exists kfs, map fst kfs = ks /\ map snd kfs = map snd pfs /\ all_some (map (is_coll c) (map bind2 pfs)) = Some (map (fun kf => pbind (fst kf) (snd kf)) kfs)).
    { clear H. revert ks E. induction pfs as [|x pfs IHp]; intros ks E; cbn [map all_some] in E |- *; [injection E as <-; exists []; repeat split|].
      destruct x as [p f]. cbn [fst snd] in *. destruct p as [| | | |c' k']; cbn [is_coll] in E; try discriminate. destruct (coll_eqb c c') eqn:EC; [|discriminate]. destruct (all_some (map (is_coll c) (map fst pfs))) as [ks'|] eqn:E'; [|discriminate]. injection E as <-.
      destruct (IHp ks' eq_refl) as (kfs & K1 & K2 & K3). exists ((k', f) :: kfs). cbn [map fst snd bind2 pbind is_coll]. rewrite K1, K2. cbn [bind2 fst snd pbind is_coll]. rewrite EC, K3. repeat split. }
    destruct G as (kfs & K1 & K2 & K3). rewrite K3. rewrite <- K1 in H.
    specialize (IH f0 kfs a n H). unfold bind2 in IH at 1. rewrite IH. f_equal. rewrite <- (map_map snd (fun f => f a) kfs), <- (map_map snd (fun f => f a) pfs), K2. reflexivity.
Qed.

Lemma world_bind {A B} (p : nat -> proc A) (f : nat -> A -> proc B) a n : world p n = Finished (repeat a n) ->
  world (fun r => pbind (p r) (f r)) n = world (fun r => f r a) n.
Proof.
  intros H. unfold world in *. pose proof (run_bind (p 0%nat) (f 0%nat) (map (fun r => (p r, f r)) (seq 1 (n - 1))) a n) as L. rewrite !map_map in L. cbn [fst snd bind2] in L. apply L. exact H.
Qed.

(** * Codes *)
Section Codes.
  Variable m : mpi.
  Hypothesis OK : mpi_ok m.

  Lemma last_pos : 0 < m_lastcode m. Proof. destruct OK as (_ & F). cbn in F. inversion F. lia. Qed.

  Lemma switch_ind {A} (P : A -> Prop) n cs d : Forall (fun c => P (snd c)) cs -> P d -> P (switch n cs d).
  Proof. intros F D. induction F as [|[k a] cs H F IH]; cbn; [exact D|]. destruct (n =? k); [exact H|exact IH]. Qed.
  Lemma code_range c : 0 <= c < m_lastcode m -> exists e, error_code m c = Some e /\ m_lastcode m <= e < m_lastcode m + 20.
  Proof.
    intros B. unfold error_code. change MPI_SUCCESS with 0. unfold V1_SUCCESS. assert ((0 <=? c) && (c <? m_lastcode m) = true) as -> by (apply andb_true_intro; split; [apply Z.leb_le|apply Z.ltb_lt]; lia).
    cbn [orb negb]. assert (m_lastcode m <=? c = false) as -> by (apply Z.leb_gt; lia). cbn [andb]. eexists. split; [reflexivity|].
    apply (switch_ind (fun e => m_lastcode m <= e < m_lastcode m + 20)); [|unfold V1_UNKNOWN, V1; lia]. repeat constructor; cbn [snd]; unfold V1_FILE, V1_NOT_SAME, V1_AMODE, V1_NO_SUCH_FILE, V1_FILE_EXIST, V1_BAD_FILE, V1_ACCESS, V1_NO_SPACE, V1_QUOTA, V1_READ_ONLY, V1_IN_USE, V1_UNKNOWN, V1_IO, V1; lia.
  Qed.
  Lemma code_v1 e : m_lastcode m <= e < m_lastcode m + 20 -> error_code m e = Some e.
  Proof.
    intros B. unfold error_code, V1_SUCCESS, V1_LASTCODE, V1. assert ((m_lastcode m <=? e) && (e <? m_lastcode m + 20) = true) as -> by (apply andb_true_intro; split; [apply Z.leb_le|apply Z.ltb_lt]; lia).
    rewrite orb_true_r. reflexivity.
  Qed.

  (** the classes one by one *)
  Lemma in_classes c : 0 <= c -> {c = 0} + {In c (classes m)} + {c <> 0 /\ ~ In c (classes m)}.
  Proof. intros B. destruct (Z.eq_dec c 0); [left; left; assumption|]. destruct (in_dec Z.eq_dec c (classes m)); [left; right; assumption|right; auto]. Qed.

  Lemma switch_hit {A} n cs (d a : A) : NoDup (map fst cs) -> In (n, a) cs -> switch n cs d = a.
  Proof.
    induction cs as [|[k b] cs IH]; intros ND IN; [contradiction|]. cbn [map fst] in ND. inversion ND as [|? ? NI ND']; subst. cbn [switch]. destruct IN as [E|IN].
    - injection E as -> ->. rewrite Z.eqb_refl. reflexivity.
    - destruct (n =? k) eqn:E; [|apply IH; assumption]. apply Z.eqb_eq in E. subst k. exfalso. apply NI. apply (in_map fst) in IN. exact IN.
  Qed.
  Lemma switch_miss {A} n cs (d : A) : ~ In n (map fst cs) -> switch n cs d = d.
  Proof. induction cs as [|[k b] cs IH]; intros NI; [reflexivity|]. cbn [switch map fst] in *. destruct (n =? k) eqn:E; [apply Z.eqb_eq in E; exfalso; apply NI; left; congruence|]. apply IH. intros X. apply NI. now right. Qed.

  Lemma nodup0 : NoDup (0 :: classes m).
  Proof. destruct OK as (ND & F). constructor; [|exact ND]. intros IN. rewrite Forall_forall in F. specialize (F 0 IN). lia. Qed.

  Definition table : list (Z * Z) :=
    [ (0, 0); (m_file m, 1); (m_not_same m, 2); (m_amode m, 3); (m_no_such_file m, 4); (m_file_exists m, 5); (m_bad_file m, 6); (m_access m, 7); (m_no_space m, 8);
      (m_quota m, 9); (m_read_only m, 10); (m_in_use m, 11); (m_unknown m, 19); (m_datarep m, 12); (m_operation m, 12); (m_dup m, 12); (m_conversion m, 12) ].
  Lemma table_fst : map fst table = 0 :: classes m. Proof. reflexivity. Qed.
  Lemma code_table c i : In (c, i) table -> error_code m c = Some (m_lastcode m + i).
  Proof.
    intros IN. assert (B : 0 <= c < m_lastcode m). { pose proof last_pos. assert (X : In c (0 :: classes m)) by (rewrite <- table_fst; apply (in_map fst) in IN; exact IN). destruct X as [<-|X]; [lia|]. destruct OK as (_ & F). rewrite Forall_forall in F. specialize (F c X). lia. }
    unfold error_code. change MPI_SUCCESS with 0. unfold V1_SUCCESS. assert ((0 <=? c) && (c <? m_lastcode m) = true) as -> by (apply andb_true_intro; split; [apply Z.leb_le|apply Z.ltb_lt]; lia).
    cbn [orb negb]. assert (m_lastcode m <=? c = false) as -> by (apply Z.leb_gt; lia). cbn [andb]. f_equal. apply switch_hit; [exact nodup0|].
    assert (G : In (c, m_lastcode m + i) (map (fun p => (fst p, m_lastcode m + snd p)) table)) by (apply (in_map (fun p => (fst p, m_lastcode m + snd p))) in IN; exact IN).
    unfold table in G. cbn [map fst snd] in G. rewrite Z.add_0_r in G. exact G.
  Qed.
  Lemma code_other c : 0 <= c < m_lastcode m -> ~ In c (0 :: classes m) -> error_code m c = Some (m_lastcode m + 19).
  Proof.
    intros B NI. unfold error_code. change MPI_SUCCESS with 0. unfold V1_SUCCESS. assert ((0 <=? c) && (c <? m_lastcode m) = true) as -> by (apply andb_true_intro; split; [apply Z.leb_le|apply Z.ltb_lt]; lia).
    cbn [orb negb]. assert (m_lastcode m <=? c = false) as -> by (apply Z.leb_gt; lia). cbn [andb]. f_equal. apply switch_miss. exact NI.
  Qed.

  Definition pub (i : Z) : Z := if i =? 0 then 0 else if i <=? 18 then m_lastcode m + i - 1 else if i =? 19 then m_lastcode m + 19 else m_lastcode m + 20.
  Lemma translate_v1 i : 0 <= i <= 20 -> translate m (m_lastcode m + i) = pub i.
  Proof.
    intros B. unfold translate. apply switch_hit.
    - cbn [map fst]. unfold V1_SUCCESS, V1_FILE, V1_NOT_SAME, V1_AMODE, V1_NO_SUCH_FILE, V1_FILE_EXIST, V1_BAD_FILE, V1_ACCESS, V1_NO_SPACE, V1_QUOTA, V1_READ_ONLY, V1_IN_USE, V1_IO, V1_FORMAT, V1_SECTION_TYPE, V1_CONN, V1_P4EST, V1_IN_DATA, V1_COUNT, V1_UNKNOWN, V1_LASTCODE, V1.
      repeat (constructor; [cbn [In]; lia|]). constructor.
    - unfold V1_SUCCESS, V1_FILE, V1_NOT_SAME, V1_AMODE, V1_NO_SUCH_FILE, V1_FILE_EXIST, V1_BAD_FILE, V1_ACCESS, V1_NO_SPACE, V1_QUOTA, V1_READ_ONLY, V1_IN_USE, V1_IO, V1_FORMAT, V1_SECTION_TYPE, V1_CONN, V1_P4EST, V1_IN_DATA, V1_COUNT, V1_UNKNOWN, V1_LASTCODE, V1.
      unfold ERR_SUCCESS, ERR_FILE, ERR_NOT_SAME, ERR_AMODE, ERR_NO_SUCH_FILE, ERR_FILE_EXIST, ERR_BAD_FILE, ERR_ACCESS, ERR_NO_SPACE, ERR_QUOTA, ERR_READ_ONLY, ERR_IN_USE, ERR_IO, ERR_FORMAT, ERR_SECTION_TYPE, ERR_CONN, ERR_P4EST, ERR_IN_DATA, ERR_COUNT, ERR_UNKNOWN, ERR_LASTCODE, ERR.
      assert (E : i = 0 \/ i = 1 \/ i = 2 \/ i = 3 \/ i = 4 \/ i = 5 \/ i = 6 \/ i = 7 \/ i = 8 \/ i = 9 \/ i = 10 \/ i = 11 \/ i = 12 \/ i = 13 \/ i = 14 \/ i = 15 \/ i = 16 \/ i = 17 \/ i = 18 \/ i = 19 \/ i = 20) by lia.
      repeat (destruct E as [->|E]; [unfold pub; cbn [Z.eqb Pos.eqb Z.leb Z.compare Pos.compare Pos.compare_cont]; cbn [In]; repeat (first [left; f_equal; lia|right])|]). subst i. cbn [In]. unfold pub. cbn [Z.eqb Pos.eqb Z.leb Z.compare Pos.compare Pos.compare_cont]. repeat (first [left; f_equal; lia|right]).
  Qed.

  Lemma string_v1 i : 0 <= i < 20 -> (error_string m (m_lastcode m + i) = None <-> i = 12).
  Proof.
    intros B. unfold error_string, V1_SUCCESS, V1_LASTCODE, V1. assert ((m_lastcode m <=? m_lastcode m + i) && (m_lastcode m + i <? m_lastcode m + 20) = true) as -> by (apply andb_true_intro; split; [apply Z.leb_le|apply Z.ltb_lt]; lia).
    cbn [negb]. cbn [switch].
    assert (S0 : (m_lastcode m + i =? m_lastcode m) = (i =? 0)) by (destruct (i =? 0) eqn:E; [apply Z.eqb_eq in E; apply Z.eqb_eq; lia|apply Z.eqb_neq in E; apply Z.eqb_neq; lia]).
    assert (SN : forall k, (m_lastcode m + i =? m_lastcode m + k) = (i =? k)) by (intros k; destruct (i =? k) eqn:E; [apply Z.eqb_eq in E; apply Z.eqb_eq; lia|apply Z.eqb_neq in E; apply Z.eqb_neq; lia]).
    unfold V1_FILE, V1_NOT_SAME, V1_AMODE, V1_NO_SUCH_FILE, V1_FILE_EXIST, V1_BAD_FILE, V1_ACCESS, V1_NO_SPACE, V1_QUOTA, V1_READ_ONLY, V1_IN_USE, V1_IO, V1_FORMAT, V1_SECTION_TYPE, V1_CONN, V1_P4EST, V1_IN_DATA, V1_COUNT, V1_UNKNOWN, V1.
    rewrite S0, !SN.
    repeat match goal with |- context [if (i =? ?k) then _ else _] => let E := fresh "E" in destruct (i =? k) eqn:E; [apply Z.eqb_eq in E; split; [discriminate|lia]|apply Z.eqb_neq in E] end.
    split; [lia|reflexivity].
  Qed.

  (** index of a class *)
  Lemma code_idx c : 0 <= c < m_lastcode m -> exists i, error_code m c = Some (m_lastcode m + i) /\ 0 <= i < 20 /\ (i = 0 <-> c = 0) /\ (i = 12 <-> other_io m c) /\ pub i = public_code m c.
  Proof.
    intros B. destruct (in_dec Z.eq_dec c (0 :: classes m)) as [IN|NI].
    - rewrite <- table_fst in IN. apply in_map_iff in IN. destruct IN as ([c' i] & E & IN). cbn in E. subst c'. exists i. split; [apply code_table; exact IN|].
      pose proof nodup0 as ND. assert (PC : public_code m c = pub i).
      { unfold public_code. assert (FD : find (fun p => fst p =? c) (documented m) = Some (c, pub i)); [|rewrite FD; reflexivity].
        assert (ID : In (c, pub i) (documented m)).
        { pose proof (in_map (fun p => (fst p, pub (snd p))) _ _ IN) as G. unfold table in G. cbn [map fst snd] in G. unfold pub in G at 2 3 4 5 6 7 8 9 10 11 12 13 14 15 16 17 18. cbn [Z.eqb Pos.eqb Z.leb Z.compare Pos.compare Pos.compare_cont] in G.
          unfold documented, ERR_SUCCESS, ERR_FILE, ERR_NOT_SAME, ERR_AMODE, ERR_NO_SUCH_FILE, ERR_FILE_EXIST, ERR_BAD_FILE, ERR_ACCESS, ERR_NO_SPACE, ERR_QUOTA, ERR_READ_ONLY, ERR_IN_USE, ERR_IO, ERR_UNKNOWN, ERR, MPI_SUCCESS.
          assert (SH : forall k, m_lastcode m + k - 1 = m_lastcode m + (k - 1)) by (intros; lia). rewrite !SH in G. exact G. }
        assert (NDD : NoDup (map fst (documented m))) by exact ND. revert ID NDD. generalize (documented m) as l. intros l. induction l as [|[k e] l IH]; intros ID NDD; [contradiction|]. cbn [find map fst] in *. inversion NDD as [|? ? NI NDD']; subst.
        destruct (k =? c) eqn:E; [apply Z.eqb_eq in E; subst k; destruct ID as [ID|ID]; [congruence|exfalso; apply NI; apply (in_map fst) in ID; exact ID]|]. destruct ID as [ID|ID]; [injection ID as -> _; rewrite Z.eqb_refl in E; discriminate|apply IH; assumption]. }
      assert (CASES : 0 <= i < 20 /\ (i = 0 <-> c = 0) /\ (i = 12 <-> other_io m c)); [|destruct CASES as (C1 & C2 & C3); repeat split; try tauto; try lia; rewrite PC; reflexivity].
      assert (POS : forall k, In k (classes m) -> 0 < k) by (destruct OK as (_ & F); rewrite Forall_forall in F; intros k K; apply F in K; lia).
      clear -IN ND POS. unfold table in IN. assert (NDC : NoDup (classes m)) by (inversion ND; assumption).
      unfold other_io. assert (SEP : forall k, In k (firstn 12 (classes m)) -> ~ In k [m_datarep m; m_operation m; m_dup m; m_conversion m]).
      { intros k K X. assert (ND2 : NoDup (firstn 12 (classes m) ++ [m_datarep m; m_operation m; m_dup m; m_conversion m])) by exact NDC. revert K X ND2. generalize (firstn 12 (classes m)) as l. generalize [m_datarep m; m_operation m; m_dup m; m_conversion m] as l2. intros l2 l.
        induction l as [|y l IH]; intros K X ND2; [contradiction|]. cbn [app] in ND2. inversion ND2 as [|? ? NI ND3]; subst. destruct K as [->|K]; [apply NI; apply in_or_app; now right|apply IH; assumption]. }
      cbn [firstn classes] in SEP.
      cbn [In] in IN. repeat (destruct IN as [IN|IN]; [injection IN as <- <-|]); try contradiction; (split; [lia|]); (split; [|]).
      all: try (split; [discriminate|intros X; exfalso; match goal with H : ?z = 0 |- _ => assert (0 < z) by (apply POS; cbn [classes In]; tauto); lia end]).
      all: try (split; reflexivity).
      all: try (split; [intros _; cbn [In]; tauto|reflexivity]).
      all: try (split; [discriminate|intros X; exfalso; first [eapply SEP; [|exact X]; cbn [In]; tauto|assert (0 < 0) by (apply POS; cbn [classes In] in *; tauto); lia]]).
    - exists 19. split; [apply code_other; assumption|]. repeat split; try lia.
      + intros ->. exfalso. apply NI. now left.
      + intros X. exfalso. apply NI. right. unfold other_io in X. cbn [In classes] in *. tauto.
      + unfold public_code. destruct (find (fun p => fst p =? c) (documented m)) as [[k e]|] eqn:E; [|reflexivity]. exfalso. apply find_some in E. destruct E as (E & EQ). cbn in EQ. apply Z.eqb_eq in EQ. subst k. apply NI. apply (in_map fst) in E. exact E.
  Qed.
End Codes.

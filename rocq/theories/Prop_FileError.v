(** C43: error reports of data files. *)
From Coq Require Import ZArith String List Bool Lia.
From Verif Require Import Model_FileError Spec_FileError Proof_FileError.
Import ListNotations.
Open Scope Z_scope.

(** code of the legacy functions for a class *)
Definition v1 (m : mpi) (c : Z) : Z := match error_code m c with Some e => e | None => 0 end.

Section Facts.
  Variable m : mpi.
  Hypothesis OK : mpi_ok m.

  Lemma v1_ok c : 0 <= c < m_lastcode m -> error_code m c = Some (v1 m c) /\ m_lastcode m <= v1 m c < m_lastcode m + 20 /\ (v1 m c = m_lastcode m <-> c = 0) /\ translate m (v1 m c) = public_code m c.
  Proof.
    intros B. destruct (code_idx m OK c B) as (i & E & R & I0 & _ & P). unfold v1. rewrite E. repeat split; try lia. rewrite (translate_v1 m) by lia. exact P.
  Qed.
  Lemma v1_zero : v1 m 0 = m_lastcode m. Proof. destruct (v1_ok 0) as (_ & _ & A & _); [pose proof (last_pos m OK); lia|]. apply A. reflexivity. Qed.
  Lemma succ_class c : 0 <= c < m_lastcode m -> is_success m c = (c =? 0).
  Proof. intros B. unfold is_success, MPI_SUCCESS, V1_SUCCESS. assert (c =? m_lastcode m = false) as -> by (apply Z.eqb_neq; lia). rewrite orb_false_r. reflexivity. Qed.
  Lemma succ_v1 e : m_lastcode m < e -> is_success m e = false.
  Proof. intros B. pose proof (last_pos m OK). unfold is_success, MPI_SUCCESS, V1_SUCCESS. assert (e =? m_lastcode m = false) as -> by (apply Z.eqb_neq; lia). assert (e =? 0 = false) as -> by (apply Z.eqb_neq; lia). reflexivity. Qed.
  Lemma v1_err c : 0 <= c < m_lastcode m -> c <> 0 -> m_lastcode m < v1 m c.
  Proof. intros B N. destruct (v1_ok c B) as (_ & R & Z & _). assert (v1 m c <> m_lastcode m) by (intros X; apply N, Z, X). lia. Qed.
  Lemma null_v1 e : m_lastcode m <= e < m_lastcode m + 20 -> null m e = Ret (false, e).
  Proof. intros B. unfold null. rewrite code_v1 by exact B. reflexivity. Qed.
  Lemma verbose_class c k : plain m c -> verbose m c k = k (v1 m c).
  Proof.
    intros (B & NO). unfold verbose. destruct (code_idx m OK c B) as (i & E & R & _ & IO & _). destruct (v1_ok c B) as (E' & _). rewrite E'. rewrite E in E'. injection E' as E'. rewrite <- E'.
    destruct (error_string m (m_lastcode m + i)) eqn:S; [reflexivity|]. exfalso. apply (string_v1 m) in S; [|lia]. apply NO, IO, S.
  Qed.
  Lemma done_ok : done m = Ret (true, v1 m 0).
  Proof. unfold done. change MPI_SUCCESS with 0. destruct (v1_ok 0) as (-> & _); [pose proof (last_pos m OK); lia|]. reflexivity. Qed.

  (** the part all section functions start with *)
  Definition head (mpiio : bool) (f : faults) (k : nat -> proc result) (r : nat) : proc result :=
    let body := if Nat.eqb r 0 then serial_write m (f_header f) (fun e => handle_mpi m e Abort) (handle_count m 1 Abort) (handle_mpi m MPI_SUCCESS (handle_count m 0 (k r)))
                else handle_mpi m MPI_SUCCESS (handle_count m 0 (k r)) in
    if mpiio then Coll SetSize (check_null m (f_set_size f r) body) else body.

  Definition errors_at_start (mpiio : bool) (c1 c2 : Z) : Z := first_error ((if mpiio then [c1] else []) ++ [c2]).

  Lemma repeat_map {A} (a : A) n : map (fun _ => a) (seq 0 n) = repeat a n.
  Proof. generalize 0%nat as s. induction n as [|n IH]; intros s; [reflexivity|]. cbn [seq map repeat]. rewrite IH. reflexivity. Qed.

  Lemma head_world mpiio f k n c1 c2 : (1 <= n)%nat -> plain m c1 -> plain m c2 -> (forall r, (r < n)%nat -> f_set_size f r = c1) -> f_header f = mkIo c2 false ->
    world (head mpiio f k) n = if errors_at_start mpiio c1 c2 =? 0 then world k n else Finished (repeat (false, v1 m (errors_at_start mpiio c1 c2)) n).
  Proof.
    intros N P1 P2 F1 F2.
    assert (BODY : world (fun r => if Nat.eqb r 0 then serial_write m (f_header f) (fun e => handle_mpi m e Abort) (handle_count m 1 Abort) (handle_mpi m MPI_SUCCESS (handle_count m 0 (k r)))
                else handle_mpi m MPI_SUCCESS (handle_count m 0 (k r))) n = if c2 =? 0 then world k n else Finished (repeat (false, v1 m c2) n)).
    { destruct P2 as (B2 & NO2). pose proof (last_pos m OK) as LP. destruct (c2 =? 0) eqn:E2.
      - rewrite (world_bcast _ (fun _ => 0) (fun r x => if is_success m x then handle_count m 0 (k r) else Coll Close (null m x))); [|exact N|].
        + cbv beta. rewrite (world_bcast _ (fun _ => 0) (fun r x => if x =? 0 then k r else Coll Close (Ret (false, V1_COUNT m)))); [|exact N|].
          * apply world_ext; [exact N|]. intros r R. reflexivity.
          * intros r R. cbv beta. change (is_success m 0) with true. reflexivity.
        + intros r R. rewrite F2. unfold serial_write. cbn [io_err io_short]. rewrite (succ_class c2 B2), E2. destruct (Nat.eqb r 0); reflexivity.
      - apply Z.eqb_neq in E2. pose proof (v1_err c2 B2 E2) as VE. destruct (v1_ok c2 B2) as (_ & VR & _).
        rewrite (world_bcast _ (fun r => if Nat.eqb r 0 then v1 m c2 else 0) (fun r x => if is_success m x then (if Nat.eqb r 0 then Abort else handle_count m 0 (k r)) else Coll Close (null m x))); [|exact N|].
        + cbv beta. cbn [Nat.eqb]. rewrite (world_coll _ Close (fun _ => Ret (false, v1 m c2))); [|exact N|].
          * rewrite (world_ret _ (fun _ => (false, v1 m c2))) by (try exact N; reflexivity). rewrite repeat_map. reflexivity.
          * intros r R. rewrite (succ_v1 _ VE), (null_v1 _ VR). reflexivity.
        + intros r R. rewrite F2. unfold serial_write. cbn [io_err io_short]. rewrite (succ_class c2 B2). apply Z.eqb_neq in E2. rewrite E2. destruct (Nat.eqb r 0); [|reflexivity]. rewrite verbose_class by (split; assumption). reflexivity. }
    unfold errors_at_start. destruct mpiio; cbn [app first_error].
    - assert (B1 : 0 <= c1 < m_lastcode m) by apply P1. destruct (c1 =? 0) eqn:E1.
      + rewrite (world_coll _ SetSize (fun r => if Nat.eqb r 0 then serial_write m (f_header f) (fun e => handle_mpi m e Abort) (handle_count m 1 Abort) (handle_mpi m MPI_SUCCESS (handle_count m 0 (k r)))
                else handle_mpi m MPI_SUCCESS (handle_count m 0 (k r)))); [|exact N|].
        * rewrite BODY. destruct (c2 =? 0) eqn:E2; [reflexivity|]. rewrite E2. reflexivity.
        * intros r R. unfold head. unfold check_null. rewrite F1 by exact R. rewrite (succ_class c1 B1), E1. reflexivity.
      + pose proof E1 as E1'. apply Z.eqb_neq in E1'. pose proof (v1_err c1 B1 E1') as VE. destruct (v1_ok c1 B1) as (_ & VR & _). rewrite E1.
        rewrite (world_coll _ SetSize (fun r => Coll Close (Ret (false, v1 m c1)))); [|exact N|].
        * rewrite (world_coll _ Close (fun r => Ret (false, v1 m c1))); [|exact N|reflexivity]. rewrite (world_ret _ (fun _ => (false, v1 m c1))) by (try exact N; reflexivity). rewrite repeat_map. reflexivity.
        * intros r R. unfold head, check_null. rewrite F1 by exact R. rewrite (succ_class c1 B1), E1, (verbose_class c1 _ P1), (null_v1 _ VR). reflexivity.
    - unfold head. rewrite BODY. destruct (c2 =? 0) eqn:E2; [reflexivity|]. rewrite E2. reflexivity.
  Qed.
End Facts.

(** * C43: codes *)
(** Every class has a code of the legacy functions and a public code, the documented one; it is 0 only without error.  The
    message exists except for the classes summarised as "other I/O error". *)
Theorem C43_codes : forall m c, mpi_ok m -> 0 <= c < m_lastcode m ->
  exists e, error_code m c = Some e /\ translate m e = public_code m c /\ (public_code m c = ERR_SUCCESS <-> c = MPI_SUCCESS) /\ (error_string m e <> None <-> ~ other_io m c).
Proof.
  intros m c OK B. destruct (code_idx m OK c B) as (i & E & R & Z0 & IO & P). exists (m_lastcode m + i). split; [exact E|]. split; [rewrite translate_v1 by lia; exact P|].
  pose proof (last_pos m OK) as LP. split.
  - rewrite <- P. unfold pub, ERR_SUCCESS, MPI_SUCCESS. destruct (i =? 0) eqn:X; [apply Z.eqb_eq in X; tauto|]. apply Z.eqb_neq in X. split; [|tauto]. destruct (i <=? 18) eqn:Y; [apply Z.leb_le in Y; lia|]. destruct (i =? 19); lia.
  - rewrite (string_v1 m i R). tauto.
Qed.

(** A conversion error of the MPI library makes the program abort: the library has no message for the code it assigns itself. *)
Theorem C43_io_refuted : forall m c k, mpi_ok m -> other_io m c -> verbose m c k = Abort /\ public_code m c = ERR_IO m.
Proof.
  intros m c k OK IO. assert (B : 0 <= c < m_lastcode m). { destruct OK as (_ & F). rewrite Forall_forall in F. assert (IN : In c (classes m)) by (unfold other_io in IO; cbn [In classes] in *; tauto). specialize (F c IN). lia. }
  destruct (code_idx m OK c B) as (i & E & R & Z0 & IO' & P). assert (i = 12) by (apply IO'; exact IO). subst i. split; [|rewrite <- P; unfold pub, ERR_IO, ERR; cbn; lia].
  unfold verbose. rewrite E. destruct (error_string m (m_lastcode m + 12)) eqn:S; [|reflexivity]. exfalso. assert (X : error_string m (m_lastcode m + 12) = None) by (apply (string_v1 m); lia). congruence.
Qed.

(** The public function never aborts, but has a message for one code only. *)
Theorem C43_public_message_refuted : forall m c, c <> ERR_NOT_IMPLEMENTED m -> public_error_string m c = (-1, None).
Proof. intros m c N. unfold public_error_string. apply Z.eqb_neq in N. rewrite N. reflexivity. Qed.
Theorem C43_public_message : forall m, exists s, public_error_string m (ERR_NOT_IMPLEMENTED m) = (0, Some s).
Proof. intros m. unfold public_error_string. rewrite Z.eqb_refl. eexists. reflexivity. Qed.

(** * C43: all processes *)
(** What is assumed of the I/O calls below: set_size is collective and reports the same class on all processes; the header (written
    by rank 0) is complete or reports a class. *)
Definition start_faults (m : mpi) (n : nat) (f : faults) (c1 c2 : Z) : Prop :=
  plain m c1 /\ plain m c2 /\ (forall r, (r < n)%nat -> f_set_size f r = c1) /\ f_header f = mkIo c2 false.
Definition no_error : io := mkIo 0 false.

(** Blocks: an error before the data makes all processes return NULL and the code of the error; no error: all succeed. *)
Theorem C43_block_agrees : forall m mpiio n f c1 c2, mpi_ok m -> (1 <= n)%nat -> start_faults m n f c1 c2 -> f_data f 0%nat = no_error -> f_pad f = no_error ->
  let c := errors_at_start mpiio c1 c2 in world (write_block m mpiio true f) n = Finished (repeat (c =? 0, v1 m c) n).
Proof.
  intros m mpiio n f c1 c2 OK N (P1 & P2 & F1 & F2) FD FP c.
  rewrite (world_ext _ (head m mpiio f (fun _ => done m)) n N).
  - rewrite (head_world m OK mpiio f _ n c1 c2) by assumption. fold c. destruct (c =? 0) eqn:E; [|reflexivity]. apply Z.eqb_eq in E. rewrite E. rewrite (world_ret _ (fun _ => (true, v1 m 0)) n N); [rewrite repeat_map; reflexivity|]. intros r R. apply done_ok. exact OK.
  - intros r R. unfold write_block, head. cbn [negb]. rewrite FD, FP. destruct (Nat.eqb r 0); reflexivity.
Qed.

(** Fields: also an error class of the collective data write *)
Theorem C43_field_agrees : forall m mpiio n f c1 c2 c3, mpi_ok m -> (1 <= n)%nat -> start_faults m n f c1 c2 -> plain m c3 -> (forall r, (r < n)%nat -> f_data f r = mkIo c3 false) -> f_pad f = no_error ->
  let c := first_error [errors_at_start mpiio c1 c2; c3] in world (write_field m mpiio true f) n = Finished (repeat (c =? 0, v1 m c) n).
Proof.
  intros m mpiio n f c1 c2 c3 OK N (P1 & P2 & F1 & F2) P3 FD FP c. assert (B3 : 0 <= c3 < m_lastcode m) by apply P3.
  rewrite (world_ext _ (head m mpiio f (fun _ => Coll WriteAll (check_null m c3 (check_count m false (done m))))) n N).
  2:{ intros r R. unfold write_field, head. cbn [negb]. rewrite FP, FD by exact R. cbn [io_err io_short]. destruct (Nat.eqb r 0); reflexivity. }
  rewrite (head_world m OK mpiio f _ n c1 c2) by assumption. set (cs := errors_at_start mpiio c1 c2) in *. subst c. cbn [first_error]. destruct (cs =? 0) eqn:E; [|rewrite E; reflexivity].
  rewrite (world_coll _ WriteAll (fun _ => check_null m c3 (check_count m false (done m))) n N) by reflexivity. unfold check_null. rewrite (succ_class m c3 B3). destruct (c3 =? 0) eqn:E3.
  - unfold check_count. rewrite (world_lor _ (fun _ => false) (fun _ any => if any then Coll Close (Ret (false, MPI_SUCCESS)) else done m) n N) by reflexivity.
    assert (existsb (fun _ : nat => false) (seq 0 n) = false) as -> by (induction (seq 0 n); [reflexivity|assumption]). rewrite (world_ret _ (fun _ => (true, v1 m 0)) n N); [rewrite repeat_map; reflexivity|]. intros r R. apply done_ok. exact OK.
  - rewrite E3, (verbose_class m OK c3 _ P3). destruct (v1_ok m OK c3 B3) as (_ & VR & _).
    rewrite (world_coll _ Close (fun _ => null m (v1 m c3)) n N) by reflexivity. rewrite (world_ret _ (fun _ => (false, v1 m c3)) n N); [rewrite repeat_map; reflexivity|]. intros r R. apply null_v1. exact VR.
Qed.

(** Fields with incomplete data writes on some processes: every process returns NULL and a code that is an error in the public
    interface - but not the same one. *)
Theorem C43_field_short : forall m mpiio n f, mpi_ok m -> (1 <= n)%nat -> start_faults m n f 0 0 -> (forall r, (r < n)%nat -> io_err (f_data f r) = 0) ->
  (exists r, (r < n)%nat /\ io_short (f_data f r) = true) ->
  world (write_field m mpiio true f) n = Finished (map (fun r => (false, if io_short (f_data f r) then V1_COUNT m else MPI_SUCCESS)) (seq 0 n)) /\
  translate m (V1_COUNT m) = ERR_COUNT m /\ translate m MPI_SUCCESS = ERR_UNKNOWN m.
Proof.
  intros m mpiio n f OK N (P1 & P2 & F1 & F2) FD (r0 & R0 & S0). split; [|split].
  - pose (k := fun r : nat => if Nat.eqb r 0 then serial_write m (f_pad f) (fun e => handle_mpi m e Abort) (handle_count m 1 Abort) (done m) else done m).
    rewrite (world_ext _ (head m mpiio f (fun r => Coll WriteAll (check_null m (io_err (f_data f r)) (check_count m (io_short (f_data f r)) (k r))))) n N).
    2:{ intros r R. unfold write_field, head, k. cbn [negb]. destruct (Nat.eqb r 0) eqn:E; reflexivity. }
    rewrite (head_world m OK mpiio f _ n 0 0) by assumption. assert (errors_at_start mpiio 0 0 =? 0 = true) as -> by (destruct mpiio; reflexivity).
    rewrite (world_coll _ WriteAll (fun r => check_null m (io_err (f_data f r)) (check_count m (io_short (f_data f r)) (k r))) n N) by reflexivity.
    rewrite (world_lor _ (fun r => io_short (f_data f r)) (fun r any => if any then Coll Close (Ret (false, if io_short (f_data f r) then V1_COUNT m else MPI_SUCCESS)) else k r) n N).
    2:{ intros r R. rewrite FD by exact R. reflexivity. }
    assert (existsb (fun r => io_short (f_data f r)) (seq 0 n) = true) as -> by (apply existsb_exists; exists r0; split; [apply in_seq; lia|exact S0]).
    rewrite (world_coll _ Close (fun r => Ret (false, if io_short (f_data f r) then V1_COUNT m else MPI_SUCCESS)) n N) by reflexivity. apply world_ret; [exact N|reflexivity].
  - unfold V1_COUNT, V1. rewrite translate_v1 by lia. unfold pub, ERR_COUNT, ERR. cbn. lia.
  - unfold translate. apply switch_miss. cbn [map fst In]. pose proof (last_pos m OK). unfold MPI_SUCCESS, V1_SUCCESS, V1_FILE, V1_NOT_SAME, V1_AMODE, V1_NO_SUCH_FILE, V1_FILE_EXIST, V1_BAD_FILE, V1_ACCESS, V1_NO_SPACE, V1_QUOTA, V1_READ_ONLY, V1_IN_USE, V1_IO, V1_FORMAT, V1_SECTION_TYPE, V1_CONN, V1_P4EST, V1_IN_DATA, V1_COUNT, V1_UNKNOWN, V1_LASTCODE, V1. lia.
Qed.

(** Creating the file *)
Theorem C43_create_agrees : forall m n open_err c1 c2, mpi_ok m -> (1 <= n)%nat -> plain m c1 -> plain m c2 -> (forall r, (r < n)%nat -> open_err r = c1) ->
  let c := first_error [c1; c2] in world (open_create m true open_err (mkIo c2 false)) n = Finished (repeat (c =? 0, v1 m c) n).
Proof.
  intros m n open_err c1 c2 OK N P1 P2 FO c. assert (B1 : 0 <= c1 < m_lastcode m) by apply P1. assert (B2 : 0 <= c2 < m_lastcode m) by apply P2. pose proof (last_pos m OK) as LP.
  pose (hd := fun r : nat => if Nat.eqb r 0 then serial_write m (mkIo c2 false) (fun e => handle_mpi m e Abort) Abort (handle_mpi m MPI_SUCCESS (handle_count m 0 (done m))) else handle_mpi m MPI_SUCCESS (handle_count m 0 (done m))).
  rewrite (world_coll _ Open (fun r => check_open m (open_err r) (hd r)) n N) by reflexivity.
  rewrite (world_ext _ (fun r => check_open m c1 (hd r)) n N) by (intros r R; rewrite FO by exact R; reflexivity).
  subst c. cbn [first_error]. unfold check_open. rewrite (succ_class m c1 B1). destruct (c1 =? 0) eqn:E1.
  - destruct (c2 =? 0) eqn:E2.
    + rewrite (world_bcast _ (fun _ => 0) (fun r x => if is_success m x then handle_count m 0 (done m) else Coll Close (null m x)) n N).
      * change (is_success m 0) with true. cbv iota. rewrite (world_bcast _ (fun _ => 0) (fun r x => if x =? 0 then done m else Coll Close (Ret (false, V1_COUNT m))) n N) by reflexivity.
        rewrite (world_ret _ (fun _ => (true, v1 m 0)) n N); [rewrite repeat_map; reflexivity|]. intros r R. apply done_ok. exact OK.
      * intros r R. unfold hd, serial_write. cbn [io_err io_short]. rewrite (succ_class m c2 B2), E2. destruct (Nat.eqb r 0); reflexivity.
    + rewrite E2. pose proof E2 as E2'. apply Z.eqb_neq in E2'. pose proof (v1_err m OK c2 B2 E2') as VE. destruct (v1_ok m OK c2 B2) as (_ & VR & _).
      rewrite (world_bcast _ (fun r => if Nat.eqb r 0 then v1 m c2 else 0) (fun r x => if is_success m x then (if Nat.eqb r 0 then Abort else handle_count m 0 (done m)) else Coll Close (null m x)) n N).
      * cbn [Nat.eqb]. rewrite (world_coll _ Close (fun _ => Ret (false, v1 m c2)) n N).
        -- rewrite (world_ret _ (fun _ => (false, v1 m c2)) n N) by reflexivity. rewrite repeat_map. reflexivity.
        -- intros r R. rewrite (succ_v1 m OK _ VE), (null_v1 m _ VR). reflexivity.
      * intros r R. unfold hd, serial_write. cbn [io_err io_short]. rewrite (succ_class m c2 B2), E2. destruct (Nat.eqb r 0); [|reflexivity]. rewrite verbose_class by assumption. reflexivity.
  - rewrite E1. destruct (v1_ok m OK c1 B1) as (_ & VR & _). rewrite (world_ret _ (fun _ => (false, v1 m c1)) n N); [rewrite repeat_map; reflexivity|]. intros r R. rewrite (verbose_class m OK c1 _ P1). apply null_v1. exact VR.
Qed.

(** Invalid strings or sizes: all processes return the code for invalid input *)
Theorem C43_input_agrees : forall m mpiio n f open_err h, mpi_ok m -> (1 <= n)%nat ->
  world (write_block m mpiio false f) n = Finished (repeat (false, V1_IN_DATA m) n) /\ world (write_field m mpiio false f) n = Finished (repeat (false, V1_IN_DATA m) n) /\
  world (open_create m false open_err h) n = Finished (repeat (false, V1_IN_DATA m) n) /\ translate m (V1_IN_DATA m) = ERR_IN_DATA m.
Proof.
  intros m mpiio n f open_err h OK N.
  assert (V : forall k, verbose m (V1_IN_DATA m) k = k (V1_IN_DATA m)).
  { intros k. unfold verbose, V1_IN_DATA, V1. rewrite code_v1 by lia. destruct (error_string m (m_lastcode m + 17)) eqn:S; [reflexivity|]. apply (string_v1 m) in S; lia. }
  assert (W : world (fun _ : nat => Coll Close (null m (V1_IN_DATA m))) n = Finished (repeat (false, V1_IN_DATA m) n)).
  { rewrite (world_coll _ Close (fun _ => null m (V1_IN_DATA m)) n N) by reflexivity. rewrite (world_ret _ (fun _ => (false, V1_IN_DATA m)) n N); [rewrite repeat_map; reflexivity|]. intros r R. apply null_v1. unfold V1_IN_DATA, V1. lia. }
  split; [|split; [|split]].
  - unfold write_block. cbn [negb]. rewrite V. exact W.
  - unfold write_field. cbn [negb]. rewrite V. exact W.
  - unfold open_create. cbn [negb]. rewrite V. rewrite (world_ret _ (fun _ => (false, V1_IN_DATA m)) n N) by reflexivity. rewrite repeat_map. reflexivity.
  - unfold V1_IN_DATA, V1. rewrite translate_v1 by lia. unfold pub, ERR_IN_DATA, ERR. cbn. lia.
Qed.

(** fclaw2d_file_open_write: with errors while the file is created or the connectivity is written, all processes return NULL and
    the documented public code; without errors all succeed with code 0. *)
Theorem C43_open_write_agrees : forall m mpiio n open_err co ch f1 f2 f3 f4 f5 a1 a2 b1 b2, mpi_ok m -> (1 <= n)%nat ->
  plain m co -> plain m ch -> (forall r, (r < n)%nat -> open_err r = co) ->
  start_faults m n f1 a1 a2 -> start_faults m n f2 b1 b2 -> start_faults m n f3 0 0 -> start_faults m n f4 0 0 -> start_faults m n f5 0 0 ->
  (forall f, In f [f1; f2; f3; f5] -> f_data f 0%nat = no_error /\ f_pad f = no_error) -> (forall r, (r < n)%nat -> f_data f4 r = no_error) -> f_pad f4 = no_error ->
  let c := first_error [co; ch; errors_at_start mpiio a1 a2; errors_at_start mpiio b1 b2] in
  world (open_write m mpiio true open_err (mkIo ch false) f1 f2 f3 f4 f5) n = Finished (repeat (c =? 0, public_code m c) n).
Proof.
  intros m mpiio n open_err co ch f1 f2 f3 f4 f5 a1 a2 b1 b2 OK N PO PH FO S1 S2 S3 S4 S5 Q D4 Q4 c.
  assert (PL : forall m c1 c2, plain m c1 -> plain m c2 -> plain m (first_error [c1; c2])) by (intros m' c1 c2 P1 P2; cbn [first_error]; destruct (c1 =? 0); [destruct (c2 =? 0) eqn:E; [apply Z.eqb_eq in E; subst; exact P2|exact P2]|exact P1]).
  assert (PS : forall c1 c2, plain m c1 -> plain m c2 -> plain m (errors_at_start mpiio c1 c2)).
  { intros c1 c2 P1 P2. unfold errors_at_start. destruct mpiio; [apply (PL m); assumption|]. cbn [app first_error]. destruct (c2 =? 0) eqn:E; [apply Z.eqb_eq in E; subst; exact P2|exact P2]. }
  set (ea := errors_at_start mpiio a1 a2) in *. set (eb := errors_at_start mpiio b1 b2) in *.
  assert (PA : plain m ea) by (apply PS; apply S1). assert (PB : plain m eb) by (apply PS; apply S2).
  assert (E00 : errors_at_start mpiio 0 0 = 0) by (destruct mpiio; reflexivity).
  pose proof (last_pos m OK) as LP. pose proof (v1_zero m OK) as V0.
  assert (T0 : translate m (v1 m 0) = 0) by (rewrite V0; rewrite <- (Z.add_0_r (m_lastcode m)); rewrite translate_v1 by lia; reflexivity).
  assert (TE : forall x, plain m x -> x <> 0 -> translate m (v1 m x) = public_code m x /\ public_code m x <> 0 /\ v1 m x <> V1_SUCCESS m).
  { intros x (B & _) NX. destruct (v1_ok m OK x B) as (_ & _ & Z & T). split; [exact T|]. split; [|unfold V1_SUCCESS; intros X; apply NX, Z, X].
    destruct (C43_codes m x OK B) as (e & _ & _ & W & _). intros X. apply NX. apply W. exact X. }
  assert (P00 : public_code m 0 = 0) by reflexivity.
  assert (FIN : forall x, plain m x -> x <> 0 -> forall p : nat -> proc result, (forall r, (r < n)%nat -> p r = (if translate m (v1 m x) =? ERR_SUCCESS then Abort else Ret (false, translate m (v1 m x)))) -> world p n = Finished (repeat (x =? 0, public_code m x) n)).
  { intros x PX NX p HP. destruct (TE x PX NX) as (T & NZ & _). rewrite (world_ret p (fun _ => (false, public_code m x)) n N).
    - rewrite repeat_map. apply Z.eqb_neq in NX. rewrite NX. reflexivity.
    - intros r R. rewrite HP by exact R. rewrite T. apply Z.eqb_neq in NZ. unfold ERR_SUCCESS. rewrite NZ. reflexivity. }
  unfold open_write.
  pose proof (C43_create_agrees m n open_err co ch OK N PO PH FO) as W0. cbv zeta in W0.
  rewrite (world_bind _ _ _ n W0). clear W0. cbv beta iota zeta.
  set (e0 := first_error [co; ch]) in *. assert (Pe0 : plain m e0) by (apply PL; assumption).
  assert (C0 : c = if e0 =? 0 then first_error [ea; eb] else e0).
  { unfold c, e0. cbn [first_error]. destruct (co =? 0) eqn:X; [|rewrite X; reflexivity]. destruct (ch =? 0) eqn:Y; [reflexivity|rewrite Y; reflexivity]. }
  destruct (e0 =? 0) eqn:Ee0.
  2:{ rewrite C0. apply Z.eqb_neq in Ee0. apply FIN; [exact Pe0|exact Ee0|]. intros r R. destruct (TE e0 Pe0 Ee0) as (T & NZ & _). rewrite T. apply Z.eqb_neq in NZ. unfold ERR_SUCCESS. rewrite NZ. reflexivity. }
  apply Z.eqb_eq in Ee0. rewrite Ee0, T0. change (0 =? ERR_SUCCESS) with true. cbv iota.
  (* connectivity *)
  set (ec := first_error [ea; eb]) in *. assert (Pec : plain m ec) by (apply PL; assumption).
  assert (WC : world (write_connectivity m mpiio f1 f2) n = Finished (repeat (ec =? 0, v1 m ec) n)).
  { unfold write_connectivity. pose proof (C43_block_agrees m mpiio n f1 a1 a2 OK N S1 (proj1 (Q f1 ltac:(cbn; tauto))) (proj2 (Q f1 ltac:(cbn; tauto)))) as W1. cbv zeta in W1. fold ea in W1.
    rewrite (world_bind _ _ _ n W1). cbv beta iota. unfold ec. cbn [first_error]. destruct (ea =? 0) eqn:Ea.
    - apply Z.eqb_eq in Ea. rewrite Ea, V0. unfold V1_SUCCESS. rewrite Z.eqb_refl.
      pose proof (C43_block_agrees m mpiio n f2 b1 b2 OK N S2 (proj1 (Q f2 ltac:(cbn; tauto))) (proj2 (Q f2 ltac:(cbn; tauto)))) as W2. cbv zeta in W2. fold eb in W2.
      destruct (eb =? 0) eqn:Eb; [apply Z.eqb_eq in Eb; rewrite Eb in W2; exact W2|]. rewrite Eb. exact W2.
    - rewrite Ea. apply Z.eqb_neq in Ea. destruct (TE ea PA Ea) as (_ & _ & NS). apply Z.eqb_neq in NS. rewrite NS. rewrite (world_ret _ (fun _ => (false, v1 m ea)) n N) by reflexivity. rewrite repeat_map. reflexivity. }
  rewrite (world_bind _ _ _ n WC). cbv beta iota zeta. rewrite C0.
  destruct (ec =? 0) eqn:Eec.
  2:{ apply Z.eqb_neq in Eec. rewrite (FIN ec Pec Eec); [apply Z.eqb_neq in Eec; rewrite Eec; reflexivity|]. intros r R. destruct (TE ec Pec Eec) as (T & NZ & _). rewrite T. apply Z.eqb_neq in NZ. unfold ERR_SUCCESS. rewrite NZ. reflexivity. }
  apply Z.eqb_eq in Eec. rewrite Eec, T0, P00. change (0 =? ERR_SUCCESS) with true. cbv iota.
  (* forest *)
  assert (WP : world (write_p4est m mpiio f3 f4 f5) n = Finished (repeat (true, v1 m 0) n)).
  { unfold write_p4est. pose proof (C43_block_agrees m mpiio n f3 0 0 OK N S3 (proj1 (Q f3 ltac:(cbn; tauto))) (proj2 (Q f3 ltac:(cbn; tauto)))) as W1. cbv zeta in W1. rewrite E00 in W1. change (0 =? 0) with true in W1.
    rewrite (world_bind _ _ _ n W1). cbv beta iota. rewrite V0. unfold V1_SUCCESS. rewrite Z.eqb_refl. cbn [negb].
    pose proof (C43_field_agrees m mpiio n f4 0 0 0 OK N S4 (proj1 S4) D4 Q4) as W2. cbv zeta in W2. rewrite E00 in W2. change (first_error [0; 0]) with 0 in W2. change (0 =? 0) with true in W2.
    rewrite (world_bind _ _ _ n W2). cbv beta iota. rewrite V0, Z.eqb_refl. cbn [negb].
    pose proof (C43_block_agrees m mpiio n f5 0 0 OK N S5 (proj1 (Q f5 ltac:(cbn; tauto))) (proj2 (Q f5 ltac:(cbn; tauto)))) as W3. cbv zeta in W3. rewrite E00 in W3. change (0 =? 0) with true in W3.
    rewrite (world_bind _ _ _ n W3). cbv beta iota. rewrite V0, Z.eqb_refl. cbn [negb]. rewrite (world_ret _ (fun _ => (true, m_lastcode m)) n N) by reflexivity. rewrite repeat_map. reflexivity. }
  rewrite (world_bind _ _ _ n WP). cbv beta iota zeta. rewrite T0. change (0 =? ERR_SUCCESS) with true. cbv iota. rewrite (world_ret _ (fun _ => (true, 0)) n N) by reflexivity. rewrite repeat_map. reflexivity.
Qed.

(** Closing: the close call reports the same class on all processes *)
Theorem C43_close_agrees : forall m n close_err c, mpi_ok m -> (1 <= n)%nat -> plain m c -> (forall r, (r < n)%nat -> close_err r = c) ->
  world (close_file m close_err) n = Finished (repeat (c =? 0, public_code m c) n).
Proof.
  intros m n close_err c OK N P F. assert (B : 0 <= c < m_lastcode m) by apply P. destruct (v1_ok m OK c B) as (E & VR & _ & T).
  rewrite (world_coll _ Close (fun r => if is_success m (close_err r) then match error_code m (close_err r) with Some e => Ret (true, translate m e) | None => Abort end else verbose m (close_err r) (fun e => match error_code m e with Some e' => Ret (false, translate m e') | None => Abort end)) n N) by reflexivity.
  rewrite (world_ret _ (fun _ => (c =? 0, public_code m c)) n N); [rewrite repeat_map; reflexivity|]. intros r R. rewrite F by exact R. rewrite (succ_class m c B), E. destruct (c =? 0); [rewrite T; reflexivity|].
  rewrite (verbose_class m OK c _ P), code_v1 by exact VR. rewrite T. reflexivity.
Qed.

(** * What goes wrong *)
(** MPICH's numbers *)
Definition mpich : mpi := mkMpi 27 40 21 37 25 22 20 36 39 32 26 13 43 44 24 23 1073741823.
Lemma mpich_ok : mpi_ok mpich.
Proof. split; [cbn; repeat (constructor; [cbn; intuition discriminate|]); constructor|]. cbn. repeat (constructor; [cbn; lia|]). constructor. Qed.
Definition fine : faults := mkFaults (fun _ => 0) no_error (fun _ => no_error) no_error.

(** A section header that is written incompletely (rank 0, no error class): rank 0 skips the first broadcast.  It returns the count
    code, the others take its flag for an error class and return another code. *)
Theorem C43_short_header_refuted : let f := mkFaults (fun _ => 0) (mkIo 0 true) (fun _ => no_error) no_error in
  statuses (world (write_block mpich true true f) 3) = [Returned false (V1_COUNT mpich); Returned false (V1_UNKNOWN mpich); Returned false (V1_UNKNOWN mpich)].
Proof. vm_compute. reflexivity. Qed.

(** The data of a block cannot be written (disk full) on rank 0: rank 0 waits in a broadcast for processes that returned success. *)
Theorem C43_late_error_refuted : let f := mkFaults (fun _ => 0) no_error (fun _ => mkIo (m_no_space mpich) false) no_error in
  statuses (world (write_block mpich true true f) 3) = [Waiting; Returned true (V1_SUCCESS mpich); Returned true (V1_SUCCESS mpich)].
Proof. vm_compute. reflexivity. Qed.

(** The number of quadrants per tree cannot be written: the error path of fclaw2d_file_write_p4est_v1 fails its own assertion. *)
Theorem C43_count_per_tree_refuted : let f := mkFaults (fun _ => 0) (mkIo (m_no_space mpich) false) (fun _ => no_error) no_error in
  statuses (world (open_write mpich true true (fun _ => 0) no_error fine fine f fine fine) 2) = [Aborted; Aborted].
Proof. vm_compute. reflexivity. Qed.

(** An incomplete file header: rank 0 broadcasts on a communicator that is not set yet. *)
Theorem C43_short_file_header_refuted : statuses (world (open_create mpich true (fun _ => 0) (mkIo 0 true)) 2) = [Aborted; Waiting].
Proof. vm_compute. reflexivity. Qed.

(** Incomplete data on one process: different codes. *)
Theorem C43_short_data_refuted : let f := mkFaults (fun _ => 0) no_error (fun r => mkIo 0 (Nat.eqb r 1)) no_error in
  statuses (world (write_field mpich true true f) 2) = [Returned false MPI_SUCCESS; Returned false (V1_COUNT mpich)] /\
  translate mpich MPI_SUCCESS = ERR_UNKNOWN mpich /\ translate mpich (V1_COUNT mpich) = ERR_COUNT mpich.
Proof. vm_compute. repeat split. Qed.

(** * Instances *)
Example C43_instance : mpi_ok mpich /\ plain mpich (m_no_space mpich) /\
  statuses (world (open_write mpich true true (fun _ => 0) (mkIo (m_no_space mpich) false) fine fine fine fine fine) 4) = repeat (Returned false (ERR_NO_SPACE mpich)) 4 /\
  statuses (world (open_write mpich false true (fun _ => 0) no_error fine fine fine fine fine) 4) = repeat (Returned true 0) 4.
Proof. split; [apply mpich_ok|]. split; [split; [cbn; lia|cbn; intuition discriminate]|]. split; vm_compute; reflexivity. Qed.
Example C43_hypotheses_instance : start_faults mpich 3 (mkFaults (fun _ => 0) (mkIo (m_quota mpich) false) (fun _ => no_error) no_error) 0 (m_quota mpich).
Proof. repeat split; cbn; try lia; intuition discriminate. Qed.

Print Assumptions C43_codes.
Print Assumptions C43_io_refuted.
Print Assumptions C43_public_message_refuted.
Print Assumptions C43_public_message.
Print Assumptions C43_block_agrees.
Print Assumptions C43_field_agrees.
Print Assumptions C43_field_short.
Print Assumptions C43_create_agrees.
Print Assumptions C43_input_agrees.
Print Assumptions C43_open_write_agrees.
Print Assumptions C43_close_agrees.
Print Assumptions C43_short_header_refuted.
Print Assumptions C43_late_error_refuted.
Print Assumptions C43_count_per_tree_refuted.
Print Assumptions C43_short_data_refuted.
Print Assumptions C43_short_file_header_refuted.

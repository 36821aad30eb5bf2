(** Words for the error reports of data files. *)
From Coq Require Import ZArith List.
From Verif Require Import Model_FileError.
Import ListNotations.
Open Scope Z_scope.

(** The I/O error classes of an MPI library: different positive numbers below the last code *)
Definition classes (m : mpi) : list Z :=
  [m_file m; m_not_same m; m_amode m; m_no_such_file m; m_file_exists m; m_bad_file m; m_access m; m_no_space m; m_quota m; m_read_only m; m_in_use m;
   m_unknown m; m_datarep m; m_operation m; m_dup m; m_conversion m].
Definition mpi_ok (m : mpi) : Prop := NoDup (classes m) /\ Forall (fun c => 0 < c < m_lastcode m) (classes m).

(** What the interface documents for each class *)
Definition documented (m : mpi) : list (Z * Z) :=
  [ (MPI_SUCCESS, ERR_SUCCESS); (m_file m, ERR_FILE m); (m_not_same m, ERR_NOT_SAME m); (m_amode m, ERR_AMODE m); (m_no_such_file m, ERR_NO_SUCH_FILE m);
    (m_file_exists m, ERR_FILE_EXIST m); (m_bad_file m, ERR_BAD_FILE m); (m_access m, ERR_ACCESS m); (m_no_space m, ERR_NO_SPACE m); (m_quota m, ERR_QUOTA m);
    (m_read_only m, ERR_READ_ONLY m); (m_in_use m, ERR_IN_USE m); (m_unknown m, ERR_UNKNOWN m);
    (m_datarep m, ERR_IO m); (m_operation m, ERR_IO m); (m_dup m, ERR_IO m); (m_conversion m, ERR_IO m) ].
(** public code of a class; classes without an entry are unknown errors *)
Definition public_code (m : mpi) (c : Z) : Z := match find (fun p => fst p =? c) (documented m) with Some (_, e) => e | None => ERR_UNKNOWN m end.

(** the classes summarised as "other I/O error" *)
Definition other_io (m : mpi) (c : Z) : Prop := In c [m_datarep m; m_operation m; m_dup m; m_conversion m].
(** a class an I/O call may report here *)
Definition plain (m : mpi) (c : Z) : Prop := 0 <= c < m_lastcode m /\ ~ other_io m c.

(** [n] processes running [p] *)
Definition world {A} (p : nat -> proc A) (n : nat) : outcome A := run (p 0%nat) (map p (seq 1 (n - 1))).
(** the first of some outcomes that is an error, 0 if there is none *)
Fixpoint first_error (l : list Z) : Z := match l with [] => 0 | c :: tl => if c =? 0 then first_error tl else c end.

(** What a user sees of the processes when nothing moves any more *)
Inductive status := Returned (fc : bool) (code : Z) | Aborted | Waiting.
Definition status_of (p : proc result) : status := match p with Ret (fc, e) => Returned fc e | Abort => Aborted | _ => Waiting end.
Definition statuses (o : outcome result) : list status :=
  match o with Finished l => map (fun x => Returned (fst x) (snd x)) l | Stuck p0 ps => map status_of (p0 :: ps) end.

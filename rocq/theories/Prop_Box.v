(** C16: a rejected step restores the solution exactly. *)
From Coq Require Import ZArith List Lia Bool.
From Verif Require Import Model_Box Spec_Box Proof_Box Proof_Box2.
Import ListNotations.
Local Open Scope Z_scope.

(** Restoring gives back exactly the values the solution had when it was saved,
    whatever was done in between, to this patch or any other: updates of the solution,
    the aux array or the other arrays, more restores, saving the current step, building,
    saving and destroying other patches. *)
Theorem C16_restore_gives_saved : forall debug o h1 h2 p s0 s2,
  crun debug o h1 = Some s0 -> Forall (keeps_saved p) h2 ->
  crun debug o (h1 ++ PSave p :: h2 ++ [PRestore p]) = Some s2 ->
  exists l, shows name s0 (p, griddata) l /\ shows name s2 (p, griddata) l /\
    (o_save_aux o = true ->
     exists l', shows name s0 (p, aux) l' /\ shows name s2 (p, aux) l').
Proof.
  intros debug o h1 h2 p s0 s2 E0 HF E2.
  replace (h1 ++ PSave p :: h2 ++ [PRestore p]) with ((h1 ++ PSave p :: h2) ++ [PRestore p]) in E2
    by (rewrite <- app_assoc; reflexivity).
  destruct (crun debug o (h1 ++ PSave p :: h2)) as [s1|] eqn:E1.
  - destruct (saved_ok debug o h1 h2 p s0 s1 E0 HF E1) as (l & A & B & C).
    destruct (restore_ok debug o _ p s1 s2 E1 E2) as [D E].
    exists l. split; [exact A|]. split; [now apply D|]. intros Hs.
    destruct (C Hs) as (l' & F & G). exists l'. split; [exact F|now apply E].
  - exfalso. pose proof (crun_ok debug o (h1 ++ PSave p :: h2)) as H1. rewrite E1 in H1.
    pose proof (crun_ok debug o ((h1 ++ PSave p :: h2) ++ [PRestore p])) as H2.
    rewrite E2 in H2. unfold agree in H1, H2. rewrite cp_ops_app, arun_app in H2.
    destruct (arun debug name name_dec _ (cp_ops o (h1 ++ PSave p :: h2))); [destruct H1|destruct H2].
Qed.
Print Assumptions C16_restore_gives_saved.

(** The saved copy itself keeps its values all the time in between. *)
Theorem C16_saved_copy_untouched : forall debug o h1 h2 p s0 s1,
  crun debug o h1 = Some s0 -> Forall (keeps_saved p) h2 ->
  crun debug o (h1 ++ PSave p :: h2) = Some s1 ->
  exists l, shows name s0 (p, griddata) l /\ shows name s1 (p, griddata_save) l /\
    (o_save_aux o = true ->
     exists l', shows name s0 (p, aux) l' /\ shows name s1 (p, aux_save) l').
Proof. apply saved_ok. Qed.
Print Assumptions C16_saved_copy_untouched.

(** Saving and restoring never fails on an existing patch. *)
Theorem C16_save_restore_defined : forall debug o h p x s,
  crun debug o h = Some s -> (forall m, s_fab s (p, m) <> None) ->
  In x [PSave p; PRestore p; PSaveCurrent p] ->
  crun debug o (h ++ [x]) <> None.
Proof. apply live_step_ok. Qed.
Print Assumptions C16_save_restore_defined.

(** Array boxes behave as independent values under every sequence of operations: the
    program with pointers succeeds exactly when the abstract one does, and every box
    then shows exactly the values of the abstract one. *)
Theorem C16_boxes_are_values : forall debug I I_dec l,
  Forall (legal debug I) l ->
  match run debug I I_dec init l, arun debug I I_dec (fun _ => None) l with
  | Some s, Some a =>
      forall i, match a i with
                | Some x => shows I s i (a_vals x) /\
                            (exists f, s_fab s i = Some f /\ f_box f = a_box x /\
                               f_fields f = a_fields x /\ f_size f = Z.of_nat (length (a_vals x)))
                | None => s_fab s i = None
                end
  | None, None => True
  | _, _ => False
  end.
Proof.
  intros debug I I_dec l HL.
  pose proof (run_ok debug I I_dec l init (fun _ => None) (R_init I) HL) as H. unfold agree in H.
  destruct (run debug I I_dec init l) as [s|], (arun debug I I_dec (fun _ => None) l) as [a|];
    try exact H. intros i. destruct (a i) as [x|] eqn:Ex.
  - split; [exact (R_shows I s a i x H Ex)|].
    pose proof (R_box I s a H i) as Hi. rewrite Ex in Hi. destruct (s_fab s i) as [f|]; [|destruct Hi].
    exists f. destruct Hi as (H1 & H2 & H3 & _). repeat split; assumption.
  - exact (R_dead I s a i H Ex).
Qed.
Print Assumptions C16_boxes_are_values.

(** Two boxes never share memory, and memory that no box owns is released. *)
Theorem C16_no_sharing_no_leak : forall debug I I_dec l s,
  Forall (legal debug I) l -> run debug I I_dec init l = Some s ->
  (forall i j f g b, s_fab s i = Some f -> s_fab s j = Some g ->
     f_data f = At b -> f_data g = At b -> i = j) /\
  (forall b, h_blk (s_heap s) b <> None -> exists i f, s_fab s i = Some f /\ f_data f = At b).
Proof.
  intros debug I I_dec l s HL E.
  pose proof (run_ok debug I I_dec l init (fun _ => None) (R_init I) HL) as H. unfold agree in H.
  rewrite E in H. destruct (arun debug I I_dec (fun _ => None) l) as [a|]; [|destruct H].
  split; [exact (R_inj I s a H)|exact (R_own I s a H)].
Qed.
Print Assumptions C16_no_sharing_no_leak.

(** The copy constructor is not part of the theorems above, and could not be: it never
    allocates, so the copy of any non-empty box has an indeterminate data pointer. *)
Theorem C16_copy_constructor_refuted :
  exists s s', run false nat Nat.eq_dec init [Construct 0%nat; Define 0%nat [(1, 2)] 1; SetValue 0%nat 5] = Some s /\
    copy_construct false nat Nat.eq_dec s 1%nat 0%nat = Some s' /\
    shows nat s' 0%nat [Some 5; Some 5] /\
    copyTo nat s' 1%nat = None /\ destruct_ nat Nat.eq_dec s' 1%nat = None.
Proof. eexists _, _. vm_compute. repeat split. Qed.
Print Assumptions C16_copy_constructor_refuted.

(** In a debug build assigning a box to itself loses its values. *)
Theorem C16_debug_self_assignment_refuted :
  exists s, run true nat Nat.eq_dec init
              [Construct 0%nat; Define 0%nat [(1, 1)] 1; SetValue 0%nat 5; Assign 0%nat 0%nat] = Some s /\
    shows nat s 0%nat [Some snan].
Proof. eexists. vm_compute. repeat split. Qed.
Print Assumptions C16_debug_self_assignment_refuted.

(** A concrete run: two patches, save, overwrite, restore. *)
Definition opts16 := mkO 1 1 1 1 1 0 true false true.
Definition before16 := [PNew 0; PNew 1; PBuild 0 true; PBuild 1 true;
  PWrite 0 griddata 4 11; PWrite 0 aux 4 12; PWrite 1 griddata 4 13].
Definition between16 := [PSaveCurrent 0; PWrite 0 griddata 4 99; PSave 1; PWrite 0 aux 4 98;
  PWrite 1 griddata 4 97; PRestore 1; PDelete 1].
Example C16_instance :
  Forall (keeps_saved 0) between16 /\
  bind (crun false opts16 before16) (fun s => copyTo name s (0%nat, griddata)) =
    Some [None; None; None; None; Some 11; None; None; None; None] /\
  bind (crun false opts16 (before16 ++ PSave 0 :: between16)) (fun s => copyTo name s (0%nat, griddata)) =
    Some [None; None; None; None; Some 99; None; None; None; None] /\
  bind (crun false opts16 (before16 ++ PSave 0 :: between16 ++ [PRestore 0]))
       (fun s => bind (copyTo name s (0%nat, griddata)) (fun l =>
                 bind (copyTo name s (0%nat, aux)) (fun l' => Some (l, l')))) =
    Some ([None; None; None; None; Some 11; None; None; None; None],
          [None; None; None; None; Some 12; None; None; None; None]).
Proof.
  split; [repeat constructor; discriminate|]. vm_compute. repeat split.
Qed.

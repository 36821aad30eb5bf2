(** C33, C34, C35: packing. *)
From Coq Require Import String ZArith List Lia Bool.
From Verif Require Import Base_Mem Model_Packing Spec_Packing Proof_Packing Proof_Packing2
  Proof_Packing3 Proof_Packing4.
Import ListNotations.
Local Open Scope string_scope.
Local Open Scope list_scope.
Local Open Scope Z_scope.

(* --------------------------------------------------------------- C33 *)

(** Every int, every size and every double (bit for bit). *)
Theorem C33_scalars_read_back :
  (forall v, - 2 ^ 31 <= v < 2 ^ 31 ->
     round_trip (fun m a => Some (pack_int v m a)) (fun m a => Some (unpack_int m a)) 4 v) /\
  (forall v, 0 <= v < 2 ^ 64 ->
     round_trip (fun m a => Some (pack_size_t v m a)) (fun m a => Some (unpack_size_t m a)) 8 v) /\
  (forall v, 0 <= v < 2 ^ 64 ->
     round_trip (fun m a => Some (pack_double v m a)) (fun m a => Some (unpack_double m a)) 8 v).
Proof. exact (conj int_round_trip (conj size_round_trip double_round_trip)). Qed.
Print Assumptions C33_scalars_read_back.

(** Every string, wherever it is stored and whatever follows its terminating
    zero; the announced size is the number of bytes written and read. *)
Theorem C33_strings_read_back : forall bs cs, holds_text bs cs -> text cs ->
  exists size, packsize_string (Some bs) = Some size /\
    round_trip (pack_string (Some bs)) (fun m a => Some (unpack_string m a)) size
               (Some (cs ++ [0])).
Proof. exact string_round_trip. Qed.
Print Assumptions C33_strings_read_back.

(** The null string. *)
Theorem C33_null_string_read_back :
  packsize_string None = Some 8 /\
  round_trip (pack_string None) (fun m a => Some (unpack_string m a)) 8 None.
Proof. exact null_round_trip. Qed.
Print Assumptions C33_null_string_read_back.

(** "ab" followed by rubbish, the empty string, and extreme ints. *)
Example C33_string_instance :
  holds_text [97; 98; 0; 55; 12] [97; 98] /\ text [97; 98] /\
  holds_text [0] [] /\ text [] /\
  packsize_string (Some [97; 98; 0; 55; 12]) = Some 11.
Proof.
  repeat split; try (exists [55; 12]; reflexivity); try (exists []; reflexivity);
    try reflexivity; repeat (constructor; try lia).
Qed.
Example C33_int_instance : fst (unpack_int (fst (pack_int (-5) (fun _ => 7) 100)) 100) = -5.
Proof. vm_compute. reflexivity. Qed.

(* --------------------------------------------------------------- C34 *)

Theorem C34_options_read_back : forall h f, good_options h f ->
  package_ok options_packsize options_pack options_unpack options_destroy same_options h f.
Proof. exact options_package. Qed.
Print Assumptions C34_options_read_back.

Theorem C34_clawpatch_options_read_back : forall h f, good_clawpatch h f ->
  package_ok clawpatch_packsize clawpatch_pack clawpatch_unpack clawpatch_destroy
             same_clawpatch h f.
Proof. exact clawpatch_package. Qed.
Print Assumptions C34_clawpatch_options_read_back.

Theorem C34_clawpack46_options_read_back : forall h f, good_clawpack46 h f ->
  package_ok clawpack46_packsize clawpack46_pack clawpack46_unpack clawpack46_destroy
             same_clawpack46 h f.
Proof. exact clawpack46_package. Qed.
Print Assumptions C34_clawpack46_options_read_back.

(** An options struct whose strings are "ab" (and some NULL), whose arrays are
    filled, and whose regression_check names the file "z". *)
Definition ex_heap : heap := mkH 5 (fun a =>
  if a =? 1 then Some (OStr [97; 98; 0]) else
  if a =? 2 then Some (OArr [Some 1; Some 2; Some 3]) else
  if a =? 3 then Some (OArr [Some 4; Some 5]) else
  if a =? 4 then Some (OStr [122; 0]) else None).
Definition ex_options : struct := fun n =>
  if String.eqb n "run_directory" then 1 else if String.eqb n "prefix" then 1 else
  if String.eqb n "scale_string" then 1 else if String.eqb n "shift_string" then 1 else
  if String.eqb n "scale" then 2 else if String.eqb n "shift" then 2 else
  if String.eqb n "tikz_figsize" then 3 else
  if String.eqb n "regression_check" then 4 else
  if String.eqb n "maxlevel" then 7 else if String.eqb n "mi" then -1 else 0.
Definition empty_heap : heap := mkH 1 (fun _ => None).

Example C34_instance : good_options ex_heap ex_options /\ good_heap empty_heap.
Proof.
  split; [split; [|split]|].
  - intros n k Hin. assert (R : 0 <= ex_options n < 100 \/ n = "mi").
    { unfold ex_options.
      repeat match goal with |- context [String.eqb ?a ?b] => destruct (String.eqb_spec a b) end;
        try (left; lia); auto. }
    destruct R as [R|R].
    + destruct k; lia.
    + subst n. destruct k; [vm_compute; split; [discriminate|reflexivity]| |];
        exfalso; revert Hin; cbn; intuition discriminate.
  - intros n Hin. cbn [option_strings In] in Hin.
    repeat destruct Hin as [<-|Hin]; try (now left); try destruct Hin;
      right; exists [97; 98; 0], [97; 98];
      (split; [reflexivity|]; split; [exists []; reflexivity|]; split;
        [repeat constructor; lia|cbn; lia]).
  - intros n k Hin i Hi. cbn [option_arrays In] in Hin.
    destruct Hin as [E|[E|[E|[]]]]; injection E as <- <-;
      repeat (destruct i as [|i]; [eexists; split; [reflexivity|lia]|]); lia.
  - split; [cbn; lia|reflexivity].
Qed.

(** The one string that is *not* transported: the address held in
    regression_check is copied as it is, so on the receiving process it does not
    denote the file name that was set.  (It is also the only string the struct
    has besides [option_strings].) *)
Theorem C34_regression_check_refuted :
  ~ (forall h f m a m' k h2 h2' opts f', good_options h f ->
       good_string h (f "regression_check") -> good_heap h2 ->
       options_pack h f m a = Some (m', k) ->
       options_unpack m' a h2 = Some (h2', opts, f', k) ->
       text_at h2' (f' "regression_check") = text_at h (f "regression_check")).
Proof.
  intros H.
  assert (G : good_string ex_heap (ex_options "regression_check")).
  { right. exists [122; 0], [122]. split; [reflexivity|]. split; [exists []; reflexivity|].
    split; [repeat constructor; lia|cbn; lia]. }
  pose proof (C34_options_read_back ex_heap ex_options (proj1 C34_instance)) as (size & _ & R).
  destruct (R (fun _ => 0) 0) as (m' & W & _ & U).
  destruct (U m' empty_heap (fun _ _ => eq_refl) (proj2 C34_instance))
    as (h2' & opts & f' & E & _).
  specialize (H ex_heap ex_options (fun _ => 0) 0 m' size empty_heap h2' opts f'
    (proj1 C34_instance) G (proj2 C34_instance) W E).
  assert (X : match options_pack ex_heap ex_options (fun _ => 0) 0 with
              | Some (m, _) =>
                  match options_unpack m 0 empty_heap with
                  | Some (h, _, f, _) =>
                      match text_at h (f "regression_check") with
                      | Some (Some [122]) => false | _ => true end
                  | None => false
                  end
              | None => false end = true) by (vm_compute; reflexivity).
  rewrite W, E in X. rewrite H in X. vm_compute in X. discriminate.
Qed.
Print Assumptions C34_regression_check_refuted.

(* --------------------------------------------------------------- C35 *)

(** For every set of packages with distinct names, each registered with a vtable
    that satisfies its contract for the stored value: the global state is read
    back with the same time, the same time step and, under every name, an
    equivalent value owned by the map through its package's destroy function;
    the number of bytes written and read is the announced one. *)
Theorem C35_global_read_back :
  forall (V D : Type) (registry : list Z -> option (vtable V D)) (eqv : V -> V -> Prop)
         (g : glob V D),
    0 <= g_curr_time g < 2 ^ 64 -> 0 <= g_curr_dt g < 2 ^ 64 ->
    Z.of_nat (length (g_options g)) < 2 ^ 64 ->
    NoDup (map fst (g_options g)) ->
    (forall key v d, In (key, (v, d)) (g_options g) ->
       text key /\ exists vt, registry key = Some vt /\ vtable_ok eqv vt v) ->
    exists size g',
      global_packsize V D registry g = Some size /\
      round_trip (global_pack V D registry g) (global_unpack V D registry) size g' /\
      g_curr_time g' = g_curr_time g /\ g_curr_dt g' = g_curr_dt g /\
      map fst (g_options g') = map fst (g_options g) /\
      (forall key v d, In (key, (v, d)) (g_options g) ->
         exists v' vt, In (key, (v', Some (vt_destroy vt))) (g_options g') /\
                       registry key = Some vt /\ eqv v v').
Proof.
  intros V D registry eqv g Ht Hd Hn Hnd Hok.
  destruct (global_round_trip V D registry eqv g Ht Hd Hn Hnd) as (size & g' & E1 & E2 & E3 & E4 & E5).
  - apply Forall_forall. intros [key [v d]] Hin. exact (Hok key v d Hin).
  - exists size, g'. repeat split; auto.
    + clear -E4. induction E4 as [|[k [v d]] [k' [v' d']] l l' H H2 IH]; [reflexivity|].
      cbn [map fst]. destruct H as [-> _]. now rewrite IH.
    + intros key v d Hin. clear -E4 Hin.
      induction E4 as [|[k [w e]] [k' [w' e']] l l' H H2 IH]; [destruct Hin|].
      destruct Hin as [E|Hin].
      * injection E as -> -> ->. destruct H as (-> & Hq & vt & Hr & ->).
        exists w', vt. repeat split; auto. now left.
      * destruct (IH Hin) as (v' & vt & A & B). exists v', vt. split; [now right|exact B].
Qed.
Print Assumptions C35_global_read_back.

(** An unregistered package is an abort, never silent corruption. *)
Theorem C35_unregistered_aborts :
  forall (V D : Type) (registry : list Z -> option (vtable V D)) (g : glob V D) key v d,
    In (key, (v, d)) (g_options g) -> registry key = None ->
    (forall m a, global_pack V D registry g m a = None) /\
    global_packsize V D registry g = None.
Proof.
  intros V D registry g key v d Hin Hr. split.
  - intros m a. unfold global_pack. cbn [pack_double pack_size_t pack_bytes].
    unfold pack_double, pack_size_t, pack_bytes. cbn [fst snd].
    enough (H : forall l m p, In (key, (v, d)) l -> pack_options V D registry l m p = None)
      by (rewrite H by assumption; reflexivity).
    clear Hin. induction l as [|[k [w e]] tl IH]; intros m0 p Hin; [destruct Hin|].
    cbn [pack_options]. destruct (pack_string _ m0 p) as [[m1 k1]|]; cbn [bind]; [|reflexivity].
    destruct Hin as [E|Hin].
    + injection E as -> -> ->. rewrite Hr. reflexivity.
    + destruct (registry k) as [vt|]; cbn [bind]; [|reflexivity].
      destruct (vt_pack vt w m1 (p + k1)) as [[m2 k2]|]; cbn [bind]; [|reflexivity]. auto.
  - unfold global_packsize.
    enough (H : forall l acc, In (key, (v, d)) l \/ acc = None ->
      fold_left (size_step V D registry) l acc = None).
    { change (fold_left _ (g_options g) (Some 8))
        with (fold_left (size_step V D registry) (g_options g) (Some 8)).
      rewrite H by now left. reflexivity. }
    clear Hin. induction l as [|[k [w e]] tl IH]; intros acc Hin; cbn [fold_left].
    + destruct Hin as [[]|Hin]; exact Hin.
    + apply IH. destruct Hin as [[E|Hin]|Hin].
      * injection E as -> -> ->. right. unfold size_step. destruct acc; cbn [bind]; [|reflexivity].
        rewrite Hr. reflexivity.
      * now left.
      * subst acc. now right.
Qed.
Print Assumptions C35_unregistered_aborts.

(** Two int-valued packages "a" and "bc". *)
Definition int_vt : vtable Z unit :=
  mkVT (fun v m a => Some (pack_int v m a)) (fun m a => Some (unpack_int m a))
       (fun _ => Some 4) tt.
Definition ex_glob : glob Z unit :=
  mkG 4607182418800017408 0 [([97], (42, None)); ([98; 99], (-7, None))].
Example C35_instance :
  0 <= g_curr_time ex_glob < 2 ^ 64 /\ 0 <= g_curr_dt ex_glob < 2 ^ 64 /\
  NoDup (map fst (g_options ex_glob)) /\
  (forall key v d, In (key, (v, d)) (g_options ex_glob) ->
     text key /\ exists vt, Some int_vt = Some vt /\ vtable_ok eq vt v) /\
  global_packsize Z unit (fun _ => Some int_vt) ex_glob = Some 53.
Proof.
  split; [cbn; lia|]. split; [cbn; lia|]. split; [|split; [|reflexivity]].
  - repeat constructor; cbn; intuition discriminate.
  - intros key v d Hin. cbn in Hin. destruct Hin as [E|[E|[]]]; injection E as <- <- <-;
      (split; [split; [repeat constructor; lia|cbn; lia]|]);
      exists int_vt; (split; [reflexivity|]); exists 4.
    + exists 42. repeat split; try lia. apply int_round_trip. lia.
    + exists (-7). repeat split; try lia. apply int_round_trip. lia.
Qed.

(** C49, C50, C51: option arrays, option checks, exit status of option parsing. *)
From Coq Require Import ZArith QArith Qabs Qround Ascii String List Bool Lia Lqa.
From Verif Require Import Model_Options Spec_Options Proof_Options.
Import ListNotations.
Open Scope Z_scope.

(* ------------------------------------------------------------------ *)
(** ** C49 *)

(** The leading numbers of the text in order, cut or filled with zeros to the requested length. *)
Theorem C49_int_array : forall (s : text) (l : list Z) (n : Z),
  option_text integer_text s l -> Forall int_range l ->
  convert_int_array (Some s) n = padded 0 (Z.to_nat n) l.
Proof.
  intros s l n (num & rest & -> & L & E) R. unfold convert_int_array.
  assert (Z.to_nat (Z.max n 0) = Z.to_nat n) as -> by lia.
  rewrite (convert_list true num l L); [|destruct l; exact E]. f_equal.
  induction R as [|z l H R IH]; [reflexivity|]. cbn [map].
  assert (to_int (clamp z) = z) as ->.
  { rewrite clamp_small by (unfold int_range in H; unfold LONG_MIN, LONG_MAX; lia). apply to_int_small, H. }
  f_equal. clear -R. induction R as [|y l H R IH]; [reflexivity|]. cbn [map]. rewrite IH. f_equal.
  rewrite clamp_small by (unfold int_range in H; unfold LONG_MIN, LONG_MAX; lia). apply to_int_small, H.
Qed.
Print Assumptions C49_int_array.

(** For every string whatever and every length the array has the requested number of entries,
    none for a negative length; without a string all of them are zero. *)
Theorem C49_int_length : forall (s : option text) (n : Z),
  Z.of_nat (List.length (convert_int_array s n)) = Z.max n 0 /\
  convert_int_array None n = repeat 0 (Z.to_nat n) /\
  Forall int_range (convert_int_array s n).
Proof.
  intros s n. unfold convert_int_array. rewrite convert_length, convert_none. split; [lia|]. split; [f_equal; lia|].
  generalize (Z.to_nat (Z.max n 0)) as k. intros k. revert s. induction k as [|k IH]; intros [s|]; cbn [convert_ints]; [constructor|constructor| |].
  - destruct (strtol s) as [v e]. constructor; [|apply IH]. unfold to_int, int_range. pose proof (Z.mod_pos_bound (v + 2 ^ 31) (2 ^ 32) ltac:(lia)). lia.
  - constructor; [unfold int_range; lia|apply IH].
Qed.
Print Assumptions C49_int_length.

Theorem C49_double_array : forall (s : text) (l : list Q) (n : Z),
  option_text real_text s l ->
  exists l', convert_double_array (Some s) n = Some l' /\ Forall2 Qeq l' (padded 0%Q (Z.to_nat n) l).
Proof.
  intros s l n (num & rest & -> & L & E). unfold convert_double_array.
  assert (Z.to_nat (Z.max n 0) = Z.to_nat n) as -> by lia.
  apply (doubles_list true num l L). destruct l; exact E.
Qed.
Print Assumptions C49_double_array.

Theorem C49_double_length : forall (s : option text) (n : Z) l,
  convert_double_array s n = Some l ->
  Z.of_nat (List.length l) = Z.max n 0 /\ convert_double_array None n = Some (repeat 0%Q (Z.to_nat n)).
Proof.
  intros s n l H. unfold convert_double_array in *. rewrite (doubles_length _ _ _ H), doubles_none. split; [lia|]. f_equal. f_equal. lia.
Qed.
Print Assumptions C49_double_length.

(** Numbers that are no int do not appear in the array and no error is reported. *)
Theorem C49_int_range_refuted :
  option_text integer_text (list_ascii_of_string "4294967297 99999999999999999999") [4294967297; 99999999999999999999] /\
  convert_int_array (Some (list_ascii_of_string "4294967297 99999999999999999999")) 2 = [1; -1].
Proof.
  split; [|vm_compute; reflexivity].
  exists (list_ascii_of_string "4294967297 99999999999999999999"), []. split; [reflexivity|]. split.
  - change (list_ascii_of_string "4294967297 99999999999999999999") with ([] ++ list_ascii_of_string "4294967297" ++ (list_ascii_of_string " " ++ list_ascii_of_string "99999999999999999999" ++ [])).
    apply list_cons; [constructor|discriminate| |apply list_cons; [|discriminate| |apply list_nil]].
    + exists [], (list_ascii_of_string "4294967297"), 1. split; [constructor|]. split; [|split; reflexivity]. split; [|discriminate]. cbn [list_ascii_of_string]. repeat (apply Forall_cons; [unfold digit, char_code; cbn; lia|]). apply Forall_nil.
    + apply Forall_cons; [left; reflexivity|apply Forall_nil].
    + exists [], (list_ascii_of_string "99999999999999999999"), 1. split; [constructor|]. split; [|split; reflexivity]. split; [|discriminate]. cbn [list_ascii_of_string]. repeat (apply Forall_cons; [unfold digit, char_code; cbn; lia|]). apply Forall_nil.
  - exists [], []. split; [constructor|]. split; [reflexivity|]. left. reflexivity.
Qed.
Print Assumptions C49_int_range_refuted.

(** The arrays of the solver: two orders, four boundary conditions, as many limiters as waves;
    the numbers handed to the solver are those of the text. *)
Theorem C49_solver_arrays : forall o (so sb sl : text) lo lb ll,
  order_string o = Some so -> mthbc_string o = Some sb -> mthlim_string o = Some sl ->
  option_text integer_text so lo -> option_text integer_text sb lb -> option_text integer_text sl ll ->
  Forall int_range (lo ++ lb ++ ll) ->
  exists a, clawpack46_options o = Some (a, NOEXIT) /\
    order a = padded 0 2 lo /\ mthbc a = padded 0 4 lb /\ mthlim a = padded 0 (Z.to_nat (mwaves o)) ll /\
    nth 1 (method a) 0 = nth 0 lo 0 /\ nth 2 (method a) 0 = nth 1 lo 0 /\
    nth 4 (method a) 0 = src_term o /\ nth 5 (method a) 0 = mcapa o.
Proof.
  intros o so sb sl lo lb ll E1 E2 E3 T1 T2 T3 R. rewrite !Forall_app in R. destruct R as (R1 & R2 & R3).
  unfold clawpack46_options. rewrite E1, E2, E3.
  rewrite (C49_int_array so lo 2 T1 R1), (C49_int_array sb lb 4 T2 R2), (C49_int_array sl ll (mwaves o) T3 R3).
  change (Z.to_nat 2) with 2%nat. change (Z.to_nat 4) with 4%nat.
  eexists. split; [reflexivity|]. repeat split.
Qed.
Print Assumptions C49_solver_arrays.

Definition t49 : text := list_ascii_of_string "  -2 +07".
Lemma t49_text : option_text integer_text (t49 ++ list_ascii_of_string "  end") [-2; 7].
Proof.
  exists t49, (list_ascii_of_string "  end"). split; [reflexivity|]. split.
  - change t49 with (list_ascii_of_string "  " ++ list_ascii_of_string "-2" ++ (list_ascii_of_string " " ++ list_ascii_of_string "+07" ++ [])).
    apply list_cons; [|discriminate| |apply list_cons; [|discriminate| |apply list_nil]].
    + repeat (apply Forall_cons; [left; reflexivity|]). apply Forall_nil.
    + exists ["-"%char], ["2"%char], (-1). split; [constructor|]. split; [|split; reflexivity]. split; [|discriminate]. repeat (apply Forall_cons; [unfold digit, char_code; cbn; lia|]). apply Forall_nil.
    + repeat (apply Forall_cons; [left; reflexivity|]). apply Forall_nil.
    + exists ["+"%char], ["0"%char; "7"%char], 1. split; [constructor|]. split; [|split; reflexivity]. split; [|discriminate]. repeat (apply Forall_cons; [unfold digit, char_code; cbn; lia|]). apply Forall_nil.
  - exists (list_ascii_of_string "  "), (list_ascii_of_string "end"). split; [repeat (apply Forall_cons; [left; reflexivity|]); apply Forall_nil|]. split; [reflexivity|]. right. split; [left; discriminate|].
    exists "e"%char, (list_ascii_of_string "nd"). split; [reflexivity|]. split; [unfold blank, char_code; cbn; lia|]. split; [unfold digit, char_code; cbn; lia|].
    cbn. intros [X|[X|[X|[X|[X|[X|[X|[]]]]]]]]; discriminate X.
Qed.
Example C49_instance :
  option_text integer_text (t49 ++ list_ascii_of_string "  end") [-2; 7] /\ Forall int_range [-2; 7] /\
  convert_int_array (Some (t49 ++ list_ascii_of_string "  end")) 4 = [-2; 7; 0; 0] /\
  convert_int_array (Some (t49 ++ list_ascii_of_string "  end")) 1 = [-2] /\
  convert_int_array (Some (t49 ++ list_ascii_of_string "  end")) (-3) = [].
Proof.
  split; [exact t49_text|]. split; [repeat (apply Forall_cons; [unfold int_range; lia|]); apply Forall_nil|]. vm_compute. repeat split.
Qed.
(** a real number with a fraction and an exponent *)
Definition r49 : text := list_ascii_of_string "-2.50e-1".
Example C49_real_instance : option_text real_text (r49 ++ list_ascii_of_string " ") [(-1 # 4)%Q] /\
  exists q, convert_double_array (Some (r49 ++ list_ascii_of_string " ")) 2 = Some [q; 0%Q] /\ (q == -1 # 4)%Q.
Proof.
  split.
  - exists r49, (list_ascii_of_string " "). split; [reflexivity|]. split.
    + change r49 with ([] ++ r49 ++ []). apply list_cons; [constructor|discriminate| |apply list_nil].
      exists ["-"%char], (list_ascii_of_string "2.50"), (list_ascii_of_string "e-1"), (-1), (inject_Z 2 + inject_Z 50 / inject_Z (10 ^ 2))%Q, (/ inject_Z (10 ^ 1))%Q.
      split; [constructor|]. split.
      * change (list_ascii_of_string "2.50") with (["2"%char] ++ "."%char :: ["5"%char; "0"%char]). apply (mantissa_point ["2"%char] ["5"%char; "0"%char]); [| |discriminate]; repeat (apply Forall_cons; [unfold digit, char_code; cbn; lia|]); apply Forall_nil.
      * split; [|split; [reflexivity|reflexivity]]. apply (scale_down "e"%char ["-"%char] ["1"%char]); [left; reflexivity|constructor|]. split; [|discriminate]. apply Forall_cons; [unfold digit, char_code; cbn; lia|apply Forall_nil].
    + exists [" "%char], []. split; [apply Forall_cons; [left; reflexivity|apply Forall_nil]|]. split; [reflexivity|]. left. reflexivity.
  - eexists. split; [vm_compute; reflexivity|]. reflexivity.
Qed.

(* ------------------------------------------------------------------ *)
(** ** C50 *)

(** A two-dimensional configuration is accepted iff, for a fixed step and equally spaced
    output, some whole number of steps covers the output interval up to 1e-8, and the step
    size is controlled: by the CFL number or by being fixed.  Otherwise an error is returned. *)
Theorem C50_options_check : forall o, nout o <> 0 -> ~ (initial_dt o == 0)%Q ->
  int_range (Qfloor (tfinal o / inject_Z (nout o) / initial_dt o + (1 # 2))) ->
  exists e, options_check 2 o = Some e /\ (e = NOEXIT \/ e = EXIT_ERROR) /\
  (e = NOEXIT <->
    (outstyle o = 1 -> use_fixed_dt o <> 0 -> steps_cover (initial_dt o) (tfinal o / inject_Z (nout o)) (1 # 100000000)) /\
    (use_fixed_dt o <> 0 \/ reduce_cfl o <> 0)).
Proof.
  intros o N1 N2 R. unfold options_check.
  change (2 =? 3) with false. cbn [andb].
  set (second := if truth (Z.land (c_not (reduce_cfl o)) (c_not (use_fixed_dt o))) then EXIT_ERROR else NOEXIT).
  assert (SE : (second = NOEXIT \/ second = EXIT_ERROR) /\ (second = NOEXIT <-> use_fixed_dt o <> 0 \/ reduce_cfl o <> 0)).
  { subst second. unfold truth, c_not. destruct (reduce_cfl o =? 0) eqn:A, (use_fixed_dt o =? 0) eqn:B; cbn; apply Z.eqb_eq in A || apply Z.eqb_neq in A; apply Z.eqb_eq in B || apply Z.eqb_neq in B.
    - split; [right; reflexivity|]. split; [discriminate|]. intros [X|X]; contradiction.
    - split; [left; reflexivity|]. tauto.
    - split; [left; reflexivity|]. tauto.
    - split; [left; reflexivity|]. tauto. }
  destruct SE as (S0 & SE). unfold truth. destruct ((outstyle o =? 1) && negb (use_fixed_dt o =? 0)) eqn:C.
  - apply andb_true_iff in C. destruct C as (C1 & C2). apply Z.eqb_eq in C1. apply negb_true_iff, Z.eqb_neq in C2.
    assert ((nout o =? 0) = false) as -> by (apply Z.eqb_neq, N1).
    assert (Qeq_bool (initial_dt o) 0 = false) as -> by (destruct (Qeq_bool (initial_dt o) 0) eqn:X; [apply Qeq_bool_iff in X; contradiction|reflexivity]).
    cbn [orb]. assert (is_int (Qfloor (tfinal o / inject_Z (nout o) / initial_dt o + (1 # 2))) = true) as ->.
    { unfold is_int. unfold int_range in R. apply andb_true_iff. rewrite !Z.leb_le. unfold INT_MIN, INT_MAX. lia. }
    cbn [negb]. destruct (Qle_bool _ _) eqn:L.
    + apply Qle_bool_iff in L. apply (nearest_covers _ _ _ N2) in L. exists second. split; [reflexivity|]. split; [exact S0|]. rewrite SE. split; [intros H; split; [intros _ _; exact L|exact H]|intros (_ & H); exact H].
    + exists EXIT_ERROR. split; [reflexivity|]. split; [right; reflexivity|]. split; [discriminate|]. intros (H & _). exfalso.
      specialize (H C1 C2). apply (nearest_covers _ _ _ N2) in H. apply Qle_bool_iff in H. rewrite H in L. discriminate L.
  - exists second. split; [reflexivity|]. split; [exact S0|]. rewrite SE. split; [|intros (_ & H); exact H]. intros H. split; [|exact H]. intros C1 C2. exfalso.
    apply andb_false_iff in C. destruct C as [C|C]; [apply Z.eqb_neq in C; contradiction|]. apply negb_false_iff, Z.eqb_eq in C. contradiction.
Qed.
Print Assumptions C50_options_check.

(** Three-dimensional patches: moreover no mapping. *)
Theorem C50_options_check_3d : forall o e, options_check 2 o = Some e ->
  options_check 3 o = Some (if manifold o =? 0 then e else EXIT_ERROR).
Proof.
  intros o e. unfold options_check. change (2 =? 3) with false. change (3 =? 3) with true. cbn [andb]. unfold truth.
  destruct (manifold o =? 0); cbn [negb]; destruct ((outstyle o =? 1) && negb (use_fixed_dt o =? 0)).
  - exact (fun H => H).
  - exact (fun H => H).
  - destruct ((nout o =? 0) || Qeq_bool (initial_dt o) 0); [discriminate|]. destruct (negb (is_int _)); [discriminate|]. destruct (Qle_bool _ _); [|reflexivity].
    intros _. destruct (negb _); reflexivity.
  - intros _. destruct (negb _); reflexivity.
Qed.
Print Assumptions C50_options_check_3d.

(** The message of the check promises that the step divides the interval exactly.  It need not:
    small steps are always accepted. *)
Theorem C50_exact_division_refuted : exists o, outstyle o = 1 /\ use_fixed_dt o <> 0 /\
  options_check 2 o = Some NOEXIT /\
  ~ exists n : Z, (inject_Z n * initial_dt o == tfinal o / inject_Z (nout o))%Q.
Proof.
  exists (mkOptions 1 1 (25 # 10000000000) 1 (1 # 1000000000) 0 0). split; [reflexivity|]. split; [discriminate|]. split; [vm_compute; reflexivity|].
  cbn [initial_dt tfinal nout]. intros (n & H). unfold Qeq, Qdiv, Qmult, inject_Z in H. cbn [Qnum Qden Qinv] in H. lia.
Qed.
Print Assumptions C50_exact_division_refuted.

(** Grid options are accepted iff two ghost layers fit into the patch in the first direction
    and the refinement criterion is one of the five. *)
Theorem C50_clawpatch_check : forall o, int_range (2 * mbc o) ->
  exists e, clawpatch_check o = Some e /\ (e = NOEXIT \/ e = EXIT_ERROR) /\
  (e = NOEXIT <-> 2 * mbc o <= mx o /\ In (refinement_criteria o) [0; 1; 2; 3; 4]).
Proof.
  intros o R. unfold clawpatch_check.
  assert (is_int (2 * mbc o) = true) as ->. { unfold is_int. unfold int_range in R. apply andb_true_iff. rewrite !Z.leb_le. unfold INT_MIN, INT_MAX. lia. }
  cbn [negb In]. destruct (mx o <? 2 * mbc o) eqn:A; [apply Z.ltb_lt in A|apply Z.ltb_ge in A].
  - exists EXIT_ERROR. split; [reflexivity|]. split; [right; reflexivity|]. split; [discriminate|lia].
  - destruct ((refinement_criteria o <? 0) || (4 <? refinement_criteria o)) eqn:B.
    + exists EXIT_ERROR. split; [reflexivity|]. split; [right; reflexivity|]. split; [discriminate|]. apply orb_true_iff in B. rewrite !Z.ltb_lt in B. lia.
    + exists NOEXIT. split; [reflexivity|]. split; [left; reflexivity|]. apply orb_false_iff in B. rewrite !Z.ltb_ge in B. split; [lia|reflexivity].
Qed.
Print Assumptions C50_clawpatch_check.

(** Every usable grid is accepted ... *)
Theorem C50_usable_accepted : forall o, int_range (mx o) -> grid_usable (mx o) (my o) (mbc o) (interp_stencil_width o) ->
  In (refinement_criteria o) [0; 1; 2; 3; 4] -> clawpatch_check o = Some NOEXIT.
Proof.
  intros o R (E & _ & L & P & _) C. assert (R2 : int_range (2 * mbc o)) by (unfold int_range in *; lia).
  destruct (C50_clawpatch_check o R2) as (e & -> & _ & I'). f_equal. apply I'. split; [lia|exact C].
Qed.
Print Assumptions C50_usable_accepted.

(** ... but so are grids whose second direction is smaller than the ghost layers, grids with
    an odd number of cells, grids whose ghost layers overlap when packed, and stencils wider
    than the ghost layers; what goes wrong with them is proved in C17_small_patch_refuted,
    C19_odd_size_refuted, C19_not_square_refuted and C23_odd_size_refuted. *)
Theorem C50_unusable_refuted : forall o, In o
    [mkClawpatchOptions 8 2 2 3 1; mkClawpatchOptions 5 5 2 3 1; mkClawpatchOptions 4 4 2 3 1; mkClawpatchOptions 8 8 2 6 1] ->
  clawpatch_check o = Some NOEXIT /\ ~ grid_usable (mx o) (my o) (mbc o) (interp_stencil_width o).
Proof.
  intros o [<-|[<-|[<-|[<-|[]]]]]; (split; [vm_compute; reflexivity|]); unfold grid_usable; cbn [mx my mbc interp_stencil_width]; intros (A & B & C & D & F); try lia; try discriminate B.
  change (Z.quot 6 2) with 3 in F. lia.
Qed.
Print Assumptions C50_unusable_refuted.

Example C50_instance :
  let o := mkOptions 1 1 2 10 (1 # 50) 0 0 in
  let c := mkClawpatchOptions 8 8 2 3 1 in
  nout o <> 0 /\ ~ (initial_dt o == 0)%Q /\ int_range (Qfloor (tfinal o / inject_Z (nout o) / initial_dt o + (1 # 2))) /\
  options_check 2 o = Some NOEXIT /\
  options_check 2 (mkOptions 1 1 2 10 (3 # 100) 0 0) = Some EXIT_ERROR /\
  options_check 2 (mkOptions 3 0 2 10 (3 # 100) 0 0) = Some EXIT_ERROR /\
  grid_usable (mx c) (my c) (mbc c) (interp_stencil_width c) /\ clawpatch_check c = Some NOEXIT /\
  clawpatch_check (mkClawpatchOptions 3 8 2 3 1) = Some EXIT_ERROR.
Proof. vm_compute. repeat split; discriminate. Qed.

(* ------------------------------------------------------------------ *)
(** ** C51 *)

Definition outcomes (packages : list (option exit_type * option exit_type)) : list exit_type :=
  flat_map (fun p => match fst p with Some e => [e] | None => [] end ++ match snd p with Some e => [e] | None => [] end) packages.

Lemma fold_packages packages v : fold_left parse_package packages v = fold_left (fun v e => exit_max e v) (outcomes packages) v.
Proof.
  revert v. induction packages as [|[[a|] [b|]] ps IH]; intros v; [reflexivity|..]; cbn [fold_left]; rewrite IH; reflexivity.
Qed.
Lemma fold_max l v : most_severe exit_num (v :: l) (fold_left (fun v e => exit_max e v) l v).
Proof.
  revert v. induction l as [|e l IH]; intros v; cbn [fold_left].
  - split; [left; reflexivity|]. intros x [<-|[]]. lia.
  - destruct (IH (exit_max e v)) as (I1 & I2). split.
    + destruct I1 as [H|H]; [|right; right; exact H]. rewrite <- H. unfold exit_max. destruct (exit_num v <? exit_num e); [right; left; reflexivity|left; reflexivity].
    + intros x X. pose proof (exit_max_num e v) as M. pose proof (I2 _ (or_introl eq_refl)) as B. destruct X as [<-|[<-|X]]; [lia|lia|]. apply I2. right. exact X.
Qed.
Lemma loads_cases loads : (parse_loads loads = EXIT_ERROR /\ Exists (fun r => 0 < r) loads) \/ (parse_loads loads = NOEXIT /\ Forall (fun r => r <= 0) loads).
Proof.
  unfold parse_loads. assert (G : forall l v, (v = EXIT_ERROR \/ v = NOEXIT) ->
    (fold_left (fun v r => if 0 <? r then EXIT_ERROR else v) l v = EXIT_ERROR /\ (v = EXIT_ERROR \/ Exists (fun r => 0 < r) l)) \/
    (fold_left (fun v r => if 0 <? r then EXIT_ERROR else v) l v = NOEXIT /\ v = NOEXIT /\ Forall (fun r => r <= 0) l)).
  { induction l as [|r l IH]; intros v V; cbn [fold_left].
    - destruct V as [-> | ->]; [left; auto|right; auto].
    - destruct (0 <? r) eqn:E; [apply Z.ltb_lt in E|apply Z.ltb_ge in E].
      + destruct (IH EXIT_ERROR (or_introl eq_refl)) as [(A & _)|(_ & X & _)]; [|discriminate X]. left. split; [exact A|]. right. left. exact E.
      + destruct (IH v V) as [(A & [B|B])|(A & B & C)]; [left; auto|left; split; [exact A|right; right; exact B]|]. right. split; [exact A|]. split; [exact B|]. constructor; [exact E|exact C]. }
  destruct (G loads NOEXIT (or_intror eq_refl)) as [(A & [B|B])|(A & _ & B)]; [discriminate B|left; auto|right; auto].
Qed.

(** The application goes on iff nothing went wrong and no package asked to stop; otherwise the
    most severe outcome is returned. *)
Theorem C51_status : forall loads first_arg packages root savefile save,
  let result := options_parse loads first_arg packages root savefile save in
  (result = EXIT_ERROR <-> Exists (fun r => 0 < r) loads \/ first_arg < 0 \/ In EXIT_ERROR (outcomes packages) \/
     (root = true /\ savefile = true /\ save <> 0)) /\
  (result <> EXIT_ERROR -> most_severe exit_num (NOEXIT :: outcomes packages) result) /\
  (result = NOEXIT <-> Forall (fun r => r <= 0) loads /\ 0 <= first_arg /\ Forall (fun e => e = NOEXIT) (outcomes packages) /\
     (root = true -> savefile = true -> save = 0)).
Proof.
  intros loads fa ps root sf save.
  set (v1 := if fa <? 0 then EXIT_ERROR else fold_left parse_package ps (parse_loads loads)).
  assert (V : (v1 = EXIT_ERROR <-> Exists (fun r => 0 < r) loads \/ fa < 0 \/ In EXIT_ERROR (outcomes ps)) /\
     (v1 <> EXIT_ERROR -> Forall (fun r => r <= 0) loads /\ 0 <= fa /\ most_severe exit_num (NOEXIT :: outcomes ps) v1)).
  { subst v1. destruct (fa <? 0) eqn:F; [apply Z.ltb_lt in F; split; [tauto|contradiction]|apply Z.ltb_ge in F].
    rewrite fold_packages. destruct (loads_cases loads) as [(L & X)|(L & X)]; rewrite L.
    - destruct (fold_max (outcomes ps) EXIT_ERROR) as (_ & M). specialize (M _ (or_introl eq_refl)).
      assert (fold_left (fun v e => exit_max e v) (outcomes ps) EXIT_ERROR = EXIT_ERROR) as -> by (destruct (fold_left _ _ _); cbn in M; try lia; reflexivity).
      split; [tauto|contradiction].
    - pose proof (fold_max (outcomes ps) NOEXIT) as M. split; [|intros _; auto]. destruct M as (M1 & M2). split.
      + intros E. rewrite E in M1. destruct M1 as [D|M1]; [discriminate D|]. tauto.
      + intros [H|[H|H]]; [|lia|].
        * rewrite Exists_exists in H. destruct H as (r & H & P). rewrite Forall_forall in X. specialize (X r H). lia.
        * specialize (M2 _ (or_intror H)). destruct (fold_left _ _ _); cbn in M2; try lia; reflexivity. }
  destruct V as (V1 & V2).
  assert (R : options_parse loads fa ps root sf save = EXIT_ERROR /\ (v1 = EXIT_ERROR \/ (root = true /\ sf = true /\ save <> 0)) \/
              options_parse loads fa ps root sf save = v1 /\ v1 <> EXIT_ERROR /\ (root = true -> sf = true -> save = 0)).
  { unfold options_parse. fold v1. destruct (exit_num v1 =? 4) eqn:E4.
    - left. assert (v1 = EXIT_ERROR) as -> by (destruct v1; try discriminate E4; reflexivity). auto.
    - assert (NE : v1 <> EXIT_ERROR) by (intros X; rewrite X in E4; discriminate E4).
      assert (EQ : (match v1 with EXIT_ERROR => EXIT_ERROR | _ => if root && sf then if save =? 0 then v1 else EXIT_ERROR else v1 end) = if root && sf then if save =? 0 then v1 else EXIT_ERROR else v1) by (destruct v1; try contradiction; reflexivity).
      rewrite EQ. destruct root, sf; cbn [andb]; try (right; split; [reflexivity|]; split; [exact NE|]; intros; discriminate).
      destruct (save =? 0) eqn:S; [apply Z.eqb_eq in S; right; auto|apply Z.eqb_neq in S; left; auto]. }
  cbv zeta. destruct R as [(E & H)|(E & NE & H)]; rewrite E.
  - split; [|split; [contradiction|]].
    + split; [intros _; rewrite V1 in H; tauto|reflexivity].
    + split; [discriminate|]. intros (A & B & C & D). exfalso. destruct H as [H|(H1 & H2 & H3)]; [|apply H3, D; assumption]. apply V1 in H. destruct H as [H|[H|H]]; [|lia|].
      * rewrite Exists_exists in H. destruct H as (r & H & P). rewrite Forall_forall in A. specialize (A r H). lia.
      * rewrite Forall_forall in C. specialize (C _ H). discriminate C.
  - destruct (V2 NE) as (A & B & C). split; [|split; [intros _; exact C|]].
    + split; [contradiction|]. intros X. exfalso. destruct X as [X|[X|[X|(X1 & X2 & X3)]]]; [| | |apply X3, H; assumption]; apply NE, V1; tauto.
    + destruct C as (C1 & C2). split.
      * intros E0. split; [exact A|]. split; [exact B|]. split; [|exact H]. apply Forall_forall. intros x X. specialize (C2 x (or_intror X)). rewrite E0 in C2. destruct x; cbn in C2; try lia; reflexivity.
      * intros (_ & _ & F & _). destruct C1 as [C1|C1]; [auto|]. rewrite Forall_forall in F. apply F, C1.
Qed.
Print Assumptions C51_status.

(** Processes with the same configuration agree whether to go on, as long as the options are
    not saved or saving succeeds. *)
Theorem C51_processes_agree : forall loads first_arg packages savefile save root1 root2,
  (savefile = true -> save = 0) ->
  options_parse loads first_arg packages root1 savefile save = options_parse loads first_arg packages root2 savefile save.
Proof.
  intros loads fa ps sf save r1 r2 H. unfold options_parse. destruct (if fa <? 0 then EXIT_ERROR else fold_left parse_package ps (parse_loads loads)); try reflexivity;
    destruct r1, r2, sf; cbn [andb]; try reflexivity; rewrite (H eq_refl); reflexivity.
Qed.
Print Assumptions C51_processes_agree.

(** When saving fails the root process stops and all others go on. *)
Theorem C51_save_failure_refuted :
  options_parse [0] 1 [(Some NOEXIT, Some NOEXIT)] true true (-1) = EXIT_ERROR /\
  options_parse [0] 1 [(Some NOEXIT, Some NOEXIT)] false true (-1) = NOEXIT.
Proof. split; reflexivity. Qed.
Print Assumptions C51_save_failure_refuted.

(** Help, version and print requests of the core package. *)
Theorem C51_requests : forall v p h,
  (core_postprocess v p h = NOEXIT <-> v = 0 /\ p = 0 /\ h = 0) /\
  (core_postprocess v p h = EXIT_QUIET <-> v <> 0) /\
  (core_postprocess v p h = EXIT_PRINT <-> v = 0 /\ p <> 0) /\
  (core_postprocess v p h = EXIT_USAGE <-> v = 0 /\ p = 0 /\ h <> 0).
Proof.
  intros v p h. unfold core_postprocess, truth. destruct (v =? 0) eqn:A, (p =? 0) eqn:B, (h =? 0) eqn:C; cbn [negb];
    (apply Z.eqb_eq in A || apply Z.eqb_neq in A); (apply Z.eqb_eq in B || apply Z.eqb_neq in B); (apply Z.eqb_eq in C || apply Z.eqb_neq in C);
    (split; [|split; [|split]]); split; intros X; try discriminate X; try lia; try tauto; try reflexivity.
Qed.
Print Assumptions C51_requests.

Example C51_instance :
  let ps := [(Some (core_postprocess 0 1 0), None); (Some NOEXIT, Some NOEXIT); (None, Some EXIT_USAGE)] in
  options_parse [0; -1] 3 ps true true 0 = EXIT_USAGE /\ options_parse [0; -1] 3 ps false true 0 = EXIT_USAGE /\
  options_parse [0; -1] 3 [(Some NOEXIT, Some NOEXIT)] true true 0 = NOEXIT.
Proof. vm_compute. repeat split. Qed.

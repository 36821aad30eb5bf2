(** C68: frames written as text. *)
From Coq Require Import String Ascii.
From Coq Require Import NArith ZArith QArith Qabs List Bool Lia.
From Verif Require Import Model_Serial Model_Ascii Spec_Ascii Proof_Ascii1 Proof_Ascii2 Proof_Ascii3.
Import ListNotations.

Definition all_frames (o : settings) (size : nat) (frs : list frame_in) : Prop :=
  NoDup (map fr_iframe frs) /\
  forall fr, In fr frs -> (fr_iframe fr < 10000)%N /\ length (fr_procs fr) = size /\ consistent (fr_procs fr) /\ all_fit o (fr_procs fr).

Lemma all_good : forall o size frs, all_frames o size frs ->
  forall fr, In fr frs -> (fr_iframe fr < 10000)%N /\ length (fr_procs fr) = size /\ consistent (fr_procs fr).
Proof. intros o size frs [_ H] fr Hfr. destruct (H fr Hfr) as [A [B [C _]]]. auto. Qed.

(** When all processes have written their frames, reading the two files of a frame gives its time, the
    numbers of equations and auxiliary values, and all patches of the forest in order, with their
    numbers, levels, blocks, owners, positions and values, and nothing else.  This holds for any number
    of processes and frames, any schedule of the processes (a process may write the next frame while
    others are still writing this one) and whatever the files held before. *)
Theorem C68_frames : forall o frs size fs0 w,
  o_prefix o = "fort"%string -> (o_meqn o <= 20)%nat -> (0 < size)%nat -> all_frames o size frs ->
  asteps size (start size (frame_cmds (output_ascii o) frs) (length frs) fs0) w -> done size w ->
  forall fr, In fr frs ->
  read_frame (w_files w ("fort.t" ++ d4 (fr_iframe fr))%string) (w_files w ("fort.q" ++ d4 (fr_iframe fr))%string) =
    Some (mkF (fr_time fr) (N.of_nat (o_meqn o)) (N.of_nat (o_maux o))
            (grids_of (cell_values (o_meqn o)) (o_mx o) (o_my o) (fr_procs fr))).
Proof.
  intros o frs size fs0 w Hp Hm Hs HF HS HD fr Hfr. destruct (In_nth_error _ _ Hfr) as [k Hk].
  pose proof (all_good _ _ _ HF) as good. destruct HF as [HN HA]. destruct (HA fr Hfr) as [_ [_ [Hc Hfit]]].
  change ("fort.t" ++ d4 (fr_iframe fr))%string with (tn (fr_iframe fr)). change ("fort.q" ++ d4 (fr_iframe fr))%string with (qn (fr_iframe fr)).
  rewrite (final_q (output_ascii o) qn tn _ _ _ (out46_ok o Hp Hm) qn_inj qn_tn frs size Hs HN good k fr Hk fs0 w HS HD).
  destruct (final_t (output_ascii o) qn tn _ _ _ (out46_ok o Hp Hm) tn_inj qn_tn frs size Hs HN good k fr Hk fs0 w HS HD) as [d [Hd E]].
  rewrite E. apply (read_frame_ok o (fr_procs fr) d (fr_time fr) (N.of_nat (o_meqn o)) _ _ (fun _ => pr46 (o_meqn o)) (fun _ q i j => map (fun m => q i j m) (upto (o_meqn o))));
    [exact Hfit|exact Hc|exact Hd|unfold fits; lia|reflexivity| |reflexivity].
  intros p q i j. apply pr46_one. exact Hm.
Qed.
Print Assumptions C68_frames.

(** The same for GeoClaw, which adds the height of the water surface to the values of each cell. *)
Theorem C68_geoclaw_frames : forall o frs size fs0 w,
  (1 <= o_meqn o <= 4)%nat -> (0 < size)%nat -> all_frames o size frs ->
  asteps size (start size (frame_cmds (geo_output_ascii o) frs) (length frs) fs0) w -> done size w ->
  forall fr, In fr frs ->
  read_frame (w_files w ("fort.t" ++ d4 (fr_iframe fr))%string) (w_files w ("fort.q" ++ d4 (fr_iframe fr))%string) =
    Some (mkF (fr_time fr) (N.of_nat (o_meqn o) + 1) (N.of_nat (o_maux o))
            (grids_of (geo_cell_values (o_meqn o)) (o_mx o) (o_my o) (fr_procs fr))).
Proof.
  intros o frs size fs0 w Hm Hs HF HS HD fr Hfr. destruct (In_nth_error _ _ Hfr) as [k Hk].
  pose proof (all_good _ _ _ HF) as good. destruct HF as [HN HA]. destruct (HA fr Hfr) as [_ [_ [Hc Hfit]]].
  change ("fort.t" ++ d4 (fr_iframe fr))%string with (tn (fr_iframe fr)). change ("fort.q" ++ d4 (fr_iframe fr))%string with (qn (fr_iframe fr)).
  rewrite (final_q (geo_output_ascii o) qn tn _ _ _ (outg_ok o Hm) qn_inj qn_tn frs size Hs HN good k fr Hk fs0 w HS HD).
  destruct (final_t (geo_output_ascii o) qn tn _ _ _ (outg_ok o Hm) tn_inj qn_tn frs size Hs HN good k fr Hk fs0 w HS HD) as [d [Hd E]].
  rewrite E. apply (read_frame_ok o (fr_procs fr) d (fr_time fr) (N.of_nat (o_meqn o) + 1) _ _ (fun p => prg (o_meqn o) (p_aux p))
    (fun p q i j => map (fun m => q i j m) (upto (o_meqn o)) ++ [shown (q i j 1%Z + p_aux p i j 1%Z)]));
    [exact Hfit|exact Hc|exact Hd|unfold fits; lia|reflexivity| |reflexivity].
  intros p q i j. apply prg_one. lia.
Qed.
Print Assumptions C68_geoclaw_frames.

(** At any moment (for example when the run is killed) the file of a frame is either still the old one or
    the beginning of the new one: no lines are missing in between, doubled or out of order. *)
Theorem C68_any_time : forall o frs size fs0 w wend,
  o_prefix o = "fort"%string -> (o_meqn o <= 20)%nat -> (0 < size)%nat -> all_frames o size frs ->
  asteps size (start size (frame_cmds (output_ascii o) frs) (length frs) fs0) w ->
  asteps size (start size (frame_cmds (output_ascii o) frs) (length frs) fs0) wend -> done size wend ->
  forall fr, In fr frs -> let name := ("fort.q" ++ d4 (fr_iframe fr))%string in
  w_files w name = fs0 name \/ exists rest, w_files w name ++ rest = w_files wend name.
Proof.
  intros o frs size fs0 w wend Hp Hm Hs HF HS HE HD fr Hfr. destruct (In_nth_error _ _ Hfr) as [k Hk].
  pose proof (all_good _ _ _ HF) as good. destruct HF as [HN HA]. change ("fort.q" ++ d4 (fr_iframe fr))%string with (qn (fr_iframe fr)). cbn zeta.
  rewrite (final_q (output_ascii o) qn tn _ _ _ (out46_ok o Hp Hm) qn_inj qn_tn frs size Hs HN good k fr Hk fs0 wend HE HD).
  exact (partial_q (output_ascii o) qn tn _ _ _ (out46_ok o Hp Hm) qn_inj qn_tn frs size Hs HN good k fr Hk fs0 w HS).
Qed.
Print Assumptions C68_any_time.

(** Other files, such as those of other frames, are left alone. *)
Theorem C68_other_files : forall o frs size fs0 w nm,
  o_prefix o = "fort"%string -> (o_meqn o <= 20)%nat -> all_frames o size frs ->
  asteps size (start size (frame_cmds (output_ascii o) frs) (length frs) fs0) w ->
  (forall fr, In fr frs -> nm <> ("fort.q" ++ d4 (fr_iframe fr))%string /\ nm <> ("fort.t" ++ d4 (fr_iframe fr))%string) ->
  w_files w nm = fs0 nm.
Proof.
  intros o frs size fs0 w nm Hp Hm HF HS H. pose proof (all_good _ _ _ HF) as good. destruct HF as [HN _].
  exact (untouched (output_ascii o) qn tn _ _ _ (out46_ok o Hp Hm) frs size good fs0 w nm HS H).
Qed.
Print Assumptions C68_other_files.

(** No schedule blocks: from wherever the processes are, they can finish, and every schedule ends. *)
Theorem C68_completes : forall out frs size fs0 w,
  asteps size (start size (frame_cmds out frs) (length frs) fs0) w ->
  (exists w', asteps size (start size (frame_cmds out frs) (length frs) fs0) w' /\ asteps size w w' /\ done size w') /\
  (done size w \/ exists w', astep size w w') /\
  (forall w', astep size w w' -> (left_over size w' < left_over size w)%nat).
Proof.
  intros out frs size fs0 w HS. split; [exact (completes size _ _ fs0 w HS)|]. split; [exact (progress size _ _ fs0 w HS)|].
  intros w'. apply step_less.
Qed.
Print Assumptions C68_completes.

(** How the forest is distributed matters for the recorded owner only. *)
Definition without_rank (g : grid) : grid :=
  mkG (g_number g) (g_level g) (g_block g) 0 (g_mx g) (g_my g) (g_xlow g) (g_ylow g) (g_dx g) (g_dy g) (g_rows g).
Theorem C68_partition : forall values mx my ds ds', map snd (forest ds) = map snd (forest ds') ->
  map without_rank (grids_of values mx my ds) = map without_rank (grids_of values mx my ds').
Proof.
  intros values mx my ds ds'. unfold grids_of. generalize (forest ds) (forest ds'). generalize 0%nat. intros k l l'. revert k l'.
  induction l as [|[r [b p]] l IH]; intros k [|[r' [b' p']] l'] H; try discriminate H; [reflexivity|].
  cbn [map] in H. injection H as -> -> H. cbn [length seq combine map]. f_equal. apply IH. exact H.
Qed.
Print Assumptions C68_partition.

(** ** What happens to the solution

    Writing a frame succeeds for up to twenty equations; it leaves the solution as it is, except that values
    below 1e-99 become zero. *)
Theorem C68_solution : forall o iframe time rank d,
  o_prefix o = "fort"%string -> (o_meqn o <= 20)%nat -> (iframe < 10000)%N ->
  exists cs qss, output_ascii o iframe time rank d = Some (cs, qss) /\
    length qss = length (d_blocks d) /\
    forall b ps qs, nth_error (d_blocks d) b = Some ps -> nth_error qss b = Some qs ->
      length qs = length ps /\
      forall n p q, nth_error ps n = Some p -> nth_error qs n = Some q -> forall i j m,
        (Qlt_bool (Qabs (p_q p i j m)) tiny = false -> q i j m = p_q p i j m) /\
        (Qlt_bool (Qabs (p_q p i j m)) tiny = true -> q i j m = p_q p i j m \/ q i j m = 0%Q) /\
        (~ (1 <= i <= Z.of_nat (o_mx o) /\ 1 <= j <= Z.of_nat (o_my o) /\ 1 <= m <= Z.of_nat (o_meqn o))%Z -> q i j m = p_q p i j m).
Proof.
  intros o iframe time rank d Hp Hm Hi.
  pose proof (out46_ok o Hp Hm iframe time (N.to_nat rank) d (N.to_nat (d_before d)) Hi) as E. rewrite !N2Nat.id in E. specialize (E eq_refl).
  eexists. eexists. split; [exact E|]. split; [apply map_length|]. intros b ps qs Hb Hq.
  rewrite (map_nth_error _ b (d_blocks d) Hb) in Hq. injection Hq as <-. split; [apply map_length|]. intros n p q Hn Hq.
  rewrite (map_nth_error _ n ps Hn) in Hq. injection Hq as <-. intros i j m. rewrite !after46_eq. unfold zeroed, shown.
  destruct ((1 <=? i) && (i <=? Z.of_nat (o_mx o)) && ((1 <=? j) && (j <=? Z.of_nat (o_my o))) && ((1 <=? m) && (m <=? Z.of_nat (o_meqn o))))%Z eqn:C.
  - apply andb_prop in C. destruct C as [C C3]. apply andb_prop in C. destruct C as [C1 C2].
    apply andb_prop in C1, C2, C3. rewrite !Z.leb_le in C1, C2, C3.
    split; [intros ->; reflexivity|]. split; [intros ->; right; reflexivity|]. intros X. exfalso. apply X. lia.
  - split; [reflexivity|]. split; [left; reflexivity|reflexivity].
Qed.
Print Assumptions C68_solution.

Definition one_patch (v : Q) : apatch := mkAp 0 0 0 1 1 (fun _ _ _ => v) (fun _ _ _ => 0).
Definition one_proc (v : Q) : proc := mkProc 0 1 [[one_patch v]].
(** Output is not without effect on the run: it changes the solution. *)
Theorem C68_solution_refuted : exists o iframe time rank d cs qss ps qs p q,
  o_prefix o = "fort"%string /\ output_ascii o iframe time rank d = Some (cs, qss) /\
  nth_error (d_blocks d) 0 = Some ps /\ nth_error qss 0 = Some qs /\ nth_error ps 0 = Some p /\ nth_error qs 0 = Some q /\
  ~ (q 1%Z 1%Z 1%Z == p_q p 1%Z 1%Z 1%Z)%Q.
Proof.
  exists (mkSet "fort" 1 1 1 0), 0%N, 0%Q, 0%N, (one_proc (1 # (10 ^ 100))).
  do 6 eexists. split; [reflexivity|]. split; [reflexivity|]. split; [reflexivity|]. split; [reflexivity|]. split; [reflexivity|]. split; [reflexivity|].
  intros X. vm_compute in X. discriminate X.
Qed.
Print Assumptions C68_solution_refuted.

(** ** Names *)
(** the files after a run of a single process *)
Definition alone (cs : list cmd) (fs : files) : files := fold_left (fun f c => exec c f) cs fs.
(** With any other prefix the values go to a file that is never emptied, while the header announces
    them in fort.q, which stays empty: a second run into the same directory leaves the grids of both. *)
Theorem C68_prefix_refuted : exists o cs qss, o_prefix o <> "fort"%string /\
  output_ascii o 0 0 0 (one_proc 1) = Some (cs, qss) /\
  (forall fs, read_frame (alone cs fs "fort.t0000"%string) (alone cs fs "fort.q0000"%string) = None) /\
  let once := alone cs (fun _ => []) in let twice := alone cs once in
  read_frame (once "fort.t0000"%string) (once "swirl.q0000"%string) <> None /\
  read_frame (twice "fort.t0000"%string) (twice "swirl.q0000"%string) = None.
Proof.
  exists (mkSet "swirl" 1 1 1 0). do 2 eexists. split; [discriminate|]. split; [reflexivity|].
  split; [intros fs; vm_compute; reflexivity|]. split; [vm_compute; discriminate|vm_compute; reflexivity].
Qed.
Print Assumptions C68_prefix_refuted.

(** With a prefix of more than five letters the number of the frame is cut off: all frames go to one file. *)
Theorem C68_long_prefix_refuted : exists o cs cs' qss qss', output_ascii o 0 0 0 (one_proc 1) = Some (cs, qss) /\
  output_ascii o 1 0 0 (one_proc 1) = Some (cs', qss') /\
  exists nm, In (Append nm []) cs /\ In (Append nm []) cs'.
Proof.
  exists (mkSet "transport" 1 1 1 0). do 4 eexists. split; [reflexivity|]. split; [reflexivity|].
  exists "transport.q"%string. split; vm_compute; tauto.
Qed.
Print Assumptions C68_long_prefix_refuted.

(** The name of frame 10000 does not fit its buffer. *)
Theorem C68_frame_number_refuted : forall o time d, output_ascii o 10000 time 0 d = None.
Proof. intros. reflexivity. Qed.
Print Assumptions C68_frame_number_refuted.
(** GeoClaw writes it over frame 0. *)
Theorem C68_geoclaw_frame_number_refuted : forall c, geo_name c 10000 = geo_name c 0.
Proof. intros. reflexivity. Qed.
Print Assumptions C68_geoclaw_frame_number_refuted.

(** ** Sizes *)
(** From 100000 on the numbers of the patches are lost. *)
Theorem C68_many_patches_refuted : exists n n', n <> n' /\
  forall mx my xlower ylower dx dy level blockno mpirank,
    write_grid_header mx my xlower ylower dx dy n level blockno mpirank = write_grid_header mx my xlower ylower dx dy n' level blockno mpirank.
Proof. exists 100000%N, 100001%N. split; [discriminate|]. reflexivity. Qed.
Print Assumptions C68_many_patches_refuted.
(** With more than twenty equations the run stops. *)
Theorem C68_many_equations_refuted : exists o d, o_prefix o = "fort"%string /\ output_ascii o 0 0 0 d = None.
Proof. exists (mkSet "fort" 1 1 21 0), (one_proc 1). split; reflexivity. Qed.
Print Assumptions C68_many_equations_refuted.
(** The check of GeoClaw admits five equations, but with the height of the surface there are six values,
    which its format spreads over two lines. *)
Theorem C68_geoclaw_five_equations_refuted : exists o cs qss, o_meqn o = 5%nat /\
  geo_output_ascii o 0 0 0 (one_proc 1) = Some (cs, qss) /\
  forall fs, read_frame (alone cs fs "fort.t0000"%string) (alone cs fs "fort.q0000"%string) = None.
Proof.
  exists (mkSet "fort" 1 1 5 1). do 2 eexists. split; [reflexivity|]. split; [reflexivity|]. intros fs. vm_compute. reflexivity.
Qed.
Print Assumptions C68_geoclaw_five_equations_refuted.

(** *** Instance: two frames of a forest of two blocks on two processes, which share the first block; the
    second frame comes after a repartition *)
Definition ipatch (l : N) (x v : Q) : apatch := mkAp l x 0 (1 # 2) (1 # 4) (fun i j m => (v + inject_Z (10 * i + j) + inject_Z m / 2)%Q) (fun _ _ _ => 2).
Definition iset : settings := mkSet "fort" 2 1 2 1.
Definition iframes : list frame_in :=
  [ mkFr 0 0 [mkProc 0 3 [[ipatch 1 0 100]; []]; mkProc 1 3 [[ipatch 2 1 200]; [ipatch 0 2 300]]];
    mkFr 12 (1 # 2) [mkProc 0 3 [[ipatch 1 0 101; ipatch 2 1 201]; []]; mkProc 2 3 [[]; [ipatch 0 2 301]]] ].
Example C68_instance_names : d4 12 = "0012"%string /\ i5 12 = "   12"%string.
Proof. split; reflexivity. Qed.
Lemma iframes_ok : all_frames iset 2 iframes.
Proof.
  split.
  - repeat constructor; intros H; cbn in H; repeat (destruct H as [H|H]; [discriminate H|]); destruct H.
  - intros fr [<-|[<-|[]]]; (split; [reflexivity|]; split; [reflexivity|]; split).
    1, 3: intros [|[|r]] d H; cbn in H; try (destruct r; discriminate H); injection H as <-; split; reflexivity.
    1, 2: unfold all_fit, fits; repeat (split; [reflexivity|]); split; [intros d [<-|[<-|[]]]; reflexivity|intros x X; cbn in X; repeat (destruct X as [<-|X]; [reflexivity|]); destruct X].
Qed.
Example C68_instance : exists w,
  asteps 2 (start 2 (frame_cmds (output_ascii iset) iframes) (length iframes) (fun _ => [[Txt "old"%string]])) w /\ done 2 w /\
  read_frame (w_files w "fort.t0012"%string) (w_files w "fort.q0012"%string) =
    Some (mkF (1 # 2) 2 1 (grids_of (cell_values 2) 2 1 (fr_procs (nth 1 iframes (mkFr 0 0 []))))) /\
  map g_number (grids_of (cell_values 2) 2 1 (fr_procs (nth 1 iframes (mkFr 0 0 [])))) = [0; 1; 2]%N /\
  map g_block (grids_of (cell_values 2) 2 1 (fr_procs (nth 1 iframes (mkFr 0 0 [])))) = [0; 0; 1]%N /\
  map g_rank (grids_of (cell_values 2) 2 1 (fr_procs (nth 1 iframes (mkFr 0 0 [])))) = [0; 0; 1]%N /\
  w_files w "notes"%string = [[Txt "old"%string]].
Proof.
  destruct (C68_completes (output_ascii iset) iframes 2 (fun _ => [[Txt "old"%string]]) _ (a_none _ _)) as [[w [A [_ D]]] _].
  exists w. split; [exact A|]. split; [exact D|]. split.
  - exact (C68_frames iset iframes 2 _ w eq_refl ltac:(cbn; lia) ltac:(lia) iframes_ok A D (nth 1 iframes (mkFr 0 0 [])) ltac:(right; left; reflexivity)).
  - split; [reflexivity|]. split; [reflexivity|]. split; [reflexivity|].
    apply (C68_other_files iset iframes 2 _ w "notes"%string eq_refl ltac:(cbn; lia) iframes_ok A).
    intros fr [<-|[<-|[]]]; split; discriminate.
Qed.
Print Assumptions C68_instance.
Example C68_instance_values : g_rows (nth 2 (grids_of (cell_values 2) 2 1 (fr_procs (nth 1 iframes (mkFr 0 0 [])))) (mkG 0 0 0 0 0 0 0 0 0 0 [])) =
  [[[ (301 + 11 + 1 / 2)%Q; (301 + 11 + 2 / 2)%Q ]; [ (301 + 21 + 1 / 2)%Q; (301 + 21 + 2 / 2)%Q ]]].
Proof. vm_compute. reflexivity. Qed.
Example C68_instance_geoclaw : exists w,
  asteps 2 (start 2 (frame_cmds (geo_output_ascii iset) iframes) (length iframes) (fun _ => [])) w /\ done 2 w /\
  exists fr, read_frame (w_files w "fort.t0000"%string) (w_files w "fort.q0000"%string) = Some fr /\ f_meqn fr = 3%N /\
    match f_grids fr with g :: _ => g_rows g = [[[ (100 + 11 + 1 / 2)%Q; (100 + 11 + 2 / 2)%Q; (100 + 11 + 1 / 2 + 2)%Q ];
                                                 [ (100 + 21 + 1 / 2)%Q; (100 + 21 + 2 / 2)%Q; (100 + 21 + 1 / 2 + 2)%Q ]]] | [] => False end.
Proof.
  destruct (C68_completes (geo_output_ascii iset) iframes 2 (fun _ => []) _ (a_none _ _)) as [[w [A [_ D]]] _].
  exists w. split; [exact A|]. split; [exact D|]. eexists. split.
  - exact (C68_geoclaw_frames iset iframes 2 _ w ltac:(cbn; lia) ltac:(lia) iframes_ok A D (nth 0 iframes (mkFr 0 0 [])) ltac:(left; reflexivity)).
  - split; [reflexivity|vm_compute; reflexivity].
Qed.

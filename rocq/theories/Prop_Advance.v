(** C12, C13: properties of one call of fclaw2d_advance_all_levels. *)
From Coq Require Import ZArith QArith Qminmax List Bool Lia.
From Verif Require Import Model_Advance Spec_Advance Proof_Advance3.
Import ListNotations.
Open Scope Z_scope.

(** No assertion fails and no loop runs away. *)
Theorem C12_call_completes : forall cfg cfl t dt, wf_config cfg ->
  exists evs m, advance_all_levels cfg cfl t dt = Some (evs, m).
Proof.
  intros. destruct (subcycle cfg) eqn:E.
  - destruct (advance_subcycled cfg cfl t dt H E) as (evs & m & A & _). eauto.
  - destruct (advance_not_subcycled cfg cfl t dt H E) as (evs & m & A & _). eauto.
Qed.
Print Assumptions C12_call_completes.

(** Subcycled: level l takes 2^(l-minlevel) consecutive steps of size
    dt / 2^(l-minlevel) and ends at t + dt; no other level takes a step. *)
Theorem C12_subcycled_steps : forall cfg cfl t dt evs m, wf_config cfg -> subcycle cfg = true ->
  advance_all_levels cfg cfl t dt = Some (evs, m) ->
  (forall l, Z.min (local_min cfg) (global_max cfg) <= l <= global_max cfg ->
     let n := 2 ^ (l - minlevel cfg) in
     same_steps (steps_on l evs) (uniform_steps t (dt / inject_Z n) (Z.to_nat n)) /\
     (reached t l evs == t + dt)%Q) /\
  (forall l, ~ Z.min (local_min cfg) (global_max cfg) <= l <= global_max cfg -> steps_on l evs = []).
Proof.
  intros cfg cfl t dt evs m Hwf HS E.
  destruct (advance_subcycled cfg cfl t dt Hwf HS) as (evs' & m' & E' & A & B & _).
  rewrite E in E'. injection E' as <- <-. auto.
Qed.
Print Assumptions C12_subcycled_steps.

(** Not subcycled: every level takes the same number of equal steps, one if
    [advance_one_step], else 2^(maxlevel-minlevel), and ends at t + dt. *)
Theorem C12_not_subcycled_steps : forall cfg cfl t dt evs m, wf_config cfg -> subcycle cfg = false ->
  advance_all_levels cfg cfl t dt = Some (evs, m) ->
  let n := if advance_one_step cfg then 1 else 2 ^ (maxlevel cfg - minlevel cfg) in
  (forall l, Z.min (local_min cfg) (global_max cfg) <= l <= global_max cfg ->
     same_steps (steps_on l evs) (uniform_steps t (dt / inject_Z n) (Z.to_nat n)) /\
     (reached t l evs == t + dt)%Q) /\
  (forall l, ~ Z.min (local_min cfg) (global_max cfg) <= l <= global_max cfg -> steps_on l evs = []) /\
  (forall l a, ~ In (Interp l a) evs).
Proof.
  intros cfg cfl t dt evs m Hwf HS E n.
  destruct (advance_not_subcycled cfg cfl t dt Hwf HS) as (evs' & m' & E' & A & B & C & D).
  rewrite E in E'. injection E' as <- <-. split; auto. split; auto.
  intros l a Hin. apply in_split in Hin. destruct Hin as (x & y & Ex). exact (D x _ y Ex).
Qed.
Print Assumptions C12_not_subcycled_steps.

(** When a level starts a step, the next coarser level stands at the same time, or
    it has finished the coarse step that contains the fine one (then it stands at the
    end of the fine step). *)
Theorem C12_coarse_level_brackets_step : forall cfg cfl t dt evs m, wf_config cfg ->
  advance_all_levels cfg cfl t dt = Some (evs, m) ->
  forall pre l s h post, evs = pre ++ Step l s h :: post -> local_min cfg < l ->
  (reached t (l - 1)%Z pre == s)%Q \/ (subcycle cfg = true /\ (reached t (l - 1)%Z pre == s + h)%Q).
Proof.
  intros cfg cfl t dt evs m Hwf E pre l s h post Ee Hl. destruct (subcycle cfg) eqn:HS.
  - destruct (advance_subcycled cfg cfl t dt Hwf HS) as (evs' & m' & E' & _ & _ & _ & D).
    rewrite E in E'. injection E' as <- <-. pose proof (D pre _ post Ee) as X. cbn beta iota in X.
    destruct X; [lia|left; auto|right; auto].
  - destruct (advance_not_subcycled cfg cfl t dt Hwf HS) as (evs' & m' & E' & _ & _ & _ & D).
    rewrite E in E'. injection E' as <- <-. left. apply (D pre _ post Ee). lia.
Qed.
Print Assumptions C12_coarse_level_brackets_step.

(** The CFL number returned is the largest of all steps taken (0 if all are negative). *)
Theorem C12_returned_cfl : forall cfg cfl t dt evs m, wf_config cfg ->
  advance_all_levels cfg cfl t dt = Some (evs, m) -> largest_cfl cfl evs m.
Proof.
  intros cfg cfl t dt evs m Hwf E. destruct (subcycle cfg) eqn:HS.
  - destruct (advance_subcycled cfg cfl t dt Hwf HS) as (evs' & m' & E' & _ & _ & C & _).
    rewrite E in E'. injection E' as <- <-. auto.
  - destruct (advance_not_subcycled cfg cfl t dt Hwf HS) as (evs' & m' & E' & _ & _ & C & _).
    rewrite E in E'. injection E' as <- <-. auto.
Qed.
Print Assumptions C12_returned_cfl.

(** Every time interpolation of a coarse level uses the fraction of the last coarse
    step (which ends where the coarse level stands) at which the finer level stands;
    that fraction is 1/2. *)
Theorem C13_alpha_is_half : forall cfg cfl t dt evs m, wf_config cfg -> subcycle cfg = true ->
  advance_all_levels cfg cfl t dt = Some (evs, m) ->
  forall pre l a post, evs = pre ++ Interp l a :: post ->
  let dt_coarse := (dt / inject_Z (2 ^ (l - minlevel cfg)))%Q in
  let coarse_end := reached t l pre in
  (a == 1 # 2)%Q /\ local_min cfg <= l < global_max cfg /\
  (reached t (l + 1)%Z pre == (coarse_end - dt_coarse) + a * dt_coarse)%Q.
Proof.
  intros cfg cfl t dt evs m Hwf HS E pre l a post Ee.
  destruct (advance_subcycled cfg cfl t dt Hwf HS) as (evs' & m' & E' & A & _ & _ & D).
  rewrite E in E'. injection E' as <- <-. pose proof (D pre _ post Ee) as X. cbn beta iota in X.
  destruct X as (X1 & X2 & X3). split; auto. split. lia. rewrite X3. ring.
Qed.
Print Assumptions C13_alpha_is_half.

(** Every intermediate ghost exchange of a subcycled call covers a range of levels
    that all stand at the exchange time, and the next coarser level was last
    interpolated, after its latest step, to exactly that time. *)
Theorem C13_ghost_update_synchronised : forall cfg cfl t dt evs m, wf_config cfg -> subcycle cfg = true ->
  advance_all_levels cfg cfl t dt = Some (evs, m) ->
  forall pre lo hi s post, evs = pre ++ Ghost lo hi s true :: post ->
  let dt_of l := (dt / inject_Z (2 ^ (l - minlevel cfg)))%Q in
  hi = global_max cfg /\ minlevel cfg < lo <= hi /\
  (forall l, local_min cfg <= l -> lo <= l <= hi -> (reached t l pre == s)%Q) /\
  (local_min cfg < lo -> exists a, interpolated (lo - 1) a pre /\
     ((reached t (lo - 1)%Z pre - dt_of (lo - 1)%Z) + a * dt_of (lo - 1)%Z == s)%Q).
Proof.
  intros cfg cfl t dt evs m Hwf HS E pre lo hi s post Ee dt_of.
  destruct (advance_subcycled cfg cfl t dt Hwf HS) as (evs' & m' & E' & A & _ & _ & D).
  rewrite E in E'. injection E' as <- <-. pose proof (D pre _ post Ee) as X. cbn beta iota in X.
  destruct X as (X1 & X2 & X3 & X4). split; auto. split. lia. split. intros; apply X3; lia.
  intro. apply X4. lia.
Qed.
Print Assumptions C13_ghost_update_synchronised.

(** The last exchange covers all levels of the domain at t + dt. *)
Theorem C13_final_ghost_update : forall cfg cfl t dt evs m, wf_config cfg ->
  advance_all_levels cfg cfl t dt = Some (evs, m) ->
  exists pre s, (evs = pre ++ [Ghost (global_min cfg) (global_max cfg) s false] \/
     evs = pre ++ [Ghost (global_min cfg) (global_max cfg) s false; Sync (global_min cfg) (global_max cfg)]) /\
   (s == t + dt)%Q.
Proof.
  intros cfg cfl t dt evs m Hwf E.
  assert (H : forall l, Z.min (local_min cfg) (global_max cfg) <= l <= global_max cfg -> (reached t l evs == t + dt)%Q).
  { destruct (subcycle cfg) eqn:HS.
    - destruct (advance_subcycled cfg cfl t dt Hwf HS) as (evs' & m' & E' & A & _).
      rewrite E in E'. injection E' as <- <-. intros; apply A; auto.
    - destruct (advance_not_subcycled cfg cfl t dt Hwf HS) as (evs' & m' & E' & A & _).
      rewrite E in E'. injection E' as <- <-. intros; apply A; auto. }
  assert (G0 : forall pre s post, evs = pre ++ Ghost (global_min cfg) (global_max cfg) s false :: post ->
               (reached t (global_max cfg) pre == s)%Q).
  { intros pre s post Ee. destruct (subcycle cfg) eqn:HS.
    - destruct (advance_subcycled cfg cfl t dt Hwf HS) as (evs' & m' & E' & _ & _ & _ & D).
      rewrite E in E'. injection E' as <- <-. apply (D pre _ post Ee). lia.
    - destruct (advance_not_subcycled cfg cfl t dt Hwf HS) as (evs' & m' & E' & _ & _ & _ & D).
      rewrite E in E'. injection E' as <- <-. apply (D pre _ post Ee). lia. }
  unfold advance_all_levels in E.
  destruct (negb _); [discriminate|]. destruct (fine_steps _ _ _ _ _ _) as [[[c ev] q]|]; [|discriminate].
  destruct (negb _); [discriminate|]. injection E as E1 E2. exists ev, (c_time c (global_max cfg)).
  split. destruct (time_sync cfg); [right|left]; auto.
  rewrite <- (H (global_max cfg)) by lia. symmetry.
  rewrite <- E1. rewrite Proof_Advance.reached_app.
  rewrite Proof_Advance.reached_nostep by (destruct (time_sync cfg); reflexivity).
  eapply G0. rewrite <- E1. reflexivity.
Qed.
Print Assumptions C13_final_ghost_update.

(** Non-vacuity: three levels, subcycled; the order of steps is as in the code. *)
Definition ex_cfg := mkCfg 1 4 true false false 1 3 1.
Example ex_wf : wf_config ex_cfg.
Proof. unfold wf_config, ex_cfg; cbn; lia. Qed.
Definition ex_kind (e : event) : Z * Z :=
  match e with Step l _ _ => (0, l) | Interp l _ => (1, l) | Ghost l _ _ _ => (2, l) | Sync l _ => (3, l) end.
Example ex_order : exists evs m, advance_all_levels ex_cfg (fun _ _ h => h) 0 1 = Some (evs, m) /\
  map ex_kind evs = [(0,3);(0,2);(0,1);(1,1);(1,2);(2,3); (0,3);(2,2); (0,3);(0,2);(1,2);(2,3); (0,3);(2,1)].
Proof. eexists _, _. split; vm_compute; reflexivity. Qed.
Example ex_wf_flat : wf_config (mkCfg 1 4 false false true 1 3 2).
Proof. unfold wf_config; cbn; lia. Qed.

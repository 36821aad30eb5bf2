(** Executing assignments that follow the rules; combinators. *)
From Coq Require Import ZArith List Bool Lia.
From Verif Require Import Model_Face Model_Mesh Spec_Mesh Model_Fill Model_FillExec Spec_Fill.
Import ListNotations.
Open Scope Z_scope.

Lemma patch_eqb_spec : forall x y, reflect (x = y) (patch_eqb x y).
Proof.
  intros [a b] [c d]. unfold patch_eqb. cbn [fst snd]. destruct (Z.eqb_spec a c), (Z.eqb_spec b d); constructor; congruence.
Qed.
Lemma region_eqb_spec : forall x y, reflect (x = y) (region_eqb x y).
Proof.
  intros [|f h|c] [|g i|d]; cbn [region_eqb]; try (constructor; congruence).
  - destruct (Z.eqb_spec f g), (eqb_spec h i); cbn [andb]; constructor; congruence.
  - destruct (Z.eqb_spec c d); constructor; congruence.
Qed.
Lemma key_eqb_spec : forall x y, reflect (x = y) (key_eqb x y).
Proof.
  intros [[x a] g] [[y b] h]. unfold key_eqb. cbn [fst snd].
  destruct (patch_eqb_spec x y), (eqb_spec a b), (region_eqb_spec g h); cbn [andb]; constructor; congruence.
Qed.
Lemma step_same : forall s a, step s a (target a) = App (with_routine a) (map s (sources a)).
Proof. intros s a. unfold step. destruct (key_eqb_spec (target a) (target a)); [reflexivity|congruence]. Qed.
Lemma step_other : forall s a k, target a <> k -> step s a k = s k.
Proof. intros s a k N. unfold step. destruct (key_eqb_spec (target a) k); [contradiction|reflexivity]. Qed.
Lemma run_app : forall a b s, run (a ++ b) s = run b (run a s).
Proof. intros a b s. unfold run. apply fold_left_app. Qed.
Lemma run_cons : forall a l s, run (a :: l) s = run l (step s a). Proof. reflexivity. Qed.
Lemma run_other : forall l s k, ~ In k (map target l) -> run l s k = s k.
Proof.
  induction l as [|a l IH]; intros s k N; [reflexivity|]. rewrite run_cons, IH; [apply step_other|]; intros E; apply N; cbn [map In]; auto.
Qed.

Section Rules.
  Variable w : world.
  Variable geo : geometry.
  Variable rq : request.
  Notation buf := (buf w rq).
  Notation rule := (rule w geo rq).
  Notation is_value := (is_value w geo rq).

  Lemma value_unique : forall x g v, is_value x g v -> forall v', is_value x g v' -> v = v'.
  Proof.
    fix IH 4. intros x g v H. destruct H as [x|x g k l vs R F]; intros v' H'.
    - inversion H'; subst; [reflexivity|discriminate].
    - inversion H' as [|? ? k' l' vs' R' F']; subst; [discriminate|].
      assert (k' = k /\ l' = l) as [-> ->] by (rewrite R in R'; inversion R'; auto). f_equal. clear R R' H'.
      revert vs' F'. induction F as [|a v l vs Ha F IHF]; intros vs' F'; inversion F'; subst; [reflexivity|].
      f_equal; [exact (IH _ _ _ Ha _ H1)|apply IHF; assumption].
  Qed.

  Definition at_key (a : patch * region) : key := (fst a, buf (fst a), snd a).

  (** a region has its right contents, and so have the regions it arises from *)
  Inductive settled (s : state) : patch * region -> Prop :=
  | S_interior : forall x, s (x, buf x, RInt) = Interior x (buf x) -> settled s (x, RInt)
  | S_ghost : forall x g k l, rule x g = Some (k, l) -> s (x, buf x, g) = App k (map (fun a => s (at_key a)) l) ->
      Forall (settled s) l -> settled s (x, g).

  Lemma settled_value : forall s a, settled s a -> is_value (fst a) (snd a) (s (at_key a)).
  Proof.
    fix IH 3. intros s a H. destruct H as [x E|x g k l R E F]; unfold at_key; cbn [fst snd]; rewrite E; [constructor|].
    econstructor; [exact R|]. clear E R. induction F as [|a l Ha F IHF]; cbn [map]; constructor; [apply (IH _ _ Ha)|exact IHF].
  Qed.
  Lemma settled_of_value : forall s x g k l, rule x g = Some (k, l) -> Forall (settled s) l -> is_value x g (s (x, buf x, g)) -> settled s (x, g).
  Proof.
    intros s x g k l R F V. inversion V as [|? ? k' l' vs R' F' E1]; subst; [discriminate|].
    assert (k' = k /\ l' = l) as [-> ->] by (rewrite R in R'; inversion R'; auto).
    econstructor; [exact R| |exact F]. rewrite <- H. f_equal. clear R R' H V.
    revert F. induction F' as [|a v l vs Ha F' IHF]; intros F; [reflexivity|]. inversion F; subst. cbn [map]. f_equal.
    - eapply value_unique; [exact Ha|apply settled_value; assumption].
    - apply IHF; assumption.
  Qed.

  (** only the buffers of some patches matter *)
  Lemma settled_agree : forall s s' (P : patch -> Prop), (forall x g, P x -> s' (x, buf x, g) = s (x, buf x, g)) ->
    (forall x g k l, P x -> rule x g = Some (k, l) -> Forall (fun a => P (fst a)) l) ->
    forall a, settled s a -> P (fst a) -> settled s' a.
  Proof.
    intros s s' P A C. fix IH 2. intros a H. destruct H as [x E|x g k l R E F]; cbn [fst]; intros Px.
    - constructor. rewrite A; assumption.
    - specialize (C _ _ _ _ Px R). econstructor; [exact R| |].
      + rewrite A by assumption. rewrite E. f_equal. clear E R F. induction C as [|a l Ha C IHC]; [reflexivity|]. cbn [map]. f_equal; [|exact IHC].
        unfold at_key. symmetry. apply A. exact Ha.
      + clear E R. induction F as [|a l Ha F IHF]; inversion C; subst; constructor; [apply IH; assumption|apply IHF; assumption].
  Qed.

  (** an assignment that, if it concerns a region in use, follows its rule; corners at the domain boundary are exempt *)
  Definition exempt (x : patch) (g : region) : Prop := match g with RCorner c => physical_corner w x c = true | _ => False end.
  Definition follows (a : assign) : Prop :=
    forall x g, target a = (x, buf x, g) -> ~ exempt x g -> g <> RInt /\
      forall k l, rule x g = Some (k, l) -> with_routine a = k /\ sources a = map at_key l.
  (** no rule reads an exempt region *)
  Lemma rule_reads : forall x g k l, rule x g = Some (k, l) -> Forall (fun a => match snd a with RCorner _ => False | _ => True end) l.
  Proof.
    assert (forall x f g k l, face_interp w geo rq x f g = Some (k, l) -> Forall (fun a => match snd a with RCorner _ => False | _ => True end) l) as FI.
    { intros x f g k l H. unfold face_interp in H. destruct (face_of w x f) as [| | |q sub rf]; try discriminate.
      destruct (level_of w q <? lowest rq); [discriminate|]. inversion H; subst. repeat (apply Forall_cons; [exact Logic.I|]). apply Forall_nil. }
    intros x g k l H. destruct g as [|f h|c]; cbn [Spec_Fill.rule] in H; [discriminate| |].
    - destruct (negb _); [discriminate|]. destruct (face_of w x f) as [|y rf|ys rf|q sub rf] eqn:E; try (eapply FI; exact H).
      + inversion H; subst. repeat (apply Forall_cons; [exact Logic.I|]). apply Forall_nil.
      + inversion H; subst. repeat (apply Forall_cons; [exact Logic.I|]). apply Forall_nil.
      + destruct (zget ys _); [|discriminate]. inversion H; subst. repeat (apply Forall_cons; [exact Logic.I|]). apply Forall_nil.
    - destruct (negb _); [discriminate|].
      destruct (edge w x (cfy c)); [inversion H; subst; repeat (apply Forall_cons; [exact Logic.I|]); apply Forall_nil|].
      destruct (edge w x (cfx c)); [inversion H; subst; repeat (apply Forall_cons; [exact Logic.I|]); apply Forall_nil|].
      destruct (hanging_face w geo x c); [eapply FI; exact H|]. destruct (diag w x c) as [[y c']|]; [|discriminate].
      destruct (level_of w y =? level_of w x); [inversion H; subst; repeat (apply Forall_cons; [exact Logic.I|]); apply Forall_nil|].
      destruct (level_of w x <? level_of w y); [inversion H; subst; repeat (apply Forall_cons; [exact Logic.I|]); apply Forall_nil|].
      destruct (level_of w y <? lowest rq); [discriminate|]. inversion H; subst. repeat (apply Forall_cons; [exact Logic.I|]). apply Forall_nil.
  Qed.

  Lemma step_settled : forall s a, follows a -> forall b, settled s b -> ~ exempt (fst b) (snd b) -> settled (step s a) b.
  Proof.
    intros s a Fa. fix IH 2. intros b H. destruct H as [x E|x g k l R E F]; cbn [fst snd]; intros Nx.
    - constructor. rewrite step_other; [exact E|]. intros T. destruct (Fa _ _ T) as [N _]; [exact Nx|]. congruence.
    - pose proof (rule_reads _ _ _ _ R) as RR.
      assert (Forall (settled (step s a)) l) as F'.
      { clear E R. induction F as [|b l Hb F IHF]; inversion RR; subst; constructor; [|apply IHF; assumption].
        apply IH; [assumption|]. destruct (snd b); cbn [exempt]; auto. }
      assert (map (fun a0 => step s a (at_key a0)) l = map (fun a0 => s (at_key a0)) l) as EM.
      { clear E R. induction F as [|b l Hb F IHF]; inversion RR; inversion F'; subst; [reflexivity|]. cbn [map]. f_equal; [|apply IHF; assumption].
        eapply value_unique; [apply (settled_value _ _ H5)|apply (settled_value _ _ Hb)]. }
      econstructor; [exact R| |exact F']. rewrite EM. unfold step at 1.
      destruct (key_eqb_spec (target a) (x, buf x, g)) as [T|T]; [|exact E].
      destruct (Fa _ _ T Nx) as [_ Fr]. destruct (Fr _ _ R) as [-> ->]. f_equal. rewrite map_map. reflexivity.
  Qed.
  Lemma run_settled : forall l, Forall follows l -> forall s b, settled s b -> ~ exempt (fst b) (snd b) -> settled (run l s) b.
  Proof.
    induction 1 as [|a l Ha F IH]; intros s b H N; [exact H|]. rewrite run_cons. apply IH; [|exact N]. apply step_settled; assumption.
  Qed.

  (** a region whose sources are right becomes right when it is written *)
  Lemma run_target : forall l, Forall follows l -> forall s x g k pre, rule x g = Some (k, pre) -> ~ exempt x g -> Forall (settled s) pre ->
    In (x, buf x, g) (map target l) \/ settled s (x, g) -> settled (run l s) (x, g).
  Proof.
    induction 1 as [|a l Ha F IH]; intros s x g k pre R Nx P [T|T].
    - destruct T.
    - exact T.
    - rewrite run_cons. pose proof (rule_reads _ _ _ _ R) as RR.
      assert (Forall (settled (step s a)) pre) as P'.
      { rewrite Forall_forall in *. intros b Hb. apply step_settled; [exact Ha|apply P; exact Hb|]. specialize (RR b Hb). cbn beta in RR.
        destruct (snd b); cbn [exempt]; auto. }
      apply (IH _ _ _ _ _ R Nx P'). destruct T as [T|T]; [|left; exact T]. right.
      econstructor; [exact R| |exact P']. rewrite <- T. rewrite step_same. destruct (Ha _ _ T Nx) as [_ Fr]. destruct (Fr _ _ R) as [-> ->].
      f_equal. rewrite map_map. apply map_ext_in. intros b Hb. rewrite Forall_forall in P, P'.
      eapply value_unique; [apply (settled_value _ _ (P b Hb))|apply (settled_value _ _ (P' b Hb))].
    - rewrite run_cons. pose proof (rule_reads _ _ _ _ R) as RR.
      apply (IH _ _ _ k pre R Nx).
      + rewrite Forall_forall in *. intros b Hb. apply step_settled; [exact Ha|apply P; exact Hb|]. specialize (RR b Hb). cbn beta in RR.
        destruct (snd b); cbn [exempt]; auto.
      + right. apply step_settled; assumption.
  Qed.

  (** ** Calls *)
  Variable r : Z.
  Notation assigns := (assigns w (place geo) r).
  Notation compile := (compile w (place geo) r).

  (** a call with the right arguments *)
  Definition right_call (o : op) : Prop :=
    match o with
    | CopyFace px pq f ti t => exists p y rf, gid w r px = Some p /\ gid w r pq = Some y /\ is_patch w p /\ 0 <= f < 4 /\ face_of w p f = Same y rf /\
        ti = buf p /\ t = face_data (face_trans geo p f rf) px pq
    | AvgFace px pq _ f k ti t | IntFace px pq _ f k ti t => exists p ys y rf, gid w r px = Some p /\ gid w r pq = Some y /\ is_patch w p /\ 0 <= f < 4 /\
        face_of w p f = Finer ys rf /\ zget ys k = Some y /\ ti = buf p /\ t = face_data (face_trans geo p f rf) px pq
    | CopyCorner px pq _ _ isb c ti t | AvgCorner px pq _ _ isb c ti t | IntCorner px pq _ _ isb c ti t =>
        exists p y c', gid w r px = Some p /\ gid w r pq = Some y /\ is_patch w p /\ 0 <= c < 4 /\ physical_corner w p c = false /\ diag w p c = Some (y, c') /\
        (match o with CopyCorner _ _ _ _ _ _ _ _ => level_of w y = level_of w p | _ => level_of w p < level_of w y end) /\
        isb = block_corner geo p c /\ ti = buf p /\ t = mkT (corner_trans w geo p c) px pq (corner_iface geo p c) c isb
    | Physical px _ _ faces ti => exists p, gid w r px = Some p /\ is_patch w p /\ faces = map (edge w p) (zrange 0 4) /\ (interp rq = false -> ti = false)
    | SyncF2C _ _ _ _ _ _ _ _ _ _ | SyncSame _ _ _ _ _ => False
    end.

  (** a list of calls can be made, follows the rules, and writes the regions K *)
  Definition fills (res : option (list op)) (K : patch -> region -> Prop) : Prop :=
    exists ops l, res = Some ops /\ compile ops = Some l /\ Forall follows l /\ (forall x g, K x g -> In (x, buf x, g) (map target l)) /\ Forall right_call ops.

  Lemma mapM_app : forall {A B} (f : A -> option B) l l', mapM f (l ++ l') = bind (mapM f l) (fun a => bind (mapM f l') (fun b => Some (a ++ b))).
  Proof.
    induction l as [|x l IH]; intros l'; cbn [mapM app bind]; [destruct (mapM f l'); reflexivity|].
    destruct (f x); cbn [bind]; [|reflexivity]. rewrite IH. destruct (mapM f l); cbn [bind]; [|reflexivity]. destruct (mapM f l'); reflexivity.
  Qed.
  Lemma compile_app : forall a b la lb, compile a = Some la -> compile b = Some lb -> compile (a ++ b) = Some (la ++ lb).
  Proof.
    intros a b la lb. unfold Model_FillExec.compile. rewrite mapM_app. destruct (mapM _ a); cbn [bind]; [|discriminate].
    destruct (mapM _ b); cbn [bind]; [|discriminate]. intros E E'. inversion E; inversion E'. rewrite concat_app. reflexivity.
  Qed.
  Lemma compile_one : forall o l, assigns o = Some l -> compile [o] = Some l.
  Proof. intros o l E. unfold Model_FillExec.compile. cbn [mapM]. rewrite E. cbn [bind concat]. rewrite app_nil_r. reflexivity. Qed.

  Lemma fills_weaken : forall res K (K' : patch -> region -> Prop), fills res K -> (forall x g, K' x g -> K x g) -> fills res K'.
  Proof. intros res K K' (ops & l & E1 & E2 & F & T & RC) W. exists ops, l. repeat apply conj; try assumption. intros x g H. apply T, W, H. Qed.
  Lemma fills_nil : forall K : patch -> region -> Prop, (forall x g, ~ K x g) -> fills (Some []) K.
  Proof. intros K N. exists [], []. repeat apply conj; try reflexivity; [constructor| |constructor]. intros x g H. destruct (N _ _ H). Qed.
  Lemma fills_one : forall o l (K : patch -> region -> Prop), right_call o -> assigns o = Some l -> Forall follows l -> (forall x g, K x g -> In (x, buf x, g) (map target l)) -> fills (Some [o]) K.
  Proof. intros o l K RC E F T. exists [o], l. repeat apply conj; try assumption; [reflexivity| |apply Forall_cons; [exact RC|apply Forall_nil]]. apply compile_one, E. Qed.
  Lemma fills_app : forall a b (K K' : patch -> region -> Prop), fills (Some a) K -> fills (Some b) K' -> fills (Some (a ++ b)) (fun x g => K x g \/ K' x g).
  Proof.
    intros a b K K' (ops & l & E1 & E2 & F & T & RC) (ops' & l' & E1' & E2' & F' & T' & RC'). injection E1 as <-. injection E1' as <-.
    exists (a ++ b), (l ++ l'). repeat apply conj; [reflexivity|apply compile_app; assumption|apply Forall_app; auto| |apply Forall_app; auto].
    intros x g H. rewrite map_app, in_app_iff. destruct H; [left; apply T|right; apply T']; assumption.
  Qed.
  Lemma fills_some : forall res K, fills res K -> exists ops, res = Some ops. Proof. intros res K (ops & l & E & _). exists ops. exact E. Qed.
  Lemma fills_andthen : forall a b (K K' : patch -> region -> Prop), fills a K -> fills b K' -> fills (andthen a b) (fun x g => K x g \/ K' x g).
  Proof.
    intros a b K K' A B. destruct (fills_some _ _ A) as [x Ex], (fills_some _ _ B) as [y Ey]. subst. unfold andthen. cbn [bind]. apply fills_app; assumption.
  Qed.
  Lemma fills_mapM : forall {A} (f : A -> option (list op)) (K : A -> patch -> region -> Prop) l, (forall a, In a l -> fills (f a) (K a)) ->
    fills (bind (mapM f l) (fun l => Some (concat l))) (fun x g => exists a, In a l /\ K a x g).
  Proof.
    intros A f K. induction l as [|a l IH]; intros H.
    - apply fills_nil. intros x g (a & [] & _).
    - assert (fills (f a) (K a)) as Ha by (apply H; left; reflexivity). specialize (IH (fun b Hb => H b (or_intror Hb))).
      destruct (fills_some _ _ Ha) as [x Ex], (fills_some _ _ IH) as [y Ey]. cbn [mapM]. rewrite Ex. cbn [bind].
      destruct (mapM f l) as [ll|] eqn:EL; cbn [bind] in *; [|discriminate]. cbn [concat].
      rewrite Ex in Ha. eapply fills_weaken; [apply (fills_app _ _ _ _ Ha IH)|].
      intros p g (b & [<-|Hb] & Kb); [left; exact Kb|right; exists b; auto].
  Qed.
  Lemma fills_exec : forall res K s, fills res K -> exists l, bind res (fun ops => exec w (place geo) r ops s) = Some (run l s) /\ Forall follows l /\
    forall x g, K x g -> In (x, buf x, g) (map target l).
  Proof.
    intros res K s (ops & l & -> & E & F & T & _). exists l. cbn [bind]. unfold exec. rewrite E. cbn [bind]. auto.
  Qed.
End Rules.

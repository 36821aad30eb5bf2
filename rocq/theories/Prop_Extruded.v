(** Property C63: extruded patches. *)
From Coq Require Import ZArith QArith Qminmax Qabs List Lia Lqa Bool Qfield.
From Verif Require Import Base_Float Model_Face Spec_Face Proof_Face Proof_Face1 Model_Grid Spec_Grid Proof_Grid Proof_Grid2
  Proof_Grid3 Proof_Face5 Proof_Grid4 Proof_Grid5 Prop_Grid Model_Corner Spec_Corner Proof_Corner1 Proof_Corner2
  Proof_Corner3 Proof_Corner4 Prop_Corner Model_Extruded Spec_Extruded Proof_Extruded.
Import ListNotations.
Open Scope Z_scope.

Lemma holds_lay : forall d q f k, holds3 d q f -> 1 <= k <= mz d -> holds (flat d) (lay k q) (in_layer k f).
Proof. intros d q f k H Hk i j mq Hi. unfold lay, in_layer. now apply H. Qed.
Lemma holds_layer_lay : forall d q f k, holds_sides d q f -> 1 <= k <= mz d -> holds_layer (flat d) (lay k q) (in_layer k f).
Proof. intros d q f k H Hk i j mq Hm Hi. unfold lay, in_layer. now apply H. Qed.
Lemma vol_lay : forall d a v k, vol_holds d a v -> 1 <= k <= mz d -> area_holds (flat d) (vlay k a) (vol_layer k v).
Proof. intros d a v k H Hk i j Hi Hj. unfold vlay, vol_layer. now apply H. Qed.
Lemma at_lay : forall k q' s' p mq x, same k q' s' -> at_cell s' (at3 p mq) x -> at_cell3 q' (at4 p k mq) x.
Proof. intros k q' s' p mq x R (v & E & H). exists v. split; [|exact H]. unfold at4. rewrite R. exact E. Qed.

(** ** Ghost cells *)

(** A face neighbor of the same size: in every layer, the ghost cells get the values of the cells of the neighbor at the
    same place in the same layer.  Nothing else changes; in particular not the ghost cells above and below. *)
Theorem C63_copy_face : forall rnd, rounding rnd -> forall d m ip op f nf o ft qneighbor fn qthis,
  same_size f nf o ip op ft -> square (flat d) m (level ip) -> 0 <= mbc (flat d) <= m -> 1 <= mz d -> holds3 d qneighbor fn ->
  exists q', copy_face3 rnd d qthis qneighbor f (mkT ip op ft) = Some q' /\
    (forall dep t k mq, 1 <= dep <= mbc (flat d) -> 1 <= t <= m -> 1 <= k <= mz d -> 1 <= mq <= meqn (flat d) ->
       let p := inner_cell nf m dep (flip o m t) in
       q' (at4 (ghost_cell f m dep t) k mq) = Some (fn (fst p) (snd p) k mq)) /\
    (forall c, (forall dep t k mq, 1 <= dep <= mbc (flat d) -> 1 <= t <= m -> 1 <= k <= mz d -> 1 <= mq <= meqn (flat d) ->
                  c <> at4 (ghost_cell f m dep t) k mq) -> q' c = qthis c).
Proof.
  intros rnd Hr d m ip op f nf o ft qn fn q HS HQ Hb Hz Hh.
  destruct (steps_apply d (fun q => copy_face3 rnd d q qn f (mkT ip op ft))
    (fun k s => copy_face rnd (flat d) s (lay k qn) f (mkT ip op ft)) q
    (fun k s' => (forall dep t mq, 1 <= dep <= mbc (flat d) -> 1 <= t <= m -> 1 <= mq <= meqn (flat d) ->
       let p := inner_cell nf m dep (flip o m t) in
       s' (at3 (ghost_cell f m dep t) mq) = Some (in_layer k fn (fst p) (snd p) mq)) /\
    (forall c, (forall dep t mq, 1 <= dep <= mbc (flat d) -> 1 <= t <= m -> 1 <= mq <= meqn (flat d) ->
                  c <> at3 (ghost_cell f m dep t) mq) -> s' c = lay k q c))) as (q' & E & A & B).
  - apply copy_face_steps; lia.
  - intros k Hk. exact (C22_copy_face rnd Hr (flat d) m ip op f nf o ft (lay k qn) (in_layer k fn) (lay k q) HS HQ Hb (holds_lay d qn fn k Hh Hk)).
  - exists q'. split; [exact E|]. split.
    + intros dep t k mq Hd Ht Hk Hq p. destruct (A k Hk) as (s' & _ & (P1 & _) & R). unfold at4. rewrite R. exact (P1 dep t mq Hd Ht Hq).
    + intros [[[i j] k] mq] N. destruct (Z_le_dec 1 k) as [K1|K1]; [|apply B; lia]. destruct (Z_le_dec k (mz d)) as [K2|K2]; [|apply B; lia].
      destruct (A k (conj K1 K2)) as (s' & _ & (_ & P2) & R). rewrite R. rewrite P2; [reflexivity|].
      intros dep t mq' Hd Ht Hq X. apply (N dep t k mq' Hd Ht (conj K1 K2) Hq). unfold at3 in X. unfold at4. congruence.
Qed.
Print Assumptions C63_copy_face.

(** A corner neighbor of the same size. *)
Theorem C63_copy_corner : forall rnd, rounding rnd ->
  forall d m f nf o u ip op c qn fn q,
  touches_corner f nf o u ip op c -> level ip = level op -> square (flat d) m (level ip) -> 0 <= mbc (flat d) <= m -> 1 <= mz d -> holds3 d qn fn ->
  exists q', copy_corner3 rnd d q qn (corner_on f u) c = Some q' /\
    (forall a b k mq, 1 <= a <= mbc (flat d) -> 1 <= b <= mbc (flat d) -> 1 <= k <= mz d -> 1 <= mq <= meqn (flat d) ->
       let p := inner_cell nf m a (flip o m (from_end (negb u) m b)) in
       q' (at4 (ghost_cell f m a (past u m b)) k mq) = Some (fn (fst p) (snd p) k mq)) /\
    (forall x, (forall a b k mq, 1 <= a <= mbc (flat d) -> 1 <= b <= mbc (flat d) -> 1 <= k <= mz d -> 1 <= mq <= meqn (flat d) ->
       x <> at4 (ghost_cell f m a (past u m b)) k mq) -> q' x = q x).
Proof.
  intros rnd Hr d m f nf o u ip op c qn fn q HS HL HQ Hb Hz Hh.
  destruct (steps_apply d (fun q => copy_corner3 rnd d q qn (corner_on f u) c)
    (fun k s => copy_corner rnd (flat d) s (lay k qn) (corner_on f u) c) q
    (fun k s' => (forall a b mq, 1 <= a <= mbc (flat d) -> 1 <= b <= mbc (flat d) -> 1 <= mq <= meqn (flat d) ->
       let p := inner_cell nf m a (flip o m (from_end (negb u) m b)) in
       s' (at3 (ghost_cell f m a (past u m b)) mq) = Some (in_layer k fn (fst p) (snd p) mq)) /\
    (forall x, (forall a b mq, 1 <= a <= mbc (flat d) -> 1 <= b <= mbc (flat d) -> 1 <= mq <= meqn (flat d) ->
       x <> at3 (ghost_cell f m a (past u m b)) mq) -> s' x = lay k q x))) as (q' & E & A & B).
  - apply copy_corner_steps; lia.
  - intros k Hk. exact (C54_copy_corner rnd Hr (flat d) m f nf o u ip op c (lay k qn) (in_layer k fn) (lay k q) HS HL HQ Hb (holds_lay d qn fn k Hh Hk)).
  - exists q'. split; [exact E|]. split.
    + intros a b k mq Ha Hb' Hk Hq p. destruct (A k Hk) as (s' & _ & (P1 & _) & R). unfold at4. rewrite R. exact (P1 a b mq Ha Hb' Hq).
    + intros [[[i j] k] mq] N. destruct (Z_le_dec 1 k) as [K1|K1]; [|apply B; lia]. destruct (Z_le_dec k (mz d)) as [K2|K2]; [|apply B; lia].
      destruct (A k (conj K1 K2)) as (s' & _ & (_ & P2) & R). rewrite R. rewrite P2; [reflexivity|].
      intros a b mq' Ha Hb' Hq X. apply (N a b k mq' Ha Hb' (conj K1 K2) Hq). unfold at3 in X. unfold at4. congruence.
Qed.
Print Assumptions C63_copy_corner.

(** A face neighbor of half the size: each coarse ghost cell gets the mean of the four fine cells that lie in it in the
    same layer (on mapped grids, weighted by volume). *)
Theorem C63_average_face : forall rnd, rounding rnd ->
  forall d m ip op f nf o pos ft manifold qfine ff volfine vf qcoarse,
  half_size f nf o pos ip op ft -> square (flat d) m (level op) -> Z.Even m -> 0 <= mbc (flat d) -> 2 * mbc (flat d) <= m -> 1 <= mz d ->
  holds3 d qfine ff -> (manifold = true -> vol_holds d volfine vf) ->
  exists q', average_face3 rnd d qcoarse qfine volfine (f / 2) f 2 manifold (mkT ip op ft) = Some q' /\
    (forall dep t k mq, 1 <= dep <= mbc (flat d) -> 1 <= t <= m -> 1 <= k <= mz d -> 1 <= mq <= meqn (flat d) -> in_half m pos t ->
       at_cell3 q' (at4 (ghost_cell f m dep t) k mq)
         (if manifold then
            four_behind nf o pos m dep t (fun p => vf (fst p) (snd p) k * ff (fst p) (snd p) k mq) /
            four_behind nf o pos m dep t (fun p => vf (fst p) (snd p) k)
          else four_behind nf o pos m dep t (fun p => ff (fst p) (snd p) k mq) / 4)%Q) /\
    (forall c, (forall dep t k mq, 1 <= dep <= mbc (flat d) -> 1 <= t <= m -> 1 <= k <= mz d -> 1 <= mq <= meqn (flat d) -> in_half m pos t ->
                  c <> at4 (ghost_cell f m dep t) k mq) -> q' c = qcoarse c).
Proof.
  intros rnd Hr d m ip op f nf o pos ft manifold qf ff volf vf q HS HQ He Hb0 Hb Hz Hh Hv.
  destruct (steps_apply d (fun q => average_face3 rnd d q qf volf (f / 2) f 2 manifold (mkT ip op ft))
    (fun k s => average_face rnd (flat d) s (lay k qf) (vlay k volf) (f / 2) f 2 manifold (mkT ip op ft)) q
    (fun k s' => (forall dep t mq, 1 <= dep <= mbc (flat d) -> 1 <= t <= m -> 1 <= mq <= meqn (flat d) -> in_half m pos t ->
       at_cell s' (at3 (ghost_cell f m dep t) mq)
         (if manifold then
            four_behind nf o pos m dep t (fun p => vol_layer k vf (fst p) (snd p) * in_layer k ff (fst p) (snd p) mq) /
            four_behind nf o pos m dep t (fun p => vol_layer k vf (fst p) (snd p))
          else four_behind nf o pos m dep t (fun p => in_layer k ff (fst p) (snd p) mq) / 4)%Q) /\
    (forall c, (forall dep t mq, 1 <= dep <= mbc (flat d) -> 1 <= t <= m -> 1 <= mq <= meqn (flat d) -> in_half m pos t ->
                  c <> at3 (ghost_cell f m dep t) mq) -> s' c = lay k q c))) as (q' & E & A & B).
  - apply average_face_steps; lia.
  - intros k Hk. exact (C23_average_face rnd Hr (flat d) m ip op f nf o pos ft manifold (lay k qf) (in_layer k ff) (vlay k volf) (vol_layer k vf) (lay k q)
      HS HQ He Hb0 Hb (holds_lay d qf ff k Hh Hk) (fun M => vol_lay d volf vf k (Hv M) Hk)).
  - exists q'. split; [exact E|]. split.
    + intros dep t k mq Hd Ht Hk Hq Hp. destruct (A k Hk) as (s' & _ & (P1 & _) & R). exact (at_lay k q' s' _ mq _ R (P1 dep t mq Hd Ht Hq Hp)).
    + intros [[[i j] k] mq] N. destruct (Z_le_dec 1 k) as [K1|K1]; [|apply B; lia]. destruct (Z_le_dec k (mz d)) as [K2|K2]; [|apply B; lia].
      destruct (A k (conj K1 K2)) as (s' & _ & (_ & P2) & R). rewrite R. rewrite P2; [reflexivity|].
      intros dep t mq' Hd Ht Hq Hp X. apply (N dep t k mq' Hd Ht (conj K1 K2) Hq Hp). unfold at3 in X. unfold at4. congruence.
Qed.
Print Assumptions C63_average_face.

Lemma average_corner_mq_spec : forall rnd, rounding rnd ->
  forall d m f nf o u ip op c manifold qfine ff areafine kf q,
  touches_corner f nf o u ip op c -> level op = level ip + 1 -> square d m (level op) ->
  0 <= mbc d -> 2 * mbc d <= m -> holds d qfine ff -> (manifold = true -> area_holds d areafine kf) ->
  exists q', average_corner_mq rnd d q qfine areafine 2 manifold (corner_on f u) c = Some q' /\
    (forall a b mq, 1 <= a <= mbc d -> 1 <= b <= mbc d -> 1 <= mq <= meqn d ->
       at_cell q' (at3 (ghost_cell f m a (past u m b)) mq)
         (if manifold then four_at_corner nf o u m a b (fun p => kf (fst p) (snd p) * ff (fst p) (snd p) mq) /
                           four_at_corner nf o u m a b (fun p => kf (fst p) (snd p))
          else four_at_corner nf o u m a b (fun p => ff (fst p) (snd p) mq) / 4)%Q) /\
    (forall x, (forall a b mq, 1 <= a <= mbc d -> 1 <= b <= mbc d -> 1 <= mq <= meqn d ->
       x <> at3 (ghost_cell f m a (past u m b)) mq) -> q' x = q x).
Proof.
  intros rnd Hrnd d m f nf o u ip op c manifold qfine ff areafine kf q HT HL HQ Hb0 Hb Hh Hk.
  pose proof HQ as (Hx & Hy & Hm & HR). pose proof (proj1 HT) as Hf. pose proof (proj1 (proj2 HT)) as Hn.
  destruct (average_corner_mq_ok rnd Hrnd d m (conj Hx Hy) Hm f nf o u ip op c HT Hf Hn HL HR qfine ff areafine kf manifold Hh Hk Hb0 Hb q q)
    as (q' & E & A & B & _); [intros x []|].
  exists q'. split; [exact E|]. split.
  - intros a b mq Ha Hb' Hq. unfold at_cell. rewrite A by (exists a, b, mq; tauto).
    unfold cavg_arr. eexists. split; [reflexivity|]. unfold at3. cbn [fst snd]. rewrite <- surjective_pairing.
    unfold cavg. destruct manifold.
    + rewrite <- !(four_of_fimage m f nf o u a b _ Hf). unfold cqv, ckv.
      apply Qmult_comp; [ring|]. apply Qinv_comp. ring.
    + rewrite <- !(four_of_fimage m f nf o u a b _ Hf). unfold cqv. apply Qmult_comp; [ring|reflexivity].
  - intros x Hx'. apply B. intros (a & b & mq & Ha & Hb' & Hq & Ex). now apply (Hx' a b mq).
Qed.

(** A corner neighbor of half the size. *)
Theorem C63_average_corner : forall rnd, rounding rnd ->
  forall d m f nf o u ip op c manifold qfine ff volfine vf q,
  touches_corner f nf o u ip op c -> level op = level ip + 1 -> square (flat d) m (level op) ->
  0 <= mbc (flat d) -> 2 * mbc (flat d) <= m -> 1 <= mz d -> holds3 d qfine ff -> (manifold = true -> vol_holds d volfine vf) ->
  exists q', average_corner3 rnd d q qfine volfine 2 manifold (corner_on f u) c = Some q' /\
    (forall a b k mq, 1 <= a <= mbc (flat d) -> 1 <= b <= mbc (flat d) -> 1 <= k <= mz d -> 1 <= mq <= meqn (flat d) ->
       at_cell3 q' (at4 (ghost_cell f m a (past u m b)) k mq)
         (if manifold then four_at_corner nf o u m a b (fun p => vf (fst p) (snd p) k * ff (fst p) (snd p) k mq) /
                           four_at_corner nf o u m a b (fun p => vf (fst p) (snd p) k)
          else four_at_corner nf o u m a b (fun p => ff (fst p) (snd p) k mq) / 4)%Q) /\
    (forall x, (forall a b k mq, 1 <= a <= mbc (flat d) -> 1 <= b <= mbc (flat d) -> 1 <= k <= mz d -> 1 <= mq <= meqn (flat d) ->
       x <> at4 (ghost_cell f m a (past u m b)) k mq) -> q' x = q x).
Proof.
  intros rnd Hr d m f nf o u ip op c manifold qf ff volf vf q HS HL HQ Hb0 Hb Hz Hh Hv.
  destruct (steps_apply d (fun q => average_corner3 rnd d q qf volf 2 manifold (corner_on f u) c)
    (fun k s => average_corner_mq rnd (flat d) s (lay k qf) (vlay k volf) 2 manifold (corner_on f u) c) q
    (fun k s' => (forall a b mq, 1 <= a <= mbc (flat d) -> 1 <= b <= mbc (flat d) -> 1 <= mq <= meqn (flat d) ->
       at_cell s' (at3 (ghost_cell f m a (past u m b)) mq)
         (if manifold then four_at_corner nf o u m a b (fun p => vol_layer k vf (fst p) (snd p) * in_layer k ff (fst p) (snd p) mq) /
                           four_at_corner nf o u m a b (fun p => vol_layer k vf (fst p) (snd p))
          else four_at_corner nf o u m a b (fun p => in_layer k ff (fst p) (snd p) mq) / 4)%Q) /\
    (forall x, (forall a b mq, 1 <= a <= mbc (flat d) -> 1 <= b <= mbc (flat d) -> 1 <= mq <= meqn (flat d) ->
       x <> at3 (ghost_cell f m a (past u m b)) mq) -> s' x = lay k q x))) as (q' & E & A & B).
  - apply average_corner_steps; lia.
  - intros k Hk. exact (average_corner_mq_spec rnd Hr (flat d) m f nf o u ip op c manifold (lay k qf) (in_layer k ff) (vlay k volf) (vol_layer k vf) (lay k q)
      HS HL HQ Hb0 Hb (holds_lay d qf ff k Hh Hk) (fun M => vol_lay d volf vf k (Hv M) Hk)).
  - exists q'. split; [exact E|]. split.
    + intros a b k mq Ha Hb' Hk Hq. destruct (A k Hk) as (s' & _ & (P1 & _) & R). exact (at_lay k q' s' _ mq _ R (P1 a b mq Ha Hb' Hq)).
    + intros [[[i j] k] mq] N. destruct (Z_le_dec 1 k) as [K1|K1]; [|apply B; lia]. destruct (Z_le_dec k (mz d)) as [K2|K2]; [|apply B; lia].
      destruct (A k (conj K1 K2)) as (s' & _ & (_ & P2) & R). rewrite R. rewrite P2; [reflexivity|].
      intros a b mq' Ha Hb' Hq X. apply (N a b k mq' Ha Hb' (conj K1 K2) Hq). unfold at3 in X. unfold at4. congruence.
Qed.
Print Assumptions C63_average_corner.

(** values of layer k behind face f, as in C53 *)
Definition behind3 (f m : Z) (F : data3) (k mq n t : Z) : Q :=
  let p := inner_cell f m n t in F (fst p) (snd p) k mq.

(** A face neighbor of twice the size: the ghost cells of the fine patch beyond its face get, in every layer, the
    limited linear reconstruction from that layer of the coarse data; nothing is interpolated between layers. *)
Theorem C63_interpolate_face : forall rnd, rounding rnd ->
  forall d m f nf o pos ip op ft qcoarse F qfine,
  half_size f nf o pos ip op ft -> square (flat d) m (level op) -> 2 <= mbc (flat d) <= m -> 1 <= mz d -> holds_sides d qcoarse F ->
  exists q', interpolate_face3 rnd d qcoarse qfine (f / 2) f 2 (mkT ip op ft) = Some q' /\
    (forall e s k mq, 1 <= e <= 2 * (mbc (flat d) / 2) -> 1 <= s <= m -> 1 <= k <= mz d -> 1 <= mq <= meqn (flat d) ->
       at_cell3 q' (at4 (ghost_cell nf m e (flip o m s)) k mq)
         (recon (behind3 f m F k mq) ((e + 1) / 2) ((s + pos * m + 1) / 2) ((e + 1) mod 2) ((s + pos * m + 1) mod 2))) /\
    (forall c, (forall l t a b k mq, 1 <= l <= mbc (flat d) / 2 -> next_to (flat d) m pos t -> 0 <= a <= 1 -> 0 <= b <= 1 ->
       1 <= k <= mz d -> 1 <= mq <= meqn (flat d) -> c <> at4 (fine_quarter nf o pos m l t a b) k mq) -> q' c = qfine c).
Proof.
  intros rnd Hr d m f nf o pos ip op ft qc F q HS HQ Hb Hz Hh.
  destruct (steps_apply d (fun q => interpolate_face3 rnd d qc q (f / 2) f 2 (mkT ip op ft))
    (fun k s => interpolate_face rnd (flat d) (lay k qc) s (f / 2) f 2 (mkT ip op ft)) q
    (fun k s' => (forall e s mq, 1 <= e <= 2 * (mbc (flat d) / 2) -> 1 <= s <= m -> 1 <= mq <= meqn (flat d) ->
      at_cell s' (at3 (ghost_cell nf m e (flip o m s)) mq)
        (recon (behind f m (in_layer k F) mq) ((e + 1) / 2) ((s + pos * m + 1) / 2) ((e + 1) mod 2) ((s + pos * m + 1) mod 2))) /\
    (forall c, (forall l t a b mq, 1 <= l <= mbc (flat d) / 2 -> next_to (flat d) m pos t -> 0 <= a <= 1 -> 0 <= b <= 1 ->
       1 <= mq <= meqn (flat d) -> c <> at3 (fine_quarter nf o pos m l t a b) mq) -> s' c = lay k q c))) as (q' & E & A & B).
  - apply interpolate_face_steps; lia.
  - intros k Hk. pose proof (holds_layer_lay d qc F k Hh Hk) as HF.
    destruct (C53_interpolate_face rnd Hr (flat d) m f nf o pos ip op ft (lay k qc) (in_layer k F) (lay k q) HS HQ Hb HF) as (s1 & E1 & _ & O1).
    destruct (C53_filled rnd Hr (flat d) m f nf o pos ip op ft (lay k qc) (in_layer k F) (lay k q) HS HQ Hb HF) as (s2 & E2 & A2).
    assert (s1 = s2) by congruence. subst s2. exists s1. split; [exact E1|]. split; [exact A2|exact O1].
  - exists q'. split; [exact E|]. split.
    + intros e s k mq He Hs Hk Hq. destruct (A k Hk) as (s' & _ & (P1 & _) & R). exact (at_lay k q' s' _ mq _ R (P1 e s mq He Hs Hq)).
    + intros [[[i j] k] mq] N. destruct (Z_le_dec 1 k) as [K1|K1]; [|apply B; lia]. destruct (Z_le_dec k (mz d)) as [K2|K2]; [|apply B; lia].
      destruct (A k (conj K1 K2)) as (s' & _ & (_ & P2) & R). rewrite R. rewrite P2; [reflexivity|].
      intros l t a b mq' Hl Ht Ha Hb' Hq X. apply (N l t a b k mq' Hl Ht Ha Hb' (conj K1 K2) Hq). unfold at3 in X. unfold at4. congruence.
Qed.
Print Assumptions C63_interpolate_face.

(** A corner neighbor of twice the size. *)
Theorem C63_interpolate_corner : forall rnd, rounding rnd ->
  forall d m f nf o u ip op c qcoarse F qfine,
  touches_corner f nf o u ip op c -> level op = level ip + 1 -> square (flat d) m (level op) -> 2 <= mbc (flat d) <= m -> 1 <= mz d ->
  (is_block_corner c = true -> 2 ^ level op * m <= 2 ^ 29) -> holds_sides d qcoarse F ->
  exists q', interpolate_corner3 rnd d qcoarse qfine 2 (corner_on f u) c = Some q' /\
    (forall n l r s k mq, 1 <= n <= mbc (flat d) / 2 -> 1 <= l <= mbc (flat d) / 2 -> 0 <= r <= 1 -> 0 <= s <= 1 ->
       1 <= k <= mz d -> 1 <= mq <= meqn (flat d) ->
       at_cell3 q' (at4 (ghost_cell nf m (2 * n - 1 + r) (flip o m (past (negb u) m (2 * l - 1 + s)))) k mq)
         (recon (behind3 f m F k mq) n (from_end u m l) r (if u then 1 - s else s))) /\
    (forall x, (forall n l r s k mq, 1 <= n <= mbc (flat d) / 2 -> 1 <= l <= mbc (flat d) / 2 -> 0 <= r <= 1 -> 0 <= s <= 1 ->
       1 <= k <= mz d -> 1 <= mq <= meqn (flat d) ->
       x <> at4 (ghost_cell nf m (2 * n - 1 + r) (flip o m (past (negb u) m (2 * l - 1 + s)))) k mq) -> q' x = qfine x).
Proof.
  intros rnd Hr d m f nf o u ip op c qc F q HS HL HQ Hb Hz HB Hh.
  destruct (steps_apply d (fun q => interpolate_corner3 rnd d qc q 2 (corner_on f u) c)
    (fun k s => interpolate_corner rnd (flat d) (lay k qc) s 2 (corner_on f u) c) q
    (fun k s' => (forall n l r s mq, 1 <= n <= mbc (flat d) / 2 -> 1 <= l <= mbc (flat d) / 2 -> 0 <= r <= 1 -> 0 <= s <= 1 -> 1 <= mq <= meqn (flat d) ->
       at_cell s' (at3 (ghost_cell nf m (2 * n - 1 + r) (flip o m (past (negb u) m (2 * l - 1 + s)))) mq)
         (recon (behind f m (in_layer k F) mq) n (from_end u m l) r (if u then 1 - s else s))) /\
    (forall x, (forall n l r s mq, 1 <= n <= mbc (flat d) / 2 -> 1 <= l <= mbc (flat d) / 2 -> 0 <= r <= 1 -> 0 <= s <= 1 -> 1 <= mq <= meqn (flat d) ->
       x <> at3 (ghost_cell nf m (2 * n - 1 + r) (flip o m (past (negb u) m (2 * l - 1 + s)))) mq) -> s' x = lay k q x))) as (q' & E & A & B).
  - apply interpolate_corner_steps; lia.
  - intros k Hk. exact (C54_interpolate_corner rnd Hr (flat d) m f nf o u ip op c (lay k qc) (in_layer k F) (lay k q) HS HL HQ Hb HB
      (holds_layer_lay d qc F k Hh Hk)).
  - exists q'. split; [exact E|]. split.
    + intros n l r s k mq Hn Hl Hr' Hs Hk Hq. destruct (A k Hk) as (s' & _ & (P1 & _) & R). exact (at_lay k q' s' _ mq _ R (P1 n l r s mq Hn Hl Hr' Hs Hq)).
    + intros [[[i j] k] mq] N. destruct (Z_le_dec 1 k) as [K1|K1]; [|apply B; lia]. destruct (Z_le_dec k (mz d)) as [K2|K2]; [|apply B; lia].
      destruct (A k (conj K1 K2)) as (s' & _ & (_ & P2) & R). rewrite R. rewrite P2; [reflexivity|].
      intros n l r s mq' Hn Hl Hr' Hs Hq X. apply (N n l r s k mq' Hn Hl Hr' Hs (conj K1 K2) Hq). unfold at3 in X. unfold at4. congruence.
Qed.
Print Assumptions C63_interpolate_corner.

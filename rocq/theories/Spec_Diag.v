(** Vocabulary for diagnostics, independent of the routines. *)
From Coq Require Import ZArith QArith Qminmax Qabs List Lia Bool.
From Verif Require Import Base_Float Model_Face Model_Grid Spec_Grid Model_Diag.   (* types only *)
Import ListNotations.
Open Scope Z_scope.

(** Sum over patches. *)
Definition over (l : list pdata) (f : pdata -> Q) : Q := fold_right (fun p s => (f p + s)%Q) 0%Q l.

Section Patches.
  Variable d : dims.
  Variable map_used : bool.
  (** what a patch holds: areas and solution; the error computed by the user's routine *)
  Variable K : pdata -> areas.
  Variable F E : pdata -> data.

  (** Area of a cell, area of a patch, amount of a component m, integral of |error| and of its square. *)
  Definition cell_area (p : pdata) (i j : Z) : Q := if map_used then K p i j else (p_dx p * p_dy p)%Q.
  Definition size_of (p : pdata) : Q := total d (fun i j => cell_area p i j).
  Definition mass_of (m : Z) (p : pdata) : Q := total d (fun i j => (F p i j m * cell_area p i j)%Q).
  Definition err1_of (m : Z) (p : pdata) : Q := total d (fun i j => (Qabs (E p i j m) * cell_area p i j)%Q).
  Definition err2_of (m : Z) (p : pdata) : Q := total d (fun i j => (E p i j m * E p i j m * cell_area p i j)%Q).
  (** The largest |error| in the cells of some patches. *)
  Definition largest (l : list pdata) (m : Z) (v : Q) : Prop :=
    (forall p i j, In p l -> 1 <= i <= mx d -> 1 <= j <= my d -> (Qabs (E p i j m) <= v)%Q) /\
    ((v == 0)%Q \/ exists p i j, In p l /\ 1 <= i <= mx d /\ 1 <= j <= my d /\ (v == Qabs (E p i j m))%Q).

  (** The report is right for these patches: for equation m = 1, ..., meqn. *)
  Definition right_norms (l : list pdata) (r : report) : Prop :=
    length (norms r) = Z.to_nat (meqn d) /\
    forall m, 1 <= m <= meqn d -> exists a b c, nth_error (norms r) (Z.to_nat (m - 1)) = Some (a, b, c) /\
      (a == over l (err1_of m) / over l size_of)%Q /\ (b == over l (err2_of m) / over l size_of)%Q /\ largest l m c.
  (** the second number is the distance to the sum over the patches of the initial time *)
  Definition right_sums (l0 l : list pdata) (r : report) : Prop :=
    length (sums r) = Z.to_nat (meqn d) /\
    forall m, 1 <= m <= meqn d -> exists s diff, nth_error (sums r) (Z.to_nat (m - 1)) = Some (s, diff) /\
      (s == over l (mass_of m))%Q /\ (diff == Qabs (over l (mass_of m) - over l0 (mass_of m)))%Q.

  (** The arrays of a patch hold what they should. *)
  Definition patch_ok (compute_error : bool) (patch_error : option (pdata -> arr)) (p : pdata) : Prop :=
    (map_used = true -> area_holds d (p_area p) (K p)) /\ holds d (p_q p) (F p) /\
    (compute_error = true -> exists f, patch_error = Some f /\ holds d (f p) (E p)).
End Patches.

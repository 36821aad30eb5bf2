(** Text frames: how a reader of the files sees them. *)
From Coq Require Import String Ascii DecimalString DecimalN.
From Coq Require Import ZArith QArith Qabs List Bool.
From Verif Require Import Model_Ascii.
Import ListNotations.

(** *** A reader of the Clawpack text format, which knows nothing of how the files are written *)
Fixpoint skip_blanks (s : string) : string :=
  match s with String " "%char s' => skip_blanks s' | _ => s end.
Definition read_number (s : string) : option N := option_map N.of_uint (NilZero.uint_of_string (skip_blanks s)).
(** an integer in the first five columns, followed by its label *)
Definition read_int (label : string) (l : line) : option N :=
  match l with
  | [Txt s] => if String.eqb (substring 5 (String.length s - 5) s) label then read_number (substring 0 5 s) else None
  | _ => None
  end.
Definition read_real (label : string) (l : line) : option Q :=
  match l with [Num _ _ x; Txt s] => if String.eqb s label then Some x else None | _ => None end.
Fixpoint read_values (l : line) : option (list Q) :=
  match l with
  | [] => Some []
  | Num _ _ x :: l' => option_map (cons x) (read_values l')
  | _ => None
  end.
Definition is_blank (l : line) : bool :=
  match l with [] => true | [Txt s] => match skip_blanks s with EmptyString => true | _ => false end | _ => false end.

(** a grid of the frame: numbers, position and the values, by rows of cells *)
Record grid := mkG { g_number : N; g_level : N; g_block : N; g_rank : N; g_mx : N; g_my : N;
                     g_xlow : Q; g_ylow : Q; g_dx : Q; g_dy : Q; g_rows : list (list (list Q)) }.

Fixpoint read_cells (n : nat) (ls : list line) : option (list (list Q) * list line) :=
  match n with
  | O => Some ([], ls)
  | S n' => match ls with
            | [] => None
            | l :: ls' => match read_values l, read_cells n' ls' with
                          | Some v, Some (vs, r) => Some (v :: vs, r)
                          | _, _ => None
                          end
            end
  end.
Fixpoint read_rows (n mx : nat) (ls : list line) : option (list (list (list Q)) * list line) :=
  match n with
  | O => Some ([], ls)
  | S n' => match read_cells mx ls with
            | Some (row, b :: r) => if is_blank b
                                    then match read_rows n' mx r with Some (rows, r') => Some (row :: rows, r') | None => None end
                                    else None
            | _ => None
            end
  end.
Definition read_grid (ls : list line) : option (grid * list line) :=
  match ls with
  | l1 :: l2 :: l3 :: l4 :: l5 :: l6 :: l7 :: l8 :: l9 :: l10 :: l11 :: rest =>
      match read_int "                 grid_number" l1, read_int "                 AMR_level" l2,
            read_int "                 block_number" l3, read_int "                 mpi_rank" l4,
            read_int "                 mx" l5, read_int "                 my" l6,
            read_real "    xlow" l7, read_real "    ylow" l8, read_real "    dx" l9, read_real "    dy" l10, is_blank l11 with
      | Some n, Some lv, Some b, Some r, Some mx, Some my, Some xl, Some yl, Some dx, Some dy, true =>
          match read_rows (N.to_nat my) (N.to_nat mx) rest with
          | Some (rows, rest') => Some (mkG n lv b r mx my xl yl dx dy rows, rest')
          | None => None
          end
      | _, _, _, _, _, _, _, _, _, _, _ => None
      end
  | _ => None
  end.
Fixpoint read_grids (n : nat) (ls : list line) : option (list grid * list line) :=
  match n with
  | O => Some ([], ls)
  | S n' => match read_grid ls with
            | Some (g, r) => match read_grids n' r with Some (gs, r') => Some (g :: gs, r') | None => None end
            | None => None
            end
  end.
Record frame := mkF { f_time : Q; f_meqn : N; f_maux : N; f_grids : list grid }.
(** the file fort.t tells the number of grids, the file fort.q must hold them and nothing else *)
Definition read_frame (tfile qfile : list line) : option frame :=
  match tfile with
  | [l1; l2; l3; l4; l5] =>
      match read_real "    time" l1, read_int "                 meqn" l2, read_int "                 ngrids" l3,
            read_int "                 num_aux" l4, read_int "                 num_dim" l5 with
      | Some t, Some meqn, Some n, Some maux, Some 2%N =>
          match read_grids (N.to_nat n) qfile with
          | Some (gs, []) => Some (mkF t meqn maux gs)
          | _ => None
          end
      | _, _, _, _, _ => None
      end
  | _ => None
  end.

(** *** What a frame should be *)
(** a number as it appears in the file: below 1e-99 it is zero *)
Definition shown (x : Q) : Q := if Qlt_bool (Qabs x) tiny then 0%Q else x.
(** the patches of the forest in their order, each with the process that owns it and its block *)
Definition of_proc (rank : nat) (d : proc) : list (nat * (nat * apatch)) :=
  concat (map (fun bb => map (fun p => (rank, (fst bb, p))) (snd bb)) (combine (seq 0 (length (d_blocks d))) (d_blocks d))).
Definition forest (ds : list proc) : list (nat * (nat * apatch)) :=
  concat (map (fun rd => of_proc (fst rd) (snd rd)) (combine (seq 0 (length ds)) ds)).
(** the counts the processes hold are right *)
Definition patches (d : proc) : nat := length (concat (d_blocks d)).
Definition consistent (ds : list proc) : Prop :=
  forall r d, nth_error ds r = Some d ->
    d_before d = N.of_nat (length (concat (map (fun d => concat (d_blocks d)) (firstn r ds)))) /\
    d_global d = N.of_nat (length (forest ds)).
(** the values of a cell: those of the solution *)
Definition cell_values (meqn : nat) (p : apatch) (i j : Z) : list Q :=
  map (fun m => shown (p_q p i j m)) (upto meqn).
(** GeoClaw adds the height of the surface *)
Definition geo_cell_values (meqn : nat) (p : apatch) (i j : Z) : list Q :=
  cell_values meqn p i j ++ [shown (shown (p_q p i j 1%Z) + p_aux p i j 1%Z)].
(** the grid of the k-th patch *)
Definition grid_of (values : apatch -> Z -> Z -> list Q) (mx my : nat) (k : nat) (x : nat * (nat * apatch)) : grid :=
  let (rank, bp) := x in let (b, p) := bp in
  mkG (N.of_nat k) (p_level p) (N.of_nat b) (N.of_nat rank) (N.of_nat mx) (N.of_nat my)
    (p_xlower p) (p_ylower p) (p_dx p) (p_dy p)
    (map (fun j => map (fun i => values p i j) (upto mx)) (upto my)).
Definition grids_of (values : apatch -> Z -> Z -> list Q) (mx my : nat) (ds : list proc) : list grid :=
  map (fun kx => grid_of values mx my (fst kx) (snd kx)) (combine (seq 0 (length (forest ds))) (forest ds)).
(** numbers that fit the five columns *)
Definition fits (n : N) : Prop := (n < 100000)%N.
Definition all_fit (o : settings) (ds : list proc) : Prop :=
  fits (N.of_nat (o_mx o)) /\ fits (N.of_nat (o_my o)) /\ fits (N.of_nat (o_meqn o) + 1) /\ fits (N.of_nat (o_maux o)) /\
  fits (N.of_nat (length (forest ds))) /\ fits (N.of_nat (length ds)) /\
  (forall d, In d ds -> fits (N.of_nat (length (d_blocks d)))) /\
  (forall x, In x (forest ds) -> fits (p_level (snd (snd x)))).
(** a process that has nothing left to do *)
Definition done (size : nat) (w : world) : Prop := forall p, (p < size)%nat -> w_rest w p = [].

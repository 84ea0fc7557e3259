(** Matrix files: /repo/rendering/src/colour_matrix.rs:60-404.

    Simplifications: a file is the list of its bytes and input or output errors are not modelled; writing and reading a
    single number ([format!("{}")], [str::parse::<Float>]) are parameters; [usize] overflow of the announced sizes and
    allocation failures are not modelled. [save_matrix] and [save_colour_matrix], and [read_matrix] and
    [read_colour_matrix], are the same code up to the number of components and how an element is written or read, so they
    are modelled once. *)
From Coq Require Import String Ascii List Bool Arith NArith ZArith QArith Lia.
From Verif.Common Require Import Base Text.
From Verif.Matrix Require Import MatrixModel.
Import ListNotations.
Open Scope list_scope.
Open Scope nat_scope.

Section Files.
Context {E : Type}.
(** [T::zero()], the number of components, how an element is written and how one is read off the words of a line *)
Variables (zero : E) (ncomp : nat) (show : E -> text) (elem : list text -> option (E * list text)).

(** The elements [c], [c + 1], ... of a row, each followed by a tab (77-80, 104-107) *)
Fixpoint save_cells (m : mat E) (r c k : nat) : res text :=
  match k with
  | O => Ok []
  | S k' => do v <- get m r c; do rest <- save_cells m r (S c) k'; Ok (show v ++ t_tab :: rest)
  end.
(** The rows [r], [r + 1], ... (76-82, 103-109) *)
Fixpoint save_rows (m : mat E) (r k : nat) : res text :=
  match k with
  | O => Ok []
  | S k' => do row <- save_cells m r 0 (ncols m); do rest <- save_rows m (S r) k'; Ok (row ++ t_nl :: rest)
  end.
(** colour_matrix.rs:60-85, 87-112: the contents of the file *)
Definition save_matrix (m : mat E) : res text :=
  do body <- save_rows m 0 (nrows m);
  Ok (txt "#?SIMPLE" ++ t_nl :: txt "NROWS=" ++ show_nat (nrows m) ++ t_nl :: txt "NCOLS=" ++ show_nat (ncols m) ++
      t_nl :: txt "NCOMP=" ++ show_nat ncomp ++ t_nl :: txt "FORMAT=ascii" ++ t_nl :: t_nl :: body).

(** A line of the header such as [NROWS=3]: 142-154, 158-170, 174-186 *)
Definition header_value (line : text) : option nat :=
  match split_on (fun c => Ascii.eqb c "=") line with [_; v] => parse_usize v | _ => None end.
(** 137, 296: the line that ends the header *)
Definition is_blank (line : text) : bool := match line with [] => true | c :: _ => is_ws c end.

(** 134-195, 293-354: the header; also gives the lines after it ([content.lines().skip(header_lines)]) *)
Fixpoint read_head (ls : list text) (nr nc : option nat) : res (option nat * option nat * list text) :=
  match ls with
  | [] => Ok (nr, nc, [])
  | line :: r =>
      if is_blank line then Ok (nr, nc, r)
      else if starts_with (txt "NROWS") line then
        match header_value line with Some v => read_head r (Some v) nc | None => Err end
      else if starts_with (txt "NCOLS") line then
        match header_value line with Some v => read_head r nr (Some v) | None => Err end
      else if starts_with (txt "NCOMP") line then
        match header_value line with Some v => if v =? ncomp then read_head r nr nc else Err | None => Err end
      else read_head r nr nc
  end.

(** 226-259, 385-399: one row, from column [c] on *)
Fixpoint read_cells (m : mat E) (r c k : nat) (vals : list text) : res (mat E) :=
  match k with
  | O => Ok m
  | S k' => match elem vals with
            | None => Err
            | Some (v, rest) => do m' <- set m r c v; read_cells m' r (S c) k' rest
            end
  end.
(** 215-260, 374-400 *)
Fixpoint read_rows (m : mat E) (r : nat) (ls : list text) : res (mat E) :=
  match ls with
  | [] => Ok m
  | line :: rest =>
      let values := words line in
      if length values =? ncomp * ncols m then do m' <- read_cells m r 0 (ncols m) values; read_rows m' (S r) rest else Err
  end.

(** colour_matrix.rs:114-264, 266-404. [read_matrix] also refuses an empty file, which has no header anyway. *)
Definition read_matrix (content : text) : res (mat E) :=
  do h <- read_head (lines content) None None;
  let '(nr, nc, body) := h in
  match nr, nc with
  | Some nr, Some nc => read_rows (new_mat zero nr nc) 0 body
  | _, _ => Err
  end.
End Files.

(** ** The two kinds of files *)
Section Numbers.
Context {T : Type}.
Variables (parse : text -> option T).
(** 387-395: an element of [read_matrix] *)
Definition elem1 (vals : list text) : option (T * list text) :=
  match vals with v :: r => match parse v with Some x => Some (x, r) | None => None end | [] => None end.
(** 228-254: an element of [read_colour_matrix] *)
Definition elem3 (vals : list text) : option (T * T * T * list text) :=
  match vals with
  | a :: b :: c :: r => match parse a, parse b, parse c with Some x, Some y, Some z => Some ((x, y, z), r) | _, _, _ => None end
  | _ => None
  end.
End Numbers.

(** colour.rs:119-123: a colour is written with five decimals per channel. [rnd] is the rounding of a number times 10^5 to
    an integer. *)
Section Colours.
Variable rnd : Q -> Z.
Definition pad5 (n : nat) : text :=
  let d i := ascii_of_nat (48 + (n / 10 ^ i) mod 10) in [d 4; d 3; d 2; d 1; d 0].
Definition show_decimal (neg : bool) (n : nat) : text :=
  (if neg then txt "-" else []) ++ show_nat (n / 10 ^ 5) ++ txt "." ++ pad5 (n mod 10 ^ 5).
Definition show5 (q : Q) : text := show_decimal (negb (Qle_bool 0 q)) (Z.to_nat (Z.abs (rnd q))).
Definition show_colour (c : Q * Q * Q) : text :=
  let '(r, g, b) := c in show5 r ++ t_space :: show5 g ++ t_space :: show5 b.
End Colours.

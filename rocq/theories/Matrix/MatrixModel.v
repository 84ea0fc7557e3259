(** Model of the [matrix] crate: /repo/matrix/src/generic_matrix.rs,
    /repo/matrix/src/matrix.rs, /repo/matrix/src/n_diag_generic_matrix.rs and
    /repo/matrix/src/n_diag_matrix.rs.

    Simplification: the element type is any type with the operations of the [Numberish]
    trait; theorems assume ring or field laws (floats only satisfy them up to
    rounding).  The [parallel] feature (same rows computed by rayon) is not modelled. *)
From Coq Require Import List Arith Lia Bool.
From Verif.Common Require Import Base.
Import ListNotations.

(** matrix/src/traits.rs: the arithmetic of [Numberish] *)
Record Num (T : Type) := mkNum {
  n0 : T; n1 : T; nadd : T -> T -> T; nmul : T -> T -> T; nsub : T -> T -> T;
  nopp : T -> T; ndiv : T -> T -> T; ninv : T -> T }.
Arguments n0 {T}. Arguments n1 {T}. Arguments nadd {T}. Arguments nmul {T}.
Arguments nsub {T}. Arguments nopp {T}. Arguments ndiv {T}. Arguments ninv {T}.

Record mat (T : Type) := mkMat { nrows : nat; ncols : nat; data : list T }.
Arguments mkMat {T}. Arguments nrows {T}. Arguments ncols {T}. Arguments data {T}.

(** lib.rs:44-48 *)
Definition one_sided (n : nat) : nat := (n - 1) / 2.

Section Ops.
Context {T : Type} (N : Num T).

(** generic_matrix.rs:34-40 *)
Definition from_data (nr nc : nat) (d : list T) : res (mat T) :=
  if nr * nc =? length d then Ok (mkMat nr nc d) else Panic.
(** generic_matrix.rs:44-50 *)
Definition new_mat (v : T) (nr nc : nat) : mat T := mkMat nr nc (repeat v (nr * nc)).

(** generic_matrix.rs:55-67 *)
Definition diag (d : list T) : res (mat T) :=
  let n := length d in
  let v := fold_left (fun v (p : nat * T) => upd v (fst p * (n + 1)) (snd p))
             (combine (seq 0 n) d) (repeat (n0 N) (n * n)) in
  from_data n n v.

(** generic_matrix.rs:71-87 *)
Definition eye (n : nat) : mat T :=
  mkMat n n (map (fun i => let col := i mod n in let row := (i - col) / n in
                           if row =? col then n1 N else n0 N) (seq 0 (n * n))).

(** generic_matrix.rs:91-97 *)
Definition empty_mat : mat T := mkMat 0 0 [].

(** generic_matrix.rs:126-128 *)
Definition index (m : mat T) (r c : nat) : nat := ncols m * r + c.

(** [self.data[i]] *)
Definition read (m : mat T) (i : nat) : res T :=
  match nth_error (data m) i with Some v => Ok v | None => Panic end.
(** [self.data[i] = f(self.data[i])] *)
Definition modify (m : mat T) (i : nat) (f : T -> T) : res (mat T) :=
  match nth_error (data m) i with
  | Some v => Ok (mkMat (nrows m) (ncols m) (upd (data m) i (f v)))
  | None => Panic
  end.

(** generic_matrix.rs:131-138 *)
Definition get (m : mat T) (r c : nat) : res T :=
  if (r <? nrows m) && (c <? ncols m) then read m (index m r c) else Err.
(** generic_matrix.rs:141-150 *)
Definition set (m : mat T) (r c : nat) (v : T) : res (mat T) :=
  if (r <? nrows m) && (c <? ncols m) then modify m (ncols m * r + c) (fun _ => v) else Err.
(** generic_matrix.rs:153-161 *)
Definition add_to_element (m : mat T) (r c : nat) (v : T) : res (mat T) :=
  if (r <? nrows m) && (c <? ncols m) then modify m (index m r c) (fun x => nadd N x v) else Err.
(** generic_matrix.rs:164-172 *)
Definition scale_element (m : mat T) (r c : nat) (v : T) : res (mat T) :=
  if (r <? nrows m) && (c <? ncols m) then modify m (index m r c) (fun x => nmul N x v) else Err.

(** zip of two slices written over a third one: elements of [into] beyond the shortest
    operand are kept (generic_matrix.rs:188-192) *)
Fixpoint zip_into (f : T -> T -> T) (xs ys into : list T) : list T :=
  match xs, ys, into with
  | x :: xs', y :: ys', _ :: into' => f x y :: zip_into f xs' ys' into'
  | _, _, _ => into
  end.

(** generic_matrix.rs:177-196 and 199-217: the size of [into] is not checked *)
Definition add_into (a b into : mat T) : res (mat T) :=
  if negb (ncols a =? ncols b) || negb (nrows a =? nrows b) then Err
  else Ok (mkMat (nrows into) (ncols into) (zip_into (nadd N) (data a) (data b) (data into))).
Definition sub_into (a b into : mat T) : res (mat T) :=
  if negb (ncols a =? ncols b) || negb (nrows a =? nrows b) then Err
  else Ok (mkMat (nrows into) (ncols into) (zip_into (nsub N) (data a) (data b) (data into))).

(** generic_matrix.rs:220-229 *)
Definition scale_into (a : mat T) (s : T) (into : mat T) : res (mat T) :=
  if negb (ncols a =? ncols into) || negb (nrows a =? nrows into) then Err
  else Ok (mkMat (nrows into) (ncols into)
             (zip_into (fun x _ => nmul N x s) (data a) (data into) (data into))).

(** generic_matrix.rs:394-480: the operators; [Panic] on a size mismatch *)
Fixpoint zip_with (f : T -> T -> T) (xs ys : list T) : list T :=
  match xs, ys with x :: xs', y :: ys' => f x y :: zip_with f xs' ys' | _, _ => [] end.
Definition op_add (a b : mat T) : res (mat T) :=
  if negb (ncols a =? ncols b) || negb (nrows a =? nrows b) then Panic
  else Ok (mkMat (nrows a) (ncols a) (zip_with (nadd N) (data a) (data b))).
Definition op_sub (a b : mat T) : res (mat T) :=
  if negb (ncols a =? ncols b) || negb (nrows a =? nrows b) then Panic
  else Ok (mkMat (nrows a) (ncols a) (zip_with (nsub N) (data a) (data b))).
Definition op_scale (a : mat T) (s : T) : mat T :=
  mkMat (nrows a) (ncols a) (map (fun x => nmul N x s) (data a)).
Definition op_div (a : mat T) (s : T) : mat T :=
  mkMat (nrows a) (ncols a) (map (fun x => ndiv N x s) (data a)).

(** [slice::chunks_exact(n)] for [n > 0] *)
Definition chunks_exact (n : nat) (l : list T) : list (list T) :=
  map (fun i => firstn n (skipn (i * n) l)) (seq 0 (length l / n)).
(** [iter().step_by(n)] for [n > 0] *)
Definition step_by (n : nat) (l : list T) : list T :=
  map (fun i => nth (i * n) l (n0 N)) (seq 0 ((length l + n - 1) / n)).

(** generic_matrix.rs:263-271: one element of the product *)
Definition row_col (row od : list T) (c nc : nat) : T :=
  fold_left (nadd N) (zip_with (nmul N) row (step_by nc (skipn c od))) (n0 N).

(** generic_matrix.rs:233-276.  [chunks_exact(0)] panics. *)
Definition prod_into (a b into : mat T) : res (mat T) :=
  if negb (ncols a =? nrows b) then Err
  else if negb (nrows into =? nrows a) || negb (ncols into =? ncols b) then Err
  else
    let cleared := map (fun x => nmul N x (n0 N)) (data into) in
    if (ncols a =? 0) || (ncols b =? 0) then Panic
    else
      let rows := combine (chunks_exact (ncols a) (data a)) (chunks_exact (ncols b) cleared) in
      let done_ := flat_map (fun rw : list T * list T =>
          map (fun c => row_col (fst rw) (data b) c (ncols b)) (seq 0 (length (snd rw)))) rows in
      Ok (mkMat (nrows into) (ncols into) (done_ ++ skipn (length done_) cleared)).

(** generic_matrix.rs:473-480 *)
Definition op_mul (a b : mat T) : res (mat T) :=
  match prod_into a b (new_mat (n0 N) (nrows a) (ncols b)) with
  | Ok r => Ok r | _ => Panic end.

(** generic_matrix.rs:331-335: [item += row[i] * other[i][c]] for [i] in [ini..fin] *)
Definition band_fold (row : list T) (b : mat T) (c ini fin : nat) (item : T) : T :=
  fold_left (fun acc i => nadd N acc (nmul N (nth i row (n0 N)) (nth (index b i c) (data b) (n0 N))))
            (seq ini (fin - ini)) item.
(** generic_matrix.rs:292-341 *)
Definition prod_n_diag_into (a b : mat T) (n : nat) (into : mat T) : res (mat T) :=
  if negb (ncols a =? nrows b) then Err
  else if negb (nrows into =? nrows a) || negb (ncols into =? ncols b) then Err
  else
    let cleared := map (fun x => nmul N x (n0 N)) (data into) in
    if (ncols a =? 0) || (ncols b =? 0) || (n =? 0) then Panic
    else
      let s := one_sided n in
      let rows := combine (seq 0 (length (chunks_exact (ncols a) (data a))))
                    (combine (chunks_exact (ncols a) (data a)) (chunks_exact (ncols b) cleared)) in
      let done_ := flat_map (fun p : nat * (list T * list T) =>
          let '(diag_i, (row, out)) := p in
          let ini := if s <=? diag_i then diag_i - s else 0 in
          let fin := if ncols a <? diag_i + s + 1 then ncols a else diag_i + s + 1 in
          map (fun ci : nat * T => band_fold row b (fst ci) ini fin (snd ci))
              (combine (seq 0 (length out)) out)) rows in
      Ok (mkMat (nrows into) (ncols into) (done_ ++ skipn (length done_) cleared)).
(** generic_matrix.rs:281-287 *)
Definition prod_tri_diag_into (a b into : mat T) : res (mat T) := prod_n_diag_into a b 3 into.
(** generic_matrix.rs:344-353 *)
Definition from_prod_n_diag (a b : mat T) (n : nat) : res (mat T) :=
  prod_n_diag_into a b n (new_mat (n0 N) (nrows a) (ncols b)).

(** generic_matrix.rs:373-391 *)
Definition concat_rows (a b : mat T) : res (mat T) :=
  if negb (ncols a =? ncols b) then Err
  else Ok (mkMat (nrows a + nrows b) (ncols a) (data a ++ data b)).

(** generic_matrix.rs:356-370 *)
Definition compare (eqb : T -> T -> bool) (a b : mat T) : bool :=
  (ncols a =? ncols b) && (nrows a =? nrows b) &&
  forallb (fun i => eqb (nth i (data a) (n0 N)) (nth i (data b) (n0 N))) (seq 0 (length (data a))).

(** ** Banded Gaussian elimination: matrix.rs:38-136 *)
Section Gauss.
(** [x.abs() < TINY] and [x.abs() > TINY] *)
Variables (tiny big : T -> bool).

(** matrix.rs:43-51 *)
Fixpoint scale_loop (m : mat T) (row col k : nat) (v : T) : res (mat T) :=
  match k with
  | O => Ok m
  | S k' => if col =? ncols m then Ok m
            else do m' <- modify m (index m row col) (fun x => nmul N x v);
                 scale_loop m' row (S col) k' v
  end.
(** matrix.rs:58-74 *)
Fixpoint add_loop (m : mat T) (from into col k : nat) (s : T) : res (mat T) :=
  match k with
  | O => Ok m
  | S k' => if col =? ncols m then Ok m
            else do aux <- read m (index m from col);
                 do m' <- modify m (index m into col) (fun x => nadd N x (nmul N s aux));
                 add_loop m' from into (S col) k' s
  end.
(** matrix.rs:52-55 *)
Definition scale_row (s : nat) (a b : mat T) (row : nat) (v : T) : res (mat T * mat T) :=
  do a' <- scale_loop a row row (s + 1) v;
  do b' <- scale_loop b row 0 (ncols b) v;
  Ok (a', b').
(** matrix.rs:75-86 *)
Definition add_rows (s : nat) (a b : mat T) (from into : nat) (v : T) : res (mat T * mat T) :=
  do a' <- add_loop a from into from (s + 1) v;
  do b' <- add_loop b from into 0 (ncols b) v;
  Ok (a', b').
(** matrix.rs:105-116: rows [r], [r+1], … ([k] of them) below the pivot [c] *)
Fixpoint elim_down (s : nat) (a b : mat T) (c r k : nat) : res (mat T * mat T) :=
  match k with
  | O => Ok (a, b)
  | S k' =>
    match get a r c with
    | Ok other =>
      if big other
      then do ab <- add_rows s a b c r (nopp N other); elim_down s (fst ab) (snd ab) c (S r) k'
      else elim_down s a b c (S r) k'
    | Err => Ok (a, b)
    | Panic => Panic
    end
  end.
(** matrix.rs:89-117: [k] columns left, starting at [c] *)
Fixpoint go_down (s : nat) (a b : mat T) (c k : nat) : res (mat T * mat T) :=
  match k with
  | O => Ok (a, b)
  | S k' =>
    do pivot <- read a (index a c c);
    if tiny pivot then Err
    else
      do ab <- scale_row s a b c (ndiv N (n1 N) pivot);
      if c =? ncols a - 1 then Ok ab
      else do ab' <- elim_down s (fst ab) (snd ab) c (c + 1) s;
           go_down s (fst ab') (snd ab') (S c) k'
  end.
(** matrix.rs:124-133: rows [ini+k-1] down to [ini] *)
Fixpoint elim_up (s : nat) (a b : mat T) (c ini k : nat) : res (mat T * mat T) :=
  match k with
  | O => Ok (a, b)
  | S k' =>
    let r := ini + k' in
    match get a r c with
    | Ok other =>
      if big other
      then do ab <- add_rows s a b c r (nopp N other); elim_up s (fst ab) (snd ab) c ini k'
      else elim_up s a b c ini k'
    | Err => elim_up s a b c ini k'
    | Panic => Panic
    end
  end.
(** matrix.rs:120-134 *)
Fixpoint go_up (s : nat) (a b : mat T) (c : nat) : res (mat T * mat T) :=
  match c with
  | O => Ok (a, b)
  | S c' =>
    do _ <- read a (index a c c);
    let ini := if c <? s then 0 else c - s in
    do ab <- elim_up s a b c ini (c - ini);
    go_up s (fst ab) (snd ab) c'
  end.
(** matrix.rs:38-136; the result is the final [b] (and the final [self]) *)
Definition mut_n_diag_gaussian (a b : mat T) (n : nat) : res (mat T * mat T) :=
  let s := one_sided n in
  do ab <- go_down s a b 0 (ncols a);
  go_up s (fst ab) (snd ab) (ncols a - 1).
(** matrix.rs:20-26 *)
Definition n_diag_gaussian (a b : mat T) (n : nat) : res (mat T) :=
  do ab <- mut_n_diag_gaussian a b n; Ok (snd ab).
End Gauss.

(** ** Compact band storage: n_diag_generic_matrix.rs *)
Section NDiag.
(** the const parameter [N] *)
Variable w : nat.
(** 84-94 *)
Definition zeroes_before (row : nat) : nat := let s := one_sided w in if row <? s then 0 else row - s.
(** 96-115 *)
Definition n_in_row (row nc : nat) : nat :=
  let s := one_sided w in
  let z := zeroes_before row in
  if row <? s then s + 1 + row
  else if z + w <=? nc then w
  else if z <? nc then nc - z else 0.
(** 76-82 *)
Definition acc_n_in_row (row nc : nat) : nat :=
  fold_left (fun n r => n + n_in_row r nc) (seq 0 row) 0.
(** 131-134 *)
Definition is_diag_value (r c : nat) : bool :=
  let s := one_sided w in (r <=? c + s) && (c <=? r + s).
(** 37-64: every cell is overwritten with its own position, [v] is lost.
    [of_nat] is the conversion [i as Float] *)
Definition nd_new (of_nat : nat -> T) (v : T) (nr nc : nat) : mat T :=
  let d := repeat v (acc_n_in_row nr nc) in
  mkMat nr nc (map (fun i => nmul N (n1 N) (of_nat i)) (seq 0 (length d))).
(** 118-128 *)
Definition nd_index (m : mat T) (r c : nat) : res nat :=
  if is_diag_value r c then Ok (acc_n_in_row r (ncols m) + c - zeroes_before r) else Err.
(** 142-153 *)
Definition nd_get (m : mat T) (r c : nat) : res T :=
  if (r <? nrows m) && (c <? ncols m) then
    if is_diag_value r c then do i <- nd_index m r c; read m i else Ok (n0 N)
  else Err.
Definition nd_modify (m : mat T) (r c : nat) (f : T -> T) : res (mat T) :=
  if (r <? nrows m) && (c <? ncols m) then
    if is_diag_value r c then do i <- nd_index m r c; modify m i f else Err
  else Err.
(** 156-171, 174-189, 192-207 *)
Definition nd_set (m : mat T) (r c : nat) (v : T) := nd_modify m r c (fun _ => v).
Definition nd_add_to_element (m : mat T) (r c : nat) (v : T) := nd_modify m r c (fun x => nadd N x v).
Definition nd_scale_element (m : mat T) (r c : nat) (v : T) := nd_modify m r c (fun x => nmul N x v).

(** [&v[a..b]] *)
Definition slice (l : list T) (a b : nat) : res (list T) :=
  if (a <=? b) && (b <=? length l) then Ok (firstn (b - a) (skipn a l)) else Panic.

(** 226-244: rows [row..row+k] *)
Fixpoint col_prod_loop (m : mat T) (vec : list T) (acc row k : nat) : res (list T) :=
  match k with
  | O => Ok []
  | S k' =>
    let nz := n_in_row row (ncols m) in
    if 0 <? nz then
      do this <- slice (data m) acc (acc + nz);
      do other <- slice vec (zeroes_before row) (zeroes_before row + nz);
      let item := fold_left (nadd N) (zip_with (nmul N) this other) (n0 N) in
      do rest <- col_prod_loop m vec (acc + nz) (S row) k';
      Ok (item :: rest)
    else
      do rest <- col_prod_loop m vec acc (S row) k';
      Ok (n0 N :: rest)
  end.
(** 210-247; [into_len] is the length of the destination *)
Definition column_prod_into (m : mat T) (vec : list T) (into_len : nat) : res (list T) :=
  if negb (length vec =? ncols m) then Err
  else if negb (length vec =? into_len) then Err
  else col_prod_loop m vec 0 0 into_len.

(** n_diag_matrix.rs:19-33 *)
Definition nd_to_dense (m : mat T) : res (mat T) :=
  fold_left (fun acc (rc : nat * nat) => do d <- acc; do v <- nd_get m (fst rc) (snd rc);
               set d (fst rc) (snd rc) v)
    (list_prod (seq 0 (nrows m)) (seq 0 (ncols m)))
    (Ok (new_mat (n0 N) (ncols m) (nrows m))).
Definition nd_mut_gaussian (tiny big : T -> bool) (m : mat T) (b : list T) : res (list T) :=
  do bm <- from_data (length b) 1 b;
  do d <- nd_to_dense m;
  do ab <- mut_n_diag_gaussian tiny big d bm w;
  if length b =? length (data (snd ab)) then Ok (data (snd ab)) else Panic.
End NDiag.
End Ops.

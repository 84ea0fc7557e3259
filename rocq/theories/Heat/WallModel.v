(** Heat transfer through a wall: the conduction matrix (/repo/heat/src/discretization.rs lines 604-735) and the march of the
    massive and of the massless nodes (/repo/heat/src/surface.rs lines 47-274 and 741-1354). Numbers are exact reals.
    The dense one-column matrices of temperatures and of absorbed radiation are lists. The scratch vectors [aux], [k1]..[k4]
    of a chunk are always overwritten before they are read: only their length is kept. *)
From Coq Require Import List Arith Reals Bool.
From Verif.Common Require Import Base Flt.
From Verif.Matrix Require Import MatrixModel GaussSeidel.
From Verif.Heat Require Import GasModel DiscretizationModel ConvectionModel.
Import ListNotations.
Open Scope R_scope.

(** surface.rs:49-70 *)
Record chunk := mkChunk { ck : mat R; cc : list R; cq : list R; ctemps : list R; cscratch : nat }.

(** surface.rs:72-78 *)
Fixpoint add_assign (a b : list R) : list R :=
  match a, b with x :: a', y :: b' => (x + y) :: add_assign a' b' | _, _ => a end.
Definition scale (a : list R) (v : R) : list R := map (fun x => x * v) a.

(** surface.rs:84-102; underflow of [fin - ini] panics *)
Definition new_chunk (ini fin : nat) : res chunk :=
  if (fin <? ini)%nat then Panic
  else let n := (fin - ini)%nat in
       Ok (mkChunk (nd_new Rnum 3 INR 0 n n) (repeat 0 n) (repeat 0 n) (repeat 0 n) n).

(** [m.get(i, 0)] and [m.set(i, 0, v)] on a one-column matrix *)
Definition col_get (l : list R) (i : nat) : res R := match nth_error l i with Some v => Ok v | None => Err end.
Definition col_set (l : list R) (i : nat) (v : R) : res (list R) := if (i <? length l)%nat then Ok (upd l i v) else Err.
(** [l[i]] *)
Definition idx {A} (l : list A) (i : nat) : res A := match nth_error l i with Some v => Ok v | None => Panic end.
(** [l[i] += v] and [l[i] = v] on a vector *)
Definition vec_add (l : list R) (i : nat) (v : R) : res (list R) := do x <- idx l i; Ok (upd l i (x + v)).
Definition vec_set (l : list R) (i : nat) (v : R) : res (list R) := do _ <- idx l i; Ok (upd l i v).

Fixpoint fold_res {A B} (f : A -> B -> res B) (l : list A) (b : B) : res B :=
  match l with [] => Ok b | a :: l' => do b' <- f a b; fold_res f l' b' end.

(** discretization.rs:657-663 and the two that follow: [if let Ok(old) = k.get(r, c) { k.set(r, c, f(old))?; }] *)
Definition if_get (k : mat R) (r c : nat) (f : R -> R) : res (mat R) :=
  match nd_get Rnum 3 k r c with Ok v => nd_set 3 k r c (f v) | Err => Ok k | Panic => Panic end.

(** discretization.rs:636-641 *)
Definition t_after (temps : list R) (back_air : R) (i : nat) : R :=
  match nth_error temps (i + 1) with Some v => v | None => back_air end.

(** discretization.rs:643-681 *)
Definition kq_step (segs : list segment) (temps : list R) (back_air : R) (ini local_i : nat) (k : mat R) : res (mat R) :=
  let global_i := (ini + local_i)%nat in
  do t_this <- col_get temps global_i;
  let t_next := t_after temps back_air global_i in
  do seg <- idx segs global_i;
  do u <- u_value (snd seg) t_this t_next;
  do k <- nd_add_to_element Rnum 3 k local_i local_i (- u);
  do k <- if_get k (local_i + 1) (local_i + 1) (fun old => old - u);
  do k <- if_get k local_i (local_i + 1) (fun old => old + u);
  if_get k (local_i + 1) local_i (fun old => old + u).

(** discretization.rs:605-735 *)
Definition get_k_q (segs : list segment) (ini fin : nat) (temps : list R) (front_env : conv) (front_hs front_rad_hs : R)
           (back_env : conv) (back_hs back_rad_hs : R) (m : chunk) : res chunk :=
  let nr := length temps in
  if negb (nr =? length segs)%nat then Panic
  else if (fin <? ini)%nat then Panic
  else
    let k := mkMat (nrows (ck m)) (ncols (ck m)) (map (fun x => x * 0) (data (ck m))) in
    let q := repeat 0 (length (cq m)) in
    let nnodes := (fin - ini)%nat in
    if (nnodes =? 0)%nat then Panic
    else
      do k <- fold_res (kq_step segs temps (air_temperature back_env) ini) (seq 0 (nnodes - 1)) k;
      do front <-
        (if (ini =? 0)%nat then
           do ts <- col_get temps 0;
           Ok (front_hs, air_temperature front_env * front_hs + front_rad_hs * (rad_temperature front_env - ts))
         else
           do seg <- idx segs (ini - 1);
           do t_before <- col_get temps (ini - 1);
           do t_aft <- col_get temps ini;
           do u <- u_value (snd seg) t_before t_aft;
           Ok (u, u * t_before));
      do q <- vec_add q 0 (snd front);
      do k <- nd_add_to_element Rnum 3 k 0 0 (- fst front);
      do back <-
        (if (fin =? nr)%nat then
           do ts <- col_get temps (fin - 1);
           Ok (back_hs, air_temperature back_env * back_hs + back_rad_hs * (rad_temperature back_env - ts))
         else
           do seg <- idx segs (fin - 1);
           do t_before <- col_get temps (fin - 1);
           let t_aft := t_after temps (air_temperature back_env) (fin - 1) in
           do u <- u_value (snd seg) t_before t_aft;
           Ok (u, u * t_aft));
      do q <- vec_add q (nnodes - 1) (snd back);
      do k <- nd_add_to_element Rnum 3 k (nnodes - 1) (nnodes - 1) (- fst back);
      Ok (mkChunk k (cc m) q (ctemps m) (cscratch m)).

(** surface.rs:125-139: one row *)
Definition rearrange_row (dt : R) (nrow : nat) (m : chunk) : res chunk :=
  let crows := length (cc m) in
  do c <- idx (cc m) nrow;
  let v := dt / c in
  let ini := if (nrow =? 0)%nat then 0%nat else (nrow - 1)%nat in
  let fin := if (nrow =? crows - 1)%nat then (crows - 1)%nat else (nrow + 1)%nat in
  do k <- fold_res (fun ncol k => nd_scale_element Rnum 3 k nrow ncol v) (seq ini (fin + 1 - ini)) (ck m);
  do x <- idx (cq m) nrow;
  Ok (mkChunk k (cc m) (upd (cq m) nrow (x * v)) (ctemps m) (cscratch m)).
(** surface.rs:122-141 *)
Definition rearrange_k (dt : R) (m : chunk) : res chunk :=
  fold_res (rearrange_row dt) (seq 0 (length (cc m))) m.

(** surface.rs:182-274, in a debug build *)
Definition rk4 (m : chunk) : res chunk :=
  let k := ck m in
  let q := cq m in
  let temps := ctemps m in
  if negb (nrows k =? ncols k)%nat then Panic
  else if negb (length (cc m) =? nrows k)%nat then Panic
  else if negb (length q =? nrows k)%nat then Panic
  else
    do k1 <- column_prod_into Rnum 3 k temps (cscratch m);
    let k1 := add_assign k1 q in
    let aux := map (fun b => 5 / 10 * b) k1 in
    let aux := add_assign aux temps in
    do k2 <- column_prod_into Rnum 3 k aux (cscratch m);
    let k2 := add_assign k2 q in
    let aux := map (fun b => 5 / 10 * b) k2 in
    let aux := add_assign aux temps in
    do k3 <- column_prod_into Rnum 3 k aux (cscratch m);
    let k3 := add_assign k3 q in
    let aux := add_assign k3 temps in
    do k4 <- column_prod_into Rnum 3 k aux (cscratch m);
    let k4 := add_assign k4 q in
    let k1 := scale k1 (1 / 6) in
    let k2 := scale k2 (1 / 3) in
    let k3 := scale k3 (1 / 3) in
    let k4 := scale k4 (1 / 6) in
    let temps := add_assign temps k1 in
    let temps := add_assign temps k2 in
    let temps := add_assign temps k3 in
    let temps := add_assign temps k4 in
    Ok (mkChunk k (cc m) q temps (cscratch m)).

(** surface.rs:775-784: [iter().skip(ini).take(fin - ini).enumerate()] writing the masses *)
Definition fill_c (segs : list segment) (ini fin : nat) (c : list R) : res (list R) :=
  fold_res (fun (x : nat * segment) c => vec_set c (fst x) (fst (snd x)))
           (combine (seq 0 (length (firstn (fin - ini) (skipn ini segs)))) (firstn (fin - ini) (skipn ini segs)))
           (repeat 0 (length c)).

(** surface.rs:787-790 *)
Definition add_solar (solar : list R) (ini fin : nat) (q : list R) : res (list R) :=
  fold_res (fun local_i q => do v <- col_get solar (ini + local_i); vec_add q local_i v) (seq 0 (fin - ini)) q.

(** the border conditions of a wall: what calc_border_conditions returns, and the two radiative coefficients *)
Record border := mkBorder { b_front : conv; b_back : conv; b_front_hs : R; b_back_hs : R; b_front_rad : R; b_back_rad : R }.

(** surface.rs:741-816, once the border conditions are known *)
Definition march_mass (segs : list segment) (temps solar : list R) (dt : R) (b : border) (ini fin : nat) (m : chunk)
  : res (list R * chunk) :=
  do m <- get_k_q segs ini fin temps (b_front b) (b_front_hs b) (b_front_rad b) (b_back b) (b_back_hs b) (b_back_rad b) m;
  do c <- fill_c segs ini fin (cc m);
  do q <- add_solar solar ini fin (cq m);
  do m <- rearrange_k dt (mkChunk (ck m) c q (ctemps m) (cscratch m));
  do lt <- fold_res (fun local_i lt => do v <- col_get temps (ini + local_i); vec_set lt local_i v) (seq 0 (fin - ini)) (ctemps m);
  do m <- rk4 (mkChunk (ck m) (cc m) (cq m) lt (cscratch m));
  do temps <- fold_res (fun local_i ts => do v <- idx (ctemps m) local_i; col_set ts (ini + local_i) v) (seq 0 (fin - ini)) temps;
  Ok (temps, m).

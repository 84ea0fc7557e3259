(** Loops and polygons: /repo/geometry/src/loop3d.rs and /repo/geometry/src/polygon3d.rs, in exact arithmetic.

    Not modelled: the serde traits, [bite], [intersection]; [split] is in SplitModel.v. *)
From Coq Require Import Reals List Bool Lra Lia ZArith.
From Verif.Common Require Import Base Flt.
From Verif.Geometry Require Import Vec BBoxModel TriangleModel.
Import ListNotations.
Open Scope R_scope.

Definition vzero : pt := mkV 0 0 0.

(** loop3d.rs:74-89 *)
Record Loop := mkLoop { lv : list pt; ln : pt; lclosed : bool; larea : R; lper : R }.

(** loop3d.rs:212-220 *)
Definition loop_new : Loop := mkLoop [] vzero false (-1) (-1).

(** loop3d.rs:193-206: panics out of bounds *)
Definition l_at (l : list pt) (i : nat) : res pt := match nth_error l i with Some p => Ok p | None => Panic end.

(** loop3d.rs:321-324 *)
Definition l_reverse (l : Loop) : Loop := mkLoop (rev (lv l)) (vscale (ln l) (-1)) (lclosed l) (larea l) (lper l).

(** loop3d.rs:384-396 *)
Definition l_bbox (l : Loop) : res (BBox R) :=
  match lv l with [] => Err | v :: vs => Ok (fold_left (fun b p => from_union_point RF b p) vs (from_point v)) end.

(** loop3d.rs:686-705 *)
Definition l_is_coplanar (l : Loop) (p : pt) : res bool :=
  match lv l with
  | [] => Err
  | v :: _ => if vis_zero (ln l) then Err else Ok (Rltb (Rabs (vdot (ln l) (vsub v p))) (1 / 10 ^ 7))
  end.

(** loop3d.rs:480-491: does the new edge cross one of the edges [v_i v_{i+1}] ? *)
Fixpoint crosses_any (e : Segment) (vs : list pt) : bool :=
  match vs with
  | v :: (w :: _) as vs' => match s_intersect e (mkS v w) with Some _ => true | None => crosses_any e vs' end
  | _ => false
  end.

(** loop3d.rs:460-494; the edges tested are those with both ends among the first [n - 1] vertices *)
Definition valid_to_add (l : Loop) (p : pt) : res unit :=
  if lclosed l then Err else
  do _ <- (if negb (vis_zero (ln l)) then do c <- l_is_coplanar l p; if (c : bool) then Ok tt else Err else Ok tt);
  let n := length (lv l) in
  if (3 <=? n)%nat then
    let last_v := nth (n - 1) (lv l) vzero in
    if crosses_any (mkS last_v p) (firstn (n - 1) (lv l)) then Err else Ok tt
  else Ok tt.

(** loop3d.rs:659-670: the first vertex that is not aligned with the first two gives the normal *)
Fixpoint find_normal (a b : pt) (cs : list pt) (old : pt) : res pt :=
  match cs with
  | [] => Ok old
  | c :: cs' =>
      let n := vcross (vsub b a) (vsub c b) in
      if Rltb (1 / 10 ^ 15) (vlen2 n) then vnormalize n else find_normal a b cs' old
  end.

(** loop3d.rs:643-673 *)
Definition set_normal (l : Loop) : res Loop :=
  if Rltb (1 / 10 ^ 15) (vlen2 (ln l)) then Ok l
  else match lv l with
       | a :: b :: (_ :: _) as cs => do n <- find_normal a b cs (ln l); Ok (mkLoop (lv l) n (lclosed l) (larea l) (lper l))
       | _ => Err
       end.

Definition with_vertices (l : Loop) (vs : list pt) : Loop := mkLoop vs (ln l) (lclosed l) (larea l) (lper l).

(** loop3d.rs:498-531; every error leaves the loop unchanged *)
Definition push_collinear (l : Loop) (p : pt) (avoid : bool) : res Loop :=
  do _ <- valid_to_add l p;
  let n := length (lv l) in
  let same_as_last := match rev (lv l) with x :: _ => compare x p | [] => false end in
  if same_as_last then Ok l else
  do vs <- (if (2 <=? n)%nat then
              let a := nth (n - 2) (lv l) vzero in
              let b := nth (n - 1) (lv l) vzero in
              do c <- (if avoid then is_collinear a b p else Ok false);
              Ok (if (c : bool) then upd (lv l) (n - 1) p else lv l ++ [p])
            else Ok (lv l ++ [p]));
  let l' := with_vertices l vs in
  if (3 <=? length vs)%nat then set_normal l' else Ok l'.

(** loop3d.rs:543-545 *)
Definition push (l : Loop) (p : pt) : res Loop := push_collinear l p true.

(** loop3d.rs:592-594 *)
Definition l_open (l : Loop) : Loop := mkLoop (lv l) (ln l) false (larea l) (lper l).

(** loop3d.rs:820-826: [rhs] after the loop, starting from the pair ([v], [v_p1]) and reading the vertices [i % n] for [i] in 2..n+2 *)
Definition area_sum (vs : list pt) : pt :=
  let n := length vs in
  let '(rhs, _, _) :=
    fold_left (fun '(rhs, v, v1) i => (vadd rhs (vcross v v1), v1, nth (i mod n) vs vzero)) (seq 2 n) (vzero, nth 0 vs vzero, nth 1 vs vzero) in
  rhs.

(** loop3d.rs:796-834 *)
Definition set_area (l : Loop) : res Loop :=
  if negb (lclosed l) then Err
  else if vis_zero (ln l) then Err
  else if (length (lv l) <? 3)%nat then Err
  else let area := vdot (ln l) (area_sum (lv l)) / 2 in
       Ok (mkLoop (lv l) (if Rltb area 0 then vscale (ln l) (-1) else ln l) (lclosed l) (Rabs area) (lper l)).

(** loop3d.rs:786-789 *)
Definition perimeter_sum (vs : list pt) : R :=
  let n := length vs in
  fold_left (fun per i => per + vlen (vsub (nth (i mod n) vs vzero) (nth ((i + 1) mod n) vs vzero))) (seq 0 n) 0.

(** loop3d.rs:766-793 *)
Definition set_perimeter (l : Loop) : res Loop :=
  if negb (lclosed l) then Err
  else if vis_zero (ln l) then Err
  else if (length (lv l) <? 3)%nat then Err
  else Ok (mkLoop (lv l) (ln l) (lclosed l) (larea l) (perimeter_sum (lv l))).

(** loop3d.rs:598-640; the second component is the loop after the call, also when it failed *)
Definition close (l : Loop) : res unit * Loop :=
  let n := length (lv l) in
  if (n <? 3)%nat then (Err, l) else
  match is_collinear (nth (n - 2) (lv l) vzero) (nth (n - 1) (lv l) vzero) (nth 0 (lv l) vzero) with
  | Err => (Err, l) | Panic => (Panic, l)
  | Ok c1 =>
      let l1 := if (c1 : bool) then with_vertices l (removelast (lv l)) else l in
      match valid_to_add l1 (nth 0 (lv l1) vzero) with
      | Err => (Err, l1) | Panic => (Panic, l1)
      | Ok _ =>
          let n := length (lv l1) in
          match is_collinear (nth (n - 1) (lv l1) vzero) (nth 0 (lv l1) vzero) (nth 1 (lv l1) vzero) with
          | Err => (Err, l1) | Panic => (Panic, l1)
          | Ok c2 =>
              let l2 := if (c2 : bool) then with_vertices l1 (tl (lv l1)) else l1 in
              if Rltb (vlen2 (ln l2)) (1 / 10 ^ 14) then (Err, l2) else
              let l3 := mkLoop (lv l2) (ln l2) true (larea l2) (lper l2) in
              match set_area l3 with
              | Err => (Err, l3) | Panic => (Panic, l3)
              | Ok l4 => match set_perimeter l4 with Ok l5 => (Ok tt, l5) | Err => (Err, l4) | Panic => (Panic, l4) end
              end
          end
      end
  end.
Definition closed_loop (l : Loop) : res Loop := match close l with (Ok _, l') => Ok l' | (Err, _) => Err | (Panic, _) => Panic end.

(** loop3d.rs:837-843 *)
Definition l_area (l : Loop) : res R := if negb (lclosed l) then Err else Ok (larea l).

(** loop3d.rs:877-887 *)
Definition contains_segment (vs : list pt) (s : Segment) : bool :=
  existsb (fun i => s_compare (mkS (nth i vs vzero) (nth ((i + 1) mod length vs) vs vzero)) s) (seq 0 (length vs)).

(** segment3d.rs:111-113 *)
Definition s_contains (s t : Segment) : res bool :=
  do a <- contains_point s (s_start t); if (a : bool) then contains_point s (s_end t) else Ok false.

(** loop3d.rs:725-759 *)
Fixpoint count_crossings (l : Loop) (d : pt) (point : pt) (ray : Segment) (is : list nat) (n_cross : nat) : res (bool + nat) :=
  match is with
  | [] => Ok (inr n_cross)
  | i :: is' =>
      let n := length (lv l) in
      let ab := mkS (nth i (lv l) vzero) (nth ((i + 1) mod n) (lv l) vzero) in
      do c <- contains_point ab point;
      if (c : bool) then Ok (inl true) else
      let n_cross' :=
        match get_intersection_pt ab ray with
        | Some (t_a, t_b) =>
            if (Rleb 0 t_b && Rleb t_b 1) && (Rleb 0 t_a && Rleb t_a 1) then
              if Rltb t_a eps64 then
                if vis_same_direction (vcross d (vsub (s_end ab) (s_start ab))) (ln l) then S n_cross else n_cross
              else if Rltb t_a 1 then S n_cross
              else if vis_same_direction (vcross d (vsub (s_start ab) (s_end ab))) (ln l) then S n_cross else n_cross
            else n_cross
        | None => n_cross
        end in
      count_crossings l d point ray is' n_cross'
  end.

(** loop3d.rs:708-763 *)
Definition l_test_point (l : Loop) (point : pt) : res bool :=
  if negb (lclosed l) then Err else
  do c <- l_is_coplanar l point;
  if negb c then Ok false else
  let d := vscale (vsub point (vscale (vadd (nth 0 (lv l) vzero) (nth 1 (lv l) vzero)) (1 / 2))) 1000 in
  let ray := mkS point (vadd point d) in
  do r <- count_crossings l d point ray (seq 0 (length (lv l))) 0;
  match r with inl b => Ok b | inr n => Ok (negb (n =? 0)%nat && negb (n mod 2 =? 0)%nat) end.

(** loop3d.rs:567-582 *)
Fixpoint diagonal_loop (vs : list pt) (s : Segment) (is : list nat) : res bool :=
  match is with
  | [] => Ok true
  | i :: is' =>
      let n := length vs in
      let poly_s := mkS (nth (i mod n) vs vzero) (nth ((i + 1) mod n) vs vzero) in
      let intersects := match s_intersect s poly_s with Some _ => true | None => false end in
      let different_length := Rltb (1 / 10 ^ 7) (Rabs (s_length s - s_length poly_s)) in
      do c <- s_contains s poly_s;
      if intersects || (c && different_length) || s_compare s poly_s then Ok false else diagonal_loop vs s is'
  end.

(** loop3d.rs:559-589 *)
Definition is_diagonal (l : Loop) (s : Segment) : res bool :=
  if Rltb (s_length s) (1 / 10 ^ 5) then Ok false else
  do ok <- diagonal_loop (lv l) s (seq 0 (length (lv l) + 1));
  if negb ok then Ok false else
  do inside <- l_test_point l (midpoint s); Ok inside.

(** loop3d.rs:990-1008: every vertex, against every point in turn *)
Definition snap_vertex (d2 : R) (points : list pt) (p : pt) : pt * nat :=
  fold_left (fun '(p, c) q => if Rleb (squared_distance p q) d2 then (q, S c) else (p, c)) points (p, O).
Definition l_snap (l : Loop) (points : list pt) (snap_distance : R) : Loop * option nat :=
  let r := map (snap_vertex (snap_distance * snap_distance) points) (lv l) in
  let count := list_sum (map snd r) in
  (with_vertices l (map fst r), if (count =? 0)%nat then None else Some count).

(** loop3d.rs:915-941 *)
Definition l_project_into_plane (l other : Loop) : res Loop :=
  match lv l, lv other with
  | [], _ => Err | _, [] => Err
  | _, anchor :: _ =>
      if negb (lclosed l) then Err else if negb (lclosed other) then Err else
      let normal := ln other in
      Ok (mkLoop (map (fun p => project_into_plane p anchor normal) (lv l)) (if Rltb 0 (vdot (ln l) normal) then normal else vneg normal)
            (lclosed l) (larea l) (lper l))
  end.

(** loop3d.rs:251-291 *)
Fixpoint first_match (p : pt) (eps : R) (vs : list pt) (i : nat) : option nat :=
  match vs with [] => None | v :: vs' => if compare_by v p eps then Some i else first_match p eps vs' (S i) end.
Definition l_is_equal (a b : Loop) (eps : R) : res bool :=
  if negb (lclosed a) || negb (lclosed b) then Err else
  if negb (length (lv a) =? length (lv b))%nat || Rltb (1 / 10 ^ 3) (Rabs (larea a - larea b)) then Ok false else
  do p0 <- l_at (lv a) 0;
  match first_match p0 eps (lv b) 0 with
  | None => Ok false
  | Some anchor =>
      let rev := Rltb (vdot (ln a) (ln b)) 0 in
      let n := length (lv a) in
      Ok (fst (fold_left (fun '(ok, i) p =>
            (ok && compare_by p (nth i (lv b) vzero) eps, if rev then ((i + n - 1) mod n)%nat else ((i + 1) mod n)%nat)) (lv a) (true, anchor)))
  end.

(** polygon3d.rs:35-47 *)
Record Polygon := mkPoly { outer : Loop; inner : list Loop; p_area : R; pg_normal : pt }.

(** polygon3d.rs:95-109 *)
Definition poly_new (l : Loop) : res Polygon := do a <- l_area l; Ok (mkPoly l [] a (ln l)).

(** polygon3d.rs:184-208 *)
Fixpoint outside_all (hs : list Loop) (p : pt) : res bool :=
  match hs with
  | [] => Ok true
  | h :: hs' => do b <- l_test_point h p; if (b : bool) then Ok false else outside_all hs' p
  end.
Definition poly_test_point (g : Polygon) (p : pt) : res bool :=
  do b <- l_test_point (outer g) p; if negb b then Ok false else outside_all (inner g) p.

(** [for x in xs { if test(x)? == bad { return Err } }] *)
Fixpoint check_all {A} (test : A -> res bool) (good : bool) (xs : list A) : res unit :=
  match xs with
  | [] => Ok tt
  | x :: xs' => do b <- test x; if eqb b good then check_all test good xs' else Err
  end.

(** polygon3d.rs:211-252 *)
Definition cut_hole (g : Polygon) (hole : Loop) : res Polygon :=
  if negb (vis_parallel (pg_normal g) (ln hole)) then Err else
  do _ <- check_all (poly_test_point g) true (lv hole);
  do _ <- check_all (l_test_point hole) false (concat (map lv (inner g)));
  do a <- l_area hole;
  Ok (mkPoly (outer g) (inner g ++ [hole]) (p_area g - a) (pg_normal g)).

(** f64::MAX *)
Definition float_max : R := 2 ^ 1024 - 2 ^ 971.

(** polygon3d.rs:295-323: the closest pair of an outline vertex and a vertex of an unprocessed hole:
    (distance, outline vertex, hole, hole vertex); the last two are kept from the previous round if nothing is found *)
Definition closest (ret : list pt) (holes : list Loop) (processed : list nat) (start : R * nat * nat * nat) : R * nat * nat * nat :=
  fold_left (fun st j =>
    fold_left (fun st k =>
      if existsb (Nat.eqb k) processed then st else
      let h := lv (nth k holes loop_new) in
      fold_left (fun '(d, e, kk, v) l =>
        let dist := squared_distance (nth j ret vzero) (nth l h vzero) in
        if Rltb dist d then (dist, j, k, l) else (d, e, kk, v)) (seq 0 (length h)) st)
      (seq 0 (length holes)) st)
    (seq 0 (length ret)) start.

(** polygon3d.rs:348-350: [(a - b) as usize % n] on 64-bit: negative [i32] values wrap to 2^64 *)
Definition wrap_index (x : Z) (n : nat) : nat := Z.to_nat ((x mod 2 ^ 64) mod Z.of_nat n)%Z.

(** polygon3d.rs:344-360: the hole's vertices in the order they are added, [n + 1] of them *)
Definition hole_walk (same_dir : bool) (h : list pt) (v : nat) : list nat :=
  map (fun j => wrap_index (if same_dir then Z.of_nat v - Z.of_nat j else Z.of_nat v + Z.of_nat j)%Z (length h)) (seq 0 (length h + 1)).

(** [aux.push_collinear(p, false).unwrap()] for each point *)
Fixpoint push_all (aux : Loop) (ps : list pt) : res Loop :=
  match ps with
  | [] => Ok aux
  | p :: ps' => match push_collinear aux p false with Ok aux' => push_all aux' ps' | _ => Panic end
  end.

(** polygon3d.rs:329-365: what is pushed in one round *)
Definition round_points (ret h : list pt) (e v : nat) (same_dir : bool) : list pt :=
  flat_map (fun i =>
    let x := nth i ret vzero in
    if (i =? e)%nat then x :: map (fun k => nth k h vzero) (hole_walk same_dir h v) ++ [x] else [x]) (seq 0 (length ret)).

(** polygon3d.rs:286-371; state: outline, processed holes, [inner_loop_id], [inner_vertex_id] *)
Fixpoint merge_holes (rounds : nat) (outer_normal : pt) (holes : list Loop) (ret : Loop) (processed : list nat) (k0 v0 : nat) : res Loop :=
  match rounds with
  | O => Ok ret
  | S rounds' =>
      let '(d, e, k, v) := closest (lv ret) holes processed (float_max, 0%nat, k0, v0) in
      (* min_inner_loop_id is [k] when a pair was found and 0 otherwise *)
      let km := if Rltb d float_max then k else 0%nat in
      let h := nth km holes loop_new in
      do aux <- push_all loop_new (round_points (lv ret) (lv h) e v (vis_same_direction outer_normal (ln h)));
      merge_holes rounds' outer_normal holes aux (processed ++ [k]) k v
  end.

(** polygon3d.rs:268-373 *)
Definition get_closed_loop (g : Polygon) : res Loop :=
  merge_holes (length (inner g)) (ln (outer g)) (inner g) (l_open (outer g)) [] 0%nat 0%nat.

(** polygon3d.rs:377-387 *)
Definition poly_contains_segment (g : Polygon) (s : Segment) : bool :=
  contains_segment (lv (outer g)) s || existsb (fun h => contains_segment (lv h) s) (inner g).

(** polygon3d.rs:115-121 *)
Definition poly_reverse (g : Polygon) : Polygon :=
  mkPoly (l_reverse (outer g)) (map l_reverse (inner g)) (p_area g) (ln (l_reverse (outer g))).

(** Triangulations: /repo/geometry/src/triangulation3d.rs, in exact arithmetic.

    Simplifications: [aspect_ratio], [circumcenter] and [centroid] of a piece are recomputed from its triangle (they are computed
    once from it and never changed); error texts are dropped; the unbounded recursion of [refine] takes a fuel. *)
From Coq Require Import Reals List Bool Lra Lia ZArith.
From Verif.Common Require Import Base Flt.
From Verif.Geometry Require Import Vec BBoxModel TriangleModel LoopModel.
Import ListNotations.
Open Scope R_scope.

(** triangulation3d.rs:38-75 *)
Inductive Edge := Ab | Bc | Ca.
Definition as_i (e : Edge) : nat := match e with Ab => 0 | Bc => 1 | Ca => 2 end.
Definition from_i (i : nat) : res Edge := match i with 0%nat => Ok Ab | 1%nat => Ok Bc | 2%nat => Ok Ca | _ => Panic end.
Definition edge_next (e : Edge) : Edge := match e with Ab => Bc | Bc => Ca | Ca => Ab end.

(** triangulation3d.rs:77-109 *)
Record Piece := mkPiece { tri : Triangle3D; nb0 : option nat; nb1 : option nat; nb2 : option nat; co0 : bool; co1 : bool; co2 : bool;
                          valid : bool; index : nat }.
(** triangulation3d.rs:113-124 *)
Record Mesh := mkMesh { pieces : list Piece; n_valid : nat }.

(** triangulation3d.rs:127-159 *)
Definition piece_new (a b c : pt) (i : nat) : res Piece :=
  do t <- triangle_new a b c; Ok (mkPiece t None None None false false false true i).

(** triangulation3d.rs:161-195 *)
Definition piece_invalidate (p : Piece) : Piece := mkPiece (tri p) (nb0 p) (nb1 p) (nb2 p) (co0 p) (co1 p) (co2 p) false (index p).
Definition set_neighbour (p : Piece) (e : Edge) (i : nat) : Piece :=
  match e with
  | Ab => mkPiece (tri p) (Some i) (nb1 p) (nb2 p) (co0 p) (co1 p) (co2 p) (valid p) (index p)
  | Bc => mkPiece (tri p) (nb0 p) (Some i) (nb2 p) (co0 p) (co1 p) (co2 p) (valid p) (index p)
  | Ca => mkPiece (tri p) (nb0 p) (nb1 p) (Some i) (co0 p) (co1 p) (co2 p) (valid p) (index p)
  end.
Definition neighbour (p : Piece) (e : Edge) : option nat := match e with Ab => nb0 p | Bc => nb1 p | Ca => nb2 p end.
Definition constrain (e : Edge) (p : Piece) : Piece :=
  match e with
  | Ab => mkPiece (tri p) (nb0 p) (nb1 p) (nb2 p) true (co1 p) (co2 p) (valid p) (index p)
  | Bc => mkPiece (tri p) (nb0 p) (nb1 p) (nb2 p) (co0 p) true (co2 p) (valid p) (index p)
  | Ca => mkPiece (tri p) (nb0 p) (nb1 p) (nb2 p) (co0 p) (co1 p) true (valid p) (index p)
  end.
Definition is_constrained (p : Piece) (e : Edge) : bool := match e with Ab => co0 p | Bc => co1 p | Ca => co2 p end.

(** triangle3d.rs:257-267, 309-334 *)
Definition vertex (t : Triangle3D) (i : nat) : res pt := match i with 0%nat => Ok (t_a t) | 1%nat => Ok (t_b t) | 2%nat => Ok (t_c t) | _ => Err end.
Definition segment (t : Triangle3D) (e : Edge) : Segment := match e with Ab => mkS (t_a t) (t_b t) | Bc => mkS (t_b t) (t_c t) | Ca => mkS (t_c t) (t_a t) end.
Definition edge_of (t : Triangle3D) (s : Segment) : option Edge :=
  if s_compare s (segment t Ab) then Some Ab else if s_compare s (segment t Bc) then Some Bc else if s_compare s (segment t Ca) then Some Ca else None.

(** Methods taking [&mut self]: the mesh is kept when they fail *)
Definition st (A : Type) := Mesh -> res A * Mesh.
Definition ret {A} (x : A) : st A := fun m => (Ok x, m).
Definition lift {A} (x : res A) : st A := fun m => (x, m).
Definition sbind {A B} (x : st A) (f : A -> st B) : st B :=
  fun m => match x m with (Ok a, m') => f a m' | (Err, m') => (Err, m') | (Panic, m') => (Panic, m') end.
Notation "'sdo' x <- e ; f" := (sbind e (fun x => f)) (at level 200, x pattern, e at level 100, f at level 200).

(** [self.triangles[i]] *)
Definition get (i : nat) : st Piece := fun m => match nth_error (pieces m) i with Some p => (Ok p, m) | None => (Panic, m) end.
Definition modify (i : nat) (f : Piece -> Piece) : st unit :=
  fun m => match nth_error (pieces m) i with Some p => (Ok tt, mkMesh (upd (pieces m) i (f p)) (n_valid m)) | None => (Panic, m) end.

(** triangulation3d.rs:354-366 *)
Definition invalidate (i : nat) : st unit := fun m =>
  match nth_error (pieces m) i with
  | Some p => (Ok tt, mkMesh (upd (pieces m) i (piece_invalidate p)) (n_valid m - 1))
  | None => (Err, m)
  end.

(** triangulation3d.rs:368-378 *)
Fixpoint first_invalid_from (ps : list Piece) (i : nat) : option nat :=
  match ps with [] => None | p :: ps' => if negb (valid p) then Some i else first_invalid_from ps' (S i) end.
Definition get_first_invalid (m : Mesh) (start : nat) : option nat := first_invalid_from (skipn start (pieces m)) start.

(** triangulation3d.rs:414-446 *)
Definition t_push (a b c : pt) (last_added : nat) : st nat := fun m =>
  let '(extend, n) := match get_first_invalid m last_added with Some i => (false, i) | None => (true, length (pieces m)) end in
  match piece_new a b c n with
  | Ok t => (Ok n, mkMesh (if (extend : bool) then pieces m ++ [t] else upd (pieces m) n t) (S (n_valid m)))
  | Err => (Err, m)
  | Panic => (Panic, m)
  end.

(** triangulation3d.rs:381-411 *)
Definition mark_as_neighbours (i1 : nat) (e1 : Edge) (i2 : nat) : st unit :=
  if (i1 =? i2)%nat then lift Err else
  sdo p1 <- get i1;
  if negb (valid p1) then lift Err else
  let seg1 := segment (tri p1) e1 in
  sdo p2 <- get i2;
  if negb (valid p2) then lift Err else
  match edge_of (tri p2) seg1 with
  | None => lift Err
  | Some e2 =>
      sdo _ <- modify i1 (fun p => set_neighbour p e1 i2);
      modify i2 (fun p => set_neighbour p e2 i1)
  end.
Definition mark_opt (i1 : nat) (e1 : Edge) (n : option nat) : st unit :=
  match n with Some i2 => mark_as_neighbours i1 e1 i2 | None => ret tt end.
Definition constrain_if (c : bool) (i : nat) (e : Edge) : st unit := if c then modify i (constrain e) else ret tt.

Fixpoint for_each {A} (xs : list A) (f : A -> st unit) : st unit :=
  match xs with [] => ret tt | x :: xs' => sdo _ <- f x; for_each xs' f end.

(** triangulation3d.rs:326-337 *)
Fixpoint mark_pair (this_i other_i : nat) (es : list Edge) : st unit :=
  match es with
  | [] => ret tt
  | e :: es' =>
      sdo p <- get this_i; sdo q <- get other_i;
      match edge_of (tri q) (segment (tri p) e) with
      | Some _ => mark_as_neighbours this_i e other_i
      | None => mark_pair this_i other_i es'
      end
  end.
(** triangulation3d.rs:322-341 *)
Definition mark_neighbourhouds : st unit := fun m =>
  let n := length (pieces m) in
  for_each (seq 0 n) (fun i => for_each (seq (i + 1) (n - (i + 1))) (fun j => mark_pair i j [Ab; Bc; Ca])) m.

(** loop3d.rs:449-451, [Vec::remove] *)
Definition remove_at {A} (i : nat) (l : list A) : list A := firstn i l ++ skipn (S i) l.

(** triangulation3d.rs:215-263: one fuel unit per iteration; running out is the error at 218-220 *)
Fixpoint ears (fuel : nat) (g : Polygon) (l : Loop) (anchor : nat) : st unit :=
  match fuel with
  | O => lift Err
  | S fuel' => fun m =>
      let last_added := length (pieces m) in
      let n := length (lv l) in
      if (n =? 2)%nat then mark_neighbourhouds m else
      if (n =? 0)%nat then (Panic, m) else
      let v0 := nth (anchor mod n) (lv l) vzero in
      let v1 := nth ((anchor + 1) mod n) (lv l) vzero in
      let v2 := nth ((anchor + 2) mod n) (lv l) vzero in
      (sdo is_line <- lift (is_collinear v0 v1 v2);
       sdo diag <- lift (is_diagonal l (mkS v0 v2));
       if (n =? 3)%nat || (negb is_line && diag) then
         sdo _ <- t_push v0 v1 v2 last_added;
         sdo _ <- constrain_if (poly_contains_segment g (mkS v0 v1)) last_added Ab;
         sdo _ <- constrain_if (poly_contains_segment g (mkS v1 v2)) last_added Bc;
         sdo _ <- constrain_if (poly_contains_segment g (mkS v2 v0)) last_added Ca;
         ears fuel' g (with_vertices l (remove_at ((anchor + 1) mod n) (lv l))) anchor
       else ears fuel' g l (anchor + 1)) m
  end.

(** triangulation3d.rs:207-264 *)
Definition triangulate (g : Polygon) : res Mesh :=
  do l0 <- get_closed_loop g;
  do l <- closed_loop l0;
  match ears 220 g l 0 (mkMesh [] 0) with (Ok _, m) => Ok m | (Err, _) => Err | (Panic, _) => Panic end.

(** triangulation3d.rs:449-470 *)
Definition get_opposite_vertex (t : Triangle3D) (s : Segment) : res pt :=
  match edge_of t s with Some Ab => Ok (t_c t) | Some Bc => Ok (t_a t) | Some Ca => Ok (t_b t) | None => Err end.

(** triangulation3d.rs:1100-1150 *)
Definition is_convex (a b c d : pt) : bool :=
  let ab := vsub b a in let bc := vsub c b in
  let n_abc := vcross ab bc in
  if vis_zero n_abc then false else
  let cd := vsub d c in
  let n_bcd := vcross bc cd in
  if vis_zero n_bcd then false else
  if negb (vis_same_direction n_abc n_bcd) then false else
  let da := vsub a d in
  let n_cda := vcross cd da in
  if vis_zero n_cda then false else
  if negb (vis_same_direction n_abc n_cda) then false else
  let n_dab := vcross da ab in
  if vis_zero n_dab then false else
  negb (negb (vis_same_direction n_abc n_dab)).

(** the three corners starting from an edge: triangulation3d.rs:501-503, 555-561 *)
Definition corners (t : Triangle3D) (e : Edge) : pt * pt * pt :=
  match e with Ab => (t_a t, t_b t, t_c t) | Bc => (t_b t, t_c t, t_a t) | Ca => (t_c t, t_a t, t_b t) end.

(** triangulation3d.rs:474-526 *)
Definition get_flipped_aspect_ratio (i : nat) (e : Edge) : st (option R) :=
  sdo p <- get i;
  if negb (valid p) then lift Err else
  if is_constrained p e then ret None else
  match neighbour p e with
  | None => ret None
  | Some ni =>
      sdo q <- get ni;
      if negb (valid q) then lift Err else
      if (index q =? index p)%nat then lift Err else
      let '(a, b, c) := corners (tri p) e in
      sdo o <- lift (get_opposite_vertex (tri q) (mkS a b));
      if negb (is_convex a o b c) then ret None else
      sdo f1 <- lift (piece_new a o c 0);
      sdo f2 <- lift (piece_new o b c 0);
      let r1 := aspect_ratio (tri f1) in let r2 := aspect_ratio (tri f2) in
      ret (Some (if Rltb r2 r1 then r1 else r2))
  end.

Definition edge_or_err (t : Triangle3D) (x y : pt) : st Edge := lift (match edge_of t (mkS x y) with Some e => Ok e | None => Err end).

(** triangulation3d.rs:528-674 *)
Definition flip_diagonal (i : nat) (e : Edge) : st unit :=
  sdo p <- get i;
  if negb (valid p) then lift Err else
  match neighbour p e with
  | None => lift Err
  | Some ni =>
      sdo q <- get ni;
      if negb (valid q) then lift Err else
      let '(a, b, c) := corners (tri p) e in
      sdo o <- lift (get_opposite_vertex (tri q) (mkS a b));
      sdo ac_e <- edge_or_err (tri p) a c;
      sdo cb_e <- edge_or_err (tri p) c b;
      sdo bo_e <- edge_or_err (tri q) b o;
      sdo ao_e <- edge_or_err (tri q) a o;
      sdo _ <- invalidate i;
      sdo _ <- invalidate ni;
      sdo aoc_i <- t_push a o c i;
      sdo cob_i <- t_push c o b ni;
      sdo _ <- mark_opt i Ab (neighbour q ao_e);
      sdo _ <- constrain_if (is_constrained q ao_e) aoc_i Ab;
      sdo _ <- mark_as_neighbours aoc_i Bc cob_i;
      sdo _ <- mark_opt i Ca (neighbour p ac_e);
      sdo _ <- constrain_if (is_constrained p ac_e) aoc_i Ca;
      sdo _ <- mark_opt cob_i Bc (neighbour q bo_e);
      sdo _ <- constrain_if (is_constrained q bo_e) cob_i Bc;
      sdo _ <- mark_opt cob_i Ca (neighbour p cb_e);
      constrain_if (is_constrained p cb_e) cob_i Ca
  end.

(** triangulation3d.rs:709-790 *)
Definition process_hemisphere (s : Segment) (p : pt) (i : nat) : st (nat * nat) :=
  sdo pc <- get i;
  sdo ab_e <- lift (match edge_of (tri pc) s with Some e => Ok e | None => Err end);
  let ab := segment (tri pc) ab_e in
  let a := s_start ab in let b := s_end ab in
  sdo e <- lift (match edge_of (tri pc) ab with Some e => Ok e | None => Err end);
  sdo c <- lift (get_opposite_vertex (tri pc) ab);
  sdo _ <- invalidate i;
  let bc_n := neighbour pc (edge_next e) in
  let ac_n := neighbour pc (edge_next (edge_next e)) in
  let ab_c := is_constrained pc e in
  let bc_c := is_constrained pc (edge_next e) in
  let ac_c := is_constrained pc (edge_next (edge_next e)) in
  sdo apc_i <- t_push a p c i;
  sdo pbc_i <- t_push p b c 0;
  sdo _ <- constrain_if ab_c apc_i Ab;
  sdo _ <- mark_as_neighbours apc_i Bc pbc_i;
  sdo _ <- mark_opt apc_i Ca ac_n;
  sdo _ <- constrain_if ac_c apc_i Ca;
  sdo _ <- constrain_if ab_c pbc_i Ab;
  sdo _ <- mark_opt pbc_i Bc bc_n;
  sdo _ <- constrain_if bc_c pbc_i Bc;
  ret (apc_i, pbc_i).

(** triangulation3d.rs:678-810 *)
Definition split_edge (i : nat) (e : Edge) (p : pt) : st unit :=
  sdo pc <- get i;
  if negb (valid pc) then lift Err else
  let s := segment (tri pc) e in
  let nei := neighbour pc e in
  sdo (top_left, top_right) <- process_hemisphere s p i;
  match nei with
  | None => ret tt
  | Some ni =>
      sdo (bottom_right, bottom_left) <- process_hemisphere s p ni;
      sdo _ <- mark_as_neighbours top_left Ab bottom_left;
      mark_as_neighbours top_right Ab bottom_right
  end.

(** triangulation3d.rs:814-901 *)
Definition split_triangle (i : nat) (p : pt) : st unit :=
  sdo pc <- get i;
  if negb (valid pc) then lift Err else
  let a := t_a (tri pc) in let b := t_b (tri pc) in let c := t_c (tri pc) in
  sdo e_ab <- edge_or_err (tri pc) a b;
  sdo e_bc <- edge_or_err (tri pc) b c;
  sdo e_ca <- edge_or_err (tri pc) c a;
  sdo _ <- invalidate i;
  sdo cap_i <- t_push c a p 0;
  sdo abp_i <- t_push a b p 0;
  sdo bcp_i <- t_push b c p 0;
  sdo _ <- mark_as_neighbours cap_i Bc abp_i;
  sdo _ <- mark_as_neighbours abp_i Bc bcp_i;
  sdo _ <- mark_as_neighbours bcp_i Bc cap_i;
  sdo _ <- constrain_if (is_constrained pc e_ca) cap_i Ab;
  sdo _ <- mark_opt cap_i Ab (neighbour pc e_ca);
  sdo _ <- constrain_if (is_constrained pc e_ab) abp_i Ab;
  sdo _ <- mark_opt abp_i Ab (neighbour pc e_ab);
  sdo _ <- constrain_if (is_constrained pc e_bc) bcp_i Ab;
  mark_opt bcp_i Ab (neighbour pc e_bc).

(** triangulation3d.rs:937-950 *)
Fixpoint best_flip (i : nat) (current : R) (es : list Edge) (best : option Edge * R) : st (option Edge) :=
  match es with
  | [] => ret (fst best)
  | e :: es' =>
      sdo r <- get_flipped_aspect_ratio i e;
      best_flip i current es'
        (match r with Some ar => if Rltb ar current && Rltb ar (snd best) then (Some e, ar) else best | None => best end)
  end.

(** triangulation3d.rs:922-959: one pass; the result says whether something was flipped *)
Fixpoint delaunay_pass (max_ar : R) (is : list nat) (changed : bool) : st bool :=
  match is with
  | [] => ret changed
  | i :: is' =>
      sdo p <- get i;
      if negb (valid p) then delaunay_pass max_ar is' changed else
      let ar := aspect_ratio (tri p) in
      if Rltb ar max_ar then delaunay_pass max_ar is' changed else
      sdo best <- best_flip i ar [Ab; Bc; Ca] (None, float_max);
      match best with
      | Some e => sdo _ <- flip_diagonal i e; delaunay_pass max_ar is' true
      | None => delaunay_pass max_ar is' changed
      end
  end.

(** triangulation3d.rs:906-963 *)
Fixpoint delaunay_loop (loops : nat) (n : nat) (max_ar : R) : st unit :=
  match loops with
  | O => ret tt
  | S loops' => sdo changed <- delaunay_pass max_ar (seq 0 n) false; if (changed : bool) then delaunay_loop loops' n max_ar else ret tt
  end.
Definition restore_delaunay (max_ar : R) : st unit := fun m => delaunay_loop 30 (length (pieces m)) max_ar m.

(** triangulation3d.rs:967-1000 *)
Definition add_point_to_triangle (i : nat) (p : pt) (loc : PointInTriangle) : st bool :=
  sdo pc <- get i;
  if negb (valid pc) then lift Err else
  match loc with
  | VertexA | VertexB | VertexC => ret false
  | EdgeAB => sdo _ <- split_edge i Ab p; ret true
  | EdgeBC => sdo _ <- split_edge i Bc p; ret true
  | EdgeAC => sdo _ <- split_edge i Ca p; ret true
  | Inside => sdo _ <- split_triangle i p; ret true
  | Outside => lift Panic
  end.

(** triangulation3d.rs:1005-1024 *)
Fixpoint locate (p : pt) (ps : list Piece) (i : nat) : option (nat * PointInTriangle) :=
  match ps with
  | [] => None
  | q :: ps' =>
      if negb (valid q) then locate p ps' (S i) else
      match test_point (tri q) p with Outside => locate p ps' (S i) | loc => Some (i, loc) end
  end.
Definition add_point (p : pt) : st bool := fun m =>
  match locate p (pieces m) 0 with Some (i, loc) => add_point_to_triangle i p loc m | None => (Err, m) end.

(** triangulation3d.rs:1049-1058: the longest edge *)
Definition longest_edge (t : Triangle3D) : Edge :=
  fold_left (fun best e => if Rltb (s_length (segment t best)) (s_length (segment t e)) then e else best) [Bc; Ca] Ab.

(** triangulation3d.rs:1032-1091 *)
Fixpoint refine_pass (max_area max_ar : R) (is : list nat) (changed : bool) : st bool :=
  match is with
  | [] => ret changed
  | i :: is' =>
      sdo pc <- get i;
      if negb (valid pc) then lift Panic else
      let area := t_area (tri pc) in
      if Rltb area (1 / 1000) then refine_pass max_area max_ar is' changed else
      if Rltb max_ar (aspect_ratio (tri pc)) then
        let e := longest_edge (tri pc) in
        sdo _ <- split_edge i e (midpoint (segment (tri pc) e));
        sdo _ <- restore_delaunay max_ar;
        refine_pass max_area max_ar is' true
      else if Rltb max_area area then
        fun m =>
          match add_point (circumcenter (tri pc)) m with
          | (Ok true, m') => (sdo _ <- restore_delaunay max_ar; refine_pass max_area max_ar is' true) m'
          | (Ok false, m') => refine_pass max_area max_ar is' changed m'
          | (Panic, m') => (Panic, m')
          | (Err, m') =>
              (sdo pc' <- get i;
               sdo did <- add_point_to_triangle i (centroid (tri pc')) Inside;
               if (did : bool) then sdo _ <- restore_delaunay max_ar; refine_pass max_area max_ar is' true
               else refine_pass max_area max_ar is' changed) m'
          end
      else refine_pass max_area max_ar is' changed
  end.

(** triangulation3d.rs:1028-1097; the recursion is not bounded in the code *)
Fixpoint refine (fuel : nat) (max_area max_ar : R) : st unit :=
  match fuel with
  | O => lift Err
  | S fuel' => fun m =>
      (sdo changed <- refine_pass max_area max_ar (seq 0 (length (pieces m))) false;
       if (changed : bool) then refine fuel' max_area max_ar else ret tt) m
  end.

(** triangulation3d.rs:310-318 *)
Definition mesh_polygon (fuel : nat) (g : Polygon) (max_area max_ar : R) : res Mesh :=
  do m <- triangulate g;
  match refine fuel max_area max_ar m with (Ok _, m') => Ok m' | (Err, _) => Err | (Panic, _) => Panic end.

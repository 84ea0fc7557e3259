(** Cutting loops with segments: /repo/geometry/src/loop3d.rs:1014-1049 and 1308-1421, in exact arithmetic *)
From Coq Require Import Reals List Bool.
From Verif.Common Require Import Base Flt.
From Verif.Geometry Require Import Vec TriangleModel LoopModel.
Import ListNotations.
Open Scope R_scope.

(** The edge from vertex [i], as in loop3d.rs:1037 *)
Definition l_edge (vs : list pt) (i : nat) : Segment := mkS (nth i vs vzero) (nth ((i + 1) mod length vs) vs vzero).

(** loop3d.rs:1024-1034: the closure [add_pt] *)
Definition add_pt (ret : list (nat * pt)) (i : nat) (p : pt) : list (nat * pt) :=
  if existsb (fun q => compare p (snd q)) ret then ret else ret ++ [(i, p)].

(** loop3d.rs:1014-1049; [len] is the length stored in the segment, which may differ from that of its ends (see [l_split]) *)
Definition l_intersect (vs : list pt) (s : Segment) (len : R) : list (nat * pt) :=
  if Rltb len (1 / 1000) then [] else
  fold_left (fun ret i =>
    let current := l_edge vs i in
    if Rltb (s_length current) (1 / 100) || Rltb len (1 / 100) then ret else
    match s_intersect current s with Some p => add_pt ret i p | None => ret end) (seq 0 (length vs)) [].

(** loop3d.rs:1333-1339 *)
Definition by_edge (inters : list (nat * pt)) : list (nat * pt) :=
  fold_left (fun acc x => if existsb (Nat.eqb (fst x)) (map fst acc) then acc else acc ++ [x]) inters [].

(** loop3d.rs:1366-1387: what is pushed to [left] and [right] for each [i] *)
Fixpoint push_list (l : Loop) (ps : list pt) : res Loop := match ps with [] => Ok l | p :: ps' => do l' <- push l p; push_list l' ps' end.
Definition split_step (vs : list pt) (b m : nat) (B M : pt) (lr : Loop * Loop) (i : nat) : res (Loop * Loop) :=
  let '(lp, rp) := lr in
  let c := nth (i mod length vs) vs vzero in
  if (i <=? b)%nat then do lp <- push lp c; Ok (lp, rp)
  else if (i =? b + 1)%nat then do lp <- push lp B; do rp <- push rp B; do rp <- push rp c; Ok (lp, rp)
  else if (i <? m + 1)%nat then do rp <- push rp c; Ok (lp, rp)
  else if (i =? m + 1)%nat then do rp <- push rp M; do lp <- push lp M; do lp <- push lp c; Ok (lp, rp)
  else do lp <- push lp c; Ok (lp, rp).
Fixpoint split_walk (vs : list pt) (b m : nat) (B M : pt) (lr : Loop * Loop) (is : list nat) : res (Loop * Loop) :=
  match is with [] => Ok lr | i :: is' => do lr' <- split_step vs b m B M lr i; split_walk vs b m B M lr' is' end.

(** loop3d.rs:1390-1398: a piece is returned when it has more than two vertices *)
Definition finish (l : Loop) : res (list Loop) := if (2 <? length (lv l))%nat then do l' <- closed_loop l; Ok [l'] else Ok [].

(** loop3d.rs:1308-1399 *)
Definition l_split (l : Loop) (seg : Segment) : res (list Loop) :=
  if negb (lclosed l) then Err else
  do anchor <- l_at (lv l) 0;
  let tiny := 1 / 1000 in
  let len := s_length seg in
  let seg := if Rltb (Rabs (distance_to_plane (s_start seg) anchor (ln l))) tiny && Rltb (Rabs (distance_to_plane (s_end seg) anchor (ln l))) tiny
             then mkS (project_into_plane (s_start seg) anchor (ln l)) (project_into_plane (s_end seg) anchor (ln l)) else seg in
  if contains_segment (lv l) seg || Rltb len (1 / 10 ^ 6) then Ok [l] else
  match by_edge (l_intersect (lv l) seg len) with
  | (i, p) :: (j, q) :: _ =>
      if (i =? j)%nat then Ok [l] else
      if compare p q then Ok [l] else
      let '(b, B, m, M) := if (j <? i)%nat then (j, q, i, p) else (i, p, j, q) in
      do lr <- split_walk (lv l) b m B M (loop_new, loop_new) (seq 0 (length (lv l) + 1));
      do lp <- finish (fst lr);
      do rp <- finish (snd lr);
      Ok (lp ++ rp)
  | _ => Ok [l]
  end.

(** loop3d.rs:1404-1421 *)
Fixpoint split_all (ls : list Loop) (seg : Segment) : res (list Loop) :=
  match ls with [] => Ok [] | l :: ls' => do a <- l_split l seg; do b <- split_all ls' seg; Ok (a ++ b) end.
Fixpoint split_slice (ls : list Loop) (segs : list Segment) : res (list Loop) :=
  match segs with [] => Ok ls | s :: segs' => do ls' <- split_all ls s; split_slice ls' segs' end.
Definition split_from_slice (l : Loop) (segs : list Segment) : res (list Loop) := split_slice [l] segs.

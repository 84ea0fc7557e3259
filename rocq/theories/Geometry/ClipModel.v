(** Intersecting and biting loops: /repo/geometry/src/loop3d.rs:422-431 and 1051-1304, in exact arithmetic.
    Not modelled: the assertions that normals have length 1 (only in debug builds, 1077-1078 and 1190-1191), and [Float::MAX] as the first
    distance to beat (1057), which is taken to be infinite. Indexing a loop without vertices gives the origin instead of a panic, but for the
    first vertex of the other loop (1082 and 1195). *)
From Coq Require Import Reals List Bool.
From Verif.Common Require Import Base Flt.
From Verif.Geometry Require Import Vec TriangleModel LoopModel SplitModel.
Import ListNotations.
Open Scope R_scope.

(** loop3d.rs:422-431 *)
Definition sanitize (l : Loop) : res Loop :=
  do l' <- push_list loop_new (lv l);
  if lclosed l && (3 <=? length (lv l'))%nat then closed_loop l' else Ok l'.

(** loop3d.rs:1051-1067 *)
Definition closest_pt (inters : list (nat * pt)) (last_pt : pt) : option (nat * pt) :=
  fold_left (fun best x =>
    let d := squared_distance (snd x) last_pt in
    if Rltb (1 / 10 ^ 9) d && match best with Some y => Rltb d (squared_distance (snd y) last_pt) | None => true end then Some x else best) inters None.

(** The vertex at an index, as in [self[index % self.len()]] *)
Definition l_wrap (l : Loop) (i : nat) : pt := nth (i mod length (lv l)) (lv l) vzero.

(** loop3d.rs:1205-1233: the first vertex of [vs] that is in [l] *)
Fixpoint first_in (l : Loop) (vs : list pt) (i : nat) : res (option (nat * pt)) :=
  match vs with
  | [] => Ok None
  | v :: vs' => do t <- l_test_point l v; if (t : bool) then Ok (Some (i, v)) else first_in l vs' (S i)
  end.
(** [self.test_point(p)? && other.test_point(p)?] *)
Definition in_both (a b : Loop) (p : pt) : res bool := do t <- l_test_point a p; if (t : bool) then l_test_point b p else Ok false.

(** loop3d.rs:1241-1295: [fuel] is how often the loop may still run *)
Fixpoint clip_walk (a b : Loop) (fuel : nat) (l : Loop) (ws : bool) (index : nat) : res (option Loop) :=
  match fuel with
  | O => Ok None
  | S fuel' =>
      let w := if ws then a else b in
      let o := if ws then b else a in
      let c := l_wrap w index in
      if (2 <? length (lv l))%nat && (compare (nth 0 (lv l) vzero) c || compare (nth 0 (lv l) vzero) (last (lv l) vzero)) then Ok (Some l) else
      let last_pt := last (lv l) vzero in
      let seg := mkS last_pt c in
      match l_intersect (lv o) seg (s_length seg) with
      | [] => do t <- in_both a b c; if (t : bool) then do l' <- push l c; clip_walk a b fuel' l' ws ((index + 1) mod length (lv w)) else Ok None
      | inters =>
          match closest_pt inters last_pt with
          | Some (j, p) => do l' <- push l p; clip_walk a b fuel' l' (negb ws) ((j + 1) mod length (lv o))
          | None => do t <- in_both a b c; if (t : bool) then do l' <- push l c; clip_walk a b fuel' l' ws index else Ok None
          end
      end
  end.
(** loop3d.rs:1297-1303 *)
Definition clip_finish (l : Loop) : res (option Loop) :=
  do l' <- sanitize l; if (length (lv l') <? 3)%nat then Ok None else do r <- closed_loop l'; Ok (Some r).

(** loop3d.rs:1185-1304 *)
Definition l_intersection (a b : Loop) : res (option Loop) :=
  if negb (lclosed a) || negb (lclosed b) then Err else
  if Rltb (Rabs (vdot (ln a) (ln b))) (999 / 1000) then Ok None else
  do b0 <- l_at (lv b) 0;
  do c <- l_is_coplanar a b0;
  if negb c then Ok None else
  let b := if vis_same_direction (ln b) (ln a) then b else l_reverse b in
  do f <- first_in b (lv a) 0;
  do s <- match f with Some x => Ok (Some (true, x)) | None => do g <- first_in a (lv b) 0; Ok (match g with Some x => Some (false, x) | None => None end) end;
  match s with
  | None => Ok None
  | Some (ws, (i, p)) =>
      do l <- push loop_new p;
      do r <- clip_walk a b 99 l ws (i + 1);
      match r with Some l' => clip_finish l' | None => Ok None end
  end.

(** loop3d.rs:1098-1114: the first vertex of [vs] that is not in [l] *)
Fixpoint first_out (l : Loop) (vs : list pt) (i : nat) : res (option (nat * pt)) :=
  match vs with
  | [] => Ok None
  | v :: vs' => do t <- l_test_point l v; if (t : bool) then first_out l vs' (S i) else Ok (Some (i, v))
  end.
(** loop3d.rs:1122-1175; [None] when the walk was too long *)
Fixpoint bite_walk (a c : Loop) (first : pt) (fuel : nat) (l : Loop) (ws : bool) (index : nat) : res (option Loop) :=
  match fuel with
  | O => Ok None
  | S fuel' =>
      let w := if ws then a else c in
      let o := if ws then c else a in
      let x := l_wrap w index in
      if (1 <? length (lv l))%nat && compare x first then Ok (Some l) else
      let last_pt := last (lv l) vzero in
      if compare last_pt x then bite_walk a c first fuel' l ws ((index + 1) mod length (lv w)) else
      do n <- vnormalize (vsub x last_pt);
      let seg := mkS last_pt (vadd x (vscale n (1 / 1000))) in
      match l_intersect (lv o) seg (s_length seg) with
      | [] => do l' <- push l x; bite_walk a c first fuel' l' ws ((index + 1) mod length (lv w))
      | inters =>
          match closest_pt inters last_pt with
          | Some (j, p) => do l' <- push l p; bite_walk a c first fuel' l' (negb ws) ((j + 1) mod length (lv o))
          | None => do l' <- push l x; bite_walk a c first fuel' l' ws index
          end
      end
  end.
(** loop3d.rs:1069-1180 *)
Definition l_bite (a b : Loop) : res Loop :=
  if negb (lclosed a) || negb (lclosed b) then Err else
  if Rltb (Rabs (vdot (ln a) (ln b))) (999 / 1000) then Err else
  do b0 <- l_at (lv b) 0;
  do cp <- l_is_coplanar a b0;
  if negb cp then Err else
  do i <- l_intersection a b;
  match i with
  | None => Ok a
  | Some c =>
      let c := if vis_same_direction (ln c) (ln a) then l_reverse c else c in
      do f <- first_out c (lv a) 0;
      match f with
      | None => Ok a
      | Some (k, first) =>
          do l <- push loop_new first;
          do r <- bite_walk a c first 99 l true (k + 1);
          match r with Some l' => closed_loop l' | None => Ok a end
      end
  end.

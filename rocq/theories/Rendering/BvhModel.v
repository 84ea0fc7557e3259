(** Model of /repo/rendering/src/bvh.rs, of the slice intersections in /repo/rendering/src/triangle/fallback.rs and of the
    accelerator functions in /repo/rendering/src/scene.rs, in exact arithmetic.

    Simplifications.
    - [sort_unstable_by] and [select_nth_unstable_by] are parameters: the theorems hold for every reordering they may choose.
    - [recursive_build] permutes [primitives_info[start..end]] in place and reads nothing outside that range; here each call
      receives that range as a list of its own.
    - [total_nodes] (only a capacity) is dropped. [debug_assert!]s are not modelled.
    - [usize] does not overflow; the conversions to [i16], [i32] and back are modelled.
    - Only the parts of [Scene] read or written here are present: triangles, normals, the two lists of material indexes. *)
From Coq Require Import Reals ZArith List Bool Lia Permutation Sorted.
From Verif.Common Require Import Base Flt.
From Verif.Geometry Require Import Vec BBoxModel TriangleModel.
Import ListNotations.
Open Scope R_scope.

(** scene.rs:46-80 *)
Record Scene := mkScene {
  triangles : list Tri;
  normals : list (pt * pt * pt);
  front_material_indexes : list nat;
  back_material_indexes : list nat }.

(** Float::MAX of f64 *)
Definition fmax : R := 2 ^ 1024 - 2 ^ 971.

(** The coordinate along an axis (the [match split_axis] of bvh.rs:49-53, 208-212, 224-228) *)
Definition coord (a : BBoxAxis) (p : pt) : R :=
  match a with AxisX => vx p | AxisY => vy p | AxisZ => vz p end.

(** bvh.rs:41-62; a cast of a negative float to [usize] gives 0 *)
Definition get_bucket_index (centroid : pt) (len_axis : R) (split_axis : BBoxAxis) (n_buckets : nat) (min_centroid : pt) : nat :=
  let i := Z.to_nat (Int_part ((coord split_axis centroid - coord split_axis min_centroid) * INR n_buckets / len_axis)) in
  if (n_buckets <=? i)%nat then (n_buckets - 1)%nat else i.

(** bvh.rs:65-69 *)
Record ObjectInfo := mkInfo { index : nat; ibounds : BBox R; centroid : pt }.
(** bvh.rs:71-81 *)
Definition object_info (index : nat) (t : Tri) : ObjectInfo :=
  let bounds := world_bounds t in
  mkInfo index bounds (vscale (vadd (bmax bounds) (bmin bounds)) (1 / 2)).

(** bvh.rs:83-92, 397-402 *)
Inductive Node :=
| Leaf (bounds : BBox R) (n_prims first_prim_offset : nat)
| Interior (bounds : BBox R) (split_axis : BBoxAxis) (child1 child2 : Node).
(** bvh.rs:130-135 *)
Definition nbounds (n : Node) : BBox R := match n with Leaf b _ _ => b | Interior b _ _ _ => b end.
(** bvh.rs:145-153 *)
Definition new_interior (a : BBoxAxis) (c1 c2 : Node) : Node := Interior (from_union RF (nbounds c1) (nbounds c2)) a c1 c2.

(** The [ordered_*] vectors of bvh.rs:162-166 *)
Record Ordered := mkOrdered {
  o_triangles : list Tri;
  o_mapping : list nat;
  o_front : list nat;
  o_back : list nat;
  o_normals : list (pt * pt * pt) }.

(** bvh.rs:189-196, 240-247, 355-362 (the same loop three times) *)
Fixpoint emit (scene : Scene) (infos : list ObjectInfo) (o : Ordered) : res Ordered :=
  match infos with
  | [] => Ok o
  | info :: rest =>
    match nth_error (triangles scene) (index info), nth_error (back_material_indexes scene) (index info),
          nth_error (front_material_indexes scene) (index info), nth_error (normals scene) (index info) with
    | Some t, Some b, Some f, Some n =>
      emit scene rest (mkOrdered (o_triangles o ++ [t]) (o_mapping o ++ [index info]) (o_front o ++ [f]) (o_back o ++ [b]) (o_normals o ++ [n]))
    | _, _, _, _ => Panic
    end
  end.

(** bvh.rs:35-39 *)
Record BucketInfo := mkBucket { count : nat; bbounds : option (BBox R) }.

(** bvh.rs:280-291 *)
Definition register (c : pt) (b : BucketInfo) : BucketInfo :=
  mkBucket (S (count b)) (match bbounds b with Some x => Some (from_union_point RF x c) | None => Some (from_point c) end).
(** bvh.rs:270-292 *)
Definition fill_buckets (idx : pt -> nat) (infos : list ObjectInfo) : list BucketInfo :=
  fold_left (fun bs i => upd bs (idx (centroid i)) (register (centroid i) (nth (idx (centroid i)) bs (mkBucket 0 None)))) infos
    (repeat (mkBucket 0 None) 12).
(** bvh.rs:302-307, 312-317 *)
Definition absorb (st : BBox R * nat) (b : BucketInfo) : BBox R * nat :=
  match bbounds b with Some x => (from_union RF (fst st) x, (snd st + count b)%nat) | None => st end.
(** bvh.rs:299-322: the cost of splitting after bucket [i]; [None] is a NaN (a box without surface: 0/0), which is never less
    than anything *)
Definition split_cost (bs : list BucketInfo) (bounds : BBox R) (i : nat) : res (option R) :=
  match bbounds (nth 0 bs (mkBucket 0 None)), bbounds (nth 11 bs (mkBucket 0 None)) with
  | Some before, Some after =>
    let '(before, count_before) := fold_left absorb (skipn 1 (firstn (i + 1) bs)) (before, count (nth 0 bs (mkBucket 0 None))) in
    let '(after, count_after) := fold_left absorb (skipn (i + 1) (firstn 11 bs)) (after, count (nth 11 bs (mkBucket 0 None))) in
    let s := surface_area RF bounds in
    if Rltb 0 s then Ok (Some (10 + (INR count_before * surface_area RF before + INR count_after * surface_area RF after) / s))
    else Ok None
  | _, _ => Panic
  end.
(** bvh.rs:295-327, from bucket [i] on for [k] buckets *)
Fixpoint cheapest (bs : list BucketInfo) (bounds : BBox R) (k i : nat) (min_cost : R) (min_cost_bucket : nat) : res (R * nat) :=
  match k with
  | O => Ok (min_cost, min_cost_bucket)
  | S k' =>
    do c <- split_cost bs bounds i;
    match c with
    | Some c => if Rltb c min_cost then cheapest bs bounds k' (S i) c i else cheapest bs bounds k' (S i) min_cost min_cost_bucket
    | None => cheapest bs bounds k' (S i) min_cost min_cost_bucket
    end
  end.
(** bvh.rs:337-350 *)
Fixpoint find_mid (idx : pt -> nat) (min_cost_bucket : nat) (l : list ObjectInfo) (i : nat) (mid : option nat) : option nat :=
  match l with
  | [] => mid
  | info :: rest => if (idx (centroid info) <=? min_cost_bucket)%nat then find_mid idx min_cost_bucket rest (S i) (Some (i + 1)%nat) else mid
  end.

(** What [slice::sort_unstable_by] and [slice::select_nth_unstable_by] do with a comparison by a key *)
Record Reorder := mkReorder {
  sort : (ObjectInfo -> R) -> list ObjectInfo -> list ObjectInfo;
  select_nth : (ObjectInfo -> R) -> nat -> list ObjectInfo -> list ObjectInfo }.
Definition reorders (s : Reorder) : Prop :=
  (forall key l, Permutation l (sort s key l) /\ StronglySorted (fun a b => key a <= key b) (sort s key l)) /\
  (forall key n l, Permutation l (select_nth s key n l)).

(** bvh.rs:179-184 *)
Definition bounds_of (i0 : ObjectInfo) (rest : list ObjectInfo) : BBox R :=
  fold_left (fun b i => from_union RF b (ibounds i)) rest (ibounds i0).
(** bvh.rs:201-204 *)
Definition centroids_bbox (i0 : ObjectInfo) (rest : list ObjectInfo) : BBox R :=
  fold_left (fun b i => from_union_point RF b (centroid i)) rest (from_point (centroid i0)).

(** bvh.rs:156-394. The recursion is not bounded in the code; running out of [fuel] gives [Err], which nothing else does. *)
Fixpoint recursive_build (s : Reorder) (fuel : nat) (scene : Scene) (infos : list ObjectInfo) (o : Ordered) : res (Node * Ordered) :=
  match fuel with
  | O => Err
  | S fuel' =>
    match infos with
    | [] => Panic
    | i0 :: rest =>
      let bounds := bounds_of i0 rest in
      let n := length infos in
      let leaf := do o' <- emit scene infos o; Ok (Leaf bounds n (length (o_triangles o)), o') in
      let split axis mid l :=
        do (c1, o1) <- recursive_build s fuel' scene (firstn mid l) o;
        do (c2, o2) <- recursive_build s fuel' scene (skipn mid l) o1;
        Ok (new_interior axis c1 c2, o2) in
      if (n =? 1)%nat then leaf else
      let cb := centroids_bbox i0 rest in
      let axis := max_extent RF cb in
      let len_axis := coord axis (bmax cb) - coord axis (bmin cb) in
      let key := fun i => coord axis (centroid i) in
      if Rltb len_axis (1 / 10 ^ 8) then leaf else
      if (n <=? 4)%nat then
        let mid := (n / 2)%nat in split axis mid (select_nth s key mid infos)
      else
        let idx := fun c => get_bucket_index c len_axis axis 12 (bmin cb) in
        do (min_cost, min_cost_bucket) <- cheapest (fill_buckets idx infos) bounds 11 0 fmax 0;
        if ((24 <? n)%nat || Rltb min_cost (INR n))%bool then
          let l := sort s key infos in
          match find_mid idx min_cost_bucket l 0 None with
          | Some mid => split axis mid l
          | None => Panic
          end
        else leaf
    end
  end.

(** [as i16], [as i32] and, for an [i32], [as usize] *)
Definition wrap (bits : Z) (z : Z) : Z :=
  let m := (z mod 2 ^ bits)%Z in if (m <? 2 ^ (bits - 1))%Z then m else (m - 2 ^ bits)%Z.
Definition as_i16 (n : nat) : Z := wrap 16 (Z.of_nat n).
Definition as_i32 (n : nat) : Z := wrap 32 (Z.of_nat n).
Definition as_usize (z : Z) : nat := Z.to_nat (z mod 2 ^ 64).

(** bvh.rs:405-418 *)
Record FlatNode := mkFlat { fbounds : BBox R; n_prims : Z; axis : BBoxAxis; next : Z }.
(** bvh.rs:420-424 *)
Definition is_leaf (n : FlatNode) : bool := (0 <? n_prims n)%Z.

(** bvh.rs:490-521: the nodes pushed when there are already [offset] of them. The patched [next] is written directly: the
    second child's offset is the length of the vector when it is flattened. *)
Fixpoint flatten_node (n : Node) (offset : nat) : list FlatNode :=
  match n with
  | Leaf b k first => [mkFlat b (as_i16 k) AxisX (as_i32 first)]
  | Interior b a c1 c2 =>
    let n1 := flatten_node c1 (offset + 1) in
    let o2 := (offset + 1 + length n1)%nat in
    mkFlat b 0 a (as_i32 o2) :: n1 ++ flatten_node c2 o2
  end.

(** bvh.rs:432-488 *)
Definition infos_of (ts : list Tri) : list ObjectInfo := map (fun '(i, t) => object_info i t) (combine (seq 0 (length ts)) ts).
Definition tree_new (s : Reorder) (scene : Scene) : res (list FlatNode * list nat * Scene) :=
  match triangles scene with
  | [] => Ok ([], [], scene)
  | ts =>
    do (root, o) <- recursive_build s (length ts) scene (infos_of ts) (mkOrdered [] [] [] [] []);
    Ok (flatten_node root 0, o_mapping o, mkScene (o_triangles o) (o_normals o) (o_front o) (o_back o))
  end.

(** scene.rs:212-219; the accelerator is a field of the scene, here a component of a pair *)
Definition build_accelerator (s : Reorder) (st : Scene * option (list FlatNode)) : res (list nat * (Scene * option (list FlatNode))) :=
  match snd st with
  | Some _ => Panic
  | None => do (nodes, mapping, scene') <- tree_new s (fst st); Ok (mapping, (scene', Some nodes))
  end.
(** scene.rs:227-231 *)
Definition rebuild_accelerator (s : Reorder) (st : Scene * option (list FlatNode)) : res (list nat * (Scene * option (list FlatNode))) :=
  do (nodes, mapping, scene') <- tree_new s (fst st); Ok (mapping, (scene', Some nodes)).

(** fallback.rs:96-107: the triangles [l], the first of which has index [i] *)
Fixpoint nearest (ray : Ray) (l : list Tri) (i : nat) (ret : option (nat * pt)) (t_squared : R) : option (nat * pt) :=
  match l with
  | [] => ret
  | t :: rest =>
    match baricentric_coordinates ray t with
    | Some (point, _, _) =>
      let this_t_squared := vlen2 (vsub point (origin ray)) in
      if Rltb (1 / 10 ^ 7) this_t_squared && Rltb this_t_squared t_squared
      then nearest ray rest (S i) (Some (i, point)) this_t_squared
      else nearest ray rest (S i) ret t_squared
    | None => nearest ray rest (S i) ret t_squared
    end
  end.
(** fallback.rs:84-110, mod.rs:137-144 *)
Definition simple_intersect_triangle_slice (ts : list Tri) (ray : Ray) (ini fin : nat) : option (nat * pt) :=
  nearest ray (firstn (fin - ini) (skipn ini ts)) ini None fmax.

(** bvh.rs:563-568 *)
Definition inv_dir (ray : Ray) : pt := mkV (1 / vx (direction ray)) (1 / vy (direction ray)) (1 / vz (direction ray)).

(** The loop of bvh.rs:572-620 and 657-706, which differ only in what they do in a leaf. [leaf a ini fin] gives the new
    accumulator and whether the function returns at once. The stack array has [N] entries, of which [stack] are in use, the last
    pushed first; [fuel] bounds the iterations ([Err] when it runs out, which nothing else gives). *)
Fixpoint walk {A} (leaf : A -> nat -> nat -> A * bool) (N : nat) (ray : Ray) (nodes : list FlatNode)
    (fuel : nat) (current : nat) (stack : list nat) (a : A) : res A :=
  match fuel with
  | O => Err
  | S fuel' =>
    let pop a := match stack with [] => Ok a | i :: stack' => walk leaf N ray nodes fuel' i stack' a end in
    match nth_error nodes current with
    | None => Panic
    | Some node =>
      if intersect RF (gamma 3) (fbounds node) (origin ray) (inv_dir ray) then
        if is_leaf node then
          let ini := as_usize (next node) in
          let '(a', stop) := leaf a ini (ini + Z.to_nat (n_prims node))%nat in
          if stop then Ok a' else pop a'
        else if (length stack <? N)%nat then
          if Rltb (coord (axis node) (inv_dir ray)) 0
          then walk leaf N ray nodes fuel' (as_usize (next node)) ((current + 1)%nat :: stack) a
          else walk leaf N ray nodes fuel' (current + 1)%nat (as_usize (next node) :: stack) a
        else Panic
      else pop a
    end
  end.

(** bvh.rs:578-591 *)
Definition hit_leaf (ts : list Tri) (ray : Ray) (a : option (nat * pt) * R) (ini fin : nat) : (option (nat * pt) * R) * bool :=
  match simple_intersect_triangle_slice ts ray ini fin with
  | Some (i, p) =>
    let this_t_squared := vlen2 (vsub p (origin ray)) in
    if Rltb (1 / 10 ^ 7) this_t_squared && Rltb this_t_squared (snd a) then ((Some (i, p), this_t_squared), false) else (a, false)
  | None => (a, false)
  end.
(** bvh.rs:547-629 *)
Definition tree_intersect (N : nat) (nodes : list FlatNode) (scene : Scene) (ray : Ray) (fuel : nat) : res (option (nat * pt)) :=
  match nodes with
  | [] => Ok None
  | _ => do (r, _) <- walk (hit_leaf (triangles scene) ray) N ray nodes fuel 0 [] (None, fmax); Ok r
  end.

(** bvh.rs:663-679; the accumulator is the answer *)
Definition block_leaf (ts : list Tri) (ray : Ray) (distance_squared : R) (a : bool) (ini fin : nat) : bool * bool :=
  match simple_intersect_triangle_slice ts ray ini fin with
  | Some (_, p) =>
    let this_t_squared := vlen2 (vsub p (origin ray)) in
    if Rltb (1 / 10 ^ 6) this_t_squared && Rltb (this_t_squared + 1 / 10 ^ 6) distance_squared
       && Rltb (1 / 10 ^ 4) (Rabs (distance_squared - this_t_squared))
    then (false, true) else (a, false)
  | None => (a, false)
  end.
(** bvh.rs:632-710 *)
Definition unobstructed_distance (N : nat) (nodes : list FlatNode) (scene : Scene) (ray : Ray) (distance_squared : R) (fuel : nat) : res bool :=
  match nodes with
  | [] => Ok true
  | _ => walk (block_leaf (triangles scene) ray distance_squared) N ray nodes fuel 0 [] true
  end.

(** scene.rs:243-270: the index, the point and the barycentric coordinates handed to [new_info] (not modelled) *)
Definition cast_ray (N : nat) (st : Scene * option (list FlatNode)) (ray : Ray) (fuel : nat) : res (option (nat * (pt * R * R))) :=
  match snd st with
  | None => Panic
  | Some nodes =>
    do r <- tree_intersect N nodes (fst st) ray fuel;
    match r with
    | None => Ok None
    | Some (i, _) =>
      match nth_error (triangles (fst st)) i with
      | None => Panic
      | Some t => match baricentric_coordinates ray t with Some x => Ok (Some (i, x)) | None => Panic end
      end
    end
  end.
(** scene.rs:273-284 *)
Definition scene_unobstructed_distance (N : nat) (st : Scene * option (list FlatNode)) (ray : Ray) (distance_squared : R) (fuel : nat) : res bool :=
  match snd st with None => Panic | Some nodes => unobstructed_distance N nodes (fst st) ray distance_squared fuel end.

(** triangle/mod.rs:188-210 *)
Definition mesh_triangle (a b c : pt) : res (list Tri * list (pt * pt * pt)) :=
  do normal <- vnormalize (vcross (vsub b a) (vsub c a));
  Ok ([mkTri a b c], [(normal, normal, normal)]).
(** scene.rs:299-357 for a triangle whose materials exist and emit no light *)
Definition push_triangle (scene : Scene) (front back : nat) (a b c : pt) : res Scene :=
  do (ts, ns) <- mesh_triangle a b c;
  Ok (mkScene (triangles scene ++ ts) (normals scene ++ ns)
        (front_material_indexes scene ++ repeat front (length ts)) (back_material_indexes scene ++ repeat back (length ts))).

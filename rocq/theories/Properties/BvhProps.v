(** Properties C35-C37: the ray-tracing accelerator (rendering/src/bvh.rs). *)
From Coq Require Import Reals ZArith List Bool Lia Lra Permutation Sorted Arith Psatz.
From Verif.Common Require Import Base Flt REval.
From Verif.Geometry Require Import Vec BBoxModel TransformModel GeomProofs TriangleModel TriangleProofs.
From Verif.Rendering Require Import BvhModel BvhProofs.
From Verif.Properties Require Import GeometryProps TriangleProps.
Import ListNotations.
Open Scope R_scope.

(** A scene whose vectors go together *)
Definition well_formed (scene : Scene) : Prop :=
  length (normals scene) = length (triangles scene) /\ length (front_material_indexes scene) = length (triangles scene) /\
  length (back_material_indexes scene) = length (triangles scene).

(** Element [k] of [l'] is element [mapping[k]] of [l] *)
Definition reordered {A} (mapping : list nat) (l l' : list A) : Prop :=
  length l' = length mapping /\
  forall k i, nth_error mapping k = Some i -> nth_error l' k = nth_error l i /\ nth_error l i <> None.

Lemma infos_of_indexed ts : map index (infos_of ts) = seq 0 (length ts) /\ length (infos_of ts) = length ts /\
  forall k i, nth_error (infos_of ts) k = Some i -> index i = k /\ exists t, nth_error ts k = Some t /\ ibounds i = world_bounds t /\ i = object_info k t.
Proof.
  unfold infos_of.
  assert (G : forall ts off, let l := map (fun '(i, t) => object_info i t) (combine (seq off (length ts)) ts) in
    map index l = seq off (length ts) /\ length l = length ts /\
    forall k i, nth_error l k = Some i -> index i = (off + k)%nat /\ exists t, nth_error ts k = Some t /\ ibounds i = world_bounds t /\ i = object_info (off + k) t).
  { clear. induction ts as [|t ts IH]; intros off l; subst l; cbn [length seq combine map].
    - split; [reflexivity|]. split; [reflexivity|]. intros [|k] i; discriminate.
    - destruct (IH (S off)) as (A & B & C). split; [|split].
      + cbn [object_info index]. now rewrite A.
      + now rewrite B.
      + intros [|k] i H; cbn [nth_error] in H.
        * injection H as <-. cbn [object_info index ibounds]. rewrite Nat.add_0_r. split; [reflexivity|]. now exists t.
        * destruct (C k i H) as (D & E). replace (off + S k)%nat with (S off + k)%nat by lia. split; [exact D|]. exact E. }
  apply (G ts 0%nat).
Qed.

Lemma pick_reordered {A} (l : list A) d infos : (forall i, In i infos -> (index i < length l)%nat) -> reordered (map index infos) l (pick l d infos).
Proof.
  intros H. unfold pick. split; [now rewrite !map_length|]. intros k i E. rewrite nth_error_map in E |- *.
  destruct (nth_error infos k) as [x|] eqn:Ex; [|discriminate]. cbn [option_map] in *. injection E as <-.
  assert (L : (index x < length l)%nat) by (apply H; eapply nth_error_In; exact Ex).
  rewrite (nth_error_nth_lt _ _ d L). split; [reflexivity|discriminate].
Qed.

(** Everything known about a built tree *)
Lemma tree_new_spec s scene : reorders s -> well_formed scene -> triangles scene <> [] ->
  exists root l scene', tree_new s scene = Ok (flatten_node root 0, map index l, scene') /\
    Permutation (infos_of (triangles scene)) l /\ shape root l 0 /\ holds (triangles scene') l 0 /\ length (triangles scene') = length l /\
    reordered (map index l) (triangles scene) (triangles scene') /\ reordered (map index l) (normals scene) (normals scene') /\
    reordered (map index l) (front_material_indexes scene) (front_material_indexes scene') /\
    reordered (map index l) (back_material_indexes scene) (back_material_indexes scene').
Proof.
  intros R (W1 & W2 & W3) Hne. destruct (infos_of_indexed (triangles scene)) as (A & B & C).
  assert (Hidx : forall i, In i (infos_of (triangles scene)) -> indexed scene i).
  { intros i Hi. apply In_nth_error in Hi. destruct Hi as (k & Hk). destruct (C k i Hk) as (E & t & T & Bt & _).
    assert (k < length (triangles scene))%nat by (apply nth_error_Some; congruence).
    unfold indexed. rewrite E, W1, W2, W3. repeat (split; [assumption|]). now exists t. }
  destruct (build_spec s scene R (length (triangles scene)) (infos_of (triangles scene)) (mkOrdered [] [] [] [] [])) as (root & l & E & P & S).
  { intros Z. rewrite Z in B. cbn [length] in B. destruct (triangles scene); [congruence|discriminate]. }
  { lia. } { exact Hidx. }
  assert (Hl : forall i, In i l -> indexed scene i) by (intros i Hi; apply Hidx; eapply Permutation_in; [symmetry; exact P|exact Hi]).
  unfold emitted in E. cbn [o_triangles o_mapping o_front o_back o_normals app length] in E. cbn [o_triangles length] in S.
  exists root, l, (mkScene (pick (triangles scene) t0 l) (pick (normals scene) n0 l) (pick (front_material_indexes scene) 0%nat l) (pick (back_material_indexes scene) 0%nat l)).
  split; [|split; [exact P|split; [exact S|]]].
  - unfold tree_new. destruct (triangles scene) as [|t ts] eqn:Et; [congruence|]. rewrite <- Et in *. rewrite E. reflexivity.
  - cbn [triangles normals front_material_indexes back_material_indexes].
    split; [|split; [unfold pick; apply map_length|split; [|split; [|split]]]].
    + intros k i Ei. destruct (Hl i (nth_error_In _ _ Ei)) as (L & _ & _ & _ & t & T & Bt). exists t. split; [|exact Bt].
      unfold pick. cbn [Nat.add]. rewrite nth_error_map, Ei. cbn [option_map]. rewrite <- T. symmetry. now apply nth_error_nth_lt.
    + apply pick_reordered. intros i Hi. apply (Hl i Hi).
    + apply pick_reordered. intros i Hi. apply (Hl i Hi).
    + apply pick_reordered. intros i Hi. apply (Hl i Hi).
    + apply pick_reordered. intros i Hi. apply (Hl i Hi).
Qed.

(** ** C35: the accelerator is a permutation of the scene *)

(** For every way the standard library may order equal keys: building always succeeds (none of the [unwrap]s fails, the recursion
    ends), every triangle appears exactly once, and each keeps its normals and its materials. *)
Theorem C35_permutation : forall s scene, reorders s -> well_formed scene ->
  exists mapping scene' nodes, build_accelerator s (scene, None) = Ok (mapping, (scene', Some nodes)) /\
    Permutation mapping (seq 0 (length (triangles scene))) /\
    reordered mapping (triangles scene) (triangles scene') /\ reordered mapping (normals scene) (normals scene') /\
    reordered mapping (front_material_indexes scene) (front_material_indexes scene') /\
    reordered mapping (back_material_indexes scene) (back_material_indexes scene') /\
    well_formed scene'.
Proof.
  intros s scene R W. unfold build_accelerator. cbn [fst snd].
  destruct (triangles scene) as [|t ts] eqn:Et.
  - exists [], scene, []. unfold tree_new. rewrite Et. cbn [bind length seq]. split; [reflexivity|]. split; [constructor|].
    destruct W as (W1 & W2 & W3). rewrite Et in W1, W2, W3. cbn [length] in *.
    unfold reordered. rewrite W1, W2, W3. repeat (split; [split; [reflexivity|intros [|k] i; discriminate]|]).
    unfold well_formed. rewrite Et. auto.
  - destruct (tree_new_spec s scene R W) as (root & l & scene' & E & P & S & H & L & R1 & R2 & R3 & R4); [congruence|].
    exists (map index l), scene', (flatten_node root 0). rewrite E. cbn [bind]. split; [reflexivity|]. split.
    + rewrite <- Et. destruct (infos_of_indexed (triangles scene)) as (A & _). rewrite <- A. symmetry. now apply Permutation_map.
    + rewrite <- Et. repeat (split; [assumption|]). destruct R1 as (R1 & _), R2 as (R2 & _), R3 as (R3 & _), R4 as (R4 & _).
      unfold well_formed. lia.
Qed.

(** Scenes made by pushing triangles are well formed, so the hypothesis of C35 is met by every scene made that way. *)
Theorem C35_pushed_scenes : forall scene f b x y z scene', well_formed scene -> push_triangle scene f b x y z = Ok scene' ->
  well_formed scene' /\ triangles scene' = triangles scene ++ [mkTri x y z].
Proof.
  intros scene f b x y z scene' (W1 & W2 & W3). unfold push_triangle, mesh_triangle.
  destruct (vnormalize (vcross (vsub y x) (vsub z x))) as [n| |]; cbn [bind]; try discriminate. intros H. injection H as <-.
  split; [|reflexivity]. unfold well_formed. cbn [normals triangles front_material_indexes back_material_indexes length repeat].
  rewrite !app_length, W1, W2, W3. cbn [length]. lia.
Qed.

(** Rebuilding gives the mapping from the scene as it was before the call; building twice panics. *)
Theorem C35_rebuild : forall s scene nodes, reorders s -> well_formed scene ->
  build_accelerator s (scene, Some nodes) = Panic /\
  rebuild_accelerator s (scene, Some nodes) = build_accelerator s (scene, None).
Proof. intros s scene nodes R W. split; reflexivity. Qed.

(** ** C36: nearest hits *)

(** The ray goes through the triangle at [q], ahead of its origin and not nearly parallel to it (the two limits of 1e-5 are those
    of the ray/triangle test, see C29) *)
Definition passes_through (ray : Ray) (t : Tri) (q : pt) : Prop :=
  exists s u v, 1 / 10 ^ 5 < s /\ 0 <= u /\ 0 <= v /\ u + v <= 1 /\ q = ray_at ray s /\ q = bary (ta t) (tb t) (tc t) u v /\
  1 / 10 ^ 5 <= alignment ray (ta t) (tb t) (tc t).
Lemma passes_crosses ray t q : passes_through ray t q -> crosses ray t q.
Proof.
  intros (s & u & v & S & U & V & W & E1 & E2 & A). exists u, v. split; [|auto]. rewrite E1. apply C29_complete; try assumption.
  now rewrite <- E1.
Qed.

(** The centre of a triangle's box *)
Definition centre (t : Tri) : pt := vscale (vadd (bmax (world_bounds t)) (bmin (world_bounds t))) (1 / 2).
Definition near (c p : pt) : bool :=
  Rltb (Rabs (vx c - vx p)) (1 / 10 ^ 8) && Rltb (Rabs (vy c - vy p)) (1 / 10 ^ 8) && Rltb (Rabs (vz c - vz p)) (1 / 10 ^ 8).
(** Not too many triangles: 2^30 in all, and fewer than 2^15 on top of one another *)
Definition manageable (scene : Scene) : Prop :=
  (Z.of_nat (length (triangles scene)) <= 2 ^ 30)%Z /\
  forall c, (Z.of_nat (length (filter (fun t => near c (centre t)) (triangles scene))) < 2 ^ 15)%Z.

Lemma Permutation_filter_length {A} (f : A -> bool) l l' : Permutation l l' -> length (filter f l) = length (filter f l').
Proof. induction 1; cbn [filter]; try congruence; repeat match goal with |- context [if ?b then _ else _] => destruct b end; cbn [length]; congruence. Qed.
Lemma filter_map_length {A B} (f : B -> bool) (g : A -> B) l : length (filter f (map g l)) = length (filter (fun x => f (g x)) l).
Proof. induction l; cbn [map filter]; [reflexivity|]. destruct (f (g a)); cbn [length]; congruence. Qed.
Lemma filter_combine_length {A} (f : A -> bool) (l : list A) : forall off, length (filter (fun x : nat * A => f (snd x)) (combine (seq off (length l)) l)) = length (filter f l).
Proof. induction l; intros off; cbn [length seq combine filter snd]; [reflexivity|]. destruct (f a); cbn [length]; now rewrite IHl. Qed.
Lemma filter_length_le' {A} (f : A -> bool) l : (length (filter f l) <= length l)%nat.
Proof. induction l; cbn [filter length]; [lia|]. destruct (f a); cbn [length]; lia. Qed.
Lemma filter_all {A} (f : A -> bool) l : (forall x, In x l -> f x = true) -> filter f l = l.
Proof. induction l; intros H; cbn [filter]; [reflexivity|]. rewrite H by now left. f_equal. apply IHl. intros; apply H. now right. Qed.

Lemma manageable_fits scene root l : manageable scene -> Permutation (infos_of (triangles scene)) l -> shape root l 0 ->
  fits root /\ (Z.of_nat (size root) < 2 ^ 31)%Z.
Proof.
  intros (M1 & M2) P S. destruct (infos_of_indexed (triangles scene)) as (_ & B & C).
  assert (L : length l = length (triangles scene)) by (rewrite <- B; symmetry; now apply Permutation_length).
  split.
  - apply (shape_fits _ _ _ S); [cbn [Nat.add]; lia|]. intros l' (p & q & El) Hc.
    destruct l' as [|h l']; [cbn [length]; lia|].
    specialize (M2 (centroid h)).
    assert (length (h :: l') <= length (filter (fun t => near (centroid h) (centre t)) (triangles scene)))%nat; [|lia].
    rewrite <- (filter_combine_length _ (triangles scene) 0).
    rewrite <- (filter_all (fun i => near (centroid h) (centroid i)) (h :: l')).
    2:{ intros x Hx. pose proof (Hc h x (or_introl eq_refl) Hx) as Hn. unfold near.
        pose proof (Hn AxisX) as X. pose proof (Hn AxisY) as Y. pose proof (Hn AxisZ) as Z. cbn [coord] in X, Y, Z.
        apply Rltb_true in X, Y, Z. now rewrite X, Y, Z. }
    apply Nat.le_trans with (length (filter (fun i => near (centroid h) (centroid i)) l)).
    { rewrite El, !filter_app, !app_length. lia. }
    rewrite <- (Permutation_filter_length _ _ _ P). unfold infos_of. rewrite filter_map_length.
    apply Nat.eq_le_incl. f_equal. apply filter_ext. intros (i & t). reflexivity.
  - destruct (shape_size _ _ _ S). lia.
Qed.

Lemma In_reordered scene l scene' t : reordered (map index l) (triangles scene) (triangles scene') ->
  Permutation (infos_of (triangles scene)) l -> In t (triangles scene) -> exists k, nth_error (triangles scene') k = Some t /\ (k < length l)%nat.
Proof.
  intros (R1 & R2) P H. apply In_nth_error in H. destruct H as (i & Hi).
  destruct (infos_of_indexed (triangles scene)) as (A & _).
  assert (I : In i (map index l)).
  { eapply Permutation_in; [apply Permutation_map; exact P|]. rewrite A. apply in_seq. split; [lia|]. apply nth_error_Some. congruence. }
  apply In_nth_error in I. destruct I as (k & Hk). exists k. destruct (R2 k i Hk) as (E & _). rewrite E. split; [exact Hi|].
  rewrite <- (map_length index). apply nth_error_Some. congruence.
Qed.

(** Casting a ray through the tree, for a ray with no zero component: unless the auxiliary stack (of [N] entries) is too small,
    which cannot be when it has as many entries as there are triangles, the answer is the nearest of all triangles. [2n] iterations
    are always enough. *)
Theorem C36_nearest : forall s scene N ray fuel, reorders s -> well_formed scene -> manageable scene -> oblique ray ->
  (2 * length (triangles scene) <= fuel)%nat ->
  exists nodes mapping scene', tree_new s scene = Ok (nodes, mapping, scene') /\
  ((tree_intersect N nodes scene' ray fuel = Panic /\ (N + 1 < length (triangles scene))%nat) \/
   exists r, tree_intersect N nodes scene' ray fuel = Ok r /\
   match r with
   | None => forall t q, In t (triangles scene) -> passes_through ray t q -> ~ (1 / 10 ^ 7 < dist2 ray q < fmax)
   | Some (i, p) => (exists j t, nth_error mapping i = Some j /\ nth_error (triangles scene) j = Some t /\ reported ray t p) /\
       1 / 10 ^ 7 < dist2 ray p < fmax /\
       forall t q, In t (triangles scene) -> passes_through ray t q -> 1 / 10 ^ 7 < dist2 ray q -> dist2 ray p <= dist2 ray q
   end).
Proof.
  intros s scene N ray fuel R W M O F. destruct (triangles scene) as [|t ts] eqn:Et.
  - exists [], [], scene. unfold tree_new. rewrite Et. split; [reflexivity|]. right. exists None. split; [reflexivity|]. intros t q [].
  - rewrite <- Et in *. destruct (tree_new_spec s scene R W) as (root & l & scene' & E & P & S & H & L & R1 & _); [congruence|].
    destruct (manageable_fits _ _ _ M P S) as (Hf & Hs). destruct (shape_size _ _ _ S) as (Z1 & Z2).
    assert (Ll : length l = length (triangles scene)).
    { destruct (infos_of_indexed (triangles scene)) as (_ & B & _). rewrite <- B. symmetry. now apply Permutation_length. }
    exists (flatten_node root 0), (map index l), scene'. split; [exact E|].
    assert (Hn : forall A (x y : A), (match flatten_node root 0 with [] => x | _ => y end) = y) by (intros; destruct root; reflexivity).
    unfold tree_intersect. rewrite Hn.
    destruct (walk_root (hit_leaf (triangles scene') ray) ray N root fuel (None, fmax) Hs Hf) as [(Hw & HN)|Hw]; [lia| |].
    { left. rewrite Hw. split; [reflexivity|]. lia. }
    right. rewrite Hw. change fmax with (tsq ray None).
    destruct (visit_hit (triangles scene') ray root l 0 S H O None (Rle_refl _)) as (r & Ev & Lr & Hr & Mr). rewrite Ev. cbn [fst bind].
    exists r. split; [reflexivity|]. cbn [Nat.add] in *.
    assert (Mr' : forall t q, In t (triangles scene) -> passes_through ray t q -> 1 / 10 ^ 7 < dist2 ray q -> tsq ray r <= dist2 ray q).
    { intros t' q Ht Hq Hd. destruct (In_reordered _ _ _ _ R1 P Ht) as (k & K1 & K2). apply (Mr k t'); [lia|exact K1|now apply passes_crosses|exact Hd]. }
    destruct r as [(i, p)|].
    + destruct Hr as [Hr|(k & tr & p' & K & T & Ek & Rp & D)]; [discriminate|]. injection Ek as -> ->. split; [|split; [exact D|exact Mr']].
      destruct (nth_error (map index l) k) as [j|] eqn:Ej; [|apply nth_error_None in Ej; rewrite map_length in Ej; lia].
      destruct R1 as (_ & R1). destruct (R1 k j Ej) as (R1' & _). exists j, tr. split; [reflexivity|]. split; [congruence|exact Rp].
    + intros t' q Ht Hq (D1 & D2). specialize (Mr' t' q Ht Hq D1). cbn [tsq] in *. lra.
Qed.

(** Points of a ray at the same distance are the same point *)
Lemma same_distance_same_point ray a b : oblique ray -> 0 < a -> 0 < b -> dist2 ray (ray_at ray a) = dist2 ray (ray_at ray b) -> a = b.
Proof.
  intros (X & _ & _) A B. unfold dist2, ray_at, vsub, vadd, vscale, vlen2. cbn [vx vy vz].
  set (x := vx (direction ray)) in *. set (y := vy (direction ray)). set (z := vz (direction ray)).
  intros H. assert ((a - b) * ((a + b) * (x * x + y * y + z * z)) = 0) by lra.
  apply Rmult_integral in H0. destruct H0 as [H0|H0]; [lra|]. exfalso.
  assert (0 < x * x) by (apply Rsqr_pos_lt; exact X). assert (0 < (a + b) * (x * x + y * y + z * z)) by nra. lra.
Qed.

(** When every triangle reported by the ray/triangle test is really crossed (the test itself lets through rays passing within
    machine epsilon of an edge), the tree and a scan of all the triangles report the same point, or both none. *)
Theorem C36_brute_force : forall s scene N ray fuel nodes mapping scene' r, reorders s -> well_formed scene -> manageable scene -> oblique ray ->
  (2 * length (triangles scene) <= fuel)%nat ->
  (forall t q, In t (triangles scene) -> reported ray t q -> passes_through ray t q) ->
  tree_new s scene = Ok (nodes, mapping, scene') -> tree_intersect N nodes scene' ray fuel = Ok r ->
  option_map snd r = option_map snd (simple_intersect_triangle_slice (triangles scene) ray 0 (length (triangles scene))).
Proof.
  intros s scene N ray fuel nodes mapping scene' r R W M O F G E1 E2.
  destruct (C36_nearest s scene N ray fuel R W M O F) as (nodes' & mapping' & scene'' & E & [(H & _)|(r' & H & K)]); rewrite E1 in E; injection E as <- <- <-; [congruence|].
  rewrite E2 in H. injection H as <-.
  destruct (slice_spec (triangles scene) ray 0 (length (triangles scene))) as (A & A' & B).
  destruct (simple_intersect_triangle_slice (triangles scene) ray 0 (length (triangles scene))) as [[i' p']|].
  - destruct A as [A|(k & t & p'' & Hk & T & Ep & Rp & D)]; [discriminate|]. injection Ep as -> ->.
    assert (In t (triangles scene)) as It by (eapply nth_error_In; exact T).
    destruct r as [[i p]|]; [|exfalso; apply (K t p'' It); [now apply G|exact D]].
    cbn [option_map snd]. destruct K as ((j & tj & _ & Tj & Rj) & Dp & Mp). f_equal.
    assert (Ed : dist2 ray p = dist2 ray p'').
    { apply Rle_antisym; [apply (Mp t); [exact It|now apply G|lra]|].
      apply (B j tj p); [|exact Tj|exact Rj|lra]. split; [lia|]. apply nth_error_Some. congruence. }
    destruct Rj as (u & v & Hj), Rp as (u' & v' & Hp).
    destruct (C29_sound _ _ _ _ _ Hj) as (_ & _ & _ & _ & a & Ha & ->). destruct (C29_sound _ _ _ _ _ Hp) as (_ & _ & _ & _ & b & Hb & ->).
    assert (0 < 1 / 10 ^ 5) by (apply Rdiv_lt_0_compat; lra).
    f_equal. apply (same_distance_same_point ray); [exact O|lra|lra|exact Ed].
  - destruct r as [[i p]|]; [|reflexivity]. exfalso. destruct K as ((j & tj & _ & Tj & Rj) & Dp & Mp).
    assert (tsq ray None <= dist2 ray p); [|cbn [tsq] in *; lra].
    apply (B j tj p); [|exact Tj|exact Rj|lra]. split; [lia|]. apply nth_error_Some. congruence.
Qed.

(** [cast_ray] gives the point found by the tree, with its barycentric coordinates; its own [unwrap] does not fail. *)
Theorem C36_cast_ray : forall s scene N ray fuel nodes mapping scene' i p, reorders s -> well_formed scene -> manageable scene -> oblique ray ->
  (2 * length (triangles scene) <= fuel)%nat ->
  tree_new s scene = Ok (nodes, mapping, scene') -> tree_intersect N nodes scene' ray fuel = Ok (Some (i, p)) ->
  exists u v, cast_ray N (scene', Some nodes) ray fuel = Ok (Some (i, (p, u, v))).
Proof.
  intros s scene N ray fuel nodes mapping scene' i p R W M O F E1 E2.
  destruct (C36_nearest s scene N ray fuel R W M O F) as (nodes' & mapping' & scene'' & E & [(H & _)|(r' & H & K)]); pose proof E as E'; rewrite E1 in E; injection E as <- <- <-; [congruence|].
  rewrite E2 in H. injection H as <-. destruct K as ((j & t & Hj & Ht & u & v & Hb) & _). exists u, v.
  unfold cast_ray. cbn [fst snd]. rewrite E2. cbn [bind].
  assert (Hi : nth_error (triangles scene') i = Some t).
  { destruct (triangles scene) as [|t' ts] eqn:Et; [destruct j; discriminate|].
    destruct (tree_new_spec s scene R W) as (root & l & sc & En & _ & _ & _ & _ & R1 & _); [congruence|].
    rewrite E1 in En. injection En as _ -> ->. destruct R1 as (_ & R1). destruct (R1 i j Hj) as (-> & _). congruence. }
  rewrite Hi, Hb. reflexivity.
Qed.

(** ** C37: obstructions *)

(** Partial: a hit between the minimum distances of the two tests (1e-7 and 1e-6, squared) can hide an obstruction behind it, see
    [C37_masked_refuted]; excluded by the hypothesis here. A hit within 1e-4 of the (squared) distance does not count. *)
Theorem C37_obstructed_partial : forall s scene N ray D fuel, reorders s -> well_formed scene -> manageable scene -> oblique ray ->
  (2 * length (triangles scene) <= fuel)%nat -> D <= fmax ->
  (forall t q, In t (triangles scene) -> reported ray t q -> ~ (1 / 10 ^ 7 < dist2 ray q <= 1 / 10 ^ 6)) ->
  exists nodes mapping scene', tree_new s scene = Ok (nodes, mapping, scene') /\
  ((unobstructed_distance N nodes scene' ray D fuel = Panic /\ (N + 1 < length (triangles scene))%nat) \/
   (unobstructed_distance N nodes scene' ray D fuel = Ok true /\ 
      forall t q, In t (triangles scene) -> passes_through ray t q -> ~ (1 / 10 ^ 6 < dist2 ray q /\ dist2 ray q + 1 / 10 ^ 4 < D)) \/
   (unobstructed_distance N nodes scene' ray D fuel = Ok false /\
      exists t q, In t (triangles scene) /\ reported ray t q /\ 1 / 10 ^ 6 < dist2 ray q /\ dist2 ray q + 1 / 10 ^ 4 < D)).
Proof.
  intros s scene N ray D fuel R W M O F HD HG. destruct (triangles scene) as [|t ts] eqn:Et.
  - exists [], [], scene. unfold tree_new. rewrite Et. split; [reflexivity|]. right. left. split; [reflexivity|]. intros t q [].
  - rewrite <- Et in *. destruct (tree_new_spec s scene R W) as (root & l & scene' & E & P & S & H & L & R1 & _); [congruence|].
    destruct (manageable_fits _ _ _ M P S) as (Hf & Hs). destruct (shape_size _ _ _ S) as (Z1 & Z2).
    assert (Ll : length l = length (triangles scene)).
    { destruct (infos_of_indexed (triangles scene)) as (_ & B & _). rewrite <- B. symmetry. now apply Permutation_length. }
    exists (flatten_node root 0), (map index l), scene'. split; [exact E|].
    assert (Hn : forall A (x y : A), (match flatten_node root 0 with [] => x | _ => y end) = y) by (intros; destruct root; reflexivity).
    unfold unobstructed_distance. rewrite Hn.
    destruct (walk_root (block_leaf (triangles scene') ray D) ray N root fuel true Hs Hf) as [(Hw & HN)|Hw]; [lia| |].
    { left. rewrite Hw. split; [reflexivity|]. lia. }
    right. rewrite Hw.
    assert (Back : forall k tr, (0 <= k < 0 + length l)%nat -> nth_error (triangles scene') k = Some tr -> In tr (triangles scene)).
    { intros k tr K T. destruct R1 as (_ & R1). destruct (nth_error (map index l) k) as [j|] eqn:Ej; [|apply nth_error_None in Ej; rewrite map_length in Ej; lia].
      destruct (R1 k j Ej) as (R1' & _). apply (nth_error_In _ j). congruence. }
    destruct (visit_block (triangles scene') ray D root l 0 S H O) as ([Hv|Hv] & V1 & V2); rewrite Hv; cbn [fst].
    + left. split; [reflexivity|]. intros t' q Ht Hq. destruct (In_reordered _ _ _ _ R1 P Ht) as (k & K1 & K2).
      apply (V2 Hv) with (k := k) (tr := t'); [|exact HD|lia|exact K1|now apply passes_crosses].
      intros k' tr p K' T' Rp. apply (HG tr); [now apply (Back k')|exact Rp].
    + right. split; [reflexivity|]. destruct (V1 Hv) as (k & tr & p & K & T & Rp & B1 & B2). exists tr, p. split; [now apply (Back k)|]. auto.
Qed.

(** For every ray, whatever its direction, and for every distance: there is always an answer, and if it is that the way is blocked, then
    the ray meets a triangle on the way. *)
Lemma visit_block_sound ts ray D t l off : shape t l off -> let r := visit (block_leaf ts ray D) ray t true in
  r = (true, false) \/ r = (false, true) /\ exists k tr p, (off <= k < off + length l)%nat /\ nth_error ts k = Some tr /\ reported ray tr p /\ blocks (dist2 ray p) D.
Proof.
  intros Sh. cbv zeta. induction Sh as [b l off Hl Hp Hb Hc|a c1 c2 l1 l2 off S1 IH1 S2 IH2].
  - cbn [visit nbounds]. destruct (intersect RF (gamma 3) b (origin ray) (inv_dir ray)); [|now left].
    unfold block_leaf. destruct (slice_spec ts ray off (off + length l)) as (A & _ & _).
    destruct (simple_intersect_triangle_slice ts ray off (off + length l)) as [[i p]|]; [|now left].
    destruct A as [A|(k & tr & p' & K & T & E & Rp & Dp)]; [discriminate|]. injection E as -> ->.
    change (vlen2 (vsub p' (origin ray))) with (dist2 ray p').
    destruct (Rltb (1 / 10 ^ 6) (dist2 ray p') && Rltb (dist2 ray p' + 1 / 10 ^ 6) D && Rltb (1 / 10 ^ 4) (Rabs (D - dist2 ray p'))) eqn:Et; [|now left].
    right. split; [reflexivity|]. apply block_test in Et. exists k, tr, p'. auto.
  - unfold new_interior. cbn [visit nbounds]. destruct (intersect RF (gamma 3) _ (origin ray) (inv_dir ray)); [|now left]. rewrite app_length.
    destruct (Rltb (coord a (inv_dir ray)) 0).
    + destruct IH2 as [->|(-> & k & tr & p & K & P)]; [|right; split; [reflexivity|exists k, tr, p; split; [lia|exact P]]].
      destruct IH1 as [->|(-> & k & tr & p & K & P)]; [now left|right; split; [reflexivity|exists k, tr, p; split; [lia|exact P]]].
    + destruct IH1 as [->|(-> & k & tr & p & K & P)]; [|right; split; [reflexivity|exists k, tr, p; split; [lia|exact P]]].
      destruct IH2 as [->|(-> & k & tr & p & K & P)]; [now left|right; split; [reflexivity|exists k, tr, p; split; [lia|exact P]]].
Qed.
Theorem C37_sound : forall s scene N ray D fuel nodes mapping scene', reorders s -> well_formed scene -> manageable scene ->
  (2 * length (triangles scene) <= fuel)%nat -> (length (triangles scene) <= N + 1)%nat -> tree_new s scene = Ok (nodes, mapping, scene') ->
  unobstructed_distance N nodes scene' ray D fuel = Ok true \/
  unobstructed_distance N nodes scene' ray D fuel = Ok false /\
    exists t q, In t (triangles scene) /\ reported ray t q /\ 1 / 10 ^ 6 < dist2 ray q /\ dist2 ray q + 1 / 10 ^ 4 < D.
Proof.
  intros s scene N ray D fuel nodes mapping scene' R W M F Nn E0. destruct (triangles scene) as [|t ts] eqn:Et.
  - unfold tree_new in E0. rewrite Et in E0. injection E0 as <- <- <-. left. reflexivity.
  - rewrite <- Et in *. destruct (tree_new_spec s scene R W) as (root & l & sc & E & P & S & H & L & R1 & _); [congruence|]. rewrite E0 in E. injection E as -> -> ->.
    destruct (manageable_fits _ _ _ M P S) as (Hf & Hs). destruct (shape_size _ _ _ S) as (Z1 & Z2).
    assert (Ll : length l = length (triangles scene)).
    { destruct (infos_of_indexed (triangles scene)) as (_ & B & _). rewrite <- B. symmetry. now apply Permutation_length. }
    assert (Hn : forall A (x y : A), (match flatten_node root 0 with [] => x | _ => y end) = y) by (intros; destruct root; reflexivity).
    unfold unobstructed_distance. rewrite Hn.
    destruct (walk_root (block_leaf (triangles sc) ray D) ray N root fuel true Hs Hf) as [(Hw & HN)|Hw]; [lia|lia|]. rewrite Hw.
    destruct (visit_block_sound (triangles sc) ray D root l 0 S) as [->|(-> & k & tr & p & K & T & Rp & B1 & B2)]; [now left|right]. split; [reflexivity|].
    exists tr, p. split; [|auto]. destruct R1 as (_ & R1). destruct (nth_error (map index l) k) as [j|] eqn:Ej; [|apply nth_error_None in Ej; rewrite map_length in Ej; lia].
    destruct (R1 k j Ej) as (R1' & _). apply (nth_error_In _ j). congruence.
Qed.

(** ** Where the claims fail *)

Lemma coincident_leaf s fuel scene infos o c : (2 <= length infos)%nat -> (forall i, In i infos -> centroid i = c) ->
  (forall i, In i infos -> indexed scene i) ->
  exists b, recursive_build s (S fuel) scene infos o = Ok (Leaf b (length infos) (length (o_triangles o)), emitted scene infos o) /\
    shape (Leaf b (length infos) (length (o_triangles o))) infos (length (o_triangles o)).
Proof.
  intros L C I. destruct infos as [|i0 rest]; [cbn [length] in L; lia|]. exists (bounds_of i0 rest).
  destruct (bounds_of_spec i0 rest (indexed_proper scene i0 (I i0 (or_introl eq_refl)))) as [P B].
  split.
  - cbn [recursive_build]. destruct (Nat.eqb_spec (length (i0 :: rest)) 1) as [E|_]; [lia|].
    set (a := max_extent RF (centroids_bbox i0 rest)).
    destruct (centroids_bbox_spec i0 rest a) as (_ & (imin & Imin & Emin) & (imax & Imax & Emax)).
    rewrite C in Emin, Emax by assumption. rewrite <- Emin, <- Emax, Rminus_diag_eq by reflexivity.
    destruct (Rltb_spec 0 (1 / 10 ^ 8)) as [_|N]; [|exfalso; apply N; apply Rdiv_lt_0_compat; lra].
    rewrite emit_ok by assumption. reflexivity.
  - apply shape_leaf; [discriminate|exact P|exact B|]. right. intros i j Hi Hj a. rewrite !C, Rminus_diag_eq, Rabs_R0 by auto.
    apply Rdiv_lt_0_compat; lra.
Qed.

(** A triangle across the x axis, and a ray through the one at x = 1 *)
Definition across (x : R) : Tri := mkTri (mkV x 0 0) (mkV x 4 0) (mkV x 0 4).
Definition slanted_ray : Ray := mkRay (mkV 0 (1 / 2) (1 / 2)) (mkV 1 (1 / 2) (1 / 2)).
Definition across_scene (xs : list R) : Scene :=
  mkScene (map across xs) (map (fun _ => n0) xs) (map (fun _ => 0%nat) xs) (map (fun _ => 0%nat) xs).

Lemma across_scene_wf xs : well_formed (across_scene xs).
Proof. unfold well_formed, across_scene. cbn. rewrite !map_length. auto. Qed.
Lemma slanted_oblique : oblique slanted_ray.
Proof. unfold oblique, slanted_ray. cbn. lra. Qed.
Lemma slanted_hits : passes_through slanted_ray (across 1) (mkV 1 1 1).
Proof.
  exists 1, (1 / 4), (1 / 4). split; [lra|]. split; [lra|]. split; [lra|]. split; [lra|].
  split; [unfold ray_at, slanted_ray, vadd, vscale; apply V3_eq; cbn; lra|]. split; [unfold bary, across; apply V3_eq; cbn; lra|].
  unfold alignment, slanted_ray, across, vdot, vcross, vsub. cbn [vx vy vz ta tb tc direction].
  rewrite Rabs_right; lra.
Qed.
Lemma across_centroid i x : centroid (object_info i (across x)) = mkV x 2 2.
Proof.
  unfold object_info, world_bounds, across. cbn [centroid ta tb tc].
  unfold from_union_point, get_mins_maxs, from_point. cbn [fst snd bmin bmax vx vy vz]. rewrite !order_minmax. cbn [fst snd].
  unfold vscale, vadd. cbn [vx vy vz].
  rewrite (Rmax_left x x), (Rmin_left x x) by lra. rewrite (Rmax_left x x), (Rmin_left x x) by lra.
  rewrite (Rmax_right 0 4), (Rmin_left 0 4), (Rmax_left 4 0), (Rmin_left 0 0), (Rmax_left 0 0), (Rmax_right 0 4), (Rmin_left 0 4) by lra.
  apply V3_eq; cbn; lra.
Qed.

(** The number of primitives of a leaf is kept in 16 bits: with 32768 triangles on top of one another, every ray that goes
    through them makes the traversal panic. *)
Theorem C36_coincident_refuted : exists scene ray, well_formed scene /\ length (triangles scene) = Z.to_nat 32768 /\ oblique ray /\
  (exists t q, In t (triangles scene) /\ passes_through ray t q) /\
  forall s N fuel, reorders s -> exists nodes mapping scene', tree_new s scene = Ok (nodes, mapping, scene') /\
    tree_intersect N nodes scene' ray (S (S fuel)) = Panic.
Proof.
  set (xs := repeat 1 (Z.to_nat 32768)).
  assert (Lx : length xs = Z.to_nat 32768) by apply repeat_length.
  assert (Hx : forall x, In x xs -> x = 1) by (intros x H; now apply repeat_spec in H).
  assert (Lz : Z.of_nat (length xs) = 32768%Z) by (rewrite Lx; apply Z2Nat.id; lia).
  clearbody xs. assert (Ln : (2 <= length xs)%nat) by lia.
  exists (across_scene xs), slanted_ray. split; [apply across_scene_wf|]. split; [unfold across_scene; cbn [triangles]; now rewrite map_length|].
  split; [apply slanted_oblique|]. split.
  { exists (across 1), (mkV 1 1 1). split; [|apply slanted_hits]. unfold across_scene. cbn [triangles].
    destruct xs as [|x xs]; [cbn [length] in Ln; lia|]. left. now rewrite (Hx x (or_introl eq_refl)). }
  intros s N fuel R.
  set (scene := across_scene xs) in *.
  assert (T : triangles scene = map across xs) by reflexivity.
  destruct (infos_of_indexed (triangles scene)) as (A & B & C).
  assert (Lt : length (triangles scene) = length xs) by (rewrite T; apply map_length).
  destruct (coincident_leaf s (pred (length (triangles scene))) scene (infos_of (triangles scene)) (mkOrdered [] [] [] [] []) (mkV 1 2 2)) as (b & E & S).
  { lia. }
  { intros i Hi. apply In_nth_error in Hi. destruct Hi as (k & Hk). destruct (C k i Hk) as (_ & t & Ht & _ & ->).
    apply nth_error_In in Ht. rewrite T in Ht. apply in_map_iff in Ht. destruct Ht as (x & <- & Hi). rewrite (Hx x Hi). apply across_centroid. }
  { intros i Hi. apply In_nth_error in Hi. destruct Hi as (k & Hk). destruct (C k i Hk) as (Ek & t & Ht & Bt & _).
    assert (k < length (triangles scene))%nat by (apply nth_error_Some; congruence).
    destruct (across_scene_wf xs) as (W1 & W2 & W3). fold scene in W1, W2, W3.
    unfold indexed. rewrite Ek, W1, W2, W3. repeat (split; [assumption|]). now exists t. }
  replace (Datatypes.S (pred (length (triangles scene)))) with (length (triangles scene)) in E by lia.
  unfold tree_new. destruct (triangles scene) as [|t ts] eqn:Et; [cbn [length] in Lt; lia|]. rewrite <- Et in *. rewrite E. cbn [bind].
  eexists _, _, _. split; [reflexivity|].
  cbn [flatten_node tree_intersect o_triangles length].
  assert (Hb : intersect RF (gamma 3) b (origin slanted_ray) (inv_dir slanted_ray) = true).
  { apply (crosses_box slanted_ray (across 1) (mkV 1 1 1)); [apply slanted_oblique|apply passes_crosses, slanted_hits|exact (shape_proper _ _ _ S)|].
    destruct (nth_error (infos_of (triangles scene)) 0) as [i|] eqn:E0; [|apply nth_error_None in E0; lia].
    destruct (C _ _ E0) as (_ & t' & Ht & Bt & _). rewrite T in Ht. apply nth_error_In in Ht. apply in_map_iff in Ht. destruct Ht as (x & <- & Hi).
    rewrite (Hx x Hi) in Bt. rewrite <- Bt. apply (shape_box _ _ _ S). eapply nth_error_In. exact E0. }
  assert (E16 : as_i16 (length (infos_of (triangles scene))) = (- 32768)%Z) by (rewrite B, Lt; unfold as_i16; rewrite Lz; reflexivity).
  rewrite E16. cbn [walk nth_error fbounds]. rewrite Hb. unfold is_leaf at 1. cbn [n_prims next axis length].
  change (0 <? -32768)%Z with false. cbv iota. destruct (Nat.ltb_spec 0 N); [|reflexivity].
  assert (Rltb (coord AxisX (inv_dir slanted_ray)) 0 = false) as ->.
  { cbn [coord inv_dir vx slanted_ray direction]. destruct (Rltb_spec (1 / 1) 0); [lra|reflexivity]. }
  reflexivity.
Qed.

(** Two triangles whose boxes have the same centre end in the same leaf, of which only the nearest hit is looked at; that hit is
    then ignored for being too near, and with it the triangle that does block the way. *)
Definition close_tri : Tri := let a := 1 / 2500 in mkTri (mkV a 2 2) (mkV a (-2) 2) (mkV a 2 (-2)).
Definition blocking_tri : Tri := let a := 1 / 2500 in mkTri (mkV (a + 5) (-5) (3 - a)) (mkV (a - 5) 5 (3 - a)) (mkV 3 (3 - a) (a - 3)).
Definition masked_scene : Scene := mkScene [close_tri; blocking_tri] [n0; n0] [0%nat; 0%nat] [0%nat; 0%nat].
Definition diagonal_ray : Ray := mkRay (mkV 0 0 0) (mkV 1 1 1).

Ltac boxcalc := unfold object_info, world_bounds; cbn [centroid ta tb tc];
  unfold from_union_point, get_mins_maxs, from_point; cbn [fst snd bmin bmax vx vy vz]; rewrite !order_minmax; cbn [fst snd];
  unfold vscale, vadd; cbn [vx vy vz];
  repeat match goal with
  | |- context [Rmin ?a ?b] => (rewrite (Rmin_left a b) by lra) || (rewrite (Rmin_right a b) by lra)
  | |- context [Rmax ?a ?b] => (rewrite (Rmax_left a b) by lra) || (rewrite (Rmax_right a b) by lra)
  end; apply V3_eq; cbn [vx vy vz]; lra.
Lemma close_centroid i : centroid (object_info i close_tri) = mkV (1 / 2500) 0 0.
Proof. unfold close_tri. boxcalc. Qed.
Lemma blocking_centroid i : centroid (object_info i blocking_tri) = mkV (1 / 2500) 0 0.
Proof. unfold blocking_tri. boxcalc. Qed.
Lemma fmax_big : 1 < fmax.
Proof.
  unfold fmax. replace 1024%nat with (971 + 53)%nat by reflexivity. rewrite pow_add.
  assert (1 < 2 ^ 971) by (apply Rlt_pow_R1; [lra|lia]). assert (2 < 2 ^ 53) by (apply Rlt_le_trans with (2 ^ 2); [lra|apply Rle_pow; [lra|lia]]).
  set (x := 2 ^ 971) in *. set (y := 2 ^ 53) in *. clearbody x y. nra.
Qed.

Lemma fmax_big2 : 100 < fmax.
Proof.
  unfold fmax. replace 1024%nat with (971 + 53)%nat by reflexivity. rewrite pow_add.
  assert (100 < 2 ^ 971) by (apply Rlt_le_trans with (2 ^ 7); [lra|apply Rle_pow; [lra|lia]]).
  assert (2 < 2 ^ 53) by (apply Rlt_le_trans with (2 ^ 2); [lra|apply Rle_pow; [lra|lia]]).
  set (x := 2 ^ 971) in *. set (y := 2 ^ 53) in *. clearbody x y. nra.
Qed.

Theorem C37_masked_refuted : well_formed masked_scene /\ manageable masked_scene /\ oblique diagonal_ray /\
  passes_through diagonal_ray blocking_tri (mkV 1 1 1) /\ dist2 diagonal_ray (mkV 1 1 1) = 3 /\
  forall s N fuel, reorders s -> exists nodes mapping scene', tree_new s masked_scene = Ok (nodes, mapping, scene') /\
    unobstructed_distance N nodes scene' diagonal_ray 100 (S fuel) = Ok true.
Proof.
  assert (W : well_formed masked_scene) by (unfold well_formed; cbn; auto).
  assert (O : oblique diagonal_ray) by (unfold oblique, diagonal_ray; cbn; lra).
  assert (Pb : passes_through diagonal_ray blocking_tri (mkV 1 1 1)).
  { exists 1, (124994999 / 374950000), (4999 / 14998). split; [lra|]. split; [lra|]. split; [lra|]. split; [lra|].
    split; [unfold ray_at, diagonal_ray, vadd, vscale; apply V3_eq; cbn; lra|]. split; [unfold bary, blocking_tri; apply V3_eq; cbn; lra|].
    unfold alignment, diagonal_ray, blocking_tri, vdot, vcross, vsub. cbn [vx vy vz ta tb tc direction]. rewrite Rabs_left; lra. }
  set (qc := mkV (1 / 2500) (1 / 2500) (1 / 2500)).
  assert (Pc : passes_through diagonal_ray close_tri qc).
  { exists (1 / 2500), (4999 / 10000), (4999 / 10000). split; [lra|]. split; [lra|]. split; [lra|]. split; [lra|].
    split; [unfold ray_at, diagonal_ray, vadd, vscale; apply V3_eq; cbn; lra|]. split; [unfold bary, close_tri; apply V3_eq; cbn; lra|].
    unfold alignment, diagonal_ray, close_tri, vdot, vcross, vsub. cbn [vx vy vz ta tb tc direction]. rewrite Rabs_right; lra. }
  assert (Db : dist2 diagonal_ray (mkV 1 1 1) = 3) by (unfold dist2, vlen2, vsub, diagonal_ray; cbn; lra).
  assert (Dc : dist2 diagonal_ray qc = 3 / 6250000) by (unfold dist2, vlen2, vsub, diagonal_ray, qc; cbn; lra).
  split; [exact W|]. split.
  { unfold manageable, masked_scene. cbn [triangles length filter]. split; [lia|]. intros c.
    destruct (near c (centre close_tri)), (near c (centre blocking_tri)); reflexivity. }
  split; [exact O|]. split; [exact Pb|]. split; [exact Db|].
  intros s N fuel R.
  destruct (infos_of_indexed (triangles masked_scene)) as (A & B & C).
  destruct (coincident_leaf s 1 masked_scene (infos_of (triangles masked_scene)) (mkOrdered [] [] [] [] []) (mkV (1 / 2500) 0 0)) as (b & E & S).
  { rewrite B. cbn. lia. }
  { intros i [<-|[<-|[]]]; [apply close_centroid|apply blocking_centroid]. }
  { intros i Hi. apply In_nth_error in Hi. destruct Hi as (k & Hk). destruct (C k i Hk) as (Ek & t & Ht & Bt & _).
    assert (k < length (triangles masked_scene))%nat by (apply nth_error_Some; congruence).
    unfold indexed. rewrite Ek. cbn [masked_scene triangles normals front_material_indexes back_material_indexes length] in *.
    repeat (split; [assumption|]). now exists t. }
  unfold tree_new. cbn [triangles masked_scene length]. cbn [triangles masked_scene] in E, S, B, C. rewrite E. cbn [bind].
  eexists _, _, _. split; [reflexivity|].
  assert (Hb : intersect RF (gamma 3) b (origin diagonal_ray) (inv_dir diagonal_ray) = true).
  { apply (crosses_box diagonal_ray close_tri qc); [exact O|now apply passes_crosses|exact (shape_proper _ _ _ S)|].
    change (world_bounds close_tri) with (ibounds (object_info 0 close_tri)). apply (shape_box _ _ _ S). now left. }
  apply passes_crosses, crosses_reported in Pb. apply passes_crosses, crosses_reported in Pc.
  destruct Pb as (ub & vb & Pb), Pc as (uc & vc & Pc).
  cbn [flatten_node unobstructed_distance walk nth_error fbounds]. rewrite Hb. unfold is_leaf. cbn [n_prims next].
  change (as_i16 (length (infos_of [close_tri; blocking_tri]))) with 2%Z. change (as_i32 (length (o_triangles _))) with 0%Z.
  change (0 <? 2)%Z with true. cbv iota. change (as_usize 0) with 0%nat. change (0 + Z.to_nat 2)%nat with 2%nat.
  assert (Sl : simple_intersect_triangle_slice [close_tri; blocking_tri] diagonal_ray 0 2 = Some (0%nat, qc)).
  { unfold simple_intersect_triangle_slice. cbn [Nat.sub firstn skipn nearest]. rewrite Pc, Pb.
    change (vlen2 (vsub qc (origin diagonal_ray))) with (dist2 diagonal_ray qc). change (vlen2 (vsub (mkV 1 1 1) (origin diagonal_ray))) with (dist2 diagonal_ray (mkV 1 1 1)).
    rewrite Dc, Db.
    destruct (Rltb_spec (1 / 10 ^ 7) (3 / 6250000)) as [_|N1]; [|exfalso; lra].
    destruct (Rltb_spec (3 / 6250000) fmax) as [_|N2]; [|exfalso; apply N2; apply Rlt_trans with 1; [lra|exact fmax_big]]. cbn [andb].
    destruct (Rltb_spec 3 (3 / 6250000)) as [N3|_]; [exfalso; lra|]. rewrite andb_false_r. reflexivity. }
  unfold block_leaf.
  match goal with |- context [simple_intersect_triangle_slice ?l diagonal_ray 0 2] => change l with [close_tri; blocking_tri] end.
  rewrite Sl. change (vlen2 (vsub qc (origin diagonal_ray))) with (dist2 diagonal_ray qc). rewrite Dc.
  destruct (Rltb_spec (1 / 10 ^ 6) (3 / 6250000)) as [N1|_]; [exfalso; lra|]. reflexivity.
Qed.

(** *** A tree deeper than the stack *)

(** Positions growing by a factor of 13: of 12 buckets, the first holds all triangles but the farthest. *)
Definition powers (n : nat) : list R := map (fun k => 13 ^ k) (seq 0 n).
Definition power_infos (n : nat) : list ObjectInfo := map (fun k => object_info k (across (13 ^ k))) (seq 0 n).

Lemma power_infos_eq n : infos_of (map across (powers n)) = power_infos n.
Proof.
  unfold infos_of, powers, power_infos. rewrite map_length, map_length, seq_length, map_map.
  generalize 0%nat. induction n as [|n IH]; intros off; cbn [seq map combine]; [reflexivity|]. now rewrite IH.
Qed.
Lemma power_infos_length n : length (power_infos n) = n.
Proof. unfold power_infos. now rewrite map_length, seq_length. Qed.
Lemma power_infos_S n : power_infos (S n) = power_infos n ++ [object_info n (across (13 ^ n))].
Proof. unfold power_infos. rewrite seq_S, map_app. reflexivity. Qed.
Lemma In_power_infos n i : In i (power_infos n) -> exists k, (k < n)%nat /\ i = object_info k (across (13 ^ k)).
Proof. unfold power_infos. intros H. apply in_map_iff in H. destruct H as (k & <- & K). apply in_seq in K. exists k. split; [lia|reflexivity]. Qed.
Lemma power_infos_In n k : (k < n)%nat -> In (object_info k (across (13 ^ k))) (power_infos n).
Proof. intros H. unfold power_infos. apply in_map_iff. exists k. split; [reflexivity|]. apply in_seq. lia. Qed.

Lemma sorted_unique {A} (key : A -> R) : forall l l', Permutation l l' -> StronglySorted (fun a b => key a < key b) l ->
  StronglySorted (fun a b => key a <= key b) l' -> l' = l.
Proof.
  induction l as [|x l IH]; intros l' P S S'.
  - now apply Permutation_nil in P.
  - destruct l' as [|y l']; [apply Permutation_sym, Permutation_nil in P; discriminate|].
    apply StronglySorted_inv in S. destruct S as [S F]. rewrite Forall_forall in F.
    pose proof S' as S''. apply StronglySorted_inv in S'. destruct S' as [S' F']. rewrite Forall_forall in F'.
    assert (x = y) as <-.
    { assert (Ix : In x (y :: l')) by (eapply Permutation_in; [exact P|now left]).
      assert (Iy : In y (x :: l)) by (eapply Permutation_in; [symmetry; exact P|now left]).
      destruct Iy as [E|Iy]; [exact E|]. destruct Ix as [E|Ix]; [now symmetry|].
      exfalso. apply F in Iy. apply F' in Ix. lra. }
    f_equal. apply IH; [now apply Permutation_cons_inv in P|exact S|exact S'].
Qed.

Lemma power_lt i j : (i < j)%nat -> 13 ^ i < 13 ^ j.
Proof. intros H. apply Rlt_pow; [lra|exact H]. Qed.
Lemma power_ge1 i : 1 <= 13 ^ i.
Proof. apply pow_R1_Rle. lra. Qed.

Lemma power_infos_sorted n : StronglySorted (fun a b => coord AxisX (centroid a) < coord AxisX (centroid b)) (power_infos n).
Proof.
  unfold power_infos. generalize 0%nat. induction n as [|n IH]; intros off; cbn [seq map]; constructor; [apply IH|].
  apply Forall_forall. intros i Hi. apply in_map_iff in Hi. destruct Hi as (k & <- & K). apply in_seq in K.
  rewrite !across_centroid. cbn [coord vx]. apply power_lt. lia.
Qed.

Lemma find_mid_snoc idx m l x : l <> [] -> (forall i, In i l -> (idx (centroid i) <= m)%nat) -> (m < idx (centroid x))%nat ->
  find_mid idx m (l ++ [x]) 0 None = Some (length l).
Proof.
  assert (G : forall l off mid, (forall i, In i l -> (idx (centroid i) <= m)%nat) -> (m < idx (centroid x))%nat -> mid = Some off \/ (1 <= length l)%nat ->
    find_mid idx m (l ++ [x]) off mid = Some (off + length l)%nat).
  { clear. induction l as [|y l IH]; intros off mid H Hx Hm; cbn [app find_mid length].
    - destruct (Nat.leb_spec (idx (centroid x)) m); [lia|]. destruct Hm as [->|Hm]; [f_equal; lia|cbn in Hm; lia].
    - destruct (Nat.leb_spec (idx (centroid y)) m) as [L|L]; [|specialize (H y (or_introl eq_refl)); lia].
      rewrite IH; [f_equal; lia| |exact Hx|left; f_equal; lia]. intros i Hi. apply H. now right. }
  intros Hl H Hx. rewrite G; [reflexivity|exact H|exact Hx|]. right. destruct l; [congruence|cbn; lia].
Qed.

(** The bucket of every triangle but the last *)
Lemma power_bucket k n c m : (k < n)%nat -> vx c = 13 ^ k -> vx m = 1 -> get_bucket_index c (13 ^ n - 1) AxisX 12 m = 0%nat.
Proof.
  intros H Ec Em. unfold get_bucket_index. cbn [coord]. rewrite Ec, Em.
  pose proof (power_ge1 k). assert (13 * 13 ^ k <= 13 ^ n).
  { replace (13 * 13 ^ k) with (13 ^ S k) by reflexivity. destruct (Nat.eq_dec (S k) n) as [<-|N]; [apply Rle_refl|]. apply Rlt_le, power_lt. lia. }
  set (x := 13 ^ k) in *. set (y := 13 ^ n) in *. clearbody x y.
  replace (INR 12) with 12 by (cbn [INR]; lra).
  assert (E : Int_part ((x - 1) * 12 / (y - 1)) = 0%Z).
  { unfold Int_part. assert (up ((x - 1) * 12 / (y - 1)) = 1%Z) as ->; [|reflexivity]. symmetry. apply tech_up.
    - apply Rmult_lt_reg_r with (y - 1); [lra|]. unfold Rdiv. rewrite Rmult_assoc, Rinv_l by lra. lra.
    - assert (0 <= (x - 1) * 12 / (y - 1)); [|lra]. apply Rmult_le_pos; [lra|]. apply Rlt_le, Rinv_0_lt_compat. lra. }
  rewrite E. reflexivity.
Qed.

(** The left side of the tree is a chain of [m] inner nodes, whose boxes the ray meets *)
Fixpoint chain (ray : Ray) (t : Node) (m : nat) : Prop :=
  match m with
  | O => True
  | S m' => exists b c1 c2, t = Interior b AxisX c1 c2 /\ intersect RF (gamma 3) b (origin ray) (inv_dir ray) = true /\ chain ray c1 m'
  end.

Lemma power_chain s n0' : reorders s -> let scene := across_scene (powers n0') in forall m fuel o root o', (24 + m <= n0')%nat -> (24 + m <= fuel)%nat ->
  recursive_build s fuel scene (power_infos (24 + m)) o = Ok (root, o') -> chain slanted_ray root m.
Proof.
  intros R scene. induction m as [|m IH]; intros fuel o root o' Hn Hf E; [exact I|].
  assert (Hidx : forall k, (k <= n0')%nat -> forall i, In i (power_infos k) -> indexed scene i).
  { intros k Hk i Hi. apply In_power_infos in Hi. destruct Hi as (j & J & ->).
    destruct (across_scene_wf (powers n0')) as (W1 & W2 & W3). fold scene in W1, W2, W3.
    assert (L : length (triangles scene) = n0') by (unfold scene, across_scene, powers; cbn [triangles]; now rewrite !map_length, seq_length).
    unfold indexed. rewrite W1, W2, W3, L. cbn [object_info index ibounds]. repeat (split; [lia|]).
    exists (across (13 ^ j)). split; [|reflexivity]. unfold scene, across_scene, powers. cbn [triangles]. rewrite map_map, nth_error_map.
    rewrite (nth_error_nth_lt _ _ 0%nat) by (rewrite seq_length; lia). rewrite seq_nth by lia. reflexivity. }
  destruct fuel as [|fuel]; [lia|].
  replace (24 + S m)%nat with (S (24 + m)) in * by lia. set (n := (24 + m)%nat) in *.
  assert (Hbox : forall bb ax c1 c2, root = Interior bb ax c1 c2 -> intersect RF (gamma 3) bb (origin slanted_ray) (inv_dir slanted_ray) = true).
  { intros bb ax c1 c2 Er. destruct (build_spec s scene R (S fuel) (power_infos (S n)) o) as (root' & l & E' & P & S).
    { intros Z. apply (f_equal (@length _)) in Z. rewrite power_infos_length in Z. discriminate. }
    { rewrite power_infos_length. lia. } { apply Hidx. lia. }
    rewrite E in E'. injection E' as -> _. 
    apply (crosses_box slanted_ray (across 1) (mkV 1 1 1)); [apply slanted_oblique|apply passes_crosses, slanted_hits| |].
    - pose proof (shape_proper _ _ _ S) as Pr. rewrite Er in Pr. exact Pr.
    - assert (I0 : In (object_info 0 (across (13 ^ 0))) l) by (eapply Permutation_in; [exact P|apply power_infos_In; lia]).
      pose proof (shape_box _ _ _ S _ I0) as Bx. rewrite Er in Bx. exact Bx. }
  assert (Hne : power_infos (S n) = object_info 0 (across (13 ^ 0)) :: map (fun k => object_info k (across (13 ^ k))) (seq 1 n)) by reflexivity.
  set (i0 := object_info 0 (across (13 ^ 0))) in *. set (rest := map _ (seq 1 n)) in *. 
  cbn [recursive_build] in E. rewrite Hne in E. rewrite <- Hne in E. rewrite power_infos_length in E.
  destruct (Nat.eqb_spec (S n) 1) as [N1|_]; [unfold n in N1; lia|].
  set (cb := centroids_bbox i0 rest) in *.
  assert (Hc : forall i, In i (i0 :: rest) -> vy (centroid i) = 2 /\ vz (centroid i) = 2).
  { intros i Hi. rewrite <- Hne in Hi. apply In_power_infos in Hi. destruct Hi as (k & _ & ->). rewrite across_centroid. cbn. auto. }
  destruct (centroids_bbox_spec i0 rest AxisX) as (X1 & (xi & X2 & X3) & (xj & X4 & X5)).
  destruct (centroids_bbox_spec i0 rest AxisY) as (_ & (yi & Y2 & Y3) & (yj & Y4 & Y5)).
  destruct (centroids_bbox_spec i0 rest AxisZ) as (_ & (zi & Z2 & Z3) & (zj & Z4 & Z5)).
  fold cb in X1, X3, X5, Y3, Y5, Z3, Z5. cbn [coord] in *.
  destruct (Hc _ Y2) as (Hy & _). destruct (Hc _ Y4) as (Hy' & _). destruct (Hc _ Z2) as (_ & Hz). destruct (Hc _ Z4) as (_ & Hz').
  assert (Xmin : vx (bmin cb) = 1).
  { apply Rle_antisym.
    - destruct (X1 i0 (or_introl eq_refl)) as [L _]. unfold i0 in L. rewrite across_centroid in L. cbn [vx pow] in L. exact L.
    - rewrite <- X3. rewrite <- Hne in X2. apply In_power_infos in X2. destruct X2 as (k & _ & ->). rewrite across_centroid. apply power_ge1. }
  assert (Xmax : vx (bmax cb) = 13 ^ n).
  { apply Rle_antisym.
    - rewrite <- X5. rewrite <- Hne in X4. apply In_power_infos in X4. destruct X4 as (k & K & ->). rewrite across_centroid. cbn [vx].
      destruct (Nat.eq_dec k n) as [->|Nk]; [apply Rle_refl|]. apply Rlt_le, power_lt. lia.
    - destruct (X1 (object_info n (across (13 ^ n)))) as [_ L]; [rewrite <- Hne; apply power_infos_In; lia|]. rewrite across_centroid in L. exact L. }
  assert (P13 : 13 <= 13 ^ n).
  { replace 13 with (13 ^ 1) at 1 by lra. destruct (Nat.eq_dec 1 n); [unfold n in *; lia|]. apply Rlt_le, power_lt. unfold n. lia. }
  assert (Eax : max_extent RF cb = AxisX).
  { unfold max_extent, vsubF. cbn [fltb fsub RF vx vy vz]. rewrite <- Y3, <- Y5, <- Z3, <- Z5, Hy, Hy', Hz, Hz', Xmin, Xmax.
    destruct (Rltb_spec (2 - 2) (13 ^ n - 1)) as [_|N]; [reflexivity|exfalso; apply N; lra]. }
  rewrite Eax in E. cbn [coord] in E. rewrite Xmin, Xmax in E.
  destruct (Rltb_spec (13 ^ n - 1) (1 / 10 ^ 8)) as [N|_]; [exfalso; lra|].
  destruct (Nat.leb_spec (S n) 4) as [N|_]; [unfold n in N; lia|].
  set (idx := fun c => get_bucket_index c (13 ^ n - 1) AxisX 12 (bmin cb)) in *.
  assert (Hidx12 : forall c, (idx c < 12)%nat) by (intros c; unfold idx; apply bucket_lt).
  assert (B0 : forall k, (k < n)%nat -> idx (centroid (object_info k (across (13 ^ k)))) = 0%nat).
  { intros k K. unfold idx. apply (power_bucket k); [exact K|rewrite across_centroid; reflexivity|exact Xmin]. }
  assert (Bn : idx (centroid (object_info n (across (13 ^ n)))) = 11%nat).
  { unfold idx. apply bucket_last; [apply Rgt_not_eq; lra|]. rewrite across_centroid. cbn [coord vx]. lra. }
  destruct (cheapest_ok (fill_buckets idx (power_infos (S n))) (bounds_of i0 rest) 11) with (i := 0%nat) (mc := fmax) (mb := 0%nat) as (c & mcb & Ec & Lc).
  { apply fill_buckets_filled; [exact Hidx12|]. exists (object_info 0 (across (13 ^ 0))). split; [apply power_infos_In; lia|apply B0; unfold n; lia]. }
  { apply fill_buckets_filled; [exact Hidx12|]. exists (object_info n (across (13 ^ n))). split; [apply power_infos_In; lia|exact Bn]. }
  { left. lia. }
  rewrite Ec in E. cbn [bind] in E.
  destruct (Nat.ltb_spec 24 (S n)) as [_|N]; [|unfold n in N; lia]. cbn [orb] in E.
  destruct R as [Rs Rn]. destruct (Rs (fun i => coord AxisX (centroid i)) (power_infos (S n))) as [Ps Ss].
  cbn [coord] in *.
  rewrite (sorted_unique (fun i => vx (centroid i)) _ _ Ps (power_infos_sorted (S n)) Ss) in E.
  rewrite (power_infos_S n) in E at 1.
  rewrite find_mid_snoc in E.
  - rewrite power_infos_length in E. rewrite power_infos_S in E.
    rewrite firstn_app, power_infos_length, Nat.sub_diag, firstn_all2, app_nil_r in E by (rewrite power_infos_length; lia).
    destruct (recursive_build s fuel scene (power_infos n) o) as [[c1 o1]| |] eqn:E1; cbn [bind] in E; try discriminate.
    destruct (recursive_build s fuel scene (skipn n _) o1) as [[c2 o2]| |] eqn:E2; cbn [bind] in E; try discriminate.
    injection E as Er _. cbn [chain]. unfold new_interior in Er. exists (from_union RF (nbounds c1) (nbounds c2)), c1, c2.
    split; [now symmetry|]. split; [apply (Hbox _ AxisX c1 c2); now symmetry|].
    apply (IH fuel o c1 o1); [lia|lia|exact E1].
  - intros Z. apply (f_equal (@length _)) in Z. rewrite power_infos_length in Z. unfold n in Z. discriminate.
  - intros i Hi. apply In_power_infos in Hi. destruct Hi as (k & K & ->). rewrite B0 by exact K. lia.
  - rewrite Bn. lia.
Qed.

(** Walking down such a chain fills the stack *)
Lemma chain_panics {A} (leaf : A -> nat -> nat -> A * bool) ray N nodes : 0 <= coord AxisX (inv_dir ray) ->
  forall m t off pre post st a fuel, nodes = pre ++ flatten_node t off ++ post -> length pre = off -> chain ray t m ->
  (length st <= N)%nat -> (N < length st + m)%nat -> (m <= fuel)%nat ->
  walk leaf N ray nodes fuel off st a = Panic.
Proof.
  intros Hd. induction m as [|m IH]; intros t off pre post st a fuel Hn Hp Hc HN1 HN2 Hf; [lia|].
  destruct Hc as (b & c1 & c2 & -> & Hb & Hc). destruct fuel as [|fuel]; [lia|].
  cbn [flatten_node] in Hn. rewrite flatten_length in Hn. cbn [walk].
  set (o2 := (off + 1 + size c1)%nat) in *.
  assert (Hfirst : nth_error nodes off = Some (mkFlat b 0 AxisX (as_i32 o2))).
  { rewrite Hn. rewrite nth_error_app2, Hp, Nat.sub_diag by lia. reflexivity. }
  rewrite Hfirst. cbn [fbounds]. rewrite Hb. unfold is_leaf. cbn [n_prims next axis]. change (0 <? 0)%Z with false. cbv iota.
  destruct (Nat.ltb_spec (length st) N) as [L|L]; [|reflexivity].
  destruct (Rltb_spec (coord AxisX (inv_dir ray)) 0) as [Neg|_]; [exfalso; lra|].
  apply (IH c1 (off + 1)%nat (pre ++ [mkFlat b 0 AxisX (as_i32 o2)]) (flatten_node c2 o2 ++ post)).
  - rewrite Hn, <- !app_assoc. cbn [app]. rewrite <- !app_assoc. reflexivity.
  - rewrite app_length, Hp. reflexivity.
  - exact Hc.
  - cbn [length]. lia.
  - cbn [length]. lia.
  - lia.
Qed.

(** Every caller gives the traversal a stack of 32 entries; 57 triangles at growing distances are enough to overflow it. *)
Lemma powers_overflow n : n = 57%nat -> let scene := across_scene (powers n) in
  length (triangles scene) = n /\ In (across 1) (triangles scene) /\
  forall s fuel, reorders s -> (33 <= fuel)%nat -> exists nodes mapping scene', tree_new s scene = Ok (nodes, mapping, scene') /\
    tree_intersect 32 nodes scene' slanted_ray fuel = Panic.
Proof.
  intros En scene.
  assert (L : length (triangles scene) = n) by (unfold scene, across_scene, powers; cbn [triangles]; now rewrite !map_length, seq_length).
  assert (Ht : triangles scene = map across (powers n)) by reflexivity.
  assert (Hin : In (across 1) (triangles scene)).
  { rewrite Ht. apply in_map. unfold powers. apply in_map_iff. exists 0%nat. split; [reflexivity|]. apply in_seq. lia. }
  split; [exact L|]. split; [exact Hin|]. intros s fuel R Hf.
  destruct (tree_new_spec s scene R (across_scene_wf _)) as (root & l & scene' & E & _); [intros Z; rewrite Z in Hin; destruct Hin|].
  exists (flatten_node root 0), (map index l), scene'. split; [exact E|].
  assert (Hch : exists root', flatten_node root' 0 = flatten_node root 0 /\ chain slanted_ray root' 33).
  { unfold tree_new in E. destruct (triangles scene) as [|t ts] eqn:Et; [destruct Hin|]. rewrite Ht in E, L. rewrite L, power_infos_eq in E.
    destruct (recursive_build s n scene (power_infos n) (mkOrdered [] [] [] [] [])) as [[root' o']| |] eqn:Eb; cbn [bind] in E; try discriminate.
    replace (power_infos n) with (power_infos (24 + 33)) in Eb by (f_equal; lia).
    apply (power_chain s n R 33) in Eb; [|lia|lia].
    injection E as Er _ _. exists root'. split; [exact Er|exact Eb]. }
  destruct Hch as (root' & <- & Hch).
  unfold tree_intersect.
  assert (Hn : forall A (x y : A), (match flatten_node root' 0 with [] => x | _ => y end) = y) by (intros; destruct root'; reflexivity).
  rewrite Hn, (chain_panics _ slanted_ray 32 (flatten_node root' 0)) with (m := 33%nat) (t := root') (pre := []) (post := []); try reflexivity; try assumption; try (cbn [length]; lia).
  - cbn [coord inv_dir vx slanted_ray direction]. lra.
  - now rewrite app_nil_r.
Qed.

Theorem C36_stack_refuted : exists scene ray, well_formed scene /\ manageable scene /\ oblique ray /\ length (triangles scene) = 57%nat /\
  (exists t q, In t (triangles scene) /\ passes_through ray t q) /\
  forall s fuel, reorders s -> (33 <= fuel)%nat -> exists nodes mapping scene', tree_new s scene = Ok (nodes, mapping, scene') /\
    tree_intersect 32 nodes scene' ray fuel = Panic.
Proof.
  remember 57%nat as n eqn:En. destruct (powers_overflow n En) as (L & Hin & H).
  exists (across_scene (powers n)), slanted_ray.
  split; [apply across_scene_wf|]. split.
  { split; [rewrite L; lia|]. intros c. eapply Z.le_lt_trans; [apply Nat2Z.inj_le, filter_length_le'|]. rewrite L. lia. }
  split; [apply slanted_oblique|]. split; [exact L|]. split; [|exact H].
  exists (across 1), (mkV 1 1 1). split; [exact Hin|apply slanted_hits].
Qed.

(** The ray/triangle test allows for machine epsilon at the edges, the box test does not: a ray passing just outside an edge hits
    the triangle according to the scan and misses it according to the tree. *)
Definition flat_tri : Tri := mkTri (mkV 0 0 0) (mkV 4 0 0) (mkV 0 4 0).
Definition flat_scene : Scene := mkScene [flat_tri] [n0] [0%nat] [0%nat].
Definition grazing_ray : Ray := mkRay (mkV (- 2 * eps64 - 1 / 8) (7 / 8) (- 1)) (mkV (1 / 8) (1 / 8) 1).

Lemma flat_bounds : world_bounds flat_tri = mkB (mkV 0 0 0) (mkV 4 4 0).
Proof.
  unfold world_bounds, flat_tri. cbn [ta tb tc].
  unfold from_union_point, get_mins_maxs, from_point; cbn [fst snd bmin bmax vx vy vz]; rewrite !order_minmax; cbn [fst snd].
  repeat match goal with
  | |- context [Rmin ?a ?b] => (rewrite (Rmin_left a b) by lra) || (rewrite (Rmin_right a b) by lra)
  | |- context [Rmax ?a ?b] => (rewrite (Rmax_left a b) by lra) || (rewrite (Rmax_right a b) by lra)
  end; reflexivity.
Qed.
Lemma eps64_val : 0 < eps64 < 1 / 1000.
Proof. unfold eps64. split; [apply Rinv_0_lt_compat, pow_lt; lra|]. unfold Rdiv. rewrite Rmult_1_l. apply Rinv_lt_contravar; lra. Qed.
Lemma gamma_small : gamma 3 < 2 * eps64.
Proof.
  unfold gamma. pose proof eps64_val as (A & B). set (e := eps64) in *. clearbody e.
  apply Rmult_lt_reg_r with (1 - e / 2 * 3); [lra|]. unfold Rdiv at 1. rewrite Rmult_assoc, Rinv_l by lra. nra.
Qed.
Lemma grazing_box : intersect RF (gamma 3) (world_bounds flat_tri) (origin grazing_ray) (inv_dir grazing_ray) = false.
Proof.
  destruct (intersect RF (gamma 3) (world_bounds flat_tri) (origin grazing_ray) (inv_dir grazing_ray)) eqn:E; [|reflexivity].
  exfalso. apply intersect_iff in E; [|apply gamma_pos]. rewrite flat_bounds in E.
  unfold grazing_ray, inv_dir in E. cbn [origin direction bmin bmax vx vy vz] in E.
  pose proof eps64_val as (A & B). pose proof gamma_pos as G1. pose proof gamma_small as G2.
  set (e := eps64) in *. set (g := gamma 3) in *. clearbody e g.
  destruct E as (t & _ & (X & _) & _ & (_ & Z)).
  rewrite Rmin_left in X by lra. rewrite Rmax_left in Z by lra. lra.
Qed.
Lemma grazing_reported : reported grazing_ray flat_tri (mkV (- 2 * eps64) 1 0).
Proof.
  exists (- (1 / 2) * eps64), (1 / 4). unfold baricentric_coordinates, flat_tri, grazing_ray, project, vdot, vcross, vsub, vadd, vscale.
  cbn [ta tb tc origin direction vx vy vz].
  pose proof eps64_val as (A & B). set (e := eps64) in *. clearbody e.
  match goal with |- context [if Rltb ?x ?y && _ then _ else _] => set (a := x) end.
  assert (Ea : a = -16) by (unfold a; lra). clearbody a. subst a.
  destruct (Rltb_spec (-16) (1 / 10 ^ 5)) as [_|N]; [|exfalso; lra].
  destruct (Rltb_spec (- (1 / 10 ^ 5)) (-16)) as [N|_]; [exfalso; lra|]. cbn [andb].
  repeat match goal with |- context [1 / -16 * ?x] => let y := fresh "y" in set (y := 1 / -16 * x) end.
  assert (Ey : y = - (1 / 2) * e) by (unfold y; lra). assert (Ey0 : y0 = 1 / 4) by (unfold y0; lra). assert (Ey1 : y1 = 1) by (unfold y1; lra).
  clearbody y y0 y1. subst y y0 y1.
  destruct (Rleb_spec (- e) (- (1 / 2) * e)) as [_|N]; [|exfalso; lra].
  destruct (Rleb_spec (- (1 / 2) * e) (1 + e)) as [_|N]; [|exfalso; lra]. cbn [andb negb].
  destruct (Rltb_spec (1 + e) (- (1 / 2) * e + 1 / 4)) as [N|_]; [exfalso; lra|].
  destruct (Rltb_spec (1 / 4) (- e)) as [N|_]; [exfalso; lra|]. cbn [orb].
  destruct (Rltb_spec (1 / 10 ^ 5) 1) as [_|N]; [|exfalso; lra].
  f_equal. f_equal. f_equal. apply V3_eq; cbn [vx vy vz]; lra.
Qed.

Theorem C36_grazing_refuted : well_formed flat_scene /\ manageable flat_scene /\ oblique grazing_ray /\
  simple_intersect_triangle_slice (triangles flat_scene) grazing_ray 0 1 <> None /\
  forall s N fuel, reorders s -> exists nodes mapping scene', tree_new s flat_scene = Ok (nodes, mapping, scene') /\
    tree_intersect N nodes scene' grazing_ray (S fuel) = Ok None.
Proof.
  split; [unfold well_formed; cbn; auto|]. split.
  { unfold manageable, flat_scene. cbn [triangles length filter]. split; [lia|]. intros c. destruct (near c (centre flat_tri)); reflexivity. }
  split; [unfold oblique, grazing_ray; cbn; lra|]. split.
  - destruct grazing_reported as (u & v & E). unfold simple_intersect_triangle_slice, flat_scene. cbn [triangles Nat.sub firstn skipn nearest]. rewrite E.
    unfold vlen2, vsub, grazing_ray. cbn [origin vx vy vz].
    pose proof eps64_val as (A & B). set (e := eps64) in *. clearbody e. set (d := _ + _ + _).
    assert (Ed : d = 1 + 1 / 32) by (unfold d; lra). clearbody d. subst d.
    destruct (Rltb_spec (1 / 10 ^ 7) (1 + 1 / 32)) as [_|N]; [|exfalso; lra].
    destruct (Rltb_spec (1 + 1 / 32) fmax) as [_|N]; [discriminate|exfalso; apply N; pose proof fmax_big2; lra].
  - intros s N fuel R. unfold tree_new, flat_scene. cbn [triangles length].
    cbn [recursive_build infos_of combine seq map length Nat.eqb emit object_info index nth_error triangles normals front_material_indexes back_material_indexes bind
      bounds_of fold_left ibounds o_triangles o_mapping o_front o_back o_normals app flatten_node].
    eexists _, _, _. split; [reflexivity|]. cbn [tree_intersect walk nth_error fbounds]. rewrite grazing_box. reflexivity.
Qed.

(** ** Examples *)

(** A way to reorder: insertion sort *)
Fixpoint insert (key : ObjectInfo -> R) (x : ObjectInfo) (l : list ObjectInfo) : list ObjectInfo :=
  match l with [] => [x] | y :: r => if Rleb (key x) (key y) then x :: l else y :: insert key x r end.
Definition insertion_sort (key : ObjectInfo -> R) (l : list ObjectInfo) : list ObjectInfo := fold_right (insert key) [] l.
Lemma insert_perm key x l : Permutation (x :: l) (insert key x l).
Proof. induction l as [|y l IH]; cbn [insert]; [reflexivity|]. destruct (Rleb (key x) (key y)); [reflexivity|]. rewrite perm_swap. now constructor. Qed.
Lemma insert_sorted key x l : StronglySorted (fun a b => key a <= key b) l -> StronglySorted (fun a b => key a <= key b) (insert key x l).
Proof.
  induction 1 as [|y l S IH F]; cbn [insert]; [repeat constructor|]. destruct (Rleb_spec (key x) (key y)) as [L|L].
  - constructor; [constructor; assumption|]. constructor; [exact L|]. eapply Forall_impl; [|exact F]. cbn. intros; lra.
  - constructor; [exact IH|]. eapply Permutation_Forall; [apply insert_perm|]. constructor; [lra|exact F].
Qed.
Definition simple_reorder : Reorder := mkReorder insertion_sort (fun key n l => insertion_sort key l).
Lemma insertion_sort_perm key l : Permutation l (insertion_sort key l).
Proof. induction l as [|x l IH]; cbn; [reflexivity|]. rewrite <- insert_perm. now constructor. Qed.
Example reorders_exists : reorders simple_reorder.
Proof.
  split; cbn [sort select_nth simple_reorder]; intros; [split|]; try apply insertion_sort_perm.
  induction l; cbn; [constructor|]. now apply insert_sorted.
Qed.

(** The hypotheses of C35 and C36 hold for the 57 triangles above; with a large enough stack the ray stops at the first of them. *)
Lemma small_manageable scene : (length (triangles scene) < 1000)%nat -> manageable scene.
Proof. intros L. split; [lia|]. intros c. eapply Z.le_lt_trans; [apply Nat2Z.inj_le, filter_length_le'|]. lia. Qed.

Example C36_nearest_example : exists nodes mapping scene' i, tree_new simple_reorder (across_scene [28; 1; 13]) = Ok (nodes, mapping, scene') /\
  Permutation mapping [0; 1; 2]%nat /\
  tree_intersect 32 nodes scene' slanted_ray 6 = Ok (Some (i, mkV 1 1 1)) /\ nth_error mapping i = Some 1%nat.
Proof.
  destruct (C36_nearest simple_reorder (across_scene [28; 1; 13]) 32 slanted_ray 6) as (nodes & mapping & scene' & E & H);
    [apply reorders_exists|apply across_scene_wf|apply small_manageable; cbn; lia|apply slanted_oblique|cbn; lia|].
  destruct (C35_permutation simple_reorder (across_scene [28; 1; 13]) reorders_exists (across_scene_wf _)) as (mp & sc & nd & E' & P & _).
  unfold build_accelerator in E'. cbn [fst snd] in E'. rewrite E in E'. cbn [bind] in E'. injection E' as <- <- <-.
  destruct H as [(_ & H)|(r & Er & Hr)]; [cbn in H; lia|].
  assert (D1 : dist2 slanted_ray (mkV 1 1 1) = 3 / 2) by (unfold dist2, vlen2, vsub, slanted_ray; cbn; lra).
  destruct r as [[i p]|].
  2:{ exfalso. apply (Hr (across 1) (mkV 1 1 1)); [right; now left|apply slanted_hits|]. rewrite D1. pose proof fmax_big2. split; lra. }
  exists nodes, mapping, scene', i. split; [exact E|]. split; [exact P|].
  destruct Hr as ((j & t & Hj & Ht & Hp) & Dp & Mp).
  assert (dist2 slanted_ray p <= 3 / 2) by (rewrite <- D1; apply (Mp (across 1)); [right; now left|apply slanted_hits|rewrite D1; lra]).
  destruct Hp as (u & v & Hp). destruct (C29_sound _ _ _ _ _ Hp) as (Eb & _ & _ & _ & s & Hs & Es).
  assert (Ex : exists x, In x [28; 1; 13] /\ t = across x /\ nth_error [28; 1; 13] j = Some x).
  { unfold across_scene in Ht. cbn [triangles map] in Ht. destruct j as [|[|[|[|j]]]]; cbn [nth_error] in Ht; try discriminate; injection Ht as <-; eexists; (split; [|split; reflexivity]); cbn; auto. }
  destruct Ex as (x & Ix & -> & Jx).
  assert (Xp : vx p = x) by (rewrite Eb; unfold bary, across; cbn; lra).
  assert (Sp : vx p = s /\ vy p = (1 + s) / 2 /\ vz p = (1 + s) / 2) by (rewrite Es; unfold ray_at, slanted_ray; cbn; lra).
  assert (x = 1).
  { destruct Sp as (S1 & S2 & S3). unfold dist2, vlen2, vsub, slanted_ray in H. cbn [origin vx vy vz] in H. rewrite S1, S2, S3 in H.
    assert (Sx : s = x) by congruence. clear - Sx H Ix. subst s.
    destruct Ix as [<-|[<-|[<-|[]]]]; [exfalso; lra|reflexivity|exfalso; lra]. }
  subst x. split.
  - rewrite Er. do 3 f_equal. apply V3_eq; cbn [vx vy vz]; lra.
  - rewrite Hj. destruct j as [|[|[|[|j]]]]; cbn [nth_error] in Jx; try discriminate; injection Jx as Jx; try lra. reflexivity.
Qed.

(** A query that finds the way blocked, and one that does not reach the triangle *)
Example C37_example : forall D, 2 < D <= 100 \/ 0 < D < 1 -> exists nodes mapping scene', tree_new simple_reorder (across_scene [1]) = Ok (nodes, mapping, scene') /\
  unobstructed_distance 32 nodes scene' slanted_ray D 2 = Ok (Rltb D 1).
Proof.
  intros D HD.
  assert (D1 : dist2 slanted_ray (mkV 1 1 1) = 3 / 2) by (unfold dist2, vlen2, vsub, slanted_ray; cbn; lra).
  assert (U : forall t q, In t (triangles (across_scene [1])) -> reported slanted_ray t q -> q = mkV 1 1 1).
  { intros t q [<-|[]] H. eapply reported_fun; [exact H|]. apply crosses_reported, passes_crosses, slanted_hits. }
  destruct (C37_obstructed_partial simple_reorder (across_scene [1]) 32 slanted_ray D 2) as (nodes & mapping & scene' & E & H);
    [apply reorders_exists|apply across_scene_wf|apply small_manageable; cbn; lia|apply slanted_oblique|cbn; lia|pose proof fmax_big2; lra| |].
  { intros t q I Q. rewrite (U t q I Q), D1. lra. }
  exists nodes, mapping, scene'. split; [exact E|].
  destruct H as [(_ & H)|[(H1 & H2)|(H1 & t & q & I & Q & Q1 & Q2)]]; [cbn in H; lia| |].
  - rewrite H1. destruct (Rltb_spec D 1) as [_|N]; [reflexivity|]. exfalso. apply (H2 (across 1) (mkV 1 1 1)); [now left|apply slanted_hits|]. rewrite D1. lra.
  - rewrite H1. rewrite (U t q I Q), D1 in Q2. destruct (Rltb_spec D 1) as [N|_]; [exfalso; lra|reflexivity].
Qed.

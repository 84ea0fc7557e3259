(** C24-C28: transforms and bounding boxes (geometry/src/transform.rs, geometry/src/bbox3d.rs), in exact arithmetic. *)
From Coq Require Import Reals List Bool Lra Lia Psatz PrimFloat.
From Verif.Common Require Import Base Flt.
From Verif.Geometry Require Import Vec BBoxModel TransformModel GeomProofs.
Import ListNotations.
Open Scope R_scope.

(** The transforms the library can create directly *)
Inductive elementary : Transform -> Prop :=
  | el_new : elementary t_new
  | el_translate x y z : elementary (translate x y z)
  | el_scale x y z : x <> 0 -> y <> 0 -> z <> 0 -> elementary (scale x y z)
  | el_rotate_x a : elementary (rotate_x a)
  | el_rotate_y a : elementary (rotate_y a)
  | el_rotate_z a : elementary (rotate_z a).

Lemma elementary_sound t : elementary t -> sound t.
Proof.
  destruct 1; auto using sound_new, sound_translate, sound_scale, sound_rotate_x, sound_rotate_y, sound_rotate_z.
Qed.

(** ** C24: the inverse of an elementary transform undoes it *)
Theorem C24_inverse : forall t p, elementary t ->
  inv_transform_pt t (transform_pt t p) = p /\ transform_pt t (inv_transform_pt t p) = p /\
  inv_transform_vec t (transform_vec t p) = p /\ transform_vec t (inv_transform_vec t p) = p.
Proof. intros t p H. now apply sound_inverse, elementary_sound. Qed.

(** ... and each does what its name says. *)
Theorem C24_translate : forall x y z p,
  transform_pt (translate x y z) p = mkV (vx p + x) (vy p + y) (vz p + z) /\ transform_vec (translate x y z) p = p.
Proof. intros. split; apply V3_eq; cbn; field. Qed.
Theorem C24_scale : forall x y z p,
  transform_pt (scale x y z) p = mkV (x * vx p) (y * vy p) (z * vz p) /\
  transform_vec (scale x y z) p = mkV (x * vx p) (y * vy p) (z * vz p).
Proof. intros. split; apply V3_eq; cbn; field. Qed.
(** A counterclockwise rotation by [a] degrees adds the angle to the polar angle of every point. *)
Theorem C24_rotate : forall a r phi h,
  let th := a * PI / 180 in
  transform_pt (rotate_z a) (mkV (r * cos phi) (r * sin phi) h) = mkV (r * cos (phi + th)) (r * sin (phi + th)) h /\
  transform_pt (rotate_x a) (mkV h (r * cos phi) (r * sin phi)) = mkV h (r * cos (phi + th)) (r * sin (phi + th)) /\
  transform_pt (rotate_y a) (mkV (r * sin phi) h (r * cos phi)) = mkV (r * sin (phi + th)) h (r * cos (phi + th)).
Proof.
  intros a r phi h th. assert (E : th = to_radians a) by (unfold th, to_radians; field). rewrite E. clear E th.
  unfold rotate_x, rotate_y, rotate_z. rewrite cos_plus, sin_plus. generalize (to_radians a) as t. intros t.
  repeat split; apply V3_eq; cbn; field.
Qed.
(** The handedness test: mirrors are detected, rotations and translations are not mirrors. *)
Theorem C24_changes_hands : (forall x y z, changes_hands (scale x y z) = true <-> x * y * z < 0) /\
  (forall x y z, changes_hands (translate x y z) = false) /\
  (forall a, changes_hands (rotate_x a) = false /\ changes_hands (rotate_y a) = false /\ changes_hands (rotate_z a) = false).
Proof.
  split; [|split].
  - intros x y z. unfold changes_hands. cbn. rewrite Rltb_true.
    replace (x * (y * z - 0 * 0) - 0 * (0 * z - 0 * 0) + 0 * (0 * 0 - y * 0)) with (x * y * z) by ring. reflexivity.
  - intros. unfold changes_hands. cbn. apply Rltb_false. lra.
  - intros a. unfold rotate_x, rotate_y, rotate_z. generalize (to_radians a) as t. intros t. pose proof (sc t).
    repeat split; unfold changes_hands; cbn; apply Rltb_false; nra.
Qed.

Example C24_example : elementary (scale 2 (-3) 5) /\ transform_pt (scale 2 (-3) 5) (mkV 1 1 1) = mkV 2 (-3) 5.
Proof. split; [constructor; lra|apply V3_eq; cbn; field]. Qed.

(** ** C25: composed transforms *)

(** [a *= b] applies [b] first, then [a]. *)
Definition compose (ts : list Transform) : Transform := fold_left mul_assign ts t_new.
Definition apply_all (f : Transform -> pt -> pt) (ts : list Transform) (p : pt) : pt := fold_right f p ts.

Lemma elementary_affine t : elementary t -> affine (elements t).
Proof. intros H. apply (elementary_sound _ H). Qed.

Lemma compose_affine ts t0 : affine (elements t0) -> Forall elementary ts -> affine (elements (fold_left mul_assign ts t0)).
Proof.
  revert t0. induction ts as [|t ts IH]; intros t0 A H; [exact A|]. inversion H; subst. cbn [fold_left]. apply IH; [|assumption].
  cbn [mul_assign elements]. apply affine_mul; [assumption|now apply elementary_affine].
Qed.

Theorem C25_order : forall ts p, Forall elementary ts ->
  transform_pt (compose ts) p = apply_all transform_pt ts p /\ transform_vec (compose ts) p = apply_all transform_vec ts p.
Proof.
  intros ts p H.
  assert (G : forall t0, affine (elements t0) ->
    transform_pt (fold_left mul_assign ts t0) p = transform_pt t0 (apply_all transform_pt ts p) /\
    transform_vec (fold_left mul_assign ts t0) p = transform_vec t0 (apply_all transform_vec ts p)).
  { induction H as [|t ts Ht H IH]; intros t0 A; [split; reflexivity|]. cbn [fold_left apply_all fold_right].
    destruct (IH (mul_assign t0 t)) as [-> ->]; [cbn; apply affine_mul; [assumption|now apply elementary_affine]|].
    unfold transform_pt, transform_vec. cbn [mul_assign elements].
    rewrite mul4x4_point, mul4x4_vec by (assumption || now apply elementary_affine). split; reflexivity. }
  unfold compose. destruct (G t_new) as [-> ->]; [apply sound_new|]. unfold transform_pt, transform_vec. cbn [t_new elements].
  now rewrite id_point, id_vec.
Qed.

(** Partial: holds for transforms that commute with each other (e.g. only translations, or only rotations about one axis). *)
Definition commute (a b : Transform) : Prop := forall p, transform_pt a (transform_pt b p) = transform_pt b (transform_pt a p).

Lemma affine_point_ext m1 m2 : affine m1 -> affine m2 -> (forall p, mul4x4point m1 p = mul4x4point m2 p) -> m1 = m2.
Proof.
  intros A1 A2 H.
  pose proof (H (mkV 0 0 0)) as H0. pose proof (H (mkV 1 0 0)) as H1. pose proof (H (mkV 0 1 0)) as H2. pose proof (H (mkV 0 0 1)) as H3.
  rewrite !mul4x4point_affine in H0, H1, H2, H3 by assumption.
  apply affine_list in A1 as (a1 & b1 & c1 & d1 & e1 & f1 & g1 & h1 & i1 & j1 & k1 & l1 & ->).
  apply affine_list in A2 as (a2 & b2 & c2 & d2 & e2 & f2 & g2 & h2 & i2 & j2 & k2 & l2 & ->).
  cbn in H0, H1, H2, H3. injection H0 as X0 Y0 Z0. injection H1 as X1 Y1 Z1. injection H2 as X2 Y2 Z2. injection H3 as X3 Y3 Z3.
  repeat (apply f_equal2; [lra|]). reflexivity.
Qed.

Lemma commute_elements a b : elementary a -> elementary b -> commute a b -> mul4x4 (elements a) (elements b) = mul4x4 (elements b) (elements a).
Proof.
  intros Ha Hb C. apply elementary_affine in Ha, Hb. apply affine_point_ext; auto using affine_mul.
  intros p. rewrite !mul4x4_point by assumption. apply C.
Qed.

Theorem C25_inverse_partial : forall ts p, Forall elementary ts ->
  (forall a b, In a ts -> In b ts -> commute a b) ->
  inv_transform_pt (compose ts) (transform_pt (compose ts) p) = p /\
  transform_pt (compose ts) (inv_transform_pt (compose ts) p) = p.
Proof.
  intros ts p H C.
  assert (G : forall done t0, sound t0 -> (forall b, In b ts -> mul4x4 (elements t0) (elements b) = mul4x4 (elements b) (elements t0)) ->
    incl done ts -> sound (fold_left mul_assign done t0)).
  { induction done as [|t done IH]; intros t0 S0 C0 I; [exact S0|]. cbn [fold_left].
    assert (Ht : In t ts) by (apply I; now left).
    assert (Et : elementary t) by (rewrite Forall_forall in H; now apply H).
    apply IH; [apply sound_mul; [assumption|now apply elementary_sound|now apply C0]| |intros x Hx; apply I; now right].
    intros b Hb. cbn [mul_assign elements].
    assert (Eb : elementary b) by (rewrite Forall_forall in H; now apply H).
    rewrite mul4x4_assoc, (commute_elements t b Et Eb (C _ _ Ht Hb)), <- mul4x4_assoc, C0 by assumption. now rewrite mul4x4_assoc. }
  assert (S : sound (compose ts)).
  { apply G; [apply sound_new| |apply incl_refl]. intros b Hb. cbn [t_new elements].
    rewrite Forall_forall in H. pose proof (elementary_affine _ (H _ Hb)) as [L _]. now rewrite mul4x4_id_l, mul4x4_id_r. }
  split; now apply sound_inverse.
Qed.

Example C25_example : let ts := [translate 1 2 3; translate (-4) 5 6] in
  Forall elementary ts /\ (forall a b, In a ts -> In b ts -> commute a b).
Proof.
  split; [repeat constructor|]. intros a b [<-|[<-|[]]] [<-|[<-|[]]] p; rewrite ?(proj1 (C24_translate _ _ _ _)); apply V3_eq; cbn; ring.
Qed.

(** False in general: the inverses are multiplied in the wrong order. *)
Theorem C25_inverse_refuted : exists a b p, elementary a /\ elementary b /\
  inv_transform_pt (mul_assign a b) (transform_pt (mul_assign a b) p) <> p.
Proof.
  exists (translate 1 0 0), (scale 2 1 1), (mkV 0 0 0). split; [constructor|]. split; [constructor; lra|].
  intros E. apply (f_equal vx) in E. cbn in E. lra.
Qed.

(** ** C26: normals and boxes *)
Theorem C26_normals : forall t v n, elementary t -> vdot v n = 0 -> vdot (transform_vec t v) (transform_normal t n) = 0.
Proof. intros t v n H E. rewrite sound_normal by now apply elementary_sound. exact E. Qed.

Example C26_example : vdot (mkV 1 1 0) (mkV 1 (-1) 0) = 0 /\ transform_normal (scale 2 1 1) (mkV 1 (-1) 0) = mkV (1 / 2) (-1) 0.
Proof. split; [vring; ring|apply V3_eq; cbn; lra]. Qed.

(** For composed transforms the normals are wrong, because of the wrong inverse. *)
Theorem C26_normals_composed_refuted : exists a b v n, elementary a /\ elementary b /\ vdot v n = 0 /\
  vdot (transform_vec (mul_assign a b) v) (transform_normal (mul_assign a b) n) <> 0.
Proof.
  exists (rotate_z 90), (scale 2 1 1), (mkV 1 1 0), (mkV 1 (-1) 0). split; [constructor|]. split; [constructor; lra|].
  split; [vring; ring|]. unfold rotate_z. replace (to_radians 90) with (PI / 2) by (unfold to_radians; field).
  rewrite cos_PI2, sin_PI2. cbn. unfold vdot. cbn. lra.
Qed.

(** Boxes: for every composition of elementary transforms. *)
Theorem C26_boxes : forall ts b p, Forall elementary ts -> point_inside RF b p = true ->
  point_inside RF (transform_bbox (compose ts) b) (transform_pt (compose ts) p) = true.
Proof.
  intros ts [[x0 y0 z0] [x1 y1 z1]] p H I. rewrite point_inside_iff in *.
  assert (A : affine (elements (compose ts))) by (apply compose_affine; [apply sound_new|assumption]).
  generalize dependent (compose ts). intros t A. clear ts H.
  unfold transform_bbox. unfold inside in I. cbn [bmin bmax vx vy vz] in I.
  set (f := fun x y z => transform_pt t (mkV x y z)).
  change (transform_pt t (mkV x0 y0 z0)) with (f x0 y0 z0). change (transform_pt t (mkV x1 y0 z0)) with (f x1 y0 z0).
  change (transform_pt t (mkV x0 y1 z0)) with (f x0 y1 z0). change (transform_pt t (mkV x0 y0 z1)) with (f x0 y0 z1).
  change (transform_pt t (mkV x0 y1 z1)) with (f x0 y1 z1). change (transform_pt t (mkV x1 y1 z0)) with (f x1 y1 z0).
  change (transform_pt t (mkV x1 y0 z1)) with (f x1 y0 z1). change (transform_pt t (mkV x1 y1 z1)) with (f x1 y1 z1).
  set (B := fold_left _ _ _).
  assert (Corner : forall x y z, (x = x0 \/ x = x1) -> (y = y0 \/ y = y1) -> (z = z0 \/ z = z1) -> inside B (f x y z)).
  { destruct (fold_union_inside [f x1 y0 z0; f x0 y1 z0; f x0 y0 z1; f x0 y1 z1; f x1 y1 z0; f x1 y0 z1; f x1 y1 z1] (from_point (f x0 y0 z0))) as [K1 K2].
    { unfold proper, from_point. cbn. lra. }
    fold B in K1, K2. intros x y z [-> | ->] [-> | ->] [-> | ->]; try (apply K2; cbn; tauto).
    apply K1. unfold inside, from_point. cbn. lra. }
  clearbody B.
  assert (F : forall x y z, f x y z = mkV (at_ (elements t) 0 0 * x + at_ (elements t) 0 1 * y + at_ (elements t) 0 2 * z + at_ (elements t) 0 3)
                        (at_ (elements t) 1 0 * x + at_ (elements t) 1 1 * y + at_ (elements t) 1 2 * z + at_ (elements t) 1 3)
                        (at_ (elements t) 2 0 * x + at_ (elements t) 2 1 * y + at_ (elements t) 2 2 * z + at_ (elements t) 2 3)).
  { intros. unfold f, transform_pt. rewrite mul4x4point_affine by assumption. reflexivity. }
  assert (P : transform_pt t p = f (vx p) (vy p) (vz p)) by (unfold f; destruct p; reflexivity).
  rewrite P. unfold inside in *.
  assert (One : forall a b c d lo hi, (forall x y z, (x = x0 \/ x = x1) -> (y = y0 \/ y = y1) -> (z = z0 \/ z = z1) -> lo <= a * x + b * y + c * z + d <= hi) ->
    lo <= a * vx p + b * vy p + c * vz p + d <= hi).
  { intros a b c d lo hi K.
    destruct (linear_corner x0 x1 (vx p) a ltac:(lra)) as [[U1|U1] [L1|L1]];
    destruct (linear_corner y0 y1 (vy p) b ltac:(lra)) as [[U2|U2] [L2|L2]];
    destruct (linear_corner z0 z1 (vz p) c ltac:(lra)) as [[U3|U3] [L3|L3]];
    (split; [match type of L1 with a * ?x <= _ => match type of L2 with b * ?y <= _ => match type of L3 with c * ?z <= _ => pose proof (K x y z ltac:(auto) ltac:(auto) ltac:(auto)); lra end end end
            |match type of U1 with _ <= a * ?x => match type of U2 with _ <= b * ?y => match type of U3 with _ <= c * ?z => pose proof (K x y z ltac:(auto) ltac:(auto) ltac:(auto)); lra end end end]). }
  rewrite F. cbn [vx vy vz].
  split; [|split]; apply One; intros x y z Hx Hy Hz; specialize (Corner x y z Hx Hy Hz); rewrite F in Corner; cbn [vx vy vz] in Corner; tauto.
Qed.

Example C26_boxes_example : Forall elementary [rotate_z 45; scale 2 2 2] /\ point_inside RF (mkB (mkV 0 0 0) (mkV 1 1 1)) (mkV (1/2) 1 0) = true.
Proof. split; [repeat constructor; lra|]. apply point_inside_iff. unfold inside. cbn. lra. Qed.

(** ** C27: boxes form a lattice of point sets *)
Theorem C27_point_inside : forall b p, point_inside RF b p = true <->
  vx (bmin b) <= vx p <= vx (bmax b) /\ vy (bmin b) <= vy p <= vy (bmax b) /\ vz (bmin b) <= vz p <= vz (bmax b).
Proof. intros. apply point_inside_iff. Qed.

Ltac minmax := rewrite ?order_minmax; cbn [fst snd];
  repeat match goal with
  | |- context [Rmin ?a ?b] => pose proof (Rmin_l a b); pose proof (Rmin_r a b); pose proof (Rmin_case a b (fun m => m = a \/ m = b) (or_introl eq_refl) (or_intror eq_refl)); generalize dependent (Rmin a b); intros
  | |- context [Rmax ?a ?b] => pose proof (Rmax_l a b); pose proof (Rmax_r a b); pose proof (Rmax_case a b (fun m => m = a \/ m = b) (or_introl eq_refl) (or_intror eq_refl)); generalize dependent (Rmax a b); intros
  | _ : context [Rmin ?a ?b] |- _ => pose proof (Rmin_l a b); pose proof (Rmin_r a b); generalize dependent (Rmin a b); intros
  | _ : context [Rmax ?a ?b] |- _ => pose proof (Rmax_l a b); pose proof (Rmax_r a b); generalize dependent (Rmax a b); intros
  end.

Theorem C27_union : forall a b p, point_inside RF a p = true \/ point_inside RF b p = true -> point_inside RF (from_union RF a b) p = true.
Proof.
  intros a b p. rewrite !point_inside_iff. unfold inside, from_union, get_mins_maxs. cbn [fst snd bmin bmax vx vy vz].
  minmax. lra.
Qed.

(** It is the smallest box containing both (boxes with corners in order). *)
Theorem C27_union_least : forall a b c, proper a -> proper b ->
  (forall p, point_inside RF a p = true -> point_inside RF c p = true) ->
  (forall p, point_inside RF b p = true -> point_inside RF c p = true) ->
  forall p, point_inside RF (from_union RF a b) p = true -> point_inside RF c p = true.
Proof.
  intros a b c Pa Pb Ha Hb p. unfold proper in *.
  pose proof (Ha (bmin a)) as A1. pose proof (Ha (bmax a)) as A2. pose proof (Hb (bmin b)) as B1. pose proof (Hb (bmax b)) as B2.
  rewrite !point_inside_iff in *. unfold inside, from_union, get_mins_maxs in *. cbn [fst snd bmin bmax vx vy vz].
  specialize (A1 ltac:(lra)). specialize (A2 ltac:(lra)). specialize (B1 ltac:(lra)). specialize (B2 ltac:(lra)).
  intros I. unfold Rmin, Rmax in I. rewrite ?order_minmax in I. cbn [fst snd] in I. unfold Rmin, Rmax in I. repeat destruct Rle_dec in I; lra.
Qed.

Theorem C27_union_point : forall b q c, proper b ->
  point_inside RF (from_union_point RF b q) q = true /\
  (forall p, point_inside RF b p = true -> point_inside RF (from_union_point RF b q) p = true) /\
  ((forall p, point_inside RF b p = true -> point_inside RF c p = true) -> point_inside RF c q = true ->
   forall p, point_inside RF (from_union_point RF b q) p = true -> point_inside RF c p = true).
Proof.
  intros b q c Pb. split; [|split].
  - apply point_inside_iff. now apply from_union_point_self.
  - intros p. rewrite !point_inside_iff. apply from_union_point_inside.
  - intros Hb Hq p. unfold proper in *. pose proof (Hb (bmin b)) as B1. pose proof (Hb (bmax b)) as B2.
    rewrite !point_inside_iff in *. unfold inside, from_union_point, get_mins_maxs in *. cbn [fst snd bmin bmax vx vy vz].
    specialize (B1 ltac:(lra)). specialize (B2 ltac:(lra)).
    intros I. rewrite ?order_minmax in I. cbn [fst snd] in I. unfold Rmin, Rmax in I. repeat destruct Rle_dec in I; lra.
Qed.

(** The box of two points contains both and is the smallest such. *)
Theorem C27_new : forall a b, proper (bbox_new RF a b) /\
  point_inside RF (bbox_new RF a b) a = true /\ point_inside RF (bbox_new RF a b) b = true /\
  (forall c, point_inside RF c a = true -> point_inside RF c b = true ->
   forall p, point_inside RF (bbox_new RF a b) p = true -> point_inside RF c p = true).
Proof.
  intros a b. rewrite !point_inside_iff. unfold bbox_new, get_mins_maxs, inside, proper. cbn [fst snd bmin bmax vx vy vz].
  split; [minmax; lra|]. split; [minmax; lra|]. split; [minmax; lra|].
  intros c Ha Hb p. rewrite !point_inside_iff in *. unfold inside in *. cbn [bmin bmax vx vy vz].
  intros I. rewrite ?order_minmax in I. cbn [fst snd] in I. unfold Rmin, Rmax in I. repeat destruct Rle_dec in I; lra.
Qed.

Theorem C27_intersection : forall a b p,
  point_inside RF (from_intersection RF a b) p = true <-> point_inside RF a p = true /\ point_inside RF b p = true.
Proof.
  intros a b p. rewrite !point_inside_iff. unfold inside, from_intersection, get_mins_maxs. cbn [fst snd bmin bmax vx vy vz].
  minmax. intuition lra.
Qed.

Theorem C27_overlaps : forall a b, proper a -> proper b ->
  overlaps RF a b = true <-> exists p, point_inside RF a p = true /\ point_inside RF b p = true.
Proof.
  intros a b Pa Pb. unfold overlaps. cbn [fleb RF]. rewrite !andb_true_iff, !Rleb_true. unfold proper in *. split.
  - intros H. exists (mkV (Rmax (vx (bmin a)) (vx (bmin b))) (Rmax (vy (bmin a)) (vy (bmin b))) (Rmax (vz (bmin a)) (vz (bmin b)))).
    rewrite !point_inside_iff. unfold inside. cbn [vx vy vz]. minmax. intuition lra.
  - intros (p & Ha & Hb). rewrite point_inside_iff in *. unfold inside in *. lra.
Qed.

Example C27_example : proper (mkB (mkV 0 0 0) (mkV 1 1 1)) /\ proper (mkB (mkV 1 1 0) (mkV 2 2 2)) /\
  overlaps RF (mkB (mkV 0 0 0) (mkV 1 1 1)) (mkB (mkV 1 1 0) (mkV 2 2 2)) = true.
Proof.
  unfold proper. cbn. split; [lra|]. split; [lra|]. apply C27_overlaps; unfold proper; cbn; try lra.
  exists (mkV 1 1 (1/2)). rewrite !point_inside_iff. unfold inside. cbn. lra.
Qed.

(** The longest side and the surface area *)
Theorem C27_measures : forall b, proper b ->
  let dx := vx (bmax b) - vx (bmin b) in let dy := vy (bmax b) - vy (bmin b) in let dz := vz (bmax b) - vz (bmin b) in
  surface_area RF b = 2 * (dx * dy + dx * dz + dy * dz) /\ 0 <= surface_area RF b /\
  match max_extent RF b with AxisX => dy <= dx /\ dz <= dx | AxisY => dx <= dy /\ dz <= dy | AxisZ => dx <= dz /\ dy <= dz end.
Proof.
  intros b H dx dy dz. unfold proper in H.
  assert (0 <= dx) by (unfold dx; lra). assert (0 <= dy) by (unfold dy; lra). assert (0 <= dz) by (unfold dz; lra).
  assert (E : surface_area RF b = 2 * (dx * dy + dx * dz + dy * dz)) by (unfold surface_area, vsubF; cbn; fold dx dy dz; ring).
  split; [exact E|]. split; [rewrite E; nra|].
  unfold max_extent, vsubF. cbn. fold dx dy dz. rcases; cbn [andb]; rcases; lra.
Qed.

(** ** C28: the ray/box test *)
Definition inverse_direction (d : pt) : pt := mkV (1 / vx d) (1 / vy d) (1 / vz d).

(** Exact arithmetic, no direction component zero (see the refutation below). *)
Theorem C28_no_lost_hit : forall b o d t, proper b -> vx d <> 0 -> vy d <> 0 -> vz d <> 0 ->
  0 < t -> inside b (at_time o d t) -> intersect RF (gamma 3) b o (inverse_direction d) = true.
Proof.
  intros b o d t (Px & Py & Pz) Hx Hy Hz Ht (I1 & I2 & I3).
  apply intersect_iff; [apply gamma_pos|]. unfold at_time, vadd, vscale, inverse_direction in *. cbn [vx vy vz] in *.
  rewrite slab in I1 by assumption. rewrite slab in I2 by assumption. rewrite slab in I3 by assumption.
  pose proof gamma_pos as G. set (w := 1 + 2 * gamma 3).
  assert (W : 1 < w) by (unfold w; lra). clearbody w. clear G.
  exists (t * w). repeat split; nra.
Qed.

(** Conversely a reported ray comes within the rounding margin of the box. *)
Theorem C28_no_false_hit : forall b o d, proper b -> vx d <> 0 -> vy d <> 0 -> vz d <> 0 ->
  intersect RF (gamma 3) b o (inverse_direction d) = true ->
  let m := 2 * gamma 3 in
  exists t, 0 < t /\ let p := at_time o d t in
    vx (bmin b) - m * Rabs (vx (bmin b) - vx o) <= vx p <= vx (bmax b) + m * Rabs (vx (bmax b) - vx o) /\
    vy (bmin b) - m * Rabs (vy (bmin b) - vy o) <= vy p <= vy (bmax b) + m * Rabs (vy (bmax b) - vy o) /\
    vz (bmin b) - m * Rabs (vz (bmin b) - vz o) <= vz p <= vz (bmax b) + m * Rabs (vz (bmax b) - vz o).
Proof.
  intros b o d (Px & Py & Pz) Hx Hy Hz H m.
  apply intersect_iff in H; [|apply gamma_pos]. destruct H as (t & T0 & T1 & T2 & T3).
  exists t. split; [exact T0|]. unfold at_time, vadd, vscale, inverse_direction in *. cbn [vx vy vz] in *.
  assert (M : 0 < m) by (unfold m; pose proof gamma_pos; lra). fold m in T1, T2, T3.
  assert (K : forall lo hi c e, lo <= hi -> e <> 0 ->
    Rmin ((lo - c) * (1 / e)) ((hi - c) * (1 / e)) < t <= Rmax ((lo - c) * (1 / e)) ((hi - c) * (1 / e)) * (1 + m) ->
    lo - m * Rabs (lo - c) <= c + e * t <= hi + m * Rabs (hi - c)).
  { clear - T0 M. intros lo hi c e L E K.
    set (u := (lo - c) * (1 / e)) in *. set (v := (hi - c) * (1 / e)) in *.
    assert (Eu : lo - c = e * u) by (unfold u; field; assumption).
    assert (Ev : hi - c = e * v) by (unfold v; field; assumption).
    rewrite Eu, Ev. replace lo with (c + e * u) in * by lra. replace hi with (c + e * v) in * by lra.
    clearbody u v. clear Eu Ev lo hi.
    assert (0 <= Rabs (e * u)) by apply Rabs_pos. assert (0 <= Rabs (e * v)) by apply Rabs_pos.
    pose proof (Rle_abs (e * v)). pose proof (Rle_abs (- (e * u))) as N. rewrite Rabs_Ropp in N.
    unfold Rmin, Rmax in K. destruct (Rle_dec u v); destruct (Rtotal_order e 0) as [Ne|[Ze|Pe]]; try lra.
    - assert (u = v) by nra. subst u. split; [|nra].
      assert (e * t >= e * (v * (1 + m))) by nra. nra.
    - split; [nra|]. assert (e * t <= e * (v * (1 + m))) by nra. nra.
    - split; [|nra]. assert (e * t >= e * (u * (1 + m))) by nra. nra.
    - exfalso. nra. }
  cbv zeta. split; [now apply K|split; now apply K].
Qed.

Example C28_example : let b := mkB (mkV 0 0 0) (mkV 1 1 1) in proper b /\ inside b (at_time (mkV (-1) (-1) (-1)) (mkV 1 1 1) 2).
Proof. unfold proper, inside. cbn. lra. Qed.

(** False in floating point when a direction component is zero and the origin lies on the plane of a side: [0 * inf] is not
    a number and the hit is lost.  The ray below goes along the inside of the box's side [x = 0]. *)
Definition p3 (x y z : float) : V3 float := mkV x y z.
Theorem C28_zero_direction_refuted : exists (b : BBox float) (o d : V3 float),
  point_inside PF b (mkV (vx o + vx d)%float (vy o + vy d)%float (vz o + vz d)%float) = true /\
  point_inside PF b o = true /\
  intersect PF (3 / 9007199254740989)%float b o (mkV (1 / vx d)%float (1 / vy d)%float (1 / vz d)%float) = false.
Proof.
  exists (mkB (p3 0 0 0) (p3 1 1 1)), (p3 0 0 0)%float, (p3 0 0 1)%float. vm_compute. auto.
Qed.

Print Assumptions C24_inverse.
Print Assumptions C25_inverse_partial.
Print Assumptions C26_boxes.
Print Assumptions C27_overlaps.
Print Assumptions C28_no_lost_hit.
Print Assumptions C28_no_false_hit.
Print Assumptions C28_zero_direction_refuted.

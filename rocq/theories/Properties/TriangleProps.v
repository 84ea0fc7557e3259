(** C29, C30, C59-C62: triangles, segments, planes and shading frames, in exact arithmetic. *)
From Coq Require Import Reals List Bool Lra Lia Psatz.
From Verif.Common Require Import Base Flt.
From Verif.Geometry Require Import Vec BBoxModel TriangleModel GeomProofs TriangleProofs.
Import ListNotations.
Open Scope R_scope.

(** The point of the triangle [a b c] with barycentric weights [1-u-v], [u], [v] *)
Definition bary (a b c : pt) (u v : R) : pt :=
  mkV (vx a * (1 - u - v) + vx b * u + vx c * v) (vy a * (1 - u - v) + vy b * u + vy c * v) (vz a * (1 - u - v) + vz b * u + vz c * v).
(** The point of the ray at time [t] *)
Definition ray_at (r : Ray) (t : R) : pt :=
  mkV (vx (origin r) + vx (direction r) * t) (vy (origin r) + vy (direction r) * t) (vz (origin r) + vz (direction r) * t).

Lemma bary_on a b c u v : bary a b c u v = on_triangle a b c u v.
Proof. unfold bary, on_triangle. apply V3_eq; cbn; ring. Qed.

(** How much the ray is aligned with the plane of the triangle: twice the area times the cosine times the direction's length *)
Definition alignment (r : Ray) (a b c : pt) : R := Rabs (vdot (direction r) (vcross (vsub b a) (vsub c a))).

Lemma alignment_det r a b c : alignment r a b c = Rabs (mt_det r a b c).
Proof. unfold alignment. rewrite mt_det_triple, Rabs_Ropp. reflexivity. Qed.

(** ** C29: ray/triangle intersection *)

(** The renderer's test: a reported point is on the ray, ahead of the origin, and in the triangle (up to machine epsilon in the
    barycentric weights). *)
Theorem C29_sound : forall r t p u v, baricentric_coordinates r t = Some (p, u, v) ->
  p = bary (ta t) (tb t) (tc t) u v /\ - eps64 <= u /\ - eps64 <= v /\ u + v <= 1 + eps64 /\
  exists s, 1 / 10 ^ 5 < s /\ p = ray_at r s.
Proof.
  intros r t p u v. unfold baricentric_coordinates.
  change (vdot (vsub (tb t) (ta t)) (vcross (direction r) (vsub (tc t) (ta t)))) with (mt_det r (ta t) (tb t) (tc t)).
  destruct (Rltb_spec (mt_det r (ta t) (tb t) (tc t)) (1 / 10 ^ 5)) as [A|A];
  destruct (Rltb_spec (- (1 / 10 ^ 5)) (mt_det r (ta t) (tb t) (tc t))) as [B|B]; cbn [andb]; try discriminate.
  all: assert (N : mt_det r (ta t) (tb t) (tc t) <> 0) by lra.
  all: change (1 / mt_det r (ta t) (tb t) (tc t) * vdot (vsub (origin r) (ta t)) (vcross (direction r) (vsub (tc t) (ta t)))) with (mt_u r (ta t) (tb t) (tc t));
    change (1 / mt_det r (ta t) (tb t) (tc t) * vdot (direction r) (vcross (vsub (origin r) (ta t)) (vsub (tb t) (ta t)))) with (mt_v r (ta t) (tb t) (tc t));
    change (1 / mt_det r (ta t) (tb t) (tc t) * vdot (vsub (tc t) (ta t)) (vcross (vsub (origin r) (ta t)) (vsub (tb t) (ta t)))) with (mt_t r (ta t) (tb t) (tc t)).
  all: destruct (Rleb_spec (- eps64) (mt_u r (ta t) (tb t) (tc t))) as [C|C]; cbn [andb negb]; try discriminate;
    destruct (Rleb_spec (mt_u r (ta t) (tb t) (tc t)) (1 + eps64)) as [D|D]; cbn [andb negb]; try discriminate;
    destruct (Rltb_spec (1 + eps64) (mt_u r (ta t) (tb t) (tc t) + mt_v r (ta t) (tb t) (tc t))) as [E|E]; cbn [orb]; try discriminate;
    destruct (Rltb_spec (mt_v r (ta t) (tb t) (tc t)) (- eps64)) as [F|F]; try discriminate;
    destruct (Rltb_spec (1 / 10 ^ 5) (mt_t r (ta t) (tb t) (tc t))) as [G|G]; try discriminate;
    intros H; injection H as <- <- <-.
  all: split; [rewrite bary_on; now apply mt_point|]; split; [lra|]; split; [lra|]; split; [lra|];
    exists (mt_t r (ta t) (tb t) (tc t)); split; [exact G|]; unfold project, ray_at; apply V3_eq; reflexivity.
Qed.

(** If the ray crosses the triangle ahead of its origin and is not nearly parallel to it, the crossing is reported. *)
Theorem C29_complete : forall r t s u v,
  1 / 10 ^ 5 <= alignment r (ta t) (tb t) (tc t) -> 1 / 10 ^ 5 < s -> 0 <= u -> 0 <= v -> u + v <= 1 ->
  ray_at r s = bary (ta t) (tb t) (tc t) u v ->
  baricentric_coordinates r t = Some (ray_at r s, u, v).
Proof.
  intros r t s u v A S U V W E. rewrite alignment_det in A. rewrite bary_on in E.
  assert (N : mt_det r (ta t) (tb t) (tc t) <> 0) by (intros Z; rewrite Z, Rabs_R0 in A; lra).
  assert (P : ray_at r s = project r s) by (apply V3_eq; reflexivity). rewrite P in *.
  destruct (mt_unique _ _ _ _ _ _ _ N E) as (T1 & T2 & T3).
  unfold baricentric_coordinates.
  change (vdot (vsub (tb t) (ta t)) (vcross (direction r) (vsub (tc t) (ta t)))) with (mt_det r (ta t) (tb t) (tc t)).
  change (1 / mt_det r (ta t) (tb t) (tc t) * vdot (vsub (origin r) (ta t)) (vcross (direction r) (vsub (tc t) (ta t)))) with (mt_u r (ta t) (tb t) (tc t)).
  change (1 / mt_det r (ta t) (tb t) (tc t) * vdot (direction r) (vcross (vsub (origin r) (ta t)) (vsub (tb t) (ta t)))) with (mt_v r (ta t) (tb t) (tc t)).
  change (1 / mt_det r (ta t) (tb t) (tc t) * vdot (vsub (tc t) (ta t)) (vcross (vsub (origin r) (ta t)) (vsub (tb t) (ta t)))) with (mt_t r (ta t) (tb t) (tc t)).
  rewrite T1, T2, T3.
  assert (E0 : 0 < eps64) by (unfold eps64; apply Rinv_0_lt_compat, pow_lt; lra).
  replace (Rltb (mt_det r (ta t) (tb t) (tc t)) (1 / 10 ^ 5) && Rltb (- (1 / 10 ^ 5)) (mt_det r (ta t) (tb t) (tc t))) with false.
  2:{ symmetry. apply andb_false_iff. rewrite !Rltb_false. unfold Rabs in A. destruct (Rcase_abs (mt_det r (ta t) (tb t) (tc t))); [right|left]; lra. }
  rewrite (proj2 (Rleb_true (- eps64) u)), (proj2 (Rleb_true u (1 + eps64))) by lra. cbn [andb negb].
  rewrite (proj2 (Rltb_false (1 + eps64) (u + v))), (proj2 (Rltb_false v (- eps64))) by lra. cbn [orb].
  rewrite (proj2 (Rltb_true (1 / 10 ^ 5) s)) by lra. reflexivity.
Qed.

Definition unit_tri : Tri := mkTri (mkV 0 0 0) (mkV 1 0 0) (mkV 0 1 0).
Definition down (x y : R) : Ray := mkRay (mkV x y 1) (mkV 0 0 (-1)).

Example C29_example : baricentric_coordinates (down (1/4) (1/4)) unit_tri = Some (mkV (1/4) (1/4) 0, 1/4, 1/4).
Proof.
  replace (mkV (1/4) (1/4) 0) with (ray_at (down (1/4) (1/4)) 1) by (apply V3_eq; cbn; lra).
  apply C29_complete; try (cbn; lra).
  - unfold alignment, vdot, vcross, vsub. cbn. rewrite Rabs_left; lra.
  - apply V3_eq; cbn; lra.
Qed.

(** False without the margin: small triangles are never hit, not even head-on.  Here the sides are 3 mm long. *)
Theorem C29_small_triangle_refuted : exists r t s u v, vlen2 (direction r) = 1 /\
  (forall e, e = vsub (tb t) (ta t) \/ e = vsub (tc t) (ta t) -> vdot (direction r) e = 0) /\
  1 < s + 1 /\ s = 1 /\ 0 < u /\ 0 < v /\ u + v < 1 /\ ray_at r s = bary (ta t) (tb t) (tc t) u v /\
  baricentric_coordinates r t = None.
Proof.
  exists (down (1/1000) (1/1000)), (mkTri (mkV 0 0 0) (mkV (3/1000) 0 0) (mkV 0 (3/1000) 0)), 1, (1/3), (1/3).
  split; [unfold vlen2; cbn; lra|]. split; [intros e [-> | ->]; unfold vdot, vsub; cbn; lra|].
  repeat (split; [lra|]). split; [apply V3_eq; cbn; lra|].
  unfold baricentric_coordinates. cbn [ta tb tc direction down].
  match goal with |- context [Rltb ?a (1 / 10 ^ 5)] => replace a with (9 / 1000000) by (unfold vdot, vcross, vsub; cbn; lra) end.
  rewrite (proj2 (Rltb_true _ _)), (proj2 (Rltb_true _ _)) by lra. reflexivity.
Qed.

(** The geometry library's own test: the point is on the ray and in the parallelogram of the two sides ... *)
Theorem C29_geometry_partial : forall r a b c p u v, intersect_triangle r a b c = Some (p, u, v) ->
  p = bary a b c u v /\ 0 <= u <= 1 /\ 0 <= v <= 1 /\ exists s, 0 < s /\ p = ray_at r s.
Proof.
  intros r a b c p u v. unfold intersect_triangle.
  change (vdot (vsub b a) (vcross (direction r) (vsub c a))) with (mt_det r a b c).
  change (1 / mt_det r a b c * vdot (vsub (origin r) a) (vcross (direction r) (vsub c a))) with (mt_u r a b c).
  change (1 / mt_det r a b c * vdot (direction r) (vcross (vsub (origin r) a) (vsub b a))) with (mt_v r a b c).
  change (1 / mt_det r a b c * vdot (vsub c a) (vcross (vsub (origin r) a) (vsub b a))) with (mt_t r a b c).
  assert (E0 : 0 < eps64) by (unfold eps64; apply Rinv_0_lt_compat, pow_lt; lra).
  destruct (Rltb_spec (- (100 * eps64)) (mt_det r a b c)) as [A|A]; destruct (Rltb_spec (mt_det r a b c) (100 * eps64)) as [B|B]; cbn [andb]; try discriminate.
  all: assert (N : mt_det r a b c <> 0) by lra.
  all: destruct (Rleb_spec 0 (mt_u r a b c)) as [C|C]; cbn [andb negb]; try discriminate;
    destruct (Rleb_spec (mt_u r a b c) 1) as [D|D]; cbn [andb negb]; try discriminate;
    destruct (Rleb_spec 0 (mt_v r a b c)) as [E|E]; cbn [andb negb]; try discriminate;
    destruct (Rleb_spec (mt_v r a b c) 1) as [F|F]; cbn [andb negb]; try discriminate;
    destruct (Rltb_spec (100 * eps64) (mt_t r a b c)) as [G|G]; try discriminate;
    intros H; injection H as <- <- <-.
  all: split; [rewrite bary_on; now apply mt_point|]; split; [lra|]; split; [lra|];
    exists (mt_t r a b c); split; [lra|]; unfold project, ray_at; apply V3_eq; reflexivity.
Qed.

(** ... but not always in the triangle: the condition [u + v <= 1] is not checked. *)
Theorem C29_geometry_refuted : exists r a b c p u v, intersect_triangle r a b c = Some (p, u, v) /\ 1 < u + v /\
  forall u' v', 0 <= u' -> 0 <= v' -> u' + v' <= 1 -> bary a b c u' v' <> p.
Proof.
  exists (down (3/4) (3/4)), (mkV 0 0 0), (mkV 1 0 0), (mkV 0 1 0), (mkV (3/4) (3/4) 0), (3/4), (3/4).
  split; [|split; [lra|]].
  - assert (E0 : 0 < eps64) by (unfold eps64; apply Rinv_0_lt_compat, pow_lt; lra).
    assert (E1 : 100 * eps64 < 1) by (unfold eps64; lra).
    unfold intersect_triangle. cbn [direction down origin].
    match goal with |- context [Rltb ?a (100 * eps64)] => replace a with 1 by (unfold vdot, vcross, vsub; cbn; lra) end.
    rewrite (proj2 (Rltb_false 1 (100 * eps64))), andb_false_r by lra. cbn [negb].
    replace (1 / 1 * _) with (3/4) by (unfold vdot, vcross, vsub; cbn; lra).
    rewrite (proj2 (Rleb_true 0 (3/4))), (proj2 (Rleb_true (3/4) 1)) by lra. cbn [andb negb].
    replace (1 / 1 * vdot (mkV 0 0 (-1)) _) with (3/4) by (unfold vdot, vcross, vsub; cbn; lra).
    rewrite (proj2 (Rleb_true 0 (3/4))), (proj2 (Rleb_true (3/4) 1)) by lra. cbn [andb negb].
    replace (1 / 1 * _) with 1 by (unfold vdot, vcross, vsub; cbn; lra).
    rewrite (proj2 (Rltb_true (100 * eps64) 1)) by lra. do 2 f_equal. f_equal. apply V3_eq; cbn; lra.
  - intros u v Hu Hv Hw E. pose proof (f_equal vx E) as X. pose proof (f_equal vy E) as Y. cbn in X, Y. lra.
Qed.

(** The box of a triangle contains the triangle. *)
Theorem C29_bounds : forall t u v, 0 <= u -> 0 <= v -> u + v <= 1 ->
  point_inside RF (world_bounds t) (bary (ta t) (tb t) (tc t) u v) = true.
Proof. intros. apply point_inside_iff. rewrite bary_on. now apply world_bounds_contains. Qed.

(** ** C30: triangle measures *)
Theorem C30_area : forall t, triangle_area t = vlen (vcross (vsub (tb t) (ta t)) (vsub (tc t) (ta t))) / 2.
Proof.
  intros t. unfold triangle_area. rewrite (distance_sym (tb t)), (distance_sym (tc t)), (distance_sym (ta t) (tc t)). apply heron_area.
Qed.

Lemma triangle_new_inv a b c t : triangle_new a b c = Ok t ->
  t_a t = a /\ t_b t = b /\ t_c t = c /\ t_area t = tri_area a b c /\ tri_normal a b c = Ok (t_normal t) /\
  1 / 10 ^ 5 <= vlen (vcross (vsub b a) (vsub c b)).
Proof.
  unfold triangle_new, is_collinear. destruct (compare a b), (compare a c), (compare b c); cbn [orb andb]; try discriminate.
  cbn [bind]. destruct (Rltb_spec (vlen (vcross (vsub b a) (vsub c b))) (1 / 10 ^ 5)) as [H|H]; [discriminate|].
  destruct (tri_normal a b c) as [n| |] eqn:E; cbn [bind]; try discriminate.
  intros Q. injection Q as <-. cbn. repeat split; auto. lra.
Qed.

Lemma cross_shift a b c : vcross (vsub b a) (vsub c b) = vcross (vsub b a) (vsub c a).
Proof. vring. Qed.

(** A triangle that is accepted: area, unit right-handed normal perpendicular to the sides. *)
Theorem C30_triangle : forall a b c t, triangle_new a b c = Ok t ->
  t_a t = a /\ t_b t = b /\ t_c t = c /\
  t_area t = vlen (vcross (vsub b a) (vsub c a)) / 2 /\ 5 / 10 ^ 6 <= t_area t /\
  vlen2 (t_normal t) = 1 /\ vdot (t_normal t) (vsub b a) = 0 /\ vdot (t_normal t) (vsub c a) = 0 /\ vdot (t_normal t) (vsub c b) = 0 /\
  vcross (vsub b a) (vsub c a) = vscale (t_normal t) (2 * t_area t).
Proof.
  intros a b c t H. apply triangle_new_inv in H as (A & B & C & D & N & L).
  rewrite cross_shift in L. unfold tri_area in D. rewrite heron_area in D.
  unfold tri_normal in N. rewrite cross_shift in N. apply vnormalize_unit in N as (U & k & K & E).
  assert (Kv : k = vlen (vcross (vsub b a) (vsub c a))).
  { rewrite E. unfold vlen. replace (vlen2 (vscale (t_normal t) k)) with (vlen2 (t_normal t) * (k * k)) by vring.
    rewrite U, Rmult_1_l, sqrt_square by lra. reflexivity. }
  assert (P : forall w, vdot (vcross (vsub b a) (vsub c a)) w = k * vdot (t_normal t) w) by (intros w; rewrite E; vring).
  assert (Z : forall w, vdot (vcross (vsub b a) (vsub c a)) w = 0 -> vdot (t_normal t) w = 0).
  { intros w Hw. rewrite P in Hw. apply Rmult_integral in Hw as [|]; lra. }
  split; [exact A|]. split; [exact B|]. split; [exact C|]. split; [exact D|]. split; [lra|]. split; [exact U|].
  split; [apply Z; vring|]. split; [apply Z; vring|]. split; [apply Z; vring|].
  rewrite E at 1. rewrite D, <- Kv. f_equal. field.
Qed.

(** Creating a triangle never panics. *)
Theorem C30_no_panic : forall a b c, triangle_new a b c <> Panic.
Proof.
  intros a b c. unfold triangle_new, is_collinear. destruct (compare a b), (compare a c), (compare b c); cbn [orb andb]; try discriminate.
  cbn [bind]. destruct (Rltb_spec (vlen (vcross (vsub b a) (vsub c b))) (1 / 10 ^ 5)) as [H|H]; [discriminate|].
  unfold tri_normal, vnormalize. rewrite (proj2 (Rltb_true _ _)); [discriminate|].
  rewrite <- vlen_sqr. apply Rnot_lt_le in H. assert (1 / 10 ^ 5 * (1 / 10 ^ 5) <= vlen (vcross (vsub b a) (vsub c b)) * vlen (vcross (vsub b a) (vsub c b))) by (apply Rmult_le_compat; lra). lra.
Qed.

(** The circumcentre is at the circumradius from the three corners. *)
Theorem C30_circumcentre : forall a b c t, triangle_new a b c = Ok t ->
  distance (circumcenter t) a = circumradius t /\ distance (circumcenter t) b = circumradius t /\ distance (circumcenter t) c = circumradius t /\
  vdot (vsub (circumcenter t) a) (t_normal t) = 0.
Proof.
  intros a b c t H. pose proof (C30_triangle _ _ _ _ H) as (A & B & C & D & D0 & U & N1 & N2 & _ & E).
  set (u := vsub b a) in *. set (v := vsub c a) in *. set (n := vcross u v) in *.
  assert (Hn : 0 < vlen2 n).
  { rewrite <- vlen_sqr. assert (0 < vlen n) by lra. nra. }
  pose proof (circum_center_sq u v n eq_refl Hn) as K. cbv zeta in K.
  set (o := vdiv (vadd (vscale (vcross n u) (vlen2 v)) (vscale (vcross v n) (vlen2 u))) (2 * vlen2 n)) in *.
  assert (O : circumcenter t = vadd a o).
  { unfold circumcenter. rewrite A, B, C. fold u v. fold n. rewrite !vlen_sqr. reflexivity. }
  destruct K as (K1 & K2 & K3).
  assert (Rad : circumradius t = sqrt (vlen2 o)).
  { unfold circumradius. rewrite A, B, C, circum_product, (heron_spec a b c) by reflexivity. fold u v. fold n.
    rewrite !distance_vlen. rewrite K1.
    replace (vlen (vsub a b)) with (vlen u) by (unfold vlen; f_equal; unfold u; vring).
    replace (vlen (vsub c a)) with (vlen v) by reflexivity.
    replace (vlen (vsub b c)) with (vlen (vsub u v)) by (unfold vlen; f_equal; unfold u, v; vring).
    rewrite <- (vlen_sqr u), <- (vlen_sqr v), <- (vlen_sqr (vsub u v)).
    replace (16 * (vlen2 n / 4)) with (4 * vlen2 n) by field.
    assert (Q : 0 < sqrt (4 * vlen2 n)) by (apply sqrt_lt_R0; lra).
    assert (S : 0 <= vlen u * vlen (vsub u v) * vlen v / sqrt (4 * vlen2 n)).
    { apply Rmult_le_pos; [|left; now apply Rinv_0_lt_compat]. repeat apply Rmult_le_pos; apply vlen_nonneg. }
    rewrite <- (sqrt_square _ S). f_equal.
    assert (QQ : sqrt (4 * vlen2 n) * sqrt (4 * vlen2 n) = 4 * vlen2 n) by (apply sqrt_sqrt; lra).
    set (q := sqrt (4 * vlen2 n)) in *. rewrite <- QQ. clearbody q. field. lra. }
  rewrite !distance_vlen, O, Rad. unfold vlen.
  split; [f_equal; vring|]. split; [|split].
  - f_equal. replace (vsub (vadd a o) b) with (vsub o u) by (unfold u; vring).
    replace (vlen2 (vsub o u)) with (vlen2 o - 2 * vdot o u + vlen2 u) by vring. lra.
  - f_equal. replace (vsub (vadd a o) c) with (vsub o v) by (unfold v; vring).
    replace (vlen2 (vsub o v)) with (vlen2 o - 2 * vdot o v + vlen2 v) by vring. lra.
  - replace (vsub (vadd a o) a) with o by vring.
    assert (Z : vdot o n = 0).
    { unfold o. replace (vdot (vdiv (vadd (vscale (vcross n u) (vlen2 v)) (vscale (vcross v n) (vlen2 u))) (2 * vlen2 n)) n)
        with ((vdot (vcross n u) n * vlen2 v + vdot (vcross v n) n * vlen2 u) / (2 * vlen2 n)) by (unfold vdot, vdiv, vadd, vscale; cbn [vx vy vz]; field; lra).
      replace (vdot (vcross n u) n) with 0 by vring. replace (vdot (vcross v n) n) with 0 by vring. field. lra. }
    rewrite E in Z. replace (vdot o (vscale (t_normal t) (2 * t_area t))) with (2 * t_area t * vdot o (t_normal t)) in Z by vring.
    apply Rmult_integral in Z as [|]; lra.
Qed.

Lemma compare_false a b : 1 / 10 ^ 6 < vlen2 (vsub a b) -> compare a b = false.
Proof. intros H. unfold compare, compare_by. apply Rleb_false. lra. Qed.

Example C30_example : exists t, triangle_new (mkV 0 0 0) (mkV 3 0 0) (mkV 0 4 0) = Ok t.
Proof.
  unfold triangle_new, is_collinear. rewrite !compare_false by (unfold vlen2, vsub; cbn; lra). cbn [orb andb bind].
  assert (L : vlen (vcross (vsub (mkV 3 0 0) (mkV 0 0 0)) (vsub (mkV 0 4 0) (mkV 3 0 0))) = 12).
  { unfold vlen. replace (vlen2 _) with (12 * 12) by (unfold vlen2, vcross, vsub; cbn; lra). apply sqrt_square. lra. }
  rewrite L. rewrite (proj2 (Rltb_false 12 _)) by lra.
  unfold tri_normal, vnormalize. rewrite (proj2 (Rltb_true _ _)); [eexists; reflexivity|].
  rewrite <- vlen_sqr, L. lra.
Qed.

(** ** C59: locating a point in a triangle *)
Ltac isplit := repeat match goal with |- _ /\ _ => split | |- _ <-> _ => split end.
Theorem C59_test_point : forall a b c t al be, triangle_new a b c = Ok t ->
  let ga := 1 - al - be in let tiny := 100 * eps64 in
  let r := test_point t (bary a b c al be) in
  (r = Outside <-> al < - tiny \/ be < - tiny \/ ga < - tiny) /\
  (r = Inside <-> tiny < al /\ tiny < be /\ tiny < ga) /\
  (r = EdgeAB <-> tiny < al /\ Rabs be <= tiny /\ tiny < ga) /\
  (r = EdgeAC <-> Rabs al <= tiny /\ tiny < be /\ tiny < ga) /\
  (r = EdgeBC <-> tiny < al /\ tiny < be /\ Rabs ga <= tiny) /\
  (r = VertexA <-> Rabs al <= tiny /\ Rabs be <= tiny) /\
  (r = VertexB <-> Rabs be <= tiny /\ Rabs ga <= tiny) /\
  (r = VertexC <-> Rabs al <= tiny /\ Rabs ga <= tiny).
Proof.
  intros a b c t al be H ga tiny r. pose proof (C30_triangle _ _ _ _ H) as (A & B & C & D & D0 & _).
  assert (Hn : 0 < vlen2 (vcross (vsub b a) (vsub c a))).
  { rewrite <- vlen_sqr. assert (0 < vlen (vcross (vsub b a) (vsub c a))) by lra. nra. }
  destruct (test_point_coords a b c al be Hn) as (E1 & E2). rewrite <- bary_on in E1, E2.
  assert (T0 : 0 < tiny < 1 / 10) by (unfold tiny, eps64; lra).
  assert (G : ga = 1 - al - be) by reflexivity.
  assert (Q : r = if Rleb (- tiny) al && Rleb (- tiny) be && Rleb (- tiny) ga then
      if Rleb al tiny && Rleb be tiny then VertexA else if Rleb al tiny && Rleb ga tiny then VertexC
      else if Rleb be tiny && Rleb ga tiny then VertexB else if Rleb al tiny then EdgeAC
      else if Rleb ga tiny then EdgeBC else if Rleb be tiny then EdgeAB else Inside else Outside).
  { unfold r, test_point. rewrite A, B, C. rewrite E1, E2. reflexivity. }
  rewrite Q. clear Q r E1 E2 Hn A B C D D0 H. clearbody ga tiny.
  assert (Ab : forall x, Rabs x <= tiny <-> - tiny <= x <= tiny).
  { intros x. unfold Rabs. destruct (Rcase_abs x); lra. }
  rewrite !Ab.
  destruct (Rleb_spec (- tiny) al), (Rleb_spec (- tiny) be), (Rleb_spec (- tiny) ga); cbn [andb];
  try (isplit; intros Z; (discriminate || lra || reflexivity));
  destruct (Rleb_spec al tiny), (Rleb_spec be tiny), (Rleb_spec ga tiny); cbn [andb]; try lra;
  isplit; intros Z; (discriminate || lra || reflexivity).
Qed.

(** ** C60: crossing segments *)
Definition on_segment (s : Segment) (k : R) : pt :=
  mkV (vx (s_start s) * (1 - k) + vx (s_end s) * k) (vy (s_start s) * (1 - k) + vy (s_end s) * k) (vz (s_start s) * (1 - k) + vz (s_end s) * k).
Lemma on_segment_vec s k : on_segment s k = vadd (s_start s) (vscale (vsub (s_end s) (s_start s)) k).
Proof. apply V3_eq; cbn; ring. Qed.
Definition volume6 (a b : Segment) : R :=
  vdot (vsub (s_start a) (s_start b)) (vcross (vsub (s_end a) (s_start a)) (vsub (s_end b) (s_start b))).

(** Segments in one plane: the reported point is on both (partial: exactly coplanar; see the refutation). *)
Theorem C60_touch_sound_partial : forall a b p, volume6 a b = 0 -> s_touches a b = Some p ->
  exists ka kb, 0 <= ka <= 1 /\ 0 <= kb <= 1 /\ p = on_segment a ka /\ p = on_segment b kb.
Proof.
  intros a b p V H. unfold s_touches in H. destruct (get_intersection_pt a b) as [[ka kb]|] eqn:E; [|discriminate].
  destruct (Rleb_spec 0 ka), (Rleb_spec ka 1), (Rleb_spec 0 kb), (Rleb_spec kb 1); cbn [andb] in H; try discriminate. injection H as <-.
  apply segment_residual in E as (_ & _ & E). unfold volume6 in V. rewrite V in E.
  exists ka, kb. repeat (split; [lra|]). rewrite !on_segment_vec. split; [reflexivity|].
  set (P := vadd (s_start a) _) in *. set (Q := vadd (s_start b) _) in *. clearbody P Q.
  set (n := vcross _ _) in *. clearbody n.
  assert (K : forall k z, 1 / 10 ^ 5 < Rabs k -> z * k = 0 -> z = 0).
  { intros k z Hk Hz. apply Rmult_integral in Hz as [|Z]; [assumption|]. rewrite Z, Rabs_R0 in Hk. lra. }
  unfold vsub in E. cbn [vx vy vz] in E.
  destruct E as [(X & Y & Z & N)|[(Y & Z & X & N)|(X & Z & Y & N)]].
  - apply K in Z; [|exact N]. apply V3_eq; lra.
  - apply K in X; [|exact N]. apply V3_eq; lra.
  - apply K in Y; [|exact N]. apply V3_eq; lra.
Qed.

(** Segments that share a point, are not nearly parallel and not tiny are reported to touch, at that point. *)
Theorem C60_touch_complete : forall a b ka kb, 0 <= ka <= 1 -> 0 <= kb <= 1 -> on_segment a ka = on_segment b kb ->
  let n := vcross (vsub (s_end a) (s_start a)) (vsub (s_end b) (s_start b)) in
  vis_parallel (vsub (s_end a) (s_start a)) (vsub (s_end b) (s_start b)) = false ->
  1 / 10 ^ 5 < Rabs (vx n) \/ 1 / 10 ^ 5 < Rabs (vy n) \/ 1 / 10 ^ 5 < Rabs (vz n) ->
  s_touches a b = Some (on_segment a ka).
Proof.
  intros a b ka kb Ha Hb E n Pa N. rewrite !on_segment_vec in E.
  set (d1 := vsub (s_end a) (s_start a)) in *. set (d2 := vsub (s_end b) (s_start b)) in *.
  assert (Dl : vsub (s_start a) (s_start b) = vsub (vscale d2 kb) (vscale d1 ka)).
  { pose proof (f_equal vx E) as X. pose proof (f_equal vy E) as Y. pose proof (f_equal vz E) as Z. unfold vadd, vsub, vscale in *. cbn [vx vy vz] in *. apply V3_eq; cbn [vx vy vz]; lra. }
  assert (G : get_intersection_pt a b = Some (ka, kb)).
  { unfold get_intersection_pt. fold d1 d2. rewrite Pa, Dl. fold n.
    replace (vdot (vsub (vscale d2 kb) (vscale d1 ka)) n) with 0 by (unfold n; vring).
    rewrite Rabs_R0, (proj2 (Rltb_false _ 0)) by lra.
    assert (K : forall k, 1 / 10 ^ 5 < Rabs k -> k <> 0) by (intros k Hk ->; rewrite Rabs_R0 in Hk; lra).
    clear - N K. clearbody d1 d2. unfold n in *. clear n.
    destruct d1 as [x1 y1 z1], d2 as [x2 y2 z2]. unfold vcross, vsub, vscale in *. cbn [vx vy vz] in *.
    destruct (Rltb_spec (1 / 10 ^ 5) (Rabs (x1 * y2 - y1 * x2))) as [Hz|Hz].
    { apply K in Hz. assert (y1 * x2 - x1 * y2 <> 0) by lra. do 2 f_equal; field; lra. }
    destruct (Rltb_spec (1 / 10 ^ 5) (Rabs (y1 * z2 - z1 * y2))) as [Hx|Hx].
    { apply K in Hx. do 2 f_equal; field; lra. }
    destruct (Rltb_spec (1 / 10 ^ 5) (Rabs (z1 * x2 - x1 * z2))) as [Hy|Hy].
    { apply K in Hy. assert (x1 * z2 - z1 * x2 <> 0) by lra. do 2 f_equal; field; lra. }
    exfalso. destruct N as [|[|]]; contradiction. }
  unfold s_touches. rewrite G. fold d1. rewrite (proj2 (Rleb_true 0 ka)), (proj2 (Rleb_true ka 1)), (proj2 (Rleb_true 0 kb)), (proj2 (Rleb_true kb 1)) by lra.
  cbn [andb]. rewrite on_segment_vec. reflexivity.
Qed.

(** Two segments more than 20 cm apart are reported to touch: coplanarity is only tested up to an absolute tolerance. *)
Definition seg1 : Segment := mkS (mkV 0 0 0) (mkV 0 1 0).
Definition seg2 : Segment := mkS (mkV (-5/1000000) (1/2) (-24/100)) (mkV (15/1000000) (1/2) (-124/100)).
Theorem C60_touch_refuted : exists a b p, s_touches a b = Some p /\
  forall ka kb, 0 <= ka <= 1 -> 0 <= kb <= 1 -> 4 / 100 < squared_distance (on_segment a ka) (on_segment b kb).
Proof.
  exists seg1, seg2, (on_segment seg1 (1/2)). split.
  - assert (G : get_intersection_pt seg1 seg2 = Some (1/2, 1/4)).
    { unfold get_intersection_pt, vis_parallel.
      assert (Z1 : vis_zero (vsub (s_end seg2) (s_start seg2)) = false).
      { unfold vis_zero. rewrite (proj2 (Rltb_false (Rabs (vz _)) _)); [now rewrite andb_false_r|]. unfold vsub, eps64. cbn. rewrite Rabs_left; lra. }
      assert (Z2 : vis_zero (vsub (s_end seg1) (s_start seg1)) = false).
      { unfold vis_zero. rewrite (proj2 (Rltb_false (Rabs (vy _)) _)); [now rewrite andb_false_r|]. unfold vsub, eps64. cbn. rewrite Rabs_right; lra. }
      rewrite Z1, Z2. cbn [orb].
      unfold vdot, vlen2, vcross, vsub. cbn [vx vy vz s_start s_end seg1 seg2].
      rewrite (proj2 (Rltb_false _ (1 / 10 ^ 5))) by (rewrite Rabs_left; lra).
      rewrite (proj2 (Rltb_false (1 / 10 ^ 5) _)) by (rewrite Rabs_left; lra).
      rewrite (proj2 (Rltb_true (1 / 10 ^ 5) _)) by (rewrite Rabs_left; lra).
      do 2 f_equal; lra. }
    unfold s_touches. rewrite G. rewrite !(proj2 (Rleb_true _ _)) by lra. cbn [andb]. rewrite on_segment_vec. reflexivity.
  - intros ka kb Ha Hb. unfold squared_distance, on_segment. cbn.
    set (x := 0 * (1 - ka) + 0 * ka - (-5 / 1000000 * (1 - kb) + 15 / 1000000 * kb)). set (y := 0 * (1 - ka) + 1 * ka - (1 / 2 * (1 - kb) + 1 / 2 * kb)).
    set (z := 0 * (1 - ka) + 0 * ka - (-24 / 100 * (1 - kb) + -124 / 100 * kb)).
    assert (Z : 24 / 100 <= z) by (unfold z; lra). clearbody x y z. nra.
Qed.

(** ** C61: planes *)
Theorem C61_plane : forall q n p, plane_new q n = Ok p ->
  vlen2 (p_normal p) = 1 /\
  (forall x, plane_test_point p x = true <-> Rabs (vdot (vsub x q) (p_normal p)) < eps64) /\
  (forall r t, plane_intersect p r = Some t -> 0 <= t /\ vdot (vsub (ray_at r t) q) (p_normal p) = 0) /\
  (forall r t, 0 <= t -> eps64 <= Rabs (vdot (p_normal p) (direction r)) -> vdot (vsub (ray_at r t) q) (p_normal p) = 0 -> plane_intersect p r = Some t).
Proof.
  intros q n p H. unfold plane_new in H. destruct (vnormalize n) as [m| |] eqn:E; cbn [bind] in H; try discriminate. injection H as <-.
  apply vnormalize_unit in E as (U & _). cbn [p_normal p_d].
  assert (E0 : 0 < eps64) by (unfold eps64; apply Rinv_0_lt_compat, pow_lt; lra).
  split; [exact U|]. split; [|split].
  - intros x. unfold plane_test_point. cbn [p_normal p_d]. rewrite Rltb_true. replace (vdot m x - vdot m q) with (vdot (vsub x q) m) by vring. reflexivity.
  - intros r t H. unfold plane_intersect in H. cbn [p_normal p_d] in H.
    destruct (Rltb_spec (Rabs (vdot m (direction r))) eps64) as [|N]; [discriminate|].
    destruct (Rltb_spec ((vdot m q - vdot m (origin r)) / vdot m (direction r)) 0) as [|P]; [discriminate|]. injection H as <-. split; [lra|].
    assert (D : vdot m (direction r) <> 0) by (intros Z; apply N; rewrite Z, Rabs_R0; exact E0).
    replace (vdot (vsub (ray_at r ((vdot m q - vdot m (origin r)) / vdot m (direction r))) q) m)
      with (vdot m (origin r) + (vdot m q - vdot m (origin r)) / vdot m (direction r) * vdot m (direction r) - vdot m q)
      by (unfold ray_at, vdot, vsub; cbn [vx vy vz]; ring). field. exact D.
  - intros r t P N Z. unfold plane_intersect. cbn [p_normal p_d].
    rewrite (proj2 (Rltb_false _ _) N).
    assert (D : vdot m (direction r) <> 0) by (intros Q; rewrite Q, Rabs_R0 in N; lra).
    assert (T : (vdot m q - vdot m (origin r)) / vdot m (direction r) = t).
    { apply (Rmult_eq_reg_r (vdot m (direction r))); [|exact D]. field_simplify; [|exact D].
      replace (vdot (vsub (ray_at r t) q) m) with (vdot m (origin r) + t * vdot m (direction r) - vdot m q) in Z
        by (unfold ray_at, vdot, vsub; cbn [vx vy vz]; ring). lra. }
    rewrite T, (proj2 (Rltb_false t 0)) by lra. reflexivity.
Qed.

Example C61_example : exists p, plane_new (mkV 0 0 1) (mkV 0 0 2) = Ok p.
Proof. unfold plane_new, vnormalize. rewrite (proj2 (Rltb_true _ _)); [eexists; reflexivity|]. unfold vlen2. cbn. lra. Qed.

(** ** C62: the frame at a hit *)
Theorem C62_frame : forall t p d i, new_info t p d = Ok i ->
  i_p i = p /\ vlen2 (i_normal i) = 1 /\ vlen2 (i_dpdu i) = 1 /\ vlen2 (i_dpdv i) = 1 /\
  vdot (i_dpdu i) (i_dpdv i) = 0 /\ vdot (i_dpdu i) (i_normal i) = 0 /\ vdot (i_dpdv i) (i_normal i) = 0 /\
  vdot (i_normal i) (vsub (tb t) (ta t)) = 0 /\ vdot (i_normal i) (vsub (tc t) (ta t)) = 0 /\
  vdot (i_normal i) d < 0 /\
  (i_side i = Front <-> vdot (vcross (vsub (tb t) (ta t)) (vsub (tc t) (ta t))) d < 0) /\
  (i_side i = Back <-> 0 < vdot (vcross (vsub (tb t) (ta t)) (vsub (tc t) (ta t))) d) /\
  (i_side i = Front -> vcross (i_dpdu i) (i_dpdv i) = i_normal i).
Proof.
  intros t p d i H. unfold new_info in H. set (u := vsub (tb t) (ta t)) in *. set (v := vsub (tc t) (ta t)) in *.
  destruct (vnormalize (vcross u v)) as [n| |] eqn:En; cbn [bind] in H; try discriminate.
  apply vnormalize_unit in En as (Un & k & Hk & En).
  assert (Nu : vdot n u = 0). { assert (vdot (vcross u v) u = 0) by vring. rewrite En in H0. replace (vdot (vscale n k) u) with (k * vdot n u) in H0 by vring. apply Rmult_integral in H0 as [|]; lra. }
  assert (Nv : vdot n v = 0). { assert (vdot (vcross u v) v = 0) by vring. rewrite En in H0. replace (vdot (vscale n k) v) with (k * vdot n v) in H0 by vring. apply Rmult_integral in H0 as [|]; lra. }
  assert (Nd : vdot (vcross u v) d = k * vdot n d) by (rewrite En; vring).
  destruct (get_side n d) as [m side] eqn:Es.
  destruct (vnormalize u) as [e1| |] eqn:E1; cbn [bind] in H; try discriminate.
  destruct (vnormalize (vcross m e1)) as [e2| |] eqn:E2; cbn [bind] in H; try discriminate.
  apply vnormalize_unit in E1 as (U1 & k1 & Hk1 & E1).
  assert (Um : vlen2 m = 1 /\ vdot m u = 0 /\ vdot m v = 0 /\ vdot m d < 0 /\ (side = Front /\ vdot n d < 0 \/ side = Back /\ 0 < vdot n d)).
  { unfold get_side in Es. destruct (Rltb_spec (vdot n d) 0) as [L|L]; [|destruct (Rltb_spec 0 (vdot n d)) as [G|G]].
    - injection Es as <- <-. repeat split; auto.
    - injection Es as <- <-. split; [rewrite <- Un; vring|]. split; [replace (vdot (vscale n (-1)) u) with (- vdot n u) by vring; lra|].
      split; [replace (vdot (vscale n (-1)) v) with (- vdot n v) by vring; lra|]. split; [replace (vdot (vscale n (-1)) d) with (- vdot n d) by vring; lra|auto].
    - injection Es as <- <-. exfalso. unfold vnormalize in E2. rewrite (proj2 (Rltb_false _ _)) in E2; [discriminate|].
      replace (vlen2 (vcross (mkV 0 0 0) e1)) with 0 by (unfold vlen2, vcross; cbn; ring). apply Rlt_le, Rdiv_lt_0_compat; [lra|apply pow_lt; lra]. }
  destruct Um as (Um & Mu & Mv & Md & Ms).
  assert (M1 : vdot m e1 = 0). { rewrite E1 in Mu. replace (vdot m (vscale e1 k1)) with (k1 * vdot m e1) in Mu by vring. apply Rmult_integral in Mu as [|]; lra. }
  apply vnormalize_unit in E2 as (U2 & k2 & Hk2 & E2).
  assert (K2 : k2 = 1).
  { assert (Q : vlen2 (vcross m e1) = 1) by (rewrite lagrange, Um, U1, M1; ring). rewrite E2 in Q.
    replace (vlen2 (vscale e2 k2)) with (vlen2 e2 * (k2 * k2)) in Q by vring. rewrite U2 in Q. nra. }
  assert (E2' : e2 = vcross m e1) by (rewrite E2, K2; vring). clear E2 K2 Hk2 k2.
  assert (D12 : vdot e1 e2 = 0) by (rewrite E2'; vring). assert (D2m : vdot e2 m = 0) by (rewrite E2'; vring).
  assert (X : vcross e1 e2 = m).
  { rewrite E2'. replace (vcross e1 (vcross m e1)) with (vsub (vscale m (vlen2 e1)) (vscale e1 (vdot m e1))) by vring. rewrite U1, M1. vring. }
  replace (vdot e1 e2) with (vdot e2 e1) in D12 by vring. replace (vdot m e1) with (vdot e1 m) in M1 by vring.
  destruct Ms as [[-> S]|[-> S]]; injection H as <-; cbn [i_p i_normal i_side i_dpdu i_dpdv].
  - repeat (split; [first [assumption | reflexivity | (rewrite <- D12; vring)]|]).
    split; [split; intros; [rewrite Nd; nra|reflexivity]|]. split; [split; intros; [discriminate|rewrite Nd in *; nra]|]. intros _. exact X.
  - repeat (split; [first [assumption | reflexivity | (rewrite <- D12; vring)]|]).
    split; [split; intros; [discriminate|rewrite Nd in *; nra]|]. split; [split; intros; [rewrite Nd; nra|reflexivity]|]. discriminate.
Qed.

Definition right_tri := mkTri (mkV 0 0 0) (mkV 1 0 0) (mkV 0 1 0).
Lemma norm_unit a : vlen2 a = 1 -> vnormalize a = Ok a.
Proof.
  intros E. unfold vnormalize. rewrite E. rewrite (proj2 (Rltb_true _ 1)) by lra. rewrite sqrt_1. f_equal. apply V3_eq; cbn; lra.
Qed.

(** On the back side the frame is left-handed: its cross product is minus the reported normal, although the documentation says
    the normal "must have the value of (dpdu x dpdv).normalize()". *)
Theorem C62_handedness_refuted : exists t p d i, new_info t p d = Ok i /\ i_side i = Back /\
  vcross (i_dpdu i) (i_dpdv i) = vneg (i_normal i) /\ vcross (i_dpdu i) (i_dpdv i) <> i_normal i.
Proof.
  exists right_tri, (mkV (1/4) (1/4) 0), (mkV 0 0 1).
  exists (mkInfo (mkV (1/4) (1/4) 0) (mkV 0 0 (-1)) Back (mkV 0 (-1) 0) (mkV 1 0 0)).
  split; [|split; [reflexivity|split; [apply V3_eq; cbn; lra|intros E; apply (f_equal vz) in E; cbn in E; lra]]].
  unfold new_info. cbn [ta tb tc right_tri].
  replace (vsub (mkV 1 0 0) (mkV 0 0 0)) with (mkV 1 0 0) by (apply V3_eq; cbn; lra).
  replace (vsub (mkV 0 1 0) (mkV 0 0 0)) with (mkV 0 1 0) by (apply V3_eq; cbn; lra).
  replace (vcross (mkV 1 0 0) (mkV 0 1 0)) with (mkV 0 0 1) by (apply V3_eq; cbn; lra).
  rewrite norm_unit by (unfold vlen2; cbn; lra). cbn [bind]. unfold get_side.
  replace (vdot (mkV 0 0 1) (mkV 0 0 1)) with 1 by (unfold vdot; cbn; lra).
  rewrite (proj2 (Rltb_false 1 0)), (proj2 (Rltb_true 0 1)) by lra.
  rewrite norm_unit by (unfold vlen2; cbn; lra). cbn [bind].
  rewrite norm_unit by (unfold vlen2; cbn; lra). cbn [bind]. f_equal. f_equal; apply V3_eq; cbn; lra.
Qed.

(** ** C63: the density of a triangle's samples *)
Definition shift (w : pt) (t : Tri) : Tri := mkTri (vadd (ta t) w) (vadd (tb t) w) (vadd (tc t) w).

(** The solid-angle density seen from a point should not change when the whole scene is moved.  It does: the cosine is taken with
    the ray's origin in place of its direction. *)
Theorem C63_shift_refuted : exists t point normal o d w,
  triangle_solid_angle_pdf (shift w t) (vadd point w) normal (mkRay (vadd o w) d) <> triangle_solid_angle_pdf t point normal (mkRay o d).
Proof.
  exists unit_tri, (mkV (1/4) (1/4) 0), (mkV 0 0 1), (mkV (1/4) (1/4) 1), (mkV 0 0 (-1)), (mkV 0 0 1).
  assert (A : forall z, triangle_area (mkTri (mkV 0 0 z) (mkV 1 0 z) (mkV 0 1 z)) = 1 / 2).
  { intros z. rewrite C30_area. cbn [ta tb tc].
    replace (vcross _ _) with (mkV 0 0 1) by (apply V3_eq; cbn; ring). unfold vlen. replace (vlen2 _) with 1 by (unfold vlen2; cbn; ring). rewrite sqrt_1. reflexivity. }
  assert (B : forall z, 0 < z -> triangle_solid_angle_pdf (mkTri (mkV 0 0 (z - 1)) (mkV 1 0 (z - 1)) (mkV 0 1 (z - 1))) (mkV (1/4) (1/4) (z - 1)) (mkV 0 0 1)
      (mkRay (mkV (1/4) (1/4) z) (mkV 0 0 (-1))) = if Rltb z (1 / 10 ^ 7) then 0 else 2 / z).
  { intros z Hz. unfold triangle_solid_angle_pdf. rewrite A. cbn [origin].
    replace (vlen2 _) with 1 by (unfold vlen2, vsub; cbn; ring). replace (vdot _ _) with z by (unfold vdot; cbn; ring).
    destruct (Rltb z _); [reflexivity|]. rewrite Rabs_right by lra. field. lra. }
  pose proof (B 1 ltac:(lra)) as B1. pose proof (B 2 ltac:(lra)) as B2.
  rewrite (proj2 (Rltb_false 1 _)) in B1 by lra. rewrite (proj2 (Rltb_false 2 _)) in B2 by lra.
  replace (1 - 1) with 0 in B1 by ring. replace (2 - 1) with 1 in B2 by ring.
  unfold shift, vadd, unit_tri. cbn [ta tb tc vx vy vz].
  replace (0 + 0) with 0 by ring. replace (0 + 1) with 1 by ring. replace (1 + 0) with 1 by ring. replace (1 + 1) with 2 by ring.
  replace (1 / 4 + 0) with (1 / 4) by ring. rewrite B1, B2. lra.
Qed.

Print Assumptions C29_sound.
Print Assumptions C29_complete.
Print Assumptions C30_triangle.
Print Assumptions C30_circumcentre.
Print Assumptions C59_test_point.
Print Assumptions C60_touch_complete.
Print Assumptions C61_plane.
Print Assumptions C62_frame.

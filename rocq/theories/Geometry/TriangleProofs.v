(** Facts about triangles, rays and segments, in exact arithmetic. *)
From Coq Require Import Reals List Bool Lra Lia Psatz.
From Verif.Common Require Import Base Flt.
From Verif.Geometry Require Import Vec BBoxModel TriangleModel GeomProofs.
Import ListNotations.
Open Scope R_scope.

Definition on_triangle (a b c : pt) (u v : R) : pt := vadd a (vadd (vscale (vsub b a) u) (vscale (vsub c a) v)).

(** The scalars of the Moeller-Trumbore algorithm *)
Definition mt_det (r : Ray) (a b c : pt) : R := vdot (vsub b a) (vcross (direction r) (vsub c a)).
Definition mt_u (r : Ray) (a b c : pt) : R := 1 / mt_det r a b c * vdot (vsub (origin r) a) (vcross (direction r) (vsub c a)).
Definition mt_v (r : Ray) (a b c : pt) : R := 1 / mt_det r a b c * vdot (direction r) (vcross (vsub (origin r) a) (vsub b a)).
Definition mt_t (r : Ray) (a b c : pt) : R := 1 / mt_det r a b c * vdot (vsub c a) (vcross (vsub (origin r) a) (vsub b a)).

Lemma mt_det_triple r a b c : mt_det r a b c = - vdot (direction r) (vcross (vsub b a) (vsub c a)).
Proof. unfold mt_det. vring. Qed.

Lemma mt_point r a b c : mt_det r a b c <> 0 ->
  project r (mt_t r a b c) = on_triangle a b c (mt_u r a b c) (mt_v r a b c).
Proof.
  intros H. unfold mt_t, mt_u, mt_v, project, on_triangle. set (D := mt_det r a b c) in *.
  assert (E : D = mt_det r a b c) by reflexivity. clearbody D. unfold mt_det in E.
  destruct r as [[ox oy oz] [dx dy dz]], a as [ax ay az], b as [bx by_ bz], c as [cx cy cz].
  vunfold. apply V3_eq; cbn [vx vy vz].
  - apply (Rmult_eq_reg_l D); [|exact H]. field_simplify; [|exact H|exact H]. rewrite E. cbn. ring.
  - apply (Rmult_eq_reg_l D); [|exact H]. field_simplify; [|exact H|exact H]. rewrite E. cbn. ring.
  - apply (Rmult_eq_reg_l D); [|exact H]. field_simplify; [|exact H|exact H]. rewrite E. cbn. ring.
Qed.

Lemma mt_unique r a b c t u v : mt_det r a b c <> 0 -> project r t = on_triangle a b c u v ->
  mt_t r a b c = t /\ mt_u r a b c = u /\ mt_v r a b c = v.
Proof.
  intros H E. unfold mt_t, mt_u, mt_v. set (e1 := vsub b a) in *. set (e2 := vsub c a) in *.
  assert (S : vsub (origin r) a = vsub (vadd (vscale e1 u) (vscale e2 v)) (vscale (direction r) t)).
  { unfold project, on_triangle in E. fold e1 e2 in E. clearbody e1 e2.
    pose proof (f_equal vx E) as X. pose proof (f_equal vy E) as Y. pose proof (f_equal vz E) as Z.
    unfold vadd, vsub, vscale in *. cbn [vx vy vz] in *. apply V3_eq; cbn [vx vy vz]; lra. }
  rewrite S. unfold mt_det in *. fold e1 e2 in H |- *. clearbody e1 e2. set (d := direction r) in *. clearbody d. clear S E.
  set (D := vdot e1 (vcross d e2)) in *.
  replace (vdot e2 (vcross (vsub (vadd (vscale e1 u) (vscale e2 v)) (vscale d t)) e1)) with (t * D) by (unfold D; vring).
  replace (vdot (vsub (vadd (vscale e1 u) (vscale e2 v)) (vscale d t)) (vcross d e2)) with (u * D) by (unfold D; vring).
  replace (vdot d (vcross (vsub (vadd (vscale e1 u) (vscale e2 v)) (vscale d t)) e1)) with (v * D) by (unfold D; vring).
  clearbody D. repeat split; field; assumption.
Qed.

(** ** Triangle measures *)
Lemma distance_vlen a b : distance a b = vlen (vsub a b).
Proof. unfold distance, vlen, squared_distance, vlen2, vsub. reflexivity. Qed.
Lemma distance_sym a b : distance a b = distance b a.
Proof. unfold distance. f_equal. unfold squared_distance. ring. Qed.

Lemma heron_spec a b c ab bc ca : ab = distance a b -> bc = distance b c -> ca = distance c a ->
  (ca + bc + ab) * ((ca + bc + ab) / 2 - ab) * ((ca + bc + ab) / 2 - bc) * ((ca + bc + ab) / 2 - ca) / 2
  = vlen2 (vcross (vsub b a) (vsub c a)) / 4.
Proof.
  intros -> -> ->. rewrite !distance_vlen.
  set (x := vlen (vsub c a)). set (y := vlen (vsub b c)). set (z := vlen (vsub a b)).
  assert (X : x * x = vlen2 (vsub c a)) by apply vlen_sqr.
  assert (Y : y * y = vlen2 (vsub b c)) by apply vlen_sqr.
  assert (Z : z * z = vlen2 (vsub a b)) by apply vlen_sqr. clearbody x y z.
  replace ((x + y + z) * ((x + y + z) / 2 - z) * ((x + y + z) / 2 - y) * ((x + y + z) / 2 - x) / 2)
    with ((4 * (z * z) * (x * x) - (z * z + x * x - y * y) * (z * z + x * x - y * y)) / 16) by field.
  rewrite X, Y, Z. unfold vlen2, vcross, vsub. cbn [vx vy vz]. field.
Qed.

Lemma heron_area a b c : heron (distance a b) (distance b c) (distance c a) = vlen (vcross (vsub b a) (vsub c a)) / 2.
Proof.
  unfold heron. rewrite (heron_spec a b c) by reflexivity. unfold vlen.
  replace (vlen2 (vcross (vsub b a) (vsub c a)) / 4) with (vlen2 (vcross (vsub b a) (vsub c a)) * (/ 2 * / 2)) by field.
  rewrite sqrt_mult by (try apply vlen2_nonneg; lra). rewrite sqrt_square by lra. field.
Qed.

Lemma circum_product x y z :
  (x + y + z) * (y + z - x) * (z + x - y) * (x + y - z) =
  16 * ((z + y + x) * ((z + y + x) / 2 - x) * ((z + y + x) / 2 - y) * ((z + y + x) / 2 - z) / 2).
Proof. field. Qed.

Lemma circum_center_sq u v n : n = vcross u v -> 0 < vlen2 n ->
  let o := vdiv (vadd (vscale (vcross n u) (vlen2 v)) (vscale (vcross v n) (vlen2 u))) (2 * vlen2 n) in
  vlen2 o = vlen2 u * vlen2 v * vlen2 (vsub u v) / (4 * vlen2 n) /\
  2 * vdot o u = vlen2 u /\ 2 * vdot o v = vlen2 v.
Proof.
  intros E Hn o.
  set (p := vadd (vscale (vcross n u) (vlen2 v)) (vscale (vcross v n) (vlen2 u))) in *.
  assert (Nu : vdot n u = 0) by (subst n; vring). assert (Nv : vdot n v = 0) by (subst n; vring).
  assert (P2 : vlen2 p = vlen2 n * (vlen2 u * vlen2 v * vlen2 (vsub u v))).
  { assert (A1 : vlen2 (vcross n u) = vlen2 n * vlen2 u) by (rewrite lagrange, Nu; ring).
    assert (A2 : vlen2 (vcross v n) = vlen2 v * vlen2 n).
    { rewrite lagrange. replace (vdot v n) with (vdot n v) by vring. rewrite Nv. ring. }
    assert (A3 : vdot (vcross n u) (vcross v n) = - (vlen2 n * vdot u v)).
    { replace (vdot (vcross n u) (vcross v n)) with (vdot n v * vdot n u - vlen2 n * vdot u v) by vring. rewrite Nu, Nv. ring. }
    replace (vlen2 p) with (vlen2 (vcross n u) * (vlen2 v * vlen2 v) + vlen2 (vcross v n) * (vlen2 u * vlen2 u)
       + 2 * (vlen2 v * vlen2 u) * vdot (vcross n u) (vcross v n)).
    2:{ unfold p. generalize (vcross n u) as s. generalize (vcross v n) as r. generalize (vlen2 u) as k. generalize (vlen2 v) as m.
        intros. vring. }
    rewrite A1, A2, A3. replace (vlen2 (vsub u v)) with (vlen2 u + vlen2 v - 2 * vdot u v) by vring. ring. }
  assert (Pu : vdot p u = vlen2 u * vlen2 n).
  { replace (vdot p u) with (vdot (vcross n u) u * vlen2 v + vdot (vcross v n) u * vlen2 u).
    2:{ unfold p. generalize (vcross n u) as s. generalize (vcross v n) as r. generalize (vlen2 u) as k. generalize (vlen2 v) as m. intros. vring. }
    replace (vdot (vcross n u) u) with 0 by vring. replace (vdot (vcross v n) u) with (vdot n (vcross u v)) by vring.
    rewrite <- E. unfold vdot, vlen2. ring. }
  assert (Pv : vdot p v = vlen2 v * vlen2 n).
  { replace (vdot p v) with (vdot (vcross n u) v * vlen2 v + vdot (vcross v n) v * vlen2 u).
    2:{ unfold p. generalize (vcross n u) as s. generalize (vcross v n) as r. generalize (vlen2 u) as k. generalize (vlen2 v) as m. intros. vring. }
    replace (vdot (vcross v n) v) with 0 by vring. replace (vdot (vcross n u) v) with (vdot n (vcross u v)) by vring.
    rewrite <- E. unfold vdot, vlen2. ring. }
  clearbody p. set (k := vlen2 n) in *. clearbody k.
  assert (D : forall w, vdot o w = vdot p w / (2 * k)) by (intros w; unfold o, vdiv, vdot; cbn [vx vy vz]; field; lra).
  split; [|split].
  - replace (vlen2 o) with (vlen2 p / (4 * (k * k))) by (unfold o, vdiv, vlen2; cbn [vx vy vz]; field; lra).
    rewrite P2. field. lra.
  - rewrite D, Pu. field. lra.
  - rewrite D, Pv. field. lra.
Qed.

(** ** The box of a triangle contains it *)
Lemma convex3 lo hi x y z u v : lo <= x <= hi -> lo <= y <= hi -> lo <= z <= hi -> 0 <= u -> 0 <= v -> u + v <= 1 ->
  lo <= x + ((y - x) * u + (z - x) * v) <= hi.
Proof.
  intros. replace (x + ((y - x) * u + (z - x) * v)) with (x * (1 - u - v) + y * u + z * v) by ring.
  assert (lo * (1 - u - v) <= x * (1 - u - v) <= hi * (1 - u - v)) by (split; apply Rmult_le_compat_r; lra).
  assert (lo * u <= y * u <= hi * u) by (split; apply Rmult_le_compat_r; lra).
  assert (lo * v <= z * v <= hi * v) by (split; apply Rmult_le_compat_r; lra).
  split; lra.
Qed.

Lemma world_bounds_corners t : let b := world_bounds t in inside b (ta t) /\ inside b (tb t) /\ inside b (tc t) /\ proper b.
Proof.
  cbv zeta. unfold world_bounds.
  assert (P0 : proper (from_point (ta t))) by (unfold proper, from_point; cbn; lra).
  assert (I0 : inside (from_point (ta t)) (ta t)) by (unfold inside, from_point; cbn; lra).
  assert (P1 := from_union_point_proper _ (tb t) P0).
  split; [|split; [|split]].
  - now apply from_union_point_inside, from_union_point_inside.
  - now apply from_union_point_inside, from_union_point_self.
  - now apply from_union_point_self.
  - now apply from_union_point_proper.
Qed.

Lemma world_bounds_contains t u v : 0 <= u -> 0 <= v -> u + v <= 1 -> inside (world_bounds t) (on_triangle (ta t) (tb t) (tc t) u v).
Proof.
  intros Hu Hv Hw. destruct (world_bounds_corners t) as (A & B & C & _).
  unfold inside, on_triangle, vadd, vscale, vsub in *. cbn [vx vy vz].
  split; [|split]; apply convex3; tauto.
Qed.

Lemma test_point_coords a b c alpha beta : 0 < vlen2 (vcross (vsub b a) (vsub c a)) ->
  let p := on_triangle a b c alpha beta in
  let e1 := vsub b a in let e2 := vsub c a in let pa := vsub p a in
  let det := vdot e1 e1 * vdot e2 e2 - vdot e2 e1 * vdot e2 e1 in
  (vdot e2 e2 * vdot e1 pa - vdot e2 e1 * vdot e2 pa) / det = alpha /\
  (- vdot e2 e1 * vdot e1 pa + vdot e1 e1 * vdot e2 pa) / det = beta.
Proof.
  intros H p e1 e2 pa det.
  assert (D : det = vlen2 (vcross e1 e2)) by (unfold det; vring).
  assert (PA : pa = vadd (vscale e1 alpha) (vscale e2 beta)) by (unfold pa, p, on_triangle; fold e1 e2; vring).
  fold e1 e2 in H. assert (N : det <> 0) by (rewrite D; lra).
  rewrite PA. split.
  - replace (vdot e2 e2 * vdot e1 (vadd (vscale e1 alpha) (vscale e2 beta)) - vdot e2 e1 * vdot e2 (vadd (vscale e1 alpha) (vscale e2 beta)))
      with (alpha * det) by (unfold det; vring). field. exact N.
  - replace (- vdot e2 e1 * vdot e1 (vadd (vscale e1 alpha) (vscale e2 beta)) + vdot e1 e1 * vdot e2 (vadd (vscale e1 alpha) (vscale e2 beta)))
      with (beta * det) by (unfold det; vring). field. exact N.
Qed.

(** ** Segments *)
Lemma segment_residual a b ta tb : get_intersection_pt a b = Some (ta, tb) ->
  let d1 := vsub (s_end a) (s_start a) in let d2 := vsub (s_end b) (s_start b) in
  let n := vcross d1 d2 in
  let r := vsub (vadd (s_start a) (vscale d1 ta)) (vadd (s_start b) (vscale d2 tb)) in
  let delta := vsub (s_start a) (s_start b) in
  n <> mkV 0 0 0 /\ Rabs (vdot delta n) <= 1 / 10 ^ 5 /\
  ((vx r = 0 /\ vy r = 0 /\ vz r * vz n = vdot delta n /\ 1 / 10 ^ 5 < Rabs (vz n)) \/
   (vy r = 0 /\ vz r = 0 /\ vx r * vx n = vdot delta n /\ 1 / 10 ^ 5 < Rabs (vx n)) \/
   (vx r = 0 /\ vz r = 0 /\ vy r * vy n = vdot delta n /\ 1 / 10 ^ 5 < Rabs (vy n))).
Proof.
  unfold get_intersection_pt. set (d1 := vsub (s_end a) (s_start a)). set (d2 := vsub (s_end b) (s_start b)).
  set (delta := vsub (s_start a) (s_start b)).
  destruct (vis_parallel d1 d2); [discriminate|]. set (n := vcross d1 d2).
  destruct (Rltb_spec (1 / 10 ^ 5) (Rabs (vdot delta n))) as [|Hc]; [discriminate|]. apply Rnot_lt_le in Hc.
  intros E. set (r := vsub (vadd (s_start a) (vscale d1 ta)) (vadd (s_start b) (vscale d2 tb))).
  assert (P : 0 < 1 / 10 ^ 5) by lra.
  assert (R0 : r = vsub (vadd delta (vscale d1 ta)) (vscale d2 tb)) by (unfold r, delta; vring). clearbody r. subst r.
  clearbody d1 d2 delta.
  assert (K : forall k, 1 / 10 ^ 5 < Rabs k -> k <> 0) by (intros k Hk ->; rewrite Rabs_R0 in Hk; lra).
  destruct (Rltb_spec (1 / 10 ^ 5) (Rabs (vz n))) as [Hz|Hz]; [|destruct (Rltb_spec (1 / 10 ^ 5) (Rabs (vx n))) as [Hx|Hx]; [|destruct (Rltb_spec (1 / 10 ^ 5) (Rabs (vy n))) as [Hy|Hy]; [|discriminate]]].
  - pose proof (K _ Hz) as N. injection E as <- <-.
    split; [intros Q; apply N; rewrite Q; reflexivity|]. split; [exact Hc|]. left.
    unfold n in N |- *. clear - N Hz. unfold n in Hz. destruct d1 as [a b c], d2 as [d e f], delta as [g h i].
    unfold vadd, vsub, vscale, vdot, vcross in *. cbn [vx vy vz] in *.
    assert (b * d - a * e <> 0) by (intros Q; apply N; lra).
    split; [field; assumption|]. split; [field; assumption|]. split; [field; assumption|exact Hz].
  - pose proof (K _ Hx) as N. injection E as <- <-.
    split; [intros Q; apply N; rewrite Q; reflexivity|]. split; [exact Hc|]. right; left.
    unfold n in N |- *. clear - N Hx. unfold n in Hx. destruct d1 as [a b c], d2 as [d e f], delta as [g h i].
    unfold vadd, vsub, vscale, vdot, vcross in *. cbn [vx vy vz] in *.
    assert (b * f - c * e <> 0) by (intros Q; apply N; lra).
    split; [field; assumption|]. split; [field; assumption|]. split; [field; assumption|exact Hx].
  - pose proof (K _ Hy) as N. injection E as <- <-.
    split; [intros Q; apply N; rewrite Q; reflexivity|]. split; [exact Hc|]. right; right.
    unfold n in N |- *. clear - N Hy. unfold n in Hy. destruct d1 as [a b c], d2 as [d e f], delta as [g h i].
    unfold vadd, vsub, vscale, vdot, vcross in *. cbn [vx vy vz] in *.
    assert (a * f - c * d <> 0) by (intros Q; apply N; lra).
    split; [field; assumption|]. split; [field; assumption|]. split; [field; assumption|exact Hy].
Qed.

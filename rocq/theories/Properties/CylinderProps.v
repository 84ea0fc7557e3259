(** C100: cylinders *)
From Coquelicot Require Import Coquelicot.
From Coq Require Import Reals List Bool Lra Lia Psatz.
From Verif.Common Require Import Base Flt.
From Verif.Geometry Require Import Vec BBoxModel TransformModel TriangleModel ShapesModel ShapesProofs.
From Verif.Properties Require Import ShapesProps.
Import ListNotations.
Open Scope R_scope.

(** The part of the cylinder of radius [r] around the vertical axis between the heights [z0] and [z1] and the longitudes 0 and [deg] degrees *)
Definition on_cylinder (r z0 z1 deg : R) (p : pt) : Prop :=
  vx p * vx p + vy p * vy p = r * r /\ z0 <= vz p <= z1 /\ exists phi, 0 <= phi <= to_radians deg /\ vx p = r * cos phi /\ vy p = r * sin phi.
(** The square of the speed at which a ray moves away from the axis *)
Definition across (d : pt) : R := vx d * vx d + vy d * vy d.

Lemma cylinder_is_made r z0 z1 deg t c : 0 <= deg <= 360 -> cylinder_new_transformed r z0 z1 deg t = Ok c -> z0 <= z1 /\ c = mkCylinder r z0 z1 (to_radians deg) t.
Proof.
  intros D H. unfold cylinder_new_transformed in H. destruct (Rltb_spec z1 z0); [discriminate|]. destruct (negb _); [discriminate|]. rewrite clamp_in in H by exact D. cbn [bind] in H. injection H as <-. split; [lra|reflexivity].
Qed.
Lemma cylinder_quadratic ray r t : let d := direction ray in let o := origin ray in
  across d * t * t + (vx d * vx o + vy d * vy o) * 2 * t + (vx o * vx o + vy o * vy o - r * r) = vx (project ray t) * vx (project ray t) + vy (project ray t) * vy (project ray t) - r * r.
Proof. cbv zeta. rewrite project_eq. unfold across. cbn [vx vy vz]. ring. Qed.
Lemma cylinder_at_eq c ray t r : c_radius c = r -> 0 < r -> vx (project ray t) * vx (project ray t) + vy (project ray t) * vy (project ray t) = r * r ->
  cylinder_at c ray t = (project ray t, longitude (vy (project ray t)) (vx (project ray t))).
Proof.
  intros Er P L. unfold cylinder_at. rewrite Er, L, sqrt_square by lra. replace (r / r) with 1 by (field; lra). rewrite !Rmult_1_r. destruct (project ray t). reflexivity.
Qed.
Lemma cylinder_inside r z0 z1 deg t p : 0 < r -> 0 <= deg <= 360 -> vx p * vx p + vy p * vy p = r * r ->
  cylinder_outside (mkCylinder r z0 z1 (to_radians deg) t) p (longitude (vy p) (vx p)) = false <-> on_cylinder r z0 z1 deg p.
Proof.
  intros P D L. pose proof (to_radians_range deg D) as Rr. assert (X : vx p <> 0 \/ vy p <> 0) by (destruct (Req_dec (vx p) 0) as [E|]; [right; intros E'; rewrite E, E' in L; nra|auto]).
  destruct (longitude_polar (vy p) (vx p) X) as (Lo & Lx & Ly). rewrite L in Lx, Ly. rewrite sqrt_square in Lx, Ly by lra. unfold cylinder_outside. cbn [c_zmin c_zmax c_phi_max]. split.
  - intros H. apply orb_false_elim in H. destruct H as (H & H3). apply orb_false_elim in H. destruct H as (H1 & H2). apply Rltb_false in H1, H2, H3.
    split; [exact L|]. split; [lra|]. exists (longitude (vy p) (vx p)). split; [lra|]. split; assumption.
  - intros (_ & Z & phi & Rp & Ex & Ey). assert (Le : longitude (vy p) (vx p) <= phi) by (apply longitude_least; auto; try lra; rewrite L, sqrt_square by lra; assumption).
    rewrite (proj2 (Rltb_false (vz p) z0)), (proj2 (Rltb_false z1 (vz p))), (proj2 (Rltb_false (to_radians deg) _)) by lra. reflexivity.
Qed.
Lemma cylinder_crossings ray r t0 t1 : 0 < across (direction ray) ->
  (forall t, across (direction ray) * t * t + (vx (direction ray) * vx (origin ray) + vy (direction ray) * vy (origin ray)) * 2 * t + (vx (origin ray) * vx (origin ray) + vy (origin ray) * vy (origin ray) - r * r)
    = across (direction ray) * (t - t0) * (t - t1)) ->
  forall t, vx (project ray t) * vx (project ray t) + vy (project ray t) * vy (project ray t) = r * r <-> t = t0 \/ t = t1.
Proof.
  intros V F t. pose proof (cylinder_quadratic ray r t) as G. cbv zeta in G. rewrite F in G. split.
  - intros E. assert (Z : across (direction ray) * (t - t0) * (t - t1) = 0) by (rewrite G, E; ring). apply Rmult_integral in Z. destruct Z as [Z|Z]; [apply Rmult_integral in Z; lra|lra].
  - intros [ -> | -> ]; [replace (t0 - t0) with 0 in G by ring|replace (t1 - t1) with 0 in G by ring]; lra.
Qed.
(** A ray that is not along the axis shows the first point in front of it that is on the cylinder ... *)
Theorem C100_hit : forall r z0 z1 deg t c ray p phi, 0 < r -> 0 <= deg <= 360 -> cylinder_new_transformed r z0 z1 deg t = Ok c ->
  0 < across (direction ray) -> cylinder_basic_intersection c ray = Hit (p, phi) ->
  exists k, 0 < k /\ p = project ray k /\ on_cylinder r z0 z1 deg p /\ 0 <= phi <= to_radians deg /\ vx p = r * cos phi /\ vy p = r * sin phi /\
    forall k', 0 < k' < k -> ~ on_cylinder r z0 z1 deg (project ray k').
Proof.
  intros r z0 z1 deg tr c ray p phi P D M V H. apply cylinder_is_made in M; auto. destruct M as (Zz & ->). unfold cylinder_basic_intersection in H. cbn [c_radius] in H. fold (across (direction ray)) in H.
  destruct (solve_quadratic _ _ _) as [|(t0 & t1)|] eqn:Q; try discriminate. apply quadratic_hit in Q; [|exact V]. destruct Q as (L & F). pose proof (cylinder_crossings ray r t0 t1 V F) as On.
  destruct (first_hit _ _ _ _ _ L H) as (k & K & Kt & E & O & First). apply On in Kt. pose proof Kt as Ek. rewrite (cylinder_at_eq _ _ _ r) in E by auto.
  assert (Ep : p = project ray k) by exact (f_equal fst E). assert (Ef : phi = longitude (vy (project ray k)) (vx (project ray k))) by exact (f_equal snd E). clear E. subst p phi. cbn [fst snd] in O.
  exists k. split; [exact K|]. split; [reflexivity|]. pose proof O as O'. apply cylinder_inside in O'; auto. split; [exact O'|].
  assert (X : vx (project ray k) <> 0 \/ vy (project ray k) <> 0) by (destruct (Req_dec (vx (project ray k)) 0) as [E|]; [right; intros E'; rewrite E, E' in Kt; nra|auto]).
  destruct (longitude_polar _ _ X) as (Lo & Lx & Ly). rewrite Kt in Lx, Ly. rewrite sqrt_square in Lx, Ly by lra.
  unfold cylinder_outside in O. apply orb_false_elim in O. destruct O as (_ & O). apply Rltb_false in O. cbn [c_phi_max] in O. split; [lra|]. split; [exact Lx|]. split; [exact Ly|].
  intros k' K' On'. pose proof (proj1 On') as L'. specialize (First k' (proj1 (On k') L') K'). rewrite (cylinder_at_eq _ _ _ r) in First by auto. cbn [fst snd] in First. apply (cylinder_inside r z0 z1 deg tr) in On'; auto. congruence.
Qed.
(** ... and one that shows none passes none. *)
Theorem C100_miss : forall r z0 z1 deg t c ray, 0 < r -> 0 <= deg <= 360 -> cylinder_new_transformed r z0 z1 deg t = Ok c ->
  0 < across (direction ray) -> cylinder_basic_intersection c ray = Miss -> forall k, 0 < k -> ~ on_cylinder r z0 z1 deg (project ray k).
Proof.
  intros r z0 z1 deg tr c ray P D M V H k K On'. apply cylinder_is_made in M; auto. destruct M as (Zz & ->). unfold cylinder_basic_intersection in H. cbn [c_radius] in H. fold (across (direction ray)) in H.
  pose proof (proj1 On') as L'. destruct (solve_quadratic _ _ _) as [|(t0 & t1)|] eqn:Q; try discriminate.
  - pose proof (quadratic_miss _ _ _ V Q k) as F. pose proof (cylinder_quadratic ray r k) as G. cbv zeta in G. lra.
  - apply quadratic_hit in Q; [|exact V]. destruct Q as (L & F). pose proof (cylinder_crossings ray r t0 t1 V F) as On.
    pose proof (first_miss _ _ _ _ L H k (proj1 (On k) L') K) as O. rewrite (cylinder_at_eq _ _ _ r) in O by auto. cbn [fst snd] in O. apply (cylinder_inside r z0 z1 deg tr) in On'; auto. congruence.
Qed.
(** The result is not a number for the rays from a point of the cylinder that touch it there ... *)
Theorem C100_tangent : forall r z0 z1 deg t c ray, 0 < r -> 0 <= deg <= 360 -> cylinder_new_transformed r z0 z1 deg t = Ok c -> 0 < across (direction ray) ->
  cylinder_basic_intersection c ray = NotANumber <->
  vx (origin ray) * vx (origin ray) + vy (origin ray) * vy (origin ray) = r * r /\ vx (origin ray) * vx (direction ray) + vy (origin ray) * vy (direction ray) = 0.
Proof.
  intros r z0 z1 deg tr c ray P D M V. apply cylinder_is_made in M; auto. destruct M as (Zz & ->). unfold cylinder_basic_intersection. cbn [c_radius]. fold (across (direction ray)).
  set (b := (vx (direction ray) * vx (origin ray) + vy (direction ray) * vy (origin ray)) * 2). set (q := vx (origin ray) * vx (origin ray) + vy (origin ray) * vy (origin ray) - r * r).
  assert (Eq : b = 0 /\ q = 0 <-> vx (origin ray) * vx (origin ray) + vy (origin ray) * vy (origin ray) = r * r /\ vx (origin ray) * vx (direction ray) + vy (origin ray) * vy (direction ray) = 0) by (unfold b, q; split; intros (A & B); split; lra).
  rewrite <- Eq, <- (quadratic_nan _ b q V). destruct (solve_quadratic _ b q) as [|(t0 & t1)|]; (split; [intros H; try discriminate H; try reflexivity|intros H; try discriminate H; try reflexivity]).
  exfalso. exact (first_nan _ _ _ _ H).
Qed.
(** ... and for all rays along the axis. *)
Theorem C100_parallel_refuted : forall r z0 z1 deg t c ray, 0 <= deg <= 360 -> cylinder_new_transformed r z0 z1 deg t = Ok c -> across (direction ray) = 0 -> cylinder_basic_intersection c ray = NotANumber.
Proof.
  intros r z0 z1 deg tr c ray D M V. apply cylinder_is_made in M; auto. destruct M as (Zz & ->). unfold cylinder_basic_intersection. cbn [c_radius]. fold (across (direction ray)). rewrite V.
  unfold across in V. assert (X : vx (direction ray) = 0) by nra. assert (Y : vy (direction ray) = 0) by nra. rewrite X, Y. unfold solve_quadratic.
  match goal with |- context [Rltb ?d 0] => replace d with 0 by ring end. destruct (Rltb_spec 0 0); [lra|]. destruct (Req_EM_T 0 0); [reflexivity|contradiction].
Qed.

(** Longitude and height as parameters *)
Definition cylinder_surface (r z0 z1 deg u v : R) : pt := mkV (r * cos (u * to_radians deg)) (r * sin (u * to_radians deg)) (z0 + v * (z1 - z0)).
Definition cylinder_du r z0 z1 deg u (v : R) : pt :=
  mkV (- to_radians deg * vy (cylinder_surface r z0 z1 deg u v)) (to_radians deg * vx (cylinder_surface r z0 z1 deg u v)) 0.
Lemma cylinder_along_u r z0 z1 deg u v : along_u (cylinder_surface r z0 z1 deg) u v (cylinder_du r z0 z1 deg u v).
Proof. unfold along_u, cylinder_du, cylinder_surface. cbn [vx vy vz]. split; [|split]; auto_derive; auto; ring. Qed.
Lemma cylinder_along_v r z0 z1 deg u v : along_v (cylinder_surface r z0 z1 deg) u v (mkV 0 0 (z1 - z0)).
Proof. unfold along_v, cylinder_surface. cbn [vx vy vz]. split; [|split]; auto_derive; auto; ring. Qed.
(** The parameters between 0 and 1 give exactly the points of the cylinder. *)
Theorem C100_surface : forall r z0 z1 deg p, 0 < r -> 0 <= deg <= 360 -> z0 <= z1 ->
  on_cylinder r z0 z1 deg p <-> exists u v, 0 <= u <= 1 /\ 0 <= v <= 1 /\ p = cylinder_surface r z0 z1 deg u v.
Proof.
  intros r z0 z1 deg p P D Z. pose proof (to_radians_range deg D) as F. split.
  - intros (L & Zp & phi & Rp & Ex & Ey). destruct (interpolate 0 (to_radians deg) phi Rp) as (u & Ru & Eu). destruct (interpolate z0 z1 (vz p) Zp) as (v & Rv & Ev). exists u, v. split; [exact Ru|]. split; [exact Rv|].
    unfold cylinder_surface. replace (u * to_radians deg) with phi by lra. rewrite <- Ex, <- Ey, <- Ev. destruct p; reflexivity.
  - intros (u & v & Ru & Rv & ->). unfold on_cylinder, cylinder_surface. cbn [vx vy vz]. split.
    + pose proof (sin2_cos2 (u * to_radians deg)) as T. unfold Rsqr in T. transitivity (r * r * (sin (u * to_radians deg) * sin (u * to_radians deg) + cos (u * to_radians deg) * cos (u * to_radians deg))); [ring|rewrite T; ring].
    + split; [nra|]. exists (u * to_radians deg). split; [nra|]. split; reflexivity.
Qed.
Lemma cylinder_element r z0 z1 deg u v : 0 < r -> 0 <= deg <= 360 -> z0 <= z1 -> vlen (vcross (cylinder_du r z0 z1 deg u v) (mkV 0 0 (z1 - z0))) = to_radians deg * (z1 - z0) * r.
Proof.
  intros P D Z. pose proof (to_radians_range deg D) as F. unfold vlen, cylinder_du, cylinder_surface, vcross, vlen2. cbn [vx vy vz]. set (f := to_radians deg) in *. set (l := z1 - z0) in *. pose proof (sin2_cos2 (u * f)) as T. unfold Rsqr in T.
  match goal with |- sqrt ?x = _ => replace x with (f * l * r * (f * l * r) * (sin (u * f) * sin (u * f) + cos (u * f) * cos (u * f))) by ring end. rewrite T, Rmult_1_r. apply sqrt_square. apply Rmult_le_pos; [apply Rmult_le_pos|]; unfold l; lra.
Qed.
Theorem C100_area : forall r z0 z1 deg t c, 0 < r -> 0 <= deg <= 360 -> cylinder_new_transformed r z0 z1 deg t = Ok c -> has_area (cylinder_surface r z0 z1 deg) (cylinder_area c).
Proof.
  intros r z0 z1 deg tr c P D M du dv Hu Hv. apply cylinder_is_made in M; auto. destruct M as (Zz & ->). unfold cylinder_area. cbn [c_zmax c_zmin c_radius c_phi_max]. set (A := (z1 - z0) * r * to_radians deg).
  assert (Cst : is_RInt (fun _ : R => A) 0 1 A) by (pose proof (is_RInt_const 0 1 A) as Q; change (scal (1 - 0) A) with ((1 - 0) * A) in Q; replace ((1 - 0) * A) with A in Q by ring; exact Q).
  apply is_RInt_ext with (f := fun _ => A); [|exact Cst]. intros u _. symmetry. apply is_RInt_unique. apply is_RInt_ext with (f := fun _ => A); [|exact Cst].
  intros v _. rewrite (along_u_unique _ _ _ _ _ (Hu u v) (cylinder_along_u r z0 z1 deg u v)), (along_v_unique _ _ _ _ _ (Hv u v) (cylinder_along_v r z0 z1 deg u v)). rewrite cylinder_element by assumption. assert (EA : A = to_radians deg * (z1 - z0) * r) by (unfold A; ring). exact EA.
Qed.
(** What is told about a point that has been hit.  The front of a cylinder is its inside, although that of a sphere is its outside. *)
Theorem C100_info : forall r z0 z1 deg t c ray p phi, 0 < r -> 0 <= deg <= 360 -> cylinder_new_transformed r z0 z1 deg t = Ok c ->
  0 < across (direction ray) -> cylinder_basic_intersection c ray = Hit (p, phi) ->
  exists u v dpdu dpdv, 0 <= u <= 1 /\ 0 <= v <= 1 /\ p = cylinder_surface r z0 z1 deg u v /\
    along_u (cylinder_surface r z0 z1 deg) u v dpdu /\ along_v (cylinder_surface r z0 z1 deg) u v dpdv /\
    (vlen (vcross dpdu dpdv) <= 1 / 10 ^ 10 -> cylinder_intersect_local_ray c ray = Panic) /\
    (1 / 10 ^ 10 < vlen (vcross dpdu dpdv) -> exists normal side, cylinder_intersect_local_ray c ray = Ok (Hit (mkInfo p normal side dpdu dpdv)) /\
      sees (mkV (- vx p / r) (- vy p / r) 0) (direction ray) normal side).
Proof.
  intros r z0 z1 deg tr c ray p phi P D M V H. pose proof (C100_hit r z0 z1 deg tr c ray p phi P D M V H) as (k & _ & _ & On & _). pose proof (proj1 On) as L. apply cylinder_is_made in M; auto. destruct M as (Zz & ->).
  pose proof (to_radians_range deg D) as F. apply C100_surface in On; auto. destruct On as (u & v & Ru & Rv & Ep). exists u, v, (cylinder_du r z0 z1 deg u v), (mkV 0 0 (z1 - z0)). split; [exact Ru|]. split; [exact Rv|]. split; [exact Ep|].
  split; [apply cylinder_along_u|]. split; [apply cylinder_along_v|]. rewrite cylinder_element by assumption.
  set (out := mkV (- vx p) (- vy p) 0). assert (Lo : vlen out = r) by (apply vlen_radius; [exact P|]; unfold out, vlen2; cbn [vx vy vz]; lra).
  assert (I : cylinder_intersect_local_ray (mkCylinder r z0 z1 (to_radians deg) tr) ray =
    do n <- vnormalize (vscale out (to_radians deg * (z1 - z0))); let '(n', side) := get_side n (direction ray) in Ok (Hit (mkInfo p n' side (cylinder_du r z0 z1 deg u v) (mkV 0 0 (z1 - z0))))).
  { unfold cylinder_intersect_local_ray. rewrite H. cbn [on_hit]. unfold cylinder_info, info_new. cbn [c_phi_max c_zmax c_zmin].
    assert (E1 : mkV (- to_radians deg * vy p) (to_radians deg * vx p) 0 = cylinder_du r z0 z1 deg u v) by (rewrite Ep; reflexivity). rewrite E1.
    replace (vcross (mkV 0 0 (z1 - z0)) (cylinder_du r z0 z1 deg u v)) with (vscale out (to_radians deg * (z1 - z0))) by (rewrite <- E1; unfold out, vcross, vscale; cbn [vx vy vz]; apply V3_eq; cbn [vx vy vz]; ring).
    destruct (vnormalize _) as [n| |]; cbn [bind]; [destruct (get_side n (direction ray))| |]; reflexivity. }
  assert (K : 0 <= to_radians deg * (z1 - z0)) by (apply Rmult_le_pos; lra). destruct (vnormalize_scaled out _ r K P Lo) as (N1 & N2). set (q := to_radians deg * (z1 - z0)) in *.
  assert (Q : 0 <= q * r) by (apply Rmult_le_pos; lra). rewrite I. split; intros B.
  - rewrite N2; [reflexivity|]. replace (1 / 10 ^ 20) with (1 / 10 ^ 10 * (1 / 10 ^ 10)) by field. apply Rmult_le_compat; assumption.
  - rewrite N1; [|replace (1 / 10 ^ 20) with (1 / 10 ^ 10 * (1 / 10 ^ 10)) by field; apply Rmult_le_0_lt_compat; lra]. cbn [bind].
    replace (vscale out (1 / r)) with (mkV (- vx p / r) (- vy p / r) 0) by (unfold out, vscale; cbn [vx vy vz]; apply V3_eq; cbn [vx vy vz]; field; lra).
    pose proof (get_side_sees (mkV (- vx p / r) (- vy p / r) 0) (direction ray)) as S. destruct (get_side _ _) as (n' & side). exists n', side. split; [reflexivity|exact S].
Qed.
Theorem C100_bounds : forall r z0 z1 deg t c p, 0 < r -> 0 <= deg <= 360 -> cylinder_new_transformed r z0 z1 deg t = Ok c -> on_cylinder r z0 z1 deg p ->
  let b := cylinder_bounds c in vx (bmin b) <= vx p <= vx (bmax b) /\ vy (bmin b) <= vy p <= vy (bmax b) /\ vz (bmin b) <= vz p <= vz (bmax b).
Proof.
  intros r z0 z1 deg tr c p P D M (L & Z & _). apply cylinder_is_made in M; auto. destruct M as (_ & ->). cbn. pose proof (Rle_0_sqr (vx p)). pose proof (Rle_0_sqr (vy p)). unfold Rsqr in *. repeat split; try apply Z; nra.
Qed.

(** *** Cylinders in the world *)

Lemma cylinder_new_ok r l t : 0 <= l -> exists c, cylinder_new_transformed r 0 l 360 t = Ok c.
Proof.
  intros L. unfold cylinder_new_transformed. destruct (Rltb_spec l 0); [lra|]. assert (0 < eps64) by (unfold eps64; apply Rinv_0_lt_compat; lra).
  rewrite (proj2 (Rleb_true _ _)), (proj2 (Rleb_true _ _)) by lra. cbn [andb negb]. rewrite clamp_in by lra. cbn [bind]. eauto.
Qed.
Lemma there_and_back x : to_radians (to_degrees x) = x.
Proof. unfold to_radians, to_degrees. pose proof PI_RGT_0. field. lra. Qed.
Lemma atan2_zero x : 0 <= x -> atan2 0 x = 0.
Proof.
  intros H. unfold atan2. destruct (Rltb_spec 0 x); [unfold Rdiv; rewrite Rmult_0_l; apply atan_0|]. destruct (Rltb_spec x 0); [lra|]. destruct (Rltb_spec 0 0); [lra|]. reflexivity.
Qed.
Lemma atan2_right x : 0 < x -> atan2 x 0 = PI / 2.
Proof. intros H. unfold atan2. destruct (Rltb_spec 0 0); [lra|]. destruct (Rltb_spec 0 x); [reflexivity|lra]. Qed.
Lemma whole_turn r z0 z1 p : 0 < r -> vx p * vx p + vy p * vy p = r * r -> z0 <= vz p <= z1 -> on_cylinder r z0 z1 360 p.
Proof.
  intros P L Z. split; [exact L|]. split; [exact Z|]. assert (X : vx p <> 0 \/ vy p <> 0) by (destruct (Req_dec (vx p) 0) as [E|]; [right; intros E'; rewrite E, E' in L; nra|auto]).
  destruct (longitude_polar _ _ X) as (Lo & Lx & Ly). rewrite L in Lx, Ly. rewrite sqrt_square in Lx, Ly by lra. exists (longitude (vy p) (vx p)). split; [|split; assumption].
  replace (to_radians 360) with (2 * PI) by (unfold to_radians; field). lra.
Qed.
Definition on_upright (p0 : pt) (l r : R) (p : pt) : Prop := (vx p - vx p0) ^ 2 + (vy p - vy p0) ^ 2 = r ^ 2 /\ vz p0 <= vz p <= vz p0 + l.
(** A ray meets an upright cylinder at the first point in front of it that is as far from the axis as it should and between its ends. *)
Theorem C100_upright : forall p0 l r, 0 < r -> 0 < l -> exists c, cylinder_new p0 (vadd p0 (mkV 0 0 l)) r = Ok c /\ cylinder_area c = 2 * PI * r * l /\
  forall ray, 0 < across (direction ray) ->
  (forall p, cylinder_simple_intersect c ray = Hit p -> exists k, 0 < k /\ p = project ray k /\ on_upright p0 l r p /\ forall k', 0 < k' < k -> ~ on_upright p0 l r (project ray k')) /\
  (cylinder_simple_intersect c ray = Miss -> forall k, 0 < k -> ~ on_upright p0 l r (project ray k)).
Proof.
  intros p0 l r P L. unfold cylinder_new, cylinder_new_partial. replace (vsub (vadd p0 (mkV 0 0 l)) p0) with (mkV 0 0 l) by (unfold vsub, vadd; cbn; apply V3_eq; cbn; ring). cbv iota zeta beta.
  replace (sqrt (0 * 0 + 0 * 0)) with 0 by (replace (0 * 0 + 0 * 0) with 0 by ring; symmetry; apply sqrt_0). rewrite !atan2_zero by lra.
  replace (vlen (mkV 0 0 l)) with l by (unfold vlen, vlen2; cbn; replace (0 * 0 + 0 * 0 + l * l) with (l * l) by ring; symmetry; apply sqrt_square; lra).
  set (t := mul_assign _ _). destruct (cylinder_new_ok r l (Some t) ltac:(lra)) as (c & E). rewrite E. exists c. split; [reflexivity|]. pose proof (cylinder_is_made r 0 l 360 (Some t) c ltac:(lra) E) as (_ & Ec).
  split; [rewrite Ec; unfold cylinder_area, to_radians; cbn; field|]. intros ray V. set (on := on_upright p0 l r).
  assert (Z : to_radians (to_degrees 0) = 0) by apply there_and_back.
  assert (Tp : forall p, transform_pt t p = vadd p p0).
  { intros p. unfold t, transform_pt, mul4x4point, mul_assign, rotate_y, rotate_z. rewrite Z, cos_0, sin_0. unfold vdiv, vadd. cbn. apply V3_eq; cbn; field. }
  assert (Tr : forall k, project (inv_transform_ray t ray) k = vsub (project ray k) p0).
  { intros k. unfold t, inv_transform_ray, inv_transform_pt, inv_transform_vec, mul4x4point, mul4x4vec, mul_assign, rotate_y, rotate_z. rewrite Z, cos_0, sin_0. unfold vdiv, vadd, vsub, project, vscale. cbn. apply V3_eq; cbn; field. }
  assert (Td : direction (inv_transform_ray t ray) = direction ray).
  { unfold t, inv_transform_ray, inv_transform_vec, mul4x4vec, mul_assign, rotate_y, rotate_z. rewrite Z, cos_0, sin_0. cbn. destruct (direction ray). cbn. apply V3_eq; cbn; ring. }
  assert (On : forall p, on p <-> on_cylinder r 0 l 360 (vsub p p0)).
  { intros p. unfold on, on_upright. split.
    - intros (H1 & H2). apply whole_turn; [exact P| |]; unfold vsub; cbn [vx vy vz]; [|lra]. rewrite <- !Rsqr_pow2 in H1. exact H1.
    - intros (H1 & H2 & _). unfold vsub in H1, H2. cbn [vx vy vz] in H1, H2. rewrite <- !Rsqr_pow2. split; [exact H1|lra]. }
  unfold cylinder_simple_intersect, world_simple_intersect. replace (c_transform c) with (Some t) by (rewrite Ec; reflexivity). cbn [world_ray]. rewrite <- Td in V. split.
  - intros p H. destruct (cylinder_basic_intersection c (inv_transform_ray t ray)) as [|(q & phi)|] eqn:B; try discriminate. cbn [map_hit fst] in H. assert (Ep : transform_pt t q = p) by congruence. clear H.
    destruct (C100_hit r 0 l 360 _ c _ q phi P ltac:(lra) E V B) as (k & K & Eq & O & _ & _ & _ & First). exists k. split; [exact K|]. rewrite Tp in Ep.
    assert (Epk : p = project ray k) by (rewrite <- Ep, Eq, Tr; unfold vadd, vsub; apply V3_eq; cbn; ring). split; [exact Epk|]. split.
    + apply On. rewrite Epk, <- Tr, <- Eq. exact O.
    + intros k' K' O'. apply (First k' K'). rewrite Tr. apply On. exact O'.
  - intros H k K O. destruct (cylinder_basic_intersection c (inv_transform_ray t ray)) as [|(q & phi)|] eqn:B; try discriminate.
    apply (C100_miss r 0 l 360 _ c _ P ltac:(lra) E V B k K). rewrite Tr. apply On. exact O.
Qed.
(** Other cylinders are not where they should be: the point where a ray meets the cylinder from the origin to (0, 1, 0) is not on the ray ... *)
Theorem C100_world_refuted : exists c ray p, cylinder_new (mkV 0 0 0) (mkV 0 1 0) (1 / 4) = Ok c /\ 0 < across (direction ray) /\ cylinder_simple_intersect c ray = Hit p /\ forall k, p <> project ray k.
Proof.
  unfold cylinder_new, cylinder_new_partial. replace (vsub (mkV 0 1 0) (mkV 0 0 0)) with (mkV 0 1 0) by (unfold vsub; cbn; apply V3_eq; cbn; ring). cbv iota zeta beta.
  replace (sqrt (0 * 0 + 1 * 1)) with 1 by (replace (0 * 0 + 1 * 1) with (1 * 1) by ring; symmetry; apply sqrt_square; lra). rewrite !atan2_right by lra.
  replace (vlen (mkV 0 1 0)) with 1 by (unfold vlen, vlen2; cbn; replace (0 * 0 + 1 * 1 + 0 * 0) with (1 * 1) by ring; symmetry; apply sqrt_square; lra).
  set (t := mul_assign _ _). destruct (cylinder_new_ok (1 / 4) 1 (Some t) ltac:(lra)) as (c & E). rewrite E. exists c, (mkRay (mkV 3 (1 / 2) 0) (mkV (-1) 0 0)), (mkV (1 / 2) 0 (- (1 / 4))).
  split; [reflexivity|]. split; [unfold across; cbn; lra|]. pose proof (cylinder_is_made _ 0 1 360 (Some t) c ltac:(lra) E) as (_ & Ec).
  assert (Z : to_radians (to_degrees (PI / 2)) = PI / 2) by apply there_and_back.
  assert (Tp : forall x y z, transform_pt t (mkV x y z) = mkV z x y).
  { intros. unfold t, transform_pt, mul4x4point, mul_assign, rotate_y, rotate_z. rewrite Z, cos_PI2, sin_PI2. unfold vdiv. cbn. apply V3_eq; cbn; field. }
  split; [|intros k H; apply (f_equal vy) in H; unfold project, vadd, vscale in H; cbn in H; lra].
  unfold cylinder_simple_intersect, world_simple_intersect. replace (c_transform c) with (Some t) by (rewrite Ec; reflexivity). cbn [world_ray].
  replace (inv_transform_ray t (mkRay (mkV 3 (1 / 2) 0) (mkV (-1) 0 0))) with (mkRay (mkV 0 (-3) (1 / 2)) (mkV 0 1 0)).
  2:{ unfold t, inv_transform_ray, inv_transform_pt, inv_transform_vec, mul4x4point, mul4x4vec, mul_assign, rotate_y, rotate_z. rewrite Z, cos_PI2, sin_PI2. unfold vdiv. cbn. f_equal; apply V3_eq; cbn; field. }
  set (ray := mkRay (mkV 0 (-3) (1 / 2)) (mkV 0 1 0)). assert (V : 0 < across (direction ray)) by (unfold across; cbn; lra).
  assert (L : forall k, on_cylinder (1 / 4) 0 1 360 (project ray k) <-> k = 11 / 4 \/ k = 13 / 4).
  { intros k. split.
    - intros (Q & _). unfold project, vadd, vscale in Q. cbn in Q. assert (W : (k - 11 / 4) * (k - 13 / 4) = 0) by lra. apply Rmult_integral in W. lra.
    - intros H. apply whole_turn; [lra| |]; unfold project, vadd, vscale; cbn; [|lra]. destruct H as [ -> | -> ]; field. }
  destruct (cylinder_basic_intersection c ray) as [|(q & phi)|] eqn:B.
  - exfalso. apply (C100_miss (1 / 4) 0 1 360 _ c ray ltac:(lra) ltac:(lra) E V B (11 / 4)); [lra|]. apply L. auto.
  - destruct (C100_hit (1 / 4) 0 1 360 _ c ray q phi ltac:(lra) ltac:(lra) E V B) as (k & K & Eq & O & _ & _ & _ & First). rewrite Eq in O. apply L in O. assert (Ek : k = 11 / 4).
    { destruct O as [ -> | -> ]; [reflexivity|]. exfalso. apply (First (11 / 4)); [lra|]. apply L. auto. }
    cbn [map_hit fst]. rewrite Eq, Ek. unfold project, vadd, vscale. cbn. rewrite Tp. f_equal. apply V3_eq; cbn; field.
  - exfalso. apply (C100_tangent (1 / 4) 0 1 360 (Some t) c ray) in B; auto; try lra. destruct B as (B & _). cbn in B. lra.
Qed.
(** ... and a ray that is aimed at the middle of the cylinder from (1, 0, 0) to (2, 0, 0) misses it. *)
Theorem C100_moved_refuted : exists c ray, cylinder_new (mkV 1 0 0) (mkV 2 0 0) (1 / 4) = Ok c /\ ray = mkRay (mkV (3 / 2) 0 3) (mkV 0 0 (-1)) /\ cylinder_simple_intersect c ray = Miss.
Proof.
  unfold cylinder_new, cylinder_new_partial. replace (vsub (mkV 2 0 0) (mkV 1 0 0)) with (mkV 1 0 0) by (unfold vsub; cbn; apply V3_eq; cbn; ring). cbv iota zeta beta.
  replace (sqrt (1 * 1 + 0 * 0)) with 1 by (replace (1 * 1 + 0 * 0) with (1 * 1) by ring; symmetry; apply sqrt_square; lra). rewrite !atan2_right, atan2_zero by lra.
  replace (vlen (mkV 1 0 0)) with 1 by (unfold vlen, vlen2; cbn; replace (1 * 1 + 0 * 0 + 0 * 0) with (1 * 1) by ring; symmetry; apply sqrt_square; lra).
  set (t := mul_assign _ _). destruct (cylinder_new_ok (1 / 4) 1 (Some t) ltac:(lra)) as (c & E). rewrite E. exists c, (mkRay (mkV (3 / 2) 0 3) (mkV 0 0 (-1))).
  split; [reflexivity|]. split; [reflexivity|]. pose proof (cylinder_is_made _ 0 1 360 (Some t) c ltac:(lra) E) as (_ & Ec).
  assert (Z : to_radians (to_degrees (PI / 2)) = PI / 2) by apply there_and_back. assert (Z0 : to_radians (to_degrees 0) = 0) by apply there_and_back.
  unfold cylinder_simple_intersect, world_simple_intersect. replace (c_transform c) with (Some t) by (rewrite Ec; reflexivity). cbn [world_ray].
  replace (inv_transform_ray t (mkRay (mkV (3 / 2) 0 3) (mkV 0 0 (-1)))) with (mkRay (mkV (-4) 0 (3 / 2)) (mkV 1 0 0)).
  2:{ unfold t, inv_transform_ray, inv_transform_pt, inv_transform_vec, mul4x4point, mul4x4vec, mul_assign, rotate_y, rotate_z. rewrite Z, Z0, cos_PI2, sin_PI2, cos_0, sin_0. unfold vdiv. cbn. f_equal; apply V3_eq; cbn; field. }
  set (ray := mkRay (mkV (-4) 0 (3 / 2)) (mkV 1 0 0)). assert (V : 0 < across (direction ray)) by (unfold across; cbn; lra).
  destruct (cylinder_basic_intersection c ray) as [|(q & phi)|] eqn:B.
  - reflexivity.
  - exfalso. destruct (C100_hit (1 / 4) 0 1 360 _ c ray q phi ltac:(lra) ltac:(lra) E V B) as (k & K & Eq & (_ & O & _) & _). rewrite Eq in O. unfold project, vadd, vscale in O. cbn in O. lra.
  - exfalso. apply (C100_tangent (1 / 4) 0 1 360 (Some t) c ray) in B; auto; try lra. destruct B as (B & _). cbn in B. lra.
Qed.
(** Half a cylinder that meets the hypotheses of the theorems: the ray passes through the half that is missing and hits the other half from the inside. *)
Example C100_example : exists c p phi, cylinder_new_transformed 1 0 2 180 None = Ok c /\ cylinder_area c = 2 * PI /\
  cylinder_basic_intersection c (mkRay (mkV (-3 / 5) (-3) 1) (mkV 0 1 0)) = Hit (p, phi) /\ p = mkV (-3 / 5) (4 / 5) 1.
Proof.
  set (ray := mkRay (mkV (-3 / 5) (-3) 1) (mkV 0 1 0)). set (c := mkCylinder 1 0 2 (to_radians 180) None). exists c.
  assert (E : cylinder_new_transformed 1 0 2 180 None = Ok c).
  { unfold cylinder_new_transformed. destruct (Rltb_spec 2 0); [lra|]. assert (0 < eps64) by (unfold eps64; apply Rinv_0_lt_compat; lra).
    rewrite (proj2 (Rleb_true _ _)), (proj2 (Rleb_true _ _)) by lra. cbn [andb negb]. rewrite clamp_in by lra. reflexivity. }
  assert (V : 0 < across (direction ray)) by (unfold across; cbn; lra). assert (Tr : to_radians 180 = PI) by (unfold to_radians; field).
  assert (L : forall k, on_cylinder 1 0 2 180 (project ray k) <-> k = 19 / 5).
  { intros k. split.
    - intros (Q & _ & phi & Rp & _ & Ey). unfold project, vadd, vscale in Q, Ey. cbn in Q, Ey. assert (W : (k - 11 / 5) * (k - 19 / 5) = 0) by lra. apply Rmult_integral in W.
      rewrite Tr in Rp. assert (0 <= sin phi) by (apply sin_ge_0; lra). lra.
    - intros ->. unfold on_cylinder, project, vadd, vscale. cbn. split; [field|]. split; [lra|]. exists (acos (-3 / 5)). rewrite Tr. pose proof (acos_bound (-3 / 5)). rewrite cos_acos, sin_acos by lra.
      split; [lra|]. split; [field|]. unfold Rsqr. replace (1 - -3 / 5 * (-3 / 5)) with (4 / 5 * (4 / 5)) by field. rewrite sqrt_square; lra. }
  destruct (cylinder_basic_intersection c ray) as [|(p & phi)|] eqn:B.
  - exfalso. apply (C100_miss 1 0 2 180 None c ray ltac:(lra) ltac:(lra) E V B (19 / 5)); [lra|]. apply L. reflexivity.
  - exists p, phi. split; [exact E|]. split; [unfold cylinder_area, c; cbn [c_zmax c_zmin c_radius c_phi_max]; rewrite Tr; ring|]. split; [reflexivity|].
    destruct (C100_hit 1 0 2 180 None c ray p phi ltac:(lra) ltac:(lra) E V B) as (k & K & -> & O & _). apply L in O. subst k. unfold project, vadd, vscale. cbn. apply V3_eq; cbn; field.
  - exfalso. apply (C100_tangent 1 0 2 180 None c ray) in B; auto; try lra. destruct B as (B & _). cbn in B. lra.
Qed.

(** C103: lamps that are spheres or cylinders *)
From Coquelicot Require Import Coquelicot.
From Coq Require Import Reals List Bool Arith Lra Lia Psatz.
From Verif.Common Require Import Base Flt.
From Verif.Geometry Require Import Vec BBoxModel TransformModel TriangleModel TriangleProofs GeomProofs ShapesModel ShapesProofs.
From Verif.Rendering Require Import BvhModel BvhProofs SamplersModel DaylightModel MaterialModel SceneModel RayTracerModel SphereMeshModel SphereMeshProofs.
From Verif.Properties Require Import SamplersProps TriangleProps BvhProps DaylightProps MaterialProps SceneProps RayTracerProps ShapesProps SphereMeshProps CylinderProps BvhProps.
Import ListNotations.
Open Scope R_scope.

(** A whole sphere of radius [r] around [c], as [Sphere3D::new] makes it *)
Definition ball (r : R) (c : pt) (s : Sphere) : Prop := 0 < r /\ sphere_new r c = Ok s /\ (c = mkV 0 0 0 \/ vis_zero c = false).

Lemma ball_spec r c s : ball r c s -> s_radius s = r /\ sphere_centre s = c /\ forall ray, 0 < vlen2 (direction ray) ->
  (forall p, sphere_simple_intersect s ray = Hit p -> exists k, 0 < k /\ vlen (vsub (project ray k) c) = r /\ (forall k', 0 < k' < k -> vlen (vsub (project ray k') c) <> r) /\
    (~ near_pole r (vsub (project ray k) c) -> p = project ray k) /\
    (near_pole r (vsub (project ray k) c) -> p = mkV (vx c + r / 10 ^ 5) (vy (project ray k)) (vz (project ray k)))) /\
  (sphere_simple_intersect s ray = Miss -> forall k, 0 < k -> vlen (vsub (project ray k) c) <> r) /\
  (sphere_simple_intersect s ray = NotANumber <-> vlen (vsub (origin ray) c) = r /\ vdot (vsub (origin ray) c) (direction ray) = 0).
Proof.
  intros (P & E & C). destruct (C99_whole r c P C) as (s' & E' & Ce & _ & H). rewrite E in E'. injection E' as <-.
  destruct (sphere_new_made r c P) as (s' & E' & M). rewrite E in E'. injection E' as <-. split; [exact (made_radius _ _ _ _ _ _ M)|]. split; [exact Ce|exact H].
Qed.

(** The square of the distance to [c] along a ray *)
Lemma along p d c k : vlen2 d = 1 -> vlen2 (vsub (project (mkRay p d) k) c) = k * k + 2 * k * vdot (vsub p c) d + vlen2 (vsub p c).
Proof.
  intros U. transitivity (vlen2 d * (k * k) + 2 * k * vdot (vsub p c) d + vlen2 (vsub p c)); [|rewrite U; ring]. unfold project, vlen2, vdot, vsub, vadd, vscale. cbn [origin direction vx vy vz]. ring.
Qed.
Lemma vlen_iff v r : 0 <= r -> vlen v = r <-> vlen2 v = r * r.
Proof.
  intros P. rewrite <- vlen_sqr. pose proof (vlen_nonneg v) as N. split; [intros ->; ring|]. intros H. nra.
Qed.
Lemma unit2 d : vlen d = 1 -> vlen2 d = 1.
Proof. intros H. rewrite <- vlen_sqr, H. ring. Qed.

Lemma vlen_triangle a b : vlen (vadd a b) <= vlen a + vlen b.
Proof.
  pose proof (lagrange a b) as Lg. pose proof (vlen2_nonneg (vcross a b)) as N. pose proof (vlen_nonneg a) as A. pose proof (vlen_nonneg b) as B. pose proof (vlen_nonneg (vadd a b)) as C.
  assert (Q : vlen2 (vadd a b) = vlen2 a + vlen2 b + 2 * vdot a b) by (unfold vlen2, vdot, vadd; cbn [vx vy vz]; ring).
  pose proof (vlen_sqr a). pose proof (vlen_sqr b). pose proof (vlen_sqr (vadd a b)). set (x := vlen a) in *. set (y := vlen b) in *. set (z := vlen (vadd a b)) in *.
  assert (Dt : vdot a b <= x * y). { destruct (Rle_lt_dec (vdot a b) (x * y)) as [|Z]; [assumption|exfalso]. assert (0 <= x * y) by (apply Rmult_le_pos; assumption). assert ((x * y) * (x * y) < vdot a b * vdot a b) by (apply Rmult_le_0_lt_compat; assumption). nra. }
  destruct (Rle_lt_dec z (x + y)) as [|Z]; [assumption|exfalso]. nra.
Qed.
(** A ray that comes to within [r] of the centre hits, and not later if it starts outside. *)
Lemma inside_hits r c s p d k0 : ball r c s -> vlen d = 1 -> 0 <= k0 -> vlen (vsub (project (mkRay p d) k0) c) < r ->
  exists q k, sphere_simple_intersect s (mkRay p d) = Hit q /\ 0 < k /\ vlen (vsub (project (mkRay p d) k) c) = r /\
    (forall k', 0 < k' < k -> vlen (vsub (project (mkRay p d) k') c) <> r) /\ (~ near_pole r (vsub (project (mkRay p d) k) c) -> q = project (mkRay p d) k) /\
    (near_pole r (vsub (project (mkRay p d) k) c) -> q = mkV (vx c + r / 10 ^ 5) (vy (project (mkRay p d) k)) (vz (project (mkRay p d) k))) /\
    (r < vlen (vsub p c) -> k < k0).
Proof.
  intros B U K0 In. pose proof (unit2 d U) as U2. assert (P : 0 < r) by apply B. destruct (ball_spec r c s B) as (_ & _ & H). set (ray := mkRay p d) in *.
  assert (V : 0 < vlen2 (direction ray)) by (cbn [ray direction]; lra). destruct (H ray V) as (H1 & H2 & H3). clear H.
  set (b := vdot (vsub p c) d) in *. set (m2 := vlen2 (vsub p c)) in *.
  assert (F : forall k, vlen2 (vsub (project ray k) c) = k * k + 2 * k * b + m2) by (intros; unfold ray; apply along; exact U2).
  assert (I2 : k0 * k0 + 2 * k0 * b + m2 < r * r). { rewrite <- F, <- vlen_sqr. pose proof (vlen_nonneg (vsub (project ray k0) c)). nra. }
  set (D := b * b - m2 + r * r). assert (D0 : (k0 + b) * (k0 + b) < D) by (unfold D; nra).
  assert (Dp : 0 < D) by (pose proof (Rle_0_sqr (k0 + b)) as Z; unfold Rsqr in Z; lra). pose proof (sqrt_sqrt D ltac:(lra)) as Q. assert (Qp : 0 < sqrt D) by (apply sqrt_lt_R0; exact Dp). set (q := sqrt D) in *.
  assert (K2 : k0 < - b + q) by nra. assert (K1 : - b - q < k0) by nra.
  assert (On : forall k, k = - b + q \/ k = - b - q -> vlen (vsub (project ray k) c) = r).
  { intros k [ -> | -> ]; apply vlen_iff; try lra; rewrite F; unfold D in Q; nra. }
  destruct (sphere_simple_intersect s ray) as [|h|] eqn:E.
  - exfalso. apply (H2 eq_refl (- b + q)); [lra|]. apply On. auto.
  - destruct (H1 h eq_refl) as (k & Kp & Lk & First & Far & Near). exists h, k. repeat (split; [first [reflexivity|assumption]|]). intros Out.
    destruct (Rlt_le_dec k k0) as [Z|Z]; [exact Z|exfalso]. assert (M2 : r * r < m2). { unfold m2. rewrite <- vlen_sqr. nra. }
    assert (Pr : (- b + q) * (- b - q) = m2 - r * r) by (unfold D in Q; nra).
    assert (0 < - b - q) by nra. apply (First (- b - q)); [lra|]. apply On. auto.
  - exfalso. destruct (proj1 H3 eq_refl) as (L & Z). unfold ray in L, Z. cbn [origin direction] in L, Z. fold b in Z. apply vlen_iff in L; [|lra]. fold m2 in L. rewrite Z, L in I2. nra.
Qed.

(** What is known about a point that has been hit away from the poles *)
Lemma ball_info r c s ray p : ball r c s -> 1 / 1000 <= r -> 0 < vlen2 (direction ray) -> sphere_simple_intersect s ray = Hit p -> vlen (vsub p c) = r ->
  exists info, primitive_intersect (PSphere s) ray = Ok (Some info) /\ i_p info = p /\
    ((i_side info = Front /\ vdot (vsub p c) (direction ray) < 0) \/ (i_side info = Back /\ 0 < vdot (vsub p c) (direction ray)) \/ (i_side info = NonApplicable /\ vdot (vsub p c) (direction ray) = 0)).
Proof.
  intros (P & E & C) Rr V H L. destruct (sphere_new_made r c P) as (s' & E' & M). rewrite E in E'. injection E' as <-. pose proof (made_transform _ _ _ _ _ _ M) as Et.
  assert (Z : vis_zero (mkV 0 0 0) = true) by (unfold vis_zero; cbn; rewrite !Rabs_R0; assert (0 < eps64) by (unfold eps64; apply Rinv_0_lt_compat; lra); rewrite (proj2 (Rltb_true _ _)) by lra; reflexivity).
  assert (W : direction (world_ray (s_transform s) ray) = direction ray /\ forall q, match s_transform s with Some t => transform_pt t q | None => q end = vadd q c).
  { unfold world_ray. rewrite Et. destruct C as [ -> | C].
    - rewrite Z. cbn [negb]. split; [reflexivity|]. intros q. unfold vadd. destruct q. apply V3_eq; cbn; ring.
    - rewrite C. cbn [negb]. split; [apply inv_translated_dir|intros; apply translated_pt]. }
  destruct W as (W1 & W2). unfold sphere_simple_intersect, world_simple_intersect in H. set (lray := world_ray (s_transform s) ray) in *.
  destruct (sphere_basic_intersection s lray) as [|(q & phi)|] eqn:B; try discriminate. cbn [map_hit fst] in H. rewrite W2 in H. injection H as <-.
  assert (Eq : vsub (vadd q c) c = q) by (unfold vsub, vadd; destruct q; apply V3_eq; cbn; ring). rewrite Eq in *.
  assert (V' : 0 < vlen2 (direction lray)) by (rewrite W1; exact V).
  destruct (C99_info r (-2 * r) (2 * r) 360 _ s lray q phi P ltac:(lra) ltac:(lra) ltac:(lra) E V' B L) as (u & v & du & dv & Ru & Rv & Ep & Au & Av & _ & Good).
  destruct (C99_hit r (-2 * r) (2 * r) 360 _ s lray q phi P ltac:(lra) ltac:(lra) ltac:(lra) E V' B) as (k & K & Lk & Far & Near & _).
  assert (Nn : ~ near_pole r q).
  { destruct (near_pole_dec r (project lray k)) as [N|N]; [|destruct (Far N) as (-> & _); exact N]. exfalso.
    destruct (Near N) as (Eqq & _). apply vlen_radius in Lk; [|exact P]. apply vlen_radius in L; [|exact P]. rewrite Eqq in L. unfold vlen2 in L, Lk. cbn [vx vy vz] in L.
    destruct N as (N & _). assert (Q : Rabs (vx (project lray k)) = r / 10 ^ 5).
    { rewrite <- (Rabs_right (r / 10 ^ 5)) by (apply Rle_ge, Rlt_le, Rdiv_lt_0_compat; lra). apply Rsqr_eq_abs_0. unfold Rsqr. lra. }
    lra. }
  destruct Good as (normal & side & Es & Se).
  { destruct (acos_cut _ _ _ _ _ _ M ltac:(lra) ltac:(lra)) as ((A0 & AB) & B1 & _). unfold sphere_surface in *.
    assert (Ea : acos (Rmin 1 (2 * r / r)) = 0) by (replace (2 * r / r) with 2 by (field; lra); rewrite Rmin_left by lra; apply acos_1).
    assert (Eb : acos (Rmax (-1) (-2 * r / r)) = PI). { replace (-2 * r / r) with (-2) by (field; lra). rewrite Rmax_left by lra. replace (-1) with (- (1)) by ring. rewrite acos_opp, acos_1. ring. }
    rewrite Ea, Eb in *. set (f := to_radians 360) in *.
    assert (F : f = 2 * PI) by (unfold f, to_radians; field). pose proof PI_RGT_0 as Pi. pose proof PI2_3_2 as Pi2.
    assert (Rw : 0 <= 0 + v * (PI - 0) <= PI) by nra. assert (Sw : 0 <= sin (0 + v * (PI - 0))) by (apply sin_ge_0; lra).
    rewrite (along_u_unique _ _ _ _ _ Au (sphere_along_u r f 0 PI u v)), (along_v_unique _ _ _ _ _ Av (sphere_along_v r f 0 PI u v)).
    rewrite (sphere_element r f 0 PI u v) by lra. rewrite F. set (sw := sin (0 + v * (PI - 0))) in *.
    assert (Sb : 1 / 10 ^ 5 <= sw).
    { destruct (Rle_lt_dec (1 / 10 ^ 5) sw) as [Q|Q]; [exact Q|exfalso]. apply Nn. unfold near_pole. rewrite Ep. unfold sphere_point. cbn [vx vy]. fold sw.
      assert (Bd : forall x, -1 <= x <= 1 -> Rabs (r * sw * x) < r / 10 ^ 5).
      { intros x X. assert (Y : Rabs x <= 1) by (apply Rabs_le; lra). rewrite !Rabs_mult, (Rabs_right r), (Rabs_right sw) by lra. pose proof (Rabs_pos x).
        apply Rle_lt_trans with (r * sw * 1); [apply Rmult_le_compat_l; [apply Rmult_le_pos; lra|exact Y]|]. replace (r / 10 ^ 5) with (r * (1 / 10 ^ 5)) by (field; lra). rewrite Rmult_1_r. apply Rmult_lt_compat_l; lra. }
      split; apply Bd; [apply COS_bound|apply SIN_bound]. }
    apply Rlt_le_trans with (2 * 3 * 3 * (1 / 1000 * (1 / 1000)) * (1 / 10 ^ 5)); [lra|]. apply Rmult_le_compat; try lra. apply Rmult_le_compat; try lra; [|nra]. nra. }
  unfold primitive_intersect, sphere_intersect, world_intersect. fold lray. rewrite Es. cbn [bind map_hit of_hit]. eexists. split; [reflexivity|].
  rewrite W1 in Se. assert (Sd : forall x, vdot (vscale q (1 / r)) x = 1 / r * vdot q x) by (intros; unfold vdot, vscale; cbn [vx vy vz]; ring). unfold sees in Se. rewrite Sd in Se.
  assert (I : 0 < 1 / r) by (apply Rdiv_lt_0_compat; lra). split.
  - rewrite <- W2. destruct (s_transform s); reflexivity.
  - replace (i_side _) with side by (destruct (s_transform s); reflexivity). destruct Se as [(-> & Q & _)|[(-> & Q & _)|(-> & Q & _)]]; [left|right; left|right; right]; (split; [reflexivity|]); nra.
Qed.

(** ** C103: the directions towards a lamp *)

(** Every direction that is drawn towards a lamp meets it, whatever the random numbers. *)
Theorem C103_drawn : forall G (gen : G -> R * G) r c s g point, ball r c s -> 1 / 10 ^ 5 < r -> r <= vlen (vsub point c) ->
  exists wi g' q k, light_sample_direction gen (PSphere s) g point = Ok (wi, g') /\ vlen wi = 1 /\ sphere_simple_intersect s (mkRay point wi) = Hit q /\
    0 < k /\ vlen (vsub (project (mkRay point wi) k) c) = r /\ (~ near_pole r (vsub (project (mkRay point wi) k) c) -> q = project (mkRay point wi) k).
Proof.
  intros G gen r c s g point B Rr Out. destruct (ball_spec r c s B) as (Er & Ec & _). unfold light_sample_direction. destruct (gen2 gen g) as [u0 g0]. destruct (gen2 gen g0) as [u g1]. cbn [bind].
  set (x := sample_sphere_surface s u).
  assert (X : vlen (vsub x c) = r * (1 - 1 / 10 ^ 5)).
  { unfold x, sample_sphere_surface. rewrite Er, Ec. pose proof (C42_sphere u) as L. set (p := uniform_sample_sphere u) in *. apply vlen_iff in L; [|lra].
    assert (P : 0 <= r * (1 - 1 / 10 ^ 5)) by (apply Rmult_le_pos; lra). apply vlen_iff; [exact P|]. set (t := r * (1 - 1 / 10 ^ 5)) in *.
    transitivity (t * t * vlen2 p); [unfold vlen2, vsub; cbn [vx vy vz]; ring|rewrite L; ring]. }
  assert (Tri : vlen (vsub point c) <= vlen (vsub x point) + vlen (vsub x c)).
  { replace (vsub point c) with (vadd (vneg (vsub x point)) (vsub x c)) by vring. eapply Rle_trans; [apply vlen_triangle|]. apply Rplus_le_compat_r. right. unfold vlen. f_equal. vring. }
  assert (Big : 1 / 10 ^ 10 < vlen (vsub x point)) by nra.
  assert (Big2 : 1 / 10 ^ 20 < vlen2 (vsub x point)). { rewrite <- vlen_sqr. replace (1 / 10 ^ 20) with (1 / 10 ^ 10 * (1 / 10 ^ 10)) by field. assert (0 < 1 / 10 ^ 10) by lra. apply Rmult_le_0_lt_compat; lra. }
  destruct (normalize_of _ Big2) as (-> & _ & U). cbn [bind].
  assert (Ex : project (mkRay point (unit_of (vsub x point))) (vlen (vsub x point)) = x).
  { unfold unit_of. set (l := vlen (vsub x point)) in *. assert (0 < l) by lra. unfold project. cbn [origin direction]. apply V3_eq; unfold vscale, vadd, vsub; cbn [vx vy vz]; field; lra. }
  destruct (inside_hits r c s point (unit_of (vsub x point)) (vlen (vsub x point)) B U) as (q & k & Hq & K & Lk & _ & Far & _ & _).
  - lra.
  - rewrite Ex, X. assert (0 < r) by lra. nra.
  - do 4 eexists. split; [reflexivity|]. split; [exact U|]. split; [exact Hq|]. split; [exact K|]. split; [exact Lk|exact Far].
Qed.

(** With one sample, the direction is that of the nearest point of the lamp, and the distance is its distance. *)
Theorem C103_nearest : forall r c s point, ball r c s -> r < vlen (vsub point c) -> let '(t, d) := sphere_direction s point in
  light_direction (PSphere s) point = Ok d /\ vlen d = 1 /\ 0 < t /\ vlen (vsub (project (mkRay point d) t) c) = r /\ (forall q, vlen (vsub q c) = r -> t <= vlen (vsub q point)) /\
  exists q, sphere_simple_intersect s (mkRay point d) = Hit q /\ (~ near_pole r (vsub (project (mkRay point d) t) c) -> q = project (mkRay point d) t).
Proof.
  intros r c s point B Out. destruct (ball_spec r c s B) as (Er & Ec & _). assert (P : 0 < r) by apply B. unfold light_direction. destruct (sphere_direction s point) as (t, d) eqn:Ed. cbn [snd]. split; [reflexivity|].
  unfold sphere_direction in Ed. rewrite Er, Ec in Ed. apply pair_equal_spec in Ed as (Et & Ed).
  assert (Sy : forall a b, vlen (vsub a b) = vlen (vsub b a)) by (intros; unfold vlen; f_equal; vring). set (D := vlen (vsub c point)) in *. assert (Dr : r < D) by (unfold D; rewrite Sy; exact Out).
  assert (D2 : vlen2 (vsub c point) = D * D) by (unfold D; symmetry; rewrite <- vlen_sqr; ring).
  assert (U2 : vlen2 d = 1) by (rewrite <- Ed; transitivity (vlen2 (vsub c point) * (1 / D * (1 / D))); [vring|rewrite D2; field; lra]). assert (U : vlen d = 1) by (apply vlen_iff; lra). split; [exact U|]. split; [lra|].
  assert (Pr : forall k, vsub (project (mkRay point d) k) c = vscale d (k - D)). { intros k. assert (Ev : vsub c point = vscale d D). { rewrite <- Ed. destruct (vsub c point). unfold vscale. apply V3_eq; cbn; field; lra. } transitivity (vsub (vscale d k) (vsub c point)); [unfold project; cbn [origin direction]; vring|]. rewrite Ev. vring. }
  assert (Ln : forall k, vlen (vsub (project (mkRay point d) k) c) = Rabs (k - D)). { intros k. rewrite Pr. apply vlen_iff; [apply Rabs_pos|]. rewrite <- Rabs_mult, Rabs_right by (apply Rle_ge, Rle_0_sqr). transitivity (vlen2 d * ((k - D) * (k - D))); [vring|rewrite U2; ring]. }
  split; [rewrite Ln, <- Et, Rabs_left; lra|]. split.
  - intros q Lq. rewrite <- Et. assert (Tr : D <= vlen (vsub q point) + vlen (vsub q c)); [|lra]. unfold D. rewrite (Sy q c). replace (vsub c point) with (vadd (vsub q point) (vsub c q)) by vring. apply vlen_triangle.
  - destruct (inside_hits r c s point d D B U ltac:(lra)) as (q & k & Hq & K & Lk & First & Far & _ & Kl); [rewrite Ln; replace (D - D) with 0 by ring; rewrite Rabs_R0; exact P|].
    exists q. split; [exact Hq|]. specialize (Kl Out). rewrite Ln, Rabs_left in Lk by lra. assert (k = t) by lra. subst k. exact Far.
Qed.

(** The cosine of half the angle under which a sphere is seen from a distance [D], and the solid angle *)
Definition cos_seen (r D : R) : R := sqrt (1 - r / D * (r / D)).
Definition solid_seen (r D : R) : R := 2 * PI * (1 - cos_seen r D).
Lemma cos_seen_range r D : 0 < r < D -> 0 < cos_seen r D < 1 /\ cos_seen r D * cos_seen r D = 1 - r / D * (r / D) /\ 0 < solid_seen r D < 2 * PI.
Proof.
  intros (P & Dr). assert (Q : 0 < r / D < 1). { split; [apply Rdiv_lt_0_compat; lra|]. apply Rmult_lt_reg_r with D; [lra|]. unfold Rdiv. rewrite Rmult_assoc, Rinv_l by lra. lra. }
  set (x := r / D) in *. unfold solid_seen, cos_seen. fold x. pose proof (sqrt_sqrt (1 - x * x) ltac:(nra)) as S. assert (0 < sqrt (1 - x * x)) by (apply sqrt_lt_R0; nra). set (y := sqrt (1 - x * x)) in *. pose proof PI_RGT_0.
  assert (y < 1) by nra. repeat split; try assumption; nra.
Qed.
(** The area of a cap of the unit sphere *)
Lemma cap_area z : -1 <= z < 1 -> has_area (sphere_surface 1 z 1 360) (2 * PI * (1 - z)).
Proof.
  intros Hz. assert (Mk : exists s1, sphere_new_partial_transformed 1 (z) 1 360 None = Ok s1).
    { unfold sphere_new_partial_transformed, clamp. assert (0 < eps64) by (unfold eps64; apply Rinv_0_lt_compat; lra).
      repeat (first [rewrite (proj2 (Rltb_false 1 z)) by lra | rewrite (proj2 (Rltb_false 1 (- (1)))) by lra | rewrite (proj2 (Rltb_false z (- (1)))) by lra | rewrite (proj2 (Rltb_false 1 1)) by lra | progress cbn [bind]]).
      replace (z / 1) with z by field. replace (1 / 1) with 1 by field.
      repeat (first [rewrite (proj2 (Rltb_false 1 z)) by lra | rewrite (proj2 (Rltb_false 1 (-1))) by lra | rewrite (proj2 (Rltb_false z (-1))) by lra | rewrite (proj2 (Rltb_false 1 1)) by lra | progress cbn [bind]]).
      destruct (if Rltb (acos 1) (acos z) then _ else _) as (x & y). rewrite (proj2 (Rleb_true _ _)), (proj2 (Rleb_true _ _)) by lra. cbn [andb negb].
      rewrite (proj2 (Rltb_false 360 0)) by lra. cbn [bind]. eexists. reflexivity. }
    destruct Mk as (s1 & Mk). pose proof (C99_area 1 (z) 1 360 None s1 ltac:(lra) ltac:(lra) ltac:(lra) ltac:(lra) Mk) as A.
    replace (2 * PI * (1 - z)) with (sphere_area s1); [exact A|]. apply sphere_is_made in Mk; try lra. unfold sphere_area. rewrite (cut_top _ _ _ _ _ _ Mk), (cut_bottom _ _ _ _ _ _ Mk), (made_phi _ _ _ _ _ _ Mk), (made_radius _ _ _ _ _ _ Mk) by lra.
    rewrite Rmin_left, Rmax_right by lra. unfold to_radians. field.
Qed.
(** The density of the directions is one over the area of the cap of the unit sphere that the lamp covers, as seen from the point. *)
Theorem C103_density : forall r c s ray, ball r c s -> r < vlen (vsub (origin ray) c) ->
  let D := vlen (vsub (origin ray) c) in
  sphere_solid_angle_pdf s ray = 1 / solid_seen r D /\ has_area (sphere_surface 1 (cos_seen r D) 1 360) (solid_seen r D).
Proof.
  intros r c s ray B Out D. destruct (ball_spec r c s B) as (Er & Ec & _). assert (P : 0 < r) by apply B. fold D in Out. destruct (cos_seen_range r D ltac:(lra)) as ((C0 & C1) & C2 & _). split.
  - unfold sphere_solid_angle_pdf. rewrite Er, Ec. assert (D2 : vlen2 (vsub c (origin ray)) = D * D). { transitivity (vlen2 (vsub (origin ray) c)); [vring|]. rewrite <- vlen_sqr. fold D. ring. }
    rewrite D2. replace (1 - r * r / (D * D)) with (1 - r / D * (r / D)) by (field; lra). unfold fclamp. 
    rewrite <- C2. rewrite (proj2 (Rltb_false (cos_seen r D * cos_seen r D) 0)) by nra. rewrite (proj2 (Rltb_false 1 (cos_seen r D * cos_seen r D))) by nra. rewrite sqrt_square by lra. unfold uniform_cone_pdf, solid_seen. reflexivity.
  - apply cap_area. lra.
Qed.
(** A ray meets the lamp if and only if its direction is in that cap. *)
Theorem C103_cone : forall r c s ray, ball r c s -> vlen (direction ray) = 1 -> r < vlen (vsub (origin ray) c) ->
  (exists q, sphere_simple_intersect s ray = Hit q) <-> cos_seen r (vlen (vsub (origin ray) c)) <= vdot (direction ray) (unit_of (vsub c (origin ray))).
Proof.
  intros r c s (p & d) B U Out. cbn [origin direction] in *. pose proof (unit2 d U) as U2. assert (P : 0 < r) by apply B. destruct (ball_spec r c s B) as (_ & _ & H).
  assert (V : 0 < vlen2 (direction (mkRay p d))) by (cbn [direction]; lra). destruct (H (mkRay p d) V) as (H1 & H2 & H3). clear H. cbn [origin direction] in *. set (D := vlen (vsub p c)) in *.
  destruct (cos_seen_range r D ltac:(lra)) as ((C0 & C1) & C2 & _). set (z := cos_seen r D) in *.
  assert (Dd : vlen (vsub c p) = D) by (unfold D, vlen; f_equal; vring). set (b := vdot (vsub p c) d) in *.
  assert (Eb : vdot d (unit_of (vsub c p)) = - b / D). { unfold unit_of. rewrite Dd. unfold b, vdot, vscale, vsub. cbn [vx vy vz]. field. lra. }
  assert (D2 : vlen2 (vsub p c) = D * D) by (rewrite <- vlen_sqr; fold D; ring).
  assert (F : forall k, vlen2 (vsub (project (mkRay p d) k) c) = k * k + 2 * k * b + D * D) by (intros; rewrite along by exact U2; rewrite D2; reflexivity).
  assert (Zd : z * D * (z * D) = D * D - r * r). { replace (z * D * (z * D)) with (z * z * (D * D)) by ring. rewrite C2. field. lra. }
  rewrite Eb. assert (Iff : z <= - b / D <-> z * D <= - b). { split; intros Q; [apply Rmult_le_compat_r with (r := D) in Q; [|lra]; replace (- b / D * D) with (- b) in Q by (field; lra); exact Q|].
    apply Rmult_le_reg_r with D; [lra|]. replace (- b / D * D) with (- b) by (field; lra). exact Q. }
  rewrite Iff. assert (0 < z * D) by (apply Rmult_lt_0_compat; lra). split.
  - intros (q & Hq). destruct (H1 q Hq) as (k & K & L & _). apply vlen_iff in L; [|lra]. rewrite F in L. destruct (Rle_lt_dec (z * D) (- b)) as [|Q]; [assumption|exfalso].
    assert (0 <= (k - z * D) * (k - z * D)) by apply Rle_0_sqr. nra.
  - intros Q. assert (Dp : 0 <= b * b - (D * D - r * r)) by (rewrite <- Zd; nra). pose proof (sqrt_sqrt _ Dp) as S. pose proof (sqrt_pos (b * b - (D * D - r * r))) as Sp. set (q := sqrt _) in *.
    destruct (sphere_simple_intersect s (mkRay p d)) as [|h|]; [|eauto|].
    + exfalso. apply (H2 eq_refl (- b + q)); [lra|]. apply vlen_iff; [lra|]. rewrite F. nra.
    + exfalso. destruct (proj1 H3 eq_refl) as (L & _). lra.
Qed.

(** ** C103: what a lamp gives *)

(** A shadow ray from outside finds nothing if it misses the lamp; otherwise it finds the colour of the front and the density, or black if there is something in between. *)
Theorem C103_shadow : forall N wf w o r c s ml ray, o_primitive o = PSphere s -> ball r c s -> 1 / 1000 <= r -> nth_error (mats (w_scene w)) (o_front o) = Some ml ->
  vlen (direction ray) = 1 -> r < vlen (vsub (origin ray) c) -> let D := vlen (vsub (origin ray) c) in let cosine := vdot (direction ray) (unit_of (vsub c (origin ray))) in
  (cosine < cos_seen r D -> intersect_light N wf w o ray = Ok None) /\
  (cos_seen r D < cosine -> exists k, 0 < k < D /\ vlen (vsub (project ray k) c) = r /\ (forall k', 0 < k' < k -> r < vlen (vsub (project ray k') c)) /\
    (~ near_pole r (vsub (project ray k) c) ->
       (scene_unobstructed_distance N (w_state w) ray (k * k) wf = Ok true -> intersect_light N wf w o ray = Ok (Some (colour_of ml, 1 / solid_seen r D))) /\
       (scene_unobstructed_distance N (w_state w) ray (k * k) wf = Ok false -> intersect_light N wf w o ray = Ok (Some (BLACK, 0))))).
Proof.
  intros N wf w o r c s ml ray Eo B Rr Eml U Out D cosine. fold D in Out. pose proof (C103_cone r c s ray B U Out) as Cn. fold D cosine in Cn. destruct (C103_density r c s ray B Out) as (Pdf & _). fold D in Pdf.
  assert (P : 0 < r) by apply B. pose proof (unit2 _ U) as U2. destruct (ball_spec r c s B) as (_ & _ & H). assert (V : 0 < vlen2 (direction ray)) by lra. destruct (H ray V) as (H1 & H2 & H3). clear H.
  destruct (cos_seen_range r D ltac:(lra)) as ((C0 & C1) & C2 & _). set (z := cos_seen r D) in *.
  split; intros Q.
  - unfold intersect_light. rewrite Eo. unfold primitive_intersect. assert (M : sphere_simple_intersect s ray = Miss).
    { destruct (sphere_simple_intersect s ray) as [|h|] eqn:E; [reflexivity|exfalso|exfalso].
      - assert (z <= cosine) by (apply Cn; eauto). lra.
      - destruct (proj1 H3 eq_refl) as (L & _). fold D in L. lra. }
    unfold sphere_intersect, world_intersect, sphere_intersect_local_ray. unfold sphere_simple_intersect, world_simple_intersect in M. destruct (sphere_basic_intersection s (world_ray (s_transform s) ray)); try discriminate. reflexivity.
  - destruct (proj2 Cn ltac:(lra)) as (q & Hq). destruct (H1 q Hq) as (k & K & Lk & First & Far & _). destruct ray as (p & d). cbn [origin direction] in *. set (b := vdot (vsub p c) d).
    assert (Dd : vlen (vsub c p) = D) by (unfold D, vlen; f_equal; vring). assert (D2 : vlen2 (vsub p c) = D * D) by (rewrite <- vlen_sqr; fold D; ring).
    assert (Eb : cosine = - b / D). { unfold cosine, unit_of. rewrite Dd. unfold b, vdot, vscale, vsub. cbn [vx vy vz]. field. lra. }
    assert (Bz : z * D < - b). { rewrite Eb in Q. apply Rmult_lt_compat_r with (r := D) in Q; [|lra]. replace (- b / D * D) with (- b) in Q by (field; lra). exact Q. }
    assert (Zd : z * D * (z * D) = D * D - r * r). { replace (z * D * (z * D)) with (z * z * (D * D)) by ring. rewrite C2. field. lra. }
    assert (F : forall k, vlen2 (vsub (project (mkRay p d) k) c) = k * k + 2 * k * b + D * D) by (intros; rewrite along by exact U2; rewrite D2; reflexivity).
    assert (L2 : k * k + 2 * k * b + D * D = r * r) by (rewrite <- F; apply vlen_iff; lra).
    assert (Zp : 0 < z * D) by (apply Rmult_lt_0_compat; lra).
    assert (Dp : 0 < b * b - (D * D - r * r)) by (rewrite <- Zd; nra). pose proof (sqrt_sqrt _ (Rlt_le _ _ Dp)) as S. assert (Sp : 0 < sqrt (b * b - (D * D - r * r))) by (apply sqrt_lt_R0; exact Dp). set (x := sqrt _) in *.
    assert (x1 : 0 < - b - x) by nra.
    assert (Ek : k = - b - x). { assert (Z : (k - (- b - x)) * (k - (- b + x)) = 0) by nra. apply Rmult_integral in Z as [Z|Z]; [lra|exfalso]. apply (First (- b - x)); [lra|]. apply vlen_iff; [lra|]. rewrite F. nra. }
    assert (Bd : - b <= D). { pose proof (lagrange (vsub p c) d) as Lg. pose proof (vlen2_nonneg (vcross (vsub p c) d)). fold b in Lg. rewrite D2, U2 in Lg. nra. }
    exists k. split; [lra|]. split; [exact Lk|]. split.
    { intros k' K'. destruct (Rlt_le_dec r (vlen (vsub (project (mkRay p d) k') c))) as [Z|Z]; [exact Z|exfalso]. pose proof (vlen_nonneg (vsub (project (mkRay p d) k') c)) as Nn. assert (Z2 : vlen2 (vsub (project (mkRay p d) k') c) <= r * r) by (rewrite <- vlen_sqr; nra). rewrite F in Z2. subst k. assert (0 < (- b - x - k') * (- b + x - k')) by (apply Rmult_lt_0_compat; lra). nra. }
    intros Nn. specialize (Far Nn). rewrite <- Far in Lk. destruct (ball_info r c s (mkRay p d) q B Rr V Hq Lk) as (info & Ei & Ip & Sd). cbn [direction] in Sd.
    assert (Sf : i_side info = Front). { assert (Dt : vdot (vsub q c) d = b + k * vlen2 d) by (rewrite Far; unfold b, project, vdot, vlen2, vsub, vadd, vscale; cbn [origin direction vx vy vz]; ring). rewrite U2 in Dt. rewrite Dt in Sd. destruct Sd as [(Sd & _)|[(_ & Sd)|(_ & Sd)]]; [exact Sd|lra|lra]. }
    unfold intersect_light. rewrite Eo, Ei. cbn [bind origin]. rewrite Ip, Far. assert (Ek2 : vlen2 (vsub p (project (mkRay p d) k)) = k * k) by (transitivity (vlen2 d * (k * k)); [unfold project, vlen2, vsub, vadd, vscale; cbn [origin direction vx vy vz]; ring|rewrite U2; ring]). rewrite Ek2.
    split; intros ->; cbn [bind negb]; [|reflexivity]. rewrite Sf, Eml. unfold solid_angle_pdf. cbn [bind]. rewrite Pdf. reflexivity.
Qed.

(** One shadow ray towards the middle of a lamp *)
Lemma middle N wf w o r c s ml point : o_primitive o = PSphere s -> ball r c s -> 1 / 1000 <= r -> nth_error (mats (w_scene w)) (o_front o) = Some ml -> answers N wf w ->
  let D := vlen (vsub point c) in let d := unit_of (vsub c point) in r < D -> ~ (Rabs (vx d) < 1 / 10 ^ 5 /\ Rabs (vy d) < 1 / 10 ^ 5) ->
  light_direction (PSphere s) point = Ok d /\ vlen d = 1 /\
  (scene_unobstructed_distance N (w_state w) (mkRay point d) ((D - r) * (D - r)) wf = Ok true /\ intersect_light N wf w o (mkRay point d) = Ok (Some (colour_of ml, 1 / solid_seen r D)) \/
   scene_unobstructed_distance N (w_state w) (mkRay point d) ((D - r) * (D - r)) wf = Ok false /\ intersect_light N wf w o (mkRay point d) = Ok (Some (BLACK, 0))).
Proof.
  intros Eo B Rr Eml An D d Out Np. destruct (ball_spec r c s B) as (Er & Ec & _). assert (P : 0 < r) by apply B.
  assert (Dd : vlen (vsub c point) = D) by (unfold D, vlen; f_equal; vring). assert (D2 : vlen2 (vsub c point) = D * D) by (rewrite <- vlen_sqr, Dd; ring).
  assert (Ed : d = vscale (vsub c point) (1 / D)) by (unfold d, unit_of; rewrite Dd; reflexivity).
  assert (U2 : vlen2 d = 1) by (rewrite Ed; transitivity (vlen2 (vsub c point) * (1 / D * (1 / D))); [vring|rewrite D2; field; lra]). assert (U : vlen d = 1) by (apply vlen_iff; lra).
  assert (Pr : forall k, vsub (project (mkRay point d) k) c = vscale d (k - D)). { intros k. assert (Ev : vsub c point = vscale d D). { rewrite Ed. destruct (vsub c point). unfold vscale. apply V3_eq; cbn; field; lra. } transitivity (vsub (vscale d k) (vsub c point)); [unfold project; cbn [origin direction]; vring|]. rewrite Ev. vring. }
  split; [unfold light_direction, sphere_direction; rewrite Ec, Dd; cbn [snd]; rewrite Ed; reflexivity|]. split; [exact U|].
  destruct (C103_shadow N wf w o r c s ml (mkRay point d) Eo B Rr Eml U Out) as (_ & Hit). cbn [origin direction] in Hit. fold D d in Hit. destruct (cos_seen_range r D ltac:(lra)) as ((C0 & C1) & _).
  destruct Hit as (k & K & Lk & _ & Res); [change (vdot d d) with (vlen2 d); lra|]. rewrite Pr in Lk, Res.
  assert (Ek : k = D - r). { apply vlen_iff in Lk; [|lra]. assert (Z : vlen2 (vscale d (k - D)) = (k - D) * (k - D)) by (transitivity (vlen2 d * ((k - D) * (k - D))); [vring|rewrite U2; ring]). rewrite Z in Lk. nra. }
  subst k. destruct Res as (Yes & No).
  { intros (N1 & N2). apply Np. replace (D - r - D) with (- r) in N1, N2 by ring. unfold vscale in N1, N2. cbn [vx vy] in N1, N2. rewrite Rabs_mult, Rabs_Ropp, (Rabs_right r) in N1, N2 by lra.
    split; apply Rmult_lt_reg_r with r; try exact P; unfold Rdiv in *; lra. }
  destruct (An (mkRay point d) ((D - r) * (D - r))) as ([|] & Eb); [left|right]; (split; [exact Eb|]); auto.
Qed.
(** A lamp over a matte surface.  One sample, and no path beyond the surface: the surface shows the radiance of the lamp times its solid angle times
    the cosine of the angle of incidence times the reflectance, divided by pi, times a weight; it is black if there is something in between or
    if the lamp is behind it. *)
Theorem C103_lit : forall G (gen : G -> R * G) gi N wf wardf lf w o r c s ml ray k inter m g, lights (w_scene w) = [o] -> distant_lights (w_scene w) = [] -> o_primitive o = PSphere s ->
  ball r c s -> 1 / 1000 <= r -> nth_error (mats (w_scene w)) (o_front o) = Some ml -> answers N wf w ->
  scene_cast_ray N (w_state w) wf ray = Ok (Some (k, inter)) -> arrives (direction ray) inter -> hit_material (geom (w_scene w)) (mats (w_scene w)) (k, inter) = Ok (Some m) ->
  passive m -> emits_light m = false -> specular_only m = false ->
  let point := vadd (it_point inter) (vscale (normal_of inter) (1 / 1000)) in let D := vlen (vsub point c) in let d := unit_of (vsub c point) in
  r < D -> ~ (Rabs (vx d) < 1 / 10 ^ 5 /\ Rabs (vy d) < 1 / 10 ^ 5) ->
  exists col g', trace_ray gen gi N wf wardf (S lf) w 0 1 g ray = Ok (Some (col, g')) /\
    (scene_unobstructed_distance N (w_state w) (mkRay point d) ((D - r) * (D - r)) wf = Ok true -> 0 < vdot (normal_of inter) d ->
       exists weight, 1 / (1 + (solid_seen r D / PI) ^ 2) <= weight <= 1 /\
         (forall albedo, m = Diffuse albedo -> weight = 1 / (1 + (vdot (normal_of inter) (vneg (direction ray)) * solid_seen r D / PI) ^ 2)) /\ col = smul (colour_of ml) (sscale (colour_of m) (vdot (normal_of inter) d * solid_seen r D / PI * weight))) /\
    (scene_unobstructed_distance N (w_state w) (mkRay point d) ((D - r) * (D - r)) wf = Ok false \/ vdot (normal_of inter) d <= 0 -> col = BLACK).
Proof.
  intros G gen gi N wf wardf lf w o r c s ml ray k inter m g L1 L2 Eo B Rr Eml An Cr A Hm P Em Sm point D d Out Np. pose proof PI_RGT_0 as Pi.
  destruct (middle N wf w o r c s ml point Eo B Rr Eml An Out Np) as (Ld & U & Il). fold d D in Ld, U, Il.
  assert (P0 : 0 < r) by apply B. destruct (cos_seen_range r D ltac:(fold D in Out; lra)) as (_ & _ & Sa & Sb).
  assert (Lz : forall acc g0, shadow_loop gen N wf w lf o (1 / INR 1) m inter point 1 0 acc g0 = Ok (Some (acc, g0))) by (intros; destruct lf; reflexivity).
  assert (Bk : sadd BLACK (smul ONE (sdiv BLACK (INR 1))) = BLACK) by (unfold sadd, smul, sdiv, BLACK, ONE, gray; cbn; f_equal; field).
  unfold trace_ray. cbn [trace_loop]. rewrite Cr. cbn [bind]. rewrite Hm. cbn [bind]. rewrite Em, Sm. cbn [Nat.eqb].
  unfold get_local_illumination. rewrite L1, L2. cbn [app length]. destruct (gi g) as [ki g1]. unfold sample_light_uniform. rewrite L1, L2. cbn [length Nat.add Nat.ltb Nat.leb].
  rewrite Nat.mod_1_r. cbn [nth_error Nat.sub Nat.ltb Nat.leb]. cbn [shadow_loop Nat.ltb Nat.leb]. rewrite Eo. fold (normal_of inter). fold point. rewrite Ld. cbn [bind].
  destruct Il as [(Ob & ->)|(Ob & ->)]; rewrite Ob; cbn [bind].
  - rewrite (proj2 (Rltb_false _ _)). 2: { apply Rmult_le_compat_l; [lra|]. apply Rinv_le_contravar; [exact Sa|]. assert (PI <= 4) by apply PI_4. assert (10 <= 10 ^ 18) by (rewrite <- (pow_1 10) at 1; apply Rle_pow; [lra|lia]). lra. }
    destruct (matte_eval m (direction ray) inter d A P Em Sm U) as (bsdf & pdf & -> & Ep & Nb & (p0 & p1) & Bs). rewrite Ep. cbn [bind].
    rewrite Lz. cbn [bind]. do 2 eexists. split; [reflexivity|].
    set (Om := solid_seen r D) in *. set (wt := power_heuristic 1 (1 / Om * (1 / INR 1)) 1 pdf). split.
    + intros _ F. rewrite Bs, (proj2 (Rltb_true _ _) F), (Rabs_right (vdot (normal_of inter) d)) by lra. exists wt. split.
      * unfold wt, power_heuristic. cbv zeta. cbn [INR]. replace (1 * (1 / Om * (1 / 1))) with (/ Om) by (field; lra). rewrite Rmult_1_l.
        assert (Io : 0 < / Om) by (apply Rinv_0_lt_compat; exact Sa). assert (Io2 : 0 < / Om * / Om) by (apply Rmult_lt_0_compat; lra). assert (Pq : 0 <= pdf * pdf) by (apply Rmult_le_pos; lra).
        assert (Pd : pdf * pdf <= 1 / PI * (1 / PI)) by (apply Rmult_le_compat; lra).
        set (z := Om / PI). assert (z0 : 0 <= z ^ 2) by apply pow2_ge_0. assert (zp : z ^ 2 * (/ Om * / Om) = 1 / PI * (1 / PI)) by (unfold z; field; lra).
        split; apply Rmult_le_reg_r with ((/ Om * / Om + pdf * pdf) * (1 + z ^ 2)); try (apply Rmult_lt_0_compat; lra).
        -- replace (1 / (1 + z ^ 2) * ((/ Om * / Om + pdf * pdf) * (1 + z ^ 2))) with (/ Om * / Om + pdf * pdf) by (field; lra).
           replace (/ Om * / Om / (/ Om * / Om + pdf * pdf) * ((/ Om * / Om + pdf * pdf) * (1 + z ^ 2))) with (/ Om * / Om * (1 + z ^ 2)) by (generalize (/ Om * / Om) Io2; intros; field; lra). nra.
        -- replace (/ Om * / Om / (/ Om * / Om + pdf * pdf) * ((/ Om * / Om + pdf * pdf) * (1 + z ^ 2))) with (/ Om * / Om * (1 + z ^ 2)) by (generalize (/ Om * / Om) Io2; intros; field; lra). nra.
      * split; [|unfold sadd, smul, sdiv, sscale, BLACK, ONE, gray; cbn [red green blue INR]; f_equal; field; lra].
        intros albedo ->. destruct (arrives_frame _ _ A) as (_ & Dn & _). destruct A as (_ & Ew & _). unfold material_pdf, diffuse_pdf, same_hemisphere, abs_cos_theta in Ep. rewrite Ew in Ep. unfold to_local in Ep. cbn [vz] in Ep.
        assert (Ec : vdot (vscale (direction ray) (-1)) (normal_of inter) = vdot (normal_of inter) (vneg (direction ray))) by vring. rewrite Ec, (vdot_comm d) in Ep.
        assert (0 < vdot (normal_of inter) (vneg (direction ray))) by (replace (vdot _ _) with (- vdot (direction ray) (normal_of inter)) by vring; lra).
        set (cv := vdot (normal_of inter) (vneg (direction ray))) in *. set (ci := vdot (normal_of inter) d) in *. rewrite (proj2 (Rltb_true _ _)) in Ep by (apply Rmult_lt_0_compat; assumption). apply (f_equal (fun x => match x with Ok y => y | _ => 0 end)) in Ep. rewrite Rabs_right in Ep by lra.
        unfold wt, power_heuristic. cbv zeta. cbn [INR]. rewrite <- Ep. assert (0 <= (cv * Om) * (cv * Om)) by apply Rle_0_sqr. assert (0 < PI * PI) by (apply Rmult_lt_0_compat; lra). field. repeat split; try lra; nra.
    + intros [Bad|F]; [discriminate|]. rewrite Bs, (proj2 (Rltb_false _ _) F). unfold sadd, smul, sdiv, sscale, BLACK, ONE, gray. cbn [red green blue INR]. f_equal; field; lra.
  - rewrite (proj2 (Rltb_true 0 (1 / 10 ^ 18))) by (apply Rdiv_lt_0_compat; [lra|apply pow_lt; lra]). rewrite Lz. cbn [bind]. do 2 eexists. split; [reflexivity|].
    split; [discriminate|]. intros _. exact Bk.
Qed.

(** Straight above or below the middle of a lamp the program panics, whatever the scene. *)
Theorem C103_below : forall G (gen : G -> R * G) gi N wf wardf lf w o r c s max_depth ray k inter m g, lights (w_scene w) = [o] -> distant_lights (w_scene w) = [] -> o_primitive o = PSphere s ->
  ball r c s -> scene_cast_ray N (w_state w) wf ray = Ok (Some (k, inter)) -> hit_material (geom (w_scene w)) (mats (w_scene w)) (k, inter) = Ok (Some m) -> emits_light m = false -> specular_only m = false ->
  let point := vadd (it_point inter) (vscale (normal_of inter) (1 / 1000)) in r < vlen (vsub point c) -> vx point = vx c -> vy point = vy c ->
  trace_ray gen gi N wf wardf (S lf) w max_depth 1 g ray = Panic.
Proof.
  intros G gen gi N wf wardf lf w o r c s max_depth ray k inter m g L1 L2 Eo B Cr Hm Em Sm point Out Ex Ey.
  pose proof (C103_nearest r c s point B Out) as H. destruct (sphere_direction s point) as (t & d) eqn:Ed. destruct H as (Ld & U & T & Lt & _ & q & Hq & _).
  assert (Pn : primitive_intersect (PSphere s) (mkRay point d) = Panic).
  { destruct (ball_spec r c s B) as (Er & Ec & Sp). assert (P : 0 < r) by apply B. unfold sphere_direction in Ed. rewrite Er, Ec in Ed. apply pair_equal_spec in Ed as (_ & Ed).
    assert (Dx : vx d = 0 /\ vy d = 0) by (rewrite <- Ed; unfold vscale, vsub; cbn [vx vy]; rewrite Ex, Ey; split; ring). destruct Dx as (Dx & Dy).
    assert (V : 0 < vlen2 (direction (mkRay point d))) by (cbn [direction]; rewrite (unit2 d U); lra). destruct (Sp (mkRay point d) V) as (H1 & _). destruct (H1 q Hq) as (k1 & K & Lk & _ & _ & Near). 
    assert (Pk : vx (project (mkRay point d) k1) = vx c /\ vy (project (mkRay point d) k1) = vy c) by (unfold project, vadd, vscale; cbn [origin direction vx vy]; rewrite Dx, Dy, Ex, Ey; split; ring). destruct Pk as (Px & Py).
    assert (R5 : 0 < r / 10 ^ 5) by (apply Rdiv_lt_0_compat; lra).
    rewrite Near in Hq. 2: { unfold near_pole, vsub. cbn [vx vy]. rewrite Px, Py. replace (vx c - vx c) with 0 by ring. replace (vy c - vy c) with 0 by ring. rewrite Rabs_R0. split; exact R5. }
    rewrite Py in Hq. assert (Zk : vz (project (mkRay point d) k1) - vz c = r \/ vz (project (mkRay point d) k1) - vz c = - r).
    { apply vlen_iff in Lk; [|lra]. unfold vlen2, vsub in Lk. cbn [vx vy vz] in Lk. rewrite Px, Py in Lk. set (zz := vz _ - vz c) in *. assert (Z : (zz - r) * (zz + r) = 0) by lra. apply Rmult_integral in Z. lra. }
    destruct B as (_ & E & C). destruct (sphere_new_made r c P) as (s' & E' & M). rewrite E in E'. injection E' as <-. pose proof (made_transform _ _ _ _ _ _ M) as Et.
    assert (Z : vis_zero (mkV 0 0 0) = true) by (unfold vis_zero; cbn; rewrite !Rabs_R0; assert (0 < eps64) by (unfold eps64; apply Rinv_0_lt_compat; lra); rewrite (proj2 (Rltb_true _ _)) by lra; reflexivity).
    assert (W2 : forall q, match s_transform s with Some t => transform_pt t q | None => q end = vadd q c).
    { rewrite Et. destruct C as [ -> | C].
      - rewrite Z. cbn [negb]. intros q'. unfold vadd. destruct q'. apply V3_eq; cbn; ring.
      - rewrite C. cbn [negb]. intros; apply translated_pt. }
    unfold primitive_intersect, sphere_intersect, world_intersect, sphere_intersect_local_ray. unfold sphere_simple_intersect, world_simple_intersect in Hq.
    destruct (sphere_basic_intersection s (world_ray (s_transform s) (mkRay point d))) as [|(h & phi)|]; try discriminate. cbn [map_hit fst] in Hq. rewrite W2 in Hq. apply (f_equal (fun x => match x with Hit p => vz p | _ => 0 end)) in Hq. unfold vadd in Hq. cbn [vz] in Hq.
    cbn [on_hit]. unfold sphere_info. rewrite Er. assert (Hz : vz h / r = 1 \/ vz h / r = -1). { destruct Zk as [Zk|Zk]; [left; replace (vz h) with r by lra|right; replace (vz h) with (- r) by lra]; field; lra. }
    destruct Hz as [ -> | -> ]; rewrite clamp_in by lra; cbn [bind].
    - rewrite acos_1, sin_0. destruct (Req_EM_T 0 0); [reflexivity|contradiction].
    - replace (-1) with (- (1)) by ring. rewrite acos_opp, acos_1, Rminus_0_r, sin_PI. destruct (Req_EM_T 0 0); [reflexivity|contradiction]. }
  assert (Lp : get_local_illumination gen gi N wf (S lf) w m inter g 1 = Panic).
  { unfold get_local_illumination. rewrite L1, L2. cbn [app length]. destruct (gi g) as [ki g1]. unfold sample_light_uniform. rewrite L1, L2. cbn [length Nat.add Nat.ltb Nat.leb].
    rewrite Nat.mod_1_r. cbn [nth_error Nat.sub Nat.ltb Nat.leb]. cbn [shadow_loop Nat.ltb Nat.leb]. rewrite Eo. fold (normal_of inter). fold point. rewrite Ld. cbn [bind]. unfold intersect_light. rewrite Eo, Pn. reflexivity. }
  unfold trace_ray. destruct max_depth; cbn [trace_loop]; rewrite Cr; cbn [bind]; rewrite Hm; cbn [bind]; rewrite Em, Sm; cbn [Nat.eqb]; rewrite Lp; reflexivity.
Qed.

(** ** C103: the directions are not spread as their density says *)

(** Seen from straight above, at the distance [D] from the middle, a drawn direction is within the cone of cosine [z] around the lamp's middle exactly if the first
    random number is outside of some interval.  The points are drawn uniformly on the whole surface, which is taken a little smaller. *)
Theorem C103_share : forall G (gen : G -> R * G) r c s g u0 u g0 g1 D z, ball r c s -> 1 / 10 ^ 5 < r -> gen2 gen g = (u0, g0) -> gen2 gen g0 = (u, g1) -> 1 / 10 ^ 7 <= fst u <= 1 - 1 / 10 ^ 7 ->
  let rho := r * (1 - 1 / 10 ^ 5) in r < D -> 0 < z -> D * D * (1 - z * z) <= rho * rho ->
  let point := vadd c (mkV 0 0 D) in let mid := D * (1 - z * z) / rho in let half := z * sqrt (1 - D * D * (1 - z * z) / (rho * rho)) in
  exists wi, light_sample_direction gen (PSphere s) g point = Ok (wi, g1) /\ vlen wi = 1 /\
    (z <= vdot wi (unit_of (vsub c point)) <-> 1 - 2 * fst u <= mid - half \/ mid + half <= 1 - 2 * fst u).
Proof.
  intros G gen r c s g u0 u g0 g1 D z B Rr E0 E1 Hu rho Dr Pz Cone point mid half. destruct (ball_spec r c s B) as (Er & Ec & _). unfold light_sample_direction. rewrite E0, E1. cbn [bind].
  set (x := sample_sphere_surface s u). pose proof (C42_sphere u) as Lp. apply vlen_iff in Lp; [|lra]. assert (Pr : 0 < rho) by (unfold rho; apply Rmult_lt_0_compat; lra). assert (Rs : rho < r) by (unfold rho; nra).
  assert (Zp : vz (uniform_sample_sphere u) = 1 - 2 * fst u). { destruct u as (a & b). cbn [fst] in *. unfold uniform_sample_sphere. cbn [vz]. unfold fclamp. rewrite (proj2 (Rltb_false a _)), (proj2 (Rltb_false _ a)) by lra. reflexivity. }
  set (p := uniform_sample_sphere u) in *. set (Z := 1 - 2 * fst u) in *. assert (Zb : Z < 1) by (unfold Z; lra). set (d := vsub x point).
  assert (Ed : d = vadd (vscale p rho) (mkV 0 0 (- D))) by (unfold d, x, sample_sphere_surface, point; fold p; rewrite Er, Ec; fold rho; unfold vsub, vadd, vscale; apply V3_eq; cbn [vx vy vz]; ring).
  assert (L2 : vlen2 d = D * D + rho * rho - 2 * D * rho * Z). { rewrite Ed. transitivity (rho * rho * vlen2 p - 2 * D * rho * vz p + D * D); [vring|rewrite Lp, Zp; ring]. }
  assert (Ld : vlen2 d = (D - rho * Z) * (D - rho * Z) + rho * rho * (1 - Z * Z)) by (rewrite L2; ring).
  assert (Zl : -1 < Z) by (unfold Z; lra). assert (Pos : 0 < D - rho * Z) by nra.
  assert (Big : 1 / 10 ^ 20 < vlen2 d). { assert (T : 1 - Z * Z = 4 * (fst u * (1 - fst u))) by (unfold Z; ring). assert (1 / 10 ^ 7 * (1 / 2) <= fst u * (1 - fst u)) by nra.
    assert (R5 : 9 / 10 ^ 6 <= rho) by (unfold rho; nra). assert (R6 : 9 / 10 ^ 6 * (9 / 10 ^ 6) <= rho * rho) by (apply Rmult_le_compat; lra). rewrite Ld. assert (0 <= (D - rho * Z) * (D - rho * Z)) by apply Rle_0_sqr.
    assert (81 / 10 ^ 12 * (1 / 10 ^ 7) <= rho * rho * (1 - Z * Z)) by (apply Rmult_le_compat; lra). lra. }
  destruct (normalize_of _ Big) as (-> & _ & U). cbn [bind]. exists (unit_of d). split; [reflexivity|]. split; [exact U|].
  assert (Un : unit_of (vsub c point) = mkV 0 0 (-1)). { assert (Ev : vsub c point = mkV 0 0 (- D)) by (unfold point, vsub, vadd; apply V3_eq; cbn [vx vy vz]; ring). rewrite Ev. unfold unit_of. assert (vlen (mkV 0 0 (- D)) = D) as -> by (apply vlen_iff; [lra|unfold vlen2; cbn [vx vy vz]; ring]). unfold vscale. apply V3_eq; cbn [vx vy vz]; field; lra. }
  rewrite Un. unfold unit_of. set (L := vlen d). assert (Ll : L * L = vlen2 d) by (unfold L; rewrite <- vlen_sqr; ring). assert (PL : 0 < L) by (pose proof (vlen_nonneg d); fold L in H; assert (0 < 1 / 10 ^ 20) by lra; nra).
  assert (Ev : vdot (vscale d (1 / L)) (mkV 0 0 (-1)) = (D - rho * Z) / L). { rewrite Ed. unfold vdot, vscale, vadd. cbn [vx vy vz]. rewrite Zp. field. lra. }
  rewrite Ev. set (y := rho * Z) in *. assert (Md : rho * mid = D * (1 - z * z)) by (unfold mid; field; lra).
  assert (Arg : 0 <= 1 - D * D * (1 - z * z) / (rho * rho)). { assert (0 < rho * rho) by (apply Rmult_lt_0_compat; lra). apply Rmult_le_reg_r with (rho * rho); [lra|]. replace ((1 - D * D * (1 - z * z) / (rho * rho)) * (rho * rho)) with (rho * rho - D * D * (1 - z * z)) by (field; lra). lra. }
  assert (Hh : rho * half * (rho * half) = z * z * (rho * rho - D * D * (1 - z * z))). { unfold half. pose proof (sqrt_sqrt _ Arg) as Sq. set (q := sqrt _) in *. replace (rho * (z * q) * (rho * (z * q))) with (z * z * (rho * rho) * (q * q)) by ring. rewrite Sq. field. lra. }
  assert (H0 : 0 <= half) by (unfold half; apply Rmult_le_pos; [lra|apply sqrt_pos]). clearbody half mid.
  assert (Key : (D - y) * (D - y) - z * z * (L * L) = (y - rho * mid) * (y - rho * mid) - rho * half * (rho * half)) by (rewrite Ll, L2, Md, Hh; unfold y; ring).
  assert (I1 : z <= (D - y) / L <-> z * L <= D - y). { split; intros Q; [apply Rmult_le_compat_r with (r := L) in Q; [|lra]; replace ((D - y) / L * L) with (D - y) in Q by (field; lra); exact Q|]. apply Rmult_le_reg_r with L; [lra|]. replace ((D - y) / L * L) with (D - y) by (field; lra). exact Q. }
  rewrite I1. assert (Pl : 0 < z * L) by (apply Rmult_lt_0_compat; lra).
  assert (Ym : y - rho * mid = rho * (Z - mid)) by (unfold y; ring). assert (Rr2 : 0 < rho * rho) by (apply Rmult_lt_0_compat; lra).
  assert (K2 : (D - y) * (D - y) - z * L * (z * L) = rho * rho * ((Z - mid - half) * (Z - mid + half))) by (replace (z * L * (z * L)) with (z * z * (L * L)) by ring; rewrite Key, Ym; ring).
  split.
  - intros Q. assert (0 <= rho * rho * ((Z - mid - half) * (Z - mid + half))) by (rewrite <- K2; nra). assert (S0 : 0 <= (Z - mid - half) * (Z - mid + half)) by nra. destruct (Rle_lt_dec Z (mid - half)) as [|A]; [left; lra|right]. destruct (Rle_lt_dec (mid + half) Z) as [|A']; [lra|exfalso]. nra.
  - intros Q. assert (S0 : 0 <= (Z - mid - half) * (Z - mid + half)) by (destruct Q; nra). assert (0 <= rho * rho * ((Z - mid - half) * (Z - mid + half))) by (apply Rmult_le_pos; lra). rewrite <- K2 in H. destruct (Rle_lt_dec (z * L) (D - y)) as [|A]; [assumption|exfalso]. nra.
Qed.
(** The density claims more than 0.59 for a cone that gets exactly 0.52 of the directions. *)
Theorem C103_spread_refuted : exists r D z s, ball r (mkV 0 0 0) s /\ r < D /\ let point := mkV 0 0 D in
  (forall G (gen : G -> R * G) g u0 u g0 g1, gen2 gen g = (u0, g0) -> gen2 gen g0 = (u, g1) -> 1 / 10 ^ 7 <= fst u <= 1 - 1 / 10 ^ 7 ->
     exists wi, light_sample_direction gen (PSphere s) g point = Ok (wi, g1) /\ vlen wi = 1 /\ (z <= vdot wi (mkV 0 0 (-1)) <-> fst u <= 1 / 50 \/ 1 / 2 <= fst u)) /\
  has_area (sphere_surface 1 z 1 360) (2 * PI * (1 - z)) /\ cos_seen r D < z < 1 /\
  forall d, 59 / 100 < sphere_solid_angle_pdf s (mkRay point d) * (2 * PI * (1 - z)).
Proof.
  set (r := 100000 / 99999). destruct (sphere_new_made r (mkV 0 0 0) ltac:(unfold r; lra)) as (s & E & _). assert (B : ball r (mkV 0 0 0) s) by (split; [unfold r; lra|split; [exact E|left; reflexivity]]).
  exists r, (4 / 3), (4 / 5), s. split; [exact B|]. split; [unfold r; lra|]. cbv zeta.
  assert (Cz : 6611 / 10000 < cos_seen r (4 / 3) < 4 / 5). { unfold cos_seen. split; [apply Rsqr_incrst_0; [rewrite Rsqr_sqrt by (unfold r; lra); unfold Rsqr, r; lra|lra|apply sqrt_pos]|apply Rsqr_incrst_0; [rewrite Rsqr_sqrt by (unfold r; lra); unfold Rsqr, r; lra|apply sqrt_pos|lra]]. }
  split; [|split; [|split; [lra|]]].
  - intros G gen g u0 u g0 g1 E0 E1 Hu. assert (Rh : r * (1 - 1 / 10 ^ 5) = 1) by (unfold r; lra).
    destruct (C103_share G gen r (mkV 0 0 0) s g u0 u g0 g1 (4 / 3) (4 / 5) B ltac:(unfold r; lra) E0 E1 Hu ltac:(unfold r; lra) ltac:(lra)) as (wi & Ew & Lw & Iff); [rewrite Rh; lra|].
    rewrite Rh in Iff. replace (vadd (mkV 0 0 0) (mkV 0 0 (4 / 3))) with (mkV 0 0 (4 / 3)) in * by (unfold vadd; apply V3_eq; cbn; lra). exists wi. split; [exact Ew|]. split; [exact Lw|].
    replace (sqrt (1 - 4 / 3 * (4 / 3) * (1 - 4 / 5 * (4 / 5)) / (1 * 1))) with (3 / 5) in Iff by (replace (1 - 4 / 3 * (4 / 3) * (1 - 4 / 5 * (4 / 5)) / (1 * 1)) with (3 / 5 * (3 / 5)) by lra; rewrite sqrt_square; lra).
    replace (unit_of (vsub (mkV 0 0 0) (mkV 0 0 (4 / 3)))) with (mkV 0 0 (-1)) in Iff.
    2: { assert (Ev : vsub (mkV 0 0 0) (mkV 0 0 (4 / 3)) = mkV 0 0 (- (4 / 3))) by (unfold vsub; apply V3_eq; cbn; ring). rewrite Ev. unfold unit_of. assert (vlen (mkV 0 0 (- (4 / 3))) = 4 / 3) as -> by (apply vlen_iff; [lra|unfold vlen2; cbn [vx vy vz]; ring]). unfold vscale. apply V3_eq; cbn [vx vy vz]; field. }
    rewrite Iff. lra.
  - apply cap_area. lra.
  - intros d. assert (Lp : vlen (vsub (mkV 0 0 (4 / 3)) (mkV 0 0 0)) = 4 / 3) by (apply vlen_iff; [lra|unfold vlen2, vsub; cbn; lra]).
    destruct (C103_density r (mkV 0 0 0) s (mkRay (mkV 0 0 (4 / 3)) d) B) as (-> & _); cbn [origin]; rewrite Lp; [unfold r; lra|]. unfold solid_seen. pose proof PI_RGT_0. set (y := cos_seen r (4 / 3)) in *.
    replace (1 / (2 * PI * (1 - y)) * (2 * PI * (1 - 4 / 5))) with (1 / 5 / (1 - y)) by (field; lra). apply Rmult_lt_reg_r with (1 - y); [lra|]. replace (1 / 5 / (1 - y) * (1 - y)) with (1 / 5) by (field; lra). lra.
Qed.

(** From inside of a lamp every direction meets it, but the density is that of directions over half of the unit sphere. *)
Theorem C103_inside : forall r c s point d, ball r c s -> vlen d = 1 -> vlen (vsub point c) < r -> point <> c ->
  (exists q, sphere_simple_intersect s (mkRay point d) = Hit q) /\ sphere_solid_angle_pdf s (mkRay point d) = 1 / (2 * PI) /\ has_area (sphere_surface 1 (-1) 1 360) (4 * PI).
Proof.
  intros r c s point d B U In Ne. destruct (ball_spec r c s B) as (Er & Ec & _). split; [|split].
  - assert (E0 : project (mkRay point d) 0 = point) by (unfold project, vadd, vscale; cbn [origin direction]; apply V3_eq; cbn [vx vy vz]; ring).
    destruct (inside_hits r c s point d 0 B U ltac:(lra)) as (q & _ & Hq & _); [rewrite E0; exact In|]. exists q. exact Hq.
  - unfold sphere_solid_angle_pdf. rewrite Er, Ec. cbn [origin]. assert (L : vlen2 (vsub c point) = vlen (vsub point c) * vlen (vsub point c)) by (rewrite vlen_sqr; vring). rewrite L. pose proof (vlen_nonneg (vsub point c)) as Nn. set (D := vlen (vsub point c)) in *.
    assert (D0 : 0 < D). { destruct Nn as [|Z]; [assumption|exfalso]. apply Ne. unfold D in Z. symmetry in Z. apply vlen_iff in Z; [|lra]. unfold vlen2, vsub in Z. cbn [vx vy vz] in Z. pose proof (Rle_0_sqr (vx point - vx c)) as S1. pose proof (Rle_0_sqr (vy point - vy c)) as S2. pose proof (Rle_0_sqr (vz point - vz c)) as S3. unfold Rsqr in S1, S2, S3.
      apply V3_eq; apply Rminus_diag_uniq, Rsqr_0_uniq; unfold Rsqr; lra. }
    assert (Q : 1 - r * r / (D * D) < 0). { assert (0 < D * D) by (apply Rmult_lt_0_compat; lra). apply Rmult_lt_reg_r with (D * D); [lra|]. replace ((1 - r * r / (D * D)) * (D * D)) with (D * D - r * r) by (field; lra). nra. }
    unfold fclamp. rewrite (proj2 (Rltb_true _ _) Q). rewrite sqrt_0. unfold uniform_cone_pdf. f_equal. ring.
  - replace (4 * PI) with (2 * PI * (1 - -1)) by ring. apply cap_area. lra.
Qed.

(** ** C103: a lamp does not stand in its own light *)

(** The points that the test reports on the triangles of a lamp are hardly outside of the sphere. *)
Lemma own_near s ts ns t u v : 13 / 10 ^ 11 <= s_radius s -> mesh_sphere s = Ok (ts, ns) -> In t ts -> - eps64 <= u -> - eps64 <= v -> u + v <= 1 + eps64 ->
  vlen2 (vsub (bary (ta t) (tb t) (tc t) u v) (sphere_centre s)) <= s_radius s * s_radius s * (1 + 14 / 10 ^ 18).
Proof.
  intros Hr H I Hu Hv Huv. apply mesh_inv in H as (-> & _); [|exact Hr]. apply in_mesh in I as (a & b & c & _ & (A & B & C & AB & AC & BC & _) & ->).
  set (r := s_radius s) in *. set (o := sphere_centre s). assert (P : 0 < r) by lra. destruct m5_bound as (Bd & _).
  pose proof (dot_le_1 a b A B) as D1. pose proof (dot_le_1 a c A C) as D2. pose proof (dot_le_1 b c B C) as D3.
  assert (E : eps64 <= 1 / 10 ^ 15) by (unfold eps64; rewrite <- (Rinv_involutive (1 / 10 ^ 15)) by lra; apply Rinv_le_contravar; [lra|]; lra). assert (E0 : 0 < eps64) by (unfold eps64; apply Rinv_0_lt_compat; lra).
  cbn [ta tb tc]. set (x := 1 - u - v).
  assert (Q : vlen2 (vsub (bary (place o r a) (place o r b) (place o r c) u v) o) = r * r * (1 - 2 * (x * u * (1 - vdot a b) + x * v * (1 - vdot a c) + u * v * (1 - vdot b c)))).
  { transitivity (r * r * (x * x * vlen2 a + u * u * vlen2 b + v * v * vlen2 c + 2 * (x * u * vdot a b + x * v * vdot a c + u * v * vdot b c))).
    - unfold x, bary, place, vlen2, vdot, vsub, vadd, vscale. cbn [vx vy vz]. ring.
    - rewrite A, B, C. unfold x. ring. }
  rewrite Q. apply Rmult_le_compat_l; [apply Rmult_le_pos; lra|].
  assert (Pr : forall p q k, - eps64 <= p -> - eps64 <= q -> p + q <= 1 + eps64 -> 0 <= k <= 1102 / 1000000 -> - (1 / 10 ^ 15 * (2 * (1102 / 1000000))) <= p * q * k).
  { intros p q k Hp Hq Hpq Hk. assert (Pq : - (1 / 10 ^ 15 * 2) <= p * q). { destruct (Rle_lt_dec 0 p) as [p0|p0]; destruct (Rle_lt_dec 0 q) as [q0|q0]; try nra. }
    assert (Z : 0 <= (p * q + 1 / 10 ^ 15 * 2) * k) by (apply Rmult_le_pos; lra). assert (Z2 : 1 / 10 ^ 15 * 2 * k <= 1 / 10 ^ 15 * 2 * (1102 / 1000000)) by (apply Rmult_le_compat_l; lra). lra. }
  assert (Hx : - eps64 <= x) by (unfold x; lra).
  pose proof (Pr x u (1 - vdot a b) Hx Hu ltac:(unfold x; lra) ltac:(lra)) as P1. pose proof (Pr x v (1 - vdot a c) Hx Hv ltac:(unfold x; lra) ltac:(lra)) as P2. pose proof (Pr u v (1 - vdot b c) Hu Hv Huv ltac:(lra)) as P3.
  lra.
Qed.
(** A ray from outside that first meets the lamp at the distance [k] is free up to there if nothing else is in between: the triangles that stand for the lamp do not count. *)
Theorem C103_unshaded : forall sr scene N ray fuel nodes mapping scene' r c s ts ns k, reorders sr -> well_formed scene -> manageable scene ->
  (2 * length (triangles scene) <= fuel)%nat -> (length (triangles scene) <= N + 1)%nat -> build_accelerator sr (scene, None) = Ok (mapping, (scene', Some nodes)) ->
  ball r c s -> 13 / 10 ^ 11 <= r -> mesh_sphere s = Ok (ts, ns) -> vlen (direction ray) = 1 -> r < vlen (vsub (origin ray) c) -> r * vlen (vsub (origin ray) c) <= 10000 ->
  0 < k -> vlen (vsub (project ray k) c) = r -> (forall k', 0 < k' < k -> r < vlen (vsub (project ray k') c)) ->
  (forall t q, In t (triangles scene) -> ~ In t ts -> reported ray t q -> dist2 ray q <= 1 / 10 ^ 6 \/ k * k <= dist2 ray q) ->
  scene_unobstructed_distance N (scene', Some nodes) ray (k * k) fuel = Ok true.
Proof.
  intros sr scene N (p & d) fuel nodes mapping scene' r c s ts ns k Rs W M F Nn Bd B Rr Me U Out Near K Lk First Free. cbn [origin direction] in *.
  unfold build_accelerator in Bd. cbn [fst snd] in Bd. destruct (tree_new sr scene) as [((nd & mp) & sc)| |] eqn:Et; cbn [bind] in Bd; try discriminate. injection Bd as -> -> ->.
  unfold scene_unobstructed_distance. cbn [fst snd].
  destruct (C37_sound sr scene N (mkRay p d) (k * k) fuel nodes mapping scene' Rs W M F Nn Et) as [E|(_ & t & q & It & Rp & D1 & D2)]; [exact E|exfalso].
  assert (Dec : In t ts \/ ~ In t ts) by (assert (Eq : forall x y : Tri, {x = y} + {x <> y}) by (repeat (decide equality; try apply Req_EM_T)); destruct (in_dec Eq t ts); auto).
  destruct Dec as [Own|Other]; [|destruct (Free t q It Other Rp); lra].
  destruct Rp as (u & v & Hb). destruct (C29_sound _ _ _ _ _ Hb) as (Eq & Hu & Hv & Huv & x & Hx & Ex). destruct (ball_spec r c s B) as (Er & Ec & _).
  assert (Nq := own_near s ts ns t u v ltac:(rewrite Er; exact Rr) Me Own Hu Hv Huv). rewrite <- Eq, Er, Ec in Nq. pose proof (unit2 d U) as U2.
  change (ray_at (mkRay p d) x) with (project (mkRay p d) x) in Ex.
  assert (Dq : dist2 (mkRay p d) q = x * x). { unfold dist2. rewrite Ex. cbn [origin]. transitivity (vlen2 d * (x * x)); [unfold project; cbn [origin direction]; vring|rewrite U2; ring]. }
  rewrite Dq in *. rewrite Ex in Nq. rewrite along in Nq by exact U2. apply vlen_iff in Lk; [|lra]. rewrite along in Lk by exact U2.
  set (b := vdot (vsub p c) d) in *. set (D := vlen (vsub p c)) in *. assert (D2' : vlen2 (vsub p c) = D * D) by (rewrite <- vlen_sqr; fold D; ring). rewrite D2' in *.
  assert (Xk : x < k). { destruct (Rlt_le_dec x k) as [|Q]; [assumption|exfalso]. assert (0 < 1 / 10 ^ 4) by lra. nra. }
  (* the second crossing is not before the first *)
  assert (K2 : k <= - b). { destruct (Rle_lt_dec k (- b)) as [|Q]; [assumption|exfalso].
    set (k2 := - 2 * b - k). assert (Hk2 : k2 < k) by (unfold k2; lra). assert (Pk : k * k2 = D * D - r * r) by (unfold k2; nra). assert (P0 : 0 < r) by lra. assert (0 < D * D - r * r) by nra. assert (0 < k2) by nra.
    assert (Mid : 0 < (k2 + k) / 2 < k) by lra. pose proof (First _ Mid) as Fm. assert (F2 : r * r < vlen2 (vsub (project (mkRay p d) ((k2 + k) / 2)) c)) by (rewrite <- vlen_sqr; nra). rewrite along in F2 by exact U2. fold b in F2. rewrite D2' in F2. assert (Z : ((k2 + k) / 2) = - b) by (unfold k2; field). rewrite Z in F2. nra. }
  assert (Sq : (k - x) * (k - x) <= r * r * (14 / 10 ^ 18)) by nra.
  assert (Kd : k <= D). { assert (- b <= D). { pose proof (lagrange (vsub p c) d) as Lg. pose proof (vlen2_nonneg (vcross (vsub p c) d)). fold b in Lg. rewrite D2', U2 in Lg. nra. } lra. }
  assert (Gap : k - x <= r * (38 / 10 ^ 10)). { destruct (Rle_lt_dec (k - x) (r * (38 / 10 ^ 10))) as [|Q]; [assumption|exfalso]. assert (r * (38 / 10 ^ 10) * (r * (38 / 10 ^ 10)) < (k - x) * (k - x)) by (apply Rmult_le_0_lt_compat; nra). nra. }
  assert (Fin : k * k - x * x <= r * (38 / 10 ^ 10) * (2 * D)) by (replace (k * k - x * x) with ((k - x) * (k + x)) by ring; apply Rmult_le_compat; lra).
  assert (r * (38 / 10 ^ 10) * (2 * D) <= 76 / 10 ^ 10 * 10000) by (replace (r * (38 / 10 ^ 10) * (2 * D)) with (76 / 10 ^ 10 * (r * D)) by field; apply Rmult_le_compat_l; lra). lra.
Qed.

(** ** C103: what else goes wrong *)

(** A luminous cylinder is accepted as a light, but nothing of it is put among the triangles; every path that then meets a matte surface panics. *)
Theorem C103_cylinder : forall cy rs front back mf mb, nth_error (mats rs) front = Some mf -> nth_error (mats rs) back = Some mb -> emits_light mf || emits_light mb = true ->
  exists rs', push_object rs front back (PCylinder cy) = Ok rs' /\ triangles (geom rs') = triangles (geom rs) /\ lights rs' = lights rs ++ [mkObject (PCylinder cy) front back] /\
  forall G (gen : G -> R * G) gi N wf wardf lf w max_depth ns ray k inter m g, lights (w_scene w) = [mkObject (PCylinder cy) front back] -> distant_lights (w_scene w) = [] -> (0 < ns)%nat ->
    scene_cast_ray N (w_state w) wf ray = Ok (Some (k, inter)) -> hit_material (geom (w_scene w)) (mats (w_scene w)) (k, inter) = Ok (Some m) -> emits_light m = false -> specular_only m = false ->
    trace_ray gen gi N wf wardf (S lf) w max_depth ns g ray = Panic.
Proof.
  intros cy rs front back mf mb Ef Eb Em. unfold push_object. rewrite Ef, Eb, Em. cbn [bind geom mats lights distant_lights triangles length repeat]. eexists. split; [reflexivity|]. split; [cbn [geom triangles]; apply app_nil_r|]. split; [reflexivity|].
  intros G gen gi N wf wardf lf w max_depth ns ray k inter m g W1 W2 Ns Cr Hm Me Ms.
  assert (Lp : get_local_illumination gen gi N wf (S lf) w m inter g ns = Panic).
  { unfold get_local_illumination. rewrite W1, W2. cbn [app length]. destruct (gi g) as [ki g1]. unfold sample_light_uniform. rewrite W1, W2. cbn [length Nat.add]. rewrite Nat.mod_1_r. cbn [nth_error Nat.sub Nat.ltb Nat.leb].
    destruct ns as [|ns]; [lia|]. cbn [shadow_loop o_primitive]. destruct (1 <? S ns)%nat; [unfold light_sample_direction; destruct (gen2 gen g1)|]; reflexivity. }
  unfold trace_ray. destruct max_depth; cbn [trace_loop]; rewrite Cr; cbn [bind]; rewrite Hm; cbn [bind]; rewrite Me, Ms; cbn [Nat.eqb]; rewrite Lp; reflexivity.
Qed.

(** A path that meets a lamp after a matte surface adds nothing, whatever its length: what the weight of the shadow rays takes away is not given back. *)
Theorem C103_lost : forall G (gen : G -> R * G) gi N wf wardf lf w ns budget depth ray prob beta coef acc g k inter m,
  scene_cast_ray N (w_state w) wf ray = Ok (Some (k, inter)) -> hit_material (geom (w_scene w)) (mats (w_scene w)) (k, inter) = Ok (Some m) -> emits_light m = true ->
  trace_loop gen gi N wf wardf lf w ns budget depth ray prob beta coef false acc g = Ok (Some (acc, g)).
Proof. intros G gen gi N wf wardf lf w ns budget depth ray prob beta coef acc g k inter m Cr Hm Em. destruct budget; cbn [trace_loop]; rewrite Cr; cbn [bind]; rewrite Hm; cbn [bind]; rewrite Em; reflexivity. Qed.

(** *** A room with a wall at x = 1 and a lamp of radius 1/2 *)

(** A ray that looks at the point (1, 1, 1) of the wall, from a distance of 3, and passes the lamp at [c] *)
Definition looks (c : pt) (ray : Ray) : Prop := vlen (direction ray) = 1 /\ oblique ray /\ passes_through ray (across 1) (mkV 1 1 1) /\ dist2 ray (mkV 1 1 1) = 9 /\ 0 < vx (direction ray) /\
  let b := vdot (vsub (origin ray) c) (direction ray) in 1 < vlen2 (vsub (origin ray) c) - b * b.
Definition spot : pt := mkV (999 / 1000) 1 1.
Lemma room c : vis_zero c = false -> exists bulb s1 s2 mapping scene' nodes, ball (1 / 2) c bulb /\
  push_object (mkRScene (mkScene [] [] [] []) lit_mats [] []) 0 0 (PTriangle (ta (across 1)) (tb (across 1)) (tc (across 1))) = Ok s1 /\ push_object s1 1 1 (PSphere bulb) = Ok s2 /\
  build_accelerator simple_reorder (geom s2, None) = Ok (mapping, (scene', Some nodes)) /\ lights s2 = [mkObject (PSphere bulb) 1 1] /\ distant_lights s2 = [] /\ mats s2 = lit_mats /\
  let w := mkWorld (mkRScene scene' (mats s2) (lights s2) (distant_lights s2)) (Some nodes) None None in
  forall N wf, (20 * 4 ^ 5 <= N)%nat -> (2 * S (20 * 4 ^ 5) <= wf)%nat -> answers N wf w /\
  (forall ray, looks c ray -> exists k inter, scene_cast_ray N (w_state w) wf ray = Ok (Some (k, inter)) /\ arrives (direction ray) inter /\ it_point inter = mkV 1 1 1 /\ normal_of inter = mkV (-1) 0 0 /\
     hit_material (geom (w_scene w)) (mats (w_scene w)) (k, inter) = Ok (Some (Diffuse (gray (1 / 2))))) /\
  (forall D, vlen (vsub spot c) = D -> 1 < D < 100 -> vx c < vx spot -> scene_unobstructed_distance N (w_state w) (mkRay spot (unit_of (vsub c spot))) ((D - 1 / 2) * (D - 1 / 2)) wf = Ok true).
Proof.
  intros Vc. destruct (sphere_new_made (1 / 2) c ltac:(lra)) as (bulb & E & _). assert (B : ball (1 / 2) c bulb) by (split; [lra|split; [exact E|right; exact Vc]]).
  destruct (ball_spec _ _ _ B) as (Er & Ec & _). assert (Hr : 13 / 10 ^ 11 <= s_radius bulb) by (rewrite Er; lra). destruct (C102_mesh bulb Hr) as (ts & ns & Me & Lt & Ln & _).
  assert (P1 : push_object (mkRScene (mkScene [] [] [] []) lit_mats [] []) 0 0 (PTriangle (ta (across 1)) (tb (across 1)) (tc (across 1))) =
    Ok (mkRScene (mkScene [across 1] [(mkV 1 0 0, mkV 1 0 0, mkV 1 0 0)] [0%nat] [0%nat]) lit_mats [] [])).
  { unfold push_object. cbn [mats lit_mats nth_error emits_light orb]. unfold mesh_triangle. replace (vcross _ _) with (mkV 16 0 0) by (unfold across, vcross, vsub; apply V3_eq; cbn; lra). destruct (normalize_of (mkV 16 0 0)) as (-> & _). { unfold vlen2. cbn. pose proof tiny20. lra. }
    cbn [bind]. assert (Eu : unit_of (mkV 16 0 0) = mkV 1 0 0) by (unfold unit_of; assert (vlen (mkV 16 0 0) = 16) as -> by (apply vlen_iff; [lra|unfold vlen2; cbn; lra]); unfold vscale; apply V3_eq; cbn; lra). rewrite Eu. reflexivity. }
  set (norms := (mkV 1 0 0, mkV 1 0 0, mkV 1 0 0) :: ns). set (f := repeat 1%nat (length ts)). set (sc := mkScene (across 1 :: ts) norms (0%nat :: f) (0%nat :: f)).
  assert (P2 : push_object (mkRScene (mkScene [across 1] [(mkV 1 0 0, mkV 1 0 0, mkV 1 0 0)] [0%nat] [0%nat]) lit_mats [] []) 1 1 (PSphere bulb) = Ok (mkRScene sc lit_mats [mkObject (PSphere bulb) 1 1] [])).
  { unfold push_object. cbn [mats lit_mats nth_error emits_light orb geom lights distant_lights]. rewrite Me. cbn [bind]. reflexivity. }
  assert (Lf : length f = length ts) by apply repeat_length. assert (Lr : (Z.of_nat (S (length ts)) < 2 ^ 15)%Z) by (rewrite Lt, Nat2Z.inj_succ, Nat2Z.inj_mul, Nat2Z.inj_pow; reflexivity).
  assert (Lm : length norms = S (length ts)) by (unfold norms; cbn [length]; rewrite Ln, Lt; reflexivity).
  assert (W : well_formed sc) by (unfold well_formed, sc; cbn [normals triangles front_material_indexes back_material_indexes length]; lia).
  assert (Mg : manageable sc). { split; [unfold sc; cbn [triangles length]; lia|]. intros x. eapply Z.le_lt_trans; [apply Nat2Z.inj_le, filter_length_le'|]. exact Lr. }
  destruct (C35_permutation simple_reorder sc reorders_exists W) as (mapping & scene' & nodes & Bd & _).
  exists bulb. do 2 eexists. exists mapping, scene', nodes. split; [exact B|]. split; [exact P1|]. split; [exact P2|]. cbn [geom lights distant_lights mats]. split; [exact Bd|]. split; [reflexivity|]. split; [reflexivity|]. split; [reflexivity|].
  set (w := mkWorld (mkRScene scene' _ _ _) _ _ _). intros N wf HN Hwf. rewrite <- Lt in HN, Hwf. assert (Sz : (2 * length (triangles sc) <= wf)%nat) by (unfold sc; cbn [triangles length]; lia). assert (Sn : (length (triangles sc) <= N + 1)%nat) by (unfold sc; cbn [triangles length]; lia).
  split; [apply (answers_built simple_reorder sc N wf mapping scene' nodes); try assumption; exact reorders_exists|]. split.
  - intros ray (U & Ob & Ps & D9 & Dx & Far). destruct (wall_cast ray ts norms f f lit_mats simple_reorder N wf mapping scene' nodes U Ob Ps D9 Dx reorders_exists Lm Lf Lf Lr) as (k & inter & Cr & A & Pt & Nm & _ & m & Em & Hm).
    + intros t q It (u & v & Hb). destruct (C29_sound _ _ _ _ _ Hb) as (Eq & Hu & Hv & Huv & x & Hx & Ex). pose proof (own_near bulb ts ns t u v Hr Me It Hu Hv Huv) as Nq. rewrite <- Eq, Er, Ec, Ex in Nq.
      destruct ray as (p & d). cbn [origin direction] in *. change (ray_at (mkRay p d) x) with (project (mkRay p d) x) in Nq. rewrite along in Nq by (apply unit2; exact U). set (b := vdot (vsub p c) d) in *. cbv zeta in Far. pose proof (Rle_0_sqr (x + b)) as Sq. unfold Rsqr in Sq. lra.
    + discriminate.
    + exact Bd.
    + lia.
    + lia.
    + exists k, inter. cbn in Em. injection Em as <-. auto.
  - intros D ED HD Hx. set (d := unit_of (vsub c spot)). assert (Dd : vlen (vsub c spot) = D) by (rewrite <- ED; unfold vlen; f_equal; vring). assert (D2 : vlen2 (vsub c spot) = D * D) by (rewrite <- vlen_sqr, Dd; ring).
    assert (Ed : d = vscale (vsub c spot) (1 / D)) by (unfold d, unit_of; rewrite Dd; reflexivity).
    assert (U2 : vlen2 d = 1) by (rewrite Ed; transitivity (vlen2 (vsub c spot) * (1 / D * (1 / D))); [vring|rewrite D2; field; lra]). assert (U : vlen d = 1) by (apply vlen_iff; lra).
    assert (Pr : forall k, vsub (project (mkRay spot d) k) c = vscale d (k - D)). { intros k. assert (Ev : vsub c spot = vscale d D). { rewrite Ed. destruct (vsub c spot). unfold vscale. apply V3_eq; cbn; field; lra. } transitivity (vsub (vscale d k) (vsub c spot)); [unfold project; cbn [origin direction]; vring|]. rewrite Ev. vring. }
    assert (Ln' : forall k, vlen (vsub (project (mkRay spot d) k) c) = Rabs (k - D)). { intros k. rewrite Pr. apply vlen_iff; [apply Rabs_pos|]. rewrite <- Rabs_mult, Rabs_right by (apply Rle_ge, Rle_0_sqr). transitivity (vlen2 d * ((k - D) * (k - D))); [vring|rewrite U2; ring]. }
    unfold w_state, w. cbn [w_scene geom w_nodes]. apply (C103_unshaded simple_reorder sc N (mkRay spot d) wf nodes mapping scene' (1 / 2) c bulb ts ns (D - 1 / 2) reorders_exists W Mg Sz Sn Bd B ltac:(lra) Me); cbn [origin direction].
    + exact U.
    + rewrite ED. lra.
    + rewrite ED. lra.
    + lra.
    + rewrite Ln', Rabs_left; lra.
    + intros k' K'. rewrite Ln', Rabs_left; lra.
    + intros t q [<-|It] Ot (u & v & Hb); [exfalso|contradiction]. destruct (C29_sound _ _ _ _ _ Hb) as (Eq & _ & _ & _ & x & Hx' & Ex). assert (Xq : vx q = 1) by (rewrite Eq; unfold bary, across; cbn; lra). assert (Xs : vx q = 999 / 1000 + x * vx d) by (rewrite Ex; unfold ray_at, spot; cbn [origin direction vx vadd vscale]; ring).
      assert (vx d < 0). { rewrite Ed. unfold vscale, vsub. cbn [vx]. assert (0 < 1 / D) by (apply Rdiv_lt_0_compat; lra). nra. } nra.
Qed.
(** Two ways to look at the wall *)
Definition glance2 : Ray := mkRay (mkV 0 (-1) (-1)) (mkV (1 / 3) (2 / 3) (2 / 3)).
Lemma glance_looks c : 1 < vlen2 (vsub (mkV (-1) 0 (-1)) c) - vdot (vsub (mkV (-1) 0 (-1)) c) (mkV (2 / 3) (1 / 3) (2 / 3)) * vdot (vsub (mkV (-1) 0 (-1)) c) (mkV (2 / 3) (1 / 3) (2 / 3)) -> looks c glance.
Proof. intros H. split; [exact glance_unit|]. split; [exact glance_oblique|]. split; [exact glance_hits|]. split; [exact glance_far|]. split; [unfold glance; cbn; lra|]. exact H. Qed.
Lemma glance2_looks c : 1 < vlen2 (vsub (mkV 0 (-1) (-1)) c) - vdot (vsub (mkV 0 (-1) (-1)) c) (mkV (1 / 3) (2 / 3) (2 / 3)) * vdot (vsub (mkV 0 (-1) (-1)) c) (mkV (1 / 3) (2 / 3) (2 / 3)) -> looks c glance2.
Proof.
  intros H. split; [apply vlen_iff; [lra|unfold vlen2, glance2; cbn; lra]|]. split; [unfold oblique, glance2; cbn; lra|]. split.
  { exists 3, (1 / 4), (1 / 4). split; [lra|]. split; [lra|]. split; [lra|]. split; [lra|].
    split; [unfold ray_at, glance2, vadd, vscale; apply V3_eq; cbn; lra|]. split; [unfold bary, across; apply V3_eq; cbn; lra|].
    unfold alignment, glance2, across, vdot, vcross, vsub. cbn [vx vy vz ta tb tc direction]. rewrite Rabs_right; lra. }
  split; [unfold dist2, vlen2, vsub, glance2; cbn; lra|]. split; [unfold glance2; cbn; lra|]. exact H.
Qed.
Lemma not_zero c : 1 < vz c -> vis_zero c = false.
Proof. intros H. unfold vis_zero. assert (100 * eps64 < 1) by (pose proof eps_small; lra). rewrite (proj2 (Rltb_false (Rabs (vz c)) (100 * eps64))) by (rewrite Rabs_right; lra). rewrite ?andb_false_r. reflexivity. Qed.
(** A lamp three metres from the wall: the wall shows between 0.0931 and 0.0933 of a lamp that shows 10, and something else if it is looked at from elsewhere. *)
Lemma viewed : let c := mkV (-1001 / 1000) 2 3 in exists bulb s1 s2 mapping scene' nodes, ball (1 / 2) c bulb /\
  push_object (mkRScene (mkScene [] [] [] []) lit_mats [] []) 0 0 (PTriangle (ta (across 1)) (tb (across 1)) (tc (across 1))) = Ok s1 /\ push_object s1 1 1 (PSphere bulb) = Ok s2 /\
  build_accelerator simple_reorder (geom s2, None) = Ok (mapping, (scene', Some nodes)) /\
  let w := mkWorld (mkRScene scene' (mats s2) (lights s2) (distant_lights s2)) (Some nodes) None None in
  forall G (gen : G -> R * G) gi N wf wardf lf g ray, (20 * 4 ^ 5 <= N)%nat -> (2 * S (20 * 4 ^ 5) <= wf)%nat -> looks c ray ->
  exists g' x, x = solid_seen (1 / 2) 3 / PI /\ trace_ray gen gi N wf wardf (S lf) w 0 1 g ray = Ok (Some (gray (10 / 3 * x / (1 + (vx (direction ray) * x) ^ 2)), g')).
Proof.
  intros c. destruct (room c) as (bulb & s1 & s2 & mapping & scene' & nodes & B & P1 & P2 & Bd & L1 & L2 & Em & H); [apply not_zero; unfold c; cbn; lra|].
  exists bulb, s1, s2, mapping, scene', nodes. do 4 (split; [assumption|]). intros w G gen gi N wf wardf lf g ray HN Hwf Lk. destruct (H N wf HN Hwf) as (An & See & Free). fold w in An, See, Free.
  destruct (See ray Lk) as (k & inter & Cr & A & Pt & Nm & Hm). assert (Sp : vadd (mkV 1 1 1) (vscale (mkV (-1) 0 0) (1 / 1000)) = spot) by (unfold spot, vadd, vscale; apply V3_eq; cbn; lra).
  assert (E3 : vlen (vsub spot c) = 3) by (apply vlen_iff; [lra|unfold spot, c, vlen2, vsub; cbn; lra]).
  assert (Ed : unit_of (vsub c spot) = mkV (-2 / 3) (1 / 3) (2 / 3)) by (unfold unit_of; assert (vlen (vsub c spot) = 3) as -> by (apply vlen_iff; [lra|unfold spot, c, vlen2, vsub; cbn; lra]); unfold spot, c, vscale, vsub; apply V3_eq; cbn; lra).
  destruct (C103_lit G gen gi N wf wardf lf w (mkObject (PSphere bulb) 1 1) (1 / 2) c bulb (Light (gray 10)) ray k inter (Diffuse (gray (1 / 2))) g L1 L2 eq_refl B ltac:(lra)) as (col & g' & Et & Lit & _); try assumption; try reflexivity.
  { unfold w. cbn [w_scene mats o_front]. rewrite Em. reflexivity. } { cbn. unfold channels, gray. cbn. lra. }
  1, 2: rewrite Pt, Nm.
  { rewrite Sp, E3. lra. }
  { rewrite Sp, Ed. cbn [vx]. rewrite Rabs_left; lra. }
  rewrite Pt, Nm, Sp, Ed, E3 in Lit. rewrite <- Ed, (Free 3 E3 ltac:(lra) ltac:(unfold c, spot; cbn; lra)), Ed in Lit. specialize (Lit eq_refl).
  destruct Lit as (wt & _ & Ew & ->); [unfold vdot; cbn; lra|]. exists g', (solid_seen (1 / 2) 3 / PI). split; [reflexivity|]. rewrite Et, (Ew _ eq_refl). set (x := solid_seen (1 / 2) 3 / PI).
  replace (vdot (mkV (-1) 0 0) (vneg (direction ray))) with (vx (direction ray)) by (unfold vdot, vneg; cbn [vx vy vz]; ring). replace (vdot (mkV (-1) 0 0) (mkV (-2 / 3) (1 / 3) (2 / 3))) with (2 / 3) by (unfold vdot; cbn; lra).
  replace (vx (direction ray) * solid_seen (1 / 2) 3 / PI) with (vx (direction ray) * x) by (unfold x, Rdiv; ring). replace (2 / 3 * solid_seen (1 / 2) 3 / PI) with (2 / 3 * x) by (unfold x, Rdiv; ring).
  assert (0 <= (vx (direction ray) * x) ^ 2) by apply pow2_ge_0. repeat f_equal. unfold smul, sscale, gray. cbn [colour_of red green blue]. f_equal; field; lra.
Qed.

Lemma seen_bounds : 1 / 36 < solid_seen (1 / 2) 3 / PI < 28 / 1000.
Proof.
  unfold solid_seen, cos_seen. pose proof PI_RGT_0. replace (1 / 2 / 3 * (1 / 2 / 3)) with (1 / 36) by field. set (q := sqrt (1 - 1 / 36)). assert (Q : q * q = 35 / 36) by (unfold q; rewrite sqrt_sqrt; lra). assert (Q0 : 0 <= q) by apply sqrt_pos.
  replace (2 * PI * (1 - q) / PI) with (2 * (1 - q)) by (field; lra). split; nra.
Qed.
Example C103_lit_example : let c := mkV (-1001 / 1000) 2 3 in exists bulb s1 s2 mapping scene' nodes, ball (1 / 2) c bulb /\
  push_object (mkRScene (mkScene [] [] [] []) lit_mats [] []) 0 0 (PTriangle (ta (across 1)) (tb (across 1)) (tc (across 1))) = Ok s1 /\ push_object s1 1 1 (PSphere bulb) = Ok s2 /\
  build_accelerator simple_reorder (geom s2, None) = Ok (mapping, (scene', Some nodes)) /\
  let w := mkWorld (mkRScene scene' (mats s2) (lights s2) (distant_lights s2)) (Some nodes) None None in
  forall G (gen : G -> R * G) gi N wf wardf lf g, (20 * 4 ^ 5 <= N)%nat -> (2 * S (20 * 4 ^ 5) <= wf)%nat ->
  exists g' v, 92 / 1000 < v < 94 / 1000 /\ trace_ray gen gi N wf wardf (S lf) w 0 1 g glance = Ok (Some (gray v, g')).
Proof.
  intros c. destruct viewed as (bulb & s1 & s2 & mapping & scene' & nodes & B & P1 & P2 & Bd & H). exists bulb, s1, s2, mapping, scene', nodes. do 4 (split; [assumption|]). intros w G gen gi N wf wardf lf g HN Hwf.
  destruct (H G gen gi N wf wardf lf g glance HN Hwf) as (g' & x & Ex & Et); [apply glance_looks; unfold vlen2, vdot, vsub; cbn; lra|]. exists g', (10 / 3 * x / (1 + (vx (direction glance) * x) ^ 2)). split; [|exact Et].
  pose proof seen_bounds as Sb. rewrite <- Ex in Sb. unfold glance. cbn [direction vx]. assert (P : 0 < 1 + (2 / 3 * x) ^ 2) by nra. split; apply Rmult_lt_reg_r with (1 + (2 / 3 * x) ^ 2); try exact P; replace (10 / 3 * x / (1 + (2 / 3 * x) ^ 2) * (1 + (2 / 3 * x) ^ 2)) with (10 / 3 * x) by (field; lra); nra.
Qed.
(** The same point of the same matte wall shows different radiances from different sides. *)
Theorem C103_matte_refuted : let c := mkV (-1001 / 1000) 2 3 in exists bulb s1 s2 mapping scene' nodes, ball (1 / 2) c bulb /\
  push_object (mkRScene (mkScene [] [] [] []) lit_mats [] []) 0 0 (PTriangle (ta (across 1)) (tb (across 1)) (tc (across 1))) = Ok s1 /\ push_object s1 1 1 (PSphere bulb) = Ok s2 /\
  build_accelerator simple_reorder (geom s2, None) = Ok (mapping, (scene', Some nodes)) /\
  let w := mkWorld (mkRScene scene' (mats s2) (lights s2) (distant_lights s2)) (Some nodes) None None in
  forall G (gen : G -> R * G) gi N wf wardf lf g, (20 * 4 ^ 5 <= N)%nat -> (2 * S (20 * 4 ^ 5) <= wf)%nat ->
  exists g1 v1 g2 v2, passes_through glance (across 1) (mkV 1 1 1) /\ passes_through glance2 (across 1) (mkV 1 1 1) /\
    trace_ray gen gi N wf wardf (S lf) w 0 1 g glance = Ok (Some (gray v1, g1)) /\ trace_ray gen gi N wf wardf (S lf) w 0 1 g glance2 = Ok (Some (gray v2, g2)) /\ v1 < v2.
Proof.
  intros c. destruct viewed as (bulb & s1 & s2 & mapping & scene' & nodes & B & P1 & P2 & Bd & H). exists bulb, s1, s2, mapping, scene', nodes. do 4 (split; [assumption|]). intros w G gen gi N wf wardf lf g HN Hwf.
  assert (K1 : looks c glance) by (apply glance_looks; unfold vlen2, vdot, vsub; cbn; lra). assert (K2 : looks c glance2) by (apply glance2_looks; unfold vlen2, vdot, vsub; cbn; lra).
  destruct (H G gen gi N wf wardf lf g glance HN Hwf K1) as (g1 & x & Ex & E1). destruct (H G gen gi N wf wardf lf g glance2 HN Hwf K2) as (g2 & x' & Ex' & E2).
  exists g1. eexists. exists g2. eexists. split; [apply K1|]. split; [apply K2|]. split; [exact E1|]. split; [exact E2|]. rewrite Ex', <- Ex. unfold glance, glance2. cbn [direction vx]. pose proof seen_bounds as Sb. rewrite <- Ex in Sb.
  assert (0 < x ^ 2) by (apply pow_lt; lra). unfold Rdiv. apply Rmult_lt_compat_l; [lra|]. apply Rinv_lt_contravar; [apply Rmult_lt_0_compat; nra|]. nra.
Qed.
(** Under the middle of a lamp: the wall and a lamp that hangs straight above the point *)
Example C103_below_example : let c := mkV (999 / 1000) 1 4 in exists bulb s1 s2 mapping scene' nodes, ball (1 / 2) c bulb /\
  push_object (mkRScene (mkScene [] [] [] []) lit_mats [] []) 0 0 (PTriangle (ta (across 1)) (tb (across 1)) (tc (across 1))) = Ok s1 /\ push_object s1 1 1 (PSphere bulb) = Ok s2 /\
  build_accelerator simple_reorder (geom s2, None) = Ok (mapping, (scene', Some nodes)) /\
  let w := mkWorld (mkRScene scene' (mats s2) (lights s2) (distant_lights s2)) (Some nodes) None None in
  forall G (gen : G -> R * G) gi N wf wardf lf g max_depth, (20 * 4 ^ 5 <= N)%nat -> (2 * S (20 * 4 ^ 5) <= wf)%nat ->
  trace_ray gen gi N wf wardf (S lf) w max_depth 1 g glance = Panic.
Proof.
  intros c. destruct (room c) as (bulb & s1 & s2 & mapping & scene' & nodes & B & P1 & P2 & Bd & L1 & L2 & Em & H); [apply not_zero; unfold c; cbn; lra|].
  exists bulb, s1, s2, mapping, scene', nodes. do 4 (split; [assumption|]). intros w G gen gi N wf wardf lf g max_depth HN Hwf. destruct (H N wf HN Hwf) as (_ & See & _). fold w in See.
  destruct (See glance) as (k & inter & Cr & A & Pt & Nm & Hm); [apply glance_looks; unfold c, vlen2, vdot, vsub; cbn; lra|].
  assert (Sp : vadd (mkV 1 1 1) (vscale (mkV (-1) 0 0) (1 / 1000)) = spot) by (unfold spot, vadd, vscale; apply V3_eq; cbn; lra).
  apply (C103_below G gen gi N wf wardf lf w (mkObject (PSphere bulb) 1 1) (1 / 2) c bulb max_depth glance k inter (Diffuse (gray (1 / 2))) g L1 L2 eq_refl B Cr Hm eq_refl eq_refl); rewrite Pt, Nm, Sp; try reflexivity.
  assert (vlen (vsub spot c) = 3) as -> by (apply vlen_iff; [lra|unfold spot, c, vlen2, vsub; cbn; lra]). lra.
Qed.
(** Somebody who looks from inside of a lamp, and from beside it *)
Example C103_inside_example : exists s, ball 1 (mkV 0 0 0) s /\ sphere_solid_angle_pdf s (mkRay (mkV 0 0 (1 / 2)) (mkV 0 0 1)) = 1 / (2 * PI) /\
  (exists q, sphere_simple_intersect s (mkRay (mkV 0 0 2) (mkV 0 0 (-1))) = Hit q) /\ sphere_simple_intersect s (mkRay (mkV 0 0 2) (mkV 0 0 1)) = Miss.
Proof.
  destruct (sphere_new_made 1 (mkV 0 0 0) ltac:(lra)) as (s & E & _). assert (B : ball 1 (mkV 0 0 0) s) by (split; [lra|split; [exact E|left; reflexivity]]). exists s. split; [exact B|].
  assert (L1 : vlen (mkV 0 0 1) = 1) by (apply vlen_iff; [lra|unfold vlen2; cbn; lra]). assert (L2 : vlen (mkV 0 0 (-1)) = 1) by (apply vlen_iff; [lra|unfold vlen2; cbn; lra]).
  assert (O2 : vlen (vsub (mkV 0 0 2) (mkV 0 0 0)) = 2) by (apply vlen_iff; [lra|unfold vlen2, vsub; cbn; lra]). assert (C2 : cos_seen 1 2 < 1 /\ 0 < cos_seen 1 2) by (destruct (cos_seen_range 1 2 ltac:(lra)) as (? & _); lra).
  assert (Ax : unit_of (vsub (mkV 0 0 0) (mkV 0 0 2)) = mkV 0 0 (-1)). { unfold unit_of. assert (vlen (vsub (mkV 0 0 0) (mkV 0 0 2)) = 2) as -> by (apply vlen_iff; [lra|unfold vlen2, vsub; cbn; lra]). unfold vscale, vsub. apply V3_eq; cbn; lra. }
  split; [|split].
  - apply (C103_inside 1 (mkV 0 0 0) s (mkV 0 0 (1 / 2)) (mkV 0 0 1) B L1).
    + assert (vlen (vsub (mkV 0 0 (1 / 2)) (mkV 0 0 0)) = 1 / 2) as -> by (apply vlen_iff; [lra|unfold vlen2, vsub; cbn; lra]). lra.
    + intros Q. apply (f_equal vz) in Q. cbn in Q. lra.
  - apply (C103_cone 1 (mkV 0 0 0) s (mkRay (mkV 0 0 2) (mkV 0 0 (-1))) B L2); cbn [origin direction]; rewrite O2; [lra|]. rewrite Ax. unfold vdot. cbn [vx vy vz]. lra.
  - destruct (ball_spec _ _ _ B) as (_ & _ & H). destruct (H (mkRay (mkV 0 0 2) (mkV 0 0 1))) as (_ & _ & H3); [unfold vlen2; cbn; lra|].
    destruct (sphere_simple_intersect s (mkRay (mkV 0 0 2) (mkV 0 0 1))) as [|q|] eqn:Es; [reflexivity|exfalso|exfalso].
    + assert (K : cos_seen 1 (vlen (vsub (mkV 0 0 2) (mkV 0 0 0))) <= vdot (mkV 0 0 1) (unit_of (vsub (mkV 0 0 0) (mkV 0 0 2)))).
      { apply (C103_cone 1 (mkV 0 0 0) s (mkRay (mkV 0 0 2) (mkV 0 0 1)) B L1); cbn [origin]; [rewrite O2; lra|exists q; exact Es]. }
      rewrite O2, Ax in K. unfold vdot in K. cbn [vx vy vz] in K. lra.
    + destruct (proj1 H3 eq_refl) as (Q & _). cbn [origin] in Q. rewrite O2 in Q. lra.
Qed.
Example C103_cylinder_example : exists cy rs' mapping scene' nodes, cylinder_new_transformed 1 0 2 360 None = Ok cy /\
  push_object (mkRScene (mkScene [across 1] [n0] [0%nat] [0%nat]) lit_mats [] []) 1 1 (PCylinder cy) = Ok rs' /\ build_accelerator simple_reorder (geom rs', None) = Ok (mapping, (scene', Some nodes)) /\
  let w := mkWorld (mkRScene scene' (mats rs') (lights rs') (distant_lights rs')) (Some nodes) None None in
  forall G (gen : G -> R * G) gi wardf lf max_depth ns g, (0 < ns)%nat -> trace_ray gen gi 32 2 wardf (S lf) w max_depth ns g glance = Panic.
Proof.
  destruct (cylinder_new_ok 1 2 None ltac:(lra)) as (cy & Ec). set (sc := mkScene [across 1] [n0] [0%nat] [0%nat]). assert (W : well_formed sc) by (unfold well_formed, sc; cbn; auto).
  destruct (C35_permutation simple_reorder sc reorders_exists W) as (mapping & scene' & nodes & B & _). exists cy. eexists. exists mapping, scene', nodes. split; [exact Ec|]. split; [reflexivity|]. split; [exact B|]. 
  intros w G gen gi wardf lf max_depth ns g Ns.
  destruct (wall_cast glance [] [n0] [] [] lit_mats simple_reorder 32 2 mapping scene' nodes glance_unit glance_oblique glance_hits glance_far ltac:(unfold glance; cbn; lra) reorders_exists) as (k & inter & Cr & A & Pt & Nm & _ & m & Em & Hm).
  { reflexivity. } { reflexivity. } { reflexivity. } { cbn; lia. } { intros t q []. } { discriminate. } { exact B. } { cbn; lia. } { cbn; lia. }
  cbn in Em. injection Em as <-.
  destruct (C103_cylinder cy (mkRScene sc lit_mats [] []) 1 1 (Light (gray 10)) (Light (gray 10)) eq_refl eq_refl eq_refl) as (rs2 & _ & _ & _ & P).
  apply (P G gen gi 32%nat 2%nat wardf lf w max_depth ns glance k inter (Diffuse (gray (1 / 2))) g eq_refl eq_refl Ns Cr Hm eq_refl eq_refl).
Qed.

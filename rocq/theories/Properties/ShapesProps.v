(** C99-C101: spheres, cylinders and discs *)
From Coquelicot Require Import Coquelicot.
From Coq Require Import Reals List Bool Lra Lia Psatz.
From Verif.Common Require Import Base Flt.
From Verif.Geometry Require Import Vec BBoxModel TransformModel TriangleModel ShapesModel ShapesProofs.
Import ListNotations.
Open Scope R_scope.

(** ** C99: spheres *)

(** The part of the sphere of radius [r] around the origin between the heights [z0] and [z1] and the longitudes 0 and [deg] degrees *)
Definition on_sphere (r z0 z1 deg : R) (p : pt) : Prop :=
  vlen p = r /\ z0 <= vz p <= z1 /\
  exists phi, 0 <= phi <= to_radians deg /\ vx p = sqrt (vx p * vx p + vy p * vy p) * cos phi /\ vy p = sqrt (vx p * vx p + vy p * vy p) * sin phi.
(** The neighbourhood of the poles where the program moves points *)
Definition near_pole (r : R) (p : pt) : Prop := Rabs (vx p) < r / 10 ^ 5 /\ Rabs (vy p) < r / 10 ^ 5.

Lemma near_pole_dec r p : {near_pole r p} + {~ near_pole r p}.
Proof. unfold near_pole. destruct (Rlt_dec (Rabs (vx p)) (r / 10 ^ 5)), (Rlt_dec (Rabs (vy p)) (r / 10 ^ 5)); [left|right|right|right]; tauto. Qed.
Lemma to_radians_range deg : 0 <= deg <= 360 -> 0 <= to_radians deg <= 2 * PI.
Proof. intros H. pose proof PI_RGT_0. unfold to_radians. split; [apply Rmult_le_pos; lra|]. replace (2 * PI) with (360 * (PI / 180)) by field. apply Rmult_le_compat_r; lra. Qed.
Lemma sphere_at_eq s ray t r : s_radius s = r -> 0 < r -> vlen (project ray t) = r ->
  let q := project ray t in
  (~ near_pole r q -> sphere_at s ray t = (q, longitude (vy q) (vx q))) /\
  (near_pole r q -> sphere_at s ray t = (mkV (r / 10 ^ 5) (vy q) (vz q), longitude (vy q) (r / 10 ^ 5))).
Proof.
  intros Er P L q. unfold sphere_at. fold q in L |- *. rewrite Er, L. replace (r / r) with 1 by (field; lra). rewrite vscale_one.
  replace (1 / 10 ^ 5 * r) with (r / 10 ^ 5) by (field; lra). unfold near_pole. split; intros N.
  - destruct (Rltb_spec (Rabs (vx q)) (r / 10 ^ 5)), (Rltb_spec (Rabs (vy q)) (r / 10 ^ 5)); cbn [andb]; try reflexivity. exfalso. tauto.
  - rewrite (proj2 (Rltb_true _ _) (proj1 N)), (proj2 (Rltb_true _ _) (proj2 N)). cbn [andb vx vy]. reflexivity.
Qed.
Lemma far_from_axis r p : 0 < r -> ~ near_pole r p -> vx p <> 0 \/ vy p <> 0.
Proof.
  intros P N. destruct (Req_dec (vx p) 0) as [X|X]; [|auto]. destruct (Req_dec (vy p) 0) as [Y|Y]; [|auto]. exfalso. apply N. unfold near_pole. rewrite X, Y, Rabs_R0.
  assert (0 < r / 10 ^ 5) by (apply Rdiv_lt_0_compat; lra). auto.
Qed.
Lemma outside_false s r z0 z1 deg t p phi : sphere_made r z0 z1 deg t s -> z0 <= r -> - r <= z1 -> - r <= vz p <= r ->
  sphere_outside s p phi = false <-> z0 <= vz p <= z1 /\ phi <= to_radians deg.
Proof.
  intros M Z0 Z1 Z. destruct M as [Er P Zz Mn Mx Cut Ph _ _ _]. specialize (Cut _ Z). unfold sphere_outside. rewrite Er, Ph.
  destruct (Rltb_spec (- r) (s_zmin s)), (Rltb_spec (vz p) (s_zmin s)), (Rltb_spec (s_zmax s) r), (Rltb_spec (s_zmax s) (vz p)), (Rltb_spec (to_radians deg) phi); cbn [andb orb];
    (split; [intros H; try discriminate H|intros (H1 & H2); try reflexivity; exfalso]); try lra; try (split; [|lra]; assert (Q : s_zmin s <= vz p <= s_zmax s) by lra; apply Cut in Q; lra);
    assert (Q : s_zmin s <= vz p <= s_zmax s) by (apply Cut; lra); lra.
Qed.
Lemma on_sphere_iff r z0 z1 deg p : 0 < r -> 0 <= deg <= 360 -> vlen p = r -> ~ near_pole r p ->
  on_sphere r z0 z1 deg p <-> z0 <= vz p <= z1 /\ longitude (vy p) (vx p) <= to_radians deg.
Proof.
  intros P D L N. pose proof (to_radians_range deg D) as Rr. pose proof (far_from_axis r p P N) as X. destruct (longitude_polar (vy p) (vx p) X) as (Lo & Lx & Ly). split.
  - intros (_ & Z & phi & Rp & Ex & Ey). split; [exact Z|]. apply Rle_trans with phi; [|lra]. apply longitude_least; auto; lra.
  - intros (Z & Q). split; [exact L|]. split; [exact Z|]. exists (longitude (vy p) (vx p)). split; [lra|]. split; assumption.
Qed.
Lemma vz_range r p : 0 < r -> vlen p = r -> - r <= vz p <= r.
Proof.
  intros P L. apply vlen_radius in L; [|exact P]. unfold vlen2 in L. pose proof (Rle_0_sqr (vx p)). pose proof (Rle_0_sqr (vy p)). unfold Rsqr in *. nra.
Qed.

Lemma on_iff ray r t0 t1 : 0 < r -> 0 < vlen2 (direction ray) ->
  (forall t, (vx (direction ray) * vx (direction ray) + vy (direction ray) * vy (direction ray) + vz (direction ray) * vz (direction ray)) * t * t +
    (vx (origin ray) * vx (direction ray) + vy (origin ray) * vy (direction ray) + vz (origin ray) * vz (direction ray)) * 2 * t +
    (vx (origin ray) * vx (origin ray) + vy (origin ray) * vy (origin ray) + vz (origin ray) * vz (origin ray) - r * r) =
    (vx (direction ray) * vx (direction ray) + vy (direction ray) * vy (direction ray) + vz (direction ray) * vz (direction ray)) * (t - t0) * (t - t1)) ->
  forall t, vlen (project ray t) = r <-> t = t0 \/ t = t1.
Proof.
  intros P V F t. pose proof (sphere_quadratic ray r t) as G. cbv zeta in G. rewrite F in G. fold (vlen2 (direction ray)) in G. rewrite <- vlen_radius by exact P. split.
  - intros E. assert (Z : vlen2 (direction ray) * (t - t0) * (t - t1) = 0) by (rewrite G, E; ring). apply Rmult_integral in Z. destruct Z as [Z|Z]; [apply Rmult_integral in Z; lra|lra].
  - intros [ -> | -> ]; [replace (t0 - t0) with 0 in G by ring|replace (t1 - t1) with 0 in G by ring]; lra.
Qed.
Lemma sphere_core s ray : 0 < s_radius s -> 0 < vlen2 (direction ray) ->
  (forall h, sphere_basic_intersection s ray = Hit h -> exists k, 0 < k /\ vlen (project ray k) = s_radius s /\ h = sphere_at s ray k /\ sphere_outside s (fst h) (snd h) = false /\
    forall k', 0 < k' < k -> vlen (project ray k') = s_radius s -> sphere_outside s (fst (sphere_at s ray k')) (snd (sphere_at s ray k')) = true) /\
  (sphere_basic_intersection s ray = Miss -> forall k', 0 < k' -> vlen (project ray k') = s_radius s -> sphere_outside s (fst (sphere_at s ray k')) (snd (sphere_at s ray k')) = true).
Proof.
  intros P V. unfold sphere_basic_intersection. destruct (solve_quadratic _ _ _) as [|(t0 & t1)|] eqn:Q; (split; [intros h H|intros H]); try discriminate.
  - intros k K Lk. exfalso. pose proof (quadratic_miss _ _ _ V Q k) as F. unfold vlen2 in F. pose proof (sphere_quadratic ray (s_radius s) k) as F'. cbv zeta in F'.
    apply vlen_radius in Lk; [|exact P]. unfold vlen2 in F', Lk. lra.
  - apply quadratic_hit in Q; [|exact V]. destruct Q as (L & F). destruct (first_hit _ _ _ _ _ L H) as (k & K0 & Kt & E & O & First).
    assert (On : forall t, vlen (project ray t) = s_radius s <-> t = t0 \/ t = t1) by (apply on_iff; assumption).
    exists k. split; [exact K0|]. split; [apply On; exact Kt|]. split; [exact E|]. split; [exact O|]. intros k' K' Lk'. apply First; [apply On; exact Lk'|exact K'].
  - apply quadratic_hit in Q; [|exact V]. destruct Q as (L & F). assert (On : forall t, vlen (project ray t) = s_radius s <-> t = t0 \/ t = t1) by (apply on_iff; assumption).
    intros k' K' Lk'. apply (first_miss _ _ _ _ L H); [apply On; exact Lk'|exact K'].
Qed.
(** A ray that hits shows the first point in front of it that is on the sphere; near the poles the point is moved. *)
Theorem C99_hit : forall r z0 z1 deg t s ray p phi, 0 < r -> 0 <= deg <= 360 -> z0 <= r -> - r <= z1 -> sphere_new_partial_transformed r z0 z1 deg t = Ok s ->
  0 < vlen2 (direction ray) -> sphere_basic_intersection s ray = Hit (p, phi) ->
  exists k, 0 < k /\ vlen (project ray k) = r /\
    (~ near_pole r (project ray k) -> p = project ray k /\ on_sphere r z0 z1 deg p) /\
    (near_pole r (project ray k) -> p = mkV (r / 10 ^ 5) (vy (project ray k)) (vz (project ray k)) /\ z0 <= vz p <= z1) /\
    0 <= phi <= to_radians deg /\ vx p = sqrt (vx p * vx p + vy p * vy p) * cos phi /\ vy p = sqrt (vx p * vx p + vy p * vy p) * sin phi /\
    forall k', 0 < k' < k -> on_sphere r z0 z1 deg (project ray k') -> near_pole r (project ray k').
Proof.
  intros r z0 z1 deg tr s ray p phi P D Z0 Z1 Ms V H. apply sphere_is_made in Ms; [|exact P|exact D]. pose proof (made_radius _ _ _ _ _ _ Ms) as Er.
  destruct (sphere_core s ray) as (Core & _); [rewrite Er; exact P|exact V|]. destruct (Core _ H) as (k & K0 & Lk & E & O & First). clear Core. rewrite Er in Lk, First.
  exists k. split; [exact K0|]. split; [exact Lk|]. destruct (sphere_at_eq s ray k r Er P Lk) as (Far & Near). pose proof (vz_range r _ P Lk) as Vz.
  cbn [fst snd] in O.
  assert (Lim : 0 < r / 10 ^ 5) by (apply Rdiv_lt_0_compat; lra).
  assert (Body : (~ near_pole r (project ray k) -> p = project ray k /\ phi = longitude (vy (project ray k)) (vx (project ray k)) /\ on_sphere r z0 z1 deg p) /\
    (near_pole r (project ray k) -> p = mkV (r / 10 ^ 5) (vy (project ray k)) (vz (project ray k)) /\ z0 <= vz p <= z1 /\ phi <= to_radians deg /\ phi = longitude (vy p) (vx p))).
  { split; intros N.
    - rewrite (Far N) in E. injection E as -> ->. split; [reflexivity|]. split; [reflexivity|]. apply on_sphere_iff; auto. eapply outside_false in O; eauto.
    - rewrite (Near N) in E. injection E as -> ->. split; [reflexivity|]. eapply outside_false in O; eauto. cbn [vx vy vz] in *. intuition. }
  destruct Body as (B1 & B2). split; [intros N; destruct (B1 N) as (? & ? & ?); auto|]. split; [intros N; destruct (B2 N) as (? & ? & ? & ?); auto|].
  assert (Pol : phi = longitude (vy p) (vx p) /\ (vx p <> 0 \/ vy p <> 0) /\ phi <= to_radians deg).
  { destruct (near_pole_dec r (project ray k)) as [N|N].
    - destruct (B2 N) as (-> & _ & L2 & L3). cbn [vx vy] in *. repeat split; auto. left. lra.
    - destruct (B1 N) as (-> & L2 & L3). repeat split; auto; [exact (far_from_axis r _ P N)|]. apply on_sphere_iff in L3; auto. rewrite L2. apply L3. }
  destruct Pol as (Ep & Xy & Le). destruct (longitude_polar (vy p) (vx p) Xy) as (Lo & Lx & Ly). rewrite <- Ep in Lo, Lx, Ly.
  split; [lra|]. split; [exact Lx|]. split; [exact Ly|].
  intros k' Rk On'. destruct (near_pole_dec r (project ray k')) as [N|N]; [exact N|exfalso].
  assert (Lk' : vlen (project ray k') = r) by apply On'.
  specialize (First k' Rk Lk'). destruct (sphere_at_eq s ray k' r Er P Lk') as (Far' & _). rewrite (Far' N) in First. cbn [fst snd] in First.
  apply on_sphere_iff in On'; auto. pose proof (vz_range r _ P Lk') as Vz'.
  rewrite (proj2 (outside_false _ _ _ _ _ _ _ _ Ms Z0 Z1 Vz') On') in First. discriminate.
Qed.
(** A ray that misses has no point of the sphere in front of it, but perhaps at the poles. *)
Theorem C99_miss : forall r z0 z1 deg t s ray, 0 < r -> 0 <= deg <= 360 -> z0 <= r -> - r <= z1 -> sphere_new_partial_transformed r z0 z1 deg t = Ok s ->
  0 < vlen2 (direction ray) -> sphere_basic_intersection s ray = Miss -> forall k, 0 < k -> on_sphere r z0 z1 deg (project ray k) -> near_pole r (project ray k).
Proof.
  intros r z0 z1 deg tr s ray P D Z0 Z1 Ms V H k K0 On'. apply sphere_is_made in Ms; [|exact P|exact D]. pose proof (made_radius _ _ _ _ _ _ Ms) as Er.
  destruct (sphere_core s ray) as (_ & Core); [rewrite Er; exact P|exact V|]. rewrite Er in Core.
  assert (Lk : vlen (project ray k) = r) by apply On'. specialize (Core H k K0 Lk).
  destruct (near_pole_dec r (project ray k)) as [N|N]; [exact N|exfalso].
  destruct (sphere_at_eq s ray k r Er P Lk) as (Far & _). rewrite (Far N) in Core. cbn [fst snd] in Core.
  apply on_sphere_iff in On'; auto. pose proof (vz_range r _ P Lk) as Vz.
  rewrite (proj2 (outside_false _ _ _ _ _ _ _ _ Ms Z0 Z1 Vz) On') in Core. discriminate.
Qed.
(** Only from a point of the sphere and along it the result is not a number. *)
Theorem C99_tangent : forall r z0 z1 deg t s ray, 0 < r -> 0 <= deg <= 360 -> sphere_new_partial_transformed r z0 z1 deg t = Ok s -> 0 < vlen2 (direction ray) ->
  sphere_basic_intersection s ray = NotANumber <-> vlen (origin ray) = r /\ vdot (origin ray) (direction ray) = 0.
Proof.
  intros r z0 z1 deg tr s ray P D Ms V. apply sphere_is_made in Ms; [|exact P|exact D]. pose proof (made_radius _ _ _ _ _ _ Ms) as Er.
  rewrite <- vlen_radius by exact P. unfold sphere_basic_intersection. rewrite Er.
  set (a := vx (direction ray) * vx (direction ray) + vy (direction ray) * vy (direction ray) + vz (direction ray) * vz (direction ray)). 
  set (b := (vx (origin ray) * vx (direction ray) + vy (origin ray) * vy (direction ray) + vz (origin ray) * vz (direction ray)) * 2).
  set (c := vx (origin ray) * vx (origin ray) + vy (origin ray) * vy (origin ray) + vz (origin ray) * vz (origin ray) - r * r).
  assert (Eq : b = 0 /\ c = 0 <-> vlen2 (origin ray) = r * r /\ vdot (origin ray) (direction ray) = 0) by (unfold b, c, vlen2, vdot; split; intros (A & B); split; lra).
  rewrite <- Eq, <- (quadratic_nan a b c V). destruct (solve_quadratic a b c) as [|(t0 & t1)|]; (split; [intros H; try discriminate H; try reflexivity|intros H; try discriminate H; try reflexivity]).
  exfalso. exact (first_nan _ _ _ _ H).
Qed.

(** A surface given by two parameters, and its derivatives *)
Definition along_u (S : R -> R -> pt) (u v : R) (d : pt) : Prop :=
  is_derive (fun u => vx (S u v)) u (vx d) /\ is_derive (fun u => vy (S u v)) u (vy d) /\ is_derive (fun u => vz (S u v)) u (vz d).
Definition along_v (S : R -> R -> pt) (u v : R) (d : pt) : Prop :=
  is_derive (fun v => vx (S u v)) v (vx d) /\ is_derive (fun v => vy (S u v)) v (vy d) /\ is_derive (fun v => vz (S u v)) v (vz d).
(** The area of the surface is the integral of the area of its elements. *)
Definition has_area (S : R -> R -> pt) (A : R) : Prop := forall du dv, (forall u v, along_u S u v (du u v)) -> (forall u v, along_v S u v (dv u v)) ->
  is_RInt (fun u => RInt (fun v => vlen (vcross (du u v) (dv u v))) 0 1) 0 1 A.
(** Longitude and colatitude as parameters: the latter runs from [top] down to [bottom]. *)
Definition sphere_point (r phi_max top bottom u v : R) : pt :=
  mkV (r * sin (top + v * (bottom - top)) * cos (u * phi_max)) (r * sin (top + v * (bottom - top)) * sin (u * phi_max)) (r * cos (top + v * (bottom - top))).
Definition sphere_surface (r z0 z1 deg : R) : R -> R -> pt := sphere_point r (to_radians deg) (acos (Rmin 1 (z1 / r))) (acos (Rmax (-1) (z0 / r))).

Lemma cut_top r z0 z1 deg t s : sphere_made r z0 z1 deg t s -> - r <= z1 -> s_zmax s = Rmin r z1.
Proof.
  intros M Z1. destruct M as [Er P Zz Mn Mx Cut _ _ _ _]. unfold Rmin. destruct (Rle_dec r z1) as [H|H].
  - destruct (Rle_lt_dec z0 r) as [Q|Q]; [|destruct (proj2 (Cut r ltac:(lra)) ltac:(right; left; lra)); lra].
    assert (Q' : s_zmin s <= r <= s_zmax s) by (apply Cut; [lra|left; lra]). lra.
  - apply Rnot_le_lt in H. apply Rle_antisym.
    + assert (Q : s_zmin s <= s_zmax s <= s_zmax s) by lra. apply Cut in Q; [|lra]. lra.
    + assert (Q : s_zmin s <= z1 <= s_zmax s) by (apply Cut; lra). lra.
Qed.
Lemma cut_bottom r z0 z1 deg t s : sphere_made r z0 z1 deg t s -> z0 <= r -> s_zmin s = Rmax (- r) z0.
Proof.
  intros M Z0. destruct M as [Er P Zz Mn Mx Cut _ _ _ _]. unfold Rmax. destruct (Rle_dec (- r) z0) as [H|H].
  - apply Rle_antisym.
    + assert (Q : s_zmin s <= z0 <= s_zmax s) by (apply Cut; lra). lra.
    + assert (Q : s_zmin s <= s_zmin s <= s_zmax s) by lra. apply Cut in Q; [|lra]. lra.
  - apply Rnot_le_lt in H. destruct (Rle_lt_dec (- r) z1) as [Q|Q]; [|destruct (proj2 (Cut (- r) ltac:(lra)) ltac:(right; right; lra)); lra].
    assert (Q' : s_zmin s <= - r <= s_zmax s) by (apply Cut; [lra|left; lra]). lra.
Qed.
Lemma Rmin_div r z : 0 < r -> Rmin r z / r = Rmin 1 (z / r).
Proof.
  intros P. unfold Rmin. destruct (Rle_dec r z) as [H|H], (Rle_dec 1 (z / r)) as [H'|H']; try reflexivity; try (field; lra); exfalso.
  - apply H'. replace 1 with (r / r) by (field; lra). apply div_le; assumption.
  - apply H. apply Rmult_le_compat_r with (r := r) in H'; [|lra]. replace (z / r * r) with z in H' by (field; lra). lra.
Qed.
Lemma Rmax_div r z : 0 < r -> Rmax (- r) z / r = Rmax (-1) (z / r).
Proof.
  intros P. unfold Rmax. destruct (Rle_dec (- r) z) as [H|H], (Rle_dec (-1) (z / r)) as [H'|H']; try reflexivity; try (field; lra); exfalso.
  - apply H'. replace (-1) with (- r / r) by (field; lra). apply div_le; assumption.
  - apply H. apply Rmult_le_compat_r with (r := r) in H'; [|lra]. replace (z / r * r) with z in H' by (field; lra). lra.
Qed.
(** The angles that the program keeps are those of the surface. *)
Lemma made_surface r z0 z1 deg t s : sphere_made r z0 z1 deg t s -> z0 <= r -> - r <= z1 ->
  theta_min s = acos (Rmin 1 (z1 / r)) /\ theta_min s + delta_theta s = acos (Rmax (-1) (z0 / r)).
Proof.
  intros M Z0 Z1. rewrite (made_bottom _ _ _ _ _ _ M), (made_top _ _ _ _ _ _ M), (cut_top _ _ _ _ _ _ M Z1), (cut_bottom _ _ _ _ _ _ M Z0).
  rewrite Rmin_div, Rmax_div by apply (made_positive _ _ _ _ _ _ M). split; reflexivity.
Qed.
Definition sphere_du r phi_max top bottom u v : pt :=
  mkV (- phi_max * (r * sin (top + v * (bottom - top)) * sin (u * phi_max))) (phi_max * (r * sin (top + v * (bottom - top)) * cos (u * phi_max))) 0.
Definition sphere_dv r phi_max top bottom u v : pt :=
  vscale (mkV (r * cos (top + v * (bottom - top)) * cos (u * phi_max)) (r * cos (top + v * (bottom - top)) * sin (u * phi_max)) (- r * sin (top + v * (bottom - top)))) (bottom - top).
Lemma sphere_along_u r f a b u v : along_u (sphere_point r f a b) u v (sphere_du r f a b u v).
Proof. unfold along_u, sphere_point, sphere_du. cbn [vx vy vz]. split; [|split]; auto_derive; auto; ring. Qed.
Lemma sphere_along_v r f a b u v : along_v (sphere_point r f a b) u v (sphere_dv r f a b u v).
Proof. unfold along_v, sphere_point, sphere_dv, vscale. cbn [vx vy vz]. split; [|split]; auto_derive; auto; ring. Qed.
Lemma along_u_unique S u v d d' : along_u S u v d -> along_u S u v d' -> d = d'.
Proof.
  intros (A1 & A2 & A3) (B1 & B2 & B3). apply is_derive_unique in A1, A2, A3, B1, B2, B3. destruct d, d'. cbn in *. f_equal; congruence.
Qed.
Lemma along_v_unique S u v d d' : along_v S u v d -> along_v S u v d' -> d = d'.
Proof.
  intros (A1 & A2 & A3) (B1 & B2 & B3). apply is_derive_unique in A1, A2, A3, B1, B2, B3. destruct d, d'. cbn in *. f_equal; congruence.
Qed.
Lemma sphere_element r f a b u v : 0 <= f -> a <= b -> 0 <= sin (a + v * (b - a)) -> vlen (vcross (sphere_du r f a b u v) (sphere_dv r f a b u v)) = f * (b - a) * (r * r) * sin (a + v * (b - a)).
Proof.
  intros F L Sn. unfold vlen. set (w := a + v * (b - a)) in *.
  assert (E : vlen2 (vcross (sphere_du r f a b u v) (sphere_dv r f a b u v)) = Rsqr (f * (b - a) * (r * r) * sin w)).
  { unfold sphere_du, sphere_dv, vcross, vlen2, vscale. cbn [vx vy vz]. fold w. unfold Rsqr. pose proof (sin2_cos2 w) as T. pose proof (sin2_cos2 (u * f)) as T'. unfold Rsqr in T, T'.
    set (q := sin w) in *. set (q' := cos w) in *. set (g := sin (u * f)) in *. set (g' := cos (u * f)) in *. set (m := b - a).
    transitivity (f * f * (m * m) * (r * r) * (r * r) * (q * q) * (q * q * (g * g + g' * g') + q' * q' * ((g * g + g' * g') * (g * g + g' * g')))); [ring|].
    rewrite T'. replace (q * q * 1 + q' * q' * (1 * 1)) with (q * q + q' * q') by ring. rewrite T. ring. }
  rewrite E. apply sqrt_Rsqr. apply Rmult_le_pos; [|exact Sn]. apply Rmult_le_pos; [apply Rmult_le_pos; lra|apply Rle_0_sqr].
Qed.
Lemma acos_cut r z0 z1 deg t s : sphere_made r z0 z1 deg t s -> z0 <= r -> - r <= z1 ->
  let a := acos (Rmin 1 (z1 / r)) in let b := acos (Rmax (-1) (z0 / r)) in
  0 <= a <= b /\ b <= PI /\ cos a = s_zmax s / r /\ cos b = s_zmin s / r.
Proof.
  intros M Z0 Z1 a b. pose proof (cut_top _ _ _ _ _ _ M Z1) as Et. pose proof (cut_bottom _ _ _ _ _ _ M Z0) as Eb. destruct M as [Er P Zz Mn Mx _ _ Tp Bt _].
  unfold a, b. rewrite <- Rmin_div, <- Rmax_div, <- Et, <- Eb by exact P.
  pose proof (div_in r (s_zmax s) P ltac:(lra)) as D1. pose proof (div_in r (s_zmin s) P ltac:(lra)) as D2.
  pose proof (acos_bound (s_zmax s / r)). pose proof (acos_bound (s_zmin s / r)).
  assert (acos (s_zmax s / r) <= acos (s_zmin s / r)) by (apply acos_le; [lra|apply div_le; lra|lra]).
  rewrite !cos_acos by lra. repeat split; lra.
Qed.
(** The area is that of the part of the sphere. *)
Theorem C99_area : forall r z0 z1 deg t s, 0 < r -> 0 <= deg <= 360 -> z0 <= r -> - r <= z1 -> sphere_new_partial_transformed r z0 z1 deg t = Ok s ->
  has_area (sphere_surface r z0 z1 deg) (sphere_area s).
Proof.
  intros r z0 z1 deg tr s P D Z0 Z1 M du dv Hu Hv. apply sphere_is_made in M; auto. destruct (acos_cut _ _ _ _ _ _ M Z0 Z1) as ((A0 & AB) & B1 & Ca & Cb).
  unfold sphere_surface in *. set (a := acos (Rmin 1 (z1 / r))) in *. set (b := acos (Rmax (-1) (z0 / r))) in *. set (f := to_radians deg) in *.
  pose proof (to_radians_range deg D) as F. fold f in F.
  assert (In : forall u, RInt (fun v => vlen (vcross (du u v) (dv u v))) 0 1 = sphere_area s).
  { intros u. apply is_RInt_unique. apply is_RInt_ext with (f := fun v => f * (b - a) * (r * r) * sin (a + v * (b - a))).
    - intros v Rv. rewrite Rmin_left, Rmax_right in Rv by lra. rewrite (along_u_unique _ _ _ _ _ (Hu u v) (sphere_along_u r f a b u v)), (along_v_unique _ _ _ _ _ (Hv u v) (sphere_along_v r f a b u v)).
      symmetry. apply sphere_element; try lra. apply sin_ge_0; nra.
    - replace (sphere_area s) with (minus (- f * (r * r) * cos (a + 1 * (b - a))) (- f * (r * r) * cos (a + 0 * (b - a)))).
      + apply (is_RInt_derive (fun v => - f * (r * r) * cos (a + v * (b - a)))).
        * intros x _. auto_derive; auto. ring.
        * intros x _. apply continuity_pt_filterlim. reg.
      + unfold minus, plus, opp. cbn. replace (a + 1 * (b - a)) with b by ring. replace (a + 0 * (b - a)) with a by ring. rewrite Ca, Cb. unfold sphere_area. destruct M as [Er _ _ _ _ _ Ep _ _ _]. rewrite Er, Ep. fold f. field. lra. }
  apply is_RInt_ext with (f := fun _ => sphere_area s); [intros u _; symmetry; apply In|].
  pose proof (is_RInt_const 0 1 (sphere_area s)) as Q. change (scal (1 - 0) (sphere_area s)) with ((1 - 0) * sphere_area s) in Q. replace ((1 - 0) * sphere_area s) with (sphere_area s) in Q by ring. exact Q.
Qed.
Lemma interpolate a b w : a <= w <= b -> exists v, 0 <= v <= 1 /\ w = a + v * (b - a).
Proof.
  intros H. destruct (Req_dec a b) as [E|E]; [exists 0; lra|]. exists ((w - a) / (b - a)). split; [|field; lra].
  split; apply Rmult_le_reg_r with (b - a); try lra; unfold Rdiv; rewrite Rmult_assoc, Rinv_l; lra.
Qed.
Lemma sphere_rho r p : 0 < r -> vlen p = r -> 0 < r -> r * sin (acos (vz p / r)) = sqrt (vx p * vx p + vy p * vy p).
Proof.
  intros P L _. pose proof (vz_range r p P L) as Vz. pose proof (div_in r _ P Vz) as Dz. apply vlen_radius in L; [|exact P]. unfold vlen2 in L.
  rewrite sin_acos by exact Dz. rewrite <- (sqrt_square r) at 1 by lra. rewrite <- sqrt_mult_alt by nra. f_equal. unfold Rsqr. field_simplify; [|lra]. lra.
Qed.
(** The parameters between 0 and 1 give exactly the points of the part. *)
Theorem C99_surface : forall r z0 z1 deg p, 0 < r -> 0 <= deg <= 360 -> z0 <= z1 -> z0 <= r -> - r <= z1 ->
  on_sphere r z0 z1 deg p <-> exists u v, 0 <= u <= 1 /\ 0 <= v <= 1 /\ p = sphere_surface r z0 z1 deg u v.
Proof.
  intros r z0 z1 deg p P D Zz Z0 Z1. pose proof (to_radians_range deg D) as F. unfold sphere_surface. set (f := to_radians deg) in *.
  assert (Mn : -1 <= Rmin 1 (z1 / r) <= 1).
  { split; [|apply Rmin_l]. apply Rmin_glb; [lra|]. replace (-1) with (- r / r) by (field; lra). apply div_le; lra. }
  assert (Mx : -1 <= Rmax (-1) (z0 / r) <= 1).
  { split; [apply Rmax_l|]. apply Rmax_lub; [lra|]. replace 1 with (r / r) by (field; lra). apply div_le; lra. }
  assert (MM : Rmax (-1) (z0 / r) <= Rmin 1 (z1 / r)).
  { apply Rmax_lub; [lra|]. apply Rmin_glb; [|apply div_le; lra]. replace 1 with (r / r) by (field; lra). apply div_le; lra. }
  set (a := acos (Rmin 1 (z1 / r))) in *. set (b := acos (Rmax (-1) (z0 / r))) in *.
  assert (Ra : 0 <= a <= PI) by apply acos_bound. assert (Rb : 0 <= b <= PI) by apply acos_bound. assert (AB : a <= b) by (apply acos_le; lra).
  assert (Ca : cos a = Rmin 1 (z1 / r)) by (apply cos_acos; lra). assert (Cb : cos b = Rmax (-1) (z0 / r)) by (apply cos_acos; lra).
  split.
  - intros (L & (L0 & L1) & phi & Rp & Ex & Ey). fold f in Rp. pose proof (vz_range r p P L) as Vz. pose proof (div_in r _ P Vz) as Dz.
    destruct (interpolate 0 f phi Rp) as (u & Ru & Eu). destruct (interpolate a b (acos (vz p / r))) as (v & Rv & Ev).
    { unfold a, b. split; apply acos_le; try lra.
      - apply Rmin_glb; [lra|]. apply div_le; lra.
      - apply Rmax_lub; [lra|]. apply div_le; lra. }
    exists u, v. split; [exact Ru|]. split; [exact Rv|]. unfold sphere_point. rewrite <- Ev. replace (u * f) with phi by lra. rewrite cos_acos by exact Dz. rewrite (sphere_rho r p P L) by exact P.
    rewrite <- Ex, <- Ey. replace (r * (vz p / r)) with (vz p) by (field; lra). destruct p; reflexivity.
  - intros (u & v & Ru & Rv & ->). unfold on_sphere, sphere_point. cbn [vx vy vz]. set (w := a + v * (b - a)). assert (Rw : a <= w <= b) by (unfold w; nra).
    assert (Sw : 0 <= sin w) by (apply sin_ge_0; lra).
    pose proof (sin2_cos2 w) as T. pose proof (sin2_cos2 (u * f)) as T'. unfold Rsqr in T, T'.
    assert (Cw : cos b <= cos w <= cos a) by (split; apply cos_decr_1; lra). rewrite Ca, Cb in Cw.
    assert (Rho : r * sin w * cos (u * f) * (r * sin w * cos (u * f)) + r * sin w * sin (u * f) * (r * sin w * sin (u * f)) = Rsqr (r * sin w)).
    { unfold Rsqr. replace (r * sin w * (r * sin w)) with (r * sin w * (r * sin w) * (sin (u * f) * sin (u * f) + cos (u * f) * cos (u * f))) by (rewrite T'; ring). ring. }
    split; [|split].
    + apply vlen_radius; [exact P|]. unfold vlen2. cbn [vx vy vz]. rewrite Rho. unfold Rsqr. transitivity (r * r * (sin w * sin w + cos w * cos w)); [ring|]. rewrite T. ring.
    + split.
      * assert (Q : z0 / r <= cos w) by (apply Rle_trans with (Rmax (-1) (z0 / r)); [apply Rmax_r|apply Cw]). apply Rmult_le_compat_l with (r := r) in Q; [|lra]. replace (r * (z0 / r)) with z0 in Q by (field; lra). exact Q.
      * assert (Q : cos w <= z1 / r) by (apply Rle_trans with (Rmin 1 (z1 / r)); [apply Cw|apply Rmin_r]). apply Rmult_le_compat_l with (r := r) in Q; [|lra]. replace (r * (z1 / r)) with z1 in Q by (field; lra). exact Q.
    + exists (u * f). split; [fold f; split; [apply Rmult_le_pos; lra|replace f with (1 * f) at 2 by ring; apply Rmult_le_compat_r; lra]|]. rewrite Rho, sqrt_Rsqr by (apply Rmult_le_pos; lra). split; reflexivity.
Qed.

Lemma clamp_in v low high : low <= v <= high -> clamp v low high = Ok v.
Proof. intros H. unfold clamp. destruct (Rltb_spec high low); [lra|]. destruct (Rltb_spec v low); [lra|]. destruct (Rltb_spec high v); [lra|reflexivity]. Qed.
(** Which side of a surface the ray sees, given the direction [out] of its front *)
Definition sees (out direction normal : pt) (side : SurfaceSide) : Prop :=
  (side = Front /\ vdot out direction < 0 /\ normal = out) \/ (side = Back /\ 0 < vdot out direction /\ normal = vneg out) \/
  (side = NonApplicable /\ vdot out direction = 0 /\ normal = mkV 0 0 0).
Lemma get_side_sees out d : sees out d (fst (get_side out d)) (snd (get_side out d)).
Proof.
  unfold get_side, sees. destruct (Rltb_spec (vdot out d) 0); cbn [fst snd]; [left; auto|]. destruct (Rltb_spec 0 (vdot out d)); cbn [fst snd]; right.
  - left. repeat split; auto. unfold vscale, vneg. destruct out; cbn. f_equal; ring.
  - right. repeat split; auto. lra.
Qed.
Lemma vnormalize_scaled p k r : 0 <= k -> 0 < r -> vlen p = r ->
  (1 / 10 ^ 20 < k * r * (k * r) -> vnormalize (vscale p k) = Ok (vscale p (1 / r))) /\ (k * r * (k * r) <= 1 / 10 ^ 20 -> vnormalize (vscale p k) = Panic).
Proof.
  intros K P L. apply vlen_radius in L; [|exact P]. unfold vnormalize. replace (vlen2 (vscale p k)) with (k * r * (k * r)) by (transitivity (k * k * vlen2 p); [rewrite L; ring|unfold vlen2, vscale; cbn [vx vy vz]; ring]).
  split; intros H.
  - assert (k <> 0) by (intros ->; rewrite Rmult_0_l, Rmult_0_l in H; lra). rewrite (proj2 (Rltb_true _ _) H). rewrite sqrt_square by (apply Rmult_le_pos; lra). unfold vscale. cbn [vx vy vz]. f_equal. apply V3_eq; cbn [vx vy vz]; field; lra.
  - rewrite (proj2 (Rltb_false _ _) H). reflexivity.
Qed.
(** What is told about a point that has been hit: the normal is that of the sphere and faces the ray, the derivatives are those of the surface.
    The program panics where the parallelogram of the derivatives has an area of up to 1e-10. *)
Theorem C99_info : forall r z0 z1 deg t s ray p phi, 0 < r -> 0 <= deg <= 360 -> z0 <= r -> - r <= z1 -> sphere_new_partial_transformed r z0 z1 deg t = Ok s ->
  0 < vlen2 (direction ray) -> sphere_basic_intersection s ray = Hit (p, phi) -> vlen p = r ->
  exists u v dpdu dpdv, 0 <= u <= 1 /\ 0 <= v <= 1 /\ p = sphere_surface r z0 z1 deg u v /\
    along_u (sphere_surface r z0 z1 deg) u v dpdu /\ along_v (sphere_surface r z0 z1 deg) u v dpdv /\
    (vlen (vcross dpdu dpdv) <= 1 / 10 ^ 10 -> sphere_intersect_local_ray s ray = Panic) /\
    (1 / 10 ^ 10 < vlen (vcross dpdu dpdv) -> exists normal side, sphere_intersect_local_ray s ray = Ok (Hit (mkInfo p normal side dpdu dpdv)) /\
      sees (vscale p (1 / r)) (direction ray) normal side).
Proof.
  intros r z0 z1 deg tr s ray p phi P D Z0 Z1 Ms V H L. pose proof (C99_hit r z0 z1 deg tr s ray p phi P D Z0 Z1 Ms V H) as (k & K0 & Lk & Far & Near & Rphi & Px & Py & _).
  assert (Nn : ~ near_pole r (project ray k)).
  { intros N. destruct (Near N) as (-> & _). apply vlen_radius in Lk; [|exact P]. apply vlen_radius in L; [|exact P]. unfold vlen2 in L, Lk. cbn [vx vy vz] in L.
    destruct N as (N & _). assert (Q : Rabs (vx (project ray k)) = r / 10 ^ 5).
    { rewrite <- (Rabs_right (r / 10 ^ 5)) by (apply Rle_ge, Rlt_le, Rdiv_lt_0_compat; lra). apply Rsqr_eq_abs_0. unfold Rsqr. lra. }
    lra. }
  destruct (Far Nn) as (Ek & On). pose proof (sphere_is_made _ _ _ _ _ _ P D Ms) as M. pose proof (far_from_axis r p P ltac:(rewrite Ek; exact Nn)) as Xy.
  destruct (acos_cut _ _ _ _ _ _ M Z0 Z1) as ((A0 & AB) & B1 & _). destruct (made_surface _ _ _ _ _ _ M Z0 Z1) as (Ea & Eb). pose proof (to_radians_range deg D) as F.
  apply C99_surface in On; try assumption; [|exact (made_z _ _ _ _ _ _ M)]. destruct On as (u & v & Ru & Rv & Ep). exists u, v. unfold sphere_surface in *.
  set (a := acos (Rmin 1 (z1 / r))) in *. set (b := acos (Rmax (-1) (z0 / r))) in *. set (f := to_radians deg) in *.
  exists (sphere_du r f a b u v), (sphere_dv r f a b u v). split; [exact Ru|]. split; [exact Rv|]. split; [exact Ep|]. split; [apply sphere_along_u|]. split; [apply sphere_along_v|].
  assert (Rw : 0 <= a + v * (b - a) <= PI) by nra. assert (Sw : 0 <= sin (a + v * (b - a))) by (apply sin_ge_0; lra).
  rewrite (sphere_element r f a b u v) by lra. rewrite Ep in Xy. unfold sphere_point in Xy. cbn [vx vy] in Xy.
  assert (Sn : sin (a + v * (b - a)) <> 0) by (intros E; rewrite E in Xy; rewrite Rmult_0_r, !Rmult_0_l in Xy; tauto).
  assert (I : sphere_intersect_local_ray s ray = do n <- vnormalize (vscale p (f * (b - a) * (r * sin (a + v * (b - a))))); let '(n', side) := get_side n (direction ray) in Ok (Hit (mkInfo p n' side (sphere_du r f a b u v) (sphere_dv r f a b u v)))).
  { unfold sphere_intersect_local_ray. rewrite H. cbn [on_hit]. unfold sphere_info. rewrite (made_radius _ _ _ _ _ _ M), (made_phi _ _ _ _ _ _ M). fold f. replace (delta_theta s) with (b - a) by lra.
    assert (Ez : vz p / r = cos (a + v * (b - a))) by (rewrite Ep; unfold sphere_point; cbn [vz]; field; lra). pose proof (COS_bound (a + v * (b - a))) as Cb.
    rewrite Ez, clamp_in by lra. cbn [bind]. rewrite acos_cos by exact Rw. set (w := a + v * (b - a)) in *. destruct (Req_EM_T (sin w) 0) as [|_]; [contradiction|].
    unfold info_new.
    assert (E1 : mkV (- f * vy p) (f * vx p) 0 = sphere_du r f a b u v) by (rewrite Ep; unfold sphere_point, sphere_du; cbn [vx vy vz]; fold w; reflexivity).
    assert (E2 : vscale (mkV (vz p * (vx p * (1 / r / sin w))) (vz p * (vy p * (1 / r / sin w))) (- r * sin w)) (b - a) = sphere_dv r f a b u v).
    { rewrite Ep. unfold sphere_point, sphere_dv. cbn [vx vy vz]. fold w. f_equal. apply V3_eq; cbn [vx vy vz]; field; lra. }
    rewrite E1, E2. replace (vcross (sphere_dv r f a b u v) (sphere_du r f a b u v)) with (vscale p (f * (b - a) * (r * sin w))).
    - destruct (vnormalize _) as [n| |]; cbn [bind]; [destruct (get_side n (direction ray))| |]; reflexivity.
    - rewrite Ep. unfold sphere_point, sphere_dv, sphere_du, vcross, vscale. cbn [vx vy vz]. fold w. pose proof (sin2_cos2 (u * f)) as T. unfold Rsqr in T. apply V3_eq; cbn [vx vy vz]; try ring.
      transitivity (f * (b - a) * r * r * sin w * cos w * (sin (u * f) * sin (u * f) + cos (u * f) * cos (u * f))); [rewrite T|]; ring. }
  set (w := a + v * (b - a)) in *. assert (K : 0 <= f * (b - a) * (r * sin w)) by (apply Rmult_le_pos; apply Rmult_le_pos; lra).
  destruct (vnormalize_scaled p _ r K P L) as (N1 & N2). replace (f * (b - a) * (r * r) * sin w) with (f * (b - a) * (r * sin w) * r) by ring. set (q := f * (b - a) * (r * sin w)) in *.
  assert (Q : 0 <= q * r) by (apply Rmult_le_pos; lra). rewrite I. split; intros B.
  - rewrite N2; [reflexivity|]. replace (1 / 10 ^ 20) with (1 / 10 ^ 10 * (1 / 10 ^ 10)) by field. apply Rmult_le_compat; assumption.
  - rewrite N1; [|replace (1 / 10 ^ 20) with (1 / 10 ^ 10 * (1 / 10 ^ 10)) by field; apply Rmult_le_0_lt_compat; lra]. cbn [bind].
    pose proof (get_side_sees (vscale p (1 / r)) (direction ray)) as S. destruct (get_side _ _) as (n' & side). exists n', side. split; [reflexivity|exact S].
Qed.

(** The box around the sphere holds all its points; it is the smallest for whole spheres, but not for parts. *)
Theorem C99_bounds : forall r z0 z1 deg t s p, 0 < r -> 0 <= deg <= 360 -> z0 <= r -> - r <= z1 -> sphere_new_partial_transformed r z0 z1 deg t = Ok s -> on_sphere r z0 z1 deg p ->
  let b := sphere_bounds s in vx (bmin b) <= vx p <= vx (bmax b) /\ vy (bmin b) <= vy p <= vy (bmax b) /\ vz (bmin b) <= vz p <= vz (bmax b).
Proof.
  intros r z0 z1 deg tr s p P D Z0 Z1 M (L & Z & _). apply sphere_is_made in M; auto. pose proof (vz_range r p P L) as Vz. cbn. rewrite (made_radius _ _ _ _ _ _ M).
  pose proof (proj2 (made_cut _ _ _ _ _ _ M (vz p) Vz) (or_introl Z)) as C. apply vlen_radius in L; [|exact P]. unfold vlen2 in L.
  pose proof (Rle_0_sqr (vx p)). pose proof (Rle_0_sqr (vy p)). pose proof (Rle_0_sqr (vz p)). unfold Rsqr in *. repeat split; try apply C; nra.
Qed.

(** *** Whole spheres somewhere in the world *)

Lemma sphere_new_made r c : 0 < r -> exists s, sphere_new r c = Ok s /\ sphere_made r (-2 * r) (2 * r) 360 (if negb (vis_zero c) then Some (translate (vx c) (vy c) (vz c)) else None) s.
Proof.
  intros P. unfold sphere_new, sphere_new_partial. set (t := if negb _ then _ else _).
  assert (E : exists s, sphere_new_partial_transformed r (-2 * r) (2 * r) 360 t = Ok s).
  { unfold sphere_new_partial_transformed. destruct (Rltb_spec (2 * r) (-2 * r)); [lra|].
    destruct (clamp_ok (-2 * r) (- r) r ltac:(lra)) as (a & ->). destruct (clamp_ok (2 * r) (- r) r ltac:(lra)) as (b & ->). cbn [bind].
    destruct (clamp_ok (a / r) (-1) 1 ltac:(lra)) as (c1 & ->). destruct (clamp_ok (b / r) (-1) 1 ltac:(lra)) as (c2 & ->). cbn [bind].
    assert (0 < eps64) by (unfold eps64; apply Rinv_0_lt_compat; lra). destruct (if Rltb (acos c2) (acos c1) then _ else _) as (x & y).
    rewrite (proj2 (Rleb_true _ _)), (proj2 (Rleb_true _ _)) by lra. cbn [andb negb]. destruct (clamp_ok 360 0 360 ltac:(lra)) as (d & ->). cbn [bind]. eauto. }
  destruct E as (s & E). exists s. split; [exact E|]. apply sphere_is_made in E; auto; lra.
Qed.
Lemma whole_inside r t s ray k : sphere_made r (-2 * r) (2 * r) 360 t s -> vlen (project ray k) = r -> sphere_outside s (fst (sphere_at s ray k)) (snd (sphere_at s ray k)) = false.
Proof.
  intros M L. pose proof (made_positive _ _ _ _ _ _ M) as P. pose proof (vz_range r _ P L) as Vz. destruct (sphere_at_eq s ray k r (made_radius _ _ _ _ _ _ M) P L) as (Far & Near).
  assert (E : to_radians 360 = 2 * PI) by (unfold to_radians; field). assert (Lim : 0 < r / 10 ^ 5) by (apply Rdiv_lt_0_compat; lra).
  destruct (near_pole_dec r (project ray k)) as [N|N].
  - rewrite (Near N). cbn [fst snd]. eapply outside_false; [exact M|lra|lra|exact Vz|]. cbn [vz]. rewrite E. split; [lra|].
    destruct (longitude_polar (vy (project ray k)) (r / 10 ^ 5)) as (Q & _); [left; lra|]. lra.
  - rewrite (Far N). cbn [fst snd]. eapply outside_false; [exact M|lra|lra|exact Vz|]. rewrite E. split; [lra|].
    destruct (longitude_polar (vy (project ray k)) (vx (project ray k))) as (Q & _); [exact (far_from_axis r _ P N)|]. lra.
Qed.
Lemma translated_pt c p : transform_pt (translate (vx c) (vy c) (vz c)) p = vadd p c.
Proof. unfold transform_pt, mul4x4point, vdiv, vadd. cbn. apply V3_eq; cbn; field. Qed.
Lemma inv_translated_ray c ray k : project (inv_transform_ray (translate (vx c) (vy c) (vz c)) ray) k = vsub (project ray k) c.
Proof. unfold inv_transform_ray, inv_transform_pt, inv_transform_vec, mul4x4point, mul4x4vec, vdiv, project, vsub, vadd, vscale. cbn. apply V3_eq; cbn; field. Qed.
Lemma inv_translated_dir c ray : direction (inv_transform_ray (translate (vx c) (vy c) (vz c)) ray) = direction ray.
Proof. unfold inv_transform_ray, inv_transform_vec, mul4x4vec. cbn. destruct (direction ray). cbn. apply V3_eq; cbn; ring. Qed.
Lemma inv_translated_origin c ray : origin (inv_transform_ray (translate (vx c) (vy c) (vz c)) ray) = vsub (origin ray) c.
Proof. unfold inv_transform_ray, inv_transform_pt, mul4x4point, vdiv, vsub. cbn. apply V3_eq; cbn; field. Qed.

(** A ray meets a whole sphere at the first point in front of it whose distance to the centre is the radius.  Near the poles the program moves the point. *)
Theorem C99_whole : forall r c, 0 < r -> c = mkV 0 0 0 \/ vis_zero c = false -> exists s, sphere_new r c = Ok s /\ sphere_centre s = c /\ sphere_area s = 4 * PI * r ^ 2 /\
  forall ray, 0 < vlen2 (direction ray) ->
  (forall p, sphere_simple_intersect s ray = Hit p -> exists k, 0 < k /\ vlen (vsub (project ray k) c) = r /\ (forall k', 0 < k' < k -> vlen (vsub (project ray k') c) <> r) /\
    (~ near_pole r (vsub (project ray k) c) -> p = project ray k) /\
    (near_pole r (vsub (project ray k) c) -> p = mkV (vx c + r / 10 ^ 5) (vy (project ray k)) (vz (project ray k)))) /\
  (sphere_simple_intersect s ray = Miss -> forall k, 0 < k -> vlen (vsub (project ray k) c) <> r) /\
  (sphere_simple_intersect s ray = NotANumber <-> vlen (vsub (origin ray) c) = r /\ vdot (vsub (origin ray) c) (direction ray) = 0).
Proof.
  intros r c P C. destruct (sphere_new_made r c P) as (s & E & M). exists s. split; [exact E|]. pose proof (made_transform _ _ _ _ _ _ M) as Et. pose proof (made_radius _ _ _ _ _ _ M) as Er.
  set (ray' := fun ray : Ray => world_ray (s_transform s) ray).
  assert (Z : vis_zero (mkV 0 0 0) = true) by (unfold vis_zero; cbn; rewrite !Rabs_R0; assert (0 < eps64) by (unfold eps64; apply Rinv_0_lt_compat; lra); rewrite (proj2 (Rltb_true _ _)) by lra; reflexivity).
  assert (W : (forall ray k, project (ray' ray) k = vsub (project ray k) c) /\ (forall ray, direction (ray' ray) = direction ray) /\ (forall ray, origin (ray' ray) = vsub (origin ray) c) /\
    (forall p, match s_transform s with Some t => transform_pt t p | None => p end = vadd p c)).
  { unfold ray', world_ray. rewrite Et. destruct C as [ -> | C].
    - rewrite Z. cbn [negb]. repeat split.
      + intros ray k. unfold vsub, vadd, project, vscale. cbn. apply V3_eq; cbn; ring.
      + intros ray. unfold vsub. destruct (origin ray). cbn. apply V3_eq; cbn; ring.
      + intros p. unfold vadd. destruct p. cbn. apply V3_eq; cbn; ring.
    - rewrite C. cbn [negb]. repeat split; [apply inv_translated_ray|apply inv_translated_dir|apply inv_translated_origin|apply translated_pt]. }
  destruct W as (W1 & W2 & W3 & W4). split; [|split].
  - unfold sphere_centre. specialize (W4 (mkV 0 0 0)). destruct (s_transform s); rewrite W4; unfold vadd; destruct c; cbn; apply V3_eq; cbn; ring.
  - unfold sphere_area. rewrite (cut_top _ _ _ _ _ _ M), (cut_bottom _ _ _ _ _ _ M), Er, (made_phi _ _ _ _ _ _ M) by lra. rewrite Rmin_left, Rmax_left by lra. unfold to_radians. field.
  - intros ray V. destruct (sphere_core s (ray' ray)) as (Core & Core'); [rewrite Er; exact P|rewrite W2; exact V|]. unfold sphere_simple_intersect, world_simple_intersect. fold (ray' ray). split; [|split].
    + intros p H. destruct (sphere_basic_intersection s (ray' ray)) as [|h|] eqn:B; try discriminate. cbn [map_hit] in H. injection H as <-. destruct (Core _ eq_refl) as (k & K & L & -> & O & First). rewrite Er in L, First.
      exists k. split; [exact K|]. rewrite <- W1. split; [exact L|]. split.
      * intros k' K' L'. rewrite <- W1 in L'. specialize (First k' K' L'). rewrite (whole_inside _ _ _ _ _ M L') in First. discriminate.
      * rewrite W4. destruct (sphere_at_eq s (ray' ray) k r Er P L) as (Far & Near). split; intros N.
        -- rewrite (Far N). cbn [fst]. rewrite W1. unfold vadd, vsub. apply V3_eq; cbn; ring.
        -- rewrite (Near N). cbn [fst]. rewrite W1. unfold vadd, vsub. cbn. apply V3_eq; cbn; ring.
    + intros H k K L. destruct (sphere_basic_intersection s (ray' ray)) as [|h|] eqn:B; try discriminate. rewrite <- W1 in L. rewrite Er in Core'. specialize (Core' eq_refl k K L). rewrite (whole_inside _ _ _ _ _ M L) in Core'. discriminate.
    + rewrite <- W3. rewrite <- (W2 ray). rewrite <- (C99_tangent r (-2 * r) (2 * r) 360 _ s (ray' ray) P ltac:(lra) E); [|rewrite W2; exact V].
      destruct (sphere_basic_intersection s (ray' ray)); cbn [map_hit]; split; intros H; try discriminate H; reflexivity.
Qed.

(** Straight down on a pole the point that is shown is neither on the ray nor on the sphere, and there is no information: the program panics. *)
Theorem C99_pole_refuted : exists s ray p, sphere_new 1 (mkV 0 0 0) = Ok s /\ direction ray = mkV 0 0 (-1) /\ sphere_simple_intersect s ray = Hit p /\ vlen p <> 1 /\ (forall k, p <> project ray k) /\
  sphere_intersect s ray = Panic.
Proof.
  destruct (C99_whole 1 (mkV 0 0 0) ltac:(lra) (or_introl eq_refl)) as (s & E & _ & _ & H). exists s. set (ray := mkRay (mkV 0 0 2) (mkV 0 0 (-1))). exists ray, (mkV (1 / 10 ^ 5) 0 1).
  assert (V : 0 < vlen2 (direction ray)) by (unfold vlen2; cbn; lra). destruct (H ray V) as (H1 & H2 & H3). clear H.
  assert (D : forall k, vlen (vsub (project ray k) (mkV 0 0 0)) = Rabs (2 - k)).
  { intros k. unfold vlen, vlen2, vsub, project, vadd, vscale. cbn. rewrite <- sqrt_Rsqr_abs. f_equal. unfold Rsqr. ring. }
  assert (Hit1 : sphere_simple_intersect s ray = Hit (mkV (1 / 10 ^ 5) 0 1)).
  { destruct (sphere_simple_intersect s ray) as [|p|] eqn:B.
    - exfalso. apply (H2 eq_refl 1); [lra|]. rewrite D, Rabs_right; lra.
    - destruct (H1 p eq_refl) as (k & K & L & First & _ & Near). f_equal. rewrite D in L. assert (Ek : k = 1).
      { unfold Rabs in L. destruct (Rcase_abs (2 - k)); [|lra]. exfalso. apply (First 1); [lra|]. rewrite D, Rabs_right; lra. }
      subst k. rewrite Near; [unfold project; apply V3_eq; cbn; lra|]. unfold near_pole, project, vsub, vadd, vscale. cbn. replace (0 + 0 * 1 - 0) with 0 by ring. rewrite Rabs_R0. lra.
    - exfalso. destruct (proj1 H3 eq_refl) as (L & _). unfold vlen, vlen2, vsub in L. cbn in L. replace ((0 - 0) * (0 - 0) + (0 - 0) * (0 - 0) + (2 - 0) * (2 - 0)) with (2 * 2) in L by ring. rewrite sqrt_square in L; lra. }
  split; [exact E|]. split; [reflexivity|]. split; [exact Hit1|]. split; [|split].
  - intros L. apply vlen_radius in L; [|lra]. unfold vlen2 in L. cbn in L. lra.
  - intros k L. apply (f_equal vx) in L. unfold project in L. cbn in L. lra.
  - destruct (sphere_new_made 1 (mkV 0 0 0) ltac:(lra)) as (s' & E' & M). rewrite E in E'. injection E' as <-.
    assert (Z : vis_zero (mkV 0 0 0) = true) by (unfold vis_zero; cbn; rewrite !Rabs_R0; assert (0 < eps64) by (unfold eps64; apply Rinv_0_lt_compat; lra); rewrite (proj2 (Rltb_true _ _)) by lra; reflexivity).
    pose proof (made_transform _ _ _ _ _ _ M) as Et. rewrite Z in Et. cbn [negb] in Et.
    unfold sphere_simple_intersect, world_simple_intersect in Hit1. unfold sphere_intersect, world_intersect, sphere_intersect_local_ray. rewrite Et in *. cbn [world_ray] in *.
    destruct (sphere_basic_intersection s ray) as [|h|]; try discriminate. cbn [map_hit] in Hit1. injection Hit1 as Eh. destruct h as (q & phi). cbn [fst] in Eh. subst q. cbn [on_hit]. unfold sphere_info.
    cbn [vz]. rewrite (made_radius _ _ _ _ _ _ M), clamp_in by lra. cbn [bind]. replace (1 / 1) with 1 by field. rewrite acos_1, sin_0. destruct (Req_EM_T 0 0); [reflexivity|contradiction].
Qed.

(** The program panics whatever hits a sphere of a thousandth of a millimetre. *)
Theorem C99_tiny_refuted : exists r s, 0 < r /\ sphere_new r (mkV 0 0 0) = Ok s /\
  forall ray p, 0 < vlen2 (direction ray) -> sphere_simple_intersect s ray = Hit p -> vlen p = r -> sphere_intersect s ray = Panic.
Proof.
  set (r := 1 / 10 ^ 6). assert (P : 0 < r) by (unfold r; lra). destruct (sphere_new_made r (mkV 0 0 0) P) as (s & E & M). exists r, s. split; [exact P|]. split; [exact E|].
  assert (Z : vis_zero (mkV 0 0 0) = true) by (unfold vis_zero; cbn; rewrite !Rabs_R0; assert (0 < eps64) by (unfold eps64; apply Rinv_0_lt_compat; lra); rewrite (proj2 (Rltb_true _ _)) by lra; reflexivity).
  pose proof (made_transform _ _ _ _ _ _ M) as Et. rewrite Z in Et. cbn [negb] in Et. intros ray p V H L.
  unfold sphere_simple_intersect, world_simple_intersect in H. unfold sphere_intersect, world_intersect. rewrite Et in *. cbn [world_ray] in *.
  destruct (sphere_basic_intersection s ray) as [|(q & phi)|] eqn:B; try discriminate. cbn [map_hit fst] in H. injection H as ->.
  destruct (C99_info r (-2 * r) (2 * r) 360 _ s ray p phi P ltac:(lra) ltac:(lra) ltac:(lra) E V B L) as (u & v & du & dv & Ru & Rv & _ & Au & Av & Pa & _).
  rewrite Pa; [reflexivity|]. destruct (acos_cut _ _ _ _ _ _ M ltac:(lra) ltac:(lra)) as ((A0 & AB) & B1 & _). unfold sphere_surface in *.
  set (a := acos (Rmin 1 (2 * r / r))) in *. set (b := acos (Rmax (-1) (-2 * r / r))) in *. set (f := to_radians 360) in *.
  assert (F : f = 2 * PI) by (unfold f, to_radians; field).
  assert (Rw : 0 <= a + v * (b - a) <= PI) by nra. assert (Sw : 0 <= sin (a + v * (b - a))) by (apply sin_ge_0; lra). pose proof (SIN_bound (a + v * (b - a))) as Sb.
  rewrite (along_u_unique _ _ _ _ _ Au (sphere_along_u r f a b u v)), (along_v_unique _ _ _ _ _ Av (sphere_along_v r f a b u v)). pose proof PI_RGT_0. pose proof PI_4.
  rewrite (sphere_element r f a b u v) by lra. rewrite F. apply Rle_trans with (2 * 4 * 4 * (r * r) * 1); [|unfold r; lra].
  apply Rmult_le_compat; try lra; [|apply Rmult_le_compat_r; [apply Rle_0_sqr|]; apply Rmult_le_compat; lra]. apply Rmult_le_pos; [apply Rmult_le_pos; lra|apply Rle_0_sqr].
Qed.
(** A part of a sphere that meets the hypotheses of the theorems: the ray passes through the part that has been cut off and hits on the other side, from the inside. *)
Example C99_example : exists s, sphere_new_partial_transformed 1 (-1) (1 / 2) 180 None = Ok s /\ sphere_area s = PI * (3 / 2) /\
  exists p phi, sphere_basic_intersection s (mkRay (mkV (-3 / 5) (-3) 0) (mkV 0 1 0)) = Hit (p, phi) /\ p = mkV (-3 / 5) (4 / 5) 0 /\ on_sphere 1 (-1) (1 / 2) 180 p.
Proof.
  set (ray := mkRay (mkV (-3 / 5) (-3) 0) (mkV 0 1 0)).
  assert (E : exists s, sphere_new_partial_transformed 1 (-1) (1 / 2) 180 None = Ok s).
  { unfold sphere_new_partial_transformed. destruct (Rltb_spec (1 / 2) (-1)); [lra|]. rewrite !clamp_in by lra. cbn [bind]. rewrite !clamp_in by lra. cbn [bind].
    assert (0 < eps64) by (unfold eps64; apply Rinv_0_lt_compat; lra). destruct (if Rltb _ _ then _ else _) as (x & y).
    rewrite (proj2 (Rleb_true _ _)), (proj2 (Rleb_true _ _)) by lra. cbn [andb negb]. eauto. }
  destruct E as (s & E). exists s. split; [exact E|]. pose proof (sphere_is_made 1 (-1) (1 / 2) 180 None s ltac:(lra) ltac:(lra) E) as M. split.
  { unfold sphere_area. rewrite (cut_top _ _ _ _ _ _ M), (cut_bottom _ _ _ _ _ _ M), (made_radius _ _ _ _ _ _ M), (made_phi _ _ _ _ _ _ M) by lra. rewrite Rmin_right, Rmax_left by lra. unfold to_radians. field. }
  assert (V : 0 < vlen2 (direction ray)) by (unfold vlen2; cbn; lra).
  assert (L : forall k, vlen (project ray k) = 1 <-> k = 11 / 5 \/ k = 19 / 5).
  { intros k. rewrite <- vlen_radius by lra. unfold vlen2, project, vadd, vscale. cbn. split; [|intros [ -> | -> ]; field].
    intros Q. assert (Z : (k - 11 / 5) * (k - 19 / 5) = 0) by lra. apply Rmult_integral in Z. lra. }
  assert (Far : forall k, ~ near_pole 1 (project ray k)).
  { intros k (N & _). unfold project, vadd, vscale in N. cbn in N. rewrite Rabs_left in N by lra. lra. }
  assert (On : on_sphere 1 (-1) (1 / 2) 180 (project ray (19 / 5))).
  { split; [apply L; auto|]. assert (Ep : project ray (19 / 5) = mkV (-3 / 5) (4 / 5) 0) by (unfold project, vadd, vscale; cbn; apply V3_eq; cbn; field). rewrite Ep. cbn. split; [lra|].
    replace (sqrt _) with 1 by (symmetry; replace (-3 / 5 * (-3 / 5) + 4 / 5 * (4 / 5)) with (1 * 1) by field; apply sqrt_square; lra).
    exists (acos (-3 / 5)). rewrite cos_acos, sin_acos by lra. pose proof (acos_bound (-3 / 5)). replace (to_radians 180) with PI by (unfold to_radians; field). split; [lra|]. split; [ring|].
    unfold Rsqr. replace (1 - -3 / 5 * (-3 / 5)) with (4 / 5 * (4 / 5)) by field. rewrite sqrt_square; lra. }
  destruct (sphere_basic_intersection s ray) as [|(p & phi)|] eqn:B.
  - exfalso. apply (Far (19 / 5)). apply (C99_miss 1 (-1) (1 / 2) 180 None s ray); auto; lra.
  - exists p, phi. split; [reflexivity|]. destruct (C99_hit 1 (-1) (1 / 2) 180 None s ray p phi ltac:(lra) ltac:(lra) ltac:(lra) ltac:(lra) E V B) as (k & K & Lk & H & _). destruct (H (Far k)) as (-> & O).
    apply L in Lk. destruct Lk as [ -> | -> ].
    + exfalso. destruct O as (_ & _ & phi' & Rp & _ & Sy). replace (to_radians 180) with PI in Rp by (unfold to_radians; field). assert (Ey : vy (project ray (11 / 5)) = - (4 / 5)) by (unfold project, vadd, vscale; cbn; field).
      rewrite Ey in Sy at 1. assert (0 <= sin phi') by (apply sin_ge_0; lra). pose proof (sqrt_pos (vx (project ray (11 / 5)) * vx (project ray (11 / 5)) + vy (project ray (11 / 5)) * vy (project ray (11 / 5)))). nra.
    + split; [unfold project, vadd, vscale; cbn; apply V3_eq; cbn; field|exact O].
  - exfalso. apply (C99_tangent 1 (-1) (1 / 2) 180 None) in B; auto; try lra. destruct B as (_ & B). unfold vdot in B. cbn in B. lra.
Qed.

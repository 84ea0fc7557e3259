(** Lemmas about spheres, cylinders and discs *)
From Coq Require Import Reals List Bool Lra Lia Psatz.
From Verif.Weather Require SkyModel SkyProofs.
From Verif.Common Require Import Base Flt.
From Verif.Geometry Require Import Vec BBoxModel TransformModel TriangleModel ShapesModel.
Import ListNotations.
Open Scope R_scope.

(** ** Quadratic equations *)
Lemma quadratic_sqrt a b c : 0 < a -> 0 <= b * b - a * c * 4 -> let s := sqrt (b * b - a * c * 4) in
  0 <= s /\ forall t, a * t * t + b * t + c = a * (t - (- b - s) / (2 * a)) * (t - (- b + s) / (2 * a)).
Proof.
  intros A D s. assert (S : s * s = b * b - a * c * 4) by (apply sqrt_sqrt; exact D). split; [apply sqrt_pos|]. intros t.
  assert (C : c = (b * b - s * s) / (4 * a)) by (rewrite S; field; lra). rewrite C. field. lra.
Qed.
Lemma quadratic_hit a b c t0 t1 : 0 < a -> solve_quadratic a b c = Hit (t0, t1) -> t0 <= t1 /\ forall t, a * t * t + b * t + c = a * (t - t0) * (t - t1).
Proof.
  intros A H. unfold solve_quadratic in H. destruct (Rltb_spec (b * b - a * c * 4) 0) as [D|D]; [discriminate|].
  destruct (quadratic_sqrt a b c A ltac:(lra)) as (S0 & F). assert (S2 : sqrt (b * b - a * c * 4) * sqrt (b * b - a * c * 4) = b * b - a * c * 4) by (apply sqrt_sqrt; lra).
  set (s := sqrt (b * b - a * c * 4)) in *. clearbody s. cbv zeta in F.
  destruct (Req_EM_T a 0); [lra|].
  set (q := if Rltb b 0 then - (b - s) * (1 / 2) else - (b + s) * (1 / 2)) in *. destruct (Req_EM_T q 0) as [|Q]; [discriminate|].
  assert (X : (q / a = (- b - s) / (2 * a) /\ c / q = (- b + s) / (2 * a)) \/ (q / a = (- b + s) / (2 * a) /\ c / q = (- b - s) / (2 * a))).
  { assert (C : c = (b * b - s * s) / (4 * a)) by (rewrite S2; field; lra). revert Q. unfold q. destruct (Rltb b 0); intros Q; [right|left]; (split; [field; lra|]); rewrite C; field; split; lra. }
  assert (L : (- b - s) / (2 * a) <= (- b + s) / (2 * a)) by (apply Rmult_le_compat_r; [apply Rlt_le, Rinv_0_lt_compat; lra|lra]).
  assert (E : (if Rltb (c / q) (q / a) then (c / q, q / a) else (q / a, c / q)) = (t0, t1)) by congruence.
  assert (E' : t0 = (- b - s) / (2 * a) /\ t1 = (- b + s) / (2 * a)).
  { destruct X as [(X1 & X2)|(X1 & X2)]; rewrite X1, X2 in E; destruct (Rltb_spec ((- b + s) / (2 * a)) ((- b - s) / (2 * a))); destruct (Rltb_spec ((- b - s) / (2 * a)) ((- b + s) / (2 * a))); injection E; intros; split; lra. }
  destruct E' as (-> & ->). split; [exact L|]. exact F.
Qed.
Lemma quadratic_miss a b c : 0 < a -> solve_quadratic a b c = Miss -> forall t, 0 < a * t * t + b * t + c.
Proof.
  intros A H t. unfold solve_quadratic in H. destruct (Rltb_spec (b * b - a * c * 4) 0) as [D|D].
  - assert (K : 0 < 4 * a * (a * t * t + b * t + c)) by (pose proof (Rle_0_sqr (2 * a * t + b)) as Q; unfold Rsqr in Q; lra).
    apply Rmult_lt_reg_l with (4 * a); lra.
  - destruct (Req_EM_T a 0); [discriminate|]. destruct (Req_EM_T _ 0); discriminate.
Qed.
Lemma quadratic_nan a b c : 0 < a -> solve_quadratic a b c = NotANumber <-> b = 0 /\ c = 0.
Proof.
  intros A. unfold solve_quadratic. destruct (Rltb_spec (b * b - a * c * 4) 0) as [D|D].
  - split; [discriminate|]. intros (-> & ->). lra.
  - destruct (Req_EM_T a 0); [lra|].
    assert (S0 : 0 <= sqrt (b * b - a * c * 4)) by apply sqrt_pos. assert (S2 : sqrt (b * b - a * c * 4) * sqrt (b * b - a * c * 4) = b * b - a * c * 4) by (apply sqrt_sqrt; lra).
    set (s := sqrt (b * b - a * c * 4)) in *. clearbody s.
    destruct (Req_EM_T _ 0) as [Q|Q]; (split; [intros H|intros (-> & ->)]); try discriminate; try reflexivity.
    + destruct (Rltb_spec b 0); [lra|]. assert (Z : b = 0 /\ s = 0) by lra. destruct Z as (-> & ->). split; [reflexivity|]. assert (E : a * c = 0) by lra. apply Rmult_integral in E. lra.
    + exfalso. apply Q. assert (E : s * s = 0) by lra. apply Rmult_integral in E. destruct (Rltb_spec 0 0); lra.
Qed.

(** ** The first crossing on the part *)
Lemma first_hit t0 t1 at_hit outside h : t0 <= t1 -> first_on_part t0 t1 at_hit outside = Hit h ->
  exists t, 0 < t /\ (t = t0 \/ t = t1) /\ h = at_hit t /\ outside (fst h) (snd h) = false /\
    forall t', t' = t0 \/ t' = t1 -> 0 < t' < t -> outside (fst (at_hit t')) (snd (at_hit t')) = true.
Proof.
  intros L H. unfold first_on_part in H. destruct (Rleb_spec t1 0) as [N|N]; [discriminate|].
  destruct (Rltb_spec 0 t0) as [P|P].
  - destruct (at_hit t0) as (p & phi) eqn:E0. destruct (outside p phi) eqn:O0.
    + destruct (at_hit t1) as (p' & phi') eqn:E1. destruct (outside p' phi') eqn:O1; [discriminate|]. injection H as <-.
      exists t1. repeat split; auto; [lra|]. intros t' [ -> | -> ] R; [rewrite E0; exact O0|lra].
    + injection H as <-. exists t0. repeat split; auto. intros t' [ -> | -> ] R; lra.
  - destruct (at_hit t1) as (p & phi) eqn:E1. destruct (outside p phi) eqn:O1; [discriminate|]. injection H as <-.
    exists t1. repeat split; auto; [lra|]. intros t' [ -> | -> ] R; lra.
Qed.
Lemma first_miss t0 t1 at_hit outside : t0 <= t1 -> first_on_part t0 t1 at_hit outside = Miss ->
  forall t', t' = t0 \/ t' = t1 -> 0 < t' -> outside (fst (at_hit t')) (snd (at_hit t')) = true.
Proof.
  intros L H t' T P'. unfold first_on_part in H. destruct (Rleb_spec t1 0) as [N|N]; [destruct T; lra|].
  destruct (Rltb_spec 0 t0) as [P|P].
  - destruct (at_hit t0) as (p & phi) eqn:E0. destruct (outside p phi) eqn:O0; [|discriminate].
    destruct (at_hit t1) as (p' & phi') eqn:E1. destruct (outside p' phi') eqn:O1; [|discriminate].
    destruct T as [ -> | -> ]; [rewrite E0|rewrite E1]; assumption.
  - destruct (at_hit t1) as (p & phi) eqn:E1. destruct (outside p phi) eqn:O1; [|discriminate].
    destruct T as [ -> | -> ]; [lra|]. rewrite E1. exact O1.
Qed.
Lemma first_nan t0 t1 at_hit outside : first_on_part t0 t1 at_hit outside <> NotANumber.
Proof.
  unfold first_on_part. destruct (Rleb t1 0); [discriminate|]. destruct (Rltb 0 t0).
  - destruct (at_hit t0). destruct (outside _ _); [|discriminate]. destruct (at_hit t1). destruct (outside _ _); discriminate.
  - destruct (at_hit t1). destruct (outside _ _); discriminate.
Qed.

(** ** Longitudes *)
Lemma longitude_polar y x : x <> 0 \/ y <> 0 -> 0 <= longitude y x < 2 * PI /\
  x = sqrt (x * x + y * y) * cos (longitude y x) /\ y = sqrt (x * x + y * y) * sin (longitude y x).
Proof.
  intros H. destruct (SkyProofs.atan2_polar y x ltac:(tauto)) as (q & Q & Ey & Ex & Ra). pose proof PI_RGT_0 as Pi.
  assert (S : sqrt (x * x + y * y) = q).
  { replace (x * x + y * y) with (q * q). { apply sqrt_square. lra. }
    pose proof (sin2_cos2 (SkyModel.atan2 y x)) as T. unfold Rsqr in T. revert Ex Ey T. generalize (sin (SkyModel.atan2 y x)) (cos (SkyModel.atan2 y x)). intros ss cc -> -> T.
    replace (q * cc * (q * cc) + q * ss * (q * ss)) with (q * q * (ss * ss + cc * cc)) by ring. rewrite T. ring. }
  rewrite S. unfold longitude. destruct (Rltb_spec (SkyModel.atan2 y x) 0) as [N|N].
  - split; [lra|]. rewrite cos_plus, sin_plus, cos_2PI, sin_2PI, !Rmult_1_r, !Rmult_0_r, Rminus_0_r, Rplus_0_r. split; assumption.
  - split; [lra|]. split; assumption.
Qed.
(** No other longitude is smaller. *)
Lemma longitude_least y x phi : x <> 0 \/ y <> 0 -> 0 <= phi <= 2 * PI -> x = sqrt (x * x + y * y) * cos phi -> y = sqrt (x * x + y * y) * sin phi -> longitude y x <= phi.
Proof.
  intros H R Ex Ey. destruct (longitude_polar y x H) as (L & Lx & Ly). pose proof PI_RGT_0 as Pi.
  assert (Sp : sqrt (x * x + y * y) <> 0).
  { intros Z. rewrite Z in Ex, Ey. destruct H as [H|H]; apply H; lra. }
  assert (C : cos phi = cos (longitude y x)) by (apply Rmult_eq_reg_l with (sqrt (x * x + y * y)); [congruence|exact Sp]).
  assert (S : sin phi = sin (longitude y x)) by (apply Rmult_eq_reg_l with (sqrt (x * x + y * y)); [congruence|exact Sp]).
  destruct (Req_dec phi (2 * PI)) as [E|E]; [lra|]. right. symmetry. apply SkyProofs.same_angle; auto. lra.
Qed.

(** ** Spheres *)
Lemma clamp_spec v low high r : clamp v low high = Ok r -> low <= high /\ low <= r <= high /\ (low <= v <= high -> r = v) /\ (v < low -> r = low) /\ (high < v -> r = high).
Proof.
  unfold clamp. destruct (Rltb_spec high low); [discriminate|]. intros E. assert (E' : (if Rltb v low then low else if Rltb high v then high else v) = r) by congruence.
  revert E'. destruct (Rltb_spec v low); [|destruct (Rltb_spec high v)]; intros <-; repeat split; intros; lra.
Qed.
Lemma clamp_ok v low high : low <= high -> exists r, clamp v low high = Ok r.
Proof. intros L. unfold clamp. destruct (Rltb_spec high low); [lra|]. eauto. Qed.
Lemma acos_le x y : -1 <= x -> x <= y -> y <= 1 -> acos y <= acos x.
Proof.
  intros A B C. destruct (Rle_lt_dec (acos y) (acos x)) as [L|L]; [exact L|exfalso].
  pose proof (acos_bound x). pose proof (acos_bound y). assert (cos (acos y) < cos (acos x)) by (apply cos_decreasing_1; lra).
  rewrite !cos_acos in H1 by lra. lra.
Qed.

(** What a sphere that has been made is like *)
Record sphere_made (r z0 z1 deg : R) (t : option Transform) (s : Sphere) : Prop := mkMade {
  made_radius : s_radius s = r; made_positive : 0 < r; made_z : z0 <= z1;
  made_zmin : - r <= s_zmin s <= s_zmax s; made_zmax : s_zmax s <= r;
  made_cut : forall z, - r <= z <= r -> (s_zmin s <= z <= s_zmax s <-> (z0 <= z <= z1 \/ (z = r /\ r < z0) \/ (z = - r /\ z1 < - r)));
  made_phi : s_phi_max s = to_radians deg; made_top : theta_min s = acos (s_zmax s / r); made_bottom : theta_min s + delta_theta s = acos (s_zmin s / r);
  made_transform : s_transform s = t }.
Lemma div_in r z : 0 < r -> - r <= z <= r -> -1 <= z / r <= 1.
Proof. intros P H. split; apply Rmult_le_reg_r with r; try exact P; unfold Rdiv; rewrite Rmult_assoc, Rinv_l; lra. Qed.
Lemma div_le r x y : 0 < r -> x <= y -> x / r <= y / r.
Proof. intros P H. apply Rmult_le_compat_r; [apply Rlt_le, Rinv_0_lt_compat; exact P|exact H]. Qed.
Lemma sphere_is_made r z0 z1 deg t s : 0 < r -> 0 <= deg <= 360 -> sphere_new_partial_transformed r z0 z1 deg t = Ok s -> sphere_made r z0 z1 deg t s.
Proof.
  intros P D H. unfold sphere_new_partial_transformed in H. destruct (Rltb_spec z1 z0) as [|Z]; [discriminate|].
  destruct (clamp z0 (- r) r) as [a| |] eqn:Ea; cbn [bind] in H; try discriminate. destruct (clamp z1 (- r) r) as [b| |] eqn:Eb; cbn [bind] in H; try discriminate.
  apply clamp_spec in Ea. apply clamp_spec in Eb. destruct Ea as (_ & A1 & A2 & A3 & A4). destruct Eb as (_ & B1 & B2 & B3 & B4).
  assert (AB : a <= b).
  { destruct (Rlt_le_dec z0 (- r)); [rewrite A3 by lra; lra|]. destruct (Rlt_le_dec r z1); [rewrite B4 by lra; lra|]. destruct (Rlt_le_dec r z0); [lra|]. destruct (Rlt_le_dec z1 (- r)); [lra|]. rewrite A2, B2 by lra. lra. }
  pose proof (div_in r a P A1) as Da. pose proof (div_in r b P B1) as Db.
  destruct (clamp (a / r) (-1) 1) as [c1| |] eqn:E1; cbn [bind] in H; try discriminate. destruct (clamp (b / r) (-1) 1) as [c2| |] eqn:E2; cbn [bind] in H; try discriminate.
  apply clamp_spec in E1. apply clamp_spec in E2. destruct E1 as (_ & _ & C1 & _). destruct E2 as (_ & _ & C2 & _). rewrite C1, C2 in H by assumption.
  pose proof (acos_le (a / r) (b / r) ltac:(lra) (div_le r a b P AB) ltac:(lra)) as Ac.
  assert (Sw : (if Rltb (acos (b / r)) (acos (a / r)) then (acos (b / r), acos (a / r)) else (acos (a / r), acos (b / r))) = (acos (b / r), acos (a / r))).
  { destruct (Rltb_spec (acos (b / r)) (acos (a / r))); [reflexivity|]. assert (E : acos (b / r) = acos (a / r)) by lra. rewrite E. reflexivity. }
  rewrite Sw in H. destruct (negb _); [discriminate|]. destruct (clamp deg 0 360) as [d| |] eqn:Ed; cbn [bind] in H; try discriminate. apply clamp_spec in Ed. destruct Ed as (_ & _ & Ed & _). rewrite Ed in H by exact D.
  injection H as <-. constructor; cbn; try reflexivity; try lra.
  intros z Hz. split.
  - intros (L1 & L2). destruct (Rlt_le_dec r z0). { rewrite A4 in L1 by lra. right. left. lra. } destruct (Rlt_le_dec z1 (- r)). { rewrite B3 in L2 by lra. right. right. lra. }
    left. split.
    + destruct (Rlt_le_dec z0 (- r)); [lra|]. rewrite A2 in L1 by lra. lra.
    + destruct (Rlt_le_dec r z1); [lra|]. rewrite B2 in L2 by lra. lra.
  - intros [(L1 & L2)|[(-> & L)|(-> & L)]].
    + split.
      * destruct (Rlt_le_dec z0 (- r)); [lra|]. rewrite A2 by lra. lra.
      * destruct (Rlt_le_dec r z1); [lra|]. rewrite B2 by lra. lra.
    + rewrite A4, B4 by lra. lra.
    + rewrite A3, B3 by lra. lra.
Qed.
Lemma project_eq ray t : project ray t = mkV (vx (origin ray) + vx (direction ray) * t) (vy (origin ray) + vy (direction ray) * t) (vz (origin ray) + vz (direction ray) * t).
Proof. reflexivity. Qed.
Lemma vlen_radius p r : 0 < r -> vlen2 p = r * r <-> vlen p = r.
Proof.
  intros P. split; intros H.
  - unfold vlen. rewrite H. apply sqrt_square. lra.
  - rewrite <- vlen_sqr, H. reflexivity.
Qed.
Lemma vscale_one p : vscale p 1 = p.
Proof. destruct p. unfold vscale. cbn. f_equal; ring. Qed.
(** The points where the ray crosses the sphere *)
Lemma sphere_quadratic ray r t : let d := direction ray in let o := origin ray in
  (vx d * vx d + vy d * vy d + vz d * vz d) * t * t + (vx o * vx d + vy o * vy d + vz o * vz d) * 2 * t + (vx o * vx o + vy o * vy o + vz o * vz o - r * r) = vlen2 (project ray t) - r * r.
Proof. cbv zeta. rewrite project_eq. unfold vlen2. cbn [vx vy vz]. ring. Qed.

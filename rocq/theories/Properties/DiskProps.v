(** C101: discs *)
From Coquelicot Require Import Coquelicot.
From Coq Require Import Reals List Bool Lra Lia Psatz.
From Verif.Common Require Import Base Flt.
From Verif.Geometry Require Import Vec BBoxModel TransformModel TriangleModel ShapesModel ShapesProofs.
From Verif.Properties Require Import ShapesProps.
Import ListNotations.
Open Scope R_scope.

(** The axis [n] and the direction [e] of the angle zero that a user means with [normal] and [zero] *)
Record frame (normal zero n e : pt) : Prop := mkFrame {
  fr_n : vlen2 n = 1; fr_e : vlen2 e = 1; fr_ne : vdot n e = 0; fr_normal : exists k, 0 < k /\ normal = vscale n k; fr_zero : exists a b, 0 < a /\ zero = vadd (vscale e a) (vscale n b) }.
(** The point of the plane at a distance [rho] of the centre and at an angle [phi], anticlockwise for who looks against the normal *)
Definition in_plane (c n e : pt) (rho phi : R) : pt := vadd c (vadd (vscale e (rho * cos phi)) (vscale (vcross n e) (rho * sin phi))).
Definition on_disk (c n e : pt) (inner radius deg : R) (p : pt) : Prop :=
  exists rho phi, inner <= rho <= radius /\ 0 <= phi <= to_radians deg /\ p = in_plane c n e rho phi.

(** Three directions at right angles *)
Lemma third n e : vlen2 n = 1 -> vlen2 e = 1 -> vdot n e = 0 -> vlen2 (vcross n e) = 1 /\ vdot (vcross n e) n = 0 /\ vdot (vcross n e) e = 0.
Proof. intros N E O. rewrite lagrange, N, E, O. split; [ring|]. split; vring. Qed.
Lemma components n e v : vlen2 n = 1 -> vlen2 e = 1 -> vdot n e = 0 ->
  v = vadd (vscale n (vdot v n)) (vadd (vscale e (vdot v e)) (vscale (vcross n e) (vdot v (vcross n e)))).
Proof.
  intros N E O. destruct (third n e N E O) as (M1 & M2 & M3). set (m := vcross n e) in *. set (w := vsub v (vadd (vscale n (vdot v n)) (vscale e (vdot v e)))).
  assert (Wn : vdot w n = 0).
  { replace (vdot w n) with (vdot v n * (1 - vlen2 n) - vdot v e * vdot n e) by (unfold w; vring). rewrite N, O. ring. }
  assert (We : vdot w e = 0).
  { replace (vdot w e) with (vdot v e * (1 - vlen2 e) - vdot v n * vdot n e) by (unfold w; vring). rewrite E, O. ring. }
  assert (Z : vcross w m = mkV 0 0 0).
  { replace (vcross w m) with (vsub (vscale n (vdot w e)) (vscale e (vdot w n))) by (unfold m; vring). rewrite Wn, We. vring. }
  assert (W : w = vscale m (vdot v m)).
  { replace w with (vadd (vcross m (vcross w m)) (vscale m (vdot m w))).
    - rewrite Z. replace (vdot m w) with (vdot v m - vdot v n * vdot m n - vdot v e * vdot m e) by (unfold w; vring). rewrite M2, M3. vring.
    - replace (vadd (vcross m (vcross w m)) (vscale m (vdot m w))) with (vscale w (vlen2 m)) by vring. rewrite M1. apply vscale_one. }
  rewrite <- W. unfold w. vring.
Qed.
Lemma in_plane_facts c n e rho phi : vlen2 n = 1 -> vlen2 e = 1 -> vdot n e = 0 -> 0 <= rho ->
  let r := vsub (in_plane c n e rho phi) c in vlen2 r = rho * rho /\ vdot r n = 0 /\ vdot r e = rho * cos phi /\ vdot r (vcross n e) = rho * sin phi.
Proof.
  intros N E O Rh. destruct (third n e N E O) as (M1 & M2 & M3). cbv zeta. replace (vsub (in_plane c n e rho phi) c) with (vadd (vscale e (rho * cos phi)) (vscale (vcross n e) (rho * sin phi))) by (unfold in_plane; vring).
  set (m := vcross n e) in *. clearbody m. pose proof (sin2_cos2 phi) as T. unfold Rsqr in T. repeat split.
  - replace (vlen2 (vadd (vscale e (rho * cos phi)) (vscale m (rho * sin phi)))) with (rho * rho * (cos phi * cos phi * vlen2 e + sin phi * sin phi * vlen2 m + 2 * cos phi * sin phi * vdot m e)) by vring.
    rewrite E, M1, M3. replace (cos phi * cos phi * 1 + sin phi * sin phi * 1 + 2 * cos phi * sin phi * 0) with (sin phi * sin phi + cos phi * cos phi) by ring. rewrite T. ring.
  - replace (vdot (vadd (vscale e (rho * cos phi)) (vscale m (rho * sin phi))) n) with (rho * cos phi * vdot n e + rho * sin phi * vdot m n) by vring. rewrite O, M2. ring.
  - replace (vdot (vadd (vscale e (rho * cos phi)) (vscale m (rho * sin phi))) e) with (rho * cos phi * vlen2 e + rho * sin phi * vdot m e) by vring. rewrite E, M3. ring.
  - replace (vdot (vadd (vscale e (rho * cos phi)) (vscale m (rho * sin phi))) m) with (rho * cos phi * vdot m e + rho * sin phi * vlen2 m) by vring. rewrite M1, M3. ring.
Qed.
Lemma normalize_one n : vlen2 n = 1 -> vnormalize n = Ok n.
Proof. intros N. unfold vnormalize. rewrite N, (proj2 (Rltb_true _ _)) by lra. rewrite sqrt_1. replace (1 / 1) with 1 by field. f_equal. destruct n. apply V3_eq; cbn; ring. Qed.

(** A disc is made of what it should. *)
Theorem C101_made : forall c normal radius inner zero deg t k, 0 <= deg <= 360 -> disk_new_detailed c normal radius inner zero deg t = Ok k ->
  0 <= inner < radius /\ exists n e, frame normal zero n e /\ k = mkDisk c n radius inner e (to_radians deg) t.
Proof.
  intros c normal radius inner zero deg t k D H. unfold disk_new_detailed in H. destruct (vnormalize normal) as [n| |] eqn:En; cbn [bind] in H; try discriminate. destruct (vis_parallel n zero); [discriminate|].
  destruct (vnormalize (vsub zero (vscale n (vdot n zero)))) as [e| |] eqn:Ee; cbn [bind] in H; try discriminate. destruct (Rleb_spec radius inner); [discriminate|]. destruct (Rltb_spec radius 0); [discriminate|]. destruct (Rltb_spec inner 0); [discriminate|].
  rewrite clamp_in in H by exact D. cbn [bind] in H. injection H as <-. split; [lra|]. exists n, e. split; [|reflexivity].
  destruct (vnormalize_unit _ _ En) as (N & k & K & Ek). destruct (vnormalize_unit _ _ Ee) as (E & a & A & Ea). constructor; auto.
  - assert (Q : a * vdot n e = 0); [|apply Rmult_integral in Q; destruct Q; lra]. replace (a * vdot n e) with (vdot n (vscale e a)) by vring. rewrite <- Ea.
    replace (vdot n (vsub zero (vscale n (vdot n zero)))) with (vdot n zero * (1 - vlen2 n)) by vring. rewrite N. ring.
  - exists k. auto.
  - exists a, (vdot n zero). split; [exact A|]. rewrite <- Ea. vring.
Qed.
Lemma disk_basic c n e radius inner deg t ray : vlen2 n = 1 -> disk_basic_intersection (mkDisk c n radius inner e (to_radians deg) t) ray = Ok (
  if Rltb (Rabs (vdot n (direction ray))) eps64 then Miss else
  let k := vdot n (vsub c (origin ray)) / vdot n (direction ray) in
  if Rltb k 0 then Miss else
  let r := vsub (project ray k) c in
  if Rltb (radius * radius) (vlen2 r) || Rltb (vlen2 r) (inner * inner) then Miss else
  let phi := longitude (vdot r (vcross n e)) (vdot r e) in
  if Rltb (to_radians deg) phi then Miss else Hit (project ray k, phi)).
Proof.
  intros N. unfold disk_basic_intersection, plane_intersect. cbn [d_normal d_centre d_radius d_inner d_phi_zero d_phi_max]. rewrite normalize_one by exact N. cbn [bind].
  destruct (Rltb _ eps64); [reflexivity|]. replace (vdot n (vsub c (origin ray))) with (vdot n c - vdot n (origin ray)) by vring. cbv zeta. destruct (Rltb _ 0); [reflexivity|].
  set (k := _ / _). replace (vdot (vneg (vsub (project ray k) c)) (vcross e n)) with (vdot (vsub (project ray k) c) (vcross n e)) by vring. reflexivity.
Qed.
Lemma eps64_pos : 0 < eps64.
Proof. unfold eps64. apply Rinv_0_lt_compat. lra. Qed.
(** The parameter where the ray crosses the plane *)
Lemma crosses c n ray k : vdot n (direction ray) <> 0 -> k = vdot n (vsub c (origin ray)) / vdot n (direction ray) <-> vdot (vsub (project ray k) c) n = 0.
Proof.
  intros D. replace (vdot (vsub (project ray k) c) n) with (k * vdot n (direction ray) - vdot n (vsub c (origin ray))) by (unfold project; vring). split.
  - intros ->. field. exact D.
  - intros H. apply Rmult_eq_reg_r with (vdot n (direction ray)); [|exact D]. unfold Rdiv. rewrite Rmult_assoc, Rinv_l by exact D. lra.
Qed.
Lemma squares a b : 0 <= a -> 0 <= b -> a * a <= b * b <-> a <= b.
Proof. intros A B. split; intros H; nra. Qed.
Lemma same_unit n n' k k' : vlen2 n = 1 -> vlen2 n' = 1 -> 0 < k -> 0 < k' -> vscale n k = vscale n' k' -> n = n'.
Proof.
  intros N N' K K' E. assert (Q : k * k * vlen2 n = k' * k' * vlen2 n') by (replace (k * k * vlen2 n) with (vlen2 (vscale n k)) by vring; rewrite E; vring). rewrite N, N' in Q.
  assert (k = k') by nra. subst k'. pose proof (f_equal vx E) as X. pose proof (f_equal vy E) as Y. pose proof (f_equal vz E) as Z. unfold vscale in X, Y, Z. cbn [vx vy vz] in X, Y, Z.
  apply V3_eq; apply Rmult_eq_reg_r with k; lra.
Qed.
(** There is only one such frame. *)
Lemma frame_unique normal zero n e n' e' : frame normal zero n e -> frame normal zero n' e' -> n = n' /\ e = e'.
Proof.
  intros [N E O (k & K & Ek) (a & b & A & Ea)] [N' E' O' (k' & K' & Ek') (a' & b' & A' & Ea')]. rewrite Ek in Ek'. pose proof (same_unit _ _ _ _ N N' K K' Ek') as <-. split; [reflexivity|].
  rewrite Ea in Ea'. assert (B : b = b').
  { assert (Q : vdot n (vadd (vscale e a) (vscale n b)) = vdot n (vadd (vscale e' a') (vscale n b'))) by (rewrite Ea'; reflexivity).
    replace (vdot n (vadd (vscale e a) (vscale n b))) with (a * vdot n e + b * vlen2 n) in Q by vring. replace (vdot n (vadd (vscale e' a') (vscale n b'))) with (a' * vdot n e' + b' * vlen2 n) in Q by vring. rewrite O, O', N in Q. lra. }
  subst b'. apply (same_unit _ _ a a' E E' A A'). replace (vscale e a) with (vsub (vadd (vscale e a) (vscale n b)) (vscale n b)) by vring. rewrite Ea'. vring.
Qed.
(** A hit is a point of the disc on the ray. *)
Theorem C101_hit : forall c normal radius inner zero deg t k ray n e p phi, 0 <= deg <= 360 -> disk_new_detailed c normal radius inner zero deg t = Ok k -> frame normal zero n e ->
  disk_basic_intersection k ray = Ok (Hit (p, phi)) ->
  exists s, 0 <= s /\ p = project ray s /\ inner <= vlen (vsub p c) <= radius /\ 0 <= phi <= to_radians deg /\ p = in_plane c n e (vlen (vsub p c)) phi.
Proof.
  intros c normal radius inner zero deg t k ray n e p phi D M F H. apply C101_made in M; [|exact D]. destruct M as (Ri & n' & e' & F' & ->). destruct (frame_unique _ _ _ _ _ _ F F') as (<- & <-). clear F'.
  destruct F as [N E O _ _]. rewrite (disk_basic c n e radius inner deg t ray N) in H. destruct (Rltb_spec (Rabs (vdot n (direction ray))) eps64) as [|Nd]; [discriminate|].
  assert (Nz : vdot n (direction ray) <> 0) by (intros Z; rewrite Z, Rabs_R0 in Nd; pose proof eps64_pos; lra). set (s := vdot n (vsub c (origin ray)) / vdot n (direction ray)) in *.
  pose proof (proj1 (crosses c n ray s Nz) eq_refl) as Pl. cbv zeta in H. destruct (Rltb_spec s 0) as [|S]; [discriminate|]. set (r := vsub (project ray s) c) in *.
  destruct (Rltb_spec (radius * radius) (vlen2 r)) as [|L1]; [discriminate|]. destruct (Rltb_spec (vlen2 r) (inner * inner)) as [|L2]; [discriminate|]. cbn [orb] in H.
  destruct (Rltb_spec (to_radians deg) (longitude (vdot r (vcross n e)) (vdot r e))) as [|L3]; [discriminate|].
  assert (Ep : p = project ray s) by congruence. assert (Ef : phi = longitude (vdot r (vcross n e)) (vdot r e)) by congruence. clear H. exists s. split; [lra|]. split; [exact Ep|].
  rewrite Ep. fold r. pose proof (vlen_nonneg r) as L0. split; [rewrite <- (vlen_sqr r) in L1, L2; split; apply squares; lra|].
  destruct (third n e N E O) as (M1 & M2 & M3). pose proof (components n e r N E O) as C. rewrite Pl in C. set (m := vcross n e) in *.
  assert (Sq : vlen2 r = vdot r e * vdot r e + vdot r m * vdot r m).
  { rewrite C at 1. replace (vlen2 (vadd (vscale n 0) (vadd (vscale e (vdot r e)) (vscale m (vdot r m))))) with (vdot r e * vdot r e * vlen2 e + vdot r m * vdot r m * vlen2 m + 2 * vdot r e * vdot r m * vdot m e) by vring. rewrite E, M1, M3. ring. }
  assert (Po : 0 <= phi < 2 * PI /\ vdot r e = vlen r * cos phi /\ vdot r m = vlen r * sin phi).
  { destruct (Req_dec (vdot r e) 0) as [Z1|Z1]; [destruct (Req_dec (vdot r m) 0) as [Z2|Z2]|].
    - rewrite Ef, Z1, Z2. assert (Zl : vlen r = 0) by (unfold vlen; rewrite Sq, Z1, Z2; replace (0 * 0 + 0 * 0) with 0 by ring; apply sqrt_0). rewrite Zl.
      assert (Zo : longitude 0 0 = 0) by (unfold longitude, SkyModel.atan2; cbv zeta; rewrite !(proj2 (Rltb_false 0 0)) by lra; reflexivity). rewrite Zo. pose proof PI_RGT_0. split; [lra|]. split; ring.
    - rewrite Ef. unfold vlen. rewrite Sq. destruct (longitude_polar (vdot r m) (vdot r e)) as (Q1 & Q2 & Q3); [auto|]. auto.
    - rewrite Ef. unfold vlen. rewrite Sq. destruct (longitude_polar (vdot r m) (vdot r e)) as (Q1 & Q2 & Q3); [auto|]. auto. }
  destruct Po as (P0 & Pe & Pm). split; [lra|]. unfold in_plane. fold m. rewrite <- Pe, <- Pm. transitivity (vadd c r); [unfold r; vring|]. rewrite C at 1. vring.
Qed.
(** No point of the disc in front of the ray is missed, unless the ray moves along its plane. *)
Theorem C101_miss : forall c normal radius inner zero deg t k ray n e, 0 <= deg <= 360 -> disk_new_detailed c normal radius inner zero deg t = Ok k -> frame normal zero n e ->
  disk_basic_intersection k ray = Ok Miss -> forall s, 0 <= s -> on_disk c n e inner radius deg (project ray s) -> Rabs (vdot n (direction ray)) < eps64.
Proof.
  intros c normal radius inner zero deg t k ray n e D M F H s S (rho & phi & Rh & Rp & Es). apply C101_made in M; [|exact D]. destruct M as (Ri & n' & e' & F' & ->). destruct (frame_unique _ _ _ _ _ _ F F') as (<- & <-). clear F'.
  destruct F as [N E O _ _]. rewrite (disk_basic c n e radius inner deg t ray N) in H. destruct (Rltb_spec (Rabs (vdot n (direction ray))) eps64) as [|Nd]; [assumption|exfalso].
  assert (Nz : vdot n (direction ray) <> 0) by (intros Z; rewrite Z, Rabs_R0 in Nd; pose proof eps64_pos; lra).
  pose proof (in_plane_facts c n e rho phi N E O ltac:(lra)) as (Q1 & Q2 & Q3 & Q4). rewrite <- Es in Q1, Q2, Q3, Q4. apply (crosses c n ray s Nz) in Q2. rewrite <- Q2 in H. cbv zeta in H.
  rewrite (proj2 (Rltb_false s 0)) in H by lra. rewrite Q1, Q3, Q4 in H. rewrite (proj2 (Rltb_false _ _)), (proj2 (Rltb_false _ _)) in H by (apply squares; lra). cbn [orb] in H.
  pose proof (to_radians_range deg D). assert (L : longitude (rho * sin phi) (rho * cos phi) <= phi).
  { destruct (Req_dec rho 0) as [ -> |Z]; [rewrite !Rmult_0_l; unfold longitude, SkyModel.atan2; destruct (Rltb_spec 0 0); [lra|]; cbn; rewrite (proj2 (Rltb_false 0 0)) by lra; lra|].
    pose proof (sin2_cos2 phi) as T. unfold Rsqr in T.
    assert (Sr : sqrt (rho * cos phi * (rho * cos phi) + rho * sin phi * (rho * sin phi)) = rho) by (replace (rho * cos phi * (rho * cos phi) + rho * sin phi * (rho * sin phi)) with (rho * rho * (sin phi * sin phi + cos phi * cos phi)) by ring; rewrite T, Rmult_1_r; apply sqrt_square; lra).
    apply longitude_least; rewrite ?Sr; try lra. destruct (Req_dec (cos phi) 0) as [C|C]; [right|left]; apply Rmult_integral_contrapositive_currified; auto; try lra. intros Z'. rewrite C, Z' in T. lra. }
  rewrite (proj2 (Rltb_false _ _)) in H by lra. discriminate.
Qed.
(** The program always answers, with a hit or a miss. *)
Theorem C101_answers : forall c normal radius inner zero deg t k ray, 0 <= deg <= 360 -> disk_new_detailed c normal radius inner zero deg t = Ok k ->
  disk_basic_intersection k ray = Ok Miss \/ exists p phi, disk_basic_intersection k ray = Ok (Hit (p, phi)).
Proof.
  intros c normal radius inner zero deg t k ray D M. apply C101_made in M; [|exact D]. destruct M as (Ri & n & e & F & ->). rewrite (disk_basic c n e radius inner deg t ray (fr_n _ _ _ _ F)).
  repeat match goal with |- context [if ?b then _ else _] => destruct b; auto end; cbv zeta; repeat match goal with |- context [if ?b then _ else _] => destruct b; auto end; right; eauto.
Qed.

(** Angle and distance as parameters: the latter runs from the outer radius inwards. *)
Definition disk_surface (c n e : pt) (inner radius deg u v : R) : pt := in_plane c n e (radius + v * (inner - radius)) (u * to_radians deg).
Definition disk_du n e inner radius deg u v : pt := vscale (vadd (vscale e (- sin (u * to_radians deg))) (vscale (vcross n e) (cos (u * to_radians deg)))) (to_radians deg * (radius + v * (inner - radius))).
Definition disk_dv n e inner radius deg u (v : R) : pt := vscale (vadd (vscale e (cos (u * to_radians deg))) (vscale (vcross n e) (sin (u * to_radians deg)))) (inner - radius).
Lemma disk_along_u c n e inner radius deg u v : along_u (disk_surface c n e inner radius deg) u v (disk_du n e inner radius deg u v).
Proof. unfold along_u, disk_surface, in_plane, disk_du, vadd, vscale. cbn [vx vy vz]. generalize (vcross n e) (to_radians deg). intros m f. generalize (vx c) (vy c) (vz c) (vx e) (vy e) (vz e) (vx m) (vy m) (vz m). intros. split; [|split]; auto_derive; auto; ring. Qed.
Lemma disk_along_v c n e inner radius deg u v : along_v (disk_surface c n e inner radius deg) u v (disk_dv n e inner radius deg u v).
Proof. unfold along_v, disk_surface, in_plane, disk_dv, vadd, vscale. cbn [vx vy vz]. generalize (vcross n e) (to_radians deg). intros m f. generalize (vx c) (vy c) (vz c) (vx e) (vy e) (vz e) (vx m) (vy m) (vz m). intros. split; [|split]; auto_derive; auto; ring. Qed.
Lemma disk_element n e inner radius deg u v : vlen2 n = 1 -> vlen2 e = 1 -> vdot n e = 0 -> 0 <= deg <= 360 -> inner <= radius -> 0 <= radius + v * (inner - radius) ->
  vlen (vcross (disk_du n e inner radius deg u v) (disk_dv n e inner radius deg u v)) = to_radians deg * (radius + v * (inner - radius)) * (radius - inner).
Proof.
  intros N E O D Ri Rh. destruct (third n e N E O) as (M1 & _ & M3). pose proof (to_radians_range deg D) as F. unfold vlen. rewrite lagrange. unfold disk_du, disk_dv. set (m := vcross n e) in *. clearbody m. set (f := to_radians deg) in *. set (rho := radius + v * (inner - radius)) in *. set (w := u * f).
  pose proof (sin2_cos2 w) as T. unfold Rsqr in T.
  replace (vlen2 (vscale (vadd (vscale e (- sin w)) (vscale m (cos w))) (f * rho))) with (f * rho * (f * rho)).
  2:{ transitivity (f * rho * (f * rho) * (sin w * sin w * vlen2 e + cos w * cos w * vlen2 m - 2 * sin w * cos w * vdot m e)); [|vring]. rewrite E, M1, M3. replace (sin w * sin w * 1 + cos w * cos w * 1 - 2 * sin w * cos w * 0) with (sin w * sin w + cos w * cos w) by ring. rewrite T. ring. }
  replace (vlen2 (vscale (vadd (vscale e (cos w)) (vscale m (sin w))) (inner - radius))) with ((inner - radius) * (inner - radius)).
  2:{ transitivity ((inner - radius) * (inner - radius) * (cos w * cos w * vlen2 e + sin w * sin w * vlen2 m + 2 * sin w * cos w * vdot m e)); [|vring]. rewrite E, M1, M3. replace (cos w * cos w * 1 + sin w * sin w * 1 + 2 * sin w * cos w * 0) with (sin w * sin w + cos w * cos w) by ring. rewrite T. ring. }
  replace (vdot (vscale (vadd (vscale e (- sin w)) (vscale m (cos w))) (f * rho)) (vscale (vadd (vscale e (cos w)) (vscale m (sin w))) (inner - radius))) with 0.
  2:{ transitivity (f * rho * (inner - radius) * (sin w * cos w * (vlen2 m - vlen2 e) + (cos w * cos w - sin w * sin w) * vdot m e)); [rewrite E, M1, M3; ring|vring]. }
  replace (f * rho * (f * rho) * ((inner - radius) * (inner - radius)) - 0 * 0) with (f * rho * (radius - inner) * (f * rho * (radius - inner))) by ring. apply sqrt_square. apply Rmult_le_pos; [apply Rmult_le_pos|]; lra.
Qed.
(** The parameters between 0 and 1 give exactly the points of the disc ... *)
Theorem C101_surface : forall c n e inner radius deg p, 0 <= deg <= 360 -> inner <= radius ->
  on_disk c n e inner radius deg p <-> exists u v, 0 <= u <= 1 /\ 0 <= v <= 1 /\ p = disk_surface c n e inner radius deg u v.
Proof.
  intros c n e inner radius deg p D Ri. pose proof (to_radians_range deg D) as F. split.
  - intros (rho & phi & Rh & Rp & ->). destruct (interpolate 0 (to_radians deg) phi Rp) as (u & Ru & Eu). destruct (interpolate inner radius rho Rh) as (v & Rv & Ev).
    exists u, (1 - v). split; [exact Ru|]. split; [lra|]. unfold disk_surface. replace (u * to_radians deg) with phi by lra. replace (radius + (1 - v) * (inner - radius)) with rho by lra. reflexivity.
  - intros (u & v & Ru & Rv & ->). unfold disk_surface. exists (radius + v * (inner - radius)), (u * to_radians deg). split; [nra|]. split; [nra|]. reflexivity.
Qed.
(** ... and its area is right. *)
Theorem C101_area : forall c normal radius inner zero deg t k n e, 0 <= deg <= 360 -> disk_new_detailed c normal radius inner zero deg t = Ok k -> frame normal zero n e ->
  has_area (disk_surface c n e inner radius deg) (disk_area k).
Proof.
  intros c normal radius inner zero deg t k n e D M F du dv Hu Hv. apply C101_made in M; [|exact D]. destruct M as (Ri & n' & e' & F' & ->). destruct F as [N E O _ _]. unfold disk_area. cbn [d_phi_max d_radius d_inner].
  set (A := to_radians deg * (1 / 2) * (radius * radius - inner * inner)).
  assert (Cst : is_RInt (fun _ : R => A) 0 1 A) by (pose proof (is_RInt_const 0 1 A) as Q; change (scal (1 - 0) A) with ((1 - 0) * A) in Q; replace ((1 - 0) * A) with A in Q by ring; exact Q).
  apply is_RInt_ext with (f := fun _ => A); [|exact Cst]. intros u _. symmetry. apply is_RInt_unique. apply is_RInt_ext with (f := fun v => to_radians deg * (radius + v * (inner - radius)) * (radius - inner)).
  - intros v Rv. rewrite Rmin_left, Rmax_right in Rv by lra. rewrite (along_u_unique _ _ _ _ _ (Hu u v) (disk_along_u c n e inner radius deg u v)), (along_v_unique _ _ _ _ _ (Hv u v) (disk_along_v c n e inner radius deg u v)).
    rewrite disk_element; try assumption; [reflexivity|lra|nra].
  - set (G := fun v => to_radians deg * (radius - inner) * (radius * v + v * v / 2 * (inner - radius))). assert (EA : A = minus (G 1) (G 0)) by (unfold A, G, minus, plus, opp; cbn; field). rewrite EA.
    apply (is_RInt_derive G).
    + intros x _. unfold G. auto_derive; auto. field.
    + intros x _. apply continuity_pt_filterlim. reg.
Qed.

(** What is told about a point that has been hit: the front of a disc is the side that its normal points to. *)
Theorem C101_info : forall c normal radius inner zero deg t k ray n e p phi, 0 <= deg <= 360 -> disk_new_detailed c normal radius inner zero deg t = Ok k -> frame normal zero n e ->
  disk_basic_intersection k ray = Ok (Hit (p, phi)) -> p <> c -> exists normal' side dpdu dpdv, disk_intersect_local_ray k ray = Ok (Hit (mkInfo p normal' side dpdu dpdv)) /\ sees n (direction ray) normal' side /\ side <> NonApplicable /\
    vdot dpdu n = 0 /\ vdot dpdv n = 0.
Proof.
  intros c normal radius inner zero deg t k ray n e p phi D M F H Nc. pose proof M as M'. apply C101_made in M; [|exact D]. destruct M as (Ri & n' & e' & F' & Ek). destruct (frame_unique _ _ _ _ _ _ F F') as (<- & <-). clear F'.
  pose proof (C101_hit c normal radius inner zero deg t k ray n e p phi D M' F H) as (s & _ & _ & _ & _ & _).
  assert (Nd : vdot n (direction ray) <> 0).
  { rewrite Ek, (disk_basic c n e radius inner deg t ray (fr_n _ _ _ _ F)) in H. intros Z. rewrite Z, Rabs_R0, (proj2 (Rltb_true 0 eps64)) in H by apply eps64_pos. discriminate. }
  unfold disk_intersect_local_ray. rewrite H. cbn [bind]. unfold disk_info. rewrite Ek. cbn [d_centre d_normal d_phi_zero d_inner d_radius].
  destruct (Req_EM_T (vlen (vsub p c)) 0) as [Z|_].
  { exfalso. apply Nc. assert (Q : vlen2 (vsub p c) = 0) by (rewrite <- vlen_sqr, Z; ring). apply vlen2_zero in Q. pose proof (f_equal vx Q). pose proof (f_equal vy Q). pose proof (f_equal vz Q). unfold vsub in *. cbn in *. apply V3_eq; lra. }
  pose proof (get_side_sees n (direction ray)) as S. destruct (get_side n (direction ray)) as (n' & side). cbn [fst snd] in S. eexists n', side, _, _. split; [reflexivity|]. split; [exact S|].
  destruct F as [N E O _ _]. split; [intros ->; destruct S as [(? & _)|[(? & _)|(_ & ? & _)]]; congruence|]. split.
  - match goal with |- vdot (vadd (vscale e ?x) (vscale (vcross e n) ?y)) n = 0 => replace (vdot (vadd (vscale e x) (vscale (vcross e n) y)) n) with (x * vdot n e) by vring end. rewrite O. ring.
  - match goal with |- vdot (vadd (vscale e ?x) (vscale (vcross e n) ?y)) n = 0 => replace (vdot (vadd (vscale e x) (vscale (vcross e n) y)) n) with (x * vdot n e) by vring end. rewrite O. ring.
Qed.

(** The disc of radius 1 around the origin in the plane z = 0 *)
Definition unit_disk : Disk := mkDisk (mkV 0 0 0) (mkV 0 0 1) 1 0 (mkV 1 0 0) (to_radians 360) None.
Lemma unit_disk_made : disk_new_detailed (mkV 0 0 0) (mkV 0 0 1) 1 0 (mkV 1 0 0) 360 None = Ok unit_disk /\ frame (mkV 0 0 1) (mkV 1 0 0) (mkV 0 0 1) (mkV 1 0 0).
Proof.
  split.
  - unfold disk_new_detailed. rewrite normalize_one by (unfold vlen2; cbn; ring). cbn [bind].
    assert (Vp : vis_parallel (mkV 0 0 1) (mkV 1 0 0) = false).
    { unfold vis_parallel. destruct (vis_zero _ || vis_zero _); [reflexivity|]. apply Rltb_false. unfold vdot, vlen2. cbn. replace ((0 * 1 + 0 * 0 + 1 * 0) * (0 * 1 + 0 * 0 + 1 * 0) - (0 * 0 + 0 * 0 + 1 * 1) * (1 * 1 + 0 * 0 + 0 * 0)) with (-1) by ring. rewrite Rabs_left; lra. }
    rewrite Vp. replace (vsub (mkV 1 0 0) (vscale (mkV 0 0 1) (vdot (mkV 0 0 1) (mkV 1 0 0)))) with (mkV 1 0 0) by vring. rewrite normalize_one by (unfold vlen2; cbn; ring). cbn [bind].
    rewrite (proj2 (Rleb_false _ _)), !(proj2 (Rltb_false _ _)) by lra. rewrite clamp_in by lra. reflexivity.
  - constructor; try (unfold vlen2, vdot; cbn; ring); [exists 1|exists 1, 0]; (split; [lra|vring]).
Qed.
Lemma full : 0 <= 360 <= 360. Proof. lra. Qed.
Lemma quarter : 0 <= 90 <= 360. Proof. lra. Qed.
Lemma unit_disk_hit x y : x * x + y * y <= 1 -> exists phi, disk_basic_intersection unit_disk (mkRay (mkV x y 1) (mkV 0 0 (-1))) = Ok (Hit (mkV x y 0, phi)).
Proof.
  intros L. destruct unit_disk_made as (M & F). set (ray := mkRay (mkV x y 1) (mkV 0 0 (-1))).
  destruct (C101_answers _ _ _ _ _ _ _ _ ray full M) as [H|(p & phi & H)].
  - exfalso. assert (Q : Rabs (vdot (mkV 0 0 1) (direction ray)) < eps64).
    { apply (C101_miss _ _ _ _ _ _ _ _ ray _ _ full M F H 1); [lra|]. pose proof PI_RGT_0. exists (sqrt (x * x + y * y)). assert (Rh : 0 <= sqrt (x * x + y * y) <= 1) by (split; [apply sqrt_pos|rewrite <- sqrt_1; apply sqrt_le_1_alt; exact L]).
      replace (to_radians 360) with (2 * PI) by (unfold to_radians; field).
      assert (Po : exists phi, 0 <= phi <= 2 * PI /\ x = sqrt (x * x + y * y) * cos phi /\ y = sqrt (x * x + y * y) * sin phi).
      { destruct (Req_dec x 0) as [Z1|Z1]; [destruct (Req_dec y 0) as [Z2|Z2]|].
        - exists 0. rewrite Z1, Z2. replace (0 * 0 + 0 * 0) with 0 by ring. rewrite sqrt_0. split; [lra|]. split; ring.
        - destruct (longitude_polar y x) as (Q1 & Q2 & Q3); [auto|]. exists (longitude y x). split; [lra|]. auto.
        - destruct (longitude_polar y x) as (Q1 & Q2 & Q3); [auto|]. exists (longitude y x). split; [lra|]. auto. }
      destruct Po as (phi & Rp & Ex & Ey). exists phi. split; [exact Rh|]. split; [exact Rp|]. unfold in_plane. rewrite <- Ex, <- Ey. unfold project, vadd, vscale, vcross. cbn. apply V3_eq; cbn; ring. }
    unfold vdot in Q. cbn in Q. replace (0 * 0 + 0 * 0 + 1 * -1) with (-1) in Q by ring. rewrite Rabs_left in Q by lra. assert (eps64 < 1); [unfold eps64|lra]. rewrite <- Rinv_1. apply Rinv_lt_contravar; lra.
  - exists phi. rewrite H. do 3 f_equal. destruct (C101_hit _ _ _ _ _ _ _ _ ray _ _ p phi full M F H) as (s & _ & Ep & _ & _ & Pl). pose proof (f_equal vz Pl) as Z. unfold in_plane, vadd, vscale, vcross in Z. cbn in Z.
    rewrite Ep in Z |- *. unfold project, vadd, vscale in *. cbn in *. apply V3_eq; cbn; lra.
Qed.
(** The derivatives are wrong: with the angle a point keeps its distance to the centre, so that it moves at a right angle to the radius, but not so the derivative that is told. *)
Theorem C101_derivatives_refuted : exists k ray p normal side dpdu dpdv, disk_new_detailed (mkV 0 0 0) (mkV 0 0 1) 1 0 (mkV 1 0 0) 360 None = Ok k /\
  disk_intersect_local_ray k ray = Ok (Hit (mkInfo p normal side dpdu dpdv)) /\ p = mkV (3 / 10) (4 / 10) 0 /\ vdot dpdu p <> 0 /\ vdot dpdu dpdv <> 0.
Proof.
  destruct unit_disk_made as (M & F). exists unit_disk. destruct (unit_disk_hit (3 / 10) (4 / 10) ltac:(lra)) as (phi & H). set (ray := mkRay _ _) in H. exists ray, (mkV (3 / 10) (4 / 10) 0).
  unfold disk_intersect_local_ray. rewrite H. cbn [bind]. unfold disk_info, unit_disk. cbn [d_centre d_normal d_phi_zero d_inner d_radius].
  assert (L : vlen (vsub (mkV (3 / 10) (4 / 10) 0) (mkV 0 0 0)) = 1 / 2) by (apply vlen_radius; [lra|]; unfold vlen2, vsub; cbn; field). rewrite L. destruct (Req_EM_T (1 / 2) 0); [lra|].
  destruct (get_side (mkV 0 0 1) (direction ray)) as (n' & side). eexists n', side, _, _. split; [exact M|]. split; [reflexivity|]. split; [reflexivity|]. unfold vdot, vadd, vscale, vsub, vneg, vcross. cbn. split; lra.
Qed.
(** At the centre of a disc without a hole they are not even numbers. *)
Theorem C101_centre_refuted : exists k ray, disk_new_detailed (mkV 0 0 0) (mkV 0 0 1) 1 0 (mkV 1 0 0) 360 None = Ok k /\ ray = mkRay (mkV 0 0 1) (mkV 0 0 (-1)) /\ disk_intersect_local_ray k ray = Ok NotANumber.
Proof.
  destruct unit_disk_made as (M & F). exists unit_disk, (mkRay (mkV 0 0 1) (mkV 0 0 (-1))). split; [exact M|]. split; [reflexivity|]. destruct (unit_disk_hit 0 0 ltac:(lra)) as (phi & H).
  unfold disk_intersect_local_ray. rewrite H. cbn [bind]. unfold disk_info, unit_disk. cbn [d_centre d_normal d_phi_zero d_inner d_radius].
  assert (L : vlen (vsub (mkV 0 0 0) (mkV 0 0 0)) = 0) by (unfold vlen, vlen2, vsub; cbn; replace ((0 - 0) * (0 - 0) + (0 - 0) * (0 - 0) + (0 - 0) * (0 - 0)) with 0 by ring; apply sqrt_0). rewrite L. destruct (Req_EM_T 0 0); [reflexivity|contradiction].
Qed.
(** A ray that moves along the plane is lost, however slowly it gets away from it: from 1e-10 above the disc, and with a slope of 1e-16, it meets it in 1e6 metres. *)
Theorem C101_grazing_refuted : exists k ray, disk_new_detailed (mkV 0 0 0) (mkV 0 0 1) 1 0 (mkV 1 0 0) 360 None = Ok k /\
  on_disk (mkV 0 0 0) (mkV 0 0 1) (mkV 1 0 0) 0 1 360 (project ray (10 ^ 6)) /\ disk_basic_intersection k ray = Ok Miss.
Proof.
  destruct unit_disk_made as (M & F). exists unit_disk, (mkRay (mkV (- 10 ^ 6) 0 (1 / 10 ^ 10)) (mkV 1 0 (- (1 / 10 ^ 16)))). split; [exact M|]. split.
  - exists 0, 0. pose proof PI_RGT_0. replace (to_radians 360) with (2 * PI) by (unfold to_radians; field). split; [lra|]. split; [lra|]. unfold in_plane, project, vadd, vscale, vcross. cbn. apply V3_eq; cbn; lra.
  - unfold unit_disk. rewrite disk_basic by apply (fr_n _ _ _ _ F). unfold vdot at 1. cbn [direction vx vy vz]. replace (0 * 1 + 0 * 0 + 1 * - (1 / 10 ^ 16)) with (- (1 / 10 ^ 16)) by ring.
    rewrite (proj2 (Rltb_true _ _)); [reflexivity|]. rewrite Rabs_left by lra. unfold eps64. apply Rmult_lt_reg_r with (2 ^ 52 * 10 ^ 16); [lra|]. field_simplify; lra.
Qed.
(** A quarter of a ring that meets the hypotheses of the theorems *)
Example C101_example : exists k ray p phi, disk_new_detailed (mkV 0 0 0) (mkV 0 0 2) 1 (1 / 4) (mkV 1 0 5) 90 None = Ok k /\ frame (mkV 0 0 2) (mkV 1 0 5) (mkV 0 0 1) (mkV 1 0 0) /\
  disk_area k = PI / 4 * (15 / 16) /\ disk_basic_intersection k ray = Ok (Hit (p, phi)) /\ p = mkV (3 / 10) (4 / 10) 0.
Proof.
  assert (F : frame (mkV 0 0 2) (mkV 1 0 5) (mkV 0 0 1) (mkV 1 0 0)).
  { constructor; try (unfold vlen2, vdot; cbn; ring); [exists 2|exists 1, 5]; (split; [lra|vring]). }
  set (k := mkDisk (mkV 0 0 0) (mkV 0 0 1) 1 (1 / 4) (mkV 1 0 0) (to_radians 90) None).
  assert (M : disk_new_detailed (mkV 0 0 0) (mkV 0 0 2) 1 (1 / 4) (mkV 1 0 5) 90 None = Ok k).
  { unfold disk_new_detailed. replace (vnormalize (mkV 0 0 2)) with (Ok (mkV 0 0 1)).
    2:{ unfold vnormalize, vlen2. cbn [vx vy vz]. replace (0 * 0 + 0 * 0 + 2 * 2) with (2 * 2) by ring. rewrite (proj2 (Rltb_true _ _)) by lra. rewrite sqrt_square by lra. f_equal. apply V3_eq; cbn; field. }
    cbn [bind]. assert (Vp : vis_parallel (mkV 0 0 1) (mkV 1 0 5) = false).
    { unfold vis_parallel. destruct (vis_zero _ || vis_zero _); [reflexivity|]. apply Rltb_false. unfold vdot, vlen2. cbn. replace ((0 * 1 + 0 * 0 + 1 * 5) * (0 * 1 + 0 * 0 + 1 * 5) - (0 * 0 + 0 * 0 + 1 * 1) * (1 * 1 + 0 * 0 + 5 * 5)) with (-1) by ring. rewrite Rabs_left; lra. }
    rewrite Vp. replace (vsub (mkV 1 0 5) (vscale (mkV 0 0 1) (vdot (mkV 0 0 1) (mkV 1 0 5)))) with (mkV 1 0 0) by vring. rewrite normalize_one by (unfold vlen2; cbn; ring). cbn [bind].
    rewrite (proj2 (Rleb_false _ _)), !(proj2 (Rltb_false _ _)) by lra. rewrite clamp_in by lra. reflexivity. }
  exists k, (mkRay (mkV (3 / 10) (4 / 10) 1) (mkV 0 0 (-1))). set (ray := mkRay _ _).
  destruct (C101_answers _ _ _ _ _ _ _ _ ray quarter M) as [H|(p & phi & H)].
  - exfalso. assert (Q : Rabs (vdot (mkV 0 0 1) (direction ray)) < eps64).
    { apply (C101_miss _ _ _ _ _ _ _ _ ray _ _ quarter M F H 1); [lra|]. exists (1 / 2), (acos (3 / 5)). replace (to_radians 90) with (PI / 2) by (unfold to_radians; field). split; [lra|].
      pose proof (acos_bound (3 / 5)). pose proof (acos_le 0 (3 / 5) ltac:(lra) ltac:(lra) ltac:(lra)) as A. rewrite acos_0 in A. split; [lra|]. unfold in_plane. rewrite cos_acos, sin_acos by lra.
      replace (sqrt (1 - (3 / 5)²)) with (4 / 5) by (unfold Rsqr; replace (1 - 3 / 5 * (3 / 5)) with (4 / 5 * (4 / 5)) by field; symmetry; apply sqrt_square; lra).
      unfold project, vadd, vscale, vcross. cbn. apply V3_eq; cbn; field. }
    unfold vdot in Q. cbn in Q. replace (0 * 0 + 0 * 0 + 1 * -1) with (-1) in Q by ring. rewrite Rabs_left in Q by lra. assert (eps64 < 1); [unfold eps64|lra]. rewrite <- Rinv_1. apply Rinv_lt_contravar; lra.
  - exists p, phi. split; [exact M|]. split; [exact F|]. split; [unfold disk_area, k, to_radians; cbn; field|]. split; [exact H|]. destruct (C101_hit _ _ _ _ _ _ _ _ ray _ _ p phi quarter M F H) as (s & _ & Ep & _ & _ & Pl). pose proof (f_equal vz Pl) as Z. unfold in_plane, vadd, vscale, vcross in Z. cbn in Z.
    rewrite Ep in Z |- *. unfold project, vadd, vscale in *. cbn in *. apply V3_eq; cbn; lra.
Qed.

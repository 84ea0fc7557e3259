(** C74, C75 and C77: where the sun is, solar and standard time, and clear-sky radiation. *)
From Coq Require Import List Arith ZArith Reals Bool Lra Lia Psatz.
From Verif.Common Require Import Base Flt.
From Verif.Geometry Require Import Vec.
From Verif.Weather Require Import SunModel.
Import ListNotations.
Open Scope R_scope.

(** The sun as seen from the centre of the Earth: z towards the pole, x to where the equator meets the local meridian, y to
    the east. The hour angle grows to the west. *)
Definition sun_in_the_sky (declination hour_angle : R) : pt :=
  mkV (cos declination * cos hour_angle) (- (cos declination * sin hour_angle)) (sin declination).
(** The directions of a place at some latitude, in that frame *)
Definition east_of : pt := mkV 0 1 0.
Definition north_of (phi : R) : pt := mkV (- sin phi) 0 (cos phi).
Definition up_of (phi : R) : pt := mkV (cos phi) 0 (sin phi).
(** So, where the sun is for somebody there: X is East, Y is North, Z is up *)
Definition sun_seen_from (phi declination hour_angle : R) : pt :=
  let s := sun_in_the_sky declination hour_angle in mkV (vdot s east_of) (vdot s (north_of phi)) (vdot s (up_of phi)).
(** The hour angle when the solar time is [n] days: a whole turn per day, zero at noon *)
Definition turn (n : R) : R := 2 * PI * (n - IZR (Int_part n) - 1 / 2).

Lemma PI_bounds : 3 < PI <= 4.
Proof. pose proof PI_RGT_0. pose proof PI_4. pose proof PI2_3_2. lra. Qed.
Lemma trig x : sin x * sin x + cos x * cos x = 1.
Proof. pose proof (sin2_cos2 x) as H. unfold Rsqr in H. exact H. Qed.

Lemma frac_bounds n : 0 <= n - IZR (Int_part n) < 1.
Proof. pose proof (base_Int_part n) as [H1 H2]. lra. Qed.
Lemma turn_bounds n : - PI <= turn n < PI.
Proof. unfold turn. pose proof (frac_bounds n). pose proof PI_RGT_0. nra. Qed.

Lemma hour_angle_turn s n : 0 <= n -> hour_angle s (Solar n) = turn n.
Proof.
  intros H. unfold hour_angle, unwrap_solar_time, rem1, turn, to_radians, rfloor. destruct (Rltb n 0) eqn:E; [apply Rltb_true in E; lra|].
  field.
Qed.

Lemma sin_b x : -1 <= sin x <= 1. Proof. apply SIN_bound. Qed.
Lemma cos_b x : -1 <= cos x <= 1. Proof. apply COS_bound. Qed.

Lemma declination_small n : - (49 / 100) < declination n < 49 / 100.
Proof.
  unfold declination. set (x := b n).
  pose proof (sin_b x); pose proof (cos_b x); pose proof (sin_b (2 * x)); pose proof (cos_b (2 * x)); pose proof (sin_b (3 * x)); pose proof (cos_b (3 * x)).
  lra.
Qed.
Lemma cos_declination_pos n : 0 < cos (declination n).
Proof. pose proof (declination_small n). pose proof PI_bounds. apply cos_gt_0; lra. Qed.

Lemma acos_in x : -1 <= x <= 1 -> cos (acos x) = x /\ 0 <= acos x <= PI.
Proof. intros H. split; [apply cos_acos; lra|]. pose proof (acos_bound x). lra. Qed.

Lemma sin_acos_sq x : -1 <= x <= 1 -> 0 <= sin (acos x) /\ sin (acos x) * sin (acos x) = 1 - x * x.
Proof.
  intros H. destruct (acos_in x H) as [C B]. split. { apply sin_ge_0; lra. }
  pose proof (trig (acos x)). rewrite C in H0. lra.
Qed.

Lemma sun_unit phi d w : let v := sun_seen_from phi d w in vdot v v = 1.
Proof.
  cbn. unfold sun_seen_from, sun_in_the_sky, vdot; cbn.
  pose proof (trig phi); pose proof (trig d); pose proof (trig w).
  transitivity (cos d * cos d * (sin w * sin w + cos w * cos w * (sin phi * sin phi + cos phi * cos phi)) + sin d * sin d * (sin phi * sin phi + cos phi * cos phi)).
  { ring. } rewrite H, Rmult_1_r, H1. lra.
Qed.

Lemma cos_lt_abs w a : 0 <= w <= PI -> - PI <= a <= PI -> a < - w \/ w < a -> cos a < cos w.
Proof.
  intros Hw Ha [H|H].
  - rewrite <- (cos_neg a). apply cos_decreasing_1; lra.
  - apply cos_decreasing_1; lra.
Qed.

(** before sunrise and after sunset the sun is under the horizon *)
Lemma night_is_dark s n : - (PI / 2) < latitude s < PI / 2 ->
  forall r e, sunrise_sunset s n = Some (r, e) -> n < r \/ e < n -> vz (sun_seen_from (latitude s) (declination n) (turn n)) < 0.
Proof.
  intros Hl r e. unfold sunrise_sunset. unfold facos. set (c := - tan (latitude s) * tan (declination n)).
  destruct (Rleb (-1) c && Rleb c 1) eqn:Q; [|discriminate].
  apply andb_true_iff in Q. destruct Q as [Q1 Q2]. apply Rleb_true in Q1. apply Rleb_true in Q2.
  destruct (acos_in c (conj Q1 Q2)) as [C B]. intros E H. injection E as E1 E2.
  pose proof PI_RGT_0 as HP. pose proof (turn_bounds n) as HT.
  assert (K : turn n < - acos c \/ acos c < turn n).
  { assert (F : to_degrees (acos c) / 15 / 24 * (2 * PI) = acos c) by (unfold to_degrees; field; lra).
    set (d := to_degrees (acos c) / 15 / 24) in *. unfold rfloor in *. unfold turn. destruct H as [H|H]; [left|right]; rewrite <- F; nra. }
  pose proof (cos_lt_abs _ _ B (conj (proj1 HT) (Rlt_le _ _ (proj2 HT))) K) as L. rewrite C in L.
  assert (P1 : 0 < cos (latitude s)) by (apply cos_gt_0; lra). pose proof (cos_declination_pos n) as P2.
  unfold sun_seen_from, sun_in_the_sky, up_of, vdot; cbn.
  assert (M : cos (turn n) * (cos (latitude s) * cos (declination n)) < c * (cos (latitude s) * cos (declination n))).
  { apply Rmult_lt_compat_r; [apply Rmult_lt_0_compat; assumption|exact L]. }
  assert (Ec : c * (cos (latitude s) * cos (declination n)) = - (sin (latitude s) * sin (declination n))).
  { unfold c, tan. field. split; lra. }
  lra.
Qed.

Lemma azimuth_case (phi U sd sz N q : R) : 0 < cos phi -> 0 < sz -> N * cos phi = sd - U * sin phi ->
  q = (U * sin phi - sd) / (sz * cos phi) -> q * sz = - N.
Proof. intros. subst q. replace (U * sin phi - sd) with (- (N * cos phi)) by lra. field. lra. Qed.

Lemma sqr_abs_eq x E : 0 <= x -> x * x = E * E -> (0 <= E -> x = E) /\ (E <= 0 -> x = - E).
Proof. intros H K. split; intros L; nra. Qed.

Definition night (s : solar) (n : R) : bool :=
  match sunrise_sunset s n with Some (r, e) => Rltb n r || Rltb e n | None => false end.
Lemma night_dark s n : - (PI / 2) < latitude s < PI / 2 -> night s n = true ->
  vz (sun_seen_from (latitude s) (declination n) (turn n)) < 0.
Proof.
  intros Hl. pose proof (night_is_dark s n Hl) as Dark. unfold night. destruct (sunrise_sunset s n) as [[r e]|]; [|discriminate].
  intros Night. apply (Dark r e eq_refl).
  apply orb_true_iff in Night. destruct Night as [H|H]; apply Rltb_true in H; [left|right]; exact H.
Qed.

(** the sun's position, once the azimuth is out of the way *)
Lemma position_value s t : - (PI / 2) < latitude s < PI / 2 ->
  let n := unwrap_solar_time s t in
  let w := hour_angle s (Solar n) in
  let sun := sun_seen_from (latitude s) (declination n) w in
  sun_position s t =
    if night s n then None
    else if Rltb (vz sun) 0 then None
    else if Rltb (9999 / 10000) (vz sun) then Some (mkV 0 0 1)
    else Some (mkV (if Rltb 0 w then - Rabs (vx sun) else Rabs (vx sun)) (vy sun) (vz sun)).
Proof.
  intros Hl. cbv zeta. unfold sun_position. set (n := unwrap_solar_time s t) in *. fold (night s n).
  change (match sunrise_sunset s n with
          | Some (r, e) => Rltb n (unwrap_solar_time s (Solar r)) || Rltb (unwrap_solar_time s (Solar e)) n
          | None => false end) with (night s n).
  destruct (night s n); [reflexivity|].
  set (w := hour_angle s (Solar n)). set (d := declination n). set (phi := latitude s) in *.
  assert (P1 : 0 < cos phi) by (apply cos_gt_0; lra).
  pose proof (sun_unit phi d w) as U1. cbv zeta in U1.
  set (sun := sun_seen_from phi d w) in *.
  assert (Ez : cos phi * cos d * cos w + sin phi * sin d = vz sun) by (unfold sun, sun_seen_from, sun_in_the_sky, up_of, vdot; cbn; ring).
  rewrite Ez.
  destruct (Rltb (vz sun) 0) eqn:D; [reflexivity|apply Rltb_false in D].
  destruct (Rltb (9999 / 10000) (vz sun)) eqn:V; [reflexivity|apply Rltb_false in V].
  set (U := vz sun) in *.
  destruct (sin_acos_sq U ltac:(lra)) as [S0 S2]. set (sz := sin (acos U)) in *.
  assert (Sz : 0 < sz) by nra.
  set (q := (U * sin phi - sin d) / (sz * cos phi)).
  assert (EN : vy sun * cos phi = sin d - U * sin phi).
  { rewrite <- Ez. unfold sun, sun_seen_from, sun_in_the_sky, north_of, vdot; cbn. pose proof (trig phi).
    transitivity (sin d * (1 - sin phi * sin phi) - cos phi * cos d * cos w * sin phi); [|ring]. rewrite <- H. ring. }
  pose proof (azimuth_case phi U (sin d) sz (vy sun) q P1 Sz EN eq_refl) as Q.
  assert (Un : vx sun * vx sun + vy sun * vy sun = sz * sz) by (unfold vdot in U1; fold U in U1; lra).
  assert (Qq : q * q <= 1).
  { apply Rmult_le_reg_r with (sz * sz); [nra|]. replace (q * q * (sz * sz)) with ((q * sz) * (q * sz)) by ring. rewrite Q. nra. }
  assert (Qb : -1 <= q <= 1) by (split; nra).
  assert (Cq : clamp (-1) 1 q = q).
  { unfold clamp. destruct (Rltb q (-1)) eqn:Q1; [apply Rltb_true in Q1; lra|]. destruct (Rltb 1 q) eqn:Q2; [apply Rltb_true in Q2; lra|reflexivity]. }
  rewrite Cq. destruct (sin_acos_sq q Qb) as [A0 A2]. set (sa := sin (acos q)) in *.
  assert (X : (sa * sz) * (sa * sz) = vx sun * vx sun).
  { replace (sa * sz * (sa * sz)) with (sa * sa * (sz * sz)) by ring. rewrite A2.
    replace ((1 - q * q) * (sz * sz)) with (sz * sz - (q * sz) * (q * sz)) by ring. rewrite Q. lra. }
  assert (Xa : sa * sz = Rabs (vx sun)).
  { destruct (sqr_abs_eq (sa * sz) (vx sun) ltac:(nra) X) as [Xp Xn]. unfold Rabs. destruct (Rcase_abs (vx sun)); [apply Xn|apply Xp]; lra. }
  f_equal. apply V3_eq; cbn [vx vy vz]; [|lra|reflexivity].
  rewrite Xa. destruct (Rltb 0 w); lra.
Qed.

(** C74. While the solar time is not negative, the sun is reported exactly when it is over the horizon, and in the direction in
    which astronomy puts it; when it is within a degree of the zenith, straight up. *)
Theorem C74_sun_direction : forall (s : solar) (t : time),
  - (PI / 2) < latitude s < PI / 2 -> 0 <= unwrap_solar_time s t ->
  let n := unwrap_solar_time s t in
  let sun := sun_seen_from (latitude s) (declination n) (turn n) in
  match sun_position s t with
  | None => vz sun < 0
  | Some v => 0 <= vz sun /\ ((vz sun <= 9999 / 10000 /\ v = sun) \/ (9999 / 10000 < vz sun /\ v = mkV 0 0 1))
  end.
Proof.
  intros s t Hl Hn. cbv zeta. rewrite position_value by exact Hl. set (n := unwrap_solar_time s t) in *.
  rewrite hour_angle_turn by exact Hn.
  destruct (night s n) eqn:Nt; [apply night_dark; assumption|]. clear Nt.
  set (w := turn n). set (d := declination n). set (phi := latitude s) in *.
  pose proof (cos_declination_pos n) as P2. fold d in P2. pose proof (turn_bounds n) as HT. fold w in HT.
  set (sun := sun_seen_from phi d w) in *.
  destruct (Rltb (vz sun) 0) eqn:D; [apply Rltb_true in D; exact D|apply Rltb_false in D].
  destruct (Rltb (9999 / 10000) (vz sun)) eqn:V; [apply Rltb_true in V; auto|apply Rltb_false in V].
  split; [exact D|]. left. split; [exact V|].
  assert (Ex : vx sun = - (cos d * sin w)) by (unfold sun, sun_seen_from, sun_in_the_sky, east_of, vdot; cbn; ring).
  apply V3_eq; cbn [vx vy vz]; [|reflexivity|reflexivity].
  destruct (Rltb 0 w) eqn:W; [apply Rltb_true in W|apply Rltb_false in W].
  - assert (0 <= sin w) by (apply sin_ge_0; lra). rewrite Rabs_left1 by (rewrite Ex; nra). lra.
  - assert (sin w <= 0). { pose proof (sin_ge_0 (- w) ltac:(lra) ltac:(lra)) as G. rewrite sin_neg in G. lra. }
    apply Rabs_pos_eq. rewrite Ex. nra.
Qed.

(** At any time, what is returned has length one and does not point down. *)
Theorem C74_unit : forall (s : solar) (t : time) (v : pt), - (PI / 2) < latitude s < PI / 2 ->
  sun_position s t = Some v -> vx v * vx v + vy v * vy v + vz v * vz v = 1 /\ 0 <= vz v.
Proof.
  intros s t v Hl. rewrite position_value by exact Hl. set (n := unwrap_solar_time s t). set (w := hour_angle s (Solar n)).
  destruct (night s n); [discriminate|].
  pose proof (sun_unit (latitude s) (declination n) w) as U. cbv zeta in U. set (sun := sun_seen_from _ _ _) in *. unfold vdot in U. clearbody sun.
  destruct (Rltb (vz sun) 0) eqn:D; [discriminate|apply Rltb_false in D].
  destruct (Rltb (9999 / 10000) (vz sun)) eqn:V; intros E; injection E as <-; cbn [vx vy vz]; [lra|]. split; [|exact D].
  rewrite <- U. destruct (Rltb 0 w); unfold Rabs; destruct (Rcase_abs (vx sun)); ring.
Qed.

Lemma cos_small_lower x : -1 <= x <= 1 -> 1 - x * x / 2 <= cos x.
Proof.
  intros H. replace x with (2 * (x / 2)) at 3 by field. rewrite cos_2a_sin.
  assert (K : sin (x / 2) * sin (x / 2) <= x / 2 * (x / 2)).
  { assert (A : Rabs (sin (x / 2)) <= Rabs (x / 2)).
    { destruct (Rle_dec 0 x) as [P|P].
      - pose proof PI_bounds. pose proof (sin_ge_0 (x / 2) ltac:(lra) ltac:(lra)). destruct (Req_dec x 0) as [->|Nz].
        { replace (0 / 2) with 0 by field. rewrite sin_0. lra. }
        pose proof (sin_lt_x (x / 2) ltac:(lra)). rewrite !Rabs_pos_eq by lra. lra.
      - pose proof PI_bounds. pose proof (sin_ge_0 (- (x / 2)) ltac:(lra) ltac:(lra)). pose proof (sin_lt_x (- (x / 2)) ltac:(lra)).
        rewrite sin_neg in *. rewrite !Rabs_left1 by lra. lra. }
    apply Rsqr_le_abs_1 in A. unfold Rsqr in A. exact A. }
  lra.
Qed.

(** C74. On New Year's Day, before the sun crosses the northern meridian, solar time can be negative; the sun is then reported in
    the east although it is in the west. Here, at 80 degrees south and seven degrees west of its meridian, at midnight. *)
Theorem C74_new_year_refuted : exists (s : solar) (v : pt),
  - (PI / 2) < latitude s < PI / 2 /\ Rabs (to_degrees (standard_meridian s - longitude s)) < 13 /\
  sun_position s (Standard 0) = Some v /\ 0 < vx v /\
  let n := unwrap_solar_time s (Standard 0) in
  - (1 / 24) < n /\ vx (sun_seen_from (latitude s) (declination n) (turn n)) < 0.
Proof.
  set (s := mkSolar (to_radians (- (80))) (to_radians ((30 + equation_of_time 0) / 4)) 0).
  pose proof PI_bounds as PB. pose proof PI_RGT_0 as P0.
  assert (En : unwrap_solar_time s (Standard 0) = - (1 / 48)).
  { cbn [unwrap_solar_time]. unfold solar_standard_time_difference, s; cbn [standard_meridian longitude]. unfold to_degrees, to_radians. field. lra. }
  assert (Hl : - (PI / 2) < latitude s < PI / 2) by (cbn; unfold to_radians; lra).
  assert (Ip : Int_part (- (1 / 48)) = (-1)%Z).
  { unfold Int_part. rewrite <- (tech_up (- (1 / 48)) 0) by (cbn; lra). reflexivity. }
  assert (Et : turn (- (1 / 48)) = 23 * PI / 24) by (unfold turn; rewrite Ip; field).
  assert (Eh : hour_angle s (Solar (- (1 / 48))) = - (25 * PI / 24)).
  { unfold hour_angle; cbn [unwrap_solar_time]. unfold rem1. destruct (Rltb (- (1 / 48)) 0) eqn:Q; [|apply Rltb_false in Q; lra].
    unfold rfloor. replace (- - (1 / 48)) with (1 / 48) by lra.
    replace (Int_part (1 / 48)) with 0%Z. { unfold to_radians. cbn. field. }
    unfold Int_part. rewrite <- (tech_up (1 / 48) 1) by (cbn; lra). reflexivity. }
  assert (Sp : 0 < sin (23 * PI / 24)) by (apply sin_gt_0; lra).
  set (d := declination (- (1 / 48))).
  assert (Hd : - (49 / 100) < d < - (3 / 10)).
  { pose proof (declination_small (- (1 / 48))). fold d in H. split; [lra|]. unfold d, declination. set (x := b (- (1 / 48))).
    assert (Hx : - (3 / 100) < x < 0) by (unfold x, b; lra).
    pose proof (cos_small_lower x ltac:(lra)). pose proof (cos_small_lower (2 * x) ltac:(lra)). pose proof (cos_small_lower (3 * x) ltac:(lra)).
    pose proof (sin_b x); pose proof (sin_b (2 * x)); pose proof (sin_b (3 * x)).
    assert (sin x <= 0). { pose proof (sin_ge_0 (- x) ltac:(lra) ltac:(lra)). rewrite sin_neg in H6. lra. }
    assert (x * x <= 9 / 10000) by nra. nra. }
  pose proof (cos_declination_pos (- (1 / 48))) as Cd. fold d in Cd.
  set (phi := latitude s) in *.
  assert (Cp : 0 < cos phi) by (apply cos_gt_0; lra).
  assert (Ht2 : cos (- (25 * PI / 24)) = cos (23 * PI / 24)).
  { replace (- (25 * PI / 24)) with (23 * PI / 24 + 2 * IZR (-1) * PI) by (cbn; field). 
    replace (23 * PI / 24 + 2 * IZR (-1) * PI) with (23 * PI / 24 - 2 * PI) by (cbn; field). 
    rewrite cos_minus, cos_2PI, sin_2PI. ring. }
  assert (Hs2 : sin (- (25 * PI / 24)) = sin (23 * PI / 24)).
  { replace (- (25 * PI / 24)) with (23 * PI / 24 - 2 * PI) by field. rewrite sin_minus, cos_2PI, sin_2PI. ring. }
  assert (Cn : cos (23 * PI / 24) < 0) by (apply cos_lt_0; lra).
  pose proof (cos_b (23 * PI / 24)) as Cb.
  set (U := cos phi * cos d * cos (23 * PI / 24) + sin phi * sin d).
  assert (Uz : forall w, cos w = cos (23 * PI / 24) -> vz (sun_seen_from phi d w) = U).
  { intros w Hw. unfold U, sun_seen_from, sun_in_the_sky, up_of, vdot; cbn. rewrite Hw. ring. }
  assert (U0 : 0 <= U).
  { assert (K : cos (phi + d) <= 0).
    { rewrite <- cos_neg. apply cos_le_0; unfold phi; cbn; unfold to_radians; lra. }
    rewrite cos_plus in K. unfold U. assert (P : 0 < cos phi * cos d) by (apply Rmult_lt_0_compat; assumption). nra. }
  assert (U1 : U <= 9999 / 10000).
  { unfold U. assert (sin d < 0). { pose proof (sin_gt_0 (- d) ltac:(lra) ltac:(lra)). rewrite sin_neg in H. lra. }
    assert (- (49 / 100) < sin d). { pose proof (sin_lt_x (- d) ltac:(lra)). rewrite sin_neg in H0. lra. }
    pose proof (sin_b phi). assert (P : 0 < cos phi * cos d) by (apply Rmult_lt_0_compat; assumption).
    assert (cos phi * cos d * cos (23 * PI / 24) <= 0) by nra. assert (sin phi * sin d <= 49 / 100) by nra. lra. }
  assert (Nt : night s (- (1 / 48)) = false).
  { destruct (night s (- (1 / 48))) eqn:Q; [|reflexivity]. pose proof (night_dark s _ Hl Q) as K. rewrite Et in K. fold phi d in K.
    rewrite Uz in K by reflexivity. lra. }
  exists s, (mkV (cos d * sin (23 * PI / 24)) (vy (sun_seen_from phi d (- (25 * PI / 24)))) U).
  split; [exact Hl|]. split.
  { unfold s; cbn [standard_meridian longitude]. unfold to_degrees, to_radians.
    replace ((0 - (30 + equation_of_time 0) / 4 * (PI / 180)) * (180 / PI)) with (- ((30 + equation_of_time 0) / 4)) by (field; lra).
    rewrite Rabs_Ropp. unfold equation_of_time. set (x := b 0).
    pose proof (sin_b x); pose proof (cos_b x); pose proof (sin_b (2 * x)); pose proof (cos_b (2 * x)). apply Rabs_def1; lra. }
  split.
  { rewrite position_value by exact Hl. rewrite En, Nt, Eh. fold phi d. rewrite (Uz _ Ht2).
    destruct (Rltb U 0) eqn:Q1; [apply Rltb_true in Q1; lra|]. destruct (Rltb (9999 / 10000) U) eqn:Q2; [apply Rltb_true in Q2; lra|].
    destruct (Rltb 0 (- (25 * PI / 24))) eqn:Q3; [apply Rltb_true in Q3; lra|].
    f_equal. f_equal. unfold sun_seen_from, sun_in_the_sky, east_of, vdot; cbn. rewrite Hs2.
    replace (cos d * cos (- (25 * PI / 24)) * 0 + - (cos d * sin (23 * PI / 24)) * 1 + sin d * 0) with (- (cos d * sin (23 * PI / 24))) by ring.
    rewrite Rabs_Ropp. apply Rabs_pos_eq. nra. }
  split; [cbn; nra|]. cbv zeta. rewrite En. split; [lra|]. rewrite Et. fold phi d.
  unfold sun_seen_from, sun_in_the_sky, east_of, vdot; cbn. nra.
Qed.

(** C74, an example: at solar noon the sun is on the meridian, as high as the latitude and the season allow. *)
Example C74_noon : forall (s : solar) (k : nat), - (PI / 2) < latitude s < PI / 2 ->
  let d := declination (INR k + 1 / 2) in
  0 <= cos (latitude s - d) <= 9999 / 10000 ->
  sun_position s (Solar (INR k + 1 / 2)) = Some (mkV 0 (sin (d - latitude s)) (cos (latitude s - d))).
Proof.
  intros s k Hl d H. set (n := INR k + 1 / 2) in *. pose proof (pos_INR k) as K.
  pose proof (C74_sun_direction s (Solar n) Hl) as T. cbn [unwrap_solar_time] in T. specialize (T ltac:(unfold n; lra)). cbv zeta in T.
  assert (Ip : IZR (Int_part n) = INR k).
  { unfold n. rewrite INR_IZR_INZ. f_equal. unfold Int_part. rewrite <- (tech_up _ (Z.of_nat k + 1)); [lia| |]; rewrite plus_IZR; lra. }
  assert (Et : turn n = 0) by (unfold turn; rewrite Ip; unfold n; field). rewrite Et in T. fold d in T.
  assert (Es : sun_seen_from (latitude s) d 0 = mkV 0 (sin (d - latitude s)) (cos (latitude s - d))).
  { unfold sun_seen_from, sun_in_the_sky, east_of, north_of, up_of, vdot; cbn. rewrite sin_0, cos_0, sin_minus, cos_minus.
    apply V3_eq; cbn [vx vy vz]; ring. }
  rewrite Es in T. cbn [vx vy vz] in T. destruct (sun_position s (Solar n)) as [v|]; [|lra].
  destruct T as [_ [[_ ->]|[L _]]]; [reflexivity|lra].
Qed.
(** and at midnight, on the equator, it is not seen *)
Example C74_midnight : forall (l m : R), sun_position (mkSolar 0 l m) (Solar 100) = None.
Proof.
  intros l m. pose proof (C74_sun_direction (mkSolar 0 l m) (Solar 100)) as T. cbn [latitude unwrap_solar_time] in T. pose proof PI_RGT_0.
  specialize (T ltac:(lra) ltac:(lra)). cbv zeta in T.
  assert (Et : turn 100 = - PI).
  { unfold turn. replace (Int_part 100) with 100%Z; [field|]. unfold Int_part. rewrite <- (tech_up 100 101) by (cbn; lra). reflexivity. }
  rewrite Et in T. destruct (sun_position _ _) as [v|]; [|reflexivity]. exfalso. destruct T as [T _]. revert T.
  unfold sun_seen_from, sun_in_the_sky, up_of, vdot; cbn. rewrite cos_neg, cos_PI, sin_0, cos_0. pose proof (cos_declination_pos 100). lra.
Qed.

(** * C75: solar and standard time *)
Lemma abs_le_inv x a : Rabs x <= a -> - a <= x <= a.
Proof. intros H. pose proof (Rle_abs x). pose proof (Rle_abs (- x)). rewrite Rabs_Ropp in *. lra. Qed.
Lemma sin_le_abs x : Rabs (sin x) <= Rabs x.
Proof.
  destruct (Rle_dec (Rabs x) 1) as [L|L].
  2: { pose proof (sin_b x). assert (Rabs (sin x) <= 1) by (apply Rabs_le; lra). lra. }
  apply Rabs_def2b in L || (unfold Rabs in L; destruct (Rcase_abs x)).
  all: pose proof PI_bounds; destruct (Rtotal_order x 0) as [N|[->|N]].
  all: try (rewrite sin_0; lra).
  all: try (pose proof (sin_ge_0 (- x) ltac:(lra) ltac:(lra)); pose proof (sin_lt_x (- x) ltac:(lra)); rewrite sin_neg in *; rewrite !Rabs_left1 by lra; lra).
  all: pose proof (sin_ge_0 x ltac:(lra) ltac:(lra)); pose proof (sin_lt_x x ltac:(lra)); rewrite !Rabs_pos_eq by lra; lra.
Qed.
Lemma sin_lip x y : Rabs (sin x - sin y) <= Rabs (x - y).
Proof.
  rewrite form4. rewrite !Rabs_mult. pose proof (sin_le_abs ((x - y) / 2)) as H.
  assert (C : Rabs (cos ((x + y) / 2)) <= 1) by (apply Rabs_le; pose proof (cos_b ((x + y) / 2)); lra).
  rewrite (Rabs_pos_eq 2) by lra. replace (Rabs (x - y)) with (2 * Rabs ((x - y) / 2)).
  - pose proof (Rabs_pos (sin ((x - y) / 2))). pose proof (Rabs_pos (cos ((x + y) / 2))). nra.
  - replace (x - y) with (2 * ((x - y) / 2)) at 2 by field. rewrite Rabs_mult, (Rabs_pos_eq 2) by lra. reflexivity.
Qed.
Lemma cos_lip x y : Rabs (cos x - cos y) <= Rabs (x - y).
Proof.
  rewrite <- !sin_shift. replace (x - y) with (- ((PI / 2 - x) - (PI / 2 - y))) by lra. rewrite Rabs_Ropp. apply sin_lip.
Qed.

Lemma equation_of_time_lip x y : Rabs (equation_of_time x - equation_of_time y) <= 3 / 4 * Rabs (x - y).
Proof.
  unfold equation_of_time. set (p := b x). set (q := b y).
  assert (Hb : Rabs (p - q) <= 8 / 365 * Rabs (x - y)).
  { replace (p - q) with (2 * PI / 365 * (x - y)) by (unfold p, q, b; field). rewrite Rabs_mult. pose proof PI_bounds.
    rewrite (Rabs_pos_eq (2 * PI / 365)) by lra. apply Rmult_le_compat_r; [apply Rabs_pos|lra]. }
  pose proof (sin_lip p q) as H1. pose proof (cos_lip p q) as H2. pose proof (sin_lip (2 * p) (2 * q)) as H3. pose proof (cos_lip (2 * p) (2 * q)) as H4.
  replace (2 * p - 2 * q) with (2 * (p - q)) in H3, H4 by ring. rewrite Rabs_mult, (Rabs_pos_eq 2) in H3, H4 by lra.
  set (D := Rabs (p - q)) in *. pose proof (Rabs_pos (x - y)) as A0. set (A := Rabs (x - y)) in *. clearbody D A.
  assert (HD : 0 <= D) by (pose proof (Rabs_pos (sin p - sin q)); lra).
  apply abs_le_inv in H1, H2, H3, H4. apply Rabs_le. lra.
Qed.

Lemma difference_lip s x y :
  Rabs (solar_standard_time_difference s x - solar_standard_time_difference s y) <= 3 / 4 * Rabs (x - y).
Proof.
  unfold solar_standard_time_difference.
  replace (4 * to_degrees (standard_meridian s - longitude s) + equation_of_time x -
    (4 * to_degrees (standard_meridian s - longitude s) + equation_of_time y)) with (equation_of_time x - equation_of_time y) by ring.
  apply equation_of_time_lip.
Qed.

(** C75. Going from standard time to solar time and back, or the other way around, gives the time one started with, but for less
    than a nineteen hundredth of the difference between the two: an hour becomes an hour within two seconds. *)
Theorem C75_there_and_back : forall (s : solar) (t : R),
  Rabs (unwrap_standard_time s (Solar (unwrap_solar_time s (Standard t))) - t) <= Rabs (unwrap_solar_time s (Standard t) - t) / 1920 /\
  Rabs (unwrap_solar_time s (Standard (unwrap_standard_time s (Solar t))) - t) <= Rabs (unwrap_standard_time s (Solar t) - t) / 1920.
Proof.
  intros s t. cbn [unwrap_standard_time unwrap_solar_time]. set (D := solar_standard_time_difference s). split.
  - pose proof (difference_lip s t (t + D t / 24 / 60)) as H. fold D in H.
    replace (t + D t / 24 / 60 - D (t + D t / 24 / 60) / 24 / 60 - t) with ((D t - D (t + D t / 24 / 60)) / 1440) by field.
    replace (t - (t + D t / 24 / 60)) with (- (t + D t / 24 / 60 - t)) in H by ring. rewrite Rabs_Ropp in H.
    unfold Rdiv at 1. rewrite Rabs_mult, (Rabs_pos_eq (/ 1440)) by lra. lra.
  - pose proof (difference_lip s (t - D t / 24 / 60) t) as H. fold D in H.
    replace (t - D t / 24 / 60 + D (t - D t / 24 / 60) / 24 / 60 - t) with ((D (t - D t / 24 / 60) - D t) / 1440) by field.
    unfold Rdiv at 1. rewrite Rabs_mult, (Rabs_pos_eq (/ 1440)) by lra. lra.
Qed.
(** C75. Both clocks run forwards; a time that already is of the wanted kind is left alone. *)
Theorem C75_clocks_run_forwards : forall (s : solar) (t t' : R), t < t' ->
  unwrap_solar_time s (Standard t) < unwrap_solar_time s (Standard t') /\
  unwrap_standard_time s (Solar t) < unwrap_standard_time s (Solar t') /\
  unwrap_solar_time s (Solar t) = t /\ unwrap_standard_time s (Standard t) = t.
Proof.
  intros s t t' L. cbn [unwrap_standard_time unwrap_solar_time]. pose proof (difference_lip s t t') as H.
  rewrite (Rabs_left1 (t - t')) in H by lra. apply abs_le_inv in H. repeat split; lra.
Qed.
(** C75. The sun crosses the sky from east to west: every degree to the east it is four minutes later; on the meridian of the time
    zone the two times differ only by the equation of time, which is never more than 21 minutes and the same every year. *)
Theorem C75_longitude : forall (phi lon : R) (tz : Z) (t : R),
  let minutes := (unwrap_solar_time (get_solar phi lon tz) (Standard t) - t) * 24 * 60 in
  minutes = 4 * (to_degrees lon - 15 * IZR tz) + equation_of_time t /\
  Rabs (equation_of_time t) < 21 /\ equation_of_time (t + 365) = equation_of_time t.
Proof.
  intros phi lon tz t. cbv zeta. split; [|split].
  - cbn [unwrap_solar_time]. unfold solar_standard_time_difference, get_solar; cbn [standard_meridian longitude].
    unfold to_degrees, to_radians. field. pose proof PI_RGT_0. lra.
  - unfold equation_of_time. set (x := b t).
    pose proof (sin_b x); pose proof (cos_b x); pose proof (sin_b (2 * x)); pose proof (cos_b (2 * x)). apply Rabs_def1; lra.
  - unfold equation_of_time. replace (b (t + 365)) with (b t + 2 * PI) by (unfold b; field).
    replace (2 * (b t + 2 * PI)) with (2 * b t + 2 * PI + 2 * PI) by ring.
    assert (Es : forall x, sin (x + 2 * PI) = sin x) by (intros x; rewrite sin_plus, sin_2PI, cos_2PI; ring).
    assert (Ec : forall x, cos (x + 2 * PI) = cos x) by (intros x; rewrite cos_plus, sin_2PI, cos_2PI; ring).
    rewrite !Es, !Ec. reflexivity.
Qed.
(** C75, an example: Madrid keeps the time of 15 degrees East at 3.7 degrees West *)
Example C75_madrid : forall t, let s := get_solar (to_radians (404 / 10)) (to_radians (- (37 / 10))) 1 in
  unwrap_solar_time s (Standard t) < t - 53 / 24 / 60.
Proof.
  intros t. cbv zeta. destruct (C75_longitude (to_radians (404 / 10)) (to_radians (- (37 / 10))) 1 t) as (E & B & _). cbv zeta in E.
  assert (D : to_degrees (to_radians (- (37 / 10))) = - (37 / 10)) by (unfold to_degrees, to_radians; field; pose proof PI_RGT_0; lra).
  rewrite D in E. apply Rabs_def2 in B. lra.
Qed.

(** * C77: radiation under a clear sky *)
Lemma extra_bounds n : 1317 < normal_extraterrestrial_radiation n < 1418.
Proof.
  unfold normal_extraterrestrial_radiation, SOLAR_CONSTANT. set (x := b n).
  pose proof (sin_b x); pose proof (cos_b x); pose proof (sin_b (2 * x)); pose proof (cos_b (2 * x)). lra.
Qed.

(** C77. What reaches the top of the atmosphere is the solar constant within four percent, any day of any year. *)
Theorem C77_extraterrestrial : forall n : R,
  Rabs (normal_extraterrestrial_radiation n - 13677 / 10) < 4 / 100 * (13677 / 10) /\
  normal_extraterrestrial_radiation (n + 365) = normal_extraterrestrial_radiation n.
Proof.
  intros n. split. { pose proof (extra_bounds n). apply Rabs_def1; lra. }
  unfold normal_extraterrestrial_radiation. replace (b (n + 365)) with (b n + 2 * PI) by (unfold b; field).
  replace (2 * (b n + 2 * PI)) with (2 * b n + 2 * PI + 2 * PI) by ring.
  assert (Es : forall x, sin (x + 2 * PI) = sin x) by (intros x; rewrite sin_plus, sin_2PI, cos_2PI; ring).
  assert (Ec : forall x, cos (x + 2 * PI) = cos x) by (intros x; rewrite cos_plus, sin_2PI, cos_2PI; ring).
  rewrite !Es, !Ec. reflexivity.
Qed.

Lemma exp_le_1 x : x <= 0 -> 0 < exp x <= 1.
Proof. intros H. split; [apply exp_pos|]. destruct H as [H| ->]; [left; rewrite <- exp_0; apply exp_increasing; exact H|rewrite exp_0; lra]. Qed.

Lemma transmittance_bounds v e : 0 < vz v -> -1180 <= e <= 13180 -> 0 < beam_atmosphere_transmittance v e < 94 / 100.
Proof.
  intros Hz He. unfold beam_atmosphere_transmittance. set (x := e / 1000). assert (Hx : -118 / 100 <= x <= 1318 / 100) by (unfold x; lra).
  set (k := 2711 / 10000 + 1858 / 100000 * (25 / 10 - x) ^ 2). assert (Hk : 0 < k) by (unfold k; nra).
  assert (Q : - k / vz v <= 0). { unfold Rdiv. pose proof (Rinv_0_lt_compat _ Hz). nra. }
  pose proof (exp_le_1 _ Q) as E. set (ex := exp (- k / vz v)) in *. clearbody ex.
  assert (A0 : 0 <= 4237 / 10000 - 821 / 100000 * (6 - x) ^ 2) by nra.
  assert (A1 : 0 < 5055 / 10000 + 595 / 100000 * (65 / 10 - x) ^ 2) by nra.
  assert (A2 : (4237 / 10000 - 821 / 100000 * (6 - x) ^ 2) + (5055 / 10000 + 595 / 100000 * (65 / 10 - x) ^ 2) < 94 / 100).
  { pose proof (pow2_ge_0 (x - 468 / 100)). nra. }
  set (a0 := _ - 821 / 100000 * (6 - x) ^ 2) in *. set (a1 := _ + 595 / 100000 * _) in *. clearbody a0 a1. split; nra.
Qed.

(** C77. At any elevation from below sea level to the highest summits, a clear atmosphere lets through more than nothing and less than
    everything: the clear-sky radiation is positive and less than what would arrive if there were no atmosphere. The higher the sun,
    the more is let through. *)
Theorem C77_clear_sky : forall (s : solar) (t : time) (v : pt) (e : R), 0 < vz v <= 1 -> -1000 <= e <= 10000 ->
  0 < beam_atmosphere_transmittance v e < 1 /\
  0 < clear_sky_global_horizontal_rad s t v e < normal_extraterrestrial_radiation (unwrap_solar_time s t) * vz v /\
  forall v', vz v < vz v' -> beam_atmosphere_transmittance v e < beam_atmosphere_transmittance v' e.
Proof.
  intros s t v e Hz He. pose proof (transmittance_bounds v e ltac:(lra) ltac:(lra)) as T. split; [lra|]. split.
  - unfold clear_sky_global_horizontal_rad. set (tb := beam_atmosphere_transmittance v e) in *.
    pose proof (extra_bounds (unwrap_solar_time s t)) as X. set (x := normal_extraterrestrial_radiation _) in *. clearbody x tb.
    assert (0 < tb + (271 / 1000 - 294 / 1000 * tb) < 1) by lra. set (tau := tb + _) in *. clearbody tau. 
    assert (0 < x * vz v) by nra. split; nra.
  - intros v' L. unfold beam_atmosphere_transmittance. set (x := e / 1000). assert (Hx : -1 <= x <= 10) by (unfold x; lra).
    set (k := 2711 / 10000 + 1858 / 100000 * (25 / 10 - x) ^ 2). assert (Hk : 0 < k) by (unfold k; nra).
    assert (A1 : 0 < 5055 / 10000 + 595 / 100000 * (65 / 10 - x) ^ 2) by nra.
    apply Rplus_lt_compat_l, Rmult_lt_compat_l; [exact A1|]. apply exp_increasing.
    unfold Rdiv. assert (/ vz v' < / vz v) by (apply Rinv_lt_contravar; nra). nra.
Qed.

(** C77. The fraction of the radiation that is diffuse is a fraction, whatever the clearness of the sky; and nearly all of it
    under a covered sky. *)
Theorem C77_diffuse_fraction : forall kt : R, 0 <= kt ->
  0 <= diffuse_fraction kt <= 1 /\ (kt <= 22 / 100 -> 98 / 100 <= diffuse_fraction kt) /\ (8 / 10 < kt -> diffuse_fraction kt = 165 / 1000).
Proof.
  intros k H. unfold diffuse_fraction. destruct (Rleb k (22 / 100)) eqn:Q; [apply Rleb_true in Q|apply Rleb_false in Q].
  { repeat split; lra. }
  destruct (Rltb (8 / 10) k) eqn:Q2; [apply Rltb_true in Q2; repeat split; lra|apply Rltb_false in Q2].
  split; [|split; intros; lra]. split.
  - pose proof (pow2_ge_0 (k * k - 67437 / 100000 * k - 1 / 10)). pose proof (pow2_ge_0 (k - 7326 / 10000)). nra.
  - set (q := - (4388 / 1000) + 16638 / 1000 * k - 12336 / 1000 * (k * k)).
    assert (E : 9511 / 10000 - 1604 / 10000 * k + 4388 / 1000 * k ^ 2 - 16638 / 1000 * k ^ 3 + 12336 / 1000 * k ^ 4
                = 9511 / 10000 - 1604 / 10000 * k - k * k * q) by (unfold q; ring). rewrite E.
    destruct (Rle_dec k (37 / 100)).
    + assert (q >= - (95 / 10 * (37 / 100 - k))) by (unfold q; nra). assert (k * k * (37 / 100 - k) <= 8 / 1000).
      { pose proof (Rmult_le_pos _ (k + 12335 / 100000) (pow2_ge_0 (k - 2467 / 10000)) ltac:(lra)). nra. }
      assert (k * k * q >= - (95 / 10 * (8 / 1000))) by nra. lra.
    + assert (0 <= q) by (unfold q; nra). nra.
Qed.

Lemma exp_quarter_lower x : 0 <= 1 + x / 4 -> (1 + x / 4) ^ 4 <= exp x.
Proof.
  intros H. replace x with (x / 4 + x / 4 + (x / 4 + x / 4)) at 2 by field. rewrite !exp_plus. pose proof (exp_ineq1_le (x / 4)) as E.
  set (e := exp (x / 4)) in *. clearbody e. assert ((1 + x / 4) * (1 + x / 4) <= e * e) by nra.
  replace ((1 + x / 4) ^ 4) with ((1 + x / 4) * (1 + x / 4) * ((1 + x / 4) * (1 + x / 4))) by ring. apply Rmult_le_compat; nra.
Qed.
Lemma exp_neg_upper x : 0 <= x -> exp (- x) * (1 + x / 4) ^ 4 <= 1.
Proof.
  intros H. pose proof (exp_quarter_lower x ltac:(lra)). pose proof (exp_pos (- x)). assert (exp (- x) * exp x = 1).
  { rewrite <- exp_plus. replace (- x + x) with 0 by ring. apply exp_0. } nra.
Qed.

(** With the sun overhead, at sea level, on any day. *)
Example C77_sea_level : forall (s : solar) (t : time), 940 < clear_sky_global_horizontal_rad s t (mkV 0 0 1) 0 < 1040.
Proof.
  intros s t. unfold clear_sky_global_horizontal_rad, beam_atmosphere_transmittance. cbv zeta. cbn [vz].
  pose proof (extra_bounds (unwrap_solar_time s t)) as X. set (x := normal_extraterrestrial_radiation _) in *. clearbody x.
  replace (- (2711 / 10000 + 1858 / 100000 * (25 / 10 - 0 / 1000) ^ 2) / 1) with (- (387225 / 1000000)) by field.
  pose proof (exp_quarter_lower (- (387225 / 1000000)) ltac:(lra)). pose proof (exp_neg_upper (387225 / 1000000) ltac:(lra)).
  set (e := exp _) in *. clearbody e. simpl in *. assert (665 / 1000 < e < 693 / 1000) by lra. clear H H0. split; nra.
Qed.

(** C110: the sky and the sun of a scene. *)
From Coq Require Import List Arith Reals Bool Lra Lia Psatz.
From Verif.Common Require Import Base Flt.
From Verif.Geometry Require Import Vec.
From Verif.Weather Require Import SunModel SkyModel SkyProofs PerezModel PerezProofs.
From Verif.Rendering Require Import DaylightModel MaterialModel SceneModel SceneSkyModel.
From Verif.Properties Require Import SunProps SkyProps RadiationProps PerezProps.
Import ListNotations.
Open Scope R_scope.

(** The solid angle of a cone of the given opening, as the distant sources of scenes have it *)
Definition source_solid_angle (angle : R) : R := PI * tan (angle / 2) ^ 2.
(** The angle of the sun, 0.533 degrees *)
Definition sun_angle : R := 533 / 1000 * PI / 180.

Lemma sun_total m s t v E : - (PI / 2) < latitude s < PI / 2 -> (1 <= m)%nat -> sun_position s t = Some v ->
  sumf (fun b => sun_part m v E b * omega (the_sky m) b) (seq 0 (n_bins (the_sky m))) = E / WHTEFFICACY.
Proof.
  intros Hl Hm P. destruct (sun_part_spec m s t v E Hl Hm P) as (cl & L4 & N4 & Cl & Far & Sp).
  set (T := sumf weight cl) in *. set (val := sun_value (the_sky m) E T) in *.
  assert (W : forall c, In c cl -> 0 < weight c). { intros c Hc. destruct (Cl c Hc) as (_ & _ & Q). unfold weight. apply Rdiv_lt_0_compat; lra. }
  assert (Tp : 0 < T).
  { unfold T. assert (forall l, (forall c, In c l -> 0 < weight c) -> l <> [] -> 0 < sumf weight l).
    { induction l as [|a l IH]; intros Hw Hn; [contradiction|]. cbn. pose proof (Hw a (or_introl eq_refl)). destruct l as [|b l]; [cbn; lra|].
      assert (0 < sumf weight (b :: l)) by (apply IH; [intros; apply Hw; right; assumption|discriminate]). unfold sumf in H0. lra. }
    apply H; [exact W|]. intros ->. discriminate. }
  assert (Om : forall c, In c cl -> 0 < omega (the_sky m) (fst c)). { intros c Hc. destruct (Cl c Hc) as [C0 _]. apply (the_bins m Hm). lia. }
  rewrite (sumf_ext _ (fun b => sumf (fun c => if (b =? fst c)%nat then val c * omega (the_sky m) (fst c) else 0) cl)).
  2: { intros b Hb. rewrite Sp. rewrite Rmult_comm, <- sumf_scale. apply sumf_ext. intros c Hc. fold (val c). destruct (Nat.eqb_spec b (fst c)) as [->|]; ring. }
  assert (Sw : forall (l : list (nat * R)) n, (forall c, In c l -> (fst c < n)%nat) -> forall g : nat * R -> R,
     sumf (fun b => sumf (fun c => if (b =? fst c)%nat then g c else 0) l) (seq 0 n) = sumf g l).
  { clear. intros l n. induction l as [|a l IH]; intros H g.
    - cbn [sumf fold_right]. change (fold_right _ 0 []) with 0. rewrite (sumf_ext _ (fun _ => 0 * 0)); [rewrite sumf_scale; ring|]. intros; cbn; ring.
    - rewrite (sumf_ext _ (fun b => (if (b =? fst a)%nat then g a else 0) + sumf (fun c => if (b =? fst c)%nat then g c else 0) l)) by (intros; reflexivity).
      rewrite sumf_plus, IH by (intros; apply H; right; assumption). cbn [sumf fold_right]. unfold sumf at 2. f_equal.
      pose proof (H a (or_introl eq_refl)) as Ha. clear - Ha. replace n with (fst a + (1 + (n - fst a - 1)))%nat by lia. rewrite seq_app, sumf_app. cbn [seq Nat.add].
      rewrite (sumf_ext _ (fun _ => 0 * 0) (seq 0 (fst a))). 2: { intros b Hb. apply in_seq in Hb. destruct (Nat.eqb_spec b (fst a)); [lia|ring]. }
      cbn [sumf fold_right]. rewrite Nat.eqb_refl. fold (sumf (fun b => if (b =? fst a)%nat then g a else 0) (seq (S (fst a)) (n - fst a - 1))).
      rewrite (sumf_ext _ (fun _ => 0 * 0) (seq (S (fst a)) _)). 2: { intros b Hb. apply in_seq in Hb. destruct (Nat.eqb_spec b (fst a)); [lia|ring]. }
      rewrite !sumf_scale. ring. }
  rewrite (Sw cl) by (intros c Hc; apply (Cl c Hc)). rewrite (sumf_ext _ (fun c => E / WHTEFFICACY / T * weight c)).
  2: { intros c Hc. unfold val, sun_value, WHTEFFICACY. specialize (Om c Hc). field. lra. }
  rewrite sumf_scale. fold T. unfold WHTEFFICACY. field. lra.
Qed.

Lemma normalize_unit (v : pt) : vx v * vx v + vy v * vy v + vz v * vz v = 1 -> vnormalize v = Ok v.
Proof.
  intros U. unfold vnormalize. cbv zeta. unfold vlen2. rewrite U. replace (Rltb (1 / 10 ^ 20) 1) with true by (symmetry; apply Rltb_true; lra).
  rewrite sqrt_1. destruct v; cbn. f_equal. apply V3_eq; cbn; field.
Qed.

Lemma sun_angle_radians : to_radians (533 / 1000) = sun_angle.
Proof. unfold to_radians, sun_angle. field. Qed.
Lemma sun_angle_solid : 0 < source_solid_angle sun_angle.
Proof.
  unfold source_solid_angle. pose proof PI_RGT_0 as P. assert (0 < tan (sun_angle / 2)) by (apply tan_gt_0; unfold sun_angle; lra).
  apply Rmult_lt_0_compat; [exact P|]. cbn [pow]. nra.
Qed.

(** everything the function does by day *)
Lemma by_day scene date lat lon mer diff dir v : let s := scene_solar lat lon mer in
  - (PI / 2) < latitude s < PI / 2 -> sun_position s (Standard date) = Some v ->
  exists sky y, get_sky_func_standard_time UnitsVisible s date 11 diff dir = Ok sky /\
    (let zenith := scene_zenith (vz v) in
     direct_illuminance_ratio (precipitable_water_content 11) zenith
      (clamp (1 / 100) (9 * 10 ^ 9) (sky_brightness diff (air_mass zenith) (normal_extraterrestrial_radiation (unwrap_solar_time s (Standard date)))))
      (clearness_category (clamped_clearness diff dir zenith))) = Ok y /\ 0 <= y /\
    add_perez_sky scene date lat lon mer diff dir =
      Ok (mkRScene (geom scene) (mats scene ++ [Light (gray (dir * y / source_solid_angle sun_angle / 179))]) (lights scene)
            (distant_lights scene ++ [mkObject (PSource v sun_angle) (length (mats scene)) (length (mats scene))]), sky).
Proof.
  intros s Hl P. destruct (sky_func_ok UnitsVisible s date 11 diff dir v P) as (sky & Es & _).
  set (zen := scene_zenith (vz v)). set (br := clamp (1 / 100) (9 * 10 ^ 9) (sky_brightness diff (air_mass zen) (normal_extraterrestrial_radiation (unwrap_solar_time s (Standard date))))).
  set (ca := clearness_category (clamped_clearness diff dir zen)).
  destruct (ratios_ok ca (category_small _) (precipitable_water_content 11) zen br) as [_ (y & Ey & Hy)].
  exists sky, y. split; [exact Es|]. cbv zeta. fold zen br ca. split; [exact Ey|]. split; [exact Hy|].
  destruct (C74_unit s _ v Hl P) as [U _].
  unfold add_perez_sky. cbv zeta. fold s. rewrite Es. cbn [bind]. rewrite P. fold zen br ca. rewrite Ey. cbn [bind push_material].
  rewrite (normalize_unit v U). cbn [bind]. unfold push_object. cbn [mats geom lights distant_lights].
  rewrite nth_error_app2, Nat.sub_diag by lia. cbn [nth_error emits_light orb bind length repeat]. rewrite !app_nil_r.
  rewrite sun_angle_radians. do 3 f_equal.
  - destruct (geom scene); reflexivity.
  - unfold WHITE_EFFICACY, source_solid_angle. replace (tan (sun_angle / 2) * tan (sun_angle / 2) * PI) with (PI * tan (sun_angle / 2) ^ 2) by ring. reflexivity.
Qed.

Lemma vector_sun m s date diff dir v sun : - (PI / 2) < latitude s < PI / 2 -> (1 <= m)%nat -> 0 <= diff -> 1 / 10 ^ 4 < dir ->
  sun_position s (Standard date) = Some v -> gen_sky_vec m s date 11 diff dir UnitsVisible 0 false true = Ok sun ->
  exists y, day_efficacy s date 11 diff dir v = Ok y /\ sumf (fun b => nth b sun 0 * omega (the_sky m) b) (seq 0 (n_bins (the_sky m))) = dir * y / 179.
Proof.
  intros Hl Hm Hdf Hd P Gs. assert (Pos : 0 < 1 / 10 ^ 4) by lra.
  unfold gen_sky_vec in Gs. rewrite (new_ok m Hm) in Gs. cbn [bind] in Gs. set (z := repeat 0 (n_bins (the_sky m))) in *.
  assert (Lz : length z = n_bins (the_sky m)) by apply repeat_length.
  destruct (update_day z m s date 11 diff dir UnitsVisible 0 false true v Hm Hl Lz ltac:(lra) P) as (D & F & f & o & _ & _ & Ef & DE & _ & All).
  destruct (proj2 DE eq_refl) as (y & Ey & ->). exists y. split; [exact Ey|].
  assert (A0 : Rltb (1 / 10 ^ 8) 0 = false) by (apply Rltb_false; lra).
  destruct (All z 0 false true Lz) as (o1 & A1 & B1 & C1). rewrite Gs in A1. injection A1 as <-. rewrite A0 in C1.
  pose proof (sun_total m s _ v (dir * y) Hl Hm P) as T. unfold WHTEFFICACY in T.
  rewrite <- T. apply sumf_ext. intros b Hb. apply in_seq in Hb. rewrite C1 by lia. unfold z. rewrite nth_repeat.
  replace (Rltb (1 / 10 ^ 4) dir) with true by (symmetry; apply Rltb_true; lra). cbn [andb]. ring.
Qed.

(** * Theorems *)

(** By day the scene gets the sky of the weather, one distant source of 0.533 degrees in the direction of the sun, on a new grey
    light that is not negative, and nothing else. *)
Theorem C110_sun : forall scene date lat lon mer diff dir v,
  let s := mkSolar (lat * PI / 180) (lon * PI / 180) (mer * PI / 180) in
  - 90 < lat < 90 -> 0 <= dir -> sun_position s (Standard date) = Some v ->
  exists sky B, add_perez_sky scene date lat lon mer diff dir =
    Ok (mkRScene (geom scene) (mats scene ++ [Light (gray B)]) (lights scene)
          (distant_lights scene ++ [mkObject (PSource v sun_angle) (length (mats scene)) (length (mats scene))]), sky) /\
    0 <= B /\ get_sky_func_standard_time UnitsVisible s date 11 diff dir = Ok sky.
Proof.
  intros scene date lat lon mer diff dir v s Hlat Hd P.
  assert (Q : s = scene_solar lat lon mer) by (unfold s, scene_solar, to_radians; f_equal; field). rewrite Q in *.
  assert (Hl : - (PI / 2) < latitude (scene_solar lat lon mer) < PI / 2) by (rewrite <- Q; cbn; pose proof PI_RGT_0; split; nra).
  destruct (by_day scene date lat lon mer diff dir v Hl P) as (sky & y & Es & _ & Hy & E).
  exists sky, (dir * y / source_solid_angle sun_angle / 179). split; [exact E|]. split; [|exact Es].
  pose proof sun_angle_solid. apply Rmult_le_pos; [|lra]. apply Rmult_le_pos; [nra|]. left. apply Rinv_0_lt_compat. assumption.
Qed.

(** Unless the sun is within three degrees of the zenith, this sun sends as much as the patches of the sky vector of the same
    weather do, for every subdivision of the sky; and the sky has in the centre of each patch the value of that vector. *)
Theorem C110_agrees : forall scene date lat lon mer diff dir v m r sun patches scene' sky,
  let s := mkSolar (lat * PI / 180) (lon * PI / 180) (mer * PI / 180) in
  - 90 < lat < 90 -> 0 <= diff -> 1 / 10 ^ 4 < dir -> sun_position s (Standard date) = Some v -> vz v < cos (PI / 60) ->
  new m = Ok r ->
  gen_sky_vec m s date 11 diff dir UnitsVisible 0 false true = Ok sun ->
  gen_sky_vec m s date 11 diff dir UnitsVisible 0 true false = Ok patches ->
  add_perez_sky scene date lat lon mer diff dir = Ok (scene', sky) ->
  (exists B, mats scene' = mats scene ++ [Light (gray B)] /\
    B * source_solid_angle sun_angle = sumf (fun b => nth b sun 0 * omega r b) (seq 0 (n_bins r))) /\
  (forall b, (1 <= b < n_bins r)%nat -> nth b patches 0 = sky (centre r b)).
Proof.
  intros scene date lat lon mer diff dir v m r sun patches scene' sky s Hlat Hdf Hd P Z Er Gs Gp Ea.
  assert (Q : s = scene_solar lat lon mer) by (unfold s, scene_solar, to_radians; f_equal; field). rewrite Q in *.
  assert (Hl : - (PI / 2) < latitude (scene_solar lat lon mer) < PI / 2) by (rewrite <- Q; cbn; pose proof PI_RGT_0; split; nra). clear Q s.
  set (s := scene_solar lat lon mer) in *. destruct (built m r Er) as [Hm ->]. assert (Pos : 0 < 1 / 10 ^ 4) by lra.
  destruct (by_day scene date lat lon mer diff dir v Hl P) as (sky0 & y & Es & Ey & Hy & E). rewrite E in Ea. injection Ea as <- <-.
  assert (Zn : scene_zenith (vz v) = limited_zenith (vz v)).
  { unfold scene_zenith, limited_zenith. replace (to_radians 3) with (PI / 60) by (unfold to_radians; field).
    replace (Rleb (cos (PI / 60)) (vz v)) with false by (symmetry; apply Rleb_false; exact Z). reflexivity. }
  cbv zeta in Ey. rewrite Zn in Ey. fold s in Ey, Es. change (day_efficacy s date 11 diff dir v = Ok y) in Ey.
  assert (Gs0 := Gs). unfold gen_sky_vec in Gp. rewrite (new_ok m Hm) in Gp. cbn [bind] in Gp. set (z := repeat 0 (n_bins (the_sky m))) in *.
  assert (Lz : length z = n_bins (the_sky m)) by apply repeat_length.
  destruct (update_day z m s date 11 diff dir UnitsVisible 0 false true v Hm Hl Lz ltac:(lra) P) as (D & F & f & o & _ & _ & Ef & DE & _ & All).
  destruct (proj2 DE eq_refl) as (y' & Ey' & ->). rewrite Ey in Ey'. injection Ey' as <-. rewrite Es in Ef. injection Ef as <-.
  assert (A0 : Rltb (1 / 10 ^ 8) 0 = false) by (apply Rltb_false; lra).
  split.
  - exists (dir * y / source_solid_angle sun_angle / 179). split; [reflexivity|].
    destruct (vector_sun m s date diff dir v sun Hl Hm Hdf Hd P Gs0) as (y2 & Ey2 & ->). rewrite Ey in Ey2. injection Ey2 as <-.
    pose proof sun_angle_solid as SA. field. lra.
  - intros b Hb. destruct (All z 0 true false Lz) as (o1 & A1 & B1 & C1). rewrite Gp in A1. injection A1 as <-. rewrite A0 in C1.
    rewrite C1 by lia. unfold z. rewrite nth_repeat. replace (1 <=? b)%nat with true by (symmetry; apply Nat.leb_le; lia). cbn [andb]. ring.
Qed.

Lemma ok_inj {A} (a b : A) : Ok a = Ok b -> a = b.
Proof. congruence. Qed.
Lemma exp_pow_nat n a : exp (INR n * a) = exp a ^ n.
Proof. induction n as [|n IH]; [cbn; rewrite Rmult_0_l; apply exp_0|]. rewrite S_INR, Rmult_plus_distr_r, exp_plus, IH, Rmult_1_l. cbn. ring. Qed.
Lemma clamp_in lo hi x : lo <= x <= hi -> clamp lo hi x = x.
Proof. intros H. unfold clamp. destruct (Rltb_spec x lo); [lra|]. destruct (Rltb_spec hi x); [lra|reflexivity]. Qed.
Lemma degrees l : to_radians (to_degrees l) = l.
Proof. unfold to_radians, to_degrees. pose proof PI_RGT_0. field. lra. Qed.

(** "Add sun if there is any (it might be nighttime)": there is no night, the program panics when the sun is down, as it is at
    midnight on the equator. *)
Theorem C110_night_refuted :
  (forall scene date lat lon mer diff dir, sun_position (mkSolar (lat * PI / 180) (lon * PI / 180) (mer * PI / 180)) (Standard date) = None ->
     add_perez_sky scene date lat lon mer diff dir = Panic) /\
  exists lon, sun_position (mkSolar (0 * PI / 180) (lon * PI / 180) (0 * PI / 180)) (Standard 100) = None.
Proof.
  split.
  - intros scene date lat lon mer diff dir H.
    assert (Q : mkSolar (lat * PI / 180) (lon * PI / 180) (mer * PI / 180) = scene_solar lat lon mer) by (unfold scene_solar, to_radians; f_equal; field).
    rewrite Q in H. unfold add_perez_sky. cbv zeta. unfold get_sky_func_standard_time. rewrite H. reflexivity.
  - exists (equation_of_time 100 / 4). set (s := mkSolar _ _ _). pose proof PI_RGT_0 as PP.
    assert (U : unwrap_solar_time s (Standard 100) = 100).
    { cbn [unwrap_solar_time]. unfold solar_standard_time_difference, s; cbn [standard_meridian longitude]. unfold to_degrees. field. lra. }
    pose proof (C74_sun_direction s (Standard 100)) as T. rewrite U in T. cbv zeta in T. specialize (T ltac:(cbn; lra) ltac:(lra)).
    destruct (sun_position s (Standard 100)) as [v|]; [|reflexivity]. exfalso. destruct T as [T _].
    assert (Ip : Int_part 100 = 100%Z) by (unfold Int_part; rewrite <- (tech_up _ 101); [reflexivity|lra|lra]).
    unfold sun_seen_from, sun_in_the_sky, up_of, turn in T. rewrite Ip in T. unfold vdot in T. cbn in T.
    replace (2 * PI * (100 - 100 - 1 / 2)) with (- PI) in T by field. rewrite cos_neg, cos_PI in T.
    replace (0 * PI / 180) with 0 in T by field. rewrite cos_0, sin_0 in T.
    assert (0 < cos (declination 100)) by (pose proof (declination_small 100); pose proof PI_bounds; apply cos_gt_0; lra). lra.
Qed.

(** With the sun within three degrees of the zenith, where another angle than three degrees is used, the sun of the scene can send
    less than half of what the patches of the sky vector do. *)
Theorem C110_zenith_refuted : exists date lat lon mer v,
  let s := mkSolar (lat * PI / 180) (lon * PI / 180) (mer * PI / 180) in
  - 90 < lat < 90 /\ sun_position s (Standard date) = Some v /\ cos (PI / 60) <= vz v /\
  forall scene scene' sky m r sun, new m = Ok r ->
    gen_sky_vec m s date 11 100 600 UnitsVisible 0 false true = Ok sun ->
    add_perez_sky scene date lat lon mer 100 600 = Ok (scene', sky) ->
    exists B, mats scene' = mats scene ++ [Light (gray B)] /\
      2 * (B * source_solid_angle sun_angle) < sumf (fun b => nth b sun 0 * omega r b) (seq 0 (n_bins r)).
Proof.
  pose proof PI_bounds as PB. pose proof (declination_small noon) as D. set (l := declination noon + 3 / 100). set (x := 3 / 100).
  assert (Hl : - (PI / 2) < l < PI / 2) by (unfold l; lra).
  assert (C1 : cos x <= 9999 / 10000) by (pose proof (cos_upper x ltac:(unfold x; lra)); unfold x in *; lra).
  assert (C0 : 9 / 10 <= cos x) by (pose proof (cos_lower x ltac:(unfold x; lra)); unfold x in *; lra).
  assert (P : sun_position (noon_at l) (Standard noon) = Some (mkV 0 (sin (- x)) (cos x))) by (apply noon_sun; [exact Hl|unfold l, x; lra|lra]).
  set (v := mkV 0 (sin (- x)) (cos x)) in *.
  exists noon, (to_degrees l), (equation_of_time noon / 4), 0, v. cbv zeta.
  assert (Q : mkSolar (to_degrees l * PI / 180) (equation_of_time noon / 4 * PI / 180) (0 * PI / 180) = noon_at l).
  { unfold noon_at. f_equal; [rewrite <- (degrees l) at 2|..]; unfold to_radians; field. }
  assert (Q2 : scene_solar (to_degrees l) (equation_of_time noon / 4) 0 = noon_at l).
  { unfold noon_at, scene_solar. f_equal; [apply degrees|unfold to_radians; field]. }
  rewrite Q. split. { unfold to_degrees. assert (L1 : l * (180 / PI) * PI = l * 180) by (field; lra). split; nra. } split; [exact P|].
  assert (Cz : cos (PI / 60) <= cos x) by (apply cos_decr_1; unfold x; lra).
  split; [exact Cz|]. intros scene scene' sky m r sun Er Gs Ea. destruct (built m r Er) as [Hm ->].
  destruct (by_day scene noon (to_degrees l) (equation_of_time noon / 4) 0 100 600 v) as (sky0 & y & _ & Ey & _ & E); [rewrite Q2; exact Hl|rewrite Q2; exact P|].
  rewrite Q2 in Ey. cbv zeta in Ey. rewrite E in Ea. injection Ea as <- <-.
  destruct (vector_sun m (noon_at l) noon 100 600 v sun Hl Hm ltac:(lra) ltac:(lra) P Gs) as (y' & Ey' & ->).
  exists (600 * y / source_solid_angle sun_angle / 179). split; [reflexivity|]. pose proof sun_angle_solid as SA.
  replace (2 * (600 * y / source_solid_angle sun_angle / 179 * source_solid_angle sun_angle)) with (600 * (2 * y) / 179) by (field; lra).
  enough (2 * y < y') by lra. clear E Gs SA.
  assert (R3 : to_radians 3 = PI / 60) by (unfold to_radians; field).
  set (z := PI / 60) in *. assert (Hz : 5 / 100 <= z <= 67 / 1000) by (unfold z; lra).
  assert (NZ : Rleb (cos x) 0 = false) by (apply Rleb_false; lra).
  assert (Zl : limited_zenith (vz v) = z) by (cbn [vz v]; unfold limited_zenith; change (vz v) with (cos x); rewrite R3, NZ; replace (Rleb (cos z) (cos x)) with true by (symmetry; apply Rleb_true; exact Cz); reflexivity).
  assert (Zs : scene_zenith (vz v) = acos z).
  { unfold scene_zenith. change (vz v) with (cos x). rewrite R3, NZ; replace (Rleb (cos z) (cos x)) with true by (symmetry; apply Rleb_true; exact Cz). f_equal. unfold z. field. }
  unfold day_efficacy in Ey'. cbv zeta in Ey'. rewrite Zl in Ey'. rewrite Zs in Ey.
  set (w := precipitable_water_content 11) in *. set (n := unwrap_solar_time (noon_at l) (Standard noon)) in *.
  assert (Hw : 18 / 10 <= w).
  { unfold w, precipitable_water_content. pose proof (exp_quarter_lower (7 / 100 * 11 - 75 / 1000) ltac:(lra)). lra. }
  pose proof (extra_bounds n) as Ex.
  (** the sky vector *)
  assert (Am : 0 < air_mass z <= 102 / 100).
  { unfold air_mass. assert (99 / 100 <= cos z) by (pose proof (cos_lower z ltac:(lra)); nra). set (q := Rpower _ _). assert (0 < q) by (apply exp_pos).
    split; [apply Rdiv_lt_0_compat; lra|].
    apply Rmult_le_reg_r with (cos z + 15 / 100 * q); [lra|]. unfold Rdiv at 1. rewrite Rmult_assoc, Rinv_l by lra. lra. }
  assert (Br : clamp (1 / 100) (9 * 10 ^ 9) (sky_brightness 100 (air_mass z) (normal_extraterrestrial_radiation n)) <= 1 / 10).
  { assert (100 * air_mass z / normal_extraterrestrial_radiation n <= 1 / 10).
    { apply Rmult_le_reg_r with (normal_extraterrestrial_radiation n); [lra|]. unfold Rdiv at 1. rewrite Rmult_assoc, Rinv_l by lra. lra. }
    unfold sky_brightness. cbv zeta. destruct (Rltb_spec (100 * air_mass z / normal_extraterrestrial_radiation n) (1 / 100)); unfold clamp; repeat match goal with |- context[Rltb ?a ?b] => destruct (Rltb_spec a b) end; lra. }
  set (br := clamp _ _ (sky_brightness 100 (air_mass z) _)) in *.
  assert (Cl : forall k, 0 < k -> ((100 + 600) / 100 + k) / (1 + k) = 1 + 6 / (1 + k)) by (intros; field; lra).
  assert (Cat : clearness_category (clamped_clearness 100 600 z) = 7%nat).
  { assert (0 < z ^ 3 <= 1 / 1000). { cbn [pow]. assert (0 < z * z <= 1 / 100) by nra. nra. }
    unfold clamped_clearness. destruct (Req_EM_T 100 0); [lra|]. unfold sky_clearness. cbv zeta. set (k := 1041 / 1000 * z ^ 3). assert (0 < k <= 2 / 1000) by (unfold k; lra).
    rewrite Cl by lra. assert (598 / 100 < 6 / (1 + k) < 6).
    { assert (Q' : 6 / (1 + k) * (1 + k) = 6) by (field; lra). split; apply Rmult_lt_reg_r with (1 + k); try rewrite Q'; lra. }
    rewrite clamp_in by lra. unfold clearness_category. repeat match goal with |- context[Rltb ?a ?b] => destruct (Rltb_spec a b); try (exfalso; lra) end. reflexivity. }
  rewrite Cat in Ey'. unfold direct_illuminance_ratio in Ey'. cbn [nth_error DIRECT_TABLE] in Ey'.
  assert (Y' : 100 <= y').
  { apply ok_inj in Ey'. rewrite <- Ey'. assert (0 < exp (573 / 100 * z - 5) <= 1) by (apply exp_le_1; lra).
    unfold clamp. repeat match goal with |- context[Rltb ?a ?b] => destruct (Rltb_spec a b) end; lra. }
  (** the scene *)
  set (Z := acos z) in *. assert (Ez : cos Z = z /\ 0 <= Z <= PI) by (apply acos_in; lra). destruct Ez as [Ez Hz0].
  assert (Zu : Z < 16 / 10).
  { destruct (Rlt_dec Z (16 / 10)) as [|N]; [assumption|]. exfalso. pose proof (cos_upper (16 / 10) ltac:(lra)).
    assert (cos Z <= cos (16 / 10)) by (apply cos_decr_1; lra). lra. }
  assert (Zo : 15 / 10 < Z).
  { destruct (Rlt_dec (15 / 10) Z) as [|N]; [assumption|]. exfalso.
    assert (L : 68 / 1000 <= cos (15 / 10)).
    { destruct (pre_cos_bound (15 / 10) 1 ltac:(lra) ltac:(lra)) as [K _]. unfold cos_approx, cos_term in K. cbn in K. lra. }
    assert (cos (15 / 10) <= cos Z) by (apply cos_decr_1; lra). lra. }
  assert (Cat2 : clearness_category (clamped_clearness 100 600 Z) = 4%nat).
  { assert (27 / 8 < Z ^ 3 < 4096 / 1000). { assert (225 / 100 < Z * Z < 256 / 100) by nra. cbn [pow]. rewrite Rmult_1_r. split; nra. }
    unfold clamped_clearness. destruct (Req_EM_T 100 0); [lra|]. unfold sky_clearness. cbv zeta. set (k := 1041 / 1000 * Z ^ 3). assert (35 / 10 < k < 43 / 10) by (unfold k; lra).
    rewrite Cl by lra. assert (113 / 100 < 6 / (1 + k) < 134 / 100).
    { assert (Q' : 6 / (1 + k) * (1 + k) = 6) by (field; lra). split; apply Rmult_lt_reg_r with (1 + k); try rewrite Q'; lra. }
    rewrite clamp_in by lra. unfold clearness_category. repeat match goal with |- context[Rltb ?a ?b] => destruct (Rltb_spec a b); try (exfalso; lra) end. reflexivity. }
  rewrite Cat2 in Ey. unfold direct_illuminance_ratio in Ey. cbn [nth_error DIRECT_TABLE] in Ey.
  set (br2 := clamp _ _ (sky_brightness 100 (air_mass Z) _)) in *.
  assert (Br2 : 0 <= br2). { unfold br2, clamp. repeat match goal with |- context[Rltb ?a ?b] => destruct (Rltb_spec a b) end; lra. }
  assert (Ex2 : 30 <= exp (573 / 100 * Z - 5)).
  { apply Rle_trans with (exp (8 * (3595 / 8000))).
    - set (e := exp (3595 / 8000)). assert (E8 : exp (8 * (3595 / 8000)) = e ^ 8). { unfold e. replace (8 * (3595 / 8000)) with (INR 8 * (3595 / 8000)) by (cbn; lra). rewrite exp_pow_nat. reflexivity. }
      assert (He : 153 / 100 <= e) by (unfold e; pose proof (exp_quarter_lower (3595 / 8000) ltac:(lra)); lra).
      rewrite E8. apply Rle_trans with ((153 / 100) ^ 8); [lra|]. apply pow_incr. lra.
    - left. apply exp_increasing. lra. }
  assert (Y : y <= 48).
  { apply ok_inj in Ey. rewrite <- Ey. unfold clamp. repeat match goal with |- context[Rltb ?a ?b] => destruct (Rltb_spec a b) end; lra. }
  lra.
Qed.

(** At noon, 46 degrees north, under 100 W/m2 of diffuse and 500 W/m2 of direct radiation, in an empty scene *)
Example C110_noon : exists v lat lon sun patches scene' sky,
  let s := mkSolar (lat * PI / 180) (lon * PI / 180) (0 * PI / 180) in
  - 90 < lat < 90 /\ sun_position s (Standard noon) = Some v /\ vz v < cos (PI / 60) /\
  gen_sky_vec 1 s noon 11 100 500 UnitsVisible 0 false true = Ok sun /\ gen_sky_vec 1 s noon 11 100 500 UnitsVisible 0 true false = Ok patches /\
  add_perez_sky empty_scene noon lat lon 0 100 500 = Ok (scene', sky) /\ length (distant_lights scene') = 1%nat.
Proof.
  pose proof PI_bounds as PB. assert (Hl : - (PI / 2) < 8 / 10 < PI / 2) by lra.
  pose proof (declination_small noon) as D. set (x := 8 / 10 - declination noon). assert (Hx : 31 / 100 <= x <= 129 / 100) by (unfold x; lra).
  assert (C0 : 16 / 100 < cos x). { pose proof (cos_lower x ltac:(lra)). nra. }
  assert (C1 : cos x <= 97 / 100). { pose proof (cos_upper x ltac:(lra)). assert (961 / 10000 <= x * x <= 2) by nra. nra. }
  set (v := mkV 0 (sin (- x)) (cos x)).
  assert (P : sun_position (noon_at (8 / 10)) (Standard noon) = Some v) by (apply noon_sun; [exact Hl|reflexivity|lra]).
  assert (Q : mkSolar (to_degrees (8 / 10) * PI / 180) (equation_of_time noon / 4 * PI / 180) (0 * PI / 180) = noon_at (8 / 10)).
  { unfold noon_at. f_equal; [rewrite <- (degrees (8 / 10)) at 2|..]; unfold to_radians; field. }
  destruct (C78_size [] 1 (noon_at (8 / 10)) noon 11 100 500 UnitsVisible 0 false true Hl (le_n 1)) as (_ & _ & sun & Es & _).
  destruct (C78_size [] 1 (noon_at (8 / 10)) noon 11 100 500 UnitsVisible 0 true false Hl (le_n 1)) as (_ & _ & patches & Ep & _).
  assert (Hlat : - 90 < to_degrees (8 / 10) < 90). { unfold to_degrees. assert (8 / 10 * (180 / PI) * PI = 144) by (field; lra). split; nra. }
  destruct (C110_sun empty_scene noon (to_degrees (8 / 10)) (equation_of_time noon / 4) 0 100 500 v Hlat ltac:(lra)) as (sky & B & Ea & _).
  { rewrite Q. exact P. }
  exists v, (to_degrees (8 / 10)), (equation_of_time noon / 4), sun, patches. eexists _, sky. cbv zeta. rewrite Q.
  split; [exact Hlat|]. split; [exact P|]. split.
  { change (vz v) with (cos x). pose proof (cos_lower (PI / 60) ltac:(lra)). assert (PI / 60 * (PI / 60) <= 1 / 100) by nra. lra. }
  split; [exact Es|]. split; [exact Ep|]. split; [exact Ea|reflexivity].
Qed.

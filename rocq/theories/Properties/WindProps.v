(** Properties of the direction of the wind (C112) and of weather made of schedules (C113). The bearing of the wind and of a wall is the angle from
    north towards east of where the wind comes from, and of the horizontal part of the normal of the wall. *)
From Coq Require Import ZArith QArith Qreals Reals List Bool Lra Lia.
From Verif.Common Require Import Base Flt.
From Verif.Calendar Require Import DateModel.
From Verif.Weather Require Import WeatherModel EpwModel EpwProofs.
From Verif.Heat Require Import ConvectionModel WindModel.
From Verif.Properties Require Import WeatherProps.
Import ListNotations.
Open Scope R_scope.

(** ** a wall faces the wind when it is nearly horizontal or when its bearing is less than a quarter of a turn from that of the wind *)
Theorem C112_convention wind cos_tilt s bearing : 0 < s ->
  is_windward wind cos_tilt (s * sin bearing) (s * cos bearing) = true <-> 98 / 100 <= Rabs cos_tilt \/ 0 < cos (bearing - wind).
Proof.
  intros Hs. unfold is_windward. replace (s * sin bearing * sin wind + s * cos bearing * cos wind) with (s * cos (bearing - wind)) by (rewrite cos_minus; ring).
  destruct (Rltb_spec (Rabs cos_tilt) (98 / 100)) as [H|H].
  - rewrite Rltb_true. split.
    + intros P. right. apply Rmult_lt_reg_l with s; [assumption|]. lra.
    + intros [P|P]; [lra|]. apply Rmult_lt_0_compat; assumption.
  - split; [intros _; left; lra|reflexivity].
Qed.

(** ** the thermal model takes the direction in the weather for degrees *)
Theorem C112_degrees w cos_tilt s bearing : 0 < s ->
  faces_wind w cos_tilt (s * sin (bearing * (PI / 180))) (s * cos (bearing * (PI / 180))) = true <->
  98 / 100 <= Rabs cos_tilt \/ 0 < cos ((bearing - Q2R (wind_direction w)) * (PI / 180)).
Proof.
  intros Hs. unfold faces_wind, heat_wind_direction. rewrite (C112_convention _ _ _ _ Hs).
  replace ((bearing - Q2R (wind_direction w)) * (PI / 180)) with (bearing * (PI / 180) - Q2R (wind_direction w) * (PI / 180)) by ring. reflexivity.
Qed.

Lemma pi_close : 31415 / 10 ^ 4 < PI < 31417 / 10 ^ 4.
Proof.
  pose proof PI_RGT_0 as P0. pose proof PI_4 as P4. pose proof PI2_3_2 as P3. pose proof sin_PI6 as E. split.
  - destruct (Rlt_le_dec (31415 / 10 ^ 4) PI) as [|L]; [assumption|exfalso]. set (a := 31415 / 10 ^ 4 / 6).
    assert (S : sin (PI / 6) <= sin a) by (destruct (Rle_lt_or_eq_dec _ _ L) as [L'|L']; [left; apply sin_increasing_1; unfold a; lra|right; unfold a; rewrite L'; reflexivity]).
    destruct (pre_sin_bound a 0 ltac:(unfold a; lra) ltac:(unfold a; lra)) as [_ U].
    assert (sin_approx a (2 * (0 + 1)) < 1 / 2); [|lra]. unfold sin_approx. cbn [sum_f_R0 Nat.mul Nat.add]. unfold sin_term, a. rewrite !INR_IZR_INZ.
    cbn [Nat.mul Nat.add]. change (Z.of_nat (fact 1)) with 1%Z. change (Z.of_nat (fact 3)) with 6%Z. change (Z.of_nat (fact 5)) with 120%Z. lra.
  - destruct (Rlt_le_dec PI (31417 / 10 ^ 4)) as [|L]; [assumption|exfalso]. set (a := 31417 / 10 ^ 4 / 6).
    assert (S : sin a <= sin (PI / 6)) by (destruct (Rle_lt_or_eq_dec _ _ L) as [L'|L']; [left; apply sin_increasing_1; unfold a; lra|right; unfold a; rewrite L'; reflexivity]).
    destruct (pre_sin_bound a 1 ltac:(unfold a; lra) ltac:(unfold a; lra)) as [U _].
    assert (1 / 2 < sin_approx a (2 * 1 + 1)); [|lra]. unfold sin_approx. cbn [sum_f_R0 Nat.mul Nat.add]. unfold sin_term, a. rewrite !INR_IZR_INZ.
    cbn [Nat.mul Nat.add]. change (Z.of_nat (fact 1)) with 1%Z. change (Z.of_nat (fact 3)) with 6%Z. change (Z.of_nat (fact 5)) with 120%Z. 
    replace (Z.of_nat (fact 7)) with 5040%Z by (vm_compute; reflexivity). lra.
Qed.
Lemma pi_bounds : 314 / 100 < PI < 315 / 100.
Proof. pose proof pi_close. lra. Qed.

Lemma abs_le x b : Rabs x <= b -> - b <= x <= b.
Proof. unfold Rabs. destruct (Rcase_abs x); lra. Qed.

Lemma small_angle x : 0 <= x <= 11 / 100 -> 0 <= sin x <= 11 / 100 /\ 99 / 100 <= cos x.
Proof.
  intros H. pose proof pi_bounds. split; [split|].
  - apply sin_ge_0; lra.
  - destruct (Rle_lt_or_eq_dec 0 x) as [P|P]; [lra| |].
    + pose proof (sin_lt_x x P). lra.
    + rewrite <- P, sin_0. lra.
  - assert (S : sin x <= 11 / 100).
    { destruct (Rle_lt_or_eq_dec 0 x) as [P|P]; [lra| |]; [pose proof (sin_lt_x x P); lra|rewrite <- P, sin_0; lra]. }
    assert (S0 : 0 <= sin x) by (apply sin_ge_0; lra). assert (C0 : 0 <= cos x) by (apply cos_ge_0; lra).
    pose proof (sin2_cos2 x) as E. unfold Rsqr in E.
    assert (sin x * sin x <= 11 / 100 * (11 / 100)) by (apply Rmult_le_compat; assumption).
    destruct (Rle_lt_dec (99 / 100) (cos x)) as [|L]; [assumption|]. assert (cos x * cos x <= 99 / 100 * (99 / 100)) by (apply Rmult_le_compat; lra). lra.
Qed.

(** ** so that with the radians that the weather holds (current_weather.rs:50-51, weather_line.rs:175), whatever the wind, walls that face north of the
    east-west line by 7 degrees or more face the wind and those that face south of it do not *)
Theorem C112_always_north w cos_tilt nx ny : 0 <= Q2R (wind_direction w) <= 62835 / 10 ^ 4 -> Rabs cos_tilt < 98 / 100 ->
  (12 / 100 * Rabs nx < ny -> faces_wind w cos_tilt nx ny = true) /\ (ny < - (12 / 100 * Rabs nx) -> faces_wind w cos_tilt nx ny = false).
Proof.
  intros W T. pose proof pi_bounds as P. unfold faces_wind, is_windward. destruct (Rltb_spec (Rabs cos_tilt) (98 / 100)) as [_|C]; [|lra].
  assert (H : 0 <= heat_wind_direction w <= 11 / 100).
  { unfold heat_wind_direction. split; [apply Rmult_le_pos; lra|]. apply Rle_trans with (62835 / 10 ^ 4 * (315 / 100 / 180)); [apply Rmult_le_compat; lra|lra]. }
  destruct (small_angle _ H) as [[S0 S] C]. set (t := heat_wind_direction w) in *.
  assert (A : Rabs (nx * sin t) <= Rabs nx * (11 / 100)).
  { rewrite Rabs_mult, (Rabs_pos_eq (sin t)) by assumption. apply Rmult_le_compat_l; [apply Rabs_pos|assumption]. }
  pose proof (Rabs_pos nx) as N. apply abs_le in A. split; intros Y.
  - apply Rltb_true. assert (99 / 100 * ny <= ny * cos t) by (rewrite (Rmult_comm ny); apply Rmult_le_compat_r; lra). lra.
  - apply Rltb_false. assert (99 / 100 * (- ny) <= (- ny) * cos t) by (rewrite (Rmult_comm (- ny)); apply Rmult_le_compat_r; lra). lra.
Qed.

(** a wall that faces south in a south wind is taken for one in the lee, and the wall behind it for one that faces the wind *)
Theorem C112_south_refuted : exists w, Rabs (Q2R (wind_direction w) - PI) < 1 / 1000 /\ is_windward PI 0 0 (-1) = true /\ is_windward PI 0 0 1 = false /\
  faces_wind w 0 0 (-1) = false /\ faces_wind w 0 0 1 = true.
Proof.
  exists (mkCW (mkDate 1 1 1) 0 0 0 0 0 5 (31415927 # 10000000) None 0 0 0). cbn [wind_direction].
  assert (E : Q2R (31415927 # 10000000) = 31415927 / 10 ^ 7) by (unfold Q2R; cbn -[IZR Rmult Rinv]; lra).
  assert (Z : Rabs 0 < 98 / 100) by (rewrite Rabs_R0; lra).
  split. { rewrite E. pose proof pi_close. apply Rabs_def1; lra. }
  split. { unfold is_windward. rewrite sin_PI, cos_PI. destruct (Rltb_spec (Rabs 0) (98 / 100)); [|lra]. apply Rltb_true. lra. }
  split. { unfold is_windward. rewrite sin_PI, cos_PI. destruct (Rltb_spec (Rabs 0) (98 / 100)); [|lra]. apply Rltb_false. lra. }
  destruct (C112_always_north (mkCW (mkDate 1 1 1) 0 0 0 0 0 5 (31415927 # 10000000) None 0 0 0) 0 0 (-1)) as [_ L]; [cbn [wind_direction]; rewrite E; lra|assumption|].
  destruct (C112_always_north (mkCW (mkDate 1 1 1) 0 0 0 0 0 5 (31415927 # 10000000) None 0 0 0) 0 0 1) as [G _]; [cbn [wind_direction]; rewrite E; lra|assumption|].
  split; [apply L|apply G]; rewrite Rabs_R0; lra.
Qed.

(** ** with a weather file, the direction of the wind has no effect at all: all records are a wind from the same, nearly northern, direction *)
Theorem C112_file utf8 num pi180 r r' cos_tilt nx ny : wf_row utf8 num r -> wf_row utf8 num r' ->
  (nth 14 (r_tail r) 0 <= 360)%Q -> (nth 14 (r_tail r') 0 <= 360)%Q -> Rabs (Q2R pi180 - PI / 180) <= 1 / 10 ^ 9 ->
  faces_wind (cw_from pi180 (row_line r)) cos_tilt nx ny = faces_wind (cw_from pi180 (row_line r')) cos_tilt nx ny /\
  (Rabs cos_tilt < 98 / 100 -> 12 / 100 * Rabs nx < ny -> faces_wind (cw_from pi180 (row_line r)) cos_tilt nx ny = true) /\
  (Rabs cos_tilt < 98 / 100 -> ny < - (12 / 100 * Rabs nx) -> faces_wind (cw_from pi180 (row_line r)) cos_tilt nx ny = false).
Proof.
  intros W W' D D' P.
  assert (E : forall r, wf_row utf8 num r -> (nth 14 (r_tail r) 0 <= 360)%Q -> Q2R (wind_direction (cw_from pi180 (row_line r))) = 360 * Q2R pi180).
  { intros x Wx Dx. unfold cw_from. cbn [wind_direction]. unfold to_radians. rewrite Q2R_mult. f_equal.
    rewrite (Qeq_eqR _ _ (C23_wind_direction_lost _ _ _ Wx Dx)). unfold Q2R. cbn. lra. }
  split; [|pose proof PI_RGT_0 as P0; apply abs_le in P; 
    destruct pi_close as [V U];
    split; intros T N; apply (C112_always_north _ cos_tilt nx ny); try assumption; rewrite (E r W D); split; lra].
  unfold faces_wind, heat_wind_direction. rewrite (E r W D), (E r' W' D'). reflexivity.
Qed.

(** ** what that does: the forced part of the convection of a wall is half as large when it is taken for one in the lee *)
Theorem C112_half c area perimeter h natural : natural_convection c = Ok natural -> tarp_convection c area perimeter true = Ok h ->
  tarp_convection c area perimeter false = Ok (natural + (h - natural) / 2).
Proof.
  intros N. unfold tarp_convection. destruct (nth_error COEFFICIENTS (roughness_index c)) as [rf|]; [|discriminate]. rewrite N. cbn [bind].
  intros H. injection H as <-. f_equal. field.
Qed.

Example C112_example : 0 < 1 /\ (nth 14 (r_tail demo_row) 0 == 180)%Q /\
  is_windward 0 0 0 1 = true /\ is_windward (PI / 2) 0 1 0 = true /\ is_windward (PI / 2) 0 (-1) 0 = false /\ is_windward (PI / 2) 1 (-1) 0 = true.
Proof.
  split; [lra|]. split; [reflexivity|]. unfold is_windward. rewrite sin_PI2, cos_PI2, sin_0, cos_0, Rabs_R0, Rabs_R1.
  destruct (Rltb_spec 0 (98 / 100)); [|lra]. destruct (Rltb_spec 1 (98 / 100)); [lra|]. repeat split; try reflexivity; try (apply Rltb_true; lra). apply Rltb_false. lra.
Qed.

(** ** C113: weather made of schedules: each quantity is that of its schedule, or its documented default where the schedule has none *)
Theorem C113_values s d :
  let w := synthetic_data s d in
  let is (x : Q) (sch : Schedule) (default : Q) := (forall v, sch d = Some v -> x = v) /\ (sch d = None -> x = default) in
  date w = d /\ is (dry_bulb_temperature w) (s_dry_bulb_temperature s) 0%Q /\ is (dew_point_temperature w) (s_dew_point_temperature s) 0%Q /\
  is (global_horizontal_radiation w) (s_global_horizontal_radiation s) 0%Q /\ is (direct_normal_radiation w) (s_direct_normal_radiation s) 0%Q /\
  is (diffuse_horizontal_radiation w) (s_diffuse_horizontal_radiation s) 0%Q /\ is (wind_speed w) (s_wind_speed s) 0%Q /\
  is (wind_direction w) (s_wind_direction s) 0%Q /\ horizontal_infrared_radiation_intensity w = s_horizontal_infrared_radiation_intensity s d /\
  is (opaque_sky_cover w) (s_opaque_sky_cover s) 0%Q /\ is (relative_humidity w) (s_relative_humidity s) (1 # 2)%Q /\ is (pressure w) (s_pressure s) 101300%Q.
Proof. cbv zeta. unfold synthetic_data. cbn. unfold unwrap_or. repeat split; intros; repeat match goal with H : _ = Some _ |- _ => rewrite H; clear H | H : _ = None |- _ => rewrite H; clear H end; reflexivity. Qed.

(** schedules that do not change give weather that does not change *)
Theorem C113_constant s d d' : (forall sch, In sch [s_dry_bulb_temperature s; s_dew_point_temperature s; s_global_horizontal_radiation s; s_direct_normal_radiation s;
    s_diffuse_horizontal_radiation s; s_wind_speed s; s_wind_direction s; s_horizontal_infrared_radiation_intensity s; s_opaque_sky_cover s; s_relative_humidity s;
    s_pressure s] -> sch = empty_schedule \/ exists v, sch = schedule_constant v) ->
  let w := synthetic_data s d in let w' := synthetic_data s d' in
  date w = d /\ w' = mkCW d' (dry_bulb_temperature w) (dew_point_temperature w) (global_horizontal_radiation w) (direct_normal_radiation w) (diffuse_horizontal_radiation w)
    (wind_speed w) (wind_direction w) (horizontal_infrared_radiation_intensity w) (opaque_sky_cover w) (relative_humidity w) (pressure w).
Proof.
  intros H. cbv zeta. split; [reflexivity|]. unfold synthetic_data. cbn.
  assert (E : forall sch, (sch = empty_schedule \/ exists v, sch = schedule_constant v) -> sch d' = sch d) by (intros sch [->|[v ->]]; reflexivity).
  repeat match goal with |- context [?f s d'] => rewrite (E (f s) (H (f s) ltac:(cbn; tauto))) end. reflexivity.
Qed.

(** the sun of a summer day on the second half of the day only, all else by default *)
Example C113_example :
  let sun : Schedule := fun d => if Qle_bool 12 (hour d) then Some 500%Q else None in
  let s := mkSynthetic (schedule_constant 20) empty_schedule sun empty_schedule empty_schedule empty_schedule empty_schedule empty_schedule empty_schedule empty_schedule empty_schedule in
  global_horizontal_radiation (synthetic_data s (mkDate 6 21 15)) = 500%Q /\ global_horizontal_radiation (synthetic_data s (mkDate 6 21 9)) = 0%Q /\
  dry_bulb_temperature (synthetic_data s (mkDate 6 21 9)) = 20%Q /\ pressure (synthetic_data default_synthetic (mkDate 6 21 9)) = 101300%Q.
Proof. cbv zeta. repeat split; reflexivity. Qed.

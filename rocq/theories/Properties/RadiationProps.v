(** C76: solar radiation estimated from clouds, temperature, humidity and wind. *)
From Coq Require Import List Arith ZArith Reals Bool Lra Lia Psatz.
From Verif.Common Require Import Base Flt.
From Verif.Geometry Require Import Vec.
From Verif.Weather Require Import SunModel.
From Verif.Properties Require Import SunProps.
Import ListNotations.
Open Scope R_scope.
Open Scope list_scope.

Lemma clamp_in lo hi x : lo <= hi -> lo <= clamp lo hi x <= hi.
Proof.
  intros H. unfold clamp. destruct (Rltb x lo) eqn:Q; [lra|apply Rltb_false in Q]. destruct (Rltb hi x) eqn:Q2; [lra|apply Rltb_false in Q2; lra].
Qed.
Lemma clamp_id lo hi x : lo <= x <= hi -> clamp lo hi x = x.
Proof.
  intros H. unfold clamp. destruct (Rltb x lo) eqn:Q; [apply Rltb_true in Q; lra|]. destruct (Rltb hi x) eqn:Q2; [apply Rltb_true in Q2; lra|reflexivity].
Qed.

Ltac rleb := repeat match goal with
  | |- context[Rleb ?a ?b] => let Q := fresh "Q" in destruct (Rleb a b) eqn:Q; [apply Rleb_true in Q|apply Rleb_false in Q]; cbn [andb negb]
  | |- context[Rltb ?a ?b] => let Q := fresh "Q" in destruct (Rltb a b) eqn:Q; [apply Rltb_true in Q|apply Rltb_false in Q]; cbn [andb negb]
  end.
Lemma kt_bin_ok x : 0 <= x <= 1 -> exists n, perez_direct_rad_kt_bin x = Ok n /\ (n <= 5)%nat.
Proof. intros H. unfold perez_direct_rad_kt_bin. rleb; try (exfalso; lra); eexists; split; try reflexivity; lia. Qed.
Lemma delta_bin_ok x : 0 <= x <= 1 -> exists n, perez_direct_rad_delta_kt_bin x = Ok n /\ (n <= 5)%nat.
Proof. intros H. unfold perez_direct_rad_delta_kt_bin. rleb; try (exfalso; lra); eexists; split; try reflexivity; lia. Qed.
Lemma zeta_bin_ok x : 0 <= x <= PI / 2 -> exists n, perez_direct_rad_zeta_bin x = Ok n /\ (n <= 5)%nat.
Proof. intros H. unfold perez_direct_rad_zeta_bin. rleb; try (exfalso; lra); eexists; split; try reflexivity; lia. Qed.
Lemma w_bin_ok x : 0 <= x -> exists n, perez_direct_rad_w_bin x = Ok n /\ (n <= 3)%nat.
Proof. intros H. unfold perez_direct_rad_w_bin. rleb; try (exfalso; lra); eexists; split; try reflexivity; lia. Qed.

Lemma coefs_shape : forallb (fun l => (length l =? 35)%nat && forallb (fun z => (0 <? z)%Z) l) COEFS = true.
Proof. vm_compute. reflexivity. Qed.
Lemma coefs_ok k z i d : (k <= 5)%nat -> (z <= 5)%nat -> (i <= 3)%nat -> (d <= 5)%nat ->
  exists c, perez_direct_rad_coefs k z i d = Ok c /\ 0 < c.
Proof.
  intros H1 H2 H3 H4. unfold perez_direct_rad_coefs. rewrite (proj2 (Nat.leb_le k 5) H1), (proj2 (Nat.leb_le z 5) H2). cbn [andb].
  destruct (nth_error COEFS (k * 6 + z)) as [l|] eqn:E.
  2: { apply nth_error_None in E. change (length COEFS) with 36%nat in E. lia. }
  pose proof coefs_shape as S. rewrite forallb_forall in S. specialize (S l (nth_error_In _ _ E)). apply andb_true_iff in S. destruct S as [S1 S2].
  apply Nat.eqb_eq in S1. destruct (nth_error l (i * 5 + d)) as [x|] eqn:F. 2: { apply nth_error_None in F. lia. }
  exists (IZR x / 10 ^ 6). split; [reflexivity|]. rewrite forallb_forall in S2. specialize (S2 x (nth_error_In _ _ F)). apply Z.ltb_lt in S2.
  apply IZR_lt in S2. unfold Rdiv. apply Rmult_lt_0_compat; [exact S2|]. apply Rinv_0_lt_compat. lra.
Qed.

Lemma estimate_nonneg v a b c d e : 0 <= estimate_global_horizontal_radiation v a b c d e.
Proof. unfold estimate_global_horizontal_radiation. cbv zeta. match goal with |- context[Rltb 0 ?x] => destruct (Rltb 0 x) eqn:Q end; [apply Rltb_true in Q; lra|lra]. Qed.

(** the direct radiation before Perez's correction: a number that is not negative, unless there is no radiation at all *)
Lemma disc_value s n v g p : 0 <= g ->
  (exists d, disc_direct_solar s n v g p = Some d /\ 0 <= d) \/ (disc_direct_solar s n v g p = None /\ g = 0).
Proof.
  intros Hg. unfold disc_direct_solar, hourly_clearness_index. pose proof (extra_bounds (unwrap_solar_time s n)) as X.
  set (x := normal_extraterrestrial_radiation _) in *. clearbody x.
  destruct (Rltb (g / x) 0) eqn:Q. { left. exists 0. split; [reflexivity|lra]. }
  destruct (Rltb (80 * PI / 180) (acos (vz v))) eqn:Q2. { left. exists 0. split; [reflexivity|lra]. }
  destruct (Req_EM_T (g / x) 0) as [E|E].
  - right. split; [reflexivity|]. apply Rmult_eq_reg_r with (/ x). 2: { apply Rinv_neq_0_compat. lra. } unfold Rdiv in E. lra.
  - left. eexists. split; [reflexivity|]. match goal with |- context[Rltb ?y 0] => destruct (Rltb y 0) eqn:Q3; [lra|apply Rltb_false in Q3; exact Q3] end.
Qed.

Lemma zenith_ok z : 0 <= z <= 1 -> 0 <= acos z <= PI / 2.
Proof.
  intros H. destruct (acos_in z ltac:(lra)) as [C [B1 B2]]. split; [exact B1|]. destruct (Rle_dec (acos z) (PI / 2)) as [L|L]; [exact L|].
  exfalso. pose proof (cos_lt_0 (acos z) ltac:(lra) ltac:(pose proof PI_RGT_0; lra)). lra.
Qed.

Lemma perez_value s v w nx pv : 0 <= vz v <= 1 -> 0 <= global_horizontal_radiation w ->
  (exists d, perez_direct_normal_radiation s v w nx pv = Ok (Some d) /\ 0 <= d) \/
  (perez_direct_normal_radiation s v w nx pv = Ok None /\ global_horizontal_radiation w = 0).
Proof.
  intros Hz Hg. unfold perez_direct_normal_radiation.
  destruct (Rltb (80 * PI / 180) (acos (vz v))) eqn:Q2. { left. exists 0. split; [reflexivity|lra]. }
  apply Rltb_false in Q2.
  set (kt_p := clamp 0 1 (kt_prime _ _)). set (delta := clamp 0 1 (5 / 10 * _)).
  destruct (kt_bin_ok kt_p) as (k & E1 & L1). { apply clamp_in. lra. }
  destruct (zeta_bin_ok (acos (vz v))) as (zb & E2 & L2). { apply zenith_ok. lra. }
  destruct (w_bin_ok (exp (7 / 100 * dew_point_temperature w - 75 / 1000))) as (wb & E3 & L3). { left. apply exp_pos. }
  destruct (delta_bin_ok delta) as (db & E4 & L4). { apply clamp_in. lra. }
  destruct (coefs_ok k zb wb db L1 L2 L3 L4) as (c & E5 & L5).
  rewrite E1. cbn [bind]. rewrite E2. cbn [bind]. rewrite E3. cbn [bind]. rewrite E4. cbn [bind]. rewrite E5. cbn [bind].
  assert (Pz : 0 < vz v).
  { destruct (Rle_dec (vz v) 0); [|lra]. exfalso. assert (vz v = 0) by lra. rewrite H in Q2. rewrite acos_0 in Q2. pose proof PI_RGT_0. lra. }
  assert (G0 : 0 <= global_horizontal_radiation w / vz v) by (unfold Rdiv; apply Rmult_le_pos; [exact Hg|left; apply Rinv_0_lt_compat; exact Pz]).
  destruct (disc_value s (Standard (day w)) v _ (pressure w) G0) as [(d & E & P)|[E P]]; rewrite E; cbn [option_map].
  - left. exists (c * d). split; [reflexivity|]. nra.
  - right. split; [reflexivity|]. apply Rmult_eq_reg_r with (/ vz v). 2: { apply Rinv_neq_0_compat. lra. } unfold Rdiv in P. lra.
Qed.

Lemma cloud_value s v cur nx pv th : 0 <= vz v <= 1 ->
  exists d f g, direct_diffuse_from_cloud_generic s v cur nx pv th = Ok (d, f, g) /\ 0 <= f /\ 0 <= g /\
    match d with Some d => 0 <= d /\ f = Rmax (g - d * vz v) 0 | None => g = 0 /\ f = 0 end.
Proof.
  intros Hz. unfold direct_diffuse_from_cloud_generic. set (g := estimate_global_horizontal_radiation _ _ _ _ _ _).
  assert (G : 0 <= g) by apply estimate_nonneg.
  match goal with |- context[perez_direct_normal_radiation s v ?w nx pv] =>
    destruct (perez_value s v w nx pv Hz G) as [(d & E & P)|[E P]]; rewrite E; cbn [bind] end.
  - exists (Some d), (Rmax (g - d * vz v) 0), g. repeat split; auto. apply Rmax_r.
  - exists None, 0, g. repeat split; auto; try lra.
Qed.

Lemma solar_data_value s data i cur : - (PI / 2) < latitude s < PI / 2 -> nth_error data i = Some cur ->
  exists c, solar_data s data i cur = Ok c /\
  match sun_position s (Standard (day cur)) with
  | None => c = (Some 0, 0, 0)
  | Some v => 0 <= snd (fst c) /\ 0 <= snd c /\
      match fst (fst c) with Some d => 0 <= d /\ snd (fst c) = Rmax (snd c - d * vz v) 0 | None => snd c = 0 /\ snd (fst c) = 0 end
  end.
Proof.
  intros Hl E. unfold solar_data. destruct (sun_position s (Standard (day cur))) as [v|] eqn:P; [|eexists; split; reflexivity].
  destruct (C74_unit s _ v Hl P) as [U Z0]. assert (Hz : 0 <= vz v <= 1) by nra.
  assert (T : exists th, (if (3 <=? i)%nat then match nth_error data (i - 3) with Some r => Ok r | None => Panic end else Ok cur) = Ok th).
  { destruct (3 <=? i)%nat; [|eauto]. destruct (nth_error data (i - 3)) eqn:F; [eauto|]. apply nth_error_None in F.
    assert (i < length data)%nat by (apply nth_error_Some; congruence). lia. }
  destruct T as [th T]. rewrite T. cbn [bind].
  destruct (cloud_value s v cur (if (i + 1 <? length data)%nat then nth_error data (i + 1) else None)
              (if (1 <=? i)%nat then nth_error data (i - 1) else None) th Hz) as (d & f & g & C & A).
  exists (d, f, g). split; [exact C|]. cbn [fst snd]. destruct d; tauto.
Qed.

Lemma solar_data_from_ok s data : - (PI / 2) < latitude s < PI / 2 -> forall rest pre, data = pre ++ rest ->
  exists l, solar_data_from s data rest (length pre) = Ok l /\ length l = length rest /\
    forall i w, nth_error rest i = Some w -> exists c, nth_error l i = Some c /\ solar_data s data (length pre + i) w = Ok c.
Proof.
  intros Hl rest. induction rest as [|w rest IH]; intros pre E; cbn [solar_data_from].
  - exists []. repeat split; auto. intros [|i] w H; discriminate.
  - destruct (solar_data_value s data (length pre) w Hl) as (c & C & _).
    { rewrite E, nth_error_app2, Nat.sub_diag by lia. reflexivity. }
    rewrite C. cbn [bind]. destruct (IH (pre ++ [w])) as (l & L & N & A). { rewrite E, <- app_assoc. reflexivity. }
    rewrite app_length in L. cbn [length] in L. replace (S (length pre)) with (length pre + 1)%nat by lia. rewrite L. cbn [bind].
    exists (c :: l). split; [reflexivity|]. split; [cbn; lia|]. intros [|i] w' H.
    + injection H as <-. exists c. split; [reflexivity|]. rewrite Nat.add_0_r. exact C.
    + destruct (A i w' H) as (c' & A1 & A2). exists c'. split; [exact A1|]. rewrite app_length in A2. cbn [length] in A2.
      replace (length pre + S i)%nat with (length pre + 1 + i)%nat by lia. exact A2.
Qed.

Lemma nth_error_map_combine {A B C} (f : A * B -> C) (la : list A) (lb : list B) i a b :
  nth_error la i = Some a -> nth_error lb i = Some b -> nth_error (map f (combine la lb)) i = Some (f (a, b)).
Proof.
  revert lb i. induction la as [|x la IH]; intros [|y lb] [|i] H K; cbn in *; try discriminate; try congruence. apply IH; assumption.
Qed.

Lemma fill_ok s data : - (PI / 2) < latitude s < PI / 2 ->
  exists out, fill_solar_radiation_data s data = Ok out /\ length out = length data /\
    forall i w, nth_error data i = Some w -> exists c, nth_error out i = Some (write_solar w c) /\ solar_data s data i w = Ok c.
Proof.
  intros Hl. unfold fill_solar_radiation_data. destruct (solar_data_from_ok s data Hl data [] eq_refl) as (l & L & N & A).
  cbn [length] in L. rewrite L. cbn [bind]. eexists. split; [reflexivity|]. split.
  { rewrite map_length, combine_length. lia. }
  intros i w H. destruct (A i w H) as (c & A1 & A2). exists c. split; [|exact A2].
  apply (nth_error_map_combine (fun p => write_solar (fst p) (snd p))); assumption.
Qed.

(** C76. Filling in the radiation never fails. Every record keeps its date and everything that was measured; its radiations are not
    negative; there is none at night; what does not come straight from the sun comes from the sky. *)
Theorem C76_fill : forall (s : solar) (data : list weather),
  - (PI / 2) < latitude s < PI / 2 -> (forall w, In w data -> 0 < pressure w) ->
  exists out, fill_solar_radiation_data s data = Ok out /\ length out = length data /\
  forall i w, nth_error data i = Some w -> exists w', nth_error out i = Some w' /\
    day w' = day w /\ dry_bulb_temperature w' = dry_bulb_temperature w /\ dew_point_temperature w' = dew_point_temperature w /\
    wind_speed w' = wind_speed w /\ opaque_sky_cover w' = opaque_sky_cover w /\ relative_humidity w' = relative_humidity w /\
    pressure w' = pressure w /\
    0 <= global_horizontal_radiation w' /\ 0 <= diffuse_horizontal_radiation w' /\
    match sun_position s (Standard (day w)), direct_normal_radiation w' with
    | None, d => d = Some 0 /\ diffuse_horizontal_radiation w' = 0 /\ global_horizontal_radiation w' = 0
    | Some v, Some d => 0 <= d /\ global_horizontal_radiation w' <= d * vz v + diffuse_horizontal_radiation w' /\
        (0 < diffuse_horizontal_radiation w' -> global_horizontal_radiation w' = d * vz v + diffuse_horizontal_radiation w')
    | Some _, None => global_horizontal_radiation w' = 0
    end.
Proof.
  intros s data Hl Hp. destruct (fill_ok s data Hl) as (out & E & N & A). exists out. split; [exact E|]. split; [exact N|].
  intros i w H. destruct (A i w H) as (c & A1 & A2). exists (write_solar w c). split; [exact A1|].
  destruct (solar_data_value s data i w Hl H) as (c' & B1 & B2). assert (c' = c) by congruence. subst c'.
  destruct c as [[d f] g]. unfold write_solar; cbn [fst snd day dry_bulb_temperature dew_point_temperature wind_speed opaque_sky_cover
    relative_humidity pressure global_horizontal_radiation diffuse_horizontal_radiation direct_normal_radiation] in *.
  do 7 (split; [reflexivity|]). destruct (sun_position s (Standard (day w))) as [v|].
  - destruct B2 as (F & G & B2). split; [exact G|]. split; [exact F|]. destruct d as [d|]; [|apply B2].
    destruct B2 as [B2 B3]. split; [exact B2|]. rewrite B3. pose proof (Rmax_l (g - d * vz v) 0). split; [lra|].
    intros P. unfold Rmax in *. destruct (Rle_dec (g - d * vz v) 0); lra.
  - injection B2 as -> -> ->. repeat split; lra.
Qed.

(** C76. When the estimated radiation is not zero, all three radiations are numbers. *)
Theorem C76_numbers_partial : forall (s : solar) (data out : list weather) (i : nat) (w : weather),
  - (PI / 2) < latitude s < PI / 2 -> fill_solar_radiation_data s data = Ok out -> nth_error out i = Some w ->
  0 < global_horizontal_radiation w -> exists d, direct_normal_radiation w = Some d /\ 0 <= d.
Proof.
  intros s data out i w Hl E H G. destruct (fill_ok s data Hl) as (out' & E' & N & A). assert (out' = out) by congruence. subst out'.
  assert (L : (i < length data)%nat) by (rewrite <- N; apply nth_error_Some; congruence).
  destruct (nth_error data i) as [w0|] eqn:F. 2: { apply nth_error_None in F. lia. }
  destruct (A i w0 F) as (c & A1 & A2). assert (w = write_solar w0 c) by congruence. subst w. clear A1 H.
  destruct (solar_data_value s data i w0 Hl F) as (c' & B1 & B2). assert (c' = c) by congruence. subst c'.
  destruct c as [[d f] g]. cbn in *. destruct (sun_position s (Standard (day w0))) as [v|].
  - destruct d as [d|]; [|exfalso; lra]. exists d. split; [reflexivity|]. apply B2.
  - injection B2 as -> -> ->. exists 0. split; [reflexivity|lra].
Qed.

Lemma cos_upper x : -2 <= x <= 2 -> cos x <= 1 - x * x / 2 + x * x * (x * x) / 24.
Proof.
  intros H. destruct (pre_cos_bound x 0 ltac:(lra) ltac:(lra)) as [_ K]. unfold cos_approx, cos_term in K. cbn in K. field_simplify in K. field_simplify. exact K.
Qed.

(** C76. It is not true that the radiation written is always a number. At noon of any day, under a low overcast sky, in calm saturated
    air fifteen degrees colder than three hours before, the global radiation is estimated at zero and the direct one at zero over
    zero, which is not replaced: the test for it asks whether a number is at the same time NaN and infinite. *)
Theorem C76_numbers_refuted : exists (s : solar) (data out : list weather) (w : weather),
  - (PI / 2) < latitude s < PI / 2 /\
  (forall w, In w data -> 0 <= opaque_sky_cover w <= 1 /\ 0 <= relative_humidity w <= 1 /\ 0 <= wind_speed w /\
     0 < pressure w /\ -20 <= dry_bulb_temperature w <= 40) /\
  fill_solar_radiation_data s data = Ok out /\ nth_error out 3 = Some w /\
  direct_normal_radiation w = None /\ global_horizontal_radiation w = 0.
Proof.
  set (n := INR 100 + 1 / 2). set (s := mkSolar (8 / 10) (to_radians (equation_of_time n / 4)) 0).
  assert (Hl : - (PI / 2) < latitude s < PI / 2) by (cbn; pose proof PI_bounds; lra).
  set (rec t T := mkWeather t T 5 0 (Some 0) 0 0 1 1 101300).
  set (data := [rec (n - 3 / 24) 20; rec (n - 2 / 24) 15; rec (n - 1 / 24) 10; rec n 5]).
  destruct (fill_ok s data Hl) as (out & E & N & A).
  destruct (A 3%nat (rec n 5) eq_refl) as (c & A1 & A2).
  exists s, data, out, (write_solar (rec n 5) c). split; [exact Hl|]. split.
  { intros w [<-|[<-|[<-|[<-|[]]]]]; cbn; lra. }
  split; [exact E|]. split; [exact A1|].
  assert (U : unwrap_solar_time s (Standard n) = n).
  { cbn [unwrap_solar_time]. unfold solar_standard_time_difference, s; cbn [standard_meridian longitude]. unfold to_degrees, to_radians.
    pose proof PI_RGT_0. field. lra. }
  assert (P : sun_position s (Standard n) = sun_position s (Solar n)).
  { unfold sun_position. rewrite U. reflexivity. }
  pose proof (declination_small n) as D.
  assert (C1 : cos (latitude s - declination n) <= 9999 / 10000).
  { cbn [latitude s]. set (x := 8 / 10 - declination n) in *. pose proof (cos_upper x ltac:(unfold x; lra)).
    assert (31 / 100 <= x <= 129 / 100) by (unfold x; lra). assert (961 / 10000 <= x * x <= 2) by nra. nra. }
  assert (C0 : 0 < cos (latitude s - declination n)). { apply cos_gt_0; cbn [latitude s]; pose proof PI_bounds; lra. }
  pose proof (C74_noon s 100 Hl) as Q. cbv zeta in Q. fold n in Q. specialize (Q ltac:(lra)).
  unfold solar_data in A2. change (day (rec n 5)) with n in A2. rewrite P, Q in A2. cbn [Nat.leb Nat.sub nth_error data bind] in A2.
  set (v := mkV 0 _ (cos _)) in A2. assert (Vz : vz v = cos (latitude s - declination n)) by reflexivity.
  unfold direct_diffuse_from_cloud_generic in A2.
  assert (G : estimate_global_horizontal_radiation v (opaque_sky_cover (rec n 5)) (dry_bulb_temperature (rec n 5))
      (dry_bulb_temperature (rec (n - 3 / 24) 20)) (wind_speed (rec n 5)) (relative_humidity (rec n 5)) = 0).
  { unfold estimate_global_horizontal_radiation. cbv zeta. rewrite Vz. cbn [opaque_sky_cover dry_bulb_temperature wind_speed relative_humidity rec].
    match goal with |- context[Rltb 0 ?x] => assert (L : x < 0) end. { unfold SOLAR_CONSTANT. nra. }
    match goal with |- context[Rltb 0 ?x] => destruct (Rltb 0 x) eqn:Z end; [apply Rltb_true in Z; lra|reflexivity]. }
  rewrite G in A2. clear G.
  match type of A2 with context[perez_direct_normal_radiation s v ?ww ?a ?b] => set (w := ww) in A2; set (nx := a) in A2; set (pv := b) in A2 end.
  assert (Pn : perez_direct_normal_radiation s v w nx pv = Ok None).
  { assert (Z : Rltb (80 * PI / 180) (acos (vz v)) = false).
    { apply Rltb_false. rewrite Vz. rewrite acos_cos; cbn [latitude s]; pose proof PI_bounds; lra. }
    destruct (perez_value s v w nx pv) as [(d & F & _)|[F _]]; [rewrite Vz; lra|cbn; lra| |exact F].
    exfalso. unfold perez_direct_normal_radiation in F. rewrite Z in F.
    unfold disc_direct_solar, hourly_clearness_index in F. rewrite Z in F. cbn [global_horizontal_radiation w] in F.
    replace (0 / vz v) with 0 in F by (unfold Rdiv; ring).
    repeat match type of F with (do _ <- ?e; _) = _ => destruct e; cbn [bind] in F; try discriminate end.
    replace (0 / normal_extraterrestrial_radiation (unwrap_solar_time s (Standard (day w)))) with 0 in F by (unfold Rdiv; ring). destruct (Req_EM_T 0 0) as [_|B]; [|apply B; reflexivity].
    destruct (Rltb 0 0) eqn:B; [apply Rltb_true in B; lra|]. discriminate. }
  rewrite Pn in A2. cbn [bind] in A2. injection A2 as <-. cbn. split; reflexivity.
Qed.

Lemma acos_half : acos (1 / 2) = PI / 3.
Proof. rewrite <- cos_PI3. apply acos_cos. pose proof PI_RGT_0. lra. Qed.
(** C76. Nor is it true that the sun alone never gives more than the whole. At 76 kPa, under a sky that was bright an hour ago and will be
    bright in an hour, with the sun at 60 degrees from the vertical, the direct radiation on the ground is more than the global
    radiation on the ground: the two last indices of the table of coefficients are swapped, and the factor found is 12.494. *)
Theorem C76_direct_above_global_refuted : exists (s : solar) (v : pt) (cur nx pv th : weather) (d f g : R),
  vdot v v = 1 /\ 0 < vz v /\ 0 <= opaque_sky_cover cur <= 1 /\ 0 <= relative_humidity cur <= 1 /\
  direct_diffuse_from_cloud_generic s v cur (Some nx) (Some pv) th = Ok (Some d, f, g) /\ 11 / 10 * g < d * vz v /\ f = 0.
Proof.
  set (s := mkSolar 0 0 0). set (v := mkV (sqrt 3 / 2) 0 (1 / 2)). set (t := 100).
  set (X := normal_extraterrestrial_radiation (unwrap_solar_time s (Standard t))).
  assert (HX : 1317 <= X <= 1418). { pose proof (extra_bounds (unwrap_solar_time s (Standard t))). fold X in H. lra. }
  set (am := air_mass (PI / 3)).
  assert (Ham : 0 < am).
  { unfold am, air_mass. rewrite cos_PI3. apply Rdiv_lt_0_compat; [lra|]. pose proof (exp_pos (- (1253 / 1000) * ln (93885 / 1000 - to_degrees (PI / 3)))).
    unfold Rpower. lra. }
  set (P := 15 / 10 * 101300 / am).
  set (g := 9 / 80 * X).
  set (dT := (((g + 5949946667 / 10 ^ 9) / (SOLAR_CONSTANT / 2)) - (749833333 / 10 ^ 9 + 43947778 / 10 ^ 9 - 28806125 / 10 ^ 8 - 29925 / 10 ^ 7 * 80)) / (16512222 / 10 ^ 9)).
  set (cur := mkWeather t (20 + dT) 20 0 (Some 0) 0 0 1 (8 / 10) P).
  set (th := mkWeather t 20 20 0 (Some 0) 0 0 1 (8 / 10) P).
  set (br := mkWeather t 20 20 (1 / 2 * X) (Some 0) 0 0 1 (8 / 10) P).
  assert (Em : am * P / 101300 = 15 / 10) by (unfold P; field; lra).
  assert (V1 : vdot v v = 1). { unfold vdot, v; cbn. pose proof (sqrt_sqrt 3 ltac:(lra)). lra. }
  assert (G : estimate_global_horizontal_radiation v 1 (20 + dT) 20 0 (8 / 10) = g).
  { unfold estimate_global_horizontal_radiation. cbv zeta. cbn [vz v].
    match goal with |- context[Rltb 0 ?x] => replace x with g end.
    - destruct (Rltb 0 g) eqn:Z; [reflexivity|apply Rltb_false in Z; unfold g in *; lra].
    - unfold dT, SOLAR_CONSTANT. field. }
  set (kt := 225 / 1000).
  assert (Kt : hourly_clearness_index s (Standard t) (g / (1 / 2)) = kt). { unfold hourly_clearness_index. fold X. unfold g, kt. field. lra. }
  set (e1 := exp (- (14 / 10) / (9 / 10 + 94 / 10 / (15 / 10)))).
  assert (E1 : 813 / 1000 <= e1 <= 1).
  { split.
    - unfold e1. replace (- (14 / 10) / (9 / 10 + 94 / 10 / (15 / 10))) with (- (42 / 215)) by field.
      pose proof (exp_quarter_lower (- (42 / 215)) ltac:(lra)). simpl in H. lra.
    - unfold e1. apply exp_le_1. replace (- (14 / 10) / (9 / 10 + 94 / 10 / (15 / 10))) with (- (42 / 215)) by field. lra. }
  assert (Kp : kt_prime kt (15 / 10) = kt / (1031 / 1000 * e1 + 1 / 10)) by reflexivity.
  assert (Kp1 : 0 <= kt_prime kt (15 / 10) <= 24 / 100).
  { rewrite Kp. split; [apply Rle_div_r || (unfold Rdiv; apply Rmult_le_pos; [unfold kt; lra|left; apply Rinv_0_lt_compat; lra])|].
    apply Rmult_le_reg_r with (1031 / 1000 * e1 + 1 / 10); [lra|]. unfold Rdiv at 1. rewrite Rmult_assoc, Rinv_l by lra. unfold kt. lra. }
  assert (Ko : 8 / 10 <= kt_prime 1 (15 / 10)).
  { unfold kt_prime. fold e1. apply Rmult_le_reg_r with (1031 / 1000 * e1 + 1 / 10); [lra|]. replace (1 / (1031 / 1000 * e1 + 1 / 10) * (1031 / 1000 * e1 + 1 / 10)) with 1 by (field; lra). lra. }
  set (e2 := exp ((- (28 / 100) + 932 / 1000 * kt - 2048 / 1000 * kt ^ 2) * (15 / 10))).
  assert (E2 : 0 < e2 <= 777 / 1000).
  { split; [apply exp_pos|]. unfold e2. replace ((- (28 / 100) + 932 / 1000 * kt - 2048 / 1000 * kt ^ 2) * (15 / 10)) with (- (26097 / 100000)) by (unfold kt; field).
    pose proof (exp_neg_upper (26097 / 100000) ltac:(lra)). set (y := exp _) in *. clearbody y. simpl in H. lra. }
  set (dd := X * ((886 / 1000 - 122 / 1000 * (15 / 10) + 121 / 10000 * (15 / 10) ^ 2 - 653 / 10 ^ 6 * (15 / 10) ^ 3 + 14 / 10 ^ 6 * (15 / 10) ^ 4)
     - (512 / 1000 - 156 / 100 * kt + 2286 / 1000 * kt ^ 2 - 2222 / 1000 * kt ^ 3 + (37 / 100 + 962 / 1000 * kt) * e2))).
  assert (Dd : X * (205 / 10000) <= dd). { unfold dd, kt. apply Rmult_le_compat_l; simpl; lra. }
  assert (Az : Rltb (80 * PI / 180) (acos (vz v)) = false).
  { apply Rltb_false. cbn [vz v]. rewrite acos_half. pose proof PI_RGT_0. lra. }
  exists s, v, cur, br, br, th, (IZR 12494170 / 10 ^ 6 * dd), 0, g.
  split; [exact V1|]. split; [cbn; lra|]. split; [cbn; lra|]. split; [cbn; lra|].
  assert (F : IZR 12494170 / 10 ^ 6 * dd * vz v - 11 / 10 * g > 0).
  { cbn [vz v]. unfold g. simpl. nra. }
  split; [|split; [lra|reflexivity]].
  unfold direct_diffuse_from_cloud_generic. cbn [opaque_sky_cover dry_bulb_temperature wind_speed relative_humidity cur th]. rewrite G.
  unfold perez_direct_normal_radiation. rewrite Az. cbn [day dew_point_temperature global_horizontal_radiation pressure br cur].
  cbn [vz v]. rewrite acos_half. fold am. rewrite Em, Kt.
  rewrite (clamp_id 0 1 kt) by (unfold kt; lra). rewrite (clamp_id 0 1 (kt_prime kt (15 / 10))) by lra.
  replace (hourly_clearness_index s (Standard t) (1 / 2 * X / (1 / 2))) with 1. 2: { unfold hourly_clearness_index. fold X. field. lra. }
  set (kp := kt_prime kt (15 / 10)) in *. set (ko := kt_prime 1 (15 / 10)) in *.
  assert (Db : perez_direct_rad_delta_kt_bin (clamp 0 1 (5 / 10 * (Rabs (kp - ko) + Rabs (kp - ko)))) = Ok 5%nat).
  { assert (Rabs (kp - ko) = ko - kp) by (rewrite Rabs_left; lra). rewrite H.
    pose proof (clamp_in 0 1 (5 / 10 * (ko - kp + (ko - kp))) ltac:(lra)) as Q. set (x := clamp 0 1 _) in *.
    assert (3 / 10 < x). { unfold x, clamp. destruct (Rltb _ 0) eqn:Z; [apply Rltb_true in Z; lra|]. destruct (Rltb 1 _) eqn:Z2; [lra|lra]. }
    unfold perez_direct_rad_delta_kt_bin. rleb; try (exfalso; lra); reflexivity. }
  assert (Kb : perez_direct_rad_kt_bin kp = Ok 0%nat). { unfold perez_direct_rad_kt_bin. rleb; try (exfalso; lra); reflexivity. }
  assert (Zb : perez_direct_rad_zeta_bin (PI / 3) = Ok 3%nat).
  { pose proof PI_RGT_0. unfold perez_direct_rad_zeta_bin. rleb; try (exfalso; lra); reflexivity. }
  assert (Wb : perez_direct_rad_w_bin (exp (7 / 100 * 20 - 75 / 1000)) = Ok 3%nat).
  { replace (7 / 100 * 20 - 75 / 1000) with (1325 / 1000) by field. pose proof (exp_quarter_lower (1325 / 1000) ltac:(lra)) as Q.
    set (x := exp (1325 / 1000)) in *. clearbody x. assert (3 < x) by (simpl in Q; lra). unfold perez_direct_rad_w_bin. rleb; try (exfalso; lra); reflexivity. }
  rewrite Kb. cbn [bind]. rewrite Zb. cbn [bind]. rewrite Wb. cbn [bind]. rewrite Db. cbn [bind].
  replace (perez_direct_rad_coefs 0 3 3 5) with (Ok (IZR 12494170 / 10 ^ 6)) by reflexivity. cbn [bind].
  unfold disc_direct_solar. rewrite Kt. cbn [vz v]. rewrite acos_half.
  replace (Rltb kt 0) with false. 2: { symmetry. apply Rltb_false. unfold kt. lra. }
  rewrite (clamp_id 0 1 kt) by (unfold kt; lra).
  replace (Rltb (80 * PI / 180) (PI / 3)) with false. 2: { symmetry. apply Rltb_false. pose proof PI_RGT_0. lra. }
  replace (Rltb (6 / 10) kt) with false. 2: { symmetry. apply Rltb_false. unfold kt. lra. }
  fold am. rewrite Em. destruct (Req_EM_T kt 0) as [B|_]; [exfalso; unfold kt in B; lra|].
  fold e2. replace (g / (1 / 2) / kt) with X. 2: { unfold g, kt. field. } fold dd.
  destruct (Rltb dd 0) eqn:Z; [apply Rltb_true in Z; lra|]. cbn [option_map]. cbn [bind].
  rewrite Rmax_right; [reflexivity|]. cbn [vz v] in F. unfold g in *. lra.
Qed.

(** C76. The same swap, seen in the table: the steadiest sky with one more class of moisture shares its coefficient with the most changing
    sky of the class below, and whatever the weather no entry after the twentieth of a row is ever read. *)
Theorem C76_classes_share : forall k z w : nat,
  perez_direct_rad_coefs k z w 5 = perez_direct_rad_coefs k z (S w) 0.
Proof. intros k z w. unfold perez_direct_rad_coefs. replace (S w * 5 + 0)%nat with (w * 5 + 5)%nat by lia. reflexivity. Qed.
Theorem C76_entries_never_read : forall (x y : R) (w d : nat), 0 <= x -> 0 <= y <= 1 ->
  perez_direct_rad_w_bin x = Ok w -> perez_direct_rad_delta_kt_bin y = Ok d -> (w * 5 + d <= 20)%nat.
Proof.
  intros x y w d H1 H2 E1 E2. destruct (w_bin_ok x H1) as (w' & F1 & L1). destruct (delta_bin_ok y H2) as (d' & F2 & L2).
  assert (w' = w) by congruence. assert (d' = d) by congruence. lia.
Qed.
Example C76_entries_example : exists x y, 0 <= x /\ 0 <= y <= 1 /\ perez_direct_rad_w_bin x = Ok 3%nat /\ perez_direct_rad_delta_kt_bin y = Ok 5%nat.
Proof.
  exists 4, 1. split; [lra|]. split; [lra|]. split; [unfold perez_direct_rad_w_bin|unfold perez_direct_rad_delta_kt_bin]; rleb; try (exfalso; lra); reflexivity.
Qed.

Lemma cos_lower x : -2 <= x <= 2 -> 1 - x * x / 2 <= cos x.
Proof.
  intros H. destruct (pre_cos_bound x 0 ltac:(lra) ltac:(lra)) as [K _]. unfold cos_approx, cos_term in K. cbn in K. field_simplify in K. field_simplify. exact K.
Qed.
(** A clear and dry noon: the radiation written is more than 100 W/m2. *)
Example C76_clear_noon : exists (s : solar) (data out : list weather) (w : weather),
  - (PI / 2) < latitude s < PI / 2 /\ (forall w, In w data -> 0 < pressure w) /\
  fill_solar_radiation_data s data = Ok out /\ nth_error out 0 = Some w /\ 100 < global_horizontal_radiation w /\
  exists d, direct_normal_radiation w = Some d.
Proof.
  set (n := INR 100 + 1 / 2). set (s := mkSolar (8 / 10) (to_radians (equation_of_time n / 4)) 0).
  assert (Hl : - (PI / 2) < latitude s < PI / 2) by (cbn; pose proof PI_bounds; lra).
  set (r := mkWeather n 20 5 0 (Some 0) 0 0 0 (1 / 2) 101300). set (data := [r]).
  destruct (fill_ok s data Hl) as (out & E & N & A). destruct (A 0%nat r eq_refl) as (c & A1 & A2).
  exists s, data, out, (write_solar r c). split; [exact Hl|]. split. { intros w [<-|[]]; cbn; lra. } split; [exact E|]. split; [exact A1|].
  assert (U : unwrap_solar_time s (Standard n) = n).
  { cbn [unwrap_solar_time]. unfold solar_standard_time_difference, s; cbn [standard_meridian longitude]. unfold to_degrees, to_radians.
    pose proof PI_RGT_0. field. lra. }
  assert (P : sun_position s (Standard n) = sun_position s (Solar n)) by (unfold sun_position; rewrite U; reflexivity).
  pose proof (declination_small n) as D. set (x := 8 / 10 - declination n). assert (Hx : 31 / 100 <= x <= 129 / 100) by (unfold x; lra).
  assert (C1 : cos x <= 9999 / 10000). { pose proof (cos_upper x ltac:(lra)). assert (961 / 10000 <= x * x <= 2) by nra. nra. }
  assert (C0 : 16 / 100 < cos x). { pose proof (cos_lower x ltac:(lra)). nra. }
  pose proof (C74_noon s 100 Hl) as Q. cbv zeta in Q. fold n in Q. cbn [latitude s] in Q. fold x in Q. specialize (Q ltac:(lra)).
  assert (G : 100 < global_horizontal_radiation (write_solar r c)).
  { unfold solar_data in A2. change (day r) with n in A2. rewrite P, Q in A2. cbn [Nat.leb bind] in A2. unfold direct_diffuse_from_cloud_generic in A2.
    match type of A2 with bind ?e _ = _ => destruct e as [o| |]; cbn [bind] in A2; try discriminate end. injection A2 as <-.
    cbn [write_solar snd global_horizontal_radiation]. unfold estimate_global_horizontal_radiation, SOLAR_CONSTANT. cbv zeta.
    cbn [opaque_sky_cover dry_bulb_temperature wind_speed relative_humidity vz r].
    match goal with |- context[Rltb 0 ?y] => assert (L : 100 < y) by (simpl; nra); destruct (Rltb 0 y) eqn:Z; [exact L|apply Rltb_false in Z; lra] end. }
  split; [exact G|]. destruct (C76_numbers_partial s data out 0 _ Hl E A1 ltac:(lra)) as (d & F & _). eauto.
Qed.

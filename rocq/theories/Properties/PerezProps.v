(** C78, C79: the sky vector of Perez's model (weather/src/solar/perez.rs). *)
From Coq Require Import List Arith ZArith Reals Bool Lra Lia Psatz Permutation Sorted.
From Verif.Common Require Import Base Flt.
From Verif.Geometry Require Import Vec.
From Verif.Weather Require Import SunModel SkyModel SkyProofs PerezModel PerezProofs.
From Verif.Properties Require Import SkyProps SunProps RadiationProps.
Import ListNotations.
Open Scope R_scope.
Open Scope list_scope.

Lemma the_bins m : (0 < m)%nat -> (forall b, (b < n_bins (the_sky m))%nat ->
  bin_dir (the_sky m) b = Ok (centre (the_sky m) b) /\ bin_solid_angle (the_sky m) b = Ok (omega (the_sky m) b) /\ 0 < omega (the_sky m) b).
Proof.
  intros Hm b Hb. pose proof (new_ok m Hm) as E. destruct (C43_round_trip m _ b E Hb) as (c & C & _). destruct (C43_solid_angles m _ E) as (f & F & _).
  destruct (F b Hb) as [F1 F2]. unfold centre, omega. rewrite C, F1. auto.
Qed.
Lemma first_row m k : (0 < m)%nat -> (k < 30 * m)%nat ->
  centre (the_sky m) (S k) = mkV (sin (2 * PI / INR (30 * m) * INR k) * cos (row_height m / 2)) (cos (2 * PI / INR (30 * m) * INR k) * cos (row_height m / 2))
    (sin (row_height m / 2)).
Proof.
  intros Hm Hk. assert (C0 : cnt m 0 = (30 * m)%nat). { unfold cnt. rewrite Nat.div_small by exact Hm. cbn [nth TNAZ]. lia. }
  assert (B : (1 <= S k < 144 * m ^ 2 + 1)%nat) by (cbn [Nat.pow]; nia).
  destruct (bins_row_ok m (S k) Hm B) as (r & Hr & Br & Er). assert (r = 0%nat). { apply (row_unique m r 0 (S k) Br). cbn [cum]. rewrite C0. lia. } subst r.
  unfold centre, bin_dir. cbn [n_bins the_sky mf]. destruct (Nat.eqb_spec (S k) 0); [lia|]. destruct (Nat.eqb_spec (S k) (144 * m ^ 2 + 2 - 1)); [lia|].
  destruct (Nat.ltb_spec (144 * m ^ 2 + 2) (S k)); [lia|]. rewrite Er. cbn [bind]. unfold row_altitude. cbn [n_rows the_sky mf].
  destruct (Nat.eqb_spec 0 (7 * m + 1 - 1)); [lia|]. rewrite raccum_ok by lia. cbn [bind]. rewrite bins_in_row_ok by lia. cbn [bind cum].
  destruct (Nat.ltb_spec (S k) (0 + 1)); [lia|]. rewrite C0. replace (S k - 0 - 1)%nat with k by lia.
  replace ((INR 0 * row_height m + (INR 0 + 1) * row_height m) / 2) with (row_height m / 2) by (cbn [INR]; field). reflexivity.
Qed.
Lemma turn_mod n k x : (0 < n)%nat -> cos (2 * PI / INR n * INR (k mod n) - x) = cos (2 * PI / INR n * INR k - x).
Proof.
  intros Hn. apply lt_INR in Hn as NR. change (INR 0) with 0 in NR. pose proof (Nat.div_mod k n ltac:(lia)) as D.
  rewrite D at 2. rewrite plus_INR, mult_INR.
  replace (2 * PI / INR n * (INR n * INR (k / n) + INR (k mod n)) - x) with (2 * PI / INR n * INR (k mod n) - x + 2 * INR (k / n) * PI) by (field; lra).
  symmetry. apply cos_period.
Qed.
(** four patches next to the horizon face the sun *)
Lemma near_sun m v : (0 < m)%nat -> vx v * vx v + vy v * vy v + vz v * vz v = 1 -> 0 <= vz v ->
  exists near, NoDup near /\ length near = 4%nat /\ forall b, In b near -> (b < n_bins (the_sky m))%nat /\ 0 < vdot (centre (the_sky m) b) v.
Proof.
  intros Hm U Hz. pose proof PI_RGT_0 as PP. set (n := (30 * m)%nat). assert (Hn : (30 <= n)%nat) by (unfold n; lia).
  pose proof (row_angle m 1 ltac:(lia)) as A7. cbn [INR] in A7. pose proof (height_pos m) as HP.
  assert (CA : 0 < cos (row_height m / 2)) by (apply cos_gt_0; lra). assert (SA : 0 < sin (row_height m / 2)) by (apply sin_gt_0; lra).
  assert (Q : exists a q, 0 <= q /\ vx v = q * sin a /\ vy v = q * cos a /\ 0 <= a < 2 * PI /\ 0 < q + vz v).
  { destruct (Req_dec (vx v) 0) as [X|X]; [destruct (Req_dec (vy v) 0) as [Y|Y]|].
    - exists 0, 0. rewrite X, Y in *. repeat split; try lra. nra.
    - destruct (atan2_polar (vx v) (vy v) ltac:(tauto)) as (q & Hq & Ex & Ey & Ra). destruct (Rlt_dec (atan2 (vx v) (vy v)) 0).
      + exists (atan2 (vx v) (vy v) + 2 * PI), q. rewrite sin_plus, cos_plus, sin_2PI, cos_2PI, !Rmult_1_r, !Rmult_0_r, Rplus_0_r, Rminus_0_r. repeat split; auto; lra.
      + exists (atan2 (vx v) (vy v)), q. repeat split; auto; lra.
    - destruct (atan2_polar (vx v) (vy v) ltac:(tauto)) as (q & Hq & Ex & Ey & Ra). destruct (Rlt_dec (atan2 (vx v) (vy v)) 0).
      + exists (atan2 (vx v) (vy v) + 2 * PI), q. rewrite sin_plus, cos_plus, sin_2PI, cos_2PI, !Rmult_1_r, !Rmult_0_r, Rplus_0_r, Rminus_0_r. repeat split; auto; lra.
      + exists (atan2 (vx v) (vy v)), q. repeat split; auto; lra. }
  destruct Q as (a & q & Hq & Ex & Ey & Ha & Hqz). assert (NR : 30 <= INR n). { apply le_INR in Hn. replace (INR 30) with 30 in Hn by (rewrite INR_IZR_INZ; reflexivity). exact Hn. }
  set (w := 2 * PI / INR n). assert (Hw : 0 < w) by (apply Rdiv_lt_0_compat; lra). assert (NW : INR n * w = 2 * PI) by (unfold w; field; lra).
  assert (W15 : w <= PI / 15). { assert (30 * w <= INR n * w) by (apply Rmult_le_compat_r; lra). lra. }
  destruct (floor_nat (a / w)) as (k0 & K). { apply Rmult_le_pos; [lra|]. left. apply Rinv_0_lt_compat. exact Hw. }
  assert (KW : INR k0 * w <= a < (INR k0 + 1) * w).
  { destruct K as [K1 K2]. split; [apply (Rmult_le_compat_r w) in K1; [|lra]|apply (Rmult_lt_compat_r w) in K2; [|lra]]; replace (a / w * w) with a in * by (field; lra); lra. }
  assert (Face : forall j, (j < 4)%nat -> 0 < vdot (centre (the_sky m) (S ((k0 + j) mod n))) v).
  { intros j Hj. assert (Hk : ((k0 + j) mod n < n)%nat) by (apply Nat.mod_upper_bound; lia). rewrite first_row by (try assumption; unfold n in Hk; lia). fold n.
    assert (C : 0 < cos (w * INR ((k0 + j) mod n) - a)).
    { unfold w. rewrite turn_mod by lia. fold w. rewrite plus_INR. assert (0 <= INR j <= 3).
      { split; [apply pos_INR|]. assert (L : (j <= 3)%nat) by lia. apply le_INR in L. cbn [INR] in L. lra. }
      apply cos_gt_0; nra. }
    unfold vdot; cbn [vx vy vz]. rewrite Ex, Ey. rewrite cos_minus in C.
    replace (sin (2 * PI / INR n * INR ((k0 + j) mod n))) with (sin (w * INR ((k0 + j) mod n))) by reflexivity.
    replace (cos (2 * PI / INR n * INR ((k0 + j) mod n))) with (cos (w * INR ((k0 + j) mod n))) by reflexivity.
    set (t := w * INR ((k0 + j) mod n)) in *. clearbody t.
    replace (sin t * cos (row_height m / 2) * (q * sin a) + cos t * cos (row_height m / 2) * (q * cos a) + sin (row_height m / 2) * vz v)
      with (cos (row_height m / 2) * (q * (cos t * cos a + sin t * sin a)) + sin (row_height m / 2) * vz v) by ring.
    destruct (Req_dec q 0) as [->|Nq]; [assert (0 < vz v) by lra; nra|]. assert (0 < q) by lra. assert (0 < q * (cos t * cos a + sin t * sin a)) by (apply Rmult_lt_0_compat; assumption). nra. }
  exists (map (fun j => S ((k0 + j) mod n)) (seq 0 4)). split; [|split; [reflexivity|]].
  - cbn [seq map]. assert (M : forall i j, (i < 4)%nat -> (j < 4)%nat -> S ((k0 + i) mod n) = S ((k0 + j) mod n) -> i = j).
    { intros i j Hi Hj E. assert (E' : ((k0 + i) mod n = (k0 + j) mod n)%nat) by congruence. clear E.
      pose proof (Nat.div_mod (k0 + i) n ltac:(lia)) as D1. pose proof (Nat.div_mod (k0 + j) n ltac:(lia)) as D2. rewrite E' in D1.
      set (x := ((k0 + i) / n)%nat) in *. set (y := ((k0 + j) / n)%nat) in *. destruct (lt_eq_lt_dec x y) as [[L|Exy]|G]; [exfalso; assert (n * S x <= n * y)%nat by (apply Nat.mul_le_mono_l; lia); lia|rewrite Exy in D1; lia|exfalso; assert (n * S y <= n * x)%nat by (apply Nat.mul_le_mono_l; lia); lia]. }
    repeat constructor; cbn [In]; intros H;
      repeat match type of H with _ \/ _ => destruct H as [H|H] | False => contradiction end; 
      match type of H with S ((k0 + ?i) mod n) = S ((k0 + ?j) mod n) => assert (i = j) by (apply M; [lia|lia|exact H]); lia end.
  - intros b Hb. apply in_map_iff in Hb. destruct Hb as (j & <- & Hj). apply in_seq in Hj. split; [|apply Face; lia].
    cbn [n_bins the_sky]. pose proof (Nat.mod_upper_bound (k0 + j) n ltac:(lia)). cbn [Nat.pow]. set (x := ((k0 + j) mod n)%nat) in *. clearbody x. unfold n in H. assert (30 * m <= 144 * (m * (m * 1)))%nat by nia. lia.
Qed.

(** ** The pieces of a sky vector *)
Lemma category_small e : (clearness_category e < 8)%nat.
Proof. unfold clearness_category. repeat match goal with |- context[Rltb ?a ?b] => destruct (Rltb a b) end; lia. Qed.
Lemma ratios_ok i : (i < 8)%nat -> forall p c b, (exists x, diffuse_illuminance_ratio p c b i = Ok x) /\ (exists x, direct_illuminance_ratio p c b i = Ok x /\ 0 <= x).
Proof.
  intros H p c b. unfold diffuse_illuminance_ratio, direct_illuminance_ratio. split.
  - destruct (nth_error DIFFUSE_TABLE i) as [[[[t0 t1] t2] t3]|] eqn:E; [eauto|]. apply nth_error_None in E. cbn in E. lia.
  - destruct (nth_error DIRECT_TABLE i) as [[[[t0 t1] t2] t3]|] eqn:E; [|apply nth_error_None in E; cbn in E; lia].
    eexists. split; [reflexivity|]. apply clamp_in. lra.
Qed.
Lemma params_ok z e d : exists p, calc_params z e d = Ok p.
Proof.
  unfold calc_params. cbv zeta. destruct (nth_error PEREZ_TABLE (clearness_category e)) eqn:E.
  - destruct (negb _); eauto.
  - apply nth_error_None in E. pose proof (category_small e). cbn in E. lia.
Qed.
Lemma norm_ok r f n : forall k t, (forall b, (k <= b < k + n)%nat -> bin_dir r b = Ok (centre r b) /\ bin_solid_angle r b = Ok (omega r b)) ->
  norm_loop r f (seq k n) t = Ok (t + sumf (fun b => Rmax (f (centre r b)) 0 * omega r b * vz (centre r b)) (seq k n)).
Proof.
  induction n as [|n IH]; intros k t H; cbn [seq norm_loop]. { f_equal. cbn. ring. }
  destruct (H k ltac:(lia)) as [H1 H2]. rewrite H1. cbn [bind]. rewrite H2. cbn [bind]. rewrite IH by (intros; apply H; lia). f_equal. cbn [sumf fold_right]. unfold sumf.
  replace (if Rltb (f (centre r k)) 0 then 0 else f (centre r k)) with (Rmax (f (centre r k)) 0); [ring|].
  destruct (Rltb_spec (f (centre r k)) 0); [rewrite Rmax_right by lra|rewrite Rmax_left by lra]; reflexivity.
Qed.

(** what the parameters of the sky are on a day with the sun at [v] *)
Definition day_params (s : solar) (date diff dir : R) (v : pt) : res params :=
  let zenith := limited_zenith (vz v) in
  calc_params zenith (clamped_clearness diff dir zenith)
    (clamp (1 / 100) (9 * 10 ^ 9) (sky_brightness diff (air_mass zenith) (normal_extraterrestrial_radiation (unwrap_solar_time s (Standard date))))).
(** the sum of the patches of the coarse sky *)
Definition coarse_sum (p : params) (v : pt) : R :=
  sumf (fun b => Rmax (relative_sky p v (centre (the_sky 1) b)) 0 * omega (the_sky 1) b * vz (centre (the_sky 1) b)) (seq 1 145).
Lemma sky_func_ok u s date dew diff dir v : sun_position s (Standard date) = Some v ->
  exists f, get_sky_func_standard_time u s date dew diff dir = Ok f /\
  (u = UnitsSolar -> exists p, day_params s date diff dir v = Ok p /\
    forall d, f d = relative_sky p v d * (if Rltb (1 / 10 ^ 4) (coarse_sum p v) then diff / coarse_sum p v else 0)).
Proof.
  intros P. unfold get_sky_func_standard_time. cbv zeta. rewrite P.
  destruct (ratios_ok _ (category_small (clamped_clearness diff dir (limited_zenith (vz v)))) (precipitable_water_content dew) (vz v)
     (clamp (1 / 100) (9 * 10 ^ 9) (sky_brightness diff (air_mass (limited_zenith (vz v))) (normal_extraterrestrial_radiation (unwrap_solar_time s (Standard date)))))) as [(x & Ex) _].
  rewrite Ex. cbn [bind]. fold (day_params s date diff dir v). destruct (params_ok (limited_zenith (vz v)) (clamped_clearness diff dir (limited_zenith (vz v)))
    (clamp (1 / 100) (9 * 10 ^ 9) (sky_brightness diff (air_mass (limited_zenith (vz v))) (normal_extraterrestrial_radiation (unwrap_solar_time s (Standard date)))))) as (p & Ep).
  change (day_params s date diff dir v = Ok p) in Ep. rewrite Ep. cbn [bind].
  rewrite (new_ok 1) by lia. cbn [bind]. change (n_bins (the_sky 1) - 1)%nat with 145%nat. rewrite norm_ok.
  2: { intros b Hb. destruct (the_bins 1 ltac:(lia) b) as (B1 & B2 & _); [change (n_bins (the_sky 1)) with 146%nat; lia|auto]. }
  cbn [bind]. rewrite Rplus_0_l. fold (coarse_sum p v). eexists. split; [reflexivity|]. intros ->. exists p. split; [first [exact Ep|reflexivity]|]. intros d.
  destruct (Rltb (1 / 10 ^ 4) (coarse_sum p v)) eqn:Q; [|reflexivity]. apply Rltb_true in Q. unfold WHTEFFICACY. field. lra.
Qed.

(** the direct and diffuse radiation or illuminance, over [WHTEFFICACY] *)
Definition sun_part (m : nat) (v : pt) (dir_illum : R) (i : nat) : R :=
  match closest_loop (the_sky m) v (seq 0 (n_bins (the_sky m))) (repeat (0%nat, -1) 4) with
  | Ok cl => sumf (fun c => if (i =? fst c)%nat then sun_value (the_sky m) dir_illum (sumf weight cl) c else 0) cl
  | _ => 0
  end.
Definition day_efficacy (s : solar) (date dew diff dir : R) (v : pt) : res R :=
  let zenith := limited_zenith (vz v) in
  direct_illuminance_ratio (precipitable_water_content dew) zenith
    (clamp (1 / 100) (9 * 10 ^ 9) (sky_brightness diff (air_mass zenith) (normal_extraterrestrial_radiation (unwrap_solar_time s (Standard date)))))
    (clearness_category (clamped_clearness diff dir zenith)).
Lemma update_day vec m s date dew diff dir u albedo sk su v :
  (0 < m)%nat -> - (PI / 2) < latitude s < PI / 2 -> length vec = n_bins (the_sky m) -> 1 / 10 ^ 4 <= dir + diff -> sun_position s (Standard date) = Some v ->
  exists D E f out, update_sky_vec vec m s date dew diff dir u albedo sk su = Ok out /\ length out = length vec /\
    get_sky_func_standard_time u s date dew diff dir = Ok f /\
    ((u = UnitsSolar -> D = diff * WHTEFFICACY /\ E = dir * WHTEFFICACY) /\ (u = UnitsVisible -> exists y, day_efficacy s date dew diff dir v = Ok y /\ E = dir * y)) /\ (0 <= dir -> 0 <= E) /\
    (forall vec' albedo' sk' su', length vec' = n_bins (the_sky m) -> exists out', update_sky_vec vec' m s date dew diff dir u albedo' sk' su' = Ok out' /\ length out' = length vec' /\
      forall i, (i < length vec')%nat -> nth i out' 0 = nth i vec' 0 + (if Rltb (1 / 10 ^ 8) albedo' then if (i =? 0)%nat then albedo' * (D + E * vz v) / PI / WHTEFFICACY else 0 else 0)
        + (if sk' then if (1 <=? i)%nat then f (centre (the_sky m) i) else 0 else 0) + (if su' && Rltb (1 / 10 ^ 4) dir then sun_part m v E i else 0)).
Proof.
  intros Hm Hl Lv Day P. destruct (C74_unit s _ v Hl P) as [U Hz]. set (N := n_bins (the_sky m)) in *.
  assert (N2 : (2 <= N)%nat) by (unfold N; cbn [n_bins the_sky]; lia).
  destruct (sky_func_ok u s date dew diff dir v P) as (f & Ef & _).
  set (zen := limited_zenith (vz v)). set (br := clamp (1 / 100) (9 * 10 ^ 9) (sky_brightness diff (air_mass zen) (normal_extraterrestrial_radiation (unwrap_solar_time s (Standard date))))).
  set (ca := clearness_category (clamped_clearness diff dir zen)).
  destruct (ratios_ok ca (category_small _) (precipitable_water_content dew) (vz v) br) as [(x & Ex) _].
  destruct (ratios_ok ca (category_small _) (precipitable_water_content dew) zen br) as [_ (y & Ey & Hy)].
  set (D := match u with UnitsSolar => diff * WHTEFFICACY | UnitsVisible => diff * x end).
  set (E := match u with UnitsSolar => dir * WHTEFFICACY | UnitsVisible => dir * y end).
  assert (All : forall vec' albedo' sk' su', length vec' = N -> exists out', update_sky_vec vec' m s date dew diff dir u albedo' sk' su' = Ok out' /\ length out' = length vec' /\
      forall i, (i < length vec')%nat -> nth i out' 0 = nth i vec' 0 + (if Rltb (1 / 10 ^ 8) albedo' then if (i =? 0)%nat then albedo' * (D + E * vz v) / PI / WHTEFFICACY else 0 else 0)
        + (if sk' then if (1 <=? i)%nat then f (centre (the_sky m) i) else 0 else 0) + (if su' && Rltb (1 / 10 ^ 4) dir then sun_part m v E i else 0)).
  { intros vec' albedo' sk' su' L'. unfold update_sky_vec. rewrite (new_ok m Hm). cbn [bind]. fold N. rewrite L', Nat.eqb_refl. cbn [negb].
    destruct (Rltb (dir + diff) (1 / 10 ^ 4)) eqn:Q; [apply Rltb_true in Q; lra|]. cbv zeta. rewrite P. fold zen. fold br. fold ca. rewrite Ex. cbn [bind]. rewrite Ey. cbn [bind].
    fold D. fold E.
    assert (G : exists v1, (if Rltb (1 / 10 ^ 8) albedo' then add_to_element vec' 0 (albedo' * (if Rltb 0 (vz v) then D + E * vz v else D) / PI / WHTEFFICACY) else Ok vec') = Ok v1 /\
      length v1 = N /\ forall i, nth i v1 0 = nth i vec' 0 + (if Rltb (1 / 10 ^ 8) albedo' then if (i =? 0)%nat then albedo' * (D + E * vz v) / PI / WHTEFFICACY else 0 else 0)).
    { replace (if Rltb 0 (vz v) then D + E * vz v else D) with (D + E * vz v). 2: { destruct (Rltb_spec 0 (vz v)); [reflexivity|]. replace (vz v) with 0 by lra. ring. }
      destruct (Rltb (1 / 10 ^ 8) albedo').
      - destruct (add_ok vec' 0 (albedo' * (D + E * vz v) / PI / WHTEFFICACY) ltac:(lia)) as (v1 & E1 & L1 & N1). exists v1. rewrite L1. auto.
      - exists vec'. repeat split; auto. intros i. ring. }
    destruct G as (v1 & G1 & G2 & G3). rewrite G1. cbn [bind]. rewrite Ef.
    assert (S1 : exists v2, (if sk' then do sky_func <- Ok f; sky_loop (the_sky m) sky_func (seq 1 (N - 1)) v1 else Ok v1) = Ok v2 /\ length v2 = N /\
      forall i, (i < N)%nat -> nth i v2 0 = nth i v1 0 + (if sk' then if (1 <=? i)%nat then f (centre (the_sky m) i) else 0 else 0)).
    { destruct sk'; cbn [bind].
      - destruct (sky_ok (the_sky m) f (N - 1) 1 v1) as (v2 & E2 & L2 & N2'). { lia. } { intros b Hb. apply (the_bins m Hm b). unfold N in *. lia. }
        exists v2. split; [exact E2|]. split; [lia|]. intros i Hi. rewrite N2'. replace (i <? 1 + (N - 1))%nat with true by (symmetry; apply Nat.ltb_lt; lia). rewrite andb_true_r. reflexivity.
      - exists v1. repeat split; auto. intros i _. ring. }
    destruct S1 as (v2 & S1 & S2 & S3). rewrite S1. cbn [bind].
    destruct (su' && Rltb (1 / 10 ^ 4) dir).
    - destruct (near_sun m v Hm U Hz) as (near & A1 & A2 & A3).
      destruct (four_closest (the_sky m) v N near) as (cl & B1 & B2 & B3 & B4 & B5); auto. { intros b Hb. apply (the_bins m Hm b Hb). }
      rewrite B1. cbn [bind]. rewrite sumf_fold, Rplus_0_l, sumf_rev.
      destruct (sun_ok (the_sky m) E (sumf weight cl) (rev cl) v2) as (v3 & F1 & F2 & F3).
      { intros c Hc. apply in_rev in Hc. destruct (B4 c Hc) as [C1 _]. split; [lia|]. apply (the_bins m Hm _ C1). }
      exists v3. split; [exact F1|]. split; [lia|]. intros i Hi. rewrite F3, sumf_rev, S3, G3 by lia. unfold sun_part. fold N. rewrite B1. reflexivity.
    - exists v2. split; [reflexivity|]. split; [lia|]. intros i Hi. rewrite S3, G3 by lia. ring. }
  destruct (All vec albedo sk su Lv) as (out & O1 & O2 & _). exists D, E, f, out. split; [exact O1|]. split; [exact O2|]. split; [exact Ef|].
  split. { split; [intros ->; split; reflexivity|]. intros ->. exists y. split; [exact Ey|reflexivity]. } split; [|exact All]. intros Hd. unfold E, WHTEFFICACY. destruct u; nra.
Qed.

(** * C78 *)
(** C78. The vector has one value per patch; a vector of another size is refused; nothing panics but a subdivision of zero. *)
Theorem C78_size : forall (vec : list R) (m : nat) (s : solar) (date dew diff dir : R) (u : sky_units) (albedo : R) (sk su : bool),
  - (PI / 2) < latitude s < PI / 2 -> (1 <= m)%nat ->
  (length vec <> n_bins_of m -> update_sky_vec vec m s date dew diff dir u albedo sk su = Err) /\
  (length vec = n_bins_of m -> exists out, update_sky_vec vec m s date dew diff dir u albedo sk su = Ok out /\ length out = n_bins_of m) /\
  exists out, gen_sky_vec m s date dew diff dir u albedo sk su = Ok out /\ length out = n_bins_of m.
Proof.
  intros vec m s date dew diff dir u albedo sk su Hl Hm. assert (N : n_bins (the_sky m) = n_bins_of m) by reflexivity.
  assert (All : forall vec, length vec = n_bins_of m -> exists out, update_sky_vec vec m s date dew diff dir u albedo sk su = Ok out /\ length out = n_bins_of m).
  { clear vec. intros vec L. destruct (Rlt_dec (dir + diff) (1 / 10 ^ 4)) as [Ni|Ni].
    - unfold update_sky_vec. rewrite (new_ok m) by lia. cbn [bind]. rewrite L, <- N, Nat.eqb_refl. cbn [negb].
      destruct (Rltb_spec (dir + diff) (1 / 10 ^ 4)); [|lra]. destruct (zero_ok (n_bins (the_sky m)) 0 vec) as (o & O1 & O2 & _); [lia|]. exists o. split; [exact O1|lia].
    - destruct (sun_position s (Standard date)) as [v|] eqn:P.
      + destruct (update_day vec m s date dew diff dir u albedo sk su v ltac:(lia) Hl ltac:(lia) ltac:(lra) P) as (D & E & f & o & O1 & O2 & _). exists o. split; [exact O1|lia].
      + unfold update_sky_vec. rewrite (new_ok m) by lia. cbn [bind]. rewrite L, <- N, Nat.eqb_refl. cbn [negb].
        destruct (Rltb (dir + diff) (1 / 10 ^ 4)); [|cbv zeta; rewrite P]; destruct (zero_ok (n_bins (the_sky m)) 0 vec) as (o & O1 & O2 & _); try lia; exists o; (split; [exact O1|lia]). }
  split; [|split; [apply All|]].
  - intros L. unfold update_sky_vec. rewrite (new_ok m) by lia. cbn [bind]. rewrite N. destruct (Nat.eqb_spec (length vec) (n_bins_of m)); [contradiction|]. reflexivity.
  - unfold gen_sky_vec. rewrite (new_ok m) by lia. cbn [bind]. apply All. apply repeat_length.
Qed.

(** C78. At night, that is without radiation or with the sun under the horizon, everything is dark, whatever the vector held. *)
Theorem C78_night : forall (vec out : list R) (m : nat) (s : solar) (date dew diff dir : R) (u : sky_units) (albedo : R) (sk su : bool),
  dir + diff < 1 / 10 ^ 4 \/ sun_position s (Standard date) = None ->
  update_sky_vec vec m s date dew diff dir u albedo sk su = Ok out -> out = repeat 0 (n_bins_of m).
Proof.
  intros vec out m s date dew diff dir u albedo sk su H E. destruct m as [|m]; [discriminate|]. set (M := S m) in *.
  unfold update_sky_vec in E. rewrite (new_ok M) in E by (unfold M; lia). cbn [bind] in E.
  change (n_bins (the_sky M)) with (n_bins_of M) in E. set (N := n_bins_of M) in *.
  destruct (Nat.eqb_spec (length vec) N) as [L|]; [|discriminate]. cbn [negb] in E.
  assert (Z : zero_loop (seq 0 N) vec = Ok out).
  { destruct (Rltb_spec (dir + diff) (1 / 10 ^ 4)) as [_|Ni]; [exact E|]. destruct H as [H|H]; [lra|]. cbv zeta in E. rewrite H in E. exact E. }
  destruct (zero_ok N 0 vec) as (o & O1 & O2 & O3); [lia|]. assert (o = out) by congruence. subst o.
  apply nth_ext with (d := 0) (d' := 0). { rewrite repeat_length. lia. }
  intros i Hi. rewrite O3. rewrite nth_repeat. replace (i <? 0 + N)%nat with true by (symmetry; apply Nat.ltb_lt; lia). reflexivity.
Qed.

(** C78. By day, the vector is the sum of what the ground reflects, the sky and the sun: each adds the same whether the others are
    wanted or not. *)
Theorem C78_parts : forall (m : nat) (s : solar) (date dew diff dir : R) (u : sky_units) (albedo : R) (sk su : bool) (out ground sky sun : list R) (i : nat),
  - (PI / 2) < latitude s < PI / 2 -> (1 <= m)%nat ->
  gen_sky_vec m s date dew diff dir u albedo sk su = Ok out ->
  gen_sky_vec m s date dew diff dir u albedo false false = Ok ground ->
  gen_sky_vec m s date dew diff dir u 0 sk false = Ok sky ->
  gen_sky_vec m s date dew diff dir u 0 false su = Ok sun ->
  nth i out 0 = nth i ground 0 + nth i sky 0 + nth i sun 0.
Proof.
  intros m s date dew diff dir u albedo sk su out gr sky sun i Hl Hm E1 E2 E3 E4. unfold gen_sky_vec in *. rewrite (new_ok m) in * by lia. cbn [bind] in *.
  set (z := repeat 0 (n_bins (the_sky m))) in *.
  destruct (Rlt_dec (dir + diff) (1 / 10 ^ 4)) as [Ni|Ni].
  { rewrite (C78_night _ _ _ _ _ _ _ _ _ _ _ _ (or_introl Ni) E1), (C78_night _ _ _ _ _ _ _ _ _ _ _ _ (or_introl Ni) E2),
      (C78_night _ _ _ _ _ _ _ _ _ _ _ _ (or_introl Ni) E3), (C78_night _ _ _ _ _ _ _ _ _ _ _ _ (or_introl Ni) E4), nth_repeat. ring. }
  destruct (sun_position s (Standard date)) as [v|] eqn:P.
  2: { rewrite (C78_night _ _ _ _ _ _ _ _ _ _ _ _ (or_intror P) E1), (C78_night _ _ _ _ _ _ _ _ _ _ _ _ (or_intror P) E2),
      (C78_night _ _ _ _ _ _ _ _ _ _ _ _ (or_intror P) E3), (C78_night _ _ _ _ _ _ _ _ _ _ _ _ (or_intror P) E4), nth_repeat. ring. }
  assert (Lz : length z = n_bins (the_sky m)) by apply repeat_length.
  destruct (update_day z m s date dew diff dir u albedo sk su v ltac:(lia) Hl Lz ltac:(lra) P) as (D & E & f & o & _ & _ & _ & _ & _ & All).
  destruct (All z albedo sk su Lz) as (o1 & A1 & B1 & C1). destruct (All z albedo false false Lz) as (o2 & A2 & B2 & C2).
  destruct (All z 0 sk false Lz) as (o3 & A3 & B3 & C3). destruct (All z 0 false su Lz) as (o4 & A4 & B4 & C4).
  assert (o1 = out) by congruence. assert (o2 = gr) by congruence. assert (o3 = sky) by congruence. assert (o4 = sun) by congruence. subst o1 o2 o3 o4.
  destruct (Nat.lt_ge_cases i (length z)) as [Hi|Hi]; [|rewrite !nth_overflow by lia; ring].
  rewrite C1, C2, C3, C4 by exact Hi. unfold z. rewrite !nth_repeat.
  replace (Rltb (1 / 10 ^ 8) 0) with false by (symmetry; apply Rltb_false; apply Rlt_le; apply Rdiv_lt_0_compat; lra). cbn [andb]. ring.
Qed.

(** C78. [update_sky_vec] does not write the sky over what the vector held but adds to it: two updates in a row do not give the sky of
    the second hour but the sum of both. *)
Theorem C78_update_adds : forall (vec sky out : list R) (m : nat) (s : solar) (date dew diff dir : R) (u : sky_units) (albedo : R) (sk su : bool) (v : pt),
  - (PI / 2) < latitude s < PI / 2 -> (1 <= m)%nat -> 1 / 10 ^ 4 <= dir + diff -> sun_position s (Standard date) = Some v ->
  gen_sky_vec m s date dew diff dir u albedo sk su = Ok sky -> update_sky_vec vec m s date dew diff dir u albedo sk su = Ok out ->
  forall i, nth i out 0 = nth i vec 0 + nth i sky 0.
Proof.
  intros vec sky out m s date dew diff dir u albedo sk su v Hl Hm Day P E1 E2 i.
  assert (Lv : length vec = n_bins (the_sky m)).
  { destruct (C78_size vec m s date dew diff dir u albedo sk su Hl Hm) as [W _]. destruct (Nat.eq_dec (length vec) (n_bins_of m)) as [L|L]; [exact L|]. rewrite (W L) in E2. discriminate. }
  unfold gen_sky_vec in E1. rewrite (new_ok m) in E1 by lia. cbn [bind] in E1. set (z := repeat 0 (n_bins (the_sky m))) in *.
  assert (Lz : length z = n_bins (the_sky m)) by apply repeat_length.
  destruct (update_day z m s date dew diff dir u albedo sk su v ltac:(lia) Hl Lz ltac:(lra) P) as (D & E & f & o & _ & _ & _ & _ & _ & All).
  destruct (All z albedo sk su Lz) as (o1 & A1 & B1 & C1). destruct (All vec albedo sk su Lv) as (o2 & A2 & B2 & C2).
  assert (o1 = sky) by congruence. assert (o2 = out) by congruence. subst o1 o2.
  destruct (Nat.lt_ge_cases i (length z)) as [Hi|Hi]; [|rewrite !nth_overflow by lia; ring].
  rewrite C1, C2 by lia. unfold z. rewrite nth_repeat. ring.
Qed.

Lemma sun_part_spec m s t v E : - (PI / 2) < latitude s < PI / 2 -> (1 <= m)%nat -> sun_position s t = Some v ->
  exists cl, length cl = 4%nat /\ NoDup (map fst cl) /\
    (forall c, In c cl -> (1 <= fst c < n_bins (the_sky m))%nat /\ snd c = vdot (centre (the_sky m) (fst c)) v /\ 0 < snd c <= 1) /\
    (forall b, (b < n_bins (the_sky m))%nat -> ~ In b (map fst cl) -> forall c, In c cl -> vdot (centre (the_sky m) b) v <= snd c) /\
    forall i, sun_part m v E i = sumf (fun c => if (i =? fst c)%nat then sun_value (the_sky m) E (sumf weight cl) c else 0) cl.
Proof.
  intros Hl Hm P. destruct (C74_unit s _ v Hl P) as [U Hz]. destruct (near_sun m v ltac:(lia) U Hz) as (near & A1 & A2 & A3).
  destruct (four_closest (the_sky m) v (n_bins (the_sky m)) near) as (cl & B1 & B2 & B3 & B4 & B5); auto. { intros b Hb. apply (the_bins m ltac:(lia) b Hb). }
  exists cl. split; [exact B2|]. split; [exact B3|]. split; [|split; [exact B5|intros i; unfold sun_part; rewrite B1; reflexivity]].
  intros c Hc. destruct (B4 c Hc) as (C1 & C2 & C3). split; [|split; [exact C2|split; [exact C3|]]].
  - split; [|exact C1]. destruct (fst c) as [|b] eqn:F; [|lia]. exfalso. rewrite C2 in C3. unfold centre, bin_dir in C3. cbn [Nat.eqb] in C3. unfold vdot in C3. cbn in C3. lra.
  - rewrite C2. destruct (C43_round_trip m _ (fst c) (new_ok m ltac:(lia)) C1) as (d & D1 & D2 & _). unfold centre. rewrite D1. apply unit_xy in D2.
    unfold vdot. set (a := vx d) in *. set (b := vy d) in *. set (e := vz d) in *. clearbody a b e.
    pose proof (pow2_ge_0 (a - vx v)). pose proof (pow2_ge_0 (b - vy v)). pose proof (pow2_ge_0 (e - vz v)). nra.
Qed.

(** C78. The ground is a diffuse reflector of everything that falls on it: its radiance times pi is the albedo times the diffuse and
    the direct radiation on the horizontal, whether sky and sun are asked for or not. *)
Theorem C78_ground : forall (m : nat) (s : solar) (date dew diff dir albedo : R) (sk su : bool) (v : pt) (out : list R),
  - (PI / 2) < latitude s < PI / 2 -> (1 <= m)%nat -> 1 / 10 ^ 4 <= dir + diff -> sun_position s (Standard date) = Some v -> 1 / 10 ^ 8 < albedo ->
  gen_sky_vec m s date dew diff dir UnitsSolar albedo sk su = Ok out -> PI * nth 0 out 0 = albedo * (diff + dir * vz v).
Proof.
  intros m s date dew diff dir albedo sk su v out Hl Hm Day P Ha E1. unfold gen_sky_vec in E1. rewrite (new_ok m) in E1 by lia. cbn [bind] in E1. set (z := repeat 0 (n_bins (the_sky m))) in *.
  assert (Lz : length z = n_bins (the_sky m)) by apply repeat_length.
  destruct (update_day z m s date dew diff dir UnitsSolar albedo sk su v ltac:(lia) Hl Lz ltac:(lra) P) as (D & E & f & o & _ & _ & _ & DE & _ & All).
  destruct (proj1 DE eq_refl) as [-> ->]. destruct (All z albedo sk su Lz) as (o1 & A1 & B1 & C1). assert (o1 = out) by congruence. subst o1.
  rewrite C1 by (rewrite Lz; cbn [n_bins the_sky]; lia). unfold z at 1. rewrite nth_repeat.
  destruct (Rltb_spec (1 / 10 ^ 8) albedo); [|lra]. cbn [Nat.eqb Nat.leb].
  destruct (sun_part_spec m s _ v (dir * WHTEFFICACY) Hl Hm P) as (cl & _ & _ & Cl & _ & Sp).
  rewrite Sp. replace (sumf _ cl) with 0.
  2: { rewrite (sumf_ext _ (fun _ => 0 * 0)); [rewrite sumf_scale; ring|]. intros c Hc. destruct (Cl c Hc) as [C0 _]. destruct (Nat.eqb_spec 0 (fst c)); [lia|ring]. }
  pose proof PI_RGT_0. unfold WHTEFFICACY. destruct sk, (su && Rltb (1 / 10 ^ 4) dir); field; lra.
Qed.

(** C78. On the coarse sky, the patches that are not negative light the ground with the diffuse radiation exactly, unless they are all
    (nearly) dark, and then all the patches are left at zero. *)
Theorem C78_diffuse_partial : forall (s : solar) (date dew diff dir : R) (v : pt) (r : sky) (out : list R),
  - (PI / 2) < latitude s < PI / 2 -> 1 / 10 ^ 4 <= dir + diff -> 0 <= diff -> sun_position s (Standard date) = Some v -> new 1 = Ok r ->
  gen_sky_vec 1 s date dew diff dir UnitsSolar 0 true false = Ok out ->
  (forall i, nth i out 0 = 0) \/ sumf (fun b => Rmax (nth b out 0) 0 * omega r b * vz (centre r b)) (seq 1 145) = diff.
Proof.
  intros s date dew diff dir v r out Hl Day Hd P Er E1. rewrite (new_ok 1) in Er by lia. assert (r = the_sky 1) by congruence. subst r.
  unfold gen_sky_vec in E1. rewrite (new_ok 1) in E1 by lia. cbn [bind] in E1. set (z := repeat 0 (n_bins (the_sky 1))) in *.
  assert (Lz : length z = n_bins (the_sky 1)) by apply repeat_length.
  destruct (update_day z 1 s date dew diff dir UnitsSolar 0 true false v ltac:(lia) Hl Lz ltac:(lra) P) as (D & E & f & o & _ & _ & Ef & _ & _ & All).
  destruct (All z 0 true false Lz) as (o1 & A1 & B1 & C1). assert (o1 = out) by congruence. subst o1.
  destruct (sky_func_ok UnitsSolar s date dew diff dir v P) as (f' & Ef' & Sp). assert (f' = f) by congruence. subst f'. destruct (Sp eq_refl) as (p & _ & Fd).
  assert (V : forall i, (i < 146)%nat -> nth i out 0 = if (1 <=? i)%nat then f (centre (the_sky 1) i) else 0).
  { intros i Hi. rewrite C1 by (rewrite Lz; change (n_bins (the_sky 1)) with 146%nat; exact Hi). unfold z. rewrite nth_repeat.
    replace (Rltb (1 / 10 ^ 8) 0) with false by (symmetry; apply Rltb_false; apply Rlt_le; apply Rdiv_lt_0_compat; lra). cbn [andb]. ring. }
  destruct (Rltb (1 / 10 ^ 4) (coarse_sum p v)) eqn:Q.
  - right. apply Rltb_true in Q. assert (C0 : 0 < coarse_sum p v). { assert (0 < 1 / 10 ^ 4) by (apply Rdiv_lt_0_compat; lra). lra. }
    rewrite (sumf_ext _ (fun b => diff / coarse_sum p v * (Rmax (relative_sky p v (centre (the_sky 1) b)) 0 * omega (the_sky 1) b * vz (centre (the_sky 1) b)))).
    + rewrite sumf_scale. fold (coarse_sum p v). field. lra.
    + intros b Hb. apply in_seq in Hb. rewrite V by lia. replace (1 <=? b)%nat with true by (symmetry; apply Nat.leb_le; lia). rewrite Fd.
      set (x := relative_sky p v (centre (the_sky 1) b)). assert (0 <= diff / coarse_sum p v). { apply Rmult_le_pos; [exact Hd|]. left. apply Rinv_0_lt_compat. exact C0. }
      rewrite <- (Rmult_0_l (diff / coarse_sum p v)) at 1. rewrite (Rmult_comm x), (Rmult_comm 0). rewrite RmaxRmult by assumption. ring.
  - left. intros i. destruct (Nat.lt_ge_cases i 146) as [Hi|Hi].
    + rewrite V by exact Hi. destruct (1 <=? i)%nat; [|reflexivity]. rewrite Fd. ring.
    + apply nth_overflow. rewrite B1, Lz. exact Hi.
Qed.

(** C79. The sun is shared among the four patches closest to it, and to no other: each of them gets some, the closer ones more; all
    together they send the direct radiation exactly; the ground gets none of it. *)
Theorem C79_sun : forall (m : nat) (s : solar) (date dew diff dir : R) (v : pt) (r : sky) (out : list R),
  - (PI / 2) < latitude s < PI / 2 -> new m = Ok r -> 0 <= diff -> 1 / 10 ^ 4 < dir -> sun_position s (Standard date) = Some v ->
  gen_sky_vec m s date dew diff dir UnitsSolar 0 false true = Ok out ->
  exists bins, length bins = 4%nat /\ NoDup bins /\ (forall b, In b bins -> (1 <= b < n_bins r)%nat /\ 0 < nth b out 0 /\ 0 < vdot (centre r b) v) /\
    (forall b, ~ In b bins -> nth b out 0 = 0) /\
    (forall b c, In b bins -> (c < n_bins r)%nat -> ~ In c bins -> vdot (centre r c) v <= vdot (centre r b) v) /\
    (forall b c, In b bins -> In c bins -> vdot (centre r c) v < vdot (centre r b) v -> nth c out 0 * omega r c < nth b out 0 * omega r b) /\
    sumf (fun b => nth b out 0 * omega r b) (seq 0 (n_bins r)) = dir.
Proof.
  intros m s date dew diff dir v r out Hl Er Hd Hdir P E1. destruct (built m r Er) as [Hm ->].
  assert (Pos : 0 < 1 / 10 ^ 4) by (apply Rdiv_lt_0_compat; lra).
  unfold gen_sky_vec in E1. rewrite (new_ok m) in E1 by lia. cbn [bind] in E1. set (z := repeat 0 (n_bins (the_sky m))) in *.
  assert (Lz : length z = n_bins (the_sky m)) by apply repeat_length.
  destruct (update_day z m s date dew diff dir UnitsSolar 0 false true v Hm Hl Lz ltac:(lra) P) as (D & E & f & o & _ & _ & _ & DE & _ & All).
  destruct (proj1 DE eq_refl) as [-> ->]. destruct (All z 0 false true Lz) as (o1 & A1 & B1 & C1). assert (o1 = out) by congruence. subst o1.
  destruct (sun_part_spec m s _ v (dir * WHTEFFICACY) Hl Hm P) as (cl & L4 & N4 & Cl & Far & Sp).
  set (T := sumf weight cl) in *. set (val := sun_value (the_sky m) (dir * WHTEFFICACY) T) in *.
  assert (V : forall i, nth i out 0 = sumf (fun c => if (i =? fst c)%nat then val c else 0) cl).
  { intros i. destruct (Nat.lt_ge_cases i (length z)) as [Hi|Hi].
    - rewrite C1 by exact Hi. unfold z. rewrite nth_repeat. replace (Rltb (1 / 10 ^ 8) 0) with false by (symmetry; apply Rltb_false; apply Rlt_le; apply Rdiv_lt_0_compat; lra).
      destruct (Rltb_spec (1 / 10 ^ 4) dir); [|lra]. cbn [andb]. rewrite Sp. ring.
    - rewrite nth_overflow by lia. rewrite (sumf_ext _ (fun _ => 0 * 0)); [rewrite sumf_scale; ring|]. intros c Hc. destruct (Cl c Hc) as [C0 _].
      destruct (Nat.eqb_spec i (fst c)); [lia|ring]. }
  assert (One : forall c l, NoDup (map fst l) -> In c l -> sumf (fun c' : nat * R => if (fst c =? fst c')%nat then val c' else 0) l = val c).
  { intros c l. induction l as [|a l IH]; intros Nd Hc; [destruct Hc|]. cbn [map] in Nd. inversion Nd as [|? ? Na Nd']; subst. cbn [sumf fold_right].
    destruct Hc as [->|Hc].
    - rewrite Nat.eqb_refl. replace (fold_right _ 0 l) with 0; [ring|]. symmetry. change (sumf (fun c' : nat * R => if (fst c =? fst c')%nat then val c' else 0) l = 0).
      rewrite (sumf_ext _ (fun _ => 0 * 0)); [rewrite sumf_scale; ring|]. intros c' Hc'. destruct (Nat.eqb_spec (fst c) (fst c')) as [Q|]; [|ring].
      exfalso. apply Na. rewrite Q. apply in_map. exact Hc'.
    - destruct (Nat.eqb_spec (fst c) (fst a)) as [Q|]; [exfalso; apply Na; rewrite <- Q; apply in_map; exact Hc|]. unfold sumf in IH. rewrite IH by assumption. ring. }
  assert (W : forall c, In c cl -> 0 < weight c). { intros c Hc. destruct (Cl c Hc) as (_ & _ & Q). unfold weight. apply Rdiv_lt_0_compat; lra. }
  assert (Tp : 0 < T).
  { unfold T. assert (forall l, (forall c, In c l -> 0 < weight c) -> l <> [] -> 0 < sumf weight l).
    { induction l as [|a l IH]; intros Hw Hn; [contradiction|]. cbn. pose proof (Hw a (or_introl eq_refl)). destruct l as [|b l]; [cbn; lra|].
      assert (0 < sumf weight (b :: l)) by (apply IH; [intros; apply Hw; right; assumption|discriminate]). unfold sumf in H0. lra. }
    apply H; [exact W|]. intros ->. discriminate. }
  assert (Om : forall c, In c cl -> 0 < omega (the_sky m) (fst c)). { intros c Hc. destruct (Cl c Hc) as [C0 _]. apply (the_bins m Hm). lia. }
  assert (Val : forall c, In c cl -> val c * omega (the_sky m) (fst c) = weight c * dir / T).
  { intros c Hc. unfold val, sun_value, WHTEFFICACY. specialize (Om c Hc). field. lra. }
  exists (map fst cl). split; [rewrite map_length; exact L4|]. split; [exact N4|].
  split.
  { intros b Hb. apply in_map_iff in Hb. destruct Hb as (c & <- & Hc). destruct (Cl c Hc) as (Q1 & Q2 & Q3). split; [exact Q1|]. split; [|rewrite <- Q2; lra].
    rewrite V, One by assumption. specialize (Om c Hc). specialize (Val c Hc). specialize (W c Hc).
    assert (0 < weight c * dir / T) by (apply Rdiv_lt_0_compat; [apply Rmult_lt_0_compat; lra|exact Tp]). rewrite <- Val in H.
    apply Rmult_lt_reg_r with (omega (the_sky m) (fst c)); [exact Om|]. lra. }
  split.
  { intros b Hb. rewrite V. rewrite (sumf_ext _ (fun _ => 0 * 0)); [rewrite sumf_scale; ring|]. intros c Hc. destruct (Nat.eqb_spec b (fst c)) as [->|]; [|ring].
    exfalso. apply Hb. apply in_map. exact Hc. }
  split.
  { intros b c Hb Hc Nc. apply in_map_iff in Hb. destruct Hb as (e & <- & He). destruct (Cl e He) as (_ & <- & _). apply Far; assumption. }
  split.
  { intros b c Hb Hc. apply in_map_iff in Hb. destruct Hb as (e & <- & He). apply in_map_iff in Hc. destruct Hc as (g & <- & Hg).
    destruct (Cl e He) as (_ & Q1 & R1). destruct (Cl g Hg) as (_ & Q2 & R2). rewrite <- Q1, <- Q2. intros L. rewrite !V, !One by assumption. rewrite !Val by assumption.
    assert (weight g < weight e). { unfold weight. unfold Rdiv. rewrite !Rmult_1_l. apply Rinv_lt_contravar; [apply Rmult_lt_0_compat; lra|lra]. }
    unfold Rdiv. apply Rmult_lt_compat_r; [apply Rinv_0_lt_compat; exact Tp|]. nra. }
  rewrite (sumf_ext _ (fun b => sumf (fun c => if (b =? fst c)%nat then val c * omega (the_sky m) (fst c) else 0) cl)).
  2: { intros b Hb. rewrite V. rewrite Rmult_comm, <- sumf_scale. apply sumf_ext. intros c Hc. destruct (Nat.eqb_spec b (fst c)) as [->|]; ring. }
  assert (Sw : forall (l : list (nat * R)) n, (forall c, In c l -> (fst c < n)%nat) -> forall g : nat * R -> R,
     sumf (fun b => sumf (fun c => if (b =? fst c)%nat then g c else 0) l) (seq 0 n) = sumf g l).
  { clear. intros l n. induction l as [|a l IH]; intros H g.
    - cbn [sumf fold_right]. change (fold_right _ 0 []) with 0. rewrite (sumf_ext _ (fun _ => 0 * 0)); [rewrite sumf_scale; ring|]. intros; cbn; ring.
    - rewrite (sumf_ext _ (fun b => (if (b =? fst a)%nat then g a else 0) + sumf (fun c => if (b =? fst c)%nat then g c else 0) l)) by (intros; reflexivity).
      rewrite sumf_plus, IH by (intros; apply H; right; assumption). cbn [sumf fold_right]. unfold sumf at 2. f_equal.
      pose proof (H a (or_introl eq_refl)) as Ha. clear - Ha. replace n with (fst a + (1 + (n - fst a - 1)))%nat by lia. rewrite seq_app, sumf_app. cbn [seq Nat.add].
      rewrite (sumf_ext _ (fun _ => 0 * 0) (seq 0 (fst a))). 2: { intros b Hb. apply in_seq in Hb. destruct (Nat.eqb_spec b (fst a)); [lia|ring]. }
      cbn [sumf fold_right]. rewrite Nat.eqb_refl. fold (sumf (fun b => if (b =? fst a)%nat then g a else 0) (seq (S (fst a)) (n - fst a - 1))).
      rewrite (sumf_ext _ (fun _ => 0 * 0) (seq (S (fst a)) _)). 2: { intros b Hb. apply in_seq in Hb. destruct (Nat.eqb_spec b (fst a)); [lia|ring]. }
      rewrite !sumf_scale. ring. }
  rewrite (Sw cl) by (intros c Hc; apply (Cl c Hc)). rewrite (sumf_ext _ (fun c => dir / T * weight c)). 2: { intros c Hc. rewrite Val by exact Hc. field. lra. }
  rewrite sumf_scale. fold T. field. lra.
Qed.

(** * Noon, on the meridian where solar and standard time agree *)
Definition noon : R := INR 100 + 1 / 2.
Definition noon_at (l : R) : solar := mkSolar l (to_radians (equation_of_time noon / 4)) 0.
Lemma noon_sun l x : - (PI / 2) < l < PI / 2 -> x = l - declination noon -> 0 <= cos x <= 9999 / 10000 ->
  sun_position (noon_at l) (Standard noon) = Some (mkV 0 (sin (- x)) (cos x)).
Proof.
  intros Hl Hx C.
  assert (U : unwrap_solar_time (noon_at l) (Standard noon) = noon).
  { cbn [unwrap_solar_time]. unfold solar_standard_time_difference, noon_at; cbn [standard_meridian longitude]. unfold to_degrees, to_radians.
    pose proof PI_RGT_0. field. lra. }
  assert (P : sun_position (noon_at l) (Standard noon) = sun_position (noon_at l) (Solar noon)) by (unfold sun_position; rewrite U; reflexivity).
  pose proof (C74_noon (noon_at l) 100 Hl) as Q. cbv zeta in Q. fold noon in Q. cbn [latitude noon_at] in Q. rewrite <- Hx in Q. rewrite P, Q by exact C.
  replace (declination noon - l) with (- x) by lra. reflexivity.
Qed.
(** at 46 degrees north *)
Definition here : solar := noon_at (8 / 10).
Lemma at_noon : - (PI / 2) < latitude here < PI / 2 /\ exists v, sun_position here (Standard noon) = Some v /\ 16 / 100 < vz v.
Proof.
  assert (Hl : - (PI / 2) < latitude here < PI / 2) by (cbn; pose proof PI_bounds; lra). split; [exact Hl|].
  pose proof (declination_small noon) as D. set (x := 8 / 10 - declination noon). assert (Hx : 31 / 100 <= x <= 129 / 100) by (unfold x; lra).
  assert (C0 : 16 / 100 < cos x). { pose proof (cos_lower x ltac:(lra)). nra. }
  assert (C1 : cos x <= 9999 / 10000). { pose proof (cos_upper x ltac:(lra)). assert (961 / 10000 <= x * x <= 2) by nra. nra. }
  eexists. split; [apply (noon_sun _ x); [exact Hl|reflexivity|lra]|exact C0].
Qed.

(** Under 100 W/m2 of diffuse and 500 W/m2 of direct radiation, on the coarse sky of 146 patches: the ground, of albedo 0.2, shines;
    and four patches of the sky, more than the others, share the sun. *)
Example C78_noon : exists out v, sun_position here (Standard noon) = Some v /\
  gen_sky_vec 1 here noon 10 100 500 UnitsSolar (2 / 10) true true = Ok out /\ length out = 146%nat /\
  PI * nth 0 out 0 = 2 / 10 * (100 + 500 * vz v) /\ 36 < PI * nth 0 out 0.
Proof.
  destruct at_noon as (Hl & v & P & Z). destruct (C78_size [] 1 here noon 10 100 500 UnitsSolar (2 / 10) true true Hl (le_n 1)) as (_ & _ & out & E & L).
  exists out, v. split; [exact P|]. split; [exact E|]. split; [exact L|].
  assert (G : PI * nth 0 out 0 = 2 / 10 * (100 + 500 * vz v)) by (apply (C78_ground 1 here noon 10 100 500 (2 / 10) true true v out); first [assumption|lia|lra]).
  split; [exact G|lra].
Qed.
Example C79_noon : exists r out bins, new 1 = Ok r /\ gen_sky_vec 1 here noon 10 100 500 UnitsSolar 0 false true = Ok out /\
  length bins = 4%nat /\ NoDup bins /\ (forall b, In b bins -> 0 < nth b out 0) /\ sumf (fun b => nth b out 0 * omega r b) (seq 0 146) = 500.
Proof.
  destruct at_noon as (Hl & v & P & Z). destruct (C78_size [] 1 here noon 10 100 500 UnitsSolar 0 false true Hl (le_n 1)) as (_ & _ & out & E & L).
  pose proof (new_ok 1 ltac:(lia)) as Er. destruct (C79_sun 1 here noon 10 100 500 v _ out Hl Er) as (bins & B1 & B2 & B3 & _ & _ & _ & B4); try assumption; try lra.
  exists (the_sky 1), out, bins. split; [exact Er|]. split; [exact E|]. split; [exact B1|]. split; [exact B2|]. split; [intros b Hb; apply B3; exact Hb|exact B4].
Qed.

(** C78, refuted: "updates a vector of values representing the radiance of each patch". Updating a vector for the hour it already
    represents changes it: what it held is kept and added to. By night the same call does write over what the vector held. *)
Theorem C78_update_refuted : exists (s : solar) (date dew diff dir albedo : R) (now again : list R),
  gen_sky_vec 1 s date dew diff dir UnitsSolar albedo true true = Ok now /\
  update_sky_vec now 1 s date dew diff dir UnitsSolar albedo true true = Ok again /\ nth 0 again 0 = 2 * nth 0 now 0 /\ nth 0 again 0 <> nth 0 now 0.
Proof.
  destruct C78_noon as (out & v & P & E & L & _ & G). destruct at_noon as (Hl & _).
  destruct (C78_size out 1 here noon 10 100 500 UnitsSolar (2 / 10) true true Hl (le_n 1)) as (_ & (again & A & _) & _); [exact L|].
  exists here, noon, 10, 100, 500, (2 / 10), out, again. split; [exact E|]. split; [exact A|].
  rewrite (C78_update_adds out out again 1 here noon 10 100 500 UnitsSolar (2 / 10) true true v) by (first [assumption|lia|lra]).
  split; [ring|]. intros F. assert (nth 0 out 0 = 0) by lra. rewrite H, Rmult_0_r in G. lra.
Qed.

(** C78, refuted: "the sky sends the diffuse radiation". With the sun near the zenith, 12 W/m2 of diffuse and 24 W/m2 of direct
    radiation, every patch comes out negative before it is scaled; the sum then is zero, all the patches are left dark and the diffuse
    radiation is lost. *)
Theorem C78_diffuse_refuted : exists (s : solar) (date dew diff dir : R) (out : list R),
  - (PI / 2) < latitude s < PI / 2 /\ 10 < diff /\ 10 < dir /\ sun_position s (Standard date) <> None /\
  gen_sky_vec 1 s date dew diff dir UnitsSolar 0 true false = Ok out /\ forall i, nth i out 0 = 0.
Proof.
  pose proof PI_bounds as PB. pose proof (declination_small noon) as D. set (l := declination noon + 3 / 100). set (x := 3 / 100).
  assert (Hl : - (PI / 2) < l < PI / 2) by (unfold l; lra).
  assert (C1 : cos x <= 9999 / 10000) by (pose proof (cos_upper x ltac:(unfold x; lra)); unfold x in *; lra).
  assert (C0 : 9 / 10 <= cos x) by (pose proof (cos_lower x ltac:(unfold x; lra)); unfold x in *; lra).
  assert (P : sun_position (noon_at l) (Standard noon) = Some (mkV 0 (sin (- x)) (cos x))) by (apply noon_sun; [exact Hl|unfold l, x; lra|lra]).
  set (s := noon_at l) in *. set (v := mkV 0 (sin (- x)) (cos x)) in *.
  destruct (C78_size [] 1 s noon 10 12 24 UnitsSolar 0 true false Hl (le_n 1)) as (_ & _ & out & E1 & L).
  exists s, noon, 10, 12, 24, out. split; [exact Hl|]. split; [lra|]. split; [lra|]. split; [rewrite P; discriminate|]. split; [exact E1|].
  set (z := to_radians 3). assert (Hz : 5 / 100 <= z <= 67 / 1000) by (unfold z, to_radians; lra).
  assert (Z : limited_zenith (vz v) = z).
  { cbn [vz v]. unfold limited_zenith. destruct (Rleb (cos x) 0) eqn:Q; [apply Rleb_true in Q; lra|].
    destruct (Rleb (cos (to_radians 3)) (cos x)) eqn:Q2; [reflexivity|]. apply Rleb_false in Q2. fold z in Q2.
    pose proof (cos_decr_1 x z ltac:(unfold x; lra) ltac:(unfold x; lra) ltac:(lra) ltac:(lra) ltac:(unfold x; lra)). lra. }
  set (e := clamped_clearness 12 24 z).
  assert (He : 28 / 10 < e < 31 / 10).
  { assert (0 <= z ^ 3 <= 1 / 1000). { cbn [pow]. assert (0 <= z * z <= 1 / 100) by nra. nra. }
    unfold e, clamped_clearness. destruct (Req_EM_T 12 0); [lra|]. unfold sky_clearness. cbv zeta. set (k := 1041 / 1000 * z ^ 3). assert (0 <= k <= 2 / 1000) by (unfold k; lra).
    assert (28 / 10 < ((12 + 24) / 12 + k) / (1 + k) < 31 / 10).
    { assert (Q : ((12 + 24) / 12 + k) / (1 + k) * (1 + k) = 3 + k) by (field; lra). split; apply Rmult_lt_reg_r with (1 + k); try rewrite Q; lra. }
    unfold clamp. repeat match goal with |- context[Rltb ?a ?b] => destruct (Rltb_spec a b) end; lra. }
  assert (Am : air_mass z <= 102 / 100).
  { unfold air_mass. assert (99 / 100 <= cos z) by (pose proof (cos_lower z ltac:(lra)); nra). set (q := Rpower _ _). assert (0 < q) by (apply exp_pos).
    apply Rmult_le_reg_r with (cos z + 15 / 100 * q); [lra|]. unfold Rdiv at 1. rewrite Rmult_assoc, Rinv_l by lra. lra. }
  assert (Am0 : 0 < air_mass z).
  { unfold air_mass. assert (99 / 100 <= cos z) by (pose proof (cos_lower z ltac:(lra)); nra). apply Rdiv_lt_0_compat; [lra|]. assert (0 < Rpower (93885 / 1000 - to_degrees z) (- (1253 / 1000))) by apply exp_pos. lra. }
  set (n := unwrap_solar_time s (Standard noon)).
  assert (Ex : 1300 < normal_extraterrestrial_radiation n).
  { unfold normal_extraterrestrial_radiation, SOLAR_CONSTANT. cbv zeta. set (b := b n). pose proof (COS_bound b). pose proof (SIN_bound b). pose proof (COS_bound (2 * b)). pose proof (SIN_bound (2 * b)). lra. }
  assert (Br : clamp (1 / 100) (9 * 10 ^ 9) (sky_brightness 12 (air_mass z) (normal_extraterrestrial_radiation n)) = 1 / 100).
  { unfold sky_brightness. cbv zeta. replace (Rltb _ (1 / 100)) with true.
    - unfold clamp. repeat match goal with |- context[Rltb ?a ?b] => destruct (Rltb_spec a b) end; lra.
    - symmetry. apply Rltb_true. apply Rmult_lt_reg_r with (normal_extraterrestrial_radiation n); [lra|]. unfold Rdiv at 1. rewrite Rmult_assoc, Rinv_l by lra. lra. }
  assert (Cat : clearness_category e = 5%nat).
  { unfold clearness_category. repeat match goal with |- context[Rltb ?a ?b] => destruct (Rltb_spec a b); try (exfalso; lra) end. reflexivity. }
  destruct (sky_func_ok UnitsSolar s noon 10 12 24 v P) as (f & Ef & Sp). destruct (Sp eq_refl) as (p & Pp & Fd).
  assert (Neg : forall d, vz d <= 1 -> relative_sky p v d <= 0).
  { unfold day_params in Pp. cbv zeta in Pp. rewrite Z in Pp. fold e n in Pp. rewrite Br in Pp. unfold calc_params in Pp. cbv zeta in Pp. rewrite Cat in Pp.
    replace (Rltb e (28 / 10)) with false in Pp by (symmetry; apply Rltb_false; lra). rewrite andb_false_r in Pp. cbn [andb nth_error PEREZ_TABLE nth Nat.mul Nat.add Nat.eqb negb] in Pp.
    injection Pp as <-. intros d Hd. unfold relative_sky. cbv zeta. cbn [pa pb pc pd pe]. destruct (facos (vdot v d)) as [g|] eqn:Eg; [|lra].
    set (cz := if Rltb (vz d) (1 / 100) then 1 / 100 else vz d). assert (Cz : 1 / 100 <= cz <= 1) by (unfold cz; destruct (Rltb_spec (vz d) (1 / 100)); lra).
    assert (Cg : -1 <= vdot v d <= 1). { unfold facos in Eg. destruct (Rleb (-1) (vdot v d)) eqn:Q1; [|discriminate]. destruct (Rleb (vdot v d) 1) eqn:Q2; [|discriminate]. apply Rleb_true in Q1, Q2. lra. }
    match goal with |- (1 + ?a * exp (?b / cz)) * (1 + ?c * exp ?w + ?y * _ * _) <= 0 => set (A := a); set (B := b); set (C := c); set (W := exp w); set (Y := y) end.
    assert (- (104 / 100) <= A <= - (102 / 100)) by (unfold A; lra). assert (21 / 100 <= B) by (unfold B; lra). assert (0 < C) by (unfold C; lra). assert (- (1 / 10) <= Y) by (unfold Y; lra).
    assert (0 < W) by apply exp_pos. assert (B <= B / cz). { apply Rmult_le_reg_r with cz; [lra|]. unfold Rdiv. rewrite Rmult_assoc, Rinv_l by lra. nra. }
    assert (1 + B <= exp (B / cz)). { eapply Rle_trans; [|left; apply exp_ineq1; lra]. lra. }
    assert (0 <= vdot v d * vdot v d <= 1) by nra. assert (0 < C * W) by nra.
    assert (0 <= 1 + C * W + Y * vdot v d * vdot v d) by (rewrite Rmult_assoc; nra). assert (1 + A * exp (B / cz) <= 0) by nra. nra. }
  assert (Q : coarse_sum p v <= 0).
  { unfold coarse_sum. rewrite (sumf_ext _ (fun _ => 0 * 0)); [rewrite sumf_scale; lra|]. intros b Hb. apply in_seq in Hb.
    rewrite Rmax_right; [ring|]. apply Neg. destruct (C43_round_trip 1 (the_sky 1) b (new_ok 1 ltac:(lia))) as (c & Ec & Lc & _). { change (n_bins (the_sky 1)) with 146%nat. lia. }
    unfold centre. rewrite Ec. unfold vlen in Lc. assert (L2 : vlen2 c = 1). { rewrite <- (sqrt_sqrt (vlen2 c)), Lc by (unfold vlen2; nra). ring. } unfold vlen2 in L2. nra. }
  unfold gen_sky_vec in E1. rewrite (new_ok 1) in E1 by lia. cbn [bind] in E1. set (zs := repeat 0 (n_bins (the_sky 1))) in *.
  assert (Lz : length zs = n_bins (the_sky 1)) by apply repeat_length.
  destruct (update_day zs 1 s noon 10 12 24 UnitsSolar 0 true false v ltac:(lia) Hl Lz ltac:(lra) P) as (D' & E' & f' & o & _ & _ & Ef' & _ & _ & All).
  assert (f' = f) by congruence. subst f'. destruct (All zs 0 true false Lz) as (o1 & A1 & B1 & V). assert (o1 = out) by congruence. subst o1.
  intros i. destruct (Nat.lt_ge_cases i (length zs)) as [Hi|Hi]; [|apply nth_overflow; lia].
  rewrite V by exact Hi. unfold zs. rewrite nth_repeat. replace (Rltb (1 / 10 ^ 8) 0) with false by (symmetry; apply Rltb_false; apply Rlt_le; apply Rdiv_lt_0_compat; lra).
  cbn [andb]. rewrite Fd. replace (Rltb (1 / 10 ^ 4) (coarse_sum p v)) with false. 2: { symmetry; apply Rltb_false. assert (0 < 1 / 10 ^ 4) by (apply Rdiv_lt_0_compat; lra). lra. }
  destruct (1 <=? i)%nat; ring.
Qed.

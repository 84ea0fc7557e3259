(** C01–C05 and C54: the calendar crate. *)
From Coq Require Import ZArith QArith Qround Lia Lqa List Bool.
From Verif.Calendar Require Import DateModel DateSpec DateProofs PeriodProofs.
Import ListNotations.
Local Open Scope Z_scope.

(** ** C01 Day-of-year conversion round-trips *)

(** The number computed for a date is the time elapsed since the beginning of the year,
    and converting it back gives the date. *)
Theorem C01_date_round_trip : forall d, valid_date d ->
  exists q d', day_of_year d = Some q /\ (q == position d)%Q /\ (0 <= q < 365)%Q /\
    from_day_of_year q = Some d' /\ date_eq d' d.
Proof.
  intros d V. destruct (day_of_year_position d) as (q & E & P); [apply V|].
  pose proof (valid_position d V) as B. rewrite <- P in B.
  destruct (from_day_of_year_spec q B) as (d' & E' & V' & P').
  exists q, d'. split; [exact E|]. split; [exact P|]. split; [exact B|]. split; [exact E'|].
  apply position_inj; auto. rewrite P'. exact P.
Qed.

Theorem C01_number_round_trip : forall n, (0 <= n < 365)%Q ->
  exists d q, from_day_of_year n = Some d /\ valid_date d /\ day_of_year d = Some q /\ (q == n)%Q.
Proof.
  intros n B. destruct (from_day_of_year_spec n B) as (d & E & V & P).
  destruct (day_of_year_position d) as (q & E' & P'); [apply V|].
  exists d, q. split; [exact E|]. split; [exact V|]. split; [exact E'|]. rewrite P'. exact P.
Qed.

(** Numbers outside the year are refused (panic), never converted to a wrong date. *)
Theorem C01_out_of_range : forall n, from_day_of_year n = None <-> ~ (0 <= n < 365)%Q.
Proof.
  intros n. unfold from_day_of_year.
  destruct (Qle_bool 0 n) eqn:A; destruct (Qltb n 365) eqn:B; cbn;
  try (apply Qle_bool_iff in A); try (apply Qle_bool_false in A);
  try (apply Qltb_lt in B); try (apply Qltb_ge in B); split; intros H; try discriminate; try reflexivity;
  try (intros [X Y]; lra). exfalso; apply H; split; lra.
Qed.

Example C01_example : valid_date (mkDate 2 28 (47 # 2)) /\
  day_of_year (mkDate 2 28 (47 # 2)) <> None /\
  option_map month (from_day_of_year (58 + (47 # 48))) = Some 2 /\
  option_map day (from_day_of_year (58 + (47 # 48))) = Some 28.
Proof.
  split; [|split; [discriminate|split; reflexivity]].
  unfold valid_date, month_length; cbn. repeat split; try lia; lra.
Qed.

(** ** C02 Ordering *)

Theorem C02_order_is_time : forall a b, valid_date a -> valid_date b ->
  date_cmp a b = (position a ?= position b)%Q.
Proof. exact date_cmp_position. Qed.

Theorem C02_is_earlier : forall a b, valid_date a -> valid_date b ->
  is_earlier a b = true <-> (position a < position b)%Q.
Proof.
  intros a b Va Vb. unfold is_earlier. destruct (date_eqb a b) eqn:E.
  - apply date_eqb_eq in E. destruct E as (E1 & E2 & E3).
    split; [discriminate|]. intros H. exfalso.
    unfold position, day_index in H. rewrite E1, E2, E3 in H. lra.
  - rewrite date_le_position by assumption. split; [|lra]. intros H.
    destruct (Qlt_le_dec (position a) (position b)) as [|G]; auto.
    assert (date_eq a b) as C by (apply position_inj; auto; lra).
    apply date_eqb_eq in C. congruence.
Qed.

Theorem C02_same_day : forall a b, valid_date a -> valid_date b ->
  same_day a b = true <-> Qfloor (position a) = Qfloor (position b).
Proof.
  assert (F : forall d, valid_date d -> Qfloor (position d) = day_index d).
  { intros d (_ & _ & H0 & H24). apply floor_unique; unfold position; qlra. }
  intros a b Va Vb. rewrite !F by assumption. unfold same_day.
  rewrite andb_true_iff, !Z.eqb_eq. split.
  - intros [A B]. unfold day_index. rewrite A, B. reflexivity.
  - intros H. destruct a as [m1 d1 h1], b as [m2 d2 h2].
    destruct Va as (M1 & D1 & _), Vb as (M2 & D2 & _). cbn [month day] in *.
    apply (day_index_inj m1 d1 m2 d2 h1 h2); auto.
Qed.

(** total order *)
Theorem C02_total_order : forall a b c, valid_date a -> valid_date b -> valid_date c ->
  (date_le a b = true \/ date_le b a = true) /\
  (date_le a b = true -> date_le b c = true -> date_le a c = true) /\
  (date_le a b = true -> date_le b a = true -> date_eq a b).
Proof.
  intros a b c Va Vb Vc. rewrite !date_le_position by assumption.
  split; [|split].
  - destruct (Qlt_le_dec (position a) (position b)); [left|right]; lra.
  - intros; lra.
  - intros. apply position_inj; auto. lra.
Qed.

(** subtraction of dates is the difference of elapsed times *)
Theorem C02_difference : forall a b, valid_date a -> valid_date b ->
  exists q, date_sub a b = Some q /\ (q == position a - position b)%Q.
Proof.
  intros a b Va Vb. unfold date_sub.
  destruct (day_of_year_position a) as (x & -> & X); [apply Va|].
  destruct (day_of_year_position b) as (y & -> & Y); [apply Vb|].
  eexists; split; [reflexivity|]. rewrite X, Y. reflexivity.
Qed.

Example C02_example : valid_date (mkDate 1 31 23) /\ valid_date (mkDate 2 1 0) /\
  is_earlier (mkDate 1 31 23) (mkDate 2 1 0) = true.
Proof. unfold valid_date, month_length; cbn. repeat split; try lia; lra. Qed.

(** ** C03 Adding days *)

(** Missing for the full property: the code compares [would_be_day as u8], so the
    statement needs the day number to stay below 256.  [C03_add_days_wrong] and
    [C03_add_days_refuted] show that the restriction is necessary. *)
Theorem C03_add_days_partial : forall d n, valid_date d -> 0 <= n -> day d + n mod 365 <= 255 ->
  exists d', add_days d n = Some d' /\ valid_date d' /\ hour d' = hour d /\
    day_index d' = (day_index d + n) mod 365.
Proof. intros d n V _. apply add_days_ok; assumption. Qed.

(** Beyond that bound the answer is wrong by exactly 256 days. *)
Theorem C03_add_days_wrong : forall d n, valid_date d -> 0 <= n ->
  288 <= day d + n mod 365 \/ (day d = 1 /\ 256 <= n mod 365) ->
  exists d', add_days d n = Some d' /\ valid_date d' /\
    day_index d' = (day_index d + n - 256) mod 365.
Proof.
  intros d n V _ H. destruct (add_days_bad d n V H) as (d' & E & V' & _ & I). eauto.
Qed.

Theorem C03_add_days_refuted : exists d n d', valid_date d /\ 0 <= n /\ add_days d n = Some d' /\
  day_index d' <> (day_index d + n) mod 365.
Proof.
  exists (mkDate 1 1 0), 256, (mkDate 1 1 0).
  split; [unfold valid_date, month_length; cbn; repeat split; try lia; lra|].
  split; [lia|]. split; [vm_compute; reflexivity|]. vm_compute. discriminate.
Qed.

(** Days 256-287 from the end of a month can even leave the calendar (day 0). *)
Theorem C03_invalid_date_refuted : exists d n d', valid_date d /\ 0 <= n /\ add_days d n = Some d' /\
  ~ valid_date d'.
Proof.
  exists (mkDate 1 1 0), 255, (mkDate 1 0 0).
  split; [unfold valid_date, month_length; cbn; repeat split; try lia; lra|].
  split; [lia|]. split; [vm_compute; reflexivity|]. intros (_ & H & _). cbn in H. lia.
Qed.

Example C03_example : valid_date (mkDate 12 30 5) /\ day (mkDate 12 30 5) + 200 mod 365 <= 255 /\
  add_days (mkDate 12 30 5) 200 = Some (mkDate 7 18 5).
Proof. split; [unfold valid_date, month_length; cbn; repeat split; try lia; lra|]. vm_compute. split; [discriminate|reflexivity]. Qed.

(** ** C04 Adding hours, minutes, seconds *)

(** Missing: durations of 224 days and more (see [C04_add_hours_refuted]). *)
Theorem C04_add_hours_partial : forall d h, valid_date d -> (0 <= h)%Q -> (h < 24 * 224)%Q ->
  exists d', add_hours d h = Some d' /\ valid_date d' /\
    same_instant (position d') (position d + h / 24).
Proof. exact add_hours_ok. Qed.

Theorem C04_add_minutes_partial : forall d m, valid_date d -> (0 <= m)%Q -> (m < 60 * 24 * 224)%Q ->
  exists d', add_minutes d m = Some d' /\ valid_date d' /\
    same_instant (position d') (position d + m / (60 * 24)).
Proof.
  intros d m V A B.
  destruct (add_hours_ok d (m / 60) V) as (d' & E & V' & [k S]).
  - apply Qle_shift_div_l; lra.
  - apply Qlt_shift_div_r; lra.
  - exists d'. split; [exact E|]. split; [exact V'|]. exists k. rewrite S. field.
Qed.

Theorem C04_add_seconds_partial : forall d s, valid_date d -> (0 <= s)%Q -> (s < 86400 * 224)%Q ->
  exists d', add_seconds d s = Some d' /\ valid_date d' /\
    same_instant (position d') (position d + s / 86400).
Proof.
  intros d m V A B.
  destruct (add_hours_ok d (m / 3600) V) as (d' & E & V' & [k S]).
  - apply Qle_shift_div_l; lra.
  - apply Qlt_shift_div_r; lra.
  - exists d'. split; [exact E|]. split; [exact V'|]. exists k. rewrite S. field.
Qed.

(** Two successive additions are the addition of the sum. *)
Theorem C04_additive_partial : forall d a b, valid_date d -> (0 <= a)%Q -> (0 <= b)%Q ->
  (a + b < 24 * 224)%Q ->
  exists d1 d2 d3, add_hours d a = Some d1 /\ add_hours d1 b = Some d2 /\
    add_hours d (a + b) = Some d3 /\ date_eq d2 d3.
Proof.
  intros d a b V A B S.
  destruct (add_hours_ok d a V) as (d1 & E1 & V1 & [k1 S1]); [lra|lra|].
  destruct (add_hours_ok d1 b V1) as (d2 & E2 & V2 & [k2 S2]); [lra|lra|].
  destruct (add_hours_ok d (a + b) V) as (d3 & E3 & V3 & [k3 S3]); [lra|lra|].
  exists d1, d2, d3. split; [exact E1|]. split; [exact E2|]. split; [exact E3|].
  apply position_inj; auto. apply same_instant_eq; try (apply valid_position; assumption).
  exists (k1 + k2 - k3). rewrite inject_Z_minus, inject_Z_plus. qlra.
Qed.

Theorem C04_add_hours_refuted : exists d h d', valid_date d /\ (0 <= h)%Q /\ add_hours d h = Some d' /\
  ~ same_instant (position d') (position d + h / 24).
Proof.
  exists (mkDate 1 1 0), (24 * 256)%Q, (mkDate 1 1 (0 + (24 * 256 - 24 * 256))).
  split; [unfold valid_date, month_length; cbn; repeat split; try lia; lra|].
  split; [lra|]. split; [vm_compute; reflexivity|].
  intros [k H]. unfold position, day_index in H. cbn [month day hour] in H. tables.
  change (0 + 1 - 1) with 0 in H.
  unfold Qeq in H. cbn -[Z.mul] in H. lia.
Qed.

(** A negative duration moves the clock forward. *)
Theorem C04_negative_hours_refuted : exists d d', valid_date d /\ add_hours d (-1) = Some d' /\
  valid_date d' /\ (position d < position d')%Q.
Proof.
  exists (mkDate 6 1 0), (mkDate 6 1 (0 + (-1 - 24 * -1))).
  split; [unfold valid_date, month_length; cbn; repeat split; try lia; lra|].
  split; [vm_compute; reflexivity|]. split; [|reflexivity].
  unfold valid_date, month_length; cbn; repeat split; try lia; lra.
Qed.

Example C04_example : add_seconds (mkDate 12 31 (47 # 2)) 3600 <> None /\
  option_map month (add_seconds (mkDate 12 31 (47 # 2)) 3600) = Some 1 /\
  option_map day (add_seconds (mkDate 12 31 (47 # 2)) 3600) = Some 1.
Proof. vm_compute. repeat split; discriminate. Qed.

(** ** C05 Stepping through a period *)

(** A period inside one year yields exactly floor((end-start)/dt) dates, the [i]-th
    being [i+1] steps after the start; afterwards it is exhausted. *)
Theorem C05_period_steps : forall start fin dt,
  valid_date start -> valid_date fin -> (position start <= position fin)%Q ->
  (0 < dt)%Q -> (dt < 86400 * 224)%Q ->
  exists p ds, period_new start fin dt = Some p /\
    (forall fuel, (length ds < fuel)%nat -> period_collect fuel p = Some ds) /\
    Z.of_nat (length ds) = Qfloor ((position fin - position start) / (dt / 86400)) /\
    (forall i d, nth_error ds i = Some d -> valid_date d /\
       (position d == position start + inject_Z (Z.of_nat i + 1) * (dt / 86400))%Q /\
       period_contains p d = true).
Proof.
  intros start fin dt Vs Vf Hle H0 H1.
  assert (Hs : (0 < dt / 86400)%Q) by dlra.
  destruct (floor_bounds (position fin - position start) (dt / 86400)) as (k & Ek & K1 & K2); [lra|exact Hs|].
  assert (N : exists p, period_new start fin dt = Some p /\ p_end p = fin /\ p_start p = start /\
     p_current p = start /\ p_dt p = dt /\ goes_through_new_year p = false).
  { unfold period_new.
    rewrite (proj2 (Qle_bool_false 24 (hour start))) by apply Vs.
    rewrite (proj2 (Qle_bool_false 24 (hour fin))) by apply Vf.
    rewrite date_lt_false by auto. eexists; split; [reflexivity|]. cbn. auto. }
  destruct N as (p & N & Pe & Pst & Pc & Pdt & Pg).
  assert (A : forall fuel, (k < fuel)%nat -> exists ds, period_collect fuel p = Some ds /\ length ds = k /\
    steps_from (position (p_current p)) (step_days (p_dt p)) ds).
  { intros fuel Hf. apply collect_after; rewrite ?Pe, ?Pc, ?Pdt, ?Pg; auto; discriminate. }
  destruct (A (S k)) as (ds & E & L & S); [lia|].
  exists p, ds. split; [exact N|]. split; [|split].
  - intros fuel Hf. destruct (A fuel) as (ds' & E' & L' & S'); [lia|].
    rewrite E'. f_equal. exact (collect_unique _ _ _ _ _ E' E).
  - rewrite L. exact Ek.
  - intros i d Hi. destruct (S i d Hi) as [Vd Sd]. rewrite Pc, Pdt in Sd.
    assert (Hik : (i < k)%nat) by (rewrite <- L; apply nth_error_Some; congruence).
    assert (Bq : (inject_Z (Z.of_nat i + 1) <= inject_Z (Z.of_nat k))%Q) by (rewrite <- Zle_Qle; lia).
    assert (B0 : (0 <= inject_Z (Z.of_nat i + 1))%Q) by (rewrite <- (Zle_Qle 0); lia).
    unfold step_days in Sd. set (s := (dt / 86400)%Q) in *. set (j := inject_Z (Z.of_nat i + 1)) in *.
    assert (J1 : (0 <= j * s)%Q) by (apply Qmult_le_0_compat; lra).
    assert (J2 : (j * s <= inject_Z (Z.of_nat k) * s)%Q) by (apply Qmult_le_compat_r; lra).
    pose proof (valid_position _ Vf) as Pf. pose proof (valid_position _ Vs) as Ps.
    assert (P : (position d == position start + j * s)%Q).
    { apply same_instant_eq; [apply valid_position; exact Vd|split; lra|exact Sd]. }
    split; [exact Vd|]. split; [exact P|].
    unfold period_contains. rewrite Pg, Pe, Pst. cbn [negb]. rewrite !date_le_true; auto; lra.
Qed.

(** A period across the new year does the same when the step that crosses the new
    year cannot jump over the end. *)
Theorem C05_period_new_year_partial : forall start fin dt,
  valid_date start -> valid_date fin -> (position fin < position start)%Q ->
  (0 < dt)%Q -> (dt < 86400 * 224)%Q ->
  (dt / 86400 <= position fin)%Q -> (position fin + dt / 86400 < 365)%Q ->
  exists p ds fuel, period_new start fin dt = Some p /\ period_collect fuel p = Some ds /\
    Z.of_nat (length ds) = Qfloor ((position fin + 365 - position start) / (dt / 86400)) /\
    (forall i d, nth_error ds i = Some d -> valid_date d /\
       same_instant (position d) (position start + inject_Z (Z.of_nat i + 1) * (dt / 86400))%Q).
Proof.
  intros start fin dt Vs Vf Hlt H0 H1 C1 C2.
  assert (Hs : (0 < dt / 86400)%Q) by dlra.
  pose proof (valid_position _ Vs) as Ps.
  destruct (floor_bounds (position fin + 365 - position start) (dt / 86400)) as (k & Ek & K1 & K2); [lra|exact Hs|].
  assert (N : exists p, period_new start fin dt = Some p /\ p_end p = fin /\
     p_current p = start /\ p_dt p = dt /\ goes_through_new_year p = true).
  { unfold period_new.
    rewrite (proj2 (Qle_bool_false 24 (hour start))) by apply Vs.
    rewrite (proj2 (Qle_bool_false 24 (hour fin))) by apply Vf.
    rewrite date_lt_true by auto. eexists; split; [reflexivity|]. cbn. auto. }
  destruct N as (p & N & Pe & Pc & Pdt & Pg).
  destruct (collect_before k (S k) p) as (ds & E & L & S); rewrite ?Pe, ?Pc, ?Pdt; auto.
  exists p, ds, (Datatypes.S k). split; [exact N|]. split; [exact E|]. split; [rewrite L; exact Ek|].
  rewrite Pc, Pdt in S. exact S.
Qed.

(** Otherwise the iteration can miss the end and never stop. *)
Theorem C05_period_endless_refuted : exists start fin dt p,
  valid_date start /\ valid_date fin /\ (0 < dt)%Q /\ period_new start fin dt = Some p /\
  forall fuel, period_collect fuel p = None.
Proof.
  exists (mkDate 12 31 12), (mkDate 1 1 6), 86400%Q,
    (mkPeriod (mkDate 1 1 6) (mkDate 12 31 12) (mkDate 12 31 12) 86400 true).
  assert (V1 : valid_date (mkDate 12 31 12)) by (unfold valid_date, month_length; cbn; repeat split; try lia; lra).
  assert (V2 : valid_date (mkDate 1 1 6)) by (unfold valid_date, month_length; cbn; repeat split; try lia; lra).
  split; [exact V1|]. split; [exact V2|]. split; [lra|]. split; [reflexivity|].
  intros fuel. apply endless; auto.
  - reflexivity.
  - reflexivity.
  - exists 364. reflexivity.
Qed.

Example C05_example :
  match period_new (mkDate 1 1 0) (mkDate 1 1 3) 3600 with
  | Some p => option_map (map day) (period_collect 10 p) = Some [1; 1; 1]
  | None => False
  end.
Proof. vm_compute. reflexivity. Qed.

(** ** C54 Interpolating between dates *)
Theorem C54_interpolate : forall a b x, valid_date a -> valid_date b -> (0 <= x <= 1)%Q ->
  exists d e, interpolate a b x = Some d /\ valid_date d /\
    (0 <= e < 365)%Q /\ same_instant (position b) (position a + e) /\
    same_instant (position d) (position a + x * e).
Proof.
  intros a b x Va Vb X. unfold interpolate.
  destruct (day_of_year_position a) as (na & -> & Na); [apply Va|].
  destruct (day_of_year_position b) as (nb & -> & Nb); [apply Vb|].
  pose proof (valid_position _ Va) as Pa. pose proof (valid_position _ Vb) as Pb.
  rewrite <- Na in Pa. rewrite <- Nb in Pb.
  set (nb' := if Qltb nb na then (nb + 365)%Q else nb).
  assert (B : (na <= nb' /\ nb' < na + 365)%Q /\ same_instant nb nb').
  { unfold nb'. destruct (Qltb nb na) eqn:E.
    - apply Qltb_lt in E. split; [split; lra|]. exists (-1). change (inject_Z (-1)) with (-(1))%Q. lra.
    - apply Qltb_ge in E. split; [split; lra|]. apply same_instant_refl. lra. }
  destruct B as [[B1 B2] B3].
  set (full := (na + x * (nb' - na))%Q).
  assert (G : (0 <= x * (nb' - na))%Q) by (apply Qmult_le_0_compat; lra).
  assert (G2 : (x * (nb' - na) <= 1 * (nb' - na))%Q) by (apply Qmult_le_compat_r; lra).
  assert (F : (0 <= full < 730)%Q) by (unfold full; split; lra).
  assert (R : exists k, (0 <= Qrem full 365 < 365)%Q /\ (Qrem full 365 == full + 365 * inject_Z k)%Q).
  { unfold Qrem, Qtrunc.
    assert (D : (0 <= full / 365)%Q) by (apply Qle_shift_div_l; lra).
    rewrite (proj2 (Qle_bool_iff _ _) D).
    destruct (Qlt_le_dec full 365) as [L|L].
    - rewrite (floor_unique (full / 365) 0).
      + exists 0. change (inject_Z 0) with 0%Q. split; [split; lra|lra].
      + exact D.
      + change (inject_Z 0) with 0%Q. apply Qlt_shift_div_r; lra.
    - rewrite (floor_unique (full / 365) 1).
      + exists (-1). change (inject_Z 1) with 1%Q. change (inject_Z (-1)) with (-(1))%Q. split; [split; lra|lra].
      + change (inject_Z 1) with 1%Q. apply Qle_shift_div_l; lra.
      + change (inject_Z 1) with 1%Q. apply Qlt_shift_div_r; lra. }
  destruct R as (k & R1 & R2).
  destruct (from_day_of_year_spec _ R1) as (d & E & V & P).
  exists d, (nb' - na)%Q. split; [exact E|]. split; [exact V|]. split; [split; lra|]. split.
  - destruct B3 as [l B3]. exists l. rewrite <- Nb, <- Na. lra.
  - exists k. rewrite P, R2, <- Na. unfold full. lra.
Qed.

Example C54_example : option_map day (interpolate (mkDate 12 31 0) (mkDate 1 2 0) (1 # 2)) = Some 1.
Proof. vm_compute. reflexivity. Qed.

Print Assumptions C01_date_round_trip.
Print Assumptions C01_number_round_trip.
Print Assumptions C02_order_is_time.
Print Assumptions C03_add_days_partial.
Print Assumptions C03_add_days_wrong.
Print Assumptions C04_add_hours_partial.
Print Assumptions C05_period_steps.
Print Assumptions C05_period_new_year_partial.
Print Assumptions C05_period_endless_refuted.
Print Assumptions C54_interpolate.

(** Proofs about the look-up of weather data. *)
From Coq Require Import ZArith QArith Qround List Bool Lia Lqa.
From Verif.Calendar Require Import DateModel DateSpec DateProofs.
From Verif.Weather Require Import WeatherModel.
Import ListNotations.
Local Open Scope Q_scope.

(** The quantities of a record. *)
Definition quantities : list (CurrentWeather -> Q) :=
  [dry_bulb_temperature; dew_point_temperature; global_horizontal_radiation; direct_normal_radiation;
   diffuse_horizontal_radiation; wind_speed; wind_direction; opaque_sky_cover; relative_humidity; pressure].

(** [r] is what lies a fraction [w] of the way from [a] to [b]. *)
Definition mixes (w : Q) (a b r : CurrentWeather) : Prop :=
  (forall f, In f quantities -> f r == (1 - w) * f a + w * f b) /\
  match horizontal_infrared_radiation_intensity a, horizontal_infrared_radiation_intensity b,
        horizontal_infrared_radiation_intensity r with
  | Some x, Some y, Some z => z == (1 - w) * x + w * y
  | Some _, Some _, None => False
  | _, _, o => o = None
  end.

(** Records of valid dates, in increasing order of time. *)
Definition sorted_data (data : list CurrentWeather) : Prop :=
  Forall (fun w => valid_date (date w)) data /\
  forall i j a b, nth_error data i = Some a -> nth_error data j = Some b -> (i < j)%nat ->
    position (date a) < position (date b).

Lemma Qrem_small q : 0 <= q -> q < 365 -> Qrem q 365 == q.
Proof.
  intros L U. unfold Qrem, Qtrunc.
  assert (D : q / 365 * 365 == q) by (field; lra).
  assert (Hb : 0 <= q / 365 < 1) by (split; lra).
  rewrite (proj2 (Qle_bool_iff 0 (q / 365))) by lra.
  rewrite (floor_unique (q / 365) 0); [ring| |]; change (inject_Z 0) with 0; lra.
Qed.

Lemma Qrem_once q : 365 <= q -> q < 730 -> Qrem q 365 == q - 365.
Proof.
  intros L U. unfold Qrem, Qtrunc.
  assert (D : q / 365 * 365 == q) by (field; lra).
  assert (Hb : 1 <= q / 365 < 2) by (split; lra).
  rewrite (proj2 (Qle_bool_iff 0 (q / 365))) by lra.
  rewrite (floor_unique (q / 365) 1); [change (inject_Z 1) with 1; ring| |]; change (inject_Z 1) with 1; lra.
Qed.

Lemma from_doy_total q n : 0 <= n < 365 -> q == n ->
  exists d, from_day_of_year q = Some d /\ valid_date d /\ position d == n.
Proof.
  intros H E. destruct (from_day_of_year_spec q) as (d & A & B & C).
  - rewrite E. exact H.
  - exists d. split; [exact A|]. split; [exact B|]. rewrite C. exact E.
Qed.

Lemma mixes_interpolate a b x d r : cw_interpolate a b x = Some r -> interpolate (date a) (date b) x = Some d ->
  date r = d /\ mixes x a b r.
Proof.
  unfold cw_interpolate. intros H E. rewrite E in H. injection H as <-. split; [reflexivity|].
  split.
  - intros f Hf. unfold quantities in Hf. cbn [In] in Hf.
    repeat (destruct Hf as [<-|Hf]; [cbn; unfold interp; ring|]). destruct Hf.
  - cbn. unfold interp_opt. destruct (horizontal_infrared_radiation_intensity a), (horizontal_infrared_radiation_intensity b); auto.
    unfold interp. ring.
Qed.

Lemma mixes_eq x w a b r : x == w -> mixes x a b r -> mixes w a b r.
Proof.
  intros E [A B]. split.
  - intros f Hf. rewrite (A f Hf), E. reflexivity.
  - destruct (horizontal_infrared_radiation_intensity a), (horizontal_infrared_radiation_intensity b), (horizontal_infrared_radiation_intensity r);
      auto. now rewrite B, E.
Qed.

Lemma interp_date a b da db x full : valid_date a -> valid_date b ->
  day_of_year a = Some da -> day_of_year b = Some db ->
  full == da + x * ((if Qltb db da then db + 365 else db) - da) -> 0 <= full -> full < 730 ->
  exists d, interpolate a b x = Some d /\ valid_date d /\ position d == (if Qltb full 365 then full else full - 365).
Proof.
  intros Va Vb Ea Eb Ef L U. unfold interpolate. rewrite Ea, Eb.
  set (q := da + x * ((if Qltb db da then db + 365 else db) - da)) in *.
  destruct (Qltb full 365) eqn:E.
  - apply Qltb_lt in E. apply from_doy_total; [lra|]. rewrite Qrem_small; lra.
  - apply Qltb_ge in E. apply from_doy_total; [lra|]. rewrite Qrem_once; lra.
Qed.

(** Two records in increasing order and an instant between them. *)
Lemma interpolate_inside a b d : valid_date (date a) -> valid_date (date b) -> valid_date d ->
  position (date a) < position d -> position d < position (date b) ->
  exists da db dd r, day_of_year (date a) = Some da /\ day_of_year (date b) = Some db /\ day_of_year d = Some dd /\
    cw_interpolate a b ((dd - da) / (db - da)) = Some r /\ valid_date (date r) /\ position (date r) == position d /\
    mixes ((position d - position (date a)) / (position (date b) - position (date a))) a b r.
Proof.
  intros Va Vb Vd H1 H2.
  pose proof (valid_position _ Va) as Pa. pose proof (valid_position _ Vb) as Pb. pose proof (valid_position _ Vd) as Pd.
  destruct (day_of_year_position (date a)) as (da & Ea & Qa); [apply Va|].
  destruct (day_of_year_position (date b)) as (db & Eb & Qb); [apply Vb|].
  destruct (day_of_year_position d) as (dd & Ed & Qd); [apply Vd|].
  set (x := (dd - da) / (db - da)).
  assert (X : x * (db - da) == dd - da) by (unfold x; field; lra).
  destruct (interp_date (date a) (date b) da db x dd) as (r & R1 & R2 & R3); auto.
  { replace (Qltb db da) with false by (symmetry; apply Qltb_ge; lra). lra. }
  { lra. } { lra. }
  replace (Qltb dd 365) with true in R3 by (symmetry; apply Qltb_lt; lra).
  assert (exists w, cw_interpolate a b x = Some w) as (w & W) by (unfold cw_interpolate; rewrite R1; eauto).
  destruct (mixes_interpolate a b x r w W R1) as [D M].
  exists da, db, dd, w. rewrite D. repeat (split; [solve [auto|lra]|]).
  apply (mixes_eq x); [|exact M]. unfold x. rewrite Qd, Qa, Qb. reflexivity.
Qed.

(** An instant before the first record: between the last one of the year before and the first one. *)
Lemma interpolate_wrap last first d : valid_date (date last) -> valid_date (date first) -> valid_date d ->
  position d < position (date first) -> position (date first) < position (date last) ->
  exists dl df dd r, day_of_year (date last) = Some dl /\ day_of_year (date first) = Some df /\ day_of_year d = Some dd /\
    cw_interpolate last first ((dd + 365 - dl) / (df + 365 - dl)) = Some r /\ valid_date (date r) /\ position (date r) == position d /\
    mixes ((position d + 365 - position (date last)) / (position (date first) + 365 - position (date last))) last first r.
Proof.
  intros Va Vb Vd H1 H2.
  pose proof (valid_position _ Va) as Pa. pose proof (valid_position _ Vb) as Pb. pose proof (valid_position _ Vd) as Pd.
  destruct (day_of_year_position (date last)) as (da & Ea & Qa); [apply Va|].
  destruct (day_of_year_position (date first)) as (db & Eb & Qb); [apply Vb|].
  destruct (day_of_year_position d) as (dd & Ed & Qd); [apply Vd|].
  set (x := (dd + 365 - da) / (db + 365 - da)).
  assert (X : x * (db + 365 - da) == dd + 365 - da) by (unfold x; field; lra).
  destruct (interp_date (date last) (date first) da db x (dd + 365)) as (r & R1 & R2 & R3); auto.
  { replace (Qltb db da) with true by (symmetry; apply Qltb_lt; lra). lra. }
  { lra. } { lra. }
  replace (Qltb (dd + 365) 365) with false in R3 by (symmetry; apply Qltb_ge; lra).
  assert (exists w, cw_interpolate last first x = Some w) as (w & W) by (unfold cw_interpolate; rewrite R1; eauto).
  destruct (mixes_interpolate last first x r w W R1) as [D M].
  exists da, db, dd, w. rewrite D. repeat (split; [solve [auto|lra]|]).
  apply (mixes_eq x); [|exact M]. unfold x. rewrite Qd, Qa, Qb. reflexivity.
Qed.

Lemma mixes_between w a b r f : mixes w a b r -> 0 <= w <= 1 -> In f quantities ->
  (f a <= f r <= f b) \/ (f b <= f r <= f a).
Proof.
  intros [A _] Hw Hf. specialize (A f Hf).
  destruct (Qlt_le_dec (f a) (f b)) as [L|L]; [left|right]; rewrite A; split; nra.
Qed.

Lemma cmp_lt a b : valid_date a -> valid_date b -> date_cmp a b = Lt -> position a < position b.
Proof. intros Va Vb H. rewrite date_cmp_position in H by assumption. apply Qlt_alt. exact H. Qed.
Lemma cmp_gt a b : valid_date a -> valid_date b -> date_cmp a b = Gt -> position b < position a.
Proof. intros Va Vb H. rewrite date_cmp_position in H by assumption. apply Qgt_alt. exact H. Qed.
Lemma cmp_eq a b : valid_date a -> valid_date b -> date_cmp a b = Eq -> position a == position b.
Proof. intros Va Vb H. rewrite date_cmp_position in H by assumption. apply Qeq_alt. exact H. Qed.

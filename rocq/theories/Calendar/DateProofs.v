From Coq Require Import ZArith QArith Qround Lia Lqa List Bool.
From Verif.Calendar Require Import DateModel DateSpec.
Import ListNotations.
Local Open Scope Z_scope.

Lemma month_cases m : 1 <= m <= 12 ->
  m = 1 \/ m = 2 \/ m = 3 \/ m = 4 \/ m = 5 \/ m = 6 \/ m = 7 \/ m = 8 \/ m = 9
  \/ m = 10 \/ m = 11 \/ m = 12.
Proof. lia. Qed.
(** evaluate the calendar tables on literal months *)
Ltac tables := repeat match goal with
  | |- context [days_before (Z.to_nat ?x)] =>
      let c := eval vm_compute in (days_before (Z.to_nat x)) in change (days_before (Z.to_nat x)) with c
  | H : context [days_before (Z.to_nat ?x)] |- _ =>
      let c := eval vm_compute in (days_before (Z.to_nat x)) in change (days_before (Z.to_nat x)) with c in H
  | |- context [month_length ?x] =>
      let c := eval vm_compute in (month_length x) in change (month_length x) with c
  | H : context [month_length ?x] |- _ =>
      let c := eval vm_compute in (month_length x) in change (month_length x) with c in H
  end.
(** linear arithmetic over Q with division by the constants of the code *)
Ltac qlra := unfold Qdiv in *; change (/ 24)%Q with (1 # 24)%Q in *; change (/ 3600)%Q with (1 # 3600)%Q in *; lra.
Lemma inject_Z_minus a b : inject_Z (a - b) = (inject_Z a - inject_Z b)%Q.
Proof. unfold Z.sub, Qminus. rewrite inject_Z_plus, inject_Z_opp. reflexivity. Qed.
Ltac months H := apply month_cases in H;
  destruct H as [H|[H|[H|[H|[H|[H|[H|[H|[H|[H|[H|H]]]]]]]]]]].

Lemma month_length_bounds m : 28 <= month_length m <= 31.
Proof. unfold month_length. destruct (m =? 2); [lia|]. destruct (_ || _); lia. Qed.

Lemma index_days m : 1 <= m <= 12 -> index N_DAYS_PER_MONTH (m - 1) = Some (month_length m).
Proof. intros H. months H; subst; reflexivity. Qed.

Lemma index_cum m : 1 <= m <= 12 ->
  index CUMULATED_DAYS_BEFORE_MONTH (m - 1) = Some (days_before (Z.to_nat (m - 1))).
Proof. intros H. months H; subst; reflexivity. Qed.

Lemma day_of_year_position d : 1 <= month d <= 12 ->
  exists q, day_of_year d = Some q /\ (q == position d)%Q.
Proof.
  intros H. unfold day_of_year. rewrite index_cum by assumption.
  eexists; split; [reflexivity|].
  unfold position, day_index. rewrite inject_Z_minus, inject_Z_plus.
  change (inject_Z 1) with 1%Q. lra.
Qed.

Lemma valid_day_index d : valid_date d -> 0 <= day_index d < 365.
Proof.
  intros (Hm & Hd & _). destruct d as [m dy h]; cbn [month day hour] in *. unfold day_index; cbn [month day hour].
  months Hm; subst; tables; lia.
Qed.

Lemma valid_position d : valid_date d -> (0 <= position d < 365)%Q.
Proof.
  intros V. pose proof (valid_day_index d V) as [A B]. destruct V as (_ & _ & H0 & H24).
  assert (H1 : (0 <= inject_Z (day_index d))%Q) by (rewrite <- (Zle_Qle 0); assumption).
  assert (H2 : (inject_Z (day_index d) <= 364)%Q) by (rewrite <- (Zle_Qle _ 364); lia).
  unfold position. split; qlra.
Qed.

(** dates with the same position are the same date *)
Lemma day_index_inj m1 d1 m2 d2 h1 h2 :
  1 <= m1 <= 12 -> 1 <= m2 <= 12 -> 1 <= d1 <= month_length m1 -> 1 <= d2 <= month_length m2 ->
  day_index (mkDate m1 d1 h1) = day_index (mkDate m2 d2 h2) -> m1 = m2 /\ d1 = d2.
Proof.
  unfold day_index; cbn [month day hour]. intros M1 M2 D1 D2 E.
  months M1; subst; months M2; subst; tables; lia.
Qed.

Lemma day_index_lt m1 d1 m2 d2 h1 h2 :
  1 <= m1 <= 12 -> 1 <= m2 <= 12 -> 1 <= d1 <= month_length m1 -> 1 <= d2 <= month_length m2 ->
  (m1 < m2 \/ (m1 = m2 /\ d1 < d2)) -> day_index (mkDate m1 d1 h1) < day_index (mkDate m2 d2 h2).
Proof.
  unfold day_index; cbn [month day hour]. intros M1 M2 D1 D2 E.
  months M1; subst; months M2; subst; tables; lia.
Qed.

Lemma Qltb_lt a b : Qltb a b = true <-> (a < b)%Q.
Proof.
  unfold Qltb. rewrite negb_true_iff.
  destruct (Qle_bool b a) eqn:E.
  - apply Qle_bool_iff in E. split; intros; [discriminate|lra].
  - split; auto. intros _. apply Qnot_le_lt. intros C. apply Qle_bool_iff in C. congruence.
Qed.
Lemma Qltb_ge a b : Qltb a b = false <-> (b <= a)%Q.
Proof.
  unfold Qltb. rewrite negb_false_iff. apply Qle_bool_iff.
Qed.
Lemma Qle_bool_false a b : Qle_bool a b = false <-> (b < a)%Q.
Proof.
  rewrite <- Qltb_lt. unfold Qltb. rewrite negb_true_iff. tauto.
Qed.

Lemma inject_Z_lt_step a b : a < b -> (inject_Z a + 1 <= inject_Z b)%Q.
Proof.
  intros. change 1%Q with (inject_Z 1). rewrite <- inject_Z_plus, <- Zle_Qle. lia.
Qed.

Lemma date_cmp_position a b : valid_date a -> valid_date b ->
  date_cmp a b = (position a ?= position b)%Q.
Proof.
  intros Va Vb. destruct a as [m1 d1 h1], b as [m2 d2 h2].
  destruct Va as (M1 & D1 & H1 & H1'), Vb as (M2 & D2 & H2 & H2'); cbn in *.
  unfold date_cmp; cbn.
  assert (L : forall x y, (inject_Z x + 1 <= inject_Z y)%Q ->
     (inject_Z x + h1 / 24 < inject_Z y + h2 / 24)%Q) by (intros; qlra).
  assert (G : forall x y, (inject_Z y + 1 <= inject_Z x)%Q ->
     (inject_Z y + h2 / 24 < inject_Z x + h1 / 24)%Q) by (intros; qlra).
  destruct (Z.compare_spec m1 m2) as [Em|Em|Em].
  - destruct (Z.compare_spec d1 d2) as [Ed|Ed|Ed].
    + subst. unfold position; cbn.
      change (day_index (mkDate m2 d2 h1)) with (day_index (mkDate m2 d2 h2)).
      set (z := inject_Z _).
      destruct (Qltb h1 h2) eqn:E1; [|destruct (Qltb h2 h1) eqn:E2].
      * apply Qltb_lt in E1. symmetry; apply (proj1 (Qlt_alt _ _)). qlra.
      * apply Qltb_lt in E2. symmetry; apply (proj1 (Qgt_alt _ _)). qlra.
      * apply Qltb_ge in E1, E2. symmetry; apply (proj1 (Qeq_alt _ _)). qlra.
    + symmetry; apply (proj1 (Qlt_alt _ _)). apply L, inject_Z_lt_step, day_index_lt; auto.
    + symmetry; apply (proj1 (Qgt_alt _ _)). apply G, inject_Z_lt_step, day_index_lt; auto.
  - symmetry; apply (proj1 (Qlt_alt _ _)). apply L, inject_Z_lt_step, day_index_lt; auto.
  - symmetry; apply (proj1 (Qgt_alt _ _)). apply G, inject_Z_lt_step, day_index_lt; auto.
Qed.

Lemma date_le_position a b : valid_date a -> valid_date b ->
  date_le a b = true <-> (position a <= position b)%Q.
Proof.
  intros. unfold date_le. rewrite date_cmp_position by assumption.
  destruct (Qcompare_spec (position a) (position b)); split; intros; try discriminate; try lra; auto.
Qed.
Lemma date_lt_position a b : valid_date a -> valid_date b ->
  date_lt a b = true <-> (position a < position b)%Q.
Proof.
  intros. unfold date_lt. rewrite date_cmp_position by assumption.
  destruct (Qcompare_spec (position a) (position b)); split; intros; try discriminate; try lra; auto.
Qed.

Lemma floor_unique q z : (inject_Z z <= q)%Q -> (q < inject_Z z + 1)%Q -> Qfloor q = z.
Proof.
  intros A B. pose proof (Qfloor_le q) as C. pose proof (Qlt_floor q) as D.
  rewrite inject_Z_plus in D. change (inject_Z 1) with 1%Q in D.
  assert (inject_Z z < inject_Z (Qfloor q) + inject_Z 1)%Q as E1 by (change (inject_Z 1) with 1%Q; lra).
  assert (inject_Z (Qfloor q) < inject_Z z + inject_Z 1)%Q as E2 by (change (inject_Z 1) with 1%Q; lra).
  rewrite <- inject_Z_plus, <- Zlt_Qlt in E1, E2. lia.
Qed.

Lemma position_inj a b : valid_date a -> valid_date b ->
  (position a == position b)%Q -> date_eq a b.
Proof.
  intros Va Vb E. 
  assert (C : date_cmp a b = Eq) by (rewrite date_cmp_position by assumption; apply Qeq_alt; exact E).
  unfold date_cmp in C. destruct (Z.compare_spec (month a) (month b)); try discriminate.
  destruct (Z.compare_spec (day a) (day b)); try discriminate.
  destruct (Qltb (hour a) (hour b)) eqn:E1; try discriminate.
  destruct (Qltb (hour b) (hour a)) eqn:E2; try discriminate.
  apply Qltb_ge in E1, E2. repeat split; auto. lra.
Qed.

Lemma date_eqb_eq a b : date_eqb a b = true <-> date_eq a b.
Proof.
  unfold date_eqb, date_eq. rewrite !andb_true_iff, !Z.eqb_eq, Qeq_bool_iff. tauto.
Qed.

Lemma date_in_month_ok n m c : 1 <= m <= 12 -> c = days_before (Z.to_nat (m - 1)) ->
  (inject_Z c <= n)%Q -> (n < inject_Z (c + month_length m))%Q ->
  valid_date (date_in_month n m c) /\ (position (date_in_month n m c) == n)%Q.
Proof.
  intros Hm Hc L U. unfold date_in_month.
  set (dh := (n - inject_Z c)%Q).
  pose proof (Qfloor_le dh) as F1. pose proof (Qlt_floor dh) as F2.
  rewrite inject_Z_plus in F2; change (inject_Z 1) with 1%Q in F2.
  assert (B0 : 0 <= Qfloor dh).
  { assert (inject_Z 0 < inject_Z (Qfloor dh) + inject_Z 1)%Q as E1.
    { change (inject_Z 0) with 0%Q; change (inject_Z 1) with 1%Q. unfold dh in *; lra. }
    rewrite <- inject_Z_plus, <- Zlt_Qlt in E1. lia. }
  assert (B1 : Qfloor dh < month_length m).
  { rewrite inject_Z_plus in U. rewrite Zlt_Qlt. unfold dh in *; lra. }
  pose proof (month_length_bounds m) as MB.
  assert (E : as_u8 (1 + Z.min 255 (Z.max 0 (Qfloor dh))) = 1 + Qfloor dh).
  { unfold as_u8. rewrite Z.max_r, Z.min_r by lia. apply Z.mod_small. lia. }
  rewrite E. split.
  - unfold valid_date; cbn [month day hour]. repeat split; try lia; lra.
  - unfold position, day_index; cbn [month day hour]. rewrite <- Hc.
    replace (c + (1 + Qfloor dh) - 1) with (c + Qfloor dh) by lia.
    rewrite inject_Z_plus. unfold dh in *. field_simplify. lra.
Qed.

Lemma from_day_of_year_spec n : (0 <= n < 365)%Q ->
  exists d, from_day_of_year n = Some d /\ valid_date d /\ (position d == n)%Q.
Proof.
  intros [L U]. unfold from_day_of_year.
  rewrite (proj2 (Qle_bool_iff 0 n) L), (proj2 (Qltb_lt n 365) U). cbn [andb].
  eexists; split; [reflexivity|].
  unfold CUMULATED_DAYS_BEFORE_MONTH, find_month.
  repeat match goal with
  | |- context [if Qltb ?x ?y then _ else _] =>
      let E := fresh "E" in destruct (Qltb x y) eqn:E; [apply Qltb_lt in E|apply Qltb_ge in E]
  end; unfold inject_Z in *; try (exfalso; lra);
  apply date_in_month_ok; try reflexivity; try lia; tables; unfold inject_Z; try assumption; try (eapply Qlt_le_trans; [eassumption|]; apply Qle_bool_iff; reflexivity).
Qed.

(** Rust [add_days] on a date of the year: when the target day number stays below
    256 the calendar advances correctly. *)
Lemma add_days_f_ok : forall k fuel d n, valid_date d -> 0 <= n < 365 -> day d + n <= 255 ->
  (day d + n <= 28 * Z.of_nat k) -> (k < fuel)%nat ->
  exists d', add_days_f fuel d n = Some d' /\ valid_date d' /\
    hour d' = hour d /\ day_index d' = (day_index d + n) mod 365.
Proof.
  induction k as [|k IH]; intros fuel d n V Hn Hw Hk Hf.
  { destruct V as (_ & D & _). lia. }
  destruct fuel as [|fuel]; [lia|]. cbn [add_days_f].
  rewrite (Z.mod_small n) by lia.
  destruct (Z.ltb_spec 0 n) as [Hpos|Hz].
  2:{ exists d. replace n with 0 by lia. rewrite Z.add_0_r.
      rewrite Z.mod_small by (apply valid_day_index; assumption). auto. }
  pose proof V as (M & D & H0 & H24). rewrite index_days by assumption.
  pose proof (month_length_bounds (month d)) as MB.
  unfold as_u8 at 1. rewrite (Z.mod_small (day d + n)) by lia.
  destruct (Z.ltb_spec (month_length (month d)) (day d + n)) as [Hgt|Hle].
  - set (m' := if as_u8 (month d + 1) =? 13 then 1 else as_u8 (month d + 1)).
    assert (Hm' : 1 <= m' <= 12 /\
       days_before (Z.to_nat (m' - 1)) = (days_before (Z.to_nat (month d - 1)) + month_length (month d)) mod 365).
    { unfold m'. clear - M. destruct d as [mm dd hh]; cbn in *. months M; subst; vm_compute; split; try reflexivity; split; discriminate. }
    destruct Hm' as [Hm' Hdb].
    pose proof (month_length_bounds m') as MB'.
    assert (V0 : valid_date (mkDate m' 1 (hour d))).
    { unfold valid_date; cbn [month day hour]. repeat split; try lia; assumption. }
    destruct (IH fuel (mkDate m' 1 (hour d)) (day d + n - month_length (month d) - 1))
      as (d' & E & V' & Hh & Hi); cbn [month day hour]; try lia; try assumption.
    exists d'. split; [exact E|]. split; [exact V'|]. split; [exact Hh|].
    rewrite Hi. unfold day_index at 1; cbn [month day]. rewrite Hdb.
    replace ((days_before (Z.to_nat (month d - 1)) + month_length (month d)) mod 365 + 1 - 1 +
       (day d + n - month_length (month d) - 1))
      with ((days_before (Z.to_nat (month d - 1)) + month_length (month d)) mod 365 +
       (day d + n - month_length (month d) - 1)) by lia.
    rewrite Zplus_mod_idemp_l. unfold day_index. f_equal. lia.
  - eexists; split; [reflexivity|].
    assert (E : as_u8 (day d + as_u8 n) = day d + n).
    { unfold as_u8. rewrite (Z.mod_small n) by lia. apply Z.mod_small; lia. }
    rewrite E.
    assert (V' : valid_date (mkDate (month d) (day d + n) (hour d))).
    { unfold valid_date; cbn [month day hour]. repeat split; try lia; assumption. }
    repeat split; try apply V'; try reflexivity.
    pose proof (valid_day_index _ V') as B.
    unfold day_index in *; cbn [month day] in *.
    rewrite Z.mod_small; lia.
Qed.

(** … and when it does not, the result is off by exactly 256 days (or day 0). *)
Lemma add_days_f_bad : forall k fuel d n, valid_date d -> 0 <= n < 365 -> 257 <= day d + n ->
  (day d + n <= 256 + 28 * Z.of_nat k) -> (k < fuel)%nat -> (day d = 1 \/ 288 <= day d + n) ->
  exists d', add_days_f fuel d n = Some d' /\ valid_date d' /\
    hour d' = hour d /\ day_index d' = (day_index d + n - 256) mod 365.
Proof.
  induction k as [|k IH]; intros fuel d n V Hn Hw Hk Hf Hd1.
  { lia. }
  destruct fuel as [|fuel]; [lia|]. cbn [add_days_f].
  rewrite (Z.mod_small n) by lia.
  pose proof V as (M & D & H0 & H24).
  pose proof (month_length_bounds (month d)) as MB.
  destruct (Z.ltb_spec 0 n) as [Hpos|Hz]; [|lia].
  rewrite index_days by assumption.
  assert (E8 : as_u8 (day d + n) = day d + n - 256).
  { unfold as_u8. replace (day d + n) with (day d + n - 256 + 1 * 256) at 1 by lia.
    rewrite Z_mod_plus_full. apply Z.mod_small. lia. }
  rewrite E8.
  destruct (Z.ltb_spec (month_length (month d)) (day d + n - 256)) as [Hgt|Hle].
  - set (m' := if as_u8 (month d + 1) =? 13 then 1 else as_u8 (month d + 1)).
    assert (Hm' : 1 <= m' <= 12 /\
       days_before (Z.to_nat (m' - 1)) = (days_before (Z.to_nat (month d - 1)) + month_length (month d)) mod 365).
    { unfold m'. clear - M. destruct d as [mm dd hh]; cbn in *. months M; subst; vm_compute; split; try reflexivity; split; discriminate. }
    destruct Hm' as [Hm' Hdb].
    pose proof (month_length_bounds m') as MB'.
    assert (V0 : valid_date (mkDate m' 1 (hour d))).
    { unfold valid_date; cbn [month day hour]. repeat split; try lia; assumption. }
    destruct (IH fuel (mkDate m' 1 (hour d)) (day d + n - month_length (month d) - 1))
      as (d' & E & V' & Hh & Hi); cbn [month day hour]; try lia; try assumption.
    exists d'. split; [exact E|]. split; [exact V'|]. split; [exact Hh|].
    rewrite Hi. unfold day_index at 1; cbn [month day]. rewrite Hdb.
    replace ((days_before (Z.to_nat (month d - 1)) + month_length (month d)) mod 365 + 1 - 1 +
       (day d + n - month_length (month d) - 1) - 256)
      with ((days_before (Z.to_nat (month d - 1)) + month_length (month d)) mod 365 +
       (day d + n - month_length (month d) - 1 - 256)) by lia.
    rewrite Zplus_mod_idemp_l. unfold day_index. f_equal. lia.
  - destruct Hd1 as [Hd1|]; [|lia].
    eexists; split; [reflexivity|].
    assert (E : as_u8 (day d + as_u8 n) = day d + n - 256).
    { unfold as_u8. replace n with (n - 256 + 1 * 256) at 1 by lia. rewrite Z_mod_plus_full.
      rewrite (Z.mod_small (n - 256)) by lia. rewrite Z.mod_small; lia. }
    rewrite E.
    assert (V' : valid_date (mkDate (month d) (day d + n - 256) (hour d))).
    { unfold valid_date; cbn [month day hour]. repeat split; try lia; assumption. }
    repeat split; try apply V'; try reflexivity.
    pose proof (valid_day_index _ V') as B.
    unfold day_index in *; cbn [month day] in *.
    rewrite Z.mod_small; lia.
Qed.

Lemma add_days_mod fuel d n : add_days_f fuel d n = add_days_f fuel d (n mod 365).
Proof. destruct fuel; cbn; [reflexivity|]. rewrite Zmod_mod. reflexivity. Qed.

Lemma add_days_ok d n : valid_date d -> day d + n mod 365 <= 255 ->
  exists d', add_days d n = Some d' /\ valid_date d' /\ hour d' = hour d /\
    day_index d' = (day_index d + n) mod 365.
Proof.
  intros V H. unfold add_days. rewrite add_days_mod.
  assert (B := Z.mod_pos_bound n 365 ltac:(lia)).
  pose proof V as (_ & D & _).
  destruct (add_days_f_ok 10 16 d (n mod 365)) as (d' & E & V' & Hh & Hi); auto; try lia.
  exists d'. repeat split; auto; try apply V'. rewrite Hi, Zplus_mod_idemp_r. reflexivity.
Qed.

(** the first month is full, or the date is the first of a month *)
Lemma add_days_bad d n : valid_date d -> 288 <= day d + n mod 365 \/ (day d = 1 /\ 256 <= n mod 365) ->
  exists d', add_days d n = Some d' /\ valid_date d' /\ hour d' = hour d /\
    day_index d' = (day_index d + n - 256) mod 365.
Proof.
  intros V H. unfold add_days. rewrite add_days_mod.
  assert (B := Z.mod_pos_bound n 365 ltac:(lia)).
  pose proof V as (_ & D & _). pose proof (month_length_bounds (month d)).
  destruct (add_days_f_bad 5 16 d (n mod 365)) as (d' & E & V' & Hh & Hi); auto; try lia.
  exists d'. repeat split; auto; try apply V'. rewrite Hi.
  replace (day_index d + n mod 365 - 256) with (day_index d - 256 + n mod 365) by lia.
  rewrite Zplus_mod_idemp_r. f_equal. lia.
Qed.

Lemma inject_Z_mod365 z : exists k, (inject_Z (z mod 365) == inject_Z z + 365 * inject_Z k)%Q.
Proof.
  exists (- (z / 365)). pose proof (Z.div_mod z 365 ltac:(lia)).
  change 365%Q with (inject_Z 365). rewrite <- inject_Z_mult, <- inject_Z_plus.
  apply inject_Z_injective. lia.
Qed.

Lemma same_instant_refl x y : (x == y)%Q -> same_instant x y.
Proof. intros. exists 0. rewrite H. change (inject_Z 0) with 0%Q. lra. Qed.
Lemma same_instant_trans x y z : same_instant x y -> same_instant y z -> same_instant x z.
Proof. intros [k E] [l F]. exists (k + l). rewrite inject_Z_plus. lra. Qed.

Lemma same_instant_eq a b : (0 <= a < 365)%Q -> (0 <= b < 365)%Q -> same_instant a b -> (a == b)%Q.
Proof.
  intros A B [k E].
  assert (k = 0).
  { assert (inject_Z (-1) < inject_Z k)%Q by (change (inject_Z (-1)) with (-(1))%Q; lra).
    assert (inject_Z k < inject_Z 1)%Q by (change (inject_Z 1) with 1%Q; lra).
    rewrite <- Zlt_Qlt in *. lia. }
  subst. change (inject_Z 0) with 0%Q in E. lra.
Qed.

(** the hour is only carried along *)
Lemma add_days_f_carry : forall fuel m dy h h' n, add_days_f fuel (mkDate m dy h') n =
  option_map (fun r => mkDate (month r) (day r) h') (add_days_f fuel (mkDate m dy h) n).
Proof.
  induction fuel; intros; cbn [add_days_f month day hour]; [reflexivity|].
  destruct (0 <? n mod 365); [|reflexivity].
  destruct (index _ _); [|reflexivity].
  destruct (_ <? _); [|reflexivity].
  apply IHfuel.
Qed.
Lemma add_days_carry m dy h h' n : add_days (mkDate m dy h') n =
  option_map (fun r => mkDate (month r) (day r) h') (add_days (mkDate m dy h) n).
Proof. apply add_days_f_carry. Qed.

(** Adding a duration of at most 224 days. *)
Lemma add_hours_ok d h : valid_date d -> (0 <= h)%Q -> (h < 24 * 224)%Q ->
  exists d', add_hours d h = Some d' /\ valid_date d' /\
    same_instant (position d') (position d + h / 24).
Proof.
  intros V H0 H1. unfold add_hours.
  set (nd := Qfloor (h / 24)).
  pose proof (Qfloor_le (h / 24)) as F1. pose proof (Qlt_floor (h / 24)) as F2.
  fold nd in F1, F2. rewrite inject_Z_plus in F2; change (inject_Z 1) with 1%Q in F2.
  assert (N0 : 0 <= nd).
  { assert (inject_Z 0 < inject_Z nd + inject_Z 1)%Q as E1.
    { change (inject_Z 0) with 0%Q; change (inject_Z 1) with 1%Q. qlra. }
    rewrite <- inject_Z_plus, <- Zlt_Qlt in E1. lia. }
  assert (N1 : nd < 224).
  { rewrite Zlt_Qlt. change (inject_Z 224) with 224%Q. qlra. }
  assert (EU : as_usize nd = nd) by (unfold as_usize; rewrite Z.max_r, Z.min_r; lia).
  rewrite EU.
  pose proof V as (_ & D & _). pose proof (month_length_bounds (month d)).
  destruct (add_days_ok d nd V) as (d1 & E1 & V1 & Hh1 & Hi1).
  { rewrite Z.mod_small by lia. lia. }
  rewrite E1.
  set (hh := (hour d1 + (h - 24 * inject_Z nd))%Q).
  pose proof V1 as (M1 & D1 & G0 & G24).
  destruct (inject_Z_mod365 (day_index d + nd)) as [k1 Hk1].
  destruct (Qle_bool 24 hh) eqn:EL.
  - apply Qle_bool_iff in EL.
    (* add one more day, with a date whose hour is >= 24: use the date at hour 0 *)
    set (d2 := mkDate (month d1) (day d1) hh).
    set (d2' := mkDate (month d1) (day d1) (hour d1)).
    assert (V2 : valid_date d2') by (unfold valid_date; cbn; auto).
    pose proof (month_length_bounds (month d1)).
    destruct (add_days_ok d2' 1 V2) as (d3 & E3 & V3 & Hh3 & Hi3).
    { rewrite Z.mod_small by lia. cbn. lia. }
    assert (E2 : add_days d2 1 = Some (mkDate (month d3) (day d3) hh)).
    { unfold d2. rewrite (add_days_carry _ _ (hour d1)). fold d2'. rewrite E3. reflexivity. }
    rewrite E2. eexists; split; [reflexivity|]. cbn [month day hour].
    assert (ER : (Qrem hh 24 == hh - 24)%Q).
    { unfold Qrem, Qtrunc.
      assert (LE : Qle_bool 0 (hh / 24) = true) by (apply Qle_bool_iff; qlra).
      rewrite LE. rewrite (floor_unique (hh / 24) 1).
      - change (inject_Z 1) with 1%Q. qlra.
      - change (inject_Z 1) with 1%Q. qlra.
      - change (inject_Z 1) with 1%Q. unfold hh. qlra. }
    pose proof V3 as (M3 & D3 & _ & _).
    split.
    + unfold valid_date; cbn [month day hour]. repeat split; try lia; try rewrite ER; unfold hh in *; qlra.
    + unfold position; cbn [hour]. unfold day_index; cbn [month day].
      fold (day_index d3). change (days_before (Z.to_nat (month d3 - 1)) + day d3 - 1) with (day_index d3).
      destruct (inject_Z_mod365 (day_index d2' + 1)) as [k3 Hk3].
      rewrite <- Hi3 in Hk3. change (day_index d2') with (day_index d1) in Hk3.
      rewrite <- Hi1 in Hk1.
      exists (k1 + k3). rewrite !inject_Z_plus in *. change (inject_Z 1) with 1%Q in *.
      change (days_before (Z.to_nat (month d - 1)) + day d - 1) with (day_index d).
      rewrite ER. unfold hh. rewrite Hh1. qlra.
  - apply Qle_bool_false in EL.
    eexists; split; [reflexivity|]. split.
    + unfold valid_date; cbn [month day hour]. repeat split; try lia; unfold hh in *; qlra.
    + unfold position; cbn [hour]. 
      change (day_index (mkDate (month d1) (day d1) hh)) with (day_index d1).
      exists k1. rewrite Hi1, Hk1, inject_Z_plus. unfold hh. rewrite Hh1. qlra.
Qed.

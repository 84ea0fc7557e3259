(** C109: where surfaces look. *)
From Coq Require Import Reals Bool Lra Psatz.
From Verif.Common Require Import Base Flt REval.
From Verif.Geometry Require Import Vec OrientationModel.
From Verif.Weather Require Import SunModel.
From Verif.Heat Require Import MarchModel.
Open Scope R_scope.

(** * Specification *)

(** Compass directions in degrees from north over east; a horizontal surface has none *)
Definition azimuth (o : orientation) : option R :=
  match o with
  | Horizontal => None
  | North => Some 0 | NorthEast => Some 45 | East => Some 90 | SouthEast => Some 135
  | South => Some 180 | SouthWest => Some 225 | West => Some 270 | NorthWest => Some 315
  end.
(** The horizontal unit vector with that azimuth: x points east and y north *)
Definition facing (degrees : R) : pt := mkV (sin (degrees * PI / 180)) (cos (degrees * PI / 180)) 0.
Definition unit_vector (n : pt) : Prop := vx n ^ 2 + vy n ^ 2 + vz n ^ 2 = 1.

Definition opposite (o : orientation) : orientation :=
  match o with
  | Horizontal => Horizontal
  | North => South | NorthEast => SouthWest | East => West | SouthEast => NorthWest
  | South => North | SouthWest => NorthEast | West => East | NorthWest => SouthEast
  end.
(** A quarter of a turn, from north to east *)
Definition quarter (o : orientation) : orientation :=
  match o with
  | Horizontal => Horizontal
  | North => East | NorthEast => SouthEast | East => South | SouthEast => SouthWest
  | South => West | SouthWest => NorthWest | West => North | NorthWest => NorthEast
  end.
(** Seen in a mirror that swaps east and west *)
Definition mirrored (o : orientation) : orientation :=
  match o with
  | Horizontal => Horizontal
  | North => North | NorthEast => NorthWest | East => West | SouthEast => SouthWest
  | South => South | SouthWest => SouthEast | West => East | NorthWest => NorthEast
  end.

(** * Proofs *)

Lemma cos45 : cos (to_radians 45) = 1 / sqrt 2.
Proof. unfold to_radians. replace (45 * (PI / 180)) with (PI / 4) by field. apply cos_PI4. Qed.

Lemma not_up z : Rleb (1 / sqrt 2) (Rabs z) = false <-> z * z < 1 / 2.
Proof.
  assert (S : 0 < sqrt 2) by (apply sqrt_lt_R0; lra). assert (Q : sqrt 2 * sqrt 2 = 2) by (apply sqrt_sqrt; lra).
  assert (E : (1 / sqrt 2) * (1 / sqrt 2) = 1 / 2). { replace (1 / sqrt 2 * (1 / sqrt 2)) with (1 / (sqrt 2 * sqrt 2)) by (field; lra). rewrite Q. reflexivity. }
  assert (P : 0 < 1 / sqrt 2) by (apply Rdiv_lt_0_compat; lra).
  assert (Z : Rabs z * Rabs z = z * z) by (rewrite <- Rabs_mult; apply Rabs_pos_eq; nra).
  pose proof (Rabs_pos z). split; intros H1.
  - apply Rleb_false in H1. nra.
  - apply Rleb_false. nra.
Qed.

Definition sector (a b : R) (o : orientation) : Prop :=
  match o with
  | Horizontal => False
  | North => COS_22_5 < b
  | South => b < - COS_22_5
  | East => COS_22_5 < a
  | West => a < - COS_22_5
  | NorthEast => 0 < a <= COS_22_5 /\ 0 < b <= COS_22_5
  | NorthWest => 0 < - a <= COS_22_5 /\ 0 < b <= COS_22_5
  | SouthEast => 0 < a <= COS_22_5 /\ 0 < - b <= COS_22_5
  | SouthWest => 0 < - a <= COS_22_5 /\ 0 < - b <= COS_22_5
  end.

Lemma c_bounds : 92 / 100 < COS_22_5 < 93 / 100.
Proof. unfold COS_22_5. split; lra. Qed.

Lemma sector_unique a b o o' : a * a + b * b = 1 -> sector a b o -> sector a b o' -> o = o'.
Proof.
  intros U H K. pose proof c_bounds. destruct o, o'; cbn in H, K; try reflexivity; try contradiction; exfalso; try lra; nra.
Qed.

Definition horizontal_part (n : pt) : R := sqrt (vx n * vx n + vy n * vy n).

Lemma orientation_spec n : unit_vector n ->
  exists o, get_orientation n = Ok o /\
  ((o = Horizontal /\ 1 / 2 <= vz n * vz n) \/
   (vz n * vz n < 1 / 2 /\ o <> Horizontal /\ 0 < horizontal_part n <= 1 /\ exists a b, a * a + b * b = 1 /\ sector a b o /\
      vx n = horizontal_part n * a /\ vy n = horizontal_part n * b)).
Proof.
  intros U. unfold unit_vector in U. unfold get_orientation. cbv zeta. rewrite cos45.
  replace (vdot n (mkV 0 0 1)) with (vz n) by (unfold vdot; cbn [vx vy vz]; ring).
  destruct (Rleb (1 / sqrt 2) (Rabs (vz n))) eqn:E.
  { exists Horizontal. split; [reflexivity|]. left. split; [reflexivity|]. destruct (Rlt_dec (vz n * vz n) (1 / 2)) as [C|C]; [|lra].
    apply not_up in C. congruence. }
  apply not_up in E. unfold vnormalize, vlen2. cbn [vx vy vz]. cbv zeta.
  replace (vx n * vx n + vy n * vy n + 0 * 0) with (vx n * vx n + vy n * vy n) by ring.
  assert (H2 : 1 / 2 < vx n * vx n + vy n * vy n <= 1) by nra.
  assert (T : Rltb (1 / 10 ^ 20) (vx n * vx n + vy n * vy n) = true) by (apply Rltb_true; lra).
  rewrite T. cbn [bind]. cbn [vx vy vz].
  assert (Hp : 0 < horizontal_part n <= 1).
  { unfold horizontal_part. split; [apply sqrt_lt_R0; lra|]. apply Rle_trans with (sqrt 1); [apply sqrt_le_1_alt; lra|rewrite sqrt_1; lra]. }
  fold (horizontal_part n). set (h := horizontal_part n) in *. set (a := vx n * (1 / h)). set (b := vy n * (1 / h)).
  assert (Hh : h * h = vx n * vx n + vy n * vy n) by (unfold h, horizontal_part; apply sqrt_sqrt; lra).
  assert (Ea : vx n = h * a) by (unfold a; field; lra). assert (Eb : vy n = h * b) by (unfold b; field; lra).
  assert (Un : a * a + b * b = 1). { unfold a, b. replace (vx n * (1 / h) * (vx n * (1 / h)) + vy n * (1 / h) * (vy n * (1 / h))) with ((vx n * vx n + vy n * vy n) / (h * h)) by (field; lra). rewrite Hh. field. lra. }
  clearbody a b. pose proof c_bounds as C.
  assert (W : forall o, sector a b o -> o <> Horizontal /\ 0 < h <= 1 /\ exists a b, a * a + b * b = 1 /\ sector a b o /\ vx n = h * a /\ vy n = h * b).
  { intros o S. split; [destruct o; cbn in S; congruence|]. split; [exact Hp|]. exists a, b. auto. }
  destruct (Rltb_spec COS_22_5 b) as [N|N]; [exists North; split; [reflexivity|right; split; [exact E|apply W; exact N]]|].
  destruct (Rltb_spec 0 b) as [FN|FN], (Rltb_spec 0 a) as [FE|FE], (Rltb_spec b (- COS_22_5)) as [S|S],
    (Rltb_spec COS_22_5 a) as [Ea'|Ea'], (Rltb_spec a (- COS_22_5)) as [We|We]; cbn [andb negb]; try (exfalso; lra);
  try (exfalso; nra);
  match goal with |- exists o, Ok ?x = Ok o /\ _ => exists x; split; [reflexivity|right; split; [exact E|apply W; cbn; try lra]] end;
  repeat split; try lra; try nra.
Qed.

Definition q : R := 1 / sqrt 2.
Lemma q_facts : 0 < q /\ q * q = 1 / 2.
Proof.
  assert (S : 0 < sqrt 2) by (apply sqrt_lt_R0; lra). assert (Q : sqrt 2 * sqrt 2 = 2) by (apply sqrt_sqrt; lra).
  unfold q. split; [apply Rdiv_lt_0_compat; lra|]. replace (1 / sqrt 2 * (1 / sqrt 2)) with (1 / (sqrt 2 * sqrt 2)) by (field; lra). now rewrite Q.
Qed.
(** the eight directions *)
Definition direction (o : orientation) : R * R :=
  match o with
  | Horizontal => (0, 0)
  | North => (0, 1) | NorthEast => (q, q) | East => (1, 0) | SouthEast => (q, - q)
  | South => (0, -1) | SouthWest => (- q, - q) | West => (-1, 0) | NorthWest => (- q, q)
  end.
Lemma facing_direction o d : azimuth o = Some d -> facing d = mkV (fst (direction o)) (snd (direction o)) 0.
Proof.
  intros H. unfold facing. destruct o; cbn in H; try discriminate; injection H as <-; cbn [direction fst snd]; unfold q; f_equal.
  - replace (0 * PI / 180) with 0 by field. apply sin_0.
  - replace (0 * PI / 180) with 0 by field. apply cos_0.
  - replace (45 * PI / 180) with (PI / 4) by field. apply sin_PI4.
  - replace (45 * PI / 180) with (PI / 4) by field. apply cos_PI4.
  - replace (90 * PI / 180) with (PI / 2) by field. apply sin_PI2.
  - replace (90 * PI / 180) with (PI / 2) by field. apply cos_PI2.
  - replace (135 * PI / 180) with (3 * (PI / 4)) by field. apply sin_3PI4.
  - replace (135 * PI / 180) with (3 * (PI / 4)) by field. rewrite cos_3PI4. lra.
  - replace (180 * PI / 180) with PI by field. apply sin_PI.
  - replace (180 * PI / 180) with PI by field. apply cos_PI.
  - replace (225 * PI / 180) with (5 * (PI / 4)) by field. rewrite sin_5PI4. lra.
  - replace (225 * PI / 180) with (5 * (PI / 4)) by field. rewrite cos_5PI4. lra.
  - replace (270 * PI / 180) with (PI / 2 + PI) by field. rewrite neg_sin, sin_PI2. lra.
  - replace (270 * PI / 180) with (PI / 2 + PI) by field. rewrite neg_cos, cos_PI2. lra.
  - replace (315 * PI / 180) with (3 * (PI / 4) + PI) by field. rewrite neg_sin, sin_3PI4. lra.
  - replace (315 * PI / 180) with (3 * (PI / 4) + PI) by field. rewrite neg_cos, cos_3PI4. lra.
Qed.

(** cosine and sine of 22.5 degrees *)
Definition cos1 : R := sqrt ((2 + sqrt 2) / 4).
Definition sin1 : R := sqrt ((2 - sqrt 2) / 4).
Definition sin2 : R := sqrt (1 - COS_22_5 * COS_22_5).
Lemma KS_facts : 0 < cos1 /\ 0 < sin1 /\ cos1 * cos1 = (1 + q) / 2 /\ sin1 * sin1 = (1 - q) / 2 /\ sin1 * cos1 = q / 2.
Proof.
  assert (P : 0 < sqrt 2) by (apply sqrt_lt_R0; lra). assert (Q : sqrt 2 * sqrt 2 = 2) by (apply sqrt_sqrt; lra).
  assert (L : sqrt 2 < 2) by nra. assert (E : q = sqrt 2 / 2). { unfold q. apply Rmult_eq_reg_r with (sqrt 2); [|lra]. replace (1 / sqrt 2 * sqrt 2) with 1 by (field; lra). lra. }
  assert (k : 0 < cos1) by (apply sqrt_lt_R0; lra). assert (s : 0 < sin1) by (apply sqrt_lt_R0; lra).
  assert (KK : cos1 * cos1 = (1 + q) / 2) by (unfold cos1; rewrite sqrt_sqrt by lra; lra).
  assert (SS : sin1 * sin1 = (1 - q) / 2) by (unfold sin1; rewrite sqrt_sqrt by lra; lra).
  repeat split; try assumption.
  assert (E2 : (sin1 * cos1) * (sin1 * cos1) = (q / 2) * (q / 2)). { replace (sin1 * cos1 * (sin1 * cos1)) with (sin1 * sin1 * (cos1 * cos1)) by ring. rewrite KK, SS. pose proof q_facts. lra. }
  assert (0 < sin1 * cos1) by nra. pose proof q_facts. nra.
Qed.
Lemma cos1_cos : cos1 = cos (PI / 8).
Proof.
  assert (C : 0 <= cos (PI / 8)) by (apply cos_ge_0; pose proof PI_RGT_0; lra).
  assert (E : cos (PI / 8) * cos (PI / 8) = cos1 * cos1).
  { destruct KS_facts as (_ & _ & -> & _). pose proof (cos_2a_cos (PI / 8)) as H. replace (2 * (PI / 8)) with (PI / 4) in H by field.
    rewrite cos_PI4 in H. unfold q. nra. }
  destruct KS_facts as (k & _). nra.
Qed.
Lemma cos1_close : cos1 <= COS_22_5 <= cos1 + 3 / 10 ^ 16.
Proof. unfold cos1, COS_22_5. split; rcalc. Qed.
Lemma sine_close : 0 < sin2 /\ sin1 * COS_22_5 - cos1 * sin2 <= 64 / 10 ^ 17 /\ cos1 * COS_22_5 + sin1 * sin2 >= 1 - 1 / 10 ^ 15 /\ q * (COS_22_5 + sin2) >= cos1 - 1 / 10 ^ 15.
Proof.
  unfold sin2, sin1, cos1, COS_22_5, q. repeat split; try (apply Rle_ge); rcalc.
Qed.

(** the four main sectors are exact *)
Lemma main_sector a b : a * a + b * b = 1 -> COS_22_5 < b -> cos1 <= b /\ forall o, a * fst (direction o) + b * snd (direction o) <= b.
Proof.
  intros U H. pose proof cos1_close. pose proof q_facts as (q0 & q1). destruct KS_facts as (k & s & KK & SS & SK).
  assert (B : cos1 < b) by lra. split; [lra|].
  assert (A : Rabs a <= sin1). { apply Rabs_le. assert (a * a < sin1 * sin1) by nra. split; nra. }
  assert (A1 : a <= sin1 /\ - a <= sin1) by (split; [pose proof (Rle_abs a)|pose proof (Rle_abs (- a)); rewrite Rabs_Ropp in *]; lra).
  assert (X : forall u, u <= sin1 -> u * q + b * q <= b).
  { intros u Hu. assert (sin1 * u * 0 <= 0) by lra. assert (E : b * (1 - q) - u * q = 2 * sin1 * (sin1 * b - cos1 * u)) by (replace (1 - q) with (2 * (sin1 * sin1)) by lra; replace q with (2 * (sin1 * cos1)) at 1 by lra; ring).
    assert (0 <= sin1 * b - cos1 * u) by nra. assert (0 <= 2 * sin1 * (sin1 * b - cos1 * u)) by nra. lra. }
  assert (KS : sin1 < cos1) by nra. assert (Q1 : q < 1) by nra.
  pose proof (X a (proj1 A1)) as X1. pose proof (X (- a) (proj2 A1)) as X2. pose proof c_bounds.
  intros o; destruct o; cbn [direction fst snd]; try lra; nra.
Qed.
(** the others up to the rounding of the constant *)
Lemma between_sector a b : a * a + b * b = 1 -> 0 < a <= COS_22_5 -> 0 < b <= COS_22_5 ->
  cos1 - 1 / 10 ^ 15 <= a * q + b * q /\ forall o, a * fst (direction o) + b * snd (direction o) <= a * q + b * q + 1 / 10 ^ 15.
Proof.
  intros U A B. pose proof cos1_close. pose proof q_facts as (q0 & q1). destruct KS_facts as (k & s & KK & SS & SK).
  destruct sine_close as (sp & C1 & _ & C3). pose proof c_bounds.
  assert (sin2_sq : sin2 * sin2 = 1 - COS_22_5 * COS_22_5) by (unfold sin2; apply sqrt_sqrt; nra).
  assert (sin1 < 1) by nra.
  assert (L : forall u v, u * u + v * v = 1 -> 0 < u -> 0 < v <= COS_22_5 -> sin2 <= u) by (intros u v E P1 P2; nra).
  assert (X : forall u v, u * u + v * v = 1 -> 0 < u -> 0 < v <= COS_22_5 -> v <= u * q + v * q + 1 / 10 ^ 15).
  { intros u v E P1 P2. pose proof (L u v E P1 P2). assert (v * (1 - q) - u * q = 2 * sin1 * (sin1 * v - cos1 * u)) by (replace (1 - q) with (2 * (sin1 * sin1)) by lra; replace q with (2 * (sin1 * cos1)) at 1 by lra; ring).
    assert (M1 : sin1 * v <= sin1 * COS_22_5) by (apply Rmult_le_compat_l; lra). assert (M2 : cos1 * sin2 <= cos1 * u) by (apply Rmult_le_compat_l; lra).
    assert (M3 : 2 * sin1 * (sin1 * v - cos1 * u) <= 2 * sin1 * (64 / 10 ^ 17)) by (apply Rmult_le_compat_l; lra).
    assert (sin1 <= 1 / 2) by (unfold sin1; rcalc). lra. }
  assert (Ub : a * a + b * b = 1) by exact U. assert (U' : b * b + a * a = 1) by lra.
  pose proof (X a b U (proj1 A) B) as X1. pose proof (X b a U' (proj1 B) A) as X2.
  pose proof (L a b U (proj1 A) B) as L1. pose proof (L b a U' (proj1 B) A) as L2.
  assert (M : COS_22_5 + sin2 <= a + b).
  { assert (Z1 : sin2 * sin2 <= a * a) by (apply Rmult_le_compat; lra). assert (Z2 : a * a <= COS_22_5 * COS_22_5) by (apply Rmult_le_compat; lra).
    assert (Z : 0 <= (a * a - sin2 * sin2) * (COS_22_5 * COS_22_5 - a * a)) by (apply Rmult_le_pos; lra).
    assert (Z3 : (a * b) * (a * b) - (COS_22_5 * sin2) * (COS_22_5 * sin2) = (a * a - sin2 * sin2) * (COS_22_5 * COS_22_5 - a * a)).
    { replace ((a * b) * (a * b)) with (a * a * (b * b)) by ring. replace ((COS_22_5 * sin2) * (COS_22_5 * sin2)) with (COS_22_5 * COS_22_5 * (sin2 * sin2)) by ring.
      replace (b * b) with (1 - a * a) by lra. rewrite sin2_sq. ring. }
    assert (ab : COS_22_5 * sin2 <= a * b). { apply Rsqr_incr_0_var; [unfold Rsqr; lra|apply Rmult_le_pos; lra]. }
    apply Rsqr_incr_0_var; [|lra]. unfold Rsqr. replace ((a + b) * (a + b)) with (1 + 2 * (a * b)) by (rewrite <- U; ring).
    replace ((COS_22_5 + sin2) * (COS_22_5 + sin2)) with (COS_22_5 * COS_22_5 + sin2 * sin2 + 2 * (COS_22_5 * sin2)) by ring. rewrite sin2_sq. lra. }
  assert (M' : q * (COS_22_5 + sin2) <= q * (a + b)) by (apply Rmult_le_compat_l; lra).
  split; [lra|]. assert (Q1 : q < 1) by (clear - q0 q1; nra). assert (0 < a * q) by (apply Rmult_lt_0_compat; lra). assert (0 < b * q) by (apply Rmult_lt_0_compat; lra).
  assert (0 < 1 / 10 ^ 15) by lra.
  intros o; destruct o; cbn [direction fst snd]; lra.
Qed.

Lemma sector_nearest a b o : a * a + b * b = 1 -> sector a b o ->
  cos1 - 1 / 10 ^ 15 <= a * fst (direction o) + b * snd (direction o) /\
  forall o', a * fst (direction o') + b * snd (direction o') <= a * fst (direction o) + b * snd (direction o) + 1 / 10 ^ 15.
Proof.
  intros U H. assert (0 < 1 / 10 ^ 15) by lra.
  destruct o; cbn in H; [contradiction|..].
  - destruct (main_sector a b U H) as (L & M). split; [cbn; lra|]. intros o'. pose proof (M o'). cbn [direction fst snd] in *. lra.
  - destruct (between_sector a b U (proj1 H) (proj2 H)) as (L & M). split; [cbn; lra|]. intros o'. pose proof (M o'). cbn [direction fst snd] in *. lra.
  - destruct (main_sector (- b) a ltac:(lra) H) as (L & M). split; [cbn; lra|]. intros o'.
    pose proof (M North); pose proof (M NorthEast); pose proof (M East); pose proof (M SouthEast); pose proof (M South); pose proof (M SouthWest); pose proof (M West); pose proof (M NorthWest).
    destruct o'; cbn [direction fst snd] in *; lra.
  - destruct (between_sector a (- b) ltac:(lra) (proj1 H) (proj2 H)) as (L & M). split; [cbn; lra|]. intros o'.
    pose proof (M North); pose proof (M NorthEast); pose proof (M East); pose proof (M SouthEast); pose proof (M South); pose proof (M SouthWest); pose proof (M West); pose proof (M NorthWest).
    destruct o'; cbn [direction fst snd] in *; lra.
  - destruct (main_sector a (- b) ltac:(lra) ltac:(lra)) as (L & M). split; [cbn; lra|]. intros o'.
    pose proof (M North); pose proof (M NorthEast); pose proof (M East); pose proof (M SouthEast); pose proof (M South); pose proof (M SouthWest); pose proof (M West); pose proof (M NorthWest).
    destruct o'; cbn [direction fst snd] in *; lra.
  - destruct (between_sector (- a) (- b) ltac:(lra) (proj1 H) (proj2 H)) as (L & M). split; [cbn; lra|]. intros o'.
    pose proof (M North); pose proof (M NorthEast); pose proof (M East); pose proof (M SouthEast); pose proof (M South); pose proof (M SouthWest); pose proof (M West); pose proof (M NorthWest).
    destruct o'; cbn [direction fst snd] in *; lra.
  - destruct (main_sector b (- a) ltac:(lra) ltac:(lra)) as (L & M). split; [cbn; lra|]. intros o'.
    pose proof (M North); pose proof (M NorthEast); pose proof (M East); pose proof (M SouthEast); pose proof (M South); pose proof (M SouthWest); pose proof (M West); pose proof (M NorthWest).
    destruct o'; cbn [direction fst snd] in *; lra.
  - destruct (between_sector (- a) b ltac:(lra) (proj1 H) (proj2 H)) as (L & M). split; [cbn; lra|]. intros o'.
    pose proof (M North); pose proof (M NorthEast); pose proof (M East); pose proof (M SouthEast); pose proof (M South); pose proof (M SouthWest); pose proof (M West); pose proof (M NorthWest).
    destruct o'; cbn [direction fst snd] in *; lra.
Qed.

(** * Theorems *)

(** Every unit normal has an orientation; the program never panics. It is [Horizontal] exactly for normals within 45 degrees of
    the vertical, up or down. *)
Theorem C109_total n : unit_vector n ->
  exists o, get_orientation n = Ok o /\ (o = Horizontal <-> cos (PI / 4) <= Rabs (vz n)).
Proof.
  intros U. destruct (orientation_spec n U) as (o & E & H). exists o. split; [exact E|]. rewrite cos_PI4.
  destruct H as [(-> & Z)|(Z & N & _)].
  - split; [|reflexivity]. intros _. destruct (Rle_dec (1 / sqrt 2) (Rabs (vz n))) as [|C]; [assumption|].
    assert (vz n * vz n < 1 / 2) by (apply not_up; apply Rleb_false; lra). lra.
  - split; [congruence|]. intros C. apply not_up in Z. apply Rleb_false in Z. lra.
Qed.

(** Otherwise it is the nearest of the eight compass directions, up to the rounding of the constant in the program, and within
    22.5 degrees of the horizontal part of the normal *)
Theorem C109_nearest n o d : unit_vector n -> get_orientation n = Ok o -> azimuth o = Some d ->
  (forall o' d', azimuth o' = Some d' -> vdot n (facing d') <= vdot n (facing d) + 1 / 10 ^ 15) /\
  (cos (PI / 8) - 1 / 10 ^ 15) * sqrt (vx n ^ 2 + vy n ^ 2) <= vdot n (facing d).
Proof.
  intros U E Ad. destruct (orientation_spec n U) as (o1 & E1 & H). rewrite E1 in E. injection E as ->.
  destruct H as [(-> & _)|(_ & _ & Hp & a & b & Un & Se & Ea & Eb)]; [discriminate|].
  destruct (sector_nearest a b o Un Se) as (L & M).
  assert (D : forall o' d', azimuth o' = Some d' -> vdot n (facing d') = horizontal_part n * (a * fst (direction o') + b * snd (direction o'))).
  { intros o' d' A'. rewrite (facing_direction o' d' A'). unfold vdot. cbn [vx vy vz]. rewrite Ea, Eb. ring. }
  split.
  - intros o' d' A'. rewrite (D o d Ad), (D o' d' A'). specialize (M o'). assert (0 < 1 / 10 ^ 15) by lra. nra.
  - rewrite (D o d Ad). rewrite <- cos1_cos. unfold horizontal_part in *. replace (vx n ^ 2 + vy n ^ 2) with (vx n * vx n + vy n * vy n) by ring.
    set (h := sqrt (vx n * vx n + vy n * vy n)) in *. nra.
Qed.

Lemma orientation_of n o : unit_vector n ->
  (o = Horizontal /\ 1 / 2 <= vz n * vz n) \/
  (vz n * vz n < 1 / 2 /\ exists a b h, 0 < h /\ a * a + b * b = 1 /\ sector a b o /\ vx n = h * a /\ vy n = h * b) ->
  get_orientation n = Ok o.
Proof.
  intros U H. destruct (orientation_spec n U) as (o1 & E1 & H1). rewrite E1. f_equal.
  destruct H as [(-> & Z)|(Z & a & b & h & Hp & Un & Se & Ea & Eb)], H1 as [(-> & Z1)|(Z1 & _ & Hp1 & a1 & b1 & Un1 & Se1 & Ea1 & Eb1)]; try reflexivity; try lra.
  assert (Q1 : h * h = horizontal_part n * horizontal_part n).
  { assert (vx n * vx n + vy n * vy n = h * h) by (rewrite Ea, Eb; replace (h * a * (h * a) + h * b * (h * b)) with (h * h * (a * a + b * b)) by ring; rewrite Un; ring).
    assert (vx n * vx n + vy n * vy n = horizontal_part n * horizontal_part n) by (rewrite Ea1, Eb1; replace (horizontal_part n * a1 * (horizontal_part n * a1) + horizontal_part n * b1 * (horizontal_part n * b1)) with (horizontal_part n * horizontal_part n * (a1 * a1 + b1 * b1)) by ring; rewrite Un1; ring). lra. }
  assert (Q2 : h = horizontal_part n) by nra. rewrite <- Q2 in *.
  assert (a1 = a) by (apply Rmult_eq_reg_l with h; lra). assert (b1 = b) by (apply Rmult_eq_reg_l with h; lra). subst a1 b1.
  now apply (sector_unique a b).
Qed.

(** A wall looks exactly the opposite way from behind, a quarter of a turn further when the building is turned by a quarter, and
    the mirrored way in a mirrored building *)
Theorem C109_symmetry n o : unit_vector n -> get_orientation n = Ok o ->
  get_orientation (vscale n (-1)) = Ok (opposite o) /\
  get_orientation (mkV (vy n) (- vx n) (vz n)) = Ok (quarter o) /\
  get_orientation (mkV (- vx n) (vy n) (vz n)) = Ok (mirrored o) /\
  get_orientation (mkV (vx n) (vy n) (- vz n)) = Ok o.
Proof.
  intros U E. destruct (orientation_spec n U) as (o1 & E1 & H). rewrite E1 in E. injection E as ->. unfold unit_vector in U.
  pose proof c_bounds.
  repeat split; (apply orientation_of; [unfold unit_vector, vscale; cbn [vx vy vz]; nra|]);
  (destruct H as [(-> & Z)|(Z & _ & Hp & a & b & Un & Se & Ea & Eb)]; unfold vscale; cbn [vx vy vz]; [left; split; [reflexivity|nra]|right; split; [nra|]]).
  - exists (- a), (- b), (horizontal_part n). repeat split; try lra. destruct o; cbn in *; lra.
  - exists b, (- a), (horizontal_part n). repeat split; try lra. destruct o; cbn in *; lra.
  - exists (- a), b, (horizontal_part n). repeat split; try lra. destruct o; cbn in *; lra.
  - exists a, b, (horizontal_part n). repeat split; try lra. destruct o; cbn in *; lra.
Qed.

(** The outside and the inside of a surface are given exactly when one side is outdoors and the other in a space; the outside is
    the way the outdoor side looks: the front along the normal and the back against it; the inside is the opposite. *)
Theorem C109_sides front back n : unit_vector n ->
  match front, back with
  | Outdoor, Space _ => exists o, get_orientation n = Ok o /\ outside_orientation front back n = Ok (Some o) /\ inside_orientation front back n = Ok (Some (opposite o))
  | Space _, Outdoor => exists o, get_orientation n = Ok o /\ inside_orientation front back n = Ok (Some o) /\ outside_orientation front back n = Ok (Some (opposite o))
  | _, _ => outside_orientation front back n = Ok None /\ inside_orientation front back n = Ok None
  end.
Proof.
  intros U. destruct (C109_total n U) as (o & E & _). destruct (C109_symmetry n o U E) as (E' & _).
  destruct front, back; cbn [outside_orientation inside_orientation]; try (split; reflexivity).
  - exists o. rewrite E, E'. auto.
  - exists o. rewrite E, E'. auto.
Qed.

(** A window that looks east, a bit south and a bit up *)
Definition east_window : pt := mkV (12 / 13) (- (3 / 13)) (4 / 13).
Example C109_example :
  unit_vector east_window /\ get_orientation east_window = Ok East /\
  outside_orientation (Space 0) Outdoor east_window = Ok (Some West) /\
  inside_orientation (Space 0) Outdoor east_window = Ok (Some East) /\
  get_orientation (mkV (2 / 3) (2 / 3) (1 / 3)) = Ok NorthEast /\ get_orientation (mkV 0 (6 / 10) (- (8 / 10))) = Ok Horizontal.
Proof.
  assert (U : unit_vector east_window) by (unfold unit_vector, east_window; cbn; lra).
  assert (E : get_orientation east_window = Ok East).
  { apply orientation_of; [exact U|]. right. unfold east_window. cbn [vx vy vz]. split; [lra|].
    exists (12 / sqrt 153), (- (3 / sqrt 153)), (sqrt 153 / 13).
    assert (P : 0 < sqrt 153) by (apply sqrt_lt_R0; lra). assert (Q : sqrt 153 * sqrt 153 = 153) by (apply sqrt_sqrt; lra).
    split; [lra|]. split; [|split; [|split; field; lra]].
    - replace (12 / sqrt 153 * (12 / sqrt 153) + - (3 / sqrt 153) * - (3 / sqrt 153)) with (153 / (sqrt 153 * sqrt 153)) by (field; lra). rewrite Q. field.
    - cbn. unfold COS_22_5. rcalc. }
  split; [exact U|]. split; [exact E|]. destruct (C109_sides (Space 0) Outdoor east_window U) as (o & Eo & I & Ou).
  rewrite E in Eo. injection Eo as <-. split; [exact Ou|]. split; [exact I|]. split.
  - apply orientation_of; [unfold unit_vector; cbn; lra|]. right. cbn [vx vy vz]. split; [lra|].
    exists (1 / sqrt 2), (1 / sqrt 2), (2 * sqrt 2 / 3).
    assert (P : 0 < sqrt 2) by (apply sqrt_lt_R0; lra). assert (Q : sqrt 2 * sqrt 2 = 2) by (apply sqrt_sqrt; lra).
    split; [lra|]. split; [|split; [|split; field; lra]].
    + replace (1 / sqrt 2 * (1 / sqrt 2) + 1 / sqrt 2 * (1 / sqrt 2)) with (2 / (sqrt 2 * sqrt 2)) by (field; lra). rewrite Q. field.
    + cbn. unfold COS_22_5. repeat split; rcalc.
  - apply orientation_of; [unfold unit_vector; cbn; lra|]. left. cbn. split; [reflexivity|lra].
Qed.

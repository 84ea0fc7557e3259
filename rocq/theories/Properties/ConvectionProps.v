(** Properties of the convection coefficients (C52), stated with the documented formulas (convection.rs:59-151). *)
From Coq Require Import List Arith Reals Bool Lra Lia.
From Verif.Common Require Import Base Flt.
From Verif.Heat Require Import GasModel ConvectionModel.
Import ListNotations.
Open Scope R_scope.

(** the cube root used in the documentation: [|dt|^(1/3)], zero at zero *)
Definition cube_root (x : R) : R := if Req_EM_T x 0 then 0 else Rpower x (1 / 3).
Lemma powf_root x : 0 <= x -> powf x (1 / 3) = cube_root x.
Proof.
  intros H. unfold powf, cube_root. destruct (Req_EM_T x 0) as [->|].
  - destruct (Rltb_spec 0 0); [lra|]. reflexivity.
  - destruct (Rltb_spec 0 x); [reflexivity|lra].
Qed.
Lemma root_pos x : 0 <= x -> 0 <= cube_root x.
Proof. intros. unfold cube_root. destruct (Req_EM_T x 0); [lra|]. unfold Rpower. left. apply exp_pos. Qed.
Lemma root_cube x : 0 <= x -> cube_root x ^ 3 = x.
Proof.
  intros. unfold cube_root. destruct (Req_EM_T x 0); [subst; ring|].
  rewrite <- Rpower_pow by apply exp_pos. rewrite Rpower_mult. replace (1 / 3 * INR 3) with 1 by (cbn; lra). apply Rpower_1. lra.
Qed.
Lemma root_le x y : 0 <= x <= y -> cube_root x <= cube_root y.
Proof.
  intros. destruct (Rle_lt_dec (cube_root x) (cube_root y)); [assumption|].
  assert (cube_root y ^ 3 < cube_root x ^ 3).
  { pose proof (root_pos y ltac:(lra)). apply pow_incr_lt || idtac.
    assert (cube_root y * cube_root y <= cube_root x * cube_root x) by (apply Rmult_le_compat; lra).
    cbn. rewrite !Rmult_1_r. apply Rle_lt_trans with (cube_root y * (cube_root x * cube_root x)).
    - apply Rmult_le_compat_l; lra.
    - apply Rmult_lt_compat_r; [|assumption]. apply Rmult_lt_0_compat; lra. }
  rewrite !root_cube in H0 by lra. lra.
Qed.

Definition dT (c : conv) : R := air_temperature c - surface_temperature c.
(** the three documented formulas, without the minimum *)
Definition doc_vertical (c : conv) : R := 131 / 100 * cube_root (Rabs (dT c)).
Definition doc_negative (c : conv) : R := 9482 / 1000 * cube_root (Rabs (dT c)) / (7238 / 1000 - Rabs (cos_surface_tilt c)).
Definition doc_positive (c : conv) : R := 181 / 100 * cube_root (Rabs (dT c)) / (1382 / 1000 + Rabs (cos_surface_tilt c)).

Ltac conv_cases c :=
  unfold natural_convection; rewrite !powf_root by apply Rabs_pos; fold (dT c); cbv zeta;
  destruct (Rltb_spec (Rabs (dT c)) (1 / 1000)), (Rltb_spec (Rabs (cos_surface_tilt c)) (1 / 1000)); cbn [orb];
  destruct (Rltb_spec (dT c) 0), (Rltb_spec 0 (dT c)), (Rltb_spec (cos_surface_tilt c) 0), (Rltb_spec 0 (cos_surface_tilt c)); cbn [orb andb bind].
Lemma min_h h : (if Rltb h MIN_H then MIN_H else h) = Rmax MIN_H h.
Proof. unfold Rmax. destruct (Rltb_spec h MIN_H), (Rle_dec MIN_H h); try reflexivity; lra. Qed.

(** ** the natural coefficient is computed for every input and is at least the minimum *)
Theorem C52_natural_defined c : exists h, natural_convection c = Ok h /\ 1 / 10 <= h.
Proof.
  assert (B : forall h, 1 / 10 <= (if Rltb h MIN_H then MIN_H else h)) by (intros h; rewrite min_h; apply Rmax_l).
  conv_cases c; try (eexists; split; [reflexivity|apply B]).
  all: exfalso; try lra.
  all: match goal with A : ~ Rabs (dT _) < 1 / 1000, B : ~ Rabs (cos_surface_tilt _) < 1 / 1000 |- _ => revert A B end.
  all: unfold Rabs; destruct (Rcase_abs (dT c)), (Rcase_abs (cos_surface_tilt c)); lra.
Qed.

(** ** the exterior coefficient, for the six indices of the table in the code *)
Theorem C52_exterior_defined c area perimeter windward : (roughness_index c < 6)%nat ->
  exists h n, tarp_convection c area perimeter windward = Ok h /\ natural_convection c = Ok n /\ 1 / 10 <= n <= h.
Proof.
  intros H. unfold tarp_convection. destruct (C52_natural_defined c) as (n & E & Hn). rewrite E.
  assert (P : forall rf, 0 <= rf -> 0 <= 2537 / 1000 * (if windward then 1 else 5 / 10) * rf * sqrt (perimeter * air_speed c / area)).
  { intros. repeat apply Rmult_le_pos; try lra; [destruct windward; lra|apply sqrt_pos]. }
  destruct (roughness_index c) as [|[|[|[|[|[|]]]]]]; cbn [nth_error COEFFICIENTS]; [..|lia];
    cbn [bind]; eexists; exists n; (split; [reflexivity|]); (split; [reflexivity|]);
    match goal with |- _ <= _ <= _ * _ * ?rf * _ + _ => specialize (P rf ltac:(lra)); lra end.
Qed.

(** a wall whose front looks towards azimuth [a] (clockwise from north, like the direction from which the wind comes; x is east and y is north)
    faces the wind if they are less than a quarter of a turn apart; roofs always do *)
Theorem C52_windward a wd h tilt : 0 < h -> Rabs tilt < 98 / 100 ->
  is_windward wd tilt (h * sin a) (h * cos a) = true <-> 0 < cos (a - wd).
Proof.
  intros Hh Ht. unfold is_windward. destruct (Rltb_spec (Rabs tilt) (98 / 100)); [|lra]. rewrite Rltb_true, cos_minus.
  replace (h * sin a * sin wd + h * cos a * cos wd) with (h * (cos a * cos wd + sin a * sin wd)) by ring. split; intros H.
  - apply Rmult_lt_reg_l with h; [assumption|]. rewrite Rmult_0_r. assumption.
  - apply Rmult_lt_0_compat; assumption.
Qed.
Theorem C52_windward_roof wd nx ny tilt : 98 / 100 <= Rabs tilt -> is_windward wd tilt nx ny = true.
Proof. intros H. unfold is_windward. destruct (Rltb_spec (Rabs tilt) (98 / 100)); [lra|reflexivity]. Qed.

(** the wind and its direction matter as documented: [2.537 Wf Rf sqrt (P V / A)] on top of the natural part *)
Theorem C52_exterior_formula c area perimeter windward rf n : nth_error [217 / 100; 167 / 100; 152 / 100; 113 / 100; 111 / 100; 1] (roughness_index c) = Some rf ->
  natural_convection c = Ok n ->
  tarp_convection c area perimeter windward = Ok (2537 / 1000 * (if windward then 1 else 1 / 2) * rf * sqrt (perimeter * air_speed c / area) + n).
Proof. intros E N. unfold tarp_convection, COEFFICIENTS. rewrite E, N. cbn [bind]. do 3 f_equal. destruct windward; lra. Qed.

Theorem C52_stronger_wind c c' area perimeter w h h' :
  0 < area -> 0 <= perimeter -> 0 <= air_speed c <= air_speed c' ->
  c' = mkConv (air_temperature c) (air_speed c') (rad_temperature c) (surface_temperature c) (roughness_index c) (cos_surface_tilt c) ->
  tarp_convection c area perimeter w = Ok h -> tarp_convection c' area perimeter w = Ok h' -> h <= h'.
Proof.
  intros A P V ->. unfold tarp_convection. cbn [roughness_index air_speed] in *.
  change (natural_convection (mkConv (air_temperature c) (air_speed c') (rad_temperature c) (surface_temperature c) (roughness_index c) (cos_surface_tilt c)))
    with (natural_convection c).
  destruct (nth_error COEFFICIENTS (roughness_index c)) as [rf|] eqn:R; [|discriminate].
  assert (0 <= rf).
  { revert R. destruct (roughness_index c) as [|[|[|[|[|[|[]]]]]]]; cbn; intros [=]; subst; lra. }
  destruct (natural_convection c) as [n| |]; cbn [bind]; intros [= <-] [= <-].
  apply Rplus_le_compat_r. apply Rmult_le_compat_l; [repeat apply Rmult_le_pos; try lra; destruct w; lra|].
  apply sqrt_le_1_alt. unfold Rdiv. apply Rmult_le_compat_r; [left; apply Rinv_0_lt_compat; assumption|]. apply Rmult_le_compat_l; lra.
Qed.

(** ** which formula is used *)
Theorem C52_vertical_formula c : cos_surface_tilt c = 0 \/ dT c = 0 -> natural_convection c = Ok (Rmax (1 / 10) (doc_vertical c)).
Proof.
  intros H.
  assert (E : Rltb (Rabs (dT c)) (1 / 1000) || Rltb (Rabs (cos_surface_tilt c)) (1 / 1000) = true).
  { destruct H as [-> | ->]; rewrite Rabs_R0; (destruct (Rltb_spec 0 (1 / 1000)); [|lra]); [apply orb_true_r|reflexivity]. }
  unfold natural_convection. rewrite !powf_root by apply Rabs_pos. fold (dT c). cbv zeta. rewrite E. cbn [bind]. rewrite min_h. reflexivity.
Qed.

(** the documentation gives [doc_negative] for a negative product of temperature difference and cosine and [doc_positive] for a
    positive one. The code does the opposite, for every surface away from the thresholds *)
Theorem C52_formulas_exchanged c : 1 / 1000 <= Rabs (dT c) -> 1 / 1000 <= Rabs (cos_surface_tilt c) ->
  (0 < dT c * cos_surface_tilt c -> natural_convection c = Ok (Rmax (1 / 10) (doc_negative c))) /\
  (dT c * cos_surface_tilt c < 0 -> natural_convection c = Ok (Rmax (1 / 10) (doc_positive c))).
Proof.
  intros A B. split; intros S; conv_cases c; try (rewrite min_h; reflexivity); exfalso; try lra.
  all: try nra.
  all: revert A B; unfold Rabs; destruct (Rcase_abs (dT c)), (Rcase_abs (cos_surface_tilt c)); nra.
Qed.

(** so a floor warmer than the air above it (unstable air, strong convection) gets less convection than the same floor cooler than the air *)
Theorem C52_warm_floor_weaker air dt tilt v r i : 1 / 1000 <= dt -> 1 / 1000 <= tilt <= 1 ->
  exists warm cool, natural_convection (mkConv air v r (air + dt) i tilt) = Ok warm /\
    natural_convection (mkConv air v r (air - dt) i tilt) = Ok cool /\ warm <= cool.
Proof.
  intros D T. set (w := mkConv air v r (air + dt) i tilt). set (c := mkConv air v r (air - dt) i tilt).
  assert (DW : dT w = - dt) by (unfold dT; cbn; ring). assert (DC : dT c = dt) by (unfold dT; cbn; ring).
  assert (AT : Rabs tilt = tilt) by (apply Rabs_pos_eq; lra). assert (AD : Rabs dt = dt) by (apply Rabs_pos_eq; lra).
  destruct (C52_formulas_exchanged w) as [_ W]; [rewrite DW, Rabs_Ropp; lra|cbn; lra|].
  destruct (C52_formulas_exchanged c) as [C _]; [rewrite DC; lra|cbn; lra|].
  do 2 eexists. split; [apply W|split; [apply C|]]; rewrite ?DW, ?DC; cbn; try nra.
  apply Rmax_case; [apply Rmax_l|]. apply Rle_trans with (doc_negative c); [|apply Rmax_r].
  unfold doc_positive, doc_negative. rewrite DW, DC, Rabs_Ropp. cbn. rewrite AT, AD.
  pose proof (root_pos dt ltac:(lra)). set (q := cube_root dt) in *.
  apply Rle_trans with (131 / 100 * q).
  - apply Rmult_le_reg_r with (1382 / 1000 + tilt); [lra|]. unfold Rdiv at 1. rewrite Rmult_assoc, Rinv_l, Rmult_1_r by lra. nra.
  - apply Rmult_le_reg_r with (7238 / 1000 - tilt); [lra|]. replace (9482 / 1000 * q / (7238 / 1000 - tilt) * (7238 / 1000 - tilt)) with (9482 / 1000 * q) by (field; lra). nra.
Qed.

(** strictly so: a witness against the documented formula *)
Theorem C52_documented_formula_refuted : exists c, 0 < dT c * cos_surface_tilt c /\
  natural_convection c <> Ok (Rmax (1 / 10) (doc_positive c)).
Proof.
  set (c := mkConv 21 0 0 20 1 1). assert (D : dT c = 1) by (unfold dT; cbn; ring).
  assert (Q : cube_root 1 = 1).
  { unfold cube_root. destruct (Req_EM_T 1 0); [lra|]. unfold Rpower. rewrite ln_1, Rmult_0_r. apply exp_0. }
  exists c. rewrite D. cbn [cos_surface_tilt c]. split; [lra|].
  destruct (C52_formulas_exchanged c) as [E _]; [rewrite D, Rabs_R1; lra|cbn; rewrite Rabs_R1; lra|].
  rewrite E by (rewrite D; cbn; lra). unfold doc_positive, doc_negative. rewrite D. cbn. rewrite !Rabs_R1, Q.
  intros [= F]. revert F. unfold Rmax. destruct (Rle_dec (1 / 10) _), (Rle_dec (1 / 10) _); lra.
Qed.

(** ** roughness: the documented indices go from 1 to 6, the table is read from 0 *)
Definition documented_factor (index : nat) : option R :=
  match index with
  | 1%nat => Some (217 / 100) | 2%nat => Some (167 / 100) | 3%nat => Some (152 / 100)
  | 4%nat => Some (113 / 100) | 5%nat => Some (111 / 100) | 6%nat => Some 1 | _ => None
  end.
(** each documented index gets the factor of the next one *)
Theorem C52_next_factor c area perimeter n : (1 <= roughness_index c <= 5)%nat -> natural_convection c = Ok n ->
  exists rf, documented_factor (S (roughness_index c)) = Some rf /\
    tarp_convection c area perimeter true = Ok (2537 / 1000 * rf * sqrt (perimeter * air_speed c / area) + n).
Proof.
  intros I N. unfold tarp_convection. rewrite N.
  destruct (roughness_index c) as [|[|[|[|[|[|]]]]]]; try lia; cbn [nth_error COEFFICIENTS documented_factor bind];
    eexists; (split; [reflexivity|]); do 3 f_equal; lra.
Qed.
(** and the smoothest one stops the program *)
Theorem C52_very_smooth_panics c area perimeter w : roughness_index c = 6%nat -> tarp_convection c area perimeter w = Panic.
Proof. intros E. unfold tarp_convection. rewrite E. reflexivity. Qed.
Theorem C52_every_documented_index_refuted : exists c, (1 <= roughness_index c <= 6)%nat /\ forall area perimeter w, tarp_convection c area perimeter w = Panic.
Proof. exists (mkConv 20 1 20 20 6 0). split; [cbn; lia|]. intros. apply C52_very_smooth_panics. reflexivity. Qed.
Theorem C52_very_rough_refuted : exists c area perimeter n, roughness_index c = 1%nat /\ natural_convection c = Ok n /\
  tarp_convection c area perimeter true <> Ok (2537 / 1000 * (217 / 100) * sqrt (perimeter * air_speed c / area) + n).
Proof.
  set (c := mkConv 21 1 0 21 1 0). destruct (C52_natural_defined c) as (n & E & _). exists c, 1, 1, n. split; [reflexivity|]. split; [exact E|].
  destruct (C52_next_factor c 1 1 n ltac:(cbn; lia) E) as (rf & [= <-] & H). rewrite H. cbn.
  replace (1 * 1 / 1) with 1 by field. rewrite sqrt_1. intros [= F]. lra.
Qed.

(** ** examples *)
Example C52_example : tarp_convection (mkConv 20 4 0 20 5 0) 1 1 false = Ok (2537 / 1000 + 1 / 10).
Proof.
  rewrite (C52_exterior_formula _ _ _ _ 1 (1 / 10)); [|reflexivity|].
  - f_equal. cbn. replace (1 * 4 / 1) with (2 * 2) by field. rewrite sqrt_square by lra. lra.
  - rewrite C52_vertical_formula by (left; reflexivity). f_equal. unfold doc_vertical, dT. cbn.
    replace (20 - 20) with 0 by ring. rewrite Rabs_R0. unfold cube_root. destruct (Req_EM_T 0 0); [|lra]. rewrite Rmult_0_r. apply Rmax_left. lra.
Qed.
Example C52_warm_floor_example : 1 / 1000 <= 5 /\ 1 / 1000 <= 1 <= 1.
Proof. lra. Qed.

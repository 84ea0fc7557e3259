(** Properties of the gas filled cavities of walls and windows (C70). *)
From Coquelicot Require Import Coquelicot.
From Coq Require Import List Arith Reals Bool Lra Lia ZArith.
From Verif.Common Require Import Base Flt REval.
From Verif.Polynomial Require Import PolynomialModel.
From Verif.Heat Require Import GasModel.
Import ListNotations.
Open Scope R_scope.

(** the gases of model/src/substance/gas.rs *)
Definition known_gas (g : gas) : Prop := g = AIR \/ g = ARGON \/ g = KRYPTON \/ g = XENON.
Definition absolute_zero : R := -27315 / 100.
Definition mean_kelvin (t1 t2 : R) : R := (t1 + t2) / 2 + 27315 / 100.

Lemma powf_pos x y : 0 < x -> powf x y = Rpower x y.
Proof. intros H. unfold powf. destruct (Rltb_spec 0 x); [reflexivity|lra]. Qed.
Lemma powf_nonneg x y : 0 <= powf x y.
Proof. unfold powf. destruct (Rltb_spec 0 x); [|lra]. left. apply exp_pos. Qed.
Lemma powf_le_1 x y : x <= 1 -> 0 < y -> powf x y <= 1.
Proof.
  intros H Hy. unfold powf. destruct (Rltb_spec 0 x); [|lra].
  replace 1 with (Rpower 1 y). apply Rle_Rpower_l; lra.
  unfold Rpower. rewrite ln_1, Rmult_0_r. apply exp_0.
Qed.
Lemma powf_ge_1 x y : 1 <= x -> 0 <= y -> 1 <= powf x y.
Proof.
  intros H Hy. rewrite powf_pos by lra. replace 1 with (Rpower 1 y). apply Rle_Rpower_l; lra.
  unfold Rpower. rewrite ln_1, Rmult_0_r. apply exp_0.
Qed.
Lemma powf_mono x x' y : x <= x' -> 0 <= y -> powf x y <= powf x' y.
Proof.
  intros H Hy. destruct (Rlt_dec 0 x).
  - rewrite !powf_pos by lra. apply Rle_Rpower_l; lra.
  - assert (powf x y = 0) as -> by (unfold powf; destruct (Rltb_spec 0 x); lra). apply powf_nonneg.
Qed.
Lemma pos_part_nonneg x : 0 <= pos_part x.
Proof. unfold pos_part. unfold Rabs. destruct (Rcase_abs x); lra. Qed.
Lemma pos_part_pos x : 0 < pos_part x -> 0 < x.
Proof. unfold pos_part. unfold Rabs. destruct (Rcase_abs x); lra. Qed.
Lemma pos_part_mono x y : x <= y -> pos_part x <= pos_part y.
Proof. unfold pos_part. unfold Rabs. destruct (Rcase_abs x), (Rcase_abs y); lra. Qed.

Lemma gas_cond_eq x : thermal_conductivity AIR x = 2873 / 10 ^ 6 + 7760 / 10 ^ 8 * x /\
  thermal_conductivity ARGON x = 2285 / 10 ^ 6 + 5149 / 10 ^ 8 * x /\
  thermal_conductivity KRYPTON x = 9443 / 10 ^ 7 + 2826 / 10 ^ 8 * x /\
  thermal_conductivity XENON x = 4538 / 10 ^ 7 + 1723 / 10 ^ 8 * x.
Proof. unfold thermal_conductivity, eval, AIR, ARGON, KRYPTON, XENON, poly_of, poly. cbn. repeat split; lra. Qed.
Lemma gas_visc_eq x : dynamic_viscosity AIR x = 3723 / 10 ^ 9 + 494 / 10 ^ 10 * x /\
  dynamic_viscosity ARGON x = 3379 / 10 ^ 9 + 6451 / 10 ^ 11 * x /\
  dynamic_viscosity KRYPTON x = 2213 / 10 ^ 9 + 7777 / 10 ^ 11 * x /\
  dynamic_viscosity XENON x = 1069 / 10 ^ 9 + 7414 / 10 ^ 11 * x.
Proof. unfold dynamic_viscosity, eval, AIR, ARGON, KRYPTON, XENON, poly_of, poly. cbn. repeat split; lra. Qed.
Lemma gas_cp_eq x : heat_capacity AIR x = 10027370 / 10 ^ 4 + 12324 / 10 ^ 6 * x /\
  heat_capacity ARGON x = 5219285 / 10 ^ 4 /\ heat_capacity KRYPTON x = 2480907 / 10 ^ 4 /\ heat_capacity XENON x = 1583397 / 10 ^ 4.
Proof. unfold heat_capacity, eval, AIR, ARGON, KRYPTON, XENON, poly_of, poly. cbn. repeat split; lra. Qed.

Lemma gas_pos g x : known_gas g -> 0 < x ->
  0 < thermal_conductivity g x /\ 0 < dynamic_viscosity g x /\ 0 < heat_capacity g x /\ 0 < density g x.
Proof.
  intros Hg Hx. pose proof (gas_cond_eq x). pose proof (gas_visc_eq x). pose proof (gas_cp_eq x).
  assert (0 < density g x).
  { unfold density. apply Rdiv_lt_0_compat; [|apply Rmult_lt_0_compat; lra].
    destruct Hg as [E|[E|[E|E]]]; subst g; cbn [g_mass AIR ARGON KRYPTON XENON]; lra. }
  destruct Hg as [E|[E|[E|E]]]; subst g; lra.
Qed.

Lemma raleigh_pos g tf tb d : known_gas g -> absolute_zero < tf -> absolute_zero < tb -> 0 < d -> 0 < raleigh g tf tb d.
Proof.
  unfold absolute_zero. intros Hg H1 H2 Hd. unfold raleigh. destruct (Rltb_spec (Rabs (tf - tb)) (1 / 10 ^ 10)); [lra|].
  unfold in_kelvin. set (T := (tf + 27315 / 100 + (tb + 27315 / 100)) / 2).
  assert (0 < T) by (unfold T; lra).
  destruct (gas_pos g T Hg H) as (P1 & P2 & P3 & P4).
  assert (0 < Rabs (tf - tb)) by lra.
  assert (0 < 1 / T) by (apply Rdiv_lt_0_compat; lra).
  apply Rdiv_lt_0_compat; [|apply Rmult_lt_0_compat; assumption].
  pose proof (pow_lt _ 2 P4). pose proof (pow_lt _ 3 Hd). set (rho := density g T) in *.
  clearbody rho T. do 5 (apply Rmult_lt_0_compat; [|assumption || lra]). assumption.
Qed.

Lemma Int_part_of x z : IZR z <= x < IZR z + 1 -> Int_part x = z.
Proof.
  intros H. unfold Int_part. rewrite <- (tech_up x (z + 1)); [lia| |]; rewrite plus_IZR; lra.
Qed.
Lemma frem_range x : 0 <= x <= PI -> 0 <= frem x PI < PI.
Proof.
  intros H. pose proof PI_RGT_0. unfold frem.
  destruct (base_Int_part (x / PI)) as [L U].
  assert (E : x = PI * (x / PI)) by (field; lra).
  split.
  - assert (PI * IZR (Int_part (x / PI)) <= PI * (x / PI)) by (apply Rmult_le_compat_l; lra). lra.
  - assert (PI * (x / PI) < PI * (IZR (Int_part (x / PI)) + 1)) by (apply Rmult_lt_compat_l; lra). lra.
Qed.

Lemma frem_small x : 0 <= x < PI -> frem x PI = x.
Proof.
  intros H. pose proof PI_RGT_0. unfold frem.
  assert (E : Int_part (x / PI) = 0%Z).
  { apply Int_part_of. change (IZR 0) with 0.
    assert (0 <= x / PI) by (apply Rdiv_le_0_compat; lra).
    assert (x / PI < 1) by (apply (Rmult_lt_reg_r PI); [lra|]; unfold Rdiv; rewrite Rmult_assoc, Rinv_l; lra). lra. }
  rewrite E. change (IZR 0) with 0. lra.
Qed.
Lemma frem_pi : frem PI PI = 0.
Proof.
  pose proof PI_RGT_0. unfold frem. replace (PI / PI) with 1 by (field; lra).
  assert (E : Int_part 1 = 1%Z) by (apply Int_part_of; lra).
  rewrite E. change (IZR 1) with 1. lra.
Qed.

Lemma nu_0_60_ge ra gamma : 0 < ra -> 0 < cos gamma -> 1 <= nu_0_60 ra gamma.
Proof.
  intros Hra Hc. unfold nu_0_60.
  set (x := ra * cos gamma). assert (Hx : 0 < x) by (apply Rmult_lt_0_compat; assumption).
  set (s := powf (sin (18 / 10 * gamma)) (16 / 10)).
  assert (Hs : 0 <= s <= 1).
  { split; [apply powf_nonneg|]. apply powf_le_1; [|lra]. apply SIN_bound. }
  set (a := pos_part (1 - 1708 / x)). pose proof (pos_part_nonneg (1 - 1708 / x)) as Ha. fold a in Ha.
  pose proof (pos_part_nonneg (powf (x / 5830) (1 / 3) - 1)) as Hc'.
  assert (Hp : 0 <= 144 / 100 * a * (1 - 1708 * s / x)).
  { destruct (Req_dec a 0) as [E|E]; [rewrite E; lra|].
    assert (H1 : 0 < 1 - 1708 / x) by (apply pos_part_pos; fold a; lra).
    apply Rmult_le_pos; [lra|].
    assert (1708 * s / x <= 1708 / x); [|lra].
    apply Rmult_le_compat_r; [left; apply Rinv_0_lt_compat; lra|lra]. }
  lra.
Qed.
Lemma nu_60_ge ra a : 1 <= nu_60 ra a.
Proof.
  unfold nu_60. set (g := 5 / 10 / _). set (n2 := (104 / 1000 + _) * _).
  assert (0 <= g).
  { unfold g. apply Rdiv_le_0_compat; [lra|].
    pose proof (powf_nonneg (ra / 3160) (206 / 10)). pose proof (powf_ge_1 (1 + powf (ra / 3160) (206 / 10)) (1 / 10)). lra. }
  set (y := 936 / 10000 * powf ra (314 / 1000) / (1 + g)).
  assert (0 <= y).
  { unfold y. apply Rdiv_le_0_compat; [|lra]. apply Rmult_le_pos; [lra|apply powf_nonneg]. }
  assert (1 <= powf (1 + y ^ 7) (1 / 7)).
  { apply powf_ge_1; [|lra]. pose proof (pow_le y 7 H0). lra. }
  destruct (Rltb_spec n2 (powf (1 + y ^ 7) (1 / 7))); lra.
Qed.

(** bounds of powers with rational exponents: [k <= x^(p/q)] when [k^q <= x^p] *)
Lemma Rpower_frac_ge x k p q : 0 < x -> 0 < k -> (0 < q)%nat -> k ^ q <= x ^ p -> k <= Rpower x (INR p / INR q).
Proof.
  intros Hx Hk Hq H.
  assert (Hq' : 0 < INR q) by (apply lt_0_INR; lia).
  replace k with (Rpower (k ^ q) (/ INR q)).
  2:{ rewrite <- Rpower_pow by assumption. rewrite Rpower_mult, Rinv_r by lra. apply Rpower_1. assumption. }
  replace (Rpower x (INR p / INR q)) with (Rpower (x ^ p) (/ INR q)).
  2:{ rewrite <- Rpower_pow by assumption. rewrite Rpower_mult. reflexivity. }
  apply Rle_Rpower_l; [left; apply Rinv_0_lt_compat; lra|]. split; [apply pow_lt; assumption|assumption].
Qed.

Lemma nu_90_ge ra a nu : nu_90 ra a = Ok nu -> 1 <= nu.
Proof.
  unfold nu_90. intros H.
  assert (K : forall n1, 1 <= n1 -> 1 <= (if Rltb (242 / 1000 * powf (ra / a) (272 / 1000)) n1 then n1 else 242 / 1000 * powf (ra / a) (272 / 1000))).
  { intros n1 Hn. destruct (Rltb_spec (242 / 1000 * powf (ra / a) (272 / 1000)) n1); lra. }
  destruct (Rleb_spec ra (10 ^ 4)).
  - cbn [bind] in H. set (pw := powf ra _) in H. assert (0 <= pw) by apply powf_nonneg. injection H as <-. apply K.
    assert (0 <= 17596678 / 10 ^ 7 * (1 / 10 ^ 10) * pw) by (apply Rmult_le_pos; lra). cbn in *. lra.
  - destruct (Rltb_spec ra (5 * 10 ^ 4)).
    + cbn [bind] in H. injection H as <-. apply K. rewrite powf_pos by lra.
      assert (36 <= Rpower ra (4134 / 10 ^ 4)).
      { apply Rle_trans with (Rpower (10 ^ 4) (4134 / 10 ^ 4)).
        2:{ apply Rle_Rpower_l; lra. }
        apply Rle_trans with (Rpower (10 ^ 4) (INR 2 / INR 5)).
        2:{ apply Rle_Rpower; [lra|]. cbn. lra. }
        apply Rpower_frac_ge; [lra|lra|lia|lra]. }
      cbn in *. lra.
    + destruct (Rltb_spec (5 * 10 ^ 4) ra); [|discriminate].
      cbn [bind] in H. injection H as <-. apply K. rewrite powf_pos by lra.
      assert (20 <= Rpower ra (1 / 3)).
      { apply Rle_trans with (Rpower (5 * 10 ^ 4) (1 / 3)).
        2:{ apply Rle_Rpower_l; lra. }
        replace (1 / 3) with (INR 1 / INR 3) by (cbn; lra). apply Rpower_frac_ge; [lra|lra|lia|lra]. }
      lra.
Qed.
Lemma nu_90_total ra a : ra <> 5 * 10 ^ 4 -> exists nu, nu_90 ra a = Ok nu.
Proof.
  intros H. unfold nu_90. destruct (Rleb_spec ra (10 ^ 4)); [cbn; eauto|].
  destruct (Rltb_spec ra (5 * 10 ^ 4)); [cbn; eauto|]. destruct (Rltb_spec (5 * 10 ^ 4) ra); [cbn; eauto|].
  exfalso. apply H. lra.
Qed.

Lemma nusselt_ge ra gamma a nu : 0 < ra -> 0 <= gamma <= PI -> nusselt ra gamma a = Ok nu -> 1 <= nu.
Proof.
  intros Hra Hg. unfold nusselt. pose proof (frem_range gamma Hg) as HG. set (G := frem gamma PI) in *. pose proof PI_RGT_0.
  destruct (Rleb_spec 0 G); [|lra]. cbn [andb].
  destruct (Rltb_spec G (2 * (30 * PI / 180) - 5 / 10 * PI / 180)).
  { intros E. injection E as <-. apply nu_0_60_ge; [assumption|]. apply cos_gt_0; lra. }
  destruct (Rltb_spec G (2 * (30 * PI / 180) + 5 / 10 * PI / 180)).
  { intros E. injection E as <-. apply nu_60_ge. }
  destruct (Rltb_spec G (3 * (30 * PI / 180) - 5 / 10 * PI / 180)).
  { unfold nu_60_90. destruct (nu_90 ra a) as [v| |] eqn:E9; cbn [bind]; try discriminate. intros E. injection E as <-.
    pose proof (nu_90_ge _ _ _ E9). pose proof (nu_60_ge ra a).
    set (x := (G - PI / 3) / (PI / 2 - PI / 3)).
    assert (0 <= x <= 1).
    { unfold x. split; [apply Rdiv_le_0_compat; lra|].
      apply (Rmult_le_reg_r (PI / 2 - PI / 3)); [lra|]. unfold Rdiv at 1. rewrite Rmult_assoc, Rinv_l; lra. }
    set (n6 := nu_60 ra a) in *.
    assert (0 <= (v - 1) * x) by (apply Rmult_le_pos; lra).
    assert (0 <= (n6 - 1) * (1 - x)) by (apply Rmult_le_pos; lra).
    nra. }
  destruct (Rltb_spec G (3 * (30 * PI / 180) + 5 / 10 * PI / 180)).
  { apply nu_90_ge. }
  destruct (Rltb_spec G (6 * (30 * PI / 180))); [|discriminate].
  unfold nu_90_180. destruct (nu_90 ra a) as [v| |] eqn:E9; cbn [bind]; try discriminate. intros E. injection E as <-.
  pose proof (nu_90_ge _ _ _ E9).
  assert (0 <= sin G) by (apply sin_ge_0; lra).
  assert (0 <= (v - 1) * sin G) by (apply Rmult_le_pos; lra). lra.
Qed.
Lemma nusselt_total ra gamma a : ra <> 5 * 10 ^ 4 -> 0 <= gamma <= PI -> exists nu, nusselt ra gamma a = Ok nu.
Proof.
  intros Hra Hg. unfold nusselt. pose proof (frem_range gamma Hg) as HG. set (G := frem gamma PI) in *. pose proof PI_RGT_0.
  destruct (nu_90_total ra a Hra) as [v Hv].
  destruct (Rleb_spec 0 G); [|lra]. cbn [andb].
  destruct (Rltb_spec G (2 * (30 * PI / 180) - 5 / 10 * PI / 180)); [eauto|].
  destruct (Rltb_spec G (2 * (30 * PI / 180) + 5 / 10 * PI / 180)); [eauto|].
  destruct (Rltb_spec G (3 * (30 * PI / 180) - 5 / 10 * PI / 180)); [unfold nu_60_90; rewrite Hv; cbn; eauto|].
  destruct (Rltb_spec G (3 * (30 * PI / 180) + 5 / 10 * PI / 180)); [eauto|].
  destruct (Rltb_spec G (6 * (30 * PI / 180))); [unfold nu_90_180; rewrite Hv; cbn; eauto|lra].
Qed.

Lemma pi_deg : 180 * (PI / 180) = PI.
Proof. field. Qed.
Lemma mean_eq tf tb : (in_kelvin tf + in_kelvin tb) / 2 = mean_kelvin tf tb.
Proof. unfold in_kelvin, mean_kelvin. lra. Qed.

(** C70: a cavity of any of the known gases, any thickness, height, tilt and temperatures above the absolute zero, lets through at
    least the heat that still gas would conduct, and its coefficient is defined unless the Rayleigh number is exactly 50000. *)
Theorem C70_at_least_still_gas g height d gamma tf tb :
  known_gas g -> 0 < d -> 0 <= gamma <= PI -> absolute_zero < tf -> absolute_zero < tb ->
  (forall h, cavity_convection g height d gamma tf tb = Ok h ->
     0 < thermal_conductivity g (mean_kelvin tf tb) / d <= h) /\
  (raleigh g tf tb d <> 5 * 10 ^ 4 -> exists h, cavity_convection g height d gamma tf tb = Ok h).
Proof.
  intros Hg Hd Hgam Hf Hb. pose proof (raleigh_pos g tf tb d Hg Hf Hb Hd) as Hra.
  unfold cavity_convection. rewrite pi_deg. rewrite mean_eq.
  set (gm := if Rltb tb tf then PI - gamma else gamma).
  assert (Hgm : 0 <= gm <= PI) by (unfold gm; destruct (Rltb_spec tb tf); lra).
  assert (HT : 0 < mean_kelvin tf tb) by (unfold mean_kelvin, absolute_zero in *; lra).
  destruct (gas_pos g _ Hg HT) as (P1 & _).
  split.
  - intros h. destruct (nusselt (raleigh g tf tb d) gm (height / d)) as [nu| |] eqn:E; cbn [bind]; try discriminate.
    intros Hh. injection Hh as <-. pose proof (nusselt_ge _ _ _ _ Hra Hgm E).
    split; [apply Rdiv_lt_0_compat; assumption|].
    unfold Rdiv. apply Rmult_le_compat_r; [left; apply Rinv_0_lt_compat; assumption|].
    rewrite <- (Rmult_1_l (thermal_conductivity _ _)) at 1. apply Rmult_le_compat_r; lra.
  - intros Hne. destruct (nusselt_total _ gm (height / d) Hne Hgm) as [nu E]. rewrite E. cbn. eauto.
Qed.

(** Turning the cavity around (front becomes back, tilt becomes its supplement) gives the same coefficient. *)
Theorem C70_turned_around c tf tb :
  0 < c_angle c < PI -> tf <> tb ->
  cavity_u_value (mkCavity (c_thickness c) (c_height c) (c_gas c) (c_ein c) (c_eout c) (PI - c_angle c)) tb tf =
  cavity_u_value c tf tb.
Proof.
  intros Hg Hne. unfold cavity_u_value, cavity_convection. cbn [c_thickness c_height c_gas c_ein c_eout c_angle]. rewrite !pi_deg.
  assert (E1 : raleigh (c_gas c) tb tf (c_thickness c) = raleigh (c_gas c) tf tb (c_thickness c)).
  { unfold raleigh. rewrite (Rabs_minus_sym tb tf), (Rplus_comm (in_kelvin tb)). reflexivity. }
  rewrite E1, (Rplus_comm (in_kelvin tb)), (Rplus_comm tf tb).
  assert (E2 : (if Rltb tf tb then PI - (PI - c_angle c) else PI - c_angle c) = (if Rltb tb tf then PI - c_angle c else c_angle c)).
  { destruct (Rltb_spec tf tb), (Rltb_spec tb tf); try lra. }
  rewrite E2. destruct (nusselt _ _ _) as [nu| |]; cbn [bind]; try reflexivity. f_equal.
  replace (1 - (1 - c_eout c) * (1 - c_ein c)) with (1 - (1 - c_ein c) * (1 - c_eout c)) by ring.
  unfold Rdiv. ring.
Qed.

(** The radiative part of the coefficient: times the difference of temperature it is what two parallel grey plates exchange, but for the
    relative error [((tf - tb) / (2 Tm))^2]. *)
Theorem C70_radiation c tf tb u conv :
  0 < c_ein c <= 1 -> 0 < c_eout c <= 1 -> absolute_zero < tf -> absolute_zero < tb ->
  cavity_convection (c_gas c) (c_height c) (c_thickness c) (c_angle c) tf tb = Ok conv ->
  cavity_u_value c tf tb = Ok u ->
  conv < u /\
  (u - conv) * (tf - tb) * (1 + ((tf - tb) / (2 * mean_kelvin tf tb)) ^ 2) =
  SIGMA * ((tf - absolute_zero) ^ 4 - (tb - absolute_zero) ^ 4) / (1 / c_ein c + 1 / c_eout c - 1).
Proof.
  intros He Ho Hf Hb E. unfold cavity_u_value. rewrite E. cbn [bind]. intros H. injection H as <-.
  unfold mean_kelvin, absolute_zero in *.
  assert (D : 0 < 1 - (1 - c_ein c) * (1 - c_eout c)) by nra.
  assert (SP : 0 < SIGMA) by (unfold SIGMA; lra).
  split.
  - assert (0 < 4 * ((tb + tf) / 2 + 27315 / 100) ^ 3 * SIGMA * c_ein c * c_eout c / (1 - (1 - c_ein c) * (1 - c_eout c))); [|lra].
    apply Rdiv_lt_0_compat; [|assumption].
    repeat apply Rmult_lt_0_compat; try lra. 
  - assert (D' : 1 / c_ein c + 1 / c_eout c - 1 = (1 - (1 - c_ein c) * (1 - c_eout c)) / (c_ein c * c_eout c)) by (field; lra).
    rewrite D'. set (dd := 1 - (1 - c_ein c) * (1 - c_eout c)) in *. field. repeat split; try lra.
Qed.

(** Below 59.5 degrees from the horizontal, heated from below: the larger the Rayleigh number the larger the coefficient. *)
Theorem C70_more_buoyancy_more_heat ra ra' gamma a nu nu' :
  0 < ra <= ra' -> 0 <= gamma < 59 * PI / 180 -> nusselt ra gamma a = Ok nu -> nusselt ra' gamma a = Ok nu' -> nu <= nu'.
Proof.
  intros Hra Hg. unfold nusselt. pose proof PI_RGT_0. rewrite frem_small by lra.
  destruct (Rleb_spec 0 gamma); [|lra]. cbn [andb].
  destruct (Rltb_spec gamma (2 * (30 * PI / 180) - 5 / 10 * PI / 180)); [|lra].
  intros E E'. injection E as <-. injection E' as <-.
  assert (Hc : 0 < cos gamma) by (apply cos_gt_0; lra).
  unfold nu_0_60. set (s := powf (sin (18 / 10 * gamma)) (16 / 10)).
  assert (Hs : 0 <= s <= 1).
  { split; [apply powf_nonneg|]. apply powf_le_1; [|lra]. apply SIN_bound. }
  assert (Hx : 0 < ra * cos gamma) by (apply Rmult_lt_0_compat; lra).
  assert (Hxx : ra * cos gamma <= ra' * cos gamma) by (apply Rmult_le_compat_r; lra).
  set (x := ra * cos gamma) in *. set (x' := ra' * cos gamma) in *.
  assert (Hi : / x' <= / x) by (apply Rinv_le_contravar; lra).
  assert (Hip : 0 < / x') by (apply Rinv_0_lt_compat; lra).
  assert (A : pos_part (1 - 1708 / x) <= pos_part (1 - 1708 / x')) by (apply pos_part_mono; unfold Rdiv; lra).
  assert (C : pos_part (powf (x / 5830) (1 / 3) - 1) <= pos_part (powf (x' / 5830) (1 / 3) - 1)).
  { apply pos_part_mono. assert (powf (x / 5830) (1 / 3) <= powf (x' / 5830) (1 / 3)) by (apply powf_mono; unfold Rdiv; lra). lra. }
  assert (B : 144 / 100 * pos_part (1 - 1708 / x) * (1 - 1708 * s / x) <= 144 / 100 * pos_part (1 - 1708 / x') * (1 - 1708 * s / x')).
  { pose proof (pos_part_nonneg (1 - 1708 / x)) as P.
    assert (SB : 1708 * s / x' <= 1708 * s / x) by (apply Rmult_le_compat_l; lra).
    assert (SC : 1708 * s / x <= 1708 / x) by (apply Rmult_le_compat_r; lra).
    destruct (Req_dec (pos_part (1 - 1708 / x)) 0) as [E|E].
    - rewrite E. rewrite Rmult_0_r, Rmult_0_l.
      destruct (Req_dec (pos_part (1 - 1708 / x')) 0) as [E'|E']; [rewrite E'; lra|].
      pose proof (pos_part_nonneg (1 - 1708 / x')).
      assert (0 < 1 - 1708 / x') by (apply pos_part_pos; lra).
      assert (1708 * s / x' <= 1708 / x') by (apply Rmult_le_compat_r; lra).
      apply Rmult_le_pos; lra.
    - assert (0 < 1 - 1708 / x) by (apply pos_part_pos; lra).
      rewrite !Rmult_assoc. apply Rmult_le_compat_l; [lra|]. apply Rmult_le_compat; lra. }
  lra.
Qed.

(** The correlation between 60 and 90 degrees stays between the ones at its ends, and above 90 degrees between still gas and the vertical. *)
Theorem C70_between ra gamma a nu :
  0 < ra -> nusselt ra gamma a = Ok nu ->
  (62 * PI / 180 <= gamma < 88 * PI / 180 ->
     exists n60 n90, nusselt ra (PI / 3) a = Ok n60 /\ nusselt ra (PI / 2) a = Ok n90 /\ Rmin n60 n90 <= nu <= Rmax n60 n90) /\
  (92 * PI / 180 <= gamma < PI -> exists n90, nusselt ra (PI / 2) a = Ok n90 /\ 1 <= nu <= n90).
Proof.
  intros Hra. pose proof PI_RGT_0.
  assert (E60 : nusselt ra (PI / 3) a = Ok (nu_60 ra a)).
  { unfold nusselt. rewrite frem_small by lra. destruct (Rleb_spec 0 (PI / 3)); [|lra]. cbn [andb].
    destruct (Rltb_spec (PI / 3) (2 * (30 * PI / 180) - 5 / 10 * PI / 180)); [lra|].
    destruct (Rltb_spec (PI / 3) (2 * (30 * PI / 180) + 5 / 10 * PI / 180)); [reflexivity|lra]. }
  assert (E90 : nusselt ra (PI / 2) a = nu_90 ra a).
  { unfold nusselt. rewrite frem_small by lra. destruct (Rleb_spec 0 (PI / 2)); [|lra]. cbn [andb].
    destruct (Rltb_spec (PI / 2) (2 * (30 * PI / 180) - 5 / 10 * PI / 180)); [lra|].
    destruct (Rltb_spec (PI / 2) (2 * (30 * PI / 180) + 5 / 10 * PI / 180)); [lra|].
    destruct (Rltb_spec (PI / 2) (3 * (30 * PI / 180) - 5 / 10 * PI / 180)); [lra|].
    destruct (Rltb_spec (PI / 2) (3 * (30 * PI / 180) + 5 / 10 * PI / 180)); [reflexivity|lra]. }
  intros Hn. rewrite E60, E90. split; intros Hg; revert Hn; unfold nusselt; rewrite frem_small by lra;
    (destruct (Rleb_spec 0 gamma); [|lra]); cbn [andb];
    (destruct (Rltb_spec gamma (2 * (30 * PI / 180) - 5 / 10 * PI / 180)); [lra|]);
    (destruct (Rltb_spec gamma (2 * (30 * PI / 180) + 5 / 10 * PI / 180)); [lra|]).
  - destruct (Rltb_spec gamma (3 * (30 * PI / 180) - 5 / 10 * PI / 180)); [|lra].
    unfold nu_60_90. destruct (nu_90 ra a) as [v| |] eqn:E9; cbn [bind]; try discriminate. intros E. injection E as <-.
    exists (nu_60 ra a), v. repeat split; try reflexivity; set (n6 := nu_60 ra a);
      set (x := (gamma - PI / 3) / (PI / 2 - PI / 3));
      (assert (Hx : 0 <= x <= 1);
       [unfold x; split; [apply Rdiv_le_0_compat; lra|];
        apply (Rmult_le_reg_r (PI / 2 - PI / 3)); [lra|]; unfold Rdiv at 1; rewrite Rmult_assoc, Rinv_l; lra|]).
    + unfold Rmin. destruct (Rle_dec n6 v).
      * assert (0 <= (v - n6) * x) by (apply Rmult_le_pos; lra). lra.
      * assert (0 <= (n6 - v) * (1 - x)) by (apply Rmult_le_pos; lra). lra.
    + unfold Rmax. destruct (Rle_dec n6 v).
      * assert (0 <= (v - n6) * (1 - x)) by (apply Rmult_le_pos; lra). lra.
      * assert (0 <= (n6 - v) * x) by (apply Rmult_le_pos; lra). lra.
  - destruct (Rltb_spec gamma (3 * (30 * PI / 180) - 5 / 10 * PI / 180)); [lra|].
    destruct (Rltb_spec gamma (3 * (30 * PI / 180) + 5 / 10 * PI / 180)); [lra|].
    destruct (Rltb_spec gamma (6 * (30 * PI / 180))); [|lra].
    unfold nu_90_180. destruct (nu_90 ra a) as [v| |] eqn:E9; cbn [bind]; try discriminate. intros E. injection E as <-.
    exists v. split; [reflexivity|]. pose proof (nu_90_ge _ _ _ E9).
    assert (0 <= sin gamma) by (apply sin_ge_0; lra). pose proof (SIN_bound gamma).
    assert (0 <= (v - 1) * sin gamma) by (apply Rmult_le_pos; lra).
    assert (0 <= (v - 1) * (1 - sin gamma)) by (apply Rmult_le_pos; lra). lra.
Qed.

Lemma raleigh_air tf tb d : 1 / 10 ^ 10 <= Rabs (tf - tb) ->
  raleigh AIR tf tb d =
  (101325 * (2897 / 100) / (831446261815324 / 10 ^ 11 * mean_kelvin tf tb)) ^ 2 * d ^ 3 * (981 / 100) * (1 / mean_kelvin tf tb) *
  (10027370 / 10 ^ 4 + 12324 / 10 ^ 6 * mean_kelvin tf tb) * Rabs (tf - tb) /
  ((3723 / 10 ^ 9 + 494 / 10 ^ 10 * mean_kelvin tf tb) * (2873 / 10 ^ 6 + 7760 / 10 ^ 8 * mean_kelvin tf tb)).
Proof.
  intros H. unfold raleigh. destruct (Rltb_spec (Rabs (tf - tb)) (1 / 10 ^ 10)); [lra|].
  rewrite mean_eq. destruct (gas_cond_eq (mean_kelvin tf tb)) as (-> & _). destruct (gas_visc_eq (mean_kelvin tf tb)) as (-> & _).
  destruct (gas_cp_eq (mean_kelvin tf tb)) as (-> & _). reflexivity.
Qed.

(** A vertical cavity of air, 12 mm thick, between panes at 20 and at 0 degrees *)
Example C70_window : exists h, cavity_convection AIR 1 (12 / 1000) (PI / 2) 20 0 = Ok h /\
  thermal_conductivity AIR (mean_kelvin 20 0) / (12 / 1000) <= h.
Proof.
  pose proof PI_RGT_0. unfold absolute_zero.
  assert (G : known_gas AIR) by (left; reflexivity).
  destruct (C70_at_least_still_gas AIR 1 (12 / 1000) (PI / 2) 20 0 G) as [H1 H2]; unfold absolute_zero; try lra.
  destruct H2 as [h Hh].
  { rewrite raleigh_air by (unfold Rabs; destruct (Rcase_abs (20 - 0)); lra). unfold mean_kelvin. apply Rlt_not_eq. rcalc. }
  exists h. split; [exact Hh|]. apply H1. exact Hh.
Qed.

(** A horizontal cavity heated from above has still gas in it (the limit of the correlation at 180 degrees), but exactly at 180 degrees the
    code takes the remainder of the tilt by 180 degrees and treats it as heated from below: more than twice the heat of still gas. *)
Theorem C70_heated_from_above_refuted : exists g height d tf tb h,
  known_gas g /\ 0 < d /\ absolute_zero < tb < tf /\
  cavity_convection g height d 0 tf tb = Ok h /\
  cavity_convection g height d 0 tb tf = Ok h /\
  2 * (thermal_conductivity g (mean_kelvin tf tb) / d) < h.
Proof.
  pose proof PI_RGT_0.
  assert (HR : 10 ^ 4 < raleigh AIR 20 0 (1 / 10)).
  { rewrite raleigh_air by (unfold Rabs; destruct (Rcase_abs (20 - 0)); lra). unfold mean_kelvin. rcalc. }
  assert (Hs : raleigh AIR 0 20 (1 / 10) = raleigh AIR 20 0 (1 / 10)).
  { unfold raleigh. rewrite (Rabs_minus_sym 0 20), (Rplus_comm (in_kelvin 0)). reflexivity. }
  set (ra := raleigh AIR 20 0 (1 / 10)) in *.
  assert (E : forall x, x = 0 \/ x = PI -> nusselt ra x (1 / (1 / 10)) = Ok (nu_0_60 ra 0)).
  { intros x Hx. unfold nusselt. assert (F : frem x PI = 0) by (destruct Hx as [-> | ->]; [apply frem_small; lra|apply frem_pi]).
    rewrite F. destruct (Rleb_spec 0 0); [|lra]. destruct (Rltb_spec 0 (2 * (30 * PI / 180) - 5 / 10 * PI / 180)); [reflexivity|lra]. }
  exists AIR, 1, (1 / 10), 20, 0, (nu_0_60 ra 0 * thermal_conductivity AIR (mean_kelvin 20 0) / (1 / 10)).
  unfold absolute_zero. repeat split; try lra; [left; reflexivity| | |].
  - unfold cavity_convection. rewrite pi_deg, mean_eq. destruct (Rltb_spec 0 20); [|lra]. fold ra.
    rewrite E by (right; lra). reflexivity.
  - unfold cavity_convection. rewrite pi_deg, mean_eq. destruct (Rltb_spec 20 0); [lra|]. rewrite Hs.
    rewrite E by (left; lra). cbn [bind]. unfold mean_kelvin. rewrite (Rplus_comm 0 20). reflexivity.
  - assert (2 < nu_0_60 ra 0).
    { unfold nu_0_60. rewrite cos_0, Rmult_0_r, sin_0.
      assert (powf 0 (16 / 10) = 0) as -> by (unfold powf; destruct (Rltb_spec 0 0); lra).
      pose proof (pos_part_nonneg (powf (ra * 1 / 5830) (1 / 3) - 1)) as P.
      assert (B : 1708 / (ra * 1) < 1708 / 10 ^ 4).
      { unfold Rdiv. apply Rmult_lt_compat_l; [lra|]. apply Rinv_lt_contravar; [apply Rmult_lt_0_compat; lra|lra]. }
      assert (pos_part (1 - 1708 / (ra * 1)) = 1 - 1708 / (ra * 1)) as ->.
      { unfold pos_part. rewrite Rabs_pos_eq by lra. lra. }
      replace (1708 * 0 / (ra * 1)) with 0 by (unfold Rdiv; ring). lra. }
    assert (Hk : 0 < thermal_conductivity AIR (mean_kelvin 20 0)).
    { apply gas_pos; [left; reflexivity|unfold mean_kelvin; lra]. }
    unfold Rdiv. nra.
Qed.

(** At a Rayleigh number of exactly 50000 the code panics ([unreachable!]), for some cavity of each of the known gases. *)
Theorem C70_panic_refuted g tf tb height : known_gas g -> absolute_zero < tf -> absolute_zero < tb -> 1 <= Rabs (tf - tb) ->
  exists d, 0 < d /\ cavity_convection g height d (PI / 2) tf tb = Panic.
Proof.
  intros Hg Hf Hb Hne. pose proof PI_RGT_0.
  assert (H1 : 0 < raleigh g tf tb 1) by (apply raleigh_pos; lra || assumption).
  set (d := Rpower (5 * 10 ^ 4 / raleigh g tf tb 1) (/ 3)).
  assert (Hd : 0 < d) by apply exp_pos.
  assert (Hd3 : d ^ 3 = 5 * 10 ^ 4 / raleigh g tf tb 1).
  { unfold d. rewrite <- Rpower_pow by apply exp_pos. rewrite Rpower_mult. replace (/ 3 * INR 3) with 1 by (cbn; lra).
    apply Rpower_1. apply Rdiv_lt_0_compat; lra. }
  exists d. split; [assumption|].
  assert (HR : raleigh g tf tb d = 5 * 10 ^ 4).
  { assert (E : raleigh g tf tb d = d ^ 3 * raleigh g tf tb 1).
    { unfold raleigh. destruct (Rltb_spec (Rabs (tf - tb)) (1 / 10 ^ 10)); [lra|]. rewrite pow1. unfold Rdiv. ring. }
    rewrite E, Hd3. field. lra. }
  unfold cavity_convection. rewrite HR, pi_deg.
  assert (E : (if Rltb tb tf then PI - PI / 2 else PI / 2) = PI / 2) by (destruct (Rltb tb tf); lra).
  rewrite E. unfold nusselt. rewrite frem_small by lra. destruct (Rleb_spec 0 (PI / 2)); [|lra]. cbn [andb].
  destruct (Rltb_spec (PI / 2) (2 * (30 * PI / 180) - 5 / 10 * PI / 180)); [lra|].
  destruct (Rltb_spec (PI / 2) (2 * (30 * PI / 180) + 5 / 10 * PI / 180)); [lra|].
  destruct (Rltb_spec (PI / 2) (3 * (30 * PI / 180) - 5 / 10 * PI / 180)); [lra|].
  destruct (Rltb_spec (PI / 2) (3 * (30 * PI / 180) + 5 / 10 * PI / 180)); [|lra].
  unfold nu_90. destruct (Rleb_spec (5 * 10 ^ 4) (10 ^ 4)); [lra|]. destruct (Rltb_spec (5 * 10 ^ 4) (5 * 10 ^ 4)); [lra|]. reflexivity.
Qed.

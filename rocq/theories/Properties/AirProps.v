(** Properties of infiltration (C53) and of the wind profile (C69), stated with the documented formulas. *)
From Coq Require Import List Arith Reals Bool Lra Lia.
From Verif.Common Require Import Base Flt.
From Verif.Heat Require Import GasModel.
From Verif.Air Require Import AirModel.
Import ListNotations.
Open Scope R_scope.

(** ** C69: the wind profile *)
(** documented exponent and boundary layer of each terrain (site_details.rs:73-79) *)
Definition doc_alpha (t : terrain) : R := match t with Country => 14 / 100 | Suburbs => 22 / 100 | City => 33 / 100 | Ocean => 10 / 100 | UrbanTerrain => 22 / 100 end.
Definition doc_delta (t : terrain) : R := match t with Country => 270 | Suburbs => 370 | City => 460 | Ocean => 210 | UrbanTerrain => 370 end.
(** the documented formula, for a boundary layer [d] at the station *)
Definition profile (d : R) (t : terrain) (z : R) : R := Rpower (d / 10) (14 / 100) * Rpower (z / doc_delta t) (doc_alpha t).

Lemma delta_pos t : 0 < doc_delta t. Proof. destruct t; cbn; lra. Qed.
Lemma alpha_pos t : 0 < doc_alpha t. Proof. destruct t; cbn; lra. Qed.
Lemma modifier_eq t z : 1 / 10 ^ 5 <= z -> terrain_modifier t z = profile 270 t z.
Proof.
  intros H. unfold terrain_modifier, profile. destruct (Rltb_spec z (1 / 10 ^ 5)); [lra|].
  assert (P : forall x, 0 < x -> Rltb 0 x = true) by (intros; destruct (Rltb_spec 0 x); [reflexivity|lra]).
  destruct t; cbn; unfold powf; rewrite !P; try reflexivity; try lra; apply Rdiv_lt_0_compat; lra.
Qed.
Lemma modifier_ground t z : z < 1 / 10 ^ 5 -> terrain_modifier t z = 0.
Proof. intros H. unfold terrain_modifier. destruct (Rltb_spec z (1 / 10 ^ 5)); [reflexivity|lra]. Qed.

Theorem C69_formula s z : 1 / 10 ^ 5 <= z -> wind_speed_modifier s z = profile 270 (match s with Some t => t | None => Suburbs end) z.
Proof. intros H. destruct s; apply modifier_eq; assumption. Qed.

Theorem C69_ground s : wind_speed_modifier s 0 = 0.
Proof. destruct s; apply modifier_ground; lra. Qed.

Theorem C69_positive s z : 1 / 10 ^ 5 <= z -> 0 < wind_speed_modifier s z.
Proof. intros H. rewrite C69_formula by assumption. unfold profile. apply Rmult_lt_0_compat; apply exp_pos. Qed.

Theorem C69_increases s z z' : z <= z' -> wind_speed_modifier s z <= wind_speed_modifier s z'.
Proof.
  intros H. destruct (Rlt_le_dec z (1 / 10 ^ 5)) as [L|L].
  - assert (wind_speed_modifier s z = 0) as -> by (destruct s; apply modifier_ground; assumption).
    destruct (Rlt_le_dec z' (1 / 10 ^ 5)) as [L'|L'].
    + assert (wind_speed_modifier s z' = 0) as -> by (destruct s; apply modifier_ground; assumption). lra.
    + left. apply C69_positive. assumption.
  - rewrite !C69_formula by lra. set (t := match s with Some t => t | None => Suburbs end). unfold profile.
    apply Rmult_le_compat_l; [left; apply exp_pos|]. pose proof (delta_pos t). pose proof (alpha_pos t).
    apply Rle_Rpower_l; [lra|]. split.
    + apply Rdiv_lt_0_compat; lra.
    + apply Rmult_le_compat_r; [left; apply Rinv_0_lt_compat; assumption|assumption].
Qed.

(** the station is ten metres high in open country *)
Theorem C69_station : wind_speed_modifier (Some Country) 10 = 1.
Proof.
  rewrite C69_formula by lra. unfold profile. cbn. rewrite Rpower_mult_distr by lra. replace (270 / 10 * (10 / 270)) with 1 by field.
  unfold Rpower. rewrite ln_1, Rmult_0_r. apply exp_0.
Qed.

(** the documentation says that the boundary layer at the station is 240 m; the code uses 270 m *)
Theorem C69_documented_formula_refuted : forall t z, 1 / 10 ^ 5 <= z -> terrain_modifier t z <> profile 240 t z.
Proof.
  intros t z H E. rewrite modifier_eq in E by assumption. unfold profile in E. apply Rmult_eq_reg_r in E; [|apply Rgt_not_eq; apply exp_pos].
  assert (Rpower (240 / 10) (14 / 100) < Rpower (270 / 10) (14 / 100)) by (apply Rlt_Rpower_l; lra). lra.
Qed.
Example C69_example : 1 / 10 ^ 5 <= 3 /\ 3 <= 12. Proof. lra. Qed.

(** ** C53: flows *)
Definition speed (site : option terrain) (w : weather) : R := w_wind_speed w * wind_speed_modifier site 1.
Definition difference (w : weather) (t : R) : R := Rabs (t - w_dry_bulb w).
(** the documented flow (infiltration.rs:77-127), in m3/s; [AL] is in cm2 there and in m2 in the object *)
Definition documented_flow (site : option terrain) (cs cw : R) (i : infiltration) (w : weather) (t : R) : R :=
  match i with
  | Constant v => v
  | Blast v => v * (606 / 1000 + 3636 / 100000 * difference w t + 1177 / 10000 * speed site w)
  | Doe2 v => v * (224 / 1000 * speed site w)
  | DesignFlowRate a b c d v => v * (a + b * difference w t + c * speed site w + d * speed site w ^ 2)
  | EffectiveAirLeakageArea al => al * 10000 / 1000 * sqrt (cs * difference w t + cw * w_wind_speed w ^ 2)
  end.

Definition coefficients (s : space) (cs cw : R) : Prop :=
  match sp_infiltration s with
  | Some (EffectiveAirLeakageArea _) => exists b, sp_building s = Some b /\ stack_coefficient b = Ok cs /\ wind_coefficient b = Ok cw
  | _ => True
  end.

Theorem C53_documented_flow site s i cs cw : sp_infiltration s = Some i -> coefficients s cs cw ->
  exists f, resolve site s = Ok (Some f) /\ forall w t, f w t = (w_dry_bulb w, documented_flow site cs cw i w t).
Proof.
  intros E C. unfold resolve, coefficients in *. rewrite E in *. destruct i.
  1-4: eexists; split; [reflexivity|]; intros w t; cbn [documented_flow]; unfold blast, doe2, design_flow_rate, speed, difference; apply (f_equal (pair (w_dry_bulb w))); rewrite ?(Rabs_minus_sym t); ring.
  destruct C as (b & Eb & E1 & E2). rewrite Eb, E1. cbn [bind]. rewrite E2. cbn [bind]. eexists. split; [reflexivity|].
  intros w t. f_equal. unfold effective_leakage_area, documented_flow, difference. rewrite (Rabs_minus_sym t).
  replace (area * 10000 / 1000) with (area * 10) by field.
  replace (cw * w_wind_speed w ^ 2) with (cw * w_wind_speed w * w_wind_speed w) by ring. reflexivity.
Qed.

(** coefficients that are not negative, and what is needed for the leakage area *)
Definition physical (i : infiltration) : Prop :=
  match i with
  | Constant v | Blast v | Doe2 v => 0 <= v
  | DesignFlowRate a b c d v => 0 <= a /\ 0 <= b /\ 0 <= c /\ 0 <= d /\ 0 <= v
  | EffectiveAirLeakageArea al => 0 <= al
  end.

Lemma speed_pos site w : 0 <= w_wind_speed w -> 0 <= speed site w.
Proof. intros. apply Rmult_le_pos; [assumption|]. left. apply C69_positive. lra. Qed.

Lemma flow_nonneg site cs cw i w t : physical i -> 0 <= w_wind_speed w -> 0 <= documented_flow site cs cw i w t.
Proof.
  intros P W. pose proof (speed_pos site w W). assert (D : 0 <= difference w t) by apply Rabs_pos.
  set (sp := speed site w) in *. set (dt := difference w t) in *.
  destruct i; cbn [documented_flow physical] in *; fold sp; fold dt.
  - assumption.
  - apply Rmult_le_pos; nra.
  - apply Rmult_le_pos; nra.
  - destruct P as (Pa & Pb & Pc & Pd & Pv). apply Rmult_le_pos; [assumption|]. assert (0 <= sp ^ 2) by (apply pow2_ge_0). nra.
  - apply Rmult_le_pos; [lra|apply sqrt_pos].
Qed.

Theorem C53_nonnegative site s i f w t : sp_infiltration s = Some i -> physical i -> 0 <= w_wind_speed w ->
  resolve site s = Ok (Some f) -> 0 <= snd (f w t).
Proof.
  intros E P W R.
  assert (exists cs cw, coefficients s cs cw) as (cs & cw & C).
  { unfold coefficients, resolve in *. rewrite E in *. destruct i; try (exists 0, 0; exact I).
    destruct (sp_building s) as [b|]; [|discriminate]. destruct (stack_coefficient b) as [cs| |] eqn:E1; try discriminate. cbn [bind] in R.
    destruct (wind_coefficient b) as [cw| |] eqn:E2; try discriminate. exists cs, cw, b. auto. }
  destruct (C53_documented_flow site s i cs cw E C) as (f' & R' & H). rewrite R in R'. injection R' as <-. rewrite H. cbn [snd]. apply flow_nonneg; assumption.
Qed.

(** zero design flow (or leakage area) gives zero *)
Definition scale (k : R) (i : infiltration) : infiltration :=
  match i with
  | Constant v => Constant (k * v) | Blast v => Blast (k * v) | Doe2 v => Doe2 (k * v)
  | DesignFlowRate a b c d v => DesignFlowRate a b c d (k * v) | EffectiveAirLeakageArea al => EffectiveAirLeakageArea (k * al)
  end.
Theorem C53_proportional site s i k f w t : sp_infiltration s = Some i -> resolve site s = Ok (Some f) ->
  exists f', resolve site (mkSpace (Some (scale k i)) (sp_building s)) = Ok (Some f') /\ snd (f' w t) = k * snd (f w t).
Proof.
  intros E R. unfold resolve in *. rewrite E in R. cbn [sp_infiltration sp_building]. destruct i; cbn [scale].
  1-4: injection R as <-; eexists; split; [reflexivity|]; cbn; unfold blast, doe2, design_flow_rate; ring.
  destruct (sp_building s) as [b|]; [|discriminate]. destruct (stack_coefficient b) as [cs| |]; try discriminate. cbn [bind] in *.
  destruct (wind_coefficient b) as [cw| |]; try discriminate. cbn [bind] in *. injection R as <-. eexists. split; [reflexivity|]. cbn. unfold effective_leakage_area. ring.
Qed.
Theorem C53_zero_design site s i f w t : sp_infiltration s = Some (scale 0 i) -> resolve site s = Ok (Some f) -> snd (f w t) = 0.
Proof.
  intros E R. destruct (C53_proportional site s (scale 0 i) 0 f w t E R) as (f' & R' & H).
  assert (scale 0 (scale 0 i) = scale 0 i) as Z by (destruct i; cbn; rewrite ?Rmult_0_l; reflexivity). rewrite Z in R'.
  assert (resolve site (mkSpace (Some (scale 0 i)) (sp_building s)) = resolve site s) as Q by (unfold resolve; rewrite E; reflexivity).
  rewrite Q, R in R'. injection R' as <-. lra.
Qed.

(** more wind or a larger temperature difference never reduces the flow *)
Theorem C53_monotone site s i f cs cw w w' t t' : sp_infiltration s = Some i -> physical i -> coefficients s cs cw -> 0 <= cs -> 0 <= cw ->
  0 <= w_wind_speed w <= w_wind_speed w' -> difference w t <= difference w' t' ->
  resolve site s = Ok (Some f) -> snd (f w t) <= snd (f w' t').
Proof.
  intros E P C Cs Cw [W W'] D R. destruct (C53_documented_flow site s i cs cw E C) as (f' & R' & H). rewrite R in R'. injection R' as <-. rewrite !H. cbn [snd].
  assert (S0 : 0 <= speed site w) by (apply speed_pos; assumption).
  assert (S : speed site w <= speed site w') by (apply Rmult_le_compat_r; [left; apply C69_positive; lra|assumption]).
  assert (D0 : 0 <= difference w t) by apply Rabs_pos.
  destruct i; cbn [documented_flow physical] in *.
  - lra.
  - apply Rmult_le_compat_l; lra.
  - apply Rmult_le_compat_l; lra.
  - destruct P as (Pa & Pb & Pc & Pd & Pv). apply Rmult_le_compat_l; [assumption|].
    assert (speed site w ^ 2 <= speed site w' ^ 2) by (apply pow_incr; lra). nra.
  - apply Rmult_le_compat_l; [lra|]. apply sqrt_le_1_alt. assert (w_wind_speed w ^ 2 <= w_wind_speed w' ^ 2) by (apply pow_incr; lra). nra.
Qed.

(** ** coefficients of buildings *)
Theorem C53_coefficients b cs cw : b_stack b = None -> b_wind b = None -> stack_coefficient b = Ok cs -> wind_coefficient b = Ok cw -> 0 < cs /\ 0 < cw.
Proof.
  intros E1 E2. unfold stack_coefficient, wind_coefficient, by_storeys. rewrite E1, E2. destruct (b_storeys b) as [n|]; [|discriminate].
  destruct (n =? 0)%nat; [discriminate|]. destruct (n =? 1)%nat, (n =? 2)%nat, (n =? 3)%nat, (b_shelter b) as [[]|]; intros [= <-] [= <-]; lra.
Qed.
(** more storeys, more infiltration; more shelter, less *)
Definition shelter_rank (s : shelter) : nat := match s with NoObstructions => 0 | IsolatedRural => 1 | Urban => 2 | LargeLotUrban => 3 | SmallLotUrban => 4 end.
Theorem C53_storeys_and_shelter n n' s s' : (1 <= n <= n')%nat -> (shelter_rank s' <= shelter_rank s)%nat ->
  exists cs cs' cw cw', stack_coefficient (mkBuilding (Some n) (Some s) None None) = Ok cs /\ stack_coefficient (mkBuilding (Some n') (Some s') None None) = Ok cs' /\
    wind_coefficient (mkBuilding (Some n) (Some s) None None) = Ok cw /\ wind_coefficient (mkBuilding (Some n') (Some s') None None) = Ok cw' /\
    cs <= cs' /\ cw <= cw'.
Proof.
  intros Hn Hs. unfold stack_coefficient, wind_coefficient, by_storeys. cbn [b_stack b_wind b_storeys b_shelter].
  destruct (Nat.eqb_spec n 0); [lia|]. destruct (Nat.eqb_spec n' 0); [lia|].
  destruct (Nat.eqb_spec n 1), (Nat.eqb_spec n' 1), (Nat.eqb_spec n 2), (Nat.eqb_spec n' 2), (Nat.eqb_spec n 3), (Nat.eqb_spec n' 3); try lia;
    destruct s, s'; cbn in Hs; try lia; do 4 eexists; repeat (split; [reflexivity|]); lra.
Qed.
(** a building of no storeys is an error for the stack coefficient, but it is given the wind coefficient of a building of three *)
Theorem C53_no_storeys_refuted : exists b b', b_storeys b = Some 0%nat /\ b_storeys b' = Some 3%nat /\
  stack_coefficient (mkBuilding (b_storeys b) (b_shelter b) None None) = Err /\ (exists v, wind_coefficient b = Ok v /\ wind_coefficient b' = Ok v).
Proof.
  exists (mkBuilding (Some 0%nat) (Some Urban) (Some 1) None), (mkBuilding (Some 3%nat) (Some Urban) (Some 1) None).
  cbn. repeat (split; [reflexivity|]). eexists. split; reflexivity.
Qed.

(** the coefficients of the EnergyPlus Engineering Reference, in 1e-6 (l/s)^2/cm^4/K and (l/s)^2/cm^4/(m/s)^2: one, two, and three or more storeys *)
Definition reference_stack : list R := [145; 290; 435].
Definition reference_wind (s : shelter) : list R :=
  match s with
  | NoObstructions => [319; 420; 494] | IsolatedRural => [246; 325; 382] | Urban => [172; 231; 271] | LargeLotUrban => [104; 137; 161] | SmallLotUrban => [32; 42; 49]
  end.
Theorem C53_reference_tables n s b : (1 <= n)%nat -> b_storeys b = Some n -> b_shelter b = Some s -> b_stack b = None -> b_wind b = None ->
  stack_coefficient b = Ok (nth (Nat.min n 3 - 1) reference_stack 0 / 10 ^ 6) /\ wind_coefficient b = Ok (nth (Nat.min n 3 - 1) (reference_wind s) 0 / 10 ^ 6).
Proof.
  intros Hn E1 E2 E3 E4. unfold stack_coefficient, wind_coefficient, by_storeys. rewrite E1, E2, E3, E4.
  destruct n as [|[|[|[|n]]]]; [lia|..]; destruct s; cbn [Nat.eqb Nat.min Nat.sub nth reference_stack reference_wind]; split; reflexivity.
Qed.

(** ** the whole model: each space gets its own flow, spaces without infiltration keep what they had (zero at the start) *)
Theorem C53_march site spaces rs w temps state : new_air_model site spaces = Ok rs -> length temps = length spaces -> length state = length spaces ->
  length (march rs w temps state) = length spaces /\
  forall k s t v, nth_error spaces k = Some s -> nth_error temps k = Some t -> nth_error state k = Some v ->
    exists o, resolve site s = Ok o /\ nth_error (march rs w temps state) k = Some (match o with Some f => f w t | None => v end).
Proof.
  revert rs temps state. induction spaces as [|s spaces IH]; intros rs temps state E L L'; cbn [new_air_model] in E.
  - injection E as <-. destruct state; [|discriminate]. split; [reflexivity|]. intros [|k] s t v H; discriminate.
  - destruct (resolve site s) as [o| |] eqn:R; try discriminate. cbn [bind] in E. destruct (new_air_model site spaces) as [rs'| |] eqn:N; try discriminate.
    cbn [bind] in E. injection E as <-. destruct temps as [|t temps]; [discriminate|]. destruct state as [|v state]; [discriminate|]. cbn [length] in L, L'.
    destruct (IH rs' temps state eq_refl ltac:(lia) ltac:(lia)) as [IL IN]. cbn [march length]. split; [f_equal; exact IL|].
    intros [|k] s0 t0 v0 Hs Ht Hv; cbn [nth_error] in *.
    + injection Hs as <-. injection Ht as <-. injection Hv as <-. exists o. split; [exact R|]. destruct o; reflexivity.
    + apply IN; assumption.
Qed.
Theorem C53_march_start spaces k s v : nth_error spaces k = Some s -> nth_error (initial_state spaces) k = Some v -> v = (0, 0).
Proof. intros _ H. unfold initial_state in H. rewrite nth_error_map in H. destruct (nth_error spaces k); [|discriminate]. injection H as <-. reflexivity. Qed.

Example C53_example : exists f, resolve None (mkSpace (Some (EffectiveAirLeakageArea (1 / 100))) (Some (mkBuilding (Some 2%nat) (Some Urban) None None))) = Ok (Some f) /\
  snd (f (mkWeather 10 0) 20) = 1 / 10 * sqrt (29 / 10 ^ 4).
Proof.
  eexists. split; [reflexivity|]. cbn [snd]. unfold effective_leakage_area. cbn [w_dry_bulb w_wind_speed]. replace (10 - 20) with (-10) by ring.
  rewrite Rabs_left by lra. replace (1 / 100 * 10) with (1 / 10) by field. do 2 f_equal. field.
Qed.
Example C53_example_physical : physical (DesignFlowRate 1 0 (1 / 10) 0 (1 / 2)). Proof. cbn. lra. Qed.

(** Properties of the temperature of the air of zones (C51), stated with the heat balance of heat_model.rs:494-500:
    [C dT/dt = sum of gains + sum of u (Ti - T)] over everything the zone exchanges heat with. *)
From Coquelicot Require Import Coquelicot.
From Coq Require Import List Arith Reals Bool Lra Lia.
From Verif.Common Require Import Base Flt.
From Verif.Polynomial Require Import PolynomialModel.
From Verif.Heat Require Import GasModel ZoneModel DiscretizationProofs.
Import ListNotations.
Open Scope R_scope.

Local Notation total l := (fold_right Rplus 0 l).

(** what zone [i] exchanges heat with: pairs of conductance (W/K) and temperature *)
Definition air_stream (f : option (R * R)) : list (R * R) :=
  match f with
  | None => []
  | Some (t, v) => [(density AIR (t + 27315 / 100) * v * heat_capacity AIR (t + 27315 / 100), t)]
  end.
Definition is_zone (i : nat) (s : side) : bool := match sd_zone s with Some z => (z =? i)%nat | None => false end.
Definition face (i : nat) (area : R) (s : side) : list (R * R) := if is_zone i s then [(sd_h s * area, sd_temp s)] else [].
Definition exchanges (zones : list zone) (ss : list surf) (i : nat) : list (R * R) :=
  match nth_error zones i with Some z => air_stream (z_infiltration z) ++ air_stream (z_ventilation z) | None => [] end ++
  flat_map (fun s => face i (sf_area s) (sf_front s) ++ face i (sf_area s) (sf_back s)) ss.
(** powers of heaters, coolers and luminaires in zone [i] *)
Definition gain (gains : list (nat * R)) (i : nat) : R := total (map (fun g => if (fst g =? i)%nat then snd g else 0) gains).
Definition conductance (l : list (R * R)) : R := total (map fst l).
(** heat going into a zone at temperature [t] *)
Definition heat_flow (l : list (R * R)) (t : R) : R := total (map (fun e => fst e * (snd e - t)) l).

Definition valid_side (n : nat) (s : side) : Prop := match sd_zone s with Some z => (z < n)%nat | None => True end.
Definition valid (zones : list zone) (gains : list (nat * R)) (ss : list surf) : Prop :=
  Forall (fun g => (fst g < length zones)%nat) gains /\
  Forall (fun s => valid_side (length zones) (sf_front s) /\ valid_side (length zones) (sf_back s)) ss.

Lemma total_app l1 l2 : total (l1 ++ l2) = total l1 + total l2.
Proof. induction l1; cbn; lra. Qed.
Lemma total_app_ex (l1 l2 : list (R * R)) (f : R * R -> R) : total (map f (l1 ++ l2)) = total (map f l1) + total (map f l2).
Proof. rewrite map_app. apply total_app. Qed.

Lemma add_at_tab N f i x : (i < N)%nat -> add_at (tab N f) i x = Ok (tab N (fun j => f j + if (i =? j)%nat then x else 0)).
Proof.
  intros H. unfold add_at. assert (E : nth_error (tab N f) i = Some (f i)) by (rewrite nth_error_tab; destruct (Nat.ltb_spec i N); [reflexivity|lia]).
  rewrite E. f_equal. rewrite upd_tab by assumption. apply tab_ext. intros j Hj.
  destruct (Nat.eqb_spec j i) as [->|]; [rewrite Nat.eqb_refl; reflexivity|]. destruct (Nat.eqb_spec i j); [congruence|lra].
Qed.

Lemma add_gains_tab N gains : Forall (fun g => (fst g < N)%nat) gains -> forall f,
  add_gains gains (tab N f) = Ok (tab N (fun j => f j + gain gains j)).
Proof.
  induction 1 as [|[i q] gains Hi H IH]; intros f.
  - cbn. f_equal. apply tab_ext. intros. unfold gain. cbn. lra.
  - cbn [add_gains]. rewrite add_at_tab by assumption. cbn [bind]. rewrite IH. f_equal. apply tab_ext. intros j _. unfold gain. cbn [map fold_right fst snd].
    destruct (Nat.eqb_spec i j); lra.
Qed.

Definition ut (e : R * R) : R := fst e * snd e.
Lemma add_flow_tab N i fl f g : (i < N)%nat ->
  add_flow i fl (tab N f, tab N g) = Ok (tab N (fun j => f j + if (i =? j)%nat then total (map ut (air_stream fl)) else 0),
    tab N (fun j => g j + if (i =? j)%nat then conductance (air_stream fl) else 0)).
Proof.
  intros H. unfold add_flow, air_stream. destruct fl as [[t v]|].
  - cbn [fst snd]. rewrite !add_at_tab by assumption. cbn [bind]. do 2 f_equal; apply tab_ext; intros j _; destruct (Nat.eqb_spec i j); unfold conductance, ut; cbn; lra.
  - do 2 f_equal; apply tab_ext; intros j _; destruct (Nat.eqb_spec i j); unfold conductance; cbn; lra.
Qed.

Lemma add_flows_tab N zones : forall i f g, (i + length zones = N)%nat ->
  add_flows zones i (tab N f, tab N g) = Ok
    (tab N (fun j => f j + if (i <=? j)%nat then match nth_error zones (j - i) with Some z => total (map ut (air_stream (z_infiltration z) ++ air_stream (z_ventilation z))) | None => 0 end else 0),
     tab N (fun j => g j + if (i <=? j)%nat then match nth_error zones (j - i) with Some z => conductance (air_stream (z_infiltration z) ++ air_stream (z_ventilation z)) | None => 0 end else 0)).
Proof.
  induction zones as [|z zones IH]; intros i f g H.
  - cbn [add_flows]. do 2 f_equal; apply tab_ext; intros j Hj; destruct (Nat.leb_spec i j), (j - i)%nat; cbn; try lra.
  - cbn [length] in H. cbn [add_flows]. rewrite add_flow_tab by lia. cbn [bind]. rewrite add_flow_tab by lia. cbn [bind]. rewrite IH by lia.
    do 2 f_equal; apply tab_ext; intros j Hj.
    + destruct (Nat.eqb_spec i j) as [<-|].
      * rewrite Nat.sub_diag. cbn [nth_error]. rewrite total_app_ex. destruct (Nat.leb_spec (S i) i), (Nat.leb_spec i i); try lia. lra.
      * destruct (Nat.leb_spec i j), (Nat.leb_spec (S i) j); try lia; [|lra]. replace (j - i)%nat with (S (j - S i)) by lia. cbn [nth_error]. lra.
    + destruct (Nat.eqb_spec i j) as [<-|].
      * rewrite Nat.sub_diag. cbn [nth_error]. unfold conductance. rewrite total_app_ex. destruct (Nat.leb_spec (S i) i), (Nat.leb_spec i i); try lia. lra.
      * destruct (Nat.leb_spec i j), (Nat.leb_spec (S i) j); try lia; [|lra]. replace (j - i)%nat with (S (j - S i)) by lia. cbn [nth_error]. lra.
Qed.

Lemma add_side_tab N area s f g : valid_side N s ->
  add_side area s (tab N f, tab N g) = Ok (tab N (fun j => f j + total (map ut (face j area s))), tab N (fun j => g j + conductance (face j area s))).
Proof.
  intros H. unfold add_side, valid_side, face, is_zone, conductance, ut in *. destruct (sd_zone s) as [z|].
  - cbn [fst snd]. rewrite !add_at_tab by assumption. cbn [bind]. do 2 f_equal; apply tab_ext; intros j _; destruct (Nat.eqb_spec z j); cbn; lra.
  - do 2 f_equal; apply tab_ext; intros j _; cbn; lra.
Qed.

Lemma add_surfaces_tab N ss : Forall (fun s => valid_side N (sf_front s) /\ valid_side N (sf_back s)) ss -> forall f g,
  add_surfaces ss (tab N f, tab N g) = Ok
    (tab N (fun j => f j + total (map ut (flat_map (fun s => face j (sf_area s) (sf_front s) ++ face j (sf_area s) (sf_back s)) ss))),
     tab N (fun j => g j + conductance (flat_map (fun s => face j (sf_area s) (sf_front s) ++ face j (sf_area s) (sf_back s)) ss))).
Proof.
  induction 1 as [|s ss [H1 H2] H IH]; intros f g.
  - cbn. do 2 f_equal; apply tab_ext; intros; unfold conductance; cbn; lra.
  - cbn [add_surfaces]. rewrite add_side_tab by assumption. cbn [bind]. rewrite add_side_tab by assumption. cbn [bind]. rewrite IH.
    do 2 f_equal; apply tab_ext; intros j _; cbn [flat_map]; unfold conductance; rewrite !total_app_ex; lra.
Qed.

(** ** the coefficients are those of the heat balance *)
Lemma abc_spec zones gains ss : valid zones gains ss ->
  zones_abc zones gains ss = Ok (tab (length zones) (fun i => gain gains i + total (map ut (exchanges zones ss i))),
    tab (length zones) (fun i => conductance (exchanges zones ss i)), map (fun z => mcp (z_volume z) (z_temp z)) zones).
Proof.
  intros [Hg Hs]. unfold zones_abc. rewrite repeat_tab. rewrite add_gains_tab by assumption. cbn [bind].
  rewrite (add_flows_tab (length zones) zones 0) by reflexivity. cbn [bind]. rewrite add_surfaces_tab by assumption. cbn [bind fst snd].
  do 3 f_equal; apply tab_ext; intros j Hj; unfold exchanges; cbn [Nat.leb]; rewrite Nat.sub_0_r; unfold conductance; rewrite total_app_ex;
    (destruct (nth_error zones j) as [z|] eqn:E; [lra|apply nth_error_None in E; lia]).
Qed.

Lemma heat_flow_ut l t : heat_flow l t = total (map ut l) - conductance l * t.
Proof. unfold heat_flow, conductance, ut. induction l as [|[u x] l IH]; cbn in *; lra. Qed.

Theorem C51_balance zones gains ss : valid zones gains ss -> exists a b c, zones_abc zones gains ss = Ok (a, b, c) /\
  length a = length zones /\ length b = length zones /\ length c = length zones /\
  forall i z, nth_error zones i = Some z ->
    nth i c 0 = mcp (z_volume z) (z_temp z) /\ nth i b 0 = conductance (exchanges zones ss i) /\
    forall t, nth i a 0 - nth i b 0 * t = gain gains i + heat_flow (exchanges zones ss i) t.
Proof.
  intros H. rewrite (abc_spec _ _ _ H). do 3 eexists. split; [reflexivity|]. rewrite !tab_length, map_length. do 3 (split; [reflexivity|]).
  intros i z E. assert (Hi : (i < length zones)%nat) by (apply nth_error_Some; congruence).
  assert (NT : forall f, nth i (tab (length zones) f) 0 = f i).
  { intros f. apply nth_error_nth. rewrite nth_error_tab. destruct (Nat.ltb_spec i (length zones)); [reflexivity|lia]. }
  rewrite !NT. split; [|split; [reflexivity|]].
  - apply nth_error_nth. rewrite nth_error_map, E. reflexivity.
  - intros t. rewrite heat_flow_ut. lra.
Qed.

(** the capacity of the air is positive *)
Lemma air_cp x : heat_capacity AIR x = 10027370 / 10 ^ 4 + 12324 / 10 ^ 6 * x.
Proof. unfold heat_capacity, eval, AIR, poly_of, poly. cbn. lra. Qed.
Lemma air_pos t : -27315 / 100 < t -> 0 < density AIR (t + 27315 / 100) /\ 0 < heat_capacity AIR (t + 27315 / 100).
Proof.
  intros H. split.
  - unfold density. cbn [g_mass AIR]. apply Rdiv_lt_0_compat; [lra|]. apply Rmult_lt_0_compat; lra.
  - rewrite air_cp. lra.
Qed.
Lemma mcp_pos v t : 0 < v -> -27315 / 100 < t -> 0 < mcp v t.
Proof. intros Hv Ht. destruct (air_pos t Ht). unfold mcp. rewrite Rdiv_1. apply Rmult_lt_0_compat; [apply Rmult_lt_0_compat|]; assumption. Qed.

(** ** between the current and the equilibrium temperature *)
Theorem C51_at_once t a b c : future_temperature t a b c 0 = t.
Proof.
  unfold future_temperature. destruct (Rltb _ _); [|reflexivity]. unfold Rdiv at 3. rewrite Rmult_0_r, Rmult_0_l, exp_0. lra.
Qed.

Lemma future_eq t a b c time : 1 / 10 ^ 9 < b -> future_temperature t a b c time = a / b + (t - a / b) * exp (- b * time / c).
Proof. intros. unfold future_temperature. rewrite Rabs_pos_eq by lra. destruct (Rltb_spec (1 / 10 ^ 9) b); [reflexivity|lra]. Qed.

Lemma exp_range b c time : 0 < b -> 0 < c -> 0 <= time -> 0 < exp (- b * time / c) <= 1.
Proof.
  intros. split; [apply exp_pos|]. rewrite <- exp_0. 
  assert (- b * time / c <= 0). { assert (0 <= b * time / c) by (apply Rmult_le_pos; [apply Rmult_le_pos; lra|left; apply Rinv_0_lt_compat; assumption]). lra. }
  destruct H2 as [H2|H2]; [left; apply exp_increasing; assumption|rewrite H2; lra].
Qed.

Theorem C51_between t a b c time : 1 / 10 ^ 9 < b -> 0 < c -> 0 <= time ->
  Rmin t (a / b) <= future_temperature t a b c time <= Rmax t (a / b).
Proof.
  intros Hb Hc Ht. rewrite future_eq by assumption. destruct (exp_range b c time ltac:(lra) Hc Ht) as [E1 E2]. set (e := exp _) in *. set (q := a / b).
  unfold Rmin, Rmax. destruct (Rle_dec t q); nra.
Qed.

(** the longer the step the closer to equilibrium *)
Theorem C51_monotone t a b c s s' : 1 / 10 ^ 9 < b -> 0 < c -> s <= s' ->
  Rabs (future_temperature t a b c s' - a / b) <= Rabs (future_temperature t a b c s - a / b).
Proof.
  intros Hb Hc Hs. rewrite !future_eq by assumption. replace (a / b + (t - a / b) * exp (- b * s' / c) - a / b) with ((t - a / b) * exp (- b * s' / c)) by ring.
  replace (a / b + (t - a / b) * exp (- b * s / c) - a / b) with ((t - a / b) * exp (- b * s / c)) by ring. rewrite !Rabs_mult.
  apply Rmult_le_compat_l; [apply Rabs_pos|]. rewrite !Rabs_pos_eq by (left; apply exp_pos).
  assert (- b * s' / c <= - b * s / c). { unfold Rdiv. apply Rmult_le_compat_r; [left; apply Rinv_0_lt_compat; assumption|nra]. }
  destruct H as [H|H]; [left; apply exp_increasing; assumption|rewrite H; lra].
Qed.

(** it is the solution of the heat balance *)
Theorem C51_solution t a b c time : 1 / 10 ^ 9 < b -> 0 < c ->
  is_derive (fun s => c * future_temperature t a b c s) time (a - b * future_temperature t a b c time).
Proof.
  intros Hb Hc. apply is_derive_ext with (f := fun s => c * (a / b + (t - a / b) * exp (- b * s / c))).
  { intros s. rewrite future_eq by assumption. reflexivity. }
  rewrite future_eq by assumption. auto_derive; [exact I|]. unfold Rdiv. field. lra.
Qed.

(** the mean is the mean, and the balance of energy over the step is exact *)
Theorem C51_mean t a b c time : 1 / 10 ^ 9 < b -> 0 < c -> 0 < time ->
  is_RInt (future_temperature t a b c) 0 time (time * mean_future_temperature t a b c time).
Proof.
  intros Hb Hc Ht.
  assert (E : time * mean_future_temperature t a b c time = (a / b * time - c / b * (t - a / b) * exp (- b * time / c)) - (a / b * 0 - c / b * (t - a / b) * exp (- b * 0 / c))).
  { unfold mean_future_temperature. rewrite Rabs_pos_eq by lra. destruct (Rltb_spec (1 / 10 ^ 9) b); [|lra].
    replace (- b * 0 / c) with 0 by (field; lra). rewrite exp_0. field. lra. }
  rewrite E. apply (is_RInt_derive (fun s => a / b * s - c / b * (t - a / b) * exp (- b * s / c)) (future_temperature t a b c)).
  - intros x _. rewrite future_eq by assumption. auto_derive; [exact I|]. unfold Rdiv. field. lra.
  - intros x _. apply continuous_ext with (f := fun s => a / b + (t - a / b) * exp (- b * s / c)).
    { intros s. rewrite future_eq by assumption. reflexivity. }
    apply (ex_derive_continuous (fun s => a / b + (t - a / b) * exp (- b * s / c))). auto_derive. exact I.
Qed.

Theorem C51_energy t a b c time : 1 / 10 ^ 9 < b -> 0 < c -> 0 < time ->
  c * (future_temperature t a b c time - t) = time * (a - b * mean_future_temperature t a b c time).
Proof.
  intros Hb Hc Ht. rewrite future_eq by assumption. unfold mean_future_temperature. rewrite Rabs_pos_eq by lra. destruct (Rltb_spec (1 / 10 ^ 9) b); [|lra].
  field. lra.
Qed.

(** heat shows: more of it gives a higher temperature *)
Theorem C51_heat_shows t a a' b c time : 1 / 10 ^ 9 < b -> 0 < c -> 0 < time -> a < a' ->
  future_temperature t a b c time < future_temperature t a' b c time.
Proof.
  intros Hb Hc Ht Ha. rewrite !future_eq by assumption.
  assert (E : exp (- b * time / c) < 1).
  { rewrite <- exp_0. apply exp_increasing. assert (0 < b * time / c) by (apply Rdiv_lt_0_compat; nra). lra. }
  pose proof (exp_pos (- b * time / c)). set (e := exp _) in *.
  assert (a / b < a' / b) by (apply Rmult_lt_compat_r; [apply Rinv_0_lt_compat; lra|assumption]). nra.
Qed.

Lemma future_list zones : forall f g h dt, 
  future_temperatures (map z_temp zones) (tab (length zones) f) (tab (length zones) g) (map h zones) dt =
  Ok (map (fun iz => future_temperature (z_temp (snd iz)) (f (fst iz)) (g (fst iz)) (h (snd iz)) dt) (combine (seq 0 (length zones)) zones)).
Proof.
  assert (G : forall zones i f g h dt, future_temperatures (map z_temp zones) (map f (seq i (length zones))) (map g (seq i (length zones))) (map h zones) dt =
    Ok (map (fun iz => future_temperature (z_temp (snd iz)) (f (fst iz)) (g (fst iz)) (h (snd iz)) dt) (combine (seq i (length zones)) zones))).
  { clear. induction zones as [|z zones IH]; intros i f g h dt; [reflexivity|]. cbn [map length seq future_temperatures combine]. rewrite IH. reflexivity. }
  intros. apply G.
Qed.

(** ** a step of the model: without gains, temperatures stay within those of the surroundings *)
Theorem C51_maximum_principle zones gains ss dt i z lo hi : valid zones gains ss -> nth_error zones i = Some z -> 0 <= dt ->
  0 < z_volume z -> -27315 / 100 < z_temp z -> gain gains i = 0 ->
  lo <= z_temp z <= hi -> Forall (fun e => 0 <= fst e /\ lo <= snd e <= hi) (exchanges zones ss i) ->
  exists ts, march_zones zones gains ss dt = Ok ts /\ length ts = length zones /\ lo <= nth i ts 0 <= hi.
Proof.
  intros H E Hdt HV HT HG HR HE. unfold march_zones. rewrite (abc_spec _ _ _ H). cbn [bind]. rewrite future_list. eexists. split; [reflexivity|].
  split; [rewrite map_length, combine_length, seq_length; lia|].
  assert (Hi : (i < length zones)%nat) by (apply nth_error_Some; congruence).
  assert (EN : nth_error (combine (seq 0 (length zones)) zones) i = Some (i, z)).
  { assert (G : forall (l : list zone) k j x, nth_error l j = Some x -> nth_error (combine (seq k (length l)) l) j = Some ((k + j)%nat, x)).
    { clear. induction l as [|y l IH]; intros k [|j] x E; cbn in *; try discriminate.
      - injection E as ->. rewrite Nat.add_0_r. reflexivity.
      - rewrite (IH (S k) j x E). do 2 f_equal. lia. }
    apply (G zones 0%nat i z E). }
  erewrite nth_error_nth by (rewrite nth_error_map, EN; reflexivity). cbn [fst snd]. rewrite HG, Rplus_0_l.
  set (l := exchanges zones ss i) in *. unfold future_temperature. 
  assert (B : 0 <= conductance l /\ conductance l * lo <= total (map ut l) <= conductance l * hi).
  { clear -HE. unfold conductance, ut. induction HE as [|[u x] l [Hu Hx] HE IH]; cbn in *; [lra|]. nra. }
  rewrite Rabs_pos_eq by apply B. destruct (Rltb_spec (1 / 10 ^ 9) (conductance l)); [|assumption].
  assert (0 < conductance l) by lra.
  destruct (C51_between (z_temp z) (total (map ut l)) (conductance l) (mcp (z_volume z) (z_temp z)) dt r (mcp_pos _ _ HV HT) Hdt) as [B1 B2].
  rewrite future_eq in B1, B2 by assumption.
  assert (Q : lo <= total (map ut l) / conductance l <= hi).
  { split; [apply Rmult_le_reg_r with (conductance l)|apply Rmult_le_reg_r with (conductance l)]; try assumption;
      unfold Rdiv; rewrite Rmult_assoc, Rinv_l, Rmult_1_r; lra. }
  split.
  - eapply Rle_trans; [|exact B1]. apply Rmin_glb; [apply HR|apply Q].
  - eapply Rle_trans; [exact B2|]. apply Rmax_lub; [apply HR|apply Q].
Qed.

(** ** a zone that exchanges heat with nothing keeps its temperature, whatever the power of its heater *)
Theorem C51_isolated_keeps t a c time : future_temperature t a 0 c time = t.
Proof. unfold future_temperature. rewrite Rabs_R0. destruct (Rltb_spec (1 / 10 ^ 9) 0); [lra|reflexivity]. Qed.

Theorem C51_heat_shows_refuted : exists zones gains dt, valid zones gains [] /\ 0 < dt /\ gain gains 0 = 1000 /\
  march_zones zones gains [] dt = Ok [20] /\ map z_temp zones = [20].
Proof.
  exists [mkZone 50 20 None None], [(0%nat, 1000)], 60. split; [|split; [lra|split; [unfold gain; cbn; lra|split; [|reflexivity]]]].
  - split; repeat constructor.
  - assert (V : valid [mkZone 50 20 None None] [(0%nat, 1000)] []) by (split; repeat constructor).
    unfold march_zones. rewrite (abc_spec _ _ _ V). cbn [bind length]. change (tab 1 ?f) with [f 0%nat]. cbn [map future_temperatures bind z_temp].
    unfold conductance, exchanges. cbn. rewrite C51_isolated_keeps. reflexivity.
Qed.

(** what the exact balance would give for it *)
Theorem C51_isolated_exact t a c : 0 < c -> forall time, is_derive (fun s => c * (t + a / c * s)) time a.
Proof. intros. auto_derive; [exact I|]. field. lra. Qed.

(** ** an example: a room between two walls, one of them warmer, with a lamp *)
Definition ex_zones : list zone := [mkZone 50 20 (Some (10, 1 / 100)) None].
Definition ex_surfaces : list surf := [mkSurf 12 (mkSide None 10 5) (mkSide (Some 0%nat) 3 18); mkSurf 10 (mkSide (Some 0%nat) 3 22) (mkSide None 1 0)].
Example C51_example : valid ex_zones [(0%nat, 100)] ex_surfaces /\ gain [(0%nat, 100)] 0 = 100 /\
  length (exchanges ex_zones ex_surfaces 0) = 3%nat /\ Forall (fun e => 0 <= fst e /\ 10 <= snd e <= 22) (exchanges ex_zones ex_surfaces 0).
Proof.
  split; [split; repeat constructor; cbn; lia|]. split; [unfold gain; cbn; lra|]. split; [reflexivity|].
  destruct (air_pos 10 ltac:(lra)). unfold exchanges. cbn [nth_error ex_zones z_infiltration z_ventilation air_stream ex_surfaces flat_map face is_zone sd_zone sf_front sf_back Nat.eqb List.app sf_area sd_h sd_temp].
  repeat apply Forall_cons; cbn [fst snd]; try apply Forall_nil; try lra. split; [|lra]. apply Rmult_le_pos; [apply Rmult_le_pos; lra|lra].
Qed.
Example C51_example_step : 1 / 10 ^ 9 < 2 /\ 0 < 60000 /\ 0 <= 60.
Proof. lra. Qed.

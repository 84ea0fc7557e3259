(** Properties of heaters, coolers and luminaires in the thermal model (C111): which space their power heats, stated with the names of spaces. *)
From Coq Require Import List Arith Reals Bool Lra Lia String.
From Verif.Common Require Import Base Flt.
From Verif.Heat Require Import GasModel ZoneModel DiscretizationProofs DevicesModel.
From Verif.Properties Require Import ZoneProps.
Import ListNotations.
Open Scope R_scope.

Local Notation total l := (fold_right Rplus 0 l).
Local Notation length := List.length.

(** the device is meant for a space of the building *)
Definition placed (names : list string) (d : device) : Prop := exists t, dv_target d = Some t /\ In t names.
(** the state holds its power *)
Definition powered (d : device) : Prop := exists p, dv_power d = Some p.
Definition power (d : device) : R := match dv_power d with Some p => p | None => 0 end.
(** the heat that a device gives to the space that has number [i] *)
Definition heat_in (names : list string) (i : nat) (d : device) : R :=
  match dv_target d, nth_error names i with Some t, Some n => if String.eqb n t then power d else 0 | _, _ => 0 end.
(** number [i] is that of the first space with the name *)
Definition first_named (names : list string) (t : string) (i : nat) : Prop :=
  nth_error names i = Some t /\ forall j, (j < i)%nat -> nth_error names j <> Some t.

Lemma target_index_spec names : forall k t, 
  (exists i, target_index names k (Some t) = Ok (k + i)%nat /\ first_named names t i) \/ (target_index names k (Some t) = Err /\ ~ In t names).
Proof.
  induction names as [|n names IH]; intros k t; cbn [target_index]; [right; split; [reflexivity|intros []]|].
  destruct (String.eqb_spec n t) as [->|N].
  - left. exists 0%nat. split; [f_equal; lia|]. split; [reflexivity|intros j Hj; lia].
  - destruct (IH (S k) t) as [(i & E & F1 & F2)|[E F]].
    + left. exists (S i). split; [rewrite E; f_equal; lia|]. split; [exact F1|]. intros [|j] Hj; cbn; [congruence|apply F2; lia].
    + right. split; [exact E|]. intros [H|H]; [apply N; exact H|apply F; exact H].
Qed.
Lemma target_index_none names k : target_index names k None = Err.
Proof. destruct names; reflexivity. Qed.
Lemma first_in names t i : first_named names t i -> In t names.
Proof. intros [H _]. eapply nth_error_In; exact H. Qed.
Lemma first_lt names t i : first_named names t i -> (i < length names)%nat.
Proof. intros [H _]. apply nth_error_Some. congruence. Qed.
Lemma first_unique names t i j : first_named names t i -> first_named names t j -> i = j.
Proof.
  intros [A1 A2] [B1 B2]. destruct (Nat.lt_trichotomy i j) as [H|[H|H]]; [|exact H|].
  - destruct (B2 i H A1).
  - destruct (A2 j H B1).
Qed.

(** ** the thermal model can be made exactly when every device is meant for a space that exists, and it never panics *)
Theorem C111_made names ds : ((exists hs, thermal_devices names ds = Ok hs) <-> Forall (placed names) ds) /\ thermal_devices names ds <> Panic.
Proof.
  induction ds as [|d ds [[IH1 IH2] IH3]].
  - cbn. split; [split; intros; [constructor|exists []; reflexivity]|discriminate].
  - cbn [thermal_devices]. destruct (dv_target d) as [t|] eqn:T.
    + destruct (target_index_spec names 0 t) as [(i & E & F)|[E F]]; rewrite E; cbn [bind].
      * split; [split|].
        -- intros [hs H]. destruct (thermal_devices names ds) as [r| |]; try discriminate. constructor; [exists t; split; [exact T|exact (first_in _ _ _ F)]|apply IH1; exists r; reflexivity].
        -- intros H. inversion H as [|? ? _ H2]; subst. destruct (IH2 H2) as [r Er]. rewrite Er. cbn [bind]. eexists; reflexivity.
        -- destruct (thermal_devices names ds); cbn [bind]; [discriminate|discriminate|exact IH3].
      * split; [split; [intros [hs H]; discriminate|]|discriminate]. intros H. inversion H as [|? ? (t' & T' & I) _]; subst. rewrite T in T'. injection T' as <-. destruct (F I).
    + rewrite target_index_none. cbn [bind]. split; [split; [intros [hs H]; discriminate|]|discriminate].
      intros H. inversion H as [|? ? (t' & T' & I) _]; subst. congruence.
Qed.

(** ** each device belongs to the first space with the name *)
Theorem C111_first names ds hs : thermal_devices names ds = Ok hs ->
  Forall2 (fun d h => fst h = d /\ exists t, dv_target d = Some t /\ first_named names t (snd h)) ds hs.
Proof.
  revert hs. induction ds as [|d ds IH]; intros hs H; cbn [thermal_devices] in H; [injection H as <-; constructor|].
  destruct (dv_target d) as [t|] eqn:T; [|rewrite target_index_none in H; discriminate].
  destruct (target_index_spec names 0 t) as [(i & E & F)|[E F]]; rewrite E in H; cbn [bind] in H; [|discriminate].
  destruct (thermal_devices names ds) as [r| |] eqn:R; cbn [bind] in H; try discriminate. injection H as <-.
  constructor; [|apply IH; reflexivity]. split; [reflexivity|]. exists t. split; [exact T|exact F].
Qed.

Definition gain_of (h : device * nat) : nat * R := (snd h, power (fst h)).
Lemma hvac_gains_ok hs : Forall (fun h => (exists t, dv_target (fst h) = Some t) /\ powered (fst h)) hs -> hvac_gains hs = Ok (map gain_of hs).
Proof.
  induction 1 as [|[d i] hs [[t T] [p P]] H IH]; [reflexivity|]. cbn [hvac_gains]. unfold cooling_heating_power. cbn [fst snd] in *. rewrite T, P. cbn [bind]. rewrite IH. cbn [bind].
  unfold gain_of, power. cbn [map fst snd]. rewrite P. reflexivity.
Qed.
Lemma luminaire_gains_ok ls : Forall (fun h => powered (fst h)) ls -> luminaire_gains ls = Ok (map gain_of ls).
Proof.
  induction 1 as [|[d i] ls [p P] H IH]; [reflexivity|]. cbn [luminaire_gains fst snd] in *. rewrite P. cbn [bind]. rewrite IH. cbn [bind].
  unfold gain_of, power. cbn [map fst snd]. rewrite P. reflexivity.
Qed.

Lemma total_app' l1 l2 : total (l1 ++ l2) = total l1 + total l2.
Proof. induction l1; cbn; lra. Qed.
Lemma gain_app g g' i : gain (g ++ g') i = gain g i + gain g' i.
Proof. unfold gain. rewrite map_app. apply total_app'. Qed.

Lemma gains_of_devices names ds : Forall (placed names) ds -> exists hs, thermal_devices names ds = Ok hs /\
  map fst hs = ds /\ Forall (fun h => exists t, dv_target (fst h) = Some t /\ first_named names t (snd h)) hs.
Proof.
  intros H. destruct (proj2 (proj1 (C111_made names ds)) H) as [hs E]. exists hs. split; [exact E|]. pose proof (C111_first _ _ _ E) as F. clear -F.
  induction F as [|d h ds hs [A (t & T & I)] F [IH1 IH2]]; [split; [reflexivity|constructor]|]. split; [cbn; rewrite A, IH1; reflexivity|].
  constructor; [|exact IH2]. exists t. rewrite A. split; assumption.
Qed.

Lemma gains_exact names hvacs lums hs ls : thermal_devices names hvacs = Ok hs -> thermal_devices names lums = Ok ls ->
  Forall powered hvacs -> Forall powered lums -> device_gains hs ls = Ok (map gain_of (hs ++ ls)).
Proof.
  intros EH EL PH PL. pose proof (C111_first _ _ _ EH) as FH. pose proof (C111_first _ _ _ EL) as FL. clear EH EL.
  assert (H1 : Forall (fun h => (exists t, dv_target (fst h) = Some t) /\ powered (fst h)) hs).
  { clear FL PL. induction FH as [|d h hvacs hs [A (t & T & _)] F IH]; [constructor|]. inversion PH; subst. constructor; [|apply IH; assumption].
    split; [exists t; assumption|assumption]. }
  assert (H2 : Forall (fun h => powered (fst h)) ls).
  { clear FH PH H1. induction FL as [|d h lums ls [A _] F IH]; [constructor|]. inversion PL; subst. constructor; [assumption|apply IH; assumption]. }
  unfold device_gains. rewrite (hvac_gains_ok _ H1). cbn [bind]. rewrite (luminaire_gains_ok _ H2). cbn [bind]. rewrite map_app. reflexivity.
Qed.

(** the air of the space number [i] gets the powers of the devices meant for it and no other *)
Lemma gain_named names hs i : NoDup names -> Forall (fun h => exists t, dv_target (fst h) = Some t /\ first_named names t (snd h)) hs ->
  gain (map gain_of hs) i = total (map (heat_in names i) (map fst hs)).
Proof.
  intros ND H. induction H as [|[d k] hs (t & T & F) H IH]; [reflexivity|]. unfold gain in *. cbn [map fold_right gain_of fst snd] in *. rewrite <- IH. f_equal.
  unfold heat_in. rewrite T. destruct (Nat.eqb_spec k i) as [->|N].
  - destruct F as [F _]. rewrite F, String.eqb_refl. reflexivity.
  - destruct (nth_error names i) as [n|] eqn:E; [|reflexivity]. destruct (String.eqb_spec n t) as [->|]; [|reflexivity]. exfalso. apply N.
    destruct F as [F _]. apply (proj1 (NoDup_nth_error names) ND); [apply nth_error_Some; congruence|congruence].
Qed.

Theorem C111_gains names hvacs lums : NoDup names -> Forall (placed names) (hvacs ++ lums) -> Forall powered (hvacs ++ lums) ->
  exists hs ls g, thermal_devices names hvacs = Ok hs /\ thermal_devices names lums = Ok ls /\ device_gains hs ls = Ok g /\
    Forall (fun x => (fst x < length names)%nat) g /\
    forall i, gain g i = total (map (heat_in names i) (hvacs ++ lums)).
Proof.
  intros ND HP HW. apply Forall_app in HP. apply Forall_app in HW. destruct HP as [P1 P2]. destruct HW as [W1 W2].
  destruct (gains_of_devices names hvacs P1) as (hs & EH & MH & FH). destruct (gains_of_devices names lums P2) as (ls & EL & ML & FL).
  exists hs, ls. eexists. split; [exact EH|]. split; [exact EL|]. split; [exact (gains_exact _ _ _ _ _ EH EL W1 W2)|].
  assert (FA : Forall (fun h => exists t, dv_target (fst h) = Some t /\ first_named names t (snd h)) (hs ++ ls)) by (apply Forall_app; split; assumption).
  split.
  - apply Forall_map. eapply Forall_impl; [|exact FA]. intros h (t & _ & F). cbn. exact (first_lt _ _ _ F).
  - intros i. rewrite (gain_named names _ i ND FA), map_app, MH, ML. reflexivity.
Qed.

(** ** all the power goes into the air of the building, whatever the names are *)
Theorem C111_conserved names hvacs lums hs ls g : thermal_devices names hvacs = Ok hs -> thermal_devices names lums = Ok ls ->
  device_gains hs ls = Ok g -> total (map snd g) = total (map power (hvacs ++ lums)) /\ Forall (fun x => (fst x < length names)%nat) g.
Proof.
  intros EH EL EG. unfold device_gains in EG. destruct (hvac_gains hs) as [g1| |] eqn:E1; cbn [bind] in EG; try discriminate.
  destruct (luminaire_gains ls) as [g2| |] eqn:E2; cbn [bind] in EG; try discriminate. injection EG as <-.
  pose proof (C111_first _ _ _ EH) as FH. pose proof (C111_first _ _ _ EL) as FL.
  assert (H1 : total (map snd g1) = total (map power hvacs) /\ Forall (fun x => (fst x < length names)%nat) g1).
  { clear -FH E1. revert g1 E1. induction FH as [|d [d' k] hvacs hs [A (t & T & I)] F IH]; intros g1 E1; cbn [hvac_gains] in E1.
    - injection E1 as <-. split; [reflexivity|constructor].
    - cbn [fst snd] in *. subst d'. unfold cooling_heating_power in E1. cbn [fst snd] in E1. rewrite T in E1. destruct (dv_power d) as [p|] eqn:P; cbn [bind] in E1; [|discriminate].
      destruct (hvac_gains hs) as [r| |]; cbn [bind] in E1; try discriminate. injection E1 as <-. destruct (IH r eq_refl) as [I1 I2]. split.
      + cbn [List.app map snd fold_right]. rewrite I1. unfold power. rewrite P. reflexivity.
      + constructor; [exact (first_lt _ _ _ I)|exact I2]. }
  assert (H2 : total (map snd g2) = total (map power lums) /\ Forall (fun x => (fst x < length names)%nat) g2).
  { clear -FL E2. revert g2 E2. induction FL as [|d [d' k] lums ls [A (t & T & I)] F IH]; intros g2 E2; cbn [luminaire_gains] in E2.
    - injection E2 as <-. split; [reflexivity|constructor].
    - cbn [fst snd] in *. subst d'. destruct (dv_power d) as [p|] eqn:P; cbn [bind] in E2; [|discriminate].
      destruct (luminaire_gains ls) as [r| |]; cbn [bind] in E2; try discriminate. injection E2 as <-. destruct (IH r eq_refl) as [I1 I2]. split.
      + cbn [map snd fold_right]. rewrite I1. unfold power. rewrite P. reflexivity.
      + constructor; [exact (first_lt _ _ _ I)|exact I2]. }
  rewrite !map_app, !total_app'. split; [lra|apply Forall_app; split; [apply H1|apply H2]].
Qed.

(** ** a later space with the same name gets nothing *)
Theorem C111_namesake names hvacs lums hs ls g i j n : thermal_devices names hvacs = Ok hs -> thermal_devices names lums = Ok ls ->
  device_gains hs ls = Ok g -> (j < i)%nat -> nth_error names j = Some n -> nth_error names i = Some n -> gain g i = 0.
Proof.
  intros EH EL EG Hj Ej Ei. unfold device_gains in EG. destruct (hvac_gains hs) as [g1| |] eqn:E1; cbn [bind] in EG; try discriminate.
  destruct (luminaire_gains ls) as [g2| |] eqn:E2; cbn [bind] in EG; try discriminate. injection EG as <-.
  pose proof (C111_first _ _ _ EH) as FH. pose proof (C111_first _ _ _ EL) as FL. rewrite gain_app.
  assert (NF : forall t k, first_named names t k -> k <> i).
  { intros t k [F1 F2] ->. rewrite Ei in F1. injection F1 as <-. exact (F2 j Hj Ej). }
  assert (H1 : gain g1 i = 0).
  { clear -FH E1 NF. revert g1 E1. induction FH as [|d [d' k] hvacs hs [A (t & T & I)] F IH]; intros g1 E1; cbn [hvac_gains] in E1.
    - injection E1 as <-. reflexivity.
    - cbn [fst snd] in *. subst d'. unfold cooling_heating_power in E1. cbn [fst snd] in E1. rewrite T in E1. destruct (dv_power d) as [p|]; cbn [bind] in E1; [|discriminate].
      destruct (hvac_gains hs) as [r| |]; cbn [bind] in E1; try discriminate. injection E1 as <-. specialize (IH r eq_refl). unfold gain in *. cbn [List.app map fold_right fst snd].
      rewrite IH. destruct (Nat.eqb_spec k i) as [->|]; [destruct (NF _ _ I eq_refl)|lra]. }
  assert (H2 : gain g2 i = 0).
  { clear -FL E2 NF. revert g2 E2. induction FL as [|d [d' k] lums ls [A (t & T & I)] F IH]; intros g2 E2; cbn [luminaire_gains] in E2.
    - injection E2 as <-. reflexivity.
    - cbn [fst snd] in *. subst d'. destruct (dv_power d) as [p|]; cbn [bind] in E2; [|discriminate].
      destruct (luminaire_gains ls) as [r| |]; cbn [bind] in E2; try discriminate. injection E2 as <-. specialize (IH r eq_refl). unfold gain in *. cbn [map fold_right fst snd].
      rewrite IH. destruct (Nat.eqb_spec k i) as [->|]; [destruct (NF _ _ I eq_refl)|lra]. }
  lra.
Qed.

(** ** what a step of the model does with the heat *)
Lemma combine_seq_nth (l : list zone) : forall k j x, nth_error l j = Some x -> nth_error (combine (seq k (length l)) l) j = Some ((k + j)%nat, x).
Proof.
  induction l as [|y l IH]; intros k [|j] x E; cbn in *; try discriminate.
  - injection E as ->. rewrite Nat.add_0_r. reflexivity.
  - rewrite (IH (S k) j x E). do 2 f_equal. lia.
Qed.
Lemma run_exact names zones hvacs lums ss dt : NoDup names -> length names = length zones ->
  Forall (placed names) (hvacs ++ lums) -> Forall powered (hvacs ++ lums) ->
  Forall (fun s => valid_side (length zones) (sf_front s) /\ valid_side (length zones) (sf_back s)) ss ->
  exists ts, run_devices names zones hvacs lums ss dt = Ok ts /\ length ts = length zones /\
    forall i z, nth_error zones i = Some z ->
      nth i ts 0 = future_temperature (z_temp z) (total (map (heat_in names i) (hvacs ++ lums)) + total (map ut (exchanges zones ss i)))
        (conductance (exchanges zones ss i)) (mcp (z_volume z) (z_temp z)) dt.
Proof.
  intros ND HL HP HW HS. destruct (C111_gains names hvacs lums ND HP HW) as (hs & ls & g & EH & EL & EG & FG & HG).
  assert (V : valid zones g ss) by (split; [rewrite <- HL; exact FG|exact HS]).
  unfold run_devices. rewrite EH. cbn [bind]. rewrite EL. cbn [bind]. rewrite EG. cbn [bind]. unfold march_zones. rewrite (abc_spec _ _ _ V). cbn [bind].
  rewrite future_list. eexists. split; [reflexivity|]. split; [rewrite map_length, combine_length, seq_length; lia|].
  intros i z E. erewrite nth_error_nth by (rewrite nth_error_map, (combine_seq_nth zones 0 i z E); reflexivity). cbn [fst snd]. rewrite Nat.add_0_l, HG. reflexivity.
Qed.

(** one device (a heater, a cooler or a luminaire) changes its power: only the air of the space it is meant for notices, and it is warmer by the heat *)
Theorem C111_warms names zones hvacs lums hvacs' lums' l1 l2 d p p' ss dt : NoDup names -> length names = length zones ->
  (hvacs ++ lums = l1 ++ mkDevice d (Some p) :: l2)%list -> (hvacs' ++ lums' = l1 ++ mkDevice d (Some p') :: l2)%list ->
  Forall (placed names) (hvacs ++ lums) -> Forall powered (hvacs ++ lums) ->
  Forall (fun s => valid_side (length zones) (sf_front s) /\ valid_side (length zones) (sf_back s)) ss ->
  exists ts ts', run_devices names zones hvacs lums ss dt = Ok ts /\ run_devices names zones hvacs' lums' ss dt = Ok ts' /\
    length ts = length zones /\ length ts' = length zones /\
    forall i z n, nth_error zones i = Some z -> nth_error names i = Some n ->
      (d <> Some n -> nth i ts' 0 = nth i ts 0) /\
      (d = Some n -> 1 / 10 ^ 9 < conductance (exchanges zones ss i) ->
        nth i ts' 0 - nth i ts 0 = (p' - p) / conductance (exchanges zones ss i) *
          (1 - exp (- conductance (exchanges zones ss i) * dt / mcp (z_volume z) (z_temp z)))).
Proof.
  intros ND HL E E' HP HW HS.
  assert (HP' : Forall (placed names) (hvacs' ++ lums')).
  { rewrite E'. rewrite E in HP. apply Forall_app in HP. destruct HP as [A B]. inversion B as [|? ? C D]; subst. apply Forall_app. split; [exact A|]. constructor; [exact C|exact D]. }
  assert (HW' : Forall powered (hvacs' ++ lums')).
  { rewrite E'. rewrite E in HW. apply Forall_app in HW. destruct HW as [A B]. inversion B as [|? ? C D]; subst. apply Forall_app. split; [exact A|]. constructor; [exists p'; reflexivity|exact D]. }
  destruct (run_exact names zones hvacs lums ss dt ND HL HP HW HS) as (ts & R & L & T).
  destruct (run_exact names zones hvacs' lums' ss dt ND HL HP' HW' HS) as (ts' & R' & L' & T').
  exists ts, ts'. do 4 (split; [assumption|]). intros i z n EZ EN. rewrite (T i z EZ), (T' i z EZ).
  assert (Q : total (map (heat_in names i) (hvacs' ++ lums')) - total (map (heat_in names i) (hvacs ++ lums)) =
    heat_in names i (mkDevice d (Some p')) - heat_in names i (mkDevice d (Some p))).
  { rewrite E, E', !map_app, !total_app'. cbn [map fold_right]. lra. }
  set (q := total (map (heat_in names i) (hvacs ++ lums))) in *. set (q' := total (map (heat_in names i) (hvacs' ++ lums'))) in *.
  unfold heat_in in Q. cbn [dv_target] in Q. rewrite EN in Q. unfold power in Q. cbn [dv_power] in Q. split.
  - intros D. assert (q' = q) as ->; [|reflexivity]. destruct d as [t|]; [|lra]. destruct (String.eqb_spec n t) as [->|]; [destruct D; reflexivity|lra].
  - intros -> B. rewrite String.eqb_refl in Q. rewrite !future_eq by assumption. assert (q' = q + (p' - p)) as -> by lra. field. lra.
Qed.

(** ** powers that the state does not hold: an error for a heater, a panic for a luminaire *)
Theorem C111_unpowered names zones hvacs lums ss dt : Forall (placed names) (hvacs ++ lums) ->
  (~ Forall powered hvacs -> run_devices names zones hvacs lums ss dt = Err) /\
  (Forall powered hvacs -> ~ Forall powered lums -> run_devices names zones hvacs lums ss dt = Panic).
Proof.
  intros HP. apply Forall_app in HP. destruct HP as [P1 P2].
  destruct (gains_of_devices names hvacs P1) as (hs & EH & MH & FH). destruct (gains_of_devices names lums P2) as (ls & EL & ML & FL).
  unfold run_devices. rewrite EH. cbn [bind]. rewrite EL. cbn [bind]. unfold device_gains. split.
  - intros H. assert (hvac_gains hs = Err) as ->; [|reflexivity]. rewrite <- MH in H. clear -H FH. induction FH as [|[d k] hs (t & T & _) F IH].
    + destruct H. constructor.
    + cbn [hvac_gains]. unfold cooling_heating_power. cbn [fst snd map] in *. rewrite T. destruct (dv_power d) as [p|] eqn:P; [|reflexivity]. cbn [bind].
      rewrite IH; [reflexivity|]. intros H'. apply H. constructor; [exists p; exact P|exact H'].
  - intros H1 H2. rewrite hvac_gains_ok.
    2:{ rewrite <- MH in H1. clear -H1 FH. induction FH as [|[d k] hs (t & T & _) F IH]; [constructor|]. inversion H1; subst. constructor; [split; [exists t; exact T|assumption]|apply IH; assumption]. }
    cbn [bind]. assert (luminaire_gains ls = Panic) as ->; [|reflexivity]. rewrite <- ML in H2. clear -H2. induction ls as [|[d k] ls IH].
    + destruct H2. constructor.
    + cbn [luminaire_gains fst snd map] in *. destruct (dv_power d) as [p|] eqn:P; [|reflexivity]. cbn [bind].
      rewrite IH; [reflexivity|]. intros H'. apply H2. constructor; [exists p; exact P|exact H'].
Qed.

(** ** a luminaire outside (model/src/luminaire.rs:49-56: "if this is an exterior luminaire [...] this can be left empty") leaves the building without
    a thermal model *)
Theorem C111_outside_refuted : exists names zones lum, dv_target lum = None /\ powered lum /\
  (exists ts, run_devices names zones [] [] [] 60 = Ok ts) /\ forall hvacs ss dt, run_devices names zones hvacs [lum] ss dt = Err.
Proof.
  exists ["room"%string], [mkZone 50 20 None None], (mkDevice None (Some 100)). split; [reflexivity|]. split; [exists 100; reflexivity|]. split.
  - destruct (run_exact ["room"%string] [mkZone 50 20 None None] [] [] [] 60) as (ts & R & _); [repeat constructor; intros []|reflexivity|constructor|constructor|constructor|].
    exists ts. exact R.
  - intros hvacs ss dt. unfold run_devices. destruct (C111_made ["room"%string] hvacs) as [_ NP]. destruct (thermal_devices ["room"%string] hvacs); [reflexivity|reflexivity|destruct (NP eq_refl)].
Qed.

(** ** an example: two rooms, a heater in each and a lamp in the second *)
Example C111_example : 
  let names := ["kitchen"; "hall"]%string in
  let hvacs := [mkDevice (Some "hall"%string) (Some 500); mkDevice (Some "kitchen"%string) (Some (-200))] in
  let lums := [mkDevice (Some "hall"%string) (Some 60)] in
  NoDup names /\ Forall (placed names) (hvacs ++ lums) /\ Forall powered (hvacs ++ lums) /\
  thermal_devices names hvacs = Ok [(mkDevice (Some "hall"%string) (Some 500), 1%nat); (mkDevice (Some "kitchen"%string) (Some (-200)), 0%nat)] /\
  total (map (heat_in names 0) (hvacs ++ lums)) = -200 /\ total (map (heat_in names 1) (hvacs ++ lums)) = 560.
Proof.
  cbv zeta. split; [repeat constructor; cbn; intuition discriminate|]. split.
  { repeat constructor; eexists; (split; [reflexivity|cbn; tauto]). }
  split; [repeat constructor; eexists; reflexivity|]. split; [reflexivity|].
  split; unfold heat_in, power; cbn [List.app map fold_right dv_target dv_power nth_error]; cbn -[Rplus Rmult IZR]; lra.
Qed.

(** Claim C114: a whole time step of the thermal model of a building. *)
From Coq Require Import List Arith ZArith QArith Qreals Reals Bool Lia Lra Permutation.
From Verif.Calendar Require Import DateModel DateSpec.
From Verif.Weather Require Import WeatherModel.
From Verif.Common Require Import Base Flt.
From Verif.Matrix Require Import MatrixModel.
From Verif.Heat Require Import GasModel DiscretizationProofs ConvectionModel WallModel WallProofs MarchModel ZoneModel WindModel BuildingHeatModel.
From Verif.Properties Require Import CalendarProps WallProps ConvectionProps MarchProps ZoneProps.
Import ListNotations.
Open Scope R_scope.

Local Notation total l := (fold_right Rplus 0 l).

Lemma gather_ok {A B} (f : A -> res B) l r : gather f l = Ok r <-> Forall2 (fun x y => f x = Ok y) l r.
Proof.
  split.
  - revert r. induction l as [|x l IH]; intros r; cbn [gather].
    + intros [= <-]. constructor.
    + destruct (f x) eqn:E; destruct (gather f l); try discriminate. intros [= <-]. constructor; [assumption|]. apply IH. reflexivity.
  - induction 1 as [|x y l r E _ IH]; cbn [gather]; [reflexivity|]. rewrite E, IH. reflexivity.
Qed.

(** ** each wall and window takes its own step, from the temperatures of the spaces at the beginning *)
Definition moved (wd ws t_out dt : R) (zones : list R) (e e' : element) : Prop :=
  el_surface e' = el_surface e /\
  surface_step (el_surface e) (el_state e) t_out zones wd ws dt (el_memory e) = Ok (el_state e', el_memory e').

Theorem C114_own_step wd ws t_out dt zones es es' :
  iterate_surfaces es wd ws t_out dt zones = Ok es' <-> Forall2 (moved wd ws t_out dt zones) es es'.
Proof.
  unfold iterate_surfaces. split.
  - destruct (gather _ es) as [ts| |] eqn:E1; cbn [bind]; try discriminate. apply gather_ok in E1.
    match goal with |- context [gather ?f ts] => destruct (gather f ts) as [ms| |] eqn:E2 end; cbn [bind]; try discriminate. apply gather_ok in E2.
    intros E3. apply gather_ok in E3. revert ms es' E2 E3.
    induction E1 as [|e t es ts He _ IH]; intros ms es' E2 E3.
    + inversion E2; subst. inversion E3; subst. constructor.
    + inversion E2 as [|? m ? ms' Hm Hms]; subst. inversion E3 as [|? e' ? es'' Hw Hws]; subst. constructor; [|apply (IH ms'); assumption].
      clear IH E2 E3 Hms Hws. destruct (boundary_temps _ _ _ _) as [bt| |] eqn:EB; cbn [bind] in He; try discriminate. injection He as <-. cbn [fst snd] in Hm.
      match goal with H : bind ?q _ = Ok m |- _ => destruct q as [mem| |] eqn:EM; cbn [bind] in H; try discriminate; injection H as <- end. cbn [fst snd el_surface el_state el_memory] in Hw.
      match goal with H : bind ?q _ = Ok e' |- _ => destruct q as [st| |] eqn:EW; cbn [bind] in H; try discriminate; injection H as <- end.
      split; [reflexivity|]. cbn [el_surface el_state el_memory]. unfold surface_step. rewrite EB. cbn [bind]. rewrite EM. cbn [bind]. rewrite EW. reflexivity.
  - intros H.
    assert (Q : exists ts ms, Forall2 (fun e t => (do t <- boundary_temps (el_surface e) (el_state e) t_out zones; Ok (e, t)) = Ok t) es ts /\
      Forall2 (fun (x : element * (R * R)) y => (do mem <- march (el_surface (fst x)) (el_state (fst x)) (fst (snd x)) (snd (snd x)) wd ws dt (el_memory (fst x));
              Ok (mkEl (el_surface (fst x)) (el_state (fst x)) mem, snd x)) = Ok y) ts ms /\
      Forall2 (fun (x : element * (R * R)) y => (do st <- write_surface (el_surface (fst x)) (el_state (fst x)) (fst (snd x)) (snd (snd x)) wd ws (el_memory (fst x));
            Ok (mkEl (el_surface (fst x)) st (el_memory (fst x)))) = Ok y) ms es').
    { induction H as [|e e' es es' [HS HE] _ (ts & ms & F1 & F2 & F3)]; [exists [], []; repeat constructor|].
      unfold surface_step in HE. destruct (boundary_temps _ _ _ _) as [bt| |] eqn:EB; cbn [bind] in HE; try discriminate.
      destruct (march _ _ _ _ _ _ _ _) as [mem| |] eqn:EM; cbn [bind] in HE; try discriminate.
      destruct (write_surface _ _ _ _ _ _ _) as [st| |] eqn:EW; cbn [bind] in HE; try discriminate. injection HE as -> ->.
      exists ((e, bt) :: ts), ((mkEl (el_surface e) (el_state e) (el_memory e'), bt) :: ms). split; [|split]; constructor; try assumption; cbn [fst snd el_surface el_state el_memory].
      - rewrite EB. reflexivity.
      - rewrite EM. reflexivity.
      - rewrite EW. cbn [bind]. rewrite <- HS. destruct e'; reflexivity. }
    destruct Q as (ts & ms & F1 & F2 & F3). apply gather_ok in F1. rewrite F1. cbn [bind]. apply gather_ok in F2. rewrite F2. cbn [bind]. apply gather_ok. exact F3.
Qed.

(** what a step of a surface tells about its boundaries and writes *)
Definition in_range (k : nat) (b : boundary) : Prop := match b with Space i => (i < k)%nat | Ground => False | _ => True end.

Lemma step_boundaries s st t_out zones wd ws dt mem r : surface_step s st t_out zones wd ws dt mem = Ok r ->
  in_range (length zones) (ts_front_boundary s) /\ in_range (length zones) (ts_back_boundary s).
Proof.
  unfold surface_step, boundary_temps. intros H.
  match type of H with (do t <- (do a <- ?x; do c <- @?y a; _); _) = _ => destruct x as [tf| |] eqn:EF; cbn [bind] in H; try discriminate end.
  match type of H with (do t <- (do c <- ?y; _); _) = _ => destruct y as [tb| |] eqn:EB; cbn [bind] in H; try discriminate end.
  split.
  - destruct (ts_front_boundary s); cbn in *; try exact I; try discriminate. destruct (nth_error zones i) eqn:E; [|discriminate]. apply nth_error_Some. congruence.
  - destruct (ts_back_boundary s); cbn in *; try exact I; try discriminate. destruct (nth_error zones i) eqn:E; [|discriminate]. apply nth_error_Some. congruence.
Qed.

Lemma step_written s st t_out zones wd ws dt mem st' mem' : surface_step s st t_out zones wd ws dt mem = Ok (st', mem') ->
  exists t1 t2, boundary_temps s st t_out zones = Ok (t1, t2) /\ s_nodes st' = m_temps mem' /\ (0 < length (s_nodes st'))%nat /\
  s_front_flow st' = (nth 0 (s_nodes st') 0 - t1) * s_front_hs st' /\
  s_back_flow st' = (nth (length (s_nodes st') - 1) (s_nodes st') 0 - t2) * s_back_hs st' /\
  s_ir_front st' = s_ir_front st /\ s_ir_back st' = s_ir_back st /\ s_solar_front st' = s_solar_front st /\ s_solar_back st' = s_solar_back st /\
  exists st0 e1 e2, border_conditions s st0 t1 t2 wd ws = Ok ((e1, s_front_hs st'), (e2, s_back_hs st')).
Proof.
  unfold surface_step. destruct (boundary_temps _ _ _ _) as [[t1 t2]| |] eqn:EB; cbn [bind fst snd]; try discriminate.
  destruct (march s st t1 t2 wd ws dt mem) as [m1| |]; cbn [bind]; try discriminate.
  destruct (write_surface s st t1 t2 wd ws m1) as [s1| |] eqn:EW; cbn [bind]; try discriminate. intros [= <- <-].
  unfold write_surface, col_get in EW.
  destruct (nth_error (m_temps m1) 0) as [a|] eqn:Ea; cbn [bind] in EW; try discriminate.
  destruct (nth_error (m_temps m1) (length (m_temps m1) - 1)) as [b|] eqn:Eb; cbn [bind] in EW; try discriminate.
  match type of EW with (do fb <- ?q; _) = _ => destruct q as [[[e1 h1] [e2 h2]]| |] eqn:EC; cbn [bind fst snd] in EW; try discriminate end. injection EW as <-.
  exists t1, t2. split; [reflexivity|]. cbn [s_nodes s_front_flow s_back_flow s_front_hs s_back_hs s_ir_front s_ir_back s_solar_front s_solar_back].
  rewrite (nth_error_nth _ _ _ Ea), (nth_error_nth _ _ _ Eb). split; [reflexivity|]. split. { destruct (m_temps m1); [discriminate|cbn; lia]. }
  do 6 (split; [reflexivity|]). do 3 eexists. exact EC.
Qed.

(** the coefficients written are not negative, unless the model was given negative ones *)
Lemma border_hs s st tf tb wd ws e1 h1 e2 h2 : (forall h, ts_front_hs s = Some h -> 0 <= h) -> (forall h, ts_back_hs s = Some h -> 0 <= h) ->
  border_conditions s st tf tb wd ws = Ok ((e1, h1), (e2, h2)) -> 0 <= h1 /\ 0 <= h2.
Proof.
  intros Hf Hb. unfold border_conditions. destruct (front_conditions s st tf tb wd ws) as [[e1' h1']| |] eqn:EF; cbn [bind]; try discriminate.
  destruct (back_conditions s st tf tb wd ws (e1', h1')) as [[e2' h2']| |] eqn:EB; cbn [bind]; try discriminate. intros [= -> -> -> ->].
  assert (NC : forall o c v, (forall h, o = Some h -> 0 <= h) -> fixed_or o (natural_convection c) = Ok v -> 0 <= v).
  { intros [h|] c v Ho E; cbn in E; [injection E as <-; apply Ho; reflexivity|]. destruct (C52_natural_defined c) as (v' & E' & B). rewrite E' in E. injection E as <-. lra. }
  assert (TC : forall o c a p w v, roughness_index c = 1%nat -> (forall h, o = Some h -> 0 <= h) -> fixed_or o (tarp_convection c a p w) = Ok v -> 0 <= v).
  { intros [h|] c a p w v Hr Ho E; cbn in E; [injection E as <-; apply Ho; reflexivity|].
    destruct (C52_exterior_defined c a p w ltac:(lia)) as (v' & n & E' & _ & B). rewrite E' in E. injection E as <-. lra. }
  assert (P1 : 0 <= h1).
  { unfold front_conditions in EF. destruct (ts_front_boundary s); try discriminate;
      match type of EF with (do ts <- ?q; _) = _ => destruct q; cbn [bind] in EF; try discriminate end;
      match type of EF with (do h <- ?q; _) = _ => destruct q eqn:EQ; cbn [bind] in EF; try discriminate end; injection EF as _ <-;
      first [refine (NC _ _ _ Hf EQ)|refine (TC _ _ _ _ _ _ _ Hf EQ); reflexivity]. }
  split; [exact P1|].
  unfold back_conditions in EB. destruct (ts_back_boundary s); try discriminate; try (injection EB as _ <-; exact P1);
      match type of EB with (do ts <- ?q; _) = _ => destruct q; cbn [bind] in EB; try discriminate end;
      match type of EB with (do h <- ?q; _) = _ => destruct q eqn:EQ; cbn [bind] in EB; try discriminate end; injection EB as _ <-;
      first [refine (NC _ _ _ Hb EQ)|refine (TC _ _ _ _ _ _ _ Hb EQ); reflexivity].
Qed.

(** ** what the zones read *)
Definition face_node (st : sstate) (front : bool) : R := nth (if front then 0 else length (s_nodes st) - 1)%nat (s_nodes st) 0.
Definition expected_side (b : boundary) (h t : R) : side := match b with Space i => mkSide (Some i) h t | _ => mkSide None h 0 end.
Definition expected_surf (e : element) : surf :=
  mkSurf (ts_area (el_surface e)) (expected_side (ts_front_boundary (el_surface e)) (s_front_hs (el_state e)) (face_node (el_state e) true))
    (expected_side (ts_back_boundary (el_surface e)) (s_back_hs (el_state e)) (face_node (el_state e) false)).
Lemma as_surf_ok e : (0 < length (s_nodes (el_state e)))%nat -> as_surf e = Ok (expected_surf e).
Proof.
  intros H. unfold as_surf, expected_surf, face_node, front_temperature, back_temperature, idx.
  rewrite !(nth_error_nth' _ 0) by lia. destruct (ts_front_boundary _), (ts_back_boundary _); reflexivity.
Qed.
Lemma expected_valid k b h t : in_range k b -> valid_side k (expected_side b h t).
Proof. destruct b; cbn; tauto. Qed.

(** a sub-step, unfolded *)
Definition zone_after (b : building) (sf : list surf) (dt : R) (i : nat) (z : zone) : R :=
  future_temperature (z_temp z) (gain (bd_gains b) i + total (map ut (exchanges (bd_zones b) sf i))) (conductance (exchanges (bd_zones b) sf i))
    (mcp (z_volume z) (z_temp z)) dt.
Lemma set_temps_map {A} (zs : list zone) (f : A * zone -> R) : forall ks, length ks = length zs ->
  set_temps zs (map f (combine ks zs)) = map (fun kz => set_temp (snd kz) (f kz)) (combine ks zs).
Proof. induction zs as [|z zs IH]; intros [|k ks] H; cbn in *; try discriminate; try reflexivity. f_equal. apply IH. lia. Qed.

Lemma substep_spec dt w b b' : Forall (fun g => (fst g < length (bd_zones b))%nat) (bd_gains b) -> substep dt w b = Ok b' <->
  Forall2 (moved (heat_wind_direction w) (Q2R (wind_speed w)) (Q2R (dry_bulb_temperature w)) dt (map z_temp (bd_zones b))) (bd_surfaces b) (bd_surfaces b') /\
  Forall2 (moved (heat_wind_direction w) (Q2R (wind_speed w)) (Q2R (dry_bulb_temperature w)) dt (map z_temp (bd_zones b))) (bd_fenestrations b) (bd_fenestrations b') /\
  bd_gains b' = bd_gains b /\
  bd_zones b' = map (fun iz => set_temp (snd iz) (zone_after b (map expected_surf (bd_surfaces b' ++ bd_fenestrations b')) dt (fst iz) (snd iz)))
    (combine (seq 0 (length (bd_zones b))) (bd_zones b)).
Proof.
  intros HG. unfold substep. set (R := moved _ _ _ _ _).
  assert (SF : forall es es', Forall2 R es es' -> gather as_surf es' = Ok (map expected_surf es') /\
     Forall (fun s => valid_side (length (bd_zones b)) (sf_front s) /\ valid_side (length (bd_zones b)) (sf_back s)) (map expected_surf es')).
  { intros es es'. induction 1 as [|e e' es es' [HS HE] _ [IH1 IH2]]; [split; [reflexivity|constructor]|].
    destruct (step_written _ _ _ _ _ _ _ _ _ _ HE) as (t1 & t2 & _ & _ & L & _). cbn [gather map]. rewrite (as_surf_ok e' L), IH1. split; [reflexivity|].
    constructor; [|assumption]. apply step_boundaries in HE. rewrite map_length in HE. rewrite <- HS in HE. unfold expected_surf. cbn [sf_front sf_back]. split; apply expected_valid; tauto. }
  assert (MZ : forall ss fs, Forall2 R (bd_surfaces b) ss -> Forall2 R (bd_fenestrations b) fs ->
     (do sf <- gather as_surf (ss ++ fs); do future <- march_zones (bd_zones b) (bd_gains b) sf dt; Ok (mkBuilding (set_temps (bd_zones b) future) ss fs (bd_gains b))) =
     Ok (mkBuilding (map (fun iz => set_temp (snd iz) (zone_after b (map expected_surf (ss ++ fs)) dt (fst iz) (snd iz))) (combine (seq 0 (length (bd_zones b))) (bd_zones b))) ss fs (bd_gains b))).
  { intros ss fs F1 F2. destruct (SF _ _ (Forall2_app F1 F2)) as [G V]. rewrite G. cbn [bind]. unfold march_zones.
    rewrite abc_spec by (split; assumption). cbn [bind]. rewrite future_list. cbn [bind]. rewrite set_temps_map by apply seq_length. reflexivity. }
  split.
  - destruct (iterate_surfaces (bd_surfaces b) _ _ _ _ _) as [ss| |] eqn:E1; cbn [bind]; try discriminate. apply C114_own_step in E1. fold R in E1.
    destruct (iterate_surfaces (bd_fenestrations b) _ _ _ _ _) as [fs| |] eqn:E2; cbn [bind]; try discriminate. apply C114_own_step in E2. fold R in E2.
    rewrite (MZ ss fs E1 E2). intros [= <-]. cbn [bd_surfaces bd_fenestrations bd_gains bd_zones]. repeat split; try assumption; reflexivity.
  - intros (F1 & F2 & Eg & Ez). pose proof (MZ _ _ F1 F2) as M. apply C114_own_step in F1. apply C114_own_step in F2. rewrite F1. cbn [bind]. rewrite F2. cbn [bind].
    rewrite M. destruct b' as [z' s' f' g']. cbn [bd_zones bd_surfaces bd_fenestrations bd_gains] in *. rewrite Ez, Eg. reflexivity.
Qed.

Lemma total_perm l1 l2 : Permutation l1 l2 -> total l1 = total l2.
Proof. induction 1; cbn; lra. Qed.
Lemma exchanges_perm zones s1 s2 i : Permutation s1 s2 -> Permutation (exchanges zones s1 i) (exchanges zones s2 i).
Proof. intros H. unfold exchanges. apply Permutation_app_head. apply Permutation_flat_map. assumption. Qed.
Lemma Forall2_perm {A B} (P : A -> B -> Prop) l1 l2 : Permutation l1 l2 -> forall r1, Forall2 P l1 r1 -> exists r2, Forall2 P l2 r2 /\ Permutation r1 r2.
Proof.
  induction 1 as [|x l1 l2 _ IH|x y l|l1 l2 l3 _ IH1 _ IH2]; intros r1 F.
  - inversion F; subst. exists []. split; constructor.
  - inversion F as [|? z ? r Hz Hr]; subst. destruct (IH r Hr) as (r2 & F2 & P2). exists (z :: r2). split; constructor; assumption.
  - inversion F as [|? z ? r Hz Hr]; subst. inversion Hr as [|? z' ? r' Hz' Hr']; subst. exists (z' :: z :: r'). split; [repeat constructor; assumption|apply perm_swap].
  - destruct (IH1 r1 F) as (r2 & F2 & P2). destruct (IH2 r2 F2) as (r3 & F3 & P3). exists r3. split; [assumption|]. apply perm_trans with r2; assumption.
Qed.

(** ** the order in which walls and windows come in the model makes no difference *)
Theorem C114_order dt w b b' ss fs : Forall (fun g => (fst g < length (bd_zones b))%nat) (bd_gains b) -> substep dt w b = Ok b' ->
  Permutation (bd_surfaces b) ss -> Permutation (bd_fenestrations b) fs ->
  exists ss' fs', substep dt w (mkBuilding (bd_zones b) ss fs (bd_gains b)) = Ok (mkBuilding (bd_zones b') ss' fs' (bd_gains b')) /\
    Permutation (bd_surfaces b') ss' /\ Permutation (bd_fenestrations b') fs'.
Proof.
  intros HG H P1 P2. apply substep_spec in H; [|assumption]. destruct H as (F1 & F2 & Eg & Ez).
  destruct (Forall2_perm _ _ _ P1 _ F1) as (ss' & G1 & Q1). destruct (Forall2_perm _ _ _ P2 _ F2) as (fs' & G2 & Q2). exists ss', fs'.
  split; [|split; assumption]. apply substep_spec; [assumption|]. cbn [bd_zones bd_surfaces bd_fenestrations bd_gains]. repeat split; try assumption.
  rewrite Ez. apply map_ext. intros [i z]. cbn [fst snd]. f_equal. unfold zone_after. cbn [bd_zones bd_gains].
  assert (PX : Permutation (exchanges (bd_zones b) (map expected_surf (bd_surfaces b' ++ bd_fenestrations b')) i) (exchanges (bd_zones b) (map expected_surf (ss' ++ fs')) i)).
  { apply exchanges_perm, Permutation_map, Permutation_app; assumption. }
  unfold conductance. rewrite (total_perm _ _ (Permutation_map ut PX)), (total_perm _ _ (Permutation_map fst PX)). reflexivity.
Qed.

(** ** what a step leaves alone *)
Theorem C114_kept dt w b b' : Forall (fun g => (fst g < length (bd_zones b))%nat) (bd_gains b) -> substep dt w b = Ok b' ->
  bd_gains b' = bd_gains b /\
  map (fun z => (z_volume z, z_infiltration z, z_ventilation z)) (bd_zones b') = map (fun z => (z_volume z, z_infiltration z, z_ventilation z)) (bd_zones b) /\
  let given e := (el_surface e, s_ir_front (el_state e), s_ir_back (el_state e), s_solar_front (el_state e), s_solar_back (el_state e)) in
  map given (bd_surfaces b') = map given (bd_surfaces b) /\ map given (bd_fenestrations b') = map given (bd_fenestrations b).
Proof.
  intros HG H. apply substep_spec in H; [|assumption]. destruct H as (F1 & F2 & Eg & Ez). split; [assumption|]. split.
  - rewrite Ez. rewrite map_map. cbn [set_temp z_volume z_infiltration z_ventilation]. rewrite <- (map_map snd (fun z => (z_volume z, z_infiltration z, z_ventilation z))).
    f_equal. assert (G : forall (zs : list zone) k, map snd (combine (seq k (length zs)) zs) = zs) by (clear; induction zs; intros; cbn; [reflexivity|f_equal; auto]). apply G.
  - cbv zeta. assert (G : forall P es es', Forall2 (moved (heat_wind_direction w) (Q2R (wind_speed w)) (Q2R (dry_bulb_temperature w)) dt P) es es' ->
      map (fun e => (el_surface e, s_ir_front (el_state e), s_ir_back (el_state e), s_solar_front (el_state e), s_solar_back (el_state e))) es' =
      map (fun e => (el_surface e, s_ir_front (el_state e), s_ir_back (el_state e), s_solar_front (el_state e), s_solar_back (el_state e))) es).
    { clear. induction 1 as [|e e' es es' [HS HE] _ IH]; cbn [map]; [reflexivity|]. rewrite IH, HS.
      destruct (step_written _ _ _ _ _ _ _ _ _ _ HE) as (? & ? & _ & _ & _ & _ & _ & -> & -> & -> & -> & _). reflexivity. }
    split; eapply G; eassumption.
Qed.

(** ** the heat that reaches the air of a zone is the heat that surfaces report, plus what air streams and devices bring *)
Definition reported (i : nat) (e : element) : R :=
  (match ts_front_boundary (el_surface e) with Space j => if (j =? i)%nat then ts_area (el_surface e) * s_front_flow (el_state e) else 0 | _ => 0 end) +
  (match ts_back_boundary (el_surface e) with Space j => if (j =? i)%nat then ts_area (el_surface e) * s_back_flow (el_state e) else 0 | _ => 0 end).

Lemma heat_flow_app l1 l2 t : heat_flow (l1 ++ l2) t = heat_flow l1 t + heat_flow l2 t.
Proof. unfold heat_flow. rewrite map_app. apply total_app. Qed.

Lemma moved_temps wd ws t_out dt zones e e' : moved wd ws t_out dt zones e e' ->
  (forall j, ts_front_boundary (el_surface e') = Space j -> exists t, nth_error zones j = Some t /\ s_front_flow (el_state e') = (face_node (el_state e') true - t) * s_front_hs (el_state e')) /\
  (forall j, ts_back_boundary (el_surface e') = Space j -> exists t, nth_error zones j = Some t /\ s_back_flow (el_state e') = (face_node (el_state e') false - t) * s_back_hs (el_state e')).
Proof.
  intros [HS HE]. destruct (step_written _ _ _ _ _ _ _ _ _ _ HE) as (t1 & t2 & EB & _ & _ & FF & FB & _). rewrite HS. unfold face_node.
  unfold boundary_temps in EB. split; intros j Ej; rewrite Ej in EB; cbn [boundary_temperature unwrap] in EB.
  - destruct (nth_error zones j) as [t|]; cbn [unwrap bind] in EB; try discriminate. exists t. split; [reflexivity|].
    match type of EB with (do b <- ?q; _) = _ => destruct q; cbn [bind] in EB; try discriminate end. injection EB as -> _. exact FF.
  - match type of EB with (do b <- ?q; _) = _ => destruct q; cbn [bind] in EB; try discriminate end.
    destruct (nth_error zones j) as [t|]; cbn [unwrap bind] in EB; try discriminate. exists t. split; [reflexivity|]. injection EB as _ ->. exact FB.
Qed.

Lemma faces_reported wd ws t_out dt zones i t es es' : nth_error zones i = Some t -> Forall2 (moved wd ws t_out dt zones) es es' ->
  heat_flow (flat_map (fun s => face i (sf_area s) (sf_front s) ++ face i (sf_area s) (sf_back s)) (map expected_surf es')) t = total (map (reported i) es').
Proof.
  intros Hz. induction 1 as [|e e' es es' HM _ IH]; [reflexivity|]. cbn [map flat_map fold_right]. rewrite !heat_flow_app, IH. f_equal.
  destruct (moved_temps _ _ _ _ _ _ _ HM) as [A1 A2]. unfold reported, expected_surf, face, is_zone. cbn [sf_area sf_front sf_back].
  assert (S : forall b h x q, (forall j, b = Space j -> exists t0, nth_error zones j = Some t0 /\ q = (x - t0) * h) ->
     heat_flow (if match sd_zone (expected_side b h x) with Some z => (z =? i)%nat | None => false end
       then [(sd_h (expected_side b h x) * ts_area (el_surface e'), sd_temp (expected_side b h x))] else []) t =
     match b with Space j => if (j =? i)%nat then ts_area (el_surface e') * q else 0 | _ => 0 end).
  { intros b h x q Hq. destruct b; try reflexivity. cbn [expected_side sd_zone sd_h sd_temp]. destruct (Nat.eqb_spec i0 i) as [->|]; [|reflexivity].
    destruct (Hq i eq_refl) as (t0 & E0 & ->). rewrite Hz in E0. injection E0 as <-. unfold heat_flow. cbn. ring. }
  f_equal; apply S; assumption.
Qed.

Theorem C114_reported dt w b b' i z : Forall (fun g => (fst g < length (bd_zones b))%nat) (bd_gains b) -> substep dt w b = Ok b' -> nth_error (bd_zones b) i = Some z ->
  exists a c, nth_error (bd_zones b') i = Some (set_temp z (future_temperature (z_temp z) a c (mcp (z_volume z) (z_temp z)) dt)) /\
    a - c * z_temp z = gain (bd_gains b) i + heat_flow (air_stream (z_infiltration z) ++ air_stream (z_ventilation z)) (z_temp z)
      + total (map (reported i) (bd_surfaces b' ++ bd_fenestrations b')).
Proof.
  intros HG H Hz. apply substep_spec in H; [|assumption]. destruct H as (F1 & F2 & Eg & Ez). rewrite Ez.
  set (sf := map expected_surf _) in *. exists (gain (bd_gains b) i + total (map ut (exchanges (bd_zones b) sf i))), (conductance (exchanges (bd_zones b) sf i)). split.
  - rewrite nth_error_map. assert (G : forall (l : list zone) k j x, nth_error l j = Some x -> nth_error (combine (seq k (length l)) l) j = Some ((k + j)%nat, x)).
    { clear. induction l as [|y l IH]; intros k [|j] x E; cbn in *; try discriminate.
      - injection E as ->. rewrite Nat.add_0_r. reflexivity.
      - rewrite (IH (S k) j x E). do 2 f_equal. lia. }
    rewrite (G _ 0%nat i z Hz). reflexivity.
  - pose proof (Forall2_app F1 F2) as F. 
    pose proof (faces_reported _ _ _ _ _ i (z_temp z) _ _ (map_nth_error z_temp _ _ Hz) F) as FR. fold sf in FR. rewrite <- FR.
    replace (gain (bd_gains b) i + total (map ut (exchanges (bd_zones b) sf i)) - conductance (exchanges (bd_zones b) sf i) * z_temp z)
      with (gain (bd_gains b) i + heat_flow (exchanges (bd_zones b) sf i) (z_temp z)) by (rewrite heat_flow_ut; ring).
    unfold exchanges. rewrite Hz. rewrite heat_flow_app. ring.
Qed.

(** ** without heaters, the air of a zone stays between the temperatures around it *)
Theorem C114_zone_bounds dt w b b' i z z' lo hi : Forall (fun g => (fst g < length (bd_zones b))%nat) (bd_gains b) -> substep dt w b = Ok b' ->
  nth_error (bd_zones b) i = Some z -> nth_error (bd_zones b') i = Some z' -> 0 <= dt -> 0 < z_volume z -> - 27315 / 100 < z_temp z -> gain (bd_gains b) i = 0 ->
  Forall (fun e => 0 <= ts_area (el_surface e) /\ (forall h, ts_front_hs (el_surface e) = Some h -> 0 <= h) /\ (forall h, ts_back_hs (el_surface e) = Some h -> 0 <= h))
    (bd_surfaces b ++ bd_fenestrations b) ->
  lo <= z_temp z <= hi ->
  (forall t v, z_infiltration z = Some (t, v) \/ z_ventilation z = Some (t, v) -> 0 <= v /\ - 27315 / 100 < t /\ lo <= t <= hi) ->
  Forall (fun e => (ts_front_boundary (el_surface e) = Space i -> lo <= face_node (el_state e) true <= hi) /\
                   (ts_back_boundary (el_surface e) = Space i -> lo <= face_node (el_state e) false <= hi)) (bd_surfaces b' ++ bd_fenestrations b') ->
  lo <= z_temp z' <= hi.
Proof.
  intros HG H Hz Hz' Hdt HV HT Hg HA HR HX HN. apply substep_spec in H; [|assumption]. destruct H as (F1 & F2 & Eg & Ez).
  pose proof (Forall2_app F1 F2) as F. set (sf := map expected_surf (bd_surfaces b' ++ bd_fenestrations b')) in *.
  assert (V : valid (bd_zones b) (bd_gains b) sf).
  { split; [assumption|]. unfold sf. clear -F. induction F as [|e e' es es' [HS HE] _ IH]; [constructor|]. cbn [map]. constructor; [|assumption].
    apply step_boundaries in HE. rewrite map_length in HE. rewrite <- HS in HE. unfold expected_surf. cbn [sf_front sf_back]. split; apply expected_valid; tauto. }
  assert (EX : Forall (fun e => 0 <= fst e /\ lo <= snd e <= hi) (exchanges (bd_zones b) sf i)).
  { unfold exchanges. rewrite Hz. apply Forall_app. split; [apply Forall_app; split|].
    - unfold air_stream. destruct (z_infiltration z) as [[t v]|] eqn:E; [|constructor]. destruct (HX t v (or_introl eq_refl)) as (Hv & Ht & Hb). constructor; [|constructor]. cbn [fst snd].
      destruct (air_pos t Ht). split; [|assumption]. apply Rmult_le_pos; [apply Rmult_le_pos; lra|lra].
    - unfold air_stream. destruct (z_ventilation z) as [[t v]|] eqn:E; [|constructor]. destruct (HX t v (or_intror eq_refl)) as (Hv & Ht & Hb). constructor; [|constructor]. cbn [fst snd].
      destruct (air_pos t Ht). split; [|assumption]. apply Rmult_le_pos; [apply Rmult_le_pos; lra|lra].
    - unfold sf. clear -F HA HN. revert HN. induction F as [|e e' es es' [HS HE] _ IH]; intros HN; [constructor|]. inversion HA as [|? ? (Ha & H1 & H2) HA']; subst. inversion HN as [|? ? [N1 N2] HN']; subst.
      cbn [map flat_map]. apply Forall_app. split; [|apply IH; assumption].
      destruct (step_written _ _ _ _ _ _ _ _ _ _ HE) as (t1 & t2 & _ & _ & _ & _ & _ & _ & _ & _ & _ & st0 & e1 & e2 & EC).
      destruct (border_hs _ _ _ _ _ _ _ _ _ _ H1 H2 EC) as [P1 P2]. rewrite <- HS in Ha. unfold expected_surf, face, is_zone. cbn [sf_area sf_front sf_back].
      assert (S : forall bo h x, 0 <= h -> (bo = Space i -> lo <= x <= hi) -> Forall (fun e => 0 <= fst e /\ lo <= snd e <= hi)
         (if match sd_zone (expected_side bo h x) with Some z => (z =? i)%nat | None => false end then [(sd_h (expected_side bo h x) * ts_area (el_surface e'), sd_temp (expected_side bo h x))] else [])).
      { intros bo h x Hh Hx. destruct bo; try constructor. cbn [expected_side sd_zone sd_h sd_temp]. destruct (Nat.eqb_spec i0 i) as [->|]; constructor; [|constructor]. cbn [fst snd].
        split; [apply Rmult_le_pos; assumption|apply Hx; reflexivity]. }
      apply Forall_app. split; apply S; assumption. }
  destruct (C51_maximum_principle (bd_zones b) (bd_gains b) sf dt i z lo hi V Hz Hdt HV HT Hg HR EX) as (ts & ET & LT & B).
  unfold march_zones in ET. rewrite (abc_spec _ _ _ V) in ET. cbn [bind] in ET. rewrite future_list in ET. injection ET as ET.
  assert (EQ : bd_zones b' = set_temps (bd_zones b) ts). { rewrite Ez, <- ET. rewrite set_temps_map by apply seq_length. reflexivity. }
  rewrite EQ in Hz'.
  assert (G : forall (zs : list zone) ts j z0 z1, nth_error zs j = Some z0 -> nth_error (set_temps zs ts) j = Some z1 -> z_temp z1 = nth j ts 0).
  { clear. induction zs as [|y zs IH]; intros [|t ts] [|j] z0 z1 E0 E1; cbn in *; try discriminate; try (injection E1 as <-; reflexivity). eapply IH; eassumption. }
  rewrite (G _ _ _ _ _ Hz Hz'). exact B.
Qed.

(** ** sub-step [k] sees the weather of [k] sub-steps after the beginning *)
Fixpoint run_steps (dt : R) (ws : list CurrentWeather) (b : building) : res building :=
  match ws with [] => Ok b | w :: ws => do b <- substep dt w b; run_steps dt ws b end.

Theorem C114_weather n date weather dt b : valid_date date -> (0 <= dt)%Q -> (dt < 86400 * 224)%Q ->
  exists ds, length ds = n /\ march_building n date weather dt b = run_steps (Q2R dt) (map weather ds) b /\
    forall k d, nth_error ds k = Some d -> valid_date d /\ same_instant (position d) (position date + inject_Z (Z.of_nat (S k)) * dt / 86400)%Q.
Proof.
  intros V D0 D1. assert (G : exists ds, length ds = n /\ (forall b, march_building n date weather dt b = run_steps (Q2R dt) (map weather ds) b) /\
    forall k d, nth_error ds k = Some d -> valid_date d /\ same_instant (position d) (position date + inject_Z (Z.of_nat (S k)) * dt / 86400)%Q).
  { clear b. revert date V. induction n as [|n IH]; intros date V; [exists []; split; [reflexivity|]; split; [reflexivity|]; intros [|k] d; discriminate|].
    destruct (C04_add_seconds_partial date dt V D0 D1) as (d1 & E1 & V1 & S1). destruct (IH d1 V1) as (ds & L & M & K). exists (d1 :: ds).
    split; [cbn; lia|]. split.
    - intros b. cbn [march_building map run_steps]. rewrite E1. destruct (substep _ _ b) as [b'| |]; cbn [bind]; try reflexivity. apply M.
    - intros [|k] d Hd; cbn [nth_error] in Hd.
      + injection Hd as <-. split; [assumption|]. destruct S1 as [j S1]. exists j. rewrite S1. change (inject_Z (Z.of_nat 1)) with 1%Q. field.
      + destruct (K k d Hd) as [Vd [j SI]]. split; [assumption|]. destruct S1 as [j1 S1]. exists (j + j1)%Z. rewrite SI, S1.
        rewrite (Nat2Z.inj_succ (S k)). unfold Z.succ. rewrite !inject_Z_plus. rewrite (Nat2Z.inj_succ k). unfold Z.succ. rewrite inject_Z_plus. field. }
  destruct G as (ds & L & M & K). exists ds. split; [assumption|]. split; [apply M|assumption].
Qed.

(** ** a wall to the ground stops the simulation of the whole building *)
Lemma boundary_temps_not_err s st t_out zones : boundary_temps s st t_out zones <> Err.
Proof.
  unfold boundary_temps. assert (U : forall A (r : res A), unwrap r <> Err) by (intros A [| |]; discriminate).
  assert (B : back_temperature st <> Err) by (unfold back_temperature, idx; destruct (nth_error _ _); discriminate).
  match goal with |- (do a <- ?q; _) <> _ => assert (Q : q <> Err) by (destruct (ts_front_boundary s); auto); destruct q as [tf| |]; cbn [bind]; [|congruence|discriminate] end.
  match goal with |- (do a <- ?q; _) <> _ => assert (Q2 : q <> Err) by (destruct (ts_back_boundary s); auto; discriminate); destruct q as [tb| |]; cbn [bind]; [discriminate|congruence|discriminate] end.
Qed.

Theorem C114_ground_refuted n date weather dt b e : valid_date date -> (0 <= dt)%Q -> (dt < 86400 * 224)%Q ->
  In e (bd_surfaces b) -> ts_front_boundary (el_surface e) = Ground \/ ts_back_boundary (el_surface e) = Ground ->
  march_building (S n) date weather dt b = Panic.
Proof.
  intros V D0 D1 He Hg. cbn [march_building]. destruct (C04_add_seconds_partial date dt V D0 D1) as (d1 & E1 & _). rewrite E1.
  unfold substep. unfold iterate_surfaces at 1.
  match goal with |- context [gather ?f (bd_surfaces b)] => assert (P : gather f (bd_surfaces b) = Panic) end.
  { induction (bd_surfaces b) as [|x l IH]; [contradiction|]. cbn [gather].
    assert (NE : forall e0, (do t <- boundary_temps (el_surface e0) (el_state e0) (Q2R (dry_bulb_temperature (weather d1))) (map z_temp (bd_zones b)); Ok (e0, t)) <> Err).
    { intros e0. pose proof (boundary_temps_not_err (el_surface e0) (el_state e0) (Q2R (dry_bulb_temperature (weather d1))) (map z_temp (bd_zones b))).
      destruct (boundary_temps _ _ _ _); cbn [bind]; congruence. }
    destruct He as [->|He].
    - assert (EP : boundary_temps (el_surface e) (el_state e) (Q2R (dry_bulb_temperature (weather d1))) (map z_temp (bd_zones b)) = Panic).
      { pose proof (boundary_temps_not_err (el_surface e) (el_state e) (Q2R (dry_bulb_temperature (weather d1))) (map z_temp (bd_zones b))) as NB. revert NB.
        unfold boundary_temps. destruct Hg as [->| ->]; cbn [boundary_temperature unwrap bind]; [reflexivity|].
        match goal with |- context [do a <- ?q; _] => destruct q end; cbn [bind]; congruence. }
      rewrite EP. reflexivity.
    - rewrite (IH He). specialize (NE x). match goal with |- match ?q with _ => _ end = _ => destruct q end; congruence. }
  rewrite P. reflexivity.
Qed.

(** ** a building in equilibrium with its surroundings stays so *)
Definition rests (weather : Date -> CurrentWeather) (t : R) (k : nat) (e : element) : Prop :=
  let s := el_surface e in let st := el_state e in
  still s st t k /\ s_nodes st <> [] /\ (forall g, (g < length (s_nodes st))%nat -> nth g (s_nodes st) 0 = t) /\ m_temps (el_memory e) = s_nodes st /\
  length (ts_segments s) = length (s_nodes st) /\ length (ts_front_alphas s) = length (s_nodes st) /\ length (ts_back_alphas s) = length (s_nodes st) /\
  has_u (ts_segments s) (s_nodes st) /\
  Forall2 (fun e m => (fst e + 2 <= snd e <= length (s_nodes st))%nat /\ chunk_ok (snd e - fst e) m) (ts_massive s) (m_massive (el_memory e)) /\
  Forall2 (fun e m => (fst e < snd e <= length (s_nodes st))%nat /\ chunk_ok (snd e - fst e) m /\
     forall d fb, border_conditions s st t t (heat_wind_direction (weather d)) (Q2R (wind_speed (weather d))) = Ok fb ->
       usual (ts_segments s) (s_nodes st) (as_border fb 0 0) (fst e) (snd e)) (ts_nomass s) (m_nomass (el_memory e)).

Lemma border_same s st st' tf tb wd ws : s_nodes st' = s_nodes st -> s_ir_front st' = s_ir_front st -> s_ir_back st' = s_ir_back st ->
  border_conditions s st' tf tb wd ws = border_conditions s st tf tb wd ws.
Proof. intros E1 E2 E3. unfold border_conditions, front_conditions, back_conditions, front_temperature, back_temperature. rewrite E1, E2, E3. reflexivity. Qed.

Lemma Forall2_merge {A B} (P : A -> B -> Prop) (Q : A -> B -> Prop) (S : A -> B -> Prop) l r r' : (forall a b b', P a b -> Q a b' -> S a b') ->
  Forall2 P l r -> Forall2 Q l r' -> Forall2 S l r'.
Proof. intros H F. revert r'. induction F as [|a b l r HP _ IH]; intros r' G; inversion G; subst; constructor; [eapply H; eassumption|apply IH; assumption]. Qed.

Definition unmoved (e e' : element) : Prop :=
  s_nodes (el_state e') = s_nodes (el_state e) /\ s_front_flow (el_state e') = 0 /\ s_back_flow (el_state e') = 0.
Lemma rests_step weather t k dt d e : - 27315 / 100 < t -> rests weather t k e ->
  exists e', moved (heat_wind_direction (weather d)) (Q2R (wind_speed (weather d))) t dt (repeat t k) e e' /\ rests weather t k e' /\ unmoved e e'.
Proof.
  intros Ht (S & N & H & M & L1 & L2 & L3 & U & F1 & F2).
  destruct (C73_equilibrium (el_surface e) (el_state e) t k (heat_wind_direction (weather d)) (Q2R (wind_speed (weather d))) dt (el_memory e))
    as (st' & mem' & E & EN & EM & Q1 & Q2 & I1 & I2 & I3 & I4 & G1 & G2); try assumption.
  { clear -F2. induction F2 as [|x m l r (A & B & C) _ IH]; constructor; [|assumption]. split; [assumption|]. split; [assumption|]. intros fb. apply C. }
  exists (mkEl (el_surface e) st' mem'). split; [split; [reflexivity|exact E]|]. split; [|repeat split; assumption].
  unfold rests. cbn [el_surface el_state el_memory]. unfold still in *. rewrite EN, I1, I2, I3, I4.
  split; [exact S|]. do 3 (split; [assumption|]). do 3 (split; [assumption|]). split; [assumption|]. split.
  - eapply Forall2_merge; [|exact F1|exact G1]. cbn. intros a m m' [A _] B. split; assumption.
  - eapply Forall2_merge; [|exact F2|exact G2]. cbn. intros a m m' (A & _ & C) B. split; [assumption|]. split; [assumption|].
    intros d' fb Hfb. apply (C d'). rewrite <- Hfb. symmetry. apply border_same; assumption.
Qed.

Definition calm_zone (t : R) (z : zone) : Prop :=
  z_temp z = t /\ (forall u v, z_infiltration z = Some (u, v) -> u = t) /\ (forall u v, z_ventilation z = Some (u, v) -> u = t).

Lemma rest_list weather t k dt d es : - 27315 / 100 < t -> Forall (rests weather t k) es ->
  exists es', Forall2 (moved (heat_wind_direction (weather d)) (Q2R (wind_speed (weather d))) t dt (repeat t k)) es es' /\ Forall (rests weather t k) es' /\ Forall2 unmoved es es'.
Proof.
  intros Ht. induction 1 as [|e es He _ (es' & A & B & C)]; [exists []; repeat constructor|].
  destruct (rests_step weather t k dt d e Ht He) as (e' & A' & B' & C'). exists (e' :: es'). repeat split; constructor; assumption.
Qed.

Lemma rest_exchanges zones weather t k es i : Forall (calm_zone t) zones -> Forall (rests weather t k) es ->
  Forall (fun e => snd e = t) (exchanges zones (map expected_surf es) i).
Proof.
  intros HZ HE. unfold exchanges. apply Forall_app. split.
  - destruct (nth_error zones i) as [z|] eqn:Ez; [|constructor]. apply nth_error_In in Ez. rewrite Forall_forall in HZ. destruct (HZ z Ez) as (_ & A & B).
    apply Forall_app. split; unfold air_stream; [destruct (z_infiltration z) as [[u v]|]|destruct (z_ventilation z) as [[u v]|]]; repeat constructor; [apply (A u v)|apply (B u v)]; reflexivity.
  - induction HE as [|e es (S & N & H & _) _ IH]; [constructor|]. cbn [map flat_map]. apply Forall_app. split; [|assumption].
    assert (L : (0 < length (s_nodes (el_state e)))%nat) by (destruct (s_nodes (el_state e)); [congruence|cbn; lia]).
    unfold expected_surf, face, is_zone, face_node. cbn [sf_area sf_front sf_back]. rewrite !H by lia.
    apply Forall_app. split; [destruct (ts_front_boundary (el_surface e))|destruct (ts_back_boundary (el_surface e))]; cbn [expected_side sd_zone sd_h sd_temp]; try constructor;
      destruct (_ =? _)%nat; repeat constructor.
Qed.

Lemma calm_zone_step t l c dt : Forall (fun e => snd e = t) l -> future_temperature t (total (map ut l)) (conductance l) c dt = t.
Proof.
  intros H. assert (E : total (map ut l) = conductance l * t).
  { unfold conductance, ut. induction H as [|[u x] l Hx _ IH]; cbn in *; [ring|]. rewrite IH, Hx. ring. }
  unfold future_temperature. rewrite E. destruct (Rltb_spec (1 / 10 ^ 9) (Rabs (conductance l))) as [P|]; [|reflexivity].
  assert (conductance l <> 0). { intros Z. rewrite Z, Rabs_R0 in P. lra. } replace (conductance l * t / conductance l) with t by (field; assumption). ring.
Qed.

Lemma equilibrium_step weather t dt d b : - 27315 / 100 < t -> Q2R (dry_bulb_temperature (weather d)) = t ->
  Forall (fun g => (fst g < length (bd_zones b))%nat) (bd_gains b) -> (forall i, gain (bd_gains b) i = 0) ->
  Forall (calm_zone t) (bd_zones b) -> Forall (rests weather t (length (bd_zones b))) (bd_surfaces b) -> Forall (rests weather t (length (bd_zones b))) (bd_fenestrations b) ->
  exists b', substep dt (weather d) b = Ok b' /\ bd_zones b' = bd_zones b /\ bd_gains b' = bd_gains b /\
    Forall (rests weather t (length (bd_zones b))) (bd_surfaces b') /\ Forall (rests weather t (length (bd_zones b))) (bd_fenestrations b') /\
    Forall2 unmoved (bd_surfaces b) (bd_surfaces b') /\ Forall2 unmoved (bd_fenestrations b) (bd_fenestrations b').
Proof.
  intros Ht Hw HG G0 HZ HS HF.
  destruct (rest_list weather t _ dt d _ Ht HS) as (ss & A1 & B1 & C1). destruct (rest_list weather t _ dt d _ Ht HF) as (fs & A2 & B2 & C2).
  assert (ET : map z_temp (bd_zones b) = repeat t (length (bd_zones b))).
  { clear -HZ. induction HZ as [|z zs (Hz & _) _ IH]; cbn; [reflexivity|]. rewrite Hz, IH. reflexivity. }
  exists (mkBuilding (bd_zones b) ss fs (bd_gains b)). cbn [bd_zones bd_surfaces bd_fenestrations bd_gains]. split; [|repeat split; assumption].
  apply substep_spec; [assumption|]. cbn [bd_zones bd_surfaces bd_fenestrations bd_gains]. rewrite ET, Hw. split; [exact A1|]. split; [exact A2|]. split; [reflexivity|].
  assert (B12 : Forall (rests weather t (length (bd_zones b))) (ss ++ fs)) by (apply Forall_app; split; assumption).
  assert (K : forall (zs : list zone) k, Forall (calm_zone t) zs ->
    zs = map (fun iz => set_temp (snd iz) (zone_after b (map expected_surf (ss ++ fs)) dt (fst iz) (snd iz))) (combine (seq k (length zs)) zs)).
  { intros zs. induction zs as [|z zs IH]; intros k F; [reflexivity|]. destruct (Forall_inv F) as [Hz _]. pose proof (Forall_inv_tail F) as F'. cbn [length seq combine map fst snd]. f_equal; [|apply IH; assumption].
    unfold zone_after. rewrite G0, Rplus_0_l, Hz. rewrite calm_zone_step by (eapply rest_exchanges; eassumption). destruct z; cbn in *; rewrite <- Hz; reflexivity. }
  apply K. assumption.
Qed.

Theorem C114_equilibrium n date weather dt t b : valid_date date -> (0 <= dt)%Q -> (dt < 86400 * 224)%Q ->
  - 27315 / 100 < t -> (forall d, Q2R (dry_bulb_temperature (weather d)) = t) ->
  Forall (fun g => (fst g < length (bd_zones b))%nat) (bd_gains b) -> (forall i, gain (bd_gains b) i = 0) ->
  Forall (calm_zone t) (bd_zones b) -> Forall (rests weather t (length (bd_zones b))) (bd_surfaces b ++ bd_fenestrations b) ->
  exists b', march_building n date weather dt b = Ok b' /\ bd_zones b' = bd_zones b /\
    Forall2 (fun e e' => s_nodes (el_state e') = s_nodes (el_state e) /\ (n <> O -> s_front_flow (el_state e') = 0 /\ s_back_flow (el_state e') = 0))
      (bd_surfaces b ++ bd_fenestrations b) (bd_surfaces b' ++ bd_fenestrations b').
Proof.
  intros V D0 D1 Ht Hw. revert date V b. induction n as [|n IH]; intros date V b HG G0 HZ HR.
  - exists b. split; [reflexivity|]. split; [reflexivity|]. induction (bd_surfaces b ++ bd_fenestrations b); constructor; [|assumption || (inversion HR; auto)]. split; [reflexivity|congruence].
  - cbn [march_building]. destruct (C04_add_seconds_partial date dt V D0 D1) as (d1 & E1 & V1 & _). rewrite E1. apply Forall_app in HR. destruct HR as [HS HF].
    destruct (equilibrium_step weather t (Q2R dt) d1 b Ht (Hw d1) HG G0 HZ HS HF) as (b1 & E & Ez & Eg & R1 & R2 & U1 & U2). rewrite E. cbn [bind].
    destruct (IH d1 V1 b1) as (b' & M & Z & F); rewrite ?Ez, ?Eg; try assumption; [apply Forall_app; split; assumption|].
    exists b'. split; [assumption|]. split; [congruence|]. pose proof (Forall2_app U1 U2) as U.
    destruct n as [|n].
    + cbn [march_building] in M. injection M as <-. clear -U. induction U as [|e e' es es' (A & B & C) _ IH]; constructor; [|assumption]. split; [assumption|]. intros _. split; assumption.
    + clear -U F. revert F. generalize (bd_surfaces b' ++ bd_fenestrations b'). induction U as [|e e' es es' (A & B & C) _ IH]; intros l F; inversion F as [|? x ? r [P Q] Fr]; subst; constructor.
      * split; [congruence|]. intros _. apply Q. discriminate.
      * apply IH. assumption.
Qed.

(** ** an example: a room at 20 degrees behind an insulated brick wall, on a calm day at 20 degrees *)
Definition calm_day (d : Date) : CurrentWeather := mkCW d 20 10 0 0 0 2 90 None 0 (1 # 2) 101300.
Example C114_example : exists e, el_surface e = clad_wall /\ rests calm_day 20 1 e /\
  exists b', march_building 6 (mkDate 1 1 12) calm_day 600 (mkBuilding [mkZone 50 20 (Some (20, 1 / 100)) None] [e] [] []) = Ok b' /\ map z_temp (bd_zones b') = [20].
Proof.
  destruct (new_chunk_ok 0 2 ltac:(lia)) as (m1 & _ & H1). destruct (new_chunk_ok 2 3 ltac:(lia)) as (m2 & _ & H2).
  set (ir := SIGMA * (20 + 27315 / 100) ^ 4).
  set (e := mkEl clad_wall (mkSS ir ir 0 0 [20; 20; 20] 0 0 0 0) (mkMem [m1] [m2] [20; 20; 20])).
  assert (HR : rests calm_day 20 1 e).
  { unfold rests, e. cbn [el_surface el_state el_memory s_nodes m_temps m_massive m_nomass]. repeat match goal with |- _ /\ _ => split end; try reflexivity; try discriminate.
    - unfold still. cbn. repeat split; try lra; try lia; try reflexivity. intros [X _]. discriminate X.
    - intros g Hg. destruct g as [|[|[|g]]]; cbn in Hg |- *; try reflexivity. lia.
    - intros g s Hg E. destruct g as [|[|g]]; cbn in Hg, E; try lia; injection E as <-; eexists; reflexivity.
    - constructor; [|constructor]. cbn [fst snd length]. split; [lia|exact H1].
    - constructor; [|constructor]. cbn [fst snd length]. split; [lia|]. split; [exact H2|].
      intros d [[e1 h1] [e2 h2]] E. assert (B12 : 10 ^ 12 = 1000000000000) by ring.
      assert (Hh : h2 = 1 / 10).
      { unfold border_conditions in E. destruct (front_conditions clad_wall _ 20 20 _ _) as [f| |]; cbn [bind] in E; try discriminate.
        unfold back_conditions, back_temperature in E. cbn [clad_wall ts_back_boundary s_nodes length Nat.sub idx nth_error bind ts_back_hs fixed_or ts_cos_tilt] in E.
        rewrite C52_vertical_formula in E by (left; reflexivity). cbn [bind] in E. injection E as _ _ <-.
        assert (Z : doc_vertical (mkConv 20 0 20 20 1 0) = 0).
        { unfold doc_vertical, dT. cbn [air_temperature surface_temperature]. replace (20 - 20) with 0 by ring. rewrite Rabs_R0. unfold cube_root. destruct (Req_EM_T 0 0); [ring|congruence]. }
        rewrite Z. apply Rmax_left. lra. }
      intros g Hg. rewrite B12. destruct g as [|[|[|[|g]]]]; try lia; unfold link; cbn; lra. }
  exists e. split; [reflexivity|]. split; [exact HR|].
  destruct (C114_equilibrium 6 (mkDate 1 1 12) calm_day 600 20 (mkBuilding [mkZone 50 20 (Some (20, 1 / 100)) None] [e] [] [])) as (b' & M & Z & _).
  - repeat split; cbn; try lia; try discriminate.
  - discriminate.
  - reflexivity.
  - lra.
  - intros d. unfold calm_day. cbn [dry_bulb_temperature]. unfold Q2R. cbn. lra.
  - constructor.
  - reflexivity.
  - constructor; [|constructor]. split; [reflexivity|]. cbn. split; [intros u v [= <- _]; reflexivity|discriminate].
  - constructor; [exact HR|constructor].
  - exists b'. split; [exact M|]. rewrite Z. reflexivity.
Qed.

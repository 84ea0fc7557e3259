(** Properties C14-C19: the simulation state, the control step, the run and the building model. *)
From Coq Require Import String Ascii List Arith Lia Bool ZArith QArith Lqa.
From Verif Require Import Common.Base State.StateModel State.StateProofs State.BuildingModel
  State.BuildingProofs State.RunModel State.RunProofs State.ControlModel.
From Verif Require Calendar.DateModel Calendar.DateSpec Calendar.DateProofs Calendar.PeriodProofs
  Properties.CalendarProps.
Import ListNotations.
Close Scope Q_scope.
Open Scope nat_scope.
Open Scope list_scope.

(** * C14 State slots are unique and stable *)

(** An accepted registration gets the next free index; it is stored there with its value, in
    every later state of the header, whatever is registered afterwards. *)
Theorem C14_slots_stable : forall (F : Type) (before after : list (event F)) e (v : F) i,
  snd (push (run_events before) e v) = Ok i ->
  i = length (elements (run_events before)) /\
  let h := run_events (before ++ [Push e v] ++ after) in
  nth_error (elements h) i = Some e /\
  (forall vs, default_values h = Some vs -> nth_error vs i = Some v).
Proof.
  intros F before after e v i H. unfold run_events in *. rewrite !fold_left_app. cbn [fold_left handle].
  pose proof (inv_run before) as I. unfold run_events in I. set (h := fold_left handle before header_new) in *.
  assert (D : exists vs, default_values h = Some vs).
  { destruct (default_values h) eqn:D; [eauto|]. exfalso. revert H. unfold push, store.
    destruct (is_personal e); [destruct (passed_personal h)|destruct (is_operational e); [destruct (passed_operational h)|]];
      cbn; rewrite ?D; discriminate. }
  destruct D as (vs & D).
  destruct (push_cases h e v vs D) as [(Q & _)|(Q & Q2 & Q3)]; [congruence|].
  rewrite Q in H. injection H as <-. split; [reflexivity|].
  assert (G : forall (after : list (event F)) (h1 : header F), (exists l, elements h1 = (elements h ++ [e]) ++ l) ->
     (forall ws, default_values h1 = Some ws -> exists l, ws = (vs ++ [v]) ++ l) ->
     (exists l, elements (fold_left handle after h1) = (elements h ++ [e]) ++ l) /\
     (forall ws, default_values (fold_left handle after h1) = Some ws -> exists l, ws = (vs ++ [v]) ++ l)).
  { clear. induction after as [|ev after IH]; cbn; intros h1 A B; [auto|]. apply IH.
    - destruct A as (l & A). destruct ev as [e2 v2|]; cbn.
      + destruct (push_elements h1 e2 v2) as (l2 & E). exists (l ++ l2). rewrite E, A, <- !app_assoc. reflexivity.
      + exists l. exact A.
    - intros ws W. destruct ev as [e2 v2|]; cbn in *; [|discriminate].
      destruct (default_values h1) as [ws1|] eqn:D1.
      + destruct (push_values h1 e2 v2 ws1 D1) as (l2 & E). rewrite W in E. injection E as ->.
        destruct (B ws1 eq_refl) as (l & ->). exists (l ++ l2). rewrite <- !app_assoc. reflexivity.
      + exfalso. revert W. unfold push, store.
        destruct (is_personal e2); [destruct (passed_personal h1)|destruct (is_operational e2); [destruct (passed_operational h1)|]];
          cbn; rewrite ?D1; cbn; congruence. }
  destruct (G after (fst (push h e v))) as (A & B).
  { exists []. rewrite app_nil_r. exact Q2. }
  { intros ws W. exists []. rewrite app_nil_r. congruence. }
  split.
  - destruct A as (l & ->). rewrite nth_error_app1 by (rewrite app_length; cbn; lia).
    rewrite nth_error_app2, Nat.sub_diag by lia. reflexivity.
  - intros ws W. destruct (B ws W) as (l & ->).
    pose proof (inv_values _ I vs D) as L.
    rewrite nth_error_app1 by (rewrite app_length; cbn; lia).
    rewrite nth_error_app2, L, Nat.sub_diag by lia. reflexivity.
Qed.

(** Two accepted registrations never share an index. *)
Theorem C14_slots_distinct : forall (F : Type) (before between : list (event F)) e1 v1 e2 v2 i1 i2,
  snd (push (run_events before) e1 v1) = Ok i1 ->
  snd (push (run_events (before ++ [Push e1 v1] ++ between)) e2 v2) = Ok i2 -> i1 < i2.
Proof.
  intros F before between e1 v1 e2 v2 i1 i2 H1 H2.
  destruct (C14_slots_stable F before between e1 v1 i1 H1) as (_ & N & _).
  destruct (C14_slots_stable F _ [] e2 v2 i2 H2) as (-> & _).
  apply nth_error_Some. congruence.
Qed.

(** A rejected registration leaves a header that still has its values unchanged, and the
    order personal, operational, physical is what decides. *)
Theorem C14_rejected_unchanged : forall (F : Type) (evs : list (event F)) vs e v,
  default_values (run_events evs) = Some vs ->
  let h := run_events evs in
  (exists i, snd (push h e v) = Ok i) \/
  (fst (push h e v) = h /\ snd (push h e v) = Err /\ is_physical e = false).
Proof.
  intros F evs vs e v D h.
  destruct (push_cases h e v vs D) as [(Q & Q2)|(Q & Q2 & Q3)]; [right|left; eauto].
  split; [exact Q2|split; [exact Q|]]. fold h in D. clearbody h. revert Q. unfold push, store. cbn. rewrite D.
  destruct (one_kind e) as [(K1 & K2 & K3)|[(K1 & K2 & K3)|(K1 & K2 & K3)]]; rewrite K1, ?K2, K3; auto.
  discriminate.
Qed.

(** Registering the same quantity twice is not an error: it gets two slots. *)
Theorem C14_duplicates_refuted : exists (evs : list (event nat)) e v i j,
  snd (push (run_events evs) e v) = Ok j /\ i <> j /\
  nth_error (elements (fst (push (run_events evs) e v))) i = Some e /\
  nth_error (elements (fst (push (run_events evs) e v))) j = Some e.
Proof.
  exists [Push (SpaceDryBulbTemperature 0) 20], (SpaceDryBulbTemperature 0), 22, 0, 1.
  cbn. repeat split. discriminate.
Qed.

(** Once the values have been taken a registration fails, but it is recorded all the same. *)
Theorem C14_failed_push_recorded_refuted : exists (evs : list (event nat)) e v,
  snd (push (run_events evs) e v) = Err /\
  length (elements (fst (push (run_events evs) e v))) <> length (elements (run_events evs)).
Proof.
  exists [Push (SpaceDryBulbTemperature 0) 20; TakeValues], (SpaceDryBulbTemperature 1), 22.
  cbn. split; [reflexivity|discriminate].
Qed.

Example C14_example :
  let h := run_events [Push Clothing 1; Push (FenestrationOpenFraction 0) 2; Push (FenestrationOpenFraction 1) 3;
                       Push (SpaceDryBulbTemperature 0) 22] in
  snd (push h (SpaceDryBulbTemperature 1) 21) = Ok 4 /\ snd (push h (FenestrationOpenFraction 2) 0) = Err /\
  default_values h = Some [1; 2; 3; 22].
Proof. repeat split. Qed.

(** The objects of a building: whatever the history of additions, the index stored in a
    fenestration, HVAC or luminaire is the index of its own quantity. *)
Theorem C14_objects_own_their_slots :
  forall (D G F : Type) (cut : G -> G -> res G) same_dir (zero : F) ops s,
  let m := history (D := D) cut same_dir zero ops in
  simulation_state m = Some s ->
  (forall k f, nth_error (fenestrations m) k = Some f ->
     exists i, f_open_index f = Some i /\ nth_error (elements s) i = Some (FenestrationOpenFraction k)) /\
  (forall k d, nth_error (hvacs m) k = Some d ->
     exists i, d_index d = Some i /\ nth_error (elements s) i = Some (HeatingCoolingPowerConsumption k)) /\
  (forall k d, nth_error (luminaires m) k = Some d ->
     exists i, d_index d = Some i /\ nth_error (elements s) i = Some (LuminairePowerConsumption k)).
Proof.
  intros D G F cut same_dir zero ops s m S.
  destruct (indexed_history (D := D) cut same_dir zero ops) as ([A B C] & _). fold m in A, B, C.
  repeat split; intros k x H;
    [destruct (A k x H) as (i & E & R)|destruct (B k x H) as (i & E & R)|destruct (C k x H) as (i & E & R)];
    exists i; split; auto.
Qed.

(** A failed addition of a fenestration leaves its quantity behind; the next fenestration then
    registers the same quantity again, and the first slot with that quantity is not the one that
    the fenestration uses. *)
Theorem C14_failed_fenestration_refuted :
  let cut := fun (a b : nat) => Ok a in
  let fen := fun parent => mkFenestration (D := unit) "window"%string true ""%string 0 parent
                             (BOther tt) (BOther tt) None tt in
  exists ops s f,
  let m := history cut (fun _ _ => true) 0 ops in
  simulation_state m = Some s /\ fenestrations m = [f] /\
  ops = [OFenestration (fen (Some "missing"%string)) false; OFenestration (fen None) false] /\
  elements s = [FenestrationOpenFraction 0; FenestrationOpenFraction 0] /\ f_open_index f = Some 1.
Proof. do 3 eexists. split; [|split; [|split; [reflexivity|]]]; [reflexivity|reflexivity|]. split; reflexivity. Qed.

(** * C15 Occupants and physics write disjoint parts of the state *)

Theorem C15_three_kinds : forall e,
  (is_personal e = true /\ is_operational e = false /\ is_physical e = false) \/
  (is_personal e = false /\ is_operational e = true /\ is_physical e = false) \/
  (is_personal e = false /\ is_operational e = false /\ is_physical e = true).
Proof. exact one_kind. Qed.

Section CopySpec.
Context {F : Type}.

(** [d'] is [d] with the elements of the kind [k] taken from [o]. *)
Definition copies_only (h : header F) (k : element -> bool) (o d d' : list F) : Prop :=
  length d' = length d /\
  forall i e, nth_error (elements h) i = Some e ->
    nth_error d' i = if k e then nth_error o i else nth_error d i.
End CopySpec.

Lemma copy_kind {F} (h : header F) (k : element -> bool) ini fin o d : 
  ini <= fin -> fin <= length (elements h) ->
  (forall i e, nth_error (elements h) i = Some e -> (k e = true <-> ini <= i < fin)) ->
  length o = length (elements h) -> length d = length (elements h) ->
  exists d', copy_slice ini fin o d = Ok d' /\ copies_only h k o d d'.
Proof.
  intros A B K Lo Ld. destruct (copy_slice_spec ini fin o d) as (d' & E & L & N); try lia.
  exists d'. split; [exact E|]. split; [exact L|]. intros i e H. rewrite N. specialize (K i e H).
  destruct (Nat.leb_spec ini i), (Nat.ltb_spec i fin); cbn; destruct (k e); auto; exfalso; destruct K as (K1 & K2);
    try (specialize (K1 eq_refl)); try (assert (false = true) by (apply K2; lia)); try lia; discriminate.
Qed.

(** Each of the three copies changes the elements of its kind and no others. *)
Theorem C15_copies : forall (F : Type) (evs : list (event F)) (o d : list F),
  let h := run_events evs in
  length o = length (elements h) -> length d = length (elements h) ->
  (exists d', copy_operational_state h o d = Ok d' /\ copies_only h is_operational o d d') /\
  (exists d', copy_physical_state h o d = Ok d' /\ copies_only h is_physical o d d') /\
  (exists d', copy_individual_state h o d = Ok d' /\ copies_only h is_personal o d d').
Proof.
  intros F evs o d h Lo Ld. pose proof (inv_run evs) as I. fold h in I.
  pose proof (split_le h I) as SL.
  repeat split.
  - apply copy_kind; try lia. intros i e H. apply (kind_at h i e I H).
  - apply copy_kind; try lia. intros i e H. apply (kind_at h i e I H).
  - apply copy_kind; try lia. intros i e H. destruct (kind_at h i e I H) as (A & _). rewrite A. lia.
Qed.

Lemma nth_error_ext {A} (l : list A) : forall l', length l = length l' ->
  (forall i, i < length l -> nth_error l i = nth_error l' i) -> l = l'.
Proof.
  induction l as [|x l IH]; intros [|y l'] L H; cbn in *; try discriminate; auto.
  f_equal.
  - specialize (H 0 (Nat.lt_0_succ _)). cbn in H. congruence.
  - apply IH; [lia|]. intros i Hi. apply (H (S i)). lia.
Qed.

(** Copying all three kinds makes the destination equal to the origin; the operational and the
    physical copies are enough when nobody registered a personal element. *)
Theorem C15_all_copies_equal : forall (F : Type) (evs : list (event F)) (o d d1 d2 d3 : list F),
  let h := run_events evs in
  length o = length (elements h) -> length d = length (elements h) ->
  copy_operational_state h o d = Ok d1 -> copy_physical_state h o d1 = Ok d2 ->
  copy_individual_state h o d2 = Ok d3 ->
  d3 = o /\ ((forall e, In e (elements h) -> is_personal e = false) -> d2 = o).
Proof.
  intros F evs o d d1 d2 d3 h Lo Ld E1 E2 E3.
  destruct (C15_copies F evs o d Lo Ld) as ((x1 & X1 & L1 & N1) & _ & _). fold h in X1, L1, N1.
  rewrite X1 in E1. injection E1 as ->.
  destruct (C15_copies F evs o d1 Lo) as (_ & (x2 & X2 & L2 & N2) & _); [fold h; lia|]. fold h in X2, L2, N2.
  rewrite X2 in E2. injection E2 as ->.
  destruct (C15_copies F evs o d2 Lo) as (_ & _ & (x3 & X3 & L3 & N3)); [fold h; lia|]. fold h in X3, L3, N3.
  rewrite X3 in E3. injection E3 as ->.
  split.
  - apply nth_error_ext; [lia|]. intros i Hi.
    destruct (nth_error (elements h) i) as [e|] eqn:E; [|apply nth_error_None in E; lia].
    rewrite (N3 i e E), (N2 i e E), (N1 i e E).
    destruct (one_kind e) as [(K1 & K2 & K3)|[(K1 & K2 & K3)|(K1 & K2 & K3)]]; rewrite K1, ?K2, ?K3; reflexivity.
  - intros NP. apply nth_error_ext; [lia|]. intros i Hi.
    destruct (nth_error (elements h) i) as [e|] eqn:E; [|apply nth_error_None in E; lia].
    rewrite (N2 i e E), (N1 i e E). pose proof (NP e (nth_error_In _ _ E)) as P.
    destruct (one_kind e) as [(K1 & K2 & K3)|[(K1 & K2 & K3)|(K1 & K2 & K3)]]; rewrite K3, ?K2; [congruence|reflexivity|reflexivity].
Qed.

(** With a personal element the operational and the physical copies are not enough. *)
Theorem C15_both_copies_refuted : exists (evs : list (event nat)) o d d1 d2,
  let h := run_events evs in
  length o = length (elements h) /\ length d = length (elements h) /\
  copy_operational_state h o d = Ok d1 /\ copy_physical_state h o d1 = Ok d2 /\ d2 <> o.
Proof.
  exists [Push Clothing 1; Push (LuminairePowerConsumption 0) 2; Push (SpaceDryBulbTemperature 0) 3], [7; 8; 9], [1; 2; 3].
  do 2 eexists. cbn. repeat split. discriminate.
Qed.

Example C15_example :
  let h := run_events [Push Clothing 1; Push (LuminairePowerConsumption 0) 2; Push (SpaceDryBulbTemperature 0) 3;
                       Push (SpaceDryBulbTemperature 1) 4] in
  copy_operational_state h [10; 20; 30; 40] [1; 2; 3; 4] = Ok [1; 20; 3; 4] /\
  copy_physical_state h [10; 20; 30; 40] [1; 2; 3; 4] = Ok [1; 2; 30; 40].
Proof. repeat split. Qed.

(** * C16 The control step *)

Section ControlLemmas.
Context {F : Type}.

(** [s'] is [s] except maybe at the given indexes. *)
Definition changes_only (idx : list nat) (s s' : list F) : Prop :=
  length s' = length s /\ forall i, ~ In i idx -> nth_error s' i = nth_error s i.

Lemma set_state_changes fld s v s' : set_state fld s v = Ok s' ->
  exists i, fld = Some i /\ changes_only [i] s s' /\ nth_error s' i = Some v.
Proof.
  unfold set_state. destruct fld as [i|]; [|discriminate]. destruct (Nat.ltb_spec i (length s)); [|discriminate].
  intros H1. injection H1 as <-. exists i. split; [reflexivity|]. split.
  - split; [apply upd_length|]. intros j Hj. apply nth_error_upd_other. cbn in Hj. tauto.
  - apply nth_error_upd_same. assumption.
Qed.

Lemma changes_trans l1 l2 (a b c : list F) : changes_only l1 a b -> changes_only l2 b c -> changes_only (l1 ++ l2) a c.
Proof.
  intros (L1 & H1) (L2 & H2). split; [congruence|]. intros i N. rewrite in_app_iff in N.
  rewrite H2, H1 by tauto. reflexivity.
Qed.

Lemma changes_incl l1 l2 (a b : list F) : incl l1 l2 -> changes_only l1 a b -> changes_only l2 a b.
Proof. intros I (L & H). split; [exact L|]. intros i N. apply H. intros M. apply N, I, M. Qed.

Lemma changes_refl l (a : list F) : changes_only l a a.
Proof. split; auto. Qed.

Definition slot (h : @hvac F) : list nat := match consumption h with Some i => [i] | None => [] end.

Lemma set_slot (h : @hvac F) s v s' : set_state (consumption h) s v = Ok s' -> changes_only (slot h) s s'.
Proof.
  intros H. destruct (set_state_changes _ _ _ _ H) as (i & E & C & _). unfold slot. rewrite E. exact C.
Qed.

Context (zero : F) (opp : F -> F) (lt : F -> F -> bool).

Lemma control_hvac_changes spaces s h s' :
  control_hvac zero opp lt spaces s h = Ok s' -> changes_only (slot h) s s'.
Proof.
  destruct h as [h|h]; cbn [control_hvac].
  - destruct (h_target h), (h_heating_setpoint h), (h_heating_power h);
      try (intros H; injection H as <-; apply changes_refl).
    destruct (space_temp spaces s0 s) as [t| |]; cbn [bind]; try discriminate.
    destruct (lt t f); apply (set_slot (ElectricHeater h)).
  - destruct (i_target h) as [name|]; [|intros H; injection H as <-; apply changes_refl].
    destruct (space_temp spaces name s) as [t| |]; cbn [bind]; try discriminate.
    set (hs := match i_heating_setpoint h with Some _ => _ | None => _ end).
    destruct hs as [[hh s1]| |] eqn:E; cbn [bind]; try discriminate.
    assert (C1 : changes_only (slot (IdealHeaterCooler h)) s s1).
    { revert E. unfold hs. destruct (i_heating_setpoint h) as [sp|], (i_heating_power h) as [pw|];
        try (intros E; injection E as <- <-; apply changes_refl).
      destruct (lt t sp); intros E.
      - destruct (set_state (i_consumption h) s pw) eqn:S; cbn in E; try discriminate. injection E as <- <-.
        apply (set_slot (IdealHeaterCooler h)) with (v := pw). exact S.
      - destruct (set_state (i_consumption h) s zero) eqn:S; cbn in E; try discriminate. injection E as <- <-.
        apply (set_slot (IdealHeaterCooler h)) with (v := zero). exact S. }
    assert (C2 : forall v s2, set_state (i_consumption h) s1 v = Ok s2 -> changes_only (slot (IdealHeaterCooler h)) s s2).
    { intros v s2 S. pose proof (set_slot (IdealHeaterCooler h) _ _ _ S) as C2.
      eapply changes_incl; [|eapply changes_trans; [exact C1|exact C2]].
      intros i. rewrite in_app_iff. tauto. }
    destruct (i_cooling_setpoint h) as [sp|], (i_cooling_power h) as [pw|];
      try (intros H; injection H as <-; exact C1).
    destruct (lt sp t); [apply C2|]. destruct (negb hh); [apply C2|].
    intros H; injection H as <-; exact C1.
Qed.

Lemma occupant_changes spaces hvacs : forall s s',
  occupant_control zero opp lt spaces hvacs s = Ok s' -> changes_only (concat (map slot hvacs)) s s'.
Proof.
  induction hvacs as [|h hs IH]; cbn [occupant_control map concat]; intros s s' H.
  - injection H as <-. apply changes_refl.
  - destruct (control_hvac zero opp lt spaces s h) as [s1| |] eqn:E; cbn [bind] in H; try discriminate.
    eapply changes_trans; [eapply control_hvac_changes; exact E|]. apply IH, H.
Qed.
End ControlLemmas.

(** The built-in behaviour only changes the slots of the HVAC systems.  If those are registered as
    their consumption (as adding them to a building does, see C14_objects_own_their_slots), no
    physical or personal element changes. *)
Theorem C16_occupants : forall (F : Type) (zero : F) opp lt spaces (hvacs : list (@hvac F)) s s' (elems : list element),
  length elems = length s ->
  (forall h i, In h hvacs -> consumption h = Some i ->
     exists k, nth_error elems i = Some (HeatingCoolingPowerConsumption k)) ->
  occupant_control zero opp lt spaces hvacs s = Ok s' ->
  length s' = length s /\
  forall i e, nth_error elems i = Some e -> is_operational e = false -> nth_error s' i = nth_error s i.
Proof.
  intros F zero opp lt spaces hvacs s s' elems L Own H.
  destruct (occupant_changes zero opp lt spaces hvacs s s' H) as (L' & C). split; [exact L'|].
  intros i e E O. apply C. intros I. apply in_concat in I. destruct I as (l & I1 & I2).
  apply in_map_iff in I1. destruct I1 as (h & <- & I1). unfold slot in I2.
  destruct (consumption h) as [j|] eqn:Q; [|destruct I2]. destruct I2 as [->|[]].
  destruct (Own h i I1 Q) as (k & R). rewrite E in R. injection R as ->. discriminate.
Qed.

(** What the behaviour decides: with a heater alone, its consumption is the full power when the space
    is colder than the setpoint and zero otherwise. *)
Theorem C16_heater_decision : forall (F : Type) (zero : F) opp lt spaces s s' name sp (t setpoint power : F) i,
  find (fun x => String.eqb (sp_name x) name) spaces = Some sp ->
  get_state (sp_temperature sp) s = Ok (Some t) ->
  let h := ElectricHeater (mkHeater (Some i) (Some name) (Some setpoint) (Some power)) in
  occupant_control zero opp lt spaces [h] s = Ok s' ->
  nth_error s' i = Some (if lt t setpoint then power else zero).
Proof.
  intros F zero opp lt spaces s s' name sp t setpoint power i Fd Gt h. unfold h, occupant_control, control_hvac. cbn [h_target h_heating_setpoint h_heating_power h_consumption].
  unfold space_temp. rewrite Fd, Gt. cbn [bind].
  destruct (lt t setpoint).
  - destruct (set_state (Some i) s power) eqn:S; cbn [bind]; try discriminate. intros H. injection H as <-.
    destruct (set_state_changes _ _ _ _ S) as (j & J & _ & N). injection J as ->. exact N.
  - destruct (set_state (Some i) s zero) eqn:S; cbn [bind]; try discriminate. intros H. injection H as <-.
    destruct (set_state_changes _ _ _ _ S) as (j & J & _ & N). injection J as ->. exact N.
Qed.

Example C16_example :
  occupant_control 0%Z Z.opp Z.ltb [mkSpace "room" (Some 1)]
    [IdealHeaterCooler (mkIdeal (Some 0) (Some "room"%string) (Some 18%Z) (Some 1000%Z) (Some 25%Z) (Some 1500%Z))]
    [0%Z; 30%Z] = Ok [(-1500)%Z; 30%Z].
Proof. reflexivity. Qed.

(** An assignment made by a script changes one slot only, the one of the named property. *)
Theorem C16_script_assignment : forall (F : Type) research_mode ps (s s' : list F) o f v,
  exec research_mode ps s (Assign o f v) = Ok s' ->
  exists p i, In p ps /\ p_object p = o /\ p_field p = f /\ p_index p = Some i /\
    nth_error s' i = Some v /\ length s' = length s /\ forall j, j <> i -> nth_error s' j = nth_error s j.
Proof.
  intros F rm ps s s' o f v. unfold exec, registered.
  destruct (find _ ps) as [p|] eqn:Fd; [|discriminate]. apply find_some in Fd. destruct Fd as (I & E).
  apply andb_true_iff in E. destruct E as (E1 & E2). apply String.eqb_eq in E1, E2.
  destruct (p_index p) as [i|] eqn:P; [|discriminate]. intros S.
  destruct (set_state_changes _ _ _ _ S) as (j & J & (L & C) & N). injection J as <-.
  exists p, i. repeat split; auto. intros j Hj. apply C. cbn. intros [H|[]]. congruence.
Qed.

(** Scripts can write physical elements, also when research mode is off. *)
Theorem C16_script_writes_physical_refuted : exists (ps : list property) (s s' : list nat) p i,
  exec false ps s (Assign "room" "dry_bulb_temperature" 40) = Ok s' /\
  In p ps /\ p_attribute p = APhysical /\ p_index p = Some i /\
  nth_error s i = Some 20 /\ nth_error s' i = Some 40.
Proof.
  exists [mkProperty "room" "dry_bulb_temperature" APhysical (Some 0)], [20], [40],
    (mkProperty "room" "dry_bulb_temperature" APhysical (Some 0)), 0.
  split; [reflexivity|]. cbn. repeat split; auto.
Qed.

(** * C17 Every result row matches the header *)

Lemma date_comma s : ("Date," ++ s = "Date" ++ "," ++ s)%string.
Proof. reflexivity. Qed.

(** The number of columns never depends on the row: it is the same for the header and every row. *)
Theorem C17_same_number_of_fields : forall (F Dt : Type) (show_value : F -> string) (show_date : Dt -> string)
    full_header outputs date state h r,
  (forall v, no_comma (show_value v)) -> (forall d, no_comma (show_date d)) ->
  Forall no_comma full_header ->
  header_line full_header outputs = Ok h ->
  row show_value show_date full_header outputs date state = Ok r ->
  length (fields r) = length (fields h).
Proof.
  intros F Dt sv sd fh outs date state h r Hv Hd Hf Eh Er. unfold header_line, row in *.
  destruct (header_cells (report_indexes fh outs) fh) as [hc| |] eqn:HC; cbn [bind] in Eh; try discriminate.
  destruct (read_cells sv (report_indexes fh outs) state) as [rc| |] eqn:RC; cbn [bind] in Er; try discriminate.
  assert (Xh : h = ("Date," ++ line_from 0 (report_len fh outs) hc)%string) by congruence.
  assert (Xr : r = (sd date ++ "," ++ line_from 0 (report_len fh outs) rc)%string) by congruence.
  rewrite Xh, Xr. clear Eh Er Xh Xr.
  rewrite date_comma, !fields_comma; auto.
  2: { cbn. repeat split; intros X; discriminate X. }
  cbn [length]. f_equal. rewrite !line_from_count.
  - f_equal. f_equal.
    destruct (header_cells_ok (report_indexes fh outs) fh (fun i => report_indexes_bound fh outs i)) as (c1 & Q1 & L1 & _).
    rewrite HC in Q1. injection Q1 as <-. rewrite L1.
    clear - RC. revert rc RC. induction (report_indexes fh outs) as [|i idx IH]; cbn; intros rc RC.
    + injection RC as <-. reflexivity.
    + destruct (nth_error state i); [|discriminate]. destruct (read_cells sv idx state); cbn in RC; try discriminate.
      injection RC as <-. cbn. f_equal. apply IH. reflexivity.
  - pose proof (header_cells_in _ _ _ HC) as X. rewrite Forall_forall in *. auto.
  - apply (cells_no_comma sv _ _ _ Hv RC).
Qed.

(** When no output is requested, or every requested output exists, the header has the names and
    each row has, in the same column, the value of that quantity. *)
Theorem C17_columns : forall (F Dt : Type) (show_value : F -> string) (show_date : Dt -> string)
    full_header outputs date (state : list F),
  (forall v, no_comma (show_value v)) -> (forall d, no_comma (show_date d)) ->
  Forall no_comma full_header -> full_header <> [] -> length state = length full_header ->
  Forall (fun o => In o full_header) outputs ->
  exists h r names idx values,
    header_line full_header outputs = Ok h /\
    row show_value show_date full_header outputs date state = Ok r /\
    fields h = "Date"%string :: names /\ fields r = show_date date :: values /\
    names = (match outputs with [] => full_header | _ => outputs end) /\
    length values = length names /\ length idx = length names /\
    forall k i, nth_error idx k = Some i ->
      nth_error full_header i = nth_error names k /\
      nth_error values k = option_map show_value (nth_error state i) /\ i < length state.
Proof.
  intros F Dt sv sd fh outs date state Hv Hd Hf Hne L All.
  assert (B : forall i, In i (report_indexes fh outs) -> i < length fh) by (intros; eapply report_indexes_bound; eauto).
  destruct (header_cells_ok (report_indexes fh outs) fh B) as (hc & HC & L1 & N1).
  destruct (read_cells_ok sv (report_indexes fh outs) state) as (rc & RC & L2 & N2); [intros i Hi; rewrite L; auto|].
  assert (IL : length (report_indexes fh outs) = report_len fh outs /\ hc = match outs with [] => fh | _ => outs end).
  { unfold report_indexes, report_len in *. destruct (filter_map_all fh outs All) as (l & E & L3 & N3). rewrite E in *.
    destruct l as [|x l].
    - destruct outs as [|o outs]; [|discriminate]. split; [apply seq_length|].
      apply nth_error_ext; [rewrite L1, seq_length; reflexivity|].
      intros i Hi. rewrite L1, seq_length in Hi. apply N1.
      rewrite (nth_error_nth_lt _ _ 0) by (rewrite seq_length; auto). rewrite seq_nth by auto. reflexivity.
    - destruct outs as [|o outs]; [discriminate|]. split; [exact L3|].
      apply nth_error_ext; [congruence|]. intros k Hk. rewrite L1 in Hk.
      destruct (nth_error (x :: l) k) as [i|] eqn:K; [|apply nth_error_None in K; lia].
      rewrite (N1 k i K). apply N3, K. }
  destruct IL as (IL & HN).
  assert (NE : hc <> []).
  { destruct hc; [|discriminate]. cbn in L1. intros _. rewrite IL in L1. unfold report_len in L1.
    destruct outs; [destruct fh; [congruence|discriminate]|discriminate]. }
  assert (NE2 : rc <> []) by (destruct rc; [|discriminate]; destruct hc; [congruence|cbn in *; lia]).
  unfold header_line, row. rewrite HC, RC. cbn [bind].
  do 2 eexists. exists hc, (report_indexes fh outs), rc.
  split; [reflexivity|]. split; [reflexivity|].
  rewrite date_comma, !fields_comma; auto.
  2: { cbn. repeat split; intros X; discriminate X. }
  rewrite !line_from_cells; auto; try lia.
  2: { apply (cells_no_comma sv _ _ _ Hv RC). }
  2: { pose proof (header_cells_in _ _ _ HC) as X. rewrite Forall_forall in *. auto. }
  repeat split; auto; try lia.
  - symmetry. apply N1. assumption.
  - rewrite L. apply B. eapply nth_error_In; eauto.
Qed.

(** If requested outputs do not exist they are dropped silently; when none exists everything is
    reported, and then values run into each other without separator. *)
Theorem C17_unknown_outputs_refuted : exists full_header outputs (state : list nat) h r,
  let show := fun n => match n with 1 => "1.000"%string | _ => "2.000"%string end in
  header_line full_header outputs = Ok h /\
  row show (fun _ : unit => "d"%string) full_header outputs tt state = Ok r /\
  full_header = ["a"%string; "b"%string] /\ state = [1; 2] /\ outputs = ["z"%string] /\
  h = "Date,ab"%string /\ r = "d,1.0002.000"%string.
Proof. exists ["a"%string; "b"%string], ["z"%string], [1; 2]. do 2 eexists. repeat split. Qed.

(** When some do, an empty column is added at the end. *)
Theorem C17_dropped_output_refuted : exists full_header outputs h,
  header_line full_header outputs = Ok h /\ full_header = ["a"%string; "b"%string] /\
  outputs = ["z"%string; "b"%string] /\ fields h = ["Date"%string; "b"%string; ""%string].
Proof. exists ["a"%string; "b"%string], ["z"%string; "b"%string]. eexists. repeat split. Qed.

(** A comma in the name of an object splits its column in the header but not in the rows. *)
Theorem C17_comma_in_name_refuted : exists name h r,
  let full_header := [stringify "SpaceDryBulbTemperature" name] in
  header_line full_header [] = Ok h /\
  row (fun _ : nat => "20.000"%string) (fun _ : unit => "d"%string) full_header [] tt [20] = Ok r /\
  length (fields r) <> length (fields h).
Proof. exists "living,dining"%string. do 2 eexists. repeat split. cbn. discriminate. Qed.

(** The quantity of an object whose name has no quotes nor backslashes is identified by its
    requested output; a quote in the name prevents it. *)
Theorem C17_request_matches : forall tag name, plain name -> output_json tag name = stringify tag name.
Proof. intros tag name H. unfold output_json, stringify. rewrite escape_plain by auto. reflexivity. Qed.

Theorem C17_request_with_quotes_refuted : exists tag name, output_json tag name <> stringify tag name.
Proof. exists "SpaceDryBulbTemperature"%string, (String (ascii_of_nat 34) "a"). cbn. discriminate. Qed.

Example C17_example : exists h r,
  header_line ["a"%string; "b"%string; "c"%string] ["c"%string; "a"%string] = Ok h /\
  row (fun n : nat => match n with 1 => "1.0"%string | _ => "3.0"%string end) (fun _ : unit => "d"%string)
    ["a"%string; "b"%string; "c"%string] ["c"%string; "a"%string] tt [1; 2; 3] = Ok r /\
  h = "Date,c,a"%string /\ r = "d,3.0,1.0"%string.
Proof. do 2 eexists. repeat split. Qed.

(** * C18 A run is the composition of its steps *)

(** The rows of a successful run are those of the successive steps. *)
Theorem C18_fold : forall (F Dt Mem : Type) show_value show_date control march full_header outputs
    (dates : list Dt) (s s' : list F) (m m' : Mem) rows,
  run_loop show_value show_date control march full_header outputs dates s m = (rows, Ok (s', m')) <->
  steps show_value show_date control march full_header outputs dates s m rows s' m'.
Proof. intros. apply loop_steps. Qed.

(** Splitting the dates: the second part continues from the state and memory that the first left. *)
Theorem C18_compose : forall (F Dt Mem : Type) show_value show_date control march full_header outputs
    (ds1 ds2 : list Dt) (s s1 s2 : list F) (m m1 m2 : Mem) rows1 rows2,
  steps show_value show_date control march full_header outputs ds1 s m rows1 s1 m1 ->
  steps show_value show_date control march full_header outputs ds2 s1 m1 rows2 s2 m2 ->
  steps show_value show_date control march full_header outputs (ds1 ++ ds2) s m (rows1 ++ rows2) s2 m2.
Proof.
  intros F Dt Mem sv sd control march fh outs ds1 ds2 s s1 s2 m m1 m2 rows1 rows2 H. revert s2 m2 rows2.
  induction H; intros; cbn; [assumption|]. econstructor; eauto.
Qed.

(** The output of a run is a prefix of the output of a run with more dates, also when one of them
    fails. *)
Theorem C18_prefix : forall (F Dt Mem : Type) show_value show_date control march full_header outputs
    (ds1 ds2 : list Dt) (s : list F) (m : Mem),
  exists rest, fst (run show_value show_date control march full_header outputs (ds1 ++ ds2) s m) =
    (fst (run show_value show_date control march full_header outputs ds1 s m) ++ rest)%string.
Proof.
  intros F Dt Mem sv sd control march fh outs ds1 ds2 s m. unfold run.
  destruct (header_line fh outs) as [h| |]; cbn [fst]; [|exists ""%string; reflexivity|exists ""%string; reflexivity].
  rewrite loop_app. destruct (run_loop sv sd control march fh outs ds1 s m) as [rows [[s1 m1]| |]]; cbn [fst].
  - destruct (run_loop sv sd control march fh outs ds2 s1 m1) as [rows2 fin]. cbn [fst].
    exists (concat_strings (map (fun r => r ++ newline) rows2))%string.
    rewrite map_app, concat_strings_app, !append_assoc. reflexivity.
  - exists ""%string. rewrite append_nil_r. reflexivity.
  - exists ""%string. rewrite append_nil_r. reflexivity.
Qed.

(** The dates of a period with a later end begin with the dates of the shorter one. *)
Section Periods.
Import DateModel DateSpec.

Fixpoint iterate_seconds (n : nat) (d : Date) (dt : Q) : option Date :=
  match n with
  | O => Some d
  | S n' => match add_seconds d dt with Some d' => iterate_seconds n' d' dt | None => None end
  end.

Lemma period_next_yield p p' d : period_next p = Yield p' d ->
  add_seconds (p_current p) (p_dt p) = Some d /\ p_current p' = d /\ p_dt p' = p_dt p.
Proof.
  unfold period_next. generalize (add_seconds (p_current p) (p_dt p)). intros [new|]; [|discriminate].
  destruct (_ && _); [discriminate|]. intros H. injection H as <- <-. auto.
Qed.

Lemma collect_iterates fuel : forall p ds i d, period_collect fuel p = Some ds ->
  nth_error ds i = Some d -> iterate_seconds (S i) (p_current p) (p_dt p) = Some d.
Proof.
  induction fuel as [|fuel IH]; intros p ds i d H N; [discriminate|].
  rewrite PeriodProofs.period_collect_S in H. cbn [iterate_seconds].
  destruct (period_next p) as [| |p' d'] eqn:E.
  - discriminate.
  - injection H as <-. destruct i; discriminate.
  - destruct (period_next_yield _ _ _ E) as (A & B & C). rewrite A.
    destruct (period_collect fuel p') as [ds'|] eqn:K; [|discriminate]. injection H as <-.
    destruct i as [|i]; cbn [nth_error] in N.
    + injection N as <-. reflexivity.
    + specialize (IH p' ds' i d K N). rewrite B, C in IH. exact IH.
Qed.

Lemma prefix_by_nth {A} (l l' : list A) : length l <= length l' ->
  (forall i x y, nth_error l i = Some x -> nth_error l' i = Some y -> x = y) -> exists t, l' = l ++ t.
Proof.
  revert l'. induction l as [|x l IH]; intros l' L H; [exists l'; reflexivity|].
  destruct l' as [|y l']; cbn in L; [lia|]. assert (x = y) by (apply (H 0); reflexivity). subst y.
  destruct (IH l') as (t & ->); [lia| |exists t; reflexivity]. intros i a b. apply (H (S i)).
Qed.

Theorem C18_longer_period : forall start fin1 fin2 (dt : Q),
  valid_date start -> valid_date fin1 -> valid_date fin2 ->
  (position start <= position fin1)%Q -> (position fin1 <= position fin2)%Q ->
  (0 < dt)%Q -> (dt < 86400 * 224)%Q ->
  exists p1 p2 ds1 ds2 fuel, period_new start fin1 dt = Some p1 /\ period_new start fin2 dt = Some p2 /\
    period_collect fuel p1 = Some ds1 /\ period_collect fuel p2 = Some (ds1 ++ ds2).
Proof.
  intros start fin1 fin2 dt V V1 V2 H1 H2 D0 D1.
  destruct (CalendarProps.C05_period_steps start fin1 dt) as (p1 & ds1 & N1 & C1 & L1 & _); auto.
  destruct (CalendarProps.C05_period_steps start fin2 dt) as (p2 & ds2 & N2 & C2 & L2 & _); auto; [lra|].
  exists p1, p2, ds1.
  assert (LE : length ds1 <= length ds2).
  { apply Nat2Z.inj_le. rewrite L1, L2. apply Qround.Qfloor_resp_le.
    apply Qmult_le_compat_r; [lra|]. apply Qlt_le_weak, Qinv_lt_0_compat. 
    apply Qlt_shift_div_l; [reflexivity|]. lra. }
  specialize (C1 (S (length ds2))). specialize (C2 (S (length ds2))).
  specialize (C2 ltac:(lia)). specialize (C1 ltac:(lia)).
  assert (E : p_current p1 = start /\ p_dt p1 = dt /\ p_current p2 = start /\ p_dt p2 = dt).
  { clear - N1 N2. unfold period_new in *. destruct (Qle_bool 24 (hour start)); [discriminate|].
    destruct (Qle_bool 24 (hour fin1)); [discriminate|]. destruct (Qle_bool 24 (hour fin2)); [discriminate|].
    injection N1 as <-. injection N2 as <-. cbn. auto. }
  destruct E as (E1 & E2 & E3 & E4).
  destruct (prefix_by_nth ds1 ds2 LE) as (t & ->).
  { intros i x y A B. pose proof (collect_iterates _ _ _ _ _ C1 A) as I1. pose proof (collect_iterates _ _ _ _ _ C2 B) as I2.
    rewrite E1, E2 in I1. rewrite E3, E4 in I2. congruence. }
  exists t, (S (length (ds1 ++ t))). repeat split; auto.
Qed.
End Periods.

Example C18_example :
  fst (run (fun n : nat => match n with O => "0"%string | _ => "x"%string end) (fun d : nat => match d with 1 => "d1"%string | _ => "d2"%string end)
     (fun s => Ok s) (fun d s m => if Nat.eqb d 2 then Err else Ok (s, S m)) ["a"%string] [] [1; 2] [0] 0)
  = ("Date,a" ++ newline ++ "d1,0" ++ newline)%string.
Proof. reflexivity. Qed.

(** * C19 Lookups by name return what was added *)

Section C19.
Context {D G F : Type} (cut : G -> G -> res G) (same_dir : G -> G -> bool) (zero : F).
Notation after := (fold_left (apply (D := D) cut same_dir zero)).

(** Whatever is added later, what was found under a name is still found, unchanged (surfaces: up to
    the holes cut for the fenestrations added to them). *)
Theorem C19_lookups_stable : forall ops m n,
  (forall x, get o_name (substances m) n = Some x -> get o_name (substances (after ops m)) n = Some x) /\
  (forall x, get o_name (materials m) n = Some x -> get o_name (materials (after ops m)) n = Some x) /\
  (forall x, get o_name (constructions m) n = Some x -> get o_name (constructions (after ops m)) n = Some x) /\
  (forall x, get o_name (spaces m) n = Some x -> get o_name (spaces (after ops m)) n = Some x) /\
  (forall x, get o_name (buildings m) n = Some x -> get o_name (buildings (after ops m)) n = Some x) /\
  (forall x, get f_name (fenestrations m) n = Some x -> get f_name (fenestrations (after ops m)) n = Some x) /\
  (forall x, get d_name (hvacs m) n = Some x -> get d_name (hvacs (after ops m)) n = Some x) /\
  (forall x, get d_name (luminaires m) n = Some x -> get d_name (luminaires (after ops m)) n = Some x) /\
  (forall x, get s_name (surfaces m) n = Some x ->
     exists y, get s_name (surfaces (after ops m)) n = Some y /\ same_but_holes x y).
Proof.
  intros ops m n. pose proof (grows_fold cut same_dir zero ops m) as Gr.
  repeat split; try (intros x; apply get_extends; apply Gr).
  intros x H. destruct (g_surfaces _ _ Gr) as (l & t & -> & F2).
  destruct (get_forall2 _ _ _ _ F2 H) as (y & Y & S). exists y. split; [apply get_app_some, Y|exact S].
Qed.

(** A surface changes only when it is the parent of a new fenestration, and then by its hole. *)
Theorem C19_holes : forall (m : model (D := D) (G := G) (F := F)) f held m' f', add_fenestration cut same_dir zero m f held = (m', Ok f') ->
  match f_parent f with
  | None => surfaces m' = surfaces m
  | Some p => exists s s', get s_name (surfaces m) p = Some s /\ get s_name (surfaces m') p = Some s' /\
      cut (s_vertices s) (f_outline f) = Ok (s_vertices s') /\ same_but_holes s s' /\
      (f_front f' = s_front s /\ f_back f' = s_back s \/ f_front f' = s_back s /\ f_back f' = s_front s)
  end.
Proof.
  intros m f held m' f'. unfold add_fenestration. destruct (negb _ && negb _); [discriminate|].
  destruct (push_to_state m _ _) as [m1 r] eqn:P.
  destruct (push_to_state_lists _ _ _ _ _ P) as (_ & _ & _ & _ & _ & _ & E7 & _).
  destruct r as [i| |]; try discriminate. destruct (f_open_index f); [discriminate|].
  destruct (f_parent f) as [pn|].
  - destruct (cut_parent cut held (f_outline f) pn (surfaces m1)) as [[l2 [s|]]| |] eqn:C; try discriminate.
    intros H. injection H as <- <-. destruct (cut_parent_lists _ _ _ _ _ _ _ C) as (_ & A & _).
    destruct (A s eq_refl) as (B1 & s0 & B2 & B3 & B4). rewrite E7 in B2.
    exists s0, s. cbn. repeat split; auto; try apply B4.
    destruct B4 as (_ & _ & F1 & F2 & _). rewrite F1, F2.
    unfold inherit. destruct (same_dir _ _); cbn; auto.
  - intros H. injection H as <- <-. cbn. exact E7.
Qed.

(** An object whose name is new is found under its name right after it was added. *)
Theorem C19_found : forall (m : model),
  (forall x, get o_name (substances m) (o_name x) = None ->
     get o_name (substances (add_substance m x)) (o_name x) = Some x) /\
  (forall x, get o_name (materials m) (o_name x) = None ->
     get o_name (materials (add_material m x)) (o_name x) = Some x) /\
  (forall x, get o_name (constructions m) (o_name x) = None ->
     get o_name (constructions (add_construction m x)) (o_name x) = Some x) /\
  (forall x, get o_name (spaces m) (o_name x) = None ->
     get o_name (spaces (add_space m x)) (o_name x) = Some x) /\
  (forall x, get o_name (buildings m) (o_name x) = None ->
     get o_name (buildings (add_building m x)) (o_name x) = Some x) /\
  (forall x m' y, get s_name (surfaces m) (s_name x) = None -> add_surface (D := D) (G := G) (F := F) m x = (m', Ok y) ->
     y = x /\ get s_name (surfaces m') (s_name x) = Some x) /\
  (forall f held m' y, get f_name (fenestrations m) (f_name f) = None ->
     add_fenestration cut same_dir zero m f held = (m', Ok y) ->
     f_name y = f_name f /\ get f_name (fenestrations m') (f_name f) = Some y) /\
  (forall x m' y, get d_name (hvacs m) (d_name x) = None -> add_hvac zero m x = (m', Ok y) ->
     d_name y = d_name x /\ get d_name (hvacs m') (d_name x) = Some y) /\
  (forall x m' y, get d_name (luminaires m) (d_name x) = None -> add_luminaire zero m x = (m', Ok y) ->
     d_name y = d_name x /\ get d_name (luminaires m') (d_name x) = Some y).
Proof.
  intros m. do 5 (split; [intros x H; apply get_app_none, H|]). split; [|split; [|split]].
  - intros x m' y H. unfold add_surface. destruct (negb _); [discriminate|]. destruct (negb _); [discriminate|].
    destruct (negb _); [discriminate|]. intros E. injection E as <- <-. split; [reflexivity|]. apply get_app_none, H.
  - intros f held m' y H. unfold add_fenestration. destruct (negb _ && negb _); [discriminate|].
    destruct (push_to_state m _ _) as [m1 r] eqn:P.
    destruct (push_to_state_lists _ _ _ _ _ P) as (_ & _ & _ & _ & _ & _ & _ & E8 & _).
    destruct r as [i| |]; try discriminate. destruct (f_open_index f); [discriminate|].
    assert (NM : forall p, f_name (inherit same_dir f i p) = f_name f).
    { intros p. unfold inherit. destruct p; [destruct (same_dir _ _)|]; reflexivity. }
    destruct (f_parent f) as [pn|].
    + destruct (cut_parent cut held (f_outline f) pn (surfaces m1)) as [[l2 [s|]]| |] eqn:C; try discriminate.
      cbv zeta. pose proof (NM (Some s)) as NS. revert NS. generalize (inherit same_dir f i (Some s)).
      intros y' NS E. injection E as <- <-. cbn [fenestrations set_fenestrations set_surfaces].
      split; [apply NS|]. rewrite E8. rewrite <- NS. apply get_app_none. rewrite NS. exact H.
    + cbv zeta. pose proof (NM None) as NS. revert NS. generalize (inherit same_dir f i None).
      intros y' NS E. injection E as <- <-. cbn [fenestrations set_fenestrations].
      split; [apply NS|]. rewrite E8. rewrite <- NS. apply get_app_none. rewrite NS. exact H.
  - intros x m' y H. unfold add_hvac. destruct (push_to_state m _ _) as [m1 r] eqn:P.
    destruct (push_to_state_lists _ _ _ _ _ P) as (_ & _ & _ & _ & _ & _ & _ & _ & E9 & _).
    destruct r as [i| |]; try discriminate. destruct (d_index x); [discriminate|].
    intros E. injection E as <- <-. split; [reflexivity|]. cbn [hvacs set_hvacs]. rewrite E9.
    apply (get_app_none d_name _ (mkDevice (d_name x) (Some i) (d_data x))). exact H.
  - intros x m' y H. unfold add_luminaire. destruct (push_to_state m _ _) as [m1 r] eqn:P.
    destruct (push_to_state_lists _ _ _ _ _ P) as (_ & _ & _ & _ & _ & _ & _ & _ & _ & E10).
    destruct r as [i| |]; try discriminate. destruct (d_index x); [discriminate|].
    intros E. injection E as <- <-. split; [reflexivity|]. cbn [luminaires set_luminaires]. rewrite E10.
    apply (get_app_none d_name _ (mkDevice (d_name x) (Some i) (d_data x))). exact H.
Qed.

(** Surfaces only refer to constructions and spaces of the model. *)
Theorem C19_surface_references : forall (m : model) (x : surface) m' y,
  add_surface (D := D) (G := G) (F := F) m x = (m', Ok y) ->
  (exists c, get o_name (constructions m) (s_construction x) = Some c) /\
  (forall sp, s_front x = BSpace sp \/ s_back x = BSpace sp -> exists s, get o_name (spaces m) sp = Some s).
Proof.
  intros m x m' y. unfold add_surface, found.
  destruct (get o_name (constructions m) (s_construction x)) as [c|]; [|discriminate]. cbn [negb].
  destruct (boundary_ok m (s_front x)) eqn:B1; [|discriminate]. cbn [negb].
  destruct (boundary_ok m (s_back x)) eqn:B2; [|discriminate]. intros _. split; [eauto|].
  intros sp [E|E]; rewrite E in *; cbn in *;
    match goal with H : found ?g = true |- _ => destruct g; [eauto|discriminate] end.
Qed.
End C19.

(** A second object with the same name is accepted but never found. *)
Theorem C19_duplicates_refuted : exists (m : @model nat unit nat) x,
  get o_name (spaces (add_space m x)) (o_name x) <> Some x /\ In x (spaces (add_space m x)).
Proof.
  exists (add_space model_new (mkNamed "room" 1)), (mkNamed "room" 2). cbn. split; [discriminate|auto].
Qed.

Example C19_example :
  let m := history (D := nat) (fun (v h : list nat) => Ok (v ++ h)) (fun _ _ => false) 0
     [OConstruction (mkNamed "brick" 1); OSpace (mkNamed "room" 2);
      OSurface (mkSurface "wall" "brick" [10] (BSpace "room") (BOther 0) 3);
      OFenestration (mkFenestration "window" true "" [20] (Some "wall"%string) (BOther 0) (BOther 0) None 4) false] in
  get s_name (surfaces m) "wall" = Some (mkSurface "wall" "brick" [10; 20] (BSpace "room") (BOther 0) 3) /\
  get f_name (fenestrations m) "window" =
    Some (mkFenestration "window" true "" [20] (Some "wall"%string) (BOther 0) (BSpace "room") (Some 0) 4).
Proof. repeat split. Qed.

Print Assumptions C14_slots_stable.
Print Assumptions C15_all_copies_equal.
Print Assumptions C16_occupants.
Print Assumptions C17_columns.
Print Assumptions C18_longer_period.
Print Assumptions C19_lookups_stable.
Print Assumptions C19_found.

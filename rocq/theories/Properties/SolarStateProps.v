(** C121: irradiances in the simulation state *)
From Coq Require Import List Arith Bool Lia.
From Verif.Common Require Import Base.
From Verif.State Require Import StateModel SolarStateModel.
Import ListNotations.

(** ** What is stored where, said directly *)
Inductive quantity := FrontSolar | BackSolar | FrontIR | BackIR.
Definition stored (s : surf) (q : quantity) : option nat :=
  match q with FrontSolar => sf_front_solar s | BackSolar => sf_back_solar s | FrontIR => sf_front_ir s | BackIR => sf_back_ir s end.
Definition irradiance (k : kind) (n : nat) (q : quantity) : element :=
  match k, q with
  | OfSurface, FrontSolar => SurfaceFrontSolarIrradiance n | OfSurface, BackSolar => SurfaceBackSolarIrradiance n
  | OfSurface, FrontIR => SurfaceFrontIRIrradiance n | OfSurface, BackIR => SurfaceBackIRIrradiance n
  | OfFenestration, FrontSolar => FenestrationFrontSolarIrradiance n | OfFenestration, BackSolar => FenestrationBackSolarIrradiance n
  | OfFenestration, FrontIR => FenestrationFrontIRIrradiance n | OfFenestration, BackIR => FenestrationBackIRIrradiance n
  end.
(** the indices that are set lead to the right elements *)
Definition placed {F} (h : header F) (k : kind) (n : nat) (s : surf) : Prop := forall q j, stored s q = Some j -> nth_error (elements h) j = Some (irradiance k n q).
Definition all_placed {F} (h : header F) (k : kind) (ss : list surf) : Prop := forall n s, nth_error ss n = Some s -> placed h k n s.
Definition missing (s : surf) : nat := length (filter (fun q => match stored s q with None => true | Some _ => false end) [FrontSolar; BackSolar; FrontIR; BackIR]).

Section Solar.
Context {F : Type} (zero : F).
Implicit Types h : header F.

Definition extends h h' : Prop := (exists new, elements h' = elements h ++ new) /\ n_operational h' = n_operational h /\ n_individual h' = n_individual h /\ (default_values h <> None -> default_values h' <> None).
Lemma extends_refl h : extends h h. Proof. split; [exists []; now rewrite app_nil_r|auto]. Qed.
Lemma extends_trans a b c : extends a b -> extends b c -> extends a c.
Proof. intros ((x & X) & A & B & C) ((y & Y) & D & E & G). split; [exists (x ++ y); rewrite Y, X, app_assoc; reflexivity|]. repeat split; try congruence; auto. Qed.
Lemma extends_nth h h' j e : extends h h' -> nth_error (elements h) j = Some e -> nth_error (elements h') j = Some e.
Proof. intros ((x & X) & _) N. rewrite X, nth_error_app1; [exact N|]. apply nth_error_Some. congruence. Qed.
Lemma reg_spec h cur k n q h' i : (forall j, cur = Some j -> nth_error (elements h) j = Some (irradiance k n q)) -> reg zero h cur (irradiance k n q) = Ok (h', i) ->
  extends h h' /\ nth_error (elements h') i = Some (irradiance k n q) /\ (forall j, cur = Some j -> i = j) /\ length (elements h') = length (elements h) + match cur with None => 1 | Some _ => 0 end.
Proof.
  intros P E. destruct cur as [j|]; cbn [reg] in E.
  - injection E as <- <-. split; [apply extends_refl|]. split; [now apply P|]. split; [congruence|lia].
  - unfold push in E. replace (is_personal (irradiance k n q)) with false in E by (destruct k, q; reflexivity). replace (is_operational (irradiance k n q)) with false in E by (destruct k, q; reflexivity).
    unfold store in E. cbn in E. destruct (default_values h) as [vs|] eqn:D; [|discriminate]. injection E as <- <-. unfold extends. cbn. split; [split; [eexists; reflexivity|]; repeat split; congruence|].
    split; [rewrite nth_error_app2 by lia; now rewrite Nat.sub_diag|]. split; [discriminate|]. rewrite app_length. cbn. lia.
Qed.
Lemma reg_ok h cur k n q : default_values h <> None -> exists p, reg zero h cur (irradiance k n q) = Ok p.
Proof.
  intros D. destruct cur; cbn [reg]; [eauto|]. unfold push. replace (is_personal (irradiance k n q)) with false by (destruct k, q; reflexivity). replace (is_operational (irradiance k n q)) with false by (destruct k, q; reflexivity).
  unfold store. cbn. destruct (default_values h); [eauto|contradiction].
Qed.
Lemma reg_values h cur k n q h' i : reg zero h cur (irradiance k n q) = Ok (h', i) -> default_values h <> None -> default_values h' <> None.
Proof.
  intros E D. destruct cur; cbn [reg] in E; [congruence|]. unfold push in E. replace (is_personal (irradiance k n q)) with false in E by (destruct k, q; reflexivity). replace (is_operational (irradiance k n q)) with false in E by (destruct k, q; reflexivity).
  unfold store in E. cbn in E. destruct (default_values h); [|discriminate]. injection E as <- _. discriminate.
Qed.
Lemma make_one_by k i h s : make_one zero k i h s =
  (do p1 <- reg zero h (stored s FrontSolar) (irradiance k i FrontSolar); do p2 <- reg zero (fst p1) (stored s BackSolar) (irradiance k i BackSolar);
   do p3 <- reg zero (fst p2) (stored s FrontIR) (irradiance k i FrontIR); do p4 <- reg zero (fst p3) (stored s BackIR) (irradiance k i BackIR);
   if sf_points s then Ok (fst p4, mkSurf (Some (snd p1)) (Some (snd p2)) (Some (snd p3)) (Some (snd p4)) true) else Err).
Proof. destruct k; reflexivity. Qed.

Definition done_one k n h' s s' : Prop := forall q, exists j, stored s' q = Some j /\ nth_error (elements (F := F) h') j = Some (irradiance k n q) /\ (forall j0, stored s q = Some j0 -> j = j0).
Lemma make_one_spec k i h s h' s' : placed h k i s -> make_one zero k i h s = Ok (h', s') ->
  extends h h' /\ done_one k i h' s s' /\ length (elements h') = length (elements h) + missing s /\ sf_points s' = true.
Proof.
  intros P E. rewrite make_one_by in E.
  destruct (reg zero h (stored s FrontSolar) _) as [[h1 a]| |] eqn:E1; try discriminate. cbn [bind fst snd] in E. destruct (reg zero h1 (stored s BackSolar) _) as [[h2 b]| |] eqn:E2; try discriminate. cbn [bind fst snd] in E.
  destruct (reg zero h2 (stored s FrontIR) _) as [[h3 c]| |] eqn:E3; try discriminate. cbn [bind fst snd] in E. destruct (reg zero h3 (stored s BackIR) _) as [[h4 d]| |] eqn:E4; try discriminate. cbn [bind fst snd] in E.
  destruct (sf_points s); [|discriminate]. injection E as <- <-.
  apply reg_spec in E1 as (X1 & N1 & S1 & L1); [|intros j J; now apply P].
  apply reg_spec in E2 as (X2 & N2 & S2 & L2); [|intros j J; apply (extends_nth _ _ _ _ X1); now apply P].
  assert (X12 := extends_trans _ _ _ X1 X2). apply reg_spec in E3 as (X3 & N3 & S3 & L3); [|intros j J; apply (extends_nth _ _ _ _ X12); now apply P].
  assert (X13 := extends_trans _ _ _ X12 X3). apply reg_spec in E4 as (X4 & N4 & S4 & L4); [|intros j J; apply (extends_nth _ _ _ _ X13); now apply P].
  split; [exact (extends_trans _ _ _ X13 X4)|]. split; [|split; [|reflexivity]].
  - intros q. destruct q; cbn [stored sf_front_solar sf_back_solar sf_front_ir sf_back_ir]; eexists; (split; [reflexivity|]); split; auto.
    + exact (extends_nth _ _ _ _ X4 (extends_nth _ _ _ _ X3 (extends_nth _ _ _ _ X2 N1))).
    + exact (extends_nth _ _ _ _ X4 (extends_nth _ _ _ _ X3 N2)).
    + exact (extends_nth _ _ _ _ X4 N3).
  - rewrite L4, L3, L2, L1. unfold missing. cbn [filter stored]. destruct (sf_front_solar s), (sf_back_solar s), (sf_front_ir s), (sf_back_ir s); cbn [length]; lia.
Qed.
Lemma make_spec k ss : forall i h h' ss', (forall n s, nth_error ss n = Some s -> placed h k (i + n) s) -> make zero k i h ss = Ok (h', ss') ->
  extends h h' /\ length ss' = length ss /\ (forall n s s', nth_error ss n = Some s -> nth_error ss' n = Some s' -> done_one k (i + n) h' s s' /\ sf_points s' = true) /\
  length (elements h') = length (elements h) + list_sum (map missing ss).
Proof.
  induction ss as [|s ss IH]; intros i h h' ss' P E; cbn [make] in E.
  - injection E as <- <-. split; [apply extends_refl|]. split; [reflexivity|]. split; [intros [|n] ? ? X; discriminate X|cbn; lia].
  - destruct (make_one zero k i h s) as [[h1 s1]| |] eqn:E1; try discriminate. cbn [bind fst snd] in E. destruct (make zero k (S i) h1 ss) as [[h2 r]| |] eqn:E2; try discriminate. cbn [bind fst snd] in E. injection E as <- <-.
    apply make_one_spec in E1 as (X1 & D1 & L1 & Q1). 2:{ specialize (P 0 s eq_refl). now rewrite Nat.add_0_r in P. }
    apply IH in E2 as (X2 & L2 & D2 & C2).
    2:{ intros n t T q j J. apply (extends_nth _ _ _ _ X1). replace (S i + n) with (i + S n) by lia. exact (P (S n) t T q j J). }
    split; [exact (extends_trans _ _ _ X1 X2)|]. split; [cbn; now rewrite L2|]. split.
    + intros [|n] t t' T T'; cbn [nth_error] in T, T'.
      * injection T as <-. injection T' as <-. rewrite Nat.add_0_r. split; [|exact Q1]. intros q. destruct (D1 q) as (j & A & B & C). exists j. split; [exact A|]. split; [exact (extends_nth _ _ _ _ X2 B)|exact C].
      * replace (i + S n) with (S i + n) by lia. now apply D2.
    + rewrite C2, L1. cbn [map list_sum fold_right]. unfold list_sum. lia.
Qed.

(** ** After the solar model was made, every surface and window has a place for each irradiance, and the places that were set before are kept *)
Theorem C121_new h surfaces fenestrations h' surfaces' fenestrations' :
  all_placed h OfSurface surfaces -> all_placed h OfFenestration fenestrations -> solar_new zero false h surfaces fenestrations = Ok (h', surfaces', fenestrations') ->
  length surfaces' = length surfaces /\ length fenestrations' = length fenestrations /\
  (forall n s s' q, nth_error surfaces n = Some s -> nth_error surfaces' n = Some s' -> exists j, stored s' q = Some j /\ nth_error (elements h') j = Some (irradiance OfSurface n q) /\ (forall j0, stored s q = Some j0 -> j = j0)) /\
  (forall n s s' q, nth_error fenestrations n = Some s -> nth_error fenestrations' n = Some s' -> exists j, stored s' q = Some j /\ nth_error (elements h') j = Some (irradiance OfFenestration n q) /\ (forall j0, stored s q = Some j0 -> j = j0)) /\
  (exists new, elements h' = elements h ++ new /\ length new = list_sum (map missing (surfaces ++ fenestrations))) /\
  n_operational h' = n_operational h /\ n_individual h' = n_individual h.
Proof.
  intros PS PF E. cbn [solar_new] in E. destruct (make zero OfSurface 0 h surfaces) as [[h1 r1]| |] eqn:E1; try discriminate. cbn [bind fst snd] in E. destruct (make zero OfFenestration 0 h1 fenestrations) as [[h2 r2]| |] eqn:E2; try discriminate. cbn [bind fst snd] in E. injection E as <- <- <-.
  apply make_spec in E1 as (X1 & L1 & D1 & C1); [|exact PS].
  apply make_spec in E2 as (X2 & L2 & D2 & C2); [|intros n s T q j J; apply (extends_nth _ _ _ _ X1); exact (PF n s T q j J)].
  split; [exact L1|]. split; [exact L2|]. split; [|split; [|split]].
  - intros n s s' q T T'. destruct (proj1 (D1 n s s' T T') q) as (j & A & B & C). exists j. split; [exact A|]. split; [exact (extends_nth _ _ _ _ X2 B)|exact C].
  - intros n s s' q T T'. exact (proj1 (D2 n s s' T T') q).
  - destruct (extends_trans _ _ _ X1 X2) as ((new & N) & _). exists new. split; [exact N|]. apply (f_equal (@length _)) in N. rewrite app_length in N. rewrite map_app, list_sum_app. lia.
  - destruct (extends_trans _ _ _ X1 X2) as (_ & A & B & _). split; assumption.
Qed.
(** ** No two of them share a place *)
Definition place k surfaces fenestrations n q : option nat := match nth_error (match k with OfSurface => surfaces | OfFenestration => fenestrations end) n with Some s => stored s q | None => None end.
Theorem C121_distinct h surfaces fenestrations h' surfaces' fenestrations' :
  all_placed h OfSurface surfaces -> all_placed h OfFenestration fenestrations -> solar_new zero false h surfaces fenestrations = Ok (h', surfaces', fenestrations') ->
  forall k n q k2 n2 q2 j, place k surfaces' fenestrations' n q = Some j -> place k2 surfaces' fenestrations' n2 q2 = Some j -> k = k2 /\ n = n2 /\ q = q2.
Proof.
  intros PS PF E. destruct (C121_new _ _ _ _ _ _ PS PF E) as (L1 & L2 & A & B & _).
  assert (G : forall k n q j, place k surfaces' fenestrations' n q = Some j -> nth_error (elements h') j = Some (irradiance k n q)).
  { intros k n q j. unfold place. destruct k.
    - destruct (nth_error surfaces' n) as [s'|] eqn:T'; [|discriminate]. intros J. destruct (nth_error surfaces n) as [s|] eqn:T; [|apply nth_error_None in T; assert (nth_error surfaces' n <> None) as T2 by congruence; apply nth_error_Some in T2; lia].
      destruct (A n s s' q T T') as (j' & J' & N & _). congruence.
    - destruct (nth_error fenestrations' n) as [s'|] eqn:T'; [|discriminate]. intros J. destruct (nth_error fenestrations n) as [s|] eqn:T; [|apply nth_error_None in T; assert (nth_error fenestrations' n <> None) as T2 by congruence; apply nth_error_Some in T2; lia].
      destruct (B n s s' q T T') as (j' & J' & N & _). congruence. }
  intros k n q k2 n2 q2 j J J2. apply G in J. apply G in J2. rewrite J in J2. injection J2 as J2. destruct k, q, k2, q2; cbn [irradiance] in J2; try discriminate J2; injection J2 as ->; auto.
Qed.
(** ** When all places are set, by the thermal model or by another solar model, nothing is added *)
Theorem C121_again h surfaces fenestrations : (forall s, In s (surfaces ++ fenestrations) -> sf_points s = true /\ forall q, stored s q <> None) ->
  solar_new zero false h surfaces fenestrations = Ok (h, surfaces, fenestrations).
Proof.
  intros H. assert (G : forall k ss i h, (forall s, In s ss -> sf_points s = true /\ forall q, stored s q <> None) -> make zero k i h ss = Ok (h, ss)).
  { clear. intros k. induction ss as [|s ss IH]; intros i h H; cbn [make]; [reflexivity|]. destruct (H s (or_introl eq_refl)) as (P & Q). rewrite make_one_by.
    pose proof (Q FrontSolar) as Q1. pose proof (Q BackSolar) as Q2. pose proof (Q FrontIR) as Q3. pose proof (Q BackIR) as Q4. destruct s as [a b c d p]. cbn in *. subst p. destruct a, b, c, d; try contradiction. cbn [reg bind fst snd].
    rewrite IH by (intros; apply H; now right). reflexivity. }
  cbn [solar_new]. rewrite G by (intros; apply H, in_or_app; now left). cbn [bind fst snd]. rewrite G by (intros; apply H, in_or_app; now right). reflexivity.
Qed.
(** ** It does not fail when the outlines can be triangulated and the values were not taken yet *)
Theorem C121_succeeds h surfaces fenestrations : default_values h <> None -> (forall s, In s (surfaces ++ fenestrations) -> sf_points s = true) -> exists r, solar_new zero false h surfaces fenestrations = Ok r.
Proof.
  intros D H. assert (G : forall k ss i h, default_values h <> None -> (forall s, In s ss -> sf_points s = true) -> exists h' ss', make zero k i h ss = Ok (h', ss') /\ default_values h' <> None).
  { clear. intros k. induction ss as [|s ss IH]; intros i h D H; cbn [make]; [eauto|]. rewrite make_one_by.
    destruct (reg_ok h (stored s FrontSolar) k i FrontSolar D) as ((h1 & a) & E1). rewrite E1. cbn [bind fst snd]. apply reg_values in E1; [|exact D].
    destruct (reg_ok h1 (stored s BackSolar) k i BackSolar E1) as ((h2 & b) & E2). rewrite E2. cbn [bind fst snd]. apply reg_values in E2; [|exact E1].
    destruct (reg_ok h2 (stored s FrontIR) k i FrontIR E2) as ((h3 & c) & E3). rewrite E3. cbn [bind fst snd]. apply reg_values in E3; [|exact E2].
    destruct (reg_ok h3 (stored s BackIR) k i BackIR E3) as ((h4 & d) & E4). rewrite E4. cbn [bind fst snd]. apply reg_values in E4; [|exact E3].
    rewrite (H s (or_introl eq_refl)). cbn [bind fst snd]. destruct (IH (S i) h4 E4) as (h5 & r & E5 & D5); [intros; apply H; now right|]. rewrite E5. cbn [bind fst snd]. eauto. }
  cbn [solar_new]. destruct (G OfSurface surfaces 0 h D) as (h1 & r1 & E1 & D1); [intros; apply H, in_or_app; now left|]. rewrite E1. cbn [bind fst snd].
  destruct (G OfFenestration fenestrations 0 h1 D1) as (h2 & r2 & E2 & _); [intros; apply H, in_or_app; now right|]. rewrite E2. cbn [bind fst snd]. eauto.
Qed.
(** ** The solar model cannot be made before the thermal model *)
Theorem C121_thermal_refuted h surfaces fenestrations h' surfaces' fenestrations' :
  all_placed h OfSurface surfaces -> all_placed h OfFenestration fenestrations -> solar_new zero false h surfaces fenestrations = Ok (h', surfaces', fenestrations') ->
  forall n s', nth_error surfaces' n = Some s' -> thermal_reg zero h' s' n = Err.
Proof.
  intros PS PF E n s' T'. destruct (C121_new _ _ _ _ _ _ PS PF E) as (L1 & _ & A & _). destruct (nth_error surfaces n) as [s|] eqn:T; [|apply nth_error_None in T; assert (nth_error surfaces' n <> None) as T2 by congruence; apply nth_error_Some in T2; lia].
  destruct (A n s s' FrontSolar T T') as (j & J & _). cbn [stored] in J. unfold thermal_reg. now rewrite J.
Qed.
End Solar.

(** ** Examples: a wall that the thermal model knows, a new wall and a window *)
Definition blank : surf := mkSurf None None None None true.
Definition known : surf := mkSurf (Some 0) (Some 1) (Some 2) (Some 3) true.
Definition started : header nat := run_events [Push (SurfaceFrontSolarIrradiance 0) 0; Push (SurfaceBackSolarIrradiance 0) 0; Push (SurfaceFrontIRIrradiance 0) 0; Push (SurfaceBackIRIrradiance 0) 0].
Example C121_example : match solar_new 0 false started [known; blank] [blank] with
  | Ok (h', ss, fs) => ss = [known; mkSurf (Some 4) (Some 5) (Some 6) (Some 7) true] /\ fs = [mkSurf (Some 8) (Some 9) (Some 10) (Some 11) true] /\ length (elements h') = 12
  | _ => False end.
Proof. vm_compute. repeat split. Qed.
Example C121_example_placed : all_placed started OfSurface [known; blank] /\ all_placed started OfFenestration [blank].
Proof.
  split.
  - intros [|[|n]] s T q j J; cbn in T; [injection T as <-|injection T as <-|destruct n; discriminate]; destruct q; cbn in J; try discriminate; injection J as <-; reflexivity.
  - intros [|n] s T q j J; cbn in T; [injection T as <-|destruct n; discriminate]; destruct q; discriminate.
Qed.
(** ** When the optical data come from a file there are no places, and the first irradiance that is written is refused *)
Theorem C121_file_refuted : exists (h : header nat) surfaces h' surfaces' fenestrations' s, solar_new 0 true h surfaces [] = Ok (h', surfaces', fenestrations') /\ In s surfaces' /\ forall q state v, set_value (stored s q) state v = Err (A := list nat).
Proof. exists header_new, [blank], header_new, [blank], [], blank. split; [reflexivity|]. split; [now left|]. intros q state v. destruct q; reflexivity. Qed.
(** ** A second simulation of the same model, with a header of its own: it is made without an error, but the places are those of the first one *)
Theorem C121_second_refuted : exists (h h2 : header nat) s s2, solar_new 0 false header_new [s] [] = Ok (h, [s2], []) /\ solar_new 0 false header_new [s2] [] = Ok (h2, [s2], []) /\ elements h2 = [] /\
  forall values v q, default_values h2 = Some values -> set_value (stored s2 q) values v = Panic.
Proof.
  exists (run_events [Push (SurfaceFrontSolarIrradiance 0) 0; Push (SurfaceBackSolarIrradiance 0) 0; Push (SurfaceFrontIRIrradiance 0) 0; Push (SurfaceBackIRIrradiance 0) 0]), header_new, blank, known.
  split; [vm_compute; reflexivity|]. split; [vm_compute; reflexivity|]. split; [reflexivity|]. intros values v q E. injection E as <-. destruct q; reflexivity.
Qed.

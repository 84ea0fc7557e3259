(** Proofs about histories of a building model. *)
From Coq Require Import String List Arith Lia Bool.
From Verif Require Import Common.Base State.StateModel State.StateProofs State.BuildingModel.
Import ListNotations.

Lemma get_app_some {A} (name_of : A -> string) l l' n x :
  get name_of l n = Some x -> get name_of (l ++ l') n = Some x.
Proof.
  unfold get. induction l as [|y l IH]; cbn; [discriminate|].
  destruct (String.eqb (name_of y) n); auto.
Qed.

Lemma get_app_none {A} (name_of : A -> string) l x :
  get name_of l (name_of x) = None -> get name_of (l ++ [x]) (name_of x) = Some x.
Proof.
  unfold get. induction l as [|y l IH]; cbn.
  - rewrite String.eqb_refl. reflexivity.
  - destruct (String.eqb (name_of y) (name_of x)); [discriminate|auto].
Qed.

Lemma get_app_other {A} (name_of : A -> string) l x n :
  name_of x <> n -> get name_of (l ++ [x]) n = get name_of l n.
Proof.
  unfold get. induction l as [|y l IH]; cbn; intros H.
  - apply String.eqb_neq in H. rewrite H. reflexivity.
  - destruct (String.eqb (name_of y) n); auto.
Qed.

Section Building.
Context {D G F : Type}.
Context (cut : G -> G -> res G) (same_dir : G -> G -> bool) (zero : F).
Notation model := (@model D G F).
Notation apply := (@apply D G F cut same_dir zero).
Notation add_fenestration := (@add_fenestration D G F cut same_dir zero).
Notation add_hvac := (@add_hvac D G F zero).
Notation add_luminaire := (@add_luminaire D G F zero).
Notation history := (@history D G F cut same_dir zero).

(** A surface up to the holes cut in it. *)
Definition same_but_holes (a b : @surface D G) : Prop :=
  s_name a = s_name b /\ s_construction a = s_construction b /\
  s_front a = s_front b /\ s_back a = s_back b /\ s_data a = s_data b.

Lemma same_refl a : same_but_holes a a.
Proof. unfold same_but_holes; auto. Qed.

Lemma cut_parent_lists held outline pname : forall l l2 p,
  cut_parent cut held outline pname l = Ok (l2, p) ->
  Forall2 same_but_holes l l2 /\
  (forall s, p = Some s -> get s_name l2 pname = Some s /\
     exists s0, get s_name l pname = Some s0 /\ cut (s_vertices s0) outline = Ok (s_vertices s) /\ same_but_holes s0 s) /\
  (p = None -> l2 = l /\ get s_name l pname = None).
Proof.
  induction l as [|s l IH]; cbn; intros l2 p E.
  - injection E as <- <-. repeat split; auto; discriminate.
  - destruct (String.eqb (s_name s) pname) eqn:Q.
    + destruct held; [discriminate|]. destruct (cut (s_vertices s) outline) as [v| |] eqn:C; try discriminate.
      injection E as <- <-. split; [|split].
      * constructor; [unfold same_but_holes; cbn; auto|]. clear. induction l; constructor; auto using same_refl.
      * intros s1 H. injection H as <-. unfold get. cbn. rewrite Q. split; [reflexivity|].
        exists s. repeat split; auto.
      * discriminate.
    + destruct (cut_parent cut held outline pname l) as [[l3 p3]| |] eqn:C; try discriminate.
      injection E as <- <-. destruct (IH _ _ eq_refl) as (A1 & A2 & A3). split; [|split].
      * constructor; auto using same_refl.
      * intros s1 H. destruct (A2 s1 H) as (B1 & s0 & B2 & B3). unfold get in *. cbn. rewrite Q.
        split; [exact B1|]. exists s0. auto.
      * intros H. destruct (A3 H) as (-> & B). split; [reflexivity|]. unfold get in *. cbn. try rewrite Q. exact B.
Qed.

Lemma get_forall2 l l2 n s : Forall2 same_but_holes l l2 -> get s_name l n = Some s ->
  exists s2, get s_name l2 n = Some s2 /\ same_but_holes s s2.
Proof.
  unfold get. induction 1 as [|a b l l2 S H IH]; cbn; [discriminate|].
  destruct S as (S1 & S2). rewrite <- S1. destruct (String.eqb (s_name a) n).
  - intros E. injection E as <-. exists b. split; [reflexivity|]. split; auto.
  - exact IH.
Qed.

(** Everything but the state and the given lists is untouched by push_to_state *)
Lemma push_to_state_lists (m : model) e v m1 r : push_to_state m e v = (m1, r) ->
  substances m1 = substances m /\ materials m1 = materials m /\ constructions m1 = constructions m /\
  spaces m1 = spaces m /\ buildings m1 = buildings m /\ objects m1 = objects m /\
  surfaces m1 = surfaces m /\ fenestrations m1 = fenestrations m /\ hvacs m1 = hvacs m /\
  luminaires m1 = luminaires m.
Proof.
  unfold push_to_state. destruct (simulation_state m) as [s|]; [|intros H; injection H as <- <-; repeat split].
  destruct (push s e v). intros H. injection H as <- <-. repeat split.
Qed.

(** How the lists of a model grow. *)
Definition extends {A} (l l' : list A) : Prop := exists t, l' = l ++ t.
Lemma extends_refl {A} (l : list A) : extends l l.
Proof. exists []. rewrite app_nil_r. reflexivity. Qed.
Lemma extends_app {A} (l : list A) x : extends l (l ++ [x]).
Proof. exists [x]. reflexivity. Qed.
Lemma extends_trans {A} (a b c : list A) : extends a b -> extends b c -> extends a c.
Proof. intros (t & ->) (u & ->). exists (t ++ u). rewrite app_assoc. reflexivity. Qed.

Record grows (m m' : model) : Prop := {
  g_substances : extends (substances m) (substances m');
  g_materials : extends (materials m) (materials m');
  g_constructions : extends (constructions m) (constructions m');
  g_spaces : extends (spaces m) (spaces m');
  g_buildings : extends (buildings m) (buildings m');
  g_objects : extends (objects m) (objects m');
  g_surfaces : exists l t, surfaces m' = l ++ t /\ Forall2 same_but_holes (surfaces m) l;
  g_fenestrations : extends (fenestrations m) (fenestrations m');
  g_hvacs : extends (hvacs m) (hvacs m');
  g_luminaires : extends (luminaires m) (luminaires m') }.

Lemma F2_refl l : Forall2 same_but_holes l l.
Proof. induction l; constructor; auto using same_refl. Qed.

Lemma grows_same_surfaces (m m' : model) : surfaces m' = surfaces m ->
  exists l t, surfaces m' = l ++ t /\ Forall2 same_but_holes (surfaces m) l.
Proof. intros ->. exists (surfaces m), []. rewrite app_nil_r. split; [reflexivity|apply F2_refl]. Qed.

Lemma grows_refl m : grows m m.
Proof. split; try apply extends_refl. apply grows_same_surfaces. reflexivity. Qed.

Lemma grows_push m e v m1 r : push_to_state m e v = (m1, r) -> grows m m1.
Proof.
  intros H. destruct (push_to_state_lists _ _ _ _ _ H) as (E1 & E2 & E3 & E4 & E5 & E6 & E7 & E8 & E9 & E10).
  split; rewrite ?E1, ?E2, ?E3, ?E4, ?E5, ?E6, ?E8, ?E9, ?E10; try apply extends_refl.
  apply grows_same_surfaces. exact E7.
Qed.

Lemma grows_trans a b c : grows a b -> grows b c -> grows a c.
Proof.
  intros A B. split;
    try (eapply extends_trans; [apply A|apply B]).
  destruct (g_surfaces _ _ A) as (l & t & E & H). destruct (g_surfaces _ _ B) as (l2 & t2 & E2 & H2).
  rewrite E in H2. apply Forall2_app_inv_l in H2. destruct H2 as (u1 & u2 & V1 & V2 & ->).
  exists u1, (u2 ++ t2). split; [rewrite E2, <- app_assoc; reflexivity|].
  clear - H V1. revert u1 V1. induction H as [|x y l l' S H IH]; intros u V; inversion V; subst; constructor; auto.
  destruct S as (A1 & A2 & A3 & A4 & A5). destruct H2 as (B1 & B2 & B3 & B4 & B5).
  unfold same_but_holes. repeat split; congruence.
Qed.

Ltac grow_one := split; cbn; try apply extends_refl; try apply extends_app;
  try (apply grows_same_surfaces; reflexivity).

Lemma grows_apply m o : grows m (apply m o).
Proof.
  destruct o as [x|x|x|x|x|x|x|x held|x|x|]; cbn [BuildingModel.apply];
    try (grow_one; fail).
  - unfold add_object. destruct (t_space x); [destruct (found _)|]; cbn [fst]; try apply grows_refl; grow_one.
  - unfold add_surface. destruct (negb _); [apply grows_refl|]. destruct (negb _); [apply grows_refl|].
    destruct (negb _); [apply grows_refl|]. cbn [fst]. grow_one.
    exists (surfaces m), [x]. split; [reflexivity|apply F2_refl].
  - unfold BuildingModel.add_fenestration. destruct (negb _ && negb _); [apply grows_refl|].
    destruct (push_to_state m _ _) as [m1 r] eqn:P. pose proof (grows_push _ _ _ _ _ P) as GP.
    destruct r as [i| |]; [|exact GP|exact GP].
    destruct (f_open_index x); [exact GP|].
    destruct (f_parent x) as [pn|].
    + destruct (cut_parent cut held (f_outline x) pn (surfaces m1)) as [[l2 [s|]]| |] eqn:C; try exact GP.
      cbn [fst]. eapply grows_trans; [exact GP|]. destruct (cut_parent_lists _ _ _ _ _ _ C) as (F2 & _).
      split; cbn; try apply extends_refl; try apply extends_app.
      exists l2, []. rewrite app_nil_r. auto.
    + cbn [fst]. eapply grows_trans; [exact GP|]. grow_one.
  - unfold BuildingModel.add_hvac. destruct (push_to_state m _ _) as [m1 r] eqn:P. pose proof (grows_push _ _ _ _ _ P) as GP.
    destruct r as [i| |]; [|exact GP|exact GP]. destruct (d_index x); [exact GP|].
    cbn [fst]. eapply grows_trans; [exact GP|]. grow_one.
  - unfold BuildingModel.add_luminaire. destruct (push_to_state m _ _) as [m1 r] eqn:P. pose proof (grows_push _ _ _ _ _ P) as GP.
    destruct r as [i| |]; [|exact GP|exact GP]. destruct (d_index x); [exact GP|].
    cbn [fst]. eapply grows_trans; [exact GP|]. grow_one.
Qed.

Lemma grows_fold ops : forall m, grows m (fold_left apply ops m).
Proof.
  induction ops as [|o ops IH]; cbn; intros m; [apply grows_refl|].
  eapply grows_trans; [apply grows_apply|apply IH].
Qed.

Lemma get_extends {A} (name_of : A -> string) l l' n x :
  extends l l' -> get name_of l n = Some x -> get name_of l' n = Some x.
Proof. intros (t & ->). apply get_app_some. Qed.

(** ** State indexes of the objects of a model. *)

(** Element number [i] of the state is [e]. *)
Definition registered (m : model) (i : nat) (e : element) : Prop :=
  forall s, simulation_state m = Some s -> nth_error (elements s) i = Some e.

Record indexed (m : model) : Prop := {
  ix_fen : forall k f, nth_error (fenestrations m) k = Some f ->
     exists i, f_open_index f = Some i /\ registered m i (FenestrationOpenFraction k);
  ix_hvac : forall k d, nth_error (hvacs m) k = Some d ->
     exists i, d_index d = Some i /\ registered m i (HeatingCoolingPowerConsumption k);
  ix_lum : forall k d, nth_error (luminaires m) k = Some d ->
     exists i, d_index d = Some i /\ registered m i (LuminairePowerConsumption k) }.

Definition header_values (m : model) : Prop :=
  forall s, simulation_state m = Some s -> exists vs, default_values s = Some vs.

Lemma nth_error_snoc {A} (l : list A) x k y : nth_error (l ++ [x]) k = Some y ->
  nth_error l k = Some y \/ (k = length l /\ y = x).
Proof.
  destruct (Nat.lt_ge_cases k (length l)) as [H|H].
  - rewrite nth_error_app1 by auto. auto.
  - rewrite nth_error_app2 by auto. destruct (k - length l) eqn:E; cbn.
    + intros Q. injection Q as <-. right. split; [lia|reflexivity].
    + destruct n; discriminate.
Qed.

Lemma registered_push m e v m1 r i x : push_to_state m e v = (m1, r) ->
  registered m i x -> registered m1 i x.
Proof.
  unfold push_to_state, registered. destruct (simulation_state m) as [s|] eqn:S.
  - destruct (push s e v) as [s' r'] eqn:P. intros H R s2 E. injection H as <- <-. cbn in E. injection E as <-.
    specialize (R s eq_refl).
    destruct (push_elements s e v) as (l & EL). rewrite P in EL. cbn in EL. rewrite EL.
    rewrite nth_error_app1; [exact R|]. apply nth_error_Some. congruence.
  - intros H R s2 E. injection H as <- <-. congruence.
Qed.

Lemma values_push m e v m1 r : header_values m -> push_to_state m e v = (m1, r) -> header_values m1.
Proof.
  unfold push_to_state, header_values. destruct (simulation_state m) as [s|] eqn:S.
  - destruct (push s e v) as [s' r'] eqn:P. intros V H s2 E. injection H as <- <-. cbn in E. injection E as <-.
    destruct (V s eq_refl) as (vs & D1). destruct (push_values s e v vs D1) as (l & D2). rewrite P in D2. eauto.
  - intros V H s2 E. injection H as <- <-. congruence.
Qed.

Lemma registered_new m e v m1 i : header_values m -> push_to_state m e v = (m1, Ok i) -> registered m1 i e.
Proof.
  unfold push_to_state, registered, header_values. destruct (simulation_state m) as [s|] eqn:S; [|discriminate].
  destruct (push s e v) as [s' r'] eqn:P. intros V H s2 E. injection H as <- ->. cbn in E. injection E as <-.
  destruct (V s eq_refl) as (vs & D1).
  destruct (push_cases s e v vs D1) as [(Q & _)|(Q & Q2 & _)]; rewrite P in *; cbn in *; [discriminate|].
  injection Q as ->. rewrite Q2, nth_error_app2, Nat.sub_diag by lia. reflexivity.
Qed.

Lemma indexed_same_lists m m1 :
  fenestrations m1 = fenestrations m -> hvacs m1 = hvacs m -> luminaires m1 = luminaires m ->
  (forall i e, registered m i e -> registered m1 i e) -> indexed m -> indexed m1.
Proof.
  intros E1 E2 E3 R [A B C]. split; rewrite ?E1, ?E2, ?E3; intros k x H;
    [destruct (A k x H) as (i & I & J)|destruct (B k x H) as (i & I & J)|destruct (C k x H) as (i & I & J)]; eauto.
Qed.

Lemma indexed_push m e v m1 r : push_to_state m e v = (m1, r) -> indexed m -> indexed m1.
Proof.
  intros H. destruct (push_to_state_lists _ _ _ _ _ H) as (_ & _ & _ & _ & _ & _ & _ & E8 & E9 & E10).
  apply indexed_same_lists; auto. intros i x. eapply registered_push; eauto.
Qed.

Lemma indexed_apply m o : indexed m /\ header_values m -> indexed (apply m o) /\ header_values (apply m o).
Proof.
  intros (I & V).
  destruct o as [x|x|x|x|x|x|x|x held|x|x|]; cbn [BuildingModel.apply];
    try (split; [eapply indexed_same_lists; [..|exact I]; try reflexivity; auto|exact V]; fail).
  - unfold add_object. destruct (t_space x); [destruct (found _)|]; cbn [fst]; try (split; assumption);
    (split; [eapply indexed_same_lists; [..|exact I]; try reflexivity; auto|exact V]).
  - unfold add_surface. destruct (negb _); [split; assumption|]. destruct (negb _); [split; assumption|].
    destruct (negb _); [split; assumption|]. cbn [fst].
    (split; [eapply indexed_same_lists; [..|exact I]; try reflexivity; auto|exact V]).
  - unfold BuildingModel.add_fenestration. destruct (negb _ && negb _); [split; assumption|].
    destruct (push_to_state m _ _) as [m1 r] eqn:P. pose proof (indexed_push _ _ _ _ _ P I) as I1.
    pose proof (values_push _ _ _ _ _ V P) as V1.
    destruct (push_to_state_lists _ _ _ _ _ P) as (_ & _ & _ & _ & _ & _ & _ & E8 & E9 & E10).
    destruct r as [i| |]; [|split; assumption|split; assumption].
    pose proof (registered_new _ _ _ _ _ V P) as R1.
    destruct (f_open_index x); [split; assumption|].
    assert (K : forall l2 p, let m2 := set_surfaces m1 l2 in
       indexed (set_fenestrations m2 (fenestrations m2 ++ [inherit same_dir x i p])) /\
       header_values (set_fenestrations m2 (fenestrations m2 ++ [inherit same_dir x i p]))).
    { intros l2 p m2. split; [|exact V1]. destruct I1 as [A B C]. split; cbn; [|exact B|exact C].
      intros k f H. destruct (nth_error_snoc _ _ _ _ H) as [H1|(-> & ->)]; [apply A; exact H1|].
      exists i. split; [|rewrite E8; exact R1]. unfold inherit. destruct p; [destruct (same_dir _ _)|]; reflexivity. }
    destruct (f_parent x) as [pn|].
    + destruct (cut_parent cut held (f_outline x) pn (surfaces m1)) as [[l2 [s|]]| |] eqn:C; try (split; assumption).
      apply (K l2 (Some s)).
    + cbn [fst]. destruct (K (surfaces m1) None) as (K1 & K2). split; assumption.
  - unfold BuildingModel.add_hvac. destruct (push_to_state m _ _) as [m1 r] eqn:P. pose proof (indexed_push _ _ _ _ _ P I) as I1.
    pose proof (values_push _ _ _ _ _ V P) as V1.
    destruct (push_to_state_lists _ _ _ _ _ P) as (_ & _ & _ & _ & _ & _ & _ & E8 & E9 & E10).
    destruct r as [i| |]; [|split; assumption|split; assumption].
    pose proof (registered_new _ _ _ _ _ V P) as R1.
    destruct (d_index x); [split; assumption|]. cbn [fst]. split; [|exact V1].
    destruct I1 as [A B C]. split; cbn; [exact A| |exact C].
    intros k f H. destruct (nth_error_snoc _ _ _ _ H) as [H1|(-> & ->)]; [apply B; exact H1|].
    exists i. split; [reflexivity|rewrite E9; exact R1].
  - unfold BuildingModel.add_luminaire. destruct (push_to_state m _ _) as [m1 r] eqn:P. pose proof (indexed_push _ _ _ _ _ P I) as I1.
    pose proof (values_push _ _ _ _ _ V P) as V1.
    destruct (push_to_state_lists _ _ _ _ _ P) as (_ & _ & _ & _ & _ & _ & _ & E8 & E9 & E10).
    destruct r as [i| |]; [|split; assumption|split; assumption].
    pose proof (registered_new _ _ _ _ _ V P) as R1.
    destruct (d_index x); [split; assumption|]. cbn [fst]. split; [|exact V1].
    destruct I1 as [A B C]. split; cbn; [exact A|exact B|].
    intros k f H. destruct (nth_error_snoc _ _ _ _ H) as [H1|(-> & ->)]; [apply C; exact H1|].
    exists i. split; [reflexivity|rewrite E10; exact R1].
  - split; [|intros s E; discriminate]. eapply indexed_same_lists; [..|exact I]; try reflexivity.
    intros i e _ s E. discriminate.
Qed.

Lemma indexed_history ops : indexed (history ops) /\ header_values (history ops).
Proof.
  unfold BuildingModel.history. assert (H : indexed (@model_new D G F) /\ header_values (@model_new D G F)).
  { split; [split; cbn; intros [|k]; discriminate|]. intros s E. cbn in E. injection E as <-. cbn. eauto. }
  revert H. generalize (@model_new D G F). induction ops as [|o ops IH]; cbn; intros m H; [exact H|].
  apply IH, indexed_apply, H.
Qed.

End Building.

(** C44, C45, C48: discretization of constructions *)
From Coq Require Import List Arith Reals Bool ZArith Lra Lia.
From Verif.Common Require Import Base Flt.
From Verif.Heat Require Import GasModel DiscretizationModel DiscretizationProofs.
Import ListNotations.
Open Scope R_scope.

(** * C44 *)
(** The heat capacities of the nodes add up to those of the layers that were given at least one element. *)
Theorem C44_mass : forall layers ns h a segs, length ns = length layers -> build layers ns h a = Ok segs ->
  fold_right Rplus 0 (map fst segs)
  = fold_right Rplus 0 (map (fun x => if (snd x =? 0)%nat then 0 else
        match sub (fst x) with
        | Normal s => match s_rho s, s_cp s with Some rho, Some cp => rho * cp * thickness (fst x) | _, _ => 0 end
        | Gas _ => 0
        end) (combine layers ns)).
Proof.
  intros layers ns h a segs Hl E. destruct (build_some _ _ _ _ _ E) as (els & Ee).
  destruct ns as [|n ns].
  - destruct layers; [|discriminate]. cbn in E. injection E as <-. cbn. lra.
  - rewrite (build_ok _ _ _ _ els Ee) in E by discriminate. injection E as <-.
    pose proof (node_mass_total els) as H1. pose proof (elements_capacity _ _ _ _ _ _ Ee) as H2.
    unfold stab, tab. rewrite map_map. cbn [fst]. change (fold_right Rplus 0) with sumR. unfold tab in H1. etransitivity; [exact H1|]. rewrite H2. reflexivity.
Qed.

(** Hence the total depends on which layers are massive only, not on the number of elements. *)
Theorem C44_any_subdivision : forall layers ns ns' h a h' a' segs segs',
  length ns = length layers -> length ns' = length layers -> map (fun n => (n =? 0)%nat) ns = map (fun n => (n =? 0)%nat) ns' ->
  build layers ns h a = Ok segs -> build layers ns' h' a' = Ok segs' ->
  fold_right Rplus 0 (map fst segs) = fold_right Rplus 0 (map fst segs').
Proof.
  intros layers ns ns' h a h' a' segs segs' Hl Hl' Hz E E'. rewrite (C44_mass _ _ _ _ _ Hl E), (C44_mass _ _ _ _ _ Hl' E').
  f_equal. clear - Hl Hl' Hz. revert ns ns' Hl Hl' Hz. induction layers as [|lay layers IH]; intros [|n ns] [|n' ns'] Hl Hl' Hz; try discriminate; [reflexivity|].
  cbn [combine map fst snd] in *. injection Hz as Hz0 Hz1. rewrite Hz0. f_equal. apply IH; auto.
Qed.

(** the elements, layer by layer *)
Lemma elements_by_layer layers h a : forall ns jl els, elements_from layers h a jl ns = Some els ->
  exists ells, els = concat ells /\ length ells = length ns /\ forall q n, nth_error ns q = Some n ->
    exists lay e, nth_error layers (jl + q) = Some lay /\
      element_spec (prev_layer layers (jl + q)) (nth_error layers (jl + q + 1)) lay n h a = Some e /\ nth_error ells q = Some (repeat e (reps n)).
Proof.
  induction ns as [|n ns IH]; intros jl els E; cbn [elements_from] in E.
  - injection E as <-. exists []. repeat split. intros [|q] n; discriminate.
  - destruct (nth_error layers jl) as [lay|] eqn:El; [|discriminate].
    destruct (element_spec (prev_layer layers jl) (nth_error layers (jl + 1)) lay n h a) as [e|] eqn:Es; [|discriminate].
    destruct (elements_from layers h a (jl + 1) ns) as [l|] eqn:Ef; [|discriminate]. injection E as <-.
    destruct (IH _ _ Ef) as (ells & E1 & E2 & E3). exists (repeat e (reps n) :: ells). cbn [concat length]. split; [now rewrite E1|].
    split; [lia|]. intros [|q] n' Hq; cbn in Hq.
    + injection Hq as <-. rewrite Nat.add_0_r. exists lay, e. auto.
    + destruct (E3 _ _ Hq) as (lay' & e' & H1 & H2 & H3). replace (jl + S q)%nat with (jl + 1 + q)%nat by lia. exists lay', e'. auto.
Qed.

(** Exactly which nodes are made: a layer becomes [n] elements (one if no mass is to be considered) of equal mass and U-value; an element
    gives half its mass to each of the two nodes it joins. *)
Theorem C44_nodes : forall layers ns h a segs, length ns = length layers -> layers <> [] -> build layers ns h a = Ok segs ->
  exists els : list (list (R * uvalue)),
    length els = length layers /\
    (forall j lay n, nth_error layers j = Some lay -> nth_error ns j = Some n ->
       exists m u, nth_error els j = Some (repeat (m, u) (if (n =? 0)%nat then 1%nat else n)) /\
         match sub lay with
         | Normal s =>
             (exists k, s_k s = Some k /\ u = Solid (k / (thickness lay / INR (if (n =? 0)%nat then 1%nat else n)))) /\
             (if (n =? 0)%nat then m = 0
              else exists rho cp, s_rho s = Some rho /\ s_cp s = Some cp /\ m = rho * cp * (thickness lay / INR n))
         | Gas g =>
             m = 0 /\ exists gs p x sp sx, gas_of g = Ok gs /\ (0 < j)%nat /\
               nth_error layers (j - 1) = Some p /\ nth_error layers (j + 1) = Some x /\ sub p = Normal sp /\ sub x = Normal sx /\
               u = Cavity (mkCavity (thickness lay) h gs (or_default (s_back_em sp) (84 / 100)) (or_default (s_front_em sx) (84 / 100)) a)
         end) /\
    length segs = (length (concat els) + 1)%nat /\
    forall i s, nth_error segs i = Some s ->
      fst s = (match i with O => 0 | S i' => match nth_error (concat els) i' with Some e => fst e / 2 | None => 0 end end)
              + (match nth_error (concat els) i with Some e => fst e / 2 | None => 0 end) /\
      snd s = match nth_error (concat els) i with Some e => snd e | None => Back end.
Proof.
  intros layers ns h a segs Hl Hne E. destruct (build_some _ _ _ _ _ E) as (els & Ee).
  assert (Hns : ns <> []) by (destruct ns; [destruct layers; [easy|discriminate]|discriminate]).
  rewrite (build_ok _ _ _ _ els Ee Hns) in E. injection E as <-.
  destruct (elements_by_layer _ _ _ _ _ _ Ee) as (ells & E1 & E2 & E3). exists ells. split; [lia|]. split; [|split].
  - intros j lay n Hj Hn. destruct (E3 _ _ Hn) as (lay' & [m u] & H1 & H2 & H3). cbn [Nat.add] in *. assert (lay' = lay) by congruence. subst lay'.
    exists m, u. split; [exact H3|]. clear H3 E3. unfold element_spec in H2. fold (reps n). destruct (sub lay) as [s|g].
    + destruct (s_k s) as [k|]; [|discriminate]. destruct (n =? 0)%nat.
      * assert (m = 0) by congruence. split; [exists k; split; [reflexivity|congruence]|assumption].
      * destruct (s_rho s) as [rho|]; [|discriminate]. destruct (s_cp s) as [cp|]; [|discriminate].
        split; [exists k; split; [reflexivity|congruence]|]. exists rho, cp. repeat split. congruence.
    + destruct (gas_of g) as [gs| |]; try discriminate. unfold prev_layer in H2. destruct (Nat.eqb_spec j 0); [discriminate|].
      destruct (nth_error layers (j - 1)) as [p|]; [|discriminate]. destruct (nth_error layers (j + 1)) as [x|]; [|discriminate].
      destruct (sub p) as [sp|] eqn:Esp; [|discriminate]. destruct (sub x) as [sx|] eqn:Esx; [|discriminate]. split; [congruence|].
      exists gs, p, x, sp, sx. repeat split; auto; try lia. congruence.
  - rewrite <- E1. unfold stab. apply tab_length.
  - rewrite <- E1. intros i s Hs. unfold stab in Hs. rewrite nth_error_tab in Hs. destruct (Nat.ltb_spec i (length els + 1)) as [Hi|Hi]; [|discriminate].
    injection Hs as <-. cbn [fst snd]. unfold node_mass, node_u, el_mass, el_u. split.
    + rewrite Rplus_comm. f_equal.
      * destruct i as [|i]; [reflexivity|]. replace (S i - 1)%nat with i by lia. change (0 <? S i)%nat with true. cbn [andb].
        destruct (Nat.ltb_spec i (length els)); [|lia]. now rewrite (nth_error_nth' els (0, UNone)) by lia.
      * destruct (Nat.ltb_spec i (length els)) as [H|H]; [now rewrite (nth_error_nth' els (0, UNone)) by lia|].
        rewrite (proj2 (nth_error_None els i)) by lia. reflexivity.
    + destruct (Nat.ltb_spec i (length els)) as [H|H]; [now rewrite (nth_error_nth' els (0, UNone)) by lia|].
      rewrite (proj2 (nth_error_None els i)) by lia. destruct (Nat.eqb_spec i (length els + 1 - 1)); [reflexivity|lia].
Qed.

(** The construction is accepted exactly when every solid layer has the needed values and every gas layer has a known gas and lies between
    two solid layers. *)
Definition buildable (layers : list layer) (ns : list nat) : Prop :=
  forall j lay n, nth_error layers j = Some lay -> nth_error ns j = Some n ->
    match sub lay with
    | Normal s => s_k s <> None /\ (n <> 0%nat -> s_rho s <> None /\ s_cp s <> None)
    | Gas g => g <> None /\ (0 < j)%nat /\ exists p x sp sx, nth_error layers (j - 1) = Some p /\ nth_error layers (j + 1) = Some x /\ sub p = Normal sp /\ sub x = Normal sx
    end.
Lemma element_spec_buildable layers ns h a j lay n : buildable layers ns -> nth_error layers j = Some lay -> nth_error ns j = Some n ->
  element_spec (prev_layer layers j) (nth_error layers (j + 1)) lay n h a <> None.
Proof.
  intros H H1 H2. specialize (H _ _ _ H1 H2). unfold element_spec. destruct (sub lay) as [s|g].
  - destruct H as [Ha Hb]. destruct (s_k s); [|easy]. destruct (Nat.eqb_spec n 0); [discriminate|]. destruct (Hb n0) as [Hc Hd].
    destruct (s_rho s); [|easy]. destruct (s_cp s); easy.
  - destruct H as (Hg & Hj & p & x & sp & sx & E1 & E2 & E3 & E4). unfold prev_layer. destruct (Nat.eqb_spec j 0); [lia|]. rewrite E1, E2, E3, E4.
    destruct g as [[]|]; cbn; easy.
Qed.
Theorem C44_accepted : forall layers ns h a, length ns = length layers ->
  ((exists segs, build layers ns h a = Ok segs) <-> buildable layers ns).
Proof.
  intros layers ns h a Hl. split.
  - intros (segs & E). intros j lay n Hj Hn.
    assert (Hne : layers <> []) by (destruct layers; [destruct j; discriminate|discriminate]).
    destruct (C44_nodes _ _ _ _ _ Hl Hne E) as (els & _ & H & _). destruct (H _ _ _ Hj Hn) as (m & u & _ & Hm).
    destruct (sub lay) as [s|g].
    + destruct Hm as [(k & Hk & _) Hm]. split; [congruence|]. intros Hn0. destruct (Nat.eqb_spec n 0); [easy|].
      destruct Hm as (rho & cp & E1 & E2 & _). split; congruence.
    + destruct Hm as (_ & gs & p & x & sp & sx & E1 & E2 & E3 & E4 & E5 & E6 & _). split; [intros ->; discriminate|]. split; [exact E2|].
      exists p, x, sp, sx. auto.
  - intros H. destruct (elements_from layers h a 0 ns) as [els|] eqn:Ee.
    + destruct ns as [|n ns]; [eexists; reflexivity|]. rewrite (build_ok _ _ _ _ els Ee) by discriminate. eauto.
    + exfalso. revert Ee.
      assert (G : forall ns' jl, (forall q, nth_error ns' q = nth_error ns (jl + q)) -> elements_from layers h a jl ns' <> None).
      { induction ns' as [|n ns' IH]; intros jl Hq; cbn [elements_from]; [discriminate|].
        pose proof (Hq 0%nat) as H0. rewrite Nat.add_0_r in H0. cbn in H0. symmetry in H0.
        assert (Hj : (jl < length layers)%nat) by (rewrite <- Hl; apply nth_error_Some; congruence).
        destruct (nth_error layers jl) as [lay|] eqn:El; [|apply nth_error_None in El; lia].
        pose proof (element_spec_buildable layers ns h a jl lay n H El H0) as Hs.
        destruct (element_spec (prev_layer layers jl) (nth_error layers (jl + 1)) lay n h a); [|easy].
        pose proof (IH (jl + 1)%nat) as IH'. destruct (elements_from layers h a (jl + 1) ns'); [discriminate|]. exfalso. apply IH'; [|reflexivity].
        intros q. specialize (Hq (S q)). cbn in Hq. rewrite Hq. f_equal. lia. }
      apply G. reflexivity.
Qed.

(** The resistance of a wall of solid layers is the sum of those of its layers, however they are cut. *)
Lemma r_value_stab els r : (forall i e, nth_error els i = Some e -> exists v, snd e = Solid v) ->
  r_value_loop (map (fun e => (fst e, snd e)) els ++ [(0, Back)]) r
  = (let t := fold_left (fun r e => r + match snd e with Solid v => 1 / v | _ => 0 end) els r in if Rltb 0 t then Ok t else Panic).
Proof.
  revert r. induction els as [|[m u] els IH]; intros r H; cbn [map List.app fold_left fst snd r_value_loop].
  - rewrite Rplus_0_r. reflexivity.
  - destruct (H 0%nat (m, u) eq_refl) as (v & Hv). cbn in Hv. subst u. rewrite IH; [reflexivity|]. intros i e Hi. apply (H (S i) e Hi).
Qed.
Lemma r_value_masses segs segs' r : map snd segs = map snd segs' -> r_value_loop segs r = r_value_loop segs' r.
Proof.
  revert segs' r. induction segs as [|[m u] segs IH]; intros [|[m' u'] segs'] r H; try discriminate; [reflexivity|].
  cbn in H. injection H as -> H. cbn [r_value_loop]. destruct u'; auto.
Qed.
Lemma fold_left_plus {A} (g : A -> R) l r : fold_left (fun r e => r + g e) l r = r + sumR (map g l).
Proof. revert r. induction l as [|x l IH]; intros r; cbn [fold_left map sumR fold_right]; [lra|]. rewrite IH. unfold sumR. lra. Qed.
Definition resistance (lay : layer) : R := match sub lay with Normal s => match s_k s with Some k => thickness lay / k | None => 0 end | Gas _ => 0 end.
Lemma elements_resistance layers h a : forall ns jl els, elements_from layers h a jl ns = Some els ->
  (forall lay, In lay layers -> exists s k, sub lay = Normal s /\ s_k s = Some k /\ 0 < k /\ 0 < thickness lay) ->
  sumR (map (fun e => match snd e with Solid v => 1 / v | _ => 0 end) els)
  = sumR (map (fun x => resistance (fst x)) (combine (skipn jl layers) ns)).
Proof.
  induction ns as [|n ns IH]; intros jl els E Hin; cbn [elements_from] in E.
  - injection E as <-. destruct (skipn jl layers); reflexivity.
  - destruct (nth_error layers jl) as [lay|] eqn:El; [|discriminate].
    destruct (element_spec (prev_layer layers jl) (nth_error layers (jl + 1)) lay n h a) as [[m u]|] eqn:Es; [|discriminate].
    destruct (elements_from layers h a (jl + 1) ns) as [l|] eqn:Ef; [|discriminate]. injection E as <-.
    assert (Hs : skipn jl layers = lay :: skipn (jl + 1) layers).
    { clear - El. revert jl El. induction layers as [|x layers IHl]; intros [|jl] El; cbn in *; try discriminate.
      - injection El as ->. reflexivity.
      - rewrite IHl by exact El. replace (jl + 1)%nat with (S jl) by lia. reflexivity. }
    rewrite Hs. cbn [combine map fst snd]. rewrite map_app, sumR_app, (IH _ _ Ef Hin).
    destruct (Hin lay (nth_error_In _ _ El)) as (s & k & E1 & E2 & Hk & Ht).
    assert (Hu : u = Solid (k / (thickness lay / INR (reps n)))).
    { unfold element_spec in Es. rewrite E1, E2 in Es. destruct (n =? 0)%nat; [congruence|]. destruct (s_rho s); [|discriminate]. destruct (s_cp s); [congruence|discriminate]. }
    assert (Hr : map (fun e : R * uvalue => match snd e with Solid v => 1 / v | _ => 0 end) (repeat (m, u) (reps n)) = repeat (1 / (k / (thickness lay / INR (reps n)))) (reps n)).
    { rewrite Hu. clear. set (v := k / (thickness lay / INR (reps n))). clearbody v. generalize (reps n). intros q.
      induction q; cbn; [reflexivity|]. f_equal. assumption. }
    rewrite Hr, sumR_repeat. unfold resistance at 2. rewrite E1, E2.
    replace (INR (reps n) * (1 / (k / (thickness lay / INR (reps n))))) with (thickness lay / k); [reflexivity|].
    assert (0 < INR (reps n)) by (apply lt_0_INR; pose proof (reps_pos n); lia). field. repeat split; lra.
Qed.
Theorem C44_resistance : forall layers ns h a segs, length ns = length layers -> layers <> [] -> build layers ns h a = Ok segs ->
  (forall lay, In lay layers -> exists s k, sub lay = Normal s /\ s_k s = Some k /\ 0 < k /\ 0 < thickness lay) ->
  r_value segs = Ok (fold_right Rplus 0 (map (fun lay => match sub lay with Normal s => match s_k s with Some k => thickness lay / k | None => 0 end | Gas _ => 0 end) layers)).
Proof.
  intros layers ns h a segs Hl Hne E Hin. destruct (build_some _ _ _ _ _ E) as (els & Ee).
  assert (Hns : ns <> []) by (destruct ns; [destruct layers; [easy|discriminate]|discriminate]).
  rewrite (build_ok _ _ _ _ els Ee Hns) in E. injection E as <-. unfold r_value.
  rewrite (r_value_masses _ (map (fun e => (fst e, snd e)) els ++ [(0, Back)])).
  2:{ rewrite map_app, map_map. cbn [map snd]. unfold stab. rewrite Nat.add_1_r, tab_snoc, map_app. f_equal.
      - unfold tab. rewrite map_map. cbn [snd]. transitivity (map snd (tab (length els) (fun i => nth i els (0, UNone)))); [|now rewrite tab_nth].
        unfold tab. rewrite map_map. apply map_ext_in.
        intros i Hi. apply in_seq in Hi. unfold node_u, el_u. destruct (Nat.ltb_spec i (length els)); [reflexivity|lia].
      - cbn [map snd]. unfold node_u. destruct (Nat.ltb_spec (length els) (length els)); [lia|]. destruct (Nat.eqb_spec (length els) (S (length els) - 1)); [reflexivity|lia]. }
  rewrite r_value_stab.
  2:{ destruct (elements_by_layer _ _ _ _ _ _ Ee) as (ells & E1 & E2 & E3). intros i e Hi. rewrite E1 in Hi. apply nth_error_In, in_concat in Hi.
      destruct Hi as (l & Hl1 & Hl2). apply In_nth_error in Hl1. destruct Hl1 as (q & Hq).
      assert (Hqn : (q < length ns)%nat) by (rewrite <- E2; apply nth_error_Some; congruence).
      destruct (nth_error ns q) as [n|] eqn:En; [|apply nth_error_None in En; lia].
      destruct (E3 _ _ En) as (lay & e' & H1 & H2 & H3). rewrite H3 in Hq. injection Hq as <-. apply repeat_spec in Hl2. subst e'.
      destruct (Hin lay (nth_error_In _ _ H1)) as (s & k & F1 & F2 & _). unfold element_spec in H2. rewrite F1, F2 in H2.
      destruct (n =? 0)%nat; [injection H2 as <-; eexists; reflexivity|]. destruct (s_rho s); [|discriminate]. destruct (s_cp s); [|discriminate]. injection H2 as <-. eexists; reflexivity. }
  rewrite (fold_left_plus (fun e : R * uvalue => match snd e with Solid v => 1 / v | _ => 0 end)), Rplus_0_l.
  rewrite (elements_resistance _ _ _ _ _ _ Ee Hin). cbn [skipn].
  assert (Hm : map (fun x : layer * nat => resistance (fst x)) (combine layers ns) = map resistance layers).
  { clear - Hl. revert ns Hl. induction layers as [|x layers IH]; intros [|n ns] Hl; try discriminate; [reflexivity|]. cbn. f_equal. apply IH. cbn in Hl; lia. }
  rewrite Hm. change (map (fun lay => match sub lay with Normal s => match s_k s with Some k => thickness lay / k | None => 0 end | Gas _ => 0 end) layers) with (map resistance layers).
  change (fold_right Rplus 0) with sumR. cbv zeta.
  assert (Hpos : 0 < sumR (map resistance layers)).
  { clear - Hin Hne. assert (H0 : forall l, (forall lay, In lay l -> exists s k, sub lay = Normal s /\ s_k s = Some k /\ 0 < k /\ 0 < thickness lay) -> 0 <= sumR (map resistance l)).
    { induction l as [|x l IH]; intros H; cbn; [lra|]. destruct (H x (or_introl eq_refl)) as (s & k & F1 & F2 & F3 & F4).
      unfold resistance at 1. rewrite F1, F2. pose proof (Rdiv_lt_0_compat _ _ F4 F3). specialize (IH (fun lay Hi => H lay (or_intror Hi))). unfold sumR in IH. lra. }
    destruct layers as [|x l]; [easy|]. specialize (H0 l (fun lay Hi => Hin lay (or_intror Hi))).
    destruct (Hin x (or_introl eq_refl)) as (s & k & F1 & F2 & F3 & F4). cbn. unfold resistance at 1. rewrite F1, F2. pose proof (Rdiv_lt_0_compat _ _ F4 F3). unfold sumR in H0. lra. }
  destruct (Rltb_spec 0 (sumR (map resistance layers))); [reflexivity|lra].
Qed.

Definition concrete : normal := mkNormal (Some (17 / 10)) (Some 2400) (Some 900) None None.
Definition steel : normal := mkNormal (Some 50) (Some 7800) (Some 480) None (Some (5 / 10)).
Example C44_example :
  let layers := [mkLayer (1 / 1000) (Normal steel); mkLayer (2 / 100) (Gas (Some Argon)); mkLayer (1 / 10) (Normal concrete)] in
  exists segs, build layers [0; 0; 2]%nat 1 0 = Ok segs /\ map fst segs = [0; 0; 2400 * 900 * (1 / 10) / 4; 2400 * 900 * (1 / 10) / 2; 2400 * 900 * (1 / 10) / 4].
Proof.
  cbv zeta. eexists. split; [apply build_ok; [reflexivity|discriminate]|]. cbn [List.app repeat reps Nat.eqb length Nat.add].
  unfold stab, tab. rewrite map_map. cbn [seq map fst]. unfold node_mass, el_mass. cbn [Nat.ltb Nat.leb nth fst Nat.sub andb INR thickness]. repeat apply f_equal2; try reflexivity; lra.
Qed.

(** * C45 *)
(** [get_chunks] never fails. A node lies in a massive chunk exactly when its mass is at least 1e-5, otherwise in a massless one; chunks are not empty,
    do not touch chunks of the same kind, and each begins where one of the other kind ends (or at the front of the wall) and ends where one of the other
    kind begins (or at the back). *)
Definition covers (chunks : list (nat * nat)) (i : nat) : Prop := exists c, In c chunks /\ (fst c <= i < snd c)%nat.
Lemma chunks_in lo l a b : chunks_from lo l -> In (a, b) l -> (lo <= a < b)%nat.
Proof.
  revert lo. induction l as [|[x y] l IH]; intros lo H Hin; [easy|]. destruct H as (H1 & H2 & H3). destruct Hin as [[= -> ->]|Hin]; [lia|].
  specialize (IH _ H3 Hin). lia.
Qed.
Lemma chunks_apart lo l a b c d : chunks_from lo l -> In (a, b) l -> In (c, d) l -> (a, b) <> (c, d) -> (b < c \/ d < a)%nat.
Proof.
  revert lo. induction l as [|[x y] l IH]; intros lo H Hin1 Hin2 Hne; [easy|]. destruct H as (H1 & H2 & H3).
  destruct Hin1 as [E1|Hin1], Hin2 as [E2|Hin2].
  - congruence.
  - injection E1 as -> ->. pose proof (chunks_in _ _ _ _ H3 Hin2). lia.
  - injection E2 as -> ->. pose proof (chunks_in _ _ _ _ H3 Hin1). lia.
  - eapply IH; eauto.
Qed.
Lemma alternate m nm N : chunks_from 0 m -> chunks_from 0 nm -> (forall i, (i < N)%nat <-> covers m i \/ covers nm i) -> (forall i, covers m i -> covers nm i -> False) ->
  forall a b, In (a, b) m -> (a = 0%nat \/ exists x, In (x, a) nm) /\ (b = N \/ exists y, In (b, y) nm).
Proof.
  intros Hm Hnm Hcov Hdis a b Hin. pose proof (chunks_in _ _ _ _ Hm Hin) as Hab.
  assert (Ha : covers m a) by (exists (a, b); cbn; split; [exact Hin|lia]).
  assert (Hb : covers m (b - 1)) by (exists (a, b); cbn; split; [exact Hin|lia]).
  split.
  - destruct (Nat.eq_dec a 0) as [|Hne]; [now left|right].
    assert (Hc : covers nm (a - 1)).
    { assert (Hlt : (a < N)%nat) by (apply Hcov; now left). destruct (proj1 (Hcov (a - 1)%nat) ltac:(lia)) as [(c & Hc1 & Hc2)|Hc]; [|exact Hc]. exfalso. destruct c as [c d]. cbn in Hc2.
      destruct (chunks_apart _ _ a b c d Hm Hin Hc1); [|lia|lia]. intros [= -> ->]. lia. }
    destruct Hc as ([x y] & Hc1 & Hc2). cbn in Hc2. exists x. replace a with y; [exact Hc1|]. destruct (Nat.eq_dec y a) as [|Hya]; [assumption|exfalso].
    apply (Hdis a Ha). exists (x, y). cbn. split; [exact Hc1|lia].
  - destruct (Nat.eq_dec b N) as [|Hne]; [now left|right]. assert (Hlt : (b - 1 < N)%nat) by (apply Hcov; now left).
    assert (Hc : covers nm b).
    { destruct (proj1 (Hcov b) ltac:(lia)) as [(c & Hc1 & Hc2)|Hc]; [|exact Hc]. exfalso. destruct c as [c d]. cbn in Hc2.
      destruct (chunks_apart _ _ a b c d Hm Hin Hc1); [|lia|lia]. intros [= -> ->]. lia. }
    destruct Hc as ([x y] & Hc1 & Hc2). cbn in Hc2. exists y. replace b with x; [exact Hc1|]. destruct (Nat.eq_dec x b) as [|Hxb]; [assumption|exfalso].
    apply (Hdis (b - 1)%nat Hb). exists (x, y). cbn. split; [exact Hc1|lia].
Qed.

Theorem C45_chunks : forall segs, exists mass nomass, get_chunks segs = Ok (mass, nomass) /\
  (forall i, covers mass i <-> exists m u, nth_error segs i = Some (m, u) /\ 1 / 10 ^ 5 <= m) /\
  (forall i, covers nomass i <-> exists m u, nth_error segs i = Some (m, u) /\ m < 1 / 10 ^ 5) /\
  (forall i, ~ (covers mass i /\ covers nomass i)) /\
  (forall i, (i < length segs)%nat <-> covers mass i \/ covers nomass i) /\
  (forall a b, In (a, b) mass -> (a < b <= length segs)%nat /\ (a = 0%nat \/ exists x, In (x, a) nomass) /\ (b = length segs \/ exists y, In (b, y) nomass)) /\
  (forall a b, In (a, b) nomass -> (a < b <= length segs)%nat /\ (a = 0%nat \/ exists x, In (x, a) mass) /\ (b = length segs \/ exists y, In (b, y) mass)) /\
  (forall kind i j a b c d, kind = mass \/ kind = nomass -> nth_error kind i = Some (a, b) -> nth_error kind j = Some (c, d) -> (i < j)%nat -> (b < c)%nat).
Proof.
  intros segs. destruct (get_chunks_ok segs) as (m & nm & E & Hm & Hnm & H1 & H2). exists m, nm. split; [exact E|].
  assert (G1 : forall i, covers m i <-> exists x u, nth_error segs i = Some (x, u) /\ 1 / 10 ^ 5 <= x).
  { intros i. unfold covers. rewrite H1. split; [intros ([x u] & Ha & Hb); eauto|intros (x & u & Ha & Hb); exists (x, u); auto]. }
  assert (G2 : forall i, covers nm i <-> exists x u, nth_error segs i = Some (x, u) /\ x < 1 / 10 ^ 5).
  { intros i. unfold covers. rewrite H2. split; [intros ([x u] & Ha & Hb); eauto|intros (x & u & Ha & Hb); exists (x, u); auto]. }
  assert (G3 : forall i, covers m i -> covers nm i -> False).
  { intros i Ha Hb. apply G1 in Ha. apply G2 in Hb. destruct Ha as (x & u & Ea & Ha), Hb as (x' & u' & Eb & Hb). assert (x = x') by congruence. lra. }
  assert (G4 : forall i, (i < length segs)%nat <-> covers m i \/ covers nm i).
  { intros i. rewrite G1, G2. split.
    - intros Hi. destruct (nth_error segs i) as [[x u]|] eqn:Ei; [|apply nth_error_None in Ei; lia]. destruct (Rlt_le_dec x (1 / 10 ^ 5)); [right|left]; eauto.
    - intros [(x & u & Ei & _)|(x & u & Ei & _)]; apply nth_error_Some; congruence. }
  assert (G5 : forall i, (i < length segs)%nat <-> covers nm i \/ covers m i) by (intros i; rewrite G4; tauto).
  split; [exact G1|]. split; [exact G2|]. split; [intros i [Ha Hb]; eauto|]. split; [exact G4|]. split; [|split].
  - intros a b Hin. pose proof (chunks_in _ _ _ _ Hm Hin). split; [|now apply (alternate m nm)].
    split; [lia|]. assert ((b - 1 < length segs)%nat); [|lia]. apply G4. left. exists (a, b). cbn. split; [exact Hin|lia].
  - intros a b Hin. pose proof (chunks_in _ _ _ _ Hnm Hin). split; [|apply (alternate nm m); eauto].
    split; [lia|]. assert ((b - 1 < length segs)%nat); [|lia]. apply G4. right. exists (a, b). cbn. split; [exact Hin|lia].
  - intros kind i j a b c d Hk Hi Hj Hij.
    assert (Hc : chunks_from 0 kind) by (destruct Hk as [->| ->]; assumption). clear - Hc Hi Hj Hij.
    generalize dependent 0%nat. revert i j Hi Hj Hij. induction kind as [|[x y] kind IH]; intros i j Hi Hj Hij lo Hc; [destruct i; discriminate|].
    destruct Hc as (Hc1 & Hc2 & Hc3). destruct j as [|j]; [lia|]. cbn in Hj. destruct i as [|i].
    + cbn in Hi. injection Hi as -> ->. apply nth_error_In in Hj. pose proof (chunks_in _ _ _ _ Hc3 Hj). lia.
    + cbn in Hi. apply (IH i j Hi Hj ltac:(lia) _ Hc3).
Qed.

Example C45_example : get_chunks [(0, Solid 1); (5, Solid 1); (7, Solid 2); (0, Solid 3); (0, Solid 1); (2, Back)] = Ok ([(1, 3); (5, 6)]%nat, [(0, 1); (3, 5)]%nat).
Proof.
  unfold get_chunks. cbn [length seq combine filter map fst snd].
  assert (H5 : 0 < 1 / 10 ^ 5 < 1) by (split; [apply Rdiv_lt_0_compat; [lra|apply pow_lt; lra]|]; simpl; lra).
  repeat match goal with |- context [Rleb ?a ?b] => destruct (Rleb_spec a b); [try lra|try lra] end.
  repeat match goal with |- context [Rltb ?a ?b] => destruct (Rltb_spec a b); [try lra|try lra] end. reflexivity.
Qed.

(** * C48 *)
(** [lay] cut in [e] elements is stable with the step [dt]: the eigenvalue that [min_dx] reasons with is at least [-s] *)
Definition layer_stable (s dt : R) (lay : layer) (e : nat) : Prop :=
  match sub lay with
  | Normal n => exists k rho cp, s_k n = Some k /\ s_rho n = Some rho /\ s_cp n = Some cp /\
      let dx := thickness lay / INR e in dt / (MAX_RS * rho * cp * dx) + 2 * dt * k / (rho * cp * dx ^ 2) <= s
  | Gas _ => False
  end.

Lemma layer_ok_stable model_dt max_dx min_dt n dt q lay e : 0 < model_dt -> physical lay -> layer_ok model_dt max_dx min_dt n lay e -> e <> 0%nat ->
  0 <= q -> dt <= q * (model_dt / INR n) -> layer_stable (q / 2) dt lay e.
Proof.
  intros Hd Hp [[He _]|(n' & Hn & _ & Hok)] Hne Hq Hdt; [easy|]. unfold nsubs_ok in Hok. unfold physical in Hp. unfold layer_stable.
  destruct (sub lay) as [s|]; [|easy].
  destruct Hok as (H1 & H2 & H3 & H4 & k & rho & cp & Ek & Er & Ec & Hst). destruct Hp as (Ht & k' & rho' & cp' & Ek' & Er' & Ec' & Hk & Hr & Hc).
  assert (k' = k) by congruence. assert (rho' = rho) by congruence. assert (cp' = cp) by congruence. subst k' rho' cp'.
  exists k, rho, cp. do 3 (split; [assumption|]). cbv zeta.
  assert (HIe : 0 < INR e) by (apply lt_0_INR; lia). assert (HIn : 0 < INR n') by (apply lt_0_INR; lia). assert (INR n' <= INR n) by (apply le_INR; lia).
  assert (Hle : model_dt / INR n <= model_dt / INR n') by (apply Rmult_le_compat_l; [lra|]; apply Rinv_le_contravar; lra).
  apply (stable_mono (model_dt / INR n') dt k rho cp _ (1 / 2) (q / 2) q); try lra; try assumption.
  - now apply Rdiv_lt_0_compat.
  - nra.
  - now apply Rdiv_lt_0_compat.
Qed.

(** For every construction with positive properties the search ends without failing (its assertions, including those of debug builds, hold). If [n] is the
    number of sub-steps found, every layer that got [e > 0] elements is a solid, has as few elements as needed for them not to be thicker than [max_dx], and
    is stable (by a factor two) for the sub-step [model_dt / n], which is not below [min_dt]. *)
Theorem C48_walls : forall layers model_dt max_dx min_dt, 0 < model_dt -> 0 < max_dx -> Forall physical layers ->
  exists n els, discretize_construction layers model_dt max_dx min_dt = Ok (n, els) /\ length els = length layers /\ (n <= 13)%nat /\
    (n <> 0%nat -> min_dt <= model_dt / INR n) /\
    forall j lay e, nth_error layers j = Some lay -> nth_error els j = Some e -> e <> 0%nat ->
      thickness lay / INR e <= max_dx /\ (INR e - 1) * max_dx < thickness lay /\ layer_stable (1 / 2) (model_dt / INR n) lay e.
Proof.
  intros layers model_dt max_dx min_dt Hd Hx Hp. destruct (discretize_spec layers model_dt max_dx min_dt Hd Hx Hp) as (n & els & E & HF & Hn).
  exists n, els. split; [exact E|]. split; [clear - HF; induction HF; cbn; congruence|].
  assert (Hnb : n = 0%nat \/ (1 <= n <= 13)%nat /\ min_dt <= model_dt / INR n).
  { destruct Hn as [[-> _]|Hn]; [now left|right]. apply Exists_exists in Hn. destruct Hn as ([lay e] & Hin & q & Eq). cbn [fst] in Eq.
    assert (Hph : physical lay) by (apply in_combine_l in Hin; rewrite Forall_forall in Hp; now apply Hp).
    destruct (nsegments_spec lay model_dt max_dx min_dt Hph Hd Hx) as [(e' & n' & E' & Hok)|E']; [|congruence].
    assert (n' = n) by congruence. subst n'. unfold nsubs_ok in Hok. destruct (sub lay); [|easy]. split; [lia|]. tauto. }
  split; [lia|]. split; [intros Hne; destruct Hnb as [->|[_ Hnb]]; [easy|exact Hnb]|].
  intros j lay e Hj He Hne.
  assert (Hok : layer_ok model_dt max_dx min_dt n lay e).
  { clear - HF Hj He. revert j Hj He. induction HF as [|x y l l' H HF IH]; intros [|j] Hj He; cbn in *; try discriminate; [congruence|eauto]. }
  assert (Hph : physical lay) by (rewrite Forall_forall in Hp; apply Hp; eapply nth_error_In; exact Hj).
  assert (Hs : layer_stable (1 / 2) (model_dt / INR n) lay e).
  { apply (layer_ok_stable model_dt max_dx min_dt n _ 1); auto; lra. }
  destruct Hok as [[H0 _]|(n' & _ & _ & Hok)]; [easy|]. unfold nsubs_ok in Hok. destruct (sub lay); [|easy].
  destruct Hok as (He1 & _ & Ee & _). pose proof (ceilR_spec (thickness lay / max_dx)) as [Hc1 Hc2]. rewrite <- Ee in Hc1, Hc2.
  assert (HIe : 0 < INR e) by (apply lt_0_INR; lia).
  assert (Et : thickness lay / max_dx * max_dx = thickness lay) by (field; lra).
  split; [|split; [nra|exact Hs]].
  apply (Rmult_le_reg_r (INR e)); [exact HIe|]. unfold Rdiv. rewrite Rmult_assoc, Rinv_l by lra. nra.
Qed.

(** The number of sub-steps of a layer is the least that meets the condition; a solid layer is treated as massless only if no number up to 13 with sub-steps
    of at least [min_dt] does. *)
Theorem C48_least : forall lay s k rho cp model_dt max_dx min_dt, sub lay = Normal s -> s_k s = Some k -> s_rho s = Some rho -> s_cp s = Some cp ->
  0 < thickness lay -> 0 < k -> 0 < rho -> 0 < cp -> 0 < model_dt -> 0 < max_dx ->
  let dx := thickness lay / IZR (ceilR (thickness lay / max_dx)) in
  let fits n := (1 <= n <= 13)%nat /\ min_dt <= model_dt / INR n /\ exists m, min_dx (model_dt / INR n) k rho cp = Ok m /\ 2 * m <= dx in
  (exists e n, nsegments model_dt max_dx min_dt (thickness lay) (sub lay) = Ok (Some (e, n)) /\ fits n /\ forall q, fits q -> (n <= q)%nat)
  \/ nsegments model_dt max_dx min_dt (thickness lay) (sub lay) = Ok None /\ forall q, ~ fits q.
Proof.
  intros lay s k rho cp model_dt max_dx min_dt Es Ek Er Ec Ht Hk Hr Hc Hd Hx dx fits.
  assert (Hph : physical lay) by (unfold physical; rewrite Es; split; [exact Ht|]; exists k, rho, cp; auto 10).
  destruct (nsegments_spec lay model_dt max_dx min_dt Hph Hd Hx) as [(e & n & E & _)|E].
  - left. exists e, n. split; [exact E|]. unfold nsegments in E. rewrite Es, Ek, Er, Ec in E.
    destruct (nseg_loop_spec model_dt min_dt dx (Z.to_nat (ceilR (thickness lay / max_dx))) k rho cp Hd Hk Hr Hc 13 1) as [(n' & E1 & E2 & E3 & E4 & E5)|(E1 & _)]; try lia; unfold dx in *.
    + rewrite E in E1. assert (n' = n) by congruence. subst n'. split; [repeat split; try lia; assumption|]. intros q (Hq1 & Hq2 & m & Hm1 & Hm2).
      destruct (Nat.le_gt_cases n q); [assumption|exfalso]. assert (thickness lay / IZR (ceilR (thickness lay / max_dx)) < 2 * m) by (apply (E5 q); [lia|assumption]). lra.
    + congruence.
  - right. split; [exact E|]. intros q (Hq1 & Hq2 & m & Hm1 & Hm2). pose proof (nsegments_none lay model_dt max_dx min_dt s k rho cp Es Ek Er Ec Hk Hr Hc Hd E q m Hq1 Hq2 Hm1).
    unfold dx in Hm2. lra.
Qed.

(** The model: with [n] main steps per hour, every massive layer of every wall and window is stable for the sub-step of the model, with a margin of four. *)
Lemma model_loop_spec main_dt : forall walls subs ds subs' ds', model_loop walls main_dt subs ds = Ok (subs', ds') ->
  (subs <= subs')%nat /\ exists new, ds' = ds ++ new /\ Forall2 (fun w d => new_discretization (fst w) main_dt (5 / 100) 60 1 (snd w) = Ok d /\ (tstep_subdivision d <= subs')%nat) walls new.
Proof.
  induction walls as [|[layers angle] walls IH]; intros subs ds subs' ds' E; cbn [model_loop] in E.
  - injection E as <- <-. split; [lia|]. exists []. rewrite app_nil_r. auto.
  - destruct (new_discretization layers main_dt (5 / 100) 60 1 angle) as [d| |] eqn:Ed; try discriminate. cbn [bind] in E.
    destruct (IH _ _ _ _ E) as (H1 & new & H2 & H3). split; [destruct (Nat.ltb_spec subs (tstep_subdivision d)); lia|].
    exists (d :: new). rewrite <- app_assoc in H2. split; [exact H2|]. constructor; [|exact H3]. split; [exact Ed|].
    destruct (Nat.ltb_spec subs (tstep_subdivision d)); lia.
Qed.
Theorem C48_model : forall walls n dt subs ds, (0 < n)%nat -> Forall (fun w => Forall physical (fst w)) walls ->
  model_steps walls n = Ok (dt, subs, ds) ->
  INR n * INR subs * dt = 3600 /\ length ds = length walls /\
  forall i w d, nth_error walls i = Some w -> nth_error ds i = Some d ->
    build (fst w) (n_elements d) 1 (snd w) = Ok (segments d) /\ length (n_elements d) = length (fst w) /\
    forall j lay e, nth_error (fst w) j = Some lay -> nth_error (n_elements d) j = Some e -> e <> 0%nat ->
      thickness lay / INR e <= 5 / 100 /\ layer_stable (1 / 4) dt lay e.
Proof.
  intros walls n dt subs ds Hn Hp E. unfold model_steps in E.
  destruct (model_loop walls (60 * 60 / INR n) 1 []) as [[subs0 ds0]| |] eqn:El; try discriminate. cbn [bind fst snd] in E.
  assert (E1 : ds0 = ds) by congruence. assert (E2 : (subs0 * 2)%nat = subs) by congruence.
  assert (E3 : 60 * 60 / (INR n * INR (subs0 * 2)) = dt) by congruence. clear E. subst ds0 subs dt.
  destruct (model_loop_spec _ _ _ _ _ _ El) as (Hs & new & Hd & HF). cbn [List.app] in Hd. subst new.
  assert (HIn : 0 < INR n) by (apply lt_0_INR; lia). assert (HIs : 0 < INR subs0) by (apply lt_0_INR; lia).
  assert (HI2 : INR (subs0 * 2) = INR subs0 * 2) by (rewrite mult_INR; cbn; lra).
  split; [rewrite HI2; field; split; lra|]. split; [clear - HF; induction HF; cbn; congruence|].
  intros i w d Hi Hdi.
  assert (Hw : new_discretization (fst w) (60 * 60 / INR n) (5 / 100) 60 1 (snd w) = Ok d /\ (tstep_subdivision d <= subs0)%nat).
  { clear - HF Hi Hdi. revert i Hi Hdi. induction HF as [|x y l l' H HF IH]; intros [|i] Hi Hdi; cbn in *; try discriminate; [|eauto]. injection Hi as ->. injection Hdi as ->. exact H. }
  destruct Hw as [Hw Ht]. assert (Hpw : Forall physical (fst w)) by (rewrite Forall_forall in Hp; apply Hp; eapply nth_error_In; exact Hi).
  assert (Hmd : 0 < 60 * 60 / INR n) by (apply Rdiv_lt_0_compat; lra).
  unfold new_discretization in Hw.
  destruct (discretize_spec (fst w) (60 * 60 / INR n) (5 / 100) 60 Hmd ltac:(lra) Hpw) as (m & els & Ed & HF2 & Hm0).
  rewrite Ed in Hw. cbn [bind fst snd] in Hw. destruct (build (fst w) els 1 (snd w)) as [segs| |] eqn:Eb; try discriminate. cbn [bind] in Hw.
  injection Hw as <-. cbn [segments n_elements tstep_subdivision] in *. split; [exact Eb|]. split; [clear - HF2; induction HF2; cbn; congruence|].
  intros j lay e Hj He Hne.
  destruct (C48_walls (fst w) (60 * 60 / INR n) (5 / 100) 60 Hmd ltac:(lra) Hpw) as (m' & els' & Ed' & _ & _ & _ & Hth). rewrite Ed in Ed'. injection Ed' as <- <-.
  split; [apply (Hth j lay e Hj He Hne)|].
  assert (Hok : layer_ok (60 * 60 / INR n) (5 / 100) 60 m lay e).
  { clear - HF2 Hj He. revert j Hj He. induction HF2 as [|x y l l' H HF IH]; intros [|j] Hj He; cbn in *; try discriminate; [congruence|eauto]. }
  assert (Hph : physical lay) by (rewrite Forall_forall in Hpw; apply Hpw; eapply nth_error_In; exact Hj).
  replace (1 / 4) with (1 / 2 / 2) by lra. apply (layer_ok_stable (60 * 60 / INR n) (5 / 100) 60 m _ (1 / 2)); auto; try lra.
  assert (Hm : (1 <= m)%nat). { destruct Hok as [[H0 _]|(n' & Hn' & _ & Hok)]; [easy|]. unfold nsubs_ok in Hok. destruct (sub lay); [|easy]. lia. }
  assert (HIm : 0 < INR m) by (apply lt_0_INR; lia). assert (INR m <= INR subs0) by (apply le_INR; lia).
  rewrite HI2. replace (60 * 60 / (INR n * (INR subs0 * 2))) with (1 / 2 * (60 * 60 / INR n / INR subs0)) by (field; split; lra).
  apply Rmult_le_compat_l; [lra|]. apply Rmult_le_compat_l; [lra|]. apply Rinv_le_contravar; lra.
Qed.

(** The purpose of it: in a wall all of whose layers are massive, every node exchanges during one sub-step at most half of its heat capacity per degree of
    difference, even with surface coefficients as large as [1 / MAX_RS]; the eigenvalues of the step matrix then lie in [-1, 0]. *)
Definition u_of (els : list (R * uvalue)) (i : nat) : R := match nth_error els i with Some (_, Solid u) => u | _ => 0 end.
Definition solid_of (s : option segment) : R := match s with Some (_, Solid u) => u | _ => 0 end.
Lemma stable_element dt k rho cp dx : 0 < dt -> 0 < k -> 0 < rho -> 0 < cp -> 0 < dx ->
  dt / (MAX_RS * rho * cp * dx) + 2 * dt * k / (rho * cp * dx ^ 2) <= 1 / 4 ->
  dt * (k / dx) <= rho * cp * dx / 8 /\ dt * (1 / MAX_RS + 2 * (k / dx)) <= rho * cp * dx / 4 /\ 0 < k / dx.
Proof.
  intros Hd Hk Hr Hc Hx H. pose proof MAX_RS_pos as HR. assert (HM : 0 < rho * cp * dx) by (repeat (apply Rmult_lt_0_compat; try lra)).
  assert (Hu : 0 < k / dx) by now apply Rdiv_lt_0_compat.
  replace (dt / (MAX_RS * rho * cp * dx)) with (dt * (1 / MAX_RS) / (rho * cp * dx)) in H by (field; repeat split; lra).
  replace (2 * dt * k / (rho * cp * dx ^ 2)) with (2 * (dt * (k / dx)) / (rho * cp * dx)) in H by (field; repeat split; lra).
  assert (HU : 0 < 1 / MAX_RS) by (apply Rdiv_lt_0_compat; lra).
  set (M := rho * cp * dx) in *. set (u := k / dx) in *. set (hs := 1 / MAX_RS) in *. clearbody M u hs.
  assert (E : dt * hs + 2 * (dt * u) <= M / 4).
  { apply (Rmult_le_reg_r (/ M)); [now apply Rinv_0_lt_compat|]. replace (M / 4 * / M) with (1 / 4) by (field; lra). unfold Rdiv in H. lra. }
  pose proof (Rmult_lt_0_compat _ _ Hd HU). repeat split; lra.
Qed.
Theorem C48_nodes : forall layers ns h a segs dt h_front h_back, length ns = length layers -> layers <> [] -> Forall physical layers -> 0 < dt ->
  build layers ns h a = Ok segs ->
  (forall j lay e, nth_error layers j = Some lay -> nth_error ns j = Some e -> e <> 0%nat /\ layer_stable (1 / 4) dt lay e) ->
  0 <= h_front <= 1 / MAX_RS -> 0 <= h_back <= 1 / MAX_RS ->
  forall i m u, nth_error segs i = Some (m, u) ->
    let before := if (i =? 0)%nat then h_front else solid_of (nth_error segs (i - 1)) in
    let after := if (i =? length segs - 1)%nat then h_back else solid_of (Some (m, u)) in
    0 <= before /\ 0 <= after /\ dt * (before + after) <= m / 2.
Proof.
  intros layers ns h a segs dt hf hb Hl Hne Hp Hdt E Hst Hhf Hhb i m u Hi.
  destruct (C44_nodes _ _ _ _ _ Hl Hne E) as (els & Hel & Hlay & Hlen & Hseg).
  set (flat := concat els) in *.
  assert (Hflat : forall q e, nth_error flat q = Some e -> exists v, snd e = Solid v /\ 0 < v /\ dt * v <= fst e / 8 /\ dt * (1 / MAX_RS + 2 * v) <= fst e / 4).
  { intros q e Hq. apply nth_error_In, in_concat in Hq. destruct Hq as (l & Hl1 & Hl2). apply In_nth_error in Hl1. destruct Hl1 as (j & Hj).
    assert (Hjl : (j < length layers)%nat) by (rewrite <- Hel; apply nth_error_Some; congruence).
    destruct (nth_error layers j) as [lay|] eqn:Elay; [|apply nth_error_None in Elay; lia].
    destruct (nth_error ns j) as [n|] eqn:En; [|apply nth_error_None in En; lia].
    destruct (Hst _ _ _ Elay En) as [Hn0 Hs]. destruct (Hlay _ _ _ Elay En) as (m' & u' & H1 & H2). rewrite H1 in Hj. injection Hj as <-.
    apply repeat_spec in Hl2. subst e. cbn [fst snd].
    assert (Hph : physical lay) by (rewrite Forall_forall in Hp; apply Hp; eapply nth_error_In; exact Elay).
    unfold layer_stable in Hs. unfold physical in Hph. destruct (sub lay) as [s|]; [|easy].
    destruct Hs as (k & rho & cp & Ek & Er & Ec & Hs). destruct Hph as (Ht & k' & rho' & cp' & Ek' & Er' & Ec' & Hk & Hr & Hc).
    assert (k' = k) by congruence. assert (rho' = rho) by congruence. assert (cp' = cp) by congruence. subst k' rho' cp'.
    destruct (Nat.eqb_spec n 0); [easy|]. destruct H2 as ((k0 & Ek0 & Hu) & rho0 & cp0 & Er0 & Ec0 & Hm).
    assert (k0 = k) by congruence. assert (rho0 = rho) by congruence. assert (cp0 = cp) by congruence. subst k0 rho0 cp0.
    assert (Hx : 0 < thickness lay / INR n) by (apply Rdiv_lt_0_compat; [lra|apply lt_0_INR; lia]).
    destruct (stable_element dt k rho cp (thickness lay / INR n) Hdt Hk Hr Hc Hx Hs) as (G1 & G2 & G3).
    exists (k / (thickness lay / INR n)). rewrite Hm. auto. }
  assert (Hflen : (1 <= length flat)%nat).
  { destruct els as [|l els']; [destruct layers; [easy|discriminate]|]. destruct layers as [|lay layers']; [easy|]. destruct ns as [|n ns']; [discriminate|].
    destruct (Hlay 0%nat lay n eq_refl eq_refl) as (m' & u' & H1 & _). cbn in H1. injection H1 as ->. unfold flat. cbn [concat]. rewrite app_length, repeat_length.
    destruct (Nat.eqb_spec n 0); lia. }
  assert (Hil : (i < length segs)%nat) by (apply nth_error_Some; congruence).
  destruct (Hseg _ _ Hi) as [Hm Hu]. cbn [fst snd] in Hm, Hu. cbv zeta.
  assert (HR : 0 < 1 / MAX_RS) by (apply Rdiv_lt_0_compat; [lra|apply MAX_RS_pos]).
  set (before := if (i =? 0)%nat then hf else solid_of (nth_error segs (i - 1))). set (after := if (i =? length segs - 1)%nat then hb else solid_of (Some (m, u))).
  (* the element before and the one after *)
  assert (Hb : (i = 0%nat /\ before = hf) \/ exists e v, (0 < i)%nat /\ nth_error flat (i - 1) = Some e /\ snd e = Solid v /\ before = v).
  { unfold before. destruct (Nat.eqb_spec i 0) as [->|Hi0]; [left; auto|right].
    destruct (nth_error flat (i - 1)) as [e|] eqn:Ee; [|apply nth_error_None in Ee; lia]. destruct (Hflat _ _ Ee) as (v & Hv & _).
    exists e, v. split; [lia|]. split; [reflexivity|]. split; [exact Hv|].
    destruct (nth_error segs (i - 1)) as [[m1 u1]|] eqn:Es; [|apply nth_error_None in Es; lia]. destruct (Hseg _ _ Es) as [_ Hu1]. cbn [snd] in Hu1. rewrite Ee, Hv in Hu1. subst u1. reflexivity. }
  assert (Ha : (i = length flat /\ after = hb) \/ exists e v, (i < length flat)%nat /\ nth_error flat i = Some e /\ snd e = Solid v /\ after = v).
  { unfold after. destruct (Nat.eqb_spec i (length segs - 1)) as [Hi0|Hi0]; [left; split; [lia|reflexivity]|right].
    destruct (nth_error flat i) as [e|] eqn:Ee; [|apply nth_error_None in Ee; lia]. destruct (Hflat _ _ Ee) as (v & Hv & _).
    exists e, v. split; [lia|]. split; [reflexivity|]. split; [exact Hv|]. rewrite Hv in Hu. subst u. reflexivity. }
  clearbody before after.
  destruct Hb as [[Hi0 Hb]|(e & v & Hi0 & Ee & Hv & Hb)], Ha as [[Hi1 Ha]|(e' & v' & Hi1 & Ee' & Hv' & Ha)]; subst before after.
  - lia.
  - subst i. destruct (Hflat _ _ Ee') as (w & Hw & Hw0 & Hw1 & Hw2). assert (w = v') by congruence. subst w. rewrite Ee' in Hm. repeat split; try lra.
    assert (dt * hf <= dt * (1 / MAX_RS)) by (apply Rmult_le_compat_l; lra). nra.
  - destruct (Hflat _ _ Ee) as (w & Hw & Hw0 & Hw1 & Hw2). assert (w = v) by congruence. subst w. destruct i as [|i]; [lia|]. replace (S i - 1)%nat with i in Ee by lia.
    rewrite Ee in Hm. rewrite (proj2 (nth_error_None flat (S i))) in Hm by lia. repeat split; try lra.
    assert (dt * hb <= dt * (1 / MAX_RS)) by (apply Rmult_le_compat_l; lra). nra.
  - destruct (Hflat _ _ Ee) as (w & Hw & Hw0 & Hw1 & Hw2). assert (w = v) by congruence. subst w. destruct (Hflat _ _ Ee') as (w & Hw' & Hw0' & Hw1' & Hw2'). assert (w = v') by congruence. subst w.
    destruct i as [|i]; [lia|]. replace (S i - 1)%nat with i in Ee by lia. rewrite Ee, Ee' in Hm. repeat split; try lra.
    assert (0 < dt * v) by nra. assert (0 < dt * v') by nra. nra.
Qed.

(** In a wall discretized by the program a massive chunk never consists of a single node (for which the matrix routines used for it would fail). *)
Theorem C45_massive_chunks_have_two_nodes : forall layers model_dt max_dx min_dt h a d mass nomass,
  Forall physical layers -> layers <> [] -> 0 < model_dt -> 0 < max_dx -> 1 <= min_dt ->
  new_discretization layers model_dt max_dx min_dt h a = Ok d -> get_chunks (segments d) = Ok (mass, nomass) ->
  forall x y, In (x, y) mass -> (x + 2 <= y)%nat.
Proof.
  intros layers model_dt max_dx min_dt h a d mass nomass Hp Hne Hd Hx Hmin E Hc x y Hin.
  unfold new_discretization in E.
  destruct (C48_walls layers model_dt max_dx min_dt Hd Hx Hp) as (n & els & Ed & Hl & Hn13 & Hmin' & Hst). rewrite Ed in E. cbn [bind fst snd] in E.
  destruct (build layers els h a) as [segs| |] eqn:Eb; try discriminate. cbn [bind] in E. injection E as <-. cbn [segments] in Hc.
  destruct (C44_nodes _ _ _ _ _ Hl Hne Eb) as (ells & Hel & Hlay & Hlen & Hseg). set (flat := concat ells) in *.
  assert (Hm : forall q e, nth_error flat q = Some e -> fst e = 0 \/ 40 <= fst e).
  { intros q e Hq. apply nth_error_In, in_concat in Hq. destruct Hq as (l & Hl1 & Hl2). apply In_nth_error in Hl1. destruct Hl1 as (j & Hj).
    assert (Hjl : (j < length layers)%nat) by (rewrite <- Hel; apply nth_error_Some; congruence).
    destruct (nth_error layers j) as [lay|] eqn:Elay; [|apply nth_error_None in Elay; lia].
    destruct (nth_error els j) as [ne|] eqn:En; [|apply nth_error_None in En; lia].
    destruct (Hlay _ _ _ Elay En) as (m' & u' & H1 & H2). rewrite H1 in Hj. injection Hj as <-. apply repeat_spec in Hl2. subst e. cbn [fst].
    destruct (Nat.eq_dec ne 0) as [->|Hne0]; [left; destruct (sub lay); tauto|right].
    destruct (Hst _ _ _ Elay En Hne0) as (_ & _ & Hs).
    assert (Hn0 : n <> 0%nat).
    { intros ->. unfold layer_stable in Hs. assert (Hd2 := discretize_spec layers model_dt max_dx min_dt Hd Hx Hp). destruct Hd2 as (n2 & els2 & E2 & HF & _).
      rewrite Ed in E2. injection E2 as <- <-. assert (Hok : layer_ok model_dt max_dx min_dt 0 lay ne).
      { clear - HF Elay En. revert j Elay En. induction HF as [|x y l l' H HF IH]; intros [|j] Hj He; cbn in *; try discriminate; [congruence|eauto]. }
      destruct Hok as [[H0 _]|(n' & Hn' & _ & Hok)]; [easy|]. unfold nsubs_ok in Hok. destruct (sub lay); [|easy]. lia. }
    specialize (Hmin' Hn0). assert (Hph : physical lay) by (rewrite Forall_forall in Hp; apply Hp; eapply nth_error_In; exact Elay).
    unfold layer_stable in Hs. unfold physical in Hph. destruct (sub lay) as [s|]; [|easy].
    destruct Hs as (k & rho & cp & Ek & Er & Ec & Hs). destruct Hph as (Ht & k' & rho' & cp' & Ek' & Er' & Ec' & Hk & Hr & Hcp).
    assert (k' = k) by congruence. assert (rho' = rho) by congruence. assert (cp' = cp) by congruence. subst k' rho' cp'.
    destruct (Nat.eqb_spec ne 0); [easy|]. destruct H2 as (_ & rho0 & cp0 & Er0 & Ec0 & ->).
    assert (rho0 = rho) by congruence. assert (cp0 = cp) by congruence. subst rho0 cp0. cbv zeta in Hs.
    assert (Hdx : 0 < thickness lay / INR ne) by (apply Rdiv_lt_0_compat; [lra|apply lt_0_INR; lia]).
    set (dx := thickness lay / INR ne) in *. set (dt := model_dt / INR n) in *. clearbody dx dt. pose proof MAX_RS_pos as HR.
    assert (HM : 0 < rho * cp * dx) by (repeat (apply Rmult_lt_0_compat; try lra)).
    assert (Hpos : 0 < 2 * dt * k / (rho * cp * dx ^ 2)).
    { apply Rdiv_lt_0_compat; [repeat (apply Rmult_lt_0_compat; try lra)|]. apply Rmult_lt_0_compat; [now apply Rmult_lt_0_compat|now apply pow_lt]. }
    replace (dt / (MAX_RS * rho * cp * dx)) with (20 * dt / (rho * cp * dx)) in Hs by (unfold MAX_RS; field; repeat split; lra).
    set (M := rho * cp * dx) in *. assert (Hle : 20 * dt / M <= 1 / 2) by lra.
    apply (Rmult_le_compat_r M) in Hle; [|lra]. unfold Rdiv in Hle at 1. rewrite Rmult_assoc, Rinv_l in Hle by lra. lra. }
  destruct (C45_chunks segs) as (mass' & nomass' & Ec & Hcm & Hcn & Hdis & _ & Halt & _ & _). rewrite Hc in Ec. injection Ec as <- <-.
  destruct (Halt _ _ Hin) as (Hxy & Hleft & Hright). destruct (Nat.le_gt_cases (x + 2) y) as [|Hlt]; [assumption|exfalso].
  assert (y = (x + 1)%nat) by lia. subst y.
  assert (Hxm : covers mass x) by (exists (x, (x + 1)%nat); cbn; split; [exact Hin|lia]).
  destruct (proj1 (Hcm x) Hxm) as (m & u & Ex & Hmx). destruct (Hseg _ _ Ex) as [Hmass _]. cbn [fst] in Hmass.
  assert (H5 : 0 < 1 / 10 ^ 5 < 1) by (split; [apply Rdiv_lt_0_compat; [lra|apply pow_lt; lra]|]; simpl; lra).
  (* either the element after or the one before has mass *)
  assert (Hcase : (exists e, nth_error flat x = Some e /\ 40 <= fst e) \/ exists e, (0 < x)%nat /\ nth_error flat (x - 1) = Some e /\ 40 <= fst e).
  { destruct (nth_error flat x) as [e|] eqn:Ee.
    - destruct (Hm _ _ Ee) as [H0|H0]; [|left; eauto]. right. destruct x as [|x']; [lra|]. replace (S x' - 1)%nat with x' by lia.
      destruct (nth_error flat x') as [e'|] eqn:Ee'; [|lra]. destruct (Hm _ _ Ee') as [H0'|H0']; [lra|]. exists e'. split; [lia|auto].
    - right. destruct x as [|x']; [lra|]. replace (S x' - 1)%nat with x' by lia.
      destruct (nth_error flat x') as [e'|] eqn:Ee'; [|lra]. destruct (Hm _ _ Ee') as [H0'|H0']; [lra|]. exists e'. split; [lia|auto]. }
  assert (Hnn : forall q, 0 <= match nth_error flat q with Some e => fst e / 2 | None => 0 end).
  { intros q. destruct (nth_error flat q) as [e|] eqn:Ee; [|lra]. destruct (Hm _ _ Ee); lra. }
  destruct Hcase as [(e & Ee & He)|(e & Hx0 & Ee & He)].
  - assert (Hxl : (x < length flat)%nat) by (apply nth_error_Some; congruence).
    destruct Hright as [Hy|(y' & Hy)]; [lia|].
    assert (Hcn' : covers nomass (x + 1)). { exists ((x + 1)%nat, y'). cbn. destruct (C45_chunks segs) as (m1 & n1 & E1 & _ & _ & _ & _ & _ & Hn1 & _). rewrite Hc in E1. injection E1 as <- <-. destruct (Hn1 _ _ Hy). split; [exact Hy|lia]. }
    apply Hcn in Hcn'. destruct Hcn' as (m2 & u2 & E2 & Hm2). destruct (Hseg _ _ E2) as [Hmass2 _]. cbn [fst] in Hmass2. rewrite Nat.add_1_r in Hmass2. rewrite Ee in Hmass2.
    specialize (Hnn (S x)). lra.
  - destruct Hleft as [Hy|(x' & Hy)]; [lia|].
    assert (Hcn' : covers nomass (x - 1)). { exists (x', x). cbn. destruct (C45_chunks segs) as (m1 & n1 & E1 & _ & _ & _ & _ & _ & Hn1 & _). rewrite Hc in E1. injection E1 as <- <-. destruct (Hn1 _ _ Hy). split; [exact Hy|lia]. }
    apply Hcn in Hcn'. destruct Hcn' as (m2 & u2 & E2 & Hm2). destruct (Hseg _ _ E2) as [Hmass2 _]. cbn [fst] in Hmass2. rewrite Ee in Hmass2.
    destruct (x - 1)%nat as [|q] eqn:Eq; [lra|]. specialize (Hnn q). lra.
Qed.

(** With more than sixty main steps per hour every wall is treated as massless, whatever it is made of. *)
Theorem C48_short_steps_lose_all_mass : forall layers n, (60 < n)%nat -> Forall physical layers ->
  discretize_construction layers (60 * 60 / INR n) (5 / 100) 60 = Ok (0%nat, repeat 0%nat (length layers)).
Proof.
  intros layers n Hn Hp. assert (HIn : 60 < INR n) by (replace 60 with (INR 60) by (rewrite INR_IZR_INZ; reflexivity); apply lt_INR; lia).
  assert (Hdt : 60 * 60 / INR n < 60). { apply (Rmult_lt_reg_r (INR n)); [lra|]. unfold Rdiv. rewrite Rmult_assoc, Rinv_l by lra. lra. }
  assert (H0 : 0 < 60 * 60 / INR n) by (apply Rdiv_lt_0_compat; lra).
  destruct (C48_walls layers (60 * 60 / INR n) (5 / 100) 60 H0 ltac:(lra) Hp) as (m & els & E & Hl & _ & Hm & _).
  assert (Hm0 : m = 0%nat).
  { destruct (Nat.eq_dec m 0) as [|Hne]; [assumption|]. specialize (Hm Hne). assert (1 <= INR m) by (replace 1 with (INR 1) by reflexivity; apply le_INR; lia).
    assert (60 * 60 / INR n / INR m <= 60 * 60 / INR n); [|lra]. rewrite <- (Rmult_1_r (60 * 60 / INR n)) at 2. unfold Rdiv at 1. apply Rmult_le_compat_l; [lra|].
    rewrite <- Rinv_1. apply Rinv_le_contravar; lra. }
  subst m. rewrite E. do 2 f_equal.
  destruct (discretize_spec layers (60 * 60 / INR n) (5 / 100) 60 H0 ltac:(lra) Hp) as (m & els' & E' & HF & Hz). rewrite E in E'. injection E' as <- <-.
  assert (Hall : Forall (fun e => e = 0%nat) els).
  { destruct Hz as [[_ Hz]|Hz]; [exact Hz|exfalso]. apply Exists_exists in Hz. destruct Hz as ([lay e] & Hin & q & Eq). cbn [fst] in Eq.
    assert (Hph : physical lay) by (apply in_combine_l in Hin; rewrite Forall_forall in Hp; now apply Hp).
    destruct (nsegments_spec lay (60 * 60 / INR n) (5 / 100) 60 Hph H0 ltac:(lra)) as [(e' & n' & E' & Hok)|E']; [|congruence].
    assert (n' = 0%nat) by congruence. subst n'. unfold nsubs_ok in Hok. destruct (sub lay); [|easy]. lia. }
  rewrite <- Hl. clear - Hall. induction Hall as [|x l Hx Hall IH]; [reflexivity|]. subst x. cbn. now f_equal.
Qed.

(** But the condition looks at each layer alone: where a massive layer meets a thin layer that is treated as massless the node between them need not be
    stable at all. A concrete wall clad with 1 mm of steel, with four steps per hour: during one sub-step the node exchanges more than thirty times its heat
    capacity per degree of difference. *)
Definition clad_wall : list layer := [mkLayer (1 / 1000) (Normal steel); mkLayer (2 / 10) (Normal concrete)].
Lemma clad_physical : Forall physical clad_wall.
Proof.
  unfold clad_wall, physical, steel, concrete. repeat constructor; cbn; try lra; repeat eexists; try reflexivity; lra.
Qed.
Lemma clad_ceil : ceilR (2 / 10 / (5 / 100)) = 4%Z.
Proof. pose proof (ceilR_spec (2 / 10 / (5 / 100))) as [H1 H2]. set (z := ceilR _) in *. clearbody z.
  assert (H3 : (z < 4 + 1)%Z) by (apply lt_IZR; rewrite plus_IZR; lra). assert (H4 : (4 - 1 < z)%Z) by (apply lt_IZR; rewrite minus_IZR; lra). lia. Qed.
Lemma clad_ceil1 : ceilR (1 / 1000 / (5 / 100)) = 1%Z.
Proof. pose proof (ceilR_spec (1 / 1000 / (5 / 100))) as [H1 H2]. set (z := ceilR _) in *. clearbody z.
  assert (H3 : (z < 1 + 1)%Z) by (apply lt_IZR; rewrite plus_IZR; lra). assert (H4 : (1 - 1 < z)%Z) by (apply lt_IZR; rewrite minus_IZR; lra). lia. Qed.
Lemma clad_discretized : exists n, (1 <= n <= 13)%nat /\ discretize_construction clad_wall 900 (5 / 100) 60 = Ok (n, [0; 4]%nat).
Proof.
  destruct (discretize_spec clad_wall 900 (5 / 100) 60 ltac:(lra) ltac:(lra) clad_physical) as (n & els & E & HF & Hz).
  inversion HF as [|? e1 ? els1 HL1 HF1]; subst. inversion HF1 as [|? e2 ? els2 HL2 HF2]; subst. inversion HF2; subst. clear HF HF1 HF2.
  assert (He1 : e1 = 0%nat).
  { destruct HL1 as [[H _]|(n' & _ & _ & Hok)]; [exact H|exfalso]. unfold nsubs_ok in Hok. cbn [sub thickness] in Hok.
    destruct Hok as (H1 & H2 & H3 & H4 & k & rho & cp & Ek & Er & Ec & Hs). cbn in Ek, Er, Ec. injection Ek as <-. injection Er as <-. injection Ec as <-.
    rewrite clad_ceil1 in H3. rewrite H3 in Hs. unfold stable_within, MAX_RS in Hs.
    assert (HI : 900 / INR n' >= 60) by lra. set (dt := 900 / INR n') in *. clearbody dt.
    assert (0 < dt / (5 / 100 * 7800 * 480 * (1 / 1000 / 1))) by (apply Rdiv_lt_0_compat; lra).
    assert (2 * dt * 50 / (7800 * 480 * (1 / 1000 / 1) ^ 2) > 1); [|lra].
    apply Rlt_gt. apply (Rmult_lt_reg_r (7800 * 480 * (1 / 1000 / 1) ^ 2)); [simpl; lra|]. replace (2 * dt * 50 / (7800 * 480 * (1 / 1000 / 1) ^ 2) * (7800 * 480 * (1 / 1000 / 1) ^ 2)) with (2 * dt * 50) by (field; lra). simpl. lra. }
  destruct HL2 as [[_ HL2]|(n' & Hn' & Hseg & Hok)].
  - exfalso. pose proof (nsegments_none (mkLayer (2 / 10) (Normal concrete)) 900 (5 / 100) 60 concrete (17 / 10) 2400 900 eq_refl eq_refl eq_refl eq_refl ltac:(lra) ltac:(lra) ltac:(lra) ltac:(lra) HL2) as Hno.
    cbn [thickness] in Hno. rewrite clad_ceil in Hno.
    destruct (min_dx_spec (900 / INR 10) (17 / 10) 2400 900) as (m & Em & Hm & Hq); try lra; [cbn; lra|].
    specialize (Hno 10%nat m ltac:(lia) ltac:(cbn; lra) Em). unfold MAX_RS in Hq. replace (INR 10) with 10 in Hq by (cbn; lra).
    assert (Hq' : m * m = 90 / 108000 * m + 306 / 2160000) by lra. nra.
  - pose proof Hok as Hok'. unfold nsubs_ok in Hok. cbn [sub thickness] in Hok. destruct Hok as (H1 & H2 & H3 & H4 & _). rewrite clad_ceil in H3.
    assert (e2 = 4%nat) by (apply INR_eq; rewrite H3; cbn; lra). subst e1 e2. exists n. split; [|exact E].
    destruct (C48_walls clad_wall 900 (5 / 100) 60 ltac:(lra) ltac:(lra) clad_physical) as (n2 & els2 & E2 & _ & Hb & _). rewrite E in E2. injection E2 as <- <-. lia.
Qed.
Theorem C48_interface_refuted : exists layers dt subs d,
  Forall physical layers /\ model_steps [(layers, PI / 2)] 4 = Ok (dt, subs, [d]) /\
  exists i m u m' u', nth_error (segments d) i = Some (m', Solid u') /\ nth_error (segments d) (S i) = Some (m, Solid u) /\ 1 <= m /\ m * 30 < dt * (u' + u).
Proof.
  destruct clad_discretized as (n & Hn & E). exists clad_wall. unfold model_steps, model_loop, new_discretization.
  replace (60 * 60 / INR 4) with 900 by (cbn; lra). rewrite E. cbn [bind fst snd tstep_subdivision].
  set (els := [(0, Solid (50 / (1 / 1000 / 1))); (2400 * 900 * (2 / 10 / INR 4), Solid (17 / 10 / (2 / 10 / INR 4))); (2400 * 900 * (2 / 10 / INR 4), Solid (17 / 10 / (2 / 10 / INR 4)));
               (2400 * 900 * (2 / 10 / INR 4), Solid (17 / 10 / (2 / 10 / INR 4))); (2400 * 900 * (2 / 10 / INR 4), Solid (17 / 10 / (2 / 10 / INR 4)))]).
  rewrite (build_ok clad_wall [0; 4]%nat 1 (PI / 2) els eq_refl) by discriminate. cbn [bind fst snd tstep_subdivision List.app].
  assert (Hn' : 1 <= INR (if (1 <? n)%nat then n else 1) <= 13).
  { assert (1 <= (if (1 <? n)%nat then n else 1) <= 13)%nat by (destruct (Nat.ltb_spec 1 n); lia). split; [replace 1 with (INR 1) by reflexivity|replace 13 with (INR 13) by (cbn; lra)]; apply le_INR; lia. }
  set (q := (if (1 <? n)%nat then n else 1)%nat) in *. clearbody q.
  eexists _, _, _. split; [apply clad_physical|]. split; [reflexivity|]. cbn [segments].
  exists 0%nat. unfold stab. rewrite !nth_error_tab. cbn [length Nat.add Nat.ltb Nat.leb els]. unfold node_mass, node_u, el_mass, el_u. cbn [Nat.ltb Nat.leb andb Nat.sub nth fst snd els length].
  do 4 eexists. split; [reflexivity|]. split; [reflexivity|].
  rewrite mult_INR. replace (INR 4) with 4 by (cbn; lra). replace (INR 2) with 2 by (cbn; lra).
  split; [lra|].
  assert (Hd : 34 <= 60 * 60 / (4 * (INR q * 2))). { apply (Rmult_le_reg_r (4 * (INR q * 2))); [lra|]. unfold Rdiv. rewrite Rmult_assoc, Rinv_l by lra. lra. }
  apply Rlt_le_trans with (34 * (50 / (1 / 1000 / 1) + 17 / 10 / (2 / 10 / 4))); [lra|]. apply Rmult_le_compat_r; [lra|exact Hd].
Qed.

(** The hypotheses of the theorems above are met by the concrete layer on its own. *)
Example C48_example : exists n, (1 <= n <= 13)%nat /\ discretize_construction clad_wall 900 (5 / 100) 60 = Ok (n, [0; 4]%nat) /\
  layer_stable (1 / 2) (900 / INR n) (mkLayer (2 / 10) (Normal concrete)) 4.
Proof.
  destruct clad_discretized as (n & Hn & E). exists n. split; [exact Hn|]. split; [exact E|].
  destruct (C48_walls clad_wall 900 (5 / 100) 60 ltac:(lra) ltac:(lra) clad_physical) as (n2 & els2 & E2 & _ & _ & _ & H). rewrite E in E2. injection E2 as <- <-.
  apply (H 1%nat _ 4%nat eq_refl eq_refl ltac:(lia)).
Qed.

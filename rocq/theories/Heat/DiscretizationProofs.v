(** Lemmas about the discretization of a construction *)
From Coq Require Import List Arith Reals Bool ZArith Lra Lia.
From Verif.Common Require Import Base Flt.
From Verif.Heat Require Import GasModel DiscretizationModel.
Import ListNotations.
Open Scope R_scope.

(** * Lists given by a function of the index *)
Lemma list_ext {A} : forall (l l' : list A), (forall i, nth_error l i = nth_error l' i) -> l = l'.
Proof.
  induction l as [|x l IH]; intros [|y l'] H; [reflexivity| | |].
  - specialize (H 0%nat); discriminate.
  - specialize (H 0%nat); discriminate.
  - f_equal; [specialize (H 0%nat); cbn in H; congruence|]. apply IH. intros i. exact (H (S i)).
Qed.

Definition tab {A} (N : nat) (f : nat -> A) : list A := map f (seq 0 N).
Lemma tab_length {A} N (f : nat -> A) : length (tab N f) = N.
Proof. unfold tab. now rewrite map_length, seq_length. Qed.
Lemma nth_error_tab {A} N (f : nat -> A) i : nth_error (tab N f) i = if (i <? N)%nat then Some (f i) else None.
Proof.
  unfold tab. rewrite nth_error_map. destruct (Nat.ltb_spec i N) as [H|H].
  - rewrite (nth_error_nth' _ 0%nat) by (rewrite seq_length; lia). rewrite seq_nth by lia. reflexivity.
  - destruct (nth_error (seq 0 N) i) eqn:E; [|reflexivity]. exfalso.
    assert (nth_error (seq 0 N) i <> None) as H1 by congruence. apply nth_error_Some in H1. rewrite seq_length in H1. lia.
Qed.
Lemma tab_ext {A} N (f g : nat -> A) : (forall i, (i < N)%nat -> f i = g i) -> tab N f = tab N g.
Proof. intros H. apply map_ext_in. intros i Hi. apply in_seq in Hi. apply H. lia. Qed.
Lemma upd_tab {A} N (f : nat -> A) i x : (i < N)%nat -> upd (tab N f) i x = tab N (fun j => if (j =? i)%nat then x else f j).
Proof.
  intros H. apply list_ext. intros j. rewrite nth_error_tab. destruct (Nat.eqb_spec j i) as [->|Hne].
  - rewrite nth_error_upd_same by (rewrite tab_length; lia). destruct (Nat.ltb_spec i N); [reflexivity|lia].
  - rewrite nth_error_upd_other by auto. apply nth_error_tab.
Qed.
Lemma repeat_tab {A} (x : A) N : repeat x N = tab N (fun _ => x).
Proof.
  unfold tab. generalize 0%nat. induction N as [|N IH]; intros s; [reflexivity|]. cbn. f_equal. apply IH.
Qed.
Lemma tab_snoc {A} N (f : nat -> A) : tab (S N) f = tab N f ++ [f N].
Proof. unfold tab. rewrite seq_S, map_app. reflexivity. Qed.

Definition stab (N : nat) (m : nat -> R) (u : nat -> uvalue) : list segment := tab N (fun i => (m i, u i)).
Lemma stab_ext N m u m' u' : (forall i, (i < N)%nat -> m i = m' i) -> (forall i, (i < N)%nat -> u i = u' i) -> stab N m u = stab N m' u'.
Proof. intros H1 H2. apply tab_ext. intros i Hi. now rewrite H1, H2. Qed.
Lemma add_mass_stab N m u i x : (i < N)%nat ->
  add_mass (stab N m u) i x = Ok (stab N (fun j => if (j =? i)%nat then m j + x else m j) u).
Proof.
  intros H. unfold add_mass, stab. rewrite nth_error_tab. destruct (Nat.ltb_spec i N); [|lia]. rewrite upd_tab by lia. f_equal.
  apply tab_ext. intros j Hj. destruct (Nat.eqb_spec j i); subst; reflexivity.
Qed.
Lemma set_u_stab N m u i x : (i < N)%nat ->
  set_u (stab N m u) i x = Ok (stab N m (fun j => if (j =? i)%nat then x else u j)).
Proof.
  intros H. unfold set_u, stab. rewrite nth_error_tab. destruct (Nat.ltb_spec i N); [|lia]. rewrite upd_tab by lia. f_equal.
  apply tab_ext. intros j Hj. destruct (Nat.eqb_spec j i); subst; reflexivity.
Qed.

(** * What [build] computes *)
(** number of elements of a layer for which [n] was chosen *)
Definition reps (n : nat) : nat := if (n =? 0)%nat then 1%nat else n.
Lemma reps_pos n : (1 <= reps n)%nat. Proof. unfold reps. destruct (Nat.eqb_spec n 0); lia. Qed.

(** mass and U-value of an element of a layer cut in [n] elements *)
Definition element_spec (prev next : option layer) (lay : layer) (n : nat) (height angle : R) : option (R * uvalue) :=
  match sub lay with
  | Normal s =>
      match s_k s with
      | None => None
      | Some k =>
          let u := Solid (k / (thickness lay / INR (reps n))) in
          if (n =? 0)%nat then Some (0, u)
          else match s_rho s, s_cp s with Some rho, Some cp => Some (rho * cp * (thickness lay / INR n), u) | _, _ => None end
      end
  | Gas g =>
      match gas_of g, prev, next with
      | Ok gas, Some p, Some x =>
          match sub p, sub x with
          | Normal sp, Normal sx =>
              Some (0, Cavity (mkCavity (thickness lay) height gas (or_default (s_back_em sp) (84 / 100)) (or_default (s_front_em sx) (84 / 100)) angle))
          | _, _ => None
          end
      | _, _, _ => None
      end
  end.
Definition prev_layer (layers : list layer) (j : nat) : option layer := if (j =? 0)%nat then None else nth_error layers (j - 1).

Fixpoint elements_from (layers : list layer) (h a : R) (j : nat) (ns : list nat) : option (list (R * uvalue)) :=
  match ns with
  | [] => Some []
  | n :: ns' =>
      match nth_error layers j with
      | None => None
      | Some lay =>
          match element_spec (prev_layer layers j) (nth_error layers (j + 1)) lay n h a, elements_from layers h a (j + 1) ns' with
          | Some e, Some l => Some (repeat e (reps n) ++ l)
          | _, _ => None
          end
      end
  end.

(** the element number [i]; nothing beyond the end *)
Definition el_mass (els : list (R * uvalue)) (i : nat) : R := fst (nth i els (0, UNone)).
Definition el_u (els : list (R * uvalue)) (i : nat) : uvalue := snd (nth i els (0, UNone)).
(** the nodes after the first [j] elements have been added *)
Definition node_mass (els : list (R * uvalue)) (j i : nat) : R :=
  (if (i <? j)%nat then el_mass els i / 2 else 0) + (if (0 <? i)%nat && (i - 1 <? j)%nat then el_mass els (i - 1) / 2 else 0).
Definition node_u (els : list (R * uvalue)) (f : bool) (N j i : nat) : uvalue :=
  if (i <? j)%nat then el_u els i else if f && (i =? N - 1)%nat then Back else UNone.

Lemma maxif n : (if (n =? 0)%nat then 1%nat else n) = reps n.
Proof. reflexivity. Qed.

Lemma node_mass_S els j i :
  node_mass els (j + 1) i = node_mass els j i + (if (i =? j)%nat then el_mass els j / 2 else 0)
    + (if (i =? j + 1)%nat then el_mass els j / 2 else 0).
Proof.
  unfold node_mass.
  destruct (Nat.eqb_spec i j) as [->|H1]; [|destruct (Nat.eqb_spec i (j + 1)) as [->|H2]].
  - destruct (Nat.eqb_spec j (j + 1)); [lia|].
    destruct (Nat.ltb_spec j (j + 1)); [|lia]. destruct (Nat.ltb_spec j j); [lia|].
    destruct (Nat.ltb_spec 0 j); cbn [andb]; [|lra].
    destruct (Nat.ltb_spec (j - 1) (j + 1)); [|lia]. destruct (Nat.ltb_spec (j - 1) j); [|lia]. lra.
  - replace (j + 1 - 1)%nat with j by lia. destruct (Nat.ltb_spec (j + 1) (j + 1)); [lia|]. destruct (Nat.ltb_spec (j + 1) j); [lia|].
    destruct (Nat.ltb_spec 0 (j + 1)); [|lia]. destruct (Nat.ltb_spec j (j + 1)); [|lia]. destruct (Nat.ltb_spec j j); [lia|]. cbn [andb]. lra.
  - assert (E1 : (i <? j + 1)%nat = (i <? j)%nat) by (destruct (Nat.ltb_spec i (j + 1)), (Nat.ltb_spec i j); lia).
    rewrite E1. destruct (Nat.ltb_spec 0 i); cbn [andb]; [|lra].
    assert (E2 : (i - 1 <? j + 1)%nat = (i - 1 <? j)%nat) by (destruct (Nat.ltb_spec (i - 1) (j + 1)), (Nat.ltb_spec (i - 1) j); lia).
    rewrite E2. lra.
Qed.
Lemma node_u_S els f N j i : (j < N - 1)%nat ->
  node_u els f N (j + 1) i = if (i =? j)%nat then el_u els j else node_u els f N j i.
Proof.
  intros H. unfold node_u. destruct (Nat.ltb_spec i (j + 1)), (Nat.ltb_spec i j), (Nat.eqb_spec i j); try lia; subst; reflexivity.
Qed.

(** one element *)
Lemma build_element_ok layers h a jl lay m n u els f N j :
  nth_error layers jl = Some lay ->
  element_spec (prev_layer layers jl) (nth_error layers (jl + 1)) lay n h a = Some (m, u) ->
  nth_error els j = Some (m, u) -> (j < N - 1)%nat ->
  build_element layers h a jl lay m (reps n) (stab N (node_mass els j) (node_u els f N j), j)
  = Ok (stab N (node_mass els (j + 1)) (node_u els f N (j + 1)), (j + 1)%nat).
Proof.
  intros Hl Hs He Hj. unfold build_element.
  assert (Em : el_mass els j = m) by (unfold el_mass; now rewrite (nth_error_nth _ _ _ He)).
  assert (Eu : el_u els j = u) by (unfold el_u; now rewrite (nth_error_nth _ _ _ He)).
  unfold element_spec in Hs. destruct (sub lay) as [s|g].
  - rewrite add_mass_stab by lia. cbn [bind]. rewrite add_mass_stab by lia. cbn [bind].
    destruct (s_k s) as [k|]; [|discriminate]. cbn [getter bind]. rewrite set_u_stab by lia. cbn [bind].
    assert (u = Solid (k / (thickness lay / INR (reps n)))) as Hu.
    { destruct (n =? 0)%nat; [congruence|]. destruct (s_rho s); [|discriminate]. destruct (s_cp s); [congruence|discriminate]. }
    do 2 f_equal. apply stab_ext; intros i Hi.
    + rewrite node_mass_S, Em. destruct (Nat.eqb_spec i j), (Nat.eqb_spec i (j + 1)); subst; try lia; lra.
    + rewrite node_u_S, Eu by lia. destruct (i =? j)%nat; congruence.
  - destruct (gas_of g) as [gs| |]; try discriminate. cbn [bind]. unfold prev_layer in Hs. destruct (jl =? 0)%nat; [discriminate|].
    destruct (nth_error layers (jl - 1)) as [p|]; [|discriminate]. destruct (nth_error layers (jl + 1)) as [x|]; [|discriminate].
    destruct (sub p) as [sp|]; [|discriminate]. destruct (sub x) as [sx|]; [|discriminate].
    rewrite set_u_stab by lia. cbn [bind]. injection Hs as <- <-. do 2 f_equal. apply stab_ext; intros i Hi.
    + rewrite node_mass_S, Em. destruct (i =? j)%nat, (i =? j + 1)%nat; lra.
    + rewrite node_u_S, Eu by lia. reflexivity.
Qed.
Lemma build_element_bad layers h a jl lay m n st :
  nth_error layers jl = Some lay ->
  element_mass lay n = Ok m ->
  element_spec (prev_layer layers jl) (nth_error layers (jl + 1)) lay n h a = None ->
  forall st', build_element layers h a jl lay m (reps n) st <> Ok st'.
Proof.
  intros Hl Hm Hs st' E. unfold element_spec in Hs. unfold build_element in E. destruct st as [segs i].
  unfold element_mass in Hm. destruct (sub lay) as [s|g].
  - destruct (s_k s) as [k|].
    2:{ destruct (add_mass segs i (m / 2)); try discriminate. cbn [bind] in E. destruct (add_mass a0 (i + 1) (m / 2)); discriminate. }
    destruct (n =? 0)%nat; [discriminate|]. destruct (s_rho s); [|discriminate]. destruct (s_cp s); discriminate.
  - destruct (gas_of g) as [gs| |]; try discriminate. cbn [bind] in E. unfold prev_layer in Hs. destruct (jl =? 0)%nat; [discriminate|].
    destruct (nth_error layers (jl - 1)) as [p|]; [|discriminate]. destruct (nth_error layers (jl + 1)) as [x|]; [|discriminate].
    destruct (sub p) as [sp|]; destruct (sub x) as [sx|]; discriminate.
Qed.
Lemma element_mass_ok layers h a jl lay n m u : element_spec (prev_layer layers jl) (nth_error layers (jl + 1)) lay n h a = Some (m, u) ->
  element_mass lay n = Ok m.
Proof.
  unfold element_spec, element_mass. destruct (sub lay) as [s|g].
  - destruct (s_k s); [|discriminate]. destruct (n =? 0)%nat; [congruence|]. destruct (s_rho s); [|discriminate].
    destruct (s_cp s); [|discriminate]. cbn. congruence.
  - destruct (gas_of g); [|discriminate..]. destruct (prev_layer layers jl) as [p|]; [|discriminate].
    destruct (nth_error layers (jl + 1)) as [x|]; [|discriminate]. destruct (sub p); [|discriminate]. destruct (sub x); [|discriminate].
    intros [= <- <-]. destruct (n =? 0)%nat; reflexivity.
Qed.

Lemma iter_elements layers h a jl lay m n u els f N :
  nth_error layers jl = Some lay ->
  element_spec (prev_layer layers jl) (nth_error layers (jl + 1)) lay n h a = Some (m, u) ->
  forall r j, (forall q, (q < r)%nat -> nth_error els (j + q) = Some (m, u)) -> (j + r <= N - 1)%nat ->
  iter_res (build_element layers h a jl lay m (reps n)) r (stab N (node_mass els j) (node_u els f N j), j)
  = Ok (stab N (node_mass els (j + r)) (node_u els f N (j + r)), (j + r)%nat).
Proof.
  intros Hl Hs. induction r as [|r IH]; intros j He Hj; cbn [iter_res].
  - rewrite Nat.add_0_r. reflexivity.
  - rewrite (build_element_ok layers h a jl lay m n u els f N j Hl Hs).
    + cbn [bind]. replace (j + S r)%nat with (j + 1 + r)%nat by lia. apply IH; [|lia]. intros q Hq.
      replace (j + 1 + q)%nat with (j + S q)%nat by lia. apply He. lia.
    + specialize (He 0%nat). rewrite Nat.add_0_r in He. apply He. lia.
    + lia.
Qed.

Lemma nth_error_repeat' {A} (x : A) n i : (i < n)%nat -> nth_error (repeat x n) i = Some x.
Proof. rewrite repeat_tab, nth_error_tab. intros H. destruct (Nat.ltb_spec i n); [reflexivity|lia]. Qed.

Lemma build_layers_ok layers h a els N : forall ns jl rest pre f,
  elements_from layers h a jl ns = Some rest -> els = pre ++ rest -> N = (length els + 1)%nat ->
  build_layers layers h a N jl ns (stab N (node_mass els (length pre)) (node_u els f N (length pre)), length pre)
  = Ok (stab N (node_mass els (length els)) (node_u els (f || negb (length ns =? 0)%nat) N (length els)), length els).
Proof.
  induction ns as [|n ns IH]; intros jl rest pre f Hr He HN; cbn [elements_from build_layers] in *.
  - injection Hr as <-. rewrite app_nil_r in He. subst pre. rewrite orb_false_r. reflexivity.
  - unfold build_layer. destruct (nth_error layers jl) as [lay|] eqn:El; [|discriminate].
    destruct (element_spec (prev_layer layers jl) (nth_error layers (jl + 1)) lay n h a) as [[m u]|] eqn:Es; [|discriminate].
    destruct (elements_from layers h a (jl + 1) ns) as [l|] eqn:Ef; [|discriminate]. injection Hr as <-.
    rewrite (element_mass_ok _ _ _ _ _ _ _ _ Es). cbn [bind]. rewrite maxif.
    assert (Hlen : length els = (length pre + reps n + length l)%nat) by (subst els; rewrite !app_length, repeat_length; lia).
    rewrite (iter_elements layers h a jl lay m n u els f N El Es).
    2:{ intros q Hq. subst els. rewrite nth_error_app2 by lia. rewrite nth_error_app1 by (rewrite repeat_length; lia).
        replace (length pre + q - length pre)%nat with q by lia. apply nth_error_repeat'. exact Hq. }
    2:{ rewrite HN, Hlen. lia. }
    pose proof (reps_pos n) as Hrp. cbn [bind fst snd]. rewrite set_u_stab by lia. cbn [bind].
    assert (E : stab N (node_mass els (length pre + reps n)) (fun j => if (j =? N - 1)%nat then Back else node_u els f N (length pre + reps n) j)
                = stab N (node_mass els (length pre + reps n)) (node_u els true N (length pre + reps n))).
    { apply stab_ext; [reflexivity|]. intros i Hi. unfold node_u. destruct (Nat.eqb_spec i (N - 1)) as [->|Hne].
      - destruct (Nat.ltb_spec (N - 1) (length pre + reps n)); [lia|]. reflexivity.
      - cbn [andb]. rewrite !andb_false_r. reflexivity. }
    rewrite E. pose proof (IH (jl + 1)%nat l (pre ++ repeat (m, u) (reps n)) true Ef) as IH'.
    rewrite app_length, repeat_length in IH'. rewrite IH'.
    + cbn [length Nat.eqb negb orb]. rewrite orb_true_r. reflexivity.
    + subst els. now rewrite app_assoc.
    + exact HN.
Qed.

Lemma iter_bad {A} (f : A -> res A) n a : (forall b, forall a', f b <> Ok a') -> n <> 0%nat -> forall a', iter_res f n a <> Ok a'.
Proof. intros H Hn a' E. destruct n; [easy|]. cbn in E. destruct (f a) eqn:Ef; try discriminate. now apply H in Ef. Qed.

Lemma build_layers_bad layers h a N : forall ns jl st st', build_layers layers h a N jl ns st = Ok st' -> elements_from layers h a jl ns <> None.
Proof.
  induction ns as [|n ns IH]; intros jl st st' E; cbn [elements_from build_layers] in *; [congruence|].
  destruct (build_layer layers h a N jl n st) as [st1| |] eqn:E1; try discriminate. cbn [bind] in E. apply IH in E.
  unfold build_layer in E1. destruct (nth_error layers jl) as [lay|] eqn:El; [|discriminate].
  destruct (element_mass lay n) as [m| |] eqn:Em; try discriminate. cbn [bind] in E1. rewrite maxif in E1.
  destruct (element_spec (prev_layer layers jl) (nth_error layers (jl + 1)) lay n h a) as [e|] eqn:Es.
  - destruct (elements_from layers h a (jl + 1) ns); [congruence|exact E].
  - exfalso. destruct (iter_res (build_element layers h a jl lay m (reps n)) (reps n) st) as [st2| |] eqn:E2; try discriminate.
    revert E2. apply iter_bad; [|pose proof (reps_pos n); lia]. intros b. apply (build_element_bad layers h a jl lay m n b El Em Es).
Qed.

Lemma elements_length layers h a : forall ns jl els, elements_from layers h a jl ns = Some els -> count_nodes ns = (length els + 1)%nat.
Proof.
  unfold count_nodes. induction ns as [|n ns IH]; intros jl els E; cbn [elements_from list_sum filter fold_right] in *.
  - injection E as <-. reflexivity.
  - destruct (nth_error layers jl); [|discriminate].
    destruct (element_spec (prev_layer layers jl) (nth_error layers (jl + 1)) l n h a); [|discriminate].
    destruct (elements_from layers h a (jl + 1) ns) as [l0|] eqn:E1; [|discriminate]. injection E as <-.
    specialize (IH _ _ E1). rewrite app_length, repeat_length. unfold list_sum in IH.
    unfold reps. destruct (Nat.eqb_spec n 0); cbn [length]; lia.
Qed.

(** [build] succeeds exactly when every layer gives its element, and then the nodes are these *)
Lemma build_ok layers ns h a els : elements_from layers h a 0 ns = Some els -> ns <> [] ->
  build layers ns h a = Ok (stab (length els + 1) (node_mass els (length els)) (node_u els true (length els + 1) (length els))).
Proof.
  intros E Hn. unfold build. rewrite (elements_length _ _ _ _ _ _ E).
  assert (E0 : repeat (0, UNone) (length els + 1) = stab (length els + 1) (node_mass els 0) (node_u els false (length els + 1) 0)).
  { rewrite repeat_tab. unfold stab. apply tab_ext. intros i Hi. unfold node_mass, node_u. cbn [Nat.ltb Nat.leb andb].
    destruct (Nat.ltb_spec (i - 1) 0); [lia|]. rewrite andb_false_r. f_equal. change (i <? 0)%nat with false. cbv iota. lra. }
  rewrite E0. pose proof (build_layers_ok layers h a els (length els + 1) ns 0 els [] false E eq_refl eq_refl) as Hb.
  cbn [length] in Hb. change segment with (R * uvalue)%type in *. rewrite Hb. cbn [bind fst]. destruct ns as [|n ns]; [easy|]. reflexivity.
Qed.
Lemma build_some layers ns h a segs : build layers ns h a = Ok segs -> exists els, elements_from layers h a 0 ns = Some els.
Proof.
  unfold build. intros E. match type of E with context [build_layers ?a ?b ?c ?d ?e ?f ?g] => destruct (build_layers a b c d e f g) eqn:E1 end; try discriminate.
  apply build_layers_bad in E1. destruct (elements_from layers h a 0 ns); [eauto|congruence].
Qed.

(** * Sums *)
Definition sumR (l : list R) : R := fold_right Rplus 0 l.
Lemma sumR_app a b : sumR (a ++ b) = sumR a + sumR b.
Proof. unfold sumR. induction a as [|x a IH]; cbn [List.app fold_right]; [lra|]. rewrite IH. lra. Qed.
Lemma sumR_repeat x n : sumR (repeat x n) = INR n * x.
Proof.
  induction n as [|n IH]; [cbn; lra|]. rewrite S_INR. cbn [repeat]. change (sumR (x :: repeat x n)) with (x + sumR (repeat x n)).
  rewrite IH. lra.
Qed.
Lemma sumR_tab_plus N f g : sumR (tab N (fun i => f i + g i)) = sumR (tab N f) + sumR (tab N g).
Proof. induction N as [|N IH]; [cbn; lra|]. rewrite !tab_snoc, !sumR_app, IH. cbn. lra. Qed.
Lemma sumR_ext N f g : (forall i, (i < N)%nat -> f i = g i) -> sumR (tab N f) = sumR (tab N g).
Proof. intros H. now rewrite (tab_ext _ _ _ H). Qed.
Lemma tab_nth {A} (l : list A) d : tab (length l) (fun i => nth i l d) = l.
Proof.
  apply list_ext. intros i. rewrite nth_error_tab. destruct (Nat.ltb_spec i (length l)) as [H|H].
  - symmetry. apply nth_error_nth'. exact H.
  - symmetry. apply nth_error_None. exact H.
Qed.
Lemma sumR_half_shift els : forall n, (n <= length els)%nat ->
  sumR (tab (n + 1) (fun i => if (0 <? i)%nat && (i - 1 <? n)%nat then el_mass els (i - 1) / 2 else 0))
  = sumR (tab n (fun i => el_mass els i / 2)).
Proof.
  intros n Hn. unfold tab at 1. rewrite (Nat.add_comm n 1). cbn [seq Nat.add map].
  change (sumR ((if (0 <? 0)%nat && (0 - 1 <? n)%nat then el_mass els (0 - 1) / 2 else 0)
     :: map (fun i => if (0 <? i)%nat && (i - 1 <? n)%nat then el_mass els (i - 1) / 2 else 0) (seq 1 n)))
   with (0 + sumR (map (fun i => if (0 <? i)%nat && (i - 1 <? n)%nat then el_mass els (i - 1) / 2 else 0) (seq 1 n))).
  rewrite <- seq_shift, map_map, Rplus_0_l. f_equal. unfold tab. apply map_ext_in. intros i Hi. apply in_seq in Hi.
  destruct (Nat.ltb_spec 0 (S i)); [|lia]. destruct (Nat.ltb_spec (S i - 1) n); [|lia]. cbn [andb].
  replace (S i - 1)%nat with i by lia. reflexivity.
Qed.
Lemma node_mass_total els : sumR (tab (length els + 1) (node_mass els (length els))) = sumR (map fst els).
Proof.
  unfold node_mass. rewrite sumR_tab_plus, sumR_half_shift by lia.
  rewrite Nat.add_1_r, tab_snoc, sumR_app. destruct (Nat.ltb_spec (length els) (length els)); [lia|].
  rewrite (sumR_ext _ _ (fun i => el_mass els i / 2)).
  2:{ intros i Hi. destruct (Nat.ltb_spec i (length els)); [reflexivity|lia]. }
  assert (Hm : map fst els = tab (length els) (el_mass els)).
  { rewrite <- (tab_nth els (0, UNone)) at 1. unfold tab. rewrite map_map. reflexivity. }
  rewrite Hm.
  assert (H0 : sumR (tab (length els) (fun i => el_mass els i / 2)) + sumR (tab (length els) (fun i => el_mass els i / 2)) = sumR (tab (length els) (el_mass els))).
  { rewrite <- sumR_tab_plus. apply sumR_ext. intros; lra. }
  change (sumR [0]) with (0 + 0). lra.
Qed.

(** the heat capacity per area of a layer *)
Definition capacity (lay : layer) : R :=
  match sub lay with
  | Normal s => match s_rho s, s_cp s with Some rho, Some cp => rho * cp * thickness lay | _, _ => 0 end
  | Gas _ => 0
  end.
Definition massive_capacity (lay : layer) (n : nat) : R := if (n =? 0)%nat then 0 else capacity lay.

Lemma element_capacity prev next lay n h a m u : element_spec prev next lay n h a = Some (m, u) ->
  INR (reps n) * m = massive_capacity lay n.
Proof.
  unfold element_spec, massive_capacity, capacity. destruct (sub lay) as [s|g].
  - destruct (s_k s); [|discriminate]. destruct (Nat.eqb_spec n 0) as [->|Hn]; [intros [= <- <-]; cbn; lra|].
    destruct (s_rho s); [|discriminate]. destruct (s_cp s); [|discriminate]. intros [= <- <-].
    replace (reps n) with n by (unfold reps; destruct (Nat.eqb_spec n 0); lia). field. now apply not_0_INR.
  - destruct (gas_of g); try discriminate. destruct prev as [p|]; [|discriminate]. destruct next as [x|]; [|discriminate].
    destruct (sub p); [|discriminate]. destruct (sub x); [|discriminate]. intros [= <- <-]. destruct (n =? 0)%nat; lra.
Qed.

Lemma elements_capacity layers h a : forall ns jl els, elements_from layers h a jl ns = Some els ->
  sumR (map fst els) = sumR (map (fun x => massive_capacity (fst x) (snd x)) (combine (skipn jl layers) ns)).
Proof.
  induction ns as [|n ns IH]; intros jl els E; cbn [elements_from] in E.
  - injection E as <-. destruct (skipn jl layers); reflexivity.
  - destruct (nth_error layers jl) as [lay|] eqn:El; [|discriminate].
    destruct (element_spec (prev_layer layers jl) (nth_error layers (jl + 1)) lay n h a) as [[m u]|] eqn:Es; [|discriminate].
    destruct (elements_from layers h a (jl + 1) ns) as [l|] eqn:Ef; [|discriminate]. injection E as <-.
    assert (Hs : skipn jl layers = lay :: skipn (jl + 1) layers).
    { clear - El. revert jl El. induction layers as [|x layers IHl]; intros [|jl] El; cbn in *; try discriminate.
      - injection El as ->. reflexivity.
      - rewrite IHl by exact El. replace (jl + 1)%nat with (S jl) by lia. reflexivity. }
    rewrite Hs. cbn [combine map fst snd]. rewrite map_app, sumR_app.
    rewrite (IH _ _ Ef).
    assert (Hr : map fst (repeat (m, u) (reps n)) = repeat m (reps n)).
    { clear. generalize (reps n). intros q. induction q; cbn; [reflexivity|]. now rewrite IHq. }
    rewrite Hr, sumR_repeat, (element_capacity _ _ _ _ _ _ _ _ Es). reflexivity.
Qed.

(** * Chunks *)
Fixpoint strictly (lo : nat) (l : list nat) : Prop := match l with [] => True | x :: l' => (lo <= x)%nat /\ strictly (x + 1) l' end.
(** chunks in increasing order, at least one index apart *)
Fixpoint chunks_from (lo : nat) (l : list (nat * nat)) : Prop :=
  match l with [] => True | (a, b) :: l' => (lo <= a)%nat /\ (a < b)%nat /\ chunks_from (b + 1) l' end.

Lemma chunks_app lo l a b : chunks_from lo l -> (lo <= a)%nat -> (forall c, In c l -> (snd c < a)%nat) -> (a < b)%nat -> chunks_from lo (l ++ [(a, b)]).
Proof.
  revert lo. induction l as [|[x y] l IH]; intros lo H Hlo Hc Hab; cbn [List.app chunks_from] in *; [repeat split; lia|].
  destruct H as (H1 & H2 & H3). repeat split; try lia.
  pose proof (Hc (x, y) (or_introl eq_refl)) as H. cbn in H. apply IH; auto; [lia|]. intros c Hin. apply Hc. now right.
Qed.

Lemma strictly_weak : forall l lo lo', (lo' <= lo)%nat -> strictly lo l -> strictly lo' l.
Proof. intros [|x l] lo lo' H Hs; [exact I|]. destruct Hs. split; [lia|assumption]. Qed.

Lemma chunk_loop_ok : forall rest start prev acc lo,
  (start <= prev)%nat -> strictly (prev + 1) rest -> chunks_from lo acc -> (lo <= start)%nat -> (forall c, In c acc -> (snd c < start)%nat) ->
  exists out, chunk_loop rest start prev acc = Ok out /\ chunks_from lo out /\
    forall i, (exists c, In c out /\ (fst c <= i < snd c)%nat) <->
              ((exists c, In c acc /\ (fst c <= i < snd c)%nat) \/ (start <= i <= prev)%nat \/ In i rest).
Proof.
  induction rest as [|x rest IH]; intros start prev acc lo Hsp Hst Hc Hlo Hacc; cbn [chunk_loop].
  - exists (acc ++ [(start, (prev + 1)%nat)]). split; [reflexivity|]. split; [apply chunks_app; auto; lia|].
    intros i. split.
    + intros (c & Hin & Hi). apply in_app_iff in Hin. destruct Hin as [Hin|[<-|[]]]; [left; eauto|]. cbn in Hi. right; left; lia.
    + intros [(c & Hin & Hi)|[Hi|[]]]; [exists c; split; [apply in_app_iff; auto|exact Hi]|].
      exists (start, (prev + 1)%nat). split; [apply in_app_iff; right; left; reflexivity|]. cbn; lia.
  - cbn [strictly] in Hst. destruct Hst as [Hx Hst].
    destruct (Nat.ltb_spec start x); [|lia]. destruct (Nat.ltb_spec prev x); [|lia]. cbn [negb].
    destruct (Nat.eqb_spec (x - prev) 1) as [E|E].
    + destruct (IH start x acc lo) as (out & E1 & E2 & E3); auto; [lia|]. exists out. repeat split; auto.
      * intros Hi. apply E3 in Hi. destruct Hi as [Hi|[Hi|Hi]]; [now left| |right; right; now right].
        destruct (Nat.eq_dec i x) as [->|]; [right; right; now left|right; left; lia].
      * intros Hi. apply E3. destruct Hi as [Hi|[Hi|[<-|Hi]]]; [now left|right; left; lia|right; left; lia|right; right; exact Hi].
    + destruct (IH x x (acc ++ [(start, (prev + 1)%nat)]) lo) as (out & E1 & E2 & E3); auto; try lia.
      * apply chunks_app; auto; lia.
      * intros c Hin. apply in_app_iff in Hin. destruct Hin as [Hin|[<-|[]]]; [specialize (Hacc c Hin); lia|cbn; lia].
      * exists out. repeat split; auto.
        -- intros Hi. apply E3 in Hi. destruct Hi as [(c & Hin & Hi)|[Hi|Hi]].
           ++ apply in_app_iff in Hin. destruct Hin as [Hin|[<-|[]]]; [left; eauto|]. cbn in Hi. right; left; lia.
           ++ right; right; left; lia.
           ++ right; right; now right.
        -- intros Hi. apply E3. destruct Hi as [(c & Hin & Hi)|[Hi|[<-|Hi]]].
           ++ left. exists c. split; [apply in_app_iff; auto|exact Hi].
           ++ left. exists (start, (prev + 1)%nat). split; [apply in_app_iff; right; left; reflexivity|cbn; lia].
           ++ right; left; lia.
           ++ right; right; exact Hi.
Qed.

Lemma chunk_segments_ok l : strictly 0 l ->
  exists out, chunk_segments l = Ok out /\ chunks_from 0 out /\
    forall i, (exists c, In c out /\ (fst c <= i < snd c)%nat) <-> In i l.
Proof.
  destruct l as [|x l]; intros H; cbn [chunk_segments].
  - exists []. repeat split; [|intros []]. intros (c & [] & _).
  - destruct H as [_ H]. destruct (chunk_loop_ok l x x [] 0) as (out & E1 & E2 & E3); auto; try lia; [exact I|intros c []|].
    exists out. repeat split; auto.
    + intros Hi. apply E3 in Hi. destruct Hi as [(c & [] & _)|[Hi|Hi]]; [left; lia|now right].
    + intros [<-|Hi]; apply E3; [right; left; lia|right; right; exact Hi].
Qed.

Lemma indices_strictly {A} (p : nat * A -> bool) : forall (l : list A) s, strictly s (map fst (filter p (combine (seq s (length l)) l))).
Proof.
  induction l as [|x l IH]; intros s; [exact I|]. cbn [length seq combine filter].
  specialize (IH (S s)). destruct (p (s, x)); cbn [map fst strictly].
  - split; [lia|]. now rewrite Nat.add_1_r.
  - eapply strictly_weak; [|exact IH]. lia.
Qed.
Lemma in_indices {A} (p : A -> bool) : forall (l : list A) s i,
  In i (map fst (filter (fun x => p (snd x)) (combine (seq s (length l)) l))) <->
  (s <= i)%nat /\ exists x, nth_error l (i - s) = Some x /\ p x = true.
Proof.
  induction l as [|x l IH]; intros s i; cbn [length seq combine filter map].
  - split; [intros []|]. intros (_ & y & H & _). destruct (i - s)%nat; discriminate.
  - cbn [snd]. destruct (p x) eqn:Ep; cbn [map In fst]; rewrite IH; split.
    + intros [<-|(H1 & y & H2 & H3)].
      * split; [lia|]. rewrite Nat.sub_diag. exists x. auto.
      * split; [lia|]. exists y. replace (i - s)%nat with (S (i - S s)) by lia. auto.
    + intros (H1 & y & H2 & H3). destruct (Nat.eq_dec s i) as [->|Hne]; [now left|]. right. split; [lia|]. exists y.
      replace (i - s)%nat with (S (i - S s)) in H2 by lia. auto.
    + intros (H1 & y & H2 & H3). split; [lia|]. exists y. replace (i - s)%nat with (S (i - S s)) by lia. auto.
    + intros (H1 & y & H2 & H3). destruct (Nat.eq_dec s i) as [->|Hne].
      * rewrite Nat.sub_diag in H2. cbn in H2. congruence.
      * split; [lia|]. exists y. replace (i - s)%nat with (S (i - S s)) in H2 by lia. auto.
Qed.

Lemma get_chunks_ok segs : exists mass nomass, get_chunks segs = Ok (mass, nomass) /\ chunks_from 0 mass /\ chunks_from 0 nomass /\
  (forall i, (exists c, In c mass /\ (fst c <= i < snd c)%nat) <-> exists s, nth_error segs i = Some s /\ 1 / 10 ^ 5 <= fst s) /\
  (forall i, (exists c, In c nomass /\ (fst c <= i < snd c)%nat) <-> exists s, nth_error segs i = Some s /\ fst s < 1 / 10 ^ 5).
Proof.
  unfold get_chunks.
  destruct (chunk_segments_ok _ (indices_strictly (fun x : nat * segment => Rleb (1 / 10 ^ 5) (fst (snd x))) segs 0)) as (m & E1 & E2 & E3).
  destruct (chunk_segments_ok _ (indices_strictly (fun x : nat * segment => Rltb (fst (snd x)) (1 / 10 ^ 5)) segs 0)) as (nm & F1 & F2 & F3).
  exists m, nm. unfold segment in *. rewrite E1, F1. cbn [bind]. split; [reflexivity|]. split; [exact E2|]. split; [exact F2|]. split; intros i.
  - rewrite E3. rewrite (in_indices (fun s : segment => Rleb (1 / 10 ^ 5) (fst s)) segs 0 i), Nat.sub_0_r. split.
    + intros (_ & s & H1 & H2). exists s. split; [exact H1|]. now destruct (Rleb_spec (1 / 10 ^ 5) (fst s)).
    + intros (s & H1 & H2). split; [lia|]. exists s. split; [exact H1|]. destruct (Rleb_spec (1 / 10 ^ 5) (fst s)); [reflexivity|lra].
  - rewrite F3. rewrite (in_indices (fun s : segment => Rltb (fst s) (1 / 10 ^ 5)) segs 0 i), Nat.sub_0_r. split.
    + intros (_ & s & H1 & H2). exists s. split; [exact H1|]. now destruct (Rltb_spec (fst s) (1 / 10 ^ 5)).
    + intros (s & H1 & H2). split; [lia|]. exists s. split; [exact H1|]. destruct (Rltb_spec (fst s) (1 / 10 ^ 5)); [reflexivity|lra].
Qed.

(** * The choice of the time step *)
(** the condition behind [min_dx]: the most negative eigenvalue of a layer cut in elements of thickness [dx] is at least [-s] *)
Definition stable_within (s dt k rho cp dx : R) : Prop := dt / (MAX_RS * rho * cp * dx) + 2 * dt * k / (rho * cp * dx ^ 2) <= s.

Lemma MAX_RS_pos : 0 < MAX_RS. Proof. unfold MAX_RS. lra. Qed.

Lemma min_dx_spec dt k rho cp : 0 < dt -> 0 < k -> 0 < rho -> 0 < cp ->
  exists m, min_dx dt k rho cp = Ok m /\ 0 < m /\ m * m = dt / (rho * cp * MAX_RS) * m + 2 * dt * k / (rho * cp).
Proof.
  intros Hd Hk Hr Hc. pose proof MAX_RS_pos as Hm. unfold min_dx.
  assert (Hb : 0 < dt / (rho * cp * MAX_RS)) by (apply Rdiv_lt_0_compat; [lra|]; apply Rmult_lt_0_compat; [now apply Rmult_lt_0_compat|exact Hm]).
  assert (Hc2 : 0 < 2 * dt * k / (rho * cp)) by (apply Rdiv_lt_0_compat; [apply Rmult_lt_0_compat; lra|now apply Rmult_lt_0_compat]).
  replace (- dt / (rho * cp * MAX_RS)) with (- (dt / (rho * cp * MAX_RS))) by (unfold Rdiv; ring).
  replace (-2 * dt * k / (rho * cp)) with (- (2 * dt * k / (rho * cp))) by (unfold Rdiv; ring).
  set (b := dt / (rho * cp * MAX_RS)) in *. set (c := 2 * dt * k / (rho * cp)) in *. clearbody b c. clear - Hb Hc2.
  assert (Hd : b * b < - b * - b - 4 * 1 * - c) by nra.
  set (d := - b * - b - 4 * 1 * - c) in *.
  destruct (Rleb_spec 0 d); [|nra]. cbn [negb].
  assert (Hs : b < sqrt d).
  { rewrite <- (sqrt_Rsqr b) by lra. apply sqrt_lt_1; unfold Rsqr; nra. }
  destruct (Rltb_spec ((- - b - sqrt d) / (2 * 1)) 0); [|lra]. cbn [negb].
  exists ((- - b + sqrt d) / (2 * 1)). split; [reflexivity|]. split; [lra|].
  pose proof (sqrt_sqrt d ltac:(assumption)) as Hss. unfold d in Hss at 3. nra.
Qed.

Lemma stable_of_dx dt k rho cp dx m : 0 < dt -> 0 < k -> 0 < rho -> 0 < cp -> 0 < m ->
  m * m = dt / (rho * cp * MAX_RS) * m + 2 * dt * k / (rho * cp) -> 2 * m <= dx -> stable_within (1 / 2) dt k rho cp dx.
Proof.
  intros Hd Hk Hr Hc Hm E Hx. unfold stable_within. pose proof MAX_RS_pos as HR.
  replace (dt / (MAX_RS * rho * cp * dx)) with (dt / (rho * cp * MAX_RS) / dx) by (field; repeat split; lra).
  replace (2 * dt * k / (rho * cp * dx ^ 2)) with (2 * dt * k / (rho * cp) / (dx * dx)) by (field; repeat split; lra).
  assert (Hb : 0 < dt / (rho * cp * MAX_RS)) by (apply Rdiv_lt_0_compat; [lra|]; apply Rmult_lt_0_compat; [now apply Rmult_lt_0_compat|exact HR]).
  assert (Hc2 : 0 < 2 * dt * k / (rho * cp)) by (apply Rdiv_lt_0_compat; [apply Rmult_lt_0_compat; lra|now apply Rmult_lt_0_compat]).
  set (b := dt / (rho * cp * MAX_RS)) in *. set (c := 2 * dt * k / (rho * cp)) in *. clearbody b c. clear - Hm E Hx Hb Hc2.
  replace (b / dx + c / (dx * dx)) with ((b * dx + c) / (dx * dx)) by (field; lra).
  assert (Hbm : b < m) by nra. assert (Hdx : 0 < dx * dx) by nra.
  apply (Rmult_le_reg_r (dx * dx)); [exact Hdx|]. unfold Rdiv at 1. rewrite Rmult_assoc, Rinv_l by lra.
  pose proof (Rmult_le_pos (dx - 2 * m) (2 * m - b) ltac:(lra) ltac:(lra)). pose proof (Rle_0_sqr (dx - 2 * m)) as Hsq. unfold Rsqr in Hsq. nra.
Qed.

Lemma stable_mono dt dt' k rho cp dx s s' q : 0 < dt -> 0 <= q -> dt' <= q * dt -> q * s <= s' -> 0 < k -> 0 < rho -> 0 < cp -> 0 < dx ->
  stable_within s dt k rho cp dx -> stable_within s' dt' k rho cp dx.
Proof.
  unfold stable_within. intros Hd Hq Hdt Hs Hk Hr Hc Hx H. pose proof MAX_RS_pos as HR.
  assert (H1 : 0 < / (MAX_RS * rho * cp * dx)) by (apply Rinv_0_lt_compat; repeat (apply Rmult_lt_0_compat; try lra)).
  assert (H2 : 0 < 2 * k * / (rho * cp * dx ^ 2)).
  { apply Rmult_lt_0_compat; [lra|]. apply Rinv_0_lt_compat. apply Rmult_lt_0_compat; [now apply Rmult_lt_0_compat|]. now apply pow_lt. }
  replace (dt' / (MAX_RS * rho * cp * dx) + 2 * dt' * k / (rho * cp * dx ^ 2))
    with (dt' * (/ (MAX_RS * rho * cp * dx) + 2 * k * / (rho * cp * dx ^ 2))) by (unfold Rdiv; ring).
  replace (dt / (MAX_RS * rho * cp * dx) + 2 * dt * k / (rho * cp * dx ^ 2))
    with (dt * (/ (MAX_RS * rho * cp * dx) + 2 * k * / (rho * cp * dx ^ 2))) in H by (unfold Rdiv; ring).
  set (z := / (MAX_RS * rho * cp * dx) + 2 * k * / (rho * cp * dx ^ 2)) in *.
  assert (0 < z) by (unfold z; lra). clearbody z. nra.
Qed.

(** what the search returns *)
Lemma nseg_loop_spec model_dt min_dt dx e k rho cp : 0 < model_dt -> 0 < k -> 0 < rho -> 0 < cp ->
  forall fuel n, (1 <= n)%nat -> (n + fuel = 14)%nat -> (1 <= fuel)%nat ->
  (exists n', nseg_loop fuel model_dt min_dt dx e k rho cp n = Ok (Some (e, n')) /\ (n <= n' <= 13)%nat /\ min_dt <= model_dt / INR n' /\
     (exists m, min_dx (model_dt / INR n') k rho cp = Ok m /\ 2 * m <= dx) /\
     forall q m, (n <= q < n')%nat -> min_dx (model_dt / INR q) k rho cp = Ok m -> dx < 2 * m)
  \/ (nseg_loop fuel model_dt min_dt dx e k rho cp n = Ok None /\
     exists q, (n <= q <= 14)%nat /\ (q = 14%nat \/ model_dt / INR q < min_dt) /\
       forall q' m, (n <= q' < q)%nat -> min_dx (model_dt / INR q') k rho cp = Ok m -> dx < 2 * m).
Proof.
  intros Hd Hk Hr Hc. induction fuel as [|fuel IH]; intros n Hn Hf Hf1; [lia|]. cbn [nseg_loop].
  assert (HI : 0 < INR n) by (apply lt_0_INR; lia).
  destruct (Rltb_spec (model_dt / INR n) min_dt) as [Hlt|Hge].
  { right. split; [reflexivity|]. exists n. split; [lia|]. split; [now right|]. intros q' m Hq. lia. }
  destruct (min_dx_spec (model_dt / INR n) k rho cp) as (m & Em & Hm & _); auto; [now apply Rdiv_lt_0_compat|].
  rewrite Em. cbn [bind]. destruct (Rleb_spec (2 * m) dx) as [Hle|Hgt].
  { left. exists n. split; [reflexivity|]. split; [lia|]. split; [lra|]. split; [eauto|]. intros q m' Hq. lia. }
  destruct (Nat.ltb_spec 12 n) as [H12|H12].
  { right. split; [reflexivity|]. exists 14%nat. split; [lia|]. split; [now left|]. intros q' m' Hq Em'.
    assert (q' = n) by lia. subst q'. assert (m' = m) by congruence. subst; lra. }
  destruct (IH (n + 1)%nat) as [(n' & E1 & E2 & E3 & E4 & E5)|(E1 & q & E2 & E3 & E4)]; try lia.
  - left. exists n'. split; [exact E1|]. split; [lia|]. split; [exact E3|]. split; [exact E4|]. intros q m' Hq Em'.
    destruct (Nat.eq_dec q n) as [->|]; [assert (m' = m) by congruence; subst; lra|]. apply (E5 q); [lia|exact Em'].
  - right. split; [exact E1|]. exists q. split; [lia|]. split; [exact E3|]. intros q' m' Hq Em'.
    destruct (Nat.eq_dec q' n) as [->|]; [assert (m' = m) by congruence; subst; lra|]. apply (E4 q'); [lia|exact Em'].
Qed.

Lemma ceilR_spec x : x <= IZR (ceilR x) < x + 1.
Proof. unfold ceilR. destruct (base_Int_part (- x)) as [H1 H2]. rewrite opp_IZR. lra. Qed.

(** A layer with physical values *)
Definition physical (lay : layer) : Prop :=
  match sub lay with
  | Normal s => 0 < thickness lay /\ exists k rho cp, s_k s = Some k /\ s_rho s = Some rho /\ s_cp s = Some cp /\ 0 < k /\ 0 < rho /\ 0 < cp
  | Gas _ => True
  end.

(** the result of the search for a layer *)
Definition nsubs_ok (lay : layer) (model_dt max_dx min_dt : R) (e n : nat) : Prop :=
  match sub lay with
  | Gas _ => False
  | Normal s => (1 <= e)%nat /\ (1 <= n <= 13)%nat /\ INR e = IZR (ceilR (thickness lay / max_dx)) /\ min_dt <= model_dt / INR n /\
      exists k rho cp, s_k s = Some k /\ s_rho s = Some rho /\ s_cp s = Some cp /\
        stable_within (1 / 2) (model_dt / INR n) k rho cp (thickness lay / INR e)
  end.

Lemma nsegments_spec lay model_dt max_dx min_dt : physical lay -> 0 < model_dt -> 0 < max_dx ->
  (exists e n, nsegments model_dt max_dx min_dt (thickness lay) (sub lay) = Ok (Some (e, n)) /\ nsubs_ok lay model_dt max_dx min_dt e n)
  \/ nsegments model_dt max_dx min_dt (thickness lay) (sub lay) = Ok None.
Proof.
  unfold physical, nsubs_ok, nsegments. intros H Hd Hx. destruct (sub lay) as [s|g]; [|now right].
  destruct H as (Ht & k & rho & cp & Ek & Er & Ec & Hk & Hr & Hc). rewrite Ek, Er, Ec.
  pose proof (ceilR_spec (thickness lay / max_dx)) as [Hc1 Hc2].
  assert (Htd : 0 < thickness lay / max_dx) by now apply Rdiv_lt_0_compat.
  set (z := ceilR (thickness lay / max_dx)) in *.
  assert (Hz : (0 < z)%Z) by (apply lt_IZR; lra).
  assert (EI : INR (Z.to_nat z) = IZR z) by (rewrite INR_IZR_INZ, Z2Nat.id by lia; reflexivity).
  destruct (nseg_loop_spec model_dt min_dt (thickness lay / IZR z) (Z.to_nat z) k rho cp Hd Hk Hr Hc 13 1) as [(n' & E1 & E2 & E3 & (m & E4 & E4') & E5)|(E1 & _)]; try lia.
  - left. exists (Z.to_nat z), n'. split; [exact E1|]. split; [lia|]. split; [lia|]. split; [exact EI|]. split; [exact E3|].
    exists k, rho, cp. do 3 (split; [reflexivity|]). rewrite EI.
    assert (Hdn : 0 < model_dt / INR n') by (apply Rdiv_lt_0_compat; [lra|apply lt_0_INR; lia]).
    destruct (min_dx_spec (model_dt / INR n') k rho cp) as (m' & Em & Hm & Hq); auto. assert (m' = m) by congruence. subst m'.
    now apply (stable_of_dx _ _ _ _ _ m).
  - right. exact E1.
Qed.

Lemma nsegments_none lay model_dt max_dx min_dt s k rho cp : sub lay = Normal s -> s_k s = Some k -> s_rho s = Some rho -> s_cp s = Some cp ->
  0 < k -> 0 < rho -> 0 < cp -> 0 < model_dt ->
  nsegments model_dt max_dx min_dt (thickness lay) (sub lay) = Ok None ->
  forall n m, (1 <= n <= 13)%nat -> min_dt <= model_dt / INR n -> min_dx (model_dt / INR n) k rho cp = Ok m ->
  thickness lay / IZR (ceilR (thickness lay / max_dx)) < 2 * m.
Proof.
  intros Es Ek Er Ec Hk Hr Hc Hd. unfold nsegments. rewrite Es, Ek, Er, Ec.
  set (z := ceilR (thickness lay / max_dx)). intros E n m Hn Hdt Em.
  destruct (nseg_loop_spec model_dt min_dt (thickness lay / IZR z) (Z.to_nat z) k rho cp Hd Hk Hr Hc 13 1) as [(n' & E1 & _)|(E1 & q & E2 & E3 & E4)]; try lia.
  { congruence. }
  apply (E4 n); [|exact Em]. split; [lia|]. destruct E3 as [->|E3]; [lia|].
  destruct (Nat.lt_ge_cases n q) as [|Hq]; [assumption|exfalso].
  assert (HI : 0 < INR q) by (apply lt_0_INR; lia). assert (Hle : INR q <= INR n) by now apply le_INR.
  assert (model_dt / INR n <= model_dt / INR q); [|lra]. apply Rmult_le_compat_l; [lra|]. now apply Rinv_le_contravar.
Qed.

(** each layer has either no element or the number and time step found by the search, which does not exceed the overall one *)
Definition layer_ok (model_dt max_dx min_dt : R) (n : nat) (lay : layer) (e : nat) : Prop :=
  (e = 0%nat /\ nsegments model_dt max_dx min_dt (thickness lay) (sub lay) = Ok None) \/
  exists n', (n' <= n)%nat /\ nsegments model_dt max_dx min_dt (thickness lay) (sub lay) = Ok (Some (e, n')) /\ nsubs_ok lay model_dt max_dx min_dt e n'.

Lemma discretize_loop_spec model_dt max_dx min_dt : 0 < model_dt -> 0 < max_dx -> forall layers done n els,
  Forall physical layers -> Forall2 (layer_ok model_dt max_dx min_dt n) done els ->
  (n = 0%nat /\ Forall (fun e => e = 0%nat) els \/ Exists (fun le => exists q, nsegments model_dt max_dx min_dt (thickness (fst le)) (sub (fst le)) = Ok (Some (q, n))) (combine done els)) ->
  exists n' els', discretize_loop layers model_dt max_dx min_dt n els = Ok (n', els') /\ (n <= n')%nat /\
    Forall2 (layer_ok model_dt max_dx min_dt n') (done ++ layers) els' /\
    (n' = 0%nat /\ Forall (fun e => e = 0%nat) els' \/ Exists (fun le => exists q, nsegments model_dt max_dx min_dt (thickness (fst le)) (sub (fst le)) = Ok (Some (q, n'))) (combine (done ++ layers) els')).
Proof.
  intros Hd Hx. induction layers as [|lay layers IH]; intros done n els Hp Hdone Hn; cbn [discretize_loop].
  - exists n, els. rewrite app_nil_r. auto.
  - inversion Hp as [|? ? Hp1 Hp2]; subst.
    assert (Hlen : length done = length els) by (clear - Hdone; induction Hdone; cbn; congruence).
    assert (Hsnoc : forall e, combine (done ++ [lay]) (els ++ [e]) = combine done els ++ [(lay, e)]).
    { intros e. clear - Hlen. revert els Hlen. induction done as [|x done IHd]; intros [|y els] Hl; cbn in *; try lia; [reflexivity|].
      f_equal. apply IHd. lia. }
    destruct (nsegments_spec lay model_dt max_dx min_dt Hp1 Hd Hx) as [(e & ns & E & Hok)|E]; rewrite E; cbn [bind].
    + destruct (IH (done ++ [lay]) (if (n <? ns)%nat then ns else n) (els ++ [e])) as (n' & els' & E1 & E2 & E3 & E4); auto.
      * apply Forall2_app.
        -- clear - Hdone. induction Hdone as [|lay' e' done els Hl Hrest IHd]; constructor; auto.
           destruct Hl as [Hl|(n' & Hl1 & Hl2 & Hl3)]; [now left|]. right. exists n'. split; [|now split].
           destruct (Nat.ltb_spec n ns); lia.
        -- constructor; [|constructor]. right. exists ns. split; [destruct (Nat.ltb_spec n ns); lia|]. now split.
      * right. rewrite Hsnoc. apply Exists_app. destruct (Nat.ltb_spec n ns) as [Hl|Hl].
        -- right. constructor. exists e. exact E.
        -- destruct Hn as [[Hn _]|Hn]; [|now left]. exfalso. unfold nsubs_ok in Hok. destruct (sub lay); [|easy]. lia.
      * rewrite <- app_assoc in *. exists n', els'. split; [exact E1|]. split; [|split; assumption]. destruct (Nat.ltb_spec n ns); lia.
    + destruct (IH (done ++ [lay]) n (els ++ [0%nat])) as (n' & els' & E1 & E2 & E3 & E4); auto.
      * apply Forall2_app; [exact Hdone|]. constructor; [|constructor]. left. auto.
      * rewrite Hsnoc. destruct Hn as [[Hn1 Hn2]|Hn]; [left; split; [exact Hn1|]; apply Forall_app; auto|right; apply Exists_app; now left].
      * rewrite <- app_assoc in *. exists n', els'. auto.
Qed.

Lemma check_loop_ok model_dt max_dx min_dt n : 0 < model_dt -> (1 <= n)%nat -> forall layers els,
  Forall physical layers -> Forall2 (layer_ok model_dt max_dx min_dt n) layers els -> check_loop layers els (model_dt / INR n) = Ok tt.
Proof.
  intros Hd Hn layers els Hp HF. revert Hp. induction HF as [|lay e layers els Hl HF IH]; intros Hp; [reflexivity|]. inversion Hp as [|? ? Hp1 Hp2]; subst.
  cbn [check_loop]. destruct (Nat.eqb_spec e 0) as [He|He]; [now apply IH|].
  destruct Hl as [[Hl _]|(n' & Hn' & _ & Hok)]; [easy|]. unfold nsubs_ok in Hok. unfold physical in Hp1.
  destruct (sub lay) as [s|g]; [|easy].
  destruct Hok as (H1 & H2 & H3 & H4 & k & rho & cp & Ek & Er & Ec & Hst).
  destruct Hp1 as (Ht & k0 & rho0 & cp0 & Ek0 & Er0 & Ec0 & Hk & Hr & Hc).
  assert (k0 = k) by congruence. assert (rho0 = rho) by congruence. assert (cp0 = cp) by congruence. subst k0 rho0 cp0.
  rewrite Ek, Er, Ec. cbn [getter bind].
  assert (HIn : 0 < INR n) by (apply lt_0_INR; lia). assert (HIn' : 0 < INR n') by (apply lt_0_INR; lia).
  assert (Hdx : 0 < thickness lay / INR e) by (apply Rdiv_lt_0_compat; [lra|apply lt_0_INR; lia]).
  assert (Hdn : 0 < model_dt / INR n) by now apply Rdiv_lt_0_compat.
  assert (Hdn' : 0 < model_dt / INR n') by now apply Rdiv_lt_0_compat.
  assert (Hst' : stable_within (1 / 2) (model_dt / INR n) k rho cp (thickness lay / INR e)).
  { apply (stable_mono (model_dt / INR n') _ _ _ _ _ (1 / 2) _ 1); try lra; try assumption.
    rewrite Rmult_1_l. apply Rmult_le_compat_l; [lra|]. apply Rinv_le_contravar; [lra|]. apply le_INR. lia. }
  unfold stable_within in Hst'. set (dt := model_dt / INR n) in *. set (dx := thickness lay / INR e) in *. clearbody dt dx.
  pose proof MAX_RS_pos as HR.
  assert (G1 : 0 < dt / (MAX_RS * rho * cp * dx)) by (apply Rdiv_lt_0_compat; [lra|]; repeat (apply Rmult_lt_0_compat; try lra)).
  assert (G2 : 0 < 2 * dt * k / (rho * cp * dx ^ 2)).
  { apply Rdiv_lt_0_compat; [repeat (apply Rmult_lt_0_compat; try lra)|]. apply Rmult_lt_0_compat; [now apply Rmult_lt_0_compat|now apply pow_lt]. }
  replace (- dt / (MAX_RS * rho * cp * dx)) with (- (dt / (MAX_RS * rho * cp * dx))) by (unfold Rdiv; ring).
  replace (2 * dt / (dx / k * rho * cp * dx)) with (2 * dt * k / (rho * cp * dx ^ 2)) by (field; repeat split; lra).
  set (A := dt / (MAX_RS * rho * cp * dx)) in *. set (B := 2 * dt * k / (rho * cp * dx ^ 2)) in *. clearbody A B.
  destruct (Rleb_spec (-2) (- A)); [|lra]. destruct (Rleb_spec (- A) 0); [|lra].
  destruct (Rleb_spec (-2) (- A - B)); [|lra]. destruct (Rleb_spec (- A - B) 0); [|lra]. cbn [negb]. now apply IH.
Qed.
Lemma check_loop_zero dt : forall layers els, Forall (fun e => e = 0%nat) els -> check_loop layers els dt = Ok tt.
Proof.
  induction layers as [|lay layers IH]; intros els H; [reflexivity|]. destruct els as [|e els]; [reflexivity|].
  inversion H; subst. cbn. now apply IH.
Qed.

Lemma discretize_spec layers model_dt max_dx min_dt : 0 < model_dt -> 0 < max_dx -> Forall physical layers ->
  exists n els, discretize_construction layers model_dt max_dx min_dt = Ok (n, els) /\
    Forall2 (layer_ok model_dt max_dx min_dt n) layers els /\
    (n = 0%nat /\ Forall (fun e => e = 0%nat) els \/
     Exists (fun le => exists q, nsegments model_dt max_dx min_dt (thickness (fst le)) (sub (fst le)) = Ok (Some (q, n))) (combine layers els)).
Proof.
  intros Hd Hx Hp. destruct (discretize_loop_spec model_dt max_dx min_dt Hd Hx layers [] 0 []) as (n & els & E1 & _ & E3 & E4); auto.
  cbn [List.app] in E3, E4. exists n, els. split; [|auto]. unfold discretize_construction. rewrite E1. cbn [bind fst snd].
  destruct E4 as [[-> E4]|E4].
  - rewrite check_loop_zero by exact E4. reflexivity.
  - rewrite (check_loop_ok model_dt max_dx min_dt n Hd); auto.
    apply Exists_exists in E4. destruct E4 as ([lay e] & Hin & q & Eq). cbn [fst] in Eq.
    assert (Hph : physical lay) by (apply in_combine_l in Hin; rewrite Forall_forall in Hp; now apply Hp).
    destruct (nsegments_spec lay model_dt max_dx min_dt Hph Hd Hx) as [(e' & n' & E' & Hok)|E']; [|congruence].
    assert (n' = n) by congruence. subst n'. unfold nsubs_ok in Hok. destruct (sub lay); [|easy]. lia.
Qed.

(** Properties of the optics of glazing systems (C49, C50). They are stated with the fluxes between the layers: [fwd i] and [bwd i]
    are the radiations going inwards and outwards in front of layer [i]; each layer transmits, reflects and absorbs. *)
From Coq Require Import List Arith Reals Bool PrimFloat Lra Lia.
From Verif.Common Require Import Base Flt.
From Verif.Heat Require Import GlazingModel DiscretizationModel DiscretizationProofs.
Import ListNotations.
Open Scope R_scope.

Local Notation glass := (glazing R).
(** glass that does not create energy *)
Definition physical (g : glass) : Prop :=
  0 <= tau g /\ 0 <= rho_front g /\ 0 <= rho_back g /\ tau g + rho_front g <= 1 /\ tau g + rho_back g <= 1 /\
  alpha_front g = 1 - tau g - rho_front g /\ alpha_back g = 1 - tau g - rho_back g.
(** one or more physical layers, of which all but the last let some light through (the others are never looked at by the code) *)
Fixpoint stack (l : list glass) : Prop :=
  match l with
  | [] => False
  | [g] => physical g
  | g :: rest => physical g /\ 0 < tau g /\ stack rest
  end.

(** The balance of radiation at each layer (net radiation method), independent of how the code combines layers. *)
Definition balanced (l : list glass) (fwd bwd : nat -> R) : Prop :=
  forall i g, nth_error l i = Some g ->
    fwd (S i) = tau g * fwd i + rho_back g * bwd (S i) /\
    bwd i = rho_front g * fwd i + tau g * bwd (S i).

Lemma stack_cons g l : l <> [] -> stack (g :: l) <-> physical g /\ 0 < tau g /\ stack l.
Proof. destruct l; [congruence|]. reflexivity. Qed.
Lemma stack_nonempty l : stack l -> l <> [].
Proof. destruct l; [intros []|discriminate]. Qed.

(** ** combining two layers *)
Lemma denom_pos g o : physical g -> physical o -> 0 < tau g -> 0 < 1 - rho_back g * rho_front o.
Proof. intros (A&B&C&D&E&_) (A'&B'&C'&D'&E'&_) H. nra. Qed.

Lemma new_glazing_ok t rf rb : 0 <= t -> 0 <= rf -> 0 <= rb -> t + rf <= 1 -> t + rb <= 1 ->
  new_glazing RF t rf rb = Ok (mkGlazing t rf rb (1 - t - rf) (1 - t - rb)).
Proof.
  intros. unfold new_glazing. cbn [fleb f0 f1 fsub RF].
  repeat match goal with |- context [Rleb ?a ?b] => destruct (Rleb_spec a b); [|lra] end. reflexivity.
Qed.

Lemma combine_spec g o : physical g -> physical o -> 0 < tau g ->
  let D := 1 - rho_back g * rho_front o in
  exists c, combine RF g o = Ok c /\ physical c /\ tau c = tau g * tau o / D /\
    rho_front c = rho_front g + tau g * tau g * rho_front o / D /\ rho_back c = rho_back o + tau o * tau o * rho_back g / D.
Proof.
  intros Hg Ho Ht D. pose proof (denom_pos g o Hg Ho Ht) as HD. fold D in HD.
  destruct Hg as (A&B&C&Dg&E&AF&AB), Ho as (A'&B'&C'&D'&E'&AF'&AB').
  unfold combine, combined_tau, combined_rho_front, combined_rho_back. cbn [fadd fsub fmul fdiv f1 RF].
  replace (1 - rho_front o * rho_back g) with D by (unfold D; ring). fold D.
  assert (I : 0 < / D) by (apply Rinv_0_lt_compat; assumption).
  assert (P : forall x, 0 <= x -> 0 <= x / D) by (intros; apply Rmult_le_pos; [assumption|lra]).
  assert (S1 : tau g * tau o / D + (rho_front g + tau g * tau g * rho_front o / D) <= 1).
  { assert (Q : 1 - (tau g * tau o / D + (rho_front g + tau g * tau g * rho_front o / D)) =
      (1 - tau g - rho_front g) + tau g * ((1 - tau o - rho_front o) + rho_front o * (1 - tau g - rho_back g)) / D)
      by (unfold D in *; field; lra).
    assert (0 <= tau g * ((1 - tau o - rho_front o) + rho_front o * (1 - tau g - rho_back g)) / D).
    { apply P. apply Rmult_le_pos; [assumption|]. apply Rplus_le_le_0_compat; [lra|]. apply Rmult_le_pos; lra. }
    lra. }
  assert (S2 : tau g * tau o / D + (rho_back o + tau o * tau o * rho_back g / D) <= 1).
  { assert (Q : 1 - (tau g * tau o / D + (rho_back o + tau o * tau o * rho_back g / D)) =
      (1 - tau o - rho_back o) + tau o * ((1 - tau g - rho_back g) + rho_back g * (1 - tau o - rho_front o)) / D)
      by (unfold D in *; field; lra).
    assert (0 <= tau o * ((1 - tau g - rho_back g) + rho_back g * (1 - tau o - rho_front o)) / D).
    { apply P. apply Rmult_le_pos; [assumption|]. apply Rplus_le_le_0_compat; [lra|]. apply Rmult_le_pos; lra. }
    lra. }
  assert (0 <= tau g * tau o / D) by (apply P; apply Rmult_le_pos; assumption).
  assert (0 <= tau g * tau g * rho_front o / D) by (apply P; repeat apply Rmult_le_pos; assumption).
  assert (0 <= tau o * tau o * rho_back g / D) by (apply P; repeat apply Rmult_le_pos; assumption).
  eexists. split; [apply new_glazing_ok; lra|]. cbn. repeat split; cbn; try lra.
Qed.

(** ** combining a stack: the fluxes at its two ends are related by the combined layer *)
Lemma combine_layers_spec l : stack l -> exists c, combine_layers RF l = Ok c /\ physical c /\
  (Forall (fun g => 0 < tau g) l -> 0 < tau c) /\
  (forall fwd bwd, balanced l fwd bwd ->
    fwd (length l) = tau c * fwd 0%nat + rho_back c * bwd (length l) /\
    bwd 0%nat = rho_front c * fwd 0%nat + tau c * bwd (length l)).
Proof.
  induction l as [|g l IH]; [intros []|]. intros H. destruct l as [|h l].
  - exists g. cbn [combine_layers length]. split; [reflexivity|]. split; [exact H|]. split.
    + intros F. inversion F; assumption.
    + intros fwd bwd Hb. apply (Hb 0%nat g). reflexivity.
  - apply stack_cons in H; [|discriminate]. destruct H as (Hg & Ht & Hl). destruct (IH Hl) as (r & Er & Pr & Tr & Fr). clear IH.
    destruct (combine_spec g r Hg Pr Ht) as (c & Ec & Pc & T & RFr & RB).
    exists c. change (combine_layers RF (g :: h :: l)) with (do r <- combine_layers RF (h :: l); combine RF g r). rewrite Er. cbn [bind].
    split; [exact Ec|]. split; [exact Pc|]. pose proof (denom_pos g r Hg Pr Ht) as HD. split.
    + intros F. inversion F; subst. rewrite T. apply Rdiv_lt_0_compat; [|assumption]. apply Rmult_lt_0_compat; [assumption|]. apply Tr. assumption.
    + intros fwd bwd Hb. destruct (Hb 0%nat g eq_refl) as [B1 B2].
      destruct (Fr (fun i => fwd (S i)) (fun i => bwd (S i))) as [F1 F2].
      { intros i x Hx. apply (Hb (S i) x). exact Hx. }
      change (length (g :: h :: l)) with (S (length (h :: l))). set (n := length (h :: l)) in *.
      rewrite T, RFr, RB.
      assert (E1 : fwd 1%nat = (tau g * fwd 0%nat + rho_back g * tau r * bwd (S n)) / (1 - rho_back g * rho_front r)).
      { apply Rmult_eq_reg_r with (1 - rho_back g * rho_front r); [|lra]. unfold Rdiv. rewrite Rmult_assoc, Rinv_l, Rmult_1_r by lra.
        rewrite F2 in B1. lra. }
      rewrite F1, B2, F2, E1. split; field; lra.
Qed.

(** ** there are fluxes, they are not negative, and they are unique *)
Lemma fluxes_exist l a b : stack l -> 0 <= a -> 0 <= b ->
  exists fwd bwd, balanced l fwd bwd /\ fwd 0%nat = a /\ bwd (length l) = b /\ (forall i, 0 <= fwd i) /\ (forall i, 0 <= bwd i).
Proof.
  revert a. induction l as [|g l IH]; [intros ? []|]. intros a H Ha Hb. destruct l as [|h l].
  - destruct H as (A&B&C&_).
    exists (fun i => if (i =? 0)%nat then a else tau g * a + rho_back g * b), (fun i => if (i =? 0)%nat then rho_front g * a + tau g * b else b).
    split.
    + intros [|i] x Hx; cbn in Hx; [injection Hx as <-|destruct i; discriminate]. cbn. split; ring.
    + cbn. repeat split; try reflexivity; intros [|i]; cbn; try assumption; nra.
  - apply stack_cons in H; [|discriminate]. destruct H as (Hg & Ht & Hl).
    destruct (combine_layers_spec _ Hl) as (r & _ & Pr & _ & Fr). pose proof (denom_pos g r Hg Pr Ht) as HD.
    destruct Pr as (A'&B'&C'&_). destruct Hg as (A&B&C&_).
    set (a' := (tau g * a + rho_back g * tau r * b) / (1 - rho_back g * rho_front r)).
    assert (Ha' : 0 <= a').
    { apply Rmult_le_pos; [|left; apply Rinv_0_lt_compat; assumption]. apply Rplus_le_le_0_compat; repeat apply Rmult_le_pos; assumption. }
    destruct (IH a' Hl Ha' Hb) as (f & w & Hbal & F0 & Wn & Pf & Pw). destruct (Fr f w Hbal) as [_ W0]. rewrite F0, Wn in W0.
    exists (fun i => match i with O => a | S j => f j end), (fun i => match i with O => rho_front g * a + tau g * w 0%nat | S j => w j end).
    split; [|repeat split; try assumption].
    + intros [|i] x Hx; cbn [nth_error] in Hx.
      * injection Hx as <-. split; [|reflexivity]. rewrite F0, W0. unfold a'. field. lra.
      * apply (Hbal i x Hx).
    + intros [|i]; [assumption|apply Pf].
    + intros [|i]; [|apply Pw]. specialize (Pw 0%nat). nra.
Qed.

Lemma stack_firstn l i : stack l -> (0 < i < length l)%nat -> stack (firstn i l) /\ Forall (fun g => 0 < tau g) (firstn i l).
Proof.
  revert i. induction l as [|g l IH]; intros i H Hi; [cbn in Hi; lia|]. destruct l as [|h l]; [cbn in Hi; lia|].
  apply stack_cons in H; [|discriminate]. destruct H as (Hg & Ht & Hl).
  destruct i as [|[|i]]; [lia| |].
  - cbn. split; [assumption|]. constructor; [assumption|constructor].
  - destruct (IH (S i) Hl ltac:(cbn in *; lia)) as [A B]. change (firstn (S (S i)) (g :: h :: l)) with (g :: firstn (S i) (h :: l)). split.
    + apply stack_cons; [cbn; discriminate|]. auto.
    + constructor; assumption.
Qed.
Lemma stack_skipn l i : stack l -> (i < length l)%nat -> stack (skipn i l).
Proof.
  revert i. induction l as [|g l IH]; intros i H Hi; [cbn in Hi; lia|]. destruct i as [|i]; [exact H|].
  cbn [skipn]. destruct l as [|h l]; [cbn in Hi; lia|]. apply stack_cons in H; [|discriminate]. apply IH; [apply H|cbn in *; lia].
Qed.
Lemma stack_physical l i g : stack l -> nth_error l i = Some g -> physical g.
Proof.
  revert i. induction l as [|h l IH]; intros i H E; [destruct i; discriminate|]. destruct l as [|k l].
  - destruct i as [|i]; cbn in E; [injection E as <-; exact H|destruct i; discriminate].
  - apply stack_cons in H; [|discriminate]. destruct i as [|i]; cbn [nth_error] in E; [injection E as <-; apply H|]. apply (IH i); [apply H|exact E].
Qed.

Lemma nth_firstn {A} (l : list A) i j : (j < i)%nat -> nth_error (firstn i l) j = nth_error l j.
Proof. revert i j. induction l as [|x l IH]; intros [|i] [|j] H; try reflexivity; try lia. cbn. apply IH. lia. Qed.
Lemma nth_skipn {A} (l : list A) i j : nth_error (skipn i l) j = nth_error l (i + j).
Proof. revert l. induction i; intros l; [reflexivity|]. destruct l; [destruct j; reflexivity|]. apply IHi. Qed.
Lemma nth_firstn_some {A} (l : list A) i j x : nth_error (firstn i l) j = Some x -> nth_error l j = Some x /\ (j < i)%nat.
Proof.
  intros H. assert (j < i)%nat. { pose proof (proj1 (nth_error_Some (firstn i l) j) ltac:(congruence)). rewrite firstn_length in H0. lia. }
  rewrite nth_firstn in H by assumption. auto.
Qed.

(** net radiation arriving in front of layer [i] *)
Definition net (fwd bwd : nat -> R) (i : nat) : R := fwd i - bwd i.

(** the absorbtances of the two halves of a stack, in terms of the fluxes *)
Lemma split_alphas l i fwd bwd : stack l -> (0 < i < length l)%nat -> balanced l fwd bwd -> fwd 0%nat = 1 -> bwd (length l) = 0 ->
  exists g0 g1, combine_layers RF (firstn i l) = Ok g0 /\ combine_layers RF (skipn i l) = Ok g1 /\
    combined_alphas RF g0 g1 = (net fwd bwd 0 - net fwd bwd i, net fwd bwd i - net fwd bwd (length l)).
Proof.
  intros H Hi Hb F0 Bn. destruct (stack_firstn l i H Hi) as [S0 T0]. pose proof (stack_skipn l i H ltac:(lia)) as S1.
  destruct (combine_layers_spec _ S0) as (g0 & E0 & P0 & Tp & R0). destruct (combine_layers_spec _ S1) as (g1 & E1 & P1 & _ & R1).
  exists g0, g1. split; [assumption|]. split; [assumption|].
  specialize (Tp T0). pose proof (denom_pos g0 g1 P0 P1 Tp) as HD.
  destruct (R0 fwd bwd) as [A1 A2]. { intros j x Hx. apply nth_firstn_some in Hx. apply Hb. apply Hx. }
  destruct (R1 (fun j => fwd (i + j)%nat) (fun j => bwd (i + j)%nat)) as [B1 B2].
  { intros j x Hx. rewrite nth_skipn in Hx. rewrite !Nat.add_succ_r. apply Hb. exact Hx. }
  rewrite firstn_length, Nat.min_l in A1, A2 by lia. rewrite skipn_length in B1, B2. rewrite Nat.add_0_r in B1, B2.
  replace (i + (length l - i))%nat with (length l) in B1, B2 by lia. rewrite Bn in B1, B2. rewrite F0 in A1, A2.
  destruct P0 as (_&_&_&_&_&AF0&AB0), P1 as (_&_&_&_&_&AF1&AB1).
  unfold combined_alphas, net. cbn [fadd fsub fmul fdiv f1 RF]. rewrite F0, Bn, AF0, AB0, AF1.
  assert (E : fwd i = tau g0 / (1 - rho_back g0 * rho_front g1)).
  { apply Rmult_eq_reg_r with (1 - rho_back g0 * rho_front g1); [|lra]. unfold Rdiv. rewrite Rmult_assoc, Rinv_l, Rmult_1_r by lra.
    rewrite B2 in A1. lra. }
  rewrite A2, B1, B2, E. f_equal; field; lra.
Qed.

Lemma alphas_loop_spec l fwd bwd : stack l -> balanced l fwd bwd -> fwd 0%nat = 1 -> bwd (length l) = 0 ->
  forall k i, (0 < i)%nat -> (i + k <= length l)%nat ->
  alphas_loop RF l (seq i k) (net fwd bwd 0 - net fwd bwd (i - 1)) = Ok (map (fun j => net fwd bwd (j - 1) - net fwd bwd j) (seq i k)).
Proof.
  intros H Hb F0 Bn. induction k as [|k IH]; intros i Hi Hk; [reflexivity|]. cbn [seq alphas_loop map].
  destruct (split_alphas l i fwd bwd H ltac:(lia) Hb F0 Bn) as (g0 & g1 & E0 & E1 & E). rewrite E0. cbn [bind]. rewrite E1. cbn [bind]. rewrite E. cbn [fst].
  specialize (IH (S i) ltac:(lia) ltac:(lia)). replace (S i - 1)%nat with i in IH by lia. rewrite IH. cbn [bind]. do 2 f_equal.
  cbn [fsub RF]. ring.
Qed.

Lemma alphas_spec l fwd bwd : stack l -> balanced l fwd bwd -> fwd 0%nat = 1 -> bwd (length l) = 0 ->
  alphas RF l = Ok (map (fun j => net fwd bwd j - net fwd bwd (S j)) (seq 0 (length l))).
Proof.
  intros H Hb F0 Bn. destruct l as [|g [|h l]]; [destruct H| |].
  - cbn. do 2 f_equal. destruct (Hb 0%nat g eq_refl) as [A B]. cbn [length] in Bn. unfold net. rewrite A, B, F0, Bn.
    destruct H as (_&_&_&_&_&AF&_). rewrite AF. ring.
  - set (L := g :: h :: l) in *. unfold alphas. fold L. change (g :: h :: l) with L. set (n := length L).
    assert (Hn : (2 <= n)%nat) by (cbn; lia).
    pose proof (alphas_loop_spec L fwd bwd H Hb F0 Bn (n - 1) 1 ltac:(lia) ltac:(fold n; lia)) as E.
    replace (net fwd bwd 0 - net fwd bwd (1 - 1)) with (f0 RF) in E by (cbn [Nat.sub f0 RF]; ring).
    change (match L with [] => Ok [] | [g0] => Ok [alpha_front g0] | _ :: _ :: _ =>
      do r <- alphas_loop RF L (seq 1 (n - 1)) (f0 RF); do g0 <- combine_layers RF (firstn (n - 1) L);
      match nth_error L (n - 1) with Some g1 => Ok (r ++ [snd (combined_alphas RF g0 g1)]) | None => Panic end end)
      with (do r <- alphas_loop RF L (seq 1 (n - 1)) (f0 RF); do g0 <- combine_layers RF (firstn (n - 1) L);
      match nth_error L (n - 1) with Some g1 => Ok (r ++ [snd (combined_alphas RF g0 g1)]) | None => Panic end).
    rewrite E. cbn [bind].
    destruct (split_alphas L (n - 1) fwd bwd H ltac:(fold n; lia) Hb F0 Bn) as (g0 & g1 & E0 & E1 & Ea). rewrite E0. cbn [bind].
    destruct (nth_error L (n - 1)) as [z|] eqn:Z; [|apply nth_error_None in Z; fold n in Z; lia].
    assert (skipn (n - 1) L = [z]).
    { apply list_ext. intros j. rewrite nth_skipn. destruct j as [|j]; [rewrite Nat.add_0_r; exact Z|].
      transitivity (@None glass); [apply nth_error_None; fold n; lia|symmetry; apply nth_error_None; cbn; lia]. }
    rewrite H0 in E1. injection E1 as ->. rewrite Ea. cbn [snd]. fold n. f_equal.
    replace (seq 0 n) with (seq 0 (n - 1 + 1)) by (f_equal; lia). rewrite seq_app, map_app. cbn [map seq]. f_equal.
    + rewrite <- seq_shift, map_map. apply map_ext. intros j. replace (S j - 1)%nat with j by lia. reflexivity.
Qed.

Lemma net_layer l fwd bwd i g : stack l -> balanced l fwd bwd -> nth_error l i = Some g ->
  net fwd bwd i - net fwd bwd (S i) = alpha_front g * fwd i + alpha_back g * bwd (S i).
Proof.
  intros H Hb E. destruct (Hb i g E) as [A B]. destruct (stack_physical l i g H E) as (_&_&_&_&_&AF&AB).
  unfold net. rewrite A, B, AF, AB. ring.
Qed.

Lemma telescope (f : nat -> R) n : fold_right Rplus 0 (map (fun j => f j - f (S j)) (seq 0 n)) = f 0%nat - f n.
Proof.
  assert (H : forall n i, fold_right Rplus 0 (map (fun j => f j - f (S j)) (seq i n)) = f i - f (i + n)%nat).
  { clear n. induction n; intros i; cbn [seq map fold_right]; [rewrite Nat.add_0_r; ring|]. rewrite IHn.
    replace (S i + n)%nat with (i + S n)%nat by lia. ring. }
  rewrite H. reflexivity.
Qed.

Local Notation total l := (fold_right Rplus 0 l).

(** ** C49 *)
(** the fluxes for a unit of radiation from the front exist and are the only ones *)
Theorem C49_fluxes_unique l : stack l -> exists fwd bwd, (balanced l fwd bwd /\ fwd 0%nat = 1 /\ bwd (length l) = 0) /\
  forall fwd' bwd', balanced l fwd' bwd' -> fwd' 0%nat = 1 -> bwd' (length l) = 0 ->
    forall i, (i <= length l)%nat -> fwd' i = fwd i /\ bwd' i = bwd i.
Proof.
  intros H. destruct (fluxes_exist l 1 0 H ltac:(lra) ltac:(lra)) as (f & w & Hb & F0 & Wn & _ & _). exists f, w. split; [auto|].
  intros f' w' Hb' F0' Wn' i Hi.
  assert (G : forall l f w f' w', stack l -> balanced l f w -> balanced l f' w' -> f 0%nat = f' 0%nat -> w (length l) = w' (length l) ->
    forall i, (i <= length l)%nat -> f' i = f i /\ w' i = w i).
  { clear. induction l as [|g l IH]; intros f w f' w' H Hb Hb' E0 En i Hi; [destruct H|].
    destruct (combine_layers_spec _ H) as (c & _ & _ & _ & Hc). destruct (Hc f w Hb) as [_ W], (Hc f' w' Hb') as [_ W'].
    assert (W0 : w' 0%nat = w 0%nat) by (rewrite W, W', E0, En; reflexivity).
    destruct i as [|i]; [auto|].
    destruct l as [|h l].
    - cbn in Hi. assert (i = 0%nat) by lia. subst i. cbn in En. destruct (Hb 0%nat g eq_refl) as [A _], (Hb' 0%nat g eq_refl) as [A' _].
      rewrite A, A', E0, En. auto.
    - apply stack_cons in H; [|discriminate]. destruct H as (Hg & Ht & Hl).
      assert (S1 : w' 1%nat = w 1%nat).
      { destruct (Hb 0%nat g eq_refl) as [_ B], (Hb' 0%nat g eq_refl) as [_ B'].
        apply Rmult_eq_reg_l with (tau g); [|lra]. rewrite W0, E0 in *. lra. }
      apply (IH (fun i => f (S i)) (fun i => w (S i)) (fun i => f' (S i)) (fun i => w' (S i)) Hl).
      + intros j x Hx. apply (Hb (S j) x Hx).
      + intros j x Hx. apply (Hb' (S j) x Hx).
      + destruct (Hb 0%nat g eq_refl) as [A _], (Hb' 0%nat g eq_refl) as [A' _]. rewrite A, A', S1, E0. reflexivity.
      + exact En.
      + cbn in *. lia. }
  apply (G l f w f' w'); auto; congruence.
Qed.

(** what the code computes is what those fluxes say: absorbed by each layer, transmitted and reflected by the whole *)
Theorem C49_net_radiation l fwd bwd : stack l -> balanced l fwd bwd -> fwd 0%nat = 1 -> bwd (length l) = 0 ->
  exists als c, alphas RF l = Ok als /\ combine_layers RF l = Ok c /\ length als = length l /\
    tau c = fwd (length l) /\ rho_front c = bwd 0%nat /\
    forall i g, nth_error l i = Some g -> nth_error als i = Some (alpha_front g * fwd i + alpha_back g * bwd (S i)).
Proof.
  intros H Hb F0 Bn. destruct (combine_layers_spec l H) as (c & E & _ & _ & Hc). destruct (Hc fwd bwd Hb) as [A B].
  rewrite F0, Bn in A, B. exists (map (fun j => net fwd bwd j - net fwd bwd (S j)) (seq 0 (length l))), c.
  split; [apply alphas_spec; assumption|]. split; [exact E|]. split; [rewrite map_length, seq_length; reflexivity|].
  split; [lra|]. split; [lra|]. intros i g Hg. rewrite <- (net_layer l fwd bwd i g H Hb Hg).
  assert (i < length l)%nat by (apply nth_error_Some; congruence).
  rewrite nth_error_map. rewrite (nth_error_nth' _ 0%nat) by (rewrite seq_length; assumption). rewrite seq_nth by assumption. reflexivity.
Qed.

(** nothing is lost or created, and every share is between zero and one *)
Theorem C49_energy_conserved l : stack l -> exists als c, alphas RF l = Ok als /\ combine_layers RF l = Ok c /\ length als = length l /\
  total als + rho_front c + tau c = 1 /\ Forall (fun a => 0 <= a <= 1) als /\ 0 <= rho_front c <= 1 /\ 0 <= tau c <= 1.
Proof.
  intros H. destruct (fluxes_exist l 1 0 H ltac:(lra) ltac:(lra)) as (f & w & Hb & F0 & Wn & Pf & Pw).
  destruct (C49_net_radiation l f w H Hb F0 Wn) as (als & c & EA & EC & L & T & RH & Hal). exists als, c.
  split; [exact EA|]. split; [exact EC|]. split; [exact L|].
  assert (S : total als + rho_front c + tau c = 1).
  { pose proof (alphas_spec l f w H Hb F0 Wn) as E2. rewrite EA in E2. injection E2 as ->. rewrite telescope. unfold net. rewrite T, RH, F0, Wn. ring. }
  assert (P : Forall (fun a => 0 <= a) als).
  { apply Forall_forall. intros a Ha. apply In_nth_error in Ha. destruct Ha as [i Hi].
    assert (i < length als)%nat by (apply nth_error_Some; congruence). rewrite L in H0.
    destruct (nth_error l i) as [g|] eqn:Eg; [|apply nth_error_None in Eg; lia]. rewrite (Hal i g Eg) in Hi. injection Hi as <-.
    destruct (stack_physical l i g H Eg) as (?&?&?&?&?&AF&AB). specialize (Pf i). specialize (Pw (Datatypes.S i)). rewrite AF, AB.
    apply Rplus_le_le_0_compat; apply Rmult_le_pos; lra. }
  specialize (Pf (length l)) as PT. specialize (Pw 0%nat) as PR. rewrite <- T in PT. rewrite <- RH in PR.
  assert (TP : 0 <= total als) by (clear -P; induction P; cbn; lra).
  split; [exact S|]. split; [|split; lra].
  assert (B : total als <= 1) by lra. clear - P B. induction P as [|a als Ha P IH]; [constructor|]. cbn in B.
  assert (0 <= total als) by (clear -P; induction P; cbn; lra). constructor; [lra|]. apply IH. lra.
Qed.

(** examples: a double glazing with a coated pane *)
Definition pane : glass := mkGlazing (8 / 10) (1 / 10) (1 / 10) (1 / 10) (1 / 10).
Definition coated : glass := mkGlazing (4 / 10) (3 / 10) (1 / 10) (3 / 10) (5 / 10).
Example C49_example_stack : stack [pane; coated].
Proof. cbn. unfold physical. cbn. lra. Qed.
Example C49_example : exists als c, alphas RF [pane; coated] = Ok als /\ combine_layers RF [pane; coated] = Ok c /\
  nth 0 als 0 = 121 / 970 /\ nth 1 als 0 = 24 / 97 /\ tau c = 32 / 97.
Proof.
  set (f := fun i => match i with O => 1 | S O => 80 / 97 | _ => 32 / 97 end : R). set (w := fun i => match i with O => 289 / 970 | S O => 24 / 97 | _ => 0 end : R).
  assert (Hb : balanced [pane; coated] f w).
  { intros [|[|i]] g E; cbn in E; [injection E as <-|injection E as <-|destruct i; discriminate]; cbn; lra. }
  destruct (C49_net_radiation _ f w C49_example_stack Hb eq_refl eq_refl) as (als & c & EA & EC & _ & T & _ & Hal).
  exists als, c. split; [exact EA|]. split; [exact EC|].
  pose proof (Hal 0%nat pane eq_refl) as A0. pose proof (Hal 1%nat coated eq_refl) as A1.
  rewrite (nth_error_nth _ _ _ A0), (nth_error_nth _ _ _ A1), T. cbn. lra.
Qed.

(** ** from constructions to stacks *)
Definition R084 : R := 84 / 100.
Definition R1e9 : R := 1 / 10 ^ 9.
Local Notation from_iter := (glazing_from_iter RF R084 R1e9).

(** a transparent construction: panes separated by gases, each pane physical and letting light through *)
Inductive transparent : list (optics R) -> list glass -> Prop :=
| tr_last t af ab : 1 / 10 ^ 9 <= t -> 0 <= af -> 0 <= ab -> t + af <= 1 -> t + ab <= 1 ->
    transparent [Glass (Some t) (Some af) (Some ab)] [mkGlazing t (1 - t - af) (1 - t - ab) af ab]
| tr_cons t af ab l gs : 1 / 10 ^ 9 <= t -> 0 <= af -> 0 <= ab -> t + af <= 1 -> t + ab <= 1 -> transparent l gs ->
    transparent (Glass (Some t) (Some af) (Some ab) :: GasLayer :: l) (mkGlazing t (1 - t - af) (1 - t - ab) af ab :: gs).

Lemma transparent_stack l gs : transparent l gs -> stack gs /\ Forall (fun g => 0 < tau g) gs.
Proof.
  assert (P9 : 0 < 1 / 10 ^ 9) by lra.
  induction 1 as [t af ab|t af ab l gs ? ? ? ? ? ? [IS IF]]; split.
  - cbn. unfold physical. cbn. lra.
  - repeat constructor. cbn. lra.
  - apply stack_cons; [apply stack_nonempty; assumption|]. unfold physical. cbn. repeat split; try lra. assumption.
  - constructor; [cbn; lra|assumption].
Qed.

(** the stack built from a transparent construction is the expected one, so C49 applies to it *)
Theorem C49_construction l gs : transparent l gs -> front_glazing_system RF R084 R1e9 l = Ok gs /\ stack gs.
Proof.
  intros H. split; [|apply (transparent_stack l gs H)]. unfold front_glazing_system.
  assert (N : forall t af ab, 1 / 10 ^ 9 <= t -> 0 <= af -> 0 <= ab -> t + af <= 1 -> t + ab <= 1 ->
    new_glazing RF t (1 - t - af) (1 - t - ab) = Ok (mkGlazing t (1 - t - af) (1 - t - ab) af ab)).
  { intros. assert (0 < 1 / 10 ^ 9) by lra. rewrite new_glazing_ok by lra. do 2 f_equal; ring. }
  induction H as [t af ab|t af ab l gs ? ? ? ? ? ? IH]; cbn [glazing_from_iter or_else fsub f1 RF]; rewrite N by assumption; cbn [bind fltb RF];
    unfold R1e9; destruct (Rltb_spec t (1 / 10 ^ 9)); try lra; [reflexivity|].
  fold R1e9. rewrite IH. reflexivity.
Qed.

(** ** C50 *)
Definition flip (g : glass) : glass := mkGlazing (tau g) (rho_back g) (rho_front g) (alpha_back g) (alpha_front g).
(** radiation from the back meets the layers in the opposite order, and their other face *)
Definition mirror (l : list glass) : list glass := rev (map flip l).

Definition same_faces (o : optics R) : Prop := match o with Glass _ af ab => af = ab | GasLayer => True end.

Lemma transparent_snoc l gs t af ab : transparent l gs -> 1 / 10 ^ 9 <= t -> 0 <= af -> 0 <= ab -> t + af <= 1 -> t + ab <= 1 ->
  transparent (l ++ [GasLayer; Glass (Some t) (Some af) (Some ab)]) (gs ++ [mkGlazing t (1 - t - af) (1 - t - ab) af ab]).
Proof.
  intros H ? ? ? ? ?. induction H; cbn [List.app].
  - apply tr_cons; try assumption. apply tr_last; assumption.
  - apply tr_cons; assumption.
Qed.

Lemma transparent_rev l gs : transparent l gs -> transparent (rev l) (rev gs).
Proof.
  induction 1; cbn [rev]; [constructor; assumption|]. rewrite <- app_assoc. cbn [List.app]. apply transparent_snoc; assumption.
Qed.

(** the back system has the layers in the opposite order, each with its front face in front *)
Theorem C50_back_system l gs : transparent l gs -> back_glazing_system RF R084 R1e9 l = Ok (rev gs).
Proof. intros H. unfold back_glazing_system. apply (C49_construction (rev l) (rev gs)). apply transparent_rev. exact H. Qed.

(** so it is the mirrored front system when the two faces of every pane are alike *)
Theorem C50_mirrored_partial l gs : transparent l gs -> Forall same_faces l -> back_glazing_system RF R084 R1e9 l = Ok (mirror gs).
Proof.
  intros H S. rewrite (C50_back_system l gs H). f_equal. unfold mirror. f_equal.
  induction H; inversion S; subst; cbn [map].
  - cbn in *. unfold flip. cbn. match goal with E : Some _ = Some _ |- _ => injection E as -> end. reflexivity.
  - match goal with E : Forall _ (GasLayer :: _) |- _ => inversion E; subst end. f_equal; [|auto].
    cbn in *. unfold flip. cbn. match goal with E : Some _ = Some _ |- _ => injection E as -> end. reflexivity.
Qed.

(** and it is not for a single coated pane *)
Theorem C50_mirrored_refuted : exists l gs, transparent l gs /\ front_glazing_system RF R084 R1e9 l = Ok gs /\
  back_glazing_system RF R084 R1e9 l <> Ok (mirror gs).
Proof.
  exists [Glass (Some (4 / 10)) (Some (3 / 10)) (Some (5 / 10))], [mkGlazing (4 / 10) (1 - 4 / 10 - 3 / 10) (1 - 4 / 10 - 5 / 10) (3 / 10) (5 / 10)].
  assert (H : transparent [Glass (Some (4 / 10)) (Some (3 / 10)) (Some (5 / 10))] [mkGlazing (4 / 10) (1 - 4 / 10 - 3 / 10) (1 - 4 / 10 - 5 / 10) (3 / 10) (5 / 10)]).
  { apply tr_last; lra. }
  split; [exact H|]. split; [apply (C49_construction _ _ H)|]. rewrite (C50_back_system _ _ H). cbn. unfold flip. cbn. intros [= E]. lra.
Qed.

(** for what the user sees: a pane absorbing 30 % of the sun from the front and 50 % from the back absorbs 30 % from both *)
Theorem C50_absorbed_from_back_refuted : exists l gs als, transparent l gs /\ back_glazing_system RF R084 R1e9 l = Ok als /\
  exists a, alphas RF als = Ok [a] /\ alphas RF (mirror gs) <> Ok [a].
Proof.
  exists [Glass (Some (4 / 10)) (Some (3 / 10)) (Some (5 / 10))], [mkGlazing (4 / 10) (1 - 4 / 10 - 3 / 10) (1 - 4 / 10 - 5 / 10) (3 / 10) (5 / 10)],
    [mkGlazing (4 / 10) (1 - 4 / 10 - 3 / 10) (1 - 4 / 10 - 5 / 10) (3 / 10) (5 / 10)].
  assert (H : transparent [Glass (Some (4 / 10)) (Some (3 / 10)) (Some (5 / 10))] [mkGlazing (4 / 10) (1 - 4 / 10 - 3 / 10) (1 - 4 / 10 - 5 / 10) (3 / 10) (5 / 10)]).
  { apply tr_last; lra. }
  split; [exact H|]. split; [apply (C50_back_system _ _ H)|]. exists (3 / 10). cbn. split; [reflexivity|]. intros [= E]. lra.
Qed.

(** transmittance does not depend on the side, when the mirrored system is used *)
Theorem C50_reciprocity l : stack l -> Forall (fun g => 0 < tau g) l ->
  exists c m, combine_layers RF l = Ok c /\ combine_layers RF (mirror l) = Ok m /\ tau m = tau c /\ rho_front m = rho_back c /\ rho_back m = rho_front c.
Proof.
  intros H T.
  assert (HM : stack (mirror l)).
  { assert (P : Forall physical l). { apply Forall_forall. intros g Hg. apply In_nth_error in Hg. destruct Hg as [i Hi]. apply (stack_physical l i g H Hi). }
    assert (G : forall k, k <> [] -> Forall physical k -> Forall (fun g => 0 < tau g) k -> stack k).
    { clear. induction k as [|g k IH]; intros N P T; [congruence|]. inversion P; inversion T; subst. destruct k; [assumption|].
      apply stack_cons; [discriminate|]. split; [assumption|]. split; [assumption|]. apply IH; [discriminate|assumption|assumption]. }
    apply G; unfold mirror.
    - intros E. apply (f_equal (@length _)) in E. rewrite rev_length, map_length in E. destruct l; [destruct H|discriminate].
    - apply Forall_rev. apply Forall_map. revert P. apply Forall_impl. intros g (?&?&?&?&?&?&?). unfold physical, flip. cbn. tauto.
    - apply Forall_rev. apply Forall_map. revert T. apply Forall_impl. auto. }
  destruct (combine_layers_spec l H) as (c & EC & _ & _ & Hc). destruct (combine_layers_spec _ HM) as (m & EM & _ & _ & Hm).
  exists c, m. split; [exact EC|]. split; [exact EM|].
  assert (L : length (mirror l) = length l) by (unfold mirror; rewrite rev_length, map_length; reflexivity).
  assert (B : forall f w, balanced l f w -> balanced (mirror l) (fun i => w (length l - i)%nat) (fun i => f (length l - i)%nat)).
  { intros f w Hb i g E. assert (Hi : (i < length l)%nat) by (rewrite <- L; apply nth_error_Some; congruence).
    unfold mirror in E.
    assert (E' : nth_error l (length l - S i) = Some (flip g)).
    { rewrite <- map_rev, nth_error_map in E. destruct (nth_error (rev l) i) as [x|] eqn:X; [|discriminate]. injection E as <-.
      rewrite (nth_error_nth' l x) by lia. f_equal. rewrite (nth_error_nth' (rev l) x) in X by (rewrite rev_length; lia).
      injection X as X. rewrite rev_nth in X by assumption. rewrite X. destruct x; reflexivity. }
    destruct (Hb _ _ E') as [A1 A2]. cbn [flip tau rho_back rho_front] in A1, A2.
    replace (S (length l - S i)) with (length l - i)%nat in A1, A2 by lia. split; lra. }
  destruct (fluxes_exist l 1 0 H ltac:(lra) ltac:(lra)) as (f & w & Hb & F0 & Wn & _ & _).
  destruct (fluxes_exist l 0 1 H ltac:(lra) ltac:(lra)) as (f' & w' & Hb' & F0' & Wn' & _ & _).
  destruct (Hc f w Hb) as [C1 C2]. destruct (Hc f' w' Hb') as [C1' C2'].
  destruct (Hm _ _ (B f w Hb)) as [M1 M2]. destruct (Hm _ _ (B f' w' Hb')) as [M1' M2'].
  rewrite L, Nat.sub_diag, Nat.sub_0_r in M1, M2, M1', M2'.
  rewrite F0, Wn in *. rewrite F0', Wn' in *. lra.
Qed.

Example C50_example : transparent [Glass (Some (8 / 10)) (Some (1 / 10)) (Some (1 / 10)); GasLayer; Glass (Some (4 / 10)) (Some (3 / 10)) (Some (5 / 10))]
  [mkGlazing (8 / 10) (1 - 8 / 10 - 1 / 10) (1 - 8 / 10 - 1 / 10) (1 / 10) (1 / 10); mkGlazing (4 / 10) (1 - 4 / 10 - 3 / 10) (1 - 4 / 10 - 5 / 10) (3 / 10) (5 / 10)].
Proof. apply tr_cons; try lra. apply tr_last; lra. Qed.
Example C50_example_alike : Forall same_faces [Glass (Some (8 / 10)) (Some (1 / 10)) (Some (1 / 10)); GasLayer; Glass (Some (5 / 10)) (Some (2 / 10)) (Some (2 / 10))].
Proof. repeat constructor. Qed.

(** ** constructions whose optics stop the program *)
(** glass whose absorbtances are not given: they default to 84 %, more than what 80 % of transmittance leaves *)
Theorem C49_default_absorbtance_refuted : exists t, 0 < t < 1 /\ front_glazing_system RF R084 R1e9 [Glass (Some t) None None] = Panic.
Proof.
  exists (8 / 10). split; [lra|]. unfold front_glazing_system. cbn [glazing_from_iter or_else]. unfold new_glazing, R084. cbn [fleb fsub f0 f1 RF].
  destruct (Rleb_spec 0 (1 - 8 / 10 - 84 / 100)); [lra|]. rewrite andb_false_r. reflexivity.
Qed.
(** laminated glass: two panes without a gas in between *)
Theorem C49_laminated_refuted : exists g h, transparent [g] [h] /\ front_glazing_system RF R084 R1e9 [g; g] = Panic.
Proof.
  exists (Glass (Some (1 / 2)) (Some (1 / 4)) (Some (1 / 4))), (mkGlazing (1 / 2) (1 - 1 / 2 - 1 / 4) (1 - 1 / 2 - 1 / 4) (1 / 4) (1 / 4)).
  split; [apply tr_last; lra|]. unfold front_glazing_system. cbn [glazing_from_iter or_else fsub f1 RF]. rewrite new_glazing_ok by lra. cbn [bind fltb RF].
  destruct (Rltb_spec (1 / 2) R1e9); [unfold R1e9 in *; lra|]. reflexivity.
Qed.
(** on doubles: glass that transmits 90 % and absorbs 10 % has a negative reflectance, by rounding, and is refused *)
Theorem C49_rounding_refuted : front_glazing_system PF 0.84%float 1e-9%float [Glass (Some 0.9%float) (Some 0.1%float) (Some 0.1%float)] = Panic.
Proof. vm_compute. reflexivity. Qed.
Theorem C49_rounding_exact : exists gs, front_glazing_system RF R084 R1e9 [Glass (Some (9 / 10)) (Some (1 / 10)) (Some (1 / 10))] = Ok gs.
Proof.
  eexists. refine (proj1 (C49_construction _ _ _)). apply tr_last; lra.
Qed.

(** ** C68: sharing the absorbed radiation among nodes *)
(** the first node of layer [p]: layers have one element at least and neighbouring layers share a node *)
Definition first_node (ns : list nat) (p : nat) : nat := list_sum (map (fun n => Nat.max 1 n) (firstn p ns)).
Definition elements_of (ns : list nat) (p : nat) : nat := Nat.max 1 (nth p ns 0%nat).

Lemma first_node_S ns p : (p < length ns)%nat -> first_node ns (S p) = (first_node ns p + elements_of ns p)%nat.
Proof.
  unfold first_node, elements_of. revert ns. induction p as [|p IH]; intros [|n ns] H; cbn [length] in H; try lia.
  - cbn [firstn map list_sum fold_right nth]. lia.
  - rewrite (firstn_cons (S p)), (firstn_cons p). cbn [map]. change (list_sum (Nat.max 1 n :: ?l)) with (Nat.max 1 n + list_sum l)%nat.
    cbn [nth]. unfold list_sum in *. cbn [fold_right]. rewrite IH by lia. lia.
Qed.
Lemma first_node_mono ns p q : (p <= q)%nat -> (first_node ns p <= first_node ns q)%nat.
Proof.
  intros H. unfold first_node. replace (firstn p ns) with (firstn p (firstn q ns)) by (rewrite firstn_firstn; f_equal; lia).
  rewrite <- (firstn_skipn p (firstn q ns)) at 2. rewrite map_app, list_sum_app. lia.
Qed.

Lemma elements_ok ns p : (p < length ns)%nat -> elements ns p = Ok (elements_of ns p).
Proof.
  intros H. unfold elements, elements_of. destruct (nth_error ns p) as [n|] eqn:E; [|apply nth_error_None in E; lia].
  rewrite (nth_error_nth _ _ _ E). f_equal. destruct (Nat.eqb_spec n 0); lia.
Qed.

Lemma total_upd l i v x : nth_error l i = Some v -> total (upd l i (v + x)) = total l + x.
Proof.
  revert i. induction l as [|y l IH]; intros [|i] E; cbn in E; try discriminate.
  - injection E as ->. cbn. ring.
  - cbn. fold (upd l i (v + x)). rewrite (IH i E). ring.
Qed.
Lemma add_to_tab N f i x : (i < N)%nat ->
  add_to (tab N f) i x = Ok (tab N (fun j => if (j =? i)%nat then f j + x else f j)) /\
  total (tab N (fun j => if (j =? i)%nat then f j + x else f j)) = total (tab N f) + x.
Proof.
  intros H. unfold add_to. assert (E : nth_error (tab N f) i = Some (f i)) by (rewrite nth_error_tab; destruct (Nat.ltb_spec i N); [reflexivity|lia]).
  rewrite E. assert (U : upd (tab N f) i (f i + x) = tab N (fun j => if (j =? i)%nat then f j + x else f j)).
  { rewrite upd_tab by assumption. apply tab_ext. intros j Hj. destruct (Nat.eqb_spec j i) as [->|]; reflexivity. }
  rewrite <- U. split; [reflexivity|]. apply total_upd. exact E.
Qed.

Lemma spread_tab N x k : forall f g, (g + k <= N)%nat ->
  spread (map (fun i => g + i)%nat (seq 0 k)) x (tab N f) = Ok (tab N (fun j => if (g <=? j)%nat && (j <? g + k)%nat then f j + x else f j)) /\
  total (tab N (fun j => if (g <=? j)%nat && (j <? g + k)%nat then f j + x else f j)) = total (tab N f) + INR k * x.
Proof.
  induction k as [|k IH]; intros f g H.
  - cbn [seq map spread]. assert (E : tab N (fun j => if (g <=? j)%nat && (j <? g + 0)%nat then f j + x else f j) = tab N f).
    { apply tab_ext. intros j Hj. destruct (Nat.leb_spec g j), (Nat.ltb_spec j (g + 0)); cbn; try reflexivity; lia. }
    rewrite E. split; [reflexivity|]. cbn. ring.
  - cbn [seq map spread]. rewrite Nat.add_0_r. destruct (add_to_tab N f g x ltac:(lia)) as [A B]. rewrite A. cbn [bind].
    rewrite <- seq_shift, map_map.
    rewrite (map_ext (fun i => g + S i)%nat (fun i => S g + i)%nat) by (intros; lia).
    destruct (IH (fun j => if (j =? g)%nat then f j + x else f j) (S g) ltac:(lia)) as [C D]. rewrite C.
    assert (E : forall j, (if (S g <=? j)%nat && (j <? S g + k)%nat then (if (j =? g)%nat then f j + x else f j) + x else (if (j =? g)%nat then f j + x else f j))
      = (if (g <=? j)%nat && (j <? g + S k)%nat then f j + x else f j)).
    { intros j. destruct (Nat.leb_spec (S g) j), (Nat.ltb_spec j (S g + k)), (Nat.eqb_spec j g), (Nat.leb_spec g j), (Nat.ltb_spec j (g + S k)); cbn; try reflexivity; lia. }
    rewrite (tab_ext N _ (fun j => if (g <=? j)%nat && (j <? g + S k)%nat then f j + x else f j)) in D |- * by (intros; apply E).
    split; [reflexivity|]. rewrite D, B, S_INR. ring.
Qed.

Lemma spread_down_tab N x k : forall f g i0, (i0 + k <= g)%nat -> (g <= N)%nat ->
  spread_down (seq i0 k) g x (tab N f) = Ok (tab N (fun j => if (g <=? j + (i0 + k))%nat && (j + i0 <? g)%nat then f j + x else f j)) /\
  total (tab N (fun j => if (g <=? j + (i0 + k))%nat && (j + i0 <? g)%nat then f j + x else f j)) = total (tab N f) + INR k * x.
Proof.
  induction k as [|k IH]; intros f g i0 H HN.
  - cbn [seq spread_down]. assert (E : tab N (fun j => if (g <=? j + (i0 + 0))%nat && (j + i0 <? g)%nat then f j + x else f j) = tab N f).
    { apply tab_ext. intros j Hj. destruct (Nat.leb_spec g (j + (i0 + 0))), (Nat.ltb_spec (j + i0) g); cbn; try reflexivity; lia. }
    rewrite E. split; [reflexivity|]. cbn. ring.
  - cbn [seq spread_down]. unfold usub at 1. destruct (Nat.leb_spec (i0 + 1) g); [|lia]. cbn [bind].
    destruct (add_to_tab N f (g - (i0 + 1)) x ltac:(lia)) as [A B]. rewrite A. cbn [bind].
    destruct (IH (fun j => if (j =? g - (i0 + 1))%nat then f j + x else f j) g (S i0) ltac:(lia) HN) as [C D]. rewrite C.
    assert (E : forall j, (if (g <=? j + (S i0 + k))%nat && (j + S i0 <? g)%nat then (if (j =? g - (i0 + 1))%nat then f j + x else f j) + x else (if (j =? g - (i0 + 1))%nat then f j + x else f j))
      = (if (g <=? j + (i0 + S k))%nat && (j + i0 <? g)%nat then f j + x else f j)).
    { intros j. destruct (Nat.leb_spec g (j + (S i0 + k))), (Nat.ltb_spec (j + S i0) g), (Nat.eqb_spec j (g - (i0 + 1))), (Nat.leb_spec g (j + (i0 + S k))), (Nat.ltb_spec (j + i0) g);
        cbn [andb]; try reflexivity; lia. }
    rewrite (tab_ext N _ (fun j => if (g <=? j + (i0 + S k))%nat && (j + i0 <? g)%nat then f j + x else f j)) in D |- * by (intros; apply E).
    split; [reflexivity|]. rewrite D, B, S_INR. ring.
Qed.

(** what a node of a pane gets: [j] counts the nodes from the face that the radiation meets first *)
Definition share (t : R) (n : nat) (a : R) (j : nat) : R := if Rltb 0 t then a / INR (n + 1) else if (j =? 0)%nat then a else 0.

Lemma front_shares_spec ns taus N : length ns = length taus -> (first_node ns (length ns) < N)%nat ->
  forall als k f, 
  (forall i, (i < length als)%nat -> (2 * (k + i) < length ns)%nat /\ exists t, nth_error taus (2 * (k + i)) = Some (Some t)) ->
  (forall i, (S i < length als)%nat -> nth (2 * (k + i) + 1) ns 0%nat = 0%nat) ->
  exists h, front_shares ns taus als k (first_node ns (2 * k)) (tab N f) = Ok (tab N h) /\ total (tab N h) = total (tab N f) + total als /\
    (forall j, (j < first_node ns (2 * k))%nat -> h j = f j) /\
    (forall i j a t, nth_error als i = Some a -> nth_error taus (2 * (k + i)) = Some (Some t) -> (j <= elements_of ns (2 * (k + i)))%nat ->
      h (first_node ns (2 * (k + i)) + j)%nat = f (first_node ns (2 * (k + i)) + j)%nat + share t (elements_of ns (2 * (k + i))) a j) /\
    (forall j, (0 < length als)%nat -> (first_node ns (2 * (k + (length als - 1)) + 1) < j)%nat -> h j = f j).
Proof.
  intros HL HN. induction als as [|a als IH]; intros k f H1 H2.
  - cbn [front_shares length]. exists f. repeat split; try lra; try reflexivity; try (intros; lia).
    + cbn; lra.
    + intros i j a t E. destruct i; discriminate.
  - cbn [front_shares]. destruct (H1 0%nat ltac:(cbn; lia)) as (Hk & t & Et). rewrite Nat.add_0_r in Hk, Et.
    rewrite elements_ok by assumption. cbn [bind]. rewrite Et. set (n := elements_of ns (2 * k)) in *. set (g := first_node ns (2 * k)) in *.
    assert (FS : first_node ns (2 * k + 1) = (g + n)%nat) by (replace (2 * k + 1)%nat with (S (2 * k)) by lia; apply first_node_S; assumption).
    assert (GN : (g + n < N)%nat).
    { rewrite <- FS. apply Nat.le_lt_trans with (first_node ns (length ns)); [apply first_node_mono; lia|assumption]. }
    set (f1 := fun j => if (g <=? j)%nat && (j <? g + (n + 1))%nat then f j + share t n a (j - g) else f j).
    assert (ST : (if Rltb 0 t then spread (map (fun i => g + i)%nat (seq 0 (n + 1))) (a / INR (n + 1)) (tab N f) else add_to (tab N f) g a) = Ok (tab N f1) /\
      total (tab N f1) = total (tab N f) + a).
    { unfold f1, share. destruct (Rltb_spec 0 t).
      - destruct (spread_tab N (a / INR (n + 1)) (n + 1) f g ltac:(lia)) as [A B]. split; [exact A|]. rewrite B.
        assert (INR (n + 1) <> 0) by (apply not_0_INR; lia). field. assumption.
      - destruct (add_to_tab N f g a ltac:(lia)) as [A B].
        rewrite (tab_ext N (fun j => if (g <=? j)%nat && (j <? g + (n + 1))%nat then f j + (if (j - g =? 0)%nat then a else 0) else f j)
          (fun j => if (j =? g)%nat then f j + a else f j)); [split; assumption|].
        intros j Hj. destruct (Nat.leb_spec g j), (Nat.ltb_spec j (g + (n + 1))), (Nat.eqb_spec (j - g) 0), (Nat.eqb_spec j g); cbn [andb]; try lia; try lra; reflexivity. }
    destruct ST as [ST SUM]. rewrite ST. cbn [bind].
    destruct als as [|a' als].
    + cbn [front_shares]. exists f1. split; [reflexivity|]. split; [rewrite SUM; cbn; ring|]. split; [|split].
      * intros j Hj. unfold f1. destruct (Nat.leb_spec g j); [lia|reflexivity].
      * intros [|i] j x t' Ex Et' Hj; [|destruct i; discriminate]. cbn in Ex. injection Ex as <-. rewrite Nat.add_0_r in *. fold n in Hj |- *. fold g.
        assert (t' = t) by congruence. subst t'. unfold f1.
        destruct (Nat.leb_spec g (g + j)), (Nat.ltb_spec (g + j) (g + (n + 1))); try lia. cbn [andb]. replace (g + j - g)%nat with j by lia. reflexivity.
      * intros j _ Hj. cbn [length] in Hj. replace (2 * (k + (1 - 1)) + 1)%nat with (2 * k + 1)%nat in Hj by lia. rewrite FS in Hj.
        unfold f1. destruct (Nat.leb_spec g j), (Nat.ltb_spec j (g + (n + 1))); try lia; reflexivity.
    + assert (GAS : nth (2 * k + 1) ns 0%nat = 0%nat). { specialize (H2 0%nat ltac:(cbn; lia)). rewrite Nat.add_0_r in H2. exact H2. }
      assert (Hk2 : (2 * (k + 1) < length ns)%nat) by (apply (H1 1%nat); cbn; lia).
      assert (NX : first_node ns (2 * S k) = (g + (n + 1))%nat).
      { replace (2 * S k)%nat with (S (2 * k + 1)) by lia. rewrite first_node_S by lia. rewrite FS. unfold elements_of. rewrite GAS. lia. }
      rewrite <- NX.
      destruct (IH (S k) f1) as (h & E & T & Hlow & Hin & Hout).
      { intros i Hi. replace (S k + i)%nat with (k + S i)%nat by lia. apply H1. cbn in *. lia. }
      { intros i Hi. replace (S k + i)%nat with (k + S i)%nat by lia. apply H2. cbn in *. lia. }
      exists h. split; [exact E|]. split; [rewrite T, SUM; cbn; ring|]. split; [|split].
      * intros j Hj. rewrite Hlow by lia. unfold f1. destruct (Nat.leb_spec g j); [lia|reflexivity].
      * intros [|i] j x t' Ex Et' Hj.
        -- cbn in Ex. injection Ex as <-. rewrite Nat.add_0_r in *. fold n in Hj |- *. fold g.
           assert (t' = t) by congruence. subst t'. rewrite Hlow by lia. unfold f1.
           destruct (Nat.leb_spec g (g + j)), (Nat.ltb_spec (g + j) (g + (n + 1))); try lia. cbn [andb]. replace (g + j - g)%nat with j by lia. reflexivity.
        -- cbn [nth_error] in Ex. replace (k + S i)%nat with (S k + i)%nat in * by lia. rewrite (Hin i j x t' Ex Et' Hj). f_equal.
           assert (first_node ns (2 * S k) <= first_node ns (2 * (S k + i)))%nat by (apply first_node_mono; lia).
           unfold f1. destruct (Nat.leb_spec g (first_node ns (2 * (S k + i)) + j)), (Nat.ltb_spec (first_node ns (2 * (S k + i)) + j) (g + (n + 1))); try lia; reflexivity.
      * intros j _ Hj2. cbn [length] in Hj2.
        rewrite Hout.
        -- unfold f1. assert (first_node ns (2 * k + 1) <= first_node ns (2 * (k + (S (S (length als)) - 1)) + 1))%nat by (apply first_node_mono; lia).
           rewrite FS in *. destruct (Nat.leb_spec g j), (Nat.ltb_spec j (g + (n + 1))); try lia; reflexivity.
        -- cbn; lia.
        -- cbn [length]. replace (S k + (S (length als) - 1))%nat with (k + (S (S (length als)) - 1))%nat by lia. assumption.
Qed.

Lemma back_shares_spec ns taus N : length ns = length taus -> (first_node ns (length ns) < N)%nat ->
  forall als k f,
  (forall i, (i < length als)%nat -> (2 * (k + i) + 1 <= length ns)%nat /\ exists t, nth_error taus (length ns - (2 * (k + i) + 1)) = Some (Some t)) ->
  (forall i, (S i < length als)%nat -> nth (length ns - (2 * (k + i) + 2)) ns 0%nat = 0%nat) ->
  exists h, back_shares ns taus als k (first_node ns (length ns - 2 * k) + 1) (tab N f) = Ok (tab N h) /\ total (tab N h) = total (tab N f) + total als /\
    (forall j, (first_node ns (length ns - 2 * k) < j)%nat -> h j = f j) /\
    (forall i j a t, nth_error als i = Some a -> nth_error taus (length ns - (2 * (k + i) + 1)) = Some (Some t) -> (j <= elements_of ns (length ns - (2 * (k + i) + 1)))%nat ->
      h (first_node ns (length ns - 2 * (k + i)) - j)%nat = f (first_node ns (length ns - 2 * (k + i)) - j)%nat + share t (elements_of ns (length ns - (2 * (k + i) + 1))) a j) /\
    (forall j, (0 < length als)%nat -> (j < first_node ns (length ns - (2 * (k + (length als - 1)) + 1)))%nat -> h j = f j).
Proof.
  intros HL HN. induction als as [|a als IH]; intros k f H1 H2.
  - cbn [back_shares length]. exists f. repeat split; try lra; try reflexivity; try (intros; lia).
    + cbn; lra.
    + intros i j a t E. destruct i; discriminate.
  - cbn [back_shares]. destruct (H1 0%nat ltac:(cbn; lia)) as (Hk & t & Et). rewrite Nat.add_0_r in Hk, Et.
    unfold usub at 1. destruct (Nat.leb_spec (2 * k + 1) (length taus)); [|lia]. cbn [bind]. rewrite <- HL.
    set (p := (length ns - (2 * k + 1))%nat) in *.
    rewrite elements_ok by (unfold p; lia). cbn [bind]. rewrite Et. set (n := elements_of ns p) in *.
    assert (FS : first_node ns (length ns - 2 * k) = (first_node ns p + n)%nat).
    { replace (length ns - 2 * k)%nat with (S p) by (unfold p; lia). apply first_node_S. unfold p; lia. }
    set (g := first_node ns p) in *. rewrite FS.
    assert (GN : (g + n < N)%nat).
    { rewrite <- FS. apply Nat.le_lt_trans with (first_node ns (length ns)); [apply first_node_mono; lia|assumption]. }
    set (f1 := fun j => if (g <=? j)%nat && (j <? g + (n + 1))%nat then f j + share t n a (g + n - j) else f j).
    assert (ST : (if Rltb 0 t then spread_down (seq 0 (n + 1)) (g + n + 1) (a / INR (n + 1)) (tab N f)
                  else do r <- usub (g + n + 1) 1; add_to (tab N f) r a) = Ok (tab N f1) /\
      total (tab N f1) = total (tab N f) + a).
    { unfold f1, share. destruct (Rltb_spec 0 t).
      - destruct (spread_down_tab N (a / INR (n + 1)) (n + 1) f (g + n + 1) 0 ltac:(lia) ltac:(lia)) as [A B].
        rewrite (tab_ext N (fun j => if (g <=? j)%nat && (j <? g + (n + 1))%nat then f j + a / INR (n + 1) else f j)
          (fun j => if (g + n + 1 <=? j + (0 + (n + 1)))%nat && (j + 0 <? g + n + 1)%nat then f j + a / INR (n + 1) else f j)).
        + split; [exact A|]. rewrite B. assert (INR (n + 1) <> 0) by (apply not_0_INR; lia). field. assumption.
        + intros j Hj. destruct (Nat.leb_spec g j), (Nat.ltb_spec j (g + (n + 1))), (Nat.leb_spec (g + n + 1) (j + (0 + (n + 1)))), (Nat.ltb_spec (j + 0) (g + n + 1));
            cbn [andb]; try reflexivity; lia.
      - unfold usub. destruct (Nat.leb_spec 1 (g + n + 1)); [|lia]. cbn [bind]. replace (g + n + 1 - 1)%nat with (g + n)%nat by lia.
        destruct (add_to_tab N f (g + n) a ltac:(lia)) as [A B].
        rewrite (tab_ext N (fun j => if (g <=? j)%nat && (j <? g + (n + 1))%nat then f j + (if (g + n - j =? 0)%nat then a else 0) else f j)
          (fun j => if (j =? g + n)%nat then f j + a else f j)); [split; assumption|].
        intros j Hj. destruct (Nat.leb_spec g j), (Nat.ltb_spec j (g + (n + 1))), (Nat.eqb_spec (g + n - j) 0), (Nat.eqb_spec j (g + n)); cbn [andb]; try lia; try lra; reflexivity. }
    destruct ST as [ST SUM]. rewrite ST. cbn [bind].
    assert (EG : usub (g + n + 1) (n + 1) = Ok g) by (unfold usub; destruct (Nat.leb_spec (n + 1) (g + n + 1)); [f_equal; lia|lia]).
    rewrite EG. cbn [bind].
    destruct als as [|a' als].
    + cbn [back_shares]. exists f1. split; [reflexivity|]. split; [rewrite SUM; cbn; ring|]. split; [|split].
      * intros j Hj. unfold f1. destruct (Nat.leb_spec g j), (Nat.ltb_spec j (g + (n + 1))); try lia; reflexivity.
      * intros [|i] j x t' Ex Et' Hj; [|destruct i; discriminate]. cbn in Ex. injection Ex as <-. rewrite Nat.add_0_r in *. fold p in Et', Hj |- *. fold n in Hj |- *. rewrite FS.
        assert (t' = t) by congruence. subst t'. unfold f1.
        destruct (Nat.leb_spec g (g + n - j)), (Nat.ltb_spec (g + n - j) (g + (n + 1))); try lia. cbn [andb]. replace (g + n - (g + n - j))%nat with j by lia. reflexivity.
      * intros j _ Hj. cbn [length] in Hj. replace (length ns - (2 * (k + (1 - 1)) + 1))%nat with p in Hj by (unfold p; lia). fold g in Hj.
        unfold f1. destruct (Nat.leb_spec g j), (Nat.ltb_spec j (g + (n + 1))); try lia; reflexivity.
    + assert (GAS : nth (length ns - (2 * k + 2)) ns 0%nat = 0%nat). { specialize (H2 0%nat ltac:(cbn; lia)). rewrite Nat.add_0_r in H2. exact H2. }
      assert (Hk2 : (2 * (k + 1) + 1 <= length ns)%nat) by (apply (H1 1%nat); cbn; lia).
      assert (NX : g = (first_node ns (length ns - 2 * S k) + 1)%nat).
      { unfold g. replace p with (S (length ns - 2 * S k)) by (unfold p; lia). rewrite first_node_S by lia. unfold elements_of.
        replace (length ns - 2 * S k)%nat with (length ns - (2 * k + 2))%nat by lia. rewrite GAS. lia. }
      rewrite NX.
      destruct (IH (S k) f1) as (h & E & T & Hhigh & Hin & Hout).
      { intros i Hi. replace (S k + i)%nat with (k + S i)%nat by lia. apply H1. cbn in *. lia. }
      { intros i Hi. replace (S k + i)%nat with (k + S i)%nat by lia. apply H2. cbn in *. lia. }
      exists h. split; [exact E|]. split; [rewrite T, SUM; cbn; ring|]. rewrite <- NX. split; [|split].
      * intros j Hj. rewrite Hhigh by lia. unfold f1. destruct (Nat.leb_spec g j), (Nat.ltb_spec j (g + (n + 1))); try lia; reflexivity.
      * intros [|i] j x t' Ex Et' Hj.
        -- cbn in Ex. injection Ex as <-. rewrite Nat.add_0_r in *. fold p in Et', Hj |- *. fold n in Hj |- *. rewrite FS.
           assert (t' = t) by congruence. subst t'. rewrite Hhigh by lia. unfold f1.
           destruct (Nat.leb_spec g (g + n - j)), (Nat.ltb_spec (g + n - j) (g + (n + 1))); try lia. cbn [andb]. replace (g + n - (g + n - j))%nat with j by lia. reflexivity.
        -- cbn [nth_error] in Ex. replace (k + S i)%nat with (S k + i)%nat in * by lia. rewrite (Hin i j x t' Ex Et' Hj). f_equal.
           assert (first_node ns (length ns - 2 * (S k + i)) <= first_node ns (length ns - 2 * S k))%nat by (apply first_node_mono; lia).
           unfold f1. destruct (Nat.leb_spec g (first_node ns (length ns - 2 * (S k + i)) - j)); [lia|reflexivity].
      * intros j _ Hj2. cbn [length] in Hj2.
        rewrite Hout.
        -- unfold f1. assert (first_node ns (length ns - (2 * (k + (S (S (length als)) - 1)) + 1)) <= first_node ns p)%nat by (apply first_node_mono; unfold p; lia).
           fold g in H0. destruct (Nat.leb_spec g j); [lia|reflexivity].
        -- cbn; lia.
        -- cbn [length]. replace (S k + (S (length als) - 1))%nat with (k + (S (S (length als)) - 1))%nat by lia. assumption.
Qed.

Lemma count_first ns : count_nodes ns = (first_node ns (length ns) + 1)%nat.
Proof.
  unfold count_nodes, first_node. rewrite firstn_all. f_equal. induction ns as [|n ns IH]; [reflexivity|].
  cbn [filter map]. destruct (Nat.eqb_spec n 0); cbn [length]; unfold list_sum in *; cbn [fold_right]; lia.
Qed.

(** the layers of a construction seen from one side: [taus] are the transmittances, [None] for gases. [k] panes are reached, separated by
    gases, which have no elements *)
Definition panes (ns : list nat) (taus : list (option R)) (layer_at : nat -> nat) (k : nat) : Prop :=
  length ns = length taus /\ (2 * k <= length ns + 1)%nat /\
  (forall i, (i < k)%nat -> exists t, nth_error taus (layer_at (2 * i)%nat) = Some (Some t)) /\
  (forall i, (S i < k)%nat -> nth (layer_at (2 * i + 1)%nat) ns 0%nat = 0%nat).
Definition from_front (i : nat) : nat := i.
Definition from_back (ns : list nat) (i : nat) : nat := (length ns - 1 - i)%nat.

Theorem C68_front ns taus als : panes ns taus from_front (length als) ->
  exists l, front_alphas ns taus (count_nodes ns) als = Ok l /\ length l = count_nodes ns /\ total l = total als /\
    (forall i j a t, nth_error als i = Some a -> nth_error taus (2 * i) = Some (Some t) -> (j <= elements_of ns (2 * i))%nat ->
       nth (first_node ns (2 * i) + j) l 0 = share t (elements_of ns (2 * i)) a j) /\
    (forall j, (0 < length als)%nat -> (first_node ns (2 * (length als - 1) + 1) < j)%nat -> nth j l 0 = 0).
Proof.
  intros (HL & H0 & H1 & H2). unfold front_alphas, from_front in *. rewrite repeat_tab.
  destruct (front_shares_spec ns taus (count_nodes ns) HL ltac:(rewrite count_first; lia) als 0 (fun _ => 0)) as (h & E & T & _ & Hin & Hout).
  { intros i Hi. split; [lia|]. apply H1. assumption. }
  { intros i Hi. apply H2. assumption. }
  exists (tab (count_nodes ns) h). split; [exact E|]. split; [apply tab_length|]. split.
  { rewrite T. assert (Z : forall N, total (tab N (fun _ => 0)) = 0).
    { intros N. unfold tab. induction (seq 0 N); cbn; [reflexivity|]. rewrite IHl. ring. }
    rewrite Z. ring. }
  assert (NT : forall j, nth j (tab (count_nodes ns) h) 0 = if (j <? count_nodes ns)%nat then h j else 0).
  { intros j. pose proof (nth_error_tab (count_nodes ns) h j) as X. destruct (Nat.ltb_spec j (count_nodes ns)); [apply nth_error_nth; exact X|].
    apply nth_overflow. rewrite tab_length. assumption. }
  split.
  - intros i j a t Ea Et Hj. rewrite NT. assert (Hi : (i < length als)%nat) by (apply nth_error_Some; congruence).
    pose proof (first_node_S ns (2 * i) ltac:(lia)). pose proof (first_node_mono ns (S (2 * i)) (length ns) ltac:(lia)).
    destruct (Nat.ltb_spec (first_node ns (2 * i) + j) (count_nodes ns)); [|rewrite count_first in *; lia].
    pose proof (Hin i j a t Ea Et Hj) as X. cbn [Nat.add] in X. rewrite X. ring.
  - intros j Hp Hj. rewrite NT. destruct (Nat.ltb_spec j (count_nodes ns)); [|reflexivity]. apply Hout; assumption.
Qed.

(** from the back the layers, and the nodes of each layer, are counted from the last one *)
Theorem C68_back ns taus als : panes ns taus (from_back ns) (length als) -> (0 < length ns)%nat ->
  exists l, back_alphas ns taus (count_nodes ns) als = Ok l /\ length l = count_nodes ns /\ total l = total als /\
    (forall i j a t, nth_error als i = Some a -> nth_error taus (length ns - 1 - 2 * i) = Some (Some t) -> (j <= elements_of ns (length ns - 1 - 2 * i))%nat ->
       nth (first_node ns (length ns - 2 * i) - j) l 0 = share t (elements_of ns (length ns - 1 - 2 * i)) a j) /\
    (forall j, (0 < length als)%nat -> (j < first_node ns (length ns - 1 - 2 * (length als - 1)))%nat -> nth j l 0 = 0).
Proof.
  intros (HL & H0 & H1 & H2) Hne. unfold back_alphas, from_back in *. rewrite repeat_tab.
  destruct (back_shares_spec ns taus (count_nodes ns) HL ltac:(rewrite count_first; lia) als 0 (fun _ => 0)) as (h & E & T & _ & Hin & Hout).
  { intros i Hi. split; [lia|]. replace (length ns - (2 * (0 + i) + 1))%nat with (length ns - 1 - 2 * i)%nat by lia. apply H1. assumption. }
  { intros i Hi. replace (length ns - (2 * (0 + i) + 2))%nat with (length ns - 1 - (2 * i + 1))%nat by lia. apply H2. assumption. }
  rewrite Nat.mul_0_r, Nat.sub_0_r, <- count_first in E.
  exists (tab (count_nodes ns) h). split; [exact E|]. split; [apply tab_length|]. split.
  { rewrite T. assert (Z : forall N, total (tab N (fun _ => 0)) = 0).
    { intros N. unfold tab. induction (seq 0 N); cbn; [reflexivity|]. rewrite IHl. ring. }
    rewrite Z. ring. }
  assert (NT : forall j, nth j (tab (count_nodes ns) h) 0 = if (j <? count_nodes ns)%nat then h j else 0).
  { intros j. pose proof (nth_error_tab (count_nodes ns) h j) as X. destruct (Nat.ltb_spec j (count_nodes ns)); [apply nth_error_nth; exact X|].
    apply nth_overflow. rewrite tab_length. assumption. }
  split.
  - intros i j a t Ea Et Hj. rewrite NT. assert (Hi : (i < length als)%nat) by (apply nth_error_Some; congruence).
    pose proof (first_node_mono ns (length ns - 2 * i) (length ns) ltac:(lia)).
    destruct (Nat.ltb_spec (first_node ns (length ns - 2 * i) - j) (count_nodes ns)); [|rewrite count_first in *; lia].
    replace (length ns - 1 - 2 * i)%nat with (length ns - (2 * (0 + i) + 1))%nat in * by lia.
    pose proof (Hin i j a t Ea Et Hj) as X. replace (length ns - 2 * (0 + i))%nat with (length ns - 2 * i)%nat in X by lia. rewrite X. ring.
  - intros j Hp Hj. rewrite NT. destruct (Nat.ltb_spec j (count_nodes ns)); [|reflexivity]. apply Hout; [assumption|].
    replace (length ns - (2 * (0 + (length als - 1)) + 1))%nat with (length ns - 1 - 2 * (length als - 1))%nat by lia. assumption.
Qed.

(** a transparent pane of two elements, a gas and an opaque layer of three *)
Example C68_example : panes [2; 0; 3]%nat [Some (7 / 10); None; Some 0] from_front 2 /\ panes [2; 0; 3]%nat [Some (7 / 10); None; Some 0] (from_back [2; 0; 3]%nat) 1 /\
  count_nodes [2; 0; 3]%nat = 7%nat.
Proof.
  split; [|split]; [| |reflexivity].
  - repeat split; cbn; try lia; unfold from_front; intros [|[|i]] Hi; try lia; cbn; eauto.
  - repeat split; cbn; try lia; unfold from_back; intros [|i] Hi; try lia; cbn; eauto.
Qed.

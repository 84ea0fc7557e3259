(** Lemmas about Perez's sky *)
From Coq Require Import List Arith ZArith Reals Bool Lra Lia Psatz Permutation Sorted.
From Verif.Common Require Import Base Flt.
From Verif.Geometry Require Import Vec.
From Verif.Weather Require Import SunModel SkyModel SkyProofs PerezModel.
Import ListNotations.
Open Scope R_scope.
Open Scope list_scope.

(** ** Loops over the vector *)
Lemma add_ok vec i v : (i < length vec)%nat -> exists vec', add_to_element vec i v = Ok vec' /\ length vec' = length vec /\
  forall j, nth j vec' 0 = nth j vec 0 + (if (j =? i)%nat then v else 0).
Proof.
  intros H. unfold add_to_element. rewrite (proj2 (Nat.ltb_lt _ _) H). eexists. split; [reflexivity|]. split; [apply upd_length|].
  intros j. destruct (Nat.eqb_spec j i) as [->|N].
  - now rewrite nth_upd_same by exact H.
  - rewrite nth_upd_other by congruence. ring.
Qed.
Lemma zero_ok n : forall k vec, (k + n <= length vec)%nat -> exists vec', zero_loop (seq k n) vec = Ok vec' /\ length vec' = length vec /\
  forall j, nth j vec' 0 = if ((k <=? j) && (j <? k + n))%nat then 0 else nth j vec 0.
Proof.
  induction n as [|n IH]; intros k vec H; cbn [seq zero_loop].
  - exists vec. repeat split. intros j. destruct (Nat.leb_spec k j), (Nat.ltb_spec j (k + 0)); cbn; try reflexivity; lia.
  - unfold set_element. rewrite (proj2 (Nat.ltb_lt k (length vec))) by lia. cbn [bind].
    destruct (IH (S k) (upd vec k 0)) as (vec' & E & L & N). { rewrite upd_length. lia. }
    exists vec'. split; [exact E|]. split; [rewrite L; apply upd_length|]. intros j. rewrite N.
    destruct (Nat.eq_dec j k) as [->|Nk].
    + destruct (Nat.leb_spec (S k) k), (Nat.leb_spec k k), (Nat.ltb_spec k (k + S n)), (Nat.ltb_spec k (S k + n)); cbn; try lia; try reflexivity.
      all: rewrite nth_upd_same by lia; reflexivity.
    + rewrite nth_upd_other by congruence.
      destruct (Nat.leb_spec (S k) j), (Nat.leb_spec k j), (Nat.ltb_spec j (k + S n)), (Nat.ltb_spec j (S k + n)); cbn; try reflexivity; lia.
Qed.

Definition centre (r : sky) (b : nat) : pt := match bin_dir r b with Ok d => d | _ => mkV 0 0 0 end.
Definition omega (r : sky) (b : nat) : R := match bin_solid_angle r b with Ok x => x | _ => 0 end.

Lemma sky_ok r f n : forall k vec, (k + n <= length vec)%nat -> (forall b, (k <= b < k + n)%nat -> bin_dir r b = Ok (centre r b)) ->
  exists vec', sky_loop r f (seq k n) vec = Ok vec' /\ length vec' = length vec /\
  forall j, nth j vec' 0 = nth j vec 0 + if ((k <=? j) && (j <? k + n))%nat then f (centre r j) else 0.
Proof.
  induction n as [|n IH]; intros k vec H D; cbn [seq sky_loop].
  - exists vec. repeat split. intros j. destruct (Nat.leb_spec k j), (Nat.ltb_spec j (k + 0)); cbn; try ring; lia.
  - rewrite (D k) by lia. cbn [bind]. destruct (add_ok vec k (f (centre r k)) ltac:(lia)) as (v1 & E1 & L1 & N1). rewrite E1. cbn [bind].
    destruct (IH (S k) v1) as (v2 & E2 & L2 & N2). { lia. } { intros b Hb. apply D. lia. }
    exists v2. split; [exact E2|]. split; [lia|]. intros j. rewrite N2, N1.
    destruct (Nat.eqb_spec j k) as [->|Nk].
    + replace (S k <=? k)%nat with false by (symmetry; apply Nat.leb_gt; lia). replace (k <=? k)%nat with true by (symmetry; apply Nat.leb_le; lia).
      replace (k <? k + S n)%nat with true by (symmetry; apply Nat.ltb_lt; lia). cbn [andb]. ring.
    + replace (k <=? j)%nat with (S k <=? j)%nat. 2: { destruct (Nat.leb_spec (S k) j), (Nat.leb_spec k j); try reflexivity; lia. }
      replace (k + S n)%nat with (S k + n)%nat by lia. ring.
Qed.

Definition sumf {A} (f : A -> R) (l : list A) : R := fold_right (fun a t => f a + t) 0 l.
Lemma sumf_app {A} (f : A -> R) l l' : sumf f (l ++ l') = sumf f l + sumf f l'.
Proof. unfold sumf. induction l as [|a l IH]; cbn [app fold_right]; [ring|]. rewrite IH. ring. Qed.
Lemma sumf_rev {A} (f : A -> R) l : sumf f (rev l) = sumf f l.
Proof. induction l as [|a l IH]; cbn [rev]; [reflexivity|]. rewrite sumf_app, IH. cbn. unfold sumf. ring. Qed.
Lemma sumf_ext {A} (f g : A -> R) l : (forall a, In a l -> f a = g a) -> sumf f l = sumf g l.
Proof. induction l as [|a l IH]; intros H; cbn; [reflexivity|]. rewrite (H a) by (left; reflexivity). f_equal. apply IH. intros b Hb. apply H. right. exact Hb. Qed.
Lemma sumf_scale {A} (f : A -> R) c l : sumf (fun a => c * f a) l = c * sumf f l.
Proof. induction l as [|a l IH]; cbn; [ring|]. unfold sumf in IH. rewrite IH. ring. Qed.
Lemma sumf_plus {A} (f g : A -> R) l : sumf (fun a => f a + g a) l = sumf f l + sumf g l.
Proof. induction l as [|a l IH]; cbn; [ring|]. unfold sumf in IH. rewrite IH. ring. Qed.
Lemma sumf_fold {A} (f : A -> R) l : forall t, fold_left (fun t c => t + f c) l t = t + sumf f l.
Proof. induction l as [|a l IH]; intros t; cbn; [ring|]. rewrite IH. unfold sumf. ring. Qed.

Definition sun_value (r : sky) (dir_illum tot : R) (c : nat * R) : R := weight c * dir_illum / (WHTEFFICACY * tot) / omega r (fst c).
Lemma sun_ok r D T cs : forall vec, (forall c, In c cs -> (fst c < length vec)%nat /\ bin_solid_angle r (fst c) = Ok (omega r (fst c))) ->
  exists vec', sun_loop r D T cs vec = Ok vec' /\ length vec' = length vec /\
  forall j, nth j vec' 0 = nth j vec 0 + sumf (fun c => if (j =? fst c)%nat then sun_value r D T c else 0) cs.
Proof.
  induction cs as [|c cs IH]; intros vec H; cbn [sun_loop].
  - exists vec. repeat split. intros j. cbn. ring.
  - destruct (H c (or_introl eq_refl)) as [H1 H2]. rewrite H2. cbn [bind].
    destruct (add_ok vec (fst c) (sun_value r D T c) H1) as (v1 & E1 & L1 & N1). unfold sun_value in E1. rewrite E1. cbn [bind].
    destruct (IH v1) as (v2 & E2 & L2 & N2). { intros b Hb. rewrite L1. apply H. right. exact Hb. }
    exists v2. split; [exact E2|]. split; [lia|]. intros j. rewrite N2, N1. cbn [sumf fold_right]. unfold sumf. ring.
Qed.

(** ** The closest bins *)
Definition farther (a b : nat * R) : Prop := snd b <= snd a.
Lemma last_min (l : list (nat * R)) c d : StronglySorted farther (c :: l) -> forall x, In x (removelast (c :: l)) -> snd (last (c :: l) d) <= snd x.
Proof.
  revert c. induction l as [|e l IH]; intros c S x H; [destruct H|]. change (removelast (c :: e :: l)) with (c :: removelast (e :: l)) in H.
  change (last (c :: e :: l) d) with (last (e :: l) d). inversion S as [|? ? S' F]; subst. destruct H as [<-|H].
  - rewrite Forall_forall in F. apply F. destruct (exists_last (l := e :: l) ltac:(discriminate)) as (l0 & z & E). rewrite E, last_last. apply in_or_app. right. left. reflexivity.
  - apply (IH e S' x H).
Qed.
Lemma removelast_sorted (l : list (nat * R)) c : StronglySorted farther (c :: l) -> StronglySorted farther (removelast (c :: l)).
Proof.
  revert c. induction l as [|e l IH]; intros c S; [constructor|]. change (removelast (c :: e :: l)) with (c :: removelast (e :: l)).
  inversion S as [|? ? S' F]; subst. constructor; [apply (IH e S')|]. rewrite Forall_forall in *. intros x Hx. apply F.
  assert (I : forall (A : Type) (l : list A) y, In y (removelast l) -> In y l).
  { clear. intros A l. induction l as [|a l IH]; intros y H; [destruct H|]. destruct l as [|b l]; [destruct H|]. destruct H as [<-|H]; [left; reflexivity|right; apply IH; exact H]. }
  apply I. exact Hx.
Qed.
Lemma put_spec bin dot cl : StronglySorted farther cl -> exists out, Permutation (put_closest bin dot cl ++ [out]) (cl ++ [(bin, dot)]) /\
  StronglySorted farther (put_closest bin dot cl) /\ (forall c, In c (put_closest bin dot cl) -> snd out <= snd c) /\
  length (put_closest bin dot cl) = length cl /\ (forall y, (forall c, In c cl -> y <= snd c) -> forall c, In c (put_closest bin dot cl) -> y <= snd c).
Proof.
  induction cl as [|c cl IH]; intros S; cbn [put_closest].
  - exists (bin, dot). repeat split; auto; intros; contradiction.
  - inversion S as [|? ? S' F]; subst. rewrite Forall_forall in F. destruct (Rltb_spec (snd c) dot) as [L|L].
    + assert (NE : c :: cl <> []) by discriminate. exists (last (c :: cl) c).
      pose proof (app_removelast_last c NE) as E.
      assert (RS := removelast_sorted cl c S). assert (LM := last_min cl c c S). set (rl := removelast (c :: cl)) in *. set (la := last (c :: cl) c) in *.
      assert (Hla : In la (c :: cl)). { rewrite E. apply in_or_app. right. left. reflexivity. }
      assert (Hrl : forall x, In x rl -> In x (c :: cl)). { intros x Hx. rewrite E. apply in_or_app. left. exact Hx. }
      assert (Top : forall x, In x (c :: cl) -> snd x <= snd c). { intros x [<-|Hx]; [lra|apply F; exact Hx]. }
      split. { cbn [app]. rewrite <- E. apply Permutation_cons_append. }
      split. { constructor; [exact RS|]. rewrite Forall_forall. intros x Hx. unfold farther. cbn [snd]. specialize (Top x (Hrl x Hx)). lra. }
      split. { intros x [<-|Hx]; cbn [snd]; [specialize (Top la Hla); lra|apply LM; exact Hx]. }
      split. { cbn [length]. apply (f_equal (@length _)) in E. rewrite app_length in E. cbn [length] in E. lia. }
      intros y Hy x [<-|Hx]; cbn [snd]; [specialize (Hy c (or_introl eq_refl)); lra|apply Hy, Hrl, Hx].
    + destruct (IH S') as (out & P & So & Mi & Le & Lo). exists out. split. { cbn [app]. constructor. exact P. }
      assert (I : forall x, In x (put_closest bin dot cl ++ [out]) -> snd x <= snd c).
      { intros x Hx. apply (Permutation_in x P) in Hx. apply in_app_or in Hx. destruct Hx as [Hx|[<-|[]]]; [apply F; exact Hx|cbn [snd]; lra]. }
      split. { constructor; [exact So|]. rewrite Forall_forall. intros x Hx. apply I. apply in_or_app. left. exact Hx. }
      split. { intros x [<-|Hx]; [apply I; apply in_or_app; right; left; reflexivity|apply Mi; exact Hx]. }
      split. { cbn [length]. lia. }
      intros y Hy x [<-|Hx]; [apply Hy; left; reflexivity|apply (Lo y); [intros z Hz; apply Hy; right; exact Hz|exact Hx]].
Qed.
Definition with_dot (r : sky) (v : pt) (b : nat) : nat * R := (b, vdot (centre r b) v).
Lemma closest_spec r v bins : (forall b, In b bins -> bin_dir r b = Ok (centre r b)) -> forall cl done rest, StronglySorted farther cl ->
  Permutation (cl ++ rest) done -> (forall x c, In x rest -> In c cl -> snd x <= snd c) ->
  exists cl' rest', closest_loop r v bins cl = Ok cl' /\ length cl' = length cl /\ StronglySorted farther cl' /\
    Permutation (cl' ++ rest') (done ++ map (with_dot r v) bins) /\ (forall x c, In x rest' -> In c cl' -> snd x <= snd c).
Proof.
  induction bins as [|b bins IH]; intros D cl done rest S P M; cbn [closest_loop].
  - exists cl, rest. rewrite app_nil_r. auto.
  - rewrite (D b) by (left; reflexivity). cbn [bind]. destruct (put_spec b (vdot (centre r b) v) cl S) as (out & P1 & S1 & M1 & L1 & Lo).
    set (cl1 := put_closest b (vdot (centre r b) v) cl) in *.
    destruct (IH ltac:(intros; apply D; right; assumption) cl1 (done ++ [with_dot r v b]) (out :: rest) S1) as (cl' & rest' & E & L & S' & P' & M').
    + transitivity (cl1 ++ [out] ++ rest); [reflexivity|]. rewrite app_assoc. rewrite P1. rewrite <- app_assoc. rewrite (Permutation_app_comm [_] rest).
      rewrite app_assoc. rewrite P. reflexivity.
    + intros x c [<-|Hx] Hc; [apply M1; exact Hc|]. apply (Lo (snd x)); [intros z Hz; apply M; assumption|exact Hc].
    + exists cl', rest'. split; [exact E|]. split; [lia|]. split; [exact S'|]. split; [|exact M']. cbn [map]. rewrite P', <- app_assoc. reflexivity.
Qed.

Lemma filter_le {A} (p : A -> bool) l : (length (filter p l) <= length l)%nat.
Proof. induction l as [|a l IH]; cbn; [lia|]. destruct (p a); cbn; lia. Qed.
(** if four of the candidates, at least, face the sun, four different candidates that face it are found, none of the others being closer *)
Lemma perm_filter {A} (p : A -> bool) l l' : Permutation l l' -> Permutation (filter p l) (filter p l').
Proof.
  induction 1; cbn; auto; try (destruct (p x); auto).
  - destruct (p x), (p y); auto using perm_swap.
  - etransitivity; eauto.
Qed.
Lemma filter_all {A} (p : A -> bool) l : (forall x, In x l -> p x = true) -> filter p l = l.
Proof. induction l as [|a l IH]; intros H; cbn; [reflexivity|]. rewrite (H a) by (left; reflexivity). f_equal. apply IH. intros; apply H; right; assumption. Qed.
Lemma filter_none {A} (p : A -> bool) l : (forall x, In x l -> p x = false) -> filter p l = [].
Proof. induction l as [|a l IH]; intros H; cbn; [reflexivity|]. rewrite (H a) by (left; reflexivity). apply IH. intros; apply H; right; assumption. Qed.
Lemma nodup_filter_map {A} (p : nat * A -> bool) (l : list (nat * A)) : NoDup (map fst l) -> NoDup (map fst (filter p l)).
Proof.
  induction l as [|a l IH]; intros H; cbn; [constructor|]. inversion H as [|? ? N H']; subst. destruct (p a); cbn; [|apply IH; exact H'].
  constructor; [|apply IH; exact H']. intros I. apply N. apply in_map_iff in I. destruct I as (x & E & I). apply filter_In in I. apply in_map_iff. exists x. tauto.
Qed.
Lemma four_closest r v n (near : list nat) : (forall b, (b < n)%nat -> bin_dir r b = Ok (centre r b)) ->
  NoDup near -> length near = 4%nat -> (forall b, In b near -> (b < n)%nat /\ 0 < vdot (centre r b) v) ->
  exists cl, closest_loop r v (seq 0 n) (repeat (0%nat, -1) 4) = Ok cl /\ length cl = 4%nat /\ NoDup (map fst cl) /\
    (forall c, In c cl -> (fst c < n)%nat /\ snd c = vdot (centre r (fst c)) v /\ 0 < snd c) /\
    (forall b, (b < n)%nat -> ~ In b (map fst cl) -> forall c, In c cl -> vdot (centre r b) v <= snd c).
Proof.
  intros D N4 L4 Near.
  destruct (closest_spec r v (seq 0 n) ltac:(intros b Hb; apply in_seq in Hb; apply D; lia) (repeat (0%nat, -1) 4) (repeat (0%nat, -1) 4) [])
    as (cl & rest & E & L & S & P & M).
  { cbn [repeat]. repeat constructor; unfold farther; cbn; lra. }
  { rewrite app_nil_r. reflexivity. } { intros x c []. }
  set (pos := fun c : nat * R => Rltb 0 (snd c)). set (cand := map (with_dot r v) (seq 0 n)) in *.
  assert (NC : NoDup (map fst cand)). { unfold cand. rewrite map_map. cbn [with_dot fst]. rewrite map_id. apply seq_NoDup. }
  assert (PF := perm_filter pos _ _ P). rewrite !filter_app in PF.
  replace (filter pos (repeat (0%nat, -1) 4)) with (@nil (nat * R)) in PF.
  2: { symmetry. apply filter_none. intros x Hx. apply repeat_spec in Hx. subst x. unfold pos. cbn [snd]. apply Rltb_false. lra. }
  cbn [app] in PF.
  assert (F4 : (4 <= length (filter pos cand))%nat).
  { rewrite <- L4. rewrite <- (map_length fst (filter pos cand)). apply NoDup_incl_length; [exact N4|]. intros b Hb. destruct (Near b Hb) as [B1 B2].
    apply in_map_iff. exists (with_dot r v b). split; [reflexivity|]. apply filter_In. split; [apply in_map; apply in_seq; lia|].
    unfold pos. cbn [with_dot snd]. destruct (Rltb_spec 0 (vdot (centre r b) v)); [reflexivity|lra]. }
  assert (All : forall c, In c cl -> 0 < snd c).
  { intros c Hc. destruct (Rlt_dec 0 (snd c)) as [G|G]; [exact G|]. exfalso. rewrite (filter_none pos rest) in PF.
    2: { intros x Hx. specialize (M x c Hx Hc). unfold pos. apply Rltb_false. lra. }
    rewrite app_nil_r in PF. apply Permutation_length in PF. assert (length (filter pos cl) < 4)%nat; [|lia].
    cbn [length repeat] in L. apply in_split in Hc. destruct Hc as (l1 & l2 & ->). rewrite filter_app. cbn [filter]. replace (pos c) with false.
    2: { symmetry. unfold pos. apply Rltb_false. lra. }
    rewrite app_length in *. cbn [length] in L. pose proof (filter_le pos l1). pose proof (filter_le pos l2). lia. }
  assert (FA : filter pos cl = cl). { apply filter_all. intros x Hx. unfold pos. specialize (All x Hx). destruct (Rltb_spec 0 (snd x)); [reflexivity|lra]. }
  rewrite FA in PF.
  exists cl. split; [exact E|]. split; [exact L|].
  assert (NF : NoDup (map fst (cl ++ filter pos rest))). { apply (Permutation_NoDup (Permutation_sym (Permutation_map fst PF))). apply nodup_filter_map. exact NC. }
  split. { rewrite map_app in NF. clear - NF. induction (map fst cl) as [|a l IH]; [constructor|]. cbn [app] in NF. inversion NF; subst. constructor; [|apply IH; assumption].
    intros H. apply H1. apply in_or_app. left. exact H. }
  split.
  - intros c Hc. assert (I : In c cand). { assert (I0 : In c (cl ++ filter pos rest)) by (apply in_or_app; left; exact Hc). apply (Permutation_in c PF) in I0. apply filter_In in I0. apply I0. }
    unfold cand in I. apply in_map_iff in I. destruct I as (b & <- & Ib). apply in_seq in Ib. split; [cbn; lia|]. split; [reflexivity|]. apply All. exact Hc.
  - intros b Hb Nb c Hc. assert (I : In (with_dot r v b) (cl ++ rest)).
    { apply (Permutation_in _ (Permutation_sym P)). apply in_or_app. right. apply in_map. apply in_seq. lia. }
    apply in_app_or in I. destruct I as [I|I]; [exfalso; apply Nb; apply in_map_iff; exists (with_dot r v b); split; [reflexivity|exact I]|].
    apply (M _ c I Hc).
Qed.

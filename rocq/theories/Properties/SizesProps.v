(** C120: floor areas and set points of a model *)
From Coq Require Import Reals List Bool String Lra Lia Permutation.
From Verif.Common Require Import Base Flt.
From Verif.State Require Import SizesModel.
Import ListNotations.
Open Scope R_scope.

(** ** Maps *)
Lemma get_insert {V} k (v : V) m j : m_get j (m_insert k v m) = if String.eqb j k then Some v else m_get j m.
Proof.
  induction m as [|[k' v'] m IH]; cbn [m_insert m_get]; [reflexivity|]. destruct (String.eqb_spec k k') as [->|N]; cbn [m_get].
  - destruct (String.eqb j k'); reflexivity.
  - rewrite IH. destruct (String.eqb_spec j k') as [->|]; [|reflexivity]. destruct (String.eqb_spec k' k); [congruence|reflexivity].
Qed.
Lemma insert_keys {V} k (v : V) m : map fst (m_insert k v m) = if existsb (String.eqb k) (map fst m) then map fst m else map fst m ++ [k].
Proof.
  induction m as [|[k' v'] m IH]; cbn [m_insert map fst existsb]; [reflexivity|]. destruct (String.eqb_spec k k') as [->|N]; cbn [map fst orb]; [reflexivity|]. rewrite IH. destruct (existsb _ _); reflexivity.
Qed.
Lemma insert_nodup {V} k (v : V) m : NoDup (map fst m) -> NoDup (map fst (m_insert k v m)).
Proof.
  intros N. rewrite insert_keys. destruct (existsb (String.eqb k) (map fst m)) eqn:E; [exact N|]. apply Permutation_NoDup with (l := k :: map fst m); [apply Permutation_cons_append|].
  constructor; [|exact N]. intros I. assert (T : existsb (String.eqb k) (map fst m) = true) by (apply existsb_exists; exists k; split; [exact I|apply String.eqb_refl]). congruence.
Qed.
Lemma get_in {V} k (m : list (string * V)) : (exists v, m_get k m = Some v) <-> In k (map fst m).
Proof.
  induction m as [|[k' v'] m IH]; cbn [m_get map fst In]; [split; [intros (v & E); discriminate|tauto]|]. destruct (String.eqb_spec k k') as [->|N]; [split; eauto|]. rewrite IH. split; [tauto|intros [E|I]; [congruence|exact I]].
Qed.

(** ** What should be reported, said directly *)
(** the floors of a space: surfaces marked as floors with the space on their upper side *)
Definition floor_of (n : string) (s : fsurface) : Prop :=
  (fs_category s = Some GroundFloor \/ fs_category s = Some InteriorFloor \/ fs_category s = Some ExteriorFloor) /\
  ((0 < fs_up s /\ fs_front s = ToSpace n) \/ (fs_up s <= 0 /\ fs_back s = ToSpace n)).
Inductive floor_sum (P : fsurface -> Prop) : list fsurface -> R -> Prop :=
  | fsum_nil : floor_sum P [] 0
  | fsum_in s ss a : P s -> floor_sum P ss a -> floor_sum P (s :: ss) (fs_area s + a)
  | fsum_out s ss a : ~ P s -> floor_sum P ss a -> floor_sum P (s :: ss) a.
Definition map_total (m : list (string * R)) : R := fold_right (fun x a => snd x + a) 0 m.

Lemma floor_of_test n s : floor_of n s <-> space_above s = Some n /\ exists c, fs_category s = Some c /\ is_floor c = true.
Proof.
  unfold floor_of, space_above. destruct (Rltb_spec 0 (fs_up s)) as [U|U].
  - split.
    + intros (C & [(_ & F)|(B & _)]); [|lra]. rewrite F. split; [reflexivity|]. destruct C as [C|[C|C]]; eexists; split; [exact C|reflexivity|exact C|reflexivity|exact C|reflexivity].
    + intros (F & c & C & T). split; [rewrite C; destruct c; try discriminate; auto|]. left. split; [lra|]. destruct (fs_front s); [congruence|discriminate].
  - split.
    + intros (C & [(B & _)|(_ & F)]); [lra|]. rewrite F. split; [reflexivity|]. destruct C as [C|[C|C]]; eexists; split; [exact C|reflexivity|exact C|reflexivity|exact C|reflexivity].
    + intros (F & c & C & T). split; [rewrite C; destruct c; try discriminate; auto|]. right. split; [lra|]. destruct (fs_back s); [congruence|discriminate].
Qed.
Lemma total_insert n k a m : NoDup (map fst m) -> m_get n m = Some k -> map_total (m_insert n (k + a) m) = map_total m + a.
Proof.
  induction m as [|[k' v'] m IH]; cbn [m_get m_insert map fst]; intros N E; [discriminate|]. inversion N as [|x l NI ND]; subst. destruct (String.eqb_spec n k') as [->|D].
  - injection E as <-. unfold map_total. cbn [fold_right snd]. ring.
  - unfold map_total in *. cbn [fold_right snd]. rewrite (IH ND E). ring.
Qed.
Lemma total_new x m : m_get x m = None -> map_total (m_insert x 0 m) = map_total m.
Proof.
  induction m as [|[k v] m IH]; cbn [m_insert m_get]; intros G; [unfold map_total; cbn [fold_right snd]; ring|]. destruct (String.eqb x k); [discriminate|].
  unfold map_total in *. cbn [fold_right snd]. rewrite (IH G). reflexivity.
Qed.
Lemma add_floors_spec ss : forall total m t m', NoDup (map fst m) -> add_floors total m ss = Ok (t, m') ->
  map fst m' = map fst m /\ t - total = map_total m' - map_total m /\
  (forall n k, m_get n m = Some k -> exists a, floor_sum (floor_of n) ss a /\ m_get n m' = Some (k + a)).
Proof.
  induction ss as [|s ss IH]; intros total m t m' N E; cbn [add_floors] in E.
  - injection E as <- <-. split; [reflexivity|]. split; [ring|]. intros n k G. exists 0. split; [constructor|]. rewrite G. f_equal. ring.
  - assert (SKIP : (forall n, ~ floor_of n s) -> add_floors total m ss = Ok (t, m') -> map fst m' = map fst m /\ t - total = map_total m' - map_total m /\
      (forall n k, m_get n m = Some k -> exists a, floor_sum (floor_of n) (s :: ss) a /\ m_get n m' = Some (k + a))).
    { intros NF E'. destruct (IH _ _ _ _ N E') as (K & T & G). split; [exact K|]. split; [exact T|]. intros n k H. destruct (G n k H) as (a & A & B). exists a. split; [apply fsum_out; [apply NF|exact A]|exact B]. }
    destruct (fs_category s) as [c|] eqn:C.
    2:{ apply SKIP; [|exact E]. intros n F. apply floor_of_test in F as (_ & c & C' & _). congruence. }
    destruct (space_above s) as [n0|] eqn:SA.
    2:{ apply SKIP; [|exact E]. intros n F. apply floor_of_test in F as (F & _). congruence. }
    destruct (is_floor c) eqn:FL.
    2:{ apply SKIP; [|exact E]. intros n F. apply floor_of_test in F as (_ & c' & C' & F). congruence. }
    destruct (m_get n0 m) as [k0|] eqn:G0; [|discriminate].
    destruct (IH _ _ _ _ (insert_nodup n0 (k0 + fs_area s) m N) E) as (K & T & G).
    assert (KI : map fst (m_insert n0 (k0 + fs_area s) m) = map fst m).
    { rewrite insert_keys. replace (existsb (String.eqb n0) (map fst m)) with true; [reflexivity|]. symmetry. apply existsb_exists. exists n0. split; [apply get_in; eauto|apply String.eqb_refl]. }
    split; [congruence|]. split; [rewrite (total_insert _ _ _ _ N G0) in T; lra|]. intros n k H. destruct (String.eqb_spec n n0) as [->|D].
    + rewrite G0 in H. injection H as ->. destruct (G n0 (k + fs_area s)) as (a & A & B). { rewrite get_insert, String.eqb_refl. reflexivity. }
      exists (fs_area s + a). split; [apply fsum_in; [|exact A]; apply floor_of_test; eauto|]. rewrite B. f_equal. ring.
    + destruct (G n k) as (a & A & B). { rewrite get_insert. destruct (String.eqb_spec n n0); [congruence|exact H]. }
      exists a. split; [|exact B]. apply fsum_out; [|exact A]. intros F. apply floor_of_test in F as (F & _). congruence.
Qed.
Lemma zeros_spec spaces : forall m, NoDup (map fst m) -> map_total m = 0 -> (forall n, In n (map fst m) -> m_get n m = Some 0) ->
  let m' := fold_left (fun (m : list (string * R)) n => m_insert n 0 m) spaces m in NoDup (map fst m') /\ map_total m' = 0 /\ (forall n, In n (map fst m') <-> In n (map fst m) \/ In n spaces) /\ (forall n, In n (map fst m') -> m_get n m' = Some 0).
Proof.
  induction spaces as [|x xs IH]; intros m N T Z; cbn [fold_left]; cbv zeta; [split; [exact N|split; [exact T|split; [cbn; tauto|exact Z]]]|].
  assert (Z' : forall n, In n (map fst (m_insert x 0 m)) -> m_get n (m_insert x 0 m) = Some 0).
  { intros n I. rewrite get_insert. destruct (String.eqb_spec n x) as [|D]; [reflexivity|]. apply Z. rewrite insert_keys in I. destruct (existsb _ _); [exact I|]. apply in_app_or in I as [I|[E|[]]]; [exact I|congruence]. }
  assert (T' : map_total (m_insert x 0 m) = 0).
  { destruct (m_get x m) as [v|] eqn:G.
    - assert (v = 0). { assert (I : In x (map fst m)) by (apply get_in; eauto). apply Z in I. congruence. } subst v.
      assert (Q := total_insert x 0 0 m N G). rewrite Rplus_0_r in Q. rewrite Q. lra.
    - rewrite (total_new x m G). exact T. }
  destruct (IH _ (insert_nodup x 0 m N) T' Z') as (A & B & C & D). split; [exact A|]. split; [exact B|]. split; [|exact D]. intros n. rewrite C, insert_keys.
  destruct (existsb (String.eqb x) (map fst m)) eqn:E; cbn [In].
  - apply existsb_exists in E as (y & I & E). apply String.eqb_eq in E. subst y. split; [tauto|]. intros [H|[<-|H]]; tauto.
  - rewrite in_app_iff. cbn [In]. tauto.
Qed.

(** ** The area of each space is that of its floors, the total is that of all spaces *)
Theorem C120_sizes spaces ss t m : get_space_sizes spaces ss = Ok (t, m) ->
  NoDup (map fst m) /\ (forall n, In n (map fst m) <-> In n spaces) /\ t = map_total m /\
  (forall n, In n spaces -> exists a, floor_sum (floor_of n) ss a /\ m_get n m = Some a).
Proof.
  intros E. unfold get_space_sizes in E. destruct (zeros_spec spaces [] (NoDup_nil _) eq_refl ltac:(cbn; tauto)) as (N & T & K & Z). cbv zeta in *.
  destruct (add_floors_spec _ _ _ _ _ N E) as (K' & TT & G). rewrite K'. split; [exact N|]. split; [intros n; rewrite K; cbn; tauto|]. split; [lra|].
  intros n I. destruct (G n 0) as (a & A & B). { apply Z, K. now right. } exists a. split; [exact A|]. rewrite B. f_equal. ring.
Qed.
(** it only panics when there is a floor whose space is not in the model *)
Theorem C120_known spaces ss : (forall s n, In s ss -> floor_of n s -> In n spaces) -> exists t m, get_space_sizes spaces ss = Ok (t, m).
Proof.
  intros H. unfold get_space_sizes. destruct (zeros_spec spaces [] (NoDup_nil _) eq_refl ltac:(cbn; tauto)) as (_ & _ & K & _). cbv zeta in *.
  assert (G : forall ss total m, (forall n, In n spaces -> In n (map fst m)) -> (forall s n, In s ss -> floor_of n s -> In n spaces) -> exists t m', add_floors total m ss = Ok (t, m')).
  { clear. induction ss as [|s ss IH]; intros total m K H; cbn [add_floors]; [eauto|]. assert (H' : forall s0 n, In s0 ss -> floor_of n s0 -> In n spaces) by (intros; eapply H; [right; eassumption|assumption]).
    destruct (fs_category s) as [c|] eqn:C; [|now apply IH]. destruct (space_above s) as [n|] eqn:A; [|now apply IH]. destruct (is_floor c) eqn:F; [|now apply IH].
    assert (I : In n spaces) by (apply (H s n); [now left|apply floor_of_test; eauto]). pose proof (K n I) as J. apply get_in in J as (k & ->). apply IH; [|exact H'].
    intros j J. specialize (K j J). rewrite insert_keys. destruct (existsb _ _); [exact K|apply in_or_app; now left]. }
  apply G; [|exact H]. intros n I. apply K. now right.
Qed.
(** the order of the surfaces does not matter *)
Lemma floor_sum_fun P ss a b : floor_sum P ss a -> floor_sum P ss b -> a = b.
Proof. intros A. revert b. induction A as [|s ss a Ps A IH|s ss a Ps A IH]; intros b B; inversion B; subst; try contradiction; [reflexivity| |]; [f_equal|]; now apply IH. Qed.
Lemma floor_sum_ex P ss : (forall s, In s ss -> P s \/ ~ P s) -> exists a, floor_sum P ss a.
Proof. induction ss as [|s ss IH]; intros D; [exists 0; constructor|]. destruct IH as (a & A); [intros; apply D; now right|]. destruct (D s (or_introl eq_refl)); eexists; [apply fsum_in|apply fsum_out]; eassumption. Qed.
Lemma floor_sum_perm P ss ss' : Permutation ss ss' -> (forall s, In s ss -> P s \/ ~ P s) -> forall a, floor_sum P ss a -> floor_sum P ss' a.
Proof.
  intros Pm D. assert (D' := D). induction Pm as [|s l l' Pm IH|x y l|l1 l2 l3 P1 IH1 P2 IH2]; intros a A.
  - exact A.
  - inversion A; subst; [apply fsum_in|apply fsum_out]; auto; apply IH; auto; intros; apply D; now right.
  - inversion A as [|? ? a1 H1 A1|? ? a1 H1 A1]; subst; inversion A1 as [|? ? a2 H2 A2|? ? a2 H2 A2]; subst.
    + replace (fs_area y + (fs_area x + a2)) with (fs_area x + (fs_area y + a2)) by ring. apply fsum_in; [exact H2|]. now apply fsum_in.
    + apply fsum_out; [exact H2|]. now apply fsum_in.
    + apply fsum_in; [exact H2|]. now apply fsum_out.
    + apply fsum_out; [exact H2|]. now apply fsum_out.
  - assert (D2 : forall s, In s l2 -> P s \/ ~ P s) by (intros s I; apply D; eapply Permutation_in; [symmetry; exact P1|exact I]). apply IH2; [exact D2|exact D2|]. apply IH1; [exact D|exact D|exact A].
Qed.
Theorem C120_order spaces ss ss' t m t' m' : Permutation ss ss' -> get_space_sizes spaces ss = Ok (t, m) -> get_space_sizes spaces ss' = Ok (t', m') -> forall n, m_get n m = m_get n m'.
Proof.
  intros Pm E E' n. destruct (C120_sizes _ _ _ _ E) as (_ & K & _ & G). destruct (C120_sizes _ _ _ _ E') as (_ & K' & _ & G').
  destruct (in_dec string_dec n spaces) as [I|I].
  - destruct (G n I) as (a & A & ->). destruct (G' n I) as (b & B & ->). f_equal. apply (floor_sum_fun (floor_of n) ss'); [|exact B]. apply (floor_sum_perm _ _ _ Pm); [|exact A].
    intros s _. destruct (space_above s) as [x|] eqn:SA; [|right; intros F; apply floor_of_test in F as (F & _); congruence]. destruct (string_dec x n) as [->|D]; [|right; intros F; apply floor_of_test in F as (F & _); congruence].
    destruct (fs_category s) as [c|] eqn:C; [|right; intros F; apply floor_of_test in F as (_ & c & F & _); congruence]. destruct (is_floor c) eqn:FL; [left; apply floor_of_test; eauto|right; intros F; apply floor_of_test in F as (_ & c' & F & F'); congruence].
  - assert (X : m_get n m = None) by (destruct (m_get n m) eqn:G1; [exfalso; apply I, K, get_in; eauto|reflexivity]). assert (Y : m_get n m' = None) by (destruct (m_get n m') eqn:G1; [exfalso; apply I, K', get_in; eauto|reflexivity]). congruence.
Qed.

(** ** Set points: of several systems with one name, the last one is reported *)
Definition setpoints_of (h : hvac) : option R * option R := match h with ElectricHeater _ a => (a, None) | IdealHeaterCooler _ a b => (a, b) end.
Theorem C120_setpoints before h after : (forall g, In g after -> hvac_name g <> hvac_name h) -> m_get (hvac_name h) (get_hvac_setpoints (before ++ h :: after)) = Some (setpoints_of h).
Proof.
  intros D. unfold get_hvac_setpoints. rewrite fold_left_app. cbn [fold_left]. set (m := fold_left _ before []). clearbody m.
  assert (G : forall gs m, (forall g, In g gs -> hvac_name g <> hvac_name h) -> m_get (hvac_name h) (fold_left (fun m h => match h with ElectricHeater n a => m_insert n (a, None) m | IdealHeaterCooler n a b => m_insert n (a, b) m end) gs m) = m_get (hvac_name h) m).
  { clear. induction gs as [|g gs IH]; intros m D; cbn [fold_left]; [reflexivity|]. rewrite IH by (intros; apply D; now right). specialize (D g (or_introl eq_refl)). destruct g; cbn [hvac_name] in D; rewrite get_insert; match goal with |- context [String.eqb ?a ?b] => destruct (String.eqb_spec a b); [congruence|reflexivity] end. }
  rewrite G by exact D. destruct h; cbn [hvac_name setpoints_of]; rewrite get_insert, String.eqb_refl; reflexivity.
Qed.
Theorem C120_setpoints_names hs n : In n (map fst (get_hvac_setpoints hs)) <-> exists h, In h hs /\ hvac_name h = n.
Proof.
  unfold get_hvac_setpoints. assert (G : forall hs m, In n (map fst (fold_left (fun (m : list (string * (option R * option R))) h => match h with ElectricHeater n a => m_insert n (a, None) m | IdealHeaterCooler n a b => m_insert n (a, b) m end) hs m)) <-> In n (map fst m) \/ exists h, In h hs /\ hvac_name h = n).
  { clear. induction hs as [|h hs IH]; intros m; cbn [fold_left]; [split; [tauto|intros [I|(h & [] & _)]; exact I]|]. rewrite IH.
    assert (K : forall v, In n (map fst (m_insert (hvac_name h) (v : option R * option R) m)) <-> In n (map fst m) \/ hvac_name h = n).
    { intros v. rewrite insert_keys. destruct (existsb (String.eqb (hvac_name h)) (map fst m)) eqn:E; [|rewrite in_app_iff; cbn [In]; tauto]. apply existsb_exists in E as (y & I & E). apply String.eqb_eq in E. subst y. split; [tauto|]. intros [H|<-]; assumption. }
    assert (Q : In n (map fst (match h with ElectricHeater n a => m_insert n (a, None) m | IdealHeaterCooler n a b => m_insert n (a, b) m end)) <-> In n (map fst m) \/ hvac_name h = n) by (destruct h; cbn [hvac_name] in K |- *; apply K).
    rewrite Q. split.
    - intros [[I|E]|(g & I & E)]; [now left|right; exists h; split; [now left|exact E]|right; exists g; split; [now right|exact E]].
    - intros [I|(g & [<-|I] & E)]; [tauto|tauto|right; eauto]. }
  rewrite G. cbn [map In]. tauto.
Qed.

(** ** Examples: a house of two storeys; the slab between them points down *)
Open Scope string_scope.
Definition house : list fsurface :=
  [mkFS (Some GroundFloor) 1 (ToSpace "kitchen") Elsewhere 30; mkFS (Some InteriorFloor) (-1) (ToSpace "kitchen") (ToSpace "bedroom") 25;
   mkFS (Some Roof) 1 Elsewhere (ToSpace "bedroom") 28; mkFS None 1 (ToSpace "kitchen") Elsewhere 7].
Example C120_example : exists t m, get_space_sizes ["kitchen"; "bedroom"] house = Ok (t, m) /\ m_get "kitchen" m = Some 30 /\ m_get "bedroom" m = Some 25 /\ t = 55.
Proof.
  unfold get_space_sizes, house. cbn [fold_left m_insert String.eqb Ascii.eqb Bool.eqb add_floors fs_category]. unfold space_above. cbn [fs_up fs_front fs_back].
  destruct (Rltb_spec 0 1); [|lra]. destruct (Rltb_spec 0 (-1)); [lra|]. cbn. eexists. eexists. split; [reflexivity|]. cbn. repeat split; try (f_equal; lra); lra.
Qed.
Example C120_example_setpoints : m_get "b" (get_hvac_setpoints [IdealHeaterCooler "b" (Some 20) (Some 26); ElectricHeater "a" (Some 19)]) = Some (Some 20, Some 26).
Proof. exact (C120_setpoints [] (IdealHeaterCooler "b" (Some 20) (Some 26)) [ElectricHeater "a" (Some 19)] ltac:(intros g [<-|[]]; discriminate)). Qed.
(** ** Names may be used twice: then the set points of one of the systems are not reported *)
Theorem C120_names_refuted : exists hs h, In h hs /\ setpoints_of h = (Some 18, None) /\ forall n s, In (n, s) (get_hvac_setpoints hs) -> s <> setpoints_of h.
Proof.
  exists [ElectricHeater "heater" (Some 18); ElectricHeater "heater" (Some 21)], (ElectricHeater "heater" (Some 18)). split; [now left|]. split; [reflexivity|].
  intros n s [E|[]]. injection E as _ <-. intros X. injection X as X. lra.
Qed.
(** a floor that leads to a space that was not added makes it panic (add_surface does not accept such surfaces, model.rs:758-764) *)
Example C120_example_unknown : exists spaces ss s, In s ss /\ floor_of "kitchen" s /\ In "kitchen" spaces /\ get_space_sizes spaces ss = Panic.
Proof.
  exists ["kitchen"], [mkFS (Some GroundFloor) 1 (ToSpace "kitchen") Elsewhere 30; mkFS (Some GroundFloor) 1 (ToSpace "Kitchen") Elsewhere 30], (mkFS (Some GroundFloor) 1 (ToSpace "kitchen") Elsewhere 30).
  split; [now left|]. split; [split; [left; reflexivity|left; split; [cbn; lra|reflexivity]]|]. split; [now left|].
  unfold get_space_sizes. cbn [fold_left m_insert String.eqb Ascii.eqb Bool.eqb add_floors fs_category]. unfold space_above. cbn [fs_up fs_front fs_back]. destruct (Rltb_spec 0 1); [|lra]. reflexivity.
Qed.
(** a slab marked as a ceiling is no floor of the room above, as surface.rs:66-68 says *)
Example C120_example_ceiling n : ~ floor_of n (mkFS (Some Ceiling) 1 (ToSpace "above") (ToSpace "below") 25).
Proof. intros ([C|[C|C]] & _); discriminate. Qed.

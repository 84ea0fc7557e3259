(** Lemmas on closing loops and on merging the holes of a polygon *)
From Coq Require Import Reals List Bool Lra Lia Psatz ZArith Permutation.
From Verif.Common Require Import Base Flt.
From Verif.Geometry Require Import Vec BBoxModel TriangleModel LoopModel MeshModel GeomProofs TriangleProofs LoopProofs MeshProofs.
Import ListNotations.
Open Scope R_scope.

(** ** Closing *)
Lemma tl_app {A} (l : list A) : l <> [] -> exists x, l = x :: tl l.
Proof. destruct l; [congruence|]. eauto. Qed.
Lemma vscale_m1_m1 v : vscale (vscale v (-1)) (-1) = v.
Proof. vring. Qed.

Lemma close_spec l l' : close l = (Ok tt, l') ->
  lclosed l = false /\ lclosed l' = true /\ (3 <= length (lv l'))%nat /\
  (exists pre suf, lv l = pre ++ lv l' ++ suf /\ (length pre <= 1)%nat /\ (length suf <= 1)%nat /\
    (forall x, suf = [x] -> is_collinear (nth (length (lv l) - 2) (lv l) vzero) x (nth 0 (lv l) vzero) = Ok true) /\
    (forall x, pre = [x] -> is_collinear (last (lv l') vzero) x (nth 0 (lv l') vzero) = Ok true)) /\
  larea l' = vdot (ln l') (area2 (lv l')) / 2 /\ 0 <= larea l' /\ (ln l' = ln l \/ ln l' = vscale (ln l) (-1)) /\ lper l' = perimeter_sum (lv l').
Proof.
  unfold close. destruct (length (lv l) <? 3)%nat eqn:N; [discriminate|]. apply Nat.ltb_ge in N.
  destruct (is_collinear _ _ (nth 0 (lv l) vzero)) as [c1| |] eqn:K1; try discriminate.
  set (l1 := if c1 then with_vertices l (removelast (lv l)) else l).
  assert (F1 : lclosed l1 = lclosed l /\ ln l1 = ln l) by (unfold l1; destruct c1; cbn; auto).
  assert (V1 : exists suf, lv l = lv l1 ++ suf /\ (length suf <= 1)%nat /\
     (forall x, suf = [x] -> is_collinear (nth (length (lv l) - 2) (lv l) vzero) x (nth 0 (lv l) vzero) = Ok true)).
  { unfold l1. destruct c1; cbn [lv with_vertices].
    - assert (lv l <> []) by (destruct (lv l); [cbn in N; lia|discriminate]).
      exists [last (lv l) vzero]. split; [apply app_removelast_last; assumption|]. split; [cbn; lia|]. intros x E. injection E as <-. rewrite nth_last in K1. exact K1.
    - exists []. rewrite app_nil_r. split; [reflexivity|]. split; [cbn; lia|]. discriminate. }
  destruct (valid_to_add l1 (nth 0 (lv l1) vzero)) as [[]| |] eqn:VA; try discriminate.
  assert (Cl : lclosed l = false).
  { rewrite <- (proj1 F1). unfold valid_to_add in VA. destruct (lclosed l1); [discriminate|reflexivity]. }
  destruct (is_collinear _ _ (nth 1 (lv l1) vzero)) as [c2| |] eqn:K2; try discriminate.
  set (l2 := if c2 then with_vertices l1 (tl (lv l1)) else l1).
  assert (F2 : ln l2 = ln l) by (unfold l2; destruct c2; cbn; apply F1).
  destruct (Rltb _ _); [discriminate|].
  unfold set_area. cbn [lclosed lv ln larea lper negb]. destruct (vis_zero (ln l2)) eqn:Z; [discriminate|].
  destruct (length (lv l2) <? 3)%nat eqn:N2; [discriminate|]. apply Nat.ltb_ge in N2.
  unfold set_perimeter. cbn [lclosed lv ln larea lper negb].
  rewrite area_sum_area2 by lia.
  set (ar := vdot (ln l2) (area2 (lv l2)) / 2).
  destruct (vis_zero (if Rltb ar 0 then _ else _)); [discriminate|]. rewrite (proj2 (Nat.ltb_ge _ _) N2).
  intros E. injection E as <-. cbn [lclosed lv ln larea lper].
  split; [exact Cl|]. split; [reflexivity|]. split; [exact N2|]. split.
  - destruct V1 as (suf & V1 & Ls & Ks).
    assert (V2 : exists pre, lv l1 = pre ++ lv l2 /\ (length pre <= 1)%nat /\ (forall x, pre = [x] -> is_collinear (last (lv l2) vzero) x (nth 0 (lv l2) vzero) = Ok true)).
    { unfold l2 in *. destruct c2; cbn [lv with_vertices] in *.
      - destruct (lv l1) as [|x [|y r]] eqn:W; cbn [tl length] in *; try lia. exists [x]. split; [reflexivity|]. split; [cbn; lia|].
        intros z Ez. injection Ez as <-. rewrite <- K2. f_equal. replace (S (S (length r)) - 1)%nat with (S (length (y :: r) - 1)) by (cbn; lia). cbn [nth].
        symmetry. apply (nth_last (y :: r)).
      - exists []. split; [reflexivity|]. split; [cbn; lia|discriminate]. }
    destruct V2 as (pre & V2 & Lp & Kp). exists pre, suf. rewrite V1 at 1. rewrite V2, <- app_assoc. auto.
  - split; [|split; [apply Rabs_pos|split; [|reflexivity]]].
    + destruct (Rltb_spec ar 0) as [H|H].
      * rewrite Rabs_left by exact H. unfold ar. vunfold. lra.
      * rewrite Rabs_right by lra. reflexivity.
    + rewrite <- F2. destruct (Rltb ar 0); auto.
Qed.

(** ** Pushing many points without removing aligned ones *)
Fixpoint dedup (last : option pt) (ps : list pt) : list pt :=
  match ps with
  | [] => []
  | p :: ps' => match last with
                | Some x => if compare x p then dedup last ps' else p :: dedup (Some p) ps'
                | None => p :: dedup (Some p) ps'
                end
  end.
Definition last_opt (l : list pt) : option pt := match l with [] => None | _ => Some (last l vzero) end.

Lemma last_snoc (l : list pt) x : last_opt (l ++ [x]) = Some x.
Proof. unfold last_opt. rewrite last_last. destruct l; reflexivity. Qed.

Lemma push_all_spec ps : forall l l', push_all l ps = Ok l' -> lv l' = lv l ++ dedup (last_opt (lv l)) ps.
Proof.
  induction ps as [|p ps IH]; intros l l' H; cbn [push_all] in H.
  - injection H as <-. cbn. now rewrite app_nil_r.
  - destruct (push_collinear l p false) as [l1| |] eqn:E; try discriminate. apply IH in H. rewrite H. clear H IH.
    apply push_vertices in E as (_ & _ & _ & _ & [(-> & Ne & C)|[(V & C & _)|(? & ? & ? & _ & _ & ? & _)]]); [| |discriminate].
    + cbn [dedup]. unfold last_opt. destruct (lv l) as [|a r]; [congruence|]. rewrite C. reflexivity.
    + rewrite V, <- app_assoc. f_equal. rewrite last_snoc. cbn [dedup app]. unfold last_opt. destruct (lv l) as [|a r] eqn:W; [reflexivity|].
      rewrite C by discriminate. reflexivity.
Qed.

(** Successive points that are told apart *)
Fixpoint steps_apart (ps : list pt) : Prop :=
  match ps with x :: (y :: _) as ps' => compare x y = false /\ steps_apart ps' | _ => True end.
Lemma dedup_id ps : forall x, steps_apart (x :: ps) -> dedup (Some x) ps = ps.
Proof.
  induction ps as [|p ps IH]; intros x H; [reflexivity|]. cbn [dedup]. destruct H as (C & H). rewrite C. f_equal. now apply IH.
Qed.
Lemma push_all_new ps l' : push_all loop_new ps = Ok l' -> steps_apart ps -> lv l' = ps.
Proof.
  intros H S. apply push_all_spec in H. cbn in H. rewrite H. destruct ps as [|p ps]; [reflexivity|]. cbn [dedup]. f_equal. now apply dedup_id.
Qed.
Lemma steps_app l1 x y l2 : steps_apart (l1 ++ [x]) -> compare x y = false -> steps_apart (y :: l2) -> steps_apart (l1 ++ x :: y :: l2).
Proof.
  induction l1 as [|a l1 IH]; intros H C T; cbn [app] in *; [split; assumption|].
  destruct l1 as [|b l1]; cbn [app] in *; destruct H as (H & H'); (split; [exact H|]); now apply IH.
Qed.
Lemma steps_app_l l1 l2 : steps_apart (l1 ++ l2) -> steps_apart l1.
Proof.
  induction l1 as [|a l1 IH]; intros H; [exact I|]. cbn [app] in H. destruct l1 as [|b l1]; [exact I|]. destruct H as (H & H'). split; [exact H|]. now apply IH.
Qed.
Lemma steps_app_r l1 l2 : steps_apart (l1 ++ l2) -> steps_apart l2.
Proof.
  induction l1 as [|a l1 IH]; intros H; [exact H|]. apply IH. cbn [app] in H. destruct (l1 ++ l2); [exact I|]. apply H.
Qed.

(** ** The walk around a hole *)
Lemma map_seq_shift {A} (f : nat -> A) n : forall k, map f (seq k n) = map (fun i => f (k + i)%nat) (seq 0 n).
Proof.
  intros k. replace (seq k n) with (map (fun i => (k + i)%nat) (seq 0 n)); [apply map_map|]. revert k; induction n as [|n IH]; intros k; cbn; [reflexivity|].
  f_equal; [lia|]. rewrite <- (IH (S k)), <- seq_shift, map_map. apply map_ext. intros; lia.
Qed.
Lemma round_points_eq ret h e v sd : (e < length ret)%nat ->
  round_points ret h e v sd = firstn e ret ++ [nth e ret vzero] ++ map (fun k => nth k h vzero) (hole_walk sd h v) ++ [nth e ret vzero] ++ skipn (S e) ret.
Proof.
  intros E. unfold round_points. set (w := map (fun k => nth k h vzero) (hole_walk sd h v)). clearbody w.
  assert (P : forall n k l, (n + k = length l)%nat -> forall e', (forall i, (k <= i)%nat -> i <> e') ->
     flat_map (fun i => if (i =? e')%nat then nth i l vzero :: w ++ [nth i l vzero] else [nth i l vzero]) (seq k n) = skipn k l).
  { induction n as [|n IH]; intros k l L e' H; cbn [seq flat_map].
    - rewrite skipn_all2 by lia. reflexivity.
    - rewrite (proj2 (Nat.eqb_neq k e')) by (apply H; lia). cbn [app]. rewrite (skipn_nth l k vzero) by lia. f_equal. apply IH; [lia|]. intros i Hi. apply H. lia. }
  assert (Q : forall n l e', (n <= length l)%nat -> (n <= e')%nat ->
     flat_map (fun i => if (i =? e')%nat then nth i l vzero :: w ++ [nth i l vzero] else [nth i l vzero]) (seq 0 n) = firstn n l).
  { induction n as [|n IH]; intros l e' L H; [reflexivity|]. rewrite seq_S, flat_map_app, IH by lia. cbn [flat_map Nat.add].
    rewrite (proj2 (Nat.eqb_neq n e')) by lia. cbn [app]. clear - L.
    revert l L; induction n as [|n IH]; intros [|a l] L; cbn in *; try lia; [reflexivity|]. f_equal. now apply IH; lia. }
  replace (length ret) with (e + (1 + (length ret - S e)))%nat by lia. rewrite !seq_app, !flat_map_app, Q by lia. f_equal.
  cbn [seq flat_map Nat.add]. rewrite Nat.eqb_refl. cbn [app]. rewrite !app_nil_r. f_equal. rewrite <- app_assoc. f_equal. cbn [app]. f_equal.
  replace (e + 1)%nat with (S e) by lia. apply P; [lia|]. intros i Hi. lia.
Qed.

Lemma wrap_pos x n : (0 <= x < 2 ^ 64)%Z -> (0 < n)%nat -> wrap_index x n = Z.to_nat (x mod Z.of_nat n).
Proof. intros H N. unfold wrap_index. rewrite (Z.mod_small x) by exact H. reflexivity. Qed.
Lemma wrap_nat k n : (Z.of_nat k < 2 ^ 64)%Z -> (0 < n)%nat -> wrap_index (Z.of_nat k) n = (k mod n)%nat.
Proof. intros H N. rewrite wrap_pos by lia. rewrite <- Nat2Z.inj_mod, Nat2Z.id by lia. reflexivity. Qed.
Lemma wrap_mod x n : (0 < n)%nat -> (2 ^ 64 mod Z.of_nat n = 0)%Z -> wrap_index x n = Z.to_nat (x mod Z.of_nat n).
Proof.
  intros N D. unfold wrap_index. f_equal. assert (Hn : (Z.of_nat n <> 0)%Z) by lia.
  apply Z.mod_divide in D; [|exact Hn]. destruct D as (q & D).
  pose proof (Z.div_mod x (2 ^ 64) ltac:(lia)) as E. rewrite D in E at 1.
  rewrite E at 2. replace (q * Z.of_nat n * (x / 2 ^ 64) + x mod 2 ^ 64)%Z with (x mod 2 ^ 64 + (q * (x / 2 ^ 64)) * Z.of_nat n)%Z by ring.
  rewrite Z.mod_add by exact Hn. reflexivity.
Qed.

Definition rot {A} (v : nat) (l : list A) : list A := skipn v l ++ firstn v l.
Lemma rot_length {A} v (l : list A) : length (rot v l) = length l.
Proof. unfold rot. rewrite app_length, skipn_length, firstn_length. lia. Qed.

(** Walking forwards: the hole from vertex [v], and [v] again *)
Lemma walk_forward h v : (v < length h)%nat -> (Z.of_nat (2 * length h) < 2 ^ 64)%Z ->
  map (fun k => nth k h vzero) (hole_walk false h v) = rot v h ++ [nth v h vzero].
Proof.
  intros V L. unfold hole_walk. rewrite map_map, seq_app, map_app. f_equal.
  - replace (rot v h) with (map (fun k => nth k (rot v h) vzero) (seq 0 (length (rot v h)))) by apply map_nth_seq. rewrite rot_length.
    apply map_ext_in. intros j J. apply in_seq in J. replace (Z.of_nat v + Z.of_nat j)%Z with (Z.of_nat (v + j)) by lia. rewrite wrap_nat by lia.
    unfold rot. rewrite nth_rot by lia. reflexivity.
  - cbn [map seq Nat.add]. replace (Z.of_nat v + Z.of_nat (length h))%Z with (Z.of_nat (v + length h)) by lia. rewrite wrap_nat by lia.
    replace (v + length h)%nat with (v + 1 * length h)%nat by lia. rewrite Nat.mod_add, Nat.mod_small by lia. reflexivity.
Qed.
(** Walking backwards when 2^64 is a multiple of the number of vertices *)
Lemma walk_backward h v : (v < length h)%nat -> (2 ^ 64 mod Z.of_nat (length h) = 0)%Z ->
  map (fun k => nth k h vzero) (hole_walk true h v) = rev (rot (S v) h) ++ [nth v h vzero].
Proof.
  intros V D. unfold hole_walk. rewrite map_map, seq_app, map_app. f_equal.
  - replace (rev (rot (S v) h)) with (map (fun k => nth k (rev (rot (S v) h)) vzero) (seq 0 (length (rev (rot (S v) h))))) by apply map_nth_seq. rewrite rev_length, rot_length.
    apply map_ext_in. intros j J. apply in_seq in J. rewrite wrap_mod by (lia || exact D).
    rewrite rev_nth by (rewrite rot_length; lia). rewrite rot_length. unfold rot. rewrite nth_rot by lia. f_equal.
    replace (S v + (length h - S j))%nat with (v + (length h - j))%nat by lia.
    replace (Z.of_nat v - Z.of_nat j)%Z with (Z.of_nat (v + (length h - j)) + (-1) * Z.of_nat (length h))%Z by lia.
    rewrite Z.mod_add by lia. rewrite <- Nat2Z.inj_mod, Nat2Z.id. reflexivity.
  - cbn [map seq Nat.add]. rewrite wrap_mod by (lia || exact D).
    replace (Z.of_nat v - Z.of_nat (length h))%Z with (Z.of_nat v + (-1) * Z.of_nat (length h))%Z by lia. rewrite Z.mod_add, Z.mod_small by lia. rewrite Nat2Z.id. reflexivity.
Qed.

(** Splicing a closed walk into a closed outline adds their vector areas *)
Lemma psum_two a b : psum [a; b] = vcross a b.
Proof. cbn. apply vadd_0_r. Qed.
Lemma area2_splice A x y W B : area2 (A ++ [x] ++ (y :: W ++ [y]) ++ [x] ++ B) = vadd (area2 (A ++ x :: B)) (area2 (y :: W)).
Proof.
  rewrite area2_rot. rewrite (area2_rot A (x :: B)). set (C := B ++ A).
  replace (([x] ++ (y :: W ++ [y]) ++ [x] ++ B) ++ A) with ((x :: y :: W) ++ y :: x :: C) by (unfold C; cbn [app]; rewrite <- !app_assoc; reflexivity).
  unfold C. cbn [app]. unfold area2. cbn [app].
  replace (x :: y :: (W ++ y :: x :: B ++ A) ++ [x]) with ((x :: y :: W) ++ y :: x :: (B ++ A) ++ [x]) by (cbn [app]; rewrite <- (app_assoc W); reflexivity).
  rewrite psum_app. cbn [app]. rewrite (psum_cons y x), (psum_cons x y).
  set (u := psum (y :: W ++ [y])). set (w := psum (x :: (B ++ A) ++ [x])). clearbody u w. destruct u, w. vring.
Qed.

(** ** The closest pair *)
Lemma fold_le {S A} (d : S -> R) (g : S -> A -> S) xs : (forall s x, d (g s x) <= d s) ->
  forall s, d (fold_left g xs s) <= d s /\ forall x c, In x xs -> (forall s, d (g s x) <= c) -> d (fold_left g xs s) <= c.
Proof.
  intros H. induction xs as [|a xs IH]; intros s; cbn [fold_left]; [split; [lra|intros x c []]|].
  destruct (IH (g s a)) as (A1 & A2). split; [specialize (H s a); lra|].
  intros x c [<-|I] K; [specialize (K s); lra|]. eapply A2; eauto.
Qed.
Lemma fold_inv {S A} (P : S -> Prop) (g : S -> A -> S) xs : (forall s x, In x xs -> P s -> P (g s x)) -> forall s, P s -> P (fold_left g xs s).
Proof.
  induction xs as [|a xs IH]; intros H s Ps; cbn [fold_left]; [exact Ps|]. apply IH; [|apply H; [now left|exact Ps]]. intros s' x I. apply H. now right.
Qed.
Definition dist_of (st : R * nat * nat * nat) : R := fst (fst (fst st)).

Lemma closest_spec ret holes processed s :
  let '(d, e, k, v) := closest ret holes processed s in
  ((d, e, k, v) = s \/ ((e < length ret)%nat /\ (k < length holes)%nat /\ ~ In k processed /\ (v < length (lv (nth k holes loop_new)))%nat /\
     d = squared_distance (nth e ret vzero) (nth v (lv (nth k holes loop_new)) vzero))) /\
  d <= dist_of s /\
  (forall j k l, (j < length ret)%nat -> (k < length holes)%nat -> ~ In k processed -> (l < length (lv (nth k holes loop_new)))%nat ->
     d <= squared_distance (nth j ret vzero) (nth l (lv (nth k holes loop_new)) vzero)).
Proof.
  destruct (closest ret holes processed s) as [[[d e] k] v] eqn:E.
  set (P := fun st : R * nat * nat * nat => st = s \/ let '(d, e, k, v) := st in ((e < length ret)%nat /\ (k < length holes)%nat /\ ~ In k processed /\ (v < length (lv (nth k holes loop_new)))%nat /\
     d = squared_distance (nth e ret vzero) (nth v (lv (nth k holes loop_new)) vzero))).
  set (step := fun (j k : nat) => fun '(d, e, kk, v) (l : nat) =>
        let dist := squared_distance (nth j ret vzero) (nth l (lv (nth k holes loop_new)) vzero) in
        if Rltb dist d then (dist, j, k, l) else (d, e, kk, v)).
  set (mid := fun (j : nat) (st : R * nat * nat * nat) (k : nat) => if existsb (Nat.eqb k) processed then st else
        fold_left (step j k) (seq 0 (length (lv (nth k holes loop_new)))) st).
  assert (E' : fold_left (fun st j => fold_left (mid j) (seq 0 (length holes)) st) (seq 0 (length ret)) s = (d, e, k, v)) by exact E. clear E.
  assert (Ms : forall j k st l, dist_of (step j k st l) <= dist_of st /\ dist_of (step j k st l) <= squared_distance (nth j ret vzero) (nth l (lv (nth k holes loop_new)) vzero)).
  { intros j k0 [[[d0 e0] k1] v0] l. unfold step. cbv zeta. match goal with |- context [Rltb ?a ?b] => destruct (Rltb_spec a b) end; unfold dist_of; cbn [fst snd]; split; lra. }
  assert (Mm : forall j st k, dist_of (mid j st k) <= dist_of st).
  { intros j st k0. unfold mid. destruct (existsb _ _); [lra|]. apply (fold_le dist_of). intros; apply Ms. }
  assert (Mo : forall st j, dist_of (fold_left (mid j) (seq 0 (length holes)) st) <= dist_of st) by (intros st j; apply (fold_le dist_of); intros; apply Mm).
  split; [|change d with (dist_of (d, e, k, v)); rewrite <- E'; split].
  - change (P (d, e, k, v)). rewrite <- E'. apply (fold_inv P); [|left; reflexivity]. intros st j J Pst. apply in_seq in J.
    apply (fold_inv P); [|exact Pst]. intros st' k0 K Pst'. apply in_seq in K. unfold mid. destruct (existsb (Nat.eqb k0) processed) eqn:X; [exact Pst'|].
    apply (fold_inv P); [|exact Pst']. intros [[[d0 e0] k1] v0] l L Ps. apply in_seq in L. unfold step. cbv zeta. destruct (Rltb _ _); [|exact Ps].
    right. repeat split; try lia. intros I. assert (existsb (Nat.eqb k0) processed = true) by (apply existsb_exists; exists k0; split; [exact I|apply Nat.eqb_refl]). congruence.
  - apply (fold_le dist_of). exact Mo.
  - intros j k0 l J K NI L. apply (proj2 (fold_le dist_of _ _ Mo s)) with (x := j); [apply in_seq; lia|]. intros st.
    apply (proj2 (fold_le dist_of _ _ (Mm j) st)) with (x := k0); [apply in_seq; lia|]. intros st'. unfold mid.
    replace (existsb (Nat.eqb k0) processed) with false.
    2:{ symmetry. apply not_true_iff_false. intros X. apply existsb_exists in X as (z & Z & Q). apply Nat.eqb_eq in Q. subst. contradiction. }
    apply (proj2 (fold_le dist_of _ _ (fun s x => proj1 (Ms j k0 s x)) st')) with (x := l); [apply in_seq; lia|]. intros s'. apply Ms.
Qed.

(** ** Merging *)
(** [ret'] is [ret] with the hole [h] inserted at one of its vertices: the hole is walked from one of its vertices
    all the way back to it, backwards when [back] is set *)
Definition merge_one (back : bool) (ret h ret' : list pt) : Prop :=
  exists A x B y W, ret = A ++ x :: B /\ ret' = A ++ [x] ++ (y :: W ++ [y]) ++ [x] ++ B /\
    exists h1 h2, h = h1 ++ h2 /\ y :: W = (if back then rev (h2 ++ h1) else h2 ++ h1).
Inductive merges (back : Loop -> bool) : list Loop -> list pt -> list pt -> Prop :=
| merges_nil ret : merges back [] ret ret
| merges_cons h hs ret ret1 ret' : merge_one (back h) ret (lv h) ret1 -> merges back hs ret1 ret' -> merges back (h :: hs) ret ret'.

Lemma steps_rot h1 h2 x : steps_apart ((h1 ++ h2) ++ [x]) -> hd_error (h1 ++ h2) = Some x -> forall y, hd_error (h2 ++ h1) = Some y -> steps_apart ((h2 ++ h1) ++ [y]).
Proof.
  destruct h2 as [|b h2]; [rewrite app_nil_r; cbn; intros S H y Hy; congruence|].
  destruct h1 as [|a h1]; [rewrite app_nil_r; cbn; intros S H y Hy; injection H as <-; injection Hy as <-; exact S|].
  cbn [app hd_error]. intros S H y Hy. injection H as <-. injection Hy as <-.
  change (a :: (h1 ++ b :: h2) ++ [a]) with ((a :: h1 ++ b :: h2) ++ [a]) in S.
  replace ((a :: h1 ++ b :: h2) ++ [a]) with ((a :: h1) ++ (b :: h2) ++ [a]) in S by (cbn; rewrite <- app_assoc; reflexivity).
  pose proof (steps_app_r _ _ S) as S1. 
  assert (S2 : steps_apart ((a :: h1) ++ [b])).
  { apply (steps_app_l _ (h2 ++ [a])). cbn in *. rewrite <- app_assoc. exact S. }
  replace (b :: (h2 ++ a :: h1) ++ [b]) with ((b :: h2) ++ a :: (h1 ++ [b])) by (cbn; rewrite <- app_assoc; reflexivity).
  destruct h1 as [|c h1].
  - apply (steps_app (b :: h2) a b []); [exact S1|apply S2|exact I].
  - destruct S2 as (C & S2). apply (steps_app (b :: h2) a c (h1 ++ [b])); [exact S1|exact C|exact S2].
Qed.
Lemma steps_rev l : steps_apart l -> steps_apart (rev l).
Proof.
  induction l as [|a l IH]; intros S; [exact I|]. cbn [rev]. destruct l as [|b l]; [exact I|]. destruct S as (C & S). specialize (IH S). cbn [rev] in *.
  rewrite <- app_assoc. cbn [app]. apply steps_app; [exact IH| |exact I]. rewrite compare_sym. exact C.
Qed.

Lemma rot_split {A} v (l : list A) : l = firstn v l ++ skipn v l /\ rot v l = skipn v l ++ firstn v l.
Proof. split; [now rewrite firstn_skipn|reflexivity]. Qed.

Definition far_from (xs ys : list pt) : Prop := forall x y, In x xs -> In y ys -> compare x y = false.
Definition near_enough (xs ys : list pt) : Prop := forall x y, In x xs -> In y ys -> squared_distance x y < float_max.
(** Holes the code can walk around: in the direction opposite to the outline, or 2^64 is a multiple of the number of vertices *)
Definition walkable (back : bool) (h : list pt) : Prop :=
  h <> [] /\ (Z.of_nat (2 * length h) < 2 ^ 64)%Z /\ (back = true -> (2 ^ 64 mod Z.of_nat (length h) = 0)%Z).
Definition cyclic_apart (h : list pt) : Prop := match h with [] => True | x :: _ => steps_apart (h ++ [x]) end.

Lemma walk_shape back h v : walkable back h -> cyclic_apart h -> (v < length h)%nat ->
  exists y W h1 h2, map (fun k => nth k h vzero) (hole_walk back h v) = y :: W ++ [y] /\ h = h1 ++ h2 /\
    y :: W = (if back then rev (h2 ++ h1) else h2 ++ h1) /\ steps_apart (y :: W ++ [y]).
Proof.
  intros (Ne & Sm & Bk) Cy V. destruct h as [|a0 h0] eqn:Hh; [congruence|]. rewrite <- Hh in *. cbn [cyclic_apart] in Cy.
  assert (Cy' : steps_apart (h ++ [a0])) by (rewrite Hh in *; exact Cy). clear Cy.
  assert (H0 : hd_error h = Some a0) by (rewrite Hh; reflexivity).
  destruct back.
  - rewrite walk_backward by auto. destruct (rot_split (S v) h) as (E1 & E2).
    assert (L : rot (S v) h = (skipn (S v) h ++ firstn v h) ++ [nth v h vzero]).
    { rewrite E2, <- app_assoc. f_equal. clear - V. revert h V; induction v as [|v IH]; intros [|a h] V; cbn in *; try lia; [reflexivity|]. f_equal. apply IH. lia. }
    set (y := nth v h vzero) in *. exists y, (rev (skipn (S v) h ++ firstn v h)), (firstn (S v) h), (skipn (S v) h).
    assert (R : y :: rev (skipn (S v) h ++ firstn v h) = rev (rot (S v) h)) by (rewrite L, (rev_app_distr _ [y]); reflexivity).
    split; [|split; [exact E1|split]].
    + rewrite <- R. reflexivity.
    + rewrite R, E2. reflexivity.
    + change (y :: rev (skipn (S v) h ++ firstn v h) ++ [y]) with ((y :: rev (skipn (S v) h ++ firstn v h)) ++ [y]). rewrite R.
      (* reversed: the list ending and starting with y *)
      assert (Q : rev (rot (S v) h) ++ [y] = rev (y :: rot (S v) h)) by reflexivity. rewrite Q. apply steps_rev.
      destruct (skipn (S v) h ++ firstn v h) as [|b r] eqn:W.
      * rewrite L. cbn. split; [|exact I].
        (* a single vertex: the cyclic step is y to y *)
        assert (length h = 1%nat) by (assert (LL := f_equal (@length pt) L); rewrite rot_length in LL; cbn in LL; exact LL).
        destruct h as [|z [|? ?]]; cbn in H; try lia. injection H0 as ->. replace v with 0%nat in * by (cbn in V; lia). cbn in Cy'. rewrite compare_refl in Cy'. destruct Cy'. discriminate.
      * assert (S0 : steps_apart (rot (S v) h ++ [b])).
        { rewrite E2. apply (steps_rot (firstn (S v) h) (skipn (S v) h) a0).
          - now rewrite firstn_skipn.
          - now rewrite firstn_skipn.
          - rewrite <- E2, L. reflexivity. }
        rewrite L in *. cbn [app] in *. split.
        { apply (steps_app_r (b :: r)) in S0 as S1 || idtac. 
          assert (S1 : steps_apart ((b :: r) ++ [y; b])) by (cbn [app]; rewrite <- app_assoc in S0; exact S0).
          apply steps_app_r in S1. apply S1. }
        { apply (steps_app_l _ [b]). exact S0. }
  - rewrite walk_forward by auto. destruct (rot_split v h) as (E1 & E2).
    assert (L : rot v h = nth v h vzero :: (skipn (S v) h ++ firstn v h)) by (rewrite E2, (skipn_nth h v vzero) by exact V; reflexivity).
    exists (nth v h vzero), (skipn (S v) h ++ firstn v h), (firstn v h), (skipn v h). rewrite L. split; [reflexivity|]. split; [exact E1|]. split; [now rewrite <- L|].
    change (nth v h vzero :: (skipn (S v) h ++ firstn v h) ++ [nth v h vzero]) with ((nth v h vzero :: skipn (S v) h ++ firstn v h) ++ [nth v h vzero]). rewrite <- L, E2.
    apply (steps_rot (firstn v h) (skipn v h) a0); [now rewrite firstn_skipn|now rewrite firstn_skipn|]. rewrite <- E2, L. reflexivity.
Qed.

Lemma nth_split' (l : list pt) e : (e < length l)%nat -> l = firstn e l ++ nth e l vzero :: skipn (S e) l.
Proof. intros H. rewrite <- (skipn_nth l e vzero) by exact H. now rewrite firstn_skipn. Qed.

Lemma merge_one_in back ret h ret' p : merge_one back ret h ret' -> In p ret' <-> In p ret \/ In p h.
Proof.
  intros (A & x & B & y & W & -> & -> & h1 & h2 & -> & E).
  assert (Q : In p (y :: W) <-> In p (h1 ++ h2)).
  { rewrite E. destruct back; rewrite <- ?in_rev, !in_app_iff; tauto. }
  rewrite !in_app_iff. cbn [In app]. rewrite !in_app_iff in *. cbn [In] in *. tauto.
Qed.
Lemma NoDup_app_snoc {A} (l : list A) x : NoDup l -> ~ In x l -> NoDup (l ++ [x]).
Proof. intros N I. apply NoDup_rev in N. rewrite <- (rev_involutive (l ++ [x])). apply NoDup_rev. rewrite rev_app_distr. cbn. constructor; [now rewrite <- in_rev|exact N]. Qed.

Lemma merge_holes_spec on holes : 
  let back h := vis_same_direction on (ln h) in
  (forall h, In h holes -> walkable (back h) (lv h) /\ cyclic_apart (lv h)) ->
  (forall i j, (i < length holes)%nat -> (j < length holes)%nat -> i <> j ->
     far_from (lv (nth i holes loop_new)) (lv (nth j holes loop_new)) /\ near_enough (lv (nth i holes loop_new)) (lv (nth j holes loop_new))) ->
  forall rounds ret processed k0 v0 l, 
  (rounds + length processed = length holes)%nat -> NoDup processed -> (forall k, In k processed -> (k < length holes)%nat) ->
  lv ret <> [] -> steps_apart (lv ret) ->
  (forall k, (k < length holes)%nat -> ~ In k processed -> far_from (lv ret) (lv (nth k holes loop_new)) /\ near_enough (lv ret) (lv (nth k holes loop_new))) ->
  merge_holes rounds on holes ret processed k0 v0 = Ok l ->
  exists order, Permutation (processed ++ order) (seq 0 (length holes)) /\ merges back (map (fun k => nth k holes loop_new) order) (lv ret) (lv l).
Proof.
  intros back Hw Hf. induction rounds as [|rounds IH]; intros ret processed k0 v0 l R ND Lt Ne St Far H.
  - cbn [merge_holes] in H. injection H as <-. exists []. rewrite app_nil_r. split; [|constructor].
    apply NoDup_Permutation_bis; [exact ND|rewrite seq_length; cbn in R; lia|]. intros k K. apply in_seq. apply Lt in K. lia.
  - cbn [merge_holes] in H. destruct (closest (lv ret) holes processed (float_max, 0%nat, k0, v0)) as [[[d e] k] v] eqn:C.
    pose proof (closest_spec (lv ret) holes processed (float_max, 0%nat, k0, v0)) as P. rewrite C in P. destruct P as (P1 & _ & P3).
    (* some hole is left *)
    assert (Left : exists k1, (k1 < length holes)%nat /\ ~ In k1 processed).
    { destruct (Forall_Exists_dec (fun k => In k processed) (fun k => in_dec Nat.eq_dec k processed) (seq 0 (length holes))) as [F|F].
      - exfalso. assert (Sub : incl (seq 0 (length holes)) processed) by (intros x X; rewrite Forall_forall in F; now apply F).
        apply NoDup_incl_length in Sub; [|apply seq_NoDup]. rewrite seq_length in Sub. lia.
      - apply Exists_exists in F as (k1 & K1 & N1). apply in_seq in K1. exists k1. split; [lia|exact N1]. }
    destruct Left as (k1 & K1 & NI1).
    assert (Dlt : d < float_max).
    { destruct (Hw (nth k1 holes loop_new) (nth_In _ _ K1)) as ((Hne & _) & _). destruct (lv ret) as [|x0 r0] eqn:Wr; [congruence|].
      destruct (lv (nth k1 holes loop_new)) as [|y0 s0] eqn:Wh; [congruence|].
      eapply Rle_lt_trans; [apply (P3 0%nat k1 0%nat); [cbn; lia|exact K1|exact NI1|rewrite Wh; cbn; lia]|].
      destruct (Far k1 K1 NI1) as (_ & N). apply N; [now left|rewrite Wh; now left]. }
    destruct P1 as [P1|(E1 & E2 & E3 & E4 & E5)]; [injection P1 as -> _ _ _; lra|].
    rewrite (proj2 (Rltb_true _ _) Dlt) in H. cbv zeta in H. set (h := nth k holes loop_new) in *. fold (back h) in H.
    destruct (push_all loop_new _) as [aux| |] eqn:PA; cbn [bind] in H; try discriminate.
    destruct (Hw h (nth_In _ _ E2)) as (Wk & Cy).
    destruct (walk_shape _ _ _ Wk Cy E4) as (y & W & h1 & h2 & Wm & Wh & Wy & Ws).
    destruct (Far k E2 E3) as (Fk & Nk).
    set (A := firstn e (lv ret)) in *. set (x := nth e (lv ret) vzero) in *. set (B := skipn (S e) (lv ret)) in *.
    assert (Er : lv ret = A ++ x :: B) by (apply nth_split'; exact E1).
    assert (Ix : In x (lv ret)) by (apply nth_In; exact E1).
    assert (Iy : In y (lv h)).
    { rewrite Wh. assert (In y (y :: W)) by (now left). rewrite Wy in H0. destruct (back h); rewrite <- ?in_rev, in_app_iff in H0; apply in_app_iff; tauto. }
    assert (Cxy : compare x y = false) by (apply Fk; assumption).
    assert (RP : round_points (lv ret) (lv h) e v (back h) = A ++ [x] ++ (y :: W ++ [y]) ++ [x] ++ B) by (rewrite round_points_eq by exact E1; rewrite Wm; reflexivity).
    rewrite RP in PA.
    assert (SA : steps_apart (A ++ [x] ++ (y :: W ++ [y]) ++ [x] ++ B)).
    { cbn [app]. apply (steps_app A x y).
      - apply (steps_app_l _ B). rewrite <- app_assoc. cbn [app]. rewrite <- Er. exact St.
      - exact Cxy.
      - change (y :: (W ++ [y]) ++ x :: B) with ((y :: W ++ [y]) ++ x :: B). replace ((y :: W ++ [y]) ++ x :: B) with ((y :: W) ++ y :: x :: B) by (cbn; rewrite <- app_assoc; reflexivity).
        apply steps_app; [exact Ws|rewrite compare_sym; exact Cxy|]. apply (steps_app_r A). rewrite <- Er. exact St. }
    apply push_all_new in PA; [|exact SA].
    assert (M1 : merge_one (back h) (lv ret) (lv h) (lv aux)).
    { exists A, x, B, y, W. split; [exact Er|]. split; [exact PA|]. exists h1, h2. auto. }
    apply IH in H.
    + destruct H as (order & Pm & Ms). exists (k :: order). split; [now rewrite <- app_assoc in Pm|]. cbn [map]. fold h. econstructor; eassumption.
    + rewrite app_length. cbn. lia.
    + apply NoDup_app_snoc; assumption.
    + intros k2 K2. apply in_app_or in K2 as [K2|[<-|[]]]; [now apply Lt|exact E2].
    + rewrite PA. destruct A; discriminate.
    + rewrite PA. exact SA.
    + intros k2 K2 N2. assert (k2 <> k /\ ~ In k2 processed) as (N3 & N4) by (split; intros Q; apply N2; apply in_or_app; [right; left; auto|left; exact Q]).
      destruct (Far k2 K2 N4) as (F1 & F2). destruct (Hf k k2 E2 K2 ltac:(congruence)) as (F3 & F4).
      split; intros p q Ip Iq; apply (merge_one_in _ _ _ _ _ M1) in Ip as [Ip|Ip]; auto.
Qed.

Definition signed_area2 (back : Loop -> bool) (h : Loop) : pt := if back h then vneg (area2 (lv h)) else area2 (lv h).
Lemma merges_area back hs ret ret' : merges back hs ret ret' ->
  area2 ret' = fold_left (fun a h => vadd a (signed_area2 back h)) hs (area2 ret).
Proof.
  induction 1 as [|h hs ret ret1 ret' M _ IH]; [reflexivity|]. rewrite IH. cbn [fold_left]. f_equal.
  destruct M as (A & x & B & y & W & -> & -> & h1 & h2 & E & Y). rewrite area2_splice. f_equal. rewrite Y. unfold signed_area2. rewrite E.
  destruct (back h); [rewrite area2_rev|]; rewrite area2_rot; reflexivity.
Qed.
Lemma merges_in back hs ret ret' p : merges back hs ret ret' -> In p ret' <-> In p ret \/ exists h, In h hs /\ In p (lv h).
Proof.
  induction 1 as [|h hs ret ret1 ret' M _ IH]; [split; [auto|intros [|(? & [] & _)]; auto]|].
  rewrite IH, (merge_one_in _ _ _ _ _ M). split.
  - intros [[|]|(h' & I & P)]; [auto|right; exists h; cbn; auto|right; exists h'; cbn; auto].
  - intros [|(h' & [<-|I] & P)]; [auto|auto|right; exists h'; auto].
Qed.
Lemma merges_length back hs ret ret' : merges back hs ret ret' -> length ret' = (length ret + list_sum (map (fun h => length (lv h) + 2) hs))%nat.
Proof.
  induction 1 as [|h hs ret ret1 ret' M _ IH]; [cbn; lia|]. rewrite IH. cbn [map list_sum fold_right].
  destruct M as (A & x & B & y & W & -> & -> & h1 & h2 & E & Y).
  assert (L : length (y :: W) = length (lv h)) by (rewrite Y, E; destruct (back h); rewrite ?rev_length, !app_length; lia).
  rewrite !app_length. cbn [length] in *. rewrite app_length. cbn [length]. fold (list_sum (map (fun h0 => (length (lv h0) + 2)%nat) hs)). lia.
Qed.

(** Lemmas on triangulations *)
From Coq Require Import Reals List Bool Lra Lia Psatz ZArith Permutation.
From Verif.Common Require Import Base Flt.
From Verif.Geometry Require Import Vec BBoxModel TriangleModel LoopModel MeshModel GeomProofs TriangleProofs LoopProofs.
Import ListNotations.
Open Scope R_scope.

(** What matters for the covered area: the triangles and which of them are valid *)
Definition shape (m : Mesh) : list (Triangle3D * bool) := map (fun p => (tri p, valid p)) (pieces m).
Definition vec_of (t : Triangle3D) : pt := vcross (vsub (t_b t) (t_a t)) (vsub (t_c t) (t_a t)).
Definition total (s : list (Triangle3D * bool)) : pt :=
  fold_right (fun '(t, v) acc => if (v : bool) then vadd (vec_of t) acc else acc) vzero s.
Definition count (s : list (Triangle3D * bool)) : nat := length (filter snd s).

Lemma total_app a b : total (a ++ b) = vadd (total a) (total b).
Proof.
  induction a as [|[t v] a IH]; cbn [app total fold_right]; [symmetry; apply vadd_0_l|].
  fold (total (a ++ b)). fold (total a). rewrite IH. destruct v; [now rewrite vadd_assoc|reflexivity].
Qed.
Lemma count_app a b : count (a ++ b) = (count a + count b)%nat.
Proof. unfold count. rewrite filter_app, app_length. reflexivity. Qed.

Lemma map_upd {A B} (f : A -> B) l i x : map f (upd l i x) = upd (map f l) i (f x).
Proof. revert i; induction l as [|a l IH]; intros [|i]; cbn; auto. now rewrite IH. Qed.
Lemma upd_nth_self {A} (l : list A) i x : nth_error l i = Some x -> upd l i x = l.
Proof. revert i; induction l as [|a l IH]; intros [|i] H; cbn in *; try discriminate; [now injection H as ->|]. now rewrite IH. Qed.
Lemma shape_upd_same ps i p q : nth_error ps i = Some p -> tri q = tri p -> valid q = valid p ->
  map (fun p => (tri p, valid p)) (upd ps i q) = map (fun p => (tri p, valid p)) ps.
Proof.
  intros H T V. rewrite map_upd, T, V. apply upd_nth_self. now rewrite nth_error_map, H.
Qed.

(** Operations that keep the shape, whatever their outcome *)
Definition keeps {A} (x : st A) : Prop := forall m r m', x m = (r, m') -> shape m' = shape m /\ n_valid m' = n_valid m.
Lemma keeps_ret {A} (x : A) : keeps (ret x). Proof. intros m r m' E. injection E as _ <-. auto. Qed.
Lemma keeps_lift {A} (x : res A) : keeps (lift x). Proof. intros m r m' E. injection E as _ <-. auto. Qed.
Lemma keeps_get i : keeps (get i).
Proof. intros m r m'. unfold get. destruct (nth_error _ _); intros E; injection E as _ <-; auto. Qed.
Lemma keeps_bind {A B} (x : st A) (f : A -> st B) : keeps x -> (forall a, keeps (f a)) -> keeps (sbind x f).
Proof.
  intros Hx Hf m r m'. unfold sbind. destruct (x m) as [[a| |] m1] eqn:E; apply Hx in E as (S & N).
  - intros E. apply Hf in E as (S' & N'). split; congruence.
  - intros E. injection E as _ <-. auto.
  - intros E. injection E as _ <-. auto.
Qed.
Lemma keeps_modify i f : (forall p, tri (f p) = tri p /\ valid (f p) = valid p) -> keeps (modify i f).
Proof.
  intros H m r m'. unfold modify. destruct (nth_error (pieces m) i) as [p|] eqn:E; intros Q; injection Q as _ <-; [|auto].
  split; [|reflexivity]. unfold shape. cbn. destruct (H p). now apply shape_upd_same with (p := p).
Qed.
Lemma keeps_mark i e j : keeps (mark_as_neighbours i e j).
Proof.
  unfold mark_as_neighbours. destruct (i =? j)%nat; [apply keeps_lift|].
  apply keeps_bind; [apply keeps_get|]. intros p. destruct (negb (valid p)); [apply keeps_lift|].
  apply keeps_bind; [apply keeps_get|]. intros q. destruct (negb (valid q)); [apply keeps_lift|].
  destruct (edge_of _ _); [|apply keeps_lift].
  apply keeps_bind; [|intros _]; apply keeps_modify; intros x; destruct e, e0; cbn; auto.
  all: match goal with |- context [match ?e with _ => _ end] => destruct e; cbn; auto end.
Qed.
Lemma keeps_mark_opt i e n : keeps (mark_opt i e n).
Proof. destruct n; [apply keeps_mark|apply keeps_ret]. Qed.
Lemma keeps_constrain c i e : keeps (constrain_if c i e).
Proof. destruct c; [|apply keeps_ret]. apply keeps_modify. intros x. destruct e; cbn; auto. Qed.
Lemma keeps_for_each {A} (xs : list A) f : (forall x, keeps (f x)) -> keeps (for_each xs f).
Proof. intros H. induction xs as [|x xs IH]; [apply keeps_ret|]. cbn. apply keeps_bind; [apply H|intros _; exact IH]. Qed.
Lemma keeps_mark_pair i j es : keeps (mark_pair i j es).
Proof.
  induction es as [|e es IH]; cbn; [apply keeps_ret|].
  apply keeps_bind; [apply keeps_get|]. intros p. apply keeps_bind; [apply keeps_get|]. intros q. destruct (edge_of _ _); [apply keeps_mark|exact IH].
Qed.
Lemma keeps_neighbourhouds : keeps mark_neighbourhouds.
Proof.
  intros m r m'. unfold mark_neighbourhouds. apply keeps_for_each. intros i. apply keeps_for_each. intros j. apply keeps_mark_pair.
Qed.
Lemma keeps_edge t x y : keeps (edge_or_err t x y). Proof. apply keeps_lift. Qed.

Lemma keeps_ok {A} (x : st A) m a m' : keeps x -> x m = (Ok a, m') -> shape m' = shape m /\ n_valid m' = n_valid m.
Proof. intros K. apply K. Qed.

(** ** Pushing a triangle *)
Lemma piece_new_tri a b c i p : piece_new a b c i = Ok p -> valid p = true /\ t_a (tri p) = a /\ t_b (tri p) = b /\ t_c (tri p) = c /\ vec_of (tri p) = vcross (vsub b a) (vsub c a).
Proof.
  unfold piece_new. destruct (triangle_new a b c) as [t| |] eqn:E; cbn [bind]; try discriminate. intros Q. injection Q as <-. cbn.
  unfold triangle_new in E. destruct (compare a b || compare a c || compare b c); [discriminate|].
  destruct (is_collinear a b c) as [[]| |]; cbn [bind] in E; try discriminate.
  destruct (tri_normal a b c); cbn [bind] in E; try discriminate. injection E as <-. unfold vec_of. cbn. auto.
Qed.

Lemma first_invalid_spec ps i k : first_invalid_from ps i = Some k ->
  (i <= k)%nat /\ exists p, nth_error ps (k - i) = Some p /\ valid p = false.
Proof.
  revert i. induction ps as [|p ps IH]; intros i; cbn [first_invalid_from]; [discriminate|].
  destruct (valid p) eqn:V; cbn [negb].
  - intros E. apply IH in E as (L & q & Q & W). split; [lia|]. exists q. split; [|exact W]. replace (k - i)%nat with (S (k - S i)) by lia. exact Q.
  - intros E. injection E as <-. split; [lia|]. exists p. rewrite Nat.sub_diag. auto.
Qed.
Lemma first_invalid_none ps i : first_invalid_from ps i = None -> forall p, In p ps -> valid p = true.
Proof.
  revert i. induction ps as [|p ps IH]; intros i; cbn [first_invalid_from]; [intros _ p []|].
  destruct (valid p) eqn:V; cbn [negb]; [|discriminate]. intros E q [<-|H]; [exact V|]. now apply (IH (S i)).
Qed.
Lemma nth_error_skipn {A} (l : list A) n k : nth_error (skipn n l) k = nth_error l (n + k).
Proof. revert n; induction l as [|a l IH]; intros [|n]; cbn; auto. now destruct k. Qed.

Lemma get_first_invalid_spec m s k : get_first_invalid m s = Some k -> (s <= k)%nat /\ exists p, nth_error (pieces m) k = Some p /\ valid p = false.
Proof.
  unfold get_first_invalid. intros E. apply first_invalid_spec in E as (L & p & P & V). split; [exact L|]. exists p. split; [|exact V].
  rewrite nth_error_skipn in P. replace (s + (k - s))%nat with k in P by lia. exact P.
Qed.
Lemma get_first_invalid_here m s p : nth_error (pieces m) s = Some p -> valid p = false -> get_first_invalid m s = Some s.
Proof.
  intros H V. unfold get_first_invalid. assert (E : exists r, skipn s (pieces m) = p :: r).
  { revert H. generalize (pieces m) as l. clear. induction s as [|s IH]; intros [|a l] H; cbn in *; try discriminate; [injection H as ->; eauto|eauto]. }
  destruct E as (r & ->). cbn. now rewrite V.
Qed.

(** The shape after a push: a new slot at the end, or the replacement of an invalid one *)
Lemma push_shape a b c s m i m' : t_push a b c s m = (Ok i, m') ->
  exists t, t_a t = a /\ t_b t = b /\ t_c t = c /\ vec_of t = vcross (vsub b a) (vsub c a) /\ triangle_new a b c = Ok t /\ n_valid m' = S (n_valid m) /\
  ((i = length (shape m) /\ shape m' = shape m ++ [(t, true)] /\ get_first_invalid m s = None) \/
   ((s <= i)%nat /\ get_first_invalid m s = Some i /\ exists t0, nth_error (shape m) i = Some (t0, false) /\ shape m' = upd (shape m) i (t, true))).
Proof.
  unfold t_push. destruct (get_first_invalid m s) as [k|] eqn:G; destruct (piece_new a b c _) as [p| |] eqn:P; try discriminate; intros E; injection E as <- <-.
  - pose proof (piece_new_tri _ _ _ _ _ P) as (V & A & B & C & W). exists (tri p). repeat (split; [assumption|]).
    split. { unfold piece_new in P. destruct (triangle_new a b c); cbn [bind] in P; try discriminate. injection P as <-. reflexivity. }
    split; [reflexivity|]. right. apply get_first_invalid_spec in G as Gs. destruct Gs as (L & q & Q & Vq). split; [exact L|]. split; [reflexivity|]. exists (tri q).
    unfold shape. cbn [pieces]. rewrite nth_error_map, Q. cbn. rewrite Vq. split; [reflexivity|]. rewrite map_upd, V. reflexivity.
  - pose proof (piece_new_tri _ _ _ _ _ P) as (V & A & B & C & W). exists (tri p). repeat (split; [assumption|]).
    split. { unfold piece_new in P. destruct (triangle_new a b c); cbn [bind] in P; try discriminate. injection P as <-. reflexivity. }
    split; [reflexivity|]. left. unfold shape. cbn [pieces]. rewrite map_length, map_app. cbn. rewrite V. auto.
Qed.

Lemma total_upd s i t0 t : nth_error s i = Some (t0, false) -> total (upd s i (t, true)) = vadd (total s) (vec_of t).
Proof.
  revert i. induction s as [|[t1 v] s IH]; intros [|i] H; cbn in H; try discriminate.
  - injection H as -> ->. cbn. apply vadd_comm.
  - cbn. fold (total s). fold (total (upd s i (t, true))). rewrite (IH i H). destruct v; [now rewrite vadd_assoc|reflexivity].
Qed.
Lemma count_upd s i t0 t : nth_error s i = Some (t0, false) -> count (upd s i (t, true)) = S (count s).
Proof.
  revert i. induction s as [|[t1 v] s IH]; intros [|i] H; cbn in H; try discriminate.
  - injection H as -> ->. reflexivity.
  - unfold count in *. cbn. rewrite !app_length || idtac. destruct v; cbn; rewrite (IH i H); reflexivity.
Qed.
Lemma push_total a b c s m i m' : t_push a b c s m = (Ok i, m') ->
  total (shape m') = vadd (total (shape m)) (vcross (vsub b a) (vsub c a)) /\ count (shape m') = S (count (shape m)).
Proof.
  intros E. apply push_shape in E as (t & A & B & C & V & _ & _ & [(_ & S & _)|(_ & _ & t0 & N & S)]); rewrite S.
  - rewrite total_app, count_app. cbn. rewrite vadd_0_r, V. split; [reflexivity|lia].
  - rewrite (total_upd _ _ _ _ N), (count_upd _ _ _ _ N), V. auto.
Qed.

Lemma invalidate_shape i m m' : invalidate i m = (Ok tt, m') ->
  exists t v, nth_error (shape m) i = Some (t, v) /\ shape m' = upd (shape m) i (t, false) /\ n_valid m' = (n_valid m - 1)%nat.
Proof.
  unfold invalidate. destruct (nth_error (pieces m) i) as [p|] eqn:E; [|discriminate]. intros Q. injection Q as <-.
  exists (tri p), (valid p). unfold shape. cbn. rewrite nth_error_map, E, map_upd. auto.
Qed.
Lemma total_invalid s i t : nth_error s i = Some (t, true) -> total s = vadd (total (upd s i (t, false))) (vec_of t).
Proof.
  revert i. induction s as [|[t1 v] s IH]; intros [|i] H; cbn in H; try discriminate.
  - injection H as -> ->. cbn. apply vadd_comm.
  - cbn. fold (total s). fold (total (upd s i (t, false))). rewrite (IH i H). destruct v; [now rewrite vadd_assoc|reflexivity].
Qed.
Lemma count_invalid s i t : nth_error s i = Some (t, true) -> count s = S (count (upd s i (t, false))).
Proof.
  revert i. induction s as [|[t1 v] s IH]; intros [|i] H; cbn in H; try discriminate.
  - injection H as -> ->. reflexivity.
  - unfold count in *. cbn. destruct v; cbn; rewrite (IH i H); reflexivity.
Qed.

(** ** Ear clipping *)
Lemma nth_rot {A} (l : list A) j k d : (j <= length l)%nat -> (k < length l)%nat ->
  nth k (skipn j l ++ firstn j l) d = nth ((j + k) mod length l) l d.
Proof.
  intros J K. destruct (Nat.lt_ge_cases k (length l - j)) as [H|H].
  - rewrite app_nth1 by (rewrite skipn_length; lia). rewrite Nat.mod_small by lia.
    rewrite <- (firstn_skipn j l) at 2. rewrite app_nth2; rewrite firstn_length_le by lia; [|lia]. f_equal. lia.
  - rewrite app_nth2 by (rewrite skipn_length; lia). rewrite skipn_length.
    assert (M : ((j + k) mod length l = j + k - length l)%nat).
    { replace (j + k)%nat with (j + k - length l + 1 * length l)%nat at 1 by lia. rewrite Nat.mod_add by lia. apply Nat.mod_small. lia. }
    rewrite M. transitivity (nth (j + k - length l) (firstn j l ++ skipn j l) d); [|now rewrite firstn_skipn].
    rewrite (app_nth1 (firstn j l)) by (rewrite firstn_length_le; lia). f_equal. lia.
Qed.

Lemma remove_length {A} (l : list A) i : (i < length l)%nat -> length (remove_at i l) = (length l - 1)%nat.
Proof. intros H. unfold remove_at. rewrite app_length, firstn_length_le, skipn_length by lia. lia. Qed.
Lemma remove_incl {A} (l : list A) i x : In x (remove_at i l) -> In x l.
Proof.
  unfold remove_at. intros H. apply in_app_or in H as [H|H].
  - rewrite <- (firstn_skipn i l). apply in_or_app. now left.
  - rewrite <- (firstn_skipn (S i) l). apply in_or_app. now right.
Qed.
Lemma skipn_nth {A} (l : list A) i d : (i < length l)%nat -> skipn i l = nth i l d :: skipn (S i) l.
Proof. revert i; induction l as [|a l IH]; intros [|i] H; cbn in *; try lia; [reflexivity|]. apply IH. lia. Qed.

Lemma area2_remove l i : (3 <= length l)%nat -> (i < length l)%nat ->
  area2 l = vadd (area2 (remove_at i l))
              (tri2 (nth ((i + (length l - 1)) mod length l) l vzero) (nth i l vzero) (nth ((i + 1) mod length l) l vzero)).
Proof.
  intros N I. set (n := length l) in *. set (r := skipn (S i) l ++ firstn i l).
  assert (Lr : length r = (n - 1)%nat) by (unfold r; rewrite app_length, firstn_length_le, skipn_length by lia; fold n; lia).
  assert (Rot : skipn i l ++ firstn i l = nth i l vzero :: r) by (rewrite (skipn_nth l i vzero) by exact I; reflexivity).
  assert (Nr : forall k, (k < n - 1)%nat -> nth k r vzero = nth ((i + 1 + k) mod n) l vzero).
  { intros k K. pose proof (nth_rot l i (S k) vzero ltac:(lia) ltac:(fold n; lia)) as Q. rewrite Rot in Q. cbn [nth] in Q. rewrite Q. fold n. f_equal. f_equal. lia. }
  assert (A1 : area2 l = area2 (nth i l vzero :: r)).
  { rewrite <- Rot, area2_rot, firstn_skipn. reflexivity. }
  assert (A2 : area2 (remove_at i l) = area2 r) by (unfold remove_at, r; apply area2_rot).
  assert (E0 : nth ((i + 1) mod n) l vzero = nth 0 r vzero) by (rewrite Nr by lia; f_equal; f_equal; lia).
  assert (E1 : nth ((i + (n - 1)) mod n) l vzero = nth (n - 2) r vzero) by (rewrite Nr by lia; f_equal; f_equal; lia).
  rewrite A1, A2, E0, E1. clearbody r. clear - N Lr.
  assert (D : exists y mid x, r = y :: mid ++ [x]).
  { destruct r as [|y r]; [cbn in Lr; lia|]. destruct r as [|z r] using rev_ind; [cbn in Lr; lia|]. exists y, r, z. reflexivity. }
  destruct D as (y & mid & x & ->). change (nth 0 (y :: mid ++ [x]) vzero) with y.
  replace (nth (n - 2) (y :: mid ++ [x]) vzero) with x.
  2:{ cbn in Lr. rewrite app_length in Lr. cbn in Lr. replace (n - 2)%nat with (S (length mid)) by lia. cbn. rewrite app_nth2, Nat.sub_diag by lia. reflexivity. }
  set (v := nth i l vzero). clearbody v.
  change (v :: y :: mid ++ [x]) with ((v :: y :: mid) ++ [x]). rewrite area2_rot. change (y :: mid ++ [x]) with ((y :: mid) ++ [x]). rewrite (area2_rot (y :: mid)).
  cbn [app]. apply area2_ear.
Qed.

Lemma sbind_ok {A B} (x : st A) (f : A -> st B) m b m' : sbind x f m = (Ok b, m') -> exists a m1, x m = (Ok a, m1) /\ f a m1 = (Ok b, m').
Proof. unfold sbind. destruct (x m) as [[a| |] m1]; try discriminate. eauto. Qed.

Definition all_valid (m : Mesh) : Prop := forall p, In p (pieces m) -> valid p = true.
Lemma all_valid_shape m : all_valid m <-> forall t v, In (t, v) (shape m) -> v = true.
Proof.
  unfold all_valid, shape. split.
  - intros H t v I. apply in_map_iff in I as (p & E & I). injection E as _ <-. now apply H.
  - intros H p I. apply (H (tri p)). apply in_map_iff. exists p. auto.
Qed.
Lemma get_first_none m s : all_valid m -> get_first_invalid m s = None.
Proof.
  intros H. destruct (get_first_invalid m s) eqn:E; [|reflexivity]. apply get_first_invalid_spec in E as (_ & p & P & V).
  apply nth_error_In in P. rewrite (H p P) in V. discriminate.
Qed.

Definition corners_in (t : Triangle3D) (vs : list pt) : Prop := In (t_a t) vs /\ In (t_b t) vs /\ In (t_c t) vs.

Lemma mod_shift a n k : (n <> 0)%nat -> ((a + k) mod n = ((a mod n) + k) mod n)%nat.
Proof. intros. rewrite Nat.add_mod_idemp_l by lia. reflexivity. Qed.

Lemma ears_spec g : forall fuel l anchor m m', all_valid m -> (2 <= length (lv l))%nat ->
  ears fuel g l anchor m = (Ok tt, m') ->
  exists ts, shape m' = shape m ++ map (fun t => (t, true)) ts /\ (length ts + 2 = length (lv l))%nat /\ (length (lv l) < fuel + 2)%nat /\
    (forall t, In t ts -> corners_in t (lv l) /\ triangle_new (t_a t) (t_b t) (t_c t) = Ok t) /\
    total (map (fun t => (t, true)) ts) = area2 (lv l) /\ n_valid m' = (n_valid m + length ts)%nat.
Proof.
  induction fuel as [|fuel IH]; intros l anchor m m' AV L2 H; cbn [ears] in H; [discriminate|].
  set (n := length (lv l)) in *.
  destruct (n =? 2)%nat eqn:N2.
  { apply Nat.eqb_eq in N2. apply (keeps_ok _ _ _ _ keeps_neighbourhouds) in H as (S & N). exists []. rewrite S, N, app_nil_r. cbn.
    split; [reflexivity|]. split; [lia|]. split; [lia|]. split; [intros t []|]. split; [|lia]. destruct (lv l) as [|x [|y [|]]]; cbn in n; try (exfalso; subst n; lia). symmetry. apply area2_two. }
  apply Nat.eqb_neq in N2. replace (n =? 0)%nat with false in H by (symmetry; apply Nat.eqb_neq; lia).
  set (i := ((anchor + 1) mod n)%nat) in *.
  set (v0 := nth (anchor mod n) (lv l) vzero) in *. set (v1 := nth i (lv l) vzero) in *. set (v2 := nth ((anchor + 2) mod n) (lv l) vzero) in *.
  apply sbind_ok in H as (is_line & m1 & E1 & H). injection E1 as _ <-.
  apply sbind_ok in H as (diag & m1 & E2 & H). injection E2 as _ <-.
  assert (Li : (i < n)%nat) by (apply Nat.mod_upper_bound; lia).
  assert (E0 : v0 = nth ((i + (n - 1)) mod n) (lv l) vzero).
  { unfold v0, i. f_equal. rewrite Nat.add_mod_idemp_l by lia. replace (anchor + 1 + (n - 1))%nat with (anchor + 1 * n)%nat by lia. now rewrite Nat.mod_add by lia. }
  assert (E2' : v2 = nth ((i + 1) mod n) (lv l) vzero).
  { unfold v2, i. f_equal. rewrite Nat.add_mod_idemp_l by lia. f_equal. lia. }
  destruct ((n =? 3)%nat || (negb is_line && diag)).
  - apply sbind_ok in H as (k & m1 & P & H).
    apply sbind_ok in H as ([] & m2 & C1 & H). apply (keeps_ok _ _ _ _ (keeps_constrain _ _ _)) in C1 as (S1 & W1).
    apply sbind_ok in H as ([] & m3 & C2 & H). apply (keeps_ok _ _ _ _ (keeps_constrain _ _ _)) in C2 as (S2 & W2).
    apply sbind_ok in H as ([] & m4 & C3 & H). apply (keeps_ok _ _ _ _ (keeps_constrain _ _ _)) in C3 as (S3 & W3).
    apply push_shape in P as (t & A & B & C & V & T & Nv & [(_ & Sh & _)|(_ & G & _)]); [|rewrite (get_first_none _ _ AV) in G; discriminate].
    assert (Sh4 : shape m4 = shape m ++ [(t, true)]) by congruence.
    apply IH in H.
    2:{ apply all_valid_shape. rewrite Sh4. intros t' v I. apply in_app_or in I as [I|[I|[]]]; [|congruence]. now apply (proj1 (all_valid_shape m)) in I. }
    2:{ cbn [lv with_vertices]. rewrite remove_length by exact Li. fold n. lia. }
    destruct H as (ts & Q1 & Q2 & Q3 & Q4 & Q5 & Q6). cbn [lv with_vertices] in *. rewrite remove_length in * by exact Li. fold n in Q2, Q3.
    exists (t :: ts). rewrite Q1, Sh4, <- app_assoc. cbn [map app length]. split; [reflexivity|]. split; [lia|]. split; [lia|].
    split; [|split; [|rewrite Q6; lia]].
    + intros t' [<-|I].
      * rewrite A, B, C. split; [|exact T]. unfold corners_in. rewrite A, B, C. unfold v0, v1, v2.
        repeat split; apply nth_In; fold n; try exact Li; apply Nat.mod_upper_bound; lia.
      * destruct (Q4 t' I) as ((I1 & I2 & I3) & T'). split; [|exact T']. repeat split; eapply remove_incl; eassumption.
    + change (total ((t, true) :: map (fun t0 => (t0, true)) ts)) with (vadd (vec_of t) (total (map (fun t0 => (t0, true)) ts))).
      rewrite Q5, V, (area2_remove (lv l) i) by (fold n; lia). fold n. rewrite <- E0, <- E2'. fold v1. rewrite tri2_cross. apply vadd_comm.
  - apply IH in H; [|exact AV|exact L2]. destruct H as (ts & Q1 & Q2 & Q3 & Q4 & Q5 & Q6). fold n in Q2, Q3. exists ts. repeat (split; [auto; lia|]). auto.
Qed.

(** ** Slots *)
Lemma upd_length {A} (l : list A) i x : length (upd l i x) = length l.
Proof. revert i; induction l; intros [|i]; cbn; auto. Qed.
Lemma nth_error_upd {A} (l : list A) i j x : nth_error (upd l i x) j = if (i =? j)%nat then (match nth_error l i with Some _ => Some x | None => None end) else nth_error l j.
Proof.
  revert i j. induction l as [|a l IH]; intros [|i] [|j]; cbn; auto.
  all: destruct (i =? j)%nat; reflexivity.
Qed.

Lemma push_keeps a b c s m i m' j t : t_push a b c s m = (Ok i, m') -> nth_error (shape m) j = Some (t, true) -> nth_error (shape m') j = Some (t, true) /\ i <> j.
Proof.
  intros E H. apply push_shape in E as (t1 & _ & _ & _ & _ & _ & _ & [(L & S & _)|(_ & _ & t0 & N & S)]); rewrite S.
  - assert (j < length (shape m))%nat by (apply nth_error_Some; congruence). rewrite nth_error_app1 by lia. split; [exact H|lia].
  - assert (i <> j) by congruence. rewrite nth_error_upd. apply Nat.eqb_neq in H0 as ->. split; [exact H|congruence].
Qed.
Lemma push_here a b c m i m' t0 : nth_error (shape m) i = Some (t0, false) -> forall k, t_push a b c i m = (Ok k, m') -> k = i.
Proof.
  intros H k E. apply push_shape in E as (t1 & _ & _ & _ & _ & _ & _ & [(_ & _ & G)|(_ & G & _)]).
  all: unfold shape in H; rewrite nth_error_map in H; destruct (nth_error (pieces m) i) as [p|] eqn:P; cbn in H; try discriminate; injection H as _ V.
  all: rewrite (get_first_invalid_here _ _ _ P V) in G; congruence.
Qed.
Lemma shape_piece m i p : nth_error (pieces m) i = Some p -> nth_error (shape m) i = Some (tri p, valid p).
Proof. intros H. unfold shape. now rewrite nth_error_map, H. Qed.
Lemma piece_shape m i t v : nth_error (shape m) i = Some (t, v) -> exists p, nth_error (pieces m) i = Some p /\ tri p = t /\ valid p = v.
Proof. unfold shape. rewrite nth_error_map. destruct (nth_error (pieces m) i) as [p|]; [|discriminate]. cbn. intros E. injection E as <- <-. eauto. Qed.

Lemma compare_sym a b : compare a b = compare b a.
Proof. unfold compare, compare_by. f_equal. unfold vlen2, vsub, vdot. cbn. ring. Qed.
Lemma compare_refl a : compare a a = true.
Proof. unfold compare, compare_by. apply Rleb_true. unfold vlen2, vsub, vdot. cbn. nra. Qed.

(** Corners that are told apart *)
Definition apart (t : Triangle3D) : Prop := compare (t_a t) (t_b t) = false /\ compare (t_a t) (t_c t) = false /\ compare (t_b t) (t_c t) = false.
Lemma triangle_apart a b c t : triangle_new a b c = Ok t -> apart t.
Proof.
  unfold triangle_new. destruct (compare a b || compare a c || compare b c) eqn:E; [discriminate|].
  destruct (is_collinear a b c) as [[]| |]; cbn [bind]; try discriminate. destruct (tri_normal a b c); cbn [bind]; try discriminate.
  intros Q. injection Q as <-. apply orb_false_iff in E as (E & E3). apply orb_false_iff in E as (E1 & E2). unfold apart. cbn. auto.
Qed.

Definition flipped (s : Segment) : Segment := mkS (s_end s) (s_start s).
Lemma edge_of_exact t e s : apart t -> s = segment t e \/ s = flipped (segment t e) -> edge_of t s = Some e.
Proof.
  intros (A & B & C) H. pose proof A as A'. pose proof B as B'. pose proof C as C'. rewrite compare_sym in A', B', C'.
  unfold edge_of, s_compare. destruct e, H as [-> | ->]; cbn;
    rewrite ?compare_refl, ?A, ?B, ?C, ?A', ?B', ?C'; cbn; reflexivity.
Qed.
Definition opposite (t : Triangle3D) (e : Edge) : pt := match e with Ab => t_c t | Bc => t_a t | Ca => t_b t end.
Lemma opposite_exact t e s : apart t -> s = segment t e \/ s = flipped (segment t e) -> get_opposite_vertex t s = Ok (opposite t e).
Proof. intros A H. unfold get_opposite_vertex. rewrite (edge_of_exact t e s A H). destruct e; reflexivity. Qed.

Ltac vext := unfold vec_of, vadd, vsub, vcross, vzero in *; cbn [vx vy vz]; f_equal; ring.

Lemma vec_corners t e a b c : corners t e = (a, b, c) -> vec_of t = vcross (vsub b a) (vsub c a) /\ segment t e = mkS a b /\ opposite t e = c.
Proof.
  destruct e; cbn; intros E; injection E as <- <- <-; (split; [|split; reflexivity]); vext.
Qed.

Ltac sok H a m1 E := apply sbind_ok in H as (a & m1 & E & H).
Ltac kok E S N := apply keeps_ok in E; [destruct E as (S & N)|].

Lemma vadd_cancel x a b : vadd x a = vadd b a -> x = b.
Proof. intros E. destruct x, b, a. unfold vadd in E. cbn in E. injection E as E1 E2 E3. f_equal; lra. Qed.

Lemma hemisphere_total s x i m r m' p e a b c : nth_error (pieces m) i = Some p -> valid p = true -> apart (tri p) -> corners (tri p) e = (a, b, c) ->
  s = segment (tri p) e \/ s = flipped (segment (tri p) e) ->
  process_hemisphere s x i m = (Ok r, m') ->
  vadd (total (shape m')) (vcross (vsub b a) (vsub x a)) = total (shape m) /\ count (shape m') = S (count (shape m)) /\
  (forall j t, j <> i -> nth_error (shape m) j = Some (t, true) -> nth_error (shape m') j = Some (t, true)) /\ n_valid m' = S (S (n_valid m - 1)) /\
  (exists t1 t2, nth_error (shape m') (fst r) = Some (t1, true) /\ nth_error (shape m') (snd r) = Some (t2, true) /\ fst r = i /\ t_a t1 = a /\ t_b t1 = x /\ t_c t1 = c /\ t_a t2 = x /\ t_b t2 = b /\ t_c t2 = c).
Proof.
  intros Hp V A Co Hs H. apply vec_corners in Co as Co'. destruct Co' as (Ve & Se & Op).
  unfold process_hemisphere in H.
  sok H p' m1 E. unfold get in E. rewrite Hp in E. injection E as <- <-.
  sok H e1 m1 E. rewrite (edge_of_exact _ _ _ A Hs) in E. injection E as <- <-.
  cbv zeta in H. rewrite (edge_of_exact _ e (segment (tri p) e) A (or_introl eq_refl)) in H.
  sok H e1 m1 E. injection E as <- <-.
  rewrite (opposite_exact _ e (segment (tri p) e) A (or_introl eq_refl)), Op, Se in H. cbn [s_start s_end] in H.
  sok H cc m1 E. injection E as <- <-.
  sok H u m1 Inv. destruct u. apply invalidate_shape in Inv as (t & v & T & S1 & Nv).
  rewrite (shape_piece _ _ _ Hp), V in T. injection T as <- <-.
  sok H k1 m2 P1. sok H k2 m3 P2.
  sok H u m4 Q1. kok Q1 S4 N4; [|apply keeps_constrain].
  sok H u' m5 Q2. kok Q2 S5 N5; [|apply keeps_mark].
  sok H u'' m6 Q3. kok Q3 S6 N6; [|apply keeps_mark_opt].
  sok H u3 m7 Q4. kok Q4 S7 N7; [|apply keeps_constrain].
  sok H u4 m8 Q5. kok Q5 S8 N8; [|apply keeps_constrain].
  sok H u5 m9 Q6. kok Q6 S9 N9; [|apply keeps_mark_opt].
  sok H u6 m10 Q7. kok Q7 S10 N10; [|apply keeps_constrain]. injection H as <- <-. cbn [fst snd].
  assert (Sh : shape m10 = shape m3) by congruence. assert (Nh : n_valid m10 = n_valid m3) by congruence. rewrite Sh, Nh.
  pose proof (push_total _ _ _ _ _ _ _ P1) as (T1 & C1). pose proof (push_total _ _ _ _ _ _ _ P2) as (T2 & C2).
  pose proof (total_invalid (shape m) i (tri p)) as TI. pose proof (count_invalid (shape m) i (tri p)) as CI.
  rewrite (shape_piece _ _ _ Hp), V in TI, CI. specialize (TI eq_refl). specialize (CI eq_refl). rewrite <- S1 in TI, CI.
  pose proof (push_shape _ _ _ _ _ _ _ P1) as (u1' & A1 & B1 & D1 & V1 & _ & M1 & X1).
  pose proof (push_shape _ _ _ _ _ _ _ P2) as (u2' & A2 & B2 & D2 & V2 & _ & M2 & X2).
  assert (K1 : k1 = i).
  { eapply push_here; [|exact P1]. rewrite S1, nth_error_upd, Nat.eqb_refl, (shape_piece _ _ _ Hp). reflexivity. }
  split; [|split; [lia|split; [|split; [lia|]]]].
  - rewrite T2, T1, TI, Ve. generalize (total (shape m1)). intros z. destruct z, a, b, c, x. vext.
  - intros j t J Hj. eapply push_keeps in P2; [destruct P2 as (P2 & _); exact P2|]. eapply push_keeps in P1; [destruct P1 as (P1 & _); exact P1|].
    rewrite S1, nth_error_upd. replace (i =? j)%nat with false by (symmetry; apply Nat.eqb_neq; congruence). exact Hj.
  - assert (W1 : nth_error (shape m2) k1 = Some (u1', true)).
    { destruct X1 as [(L & S & _)|(_ & _ & t0 & N & S)]; rewrite S; [rewrite L, nth_error_app2, Nat.sub_diag by lia; reflexivity|rewrite nth_error_upd, Nat.eqb_refl, N; reflexivity]. }
    assert (W2 : nth_error (shape m3) k2 = Some (u2', true)).
    { destruct X2 as [(L & S & _)|(_ & _ & t0 & N & S)]; rewrite S; [rewrite L, nth_error_app2, Nat.sub_diag by lia; reflexivity|rewrite nth_error_upd, Nat.eqb_refl, N; reflexivity]. }
    exists u1', u2'. split; [|split; [exact W2|auto 10]]. eapply push_keeps in P2; [destruct P2 as (P2 & _); exact P2|exact W1].
Qed.

Definition facing (p q : Triangle3D) (e e' : Edge) : Prop := segment q e' = flipped (segment p e).

Lemma corners_facing p q e e' a b c a' b' c' : facing p q e e' -> corners p e = (a, b, c) -> corners q e' = (a', b', c') -> a' = b /\ b' = a.
Proof.
  intros F C1 C2. apply vec_corners in C1 as (_ & S1 & _). apply vec_corners in C2 as (_ & S2 & _). unfold facing in F. rewrite S1, S2 in F. injection F as -> ->. auto.
Qed.

Lemma split_edge_total i e x m m' p : nth_error (pieces m) i = Some p -> valid p = true -> apart (tri p) ->
  split_edge i e x m = (Ok tt, m') ->
  (neighbour p e = None -> vadd (total (shape m')) (vcross (vsub (s_end (segment (tri p) e)) (s_start (segment (tri p) e))) (vsub x (s_start (segment (tri p) e)))) = total (shape m) /\
     count (shape m') = S (count (shape m))) /\
  (forall j q e', neighbour p e = Some j -> j <> i -> nth_error (pieces m) j = Some q -> valid q = true -> apart (tri q) -> facing (tri p) (tri q) e e' ->
     total (shape m') = total (shape m) /\ count (shape m') = (count (shape m) + 2)%nat).
Proof.
  intros Hp V A H. unfold split_edge in H. sok H p' m1 E. unfold get in E. rewrite Hp in E. injection E as <- <-.
  rewrite V in H. cbn [negb] in H. cbv zeta in H.
  destruct (corners (tri p) e) as [[a b] c] eqn:Co. pose proof (vec_corners _ _ _ _ _ Co) as (_ & Se & _).
  sok H r m1 P1. destruct r as [tl tr].
  pose proof (hemisphere_total _ _ _ _ _ _ _ _ _ _ _ Hp V A Co (or_introl eq_refl) P1) as (T1 & C1 & K1 & _ & _).
  split.
  - intros N. rewrite N in H. injection H as <-. rewrite Se. cbn [s_start s_end]. auto.
  - intros j q e' N J Hq Vq Aq F. rewrite N in H.
    sok H r m2 P2. destruct r as [br bl].
    sok H u m3 Q1. kok Q1 S3 N3; [|apply keeps_mark]. kok H S4 N4; [|apply keeps_mark].
    destruct (corners (tri q) e') as [[a' b'] c'] eqn:Co'. pose proof (corners_facing _ _ _ _ _ _ _ _ _ _ F Co Co') as (-> & ->).
    pose proof (shape_piece _ _ _ Hq) as Sq. rewrite Vq in Sq. apply (K1 _ _ J) in Sq. apply piece_shape in Sq as (q' & Hq' & Tq & Vq').
    rewrite <- Tq in Aq, Co', F.
    assert (F' : segment (tri p) e = flipped (segment (tri q') e')) by (rewrite F; unfold flipped; destruct (segment (tri p) e); reflexivity).
    pose proof (hemisphere_total _ _ _ _ _ _ _ _ _ _ _ Hq' Vq' Aq Co' (or_intror F') P2) as (T2 & C2 & _).
    rewrite S4, S3. split; [|lia].
    rewrite <- T1, <- T2. generalize (total (shape m2)). intros z. destruct z, a, b, x. vext.
Qed.

Lemma flip_total i e m m' p j q e' : nth_error (pieces m) i = Some p -> valid p = true -> apart (tri p) ->
  neighbour p e = Some j -> j <> i -> nth_error (pieces m) j = Some q -> valid q = true -> apart (tri q) -> facing (tri p) (tri q) e e' ->
  flip_diagonal i e m = (Ok tt, m') ->
  total (shape m') = total (shape m) /\ count (shape m') = count (shape m) /\ length (shape m') = length (shape m) /\
  (forall k, k <> i -> k <> j -> nth_error (shape m') k = nth_error (shape m) k) /\
  exists a b c o t1 t2, corners (tri p) e = (a, b, c) /\ opposite (tri q) e' = o /\
    nth_error (shape m') i = Some (t1, true) /\ nth_error (shape m') j = Some (t2, true) /\
    triangle_new a o c = Ok t1 /\ triangle_new c o b = Ok t2.
Proof.
  intros Hp V A N J Hq Vq Aq F H. unfold flip_diagonal in H.
  sok H p' m1 E. unfold get in E. rewrite Hp in E. injection E as <- <-. rewrite V, N in H. cbn [negb] in H.
  sok H q' m1 E. unfold get in E. rewrite Hq in E. injection E as <- <-. rewrite Vq in H. cbn [negb] in H.
  destruct (corners (tri p) e) as [[a b] c] eqn:Co. pose proof (vec_corners _ _ _ _ _ Co) as (Ve & Se & Op).
  destruct (corners (tri q) e') as [[a' b'] o] eqn:Co'. pose proof (corners_facing _ _ _ _ _ _ _ _ _ _ F Co Co') as (-> & ->).
  pose proof (vec_corners _ _ _ _ _ Co') as (Ve' & Se' & Op').
  assert (Ex : mkS a b = flipped (segment (tri q) e')) by (rewrite Se'; reflexivity).
  rewrite (opposite_exact _ _ _ Aq (or_intror Ex)), Op' in H.
  sok H o1 m1 E. injection E as <- <-.
  sok H e1 m1 E. kok E S1 N1; [|apply keeps_edge]. sok H e2 m2 E. kok E S2 N2; [|apply keeps_edge].
  sok H e3 m3 E. kok E S3 N3; [|apply keeps_edge]. sok H e4 m4 E. kok E S4 N4; [|apply keeps_edge].
  assert (Sm : shape m4 = shape m) by congruence.
  sok H u m5 Inv. destruct u. apply invalidate_shape in Inv as (t & v & T & S5 & Nv5).
  rewrite Sm, (shape_piece _ _ _ Hp), V in T. injection T as <- <-.
  sok H u m6 Inv. destruct u. apply invalidate_shape in Inv as (t & v & T & S6 & Nv6).
  rewrite S5, nth_error_upd, Sm, (shape_piece _ _ _ Hq), Vq in T. replace (i =? j)%nat with false in T by (symmetry; apply Nat.eqb_neq; congruence). injection T as <- <-.
  assert (Eij : (i =? j)%nat = false) by (apply Nat.eqb_neq; congruence). assert (Eji : (j =? i)%nat = false) by (apply Nat.eqb_neq; congruence).
  sok H k1 m7 P1. sok H k2 m8 P2.
  assert (S6i : nth_error (shape m6) i = Some (tri p, false)).
  { rewrite S6, nth_error_upd, Eji, S5, nth_error_upd, Nat.eqb_refl, Sm, (shape_piece _ _ _ Hp). reflexivity. }
  assert (S6j : nth_error (shape m6) j = Some (tri q, false)).
  { rewrite S6, nth_error_upd, Nat.eqb_refl, S5, nth_error_upd, Eij, Sm, (shape_piece _ _ _ Hq). reflexivity. }
  pose proof (push_here _ _ _ _ _ _ _ S6i _ P1) as ->.
  pose proof (push_shape _ _ _ _ _ _ _ P1) as (u1' & A1 & B1 & D1 & V1 & Tn1 & M1 & X1).
  assert (X1' : shape m7 = upd (shape m6) i (u1', true)).
  { destruct X1 as [(L & S & _)|(_ & _ & t0 & _ & S)]; [|exact S]. assert (i < length (shape m6))%nat by (apply nth_error_Some; congruence). lia. }
  assert (S7j : nth_error (shape m7) j = Some (tri q, false)) by (rewrite X1', nth_error_upd, Eij; exact S6j).
  pose proof (push_here _ _ _ _ _ _ _ S7j _ P2) as ->.
  pose proof (push_shape _ _ _ _ _ _ _ P2) as (u2' & A2 & B2 & D2 & V2 & Tn2 & M2 & X2).
  assert (X2' : shape m8 = upd (shape m7) j (u2', true)).
  { destruct X2 as [(L & S & _)|(_ & _ & t0 & _ & S)]; [|exact S]. assert (j < length (shape m7))%nat by (apply nth_error_Some; congruence). lia. }
  pose proof (push_total _ _ _ _ _ _ _ P1) as (T1 & C1). pose proof (push_total _ _ _ _ _ _ _ P2) as (T2 & C2).
  sok H w1 n1 Gk1. kok Gk1 Z1 Y1; [|apply keeps_mark_opt]. sok H w2 n2 Gk2. kok Gk2 Z2 Y2; [|apply keeps_constrain].
  sok H w3 n3 Gk3. kok Gk3 Z3 Y3; [|apply keeps_mark]. sok H w4 n4 Gk4. kok Gk4 Z4 Y4; [|apply keeps_mark_opt].
  sok H w5 n5 Gk5. kok Gk5 Z5 Y5; [|apply keeps_constrain]. sok H w6 n6 Gk6. kok Gk6 Z6 Y6; [|apply keeps_mark_opt].
  sok H w7 n7 Gk7. kok Gk7 Z7 Y7; [|apply keeps_constrain]. sok H w8 n8 Gk8. kok Gk8 Z8 Y8; [|apply keeps_mark_opt].
  kok H Z9 Y9; [|apply keeps_constrain].
  assert (Sh : shape m' = shape m8) by congruence. rewrite Sh.
  pose proof (total_invalid (shape m4) i (tri p)) as TI. pose proof (count_invalid (shape m4) i (tri p)) as CI.
  rewrite Sm, (shape_piece _ _ _ Hp), V in TI, CI. specialize (TI eq_refl). specialize (CI eq_refl). rewrite <- Sm, <- S5 in TI, CI.
  pose proof (total_invalid (shape m5) j (tri q)) as TJ. pose proof (count_invalid (shape m5) j (tri q)) as CJ.
  assert (S5j : nth_error (shape m5) j = Some (tri q, true)) by (rewrite S5, nth_error_upd, Eij, Sm, (shape_piece _ _ _ Hq), Vq; reflexivity).
  specialize (TJ S5j). specialize (CJ S5j). rewrite <- S6 in TJ, CJ. rewrite Sm in TI, CI.
  split; [|split; [lia|split; [|split]]].
  - rewrite T2, T1, TI, TJ, Ve, Ve'. generalize (total (shape m6)). intros z. destruct z, a, b, c, o. vext.
  - rewrite X2', X1', S6, S5, Sm, !upd_length. reflexivity.
  - intros k Ki Kj. rewrite X2', X1', S6, S5, Sm. repeat rewrite nth_error_upd.
    replace (j =? k)%nat with false by (symmetry; apply Nat.eqb_neq; congruence). replace (i =? k)%nat with false by (symmetry; apply Nat.eqb_neq; congruence). reflexivity.
  - exists a, b, c, o, u1', u2'. split; [reflexivity|]. split; [exact Op'|]. split; [|split].
    + rewrite X2', nth_error_upd, Eji, X1', nth_error_upd, Nat.eqb_refl, S6i. reflexivity.
    + rewrite X2', nth_error_upd, Nat.eqb_refl, S7j. reflexivity.
    + auto.
Qed.

Lemma split_triangle_total i x m m' p : nth_error (pieces m) i = Some p -> split_triangle i x m = (Ok tt, m') ->
  total (shape m') = total (shape m) /\ count (shape m') = (count (shape m) + 2)%nat.
Proof.
  intros Hp H. unfold split_triangle in H.
  sok H p' m1 E. unfold get in E. rewrite Hp in E. injection E as <- <-. destruct (valid p) eqn:V; cbn [negb] in H; [|discriminate]. cbv zeta in H.
  sok H e2 m2 E. kok E S2 N2; [|apply keeps_edge].
  sok H e3 m3 E. kok E S3 N3; [|apply keeps_edge]. sok H e4 m4 E. kok E S4 N4; [|apply keeps_edge].
  assert (Sm : shape m4 = shape m) by congruence.
  sok H u m5 Inv. destruct u. apply invalidate_shape in Inv as (t & v & T & S5 & Nv5).
  rewrite Sm, (shape_piece _ _ _ Hp), V in T. injection T as <- <-.
  sok H k1 m6 P1. sok H k2 m7 P2. sok H k3 m8 P3.
  pose proof (push_total _ _ _ _ _ _ _ P1) as (T1 & C1). pose proof (push_total _ _ _ _ _ _ _ P2) as (T2 & C2). pose proof (push_total _ _ _ _ _ _ _ P3) as (T3 & C3).
  sok H w1 n1 Gk1. kok Gk1 Z1 Y1; [|apply keeps_mark]. sok H w2 n2 Gk2. kok Gk2 Z2 Y2; [|apply keeps_mark].
  sok H w3 n3 Gk3. kok Gk3 Z3 Y3; [|apply keeps_mark]. sok H w4 n4 Gk4. kok Gk4 Z4 Y4; [|apply keeps_constrain].
  sok H w5 n5 Gk5. kok Gk5 Z5 Y5; [|apply keeps_mark_opt]. sok H w6 n6 Gk6. kok Gk6 Z6 Y6; [|apply keeps_constrain].
  sok H w7 n7 Gk7. kok Gk7 Z7 Y7; [|apply keeps_mark_opt]. sok H w8 n8 Gk8. kok Gk8 Z8 Y8; [|apply keeps_constrain].
  kok H Z9 Y9; [|apply keeps_mark_opt].
  assert (Sh : shape m' = shape m8) by congruence. rewrite Sh.
  pose proof (total_invalid (shape m4) i (tri p)) as TI. pose proof (count_invalid (shape m4) i (tri p)) as CI.
  rewrite Sm, (shape_piece _ _ _ Hp), V in TI, CI. specialize (TI eq_refl). specialize (CI eq_refl). rewrite <- Sm, <- S5 in TI, CI. rewrite Sm in TI, CI.
  split; [|lia]. rewrite T3, T2, T1, TI. generalize (total (shape m5)). intros z. unfold vec_of. destruct z, x, (t_a (tri p)), (t_b (tri p)), (t_c (tri p)). vext.
Qed.

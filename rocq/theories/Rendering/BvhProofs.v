(** Facts about the acceleration structure: what is built, how it is laid out, and what a traversal visits. *)
From Coq Require Import Reals ZArith List Bool Lia Lra Permutation Sorted Arith Psatz.
From Verif.Common Require Import Base Flt.
From Verif.Geometry Require Import Vec BBoxModel TransformModel GeomProofs TriangleModel TriangleProofs.
From Verif.Rendering Require Import BvhModel.
From Verif.Properties Require Import GeometryProps TriangleProps.
Import ListNotations.
Open Scope R_scope.

(** ** Boxes *)
Definition box_in (a b : BBox R) : Prop := forall p, inside a p -> inside b p.

Lemma box_in_refl b : box_in b b.
Proof. intros p; auto. Qed.
Lemma box_in_trans a b c : box_in a b -> box_in b c -> box_in a c.
Proof. intros H K p P. auto. Qed.

Ltac minmax :=
  repeat match goal with |- context [Rmin ?a ?b] => pose proof (Rmin_l a b); pose proof (Rmin_r a b); generalize dependent (Rmin a b); intros end;
  repeat match goal with |- context [Rmax ?a ?b] => pose proof (Rmax_l a b); pose proof (Rmax_r a b); generalize dependent (Rmax a b); intros end.

Lemma union_l a b : box_in a (from_union RF a b).
Proof.
  intros p. unfold inside, from_union, get_mins_maxs. cbn [fst snd bmin bmax vx vy vz]. rewrite !order_minmax. cbn [fst snd].
  intros. minmax. lra.
Qed.
Lemma union_r a b : box_in b (from_union RF a b).
Proof.
  intros p. unfold inside, from_union, get_mins_maxs. cbn [fst snd bmin bmax vx vy vz]. rewrite !order_minmax. cbn [fst snd].
  intros. minmax. lra.
Qed.
Lemma union_proper a b : proper a -> proper (from_union RF a b).
Proof.
  unfold proper, from_union, get_mins_maxs. cbn [fst snd bmin bmax vx vy vz]. rewrite !order_minmax. cbn [fst snd].
  intros. minmax. lra.
Qed.

Lemma bounds_of_spec i0 rest : proper (ibounds i0) ->
  proper (bounds_of i0 rest) /\ forall i, In i (i0 :: rest) -> box_in (ibounds i) (bounds_of i0 rest).
Proof.
  intros P. unfold bounds_of.
  assert (G : forall rest b, proper b -> proper (fold_left (fun b i => from_union RF b (ibounds i)) rest b) /\
    box_in b (fold_left (fun b i => from_union RF b (ibounds i)) rest b) /\
    forall i, In i rest -> box_in (ibounds i) (fold_left (fun b i => from_union RF b (ibounds i)) rest b)).
  { clear. induction rest as [|x rest IH]; intros b Hb; cbn [fold_left].
    - split; [exact Hb|]. split; [apply box_in_refl|]. intros i [].
    - destruct (IH (from_union RF b (ibounds x)) (union_proper _ _ Hb)) as (A & B & C). split; [exact A|]. split.
      + eapply box_in_trans; [apply union_l|exact B].
      + intros i [<-|Hi]; [|now apply C]. eapply box_in_trans; [apply union_r|exact B]. }
  destruct (G rest _ P) as (A & B & C). split; [exact A|]. intros i [<-|Hi]; auto.
Qed.

(** ** The box of the centroids *)
Lemma coord_le b p a : inside b p -> coord a (bmin b) <= coord a p <= coord a (bmax b).
Proof. intros (A & B & C). destruct a; cbn [coord]; assumption. Qed.

Lemma union_point_min a b p : coord a (bmin (from_union_point RF b p)) = Rmin (coord a (bmin b)) (coord a p).
Proof. destruct a; unfold from_union_point, get_mins_maxs; cbn [coord fst snd bmin bmax vx vy vz]; rewrite !order_minmax; reflexivity. Qed.
Lemma union_point_max a b p : coord a (bmax (from_union_point RF b p)) = Rmax (coord a (bmax b)) (coord a p).
Proof. destruct a; unfold from_union_point, get_mins_maxs; cbn [coord fst snd bmin bmax vx vy vz]; rewrite !order_minmax; reflexivity. Qed.

Lemma centroids_bbox_spec i0 rest a : let cb := centroids_bbox i0 rest in let l := i0 :: rest in
  (forall i, In i l -> coord a (bmin cb) <= coord a (centroid i) <= coord a (bmax cb)) /\
  (exists i, In i l /\ coord a (centroid i) = coord a (bmin cb)) /\
  (exists i, In i l /\ coord a (centroid i) = coord a (bmax cb)).
Proof.
  cbv zeta. unfold centroids_bbox.
  assert (G : forall rest b, let r := fold_left (fun b i => from_union_point RF b (centroid i)) rest b in
    (coord a (bmin r) <= coord a (bmin b) /\ coord a (bmax b) <= coord a (bmax r)) /\
    (forall i, In i rest -> coord a (bmin r) <= coord a (centroid i) <= coord a (bmax r)) /\
    (coord a (bmin r) = coord a (bmin b) \/ exists i, In i rest /\ coord a (centroid i) = coord a (bmin r)) /\
    (coord a (bmax r) = coord a (bmax b) \/ exists i, In i rest /\ coord a (centroid i) = coord a (bmax r))).
  { clear. induction rest as [|x rest IH]; intros b r; subst r; cbn [fold_left].
    - split; [lra|]. split; [intros i []|]. split; now left.
    - destruct (IH (from_union_point RF b (centroid x))) as ((A1 & A2) & B & C & D).
      set (r := fold_left _ rest _) in *. clearbody r. rewrite union_point_min in *. rewrite union_point_max in *.
      pose proof (Rmin_l (coord a (bmin b)) (coord a (centroid x))). pose proof (Rmin_r (coord a (bmin b)) (coord a (centroid x))).
      pose proof (Rmax_l (coord a (bmax b)) (coord a (centroid x))). pose proof (Rmax_r (coord a (bmax b)) (coord a (centroid x))).
      split; [lra|]. split; [|split].
      + intros i [<-|Hi]; [lra|]. now apply B.
      + destruct C as [C|(i & Hi & Ei)]; [|right; exists i; split; [now right|exact Ei]].
        unfold Rmin in C. destruct (Rle_dec (coord a (bmin b)) (coord a (centroid x))); [now left|]. right. exists x. split; [now left|]. lra.
      + destruct D as [D|(i & Hi & Ei)]; [|right; exists i; split; [now right|exact Ei]].
        unfold Rmax in D. destruct (Rle_dec (coord a (bmax b)) (coord a (centroid x))); [right; exists x; split; [now left|]; lra|]. now left. }
  destruct (G rest (from_point (centroid i0))) as ((A1 & A2) & B & C & D). cbn [from_point bmin bmax] in *.
  set (r := fold_left _ rest _) in *. clearbody r. split; [|split].
  - intros i [<-|Hi]; [lra|]. now apply B.
  - destruct C as [C|(i & Hi & Ei)]; [exists i0; split; [now left|lra]|exists i; split; [now right|exact Ei]].
  - destruct D as [D|(i & Hi & Ei)]; [exists i0; split; [now left|lra]|exists i; split; [now right|exact Ei]].
Qed.

(** No side is longer than the one [max_extent] names *)
Lemma max_extent_longest (b : BBox R) a : coord a (bmax b) - coord a (bmin b) <= coord (max_extent RF b) (bmax b) - coord (max_extent RF b) (bmin b).
Proof.
  unfold max_extent, vsubF. cbn [fltb fsub RF vx vy vz].
  destruct (Rltb_spec (vy (bmax b) - vy (bmin b)) (vx (bmax b) - vx (bmin b))) as [H1|H1];
  destruct (Rltb_spec (vz (bmax b) - vz (bmin b)) (vx (bmax b) - vx (bmin b))) as [H2|H2]; cbn [andb];
  destruct (Rltb_spec (vz (bmax b) - vz (bmin b)) (vy (bmax b) - vy (bmin b))) as [H3|H3];
  destruct a; cbn [coord]; lra.
Qed.

(** ** Buckets *)
Lemma bucket_lt c len a m : (get_bucket_index c len a 12 m < 12)%nat.
Proof. unfold get_bucket_index. destruct (Nat.leb_spec 12 (Z.to_nat (Int_part ((coord a c - coord a m) * INR 12 / len)))); lia. Qed.
Lemma bucket_first c len a m : coord a c = coord a m -> get_bucket_index c len a 12 m = 0%nat.
Proof.
  intros E. unfold get_bucket_index. rewrite E.
  replace ((coord a m - coord a m) * INR 12 / len) with (INR 0) by (cbn [INR]; unfold Rdiv; ring).
  rewrite Int_part_INR. reflexivity.
Qed.
Lemma bucket_last c len a m : len <> 0 -> coord a c - coord a m = len -> get_bucket_index c len a 12 m = 11%nat.
Proof.
  intros N E. unfold get_bucket_index. rewrite E.
  replace (len * INR 12 / len) with (INR 12) by (field; exact N).
  rewrite Int_part_INR. reflexivity.
Qed.

Definition filled (k : nat) (bs : list BucketInfo) : Prop := exists b, bbounds (nth k bs (mkBucket 0 None)) = Some b.
Lemma register_filled bs j c k : filled k bs -> filled k (upd bs j (register c (nth j bs (mkBucket 0 None)))).
Proof.
  intros (b & Hb). unfold filled. destruct (Nat.eq_dec j k) as [<-|N].
  - destruct (Nat.lt_ge_cases j (length bs)) as [L|L].
    + rewrite nth_upd_same by assumption. unfold register. cbn [bbounds]. rewrite Hb. eauto.
    + rewrite nth_overflow in Hb by assumption. discriminate.
  - rewrite nth_upd_other by assumption. eauto.
Qed.
Lemma fill_buckets_filled idx infos k : (forall c, (idx c < 12)%nat) ->
  (exists i, In i infos /\ idx (centroid i) = k) -> filled k (fill_buckets idx infos).
Proof.
  intros Hidx. unfold fill_buckets.
  assert (G : forall infos bs, length bs = 12%nat -> (filled k bs \/ exists i, In i infos /\ idx (centroid i) = k) ->
    filled k (fold_left (fun bs i => upd bs (idx (centroid i)) (register (centroid i) (nth (idx (centroid i)) bs (mkBucket 0 None)))) infos bs)).
  { clear infos. induction infos as [|x infos IH]; intros bs L H; cbn [fold_left].
    - destruct H as [H|(i & [] & _)]. exact H.
    - apply IH; [now rewrite upd_length|]. destruct H as [H|(i & [<-|Hi] & Ei)].
      + left. now apply register_filled.
      + left. unfold filled. rewrite Ei, nth_upd_same by (rewrite L, <- Ei; apply Hidx). unfold register. cbn [bbounds].
        destruct (bbounds _); eauto.
      + right. eauto. }
  intros H. apply G; [reflexivity|now right].
Qed.

Lemma split_cost_ok bs bounds i : filled 0 bs -> filled 11 bs -> exists c, split_cost bs bounds i = Ok c.
Proof.
  intros (b0 & H0) (b1 & H1). unfold split_cost. rewrite H0, H1.
  destruct (fold_left absorb _ _) as [be cb]. destruct (fold_left absorb _ _) as [af ca]. destruct (Rltb 0 _); eauto.
Qed.
Lemma cheapest_ok bs bounds k : filled 0 bs -> filled 11 bs -> forall i mc mb, (mb < i + k)%nat \/ (k = 0)%nat ->
  exists c j, cheapest bs bounds k i mc mb = Ok (c, j) /\ (j = mb \/ (j < i + k)%nat).
Proof.
  intros F0 F1. induction k as [|k IH]; intros i mc mb H; cbn [cheapest]; [eauto|].
  destruct (split_cost_ok bs bounds i F0 F1) as (c & ->). cbn [bind].
  assert (G : forall mc mb', (mb' = mb \/ mb' = i) -> exists c j, cheapest bs bounds k (S i) mc mb' = Ok (c, j) /\ (j = mb \/ (j < i + S k)%nat)).
  { intros mc' mb' Hm. destruct k as [|k'].
    - cbn [cheapest]. exists mc', mb'. split; [reflexivity|]. lia.
    - destruct (IH (S i) mc' mb') as (c' & j & E & J); [left; lia|]. exists c', j. split; [exact E|]. lia. }
  destruct c as [c|]; [|apply G; now left]. destruct (Rltb c mc); apply G; auto.
Qed.

(** ** The split *)
Lemma find_mid_bounds idx m : forall l i mid, 
  (forall k, mid = Some k -> (k <= i)%nat) ->
  (exists x, In x l /\ (m < idx (centroid x))%nat) ->
  forall k, find_mid idx m l i mid = Some k -> (k < i + length l)%nat.
Proof.
  induction l as [|x l IH]; intros i mid Hm (y & Hy & Ly) k; [destruct Hy|]. cbn [find_mid length].
  destruct (Nat.leb_spec (idx (centroid x)) m) as [Lx|Lx].
  - intros E. destruct Hy as [<-|Hy]; [lia|].
    assert (k < S i + length l)%nat; [|lia]. eapply IH; [|exists y; eauto|exact E]. intros k' H'. injection H' as <-. lia.
  - intros E. apply Hm in E. lia.
Qed.
Lemma find_mid_some idx m x l : (idx (centroid x) <= m)%nat -> exists k, find_mid idx m (x :: l) 0 None = Some k /\ (1 <= k)%nat.
Proof.
  intros L. cbn [find_mid]. destruct (Nat.leb_spec (idx (centroid x)) m); [|lia].
  assert (G : forall l i k0, (1 <= k0)%nat -> exists k, find_mid idx m l i (Some k0) = Some k /\ (1 <= k)%nat).
  { clear. induction l as [|x l IH]; intros i k0 H; cbn [find_mid]; [eauto|]. destruct (idx (centroid x) <=? m)%nat; [|eauto]. apply IH. lia. }
  apply G. lia.
Qed.

(** ** What is built *)

(** The centroids of two primitives are within 1e-8 along every axis *)
Definition close_centroids (i j : ObjectInfo) : Prop := forall a, Rabs (coord a (centroid i) - coord a (centroid j)) < 1 / 10 ^ 8.

(** [shape n l off]: the subtree [n] holds, from position [off] on and in this order, the primitives [l] *)
Inductive shape : Node -> list ObjectInfo -> nat -> Prop :=
| shape_leaf b l off : l <> [] -> proper b -> (forall i, In i l -> box_in (ibounds i) b) ->
    ((length l <= 24)%nat \/ forall i j, In i l -> In j l -> close_centroids i j) ->
    shape (Leaf b (length l) off) l off
| shape_interior a c1 c2 l1 l2 off : shape c1 l1 off -> shape c2 l2 (off + length l1) ->
    shape (new_interior a c1 c2) (l1 ++ l2) off.

Definition indexed (scene : Scene) (i : ObjectInfo) : Prop :=
  (index i < length (triangles scene))%nat /\ (index i < length (normals scene))%nat /\
  (index i < length (front_material_indexes scene))%nat /\ (index i < length (back_material_indexes scene))%nat /\
  exists t, nth_error (triangles scene) (index i) = Some t /\ ibounds i = world_bounds t.

(** The vectors after emitting [l] *)
Definition pick {A} (l : list A) (d : A) (infos : list ObjectInfo) : list A := map (fun i => nth (index i) l d) infos.
Definition t0 : Tri := let o := mkV 0 0 0 in mkTri o o o.
Definition n0 : pt * pt * pt := let o := mkV 0 0 0 in (o, o, o).
Definition emitted (scene : Scene) (l : list ObjectInfo) (o : Ordered) : Ordered :=
  mkOrdered (o_triangles o ++ pick (triangles scene) t0 l) (o_mapping o ++ map index l)
    (o_front o ++ pick (front_material_indexes scene) 0%nat l) (o_back o ++ pick (back_material_indexes scene) 0%nat l)
    (o_normals o ++ pick (normals scene) n0 l).

Lemma emit_ok scene l : (forall i, In i l -> indexed scene i) -> forall o, emit scene l o = Ok (emitted scene l o).
Proof.
  induction l as [|x l IH]; intros H o; cbn [emit].
  - unfold emitted, pick. cbn [map]. rewrite !app_nil_r. destruct o; reflexivity.
  - destruct (H x (or_introl eq_refl)) as (A & B & C & D & _).
    rewrite (nth_error_nth_lt _ _ t0 A), (nth_error_nth_lt _ _ n0 B), (nth_error_nth_lt _ _ 0%nat C), (nth_error_nth_lt _ _ 0%nat D).
    rewrite IH by (intros i Hi; apply H; now right). unfold emitted, pick. cbn [o_triangles o_mapping o_front o_back o_normals map].
    rewrite <- !app_assoc. reflexivity.
Qed.
Lemma emitted_app scene l1 l2 o : emitted scene l2 (emitted scene l1 o) = emitted scene (l1 ++ l2) o.
Proof. unfold emitted, pick. cbn [o_triangles o_mapping o_front o_back o_normals]. rewrite !map_app, <- !app_assoc. reflexivity. Qed.

Lemma indexed_proper scene i : indexed scene i -> proper (ibounds i).
Proof. intros (_ & _ & _ & _ & t & _ & ->). apply world_bounds_corners. Qed.

Lemma build_spec s scene (R : reorders s) : forall fuel infos o, infos <> [] -> (length infos <= fuel)%nat ->
  (forall i, In i infos -> indexed scene i) ->
  exists root l, recursive_build s fuel scene infos o = Ok (root, emitted scene l o) /\ Permutation infos l /\ shape root l (length (o_triangles o)).
Proof.
  destruct R as [Rs Rn].
  induction fuel as [|fuel IH]; intros infos o Hne Hlen Hidx; [destruct infos; [congruence|cbn in Hlen; lia]|].
  destruct infos as [|i0 rest]; [congruence|]. cbn [recursive_build].
  set (infos := i0 :: rest) in *. set (n := length infos) in *.
  set (leaf := do o' <- emit scene infos o; Ok (Leaf (bounds_of i0 rest) n (length (o_triangles o)), o')).
  assert (Hleaf : ((n <= 24)%nat \/ forall i j, In i infos -> In j infos -> close_centroids i j) ->
    exists root l, leaf = Ok (root, emitted scene l o) /\ Permutation infos l /\ shape root l (length (o_triangles o))).
  { intros Hc. exists (Leaf (bounds_of i0 rest) n (length (o_triangles o))), infos.
    split; [unfold leaf; rewrite emit_ok by assumption; reflexivity|]. split; [reflexivity|].
    destruct (bounds_of_spec i0 rest (indexed_proper scene i0 (Hidx i0 (or_introl eq_refl)))) as [P I].
    now apply shape_leaf. }
  set (split := fun axis mid l => do (c1, o1) <- recursive_build s fuel scene (firstn mid l) o; do (c2, o2) <- recursive_build s fuel scene (skipn mid l) o1; Ok (new_interior axis c1 c2, o2)).
  assert (Hsplit : forall a mid l, Permutation infos l -> (1 <= mid)%nat -> (mid < n)%nat ->
    exists root l', split a mid l = Ok (root, emitted scene l' o) /\ Permutation infos l' /\ shape root l' (length (o_triangles o))).
  { intros a mid l P M1 M2. assert (L : length l = n) by (symmetry; apply Permutation_length, P).
    assert (L1 : length (firstn mid l) = mid) by (rewrite firstn_length; lia).
    assert (L2 : length (skipn mid l) = (n - mid)%nat) by (rewrite skipn_length; lia).
    assert (Hl : forall i, In i l -> indexed scene i) by (intros i Hi; apply Hidx; eapply Permutation_in; [symmetry; exact P|exact Hi]).
    destruct (IH (firstn mid l) o) as (c1 & l1 & E1 & P1 & S1).
    { intros Z. rewrite Z in L1. cbn [length] in L1. lia. } { lia. }
    { intros i Hi. apply Hl. rewrite <- (firstn_skipn mid l). apply in_or_app. now left. }
    destruct (IH (skipn mid l) (emitted scene l1 o)) as (c2 & l2 & E2 & P2 & S2).
    { intros Z. rewrite Z in L2. cbn [length] in L2. lia. } { lia. }
    { intros i Hi. apply Hl. rewrite <- (firstn_skipn mid l). apply in_or_app. now right. }
    exists (new_interior a c1 c2), (l1 ++ l2). split; [|split].
    - unfold split. rewrite E1. cbn [bind]. rewrite E2. cbn [bind]. now rewrite emitted_app.
    - rewrite P, <- (firstn_skipn mid l). now apply Permutation_app.
    - apply shape_interior; [exact S1|]. unfold emitted in S2. cbn [o_triangles] in S2. rewrite app_length in S2. unfold pick in S2. rewrite map_length in S2. exact S2. }
  clearbody leaf. clear IH.
  destruct (Nat.eqb_spec n 1) as [N1|N1]; [apply Hleaf; left; lia|].
  set (cb := centroids_bbox i0 rest). set (ax := max_extent RF cb). set (len := coord ax (bmax cb) - coord ax (bmin cb)).
  destruct (Rltb_spec len (1 / 10 ^ 8)) as [Hl|Hl].
  { apply Hleaf. right. intros i j Hi Hj a. destruct (centroids_bbox_spec i0 rest a) as (Hin & _ & _). fold cb infos in Hin.
    pose proof (Hin i Hi). pose proof (Hin j Hj). pose proof (max_extent_longest cb a). fold ax in H1. fold len in H1.
    apply Rabs_def1; lra. }
  assert (Hlen0 : 0 < 1 / 10 ^ 8) by (apply Rdiv_lt_0_compat; lra).
  destruct (Nat.leb_spec n 4) as [N4|N4].
  { assert (n <> 0)%nat by (unfold n, infos; cbn; lia).
    apply (Hsplit ax (n / 2)%nat (select_nth s (fun i => coord ax (centroid i)) (n / 2) infos)); [apply Rn|apply Nat.div_le_lower_bound; lia|apply Nat.div_lt; lia]. }
  set (idx := fun c => get_bucket_index c len ax 12 (bmin cb)).
  destruct (centroids_bbox_spec i0 rest ax) as (Hin & (imin & Imin & Emin) & (imax & Imax & Emax)). fold cb infos in Hin, Imin, Emin, Imax, Emax.
  assert (Hidx12 : forall c, (idx c < 12)%nat) by (intros c; unfold idx; apply bucket_lt).
  assert (Bmin : forall i, coord ax (centroid i) = coord ax (bmin cb) -> idx (centroid i) = 0%nat) by (intros i E; unfold idx; now apply bucket_first).
  assert (Bmax : idx (centroid imax) = 11%nat) by (unfold idx; apply bucket_last; [apply Rgt_not_eq; lra|unfold len; lra]).
  destruct (cheapest_ok (fill_buckets idx infos) (bounds_of i0 rest) 11) with (i := 0%nat) (mc := fmax) (mb := 0%nat) as (c & mcb & Ec & Lc).
  { apply fill_buckets_filled; [exact Hidx12|]. exists imin. auto. }
  { apply fill_buckets_filled; [exact Hidx12|]. exists imax. auto. }
  { left. lia. }
  rewrite Ec. cbn [bind].
  destruct ((24 <? n)%nat || Rltb c (INR n))%bool eqn:Ecost.
  2:{ apply Hleaf. left. apply orb_false_iff in Ecost. destruct Ecost as [Ecost _]. apply Nat.ltb_ge in Ecost. exact Ecost. }
  set (key := fun i => coord ax (centroid i)). destruct (Rs key infos) as [Ps Ss].
  destruct (sort s key infos) as [|x l] eqn:El; [apply Permutation_sym, Permutation_nil in Ps; discriminate|].
  assert (Kx : key x = coord ax (bmin cb)).
  { assert (X : In x infos) by (eapply Permutation_in; [symmetry; exact Ps|now left]).
    pose proof (Hin x X) as [X1 _]. apply Rle_antisym; [|exact X1]. rewrite <- Emin.
    assert (Y : In imin (x :: l)) by (eapply Permutation_in; [exact Ps|exact Imin]).
    destruct Y as [->|Y]; [apply Rle_refl|]. apply StronglySorted_inv in Ss. destruct Ss as [_ Ss]. rewrite Forall_forall in Ss. now apply Ss. }
  destruct (find_mid_some idx mcb x l) as (mid & Em & M1); [rewrite Bmin by exact Kx; lia|].
  rewrite Em. apply (Hsplit ax mid (x :: l)); [exact Ps|exact M1|].
  assert (M2 : (mid < 0 + length (x :: l))%nat).
  { eapply find_mid_bounds; [|exists imax|exact Em]; [discriminate|]. split; [eapply Permutation_in; [exact Ps|exact Imax]|]. lia. }
  replace (length (x :: l)) with n in M2 by (apply Permutation_length, Ps). lia.
Qed.

(** ** Layout of the nodes and order of the visit *)
Fixpoint size (t : Node) : nat := match t with Leaf _ _ _ => 1 | Interior _ _ c1 c2 => S (size c1 + size c2) end.
Fixpoint height (t : Node) : nat := match t with Leaf _ _ _ => 0 | Interior _ _ c1 c2 => S (Nat.max (height c1) (height c2)) end.
Lemma flatten_length t : forall off, length (flatten_node t off) = size t.
Proof. induction t; intros off; cbn [flatten_node size length]; [reflexivity|]. now rewrite app_length, IHt1, IHt2. Qed.
Lemma size_pos t : (1 <= size t)%nat.
Proof. destruct t; cbn [size]; lia. Qed.

(** The numbers fit their machine types *)
Fixpoint fits (t : Node) : Prop :=
  match t with
  | Leaf _ n first => (1 <= n)%nat /\ (Z.of_nat n < 2 ^ 15)%Z /\ (Z.of_nat first < 2 ^ 31)%Z
  | Interior _ _ c1 c2 => fits c1 /\ fits c2
  end.

Lemma wrap_small bits z : (0 < bits)%Z -> (0 <= z < 2 ^ (bits - 1))%Z -> wrap bits z = z.
Proof.
  intros B H. unfold wrap. assert (2 ^ (bits - 1) < 2 ^ bits)%Z by (apply Z.pow_lt_mono_r; lia).
  rewrite Z.mod_small by lia. destruct (Z.ltb_spec z (2 ^ (bits - 1))); lia.
Qed.
Lemma as_usize_i32 n : (Z.of_nat n < 2 ^ 31)%Z -> as_usize (as_i32 n) = n.
Proof.
  intros H. unfold as_usize, as_i32. rewrite wrap_small by (change (32 - 1)%Z with 31%Z; lia).
  rewrite Z.mod_small by lia. apply Nat2Z.id.
Qed.

Section Visit.
Context {A : Type} (leaf : A -> nat -> nat -> A * bool) (ray : Ray).
(** The leaves met, in order: near child first, children of missed boxes skipped, until [leaf] says to stop *)
Fixpoint visit (t : Node) (a : A) : A * bool :=
  if intersect RF (gamma 3) (nbounds t) (origin ray) (inv_dir ray) then
    match t with
    | Leaf _ n first => leaf a first (first + n)%nat
    | Interior _ ax c1 c2 =>
      if Rltb (coord ax (inv_dir ray)) 0
      then let '(a', stop) := visit c2 a in if stop then (a', true) else visit c1 a'
      else let '(a', stop) := visit c1 a in if stop then (a', true) else visit c2 a'
    end
  else (a, false).

Lemma walk_visit N nodes : forall t off pre post, nodes = pre ++ flatten_node t off ++ post -> length pre = off ->
  (Z.of_nat (off + size t) < 2 ^ 31)%Z -> fits t ->
  forall st a, (height t + length st <= N)%nat ->
  exists k, (1 <= k <= size t)%nat /\ forall f, walk leaf N ray nodes (k + f) off st a =
    let '(a', stop) := visit t a in if stop then Ok a' else match st with [] => Ok a' | i :: st' => walk leaf N ray nodes f i st' a' end.
Proof.
  induction t as [b n first|b ax c1 IH1 c2 IH2]; intros off pre post Hn Hp Hs Hf st a Hh.
  - exists 1%nat. split; [cbn [size]; lia|]. intros f. cbn [Nat.add walk visit nbounds].
    rewrite Hn, nth_error_app2, Hp, Nat.sub_diag by lia. cbn [flatten_node app nth_error fbounds].
    destruct (intersect RF (gamma 3) b (origin ray) (inv_dir ray)); [|reflexivity].
    cbn [fits] in Hf. destruct Hf as (F1 & F2 & F3).
    assert (E : as_i16 n = Z.of_nat n) by (unfold as_i16; apply wrap_small; [lia|change (16 - 1)%Z with 15%Z; lia]).
    unfold is_leaf. cbn [n_prims next]. rewrite E. destruct (Z.ltb_spec 0 (Z.of_nat n)); [|lia].
    rewrite as_usize_i32 by assumption. rewrite Nat2Z.id. destruct (leaf a first (first + n)); reflexivity.
  - cbn [fits] in Hf. destruct Hf as (F1 & F2). cbn [size height] in Hs, Hh.
    cbn [flatten_node] in Hn. rewrite flatten_length in Hn.
    destruct (intersect RF (gamma 3) b (origin ray) (inv_dir ray)) eqn:Eb.
    2:{ exists 1%nat. split; [cbn [size]; lia|]. intros f. cbn [Nat.add walk visit nbounds].
        rewrite Hn at 1. rewrite nth_error_app2, Hp, Nat.sub_diag by lia. cbn [app nth_error fbounds]. rewrite Eb. reflexivity. }
    set (o2 := (off + 1 + size c1)%nat) in *.
    assert (Hfirst : nth_error nodes off = Some (mkFlat b 0 ax (as_i32 o2))).
    { rewrite Hn. rewrite nth_error_app2, Hp, Nat.sub_diag by lia. reflexivity. }
    assert (U : as_usize (as_i32 o2) = o2) by (apply as_usize_i32; unfold o2; lia).
    assert (C1 : forall st a, (height c1 + length st <= N)%nat -> exists k, (1 <= k <= size c1)%nat /\ forall f, walk leaf N ray nodes (k + f) (off + 1) st a =
      let '(a', stop) := visit c1 a in if stop then Ok a' else match st with [] => Ok a' | i :: st' => walk leaf N ray nodes f i st' a' end).
    { apply (IH1 (off + 1)%nat (pre ++ [mkFlat b 0 ax (as_i32 o2)]) (flatten_node c2 o2 ++ post)).
      - rewrite Hn, <- !app_assoc. cbn [app]. rewrite <- !app_assoc. reflexivity.
      - rewrite app_length, Hp. reflexivity.
      - lia.
      - exact F1. }
    assert (C2 : forall st a, (height c2 + length st <= N)%nat -> exists k, (1 <= k <= size c2)%nat /\ forall f, walk leaf N ray nodes (k + f) o2 st a =
      let '(a', stop) := visit c2 a in if stop then Ok a' else match st with [] => Ok a' | i :: st' => walk leaf N ray nodes f i st' a' end).
    { apply (IH2 o2 (pre ++ mkFlat b 0 ax (as_i32 o2) :: flatten_node c1 (off + 1)) post).
      - rewrite Hn, <- !app_assoc. cbn [app]. rewrite <- !app_assoc. reflexivity.
      - rewrite app_length. cbn [length]. rewrite flatten_length, Hp. unfold o2. lia.
      - unfold o2. lia.
      - exact F2. }
    clear IH1 IH2. cbn [visit nbounds size]. rewrite Eb.
    destruct (Rltb (coord ax (inv_dir ray)) 0) eqn:Ed.
    + destruct (C2 ((off + 1)%nat :: st) a) as (k2 & K2 & W2); [cbn [length]; lia|].
      destruct (visit c2 a) as [a' [|]] eqn:V2.
      * exists (S k2). split; [lia|]. intros f. cbn [Nat.add walk]. rewrite Hfirst. cbn [fbounds]. rewrite Eb. unfold is_leaf. cbn [n_prims next axis].
        change (0 <? 0)%Z with false. cbv iota. destruct (Nat.ltb_spec (length st) N); [|lia]. rewrite Ed, U, W2. reflexivity.
      * destruct (C1 st a') as (k1 & K1 & W1); [lia|].
        exists (S (k2 + k1)). split; [lia|]. intros f. cbn [Nat.add walk]. rewrite Hfirst. cbn [fbounds]. rewrite Eb. unfold is_leaf. cbn [n_prims next axis].
        change (0 <? 0)%Z with false. cbv iota. destruct (Nat.ltb_spec (length st) N); [|lia]. rewrite Ed, U, <- Nat.add_assoc, W2, W1. reflexivity.
    + destruct (C1 (o2 :: st) a) as (k1 & K1 & W1); [cbn [length]; lia|].
      destruct (visit c1 a) as [a' [|]] eqn:V1.
      * exists (S k1). split; [lia|]. intros f. cbn [Nat.add walk]. rewrite Hfirst. cbn [fbounds]. rewrite Eb. unfold is_leaf. cbn [n_prims next axis].
        change (0 <? 0)%Z with false. cbv iota. destruct (Nat.ltb_spec (length st) N); [|lia]. rewrite Ed, U, W1. reflexivity.
      * destruct (C2 st a') as (k2 & K2 & W2); [lia|].
        exists (S (k1 + k2)). split; [lia|]. intros f. cbn [Nat.add walk]. rewrite Hfirst. cbn [fbounds]. rewrite Eb. unfold is_leaf. cbn [n_prims next axis].
        change (0 <? 0)%Z with false. cbv iota. destruct (Nat.ltb_spec (length st) N); [|lia]. rewrite Ed, U, <- Nat.add_assoc, W1, W2. reflexivity.
Qed.

(** A smaller stack can only panic *)
Lemma walk_stack N N' nodes (L : (N <= N')%nat) : forall f i st a,
  walk leaf N ray nodes f i st a = Panic \/ walk leaf N ray nodes f i st a = walk leaf N' ray nodes f i st a.
Proof.
  induction f as [|f IH]; intros i st a; cbn [walk]; [now right|].
  destruct (nth_error nodes i) as [node|]; [|now left].
  destruct (intersect RF (gamma 3) (fbounds node) (origin ray) (inv_dir ray)).
  - destruct (is_leaf node).
    + destruct (leaf a _ _) as [a' [|]]; [now right|]. destruct st as [|j st]; [now right|]. apply IH.
    + destruct (Nat.ltb_spec (length st) N) as [H|H]; [|now left]. destruct (Nat.ltb_spec (length st) N'); [|lia].
      destruct (Rltb (coord (axis node) (inv_dir ray)) 0); apply IH.
  - destruct st as [|j st]; [now right|]. apply IH.
Qed.

(** Enough iterations for the whole tree *)
Lemma walk_root N t fuel a : (Z.of_nat (size t) < 2 ^ 31)%Z -> fits t -> (size t <= fuel)%nat ->
  (walk leaf N ray (flatten_node t 0) fuel 0 [] a = Panic /\ (N < height t)%nat) \/
  walk leaf N ray (flatten_node t 0) fuel 0 [] a = Ok (fst (visit t a)).
Proof.
  intros S F Hf.
  assert (G : forall N', (height t <= N')%nat -> walk leaf N' ray (flatten_node t 0) fuel 0 [] a = Ok (fst (visit t a))).
  { intros N' H. destruct (walk_visit N' (flatten_node t 0) t 0 [] []) with (st := @nil nat) (a := a) as (k & K & W); try assumption.
    - now rewrite app_nil_r. - reflexivity. - cbn [length]. lia.
    - replace fuel with (k + (fuel - k))%nat by lia. rewrite W. destruct (visit t a) as [a' [|]]; reflexivity. }
  destruct (Nat.lt_ge_cases N (height t)) as [H|H]; [|right; now apply G].
  destruct (walk_stack N (height t) (flatten_node t 0)) with (f := fuel) (i := 0%nat) (st := @nil nat) (a := a) as [E|E]; [lia| |].
  - now left.
  - right. rewrite E. now apply G.
Qed.
End Visit.

(** ** Sizes *)
Lemma shape_size t l off : shape t l off -> (size t + 1 <= 2 * length l)%nat /\ (height t + 1 <= length l)%nat.
Proof.
  induction 1 as [b l off Hl _ _|a c1 c2 l1 l2 off H1 IH1 H2 IH2].
  - cbn [size height]. destruct l; [congruence|]. cbn [length]. lia.
  - unfold new_interior. cbn [size height]. rewrite app_length. lia.
Qed.
Lemma shape_fits t l off : shape t l off -> (Z.of_nat (off + length l) <= 2 ^ 31)%Z ->
  (forall l', (exists p q, l = p ++ l' ++ q) -> (forall i j, In i l' -> In j l' -> close_centroids i j) -> (Z.of_nat (length l') < 2 ^ 15)%Z) ->
  fits t.
Proof.
  induction 1 as [b l off Hl _ _ Hc|a c1 c2 l1 l2 off H1 IH1 H2 IH2]; intros Ho Hq; cbn [fits new_interior].
  - destruct l as [|x l]; [congruence|]. split; [cbn [length]; lia|]. split; [|cbn [length] in Ho; lia].
    destruct Hc as [Hc|Hc]; [lia|]. apply Hq; [|exact Hc]. exists [], []. now rewrite app_nil_r.
  - rewrite app_length in Ho. split.
    + apply IH1; [lia|]. intros l' (p & q & ->). apply Hq. exists p, (q ++ l2). now rewrite <- !app_assoc.
    + apply IH2; [lia|]. intros l' (p & q & ->). apply Hq. exists (l1 ++ p), q. now rewrite <- !app_assoc.
Qed.

(** ** Nearest hit in a slice *)
Definition dist2 (ray : Ray) (p : pt) : R := vlen2 (vsub p (origin ray)).
Definition tsq (ray : Ray) (r : option (nat * pt)) : R := match r with None => fmax | Some (_, p) => dist2 ray p end.
(** [q] is the point at which the test reports a hit of [t] *)
Definition reported (ray : Ray) (t : Tri) (q : pt) : Prop := exists u v, baricentric_coordinates ray t = Some (q, u, v).

Lemma reported_fun ray t p q : reported ray t p -> reported ray t q -> p = q.
Proof. intros (u & v & H) (u' & v' & K). congruence. Qed.

Lemma nearest_spec ray : forall l i ret, tsq ray ret <= fmax ->
  let r := nearest ray l i ret (tsq ray ret) in
  tsq ray r <= tsq ray ret /\
  (r = ret \/ exists k t p, nth_error l k = Some t /\ r = Some ((i + k)%nat, p) /\ reported ray t p /\ 1 / 10 ^ 7 < dist2 ray p < tsq ray ret) /\
  (forall k t q, nth_error l k = Some t -> reported ray t q -> 1 / 10 ^ 7 < dist2 ray q -> tsq ray r <= dist2 ray q).
Proof.
  induction l as [|t l IH]; intros i ret Hr; cbn [nearest].
  - split; [apply Rle_refl|]. split; [now left|]. intros [|k] t q H; discriminate.
  - assert (Skip : (forall q, reported ray t q -> 1 / 10 ^ 7 < dist2 ray q -> tsq ray ret <= dist2 ray q) ->
      let r := nearest ray l (S i) ret (tsq ray ret) in
      tsq ray r <= tsq ray ret /\
      (r = ret \/ exists k t0 p, nth_error (t :: l) k = Some t0 /\ r = Some ((i + k)%nat, p) /\ reported ray t0 p /\ 1 / 10 ^ 7 < dist2 ray p < tsq ray ret) /\
      (forall k t0 q, nth_error (t :: l) k = Some t0 -> reported ray t0 q -> 1 / 10 ^ 7 < dist2 ray q -> tsq ray r <= dist2 ray q)).
    { intros Ht. destruct (IH (S i) ret Hr) as (A & B & C). cbv zeta. split; [exact A|]. split.
      - destruct B as [B|(k & t1 & p & K1 & K2 & K3)]; [now left|]. right. exists (S k), t1, p. split; [exact K1|].
        split; [|exact K3]. rewrite K2. do 2 f_equal. lia.
      - intros [|k] t1 q H1 H2 H3; [|now apply (C k t1 q)]. cbn [nth_error] in H1. injection H1 as <-.
        eapply Rle_trans; [exact A|]. now apply Ht. }
    destruct (baricentric_coordinates ray t) as [[[p u] v]|] eqn:Eb.
    2:{ apply Skip. intros q (u & v & H). congruence. }
    change (vlen2 (vsub p (origin ray))) with (dist2 ray p).
    destruct (Rltb_spec (1 / 10 ^ 7) (dist2 ray p)) as [H1|H1]; [destruct (Rltb_spec (dist2 ray p) (tsq ray ret)) as [H2|H2]|]; cbn [andb].
    + destruct (IH (S i) (Some (i, p))) as (A & B & C); [cbn [tsq]; lra|]. change (tsq ray (Some (i, p))) with (dist2 ray p) in *. split; [lra|]. split.
      * right. destruct B as [B|(k & t1 & q & K1 & K2 & K3 & K4)].
        -- exists 0%nat, t, p. split; [reflexivity|]. rewrite Nat.add_0_r. split; [exact B|]. split; [now exists u, v|lra].
        -- exists (S k), t1, q. split; [exact K1|]. split; [rewrite K2; do 2 f_equal; lia|]. split; [exact K3|lra].
      * intros [|k] t1 q E1 E2 E3; [|now apply (C k t1 q)]. cbn [nth_error] in E1. injection E1 as <-.
        assert (q = p) as -> by (eapply reported_fun; [exact E2|now exists u, v]). exact A.
    + apply Skip. intros q Hq _. assert (q = p) as -> by (eapply reported_fun; [exact Hq|now exists u, v]). lra.
    + apply Skip. intros q Hq Hd. assert (q = p) as -> by (eapply reported_fun; [exact Hq|now exists u, v]). lra.
Qed.

Lemma nth_error_firstn' {A} (l : list A) : forall n k x, nth_error (firstn n l) k = Some x -> nth_error l k = Some x /\ (k < n)%nat.
Proof.
  induction l as [|y l IH]; intros [|n] [|k] x H; cbn in *; try discriminate; [split; [exact H|lia]|].
  apply IH in H. split; [apply H|lia].
Qed.
Lemma nth_error_firstn_lt {A} (l : list A) : forall n k, (k < n)%nat -> nth_error (firstn n l) k = nth_error l k.
Proof. induction l as [|y l IH]; intros [|n] [|k] H; cbn; auto; try lia. apply IH. lia. Qed.
Lemma nth_error_skipn' {A} (l : list A) : forall n k, nth_error (skipn n l) k = nth_error l (n + k).
Proof. induction l as [|y l IH]; intros [|n] k; cbn; auto. now destruct k. Qed.

Lemma slice_spec ts ray ini fin :
  let r := simple_intersect_triangle_slice ts ray ini fin in
  (r = None \/ exists k t p, (ini <= k < fin)%nat /\ nth_error ts k = Some t /\ r = Some (k, p) /\ reported ray t p /\ 1 / 10 ^ 7 < dist2 ray p < fmax) /\
  tsq ray r <= fmax /\
  (forall k t q, (ini <= k < fin)%nat -> nth_error ts k = Some t -> reported ray t q -> 1 / 10 ^ 7 < dist2 ray q -> tsq ray r <= dist2 ray q).
Proof.
  cbv zeta. unfold simple_intersect_triangle_slice. change fmax with (tsq ray None) at 1.
  destruct (nearest_spec ray (firstn (fin - ini) (skipn ini ts)) ini None (Rle_refl _)) as (A & B & C). cbv zeta in *.
  change (tsq ray None) with fmax in *.
  split; [|split; [exact A|]].
  - destruct B as [B|(k & t & p & K1 & K2 & K3 & K4)]; [now left|]. right. exists (ini + k)%nat, t, p.
    apply nth_error_firstn' in K1. destruct K1 as [K1 K5]. rewrite nth_error_skipn' in K1. split; [lia|]. auto.
  - intros k t q Hk Ht Hq Hd. apply (C (k - ini)%nat t q); try assumption.
    rewrite nth_error_firstn_lt by lia. rewrite nth_error_skipn'. now replace (ini + (k - ini))%nat with k by lia.
Qed.

(** ** What a ray meets is in the boxes it meets *)

(** The ray goes through the triangle at [q], ahead of its origin and not nearly parallel to it *)
Definition crosses (ray : Ray) (t : Tri) (q : pt) : Prop :=
  exists u v, baricentric_coordinates ray t = Some (q, u, v) /\ 0 <= u /\ 0 <= v /\ u + v <= 1.
Definition oblique (ray : Ray) : Prop := vx (direction ray) <> 0 /\ vy (direction ray) <> 0 /\ vz (direction ray) <> 0.

Lemma crosses_reported ray t q : crosses ray t q -> reported ray t q.
Proof. intros (u & v & H & _). now exists u, v. Qed.

Lemma crosses_box ray t q b : oblique ray -> crosses ray t q -> proper b -> box_in (world_bounds t) b ->
  intersect RF (gamma 3) b (origin ray) (inv_dir ray) = true.
Proof.
  intros (Dx & Dy & Dz) (u & v & H & U & V & W) P B.
  destruct (C29_sound _ _ _ _ _ H) as (Eq & _ & _ & _ & s & Hs & Er).
  apply (C28_no_lost_hit b (origin ray) (direction ray) s P Dx Dy Dz); [assert (0 < 1 / 10 ^ 5) by (apply Rdiv_lt_0_compat; lra); lra|].
  apply B. change (at_time (origin ray) (direction ray) s) with (ray_at ray s). rewrite <- Er, Eq, bary_on. now apply world_bounds_contains.
Qed.

(** The triangles [ts] hold the primitives [l] from position [off] on *)
Definition holds (ts : list Tri) (l : list ObjectInfo) (off : nat) : Prop :=
  forall k i, nth_error l k = Some i -> exists t, nth_error ts (off + k) = Some t /\ ibounds i = world_bounds t.
Lemma holds_app ts l1 l2 off : holds ts (l1 ++ l2) off -> holds ts l1 off /\ holds ts l2 (off + length l1).
Proof.
  intros H. split; intros k i K.
  - apply H. rewrite nth_error_app1; [exact K|]. apply nth_error_Some. congruence.
  - rewrite <- Nat.add_assoc. apply H. rewrite nth_error_app2 by lia. now replace (length l1 + k - length l1)%nat with k by lia.
Qed.

Lemma shape_proper t l off : shape t l off -> proper (nbounds t).
Proof. induction 1; cbn [nbounds new_interior]; [assumption|]. now apply union_proper. Qed.
Lemma shape_box t l off : shape t l off -> forall i, In i l -> box_in (ibounds i) (nbounds t).
Proof.
  induction 1 as [b l off _ _ Hb _|a c1 c2 l1 l2 off H1 IH1 H2 IH2]; cbn [nbounds new_interior]; [exact Hb|].
  intros i Hi. apply in_app_or in Hi. destruct Hi as [Hi|Hi].
  - eapply box_in_trans; [now apply IH1|apply union_l].
  - eapply box_in_trans; [now apply IH2|apply union_r].
Qed.
Lemma shape_hit ts ray t l off k tr q : shape t l off -> holds ts l off -> oblique ray ->
  (off <= k < off + length l)%nat -> nth_error ts k = Some tr -> crosses ray tr q ->
  intersect RF (gamma 3) (nbounds t) (origin ray) (inv_dir ray) = true.
Proof.
  intros S H O K T C. destruct (nth_error l (k - off)) as [i|] eqn:E.
  2:{ apply nth_error_None in E. lia. }
  destruct (H _ _ E) as (tr' & T' & B). replace (off + (k - off))%nat with k in T' by lia. rewrite T in T'. injection T' as <-.
  apply (crosses_box ray tr q); [exact O|exact C|eapply shape_proper; exact S|]. rewrite <- B. eapply shape_box; [exact S|]. eapply nth_error_In. exact E.
Qed.

(** ** The nearest hit of a tree *)
Lemma visit_hit ts ray t l off : shape t l off -> holds ts l off -> oblique ray -> forall ret, tsq ray ret <= fmax ->
  exists ret', visit (hit_leaf ts ray) ray t (ret, tsq ray ret) = ((ret', tsq ray ret'), false) /\
  tsq ray ret' <= tsq ray ret /\
  (ret' = ret \/ exists k tr p, (off <= k < off + length l)%nat /\ nth_error ts k = Some tr /\ ret' = Some (k, p) /\ reported ray tr p /\ 1 / 10 ^ 7 < dist2 ray p < fmax) /\
  (forall k tr q, (off <= k < off + length l)%nat -> nth_error ts k = Some tr -> crosses ray tr q -> 1 / 10 ^ 7 < dist2 ray q -> tsq ray ret' <= dist2 ray q).
Proof.
  intros S. induction S as [b l off Hl Hp Hb Hc|a c1 c2 l1 l2 off S1 IH1 S2 IH2]; intros H O ret Hr.
  - cbn [visit nbounds].
    destruct (intersect RF (gamma 3) b (origin ray) (inv_dir ray)) eqn:Eb.
    2:{ exists ret. split; [reflexivity|]. split; [apply Rle_refl|]. split; [now left|]. intros k tr q K T C D. exfalso.
        assert (intersect RF (gamma 3) b (origin ray) (inv_dir ray) = true); [|congruence].
        apply (shape_hit ts ray (Leaf b (length l) off) l off k tr q); try assumption. now apply shape_leaf. }
    unfold hit_leaf. destruct (slice_spec ts ray off (off + length l)) as (A & A' & B).
    destruct (simple_intersect_triangle_slice ts ray off (off + length l)) as [[i p]|].
    + destruct A as [A|(k & tr & p' & K & T & E & Rp & D)]; [discriminate|]. injection E as -> ->.
      change (vlen2 (vsub p' (origin ray))) with (dist2 ray p'). cbn [snd tsq] in *.
      destruct (Rltb_spec (1 / 10 ^ 7) (dist2 ray p')) as [_|N]; [|lra]. cbn [andb].
      destruct (Rltb_spec (dist2 ray p') (tsq ray ret)) as [L|L].
      * exists (Some (k, p')). cbn [tsq]. split; [reflexivity|]. split; [lra|]. split.
        -- right. exists k, tr, p'. auto.
        -- intros k' tr' q K' T' C' D'. apply (B k' tr'); try assumption. now apply crosses_reported.
      * exists ret. split; [reflexivity|]. split; [apply Rle_refl|]. split; [now left|].
        intros k' tr' q K' T' C' D'. apply Rle_trans with (dist2 ray p'); [lra|]. apply (B k' tr'); try assumption. now apply crosses_reported.
    + exists ret. split; [reflexivity|]. split; [apply Rle_refl|]. split; [now left|].
      intros k' tr' q K' T' C' D'. apply Rle_trans with fmax; [exact Hr|]. apply (B k' tr'); try assumption. now apply crosses_reported.
  - assert (SI : shape (new_interior a c1 c2) (l1 ++ l2) off) by now apply shape_interior.
    destruct (holds_app _ _ _ _ H) as [H1 H2]. specialize (IH1 H1 O). specialize (IH2 H2 O).
    unfold new_interior in *. cbn [visit nbounds]. set (b := from_union RF (nbounds c1) (nbounds c2)) in *.
    destruct (intersect RF (gamma 3) b (origin ray) (inv_dir ray)) eqn:Eb.
    2:{ exists ret. split; [reflexivity|]. split; [apply Rle_refl|]. split; [now left|]. intros k tr q K T C D. exfalso.
        assert (intersect RF (gamma 3) b (origin ray) (inv_dir ray) = true); [|congruence].
        exact (shape_hit ts ray _ (l1 ++ l2) off k tr q SI H O K T C). }
    rewrite app_length. destruct (Rltb (coord a (inv_dir ray)) 0).
    + destruct (IH2 ret Hr) as (r2 & E2 & L2 & W2 & M2). rewrite E2.
      destruct (IH1 r2 (Rle_trans _ _ _ L2 Hr)) as (r1 & E1 & L1 & W1 & M1).
      exists r1. split; [exact E1|]. split; [lra|]. split.
      * destruct W1 as [->|(k & tr & p & K & W1)]; [|right; exists k, tr, p; split; [lia|exact W1]].
        destruct W2 as [->|(k & tr & p & K & W2)]; [now left|right; exists k, tr, p; split; [lia|exact W2]].
      * intros k tr q K T C D. destruct (Nat.lt_ge_cases k (off + length l1)) as [Lk|Lk].
        -- apply (M1 k tr q); try assumption. lia.
        -- apply Rle_trans with (tsq ray r2); [exact L1|]. apply (M2 k tr q); try assumption. lia.
    + destruct (IH1 ret Hr) as (r1 & E1 & L1 & W1 & M1). rewrite E1.
      destruct (IH2 r1 (Rle_trans _ _ _ L1 Hr)) as (r2 & E2 & L2 & W2 & M2).
      exists r2. split; [exact E2|]. split; [lra|]. split.
      * destruct W2 as [->|(k & tr & p & K & W2)]; [|right; exists k, tr, p; split; [lia|exact W2]].
        destruct W1 as [->|(k & tr & p & K & W1)]; [now left|right; exists k, tr, p; split; [lia|exact W1]].
      * intros k tr q K T C D. destruct (Nat.lt_ge_cases k (off + length l1)) as [Lk|Lk].
        -- apply Rle_trans with (tsq ray r1); [exact L2|]. apply (M1 k tr q); try assumption. lia.
        -- apply (M2 k tr q); try assumption. lia.
Qed.

(** ** Blocking *)
(** The squared distances at which a hit counts as an obstruction *)
Definition blocks (d2 dist2 : R) : Prop := 1 / 10 ^ 6 < d2 /\ d2 + 1 / 10 ^ 4 < dist2.

Lemma block_test d D : (Rltb (1 / 10 ^ 6) d && Rltb (d + 1 / 10 ^ 6) D && Rltb (1 / 10 ^ 4) (Rabs (D - d)) = true) <-> blocks d D.
Proof.
  unfold blocks. assert (0 < 1 / 10 ^ 6 < 1 / 10 ^ 4) by (split; [apply Rdiv_lt_0_compat; lra|unfold Rdiv; rewrite !Rmult_1_l; apply Rinv_lt_contravar; lra]).
  rewrite !andb_true_iff, !Rltb_true. split.
  - intros ((A & B) & C). split; [exact A|]. rewrite Rabs_right in C by lra. lra.
  - intros (A & B). rewrite Rabs_right by lra. lra.
Qed.

Lemma visit_block ts ray D t l off : shape t l off -> holds ts l off -> oblique ray ->
  let r := visit (block_leaf ts ray D) ray t true in
  (r = (true, false) \/ r = (false, true)) /\
  (r = (false, true) -> exists k tr p, (off <= k < off + length l)%nat /\ nth_error ts k = Some tr /\ reported ray tr p /\ blocks (dist2 ray p) D) /\
  (r = (true, false) -> (forall k tr p, (off <= k < off + length l)%nat -> nth_error ts k = Some tr -> reported ray tr p -> ~ (1 / 10 ^ 7 < dist2 ray p <= 1 / 10 ^ 6)) ->
    D <= fmax -> forall k tr q, (off <= k < off + length l)%nat -> nth_error ts k = Some tr -> crosses ray tr q -> ~ blocks (dist2 ray q) D).
Proof.
  intros S H O. cbv zeta.
  induction S as [b l off Hl Hp Hb Hc|a c1 c2 l1 l2 off S1 IH1 S2 IH2].
  - cbn [visit nbounds].
    destruct (intersect RF (gamma 3) b (origin ray) (inv_dir ray)) eqn:Eb.
    2:{ split; [now left|]. split; [discriminate|]. intros _ _ _ k tr q K T C D0. exfalso.
        assert (intersect RF (gamma 3) b (origin ray) (inv_dir ray) = true); [|congruence].
        apply (shape_hit ts ray (Leaf b (length l) off) l off k tr q); try assumption. now apply shape_leaf. }
    unfold block_leaf. destruct (slice_spec ts ray off (off + length l)) as (A & A' & B).
    destruct (simple_intersect_triangle_slice ts ray off (off + length l)) as [[i p]|].
    + destruct A as [A|(k & tr & p' & K & T & E & Rp & Dp)]; [discriminate|]. injection E as -> ->.
      change (vlen2 (vsub p' (origin ray))) with (dist2 ray p').
      destruct (Rltb (1 / 10 ^ 6) (dist2 ray p') && Rltb (dist2 ray p' + 1 / 10 ^ 6) D && Rltb (1 / 10 ^ 4) (Rabs (D - dist2 ray p'))) eqn:Et.
      * split; [now right|]. split; [|discriminate]. intros _. apply block_test in Et. exists k, tr, p'. auto.
      * split; [now left|]. split; [discriminate|]. intros _ Hn HD k' tr' q K' T' C' (B1 & B2).
        assert (Le : dist2 ray p' <= dist2 ray q).
        { apply (B k' tr'); try assumption; [now apply crosses_reported|]. assert (1 / 10 ^ 7 < 1 / 10 ^ 6); [|lra].
          unfold Rdiv; rewrite !Rmult_1_l; apply Rinv_lt_contravar; lra. }
        assert (blocks (dist2 ray p') D); [|apply block_test in H0; congruence].
        split; [|lra]. destruct (Rlt_le_dec (1 / 10 ^ 6) (dist2 ray p')) as [L|L]; [exact L|]. exfalso. apply (Hn k tr p' K T Rp). lra.
    + split; [now left|]. split; [discriminate|]. intros _ Hn HD k' tr' q K' T' C' (B1 & B2).
      assert (0 < 1 / 10 ^ 4) by (apply Rdiv_lt_0_compat; lra).
      assert (fmax <= dist2 ray q); [|lra].
      apply (B k' tr'); try assumption; [now apply crosses_reported|]. assert (1 / 10 ^ 7 < 1 / 10 ^ 6); [|lra].
      unfold Rdiv; rewrite !Rmult_1_l; apply Rinv_lt_contravar; lra.
  - assert (SI : shape (new_interior a c1 c2) (l1 ++ l2) off) by now apply shape_interior.
    destruct (holds_app _ _ _ _ H) as [H1 H2]. specialize (IH1 H1). specialize (IH2 H2).
    unfold new_interior in *. cbn [visit nbounds]. set (b := from_union RF (nbounds c1) (nbounds c2)) in *.
    destruct (intersect RF (gamma 3) b (origin ray) (inv_dir ray)) eqn:Eb.
    2:{ split; [now left|]. split; [discriminate|]. intros _ _ _ k tr q K T C D0. exfalso.
        assert (intersect RF (gamma 3) b (origin ray) (inv_dir ray) = true); [|congruence].
        exact (shape_hit ts ray _ (l1 ++ l2) off k tr q SI H O K T C). }
    rewrite app_length. destruct IH1 as (X1 & Y1 & Z1). destruct IH2 as (X2 & Y2 & Z2).
    assert (P1 : visit (block_leaf ts ray D) ray c1 true = (false, true) ->
      exists k tr p, (off <= k < off + (length l1 + length l2))%nat /\ nth_error ts k = Some tr /\ reported ray tr p /\ blocks (dist2 ray p) D).
    { intros E. destruct (Y1 E) as (k & tr & p & K & P). exists k, tr, p. split; [lia|exact P]. }
    assert (P2 : visit (block_leaf ts ray D) ray c2 true = (false, true) ->
      exists k tr p, (off <= k < off + (length l1 + length l2))%nat /\ nth_error ts k = Some tr /\ reported ray tr p /\ blocks (dist2 ray p) D).
    { intros E. destruct (Y2 E) as (k & tr & p & K & P). exists k, tr, p. split; [lia|exact P]. }
    assert (Q : visit (block_leaf ts ray D) ray c1 true = (true, false) -> visit (block_leaf ts ray D) ray c2 true = (true, false) ->
      (forall k tr p, (off <= k < off + (length l1 + length l2))%nat -> nth_error ts k = Some tr -> reported ray tr p -> ~ (1 / 10 ^ 7 < dist2 ray p <= 1 / 10 ^ 6)) ->
      D <= fmax -> forall k tr q, (off <= k < off + (length l1 + length l2))%nat -> nth_error ts k = Some tr -> crosses ray tr q -> ~ blocks (dist2 ray q) D).
    { intros E1 E2 Hn HD k tr q K T C. destruct (Nat.lt_ge_cases k (off + length l1)) as [Lk|Lk].
      - apply (Z1 E1) with (k := k) (tr := tr); try assumption; [|lia]. intros k' tr' p K'. apply Hn. lia.
      - apply (Z2 E2) with (k := k) (tr := tr); try assumption; [|lia]. intros k' tr' p K'. apply Hn. lia. }
    destruct (Rltb (coord a (inv_dir ray)) 0).
    + destruct X2 as [E2|E2]; rewrite E2 in *; [|split; [now right|]; split; [auto|discriminate]].
      split; [exact X1|]. split; [exact P1|]. intros E1. now apply Q.
    + destruct X1 as [E1|E1]; rewrite E1 in *; [|split; [now right|]; split; [auto|discriminate]].
      split; [exact X2|]. split; [exact P2|]. intros E2. now apply Q.
Qed.

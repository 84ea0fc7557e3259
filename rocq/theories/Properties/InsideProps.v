(** C117: what the test of a point against a loop says *)
From Coq Require Import Reals List Bool Lra Lia Psatz.
From Verif.Common Require Import Base Flt REval.
From Verif.Geometry Require Import Vec TriangleModel LoopModel GeomProofs TriangleProofs LoopProofs MeshProofs MergeProofs SplitModel SplitProofs ConvexProofs InsideProofs.
From Verif.Properties Require Import LoopProps.
Import ListNotations.
Open Scope R_scope.

(** ** Loops, their edges and their insides *)
Definition corner (l : Loop) (i : nat) : pt := nth (i mod length (lv l)) (lv l) vzero.
(** how far [p] is to the left of edge [i], times the length of the edge *)
Definition leftness (l : Loop) (i : nat) (p : pt) : R := vdot (ln l) (vcross (vsub (corner l (i + 1)) (corner l i)) (vsub p (corner l i))).
(** closed, in one plane with [p], and turning left at every corner *)
Definition convex_loop (l : Loop) (p : pt) : Prop :=
  lclosed l = true /\ vlen2 (ln l) = 1 /\ (3 <= length (lv l))%nat /\
  (forall a b, In a (p :: lv l) -> In b (p :: lv l) -> vdot (ln l) (vsub a b) = 0) /\
  (forall i j, (i < length (lv l))%nat -> (j < length (lv l))%nat -> j <> i -> j <> ((i + 1) mod length (lv l))%nat -> 0 < leftness l i (corner l j)).
Definition strictly_inside (l : Loop) (p : pt) : Prop := forall i, (i < length (lv l))%nat -> 0 < leftness l i p.
Definition strictly_outside (l : Loop) (p : pt) : Prop := exists i, (i < length (lv l))%nat /\ leftness l i p < 0.
Definition mid_first_edge (l : Loop) : pt := vscale (vadd (nth 0 (lv l) vzero) (nth 1 (lv l) vzero)) (1 / 2).
(** at most 1.1 mm away from an edge *)
Definition by_an_edge (l : Loop) (p : pt) : Prop :=
  exists i t, (i < length (lv l))%nat /\ 0 <= t <= 1 /\ vlen (vsub p (vadd (corner l i) (vscale (vsub (corner l (i + 1)) (corner l i)) t))) <= 11 / 10000.
(** the line from the middle of the first edge through [p] follows edge [i] exactly, or is clearly across *)
Definition clear_of (l : Loop) (p : pt) (i : nat) : Prop :=
  let c := vdot (ln l) (vcross (vsub (corner l (i + 1)) (corner l i)) (vsub p (mid_first_edge l))) in c = 0 \/ 1 / 10 ^ 5 <= Rabs c.

Lemma leftness_side l i p : leftness l i p = side (ln l) (lv l) i p.
Proof. unfold leftness, side. rewrite tri2_cross. unfold corner, pick. vring. Qed.
Lemma convex_testable l p : convex_loop l p -> testable l p.
Proof.
  intros (C & U & N & F & CV). split; [exact C|]. split; [exact U|]. split; [exact F|]. split; [exact N|]. intros i j I J A B. rewrite <- leftness_side. apply CV; assumption.
Qed.
Lemma near_by l p i : (i < length (lv l))%nat -> near l p i = Ok true -> by_an_edge l p.
Proof. intros I N. destruct (near_close l p i I N) as (t & T & H). exists i, t. auto. Qed.

(** ** Points outside of a convex loop are found to be outside, unless they are by an edge *)
Theorem C117_outside (l : Loop) (p : pt) : convex_loop l p -> strictly_outside l p -> ~ by_an_edge l p -> l_test_point l p = Ok false.
Proof.
  intros C (k & K & O) B. rewrite leftness_side in O. apply convex_testable in C.
  destruct (test_zero l p (proj1 C) (coplanar_ok l p C) (outside_zero l p k C K O)) as [(E & _)|(_ & i & I & N)]; [exact E|]. exfalso. apply B. now apply (near_by l p i).
Qed.
(** ** Points inside of a convex loop are found to be inside, unless they are too close to the middle of the first edge *)
Theorem C117_inside (l : Loop) (p : pt) (D : R) : convex_loop l p -> strictly_inside l p -> (forall a b, In a (lv l) -> In b (lv l) -> vlen (vsub a b) <= D) ->
  D <= 1001 * vlen (vsub p (mid_first_edge l)) -> (forall i, (i < length (lv l))%nat -> clear_of l p i) -> l_test_point l p = Ok true.
Proof.
  intros C P S FAR CL. apply convex_testable in C.
  assert (P' : forall i, (i < length (lv l))%nat -> 0 < side (ln l) (lv l) i p) by (intros i I; rewrite <- leftness_side; now apply P).
  assert (N := proj1 (proj2 (proj2 (proj2 C)))).
  assert (PM : p <> mid01 (lv l)).
  { intros ->. specialize (P' 0%nat ltac:(lia)). revert P'. replace (mid01 (lv l)) with (vadd (pick (lv l) 0) (vscale (edge (lv l) 0) (1 / 2))); [rewrite on_own_edge; lra|].
    unfold mid01, edge. rewrite !pick_in by (cbn; lia). cbn [Nat.add]. set (a := nth 0 _ _). set (b := nth 1 _ _). clearbody a b. apply V3_eq; vunfold; field. }
  pose proof (far_leaves l p D C P' S PM FAR) as LV.
  destruct (inside_one l p C P' LV) as (i & I & O & Z); [|exact (test_one l p i (proj1 C) (coplanar_ok l p C) I O Z)].
  intros i I. specialize (CL i I). unfold clear_of in CL. cbv zeta in CL.
  assert (E : vdot (ln l) (vcross (edge (lv l) i) (ray_dir l p)) = 1000 * vdot (ln l) (vcross (vsub (corner l (i + 1)) (corner l i)) (vsub p (mid_first_edge l)))).
  { unfold ray_dir, edge. fold (mid_first_edge l). unfold corner, pick. set (m := mid_first_edge l). clearbody m. vring. }
  rewrite E. destruct CL as [->|CL]; [left; ring|right]. rewrite Rabs_mult, (Rabs_pos_eq 1000) by lra. lra.
Qed.
(** Those are not: the code looks along a line from the point, away from the middle of the first edge, 1000 times as long as the point is far from it. When that line ends inside the loop, the point is taken to be outside. *)
Theorem C117_too_near (l : Loop) (p : pt) : convex_loop l p -> strictly_inside l p ->
  strictly_inside l (vadd p (vscale (vsub p (mid_first_edge l)) 1000)) -> ~ by_an_edge l p -> l_test_point l p = Ok false.
Proof.
  intros C P E B. apply convex_testable in C.
  destruct (test_zero l p (proj1 C) (coplanar_ok l p C)) as [(R & _)|(_ & i & I & N)]; [|exact R|exfalso; apply B; now apply (near_by l p i)].
  apply inside_zero; [exact C| |]; intros i I; rewrite <- leftness_side; [now apply P|]. now apply E.
Qed.
(** ** Other loops and points *)
(** Points on an edge are inside (C117_edge), points off the plane are not, and open loops have no inside *)
Theorem C117_others (l : Loop) (p : pt) :
  (lclosed l = false -> l_test_point l p = Err) /\
  (lclosed l = true -> forall v vs, lv l = v :: vs -> vlen2 (ln l) = 1 -> 1 / 10 ^ 7 <= Rabs (vdot (ln l) (vsub v p)) -> l_test_point l p = Ok false) /\
  (lclosed l = true -> vlen2 (ln l) = 1 -> (1 <= length (lv l))%nat -> exists b, l_test_point l p = Ok b).
Proof.
  split; [|split].
  - intros C. unfold l_test_point. now rewrite C.
  - intros C v vs V U F. unfold l_test_point. rewrite C. cbn [negb]. unfold l_is_coplanar. rewrite V.
    assert (Z : vis_zero (ln l) = false). { replace (ln l) with (vscale (ln l) 1) by vring. apply not_zero_along; [exact U|rewrite Rabs_R1; lra]. }
    rewrite Z. destruct (Rltb_spec (Rabs (vdot (ln l) (vsub v p))) (1 / 10 ^ 7)); [lra|]. reflexivity.
  - intros C U N. unfold l_test_point. rewrite C. cbn [negb]. unfold l_is_coplanar. destruct (lv l) as [|v vs] eqn:V; [cbn in N; lia|].
    assert (Z : vis_zero (ln l) = false). { replace (ln l) with (vscale (ln l) 1) by vring. apply not_zero_along; [exact U|rewrite Rabs_R1; lra]. }
    rewrite Z. cbn [bind]. destruct (Rltb _ _); cbn [negb]; [|eauto]. cbv zeta. rewrite <- V. fold (ray_dir l p).
    destruct (count_run l (ray_dir l p) p (seq 0 (length (lv l))) 0) as [(i & I & M & E)|(M & E)]; rewrite E; cbn [bind]; eauto.
Qed.
(** Points on an edge of at least 1 cm are inside *)
Theorem C117_edge (l : Loop) (p : pt) (i : nat) (t : R) : convex_loop l p -> (i < length (lv l))%nat -> 0 <= t <= 1 -> 1 / 100 <= vlen (vsub (corner l (i + 1)) (corner l i)) ->
  p = vadd (corner l i) (vscale (vsub (corner l (i + 1)) (corner l i)) t) -> l_test_point l p = Ok true.
Proof.
  intros C I T L E. apply convex_testable in C. unfold l_test_point. rewrite (proj1 C), (coplanar_ok l p C). cbn [negb bind]. cbv zeta. fold (ray_dir l p).
  destruct (count_run l (ray_dir l p) p (seq 0 (length (lv l))) 0) as [(j & J & N & R)|(N & R)]; rewrite R; cbn [bind]; [reflexivity|]. exfalso.
  specialize (N i ltac:(apply in_seq; lia)). unfold near in N. rewrite <- (pick_in (lv l) i I) in N. fold (pick (lv l) (i + 1)) in N. unfold corner in E, L. fold (pick (lv l) i) in E, L. fold (pick (lv l) (i + 1)) in E, L.
  set (a := pick _ i) in *. set (b := pick _ (i + 1)) in *. clearbody a b.
  unfold contains_point in N. cbn [s_start s_end] in N.
  destruct (Rltb_spec (s_length (mkS a b)) (1 / 100)) as [X|X].
  { unfold s_length in X. cbn [s_start s_end] in X. rewrite vlen_sub_sym in L. unfold vlen in L. unfold distance in X || idtac. unfold vlen in X || idtac. replace (squared_distance a b) with (vlen2 (vsub a b)) in X by vring. lra. }
  assert (COL : exists c, is_collinear p a b = Ok c /\ c = true).
  { unfold is_collinear. destruct (compare p a && compare p b) eqn:CC.
    - exfalso. apply andb_true_iff in CC as (A & B). apply compare_vlen in A, B. rewrite vlen_sub_sym in L. assert (vlen (vsub a b) <= 1 / 1000 + 1 / 1000) by (eapply vlen_sub_chain; [rewrite vlen_sub_sym; exact A|exact B]). lra.
    - destruct (_ || _); [eauto|]. eexists. split; [reflexivity|]. rewrite E. replace (vcross (vsub a _) (vsub b a)) with vzero by (unfold vzero; vring). rewrite vlen_0. destruct (Rltb_spec 0 (1 / 10 ^ 5)); [reflexivity|lra]. }
  destruct COL as (c & COL & ->). rewrite COL in N. cbn [bind negb] in N. cbv zeta in N. match type of N with Ok ?x = _ => assert (NB : x = false) by congruence end. clear N. rename NB into N.
  assert (Q : vdot (vsub b a) (vsub p a) = t * vdot (vsub b a) (vsub b a)) by (rewrite E; vring). rewrite Q in N. pose proof (vlen2_nonneg (vsub b a)) as P. change (vlen2 (vsub b a)) with (vdot (vsub b a) (vsub b a)) in P.
  set (z := vdot (vsub b a) (vsub b a)) in *. revert N. destruct (Rleb_spec (- (1 / 10 ^ 9)) (t * z)) as [|B1]; [|nra]. destruct (Rleb_spec (t * z) z) as [|B2]; [intros N; cbn in N; discriminate|nra].
Qed.

(** ** Examples: the 6 x 6 square *)
Lemma square_convex x y : convex_loop square (P2 x y).
Proof.
  split; [reflexivity|]. split; [cbn [square ln]; unfold Up; vunfold; cbn [vx vy vz]; ring|]. split; [cbn; lia|]. split.
  - intros a b A B. cbn [square lv In] in A, B. destruct A as [<-|[<-|[<-|[<-|[<-|[]]]]]], B as [<-|[<-|[<-|[<-|[<-|[]]]]]]; cbn [square ln]; unfold Up, P2; vunfold; cbn [vx vy vz]; ring.
  - intros i j I J A B. unfold leftness, corner. cbn [square lv length] in I, J, B |- *.
    do 4 (destruct i as [|i]; [do 4 (destruct j as [|j]; [try (exfalso; cbn in A, B; congruence); cbn [Nat.add Nat.modulo Nat.divmod fst snd Nat.sub nth ln square]; unfold P2, Up; vunfold; cbn [vx vy vz]; lra|]); lia|]). lia.
Qed.
Lemma square_inside x y : 0 < x < 6 -> 0 < y < 6 -> strictly_inside square (P2 x y).
Proof.
  intros X Y i I. unfold leftness, corner. cbn [square lv length] in I |- *.
  do 4 (destruct i as [|i]; [cbn [Nat.add Nat.modulo Nat.divmod fst snd Nat.sub nth ln square]; unfold P2, Up; vunfold; cbn [vx vy vz]; nra|]). lia.
Qed.
Lemma square_spread a b : In a (lv square) -> In b (lv square) -> vlen (vsub a b) <= 9.
Proof.
  intros A B. unfold vlen. rewrite <- (sqrt_square 9) by lra. apply sqrt_le_1_alt.
  cbn [square lv In] in A, B. destruct A as [<-|[<-|[<-|[<-|[]]]]], B as [<-|[<-|[<-|[<-|[]]]]]; unfold P2; vunfold; cbn [vx vy vz]; lra.
Qed.
Lemma square_by x y : by_an_edge square (P2 x y) -> Rabs x <= 11 / 10000 \/ Rabs (6 - x) <= 11 / 10000 \/ Rabs y <= 11 / 10000 \/ Rabs (6 - y) <= 11 / 10000.
Proof.
  assert (CX : forall v, Rabs (vx v) <= vlen v /\ Rabs (vy v) <= vlen v).
  { intros [a b c]. split; (rewrite <- (Rabs_pos_eq (vlen _)) by apply vlen_nonneg; apply Rsqr_le_abs_0; unfold Rsqr; rewrite vlen_sqr; vunfold; cbn [vx vy vz]; nra). }
  intros (i & t & I & T & H). unfold corner in H. cbn [square lv length] in I, H.
  assert (I4 : (i = 0 \/ i = 1 \/ i = 2 \/ i = 3)%nat) by lia. destruct I4 as [->|[->|[->| ->]]]; cbn [Nat.add Nat.modulo Nat.divmod fst snd Nat.sub nth] in H;
    match type of H with vlen ?v <= _ => destruct (CX v) as (HX & HY); apply (Rle_trans _ _ _ HX) in H as HX'; apply (Rle_trans _ _ _ HY) in H; clear HX HY; rename HX' into HX; rename H into HY end; unfold P2 in HX, HY; unfold vsub, vadd, vscale in HX, HY; cbn [vx vy vz] in HX, HY.
  - right; right; left. match type of HY with Rabs ?z <= _ => replace z with y in HY by ring end. lra.
  - right; left. rewrite Rabs_minus_sym. match type of HX with Rabs ?z <= _ => replace z with (x - 6) in HX by ring end. lra.
  - right; right; right. rewrite Rabs_minus_sym. match type of HY with Rabs ?z <= _ => replace z with (y - 6) in HY by ring end. lra.
  - left. match type of HX with Rabs ?z <= _ => replace z with x in HX by ring end. lra.
Qed.
Lemma mid_square : mid_first_edge square = P2 3 0.
Proof. unfold mid_first_edge. cbn [square lv nth]. unfold P2. apply V3_eq; vunfold; cbn [vx vy vz]; field. Qed.

(** The point (1, 2) is inside, the point (7, 2) is not *)
Example C117_example_inside : l_test_point square (P2 1 2) = Ok true.
Proof.
  apply (C117_inside square (P2 1 2) 9 (square_convex 1 2)); [apply square_inside; lra|apply square_spread| |].
  - rewrite mid_square. assert (1 <= vlen (vsub (P2 1 2) (P2 3 0))). { unfold vlen. apply Rle_trans with (sqrt 1); [rewrite sqrt_1; lra|]. apply sqrt_le_1_alt. unfold P2. vunfold. cbn [vx vy vz]. lra. } lra.
  - intros i I. unfold clear_of. cbv zeta. rewrite mid_square. unfold corner. cbn [square lv length] in I |- *. right.
    do 4 (destruct i as [|i]; [cbn [Nat.add Nat.modulo Nat.divmod fst snd Nat.sub nth ln square]; unfold P2, Up; vunfold; cbn [vx vy vz]; match goal with |- _ <= Rabs ?z => first [assert (1 <= z) by lra; rewrite (Rabs_pos_eq z) by lra; lra|assert (z <= - 1) by lra; rewrite (Rabs_left z) by lra; lra] end|]). lia.
Qed.
Example C117_example_outside : l_test_point square (P2 7 2) = Ok false.
Proof.
  apply C117_outside; [apply square_convex| |].
  - exists 1%nat. split; [cbn; lia|]. unfold leftness, corner. cbn [square lv length Nat.add Nat.modulo Nat.divmod fst snd Nat.sub nth ln]. unfold P2, Up. vunfold. cbn [vx vy vz]. lra.
  - intros B. apply square_by in B. revert B. replace (6 - 7) with (-1) by lra. replace (6 - 2) with 4 by lra. rewrite (Rabs_left (-1)), (Rabs_pos_eq 7), (Rabs_pos_eq 2), (Rabs_pos_eq 4) by lra. lra.
Qed.
(** ** A point that is strictly inside, 5 mm away from all edges and in front of the middle of the first one, is taken to be outside *)
Theorem C117_first_edge_refuted : exists l p, convex_loop l p /\ strictly_inside l p /\ ~ by_an_edge l p /\ 1 / 200 <= vlen (vsub p (mid_first_edge l)) /\ l_test_point l p = Ok false.
Proof.
  exists square, (P2 3 (1 / 200)). assert (B : ~ by_an_edge square (P2 3 (1 / 200))).
  { intros B. apply square_by in B. revert B. replace (6 - 3) with 3 by lra. rewrite (Rabs_pos_eq 3), (Rabs_pos_eq (1 / 200)), (Rabs_pos_eq (6 - 1 / 200)) by lra. lra. }
  split; [apply square_convex|]. split; [apply square_inside; lra|]. split; [exact B|]. split.
  - rewrite mid_square. unfold vlen. apply Rle_trans with (sqrt (1 / 200 * (1 / 200))); [rewrite sqrt_square; lra|]. apply sqrt_le_1_alt. unfold P2. vunfold. cbn [vx vy vz]. lra.
  - apply C117_too_near; [apply square_convex|apply square_inside; lra| |exact B]. rewrite mid_square.
    replace (vadd (P2 3 (1 / 200)) (vscale (vsub (P2 3 (1 / 200)) (P2 3 0)) 1000)) with (P2 3 (1001 / 200)) by (unfold P2; apply V3_eq; vunfold; cbn [vx vy vz]; field). apply square_inside; lra.
Qed.
(** and a point 2 m above the same place is not *)
Example C117_example_above : l_test_point square (P2 3 2) = Ok true.
Proof.
  apply (C117_inside square (P2 3 2) 9 (square_convex 3 2)); [apply square_inside; lra|apply square_spread| |].
  - rewrite mid_square. assert (1 <= vlen (vsub (P2 3 2) (P2 3 0))). { unfold vlen. apply Rle_trans with (sqrt 1); [rewrite sqrt_1; lra|]. apply sqrt_le_1_alt. unfold P2. vunfold. cbn [vx vy vz]. lra. } lra.
  - intros i I. unfold clear_of. cbv zeta. rewrite mid_square. unfold corner. cbn [square lv length] in I |- *.
    do 4 (destruct i as [|i]; [cbn [Nat.add Nat.modulo Nat.divmod fst snd Nat.sub nth ln square]; unfold P2, Up; vunfold; cbn [vx vy vz]; match goal with |- ?z = 0 \/ _ => first [left; lra|right; assert (1 <= z) by lra; rewrite (Rabs_pos_eq z) by lra; lra|right; assert (z <= - 1) by lra; rewrite (Rabs_left z) by lra; lra] end|]). lia.
Qed.

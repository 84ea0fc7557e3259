(** C31, C34, C64: building and closing loops, areas and the merging of holes, in exact arithmetic. *)
From Coq Require Import Reals List Bool Lra Lia Psatz ZArith Permutation.
From Verif.Common Require Import Base Flt REval.
From Verif.Geometry Require Import Vec BBoxModel TriangleModel LoopModel MeshModel GeomProofs TriangleProofs LoopProofs MeshProofs MergeProofs.
Import ListNotations.
Open Scope R_scope.

Definition P2 (x y : R) : pt := mkV x y 0.

(** ** C34: building a loop *)

(** A closed loop takes no more points. *)
Theorem C34_closed_rejects : forall l p, lclosed l = true -> push l p = Err.
Proof. intros l p H. now apply push_closed. Qed.

(** An accepted point is the last vertex again (within a millimetre), is added at the end, or takes the place of the last
    vertex when the last two and it are aligned; nothing else changes. *)
Theorem C34_push : forall l p l', push l p = Ok l' ->
  lclosed l = false /\ lclosed l' = false /\
  (l' = l \/ lv l' = lv l ++ [p] \/ exists pre a b, lv l = pre ++ [a; b] /\ lv l' = pre ++ [a; p] /\ is_collinear a b p = Ok true) /\
  (l' = l -> lv l <> [] -> compare (last (lv l) vzero) p = true \/ lv l' = lv l ++ [p]).
Proof.
  intros l p l' H. apply push_vertices in H as (A & B & _ & _ & V). split; [exact A|]. split; [exact B|]. split.
  - destruct V as [(-> & _)|[(V & _)|(pre & a & b & V1 & V2 & _ & _ & C)]]; [auto|auto|]. right; right. exists pre, a, b. auto.
  - intros E N. destruct V as [(_ & _ & C)|[(V & _)|(pre & a & b & V1 & V2 & _ & C & _)]]; [auto|auto|].
    exfalso. rewrite E, V1 in V2. apply app_inv_head in V2. injection V2 as <-. rewrite compare_refl in C. discriminate.
Qed.

(** Every loop built from the empty one by pushing points is flat: from the third vertex on it has a unit normal and all its
    vertices are within 1e-7 of the plane through the first one. *)
Inductive built : Loop -> Prop :=
| built_new : built loop_new
| built_push l p l' : built l -> push l p = Ok l' -> built l'.
Theorem C34_flat : forall l, built l -> (3 <= length (lv l))%nat ->
  vlen2 (ln l) = 1 /\ forall v, In v (lv l) -> Rabs (vdot (ln l) (vsub (nth 0 (lv l) vzero) v)) < 1 / 10 ^ 7.
Proof.
  intros l B L. assert (P : pushed l) by (clear L; induction B; [constructor|econstructor; eassumption]).
  destruct (pushed_planar l P) as [(_ & H)|(U & _ & H)]; [lia|auto].
Qed.

(** Closing keeps the vertices but for the last and the first, each removed only when it is aligned with its neighbours. *)
Theorem C34_close : forall l l', close l = (Ok tt, l') ->
  lclosed l = false /\ lclosed l' = true /\ (3 <= length (lv l'))%nat /\
  exists pre suf, lv l = pre ++ lv l' ++ suf /\ (length pre <= 1)%nat /\ (length suf <= 1)%nat /\
    (forall x, suf = [x] -> is_collinear (nth (length (lv l) - 2) (lv l) vzero) x (nth 0 (lv l) vzero) = Ok true) /\
    (forall x, pre = [x] -> is_collinear (last (lv l') vzero) x (nth 0 (lv l') vzero) = Ok true).
Proof. intros l l' H. apply close_spec in H as (A & B & C & D & _). auto. Qed.

(** ** C64: areas *)

(** The area of a closed loop is half its vector area (the sum of v_i x v_{i+1} over all edges) along its normal, and is not negative. *)
Theorem C64_area : forall l l', close l = (Ok tt, l') ->
  l_area l' = Ok (vdot (ln l') (area2 (lv l')) / 2) /\ 0 <= vdot (ln l') (area2 (lv l')) / 2 /\ (ln l' = ln l \/ ln l' = vscale (ln l) (-1)).
Proof.
  intros l l' H. apply close_spec in H as (_ & C & _ & _ & A & P & N & _). unfold l_area. rewrite C. cbn. rewrite A. rewrite A in P. auto.
Qed.
(** It depends neither on where the loop is nor on the vertex it starts from; walking it backwards changes its sign. *)
Theorem C64_vector_area : forall l1 l2 w,
  area2 (l2 ++ l1) = area2 (l1 ++ l2) /\ area2 (map (fun p => vadd p w) (l1 ++ l2)) = area2 (l1 ++ l2) /\ area2 (rev (l1 ++ l2)) = vneg (area2 (l1 ++ l2)).
Proof. intros. split; [apply area2_rot|]. split; [apply area2_shift|apply area2_rev]. Qed.
Theorem C64_reverse : forall l, vdot (ln (l_reverse l)) (area2 (lv (l_reverse l))) = vdot (ln l) (area2 (lv l)) /\ larea (l_reverse l) = larea l.
Proof. intros l. cbn. split; [|reflexivity]. rewrite area2_rev. set (a := area2 _). clearbody a. vring. Qed.

Lemma flat_cross n u w : vlen2 n = 1 -> vdot n u = 0 -> vdot n w = 0 -> vcross u w = vscale n (vdot n (vcross u w)).
Proof.
  intros N U W.
  (* |n|^2 (u x w) - n (n . (u x w)) = n x ((u x w) x n) and (u x w) x n = w (n.u) - u (n.w) *)
  assert (E : vsub (vscale (vcross u w) (vlen2 n)) (vscale n (vdot n (vcross u w))) = vcross n (vsub (vscale w (vdot n u)) (vscale u (vdot n w)))) by vring.
  rewrite N, U, W in E.
  assert (Z : vcross n (vsub (vscale w 0) (vscale u 0)) = vzero) by (unfold vzero; vring). rewrite Z in E.
  set (k := vdot n (vcross u w)) in *. set (c := vcross u w) in *. clearbody k c. clear - E. unfold vzero in E. destruct c, n. unfold vsub, vscale in *. cbn in *. injection E as E1 E2 E3. f_equal; lra.
Qed.
Lemma flat_psum n l : vlen2 n = 1 -> (forall v, In v l -> vdot n v = 0) -> psum l = vscale n (vdot n (psum l)).
Proof.
  intros N. induction l as [|x l IH]; intros H; [cbn; unfold vzero; vring|]. destruct l as [|y l]; [cbn; unfold vzero; vring|].
  rewrite psum_cons. rewrite IH at 1 by (intros v I; apply H; now right). rewrite (flat_cross n x y N) at 1; [|apply H; now left|apply H; right; now left].
  set (a := vcross x y). set (b := psum (y :: l)). clearbody a b. vring.
Qed.
(** For an exactly flat loop it is the length of the vector area: the area of the polygon. *)
Theorem C64_flat : forall l l', close l = (Ok tt, l') -> vlen2 (ln l') = 1 ->
  (forall v, In v (lv l') -> vdot (ln l') (vsub v (nth 0 (lv l') vzero)) = 0) ->
  larea l' = vlen (area2 (lv l')) / 2 /\ area2 (lv l') = vscale (ln l') (2 * larea l').
Proof.
  intros l l' H U F. apply close_spec in H as (_ & _ & L & _ & A & P & _).
  set (w := vneg (nth 0 (lv l') vzero)).
  assert (E : area2 (lv l') = vscale (ln l') (vdot (ln l') (area2 (lv l')))).
  { rewrite <- (area2_shift w). unfold area2. destruct (lv l') as [|x r] eqn:W; [cbn in L; lia|]. cbn [map]. apply (flat_psum _ _ U).
    intros v I. assert (I' : exists u, In u (x :: r) /\ v = vadd u w).
    { cbn in I. destruct I as [<-|I]; [exists x; split; [now left|reflexivity]|]. apply in_app_or in I as [I|[<-|[]]]; [|exists x; split; [now left|reflexivity]].
      apply in_map_iff in I as (u & <- & I). exists u. split; [now right|reflexivity]. }
    destruct I' as (u & Iu & ->). rewrite <- (F u Iu). unfold w. set (q := nth 0 (x :: r) vzero). clearbody q. vring. }
  set (k := vdot (ln l') (area2 (lv l'))) in *. split.
  - rewrite E. unfold vlen. replace (vlen2 (vscale (ln l') k)) with (k * k * vlen2 (ln l')) by vring. rewrite U, Rmult_1_r, sqrt_square by lra. exact A.
  - rewrite E at 1. f_equal. lra.
Qed.

(** ** C31: merging holes *)

(** The conditions: holes have vertices, all distances are finite, vertices of different loops and successive vertices of a loop
    are told apart (more than a millimetre), and a hole with the same direction as the outline has a number of vertices that
    divides 2^64. *)
Definition mergeable (g : Polygon) : Prop :=
  lv (outer g) <> [] /\ steps_apart (lv (outer g)) /\
  (forall h, In h (inner g) -> cyclic_apart (lv h) /\ walkable (vis_same_direction (ln (outer g)) (ln h)) (lv h) /\
     far_from (lv (outer g)) (lv h) /\ near_enough (lv (outer g)) (lv h)) /\
  (forall i j, (i < length (inner g))%nat -> (j < length (inner g))%nat -> i <> j ->
     far_from (lv (nth i (inner g) loop_new)) (lv (nth j (inner g) loop_new)) /\ near_enough (lv (nth i (inner g) loop_new)) (lv (nth j (inner g) loop_new))).

Lemma seq_map_self {A} (l : list A) d : map (fun k => nth k l d) (seq 0 (length l)) = l.
Proof. induction l as [|a l IH]; [reflexivity|]. cbn. f_equal. rewrite <- seq_shift, map_map. exact IH. Qed.

(** The outline is the outer loop into which the holes are inserted one after the other, each at some vertex, walked from one of its
    vertices all around back to it (see [merge_one]): in the direction opposite to the outer loop's. *)
Theorem C31_merge_partial : forall g l, mergeable g -> get_closed_loop g = Ok l ->
  exists order, Permutation order (inner g) /\ merges (fun h => vis_same_direction (ln (outer g)) (ln h)) order (lv (outer g)) (lv l).
Proof.
  intros g l (N & S & H1 & H2) E. unfold get_closed_loop in E.
  apply (merge_holes_spec (ln (outer g)) (inner g)) in E.
  - destruct E as (order & Pm & M). cbn [app lv l_open] in *. exists (map (fun k => nth k (inner g) loop_new) order). split; [|exact M].
    pose proof (Permutation_map (fun k => nth k (inner g) loop_new) Pm) as Q. now rewrite seq_map_self in Q.
  - intros h I. destruct (H1 h I) as (A & B & _). auto.
  - exact H2.
  - cbn. lia.
  - constructor.
  - intros k [].
  - exact N.
  - exact S.
  - intros k K _. destruct (H1 _ (nth_In _ loop_new K)) as (_ & _ & A & B). auto.
Qed.
(** So it has all the vertices of the polygon and no others, two more for each hole *)
Theorem C31_vertices : forall g l, mergeable g -> get_closed_loop g = Ok l ->
  (forall p, In p (lv l) <-> In p (lv (outer g)) \/ exists h, In h (inner g) /\ In p (lv h)) /\
  length (lv l) = (length (lv (outer g)) + list_sum (map (fun h => length (lv h) + 2) (inner g)))%nat.
Proof.
  intros g l M E. destruct (C31_merge_partial g l M E) as (order & Pm & Ms). split.
  - intros p. rewrite (merges_in _ _ _ _ _ Ms). split; (intros [|(h & I & Q)]; [auto|right; exists h; split; [|exact Q]]).
    + eapply Permutation_in; eassumption.
    + eapply Permutation_in; [symmetry|]; eassumption.
  - rewrite (merges_length _ _ _ _ Ms). f_equal. set (f := fun h => (length (lv h) + 2)%nat). clearbody f. clear - Pm. induction Pm; cbn; unfold list_sum in *; cbn; lia.
Qed.
Lemma fold_vadd_perm (f : Loop -> pt) l1 l2 : Permutation l1 l2 -> forall a, fold_left (fun a h => vadd a (f h)) l1 a = fold_left (fun a h => vadd a (f h)) l2 a.
Proof.
  induction 1; intros a; cbn [fold_left]; auto.
  - f_equal. rewrite !vadd_assoc. f_equal. apply vadd_comm.
  - now rewrite IHPermutation1.
Qed.
(** and its vector area is that of the outer loop plus that of the holes, each taken in the direction in which it is walked. *)
Theorem C31_vector_area : forall g l, mergeable g -> get_closed_loop g = Ok l ->
  area2 (lv l) = fold_left (fun a h => vadd a (if vis_same_direction (ln (outer g)) (ln h) then vneg (area2 (lv h)) else area2 (lv h))) (inner g) (area2 (lv (outer g))).
Proof.
  intros g l M E. destruct (C31_merge_partial g l M E) as (order & Pm & Ms). rewrite (merges_area _ _ _ _ Ms). apply fold_vadd_perm. exact Pm.
Qed.

(** For holes with exactly the outer loop's normal or its opposite: the outer area minus the areas of the holes, the area the polygon reports. *)
Definition consistent (l : Loop) : Prop := larea l = vdot (ln l) (area2 (lv l)) / 2.
Lemma fold_dot n f hs a : vdot n (fold_left (fun a h => vadd a (f h)) hs a) = fold_left (fun (x : R) (h : Loop) => x + vdot n (f h)) hs (vdot n a).
Proof.
  revert a; induction hs as [|h hs IH]; intros a; cbn [fold_left]; [reflexivity|]. rewrite IH. f_equal. set (b := f h). clearbody b. vring.
Qed.
Lemma same_dir_self n : vlen2 n = 1 -> vis_same_direction n n = true /\ vis_same_direction n (vneg n) = false.
Proof.
  intros U. assert (Z : vis_zero n = false) by now apply vis_zero_unit.
  unfold vis_same_direction. split.
  - unfold vis_parallel. rewrite Z. cbn [orb]. replace (vdot n n * vdot n n - vlen2 n * vlen2 n) with 0 by (change (vdot n n) with (vlen2 n); ring).
    rewrite Rabs_R0, (proj2 (Rltb_true 0 _)) by (apply Rdiv_lt_0_compat; [lra|apply pow_lt; lra]). cbn [negb]. apply Rltb_true. change (vdot n n) with (vlen2 n). lra.
  - destruct (negb (vis_parallel n (vneg n))); [reflexivity|]. apply Rltb_false. replace (vdot n (vneg n)) with (- vlen2 n) by vring. lra.
Qed.
Theorem C31_area : forall g l, mergeable g -> get_closed_loop g = Ok l -> vlen2 (ln (outer g)) = 1 -> consistent (outer g) ->
  (forall h, In h (inner g) -> consistent h /\ (ln h = ln (outer g) \/ ln h = vneg (ln (outer g)))) ->
  vdot (ln (outer g)) (area2 (lv l)) / 2 = fold_left (fun x h => x - larea h) (inner g) (larea (outer g)).
Proof.
  intros g l M E U Co Ch. rewrite (C31_vector_area g l M E), fold_dot. rewrite Co.
  destruct (same_dir_self _ U) as (S1 & S2).
  set (n := ln (outer g)) in *. generalize (vdot n (area2 (lv (outer g)))). clear M E Co. revert Ch. generalize (inner g). intros hs.
  induction hs as [|h hs IH]; intros Ch x; cbn [fold_left]; [reflexivity|].
  destruct (Ch h (or_introl eq_refl)) as (C & D).
  rewrite IH by (intros h' I; apply Ch; now right). f_equal. rewrite C.
  destruct D as [D|D]; rewrite D; [rewrite S1|rewrite S2]; set (a := area2 (lv h)); clearbody a.
  - replace (vdot n (vneg a)) with (- vdot n a) by vring. lra.
  - replace (vdot (vneg n) a) with (- vdot n a) by vring. lra.
Qed.

(** ** Examples: a 6 x 6 square with a 1 x 1 hole *)
Opaque IZR Rdiv Rminus Rplus Rmult Ropp Rabs sqrt pow Rinv.
Definition Up : pt := mkV 0 0 1.
Definition LL (vs : list pt) (n : pt) : Loop := mkLoop vs n false (-1) (-1).

Fixpoint pushes (l : Loop) (ps : list pt) : res Loop := match ps with [] => Ok l | p :: ps' => do l' <- push l p; pushes l' ps' end.
Lemma pushes_cons l l' p ps r : push l p = Ok l' -> pushes l' ps = r -> pushes l (p :: ps) = r.
Proof. intros H <-. cbn. now rewrite H. Qed.
Lemma pushes_built l ps l' : built l -> pushes l ps = Ok l' -> built l'.
Proof.
  revert l; induction ps as [|p ps IH]; cbn [pushes]; intros l B E; [injection E as <-; exact B|].
  destruct (push l p) as [x| |] eqn:P; cbn in E; try discriminate. eapply IH; [|exact E]. eapply built_push; eassumption.
Qed.
(** the point (3,0), in the middle of an edge, disappears *)
Example C34_example_pushes : pushes loop_new [P2 0 0; P2 3 0; P2 6 0; P2 6 6; P2 0 6] = Ok (LL [P2 0 0; P2 6 0; P2 6 6; P2 0 6] Up).
Proof.
  eapply pushes_cons with (l' := LL [P2 0 0] vzero); [rrun|].
  eapply pushes_cons with (l' := LL [P2 0 0; P2 3 0] vzero); [rrun|].
  eapply pushes_cons with (l' := LL [P2 0 0; P2 6 0] vzero); [rrun|].
  eapply pushes_cons with (l' := LL [P2 0 0; P2 6 0; P2 6 6] Up); [rrun|].
  eapply pushes_cons with (l' := LL [P2 0 0; P2 6 0; P2 6 6; P2 0 6] Up); [rrun|].
  reflexivity.
Qed.
Example C34_example_flat : built (LL [P2 0 0; P2 6 0; P2 6 6; P2 0 6] Up).
Proof. eapply pushes_built; [constructor|apply C34_example_pushes]. Qed.
(** a point out of the plane is refused *)
Example C34_example_refused : push (LL [P2 0 0; P2 6 0; P2 6 6; P2 0 6] Up) (mkV 1 1 1) = Err.
Proof. rrun. Qed.
Definition square : Loop := mkLoop [P2 0 0; P2 6 0; P2 6 6; P2 0 6] Up true 36 24.
Example C34_example_close : close (LL [P2 0 0; P2 6 0; P2 6 6; P2 0 6] Up) = (Ok tt, square).
Proof. rrun. Qed.
(** a first and a last vertex in the middle of edges are dropped *)
Example C34_example_close_drops : close (LL [P2 3 0; P2 6 0; P2 6 6; P2 0 6; P2 0 0] Up) = (Ok tt, mkLoop [P2 6 0; P2 6 6; P2 0 6; P2 0 0] Up true 36 24).
Proof. rrun. Qed.
(** clockwise: the normal is turned *)
Example C64_example : close (LL [P2 0 6; P2 6 6; P2 6 0; P2 0 0] (mkV 0 0 1)) = (Ok tt, mkLoop [P2 0 6; P2 6 6; P2 6 0; P2 0 0] (mkV 0 0 (-1)) true 36 24).
Proof. rrun. Qed.
Example C64_example_flat : vlen2 (ln square) = 1 /\ forall v, In v (lv square) -> vdot (ln square) (vsub v (nth 0 (lv square) vzero)) = 0.
Proof. split; [rcalc|]. intros v H. cbn [square lv In] in H. destruct H as [<-|[<-|[<-|[<-|[]]]]]; rcalc. Qed.

(** The vertex that is dropped need not be in the middle of the straight run: of a spike only the foot is left. *)
Theorem C34_middle_refuted : exists a b c l, pushes loop_new [a; b; c] = Ok l /\ lv l = [a; c] /\ vdot (vsub b a) (vsub c b) < 0 /\ compare b c = false.
Proof.
  exists (P2 0 0), (P2 2 0), (P2 1 0), (LL [P2 0 0; P2 1 0] vzero). split; [|split; [reflexivity|split; [rcalc|rrun]]].
  eapply pushes_cons with (l' := LL [P2 0 0] vzero); [rrun|].
  eapply pushes_cons with (l' := LL [P2 0 0; P2 2 0] vzero); [rrun|].
  eapply pushes_cons with (l' := LL [P2 0 0; P2 1 0] vzero); [rrun|]. reflexivity.
Qed.
(** A failed close may leave the loop marked as closed, with vertices removed. *)
Theorem C34_failed_close_refuted : exists ps l l', pushes loop_new ps = Ok l /\ lclosed l = false /\ close l = (Err, l') /\
  lclosed l' = true /\ (length (lv l') < length (lv l))%nat /\ forall p, push l' p = Err.
Proof.
  exists [P2 0 0; P2 1 0; P2 1 1; P2 1 0], (LL [P2 0 0; P2 1 0; P2 1 0] Up), (mkLoop [P2 1 0] Up true (-1) (-1)).
  split; [|split; [reflexivity|split; [rrun|split; [reflexivity|split; [cbn; lia|intros p; now apply push_closed]]]]].
  eapply pushes_cons with (l' := LL [P2 0 0] vzero); [rrun|].
  eapply pushes_cons with (l' := LL [P2 0 0; P2 1 0] vzero); [rrun|].
  eapply pushes_cons with (l' := LL [P2 0 0; P2 1 0; P2 1 1] Up); [rrun|].
  eapply pushes_cons with (l' := LL [P2 0 0; P2 1 0; P2 1 0] Up); [rrun|]. reflexivity.
Qed.

Definition outer3 : Loop := mkLoop [P2 0 0; P2 8 0; P2 0 6] Up true 24 24.
(** evaluation of [l_test_point] step by step *)
Lemma cross_step l d point ray i is n n' r :
  let ab := mkS (nth i (lv l) vzero) (nth ((i + 1) mod length (lv l)) (lv l) vzero) in
  contains_point ab point = Ok false ->
  match get_intersection_pt ab ray with
        | Some (t_a, t_b) =>
            if (Rleb 0 t_b && Rleb t_b 1) && (Rleb 0 t_a && Rleb t_a 1) then
              if Rltb t_a eps64 then
                if vis_same_direction (vcross d (vsub (s_end ab) (s_start ab))) (ln l) then S n else n
              else if Rltb t_a 1 then S n
              else if vis_same_direction (vcross d (vsub (s_start ab) (s_end ab))) (ln l) then S n else n
            else n
        | None => n
        end = n' ->
  count_crossings l d point ray is n' = r -> count_crossings l d point ray (i :: is) n = r.
Proof. intros ab C H <-. cbn [count_crossings]. fold ab. rewrite C. cbn [bind]. now rewrite H. Qed.
Ltac nfin := repeat rstep; reflexivity.
Lemma test_point_steps l point n : lclosed l = true -> l_is_coplanar l point = Ok true ->
  count_crossings l (vscale (vsub point (vscale (vadd (nth 0 (lv l) vzero) (nth 1 (lv l) vzero)) (1 / 2))) 1000) point
    (mkS point (vadd point (vscale (vsub point (vscale (vadd (nth 0 (lv l) vzero) (nth 1 (lv l) vzero)) (1 / 2))) 1000))) (seq 0 (length (lv l))) 0 = Ok (inr n) ->
  l_test_point l point = Ok (negb (n =? 0)%nat && negb (n mod 2 =? 0)%nat).
Proof. intros C P E. unfold l_test_point. rewrite C, P. cbn [negb bind]. rewrite E. reflexivity. Qed.
Ltac crossings := repeat (eapply cross_step; [nfin|nfin|]); reflexivity.
Ltac rtest := lazymatch goal with |- l_test_point ?l ?p = Ok _ =>
  etransitivity; [eapply test_point_steps; [reflexivity|nfin|cbn [lv length seq square outer3]; crossings]|reflexivity] end.
(** *** The square with a hole *)
Definition hole4 : Loop := mkLoop [P2 1 1; P2 2 1; P2 2 2; P2 1 2] Up true 1 4.
Example hole4_closed : close (LL [P2 1 1; P2 2 1; P2 2 2; P2 1 2] Up) = (Ok tt, hole4).
Proof. rrun. Qed.
Definition holed : Polygon := mkPoly square [hole4] 35 Up.
Example holed_cut : cut_hole (mkPoly square [] 36 Up) hole4 = Ok holed.
Proof.
  assert (T1 : l_test_point square (P2 1 1) = Ok true) by rtest.
  assert (T2 : l_test_point square (P2 2 1) = Ok true) by rtest.
  assert (T3 : l_test_point square (P2 2 2) = Ok true) by rtest.
  assert (T4 : l_test_point square (P2 1 2) = Ok true) by rtest.
  unfold cut_hole, poly_test_point. cbn [hole4 lv check_all outer inner pg_normal ln p_area concat map].
  rewrite T1, T2, T3, T4. cbn [bind negb outside_all eqb]. rrun.
Qed.
Ltac each_in H := cbn [square hole4 lv In] in H; repeat (destruct H as [<-|H]); [..|destruct H].
Example C31_example_mergeable : mergeable holed.
Proof.
  split; [discriminate|]. split; [cbn [steps_apart square outer holed lv]; repeat split; rrun|]. split.
  - intros h [<-|[]]. split; [cbn [cyclic_apart hole4 lv app steps_apart]; repeat split; rrun|]. split; [split; [discriminate|split; [cbn; lia|reflexivity]]|].
    split; intros x y Hx Hy; each_in Hx; each_in Hy; first [rrun|rcalc].
  - intros i j Hi Hj N. cbn in *. lia.
Qed.
Lemma push_all_cons a a' p ps r : push_collinear a p false = Ok a' -> push_all a' ps = r -> push_all a (p :: ps) = r.
Proof. intros H <-. cbn. now rewrite H. Qed.
Lemma up_up : vis_same_direction Up Up = true. Proof. rrun. Qed.
Example C31_example : get_closed_loop holed =
  Ok (LL [P2 0 0; P2 1 1; P2 1 2; P2 2 2; P2 2 1; P2 1 1; P2 0 0; P2 6 0; P2 6 6; P2 0 6] Up).
Proof.
  unfold get_closed_loop. cbn [inner holed length merge_holes outer lv l_open square ln].
  assert (E : exists d, closest [P2 0 0; P2 6 0; P2 6 6; P2 0 6] [hole4] [] (float_max, 0%nat, 0%nat, 0%nat) = (d, 0%nat, 0%nat, 0%nat)).
  { eexists. repeat rstep. reflexivity. }
  destruct E as (d & ->). replace (if Rltb d float_max then 0%nat else 0%nat) with 0%nat by (destruct (Rltb d float_max); reflexivity).
  cbn [nth hole4 ln]. rewrite up_up.
  replace (round_points _ _ _ _ _) with [P2 0 0; P2 1 1; P2 1 2; P2 2 2; P2 2 1; P2 1 1; P2 0 0; P2 6 0; P2 6 6; P2 0 6] by (vm_compute; reflexivity).
  match goal with |- bind ?x _ = ?r => enough (E : x = r) by (rewrite E; reflexivity) end.
  eapply push_all_cons with (a' := LL [P2 0 0] vzero); [rrun|].
  eapply push_all_cons with (a' := LL [P2 0 0; P2 1 1] vzero); [rrun|].
  eapply push_all_cons with (a' := LL [P2 0 0; P2 1 1; P2 1 2] Up); [rrun|].
  eapply push_all_cons with (a' := LL [P2 0 0; P2 1 1; P2 1 2; P2 2 2] Up); [rrun|].
  eapply push_all_cons with (a' := LL [P2 0 0; P2 1 1; P2 1 2; P2 2 2; P2 2 1] Up); [rrun|].
  eapply push_all_cons with (a' := LL [P2 0 0; P2 1 1; P2 1 2; P2 2 2; P2 2 1; P2 1 1] Up); [rrun|].
  eapply push_all_cons with (a' := LL [P2 0 0; P2 1 1; P2 1 2; P2 2 2; P2 2 1; P2 1 1; P2 0 0] Up); [rrun|].
  eapply push_all_cons with (a' := LL [P2 0 0; P2 1 1; P2 1 2; P2 2 2; P2 2 1; P2 1 1; P2 0 0; P2 6 0] Up); [rrun|].
  eapply push_all_cons with (a' := LL [P2 0 0; P2 1 1; P2 1 2; P2 2 2; P2 2 1; P2 1 1; P2 0 0; P2 6 0; P2 6 6] Up); [rrun|].
  eapply push_all_cons with (a' := LL [P2 0 0; P2 1 1; P2 1 2; P2 2 2; P2 2 1; P2 1 1; P2 0 0; P2 6 0; P2 6 6; P2 0 6] Up); [rrun|].
  reflexivity.
Qed.
Example C31_example_area : vdot Up (area2 [P2 0 0; P2 1 1; P2 1 2; P2 2 2; P2 2 1; P2 1 1; P2 0 0; P2 6 0; P2 6 6; P2 0 6]) / 2 = 35.
Proof.
  pose proof (C31_area holed _ C31_example_mergeable C31_example) as A. cbn [outer holed square ln lv LL inner fold_left] in A.
  rewrite A; [rcalc|rcalc|unfold consistent; rcalc|].
  intros h [<-|[]]. split; [unfold consistent; rcalc|left; reflexivity].
Qed.

(** *** A triangular hole wound like the outline is walked wrongly: -1 becomes 2^64 - 1, which is 0 and not 2 modulo 3 *)
Definition hole3 : Loop := mkLoop [P2 1 1; P2 2 1; P2 1 (7 / 4)] Up true (3 / 8) 3.
Example outer3_closed : close (LL [P2 0 0; P2 8 0; P2 0 6] Up) = (Ok tt, outer3).
Proof. rrun. Qed.
Example hole3_closed : close (LL [P2 1 1; P2 2 1; P2 1 (7 / 4)] Up) = (Ok tt, hole3).
Proof. rrun. Qed.
Definition holed3 : Polygon := mkPoly outer3 [hole3] (24 - 3 / 8) Up.
Example holed3_cut : cut_hole (mkPoly outer3 [] 24 Up) hole3 = Ok holed3.
Proof.
  assert (T1 : l_test_point outer3 (P2 1 1) = Ok true) by rtest.
  assert (T2 : l_test_point outer3 (P2 2 1) = Ok true) by rtest.
  assert (T3 : l_test_point outer3 (P2 1 (7 / 4)) = Ok true) by rtest.
  unfold cut_hole, poly_test_point. cbn [hole3 lv check_all outer inner pg_normal ln p_area concat map].
  rewrite T1, T2, T3. cbn [bind negb outside_all eqb]. rrun.
Qed.
Definition merged3 : Loop := LL [P2 0 0; P2 1 1; P2 1 (7 / 4); P2 2 1; P2 0 0; P2 8 0; P2 0 6] Up.
Example holed3_merged : get_closed_loop holed3 = Ok merged3.
Proof.
  unfold get_closed_loop. cbn [inner holed3 length merge_holes outer lv l_open outer3 ln].
  assert (E : exists d, closest [P2 0 0; P2 8 0; P2 0 6] [hole3] [] (float_max, 0%nat, 0%nat, 0%nat) = (d, 0%nat, 0%nat, 0%nat)).
  { eexists. repeat rstep. reflexivity. }
  destruct E as (d & ->). replace (if Rltb d float_max then 0%nat else 0%nat) with 0%nat by (destruct (Rltb d float_max); reflexivity).
  cbn [nth hole3 ln]. rewrite up_up.
  replace (round_points _ _ _ _ _) with [P2 0 0; P2 1 1; P2 1 1; P2 1 (7 / 4); P2 2 1; P2 0 0; P2 8 0; P2 0 6] by (vm_compute; reflexivity).
  match goal with |- bind ?x _ = ?r => enough (E : x = r) by (rewrite E; reflexivity) end.
  eapply push_all_cons with (a' := LL [P2 0 0] vzero); [rrun|].
  eapply push_all_cons with (a' := LL [P2 0 0; P2 1 1] vzero); [rrun|].
  eapply push_all_cons with (a' := LL [P2 0 0; P2 1 1] vzero); [rrun|].
  eapply push_all_cons with (a' := LL [P2 0 0; P2 1 1; P2 1 (7 / 4)] Up); [rrun|].
  eapply push_all_cons with (a' := LL [P2 0 0; P2 1 1; P2 1 (7 / 4); P2 2 1] Up); [rrun|].
  eapply push_all_cons with (a' := LL [P2 0 0; P2 1 1; P2 1 (7 / 4); P2 2 1; P2 0 0] Up); [rrun|].
  eapply push_all_cons with (a' := LL [P2 0 0; P2 1 1; P2 1 (7 / 4); P2 2 1; P2 0 0; P2 8 0] Up); [rrun|].
  eapply push_all_cons with (a' := merged3); [rrun|]. reflexivity.
Qed.
Lemma merges_even back hs r r' : merges back hs r r' -> Forall (fun h => length (lv h) = 3%nat) hs -> exists k, length r' = (length r + 5 * k)%nat.
Proof.
  intros M F. rewrite (merges_length _ _ _ _ M). exists (length hs). f_equal. clear M. induction F as [|h hs H F IH]; cbn; [reflexivity|]. rewrite H. unfold list_sum in *. cbn in *. lia.
Qed.
Theorem C31_triangle_refuted : exists g l, cut_hole (mkPoly outer3 [] 24 Up) hole3 = Ok g /\ get_closed_loop g = Ok l /\
  vdot Up (area2 (lv l)) / 2 <> larea outer3 - larea hole3 /\
  ~ exists order, Permutation order (inner g) /\ merges (fun h => vis_same_direction Up (ln h)) order (lv outer3) (lv l).
Proof.
  exists holed3, merged3. split; [exact holed3_cut|]. split; [exact holed3_merged|]. split.
  - assert (A : vdot Up (area2 (lv merged3)) / 2 = 185 / 8) by rcalc.
    rewrite A. cbn [larea outer3 hole3]. apply Rlt_not_eq. rcalc.
  - intros (o & Pm & M). apply merges_even in M as (k & L).
    + cbn in L. lia.
    + apply Permutation_sym in Pm. assert (forall h, In h o -> length (lv h) = 3%nat).
      { intros h I. eapply Permutation_in in I; [|symmetry; exact Pm]. cbn in I. destruct I as [<-|[]]. reflexivity. }
      now apply Forall_forall.
Qed.

(** C119: loops and polygons in model files, in exact arithmetic *)
From Coq Require Import Reals List Bool Lra Lia Psatz.
From Verif.Common Require Import Base Flt REval.
From Verif.Geometry Require Import Vec TriangleModel LoopModel GeomProofs TriangleProofs LoopProofs MeshProofs MergeProofs SplitModel SplitProofs ConvexProofs LoopFileModel.
From Verif.Properties Require Import LoopProps.
Import ListNotations.
Open Scope R_scope.

(** the points of a file one after the other *)
Fixpoint put (l : Loop) (ps : list pt) : res Loop := match ps with [] => Ok l | p :: ps' => do l' <- push_collinear l p false; put l' ps' end.
Lemma read_write l ps : read_points l (write_points ps) = put l ps.
Proof. revert l; induction ps as [|[x y z] ps IH]; intros l; [reflexivity|]. cbn [write_points flat_map app vx vy vz read_points put]. destruct (push_collinear l _ false) as [l'| |]; cbn [bind]; [apply IH|reflexivity|reflexivity]. Qed.
Lemma read_inv : forall a l l', read_points l a = Ok l' -> exists ps, a = write_points ps /\ put l ps = Ok l'.
Proof.
  fix IH 1. intros [|[x|] [|[y|] [|[z|] a]]] l l' E; cbn [read_points] in E; try discriminate.
  - exists []. split; [reflexivity|exact E].
  - destruct (push_collinear l (mkV x y z) false) as [l1| |] eqn:P; cbn [bind] in E; try discriminate. destruct (IH a l1 l' E) as (ps & -> & Q).
    exists (mkV x y z :: ps). split; [reflexivity|]. cbn [put]. rewrite P. exact Q.
Qed.
Lemma put_app ps qs : forall l, put l (ps ++ qs) = bind (put l ps) (fun l' => put l' qs).
Proof. induction ps as [|p ps IH]; intros l; [reflexivity|]. cbn [app put]. destruct (push_collinear l p false); cbn [bind]; auto. Qed.
Lemma put_all l ps l' : push_all l ps = Ok l' <-> put l ps = Ok l'.
Proof.
  revert l; induction ps as [|p ps IH]; intros l; cbn [push_all put]; [tauto|]. destruct (push_collinear l p false) as [l1| |]; cbn [bind]; [apply IH| |]; split; discriminate.
Qed.
Lemma put_incl ps : forall l l', put l ps = Ok l' -> incl (lv l') (lv l ++ ps) /\ (length (lv l') <= length (lv l) + length ps)%nat.
Proof.
  induction ps as [|p ps IH]; intros l l' E; cbn [put] in E.
  - injection E as <-. rewrite app_nil_r. split; [apply incl_refl|lia].
  - destruct (push_collinear l p false) as [l1| |] eqn:P; cbn [bind] in E; try discriminate.
    apply push_vertices in P as (_ & _ & _ & _ & [(-> & _)|[(V & _)|(_ & _ & _ & _ & _ & X & _)]]); [| |discriminate]; destruct (IH _ _ E) as (I & N).
    + split; [|cbn; lia]. intros x X. apply I in X. apply in_app_or in X as [X|X]; apply in_or_app; cbn; auto.
    + rewrite V in I, N. split; [|rewrite app_length in N; cbn in *; lia]. intros x X. apply I in X. rewrite <- app_assoc in X. exact X.
Qed.
(** ** What was kept can be put again, with the same result *)
Lemma put_again ps : forall l l', put loop_new (lv l) = Ok l -> put l ps = Ok l' -> put loop_new (lv l') = Ok l'.
Proof.
  induction ps as [|p ps IH]; intros l l' A E; cbn [put] in E; [injection E as <-; exact A|].
  destruct (push_collinear l p false) as [l1| |] eqn:P; cbn [bind] in E; try discriminate. apply (IH l1); [|exact E]. assert (Q := P).
  apply push_vertices in P as (_ & _ & _ & _ & [(-> & _)|[(V & _)|(_ & _ & _ & _ & _ & X & _)]]); [exact A| |discriminate].
  rewrite V, put_app, A. cbn [bind put]. rewrite Q. reflexivity.
Qed.
Lemma put_all_kept ps : forall l l', steps_apart (match rev (lv l) with x :: _ => x :: ps | [] => ps end) -> put l ps = Ok l' -> lv l' = lv l ++ ps.
Proof.
  induction ps as [|p ps IH]; intros l l' S E; cbn [put] in E; [injection E as <-; now rewrite app_nil_r|].
  destruct (push_collinear l p false) as [l1| |] eqn:P; cbn [bind] in E; try discriminate.
  apply push_vertices in P as (_ & _ & _ & _ & [(-> & N & C)|[(V & _)|(_ & _ & _ & _ & _ & X & _)]]); [exfalso| |discriminate].
  - destruct (rev (lv l)) as [|x r] eqn:R; [apply (f_equal (@rev pt)) in R; rewrite rev_involutive in R; contradiction|].
    assert (L : last (lv l) vzero = x) by (rewrite <- (rev_involutive (lv l)), R; cbn [rev]; apply last_last). rewrite L in C. destruct S as (S & _). congruence.
  - rewrite (IH l1 l'); [rewrite V, <- app_assoc; reflexivity| |exact E]. rewrite V, rev_app_distr. cbn [rev app]. destruct (rev (lv l)); [exact S|apply S].
Qed.

(** ** Reading: only whole triples of numbers make a loop, and it has no other corners than those of the file *)
Theorem C119_read d l : read_loop d = Ok l -> exists ps, d = JArray (write_points ps) /\ lclosed l = true /\ (3 <= length (lv l) <= length ps)%nat /\ incl (lv l) ps.
Proof.
  unfold read_loop. destruct d as [a|]; cbn [bind].
  - destruct (read_points loop_new a) as [l0| |] eqn:R; cbn [bind]; try discriminate. intros E. destruct (read_inv _ _ _ R) as (ps & -> & P). exists ps. split; [reflexivity|].
    destruct (put_incl _ _ _ P) as (I & N). cbn [loop_new lv app length] in I, N. unfold closed_loop in E. destruct (close l0) as [[[]| |] l1] eqn:C; try discriminate. injection E as <-.
    apply close_spec in C as (_ & C & L & (pre & suf & V & _) & _). split; [exact C|]. rewrite V, !app_length in N. split; [lia|].
    intros x X. apply I. rewrite V. apply in_or_app; right. apply in_or_app. now left.
  - discriminate.
Qed.
(** ** Reading what was written gives the same loop when closing left out no corner *)
Theorem C119_again ps l : read_loop (JArray (write_points ps)) = Ok l -> (forall l0, put loop_new ps = Ok l0 -> length (lv l) = length (lv l0)) -> read_loop (write_loop l) = Ok l.
Proof.
  unfold read_loop, write_loop. cbn [bind]. rewrite !read_write. destruct (put loop_new ps) as [l0| |] eqn:P; cbn [bind]; try discriminate. intros E N. specialize (N l0 eq_refl).
  pose proof (put_again ps loop_new l0 eq_refl P) as A. assert (V : lv l = lv l0).
  { unfold closed_loop in E. destruct (close l0) as [[[]| |] l1] eqn:C; try discriminate. injection E as <-. apply close_spec in C as (_ & _ & _ & (pre & suf & V & _) & _).
    rewrite V, !app_length in N. destruct pre; [|cbn in N; lia]. destruct suf; [|cbn in N; lia]. rewrite app_nil_r in V. now symmetry. }
  rewrite V, A. cbn [bind]. exact E.
Qed.

(** ** The area of what is read *)
Lemma put_along_1 u l p l' : vlen2 u = 1 -> flat u (lv l ++ [p]) -> along u (ln l) -> push_collinear l p false = Ok l' -> along u (ln l').
Proof.
  intros U F A E. assert (E0 := E). apply push_vertices in E0 as (_ & _ & _ & _ & V).
  assert (F' : flat u (lv l')).
  { intros x y X Y. assert (I : forall z, In z (lv l') -> In z (lv l ++ [p])).
    { intros z Z. destruct V as [(-> & _)|[(W & _)|(_ & _ & _ & _ & _ & W & _)]]; [apply in_or_app; now left|now rewrite <- W|discriminate]. }
    apply F; auto. }
  unfold push_collinear in E. destruct (valid_to_add l p); cbn [bind] in E; try discriminate. cbv zeta in E.
  destruct (match rev (lv l) with [] => false | x :: _ => compare x p end); [injection E as <-; exact A|].
  match type of E with bind ?x _ = _ => destruct x as [vs| |] eqn:VS; cbn [bind] in E; try discriminate end.
  destruct (3 <=? length vs)%nat; [|injection E as <-; exact A].
  apply (set_normal_along u (with_vertices l vs) l'); [exact U| |exact A|exact E].
  assert (W : lv l' = vs). { revert E. unfold set_normal. cbn [with_vertices lv ln]. destruct (Rltb _ _); [intros E; injection E as <-; reflexivity|].
    destruct vs as [|va [|vb [|vc cs]]]; try discriminate. destruct (find_normal _ _ _ _); cbn [bind]; try discriminate. intros E. injection E as <-. reflexivity. }
  cbn [with_vertices lv]. now rewrite <- W.
Qed.
Lemma put_along u ps : vlen2 u = 1 -> forall l l', flat u (lv l ++ ps) -> along u (ln l) -> put l ps = Ok l' -> along u (ln l').
Proof.
  intros U. induction ps as [|p ps IH]; intros l l' F A E; cbn [put] in E; [injection E as <-; exact A|].
  destruct (push_collinear l p false) as [l1| |] eqn:P; cbn [bind] in E; try discriminate.
  assert (I : incl (lv l1) (lv l ++ [p])).
  { apply push_vertices in P as (_ & _ & _ & _ & [(-> & _)|[(-> & _)|(_ & _ & _ & _ & _ & W & _)]]); [apply incl_appl, incl_refl|apply incl_refl|discriminate]. }
  apply (IH l1); [|apply (put_along_1 u l p); auto|exact E].
  - intros x y X Y. assert (H : forall z, In z (lv l1 ++ ps) -> In z (lv l ++ p :: ps)).
    { intros z Z. apply in_app_or in Z as [Z|Z]; [apply I in Z; apply in_app_or in Z as [Z|[<-|[]]]|]; apply in_or_app; cbn; auto. }
    apply F; auto.
  - intros x y X Y. assert (H : forall z, In z (lv l ++ [p]) -> In z (lv l ++ p :: ps)) by (intros z Z; apply in_app_or in Z as [Z|[<-|[]]]; apply in_or_app; cbn; auto). apply F; auto.
Qed.
Lemma closed_area u l l' : along u (ln l) -> close l = (Ok tt, l') -> larea l' = Rabs (vdot u (area2 (lv l'))) / 2.
Proof.
  intros A C. pose proof (close_nonzero _ _ C) as NZ. apply close_spec in C as (_ & _ & _ & _ & AR & AP & ND & _).
  assert (A' : ln l' = u \/ ln l' = vscale u (-1)).
  { destruct ND as [E|E]; rewrite E in *; destruct A as [Z|[Z|Z]]; rewrite Z in *; auto; [congruence|exfalso; apply NZ; unfold vzero; vring|].
    left. vring. }
  rewrite AR in AP |- *. set (t := area2 (lv l')) in *. clearbody t. destruct A' as [E|E]; rewrite E in *.
  - rewrite Rabs_pos_eq by lra. reflexivity.
  - replace (vdot (vscale u (-1)) t) with (- vdot u t) in * by vring. rewrite Rabs_left1 by lra. reflexivity.
Qed.
Lemma dot_le u w : vlen2 u = 1 -> Rabs (vdot u w) <= vlen w.
Proof.
  intros U. rewrite <- (Rabs_pos_eq (vlen w)) by apply vlen_nonneg. apply Rsqr_le_abs_0. unfold Rsqr. rewrite vlen_sqr.
  replace (vlen2 w) with (vlen2 u * vlen2 w) by (rewrite U; ring). assert (L : vlen2 u * vlen2 w - vdot u w * vdot u w = vlen2 (vcross u w)) by vring.
  assert (0 <= vlen2 (vcross u w)) by (rewrite <- vlen_sqr; apply Rle_0_sqr). lra.
Qed.
Lemma closed_area_near u D l l' : vlen2 u = 1 -> along u (ln l) -> spread D (lv l) -> closed_loop l = Ok l' -> Rabs (larea l' - Rabs (vdot u (area2 (lv l))) / 2) <= slack D.
Proof.
  intros U A S E. destruct (close_area D l l' E S) as (N & _). unfold closed_loop in E. destruct (close l) as [[[]| |] l1] eqn:C; try discriminate. injection E as ->.
  rewrite (closed_area u l l' A C). pose proof (dot_le u (vsub (area2 (lv l)) (area2 (lv l'))) U) as H. apply (fun h => Rle_trans _ _ _ h N) in H. clear N.
  replace (vdot u (vsub (area2 (lv l)) (area2 (lv l')))) with (vdot u (area2 (lv l)) - vdot u (area2 (lv l'))) in H by (set (p := area2 (lv l)); set (q := area2 (lv l')); clearbody p q; vring).
  revert H. set (x := vdot u (area2 (lv l))). set (y := vdot u (area2 (lv l'))). generalize (slack D). clearbody x y. clear. intros s H.
  pose proof (Rabs_triang_inv2 y x) as T. rewrite (Rabs_minus_sym y x) in T. replace (Rabs y / 2 - Rabs x / 2) with ((Rabs y - Rabs x) * / 2) by field. rewrite Rabs_mult, (Rabs_pos_eq (/ 2)) by lra. lra.
Qed.
Theorem C119_area u D ps l : vlen2 u = 1 -> flat u ps -> spread D ps -> steps_apart ps -> read_loop (JArray (write_points ps)) = Ok l ->
  Rabs (larea l - Rabs (vdot u (area2 ps)) / 2) <= slack D.
Proof.
  intros U F S SA. unfold read_loop. cbn [bind]. rewrite read_write. destruct (put loop_new ps) as [l0| |] eqn:P; cbn [bind]; try discriminate. intros E.
  pose proof (put_all_kept ps loop_new l0 SA P) as V. cbn [loop_new lv app] in V. rewrite <- V. apply closed_area_near; [exact U| |rewrite V; exact S|exact E].
  apply (put_along u ps U loop_new l0); [exact F|now left|exact P].
Qed.

(** ** A polygon with holes comes back without holes, in one piece, with the same area *)
Lemma merge_put n : forall rounds holes ret processed k0 v0 l, merge_holes (S rounds) n holes ret processed k0 v0 = Ok l -> exists ps, put loop_new ps = Ok l.
Proof.
  induction rounds as [|r IH]; intros holes ret processed k0 v0 l E.
  - cbn [merge_holes] in E. destruct (closest _ _ _ _) as [[[d e] k] v]. destruct (push_all _ _) as [aux| |] eqn:P; cbn [bind] in E; try discriminate. injection E as <-. eexists. apply put_all. exact P.
  - remember (S r) as r'. cbn [merge_holes] in E. destruct (closest _ _ _ _) as [[[d e] k] v]. destruct (push_all _ _) as [aux| |] eqn:P; cbn [bind] in E; try discriminate. subst r'. exact (IH _ _ _ _ _ _ E).
Qed.
Theorem C119_holes g d : inner g <> [] -> write_polygon g = Ok d -> exists l, get_closed_loop g = Ok l /\ d = write_loop l /\ read_loop d = closed_loop l /\
  forall g', read_polygon d = Ok g' -> inner g' = [] /\ closed_loop l = Ok (outer g') /\ p_area g' = larea (outer g').
Proof.
  intros N. unfold write_polygon. destruct (get_closed_loop g) as [l| |] eqn:G; cbn [bind]; try discriminate. intros E. injection E as <-. exists l. split; [reflexivity|]. split; [reflexivity|].
  assert (R : read_loop (write_loop l) = closed_loop l).
  { unfold get_closed_loop in G. destruct (inner g) as [|h hs] eqn:I; [congruence|]. cbn [length] in G. apply merge_put in G as (ps & P). unfold read_loop, write_loop. cbn [bind].
    rewrite read_write, (put_again ps loop_new l eq_refl P). reflexivity. }
  split; [exact R|]. intros g' E. unfold read_polygon in E. rewrite R in E. destruct (closed_loop l) as [l'| |] eqn:C; cbn [bind] in E; try discriminate. unfold poly_from, l_area in E.
  destruct (negb (lclosed l')); [discriminate|]. injection E as <-. auto.
Qed.
Theorem C119_holes_area g d D : inner g <> [] -> mergeable g -> write_polygon g = Ok d -> vlen2 (ln (outer g)) = 1 -> consistent (outer g) ->
  (forall h, In h (inner g) -> consistent h /\ (ln h = ln (outer g) \/ ln h = vneg (ln (outer g)))) ->
  flat (ln (outer g)) (lv (outer g) ++ flat_map lv (inner g)) -> spread D (lv (outer g) ++ flat_map lv (inner g)) ->
  forall g', read_polygon d = Ok g' -> Rabs (p_area g' - Rabs (fold_left (fun x h => x - larea h) (inner g) (larea (outer g)))) <= slack D.
Proof.
  intros NE M W U CO CH F S g' E. destruct (C119_holes g d NE W) as (l & G & _ & _ & H). destruct (H g' E) as (_ & C & ->). clear H.
  rewrite <- (C31_area g l M G U CO CH). destruct (C31_vertices g l M G) as (V & _).
  assert (I : incl (lv l) (lv (outer g) ++ flat_map lv (inner g))).
  { intros p P. apply V in P as [P|(h & HI & P)]; apply in_or_app; [now left|right]. apply in_flat_map. eauto. }
  unfold Rdiv. rewrite Rabs_mult, (Rabs_pos_eq (/ 2)) by lra. fold (Rabs (vdot (ln (outer g)) (area2 (lv l))) / 2). apply (closed_area_near _ D l); [exact U| |exact (spread_sub _ _ _ S I)|exact C].
  unfold get_closed_loop in G. destruct (inner g) as [|h hs]; [congruence|]. cbn [length] in G. apply merge_put in G as (ps & P). pose proof (put_again ps loop_new l eq_refl P) as A.
  apply (put_along (ln (outer g)) (lv l) U loop_new l); [|now left|exact A]. intros x y X Y. apply F; apply I; assumption.
Qed.

(** ** Examples *)
Opaque IZR Rdiv Rminus Rplus Rmult Ropp Rabs sqrt pow Rinv.
Lemma put_cons l l' p ps r : push_collinear l p false = Ok l' -> put l' ps = r -> put l (p :: ps) = r.
Proof. intros H <-. cbn [put]. now rewrite H. Qed.
Lemma read_by ps l r : put loop_new ps = Ok l -> closed_loop l = r -> read_loop (JArray (write_points ps)) = r.
Proof. intros P C. unfold read_loop. cbn [bind]. rewrite read_write, P. exact C. Qed.
Example C119_example : read_loop (JArray [JNum 0; JNum 0; JNum 0; JNum 6; JNum 0; JNum 0; JNum 6; JNum 6; JNum 0; JNum 0; JNum 6; JNum 0]) = Ok square.
Proof.
  apply (read_by [P2 0 0; P2 6 0; P2 6 6; P2 0 6] (LL [P2 0 0; P2 6 0; P2 6 6; P2 0 6] Up)); [|rrun].
  eapply put_cons with (l' := LL [P2 0 0] vzero); [rrun|]. eapply put_cons with (l' := LL [P2 0 0; P2 6 0] vzero); [rrun|].
  eapply put_cons with (l' := LL [P2 0 0; P2 6 0; P2 6 6] Up); [rrun|]. eapply put_cons with (l' := LL [P2 0 0; P2 6 0; P2 6 6; P2 0 6] Up); [rrun|]. reflexivity.
Qed.
(** ** A loop read from a file, written and read again can have lost a corner: closing leaves out one corner on a straight side each time *)
Definition side4 : list pt := [P2 0 0; P2 6 0; P2 6 6; P2 0 6; P2 0 4].
Theorem C119_twice_refuted : exists d l l', read_loop d = Ok l /\ read_loop (write_loop l) = Ok l' /\ length (lv l) = 5%nat /\ length (lv l') = 4%nat /\ read_loop (write_loop l') = Ok l'.
Proof.
  exists (JArray (write_points (side4 ++ [P2 0 2]))), (mkLoop side4 Up true 36 24), square.
  assert (S : forall qs r, put (LL [P2 0 0; P2 6 0; P2 6 6; P2 0 6] Up) qs = r -> put loop_new ([P2 0 0; P2 6 0; P2 6 6; P2 0 6] ++ qs) = r).
  { intros qs r H. cbn [app]. eapply put_cons with (l' := LL [P2 0 0] vzero); [rrun|]. eapply put_cons with (l' := LL [P2 0 0; P2 6 0] vzero); [rrun|].
    eapply put_cons with (l' := LL [P2 0 0; P2 6 0; P2 6 6] Up); [rrun|]. eapply put_cons with (l' := LL [P2 0 0; P2 6 0; P2 6 6; P2 0 6] Up); [rrun|]. exact H. }
  split; [|split; [|split; [reflexivity|split; [reflexivity|]]]].
  - apply (read_by _ (LL (side4 ++ [P2 0 2]) Up)); [|rrun]. apply (S [P2 0 4; P2 0 2]). eapply put_cons with (l' := LL side4 Up); [rrun|]. eapply put_cons with (l' := LL (side4 ++ [P2 0 2]) Up); [rrun|]. reflexivity.
  - unfold write_loop. cbn [lv]. apply (read_by _ (LL side4 Up)); [|rrun]. apply (S [P2 0 4]). eapply put_cons with (l' := LL side4 Up); [rrun|]. reflexivity.
  - unfold write_loop. cbn [lv square]. apply (read_by _ (LL [P2 0 0; P2 6 0; P2 6 6; P2 0 6] Up)); [|rrun]. apply (S []). reflexivity.
Qed.
(** ** Files with missing coordinates or other things than numbers do not give errors: reading them panics *)
Theorem C119_error_refuted : read_loop (JArray [JNum 0; JNum 0]) = Panic /\ read_loop (JArray [JOther]) = Panic /\ read_loop JNotArray = Err.
Proof. repeat split. Qed.
(** ** A square with a hole comes back as one outline with ten corners *)
Example C119_example_holes : exists d g', write_polygon holed = Ok d /\ read_polygon d = Ok g' /\ inner g' = [] /\ length (lv (outer g')) = 10%nat /\ p_area g' = 35.
Proof.
  set (l := LL [P2 0 0; P2 1 1; P2 1 2; P2 2 2; P2 2 1; P2 1 1; P2 0 0; P2 6 0; P2 6 6; P2 0 6] Up).
  assert (W : write_polygon holed = Ok (write_loop l)) by (unfold write_polygon; rewrite C31_example; reflexivity).
  destruct (C119_holes holed _ ltac:(discriminate) W) as (l0 & G & _ & R & _). rewrite C31_example in G. assert (L : l0 = l) by (unfold l; congruence). subst l0.
  assert (C : exists per, closed_loop l = Ok (mkLoop (lv l) Up true 35 per)).
  { exists (lper (match closed_loop l with Ok x => x | _ => loop_new end)). rrun. }
  destruct C as (per & C). exists (write_loop l), (mkPoly (mkLoop (lv l) Up true 35 per) [] 35 Up). split; [exact W|]. unfold read_polygon. rewrite R, C. repeat split.
Qed.

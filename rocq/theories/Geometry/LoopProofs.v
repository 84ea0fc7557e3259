(** Lemmas on loops and vector areas *)
From Coq Require Import Reals List Bool Lra Lia Psatz ZArith.
From Verif.Common Require Import Base Flt.
From Verif.Geometry Require Import Vec BBoxModel TriangleModel LoopModel GeomProofs TriangleProofs.
Import ListNotations.
Open Scope R_scope.

(** ** Vector area of a closed sequence of points (twice the vector area) *)
Fixpoint psum (l : list pt) : pt :=
  match l with x :: (y :: _) as l' => vadd (vcross x y) (psum l') | _ => vzero end.
Definition area2 (l : list pt) : pt := match l with [] => vzero | x :: _ => psum (l ++ [x]) end.

Lemma vadd_assoc a b c : vadd (vadd a b) c = vadd a (vadd b c). Proof. vring. Qed.
Lemma vadd_comm a b : vadd a b = vadd b a. Proof. vring. Qed.
Lemma vadd_0_l a : vadd vzero a = a. Proof. unfold vzero. vring. Qed.
Lemma vadd_0_r a : vadd a vzero = a. Proof. unfold vzero. vring. Qed.

Lemma psum_cons x y l : psum (x :: y :: l) = vadd (vcross x y) (psum (y :: l)).
Proof. reflexivity. Qed.
Lemma psum_app l1 x l2 : psum (l1 ++ x :: l2) = vadd (psum (l1 ++ [x])) (psum (x :: l2)).
Proof.
  induction l1 as [|a l1 IH].
  - cbn [app]. replace (psum [x]) with vzero by reflexivity. now rewrite vadd_0_l.
  - destruct l1 as [|b l1].
    + cbn [app]. rewrite !psum_cons. replace (psum [x]) with vzero by reflexivity. rewrite vadd_0_r. reflexivity.
    + cbn [app] in *. rewrite !psum_cons, IH, vadd_assoc. reflexivity.
Qed.

Lemma area2_rot l1 l2 : area2 (l1 ++ l2) = area2 (l2 ++ l1).
Proof.
  destruct l1 as [|x l1]; [now rewrite app_nil_r|]. destruct l2 as [|y l2]; [now rewrite app_nil_r|].
  unfold area2. cbn [app].
  change (x :: (l1 ++ y :: l2) ++ [x]) with ((x :: (l1 ++ y :: l2)) ++ [x]). change (y :: (l2 ++ x :: l1) ++ [y]) with ((y :: (l2 ++ x :: l1)) ++ [y]).
  replace ((x :: l1 ++ y :: l2) ++ [x]) with ((x :: l1) ++ y :: (l2 ++ [x])) by (cbn; now rewrite <- app_assoc).
  replace ((y :: l2 ++ x :: l1) ++ [y]) with ((y :: l2) ++ x :: (l1 ++ [y])) by (cbn; now rewrite <- app_assoc).
  rewrite psum_app, (psum_app (y :: l2)). rewrite vadd_comm. reflexivity.
Qed.

(** Cutting off the ear [x y z] *)
Definition tri2 (x y z : pt) : pt := vadd (vcross x y) (vadd (vcross y z) (vcross z x)).
Lemma tri2_cross x y z : tri2 x y z = vcross (vsub y x) (vsub z x).
Proof. unfold tri2. vring. Qed.
Lemma area2_ear x y z l : area2 (x :: y :: z :: l) = vadd (area2 (x :: z :: l)) (tri2 x y z).
Proof.
  unfold area2, tri2. cbn [app]. rewrite !psum_cons. set (p := psum _). clearbody p. vring.
Qed.
Lemma area2_two x y : area2 [x; y] = vzero.
Proof. unfold area2. cbn [app psum]. unfold vzero. vring. Qed.
Lemma area2_three x y z : area2 [x; y; z] = tri2 x y z.
Proof. rewrite area2_ear, area2_two. apply vadd_0_l. Qed.

(** [area_sum] computes it: the pair ([v], [v_p1]) slides along the vertices repeated twice. *)
Lemma fold_slide (g : nat -> pt) : forall k i acc,
  fold_left (fun '(rhs, v, v1) i => (vadd rhs (vcross v v1), v1, g i)) (seq (S (S i)) k) (acc, g i, g (S i))
  = (vadd acc (psum (map g (seq i (S k)))), g (i + k)%nat, g (S (i + k))).
Proof.
  induction k as [|k IH]; intros i acc.
  - cbn. rewrite vadd_0_r, Nat.add_0_r. reflexivity.
  - change (seq (S (S i)) (S k)) with (S (S i) :: seq (S (S (S i))) k). cbn [fold_left].
    rewrite (IH (S i)). change (seq i (S (S k))) with (i :: S i :: seq (S (S i)) k). cbn [map]. rewrite psum_cons.
    change (g (S i) :: map g (seq (S (S i)) k)) with (map g (seq (S i) (S k))).
    rewrite vadd_assoc. replace (S i + k)%nat with (i + S k)%nat by lia. reflexivity.
Qed.

Lemma map_nth_seq {A} (l : list A) d : map (fun i => nth i l d) (seq 0 (length l)) = l.
Proof.
  induction l as [|a l IH]; [reflexivity|]. cbn [length seq map]. f_equal. rewrite <- seq_shift, map_map. exact IH.
Qed.

Lemma area_sum_area2 vs : (2 <= length vs)%nat -> area_sum vs = area2 vs.
Proof.
  intros H. unfold area_sum. set (n := length vs) in *.
  assert (E : forall i, (i = 0 \/ i = 1)%nat -> nth i vs vzero = nth (i mod n) vs vzero).
  { intros i Hi. rewrite Nat.mod_small by lia. reflexivity. }
  rewrite (E 0%nat), (E 1%nat) by auto.
  pose proof (fold_slide (fun i => nth (i mod n) vs vzero) n 0 vzero) as F. cbv beta in F. rewrite F. clear F.
  rewrite vadd_0_l. rewrite seq_S, map_app. cbn [map Nat.add]. rewrite Nat.mod_same by lia.
  replace (map (fun i => nth (i mod n) vs vzero) (seq 0 n)) with vs.
  2:{ rewrite <- (map_nth_seq vs vzero) at 1. apply map_ext_in. intros i Hi. apply in_seq in Hi. rewrite Nat.mod_small by lia. reflexivity. }
  destruct vs; [cbn in H; lia|reflexivity].
Qed.

(** The vector area does not depend on where the origin is *)
Lemma psum_shift w l : forall x, psum (map (fun p => vadd p w) (x :: l)) =
  vadd (psum (x :: l)) (vadd (vcross x w) (vcross w (last (x :: l) vzero))).
Proof.
  induction l as [|y l IH]; intros x.
  - cbn. unfold vzero. vring.
  - cbn [map]. rewrite psum_cons. change (vadd y w :: map (fun p => vadd p w) l) with (map (fun p => vadd p w) (y :: l)).
    rewrite IH, psum_cons. change (last (x :: y :: l) vzero) with (last (y :: l) vzero).
    set (z := last (y :: l) vzero). set (s := psum (y :: l)). clearbody z s. vring.
Qed.
Lemma area2_shift w l : area2 (map (fun p => vadd p w) l) = area2 l.
Proof.
  destruct l as [|x l]; [reflexivity|]. unfold area2. cbn [map].
  change (vadd x w :: map (fun p => vadd p w) l) with (map (fun p => vadd p w) (x :: l)).
  change (map (fun p => vadd p w) (x :: l) ++ [vadd x w]) with (map (fun p => vadd p w) (x :: l) ++ map (fun p => vadd p w) [x]).
  rewrite <- map_app. change ((x :: l) ++ [x]) with (x :: (l ++ [x])). rewrite psum_shift.
  change (x :: l ++ [x]) with ((x :: l) ++ [x]) at 2. rewrite last_last.
  set (s := psum _). clearbody s. vring.
Qed.

Lemma psum_snoc l x y : psum (l ++ [x; y]) = vadd (psum (l ++ [x])) (vcross x y).
Proof.
  rewrite psum_app. cbn [psum]. now rewrite vadd_0_r.
Qed.
Lemma psum_rev l : psum (rev l) = vneg (psum l).
Proof.
  induction l as [|x l IH]; [cbn; unfold vzero; vring|]. destruct l as [|y l]; [cbn; unfold vzero; vring|].
  cbn [rev] in *. rewrite <- app_assoc. cbn [app]. rewrite psum_snoc, IH, psum_cons. set (s := psum (y :: l)). clearbody s. vring.
Qed.
Lemma area2_rev l : area2 (rev l) = vneg (area2 l).
Proof.
  destruct l as [|x l]; [cbn; unfold vzero; vring|]. cbn [rev]. rewrite area2_rot. cbn [app]. unfold area2.
  rewrite <- psum_rev. f_equal. cbn [rev app]. rewrite rev_app_distr. cbn. reflexivity.
Qed.

(** ** Pushing *)
Lemma vis_zero_vzero : vis_zero vzero = true.
Proof. unfold vis_zero, vzero. cbn [vx vy vz]. rewrite Rabs_R0. rewrite (proj2 (Rltb_true 0 _)); [reflexivity|]. unfold eps64. lra. Qed.
Lemma vis_zero_unit n : vlen2 n = 1 -> vis_zero n = false.
Proof.
  intros H. unfold vis_zero. destruct (Rltb_spec (Rabs (vx n)) (100 * eps64)) as [A|A]; [|reflexivity].
  destruct (Rltb_spec (Rabs (vy n)) (100 * eps64)) as [B|B]; [|reflexivity].
  destruct (Rltb_spec (Rabs (vz n)) (100 * eps64)) as [C|C]; [|reflexivity]. exfalso.
  assert (E : 100 * eps64 < 1 / 10) by (unfold eps64; lra).
  assert (S : forall x, Rabs x < 1 / 10 -> x * x < 1 / 100). { intros x. unfold Rabs. destruct (Rcase_abs x); nra. }
  apply (Rlt_trans _ _ (1 / 10)) in A, B, C; try exact E. apply S in A, B, C. unfold vlen2 in H. lra.
Qed.

Lemma push_closed l p av : lclosed l = true -> push_collinear l p av = Err.
Proof. intros H. unfold push_collinear, valid_to_add. rewrite H. reflexivity. Qed.

Lemma rev_last {A} (l : list A) d : l <> [] -> exists r, rev l = last l d :: r.
Proof. intros H. exists (rev (removelast l)). rewrite (app_removelast_last d H) at 1. rewrite rev_app_distr. reflexivity. Qed.
Lemma nth_last {A} (l : list A) d : nth (length l - 1) l d = last l d.
Proof.
  induction l as [|a l IH]; [reflexivity|]. destruct l as [|b l]; [reflexivity|].
  change (last (a :: b :: l) d) with (last (b :: l) d). rewrite <- IH. cbn [length nth]. replace (S (S (length l)) - 1)%nat with (S (length l)) by lia. replace (S (length l) - 1)%nat with (length l) by lia. reflexivity.
Qed.

(** What one successful push does to the vertices *)
Lemma push_vertices l p av l' : push_collinear l p av = Ok l' ->
  lclosed l = false /\ lclosed l' = false /\ larea l' = larea l /\ lper l' = lper l /\
  ((l' = l /\ lv l <> [] /\ compare (last (lv l) vzero) p = true) \/
   (lv l' = lv l ++ [p] /\ (lv l <> [] -> compare (last (lv l) vzero) p = false) /\
     (av = true -> (2 <= length (lv l))%nat -> is_collinear (nth (length (lv l) - 2) (lv l) vzero) (last (lv l) vzero) p = Ok false)) \/
   (exists pre a b, lv l = pre ++ [a; b] /\ lv l' = pre ++ [a; p] /\ av = true /\ compare b p = false /\ is_collinear a b p = Ok true)).
Proof.
  unfold push_collinear. destruct (valid_to_add l p) as [[]| |] eqn:V; cbn [bind]; try discriminate.
  assert (C : lclosed l = false). { unfold valid_to_add in V. destruct (lclosed l); [discriminate|reflexivity]. }
  assert (SN : forall l1 l2, set_normal l1 = Ok l2 -> lv l2 = lv l1 /\ lclosed l2 = lclosed l1 /\ larea l2 = larea l1 /\ lper l2 = lper l1).
  { intros l1 l2. unfold set_normal. destruct (Rltb _ _); [intros E; injection E as <-; auto|].
    destruct (lv l1) as [|a [|b [|c cs]]] eqn:W; try discriminate.
    destruct (find_normal a b (c :: cs) (ln l1)); cbn [bind]; try discriminate. intros E; injection E as <-. cbn. auto. }
  assert (D : lv l = [] \/ lv l <> []) by (destruct (lv l); [left; reflexivity|right; discriminate]).
  assert (Last : (match rev (lv l) with x :: _ => compare x p | [] => false end) = (if lv l then false else compare (last (lv l) vzero) p)).
  { destruct D as [->|D]; [reflexivity|]. destruct (rev_last (lv l) vzero D) as (r & ->). destruct (lv l); [congruence|reflexivity]. }
  rewrite Last. clear Last.
  destruct (match lv l with [] => false | _ => compare (last (lv l) vzero) p end) eqn:S.
  { intros E; injection E as <-. rewrite C. repeat split; auto. left. split; [reflexivity|]. destruct (lv l); [discriminate|]. split; [discriminate|exact S]. }
  assert (S' : lv l <> [] -> compare (last (lv l) vzero) p = false). { destruct (lv l); [congruence|]. intros _. exact S. }
  assert (Fin : forall vs l', (if (3 <=? length vs)%nat then set_normal (with_vertices l vs) else Ok (with_vertices l vs)) = Ok l' ->
      lv l' = vs /\ lclosed l' = false /\ larea l' = larea l /\ lper l' = lper l).
  { intros vs l0. destruct (3 <=? length vs)%nat.
    - intros E. apply SN in E as (A & B & E & F). cbn in A, B, E, F. rewrite C in B. auto.
    - intros E; injection E as <-. cbn. auto. }
  destruct (2 <=? length (lv l))%nat eqn:N2.
  - apply Nat.leb_le in N2. rewrite nth_last.
    destruct (if av then is_collinear (nth (length (lv l) - 2) (lv l) vzero) (last (lv l) vzero) p else Ok false) as [c| |] eqn:K; cbn [bind]; try discriminate.
    intros E. apply Fin in E as (A & B & E & F). split; [exact C|]. split; [exact B|]. split; [exact E|]. split; [exact F|].
    destruct c.
    + right; right. destruct av; [|discriminate].
      assert (P : exists pre a b, lv l = pre ++ [a; b]).
      { exists (removelast (removelast (lv l))), (last (removelast (lv l)) vzero), (last (lv l) vzero).
        assert (N1 : lv l <> []) by (destruct (lv l); [cbn in N2; lia|discriminate]).
        assert (N0 : removelast (lv l) <> []).
        { intros Z. pose proof (app_removelast_last vzero N1) as Q. rewrite Z in Q. rewrite Q in N2. cbn in N2. lia. }
        rewrite (app_removelast_last vzero N1) at 1. rewrite (app_removelast_last vzero N0) at 1. rewrite <- app_assoc. reflexivity. }
      destruct P as (pre & a & b & P). exists pre, a, b. rewrite P in *. split; [reflexivity|].
      assert (La : last (pre ++ [a; b]) vzero = b) by (change [a; b] with ([a] ++ [b]); rewrite app_assoc; apply last_last).
      rewrite La in *. rewrite app_length in *. cbn [length] in *.
      replace (nth (length pre + 2 - 2) (pre ++ [a; b]) vzero) with a in K by (rewrite app_nth2 by lia; replace (length pre + 2 - 2 - length pre)%nat with 0%nat by lia; reflexivity).
      split; [|split; [reflexivity|split; [apply S'; destruct pre; discriminate|exact K]]].
      rewrite A. replace (length pre + 2 - 1)%nat with (length pre + 1)%nat by lia. clear.
      induction pre as [|x pre IH]; cbn; [reflexivity|]. now rewrite IH.
    + right; left. split; [exact A|]. split; [exact S'|]. intros -> _. exact K.
  - intros E. cbn [bind] in E. apply Fin in E as (A & B & E & F). apply Nat.leb_gt in N2.
    split; [exact C|]. split; [exact B|]. split; [exact E|]. split; [exact F|]. right; left. split; [exact A|]. split; [exact S'|]. lia.
Qed.

Lemma find_normal_spec a b cs old n : find_normal a b cs old = Ok n ->
  n = old \/ (vlen2 n = 1 /\ vdot n (vsub b a) = 0 /\ exists c, In c cs /\ vdot n (vsub c b) = 0 /\ exists k, 0 < k /\ vcross (vsub b a) (vsub c b) = vscale n k).
Proof.
  induction cs as [|c cs IH]; cbn [find_normal].
  - intros E; injection E as <-. now left.
  - destruct (Rltb_spec (1 / 10 ^ 15) (vlen2 (vcross (vsub b a) (vsub c b)))) as [H|H].
    + intros E. right. apply vnormalize_unit in E as (U & k & K & E). split; [exact U|].
      assert (Z : forall w, vdot (vcross (vsub b a) (vsub c b)) w = 0 -> vdot n w = 0).
      { intros w Hw. rewrite E in Hw. replace (vdot (vscale n k) w) with (k * vdot n w) in Hw by vring. apply Rmult_integral in Hw as [|]; lra. }
      split; [apply Z; vring|]. exists c. split; [now left|]. split; [apply Z; vring|]. eauto.
    + intros E. apply IH in E as [E|(U & A & c' & I & B)]; [now left|]. right. split; [exact U|]. split; [exact A|]. exists c'. split; [now right|exact B].
Qed.

(** Loops reachable by [push] *)
Inductive pushed : Loop -> Prop :=
| pushed_new : pushed loop_new
| pushed_step l p l' : pushed l -> push l p = Ok l' -> pushed l'.

(** The invariant of loops built by pushing *)
Definition planar (l : Loop) : Prop :=
  (ln l = vzero /\ (length (lv l) <= 2)%nat) \/
  (vlen2 (ln l) = 1 /\ (3 <= length (lv l))%nat /\ forall v, In v (lv l) -> Rabs (vdot (ln l) (vsub (nth 0 (lv l) vzero) v)) < 1 / 10 ^ 7).

Lemma push_normal l p av l' : push_collinear l p av = Ok l' -> vlen2 (ln l) = 1 ->
  ln l' = ln l /\ (lv l <> [] -> Rabs (vdot (ln l) (vsub (nth 0 (lv l) vzero) p)) < 1 / 10 ^ 7).
Proof.
  intros E U. unfold push_collinear in E. destruct (valid_to_add l p) as [[]| |] eqn:V; cbn [bind] in E; try discriminate.
  split.
  - assert (SN : forall vs, set_normal (with_vertices l vs) = Ok (with_vertices l vs)).
    { intros vs. unfold set_normal. cbn [ln with_vertices]. rewrite U, (proj2 (Rltb_true _ 1)) by lra. reflexivity. }
    destruct (match rev (lv l) with x :: _ => compare x p | [] => false end); [injection E as <-; reflexivity|].
    match type of E with bind ?x _ = _ => destruct x as [vs| |]; cbn [bind] in E; try discriminate end.
    destruct (3 <=? length vs)%nat; [rewrite SN in E|]; injection E as <-; reflexivity.
  - intros N. unfold valid_to_add in V. destruct (lclosed l); [discriminate|]. rewrite (vis_zero_unit _ U) in V. cbn [negb] in V.
    unfold l_is_coplanar in V. rewrite (vis_zero_unit _ U) in V. destruct (lv l) as [|v vs]; [congruence|]. cbn [nth].
    cbn [bind] in V. destruct (Rltb_spec (Rabs (vdot (ln l) (vsub v p))) (1 / 10 ^ 7)); [assumption|discriminate].
Qed.

Lemma planar_push l p l' : planar l -> push l p = Ok l' -> planar l'.
Proof.
  intros P E. unfold push in E. pose proof (push_vertices _ _ _ _ E) as (_ & _ & _ & _ & V).
  destruct P as [(Z & L)|(U & L & H)].
  - destruct V as [(-> & _)|[(V & _ & Cc)|(pre & a & b & V1 & V2 & _)]].
    + left. auto.
    + assert (Len : length (lv l') = S (length (lv l))) by (rewrite V, app_length; cbn; lia).
      destruct (Nat.eq_dec (length (lv l)) 2) as [L2|L2].
      2:{ left. split; [|lia].
          unfold push_collinear in E. destruct (valid_to_add l p) as [[]| |]; cbn [bind] in E; try discriminate.
          destruct (match rev (lv l) with x :: _ => compare x p | [] => false end); [injection E as <-; exact Z|].
          match type of E with bind ?x _ = _ => destruct x as [vs| |]; cbn [bind] in E; try discriminate end.
          destruct (3 <=? length vs)%nat eqn:W.
          - unfold set_normal in E. destruct (Rltb _ _); [injection E as <-; exact Z|]. cbn [lv with_vertices] in E.
            destruct vs as [|x [|y [|z zs]]]; try discriminate. destruct (find_normal _ _ _ _); cbn [bind] in E; try discriminate.
            injection E as <-. cbn [lv] in Len. cbn [length] in Len. lia.
          - injection E as <-. exact Z. }
      destruct (lv l) as [|a [|b [|]]] eqn:W; cbn in L2; try lia. clear L L2.
      specialize (Cc eq_refl ltac:(cbn; lia)). cbn in Cc.
      right. unfold push_collinear in E. destruct (valid_to_add l p) as [[]| |]; cbn [bind] in E; try discriminate.
      rewrite W in E. cbn [length rev app] in E. change (2 <=? 2)%nat with true in E. cbn [nth Nat.sub] in E. rewrite Cc in E. cbn [bind] in E.
      destruct (compare b p) eqn:Cb; [injection E as <-; rewrite W in V; discriminate|].
      change (3 <=? 3)%nat with true in E. cbn match in E. unfold set_normal in E. cbn [ln lv with_vertices] in E. rewrite Z in E.
      replace (vlen2 vzero) with 0 in E by (unfold vlen2, vzero; cbn; lra). rewrite (proj2 (Rltb_false _ 0)) in E by lra.
      destruct (find_normal a b [p] vzero) as [n| |] eqn:F; cbn [bind] in E; try discriminate. injection E as <-. cbn [ln lv].
      unfold is_collinear in Cc. destruct (compare a b && compare a p); [discriminate|]. destruct (compare a b || compare a p || compare b p); [discriminate|].
      injection Cc as Cc. apply Rltb_false in Cc.
      assert (Big : 1 / 10 ^ 15 < vlen2 (vcross (vsub b a) (vsub p b))).
      { rewrite <- vlen_sqr. assert (0 <= vlen (vcross (vsub b a) (vsub p b))) by apply vlen_nonneg. set (q := vlen _) in *. clearbody q. nra. }
      cbn [find_normal] in F. rewrite (proj2 (Rltb_true _ _) Big) in F.
      apply vnormalize_unit in F as (U & k & K & F).
      split; [exact U|]. split; [cbn; lia|].
      assert (Zp : forall w, vdot (vcross (vsub b a) (vsub p b)) w = 0 -> vdot n w = 0).
      { intros w Hw. rewrite F in Hw. replace (vdot (vscale n k) w) with (k * vdot n w) in Hw by vring. apply Rmult_integral in Hw as [|]; lra. }
      intros v [<-|[<-|[<-|[]]]]; cbn [nth]; rewrite Zp by vring; rewrite Rabs_R0; lra.
    + left. split; [|rewrite V2, app_length; rewrite V1, app_length in L; exact L].
      unfold push_collinear in E. destruct (valid_to_add l p) as [[]| |]; cbn [bind] in E; try discriminate.
      destruct (match rev (lv l) with x :: _ => compare x p | [] => false end); [injection E as <-; exact Z|].
      match type of E with bind ?x _ = _ => destruct x as [vs| |]; cbn [bind] in E; try discriminate end.
      assert (Lv : length (lv l') = length (lv l)) by (rewrite V1, V2, !app_length; reflexivity).
      destruct (3 <=? length vs)%nat eqn:W.
      * unfold set_normal in E. destruct (Rltb _ _); [injection E as <-; exact Z|]. cbn [lv with_vertices] in E.
        destruct vs as [|x [|y [|z zs]]]; try discriminate. destruct (find_normal _ _ _ _); cbn [bind] in E; try discriminate.
        injection E as <-. cbn [lv length] in Lv. lia.
      * injection E as <-. exact Z.
  - destruct (push_normal _ _ _ _ E U) as (N & Cp). assert (Ne : lv l <> []) by (intros W; rewrite W in L; cbn in L; lia). specialize (Cp Ne).
    right. rewrite N. destruct V as [(-> & _)|[(V & _)|(pre & a & b & V1 & V2 & _)]].
    + auto.
    + split; [exact U|]. rewrite V. split; [rewrite app_length; cbn; lia|]. rewrite app_nth1 by lia.
      intros v Hv. apply in_app_or in Hv as [Hv|[<-|[]]]; [now apply H|exact Cp].
    + split; [exact U|]. rewrite V2. rewrite V1 in *. rewrite app_length in *. cbn [length] in *. split; [exact L|].
      assert (N0 : nth 0 (pre ++ [a; p]) vzero = nth 0 (pre ++ [a; b]) vzero).
      { destruct pre; reflexivity. }
      rewrite N0. intros v Hv. apply in_app_or in Hv as [Hv|[<-|[<-|[]]]]; [apply H; apply in_or_app; now left|apply H; apply in_or_app; right; now left|exact Cp].
Qed.

Lemma pushed_planar l : pushed l -> planar l.
Proof.
  induction 1 as [|l p l' _ IH E]; [left; cbn; auto|]. now apply planar_push in E.
Qed.

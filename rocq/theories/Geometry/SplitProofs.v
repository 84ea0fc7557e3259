(** Lemmas on cut loops *)
From Coq Require Import Reals List Bool Lra Lia Psatz.
From Verif.Common Require Import Base Flt.
From Verif.Geometry Require Import Vec TriangleModel LoopModel GeomProofs TriangleProofs LoopProofs MeshProofs MergeProofs SplitModel.
Import ListNotations.
Open Scope R_scope.

(** ** Lengths *)
Lemma vlen_0 : vlen vzero = 0.
Proof. unfold vlen, vzero, vlen2. cbn [vx vy vz]. replace (0 * 0 + 0 * 0 + 0 * 0) with 0 by ring. apply sqrt_0. Qed.
Lemma vlen_cross a b : vlen (vcross a b) <= vlen a * vlen b.
Proof.
  unfold vlen. rewrite <- sqrt_mult by apply vlen2_nonneg. apply sqrt_le_1; [apply vlen2_nonneg|apply Rmult_le_pos; apply vlen2_nonneg|].
  rewrite lagrange. pose proof (Rle_0_sqr (vdot a b)) as H. unfold Rsqr in H. lra.
Qed.
Lemma vlen_add a b : vlen (vadd a b) <= vlen a + vlen b.
Proof.
  pose proof (vlen_nonneg a). pose proof (vlen_nonneg b). pose proof (vlen_nonneg (vadd a b)).
  apply Rsqr_incr_0; [|lra|lra]. unfold Rsqr. rewrite vlen_sqr.
  assert (D : vdot a b <= vlen a * vlen b).
  { apply Rsqr_incr_0_var; [|apply Rmult_le_pos; auto]. unfold Rsqr. replace (vlen a * vlen b * (vlen a * vlen b)) with ((vlen a * vlen a) * (vlen b * vlen b)) by ring.
    rewrite !vlen_sqr. pose proof (lagrange a b). pose proof (vlen2_nonneg (vcross a b)). lra. }
  replace (vlen2 (vadd a b)) with (vlen2 a + vlen2 b + 2 * vdot a b) by vring. rewrite <- !vlen_sqr. lra.
Qed.
Lemma vlen_scale a k : vlen (vscale a k) = Rabs k * vlen a.
Proof.
  unfold vlen. replace (vlen2 (vscale a k)) with ((k * k) * vlen2 a) by vring. rewrite sqrt_mult by (try apply vlen2_nonneg; nra).
  f_equal. replace (k * k) with (Rsqr k) by reflexivity. apply sqrt_Rsqr_abs.
Qed.
Lemma vlen_neg a : vlen (vneg a) = vlen a.
Proof. unfold vlen. f_equal. vring. Qed.
Lemma vlen_sub_sym a b : vlen (vsub a b) = vlen (vsub b a).
Proof. unfold vlen. f_equal. vring. Qed.
Lemma compare_vlen a b : compare a b = true -> vlen (vsub a b) <= 1 / 1000.
Proof.
  unfold compare, compare_by. intros H. apply Rleb_true in H. rewrite <- (sqrt_square (1 / 1000)) by lra. apply sqrt_le_1; [apply vlen2_nonneg|lra|exact H].
Qed.

(** ** What cleaning an outline does to its vector area *)
Definition spread (D : R) (ps : list pt) : Prop := forall a b, In a ps -> In b ps -> vlen (vsub a b) <= D.
Definition slack (D : R) : R := 1 / 10 ^ 5 + D / 1000.
Lemma slack_pos D : 0 <= D -> 0 <= slack D. Proof. unfold slack. lra. Qed.
Lemma spread_sub D a b : spread D b -> incl a b -> spread D a.
Proof. intros H I x y X Y. apply H; auto. Qed.
Lemma spread_nonneg D ps : spread D ps -> ps <> [] -> 0 <= D.
Proof. destruct ps as [|p ps]; [congruence|]. intros H _. pose proof (H p p (or_introl eq_refl) (or_introl eq_refl)). pose proof (vlen_nonneg (vsub p p)). lra. Qed.

Lemma collinear_small D a b p : is_collinear a b p = Ok true -> spread D [a; b; p] -> vlen (tri2 a b p) <= slack D.
Proof.
  intros C S. assert (D0 : 0 <= D) by (eapply spread_nonneg; [exact S|discriminate]). rewrite tri2_cross. unfold slack.
  unfold is_collinear in C. destruct (compare a b) eqn:AB.
  - eapply Rle_trans; [apply vlen_cross|]. pose proof (compare_vlen _ _ AB) as L. rewrite vlen_sub_sym in L. pose proof (vlen_nonneg (vsub b a)). pose proof (vlen_nonneg (vsub p a)).
    assert (vlen (vsub p a) <= D) by (apply S; cbn; auto). assert (vlen (vsub b a) * vlen (vsub p a) <= 1 / 1000 * D) by (apply Rmult_le_compat; auto). lra.
  - destruct (compare a p) eqn:AP.
    + eapply Rle_trans; [apply vlen_cross|]. pose proof (compare_vlen _ _ AP) as L. rewrite vlen_sub_sym in L. pose proof (vlen_nonneg (vsub b a)). pose proof (vlen_nonneg (vsub p a)).
      assert (vlen (vsub b a) <= D) by (apply S; cbn; auto). assert (vlen (vsub b a) * vlen (vsub p a) <= D * (1 / 1000)) by (apply Rmult_le_compat; auto). lra.
    + replace (vcross (vsub b a) (vsub p a)) with (vcross (vsub b a) (vsub p b)) by vring. destruct (compare b p) eqn:BP.
      * eapply Rle_trans; [apply vlen_cross|]. pose proof (compare_vlen _ _ BP) as L. rewrite vlen_sub_sym in L. pose proof (vlen_nonneg (vsub b a)). pose proof (vlen_nonneg (vsub p b)).
        assert (vlen (vsub b a) <= D) by (apply S; cbn; auto). assert (vlen (vsub b a) * vlen (vsub p b) <= D * (1 / 1000)) by (apply Rmult_le_compat; auto). lra.
      * cbn [andb orb] in C. injection C as C. apply Rltb_true in C. lra.
Qed.
(** dropping the middle one of three successive vertices *)
Lemma drop_ear a b p pre rest : vsub (area2 (pre ++ a :: b :: p :: rest)) (area2 (pre ++ a :: p :: rest)) = tri2 a b p.
Proof.
  rewrite (area2_rot pre (a :: b :: p :: rest)), (area2_rot pre (a :: p :: rest)). cbn [app]. rewrite area2_ear.
  set (x := area2 _). set (y := tri2 a b p). clearbody x y. vring.
Qed.
Lemma area2_one x : area2 [x] = vzero.
Proof. cbn. unfold vzero. vring. Qed.
(** dropping a vertex next to another one *)
Lemma tri_same D q p z : compare q p = true -> spread D [q; p; z] -> vlen (tri2 q p z) <= slack D.
Proof.
  intros C S. rewrite tri2_cross. unfold slack. eapply Rle_trans; [apply vlen_cross|].
  pose proof (compare_vlen _ _ C) as L. rewrite vlen_sub_sym in L. pose proof (vlen_nonneg (vsub p q)). pose proof (vlen_nonneg (vsub z q)).
  assert (vlen (vsub z q) <= D) by (apply S; cbn; auto). assert (vlen (vsub p q) * vlen (vsub z q) <= 1 / 1000 * D) by (apply Rmult_le_compat; auto). lra.
Qed.
Lemma drop_same D q p pre rest : spread D (pre ++ q :: p :: rest) -> compare q p = true ->
  vlen (vsub (area2 (pre ++ q :: p :: rest)) (area2 (pre ++ q :: rest))) <= slack D.
Proof.
  intros S C. assert (D0 : 0 <= D) by (eapply spread_nonneg; [exact S|destruct pre; discriminate]).
  rewrite (area2_rot pre (q :: p :: rest)), (area2_rot pre (q :: rest)). cbn [app].
  assert (I : forall z, In z (rest ++ pre) -> In z (pre ++ q :: p :: rest)).
  { intros z Z. apply in_app_or in Z as [Z|Z]; apply in_or_app; [right; right; now right|now left]. }
  destruct (rest ++ pre) as [|z w].
  - rewrite area2_two, area2_one. replace (vsub vzero vzero) with vzero by (unfold vzero; vring). rewrite vlen_0. now apply slack_pos.
  - rewrite area2_ear. replace (vsub (vadd (area2 (q :: z :: w)) (tri2 q p z)) (area2 (q :: z :: w))) with (tri2 q p z) by (set (x := area2 _); set (y := tri2 _ _ _); clearbody x y; vring).
    apply tri_same; [exact C|]. apply (spread_sub _ _ _ S). intros v [<-|[<-|[<-|[]]]]; [apply in_or_app; right; now left|apply in_or_app; right; right; now left|apply I; now left].
Qed.
Lemma vsub_self a : vsub a a = vzero. Proof. unfold vzero. vring. Qed.

Lemma push_area D l p l' rest : push l p = Ok l' -> spread D (lv l ++ p :: rest) ->
  vlen (vsub (area2 (lv l ++ p :: rest)) (area2 (lv l' ++ rest))) <= slack D /\ incl (lv l') (lv l ++ [p]) /\ (length (lv l') <= S (length (lv l)))%nat.
Proof.
  intros E S. assert (D0 : 0 <= D) by (eapply spread_nonneg; [exact S|destruct (lv l); discriminate]).
  apply push_vertices in E as (_ & _ & _ & _ & [(-> & N & C)|[(V & _)|(pre & a & b & V1 & V2 & _ & _ & C)]]).
  - split; [|split; [apply incl_appl, incl_refl|lia]]. pose proof (app_removelast_last vzero N) as V. set (q := last (lv l) vzero) in *. rewrite V in *.
    rewrite <- !app_assoc in *. cbn [app] in *. now apply drop_same.
  - rewrite V. rewrite <- app_assoc. cbn [app]. rewrite vsub_self, vlen_0. split; [now apply slack_pos|]. split; [apply incl_refl|]. rewrite app_length. cbn. lia.
  - rewrite V1, V2 in *. rewrite <- !app_assoc in *. cbn [app] in *. rewrite drop_ear. split; [|split].
    + apply collinear_small; [exact C|]. apply (spread_sub _ _ _ S). intros v [<-|[<-|[<-|[]]]]; apply in_or_app; right; cbn; auto.
    + intros v Hv. apply in_app_or in Hv as [Hv|[<-|[<-|[]]]]; apply in_or_app; [now left|right; now left|right; cbn; auto].
    + rewrite !app_length. cbn. lia.
Qed.
Lemma vlen_sub_chain a b c x y : vlen (vsub a b) <= x -> vlen (vsub b c) <= y -> vlen (vsub a c) <= x + y.
Proof. intros A B. replace (vsub a c) with (vadd (vsub a b) (vsub b c)) by vring. eapply Rle_trans; [apply vlen_add|lra]. Qed.
Lemma push_list_area D ps : forall l l' rest, push_list l ps = Ok l' -> spread D (lv l ++ ps ++ rest) -> 0 <= D ->
  vlen (vsub (area2 (lv l ++ ps ++ rest)) (area2 (lv l' ++ rest))) <= INR (length ps) * slack D /\ incl (lv l') (lv l ++ ps) /\ (length (lv l') <= length (lv l) + length ps)%nat.
Proof.
  induction ps as [|p ps IH]; intros l l' rest E S D0.
  - injection E as <-. cbn [app length INR]. rewrite vsub_self, vlen_0, app_nil_r. split; [lra|]. split; [apply incl_refl|lia].
  - cbn [push_list] in E. destruct (push l p) as [l1| |] eqn:P; cbn [bind] in E; try discriminate.
    cbn [app] in S. destruct (push_area D l p l1 (ps ++ rest) P S) as (A & I & L).
    assert (S1 : spread D (lv l1 ++ ps ++ rest)).
    { apply (spread_sub _ _ _ S). intros v Hv. apply in_app_or in Hv as [Hv|Hv].
      - apply I in Hv. apply in_app_or in Hv as [Hv|[<-|[]]]; apply in_or_app; [now left|right; now left].
      - apply in_or_app. right. now right. }
    destruct (IH _ _ rest E S1 D0) as (A2 & I2 & L2). split; [|split].
    + change (length (p :: ps)) with (Datatypes.S (length ps)). rewrite S_INR. cbn [app]. replace ((INR (length ps) + 1) * slack D) with (slack D + INR (length ps) * slack D) by ring. eapply vlen_sub_chain; eauto.
    + intros v Hv. apply I2 in Hv. apply in_app_or in Hv as [Hv|Hv]; [apply I in Hv; apply in_app_or in Hv as [Hv|[<-|[]]]; apply in_or_app; [now left|right; now left]|apply in_or_app; right; now right].
    + cbn [length]. lia.
Qed.

(** closing *)
Lemma close_area D l l' : closed_loop l = Ok l' -> spread D (lv l) -> vlen (vsub (area2 (lv l)) (area2 (lv l'))) <= 2 * slack D /\ incl (lv l') (lv l) /\ (length (lv l') <= length (lv l))%nat /\ lclosed l' = true.
Proof.
  unfold closed_loop. intros E S. destruct (close l) as [r l1] eqn:C. destruct r as [[]| |]; try discriminate. injection E as ->.
  apply close_spec in C as (_ & C' & L3 & (pre & suf & V & LP & LS & HS & HP) & _).
  assert (D0 : 0 <= D) by (eapply spread_nonneg; [exact S|]; rewrite V; destruct pre; [destruct (lv l'); [cbn in L3; lia|discriminate]|discriminate]).
  assert (I : incl (lv l') (lv l)) by (rewrite V; intros v Hv; apply in_or_app; right; apply in_or_app; now left).
  split; [|split; [exact I|split; [rewrite V, !app_length; lia|exact C']]].
  assert (S0 : 0 <= slack D) by now apply slack_pos.
  destruct (lv l') as [|x [|y [|z w]]] eqn:W; cbn [length] in L3; try lia. set (vs := x :: y :: z :: w) in *.
  assert (A1 : vlen (vsub (area2 (lv l)) (area2 (pre ++ vs))) <= slack D).
  { destruct suf as [|s [|]]; [|(* one dropped at the end *)|cbn in LS; lia].
    - rewrite V, app_nil_r, vsub_self, vlen_0. exact S0.
    - specialize (HS s eq_refl). rewrite V in HS.
      replace (nth 0 (pre ++ vs ++ [s]) vzero) with (hd vzero (pre ++ vs)) in HS by (destruct pre; reflexivity).
      assert (NE : pre ++ vs <> []) by (destruct pre; discriminate).
      assert (P2 : exists f g, pre ++ vs = f ++ [g]) by (exists (removelast (pre ++ vs)), (last (pre ++ vs) vzero); now apply app_removelast_last).
      destruct P2 as (f & g & FG). rewrite app_assoc, FG, <- app_assoc in HS. cbn [app] in HS.
      replace (nth (length (f ++ [g; s]) - 2) (f ++ [g; s]) vzero) with g in HS.
      2:{ rewrite app_length. cbn [length]. rewrite app_nth2 by lia. replace (length f + 2 - 2 - length f)%nat with 0%nat by lia. reflexivity. }
      rewrite V, app_assoc, FG, <- app_assoc. cbn [app].
      assert (FN : exists h f', f = h :: f').
      { destruct f as [|h f']; [|eauto]. exfalso. apply (f_equal (@length _)) in FG. rewrite app_length in FG. unfold vs in FG. cbn in FG. lia. }
      destruct FN as (h & f' & ->). cbn [app hd] in HS |- *.
      change (h :: f' ++ [g; s]) with ((h :: f') ++ [g; s]). change (h :: f' ++ [g]) with ((h :: f') ++ [g]).
      rewrite (area2_rot (h :: f') [g; s]), (area2_rot (h :: f') [g]). cbn [app]. pose proof (drop_ear g s h [] f') as DE. cbn [app] in DE. rewrite DE.
      apply collinear_small; [exact HS|]. apply (spread_sub _ _ _ S). rewrite V, app_assoc, FG. cbn [app].
      intros v [<-|[<-|[<-|[]]]]; [right; apply in_or_app; left; apply in_or_app; right; now left|right; apply in_or_app; right; now left|now left]. }
  assert (A2 : vlen (vsub (area2 (pre ++ vs)) (area2 vs)) <= slack D).
  { destruct pre as [|s [|]]; [|(* one dropped at the beginning *)|cbn in LP; lia].
    - cbn [app]. rewrite vsub_self, vlen_0. exact S0.
    - specialize (HP s eq_refl). cbn [nth vs] in HP. cbn [app].
      assert (P2 : exists f g, vs = f ++ [g]) by (exists (removelast vs), (last vs vzero); apply app_removelast_last; discriminate).
      destruct P2 as (f & g & FG). rewrite FG in HP |- *. rewrite last_last in HP.
      assert (FN : exists f', f = x :: f').
      { destruct f as [|h f']; [discriminate FG|]. injection FG as -> _. eauto. }
      destruct FN as (f' & ->). change (s :: (x :: f') ++ [g]) with ((s :: x :: f') ++ [g]).
      rewrite (area2_rot (s :: x :: f') [g]), (area2_rot (x :: f') [g]). cbn [app]. pose proof (drop_ear g s x [] f') as DE. cbn [app] in DE. rewrite DE.
      apply collinear_small; [exact HP|]. apply (spread_sub _ _ _ S). rewrite V, FG. cbn [app].
      intros v [<-|[<-|[<-|[]]]]; [right; right; apply in_or_app; left; apply in_or_app; right; now left|now left|right; now left]. }
  replace (2 * slack D) with (slack D + slack D) by ring. eapply vlen_sub_chain; eauto.
Qed.

(** ** The walk around the loop *)
Lemma push_list_app l a b : push_list l (a ++ b) = (do l1 <- push_list l a; push_list l1 b).
Proof. revert l. induction a as [|p a IH]; intros l; [reflexivity|]. cbn [app push_list]. destruct (push l p); cbn [bind]; [apply IH|reflexivity|reflexivity]. Qed.
Lemma split_walk_app vs b m B M lr a c : split_walk vs b m B M lr (a ++ c) = (do lr1 <- split_walk vs b m B M lr a; split_walk vs b m B M lr1 c).
Proof. revert lr. induction a as [|p a IH]; intros lr; [reflexivity|]. cbn [app split_walk]. destruct (split_step vs b m B M lr p); cbn [bind]; [apply IH|reflexivity|reflexivity]. Qed.
(** a stretch where all vertices go to the left or all go to the right *)
Definition pick (vs : list pt) (i : nat) : pt := nth (i mod length vs) vs vzero.
Lemma walk_left vs b m B M is : (forall i, In i is -> i <= b \/ m + 1 < i)%nat -> (b < m)%nat -> forall lp rp l' r',
  split_walk vs b m B M (lp, rp) is = Ok (l', r') -> push_list lp (map (pick vs) is) = Ok l' /\ r' = rp.
Proof.
  intros H BM. induction is as [|i is IH]; intros lp rp l' r' E; [cbn in *; injection E as <- <-; auto|].
  cbn [split_walk map push_list] in *. assert (Hi : (i <= b \/ m + 1 < i)%nat) by (apply H; now left).
  assert (ST : split_step vs b m B M (lp, rp) i = (do l1 <- push lp (pick vs i); Ok (l1, rp))).
  { unfold split_step. fold (pick vs i). destruct (Nat.leb_spec i b); [reflexivity|].
    destruct (Nat.eqb_spec i (b + 1)); [lia|]. destruct (Nat.ltb_spec i (m + 1)); [lia|]. destruct (Nat.eqb_spec i (m + 1)); [lia|reflexivity]. }
  rewrite ST in E. destruct (push lp (pick vs i)) as [l1| |]; cbn [bind] in E |- *; try discriminate.
  apply (IH ltac:(intros; apply H; now right)) in E. exact E.
Qed.
Lemma walk_right vs b m B M is : (forall i, In i is -> b + 1 < i < m + 1)%nat -> forall lp rp l' r',
  split_walk vs b m B M (lp, rp) is = Ok (l', r') -> push_list rp (map (pick vs) is) = Ok r' /\ l' = lp.
Proof.
  intros H. induction is as [|i is IH]; intros lp rp l' r' E; [cbn in *; injection E as <- <-; auto|].
  cbn [split_walk map push_list] in *. assert (Hi : (b + 1 < i < m + 1)%nat) by (apply H; now left).
  assert (ST : split_step vs b m B M (lp, rp) i = (do r1 <- push rp (pick vs i); Ok (lp, r1))).
  { unfold split_step. fold (pick vs i). destruct (Nat.leb_spec i b); [lia|].
    destruct (Nat.eqb_spec i (b + 1)); [lia|]. destruct (Nat.ltb_spec i (m + 1)); [reflexivity|lia]. }
  rewrite ST in E. destruct (push rp (pick vs i)) as [r1| |]; cbn [bind] in E |- *; try discriminate.
  apply (IH ltac:(intros; apply H; now right)) in E. exact E.
Qed.
(** the two outlines *)
Definition left_outline (vs : list pt) (b m : nat) (B M : pt) : list pt := map (pick vs) (seq 0 (b + 1)) ++ B :: M :: map (pick vs) (seq (m + 1) (length vs - m)).
Definition right_outline (vs : list pt) (b m : nat) (B M : pt) : list pt := B :: map (pick vs) (seq (b + 1) (m - b)) ++ [M].
Lemma walk_outlines vs b m B M l r : (b < m)%nat -> (m < length vs)%nat ->
  split_walk vs b m B M (loop_new, loop_new) (seq 0 (length vs + 1)) = Ok (l, r) ->
  push_list loop_new (left_outline vs b m B M) = Ok l /\ push_list loop_new (right_outline vs b m B M) = Ok r.
Proof.
  intros BM ML E.
  assert (S0 : seq 0 (length vs + 1) = seq 0 (b + 1) ++ (b + 1)%nat :: seq (b + 2) (m - b - 1) ++ (m + 1)%nat :: seq (m + 2) (length vs - m - 1)).
  { replace (length vs + 1)%nat with ((b + 1) + (1 + ((m - b - 1) + (1 + (length vs - m - 1)))))%nat by lia.
    rewrite seq_app. f_equal. rewrite seq_app. cbn [seq app]. f_equal. rewrite seq_app. f_equal; [f_equal; lia|].
    rewrite seq_app. cbn [seq app]. f_equal; [lia|]. f_equal; lia. }
  rewrite S0, split_walk_app in E. destruct (split_walk vs b m B M (loop_new, loop_new) (seq 0 (b + 1))) as [[l1 r1]| |] eqn:E1; cbn [bind] in E; try discriminate.
  apply walk_left in E1; [|intros i Hi; apply in_seq in Hi; lia|exact BM]. destruct E1 as (E1 & ->).
  cbn [split_walk] in E.
  assert (ST : split_step vs b m B M (l1, loop_new) (b + 1) = (do lp <- push l1 B; do rp <- push loop_new B; do rp <- push rp (pick vs (b + 1)); Ok (lp, rp))).
  { unfold split_step. fold (pick vs (b + 1)). destruct (Nat.leb_spec (b + 1) b); [lia|]. destruct (Nat.eqb_spec (b + 1) (b + 1)); [reflexivity|lia]. }
  rewrite ST in E. clear ST. destruct (push l1 B) as [l2| |] eqn:E2; cbn [bind] in E; try discriminate.
  destruct (push loop_new B) as [r2| |] eqn:E3; cbn [bind] in E; try discriminate. destruct (push r2 (pick vs (b + 1))) as [r3| |] eqn:E4; cbn [bind] in E; try discriminate.
  rewrite split_walk_app in E. destruct (split_walk vs b m B M (l2, r3) (seq (b + 2) (m - b - 1))) as [[l4 r4]| |] eqn:E5; cbn [bind] in E; try discriminate.
  apply walk_right in E5; [|intros i Hi; apply in_seq in Hi; lia]. destruct E5 as (E5 & ->).
  cbn [split_walk] in E.
  assert (ST : split_step vs b m B M (l2, r4) (m + 1) = (do rp <- push r4 M; do lp <- push l2 M; do lp <- push lp (pick vs (m + 1)); Ok (lp, rp))).
  { unfold split_step. fold (pick vs (m + 1)). destruct (Nat.leb_spec (m + 1) b); [lia|]. destruct (Nat.eqb_spec (m + 1) (b + 1)); [lia|].
    destruct (Nat.ltb_spec (m + 1) (m + 1)); [lia|]. destruct (Nat.eqb_spec (m + 1) (m + 1)); [reflexivity|lia]. }
  rewrite ST in E. clear ST. destruct (push r4 M) as [r5| |] eqn:E6; cbn [bind] in E; try discriminate.
  destruct (push l2 M) as [l5| |] eqn:E7; cbn [bind] in E; try discriminate. destruct (push l5 (pick vs (m + 1))) as [l6| |] eqn:E8; cbn [bind] in E; try discriminate.
  apply walk_left in E; [|intros i Hi; apply in_seq in Hi; lia|exact BM]. destruct E as (E & ->).
  split.
  - unfold left_outline. rewrite push_list_app, E1. cbn [bind push_list]. rewrite E2. cbn [bind]. rewrite E7. cbn [bind].
    replace (length vs - m)%nat with (S (length vs - m - 1)) by lia. cbn [seq map push_list]. rewrite E8. cbn [bind]. replace (S (m + 1)) with (m + 2)%nat by lia. exact E.
  - unfold right_outline. cbn [push_list]. rewrite E3. cbn [bind]. replace (m - b)%nat with (S (m - b - 1)) by lia. cbn [seq map app push_list]. rewrite E4. cbn [bind].
    replace (S (b + 1)) with (b + 2)%nat by lia. rewrite push_list_app, E5. cbn [bind push_list]. rewrite E6. reflexivity.
Qed.

(** ** The vector areas of the outlines add up *)
Lemma psum_join l1 x y l2 : psum (l1 ++ x :: y :: l2) = vadd (psum (l1 ++ [x])) (vadd (vcross x y) (psum (y :: l2))).
Proof. rewrite psum_app, psum_cons. reflexivity. Qed.
Lemma pick_in vs i : (i < length vs)%nat -> pick vs i = nth i vs vzero.
Proof. intros H. unfold pick. now rewrite Nat.mod_small. Qed.
Lemma pick_end vs : vs <> [] -> pick vs (length vs) = nth 0 vs vzero.
Proof. intros H. unfold pick. rewrite Nat.mod_same; [reflexivity|]. destruct vs; [congruence|discriminate]. Qed.
Lemma area2_picks vs : vs <> [] -> area2 vs = psum (map (pick vs) (seq 0 (length vs + 1))).
Proof.
  intros N. rewrite seq_app, map_app. cbn [seq map]. rewrite Nat.add_0_l, pick_end by exact N.
  replace (map (pick vs) (seq 0 (length vs))) with vs.
  - destruct vs; [congruence|reflexivity].
  - symmetry. transitivity (map (fun i => nth i vs vzero) (seq 0 (length vs))); [|apply map_nth_seq]. apply map_ext_in. intros i Hi. apply in_seq in Hi. apply pick_in. lia.
Qed.
Definition on_line (a c p : pt) (t : R) : Prop := p = vadd a (vscale (vsub c a) t).
Lemma outlines_area vs b m B M tb tm : (b < m)%nat -> (m < length vs)%nat ->
  on_line (pick vs b) (pick vs (b + 1)) B tb -> on_line (pick vs m) (pick vs (m + 1)) M tm ->
  vadd (area2 (left_outline vs b m B M)) (area2 (right_outline vs b m B M)) = area2 vs.
Proof.
  intros BM ML HB HM. assert (N : vs <> []) by (destruct vs; [cbn in ML; lia|discriminate]).
  rewrite (area2_picks vs N).
  replace (length vs + 1)%nat with ((b + 1) + ((m - b) + (length vs - m)))%nat by lia. rewrite (seq_app (b + 1)), (seq_app (m - b)), !map_app.
  replace (0 + (b + 1))%nat with (b + 1)%nat by lia. replace (b + 1 + (m - b))%nat with (m + 1)%nat by lia.
  unfold left_outline, right_outline.
  (* first stretch: ... a ; second: c ... d ; third: z ... v0 *)
  assert (A : map (pick vs) (seq 0 (b + 1)) = map (pick vs) (seq 0 b) ++ [pick vs b]) by (rewrite seq_app, map_app; reflexivity).
  assert (Cc : map (pick vs) (seq (b + 1) (m - b)) = pick vs (b + 1) :: map (pick vs) (seq (b + 2) (m - b - 1))).
  { replace (m - b)%nat with (S (m - b - 1)) by lia. cbn [seq map]. replace (S (b + 1)) with (b + 2)%nat by lia. replace (S (m - b - 1) - 1)%nat with (m - b - 1)%nat by lia. reflexivity. }
  assert (Dd : map (pick vs) (seq (b + 1) (m - b)) = map (pick vs) (seq (b + 1) (m - b - 1)) ++ [pick vs m]).
  { replace (m - b)%nat with ((m - b - 1) + 1)%nat at 1 by lia. rewrite seq_app, map_app. cbn [seq map]. replace (b + 1 + (m - b - 1))%nat with m by lia. reflexivity. }
  assert (Z : map (pick vs) (seq (m + 1) (length vs - m)) = pick vs (m + 1) :: map (pick vs) (seq (m + 2) (length vs - m - 1))).
  { replace (length vs - m)%nat with (S (length vs - m - 1)) by lia. cbn [seq map]. replace (S (m + 1)) with (m + 2)%nat by lia. replace (S (length vs - m - 1) - 1)%nat with (length vs - m - 1)%nat by lia. reflexivity. }
  assert (ZE : exists w, map (pick vs) (seq (m + 1) (length vs - m)) = w ++ [nth 0 vs vzero]).
  { exists (map (pick vs) (seq (m + 1) (length vs - m - 1))). replace (length vs - m)%nat with ((length vs - m - 1) + 1)%nat at 1 by lia. rewrite seq_app, map_app. cbn [seq map].
    replace (m + 1 + (length vs - m - 1))%nat with (length vs) by lia. rewrite pick_end by exact N. reflexivity. }
  set (S1 := map (pick vs) (seq 0 (b + 1))) in *. set (S2 := map (pick vs) (seq (b + 1) (m - b))) in *. set (S3 := map (pick vs) (seq (m + 1) (length vs - m))) in *.
  set (A' := map (pick vs) (seq 0 b)) in *. set (C' := map (pick vs) (seq (b + 2) (m - b - 1))) in *. set (D' := map (pick vs) (seq (b + 1) (m - b - 1))) in *. set (Z' := map (pick vs) (seq (m + 2) (length vs - m - 1))) in *.
  set (a := pick vs b) in *. set (c := pick vs (b + 1)) in *. set (d := pick vs m) in *. set (z := pick vs (m + 1)) in *.
  (* the whole *)
  assert (T : psum (S1 ++ S2 ++ S3) = vadd (psum S1) (vadd (vcross a c) (vadd (psum S2) (vadd (vcross d z) (psum S3))))).
  { rewrite A, Cc. rewrite <- app_assoc. cbn [app]. rewrite psum_join. f_equal. f_equal.
    change (c :: C' ++ S3) with ((c :: C') ++ S3). rewrite <- Cc, Dd, Z. rewrite <- app_assoc. cbn [app]. rewrite psum_join. reflexivity. }
  (* the left outline: it ends where it begins *)
  assert (L : area2 (S1 ++ B :: M :: S3) = vadd (psum S1) (vadd (vcross a B) (vadd (vcross B M) (vadd (vcross M z) (psum S3))))).
  { assert (E : area2 (S1 ++ B :: M :: S3) = psum (S1 ++ B :: M :: S3)).
    { assert (S1H : exists s, S1 = nth 0 vs vzero :: s).
      { unfold S1. replace (b + 1)%nat with (S b) by lia. cbn [seq map]. rewrite pick_in by lia. eauto. }
      destruct S1H as (s & S1H). destruct ZE as (w & ZE). rewrite S1H, ZE. cbn [app area2]. set (v0 := nth 0 vs vzero).
      replace ((v0 :: (s ++ B :: M :: w ++ [v0]) ++ [v0])) with ((v0 :: s ++ B :: M :: w) ++ [v0; v0]) by (cbn [app]; rewrite <- !app_assoc; cbn [app]; rewrite <- app_assoc; reflexivity).
      rewrite psum_snoc. replace (v0 :: s ++ B :: M :: w ++ [v0]) with ((v0 :: s ++ B :: M :: w) ++ [v0]) by (cbn [app]; rewrite <- !app_assoc; reflexivity).
      replace (vcross v0 v0) with vzero by (unfold vzero; vring). now rewrite vadd_0_r. }
    rewrite E, A, <- app_assoc. cbn [app]. rewrite psum_join. f_equal. f_equal. rewrite psum_cons, Z, psum_cons. reflexivity. }
  assert (Rr : area2 (B :: S2 ++ [M]) = vadd (vcross B c) (vadd (psum S2) (vadd (vcross d M) (vcross M B)))).
  { cbn [area2 app]. rewrite Cc. cbn [app]. rewrite psum_cons. f_equal. rewrite <- app_assoc. cbn [app].
    change (c :: C' ++ [M; B]) with ((c :: C') ++ [M; B]). rewrite <- Cc, Dd, <- app_assoc. cbn [app]. rewrite psum_join. f_equal. cbn [psum]. now rewrite vadd_0_r. }
  rewrite T, L, Rr. unfold on_line in HB, HM.
  set (p1 := psum S1). set (p2 := psum S2). set (p3 := psum S3). clearbody p1 p2 p3 a c d z. clear - HB HM. subst B M. vring.
Qed.

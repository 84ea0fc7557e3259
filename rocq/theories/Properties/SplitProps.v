(** C116: cutting loops with segments, in exact arithmetic *)
From Coq Require Import Reals List Bool Lra Lia Psatz ZArith.
From Verif.Common Require Import Base Flt REval.
From Verif.Geometry Require Import Vec BBoxModel TriangleModel LoopModel GeomProofs TriangleProofs LoopProofs MeshProofs MergeProofs SplitModel SplitProofs ConvexProofs.
From Verif.Properties Require Import LoopProps.
Import ListNotations.
Open Scope R_scope.

(** ** Where the cuts are *)

(** [p] lies on the edge that starts at vertex [i], but for a ten-millionth of its length *)
Definition on_edge (vs : list pt) (i : nat) (p : pt) : Prop :=
  (i < length vs)%nat /\ exists t, - (1 / 10 ^ 12) <= t <= 1 + 1 / 10 ^ 7 /\ p = vadd (nth i vs vzero) (vscale (vsub (nth ((i + 1) mod length vs) vs vzero) (nth i vs vzero)) t).

Lemma s_intersect_on c s p : s_intersect c s = Some p -> exists t, - (1 / 10 ^ 12) <= t <= 1 + 1 / 10 ^ 7 /\ p = vadd (s_start c) (vscale (vsub (s_end c) (s_start c)) t).
Proof.
  unfold s_intersect. destruct (get_intersection_pt c s) as [[ta tb]|]; [|discriminate].
  destruct (Rleb_spec (- (1 / 10 ^ 12)) ta) as [A|A]; [|discriminate]. destruct (Rltb_spec ta (1 + 1 / 10 ^ 7)) as [A'|A']; [|discriminate].
  destruct (_ && _); [|discriminate]. intros E. injection E as <-. exists ta. split; [lra|reflexivity].
Qed.
Lemma intersect_on vs s len i p : In (i, p) (l_intersect vs s len) -> on_edge vs i p.
Proof.
  unfold l_intersect. destruct (Rltb len (1 / 1000)); [intros []|].
  assert (G : forall is, (forall j, In j is -> (j < length vs)%nat) -> forall ret, (forall j q, In (j, q) ret -> on_edge vs j q) ->
    forall j q, In (j, q) (fold_left (fun ret i => let current := l_edge vs i in
      if Rltb (s_length current) (1 / 100) || Rltb len (1 / 100) then ret else match s_intersect current s with Some p => add_pt ret i p | None => ret end) is ret) -> on_edge vs j q).
  { induction is as [|j0 is IH]; intros HI ret HR; [exact HR|]. cbn [fold_left]. apply IH; [intros; apply HI; now right|].
    intros j q. cbv zeta. destruct (Rltb _ _ || Rltb _ _); [apply HR|]. destruct (s_intersect (l_edge vs j0) s) as [p0|] eqn:E; [|apply HR].
    unfold add_pt. destruct (existsb _ ret); [apply HR|]. intros H. apply in_app_or in H as [H|[H|[]]]; [now apply HR|]. injection H as <- <-.
    split; [apply HI; now left|]. now apply s_intersect_on in E. }
  apply G; [intros j Hj; apply in_seq in Hj; lia|intros j q []].
Qed.
Lemma by_edge_incl xs : incl (by_edge xs) xs.
Proof.
  unfold by_edge. assert (G : forall ys acc, incl acc xs -> incl ys xs -> incl (fold_left (fun acc (x : nat * pt) => if existsb (Nat.eqb (fst x)) (map fst acc) then acc else acc ++ [x]) ys acc) xs).
  { induction ys as [|y ys IH]; intros acc A Y; [exact A|]. cbn [fold_left]. apply IH; [|intros z Hz; apply Y; now right].
    destruct (existsb _ _); [exact A|]. apply incl_app; [exact A|]. intros z [<-|[]]. apply Y. now left. }
  apply G; [intros z []|apply incl_refl].
Qed.

(** What a successful cut is: the loop itself, or what is left of two outlines after pushing and closing them *)
Lemma split_cases l seg ps : l_split l seg = Ok ps ->
  lclosed l = true /\ (ps = [l] \/ exists b m B M lp rp pl pr, (b < m)%nat /\ (m < length (lv l))%nat /\ on_edge (lv l) b B /\ on_edge (lv l) m M /\
    push_list loop_new (left_outline (lv l) b m B M) = Ok lp /\ push_list loop_new (right_outline (lv l) b m B M) = Ok rp /\ finish lp = Ok pl /\ finish rp = Ok pr /\ ps = pl ++ pr).
Proof.
  unfold l_split. destruct (lclosed l); [|discriminate]. cbn [negb]. destruct (l_at (lv l) 0) as [anchor| |]; cbn [bind]; try discriminate.
  cbv zeta. match goal with |- context [contains_segment (lv l) ?s] => set (seg' := s) end. split; [reflexivity|].
  destruct (contains_segment (lv l) seg' || Rltb (s_length seg) (1 / 10 ^ 6)); [injection H as <-; now left|].
  pose proof (by_edge_incl (l_intersect (lv l) seg' (s_length seg))) as I.
  destruct (by_edge (l_intersect (lv l) seg' (s_length seg))) as [|[i p] [|[j q] rest]]; [injection H as <-; now left|injection H as <-; now left|].
  assert (Hi : on_edge (lv l) i p) by (apply intersect_on with (s := seg') (len := s_length seg), I; now left).
  assert (Hj : on_edge (lv l) j q) by (apply intersect_on with (s := seg') (len := s_length seg), I; right; now left).
  destruct (Nat.eqb_spec i j) as [|Nij]; [injection H as <-; now left|]. destruct (compare p q); [injection H as <-; now left|].
  right.
  assert (G : forall b m B M, on_edge (lv l) b B -> on_edge (lv l) m M -> (b < m)%nat ->
    (do lr <- split_walk (lv l) b m B M (loop_new, loop_new) (seq 0 (length (lv l) + 1)); do pl <- finish (fst lr); do pr <- finish (snd lr); Ok (pl ++ pr)) = Ok ps ->
    exists b m B M lp rp pl pr, (b < m)%nat /\ (m < length (lv l))%nat /\ on_edge (lv l) b B /\ on_edge (lv l) m M /\
    push_list loop_new (left_outline (lv l) b m B M) = Ok lp /\ push_list loop_new (right_outline (lv l) b m B M) = Ok rp /\ finish lp = Ok pl /\ finish rp = Ok pr /\ ps = pl ++ pr).
  { intros b m B M OB OM BM E. destruct (split_walk _ _ _ _ _ _ _) as [[lp rp]| |] eqn:W; cbn [bind fst snd] in E; try discriminate.
    destruct (finish lp) as [pl| |] eqn:FL; cbn [bind] in E; try discriminate. destruct (finish rp) as [pr| |] eqn:FR; cbn [bind] in E; try discriminate. injection E as <-.
    destruct (walk_outlines _ _ _ _ _ _ _ BM (proj1 OM) W) as (PL & PR). exists b, m, B, M, lp, rp, pl, pr. repeat (split; [assumption || exact (proj1 OM)|]). reflexivity. }
  destruct (Nat.ltb_spec j i) as [L|L]; (eapply G; [..|exact H]); auto. lia.
Qed.

Lemma outline_spread vs b m B M D : (b < m)%nat -> (m < length vs)%nat -> on_edge vs b B -> on_edge vs m M -> spread D vs -> spread (101 / 100 * D) (vs ++ [B; M]).
Proof.
  intros BM ML (_ & tb & TB & EB) (_ & tm & TM & EM) S.
  assert (N : (0 < length vs)%nat) by lia.
  assert (D0 : 0 <= D) by (apply (spread_nonneg D vs S); destruct vs; [cbn in N; lia|discriminate]).
  assert (K : forall t, - (1 / 10 ^ 12) <= t <= 1 + 1 / 10 ^ 7 -> Rabs (1 - t) + Rabs t <= 1001 / 1000).
  { intros t T. unfold Rabs. destruct (Rcase_abs (1 - t)), (Rcase_abs t); lra. }
  assert (MIX : forall a c t w E, - (1 / 10 ^ 12) <= t <= 1 + 1 / 10 ^ 7 -> 0 <= E -> vlen (vsub a w) <= E -> vlen (vsub c w) <= E -> vlen (vsub (vadd a (vscale (vsub c a) t)) w) <= 1001 / 1000 * E).
  { intros a c t w E T E0 A C. replace (vsub (vadd a (vscale (vsub c a) t)) w) with (vadd (vscale (vsub a w) (1 - t)) (vscale (vsub c w) t)) by vring.
    eapply Rle_trans; [apply vlen_add|]. rewrite !vlen_scale. specialize (K t T). pose proof (Rabs_pos (1 - t)). pose proof (Rabs_pos t).
    assert (Rabs (1 - t) * vlen (vsub a w) <= Rabs (1 - t) * E) by (apply Rmult_le_compat_l; auto). assert (Rabs t * vlen (vsub c w) <= Rabs t * E) by (apply Rmult_le_compat_l; auto).
    assert ((Rabs (1 - t) + Rabs t) * E <= 1001 / 1000 * E) by (apply Rmult_le_compat_r; auto). lra. }
  assert (IN : forall i, (i < length vs)%nat -> In (nth i vs vzero) vs) by (intros; now apply nth_In).
  assert (IM : forall i, In (nth (i mod length vs) vs vzero) vs) by (intros; apply IN, Nat.mod_upper_bound; lia).
  assert (WB : forall w, In w vs -> vlen (vsub B w) <= 1001 / 1000 * D) by (intros w W; rewrite EB; apply MIX; auto; apply S; auto; apply IN; lia).
  assert (WM : forall w, In w vs -> vlen (vsub M w) <= 1001 / 1000 * D) by (intros w W; rewrite EM; apply MIX; auto; apply S; auto).
  assert (BMd : vlen (vsub B M) <= 1001 / 1000 * (1001 / 1000 * D)).
  { rewrite EB. apply MIX; [exact TB|lra| |]; rewrite vlen_sub_sym; apply WM; auto. apply IN; lia. }
  assert (Z : forall w, vlen (vsub w w) = 0) by (intros; rewrite vsub_self; apply vlen_0).
  intros x y X Y. apply in_app_or in X as [X|[<-|[<-|[]]]]; apply in_app_or in Y as [Y|[<-|[<-|[]]]].
  - specialize (S x y X Y). lra.
  - rewrite vlen_sub_sym. specialize (WB x X). lra.
  - rewrite vlen_sub_sym. specialize (WM x X). lra.
  - specialize (WB y Y). lra.
  - rewrite Z. lra.
  - lra.
  - specialize (WM y Y). lra.
  - rewrite vlen_sub_sym. lra.
  - rewrite Z. lra.
Qed.
Lemma pick_vs vs i : vs <> [] -> In (pick vs i) vs.
Proof. intros N. apply nth_In, Nat.mod_upper_bound. destruct vs; [congruence|discriminate]. Qed.
Lemma left_incl vs b m B M : vs <> [] -> incl (left_outline vs b m B M) (vs ++ [B; M]).
Proof.
  intros N v H. unfold left_outline in H. apply in_app_or in H as [H|[<-|[<-|H]]]; [|apply in_or_app; right; cbn; auto..|];
    apply in_map_iff in H as (i & <- & _); apply in_or_app; left; now apply pick_vs.
Qed.
Lemma right_incl vs b m B M : vs <> [] -> incl (right_outline vs b m B M) (vs ++ [B; M]).
Proof.
  intros N v H. unfold right_outline in H. destruct H as [<-|H]; [apply in_or_app; right; now left|]. apply in_app_or in H as [H|[<-|[]]]; [|apply in_or_app; right; cbn; auto].
  apply in_map_iff in H as (i & <- & _); apply in_or_app; left; now apply pick_vs.
Qed.

(** The sum of the vector areas of some loops *)
Fixpoint total_area2 (ls : list Loop) : pt := match ls with [] => vzero | l :: ls' => vadd (area2 (lv l)) (total_area2 ls') end.
Lemma finish_area D o l ps : push_list loop_new o = Ok l -> finish l = Ok ps -> spread D o -> o <> [] ->
  vlen (vsub (area2 o) (total_area2 ps)) <= (INR (length o) + 2) * slack D /\ (forall x, In x ps -> lclosed x = true /\ incl (lv x) o /\ larea x = vdot (ln x) (area2 (lv x)) / 2 /\ 0 <= larea x) /\ (length ps <= 1)%nat.
Proof.
  intros P F S N. assert (D0 : 0 <= D) by (eapply spread_nonneg; eauto). pose proof (slack_pos D D0) as S0.
  destruct (push_list_area D o loop_new l [] P) as (A & I & _); [cbn; now rewrite app_nil_r|exact D0|]. cbn [loop_new lv app] in A, I. rewrite !app_nil_r in A.
  unfold finish in F. destruct (Nat.ltb_spec 2 (length (lv l))) as [L|L].
  - destruct (closed_loop l) as [l'| |] eqn:C; cbn [bind] in F; try discriminate. injection F as <-.
    assert (C0 := C). unfold closed_loop in C0. destruct (close l) as [[[]| |] l0] eqn:CL; try discriminate. injection C0 as ->.
    apply close_spec in CL as (_ & _ & _ & _ & AR & AP & _).
    destruct (close_area D l l' C) as (A2 & I2 & _ & CC); [apply (spread_sub _ _ _ S), I|]. split; [|split; [|cbn; lia]].
    + cbn [total_area2]. rewrite vadd_0_r. replace ((INR (length o) + 2) * slack D) with (INR (length o) * slack D + 2 * slack D) by ring. eapply vlen_sub_chain; eauto.
    + intros x [<-|[]]. split; [exact CC|]. split; [intros v V; apply I, I2, V|]. auto.
  - injection F as <-. split; [|split; [intros x []|cbn; lia]]. cbn [total_area2].
    assert (Z : area2 (lv l) = vzero) by (destruct (lv l) as [|x [|y [|]]]; [reflexivity|apply area2_one|apply area2_two|cbn in L; lia]).
    rewrite <- Z. replace ((INR (length o) + 2) * slack D) with (INR (length o) * slack D + 2 * slack D) by ring. lra.
Qed.
Lemma total_app a b : total_area2 (a ++ b) = vadd (total_area2 a) (total_area2 b).
Proof. induction a as [|x a IH]; cbn [app total_area2]; [now rewrite vadd_0_l|]. rewrite IH. now rewrite vadd_assoc. Qed.

(** ** The theorems *)

(** The pieces are closed loops, one or two or none; their corners are corners of the loop, or one of two points on two of its edges *)
Theorem C116_pieces (l : Loop) (seg : Segment) (ps : list Loop) : l_split l seg = Ok ps ->
  (length ps <= 2)%nat /\ exists B M, forall x, In x ps -> lclosed x = true /\ forall v, In v (lv x) -> In v (lv l) \/ (v = B /\ exists i, on_edge (lv l) i v) \/ (v = M /\ exists i, on_edge (lv l) i v).
Proof.
  intros E. apply split_cases in E as (C & [->|(b & m & B & M & lp & rp & pl & pr & BM & ML & OB & OM & PL & PR & FL & FR & ->)]).
  - split; [cbn; lia|]. exists vzero, vzero. intros x [<-|[]]. auto.
  - assert (N : lv l <> []) by (destruct (lv l); [cbn in ML; lia|discriminate]).
    assert (S : exists D, spread D (lv l)).
    { clear. induction (lv l) as [|a vs (D & IH)]; [exists 0; intros x y []|].
      assert (H : exists E, forall x, In x vs -> vlen (vsub a x) <= E).
      { clear. induction vs as [|b vs (E & IH)]; [exists 0; intros x []|]. exists (Rmax E (vlen (vsub a b))). intros x [<-|X]; [apply Rmax_r|]. eapply Rle_trans; [now apply IH|apply Rmax_l]. }
      destruct H as (E & H). exists (Rmax (Rmax D E) (vlen (vsub a a))).
      intros x y [<-|X] [<-|Y]; [apply Rmax_r| | |]; (eapply Rle_trans; [|apply Rmax_l]).
      - eapply Rle_trans; [now apply H|apply Rmax_r].
      - rewrite vlen_sub_sym. eapply Rle_trans; [now apply H|apply Rmax_r].
      - eapply Rle_trans; [now apply IH|apply Rmax_l]. }
    destruct S as (D & S). pose proof (outline_spread _ _ _ _ _ _ BM ML OB OM S) as S2.
    destruct (finish_area (101 / 100 * D) _ _ _ PL FL) as (_ & IL & LL); [apply (spread_sub _ _ _ S2), left_incl, N|unfold left_outline; destruct (map (pick (lv l)) (seq 0 (b + 1))); discriminate|].
    destruct (finish_area (101 / 100 * D) _ _ _ PR FR) as (_ & IR & LR); [apply (spread_sub _ _ _ S2), right_incl, N|discriminate|].
    split; [rewrite app_length; lia|]. exists B, M. intros x X.
    assert (H : lclosed x = true /\ incl (lv x) (lv l ++ [B; M])).
    { apply in_app_or in X as [X|X]; [destruct (IL x X) as (C1 & I1 & _)|destruct (IR x X) as (C1 & I1 & _)]; (split; [exact C1|]); intros v V; apply I1 in V; [now apply left_incl in V|now apply right_incl in V]. }
    destruct H as (H1 & H2). split; [exact H1|]. intros v V. apply H2 in V. apply in_app_or in V as [V|[<-|[<-|[]]]]; eauto.
Qed.

(** The vector areas of the pieces add up to that of the loop, but for the cleaning of their outlines: [n + 9] times a hundredth
    of a square centimetre, or a thousandth of the diameter [D] times a metre *)
Theorem C116_vector_area (l : Loop) (seg : Segment) (ps : list Loop) (D : R) : l_split l seg = Ok ps ->
  (forall a b, In a (lv l) -> In b (lv l) -> vlen (vsub a b) <= D) ->
  vlen (vsub (area2 (lv l)) (total_area2 ps)) <= (INR (length (lv l)) + 9) * (1 / 10 ^ 5 + 101 / 100 * D / 1000).
Proof.
  intros E S. fold (spread D (lv l)) in S.
  assert (POS : lv l <> [] -> 0 <= (INR (length (lv l)) + 9) * (1 / 10 ^ 5 + 101 / 100 * D / 1000)).
  { intros N. pose proof (spread_nonneg _ _ S N). pose proof (pos_INR (length (lv l))). apply Rmult_le_pos; lra. }
  assert (NE : lv l <> []). { unfold l_split in E. destruct (lclosed l); [|discriminate]. cbn in E. destruct (lv l); [discriminate|discriminate]. }
  apply split_cases in E as (C & [->|(b & m & B & M & lp & rp & pl & pr & BM & ML & OB & OM & PL & PR & FL & FR & ->)]).
  - cbn [total_area2]. rewrite vadd_0_r, vsub_self, vlen_0. auto.
  - pose proof (outline_spread _ _ _ _ _ _ BM ML OB OM S) as S2.
    destruct (finish_area (101 / 100 * D) _ _ _ PL FL) as (AL & _ & _); [apply (spread_sub _ _ _ S2), left_incl, NE|unfold left_outline; destruct (map (pick (lv l)) (seq 0 (b + 1))); discriminate|].
    destruct (finish_area (101 / 100 * D) _ _ _ PR FR) as (AR & _ & _); [apply (spread_sub _ _ _ S2), right_incl, NE|discriminate|].
    rewrite total_app. destruct OB as (_ & tb & _ & EB). destruct OM as (_ & tm & _ & EM).
    assert (OA : vadd (area2 (left_outline (lv l) b m B M)) (area2 (right_outline (lv l) b m B M)) = area2 (lv l)).
    { apply (outlines_area (lv l) b m B M tb tm BM ML); unfold on_line; [rewrite (pick_in _ b) by lia; exact EB|rewrite (pick_in _ m) by lia; exact EM]. }
    rewrite <- OA.
    replace (vsub (vadd (area2 (left_outline (lv l) b m B M)) (area2 (right_outline (lv l) b m B M))) (vadd (total_area2 pl) (total_area2 pr)))
      with (vadd (vsub (area2 (left_outline (lv l) b m B M)) (total_area2 pl)) (vsub (area2 (right_outline (lv l) b m B M)) (total_area2 pr)))
      by (set (x1 := area2 _); set (x2 := area2 _); set (x3 := total_area2 pl); set (x4 := total_area2 pr); clearbody x1 x2 x3 x4; vring).
    eapply Rle_trans; [apply vlen_add|]. fold (slack (101 / 100 * D)).
    replace ((INR (length (lv l)) + 9) * slack (101 / 100 * D)) with ((INR (length (left_outline (lv l) b m B M)) + 2) * slack (101 / 100 * D) + (INR (length (right_outline (lv l) b m B M)) + 2) * slack (101 / 100 * D)); [lra|].
    assert (LEN : (length (left_outline (lv l) b m B M) + length (right_outline (lv l) b m B M) = length (lv l) + 5)%nat).
    { unfold left_outline, right_outline. cbn [length]. rewrite !app_length. cbn [length]. rewrite !map_length, !seq_length. lia. }
    apply (f_equal INR) in LEN. rewrite !plus_INR in LEN. cbn [INR] in LEN. rewrite <- Rmult_plus_distr_r. f_equal. lra.
Qed.

(** So do the areas, when the pieces keep the direction of the loop *)
Fixpoint total_area (ls : list Loop) : R := match ls with [] => 0 | l :: ls' => larea l + total_area ls' end.
Theorem C116_area_partial (l l0 : Loop) (seg : Segment) (ps : list Loop) (D : R) : close l0 = (Ok tt, l) -> vlen2 (ln l) = 1 -> l_split l seg = Ok ps ->
  (forall x, In x ps -> ln x = ln l) ->
  (forall a b, In a (lv l) -> In b (lv l) -> vlen (vsub a b) <= D) ->
  Rabs (larea l - total_area ps) <= (INR (length (lv l)) + 9) * (1 / 10 ^ 5 + 101 / 100 * D / 1000) / 2.
Proof.
  intros CL U E DIR S. pose proof (C116_vector_area l seg ps D E S) as V.
  apply close_spec in CL as (_ & _ & _ & _ & AR & AP & _).
  assert (T : total_area ps = vdot (ln l) (total_area2 ps) / 2).
  { assert (EA : forall x, In x ps -> larea x = vdot (ln x) (area2 (lv x)) / 2).
    { intros x X. apply split_cases in E as (C & [->|(b & m & B & M & lp & rp & pl & pr & BM & ML & OB & OM & PL & PR & FL & FR & ->)]).
      - destruct X as [<-|[]]. exact AR.
      - assert (NE : lv l <> []) by (destruct (lv l); [cbn in ML; lia|discriminate]).
        pose proof (outline_spread _ _ _ _ _ _ BM ML OB OM S) as S2.
        destruct (finish_area (101 / 100 * D) _ _ _ PL FL) as (_ & HL & _); [apply (spread_sub _ _ _ S2), left_incl, NE|unfold left_outline; destruct (map (pick (lv l)) (seq 0 (b + 1))); discriminate|].
        destruct (finish_area (101 / 100 * D) _ _ _ PR FR) as (_ & HR & _); [apply (spread_sub _ _ _ S2), right_incl, NE|discriminate|].
        apply in_app_or in X as [X|X]; [apply HL|apply HR]; exact X. }
    clear - EA DIR. induction ps as [|x ps IH]; cbn [total_area total_area2]; [unfold vzero; replace (vdot (ln l) _) with 0 by vring; lra|].
    rewrite IH; [|intros; apply DIR; now right|intros; apply EA; now right]. rewrite (EA x (or_introl eq_refl)), (DIR x (or_introl eq_refl)).
    set (a := area2 _). set (b := total_area2 ps). clearbody a b. replace (vdot (ln l) (vadd a b)) with (vdot (ln l) a + vdot (ln l) b) by vring. lra. }
  rewrite AR, T. set (a := area2 (lv l)) in *. set (t := total_area2 ps) in *. clearbody a t.
  replace (vdot (ln l) a / 2 - vdot (ln l) t / 2) with (vdot (ln l) (vsub a t) / 2) by (replace (vdot (ln l) (vsub a t)) with (vdot (ln l) a - vdot (ln l) t) by vring; lra).
  assert (CS : Rabs (vdot (ln l) (vsub a t)) <= vlen (vsub a t)).
  { apply Rsqr_le_abs_0 || idtac. rewrite <- (Rabs_pos_eq (vlen (vsub a t))) by apply vlen_nonneg. apply Rsqr_le_abs_0. unfold Rsqr. rewrite vlen_sqr.
    pose proof (lagrange (ln l) (vsub a t)) as L. rewrite U in L. pose proof (vlen2_nonneg (vcross (ln l) (vsub a t))). lra. }
  unfold Rdiv at 1. rewrite Rabs_mult, (Rabs_pos_eq (/ 2)) by lra. lra.
Qed.

(** *** Flat loops: the pieces are as flat, so that their areas are those of their projections *)
Lemma finish_pieces u o l ps : vlen2 u = 1 -> (forall a b, In a o -> In b o -> vdot u (vsub a b) = 0) -> push_list loop_new o = Ok l -> finish l = Ok ps ->
  total_area ps = Rabs (vdot u (total_area2 ps)) / 2.
Proof.
  intros U F P E. unfold finish in E. destruct (2 <? length (lv l))%nat.
  - unfold closed_loop in E. destruct (close l) as [[[]| |] l1] eqn:C; cbn [bind] in E; try discriminate. injection E as <-. cbn [total_area total_area2].
    rewrite vadd_0_r, Rplus_0_r. now apply (piece_area u o l).
  - injection E as <-. cbn [total_area total_area2]. replace (vdot u vzero) with 0 by (unfold vzero; vring). rewrite Rabs_R0. lra.
Qed.
Lemma flat_cuts u vs b m B M : (b < m)%nat -> (m < length vs)%nat -> (forall x y, In x vs -> In y vs -> vdot u (vsub x y) = 0) -> on_edge vs b B -> on_edge vs m M ->
  forall x y, In x (vs ++ [B; M]) -> In y (vs ++ [B; M]) -> vdot u (vsub x y) = 0.
Proof.
  intros BM ML F (_ & tb & _ & EB) (_ & tm & _ & EM).
  assert (IN : forall i, (i < length vs)%nat -> In (nth i vs vzero) vs) by (intros; now apply nth_In).
  set (a0 := nth 0 vs vzero). assert (A0 : In a0 vs) by (apply IN; lia).
  assert (MIX : forall p q t, In p vs -> In q vs -> vdot u (vsub (vadd p (vscale (vsub q p) t)) a0) = 0).
  { intros p q t P Q. replace (vdot u (vsub (vadd p (vscale (vsub q p) t)) a0)) with (vdot u (vsub p a0) + t * vdot u (vsub q p)) by vring. rewrite !F by assumption. ring. }
  assert (G : forall x, In x (vs ++ [B; M]) -> vdot u (vsub x a0) = 0).
  { intros x X. apply in_app_or in X as [X|[<-|[<-|[]]]]; [now apply F|rewrite EB|rewrite EM]; apply MIX; apply IN; try apply Nat.mod_upper_bound; lia. }
  intros x y X Y. replace (vdot u (vsub x y)) with (vdot u (vsub x a0) - vdot u (vsub y a0)) by vring. rewrite !G by assumption. ring.
Qed.
Lemma dot_le u t : vlen2 u = 1 -> Rabs (vdot u t) <= vlen t.
Proof.
  intros U. rewrite <- (Rabs_pos_eq (vlen t)) by apply vlen_nonneg. apply Rsqr_le_abs_0. unfold Rsqr. rewrite vlen_sqr.
  pose proof (lagrange u t) as L. rewrite U in L. pose proof (vlen2_nonneg (vcross u t)). lra.
Qed.

(** No area is lost when a flat loop is cut, but for the cleaning *)
Theorem C116_not_lost (l l0 : Loop) (seg : Segment) (ps : list Loop) (D : R) : close l0 = (Ok tt, l) -> vlen2 (ln l) = 1 ->
  (forall a b, In a (lv l) -> In b (lv l) -> vdot (ln l) (vsub a b) = 0) ->
  (forall a b, In a (lv l) -> In b (lv l) -> vlen (vsub a b) <= D) ->
  l_split l seg = Ok ps ->
  larea l <= total_area ps + (INR (length (lv l)) + 9) * (1 / 10 ^ 5 + 101 / 100 * D / 1000) / 2.
Proof.
  intros CL U F S E. pose proof (C116_vector_area l seg ps D E S) as V. apply close_spec in CL as (_ & _ & _ & _ & AR & AP & _).
  assert (T : vdot (ln l) (total_area2 ps) / 2 <= total_area ps).
  { apply split_cases in E as (C & [->|(b & m & B & M & lp & rp & pl & pr & BM & ML & OB & OM & PL & PR & FL & FR & ->)]).
    - cbn [total_area total_area2]. rewrite vadd_0_r, Rplus_0_r. lra.
    - assert (N : lv l <> []) by (destruct (lv l); [cbn in ML; lia|discriminate]). pose proof (flat_cuts _ _ _ _ _ _ BM ML F OB OM) as F2.
      pose proof (finish_pieces (ln l) _ _ _ U (fun a b X Y => F2 a b (left_incl _ _ _ _ _ N a X) (left_incl _ _ _ _ _ N b Y)) PL FL) as TL.
      pose proof (finish_pieces (ln l) _ _ _ U (fun a b X Y => F2 a b (right_incl _ _ _ _ _ N a X) (right_incl _ _ _ _ _ N b Y)) PR FR) as TR.
      assert (TA : total_area (pl ++ pr) = total_area pl + total_area pr) by (clear; induction pl as [|x pl IH]; cbn [app total_area]; [lra|rewrite IH; lra]).
      rewrite total_app, TA, TL, TR. set (x := total_area2 pl). set (y := total_area2 pr). replace (vdot (ln l) (vadd x y)) with (vdot (ln l) x + vdot (ln l) y) by vring.
      pose proof (Rle_abs (vdot (ln l) x)). pose proof (Rle_abs (vdot (ln l) y)). lra. }
  pose proof (dot_le (ln l) (vsub (area2 (lv l)) (total_area2 ps)) U) as DL. rewrite AR. revert V DL T. generalize (total_area2 ps) (area2 (lv l)). intros t a V DL T.
  replace (vdot (ln l) (vsub a t)) with (vdot (ln l) a - vdot (ln l) t) in DL by vring. pose proof (Rle_abs (vdot (ln l) a - vdot (ln l) t)). lra.
Qed.

(** When the loop is convex as well none is made up: the areas of the pieces add up to that of the loop *)
Theorem C116_area (l l0 : Loop) (seg : Segment) (ps : list Loop) (D : R) : close l0 = (Ok tt, l) -> vlen2 (ln l) = 1 ->
  (forall a b, In a (lv l) -> In b (lv l) -> vdot (ln l) (vsub a b) = 0) ->
  (forall i w, (i < length (lv l))%nat -> In w (lv l) ->
     0 <= vdot (ln l) (vcross (vsub (nth ((i + 1) mod length (lv l)) (lv l) vzero) (nth i (lv l) vzero)) (vsub w (nth i (lv l) vzero)))) ->
  (forall a b, In a (lv l) -> In b (lv l) -> vlen (vsub a b) <= D) ->
  l_split l seg = Ok ps ->
  Rabs (larea l - total_area ps) <= (INR (length (lv l)) + 9) * (1 / 10 ^ 5 + 101 / 100 * D / 1000) / 2 + (INR (length (lv l)) + 2) * (4 / 10 ^ 6 * (D * D)).
Proof.
  intros CL U F CV S E. assert (N : lv l <> []). { unfold l_split in E. destruct (lclosed l); [|discriminate]. cbn in E. destruct (lv l); discriminate. }
  assert (CV' : convex (ln l) (lv l)).
  { intros i w I W. rewrite (pick_in _ i I). unfold pick. specialize (CV i w I W). rewrite tri2_cross. set (x := nth i _ _) in *. set (y := nth ((i + 1) mod _) _ _) in *.
    replace (vdot (ln l) (vcross (vsub x w) (vsub y w))) with (vdot (ln l) (vcross (vsub y x) (vsub w x))) by vring. exact CV. }
  pose proof (spread_nonneg D (lv l) S N) as D0. pose proof (pos_INR (length (lv l))) as N0.
  assert (E0 : 0 <= (INR (length (lv l)) + 2) * (4 / 10 ^ 6 * (D * D))) by (apply Rmult_le_pos; [lra|]; apply Rmult_le_pos; [lra|nra]).
  apply close_spec in CL as (_ & _ & _ & _ & AR & AP & _).
  apply split_cases in E as (C & [->|(b & m & B & M & lp & rp & pl & pr & BM & ML & OB & OM & PL & PR & FL & FR & ->)]).
  - cbn [total_area]. rewrite Rplus_0_r, Rminus_diag_eq, Rabs_R0 by reflexivity.
    assert (0 <= (INR (length (lv l)) + 9) * (1 / 10 ^ 5 + 101 / 100 * D / 1000)) by (apply Rmult_le_pos; lra). lra.
  - pose proof (flat_cuts _ _ _ _ _ _ BM ML F OB OM) as F2. pose proof (outline_spread _ _ _ _ _ _ BM ML OB OM S) as S2.
    pose proof (finish_pieces (ln l) _ _ _ U (fun a b X Y => F2 a b (left_incl _ _ _ _ _ N a X) (left_incl _ _ _ _ _ N b Y)) PL FL) as TL.
    pose proof (finish_pieces (ln l) _ _ _ U (fun a b X Y => F2 a b (right_incl _ _ _ _ _ N a X) (right_incl _ _ _ _ _ N b Y)) PR FR) as TR.
    assert (TA : total_area (pl ++ pr) = total_area pl + total_area pr) by (clear; induction pl as [|x pl IH]; cbn [app total_area]; [lra|rewrite IH; lra]).
    destruct (finish_area (101 / 100 * D) _ _ _ PL FL) as (AL & _ & _); [apply (spread_sub _ _ _ S2), left_incl, N|unfold left_outline; destruct (map (pick (lv l)) (seq 0 (b + 1))); discriminate|].
    destruct (finish_area (101 / 100 * D) _ _ _ PR FR) as (ARr & _ & _); [apply (spread_sub _ _ _ S2), right_incl, N|discriminate|].
    destruct OB as (_ & tb & TB & EB). destruct OM as (_ & tm & TM & EM).
    assert (LB : on_line (pick (lv l) b) (pick (lv l) (b + 1)) B tb) by (unfold on_line; rewrite (pick_in _ b) by lia; exact EB).
    assert (LM : on_line (pick (lv l) m) (pick (lv l) (m + 1)) M tm) by (unfold on_line; rewrite (pick_in _ m) by lia; exact EM).
    pose proof (outlines_area (lv l) b m B M tb tm BM ML LB LM) as OA.
    destruct (outlines_positive (ln l) (lv l) D b m B M tb tm U S CV' BM ML LB TB LM TM) as (QL & QR).
    assert (LEN : (length (left_outline (lv l) b m B M) + length (right_outline (lv l) b m B M) = length (lv l) + 5)%nat).
    { unfold left_outline, right_outline. cbn [length]. rewrite !app_length. cbn [length]. rewrite !map_length, !seq_length. lia. }
    apply (f_equal INR) in LEN. rewrite !plus_INR in LEN. cbn [INR] in LEN.
    rewrite TA, TL, TR, AR, <- OA. unfold slack in AL, ARr.
    pose proof (dot_le (ln l) _ U : Rabs (vdot (ln l) (vsub (area2 (left_outline (lv l) b m B M)) (total_area2 pl))) <= _) as DL.
    pose proof (dot_le (ln l) _ U : Rabs (vdot (ln l) (vsub (area2 (right_outline (lv l) b m B M)) (total_area2 pr))) <= _) as DR.
    set (al := area2 (left_outline _ _ _ _ _)) in *. set (ar := area2 (right_outline _ _ _ _ _)) in *. set (xl := total_area2 pl) in *. set (xr := total_area2 pr) in *.
    set (u := ln l) in *. replace (vdot u (vsub al xl)) with (vdot u al - vdot u xl) in DL by vring. replace (vdot u (vsub ar xr)) with (vdot u ar - vdot u xr) in DR by vring.
    replace (vdot u (vadd al ar)) with (vdot u al + vdot u ar) by vring.
    set (K := 1 / 10 ^ 5 + 101 / 100 * D / 1000) in *. set (nl := INR (length (left_outline _ _ _ _ _))) in *. set (nr := INR (length (right_outline _ _ _ _ _))) in *. set (n := INR (length (lv l))) in *.
    assert (SUM : (nl + 2) * K + (nr + 2) * K = (n + 9) * K) by (replace nl with (n + 5 - nr) by lra; ring).
    assert (AB : forall x t d e, 0 <= e -> - e <= x -> Rabs (x - t) <= d -> Rabs (x - Rabs t) <= d + 2 * e).
    { clear. intros x t d e E0 X T. unfold Rabs in *. destruct (Rcase_abs (x - t)), (Rcase_abs t); destruct (Rcase_abs _); lra. }
    set (eps := (n + 2) * (2 / 10 ^ 6 * (D * D))) in *.
    assert (EP : 0 <= eps) by (unfold eps; apply Rmult_le_pos; [lra|]; apply Rmult_le_pos; [lra|nra]).
    assert (EQ : (n + 2) * (4 / 10 ^ 6 * (D * D)) = 2 * eps) by (unfold eps; field).
    assert (BL := AB (vdot u al) (vdot u xl) ((nl + 2) * K) eps EP QL (Rle_trans _ _ _ DL AL)).
    assert (BR := AB (vdot u ar) (vdot u xr) ((nr + 2) * K) eps EP QR (Rle_trans _ _ _ DR ARr)).
    rewrite EQ. replace ((vdot u al + vdot u ar) / 2 - (Rabs (vdot u xl) / 2 + Rabs (vdot u xr) / 2)) with (((vdot u al - Rabs (vdot u xl)) + (vdot u ar - Rabs (vdot u xr))) / 2) by field.
    unfold Rdiv at 1. rewrite Rabs_mult, (Rabs_pos_eq (/ 2)) by lra.
    pose proof (Rabs_triang (vdot u al - Rabs (vdot u xl)) (vdot u ar - Rabs (vdot u xr))). lra.
Qed.

(** Cutting with many segments gives closed loops, and at most twice as many with each segment *)
Theorem C116_slice (segs : list Segment) : forall (l : Loop) (ps : list Loop), lclosed l = true -> split_from_slice l segs = Ok ps ->
  (forall x, In x ps -> lclosed x = true) /\ (length ps <= 2 ^ length segs)%nat.
Proof.
  intros l ps C E. unfold split_from_slice in E.
  assert (A : forall ls seg ps, split_all ls seg = Ok ps -> (forall x, In x ps -> lclosed x = true) /\ (length ps <= 2 * length ls)%nat).
  { induction ls as [|x ls IH]; intros seg qs Q; cbn [split_all] in Q; [injection Q as <-; split; [intros y []|cbn; lia]|].
    destruct (l_split x seg) as [a| |] eqn:X; cbn [bind] in Q; try discriminate. destruct (split_all ls seg) as [b| |] eqn:Y; cbn [bind] in Q; try discriminate. injection Q as <-.
    destruct (C116_pieces _ _ _ X) as (LA & B & M & HA). destruct (IH _ _ Y) as (HB & LB). split; [|rewrite app_length; cbn [length]; lia].
    intros y Hy. apply in_app_or in Hy as [Hy|Hy]; [apply HA, Hy|now apply HB]. }
  assert (G : forall segs ls ps, (forall x, In x ls -> lclosed x = true) -> split_slice ls segs = Ok ps -> (forall x, In x ps -> lclosed x = true) /\ (length ps <= 2 ^ length segs * length ls)%nat).
  { clear - A. induction segs as [|s segs IH]; intros ls ps H E; cbn [split_slice] in E; [injection E as <-; split; [exact H|cbn; lia]|].
    destruct (split_all ls s) as [qs| |] eqn:Q; cbn [bind] in E; try discriminate. destruct (A _ _ _ Q) as (HQ & LQ). destruct (IH _ _ HQ E) as (HP & LP). split; [exact HP|].
    cbn [length Nat.pow]. nia. }
  destruct (G segs [l] ps) as (H & L); [intros x [<-|[]]; exact C|exact E|]. split; [exact H|]. cbn [length] in L. lia.
Qed.

(** ** A square cut in two, a loop that is cut where it is not, and a cut that is not made *)
Opaque IZR Rdiv Rminus Rplus Rmult Ropp Rabs sqrt pow Rinv.
Lemma split_run l seg seg' a i p j q rest lp rp pl pr : lclosed l = true -> l_at (lv l) 0 = Ok a ->
  (if Rltb (Rabs (distance_to_plane (s_start seg) a (ln l))) (1 / 1000) && Rltb (Rabs (distance_to_plane (s_end seg) a (ln l))) (1 / 1000)
   then mkS (project_into_plane (s_start seg) a (ln l)) (project_into_plane (s_end seg) a (ln l)) else seg) = seg' ->
  contains_segment (lv l) seg' = false -> Rltb (s_length seg) (1 / 10 ^ 6) = false -> l_intersect (lv l) seg' (s_length seg) = (i, p) :: (j, q) :: rest -> (i < j)%nat ->
  compare p q = false -> split_walk (lv l) i j p q (loop_new, loop_new) (seq 0 (length (lv l) + 1)) = Ok (lp, rp) -> finish lp = Ok pl -> finish rp = Ok pr -> by_edge ((i, p) :: (j, q) :: rest) = (i, p) :: (j, q) :: rest ->
  l_split l seg = Ok (pl ++ pr).
Proof.
  intros C A S K T I IJ N W F G B. unfold l_split. rewrite C, A. cbn [negb bind]. cbv zeta. rewrite S, K, T. cbn [orb]. rewrite I, B.
  destruct (Nat.eqb_spec i j) as [|_]; [lia|]. rewrite N. destruct (Nat.ltb_spec j i) as [|_]; [lia|]. rewrite W. cbn [bind fst snd]. rewrite F, G. reflexivity.
Qed.
Lemma split_walk_cons vs b m B M lr lr' i is r : split_step vs b m B M lr i = Ok lr' -> split_walk vs b m B M lr' is = r -> split_walk vs b m B M lr (i :: is) = r.
Proof. intros H <-. cbn [split_walk]. now rewrite H. Qed.

Definition half_a : Loop := mkLoop [P2 0 0; P2 3 0; P2 3 6; P2 0 6] Up true 18 18.
Definition half_b : Loop := mkLoop [P2 3 0; P2 6 0; P2 6 6; P2 3 6] Up true 18 18.
Example C116_example : l_split square (mkS (P2 3 (-1)) (P2 3 7)) = Ok [half_a; half_b].
Proof.
  change [half_a; half_b] with ([half_a] ++ [half_b]).
  eapply split_run with (a := P2 0 0) (seg' := mkS (P2 3 (-1)) (P2 3 7)) (i := 0%nat) (j := 2%nat) (p := P2 3 0) (q := P2 3 6) (rest := []).
  - reflexivity.
  - reflexivity.
  - rrun.
  - rrun.
  - rrun.
  - rrun.
  - lia.
  - rrun.
  - cbn [square lv length Nat.add seq].
    eapply split_walk_cons with (lr' := (LL [P2 0 0] vzero, loop_new)); [rrun|].
    eapply split_walk_cons with (lr' := (LL [P2 0 0; P2 3 0] vzero, LL [P2 3 0; P2 6 0] vzero)); [rrun|].
    eapply split_walk_cons with (lr' := (LL [P2 0 0; P2 3 0] vzero, LL [P2 3 0; P2 6 0; P2 6 6] Up)); [rrun|].
    eapply split_walk_cons with (lr' := (LL [P2 0 0; P2 3 0; P2 3 6; P2 0 6] Up, LL [P2 3 0; P2 6 0; P2 6 6; P2 3 6] Up)); [rrun|].
    eapply split_walk_cons with (lr' := (LL [P2 0 0; P2 3 0; P2 3 6; P2 0 6; P2 0 0] Up, LL [P2 3 0; P2 6 0; P2 6 6; P2 3 6] Up)); [rrun|].
    reflexivity.
  - rrun.
  - rrun.
  - rrun.
Qed.
(** ... and what the theorems say of it *)
Example C116_example_area : total_area [half_a; half_b] = larea square.
Proof. cbn [total_area half_a half_b larea square]. rcalc. Qed.

(** A loop with a notch is cut along the first two of its edges that meet the segment, here those of the notch: one piece is part of
    the notch, which is no part of the loop, and the pieces have more area than the loop *)
Definition Down : pt := mkV 0 0 (-1).
Definition notched : Loop := mkLoop [P2 6 6; P2 3 2; P2 0 6; P2 0 0; P2 6 0] Up true 24 28.
Example notched_closed : close (LL [P2 6 6; P2 3 2; P2 0 6; P2 0 0; P2 6 0] Down) = (Ok tt, notched).
Proof. rrun. Qed.
Theorem C116_notch_refuted : exists a b, l_split notched (mkS (P2 (-1) 4) (P2 7 4)) = Ok [a; b] /\ larea a = 27 /\ larea b = 3 /\ larea notched = 24 /\
  l_test_point notched (P2 3 3) = Ok false /\ lv b = [P2 (9 / 2) 4; P2 3 2; P2 (3 / 2) 4].
Proof.
  set (p := P2 (9 / 2) 4). set (q := P2 (3 / 2) 4).
  set (pa := mkLoop [P2 6 6; p; q; P2 0 6; P2 0 0; P2 6 0] Up true 27 26).
  set (pb := mkLoop [p; P2 3 2; q] Down true 3 8).
  exists pa, pb. split; [|do 3 (split; [reflexivity|]); split; [|reflexivity]].
  - change [pa; pb] with ([pa] ++ [pb]).
    eapply split_run with (a := P2 6 6) (seg' := mkS (P2 (-1) 4) (P2 7 4)) (i := 0%nat) (j := 1%nat) (p := p) (q := q) (rest := [(2%nat, P2 0 4); (4%nat, P2 6 4)]).
    + reflexivity.
    + reflexivity.
    + rrun.
    + rrun.
    + rrun.
    + rrun.
    + lia.
    + rrun.
    + cbn [notched lv length Nat.add seq].
      eapply split_walk_cons with (lr' := (LL [P2 6 6] vzero, loop_new)); [rrun|].
      eapply split_walk_cons with (lr' := (LL [P2 6 6; p] vzero, LL [p; P2 3 2] vzero)); [rrun|].
      eapply split_walk_cons with (lr' := (LL [P2 6 6; p; q; P2 0 6] Down, LL [p; P2 3 2; q] Down)); [rrun|].
      eapply split_walk_cons with (lr' := (LL [P2 6 6; p; q; P2 0 6; P2 0 0] Down, LL [p; P2 3 2; q] Down)); [rrun|].
      eapply split_walk_cons with (lr' := (LL [P2 6 6; p; q; P2 0 6; P2 0 0; P2 6 0] Down, LL [p; P2 3 2; q] Down)); [rrun|].
      eapply split_walk_cons with (lr' := (LL [P2 6 6; p; q; P2 0 6; P2 0 0; P2 6 0; P2 6 6] Down, LL [p; P2 3 2; q] Down)); [rrun|].
      reflexivity.
    + rrun.
    + rrun.
    + rrun.
  - etransitivity; [eapply test_point_steps; [reflexivity|nfin|cbn [lv length seq notched]; crossings]|reflexivity].
Qed.

(** A segment that reaches from one edge of the loop to another, and no further, does not cut it *)
Theorem C116_edge_to_edge_refuted : l_split square (mkS (P2 3 0) (P2 3 6)) = Ok [square] /\
  contains_point (mkS (P2 0 0) (P2 6 0)) (P2 3 0) = Ok true /\ contains_point (mkS (P2 6 6) (P2 0 6)) (P2 3 6) = Ok true.
Proof.
  split; [|split; rrun].
  unfold l_split. cbn [square lclosed negb lv l_at bind nth_error]. cbv zeta.
  match goal with |- context [contains_segment _ ?s] => replace s with (mkS (P2 3 0) (P2 3 6)) by (symmetry; rrun) end.
  replace (contains_segment _ _) with false by (symmetry; rrun).
  replace (Rltb (s_length _) (1 / 10 ^ 6)) with false by (symmetry; rrun).
  replace (l_intersect _ _ _) with (@nil (nat * pt)) by (symmetry; rrun).
  reflexivity.
Qed.

(** the square is flat and convex, and no two corners are further than 9 apart: C116_area holds for it *)
Example C116_example_convex : vlen2 (ln square) = 1 /\ (forall a b, In a (lv square) -> In b (lv square) -> vdot (ln square) (vsub a b) = 0) /\
  (forall i w, (i < length (lv square))%nat -> In w (lv square) ->
     0 <= vdot (ln square) (vcross (vsub (nth ((i + 1) mod length (lv square)) (lv square) vzero) (nth i (lv square) vzero)) (vsub w (nth i (lv square) vzero)))) /\
  (forall a b, In a (lv square) -> In b (lv square) -> vlen (vsub a b) <= 9).
Proof.
  split; [rcalc|]. split; [|split].
  - intros a b A B. cbn [square lv In] in A, B. destruct A as [<-|[<-|[<-|[<-|[]]]]], B as [<-|[<-|[<-|[<-|[]]]]]; rcalc.
  - intros i w I W. cbn [square lv In] in W. do 4 (destruct i as [|i]; [cbn [square lv length Nat.add Nat.modulo Nat.divmod fst snd Nat.sub nth ln]; destruct W as [<-|[<-|[<-|[<-|[]]]]]; rcalc|]). cbn in I. lia.
  - intros a b A B. unfold vlen. rewrite <- (sqrt_square 9) by rcalc. apply sqrt_le_1_alt.
    cbn [square lv In] in A, B. destruct A as [<-|[<-|[<-|[<-|[]]]]], B as [<-|[<-|[<-|[<-|[]]]]]; rcalc.
Qed.

(** C118: intersecting and biting loops, in exact arithmetic *)
From Coq Require Import Reals List Bool Lra Lia Psatz.
From Verif.Common Require Import Base Flt REval.
From Verif.Geometry Require Import Vec TriangleModel LoopModel GeomProofs TriangleProofs LoopProofs MeshProofs MergeProofs SplitModel SplitProofs ConvexProofs InsideProofs ClipModel.
From Verif.Properties Require Import LoopProps InsideProps.
Import ListNotations.
Open Scope R_scope.

(** ** Pushing, cleaning and closing only keep points *)
Lemma push_last l p l' : push l p = Ok l' ->
  lv l' <> [] /\ incl (lv l') (lv l ++ [p]) /\ (length (lv l') <= length (lv l) + 1)%nat /\ (last (lv l') vzero = p \/ (last (lv l') vzero = last (lv l) vzero /\ vlen (vsub (last (lv l) vzero) p) <= 1 / 1000)).
Proof.
  intros E. apply push_vertices in E as (_ & _ & _ & _ & [(-> & N & C)|[(V & _)|(pre & a & b & V1 & V2 & _)]]).
  - split; [exact N|]. split; [intros x X; apply in_or_app; now left|]. split; [lia|]. right. split; [reflexivity|now apply compare_vlen].
  - rewrite V. split; [destruct (lv l); discriminate|]. split; [apply incl_refl|]. split; [rewrite app_length; cbn; lia|]. left. apply last_last.
  - rewrite V2, V1. split; [destruct pre; discriminate|]. split; [|split; [rewrite !app_length; cbn; lia|left; change (pre ++ [a; p]) with (pre ++ [a] ++ [p]); rewrite app_assoc; apply last_last]].
    intros x X. rewrite <- app_assoc. cbn [app]. apply in_app_or in X as [X|[<-|[<-|[]]]]; apply in_or_app; cbn; auto.
Qed.
Lemma push_list_incl ps : forall l l', push_list l ps = Ok l' -> incl (lv l') (lv l ++ ps) /\ (length (lv l') <= length (lv l) + length ps)%nat.
Proof.
  induction ps as [|p ps IH]; intros l l' E; cbn [push_list] in E.
  - injection E as <-. rewrite app_nil_r. split; [apply incl_refl|lia].
  - destruct (push l p) as [l1| |] eqn:P; cbn [bind] in E; try discriminate. destruct (push_last _ _ _ P) as (_ & I & N & _). destruct (IH _ _ E) as (I' & N'). split; [|cbn [length]; lia].
    intros x X. apply I' in X. apply in_app_or in X as [X|X]; [apply I in X; apply in_app_or in X as [X|[<-|[]]]|]; apply in_or_app; cbn; auto.
Qed.
Lemma closed_incl l l' : closed_loop l = Ok l' -> incl (lv l') (lv l) /\ (length (lv l') <= length (lv l))%nat /\ (3 <= length (lv l'))%nat /\ lclosed l' = true.
Proof.
  unfold closed_loop. destruct (close l) as [[[]| |] l1] eqn:C; try discriminate. intros E. injection E as <-. apply close_spec in C as (_ & C & N & (pre & suf & V & _) & _).
  rewrite V. split; [intros x X; apply in_or_app; right; apply in_or_app; now left|]. split; [rewrite !app_length; lia|]. auto.
Qed.
Lemma finish_incl l r : clip_finish l = Ok (Some r) -> incl (lv r) (lv l) /\ (length (lv r) <= length (lv l))%nat /\ (3 <= length (lv r))%nat /\ lclosed r = true.
Proof.
  unfold clip_finish, sanitize. destruct (push_list loop_new (lv l)) as [l1| |] eqn:P; cbn [bind]; try discriminate. apply push_list_incl in P as (I & N). cbn [loop_new lv app length Nat.add] in I, N.
  assert (G : forall l2, incl (lv l2) (lv l) -> (length (lv l2) <= length (lv l))%nat -> (if (length (lv l2) <? 3)%nat then Ok None else do r <- closed_loop l2; Ok (Some r)) = Ok (Some r) ->
    incl (lv r) (lv l) /\ (length (lv r) <= length (lv l))%nat /\ (3 <= length (lv r))%nat /\ lclosed r = true).
  { intros l2 I2 N2 E. destruct (_ <? 3)%nat; [discriminate|]. destruct (closed_loop l2) as [l3| |] eqn:C; cbn [bind] in E; try discriminate. injection E as <-. apply closed_incl in C as (I3 & N3 & N4 & C). split; [eapply incl_tran; eassumption|]. split; [lia|auto]. }
  destruct (lclosed l && _).
  - destruct (closed_loop l1) as [l2| |] eqn:C; cbn [bind]; try discriminate. apply closed_incl in C as (I2 & N2 & _). apply G; [eapply incl_tran; eassumption|lia].
  - cbn [bind]. now apply G.
Qed.

(** ** Where the loops meet *)
Lemma intersect_meets vs s len i p : In (i, p) (l_intersect vs s len) -> (i < length vs)%nat /\ exists ta tb, get_intersection_pt (l_edge vs i) s = Some (ta, tb) /\
  - (1 / 10 ^ 12) <= ta <= 1 + 1 / 10 ^ 7 /\ 0 <= tb <= 1 /\ p = vadd (nth i vs vzero) (vscale (vsub (nth ((i + 1) mod length vs) vs vzero) (nth i vs vzero)) ta).
Proof.
  unfold l_intersect. destruct (Rltb len (1 / 1000)); [intros []|].
  set (Q := fun i p => (i < length vs)%nat /\ exists ta tb, get_intersection_pt (l_edge vs i) s = Some (ta, tb) /\ - (1 / 10 ^ 12) <= ta <= 1 + 1 / 10 ^ 7 /\ 0 <= tb <= 1 /\ p = vadd (nth i vs vzero) (vscale (vsub (nth ((i + 1) mod length vs) vs vzero) (nth i vs vzero)) ta)).
  assert (G : forall is, (forall j, In j is -> (j < length vs)%nat) -> forall ret, (forall j q, In (j, q) ret -> Q j q) ->
    forall j q, In (j, q) (fold_left (fun ret i => let current := l_edge vs i in
      if Rltb (s_length current) (1 / 100) || Rltb len (1 / 100) then ret else match s_intersect current s with Some p => add_pt ret i p | None => ret end) is ret) -> Q j q).
  { induction is as [|j0 is IH]; intros HI ret HR; [exact HR|]. cbn [fold_left]. apply IH; [intros; apply HI; now right|].
    intros j q. cbv zeta. destruct (Rltb _ _ || Rltb _ _); [apply HR|]. destruct (s_intersect (l_edge vs j0) s) as [p0|] eqn:E; [|apply HR].
    unfold add_pt. destruct (existsb _ ret); [apply HR|]. intros H. apply in_app_or in H as [H|[H|[]]]; [now apply HR|]. injection H as <- <-.
    split; [apply HI; now left|]. unfold s_intersect in E. destruct (get_intersection_pt _ s) as [[ta tb]|]; [|discriminate]. exists ta, tb.
    destruct (Rleb_spec (- (1 / 10 ^ 12)) ta); [|discriminate]. destruct (Rltb_spec ta (1 + 1 / 10 ^ 7)); [|discriminate]. destruct (Rleb_spec (1 / 10 ^ 8) tb); [|discriminate]. destruct (Rltb_spec tb (1 - 1 / 10 ^ 8)); [|discriminate].
    cbn [andb] in E. injection E as <-. split; [reflexivity|]. split; [lra|]. split; [lra|reflexivity]. }
  apply G; [intros j Hj; apply in_seq in Hj; lia|intros j q []].
Qed.
Lemma closest_in inters x y : closest_pt inters x = Some y -> In y inters.
Proof.
  unfold closest_pt. assert (G : forall (xs : list (nat * pt)) (best : option (nat * pt)), match fold_left (fun best x0 => let d := squared_distance (snd x0) x in if Rltb (1 / 10 ^ 9) d && match best with Some y => Rltb d (squared_distance (snd y) x) | None => true end then Some x0 else best) xs best with Some z => In z xs \/ best = Some z | None => True end).
  { induction xs as [|z xs IH]; intros best; [cbn; destruct best; auto|]. cbn [fold_left]. cbv zeta. destruct (_ && _).
    - specialize (IH (Some z)). destruct (fold_left _ xs (Some z)); [|exact I]. destruct IH as [H|H]; [left; now right|]. injection H as <-. left. now left.
    - specialize (IH best). destruct (fold_left _ xs best); [|exact I]. destruct IH as [H|H]; [left; now right|now right]. }
  intros E. specialize (G inters None). cbv zeta in E, G. rewrite E in G. destruct G as [G|G]; [exact G|discriminate].
Qed.

(** [p] is at most [d] away from edge [i] *)
Definition near_edge (l : Loop) (i : nat) (d : R) (p : pt) : Prop :=
  (i < length (lv l))%nat /\ exists t, 0 <= t <= 1 /\ vlen (vsub p (vadd (corner l i) (vscale (vsub (corner l (i + 1)) (corner l i)) t))) <= d.
(** [p] is a corner of the loop, or found to be inside, or close to an edge *)
Definition covers (l : Loop) (d : R) (p : pt) : Prop := In p (lv l) \/ l_test_point l p = Ok true \/ exists i, near_edge l i d p.
(** 1.1 mm, and a bit for the length of the edges *)
Definition reach (D : R) : R := 11 / 10000 + D * (3 / 10 ^ 7).

Lemma clip_param x y t : - (1 / 10 ^ 12) <= t <= 1 + 1 / 10 ^ 7 -> exists s, 0 <= s <= 1 /\ vlen (vsub (vadd x (vscale (vsub y x) t)) (vadd x (vscale (vsub y x) s))) <= 1 / 10 ^ 7 * vlen (vsub y x).
Proof.
  intros T. assert (G : forall s, Rabs (t - s) <= 1 / 10 ^ 7 -> vlen (vsub (vadd x (vscale (vsub y x) t)) (vadd x (vscale (vsub y x) s))) <= 1 / 10 ^ 7 * vlen (vsub y x)).
  { intros s S. replace (vsub (vadd x (vscale (vsub y x) t)) (vadd x (vscale (vsub y x) s))) with (vscale (vsub y x) (t - s)) by vring. rewrite vlen_scale. apply Rmult_le_compat_r; [apply vlen_nonneg|exact S]. }
  destruct (Rle_lt_dec t 0); [exists 0|destruct (Rle_lt_dec t 1); [exists t|exists 1]]; (split; [lra|]); apply G; apply Rabs_le; lra.
Qed.

Section Walk.
Variables (a b : Loop) (u : pt) (D : R).
Hypothesis U : vlen2 u = 1.
Hypothesis F : forall p q, In p (lv a ++ lv b) -> In q (lv a ++ lv b) -> vdot u (vsub p q) = 0.
Hypothesis SA : forall p q, In p (lv a) -> In q (lv a) -> vlen (vsub p q) <= D.
Hypothesis SB : forall p q, In p (lv b) -> In q (lv b) -> vlen (vsub p q) <= D.
Hypothesis NA : lv a <> [].
Hypothesis NB : lv b <> [].
Hypothesis D0 : 0 <= D.

Definition in_plane (p : pt) : Prop := forall q, In q (lv a ++ lv b) -> vdot u (vsub p q) = 0.
Definition good (p : pt) : Prop := in_plane p /\ covers a (reach D) p /\ covers b (reach D) p.
Definition pick_loop (ws : bool) : Loop := if ws then a else b.
Definition behind (ws : bool) (index : nat) (p : pt) : Prop :=
  exists k, (index mod length (lv (pick_loop ws)) = (k + 1) mod length (lv (pick_loop ws)))%nat /\ near_edge (pick_loop ws) k (1 / 1000 + D / 10 ^ 7) p.

Lemma loop_len ws : (0 < length (lv (pick_loop ws)))%nat.
Proof. unfold pick_loop. destruct ws; [destruct (lv a); [contradiction|]|destruct (lv b); [contradiction|]]; cbn; lia. Qed.
Lemma loop_in ws i : In (corner (pick_loop ws) i) (lv (pick_loop ws)).
Proof. apply nth_In, Nat.mod_upper_bound. pose proof (loop_len ws). lia. Qed.
Lemma loop_all ws p : In p (lv (pick_loop ws)) -> In p (lv a ++ lv b).
Proof. unfold pick_loop. destruct ws; intros; apply in_or_app; auto. Qed.
Lemma loop_spread ws p q : In p (lv (pick_loop ws)) -> In q (lv (pick_loop ws)) -> vlen (vsub p q) <= D.
Proof. unfold pick_loop. destruct ws; auto. Qed.
Lemma corner_plane ws i : in_plane (corner (pick_loop ws) i).
Proof. intros q Q. apply F; [apply (loop_all ws), loop_in|exact Q]. Qed.

(** a point of the loop walked along *)
Lemma step_corner ws index l l' : lv l <> [] -> push l (corner (pick_loop ws) index) = Ok l' -> forall next, (next mod length (lv (pick_loop ws)) = (index + 1) mod length (lv (pick_loop ws)))%nat -> behind ws next (last (lv l') vzero).
Proof.
  intros N P next E. pose proof (loop_len ws) as L. apply push_last in P as (_ & _ & _ & LST). exists (index mod length (lv (pick_loop ws)))%nat. split.
  - rewrite E. rewrite Nat.add_mod_idemp_l by lia. reflexivity.
  - split; [apply Nat.mod_upper_bound; lia|]. exists 0. split; [lra|]. set (x := last (lv l') vzero) in *.
    replace (vadd (corner (pick_loop ws) (index mod length (lv (pick_loop ws)))) (vscale (vsub (corner (pick_loop ws) (index mod length (lv (pick_loop ws)) + 1)) (corner (pick_loop ws) (index mod length (lv (pick_loop ws))))) 0)) with (corner (pick_loop ws) index).
    2:{ unfold corner at 2. rewrite Nat.mod_mod by lia. fold (corner (pick_loop ws) index). set (y := corner _ index). set (z := vsub _ _). clearbody y z. vring. }
    assert (P7 : 0 <= D / 10 ^ 7) by lra. destruct LST as [LX|(LX & H)]; rewrite LX; [rewrite vsub_self, vlen_0; lra|lra].
Qed.
(** staying before the same corner *)
Lemma stay_corner ws index l l' : push l (corner (pick_loop ws) index) = Ok l' -> behind ws index (last (lv l) vzero) -> behind ws index (last (lv l') vzero).
Proof.
  intros P (k & E & K & t & T & H). exists k. split; [exact E|]. split; [exact K|]. apply push_last in P as (_ & _ & _ & [LST|(LST & _)]); [|rewrite LST; exists t; auto].
  exists 1. split; [lra|]. rewrite LST. replace (corner (pick_loop ws) index) with (corner (pick_loop ws) (k + 1)) by (unfold corner; now rewrite E).
  replace (vsub _ _) with vzero; [rewrite vlen_0; lra|]. set (y := corner _ (k + 1)). set (z := corner _ k). clearbody y z. unfold vzero. vring.
Qed.
(** changing to the other loop *)
Lemma step_meet ws index l l' j p : (forall v, In v (lv l) -> in_plane v) -> lv l <> [] -> behind ws index (last (lv l) vzero) ->
  In (j, p) (l_intersect (lv (pick_loop (negb ws))) (mkS (last (lv l) vzero) (corner (pick_loop ws) index)) (s_length (mkS (last (lv l) vzero) (corner (pick_loop ws) index)))) ->
  push l p = Ok l' -> good p /\ behind (negb ws) ((j + 1) mod length (lv (pick_loop (negb ws)))) (last (lv l') vzero).
Proof.
  intros PL N (k & E & K & s & T & H) I P. apply intersect_meets in I as (J & ta & tb & G & TA & TB & EP).
  set (x := last (lv l) vzero) in *. assert (XI : in_plane x). { apply PL. unfold x. rewrite (app_removelast_last vzero N) at 2. apply in_or_app. right. now left. }
  set (o := pick_loop (negb ws)) in *. set (w := pick_loop ws) in *.
  assert (CJ : nth j (lv o) vzero = corner o j) by (unfold corner; now rewrite Nat.mod_small).
  assert (CJ1 : nth ((j + 1) mod length (lv o)) (lv o) vzero = corner o (j + 1)) by reflexivity.
  unfold l_edge in G. rewrite CJ, CJ1 in G, EP.
  assert (OP : forall i q, In q (lv a ++ lv b) -> vdot u (vsub (corner o i) q) = 0) by (intros i q Q; apply (corner_plane (negb ws) i q Q)).
  assert (WP : forall i q, In q (lv a ++ lv b) -> vdot u (vsub (corner w i) q) = 0) by (intros i q Q; apply (corner_plane ws i q Q)).
  assert (OI : forall i, In (corner o i) (lv a ++ lv b)) by (intros i; apply (loop_all (negb ws)), loop_in). assert (WI : forall i, In (corner w i) (lv a ++ lv b)) by (intros i; apply (loop_all ws), loop_in).
  destruct (meet_exact u (corner o j) (corner o (j + 1)) x (corner w index) ta tb) as (M & _); [exact U|apply OP, OI| | |exact G|].
  { replace (vdot u (vsub (corner w index) x)) with (- vdot u (vsub x (corner w index))) by vring. rewrite XI; [ring|apply WI]. }
  { replace (vdot u (vsub (corner o j) x)) with (- vdot u (vsub x (corner o j))) by vring. rewrite XI; [ring|apply OI]. }
  rewrite <- EP in M.
  assert (LO : vlen (vsub (corner o (j + 1)) (corner o j)) <= D) by (apply (loop_spread (negb ws)); apply loop_in).
  destruct (clip_param (corner o j) (corner o (j + 1)) ta TA) as (sj & SJ & HJ). rewrite <- EP in HJ.
  assert (EDGE : vlen (vsub p (vadd (corner o j) (vscale (vsub (corner o (j + 1)) (corner o j)) sj))) <= D / 10 ^ 7) by (eapply Rle_trans; [exact HJ|]; nra).
  split; [split; [|assert (C1 : covers o (reach D) p /\ covers w (reach D) p)]|].
  - intros q Q. rewrite EP. replace (vdot u (vsub (vadd (corner o j) (vscale (vsub (corner o (j + 1)) (corner o j)) ta)) q)) with (vdot u (vsub (corner o j) q) + ta * vdot u (vsub (corner o (j + 1)) (corner o j))) by (set (y := corner o j); set (z := corner o (j + 1)); clearbody y z; vring).
    rewrite !OP; [ring|apply OI|exact Q].
  - split; right; right.
    + exists j. split; [exact J|]. exists sj. split; [exact SJ|]. unfold reach. lra.
    + exists k. split; [exact K|]. exists (s + tb * (1 - s)). split; [nra|].
      assert (CW : corner w index = corner w (k + 1)) by (unfold corner; now rewrite E). rewrite CW in M.
      set (y := corner w k) in *. set (z := corner w (k + 1)) in *.
      replace (vsub p (vadd y (vscale (vsub z y) (s + tb * (1 - s))))) with (vscale (vsub x (vadd y (vscale (vsub z y) s))) (1 - tb)) by (rewrite M; clearbody x y z; vring).
      rewrite vlen_scale, Rabs_pos_eq by lra. pose proof (vlen_nonneg (vsub x (vadd y (vscale (vsub z y) s)))). unfold reach. nra.
  - destruct C1 as (C1 & C2). unfold o, w, pick_loop in C1, C2. destruct ws; cbn [negb] in C1, C2; auto.
  - pose proof (loop_len (negb ws)) as L. fold o in L. exists j. fold o. rewrite Nat.mod_mod by lia. split; [reflexivity|]. split; [exact J|]. exists sj. split; [exact SJ|].
    apply push_last in P as (_ & _ & _ & [->|(-> & Hc)]); [lra|]. fold x in Hc |- *. eapply vlen_sub_chain; [exact Hc|exact EDGE].
Qed.
Lemma in_both_true p : in_both a b p = Ok true -> l_test_point a p = Ok true /\ l_test_point b p = Ok true.
Proof. unfold in_both. destruct (l_test_point a p) as [[|]| |]; cbn [bind]; intros; try discriminate; auto. Qed.
Lemma walk_good fuel : forall l ws index r, lv l <> [] -> (forall v, In v (lv l) -> good v) -> behind ws index (last (lv l) vzero) -> clip_walk a b fuel l ws index = Ok (Some r) ->
  (forall v, In v (lv r) -> good v) /\ (length (lv r) <= length (lv l) + fuel)%nat.
Proof.
  induction fuel as [|fuel IH]; intros l ws index r N GD B E; cbn [clip_walk] in E; [discriminate|]. cbv zeta in E.
  change (if ws then a else b) with (pick_loop ws) in E. replace (if ws then b else a) with (pick_loop (negb ws)) in E by (destruct ws; reflexivity).
  change (l_wrap (pick_loop ws) index) with (corner (pick_loop ws) index) in E. set (c := corner (pick_loop ws) index) in *.
  destruct (_ && _); [injection E as <-; split; [exact GD|lia]|].
  assert (CG : in_both a b c = Ok true -> good c) by (intros T; apply in_both_true in T as (T1 & T2); split; [apply corner_plane|split; right; left; assumption]).
  assert (EXT : forall p l', good p -> push l p = Ok l' -> (forall v, In v (lv l') -> good v) /\ lv l' <> [] /\ (length (lv l') <= length (lv l) + 1)%nat).
  { intros p l' G P. apply push_last in P as (N' & I & L & _). split; [|auto]. intros v V. apply I in V. apply in_app_or in V as [V|[<-|[]]]; auto. }
  destruct (l_intersect _ _ _) as [|m ms] eqn:X.
  - destruct (in_both a b c) as [[|]| |] eqn:T; cbn [bind] in E; try discriminate. destruct (push l c) as [l'| |] eqn:P; cbn [bind] in E; try discriminate.
    destruct (EXT c l' (CG eq_refl) P) as (G' & N' & L'). assert (L0 := loop_len ws). assert (MM := Nat.mod_mod (index + 1) (length (lv (pick_loop ws))) ltac:(lia)).
    destruct (IH l' ws _ r N' G' (step_corner ws index l l' N P _ MM) E) as (H1 & H2). split; [exact H1|lia].
  - destruct (closest_pt (m :: ms) (last (lv l) vzero)) as [[j p]|] eqn:Q.
    + destruct (push l p) as [l'| |] eqn:P; cbn [bind] in E; try discriminate. apply closest_in in Q. rewrite <- X in Q.
      destruct (step_meet ws index l l' j p (fun v V => proj1 (GD v V)) N B Q P) as (G & B'). destruct (EXT p l' G P) as (G' & N' & L'). destruct (IH l' _ _ r N' G' B' E) as (H1 & H2). split; [exact H1|lia].
    + destruct (in_both a b c) as [[|]| |] eqn:T; cbn [bind] in E; try discriminate. destruct (push l c) as [l'| |] eqn:P; cbn [bind] in E; try discriminate.
      destruct (EXT c l' (CG eq_refl) P) as (G' & N' & L'). destruct (IH l' ws index r N' G' (stay_corner ws index l l' P B) E) as (H1 & H2). split; [exact H1|lia].
Qed.
End Walk.
Lemma push_new p l : push loop_new p = Ok l -> lv l = [p].
Proof. intros P. apply push_vertices in P as (_ & _ & _ & _ & [(_ & Z & _)|[(V & _)|(pre & x & y & V & _)]]); [contradiction|exact V|destruct pre; discriminate]. Qed.
Lemma first_in_spec l vs : forall i j p, first_in l vs i = Ok (Some (j, p)) -> (i <= j)%nat /\ (j - i < length vs)%nat /\ nth (j - i) vs vzero = p /\ l_test_point l p = Ok true.
Proof.
  induction vs as [|v vs IH]; intros i j p E; cbn [first_in] in E; [discriminate|]. destruct (l_test_point l v) as [[|]| |] eqn:T; cbn [bind] in E; try discriminate.
  - injection E as <- <-. rewrite Nat.sub_diag. cbn. split; [lia|]. split; [lia|]. auto.
  - apply IH in E as (A & B & C & T2). split; [lia|]. replace (j - i)%nat with (S (j - S i)) by lia. cbn [length nth]. split; [lia|]. auto.
Qed.

Local Opaque clip_walk clip_finish l_test_point push.
Lemma intersection_good (a b r : Loop) (D : R) : vlen2 (ln a) = 1 ->
  (forall p q, In p (lv a ++ lv b) -> In q (lv a ++ lv b) -> vdot (ln a) (vsub p q) = 0) ->
  (forall p q, In p (lv a) -> In q (lv a) -> vlen (vsub p q) <= D) -> (forall p q, In p (lv b) -> In q (lv b) -> vlen (vsub p q) <= D) ->
  l_intersection a b = Ok (Some r) ->
  lclosed r = true /\ (3 <= length (lv r) <= 100)%nat /\ exists b', (b' = b \/ b' = l_reverse b) /\ forall v, In v (lv r) -> good a b' (ln a) D v.
Proof.
  intros U F SA SB E. unfold l_intersection in E. destruct (_ || _); [discriminate|]. destruct (Rltb _ _); [discriminate|].
  destruct (l_at (lv b) 0) as [b0| |] eqn:B0; cbn [bind] in E; try discriminate. destruct (l_is_coplanar a b0) as [cp| |] eqn:CP; cbn [bind] in E; try discriminate. destruct (negb cp); [discriminate|].
  set (b' := if vis_same_direction (ln b) (ln a) then b else l_reverse b) in *. cbv zeta in E.
  assert (HB : b' = b \/ b' = l_reverse b) by (unfold b'; destruct (vis_same_direction _ _); auto).
  assert (IB : forall p, In p (lv b') <-> In p (lv b)) by (intros p; destruct HB as [->| ->]; [reflexivity|]; cbn [l_reverse lv]; symmetry; apply in_rev).
  assert (NA : lv a <> []) by (intros Z; unfold l_is_coplanar in CP; rewrite Z in CP; discriminate).
  assert (NB : lv b' <> []). { intros Z. destruct (lv b) as [|x xs] eqn:V; [discriminate|]. assert (In x (lv b')) by (apply IB; now left). rewrite Z in H. destruct H. }
  assert (D0 : 0 <= D). { destruct (lv a) as [|x xs] eqn:V; [contradiction|]. specialize (SA x x (or_introl eq_refl) (or_introl eq_refl)). rewrite vsub_self, vlen_0 in SA. exact SA. }
  assert (F' : forall p q, In p (lv a ++ lv b') -> In q (lv a ++ lv b') -> vdot (ln a) (vsub p q) = 0).
  { intros p q P Q. apply F; [apply in_app_or in P as [P|P]|apply in_app_or in Q as [Q|Q]]; apply in_or_app; auto; right; now apply IB. }
  assert (SB' : forall p q, In p (lv b') -> In q (lv b') -> vlen (vsub p q) <= D) by (intros p q P Q; apply SB; now apply IB).
  assert (START : forall ws i p l, nth i (lv (pick_loop a b' ws)) vzero = p -> (i < length (lv (pick_loop a b' ws)))%nat -> covers a (reach D) p -> covers b' (reach D) p -> push loop_new p = Ok l -> lv l <> [] /\ (length (lv l) <= 1)%nat /\ (forall v, In v (lv l) -> good a b' (ln a) D v) /\ behind a b' D ws (i + 1) (last (lv l) vzero)).
  { intros ws i p l EP I CA CB P. assert (PL : p = corner (pick_loop a b' ws) i) by (unfold corner; rewrite Nat.mod_small by exact I; now symmetry). assert (P2 := P). apply push_last in P as (N & INC & LE & _). split; [exact N|]. split; [exact LE|]. split.
    - intros v V. apply INC in V as [<-|[]]. split; [|auto]. rewrite PL. eapply corner_plane; eassumption.
    - assert (V1 := push_new p l P2).
      rewrite V1. cbn [last]. exists i. split; [reflexivity|]. split; [exact I|]. exists 0. split; [lra|]. rewrite PL. replace (vsub _ _) with vzero by (set (y := corner _ i); set (z := corner _ (i + 1)); clearbody y z; unfold vzero; vring). rewrite vlen_0. lra. }
  assert (FIN : forall ws i p l r', nth i (lv (pick_loop a b' ws)) vzero = p -> (i < length (lv (pick_loop a b' ws)))%nat -> covers a (reach D) p -> covers b' (reach D) p -> push loop_new p = Ok l -> clip_walk a b' 99 l ws (i + 1) = Ok (Some r') -> clip_finish r' = Ok (Some r) ->
    lclosed r = true /\ (3 <= length (lv r) <= 100)%nat /\ forall v, In v (lv r) -> good a b' (ln a) D v).
  { intros ws i p l r' EP I CA CB P W FI. destruct (START ws i p l EP I CA CB P) as (N & L1 & G & B). destruct (walk_good a b' (ln a) D U F' SA SB' NA NB D0 99 l ws (i + 1) r' N G B W) as (GR & LR).
    apply finish_incl in FI as (IN & L & L3 & C). split; [exact C|]. split; [lia|]. intros v V. apply IN in V. now apply GR. }
  destruct (first_in b' (lv a) 0) as [[[i p]|]| |] eqn:F1; cbn [bind] in E; try discriminate.
  - apply first_in_spec in F1 as (_ & I & EP & T). rewrite Nat.sub_0_r in I, EP. destruct (push loop_new p) as [l| |] eqn:P; cbn [bind] in E; try discriminate. destruct (clip_walk a b' 99 l true (i + 1)) as [[r'|]| |] eqn:W; cbn [bind] in E; try discriminate.
    destruct (FIN true i p l r' EP I) as (H1 & H2 & H3); auto; [left; rewrite <- EP; now apply nth_In|right; left; exact T|]. split; [exact H1|]. split; [exact H2|]. exists b'. auto.
  - destruct (first_in a (lv b') 0) as [[[i p]|]| |] eqn:F2; cbn [bind] in E; try discriminate.
    apply first_in_spec in F2 as (_ & I & EP & T). rewrite Nat.sub_0_r in I, EP. destruct (push loop_new p) as [l| |] eqn:P; cbn [bind] in E; try discriminate. destruct (clip_walk a b' 99 l false (i + 1)) as [[r'|]| |] eqn:W; cbn [bind] in E; try discriminate.
    destruct (FIN false i p l r' EP I) as (H1 & H2 & H3); auto; [right; left; exact T|left; rewrite <- EP; now apply nth_In|]. split; [exact H1|]. split; [exact H2|]. exists b'. auto.
Qed.
Local Transparent clip_walk clip_finish l_test_point push.
(** ** The corners of the intersection of two loops are in both, and there are at most 100 of them *)
Theorem C118_intersection (a b r : Loop) (D : R) : vlen2 (ln a) = 1 ->
  (forall p q, In p (lv a ++ lv b) -> In q (lv a ++ lv b) -> vdot (ln a) (vsub p q) = 0) ->
  (forall p q, In p (lv a) -> In q (lv a) -> vlen (vsub p q) <= D) -> (forall p q, In p (lv b) -> In q (lv b) -> vlen (vsub p q) <= D) ->
  l_intersection a b = Ok (Some r) ->
  lclosed r = true /\ (3 <= length (lv r) <= 100)%nat /\ exists b', (b' = b \/ b' = l_reverse b) /\ forall v, In v (lv r) -> covers a (reach D) v /\ covers b' (reach D) v.
Proof.
  intros U F SA SB E. destruct (intersection_good a b r D U F SA SB E) as (C & N & b' & HB & G). split; [exact C|]. split; [exact N|]. exists b'. split; [exact HB|]. intros v V. exact (proj2 (G v V)).
Qed.

(** ** Biting *)
Lemma normalized w n : vnormalize w = Ok n -> vlen n = 1 /\ exists k, n = vscale w k.
Proof.
  unfold vnormalize. destruct (Rltb_spec (1 / 10 ^ 20) (vlen2 w)) as [L|]; [|discriminate]. intros E. injection E as <-.
  assert (SP : 0 < sqrt (vlen2 w)) by (apply sqrt_lt_R0; lra). split; [|exists (1 / sqrt (vlen2 w)); reflexivity].
  change (mkV _ _ _) with (vscale w (1 / sqrt (vlen2 w))). rewrite vlen_scale. unfold vlen. rewrite Rabs_pos_eq; [field; lra|]. apply Rlt_le, Rdiv_lt_0_compat; lra.
Qed.
Section Bite.
Variables (a c : Loop) (u : pt) (D : R).
Hypothesis U : vlen2 u = 1.
Hypothesis F : forall p q, In p (lv a ++ lv c) -> In q (lv a ++ lv c) -> vdot u (vsub p q) = 0.
Hypothesis SA : forall p q, In p (lv a) -> In q (lv a) -> vlen (vsub p q) <= D.
Hypothesis NA : lv a <> [].
Hypothesis NC : lv c <> [].
Hypothesis D0 : 0 <= D.
Definition reach2 : R := 21 / 10000 + D * (3 / 10 ^ 7).
Hypothesis HC : forall v, In v (lv c) -> covers a reach2 v.
Definition in_plane2 (p : pt) : Prop := forall q, In q (lv a ++ lv c) -> vdot u (vsub p q) = 0.
Definition good2 (p : pt) : Prop := in_plane2 p /\ covers a reach2 p.
Definition behind_a (index : nat) (p : pt) : Prop := exists k, (index mod length (lv a) = (k + 1) mod length (lv a))%nat /\ near_edge a k (1 / 1000 + D / 10 ^ 7) p.

Lemma a_len : (0 < length (lv a))%nat. Proof. destruct (lv a); [contradiction|cbn; lia]. Qed.
Lemma c_len : (0 < length (lv c))%nat. Proof. destruct (lv c); [contradiction|cbn; lia]. Qed.
Lemma a_in i : In (corner a i) (lv a). Proof. apply nth_In, Nat.mod_upper_bound. pose proof a_len. lia. Qed.
Lemma c_in i : In (corner c i) (lv c). Proof. apply nth_In, Nat.mod_upper_bound. pose proof c_len. lia. Qed.
Lemma near_corner index x : vlen (vsub x (corner a index)) <= 1 / 1000 -> forall next, (next mod length (lv a) = (index + 1) mod length (lv a))%nat -> behind_a next x.
Proof.
  intros H next E. pose proof a_len as L. exists (index mod length (lv a))%nat. split; [rewrite E, Nat.add_mod_idemp_l by lia; reflexivity|].
  split; [apply Nat.mod_upper_bound; lia|]. exists 0. split; [lra|].
  replace (vadd (corner a (index mod length (lv a))) (vscale (vsub (corner a (index mod length (lv a) + 1)) (corner a (index mod length (lv a)))) 0)) with (corner a index).
  2:{ unfold corner at 2. rewrite Nat.mod_mod by lia. fold (corner a index). set (y := corner a index). set (z := vsub _ _). clearbody y z. vring. }
  assert (0 <= D / 10 ^ 7) by lra. lra.
Qed.
Lemma push_near l p l' : push l p = Ok l' -> vlen (vsub (last (lv l') vzero) p) <= 1 / 1000.
Proof. intros P. apply push_last in P as (_ & _ & _ & [->|(-> & H)]); [rewrite vsub_self, vlen_0; lra|exact H]. Qed.
(** leaving [a] *)
Lemma leave l index x n j p : in_plane2 x -> behind_a index x -> vnormalize (vsub (corner a index) x) = Ok n ->
  In (j, p) (l_intersect (lv c) (mkS x (vadd (corner a index) (vscale n (1 / 1000)))) l) -> good2 p.
Proof.
  intros XI (k & E & K & s & T & H) NZ I. apply intersect_meets in I as (J & ta & tb & G & TA & TB & EP). apply normalized in NZ as (N1 & kk & NK).
  assert (CJ : nth j (lv c) vzero = corner c j) by (unfold corner; now rewrite Nat.mod_small).
  change (nth ((j + 1) mod length (lv c)) (lv c) vzero) with (corner c (j + 1)) in EP. unfold l_edge in G. change (nth ((j + 1) mod length (lv c)) (lv c) vzero) with (corner c (j + 1)) in G. rewrite CJ in G, EP.
  assert (CI : forall i, In (corner c i) (lv a ++ lv c)) by (intros i; apply in_or_app; right; apply c_in). assert (AI : forall i, In (corner a i) (lv a ++ lv c)) by (intros i; apply in_or_app; left; apply a_in).
  set (y := vadd (corner a index) (vscale n (1 / 1000))) in *.
  destruct (meet_exact u (corner c j) (corner c (j + 1)) x y ta tb) as (M & _); [exact U|apply F; apply CI| | |exact G|].
  { unfold y. rewrite NK. set (ca := corner a index) in *. replace (vdot u (vsub (vadd ca (vscale (vscale (vsub ca x) kk) (1 / 1000))) x)) with (- (1 + kk * (1 / 1000)) * vdot u (vsub x ca)) by (clearbody ca; vring). rewrite XI; [ring|apply AI]. }
  { replace (vdot u (vsub (corner c j) x)) with (- vdot u (vsub x (corner c j))) by vring. rewrite XI; [ring|apply CI]. }
  rewrite <- EP in M. split.
  - intros q Q. rewrite EP. replace (vdot u (vsub (vadd (corner c j) (vscale (vsub (corner c (j + 1)) (corner c j)) ta)) q)) with (vdot u (vsub (corner c j) q) + ta * vdot u (vsub (corner c (j + 1)) (corner c j))) by (set (y1 := corner c j); set (z := corner c (j + 1)); clearbody y1 z; vring).
    rewrite !F; [ring|apply CI|apply CI|apply CI|exact Q].
  - right; right. exists k. split; [exact K|]. exists (s + tb * (1 - s)). split; [nra|].
    assert (CW : corner a index = corner a (k + 1)) by (unfold corner; now rewrite E). unfold y in M. rewrite CW in M. set (v := corner a k) in *. set (z := corner a (k + 1)) in *.
    replace (vsub p (vadd v (vscale (vsub z v) (s + tb * (1 - s))))) with (vadd (vscale (vsub x (vadd v (vscale (vsub z v) s))) (1 - tb)) (vscale n (tb * (1 / 1000)))) by (rewrite M; clearbody v z; vring).
    eapply Rle_trans; [apply vlen_add|]. rewrite !vlen_scale, !Rabs_pos_eq, N1 by lra. pose proof (vlen_nonneg (vsub x (vadd v (vscale (vsub z v) s)))). unfold reach2. nra.
Qed.
(** coming back to [a] *)
Lemma return_a seg len j p l l' : In (j, p) (l_intersect (lv a) seg len) -> push l p = Ok l' -> good2 p /\ behind_a ((j + 1) mod length (lv a)) (last (lv l') vzero).
Proof.
  intros I P. apply intersect_meets in I as (J & ta & tb & _ & TA & _ & EP). apply push_near in P.
  assert (CJ : nth j (lv a) vzero = corner a j) by (unfold corner; now rewrite Nat.mod_small). change (nth ((j + 1) mod length (lv a)) (lv a) vzero) with (corner a (j + 1)) in EP. rewrite CJ in EP.
  assert (AI : forall i, In (corner a i) (lv a ++ lv c)) by (intros i; apply in_or_app; left; apply a_in).
  destruct (clip_param (corner a j) (corner a (j + 1)) ta TA) as (sj & SJ & HJ). rewrite <- EP in HJ.
  assert (LO : vlen (vsub (corner a (j + 1)) (corner a j)) <= D) by (apply SA; apply a_in).
  assert (EDGE : vlen (vsub p (vadd (corner a j) (vscale (vsub (corner a (j + 1)) (corner a j)) sj))) <= D / 10 ^ 7) by (eapply Rle_trans; [exact HJ|]; nra).
  split; [split|].
  - intros q Q. rewrite EP. replace (vdot u (vsub (vadd (corner a j) (vscale (vsub (corner a (j + 1)) (corner a j)) ta)) q)) with (vdot u (vsub (corner a j) q) + ta * vdot u (vsub (corner a (j + 1)) (corner a j))) by (set (y1 := corner a j); set (z := corner a (j + 1)); clearbody y1 z; vring).
    rewrite !F; [ring|apply AI|apply AI|apply AI|exact Q].
  - right; right. exists j. split; [exact J|]. exists sj. split; [exact SJ|]. unfold reach2. lra.
  - pose proof a_len as L. exists j. rewrite Nat.mod_mod by lia. split; [reflexivity|]. split; [exact J|]. exists sj. split; [exact SJ|]. eapply vlen_sub_chain; [exact P|exact EDGE].
Qed.
Lemma bite_good first fuel : forall l ws index r, lv l <> [] -> (forall v, In v (lv l) -> good2 v) -> (ws = true -> behind_a index (last (lv l) vzero)) -> bite_walk a c first fuel l ws index = Ok (Some r) ->
  (forall v, In v (lv r) -> good2 v) /\ (length (lv r) <= length (lv l) + fuel)%nat.
Proof.
  induction fuel as [|fuel IH]; intros l ws index r N GD B E; cbn [bite_walk] in E; [discriminate|]. cbv zeta in E.
  destruct (_ && _); [injection E as <-; split; [exact GD|lia]|].
  assert (L0 : (0 < length (lv (if ws then a else c)))%nat) by (destruct ws; [apply a_len|apply c_len]).
  set (x := l_wrap (if ws then a else c) index) in *. set (y := last (lv l) vzero) in *.
  assert (YG : good2 y). { apply GD. unfold y. rewrite (app_removelast_last vzero N) at 2. apply in_or_app. right. now left. }
  assert (XG : good2 x).
  { unfold x. destruct ws; change (l_wrap ?z index) with (corner z index).
    - split; [intros q Q; apply F; [apply in_or_app; left; apply a_in|exact Q]|left; apply a_in].
    - split; [intros q Q; apply F; [apply in_or_app; right; apply c_in|exact Q]|apply HC, c_in]. }
  assert (EXT : forall p l', good2 p -> push l p = Ok l' -> (forall v, In v (lv l') -> good2 v) /\ lv l' <> [] /\ (length (lv l') <= length (lv l) + 1)%nat).
  { intros p l' G P. apply push_last in P as (N' & I & L & _). split; [|auto]. intros v V. apply I in V. apply in_app_or in V as [V|[<-|[]]]; auto. }
  destruct (compare y x) eqn:CY.
  { apply IH in E; [|exact N|exact GD|]. { destruct E as (H1 & H2). split; [exact H1|lia]. }
    intros ->. apply (near_corner index); [apply compare_vlen in CY; exact CY|]. apply Nat.mod_mod. lia. }
  destruct (vnormalize (vsub x y)) as [n| |] eqn:NZ; cbn [bind] in E; try discriminate.
  destruct (l_intersect _ _ _) as [|m ms] eqn:X.
  - destruct (push l x) as [l'| |] eqn:P; cbn [bind] in E; try discriminate. destruct (EXT x l' XG P) as (G' & N' & L').
    apply IH in E; [|exact N'|exact G'|]. { destruct E as (H1 & H2). split; [exact H1|lia]. }
    intros ->. apply (near_corner index); [apply push_near in P; exact P|]. apply Nat.mod_mod. lia.
  - destruct (closest_pt (m :: ms) y) as [[j p]|] eqn:Q.
    + destruct (push l p) as [l'| |] eqn:P; cbn [bind] in E; try discriminate. apply closest_in in Q. rewrite <- X in Q. destruct ws; cbn [negb] in E.
      * assert (PG : good2 p) by (eapply leave; [exact (proj1 YG)|exact (B eq_refl)|exact NZ|exact Q]). destruct (EXT p l' PG P) as (G' & N' & L'). apply IH in E; [|exact N'|exact G'|discriminate]. destruct E as (H1 & H2). split; [exact H1|lia].
      * destruct (return_a _ _ j p l l' Q P) as (PG & B'). destruct (EXT p l' PG P) as (G' & N' & L'). apply IH in E; [|exact N'|exact G'|intros _; exact B']. destruct E as (H1 & H2). split; [exact H1|lia].
    + destruct (push l x) as [l'| |] eqn:P; cbn [bind] in E; try discriminate. destruct (EXT x l' XG P) as (G' & N' & L').
      apply IH in E; [|exact N'|exact G'|]. { destruct E as (H1 & H2). split; [exact H1|lia]. }
      intros ->. specialize (B eq_refl). destruct B as (k & EK & K & t & T & H). exists k. split; [exact EK|]. split; [exact K|]. exists 1. split; [lra|].
      assert (CW : x = corner a (k + 1)) by (unfold x, l_wrap, corner; now rewrite EK). apply push_near in P. rewrite CW in P.
      replace (vadd (corner a k) (vscale (vsub (corner a (k + 1)) (corner a k)) 1)) with (corner a (k + 1)) by (set (y1 := corner a k); set (z := corner a (k + 1)); clearbody y1 z; vring).
      assert (0 <= D / 10 ^ 7) by lra. lra.
Qed.
End Bite.
Lemma first_out_spec l vs : forall i j p, first_out l vs i = Ok (Some (j, p)) -> (i <= j)%nat /\ (j - i < length vs)%nat /\ nth (j - i) vs vzero = p.
Proof.
  induction vs as [|v vs IH]; intros i j p E; cbn [first_out] in E; [discriminate|]. destruct (l_test_point l v) as [[|]| |] eqn:T; cbn [bind] in E; try discriminate.
  - apply IH in E as (A & B & C). split; [lia|]. replace (j - i)%nat with (S (j - S i)) by lia. cbn [length nth]. split; [lia|]. auto.
  - injection E as <- <-. rewrite Nat.sub_diag. cbn. split; [lia|]. split; [lia|]. auto.
Qed.
Local Opaque bite_walk l_intersection l_test_point push.
(** ** A bitten loop has its corners in the loop it was bitten from *)
Theorem C118_bite (a b r : Loop) (D : R) : vlen2 (ln a) = 1 ->
  (forall p q, In p (lv a ++ lv b) -> In q (lv a ++ lv b) -> vdot (ln a) (vsub p q) = 0) ->
  (forall p q, In p (lv a) -> In q (lv a) -> vlen (vsub p q) <= D) -> (forall p q, In p (lv b) -> In q (lv b) -> vlen (vsub p q) <= D) ->
  l_bite a b = Ok r ->
  r = a \/ (lclosed r = true /\ (3 <= length (lv r) <= 100)%nat /\ forall v, In v (lv r) -> covers a (21 / 10000 + D * (3 / 10 ^ 7)) v).
Proof.
  intros U F SA SB E. unfold l_bite in E. destruct (_ || _); [discriminate|]. destruct (Rltb _ _); [discriminate|].
  destruct (l_at (lv b) 0) as [b0| |]; cbn [bind] in E; try discriminate. destruct (l_is_coplanar a b0) as [cp| |] eqn:CP; cbn [bind] in E; try discriminate. destruct (negb cp); [discriminate|].
  destruct (l_intersection a b) as [[c0|]| |] eqn:I; cbn [bind] in E; try discriminate; [|injection E as <-; now left].
  destruct (intersection_good a b c0 D U F SA SB I) as (_ & (N3 & _) & b' & HB & G).
  set (c := if vis_same_direction (ln c0) (ln a) then l_reverse c0 else c0) in *. cbv zeta in E.
  assert (IC : forall p, In p (lv c) -> In p (lv c0)) by (intros p; unfold c; destruct (vis_same_direction _ _); [cbn [l_reverse lv]; apply in_rev|auto]).
  assert (NC : lv c <> []). { intros Z. assert (L : length (lv c) = length (lv c0)) by (unfold c; destruct (vis_same_direction _ _); [cbn [l_reverse lv]; apply rev_length|reflexivity]). rewrite Z in L. cbn in L. lia. }
  assert (NA : lv a <> []) by (intros Z; unfold l_is_coplanar in CP; rewrite Z in CP; discriminate).
  assert (D0 : 0 <= D). { destruct (lv a) as [|x xs] eqn:V; [contradiction|]. specialize (SA x x (or_introl eq_refl) (or_introl eq_refl)). rewrite vsub_self, vlen_0 in SA. exact SA. }
  assert (F2 : forall p q, In p (lv a ++ lv c) -> In q (lv a ++ lv c) -> vdot (ln a) (vsub p q) = 0).
  { assert (A0 : exists x, In x (lv a)) by (destruct (lv a) as [|x xs]; [contradiction|exists x; now left]). destruct A0 as (x0 & X0).
    assert (H : forall p, In p (lv a ++ lv c) -> vdot (ln a) (vsub p x0) = 0).
    { intros p P. apply in_app_or in P as [P|P]; [apply F; apply in_or_app; auto|]. apply IC, G in P as (P & _). apply P. apply in_or_app. now left. }
    intros p q P Q. replace (vdot (ln a) (vsub p q)) with (vdot (ln a) (vsub p x0) - vdot (ln a) (vsub q x0)) by vring. rewrite !H by assumption. ring. }
  assert (HC : forall v, In v (lv c) -> covers a (reach2 D) v).
  { intros v V. apply IC, G in V as (_ & V & _). destruct V as [V|[V|(i & K & t & T & H)]]; [left; exact V|right; left; exact V|]. right; right. exists i. split; [exact K|]. exists t. split; [exact T|]. unfold reach, reach2 in *. lra. }
  destruct (first_out c (lv a) 0) as [[[k first]|]| |] eqn:FO; cbn [bind] in E; try discriminate; [|injection E as <-; now left].
  destruct (push loop_new first) as [l| |] eqn:P; cbn [bind] in E; try discriminate. destruct (bite_walk a c first 99 l true (k + 1)) as [[r'|]| |] eqn:W; cbn [bind] in E; try discriminate; [|injection E as <-; now left].
  right. apply first_out_spec in FO as (_ & K & EF). rewrite Nat.sub_0_r in K, EF. assert (V1 := push_new first l P).
  assert (FC : first = corner a k) by (unfold corner; rewrite Nat.mod_small by exact K; now symmetry).
  assert (FI : In first (lv a)) by (rewrite <- EF; now apply nth_In).
  destruct (bite_good a c (ln a) D U F2 SA NA NC D0 HC first 99 l true (k + 1) r') as (G2 & L2).
  - rewrite V1. discriminate.
  - intros v V. rewrite V1 in V. destruct V as [<-|[]]. split; [intros q Q; apply F2; [apply in_or_app; now left|exact Q]|now left].
  - intros _. rewrite V1. cbn [last]. eapply near_corner with (index := k); try eassumption; [rewrite FC, vsub_self, vlen_0; lra|reflexivity].
  - exact W.
  - apply closed_incl in E as (IN & L & L3 & C). rewrite V1 in L2. cbn [length] in L2. split; [exact C|]. split; [lia|]. intros v V. apply IN, G2 in V as (_ & V). exact V.
Qed.
Local Transparent bite_walk l_intersection l_test_point push.

(** ** For convex loops: no corner of a result is outside of them and away from their edges *)
Lemma covers_convex l d v : convex_loop l v -> 11 / 10000 <= d -> covers l d v -> ~ (strictly_outside l v /\ forall i, ~ near_edge l i d v).
Proof.
  intros C D [V|[T|(i & E)]] (O & N); [| |exact (N i E)].
  - apply In_nth with (d := vzero) in V as (j & J & V). apply (N j). split; [exact J|]. exists 0. split; [lra|]. unfold corner. rewrite (Nat.mod_small j), V by exact J.
    match goal with |- vlen ?z <= _ => replace z with vzero end; [rewrite vlen_0; lra|]. apply V3_eq; unfold vzero; vunfold; cbn [vx vy vz]; ring.
  - rewrite (C117_outside l v C O) in T; [discriminate|]. intros (i & t & I & B & H). apply (N i). split; [exact I|]. exists t. split; [exact B|lra].
Qed.
Theorem C118_convex (a b r : Loop) (D : R) : vlen2 (ln a) = 1 ->
  (forall p q, In p (lv a ++ lv b) -> In q (lv a ++ lv b) -> vdot (ln a) (vsub p q) = 0) ->
  (forall p q, In p (lv a) -> In q (lv a) -> vlen (vsub p q) <= D) -> (forall p q, In p (lv b) -> In q (lv b) -> vlen (vsub p q) <= D) -> 0 <= D ->
  (forall v, In v (lv r) -> convex_loop a v) -> l_intersection a b = Ok (Some r) \/ l_bite a b = Ok r ->
  forall v, In v (lv r) -> ~ (strictly_outside a v /\ forall i, ~ near_edge a i (21 / 10000 + D * (3 / 10 ^ 7)) v).
Proof.
  intros U F SA SB P C E v V. apply covers_convex; [exact (C v V)|lra|]. destruct E as [E|E].
  - destruct (C118_intersection a b r D U F SA SB E) as (_ & _ & b' & _ & G). destruct (G v V) as ([G1|[G1|(i & I & t & T & G1)]] & _); [now left|right; now left|]. right. right. exists i. split; [exact I|]. exists t. split; [exact T|]. unfold reach in G1. lra.
  - destruct (C118_bite a b r D U F SA SB E) as [->|(_ & _ & G)]; [now left|exact (G v V)].
Qed.

(** ** Examples: rectangles *)
Definition rect (x0 y0 x1 y1 : R) : Loop := mkLoop [P2 x0 y0; P2 x1 y0; P2 x1 y1; P2 x0 y1] Up true ((x1 - x0) * (y1 - y0)) (2 * (x1 - x0) + 2 * (y1 - y0)).
Lemma rect_plane x0 y0 x1 y1 p q : In p (lv (rect x0 y0 x1 y1)) -> vz q = 0 -> vdot Up (vsub p q) = 0 /\ vdot Up (vsub q p) = 0.
Proof. intros P Q. cbn [rect lv In] in P. destruct q as [q1 q2 q3]. cbn [vz] in Q. subst q3. destruct P as [<-|[<-|[<-|[<-|[]]]]]; unfold Up, P2; vunfold; cbn [vx vy vz]; split; ring. Qed.
Lemma rect_convex x0 y0 x1 y1 x y : x0 < x1 -> y0 < y1 -> convex_loop (rect x0 y0 x1 y1) (P2 x y).
Proof.
  intros X Y. split; [reflexivity|]. split; [cbn [rect ln]; unfold Up; vunfold; cbn [vx vy vz]; ring|]. split; [cbn; lia|]. split.
  - intros p q P Q. cbn [rect lv In] in P, Q. destruct P as [<-|[<-|[<-|[<-|[<-|[]]]]]], Q as [<-|[<-|[<-|[<-|[<-|[]]]]]]; cbn [rect ln]; unfold Up, P2; vunfold; cbn [vx vy vz]; ring.
  - intros i j I J A B. unfold leftness, corner. cbn [rect lv length] in I, J, B |- *.
    do 4 (destruct i as [|i]; [do 4 (destruct j as [|j]; [try (exfalso; cbn in A, B; congruence); cbn [Nat.add Nat.modulo Nat.divmod fst snd Nat.sub nth ln rect]; unfold P2, Up; vunfold; cbn [vx vy vz]; nra|]); lia|]). lia.
Qed.
Lemma rect_inside x0 y0 x1 y1 x y : x0 < x < x1 -> y0 < y < y1 -> strictly_inside (rect x0 y0 x1 y1) (P2 x y).
Proof.
  intros X Y i I. unfold leftness, corner. cbn [rect lv length] in I |- *.
  do 4 (destruct i as [|i]; [cbn [Nat.add Nat.modulo Nat.divmod fst snd Nat.sub nth ln rect]; unfold P2, Up; vunfold; cbn [vx vy vz]; nra|]). lia.
Qed.
Lemma rect_spread x0 y0 x1 y1 : x0 < x1 -> y0 < y1 -> forall a b, In a (lv (rect x0 y0 x1 y1)) -> In b (lv (rect x0 y0 x1 y1)) -> vlen (vsub a b) <= (x1 - x0) + (y1 - y0).
Proof.
  intros X Y a b A B. unfold vlen. rewrite <- (sqrt_square (x1 - x0 + (y1 - y0))) by lra. apply sqrt_le_1_alt.
  cbn [rect lv In] in A, B. destruct A as [<-|[<-|[<-|[<-|[]]]]], B as [<-|[<-|[<-|[<-|[]]]]]; unfold P2; vunfold; cbn [vx vy vz]; nra.
Qed.
Lemma vlen_parts v : Rabs (vx v) <= vlen v /\ Rabs (vy v) <= vlen v.
Proof. destruct v as [a b c]. split; (rewrite <- (Rabs_pos_eq (vlen _)) by apply vlen_nonneg; apply Rsqr_le_abs_0; unfold Rsqr; rewrite vlen_sqr; vunfold; cbn [vx vy vz]; nra). Qed.
(** points outside *)
Lemma rect_out x0 y0 x1 y1 x y : x0 < x1 -> y0 < y1 -> x < x0 - 1 / 100 \/ x1 + 1 / 100 < x \/ y < y0 - 1 / 100 \/ y1 + 1 / 100 < y -> l_test_point (rect x0 y0 x1 y1) (P2 x y) = Ok false.
Proof.
  intros X Y O. apply C117_outside; [now apply rect_convex| |].
  - assert (G : forall i, (i < 4)%nat -> leftness (rect x0 y0 x1 y1) i (P2 x y) < 0 -> strictly_outside (rect x0 y0 x1 y1) (P2 x y)) by (intros i I H; exists i; auto).
    destruct O as [O|[O|[O|O]]]; [apply (G 3%nat)|apply (G 1%nat)|apply (G 0%nat)|apply (G 2%nat)]; try lia; unfold leftness, corner; cbn [rect lv length Nat.add Nat.modulo Nat.divmod fst snd Nat.sub nth ln]; unfold P2, Up; vunfold; cbn [vx vy vz]; nra.
  - intros (i & t & I & T & H). destruct (vlen_parts (vsub (P2 x y) (vadd (corner (rect x0 y0 x1 y1) i) (vscale (vsub (corner (rect x0 y0 x1 y1) (i + 1)) (corner (rect x0 y0 x1 y1) i)) t)))) as (HX & HY).
    apply (fun h => Rle_trans _ _ _ h H) in HX. apply (fun h => Rle_trans _ _ _ h H) in HY. clear H. unfold corner in HX, HY. cbn [rect lv length] in I, HX, HY.
    assert (RA : forall z e, Rabs z <= e -> - e <= z <= e) by (intros z e Z; revert Z; unfold Rabs; destruct (Rcase_abs z); lra). apply RA in HX, HY.
    assert (I4 : (i = 0 \/ i = 1 \/ i = 2 \/ i = 3)%nat) by lia.
    destruct I4 as [->|[->|[->| ->]]]; cbn [Nat.add Nat.modulo Nat.divmod fst snd Nat.sub nth] in HX, HY; unfold P2, vsub, vadd, vscale in HX, HY; cbn [vx vy vz] in HX, HY; nra.
Qed.
(** points inside *)
Lemma rect_in x0 y0 x1 y1 x y : x0 < x < x1 -> y0 < y < y1 -> (x1 - x0) + (y1 - y0) <= 1001 * (y - y0) -> 1 / 10 ^ 5 <= (x1 - x0) * (y - y0) ->
  1 / 10 ^ 5 <= Rabs ((y1 - y0) * (x - (x0 + x1) / 2)) -> l_test_point (rect x0 y0 x1 y1) (P2 x y) = Ok true.
Proof.
  intros X Y L C1 C2. apply (C117_inside _ _ ((x1 - x0) + (y1 - y0))); [apply rect_convex; lra|now apply rect_inside|apply rect_spread; lra| |].
  - eapply Rle_trans; [exact L|]. apply Rmult_le_compat_l; [lra|]. destruct (vlen_parts (vsub (P2 x y) (mid_first_edge (rect x0 y0 x1 y1)))) as (_ & H). eapply Rle_trans; [|exact H].
    unfold mid_first_edge. cbn [rect lv nth]. unfold P2. vunfold. cbn [vx vy vz]. rewrite Rabs_pos_eq; lra.
  - intros i I. unfold clear_of. cbv zeta. unfold corner, mid_first_edge. cbn [rect lv length] in I |- *. right.
    assert (I4 : (i = 0 \/ i = 1 \/ i = 2 \/ i = 3)%nat) by lia.
    destruct I4 as [->|[->|[->| ->]]]; cbn [Nat.add Nat.modulo Nat.divmod fst snd Nat.sub nth ln rect]; unfold P2, Up; vunfold; cbn [vx vy vz].
    + match goal with |- _ <= Rabs ?z => replace z with ((x1 - x0) * (y - y0)) by field end. rewrite Rabs_pos_eq; lra.
    + match goal with |- _ <= Rabs ?z => replace z with (- ((y1 - y0) * (x - (x0 + x1) / 2))) by field end. now rewrite Rabs_Ropp.
    + match goal with |- _ <= Rabs ?z => replace z with (- ((x1 - x0) * (y - y0))) by field end. rewrite Rabs_Ropp, Rabs_pos_eq; lra.
    + match goal with |- _ <= Rabs ?z => replace z with ((y1 - y0) * (x - (x0 + x1) / 2)) by field end. exact C2.
Qed.
Lemma rect_corner x0 y0 x1 y1 i : x0 + 1 / 100 <= x1 -> y0 + 1 / 100 <= y1 -> (i < 4)%nat -> l_test_point (rect x0 y0 x1 y1) (nth i (lv (rect x0 y0 x1 y1)) vzero) = Ok true.
Proof.
  intros X Y I. assert (P : exists x y, nth i (lv (rect x0 y0 x1 y1)) vzero = P2 x y) by (do 4 (destruct i as [|i]; [cbn; eauto|]); lia). destruct P as (x & y & P). rewrite P.
  apply (C117_edge _ _ i 0); [apply rect_convex; lra|exact I|lra| |].
  - destruct (vlen_parts (vsub (corner (rect x0 y0 x1 y1) (i + 1)) (corner (rect x0 y0 x1 y1) i))) as (HX & HY). unfold corner in *. cbn [rect lv length] in *.
    assert (RA : forall z, z <= Rabs z /\ - z <= Rabs z) by (intros z; unfold Rabs; destruct (Rcase_abs z); lra).
    assert (I4 : (i = 0 \/ i = 1 \/ i = 2 \/ i = 3)%nat) by lia.
    destruct I4 as [->|[->|[->| ->]]]; cbn [Nat.add Nat.modulo Nat.divmod fst snd Nat.sub nth] in HX, HY |- *; [eapply Rle_trans; [|exact HX]|eapply Rle_trans; [|exact HY]|eapply Rle_trans; [|exact HX]|eapply Rle_trans; [|exact HY]]; unfold P2, vsub; cbn [vx vy vz]; match goal with |- _ <= Rabs ?z => destruct (RA z); lra end.
  - rewrite <- P. unfold corner. rewrite Nat.mod_small by exact I. set (z := nth i _ _). set (w := vsub _ z). clearbody z w. vring.
Qed.

(** ** Two bars that cross each other have no intersection, and biting one of them with the other changes nothing *)
Lemma up_same : vis_same_direction Up Up = true.
Proof.
  unfold vis_same_direction, vis_parallel. replace (vis_zero Up) with false.
  2:{ symmetry. replace Up with (vscale Up 1) by vring. apply not_zero_along; [unfold Up; vunfold; cbn [vx vy vz]; ring|rewrite Rabs_R1; lra]. }
  cbn [orb]. replace (vdot Up Up) with 1 by (unfold Up; vunfold; cbn [vx vy vz]; ring). replace (vlen2 Up) with 1 by (unfold Up; vunfold; cbn [vx vy vz]; ring).
  replace (1 * 1 - 1 * 1) with 0 by ring. rewrite Rabs_R0. destruct (Rltb_spec 0 (1 / 10 ^ 5)); [|lra]. cbn [negb]. destruct (Rltb_spec 0 1); [reflexivity|lra].
Qed.
Lemma rect_meet x0 y0 x1 y1 x2 y2 x3 y3 (k : Loop -> res (option Loop)) : x0 < x1 -> y0 < y1 ->
  (if negb (lclosed (rect x0 y0 x1 y1)) || negb (lclosed (rect x2 y2 x3 y3)) then Err else
   if Rltb (Rabs (vdot (ln (rect x0 y0 x1 y1)) (ln (rect x2 y2 x3 y3)))) (999 / 1000) then Ok None else
   do b0 <- l_at (lv (rect x2 y2 x3 y3)) 0; do c <- l_is_coplanar (rect x0 y0 x1 y1) b0; if negb c then Ok None else
   k (if vis_same_direction (ln (rect x2 y2 x3 y3)) (ln (rect x0 y0 x1 y1)) then rect x2 y2 x3 y3 else l_reverse (rect x2 y2 x3 y3))) = k (rect x2 y2 x3 y3).
Proof.
  intros X Y. cbn [rect lclosed negb orb ln]. replace (vdot Up Up) with 1 by (unfold Up; vunfold; cbn [vx vy vz]; ring). rewrite Rabs_R1. destruct (Rltb_spec 1 (999 / 1000)); [lra|]. replace (l_at (lv (rect x2 y2 x3 y3)) 0) with (Ok (P2 x2 y2)) by reflexivity. cbn [bind].
  match goal with |- context [l_is_coplanar ?u ?v] => replace (l_is_coplanar u v) with (@Ok bool true) by (symmetry; apply (coplanar_ok (rect x0 y0 x1 y1) (P2 x2 y2)), convex_testable, rect_convex; assumption) end. cbn [bind negb]. now rewrite up_same.
Qed.
Definition bar_h : Loop := rect (-3) (-1) 3 1.
Definition bar_v : Loop := rect (-1) (-3) 1 3.
Lemma bars_none : l_intersection bar_h bar_v = Ok None.
Proof.
  unfold l_intersection, bar_h, bar_v. rewrite (rect_meet (-3) (-1) 3 1 (-1) (-3) 1 3 (fun b => do f <- first_in b (lv (rect (-3) (-1) 3 1)) 0;
    do s <- match f with Some x => Ok (Some (true, x)) | None => do g <- first_in (rect (-3) (-1) 3 1) (lv b) 0; Ok (match g with Some x => Some (false, x) | None => None end) end;
    match s with None => Ok None | Some (ws, (i, p)) => do l <- push loop_new p; do r <- clip_walk (rect (-3) (-1) 3 1) b 99 l ws (i + 1); match r with Some l' => clip_finish l' | None => Ok None end end)) by lra.
  assert (A : first_in (rect (-1) (-3) 1 3) (lv (rect (-3) (-1) 3 1)) 0 = Ok None) by (cbn [rect lv first_in]; fold (rect (-1) (-3) 1 3); rewrite !rect_out by lra; reflexivity).
  assert (B : first_in (rect (-3) (-1) 3 1) (lv (rect (-1) (-3) 1 3)) 0 = Ok None) by (cbn [rect lv first_in]; fold (rect (-3) (-1) 3 1); rewrite !rect_out by lra; reflexivity).
  rewrite A. cbn [bind]. rewrite B. reflexivity.
Qed.
Theorem C118_cross_refuted : exists a b, l_intersection a b = Ok None /\ l_bite a b = Ok a /\
  convex_loop a (P2 0 0) /\ convex_loop b (P2 0 0) /\ (forall x y, -1 < x < 1 -> -1 < y < 1 -> strictly_inside a (P2 x y) /\ strictly_inside b (P2 x y)).
Proof.
  exists bar_h, bar_v. split; [exact bars_none|]. split.
  - unfold l_bite. replace (negb (lclosed bar_h) || negb (lclosed bar_v)) with false by reflexivity. replace (vdot (ln bar_h) (ln bar_v)) with 1 by (cbn [bar_h bar_v rect ln]; unfold Up; vunfold; cbn [vx vy vz]; ring).
    rewrite Rabs_R1. destruct (Rltb_spec 1 (999 / 1000)); [lra|]. cbn [bar_v rect lv l_at nth_error bind]. fold bar_v. replace (l_is_coplanar bar_h (P2 (-1) (-3))) with (Ok true).
    2:{ symmetry. apply coplanar_ok, convex_testable, rect_convex; lra. }
    cbn [bind negb]. fold (rect (-1) (-3) 1 3). fold bar_v. rewrite bars_none. reflexivity.
  - split; [apply rect_convex; lra|]. split; [apply rect_convex; lra|]. intros x y X Y. split; apply rect_inside; lra.
Qed.

Lemma walk_stop a b fuel l (ws : bool) index :
  (2 <? length (lv l))%nat && (compare (nth 0 (lv l) vzero) (l_wrap (if ws then a else b) index) || compare (nth 0 (lv l) vzero) (last (lv l) vzero)) = true -> clip_walk a b (S fuel) l ws index = Ok (Some l).
Proof. intros H. cbn [clip_walk]. now rewrite H. Qed.
Lemma walk_corner a b fuel l (ws : bool) index w o l' r : w = (if ws then a else b) -> o = (if ws then b else a) ->
  (2 <? length (lv l))%nat && (compare (nth 0 (lv l) vzero) (l_wrap w index) || compare (nth 0 (lv l) vzero) (last (lv l) vzero)) = false ->
  l_intersect (lv o) (mkS (last (lv l) vzero) (l_wrap w index)) (s_length (mkS (last (lv l) vzero) (l_wrap w index))) = [] -> l_test_point a (l_wrap w index) = Ok true -> l_test_point b (l_wrap w index) = Ok true -> push l (l_wrap w index) = Ok l' ->
  clip_walk a b fuel l' ws ((index + 1) mod length (lv w)) = r -> clip_walk a b (S fuel) l ws index = r.
Proof. intros -> -> S I T1 T2 P W. cbn [clip_walk]. cbv zeta. rewrite S, I. unfold in_both. rewrite T1. cbn [bind]. rewrite T2. cbn [bind]. rewrite P. exact W. Qed.
Lemma walk_meet a b fuel l (ws : bool) index w o m ms j p l' r : w = (if ws then a else b) -> o = (if ws then b else a) ->
  (2 <? length (lv l))%nat && (compare (nth 0 (lv l) vzero) (l_wrap w index) || compare (nth 0 (lv l) vzero) (last (lv l) vzero)) = false ->
  l_intersect (lv o) (mkS (last (lv l) vzero) (l_wrap w index)) (s_length (mkS (last (lv l) vzero) (l_wrap w index))) = m :: ms -> closest_pt (m :: ms) (last (lv l) vzero) = Some (j, p) -> push l p = Ok l' ->
  clip_walk a b fuel l' (negb ws) ((j + 1) mod length (lv o)) = r -> clip_walk a b (S fuel) l ws index = r.
Proof. intros -> -> S I C P W. cbn [clip_walk]. cbv zeta. rewrite S, I, C. cbn [bind]. rewrite P. exact W. Qed.
Lemma rect_clip x0 y0 x1 y1 x2 y2 x3 y3 ws i p l l' r : x0 < x1 -> y0 < y1 ->
  (do f <- first_in (rect x2 y2 x3 y3) (lv (rect x0 y0 x1 y1)) 0;
   match f with Some x => Ok (Some (true, x)) | None => do g <- first_in (rect x0 y0 x1 y1) (lv (rect x2 y2 x3 y3)) 0; Ok (match g with Some x => Some (false, x) | None => None end) end) = Ok (Some (ws, (i, p))) ->
  push loop_new p = Ok l -> clip_walk (rect x0 y0 x1 y1) (rect x2 y2 x3 y3) 99 l ws (i + 1) = Ok (Some l') -> clip_finish l' = r -> l_intersection (rect x0 y0 x1 y1) (rect x2 y2 x3 y3) = r.
Proof.
  intros X Y F P W FI. unfold l_intersection. rewrite (rect_meet x0 y0 x1 y1 x2 y2 x3 y3 (fun b => do f <- first_in b (lv (rect x0 y0 x1 y1)) 0;
    do s <- match f with Some x => Ok (Some (true, x)) | None => do g <- first_in (rect x0 y0 x1 y1) (lv b) 0; Ok (match g with Some x => Some (false, x) | None => None end) end;
    match s with None => Ok None | Some (ws, (i, p)) => do l <- push loop_new p; do r <- clip_walk (rect x0 y0 x1 y1) b 99 l ws (i + 1); match r with Some l' => clip_finish l' | None => Ok None end end)) by assumption.
  destruct (first_in (rect x2 y2 x3 y3) _ _) as [f| |]; cbn [bind] in F |- *; try discriminate. rewrite F. cbn [bind]. rewrite P. cbn [bind]. rewrite W. exact FI.
Qed.
Lemma finish_open l l' r : lclosed l = false -> push_list loop_new (lv l) = Ok l' -> (length (lv l') <? 3)%nat = false -> closed_loop l' = Ok r -> clip_finish l = Ok (Some r).
Proof. intros C P N R. unfold clip_finish, sanitize. rewrite P. cbn [bind]. rewrite C. cbn [andb bind]. rewrite N, R. reflexivity. Qed.
Lemma push_list_cons l p ps l' r : push l p = Ok l' -> push_list l' ps = r -> push_list l (p :: ps) = r.
Proof. intros P R. cbn [push_list]. rewrite P. exact R. Qed.
Local Opaque clip_walk.

(** ** Two rectangles that overlap at a corner: the result is the corner they share *)
Definition sq_a : Loop := rect 0 0 6 6.
Definition sq_b : Loop := rect 2 2 11 8.
Lemma sq_first : (do f <- first_in sq_b (lv sq_a) 0;
   match f with Some x => Ok (Some (true, x)) | None => do g <- first_in sq_a (lv sq_b) 0; Ok (match g with Some x => Some (false, x) | None => None end) end) = Ok (Some (true, (2%nat, P2 6 6))).
Proof.
  replace (first_in sq_b (lv sq_a) 0) with (Ok (Some (2%nat, P2 6 6))); [reflexivity|]. unfold sq_a, sq_b. cbn [rect lv first_in]. fold (rect 2 2 11 8). rewrite (rect_out 2 2 11 8 0 0), (rect_out 2 2 11 8 6 0) by lra. cbn [bind].
  rewrite rect_in; try lra; [reflexivity|]. rewrite Rabs_left; lra.
Qed.
Lemma sq_test : l_test_point sq_a (P2 2 2) = Ok true /\ l_test_point sq_b (P2 2 2) = Ok true.
Proof. split; [unfold sq_a; apply rect_in; try lra; rewrite Rabs_left; lra|exact (rect_corner 2 2 11 8 0 ltac:(lra) ltac:(lra) ltac:(lia))]. Qed.

(** ** Biting a loop with one that covers it all leaves it whole *)
Definition small : Loop := rect 1 1 3 4.
Definition large : Loop := rect 0 0 10 10.
Definition small_again : Loop := mkLoop [P2 1 1; P2 3 1; P2 3 4; P2 1 4] Up true 6 10.
Lemma small_in_large i : (i < 4)%nat -> l_test_point large (nth i (lv small) vzero) = Ok true.
Proof. intros I. do 4 (destruct i as [|i]; [cbn [small rect lv nth]; unfold large; apply rect_in; try lra; rewrite Rabs_left; lra|]). lia. Qed.
Lemma small_in_small i : (i < 4)%nat -> l_test_point small (nth i (lv small) vzero) = Ok true.
Proof. intros I. apply rect_corner; lra || exact I. Qed.
Lemma small_first : (do f <- first_in large (lv small) 0;
   match f with Some x => Ok (Some (true, x)) | None => do g <- first_in small (lv large) 0; Ok (match g with Some x => Some (false, x) | None => None end) end) = Ok (Some (true, (0%nat, P2 1 1))).
Proof. replace (first_in large (lv small) 0) with (Ok (Some (0%nat, P2 1 1))); [reflexivity|]. cbn [small rect lv first_in]. pose proof (small_in_large 0 ltac:(lia)) as H. cbn [small rect lv nth] in H. rewrite H. reflexivity. Qed.
(** the corners of the loop are on the edges of its own copy that turns the other way *)
Lemma back_convex x y : convex_loop (l_reverse small_again) (P2 x y).
Proof.
  split; [reflexivity|]. split; [cbn [l_reverse small_again ln]; unfold Up; vunfold; cbn [vx vy vz]; ring|]. split; [cbn; lia|]. split.
  - intros p q P Q. cbn [l_reverse small_again lv rev app In] in P, Q. destruct P as [<-|[<-|[<-|[<-|[<-|[]]]]]], Q as [<-|[<-|[<-|[<-|[<-|[]]]]]]; cbn [l_reverse small_again ln]; unfold Up, P2; vunfold; cbn [vx vy vz]; ring.
  - intros i j I J A B. unfold leftness, corner. cbn [l_reverse small_again lv rev app length] in I, J, B |- *.
    do 4 (destruct i as [|i]; [do 4 (destruct j as [|j]; [try (exfalso; cbn in A, B; congruence); cbn [Nat.add Nat.modulo Nat.divmod fst snd Nat.sub nth ln l_reverse small_again]; unfold P2, Up; vunfold; cbn [vx vy vz]; lra|]); lia|]). lia.
Qed.
Lemma back_test i : (i < 4)%nat -> l_test_point (l_reverse small_again) (nth i (lv (l_reverse small_again)) vzero) = Ok true.
Proof.
  intros I. assert (P : exists x y, nth i (lv (l_reverse small_again)) vzero = P2 x y) by (do 4 (destruct i as [|i]; [cbn; eauto|]); lia). destruct P as (x & y & P). rewrite P.
  apply (C117_edge _ _ i 0); [apply back_convex|exact I|lra| |].
  - destruct (vlen_parts (vsub (corner (l_reverse small_again) (i + 1)) (corner (l_reverse small_again) i))) as (HX & HY). unfold corner in *. cbn [l_reverse small_again lv rev app length] in *.
    assert (RA : forall z, z <= Rabs z /\ - z <= Rabs z) by (intros z; unfold Rabs; destruct (Rcase_abs z); lra).
    assert (I4 : (i = 0 \/ i = 1 \/ i = 2 \/ i = 3)%nat) by lia.
    destruct I4 as [->|[->|[->| ->]]]; cbn [Nat.add Nat.modulo Nat.divmod fst snd Nat.sub nth] in HX, HY |- *; [eapply Rle_trans; [|exact HX]|eapply Rle_trans; [|exact HY]|eapply Rle_trans; [|exact HX]|eapply Rle_trans; [|exact HY]]; unfold P2, vsub; cbn [vx vy vz]; match goal with |- _ <= Rabs ?z => destruct (RA z); lra end.
  - rewrite <- P. unfold corner. rewrite Nat.mod_small by exact I. set (z := nth i _ _). set (w := vsub _ z). clearbody z w. vring.
Qed.
Lemma back_none : first_out (l_reverse small_again) (lv small) 0 = Ok None.
Proof.
  pose proof (back_test 0 ltac:(lia)) as T0. pose proof (back_test 1 ltac:(lia)) as T1. pose proof (back_test 2 ltac:(lia)) as T2. pose proof (back_test 3 ltac:(lia)) as T3.
  change (nth 0 (lv (l_reverse small_again)) vzero) with (P2 1 4) in T0. change (nth 1 (lv (l_reverse small_again)) vzero) with (P2 3 4) in T1.
  change (nth 2 (lv (l_reverse small_again)) vzero) with (P2 3 1) in T2. change (nth 3 (lv (l_reverse small_again)) vzero) with (P2 1 1) in T3.
  cbn [small rect lv first_out]. rewrite T3. cbn [bind]. rewrite T2. cbn [bind]. rewrite T1. cbn [bind]. rewrite T0. reflexivity.
Qed.
Lemma bite_covered : l_intersection small large = Ok (Some small_again) -> l_bite small large = Ok small.
Proof.
  intros H. unfold l_bite. replace (negb (lclosed small) || negb (lclosed large)) with false by reflexivity. replace (vdot (ln small) (ln large)) with 1 by (cbn [small large rect ln]; unfold Up; vunfold; cbn [vx vy vz]; ring).
  rewrite Rabs_R1. destruct (Rltb_spec 1 (999 / 1000)); [lra|]. replace (l_at (lv large) 0) with (Ok (P2 0 0)) by reflexivity. cbn [bind]. replace (l_is_coplanar small (P2 0 0)) with (Ok true).
  2:{ symmetry. apply coplanar_ok, convex_testable, rect_convex; lra. }
  cbn [bind negb]. rewrite H. cbn [bind]. cbv zeta. replace (vis_same_direction (ln small_again) (ln small)) with true by (symmetry; exact up_same). rewrite back_none. reflexivity.
Qed.
Lemma covered_both x y : 1 < x < 3 -> 1 < y < 4 -> strictly_inside small (P2 x y) /\ strictly_inside large (P2 x y).
Proof. intros X Y. split; apply rect_inside; lra. Qed.

Opaque IZR Rdiv Rminus Rplus Rmult Ropp Rabs sqrt pow Rinv.
Example C118_example : l_intersection sq_a sq_b = Ok (Some (mkLoop [P2 6 6; P2 2 6; P2 2 2; P2 6 2] Up true 16 16)).
Proof.
  unfold sq_a, sq_b. eapply rect_clip; [rcalc|rcalc|exact sq_first|instantiate (1 := LL [P2 6 6] vzero); rrun| |].
  - eapply walk_meet with (l' := LL [P2 6 6; P2 2 6] vzero) (m := (3%nat, P2 2 6)) (ms := []); [reflexivity|reflexivity|reflexivity|rrun|rrun|rrun|].
    eapply walk_corner with (l' := LL [P2 6 6; P2 2 6; P2 2 2] Up); [reflexivity|reflexivity|reflexivity|rrun|apply sq_test|apply sq_test|rrun|].
    eapply walk_meet with (l' := LL [P2 6 6; P2 2 6; P2 2 2; P2 6 2] Up) (m := (1%nat, P2 6 2)) (ms := []); [reflexivity|reflexivity|rrun|rrun|rrun|rrun|].
    apply walk_stop. rrun.
  - apply (finish_open _ (LL [P2 6 6; P2 2 6; P2 2 2; P2 6 2] Up)); [reflexivity| |reflexivity|rrun].
    cbn [LL lv]. eapply push_list_cons with (l' := LL [P2 6 6] vzero); [rrun|]. eapply push_list_cons with (l' := LL [P2 6 6; P2 2 6] vzero); [rrun|].
    eapply push_list_cons with (l' := LL [P2 6 6; P2 2 6; P2 2 2] Up); [rrun|]. eapply push_list_cons with (l' := LL [P2 6 6; P2 2 6; P2 2 2; P2 6 2] Up); [rrun|]. reflexivity.
Qed.
Lemma small_clip : l_intersection small large = Ok (Some small_again).
Proof.
  unfold small, large. eapply rect_clip; [rcalc|rcalc|exact small_first|instantiate (1 := LL [P2 1 1] vzero); rrun| |].
  - eapply walk_corner with (l' := LL [P2 1 1; P2 3 1] vzero); [reflexivity|reflexivity|reflexivity|rrun|exact (small_in_small 1 ltac:(lia))|exact (small_in_large 1 ltac:(lia))|rrun|].
    eapply walk_corner with (l' := LL [P2 1 1; P2 3 1; P2 3 4] Up); [reflexivity|reflexivity|reflexivity|rrun|exact (small_in_small 2 ltac:(lia))|exact (small_in_large 2 ltac:(lia))|rrun|].
    eapply walk_corner with (l' := LL [P2 1 1; P2 3 1; P2 3 4; P2 1 4] Up); [reflexivity|reflexivity|rrun|rrun|exact (small_in_small 3 ltac:(lia))|exact (small_in_large 3 ltac:(lia))|rrun|].
    apply walk_stop. rrun.
  - apply (finish_open _ (LL [P2 1 1; P2 3 1; P2 3 4; P2 1 4] Up)); [reflexivity| |reflexivity|rrun].
    cbn [LL lv]. eapply push_list_cons with (l' := LL [P2 1 1] vzero); [rrun|]. eapply push_list_cons with (l' := LL [P2 1 1; P2 3 1] vzero); [rrun|].
    eapply push_list_cons with (l' := LL [P2 1 1; P2 3 1; P2 3 4] Up); [rrun|]. eapply push_list_cons with (l' := LL [P2 1 1; P2 3 1; P2 3 4; P2 1 4] Up); [rrun|]. reflexivity.
Qed.
Theorem C118_covered_refuted : exists a b, l_bite a b = Ok a /\ l_intersection a b = Ok (Some (mkLoop (lv a) Up true 6 10)) /\ (forall x y, 1 < x < 3 -> 1 < y < 4 -> strictly_inside a (P2 x y) /\ strictly_inside b (P2 x y)).
Proof.
  exists small, large. split; [exact (bite_covered small_clip)|]. split; [exact small_clip|]. exact covered_both.
Qed.

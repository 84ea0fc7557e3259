(** Lemmas on the test of points against convex loops *)
From Coq Require Import Reals List Bool Lra Lia Psatz.
From Verif.Common Require Import Base Flt.
From Verif.Geometry Require Import Vec TriangleModel LoopModel GeomProofs TriangleProofs LoopProofs MeshProofs MergeProofs SplitModel SplitProofs ConvexProofs.
Import ListNotations.
Open Scope R_scope.

(** how far [p] is on the inner side of edge [i], times the length of the edge *)
Definition side (u : pt) (vs : list pt) (i : nat) (p : pt) : R := vdot u (tri2 p (pick vs i) (pick vs (i + 1))).
Definition edge (vs : list pt) (i : nat) : pt := vsub (pick vs (i + 1)) (pick vs i).
Lemma side_move u vs i p d s : side u vs i (vadd p (vscale d s)) = side u vs i p + s * vdot u (vcross (edge vs i) d).
Proof. unfold side, edge. rewrite !tri2_cross. vring. Qed.
Lemma side_mix u vs i a b s : side u vs i (vadd a (vscale (vsub b a) s)) = (1 - s) * side u vs i a + s * side u vs i b.
Proof. unfold side. rewrite !tri2_cross. vring. Qed.
Lemma side_start u vs i : side u vs i (pick vs i) = 0. Proof. unfold side. rewrite tri2_cross. vring. Qed.
Lemma side_end u vs i : side u vs i (pick vs (i + 1)) = 0. Proof. unfold side. rewrite tri2_cross. vring. Qed.

(** the edges do not turn back, nor straight on *)
Definition strictly_convex (u : pt) (vs : list pt) : Prop :=
  (3 <= length vs)%nat /\ forall i j, (i < length vs)%nat -> (j < length vs)%nat -> j <> i -> j <> ((i + 1) mod length vs)%nat -> 0 < side u vs i (pick vs j).
Lemma pick_mod vs i : pick vs (i mod length vs) = pick vs i.
Proof. unfold pick. destruct vs; [destruct i; reflexivity|]. now rewrite Nat.mod_mod. Qed.
Lemma strict_weak u vs i j : strictly_convex u vs -> (i < length vs)%nat -> 0 <= side u vs i (pick vs j).
Proof.
  intros (N & C) I. rewrite <- (pick_mod vs j). assert (J : (j mod length vs < length vs)%nat) by (apply Nat.mod_upper_bound; lia).
  destruct (Nat.eq_dec (j mod length vs) i) as [->|A]; [rewrite side_start; lra|].
  destruct (Nat.eq_dec (j mod length vs) ((i + 1) mod length vs)) as [E|B]; [rewrite E, pick_mod, side_end; lra|].
  left. now apply C.
Qed.

(** ** Intersections of the ray with edges *)
Lemma flat_line u a b c : flat u [a; b; c] -> vdot u (vsub a b) = 0 /\ vdot u (vsub b c) = 0 /\ vdot u (vsub a c) = 0.
Proof. intros F. repeat split; apply F; cbn; auto. Qed.
Lemma meet_exact u x y p q ta tb : vlen2 u = 1 -> vdot u (vsub y x) = 0 -> vdot u (vsub q p) = 0 -> vdot u (vsub x p) = 0 ->
  get_intersection_pt (mkS x y) (mkS p q) = Some (ta, tb) -> vadd x (vscale (vsub y x) ta) = vadd p (vscale (vsub q p) tb) /\ vdot u (vcross (vsub y x) (vsub q p)) <> 0.
Proof.
  intros U E D X G. apply segment_residual in G as (N0 & _ & R). cbn [s_start s_end] in *.
  rewrite (cross_par u _ _ U E D) in N0, R. set (k := vdot u (vcross _ _)) in *.
  replace (vdot (vsub x p) (vscale u k)) with (k * vdot u (vsub x p)) in R by vring. rewrite X, Rmult_0_r in R.
  set (r := vsub (vadd x (vscale (vsub y x) ta)) (vadd p (vscale (vsub q p) tb))) in *.
  assert (P : 0 < 1 / 10 ^ 5) by lra. assert (K : forall z, 1 / 10 ^ 5 < Rabs z -> z <> 0) by (intros z Hz ->; rewrite Rabs_R0 in Hz; lra).
  assert (R0 : r = vzero).
  { destruct R as [(A & B & C & L)|[(A & B & C & L)|(A & B & C & L)]]; apply K in L; apply Rmult_integral in C as [C|C]; try contradiction; apply V3_eq; unfold vzero; cbn [vx vy vz]; assumption. }
  split.
  - replace (vadd x (vscale (vsub y x) ta)) with (vadd r (vadd p (vscale (vsub q p) tb))) by (unfold r; vring). rewrite R0. unfold vzero. vring.
  - intros Z. rewrite Z in N0. apply N0. vring.
Qed.
Lemma unit_component u : vlen2 u = 1 -> 1 / 2 < Rabs (vx u) \/ 1 / 2 < Rabs (vy u) \/ 1 / 2 < Rabs (vz u).
Proof.
  intros U. unfold vlen2 in U. destruct (Rlt_le_dec (1 / 2) (Rabs (vx u))) as [|A]; [auto|]. destruct (Rlt_le_dec (1 / 2) (Rabs (vy u))) as [|B]; [auto|].
  destruct (Rlt_le_dec (1 / 2) (Rabs (vz u))) as [|C]; [auto|]. exfalso.
  assert (Q : forall z, Rabs z <= 1 / 2 -> z * z <= 1 / 4). { intros z Z. rewrite <- (Rabs_pos_eq (z * z)) by nra. rewrite Rabs_mult. pose proof (Rabs_pos z). nra. }
  pose proof (Q _ A). pose proof (Q _ B). pose proof (Q _ C). lra.
Qed.
Lemma not_zero_along u k : vlen2 u = 1 -> 1 / 100 <= Rabs k -> vis_zero (vscale u k) = false.
Proof.
  intros U K. unfold vis_zero. unfold vscale. cbn [vx vy vz].
  assert (E : 0 < 100 * eps64 < 1 / 1000) by (unfold eps64; split; lra).
  assert (H : forall z, 1 / 2 < Rabs z -> Rltb (Rabs (z * k)) (100 * eps64) = false).
  { intros z Z. destruct (Rltb_spec (Rabs (z * k)) (100 * eps64)) as [L|]; [exfalso|reflexivity]. rewrite Rabs_mult in L. assert (1 / 2 * (1 / 100) <= Rabs z * Rabs k) by (apply Rmult_le_compat; lra). lra. }
  destruct (unit_component u U) as [X|[X|X]]; rewrite (H _ X); [reflexivity| |]; rewrite ?andb_false_r; reflexivity.
Qed.
Lemma meet_some u x y p q : vlen2 u = 1 -> vdot u (vsub y x) = 0 -> vdot u (vsub q p) = 0 -> vdot u (vsub x p) = 0 ->
  1 / 100 <= Rabs (vdot u (vcross (vsub y x) (vsub q p))) -> exists ta tb, get_intersection_pt (mkS x y) (mkS p q) = Some (ta, tb).
Proof.
  intros U E D X K. unfold get_intersection_pt. cbn [s_start s_end]. pose proof (cross_par u _ _ U E D) as CP. set (k := vdot u (vcross _ _)) in *.
  assert (NP : vis_parallel (vsub y x) (vsub q p) = false).
  { unfold vis_parallel. destruct (_ || _); [reflexivity|]. destruct (Rltb_spec (Rabs (vdot (vsub y x) (vsub q p) * vdot (vsub y x) (vsub q p) - vlen2 (vsub y x) * vlen2 (vsub q p))) (1 / 10 ^ 5)) as [L|]; [exfalso|reflexivity].
    pose proof (lagrange (vsub y x) (vsub q p)) as LG. rewrite CP in LG.
    replace (vlen2 (vscale u k)) with (k * k * vlen2 u) in LG by vring. rewrite U in LG.
    replace (_ - _) with (- (k * k)) in L by lra. rewrite Rabs_Ropp, Rabs_mult in L. pose proof (Rabs_pos k). assert (1 / 100 * (1 / 100) <= Rabs k * Rabs k) by (apply Rmult_le_compat; lra). lra. }
  rewrite NP, CP. replace (vdot (vsub x p) (vscale u k)) with (k * vdot u (vsub x p)) by vring. rewrite X, Rmult_0_r, Rabs_R0.
  destruct (Rltb_spec (1 / 10 ^ 5) 0) as [L|_]; [lra|].
  assert (H : forall z, 1 / 2 < Rabs z -> 1 / 10 ^ 5 < Rabs (z * k)).
  { intros z Z. rewrite Rabs_mult. assert (1 / 2 * (1 / 100) <= Rabs z * Rabs k) by (apply Rmult_le_compat; lra). lra. }
  unfold vscale. cbn [vx vy vz].
  destruct (Rltb_spec (1 / 10 ^ 5) (Rabs (vz u * k))); [eauto|]. destruct (Rltb_spec (1 / 10 ^ 5) (Rabs (vx u * k))); [eauto|]. destruct (Rltb_spec (1 / 10 ^ 5) (Rabs (vy u * k))); [eauto|].
  exfalso. destruct (unit_component u U) as [Z|[Z|Z]]; apply H in Z; contradiction.
Qed.

(** ** Counting *)
(** the number of crossings counted for an edge *)
Definition kappa (l : Loop) (d p : pt) (i : nat) : nat :=
  match get_intersection_pt (mkS (nth i (lv l) vzero) (nth ((i + 1) mod length (lv l)) (lv l) vzero)) (mkS p (vadd p d)) with
  | Some (t_a, t_b) =>
      if (Rleb 0 t_b && Rleb t_b 1) && (Rleb 0 t_a && Rleb t_a 1) then
        if Rltb t_a eps64 then if vis_same_direction (vcross d (vsub (nth ((i + 1) mod length (lv l)) (lv l) vzero) (nth i (lv l) vzero))) (ln l) then 1 else 0
        else if Rltb t_a 1 then 1
        else if vis_same_direction (vcross d (vsub (nth i (lv l) vzero) (nth ((i + 1) mod length (lv l)) (lv l) vzero))) (ln l) then 1 else 0
      else 0
  | None => 0
  end%nat.
Definition near (l : Loop) (p : pt) (i : nat) : res bool := contains_point (mkS (nth i (lv l) vzero) (nth ((i + 1) mod length (lv l)) (lv l) vzero)) p.
Lemma near_ok l p i : exists b, near l p i = Ok b.
Proof.
  unfold near, contains_point. cbn [s_start s_end]. set (a := nth i _ _). set (b := nth _ (lv l) vzero). destruct (Rltb_spec (s_length (mkS a b)) (1 / 100)) as [|L]; [eauto|].
  unfold is_collinear. destruct (compare p a && compare p b) eqn:C; cbn [bind].
  - exfalso. apply andb_true_iff in C as (A & B). apply compare_vlen in A, B. unfold s_length in L. cbn [s_start s_end] in L. apply Rnot_lt_le in L.
    assert (T : vlen (vsub a b) <= 1 / 1000 + 1 / 1000) by (eapply vlen_sub_chain; [rewrite vlen_sub_sym; exact A|exact B]).
    unfold distance in L || idtac. unfold vlen in T. first [lra|rewrite vlen_sub_sym in L; unfold vlen in L; lra|idtac].
    unfold vlen in *. replace (squared_distance a b) with (vlen2 (vsub a b)) in L by vring. lra.
  - destruct (_ || _); cbn [bind negb]; [eauto|]. destruct (Rltb _ _); cbn [negb]; eauto.
Qed.
Lemma count_run l d p : forall is k, (exists i, In i is /\ near l p i = Ok true /\ count_crossings l d p (mkS p (vadd p d)) is k = Ok (inl true)) \/
  ((forall i, In i is -> near l p i = Ok false) /\ count_crossings l d p (mkS p (vadd p d)) is k = Ok (inr (k + list_sum (map (kappa l d p) is))%nat)).
Proof.
  induction is as [|i is IH]; intros k; cbn [count_crossings map list_sum fold_right].
  - right. split; [intros i []|]. now rewrite Nat.add_0_r.
  - fold (near l p i). destruct (near_ok l p i) as ([|] & B); rewrite B; cbn [bind].
    + left. exists i. split; [now left|]. auto.
    + match goal with |- context [count_crossings l d p _ is ?k'] => assert (K : k' = (k + kappa l d p i)%nat) end.
      { unfold kappa. cbn [s_start s_end]. destruct (get_intersection_pt _ _) as [[ta tb]|]; [|lia]. destruct (_ && _); [|lia]. destruct (Rltb ta eps64); [destruct (vis_same_direction _ _); lia|].
        destruct (Rltb ta 1); [lia|]. destruct (vis_same_direction _ _); lia. }
      rewrite K. destruct (IH (k + kappa l d p i)%nat) as [(j & J & N & E)|(N & E)].
      * left. exists j. split; [now right|]. auto.
      * right. split; [intros j [<-|J]; auto|]. rewrite E. unfold list_sum. f_equal. f_equal. lia.
Qed.
Lemma sum_zero (f : nat -> nat) : forall is, (forall i, In i is -> f i = 0)%nat -> list_sum (map f is) = 0%nat.
Proof. induction is as [|i is IH]; intros H; [reflexivity|]. cbn. rewrite (H i) by now left. cbn. apply IH. intros j J. apply H. now right. Qed.
Lemma sum_one (f : nat -> nat) i : forall is, NoDup is -> In i is -> f i = 1%nat -> (forall j, In j is -> j <> i -> f j = 0)%nat -> list_sum (map f is) = 1%nat.
Proof.
  induction is as [|j is IH]; intros N I F Z; [destruct I|]. cbn [map list_sum fold_right]. inversion N as [|? ? NI ND]; subst. destruct I as [->|I].
  - rewrite F. change (fold_right Nat.add 0%nat (map f is)) with (list_sum (map f is)). rewrite sum_zero; [reflexivity|]. intros k K. apply Z; [now right|]. intros ->. contradiction.
  - change (fold_right Nat.add 0%nat (map f is)) with (list_sum (map f is)). rewrite (IH ND I F) by (intros k K; apply Z; now right). rewrite Z; [reflexivity|now left|]. intros ->. contradiction.
Qed.

(** the ray of the test *)
Definition ray_dir (l : Loop) (p : pt) : pt := vscale (vsub p (vscale (vadd (nth 0 (lv l) vzero) (nth 1 (lv l) vzero)) (1 / 2))) 1000.
Lemma test_zero l p : lclosed l = true -> l_is_coplanar l p = Ok true -> (forall i, (i < length (lv l))%nat -> kappa l (ray_dir l p) p i = 0%nat) ->
  (l_test_point l p = Ok false /\ forall i, (i < length (lv l))%nat -> near l p i = Ok false) \/ (l_test_point l p = Ok true /\ exists i, (i < length (lv l))%nat /\ near l p i = Ok true).
Proof.
  intros C P Z. unfold l_test_point. rewrite C, P. cbn [negb bind]. cbv zeta. fold (ray_dir l p).
  destruct (count_run l (ray_dir l p) p (seq 0 (length (lv l))) 0) as [(i & I & N & E)|(N & E)]; rewrite E; cbn [bind].
  - right. split; [reflexivity|]. exists i. apply in_seq in I. split; [lia|exact N].
  - left. rewrite sum_zero by (intros i I; apply in_seq in I; apply Z; lia). split; [reflexivity|]. intros i I. apply N, in_seq. lia.
Qed.
Lemma test_one l p i : lclosed l = true -> l_is_coplanar l p = Ok true -> (i < length (lv l))%nat -> kappa l (ray_dir l p) p i = 1%nat ->
  (forall j, (j < length (lv l))%nat -> j <> i -> kappa l (ray_dir l p) p j = 0%nat) -> l_test_point l p = Ok true.
Proof.
  intros C P I O Z. unfold l_test_point. rewrite C, P. cbn [negb bind]. cbv zeta. fold (ray_dir l p).
  destruct (count_run l (ray_dir l p) p (seq 0 (length (lv l))) 0) as [(j & J & N & E)|(N & E)]; rewrite E; cbn [bind]; [reflexivity|].
  rewrite (sum_one _ i); [reflexivity|apply seq_NoDup|apply in_seq; lia|exact O|]. intros j J. apply in_seq in J. apply Z. lia.
Qed.

(** ** The ray in a convex loop *)
Definition testable (l : Loop) (p : pt) : Prop := lclosed l = true /\ vlen2 (ln l) = 1 /\ flat (ln l) (p :: lv l) /\ strictly_convex (ln l) (lv l).
Lemma pick_in_vs vs i : (3 <= length vs)%nat -> In (pick vs i) vs.
Proof. intros N. apply nth_In, Nat.mod_upper_bound. lia. Qed.
Definition mid01 (vs : list pt) : pt := vscale (vadd (nth 0 vs vzero) (nth 1 vs vzero)) (1 / 2).
Lemma d_flat l p : testable l p -> vdot (ln l) (ray_dir l p) = 0.
Proof.
  intros (_ & U & F & (N & _)). unfold ray_dir.
  assert (A : vdot (ln l) (vsub p (nth 0 (lv l) vzero)) = 0) by (apply F; [now left|right; apply nth_In; lia]).
  assert (B : vdot (ln l) (vsub p (nth 1 (lv l) vzero)) = 0) by (apply F; [now left|right; apply nth_In; lia]).
  set (a := nth 0 _ _) in *. set (b := nth 1 _ _) in *. clearbody a b.
  replace (vdot (ln l) _) with (500 * (vdot (ln l) (vsub p a) + vdot (ln l) (vsub p b))) by (vunfold; field). rewrite A, B. ring.
Qed.
Lemma coplanar_ok l p : testable l p -> l_is_coplanar l p = Ok true.
Proof.
  intros (_ & U & F & (N & _)). unfold l_is_coplanar. destruct (lv l) as [|v vs] eqn:V; [cbn in N; lia|].
  assert (Z : vis_zero (ln l) = false). { replace (ln l) with (vscale (ln l) 1) by vring. apply not_zero_along; [exact U|rewrite Rabs_R1; lra]. }
  rewrite Z. rewrite (F v p); [|right; now left|now left]. rewrite Rabs_R0. destruct (Rltb_spec 0 (1 / 10 ^ 7)); [reflexivity|lra].
Qed.

(** what a crossing is *)
Lemma kappa_meets l p i : testable l p -> (i < length (lv l))%nat -> kappa l (ray_dir l p) p i <> 0%nat ->
  exists ta tb, 0 <= tb <= 1 /\ 0 <= ta <= 1 /\ vadd (pick (lv l) i) (vscale (edge (lv l) i) ta) = vadd p (vscale (ray_dir l p) tb) /\ vdot (ln l) (vcross (edge (lv l) i) (ray_dir l p)) <> 0 /\
    get_intersection_pt (mkS (pick (lv l) i) (pick (lv l) (i + 1))) (mkS p (vadd p (ray_dir l p))) = Some (ta, tb).
Proof.
  intros T I K. pose proof (d_flat l p T) as DF. destruct T as (_ & U & F & (N & _)). unfold kappa in K. rewrite <- (pick_in (lv l) i I) in K. fold (pick (lv l) (i + 1)) in K.
  destruct (get_intersection_pt _ _) as [[ta tb]|] eqn:G; [|congruence]. exists ta, tb.
  destruct (Rleb_spec 0 tb) as [B1|B1]; [|cbn in K; congruence]. destruct (Rleb_spec tb 1) as [B2|B2]; [|cbn in K; congruence].
  destruct (Rleb_spec 0 ta) as [A1|A1]; [|cbn in K; congruence]. destruct (Rleb_spec ta 1) as [A2|A2]; [|cbn in K; congruence].
  split; [lra|]. split; [lra|]. assert (Q : vsub (vadd p (ray_dir l p)) p = ray_dir l p) by (set (d := ray_dir l p); clearbody d; vring).
  destruct (meet_exact (ln l) (pick (lv l) i) (pick (lv l) (i + 1)) p (vadd p (ray_dir l p)) ta tb) as (M1 & M2); try rewrite Q; auto; try (rewrite Q in M1, M2; auto);
    apply F; cbn [In]; auto using pick_in_vs.
Qed.
(** a point on an edge is on no outer side *)
Lemma on_edge_inside u vs i ta j : strictly_convex u vs -> (j < length vs)%nat -> 0 <= ta <= 1 -> 0 <= side u vs j (vadd (pick vs i) (vscale (edge vs i) ta)).
Proof.
  intros C J T. unfold edge. rewrite side_mix. pose proof (strict_weak u vs j i C J). pose proof (strict_weak u vs j (i + 1) C J).
  apply Rplus_le_le_0_compat; apply Rmult_le_pos; lra.
Qed.
Lemma on_own_edge u vs i ta : side u vs i (vadd (pick vs i) (vscale (edge vs i) ta)) = 0.
Proof. unfold edge. rewrite side_mix, side_start, side_end. ring. Qed.

Lemma outside_zero l p k : testable l p -> (k < length (lv l))%nat -> side (ln l) (lv l) k p < 0 -> forall i, (i < length (lv l))%nat -> kappa l (ray_dir l p) p i = 0%nat.
Proof.
  intros T K O i I. destruct (Nat.eq_dec (kappa l (ray_dir l p) p i) 0) as [|Z]; [assumption|exfalso].
  destruct (kappa_meets l p i T I Z) as (ta & tb & TB & TA & E & _). destruct T as (_ & U & F & C). assert (N := proj1 C).
  pose proof (on_edge_inside (ln l) (lv l) i ta k C K TA) as H. rewrite E in H.
  assert (M : 0 <= side (ln l) (lv l) k (mid01 (lv l))).
  { replace (mid01 (lv l)) with (vadd (pick (lv l) 0) (vscale (edge (lv l) 0) (1 / 2))); [apply on_edge_inside; auto; lra|].
    unfold mid01, edge. rewrite !pick_in by (cbn; lia). cbn [Nat.add]. set (a := nth 0 _ _). set (b := nth 1 _ _). clearbody a b. apply V3_eq; vunfold; field. }
  replace (vadd p (vscale (ray_dir l p) tb)) with (vadd p (vscale (vsub (mid01 (lv l)) p) (- 1000 * tb))) in H by (unfold ray_dir, mid01; set (m := vscale (vadd _ _) _); clearbody m; vring).
  rewrite side_mix in H. set (hp := side _ _ k p) in *. set (hm := side _ _ k (mid01 _)) in *. clearbody hp hm.
  assert ((1 - -1000 * tb) * hp < 0) by nra. assert (-1000 * tb * hm <= 0) by nra. lra.
Qed.
Lemma inside_zero l p : testable l p -> (forall i, (i < length (lv l))%nat -> 0 < side (ln l) (lv l) i p) -> (forall i, (i < length (lv l))%nat -> 0 < side (ln l) (lv l) i (vadd p (ray_dir l p))) ->
  forall i, (i < length (lv l))%nat -> kappa l (ray_dir l p) p i = 0%nat.
Proof.
  intros T HP HE i I. destruct (Nat.eq_dec (kappa l (ray_dir l p) p i) 0) as [|Z]; [assumption|exfalso].
  destruct (kappa_meets l p i T I Z) as (ta & tb & TB & TA & E & _). pose proof (on_own_edge (ln l) (lv l) i ta) as H. rewrite E, side_move in H.
  specialize (HP i I). specialize (HE i I). replace (vadd p (ray_dir l p)) with (vadd p (vscale (ray_dir l p) 1)) in HE by (set (d := ray_dir l p); clearbody d; vring). rewrite side_move in HE.
  set (c := vdot _ _) in *. set (h := side _ _ i p) in *. clearbody c h. destruct (Rle_lt_dec 0 c); nra.
Qed.

(** the smallest of the values of [f] on a list *)
Lemma argmin (f : nat -> R) (Q : nat -> Prop) : (forall i, {Q i} + {~ Q i}) -> forall is, (exists i, In i is /\ Q i) -> exists i, In i is /\ Q i /\ forall j, In j is -> Q j -> f i <= f j.
Proof.
  intros DQ. induction is as [|k is IH]; intros (i & I & QI); [destruct I|].
  destruct (Exists_dec Q is DQ) as [EX|NX].
  - apply Exists_exists in EX. destruct (IH EX) as (m & M & QM & MIN). destruct (DQ k) as [QK|NK].
    + destruct (Rle_lt_dec (f m) (f k)).
      * exists m. split; [now right|]. split; [exact QM|]. intros j [<-|J] QJ; auto.
      * exists k. split; [now left|]. split; [exact QK|]. intros j [<-|J] QJ; [lra|]. specialize (MIN j J QJ). lra.
    + exists m. split; [now right|]. split; [exact QM|]. intros j [<-|J] QJ; [contradiction|auto].
  - assert (QK : Q k). { destruct I as [->|I]; [exact QI|]. exfalso. apply NX, Exists_exists. eauto. }
    exists k. split; [now left|]. split; [exact QK|]. intros j [<-|J] QJ; [lra|]. exfalso. apply NX, Exists_exists. eauto.
Qed.

(** crossings from the inside: those in the half-open edge *)
Lemma kappa_inside l p i ta tb : testable l p -> (i < length (lv l))%nat -> 0 < side (ln l) (lv l) i p -> 1 / 100 <= Rabs (vdot (ln l) (vcross (edge (lv l) i) (ray_dir l p))) ->
  0 <= tb <= 1 -> 0 <= ta <= 1 -> get_intersection_pt (mkS (pick (lv l) i) (pick (lv l) (i + 1))) (mkS p (vadd p (ray_dir l p))) = Some (ta, tb) ->
  vadd (pick (lv l) i) (vscale (edge (lv l) i) ta) = vadd p (vscale (ray_dir l p) tb) ->
  kappa l (ray_dir l p) p i = if Rltb ta 1 then 1%nat else 0%nat.
Proof.
  intros T I HP K TB TA G E. pose proof (d_flat l p T) as DF. destruct T as (_ & U & F & (N & _)).
  unfold kappa. rewrite <- (pick_in (lv l) i I). fold (pick (lv l) (i + 1)). rewrite G.
  destruct (Rleb_spec 0 tb); [|lra]. destruct (Rleb_spec tb 1); [|lra]. destruct (Rleb_spec 0 ta); [|lra]. destruct (Rleb_spec ta 1); [|lra]. cbn [andb].
  pose proof (on_own_edge (ln l) (lv l) i ta) as H. rewrite E, side_move in H. set (c := vdot (ln l) (vcross (edge (lv l) i) (ray_dir l p))) in *.
  assert (CN : c < 0) by (destruct (Rle_lt_dec 0 c); [nra|assumption]).
  assert (EF : vdot (ln l) (edge (lv l) i) = 0) by (apply F; right; now apply pick_in_vs).
  pose proof (cross_par (ln l) _ _ U EF DF) as CP. fold c in CP.
  assert (X1 : vcross (ray_dir l p) (vsub (pick (lv l) (i + 1)) (pick (lv l) i)) = vscale (ln l) (- c)).
  { fold (edge (lv l) i). replace (vscale (ln l) (- c)) with (vneg (vscale (ln l) c)) by vring. rewrite <- CP. set (d := ray_dir l p). set (e := edge _ _). clearbody d e. vring. }
  assert (X2 : vcross (ray_dir l p) (vsub (pick (lv l) i) (pick (lv l) (i + 1))) = vscale (ln l) c).
  { rewrite <- CP. unfold edge. set (d := ray_dir l p). clearbody d. vring. }
  assert (PAR : forall k, 1 / 100 <= Rabs k -> vis_same_direction (vscale (ln l) k) (ln l) = Rltb 0 k).
  { intros k HK. unfold vis_same_direction, vis_parallel. rewrite (not_zero_along _ _ U HK). replace (vis_zero (ln l)) with false.
    2:{ symmetry. replace (ln l) with (vscale (ln l) 1) by vring. apply not_zero_along; [exact U|rewrite Rabs_R1; lra]. }
    cbn [orb]. replace (vdot (vscale (ln l) k) (ln l)) with (k * vlen2 (ln l)) by vring. replace (vlen2 (vscale (ln l) k)) with (k * k * vlen2 (ln l)) by vring. rewrite U.
    replace (k * 1 * (k * 1) - k * k * 1 * 1) with 0 by ring. rewrite Rabs_R0. destruct (Rltb_spec 0 (1 / 10 ^ 5)); [|lra]. cbn [negb]. now rewrite Rmult_1_r. }
  rewrite X1, X2. rewrite (PAR (- c)) by (now rewrite Rabs_Ropp). rewrite (PAR c) by exact K.
  destruct (Rltb_spec 0 (- c)); [|lra]. destruct (Rltb_spec 0 c); [lra|].
  assert (0 < eps64 < 1) by (unfold eps64; lra).
  destruct (Rltb_spec ta eps64), (Rltb_spec ta 1); try reflexivity; lra.
Qed.
(** leaving the loop: the first edge that the ray meets *)
Lemma exit_edge l p : testable l p -> (forall i, (i < length (lv l))%nat -> 0 < side (ln l) (lv l) i p) -> (exists k, (k < length (lv l))%nat /\ vdot (ln l) (vcross (edge (lv l) k) (ray_dir l p)) < 0) ->
  exists m ta t, (m < length (lv l))%nat /\ vdot (ln l) (vcross (edge (lv l) m) (ray_dir l p)) < 0 /\ 0 <= ta <= 1 /\ 0 < t /\
    vadd p (vscale (ray_dir l p) t) = vadd (pick (lv l) m) (vscale (edge (lv l) m) ta) /\
    forall k, (k < length (lv l))%nat -> 0 <= side (ln l) (lv l) k (vadd p (vscale (ray_dir l p) t)).
Proof.
  intros T HP (k & K & KC). pose proof (d_flat l p T) as DF. assert (T' := T). destruct T' as (_ & U & F & C). assert (N := proj1 C). set (u := ln l) in *. set (vs := lv l) in *. set (d := ray_dir l p) in *. set (n := length vs) in *.
  set (c := fun i => vdot u (vcross (edge vs i) d)). set (s := fun i => side u vs i p / - c i).
  change (c k < 0) in KC.
  destruct (argmin s (fun i => c i < 0) (fun i => Rlt_dec (c i) 0) (seq 0 n)) as (m & M & MC & MIN); [exists k; split; [apply in_seq; lia|exact KC]|]. apply in_seq in M.
  assert (SD : forall i, c i < 0 -> s i * - c i = side u vs i p) by (intros i Hi; unfold s; field; lra).
  assert (S0 : 0 < s m) by (specialize (SD m MC); specialize (HP m ltac:(lia)); nra).
  set (q := vadd p (vscale d (s m))).
  assert (QI : forall j, (j < n)%nat -> 0 <= side u vs j q).
  { intros j J. unfold q. rewrite side_move. fold (c j). specialize (HP j J). destruct (Rle_lt_dec 0 (c j)) as [P|P]; [nra|]. specialize (SD j P). assert (s m <= s j) by (apply MIN; [apply in_seq; lia|exact P]). nra. }
  assert (QM : side u vs m q = 0) by (unfold q; rewrite side_move; fold (c m); specialize (SD m MC); lra).
  (* q is on edge m *)
  assert (EF : forall i, vdot u (edge vs i) = 0) by (intros i; apply F; right; now apply pick_in_vs).
  assert (QF : vdot u (vsub q (pick vs m)) = 0).
  { unfold q. replace (vdot u (vsub (vadd p (vscale d (s m))) (pick vs m))) with (vdot u (vsub p (pick vs m)) + s m * vdot u d) by vring. rewrite DF, (F p (pick vs m)); [ring|now left|right; now apply pick_in_vs]. }
  assert (EN : vlen2 (edge vs m) <> 0).
  { intros Z. assert (CM : c m * c m <= 0).
    { unfold c. pose proof (cross_par u _ _ U (EF m) DF) as CP. pose proof (lagrange (edge vs m) d) as LG. rewrite CP in LG. rewrite Z in LG. fold (c m) in LG |- *.
      replace (vlen2 (vscale u (c m))) with (c m * c m * vlen2 u) in LG by vring. rewrite U in LG. pose proof (Rle_0_sqr (vdot (edge vs m) d)). unfold Rsqr in *. lra. }
    nra. }
  set (ta := vdot (vsub q (pick vs m)) (edge vs m) / vlen2 (edge vs m)).
  assert (QE : q = vadd (pick vs m) (vscale (edge vs m) ta)).
  { assert (CZ : vcross (edge vs m) (vsub q (pick vs m)) = vzero).
    { rewrite (cross_par u _ _ U (EF m) QF). replace (vdot u (vcross (edge vs m) (vsub q (pick vs m)))) with (side u vs m q) by (unfold side, edge; rewrite tri2_cross; vring).
      rewrite QM. unfold vzero. vring. }
    assert (ID : vscale (vsub q (pick vs m)) (vlen2 (edge vs m)) = vadd (vscale (edge vs m) (vdot (vsub q (pick vs m)) (edge vs m))) (vcross (vcross (edge vs m) (vsub q (pick vs m))) (edge vs m))) by (set (e := edge vs m); set (w := vsub q (pick vs m)); clearbody e w; vring).
    rewrite CZ in ID. replace (vcross vzero (edge vs m)) with vzero in ID by (unfold vzero; vring). rewrite vadd_0_r in ID.
    assert (W : vsub q (pick vs m) = vscale (edge vs m) ta).
    { unfold ta. set (w := vsub q (pick vs m)) in *. set (e := edge vs m) in *. set (dt := vdot w e) in *. set (l2 := vlen2 e) in *. clearbody w e dt l2.
      assert (X := f_equal vx ID). assert (Y := f_equal vy ID). assert (Z := f_equal vz ID). destruct w as [w1 w2 w3], e as [e1 e2 e3]. unfold vscale in *. cbn [vx vy vz] in X, Y, Z |- *.
      f_equal; [apply (Rmult_eq_reg_r l2); [|exact EN]; rewrite X; field; exact EN|apply (Rmult_eq_reg_r l2); [|exact EN]; rewrite Y; field; exact EN|apply (Rmult_eq_reg_r l2); [|exact EN]; rewrite Z; field; exact EN]. }
    rewrite <- W. clear. clearbody q. vring. }
  assert (NZ : (0 < n)%nat) by (unfold n; lia).
  assert (NXT : forall i, (i < n)%nat -> ((i + 1) mod n < n)%nat) by (intros; apply Nat.mod_upper_bound; lia).
  assert (WRAP : forall i, (i < n)%nat -> ((i + 1) mod n = i + 1 \/ (i = n - 1 /\ (i + 1) mod n = 0))%nat).
  { intros i I. destruct (Nat.eq_dec i (n - 1)) as [->|X]; [right; replace (n - 1 + 1)%nat with n by lia; split; [reflexivity|apply Nat.mod_same; lia]|left; apply Nat.mod_small; lia]. }
  assert (TA1 : ta <= 1).
  { set (m1 := ((m + 1) mod n)%nat). assert (M1 := NXT m ltac:(lia)). fold m1 in M1. pose proof (QI m1 M1) as H. rewrite QE in H. unfold edge in H. rewrite side_mix in H.
    replace (side u vs m1 (pick vs (m + 1))) with 0 in H. 2:{ rewrite <- (pick_mod vs (m + 1)). fold n m1. now rewrite side_start. }
    assert (P : 0 < side u vs m1 (pick vs m)).
    { apply C; [exact M1|unfold n in *; lia| |]; fold n; unfold m1 in *; pose proof (WRAP m ltac:(lia)); pose proof (WRAP ((m + 1) mod n)%nat M1); lia. }
    nra. }
  assert (TA0 : 0 <= ta).
  { set (m0 := ((m + n - 1) mod n)%nat). assert (M0 : (m0 < n)%nat) by (apply Nat.mod_upper_bound; lia).
    assert (MM : ((m0 + 1) mod n = m)%nat).
    { unfold m0. rewrite Nat.add_mod_idemp_l by lia. replace (m + n - 1 + 1)%nat with (m + 1 * n)%nat by lia. rewrite Nat.mod_add by lia. apply Nat.mod_small. lia. }
    pose proof (QI m0 M0) as H. rewrite QE in H. unfold edge in H. rewrite side_mix in H.
    replace (side u vs m0 (pick vs m)) with 0 in H. 2:{ replace (pick vs m) with (pick vs (m0 + 1)); [now rewrite side_end|]. rewrite <- (pick_mod vs (m0 + 1)). fold n. now rewrite MM. }
    assert (P : 0 < side u vs m0 (pick vs (m + 1))).
    { rewrite <- (pick_mod vs (m + 1)). fold n. apply C; [exact M0|apply NXT; lia| |]; fold n; pose proof (WRAP m ltac:(lia)); pose proof (WRAP m0 M0); lia. }
    nra. }
  exists m, ta, (s m). split; [lia|]. split; [exact MC|]. split; [lra|]. split; [exact S0|]. split; [exact QE|exact QI].
Qed.
Lemma inside_one l p : testable l p -> (forall i, (i < length (lv l))%nat -> 0 < side (ln l) (lv l) i p) -> (exists i, (i < length (lv l))%nat /\ side (ln l) (lv l) i (vadd p (ray_dir l p)) <= 0) ->
  (forall i, (i < length (lv l))%nat -> vdot (ln l) (vcross (edge (lv l) i) (ray_dir l p)) = 0 \/ 1 / 100 <= Rabs (vdot (ln l) (vcross (edge (lv l) i) (ray_dir l p)))) ->
  exists i, (i < length (lv l))%nat /\ kappa l (ray_dir l p) p i = 1%nat /\ forall j, (j < length (lv l))%nat -> j <> i -> kappa l (ray_dir l p) p j = 0%nat.
Proof.
  intros T HP (k & K & KE) PAR. pose proof (d_flat l p T) as DF. assert (T' := T). destruct T' as (_ & U & F & C). assert (N := proj1 C). set (u := ln l) in *. set (vs := lv l) in *. set (d := ray_dir l p) in *. set (n := length vs) in *.
  set (c := fun i => vdot u (vcross (edge vs i) d)).
  assert (KC : c k < 0). { replace (vadd p d) with (vadd p (vscale d 1)) in KE by vring. rewrite side_move in KE. specialize (HP k K). unfold c. lra. }
  destruct (exit_edge l p T HP (ex_intro _ k (conj K KC))) as (m & ta & t0 & M & MC & TA & T0 & QE & QI). fold vs u d n in M, MC, QE, QI. change (c m < 0) in MC.
  assert (T1 : t0 <= 1).
  { specialize (QI k K). rewrite side_move in QI. replace (vadd p d) with (vadd p (vscale d 1)) in KE by vring. rewrite side_move in KE. fold (c k) in KE, QI. specialize (HP k K). nra. }
  set (q := vadd p (vscale d t0)) in *.
  assert (EF : forall i, vdot u (edge vs i) = 0) by (intros i; apply F; right; now apply pick_in_vs).
  assert (NZ : (0 < n)%nat) by (unfold n; lia).
  assert (NXT : forall i, (i < n)%nat -> ((i + 1) mod n < n)%nat) by (intros; apply Nat.mod_upper_bound; lia).
  assert (WRAP : forall i, (i < n)%nat -> ((i + 1) mod n = i + 1 \/ (i = n - 1 /\ (i + 1) mod n = 0))%nat).
  { intros i I. destruct (Nat.eq_dec i (n - 1)) as [->|X]; [right; replace (n - 1 + 1)%nat with n by lia; split; [reflexivity|apply Nat.mod_same; lia]|left; apply Nat.mod_small; lia]. }
  (* the edge whose half-open part holds q *)
  assert (CROSS : forall i t, (i < n)%nat -> c i < 0 -> 0 <= t <= 1 -> q = vadd (pick vs i) (vscale (edge vs i) t) -> kappa l d p i = if Rltb t 1 then 1%nat else 0%nat).
  { intros i t I CI T01 Q. assert (AB : 1 / 100 <= Rabs (vdot u (vcross (edge vs i) d))) by (destruct (PAR i I) as [Z|Z]; [fold (c i) in Z; lra|exact Z]).
    assert (QD : vsub (vadd p d) p = d) by vring.
    destruct (meet_some u (pick vs i) (pick vs (i + 1)) p (vadd p d) U (EF i)) as (ta' & tb' & G); [rewrite QD; exact DF|apply F; [right; now apply pick_in_vs|now left]|rewrite QD; exact AB|].
    assert (E : vadd (pick vs i) (vscale (edge vs i) ta') = vadd p (vscale d tb')).
    { rewrite <- QD at 1. eapply meet_exact; [exact U|apply EF|rewrite QD; exact DF|apply F; [right; now apply pick_in_vs|now left]|exact G]. }
    assert (TB : tb' = t0).
    { pose proof (on_own_edge u vs i ta') as H1. rewrite E, side_move in H1. pose proof (on_own_edge u vs i t) as H2. rewrite <- Q in H2. unfold q in H2. rewrite side_move in H2. fold (c i) in H1, H2. nra. }
    assert (TT : ta' = t).
    { assert (EE : vadd (pick vs i) (vscale (edge vs i) ta') = vadd (pick vs i) (vscale (edge vs i) t)) by (rewrite E, <- Q, TB; reflexivity).
      assert (CI0 : c i <> 0) by lra. apply Rminus_diag_uniq. apply (Rmult_eq_reg_r (c i)); [|exact CI0]. rewrite Rmult_0_l. unfold c.
      replace ((ta' - t) * vdot u (vcross (edge vs i) d)) with (vdot u (vcross (vsub (vadd (pick vs i) (vscale (edge vs i) ta')) (vadd (pick vs i) (vscale (edge vs i) t))) d)) by (set (e := edge vs i); clearbody e; vring).
      rewrite EE, vsub_self. unfold vzero. vring. }
    rewrite <- TT. apply (kappa_inside l p i ta' tb' T I (HP i I) AB); [lra|lra|exact G|exact E]. }
  assert (EX : exists i, (i < n)%nat /\ kappa l d p i = 1%nat).
  { destruct (Rlt_le_dec ta 1) as [L|L].
    - exists m. split; [lia|]. rewrite (CROSS m ta); [|lia|exact MC|lra|exact QE]. destruct (Rltb_spec ta 1); [reflexivity|contradiction].
    - assert (ta = 1) by lra. set (m1 := ((m + 1) mod n)%nat). assert (M1 := NXT m ltac:(lia)). fold m1 in M1. exists m1. split; [exact M1|].
      assert (Q1 : q = vadd (pick vs m1) (vscale (edge vs m1) 0)).
      { rewrite QE, H. replace (pick vs m1) with (pick vs (m + 1)) by (unfold m1, n; now rewrite pick_mod). unfold edge. set (x := pick vs _). set (y := pick vs m). set (z := pick vs _). clearbody x y z. vring. }
      assert (C1 : c m1 < 0).
      { pose proof (on_own_edge u vs m1 0) as H1. rewrite <- Q1 in H1. unfold q in H1. rewrite side_move in H1. fold (c m1) in H1. specialize (HP m1 M1). nra. }
      rewrite (CROSS m1 0 M1 C1 ltac:(lra) Q1). destruct (Rltb_spec 0 1); [reflexivity|lra]. }
  destruct EX as (i & I & KI). exists i. split; [exact I|]. split; [exact KI|].
  assert (HALF : forall j, (j < n)%nat -> kappa l d p j <> 0%nat -> exists t tb, 0 <= t < 1 /\ 0 <= tb <= 1 /\ c j < 0 /\ vadd (pick vs j) (vscale (edge vs j) t) = vadd p (vscale d tb)).
  { intros j J Z. destruct (kappa_meets l p j T J Z) as (t & tb & TB & TT & E & CN & G). fold vs in E, CN, G. fold d in E, CN, G. fold u in CN.
    assert (CJ : c j < 0). { pose proof (on_own_edge u vs j t) as H. rewrite E, side_move in H. fold (c j) in H. specialize (HP j J). destruct (Rle_lt_dec 0 (c j)); [nra|assumption]. }
    exists t, tb. split; [|auto]. split; [lra|]. destruct (PAR j J) as [W|W]; [contradiction|].
    pose proof (kappa_inside l p j t tb T J (HP j J) W TB TT G E) as KJ. fold d in KJ. destruct (Rltb_spec t 1); [assumption|congruence]. }
  intros j J JI. destruct (Nat.eq_dec (kappa l d p j) 0) as [|Z]; [assumption|exfalso].
  destruct (HALF j J Z) as (tj & bj & TJ & BJ & CJ & EJ). destruct (HALF i I ltac:(lia)) as (ti & bi & TI & BI & CI & EI).
  assert (ORD : forall a b ta0 tb0 ba bb, (a < n)%nat -> (b < n)%nat -> 0 <= ta0 < 1 -> c b < 0 -> vadd (pick vs a) (vscale (edge vs a) ta0) = vadd p (vscale d ba) -> vadd (pick vs b) (vscale (edge vs b) tb0) = vadd p (vscale d bb) -> ba <= bb).
  { intros a b ta0 tb0 ba bb A B TAA CB EA EB. pose proof (on_edge_inside u vs a ta0 b C B ltac:(lra)) as H1. rewrite EA, side_move in H1. pose proof (on_own_edge u vs b tb0) as H2. rewrite EB, side_move in H2. fold (c b) in H1, H2. nra. }
  assert (BB : bi = bj) by (apply Rle_antisym; [eapply (ORD i j ti tj)|eapply (ORD j i tj ti)]; eauto).
  assert (ADJ : forall a b ta0 tb0, (a < n)%nat -> (b < n)%nat -> 0 <= ta0 < 1 -> vadd (pick vs a) (vscale (edge vs a) ta0) = vadd (pick vs b) (vscale (edge vs b) tb0) -> a = b \/ a = ((b + 1) mod n)%nat).
  { intros a b ta0 tb0 A B TAA E. destruct (Nat.eq_dec a b) as [|AB]; [now left|]. destruct (Nat.eq_dec a ((b + 1) mod n)) as [|AB2]; [now right|exfalso].
    pose proof (proj2 C b a B A AB AB2) as P. pose proof (on_own_edge u vs b tb0) as H. rewrite <- E in H. unfold edge in H. rewrite side_mix in H. pose proof (strict_weak u vs b (a + 1) C B). nra. }
  assert (EQ : vadd (pick vs i) (vscale (edge vs i) ti) = vadd (pick vs j) (vscale (edge vs j) tj)) by (rewrite EI, EJ, BB; reflexivity).
  destruct (ADJ i j ti tj I J TI EQ) as [|A1]; [lia|]. destruct (ADJ j i tj ti J I TJ (eq_sym EQ)) as [|A2]; [lia|].
  pose proof (WRAP i I). pose proof (WRAP j J). lia.
Qed.

(** a ray that does not cross any edge outwards does not move *)
Lemma some_outward l p : testable l p -> ray_dir l p <> vzero -> exists k, (k < length (lv l))%nat /\ vdot (ln l) (vcross (edge (lv l) k) (ray_dir l p)) < 0.
Proof.
  intros T DN. pose proof (d_flat l p T) as DF. destruct T as (_ & U & F & C). assert (N := proj1 C). set (u := ln l) in *. set (vs := lv l) in *. set (d := ray_dir l p) in *. clearbody d.
  set (c := fun i => vdot u (vcross (edge vs i) d)).
  destruct (Exists_dec (fun k => c k < 0) (seq 0 (length vs)) (fun k => Rlt_dec (c k) 0)) as [E|E].
  { apply Exists_exists in E as (k & K & H). apply in_seq in K. exists k. split; [lia|exact H]. }
  exfalso. assert (P : forall i, (i < length vs)%nat -> 0 <= c i).
  { intros i I. destruct (Rle_lt_dec 0 (c i)); [assumption|]. exfalso. apply E, Exists_exists. exists i. split; [apply in_seq; lia|assumption]. }
  assert (SUM : forall k, fold_right Rplus 0 (map c (seq 0 k)) = vdot u (vcross (vsub (pick vs k) (pick vs 0)) d)).
  { induction k as [|k IH]; [cbn; vring|]. rewrite seq_S, map_app, fold_right_app. cbn [Nat.add map fold_right].
    assert (FA : forall xs x, fold_right Rplus x xs = x + fold_right Rplus 0 xs) by (induction xs as [|y xs IHx]; intros x; cbn [fold_right]; [ring|rewrite IHx; ring]).
    rewrite FA, IH. unfold c, edge. replace (S k) with (k + 1)%nat by lia. vring. }
  assert (Z : fold_right Rplus 0 (map c (seq 0 (length vs))) = 0).
  { rewrite SUM. replace (pick vs (length vs)) with (pick vs 0); [vring|]. rewrite <- (pick_mod vs (length vs)), Nat.mod_same by lia. reflexivity. }
  assert (A : forall xs, (forall i, In i xs -> 0 <= c i) -> 0 <= fold_right Rplus 0 (map c xs) /\ (fold_right Rplus 0 (map c xs) = 0 -> forall i, In i xs -> c i = 0)).
  { induction xs as [|x xs IH]; intros H; cbn [map fold_right]; [split; [lra|intros _ i []]|].
    destruct (IH (fun i I => H i (or_intror I))) as (H1 & H2). pose proof (H x (or_introl eq_refl)). split; [lra|]. intros HS i [<-|I]; [lra|apply H2; [lra|exact I]]. }
  destruct (A (seq 0 (length vs))) as (_ & A0); [intros i I; apply in_seq in I; apply P; lia|]. specialize (A0 Z).
  assert (C0 : c 0%nat = 0) by (apply A0, in_seq; lia). assert (C1 : c 1%nat = 0) by (apply A0, in_seq; lia).
  assert (E0 : vdot u (edge vs 0) = 0) by (apply F; right; now apply pick_in_vs). assert (E1 : vdot u (edge vs 1) = 0) by (apply F; right; now apply pick_in_vs).
  pose proof (proj2 C 0%nat 2%nat ltac:(lia) ltac:(lia) ltac:(lia)) as H. rewrite Nat.mod_small in H by lia. specialize (H ltac:(lia)).
  assert (SD : side u vs 0 (pick vs 2) = vdot u (vcross (edge vs 0) (edge vs 1))) by (unfold side, edge; cbn [Nat.add]; rewrite tri2_cross; vring).
  unfold c in C0, C1. pose proof (cross_par u _ _ U E0 DF) as X0. pose proof (cross_par u _ _ U E1 DF) as X1. rewrite C0 in X0. rewrite C1 in X1.
  assert (LE : vscale (vcross (edge vs 0) (edge vs 1)) (vlen2 d) = vzero).
  { set (e := edge vs 0) in *. set (g := edge vs 1) in *. clearbody e g.
    replace (vscale (vcross e g) (vlen2 d)) with (vsub (vadd (vscale (vcross e d) (vdot g d)) (vscale (vcross d g) (vdot e d))) (vscale d (- vdot d (vcross e g)))) by vring.
    assert (X1' : vcross d g = vzero) by (replace (vcross d g) with (vneg (vcross g d)) by vring; rewrite X1; unfold vzero; vring).
    assert (X2 : vdot d (vcross e g) = 0) by (replace (vdot d (vcross e g)) with (vdot g (vneg (vcross e d))) by vring; rewrite X0; vring).
    rewrite X0, X1', X2. unfold vzero. vring. }
  assert (LD : vlen2 d <> 0). { intros L. apply DN. now apply vlen2_zero. }
  assert (FIN : vdot u (vcross (edge vs 0) (edge vs 1)) * vlen2 d = 0).
  { replace (vdot u (vcross (edge vs 0) (edge vs 1)) * vlen2 d) with (vdot u (vscale (vcross (edge vs 0) (edge vs 1)) (vlen2 d))) by (set (w := vcross _ _); set (z := vlen2 d); clearbody w z; vring). rewrite LE. unfold vzero. vring. }
  apply Rmult_integral in FIN as [Q|Q]; [lra|contradiction].
Qed.
(** the ends of long rays are not inside *)
Lemma far_leaves l p D : testable l p -> (forall i, (i < length (lv l))%nat -> 0 < side (ln l) (lv l) i p) -> (forall a b, In a (lv l) -> In b (lv l) -> vlen (vsub a b) <= D) ->
  p <> mid01 (lv l) -> D <= 1001 * vlen (vsub p (mid01 (lv l))) -> exists i, (i < length (lv l))%nat /\ side (ln l) (lv l) i (vadd p (ray_dir l p)) <= 0.
Proof.
  intros T HP S PM FAR. assert (DD : ray_dir l p = vscale (vsub p (mid01 (lv l))) 1000) by reflexivity.
  assert (DN : ray_dir l p <> vzero).
  { rewrite DD. intros Z. apply PM. set (m := mid01 (lv l)) in *. clearbody m. assert (X := f_equal vx Z). assert (Y := f_equal vy Z). assert (W := f_equal vz Z). destruct p, m. cbn in X, Y, W. f_equal; lra. }
  destruct (exit_edge l p T HP (some_outward l p T DN)) as (m & ta & t & M & MC & TA & T0 & E & IN).
  exists m. split; [exact M|]. pose proof (on_own_edge (ln l) (lv l) m ta) as O. rewrite <- E, side_move in O. replace (vadd p (ray_dir l p)) with (vadd p (vscale (ray_dir l p) 1)) by (set (d := ray_dir l p); clearbody d; vring). rewrite side_move.
  assert (T1 : t <= 1).
  { assert (N := proj1 (proj2 (proj2 (proj2 T)))).
    assert (B : vlen (vsub (vadd (pick (lv l) m) (vscale (edge (lv l) m) ta)) (mid01 (lv l))) <= D).
    { assert (I0 : In (nth 0 (lv l) vzero) (lv l)) by (apply nth_In; lia). assert (I1 : In (nth 1 (lv l) vzero) (lv l)) by (apply nth_In; lia).
      assert (IA : In (pick (lv l) m) (lv l)) by now apply pick_in_vs. assert (IB : In (pick (lv l) (m + 1)) (lv l)) by now apply pick_in_vs.
      unfold mid01, edge. set (a := nth 0 _ _) in *. set (b := nth 1 _ _) in *. set (x := pick _ m) in *. set (y := pick _ (m + 1)) in *. clearbody a b x y.
      replace (vsub (vadd x (vscale (vsub y x) ta)) (vscale (vadd a b) (1 / 2))) with (vadd (vscale (vadd (vsub x a) (vsub x b)) ((1 - ta) / 2)) (vscale (vadd (vsub y a) (vsub y b)) (ta / 2))) by (apply V3_eq; vunfold; cbn [vx vy vz]; field).
      eapply Rle_trans; [apply vlen_add|]. rewrite !vlen_scale, !Rabs_pos_eq by lra.
      assert (vlen (vadd (vsub x a) (vsub x b)) <= D + D) by (eapply Rle_trans; [apply vlen_add|]; apply Rplus_le_compat; auto).
      assert (vlen (vadd (vsub y a) (vsub y b)) <= D + D) by (eapply Rle_trans; [apply vlen_add|]; apply Rplus_le_compat; auto).
      nra. }
    rewrite <- E, DD in B. set (mm := mid01 (lv l)) in *. clearbody mm.
    replace (vsub (vadd p (vscale (vscale (vsub p mm) 1000) t)) mm) with (vscale (vsub p mm) (1 + 1000 * t)) in B by vring. rewrite vlen_scale, Rabs_pos_eq in B by lra.
    assert (0 < vlen (vsub p mm)).
    { destruct (Rle_lt_or_eq_dec _ _ (vlen_nonneg (vsub p mm))) as [|Z]; [assumption|exfalso]. apply PM. symmetry in Z. pose proof (vlen_sqr (vsub p mm)) as V. rewrite Z, Rmult_0_l in V. symmetry in V. apply vlen2_zero in V. clear Z. rename V into Z. assert (X := f_equal vx Z). assert (Y := f_equal vy Z). assert (W := f_equal vz Z). destruct p, mm. cbn in X, Y, W. f_equal; lra. }
    nra. }
  specialize (HP m M). set (cc := vdot _ _) in *. nra.
Qed.

(** ** Points that the code takes to be on an edge are close to it *)
Lemma near_close l p i : (i < length (lv l))%nat -> near l p i = Ok true -> exists t, 0 <= t <= 1 /\ vlen (vsub p (vadd (pick (lv l) i) (vscale (edge (lv l) i) t))) <= 11 / 10000.
Proof.
  intros I N. unfold near in N. rewrite <- (pick_in (lv l) i I) in N. fold (pick (lv l) (i + 1)) in N. unfold edge. set (a := pick _ i) in *. set (b := pick _ (i + 1)) in *. clearbody a b.
  assert (ENDS : compare p a = true \/ compare p b = true -> exists t, 0 <= t <= 1 /\ vlen (vsub p (vadd a (vscale (vsub b a) t))) <= 11 / 10000).
  { intros [C|C]; apply compare_vlen in C; [exists 0|exists 1]; (split; [lra|]).
    - replace (vadd a (vscale (vsub b a) 0)) with a by vring. lra.
    - replace (vadd a (vscale (vsub b a) 1)) with b by vring. lra. }
  unfold contains_point in N. cbn [s_start s_end] in N. destruct (Rltb_spec (s_length (mkS a b)) (1 / 100)) as [|L]; [discriminate|]. apply Rnot_lt_le in L.
  assert (LE : 1 / 100 <= vlen (vsub b a)).
  { unfold s_length in L. cbn [s_start s_end] in L. rewrite vlen_sub_sym. unfold vlen. unfold distance in L || idtac. unfold vlen in L || idtac. replace (vlen2 (vsub a b)) with (squared_distance a b) by vring. exact L. }
  unfold is_collinear in N. destruct (compare p a) eqn:CA; [apply ENDS; auto|]. destruct (compare p b) eqn:CB; [apply ENDS; auto|]. cbn [andb orb] in N.
  destruct (compare a b) eqn:CC.
  { exfalso. apply compare_vlen in CC. rewrite vlen_sub_sym in CC. lra. }
  cbn [bind] in N. destruct (Rltb_spec (vlen (vcross (vsub a p) (vsub b a))) (1 / 10 ^ 5)) as [X|]; [|discriminate]. cbn [negb] in N. injection N as N. apply andb_true_iff in N as (N1 & N2). apply Rleb_true in N1, N2.
  set (e := vsub b a) in *. set (w := vsub p a) in *. fold (vlen2 e) in N2. set (E := vlen e) in *. assert (EE : E * E = vlen2 e) by apply vlen_sqr.
  replace (vcross (vsub a p) e) with (vneg (vcross w e)) in X by (unfold w; clearbody e; vring). rewrite vlen_neg in X.
  set (t0 := vdot e w / vlen2 e). assert (P2 : 0 < vlen2 e) by nra.
  set (r := vsub w (vscale e t0)).
  assert (R0 : vlen r * E = vlen (vcross w e)).
  { assert (RD : vdot r e = 0) by (unfold r, t0; replace (vdot (vsub w (vscale e (vdot e w / vlen2 e))) e) with (vdot e w - vdot e w / vlen2 e * vlen2 e) by (set (k := vdot e w / vlen2 e); clearbody k; clearbody w e; vring); field; lra).
    assert (RC : vcross r e = vcross w e) by (unfold r; clearbody t0 w e; vring). rewrite <- RC.
    apply Rsqr_inj; [apply Rmult_le_pos; [apply vlen_nonneg|unfold E; apply vlen_nonneg]|apply vlen_nonneg|]. unfold Rsqr. rewrite vlen_sqr.
    pose proof (lagrange r e) as LG. rewrite RD in LG. pose proof (vlen_sqr r) as VR. nra. }
  assert (RB : vlen r <= 1 / 1000) by (pose proof (vlen_nonneg r); nra).
  destruct (Rle_lt_dec 0 t0) as [T|T].
  - exists t0. split.
    + split; [exact T|]. unfold t0. apply (Rmult_le_reg_r (vlen2 e)); [exact P2|]. replace (vdot e w / vlen2 e * vlen2 e) with (vdot e w) by (field; lra). change (vdot e e) with (vlen2 e) in N2. lra.
    + replace (vsub p (vadd a (vscale e t0))) with r by (unfold r, w; clearbody t0 e; vring). lra.
  - exists 0. split; [lra|]. replace (vsub p (vadd a (vscale e 0))) with (vadd r (vscale e t0)) by (unfold r, w; clearbody t0 e; vring).
    eapply Rle_trans; [apply vlen_add|]. rewrite vlen_scale. fold E. rewrite Rabs_left by exact T.
    assert (TD : t0 * (E * E) = vdot e w) by (rewrite EE; unfold t0; field; lra).
    assert (- t0 * E <= 1 / 10000) by nra. lra.
Qed.

(** C104 and C105: the quick inverse square root, and triangles, in the arithmetic of the machine *)
From Coq Require Import ZArith Bool List Reals Lia Lra Psatz.
From Flocq Require Import Core IEEE754.BinarySingleNaN IEEE754.Binary IEEE754.Bits.
From Verif.Common Require Import Base.
From Verif.Geometry Require Vec TriangleModel TriangleProofs.
From Verif.Geometry Require Import RoundErrorModel RoundErrorProofs QuickInvSqrtModel QuickInvSqrtProofs MachineModel MachineProofs.
Import ListNotations.
Open Scope R_scope.

(** ** C104 *)

(** The largest number of single precision, about [3.4e38] *)
Definition largest_f32 : R := (2 ^ 24 - 1) * 2 ^ 104.
Lemma largest_is : largest_f32 = max32.
Proof. unfold largest_f32, max32, pow2. rewrite bpow_powerRZ. cbn [powerRZ Z.to_nat]. change (Pos.to_nat 104) with 104%nat. change (IZR radix2) with 2. lra. Qed.
Lemma pow2_125 : pow2 (-125) = / 2 ^ 125.
Proof. rewrite pow2_IZR by lia. f_equal. change (- -125)%Z with (Z.of_nat 125). now rewrite <- pow_IZR. Qed.
(** Within five millionths of the inverse square root, for every number that single precision can hold, but for the smallest ones *)
Theorem C104_close (checked : bool) (x : f64) : finite x -> / 2 ^ 125 <= val x <= largest_f32 ->
  exists y, quick_inv_sqrt checked x = Ok y /\ finite y /\ Rabs (val y * sqrt (val x) - 1) <= 5 / 1000000.
Proof. rewrite largest_is, <- pow2_125. apply quick_ok. Qed.

(** ** Unit vectors *)
Definition len (v : vec) : R := sqrt (S3 v).
Lemma close_sqrt q s S : 0 < S -> Rabs (s - S) <= 4 * u64 * S -> Rabs (q * sqrt s - 1) <= 5 / 1000000 -> Rabs (q * sqrt S - 1) <= 50001 / 10000000000.
Proof.
  intros S0 N Q. apply in_abs_of in N, Q. pose proof u64_small as US.
  set (e := s / S - 1). assert (E : s = S * (1 + e)) by (unfold e; field; lra).
  assert (EB : - (4 * u64) <= e <= 4 * u64) by (rewrite E in N; split; nra).
  rewrite E, sqrt_mult in Q by lra.
  assert (R : 1 - 4 * u64 <= sqrt (1 + e) <= 1 + 4 * u64).
  { split.
    - rewrite <- (sqrt_square (1 - 4 * u64)) by lra. apply sqrt_le_1; nra.
    - rewrite <- (sqrt_square (1 + 4 * u64)) by lra. apply sqrt_le_1; nra. }
  set (r := sqrt (1 + e)) in *. set (w := q * sqrt S) in *. replace (q * (sqrt S * r)) with (w * r) in Q by (unfold w; ring).
  clearbody r w. apply Rabs_le. assert (UB : 4 * u64 <= 5 / 10 ^ 16) by lra. clear - Q R UB. split; nra.
Qed.
Lemma S3_of_length v : finite3 v -> within3 (2 ^ 62) v -> flt f_1e_20 (length_squared v) = true ->
  finite (length_squared v) /\ 8 / 10 ^ 21 <= S3 v /\ Rabs (val (length_squared v) - S3 v) <= 4 * u64 * S3 v /\ pow2 (-125) <= val (length_squared v) <= max32.
Proof.
  intros F B G.
  assert (P62 : 2 ^ 62 = pow2 62) by (unfold pow2; rewrite bpow_powerRZ; cbn [powerRZ]; now change (Pos.to_nat 62) with 62%nat).
  rewrite P62 in B.
  assert (B' : within3 (pow2 500) v).
  { assert (pow2 62 <= pow2 500) by (apply bpow_le; lia). destruct B as (? & ? & ?). unfold within3. lra. }
  destruct (length_squared_ok v F B') as (FL & E). destruct f_1e_20_val as (FC & VC).
  apply (flt_finite _ _ FC FL) in G. apply in_abs_of in E. pose proof u64_small as US. pose proof tiny64_small as TS. pose proof tiny64_pos as TP.
  pose proof (S3_within _ _ B) as SB. pose proof (S3_nonneg v) as S0.
  assert (P : pow2 62 * pow2 62 = pow2 124) by (unfold pow2; now rewrite <- bpow_plus).
  rewrite P in SB. clear P P62. set (S := S3 v) in *. set (L := val (length_squared v)) in *. clearbody S L.
  assert (SL : 8 / 10 ^ 21 <= S) by nra.
  assert (T : 4 * tiny64 <= 1 / 10 * u64 * S).
  { assert (1 / 10 ^ 16 <= u64) by (unfold u64; lra). nra. }
  split; [exact FL|]. split; [exact SL|]. split; [apply Rabs_le; nra|].
  split.
  - apply (Rle_trans _ (pow2 (-100))); [apply bpow_le; lia|]. apply (Rle_trans _ (9 / 10 ^ 21)); [|lra].
    rewrite pow2_IZR by lia. match goal with |- context [IZR (2 ^ ?k)] => let v := eval vm_compute in (2 ^ k)%Z in change (2 ^ k)%Z with v end. lra.
  - unfold max32. assert (P : pow2 124 = 1048576 * pow2 104) by (unfold pow2; change 1048576 with (bpow radix2 20); now rewrite <- bpow_plus).
    pose proof (pow2_pos 104). nra.
Qed.
(** The product of a component and the factor *)
Lemma component_ok x q N : finite x -> finite q -> Rabs (val x) <= N -> 0 < N -> Rabs (val q * N - 1) <= 50001 / 10000000000 ->
  finite (fmul x q) /\ exists d t, Rabs d <= u64 /\ Rabs t <= tiny64 /\ val (fmul x q) = val x * val q * (1 + d) + t.
Proof.
  intros Fx Fq B N0 Q. apply fmul_ok; auto. apply (Rle_trans _ 2).
  - apply in_abs_of in B, Q. assert (0 < val q) by nra. apply Rabs_le. split; nra.
  - change 2 with (bpow radix2 1). apply bpow_le. lia.
Qed.
Lemma component_within x y z : Rabs x <= sqrt (x * x + y * y + z * z).
Proof. rewrite <- (sqrt_Rsqr_abs x). unfold Rsqr. apply sqrt_le_1; nra. Qed.
Theorem C104_unit (checked : bool) (v : vec) : finite3 v -> within3 (2 ^ 62) v -> flt f_1e_20 (length_squared v) = true ->
  exists w, normalize_quick checked v = Ok w /\ finite3 w /\ Rabs (len w - 1) <= 51 / 10000000 /\
    (forall c, In c [vec_x; vec_y; vec_z] -> Rabs (val (c w) - val (c v) / len v) <= 51 / 10000000 * (Rabs (val (c v)) / len v) + / 2 ^ 1000).
Proof.
  intros F B G. destruct (S3_of_length v F B G) as (FL & SL & SE & RL).
  destruct (quick_ok checked (length_squared v) FL RL) as (q & Eq & Fq & Cq).
  assert (S0 : 0 < S3 v) by lra. pose proof (close_sqrt _ _ _ S0 SE Cq) as Q.
  unfold normalize_quick. cbv zeta. rewrite G. cbn [negb]. rewrite Eq. cbn [bind].
  fold (len v) in Q. assert (N0 : 0 < len v) by (apply sqrt_lt_R0; lra).
  assert (NS : len v * len v = S3 v) by (apply sqrt_sqrt; lra).
  destruct F as (Fx & Fy & Fz). destruct v as [x y z]. cbn [vec_x vec_y vec_z] in *.
  assert (Bx : Rabs (val x) <= len (mkVec x y z)) by apply component_within.
  assert (By : Rabs (val y) <= len (mkVec x y z)).
  { unfold len, S3. cbn [vec_x vec_y vec_z]. replace (val x * val x + val y * val y + val z * val z) with (val y * val y + val x * val x + val z * val z) by ring. apply component_within. }
  assert (Bz : Rabs (val z) <= len (mkVec x y z)).
  { unfold len, S3. cbn [vec_x vec_y vec_z]. replace (val x * val x + val y * val y + val z * val z) with (val z * val z + val y * val y + val x * val x) by ring. apply component_within. }
  destruct (component_ok x q _ Fx Fq Bx N0 Q) as (F1 & d1 & t1 & D1 & T1 & V1).
  destruct (component_ok y q _ Fy Fq By N0 Q) as (F2 & d2 & t2 & D2 & T2 & V2).
  destruct (component_ok z q _ Fz Fq Bz N0 Q) as (F3 & d3 & t3 & D3 & T3 & V3).
  unfold S3 in NS. cbn [vec_x vec_y vec_z] in NS. set (N := len (mkVec x y z)) in *. clearbody N.
  pose proof u64_small as US. pose proof tiny64_small as TS. pose proof tiny64_pos as TP.
  assert (T1000 : tiny64 <= / 2 ^ 1000).
  { replace (/ 2 ^ 1000) with (pow2 (-1000)); [apply bpow_le; lia|]. unfold pow2. rewrite bpow_powerRZ. cbn [powerRZ]. now change (Pos.to_nat 1000) with 1000%nat. }
  assert (ONE : forall a d t w, Rabs d <= u64 -> Rabs t <= tiny64 -> w = a * val q * (1 + d) + t ->
    Rabs (w - a / N) <= 51 / 10000000 * (Rabs a / N) + / 2 ^ 1000).
  { intros a d t w D T W. rewrite W.
    replace (a * val q * (1 + d) + t - a / N) with (a / N * ((val q * N - 1) + val q * N * d) + t) by (field; lra).
    eapply Rle_trans; [apply Rabs_triang|]. apply Rplus_le_compat; [|lra]. rewrite Rabs_mult, Rmult_comm.
    assert (AN : Rabs (a / N) = Rabs a / N) by (unfold Rdiv; rewrite Rabs_mult, (Rabs_pos_eq (/ N)); [reflexivity|apply Rlt_le, Rinv_0_lt_compat; exact N0]).
    rewrite AN.
    apply Rmult_le_compat_r. { apply Rmult_le_pos; [apply Rabs_pos|apply Rlt_le, Rinv_0_lt_compat; exact N0]. }
    eapply Rle_trans; [apply Rabs_triang|]. rewrite Rabs_mult.
    assert (Rabs (val q * N) <= 2) by (apply in_abs_of in Q; apply Rabs_le; lra).
    pose proof (Rabs_pos d). pose proof (Rabs_pos (val q * N)). nra. }
  exists (mkVec (fmul x q) (fmul y q) (fmul z q)). split; [reflexivity|]. split; [split; [exact F1|split; [exact F2|exact F3]]|]. split.
  - unfold len, S3. cbn [vec_x vec_y vec_z].
    set (k := val q * N). assert (KQ : val q = k / N) by (unfold k; field; lra).
    assert (SQ : forall a d t w, Rabs a <= N -> Rabs d <= u64 -> Rabs t <= tiny64 -> w = a * val q * (1 + d) + t ->
      Rabs (w * w - a * a * (val q * val q)) <= a * a * (val q * val q) * (3 * u64) + 5 * tiny64).
    { intros a d t w A D T W. set (p := a * val q). assert (PB : Rabs p <= 2).
      { unfold p. rewrite Rabs_mult. apply in_abs_of in Q. assert (0 < val q) by nra. rewrite (Rabs_pos_eq (val q)) by lra. pose proof (Rabs_pos a). nra. }
      replace (w * w - a * a * (val q * val q)) with (p * p * (2 * d + d * d) + (2 * p * (1 + d) * t + t * t)) by (rewrite W; unfold p; ring).
      replace (a * a * (val q * val q)) with (p * p) by (unfold p; ring).
      eapply Rle_trans; [apply Rabs_triang|]. apply Rplus_le_compat.
      - rewrite Rabs_mult, (Rabs_pos_eq (p * p)) by nra. apply Rmult_le_compat_l; [nra|]. apply in_abs_of in D. apply Rabs_le. split; nra.
      - eapply Rle_trans; [apply Rabs_triang|]. rewrite !Rabs_mult, (Rabs_pos_eq 2) by lra.
        assert (Rabs (1 + d) <= 101 / 100) by (apply in_abs_of in D; apply Rabs_le; lra).
        pose proof (Rabs_pos p). pose proof (Rabs_pos (1 + d)). pose proof (Rabs_pos t).
        assert (Rabs p * Rabs (1 + d) <= 202 / 100) by nra. nra. }
    pose proof (SQ _ _ _ _ Bx D1 T1 V1) as X1. pose proof (SQ _ _ _ _ By D2 T2 V2) as X2. pose proof (SQ _ _ _ _ Bz D3 T3 V3) as X3.
    apply in_abs_of in X1, X2, X3.
    assert (KK : k * k = val x * val x * (val q * val q) + val y * val y * (val q * val q) + val z * val z * (val q * val q)).
    { unfold k. replace (val q * N * (val q * N)) with (N * N * (val q * val q)) by ring. rewrite NS. ring. }
    fold k in Q. apply in_abs_of in Q.
    set (s := val (fmul x q) * val (fmul x q) + val (fmul y q) * val (fmul y q) + val (fmul z q) * val (fmul z q)).
    assert (SB : k * k * (1 - 3 * u64) - 15 * tiny64 <= s <= k * k * (1 + 3 * u64) + 15 * tiny64) by (unfold s; nra).
    assert (UB : 3 * u64 <= 4 / 10 ^ 16) by lra. clear - SB Q UB TS TP US.
    assert (A : (1 - 51 / 10000000) * (1 - 51 / 10000000) <= s <= (1 + 51 / 10000000) * (1 + 51 / 10000000)).
    { assert (99999 / 100000 <= k <= 100001 / 100000) by lra.
      assert ((1 - 50001 / 10000000000) * (1 - 50001 / 10000000000) <= k * k <= (1 + 50001 / 10000000000) * (1 + 50001 / 10000000000)) by (split; nra).
      split; nra. }
    apply Rabs_le. split.
    + assert (1 - 51 / 10000000 <= sqrt s); [|lra]. rewrite <- (sqrt_square (1 - 51 / 10000000)) by lra. apply sqrt_le_1; lra.
    + assert (sqrt s <= 1 + 51 / 10000000); [|lra]. rewrite <- (sqrt_square (1 + 51 / 10000000)) by lra. apply sqrt_le_1; lra.
  - intros c [<-|[<-|[<-|[]]]]; cbn [vec_x vec_y vec_z]; [exact (ONE _ _ _ _ D1 T1 V1)|exact (ONE _ _ _ _ D2 T2 V2)|exact (ONE _ _ _ _ D3 T3 V3)].
Qed.

(** ** Perpendicular vectors *)
Definition dot (u v : vec) : R := val (vec_x u) * val (vec_x v) + val (vec_y u) * val (vec_y v) + val (vec_z u) * val (vec_z v).
Lemma abs_prod x y A B : Rabs x <= A -> Rabs y <= B -> Rabs (x * y) <= A * B.
Proof. intros X Y. rewrite Rabs_mult. apply Rmult_le_compat; auto using Rabs_pos. Qed.
(** A vector of [k], [0] and the rest, whatever the order *)
Lemma perp_core (p o q : f64) N : finite p -> finite o -> finite q -> 2 / 10 ^ 14 <= Rabs (val p) -> N * N = val p * val p + val o * val o -> 0 < N -> N <= pow2 63 ->
  Rabs (val q * N - 1) <= 50001 / 10000000000 ->
  let k := fmul p q in
  let m := fdiv (fmul (fneg o) k) p in
  finite k /\ finite m /\ Rabs (val m * val p + val k * val o) <= 4 * u64 * N /\
  Rabs (sqrt (val m * val m + val k * val k) - 1) <= 51 / 10000000.
Proof.
  intros Fp Fo Fq P0 NN N0 N63 Q k m. apply in_abs_of in Q.
  pose proof u64_small as US. pose proof tiny64_small as TS. pose proof tiny64_pos as TP.
  assert (PN : Rabs (val p) <= N) by (apply Rsqr_incr_0_var; [unfold Rsqr; rewrite <- Rabs_mult, Rabs_pos_eq by nra; nra|lra]).
  assert (ON : Rabs (val o) <= N) by (apply Rsqr_incr_0_var; [unfold Rsqr; rewrite <- Rabs_mult, Rabs_pos_eq by nra; nra|lra]).
  assert (Q0 : 0 < val q) by nra.
  set (K := val q * N) in *.
  assert (NP : val p <> 0) by (intros Z; rewrite Z, Rabs_R0 in P0; lra).
  assert (PQ : Rabs (val p * val q) <= 2) by (rewrite Rabs_mult, (Rabs_pos_eq (val q)) by lra; unfold K in Q; nra).
  assert (OQ : Rabs (val o * val q) <= 2) by (rewrite Rabs_mult, (Rabs_pos_eq (val q)) by lra; unfold K in Q; nra).
  assert (PB : pow2 63 <= 10 ^ 19). { change (pow2 63) with (IZR (2 ^ 63)). change (2 ^ 63)%Z with 9223372036854775808%Z. lra. }
  assert (N14 : 2 / 10 ^ 14 <= N) by lra.
  destruct (fmul_normal p q Fp Fq) as (Fk & d1 & D1 & Vk).
  { split.
    - rewrite Rabs_mult, (Rabs_pos_eq (val q)) by lra.
      apply (Rle_trans _ (1 / 10 ^ 34)).
      + apply (Rle_trans _ (pow2 (-150))); [apply bpow_le; lia|]. rewrite pow2_IZR by lia.
        match goal with |- context [IZR (2 ^ ?k)] => let v := eval vm_compute in (2 ^ k)%Z in change (2 ^ k)%Z with v end. lra.
      + assert (9 / 10 ^ 20 <= val q) by (unfold K in Q; nra). pose proof (Rabs_pos (val p)). nra.
    - apply (Rle_trans _ 2); [exact PQ|]. change 2 with (bpow radix2 1). apply bpow_le. lia. }
  fold k in Fk, Vk. destruct (fneg_ok o Fo) as (Fn & Vn).
  assert (KB : Rabs (val k) <= 3).
  { rewrite Vk, Rabs_mult. assert (Rabs (1 + d1) <= 101 / 100) by (apply in_abs_of in D1; apply Rabs_le; lra). pose proof (Rabs_pos (1 + d1)). pose proof (Rabs_pos (val p * val q)). nra. }
  assert (P100 : pow2 100 <= pow2 1023) by (apply bpow_le; lia).
  assert (P100' : 10 ^ 30 <= pow2 100). { change (pow2 100) with (IZR (2 ^ 100)). match goal with |- context [IZR (2 ^ ?k)] => let v := eval vm_compute in (2 ^ k)%Z in change (2 ^ k)%Z with v end. lra. }
  destruct (fmul_ok (fneg o) k Fn Fk) as (F2 & d2 & t2 & D2 & T2 & V2).
  { rewrite Vn, Rabs_mult, Rabs_Ropp. pose proof (Rabs_pos (val o)). pose proof (Rabs_pos (val k)). assert (Rabs (val o) * Rabs (val k) <= 10 ^ 19 * 3) by nra. lra. }
  rewrite Vn in V2. set (n := fmul (fneg o) k) in *.
  assert (IP : Rabs (/ val p) <= 10 ^ 14 / 2).
  { rewrite Rabs_inv. replace (10 ^ 14 / 2) with (/ (2 / 10 ^ 14)) by field. apply Rinv_le; [lra|exact P0]. }
  assert (NPQ : val n / val p = - (val o * val q) * ((1 + d1) * (1 + d2)) + t2 * / val p) by (rewrite V2, Vk; field; exact NP).
  assert (TPB : Rabs (t2 * / val p) <= 1 / 10 ^ 46).
  { rewrite Rabs_mult. pose proof (Rabs_pos t2). pose proof (Rabs_pos (/ val p)). nra. }
  pose proof (product_near d1 d2 0 D1 D2) as Q12. rewrite Rabs_R0 in Q12. specialize (Q12 ltac:(lra)). rewrite Rplus_0_r, Rmult_1_r in Q12.
  assert (NB : Rabs (val n / val p) <= 3).
  { rewrite NPQ. eapply Rle_trans; [apply Rabs_triang|].
    assert (X : Rabs ((1 + d1) * (1 + d2)) <= 101 / 100) by (apply in_abs_of in Q12; apply Rabs_le; lra).
    assert (OQ' : Rabs (- (val o * val q)) <= 2) by now rewrite Rabs_Ropp.
    pose proof (abs_prod _ _ _ _ OQ' X). lra. }
  destruct (fdiv_ok n p F2 Fp NP) as (F3 & d3 & t3 & D3 & T3 & V3). { lra. }
  fold m in F3, V3. split; [exact Fk|]. split; [exact F3|].
  pose proof (product_near d2 d3 0 D2 D3) as Q23. rewrite Rabs_R0 in Q23. specialize (Q23 ltac:(lra)). rewrite Rplus_0_r, Rmult_1_r in Q23.
  split.
  - replace (val m * val p + val k * val o) with (- (val o * val k) * ((1 + d2) * (1 + d3) - 1) + (t2 * (1 + d3) + t3 * val p)).
    2: { rewrite V3. replace (val n / val p * (1 + d3) + t3) with ((val n * (1 + d3) + t3 * val p) / val p) by (field; exact NP).
         replace ((val n * (1 + d3) + t3 * val p) / val p * val p) with (val n * (1 + d3) + t3 * val p) by (field; exact NP). rewrite V2. ring. }
    assert (OK : Rabs (val o * val k) <= 11 / 10 * N).
    { replace (val o * val k) with (val o * val q * (1 + d1) * val p) by (rewrite Vk; ring).
      assert (X1 : Rabs (1 + d1) <= 1 + u64) by (apply in_abs_of in D1; apply Rabs_le; lra).
      assert (X2 : Rabs (val o * val q) <= 10001 / 10000).
      { rewrite Rabs_mult, (Rabs_pos_eq (val q)) by lra. unfold K in Q. clear - Q ON Q0 N0. nra. }
      pose proof (abs_prod _ _ _ _ (abs_prod _ _ _ _ X2 X1) PN) as X3. apply (Rle_trans _ _ _ X3), Rmult_le_compat_r; lra. }
    eapply Rle_trans; [apply Rabs_triang|]. rewrite Rabs_mult, Rabs_Ropp.
    assert (REST : Rabs (t2 * (1 + d3) + t3 * val p) <= 2 / 10 * u64 * N).
    { eapply Rle_trans; [apply Rabs_triang|].
      assert (X1 : Rabs (1 + d3) <= 2) by (apply in_abs_of in D3; apply Rabs_le; lra).
      assert (UL : 1 / 10 ^ 16 <= u64) by (unfold u64; lra).
      assert (T2' : Rabs t2 <= 1 / 10 ^ 60) by lra. assert (T3' : Rabs t3 <= 1 / 10 ^ 60) by lra.
      pose proof (abs_prod _ _ _ _ T2' X1). pose proof (abs_prod _ _ _ _ T3' PN).
      assert (2 / 10 ^ 60 <= 1 / 10 ^ 40 * N) by lra. assert (1 / 10 ^ 16 * N <= u64 * N) by (apply Rmult_le_compat_r; lra). lra. }
    pose proof (Rabs_pos (val o * val k)). pose proof (Rabs_pos ((1 + d2) * (1 + d3) - 1)).
    assert (Rabs (val o * val k) * Rabs ((1 + d2) * (1 + d3) - 1) <= 11 / 10 * N * (31 / 10 * u64)) by (apply Rmult_le_compat; lra). nra.
  - pose proof (product_near d1 d2 d3 D1 D2 D3) as Q123.
    set (e := (1 + d1) * (1 + d2) * (1 + d3) - 1) in *. set (T := t2 * / val p * (1 + d3) + t3).
    assert (Vm : val m = - (val o * val q) * (1 + e) + T) by (rewrite V3, NPQ; unfold e, T; ring).
    assert (TB : Rabs T <= 1 / 10 ^ 45).
    { unfold T. eapply Rle_trans; [apply Rabs_triang|].
      assert (X : Rabs (1 + d3) <= 2) by (apply in_abs_of in D3; apply Rabs_le; lra).
      pose proof (abs_prod _ _ _ _ TPB X). lra. }
    set (s := val m * val m + val k * val k).
    set (a := val o * val q) in *. set (b := val p * val q) in *.
    assert (AB : a * a + b * b = K * K) by (unfold a, b, K; replace (val q * N * (val q * N)) with (val q * val q * (N * N)) by ring; rewrite NN; ring).
    assert (SE : s = (a * a + b * b) + a * a * (2 * e + e * e) - 2 * a * (1 + e) * T + T * T + b * b * (2 * d1 + d1 * d1)) by (unfold s; rewrite Vm, Vk; ring).
    apply in_abs_of in Q123, TB, D1, OQ. clearbody e T a b s K. rewrite AB in SE.
    assert (UB : 31 / 10 * u64 <= 4 / 10 ^ 16) by lra.
    clear - Q123 TB D1 OQ AB SE UB Q US.
    assert (E1 : - (1 / 10 ^ 15) <= 2 * e + e * e <= 1 / 10 ^ 15) by (clear - Q123 UB US; split; nra).
    assert (E2 : - (1 / 10 ^ 15) <= 2 * d1 + d1 * d1 <= 1 / 10 ^ 15) by (clear - D1 US; split; nra).
    assert (KB2 : (1 - 50001 / 10000000000) * (1 - 50001 / 10000000000) <= K * K <= (1 + 50001 / 10000000000) * (1 + 50001 / 10000000000)) by (clear - Q; split; nra).
    assert (AA : 0 <= a * a <= 2) by (split; nra). assert (BB : 0 <= b * b <= 2) by (split; nra).
    assert (X1 : - (1 / 10 ^ 14) <= a * a * (2 * e + e * e) <= 1 / 10 ^ 14) by (set (A := a * a) in *; clearbody A; split; nra).
    assert (X2 : - (1 / 10 ^ 14) <= b * b * (2 * d1 + d1 * d1) <= 1 / 10 ^ 14) by (set (A := b * b) in *; clearbody A; split; nra).
    assert (X3 : - (1 / 10 ^ 14) <= 2 * a * (1 + e) * T <= 1 / 10 ^ 14).
    { assert (- 5 <= 2 * a * (1 + e) <= 5) by (clear - OQ Q123 UB US; split; nra). set (A := 2 * a * (1 + e)) in *. clearbody A. split; nra. }
    assert (X4 : 0 <= T * T <= 1 / 10 ^ 14) by (split; nra).
    assert (SB : (1 - 51 / 10000000) * (1 - 51 / 10000000) <= s <= (1 + 51 / 10000000) * (1 + 51 / 10000000)) by lra.
    clear - SB. apply Rabs_le. split.
    + assert (1 - 51 / 10000000 <= sqrt s); [|lra]. rewrite <- (sqrt_square (1 - 51 / 10000000)) by lra. apply sqrt_le_1; lra.
    + assert (sqrt s <= 1 + 51 / 10000000); [|lra]. rewrite <- (sqrt_square (1 + 51 / 10000000)) by lra. apply sqrt_le_1; lra.
Qed.

Lemma two_squares x y : finite x -> finite y -> Rabs (val x) <= pow2 62 -> Rabs (val y) <= pow2 62 -> 2 / 10 ^ 14 <= Rabs (val x) \/ 2 / 10 ^ 14 <= Rabs (val y) ->
  let s := fadd (fmul x x) (fmul y y) in let S := val x * val x + val y * val y in
  finite s /\ 0 < S /\ Rabs (val s - S) <= 4 * u64 * S /\ pow2 (-125) <= val s <= max32 /\ sqrt S <= pow2 63.
Proof.
  intros Fx Fy Bx By L s S.
  pose proof (square_within _ _ Bx) as Sx. pose proof (square_within _ _ By) as Sy.
  pose proof u64_small as US. pose proof tiny64_small as TS. pose proof tiny64_pos as TP.
  assert (P : pow2 62 * pow2 62 = pow2 124) by (unfold pow2; now rewrite <- bpow_plus). rewrite P in *.
  assert (P1 : 8 * pow2 124 = pow2 127) by (unfold pow2; change 8 with (bpow radix2 3); now rewrite <- bpow_plus).
  assert (P2 : pow2 127 <= pow2 1023) by (apply bpow_le; lia).
  assert (P3 : 1 <= pow2 124) by (change 1 with (bpow radix2 0); apply bpow_le; lia).
  destruct (fmul_ok x x Fx Fx) as (F1 & d1 & t1 & D1 & T1 & V1). { rewrite Rabs_pos_eq by lra. lra. }
  destruct (fmul_ok y y Fy Fy) as (F2 & d2 & t2 & D2 & T2 & V2). { rewrite Rabs_pos_eq by lra. lra. }
  assert (SL : 4 / 10 ^ 28 <= S).
  { unfold S. assert (G : forall a, 2 / 10 ^ 14 <= Rabs a -> 4 / 10 ^ 28 <= a * a).
    { intros a A. replace (a * a) with (Rabs a * Rabs a) by (rewrite <- Rabs_mult; apply Rabs_pos_eq; nra). nra. }
    destruct L as [L|L]; apply G in L; lra. }
  set (X := val x * val x) in *. set (Y := val y * val y) in *. clearbody X Y.
  apply in_abs_of in D1, D2, T1, T2.
  assert (BB : forall w d t, 0 <= w <= pow2 124 -> - u64 <= d <= u64 -> - tiny64 <= t <= tiny64 -> - 1 <= w * (1 + d) + t <= 2 * pow2 124).
  { clear - US TS TP P3. intros w d t W D T. assert (- (1 / 2) * w <= w * d <= 1 / 2 * w) by (split; nra). lra. }
  pose proof (BB _ _ _ Sx D1 T1) as B1. pose proof (BB _ _ _ Sy D2 T2) as B2. rewrite <- V1 in B1. rewrite <- V2 in B2.
  destruct (fadd_ok (fmul x x) (fmul y y) F1 F2) as (F3 & d3 & D3 & V3). { apply Rabs_le. lra. }
  fold s in F3, V3. split; [exact F3|]. split; [lra|].
  assert (E : Rabs (val s - S) <= 4 * u64 * S).
  { rewrite V3, V1, V2. unfold S.
    assert (Q1 : Rabs ((1 + d1) * (1 + d3) - 1) <= 31 / 10 * u64).
    { replace ((1 + d1) * (1 + d3) - 1) with ((1 + d1) * (1 + d3) * (1 + 0) - 1) by ring. apply product_near; auto; [apply Rabs_le; lra|rewrite Rabs_R0; lra]. }
    assert (Q2 : Rabs ((1 + d2) * (1 + d3) - 1) <= 31 / 10 * u64).
    { replace ((1 + d2) * (1 + d3) - 1) with ((1 + d2) * (1 + d3) * (1 + 0) - 1) by ring. apply product_near; auto; [apply Rabs_le; lra|rewrite Rabs_R0; lra]. }
    replace ((X * (1 + d1) + t1 + (Y * (1 + d2) + t2)) * (1 + d3) - (X + Y)) with
      (X * ((1 + d1) * (1 + d3) - 1) + Y * ((1 + d2) * (1 + d3) - 1) + (t1 + t2) * (1 + d3)) by ring.
    set (q1 := (1 + d1) * (1 + d3) - 1) in *. set (q2 := (1 + d2) * (1 + d3) - 1) in *. clearbody q1 q2.
    apply in_abs_of in Q1, Q2, D3.
    assert (K1 : - (31 / 10 * u64 * X) <= X * q1 <= 31 / 10 * u64 * X) by (clear - Q1 Sx; split; nra).
    assert (K2 : - (31 / 10 * u64 * Y) <= Y * q2 <= 31 / 10 * u64 * Y) by (clear - Q2 Sy; split; nra).
    assert (K4 : - (21 / 10 * tiny64) <= (t1 + t2) * (1 + d3) <= 21 / 10 * tiny64) by (clear - T1 T2 D3 US TP; split; nra).
    assert (UL : 1 / 10 ^ 16 <= u64) by (unfold u64; lra).
    assert (K5 : 21 / 10 * tiny64 <= 1 / 10 * u64 * S).
    { assert (4 / 10 ^ 44 <= u64 * S); [|lra]. replace (4 / 10 ^ 44) with (1 / 10 ^ 16 * (4 / 10 ^ 28)) by field. apply Rmult_le_compat; lra. }
    unfold S in K5. apply Rabs_le. lra. }
  split; [exact E|]. apply in_abs_of in E.
  assert (E4 : S / 2 <= val s <= 2 * S).
  { assert (4 * u64 * S <= 1 / 2 * S) by (apply Rmult_le_compat_r; lra). lra. }
  split.
  - split.
    + apply (Rle_trans _ (pow2 (-100))); [apply bpow_le; lia|]. apply (Rle_trans _ (1 / 10 ^ 28)); [|lra].
      rewrite pow2_IZR by lia. match goal with |- context [IZR (2 ^ ?k)] => let v := eval vm_compute in (2 ^ k)%Z in change (2 ^ k)%Z with v end. lra.
    + unfold max32. assert (P4 : pow2 124 = 1048576 * pow2 104) by (unfold pow2; change 1048576 with (bpow radix2 20); now rewrite <- bpow_plus).
      pose proof (pow2_pos 104). unfold S in *. lra.
  - rewrite <- (sqrt_square (pow2 63)) by apply Rlt_le, pow2_pos. apply sqrt_le_1; [lra|apply Rle_0_sqr|].
    replace (pow2 63 * pow2 63) with (4 * pow2 124) by (unfold pow2; change 4 with (bpow radix2 2); rewrite <- !bpow_plus; reflexivity). unfold S. lra.
Qed.
Lemma tiny_is : finite f_tiny /\ val f_tiny = 100 / 2 ^ 52.
Proof.
  destruct (const_val f_tiny 7036874417766400 (-98)) as (F & V); [reflexivity|vm_compute; reflexivity|]. split; [exact F|]. rewrite V, pow2_IZR by lia.
  match goal with |- context [IZR (2 ^ ?k)] => let v := eval vm_compute in (2 ^ k)%Z in change (2 ^ k)%Z with v end. lra.
Qed.
Lemma abs_ok x : finite x -> finite (b64_abs x) /\ val (b64_abs x) = Rabs (val x).
Proof. intros F. unfold b64_abs, val. rewrite B2R_Babs, is_finite_Babs. auto. Qed.
Lemma above_tiny x : finite x -> flt f_tiny (b64_abs x) = true <-> 100 / 2 ^ 52 < Rabs (val x).
Proof. intros F. destruct tiny_is as (FT & VT). destruct (abs_ok x F) as (FA & VA). rewrite (flt_finite _ _ FT FA), VT, VA. reflexivity. Qed.
(** A perpendicular vector, nearly of length one; vectors near zero have none. *)
Theorem C104_perpendicular (checked : bool) (v : vec) : finite3 v -> within3 (2 ^ 62) v ->
  ((forall c, In c [vec_x; vec_y; vec_z] -> Rabs (val (c v)) <= 100 / 2 ^ 52) -> get_perpendicular_quick checked v = Err) /\
  ((exists c, In c [vec_x; vec_y; vec_z] /\ 100 / 2 ^ 52 < Rabs (val (c v))) ->
   exists w, get_perpendicular_quick checked v = Ok w /\ finite3 w /\ Rabs (dot v w) <= len v / 10 ^ 15 /\ Rabs (len w - 1) <= 51 / 10000000).
Proof.
  intros (Fx & Fy & Fz) B.
  assert (P62 : 2 ^ 62 = pow2 62) by (unfold pow2; rewrite bpow_powerRZ; cbn [powerRZ]; now change (Pos.to_nat 62) with 62%nat).
  rewrite P62 in B. destruct B as (Bx & By & Bz). destruct v as [x y z]. cbn [vec_x vec_y vec_z] in *. unfold get_perpendicular_quick.
  pose proof (above_tiny x Fx) as Tx. pose proof (above_tiny y Fy) as Ty. pose proof (above_tiny z Fz) as Tz.
  split.
  { intros H. pose proof (H vec_x ltac:(left; reflexivity)) as Hx. pose proof (H vec_y ltac:(right; left; reflexivity)) as Hy. pose proof (H vec_z ltac:(right; right; left; reflexivity)) as Hz. cbn [vec_x vec_y vec_z] in *.
    destruct (flt f_tiny (b64_abs x)); [destruct Tx as (Tx & _); specialize (Tx eq_refl); lra|].
    destruct (flt f_tiny (b64_abs y)); [destruct Ty as (Ty & _); specialize (Ty eq_refl); lra|].
    destruct (flt f_tiny (b64_abs z)); [destruct Tz as (Tz & _); specialize (Tz eq_refl); lra|]. reflexivity. }
  intros H.
  assert (T14 : 2 / 10 ^ 14 <= 100 / 2 ^ 52) by lra.
  pose proof u64_small as US.
  assert (Z0 : val f_zero = 0) by reflexivity. assert (F0 : finite f_zero) by reflexivity.
  assert (LN : forall a b c N, N = sqrt (a * a + b * b) -> N <= sqrt (a * a + b * b + c * c)) by (intros a b c N ->; apply sqrt_le_1; nra).
  assert (KU : forall N M, 0 < N -> N <= M -> 4 * u64 * N <= M / 10 ^ 15) by (intros N M N0 NM; nra).
  destruct (flt f_tiny (b64_abs x)) eqn:Ex; [|destruct (flt f_tiny (b64_abs y)) eqn:Ey; [|destruct (flt f_tiny (b64_abs z)) eqn:Ez]].
  - destruct Tx as (Tx & _). specialize (Tx eq_refl).
    destruct (two_squares x y Fx Fy Bx By ltac:(left; lra)) as (Fs & S0 & SE & SR & S63).
    destruct (quick_ok checked _ Fs SR) as (q & Eq & Fq & Cq). rewrite Eq. cbn [bind].
    pose proof (close_sqrt _ _ _ S0 SE Cq) as Q. set (N := sqrt (val x * val x + val y * val y)) in *.
    assert (N0 : 0 < N) by (apply sqrt_lt_R0; lra). assert (NN : N * N = val x * val x + val y * val y) by (apply sqrt_sqrt; lra).
    destruct (perp_core x y q N Fx Fy Fq ltac:(lra) NN N0 S63 Q) as (Fk & Fm & DT & LT).
    eexists. split; [reflexivity|]. split; [split; [exact Fm|split; [exact Fk|exact F0]]|]. split.
    + unfold dot. cbn [vec_x vec_y vec_z]. rewrite Z0.
      eapply Rle_trans; [|apply (KU N); [exact N0|]]. 2: { apply (LN (val x) (val y) (val z)). reflexivity. }
      eapply Rle_trans; [|exact DT]. right. f_equal. ring.
    + unfold len, S3. cbn [vec_x vec_y vec_z]. rewrite Z0. rewrite Rmult_0_l, Rplus_0_r. exact LT.
  - destruct Ty as (Ty & _). specialize (Ty eq_refl).
    destruct (two_squares x y Fx Fy Bx By ltac:(right; lra)) as (Fs & S0 & SE & SR & S63).
    destruct (quick_ok checked _ Fs SR) as (q & Eq & Fq & Cq). rewrite Eq. cbn [bind].
    pose proof (close_sqrt _ _ _ S0 SE Cq) as Q. set (N := sqrt (val x * val x + val y * val y)) in *.
    assert (N0 : 0 < N) by (apply sqrt_lt_R0; lra). assert (NN : N * N = val y * val y + val x * val x) by (rewrite Rplus_comm; apply sqrt_sqrt; lra).
    destruct (perp_core y x q N Fy Fx Fq ltac:(lra) NN N0 S63 Q) as (Fk & Fm & DT & LT).
    eexists. split; [reflexivity|]. split; [split; [exact Fk|split; [exact Fm|exact F0]]|]. split.
    + unfold dot. cbn [vec_x vec_y vec_z]. rewrite Z0.
      eapply Rle_trans; [|apply (KU N); [exact N0|]]. 2: { apply (LN (val x) (val y) (val z)). reflexivity. }
      eapply Rle_trans; [|exact DT]. right. f_equal. ring.
    + unfold len, S3. cbn [vec_x vec_y vec_z]. rewrite Z0. rewrite Rmult_0_l, Rplus_0_r, Rplus_comm. exact LT.
  - destruct Tz as (Tz & _). specialize (Tz eq_refl).
    destruct (two_squares z x Fz Fx Bz Bx ltac:(left; lra)) as (Fs & S0 & SE & SR & S63).
    destruct (quick_ok checked _ Fs SR) as (q & Eq & Fq & Cq). rewrite Eq. cbn [bind].
    pose proof (close_sqrt _ _ _ S0 SE Cq) as Q. set (N := sqrt (val z * val z + val x * val x)) in *.
    assert (N0 : 0 < N) by (apply sqrt_lt_R0; lra). assert (NN : N * N = val z * val z + val x * val x) by (apply sqrt_sqrt; lra).
    destruct (perp_core z x q N Fz Fx Fq ltac:(lra) NN N0 S63 Q) as (Fk & Fm & DT & LT).
    eexists. split; [reflexivity|]. split; [split; [exact Fk|split; [exact F0|exact Fm]]|]. split.
    + unfold dot. cbn [vec_x vec_y vec_z]. rewrite Z0.
      eapply Rle_trans; [|apply (KU N); [exact N0|]].
      2: { unfold len, S3. cbn [vec_x vec_y vec_z]. replace (val x * val x + val y * val y + val z * val z) with (val z * val z + val x * val x + val y * val y) by ring. apply LN. reflexivity. }
      eapply Rle_trans; [|exact DT]. right. f_equal. ring.
    + unfold len, S3. cbn [vec_x vec_y vec_z]. rewrite Z0. rewrite Rmult_0_l, Rplus_0_r, Rplus_comm. exact LT.
  - exfalso. destruct H as (c & I & H). destruct Tx as (_ & Tx), Ty as (_ & Ty), Tz as (_ & Tz).
    destruct I as [<-|[<-|[<-|[]]]]; cbn [vec_x vec_y vec_z] in H; [specialize (Tx H)|specialize (Ty H)|specialize (Tz H)]; congruence.
Qed.

(** ** C104: where it goes wrong *)

(** The bits of a vector *)
Definition bits3 (v : vec) : Z * Z * Z := (bits_of_b64 (vec_x v), bits_of_b64 (vec_y v), bits_of_b64 (vec_z v)).
Lemma bits_same a b : bits_of_b64 a = bits_of_b64 b -> a = b.
Proof. intros H. rewrite <- (of_bits_bits a), H. apply of_bits_bits. Qed.
Lemma bits3_same v w : bits3 v = bits3 w -> v = w.
Proof.
  destruct v as [a b c], w as [a' b' c']. unfold bits3. cbn [vec_x vec_y vec_z]. intros H. apply pair_equal_spec in H as (H & H3). apply pair_equal_spec in H as (H1 & H2).
  apply bits_same in H1, H2, H3. now subst.
Qed.
(** A vector of length [2 ^ 70], whose square single precision cannot hold: without the feature it becomes [(1, 0, 0)], with it infinite and undefined. *)
Theorem C104_huge_refuted : exists v, finite3 v /\ within3 (2 ^ 70) v /\ normalize_plain v = Ok (mkVec f_one f_zero f_zero) /\
  exists w, normalize_quick true v = Ok w /\ is_infinite (vec_x w) = true /\ is_nan 53 1024 (vec_y w) = true /\ is_nan 53 1024 (vec_z w) = true.
Proof.
  exists (mkVec (b64_of_bits 0x4450000000000000) f_zero f_zero).
  destruct (const_val (b64_of_bits 0x4450000000000000) 4503599627370496 18) as (F & V); [reflexivity|vm_compute; reflexivity|].
  split. { split; [exact F|]. split; reflexivity. }
  split.
  { split; [|split]; cbn [vec_x vec_y vec_z].
    - rewrite V. change (pow2 18) with (IZR (2 ^ 18)). change (2 ^ 18)%Z with 262144%Z. rewrite Rabs_pos_eq; lra.
    - change (val f_zero) with 0. rewrite Rabs_R0. lra.
    - change (val f_zero) with 0. rewrite Rabs_R0. lra. }
  set (v := mkVec _ _ _).
  assert (E1 : match normalize_plain v with Ok u => bits3 u = bits3 (mkVec f_one f_zero f_zero) | _ => False end) by (vm_compute; reflexivity).
  assert (E2 : match normalize_quick true v with Ok w => is_infinite (vec_x w) && (is_nan 53 1024 (vec_y w) && is_nan 53 1024 (vec_z w)) | _ => false end = true) by (vm_compute; reflexivity).
  destruct (normalize_plain v) as [u| |]; [|destruct E1|destruct E1]. apply bits3_same in E1. subst u. split; [reflexivity|].
  destruct (normalize_quick true v) as [w| |]; [|discriminate|discriminate]. apply andb_true_iff in E2 as (E2 & E3). apply andb_true_iff in E3. exists w. auto.
Qed.

(** ** C105 *)

Definition point (v : vec) : Vec.V3 R := Vec.mkV (val (vec_x v)) (val (vec_y v)) (val (vec_z v)).
(** The exact distance of two points and the exact area of a triangle *)
Definition exact_distance (a b : vec) : R := Vec.vlen (Vec.vsub (point a) (point b)).
Definition exact_area (a b c : vec) : R := Vec.vlen (Vec.vcross (Vec.vsub (point b) (point a)) (Vec.vsub (point c) (point a))) / 2.

(** A triangle of tens of metres that is accepted and whose normal is right, and yet its area, as well as the radius of the circle around it, is not a number;
    with the feature [quick_inv_sqrt] asking for the radius panics, or, without overflow checks, answers with a negative number. *)
Definition needle_a : vec := mkVec f_zero f_zero f_zero.
Definition needle_b : vec := mkVec (b64_of_bits 0x4008000000000000) (b64_of_bits 0x4033000000000000) f_zero.
Definition needle_c : vec := mkVec (b64_of_bits 0x4022000000000000) (b64_of_bits 0x404c800020000000) f_zero.
Theorem C105_area_refuted : point needle_a = Vec.mkV 0 0 0 /\ point needle_b = Vec.mkV 3 19 0 /\ point needle_c = Vec.mkV 9 (57 + / 2 ^ 18) 0 /\
  exact_area needle_a needle_b needle_c = 3 / 2 ^ 19 /\
  exists t, triangle_new needle_a needle_b needle_c = Ok t /\ t_normal t = mkVec f_zero f_zero f_one /\
    is_nan 53 1024 (t_area t) = true /\ is_nan 53 1024 (circumradius t) = true /\
    let a := distance needle_a needle_b in let b := distance needle_b needle_c in let c := distance needle_c needle_a in
    circumradius_quick true a b c = Panic /\ exists r, circumradius_quick false a b c = Ok r /\ flt r f_zero = true.
Proof.
  destruct (const_val (b64_of_bits 0x4008000000000000) 6755399441055744 (-51)) as (_ & V1); [reflexivity|vm_compute; reflexivity|].
  destruct (const_val (b64_of_bits 0x4033000000000000) 5348024557502464 (-48)) as (_ & V2); [reflexivity|vm_compute; reflexivity|].
  destruct (const_val (b64_of_bits 0x4022000000000000) 5066549580791808 (-49)) as (_ & V3); [reflexivity|vm_compute; reflexivity|].
  destruct (const_val (b64_of_bits 0x404c800020000000) 8022037373124608 (-47)) as (_ & V4); [reflexivity|vm_compute; reflexivity|].
  assert (Pa : point needle_a = Vec.mkV 0 0 0) by reflexivity.
  assert (Pb : point needle_b = Vec.mkV 3 19 0).
  { unfold point, needle_b. cbn [vec_x vec_y vec_z]. rewrite V1, V2, !pow2_IZR by lia. apply Vec.V3_eq; cbn [Vec.vx Vec.vy Vec.vz]; [| |reflexivity];
    match goal with |- context [IZR (2 ^ ?k)] => let v := eval vm_compute in (2 ^ k)%Z in change (2 ^ k)%Z with v end; lra. }
  assert (Pc : point needle_c = Vec.mkV 9 (57 + / 2 ^ 18) 0).
  { unfold point, needle_c. cbn [vec_x vec_y vec_z]. rewrite V3, V4, !pow2_IZR by lia. apply Vec.V3_eq; cbn [Vec.vx Vec.vy Vec.vz]; [| |reflexivity];
    match goal with |- context [IZR (2 ^ ?k)] => let v := eval vm_compute in (2 ^ k)%Z in change (2 ^ k)%Z with v end; lra. }
  split; [exact Pa|]. split; [exact Pb|]. split; [exact Pc|]. split.
  { unfold exact_area. rewrite Pa, Pb, Pc. unfold Vec.vlen, Vec.vlen2, Vec.vcross, Vec.vsub. cbn [Vec.vx Vec.vy Vec.vz].
    match goal with |- sqrt ?e / 2 = _ => replace e with (3 / 2 ^ 18 * (3 / 2 ^ 18)) by field end. rewrite sqrt_square by lra. field. }
  assert (E : match triangle_new needle_a needle_b needle_c with Ok t => (bits3 (t_normal t), (is_nan 53 1024 (t_area t), is_nan 53 1024 (circumradius t))) | _ => (bits3 needle_a, (false, false)) end
    = (bits3 (mkVec f_zero f_zero f_one), (true, true))) by (vm_compute; reflexivity).
  destruct (triangle_new needle_a needle_b needle_c) as [t| |]; apply pair_equal_spec in E as (E1 & E); apply pair_equal_spec in E as (E2 & E3); [|discriminate|discriminate].
  exists t. split; [reflexivity|]. split; [now apply bits3_same|]. split; [exact E2|]. split; [exact E3|]. intros a b c.
  split; [vm_compute; reflexivity|].
  assert (E : match circumradius_quick false a b c with Ok r => flt r f_zero = true | _ => False end) by (vm_compute; reflexivity).
  destruct (circumradius_quick false a b c) as [r| |]; [|destruct E|destruct E]. exists r. split; [reflexivity|exact E].
Qed.

(** ** Errors relative to the exact value *)
Definition near (e x y : R) : Prop := Rabs (x - y) <= e * y.
Lemma near_iff e x y : near e x y <-> y - e * y <= x <= y + e * y.
Proof. unfold near. split; intros H; [apply in_abs_of in H; lra|apply Rabs_le; lra]. Qed.
Lemma near_weaken e f x y : 0 <= y -> e <= f -> near e x y -> near f x y.
Proof. rewrite !near_iff. intros. nra. Qed.
Lemma near_mul e f x y x' y' : 0 < y -> 0 < y' -> 0 <= e -> 0 <= f -> near e x y -> near f x' y' -> near (e + f + e * f) (x * x') (y * y').
Proof.
  unfold near. intros Y Y' E F H H'.
  replace (x * x' - y * y') with ((x - y) * (x' - y') + (x - y) * y' + y * (x' - y')) by ring.
  eapply Rle_trans; [apply Rabs_triang|]. eapply Rle_trans; [apply Rplus_le_compat_r, Rabs_triang|]. rewrite !Rabs_mult, (Rabs_pos_eq y), (Rabs_pos_eq y') by lra.
  assert (Rabs (x - y) * Rabs (x' - y') <= e * y * (f * y')) by (apply Rmult_le_compat; auto using Rabs_pos).
  assert (Rabs (x - y) * y' <= e * y * y') by (apply Rmult_le_compat_r; lra).
  assert (y * Rabs (x' - y') <= y * (f * y')) by (apply Rmult_le_compat_l; lra). lra.
Qed.
Lemma near_factor e f x y d : 0 < y -> 0 <= e -> Rabs d <= f -> near e x y -> near (e + f + e * f) (x * (1 + d)) y.
Proof.
  intros Y E D H. replace y with (y * 1) by ring. apply near_mul; [exact Y|lra|exact E|pose proof (Rabs_pos d); lra|now rewrite ?Rmult_1_r|].
  unfold near. replace (1 + d - 1) with d by ring. lra.
Qed.
Lemma near_sqrt e x y : 0 < y -> 0 <= e <= 1 / 1000 -> near e x y -> near (501 / 1000 * e) (sqrt x) (sqrt y).
Proof.
  intros Y E H. apply near_iff in H. apply near_iff. assert (S0 : 0 < sqrt y) by now apply sqrt_lt_R0. assert (SS : sqrt y * sqrt y = y) by (apply sqrt_sqrt; lra).
  split.
  - replace (sqrt y - 501 / 1000 * e * sqrt y) with (sqrt y * (1 - 501 / 1000 * e)) by ring.
    rewrite <- (sqrt_square (sqrt y * (1 - 501 / 1000 * e))) by nra. apply sqrt_le_1; [apply Rle_0_sqr|nra|].
    replace (sqrt y * (1 - 501 / 1000 * e) * (sqrt y * (1 - 501 / 1000 * e))) with (y * ((1 - 501 / 1000 * e) * (1 - 501 / 1000 * e))) by (rewrite <- SS at 1; ring). nra.
  - replace (sqrt y + 501 / 1000 * e * sqrt y) with (sqrt y * (1 + 501 / 1000 * e)) by ring.
    rewrite <- (sqrt_square (sqrt y * (1 + 501 / 1000 * e))) by nra. apply sqrt_le_1; [nra|apply Rle_0_sqr|].
    replace (sqrt y * (1 + 501 / 1000 * e) * (sqrt y * (1 + 501 / 1000 * e))) with (y * ((1 + 501 / 1000 * e) * (1 + 501 / 1000 * e))) by (rewrite <- SS at 1; ring). nra.
Qed.

(** ** Distances *)
Lemma distance_is a b : distance a b = vec_length (vec_sub a b).
Proof. reflexivity. Qed.
Lemma exact_distance_nonneg a b : 0 <= exact_distance a b.
Proof. apply sqrt_pos. Qed.
Lemma exact_distance_sym a b : exact_distance a b = exact_distance b a.
Proof. unfold exact_distance, Vec.vlen, Vec.vlen2, Vec.vdot, Vec.vsub, point. cbn. f_equal. ring. Qed.
Lemma distance_ok a b : finite3 a -> finite3 b -> within3 (pow2 100) a -> within3 (pow2 100) b -> same_point a b = false \/ 9 / 10 ^ 4 <= exact_distance a b ->
  finite (distance a b) /\ near (4 * u64) (val (distance a b)) (exact_distance a b) /\ 9 / 10 ^ 4 <= exact_distance a b <= pow2 102.
Proof.
  intros (Fa1 & Fa2 & Fa3) (Fb1 & Fb2 & Fb3) (Ba1 & Ba2 & Ba3) (Bb1 & Bb2 & Bb3) SP. destruct a as [a1 a2 a3], b as [b1 b2 b3]. cbn [vec_x vec_y vec_z] in *.
  pose proof u64_small as US. pose proof tiny64_small as TS. pose proof tiny64_pos as TP.
  assert (P101 : 2 * pow2 100 = pow2 101) by (unfold pow2; change 2 with (bpow radix2 1); now rewrite <- bpow_plus).
  assert (PB : pow2 101 <= pow2 499) by (apply bpow_le; lia). assert (PB2 : pow2 499 <= pow2 1023) by (apply bpow_le; lia).
  assert (PB3 : 2 * pow2 499 = pow2 500) by (unfold pow2; change 2 with (bpow radix2 1); now rewrite <- bpow_plus).
  assert (DB : forall x y, Rabs x <= pow2 100 -> Rabs y <= pow2 100 -> Rabs (x - y) <= pow2 101).
  { intros x y X Y. apply in_abs_of in X, Y. apply Rabs_le. lra. }
  pose proof (DB _ _ Ba1 Bb1) as D1. pose proof (DB _ _ Ba2 Bb2) as D2. pose proof (DB _ _ Ba3 Bb3) as D3.
  destruct (fsub_ok a1 b1 Fa1 Fb1) as (F1 & e1 & E1 & V1); [lra|].
  destruct (fsub_ok a2 b2 Fa2 Fb2) as (F2 & e2 & E2 & V2); [lra|].
  destruct (fsub_ok a3 b3 Fa3 Fb3) as (F3 & e3 & E3 & V3); [lra|].
  set (d := vec_sub (mkVec a1 a2 a3) (mkVec b1 b2 b3)).
  assert (FD : finite3 d) by (split; [exact F1|split; [exact F2|exact F3]]).
  assert (WB : forall x e, Rabs x <= pow2 101 -> Rabs e <= u64 -> Rabs (x * (1 + e)) <= pow2 500).
  { intros x e X E. assert (Rabs (1 + e) <= 2) by (apply in_abs_of in E; apply Rabs_le; lra). pose proof (abs_prod _ _ _ _ X H). lra. }
  assert (WD : within3 (pow2 500) d).
  { split; [|split]; cbn [d vec_sub vec_x vec_y vec_z]; [rewrite V1|rewrite V2|rewrite V3]; apply WB; assumption. }
  destruct (length_squared_ok d FD WD) as (FL & EL).
  set (S := exact_distance (mkVec a1 a2 a3) (mkVec b1 b2 b3) * exact_distance (mkVec a1 a2 a3) (mkVec b1 b2 b3)).
  assert (SV : S = (val a1 - val b1) * (val a1 - val b1) + (val a2 - val b2) * (val a2 - val b2) + (val a3 - val b3) * (val a3 - val b3)).
  { unfold S, exact_distance, Vec.vlen. rewrite sqrt_sqrt; [reflexivity|]. repeat apply Rplus_le_le_0_compat; apply Rle_0_sqr. }
  assert (SD : near (21 / 10 * u64) (S3 d) S).
  { apply near_iff. unfold S3. cbn [d vec_sub vec_x vec_y vec_z]. rewrite V1, V2, V3, SV.
    assert (Q : forall x e, Rabs e <= u64 -> x * x - 21 / 10 * u64 * (x * x) <= x * (1 + e) * (x * (1 + e)) <= x * x + 21 / 10 * u64 * (x * x)).
    { intros x e E. apply in_abs_of in E. replace (x * (1 + e) * (x * (1 + e))) with (x * x + (2 * e + e * e) * (x * x)) by ring.
      assert (- (21 / 10 * u64) <= 2 * e + e * e <= 21 / 10 * u64) by (clear - E US; split; nra). assert (0 <= x * x) by nra. clear - H H0. split; nra. }
    pose proof (Q (val a1 - val b1) e1 E1). pose proof (Q (val a2 - val b2) e2 E2). pose proof (Q (val a3 - val b3) e3 E3). lra. }
  apply in_abs_of in EL. pose proof SD as SD'. apply near_iff in SD'. pose proof (S3_nonneg d) as S3N.
  assert (SL : 81 / 10 ^ 8 <= S).
  { destruct SP as [SP|SP].
    - unfold same_point in SP. fold d in SP. destruct f_1e_6_val as (FC & VC).
      assert (GT : 9 / 10 ^ 7 < val (length_squared d)).
      { destruct (Rle_dec (val (length_squared d)) (val (fmul f_1e_3 f_1e_3))) as [G|G]; [|lra]. apply (fle_val _ _ FL FC) in G. congruence. }
      assert (S3L : 89 / 10 ^ 8 <= S3 d) by (clear - EL GT US TS S3N; nra).
      assert (0 <= S) by apply Rle_0_sqr. clear - SD' S3L US H. nra.
    - unfold S. replace (81 / 10 ^ 8) with (9 / 10 ^ 4 * (9 / 10 ^ 4)) by lra. apply Rmult_le_compat; lra. }
  apply near_iff in SD.
  assert (N : near (54 / 10 * u64) (val (length_squared d)) S).
  { apply near_iff. assert (UL : 1 / 10 ^ 16 <= u64) by (unfold u64; lra).
    assert (4 * tiny64 <= 1 / 10 * u64 * S) by (assert (1 / 10 ^ 16 * (81 / 10 ^ 8) <= u64 * S) by (apply Rmult_le_compat; lra); lra).
    assert (31 / 10 * u64 * S3 d <= 31 / 10 * u64 * S + 1 / 10 * u64 * S).
    { assert (u64 * S3 d <= u64 * (S * (1 + 21 / 10 * u64))) by (apply Rmult_le_compat_l; lra).
      assert (u64 * (S * (1 + 21 / 10 * u64)) <= u64 * (S * (1 + 1 / 100))) by (apply Rmult_le_compat_l; [lra|]; apply Rmult_le_compat_l; lra). lra. }
    lra. }
  assert (S0 : 0 < S) by lra.
  assert (NS : near (271 / 100 * u64) (sqrt (val (length_squared d))) (sqrt S)).
  { eapply near_weaken; [apply sqrt_pos| |apply near_sqrt; [exact S0| |exact N]]; lra. }
  assert (SE : sqrt S = exact_distance (mkVec a1 a2 a3) (mkVec b1 b2 b3)) by (unfold S; apply sqrt_square, exact_distance_nonneg).
  rewrite SE in NS. set (D := exact_distance (mkVec a1 a2 a3) (mkVec b1 b2 b3)) in *.
  assert (GT : 8 / 10 ^ 7 < val (length_squared d)) by (apply near_iff in N; clear - N SL US; nra).
  destruct (fsqrt_normal _ FL) as (FS & e & E & V).
  { apply (Rle_trans _ (pow2 (-200))); [apply bpow_le; lia|]. rewrite pow2_IZR by lia.
    match goal with |- context [IZR (2 ^ ?k)] => let v := eval vm_compute in (2 ^ k)%Z in change (2 ^ k)%Z with v end. lra. }
  assert (D0 : 9 / 10 ^ 4 <= D).
  { rewrite <- SE. rewrite <- (sqrt_square (9 / 10 ^ 4)) by lra. apply sqrt_le_1; lra. }
  split; [exact FS|]. split; [|split; [exact D0|]].
  - rewrite distance_is. unfold vec_length. fold d. rewrite V. apply (near_weaken (271 / 100 * u64 + u64 + 271 / 100 * u64 * u64)); [lra|nra|]. apply near_factor; [lra|lra|exact E|exact NS].
  - rewrite <- SE. rewrite <- (sqrt_square (pow2 102)) by apply Rlt_le, pow2_pos. apply sqrt_le_1; [lra|apply Rle_0_sqr|].
    rewrite SV. assert (P102 : pow2 102 = 2 * pow2 101) by (unfold pow2; change 2 with (bpow radix2 1); now rewrite <- bpow_plus).
    pose proof (square_within _ _ D1). pose proof (square_within _ _ D2). pose proof (square_within _ _ D3). rewrite P102. nra.
Qed.

(** ** Heron's formula *)
Lemma near_add e x y x' y' : near e x y -> near e x' y' -> near e (x + x') (y + y').
Proof. rewrite !near_iff. intros. lra. Qed.
(** One rounded difference: cancellation costs as much as the result is smaller than the operands. *)
Lemma near_difference h a h' a' s t K d : 0 < s -> 0 <= t <= s -> s <= K * (s - t) -> 1 <= K -> u64 * K <= 1 / 10 ^ 6 -> Rabs d <= u64 ->
  h = s -> a = t -> near (725 / 100 * u64) h' s -> near (4 * u64) a' t -> near (123 / 10 * (u64 * K)) ((h' - a') * (1 + d)) (s - t).
Proof.
  intros S0 T SK K1 UK D -> -> H A. pose proof u64_small as US.
  assert (ST : 0 < s - t) by nra.
  assert (N : near (1125 / 100 * (u64 * K)) (h' - a') (s - t)).
  { apply near_iff in H, A. apply near_iff.
    assert (u64 * t <= u64 * s) by (apply Rmult_le_compat_l; lra).
    assert (u64 * s <= u64 * (K * (s - t))) by (apply Rmult_le_compat_l; lra). lra. }
  assert (UU : u64 <= u64 * K) by nra.
  set (r := u64 * K) in *. apply (near_weaken (1125 / 100 * r + r + 1125 / 100 * r * r)); [lra|nra|]. apply near_factor; [exact ST|lra|lra|exact N].
Qed.
Lemma near_step r e x y x' y' d : 0 < y -> 0 < y' -> u64 <= r <= 2 / 10 ^ 7 -> 0 <= e <= 50 -> Rabs d <= u64 ->
  near (e * r) x y -> near (123 / 10 * r) x' y' -> near ((e + 135 / 10) * r) (x * x' * (1 + d)) (y * y').
Proof.
  intros Y Y' R E D H H'. pose proof u64_small as US.
  assert (YY : 0 < y * y') by now apply Rmult_lt_0_compat.
  assert (A : near ((e + 1231 / 100) * r) (x * x') (y * y')).
  { apply (near_weaken (e * r + 123 / 10 * r + e * r * (123 / 10 * r))); [lra|nra|]. apply near_mul; auto; nra. }
  assert (B : 0 <= (e + 1231 / 100) * r <= 1 / 10 ^ 4) by (split; nra).
  apply (near_weaken ((e + 1231 / 100) * r + r + (e + 1231 / 100) * r * r)); [lra|nra|].
  apply near_factor; [exact YY|lra|lra|exact A].
Qed.
Lemma heron_ok (a b c : f64) (x y z K : R) : finite a -> finite b -> finite c ->
  near (4 * u64) (val a) x -> near (4 * u64) (val b) y -> near (4 * u64) (val c) z ->
  9 / 10 ^ 4 <= x <= pow2 102 -> 9 / 10 ^ 4 <= y <= pow2 102 -> 9 / 10 ^ 4 <= z <= pow2 102 ->
  1 <= K <= 2 ^ 30 -> x + y + z <= K * (y + z - x) -> x + y + z <= K * (z + x - y) -> x + y + z <= K * (x + y - z) ->
  finite (heron a b c) /\ near (26 * (u64 * K)) (val (heron a b c)) (TriangleModel.heron x y z).
Proof.
  intros Fa Fb Fc Na Nb Nc Bx By Bz BK KA KB KC. pose proof u64_small as US.
  assert (UK : u64 * K <= 2 / 10 ^ 7) by nra. assert (UK0 : u64 <= u64 * K) by nra.
  set (P := z + y + x). set (s := P / 2).
  assert (P102 : 16 * pow2 102 = pow2 106) by (unfold pow2; change 16 with (bpow radix2 4); now rewrite <- bpow_plus).
  assert (P106 : pow2 106 * pow2 106 = pow2 212) by (unfold pow2; now rewrite <- bpow_plus).
  assert (P424 : pow2 212 * pow2 212 = pow2 424) by (unfold pow2; now rewrite <- bpow_plus).
  assert (PB : pow2 424 <= pow2 1023) by (apply bpow_le; lia). assert (PB2 : pow2 106 <= pow2 424) by (apply bpow_le; lia).
  assert (P0 : 1 <= pow2 106) by (change 1 with (bpow radix2 0); apply bpow_le; lia).
  assert (small : pow2 (-1022) <= 1 / 10 ^ 50).
  { apply (Rle_trans _ (pow2 (-200))); [apply bpow_le; lia|]. rewrite pow2_IZR by lia.
    match goal with |- context [IZR (2 ^ ?k)] => let v := eval vm_compute in (2 ^ k)%Z in change (2 ^ k)%Z with v end. lra. }
  assert (POS : forall e v w, near e v w -> 0 < w -> e <= 1 / 10 ^ 5 -> 99 / 100 * w <= v <= 101 / 100 * w).
  { intros e v w N W E. apply near_iff in N. assert (e * w <= 1 / 10 ^ 5 * w) by (apply Rmult_le_compat_r; lra). lra. }
  assert (small4 : 4 * u64 <= 1 / 10 ^ 5) by lra.
  pose proof (POS _ _ _ Na ltac:(lra) small4) as Pa. pose proof (POS _ _ _ Nb ltac:(lra) small4) as Pb. pose proof (POS _ _ _ Nc ltac:(lra) small4) as Pc.
  unfold heron. cbv zeta.
  (* the perimeter *)
  destruct (fadd_ok c b Fc Fb) as (F1 & d1 & D1 & V1). { rewrite Rabs_pos_eq by lra. lra. }
  assert (N1 : near (51 / 10 * u64) (val (fadd c b)) (z + y)).
  { rewrite V1. eapply near_weaken; [lra| |apply (near_factor (4 * u64) u64); [lra|lra|exact D1|apply near_add; assumption]]. nra. }
  pose proof (POS _ _ _ N1 ltac:(lra) ltac:(lra)) as B1.
  destruct (fadd_ok (fadd c b) a F1 Fa) as (F2 & d2 & D2 & V2). { rewrite Rabs_pos_eq by lra. lra. }
  set (p := fadd (fadd c b) a) in *.
  assert (N2 : near (62 / 10 * u64) (val p) P).
  { rewrite V2. unfold P. eapply near_weaken; [lra| |apply (near_factor (51 / 10 * u64) u64); [lra|lra|exact D2|apply near_add; [exact N1|]]]; [nra|].
    eapply near_weaken; [| |exact Na]; lra. }
  assert (PP : 0 < P) by (unfold P; lra).
  pose proof (POS _ _ _ N2 PP ltac:(lra)) as B2.
  (* its half *)
  destruct f_two_val as (Ft & Vt).
  destruct (fdiv_normal p f_two F2 Ft) as (F3 & d3 & D3 & V3).
  { rewrite Vt. lra. }
  { rewrite Vt, Rabs_pos_eq by lra. unfold P in *. lra. }
  rewrite Vt in V3. set (h := fdiv p f_two) in *.
  assert (N3 : near (725 / 100 * u64) (val h) s).
  { rewrite V3. eapply near_weaken; [unfold s; lra| |apply (near_factor (62 / 10 * u64) u64); [unfold s; lra|lra|exact D3|]].
    - nra.
    - apply near_iff in N2. apply near_iff. unfold s. lra. }
  pose proof (POS _ _ _ N3 ltac:(unfold s; lra) ltac:(lra)) as B3.
  (* the three differences *)
  assert (DIFF : forall f t, finite f -> near (4 * u64) (val f) t -> 9 / 10 ^ 4 <= t <= pow2 102 -> P <= K * (P - 2 * t) ->
    finite (fsub h f) /\ near (123 / 10 * (u64 * K)) (val (fsub h f)) (s - t) /\ 1 / 10 ^ 13 <= s - t <= pow2 106).
  { intros f t Ff Nf Bt KT. pose proof (POS _ _ _ Nf ltac:(lra) small4) as Bf.
    assert (ST : 1 / 10 ^ 13 <= s - t).
    { assert (BP : 27 / 10 ^ 4 <= P) by (unfold P; lra). unfold s. clearbody P. clear - BP KT BK.
      assert (0 < P - 2 * t). { apply Rnot_le_lt. intros G. assert (K * (P - 2 * t) <= 0) by nra. lra. }
      assert (K * (P - 2 * t) <= 2 ^ 30 * (P - 2 * t)) by (apply Rmult_le_compat_r; lra). lra. }
    destruct (fsub_ok h f F3 Ff) as (F4 & d4 & D4 & V4). { unfold s, P in *. apply Rabs_le. lra. }
    split; [exact F4|]. split; [|unfold s, P in *; lra].
    rewrite V4. apply (near_difference s t); auto; unfold s in *; lra. }
  destruct (DIFF a x Fa Na Bx ltac:(unfold P; lra)) as (Fha & Nha & Bha).
  destruct (DIFF b y Fb Nb By ltac:(unfold P; lra)) as (Fhb & Nhb & Bhb).
  destruct (DIFF c z Fc Nc Bz ltac:(unfold P; lra)) as (Fhc & Nhc & Bhc).
  assert (UR : u64 <= u64 * K <= 2 / 10 ^ 7) by lra.
  set (r := u64 * K) in *.
  assert (Np : near (62 / 10 * r) (val p) P) by (eapply near_weaken; [|  |exact N2]; lra).
  pose proof (POS _ _ _ Nha ltac:(lra) ltac:(lra)) as Pha. pose proof (POS _ _ _ Nhb ltac:(lra) ltac:(lra)) as Phb. pose proof (POS _ _ _ Nhc ltac:(lra) ltac:(lra)) as Phc.
  assert (BP : 27 / 10 ^ 4 <= P <= pow2 106) by (unfold P; lra).
  (* the products *)
  assert (PR : forall f g v w e, finite f -> finite g -> near (e * r) (val f) v -> near (123 / 10 * r) (val g) w -> 0 <= e <= 50 ->
    1 / 10 ^ 30 <= v <= pow2 212 * pow2 106 -> 1 / 10 ^ 13 <= w <= pow2 106 ->
    99 / 100 * w <= val g <= 101 / 100 * w -> 99 / 100 * v <= val f <= 101 / 100 * v ->
    finite (fmul f g) /\ near ((e + 135 / 10) * r) (val (fmul f g)) (v * w)).
  { intros f g v w e Ff Fg Nf Ng E Bv Bw Pg Pf.
    assert (VW : 1 / 10 ^ 49 <= v * w <= pow2 424).
    { split.
      - apply (Rle_trans _ (1 / 10 ^ 30 * (1 / 10 ^ 13))); [lra|]. apply Rmult_le_compat; lra.
      - apply (Rle_trans _ (pow2 212 * pow2 106 * pow2 106)); [apply Rmult_le_compat; lra|]. rewrite Rmult_assoc, P106, P424. lra. }
    assert (FG : 1 / 10 ^ 50 <= val f * val g <= pow2 1023).
    { assert (99 / 100 * v * (99 / 100 * w) <= val f * val g) by (apply Rmult_le_compat; lra).
      assert (val f * val g <= 101 / 100 * v * (101 / 100 * w)) by (apply Rmult_le_compat; lra).
      assert (2 * pow2 424 = pow2 425) by (unfold pow2; change 2 with (bpow radix2 1); now rewrite <- bpow_plus).
      assert (pow2 425 <= pow2 1023) by (apply bpow_le; lia). split; lra. }
    destruct (fmul_normal f g Ff Fg) as (Fm & d & D & V). { rewrite Rabs_pos_eq by lra. lra. }
    split; [exact Fm|]. rewrite V. apply near_step; auto; lra. }
  assert (RR : r * r <= 2 / 10 ^ 7 * r) by (apply Rmult_le_compat_r; lra).
  assert (Q212 : 1 <= pow2 212) by (change 1 with (bpow radix2 0); apply bpow_le; lia).
  assert (POS50 : forall e v w, near (e * r) v w -> 0 < w -> 0 <= e <= 50 -> 99 / 100 * w <= v <= 101 / 100 * w).
  { intros e v w N W E. apply (POS _ _ _ N W). apply (Rle_trans _ (50 * (2 / 10 ^ 7))); [apply Rmult_le_compat; lra|lra]. }
  set (A := s - x) in *. set (B := s - y) in *. set (C := s - z) in *.
  destruct (PR p (fsub h a) P A (62 / 10) F2 Fha Np Nha) as (F5 & N5); [lra| |lra|lra|lra|].
  { split; [lra|]. apply (Rle_trans _ (1 * pow2 106)); [lra|]. apply Rmult_le_compat_r; lra. }
  assert (B5 : 1 / 10 ^ 16 <= P * A <= pow2 212).
  { split; [apply (Rle_trans _ (27 / 10 ^ 4 * (1 / 10 ^ 13))); [lra|]; apply Rmult_le_compat; lra|]. rewrite <- P106. apply Rmult_le_compat; lra. }
  destruct (PR (fmul p (fsub h a)) (fsub h b) (P * A) B (62 / 10 + 135 / 10) F5 Fhb N5 Nhb) as (F6 & N6); [lra| |lra|lra| |].
  { split; [lra|]. apply (Rle_trans _ (pow2 212 * 1)); [lra|]. apply Rmult_le_compat_l; lra. }
  { apply (POS50 _ _ _ N5); lra. }
  assert (B6 : 1 / 10 ^ 30 <= P * A * B <= pow2 212 * pow2 106).
  { split; [apply (Rle_trans _ (1 / 10 ^ 16 * (1 / 10 ^ 13))); [lra|]; apply Rmult_le_compat; lra|]. apply Rmult_le_compat; lra. }
  destruct (PR (fmul (fmul p (fsub h a)) (fsub h b)) (fsub h c) (P * A * B) C (62 / 10 + 135 / 10 + 135 / 10) F6 Fhc N6 Nhc) as (F7 & N7); [lra|lra|lra|lra| |].
  { apply (POS50 _ _ _ N6); lra. }
  set (m := fmul (fmul (fmul p (fsub h a)) (fsub h b)) (fsub h c)) in *. set (M := P * A * B * C) in *.
  assert (B7 : 1 / 10 ^ 44 <= M <= pow2 424).
  { unfold M. split; [apply (Rle_trans _ (1 / 10 ^ 30 * (1 / 10 ^ 13))); [lra|]; apply Rmult_le_compat; lra|].
    apply (Rle_trans _ (pow2 212 * pow2 106 * pow2 106)); [apply Rmult_le_compat; lra|]. rewrite Rmult_assoc, P106, P424. lra. }
  pose proof (POS50 _ _ _ N7 ltac:(lra) ltac:(lra)) as Bm.
  assert (M425 : 2 * pow2 424 <= pow2 1023).
  { replace (2 * pow2 424) with (pow2 425) by (unfold pow2; change 2 with (bpow radix2 1); now rewrite <- bpow_plus). apply bpow_le; lia. }
  destruct (fdiv_normal m f_two F7 Ft) as (F8 & d8 & D8 & V8).
  { rewrite Vt. lra. }
  { rewrite Vt, Rabs_pos_eq by lra. lra. }
  rewrite Vt in V8.
  assert (N8 : near (48 * r) (val (fdiv m f_two)) (M / 2)).
  { rewrite V8. set (k := 62 / 10 + 135 / 10 + 135 / 10 + 135 / 10) in *. apply (near_weaken (k * r + r + k * r * r)); [lra|unfold k; lra|].
    apply near_factor; [lra|unfold k; lra|lra|]. apply near_iff in N7. apply near_iff. lra. }
  pose proof (POS50 _ _ _ N8 ltac:(lra) ltac:(lra)) as B8.
  destruct (fsqrt_normal (fdiv m f_two) F8) as (F9 & d9 & D9 & V9). { lra. }
  split; [exact F9|]. rewrite V9.
  assert (HE : TriangleModel.heron x y z = sqrt (M / 2)).
  { unfold TriangleModel.heron. f_equal. }
  rewrite HE.
  assert (N9 : near (241 / 10 * r) (sqrt (val (fdiv m f_two))) (sqrt (M / 2))).
  { apply (near_weaken (501 / 1000 * (48 * r))); [apply sqrt_pos|lra|]. apply near_sqrt; [lra|lra|exact N8]. }
  assert (S0 : 0 < sqrt (M / 2)) by (apply sqrt_lt_R0; lra).
  apply (near_weaken (241 / 10 * r + r + 241 / 10 * r * r)); [lra|lra|]. apply near_factor; [exact S0|lra|lra|exact N9].
Qed.

Lemma ok_inj {A} (x y : A) : Ok x = Ok y -> x = y.
Proof. now intros [= ->]. Qed.
Lemma triangle_new_parts a b c t : triangle_new a b c = Ok t ->
  same_point a b = false /\ same_point a c = false /\ same_point b c = false /\
  exists n, normalize_plain (vec_cross (vec_sub b a) (vec_sub c b)) = Ok n /\ t = mkTriangle a b c (heron (distance a b) (distance b c) (distance c a)) n.
Proof.
  unfold triangle_new, in_line.
  generalize (flt (vec_length (vec_cross (vec_sub b a) (vec_sub c b))) f_1e_5) (normalize_plain (vec_cross (vec_sub b a) (vec_sub c b))) (heron (distance a b) (distance b c) (distance c a)) (same_point a b) (same_point a c) (same_point b c).
  intros g n h s1 s2 s3. destruct s1; [discriminate|]. destruct s2; [discriminate|]. destruct s3; [discriminate|]. cbn [orb andb bind].
  destruct g; [discriminate|]. destruct n as [n| |]; [|discriminate|discriminate]. cbn [bind]. intros T. apply ok_inj in T. repeat split; auto. exists n. split; [reflexivity|now symmetry].
Qed.
(** The area of an accepted triangle is right but for [K] times a few units in the last place, [K] saying how close to a line the corners are: the perimeter is at
    most [K] times what two sides are longer than the third ([K = 3] when all the sides are the same). *)
Theorem C105_area (a b c : vec) (t : triangle) (K : R) : finite3 a -> finite3 b -> finite3 c -> within3 (2 ^ 100) a -> within3 (2 ^ 100) b -> within3 (2 ^ 100) c ->
  triangle_new a b c = Ok t ->
  let x := exact_distance a b in let y := exact_distance b c in let z := exact_distance c a in
  1 <= K <= 2 ^ 30 -> x + y + z <= K * (y + z - x) -> x + y + z <= K * (z + x - y) -> x + y + z <= K * (x + y - z) ->
  finite (t_area t) /\ Rabs (val (t_area t) - exact_area a b c) <= 26 * K / 2 ^ 53 * exact_area a b c.
Proof.
  intros Fa Fb Fc Ba Bb Bc T x y z BK KA KB KC.
  assert (P100 : 2 ^ 100 = pow2 100) by (unfold pow2; rewrite bpow_powerRZ; cbn [powerRZ]; now change (Pos.to_nat 100) with 100%nat).
  rewrite P100 in Ba, Bb, Bc.
  destruct (triangle_new_parts _ _ _ _ T) as (Sab & Sac & Sbc & n & _ & ->). clear T. cbn [t_area].
  destruct (distance_ok a b Fa Fb Ba Bb (or_introl Sab)) as (F1 & N1 & B1).
  destruct (distance_ok b c Fb Fc Bb Bc (or_introl Sbc)) as (F2 & N2 & B2).
  destruct (distance_ok a c Fa Fc Ba Bc (or_introl Sac)) as (_ & _ & B3').
  rewrite exact_distance_sym in B3'. destruct (distance_ok c a Fc Fa Bc Ba (or_intror (proj1 B3'))) as (F3 & N3 & B3).
  destruct (heron_ok _ _ _ x y z K F1 F2 F3 N1 N2 N3 B1 B2 B3 BK KA KB KC) as (F4 & N4).
  split; [exact F4|]. unfold near in N4.
  assert (E : TriangleModel.heron x y z = exact_area a b c).
  { unfold exact_area. rewrite <- TriangleProofs.heron_area. reflexivity. }
  rewrite E in N4. eapply Rle_trans; [exact N4|]. right. unfold u64. field.
Qed.

(** *** Some numbers *)
Definition f_three : f64 := b64_of_bits 0x4008000000000000.
Definition f_four : f64 := b64_of_bits 0x4010000000000000.
Lemma f_one_is : finite f_one /\ val f_one = 1.
Proof.
  destruct (const_val f_one 4503599627370496 (-52)) as (F & V); [reflexivity|vm_compute; reflexivity|]. split; [exact F|]. rewrite V, pow2_IZR by lia.
  match goal with |- context [IZR (2 ^ ?k)] => let v := eval vm_compute in (2 ^ k)%Z in change (2 ^ k)%Z with v end. lra.
Qed.
Lemma f_three_is : finite f_three /\ val f_three = 3.
Proof.
  destruct (const_val f_three 6755399441055744 (-51)) as (F & V); [reflexivity|vm_compute; reflexivity|]. split; [exact F|]. rewrite V, pow2_IZR by lia.
  match goal with |- context [IZR (2 ^ ?k)] => let v := eval vm_compute in (2 ^ k)%Z in change (2 ^ k)%Z with v end. lra.
Qed.
Lemma f_four_is : finite f_four /\ val f_four = 4.
Proof.
  destruct (const_val f_four 4503599627370496 (-50)) as (F & V); [reflexivity|vm_compute; reflexivity|]. split; [exact F|]. rewrite V, pow2_IZR by lia.
  match goal with |- context [IZR (2 ^ ?k)] => let v := eval vm_compute in (2 ^ k)%Z in change (2 ^ k)%Z with v end. lra.
Qed.
Lemma f_zero_is : finite f_zero /\ val f_zero = 0.
Proof. split; reflexivity. Qed.


(** *** Which triangles are accepted, and their normals *)
Lemma f_1e_6_close : finite (fmul f_1e_3 f_1e_3) /\ 99999 / 10 ^ 11 <= val (fmul f_1e_3 f_1e_3) <= 100001 / 10 ^ 11.
Proof.
  destruct (const_val (fmul f_1e_3 f_1e_3) 4722366482869645 (-72)) as (F & V); [reflexivity|vm_compute; reflexivity|]. split; [exact F|]. rewrite V, pow2_IZR by lia.
  match goal with |- context [IZR (2 ^ ?k)] => let v := eval vm_compute in (2 ^ k)%Z in change (2 ^ k)%Z with v end. lra.
Qed.
Lemma f_1e_5_close : finite f_1e_5 /\ 99999 / 10 ^ 10 <= val f_1e_5 <= 100001 / 10 ^ 10.
Proof.
  destruct (const_val f_1e_5 5902958103587057 (-69)) as (F & V); [reflexivity|vm_compute; reflexivity|]. split; [exact F|]. rewrite V, pow2_IZR by lia.
  match goal with |- context [IZR (2 ^ ?k)] => let v := eval vm_compute in (2 ^ k)%Z in change (2 ^ k)%Z with v end. lra.
Qed.
(** A rounded difference *)
Definition about (f : f64) (x : R) : Prop := finite f /\ exists d, Rabs d <= u64 /\ val f = x * (1 + d).
Lemma sub_about a b : finite a -> finite b -> Rabs (val a) <= pow2 100 -> Rabs (val b) <= pow2 100 -> about (fsub a b) (val a - val b) /\ Rabs (val a - val b) <= pow2 101.
Proof.
  intros Fa Fb Ba Bb. apply in_abs_of in Ba, Bb.
  assert (P101 : 2 * pow2 100 = pow2 101) by (unfold pow2; change 2 with (bpow radix2 1); now rewrite <- bpow_plus).
  assert (PB : pow2 101 <= pow2 1023) by (apply bpow_le; lia).
  assert (B : Rabs (val a - val b) <= pow2 101) by (apply Rabs_le; lra). split; [|exact B]. apply fsub_ok; [exact Fa|exact Fb|lra].
Qed.
(** A rounded two by two determinant *)
Lemma det_ok p q r s P Q R S : about p P -> about q Q -> about r R -> about s S -> Rabs P <= pow2 101 -> Rabs Q <= pow2 101 -> Rabs R <= pow2 101 -> Rabs S <= pow2 101 ->
  finite (fsub (fmul p q) (fmul r s)) /\ Rabs (val (fsub (fmul p q) (fmul r s)) - (P * Q - R * S)) <= 401 / 100 * u64 * (Rabs (P * Q) + Rabs (R * S)) + 3 * tiny64.
Proof.
  intros (Fp & dp & Dp & Vp) (Fq & dq & Dq & Vq) (Fr & dr & Dr & Vr) (Fs & ds & Ds & Vs) BP BQ BR BS.
  pose proof u64_small as US. pose proof tiny64_small as TS. pose proof tiny64_pos as TP.
  assert (P204 : 4 * (pow2 101 * pow2 101) = pow2 204) by (unfold pow2; change 4 with (bpow radix2 2); now rewrite <- !bpow_plus).
  assert (PB : 4 * pow2 204 <= pow2 1023).
  { replace (4 * pow2 204) with (pow2 206) by (unfold pow2; change 4 with (bpow radix2 2); now rewrite <- bpow_plus). apply bpow_le; lia. }
  assert (P0 : 1 <= pow2 204) by (change 1 with (bpow radix2 0); apply bpow_le; lia).
  assert (PROD : forall f g F G d e, finite f -> finite g -> Rabs d <= u64 -> Rabs e <= u64 -> val f = F * (1 + d) -> val g = G * (1 + e) -> Rabs F <= pow2 101 -> Rabs G <= pow2 101 ->
    finite (fmul f g) /\ Rabs (val (fmul f g) - F * G) <= 3001 / 1000 * u64 * Rabs (F * G) + tiny64 /\ Rabs (F * G) <= pow2 204).
  { intros f g F G d e Ff Fg D E Vf Vg BF BG.
    pose proof (abs_prod _ _ _ _ BF BG) as BFG.
    assert (B : Rabs (val f * val g) <= pow2 204).
    { rewrite Vf, Vg. replace (F * (1 + d) * (G * (1 + e))) with (F * G * ((1 + d) * (1 + e))) by ring. rewrite <- P204, (Rmult_comm 4). apply abs_prod; [exact BFG|].
      replace 4 with (2 * 2) by ring. apply in_abs_of in D, E. apply abs_prod; apply Rabs_le; lra. }
    destruct (fmul_ok f g Ff Fg) as (FF & h & t & H & T & V); [lra|]. split; [exact FF|].
    split; [|lra]. rewrite V, Vf, Vg.
    replace (F * (1 + d) * (G * (1 + e)) * (1 + h) + t - F * G) with (F * G * ((1 + d) * (1 + e) * (1 + h) - 1) + t) by ring.
    eapply Rle_trans; [apply Rabs_triang|]. apply Rplus_le_compat; [|exact T]. rewrite Rabs_mult, Rmult_comm. apply Rmult_le_compat_r; [apply Rabs_pos|].
    apply in_abs_of in D, E, H. clear - D E H US.
    assert (X : 1 - 2 * u64 <= (1 + d) * (1 + e) <= 1 + 20001 / 10000 * u64) by (split; nra). set (x := (1 + d) * (1 + e)) in *. clearbody x. apply Rabs_le. split; nra. }
  destruct (PROD p q P Q dp dq Fp Fq Dp Dq Vp Vq BP BQ) as (F1 & E1 & B1). destruct (PROD r s R S dr ds Fr Fs Dr Ds Vr Vs BR BS) as (F2 & E2 & B2).
  set (x := val (fmul p q)) in *. set (y := val (fmul r s)) in *. set (X := P * Q) in *. set (Y := R * S) in *.
  pose proof (Rabs_pos X) as X0. pose proof (Rabs_pos Y) as Y0.
  assert (AX : Rabs x <= Rabs X + (3001 / 1000 * u64 * Rabs X + tiny64)).
  { replace x with (X + (x - X)) by ring. eapply Rle_trans; [apply Rabs_triang|]. lra. }
  assert (AY : Rabs y <= Rabs Y + (3001 / 1000 * u64 * Rabs Y + tiny64)).
  { replace y with (Y + (y - Y)) by ring. eapply Rle_trans; [apply Rabs_triang|]. lra. }
  assert (UX : u64 * Rabs X <= 1 / 10 ^ 10 * Rabs X) by (apply Rmult_le_compat_r; lra). assert (UY : u64 * Rabs Y <= 1 / 10 ^ 10 * Rabs Y) by (apply Rmult_le_compat_r; lra).
  assert (AXY : Rabs (x - y) <= Rabs x + Rabs y) by (unfold Rminus; eapply Rle_trans; [apply Rabs_triang|]; rewrite Rabs_Ropp; lra).
  destruct (fsub_ok (fmul p q) (fmul r s) F1 F2) as (F3 & d & D & V). { fold x y. lra. }
  fold x y in V. split; [exact F3|]. rewrite V.
  replace ((x - y) * (1 + d) - (X - Y)) with ((x - X) + (- (y - Y)) + (x - y) * d) by ring.
  eapply Rle_trans; [apply Rabs_triang|]. assert (T1 : Rabs (x - X + - (y - Y)) <= Rabs (x - X) + Rabs (y - Y)) by (eapply Rle_trans; [apply Rabs_triang|]; rewrite Rabs_Ropp; lra).
  assert (T2 : Rabs ((x - y) * d) <= (Rabs x + Rabs y) * u64) by (apply abs_prod; lra).
  assert (T3 : (Rabs x + Rabs y) * u64 <= u64 * (1001 / 1000 * (Rabs X + Rabs Y)) + 2 * tiny64 * u64).
  { rewrite (Rmult_comm _ u64). replace (u64 * (1001 / 1000 * (Rabs X + Rabs Y)) + 2 * tiny64 * u64) with (u64 * (1001 / 1000 * (Rabs X + Rabs Y) + 2 * tiny64)) by ring. apply Rmult_le_compat_l; lra. }
  assert (T4 : 2 * tiny64 * u64 <= tiny64) by nra.
  assert (T5 : 0 <= u64 * Rabs X) by (apply Rmult_le_pos; lra). assert (T6 : 0 <= u64 * Rabs Y) by (apply Rmult_le_pos; lra). lra.
Qed.
Lemma cs2 a b c d : Rabs (a * d) + Rabs (b * c) <= sqrt ((a * a + b * b) * (c * c + d * d)).
Proof.
  rewrite <- (sqrt_square (Rabs (a * d) + Rabs (b * c))) by (pose proof (Rabs_pos (a * d)); pose proof (Rabs_pos (b * c)); lra).
  apply sqrt_le_1_alt. rewrite !Rabs_mult.
  assert (Q : forall x, Rabs x * Rabs x = x * x) by (intros x; rewrite <- Rabs_mult; apply Rabs_pos_eq; nra).
  rewrite <- (Q a), <- (Q b), <- (Q c), <- (Q d). set (A := Rabs a). set (B := Rabs b). set (C := Rabs c). set (D := Rabs d).
  pose proof (Rle_0_sqr (A * C - B * D)). unfold Rsqr in H. nra.
Qed.

(** The exact cross product of two sides *)
Definition exact_cross (a b c : vec) : Vec.V3 R := Vec.vcross (Vec.vsub (point b) (point a)) (Vec.vsub (point c) (point b)).
Lemma exact_cross_area a b c : Vec.vlen (exact_cross a b c) = 2 * exact_area a b c.
Proof.
  unfold exact_area, exact_cross. replace (Vec.vcross (Vec.vsub (point b) (point a)) (Vec.vsub (point c) (point b))) with (Vec.vcross (Vec.vsub (point b) (point a)) (Vec.vsub (point c) (point a))).
  - field.
  - apply Vec.V3_eq; cbn; ring.
Qed.
Lemma vlen2_sum (v : Vec.V3 R) : Vec.vlen2 v = Vec.vx v * Vec.vx v + Vec.vy v * Vec.vy v + Vec.vz v * Vec.vz v.
Proof. reflexivity. Qed.
(** The rounded cross product is within a few units of the product of the sides *)
Lemma cross_ok a b c : finite3 a -> finite3 b -> finite3 c -> within3 (pow2 100) a -> within3 (pow2 100) b -> within3 (pow2 100) c ->
  9 / 10 ^ 4 <= exact_distance a b -> 9 / 10 ^ 4 <= exact_distance b c ->
  let w := vec_cross (vec_sub b a) (vec_sub c b) in let W := exact_cross a b c in let Q := exact_distance a b * exact_distance b c in
  finite3 w /\ within3 (pow2 210) w /\
  Rabs (val (vec_x w) - Vec.vx W) <= 402 / 100 * u64 * Q /\ Rabs (val (vec_y w) - Vec.vy W) <= 402 / 100 * u64 * Q /\ Rabs (val (vec_z w) - Vec.vz W) <= 402 / 100 * u64 * Q.
Proof.
  intros (Fa1 & Fa2 & Fa3) (Fb1 & Fb2 & Fb3) (Fc1 & Fc2 & Fc3) (Ba1 & Ba2 & Ba3) (Bb1 & Bb2 & Bb3) (Bc1 & Bc2 & Bc3) X0 Y0. cbv zeta.
  rewrite (exact_distance_sym a b), (exact_distance_sym b c) in *.
  unfold exact_cross, vec_cross, vec_sub, exact_distance, point in *. cbn [vec_x vec_y vec_z Vec.vcross Vec.vsub Vec.vx Vec.vy Vec.vz] in *.
  destruct (sub_about _ _ Fb1 Fa1 Bb1 Ba1) as (A1 & L1). destruct (sub_about _ _ Fb2 Fa2 Bb2 Ba2) as (A2 & L2). destruct (sub_about _ _ Fb3 Fa3 Bb3 Ba3) as (A3 & L3).
  destruct (sub_about _ _ Fc1 Fb1 Bc1 Bb1) as (C1 & M1). destruct (sub_about _ _ Fc2 Fb2 Bc2 Bb2) as (C2 & M2). destruct (sub_about _ _ Fc3 Fb3 Bc3 Bb3) as (C3 & M3).
  unfold Vec.vsub in *. cbn [Vec.vx Vec.vy Vec.vz] in *.
  set (u1 := val (vec_x b) - val (vec_x a)) in *. set (u2 := val (vec_y b) - val (vec_y a)) in *. set (u3 := val (vec_z b) - val (vec_z a)) in *.
  set (v1 := val (vec_x c) - val (vec_x b)) in *. set (v2 := val (vec_y c) - val (vec_y b)) in *. set (v3 := val (vec_z c) - val (vec_z b)) in *.
  set (Q := Vec.vlen (Vec.mkV u1 u2 u3) * Vec.vlen (Vec.mkV v1 v2 v3)) in *.
  pose proof u64_small as US. pose proof tiny64_small as TS. pose proof tiny64_pos as TP.
  assert (Q0 : 81 / 10 ^ 8 <= Q) by (unfold Q; replace (81 / 10 ^ 8) with (9 / 10 ^ 4 * (9 / 10 ^ 4)) by lra; apply Rmult_le_compat; lra).
  assert (TQ : 3 * tiny64 <= 1 / 100 * u64 * Q).
  { assert (UL : 1 / 10 ^ 16 <= u64) by (unfold u64; lra). assert (1 / 10 ^ 16 * (81 / 10 ^ 8) <= u64 * Q) by (apply Rmult_le_compat; lra). lra. }
  assert (QE : Q = sqrt ((u1 * u1 + u2 * u2 + u3 * u3) * (v1 * v1 + v2 * v2 + v3 * v3))).
  { unfold Q, Vec.vlen, Vec.vlen2. cbn [Vec.vx Vec.vy Vec.vz]. rewrite sqrt_mult; [reflexivity| |]; repeat apply Rplus_le_le_0_compat; apply Rle_0_sqr. }
  assert (CS : forall p q r s, (p * p + q * q) * (r * r + s * s) <= (u1 * u1 + u2 * u2 + u3 * u3) * (v1 * v1 + v2 * v2 + v3 * v3) -> Rabs (p * s) + Rabs (q * r) <= Q).
  { intros p q r s H. rewrite QE. eapply Rle_trans; [apply cs2|]. now apply sqrt_le_1_alt. }
  assert (S1 : forall x : R, 0 <= x * x) by (intros; apply Rle_0_sqr).
  pose proof (S1 u1) as U1. pose proof (S1 u2) as U2. pose proof (S1 u3) as U3. pose proof (S1 v1) as W1. pose proof (S1 v2) as W2. pose proof (S1 v3) as W3.
  destruct (det_ok _ _ _ _ _ _ _ _ A2 C3 A3 C2 L2 M3 L3 M2) as (F1 & E1).
  destruct (det_ok _ _ _ _ _ _ _ _ A3 C1 A1 C3 L3 M1 L1 M3) as (F2 & E2).
  destruct (det_ok _ _ _ _ _ _ _ _ A1 C2 A2 C1 L1 M2 L2 M1) as (F3 & E3).
  assert (K1 : Rabs (u2 * v3) + Rabs (u3 * v2) <= Q) by (apply CS; apply Rmult_le_compat; lra).
  assert (K2 : Rabs (u3 * v1) + Rabs (u1 * v3) <= Q) by (apply CS; apply Rmult_le_compat; lra).
  assert (K3 : Rabs (u1 * v2) + Rabs (u2 * v1) <= Q) by (apply CS; apply Rmult_le_compat; lra).
  assert (ERR : forall k e, k <= Q -> e <= 401 / 100 * u64 * k + 3 * tiny64 -> e <= 402 / 100 * u64 * Q).
  { intros k e H H'. assert (u64 * k <= u64 * Q) by (apply Rmult_le_compat_l; lra). lra. }
  pose proof (ERR _ _ K1 E1) as G1. pose proof (ERR _ _ K2 E2) as G2. pose proof (ERR _ _ K3 E3) as G3.
  split; [split; [exact F1|split; [exact F2|exact F3]]|]. split; [|now repeat split].
  assert (PQ : forall x y : R, Rabs x <= pow2 101 -> Rabs y <= pow2 101 -> Rabs (x * y) <= pow2 202).
  { intros x y Hx Hy. replace (pow2 202) with (pow2 101 * pow2 101) by (unfold pow2; now rewrite <- bpow_plus). now apply abs_prod. }
  assert (P210 : 10 * pow2 202 <= pow2 210).
  { replace (pow2 210) with (256 * pow2 202) by (unfold pow2; change 256 with (bpow radix2 8); now rewrite <- bpow_plus). pose proof (bpow_gt_0 radix2 202). unfold pow2. lra. }
  assert (P0 : 1 <= pow2 202) by (change 1 with (bpow radix2 0); apply bpow_le; lia).
  assert (BIG : forall x X Y, Rabs (x - (X - Y)) <= 401 / 100 * u64 * (Rabs X + Rabs Y) + 3 * tiny64 -> Rabs X <= pow2 202 -> Rabs Y <= pow2 202 -> Rabs x <= pow2 210).
  { intros x X Y E HX HY. replace x with ((x - (X - Y)) + (X + - Y)) by ring. eapply Rle_trans; [apply Rabs_triang|].
    assert (Rabs (X + - Y) <= Rabs X + Rabs Y) by (eapply Rle_trans; [apply Rabs_triang|]; rewrite Rabs_Ropp; lra).
    assert (u64 * (Rabs X + Rabs Y) <= 1 * (Rabs X + Rabs Y)) by (apply Rmult_le_compat_r; [pose proof (Rabs_pos X); pose proof (Rabs_pos Y); lra|lra]).
    assert (401 / 100 * u64 * (Rabs X + Rabs Y) <= 1 * (Rabs X + Rabs Y)) by (apply Rmult_le_compat_r; [pose proof (Rabs_pos X); pose proof (Rabs_pos Y); lra|lra]). lra. }
  split; [|split]; eapply BIG; try eassumption; apply PQ; assumption.
Qed.
Lemma vlen2_pos (v : Vec.V3 R) : 0 <= Vec.vlen2 v.
Proof. unfold Vec.vlen2. repeat apply Rplus_le_le_0_compat; apply Rle_0_sqr. Qed.
Lemma vlen_triangle (a b : Vec.V3 R) : Vec.vlen (Vec.vadd a b) <= Vec.vlen a + Vec.vlen b.
Proof.
  pose proof (Vec.lagrange a b) as L. pose proof (vlen2_pos (Vec.vcross a b)) as P. pose proof (vlen2_pos a) as Pa. pose proof (vlen2_pos b) as Pb.
  unfold Vec.vlen. set (x := sqrt (Vec.vlen2 a)). set (y := sqrt (Vec.vlen2 b)).
  assert (X : x * x = Vec.vlen2 a) by now apply sqrt_sqrt. assert (Y : y * y = Vec.vlen2 b) by now apply sqrt_sqrt.
  assert (X0 : 0 <= x) by apply sqrt_pos. assert (Y0 : 0 <= y) by apply sqrt_pos.
  rewrite <- (sqrt_square (x + y)) by lra. apply sqrt_le_1_alt.
  replace (Vec.vlen2 (Vec.vadd a b)) with (Vec.vlen2 a + 2 * Vec.vdot a b + Vec.vlen2 b) by (unfold Vec.vlen2, Vec.vadd, Vec.vdot; cbn [Vec.vx Vec.vy Vec.vz]; ring).
  assert (D : Vec.vdot a b <= x * y).
  { apply Rnot_lt_le. intros G. assert (0 <= x * y) by now apply Rmult_le_pos. assert (x * y * (x * y) < Vec.vdot a b * Vec.vdot a b) by (apply Rmult_le_0_lt_compat; lra). nra. }
  nra.
Qed.
(** Components close to those of a vector give a length close to its length *)
Lemma len_close (w : vec) (W : Vec.V3 R) e : Rabs (val (vec_x w) - Vec.vx W) <= e -> Rabs (val (vec_y w) - Vec.vy W) <= e -> Rabs (val (vec_z w) - Vec.vz W) <= e ->
  Rabs (len w - Vec.vlen W) <= 174 / 100 * e.
Proof.
  intros X Y Z. assert (E0 : 0 <= e) by (pose proof (Rabs_pos (val (vec_x w) - Vec.vx W)); lra).
  set (D := Vec.vsub (point w) W).
  assert (DL : Vec.vlen D <= 174 / 100 * e).
  { unfold Vec.vlen. rewrite <- (sqrt_square (174 / 100 * e)) by lra. apply sqrt_le_1_alt. unfold D, Vec.vlen2, Vec.vsub, point. cbn [Vec.vx Vec.vy Vec.vz].
    apply square_within in X, Y, Z. nra. }
  change (len w) with (Vec.vlen (point w)).
  assert (T1 : Vec.vlen (point w) <= Vec.vlen W + Vec.vlen D).
  { replace (point w) with (Vec.vadd W D); [apply vlen_triangle|]. unfold D. apply Vec.V3_eq; cbn; ring. }
  assert (T2 : Vec.vlen W <= Vec.vlen (point w) + Vec.vlen D).
  { replace W with (Vec.vadd (point w) (Vec.vsub W (point w))) at 1 by (apply Vec.V3_eq; cbn; ring).
    replace (Vec.vlen D) with (Vec.vlen (Vec.vsub W (point w))); [apply vlen_triangle|]. unfold Vec.vlen. f_equal. unfold D, Vec.vlen2, Vec.vsub. cbn [Vec.vx Vec.vy Vec.vz]. ring. }
  apply Rabs_le. lra.
Qed.

(** The inverse of the length, rounded *)
Lemma length_ok w : finite3 w -> within3 (pow2 210) w -> 1 / 10 ^ 6 <= len w ->
  finite (length_squared w) /\ near (311 / 100 * u64) (val (length_squared w)) (len w * len w) /\
  finite (vec_length w) /\ near (26 / 10 * u64) (val (vec_length w)) (len w) /\ len w <= pow2 212.
Proof.
  intros F B L. pose proof u64_small as US. pose proof tiny64_small as TS. pose proof tiny64_pos as TP.
  assert (B5 : within3 (pow2 500) w).
  { assert (pow2 210 <= pow2 500) by (apply bpow_le; lia). destruct B as (Bx & By & Bz). split; [|split]; lra. }
  destruct (length_squared_ok w F B5) as (FL & EL).
  assert (SS : len w * len w = S3 w) by (apply sqrt_sqrt, S3_nonneg). rewrite <- SS in EL.
  assert (SL : 1 / 10 ^ 12 <= len w * len w) by (replace (1 / 10 ^ 12) with (1 / 10 ^ 6 * (1 / 10 ^ 6)) by lra; apply Rmult_le_compat; lra).
  assert (N : near (311 / 100 * u64) (val (length_squared w)) (len w * len w)).
  { unfold near. assert (UL : 1 / 10 ^ 16 <= u64) by (unfold u64; lra). assert (1 / 10 ^ 16 * (1 / 10 ^ 12) <= u64 * (len w * len w)) by (apply Rmult_le_compat; lra). lra. }
  assert (N' : near (1558111 / 1000000 * u64) (sqrt (val (length_squared w))) (sqrt (len w * len w))).
  { apply (near_weaken (501 / 1000 * (311 / 100 * u64))); [apply sqrt_pos|lra|]. apply near_sqrt; [lra|lra|exact N]. }
  rewrite sqrt_square in N' by lra.
  destruct (fsqrt_normal _ FL) as (FS & e & E & V).
  { apply near_iff in N. apply (Rle_trans _ (1 / 10 ^ 13)).
    - apply (Rle_trans _ (pow2 (-200))); [apply bpow_le; lia|]. rewrite pow2_IZR by lia.
      match goal with |- context [IZR (2 ^ ?k)] => let v := eval vm_compute in (2 ^ k)%Z in change (2 ^ k)%Z with v end. lra.
    - assert (u64 * (len w * len w) <= 1 / 100 * (len w * len w)) by (apply Rmult_le_compat_r; lra). lra. }
  split; [exact FL|]. split; [exact N|]. split; [exact FS|]. split.
  - unfold vec_length. rewrite V. apply (near_weaken (1558111 / 1000000 * u64 + u64 + 1558111 / 1000000 * u64 * u64)); [lra|nra|]. apply near_factor; [lra|lra|exact E|exact N'].
  - apply S3_within in B. apply Rsqr_incr_0_var; [|apply Rlt_le, bpow_gt_0]. unfold Rsqr. rewrite SS.
    replace (pow2 212 * pow2 212) with (16 * (pow2 210 * pow2 210)) by (unfold pow2; change 16 with (bpow radix2 4); now rewrite <- !bpow_plus).
    pose proof (bpow_gt_0 radix2 210). assert (0 < pow2 210 * pow2 210) by (apply Rmult_lt_0_compat; assumption). lra.
Qed.
Lemma inverse_length_ok w : finite3 w -> within3 (pow2 210) w -> 1 / 10 ^ 6 <= len w ->
  let q := fdiv f_one (fsqrt (length_squared w)) in finite q /\ Rabs (val q * len w - 1) <= 37 / 10 * u64.
Proof.
  intros F B L q. pose proof u64_small as US. destruct (length_ok w F B L) as (FL & NL & FS & NS & UL). unfold vec_length in FS, NS. destruct f_one_is as (F1 & V1).
  apply near_iff in NS. set (s := val (fsqrt (length_squared w))) in *. set (N := len w) in *.
  assert (UN : u64 * N <= 1 / 10 ^ 6 * N) by (apply Rmult_le_compat_r; lra).
  assert (S0 : 9 / 10 ^ 7 <= s) by lra.
  assert (I : / s <= / (9 / 10 ^ 7)) by (apply Rinv_le_contravar; lra).
  assert (P212 : 2 * pow2 212 = pow2 213) by (unfold pow2; change 2 with (bpow radix2 1); now rewrite <- bpow_plus).
  assert (I2 : pow2 (-213) <= / s).
  { replace (pow2 (-213)) with (/ pow2 213) by (unfold pow2; now rewrite <- bpow_opp). apply Rinv_le_contravar; lra. }
  destruct (fdiv_normal f_one (fsqrt (length_squared w)) F1 FS) as (Fq & d & D & V).
  { fold s. lra. }
  { fold s. rewrite V1. unfold Rdiv. rewrite Rmult_1_l, Rabs_pos_eq by (pose proof (bpow_gt_0 radix2 (-213)); unfold pow2 in *; lra). split.
    - apply (Rle_trans _ (pow2 (-213))); [apply bpow_le; lia|exact I2].
    - apply (Rle_trans _ (pow2 30)); [|apply bpow_le; lia]. change (pow2 30) with (IZR (2 ^ 30)). change (2 ^ 30)%Z with 1073741824%Z. lra. }
  split; [exact Fq|]. unfold q. rewrite V. fold s. rewrite V1.
  set (k := N / s). replace (1 / s * (1 + d) * N - 1) with (k * (1 + d) - 1) by (unfold k; field; lra).
  assert (KB : 1 - 26001 / 10000 * u64 <= k <= 1 + 26001 / 10000 * u64).
  { unfold k. split; apply Rmult_le_reg_r with s; try lra; replace (N / s * s) with N by (field; lra).
    - assert (u64 * u64 * N <= 1 / 10 ^ 10 * (u64 * N)) by (replace (u64 * u64 * N) with (u64 * (u64 * N)) by ring; apply Rmult_le_compat_r; [apply Rmult_le_pos; lra|lra]). nra.
    - assert (u64 * u64 * N <= 1 / 10 ^ 10 * (u64 * N)) by (replace (u64 * u64 * N) with (u64 * (u64 * N)) by ring; apply Rmult_le_compat_r; [apply Rmult_le_pos; lra|lra]). nra. }
  apply in_abs_of in D. clear - KB D US. apply Rabs_le. split; nra.
Qed.
(** Squares and their sums are not negative, rounded or not *)
Lemma round64_nonneg x : 0 <= x -> 0 <= round radix2 fexp64 (round_mode mode_NE) x.
Proof. intros H. change fexp64 with (FLT_exp (-1074) 53). apply round_ge_generic; [apply FLT_exp_valid; reflexivity|typeclasses eauto|apply generic_format_0|exact H]. Qed.
Lemma fmul_nonneg a : finite a -> Rabs (val a * val a) <= pow2 1023 -> 0 <= val (fmul a a).
Proof.
  intros Fa U. unfold fmul, b64_mult.
  pose proof (Bmult_correct 53 1024 m_prec64 m_prec64_lt binop_nan_pl64 mode_NE a a) as C.
  rewrite Rlt_bool_true in C by now apply round64_fits. destruct C as (V & _). unfold val at 1. match goal with |- 0 <= ?x => replace x with (round radix2 fexp64 (round_mode mode_NE) (val a * val a)) by (symmetry; exact V) end.
  apply round64_nonneg, Rle_0_sqr.
Qed.
Lemma fadd_nonneg a b : finite a -> finite b -> Rabs (val a + val b) <= pow2 1023 -> 0 <= val a -> 0 <= val b -> 0 <= val (fadd a b).
Proof.
  intros Fa Fb U A B. destruct (fadd_ok a b Fa Fb U) as (_ & d & D & V). rewrite V. pose proof u64_small. apply in_abs_of in D. apply Rmult_le_pos; lra.
Qed.
Lemma length_squared_nonneg v : finite3 v -> within3 (pow2 500) v -> 0 <= val (length_squared v).
Proof.
  intros (Fx & Fy & Fz) (Bx & By & Bz). unfold length_squared. pose proof u64_small as US. pose proof tiny64_small as TS. pose proof tiny64_pos as TP.
  assert (P1000 : pow2 500 * pow2 500 = pow2 1000) by (unfold pow2; now rewrite <- bpow_plus).
  assert (PB : 1024 * pow2 1000 <= pow2 1023).
  { replace (1024 * pow2 1000) with (pow2 1010) by (unfold pow2; change 1024 with (bpow radix2 10); now rewrite <- bpow_plus). apply bpow_le; lia. }
  assert (P0 : 1 <= pow2 1000) by (change 1 with (bpow radix2 0); apply bpow_le; lia).
  assert (SQ : forall f, finite f -> Rabs (val f) <= pow2 500 -> finite (fmul f f) /\ 0 <= val (fmul f f) <= 3 * pow2 1000).
  { intros f Ff Bf. pose proof (abs_prod _ _ _ _ Bf Bf) as B. rewrite P1000 in B.
    destruct (fmul_ok f f Ff Ff) as (F & d & t & D & T & V); [lra|]. split; [exact F|]. split; [apply fmul_nonneg; [exact Ff|lra]|].
    rewrite V. apply in_abs_of in B, D, T. assert (val f * val f * (1 + d) <= pow2 1000 * 2) by (apply Rmult_le_compat; try lra; apply Rle_0_sqr). lra. }
  destruct (SQ _ Fx Bx) as (F1 & B1). destruct (SQ _ Fy By) as (F2 & B2). destruct (SQ _ Fz Bz) as (F3 & B3).
  destruct (fadd_ok _ _ F1 F2) as (F4 & d & D & V). { rewrite Rabs_pos_eq; lra. }
  apply in_abs_of in D.
  assert (B4 : 0 <= val (fadd (fmul (vec_x v) (vec_x v)) (fmul (vec_y v) (vec_y v))) <= 12 * pow2 1000).
  { rewrite V. split; [apply Rmult_le_pos; lra|]. apply (Rle_trans _ (6 * pow2 1000 * 2)); [apply Rmult_le_compat; lra|lra]. }
  apply fadd_nonneg; try assumption; try lra. rewrite Rabs_pos_eq; lra.
Qed.
Lemma fsqrt_small a : finite a -> 0 <= val a <= 9 / 10 ^ 11 -> finite (fsqrt a) /\ val (fsqrt a) <= 96 / 10 ^ 7.
Proof.
  intros Fa L. pose proof u64_small as US. pose proof tiny64_small as TS. unfold fsqrt, b64_sqrt.
  destruct (Bsqrt_correct 53 1024 m_prec64 m_prec64_lt unop_nan_pl64 mode_NE a) as (V & F & _).
  split.
  - etransitivity; [exact F|]. destruct a as [| | |s m e H]; auto. destruct s; auto. exfalso.
    rewrite val_finite in L. cbn [SpecFloat.cond_Zopp] in L. assert (IZR (- Z.pos m) < 0) by (apply IZR_lt; lia). pose proof (pow2_pos e). nra.
  - destruct (round64 (sqrt (val a))) as (d & t & D & T & E).
    unfold val at 1. match goal with |- ?x <= _ => replace x with (sqrt (val a) * (1 + d) + t) by (symmetry; etransitivity; [exact V|exact E]) end.
    assert (S : sqrt (val a) <= 95 / 10 ^ 7). { rewrite <- (sqrt_square (95 / 10 ^ 7)) by lra. apply sqrt_le_1; lra. }
    apply in_abs_of in D, T. pose proof (sqrt_pos (val a)). assert (sqrt (val a) * (1 + d) <= 95 / 10 ^ 7 * (1 + 1 / 10 ^ 10)) by (apply Rmult_le_compat; lra). lra.
Qed.
(** When two points are told apart *)
Lemma same_point_ok a b : finite3 a -> finite3 b -> within3 (pow2 100) a -> within3 (pow2 100) b ->
  if same_point a b then exact_distance a b <= 1001 / 10 ^ 6 else 999 / 10 ^ 6 <= exact_distance a b.
Proof.
  intros (Fa1 & Fa2 & Fa3) (Fb1 & Fb2 & Fb3) (Ba1 & Ba2 & Ba3) (Bb1 & Bb2 & Bb3).
  destruct (sub_about _ _ Fa1 Fb1 Ba1 Bb1) as ((F1 & e1 & E1 & V1) & L1). destruct (sub_about _ _ Fa2 Fb2 Ba2 Bb2) as ((F2 & e2 & E2 & V2) & L2). destruct (sub_about _ _ Fa3 Fb3 Ba3 Bb3) as ((F3 & e3 & E3 & V3) & L3).
  pose proof u64_small as US. pose proof tiny64_small as TS. pose proof tiny64_pos as TP.
  set (d := vec_sub a b).
  assert (FD : finite3 d) by (split; [exact F1|split; [exact F2|exact F3]]).
  assert (PB : 2 * pow2 101 <= pow2 500).
  { replace (2 * pow2 101) with (pow2 102) by (unfold pow2; change 2 with (bpow radix2 1); now rewrite <- bpow_plus). apply bpow_le; lia. }
  assert (WB : forall x e, Rabs x <= pow2 101 -> Rabs e <= u64 -> Rabs (x * (1 + e)) <= pow2 500).
  { intros x e X E. assert (Rabs (1 + e) <= 2) by (apply in_abs_of in E; apply Rabs_le; lra). pose proof (abs_prod _ _ _ _ X H). lra. }
  assert (WD : within3 (pow2 500) d).
  { split; [|split]; cbn [d vec_sub vec_x vec_y vec_z]; [rewrite V1|rewrite V2|rewrite V3]; apply WB; assumption. }
  destruct (length_squared_ok d FD WD) as (FL & EL).
  set (S := exact_distance a b * exact_distance a b).
  assert (SV : S = (val (vec_x a) - val (vec_x b)) * (val (vec_x a) - val (vec_x b)) + (val (vec_y a) - val (vec_y b)) * (val (vec_y a) - val (vec_y b)) + (val (vec_z a) - val (vec_z b)) * (val (vec_z a) - val (vec_z b))).
  { unfold S, exact_distance, Vec.vlen. rewrite sqrt_sqrt by apply vlen2_pos. reflexivity. }
  assert (SD : near (21 / 10 * u64) (S3 d) S).
  { apply near_iff. unfold S3. cbn [d vec_sub vec_x vec_y vec_z]. rewrite V1, V2, V3, SV.
    assert (Q : forall x e, Rabs e <= u64 -> x * x - 21 / 10 * u64 * (x * x) <= x * (1 + e) * (x * (1 + e)) <= x * x + 21 / 10 * u64 * (x * x)).
    { intros x e E. apply in_abs_of in E. replace (x * (1 + e) * (x * (1 + e))) with (x * x + (2 * e + e * e) * (x * x)) by ring.
      assert (- (21 / 10 * u64) <= 2 * e + e * e <= 21 / 10 * u64) by (clear - E US; split; nra). assert (0 <= x * x) by nra. clear - H H0. split; nra. }
    pose proof (Q (val (vec_x a) - val (vec_x b)) e1 E1). pose proof (Q (val (vec_y a) - val (vec_y b)) e2 E2). pose proof (Q (val (vec_z a) - val (vec_z b)) e3 E3). lra. }
  apply in_abs_of in EL. apply near_iff in SD. pose proof (S3_nonneg d) as S3N. assert (SN : 0 <= S) by apply Rle_0_sqr.
  assert (U1 : 0 <= u64 * S3 d <= 1 / 10 ^ 6 * S3 d) by (split; [apply Rmult_le_pos; lra|apply Rmult_le_compat_r; lra]). assert (U2 : 0 <= u64 * S <= 1 / 10 ^ 6 * S) by (split; [apply Rmult_le_pos; lra|apply Rmult_le_compat_r; lra]).
  destruct f_1e_6_close as (FC & VC). pose proof (exact_distance_nonneg a b) as DN.
  unfold same_point. fold d. destruct (fle (length_squared d) (fmul f_1e_3 f_1e_3)) eqn:G.
  - apply (fle_val _ _ FL FC) in G. assert (S <= 1001 / 10 ^ 6 * (1001 / 10 ^ 6)) by lra. unfold S in H. apply Rsqr_incr_0_var; [exact H|lra].
  - assert (G' : ~ val (length_squared d) <= val (fmul f_1e_3 f_1e_3)) by (intros X; apply (fle_val _ _ FL FC) in X; congruence).
    assert (999 / 10 ^ 6 * (999 / 10 ^ 6) <= S) by lra. unfold S in H. apply Rsqr_incr_0_var; [exact H|lra].
Qed.
Definition component (i : nat) (v : vec) : f64 := match i with 0%nat => vec_x v | 1%nat => vec_y v | _ => vec_z v end.
Definition coordinate (i : nat) (v : Vec.V3 R) : R := match i with 0%nat => Vec.vx v | 1%nat => Vec.vy v | _ => Vec.vz v end.

(** Triangles are accepted when their corners are a millimetre apart and their area is above [5e-6] square metres, but for the rounding errors, and never make
    the program stop. *)
Theorem C105_accepted (a b c : vec) : finite3 a -> finite3 b -> finite3 c -> within3 (2 ^ 100) a -> within3 (2 ^ 100) b -> within3 (2 ^ 100) c ->
  let x := exact_distance a b in let y := exact_distance b c in let z := exact_distance c a in
  match triangle_new a b c with
  | Ok t => t_a t = a /\ t_b t = b /\ t_c t = c /\ 999 / 10 ^ 6 <= x /\ 999 / 10 ^ 6 <= y /\ 999 / 10 ^ 6 <= z /\ 4999 / 10 ^ 9 <= exact_area a b c + 4 / 2 ^ 53 * (x * y)
  | Err => x <= 1001 / 10 ^ 6 \/ y <= 1001 / 10 ^ 6 \/ z <= 1001 / 10 ^ 6 \/ exact_area a b c <= 5001 / 10 ^ 9 + 4 / 2 ^ 53 * (x * y)
  | Panic => False
  end.
Proof.
  intros Fa Fb Fc Ba Bb Bc x y z.
  assert (P100 : 2 ^ 100 = pow2 100) by (unfold pow2; rewrite bpow_powerRZ; cbn [powerRZ]; now change (Pos.to_nat 100) with 100%nat).
  rewrite P100 in Ba, Bb, Bc.
  pose proof (same_point_ok a b Fa Fb Ba Bb) as Dx. pose proof (same_point_ok b c Fb Fc Bb Bc) as Dy. pose proof (same_point_ok a c Fa Fc Ba Bc) as Dz.
  rewrite (exact_distance_sym a c) in Dz. fold x in Dx. fold y in Dy. fold z in Dz.
  unfold triangle_new, in_line. destruct (same_point a b); [left; exact Dx|]. destruct (same_point a c); [right; right; left; exact Dz|]. destruct (same_point b c); [right; left; exact Dy|].
  cbn [orb andb bind].
  destruct (cross_ok a b c Fa Fb Fc Ba Bb Bc) as (Fw & Bw & X & Y & Z). { fold x. lra. } { fold y. lra. }
  fold x y in X, Y, Z. pose proof (len_close _ _ _ X Y Z) as L. rewrite exact_cross_area in L.
  set (w := vec_cross (vec_sub b a) (vec_sub c b)) in *. pose proof u64_small as US. pose proof tiny64_small as TS. pose proof tiny64_pos as TP.
  assert (XY : 0 <= x * y) by (apply Rmult_le_pos; lra). assert (UXY : 0 <= u64 * (x * y)) by (apply Rmult_le_pos; lra).
  assert (U53 : 4 / 2 ^ 53 * (x * y) = 4 * u64 * (x * y)) by (unfold u64; lra). rewrite U53.
  apply in_abs_of in L. destruct f_1e_5_close as (F5 & V5).
  destruct (Rle_dec (1 / 10 ^ 6) (len w)) as [G|G].
  - destruct (length_ok w Fw Bw G) as (FL & NL & FS & NS & UL). apply near_iff in NS, NL.
    assert (UN : 0 <= u64 * len w <= 1 / 10 ^ 6 * len w) by (split; [apply Rmult_le_pos; lra|apply Rmult_le_compat_r; lra]).
    destruct (flt (vec_length w) f_1e_5) eqn:H.
    + apply (flt_finite _ _ FS F5) in H. right. right. right. lra.
    + assert (H' : ~ val (vec_length w) < val f_1e_5) by (intros I; apply (flt_finite _ _ FS F5) in I; congruence).
      unfold normalize_plain. destruct f_1e_20_val as (F20 & V20).
      assert (FT : flt f_1e_20 (length_squared w) = true).
      { apply (flt_finite _ _ F20 FL). assert (99 / 10 ^ 7 * (99 / 10 ^ 7) <= len w * len w) by (apply Rmult_le_compat; lra).
        assert (u64 * (len w * len w) <= 1 / 10 ^ 6 * (len w * len w)) by (apply Rmult_le_compat_r; lra). lra. }
      cbv zeta. rewrite FT. cbn [negb bind]. cbn [t_a t_b t_c]. repeat split; try exact Dx; try exact Dy; try exact Dz. lra.
  - assert (B5 : within3 (pow2 500) w).
    { assert (pow2 210 <= pow2 500) by (apply bpow_le; lia). destruct Bw as (Bx & By & Bz). split; [|split]; lra. }
    destruct (length_squared_ok w Fw B5) as (FL & EL). pose proof (length_squared_nonneg w Fw B5) as LN.
    assert (SS : len w * len w = S3 w) by (apply sqrt_sqrt, S3_nonneg). assert (L0 : 0 <= len w) by apply sqrt_pos.
    assert (S3 w <= 1 / 10 ^ 6 * (1 / 10 ^ 6)) by (rewrite <- SS; apply Rmult_le_compat; lra). pose proof (S3_nonneg w).
    assert (u64 * S3 w <= 1 / 10 ^ 6 * S3 w) by (apply Rmult_le_compat_r; lra). apply in_abs_of in EL.
    destruct (fsqrt_small _ FL) as (FS & SS'). { lra. }
    assert (H' : flt (vec_length w) f_1e_5 = true) by (apply (flt_finite _ _ FS F5); unfold vec_length; lra).
    rewrite H'. right. right. right. lra.
Qed.

Lemma normal_component f V q N M Q r d s : 0 < N -> 0 < M -> u64 * Q <= r * M -> u64 <= r -> Rabs f <= N -> Rabs (q * N - 1) <= 37 / 10 * u64 ->
  Rabs (f - V) <= 402 / 100 * u64 * Q -> - (174 / 100 * (402 / 100 * u64 * Q)) <= N - M <= 174 / 100 * (402 / 100 * u64 * Q) -> Rabs d <= u64 -> Rabs s <= tiny64 ->
  Rabs (f * q * (1 + d) + s - V / M) <= 17 * r.
Proof.
  intros N0 M0 UQ UR BN Eq E L D S. pose proof u64_small as US. pose proof tiny64_small as TS.
  set (k := f / N). assert (FK : f = k * N) by (unfold k; field; lra).
  assert (KB : Rabs k <= 1). { unfold k, Rdiv. rewrite Rabs_mult, (Rabs_pos_eq (/ N)) by (apply Rlt_le, Rinv_0_lt_compat; lra). apply Rmult_le_reg_r with N; [lra|]. rewrite Rmult_assoc, Rinv_l, Rmult_1_r, Rmult_1_l by lra. exact BN. }
  replace (f * q * (1 + d) + s - V / M) with (k * ((q * N - 1) * (1 + d) + d) + s + (k * (M - N) + (f - V)) / M) by (rewrite FK; field; clear - M0; lra).
  eapply Rle_trans; [apply Rabs_triang|].
  assert (T1 : Rabs (k * ((q * N - 1) * (1 + d) + d) + s) <= 48 / 10 * u64).
  { eapply Rle_trans; [apply Rabs_triang|]. assert (Rabs (k * ((q * N - 1) * (1 + d) + d)) <= 1 * (471 / 100 * u64)).
    { apply abs_prod; [exact KB|]. apply in_abs_of in Eq, D. clear - Eq D US. set (e := q * N - 1) in *. clearbody e. apply Rabs_le. split; nra. }
    assert (tiny64 <= 1 / 100 * u64) by (assert (1 / 10 ^ 17 <= u64) by (unfold u64; lra); lra). lra. }
  assert (T2 : Rabs ((k * (M - N) + (f - V)) / M) <= 1102 / 100 * r).
  { unfold Rdiv. rewrite Rabs_mult, (Rabs_pos_eq (/ M)) by (apply Rlt_le, Rinv_0_lt_compat; lra). apply Rmult_le_reg_r with M; [lra|]. rewrite Rmult_assoc, Rinv_l, Rmult_1_r by lra.
    eapply Rle_trans; [apply Rabs_triang|]. assert (Rabs (k * (M - N)) <= 1 * (174 / 100 * (402 / 100 * u64 * Q))) by (apply abs_prod; [exact KB|apply Rabs_le; lra]). lra. }
  lra.
Qed.
Lemma normalize_plain_parts v n : normalize_plain v = Ok n -> let l := fdiv f_one (fsqrt (length_squared v)) in n = mkVec (fmul (vec_x v) l) (fmul (vec_y v) l) (fmul (vec_z v) l).
Proof.
  unfold normalize_plain. cbv zeta. generalize (flt f_1e_20 (length_squared v)) (fdiv f_one (fsqrt (length_squared v))). intros g l. destruct g; [|discriminate].
  cbn [negb]. intros T. apply ok_inj in T. now symmetry.
Qed.
(** The normal of an accepted triangle is right but for [K] times a few units in the last place, [K] being one over the sine of the angle at the second corner. *)
Theorem C105_normal (a b c : vec) (t : triangle) (K : R) : finite3 a -> finite3 b -> finite3 c -> within3 (2 ^ 100) a -> within3 (2 ^ 100) b -> within3 (2 ^ 100) c ->
  triangle_new a b c = Ok t -> 1 <= K <= 2 ^ 30 -> exact_distance a b * exact_distance b c <= K * (2 * exact_area a b c) ->
  finite3 (t_normal t) /\ forall i, (i < 3)%nat -> Rabs (val (component i (t_normal t)) - coordinate i (exact_cross a b c) / (2 * exact_area a b c)) <= 17 * K / 2 ^ 53.
Proof.
  intros Fa Fb Fc Ba Bb Bc T BK KA.
  pose proof (C105_accepted a b c Fa Fb Fc Ba Bb Bc) as AC. rewrite T in AC. destruct AC as (_ & _ & _ & Dx & Dy & Dz & AR).
  assert (P100 : 2 ^ 100 = pow2 100) by (unfold pow2; rewrite bpow_powerRZ; cbn [powerRZ]; now change (Pos.to_nat 100) with 100%nat).
  rewrite P100 in Ba, Bb, Bc.
  destruct (triangle_new_parts _ _ _ _ T) as (Sab & Sac & Sbc & n & NP & ->). clear T. cbn [t_normal].
  destruct (cross_ok a b c Fa Fb Fc Ba Bb Bc) as (Fw & Bw & X & Y & Z). { lra. } { lra. }
  set (w := vec_cross (vec_sub b a) (vec_sub c b)) in *. set (W := exact_cross a b c) in *. set (M := 2 * exact_area a b c) in *.
  pose proof (len_close _ _ _ X Y Z) as L. unfold W in L. rewrite exact_cross_area in L. fold M W in L.
  set (Q := exact_distance a b * exact_distance b c) in *.
  pose proof u64_small as US. pose proof tiny64_small as TS. pose proof tiny64_pos as TP.
  assert (QP : 0 < Q) by (unfold Q; apply Rmult_lt_0_compat; lra).
  assert (M0 : 0 < M). { apply Rnot_le_lt. intros G. assert (K * M <= 0) by nra. lra. }
  set (r := u64 * K). assert (R0 : u64 <= r <= 2 / 10 ^ 7).
  { unfold r. split; [assert (u64 * 1 <= u64 * K) by (apply Rmult_le_compat_l; lra); lra|]. apply (Rle_trans _ (12 / 100000000000000000 * 2 ^ 30)); [apply Rmult_le_compat; lra|lra]. }
  assert (UQ : u64 * Q <= r * M). { unfold r. rewrite Rmult_assoc. apply Rmult_le_compat_l; lra. }
  assert (RM : r * M <= 2 / 10 ^ 7 * M) by (apply Rmult_le_compat_r; lra).
  assert (LM : 9 / 10 ^ 6 <= M). { assert (4 / 2 ^ 53 * Q = 4 * (u64 * Q)) by (unfold u64; lra). unfold M in *. lra. }
  apply in_abs_of in L.
  assert (N1 : 1 / 10 ^ 6 <= len w) by lra.
  destruct (inverse_length_ok w Fw Bw N1) as (Fq & Eq). set (q := fdiv f_one (fsqrt (length_squared w))) in *.
  apply normalize_plain_parts in NP. fold q in NP. subst n. cbn [vec_x vec_y vec_z].
  set (N := len w) in *.
  assert (Eq' : Rabs (val q * N - 1) <= 50001 / 10000000000) by lra.
  assert (COMP : forall f V, finite f -> Rabs (val f) <= N -> Rabs (val f - V) <= 402 / 100 * u64 * Q -> finite (fmul f q) /\ Rabs (val (fmul f q) - V / M) <= 17 * r).
  { intros f V Ff BN E. destruct (component_ok f q N Ff Fq BN) as (F & d & s & D & S & VF); [lra|exact Eq'|]. split; [exact F|]. rewrite VF.
    apply (normal_component (val f) V (val q) N M Q r d s); try assumption; lra. }
  assert (SYM : forall x y z : R, sqrt (x * x + y * y + z * z) = sqrt (y * y + x * x + z * z) /\ sqrt (x * x + y * y + z * z) = sqrt (z * z + y * y + x * x)).
  { intros x y z. split; f_equal; ring. }
  destruct Fw as (Fx & Fy & Fz).
  assert (BX : Rabs (val (vec_x w)) <= N) by (unfold N, len, S3; apply component_within).
  assert (BY : Rabs (val (vec_y w)) <= N) by (unfold N, len, S3; rewrite (proj1 (SYM _ _ _)); apply component_within).
  assert (BZ : Rabs (val (vec_z w)) <= N) by (unfold N, len, S3; rewrite (proj2 (SYM _ _ _)); apply component_within).
  destruct (COMP _ _ Fx BX X) as (G1 & H1). destruct (COMP _ _ Fy BY Y) as (G2 & H2). destruct (COMP _ _ Fz BZ Z) as (G3 & H3).
  split; [split; [exact G1|split; [exact G2|exact G3]]|].
  assert (RE : 17 * K / 2 ^ 53 = 17 * r) by (unfold r, u64; field). rewrite RE.
  intros i I. destruct i as [|[|[|i]]]; [exact H1|exact H2|exact H3|lia].
Qed.

(** *** The circle around a triangle *)
Lemma near_range e r f v : 0 < v -> near (e * r) f v -> 0 <= e <= 50 -> 0 <= r <= 2 / 10 ^ 7 -> 99 / 100 * v <= f <= 101 / 100 * v.
Proof.
  intros V N E R. apply near_iff in N. assert (e * r <= 50 * (2 / 10 ^ 7)) by (apply Rmult_le_compat; lra). assert (e * r * v <= 1 / 10 ^ 5 * v) by (apply Rmult_le_compat_r; lra). lra.
Qed.
Lemma near_step2 r e e' x y x' y' d : 0 < y -> 0 < y' -> u64 <= r <= 2 / 10 ^ 7 -> 0 <= e <= 50 -> 0 <= e' <= 50 -> Rabs d <= u64 ->
  near (e * r) x y -> near (e' * r) x' y' -> near ((e + e' + 101 / 100) * r) (x * x' * (1 + d)) (y * y').
Proof.
  intros Y Y' R E E' D H H'. pose proof u64_small as US.
  assert (YY : 0 < y * y') by now apply Rmult_lt_0_compat.
  assert (ER : 0 <= e * r) by (apply Rmult_le_pos; lra). assert (ER' : 0 <= e' * r) by (apply Rmult_le_pos; lra).
  pose proof (near_mul _ _ _ _ _ _ Y Y' ER ER' H H') as M.
  assert (EE : e * r * (e' * r) <= 1 / 1000 * r).
  { assert (e * e' <= 2500) by (replace 2500 with (50 * 50) by ring; apply Rmult_le_compat; lra). assert (0 <= e * e') by (apply Rmult_le_pos; lra).
    replace (e * r * (e' * r)) with (e * e' * r * r) by ring. apply Rmult_le_compat_r; [lra|]. apply (Rle_trans _ (2500 * (2 / 10 ^ 7))); [apply Rmult_le_compat; lra|lra]. }
  set (g := e * r + e' * r + e * r * (e' * r)) in *. assert (G0 : 0 <= g) by (unfold g; pose proof (Rmult_le_pos _ _ ER ER'); lra).
  assert (G1 : g <= 1 / 1000).
  { assert (e * r <= 50 * (2 / 10 ^ 7)) by (apply Rmult_le_compat; lra). assert (e' * r <= 50 * (2 / 10 ^ 7)) by (apply Rmult_le_compat; lra). unfold g. lra. }
  apply (near_weaken (g + u64 + g * u64)); [lra| |apply near_factor; assumption].
  assert (g * u64 <= 1 / 1000 * r) by (apply Rmult_le_compat; lra). unfold g in *. lra.
Qed.
Lemma mul_step r e e' f g y y' : finite f -> finite g -> 0 < y -> 0 < y' -> u64 <= r <= 2 / 10 ^ 7 -> 0 <= e <= 50 -> 0 <= e' <= 50 ->
  near (e * r) (val f) y -> near (e' * r) (val g) y' -> 1 / 10 ^ 50 <= y * y' <= pow2 900 -> finite (fmul f g) /\ near ((e + e' + 101 / 100) * r) (val (fmul f g)) (y * y').
Proof.
  intros Ff Fg Y Y' R E E' H H' B. pose proof u64_small as US.
  assert (RA : 0 <= r <= 2 / 10 ^ 7) by lra.
  pose proof (near_range _ _ _ _ Y H E RA) as B1. pose proof (near_range _ _ _ _ Y' H' E' RA) as B2.
  assert (PB : 2 * pow2 900 <= pow2 1023).
  { replace (2 * pow2 900) with (pow2 901) by (unfold pow2; change 2 with (bpow radix2 1); now rewrite <- bpow_plus). apply bpow_le; lia. }
  assert (PS : pow2 (-1022) <= 1 / 10 ^ 51).
  { apply (Rle_trans _ (pow2 (-200))); [apply bpow_le; lia|]. rewrite pow2_IZR by lia.
    match goal with |- context [IZR (2 ^ ?k)] => let v := eval vm_compute in (2 ^ k)%Z in change (2 ^ k)%Z with v end. lra. }
  assert (L : 99 / 100 * y * (99 / 100 * y') <= val f * val g) by (apply Rmult_le_compat; lra).
  assert (U : val f * val g <= 101 / 100 * y * (101 / 100 * y')) by (apply Rmult_le_compat; lra).
  destruct (fmul_normal f g Ff Fg) as (F & d & D & V). { rewrite Rabs_pos_eq by lra. lra. }
  split; [exact F|]. rewrite V. now apply near_step2.
Qed.
Lemma inverse_near e x y : 0 < y -> 0 <= e <= 1 / 1000 -> near e x y -> near (1001 / 999 * e) (/ x) (/ y).
Proof.
  intros Y E N. apply near_iff in N. assert (EY : 0 <= e * y <= 1 / 1000 * y) by (split; [apply Rmult_le_pos; lra|apply Rmult_le_compat_r; lra]).
  assert (X : 0 < x) by lra. unfold near. replace (/ x - / y) with ((y - x) * (/ x * / y)) by (field; lra). rewrite Rabs_mult.
  assert (IY : 0 < / y) by now apply Rinv_0_lt_compat. assert (IX : 0 < / x) by now apply Rinv_0_lt_compat.
  rewrite (Rabs_pos_eq (/ x * / y)) by (apply Rmult_le_pos; lra). rewrite <- Rmult_assoc. apply Rmult_le_compat_r; [lra|].
  apply Rmult_le_reg_r with x; [lra|]. rewrite Rmult_assoc, Rinv_l, Rmult_1_r by lra.
  apply (Rle_trans _ (e * y)); [apply Rabs_le; lra|]. replace (e * y) with (1001 / 999 * e * (999 / 1001 * y)) by field. apply Rmult_le_compat_l; lra.
Qed.
Lemma difference_near r e e' x t s' t' P d : 0 <= t' -> u64 * P <= r * (t - t') -> t' < t -> u64 <= r <= 2 / 10 ^ 7 -> Rabs d <= u64 ->
  0 <= e <= 20 -> 0 <= e' <= e -> t + t' <= P -> near (e * u64) s' t -> near (e' * u64) x t' -> near ((e + 101 / 100) * r) ((s' - x) * (1 + d)) (t - t').
Proof.
  intros T' UP LT R D E E' TT N N'. pose proof u64_small as US. set (m := t - t') in *. assert (M0 : 0 < m) by (unfold m; lra).
  assert (H : near (e * r) (s' - x) m).
  { unfold near in *. replace (s' - x - m) with ((s' - t) - (x - t')) by (unfold m; ring). unfold Rminus at 1. eapply Rle_trans; [apply Rabs_triang|]. rewrite Rabs_Ropp.
    assert (e' * u64 * t' <= e * u64 * t') by (apply Rmult_le_compat_r; [lra|]; apply Rmult_le_compat_r; lra).
    assert (e * (u64 * (t + t')) <= e * (r * m)). { apply Rmult_le_compat_l; [lra|]. apply (Rle_trans _ (u64 * P)); [apply Rmult_le_compat_l; lra|lra]. } lra. }
  assert (E0 : 0 <= e * r <= 20 * (2 / 10 ^ 7)) by (split; [apply Rmult_le_pos; lra|apply Rmult_le_compat; lra]).
  apply (near_weaken (e * r + u64 + e * r * u64)); [lra| |apply near_factor; [exact M0|lra|exact D|exact H]].
  assert (e * r * u64 <= 1 / 1000 * r) by (apply Rmult_le_compat; lra). lra.
Qed.
Lemma heron_exact x y z : 0 <= x -> 0 <= y -> 0 <= z -> 0 <= y + z - x -> 0 <= z + x - y -> 0 <= x + y - z ->
  sqrt ((x + y + z) * (y + z - x) * (z + x - y) * (x + y - z)) = 4 * TriangleModel.heron x y z.
Proof.
  intros X Y Z A B C. unfold TriangleModel.heron. rewrite <- (sqrt_square 4) at 1 by lra. rewrite <- sqrt_mult.
  - f_equal. field.
  - lra.
  - match goal with |- 0 <= ?e => replace e with ((x + y + z) * (y + z - x) * (z + x - y) * (x + y - z) / 16) by field end.
    assert (0 <= (x + y + z) * (y + z - x) * (z + x - y) * (x + y - z)) by (repeat apply Rmult_le_pos; lra). lra.
Qed.
(** What is under the root, and the product of the sides *)
Definition radius_root (a b c : f64) : f64 := fmul (fmul (fmul (fadd (fadd a b) c) (fsub (fadd b c) a)) (fsub (fadd c a) b)) (fsub (fadd a b) c).
Lemma radius_core (a b c : f64) (x y z K : R) : finite a -> finite b -> finite c -> near (4 * u64) (val a) x -> near (4 * u64) (val b) y -> near (4 * u64) (val c) z ->
  9 / 10 ^ 4 <= x <= pow2 102 -> 9 / 10 ^ 4 <= y <= pow2 102 -> 9 / 10 ^ 4 <= z <= pow2 102 ->
  1 <= K <= 2 ^ 30 -> x + y + z <= K * (y + z - x) -> x + y + z <= K * (z + x - y) -> x + y + z <= K * (x + y - z) ->
  let r := u64 * K in let S := 4 * TriangleModel.heron x y z * (4 * TriangleModel.heron x y z) in let M := x * y * z in
  u64 <= r <= 2 / 10 ^ 7 /\ 1 / 10 ^ 42 <= S <= pow2 424 /\ finite (radius_root a b c) /\ near (272 / 10 * r) (val (radius_root a b c)) S /\ 0 < TriangleModel.heron x y z /\
  1 / 10 ^ 11 <= M <= pow2 306 /\ finite (fmul (fmul a b) c) /\ near (141 / 10 * r) (val (fmul (fmul a b) c)) M.
Proof.
  intros Fa Fb Fc Na Nb Nc B1 B2 B3 BK KA KB KC. cbv zeta. unfold radius_root.
  pose proof u64_small as US. set (r := u64 * K).
  assert (R0 : u64 <= r <= 2 / 10 ^ 7).
  { unfold r. split; [assert (u64 * 1 <= u64 * K) by (apply Rmult_le_compat_l; lra); lra|]. apply (Rle_trans _ (12 / 100000000000000000 * 2 ^ 30)); [apply Rmult_le_compat; lra|lra]. }
  set (P := x + y + z) in *.
  assert (P102 : 16 * pow2 102 = pow2 106) by (unfold pow2; change 16 with (bpow radix2 4); now rewrite <- bpow_plus).
  assert (PB : pow2 106 <= pow2 1023) by (apply bpow_le; lia).
  assert (POSF : forall m, P <= K * m -> 1 / 10 ^ 13 <= m).
  { intros m KT. assert (BP : 27 / 10 ^ 4 <= P) by (unfold P; lra). clearbody P. clear - BP KT BK.
    assert (0 < m). { apply Rnot_le_lt. intros G. assert (K * m <= 0) by nra. lra. }
    assert (K * m <= 2 ^ 30 * m) by (apply Rmult_le_compat_r; lra). lra. }
  pose proof (POSF _ KA) as MA. pose proof (POSF _ KB) as MB. pose proof (POSF _ KC) as MC. clear POSF.
  assert (UP : forall m, P <= K * m -> u64 * P <= r * m). { intros m H. unfold r. rewrite Rmult_assoc. apply Rmult_le_compat_l; lra. }
  assert (RNG : forall f v, near (4 * u64) (val f) v -> 9 / 10 ^ 4 <= v <= pow2 102 -> 99 / 100 * v <= val f <= 101 / 100 * v).
  { intros f v N B. apply near_iff in N. assert (u64 * v <= 1 / 10 ^ 6 * v) by (apply Rmult_le_compat_r; lra). assert (0 <= u64 * v) by (apply Rmult_le_pos; lra). lra. }
  pose proof (RNG _ _ Na B1) as Va. pose proof (RNG _ _ Nb B2) as Vb. pose proof (RNG _ _ Nc B3) as Vc.
  assert (SUM : forall f g v w, finite f -> finite g -> near (4 * u64) (val f) v -> near (4 * u64) (val g) w -> 9 / 10 ^ 4 <= v <= pow2 102 -> 9 / 10 ^ 4 <= w <= pow2 102 ->
    finite (fadd f g) /\ near (501 / 100 * u64) (val (fadd f g)) (v + w)).
  { intros f g v w Ff Fg Nf Ng Bv Bw. pose proof (RNG _ _ Nf Bv). pose proof (RNG _ _ Ng Bw).
    destruct (fadd_ok f g Ff Fg) as (F & d & D & V). { rewrite Rabs_pos_eq; lra. }
    split; [exact F|]. rewrite V. apply (near_weaken (4 * u64 + u64 + 4 * u64 * u64)); [lra| |apply near_factor; [lra|lra|exact D|now apply near_add]].
    assert (u64 * u64 <= 1 / 10 ^ 6 * u64) by (apply Rmult_le_compat_r; lra). lra. }
  destruct (SUM a b x y Fa Fb Na Nb B1 B2) as (Fab & Nab). destruct (SUM b c y z Fb Fc Nb Nc B2 B3) as (Fbc & Nbc). destruct (SUM c a z x Fc Fa Nc Na B3 B1) as (Fca & Nca).
  assert (RNG2 : forall f v, near (501 / 100 * u64) f v -> 18 / 10 ^ 4 <= v <= 2 * pow2 102 -> 99 / 100 * v <= f <= 101 / 100 * v).
  { intros f v N B. apply near_iff in N. assert (u64 * v <= 1 / 10 ^ 6 * v) by (apply Rmult_le_compat_r; lra). assert (0 <= u64 * v) by (apply Rmult_le_pos; lra). lra. }
  assert (NP : finite (fadd (fadd a b) c) /\ near (602 / 100 * r) (val (fadd (fadd a b) c)) P).
  { pose proof (RNG2 _ _ Nab ltac:(lra)) as Vab. destruct (fadd_ok (fadd a b) c Fab Fc) as (F & d & D & V). { rewrite Rabs_pos_eq; lra. }
    split; [exact F|]. rewrite V. unfold P. apply (near_weaken (501 / 100 * u64 + u64 + 501 / 100 * u64 * u64)); [lra| |apply near_factor; [lra|lra|exact D|apply near_add; [exact Nab|]]].
    - assert (u64 * u64 <= 1 / 10 ^ 6 * u64) by (apply Rmult_le_compat_r; lra). lra.
    - apply (near_weaken (4 * u64)); [lra|lra|exact Nc]. }
  assert (DIF : forall s f v w, finite s -> finite f -> near (501 / 100 * u64) (val s) v -> near (4 * u64) (val f) w -> 18 / 10 ^ 4 <= v <= 2 * pow2 102 -> 9 / 10 ^ 4 <= w <= pow2 102 -> v + w = P ->
    P <= K * (v - w) -> 1 / 10 ^ 13 <= v - w -> finite (fsub s f) /\ near (602 / 100 * r) (val (fsub s f)) (v - w)).
  { intros s f v w Fs Ff Ns Nf Bv Bw VW KV LV. pose proof (RNG2 _ _ Ns Bv). pose proof (RNG _ _ Nf Bw).
    destruct (fsub_ok s f Fs Ff) as (F & d & D & V). { apply Rabs_le. lra. }
    split; [exact F|]. rewrite V. replace (602 / 100) with (501 / 100 + 101 / 100) by field.
    apply (difference_near r (501 / 100) 4 (val f) v (val s) w P d); try assumption; try lra. now apply UP. }
  destruct NP as (FP & NP).
  destruct (DIF _ a _ x Fbc Fa Nbc Na ltac:(lra) B1 ltac:(unfold P; ring) KA MA) as (FA & NA).
  destruct (DIF _ b _ y Fca Fb Nca Nb ltac:(lra) B2 ltac:(unfold P; ring) KB MB) as (FB & NB).
  destruct (DIF _ c _ z Fab Fc Nab Nc ltac:(lra) B3 ltac:(unfold P; ring) KC MC) as (FC & NC).
  assert (BP : 27 / 10 ^ 4 <= P <= pow2 106) by (unfold P; lra).
  assert (BA : y + z - x <= pow2 106) by lra. assert (BB : z + x - y <= pow2 106) by lra. assert (BC : x + y - z <= pow2 106) by lra.
  assert (SE : 4 * TriangleModel.heron x y z * (4 * TriangleModel.heron x y z) = P * (y + z - x) * (z + x - y) * (x + y - z) /\ 0 <= TriangleModel.heron x y z).
  { split; [|apply sqrt_pos]. rewrite <- heron_exact by lra. apply sqrt_sqrt. repeat apply Rmult_le_pos; lra. }
  destruct SE as (SE & HP). fold r. rewrite SE.
  set (A := y + z - x) in *. set (B := z + x - y) in *. set (C := x + y - z) in *. set (fA := fsub (fadd b c) a) in *. set (fB := fsub (fadd c a) b) in *. set (fC := fsub (fadd a b) c) in *. set (fP := fadd (fadd a b) c) in *.
  clearbody fA fB fC fP. clear DIF SUM RNG RNG2.
  assert (P1 : pow2 106 * pow2 106 = pow2 212) by (unfold pow2; now rewrite <- bpow_plus).
  assert (P2 : pow2 212 * pow2 106 = pow2 318) by (unfold pow2; now rewrite <- bpow_plus).
  assert (P3 : pow2 318 * pow2 106 = pow2 424) by (unfold pow2; now rewrite <- bpow_plus).
  assert (Q1 : pow2 212 <= pow2 900) by (apply bpow_le; lia). assert (Q2 : pow2 318 <= pow2 900) by (apply bpow_le; lia). assert (Q3 : pow2 424 <= pow2 900) by (apply bpow_le; lia).
  assert (L1 : 1 / 10 ^ 16 <= P * A <= pow2 212).
  { rewrite <- P1. split; [apply (Rle_trans _ (27 / 10 ^ 4 * (1 / 10 ^ 13))); [lra|]|]; apply Rmult_le_compat; lra. }
  assert (L2 : 1 / 10 ^ 29 <= P * A * B <= pow2 318).
  { rewrite <- P2. split; [apply (Rle_trans _ (1 / 10 ^ 16 * (1 / 10 ^ 13))); [lra|]|]; apply Rmult_le_compat; lra. }
  assert (L3 : 1 / 10 ^ 42 <= P * A * B * C <= pow2 424).
  { rewrite <- P3. split; [apply (Rle_trans _ (1 / 10 ^ 29 * (1 / 10 ^ 13))); [lra|]|]; apply Rmult_le_compat; lra. }
  destruct (mul_step r (602 / 100) (602 / 100) fP fA P A FP FA ltac:(lra) ltac:(lra) R0 ltac:(lra) ltac:(lra) NP NA ltac:(lra)) as (G1 & H1).
  destruct (mul_step r (602 / 100 + 602 / 100 + 101 / 100) (602 / 100) _ fB (P * A) B G1 FB ltac:(lra) ltac:(lra) R0 ltac:(lra) ltac:(lra) H1 NB ltac:(lra)) as (G2 & H2).
  destruct (mul_step r (602 / 100 + 602 / 100 + 101 / 100 + 602 / 100 + 101 / 100) (602 / 100) _ fC (P * A * B) C G2 FC ltac:(lra) ltac:(lra) R0 ltac:(lra) ltac:(lra) H2 NC ltac:(lra)) as (G3 & H3).
  assert (W : forall f v, near (4 * u64) (val f) v -> 0 < v -> near (4 * r) (val f) v). { intros f v N V. apply (near_weaken (4 * u64)); [lra|lra|exact N]. }
  assert (T1 : pow2 102 * pow2 102 = pow2 204) by (unfold pow2; now rewrite <- bpow_plus).
  assert (T2 : pow2 204 * pow2 102 = pow2 306) by (unfold pow2; now rewrite <- bpow_plus).
  assert (T3 : pow2 204 <= pow2 900) by (apply bpow_le; lia). assert (T4 : pow2 306 <= pow2 900) by (apply bpow_le; lia).
  assert (X1 : 1 / 10 ^ 7 <= x * y <= pow2 204).
  { rewrite <- T1. split; [apply (Rle_trans _ (9 / 10 ^ 4 * (9 / 10 ^ 4))); [lra|]|]; apply Rmult_le_compat; lra. }
  assert (X2 : 1 / 10 ^ 11 <= x * y * z <= pow2 306).
  { rewrite <- T2. split; [apply (Rle_trans _ (1 / 10 ^ 7 * (9 / 10 ^ 4))); [lra|]|]; apply Rmult_le_compat; lra. }
  destruct (mul_step r 4 4 a b x y Fa Fb ltac:(lra) ltac:(lra) R0 ltac:(lra) ltac:(lra) (W _ _ Na ltac:(lra)) (W _ _ Nb ltac:(lra)) ltac:(lra)) as (G4 & H4).
  destruct (mul_step r (4 + 4 + 101 / 100) 4 _ c (x * y) z G4 Fc ltac:(lra) ltac:(lra) R0 ltac:(lra) ltac:(lra) H4 (W _ _ Nc ltac:(lra)) ltac:(lra)) as (G5 & H5).
  split; [exact R0|]. split; [exact L3|]. split; [exact G3|]. split; [eapply near_weaken; [| |exact H3]; lra|].
  split. { destruct HP as [HP|HP]; [exact HP|]. exfalso. rewrite <- HP in SE. lra. }
  split; [exact X2|]. split; [exact G5|]. eapply near_weaken; [| |exact H5]; lra.
Qed.
Theorem C105_radius (a b c : vec) (t : triangle) (K : R) : finite3 a -> finite3 b -> finite3 c -> within3 (2 ^ 100) a -> within3 (2 ^ 100) b -> within3 (2 ^ 100) c ->
  triangle_new a b c = Ok t ->
  let x := exact_distance a b in let y := exact_distance b c in let z := exact_distance c a in
  1 <= K <= 2 ^ 30 -> x + y + z <= K * (y + z - x) -> x + y + z <= K * (z + x - y) -> x + y + z <= K * (x + y - z) ->
  let R := x * y * z / (4 * exact_area a b c) in finite (circumradius t) /\ Rabs (val (circumradius t) - R) <= 30 * K / 2 ^ 53 * R.
Proof.
  intros Fa Fb Fc Ba Bb Bc T x y z BK KA KB KC R.
  assert (P100 : 2 ^ 100 = pow2 100) by (unfold pow2; rewrite bpow_powerRZ; cbn [powerRZ]; now change (Pos.to_nat 100) with 100%nat).
  rewrite P100 in Ba, Bb, Bc.
  destruct (triangle_new_parts _ _ _ _ T) as (Sab & Sac & Sbc & n & _ & ->). clear T. unfold circumradius. cbn [t_a t_b t_c].
  destruct (distance_ok a b Fa Fb Ba Bb (or_introl Sab)) as (F1 & N1 & B1).
  destruct (distance_ok b c Fb Fc Bb Bc (or_introl Sbc)) as (F2 & N2 & B2).
  destruct (distance_ok a c Fa Fc Ba Bc (or_introl Sac)) as (_ & _ & B3').
  rewrite exact_distance_sym in B3'. destruct (distance_ok c a Fc Fa Bc Ba (or_intror (proj1 B3'))) as (F3 & N3 & B3).
  assert (E : TriangleModel.heron x y z = exact_area a b c).
  { unfold exact_area. rewrite <- TriangleProofs.heron_area. reflexivity. }
  assert (RE : R = x * y * z / (4 * TriangleModel.heron x y z)) by (rewrite E; reflexivity). clearbody R. clear E.
  fold x in N1, B1. fold y in N2, B2. fold z in N3, B3.
  generalize dependent (distance a b). generalize dependent (distance b c). generalize dependent (distance c a). clearbody x y z. clear - BK KA KB KC RE B1 B2 B3.
  intros c Fc Nc b Fb Nb a Fa Na.
  destruct (radius_core a b c x y z K Fa Fb Fc Na Nb Nc B1 B2 B3 BK KA KB KC) as (R0 & L3 & G3 & H3 & HP & X2 & G5 & H5).
  fold (radius_root a b c). pose proof u64_small as US. set (r := u64 * K) in *. set (h := TriangleModel.heron x y z) in *.
  set (S := 4 * h * (4 * h)) in *. assert (SQ : sqrt S = 4 * h) by (apply sqrt_square; lra). rewrite <- SQ in RE.
  set (s := radius_root a b c) in *. clearbody s S. clear SQ.
  assert (RA : 0 <= r <= 2 / 10 ^ 7) by lra. assert (S0 : 0 < S) by lra.
  pose proof (near_range (272 / 10) _ _ _ S0 H3 ltac:(lra) RA) as Vs.
  assert (PS : pow2 (-1022) <= 1 / 10 ^ 51).
  { apply (Rle_trans _ (pow2 (-200))); [apply bpow_le; lia|]. rewrite pow2_IZR by lia.
    match goal with |- context [IZR (2 ^ ?k)] => let v := eval vm_compute in (2 ^ k)%Z in change (2 ^ k)%Z with v end. lra. }
  assert (N4 : near (137 / 10 * r) (sqrt (val s)) (sqrt S)).
  { eapply near_weaken; [apply sqrt_pos| |apply near_sqrt; [exact S0| |exact H3]]; lra. }
  destruct (fsqrt_normal s G3) as (F4 & d & D & V4). { lra. }
  assert (SS : 0 < sqrt S) by now apply sqrt_lt_R0.
  assert (N5 : near (1471 / 100 * r) (val (fsqrt s)) (sqrt S)).
  { rewrite V4. apply (near_weaken (137 / 10 * r + u64 + 137 / 10 * r * u64)); [lra| |apply near_factor; [exact SS|lra|exact D|exact N4]].
    assert (r * u64 <= r * (1 / 10 ^ 10)) by (apply Rmult_le_compat_l; lra). lra. }
  assert (N6 : near (1475 / 100 * r) (/ val (fsqrt s)) (/ sqrt S)).
  { apply (near_weaken (1001 / 999 * (1471 / 100 * r))); [apply Rlt_le, Rinv_0_lt_compat, SS|lra|]. apply inverse_near; [exact SS|lra|exact N5]. }
  set (m := fmul (fmul a b) c) in *. set (M := x * y * z) in *. clearbody m M.
  assert (M0 : 0 < M) by lra. pose proof (near_range (141 / 10) _ _ _ M0 H5 ltac:(lra) RA) as Vm. pose proof (near_range (1471 / 100) _ _ _ SS N5 ltac:(lra) RA) as V5.
  assert (U212 : pow2 212 * pow2 212 = pow2 424) by (unfold pow2; now rewrite <- bpow_plus).
  assert (SU : sqrt S <= pow2 212). { rewrite <- (sqrt_square (pow2 212)) by apply Rlt_le, bpow_gt_0. apply sqrt_le_1; rewrite ?U212; lra. }
  assert (SL : 1 / 10 ^ 21 <= sqrt S). { rewrite <- (sqrt_square (1 / 10 ^ 21)) by lra. apply sqrt_le_1; lra. }
  assert (QL : pow2 (-1022) <= Rabs (val m / val (fsqrt s)) <= pow2 1023).
  { assert (I0 : 0 < / val (fsqrt s)) by (apply Rinv_0_lt_compat; lra).
    assert (I1 : / val (fsqrt s) <= 2 * 10 ^ 21). { replace (2 * 10 ^ 21) with (/ (/ (2 * 10 ^ 21))) by (field; lra). apply Rinv_le_contravar; lra. }
    assert (I2 : / pow2 213 <= / val (fsqrt s)). { apply Rinv_le_contravar; [lra|]. replace (pow2 213) with (2 * pow2 212) by (unfold pow2; change 2 with (bpow radix2 1); now rewrite <- bpow_plus). lra. }
    rewrite Rabs_pos_eq by (apply Rmult_le_pos; lra). unfold Rdiv. split.
    - apply (Rle_trans _ (pow2 (-100) * pow2 (-213))).
      + unfold pow2. rewrite <- bpow_plus. apply bpow_le; lia.
      + assert (I3 : pow2 (-213) = / pow2 213) by (unfold pow2; now rewrite <- bpow_opp). rewrite I3.
        apply Rmult_le_compat; [apply Rlt_le, bpow_gt_0|rewrite <- I3; apply Rlt_le, bpow_gt_0| |exact I2].
        apply (Rle_trans _ (1 / 10 ^ 12)); [|lra]. rewrite pow2_IZR by lia. match goal with |- context [IZR (2 ^ ?k)] => let v := eval vm_compute in (2 ^ k)%Z in change (2 ^ k)%Z with v end. lra.
    - apply (Rle_trans _ (pow2 307 * pow2 100)); [|unfold pow2; rewrite <- bpow_plus; apply bpow_le; lia].
      apply Rmult_le_compat; [lra|lra| |].
      + replace (pow2 307) with (2 * pow2 306) by (unfold pow2; change 2 with (bpow radix2 1); now rewrite <- bpow_plus). lra.
      + change (pow2 100) with (IZR (2 ^ 100)). apply (Rle_trans _ (2 * 10 ^ 21)); [exact I1|]. match goal with |- context [IZR (2 ^ ?k)] => let v := eval vm_compute in (2 ^ k)%Z in change (2 ^ k)%Z with v end. lra. }
  destruct (fdiv_normal m (fsqrt s) G5 F4 ltac:(lra) QL) as (F6 & d6 & D6 & V6).
  split; [exact F6|]. rewrite V6, RE. assert (R30 : 30 * K / 2 ^ 53 = 30 * r) by (unfold r, u64; field). rewrite R30.
  fold (near (30 * r) (val m / val (fsqrt s) * (1 + d6)) (M / sqrt S)).
  eapply near_weaken; [| |unfold Rdiv; apply (near_step2 r (141 / 10) (1475 / 100) _ _ _ _ d6); [| | | | |exact D6|exact H5|exact N6]]; try lra.
  - apply Rmult_le_pos; [lra|]. apply Rlt_le, Rinv_0_lt_compat, SS.
  - now apply Rinv_0_lt_compat.
Qed.
(** The same with the quick inverse square root, if the square of the area can be held in single precision *)
Theorem C105_radius_quick (checked : bool) (a b c : vec) (t : triangle) (K : R) : finite3 a -> finite3 b -> finite3 c -> within3 (2 ^ 100) a -> within3 (2 ^ 100) b -> within3 (2 ^ 100) c ->
  triangle_new a b c = Ok t ->
  let x := exact_distance a b in let y := exact_distance b c in let z := exact_distance c a in
  1 <= K <= 2 ^ 20 -> x + y + z <= K * (y + z - x) -> x + y + z <= K * (z + x - y) -> x + y + z <= K * (x + y - z) -> 1 / 10 ^ 18 <= exact_area a b c <= 10 ^ 18 ->
  let R := x * y * z / (4 * exact_area a b c) in
  exists q, circumradius_quick checked (distance a b) (distance b c) (distance c a) = Ok q /\ finite q /\ Rabs (val q - R) <= 51 / 10000000 * R.
Proof.
  intros Fa Fb Fc Ba Bb Bc T x y z BK KA KB KC AU R.
  assert (P100 : 2 ^ 100 = pow2 100) by (unfold pow2; rewrite bpow_powerRZ; cbn [powerRZ]; now change (Pos.to_nat 100) with 100%nat).
  rewrite P100 in Ba, Bb, Bc.
  destruct (triangle_new_parts _ _ _ _ T) as (Sab & Sac & Sbc & n & _ & _). clear T.
  destruct (distance_ok a b Fa Fb Ba Bb (or_introl Sab)) as (F1 & N1 & B1).
  destruct (distance_ok b c Fb Fc Bb Bc (or_introl Sbc)) as (F2 & N2 & B2).
  destruct (distance_ok a c Fa Fc Ba Bc (or_introl Sac)) as (_ & _ & B3').
  rewrite exact_distance_sym in B3'. destruct (distance_ok c a Fc Fa Bc Ba (or_intror (proj1 B3'))) as (F3 & N3 & B3).
  assert (E : TriangleModel.heron x y z = exact_area a b c).
  { unfold exact_area. rewrite <- TriangleProofs.heron_area. reflexivity. }
  assert (RE : R = x * y * z / (4 * TriangleModel.heron x y z)) by (rewrite E; reflexivity). clearbody R. rewrite <- E in AU. clear E.
  fold x in N1, B1. fold y in N2, B2. fold z in N3, B3.
  generalize dependent (distance a b). generalize dependent (distance b c). generalize dependent (distance c a). clearbody x y z. clear - BK KA KB KC RE B1 B2 B3 AU.
  intros c Fc Nc b Fb Nb a Fa Na.
  destruct (radius_core a b c x y z K Fa Fb Fc Na Nb Nc B1 B2 B3 ltac:(lra) KA KB KC) as (R0 & L3 & G3 & H3 & HP & X2 & G5 & H5).
  unfold circumradius_quick. cbv zeta. fold (radius_root a b c). pose proof u64_small as US. 
  assert (RK : u64 * K <= 13 / 10 ^ 11) by (apply (Rle_trans _ (12 / 100000000000000000 * 2 ^ 20)); [apply Rmult_le_compat; lra|lra]).
  set (r := u64 * K) in *. set (h := TriangleModel.heron x y z) in *.
  set (S := 4 * h * (4 * h)) in *. assert (SQ : sqrt S = 4 * h) by (apply sqrt_square; lra). rewrite <- SQ in RE.
  assert (BS : 16 / 10 ^ 36 <= S <= 16 * 10 ^ 36).
  { unfold S. split; [apply (Rle_trans _ (4 * (1 / 10 ^ 18) * (4 * (1 / 10 ^ 18)))); [lra|]|apply (Rle_trans _ (4 * 10 ^ 18 * (4 * 10 ^ 18))); [|lra]]; apply Rmult_le_compat; lra. }
  assert (SS : 4 / 10 ^ 18 <= sqrt S <= 4 * 10 ^ 18) by (rewrite SQ; lra).
  set (s := radius_root a b c) in *. set (m := fmul (fmul a b) c) in *. clearbody s S m. clear SQ.
  set (M := x * y * z) in *. clearbody M.
  assert (RA : 0 <= r <= 2 / 10 ^ 7) by lra. assert (S0 : 0 < S) by lra. assert (M0 : 0 < M) by lra.
  pose proof (near_range (272 / 10) _ _ _ S0 H3 ltac:(lra) RA) as Vs. pose proof (near_range (141 / 10) _ _ _ M0 H5 ltac:(lra) RA) as Vm.
  destruct (C104_close checked s G3) as (q & Q & Fq & Eq).
  { split.
    - apply (Rle_trans _ (1 / 10 ^ 36)); [|lra]. replace (/ 2 ^ 125) with (pow2 (-125)) by apply pow2_125. rewrite pow2_IZR by lia.
      match goal with |- context [IZR (2 ^ ?k)] => let v := eval vm_compute in (2 ^ k)%Z in change (2 ^ k)%Z with v end. lra.
    - unfold largest_f32. lra. }
  rewrite Q. cbn [bind].
  assert (N4 : near (137 / 10 * r) (sqrt (val s)) (sqrt S)).
  { eapply near_weaken; [apply sqrt_pos| |apply near_sqrt; [exact S0| |exact H3]]; lra. }
  assert (N5 : near (2 / 10 ^ 9) (sqrt (val s)) (sqrt S)) by (apply (near_weaken (137 / 10 * r)); [lra|lra|exact N4]).
  assert (N6 : near (2 / 10 ^ 9) (val m) M) by (apply (near_weaken (141 / 10 * r)); [lra|lra|exact H5]).
  apply near_iff in N5. apply in_abs_of in Eq. set (k := sqrt (val s)) in *. set (g := sqrt S) in *.
  assert (K0 : 3 / 10 ^ 18 <= k <= 5 * 10 ^ 18) by lra.
  assert (Q0 : 0 < val q). { apply Rnot_le_lt. intros G. assert (val q * k <= 0) by (clear - G K0; nra). lra. }
  assert (GQ : 1 - 5005 / 10 ^ 9 <= val q * g <= 1 + 5005 / 10 ^ 9).
  { assert (A1 : val q * g <= val q * (k * (1 + 3 / 10 ^ 9))) by (apply Rmult_le_compat_l; lra).
    assert (A2 : val q * (k * (1 - 3 / 10 ^ 9)) <= val q * g) by (apply Rmult_le_compat_l; lra). lra. }
  assert (QE : val q = val q * g * / g) by (field; lra).
  assert (NQ : near (5005 / 10 ^ 9) (val q) (/ g)).
  { apply near_iff. assert (0 < / g) by (apply Rinv_0_lt_compat; lra). rewrite QE. split.
    - apply (Rle_trans _ ((1 - 5005 / 10 ^ 9) * / g)); [lra|apply Rmult_le_compat_r; lra].
    - apply (Rle_trans _ ((1 + 5005 / 10 ^ 9) * / g)); [apply Rmult_le_compat_r; lra|lra]. }
  assert (IG : 2 / 10 ^ 19 <= / g <= 10 ^ 18).
  { split; [replace (2 / 10 ^ 19) with (/ (10 ^ 19 / 2)) by (field; lra)|replace (10 ^ 18) with (/ (1 / 10 ^ 18)) by (field; lra)]; apply Rinv_le_contravar; lra. }
  assert (IP : 0 < / g) by lra. assert (Z1 : 0 <= 2 / 10 ^ 9) by lra. assert (Z2 : 0 <= 5005 / 10 ^ 9) by lra.
  pose proof (near_mul _ _ _ _ _ _ M0 IP Z1 Z2 N6 NQ) as NM.
  assert (MG : 1 / 10 ^ 30 <= M * / g <= pow2 306 * 10 ^ 18).
  { split; [apply (Rle_trans _ (1 / 10 ^ 11 * (2 / 10 ^ 19))); [lra|]|]; apply Rmult_le_compat; lra. }
  assert (RM : R = M * / g) by exact RE.
  destruct (fmul_normal m q G5 Fq) as (F & d & D & V).
  { apply near_iff in NM. set (w := M * / g) in *. assert (W : 0 < w) by lra. clearbody w. rewrite Rabs_pos_eq by lra. split.
    - apply (Rle_trans _ (1 / 10 ^ 31)); [|lra]. apply (Rle_trans _ (pow2 (-200))); [apply bpow_le; lia|]. rewrite pow2_IZR by lia.
      match goal with |- context [IZR (2 ^ ?k)] => let v := eval vm_compute in (2 ^ k)%Z in change (2 ^ k)%Z with v end. lra.
    - apply (Rle_trans _ (pow2 306 * pow2 100)); [|unfold pow2; rewrite <- bpow_plus; apply bpow_le; lia].
      apply (Rle_trans _ (pow2 306 * (2 * 10 ^ 18))); [pose proof (bpow_gt_0 radix2 306); unfold pow2 in *; lra|]. apply Rmult_le_compat_l; [apply Rlt_le, bpow_gt_0|].
      change (pow2 100) with (IZR (2 ^ 100)). match goal with |- context [IZR (2 ^ ?k)] => let v := eval vm_compute in (2 ^ k)%Z in change (2 ^ k)%Z with v end. lra. }
  exists (fmul m q). split; [reflexivity|]. split; [exact F|]. rewrite V, RM. set (w := M * / g) in *. assert (W : 0 < w) by lra. clearbody w.
  fold (near (51 / 10000000) (val m * val q * (1 + d)) w).
  eapply near_weaken; [| |apply near_factor; [exact W| |exact D|exact NM]]; lra.
Qed.


(** *** Examples *)
Example C104_close_example : finite f_two /\ / 2 ^ 125 <= val f_two <= largest_f32 /\
  exists y, quick_inv_sqrt true f_two = Ok y /\ finite y /\ Rabs (val y * sqrt 2 - 1) <= 5 / 1000000.
Proof.
  destruct f_two_val as (F & V). assert (B : / 2 ^ 125 <= val f_two <= largest_f32).
  { rewrite V. unfold largest_f32. split; [|lra]. apply (Rle_trans _ (/ 1)); [|lra]. apply Rinv_le_contravar; [lra|]. apply pow_R1_Rle; lra. }
  split; [exact F|]. split; [exact B|]. rewrite <- V. now apply C104_close.
Qed.

Definition diagonal : vec := mkVec f_one f_two f_two.
Lemma diagonal_ok : finite3 diagonal /\ within3 (2 ^ 62) diagonal /\ flt f_1e_20 (length_squared diagonal) = true /\ len diagonal = 3.
Proof.
  destruct f_one_is as (F1 & V1). destruct f_two_val as (F2 & V2). split; [now repeat split|]. split; [|split].
  - unfold diagonal. repeat split; cbn [vec_x vec_y vec_z]; rewrite ?V1, ?V2, Rabs_pos_eq; lra.
  - vm_compute; reflexivity.
  - unfold len, S3, diagonal. cbn [vec_x vec_y vec_z]. rewrite V1, V2. replace (1 * 1 + 2 * 2 + 2 * 2) with (3 * 3) by ring. apply sqrt_square; lra.
Qed.
Example C104_unit_example : finite3 diagonal /\ within3 (2 ^ 62) diagonal /\ flt f_1e_20 (length_squared diagonal) = true /\
  exists w, normalize_quick true diagonal = Ok w /\ finite3 w /\ Rabs (val (vec_x w) - 1 / 3) <= 51 / 10000000 * (1 / 3) + / 2 ^ 1000.
Proof.
  destruct diagonal_ok as (F & B & G & L). split; [exact F|]. split; [exact B|]. split; [exact G|].
  destruct (C104_unit true diagonal F B G) as (w & E & Fw & _ & C). exists w. split; [exact E|]. split; [exact Fw|].
  specialize (C vec_x ltac:(left; reflexivity)). rewrite L in C. cbn [diagonal vec_x] in C. destruct f_one_is as (_ & V1). rewrite V1, (Rabs_pos_eq 1) in C by lra. exact C.
Qed.
Example C104_perpendicular_example : finite3 diagonal /\ within3 (2 ^ 62) diagonal /\ 100 / 2 ^ 52 < Rabs (val (vec_x diagonal)) /\
  exists w, get_perpendicular_quick true diagonal = Ok w /\ Rabs (dot diagonal w) <= 3 / 10 ^ 15 /\ Rabs (len w - 1) <= 51 / 10000000.
Proof.
  destruct diagonal_ok as (F & B & _ & L). split; [exact F|]. split; [exact B|].
  assert (T : 100 / 2 ^ 52 < Rabs (val (vec_x diagonal))).
  { cbn [diagonal vec_x]. destruct f_one_is as (_ & V1). rewrite V1, Rabs_pos_eq; lra. }
  split; [exact T|]. destruct (proj2 (C104_perpendicular true diagonal F B)) as (w & E & _ & D & U).
  { exists vec_x. split; [left; reflexivity|exact T]. }
  rewrite L in D. exists w. now repeat split.
Qed.

Definition right_a : vec := mkVec f_zero f_zero f_zero.
Definition right_b : vec := mkVec f_three f_zero f_zero.
Definition right_c : vec := mkVec f_zero f_four f_zero.
Example C105_area_example : exists t, triangle_new right_a right_b right_c = Ok t /\
  (exact_distance right_a right_b = 3 /\ exact_distance right_b right_c = 5 /\ exact_distance right_c right_a = 4 /\ exact_area right_a right_b right_c = 6) /\
  finite (t_area t) /\ Rabs (val (t_area t) - 6) <= 26 * 6 / 2 ^ 53 * 6.
Proof.
  destruct f_three_is as (F3 & V3). destruct f_four_is as (F4 & V4). destruct f_zero_is as (F0 & V0).
  assert (T : match triangle_new right_a right_b right_c with Ok _ => true | _ => false end = true) by (vm_compute; reflexivity).
  destruct (triangle_new right_a right_b right_c) as [t| |] eqn:E; [|discriminate|discriminate]. exists t. split; [reflexivity|].
  assert (D1 : exact_distance right_a right_b = 3).
  { unfold exact_distance, Vec.vlen, Vec.vlen2, Vec.vdot, Vec.vsub, point, right_a, right_b. cbn [vec_x vec_y vec_z Vec.vx Vec.vy Vec.vz]. rewrite V0, V3. match goal with |- sqrt ?x = _ => replace x with (3 * 3) by ring end. apply sqrt_square; lra. }
  assert (D2 : exact_distance right_b right_c = 5).
  { unfold exact_distance, Vec.vlen, Vec.vlen2, Vec.vdot, Vec.vsub, point, right_c, right_b. cbn [vec_x vec_y vec_z Vec.vx Vec.vy Vec.vz]. rewrite V0, V3, V4. match goal with |- sqrt ?x = _ => replace x with (5 * 5) by ring end. apply sqrt_square; lra. }
  assert (D3 : exact_distance right_c right_a = 4).
  { unfold exact_distance, Vec.vlen, Vec.vlen2, Vec.vdot, Vec.vsub, point, right_a, right_c. cbn [vec_x vec_y vec_z Vec.vx Vec.vy Vec.vz]. rewrite V0, V4. match goal with |- sqrt ?x = _ => replace x with (4 * 4) by ring end. apply sqrt_square; lra. }
  assert (A : exact_area right_a right_b right_c = 6).
  { unfold exact_area, Vec.vlen, Vec.vlen2, Vec.vdot, Vec.vcross, Vec.vsub, point, right_a, right_b, right_c. cbn [vec_x vec_y vec_z Vec.vx Vec.vy Vec.vz]. rewrite V0, V3, V4.
    match goal with |- sqrt ?x / 2 = 6 => replace x with (12 * 12) by ring end. rewrite sqrt_square; lra. }
  split; [now repeat split|]. rewrite <- A at 1 3.
  apply (C105_area right_a right_b right_c t 6); try rewrite D1, D2, D3; try lra; try exact E; repeat split; assumption || (cbn [right_a right_b right_c vec_x vec_y vec_z]; rewrite ?V0, ?V3, ?V4, Rabs_pos_eq; lra).
Qed.

Example C105_accepted_example : exists t, triangle_new right_a right_b right_c = Ok t /\ finite3 (t_normal t) /\ Rabs (val (vec_z (t_normal t)) - 1) <= 17 * 2 / 2 ^ 53.
Proof.
  destruct f_three_is as (F3 & V3). destruct f_four_is as (F4 & V4). destruct f_zero_is as (F0 & V0).
  destruct C105_area_example as (t & E & (D1 & D2 & D3 & A) & _). exists t. split; [exact E|].
  destruct (C105_normal right_a right_b right_c t 2) as (F & N); try rewrite D1, D2, A; try lra; try exact E;
    try (repeat split; assumption || (cbn [right_a right_b right_c vec_x vec_y vec_z]; rewrite ?V0, ?V3, ?V4, Rabs_pos_eq; lra)).
  split; [exact F|]. specialize (N 2%nat ltac:(lia)). cbn [component coordinate] in N.
  replace (Vec.vz (exact_cross right_a right_b right_c) / (2 * exact_area right_a right_b right_c)) with 1 in N; [exact N|].
  rewrite A. unfold exact_cross, Vec.vcross, Vec.vsub, point, right_a, right_b, right_c. cbn [vec_x vec_y vec_z Vec.vx Vec.vy Vec.vz]. rewrite V0, V3, V4. field.
Qed.
(** Three corners in a line *)
Example C105_refused_example : let p k := mkVec k f_zero f_zero in triangle_new (p f_zero) (p f_three) (p f_four) = Err.
Proof. vm_compute. reflexivity. Qed.

Example C105_radius_example : exists t, triangle_new right_a right_b right_c = Ok t /\ finite (circumradius t) /\ Rabs (val (circumradius t) - 5 / 2) <= 30 * 6 / 2 ^ 53 * (5 / 2) /\
  exists q, circumradius_quick true (distance right_a right_b) (distance right_b right_c) (distance right_c right_a) = Ok q /\ Rabs (val q - 5 / 2) <= 51 / 10000000 * (5 / 2).
Proof.
  destruct f_three_is as (F3 & V3). destruct f_four_is as (F4 & V4). destruct f_zero_is as (F0 & V0).
  destruct C105_area_example as (t & E & (D1 & D2 & D3 & A) & _). exists t. split; [exact E|].
  assert (W : (finite3 right_a /\ finite3 right_b /\ finite3 right_c) /\ within3 (2 ^ 100) right_a /\ within3 (2 ^ 100) right_b /\ within3 (2 ^ 100) right_c).
  { repeat split; assumption || (cbn [right_a right_b right_c vec_x vec_y vec_z]; rewrite ?V0, ?V3, ?V4, Rabs_pos_eq; lra). }
  destruct W as ((Fa & Fb & Fc) & Ba & Bb & Bc).
  assert (RR : 3 * 5 * 4 / (4 * 6) = 5 / 2) by field.
  pose proof (C105_radius right_a right_b right_c t 6 Fa Fb Fc Ba Bb Bc E) as R. cbv zeta in R. rewrite D1, D2, D3, A, RR in R.
  destruct R as (R1 & R2); try lra. split; [exact R1|]. split; [exact R2|].
  pose proof (C105_radius_quick true right_a right_b right_c t 6 Fa Fb Fc Ba Bb Bc E) as Q. cbv zeta in Q. rewrite D1, D2, D3, A, RR in Q.
  destruct Q as (q & Q1 & _ & Q2); try lra. exists q. now split.
Qed.

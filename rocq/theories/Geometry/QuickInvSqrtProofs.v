(** Lemmas on single-precision arithmetic: rounding errors, bits and the quick inverse square root *)
From Coq Require Import ZArith Bool List Reals Lia Lra Psatz.
From Flocq Require Import Core IEEE754.BinarySingleNaN IEEE754.Binary IEEE754.Bits.
From Flocq Require Import Relative.
From Verif.Common Require Import Base.
From Verif.Geometry Require Import RoundErrorModel RoundErrorProofs QuickInvSqrtModel.
Open Scope Z_scope.

Notation fexp32 := (SpecFloat.fexp 24 128).
Definition val32 (f : f32) : R := B2R 24 128 f.
Notation finite32 f := (is_finite 24 128 f = true).
Local Instance prec32 : Prec_gt_0 24 := eq_refl.
Local Instance prec32_lt : Prec_lt_emax 24 128 := eq_refl.
Local Instance valid32 : Valid_exp fexp32 := fexp_correct 24 128 _.

Lemma bounded32_iff m e : SpecFloat.bounded 24 128 m e = true <->
  Z.pos m < 2 ^ 24 /\ -149 <= e <= 104 /\ (2 ^ 23 <= Z.pos m \/ e = -149).
Proof.
  unfold SpecFloat.bounded, SpecFloat.canonical_mantissa.
  rewrite andb_true_iff, Zle_is_le_bool, Digits.Zpos_digits2_pos.
  pose proof (Digits.Zdigits_correct radix2 (Z.pos m)) as D. cbv zeta in D.
  set (d := Digits.Zdigits radix2 (Z.pos m)) in *.
  assert (D0 : 0 < d) by (apply Digits.Zdigits_gt_0; discriminate).
  change (Z.abs (Z.pos m)) with (Z.pos m) in D.
  change (Zaux.radix_val radix2) with 2 in D.
  unfold SpecFloat.fexp, SpecFloat.emin.
  rewrite <- Zle_is_le_bool.
  split.
  - intros [C E]. apply Zeq_bool_eq in C.
    assert (d <= 24) by lia.
    assert (2 ^ d <= 2 ^ 24) by (apply Z.pow_le_mono_r; lia).
    repeat split; try lia.
    destruct (Z.eq_dec e (-149)); [now right|left].
    assert (d = 24) by lia. assert (2 ^ 23 <= 2 ^ (d - 1)) by (apply Z.pow_le_mono_r; lia). lia.
  - intros (M & E & H). split; [|lia].
    apply Zeq_is_eq_bool.
    assert (d <= 24).
    { destruct (Z_le_gt_dec d 24); auto. assert (2 ^ 24 <= 2 ^ (d - 1)) by (apply Z.pow_le_mono_r; lia). lia. }
    destruct H as [H| ->]; [|lia].
    assert (24 <= d).
    { destruct (Z_le_gt_dec 24 d); auto. assert (2 ^ d <= 2 ^ 23) by (apply Z.pow_le_mono_r; lia). lia. }
    lia.
Qed.

(** ** Bits *)

Lemma bits32_finite m e H : bits_of_b32 (B754_finite 24 128 false m e H) = (e + 149) * 2 ^ 23 + Z.pos m.
Proof.
  pose proof (proj1 (bounded32_iff m e) H) as (M & E & C).
  unfold bits_of_b32, bits_of_binary_float, join_bits.
  change (SpecFloat.emin (23 + 1) (2 ^ (8 - 1))) with (-149).
  rewrite !Z.shiftl_mul_pow2 by lia.
  destruct (Zle_bool 0 (Z.pos m - 2 ^ 23)) eqn:L.
  - apply Zle_bool_imp_le in L. lia.
  - apply Z.leb_gt in L. assert (e = -149) by lia. subst e. lia.
Qed.
Lemma of_bits32_bits y : b32_of_bits (bits_of_b32 y) = y.
Proof. apply (binary_float_of_bits_of_binary_float 23 8 eq_refl eq_refl eq_refl). Qed.
(** The number with given bits *)
Lemma of_i32_normal p e : 2 ^ 23 <= p < 2 ^ 24 -> -149 <= e <= 104 ->
  finite32 (of_i32 ((e + 149) * 2 ^ 23 + p)) /\ val32 (of_i32 ((e + 149) * 2 ^ 23 + p)) = (IZR p * pow2 e)%R.
Proof.
  intros P E. destruct p as [|p|p]; try lia.
  assert (H : SpecFloat.bounded 24 128 p e = true) by (apply bounded32_iff; lia).
  unfold of_i32. rewrite Z.mod_small by lia.
  rewrite <- (bits32_finite p e H), of_bits32_bits. split; reflexivity.
Qed.

(** ** Rounding *)
Open Scope R_scope.
Definition u32 : R := / 16777216.
Lemma round32 x : pow2 (-126) <= Rabs x -> exists d, Rabs d <= u32 /\ round radix2 fexp32 (round_mode mode_NE) x = x * (1 + d).
Proof.
  intros H. change fexp32 with (FLT_exp (-149) 24).
  destruct (relative_error_N_FLT_ex radix2 (-149) 24 eq_refl (fun x => negb (Z.even x)) x H) as (d & D & E).
  exists d. split; [|exact E]. replace u32 with (/ 2 * bpow radix2 (- (24) + 1)); [exact D|]. unfold u32. cbn. lra.
Qed.
Lemma round32_fits x : Rabs x <= pow2 127 -> Rabs (round radix2 fexp32 (round_mode mode_NE) x) < bpow radix2 128.
Proof.
  intros H. apply (Rle_lt_trans _ (pow2 127)); [|apply bpow_lt; lia].
  apply abs_round_le_generic; [typeclasses eauto|typeclasses eauto| |exact H].
  apply generic_format_bpow. unfold SpecFloat.fexp, SpecFloat.emin. lia.
Qed.
Lemma mul32_ok a b : finite32 a -> finite32 b -> pow2 (-126) <= Rabs (val32 a * val32 b) <= pow2 127 ->
  finite32 (mul32 a b) /\ exists d, Rabs d <= u32 /\ val32 (mul32 a b) = val32 a * val32 b * (1 + d).
Proof.
  intros Fa Fb (L & U). unfold mul32, b32_mult.
  pose proof (Bmult_correct 24 128 prec32 prec32_lt binop_nan_pl32 mode_NE a b) as C.
  rewrite Rlt_bool_true in C by now apply round32_fits. destruct C as (V & F & _).
  split. { rewrite Fa, Fb in F. exact F. }
  destruct (round32 _ L) as (d & D & E). exists d. split; auto. unfold val32 at 1. etransitivity; [exact V|exact E].
Qed.
Lemma sub32_ok a b : finite32 a -> finite32 b -> pow2 (-126) <= Rabs (val32 a - val32 b) <= pow2 127 ->
  finite32 (sub32 a b) /\ exists d, Rabs d <= u32 /\ val32 (sub32 a b) = (val32 a - val32 b) * (1 + d).
Proof.
  intros Fa Fb (L & U). unfold sub32, b32_minus.
  pose proof (Bminus_correct 24 128 prec32 prec32_lt binop_nan_pl32 mode_NE a b Fa Fb) as C.
  rewrite Rlt_bool_true in C by now apply round32_fits. destruct C as (V & F & _).
  split; auto.
  destruct (round32 _ L) as (d & D & E). exists d. split; auto. unfold val32 at 1. etransitivity; [exact V|exact E].
Qed.
Lemma three_halfs_val : finite32 three_halfs /\ val32 three_halfs = 3 / 2.
Proof. split; [reflexivity|]. unfold val32, three_halfs. cbn. unfold F2R. cbn. lra. Qed.
Lemma half32_val : finite32 half32 /\ val32 half32 = 1 / 2.
Proof. split; [reflexivity|]. unfold val32, half32. cbn. unfold F2R. cbn. lra. Qed.

(** ** One iteration *)
Lemma u32_small : 0 < u32 <= 6 / 100000000. Proof. unfold u32. lra. Qed.
Lemma in_abs d : Rabs d <= u32 -> - u32 <= d <= u32.
Proof. intros H. unfold Rabs in H. destruct (Rcase_abs d); lra. Qed.
Lemma newton_ok x2 y r u d0 : finite32 x2 -> finite32 y -> 0 < r -> pow2 (-63) <= r <= pow2 64 ->
  val32 x2 = r * r / 2 * (1 + d0) -> Rabs d0 <= u32 -> val32 y * r = u -> 9 / 10 <= u <= 11 / 10 ->
  finite32 (newton_step x2 y) /\ exists D E, Rabs D <= 31 / 10 * u32 /\ Rabs E <= 21 / 10 * u32 /\
    val32 (newton_step x2 y) * r = u * (3 / 2 - u * u / 2 * (1 + D)) * (1 + E).
Proof.
  intros F2 Fy R0 (RL & RU) V2 D0 Vy (UL & UU). pose proof u32_small as (US0 & US). apply in_abs in D0.
  assert (Ey : val32 y = u / r) by (rewrite <- Vy; field; lra).
  assert (B1 : 1 / 4 <= u * (1 + d0) / 2 <= 1) by (split; nra).
  assert (P1 : val32 x2 * val32 y = r * (u * (1 + d0) / 2)) by (rewrite V2, Ey; field; lra).
  assert (Q : pow2 (-65) * 4 = pow2 (-63)) by (unfold pow2; cbn; lra).
  destruct (mul32_ok x2 y F2 Fy) as (F3 & d1 & D1 & V3).
  { rewrite P1, Rabs_pos_eq by nra. split.
    - apply (Rle_trans _ (pow2 (-65))); [apply bpow_le; lia|]. pose proof (pow2_pos (-65)). nra.
    - apply (Rle_trans _ (pow2 64)); [|apply bpow_le; lia]. nra. }
  apply in_abs in D1. rewrite P1 in V3.
  assert (P2 : val32 (mul32 x2 y) * val32 y = u * u / 2 * ((1 + d0) * (1 + d1))) by (rewrite V3, Ey; field; lra).
  assert (B2 : 9999 / 10000 <= (1 + d0) * (1 + d1) <= 10001 / 10000) by (split; nra).
  assert (BU : 81 / 200 <= u * u / 2 <= 121 / 200) by (split; nra).
  destruct (mul32_ok (mul32 x2 y) y F3 Fy) as (F4 & d2 & D2 & V4).
  { rewrite P2, Rabs_pos_eq by nra. split.
    - apply (Rle_trans _ (pow2 (-2))); [apply bpow_le; lia|]. unfold pow2; cbn. nra.
    - apply (Rle_trans _ (pow2 0)); [|apply bpow_le; lia]. unfold pow2; cbn. nra. }
  apply in_abs in D2. rewrite P2 in V4.
  destruct three_halfs_val as (F5 & V5).
  set (D := (1 + d0) * (1 + d1) * (1 + d2) - 1).
  assert (V4' : val32 (mul32 (mul32 x2 y) y) = u * u / 2 * (1 + D)) by (rewrite V4; unfold D; ring).
  assert (BD : - (31 / 10 * u32) <= D <= 31 / 10 * u32).
  { unfold D. unfold u32 in *. split; nra. }
  assert (B3 : 7 / 10 <= 3 / 2 - u * u / 2 * (1 + D) <= 3 / 2) by (unfold u32 in *; split; nra).
  destruct (sub32_ok three_halfs (mul32 (mul32 x2 y) y) F5 F4) as (F6 & d3 & D3 & V6).
  { rewrite V5, V4', Rabs_pos_eq by lra. split.
    - apply (Rle_trans _ (pow2 (-1))); [apply bpow_le; lia|]. unfold pow2; cbn. lra.
    - apply (Rle_trans _ (pow2 1)); [|apply bpow_le; lia]. unfold pow2; cbn. lra. }
  apply in_abs in D3. rewrite V5, V4' in V6. set (w := 3 / 2 - u * u / 2 * (1 + D)) in *.
  assert (P7 : val32 y * val32 (sub32 three_halfs (mul32 (mul32 x2 y) y)) = u * w * (1 + d3) / r) by (rewrite V6, Ey; field; lra).
  assert (B7 : 1 / 2 <= u * w * (1 + d3) <= 2) by (assert (63 / 100 <= u * w <= 165 / 100) by (split; nra); split; nra).
  destruct (mul32_ok y (sub32 three_halfs (mul32 (mul32 x2 y) y)) Fy F6) as (F8 & d4 & D4 & V8).
  { rewrite P7, Rabs_pos_eq by (apply Rlt_le, Rdiv_lt_0_compat; lra).
    assert (I : pow2 (-64) <= / r <= pow2 63).
    { split.
      - change (pow2 (-64)) with (bpow radix2 (- (64))). rewrite bpow_opp. apply Rinv_le; [exact R0|exact RU].
      - change (pow2 63) with (bpow radix2 (- (-63))). rewrite bpow_opp. apply Rinv_le; [apply pow2_pos|exact RL]. }
    assert (Q1 : pow2 (-65) * 2 = pow2 (-64)) by (unfold pow2; cbn; lra).
    assert (Q2 : pow2 64 = 2 * pow2 63) by (unfold pow2; cbn; lra).
    pose proof (pow2_pos (-65)). unfold Rdiv. split.
    - apply (Rle_trans _ (pow2 (-65))); [apply bpow_le; lia|]. nra.
    - apply (Rle_trans _ (pow2 64)); [|apply bpow_le; lia]. nra. }
  apply in_abs in D4. split; [exact F8|]. exists D, ((1 + d3) * (1 + d4) - 1). split; [apply Rabs_le; exact BD|]. split.
  { apply Rabs_le. unfold u32 in *. split; nra. }
  unfold newton_step. rewrite V8, P7. fold w. field. lra.
Qed.

(** ** The first guess *)
Lemma cubic_above a b S : 0 <= a -> 0 <= b -> 2 * b <= S - a -> a <= 4 * S / 3 -> a * (b * b) <= S / 3 * (S / 3) * (S / 3).
Proof.
  intros A B H A2.
  assert (4 * (b * b) <= (S - a) * (S - a)) by nra.
  assert (0 <= (a - S / 3) * (a - S / 3) * (4 * S / 3 - a)) by (apply Rmult_le_pos; [apply Rle_0_sqr|lra]).
  nra.
Qed.
(** The product is concave in [a] and thus not below its values at the ends. *)
Lemma cubic_below a b S l h t : 0 < l -> l <= a <= h -> h < 2 * S / 3 -> S - a <= 2 * b ->
  t <= l * (S - l) * (S - l) -> t <= h * (S - h) * (S - h) -> t <= 4 * (a * (b * b)).
Proof.
  intros L (A1 & A2) H B T1 T2.
  assert (0 < S - a) by lra.
  assert ((S - a) * (S - a) <= 4 * (b * b)) by nra.
  apply (Rle_trans _ (a * ((S - a) * (S - a)))); [|nra].
  destruct (Req_dec l h) as [->|NE]. { assert (a = h) by lra. subst a. lra. }
  assert (K : (h - l) * t <= (h - l) * (a * ((S - a) * (S - a)))).
  { assert (E : (h - l) * (a * ((S - a) * (S - a))) - ((h - a) * (l * (S - l) * (S - l)) + (a - l) * (h * (S - h) * (S - h)))
      = (h - l) * ((a - l) * (h - a)) * (2 * S - a - l - h)) by ring.
    assert (0 <= (h - l) * ((a - l) * (h - a)) * (2 * S - a - l - h)).
    { apply Rmult_le_pos; [apply Rmult_le_pos; [lra|apply Rmult_le_pos; lra]|lra]. }
    nra. }
  nra.
Qed.

Definition magic : Z := 0x5f3759df.
(** [m * p * p] in units of [2 ^ 69] *)
Lemma guess_bounds (m p : Z) (k lo hi : R) : lo * 590295810358705651712 <= IZR m * (IZR p * IZR p) <= hi * 590295810358705651712 ->
  k * 590295810358705651712 = 1 -> lo <= IZR m * (IZR p * IZR p) * k <= hi.
Proof.
  intros (L & H) K. assert (0 < k) by nra.
  split.
  - apply (Rmult_le_reg_r 590295810358705651712); [lra|]. rewrite Rmult_assoc, K. lra.
  - apply (Rmult_le_reg_r 590295810358705651712); [lra|]. rewrite Rmult_assoc, K. lra.
Qed.
Lemma square_of_guess m e p f t : (e + 2 * f = t)%Z ->
  IZR p * pow2 f * (IZR p * pow2 f) * (IZR m * pow2 e) = IZR m * (IZR p * IZR p) * pow2 t.
Proof. intros <-. unfold pow2. replace (e + 2 * f)%Z with (e + f + f)%Z by lia. rewrite !bpow_plus. ring. Qed.
Lemma guess_ok (m e : Z) : (2 ^ 23 <= m < 2 ^ 24)%Z -> (-149 <= e <= 104)%Z ->
  let y := of_i32 (magic - ((e + 149) * 2 ^ 23 + m) / 2) in
  finite32 y /\ 0 < val32 y /\ 9324 / 10000 <= val32 y * val32 y * (IZR m * pow2 e) <= 10692 / 10000.
Proof.
  intros M E y.
  assert (MR : 8388608 <= IZR m <= 16777216) by (split; apply IZR_le; lia).
  destruct (Z.Even_or_Odd e) as [[k K]|[k K]]; subst e.
  - set (h := ((2 ^ 23 + m) / 2)%Z).
    assert (H : (2 * h <= 2 ^ 23 + m < 2 * h + 2)%Z) by (unfold h; pose proof (Z.div_mod (2 ^ 23 + m) 2) as Q; pose proof (Z.mod_pos_bound (2 ^ 23 + m) 2); lia).
    assert (I : (magic - ((2 * k + 149) * 2 ^ 23 + m) / 2 = (116 - k) * 2 ^ 23 + 3627487 - h)%Z).
    { unfold magic, h. replace ((2 * k + 149) * 2 ^ 23 + m)%Z with ((2 ^ 23 + m) + (k + 74) * 2 ^ 23 * 2)%Z by ring. rewrite Z.div_add by lia. lia. }
    assert (HR : 2 * IZR h <= 8388608 + IZR m <= 2 * IZR h + 1).
    { split; [|].
      - change 8388608 with (IZR (2 ^ 23)). rewrite <- mult_IZR, <- plus_IZR. apply IZR_le. lia.
      - change 8388608 with (IZR (2 ^ 23)). rewrite <- mult_IZR, <- !plus_IZR. apply IZR_le. lia. }
    unfold y. rewrite I.
    destruct (Z_le_gt_dec h (3627487 + 2 ^ 23)) as [C|C].
    + set (p := (2 ^ 24 + 3627487 - h)%Z).
      replace ((116 - k) * 2 ^ 23 + 3627487 - h)%Z with (((-35 - k) + 149) * 2 ^ 23 + p)%Z by (unfold p; lia).
      destruct (of_i32_normal p (-35 - k)) as (F & V); [unfold p; lia|lia|].
      assert (P1 : (2 ^ 23 <= p)%Z) by (unfold p; lia).
      assert (PR : IZR p = 20404703 - IZR h) by (unfold p; rewrite minus_IZR; reflexivity).
      assert (P0 : 8388608 <= IZR p) by (apply IZR_le; lia).
      split; auto. rewrite V. split.
      { apply Rmult_lt_0_compat; [lra|apply pow2_pos]. }
      rewrite (square_of_guess _ _ _ _ (-70)) by lia.
      assert (K : pow2 (-70) * 590295810358705651712 * 2 = 1) by (unfold pow2; cbn; lra).
      replace (IZR m * (IZR p * IZR p) * pow2 (-70)) with (IZR m * (IZR p * IZR p) * (pow2 (-70) * 2) / 2) by field.
      assert (B : 18648 / 10000 <= IZR m * (IZR p * IZR p) * (pow2 (-70) * 2) <= 21384 / 10000); [|lra].
      apply guess_bounds; [|lra]. split.
      * apply (Rmult_le_reg_l 4); [lra|].
        apply (cubic_below _ _ 32420798 8388608 15643583); lra.
      * eapply Rle_trans; [apply (cubic_above _ _ 32420799); lra|]. lra.
    + set (p := (3 * 2 ^ 23 + 3627487 - h)%Z).
      replace ((116 - k) * 2 ^ 23 + 3627487 - h)%Z with (((-36 - k) + 149) * 2 ^ 23 + p)%Z by (unfold p; lia).
      destruct (of_i32_normal p (-36 - k)) as (F & V); [unfold p; lia|lia|].
      assert (P1 : (2 ^ 23 <= p)%Z) by (unfold p; lia).
      assert (PR : IZR p = 28793311 - IZR h) by (unfold p; rewrite minus_IZR; reflexivity).
      assert (P0 : 8388608 <= IZR p) by (apply IZR_le; lia).
      assert (P2 : IZR p <= 16777215) by (apply IZR_le; unfold p; lia).
      split; auto. rewrite V. split.
      { apply Rmult_lt_0_compat; [lra|apply pow2_pos]. }
      rewrite (square_of_guess _ _ _ _ (-72)) by lia.
      assert (K : pow2 (-72) * 590295810358705651712 * 8 = 1) by (unfold pow2; cbn; lra).
      replace (IZR m * (IZR p * IZR p) * pow2 (-72)) with (IZR m * (IZR p * IZR p) * (pow2 (-72) * 8) / 8) by field.
      assert (B : 74592 / 10000 <= IZR m * (IZR p * IZR p) * (pow2 (-72) * 8) <= 85536 / 10000); [|lra].
      apply guess_bounds; [|lra]. split.
      * apply (Rmult_le_reg_l 4); [lra|].
        apply (cubic_below _ _ 49198014 15643582 16777216); lra.
      * eapply Rle_trans; [apply (cubic_above _ _ 49198015); lra|]. lra.
  - set (h := (m / 2)%Z).
    assert (H : (2 * h <= m < 2 * h + 2)%Z) by (unfold h; pose proof (Z.div_mod m 2) as Q; pose proof (Z.mod_pos_bound m 2); lia).
    assert (I : (magic - ((2 * k + 1 + 149) * 2 ^ 23 + m) / 2 = (115 - k) * 2 ^ 23 + 3627487 - h)%Z).
    { unfold magic, h. replace ((2 * k + 1 + 149) * 2 ^ 23 + m)%Z with (m + (k + 75) * 2 ^ 23 * 2)%Z by ring. rewrite Z.div_add by lia. lia. }
    assert (HR : 2 * IZR h <= IZR m <= 2 * IZR h + 1).
    { split; rewrite <- mult_IZR, <- ?plus_IZR; apply IZR_le; lia. }
    unfold y. rewrite I. set (p := (2 ^ 24 + 3627487 - h)%Z).
    replace ((115 - k) * 2 ^ 23 + 3627487 - h)%Z with (((-36 - k) + 149) * 2 ^ 23 + p)%Z by (unfold p; lia).
    destruct (of_i32_normal p (-36 - k)) as (F & V); [unfold p; lia|lia|].
    assert (PR : IZR p = 20404703 - IZR h) by (unfold p; rewrite minus_IZR; reflexivity).
    split; auto. rewrite V. split.
    { apply Rmult_lt_0_compat; [lra|apply pow2_pos]. }
    rewrite (square_of_guess _ _ _ _ (-71)) by lia.
    assert (K : pow2 (-71) * 590295810358705651712 * 4 = 1) by (unfold pow2; cbn; lra).
    replace (IZR m * (IZR p * IZR p) * pow2 (-71)) with (IZR m * (IZR p * IZR p) * (pow2 (-71) * 4) / 4) by field.
    assert (B : 37296 / 10000 <= IZR m * (IZR p * IZR p) * (pow2 (-71) * 4) <= 42768 / 10000); [|lra].
    apply guess_bounds; [|lra]. split.
    + apply (Rmult_le_reg_l 4); [lra|].
      apply (cubic_below _ _ 40809406 8388608 16777216); lra.
    + eapply Rle_trans; [apply (cubic_above _ _ 40809407); lra|]. lra.
Qed.

(** ** Two iterations *)
Lemma newton_twice u0 D1 E1 D2 E2 : 0 < u0 -> 9324 / 10000 <= u0 * u0 <= 10692 / 10000 ->
  Rabs D1 <= 31 / 10 * u32 -> Rabs E1 <= 21 / 10 * u32 -> Rabs D2 <= 31 / 10 * u32 -> Rabs E2 <= 21 / 10 * u32 ->
  let u1 := u0 * (3 / 2 - u0 * u0 / 2 * (1 + D1)) * (1 + E1) in
  let u2 := u1 * (3 / 2 - u1 * u1 / 2 * (1 + D2)) * (1 + E2) in
  99824 / 100000 <= u1 <= 1000001 / 1000000 /\ Rabs (u2 - 1) <= 49 / 10000000.
Proof.
  intros U0 (T1 & T2) HD1 HE1 HD2 HE2 u1 u2. pose proof u32_small as (US0 & US).
  assert (AB : forall d c, Rabs d <= c * u32 -> - (c * u32) <= d <= c * u32) by (intros d c H; unfold Rabs in H; destruct (Rcase_abs d); lra).
  apply AB in HD1, HE1, HD2, HE2.
  assert (C31 : 31 / 10 * u32 <= 19 / 100000000) by lra.
  assert (C21 : 21 / 10 * u32 <= 13 / 100000000) by lra.
  assert (UL : 9656 / 10000 <= u0) by nra.
  assert (UU : u0 <= 103403 / 100000) by nra.
  (* the exact iteration *)
  assert (S : forall u, u * (3 / 2 - u * u / 2) = 1 - (u - 1) * (u - 1) * (u + 2) / 2) by (intro u; field).
  assert (PS : forall u, 0 < u -> 0 <= (u - 1) * (u - 1) * (u + 2)) by (intros u Hu; apply Rmult_le_pos; [apply Rle_0_sqr|lra]).
  assert (X1 : 998243 / 1000000 <= u0 * (3 / 2 - u0 * u0 / 2) <= 1).
  { rewrite S. split; [|pose proof (PS u0 U0); lra].
    assert ((u0 - 1) * (u0 - 1) * (u0 + 2) <= 3513 / 1000000); [|lra].
    destruct (Rle_dec u0 1).
    - assert (0 <= (1 - u0) <= 344 / 10000) by lra. nra.
    - assert (0 <= u0 - 1 <= 3403 / 100000) by lra. nra. }
  assert (Y1 : u1 = (u0 * (3 / 2 - u0 * u0 / 2) - u0 * (u0 * u0) / 2 * D1) * (1 + E1)) by (unfold u1; field).
  assert (U3 : 8 / 10 <= u0 * (u0 * u0) <= 112 / 100) by (split; nra).
  assert (Z1 : - (12 / 100000000) <= u0 * (u0 * u0) / 2 * D1 <= 12 / 100000000) by (split; nra).
  assert (B1 : 99824 / 100000 <= u1 <= 1000001 / 1000000).
  { rewrite Y1. set (w := u0 * (3 / 2 - u0 * u0 / 2)) in *. set (z := u0 * (u0 * u0) / 2 * D1) in *. split; nra. }
  split; [exact B1|].
  assert (X2 : 1 - 466 / 100000000 <= u1 * (3 / 2 - u1 * u1 / 2) <= 1).
  { rewrite S. split; [|pose proof (PS u1 ltac:(lra)); lra]. clearbody u1.
    assert ((u1 - 1) * (u1 - 1) <= 176 * 176 / 10000000000) by nra. nra. }
  assert (Y2 : u2 = (u1 * (3 / 2 - u1 * u1 / 2) - u1 * (u1 * u1) / 2 * D2) * (1 + E2)) by (unfold u2; field).
  assert (V3 : 99 / 100 <= u1 * (u1 * u1) <= 101 / 100) by (clear Y2 X2; clearbody u1; assert (99 / 100 <= u1 * u1 <= 10001 / 10000) by (split; nra); split; nra).
  assert (ZC : forall c, 99 / 100 <= c <= 101 / 100 -> - (10 / 100000000) <= c / 2 * D2 <= 10 / 100000000) by (clear - HD2 C31; intros c C; split; nra).
  pose proof (ZC _ V3) as Z2.
  apply Rabs_le. rewrite Y2. set (w := u1 * (3 / 2 - u1 * u1 / 2)) in *. set (z := u1 * (u1 * u1) / 2 * D2) in *. clearbody w z. clear - X2 Z2 HE2 C21. split; nra.
Qed.

(** ** Casts *)
Lemma to_f64_ok y : finite32 y -> finite (to_f64 y) /\ val (to_f64 y) = val32 y.
Proof.
  destruct y as [s|s|s pl N|s m e H]; cbn [is_finite]; try discriminate; intros _. { split; reflexivity. }
  cbn [to_f64]. pose proof (proj1 (bounded32_iff m e) H) as (M & E & _).
  pose proof (binary_normalize_correct 53 1024 eq_refl eq_refl mode_NE (SpecFloat.cond_Zopp s (Z.pos m)) e s) as C.
  assert (G : generic_format radix2 fexp64 (F2R (Float radix2 (SpecFloat.cond_Zopp s (Z.pos m)) e))).
  { change fexp64 with (FLT_exp (-1074) 53). apply generic_format_FLT. exists (Float radix2 (SpecFloat.cond_Zopp s (Z.pos m)) e); [reflexivity| |cbn; lia].
    cbn. destruct s; cbn; lia. }
  rewrite round_generic in C; [|typeclasses eauto|exact G].
  rewrite Rlt_bool_true in C.
  - destruct C as (V & F & _). split; [exact F|]. exact V.
  - rewrite <- F2R_Zabs. unfold F2R. cbn [Fnum Fexp].
    apply (Rlt_le_trans _ (bpow radix2 24 * bpow radix2 e)).
    + apply Rmult_lt_compat_r; [apply bpow_gt_0|]. change (bpow radix2 24) with (IZR (2 ^ 24)). apply IZR_lt. destruct s; cbn; lia.
    + rewrite <- bpow_plus. apply bpow_le. lia.
Qed.
(** The largest single-precision number *)
Definition max32 : R := 16777215 * pow2 104.
Lemma max32_format : generic_format radix2 fexp32 max32.
Proof.
  change fexp32 with (FLT_exp (-149) 24). apply generic_format_FLT. exists (Float radix2 16777215 104); [reflexivity|cbn; lia|cbn; lia].
Qed.
Lemma max32_lt : max32 < bpow radix2 128.
Proof.
  replace (bpow radix2 128) with (16777216 * pow2 104). { apply Rmult_lt_compat_r; [apply pow2_pos|lra]. }
  change 16777216 with (bpow radix2 24). unfold pow2. now rewrite <- bpow_plus.
Qed.
Lemma to_f32_ok x : finite x -> pow2 (-125) <= val x <= max32 ->
  exists m e H, to_f32 x = B754_finite 24 128 false m e H /\ (2 ^ 23 <= Z.pos m)%Z /\
    pow2 (-125) <= val32 (to_f32 x) <= max32 /\ exists d, Rabs d <= u32 /\ val32 (to_f32 x) = val x * (1 + d).
Proof.
  intros Fx (L & U). pose proof (pow2_pos (-125)) as P.
  assert (A : Rabs (val x) = val x) by (apply Rabs_pos_eq; lra).
  destruct (round32 (val x)) as (d & D & E). { rewrite A. apply (Rle_trans _ (pow2 (-125))); [apply bpow_le; lia|exact L]. }
  assert (RL : pow2 (-125) <= round radix2 fexp32 (round_mode mode_NE) (val x)).
  { apply round_ge_generic; [typeclasses eauto|typeclasses eauto| |exact L]. apply generic_format_bpow. unfold SpecFloat.fexp, SpecFloat.emin. lia. }
  assert (RU : round radix2 fexp32 (round_mode mode_NE) (val x) <= max32).
  { apply round_le_generic; [typeclasses eauto|typeclasses eauto|exact max32_format|exact U]. }
  destruct x as [s|s|s pl N|s m e H]; cbn [is_finite] in Fx; try discriminate. { cbn in L. lra. }
  cbn [to_f32].
  pose proof (binary_normalize_correct 24 128 eq_refl eq_refl mode_NE (SpecFloat.cond_Zopp s (Z.pos m)) e s) as C.
  change (F2R (Float radix2 (SpecFloat.cond_Zopp s (Z.pos m)) e)) with (val (B754_finite 53 1024 s m e H)) in C.
  rewrite Rlt_bool_true in C.
  2: { rewrite Rabs_pos_eq by lra. pose proof max32_lt. lra. }
  destruct C as (V & F & _).
  set (n := binary_normalize 24 128 eq_refl eq_refl mode_NE (SpecFloat.cond_Zopp s (Z.pos m)) e s) in *. clearbody n.
  assert (Vn : val32 n = round radix2 fexp32 (round_mode mode_NE) (val (B754_finite 53 1024 s m e H))) by exact V.
  destruct n as [s'|s'|s' pl N|s' m' e' H']; cbn [is_finite] in F; try discriminate. { change (val32 (B754_zero 24 128 s')) with 0 in Vn. lra. }
  assert (s' = false) as ->.
  { destruct s'; auto. exfalso. unfold val32, B2R, F2R in Vn. cbn [Fnum Fexp SpecFloat.cond_Zopp] in Vn.
    assert (IZR (- Z.pos m') < 0) by (apply IZR_lt; lia). pose proof (pow2_pos e'). unfold pow2 in *. nra. }
  exists m', e', H'. split; auto. split.
  { destruct (proj1 (bounded32_iff m' e') H') as (M & _ & [C|C]); [exact C|]. subst e'.
    apply Z.le_trans with (2 ^ 24)%Z; [lia|]. apply le_IZR. change (IZR (2 ^ 24)) with 16777216.
    unfold val32, B2R, F2R in Vn. cbn [Fnum Fexp SpecFloat.cond_Zopp] in Vn.
    assert (Q : 16777216 * pow2 (-149) = pow2 (-125)) by (unfold pow2; cbn; lra).
    pose proof (pow2_pos (-149)). unfold pow2 in *. nra. }
  rewrite Vn. split; [lra|]. exists d. split; auto.
Qed.

(** ** The whole function *)
Lemma sqrt_near d : Rabs d <= u32 -> 1 - u32 <= sqrt (1 + d) <= 1 + u32.
Proof.
  intros H. apply in_abs in H. pose proof u32_small. split.
  - rewrite <- (sqrt_square (1 - u32)) by lra. apply sqrt_le_1; nra.
  - rewrite <- (sqrt_square (1 + u32)) by lra. apply sqrt_le_1; nra.
Qed.
Lemma quick_ok checked x : finite x -> pow2 (-125) <= val x <= max32 ->
  exists y, quick_inv_sqrt checked x = Ok y /\ finite y /\ Rabs (val y * sqrt (val x) - 1) <= 5 / 1000000.
Proof.
  intros Fx B. destruct (to_f32_ok x Fx B) as (m & e & H & N & M & (NL & NU) & d & D & Vn).
  pose proof (proj1 (bounded32_iff m e) H) as (M2 & E & _).
  pose proof (pow2_pos (-125)) as P. pose proof u32_small as US.
  unfold quick_inv_sqrt. cbv zeta.
  assert (I : as_i32 (to_f32 x) = ((e + 149) * 2 ^ 23 + Z.pos m)%Z).
  { unfold as_i32. rewrite N, bits32_finite. cbv zeta. destruct (Z.ltb_spec ((e + 149) * 2 ^ 23 + Z.pos m) (2 ^ 31)); lia. }
  rewrite I. rewrite Z.shiftr_div_pow2 by lia. change (2 ^ 1)%Z with 2%Z.
  change 0x5f3759df%Z with magic.
  assert (J : (2 ^ 31 <=? magic - ((e + 149) * 2 ^ 23 + Z.pos m) / 2)%Z = false).
  { apply Z.leb_gt. assert (0 <= ((e + 149) * 2 ^ 23 + Z.pos m) / 2)%Z by (apply Z.div_pos; lia). unfold magic. lia. }
  rewrite J, andb_false_r.
  destruct (guess_ok (Z.pos m) e) as (Fy & Py & Ty); [lia|lia|].
  set (y0 := of_i32 (magic - ((e + 149) * 2 ^ 23 + Z.pos m) / 2)) in *.
  assert (Vm : val32 (to_f32 x) = IZR (Z.pos m) * pow2 e) by (rewrite N; reflexivity).
  assert (Fn : finite32 (to_f32 x)) by (rewrite N; reflexivity).
  rewrite <- Vm in Ty. set (n := to_f32 x) in *.
  destruct half32_val as (Fh & Vh).
  assert (Q126 : pow2 (-126) * 2 = pow2 (-125)) by (unfold pow2; cbn; lra).
  assert (M128 : max32 * (1 / 2) <= pow2 127).
  { pose proof max32_lt as ML. replace (bpow radix2 128) with (2 * pow2 127) in ML by (unfold pow2; change 2 with (bpow radix2 1); now rewrite <- bpow_plus). lra. }
  destruct (mul32_ok n half32 Fn Fh) as (F2 & d0 & D0 & V2).
  { rewrite Vh, Rabs_pos_eq by lra. split; [lra|]. lra. }
  set (r := sqrt (val32 n)).
  assert (RR : r * r = val32 n) by (apply sqrt_sqrt; lra).
  assert (R0 : 0 < r) by (apply sqrt_lt_R0; lra).
  assert (RB : pow2 (-63) <= r <= pow2 64).
  { split.
    - apply Rsqr_incr_0_var; [|lra]. unfold Rsqr. rewrite RR. apply (Rle_trans _ (pow2 (-125))); [|exact NL]. unfold pow2. rewrite <- bpow_plus. apply bpow_le. lia.
    - apply Rsqr_incr_0_var; [|apply Rlt_le, pow2_pos]. unfold Rsqr. rewrite RR. pose proof max32_lt. unfold pow2. rewrite <- bpow_plus. change (64 + 64)%Z with 128%Z. lra. }
  set (u0 := val32 y0 * r).
  assert (U0 : 0 < u0) by (apply Rmult_lt_0_compat; auto).
  assert (UT : 9324 / 10000 <= u0 * u0 <= 10692 / 10000).
  { replace (u0 * u0) with (val32 y0 * val32 y0 * (r * r)) by (unfold u0; ring). rewrite RR. exact Ty. }
  assert (V2' : val32 (mul32 n half32) = r * r / 2 * (1 + d0)) by (rewrite V2, Vh, RR; field).
  destruct (newton_ok _ _ _ _ _ F2 Fy R0 RB V2' D0 (eq_refl u0)) as (F3 & D1 & E1 & HD1 & HE1 & V3).
  { split; nra. }
  pose proof (newton_twice u0 D1 E1 0 0 U0 UT HD1 HE1) as W1. cbv zeta in W1. rewrite <- V3 in W1.
  destruct W1 as (W1 & _); [rewrite Rabs_R0; lra|rewrite Rabs_R0; lra|].
  destruct (newton_ok _ _ _ _ _ F2 F3 R0 RB V2' D0 (eq_refl _)) as (F4 & D2 & E2 & HD2 & HE2 & V4).
  { lra. }
  pose proof (newton_twice u0 D1 E1 D2 E2 U0 UT HD1 HE1 HD2 HE2) as W2. cbv zeta in W2. rewrite <- V3, <- V4 in W2.
  destruct W2 as (_ & W2).
  destruct (to_f64_ok _ F4) as (F5 & V5).
  eexists. split; [reflexivity|]. split; [exact F5|]. rewrite V5.
  set (v := val32 (newton_step (mul32 n half32) (newton_step (mul32 n half32) y0))) in *. clearbody v.
  assert (S : r = sqrt (val x) * sqrt (1 + d)).
  { unfold r. rewrite Vn. apply sqrt_mult; [lra|]. apply in_abs in D. lra. }
  pose proof (sqrt_near d D) as SD. set (q := sqrt (1 + d)) in *. rewrite S in W2.
  assert (W3 : - (49 / 10000000) <= v * (sqrt (val x) * q) - 1 <= 49 / 10000000).
  { unfold Rabs in W2. destruct (Rcase_abs _); lra. }
  set (w := v * sqrt (val x)). replace (v * (sqrt (val x) * q)) with (w * q) in W3 by (unfold w; ring).
  clearbody w q. apply Rabs_le. unfold u32 in *. split; nra.
Qed.

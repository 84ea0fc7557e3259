(** Lemmas on double-precision arithmetic: what one operation does to exact results *)
From Coq Require Import ZArith Bool List Reals Lia Lra Psatz.
From Flocq Require Import Core IEEE754.BinarySingleNaN IEEE754.Binary IEEE754.Bits.
From Flocq Require Import Relative Plus_error.
From Verif.Common Require Import Base.
From Verif.Geometry Require Import RoundErrorModel RoundErrorProofs QuickInvSqrtModel MachineModel.
Open Scope R_scope.

Local Instance m_prec64 : Prec_gt_0 53 := eq_refl.
Local Instance m_prec64_lt : Prec_lt_emax 53 1024 := eq_refl.
Local Instance m_valid64 : Valid_exp fexp64 := fexp_correct 53 1024 _.
Definition u64 : R := / 9007199254740992.
Definition tiny64 : R := pow2 (-1075).
Notation rnd x := (round radix2 fexp64 (round_mode mode_NE) x).
Lemma u64_small : 0 < u64 <= 12 / 100000000000000000. Proof. unfold u64. lra. Qed.
Lemma tiny64_pos : 0 < tiny64. Proof. apply pow2_pos. Qed.
Lemma round64 x : exists d t, Rabs d <= u64 /\ Rabs t <= tiny64 /\ rnd x = x * (1 + d) + t.
Proof.
  change fexp64 with (FLT_exp (-1074) 53).
  destruct (error_N_FLT radix2 (-1074) 53 eq_refl (fun x => negb (Z.even x)) x) as (d & t & D & T & _ & E).
  exists d, t. split; [|split; [|exact E]].
  - replace u64 with (/ 2 * bpow radix2 (- (53) + 1)); [exact D|]. unfold u64. cbn. lra.
  - replace tiny64 with (/ 2 * bpow radix2 (-1074)); [exact T|]. unfold tiny64, pow2. replace (-1074)%Z with (-1075 + 1)%Z by lia. rewrite bpow_plus. change (bpow radix2 1) with 2. lra.
Qed.
Lemma round64_normal x : pow2 (-1022) <= Rabs x -> exists d, Rabs d <= u64 /\ rnd x = x * (1 + d).
Proof.
  intros H. change fexp64 with (FLT_exp (-1074) 53).
  destruct (relative_error_N_FLT_ex radix2 (-1074) 53 eq_refl (fun x => negb (Z.even x)) x H) as (d & D & E).
  exists d. split; [|exact E]. replace u64 with (/ 2 * bpow radix2 (- (53) + 1)); [exact D|]. unfold u64. cbn. lra.
Qed.
Lemma round64_fits x : Rabs x <= pow2 1023 -> Rabs (rnd x) < bpow radix2 1024.
Proof.
  intros H. apply (Rle_lt_trans _ (pow2 1023)); [|apply bpow_lt; lia].
  apply abs_round_le_generic; [typeclasses eauto|typeclasses eauto| |exact H].
  apply generic_format_bpow. unfold SpecFloat.fexp, SpecFloat.emin. lia.
Qed.
Lemma val_format a : generic_format radix2 fexp64 (val a).
Proof. apply generic_format_B2R. Qed.
Lemma u_ro64 d : Rabs d <= u_ro radix2 53 / (1 + u_ro radix2 53) -> Rabs d <= u64.
Proof.
  intros H. eapply Rle_trans; [exact H|]. replace (u_ro radix2 53) with u64 by (unfold u_ro, u64; cbn; lra).
  pose proof u64_small. apply Rmult_le_reg_r with (1 + u64); [lra|]. replace (u64 / (1 + u64) * (1 + u64)) with u64 by (field; lra). nra.
Qed.
Lemma fadd_ok a b : finite a -> finite b -> Rabs (val a + val b) <= pow2 1023 ->
  finite (fadd a b) /\ exists d, Rabs d <= u64 /\ val (fadd a b) = (val a + val b) * (1 + d).
Proof.
  intros Fa Fb U. unfold fadd, b64_plus.
  pose proof (Bplus_correct 53 1024 m_prec64 m_prec64_lt binop_nan_pl64 mode_NE a b Fa Fb) as C.
  rewrite Rlt_bool_true in C by now apply round64_fits. destruct C as (V & F & _). split; [exact F|].
  destruct (FLT_plus_error_N_ex radix2 (-1074) 53 (fun x => negb (Z.even x)) (val a) (val b) (val_format a) (val_format b)) as (d & D & E).
  exists d. split; [now apply u_ro64|]. unfold val at 1. etransitivity; [exact V|exact E].
Qed.
Lemma fsub_ok a b : finite a -> finite b -> Rabs (val a - val b) <= pow2 1023 ->
  finite (fsub a b) /\ exists d, Rabs d <= u64 /\ val (fsub a b) = (val a - val b) * (1 + d).
Proof.
  intros Fa Fb U. unfold fsub, b64_minus.
  pose proof (Bminus_correct 53 1024 m_prec64 m_prec64_lt binop_nan_pl64 mode_NE a b Fa Fb) as C.
  rewrite Rlt_bool_true in C by now apply round64_fits. destruct C as (V & F & _). split; [exact F|].
  destruct (FLT_plus_error_N_ex radix2 (-1074) 53 (fun x => negb (Z.even x)) (val a) (- val b) (val_format a) (generic_format_opp _ _ _ (val_format b))) as (d & D & E).
  exists d. split; [now apply u_ro64|]. unfold val at 1. etransitivity; [exact V|exact E].
Qed.
Lemma fmul_ok a b : finite a -> finite b -> Rabs (val a * val b) <= pow2 1023 ->
  finite (fmul a b) /\ exists d t, Rabs d <= u64 /\ Rabs t <= tiny64 /\ val (fmul a b) = val a * val b * (1 + d) + t.
Proof.
  intros Fa Fb U. unfold fmul, b64_mult.
  pose proof (Bmult_correct 53 1024 m_prec64 m_prec64_lt binop_nan_pl64 mode_NE a b) as C.
  rewrite Rlt_bool_true in C by now apply round64_fits. destruct C as (V & F & _). split. { rewrite Fa, Fb in F. exact F. }
  destruct (round64 (val a * val b)) as (d & t & D & T & E).
  exists d, t. split; [exact D|]. split; [exact T|]. unfold val at 1. etransitivity; [exact V|exact E].
Qed.
Lemma fmul_normal a b : finite a -> finite b -> pow2 (-1022) <= Rabs (val a * val b) <= pow2 1023 ->
  finite (fmul a b) /\ exists d, Rabs d <= u64 /\ val (fmul a b) = val a * val b * (1 + d).
Proof.
  intros Fa Fb (L & U). unfold fmul, b64_mult.
  pose proof (Bmult_correct 53 1024 m_prec64 m_prec64_lt binop_nan_pl64 mode_NE a b) as C.
  rewrite Rlt_bool_true in C by now apply round64_fits. destruct C as (V & F & _). split. { rewrite Fa, Fb in F. exact F. }
  destruct (round64_normal _ L) as (d & D & E).
  exists d. split; [exact D|]. unfold val at 1. etransitivity; [exact V|exact E].
Qed.
Lemma fdiv_normal a b : finite a -> finite b -> val b <> 0 -> pow2 (-1022) <= Rabs (val a / val b) <= pow2 1023 ->
  finite (fdiv a b) /\ exists d, Rabs d <= u64 /\ val (fdiv a b) = val a / val b * (1 + d).
Proof.
  intros Fa Fb NZ (L & U). unfold fdiv, b64_div.
  pose proof (Bdiv_correct 53 1024 m_prec64 m_prec64_lt binop_nan_pl64 mode_NE a b NZ) as C.
  rewrite Rlt_bool_true in C by now apply round64_fits. destruct C as (V & F & _). split. { rewrite Fa in F. exact F. }
  destruct (round64_normal _ L) as (d & D & E).
  exists d. split; [exact D|]. unfold val at 1. etransitivity; [exact V|exact E].
Qed.
Lemma fdiv_ok a b : finite a -> finite b -> val b <> 0 -> Rabs (val a / val b) <= pow2 1023 ->
  finite (fdiv a b) /\ exists d t, Rabs d <= u64 /\ Rabs t <= tiny64 /\ val (fdiv a b) = val a / val b * (1 + d) + t.
Proof.
  intros Fa Fb NZ U. unfold fdiv, b64_div.
  pose proof (Bdiv_correct 53 1024 m_prec64 m_prec64_lt binop_nan_pl64 mode_NE a b NZ) as C.
  rewrite Rlt_bool_true in C by now apply round64_fits. destruct C as (V & F & _). split. { rewrite Fa in F. exact F. }
  destruct (round64 (val a / val b)) as (d & t & D & T & E).
  exists d, t. split; [exact D|]. split; [exact T|]. unfold val at 1. etransitivity; [exact V|exact E].
Qed.
Lemma fneg_ok a : finite a -> finite (fneg a) /\ val (fneg a) = - val a.
Proof. intros F. unfold fneg, b64_opp, val. rewrite B2R_Bopp, is_finite_Bopp. auto. Qed.
Lemma fsqrt_normal a : finite a -> pow2 (-1022) <= val a ->
  finite (fsqrt a) /\ exists d, Rabs d <= u64 /\ val (fsqrt a) = sqrt (val a) * (1 + d).
Proof.
  intros Fa L. pose proof (pow2_pos (-1022)) as P. unfold fsqrt, b64_sqrt.
  destruct (Bsqrt_correct 53 1024 m_prec64 m_prec64_lt unop_nan_pl64 mode_NE a) as (V & F & _).
  split.
  - etransitivity; [exact F|]. destruct a as [| | |s m e H]; auto. destruct s; auto. exfalso.
    rewrite val_finite in L. cbn [SpecFloat.cond_Zopp] in L. assert (IZR (- Z.pos m) < 0) by (apply IZR_lt; lia). pose proof (pow2_pos e). nra.
  - destruct (round64_normal (sqrt (val a))) as (d & D & E).
    { rewrite Rabs_pos_eq by apply sqrt_pos. apply (Rle_trans _ (pow2 (-511))); [apply bpow_le; lia|].
      rewrite <- (sqrt_square (pow2 (-511))) by apply Rlt_le, pow2_pos. apply sqrt_le_1.
      - apply Rle_0_sqr. - lra. - unfold pow2 in *. now rewrite <- bpow_plus. }
    exists d. split; [exact D|]. unfold val at 1. etransitivity; [exact V|exact E].
Qed.

(** ** Sums of squares *)
Lemma in_abs_of d c : Rabs d <= c -> - c <= d <= c.
Proof. intros H. unfold Rabs in H. destruct (Rcase_abs d); lra. Qed.
(** The exact square of the length of a vector *)
Definition S3 (v : vec) : R := val (vec_x v) * val (vec_x v) + val (vec_y v) * val (vec_y v) + val (vec_z v) * val (vec_z v).
Definition finite3 (v : vec) : Prop := finite (vec_x v) /\ finite (vec_y v) /\ finite (vec_z v).
Definition within3 (b : R) (v : vec) : Prop := Rabs (val (vec_x v)) <= b /\ Rabs (val (vec_y v)) <= b /\ Rabs (val (vec_z v)) <= b.
Lemma square_within b x : Rabs x <= b -> 0 <= x * x <= b * b.
Proof. intros H. pose proof (Rabs_pos x). split; [nra|]. assert (x * x = Rabs x * Rabs x) by (rewrite <- Rabs_mult; symmetry; apply Rabs_pos_eq; nra). nra. Qed.
Lemma S3_nonneg v : 0 <= S3 v.
Proof. unfold S3. nra. Qed.
Lemma S3_within b v : within3 b v -> S3 v <= 3 * (b * b).
Proof. intros (X & Y & Z). apply square_within in X, Y, Z. unfold S3. lra. Qed.
Lemma product_near c1 c2 c3 : Rabs c1 <= u64 -> Rabs c2 <= u64 -> Rabs c3 <= u64 -> Rabs ((1 + c1) * (1 + c2) * (1 + c3) - 1) <= 31 / 10 * u64.
Proof.
  intros H1 H2 H3. apply in_abs_of in H1, H2, H3. pose proof u64_small. apply Rabs_le.
  assert (A : 1 - 2 * u64 <= (1 + c1) * (1 + c2) <= 1 + 201 / 100 * u64) by (split; nra).
  set (q := (1 + c1) * (1 + c2)) in *. split; nra.
Qed.
Lemma length_squared_ok v : finite3 v -> within3 (pow2 500) v ->
  finite (length_squared v) /\ Rabs (val (length_squared v) - S3 v) <= 31 / 10 * u64 * S3 v + 4 * tiny64.
Proof.
  intros (Fx & Fy & Fz) (Bx & By & Bz). unfold length_squared, S3.
  set (x := vec_x v) in *. set (y := vec_y v) in *. set (z := vec_z v) in *. clearbody x y z.
  pose proof (square_within _ _ Bx) as Sx. pose proof (square_within _ _ By) as Sy. pose proof (square_within _ _ Bz) as Sz.
  assert (P : pow2 500 * pow2 500 = pow2 1000) by (unfold pow2; now rewrite <- bpow_plus).
  assert (P2 : 16 * pow2 1000 = pow2 1004) by (unfold pow2; change 16 with (bpow radix2 4); now rewrite <- bpow_plus).
  assert (P3 : pow2 1004 <= pow2 1023) by (apply bpow_le; lia).
  assert (P4 : 1 <= pow2 1000) by (change 1 with (bpow radix2 0); apply bpow_le; lia).
  assert (T1 : tiny64 <= 1) by (change 1 with (bpow radix2 0); apply bpow_le; lia).
  pose proof tiny64_pos as T0. pose proof u64_small as US. rewrite P in *.
  destruct (fmul_ok x x Fx Fx) as (F1 & d1 & t1 & D1 & H1 & V1). { rewrite Rabs_pos_eq by lra. lra. }
  destruct (fmul_ok y y Fy Fy) as (F2 & d2 & t2 & D2 & H2 & V2). { rewrite Rabs_pos_eq by lra. lra. }
  destruct (fmul_ok z z Fz Fz) as (F3 & d3 & t3 & D3 & H3 & V3). { rewrite Rabs_pos_eq by lra. lra. }
  set (X := val x * val x) in *. set (Y := val y * val y) in *. set (Z := val z * val z) in *. clearbody X Y Z.
  assert (A1 : forall w d t, 0 <= w <= pow2 1000 -> Rabs d <= u64 -> Rabs t <= tiny64 -> Rabs (w * (1 + d) + t) <= 3 * pow2 1000).
  { intros w d t W D T. apply in_abs_of in D, T. apply Rabs_le. split; nra. }
  pose proof (A1 _ _ _ Sx D1 H1) as B1. pose proof (A1 _ _ _ Sy D2 H2) as B2. pose proof (A1 _ _ _ Sz D3 H3) as B3.
  rewrite <- V1 in B1. rewrite <- V2 in B2. rewrite <- V3 in B3.
  destruct (fadd_ok (fmul x x) (fmul y y) F1 F2) as (F4 & d4 & D4 & V4).
  { eapply Rle_trans; [apply Rabs_triang|]. lra. }
  assert (B4 : Rabs (val (fadd (fmul x x) (fmul y y))) <= 8 * pow2 1000).
  { rewrite V4, Rabs_mult. assert (Rabs (1 + d4) <= 101 / 100) by (apply in_abs_of in D4; apply Rabs_le; lra).
    assert (Rabs (val (fmul x x) + val (fmul y y)) <= 6 * pow2 1000) by (eapply Rle_trans; [apply Rabs_triang|]; lra).
    pose proof (Rabs_pos (1 + d4)). pose proof (Rabs_pos (val (fmul x x) + val (fmul y y))). nra. }
  destruct (fadd_ok (fadd (fmul x x) (fmul y y)) (fmul z z) F4 F3) as (F5 & d5 & D5 & V5).
  { eapply Rle_trans; [apply Rabs_triang|]. lra. }
  split; [exact F5|]. rewrite V5, V4, V1, V2, V3.
  pose proof (product_near d1 d4 d5 D1 D4 D5) as Q1. pose proof (product_near d2 d4 d5 D2 D4 D5) as Q2.
  assert (Q3 : Rabs ((1 + d3) * (1 + d5) - 1) <= 31 / 10 * u64).
  { replace ((1 + d3) * (1 + d5) - 1) with ((1 + d3) * (1 + d5) * (1 + 0) - 1) by ring. apply product_near; auto. rewrite Rabs_R0. lra. }
  assert (Q4 : Rabs ((1 + d4) * (1 + d5) - 1) <= 31 / 10 * u64).
  { replace ((1 + d4) * (1 + d5) - 1) with ((1 + d4) * (1 + d5) * (1 + 0) - 1) by ring. apply product_near; auto. rewrite Rabs_R0. lra. }
  replace (((X * (1 + d1) + t1 + (Y * (1 + d2) + t2)) * (1 + d4) + (Z * (1 + d3) + t3)) * (1 + d5) - (X + Y + Z)) with
    (X * ((1 + d1) * (1 + d4) * (1 + d5) - 1) + Y * ((1 + d2) * (1 + d4) * (1 + d5) - 1) + Z * ((1 + d3) * (1 + d5) - 1)
     + (t1 + t2) * ((1 + d4) * (1 + d5)) + t3 * (1 + d5)) by ring.
  set (q1 := (1 + d1) * (1 + d4) * (1 + d5) - 1) in *. set (q2 := (1 + d2) * (1 + d4) * (1 + d5) - 1) in *. set (q3 := (1 + d3) * (1 + d5) - 1) in *.
  replace ((1 + d4) * (1 + d5)) with (1 + ((1 + d4) * (1 + d5) - 1)) by ring. set (q4 := (1 + d4) * (1 + d5) - 1) in *. clearbody q1 q2 q3 q4.
  apply in_abs_of in Q1, Q2, Q3, Q4, H1, H2, H3, D5. clear - Q1 Q2 Q3 Q4 H1 H2 H3 D5 US T0 Sx Sy Sz.
  assert (K1 : - (31 / 10 * u64 * X) <= X * q1 <= 31 / 10 * u64 * X) by (split; nra).
  assert (K2 : - (31 / 10 * u64 * Y) <= Y * q2 <= 31 / 10 * u64 * Y) by (split; nra).
  assert (K3 : - (31 / 10 * u64 * Z) <= Z * q3 <= 31 / 10 * u64 * Z) by (split; nra).
  assert (K4 : - (21 / 10 * tiny64) <= (t1 + t2) * (1 + q4) <= 21 / 10 * tiny64) by (split; nra).
  assert (K5 : - (11 / 10 * tiny64) <= t3 * (1 + d5) <= 11 / 10 * tiny64) by (split; nra).
  apply Rabs_le. lra.
Qed.

(** ** Constants and comparisons *)
Lemma fle_val a b : finite a -> finite b -> (fle a b = true <-> val a <= val b).
Proof.
  intros Fa Fb. unfold fle, b64_compare. rewrite Bcompare_correct by auto. fold (val a) (val b).
  destruct (Rcompare_spec (val a) (val b)); split; intros; try lra; discriminate || reflexivity.
Qed.
Lemma const_val f m e : SpecFloat.bounded 53 1024 m e = true -> bits_of_b64 f = ((e + 1074) * 2 ^ 52 + Z.pos m)%Z -> finite f /\ val f = IZR (Z.pos m) * pow2 e.
Proof.
  intros H B. rewrite <- (of_bits_bits f), B.
  replace ((e + 1074) * 2 ^ 52 + Z.pos m)%Z with (bits_of_b64 (B754_finite 53 1024 false m e H)) by (rewrite bits_finite; unfold sbit; lia).
  rewrite of_bits_bits. split; reflexivity.
Qed.
Lemma pow2_IZR e : (e < 0)%Z -> pow2 e = / IZR (2 ^ (- e)).
Proof. intros H. unfold pow2. rewrite <- (Z.opp_involutive e) at 1. rewrite bpow_opp. f_equal. symmetry. apply (IZR_Zpower radix2). lia. Qed.
Lemma f_1e_20_val : finite f_1e_20 /\ 9 / 10 ^ 21 <= val f_1e_20 <= 11 / 10 ^ 21.
Proof.
  destruct (const_val f_1e_20 6646139978924579 (-119)) as (F & V); [reflexivity|vm_compute; reflexivity|]. split; [exact F|]. rewrite V, pow2_IZR by lia.
  match goal with |- context [IZR (2 ^ ?k)] => let v := eval vm_compute in (2 ^ k)%Z in change (2 ^ k)%Z with v end. lra.
Qed.
Lemma f_tiny_val : finite f_tiny /\ 2 / 10 ^ 14 <= val f_tiny <= 3 / 10 ^ 14.
Proof.
  destruct (const_val f_tiny 7036874417766400 (-98)) as (F & V); [reflexivity|vm_compute; reflexivity|]. split; [exact F|]. rewrite V, pow2_IZR by lia.
  match goal with |- context [IZR (2 ^ ?k)] => let v := eval vm_compute in (2 ^ k)%Z in change (2 ^ k)%Z with v end. lra.
Qed.
Lemma f_1e_6_val : finite (fmul f_1e_3 f_1e_3) /\ 9 / 10 ^ 7 <= val (fmul f_1e_3 f_1e_3) <= 11 / 10 ^ 7.
Proof.
  destruct (const_val (fmul f_1e_3 f_1e_3) 4722366482869645 (-72)) as (F & V); [reflexivity|vm_compute; reflexivity|]. split; [exact F|]. rewrite V, pow2_IZR by lia.
  match goal with |- context [IZR (2 ^ ?k)] => let v := eval vm_compute in (2 ^ k)%Z in change (2 ^ k)%Z with v end. lra.
Qed.
Lemma f_two_val : finite f_two /\ val f_two = 2.
Proof. split; [reflexivity|]. unfold val, f_two. cbn. unfold F2R. cbn. lra. Qed.
Lemma tiny64_small : tiny64 <= 1 / 10 ^ 60.
Proof.
  apply (Rle_trans _ (pow2 (-200))); [apply bpow_le; lia|]. rewrite pow2_IZR by lia.
  match goal with |- context [IZR (2 ^ ?k)] => let v := eval vm_compute in (2 ^ k)%Z in change (2 ^ k)%Z with v end. lra.
Qed.

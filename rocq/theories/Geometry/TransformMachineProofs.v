(** How far the rows of transforms in machine arithmetic are from the exact ones *)
From Coq Require Import ZArith Bool List Reals Lia Lra Psatz.
From Flocq Require Import Core IEEE754.BinarySingleNaN IEEE754.Binary IEEE754.Bits.
From Verif.Geometry Require Import RoundErrorModel RoundErrorProofs QuickInvSqrtModel MachineModel MachineProofs TransformMachineModel.
Import ListNotations.
Open Scope R_scope.

Lemma fabs_ok a : finite a -> finite (fabs a) /\ val (fabs a) = Rabs (val a).
Proof. intros F. unfold fabs, b64_abs, val. rewrite B2R_Babs, is_finite_Babs. auto. Qed.
Lemma f_one_val : finite f_one /\ val f_one = 1.
Proof. destruct (const_val f_one 4503599627370496 (-52)) as (F & V); [reflexivity|vm_compute; reflexivity|]. split; [exact F|]. rewrite V, pow2_IZR by lia. simpl. lra. Qed.
Lemma gamma3_val : finite gamma3 /\ val gamma3 = 3 * u64 + 8 * (u64 * u64).
Proof.
  destruct (const_val gamma3 6755399441055746 (-104)) as (F & V); [reflexivity|vm_compute; reflexivity|]. split; [exact F|].
  rewrite V, pow2_IZR by lia. unfold u64.
  match goal with |- context [IZR (2 ^ ?k)] => let v := eval vm_compute in (2 ^ k)%Z in change (2 ^ k)%Z with v end. lra.
Qed.
Lemma one_gamma_val : finite (fadd f_one gamma3) /\ val (fadd f_one gamma3) = 1 + 4 * u64.
Proof.
  destruct (const_val (fadd f_one gamma3) 4503599627370498 (-52)) as (F & V); [reflexivity|vm_compute; reflexivity|]. split; [exact F|].
  rewrite V, pow2_IZR by lia. unfold u64.
  match goal with |- context [IZR (2 ^ ?k)] => let v := eval vm_compute in (2 ^ k)%Z in change (2 ^ k)%Z with v end. lra.
Qed.

(** [M]: the largest products considered *)
Notation M := (pow2 1000).
Lemma M_big : 1 <= M. Proof. change 1 with (bpow radix2 0). apply bpow_le. lia. Qed.
Lemma M_small : 64 * M <= pow2 1023.
Proof. unfold pow2. change 64 with (bpow radix2 6). rewrite <- bpow_plus. apply bpow_le. lia. Qed.
Lemma tiny_M : tiny64 <= M. Proof. apply bpow_le. lia. Qed.

Lemma u64_2 : 0 < u64 * u64 <= u64 / 1000.
Proof. pose proof u64_small. split; [apply Rmult_lt_0_compat; lra|]. unfold Rdiv. apply Rmult_le_compat_l; lra. Qed.
Lemma u64_3 : 0 < u64 * u64 * u64 <= u64 * u64 / 1000.
Proof. pose proof u64_small. pose proof u64_2. split; [apply Rmult_lt_0_compat; lra|]. unfold Rdiv. apply Rmult_le_compat_l; lra. Qed.
Lemma near_1 d : Rabs d <= u64 -> 1 - u64 <= 1 + d <= 1 + u64.
Proof. intros H. apply in_abs_of in H. lra. Qed.
Lemma near_2 p q : 1 - u64 <= p <= 1 + u64 -> 1 - u64 <= q <= 1 + u64 -> 1 - 2 * u64 <= p * q <= 1 + 2 * u64 + u64 * u64.
Proof. pose proof u64_small. intros. split; nra. Qed.
Lemma near_3 p q : 1 - 2 * u64 <= p <= 1 + 2 * u64 + u64 * u64 -> 1 - u64 <= q <= 1 + u64 -> 1 - 3 * u64 <= p * q <= 1 + 3 * u64 + 4 * (u64 * u64).
Proof. pose proof u64_small. intros. split; nra. Qed.
Lemma near_4 p q : 1 - 3 * u64 <= p <= 1 + 3 * u64 + 4 * (u64 * u64) -> 1 - u64 <= q <= 1 + u64 -> 1 - 4 * u64 <= p * q <= 1 + 4 * u64 + 8 * (u64 * u64).
Proof. pose proof u64_small. intros. split; nra. Qed.

Lemma bounded_product v k : 1 - 4 * u64 <= v <= 1 + 4 * u64 + 8 * (u64 * u64) -> Rabs (k * (v - 1)) <= (4 * u64 + 8 * (u64 * u64)) * Rabs k.
Proof.
  intros H. rewrite Rabs_mult, Rmult_comm. apply Rmult_le_compat_r; [apply Rabs_pos|]. pose proof u64_small. apply Rabs_le. split; nra.
Qed.
Lemma bounded_product3 v k : 1 - 3 * u64 <= v <= 1 + 3 * u64 + 4 * (u64 * u64) -> Rabs (k * (v - 1)) <= (3 * u64 + 4 * (u64 * u64)) * Rabs k.
Proof.
  intros H. rewrite Rabs_mult, Rmult_comm. apply Rmult_le_compat_r; [apply Rabs_pos|]. pose proof u64_small. apply Rabs_le. split; nra.
Qed.
Lemma abs_tiny t p : Rabs t <= tiny64 -> 0 <= p <= 11 / 10 -> Rabs (t * p) <= 11 / 10 * tiny64.
Proof. intros T P. rewrite Rabs_mult, (Rabs_pos_eq p) by lra. pose proof (Rabs_pos t). nra. Qed.

Section Rows.
Variables a b c d x y z : f64.
Hypotheses (Fa : finite a) (Fb : finite b) (Fc : finite c) (Fd : finite d) (Fx : finite x) (Fy : finite y) (Fz : finite z).
Let A := val a * val x. Let B := val b * val y. Let C := val c * val z. Let D := val d.
Hypotheses (BA : Rabs A <= M) (BB : Rabs B <= M) (BC : Rabs C <= M) (BD : Rabs D <= M).
(** the sum of the sizes of the terms *)
Definition size4 : R := Rabs A + Rabs B + Rabs C + Rabs D.
Definition size3 : R := Rabs A + Rabs B + Rabs C.

Lemma term_ok p q : finite p -> finite q -> Rabs (val p * val q) <= M ->
  finite (fmul p q) /\ Rabs (val (fmul p q)) <= 3 * M /\ exists e t, Rabs e <= u64 /\ Rabs t <= tiny64 /\ val (fmul p q) = val p * val q * (1 + e) + t.
Proof.
  intros Fp Fq H. pose proof M_big. pose proof M_small. pose proof tiny_M. pose proof u64_small.
  destruct (fmul_ok p q Fp Fq) as (F & e & t & E & T & V); [lra|]. split; [exact F|]. split; [|exists e, t; auto].
  rewrite V. eapply Rle_trans; [apply Rabs_triang|]. rewrite Rabs_mult. assert (Rabs (1 + e) <= 101 / 100) by (apply in_abs_of in E; apply Rabs_le; lra).
  pose proof (Rabs_pos (val p * val q)). pose proof (Rabs_pos (1 + e)). nra.
Qed.
Lemma sum_ok p q K : finite p -> finite q -> Rabs (val p) + Rabs (val q) <= K -> K <= 50 * M ->
  finite (fadd p q) /\ Rabs (val (fadd p q)) <= 101 / 100 * K /\ exists e, Rabs e <= u64 /\ val (fadd p q) = (val p + val q) * (1 + e).
Proof.
  intros Fp Fq H K0. pose proof M_big. pose proof M_small. pose proof u64_small.
  assert (S : Rabs (val p + val q) <= K) by (eapply Rle_trans; [apply Rabs_triang|lra]).
  destruct (fadd_ok p q Fp Fq) as (F & e & E & V); [lra|]. split; [exact F|]. split; [|exists e; auto].
  rewrite V, Rabs_mult. assert (Rabs (1 + e) <= 101 / 100) by (apply in_abs_of in E; apply Rabs_le; lra).
  pose proof (Rabs_pos (val p + val q)). pose proof (Rabs_pos (1 + e)). nra.
Qed.

Lemma row3_ok : finite (row3 a b c x y z) /\ Rabs (val (row3 a b c x y z)) <= 20 * M /\
  Rabs (val (row3 a b c x y z) - (A + B + C)) <= (3 * u64 + 4 * (u64 * u64)) * size3 + 4 * tiny64.
Proof.
  pose proof M_big. pose proof u64_small as US. pose proof tiny64_pos as TP.
  destruct (term_ok a x Fa Fx BA) as (F1 & B1 & d1 & t1 & D1 & T1 & V1).
  destruct (term_ok b y Fb Fy BB) as (F2 & B2 & d2 & t2 & D2 & T2 & V2).
  destruct (term_ok c z Fc Fz BC) as (F3 & B3 & d3 & t3 & D3 & T3 & V3).
  destruct (sum_ok _ _ (6 * M) F1 F2) as (F4 & B4 & d4 & D4 & V4); [lra|lra|].
  destruct (sum_ok _ _ (10 * M) F4 F3) as (F5 & B5 & d5 & D5 & V5); [lra|lra|].
  split; [exact F5|]. split; [unfold row3; lra|]. unfold row3. rewrite V5, V4, V1, V2, V3. fold A B C.
  replace (((A * (1 + d1) + t1 + (B * (1 + d2) + t2)) * (1 + d4) + (C * (1 + d3) + t3)) * (1 + d5) - (A + B + C)) with
    (A * ((1 + d1) * (1 + d4) * (1 + d5) - 1) + B * ((1 + d2) * (1 + d4) * (1 + d5) - 1) + C * ((1 + d3) * (1 + d5) - 1)
     + (t1 * ((1 + d4) * (1 + d5)) + t2 * ((1 + d4) * (1 + d5)) + t3 * (1 + d5))) by ring.
  apply near_1 in D1, D2, D3, D4, D5.
  pose proof (bounded_product3 _ A (near_3 _ _ (near_2 _ _ D1 D4) D5)) as P1.
  pose proof (bounded_product3 _ B (near_3 _ _ (near_2 _ _ D2 D4) D5)) as P2.
  assert (P3 : Rabs (C * ((1 + d3) * (1 + d5) - 1)) <= (3 * u64 + 4 * (u64 * u64)) * Rabs C) by (apply bounded_product3; pose proof (near_2 _ _ D3 D5); split; nra).
  pose proof (near_2 _ _ D4 D5) as N45.
  assert (Q1 : Rabs (t1 * ((1 + d4) * (1 + d5))) <= 11 / 10 * tiny64) by (apply abs_tiny; [auto|split; nra]).
  assert (Q2 : Rabs (t2 * ((1 + d4) * (1 + d5))) <= 11 / 10 * tiny64) by (apply abs_tiny; [auto|split; nra]).
  assert (Q3 : Rabs (t3 * (1 + d5)) <= 11 / 10 * tiny64) by (apply abs_tiny; [auto|lra]).
  unfold size3.
  eapply Rle_trans; [apply Rabs_triang|]. apply Rplus_le_compat.
  - eapply Rle_trans; [apply Rabs_triang|]. eapply Rle_trans; [apply Rplus_le_compat_r; apply Rabs_triang|]. lra.
  - eapply Rle_trans; [apply Rabs_triang|]. eapply Rle_trans; [apply Rplus_le_compat_r; apply Rabs_triang|]. lra.
Qed.
Lemma row4_ok : finite (row4 a b c d x y z) /\ Rabs (val (row4 a b c d x y z)) <= 30 * M /\
  Rabs (val (row4 a b c d x y z) - (A + B + C + D)) <= (4 * u64 + 8 * (u64 * u64)) * size4 + 5 * tiny64.
Proof.
  pose proof M_big. pose proof u64_small as US. pose proof tiny64_pos as TP.
  destruct row3_ok as (F5 & B5 & E5). unfold row4. change (fadd (fadd (fmul a x) (fmul b y)) (fmul c z)) with (row3 a b c x y z).
  destruct (sum_ok _ _ (21 * M) F5 Fd) as (F6 & B6 & d6 & D6 & V6); [fold D; lra|lra|].
  split; [exact F6|]. split; [lra|]. rewrite V6. fold D. set (r := val (row3 a b c x y z)) in *.
  replace ((r + D) * (1 + d6) - (A + B + C + D)) with ((r - (A + B + C)) * (1 + d6) + (A + B + C + D) * d6) by ring.
  assert (S3 : Rabs (A + B + C + D) <= size4).
  { unfold size4. eapply Rle_trans; [apply Rabs_triang|]. apply Rplus_le_compat_r. eapply Rle_trans; [apply Rabs_triang|]. apply Rplus_le_compat_r. apply Rabs_triang. }
  assert (S0 : 0 <= size3 <= size4) by (unfold size3, size4; pose proof (Rabs_pos A); pose proof (Rabs_pos B); pose proof (Rabs_pos C); pose proof (Rabs_pos D); lra).
  eapply Rle_trans; [apply Rabs_triang|]. rewrite !Rabs_mult.
  assert (N6 : Rabs (1 + d6) <= 1 + u64) by (apply in_abs_of in D6; apply Rabs_le; lra).
  pose proof (Rabs_pos (1 + d6)). pose proof (Rabs_pos d6). pose proof (Rabs_pos (r - (A + B + C))). pose proof (Rabs_pos (A + B + C + D)).
  assert (X1 : Rabs (r - (A + B + C)) * Rabs (1 + d6) <= ((3 * u64 + 4 * (u64 * u64)) * size3 + 4 * tiny64) * (1 + u64)) by (apply Rmult_le_compat; auto).
  assert (X2 : Rabs (A + B + C + D) * Rabs d6 <= size4 * u64) by (apply Rmult_le_compat; auto).
  assert (X3 : (3 * u64 + 4 * (u64 * u64)) * size3 * (1 + u64) <= (3 * u64 + 8 * (u64 * u64)) * size4).
  { apply (Rle_trans _ ((3 * u64 + 8 * (u64 * u64)) * size3)); [|apply Rmult_le_compat_l; nra].
    replace ((3 * u64 + 4 * (u64 * u64)) * size3 * (1 + u64)) with ((3 * u64 + 7 * (u64 * u64) + 4 * (u64 * u64) * u64) * size3) by ring. apply Rmult_le_compat_r; nra. }
  nra.
Qed.
(** the sum of absolute values *)
Lemma abs4_ok : finite (abs4 a b c d x y z) /\
  (1 - 4 * u64) * size4 - 4 * tiny64 <= val (abs4 a b c d x y z) <= (1 + 4 * u64 + 8 * (u64 * u64)) * size4 + 4 * tiny64 /\ 0 <= val (abs4 a b c d x y z) <= 30 * M.
Proof.
  pose proof M_big. pose proof u64_small as US. pose proof tiny64_pos as TP.
  destruct (term_ok a x Fa Fx BA) as (F1 & B1 & d1 & t1 & D1 & T1 & V1).
  destruct (term_ok b y Fb Fy BB) as (F2 & B2 & d2 & t2 & D2 & T2 & V2).
  destruct (term_ok c z Fc Fz BC) as (F3 & B3 & d3 & t3 & D3 & T3 & V3).
  destruct (fabs_ok _ F1) as (G1 & W1). destruct (fabs_ok _ F2) as (G2 & W2). destruct (fabs_ok _ F3) as (G3 & W3). destruct (fabs_ok _ Fd) as (G0 & W0).
  fold D in W0.
  destruct (sum_ok _ _ (6 * M) G1 G2) as (F4 & B4 & d4 & D4 & V4); [rewrite W1, W2, !Rabs_Rabsolu; lra|lra|].
  destruct (sum_ok _ _ (10 * M) F4 G3) as (F5 & B5 & d5 & D5 & V5); [rewrite W3, Rabs_Rabsolu; lra|lra|].
  destruct (sum_ok _ _ (12 * M) F5 G0) as (F6 & B6 & d6 & D6 & V6); [rewrite W0, Rabs_Rabsolu; lra|lra|].
  split; [exact F6|]. fold (abs4 a b c d x y z) in B6. assert (VE : val (abs4 a b c d x y z) = (((Rabs (val (fmul a x)) + Rabs (val (fmul b y))) * (1 + d4) + Rabs (val (fmul c z))) * (1 + d5) + Rabs D) * (1 + d6)).
  { unfold abs4. rewrite V6, V5, V4, W1, W2, W3, W0. reflexivity. }
  assert (TERM : forall w e t, Rabs e <= u64 -> Rabs t <= tiny64 -> Rabs w * (1 - u64) - tiny64 <= Rabs (w * (1 + e) + t) <= Rabs w * (1 + u64) + tiny64).
  { intros w e t E T. apply near_1 in E. split.
    - replace (w * (1 + e) + t) with (w * (1 + e) - - t) by ring. pose proof (Rabs_triang_inv (w * (1 + e)) (- t)) as I. rewrite Rabs_Ropp in I.
      rewrite Rabs_mult, (Rabs_pos_eq (1 + e)) in I by lra. pose proof (Rabs_pos w). nra.
    - eapply Rle_trans; [apply Rabs_triang|]. rewrite Rabs_mult, (Rabs_pos_eq (1 + e)) by lra. pose proof (Rabs_pos w). nra. }
  pose proof (TERM A d1 t1 D1 T1) as X1. pose proof (TERM B d2 t2 D2 T2) as X2. pose proof (TERM C d3 t3 D3 T3) as X3.
  fold A B C in V1, V2, V3. rewrite <- V1 in X1. rewrite <- V2 in X2. rewrite <- V3 in X3.
  apply near_1 in D4, D5, D6.
  set (P := Rabs (val (fmul a x))) in *. set (Q := Rabs (val (fmul b y))) in *. set (T := Rabs (val (fmul c z))) in *.
  assert (P0 : 0 <= P) by apply Rabs_pos. assert (Q0 : 0 <= Q) by apply Rabs_pos. assert (R0 : 0 <= T) by apply Rabs_pos.
  pose proof (Rabs_pos A) as A0. pose proof (Rabs_pos B) as B0. pose proof (Rabs_pos C) as C0. pose proof (Rabs_pos D) as D0.
  assert (VV : 0 <= val (abs4 a b c d x y z)).
  { rewrite VE. apply Rmult_le_pos; [|lra]. apply Rplus_le_le_0_compat; [|lra]. apply Rmult_le_pos; [|lra]. apply Rplus_le_le_0_compat; [|lra]. apply Rmult_le_pos; lra. }
  split; [|split; [exact VV|rewrite Rabs_pos_eq in B6 by exact VV; lra]].
  replace (((((P + Q) * (1 + d4)) + T) * (1 + d5) + Rabs D) * (1 + d6)) with
    (P * ((1 + d4) * (1 + d5) * (1 + d6)) + Q * ((1 + d4) * (1 + d5) * (1 + d6)) + T * ((1 + d5) * (1 + d6)) + Rabs D * (1 + d6)) in VE by ring.
  pose proof (near_3 _ _ (near_2 _ _ D4 D5) D6) as N3. pose proof (near_2 _ _ D5 D6) as N2.
  set (n3 := (1 + d4) * (1 + d5) * (1 + d6)) in *. set (n2 := (1 + d5) * (1 + d6)) in *. set (n1 := 1 + d6) in *. clearbody n1 n2 n3.
  rewrite VE. unfold size4. clear - US TP X1 X2 X3 P0 Q0 R0 A0 B0 C0 D0 N3 N2 D6.
  assert (UP : forall w W n, 0 <= W -> 0 <= w -> W * (1 - u64) - tiny64 <= w <= W * (1 + u64) + tiny64 -> 1 - 3 * u64 <= n <= 1 + 3 * u64 + 4 * (u64 * u64) ->
     (1 - 4 * u64) * W - 11 / 10 * tiny64 <= w * n <= (1 + 4 * u64 + 8 * (u64 * u64)) * W + 11 / 10 * tiny64).
  { intros w W n W0 w0 X N. split.
    - apply (Rle_trans _ (w * (1 - 3 * u64))); [|apply Rmult_le_compat_l; lra].
      apply (Rle_trans _ ((W * (1 - u64) - tiny64) * (1 - 3 * u64))); [|apply Rmult_le_compat_r; lra]. nra.
    - apply (Rle_trans _ (w * (1 + 3 * u64 + 4 * (u64 * u64)))); [apply Rmult_le_compat_l; lra|].
      apply (Rle_trans _ ((W * (1 + u64) + tiny64) * (1 + 3 * u64 + 4 * (u64 * u64)))); [apply Rmult_le_compat_r; nra|].
      pose proof u64_3 as U3.
      assert (K : (1 + u64) * (1 + 3 * u64 + 4 * (u64 * u64)) <= 1 + 4 * u64 + 8 * (u64 * u64)).
      { replace ((1 + u64) * (1 + 3 * u64 + 4 * (u64 * u64))) with (1 + 4 * u64 + 7 * (u64 * u64) + 4 * (u64 * u64 * u64)) by ring. lra. }
      apply (Rmult_le_compat_l W) in K; [|exact W0].
      assert (tiny64 * (1 + 3 * u64 + 4 * (u64 * u64)) <= 11 / 10 * tiny64) by (rewrite Rmult_comm; apply Rmult_le_compat_r; nra). lra. }
  pose proof (UP P (Rabs A) n3 A0 P0 X1 N3) as Y1. pose proof (UP Q (Rabs B) n3 B0 Q0 X2 N3) as Y2.
  assert (Y3 : (1 - 4 * u64) * Rabs C - 11 / 10 * tiny64 <= T * n2 <= (1 + 4 * u64 + 8 * (u64 * u64)) * Rabs C + 11 / 10 * tiny64) by (apply (UP T (Rabs C) n2 C0 R0 X3); split; nra).
  assert (Y4 : (1 - 4 * u64) * Rabs D <= Rabs D * n1 <= (1 + 4 * u64 + 8 * (u64 * u64)) * Rabs D) by (split; nra).
  lra.
Qed.
(** the reported error *)
Lemma error_ok : finite (fmul (abs4 a b c d x y z) gamma3) /\
  3 * u64 * (1 - 3 * u64) * size4 - 2 * tiny64 <= val (fmul (abs4 a b c d x y z) gamma3) <= 3 * u64 * (1 + 9 * u64) * size4 + 2 * tiny64.
Proof.
  pose proof M_big. pose proof M_small. pose proof u64_small as US. pose proof tiny64_pos as TP.
  destruct abs4_ok as (F & (L & U) & (N & N2)). destruct gamma3_val as (FG & VG).
  assert (S0 : 0 <= size4) by (unfold size4; pose proof (Rabs_pos A); pose proof (Rabs_pos B); pose proof (Rabs_pos C); pose proof (Rabs_pos D); lra).
  destruct (fmul_ok _ gamma3 F FG) as (F1 & e & t & E & T & V).
  { pose proof u64_2. assert (G : 0 <= val gamma3 <= 1) by (rewrite VG; lra). rewrite Rabs_pos_eq by (apply Rmult_le_pos; lra).
    apply (Rle_trans _ (val (abs4 a b c d x y z) * 1)); [apply Rmult_le_compat_l; lra|lra]. }
  split; [exact F1|]. rewrite V, VG. apply near_1 in E. apply in_abs_of in T.
  set (w := val (abs4 a b c d x y z)) in *. set (S := size4) in *. clearbody w S. clear V F F1.
  set (g := 3 * u64 + 8 * (u64 * u64)). pose proof u64_2 as U2. pose proof u64_3 as U3. assert (G : 3 * u64 <= g <= 4 * u64) by (unfold g; lra).
  assert (GL : g * (1 - u64) = 3 * u64 + 5 * (u64 * u64) - 8 * (u64 * u64 * u64)) by (unfold g; ring).
  assert (GU : g * (1 + u64) = 3 * u64 + 11 * (u64 * u64) + 8 * (u64 * u64 * u64)) by (unfold g; ring).
  set (h := g * (1 + e)). assert (HB : g * (1 - u64) <= h <= g * (1 + u64)) by (unfold h; split; apply Rmult_le_compat_l; lra).
  replace (w * g * (1 + e) + t) with (w * h + t) by (unfold h; ring).
  assert (HH : 3 * u64 <= h <= 4 * u64) by lra.
  split.
  - apply (Rle_trans _ (((1 - 4 * u64) * S - 4 * tiny64) * h + t)); [|apply Rplus_le_compat_r, Rmult_le_compat_r; lra].
    assert (K : 3 * u64 * (1 - 3 * u64) * S <= (1 - 4 * u64) * S * h).
    { apply (Rle_trans _ ((1 - 4 * u64) * S * (3 * u64 + 5 * (u64 * u64) - 8 * (u64 * u64 * u64)))); [|apply Rmult_le_compat_l; [apply Rmult_le_pos; lra|lra]].
      assert (J : 3 * u64 * (1 - 3 * u64) <= (1 - 4 * u64) * (3 * u64 + 5 * (u64 * u64) - 8 * (u64 * u64 * u64))).
      { assert (0 <= u64 * (u64 * u64 * u64)) by (apply Rmult_le_pos; lra). lra. }
      apply (Rmult_le_compat_l S) in J; [|exact S0]. lra. }
    assert (4 * tiny64 * h <= tiny64) by (apply (Rle_trans _ (4 * tiny64 * (1 / 4))); [apply Rmult_le_compat_l; lra|lra]). lra.
  - apply (Rle_trans _ (((1 + 4 * u64 + 8 * (u64 * u64)) * S + 4 * tiny64) * h + t)); [apply Rplus_le_compat_r, Rmult_le_compat_r; lra|].
    assert (K : (1 + 4 * u64 + 8 * (u64 * u64)) * S * h <= 3 * u64 * (1 + 9 * u64) * S).
    { apply (Rle_trans _ ((1 + 4 * u64 + 8 * (u64 * u64)) * S * (3 * u64 + 11 * (u64 * u64) + 8 * (u64 * u64 * u64)))); [apply Rmult_le_compat_l; [apply Rmult_le_pos; lra|lra]|].
      assert (J : (1 + 4 * u64 + 8 * (u64 * u64)) * (3 * u64 + 11 * (u64 * u64) + 8 * (u64 * u64 * u64)) <= 3 * u64 * (1 + 9 * u64)).
      { assert (0 <= u64 * (u64 * u64 * u64) <= u64 * u64 * u64) by (split; [apply Rmult_le_pos; lra|rewrite <- (Rmult_1_l (u64 * u64 * u64)) at 2; apply Rmult_le_compat_r; lra]).
        assert (u64 * u64 * (u64 * u64 * u64) <= u64 * u64 * u64) by (rewrite <- (Rmult_1_l (u64 * u64 * u64)) at 2; apply Rmult_le_compat_r; lra). lra. }
      apply (Rmult_le_compat_l S) in J; [|exact S0]. lra. }
    assert (4 * tiny64 * h <= tiny64) by (apply (Rle_trans _ (4 * tiny64 * (1 / 4))); [apply Rmult_le_compat_l; lra|lra]). lra.
Qed.
End Rows.

Lemma fmul_zero a b : finite a -> finite b -> val a = 0 -> finite (fmul a b) /\ val (fmul a b) = 0.
Proof.
  intros Fa Fb Z. unfold fmul, b64_mult.
  pose proof (Bmult_correct 53 1024 m_prec64 m_prec64_lt binop_nan_pl64 mode_NE a b) as C. change (B2R 53 1024 a) with (val a) in C. change (B2R 53 1024 b) with (val b) in C.
  rewrite Z, Rmult_0_l, round_0 in C by typeclasses eauto. rewrite Rlt_bool_true in C by (rewrite Rabs_R0; apply bpow_gt_0).
  destruct C as (V & F & _). rewrite Fa, Fb in F. split; [exact F|exact V].
Qed.
Lemma fadd_zero a b : finite a -> finite b -> val a = 0 -> finite (fadd a b) /\ val (fadd a b) = val b.
Proof.
  intros Fa Fb Z. unfold fadd, b64_plus.
  pose proof (Bplus_correct 53 1024 m_prec64 m_prec64_lt binop_nan_pl64 mode_NE a b Fa Fb) as C. change (B2R 53 1024 a) with (val a) in C. change (B2R 53 1024 b) with (val b) in C.
  rewrite Z, Rplus_0_l, (round_generic radix2 fexp64 _ (val b)) in C by apply val_format.
  rewrite Rlt_bool_true in C by (unfold val; apply abs_B2R_lt_emax). destruct C as (V & F & _). split; [exact F|exact V].
Qed.
Lemma fdiv_one a w : finite a -> finite w -> val w = 1 -> finite (fdiv a w) /\ val (fdiv a w) = val a.
Proof.
  intros Fa Fw W. unfold fdiv, b64_div.
  assert (NZ : B2R 53 1024 w <> 0) by (change (val w <> 0); lra).
  pose proof (Bdiv_correct 53 1024 m_prec64 m_prec64_lt binop_nan_pl64 mode_NE a w NZ) as C. change (B2R 53 1024 a) with (val a) in C. change (B2R 53 1024 w) with (val w) in C.
  rewrite W in C. replace (val a / 1) with (val a) in C by field. rewrite (round_generic radix2 fexp64 _ (val a)) in C by apply val_format.
  rewrite Rlt_bool_true in C by (unfold val; apply abs_B2R_lt_emax). destruct C as (V & F & _). rewrite Fa in F. split; [exact F|exact V].
Qed.
(** the last row of an affine transform *)
Lemma last_row a b c d x y z : finite a -> finite b -> finite c -> finite d -> finite x -> finite y -> finite z ->
  val a = 0 -> val b = 0 -> val c = 0 -> finite (row4 a b c d x y z) /\ val (row4 a b c d x y z) = val d.
Proof.
  intros Fa Fb Fc Fd Fx Fy Fz A B C. unfold row4.
  destruct (fmul_zero a x) as (F1 & V1); auto. destruct (fmul_zero b y) as (F2 & V2); auto. destruct (fmul_zero c z) as (F3 & V3); auto.
  destruct (fadd_zero _ _ F1 F2 V1) as (F4 & V4). rewrite V2 in V4.
  destruct (fadd_zero _ _ F4 F3 V4) as (F5 & V5). rewrite V3 in V5. exact (fadd_zero _ _ F5 Fd V5).
Qed.
(** the propagated error: that of the input seen through the matrix, plus that of the operation *)
Lemma propagated_ok a b c d x y z ex ey ez : finite a -> finite b -> finite c -> finite d -> finite x -> finite y -> finite z -> finite ex -> finite ey -> finite ez ->
  Rabs (val a * val x) <= M -> Rabs (val b * val y) <= M -> Rabs (val c * val z) <= M -> Rabs (val d) <= M ->
  Rabs (val a * val ex) <= M -> Rabs (val b * val ey) <= M -> Rabs (val c * val ez) <= M ->
  let e := fadd (fmul (abs4 a b c d ex ey ez) (fadd f_one gamma3)) (fmul (abs4 a b c d x y z) gamma3) in
  finite e /\ (1 - 4 * u64) * (size4 a b c d ex ey ez + 3 * u64 * size4 a b c d x y z) - 9 * tiny64 <= val e.
Proof.
  intros Fa Fb Fc Fd Fx Fy Fz Fex Fey Fez B1 B2 B3 B4 B5 B6 B7 e.
  pose proof M_big. pose proof M_small. pose proof u64_small as US. pose proof tiny64_pos as TP. pose proof u64_2 as U2. pose proof u64_3 as U3. pose proof tiny_M as TM.
  destruct (abs4_ok a b c d ex ey ez Fa Fb Fc Fd Fex Fey Fez B5 B6 B7 B4) as (F1 & (L1 & U1) & (N1 & N1')).
  destruct (error_ok a b c d x y z Fa Fb Fc Fd Fx Fy Fz B1 B2 B3 B4) as (F2 & L2 & _).
  destruct (abs4_ok a b c d x y z Fa Fb Fc Fd Fx Fy Fz B1 B2 B3 B4) as (F3 & _ & (N3 & N3')).
  destruct one_gamma_val as (FG & VG). destruct gamma3_val as (FG3 & VG3).
  set (S1 := size4 a b c d ex ey ez) in *. set (S2 := size4 a b c d x y z) in *.
  assert (S10 : 0 <= S1). { unfold S1, size4. pose proof (Rabs_pos (val a * val ex)). pose proof (Rabs_pos (val b * val ey)). pose proof (Rabs_pos (val c * val ez)). pose proof (Rabs_pos (val d)). lra. }
  assert (S20 : 0 <= S2). { unfold S2, size4. pose proof (Rabs_pos (val a * val x)). pose proof (Rabs_pos (val b * val y)). pose proof (Rabs_pos (val c * val z)). pose proof (Rabs_pos (val d)). lra. }
  destruct (fmul_ok _ _ F1 FG) as (F4 & e4 & t4 & E4 & T4 & V4).
  { rewrite VG. rewrite Rabs_pos_eq by (apply Rmult_le_pos; lra). apply (Rle_trans _ (30 * M * 2)); [apply Rmult_le_compat; lra|lra]. }
  rewrite VG in V4. apply near_1 in E4. apply in_abs_of in T4.
  set (w1 := val (abs4 a b c d ex ey ez)) in *. set (k := (1 + 4 * u64) * (1 + e4)).
  assert (KB : 1 + 2 * u64 <= k <= 11 / 10).
  { unfold k. assert ((1 + 4 * u64) * (1 - u64) <= (1 + 4 * u64) * (1 + e4) <= (1 + 4 * u64) * (1 + u64)) by (split; apply Rmult_le_compat_l; lra). lra. }
  replace (w1 * (1 + 4 * u64) * (1 + e4) + t4) with (w1 * k + t4) in V4 by (unfold k; ring).
  assert (W1 : w1 * (1 + 2 * u64) <= w1 * k <= w1 * (11 / 10)) by (split; apply Rmult_le_compat_l; lra).
  destruct (fmul_ok _ _ F3 FG3) as (_ & e5 & t5 & E5 & T5 & V5).
  { rewrite Rabs_pos_eq by (apply Rmult_le_pos; lra). apply (Rle_trans _ (30 * M * 2)); [apply Rmult_le_compat; lra|lra]. }
  apply near_1 in E5. apply in_abs_of in T5.
  assert (P2 : - tiny64 <= val (fmul (abs4 a b c d x y z) gamma3) <= 20 * M).
  { rewrite V5. assert (0 <= val (abs4 a b c d x y z) * val gamma3 <= 10 * M).
    { split; [apply Rmult_le_pos; lra|]. apply (Rle_trans _ (30 * M * (1 / 3))); [apply Rmult_le_compat; lra|lra]. }
    set (q := val (abs4 a b c d x y z) * val gamma3) in *. assert (0 <= q * (1 + e5) <= q * (11 / 10)) by (split; [apply Rmult_le_pos; lra|apply Rmult_le_compat_l; lra]). lra. }
  destruct (fadd_ok _ _ F4 F2) as (F6 & e6 & E6 & V6).
  { apply Rabs_le. assert (0 <= w1 * (1 + 2 * u64)) by (apply Rmult_le_pos; lra). rewrite V4. split; lra. }
  split; [exact F6|]. fold e in V6. rewrite V6, V4. apply near_1 in E6.
  set (r2 := val (fmul (abs4 a b c d x y z) gamma3)) in *.
  set (s := w1 * k + t4 + r2).
  assert (SB : (1 - 3 * u64) * (S1 + 3 * u64 * S2) - 8 * tiny64 <= s).
  { assert ((1 + 2 * u64) * ((1 - 4 * u64) * S1 - 4 * tiny64) <= (1 + 2 * u64) * w1) by (apply Rmult_le_compat_l; lra).
    assert ((1 - 3 * u64) * S1 <= (1 + 2 * u64) * (1 - 4 * u64) * S1) by (apply Rmult_le_compat_r; lra).
    assert (u64 * tiny64 <= 1 / 100 * tiny64) by (apply Rmult_le_compat_r; lra).
    unfold s. lra. }
  assert (SN : - (2 * tiny64) <= s) by (unfold s; assert (0 <= w1 * (1 + 2 * u64)) by (apply Rmult_le_pos; lra); lra).
  clearbody s. clear V6 V4. destruct (Rle_or_lt 0 s) as [S0|S0].
  - assert (s * (1 - u64) <= s * (1 + e6)) by (apply Rmult_le_compat_l; lra).
    set (T := S1 + 3 * u64 * S2) in *. assert (T0 : 0 <= T) by (unfold T; assert (0 <= 3 * u64 * S2) by (apply Rmult_le_pos; lra); lra).
    assert (((1 - 3 * u64) * T - 8 * tiny64) * (1 - u64) <= s * (1 - u64)) by (apply Rmult_le_compat_r; lra).
    assert (0 <= u64 * u64 * T) by (apply Rmult_le_pos; lra). assert (0 <= u64 * tiny64) by (apply Rmult_le_pos; lra). lra.
  - assert (s * (1 + u64) <= s * (1 + e6)) by (apply Rmult_le_compat_neg_l; lra).
    set (T := S1 + 3 * u64 * S2) in *. assert (T0 : 0 <= T) by (unfold T; assert (0 <= 3 * u64 * S2) by (apply Rmult_le_pos; lra); lra).
    assert (- (2 * tiny64) * u64 <= s * u64) by (apply Rmult_le_compat_r; lra).
    assert (u64 * tiny64 <= 1 / 100 * tiny64) by (apply Rmult_le_compat_r; lra).
    assert ((1 - 4 * u64) * T <= (1 - 3 * u64) * T) by (apply Rmult_le_compat_r; lra). lra.
Qed.

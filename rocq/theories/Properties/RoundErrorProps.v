(** C98: numbers with error intervals *)
From Coq Require Import ZArith Bool List Reals Lia Lra.
From Flocq Require Import Core IEEE754.BinarySingleNaN IEEE754.Binary IEEE754.Bits.
From Verif.Geometry Require Import RoundErrorModel RoundErrorProofs.
Import ListNotations.
Open Scope R_scope.

(** The number [m * 2 ^ e] *)
Definition lit (m e : Z) : f64 := binary_normalize 53 1024 eq_refl eq_refl mode_NE m e false.
Lemma lit_val m e : (Z.abs m < 2 ^ 53)%Z -> (-1074 <= e <= 900)%Z -> finite (lit m e) /\ val (lit m e) = IZR m * bpow radix2 e.
Proof.
  intros M E.
  pose proof (binary_normalize_correct 53 1024 eq_refl eq_refl mode_NE m e false) as C.
  change (F2R {| Fnum := m; Fexp := e |}) with (IZR m * bpow radix2 e) in C.
  assert (G : generic_format radix2 fexp64 (IZR m * bpow radix2 e)).
  { change fexp64 with (FLT_exp (-1074) 53). apply generic_format_FLT. exists (Float radix2 m e); cbn; [reflexivity|exact M|lia]. }
  rewrite round_generic in C; [|typeclasses eauto|exact G].
  rewrite Rlt_bool_true in C.
  - destruct C as (V & F & _). split; assumption.
  - rewrite Rabs_mult, (Rabs_pos_eq (bpow radix2 e)) by apply bpow_ge_0.
    rewrite <- abs_IZR. apply (Rlt_le_trans _ (bpow radix2 53 * bpow radix2 e)).
    + apply Rmult_lt_compat_r; [apply bpow_gt_0|]. change (bpow radix2 53) with (IZR (2 ^ 53)). now apply IZR_lt.
    + rewrite <- bpow_plus. apply bpow_le. lia.
Qed.

(** [x] is in the interval; an infinite end is no bound *)
Definition encloses (i : ApproxFloat) (x : R) : Prop := below (low i) x /\ above (high i) x.
(** Both ends are finite. *)
Definition proper (i : ApproxFloat) : Prop := finite (low i) /\ finite (high i).
Lemma encloses_proper i x : proper i -> encloses i x <-> val (low i) <= x <= val (high i).
Proof. intros (L & H). unfold encloses. rewrite (below_finite _ x L), (above_finite _ x H). reflexivity. Qed.

(** ** The neighbours of a float *)

(** Between a number and the one that follows it there is no other. *)
Theorem C98_up (v : f64) : finite v -> v <> B754_zero 53 1024 true ->
  (finite (next_float_up v) /\ val v < val (next_float_up v) /\ forall w, finite w -> val v < val w -> val (next_float_up v) <= val w) \/
  (next_float_up v = B754_infinity 53 1024 false /\ forall w, finite w -> val w <= val v).
Proof.
  intros F NZ. destruct (next_up_finite v F) as [(? & _)|[(Fn & Vn)|(-> & I)]]; [contradiction| |].
  - left. split; auto. rewrite Vn. split.
    + destruct (Req_dec (val v) 0) as [Z|Z].
      * rewrite Z, succ_0, ulp_zero. apply pow2_pos.
      * now apply succ_gt_id.
    + intros w Fw L. apply succ_le_lt; auto using in_format. exact valid64.
  - right. split; auto. intros w Fw. now apply max_is_max.
Qed.
Theorem C98_down (v : f64) : finite v -> v <> B754_zero 53 1024 false ->
  (finite (next_float_down v) /\ val (next_float_down v) < val v /\ forall w, finite w -> val w < val v -> val w <= val (next_float_down v)) \/
  (next_float_down v = B754_infinity 53 1024 true /\ forall w, finite w -> val v <= val w).
Proof.
  intros F NZ. destruct (next_down_finite v F) as [(? & _)|[(Fn & Vn)|(-> & I)]]; [contradiction| |].
  - left. split; auto. rewrite Vn. split.
    + destruct (Req_dec (val v) 0) as [Z|Z].
      * rewrite Z, pred_0, ulp_zero. pose proof (pow2_pos (-1074)). lra.
      * now apply pred_lt_id.
    + intros w Fw L. apply pred_ge_gt; auto using in_format. exact valid64.
  - right. split; auto. intros w Fw. now apply max_is_max.
Qed.
(** There is no number below zero for [next_float_down]. *)
Theorem C98_down_zero_refuted : exists v, finite v /\ next_float_down v = v.
Proof. exists f_zero. split; reflexivity. Qed.

(** ** Operations on intervals *)

Theorem C98_add (a b : ApproxFloat) (x y : R) : proper a -> proper b -> encloses a x -> encloses b y -> encloses (a_add a b) (x + y).
Proof.
  intros A B X Y. rewrite encloses_proper in X, Y by auto. destruct A as (Al & Ah), B as (Bl & Bh).
  split; cbn [a_add low high].
  - pose proof (down_below _ _ (add_rounded _ _ Al Bl)) as D.
    destruct (next_float_down (fadd (low a) (low b))); cbn in *; auto; lra.
  - pose proof (up_above _ _ (add_rounded _ _ Ah Bh)) as U.
    destruct (next_float_up (fadd (high a) (high b))); cbn in *; auto; lra.
Qed.
Theorem C98_mul (a b : ApproxFloat) (x y : R) : proper a -> proper b -> encloses a x -> encloses b y -> encloses (a_mul a b) (x * y).
Proof.
  intros A B X Y. rewrite encloses_proper in X, Y by auto. destruct A as (Al & Ah), B as (Bl & Bh).
  destruct (corners_mul _ _ _ _ x y X Y) as (C1 & C2).
  apply (op_encloses fmul Rmult a b x y); auto.
  intros p q [<-|[<-|[]]] [<-|[<-|[]]]; now apply mul_rounded.
Qed.
Theorem C98_div (a b : ApproxFloat) (x y : R) : proper a -> proper b -> encloses a x -> encloses b y ->
  0 < val (low b) \/ val (high b) < 0 -> encloses (a_div a b) (x / y).
Proof.
  intros A B X Y NZ. rewrite encloses_proper in X, Y by auto. destruct A as (Al & Ah), B as (Bl & Bh).
  destruct (corners_div _ _ _ _ x y X Y NZ) as (C1 & C2).
  apply (op_encloses fdiv Rdiv a b x y); auto.
  intros p q [<-|[<-|[]]] [<-|[<-|[]]]; apply div_rounded; auto; lra.
Qed.
Theorem C98_sqrt (a : ApproxFloat) (x : R) : proper a -> encloses a x -> 0 <= val (low a) -> encloses (a_sqrt a) (sqrt x).
Proof.
  intros A X P. rewrite encloses_proper in X by auto. destruct A as (Al & Ah).
  destruct (sqrt_rounded (low a) Al P) as (R1 & _). destruct (sqrt_rounded (high a) Ah ltac:(lra)) as (R2 & _).
  apply down_below in R1. apply up_above in R2.
  pose proof (sqrt_le_1_alt (val (low a)) x (proj1 X)). pose proof (sqrt_le_1_alt x (val (high a)) (proj2 X)).
  split; cbn [a_sqrt low high].
  - destruct (next_float_down (fsqrt (low a))); cbn in *; auto; lra.
  - destruct (next_float_up (fsqrt (high a))); cbn in *; auto; lra.
Qed.

(** A float is an interval without error. *)
Lemma finite_of_rounded r x v : rounded r x -> finite v -> rnd x = val v -> finite r /\ val r = val v.
Proof.
  intros A F E. destruct (rounded_cases r x A) as [Fr|(s & ->)].
  - split; auto. destruct (rounded_finite r x Fr A) as (V & _). lra.
  - exfalso. destruct A as (A & _). rewrite E in A. pose proof (abs_B2R_lt_emax 53 1024 v) as B.
    change (B2R 53 1024 v) with (val v) in B. lra.
Qed.
Theorem C98_point (v : f64) : finite v ->
  proper (from_float v) /\ val (low (from_float v)) = val v /\ val (high (from_float v)) = val v.
Proof.
  intros F.
  assert (Z : finite f_zero) by reflexivity. assert (Z0 : val f_zero = 0) by reflexivity.
  pose proof (sub_rounded v f_zero F Z) as S. pose proof (add_rounded v f_zero F Z) as A. rewrite Z0 in *.
  destruct (finite_of_rounded _ _ v S F) as (S1 & S2). { rewrite Rminus_0_r. apply rnd_id. }
  destruct (finite_of_rounded _ _ v A F) as (A1 & A2). { rewrite Rplus_0_r. apply rnd_id. }
  repeat split; assumption.
Qed.
(** The value itself is always in its interval, although the ends are not rounded outwards. *)
Lemma rounded_above r x v : rounded r x -> finite v -> val v <= x -> above r (val v).
Proof.
  intros A F L. apply rnd_le in L. rewrite rnd_id in L.
  destruct (rounded_cases r x A) as [Fr|([|] & ->)].
  - apply above_finite; auto. destruct (rounded_finite r x Fr A) as (V & _). lra.
  - exfalso. destruct A as (A & P). pose proof (max_is_max v F) as (M & _). rewrite min_val in M. pose proof max_val.
    assert (Z : rnd x <= 0) by (rewrite <- (round_0 radix2 fexp64 ZnearestE); apply (rnd_le x 0 P)).
    rewrite Rabs_left1 in A by auto. lra.
  - reflexivity.
Qed.
Lemma rounded_below r x v : rounded r x -> finite v -> x <= val v -> below r (val v).
Proof.
  intros A F L. apply rnd_le in L. rewrite rnd_id in L.
  destruct (rounded_cases r x A) as [Fr|([|] & ->)].
  - apply below_finite; auto. destruct (rounded_finite r x Fr A) as (V & _). lra.
  - reflexivity.
  - exfalso. destruct A as (A & P). pose proof (max_is_max v F) as (_ & M). pose proof max_val.
    assert (Z : 0 <= rnd x) by (rewrite <- (round_0 radix2 fexp64 ZnearestE); apply (rnd_le 0 x P)).
    rewrite Rabs_pos_eq in A by auto. lra.
Qed.
Theorem C98_value (v e : f64) : finite v -> finite e -> 0 <= val e -> encloses (from_value_and_error v e) (val v).
Proof.
  intros F E P. split; cbn [from_value_and_error low high].
  - apply (rounded_below _ _ v (sub_rounded v e F E) F). lra.
  - apply (rounded_above _ _ v (add_rounded v e F E) F). lra.
Qed.
(** ... but not every number that is as close as the error says. *)
Theorem C98_value_refuted : exists v e x, finite v /\ finite e /\ Rabs (x - val v) <= val e /\ ~ encloses (from_value_and_error v e) x.
Proof.
  exists (lit 1 0), (lit 1 (-53)), (1 + bpow radix2 (-53)).
  destruct (lit_val 1 0 ltac:(reflexivity) ltac:(lia)) as (F1 & V1). destruct (lit_val 1 (-53) ltac:(reflexivity) ltac:(lia)) as (F2 & V2).
  change (bpow radix2 0) with 1 in V1.
  split; [exact F1|]. split; [exact F2|]. rewrite V1, V2. pose proof (bpow_gt_0 radix2 (-53)). split.
  - rewrite Rabs_pos_eq; lra.
  - intros (_ & A). replace (high _) with (lit 1 0) in A by (apply same_bits; vm_compute; reflexivity).
    rewrite above_finite in A by exact F1. rewrite V1 in A. lra.
Qed.

(** The value of an interval lies in it. *)
Lemma double_format v : finite v -> generic_format radix2 fexp64 (2 * val v).
Proof.
  intros F. change fexp64 with (FLT_exp (-1074) 53). apply generic_format_FLT.
  destruct v as [s|s|s pl N|s m e H]; try discriminate.
  - exists (Float radix2 0 0); [rewrite val_zero; unfold F2R; cbn [Fnum Fexp]; ring|reflexivity|cbn; lia].
  - pose proof (proj1 (bounded_iff m e) H) as (M & E & C).
    exists (Float radix2 (SpecFloat.cond_Zopp s (Z.pos m)) (e + 1)).
    + rewrite val_finite. unfold F2R. cbn [Fnum Fexp]. rewrite bpow_plus. change (bpow radix2 1) with 2. unfold pow2. ring.
    + cbn [Fnum]. destruct s; exact M.
    + cbn [Fexp]. lia.
Qed.
Theorem C98_midpoint_partial (a : ApproxFloat) : proper a -> val (low a) <= val (high a) -> finite (fadd (low a) (high a)) ->
  finite (midpoint a) /\ encloses a (val (midpoint a)).
Proof.
  intros P L S. pose proof P as (Fl & Fh).
  destruct (rounded_finite _ _ S (add_rounded _ _ Fl Fh)) as (V & _).
  assert (B1 : 2 * val (low a) <= val (fadd (low a) (high a))).
  { rewrite V. replace (2 * val (low a)) with (rnd (2 * val (low a))) by (apply round_generic; [typeclasses eauto|now apply double_format]).
    apply rnd_le. lra. }
  assert (B2 : val (fadd (low a) (high a)) <= 2 * val (high a)).
  { rewrite V. replace (2 * val (high a)) with (rnd (2 * val (high a))) by (apply round_generic; [typeclasses eauto|now apply double_format]).
    apply rnd_le. lra. }
  assert (T : val f_two = 2).
  { replace f_two with (lit 1 1) by (apply same_bits; vm_compute; reflexivity).
    rewrite (proj2 (lit_val 1 1 ltac:(reflexivity) ltac:(lia))). change (bpow radix2 1) with 2. ring. }
  assert (D : rounded (midpoint a) (val (fadd (low a) (high a)) / 2)).
  { unfold midpoint. rewrite <- T. apply div_rounded; auto. rewrite T. lra. }
  set (s := val (fadd (low a) (high a))) in *.
  pose proof (rounded_above _ _ (low a) D Fl ltac:(lra)) as U. pose proof (rounded_below _ _ (high a) D Fh ltac:(lra)) as W.
  assert (F : finite (midpoint a)).
  { destruct (rounded_cases _ _ D) as [F|([|] & E)]; auto; exfalso; rewrite E in *; cbn in U, W; discriminate. }
  split; auto. rewrite encloses_proper by auto. rewrite above_finite in U by auto. rewrite below_finite in W by auto. lra.
Qed.
Theorem C98_midpoint_refuted : exists a, proper a /\ encloses a (val (low a)) /\ ~ finite (midpoint a).
Proof.
  exists (mkA f_max f_max). split; [split; reflexivity|]. split.
  - split; [rewrite below_finite by reflexivity|rewrite above_finite by reflexivity]; cbn [low high]; lra.
  - replace (midpoint (mkA f_max f_max)) with (B754_infinity 53 1024 false) by (apply same_bits; vm_compute; reflexivity). discriminate.
Qed.

(** ** Differences, opposites and products with a number *)

(** A number can be subtracted from an interval. *)
Theorem C98_sub_partial (a b : ApproxFloat) (x y : R) : proper a -> proper b -> encloses a x -> encloses b y ->
  val (low b) = val (high b) -> encloses (a_sub a b) (x - y).
Proof.
  intros A B X Y E. rewrite encloses_proper in X, Y by auto. destruct A as (Al & Ah), B as (Bl & Bh).
  split; cbn [a_sub low high].
  - pose proof (down_below _ _ (sub_rounded _ _ Al Bl)) as D.
    destruct (next_float_down (fsub (low a) (low b))); cbn in *; auto; lra.
  - pose proof (up_above _ _ (sub_rounded _ _ Ah Bh)) as U.
    destruct (next_float_up (fsub (high a) (high b))); cbn in *; auto; lra.
Qed.
Lemma from_float_encloses v : finite v -> proper (from_float v) /\ encloses (from_float v) (val v).
Proof. intros F. destruct (C98_point v F) as (P & L & H). split; auto. rewrite encloses_proper by auto. lra. Qed.
Theorem C98_with_float (a : ApproxFloat) (x : R) (v : f64) : proper a -> encloses a x -> finite v ->
  encloses (a_add_f a v) (x + val v) /\ encloses (a_sub_f a v) (x - val v) /\ (val v <> 0 -> encloses (a_div_f a v) (x / val v)).
Proof.
  intros A X F. destruct (from_float_encloses v F) as (P & E). destruct (C98_point v F) as (_ & L & H). repeat split.
  - now apply (C98_add a (from_float v) x (val v)).
  - now apply (C98_add a (from_float v) x (val v)).
  - apply (C98_sub_partial a (from_float v) x (val v)); auto. lra.
  - apply (C98_sub_partial a (from_float v) x (val v)); auto. lra.
  - apply (C98_div a (from_float v) x (val v)); auto. rewrite L, H. lra.
  - apply (C98_div a (from_float v) x (val v)); auto. rewrite L, H. lra.
Qed.
(** The product with a number that is not negative *)
Lemma flt_cross a b x : above a x -> below b x -> flt a b = false.
Proof.
  intros A B. destruct (above_cases a x A) as [Fa| ->], (below_cases b x B) as [Fb| ->].
  - rewrite above_finite in A by auto. rewrite below_finite in B by auto.
    apply not_true_iff_false. rewrite flt_finite by auto. lra.
  - destruct a as [s|s|s pl N|s m e H]; try discriminate; destruct s; reflexivity.
  - destruct b as [s|s|s pl N|s m e H]; try discriminate; destruct s; reflexivity.
  - reflexivity.
Qed.
Theorem C98_scale_partial (a : ApproxFloat) (x : R) (v : f64) : proper a -> encloses a x -> finite v -> 0 <= val v ->
  encloses (a_mul_f a v) (x * val v).
Proof.
  intros A X F P. rewrite encloses_proper in X by auto. destruct A as (Al & Ah).
  pose proof (down_below _ _ (mul_rounded _ _ Al F)) as D. pose proof (up_above _ _ (mul_rounded _ _ Ah F)) as U.
  assert (L1 : val (low a) * val v <= x * val v) by (apply Rmult_le_compat_r; lra).
  assert (L2 : x * val v <= val (high a) * val v) by (apply Rmult_le_compat_r; lra).
  unfold a_mul_f. set (mn := next_float_down (fmul (low a) v)) in *. set (mx := next_float_up (fmul (high a) v)) in *.
  assert (D' : below mn (x * val v)) by (destruct mn; cbn in *; auto; lra).
  assert (U' : above mx (x * val v)) by (destruct mx; cbn in *; auto; lra).
  rewrite (flt_cross mx mn (x * val v)) by auto. split; cbn [low high]; [now apply down_keeps|now apply up_keeps].
Qed.

Lemma lit_bits f m e : (Z.abs m < 2 ^ 53)%Z -> (-1074 <= e <= 900)%Z -> bits_of_b64 f = bits_of_b64 (lit m e) -> finite f /\ val f = IZR m * bpow radix2 e.
Proof. intros M E B. apply same_bits in B. subst f. now apply lit_val. Qed.
Ltac litval f m e F V := destruct (lit_bits f m e ltac:(reflexivity) ltac:(lia) ltac:(vm_compute; reflexivity)) as (F & V).

(** Intervals cannot be subtracted: [0, 1] - [0, 1] should enclose 1 - 0. *)
Theorem C98_sub_refuted : exists a b x y, proper a /\ proper b /\ encloses a x /\ encloses b y /\ ~ encloses (a_sub a b) (x - y).
Proof.
  set (i := mkA (lit 0 0) (lit 1 0)). exists i, i, 1, 0.
  litval (lit 0 0) 0%Z 0%Z F0 V0. litval (lit 1 0) 1%Z 0%Z F1 V1. litval (high (a_sub i i)) 1%Z (-1074)%Z F2 V2.
  change (bpow radix2 0) with 1 in *.
  assert (P : proper i) by (split; assumption).
  split; [exact P|]. split; [exact P|]. rewrite !(encloses_proper i) by exact P. cbn [i low high].
  split; [lra|]. split; [lra|].
  intros (_ & A). fold i in A. rewrite above_finite in A by exact F2. rewrite V2 in A.
  assert (bpow radix2 (-1074) < bpow radix2 0) by (apply bpow_lt; lia). change (bpow radix2 0) with 1 in *. lra.
Qed.
(** The opposite of an interval has its ends in the wrong order. *)
Theorem C98_neg_refuted : exists a, proper a /\ encloses a 1 /\ forall x, ~ encloses (a_neg a) x.
Proof.
  set (i := mkA (lit 1 0) (lit 1 1)). exists i.
  litval (lit 1 0) 1%Z 0%Z F0 V0. litval (lit 1 1) 1%Z 1%Z F1 V1.
  litval (low (a_neg i)) (-1)%Z 0%Z F2 V2. litval (high (a_neg i)) (-1)%Z 1%Z F3 V3.
  change (bpow radix2 0) with 1 in *. change (bpow radix2 1) with 2 in *.
  assert (P : proper i) by (split; assumption). split; [exact P|].
  rewrite encloses_proper by exact P. cbn [i low high]. split; [lra|].
  intros x. fold i. rewrite encloses_proper by (split; assumption). lra.
Qed.
Theorem C98_neg_partial (a : ApproxFloat) (x : R) : proper a -> encloses a x -> val (low a) = val (high a) -> encloses (a_neg a) (- x).
Proof.
  intros A X E. rewrite encloses_proper in X by auto. destruct A as (Al & Ah).
  assert (F : forall v, finite v -> finite (fneg v) /\ val (fneg v) = - val v).
  { intros v Fv. unfold fneg, b64_opp, val. rewrite B2R_Bopp, is_finite_Bopp. auto. }
  destruct (F _ Al) as (F1 & V1), (F _ Ah) as (F2 & V2).
  rewrite encloses_proper by (split; assumption). cbn [a_neg low high]. lra.
Qed.
(** The product with a negative number is not rounded outwards. *)
Theorem C98_scale_refuted : exists a x v, proper a /\ encloses a x /\ finite v /\ ~ encloses (a_mul_f a v) (x * val v).
Proof.
  set (i := mkA (lit 0 0) (lit 134217729 0)). exists i, 134217729, (lit (-134217729) 0).
  litval (lit 0 0) 0%Z 0%Z F0 V0. litval (lit 134217729 0) 134217729%Z 0%Z F1 V1. litval (lit (-134217729) 0) (-134217729)%Z 0%Z F2 V2.
  litval (low (a_mul_f i (lit (-134217729) 0))) (-67108865)%Z 28%Z F3 V3.
  change (bpow radix2 0) with 1 in *. change (bpow radix2 28) with 268435456 in *.
  assert (P : proper i) by (split; assumption). split; [exact P|].
  rewrite encloses_proper by exact P. cbn [i low high]. split; [lra|]. split; [exact F2|].
  intros (B & _). fold i in B. rewrite below_finite in B by exact F3. rewrite V2, V3 in B. lra.
Qed.
(** Neither is a quotient by an interval around zero. *)
Theorem C98_div_refuted : exists a b x y, proper a /\ proper b /\ encloses a x /\ encloses b y /\ y <> 0 /\ ~ encloses (a_div a b) (x / y).
Proof.
  set (i := mkA (lit 1 0) (lit 1 0)). set (j := mkA (lit (-1) 0) (lit 1 0)). exists i, j, 1, (1 / 4).
  litval (lit 1 0) 1%Z 0%Z F1 V1. litval (lit (-1) 0) (-1)%Z 0%Z F2 V2.
  litval (high (a_div i j)) (2 ^ 51 + 1)%Z (-51)%Z F3 V3.
  change (bpow radix2 0) with 1 in *.
  assert (P : proper i) by (split; assumption). assert (Q : proper j) by (split; assumption).
  split; [exact P|]. split; [exact Q|]. rewrite (encloses_proper i) by exact P. rewrite (encloses_proper j) by exact Q. cbn [i j low high].
  split; [lra|]. split; [lra|]. split; [lra|].
  intros (_ & A). fold i j in A. rewrite above_finite in A by exact F3. rewrite V3 in A.
  change (IZR (2 ^ 51 + 1)) with (IZR 2251799813685249) in A. change (bpow radix2 (-51)) with (/ 2251799813685248) in A. lra.
Qed.

(** [*=] compares the rounded products before it rounds outwards, and so takes a positive zero for a negative one. *)
Theorem C98_mul_assign_refuted : exists a b x y, proper a /\ proper b /\ encloses a x /\ encloses b y /\ ~ encloses (a_mul_assign a b) (x * y).
Proof.
  set (i := mkA (lit (-1) (-1000)) (lit 1 (-1000))). set (j := mkA (lit (-1) (-1000)) (lit (-1) (-1000))).
  exists i, j, (bpow radix2 (-1000)), (- bpow radix2 (-1000)).
  litval (lit 1 (-1000)) 1%Z (-1000)%Z F1 V1. litval (lit (-1) (-1000)) (-1)%Z (-1000)%Z F2 V2.
  litval (low (a_mul_assign i j)) 0%Z 0%Z F3 V3.
  pose proof (bpow_gt_0 radix2 (-1000)) as B0.
  assert (P : proper i) by (split; assumption). assert (Q : proper j) by (split; assumption).
  split; [exact P|]. split; [exact Q|]. rewrite (encloses_proper i) by exact P. rewrite (encloses_proper j) by exact Q. cbn [i j low high].
  split; [lra|]. split; [lra|].
  intros (B & _). fold i j in B. rewrite below_finite in B by exact F3. rewrite V3 in B. nra.
Qed.

(** ** Roots *)

(** 59/8 x^2 - 5723/64 x + 555131/2048 has one root, 97/16; the intervals that are found for the two roots lie on either side of it. *)
Definition found : option (ApproxFloat * ApproxFloat) :=
  solve_quadratic (from_float (lit 59 (-3))) (from_float (lit (-5723) (-6))) (from_float (lit 555131 (-11))).
Definition found1 : ApproxFloat := match found with Some (x, _) => x | None => mkA f_zero f_zero end.
Definition found2 : ApproxFloat := match found with Some (_, x) => x | None => mkA f_zero f_zero end.
Theorem C98_roots_refuted : exists a b c x1 x2 x, finite a /\ finite b /\ finite c /\
  solve_quadratic (from_float a) (from_float b) (from_float c) = Some (x1, x2) /\
  val a * x * x + val b * x + val c = 0 /\ ~ encloses x1 x /\ ~ encloses x2 x.
Proof.
  litval (lit 59 (-3)) 59%Z (-3)%Z F1 V1. litval (lit (-5723) (-6)) (-5723)%Z (-6)%Z F2 V2. litval (lit 555131 (-11)) 555131%Z (-11)%Z F3 V3.
  litval (high found1) 6825768082284243%Z (-50)%Z F4 V4. litval (low found2) 6825768288182575%Z (-50)%Z F5 V5.
  exists (lit 59 (-3)), (lit (-5723) (-6)), (lit 555131 (-11)), found1, found2, (97 / 16).
  split; [exact F1|]. split; [exact F2|]. split; [exact F3|]. split.
  { fold found. unfold found1, found2. destruct found as [(x1 & x2)|] eqn:E; [reflexivity|]. exfalso. vm_compute in E. discriminate. }
  rewrite V1, V2, V3.
  change (bpow radix2 (-3)) with (/ 8). change (bpow radix2 (-6)) with (/ 64). change (bpow radix2 (-11)) with (/ 2048).
  split; [lra|]. change (bpow radix2 (-50)) with (/ 1125899906842624) in *. split.
  - intros (_ & A). rewrite above_finite in A by exact F4. rewrite V4 in A. lra.
  - intros (B & _). rewrite below_finite in B by exact F5. rewrite V5 in B. lra.
Qed.

(** ** How wide the intervals are *)

Lemma up_step f u w : finite f -> finite w -> val f <= val u -> val u < val w -> finite (next_float_up f) /\ val (next_float_up f) <= val w.
Proof.
  intros F W L M. destruct (next_up_finite f F) as [(-> & ->)|[(Fn & Vn)|(-> & _)]].
  - split; [reflexivity|]. change (val (B754_zero 53 1024 false)) with 0. change (val (B754_zero 53 1024 true)) with 0 in L. lra.
  - split; [exact Fn|]. rewrite Vn. apply succ_le_lt; auto using in_format; [exact valid64|lra].
  - pose proof (max_is_max w W). lra.
Qed.
Lemma down_step f u w : finite f -> finite w -> val u <= val f -> val w < val u -> finite (next_float_down f) /\ val w <= val (next_float_down f).
Proof.
  intros F W L M. destruct (next_down_finite f F) as [(-> & ->)|[(Fn & Vn)|(-> & _)]].
  - split; [reflexivity|]. change (val (B754_zero 53 1024 false)) with 0 in *. lra.
  - split; [exact Fn|]. rewrite Vn. apply pred_ge_gt; auto using in_format; [exact valid64|lra].
  - pose proof (max_is_max w W). lra.
Qed.
Lemma up_tight r x u w : rounded r x -> finite u -> finite w -> x <= val u -> val u < val w -> finite (next_float_up r) /\ val (next_float_up r) <= val w.
Proof.
  intros A U W L M. destruct (rounded_cases r x A) as [F|(s & ->)].
  - destruct (rounded_finite r x F A) as (V & _). apply (up_step r u w); auto. rewrite V, <- (rnd_id u). now apply rnd_le.
  - destruct A as (A1 & A2). rewrite next_up_inf. destruct s.
    + split; [reflexivity|]. apply (max_is_max w W).
    + exfalso. pose proof (overflow_above x A2 A1). pose proof (max_is_max w W). lra.
Qed.
Lemma down_tight r x u w : rounded r x -> finite u -> finite w -> val u <= x -> val w < val u -> finite (next_float_down r) /\ val w <= val (next_float_down r).
Proof.
  intros A U W L M. destruct (rounded_cases r x A) as [F|(s & ->)].
  - destruct (rounded_finite r x F A) as (V & _). apply (down_step r u w); auto. rewrite V, <- (rnd_id u). now apply rnd_le.
  - destruct A as (A1 & A2). rewrite next_down_inf. destruct s.
    + exfalso. pose proof (overflow_below x A2 A1). pose proof (max_is_max w W). lra.
    + split; [reflexivity|]. apply (max_is_max w W).
Qed.
(** Of the numbers that are not below the exact upper end of a sum or of a root, the result is not beyond the second, and likewise below. *)
Theorem C98_add_tight (a b : ApproxFloat) (u w : f64) : proper a -> proper b -> finite u -> finite w ->
  (val (high a) + val (high b) <= val u < val w -> finite (high (a_add a b)) /\ val (high (a_add a b)) <= val w) /\
  (val w < val u <= val (low a) + val (low b) -> finite (low (a_add a b)) /\ val w <= val (low (a_add a b))).
Proof.
  intros (Al & Ah) (Bl & Bh) U W. split; intros (L & M); cbn [a_add low high].
  - apply (up_tight _ _ u w (add_rounded _ _ Ah Bh)); auto.
  - apply (down_tight _ _ u w (add_rounded _ _ Al Bl)); auto.
Qed.
Theorem C98_sqrt_tight (a : ApproxFloat) (u w : f64) : proper a -> 0 <= val (low a) <= val (high a) -> finite u -> finite w ->
  (sqrt (val (high a)) <= val u < val w -> finite (high (a_sqrt a)) /\ val (high (a_sqrt a)) <= val w) /\
  (val w < val u <= sqrt (val (low a)) -> finite (low (a_sqrt a)) /\ val w <= val (low (a_sqrt a))).
Proof.
  intros (Al & Ah) P U W.
  destruct (sqrt_rounded (low a) Al (proj1 P)) as (R1 & _). destruct (sqrt_rounded (high a) Ah ltac:(lra)) as (R2 & _).
  split; intros (L & M); cbn [a_sqrt low high].
  - apply (up_tight _ _ u w R2); auto.
  - apply (down_tight _ _ u w R1); auto.
Qed.
Lemma max_min_in others : forall mx mn, In (fst (max_min mx others)) (mx :: others) /\ In (snd (max_min mn others)) (mn :: others).
Proof.
  assert (G : forall others mx mn, let r := fold_left (fun '(mx, mn) v => (if flt mx v then v else mx, if flt v mn then v else mn)) others (mx, mn) in
    In (fst r) (mx :: others) /\ In (snd r) (mn :: others)).
  { clear others. induction others as [|v others IH]; intros mx mn; [cbn; auto|]. cbn [fold_left]. cbv zeta.
    destruct (IH (if flt mx v then v else mx) (if flt v mn then v else mn)) as (A & B). cbn [In] in *.
    destruct (flt mx v), (flt v mn); intuition. }
  intros mx mn. split; [apply (G others mx mx)|apply (G others mn mn)].
Qed.
Lemma op_tight op (rop : R -> R -> R) a b u v w :
  (forall p q, In p [low a; high a] -> In q [low b; high b] -> rounded (op p q) (rop (val p) (val q))) -> finite u -> finite v -> finite w ->
  ((forall p q, In p [low a; high a] -> In q [low b; high b] -> rop (val p) (val q) <= val u) -> val u < val v < val w ->
     finite (high (a_op op a b)) /\ val (high (a_op op a b)) <= val w) /\
  ((forall p q, In p [low a; high a] -> In q [low b; high b] -> val u <= rop (val p) (val q)) -> val w < val v < val u ->
     finite (low (a_op op a b)) /\ val w <= val (low (a_op op a b))).
Proof.
  intros Hop U V W. unfold a_op, four.
  destruct (max_min_in [next_float_down (op (high a) (low b)); next_float_down (op (low a) (high b)); next_float_down (op (high a) (high b))]
              (next_float_down (op (low a) (low b))) (next_float_down (op (low a) (low b)))) as (_ & B).
  destruct (max_min_in [next_float_up (op (high a) (low b)); next_float_up (op (low a) (high b)); next_float_up (op (high a) (high b))]
              (next_float_up (op (low a) (low b))) (next_float_up (op (low a) (low b)))) as (A & _).
  destruct (max_min (next_float_down (op (low a) (low b))) _) as (x1 & mn). destruct (max_min (next_float_up (op (low a) (low b))) _) as (mx & x2).
  cbn [fst snd low high] in *.
  assert (A' : exists p q, In p [low a; high a] /\ In q [low b; high b] /\ mx = next_float_up (op p q)).
  { destruct A as [<-|[<-|[<-|[<-|[]]]]]; do 2 eexists; (split; [|split; [|reflexivity]]); cbn; auto. }
  assert (B' : exists p q, In p [low a; high a] /\ In q [low b; high b] /\ mn = next_float_down (op p q)).
  { destruct B as [<-|[<-|[<-|[<-|[]]]]]; do 2 eexists; (split; [|split; [|reflexivity]]); cbn; auto. }
  clear A B. destruct A' as (p & q & P & Q & ->). destruct B' as (p' & q' & P' & Q' & ->). split; intros H (L & M).
  - destruct (up_tight _ _ u v (Hop p q P Q) U V (H p q P Q) L) as (F & G). apply (up_step _ v w); auto.
  - destruct (down_tight _ _ u v (Hop p' q' P' Q') U V (H p' q' P' Q') M) as (F & G). apply (down_step _ v w); auto.
Qed.
(** Of a product or a quotient, not beyond the third *)
Theorem C98_mul_tight (a b : ApproxFloat) (u v w : f64) : proper a -> proper b -> finite u -> finite v -> finite w ->
  ((forall p q, In p [low a; high a] -> In q [low b; high b] -> val p * val q <= val u) -> val u < val v < val w ->
     finite (high (a_mul a b)) /\ val (high (a_mul a b)) <= val w) /\
  ((forall p q, In p [low a; high a] -> In q [low b; high b] -> val u <= val p * val q) -> val w < val v < val u ->
     finite (low (a_mul a b)) /\ val w <= val (low (a_mul a b))).
Proof.
  intros (Al & Ah) (Bl & Bh) U V W. apply (op_tight fmul Rmult a b u v w); auto.
  intros p q [<-|[<-|[]]] [<-|[<-|[]]]; now apply mul_rounded.
Qed.
Theorem C98_div_tight (a b : ApproxFloat) (u v w : f64) : proper a -> proper b -> 0 < val (low b) <= val (high b) \/ val (low b) <= val (high b) < 0 ->
  finite u -> finite v -> finite w ->
  ((forall p q, In p [low a; high a] -> In q [low b; high b] -> val p / val q <= val u) -> val u < val v < val w ->
     finite (high (a_div a b)) /\ val (high (a_div a b)) <= val w) /\
  ((forall p q, In p [low a; high a] -> In q [low b; high b] -> val u <= val p / val q) -> val w < val v < val u ->
     finite (low (a_div a b)) /\ val w <= val (low (a_div a b))).
Proof.
  intros (Al & Ah) (Bl & Bh) NZ U V W. apply (op_tight fdiv Rdiv a b u v w); auto.
  intros p q [<-|[<-|[]]] [<-|[<-|[]]]; apply div_rounded; auto; lra.
Qed.

(** ** Products and quotients in place *)

Lemma rounded_not_zero r x : rounded r x -> bpow radix2 (-1074) <= Rabs x -> forall s, r <> B754_zero 53 1024 s.
Proof.
  intros A L s ->. destruct A as (V & _). change (val (B754_zero 53 1024 s)) with 0 in V.
  assert (G : generic_format radix2 fexp64 (bpow radix2 (-1074))) by (apply generic_format_bpow; vm_compute; discriminate).
  pose proof (bpow_gt_0 radix2 (-1074)) as P.
  assert (B : bpow radix2 (-1074) <= Rabs (rnd x)) by (apply abs_round_ge_generic; auto; [exact valid64|typeclasses eauto]).
  rewrite <- V, Rabs_R0 in B. lra.
Qed.
Lemma up_largest r x m : rounded r x -> number m -> (forall y, above r y -> above m y) -> (forall s, m <> B754_zero 53 1024 s) -> above (next_float_up m) x.
Proof.
  intros A Nm H NZ. destruct (number_cases m Nm) as [Fm|(s & ->)].
  - assert (S : finite (next_float_up m) /\ val (next_float_up m) = succ radix2 fexp64 (val m) \/ next_float_up m = B754_infinity 53 1024 false).
    { destruct (next_up_finite m Fm) as [(Z & _)|[S|(_ & S)]]; auto. now apply NZ in Z. }
    destruct S as [(F & V) | -> ]; [|reflexivity]. rewrite above_finite, V by exact F.
    destruct (rounded_cases r x A) as [Fr|(s & ->)].
    + destruct (rounded_finite r x Fr A) as (Vr & _). pose proof (le_succ_rnd x) as L. rewrite <- Vr in L.
      assert (K : val r <= val m). { rewrite <- (above_finite m) by exact Fm. apply H. apply above_finite; auto. lra. }
      apply Rle_trans with (1 := L). apply succ_le; auto using in_format. exact valid64.
    + destruct A as (A1 & A2). destruct s.
      * pose proof (overflow_below x A2 A1). pose proof (max_is_max m Fm). pose proof (succ_ge_id radix2 fexp64 (val m)). lra.
      * exfalso. assert (K : above m (val m + 1)) by (apply H; reflexivity). rewrite above_finite in K by exact Fm. lra.
  - rewrite next_up_inf. destruct s; [|reflexivity].
    destruct (rounded_cases r x A) as [Fr|(s & ->)].
    + exfalso. assert (K : above (B754_infinity 53 1024 true) (val r)) by (apply H; apply above_finite; auto; lra). discriminate K.
    + destruct s.
      * destruct A as (A1 & A2). rewrite above_finite by reflexivity. now apply overflow_below.
      * exfalso. assert (K : above (B754_infinity 53 1024 true) 0) by (apply H; reflexivity). discriminate K.
Qed.
Lemma down_least r x m : rounded r x -> number m -> (forall y, below r y -> below m y) -> (forall s, m <> B754_zero 53 1024 s) -> below (next_float_down m) x.
Proof.
  intros A Nm H NZ. destruct (number_cases m Nm) as [Fm|(s & ->)].
  - assert (S : finite (next_float_down m) /\ val (next_float_down m) = pred radix2 fexp64 (val m) \/ next_float_down m = B754_infinity 53 1024 true).
    { destruct (next_down_finite m Fm) as [(Z & _)|[S|(_ & S)]]; auto. now apply NZ in Z. }
    destruct S as [(F & V) | -> ]; [|reflexivity]. rewrite below_finite, V by exact F.
    destruct (rounded_cases r x A) as [Fr|(s & ->)].
    + destruct (rounded_finite r x Fr A) as (Vr & _). pose proof (pred_rnd_le x) as L. rewrite <- Vr in L.
      assert (K : val m <= val r). { rewrite <- (below_finite m) by exact Fm. apply H. apply below_finite; auto. lra. }
      apply Rle_trans with (2 := L). apply pred_le; auto using in_format. exact valid64.
    + destruct A as (A1 & A2). destruct s.
      * exfalso. assert (K : below m (val m - 1)) by (apply H; reflexivity). rewrite below_finite in K by exact Fm. lra.
      * pose proof (overflow_above x A2 A1). pose proof (max_is_max m Fm). pose proof (pred_le_id radix2 fexp64 (val m)). lra.
  - rewrite next_down_inf. destruct s; [reflexivity|].
    destruct (rounded_cases r x A) as [Fr|(s & ->)].
    + exfalso. assert (K : below (B754_infinity 53 1024 false) (val r)) by (apply H; apply below_finite; auto; lra). discriminate K.
    + destruct s.
      * exfalso. assert (K : below (B754_infinity 53 1024 false) 0) by (apply H; reflexivity). discriminate K.
      * destruct A as (A1 & A2). rewrite below_finite by reflexivity. now apply overflow_above.
Qed.
Lemma rounded_number r x : rounded r x -> number r.
Proof. destruct r; intros A; try reflexivity. destruct A. Qed.
Lemma below_le f x y : below f x -> x <= y -> below f y.
Proof. destruct f; cbn; intros; auto; lra. Qed.
Lemma above_le f x y : above f x -> y <= x -> above f y.
Proof. destruct f; cbn; intros; auto; lra. Qed.
Lemma assign_encloses op (rop : R -> R -> R) a b x y :
  (forall p q, In p [low a; high a] -> In q [low b; high b] -> rounded (op p q) (rop (val p) (val q))) ->
  (forall p q, In p [low a; high a] -> In q [low b; high b] -> bpow radix2 (-1074) <= Rabs (rop (val p) (val q))) ->
  (exists c, (c = rop (val (low a)) (val (low b)) \/ c = rop (val (high a)) (val (low b)) \/
              c = rop (val (low a)) (val (high b)) \/ c = rop (val (high a)) (val (high b))) /\ c <= rop x y) ->
  (exists c, (c = rop (val (low a)) (val (low b)) \/ c = rop (val (high a)) (val (low b)) \/
              c = rop (val (low a)) (val (high b)) \/ c = rop (val (high a)) (val (high b))) /\ rop x y <= c) ->
  encloses (a_op_assign op a b) (rop x y).
Proof.
  intros Hop Hz (c1 & C1 & L1) (c2 & C2 & L2).
  set (r1 := op (low a) (low b)). set (r2 := op (high a) (low b)). set (r3 := op (low a) (high b)). set (r4 := op (high a) (high b)).
  assert (R1 : rounded r1 (rop (val (low a)) (val (low b)))) by (apply Hop; cbn; auto).
  assert (R2 : rounded r2 (rop (val (high a)) (val (low b)))) by (apply Hop; cbn; auto).
  assert (R3 : rounded r3 (rop (val (low a)) (val (high b)))) by (apply Hop; cbn; auto).
  assert (R4 : rounded r4 (rop (val (high a)) (val (high b)))) by (apply Hop; cbn; auto).
  assert (Z : forall r, In r [r1; r2; r3; r4] -> forall s, r <> B754_zero 53 1024 s).
  { intros r [<-|[<-|[<-|[<-|[]]]]]; eapply rounded_not_zero; eauto; apply Hz; cbn; auto. }
  unfold encloses, a_op_assign, four. cbn [low high]. fold r1 r2 r3 r4.
  assert (Nn : Forall number [r2; r3; r4]) by (repeat constructor; eauto using rounded_number).
  pose proof (max_min_bounds [r2; r3; r4] r1 r1 (rounded_number _ _ R1) (rounded_number _ _ R1) Nn) as M.
  destruct (max_min_in [r2; r3; r4] r1 r1) as (I1 & I2). unfold max_min in *.
  destruct (fold_left _ [r2; r3; r4] (r1, r1)) as (mx & mn). cbn [fst snd low high] in *.
  destruct M as (Nx & Nm & A1 & B1 & M).
  assert (U : forall r v, In r [r1; r2; r3; r4] -> rounded r v -> above (next_float_up mx) v /\ below (next_float_down mn) v).
  { intros r v [<-|Ir] Rr; split.
    - apply (up_largest r1); auto.
    - apply (down_least r1); auto.
    - apply (up_largest r); auto. exact (proj1 (M r Ir)).
    - apply (down_least r); auto. exact (proj2 (M r Ir)). }
  assert (V : forall c, (c = rop (val (low a)) (val (low b)) \/ c = rop (val (high a)) (val (low b)) \/
              c = rop (val (low a)) (val (high b)) \/ c = rop (val (high a)) (val (high b))) -> above (next_float_up mx) c /\ below (next_float_down mn) c).
  { intros c [ -> | [ -> | [ -> | -> ] ] ]; [apply (U r1)|apply (U r2)|apply (U r3)|apply (U r4)]; auto; cbn; auto. }
  destruct (V c1 C1) as (_ & B). destruct (V c2 C2) as (A & _). split.
  - exact (below_le _ _ _ B L1).
  - exact (above_le _ _ _ A L2).
Qed.
(** [*=] and [/=] enclose the result if no product or quotient of ends is below the least positive number. *)
Theorem C98_mul_assign_partial (a b : ApproxFloat) (x y : R) : proper a -> proper b -> encloses a x -> encloses b y ->
  (forall p q, In p [low a; high a] -> In q [low b; high b] -> bpow radix2 (-1074) <= Rabs (val p * val q)) -> encloses (a_mul_assign a b) (x * y).
Proof.
  intros A B X Y Z. rewrite encloses_proper in X, Y by auto. destruct A as (Al & Ah), B as (Bl & Bh).
  destruct (corners_mul _ _ _ _ x y X Y) as (C1 & C2).
  apply (assign_encloses fmul Rmult a b x y); auto.
  intros p q [<-|[<-|[]]] [<-|[<-|[]]]; now apply mul_rounded.
Qed.
Theorem C98_div_assign_partial (a b : ApproxFloat) (x y : R) : proper a -> proper b -> encloses a x -> encloses b y -> 0 < val (low b) \/ val (high b) < 0 ->
  (forall p q, In p [low a; high a] -> In q [low b; high b] -> bpow radix2 (-1074) <= Rabs (val p / val q)) -> encloses (a_div_assign a b) (x / y).
Proof.
  intros A B X Y NZ Z. rewrite encloses_proper in X, Y by auto. destruct A as (Al & Ah), B as (Bl & Bh).
  destruct (corners_div _ _ _ _ x y X Y NZ) as (C1 & C2).
  apply (assign_encloses fdiv Rdiv a b x y); auto.
  intros p q [<-|[<-|[]]] [<-|[<-|[]]]; apply div_rounded; auto; lra.
Qed.

(** ** An example: [1, 2] and [-3, 5] *)
Definition one_two : ApproxFloat := mkA (lit 1 0) (lit 1 1).
Definition three_five : ApproxFloat := mkA (lit (-3) 0) (lit 5 0).
Example C98_example :
  proper one_two /\ proper three_five /\ encloses one_two (3 / 2) /\ encloses three_five (1 / 3) /\
  encloses (a_add one_two three_five) (3 / 2 + 1 / 3) /\ encloses (a_mul one_two three_five) (3 / 2 * (1 / 3)) /\
  encloses (a_div three_five one_two) (1 / 3 / (3 / 2)) /\ encloses (a_sqrt one_two) (sqrt (3 / 2)) /\
  encloses (a_mul_f three_five f_half) (1 / 3 * val f_half) /\ encloses (a_div_assign three_five one_two) (1 / 3 / (3 / 2)) /\
  ~ encloses (a_mul one_two three_five) 11.
Proof.
  litval (lit 1 0) 1%Z 0%Z F1 V1. litval (lit 1 1) 1%Z 1%Z F2 V2. litval (lit (-3) 0) (-3)%Z 0%Z F3 V3. litval (lit 5 0) 5%Z 0%Z F4 V4.
  litval f_half 1%Z (-1)%Z F5 V5. litval (high (a_mul one_two three_five)) (10 * 2 ^ 49 + 2)%Z (-49)%Z F6 V6.
  change (bpow radix2 0) with 1 in *. change (bpow radix2 1) with 2 in *. change (bpow radix2 (-1)) with (/ 2) in *.
  assert (P : proper one_two) by (split; assumption). assert (Q : proper three_five) by (split; assumption).
  assert (X : encloses one_two (3 / 2)) by (rewrite (encloses_proper one_two) by exact P; cbn [one_two low high]; lra).
  assert (Y : encloses three_five (1 / 3)) by (rewrite (encloses_proper three_five) by exact Q; cbn [three_five low high]; lra).
  split; [exact P|]. split; [exact Q|]. split; [exact X|]. split; [exact Y|].
  split; [now apply C98_add|]. split; [now apply C98_mul|].
  split; [apply C98_div; auto; left; cbn [one_two low]; lra|].
  split; [apply C98_sqrt; auto; cbn [one_two low]; lra|].
  split; [apply C98_scale_partial; auto; lra|].
  split.
  { apply C98_div_assign_partial; auto; [left; cbn [one_two low]; lra|]. pose proof (bpow_le radix2 (-1074) 0 ltac:(lia)) as T. change (bpow radix2 0) with 1 in T.
    intros p q [<-|[<-|[]]] [<-|[<-|[]]]; cbn [one_two three_five low high]; rewrite ?V1, ?V2, ?V3, ?V4; apply Rle_trans with (1 := T);
      unfold Rabs; destruct (Rcase_abs _); lra. }
  intros (_ & A). rewrite above_finite in A by exact F6. rewrite V6 in A.
  change (IZR (10 * 2 ^ 49 + 2)) with (IZR 5629499534213122) in A. change (bpow radix2 (-49)) with (/ 562949953421312) in A. lra.
Qed.

(** Lemmas on the machine's numbers: the neighbours of a float, and what rounding does to exact results. *)
From Coq Require Import ZArith Bool List Reals Lia Lra.
From Flocq Require Import Core IEEE754.BinarySingleNaN IEEE754.Binary IEEE754.Bits.
From Verif.Geometry Require Import RoundErrorModel.
Import ListNotations.
Open Scope Z_scope.

Notation fexp64 := (SpecFloat.fexp 53 1024).
Definition val (f : f64) : R := B2R 53 1024 f.
Notation finite f := (is_finite 53 1024 f = true).
Local Instance prec64 : Prec_gt_0 53 := eq_refl.
Local Instance prec64_lt : Prec_lt_emax 53 1024 := eq_refl.

Lemma bounded_iff m e : SpecFloat.bounded 53 1024 m e = true <->
  Z.pos m < 2 ^ 53 /\ -1074 <= e <= 971 /\ (2 ^ 52 <= Z.pos m \/ e = -1074).
Proof.
  unfold SpecFloat.bounded, SpecFloat.canonical_mantissa.
  rewrite andb_true_iff, Zle_is_le_bool, Digits.Zpos_digits2_pos.
  pose proof (Digits.Zdigits_correct radix2 (Z.pos m)) as D. cbv zeta in D.
  set (d := Digits.Zdigits radix2 (Z.pos m)) in *.
  assert (D0 : 0 < d) by (apply Digits.Zdigits_gt_0; discriminate).
  change (Zpower_nat radix2) with (Zpower_nat 2) in D.
  change (Z.abs (Z.pos m)) with (Z.pos m) in D.
  change (Zaux.radix_val radix2) with 2 in D.
  unfold SpecFloat.fexp, SpecFloat.emin.
  rewrite <- Zle_is_le_bool.
  split.
  - intros [C E]. apply Zeq_bool_eq in C.
    assert (d <= 53) by lia.
    assert (2 ^ d <= 2 ^ 53) by (apply Z.pow_le_mono_r; lia).
    repeat split; try lia.
    destruct (Z.eq_dec e (-1074)); [now right|left].
    assert (d = 53) by lia. assert (2 ^ 52 <= 2 ^ (d - 1)) by (apply Z.pow_le_mono_r; lia). lia.
  - intros (M & E & H). split; [|lia].
    apply Zeq_is_eq_bool.
    assert (d <= 53).
    { destruct (Z_le_gt_dec d 53); auto. assert (2 ^ 53 <= 2 ^ (d - 1)) by (apply Z.pow_le_mono_r; lia). lia. }
    destruct H as [H| ->]; [|lia].
    assert (53 <= d).
    { destruct (Z_le_gt_dec 53 d); auto. assert (2 ^ d <= 2 ^ 52) by (apply Z.pow_le_mono_r; lia). lia. }
    lia.
Qed.

(** ** Bits *)

Definition sbit (s : bool) : Z := if s then 2 ^ 63 else 0.
Lemma of_bits_bits y : b64_of_bits (bits_of_b64 y) = y.
Proof. apply (binary_float_of_bits_of_binary_float 52 11 eq_refl eq_refl eq_refl). Qed.
Lemma bits_finite s m e H : bits_of_b64 (B754_finite 53 1024 s m e H) = sbit s + (e + 1074) * 2 ^ 52 + Z.pos m.
Proof.
  pose proof (proj1 (bounded_iff m e) H) as (M & E & C).
  unfold bits_of_b64, bits_of_binary_float, join_bits.
  change (SpecFloat.emin (52 + 1) (2 ^ (11 - 1))) with (-1074).
  rewrite !Z.shiftl_mul_pow2 by lia.
  destruct (Zle_bool 0 (Z.pos m - 2 ^ 52)) eqn:L.
  - apply Zle_bool_imp_le in L. destruct s; unfold sbit; lia.
  - apply Z.leb_gt in L. assert (e = -1074) by lia. subst e. destruct s; unfold sbit; lia.
Qed.
Lemma bits_zero s : bits_of_b64 (B754_zero 53 1024 s) = sbit s.
Proof. now destruct s. Qed.
Lemma bits_infinity s : bits_of_b64 (B754_infinity 53 1024 s) = sbit s + 2047 * 2 ^ 52.
Proof. now destruct s. Qed.

Definition pow2 (e : Z) : R := bpow radix2 e.
Lemma val_finite s m e H : val (B754_finite 53 1024 s m e H) = (IZR (SpecFloat.cond_Zopp s (Z.pos m)) * pow2 e)%R.
Proof. reflexivity. Qed.
Lemma pow2_pos e : (0 < pow2 e)%R.
Proof. apply bpow_gt_0. Qed.
Lemma pow2_succ e : pow2 (e + 1) = (2 * pow2 e)%R.
Proof. unfold pow2. rewrite bpow_plus. change (bpow radix2 1) with 2%R. ring. Qed.

(** The next larger magnitude *)
Definition up_from (s : bool) (u w : f64) : Prop :=
  bits_of_b64 w = bits_of_b64 u + 1 /\ finite w /\ Bsign 53 1024 w = s /\
  exists e, (Rabs (val w) = Rabs (val u) + pow2 e)%R /\ ulp radix2 fexp64 (val u) = pow2 e.

Lemma ulp_finite s m e H : ulp radix2 fexp64 (val (B754_finite 53 1024 s m e H)) = pow2 e.
Proof.
  apply ulp_canonical.
  - destruct s; discriminate.
  - apply canonical_canonical_mantissa. unfold SpecFloat.bounded in H. now apply andb_true_iff in H.
Qed.
Lemma ulp_zero : ulp radix2 fexp64 0 = pow2 (-1074).
Proof. change fexp64 with (FLT_exp (-1074) 53). apply ulp_FLT_0. reflexivity. Qed.
Lemma abs_finite s m e H : Rabs (val (B754_finite 53 1024 s m e H)) = (IZR (Z.pos m) * pow2 e)%R.
Proof.
  rewrite val_finite, Rabs_mult, (Rabs_pos_eq (pow2 e)) by apply Rlt_le, pow2_pos. f_equal.
  destruct s; cbn [SpecFloat.cond_Zopp]; [rewrite opp_IZR, Rabs_Ropp|]; apply Rabs_pos_eq, IZR_le; lia.
Qed.

Lemma next_magnitude s u : finite u -> Bsign 53 1024 u = s ->
  (exists w, up_from s u w) \/ (bits_of_b64 u + 1 = bits_of_b64 (B754_infinity 53 1024 s)).
Proof.
  destruct u as [s0|s0|s0 pl N|s0 m e H]; cbn [is_finite Bsign]; try discriminate; intros _ <-.
  - left. assert (H : SpecFloat.bounded 53 1024 1 (-1074) = true) by reflexivity.
    exists (B754_finite 53 1024 s0 1 (-1074) H). unfold up_from. rewrite bits_zero, bits_finite, abs_finite.
    repeat split. { lia. }
    exists (-1074). cbn [val B2R]. split; [rewrite Rabs_R0; ring|]. apply ulp_zero.
  - pose proof (proj1 (bounded_iff m e) H) as (M & E & C).
    destruct (Z.eq_dec (Z.pos m + 1) (2 ^ 53)) as [T|T].
    + destruct (Z.eq_dec e 971) as [->|T2].
      * right. rewrite bits_finite, bits_infinity. lia.
      * left. assert (H' : SpecFloat.bounded 53 1024 (2 ^ 52) (e + 1) = true) by (apply bounded_iff; split; [reflexivity|split; [lia|left; cbn; lia]]).
        exists (B754_finite 53 1024 s0 (2 ^ 52) (e + 1) H'). unfold up_from. rewrite !bits_finite, !abs_finite, ulp_finite, pow2_succ.
        repeat split. { change (Z.pos (2 ^ 52)) with (2 ^ 52). lia. }
        exists e. split; auto. replace (Z.pos (2 ^ 52)) with ((Z.pos m + 1) / 2) by (rewrite T; reflexivity).
        replace (IZR ((Z.pos m + 1) / 2)) with (IZR (Z.pos m + 1) / 2)%R by (rewrite T; change (2 ^ 53 / 2) with (2 ^ 52); change (2 ^ 53) with (2 ^ 52 * 2); rewrite mult_IZR; field).
        rewrite plus_IZR. field.
    + left. assert (H' : SpecFloat.bounded 53 1024 (m + 1) e = true).
      { apply bounded_iff. rewrite Pos2Z.inj_add. lia. }
      exists (B754_finite 53 1024 s0 (m + 1) e H'). unfold up_from. rewrite !bits_finite, !abs_finite, ulp_finite.
      rewrite Pos2Z.inj_add, plus_IZR. repeat split. { lia. } exists e. split; auto. ring.
Qed.
(** The next smaller magnitude *)
Lemma previous_magnitude s m e H : exists u, finite u /\ up_from s u (B754_finite 53 1024 s m e H).
Proof.
  pose proof (proj1 (bounded_iff m e) H) as (M & E & C).
  assert (K : exists u, finite u /\ Bsign 53 1024 u = s /\ bits_of_b64 u + 1 = bits_of_b64 (B754_finite 53 1024 s m e H)).
  { rewrite bits_finite.
    destruct (Z.eq_dec (Z.pos m) 1) as [M1|M1].
    - assert (e = -1074) by lia. subst e. exists (B754_zero 53 1024 s). rewrite bits_zero. repeat split. lia.
    - destruct (Z.eq_dec e (-1074)) as [->|Q]; [|destruct (Z.eq_dec (Z.pos m) (2 ^ 52)) as [Q2|Q2]].
      + assert (H' : SpecFloat.bounded 53 1024 (m - 1) (-1074) = true) by (apply bounded_iff; lia).
        exists (B754_finite 53 1024 s (m - 1) (-1074) H'). rewrite bits_finite. repeat split. lia.
      + assert (H' : SpecFloat.bounded 53 1024 (2 ^ 53 - 1) (e - 1) = true) by (apply bounded_iff; split; [reflexivity|split; [lia|left; cbn; lia]]).
        exists (B754_finite 53 1024 s (2 ^ 53 - 1) (e - 1) H'). rewrite bits_finite. repeat split.
        change (Z.pos (2 ^ 53 - 1)) with (2 ^ 53 - 1). lia.
      + assert (H' : SpecFloat.bounded 53 1024 (m - 1) e = true) by (apply bounded_iff; lia).
        exists (B754_finite 53 1024 s (m - 1) e H'). rewrite bits_finite. repeat split. lia. }
  destruct K as (u & Fu & Su & Bu). exists u. split; auto.
  destruct (next_magnitude s u Fu Su) as [(w & W)|W].
  - assert (w = B754_finite 53 1024 s m e H) as <-; auto.
    rewrite <- (of_bits_bits w). destruct W as (W & _). now rewrite W, Bu, of_bits_bits.
  - exfalso. rewrite Bu, bits_finite, bits_infinity in W. lia.
Qed.

(** ** Neighbours *)

Lemma f_zero_is : f_zero = B754_zero 53 1024 false.
Proof. reflexivity. Qed.
Lemma compare_finite a b : finite a -> finite b -> b64_compare a b = Some (Rcompare (val a) (val b)).
Proof. apply Bcompare_correct. Qed.
Lemma flt_finite a b : finite a -> finite b -> flt a b = true <-> (val a < val b)%R.
Proof.
  intros A B. unfold flt. rewrite (compare_finite a b A B). destruct (Rcompare_spec (val a) (val b)); split; try discriminate; try lra; auto.
Qed.
Lemma fge_finite a b : finite a -> finite b -> fge a b = true <-> (val b <= val a)%R.
Proof.
  intros A B. unfold fge. rewrite (compare_finite a b A B). destruct (Rcompare_spec (val a) (val b)); split; try discriminate; try lra; auto.
Qed.
Lemma val_zero s : val (B754_zero 53 1024 s) = 0%R.
Proof. reflexivity. Qed.
Lemma val_sign (s : bool) m e H : if s then (val (B754_finite 53 1024 s m e H) < 0)%R else (0 < val (B754_finite 53 1024 s m e H))%R.
Proof.
  rewrite val_finite. pose proof (pow2_pos e). assert (0 < IZR (Z.pos m))%R by now apply IZR_lt.
  destruct s; cbn [SpecFloat.cond_Zopp]; [rewrite opp_IZR|]; nra.
Qed.
Lemma in_format v : generic_format radix2 fexp64 (val v).
Proof. apply generic_format_B2R. Qed.

Lemma finite_not_inf v : finite v -> is_infinite v = false.
Proof. now destruct v. Qed.

(** what the signs of the values say *)
Lemma sign_val v : finite v -> if Bsign 53 1024 v then (val v <= 0)%R else (0 <= val v)%R.
Proof.
  destruct v as [s|s|s pl N|s m e H]; cbn [is_finite Bsign]; try discriminate; intros _.
  - rewrite val_zero. destruct s; lra.
  - pose proof (val_sign s m e H). destruct s; lra.
Qed.

(** The largest finite number *)
Definition f_max : f64 := B754_finite 53 1024 false (2 ^ 53 - 1) 971 eq_refl.
Definition f_min : f64 := B754_finite 53 1024 true (2 ^ 53 - 1) 971 eq_refl.
Lemma same_bits a b : bits_of_b64 a = bits_of_b64 b -> a = b.
Proof. intros H. now rewrite <- (of_bits_bits a), H, of_bits_bits. Qed.
Lemma max_is_max w : finite w -> (val f_min <= val w <= val f_max)%R.
Proof.
  intros F.
  assert (A : (Rabs (val w) <= IZR (2 ^ 53 - 1) * pow2 971)%R).
  { destruct w as [s|s|s pl N|s m e H]; try discriminate.
    - cbn [val B2R]. rewrite Rabs_R0. apply Rmult_le_pos; [apply IZR_le; lia|apply Rlt_le, pow2_pos].
    - rewrite abs_finite. pose proof (proj1 (bounded_iff m e) H) as (M & E & C).
      assert (P1 : (0 <= IZR (Z.pos m))%R) by (apply IZR_le; lia).
      assert (P2 : (IZR (Z.pos m) <= IZR (2 ^ 53 - 1))%R) by (apply IZR_le; lia).
      assert (P3 : (pow2 e <= pow2 971)%R) by (apply (bpow_le radix2 e 971); lia).
      exact (Rmult_le_compat _ _ _ _ P1 (Rlt_le _ _ (pow2_pos e)) P2 P3). }
  unfold f_min, f_max. rewrite !val_finite. cbn [SpecFloat.cond_Zopp]. rewrite opp_IZR.
  change (Z.pos (2 ^ 53 - 1)) with (2 ^ 53 - 1). pose proof (Rle_abs (val w)). pose proof (Rle_abs (- val w)). rewrite Rabs_Ropp in *. lra.
Qed.

Lemma next_up_finite v : finite v ->
  (v = B754_zero 53 1024 true /\ next_float_up v = B754_zero 53 1024 false) \/
  (finite (next_float_up v) /\ val (next_float_up v) = succ radix2 fexp64 (val v)) \/
  v = f_max /\ next_float_up v = B754_infinity 53 1024 false.
Proof.
  intros F. unfold next_float_up. rewrite (finite_not_inf v F). cbn [andb]. cbv zeta.
  destruct v as [s|s|s pl N|s m e H]; try discriminate.
  - destruct s.
    + left. split; reflexivity.
    + right; left. split; [reflexivity|].
      replace (if bits_of_b64 (B754_zero 53 1024 false) =? MINUS_ZERO then f_zero else _)
        with (b64_of_bits (bits_of_b64 (B754_finite 53 1024 false 1 (-1074) eq_refl))) by reflexivity.
      rewrite of_bits_bits.
      rewrite val_zero, succ_eq_pos, ulp_zero, val_finite by lra. cbn [SpecFloat.cond_Zopp]. ring.
  - pose proof (val_sign s m e H) as S.
    pose proof (proj1 (bounded_iff m e) H) as (M & E & C).
    replace (bits_of_b64 (B754_finite 53 1024 s m e H) =? MINUS_ZERO) with false
      by (symmetry; apply Z.eqb_neq; rewrite bits_finite; destruct s; unfold sbit, MINUS_ZERO; lia).
    destruct s.
    + replace (fge (B754_finite 53 1024 true m e H) f_zero) with false
        by (symmetry; apply not_true_iff_false; rewrite fge_finite by reflexivity; rewrite f_zero_is, val_zero; lra).
      right; left. destruct (previous_magnitude true m e H) as (u & Fu & (B & _ & Su & e' & V & U)).
      rewrite B. replace (bits_of_b64 u + 1 - 1) with (bits_of_b64 u) by lia. rewrite of_bits_bits. split; auto.
      assert (Su' : Bsign 53 1024 u = true).
      { destruct u as [su|su|su pl N|su mu eu Hu]; try discriminate.
        - rewrite bits_zero, bits_finite in B. destruct su; auto. unfold sbit in B. lia.
        - rewrite !bits_finite in B. pose proof (proj1 (bounded_iff mu eu) Hu). destruct su; auto. unfold sbit in B. lia. }
      pose proof (sign_val u Fu) as Vu. rewrite Su' in Vu.
      rewrite (Rabs_left1 (val u)), (Rabs_left1 (val (B754_finite 53 1024 true m e H))) in V by lra.
      replace (val (B754_finite 53 1024 true m e H)) with (- (- val u + pow2 e'))%R by lra.
      rewrite succ_opp. rewrite <- U. rewrite <- ulp_opp. rewrite <- succ_eq_pos by lra.
      rewrite pred_succ; [ring| |apply generic_format_opp, in_format]. apply fexp_correct, prec64.
    + replace (fge (B754_finite 53 1024 false m e H) f_zero) with true
        by (symmetry; apply fge_finite; try reflexivity; rewrite f_zero_is, val_zero; lra).
      right. destruct (next_magnitude false (B754_finite 53 1024 false m e H) eq_refl eq_refl) as [(w & B & Fw & Sw & e' & V & U)|B].
      * left. rewrite <- B, of_bits_bits. split; auto.
        pose proof (sign_val w Fw) as Vw. rewrite Sw in Vw.
        rewrite (Rabs_pos_eq (val w)), (Rabs_pos_eq (val (B754_finite 53 1024 false m e H))) in V by lra.
        rewrite succ_eq_pos by lra. rewrite U. exact V.
      * right. split; [|now rewrite B, of_bits_bits]. apply same_bits. rewrite bits_infinity in B. unfold sbit in B.
        match goal with |- _ = bits_of_b64 ?k => let t := eval vm_compute in (bits_of_b64 k) in change (bits_of_b64 k) with t end. lia.
Qed.
Lemma next_down_finite v : finite v ->
  (v = B754_zero 53 1024 false /\ next_float_down v = B754_zero 53 1024 false) \/
  (finite (next_float_down v) /\ val (next_float_down v) = pred radix2 fexp64 (val v)) \/
  v = f_min /\ next_float_down v = B754_infinity 53 1024 true.
Proof.
  intros F. unfold next_float_down. rewrite (finite_not_inf v F). cbn [andb]. cbv zeta.
  destruct v as [s|s|s pl N|s m e H]; try discriminate.
  - destruct s.
    + right; left. split; [reflexivity|].
      replace (if bits_of_b64 (B754_zero 53 1024 true) =? ZERO then f_zero else _)
        with (b64_of_bits (bits_of_b64 (B754_finite 53 1024 true 1 (-1074) eq_refl))) by reflexivity.
      rewrite of_bits_bits.
      rewrite val_zero, pred_0, ulp_zero, val_finite by lra. cbn [SpecFloat.cond_Zopp]. rewrite opp_IZR. ring.
    + left. split; reflexivity.
  - pose proof (val_sign s m e H) as S.
    pose proof (proj1 (bounded_iff m e) H) as (M & E & C).
    replace (bits_of_b64 (B754_finite 53 1024 s m e H) =? ZERO) with false
      by (symmetry; apply Z.eqb_neq; rewrite bits_finite; destruct s; unfold sbit, ZERO; lia).
    destruct s.
    + replace (flt f_zero (B754_finite 53 1024 true m e H)) with false
        by (symmetry; apply not_true_iff_false; rewrite flt_finite by reflexivity; rewrite f_zero_is, val_zero; lra).
      right. destruct (next_magnitude true (B754_finite 53 1024 true m e H) eq_refl eq_refl) as [(w & B & Fw & Sw & e' & V & U)|B].
      * left. rewrite <- B, of_bits_bits. split; auto.
        pose proof (sign_val w Fw) as Vw. rewrite Sw in Vw.
        rewrite (Rabs_left1 (val w)), (Rabs_left1 (val (B754_finite 53 1024 true m e H))) in V by lra.
        replace (val (B754_finite 53 1024 true m e H)) with (- - val (B754_finite 53 1024 true m e H))%R by ring.
        rewrite pred_opp, succ_eq_pos by lra. rewrite ulp_opp, U. lra.
      * right. split; [|now rewrite B, of_bits_bits]. apply same_bits. rewrite bits_infinity in B. unfold sbit in B.
        match goal with |- _ = bits_of_b64 ?k => let t := eval vm_compute in (bits_of_b64 k) in change (bits_of_b64 k) with t end. lia.
    + replace (flt f_zero (B754_finite 53 1024 false m e H)) with true
        by (symmetry; apply flt_finite; try reflexivity; rewrite f_zero_is, val_zero; lra).
      right; left. destruct (previous_magnitude false m e H) as (u & Fu & (B & _ & Su & e' & V & U)).
      rewrite B. replace (bits_of_b64 u + 1 - 1) with (bits_of_b64 u) by lia. rewrite of_bits_bits. split; auto.
      assert (Su' : Bsign 53 1024 u = false).
      { destruct u as [su|su|su pl N|su mu eu Hu]; try discriminate.
        - rewrite bits_zero, bits_finite in B. destruct su; auto. unfold sbit in B. lia.
        - rewrite !bits_finite in B. pose proof (proj1 (bounded_iff mu eu) Hu). destruct su; auto. unfold sbit in B. lia. }
      pose proof (sign_val u Fu) as Vu. rewrite Su' in Vu.
      rewrite (Rabs_pos_eq (val u)), (Rabs_pos_eq (val (B754_finite 53 1024 false m e H))) in V by lra.
      rewrite V, <- U, <- succ_eq_pos, pred_succ; [ring| |apply in_format|auto]. apply fexp_correct, prec64.
Qed.

(** ** Bounds *)

(** [f] is a lower bound of [x]; an upper bound *)
Definition below (f : f64) (x : R) : Prop :=
  match f with B754_nan _ _ _ _ _ => False | B754_infinity _ _ s => s = true | _ => (val f <= x)%R end.
Definition above (f : f64) (x : R) : Prop :=
  match f with B754_nan _ _ _ _ _ => False | B754_infinity _ _ s => s = false | _ => (x <= val f)%R end.
Lemma below_finite f x : finite f -> below f x <-> (val f <= x)%R.
Proof. destruct f; cbn; try discriminate; reflexivity. Qed.
Lemma above_finite f x : finite f -> above f x <-> (x <= val f)%R.
Proof. destruct f; cbn; try discriminate; reflexivity. Qed.

Definition rnd (x : R) : R := round radix2 fexp64 ZnearestE x.
(** [r] is what the machine has for the exact result [x] *)
Definition rounded (r : f64) (x : R) : Prop :=
  match r with
  | B754_nan _ _ _ _ _ => False
  | B754_infinity _ _ s => (bpow radix2 1024 <= Rabs (rnd x))%R /\ (if s then x <= 0 else 0 <= x)%R
  | _ => val r = rnd x /\ (if Bsign 53 1024 r then x <= 0 else 0 <= x)%R
  end.

Local Instance valid64 : Valid_exp fexp64 := fexp_correct 53 1024 prec64.
Lemma rnd_le x y : (x <= y)%R -> (rnd x <= rnd y)%R.
Proof. apply round_le; typeclasses eauto. Qed.
Lemma rnd_id v : rnd (val v) = val v.
Proof. apply round_generic; [typeclasses eauto|apply in_format]. Qed.
Lemma rnd_format x : generic_format radix2 fexp64 (rnd x).
Proof. apply generic_format_round; typeclasses eauto. Qed.
Lemma le_succ_rnd x : (x <= succ radix2 fexp64 (rnd x))%R.
Proof.
  destruct (Rle_lt_dec x (succ radix2 fexp64 (rnd x))) as [L|L]; auto. exfalso.
  assert (G : generic_format radix2 fexp64 (succ radix2 fexp64 (rnd x))) by (apply generic_format_succ; [typeclasses eauto|apply rnd_format]).
  assert (K : (succ radix2 fexp64 (rnd x) <= rnd x)%R).
  { replace (succ radix2 fexp64 (rnd x)) with (rnd (succ radix2 fexp64 (rnd x))) at 1 by (apply round_generic; [typeclasses eauto|exact G]).
    apply rnd_le; lra. }
  destruct (Req_dec (rnd x) 0) as [Z|Z].
  - rewrite Z, succ_0, ulp_zero in K. pose proof (pow2_pos (-1074)). lra.
  - pose proof (succ_gt_id radix2 fexp64 (rnd x) Z). lra.
Qed.
Lemma pred_rnd_le x : (pred radix2 fexp64 (rnd x) <= x)%R.
Proof.
  destruct (Rle_lt_dec (pred radix2 fexp64 (rnd x)) x) as [L|L]; auto. exfalso.
  assert (G : generic_format radix2 fexp64 (pred radix2 fexp64 (rnd x))) by (apply generic_format_pred; [typeclasses eauto|apply rnd_format]).
  assert (K : (rnd x <= pred radix2 fexp64 (rnd x))%R).
  { replace (pred radix2 fexp64 (rnd x)) with (rnd (pred radix2 fexp64 (rnd x))) by (apply round_generic; [typeclasses eauto|exact G]).
    apply rnd_le; lra. }
  destruct (Req_dec (rnd x) 0) as [Z|Z].
  - rewrite Z, pred_0, ulp_zero in K. pose proof (pow2_pos (-1074)). lra.
  - pose proof (pred_lt_id radix2 fexp64 (rnd x) Z). lra.
Qed.

Lemma max_val : (val f_max < bpow radix2 1024)%R.
Proof. apply (Rle_lt_trans _ (Rabs (val f_max))); [apply Rle_abs|]. apply abs_B2R_lt_emax. Qed.
Lemma min_val : val f_min = (- val f_max)%R.
Proof. unfold f_min, f_max. rewrite !val_finite. cbn [SpecFloat.cond_Zopp]. rewrite opp_IZR. ring. Qed.
Lemma overflow_above x : (0 <= x)%R -> (bpow radix2 1024 <= Rabs (rnd x))%R -> (val f_max <= x)%R.
Proof.
  intros P O. destruct (Rle_lt_dec (val f_max) x) as [L|L]; auto. exfalso.
  assert (K := rnd_le x (val f_max) (Rlt_le _ _ L)). rewrite rnd_id in K.
  assert (Z : (0 <= rnd x)%R) by (rewrite <- (round_0 radix2 fexp64 ZnearestE); apply (rnd_le 0 x P)).
  rewrite Rabs_pos_eq in O by auto. pose proof max_val. lra.
Qed.
Lemma overflow_below x : (x <= 0)%R -> (bpow radix2 1024 <= Rabs (rnd x))%R -> (x <= val f_min)%R.
Proof.
  intros P O. destruct (Rle_lt_dec x (val f_min)) as [L|L]; auto. exfalso.
  assert (K := rnd_le (val f_min) x (Rlt_le _ _ L)). rewrite rnd_id in K.
  assert (Z : (rnd x <= 0)%R) by (rewrite <- (round_0 radix2 fexp64 ZnearestE); apply (rnd_le x 0 P)).
  rewrite Rabs_left1 in O by auto. rewrite min_val in K. pose proof max_val. lra.
Qed.
Lemma next_up_inf s : next_float_up (B754_infinity 53 1024 s) = if s then f_min else B754_infinity 53 1024 false.
Proof.
  destruct s; [|reflexivity]. unfold next_float_up.
  replace (is_infinite (B754_infinity 53 1024 true) && flt f_zero (B754_infinity 53 1024 true)) with false by reflexivity. cbv zeta.
  replace (if bits_of_b64 (B754_infinity 53 1024 true) =? MINUS_ZERO then f_zero else _) with (b64_of_bits (bits_of_b64 f_min)) by reflexivity.
  apply of_bits_bits.
Qed.
Lemma next_down_inf s : next_float_down (B754_infinity 53 1024 s) = if s then B754_infinity 53 1024 true else f_max.
Proof.
  destruct s; [reflexivity|]. unfold next_float_down.
  replace (is_infinite (B754_infinity 53 1024 false) && flt (B754_infinity 53 1024 false) f_zero) with false by reflexivity. cbv zeta.
  replace (if bits_of_b64 (B754_infinity 53 1024 false) =? ZERO then f_zero else _) with (b64_of_bits (bits_of_b64 f_max)) by reflexivity.
  apply of_bits_bits.
Qed.

Lemma rounded_finite r x : finite r -> rounded r x -> val r = rnd x /\ (if Bsign 53 1024 r then x <= 0 else 0 <= x)%R.
Proof. destruct r; cbn; try discriminate; auto. Qed.
Lemma rounded_cases r x : rounded r x -> finite r \/ exists s, r = B754_infinity 53 1024 s.
Proof. destruct r; cbn; eauto; intros []. Qed.

Lemma up_above r x : rounded r x -> above (next_float_up r) x.
Proof.
  intros A. destruct (rounded_cases r x A) as [F|(s & ->)].
  - destruct (rounded_finite r x F A) as (V & S).
    destruct (next_up_finite r F) as [(-> & ->)|[(Fn & Vn)|(_ & ->)]].
    + cbn. cbn [Bsign] in S. exact S.
    + apply above_finite; auto. rewrite Vn, V. apply le_succ_rnd.
    + reflexivity.
  - rewrite next_up_inf. destruct A as (A1 & A2). destruct s; [|reflexivity].
    apply above_finite; [reflexivity|]. now apply overflow_below.
Qed.
Lemma down_below r x : rounded r x -> below (next_float_down r) x.
Proof.
  intros A. destruct (rounded_cases r x A) as [F|(s & ->)].
  - destruct (rounded_finite r x F A) as (V & S).
    destruct (next_down_finite r F) as [(-> & ->)|[(Fn & Vn)|(_ & ->)]].
    + cbn. cbn [Bsign] in S. exact S.
    + apply below_finite; auto. rewrite Vn, V. apply pred_rnd_le.
    + reflexivity.
  - rewrite next_down_inf. destruct A as (A1 & A2). destruct s; [reflexivity|].
    apply below_finite; [reflexivity|]. now apply overflow_above.
Qed.
(** Going further away keeps a bound. *)
Lemma up_keeps f x : above f x -> above (next_float_up f) x.
Proof.
  intros A. destruct f as [s|s|s pl N|s m e H].
  - assert (A' := A); rewrite above_finite in A' by reflexivity.
    destruct (next_up_finite _ (eq_refl : finite (B754_zero 53 1024 s))) as [(_ & ->)|[(Fn & Vn)|(_ & ->)]].
    + apply above_finite; auto.
    + apply above_finite; auto. rewrite Vn. pose proof (succ_ge_id radix2 fexp64 (val (B754_zero 53 1024 s))). lra.
    + reflexivity.
  - cbn in A. subst s. now rewrite next_up_inf.
  - destruct A.
  - assert (A' := A); rewrite above_finite in A' by reflexivity.
    destruct (next_up_finite _ (eq_refl : finite (B754_finite 53 1024 s m e H))) as [(? & _)|[(Fn & Vn)|(_ & ->)]].
    + discriminate.
    + apply above_finite; auto. rewrite Vn. pose proof (succ_ge_id radix2 fexp64 (val (B754_finite 53 1024 s m e H))). lra.
    + reflexivity.
Qed.
Lemma down_keeps f x : below f x -> below (next_float_down f) x.
Proof.
  intros A. destruct f as [s|s|s pl N|s m e H].
  - assert (A' := A); rewrite below_finite in A' by reflexivity.
    destruct (next_down_finite _ (eq_refl : finite (B754_zero 53 1024 s))) as [(_ & ->)|[(Fn & Vn)|(_ & ->)]].
    + apply below_finite; auto.
    + apply below_finite; auto. rewrite Vn. pose proof (pred_le_id radix2 fexp64 (val (B754_zero 53 1024 s))). lra.
    + reflexivity.
  - cbn in A. subst s. now rewrite next_down_inf.
  - destruct A.
  - assert (A' := A); rewrite below_finite in A' by reflexivity.
    destruct (next_down_finite _ (eq_refl : finite (B754_finite 53 1024 s m e H))) as [(? & _)|[(Fn & Vn)|(_ & ->)]].
    + discriminate.
    + apply below_finite; auto. rewrite Vn. pose proof (pred_le_id radix2 fexp64 (val (B754_finite 53 1024 s m e H))). lra.
    + reflexivity.
Qed.

(** ** Operations *)

Lemma overflow_is (r : f64) s : B2FF 53 1024 r = binary_overflow 53 1024 mode_NE s -> r = B754_infinity 53 1024 s.
Proof.
  intros H. change (binary_overflow 53 1024 mode_NE s) with (F754_infinity s) in H.
  destruct r; cbn in H; try discriminate. now injection H as ->.
Qed.
Lemma rounded_of r x (s : bool) : (if Rlt_bool (Rabs (rnd x)) (bpow radix2 1024)
  then val r = rnd x /\ finite r /\ (if Bsign 53 1024 r then x <= 0 else 0 <= x)%R
  else B2FF 53 1024 r = binary_overflow 53 1024 mode_NE s /\ (if s then x <= 0 else 0 <= x)%R) -> rounded r x.
Proof.
  destruct (Rlt_bool_spec (Rabs (rnd x)) (bpow radix2 1024)) as [L|L].
  - intros (V & F & S). destruct r; try discriminate; cbn [rounded]; auto.
  - intros (O & S). apply overflow_is in O. subst r. cbn. auto.
Qed.
Lemma add_rounded a b : finite a -> finite b -> rounded (fadd a b) (val a + val b).
Proof.
  intros A B. pose proof (sign_val a A) as Sa. pose proof (sign_val b B) as Sb.
  pose proof (Bplus_correct 53 1024 eq_refl eq_refl binop_nan_pl64 mode_NE a b A B) as C.
  apply (rounded_of _ _ (Bsign 53 1024 a)).
  change (round radix2 fexp64 (round_mode mode_NE) (B2R 53 1024 a + B2R 53 1024 b)) with (rnd (val a + val b)) in C.
  destruct (Rlt_bool (Rabs (rnd (val a + val b))) (bpow radix2 1024)).
  - destruct C as (V & F & S). repeat split; auto. unfold fadd, b64_plus. rewrite S.
    change (B2R 53 1024 a + B2R 53 1024 b)%R with (val a + val b)%R.
    destruct (Rcompare_spec (val a + val b) 0); try lra. destruct (Bsign 53 1024 a && Bsign 53 1024 b); lra.
  - destruct C as (O & S). split; auto. rewrite <- S in Sb. destruct (Bsign 53 1024 a); lra.
Qed.
Lemma sub_rounded a b : finite a -> finite b -> rounded (fsub a b) (val a - val b).
Proof.
  intros A B. pose proof (sign_val a A) as Sa. pose proof (sign_val b B) as Sb.
  pose proof (Bminus_correct 53 1024 eq_refl eq_refl binop_nan_pl64 mode_NE a b A B) as C.
  apply (rounded_of _ _ (Bsign 53 1024 a)).
  change (round radix2 fexp64 (round_mode mode_NE) (B2R 53 1024 a - B2R 53 1024 b)) with (rnd (val a - val b)) in C.
  destruct (Rlt_bool (Rabs (rnd (val a - val b))) (bpow radix2 1024)).
  - destruct C as (V & F & S). repeat split; auto. unfold fsub, b64_minus. rewrite S.
    change (B2R 53 1024 a - B2R 53 1024 b)%R with (val a - val b)%R.
    destruct (Rcompare_spec (val a - val b) 0); try lra. destruct (Bsign 53 1024 a && negb (Bsign 53 1024 b)); lra.
  - destruct C as (O & S). split; auto. rewrite S in *. destruct (Bsign 53 1024 b); cbn [negb] in *; lra.
Qed.
Lemma finite_not_nan r : finite r -> is_nan 53 1024 r = false.
Proof. now destruct r. Qed.
Lemma mul_rounded a b : finite a -> finite b -> rounded (fmul a b) (val a * val b).
Proof.
  intros A B. pose proof (sign_val a A) as Sa. pose proof (sign_val b B) as Sb.
  pose proof (Bmult_correct 53 1024 eq_refl eq_refl binop_nan_pl64 mode_NE a b) as C.
  assert (S : if xorb (Bsign 53 1024 a) (Bsign 53 1024 b) then (val a * val b <= 0)%R else (0 <= val a * val b)%R)
    by (destruct (Bsign 53 1024 a), (Bsign 53 1024 b); cbn; nra).
  apply (rounded_of _ _ (xorb (Bsign 53 1024 a) (Bsign 53 1024 b))).
  change (round radix2 fexp64 (round_mode mode_NE) (B2R 53 1024 a * B2R 53 1024 b)) with (rnd (val a * val b)) in C.
  destruct (Rlt_bool (Rabs (rnd (val a * val b))) (bpow radix2 1024)).
  - destruct C as (V & F & S2). rewrite A, B in F. repeat split; auto. unfold fmul, b64_mult.
    rewrite S2 by now apply finite_not_nan. exact S.
  - split; auto.
Qed.
Lemma div_rounded a b : finite a -> finite b -> val b <> 0%R -> rounded (fdiv a b) (val a / val b).
Proof.
  intros A B NZ. pose proof (sign_val a A) as Sa. pose proof (sign_val b B) as Sb.
  pose proof (Bdiv_correct 53 1024 eq_refl eq_refl binop_nan_pl64 mode_NE a b NZ) as C.
  assert (S : if xorb (Bsign 53 1024 a) (Bsign 53 1024 b) then (val a / val b <= 0)%R else (0 <= val a / val b)%R).
  { unfold Rdiv. destruct (Bsign 53 1024 b).
    - assert (/ val b < 0)%R by (apply Rinv_lt_0_compat; lra). destruct (Bsign 53 1024 a); cbn; nra.
    - assert (0 < / val b)%R by (apply Rinv_0_lt_compat; lra). destruct (Bsign 53 1024 a); cbn; nra. }
  apply (rounded_of _ _ (xorb (Bsign 53 1024 a) (Bsign 53 1024 b))).
  change (round radix2 fexp64 (round_mode mode_NE) (B2R 53 1024 a / B2R 53 1024 b)) with (rnd (val a / val b)) in C.
  destruct (Rlt_bool (Rabs (rnd (val a / val b))) (bpow radix2 1024)).
  - destruct C as (V & F & S2). rewrite A in F. repeat split; auto. unfold fdiv, b64_div.
    rewrite S2 by now apply finite_not_nan. exact S.
  - split; auto.
Qed.
Lemma sqrt_rounded a : finite a -> (0 <= val a)%R -> rounded (fsqrt a) (sqrt (val a)) /\ finite (fsqrt a).
Proof.
  intros A P. pose proof (Bsqrt_correct 53 1024 eq_refl eq_refl unop_nan_pl64 mode_NE a) as (V & F & S).
  assert (F' : finite (fsqrt a)).
  { unfold fsqrt, b64_sqrt. rewrite F. destruct a as [s|s|s pl N|s m e H]; try discriminate; auto.
    pose proof (val_sign s m e H). destruct s; auto. lra. }
  split; auto. specialize (S (finite_not_nan _ F')).
  assert (K : val (fsqrt a) = rnd (sqrt (val a)) /\ (if Bsign 53 1024 (fsqrt a) then sqrt (val a) <= 0 else 0 <= sqrt (val a))%R).
  { split; [exact V|]. unfold fsqrt, b64_sqrt. rewrite S.
    destruct a as [s|s|s pl N|s m e H]; try discriminate; cbn [Bsign].
    - rewrite val_zero, sqrt_0. destruct s; lra.
    - pose proof (val_sign s m e H). destruct s; [lra|apply sqrt_pos]. }
  destruct (fsqrt a); try discriminate; exact K.
Qed.

(** ** Minimum and maximum of floats *)

Lemma below_cases f x : below f x -> finite f \/ f = B754_infinity 53 1024 true.
Proof. destruct f as [s|s|s pl N|s m e H]; cbn; auto; intros ->; auto. Qed.
Lemma above_cases f x : above f x -> finite f \/ f = B754_infinity 53 1024 false.
Proof. destruct f as [s|s|s pl N|s m e H]; cbn; auto; intros ->; auto. Qed.
Definition number (f : f64) : Prop := is_nan 53 1024 f = false.
Lemma number_cases f : number f -> finite f \/ exists s, f = B754_infinity 53 1024 s.
Proof. destruct f; cbn; eauto; discriminate. Qed.

Lemma lt_below a b x : number a -> flt a b = true -> below b x -> below a x.
Proof.
  intros Na L B. destruct (below_cases b x B) as [Fb| ->].
  - destruct (number_cases a Na) as [Fa|([|] & ->)].
    + apply (flt_finite _ _ Fa Fb) in L. apply below_finite in B; auto. apply below_finite; auto. lra.
    + reflexivity.
    + destruct b as [sb|sb|sb pb Nb|sb mb eb Hb]; try discriminate; destruct sb; discriminate L.
  - destruct a as [sa|sa|sa pa Na'|sa ma ea Ha]; try discriminate; destruct sa; discriminate L.
Qed.
Lemma ge_below a b x : number b -> flt a b = false -> below a x -> below b x.
Proof.
  intros Nb L A. destruct (below_cases a x A) as [Fa| ->].
  - destruct (number_cases b Nb) as [Fb|([|] & ->)].
    + assert (L' : ~ (val a < val b)%R) by (rewrite <- (flt_finite _ _ Fa Fb), L; discriminate).
      apply below_finite in A; auto. apply below_finite; auto. lra.
    + reflexivity.
    + destruct a as [sb|sb|sb pb Na|sb mb eb Hb]; try discriminate; destruct sb; discriminate L.
  - destruct b as [sb|[|]|sb pb Nb'|sb mb eb Hb]; try discriminate; try reflexivity; destruct sb; discriminate L.
Qed.
Lemma lt_above a b x : number b -> flt a b = true -> above a x -> above b x.
Proof.
  intros Nb L A. destruct (above_cases a x A) as [Fa| ->].
  - destruct (number_cases b Nb) as [Fb|([|] & ->)].
    + apply (flt_finite _ _ Fa Fb) in L. apply above_finite in A; auto. apply above_finite; auto. lra.
    + destruct a as [sb|sb|sb pb Na|sb mb eb Hb]; try discriminate; destruct sb; discriminate L.
    + reflexivity.
  - destruct b as [sb|sb|sb pb Nb'|sb mb eb Hb]; try discriminate; destruct sb; discriminate L.
Qed.
Lemma ge_above a b x : number a -> flt a b = false -> above b x -> above a x.
Proof.
  intros Na L B. destruct (above_cases b x B) as [Fb| ->].
  - destruct (number_cases a Na) as [Fa|([|] & ->)].
    + assert (L' : ~ (val a < val b)%R) by (rewrite <- (flt_finite _ _ Fa Fb), L; discriminate).
      apply above_finite in B; auto. apply above_finite; auto. lra.
    + destruct b as [sb|sb|sb pb Nb|sb mb eb Hb]; try discriminate; destruct sb; discriminate L.
    + reflexivity.
  - destruct a as [sb|[|]|sb pb Na'|sb mb eb Hb]; try discriminate; try reflexivity; destruct sb; discriminate L.
Qed.

Lemma max_min_bounds others : forall mx mn, number mx -> number mn -> Forall number others ->
  let '(mx', mn') := fold_left (fun '(mx, mn) v => (if flt mx v then v else mx, if flt v mn then v else mn)) others (mx, mn) in
  number mx' /\ number mn' /\
  (forall x, above mx x -> above mx' x) /\ (forall x, below mn x -> below mn' x) /\
  (forall v, In v others -> (forall x, above v x -> above mx' x) /\ (forall x, below v x -> below mn' x)).
Proof.
  induction others as [|v others IH]; intros mx mn Nx Nn No.
  { cbn. repeat split; auto; contradiction. }
  inversion_clear No as [|? ? Nv No']. cbn [fold_left].
  set (mx1 := if flt mx v then v else mx). set (mn1 := if flt v mn then v else mn).
  assert (Nx1 : number mx1) by (unfold mx1; destruct (flt mx v); auto).
  assert (Nn1 : number mn1) by (unfold mn1; destruct (flt v mn); auto).
  assert (X1 : forall x, above mx x -> above mx1 x).
  { intros x H. unfold mx1. destruct (flt mx v) eqn:L; auto. now apply (lt_above mx v x Nv L). }
  assert (X2 : forall x, above v x -> above mx1 x).
  { intros x H. unfold mx1. destruct (flt mx v) eqn:L; auto. now apply (ge_above mx v x Nx L). }
  assert (M1 : forall x, below mn x -> below mn1 x).
  { intros x H. unfold mn1. destruct (flt v mn) eqn:L; auto. now apply (lt_below v mn x Nv L). }
  assert (M2 : forall x, below v x -> below mn1 x).
  { intros x H. unfold mn1. destruct (flt v mn) eqn:L; auto. now apply (ge_below v mn x Nn L). }
  clearbody mx1 mn1. specialize (IH mx1 mn1 Nx1 Nn1 No').
  destruct (fold_left _ others (mx1, mn1)) as (mx' & mn'). destruct IH as (I1 & I2 & I3 & I4 & I5).
  repeat split; auto; intros; destruct H as [<-|H]; auto; apply (I5 _ H); auto.
Qed.
Lemma below_number f x : below f x -> number f.
Proof. destruct f; cbn; try reflexivity; intros []. Qed.
Lemma above_number f x : above f x -> number f.
Proof. destruct f; cbn; try reflexivity; intros []. Qed.
Lemma rounded_number r x : rounded r x -> number r.
Proof. destruct r; cbn; try reflexivity; intros []. Qed.

(** ** Products and quotients of intervals *)

Lemma in_corners (P : R -> Prop) a b c d : P a -> P b -> P c -> P d -> forall x, (x = a \/ x = b \/ x = c \/ x = d) -> P x.
Proof. intros ? ? ? ? x [->|[->|[->| ->]]]; auto. Qed.
Lemma corners_mul al ah bl bh x y : (al <= x <= ah)%R -> (bl <= y <= bh)%R ->
  (exists c, (c = al * bl \/ c = ah * bl \/ c = al * bh \/ c = ah * bh) /\ c <= x * y)%R /\
  (exists c, (c = al * bl \/ c = ah * bl \/ c = al * bh \/ c = ah * bh) /\ x * y <= c)%R.
Proof.
  intros X Y.
  destruct (Rle_lt_dec 0 y) as [Py|Py].
  - assert (L1 : (al * y <= x * y)%R) by nra. assert (U1 : (x * y <= ah * y)%R) by nra. split.
    + destruct (Rle_lt_dec 0 al); [exists (al * bl)%R|exists (al * bh)%R]; (split; [tauto|nra]).
    + destruct (Rle_lt_dec 0 ah); [exists (ah * bh)%R|exists (ah * bl)%R]; (split; [tauto|nra]).
  - assert (L1 : (ah * y <= x * y)%R) by nra. assert (U1 : (x * y <= al * y)%R) by nra. split.
    + destruct (Rle_lt_dec 0 ah); [exists (ah * bl)%R|exists (ah * bh)%R]; (split; [tauto|nra]).
    + destruct (Rle_lt_dec 0 al); [exists (al * bh)%R|exists (al * bl)%R]; (split; [tauto|nra]).
Qed.
Lemma corners_div al ah bl bh x y : (al <= x <= ah)%R -> (bl <= y <= bh)%R -> (0 < bl \/ bh < 0)%R ->
  (exists c, (c = al / bl \/ c = ah / bl \/ c = al / bh \/ c = ah / bh) /\ c <= x / y)%R /\
  (exists c, (c = al / bl \/ c = ah / bl \/ c = al / bh \/ c = ah / bh) /\ x / y <= c)%R.
Proof.
  intros X Y NZ. unfold Rdiv.
  assert (Y' : (/ bh <= / y <= / bl)%R).
  { destruct NZ; split.
    - apply Rinv_le_contravar; lra.
    - apply Rinv_le_contravar; lra.
    - apply Ropp_le_cancel. rewrite <- !Rinv_opp. apply Rinv_le_contravar; lra.
    - apply Ropp_le_cancel. rewrite <- !Rinv_opp. apply Rinv_le_contravar; lra. }
  destruct (corners_mul al ah (/ bh) (/ bl) x (/ y) X Y') as ((c1 & C1 & L1) & (c2 & C2 & L2)).
  split; [exists c1|exists c2]; (split; [tauto|auto]).
Qed.

Lemma op_encloses op (rop : R -> R -> R) a b x y :
  (forall p q, In p [low a; high a] -> In q [low b; high b] -> rounded (op p q) (rop (val p) (val q))) ->
  (exists c, (c = rop (val (low a)) (val (low b)) \/ c = rop (val (high a)) (val (low b)) \/
              c = rop (val (low a)) (val (high b)) \/ c = rop (val (high a)) (val (high b))) /\ (c <= rop x y)%R) ->
  (exists c, (c = rop (val (low a)) (val (low b)) \/ c = rop (val (high a)) (val (low b)) \/
              c = rop (val (low a)) (val (high b)) \/ c = rop (val (high a)) (val (high b))) /\ (rop x y <= c)%R) ->
  below (low (a_op op a b)) (rop x y) /\ above (high (a_op op a b)) (rop x y).
Proof.
  intros Hop (c1 & C1 & L1) (c2 & C2 & L2).
  set (X1 := rop (val (low a)) (val (low b))) in *. set (X2 := rop (val (high a)) (val (low b))) in *.
  set (X3 := rop (val (low a)) (val (high b))) in *. set (X4 := rop (val (high a)) (val (high b))) in *.
  assert (R1 : rounded (op (low a) (low b)) X1) by (apply Hop; cbn; auto).
  assert (R2 : rounded (op (high a) (low b)) X2) by (apply Hop; cbn; auto).
  assert (R3 : rounded (op (low a) (high b)) X3) by (apply Hop; cbn; auto).
  assert (R4 : rounded (op (high a) (high b)) X4) by (apply Hop; cbn; auto).
  unfold a_op, four, max_min.
  pose proof (down_below _ _ R1) as D1. pose proof (down_below _ _ R2) as D2.
  pose proof (down_below _ _ R3) as D3. pose proof (down_below _ _ R4) as D4.
  pose proof (up_above _ _ R1) as U1. pose proof (up_above _ _ R2) as U2.
  pose proof (up_above _ _ R3) as U3. pose proof (up_above _ _ R4) as U4.
  set (d1 := next_float_down (op (low a) (low b))) in *. set (d2 := next_float_down (op (high a) (low b))) in *.
  set (d3 := next_float_down (op (low a) (high b))) in *. set (d4 := next_float_down (op (high a) (high b))) in *.
  set (u1 := next_float_up (op (low a) (low b))) in *. set (u2 := next_float_up (op (high a) (low b))) in *.
  set (u3 := next_float_up (op (low a) (high b))) in *. set (u4 := next_float_up (op (high a) (high b))) in *.
  assert (Nd : Forall number [d2; d3; d4]) by (repeat constructor; eauto using below_number).
  assert (Nu : Forall number [u2; u3; u4]) by (repeat constructor; eauto using above_number).
  pose proof (max_min_bounds [d2; d3; d4] d1 d1 (below_number _ _ D1) (below_number _ _ D1) Nd) as MD.
  pose proof (max_min_bounds [u2; u3; u4] u1 u1 (above_number _ _ U1) (above_number _ _ U1) Nu) as MU.
  destruct (fold_left _ [d2; d3; d4] (d1, d1)) as (dx & dn). destruct (fold_left _ [u2; u3; u4] (u1, u1)) as (ux & un).
  cbn [low high].
  destruct MD as (_ & _ & _ & MD1 & MD). destruct MU as (_ & _ & MU1 & _ & MU).
  assert (B : below dn c1).
  { revert C1. apply (in_corners (below dn)); [apply MD1; auto|..]; eapply (fun v I => proj2 (MD v I)); eauto; cbn; auto. }
  assert (A : above ux c2).
  { revert C2. apply (in_corners (above ux)); [apply MU1; auto|..]; eapply (fun v I => proj1 (MU v I)); eauto; cbn; auto. }
  split.
  - apply down_keeps. destruct dn as [s|s|s pl N|s m e H]; cbn in *; try lra; auto.
  - apply up_keeps. destruct ux as [s|s|s pl N|s m e H]; cbn in *; try lra; auto.
Qed.

(** C115: the error that the transforms report, in the arithmetic of the machine *)
From Coq Require Import ZArith Bool List Reals Lia Lra Psatz.
From Flocq Require Import Core IEEE754.BinarySingleNaN IEEE754.Binary IEEE754.Bits.
From Verif.Common Require Import Base.
From Verif.Geometry Require Import RoundErrorModel RoundErrorProofs QuickInvSqrtModel QuickInvSqrtProofs MachineModel MachineProofs TransformMachineModel TransformMachineProofs.
Import ListNotations.
Open Scope R_scope.

(** Coordinate [i] of a point or vector *)
Definition coord (i : nat) (v : vec) : f64 := match i with 0%nat => vec_x v | 1%nat => vec_y v | _ => vec_z v end.
Definition entry (m : list f64) (r c : nat) : R := val (nth (4 * r + c) m f_zero).
(** What row [i] of the matrix gives for a point and for a vector, in the reals *)
Definition exact_pt (m : list f64) (x y z : R) (i : nat) : R := entry m i 0 * x + entry m i 1 * y + entry m i 2 * z + entry m i 3.
Definition exact_vec (m : list f64) (x y z : R) (i : nat) : R := entry m i 0 * x + entry m i 1 * y + entry m i 2 * z.
(** The matrix of an affine map, of numbers below [2^500] *)
Definition affine (m : list f64) : Prop := length m = 16%nat /\ (forall f, In f m -> finite f /\ Rabs (val f) <= 2 ^ 500) /\
  entry m 3 0 = 0 /\ entry m 3 1 = 0 /\ entry m 3 2 = 0 /\ entry m 3 3 = 1.
(** A point or vector of numbers below [2^500] *)
Definition moderate (v : vec) : Prop := forall i, finite (coord i v) /\ Rabs (val (coord i v)) <= 2 ^ 500.

Lemma pow_500 : 2 ^ 500 = pow2 500.
Proof. unfold pow2. rewrite bpow_powerRZ. cbn [powerRZ]. now change (Pos.to_nat 500) with 500%nat. Qed.
Lemma pow_1000 : / 2 ^ 1000 = pow2 (-1000).
Proof. unfold pow2. change (-1000)%Z with (- (1000))%Z. rewrite bpow_opp, bpow_powerRZ. cbn [powerRZ]. now change (Pos.to_nat 1000) with 1000%nat. Qed.
Lemma tiny_1000 : 100 * tiny64 <= / 2 ^ 1000.
Proof.
  rewrite pow_1000. unfold tiny64. apply (Rle_trans _ (pow2 7 * pow2 (-1075))).
  - apply Rmult_le_compat_r; [apply Rlt_le, pow2_pos|]. unfold pow2; cbn; lra.
  - unfold pow2. rewrite <- bpow_plus. apply bpow_le. lia.
Qed.
Lemma product_M a b : Rabs a <= 2 ^ 500 -> Rabs b <= 2 ^ 500 -> Rabs (a * b) <= M.
Proof.
  intros A B. rewrite Rabs_mult. replace M with (2 ^ 500 * 2 ^ 500) by (rewrite pow_500; unfold M, pow2; now rewrite <- bpow_plus).
  apply Rmult_le_compat; try apply Rabs_pos; auto.
Qed.
Lemma size_M a : Rabs a <= 2 ^ 500 -> Rabs a <= M.
Proof. intros A. apply (Rle_trans _ _ _ A). rewrite pow_500. apply bpow_le. lia. Qed.
Lemma affine_at m r c : affine m -> (r < 4)%nat -> (c < 4)%nat -> finite (f_at m r c) /\ Rabs (val (f_at m r c)) <= 2 ^ 500.
Proof. intros (L & F & _) R C. apply F. apply nth_In. lia. Qed.
Lemma u64_15 : 6 * u64 <= 1 / 10 ^ 15. Proof. unfold u64. lra. Qed.

(** The row that computes coordinate [i] *)
Lemma pt_coord m p i : affine m -> moderate p -> (i < 3)%nat ->
  let r := row4 (f_at m i 0) (f_at m i 1) (f_at m i 2) (f_at m i 3) (vec_x p) (vec_y p) (vec_z p) in
  finite r -> finite (coord i (f_mul4x4point m p)) /\ val (coord i (f_mul4x4point m p)) = val r.
Proof.
  intros A P I r F. pose proof A as (_ & _ & E0 & E1 & E2 & E3).
  destruct (last_row (f_at m 3 0) (f_at m 3 1) (f_at m 3 2) (f_at m 3 3) (vec_x p) (vec_y p) (vec_z p)) as (FW & VW); auto;
    try (apply affine_at; auto; lia); try (apply (P 0%nat)); try (apply (P 1%nat)); try (apply (P 2%nat)).
  change (val (f_at m 3 3)) with (entry m 3 3) in VW. rewrite E3 in VW.
  destruct i as [|[|[|i]]]; [| | |lia]; cbn [coord f_mul4x4point vec_x vec_y vec_z]; apply fdiv_one; auto.
Qed.
Section Coordinate.
  Variables (m : list f64) (p : vec) (i : nat).
  Hypotheses (A : affine m) (P : moderate p) (I : (i < 3)%nat).
  Notation a := (f_at m i 0). Notation b := (f_at m i 1). Notation c := (f_at m i 2). Notation d := (f_at m i 3).
  Notation x := (vec_x p). Notation y := (vec_y p). Notation z := (vec_z p).
  Lemma facts : (finite a /\ finite b /\ finite c /\ finite d) /\ (finite x /\ finite y /\ finite z) /\
    Rabs (val a * val x) <= M /\ Rabs (val b * val y) <= M /\ Rabs (val c * val z) <= M /\ Rabs (val d) <= M.
  Proof.
    destruct (affine_at m i 0 A) as (Fa & Ba); [lia|lia|]. destruct (affine_at m i 1 A) as (Fb & Bb); [lia|lia|].
    destruct (affine_at m i 2 A) as (Fc & Bc); [lia|lia|]. destruct (affine_at m i 3 A) as (Fd & Bd); [lia|lia|].
    destruct (P 0%nat) as (Fx & Bx). destruct (P 1%nat) as (Fy & By). destruct (P 2%nat) as (Fz & Bz). cbn [coord] in *.
    repeat split; auto using product_M, size_M.
  Qed.
  Lemma pt_row : finite (coord i (f_mul4x4point m p)) /\
    Rabs (val (coord i (f_mul4x4point m p)) - exact_pt m (val x) (val y) (val z) i) <= (4 * u64 + 8 * (u64 * u64)) * size4 a b c d x y z + 5 * tiny64.
  Proof.
    destruct facts as ((Fa & Fb & Fc & Fd) & (Fx & Fy & Fz) & B1 & B2 & B3 & B4).
    destruct (row4_ok a b c d x y z Fa Fb Fc Fd Fx Fy Fz B1 B2 B3 B4) as (F & _ & E).
    destruct (pt_coord m p i A P I F) as (FC & VC). split; [exact FC|]. rewrite VC. exact E.
  Qed.
  Lemma vec_row : finite (coord i (f_mul4x4vec m p)) /\
    Rabs (val (coord i (f_mul4x4vec m p)) - exact_vec m (val x) (val y) (val z) i) <= (3 * u64 + 4 * (u64 * u64)) * size4 a b c d x y z + 4 * tiny64.
  Proof.
    destruct facts as ((Fa & Fb & Fc & Fd) & (Fx & Fy & Fz) & B1 & B2 & B3 & B4).
    destruct (row3_ok a b c x y z Fa Fb Fc Fx Fy Fz B1 B2 B3) as (F & _ & E).
    pose proof u64_small. pose proof u64_2. pose proof (Rabs_pos (val d)).
    assert (H2 : (3 * u64 + 4 * (u64 * u64)) * size3 a b c x y z <= (3 * u64 + 4 * (u64 * u64)) * size4 a b c d x y z) by (apply Rmult_le_compat_l; unfold size4; unfold size3; lra).
    destruct i as [|[|[|j]]]; [| | |lia]; cbn [coord f_mul4x4vec vec_x vec_y vec_z]; (split; [exact F|]); (eapply Rle_trans; [exact E|lra]).
  Qed.
  Lemma err_row : finite (coord i (p_scale (f_mul4x4_abs m p) gamma3)) /\
    3 * u64 * (1 - 3 * u64) * size4 a b c d x y z - 2 * tiny64 <= val (coord i (p_scale (f_mul4x4_abs m p) gamma3)) <= 3 * u64 * (1 + 9 * u64) * size4 a b c d x y z + 2 * tiny64.
  Proof.
    destruct facts as ((Fa & Fb & Fc & Fd) & (Fx & Fy & Fz) & B1 & B2 & B3 & B4).
    pose proof (error_ok a b c d x y z Fa Fb Fc Fd Fx Fy Fz B1 B2 B3 B4) as E.
    destruct i as [|[|[|j]]]; [| | |lia]; exact E.
  Qed.
  Lemma size_nonneg : 0 <= size4 a b c d x y z.
  Proof. unfold size4. pose proof (Rabs_pos (val a * val x)). pose proof (Rabs_pos (val b * val y)). pose proof (Rabs_pos (val c * val z)). pose proof (Rabs_pos (val d)). lra. Qed.
End Coordinate.
Lemma prop_row m p e i : affine m -> moderate p -> moderate e -> (i < 3)%nat ->
  let r := coord i (p_add (p_scale (f_mul4x4_abs m e) (fadd f_one gamma3)) (p_scale (f_mul4x4_abs m p) gamma3)) in
  finite r /\ (1 - 4 * u64) * (size4 (f_at m i 0) (f_at m i 1) (f_at m i 2) (f_at m i 3) (vec_x e) (vec_y e) (vec_z e)
     + 3 * u64 * size4 (f_at m i 0) (f_at m i 1) (f_at m i 2) (f_at m i 3) (vec_x p) (vec_y p) (vec_z p)) - 9 * tiny64 <= val r.
Proof.
  intros A P E I.
  destruct (facts m p i A P I) as ((Fa & Fb & Fc & Fd) & (Fx & Fy & Fz) & B1 & B2 & B3 & B4).
  destruct (facts m e i A E I) as (_ & (Fex & Fey & Fez) & B5 & B6 & B7 & _).
  pose proof (propagated_ok _ _ _ _ _ _ _ _ _ _ Fa Fb Fc Fd Fx Fy Fz Fex Fey Fez B1 B2 B3 B4 B5 B6 B7) as H.
  destruct i as [|[|[|j]]]; [| | |lia]; exact H.
Qed.

(** ** Points and vectors that are known exactly *)

(** The error that comes with a transformed point covers at least three quarters of the rounding error *)
Theorem C115_point_partial (t : ftransform) (p : vec) (i : nat) : moderate p -> (i < 3)%nat ->
  (affine (f_elements t) -> let '(q, e) := transform_pt_with_error t p in finite (coord i q) /\ finite (coord i e) /\
     Rabs (val (coord i q) - exact_pt (f_elements t) (val (vec_x p)) (val (vec_y p)) (val (vec_z p)) i) <= 4 / 3 * (1 + 1 / 10 ^ 15) * val (coord i e) + / 2 ^ 1000) /\
  (affine (f_inv t) -> let '(q, e) := inv_transform_pt_with_error t p in finite (coord i q) /\ finite (coord i e) /\
     Rabs (val (coord i q) - exact_pt (f_inv t) (val (vec_x p)) (val (vec_y p)) (val (vec_z p)) i) <= 4 / 3 * (1 + 1 / 10 ^ 15) * val (coord i e) + / 2 ^ 1000).
Proof.
  intros P I.
  assert (G : forall m, affine m -> let '(q, e) := pt_with_error m p in finite (coord i q) /\ finite (coord i e) /\
     Rabs (val (coord i q) - exact_pt m (val (vec_x p)) (val (vec_y p)) (val (vec_z p)) i) <= 4 / 3 * (1 + 1 / 10 ^ 15) * val (coord i e) + / 2 ^ 1000).
  { intros m A. unfold pt_with_error.
    destruct (pt_row m p i A P I) as (F & E). destruct (err_row m p i A P I) as (Fe & L & _). pose proof (size_nonneg m p i) as S0.
    split; [exact F|]. split; [exact Fe|]. eapply Rle_trans; [exact E|].
    pose proof tiny_1000. pose proof tiny64_pos. pose proof u64_small. pose proof u64_2. pose proof u64_3. pose proof u64_15.
    set (S := size4 _ _ _ _ _ _ _) in *. set (e := val (coord i (p_scale _ _))) in *. clearbody S e.
    assert ((4 / 3 * (1 + 6 * u64)) * (3 * u64 * (1 - 3 * u64) * S - 2 * tiny64) <= (4 / 3 * (1 + 6 * u64)) * e) by (apply Rmult_le_compat_l; lra).
    assert (u64 * tiny64 <= 1 / 100 * tiny64) by (apply Rmult_le_compat_r; lra).
    assert ((4 * u64 + 8 * (u64 * u64)) * S <= (4 / 3 * (1 + 6 * u64)) * (3 * u64 * (1 - 3 * u64)) * S) by (apply Rmult_le_compat_r; lra).
    assert (- (2 * tiny64) <= e) by (assert (0 <= 3 * u64 * (1 - 3 * u64) * S) by (apply Rmult_le_pos; [apply Rmult_le_pos|]; lra); lra).
    assert ((1 / 10 ^ 15 - 6 * u64) * (- (2 * tiny64)) <= (1 / 10 ^ 15 - 6 * u64) * e) by (apply Rmult_le_compat_l; lra).
    assert ((1 / 10 ^ 15 - 6 * u64) * (2 * tiny64) <= 1 * (2 * tiny64)) by (apply Rmult_le_compat_r; lra).
    lra. }
  split; intros A; apply G; exact A.
Qed.

(** That of a vector covers it, but for one part in [10^15] *)
Theorem C115_vector (t : ftransform) (v : vec) (i : nat) : moderate v -> (i < 3)%nat ->
  (affine (f_elements t) -> let '(q, e) := transform_vec_with_error t v in finite (coord i q) /\ finite (coord i e) /\
     Rabs (val (coord i q) - exact_vec (f_elements t) (val (vec_x v)) (val (vec_y v)) (val (vec_z v)) i) <= (1 + 1 / 10 ^ 15) * val (coord i e) + / 2 ^ 1000) /\
  (affine (f_inv t) -> let '(q, e) := inv_transform_vec_with_error t v in finite (coord i q) /\ finite (coord i e) /\
     Rabs (val (coord i q) - exact_vec (f_inv t) (val (vec_x v)) (val (vec_y v)) (val (vec_z v)) i) <= (1 + 1 / 10 ^ 15) * val (coord i e) + / 2 ^ 1000).
Proof.
  intros P I.
  assert (G : forall m, affine m -> let '(q, e) := vec_with_error m v in finite (coord i q) /\ finite (coord i e) /\
     Rabs (val (coord i q) - exact_vec m (val (vec_x v)) (val (vec_y v)) (val (vec_z v)) i) <= (1 + 1 / 10 ^ 15) * val (coord i e) + / 2 ^ 1000).
  { intros m A. unfold vec_with_error.
    destruct (vec_row m v i A P I) as (F & E). destruct (err_row m v i A P I) as (Fe & L & _). pose proof (size_nonneg m v i) as S0.
    split; [exact F|]. split; [exact Fe|]. eapply Rle_trans; [exact E|].
    pose proof tiny_1000. pose proof tiny64_pos. pose proof u64_small. pose proof u64_2. pose proof u64_3. pose proof u64_15.
    set (S := size4 _ _ _ _ _ _ _) in *. set (e := val (coord i (p_scale _ _))) in *. clearbody S e.
    assert ((1 + 6 * u64) * (3 * u64 * (1 - 3 * u64) * S - 2 * tiny64) <= (1 + 6 * u64) * e) by (apply Rmult_le_compat_l; lra).
    assert (u64 * tiny64 <= 1 / 100 * tiny64) by (apply Rmult_le_compat_r; lra).
    assert ((3 * u64 + 4 * (u64 * u64)) * S <= (1 + 6 * u64) * (3 * u64 * (1 - 3 * u64)) * S) by (apply Rmult_le_compat_r; lra).
    assert (- (2 * tiny64) <= e) by (assert (0 <= 3 * u64 * (1 - 3 * u64) * S) by (apply Rmult_le_pos; [apply Rmult_le_pos|]; lra); lra).
    assert ((1 / 10 ^ 15 - 6 * u64) * (- (2 * tiny64)) <= (1 / 10 ^ 15 - 6 * u64) * e) by (apply Rmult_le_compat_l; lra).
    assert ((1 / 10 ^ 15 - 6 * u64) * (2 * tiny64) <= 1 * (2 * tiny64)) by (apply Rmult_le_compat_r; lra).
    lra. }
  split; intros A; apply G; exact A.
Qed.

(** Neither is large: at most [3.4e-16] of the terms that are added *)
Theorem C115_small (t : ftransform) (p : vec) (i : nat) : moderate p -> (i < 3)%nat -> affine (f_elements t) ->
  let terms := Rabs (entry (f_elements t) i 0 * val (vec_x p)) + Rabs (entry (f_elements t) i 1 * val (vec_y p)) + Rabs (entry (f_elements t) i 2 * val (vec_z p)) + Rabs (entry (f_elements t) i 3) in
  val (coord i (snd (transform_pt_with_error t p))) <= 34 / 10 ^ 17 * terms + / 2 ^ 1000 /\
  val (coord i (snd (transform_vec_with_error t p))) <= 34 / 10 ^ 17 * terms + / 2 ^ 1000.
Proof.
  intros P I A terms. destruct (err_row _ p i A P I) as (_ & _ & U). pose proof (size_nonneg (f_elements t) p i) as S0.
  pose proof tiny_1000. pose proof tiny64_pos. pose proof u64_small. pose proof u64_2.
  assert (K : 3 * u64 * (1 + 9 * u64) <= 34 / 10 ^ 17) by (assert (3 * u64 <= 335 / 10 ^ 18) by (unfold u64; lra); lra).
  change (size4 _ _ _ _ _ _ _) with terms in U, S0.
  assert (3 * u64 * (1 + 9 * u64) * terms <= 34 / 10 ^ 17 * terms) by (apply Rmult_le_compat_r; auto).
  split; cbn [transform_pt_with_error transform_vec_with_error pt_with_error vec_with_error snd]; lra.
Qed.

(** ** Points and vectors that are known but for an error *)

(** [P] is within [e] of [p] *)
Definition within_error (p e : vec) (X Y Z : R) : Prop := Rabs (X - val (vec_x p)) <= val (vec_x e) /\ Rabs (Y - val (vec_y p)) <= val (vec_y e) /\ Rabs (Z - val (vec_z p)) <= val (vec_z e).
Lemma moved a X x e : Rabs (X - x) <= e -> Rabs (a * X - a * x) <= Rabs (a * e).
Proof.
  intros H. replace (a * X - a * x) with (a * (X - x)) by ring. rewrite !Rabs_mult. apply Rmult_le_compat_l; [apply Rabs_pos|].
  apply (Rle_trans _ _ _ H). apply RRle_abs.
Qed.

(** Wherever the point is within the error it came with, its image is within four thirds of the error that goes out *)
Theorem C115_propagate_point_partial (t : ftransform) (p e : vec) (X Y Z : R) (i : nat) : moderate p -> moderate e -> within_error p e X Y Z -> (i < 3)%nat ->
  (affine (f_elements t) -> let '(q, e') := transform_pt_propagate_error t p e in finite (coord i q) /\ finite (coord i e') /\
     Rabs (val (coord i q) - exact_pt (f_elements t) X Y Z i) <= 4 / 3 * (1 + 1 / 10 ^ 15) * val (coord i e') + / 2 ^ 1000) /\
  (affine (f_inv t) -> let '(q, e') := inv_transform_pt_propagate_error t p e in finite (coord i q) /\ finite (coord i e') /\
     Rabs (val (coord i q) - exact_pt (f_inv t) X Y Z i) <= 4 / 3 * (1 + 1 / 10 ^ 15) * val (coord i e') + / 2 ^ 1000).
Proof.
  intros P E (WX & WY & WZ) I.
  assert (G : forall m, affine m -> let '(q, e') := pt_propagate_error m p e in finite (coord i q) /\ finite (coord i e') /\
     Rabs (val (coord i q) - exact_pt m X Y Z i) <= 4 / 3 * (1 + 1 / 10 ^ 15) * val (coord i e') + / 2 ^ 1000).
  { intros m A. unfold pt_propagate_error, pt_with_error.
    destruct (pt_row m p i A P I) as (F & D). destruct (prop_row m p e i A P E I) as (Fe & L).
    pose proof (size_nonneg m p i) as S0. pose proof (size_nonneg m e i) as S1.
    split; [exact F|]. split; [exact Fe|].
    assert (DD : Rabs (exact_pt m (val (vec_x p)) (val (vec_y p)) (val (vec_z p)) i - exact_pt m X Y Z i) <= size4 (f_at m i 0) (f_at m i 1) (f_at m i 2) (f_at m i 3) (vec_x e) (vec_y e) (vec_z e)).
    { unfold exact_pt, size4. change (val (f_at m i 0)) with (entry m i 0). change (val (f_at m i 1)) with (entry m i 1). change (val (f_at m i 2)) with (entry m i 2). change (val (f_at m i 3)) with (entry m i 3).
      pose proof (moved (entry m i 0) _ _ _ WX) as MX. pose proof (moved (entry m i 1) _ _ _ WY) as MY. pose proof (moved (entry m i 2) _ _ _ WZ) as MZ.
      apply in_abs_of in MX, MY, MZ. pose proof (Rabs_pos (entry m i 3)). apply Rabs_le. split; lra. }
    pose proof tiny_1000. pose proof tiny64_pos. pose proof u64_small. pose proof u64_2. pose proof u64_3. pose proof u64_15.
    apply in_abs_of in D, DD.
    set (S := size4 _ _ _ _ (vec_x p) _ _) in *. set (T := size4 _ _ _ _ (vec_x e) _ _) in *. set (e' := val (coord i (p_add _ _))) in *. clearbody S T e'.
    assert (K : (4 * u64 + 8 * (u64 * u64)) * S + T + 5 * tiny64 <= 4 / 3 * (1 + 1 / 10 ^ 15) * e' + 30 * tiny64).
    { assert (0 <= 3 * u64 * S) by (apply Rmult_le_pos; lra).
      assert (E9 : - (9 * tiny64) <= e') by (assert (0 <= (1 - 4 * u64) * (T + 3 * u64 * S)) by (apply Rmult_le_pos; lra); lra).
      assert ((4 / 3 * (1 + 7 * u64)) * ((1 - 4 * u64) * (T + 3 * u64 * S) - 9 * tiny64) <= (4 / 3 * (1 + 7 * u64)) * e') by (apply Rmult_le_compat_l; lra).
      assert (u64 * tiny64 <= 1 / 100 * tiny64) by (apply Rmult_le_compat_r; lra).
      assert ((4 * u64 + 8 * (u64 * u64)) * S <= (4 / 3 * (1 + 7 * u64)) * ((1 - 4 * u64) * (3 * u64)) * S) by (apply Rmult_le_compat_r; lra).
      assert (1 * T <= (4 / 3 * (1 + 7 * u64)) * (1 - 4 * u64) * T) by (apply Rmult_le_compat_r; lra).
      assert (0 <= 1 / 10 ^ 15 - 7 * u64) by (unfold u64; lra).
      assert ((1 / 10 ^ 15 - 7 * u64) * (- (9 * tiny64)) <= (1 / 10 ^ 15 - 7 * u64) * e') by (apply Rmult_le_compat_l; lra).
      assert ((1 / 10 ^ 15 - 7 * u64) * (9 * tiny64) <= 1 / 10 * (9 * tiny64)) by (apply Rmult_le_compat_r; lra).
      lra. }
    apply Rabs_le. split; lra. }
  split; intros A; apply G; exact A.
Qed.
Theorem C115_propagate_vector (t : ftransform) (v e : vec) (X Y Z : R) (i : nat) : moderate v -> moderate e -> within_error v e X Y Z -> (i < 3)%nat ->
  (affine (f_elements t) -> let '(q, e') := transform_vec_propagate_error t v e in finite (coord i q) /\ finite (coord i e') /\
     Rabs (val (coord i q) - exact_vec (f_elements t) X Y Z i) <= (1 + 1 / 10 ^ 15) * val (coord i e') + / 2 ^ 1000) /\
  (affine (f_inv t) -> let '(q, e') := inv_transform_vec_propagate_error t v e in finite (coord i q) /\ finite (coord i e') /\
     Rabs (val (coord i q) - exact_vec (f_inv t) X Y Z i) <= (1 + 1 / 10 ^ 15) * val (coord i e') + / 2 ^ 1000).
Proof.
  intros P E (WX & WY & WZ) I.
  assert (G : forall m, affine m -> let '(q, e') := vec_propagate_error m v e in finite (coord i q) /\ finite (coord i e') /\
     Rabs (val (coord i q) - exact_vec m X Y Z i) <= (1 + 1 / 10 ^ 15) * val (coord i e') + / 2 ^ 1000).
  { intros m A. unfold vec_propagate_error, vec_with_error.
    destruct (vec_row m v i A P I) as (F & D). destruct (prop_row m v e i A P E I) as (Fe & L).
    pose proof (size_nonneg m v i) as S0. pose proof (size_nonneg m e i) as S1.
    split; [exact F|]. split; [exact Fe|].
    assert (DD : Rabs (exact_vec m (val (vec_x v)) (val (vec_y v)) (val (vec_z v)) i - exact_vec m X Y Z i) <= size4 (f_at m i 0) (f_at m i 1) (f_at m i 2) (f_at m i 3) (vec_x e) (vec_y e) (vec_z e)).
    { unfold exact_vec, size4. change (val (f_at m i 0)) with (entry m i 0). change (val (f_at m i 1)) with (entry m i 1). change (val (f_at m i 2)) with (entry m i 2). change (val (f_at m i 3)) with (entry m i 3).
      pose proof (moved (entry m i 0) _ _ _ WX) as MX. pose proof (moved (entry m i 1) _ _ _ WY) as MY. pose proof (moved (entry m i 2) _ _ _ WZ) as MZ.
      apply in_abs_of in MX, MY, MZ. pose proof (Rabs_pos (entry m i 3)). apply Rabs_le. split; lra. }
    pose proof tiny_1000. pose proof tiny64_pos. pose proof u64_small. pose proof u64_2. pose proof u64_3. pose proof u64_15.
    apply in_abs_of in D, DD.
    set (S := size4 _ _ _ _ (vec_x v) _ _) in *. set (T := size4 _ _ _ _ (vec_x e) _ _) in *. set (e' := val (coord i (p_add _ _))) in *. clearbody S T e'.
    assert (K : (3 * u64 + 4 * (u64 * u64)) * S + T + 4 * tiny64 <= (1 + 1 / 10 ^ 15) * e' + 30 * tiny64).
    { assert (0 <= 3 * u64 * S) by (apply Rmult_le_pos; lra).
      assert (E9 : - (9 * tiny64) <= e') by (assert (0 <= (1 - 4 * u64) * (T + 3 * u64 * S)) by (apply Rmult_le_pos; lra); lra).
      assert ((1 + 7 * u64) * ((1 - 4 * u64) * (T + 3 * u64 * S) - 9 * tiny64) <= (1 + 7 * u64) * e') by (apply Rmult_le_compat_l; lra).
      assert (u64 * tiny64 <= 1 / 100 * tiny64) by (apply Rmult_le_compat_r; lra).
      assert ((3 * u64 + 4 * (u64 * u64)) * S <= (1 + 7 * u64) * ((1 - 4 * u64) * (3 * u64)) * S) by (apply Rmult_le_compat_r; lra).
      assert (1 * T <= (1 + 7 * u64) * (1 - 4 * u64) * T) by (apply Rmult_le_compat_r; lra).
      assert (0 <= 1 / 10 ^ 15 - 7 * u64) by (unfold u64; lra).
      assert ((1 / 10 ^ 15 - 7 * u64) * (- (9 * tiny64)) <= (1 / 10 ^ 15 - 7 * u64) * e') by (apply Rmult_le_compat_l; lra).
      assert ((1 / 10 ^ 15 - 7 * u64) * (9 * tiny64) <= 1 / 10 * (9 * tiny64)) by (apply Rmult_le_compat_r; lra).
      lra. }
    apply Rabs_le. split; lra. }
  split; intros A; apply G; exact A.
Qed.

(** ** Where the estimates go wrong *)

(** The error that goes out is at least the translation of the transform, for points and for vectors, however small the error that came in and
    however small the point: an exactly known origin (or direction!) that is moved ten metres comes out with an error of ten metres *)
Theorem C115_translation_refuted (t : ftransform) (p e : vec) (i : nat) : moderate p -> moderate e -> (i < 3)%nat -> affine (f_elements t) ->
  (1 - 1 / 10 ^ 15) * Rabs (entry (f_elements t) i 3) - / 2 ^ 1000 <= val (coord i (snd (transform_pt_propagate_error t p e))) /\
  (1 - 1 / 10 ^ 15) * Rabs (entry (f_elements t) i 3) - / 2 ^ 1000 <= val (coord i (snd (transform_vec_propagate_error t p e))).
Proof.
  intros P E I A. destruct (prop_row _ p e i A P E I) as (_ & L). set (m := f_elements t) in *.
  assert (T : Rabs (entry m i 3) <= size4 (f_at m i 0) (f_at m i 1) (f_at m i 2) (f_at m i 3) (vec_x e) (vec_y e) (vec_z e)).
  { unfold size4. change (val (f_at m i 3)) with (entry m i 3).
    pose proof (Rabs_pos (val (f_at m i 0) * val (vec_x e))). pose proof (Rabs_pos (val (f_at m i 1) * val (vec_y e))). pose proof (Rabs_pos (val (f_at m i 2) * val (vec_z e))). lra. }
  pose proof (size_nonneg m p i) as S0. pose proof (Rabs_pos (entry m i 3)) as A0.
  pose proof tiny_1000. pose proof tiny64_pos. pose proof u64_small. pose proof u64_15.
  set (S := size4 _ _ _ _ (vec_x p) _ _) in *. set (T' := size4 _ _ _ _ (vec_x e) _ _) in *.
  assert ((1 - 4 * u64) * Rabs (entry m i 3) <= (1 - 4 * u64) * (T' + 3 * u64 * S)) by (assert (0 <= 3 * u64 * S) by (apply Rmult_le_pos; lra); apply Rmult_le_compat_l; lra).
  assert ((1 - 1 / 10 ^ 15) * Rabs (entry m i 3) <= (1 - 4 * u64) * Rabs (entry m i 3)) by (apply Rmult_le_compat_r; lra).
  unfold transform_pt_propagate_error, transform_vec_propagate_error, pt_propagate_error, vec_propagate_error, pt_with_error, vec_with_error, snd. fold m. split; lra.
Qed.

(** A matrix with first row [1 + 2^-26, 1, 1, t], where [t] is a bit less than half the unit in the last place of one, and the point [(1 + 2^-27 - 2^-52, t, t)] *)
Definition f_t : f64 := b64_of_bits 0x3c9fc00000000000.
Definition sheared : list f64 :=
  [b64_of_bits 0x3ff0000004000000; f_one; f_one; f_t; f_zero; f_one; f_zero; f_zero; f_zero; f_zero; f_one; f_zero; f_zero; f_zero; f_zero; f_one].
Definition witness : vec := mkVec (b64_of_bits 0x3ff0000001ffffff) f_t f_t.
Ltac pow_number := match goal with |- context [IZR (2 ^ ?k)] => let v := eval vm_compute in (2 ^ k)%Z in change (2 ^ k)%Z with v end.
Lemma f_zero_val : finite f_zero /\ val f_zero = 0.
Proof. rewrite f_zero_is. split; [reflexivity|apply val_zero]. Qed.
Lemma f_t_val : finite f_t /\ val f_t = 8936830510563328 / 2 ^ 106.
Proof.
  destruct (const_val f_t 8936830510563328 (-106)) as (F & V); [reflexivity|vm_compute; reflexivity|]. split; [exact F|].
  rewrite V, pow2_IZR by lia. pow_number. lra.
Qed.
Lemma val_26 : finite (b64_of_bits 0x3ff0000004000000) /\ val (b64_of_bits 0x3ff0000004000000) = 4503599694479360 / 2 ^ 52.
Proof.
  destruct (const_val (b64_of_bits 0x3ff0000004000000) 4503599694479360 (-52)) as (F & V); [reflexivity|vm_compute; reflexivity|]. split; [exact F|].
  rewrite V, pow2_IZR by lia. pow_number. lra.
Qed.
Lemma val_27 : finite (b64_of_bits 0x3ff0000001ffffff) /\ val (b64_of_bits 0x3ff0000001ffffff) = 4503599660924927 / 2 ^ 52.
Proof.
  destruct (const_val (b64_of_bits 0x3ff0000001ffffff) 4503599660924927 (-52)) as (F & V); [reflexivity|vm_compute; reflexivity|]. split; [exact F|].
  rewrite V, pow2_IZR by lia. pow_number. lra.
Qed.
Lemma two_500 : 4 <= 2 ^ 500.
Proof. rewrite pow_500. unfold pow2. change 4 with (bpow radix2 2). apply bpow_le. lia. Qed.
Ltac small_entry := split; [apply f_one_val || apply f_zero_val || apply f_t_val || apply val_26 || apply val_27|
  pose proof two_500; destruct f_one_val as (_ & ?V1), f_zero_val as (_ & ?V2), f_t_val as (_ & ?V3), val_26 as (_ & ?V4), val_27 as (_ & ?V5);
  match goal with |- Rabs (val ?f) <= _ => match goal with V : val f = _ |- _ => rewrite V end end; rewrite Rabs_pos_eq; lra].
Lemma sheared_affine : affine sheared.
Proof.
  split; [reflexivity|]. split.
  - intros f H. cbn [sheared In] in H. repeat (destruct H as [<-|H]; [small_entry|]). destruct H.
  - unfold entry; cbn [sheared nth Nat.mul Nat.add]. destruct f_one_val as (_ & V1), f_zero_val as (_ & V2). auto.
Qed.
Lemma witness_moderate : moderate witness.
Proof. intros [|[|[|i]]]; cbn [coord witness vec_x vec_y vec_z]; small_entry. Qed.

(** The rounding error of the first coordinate is more than 1.32 times what is reported *)
Theorem C115_point_refuted : let m := sheared in affine m /\ moderate witness /\
  let '(q, e) := transform_pt_with_error (mkFT m m) witness in
  132 / 100 * val (vec_x e) < Rabs (val (vec_x q) - exact_pt m (val (vec_x witness)) (val (vec_y witness)) (val (vec_z witness)) 0) /\ 0 < val (vec_x e).
Proof.
  intros m. split; [exact sheared_affine|]. split; [exact witness_moderate|].
  unfold transform_pt_with_error, pt_with_error.
  destruct (const_val (vec_x (f_mul4x4point (f_elements (mkFT m m)) witness)) 4503599728033791 (-52)) as (_ & VQ); [reflexivity|vm_compute; reflexivity|].
  destruct (const_val (vec_x (p_scale (f_mul4x4_abs (f_elements (mkFT m m)) witness) gamma3)) 6755399592050689 (-104)) as (_ & VE); [reflexivity|vm_compute; reflexivity|].
  rewrite VQ, VE. unfold exact_pt, entry. cbn [m sheared nth Nat.mul Nat.add witness vec_x vec_y vec_z].
  destruct f_one_val as (_ & V1), f_t_val as (_ & V3), val_26 as (_ & V4), val_27 as (_ & V5). rewrite V1, V3, V4, V5.
  rewrite !pow2_IZR by lia.
  repeat match goal with |- context [IZR (2 ^ ?k)] => let v := eval vm_compute in (2 ^ k)%Z in change (2 ^ k)%Z with v end.
  rewrite Rabs_left by lra. split; lra.
Qed.
(** What the theorems above give for it *)
Example C115_examples : let t := mkFT sheared sheared in
  (let '(q, e) := transform_pt_with_error t witness in Rabs (val (coord 0 q) - exact_pt sheared (val (vec_x witness)) (val (vec_y witness)) (val (vec_z witness)) 0) <= 4 / 3 * (1 + 1 / 10 ^ 15) * val (coord 0 e) + / 2 ^ 1000) /\
  (let '(q, e) := transform_vec_with_error t witness in Rabs (val (coord 0 q) - exact_vec sheared (val (vec_x witness)) (val (vec_y witness)) (val (vec_z witness)) 0) <= (1 + 1 / 10 ^ 15) * val (coord 0 e) + / 2 ^ 1000).
Proof.
  split.
  - destruct (C115_point_partial (mkFT sheared sheared) witness 0 witness_moderate) as (H & _); [lia|]. exact (proj2 (proj2 (H sheared_affine))).
  - destruct (C115_vector (mkFT sheared sheared) witness 0 witness_moderate) as (H & _); [lia|]. exact (proj2 (proj2 (H sheared_affine))).
Qed.
(** Moving the origin, known exactly, by one metre along the first axis *)
Definition moved_one : list f64 := [f_one; f_zero; f_zero; f_one; f_zero; f_one; f_zero; f_zero; f_zero; f_zero; f_one; f_zero; f_zero; f_zero; f_zero; f_one].
Definition zero_vec : vec := mkVec f_zero f_zero f_zero.
Lemma moved_affine : affine moved_one.
Proof.
  split; [reflexivity|]. split.
  - intros f H. cbn [moved_one In] in H. repeat (destruct H as [<-|H]; [small_entry|]). destruct H.
  - unfold entry; cbn [moved_one nth Nat.mul Nat.add]. destruct f_one_val as (_ & V1), f_zero_val as (_ & V2). auto.
Qed.
Lemma zero_moderate : moderate zero_vec.
Proof. intros [|[|[|i]]]; cbn [coord zero_vec vec_x vec_y vec_z]; small_entry. Qed.
Example C115_translation_example : let t := mkFT moved_one moved_one in
  val (vec_x (fst (transform_pt_propagate_error t zero_vec zero_vec))) = 1 /\ val (vec_x (snd (transform_pt_propagate_error t zero_vec zero_vec))) = 1 + / 2 ^ 50 /\
  (1 - 1 / 10 ^ 15) * Rabs (entry moved_one 0 3) - / 2 ^ 1000 <= val (vec_x (snd (transform_vec_propagate_error t zero_vec zero_vec))).
Proof.
  split; [|split].
  - destruct (const_val (vec_x (fst (transform_pt_propagate_error (mkFT moved_one moved_one) zero_vec zero_vec))) 4503599627370496 (-52)) as (_ & V); [reflexivity|vm_compute; reflexivity|]. rewrite V, pow2_IZR by lia. pow_number. lra.
  - destruct (const_val (vec_x (snd (transform_pt_propagate_error (mkFT moved_one moved_one) zero_vec zero_vec))) 4503599627370500 (-52)) as (_ & V); [reflexivity|vm_compute; reflexivity|].
    rewrite V, pow2_IZR by lia. pow_number. lra.
  - exact (proj2 (C115_translation_refuted (mkFT moved_one moved_one) zero_vec zero_vec 0 zero_moderate zero_moderate ltac:(lia) moved_affine)).
Qed.
(** The hypotheses of the propagation, for a point with a real error *)
Example C115_propagate_example : let t := mkFT sheared sheared in let e := mkVec f_t f_t f_t in
  moderate e /\ within_error witness e (val (vec_x witness) + val f_t) (val f_t) (val f_t / 2) /\
  let '(q, e') := transform_pt_propagate_error t witness e in
  Rabs (val (coord 0 q) - exact_pt sheared (val (vec_x witness) + val f_t) (val f_t) (val f_t / 2) 0) <= 4 / 3 * (1 + 1 / 10 ^ 15) * val (coord 0 e') + / 2 ^ 1000.
Proof.
  intros t e. assert (E : moderate e) by (intros [|[|[|i]]]; cbn [coord e vec_x vec_y vec_z]; small_entry).
  assert (W : within_error witness e (val (vec_x witness) + val f_t) (val f_t) (val f_t / 2)).
  { destruct f_t_val as (_ & V). unfold within_error, e, witness. cbn [vec_x vec_y vec_z]. rewrite V. repeat split; apply Rabs_le; lra. }
  split; [exact E|]. split; [exact W|].
  destruct (C115_propagate_point_partial t witness e _ _ _ 0 witness_moderate E W) as (H & _); [lia|]. exact (proj2 (proj2 (H sheared_affine))).
Qed.

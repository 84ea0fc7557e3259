(** Lemmas about the sky subdivision *)
From Coq Require Import List Arith ZArith Reals Bool Lra Lia Psatz.
From Verif.Common Require Import Base Flt.
From Verif.Geometry Require Import Vec.
From Verif.Weather Require Import SkyModel.
Import ListNotations.
Open Scope R_scope.
Open Scope list_scope.

(** ** Angles *)
Lemma cos_one d : - (2 * PI) < d < 2 * PI -> cos d = 1 -> d = 0.
Proof.
  intros H C. assert (S : sin (d / 2) = 0).
  { replace d with (2 * (d / 2)) in C by field. rewrite cos_2a_sin in C. assert (sin (d / 2) * sin (d / 2) = 0) by lra. apply Rmult_integral in H0. tauto. }
  destruct (Rtotal_order d 0) as [L|[E|G]]; [|exact E|].
  - assert (0 < sin (- (d / 2))) by (apply sin_gt_0; lra). rewrite sin_neg in H0. lra.
  - assert (0 < sin (d / 2)) by (apply sin_gt_0; lra). lra.
Qed.
Lemma same_angle a b : - (2 * PI) < a - b < 2 * PI -> sin a = sin b -> cos a = cos b -> a = b.
Proof.
  intros H S C. apply Rminus_diag_uniq. apply cos_one; [exact H|]. rewrite cos_minus, S, C. pose proof (sin2_cos2 b) as Q. unfold Rsqr in Q. lra.
Qed.

Lemma atan2_polar s c : s <> 0 \/ c <> 0 -> exists r, 0 < r /\ s = r * sin (atan2 s c) /\ c = r * cos (atan2 s c) /\ - PI < atan2 s c <= PI.
Proof.
  intros H. pose proof PI_RGT_0 as PP. unfold atan2.
  assert (A : forall q, - (PI / 2) < atan q < PI / 2 /\ 0 < cos (atan q) /\ sin (atan q) = q * cos (atan q)).
  { intros q. pose proof (atan_bound q) as B. assert (0 < cos (atan q)) by (apply cos_gt_0; lra). split; [lra|]. split; [assumption|].
    pose proof (tan_atan q) as T. unfold tan in T. apply (f_equal (fun t => t * cos (atan q))) in T. rewrite <- T. field. lra. }
  destruct (Rltb_spec 0 c) as [P|P].
  - destruct (A (s / c)) as (B & C & S). exists (c / cos (atan (s / c))). split; [apply Rdiv_lt_0_compat; lra|]. rewrite S. repeat split; try lra; field; lra.
  - destruct (Rltb_spec c 0) as [N|N].
    + destruct (A (s / c)) as (B & C & S).
      destruct (Rleb_spec 0 s) as [Q|Q].
      * exists (- c / cos (atan (s / c))). split; [apply Rdiv_lt_0_compat; lra|]. rewrite neg_sin, neg_cos, S. split; [field; lra|]. split; [field; lra|].
        assert (atan (s / c) <= 0). { destruct Q as [Q|<-]. - left. rewrite <- atan_0. apply atan_increasing. replace (s / c) with (- (s / - c)) by (field; lra). assert (0 < s / - c) by (apply Rdiv_lt_0_compat; lra). lra. - unfold Rdiv. rewrite Rmult_0_l, atan_0. lra. }
        lra.
      * exists (- c / cos (atan (s / c))). split; [apply Rdiv_lt_0_compat; lra|].
        replace (atan (s / c) - PI) with (- (PI - atan (s / c))) by ring. rewrite sin_neg, cos_neg, <- Rtrigo_facts.sin_pi_minus, Rtrigo_facts.cos_pi_minus.
        replace (PI - (PI - atan (s / c))) with (atan (s / c)) by ring. rewrite S. split; [field; lra|]. split; [field; lra|].
        assert (0 < atan (s / c)). { rewrite <- atan_0. apply atan_increasing. replace (s / c) with (- s / - c) by (field; lra). apply Rdiv_lt_0_compat; lra. }
        lra.
    + assert (c = 0) by lra. subst c. destruct (Rltb_spec 0 s) as [Q|Q].
      * exists s. rewrite sin_PI2, cos_PI2. repeat split; lra.
      * destruct (Rltb_spec s 0) as [Q'|Q']; [|exfalso; lra]. exists (- s). rewrite sin_neg, cos_neg, sin_PI2, cos_PI2. repeat split; lra.
Qed.

Lemma int_part_eq (x : R) (k : Z) : IZR k <= x < IZR k + 1 -> Int_part x = k.
Proof.
  intros H. pose proof (base_Int_part x) as [B1 B2].
  assert (IZR (Int_part x) < IZR (k + 1)) by (rewrite plus_IZR; lra). assert (IZR k < IZR (Int_part x + 1)) by (rewrite plus_IZR; lra).
  apply lt_IZR in H0, H1. lia.
Qed.
Lemma to_nat_floor x k : INR k <= x < INR k + 1 -> Z.to_nat (Int_part x) = k.
Proof. intros H. rewrite (int_part_eq x (Z.of_nat k)) by (rewrite <- INR_IZR_INZ; lra). apply Nat2Z.id. Qed.
Lemma floor_nat x : 0 <= x -> exists k, INR k <= x < INR k + 1.
Proof.
  intros H. pose proof (base_Int_part x) as [B1 B2]. assert (P : (0 <= Int_part x)%Z). { assert (IZR (-1) < IZR (Int_part x)) by lra. apply lt_IZR in H0. lia. }
  exists (Z.to_nat (Int_part x)). rewrite INR_IZR_INZ, Z2Nat.id by lia. lra.
Qed.

(** ** How many bins *)
Definition cnt (mf row : nat) : nat := (mf * nth (row / mf) TNAZ 0)%nat.
Fixpoint cum (mf row : nat) : nat := match row with O => O | S r => (cum mf r + cnt mf r)%nat end.

Lemma half_floor mf row : (0 < mf)%nat -> ((2 * row + 1) / (2 * mf) = row / mf)%nat.
Proof.
  intros H. symmetry. apply Nat.div_unique with (r := (2 * (row mod mf) + 1)%nat).
  - pose proof (Nat.mod_upper_bound row mf ltac:(lia)). lia.
  - pose proof (Nat.div_mod row mf ltac:(lia)). lia.
Qed.
Lemma row_band mf row : (0 < mf)%nat -> (row < 7 * mf)%nat -> (row / mf < 7)%nat.
Proof. intros H L. apply Nat.div_lt_upper_bound; lia. Qed.
Lemma bins_in_row_ok mf row : (0 < mf)%nat -> (row < 7 * mf)%nat -> bins_in_row mf row = Ok (cnt mf row).
Proof.
  intros H L. unfold bins_in_row. cbv zeta. apply Nat.compare_lt_iff in L as C. rewrite C. rewrite half_floor by assumption. unfold at_, cnt.
  pose proof (row_band mf row H L) as B. rewrite (nth_error_nth' TNAZ 0%nat) by (cbn [length TNAZ]; exact B). reflexivity.
Qed.
Lemma cnt_pos mf row : (0 < mf)%nat -> (row < 7 * mf)%nat -> (0 < cnt mf row)%nat.
Proof.
  intros H L. unfold cnt. pose proof (row_band mf row H L) as B. set (k := (row / mf)%nat) in *. clearbody k.
  do 7 (destruct k as [|k]; [cbn; lia|]). lia.
Qed.
Lemma cum_band mf k j : (0 < mf)%nat -> (j <= mf)%nat -> cum mf (mf * k + j) = (cum mf (mf * k) + j * (mf * nth k TNAZ 0))%nat.
Proof.
  intros H. induction j as [|j IH]; intros L; [rewrite !Nat.add_0_r; lia|]. rewrite Nat.add_succ_r. cbn [cum]. rewrite IH by lia. unfold cnt.
  replace ((mf * k + j) / mf)%nat with k; [lia|]. apply Nat.div_unique with (r := j); lia.
Qed.
Lemma cum_total mf : (0 < mf)%nat -> cum mf (7 * mf) = (144 * mf ^ 2)%nat.
Proof.
  intros H. assert (St : forall k, cum mf (mf * S k) = (cum mf (mf * k) + mf * (mf * nth k TNAZ 0))%nat).
  { intros k. replace (mf * S k)%nat with (mf * k + mf)%nat by lia. now apply cum_band. }
  rewrite (Nat.mul_comm 7 mf). rewrite !St. rewrite Nat.mul_0_r. cbn [cum TNAZ nth]. cbn [Nat.pow]. lia.
Qed.
Lemma cum_mono mf a b : (a <= b)%nat -> (cum mf a <= cum mf b)%nat.
Proof. induction 1; [lia|]. cbn [cum]. lia. Qed.

Lemma nth_error_map_seq {A} (f : nat -> A) n i : (i < n)%nat -> nth_error (map f (seq 0 n)) i = Some (f i).
Proof.
  intros H. rewrite nth_error_map. assert (E : nth_error (seq 0 n) i = Some i).
  { rewrite (nth_error_nth' _ 0%nat) by (rewrite seq_length; exact H). now rewrite seq_nth. }
  now rewrite E.
Qed.

Lemma new_loop_ok mf height len : forall k, (0 < mf)%nat -> (k + len <= 7 * mf + 1)%nat ->
  new_loop mf height (seq k len) (INR k * height) (map (fun r => sin (INR (S r) * height)) (seq 0 k)) (map (cum mf) (seq 0 k)) =
  Ok (map (fun r => sin (INR (S r) * height)) (seq 0 (k + len)), map (cum mf) (seq 0 (k + len))).
Proof.
  induction len as [|len IH]; intros k Hm Hk; [rewrite Nat.add_0_r; reflexivity|].
  change (seq k (S len)) with (k :: seq (S k) len). cbn [new_loop].
  assert (E : (if (k =? 0)%nat then Ok 0%nat else do p <- at_ (map (cum mf) (seq 0 k)) (k - 1); do b <- bins_in_row mf (k - 1); Ok (p + b)%nat) = Ok (cum mf k)).
  { destruct k as [|k]; [reflexivity|]. cbn [Nat.eqb]. replace (S k - 1)%nat with k by lia. unfold at_. rewrite nth_error_map_seq by lia. cbn [bind].
    rewrite bins_in_row_ok by lia. reflexivity. }
  rewrite E. cbn [bind]. specialize (IH (S k) Hm ltac:(lia)). rewrite S_INR in IH at 1.
  replace ((INR k + 1) * height) with (INR k * height + height) in IH by ring.
  rewrite !seq_S, !map_app in IH. cbn [map Nat.add] in IH. rewrite S_INR in IH at 1. replace ((INR k + 1) * height) with (INR k * height + height) in IH by ring.
  replace (S (k + len))%nat with (k + S len)%nat in IH by lia. exact IH.
Qed.

Definition the_sky (m : nat) : sky :=
  mkSky m (7 * m + 1) (map (fun r => sin (INR (S r) * row_height m)) (seq 0 (7 * m + 1))) (map (cum m) (seq 0 (7 * m + 1))) (144 * m ^ 2 + 2).

Lemma new_ok m : (0 < m)%nat -> new m = Ok (the_sky m).
Proof.
  intros H. unfold new. destruct (Nat.eqb_spec m 0); [lia|]. cbv zeta.
  pose proof (new_loop_ok m (row_height m) (7 * m + 1) 0 H ltac:(lia)) as L. cbn [seq map] in L. rewrite Rmult_0_l in L. rewrite L. cbn [bind].
  replace (0 + (7 * m + 1))%nat with (7 * m + 1)%nat by lia. unfold at_. rewrite nth_error_map_seq by lia. cbn [bind]. unfold the_sky. f_equal. f_equal.
  replace (7 * m + 1 - 1)%nat with (7 * m)%nat by lia. rewrite cum_total by assumption. lia.
Qed.

(** ** Rows *)
Lemma height_pos m : 0 < row_height m.
Proof. unfold row_height. pose proof PI_RGT_0. pose proof (pos_INR (length TNAZ * m)). apply Rdiv_lt_0_compat; lra. Qed.
Lemma height_eq m : INR (7 * m) * row_height m = PI / 2 - row_height m / 2.
Proof. unfold row_height. change (length TNAZ) with 7%nat. pose proof (pos_INR (7 * m)). field. lra. Qed.
Lemma row_angle m r : (r <= 7 * m)%nat -> 0 <= INR r * row_height m < PI / 2.
Proof.
  intros H. pose proof (height_pos m) as P. pose proof (height_eq m) as E. apply le_INR in H. pose proof (pos_INR r). split; [nra|]. nra.
Qed.
Lemma sin_mono m a b : (a <= b)%nat -> (b <= 7 * m)%nat -> sin (INR a * row_height m) <= sin (INR b * row_height m).
Proof.
  intros H L. pose proof (row_angle m a ltac:(lia)). pose proof (row_angle m b L). pose proof PI_RGT_0. apply le_INR in H. pose proof (height_pos m).
  apply sin_incr_1; try lra. nra.
Qed.
Lemma sin_strict m a b : (a < b)%nat -> (b <= 7 * m)%nat -> sin (INR a * row_height m) < sin (INR b * row_height m).
Proof.
  intros H L. pose proof (row_angle m a ltac:(lia)). pose proof (row_angle m b L). pose proof PI_RGT_0. apply lt_INR in H. pose proof (height_pos m).
  apply sin_increasing_1; try lra. nra.
Qed.

Lemma find_row_spec (g : nat -> R) z d n : forall k,
  (exists i, (k <= i < k + n)%nat /\ z < g i /\ (forall j, (k <= j < i)%nat -> g j <= z) /\ find_row z (map g (seq k n)) k d = i) \/
  ((forall j, (k <= j < k + n)%nat -> g j <= z) /\ find_row z (map g (seq k n)) k d = d).
Proof.
  induction n as [|n IH]; intros k. { right. split; [intros; lia|reflexivity]. }
  cbn [seq map find_row]. destruct (Rltb_spec z (g k)) as [L|L].
  - left. exists k. repeat split; try lia; try assumption; intros; lia.
  - destruct (IH (S k)) as [(i & A & B & C & D)|[A B]].
    + left. exists i. repeat split; try lia; try assumption. intros j Hj. destruct (Nat.eq_dec j k) as [->|]; [lra|]. apply C. lia.
    + right. split; [|exact B]. intros j Hj. destruct (Nat.eq_dec j k) as [->|]; [lra|]. apply A. lia.
Qed.

(** Row [r] holds the heights between the sines of its two limiting angles. *)
Lemma alt_row m z r : (0 < m)%nat -> 0 <= z -> (r < 7 * m)%nat ->
  (sin_altitude_to_row (the_sky m) z = Ok r <-> sin (INR r * row_height m) <= z < sin (INR (S r) * row_height m)).
Proof.
  intros Hm Hz Hr. unfold sin_altitude_to_row. destruct (Rltb_spec z 0); [lra|]. cbn [row_max_sin n_rows the_sky].
  replace (7 * m + 1 - 1)%nat with (7 * m)%nat by lia.
  destruct (find_row_spec (fun r => sin (INR (S r) * row_height m)) z (7 * m)%nat (7 * m + 1) 0%nat) as [(i & A & B & C & D)|[A B]].
  - rewrite D. split.
    + intros E. assert (Ei : i = r) by congruence. clear D E. subst i. split; [|exact B]. destruct r as [|r]; [change (INR 0) with 0; rewrite Rmult_0_l, sin_0; exact Hz|]. apply (C r). lia.
    + intros [L U]. f_equal. destruct (lt_eq_lt_dec i r) as [[LT|E]|GT]; [|exact E|].
      * exfalso. pose proof (sin_mono m (S i) r ltac:(lia) ltac:(lia)). lra.
      * exfalso. specialize (C r ltac:(lia)). lra.
  - rewrite B. split.
    + intros E. assert ((7 * m)%nat = r) by congruence. lia.
    + intros [L U]. specialize (A r ltac:(lia)). cbn beta in A. lra.
Qed.
Lemma alt_row_cap m z : (0 < m)%nat -> 0 <= z -> (sin_altitude_to_row (the_sky m) z = Ok (7 * m)%nat <-> sin (INR (7 * m) * row_height m) <= z).
Proof.
  intros Hm Hz. unfold sin_altitude_to_row. destruct (Rltb_spec z 0); [lra|]. cbn [row_max_sin n_rows the_sky].
  replace (7 * m + 1 - 1)%nat with (7 * m)%nat by lia.
  destruct (find_row_spec (fun r => sin (INR (S r) * row_height m)) z (7 * m)%nat (7 * m + 1) 0%nat) as [(i & A & B & C & D)|[A B]].
  - rewrite D. split.
    + intros E. assert (Ei : i = (7 * m)%nat) by congruence. clear D E. subst i. specialize (C (7 * m - 1)%nat ltac:(lia)). cbn beta in C.
      replace (S (7 * m - 1)) with (7 * m)%nat in C by lia. exact C.
    + intros L. f_equal. destruct (le_lt_dec (7 * m) i); [lia|]. exfalso. pose proof (sin_mono m (S i) (7 * m) ltac:(lia) ltac:(lia)). lra.
  - rewrite B. split; [intros _|reflexivity]. specialize (A (7 * m - 1)%nat ltac:(lia)). cbn beta in A. replace (S (7 * m - 1)) with (7 * m)%nat in A by lia. exact A.
Qed.
Lemma alt_row_some m z : (0 < m)%nat -> 0 <= z -> exists r, (r <= 7 * m)%nat /\ sin_altitude_to_row (the_sky m) z = Ok r.
Proof.
  intros Hm Hz. unfold sin_altitude_to_row. destruct (Rltb_spec z 0); [lra|]. cbn [row_max_sin n_rows the_sky]. eexists. split; [|reflexivity].
  destruct (find_row_spec (fun r => sin (INR (S r) * row_height m)) z (7 * m + 1 - 1)%nat (7 * m + 1) 0%nat) as [(i & A & B & C & D)|[A B]]; [rewrite D|rewrite B]; lia.
Qed.

(** ** Rows of bins *)
Lemma raccum_ok m r : (0 < m)%nat -> (r <= 7 * m)%nat -> raccum (the_sky m) r = Ok (cum m r).
Proof.
  intros Hm Hr. unfold raccum. cbn [n_bins acc_bins the_sky]. assert (L : (r < 144 * m ^ 2 + 2)%nat) by (cbn [Nat.pow]; nia).
  apply Nat.compare_lt_iff in L. rewrite L. unfold at_. rewrite nth_error_map_seq by lia. reflexivity.
Qed.
Lemma bins_row_loop_spec m nbin d n : forall k,
  (exists i, (k <= i < k + n)%nat /\ (nbin <= cum m i)%nat /\ (forall j, (k <= j < i)%nat -> (cum m j < nbin)%nat) /\
     bins_row_loop nbin (map (cum m) (seq k n)) k d = if (i =? 0)%nat then Panic else Ok (i - 1)%nat) \/
  ((forall j, (k <= j < k + n)%nat -> (cum m j < nbin)%nat) /\ bins_row_loop nbin (map (cum m) (seq k n)) k d = Ok d).
Proof.
  induction n as [|n IH]; intros k. { right. split; [intros; lia|reflexivity]. }
  cbn [seq map bins_row_loop]. destruct (Nat.ltb_spec nbin (cum m k + 1)) as [L|L].
  - left. exists k. repeat split; try lia; intros; lia.
  - destruct (IH (S k)) as [(i & A & B & C & D)|[A B]].
    + left. exists i. repeat split; try lia; try assumption. intros j Hj. destruct (Nat.eq_dec j k) as [->|]; [lia|]. apply C. lia.
    + right. split; [|exact B]. intros j Hj. destruct (Nat.eq_dec j k) as [->|]; [lia|]. apply A. lia.
Qed.
Lemma bins_row_ok m b : (0 < m)%nat -> (1 <= b < 144 * m ^ 2 + 1)%nat ->
  exists r, (r < 7 * m)%nat /\ (cum m r < b <= cum m r + cnt m r)%nat /\ bins_row (the_sky m) b = Ok r.
Proof.
  intros Hm Hb. unfold bins_row. cbn [n_bins n_rows acc_bins the_sky]. destruct (Nat.ltb_spec (144 * m ^ 2 + 2) b); [lia|].
  pose proof (cum_total m Hm) as T.
  destruct (bins_row_loop_spec m b (7 * m + 1 - 1) (7 * m + 1) 0) as [(i & A & B & C & D)|[A B]].
  - destruct i as [|i]; [cbn [cum] in B; lia|]. exists i. rewrite D. cbn [Nat.eqb]. replace (S i - 1)%nat with i by lia.
    cbn [cum] in B. specialize (C i ltac:(lia)). repeat split; try lia.
  - specialize (A (7 * m)%nat ltac:(lia)). lia.
Qed.
(** A bin lies in one row only *)
Lemma row_unique m r r' b : (cum m r < b <= cum m r + cnt m r)%nat -> (cum m r' < b <= cum m r' + cnt m r')%nat -> r = r'.
Proof.
  intros H H'. destruct (lt_eq_lt_dec r r') as [[L|E]|G]; [|exact E|]; exfalso.
  - pose proof (cum_mono m (S r) r' L) as M. cbn [cum] in M. lia.
  - pose proof (cum_mono m (S r') r G) as M. cbn [cum] in M. lia.
Qed.

(** ** Position within a row *)
Lemma xy_bin m r x y : (0 < m)%nat -> (r < 7 * m)%nat -> x <> 0 \/ y <> 0 ->
  exists k, xy_to_bin (the_sky m) r x y = Ok k /\ (k < cnt m r)%nat /\
  (exists a q, 0 < q /\ x = q * sin a /\ y = q * cos a /\ 2 * PI / INR (cnt m r) * (INR k - 1 / 2) <= a < 2 * PI / INR (cnt m r) * (INR k + 1 / 2)).
Proof.
  intros Hm Hr Hxy. unfold xy_to_bin. cbn [n_rows mf the_sky]. destruct (Nat.eqb_spec r (7 * m + 1)) as [?|_]; [lia|]. rewrite bins_in_row_ok by assumption. cbn [bind].
  pose proof (cnt_pos m r Hm Hr) as NP. set (n := cnt m r) in *. destruct (Nat.eqb_spec n 0); [lia|].
  destruct (atan2_polar x y Hxy) as (q & Hq & Ex & Ey & Ra). set (a0 := atan2 x y) in *. clearbody a0 n. pose proof PI_RGT_0 as PP.
  apply lt_INR in NP as NR. change (INR 0) with 0 in NR. set (w := 2 * PI / INR n). assert (Hw : 0 < w) by (apply Rdiv_lt_0_compat; lra).
  assert (NW : INR n * w = 2 * PI) by (unfold w; field; lra).
  set (a1 := if Rltb a0 0 then a0 + 2 * PI else a0).
  assert (A1 : 0 <= a1 < 2 * PI /\ sin a1 = sin a0 /\ cos a1 = cos a0).
  { unfold a1. destruct (Rltb_spec a0 0); [|repeat split; lra]. split; [lra|]. pose proof (sin_period a0 1) as S1. pose proof (cos_period a0 1) as C1.
    cbn [INR] in S1, C1. rewrite Rmult_1_r in S1, C1. split; assumption. }
  destruct A1 as (A1 & S1 & C1). clearbody a1.
  destruct (floor_nat ((a1 + w / 2) / w)) as (k0 & K). { left. apply Rdiv_lt_0_compat; lra. }
  assert (KW : INR k0 * w <= a1 + w / 2 < (INR k0 + 1) * w).
  { destruct K as [K1 K2]. split; [apply (Rmult_le_compat_r w) in K1; [|lra]|apply (Rmult_lt_compat_r w) in K2; [|lra]];
    replace ((a1 + w / 2) / w * w) with (a1 + w / 2) in * by (field; lra); lra. }
  rewrite (to_nat_floor _ k0 K). exists (k0 mod n)%nat. split; [reflexivity|]. split; [apply Nat.mod_upper_bound; lia|].
  destruct (le_lt_dec n k0) as [Ge|Lt].
  - assert (k0 = n). { assert (INR k0 < INR n + 1) by nra. rewrite <- S_INR in H. apply INR_lt in H. lia. }
    subst k0. rewrite Nat.mod_same by lia. exists (a1 - 2 * PI), q. change (INR 0) with 0.
    pose proof (sin_period (a1 - 2 * PI) 1) as S2. pose proof (cos_period (a1 - 2 * PI) 1) as C2. cbn [INR] in S2, C2. rewrite Rmult_1_r in S2, C2.
    replace (a1 - 2 * PI + 2 * PI) with a1 in * by ring. rewrite <- S2, <- C2, S1, C1. repeat split; try assumption; nra.
  - rewrite Nat.mod_small by assumption. exists a1, q. rewrite S1, C1. repeat split; try assumption; nra.
Qed.
(** ... and it is the only position with such an angle *)
Lemma xy_bin_unique n k k' a a' q q' : (0 < n)%nat -> (k < n)%nat -> (k' < n)%nat -> 0 < q -> 0 < q' -> q * sin a = q' * sin a' -> q * cos a = q' * cos a' ->
  2 * PI / INR n * (INR k - 1 / 2) <= a < 2 * PI / INR n * (INR k + 1 / 2) ->
  2 * PI / INR n * (INR k' - 1 / 2) <= a' < 2 * PI / INR n * (INR k' + 1 / 2) -> k = k'.
Proof.
  intros Hn Hk Hk' Hq Hq' S C A A'. pose proof PI_RGT_0 as PP. apply lt_INR in Hn as NR. change (INR 0) with 0 in NR.
  set (w := 2 * PI / INR n) in *. assert (Hw : 0 < w) by (apply Rdiv_lt_0_compat; lra). assert (NW : INR n * w = 2 * PI) by (unfold w; field; lra).
  assert (Q : q = q').
  { assert (q * q = q' * q'). { pose proof (sin2_cos2 a) as U. pose proof (sin2_cos2 a') as U'. unfold Rsqr in *.
      transitivity (q * sin a * (q * sin a) + q * cos a * (q * cos a)); [transitivity (q * q * (sin a * sin a + cos a * cos a)); [rewrite U; ring|ring]|].
      rewrite S, C. transitivity (q' * q' * (sin a' * sin a' + cos a' * cos a')); [ring|rewrite U'; ring]. } nra. }
  subst q'. apply Rmult_eq_reg_l in S; [|lra]. apply Rmult_eq_reg_l in C; [|lra].
  assert (Bk : forall i, (i < n)%nat -> 0 <= INR i <= INR n - 1).
  { intros i Hi. split; [apply pos_INR|]. assert (INR (i + 1) <= INR n) by (apply le_INR; lia). rewrite plus_INR in H. cbn [INR] in H. lra. }
  pose proof (Bk k Hk). pose proof (Bk k' Hk').
  assert (a = a') by (apply same_angle; [nra|exact S|exact C]). subst a'.
  assert (INR k < INR k' + 1) by nra. assert (INR k' < INR k + 1) by nra. rewrite <- S_INR in H1, H2. apply INR_lt in H1, H2. lia.
Qed.

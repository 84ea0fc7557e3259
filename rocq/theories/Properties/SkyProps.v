(** Property C43: the sky patches (weather/src/solar/reinhart_sky.rs). *)
From Coq Require Import List Arith ZArith Reals Bool Lra Lia Psatz.
From Verif.Common Require Import Base Flt.
From Verif.Geometry Require Import Vec.
From Verif.Weather Require Import SkyModel SkyProofs.
Import ListNotations.
Open Scope R_scope.
Open Scope list_scope.

Definition sum (l : list R) : R := fold_right Rplus 0 l.

(** A sky can be built for every subdivision but zero; it has as many bins as announced by [n_bins]. *)
Theorem C43_bins : new 0 = Panic /\ forall m, (1 <= m)%nat -> exists s, new m = Ok s /\ mf s = m /\ n_bins s = n_bins_of m /\ n_bins s = (144 * m * m + 2)%nat.
Proof.
  split; [reflexivity|]. intros m H. exists (the_sky m). split; [apply new_ok; lia|]. cbn [mf n_bins the_sky]. unfold n_bins_of. cbn [Nat.pow].
  repeat split; nia.
Qed.

Lemma built m s : new m = Ok s -> (0 < m)%nat /\ s = the_sky m.
Proof.
  intros H. destruct m as [|m]; [discriminate|]. rewrite new_ok in H by lia. split; [lia|]. congruence.
Qed.

Lemma unit_xy d : vlen d = 1 -> vx d * vx d + vy d * vy d + vz d * vz d = 1.
Proof. unfold vlen. intros H. assert (E : vlen2 d = 1). { rewrite <- (sqrt_sqrt (vlen2 d)), H; [ring|]. unfold vlen2. nra. } exact E. Qed.
Lemma below_cap m z r : (0 < m)%nat -> (r < 7 * m)%nat -> z < sin (INR (S r) * row_height m) -> z < 1.
Proof.
  intros Hm Hr Hz. pose proof (sin_mono m (S r) (7 * m) ltac:(lia) ltac:(lia)). rewrite height_eq in H.
  pose proof (SIN_bound (PI / 2 - row_height m / 2)). lra.
Qed.
Lemma xy_nonzero m d r : (0 < m)%nat -> (r < 7 * m)%nat -> vlen d = 1 -> 0 <= vz d -> vz d < sin (INR (S r) * row_height m) -> vx d <> 0 \/ vy d <> 0.
Proof.
  intros Hm Hr Hl Hz H. pose proof (below_cap m _ r Hm Hr H). apply unit_xy in Hl. destruct (Req_dec (vx d) 0) as [E|]; [|tauto]. right. intros E'. rewrite E, E' in Hl. nra.
Qed.

Lemma dir_bin m d : (0 < m)%nat -> vlen d = 1 ->
  (vz d < 0 /\ dir_to_bin (the_sky m) d = Ok 0%nat) \/
  (sin (INR (7 * m) * row_height m) <= vz d /\ dir_to_bin (the_sky m) d = Ok (144 * m ^ 2 + 1)%nat) \/
  (exists r k a q, (r < 7 * m)%nat /\ sin (INR r * row_height m) <= vz d < sin (INR (S r) * row_height m) /\ (k < cnt m r)%nat /\
     0 < q /\ vx d = q * sin a /\ vy d = q * cos a /\ 2 * PI / INR (cnt m r) * (INR k - 1 / 2) <= a < 2 * PI / INR (cnt m r) * (INR k + 1 / 2) /\
     dir_to_bin (the_sky m) d = Ok (cum m r + k + 1)%nat).
Proof.
  intros Hm Hl. unfold dir_to_bin. destruct (Rltb_spec (vz d) 0) as [N|N]; [left; auto|right]. apply Rnot_lt_le in N.
  destruct (alt_row_some m (vz d) Hm N) as (r & Hr & E). rewrite E. cbn [bind n_rows n_bins the_sky]. replace (7 * m + 1 - 1)%nat with (7 * m)%nat by lia.
  destruct (Nat.eqb_spec r (7 * m)) as [->|Nr].
  - left. apply alt_row_cap in E; [|assumption..]. split; [exact E|]. f_equal. lia.
  - right. apply alt_row in E; [|assumption|assumption|lia]. rewrite raccum_ok by lia. cbn [bind].
    destruct (xy_bin m r (vx d) (vy d) Hm ltac:(lia) (xy_nonzero m d r Hm ltac:(lia) Hl N (proj2 E))) as (k & K1 & K2 & a & q & K3 & K4 & K5 & K6).
    rewrite K1. cbn [bind]. exists r, k, a, q. split; [lia|]. split; [exact E|]. repeat (split; [assumption|]). f_equal. lia.
Qed.

(** Every direction falls in a bin that exists. *)
Theorem C43_in_range : forall m s d, new m = Ok s -> vlen d = 1 -> exists b, dir_to_bin s d = Ok b /\ (b < n_bins s)%nat.
Proof.
  intros m s d H Hl. apply built in H as [Hm ->]. cbn [n_bins the_sky].
  destruct (dir_bin m d Hm Hl) as [[_ E]|[[_ E]|(r & k & a & q & Hr & _ & Hk & _ & _ & _ & _ & E)]]; rewrite E; eexists; (split; [reflexivity|]); [lia|lia|].
  pose proof (cum_mono m (S r) (7 * m) ltac:(lia)) as M. cbn [cum] in M. rewrite (cum_total m Hm) in M. lia.
Qed.

(** The first bin is the ground, the last one is the cone around the zenith. *)
Theorem C43_ground_and_cap : forall m s d, new m = Ok s -> vlen d = 1 ->
  (dir_to_bin s d = Ok 0%nat <-> vz d < 0) /\
  (dir_to_bin s d = Ok (n_bins s - 1)%nat <-> cos (PI / 2 / (7 * INR m + 1 / 2) / 2) <= vz d).
Proof.
  intros m s d H Hl. apply built in H as [Hm ->]. cbn [n_bins the_sky]. replace (144 * m ^ 2 + 2 - 1)%nat with (144 * m ^ 2 + 1)%nat by lia.
  assert (C : cos (PI / 2 / (7 * INR m + 1 / 2) / 2) = sin (INR (7 * m) * row_height m)).
  { rewrite height_eq. rewrite sin_shift. unfold row_height. change (length TNAZ) with 7%nat. rewrite mult_INR. change (INR 7) with (1+1+1+1+1+1+1). f_equal. f_equal. f_equal. f_equal. ring. }
  rewrite C. assert (S0 : 0 <= sin (INR (7 * m) * row_height m)). { pose proof (row_angle m (7 * m) ltac:(lia)). pose proof PI_RGT_0. apply sin_ge_0; lra. }
  destruct (dir_bin m d Hm Hl) as [[Z E]|[[Z E]|(r & k & a & q & Hr & Z & Hk & _ & _ & _ & _ & E)]]; rewrite E.
  - split; split; intros H; try reflexivity; try lra. exfalso. assert (0 = 144 * m ^ 2 + 1)%nat by congruence. lia.
  - split; split; intros H; try reflexivity; try lra. exfalso. assert (144 * m ^ 2 + 1 = 0)%nat by congruence. lia.
  - assert (0 <= vz d). { pose proof (row_angle m r ltac:(lia)). pose proof PI_RGT_0. pose proof (sin_ge_0 (INR r * row_height m) ltac:(lra) ltac:(lra)). lra. }
    split; split; intros H1; try lra.
    + exfalso. assert (cum m r + k + 1 = 0)%nat by congruence. lia.
    + exfalso. assert (cum m r + k + 1 = 144 * m ^ 2 + 1)%nat by congruence. pose proof (cum_mono m (S r) (7 * m) ltac:(lia)) as M. cbn [cum] in M. rewrite (cum_total m Hm) in M. lia.
    + exfalso. pose proof (sin_mono m (S r) (7 * m) ltac:(lia) ltac:(lia)). lra.
Qed.

(** Each of the other bins is a band of heights between [zlo] and [zhi] and an arc of [w] radians around the azimuth [az] (measured
    from the Y axis towards the X axis): it holds exactly these directions, its announced solid angle is the area of that part of the
    sphere, [w * (zhi - zlo)], and its announced direction is within it. *)
Theorem C43_patch : forall m s b, new m = Ok s -> (1 <= b < n_bins s - 1)%nat -> exists zlo zhi az w c,
  0 <= zlo < zhi /\ zhi < 1 /\ 0 < w /\ bin_solid_angle s b = Ok (w * (zhi - zlo)) /\ bin_dir s b = Ok c /\ vlen c = 1 /\ zlo < vz c < zhi /\
  (exists q, 0 < q /\ vx c = q * sin az /\ vy c = q * cos az) /\
  (forall d, vlen d = 1 -> (dir_to_bin s d = Ok b <->
     zlo <= vz d < zhi /\ exists a q, 0 < q /\ vx d = q * sin a /\ vy d = q * cos a /\ az - w / 2 <= a < az + w / 2)).
Proof.
  intros m s b H Hb. apply built in H as [Hm ->]. cbn [n_bins the_sky] in Hb. destruct (bins_row_ok m b Hm ltac:(lia)) as (r & Hr & Br & Er).
  set (h := row_height m). pose proof PI_RGT_0 as PP. pose proof (height_pos m) as HP. fold h in HP.
  pose proof (row_angle m r ltac:(lia)) as A0. pose proof (row_angle m (S r) ltac:(lia)) as A1. fold h in A0, A1.
  pose proof (cnt_pos m r Hm Hr) as NP. apply lt_INR in NP as NR. change (INR 0) with 0 in NR.
  set (w := 2 * PI / INR (cnt m r)). assert (Hw : 0 < w) by (apply Rdiv_lt_0_compat; lra).
  set (k := (b - cum m r - 1)%nat). set (alt := (INR r * h + (INR r + 1) * h) / 2).
  assert (SR : INR (S r) * h = (INR r + 1) * h) by (rewrite S_INR; ring).
  assert (Halt : INR r * h < alt < INR (S r) * h) by (rewrite SR; unfold alt; lra).
  assert (Calt : 0 < cos alt) by (apply cos_gt_0; lra).
  exists (sin (INR r * h)), (sin (INR (S r) * h)), (w * INR k), w, (mkV (sin (w * INR k) * cos alt) (cos (w * INR k) * cos alt) (sin alt)).
  split. { split; [apply sin_ge_0; lra|]. apply sin_strict; lia. }
  split. { pose proof (sin_mono m (S r) (7 * m) ltac:(lia) ltac:(lia)) as M. fold h in M. assert (sin (INR (7 * m) * h) < 1).
    { unfold h. rewrite height_eq. rewrite sin_shift. fold h. rewrite <- cos_0. pose proof (row_angle m (7 * m) ltac:(lia)) as A7. rewrite height_eq in A7. fold h in A7. apply cos_decreasing_1; lra. }
    lra. }
  split; [exact Hw|]. split.
  { unfold bin_solid_angle. cbn [n_bins the_sky mf]. destruct (Nat.eqb_spec b 0); [lia|]. destruct (Nat.eqb_spec b (144 * m ^ 2 + 2 - 1)); [lia|].
    destruct (Nat.ltb_spec (144 * m ^ 2 + 2) b); [lia|]. rewrite Er. cbn [bind]. unfold row_altitude. cbn [n_rows the_sky mf].
    destruct (Nat.eqb_spec r (7 * m + 1 - 1)); [lia|]. rewrite bins_in_row_ok by assumption. cbn [bind]. unfold patch_solid_angle. fold h. rewrite SR. f_equal. unfold w. field. lra. }
  split.
  { unfold bin_dir. cbn [n_bins the_sky mf]. destruct (Nat.eqb_spec b 0); [lia|]. destruct (Nat.eqb_spec b (144 * m ^ 2 + 2 - 1)); [lia|].
    destruct (Nat.ltb_spec (144 * m ^ 2 + 2) b); [lia|]. rewrite Er. cbn [bind]. unfold row_altitude. cbn [n_rows the_sky mf].
    destruct (Nat.eqb_spec r (7 * m + 1 - 1)); [lia|]. rewrite raccum_ok by lia. cbn [bind]. rewrite bins_in_row_ok by assumption. cbn [bind].
    destruct (Nat.ltb_spec b (cum m r + 1)); [lia|]. fold h. fold w. fold k. fold alt. reflexivity. }
  split.
  { unfold vlen. replace (vlen2 _) with 1; [apply sqrt_1|]. unfold vlen2. cbn [vx vy vz]. pose proof (sin2_cos2 (w * INR k)) as U. pose proof (sin2_cos2 alt) as V. unfold Rsqr in *.
    transitivity ((sin (w * INR k) * sin (w * INR k) + cos (w * INR k) * cos (w * INR k)) * (cos alt * cos alt) + sin alt * sin alt); [|ring]. rewrite U. lra. }
  cbn [vx vy vz]. split. { split; apply sin_increasing_1; lra. }
  split. { exists (cos alt). split; [exact Calt|]. split; ring. }
  intros d Hl. split.
  - intros E. destruct (dir_bin m d Hm Hl) as [[_ E']|[[_ E']|(r' & k' & a & q & Hr' & Z & Hk' & Hq & Ex & Ey & Ra & E')]]; rewrite E' in E.
    + exfalso. assert (0%nat = b) by congruence. lia.
    + exfalso. assert (144 * m ^ 2 + 1 = b)%nat by congruence. lia.
    + assert (Eb : (cum m r' + k' + 1 = b)%nat) by congruence. assert (r' = r) by (apply (row_unique m r' r b); lia). subst r'.
      split; [exact Z|]. exists a, q. repeat (split; [assumption|]). replace k with k' by (unfold k; lia). fold w in Ra. lra.
  - intros (Z & a & q & Hq & Ex & Ey & Ra).
    destruct (dir_bin m d Hm Hl) as [[N E']|[[N E']|(r' & k' & a' & q' & Hr' & Z' & Hk' & Hq' & Ex' & Ey' & Ra' & E')]].
    + exfalso. pose proof (sin_ge_0 (INR r * h) ltac:(lra) ltac:(lra)). lra.
    + exfalso. pose proof (sin_mono m (S r) (7 * m) ltac:(lia) ltac:(lia)) as M. fold h in M, N. lra.
    + rewrite E'. f_equal. assert (r' = r).
      { fold h in Z'. destruct (lt_eq_lt_dec r r') as [[L|E]|G]; [|congruence|]; exfalso.
        - pose proof (sin_mono m (S r) r' ltac:(lia) ltac:(lia)) as M. fold h in M. lra.
        - pose proof (sin_mono m (S r') r ltac:(lia) ltac:(lia)) as M. fold h in M. lra. }
      subst r'. assert (k = k').
      { apply (xy_bin_unique (cnt m r) k k' a a' q q'); auto; try lia; try congruence. fold w. lra. }
      unfold k in *. lia.
Qed.

(** The announced direction of a bin falls in that bin. *)
Theorem C43_round_trip : forall m s b, new m = Ok s -> (b < n_bins s)%nat -> exists c, bin_dir s b = Ok c /\ vlen c = 1 /\ dir_to_bin s c = Ok b.
Proof.
  intros m s b H Hb. pose proof (built m s H) as [Hm Es]. assert (N : n_bins s = (144 * m ^ 2 + 2)%nat) by (subst s; reflexivity).
  destruct (Nat.eq_dec b 0) as [->|B0]; [|destruct (Nat.eq_dec b (n_bins s - 1)) as [Bl|Bl]].
  - exists (mkV 0 0 (-1)). split; [reflexivity|]. assert (L : vlen (mkV 0 0 (-1)) = 1). { unfold vlen, vlen2. cbn [vx vy vz]. replace (0 * 0 + 0 * 0 + -1 * -1) with 1 by ring. apply sqrt_1. }
    split; [exact L|]. apply (C43_ground_and_cap m s _ H L). cbn [vz]. lra.
  - exists (mkV 0 0 1). split. { unfold bin_dir. rewrite (proj2 (Nat.eqb_neq b 0) B0). rewrite (proj2 (Nat.eqb_eq _ _) Bl). reflexivity. }
    assert (L : vlen (mkV 0 0 1) = 1). { unfold vlen, vlen2. cbn [vx vy vz]. replace (0 * 0 + 0 * 0 + 1 * 1) with 1 by ring. apply sqrt_1. }
    split; [exact L|]. rewrite Bl. apply (C43_ground_and_cap m s _ H L). cbn [vz]. pose proof (COS_bound (PI / 2 / (7 * INR m + 1 / 2) / 2)). lra.
  - destruct (C43_patch m s b H ltac:(lia)) as (zlo & zhi & az & w & c & _ & _ & Hw & _ & Ec & Lc & Zc & (q & Hq & Ex & Ey) & All).
    exists c. split; [exact Ec|]. split; [exact Lc|]. apply (All c Lc). split; [lra|]. exists az, q. repeat split; auto; lra.
Qed.

(** ** The solid angles *)
Lemma sum_app l l' : sum (l ++ l') = sum l + sum l'.
Proof. unfold sum. induction l as [|x l IH]; cbn [app fold_right]; [ring|]. rewrite IH. ring. Qed.
Lemma sum_const (f : nat -> R) c n : forall a, (forall b, (a <= b < a + n)%nat -> f b = c) -> sum (map f (seq a n)) = INR n * c.
Proof.
  induction n as [|n IH]; intros a H; [cbn; ring|]. cbn [seq map]. change (sum (f a :: map f (seq (S a) n))) with (f a + sum (map f (seq (S a) n))).
  rewrite IH by (intros; apply H; lia). rewrite H by lia. rewrite S_INR. ring.
Qed.

(** The bins cover the whole sphere: their solid angles add up to 4 pi, and none of them is empty. *)
Theorem C43_solid_angles : forall m s, new m = Ok s -> exists f, (forall b, (b < n_bins s)%nat -> bin_solid_angle s b = Ok (f b) /\ 0 < f b) /\
  sum (map f (seq 0 (n_bins s))) = 4 * PI.
Proof.
  intros m s H. pose proof (built m s H) as [Hm Es]. pose proof PI_RGT_0 as PP. pose proof (height_pos m) as HP.
  exists (fun b => match bin_solid_angle s b with Ok x => x | _ => 0 end). split.
  - intros b Hb. destruct (Nat.eq_dec b 0) as [->|B0]; [|destruct (Nat.eq_dec b (n_bins s - 1)) as [Bl|Bl]].
    + cbn [bin_solid_angle Nat.eqb]. split; [reflexivity|lra].
    + unfold bin_solid_angle. rewrite (proj2 (Nat.eqb_neq b 0) B0), (proj2 (Nat.eqb_eq _ _) Bl). split; [reflexivity|]. unfold cone_solid_angle.
      subst s. cbn [mf the_sky]. assert (cos (row_height m / 2) < 1). { rewrite <- cos_0. pose proof (row_angle m (7 * m) ltac:(lia)) as A7. rewrite height_eq in A7. apply cos_decreasing_1; lra. }
      nra.
    + destruct (C43_patch m s b H ltac:(lia)) as (zlo & zhi & az & w & c & Z & _ & Hw & -> & _). split; [reflexivity|]. nra.
  - set (f := fun b => _). rewrite Es. cbn [n_bins the_sky].
    assert (Rows : forall r, (r <= 7 * m)%nat -> sum (map f (seq 1 (cum m r))) = 2 * PI * sin (INR r * row_height m)).
    { induction r as [|r IH]; intros Hr. { cbn [cum seq map sum fold_right]. change (INR 0) with 0. rewrite Rmult_0_l, sin_0. ring. }
      cbn [cum]. rewrite seq_app, map_app, sum_app, IH by lia. pose proof (cnt_pos m r Hm ltac:(lia)) as NP. apply lt_INR in NP as NR. change (INR 0) with 0 in NR.
      rewrite (sum_const f (patch_solid_angle ((INR r + 1) * row_height m) (INR r * row_height m) (cnt m r))).
      - unfold patch_solid_angle. rewrite S_INR. field. lra.
      - intros b Hb. pose proof (cum_mono m (S r) (7 * m) ltac:(lia)) as M. cbn [cum] in M. rewrite (cum_total m Hm) in M.
        destruct (bins_row_ok m b Hm ltac:(lia)) as (r' & Hr' & Br & Er). assert (r' = r) by (apply (row_unique m r' r b); lia). subst r'.
        unfold f. rewrite Es. unfold bin_solid_angle. cbn [n_bins the_sky mf]. destruct (Nat.eqb_spec b 0); [lia|]. destruct (Nat.eqb_spec b (144 * m ^ 2 + 2 - 1)); [lia|].
        destruct (Nat.ltb_spec (144 * m ^ 2 + 2) b); [lia|]. rewrite Er. cbn [bind]. unfold row_altitude. cbn [n_rows the_sky mf].
        destruct (Nat.eqb_spec r (7 * m + 1 - 1)); [lia|]. rewrite bins_in_row_ok by lia. reflexivity. }
    replace (144 * m ^ 2 + 2)%nat with (1 + cum m (7 * m) + 1)%nat by (rewrite cum_total by assumption; lia).
    rewrite !seq_app, !map_app, !sum_app. cbn [Nat.add]. rewrite (Rows (7 * m)%nat) by lia.
    replace (sum (map f (seq 0 1))) with (2 * PI) by (cbn; ring).
    replace (sum (map f (seq (S (cum m (7 * m))) 1))) with (f (S (cum m (7 * m)))) by (cbn; ring).
    unfold f. rewrite Es, cum_total by assumption. unfold bin_solid_angle. cbn [n_bins the_sky mf]. destruct (Nat.eqb_spec (S (144 * m ^ 2)) 0); [lia|].
    destruct (Nat.eqb_spec (S (144 * m ^ 2)) (144 * m ^ 2 + 2 - 1)); [|lia]. unfold cone_solid_angle. rewrite height_eq, sin_shift. ring.
Qed.

(** Asking for a bin that does not exist is not always an error: the number right after the last one is answered. *)
Theorem C43_missing_bin_refuted : exists m s v c, new m = Ok s /\ bin_solid_angle s (n_bins s) = Ok v /\ 0 < v /\ bin_dir s (n_bins s) = Ok c.
Proof.
  exists 1%nat, (the_sky 1). assert (B : bins_row (the_sky 1) (n_bins (the_sky 1)) = Ok 7%nat) by reflexivity.
  eexists _, _. split; [apply new_ok; lia|]. unfold bin_solid_angle, bin_dir. rewrite B. cbn -[row_height PI INR]. split; [reflexivity|]. split; [|reflexivity].
  pose proof PI_RGT_0 as PP. pose proof (height_pos 1) as HP. pose proof (row_angle 1 7 ltac:(lia)) as A7. pose proof (height_eq 1) as HE. change (7 * 1)%nat with 7%nat in HE. rewrite HE in A7.
  unfold patch_solid_angle. rewrite sin_PI2, sin_shift. assert (cos (row_height 1 / 2) < 1) by (rewrite <- cos_0; apply cos_decreasing_1; lra). change (INR 1) with 1. unfold Rdiv. rewrite Rinv_1. nra.
Qed.

(** Example: the Tregenza sky has 146 bins; the zenith falls in the last one, the nadir in the first one. *)
Example C43_example : exists s, new 1 = Ok s /\ n_bins s = 146%nat /\ dir_to_bin s (mkV 0 0 1) = Ok 145%nat /\ dir_to_bin s (mkV 0 0 (-1)) = Ok 0%nat /\
  exists c, bin_dir s 31 = Ok c /\ dir_to_bin s c = Ok 31%nat.
Proof.
  destruct (proj2 C43_bins 1%nat ltac:(lia)) as (s & H & _ & _ & N). exists s. split; [exact H|]. split; [exact N|].
  assert (L : forall t, t * t = 1 -> vlen (mkV 0 0 t) = 1). { intros t Ht. unfold vlen, vlen2. cbn [vx vy vz]. rewrite Ht. replace (0 * 0 + 0 * 0 + 1) with 1 by ring. apply sqrt_1. }
  split. { replace 145%nat with (n_bins s - 1)%nat by (rewrite N; reflexivity). apply (C43_ground_and_cap 1 s _ H (L 1 ltac:(ring))). cbn [vz]. pose proof (COS_bound (PI / 2 / (7 * INR 1 + 1 / 2) / 2)). lra. }
  split. { apply (C43_ground_and_cap 1 s _ H (L (-1) ltac:(ring))). cbn [vz]. lra. }
  destruct (C43_round_trip 1 s 31 H) as (c & A & _ & B); [rewrite N; lia|]. eauto.
Qed.

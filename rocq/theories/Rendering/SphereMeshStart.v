(** The twenty triangles that the mesh of a sphere starts with.  Their corners are, up to a factor for each axis, pairs of integers a + b k
    where k = 2 cos 36 degrees, so that finite questions on them are settled by computation. *)
From Coq Require Import Reals ZArith List Bool Lra Lia Psatz Permutation.
From Verif.Common Require Import Base Flt.
From Verif.Geometry Require Import Vec TransformModel TriangleModel ShapesModel.
From Verif.Rendering Require Import SphereMeshModel SphereMeshProofs.
Import ListNotations.
Open Scope R_scope.

Local Ltac v3 := apply V3_eq; cbn [vx vy vz vadd vsub vscale vneg vcross vdiv].

Definition s36 : R := sin (PI / 5).
Definition gold : R := 2 * cos (PI / 5).
Definition h60 : R := sin (PI / 3).

Lemma PI_range : 0 < PI / 5 < PI / 2. Proof. pose proof PI_RGT_0. lra. Qed.
Lemma gold_pos : 0 < gold. Proof. unfold gold. pose proof (cos_gt_0 (PI / 5)). pose proof PI_range. lra. Qed.
Lemma s36_pos : 0 < s36. Proof. unfold s36. apply sin_gt_0; pose proof PI_range; lra. Qed.
Lemma gold_sq : gold * gold = gold + 1.
Proof.
  assert (E : sin (2 * (PI / 5)) = sin (3 * (PI / 5))) by (rewrite <- (sin_PI_x (3 * (PI / 5))); f_equal; field).
  replace (3 * (PI / 5)) with (2 * (PI / 5) + PI / 5) in E by ring. rewrite sin_plus, sin_2a, cos_2a in E.
  pose proof (sin2_cos2 (PI / 5)) as P. unfold Rsqr in P. pose proof s36_pos. pose proof gold_pos. unfold s36, gold in *.
  set (s := sin (PI / 5)) in *. set (c := cos (PI / 5)) in *.
  assert (Q : s * (2 * c) = s * (4 * (c * c) - 1)) by nra. apply Rmult_eq_reg_l in Q; [|lra]. lra.
Qed.
Lemma gold_range : 1618 / 1000 < gold < 16181 / 10000.
Proof. pose proof gold_sq. pose proof gold_pos. split; nra. Qed.
Lemma s36_sq : s36 * s36 = (3 - gold) / 4.
Proof. pose proof (sin2_cos2 (PI / 5)) as P. unfold Rsqr in P. fold s36 in P. replace (cos (PI / 5)) with (gold / 2) in P by (unfold gold; field). pose proof gold_sq. lra. Qed.
Lemma h60_pos : 0 < h60. Proof. unfold h60. apply sin_gt_0; pose proof PI_RGT_0; lra. Qed.
Lemma h60_sq : h60 * h60 = 3 / 4.
Proof. pose proof (sin2_cos2 (PI / 3)) as P. unfold Rsqr in P. fold h60 in P. rewrite cos_PI3 in P. lra. Qed.

(** ** Integers with k *)
Definition zk : Type := (Z * Z)%type.
Definition ev (x : zk) : R := IZR (fst x) + IZR (snd x) * gold.
Definition zadd (x y : zk) : zk := (fst x + fst y, snd x + snd y)%Z.
Definition zsub (x y : zk) : zk := (fst x - fst y, snd x - snd y)%Z.
Definition zmul (x y : zk) : zk := (fst x * fst y + snd x * snd y, fst x * snd y + snd x * fst y + snd x * snd y)%Z.
Definition zint (n : Z) : zk := (n, 0%Z).
Lemma ev_add x y : ev (zadd x y) = ev x + ev y. Proof. unfold ev, zadd. cbn [fst snd]. rewrite !plus_IZR. ring. Qed.
Lemma ev_sub x y : ev (zsub x y) = ev x - ev y. Proof. unfold ev, zsub. cbn [fst snd]. rewrite !minus_IZR. ring. Qed.
Lemma ev_mul x y : ev (zmul x y) = ev x * ev y.
Proof.
  unfold ev, zmul. cbn [fst snd]. rewrite !plus_IZR, !mult_IZR.
  replace ((IZR (fst x) + IZR (snd x) * gold) * (IZR (fst y) + IZR (snd y) * gold)) with
    (IZR (fst x) * IZR (fst y) + (IZR (fst x) * IZR (snd y) + IZR (snd x) * IZR (fst y)) * gold + IZR (snd x) * IZR (snd y) * (gold * gold)) by ring.
  rewrite gold_sq. ring.
Qed.
Lemma ev_int n : ev (zint n) = IZR n. Proof. unfold ev, zint. cbn. ring. Qed.
(** Enough to know the sign of small numbers *)
Definition nonpos (x : zk) : bool := (if 0 <=? snd x then 10000 * fst x + 16181 * snd x <=? 0 else 1000 * fst x + 1618 * snd x <=? 0)%Z.
Definition neg (x : zk) : bool := (if 0 <=? snd x then 10000 * fst x + 16181 * snd x <? 0 else 1000 * fst x + 1618 * snd x <? 0)%Z.
Lemma nonpos_ok x : nonpos x = true -> ev x <= 0.
Proof.
  unfold nonpos, ev. destruct (Z.leb_spec 0 (snd x)) as [H|H]; intros E; apply Z.leb_le in E; apply IZR_le in E; rewrite plus_IZR, !mult_IZR in E; pose proof gold_range.
  - apply IZR_le in H. nra.
  - apply IZR_lt in H. nra.
Qed.
Lemma neg_ok x : neg x = true -> ev x < 0.
Proof.
  unfold neg, ev. destruct (Z.leb_spec 0 (snd x)) as [H|H]; intros E; apply Z.ltb_lt in E; apply IZR_lt in E; rewrite plus_IZR, !mult_IZR in E; pose proof gold_range.
  - apply IZR_le in H. nra.
  - apply IZR_lt in H. nra.
Qed.

Definition zpt : Type := (zk * zk * zk)%type.
Definition rv (v : zpt) : pt := let '(x, y, z) := v in mkV (s36 * h60 * ev x) (h60 / 2 * ev y) (ev z / 2).
Definition zdet (a b c : zpt) : zk :=
  let '(ax, ay, az) := a in let '(bx, by_, bz) := b in let '(cx, cy, cz) := c in
  zadd (zmul (zsub (zmul ay bz) (zmul az by_)) cx) (zadd (zmul (zsub (zmul az bx) (zmul ax bz)) cy) (zmul (zsub (zmul ax by_) (zmul ay bx)) cz)).
(** sixteen times the scalar product *)
Definition zdot (a b : zpt) : zk :=
  let '(ax, ay, az) := a in let '(bx, by_, bz) := b in
  zadd (zmul (zint 3) (zadd (zmul (3, -1)%Z (zmul ax bx)) (zmul ay by_))) (zmul (zint 4) (zmul az bz)).
Lemma det_rv a b c : det (rv a) (rv b) (rv c) = s36 * (3 / 16) * ev (zdet a b c).
Proof.
  destruct a as ((ax & ay) & az), b as ((bx & by_) & bz), c as ((cx & cy) & cz). cbn [zdet rv]. rewrite !ev_add, !ev_mul, !ev_sub, !ev_mul.
  replace (3 / 16) with (3 / 4 / 4) by field. rewrite <- h60_sq. unfold det, vdot, vcross. cbn [vx vy vz]. field.
Qed.
Lemma dot_rv a b : 16 * vdot (rv a) (rv b) = ev (zdot a b).
Proof.
  destruct a as ((ax & ay) & az), b as ((bx & by_) & bz). cbn [zdot rv]. rewrite !ev_add, !ev_mul, !ev_add, !ev_int, !ev_mul.
  replace (ev (3, -1)%Z) with (3 - gold) by (unfold ev; cbn [fst snd]; ring). unfold vdot. cbn [vx vy vz].
  replace (16 * (s36 * h60 * ev ax * (s36 * h60 * ev bx) + h60 / 2 * ev ay * (h60 / 2 * ev by_) + ev az / 2 * (ev bz / 2)))
    with (16 * (s36 * s36 * (h60 * h60) * (ev ax * ev bx)) + 4 * (h60 * h60) * (ev ay * ev by_) + 4 * (ev az * ev bz)) by field.
  rewrite s36_sq, h60_sq. field.
Qed.

(** ** The corners: five above the middle, five below it, the top and the bottom *)
Definition sines : list zk := [(0, 0); (1, 0); (0, 1); (0, 1); (1, 0); (0, 0); (-1, 0); (0, -1); (0, -1); (-1, 0)]%Z.
Definition cosines : list zk := [(2, 0); (0, 1); (-1, 1); (1, -1); (0, -1); (-2, 0); (0, -1); (1, -1); (-1, 1); (0, 1)]%Z.
Definition corner_at (i : nat) : zpt :=
  if (i <? 5)%nat then (nth (2 * i + 1) sines (zint 0), nth (2 * i + 1) cosines (zint 0), zint 1)
  else if (i <? 10)%nat then (nth (2 * (i - 5)) sines (zint 0), nth (2 * (i - 5)) cosines (zint 0), zint (-1))
  else if (i =? 10)%nat then (zint 0, zint 0, zint 2) else (zint 0, zint 0, zint (-2)).
Definition V (i : nat) : pt := rv (corner_at i).
Definition start : list (nat * nat * nat) :=
  [(0, 4, 10); (4, 3, 10); (3, 2, 10); (2, 1, 10); (1, 0, 10); (5, 6, 11); (6, 7, 11); (7, 8, 11); (8, 9, 11); (9, 5, 11);
   (4, 0, 5); (0, 1, 6); (1, 2, 7); (2, 3, 8); (3, 4, 9); (6, 5, 0); (7, 6, 1); (8, 7, 2); (9, 8, 3); (5, 9, 4)]%nat.
Definition Vt (t : nat * nat * nat) : corners := let '(i, j, k) := t in (V i, V j, V k).
Definition ustart : list corners := map Vt start.

Lemma sin_table j : (j < 10)%nat -> sin (INR j * (PI / 5)) = s36 * ev (nth j sines (zint 0)) /\ cos (INR j * (PI / 5)) = ev (nth j cosines (zint 0)) / 2.
Proof.
  assert (K : cos (PI / 5) = gold / 2) by (unfold gold; field).
  assert (S2 : sin (2 * (PI / 5)) = s36 * gold) by (rewrite sin_2a, K; fold s36; field).
  assert (C2 : cos (2 * (PI / 5)) = (gold - 1) / 2) by (rewrite cos_2a, K; fold s36; rewrite s36_sq; pose proof gold_sq; lra).
  assert (Low : forall i, (i < 5)%nat -> sin (INR i * (PI / 5)) = s36 * ev (nth i sines (zint 0)) /\ cos (INR i * (PI / 5)) = ev (nth i cosines (zint 0)) / 2).
  { intros i Hi. destruct i as [|[|[|[|[|i]]]]]; [| | | | |lia]; cbn [INR nth sines cosines]; unfold ev; cbn [fst snd zint].
    - rewrite Rmult_0_l, sin_0, cos_0. split; field.
    - rewrite Rmult_1_l, K. fold s36. split; field.
    - change (1 + 1) with 2. rewrite S2, C2. split; field.
    - replace ((1 + 1 + 1) * (PI / 5)) with (PI - 2 * (PI / 5)) by field. rewrite sin_PI_x, S2. replace (PI - 2 * (PI / 5)) with (- (2 * (PI / 5)) + PI) by ring.
      rewrite neg_cos, cos_neg, C2. split; field.
    - replace ((1 + 1 + 1 + 1) * (PI / 5)) with (PI - PI / 5) by field. rewrite sin_PI_x. fold s36. replace (PI - PI / 5) with (- (PI / 5) + PI) by ring.
      rewrite neg_cos, cos_neg, K. split; field. }
  intros Hj. destruct (Nat.ltb_spec j 5) as [H|H]; [exact (Low j H)|].
  replace j with (j - 5 + 5)%nat at 1 3 by lia. rewrite plus_INR. replace ((INR (j - 5) + INR 5) * (PI / 5)) with (INR (j - 5) * (PI / 5) + PI) by (cbn [INR]; field).
  rewrite neg_sin, neg_cos. destruct (Low (j - 5)%nat ltac:(lia)) as (-> & ->).
  assert (J : (j = 5 \/ j = 6 \/ j = 7 \/ j = 8 \/ j = 9)%nat) by lia. destruct J as [ -> | [ -> | [ -> | [ -> | -> ]]]]; cbn [Nat.sub nth sines cosines]; unfold ev; cbn [fst snd zint]; split; field.
Qed.
Lemma radians_of j : to_radians (INR j * 36) = INR j * (PI / 5). Proof. unfold to_radians. field. Qed.
Lemma start_place r c : initial r c = map (placet c r) ustart.
Proof.
  assert (R60 : to_radians 60 = PI / 3) by (unfold to_radians; field).
  assert (Z1 : ev (zint 1) = 1) by apply ev_int. assert (Z2 : ev (zint (-1)) = -1) by apply ev_int. assert (Z0 : ev (zint 0) = 0) by apply ev_int.
  assert (Z3 : ev (zint 2) = 2) by apply ev_int. assert (Z4 : ev (zint (-2)) = -2) by apply ev_int.
  unfold initial. rewrite R60, cos_PI3. fold h60. unfold ring, midtop_angles, midbottom_angles. cbn [map nth].
  assert (Top : forall i, (i < 5)%nat -> vadd (mkV (r * h60 * sin (to_radians (INR (2 * i + 1) * 36))) (r * h60 * cos (to_radians (INR (2 * i + 1) * 36))) (r * (1 / 2))) c = place c r (V i)).
  { intros i Hi. rewrite radians_of. destruct (sin_table (2 * i + 1) ltac:(lia)) as (-> & ->). unfold V, corner_at. destruct (Nat.ltb_spec i 5); [|lia]. cbn [rv]. rewrite Z1. unfold place. v3; field. }
  assert (Bot : forall i, (i < 5)%nat -> vadd (mkV (r * h60 * sin (to_radians (INR (2 * i) * 36))) (r * h60 * cos (to_radians (INR (2 * i) * 36))) (- (r * (1 / 2)))) c = place c r (V (5 + i))).
  { intros i Hi. rewrite radians_of. destruct (sin_table (2 * i) ltac:(lia)) as (-> & ->). unfold V, corner_at. destruct (Nat.ltb_spec (5 + i) 5); [lia|]. destruct (Nat.ltb_spec (5 + i) 10); [|lia].
    replace (5 + i - 5)%nat with i by lia. cbn [rv]. rewrite Z2. unfold place. v3; field. }
  assert (T : vadd (mkV 0 0 r) c = place c r (V 10)) by (unfold V, corner_at, place; cbn [Nat.ltb Nat.leb Nat.eqb rv]; rewrite Z0, Z3; v3; field).
  assert (B : vadd (mkV 0 0 (- r)) c = place c r (V 11)) by (unfold V, corner_at, place; cbn [Nat.ltb Nat.leb Nat.eqb rv]; rewrite Z0, Z4; v3; field).
  rewrite T, B.
  pose proof (Top 0%nat ltac:(lia)) as T0. pose proof (Top 1%nat ltac:(lia)) as T1. pose proof (Top 2%nat ltac:(lia)) as T2. pose proof (Top 3%nat ltac:(lia)) as T3. pose proof (Top 4%nat ltac:(lia)) as T4.
  pose proof (Bot 0%nat ltac:(lia)) as B0. pose proof (Bot 1%nat ltac:(lia)) as B1. pose proof (Bot 2%nat ltac:(lia)) as B2. pose proof (Bot 3%nat ltac:(lia)) as B3. pose proof (Bot 4%nat ltac:(lia)) as B4.
  replace (INR (2 * 0 + 1) * 36) with 36 in T0 by (cbn; ring). replace (INR (2 * 1 + 1) * 36) with (3 * 36) in T1 by (cbn; ring). replace (INR (2 * 2 + 1) * 36) with (5 * 36) in T2 by (cbn; ring).
  replace (INR (2 * 3 + 1) * 36) with (7 * 36) in T3 by (cbn; ring). replace (INR (2 * 4 + 1) * 36) with (9 * 36) in T4 by (cbn; ring).
  replace (INR (2 * 0) * 36) with 0 in B0 by (cbn; ring). replace (INR (2 * 1) * 36) with 72 in B1 by (cbn; ring). replace (INR (2 * 2) * 36) with (2 * 72) in B2 by (cbn; ring).
  replace (INR (2 * 3) * 36) with (3 * 72) in B3 by (cbn; ring). replace (INR (2 * 4) * 36) with (4 * 72) in B4 by (cbn; ring).
  rewrite T0, T1, T2, T3, T4, B0, B1, B2, B3, B4. reflexivity.
Qed.

(** ** They are fine, closed, go round once *)
Definition check_fine (t : nat * nat * nat) : bool :=
  let '(i, j, k) := t in
  let a := corner_at i in let b := corner_at j in let c := corner_at k in
  let unit x := let d := zdot x x in ((fst d =? 16) && (snd d =? 0))%Z in
  let near x y := nonpos (zsub (zint 5696) (zmul (zint 1000) (zdot x y))) in
  unit a && unit b && unit c && near a b && near a c && near b c && neg (zsub (zint 0) (zdet a b c)).
Lemma start_fine : Forall (fine (356 / 1000)) ustart.
Proof.
  assert (C : forallb check_fine start = true) by (vm_compute; reflexivity). rewrite forallb_forall in C. unfold ustart. apply Forall_map, Forall_forall. intros ((i & j) & k) I. specialize (C _ I).
  unfold check_fine in C. apply andb_true_iff in C as (C & D). do 5 (let H := fresh "Q" in apply andb_true_iff in C as (C & H)). cbn [Vt fine]. unfold V.
  assert (U : forall x, (fst (zdot x x) =? 16)%Z && (snd (zdot x x) =? 0)%Z = true -> vlen2 (rv x) = 1).
  { intros x Hx. apply andb_true_iff in Hx as (H1 & H2). apply Z.eqb_eq in H1, H2. rewrite <- vdot_self. pose proof (dot_rv x x) as E. unfold ev in E. rewrite H1, H2 in E. lra. }
  assert (N : forall x y, nonpos (zsub (zint 5696) (zmul (zint 1000) (zdot x y))) = true -> 356 / 1000 <= vdot (rv x) (rv y)).
  { intros x y Hx. apply nonpos_ok in Hx. rewrite ev_sub, ev_mul, !ev_int, <- dot_rv in Hx. lra. }
  repeat split; auto. apply neg_ok in D. rewrite ev_sub, ev_int in D. rewrite det_rv. pose proof s36_pos. nra.
Qed.
Lemma start_closed : closed ustart.
Proof.
  assert (C : closed start).
  { unfold closed, swap. cbn [start flat_map edges_of map fst snd app].
    repeat (match goal with
    | |- Permutation [] [] => constructor
    | |- Permutation (?x :: ?l) ?r =>
      let rec find pre s := lazymatch s with
        | x :: ?s' => apply (Permutation_cons_app pre s')
        | ?y :: ?s' => let pre' := eval cbn [app] in (pre ++ [y]) in find pre' s' end in
      find (@nil (nat * nat)) r; cbn [app]
    end). }
  exact (closed_map V start C).
Qed.
Definition zcorners (t : nat * nat * nat) : zpt * zpt * zpt := let '(i, j, k) := t in (corner_at i, corner_at j, corner_at k).
(** a side of the first triangle has the second one on its other side *)
Definition behind (a b : zpt) (t : zpt * zpt * zpt) : bool := let '(p, q, s) := t in nonpos (zdet a b p) && nonpos (zdet a b q) && nonpos (zdet a b s).
Definition separates (t t' : zpt * zpt * zpt) : bool := let '(a, b, c) := t in behind a b t' || behind b c t' || behind c a t'.
Lemma behind_ok a b p q s d : behind a b (p, q, s) = true -> in_cone (rv p, rv q, rv s) d -> det (rv a) (rv b) d <= 0.
Proof.
  intros H (x & y & z & X & Y & Z & ->). apply andb_true_iff in H as (H & H3). apply andb_true_iff in H as (H1 & H2).
  apply nonpos_ok in H1, H2, H3. pose proof s36_pos.
  replace (det (rv a) (rv b) (vadd (vscale (rv p) x) (vadd (vscale (rv q) y) (vscale (rv s) z)))) with (x * det (rv a) (rv b) (rv p) + y * det (rv a) (rv b) (rv q) + z * det (rv a) (rv b) (rv s)) by (unfold det, vdot, vcross, vadd, vscale; cbn; ring).
  rewrite !det_rv. assert (K : forall u w, 0 <= u -> w <= 0 -> u * (s36 * (3 / 16) * w) <= 0) by (intros; assert (0 <= u * s36) by nra; nra).
  pose proof (K x _ X H1). pose proof (K y _ Y H2). pose proof (K z _ Z H3). lra.
Qed.
(** both ways: inside of one, somewhere in the other *)
Lemma separates_open a b c p q s d : 0 < det (rv a) (rv b) (rv c) -> separates (a, b, c) (p, q, s) = true ->
  in_open (rv a, rv b, rv c) d -> in_cone (rv p, rv q, rv s) d -> False.
Proof.
  intros D H O C. apply open_det in O as (O1 & O2 & O3); [|exact D]. unfold separates in H. rewrite !orb_true_iff in H. destruct H as [[H|H]|H].
  - pose proof (behind_ok _ _ _ _ _ _ H C). lra.
  - pose proof (behind_ok _ _ _ _ _ _ H C) as K. replace (det (rv b) (rv c) d) with (det d (rv b) (rv c)) in K by (unfold det, vdot, vcross; cbn; ring). lra.
  - pose proof (behind_ok _ _ _ _ _ _ H C) as K. replace (det (rv c) (rv a) d) with (det (rv a) d (rv c)) in K by (unfold det, vdot, vcross; cbn; ring). lra.
Qed.
Lemma separates_cone a b c p q s d : 0 < det (rv a) (rv b) (rv c) -> 0 < det (rv p) (rv q) (rv s) -> separates (a, b, c) (p, q, s) = true ->
  in_cone (rv a, rv b, rv c) d -> in_open (rv p, rv q, rv s) d -> False.
Proof.
  intros D D' H C O.
  (* move a little into the first triangle: the direction is still inside the second one *)
  pose proof O as O'. apply open_det in O' as (O1 & O2 & O3); [|exact D'].
  set (n := vadd (rv a) (vadd (rv b) (rv c))).
  set (f := fun e => vadd d (vscale n e)).
  set (m1 := det n (rv q) (rv s)). set (m2 := det (rv p) n (rv s)). set (m3 := det (rv p) (rv q) n).
  set (x1 := det d (rv q) (rv s)) in *. set (x2 := det (rv p) d (rv s)) in *. set (x3 := det (rv p) (rv q) d) in *.
  set (lo := Rmin x1 (Rmin x2 x3)). set (hi := 1 + Rabs m1 + Rabs m2 + Rabs m3).
  assert (Lo : 0 < lo) by (unfold lo; repeat apply Rmin_glb_lt; assumption).
  pose proof (Rabs_pos m1). pose proof (Rabs_pos m2). pose proof (Rabs_pos m3).
  assert (Hi : 0 < hi) by (unfold hi; lra). set (e := lo / hi / 2). assert (E : 0 < e) by (unfold e; apply Rdiv_lt_0_compat; [apply Rdiv_lt_0_compat; assumption|lra]).
  assert (Eh : e * hi = lo / 2) by (unfold e; field; lra).
  assert (G : forall m x, lo <= x -> Rabs m <= hi -> 0 < x + e * m).
  { intros m x Hx Hm. pose proof (Rle_abs (- m)) as Q. rewrite Rabs_Ropp in Q. assert (e * (- m) <= e * hi) by (apply Rmult_le_compat_l; lra). lra. }
  apply (separates_open a b c p q s (f e) D H).
  - destruct C as (x & y & z & X & Y & Z & ->). exists (x + e), (y + e), (z + e). repeat split; try lra. unfold f, n. v3; ring.
  - apply cone_det; [exact D'|].
    replace (det (f e) (rv q) (rv s)) with (x1 + e * m1) by (unfold f, x1, m1, det, vdot, vcross, vadd, vscale; cbn; ring).
    replace (det (rv p) (f e) (rv s)) with (x2 + e * m2) by (unfold f, x2, m2, det, vdot, vcross, vadd, vscale; cbn; ring).
    replace (det (rv p) (rv q) (f e)) with (x3 + e * m3) by (unfold f, x3, m3, det, vdot, vcross, vadd, vscale; cbn; ring).
    assert (lo <= x1 /\ lo <= x2 /\ lo <= x3) as (L1 & L2 & L3).
    { unfold lo. pose proof (Rmin_l x1 (Rmin x2 x3)). pose proof (Rmin_r x1 (Rmin x2 x3)). pose proof (Rmin_l x2 x3). pose proof (Rmin_r x2 x3). lra. }
    repeat split; left; apply G; try assumption; unfold hi; lra.
Qed.
Fixpoint all_pairs {A} (f : A -> A -> bool) (l : list A) : bool := match l with [] => true | x :: l => forallb (f x) l && all_pairs f l end.
Lemma start_apart : pairwise apart ustart.
Proof.
  assert (C : all_pairs (fun t t' => separates (zcorners t) (zcorners t') || separates (zcorners t') (zcorners t)) start = true) by (vm_compute; reflexivity).
  assert (F := start_fine). unfold ustart in *. revert C F. generalize start as l. induction l as [|t l IH]; intros C F; [exact I|]. cbn [map] in *. apply Forall_cons_iff in F as (Ft & Fl).
  cbn [all_pairs] in C. apply andb_true_iff in C as (C1 & C2). cbn [pairwise]. split; [|apply IH; assumption]. apply Forall_map, Forall_forall. intros t' It'.
  rewrite forallb_forall in C1. specialize (C1 t' It'). rewrite Forall_map, Forall_forall in Fl. specialize (Fl t' It').
  destruct t as ((i & j) & k), t' as ((i' & j') & k'). cbn [zcorners Vt] in *. unfold V in *.
  destruct Ft as (_ & _ & _ & _ & _ & _ & D). destruct Fl as (_ & _ & _ & _ & _ & _ & D').
  intros d. apply orb_true_iff in C1 as [S|S]; split; intros (O & Cn).
  - exact (separates_open _ _ _ _ _ _ d D S O Cn).
  - exact (separates_cone _ _ _ _ _ _ d D D' S Cn O).
  - exact (separates_cone _ _ _ _ _ _ d D' D S Cn O).
  - exact (separates_open _ _ _ _ _ _ d D' S O Cn).
Qed.

(** ** They cover every direction *)
Lemma four (k p q z : R) (A B C E e d : pt) : 0 < k -> 0 <= p -> 0 <= q ->
  A = vadd (vsub (vscale (vadd C e) k) B) (vscale e 2) -> E = vsub (vsub (vscale (vsub B e) k) C) (vscale e 2) ->
  d = vadd (vscale (vadd C e) p) (vadd (vscale (vsub B e) q) (vscale e z)) ->
  in_cone (A, B, vscale e 2) d \/ in_cone (A, B, C) d \/ in_cone (C, E, B) d \/ in_cone (C, E, vscale e (-2)) d.
Proof.
  intros K P Q EA EE Ed. assert (IK : 0 < / k) by (apply Rinv_0_lt_compat; exact K). assert (I2 : 0 < / (2 + k)) by (apply Rinv_0_lt_compat; lra).
  destruct (Rle_lt_dec (2 * (p / k) + q) z) as [H1|H1].
  - left. exists (p / k), (p / k + q), ((z - 2 * (p / k) - q) / 2). assert (0 <= p / k) by (apply Rmult_le_pos; lra). repeat split; try lra. subst A d. v3; field; lra.
  - right. assert (K1 : k * z < 2 * p + k * q).
    { apply (Rmult_lt_compat_l k) in H1; [|exact K]. replace (k * (2 * (p / k) + q)) with (2 * p + k * q) in H1 by (field; lra). exact H1. }
    destruct (Rle_lt_dec (q - p) z) as [H2|H2].
    + left. set (al := (z + p - q) / (2 + k)). assert (Ea : al * (2 + k) = z + p - q) by (unfold al; field; lra).
      assert (0 <= al) by (unfold al; apply Rmult_le_pos; lra). exists al, (al + q), (p - k * al). repeat split; try lra.
      * assert (k * al * (2 + k) = k * (z + p - q)) by (rewrite <- Ea; ring). assert (k * al * (2 + k) <= p * (2 + k)) by nra. apply Rmult_le_reg_r in H3; lra.
      * subst A d. replace z with (al * (2 + k) - p + q) by lra. v3; ring.
    + right. set (be := (q - p - z) / (2 + k)). assert (Eb : be * (2 + k) = q - p - z) by (unfold be; field; lra).
      assert (0 <= be) by (unfold be; apply Rmult_le_pos; lra).
      destruct (Rle_lt_dec (k * be) q) as [H3|H3].
      * left. exists (p + be), be, (q - k * be). repeat split; try lra. subst E d. replace z with (q - p - be * (2 + k)) by lra. v3; ring.
      * right. assert (0 <= q / k) by (apply Rmult_le_pos; lra). exists (p + q / k), (q / k), ((- z - p - 2 * (q / k)) / 2). repeat split; try lra.
        -- assert (k * (q - p - z) > q * (2 + k)) by (rewrite <- Eb; nra). assert (0 <= k * (- z - p - 2 * (q / k))).
           { replace (k * (- z - p - 2 * (q / k))) with (k * (- z - p) - 2 * q) by (field; lra). nra. }
           apply (Rmult_le_reg_l k); [exact K|]. lra.
        -- subst E d. v3; field; lra.
Qed.
Lemma cone_213 a b c d : in_cone (a, b, c) d -> in_cone (b, a, c) d. Proof. intros (x & y & z & X & Y & Z & ->). exists y, x, z. repeat split; try assumption. v3; ring. Qed.
Lemma cone_132 a b c d : in_cone (a, b, c) d -> in_cone (a, c, b) d. Proof. intros (x & y & z & X & Y & Z & ->). exists x, z, y. repeat split; try assumption. v3; ring. Qed.
Local Ltac pick H := first [exact H | apply cone_213; exact H | apply cone_132; exact H | apply cone_213, cone_132; exact H | apply cone_132, cone_213; exact H | apply cone_213, cone_132, cone_213; exact H].
Local Ltac search H := first [apply Exists_cons_hd; solve [pick H] | apply Exists_cons_tl; search H].

Definition xy (i : nat) : R * R := (ev (nth i sines (zint 0)), ev (nth i cosines (zint 0))).
(** on which side of a half-plane a direction is *)
Definition turn (i : nat) (X Y : R) : R := fst (xy i) * Y - snd (xy i) * X.
Lemma turn_opposite i X Y : (i < 5)%nat -> turn (i + 5) X Y = - turn i X Y.
Proof. intros H. destruct i as [|[|[|[|[|i]]]]]; [| | | | |lia]; unfold turn, xy; cbn [Nat.add nth sines cosines fst snd]; unfold ev; cbn [fst snd]; ring. Qed.
Lemma start_covers : covers ustart.
Proof.
  intros d. pose proof s36_pos as S36. pose proof h60_pos as H60. pose proof gold_pos as K.
  set (X := vx d / (s36 * h60)). set (Y := vy d * 2 / h60). set (Z := vz d * 2).
  assert (Ed : d = mkV (s36 * h60 * X) (h60 / 2 * Y) (Z / 2)) by (unfold X, Y, Z; v3; field; lra).
  set (e := mkV 0 0 (1 / 2)).
  assert (T10 : V 10 = vscale e 2) by (unfold V, corner_at, e; cbn [Nat.ltb Nat.leb Nat.eqb rv]; rewrite !ev_int; v3; field).
  assert (T11 : V 11 = vscale e (-2)) by (unfold V, corner_at, e; cbn [Nat.ltb Nat.leb Nat.eqb rv]; rewrite !ev_int; v3; field).
  (* one half of a sector: the corners A and B above, C and E below *)
  assert (Four : forall (A B C E : nat) p q, 0 <= p -> 0 <= q ->
     V A = vadd (vsub (vscale (vadd (V C) e) gold) (V B)) (vscale e 2) -> V E = vsub (vsub (vscale (vsub (V B) e) gold) (V C)) (vscale e 2) ->
     d = vadd (vscale (vadd (V C) e) p) (vadd (vscale (vsub (V B) e) q) (vscale e Z)) ->
     in_cone (V A, V B, V 10) d \/ in_cone (V A, V B, V C) d \/ in_cone (V C, V E, V B) d \/ in_cone (V C, V E, V 11) d).
  { intros A B C E p q P Q EA EE E'. rewrite T10, T11. exact (four gold p q Z (V A) (V B) (V C) (V E) e d K P Q EA EE E'). }
  assert (Sector : forall j, (j < 10)%nat -> turn j X Y <= 0 -> 0 <= turn (if (j =? 9)%nat then 0 else S j) X Y -> Exists (fun t => in_cone t d) ustart).
  { pose proof gold_sq as GG.
    assert (G3 : gold * gold * gold = 2 * gold + 1) by (rewrite GG; replace ((gold + 1) * gold) with (gold * gold + gold) by ring; rewrite GG; ring).
    assert (Mul : forall M, M * (gold * gold) = M * (gold + 1)) by (intros M; rewrite GG; reflexivity).
    pose proof (Mul (s36 * h60)) as M1. pose proof (Mul h60) as M2. pose proof (Mul (s36 * h60 * X)) as M3. pose proof (Mul (s36 * h60 * Y)) as M4.
    pose proof (Mul (h60 * X)) as M5. pose proof (Mul (h60 * Y)) as M6. clear Mul G3.
    assert (Down : forall j A B C E, turn j X Y <= 0 -> 0 <= turn (if (j =? 9)%nat then 0 else S j) X Y ->
      V A = vadd (vsub (vscale (vadd (V C) e) gold) (V B)) (vscale e 2) /\ V E = vsub (vsub (vscale (vsub (V B) e) gold) (V C)) (vscale e 2) /\
      d = vadd (vscale (vadd (V C) e) (turn (if (j =? 9)%nat then 0 else S j) X Y / 2)) (vadd (vscale (vsub (V B) e) (- turn j X Y / 2)) (vscale e Z)) ->
      in_cone (V A, V B, V 10) d \/ in_cone (V A, V B, V C) d \/ in_cone (V C, V E, V B) d \/ in_cone (V C, V E, V 11) d).
    { intros j A B C E T1 T2 (E1 & E2 & E3). apply (Four A B C E (turn (if (j =? 9)%nat then 0 else S j) X Y / 2) (- turn j X Y / 2)); (lra || assumption). }
    assert (Up : forall j A B C E, turn j X Y <= 0 -> 0 <= turn (if (j =? 9)%nat then 0 else S j) X Y ->
      V A = vadd (vsub (vscale (vadd (V C) e) gold) (V B)) (vscale e 2) /\ V E = vsub (vsub (vscale (vsub (V B) e) gold) (V C)) (vscale e 2) /\
      d = vadd (vscale (vadd (V C) e) (- turn j X Y / 2)) (vadd (vscale (vsub (V B) e) (turn (if (j =? 9)%nat then 0 else S j) X Y / 2)) (vscale e Z)) ->
      in_cone (V A, V B, V 10) d \/ in_cone (V A, V B, V C) d \/ in_cone (V C, V E, V B) d \/ in_cone (V C, V E, V 11) d).
    { intros j A B C E T1 T2 (E1 & E2 & E3). apply (Four A B C E (- turn j X Y / 2) (turn (if (j =? 9)%nat then 0 else S j) X Y / 2)); (lra || assumption). }
    assert (Fin : forall A B C E, In (A, B, C, E) [(4, 0, 5, 6); (0, 1, 6, 7); (1, 2, 7, 8); (2, 3, 8, 9); (3, 4, 9, 5); (1, 0, 6, 5); (2, 1, 7, 6); (3, 2, 8, 7); (4, 3, 9, 8); (0, 4, 5, 9)]%nat ->
      in_cone (V A, V B, V 10) d \/ in_cone (V A, V B, V C) d \/ in_cone (V C, V E, V B) d \/ in_cone (V C, V E, V 11) d -> Exists (fun t => in_cone t d) ustart).
    { intros A B C E I H. cbn [In] in I. unfold ustart. cbn [start map Vt].
      repeat (destruct I as [I|I]; [injection I as <- <- <- <-; destruct H as [H|[H|[H|H]]]; search H|]). destruct I. }
    intros j Hj T1 T2.
    destruct j as [|[|[|[|[|[|[|[|[|[|j]]]]]]]]]]; [| | | | | | | | | |lia];
    [apply (Fin 4 0 5 6)%nat; [cbn; tauto|apply (Down 0%nat); [exact T1|exact T2|]]|apply (Fin 1 0 6 5)%nat; [cbn; tauto|apply (Up 1%nat); [exact T1|exact T2|]]
    |apply (Fin 0 1 6 7)%nat; [cbn; tauto|apply (Down 2%nat); [exact T1|exact T2|]]|apply (Fin 2 1 7 6)%nat; [cbn; tauto|apply (Up 3%nat); [exact T1|exact T2|]]
    |apply (Fin 1 2 7 8)%nat; [cbn; tauto|apply (Down 4%nat); [exact T1|exact T2|]]|apply (Fin 3 2 8 7)%nat; [cbn; tauto|apply (Up 5%nat); [exact T1|exact T2|]]
    |apply (Fin 2 3 8 9)%nat; [cbn; tauto|apply (Down 6%nat); [exact T1|exact T2|]]|apply (Fin 4 3 9 8)%nat; [cbn; tauto|apply (Up 7%nat); [exact T1|exact T2|]]
    |apply (Fin 3 4 9 5)%nat; [cbn; tauto|apply (Down 8%nat); [exact T1|exact T2|]]|apply (Fin 0 4 5 9)%nat; [cbn; tauto|apply (Up 9%nat); [exact T1|exact T2|]]];
    clear Four Down Up Fin T1 T2 GG; (split; [|split; [|rewrite Ed]]); unfold V, corner_at, e, turn, xy;
    cbn [Nat.ltb Nat.leb Nat.eqb Nat.mul Nat.add Nat.sub nth sines cosines rv fst snd]; unfold ev, zint; cbn [fst snd]; clear Ed; clearbody X Y Z; v3; lra. }
  assert (Found : Exists (fun t => in_cone t d) ustart).
  { destruct (Rle_lt_dec (turn 0 X Y) 0) as [H0|H0].
    - pose proof (turn_opposite 0 X Y ltac:(lia)) as O. cbn [Nat.add] in O.
      destruct (Rle_lt_dec 0 (turn 1 X Y)); [apply (Sector 0%nat); (lia || assumption)|]. destruct (Rle_lt_dec 0 (turn 2 X Y)); [apply (Sector 1%nat); [lia|lra|assumption]|].
      destruct (Rle_lt_dec 0 (turn 3 X Y)); [apply (Sector 2%nat); [lia|lra|assumption]|]. destruct (Rle_lt_dec 0 (turn 4 X Y)); [apply (Sector 3%nat); [lia|lra|assumption]|].
      apply (Sector 4%nat); [lia|lra|cbn [Nat.eqb]; lra].
    - pose proof (turn_opposite 0 X Y ltac:(lia)) as O. cbn [Nat.add] in O.
      destruct (Rle_lt_dec 0 (turn 6 X Y)); [apply (Sector 5%nat); [lia|lra|assumption]|]. destruct (Rle_lt_dec 0 (turn 7 X Y)); [apply (Sector 6%nat); [lia|lra|assumption]|].
      destruct (Rle_lt_dec 0 (turn 8 X Y)); [apply (Sector 7%nat); [lia|lra|assumption]|]. destruct (Rle_lt_dec 0 (turn 9 X Y)); [apply (Sector 8%nat); [lia|lra|assumption]|].
      apply (Sector 9%nat); [lia|lra|cbn [Nat.eqb]; lra]. }
  apply Exists_exists in Found as (t & It & Ct). exists t. split; assumption.
Qed.

(** Facts about boxes and transforms, in exact arithmetic. *)
From Coq Require Import Reals List Bool Lra Lia Psatz.
From Verif.Common Require Import Base Flt.
From Verif.Geometry Require Import Vec BBoxModel TransformModel.
Import ListNotations.
Open Scope R_scope.

(** The set of points of a box *)
Definition inside (b : BBox R) (p : pt) : Prop :=
  vx (bmin b) <= vx p <= vx (bmax b) /\ vy (bmin b) <= vy p <= vy (bmax b) /\ vz (bmin b) <= vz p <= vz (bmax b).
(** A box whose corners are in order *)
Definition proper (b : BBox R) : Prop :=
  vx (bmin b) <= vx (bmax b) /\ vy (bmin b) <= vy (bmax b) /\ vz (bmin b) <= vz (bmax b).

Lemma point_inside_iff b p : point_inside RF b p = true <-> inside b p.
Proof.
  unfold point_inside, inside. cbn [fleb RF]. rewrite !andb_true_iff, !Rleb_true. tauto.
Qed.

Ltac rcases := repeat match goal with
  | |- context [Rltb ?a ?b] => destruct (Rltb_spec a b)
  | |- context [Rleb ?a ?b] => destruct (Rleb_spec a b)
  | H : context [Rltb ?a ?b] |- _ => destruct (Rltb_spec a b)
  | H : context [Rleb ?a ?b] |- _ => destruct (Rleb_spec a b)
  end.

Lemma order_min a b : fst (order RF a b) <= a /\ fst (order RF a b) <= b /\ (fst (order RF a b) = a \/ fst (order RF a b) = b).
Proof. unfold order. cbn [fltb RF]. rcases; cbn [fst]; lra. Qed.
Lemma order_max a b : a <= snd (order RF a b) /\ b <= snd (order RF a b) /\ (snd (order RF a b) = a \/ snd (order RF a b) = b).
Proof. unfold order. cbn [fltb RF]. rcases; cbn [snd]; lra. Qed.
Lemma order_minmax a b : order RF a b = (Rmin a b, Rmax a b).
Proof. unfold order. cbn [fltb RF]. unfold Rmin, Rmax. rcases; destruct (Rle_dec a b); try lra; f_equal; lra. Qed.

(** ** The ray/box test *)

Definition at_time (o d : pt) (t : R) : pt := vadd o (vscale d t).

Lemma slab (lo hi o d t : R) : d <> 0 -> lo <= hi ->
  lo <= o + d * t <= hi <-> Rmin ((lo - o) * (1 / d)) ((hi - o) * (1 / d)) <= t <= Rmax ((lo - o) * (1 / d)) ((hi - o) * (1 / d)).
Proof.
  intros Hd Hl.
  set (u := (lo - o) * (1 / d)). set (v := (hi - o) * (1 / d)).
  assert (Eu : lo = o + d * u) by (unfold u; field; assumption).
  assert (Ev : hi = o + d * v) by (unfold v; field; assumption).
  rewrite Eu, Ev in *. clearbody u v. clear lo hi Eu Ev.
  unfold Rmin, Rmax. destruct (Rle_dec u v).
  - destruct (Rtotal_order d 0) as [N|[Z|P]]; [|lra|].
    + assert (u = v) by nra. subst. split; intros; [|replace t with v by lra; lra]. split; nra.
    + split; intros; split; nra.
  - destruct (Rtotal_order d 0) as [N|[Z|P]]; [|lra|].
    + split; intros; split; nra.
    + exfalso. nra.
Qed.

Lemma gamma_pos : 0 < gamma 3.
Proof. unfold gamma, eps64. apply Rdiv_lt_0_compat; lra. Qed.

Lemma intersect_unfold g b o i : intersect RF g b o i =
  let x0 := Rmin ((vx (bmin b) - vx o) * vx i) ((vx (bmax b) - vx o) * vx i) in
  let x1 := Rmax ((vx (bmin b) - vx o) * vx i) ((vx (bmax b) - vx o) * vx i) in
  let y0 := Rmin ((vy (bmin b) - vy o) * vy i) ((vy (bmax b) - vy o) * vy i) in
  let y1 := Rmax ((vy (bmin b) - vy o) * vy i) ((vy (bmax b) - vy o) * vy i) in
  let z0 := Rmin ((vz (bmin b) - vz o) * vz i) ((vz (bmax b) - vz o) * vz i) in
  let z1 := Rmax ((vz (bmin b) - vz o) * vz i) ((vz (bmax b) - vz o) * vz i) in
  let w := 1 + (1 + 1) * g in
  if Rltb x1 0 then false else if Rltb y1 0 then false else
  if Rltb (y1 * w) x0 || Rltb (x1 * w) y0 then false else
  let m := if Rltb x0 y0 then y0 else x0 in
  let n := if Rltb (y1 * w) (x1 * w) then y1 * w else x1 * w in
  if Rltb z1 0 then false else
  if Rltb (z1 * w) m || Rltb n z0 then false else
  let m := if Rltb m z0 then z0 else m in
  let n := if Rltb (z1 * w) n then z1 * w else n in
  Rltb m n && Rltb 0 n.
Proof. unfold intersect, vscale_components, vsubF. cbn [vx vy vz fmul fsub RF]. rewrite !order_minmax. reflexivity. Qed.

(** The test succeeds exactly when some positive time lies in the three widened intervals. *)
Lemma intersect_iff g b o i : 0 < g ->
  let x0 := Rmin ((vx (bmin b) - vx o) * vx i) ((vx (bmax b) - vx o) * vx i) in
  let x1 := Rmax ((vx (bmin b) - vx o) * vx i) ((vx (bmax b) - vx o) * vx i) in
  let y0 := Rmin ((vy (bmin b) - vy o) * vy i) ((vy (bmax b) - vy o) * vy i) in
  let y1 := Rmax ((vy (bmin b) - vy o) * vy i) ((vy (bmax b) - vy o) * vy i) in
  let z0 := Rmin ((vz (bmin b) - vz o) * vz i) ((vz (bmax b) - vz o) * vz i) in
  let z1 := Rmax ((vz (bmin b) - vz o) * vz i) ((vz (bmax b) - vz o) * vz i) in
  let w := 1 + 2 * g in
  intersect RF g b o i = true <->
  exists t, 0 < t /\ x0 < t <= x1 * w /\ y0 < t <= y1 * w /\ z0 < t <= z1 * w.
Proof.
  intros Hg. cbv zeta. rewrite intersect_unfold. cbv zeta.
  generalize (Rmin ((vx (bmin b) - vx o) * vx i) ((vx (bmax b) - vx o) * vx i)) as x0.
  generalize (Rmax ((vx (bmin b) - vx o) * vx i) ((vx (bmax b) - vx o) * vx i)) as x1.
  generalize (Rmin ((vy (bmin b) - vy o) * vy i) ((vy (bmax b) - vy o) * vy i)) as y0.
  generalize (Rmax ((vy (bmin b) - vy o) * vy i) ((vy (bmax b) - vy o) * vy i)) as y1.
  generalize (Rmin ((vz (bmin b) - vz o) * vz i) ((vz (bmax b) - vz o) * vz i)) as z0.
  generalize (Rmax ((vz (bmin b) - vz o) * vz i) ((vz (bmax b) - vz o) * vz i)) as z1.
  intros z1 z0 y1 y0 x1 x0. replace (1 + (1 + 1) * g) with (1 + 2 * g) by ring.
  assert (Hw : 1 < 1 + 2 * g) by lra. set (w := 1 + 2 * g) in *. clearbody w. clear g Hg.
  assert (Sx : x1 < 0 -> x1 * w < 0) by nra. assert (Sy : y1 < 0 -> y1 * w < 0) by nra. assert (Sz : z1 < 0 -> z1 * w < 0) by nra.
  set (X := x1 * w) in *. set (Y := y1 * w) in *. set (Z := z1 * w) in *. clearbody X Y Z.
  split.
  - intros H. exists (Rmin (Rmin X Y) Z). unfold Rmin.
    rcases; cbn [orb andb] in H; try discriminate H; destruct (Rle_dec X Y); destruct (Rle_dec _ Z); lra.
  - intros (t & H1 & H2 & H3 & H4). rcases; cbn [orb andb]; try reflexivity; exfalso; lra.
Qed.

(** ** Affine transforms *)

Ltac ltac_list16 m H := do 16 (destruct m as [|? m]; [discriminate H|]); destruct m; [|discriminate H].

Definition affine (m : list R) : Prop :=
  length m = 16%nat /\ at_ m 3 0 = 0 /\ at_ m 3 1 = 0 /\ at_ m 3 2 = 0 /\ at_ m 3 3 = 1.

Lemma affine_list m : affine m -> exists a b c d e f g h i j k l, m = [a; b; c; d; e; f; g; h; i; j; k; l; 0; 0; 0; 1].
Proof.
  intros (L & A & B & C & D). ltac_list16 m L. cbn in A, B, C, D. subst. repeat eexists.
Qed.

Lemma affine_mul m1 m2 : affine m1 -> affine m2 -> affine (mul4x4 m1 m2).
Proof.
  intros A1 A2. apply affine_list in A1 as (a1 & b1 & c1 & d1 & e1 & f1 & g1 & h1 & i1 & j1 & k1 & l1 & ->).
  apply affine_list in A2 as (a2 & b2 & c2 & d2 & e2 & f2 & g2 & h2 & i2 & j2 & k2 & l2 & ->).
  unfold affine. cbn. repeat split; ring.
Qed.

Lemma mul4x4point_affine m p : affine m ->
  mul4x4point m p = mkV (at_ m 0 0 * vx p + at_ m 0 1 * vy p + at_ m 0 2 * vz p + at_ m 0 3)
                        (at_ m 1 0 * vx p + at_ m 1 1 * vy p + at_ m 1 2 * vz p + at_ m 1 3)
                        (at_ m 2 0 * vx p + at_ m 2 1 * vy p + at_ m 2 2 * vz p + at_ m 2 3).
Proof.
  intros (_ & A & B & C & D). unfold mul4x4point. rewrite A, B, C, D. unfold vdiv. cbn [vx vy vz].
  replace (0 * vx p + 0 * vy p + 0 * vz p + 1) with 1 by ring. apply V3_eq; cbn [vx vy vz]; field.
Qed.

Lemma mul4x4_point m1 m2 p : affine m1 -> affine m2 -> mul4x4point (mul4x4 m1 m2) p = mul4x4point m1 (mul4x4point m2 p).
Proof.
  intros A1 A2. rewrite !mul4x4point_affine by auto using affine_mul.
  apply affine_list in A1 as (a1 & b1 & c1 & d1 & e1 & f1 & g1 & h1 & i1 & j1 & k1 & l1 & ->).
  apply affine_list in A2 as (a2 & b2 & c2 & d2 & e2 & f2 & g2 & h2 & i2 & j2 & k2 & l2 & ->).
  apply V3_eq; cbn; ring.
Qed.

Lemma mul4x4_vec m1 m2 p : affine m1 -> affine m2 -> mul4x4vec (mul4x4 m1 m2) p = mul4x4vec m1 (mul4x4vec m2 p).
Proof.
  intros A1 A2.
  apply affine_list in A1 as (a1 & b1 & c1 & d1 & e1 & f1 & g1 & h1 & i1 & j1 & k1 & l1 & ->).
  apply affine_list in A2 as (a2 & b2 & c2 & d2 & e2 & f2 & g2 & h2 & i2 & j2 & k2 & l2 & ->).
  apply V3_eq; cbn; ring.
Qed.

Ltac list16_eq := repeat (apply f_equal2; [cbn; ring|]); try reflexivity.

Lemma mul4x4_assoc a b c : mul4x4 (mul4x4 a b) c = mul4x4 a (mul4x4 b c).
Proof. unfold mul4x4. cbn [flat_map map app]. repeat (apply f_equal2; [unfold at_, elem; cbn [nth Nat.mul Nat.add]; ring|]). reflexivity. Qed.

Lemma mul4x4_id_l m : length m = 16%nat -> mul4x4 identity m = m.
Proof. intros L. ltac_list16 m L. cbn. repeat (apply f_equal2; [ring|]). reflexivity. Qed.
Lemma mul4x4_id_r m : length m = 16%nat -> mul4x4 m identity = m.
Proof. intros L. ltac_list16 m L. cbn. repeat (apply f_equal2; [ring|]). reflexivity. Qed.
Lemma mul4x4_len a b : length (mul4x4 a b) = 16%nat.
Proof. reflexivity. Qed.

(** A transform whose stored inverse is the inverse *)
Definition sound (t : Transform) : Prop :=
  affine (elements t) /\ affine (inv_elements t) /\
  mul4x4 (inv_elements t) (elements t) = identity /\ mul4x4 (elements t) (inv_elements t) = identity.

Lemma id_point p : mul4x4point identity p = p.
Proof. apply V3_eq; cbn; field. Qed.
Lemma id_vec p : mul4x4vec identity p = p.
Proof. apply V3_eq; cbn; ring. Qed.

Lemma sound_inverse t p : sound t ->
  inv_transform_pt t (transform_pt t p) = p /\ transform_pt t (inv_transform_pt t p) = p /\
  inv_transform_vec t (transform_vec t p) = p /\ transform_vec t (inv_transform_vec t p) = p.
Proof.
  intros (A & B & C & D). unfold inv_transform_pt, transform_pt, inv_transform_vec, transform_vec.
  rewrite <- !mul4x4_point, <- !mul4x4_vec by assumption. rewrite C, D. now rewrite !id_point, !id_vec.
Qed.

Lemma at_identity_eq m : m = identity -> forall r c, at_ m r c = at_ identity r c.
Proof. congruence. Qed.

Lemma sound_normal t v n : sound t -> vdot (transform_vec t v) (transform_normal t n) = vdot v n.
Proof.
  intros (A & B & C & _). unfold transform_vec, transform_normal. destruct t as [m1 m2]. cbn [elements inv_elements] in *.
  apply affine_list in A as (a1 & b1 & c1 & d1 & e1 & f1 & g1 & h1 & i1 & j1 & k1 & l1 & ->).
  apply affine_list in B as (a2 & b2 & c2 & d2 & e2 & f2 & g2 & h2 & i2 & j2 & k2 & l2 & ->).
  pose proof (fun r c => at_identity_eq _ C r c) as E.
  pose proof (E 0 0)%nat as E00. pose proof (E 0 1)%nat as E01. pose proof (E 0 2)%nat as E02.
  pose proof (E 1 0)%nat as E10. pose proof (E 1 1)%nat as E11. pose proof (E 1 2)%nat as E12.
  pose proof (E 2 0)%nat as E20. pose proof (E 2 1)%nat as E21. pose proof (E 2 2)%nat as E22. clear E C.
  destruct v as [x y z], n as [p q r]. cbn in *. unfold vdot. cbn in *.
  match goal with |- ?L = ?Rr =>
    assert (K : L - Rr = 0); [|lra] end.
  rewrite Rmult_0_r, !Rplus_0_r in *.
  transitivity (
    p * x * (a2 * a1 + b2 * e1 + c2 * i1 - 1) + p * y * (a2 * b1 + b2 * f1 + c2 * j1) + p * z * (a2 * c1 + b2 * g1 + c2 * k1) +
    q * x * (e2 * a1 + f2 * e1 + g2 * i1) + q * y * (e2 * b1 + f2 * f1 + g2 * j1 - 1) + q * z * (e2 * c1 + f2 * g1 + g2 * k1) +
    r * x * (i2 * a1 + j2 * e1 + k2 * i1) + r * y * (i2 * b1 + j2 * f1 + k2 * j1) + r * z * (i2 * c1 + j2 * g1 + k2 * k1 - 1)).
  - ring.
  - rewrite E00, E01, E02, E10, E11, E12, E20, E21, E22. ring.
Qed.

Lemma sound_translate x y z : sound (translate x y z).
Proof. unfold sound, affine. cbn. repeat split; repeat (apply f_equal2; [ring|]); reflexivity. Qed.

Lemma sound_scale x y z : x <> 0 -> y <> 0 -> z <> 0 -> sound (scale x y z).
Proof. intros Hx Hy Hz. unfold sound, affine. cbn. repeat split; repeat (apply f_equal2; [try ring; field; assumption|]); reflexivity. Qed.

Lemma sc (a : R) : sin a * sin a = 1 - cos a * cos a.
Proof. pose proof (sin2_cos2 a) as H. unfold Rsqr in H. lra. Qed.

Ltac rot := unfold sound, affine; cbn; repeat split; repeat (apply f_equal2; [ring_simplify; try rewrite <- !Rsqr_pow2; unfold Rsqr; try rewrite sc; ring|]); reflexivity.
Lemma sound_rotate_x a : sound (rotate_x a).
Proof. unfold rotate_x. generalize (to_radians a) as r. intros r. rot. Qed.
Lemma sound_rotate_y a : sound (rotate_y a).
Proof. unfold rotate_y. generalize (to_radians a) as r. intros r. rot. Qed.
Lemma sound_rotate_z a : sound (rotate_z a).
Proof. unfold rotate_z. generalize (to_radians a) as r. intros r. rot. Qed.
Lemma sound_new : sound t_new.
Proof. unfold sound, affine. cbn. repeat split; repeat (apply f_equal2; [ring|]); reflexivity. Qed.

(** Composition keeps the inverse right when the matrices commute. *)
Lemma sound_mul a b : sound a -> sound b ->
  mul4x4 (elements a) (elements b) = mul4x4 (elements b) (elements a) -> sound (mul_assign a b).
Proof.
  intros (A1 & A2 & A3 & A4) (B1 & B2 & B3 & B4) C. unfold sound, mul_assign. cbn [elements inv_elements].
  split; [now apply affine_mul|]. split; [now apply affine_mul|]. split.
  - rewrite C. rewrite mul4x4_assoc, <- (mul4x4_assoc (inv_elements b)), B3, mul4x4_id_l by apply A1. exact A3.
  - rewrite C. rewrite mul4x4_assoc, <- (mul4x4_assoc (elements a)), A4, mul4x4_id_l by apply B2. exact B4.
Qed.

(** Boxes *)
Lemma from_union_point_inside b p q : inside b q -> inside (from_union_point RF b p) q.
Proof.
  unfold inside, from_union_point, get_mins_maxs. cbn [fst snd bmin bmax vx vy vz].
  intros H. rewrite !order_minmax. cbn [fst snd].
  repeat match goal with |- context [Rmin ?a ?b] => pose proof (Rmin_l a b); pose proof (Rmin_r a b); generalize dependent (Rmin a b); intros end.
  repeat match goal with |- context [Rmax ?a ?b] => pose proof (Rmax_l a b); pose proof (Rmax_r a b); generalize dependent (Rmax a b); intros end.
  lra.
Qed.
Lemma from_union_point_self b p : proper b -> inside (from_union_point RF b p) p.
Proof.
  unfold inside, proper, from_union_point, get_mins_maxs. cbn [fst snd bmin bmax vx vy vz].
  intros H. rewrite !order_minmax. cbn [fst snd].
  repeat match goal with |- context [Rmin ?a ?b] => pose proof (Rmin_l a b); pose proof (Rmin_r a b); generalize dependent (Rmin a b); intros end.
  repeat match goal with |- context [Rmax ?a ?b] => pose proof (Rmax_l a b); pose proof (Rmax_r a b); generalize dependent (Rmax a b); intros end.
  lra.
Qed.
Lemma from_union_point_proper b p : proper b -> proper (from_union_point RF b p).
Proof.
  unfold proper, from_union_point, get_mins_maxs. cbn [fst snd bmin bmax vx vy vz].
  intros H. rewrite !order_minmax. cbn [fst snd].
  repeat match goal with |- context [Rmin ?a ?b] => pose proof (Rmin_l a b); pose proof (Rmin_r a b); generalize dependent (Rmin a b); intros end.
  repeat match goal with |- context [Rmax ?a ?b] => pose proof (Rmax_l a b); pose proof (Rmax_r a b); generalize dependent (Rmax a b); intros end.
  lra.
Qed.

Lemma fold_union_inside ps : forall b, proper b ->
  (forall q, inside b q -> inside (fold_left (from_union_point RF) ps b) q) /\
  (forall q, In q ps -> inside (fold_left (from_union_point RF) ps b) q).
Proof.
  induction ps as [|p ps IH]; intros b Hb; cbn [fold_left]; [split; [auto|intros q []]|].
  destruct (IH (from_union_point RF b p) (from_union_point_proper _ _ Hb)) as [I1 I2]. split.
  - intros q Hq. apply I1. now apply from_union_point_inside.
  - intros q [<-|Hq]; [|now apply I2]. apply I1. now apply from_union_point_self.
Qed.

Lemma linear_corner lo hi x a : lo <= x <= hi -> (a * x <= a * lo \/ a * x <= a * hi) /\ (a * lo <= a * x \/ a * hi <= a * x).
Proof. intros H. destruct (Rle_dec 0 a); split; nra. Qed.

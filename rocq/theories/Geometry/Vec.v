(** Points and vectors: /repo/geometry/src/point3d.rs and /repo/geometry/src/vector3d.rs.

    Simplifications: [Point3D] and [Vector3D] (same three fields) are one type; arithmetic is exact (real numbers);
    the [quick_inv_sqrt] feature is not modelled. *)
From Coq Require Import Reals Bool Lra.
From Verif.Common Require Import Base Flt.
Open Scope R_scope.

(** point3d.rs:33-41, vector3d.rs:34-42 *)
Record V3 (T : Type) := mkV { vx : T; vy : T; vz : T }.
Arguments mkV {T}. Arguments vx {T}. Arguments vy {T}. Arguments vz {T}.
Notation pt := (V3 R).

Lemma V3_eq {T} (a b : V3 T) : vx a = vx b -> vy a = vy b -> vz a = vz b -> a = b.
Proof. destruct a, b; cbn; congruence. Qed.

(** point3d.rs:233-262, vector3d.rs:331-345 *)
Definition vadd (a b : pt) : pt := mkV (vx a + vx b) (vy a + vy b) (vz a + vz b).
(** point3d.rs:280-298, vector3d.rs:363-369 *)
Definition vsub (a b : pt) : pt := mkV (vx a - vx b) (vy a - vy b) (vz a - vz b).
(** vector3d.rs:289-295, point3d.rs:316-326 *)
Definition vscale (a : pt) (s : R) : pt := mkV (vx a * s) (vy a * s) (vz a * s).
(** vector3d.rs:315-321, point3d.rs:336-346 *)
Definition vdiv (a : pt) (s : R) : pt := mkV (vx a / s) (vy a / s) (vz a / s).
(** vector3d.rs:279-305, point3d.rs:300-314 *)
Definition vdot (a b : pt) : R := vx a * vx b + vy a * vy b + vz a * vz b.
(** vector3d.rs:355-361 *)
Definition vneg (a : pt) : pt := mkV (- vx a) (- vy a) (- vz a).
(** vector3d.rs:192-198 *)
Definition vcross (a b : pt) : pt :=
  mkV (vy a * vz b - vz a * vy b) (vz a * vx b - vx a * vz b) (vx a * vy b - vy a * vx b).
(** vector3d.rs:211-213 *)
Definition vlen2 (a : pt) : R := vx a * vx a + vy a * vy a + vz a * vz a.
(** vector3d.rs:201-203 *)
Definition vlen (a : pt) : R := sqrt (vlen2 a).
(** vector3d.rs:216-235: panics on (nearly) zero vectors *)
Definition vnormalize (a : pt) : res pt :=
  let l2 := vlen2 a in
  if Rltb (1 / 10 ^ 20) l2 then let l := 1 / sqrt l2 in Ok (mkV (vx a * l) (vy a * l) (vz a * l)) else Panic.
(** Float::EPSILON of f64 *)
Definition eps64 : R := / 2 ^ 52.
(** vector3d.rs:238-241, point3d.rs:73-76 *)
Definition vis_zero (a : pt) : bool :=
  Rltb (Rabs (vx a)) (100 * eps64) && Rltb (Rabs (vy a)) (100 * eps64) && Rltb (Rabs (vz a)) (100 * eps64).
(** vector3d.rs:244-254 *)
Definition vis_parallel (a b : pt) : bool :=
  if vis_zero b || vis_zero a then false
  else Rltb (Rabs (vdot a b * vdot a b - vlen2 a * vlen2 b)) (1 / 10 ^ 5).
(** vector3d.rs:257-267 *)
Definition vis_same_direction (a b : pt) : bool :=
  if negb (vis_parallel a b) then false else Rltb 0 (vdot a b).
(** vector3d.rs:270-276, over any arithmetic *)
Definition vscale_components {T} (F : Flt T) (a : V3 T) (x y z : T) : V3 T :=
  mkV (fmul F (vx a) x) (fmul F (vy a) y) (fmul F (vz a) z).
Definition vsubF {T} (F : Flt T) (a b : V3 T) : V3 T :=
  mkV (fsub F (vx a) (vx b)) (fsub F (vy a) (vy b)) (fsub F (vz a) (vz b)).
(** vector3d.rs:90-96 *)
Definition vabs (a : pt) : pt := mkV (Rabs (vx a)) (Rabs (vy a)) (Rabs (vz a)).
(** point3d.rs:87-92 *)
Definition squared_distance (a b : pt) : R :=
  (vx a - vx b) * (vx a - vx b) + (vy a - vy b) * (vy a - vy b) + (vz a - vz b) * (vz a - vz b).
(** point3d.rs:102-105 *)
Definition distance (a b : pt) : R := sqrt (squared_distance a b).
(** point3d.rs:118-120 *)
Definition compare_by (a b : pt) (eps : R) : bool := Rleb (vlen2 (vsub a b)) (eps * eps).
(** point3d.rs:132-134 *)
Definition compare (a b : pt) : bool := compare_by a b (1 / 1000).
(** point3d.rs:139-156 *)
Definition is_collinear (a b c : pt) : res bool :=
  if compare a b && compare a c then Err
  else if compare a b || compare a c || compare b c then Ok true
  else Ok (Rltb (vlen (vcross (vsub b a) (vsub c b))) (1 / 10 ^ 5)).
(** point3d.rs:163-167 *)
Definition distance_to_plane (a p normal : pt) : R := vdot (vsub a p) normal.
(** point3d.rs:170-183 *)
Definition squared_distance_to_line (s a b : pt) : res R :=
  if compare_by a b (1 / 10 ^ 5) then Panic else
  do dir <- vnormalize (vsub b a);
  let a_self := vsub s a in
  let proj := vscale dir (vdot a_self dir) in
  Ok (vlen2 (vsub a_self proj)).
(** point3d.rs:218-221 *)
Definition project_into_plane (a anchor normal : pt) : pt := vsub a (vscale normal (distance_to_plane a anchor normal)).
(** vector3d.rs:110-144 *)
Definition get_perpendicular (a : pt) : res pt :=
  let tiny := 100 * eps64 in
  if Rltb tiny (Rabs (vx a)) then
    let ay := vx a / sqrt (vx a * vx a + vy a * vy a) in
    Ok (mkV (- vy a * ay / vx a) ay 0)
  else if Rltb tiny (Rabs (vy a)) then
    let ax := vy a / sqrt (vx a * vx a + vy a * vy a) in
    Ok (mkV ax (- vx a * ax / vy a) 0)
  else if Rltb tiny (Rabs (vz a)) then
    let ax := vz a / sqrt (vz a * vz a + vx a * vx a) in
    Ok (mkV ax 0 (- vx a * ax / vz a))
  else Err.

(** Real vector algebra *)
Ltac vunfold := unfold vadd, vsub, vscale, vdiv, vdot, vneg, vcross, vlen2, squared_distance in *; cbn [vx vy vz] in *.
Ltac vring := vunfold; first [ring | apply V3_eq; cbn [vx vy vz]; ring].
Lemma vlen2_nonneg a : 0 <= vlen2 a.
Proof. unfold vlen2. nra. Qed.
Lemma vlen_sqr a : vlen a * vlen a = vlen2 a.
Proof. apply sqrt_sqrt, vlen2_nonneg. Qed.
Lemma vlen_nonneg a : 0 <= vlen a.
Proof. apply sqrt_pos. Qed.
Lemma vlen2_zero a : vlen2 a = 0 -> a = mkV 0 0 0.
Proof. intros H. unfold vlen2 in H. apply V3_eq; cbn; nra. Qed.
Lemma lagrange a b : vlen2 (vcross a b) = vlen2 a * vlen2 b - vdot a b * vdot a b.
Proof. vring. Qed.
Lemma vnormalize_unit a u : vnormalize a = Ok u -> vlen2 u = 1 /\ exists k, 0 < k /\ a = vscale u k.
Proof.
  unfold vnormalize. destruct (Rltb_spec (1 / 10 ^ 20) (vlen2 a)) as [H|H]; [|discriminate].
  intros E. injection E as <-. assert (P : 0 < vlen2 a). { eapply Rlt_trans; [|exact H]. apply Rdiv_lt_0_compat; [lra|apply pow_lt; lra]. }
  pose proof (sqrt_lt_R0 _ P) as S. pose proof (sqrt_sqrt (vlen2 a) (Rlt_le _ _ P)) as Q.
  split.
  - unfold vlen2 at 1. cbn [vx vy vz]. set (s := sqrt (vlen2 a)) in *.
    replace (vx a * (1 / s) * (vx a * (1 / s)) + vy a * (1 / s) * (vy a * (1 / s)) + vz a * (1 / s) * (vz a * (1 / s)))
      with (vlen2 a / (s * s)) by (unfold vlen2; field; lra). rewrite Q. field. lra.
  - exists (sqrt (vlen2 a)). split; [exact S|]. apply V3_eq; cbn; field; lra.
Qed.

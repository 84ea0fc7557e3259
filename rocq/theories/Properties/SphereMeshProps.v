(** C102: the triangles that stand for a sphere *)
From Coquelicot Require Import Coquelicot.
From Coq Require Import Reals ZArith List Bool Lra Lia Psatz Permutation.
From Verif.Common Require Import Base Flt.
From Verif.Geometry Require Import Vec TransformModel TriangleModel ShapesModel.
From Verif.Rendering Require Import SphereMeshModel SphereMeshProofs SphereMeshStart.
From Verif.Properties Require Import ShapesProps.
Import ListNotations.
Open Scope R_scope.

Local Ltac v3 := apply V3_eq; cbn [vx vy vz vadd vsub vscale vneg vcross vdiv].

Definition tri_edges (t : Tri) : list (pt * pt) := [(ta t, tb t); (tb t, tc t); (tc t, ta t)].
(** A point of a triangle *)
Definition point_of (t : Tri) (x y z : R) : pt := vadd (vscale (ta t) x) (vadd (vscale (tb t) y) (vscale (tc t) z)).
(** A ray from [c] in the direction of [d] meets the triangle, at a point with these weights *)
Definition meets (c d : pt) (t : Tri) (x y z : R) : Prop := x + y + z = 1 /\ exists k, 0 < k /\ vadd c (vscale d k) = point_of t x y z.

(** ** What the program computes *)
Definition dirs : list corners := urefinements N_REFINEMENTS ustart.
Definition to_tri (t : corners) : Tri := let '(a, b, c) := t in mkTri a b c.
Definition m0 : R := 356 / 1000.
Definition m5 : R := finest N_REFINEMENTS m0.
Lemma finer_mono m m' : 0 <= m -> m <= m' -> m' <= 1 -> finer m <= finer m'.
Proof.
  intros A B C. unfold finer. assert (E : forall x, 0 <= x -> (1 - x) / (2 * (1 + x)) = / (1 + x) - 1 / 2) by (intros; field; lra). rewrite !E by lra.
  pose proof (Rinv_le_contravar (1 + m) (1 + m') ltac:(lra) ltac:(lra)). lra.
Qed.
Lemma finer_at m v : 0 <= m <= 1 -> v * (2 * (1 + m)) <= 2 * (1 + m) - (1 - m) -> v <= finer m.
Proof.
  intros M H. unfold finer. apply (Rmult_le_reg_r (2 * (1 + m))); [lra|]. replace ((1 - (1 - m) / (2 * (1 + m))) * (2 * (1 + m))) with (2 * (1 + m) - (1 - m)) by (field; lra). exact H.
Qed.
Lemma m5_bound : 1 - 1102 / 1000000 <= m5 /\ m5 <= 1.
Proof.
  unfold m5, N_REFINEMENTS. cbn [finest].
  assert (R0 : 0 <= m0 <= 1) by (unfold m0; lra). pose proof (finer_range _ R0) as R1. pose proof (finer_range (finer m0) ltac:(lra)) as R2. pose proof (finer_range (finer (finer m0)) ltac:(lra)) as R3.
  pose proof (finer_range (finer (finer (finer m0))) ltac:(lra)) as R4. pose proof (finer_range (finer (finer (finer (finer m0)))) ltac:(lra)) as R5.
  split; [|lra].
  assert (B1 : 762536 / 1000000 <= finer m0) by (apply finer_at; unfold m0; lra).
  set (x1 := finer m0) in *. clearbody x1.
  assert (B2 : 932634 / 1000000 <= finer x1) by (eapply Rle_trans; [apply (finer_at (762536 / 1000000)); lra|apply finer_mono; lra]). set (x2 := finer x1) in *. clearbody x2.
  assert (B3 : 982571 / 1000000 <= finer x2) by (eapply Rle_trans; [apply (finer_at (932634 / 1000000)); lra|apply finer_mono; lra]). set (x3 := finer x2) in *. clearbody x3.
  assert (B4 : 995604 / 1000000 <= finer x3) by (eapply Rle_trans; [apply (finer_at (982571 / 1000000)); lra|apply finer_mono; lra]). set (x4 := finer x3) in *. clearbody x4.
  eapply Rle_trans; [apply (finer_at (995604 / 1000000)); lra|apply finer_mono; lra].
Qed.
Lemma dirs_fine : Forall (fine m5) dirs /\ length dirs = (20 * 4 ^ 5)%nat.
Proof. destruct (fine_refinements N_REFINEMENTS m0 ustart) as (F & L); [unfold m0; lra|exact start_fine|]. split; [exact F|]. unfold dirs. rewrite L. reflexivity. Qed.
Lemma dirs_closed : closed dirs. Proof. apply closed_refinements, start_closed. Qed.
Lemma dirs_once : covers dirs /\ pairwise apart dirs.
Proof. apply (once_refinements N_REFINEMENTS m0); [unfold m0; lra|exact start_fine|exact start_covers|exact start_apart]. Qed.

Lemma mesh_core s : 13 / 10 ^ 11 <= s_radius s ->
  mesh_sphere s = Ok (map (fun t => to_tri (placet (sphere_centre s) (s_radius s) t)) dirs, dirs).
Proof.
  intros Hr. set (r := s_radius s) in *. set (c := sphere_centre s). assert (P : 0 < r) by lra.
  assert (R2 : 169 / 10 ^ 22 <= r * r) by (assert (13 / 10 ^ 11 * (13 / 10 ^ 11) <= r * r) by (apply Rmult_le_compat; lra); lra).
  unfold mesh_sphere. fold r c. rewrite start_place. rewrite (refinements_place N_REFINEMENTS c r m0); [|unfold m0; lra|unfold m0; lra|exact P|exact start_fine].
  cbn [bind]. fold dirs. rewrite (traverse_map _ _ (fun t => t)).
  2: { eapply Forall_impl; [|exact (proj1 dirs_fine)]. intros ((a & b) & d) (A & B & D & _). cbn [placet vertex_normals].
    assert (N : forall u, vlen2 u = 1 -> vnormalize (vsub (place c r u) c) = Ok u).
    { intros u U. replace (vsub (place c r u) c) with (vscale u r) by (unfold place; v3; ring). unfold vnormalize. rewrite len2_scale, U, Rmult_1_r.
      destruct (Rltb_spec (1 / 10 ^ 20) (r * r)) as [_|]; [|lra]. rewrite sqrt_square by lra. f_equal. v3; field; lra. }
    rewrite !N by assumption. reflexivity. }
  cbn [bind]. rewrite map_id, map_map. reflexivity.
Qed.
Lemma mesh_inv s ts ns : 13 / 10 ^ 11 <= s_radius s -> mesh_sphere s = Ok (ts, ns) ->
  ts = map (fun t => to_tri (placet (sphere_centre s) (s_radius s) t)) dirs /\ ns = dirs.
Proof.
  intros Hr H. rewrite mesh_core in H by exact Hr. split.
  - exact (eq_sym (f_equal (fun x => match x with Ok (a, _) => a | _ => [] end) H)).
  - exact (eq_sym (f_equal (fun x => match x with Ok (_, a) => a | _ => [] end) H)).
Qed.
Lemma in_mesh s t : In t (map (fun t => to_tri (placet (sphere_centre s) (s_radius s) t)) dirs) ->
  exists a b c, In (a, b, c) dirs /\ fine m5 (a, b, c) /\ t = mkTri (place (sphere_centre s) (s_radius s) a) (place (sphere_centre s) (s_radius s) b) (place (sphere_centre s) (s_radius s) c).
Proof.
  intros I. apply in_map_iff in I as (((a & b) & c) & <- & I). exists a, b, c. split; [exact I|]. split; [|reflexivity].
  pose proof (proj1 dirs_fine) as F. rewrite Forall_forall in F. exact (F _ I).
Qed.

(** A sphere that is not tiny is made of 20 * 4^5 triangles.  Their corners are on the sphere, and the normals at the corners are the unit vectors from the centre. *)
Theorem C102_mesh : forall s, 13 / 10 ^ 11 <= s_radius s -> exists ts ns, mesh_sphere s = Ok (ts, ns) /\
  length ts = (20 * 4 ^ 5)%nat /\ length ns = (20 * 4 ^ 5)%nat /\
  forall i t, nth_error ts i = Some t -> exists na nb nc, nth_error ns i = Some (na, nb, nc) /\
    vlen na = 1 /\ vlen nb = 1 /\ vlen nc = 1 /\
    ta t = vadd (sphere_centre s) (vscale na (s_radius s)) /\ tb t = vadd (sphere_centre s) (vscale nb (s_radius s)) /\ tc t = vadd (sphere_centre s) (vscale nc (s_radius s)).
Proof.
  intros s Hr. eexists _, _. split; [apply mesh_core; exact Hr|]. rewrite map_length. split; [apply dirs_fine|]. split; [apply dirs_fine|].
  intros i t H. rewrite nth_error_map in H. destruct (nth_error dirs i) as [((a & b) & c)|] eqn:E; [|discriminate]. injection H as <-. exists a, b, c. split; [reflexivity|].
  pose proof (proj1 dirs_fine) as F. rewrite Forall_forall in F. destruct (F _ (nth_error_In _ _ E)) as (A & B & C & _). unfold vlen. rewrite A, B, C, sqrt_1. repeat split; reflexivity.
Qed.
(** The front of every triangle, from where its corners go round to the left, is the side that does not see the centre. *)
Theorem C102_outward : forall s ts ns t, 13 / 10 ^ 11 <= s_radius s -> mesh_sphere s = Ok (ts, ns) -> In t ts ->
  0 < vdot (vcross (vsub (tb t) (ta t)) (vsub (tc t) (ta t))) (vsub (ta t) (sphere_centre s)).
Proof.
  intros s ts ns t Hr H I. apply mesh_inv in H as (-> & _); [|exact Hr]. apply in_mesh in I as (a & b & c & _ & (_ & _ & _ & _ & _ & _ & D) & ->). cbn [ta tb tc].
  set (r := s_radius s) in *. replace (vdot _ _) with (r * r * r * det a b c).
  - assert (0 < r) by lra. repeat apply Rmult_lt_0_compat; assumption.
  - unfold place, det, vdot, vcross, vsub, vadd, vscale. cbn [vx vy vz]. ring.
Qed.
(** There are no gaps and nothing is folded: every side of a triangle is the side of exactly one other triangle, which has it in the other direction. *)
Theorem C102_closed : forall s ts ns, 13 / 10 ^ 11 <= s_radius s -> mesh_sphere s = Ok (ts, ns) ->
  NoDup (flat_map tri_edges ts) /\ forall p q, In (p, q) (flat_map tri_edges ts) -> In (q, p) (flat_map tri_edges ts).
Proof.
  intros s ts ns Hr H. apply mesh_inv in H as (-> & _); [|exact Hr]. set (r := s_radius s) in *. set (c := sphere_centre s).
  assert (E : flat_map tri_edges (map (fun t => to_tri (placet c r t)) dirs) = map (fun e => (place c r (fst e), place c r (snd e))) (flat_map edges_of dirs)).
  { induction dirs as [|((x & y) & z) l IH]; [reflexivity|]. cbn [map flat_map]. rewrite IH, map_app. reflexivity. }
  rewrite E. pose proof (edges_nodup m5 dirs (proj1 dirs_fine) (proj2 dirs_once)) as N. pose proof dirs_closed as C.
  assert (Inj : forall u v, place c r u = place c r v -> u = v).
  { intros u v Q. assert (r <> 0) by lra. unfold place in Q. injection Q as Q1 Q2 Q3. apply V3_eq; [apply (Rmult_eq_reg_r r)|apply (Rmult_eq_reg_r r)|apply (Rmult_eq_reg_r r)]; lra. }
  split.
  - apply FinFun.Injective_map_NoDup; [|exact N]. intros (p & q) (p' & q') Q. cbn [fst snd] in Q. apply pair_equal_spec in Q as (Q1 & Q2). apply Inj in Q1, Q2. congruence.
  - intros p q I. apply in_map_iff in I as ((u & v) & Q & I). cbn [fst snd] in Q. apply pair_equal_spec in Q as (<- & <-). apply in_map_iff. exists (v, u). split; [reflexivity|].
    apply (Permutation_in _ (Permutation_sym C)). apply in_map_iff. exists (u, v). split; [reflexivity|exact I].
Qed.
(** The mesh goes round the centre once: every ray from the centre meets a triangle, and no ray meets the inside of one triangle and another triangle. *)
Theorem C102_around : forall s ts ns d, 13 / 10 ^ 11 <= s_radius s -> mesh_sphere s = Ok (ts, ns) -> d <> mkV 0 0 0 ->
  (exists t x y z, In t ts /\ 0 <= x /\ 0 <= y /\ 0 <= z /\ meets (sphere_centre s) d t x y z) /\
  (forall i j t t' x y z x' y' z', nth_error ts i = Some t -> nth_error ts j = Some t' -> 0 < x -> 0 < y -> 0 < z -> meets (sphere_centre s) d t x y z ->
    0 <= x' -> 0 <= y' -> 0 <= z' -> meets (sphere_centre s) d t' x' y' z' -> i = j).
Proof.
  intros s ts ns d Hr H Nd. apply mesh_inv in H as (-> & _); [|exact Hr]. set (r := s_radius s) in *. set (c := sphere_centre s). assert (P : 0 < r) by lra.
  destruct dirs_once as (Cv & Ap). split.
  - destruct (Cv d) as (((u & v) & w) & I & (x & y & z & X & Y & Z & E)).
    assert (Sm : 0 < x + y + z).
    { destruct (Rlt_le_dec 0 (x + y + z)) as [|L]; [assumption|]. exfalso. apply Nd. rewrite E. replace x with 0 by lra. replace y with 0 by lra. replace z with 0 by lra. v3; ring. }
    assert (IS : 0 < / (x + y + z)) by (apply Rinv_0_lt_compat; exact Sm).
    exists (to_tri (placet c r (u, v, w))), (x / (x + y + z)), (y / (x + y + z)), (z / (x + y + z)).
    split; [apply in_map_iff; exists (u, v, w); split; [reflexivity|exact I]|]. unfold Rdiv. repeat (split; [apply Rmult_le_pos; lra|]).
    split; [field; lra|]. exists (r / (x + y + z)). split; [apply Rmult_lt_0_compat; assumption|]. rewrite E. unfold point_of, placet, place, to_tri. cbn [ta tb tc]. v3; field; lra.
  - intros i j t t' x y z x' y' z' Ni Nj X Y Z (S1 & k & K & M) X' Y' Z' (S2 & k' & K' & M').
    rewrite nth_error_map in Ni, Nj. destruct (nth_error dirs i) as [((u & v) & w)|] eqn:Ei; [|discriminate]. destruct (nth_error dirs j) as [((u' & v') & w')|] eqn:Ej; [|discriminate].
    injection Ni as <-. injection Nj as <-. cbn [to_tri placet] in M, M'. unfold point_of in M, M'. cbn [ta tb tc] in M, M'.
    destruct (Nat.eq_dec i j) as [|Ne]; [assumption|exfalso]. pose proof (pairwise_nth apart dirs apart_sym Ap i j _ _ Ei Ej Ne) as A. destruct (A d) as (A1 & _). apply A1.
    assert (IK : 0 < / k) by (apply Rinv_0_lt_compat; exact K). assert (IK' : 0 < / k') by (apply Rinv_0_lt_compat; exact K').
    assert (Sc : forall q xx yy zz uu vv ww, 0 < q -> xx + yy + zz = 1 -> vadd c (vscale d q) = vadd (vscale (place c r uu) xx) (vadd (vscale (place c r vv) yy) (vscale (place c r ww) zz)) ->
      d = vadd (vscale uu (r * xx * / q)) (vadd (vscale vv (r * yy * / q)) (vscale ww (r * zz * / q)))).
    { intros q xx yy zz uu vv ww Q S Eq. unfold place in Eq. injection Eq as E1 E2 E3.
      assert (G : forall cc dd a1 a2 a3, cc + dd * q = (cc + a1 * r) * xx + ((cc + a2 * r) * yy + (cc + a3 * r) * zz) -> dd = a1 * (r * xx * / q) + (a2 * (r * yy * / q) + a3 * (r * zz * / q))).
      { intros cc dd a1 a2 a3 H. assert (dd * q = r * (a1 * xx + a2 * yy + a3 * zz)) by (replace zz with (1 - xx - yy) in * by lra; lra).
        apply (Rmult_eq_reg_r q); [|lra]. rewrite H0. field. lra. }
      v3; [apply (G (vx c))|apply (G (vy c))|apply (G (vz c))]; assumption. }
    split.
    + exists (r * x * / k), (r * y * / k), (r * z * / k). repeat (split; [repeat apply Rmult_lt_0_compat; assumption|]). apply Sc; assumption.
    + exists (r * x' * / k'), (r * y' * / k'), (r * z' * / k'). repeat (split; [repeat apply Rmult_le_pos; lra|]). apply Sc; assumption.
Qed.
(** No point of the mesh is outside of the sphere or more than 0.04 % of the radius inside of it. *)
Theorem C102_near : forall s ts ns t x y z, 13 / 10 ^ 11 <= s_radius s -> mesh_sphere s = Ok (ts, ns) -> In t ts -> 0 <= x -> 0 <= y -> 0 <= z -> x + y + z = 1 ->
  9996 / 10000 * s_radius s <= vlen (vsub (point_of t x y z) (sphere_centre s)) <= s_radius s.
Proof.
  intros s ts ns t x y z Hr H I X Y Z S. apply mesh_inv in H as (-> & _); [|exact Hr]. apply in_mesh in I as (a & b & c & _ & (A & B & C & AB & AC & BC & _) & ->).
  set (r := s_radius s) in *. set (o := sphere_centre s). assert (P : 0 < r) by lra. destruct m5_bound as (Bd & _).
  pose proof (dot_le_1 a b A B). pose proof (dot_le_1 a c A C). pose proof (dot_le_1 b c B C).
  set (q := 1 - 2 * (x * y * (1 - vdot a b) + x * z * (1 - vdot a c) + y * z * (1 - vdot b c))).
  assert (E : vlen2 (vsub (point_of (mkTri (place o r a) (place o r b) (place o r c)) x y z) o) = r * r * q).
  { replace (vsub (point_of (mkTri (place o r a) (place o r b) (place o r c)) x y z) o) with (vscale (vadd (vscale a x) (vadd (vscale b y) (vscale c z))) r).
    - rewrite len2_scale. f_equal.
      replace (vlen2 (vadd (vscale a x) (vadd (vscale b y) (vscale c z)))) with (x * x * vlen2 a + y * y * vlen2 b + z * z * vlen2 c + 2 * (x * y * vdot a b + x * z * vdot a c + y * z * vdot b c))
        by (unfold vlen2, vdot, vadd, vscale; cbn; ring).
      rewrite A, B, C. unfold q. replace z with (1 - x - y) by lra. ring.
    - unfold point_of, place. cbn [ta tb tc]. replace z with (1 - x - y) by lra. v3; ring. }
  assert (XY : 0 <= x * y) by (apply Rmult_le_pos; assumption). assert (XZ : 0 <= x * z) by (apply Rmult_le_pos; assumption). assert (YZ : 0 <= y * z) by (apply Rmult_le_pos; assumption).
  assert (Sum : x * y + x * z + y * z <= 1 / 3).
  { pose proof (Rle_0_sqr (x - y)). pose proof (Rle_0_sqr (x - z)). pose proof (Rle_0_sqr (y - z)). unfold Rsqr in *. assert ((x + y + z) * (x + y + z) = 1) by (rewrite S; ring). lra. }
  set (e := 1102 / 1000000) in *.
  assert (Q1 : q <= 1). { unfold q. assert (0 <= x * y * (1 - vdot a b)) by (apply Rmult_le_pos; lra). assert (0 <= x * z * (1 - vdot a c)) by (apply Rmult_le_pos; lra).
    assert (0 <= y * z * (1 - vdot b c)) by (apply Rmult_le_pos; lra). lra. }
  assert (Q0 : 9996 / 10000 * (9996 / 10000) <= q).
  { unfold q. assert (x * y * (1 - vdot a b) <= x * y * e) by (apply Rmult_le_compat_l; lra). assert (x * z * (1 - vdot a c) <= x * z * e) by (apply Rmult_le_compat_l; lra).
    assert (y * z * (1 - vdot b c) <= y * z * e) by (apply Rmult_le_compat_l; lra). unfold e in *. lra. }
  unfold vlen. rewrite E. split.
  - rewrite <- (sqrt_square (9996 / 10000 * r)) by lra. apply sqrt_le_1_alt. replace (9996 / 10000 * r * (9996 / 10000 * r)) with (r * r * (9996 / 10000 * (9996 / 10000))) by ring. apply Rmult_le_compat_l; [nra|exact Q0].
  - replace r with (sqrt (r * r)) at 3 by (apply sqrt_square; lra). apply sqrt_le_1_alt. rewrite <- (Rmult_1_r (r * r)) at 2. apply Rmult_le_compat_l; [nra|exact Q1].
Qed.
(** A sphere of less than 67 mm is invisible: its triangles are so small that no ray meets any of them. *)
Theorem C102_invisible : forall s ts ns t ray, 13 / 10 ^ 11 <= s_radius s <= 67 / 1000 -> mesh_sphere s = Ok (ts, ns) -> In t ts -> vlen (direction ray) = 1 ->
  baricentric_coordinates ray t = None.
Proof.
  intros s ts ns t ray (Hr & Hs) H I U. apply mesh_inv in H as (-> & _); [|exact Hr]. apply in_mesh in I as (a & b & c & _ & (A & B & C & AB & AC & BC & _) & ->).
  set (r := s_radius s) in *. set (o := sphere_centre s). assert (P : 0 < r) by lra. destruct m5_bound as (Bd & _).
  unfold baricentric_coordinates. cbn [ta tb tc].
  assert (E : forall u v, vsub (place o r u) (place o r v) = vscale (vsub u v) r) by (intros; unfold place; v3; ring). rewrite !E.
  set (n := vdot _ _).
  assert (Sz : Rabs n < 1 / 10 ^ 5).
  { assert (D2 : forall u v, vlen2 u = 1 -> vlen2 v = 1 -> vlen2 (vsub u v) = 2 * (1 - vdot u v)).
    { intros u v Hu Hv. replace (2 * (1 - vdot u v)) with (vlen2 u + vlen2 v - 2 * vdot u v) by (rewrite Hu, Hv; ring). unfold vlen2, vdot, vsub. cbn. ring. }
    assert (R2 : r * r <= 4489 / 1000000) by (assert (r * r <= 67 / 1000 * (67 / 1000)) by (apply Rmult_le_compat; lra); lra).
    assert (N2 : n * n <= vlen2 (vscale (vsub b a) r) * (1 * vlen2 (vscale (vsub c a) r))).
    { unfold n. set (e1 := vscale (vsub b a) r). set (e2 := vscale (vsub c a) r).
      assert (U2 : vlen2 (direction ray) = 1) by (rewrite <- vlen_sqr, U; ring).
      pose proof (vlen2_nonneg (vcross e1 (vcross (direction ray) e2))) as L1. rewrite lagrange in L1.
      assert (L2 : vlen2 (vcross (direction ray) e2) <= 1 * vlen2 e2) by (rewrite lagrange, U2; pose proof (Rle_0_sqr (vdot (direction ray) e2)); unfold Rsqr in *; lra).
      pose proof (vlen2_nonneg e1). assert (vlen2 e1 * vlen2 (vcross (direction ray) e2) <= vlen2 e1 * (1 * vlen2 e2)) by (apply Rmult_le_compat_l; lra). lra. }
    rewrite !len2_scale, !D2 in N2 by assumption. rewrite (vdot_comm b a), (vdot_comm c a) in N2.
    pose proof (dot_le_1 a b A B). pose proof (dot_le_1 a c A C).
    assert (K : forall x, 0 <= x <= 1102 / 1000000 -> 0 <= r * r * (2 * x) <= 98938 / 10 ^ 10).
    { intros x Hx. split; [nra|]. assert (r * r * (2 * x) <= 4489 / 1000000 * (2 * (1102 / 1000000))) by (apply Rmult_le_compat; nra). lra. }
    pose proof (K (1 - vdot a b) ltac:(lra)) as K1. pose proof (K (1 - vdot a c) ltac:(lra)) as K2.
    assert (n * n <= 98938 / 10 ^ 10 * (98938 / 10 ^ 10)).
    { eapply Rle_trans; [exact N2|]. apply Rmult_le_compat; lra. }
    apply Rabs_def1; nra. }
  apply Rabs_def2 in Sz as (S1 & S2). rewrite (proj2 (Rltb_true _ _) S1). assert (S3 : - (1 / 10 ^ 5) < n) by lra. rewrite (proj2 (Rltb_true _ _) S3). reflexivity.
Qed.
(** The program panics on spheres that are too small. *)
Theorem C102_tiny : forall s, 0 < s_radius s <= 1 / 10 ^ 10 -> mesh_sphere s = Panic.
Proof.
  intros s (P & Hr). set (r := s_radius s) in *. unfold mesh_sphere. fold r. set (c := sphere_centre s). rewrite start_place. unfold N_REFINEMENTS. cbn [refinements].
  assert (E : refine c r (map (placet c r) ustart) = Panic); [|rewrite E; reflexivity].
  unfold refine. assert (T : traverse (SphereMeshModel.split c r) (map (placet c r) ustart) = Panic); [|rewrite T; reflexivity].
  pose proof start_fine as F. unfold ustart in *. cbn [start map Vt] in *. apply Forall_cons_iff in F as (F & _). destruct F as (A & B & C & AB & _). cbn [map traverse placet SphereMeshModel.split].
  assert (M : midpoint c r (place c r (V 0)) (place c r (V 4)) = Panic); [|rewrite M; reflexivity].
  unfold midpoint. replace (vsub (vdiv (vadd (place c r (V 0)) (place c r (V 4))) 2) c) with (vscale (vadd (V 0) (V 4)) (r / 2)) by (unfold place; v3; field).
  unfold vnormalize. rewrite len2_scale, len_add by assumption. pose proof (dot_le_1 _ _ A B).
  assert (L : r / 2 * (r / 2) * (2 * (1 + vdot (V 0) (V 4))) <= 1 / 10 ^ 20).
  { assert (r * r <= 1 / 10 ^ 10 * (1 / 10 ^ 10)) by (apply Rmult_le_compat; lra). replace (r / 2 * (r / 2) * (2 * (1 + vdot (V 0) (V 4)))) with (r * r * ((1 + vdot (V 0) (V 4)) / 2)) by field.
    assert (0 <= r * r) by nra. assert (r * r * ((1 + vdot (V 0) (V 4)) / 2) <= r * r * 1) by (apply Rmult_le_compat_l; lra). lra. }
  destruct (Rltb_spec (1 / 10 ^ 20) (r / 2 * (r / 2) * (2 * (1 + vdot (V 0) (V 4))))) as [|_]; [lra|]. reflexivity.
Qed.
(** A part of a sphere becomes the whole sphere: a ray from the centre that leaves through the open half meets no part of the half sphere but meets the mesh. *)
Theorem C102_part_refuted : exists s ts ns d t x y z, sphere_new_partial 1 (mkV 0 0 0) 0 1 360 = Ok s /\ mesh_sphere s = Ok (ts, ns) /\
  sphere_simple_intersect s (mkRay (mkV 0 0 0) d) = Miss /\ In t ts /\ 0 <= x /\ 0 <= y /\ 0 <= z /\ meets (mkV 0 0 0) d t x y z.
Proof.
  assert (Z0 : vis_zero (mkV 0 0 0) = true) by (unfold vis_zero; cbn; rewrite !Rabs_R0; assert (0 < eps64) by (unfold eps64; apply Rinv_0_lt_compat; lra); rewrite (proj2 (Rltb_true _ _)) by lra; reflexivity).
  assert (Mk : exists s, sphere_new_partial_transformed 1 0 1 360 None = Ok s).
  { unfold sphere_new_partial_transformed, clamp. assert (0 < eps64) by (unfold eps64; apply Rinv_0_lt_compat; lra).
    rewrite (proj2 (Rltb_false 1 0)) by lra. rewrite (proj2 (Rltb_false 1 (- (1)))) by lra. cbn [bind].
    repeat (match goal with |- context [Rltb ?u ?v] => destruct (Rltb_spec u v); [try lra|try lra]; cbn [bind] end); 
    rewrite ?(proj2 (Rleb_true (- eps64) 360)), ?(proj2 (Rleb_true 360 (360 + eps64))) by lra; cbn [andb negb]; repeat (match goal with |- context [Rltb ?u ?v] => destruct (Rltb_spec u v); [try lra|try lra]; cbn [bind] end);
    eexists; reflexivity. }
  destruct Mk as (s & Ms). pose (d := mkV (3 / 5) 0 (- (4 / 5))).
  assert (Rs : s_radius s = 1 /\ s_transform s = None).
  { revert Ms. unfold sphere_new_partial_transformed. destruct (Rltb 1 0); [discriminate|]. destruct (clamp 0 (-(1)) 1); cbn [bind]; try discriminate. destruct (clamp 1 (- (1)) 1); cbn [bind]; try discriminate.
    destruct (clamp (a / 1) (-1) 1); cbn [bind]; try discriminate. destruct (clamp (a0 / 1) (-1) 1); cbn [bind]; try discriminate. destruct (if Rltb _ _ then _ else _); cbn [bind].
    destruct (negb _); try discriminate. destruct (clamp 360 0 360); cbn [bind]; try discriminate. intros Q. injection Q as <-. split; reflexivity. }
  destruct Rs as (Rs & Ts). assert (Cs : sphere_centre s = mkV 0 0 0) by (unfold sphere_centre; rewrite Ts; reflexivity).
  pose proof (mesh_core s) as M. rewrite Rs in M. specialize (M ltac:(lra)). rewrite <- Rs in M.
  assert (Nd : d <> mkV 0 0 0) by (unfold d; intros Q; injection Q; lra).
  destruct (C102_around s _ _ d ltac:(rewrite Rs; lra) M Nd) as ((t & x & y & z & It & X & Y & Z & Me) & _). rewrite Cs in Me.
  exists s. eexists _, _. exists d, t, x, y, z. split; [unfold sphere_new_partial; rewrite Z0; exact Ms|]. split; [exact M|]. split; [|repeat (split; [assumption|]); exact Me].
  unfold sphere_simple_intersect, world_simple_intersect. rewrite Ts. cbn [world_ray]. set (ray := mkRay (mkV 0 0 0) d).
  assert (Vd : 0 < vlen2 (direction ray)) by (unfold ray, d, vlen2; cbn; lra).
  destruct (sphere_basic_intersection s ray) as [|(p & phi)|] eqn:B; [reflexivity| |]; exfalso.
  - destruct (C99_hit 1 0 1 360 None s ray p phi) as (k & K & Lk & N1 & N2 & _); try lra; try assumption. destruct (near_pole_dec 1 (project ray k)) as [N|N].
    + apply N2 in N as (Q & Zp). rewrite Q in Zp. unfold ray, project, d in Zp. cbn in Zp. lra.
    + apply N1 in N as (Q & _ & Zp & _). rewrite Q in Zp. unfold ray, project, d in Zp. cbn in Zp. lra.
  - apply (C99_tangent 1 0 1 360 None s ray) in B; try lra; try assumption. destruct B as (B & _). unfold vlen, ray in B. cbn [origin] in B. replace (vlen2 (mkV 0 0 0)) with 0 in B by (unfold vlen2; cbn; ring). rewrite sqrt_0 in B. lra.
Qed.
(** A sphere that was scaled becomes a sphere that was not: rays meet the first one where no triangle is. *)
Theorem C102_scaled_refuted : exists s ts ns ray p, sphere_new_partial_transformed 1 (-2) 2 360 (Some (scale 2 2 2)) = Ok s /\ mesh_sphere s = Ok (ts, ns) /\
  sphere_simple_intersect s ray = Hit p /\ vlen (vsub p (sphere_centre s)) = 2 /\
  forall t x y z, In t ts -> 0 <= x -> 0 <= y -> 0 <= z -> x + y + z = 1 -> vlen (vsub (point_of t x y z) (sphere_centre s)) <= 1.
Proof.
  assert (Mk : exists s, sphere_new_partial_transformed 1 (-2) 2 360 (Some (scale 2 2 2)) = Ok s /\ s_radius s = 1 /\ s_transform s = Some (scale 2 2 2)).
  { unfold sphere_new_partial_transformed, clamp. assert (0 < eps64) by (unfold eps64; apply Rinv_0_lt_compat; lra).
    rewrite (proj2 (Rltb_false 2 (-2))) by lra. rewrite (proj2 (Rltb_false 1 (- (1)))) by lra. cbn [bind].
    repeat (match goal with |- context [Rltb ?u ?v] => destruct (Rltb_spec u v); [try lra|try lra]; cbn [bind] end);
    rewrite ?(proj2 (Rleb_true (- eps64) 360)), ?(proj2 (Rleb_true 360 (360 + eps64))) by lra; cbn [andb negb]; repeat (match goal with |- context [Rltb ?u ?v] => destruct (Rltb_spec u v); [try lra|try lra]; cbn [bind] end);
    eexists; (split; [reflexivity|split; reflexivity]). }
  destruct Mk as (s & Ms & Rs & Ts). pose proof (mesh_core s) as M. rewrite Rs in M. specialize (M ltac:(lra)). rewrite <- Rs in M.
  assert (Cs : sphere_centre s = mkV 0 0 0) by (unfold sphere_centre; rewrite Ts; unfold transform_pt, mul4x4point; cbn; v3; field).
  set (ray := mkRay (mkV 0 0 0) (mkV 1 0 0)). exists s. eexists _, _. exists ray, (mkV 2 0 0). split; [exact Ms|]. split; [exact M|].
  assert (Ray : world_ray (Some (scale 2 2 2)) ray = mkRay (mkV 0 0 0) (mkV (1 / 2) 0 0)).
  { cbn [world_ray]. unfold inv_transform_ray, inv_transform_pt, inv_transform_vec, mul4x4point, mul4x4vec, ray. cbn. f_equal; v3; field. }
  split.
  - unfold sphere_simple_intersect, world_simple_intersect. rewrite Ts, Ray. set (ray' := mkRay (mkV 0 0 0) (mkV (1 / 2) 0 0)).
    assert (Vd : 0 < vlen2 (direction ray')) by (unfold ray', vlen2; cbn; lra).
    assert (Lk : forall k, 0 < k -> vlen (project ray' k) = k / 2).
    { intros k K. unfold vlen, vlen2, project, ray', vadd, vscale. cbn. replace (_ + _ + _) with (k / 2 * (k / 2)) by field. apply sqrt_square. lra. }
    assert (Np : forall k, k = 2 -> ~ near_pole 1 (project ray' k)).
    { intros k -> (Q & _). unfold project, ray', vadd, vscale in Q. cbn in Q. rewrite Rabs_right in Q by lra. lra. }
    destruct (sphere_basic_intersection s ray') as [|(p & phi)|] eqn:B.
    + exfalso. apply (Np 2 eq_refl). apply (C99_miss 1 (-2) 2 360 (Some (scale 2 2 2)) s ray'); try lra; try assumption.
      split; [rewrite Lk; lra|]. unfold project, ray', vadd, vscale. cbn. split; [lra|]. exists 0. split; [unfold to_radians; pose proof PI_RGT_0; split; [lra|apply Rmult_le_pos; lra]|].
      rewrite cos_0, sin_0. split; [|ring]. match goal with |- _ = sqrt ?e * 1 => replace e with 1 by field end. rewrite sqrt_1. field.
    + destruct (C99_hit 1 (-2) 2 360 (Some (scale 2 2 2)) s ray' p phi) as (k & K & L1 & N1 & _); try lra; try assumption. rewrite Lk in L1 by exact K. assert (k = 2) by lra. destruct (N1 (Np k H)) as (-> & _). subst k.
      cbn [map_hit fst]. f_equal. unfold transform_pt, mul4x4point, project, ray'. cbn. v3; field.
    + exfalso. apply (C99_tangent 1 (-2) 2 360 (Some (scale 2 2 2)) s ray') in B; try lra; try assumption. destruct B as (B & _). unfold vlen, ray' in B. cbn [origin] in B. replace (vlen2 (mkV 0 0 0)) with 0 in B by (unfold vlen2; cbn; ring). rewrite sqrt_0 in B. lra.
  - split.
    + rewrite Cs. unfold vlen, vlen2, vsub. cbn. replace (_ + _ + _) with (2 * 2) by ring. apply sqrt_square. lra.
    + intros t x y z It X Y Z S. rewrite <- Rs. apply (C102_near s _ _ t x y z ltac:(rewrite Rs; lra) M It X Y Z S).
Qed.
(** A lamp of 5 cm and a globe of 5.21 m (mod.rs:383-386) *)
Example C102_example : exists lamp globe ts ns ts' ns', sphere_new (5 / 100) (mkV 1 6 (-2)) = Ok lamp /\ sphere_new (521 / 100) (mkV 1 6 (-2)) = Ok globe /\
  mesh_sphere lamp = Ok (ts, ns) /\ mesh_sphere globe = Ok (ts', ns') /\ length ts = (20 * 4 ^ 5)%nat /\
  (forall t ray, In t ts -> vlen (direction ray) = 1 -> baricentric_coordinates ray t = None) /\
  exists t' x y z, In t' ts' /\ 0 <= x /\ 0 <= y /\ 0 <= z /\ meets (mkV 1 6 (-2)) (mkV 3 (-4) 5) t' x y z.
Proof.
  assert (Nz : vis_zero (mkV 1 6 (-2)) = false).
  { unfold vis_zero. cbn. rewrite (Rabs_right 1) by lra. rewrite (proj2 (Rltb_false _ _)); [reflexivity|]. unfold eps64. lra. }
  destruct (C99_whole (5 / 100) (mkV 1 6 (-2)) ltac:(lra) (or_intror Nz)) as (lamp & L1 & L2 & _). destruct (C99_whole (521 / 100) (mkV 1 6 (-2)) ltac:(lra) (or_intror Nz)) as (globe & G1 & G2 & _).
  assert (Rd : forall r c s, sphere_new r c = Ok s -> s_radius s = r).
  { intros r c s. unfold sphere_new, sphere_new_partial, sphere_new_partial_transformed. destruct (Rltb (2 * r) (-2 * r)); [discriminate|]. destruct (clamp (-2 * r) _ _); cbn [bind]; try discriminate. destruct (clamp (2 * r) _ _); cbn [bind]; try discriminate.
    destruct (clamp (a / r) (-1) 1); cbn [bind]; try discriminate. destruct (clamp (a0 / r) (-1) 1); cbn [bind]; try discriminate. destruct (if Rltb _ _ then _ else _); cbn [bind].
    destruct (negb _); try discriminate. destruct (clamp 360 0 360); cbn [bind]; try discriminate. intros Q. injection Q as <-. reflexivity. }
  pose proof (Rd _ _ _ L1) as R1. pose proof (Rd _ _ _ G1) as R2.
  destruct (C102_mesh lamp) as (ts & ns & M & Len & _); [rewrite R1; lra|]. destruct (C102_mesh globe) as (ts' & ns' & M' & _); [rewrite R2; lra|].
  exists lamp, globe, ts, ns, ts', ns'. repeat (split; [assumption|]). split.
  - intros t ray It U. apply (C102_invisible lamp ts ns t ray); try assumption. rewrite R1. lra.
  - rewrite <- G2. apply (C102_around globe ts' ns'); [rewrite R2; lra|exact M'|]. intros Q. injection Q. lra.
Qed.

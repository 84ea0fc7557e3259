(** Properties C86 to C91: how materials scatter light (rendering/src/material). *)
From Coquelicot Require Import Coquelicot.
From Coq Require Import List Arith NArith Reals Bool Lra Lia Psatz.
From Verif.Common Require Import Base Flt.
From Verif.Geometry Require Import Vec TriangleModel.
From Verif.Rendering Require Import SamplersModel DaylightModel MaterialModel.
From Verif.Properties Require Import SamplersProps TriangleProps.
Import ListNotations.
Open Scope R_scope.
Open Scope list_scope.

(** ** What the theorems say *)

(** A ray with a direction of length one hits a triangle: the interaction is the one of [Scene::cast_ray]. *)
Definition arrives (d : pt) (i : Interaction) : Prop :=
  vlen d = 1 /\ it_wo i = vscale d (-1) /\ exists t, new_info t (it_point i) d = Ok (it_info i).
(** The factor by which the light is multiplied (ray_tracer.rs:166-167, daylight_coefficients.rs:207-208) *)
Definition factor (i : Interaction) (s : bsample) : spectrum :=
  sdiv (sscale (b_spectrum s) (Rabs (vdot (i_normal (it_info i)) (b_wi s)))) (b_pdf s).
Definition draws01 {G} (gen : G -> R * G) : Prop := forall g, 0 <= fst (gen g) < 1.
Definition channels (P : R -> Prop) (a : spectrum) : Prop := P (red a) /\ P (green a) /\ P (blue a).
Definition normal_of (i : Interaction) : pt := i_normal (it_info i).

(** ** Frames *)
Lemma det_square e1 e2 n : frame e1 e2 n -> (vdot n (vcross e1 e2)) ^ 2 = 1.
Proof.
  intros (A & B & C & D & E & F).
  replace ((vdot n (vcross e1 e2)) ^ 2) with
    (vdot e1 e1 * (vdot e2 e2 * vdot n n - vdot e2 n * vdot e2 n) - vdot e1 e2 * (vdot e1 e2 * vdot n n - vdot e2 n * vdot e1 n)
     + vdot e1 n * (vdot e1 e2 * vdot e2 n - vdot e2 e2 * vdot e1 n)) by (unfold vdot, vcross; cbn; ring).
  rewrite A, B, C, D, E, F. ring.
Qed.
Lemma orthogonal_zero e1 e2 n w : frame e1 e2 n -> vdot w e1 = 0 -> vdot w e2 = 0 -> vdot w n = 0 -> w = mkV 0 0 0.
Proof.
  intros Fr W1 W2 W3. pose proof (det_square _ _ _ Fr) as D. set (dt := vdot n (vcross e1 e2)) in *.
  assert (Nz : dt <> 0) by (intros Z; rewrite Z in D; lra).
  assert (X : dt * vx w = vdot w e1 * vx (vcross e2 n) + vdot w e2 * vx (vcross n e1) + vdot w n * vx (vcross e1 e2)) by (unfold dt, vdot, vcross; cbn; ring).
  assert (Y : dt * vy w = vdot w e1 * vy (vcross e2 n) + vdot w e2 * vy (vcross n e1) + vdot w n * vy (vcross e1 e2)) by (unfold dt, vdot, vcross; cbn; ring).
  assert (Z : dt * vz w = vdot w e1 * vz (vcross e2 n) + vdot w e2 * vz (vcross n e1) + vdot w n * vz (vcross e1 e2)) by (unfold dt, vdot, vcross; cbn; ring).
  rewrite W1, W2, W3, !Rmult_0_l, !Rplus_0_l in X, Y, Z. clearbody dt.
  destruct w as [x y z]. cbn in *. f_equal; [destruct (Rmult_integral _ _ X)|destruct (Rmult_integral _ _ Y)|destruct (Rmult_integral _ _ Z)]; tauto.
Qed.
Lemma vdot_comm a b : vdot a b = vdot b a. Proof. unfold vdot. ring. Qed.
Lemma to_world_dot e1 e2 n v : frame e1 e2 n ->
  vdot (to_world n e1 e2 v) e1 = vx v /\ vdot (to_world n e1 e2 v) e2 = vy v /\ vdot (to_world n e1 e2 v) n = vz v.
Proof.
  intros (A & B & C & D & E & F). unfold to_world.
  assert (L : forall u, vdot (vadd (vadd (vscale e1 (vx v)) (vscale e2 (vy v))) (vscale n (vz v))) u = vx v * vdot e1 u + vy v * vdot e2 u + vz v * vdot n u)
    by (intros; unfold vdot, vadd, vscale; cbn; ring).
  rewrite !L, (vdot_comm e2 e1), (vdot_comm n e1), (vdot_comm n e2), A, B, C, D, E, F. repeat split; ring.
Qed.
Lemma to_world_len e1 e2 n v : frame e1 e2 n -> vlen2 (to_world n e1 e2 v) = vlen2 v.
Proof.
  intros Fr. replace (to_world n e1 e2 v) with (local_to_world e1 e2 n (mkV 0 0 0) (vx v) (vy v) (vz v)) by (unfold to_world, local_to_world; vring).
  rewrite local_length by exact Fr. unfold vlen2. ring.
Qed.
Lemma to_world_local e1 e2 n d : frame e1 e2 n -> to_world n e1 e2 (to_local n e1 e2 d) = d.
Proof.
  intros Fr. destruct (to_world_dot e1 e2 n (to_local n e1 e2 d) Fr) as (X & Y & Z). cbn [to_local vx vy vz] in X, Y, Z.
  set (w := to_world n e1 e2 (to_local n e1 e2 d)) in *. clearbody w.
  assert (Q : vsub w d = mkV 0 0 0).
  { apply (orthogonal_zero e1 e2 n _ Fr).
    - replace (vdot (vsub w d) e1) with (vdot w e1 - vdot d e1) by vring. lra.
    - replace (vdot (vsub w d) e2) with (vdot w e2 - vdot d e2) by vring. lra.
    - replace (vdot (vsub w d) n) with (vdot w n - vdot d n) by vring. lra. }
  destruct w as [a b c], d as [x y z]. unfold vsub in Q. cbn in Q. injection Q as A B C. f_equal; lra.
Qed.
Lemma arrives_frame d i : arrives d i -> frame (i_dpdu (it_info i)) (i_dpdv (it_info i)) (normal_of i) /\ vdot d (normal_of i) < 0 /\ vlen2 d = 1.
Proof.
  intros (L & _ & t & E). destruct (C62_frame _ _ _ _ E) as (_ & A & B & C & D1 & D2 & D3 & _ & _ & F & _).
  unfold normal_of. split; [unfold frame; repeat split; assumption|]. split; [rewrite vdot_comm; exact F|].
  rewrite <- vlen_sqr, L. ring.
Qed.
Definition local_of (d : pt) (i : Interaction) : pt := to_local (normal_of i) (i_dpdu (it_info i)) (i_dpdv (it_info i)) d.
Definition world_of (i : Interaction) (v : pt) : pt := to_world (normal_of i) (i_dpdu (it_info i)) (i_dpdv (it_info i)) v.
Lemma local_facts d i : arrives d i -> vz (local_of d i) = vdot d (normal_of i) /\ vz (local_of d i) < 0 /\ vlen2 (local_of d i) = 1 /\ world_of i (local_of d i) = d.
Proof.
  intros H. destruct (arrives_frame _ _ H) as (Fr & N & L). split; [reflexivity|]. split; [exact N|].
  assert (E : world_of i (local_of d i) = d) by (apply to_world_local; exact Fr). split; [|exact E].
  rewrite <- E in L. unfold world_of in L. rewrite to_world_len in L by exact Fr. exact L.
Qed.
Lemma world_facts d i v : arrives d i -> vdot (normal_of i) (world_of i v) = vz v /\ vlen2 (world_of i v) = vlen2 v.
Proof.
  intros H. destruct (arrives_frame _ _ H) as (Fr & _). split; [|apply to_world_len; exact Fr].
  rewrite vdot_comm. apply to_world_dot. exact Fr.
Qed.
(** the part of a direction along the surface *)
Definition tangent (n v : pt) : pt := vsub v (vscale n (vdot v n)).
Lemma world_tangent d i v : arrives d i -> tangent (normal_of i) (world_of i v) = world_of i (mkV (vx v) (vy v) 0).
Proof.
  intros H. unfold tangent. rewrite (vdot_comm (world_of i v)), (proj1 (world_facts d i v H)). unfold world_of, to_world. vring.
Qed.

(** ** C88: Fresnel's equations and the law of refraction *)
Lemma quotient_square a b : 0 < a -> 0 < b -> 0 <= ((a - b) / (a + b)) * ((a - b) / (a + b)) < 1.
Proof.
  intros A B. set (q := (a - b) / (a + b)). assert (E : q * (a + b) = a - b) by (unfold q; field; lra).
  assert (q < 1). { apply (Rmult_lt_reg_r (a + b)); lra. } assert (-1 < q). { apply (Rmult_lt_reg_r (a + b)); lra. } nra.
Qed.
Lemma tm_swap n1 cos1 n2 cos2 : 0 < n1 -> 0 < n2 -> 0 < cos1 -> 0 < cos2 -> fresnel_tm n1 cos1 n2 cos2 = (n1 * cos2 - n2 * cos1) / (n1 * cos2 + n2 * cos1).
Proof. intros. unfold fresnel_tm. field. assert (0 < n1 * cos2 + n2 * cos1) by (apply Rplus_lt_0_compat; apply Rmult_lt_0_compat; assumption). repeat split; lra. Qed.

(** The reflectance is Fresnel's; it is a share of the light; it does not depend on the direction in which the light crosses; without a
    change of index nothing is reflected, and at perpendicular incidence it is the square of the relative difference. *)
Theorem C88_reflectance : forall n1 cos1 n2 cos2, 0 < n1 -> 0 < n2 -> 0 < cos1 -> 0 < cos2 ->
  fresnel_reflectance n1 cos1 n2 cos2 =
    (((n1 * cos1 - n2 * cos2) / (n1 * cos1 + n2 * cos2)) ^ 2 + ((n1 * cos2 - n2 * cos1) / (n1 * cos2 + n2 * cos1)) ^ 2) / 2 /\
  0 <= fresnel_reflectance n1 cos1 n2 cos2 < 1 /\
  fresnel_reflectance n1 cos1 n2 cos2 = fresnel_reflectance n2 cos2 n1 cos1 /\
  (n1 = n2 -> cos1 = cos2 -> fresnel_reflectance n1 cos1 n2 cos2 = 0) /\
  (cos1 = 1 -> cos2 = 1 -> fresnel_reflectance n1 cos1 n2 cos2 = ((n1 - n2) / (n1 + n2)) ^ 2).
Proof.
  intros n1 cos1 n2 cos2 A B C D.
  assert (Pos : forall a b, 0 < a -> 0 < b -> 0 < a * b) by (intros; apply Rmult_lt_0_compat; assumption).
  assert (E : forall a c b e, 0 < a -> 0 < b -> 0 < c -> 0 < e -> fresnel_reflectance a c b e = (((a * c - b * e) / (a * c + b * e)) ^ 2 + ((a * e - b * c) / (a * e + b * c)) ^ 2) / 2).
  { intros a c b e Ha Hb Hc He. unfold fresnel_reflectance. rewrite tm_swap by assumption. unfold fresnel_te. unfold Rdiv. ring. }
  split; [apply E; assumption|]. split; [|split; [|split]].
  - rewrite E by assumption.
    pose proof (quotient_square (n1 * cos1) (n2 * cos2) ltac:(auto) ltac:(auto)). pose proof (quotient_square (n1 * cos2) (n2 * cos1) ltac:(auto) ltac:(auto)). lra.
  - rewrite !E by assumption.
    assert (0 < n1 * cos1 + n2 * cos2) by (apply Rplus_lt_0_compat; auto). assert (0 < n1 * cos2 + n2 * cos1) by (apply Rplus_lt_0_compat; auto).
    field. lra.
  - intros <- <-. rewrite E by assumption. unfold Rdiv. rewrite !Rminus_diag_eq by reflexivity. ring.
  - intros -> ->. rewrite E by lra. rewrite !Rmult_1_r. field. lra.
Qed.

Lemma cos_sq_le w : vlen2 w = 1 -> vz w * vz w <= 1.
Proof. unfold vlen2. nra. Qed.

(** The refracted ray: the sines follow the law of refraction; there is no refracted ray just when the sine would exceed one; its
    direction has length one, lies on the other side and in the plane of incidence. *)
Theorem C88_refraction : forall d n1 index, vlen2 d = 1 -> vz d < 0 -> 0 < n1 -> 0 < index ->
  exists n2, (n2 = if Rltb (Rabs (n1 - index)) (1 / 10 ^ 7) then 1 else index) /\
  ((n2 * n2 < n1 * n1 * (1 - vz d * vz d) /\ cos_and_n d n1 (mkV 0 0 1) index = (n1, - vz d, n2, None)) \/
   exists cos2, n1 * n1 * (1 - vz d * vz d) = n2 * n2 * (1 - cos2 * cos2) /\ 0 <= cos2 /\
     (n1 * n1 * (1 - vz d * vz d) < n2 * n2 -> 0 < cos2) /\
     cos_and_n d n1 (mkV 0 0 1) index = (n1, - vz d, n2, Some cos2) /\
     let t := fresnel_transmission_dir d (mkV 0 0 1) n1 (- vz d) n2 cos2 in
     vlen2 t = 1 /\ vz t = - cos2 /\ vx t = n1 / n2 * vx d /\ vy t = n1 / n2 * vy d).
Proof.
  intros d n1 index L Z N1 N. eexists. split; [reflexivity|]. set (n2 := if Rltb (Rabs (n1 - index)) (1 / 10 ^ 7) then 1 else index).
  assert (N2 : 0 < n2) by (unfold n2; destruct (Rltb _ _); lra).
  assert (C1 : Rabs (vdot d (mkV 0 0 1)) = - vz d). { unfold vdot. cbn [vx vy vz]. rewrite Rabs_left by lra. ring. }
  pose proof (cos_sq_le d L) as Sq.
  assert (P2 : 0 < n2 * n2) by (apply Rmult_lt_0_compat; assumption).
  unfold cos_and_n. fold n2. rewrite C1. rewrite Rmax_left by nra.
  replace (1 - - vz d * - vz d) with (1 - vz d * vz d) by ring.
  set (q := n1 * n1 * (1 - vz d * vz d) / (n2 * n2)). assert (Eq : q * (n2 * n2) = n1 * n1 * (1 - vz d * vz d)) by (unfold q; field; lra).
  destruct (Rltb_spec 1 q) as [H|H].
  - left. split; [|reflexivity]. rewrite <- Eq. nra.
  - right. apply Rnot_lt_le in H. exists (sqrt (1 - q)). pose proof (sqrt_sqrt (1 - q) ltac:(lra)) as Q. rewrite Q.
    split; [rewrite <- Eq; ring|]. split; [apply sqrt_pos|]. split. { intros Hs. apply sqrt_lt_R0. rewrite <- Eq in Hs. nra. }
    split; [reflexivity|]. cbv zeta. set (c2 := sqrt (1 - q)) in *. clearbody c2.
    unfold fresnel_transmission_dir, vadd, vscale. cbn [vx vy vz].
    assert (Sx : vx d * vx d + vy d * vy d = 1 - vz d * vz d) by (unfold vlen2 in L; lra).
    assert (R2 : n1 / n2 * (n1 / n2) * (1 - vz d * vz d) = q) by (unfold q; field; lra).
    split; [|split; [ring|split; ring]]. unfold vlen2. cbn [vx vy vz].
    replace ((vx d * (n1 / n2) + 0 * (n1 / n2 * - vz d - c2)) * (vx d * (n1 / n2) + 0 * (n1 / n2 * - vz d - c2)) +
      (vy d * (n1 / n2) + 0 * (n1 / n2 * - vz d - c2)) * (vy d * (n1 / n2) + 0 * (n1 / n2 * - vz d - c2)) +
      (vz d * (n1 / n2) + 1 * (n1 / n2 * - vz d - c2)) * (vz d * (n1 / n2) + 1 * (n1 / n2 * - vz d - c2)))
      with (n1 / n2 * (n1 / n2) * (vx d * vx d + vy d * vy d) + c2 * c2) by ring.
    rewrite Sx, R2, Q. ring.
Qed.

(** ** Samples of the single materials, in local coordinates *)
Lemma gen2_random {G} (gen : G -> R * G) g : draws01 gen -> random (fst (gen2 gen g)).
Proof.
  intros D. unfold gen2. pose proof (D g) as A. destruct (gen g) as [a g1]. pose proof (D g1) as B. destruct (gen g1) as [b g2]. split; assumption.
Qed.
Lemma vlen_of v : vlen2 v = 1 -> vlen v = 1.
Proof. intros H. unfold vlen. rewrite H. apply sqrt_1. Qed.
Lemma new_diffuse_facts f u : random u -> let s := new_diffuse f u in
  b_spectrum s = sdiv f PI /\ vlen2 (b_wi s) = 1 /\ 0 < vz (b_wi s) /\ b_pdf s = vz (b_wi s) / PI /\ b_flags s = DiffuseReflection.
Proof.
  intros U. destruct (C42_cosine_hemisphere u U) as (L & Z). unfold new_diffuse. rewrite (proj2 (Rltb_false _ _)) by lra.
  cbn [b_spectrum b_wi b_pdf b_flags]. split; [reflexivity|]. split; [rewrite <- vlen_sqr, L; ring|]. split; [exact Z|].
  split; [|reflexivity]. unfold abs_cos_theta. rewrite Rabs_right by lra. reflexivity.
Qed.

Lemma ward_try_facts alpha beta wo xi v : ward_try alpha beta wo xi = Ok v ->
  vlen2 v = 1 /\ exists k, 0 < k /\ - vx wo = k * vx v /\ - vy wo = k * vy v.
Proof.
  destruct xi as [x1 x2]. unfold ward_try. cbv zeta. intros E. apply vnormalize_unit in E as (U & k & K & E). split; [exact U|].
  exists k. destruct v as [a b c]. unfold vscale in E. cbn [vx vy vz] in *. injection E as E1 E2 E3. repeat split; lra.
Qed.
Lemma evaluate_ward_facts specularity alpha beta wo wi spec dif : evaluate_ward specularity alpha beta wo wi = Ok (spec, dif) -> spec <> 0 ->
  0 < vz wo * vz wi /\ 1 / 10 ^ 5 < specularity /\ (vz wo < 0 -> 0 < spec) /\ dif = (1 - specularity) / PI.
Proof.
  unfold evaluate_ward, same_hemisphere. destruct (Rltb_spec 0 (vz wo * vz wi)) as [H|H]; cbn [negb]; [|intros E; injection E as <- <-; tauto].
  destruct (Rltb_spec (1 / 10 ^ 5) specularity) as [Sp|Sp]; cbn [bind].
  - destruct (vnormalize (vadd wo wi)) as [h| |] eqn:Eh; cbn [bind]; try discriminate. intros E. injection E as <- <-. intros Nz.
    split; [exact H|]. split; [exact Sp|]. split; [|reflexivity]. intros Zo. apply vnormalize_unit in Eh as (U & k & K & Eh).
    assert (Zi : vz wi < 0) by nra. assert (Zh : vz h <> 0). { intros Z. apply (f_equal vz) in Eh. cbn in Eh. rewrite Z in Eh. lra. }
    apply Rdiv_lt_0_compat; [|apply Rabs_pos_lt; lra]. apply Rmult_lt_0_compat; [|apply exp_pos].
    assert (P4 : 0 < vz h ^ 4) by (replace (vz h ^ 4) with ((vz h * vz h) * (vz h * vz h)) by ring; assert (0 < vz h * vz h) by nra; nra).
    assert (M : forall x, 0 < Rmax x LOW_ROUGHNESS). { intros x. eapply Rlt_le_trans; [|apply Rmax_r]. unfold LOW_ROUGHNESS. lra. }
    apply Rdiv_lt_0_compat.
    + apply Rmult_lt_0_compat; [lra|]. change (vdot h h) with (vlen2 h). lra.
    + exact (Rmult_lt_0_compat _ _ (Rmult_lt_0_compat _ _ (Rmult_lt_0_compat _ _ PI_RGT_0 (M alpha)) (M beta)) P4).
  - intros E. injection E as <- <-. intros Nz. exfalso. apply Nz. unfold Rdiv. ring.
Qed.

(** a highlight: a direction in the plane of incidence, and the weight that goes with it *)
Definition highlight (wo : pt) (s : bsample) : Prop :=
  b_flags s = GlossyReflection /\ vlen2 (b_wi s) = 1 /\ 0 < vz (b_wi s) /\ 0 < b_pdf s /\
  (exists k, 0 < k /\ vx wo = k * vx (b_wi s) /\ vy wo = k * vy (b_wi s)) /\
  exists r, r * - vz wo = vz (b_wi s) /\ sdiv (sscale (b_spectrum s) (vz (b_wi s))) (b_pdf s) = gray (2 * r / (1 + r)).
Lemma ward_loop_facts {G} (gen : G -> R * G) specularity alpha beta wo s g' : vz wo < 0 -> forall fuel attempts g,
  ward_loop gen fuel attempts specularity alpha beta wo g = Ok (Some (s, g')) -> highlight wo s /\ 1 / 10 ^ 5 < specularity.
Proof.
  intros Z. induction fuel as [|fuel IH]; intros attempts g; [discriminate|]. cbn [ward_loop].
  destruct (gen2 gen g) as [xi g1]. destruct (ward_try alpha beta wo xi) as [v| |] eqn:Ev; cbn [bind]; try discriminate.
  rewrite (proj2 (Rltb_true (vz wo) 0)) by exact Z. rewrite orb_true_r.
  destruct (evaluate_ward specularity alpha beta wo v) as [[spec dif]| |] eqn:Es; cbn [bind]; try discriminate.
  destruct (Rltb_spec (1 / 2 * (1 + vz v / vz wo) * spec) (1 / 10 ^ 8)) as [Hp|Hp]; cbn [andb].
  - destruct (Rltb_spec spec (1 / 10 ^ 8)) as [Hs|Hs]; [apply IH|].
    (* the density is then not small either *)
    assert (Ns : spec <> 0) by lra. destruct (evaluate_ward_facts _ _ _ _ _ _ _ Es Ns) as (SH & Sp & Ps & _). specialize (Ps Z).
    destruct (ward_try_facts _ _ _ _ _ Ev) as (U & k & K & Kx & Ky). assert (Zv : vz v < 0) by nra.
    intros E. injection E as <- <-. split; [|exact Sp]. unfold highlight. cbn [b_flags b_wi b_pdf b_spectrum].
    set (r := vz v / vz wo). assert (Er : r * vz wo = vz v) by (unfold r; field; lra). assert (Pr : 0 < r) by nra.
    split; [reflexivity|]. split; [unfold vlen2, vneg in *; cbn; lra|]. split; [cbn; lra|]. split; [apply Rmult_lt_0_compat; lra|].
    split; [exists k; unfold vneg; cbn; repeat split; lra|]. exists r. split; [unfold vneg; cbn; lra|].
    rewrite (Rabs_left (vz wo)) by exact Z. unfold vneg, sdiv, sscale, gray. cbn [vz red green blue].
    f_equal; rewrite <- Er; field; lra.
  - assert (Ns : spec <> 0). { intros ->. rewrite Rmult_0_r in Hp. apply Hp. lra. }
    destruct (evaluate_ward_facts _ _ _ _ _ _ _ Es Ns) as (SH & Sp & Ps & _). specialize (Ps Z).
    destruct (ward_try_facts _ _ _ _ _ Ev) as (U & k & K & Kx & Ky). assert (Zv : vz v < 0) by nra.
    intros E. injection E as <- <-. split; [|exact Sp]. unfold highlight. cbn [b_flags b_wi b_pdf b_spectrum].
    set (r := vz v / vz wo). assert (Er : r * vz wo = vz v) by (unfold r; field; lra). assert (Pr : 0 < r) by nra.
    split; [reflexivity|]. split; [unfold vlen2, vneg in *; cbn; lra|]. split; [cbn; lra|]. split; [apply Rmult_lt_0_compat; lra|].
    split; [exists k; unfold vneg; cbn; repeat split; lra|]. exists r. split; [unfold vneg; cbn; lra|].
    rewrite (Rabs_left (vz wo)) by exact Z. unfold vneg, sdiv, sscale, gray. cbn [vz red green blue].
    f_equal; rewrite <- Er; field; lra.
Qed.
(** diffusely scattered light *)
Definition scattered (s : bsample) (f : spectrum) : Prop :=
  b_flags s = DiffuseReflection /\ vlen2 (b_wi s) = 1 /\ 0 < vz (b_wi s) /\ 0 < b_pdf s /\ sdiv (sscale (b_spectrum s) (vz (b_wi s))) (b_pdf s) = f.
Lemma sample_ward_facts {G} (gen : G -> R * G) fuel specularity alpha beta wo s g g' : draws01 gen -> vz wo < 0 ->
  sample_ward gen fuel specularity alpha beta wo g = Ok (Some (s, g')) ->
  (fst (gen g) < specularity /\ highlight wo s /\ 1 / 10 ^ 5 < specularity) \/ (specularity <= fst (gen g) /\ scattered s ONE).
Proof.
  intros D Z. unfold sample_ward. pose proof (D g) as D0. destruct (gen g) as [p g1]. cbn [fst] in *.
  destruct (Rltb_spec p specularity) as [H|H]; intros E.
  - left. split; [exact H|]. exact (ward_loop_facts _ _ _ _ _ _ _ Z _ _ _ E).
  - right. split; [lra|]. pose proof (gen2_random gen g1 D) as U. destruct (gen2 gen g1) as [u g2]. cbn [fst] in U.
    destruct (new_diffuse_facts (gray (1 - specularity)) u U) as (S1 & S2 & S3 & S4 & S5).
    set (q := new_diffuse (gray (1 - specularity)) u) in *. clearbody q.
    injection E as <- <-. unfold scattered. cbn [b_flags b_wi b_pdf b_spectrum]. split; [exact S5|]. split; [exact S2|]. split; [exact S3|].
    rewrite S1, S4. pose proof PI_RGT_0. split; [apply Rmult_lt_0_compat; [apply Rdiv_lt_0_compat; lra|lra]|].
    unfold sdiv, sscale, gray, ONE, gray. cbn [red green blue]. f_equal; field; repeat split; lra.
Qed.

(** glass: the shares of the two polarisations *)
Lemma glass_fresnel n w : 1 < n -> vlen2 w = 1 -> vz w < 0 ->
  let cos1 := - vz w in let cos2 := transmitted_cos n w in
  0 < cos2 /\ n * n * (1 - cos2 * cos2) = 1 - cos1 * cos1 /\ cos1 < n * cos2 /\ cos2 <= 1.
Proof.
  intros N L Z cos1 cos2. pose proof (cos_sq_le w L) as Sq.
  assert (E : (1 - 1 / n ^ 2) + (Rabs (vz w) / n) ^ 2 = (n * n - 1 + cos1 * cos1) / (n * n)).
  { rewrite Rabs_left by lra. unfold cos1. field. lra. }
  assert (P : 0 < (n * n - 1 + cos1 * cos1) / (n * n)) by (apply Rdiv_lt_0_compat; nra).
  assert (C : cos2 = sqrt ((n * n - 1 + cos1 * cos1) / (n * n))) by (unfold cos2, transmitted_cos; rewrite E; reflexivity).
  assert (C0 : 0 < cos2) by (rewrite C; apply sqrt_lt_R0; exact P).
  assert (Q : cos2 * cos2 = (n * n - 1 + cos1 * cos1) / (n * n)) by (rewrite C; apply sqrt_sqrt; lra).
  assert (Q' : n * n * (cos2 * cos2) = n * n - 1 + cos1 * cos1) by (rewrite Q; field; lra).
  split; [exact C0|]. split; [lra|]. assert (0 < cos1) by (unfold cos1; lra).
  split; [apply Rnot_le_lt; intros Le; assert (n * cos2 * (n * cos2) <= cos1 * cos1) by (assert (0 < n * cos2) by nra; nra); nra|].
  apply Rnot_lt_le. intros Gt. assert (cos1 * cos1 <= 1) by (unfold cos1; nra). assert (1 < cos2 * cos2) by nra. assert (n * n * 1 < n * n * (cos2 * cos2)) by (apply Rmult_lt_compat_l; nra). lra.
Qed.

(** one channel of a pane: what comes back and what goes through, for the shares [f] of a polarisation reflected at each face *)
Definition pane_refl (f c : R) : R := f * (1 + (1 - 2 * f) * c ^ 2) / (1 - f ^ 2 * c ^ 2).
Definition pane_trans (f c : R) : R := c * ((1 - f) ^ 2 / (1 - (c * f) ^ 2)).
Lemma pane_facts f c : 0 <= f < 1 -> 0 <= c <= 1 ->
  0 < 1 - f ^ 2 * c ^ 2 /\ 0 <= pane_refl f c /\ (0 < f -> 0 < pane_refl f c) /\ 0 <= pane_trans f c /\ (0 < c -> 0 < pane_trans f c) /\
  1 - (pane_refl f c + pane_trans f c) = (1 - f) * (1 - c) / (1 - f * c).
Proof.
  intros F C. assert (Fc : 0 <= f * c < 1) by nra.
  assert (D : 0 < 1 - f ^ 2 * c ^ 2) by nra. split; [exact D|]. pose proof (Rinv_0_lt_compat _ D) as D'.
  assert (C2 : 0 <= c ^ 2 <= 1) by nra. assert (N : 0 < 1 + (1 - 2 * f) * c ^ 2) by nra.
  assert (T : pane_trans f c = c * ((1 - f) ^ 2 / (1 - f ^ 2 * c ^ 2))) by (unfold pane_trans; f_equal; f_equal; ring).
  assert (P2 : 0 < (1 - f) ^ 2) by (assert (0 < 1 - f) by lra; nra).
  split; [unfold pane_refl, Rdiv; apply Rmult_le_pos; [apply Rmult_le_pos; lra|lra]|].
  split; [intros F0; unfold pane_refl, Rdiv; apply Rmult_lt_0_compat; [apply Rmult_lt_0_compat; lra|lra]|].
  split; [rewrite T; apply Rmult_le_pos; [lra|left; apply Rdiv_lt_0_compat; lra]|].
  split; [intros C0; rewrite T; apply Rmult_lt_0_compat; [lra|apply Rdiv_lt_0_compat; lra]|].
  rewrite T. unfold pane_refl. assert (1 - f * c <> 0) by lra. field. split; lra.
Qed.
(** ... they are the sums of all the reflections within the pane *)
Lemma pane_series f c : 0 <= f < 1 -> 0 <= c <= 1 ->
  is_series (fun k => (1 - f) * (c * (f * c) ^ (2 * k)) * (1 - f)) (pane_trans f c) /\
  is_series (fun k => match k with O => f | S k => (1 - f) * (c * (f * c) ^ (2 * k + 1)) * (1 - f) end) (pane_refl f c).
Proof.
  intros F C. destruct (pane_facts f c F C) as (D & _). assert (Fc : 0 <= f * c < 1) by nra.
  assert (Q : Rabs ((f * c) ^ 2) < 1) by (rewrite Rabs_right by nra; nra).
  assert (Gm : is_series (fun k => ((f * c) ^ 2) ^ k) (/ (1 - (f * c) ^ 2))) by (apply is_series_geom; exact Q).
  assert (D2 : 1 - (f * c) ^ 2 <> 0) by (replace ((f * c) ^ 2) with (f ^ 2 * c ^ 2) by ring; lra).
  split.
  - apply is_series_ext with (fun k => scal (c * (1 - f) ^ 2) (((f * c) ^ 2) ^ k)).
    { intros k. rewrite pow_mult. unfold scal. cbn. unfold mult. cbn. ring. }
    replace (pane_trans f c) with (scal (c * (1 - f) ^ 2) (/ (1 - (f * c) ^ 2))).
    { exact (is_series_scal (K := R_AbsRing) (V := R_NormedModule) _ _ _ Gm). }
    unfold pane_trans, scal. cbn. unfold mult. cbn. rewrite (Rmult_comm c f). field. intros Z. apply D2. rewrite <- Z. ring.
  - apply is_series_decr_1. apply is_series_ext with (fun k => scal (f * c ^ 2 * (1 - f) ^ 2) (((f * c) ^ 2) ^ k)).
    { intros k. rewrite pow_add, pow_mult. unfold scal. cbn. unfold mult. cbn. ring. }
    match goal with |- is_series _ ?l => replace l with (scal (f * c ^ 2 * (1 - f) ^ 2) (/ (1 - (f * c) ^ 2)) : R) end.
    { exact (is_series_scal (K := R_AbsRing) (V := R_NormedModule) _ _ _ Gm). }
    unfold pane_refl, scal, plus, opp. cbn. unfold mult. cbn. field. intros Z; apply D2; rewrite <- Z; ring.
Qed.
Lemma glass_trans_pane f t c : glass_trans f t c = (pane_trans f c + pane_trans t c) / 2.
Proof. unfold glass_trans, pane_trans, Rdiv. ring. Qed.
Lemma glass_refl_pane f t c : glass_refl f t c = (pane_refl f c + pane_refl t c) / 2.
Proof. unfold glass_refl, pane_refl, Rdiv. ring. Qed.
Lemma smax_spec a : red a <= smax a /\ green a <= smax a /\ blue a <= smax a.
Proof. unfold smax. destruct (Rltb_spec (red a) (green a)); [destruct (Rltb_spec (green a) (blue a))|destruct (Rltb_spec (red a) (blue a))]; lra. Qed.
Lemma min_colour_pos : 0 < MIN_COLOUR < 1. Proof. unfold MIN_COLOUR. lra. Qed.
Lemma rpower_unit a e : 0 < a <= 1 -> 0 <= e -> 0 < Rpower a e <= 1.
Proof.
  intros A E. split; [apply exp_pos|]. unfold Rpower. rewrite <- exp_0. destruct (Req_dec (e * ln a) 0) as [Z|Z]; [rewrite Z; lra|].
  left. apply exp_increasing. assert (ln a <= 0). { rewrite <- ln_1. destruct (Req_dec a 1) as [->|]; [lra|]. left. apply ln_increasing; lra. }
  assert (e * ln a <= 0) by nra. lra.
Qed.
Lemma squared_fresnel n w : 1 < n -> vlen2 w = 1 -> vz w < 0 -> let c1 := Rabs (vz w) in let c2 := transmitted_cos n w in
  0 < ((c1 - n * c2) / (c1 + n * c2)) * ((c1 - n * c2) / (c1 + n * c2)) < 1 /\
  0 <= ((1 / c1 - n / c2) / (1 / c1 + n / c2)) * ((1 / c1 - n / c2) / (1 / c1 + n / c2)) < 1 /\
  ((1 / c1 - n / c2) / (1 / c1 + n / c2)) * ((1 / c1 - n / c2) / (1 / c1 + n / c2)) = ((c2 - n * c1) / (c2 + n * c1)) ^ 2.
Proof.
  intros N L Z c1 c2. destruct (glass_fresnel n w N L Z) as (A & B & C & D). fold c2 in A, B, C, D.
  assert (E : c1 = - vz w) by (unfold c1; rewrite Rabs_left by exact Z; reflexivity). rewrite <- E in B, C. assert (P1 : 0 < c1) by lra. clearbody c1 c2.
  assert (Pn : 0 < n * c2) by nra. pose proof (quotient_square c1 (n * c2) P1 Pn) as Q1.
  assert (Pm : 0 < n * c1) by nra.
  assert (T : (1 / c1 - n / c2) / (1 / c1 + n / c2) = (c2 - n * c1) / (c2 + n * c1)) by (field; repeat split; lra).
  rewrite T. pose proof (quotient_square c2 (n * c1) A Pm) as Q2. split; [|split; [exact Q2|ring]].
  split; [|lra]. set (q := (c1 - n * c2) / (c1 + n * c2)). assert (q <> 0). { unfold q. intros Q0. apply Rmult_integral in Q0 as [Q0|Q0]; [lra|]. assert (0 < / (c1 + n * c2)) by (apply Rinv_0_lt_compat; lra). lra. }
  nra.
Qed.
(** the three channels *)
Definition three : list (spectrum -> R) := [red; green; blue].
Lemma three_smap f a chan : In chan three -> chan (smap f a) = f (chan a).
Proof. unfold three. intros [<-|[<-|[<-|[]]]]; reflexivity. Qed.
Lemma three_channels P a : channels P a <-> forall chan, In chan three -> P (chan a).
Proof.
  split. { intros (A & B & C) chan [<-|[<-|[<-|[]]]]; assumption. }
  intros H. repeat split; apply H; unfold three; cbn; tauto.
Qed.
Lemma radiance_pos a : (forall chan, In chan three -> 0 < chan a) -> 0 < radiance a.
Proof. intros H. pose proof (H red (or_introl eq_refl)). pose proof (H green (or_intror (or_introl eq_refl))). pose proof (H blue (or_intror (or_intror (or_introl eq_refl)))). unfold radiance. lra. Qed.
Lemma spectrum_three a b : (forall chan, In chan three -> chan a = chan b) -> a = b.
Proof.
  intros H. pose proof (H red (or_introl eq_refl)). pose proof (H green (or_intror (or_introl eq_refl))). pose proof (H blue (or_intror (or_intror (or_introl eq_refl)))).
  destruct a, b. cbn in *. subst. reflexivity.
Qed.

Lemma glass_sample_facts {G} (gen : G -> R * G) c n w g : 1 < n -> vlen2 w = 1 -> vz w < 0 -> channels (fun v => 0 <= v <= 1) c -> 
  draws01 gen ->
  let c1 := - vz w in let c2 := transmitted_cos n w in
  let f := ((c1 - n * c2) / (c1 + n * c2)) ^ 2 in let t := ((c2 - n * c1) / (c2 + n * c1)) ^ 2 in
  let att v := if Rltb (smax c) MIN_COLOUR then v else Rpower (Rmax v MIN_COLOUR) (1 / c2) in
  let Rf := smap (fun v => (pane_refl f (att v) + pane_refl t (att v)) / 2) c in
  let Tr := smap (fun v => (pane_trans f (att v) + pane_trans t (att v)) / 2) c in
  0 < f < 1 /\ 0 <= t < 1 /\ (forall v, 0 <= v <= 1 -> 0 <= att v <= 1 /\ (MIN_COLOUR <= smax c -> 0 < att v)) /\
  let p := if Rltb (smax c) MIN_COLOUR then 1 else radiance Rf / (radiance Rf + radiance Tr) in
  0 < p <= 1 /\ (MIN_COLOUR <= smax c -> p < 1) /\
  glass_sample gen c n w TRANS_ALL g =
    if negb (Rltb (smax c) MIN_COLOUR) && (Rltb (radiance Rf) (1 / 10 ^ 19) && Rltb (radiance Tr) (1 / 10 ^ 19)) then (None, g)
    else (Some (if Rleb (fst (gen g)) p then mkBS (sdiv Rf c1) (mirror_direction w) p SpecularReflection
           else mkBS (sdiv Tr c1) w (1 - p) SpecularTransmission), snd (gen g)).
Proof.
  intros N L Z C D c1 c2 f t att Rf Tr. destruct (squared_fresnel n w N L Z) as (F & T & Et). destruct (glass_fresnel n w N L Z) as (A & B & Cc & E).
  fold c2 in F, T, Et, A, B, Cc, E. fold c1 in B, Cc. rewrite (Rabs_left _ Z) in F, T, Et. fold c1 in F, T, Et.
  assert (Ef : (c1 - n * c2) / (c1 + n * c2) * ((c1 - n * c2) / (c1 + n * c2)) = f) by (unfold f; ring).
  rewrite Ef in F. fold t in Et. rewrite Et in T.
  assert (Att : forall v, 0 <= v <= 1 -> 0 <= att v <= 1 /\ (MIN_COLOUR <= smax c -> 0 < att v)).
  { intros v V. unfold att. destruct (Rltb_spec (smax c) MIN_COLOUR); [split; [exact V|intros; lra]|].
    assert (X : 0 < Rpower (Rmax v MIN_COLOUR) (1 / c2) <= 1); [|lra].
    apply rpower_unit; [|left; apply Rdiv_lt_0_compat; lra]. pose proof min_colour_pos. split; [eapply Rlt_le_trans; [|apply Rmax_r]; lra|].
    apply Rmax_lub; lra. }
  split; [exact F|]. split; [exact T|]. split; [exact Att|]. intros p.
  unfold glass_sample, any_transmission. rewrite (Rabs_left _ Z). fold c1 c2. rewrite Ef, Et. clearbody f t.
  assert (Sp : smap (fun v => Rpower v (1 / c2)) (smap (fun v => if Rltb v MIN_COLOUR then MIN_COLOUR else v) c) = smap (fun v => Rpower (Rmax v MIN_COLOUR) (1 / c2)) c).
  { assert (Mx : forall v, (if Rltb v MIN_COLOUR then MIN_COLOUR else v) = Rmax v MIN_COLOUR).
    { intros v. destruct (Rltb_spec v MIN_COLOUR); [rewrite Rmax_right by lra|rewrite Rmax_left by lra]; reflexivity. }
    unfold smap. cbn [red green blue]. rewrite !Mx. reflexivity. }
  assert (GR : forall h, smap (glass_refl f t) (smap h c) = smap (fun v => (pane_refl f (h v) + pane_refl t (h v)) / 2) c).
  { intros h. unfold smap. cbn [red green blue]. rewrite !glass_refl_pane. reflexivity. }
  assert (GT : forall h, smap (glass_trans f t) (smap h c) = smap (fun v => (pane_trans f (h v) + pane_trans t (h v)) / 2) c).
  { intros h. unfold smap. cbn [red green blue]. rewrite !glass_trans_pane. reflexivity. }
  assert (Id : smap (fun v => v) c = c) by (destruct c; reflexivity).
  pose proof (D g) as Dg. destruct (gen g) as [u g1]. cbn [fst snd] in *.
  change (has TRANS_ALL TRANS_REFLECTION) with true. change (has TRANS_ALL TRANS_TRANSMISSION) with true. cbv iota.
  unfold p. destruct (Rltb_spec (smax c) MIN_COLOUR) as [H|H]; cbv zeta iota.
  - split; [lra|]. split; [lra|]. rewrite (proj2 (Rltb_false 1 _)) by lra. cbn [andb negb].
    replace (1 / (1 + 0)) with 1 by field. rewrite (proj2 (Rleb_true u 1)) by lra.
    rewrite <- Id at 1. rewrite GR. unfold Rf, att. reflexivity.
  - rewrite Sp, GR, GT. change (smap (fun v => (pane_refl f (Rpower (Rmax v MIN_COLOUR) (1 / c2)) + pane_refl t (Rpower (Rmax v MIN_COLOUR) (1 / c2))) / 2) c) with Rf.
    change (smap (fun v => (pane_trans f (Rpower (Rmax v MIN_COLOUR) (1 / c2)) + pane_trans t (Rpower (Rmax v MIN_COLOUR) (1 / c2))) / 2) c) with Tr.
    assert (PR : 0 < radiance Rf).
    { apply radiance_pos. intros chan I. unfold Rf. rewrite three_smap by exact I. pose proof (proj1 (three_channels _ _) C chan I) as V.
      destruct (Att _ V) as (V1 & V2). destruct (pane_facts f _ ltac:(lra) V1) as (_ & _ & X & _). destruct (pane_facts t _ T V1) as (_ & Y & _). specialize (X (proj1 F)). lra. }
    assert (PT : 0 < radiance Tr).
    { apply radiance_pos. intros chan I. unfold Tr. rewrite three_smap by exact I. pose proof (proj1 (three_channels _ _) C chan I) as V.
      destruct (Att _ V) as (V1 & V2). specialize (V2 ltac:(lra)). destruct (pane_facts f _ ltac:(lra) V1) as (_ & _ & _ & _ & X & _). destruct (pane_facts t _ T V1) as (_ & _ & _ & Y & _). specialize (X V2). lra. }
    clearbody Rf Tr. set (q := radiance Rf / (radiance Rf + radiance Tr)). assert (Q : q * (radiance Rf + radiance Tr) = radiance Rf) by (unfold q; field; lra).
    assert (Q' : radiance Tr / (radiance Rf + radiance Tr) = 1 - q) by (unfold q; field; lra).
    assert (0 < q < 1) by (split; nra). split; [lra|]. split; [lra|]. cbn [negb andb].
    destruct (Rltb (radiance Rf) (1 / 10 ^ 19) && Rltb (radiance Tr) (1 / 10 ^ 19)); [reflexivity|]. rewrite Q'.
    destruct (Rleb u q); reflexivity.
Qed.

(** the index of refraction on the other side: a ray whose index is the one of the material leaves it *)
Definition other_index (eta n : R) : R := if Rltb (Rabs (eta - n)) (1 / 10 ^ 7) then 1 else n.
Lemma dielectric_sample_facts {G} (gen : G -> R * G) c n w eta mode g : vlen2 w = 1 -> vz w < 0 -> 0 < eta -> 0 < n -> draws01 gen ->
  let n2 := other_index eta n in eta * eta * (1 - vz w * vz w) <> n2 * n2 ->
  (n2 * n2 < eta * eta * (1 - vz w * vz w) /\
   dielectric_sample gen c n w eta mode TRANS_ALL g = Ok (mkBS (gray (1 / - vz w)) (mirror_direction w) 1 SpecularReflection, snd (gen g))) \/
  exists cos2, 0 < cos2 /\ eta * eta * (1 - vz w * vz w) = n2 * n2 * (1 - cos2 * cos2) /\
    let rho := fresnel_reflectance eta (- vz w) n2 cos2 in
    let t := fresnel_transmission_dir w (mkV 0 0 1) eta (- vz w) n2 cos2 in
    0 <= rho < 1 /\ vlen2 t = 1 /\ vz t = - cos2 /\ vx t = eta / n2 * vx w /\ vy t = eta / n2 * vy w /\
    dielectric_sample gen c n w eta mode TRANS_ALL g =
      Ok (if Rltb (fst (gen g)) rho then mkBS (gray (rho / - vz w)) (mirror_direction w) rho SpecularReflection
          else mkBS (match mode with Radiance => sscale (smul (gray ((1 - rho) / cos2)) c) (sqrt (eta / n2)) | Importance => smul (gray ((1 - rho) / cos2)) c end)
                 t (1 - rho) SpecularTransmission, snd (gen g)).
Proof.
  intros L Z E N D n2 Crit. destruct (C88_refraction w eta n L Z E N) as (n2' & E2 & H). fold (other_index eta n) in E2. fold n2 in E2. subst n2'.
  assert (N2 : 0 < n2) by (unfold n2, other_index; destruct (Rltb _ _); lra).
  unfold dielectric_sample. pose proof (D g) as Dg. destruct (gen g) as [u g1]. cbn [fst snd] in *.
  change (has TRANS_ALL TRANS_REFLECTION) with true. change (has TRANS_ALL TRANS_TRANSMISSION) with true. cbv iota.
  destruct H as [(H & Ec)|(cos2 & S & C0 & Cp & Ec & T1 & T2 & T3 & T4)]; rewrite Ec; cbv zeta iota.
  - left. split; [exact H|]. rewrite (proj2 (Rltb_true 0 _)) by lra. replace (1 / (1 + (1 - 1))) with 1 by field.
    rewrite (proj2 (Rltb_true u 1)) by lra. cbn [andb]. reflexivity.
  - right. assert (P2 : 0 < cos2). { destruct C0 as [C0|C0]; [exact C0|]. exfalso. apply Crit. rewrite S, <- C0. ring. }
    exists cos2. split; [exact P2|]. split; [exact S|]. set (rho := fresnel_reflectance eta (- vz w) n2 cos2).
    destruct (C88_reflectance eta (- vz w) n2 cos2 E N2 ltac:(lra) P2) as (_ & Rho & _). fold rho in Rho.
    split; [exact Rho|]. split; [exact T1|]. split; [exact T2|]. split; [exact T3|]. split; [exact T4|].
    replace (rho + (1 - rho)) with 1 by ring. rewrite (proj2 (Rltb_true 0 1)) by lra. cbn [andb]. rewrite !Rdiv_1.
    destruct (Rltb u rho); [reflexivity|]. destruct mode; reflexivity.
Qed.

(** ** C86: on which side of the surface the ray goes on *)
Definition proper (m : Material) (d : pt) (i : Interaction) (eta : R) : Prop :=
  match m with
  | Glass c n => 1 < n /\ channels (fun v => 0 <= v <= 1) c
  | Dielectric _ n => 0 < n /\ 0 < eta /\ eta * eta * (1 - vdot d (normal_of i) * vdot d (normal_of i)) <> other_index eta n * other_index eta n
  | _ => True
  end.
(** a sample in local coordinates, on the right side of the surface *)
Definition sided (s : bsample) : Prop := vlen2 (b_wi s) = 1 /\ 0 < b_pdf s /\
  ((is_reflection s = true /\ is_transmission s = false /\ 0 < vz (b_wi s)) \/ (is_reflection s = false /\ is_transmission s = true /\ vz (b_wi s) < 0)).
Lemma mirror_facts w : vlen2 (mirror_direction w) = vlen2 w /\ vz (mirror_direction w) = - vz w.
Proof. unfold mirror_direction, vlen2. cbn [vx vy vz]. split; ring. Qed.
Lemma local_sample_sided {G} (gen : G -> R * G) fuel m d i eta g s eta' g' : draws01 gen -> arrives d i -> proper m d i eta ->
  local_sample gen fuel m (local_of d i) (i_side (it_info i)) eta g = Ok (Some (Some s, eta', g')) -> sided s.
Proof.
  intros D A P. destruct (local_facts d i A) as (Zd & Z & L & _). set (w := local_of d i) in *. clearbody w.
  destruct (mirror_facts w) as (M1 & M2).
  assert (Ward : forall sp al be s0 g0, sample_ward gen fuel sp al be w g = Ok (Some (s0, g0)) -> sided s0).
  { intros sp al be s0 g0 E. destruct (sample_ward_facts gen fuel sp al be w s0 g g0 D Z E) as [(_ & (F & U & V & Pd & _) & _)|(_ & F & U & V & Pd & _)];
      (split; [exact U|]; split; [exact Pd|]; left; unfold is_reflection, is_transmission; rewrite F; repeat split; exact V). }
  assert (Same : forall s0 s1, b_wi s1 = b_wi s0 -> b_pdf s1 = b_pdf s0 -> b_flags s1 = b_flags s0 -> sided s0 -> sided s1).
  { intros s0 s1 E1 E2 E3. unfold sided, is_reflection, is_transmission. rewrite E1, E2, E3. tauto. }
  destruct m as [c sp ro|c sp ro|c|c|c|c n|c n]; cbn [local_sample]; intros E.
  - destruct (sample_ward gen fuel sp ro ro w g) as [[[s0 g0]|]| |] eqn:Ew; cbn [bind] in E; try discriminate. injection E as <- <- <-.
    apply (Same s0); [unfold plastic_colour; destruct (_ =? _)%N; reflexivity..|]. exact (Ward _ _ _ _ _ Ew).
  - destruct (sample_ward gen fuel sp ro ro w g) as [[[s0 g0]|]| |] eqn:Ew; cbn [bind] in E; try discriminate. injection E as <- <- <-.
    apply (Same s0); [reflexivity..|]. exact (Ward _ _ _ _ _ Ew).
  - unfold diffuse_sample in E. pose proof (gen2_random gen g D) as U. destruct (gen2 gen g) as [u g2]. change (has TRANS_ALL TRANS_REFLECTION) with true in E. cbv iota in E. cbn [fst] in U.
    destruct (new_diffuse_facts c u U) as (S1 & S2 & S3 & S4 & S5). set (q := new_diffuse c u) in *. clearbody q. injection E as <- <- <-.
    split; [exact S2|]. split; [rewrite S4; apply Rdiv_lt_0_compat; [exact S3|apply PI_RGT_0]|]. left. unfold is_reflection, is_transmission. rewrite S5. repeat split. exact S3.
  - discriminate.
  - injection E as <- <- <-. unfold sided, is_reflection, is_transmission, mirror_sample. cbn [b_wi b_pdf b_flags]. rewrite M1, M2. split; [exact L|]. split; [lra|]. left. repeat split. lra.
  - destruct P as (P1 & P2 & P3). rewrite <- Zd in P3.
    assert (Sd : forall s0 g0, dielectric_sample gen c n w eta Radiance TRANS_ALL g = Ok (s0, g0) -> sided s0).
    { intros s0 g0 Es. destruct (dielectric_sample_facts gen c n w eta Radiance g L Z P2 P1 D P3) as [(_ & X)|(cos2 & C0 & _ & Rho & T1 & T2 & _ & _ & X)]; rewrite X in Es.
      - injection Es as <- <-. unfold sided, is_reflection, is_transmission. cbn [b_wi b_pdf b_flags]. rewrite M1, M2. split; [exact L|]. split; [lra|]. left. repeat split. lra.
      - destruct (Rltb_spec (fst (gen g)) (fresnel_reflectance eta (- vz w) (other_index eta n) cos2)) as [Hu|Hu]; injection Es as <- <-; pose proof (D g);
          unfold sided, is_reflection, is_transmission; cbn [b_wi b_pdf b_flags].
        + rewrite M1, M2. split; [exact L|]. split; [lra|]. left. repeat split. lra.
        + split; [exact T1|]. split; [lra|]. right. repeat split. rewrite T2. lra. }
    destruct (dielectric_sample gen c n w eta Radiance TRANS_ALL g) as [[s0 g0]| |] eqn:Es; cbn [bind] in E; try discriminate.
    specialize (Sd _ _ eq_refl). destruct (i_side (it_info i)); try discriminate; injection E as <- <- <-; exact Sd.
  - destruct P as (P1 & P2). destruct (glass_sample_facts gen c n w g P1 L Z P2 D) as (_ & _ & _ & Pp & P1' & X). rewrite X in E. clear X.
    destruct (_ && _); [discriminate|]. pose proof (D g) as Dg.
    match type of E with context [Rleb _ ?p] => set (q := p) in *; clearbody q end.
    destruct (Rleb_spec (fst (gen g)) q) as [Hu|Hu]; injection E as <- <- <-;
      unfold sided, is_reflection, is_transmission; cbn [b_wi b_pdf b_flags].
    + rewrite M1, M2. split; [exact L|]. split; [apply Pp|]. left. repeat split. lra.
    + split; [exact L|]. split; [apply Rnot_le_lt in Hu; lra|]. right. repeat split. exact Z.
Qed.
(** what [sample_bsdf] does with the local sample *)
Lemma sample_bsdf_local {G} (gen : G -> R * G) fuel m d i eta g s i' eta' g' : sample_bsdf gen fuel m d i eta g = Ok (Some (Some s, i', eta', g')) ->
  exists s0, local_sample gen fuel m (local_of d i) (i_side (it_info i)) eta g = Ok (Some (Some s0, eta', g')) /\
  s = mkBS (b_spectrum s0) (world_of i (b_wi s0)) (b_pdf s0) (b_flags s0) /\
  i' = mkInter (if is_reflection s0 then vadd (it_point i) (vscale (normal_of i) (1 / 10 ^ 5))
                else if is_transmission s0 then vsub (it_point i) (vscale (normal_of i) (1 / 10 ^ 5)) else it_point i) (it_wo i) (it_info i).
Proof.
  unfold sample_bsdf. fold (normal_of i). fold (local_of d i). destruct (local_sample gen fuel m (local_of d i) (i_side (it_info i)) eta g) as [[[[[s0|] e0] g0]|]| |]; cbn [bind]; try discriminate.
  intros E. injection E as <- <- <- <-. exists s0. repeat split.
Qed.
Lemma factor_local d i s s0 : arrives d i -> b_wi s = world_of i (b_wi s0) -> b_spectrum s = b_spectrum s0 -> b_pdf s = b_pdf s0 ->
  factor i s = sdiv (sscale (b_spectrum s0) (Rabs (vz (b_wi s0)))) (b_pdf s0).
Proof. intros A E1 E2 E3. unfold factor. fold (normal_of i). rewrite E1, E2, E3, (proj1 (world_facts d i _ A)). reflexivity. Qed.

Theorem C86_sides : forall G (gen : G -> R * G) fuel m d i eta g s i' eta' g', draws01 gen -> arrives d i -> proper m d i eta ->
  sample_bsdf gen fuel m d i eta g = Ok (Some (Some s, i', eta', g')) ->
  vlen (b_wi s) = 1 /\ 0 < b_pdf s /\ it_info i' = it_info i /\ it_wo i' = it_wo i /\
  ((is_reflection s = true /\ is_transmission s = false /\ 0 < vdot (normal_of i) (b_wi s) /\
    it_point i' = vadd (it_point i) (vscale (normal_of i) (1 / 10 ^ 5))) \/
   (is_reflection s = false /\ is_transmission s = true /\ vdot (normal_of i) (b_wi s) < 0 /\
    it_point i' = vsub (it_point i) (vscale (normal_of i) (1 / 10 ^ 5)))).
Proof.
  intros G gen fuel m d i eta g s i' eta' g' D A P E. destruct (sample_bsdf_local _ _ _ _ _ _ _ _ _ _ _ E) as (s0 & El & -> & ->).
  destruct (local_sample_sided _ _ _ _ _ _ _ _ _ _ D A P El) as (L & Pd & Sd). destruct (world_facts d i (b_wi s0) A) as (W1 & W2).
  cbn [b_wi b_pdf b_flags it_info it_wo it_point]. split; [apply vlen_of; rewrite W2; exact L|]. split; [exact Pd|]. split; [reflexivity|]. split; [reflexivity|].
  rewrite W1. unfold is_reflection, is_transmission in *. cbn [b_flags]. destruct Sd as [(X & Y & V)|(X & Y & V)]; rewrite X, Y; [left|right]; tauto.
Qed.

(** a floor and a ray that falls on it, for the examples *)
Definition floor_tri : Tri := mkTri (mkV 0 0 0) (mkV 1 0 0) (mkV 0 1 0).
Definition floor_hit (d : pt) : Interaction := mkInter (mkV (1 / 4) (1 / 4) 0) (vscale d (-1)) (mkInfo (mkV (1 / 4) (1 / 4) 0) (mkV 0 0 1) Front (mkV 1 0 0) (mkV 0 1 0)).
Lemma normalize_unit v : vlen2 v = 1 -> vnormalize v = Ok v.
Proof.
  intros L. unfold vnormalize. rewrite (proj2 (Rltb_true _ _)) by lra. f_equal. cbv zeta. rewrite L, sqrt_1. destruct v. cbn. f_equal; field.
Qed.
Lemma floor_arrives d : vlen2 d = 1 -> vz d < 0 -> arrives d (floor_hit d).
Proof.
  intros L Z. split; [apply vlen_of; exact L|]. split; [reflexivity|]. exists floor_tri. unfold new_info, floor_tri. cbn [ta tb tc it_point floor_hit it_info].
  replace (vsub (mkV 1 0 0) (mkV 0 0 0)) with (mkV 1 0 0) by vring. replace (vsub (mkV 0 1 0) (mkV 0 0 0)) with (mkV 0 1 0) by vring.
  replace (vcross (mkV 1 0 0) (mkV 0 1 0)) with (mkV 0 0 1) by vring.
  rewrite (normalize_unit (mkV 0 0 1)) by (unfold vlen2; cbn; ring). cbn [bind].
  unfold get_side. replace (vdot (mkV 0 0 1) d) with (vz d) by vring. cbv zeta. rewrite (proj2 (Rltb_true _ _)) by exact Z.
  rewrite (normalize_unit (mkV 1 0 0)) by (unfold vlen2; cbn; ring). cbn [bind].
  replace (vcross (mkV 0 0 1) (mkV 1 0 0)) with (mkV 0 1 0) by vring.
  rewrite (normalize_unit (mkV 0 1 0)) by (unfold vlen2; cbn; ring). reflexivity.
Qed.
Lemma floor_local d : local_of d (floor_hit d) = d.
Proof. unfold local_of, to_local, floor_hit, normal_of. cbn. destruct d as [x y z]. apply V3_eq; cbn; unfold vdot; cbn; ring. Qed.
Lemma floor_world d v : world_of (floor_hit d) v = v.
Proof. unfold world_of, to_world, floor_hit, normal_of. cbn. apply V3_eq; cbn; ring. Qed.

(** ** C87: diffuse surfaces, mirrors and lamps *)
Definition eval_at (m : Material) (i : Interaction) (vin vout : pt) : res spectrum := eval_bsdf m (normal_of i) (i_dpdu (it_info i)) (i_dpdv (it_info i)) vin vout.
Definition pdf_at (m : Material) (i : Interaction) (vin vout : pt) : res R := material_pdf m (normal_of i) (i_dpdu (it_info i)) (i_dpdv (it_info i)) vin vout.
Lemma local_of_world d i v : arrives d i -> to_local (normal_of i) (i_dpdu (it_info i)) (i_dpdv (it_info i)) (world_of i v) = v.
Proof.
  intros A. destruct (arrives_frame _ _ A) as (Fr & _). destruct (to_world_dot _ _ _ v Fr) as (X & Y & Z). unfold to_local, world_of. rewrite X, Y, Z. destruct v. reflexivity.
Qed.
Lemma local_of_wo d i : arrives d i -> to_local (normal_of i) (i_dpdu (it_info i)) (i_dpdv (it_info i)) (it_wo i) = vscale (local_of d i) (-1).
Proof. intros (_ & W & _). rewrite W. unfold local_of, to_local. vring. Qed.

(** A diffuse surface always scatters, towards the side the light came from, by the cosine law; what comes back is the colour, whatever
    the draws.  The two other functions, asked about the sample, say the same. *)
Theorem C87_diffuse : forall G (gen : G -> R * G) fuel c d i eta g, draws01 gen -> arrives d i ->
  exists s i' g', sample_bsdf gen fuel (Diffuse c) d i eta g = Ok (Some (Some s, i', eta, g')) /\ factor i s = c /\
    (vdot (normal_of i) (b_wi s)) ^ 2 = 1 - fst (gen g) /\
    b_spectrum s = sdiv c PI /\ b_pdf s = vdot (normal_of i) (b_wi s) / PI /\
    eval_at (Diffuse c) i (it_wo i) (b_wi s) = Ok (b_spectrum s) /\ pdf_at (Diffuse c) i (it_wo i) (b_wi s) = Ok (b_pdf s).
Proof.
  intros G gen fuel c d i eta g D A. destruct (local_facts d i A) as (Zd & Z & L & _).
  unfold sample_bsdf. fold (normal_of i). fold (local_of d i). cbn [local_sample]. unfold diffuse_sample.
  pose proof (gen2_random gen g D) as U. assert (F1 : fst (fst (gen2 gen g)) = fst (gen g)) by (unfold gen2; destruct (gen g) as [a g1]; destruct (gen g1); reflexivity).
  destruct (gen2 gen g) as [u g2]. cbn [fst] in U, F1. change (has TRANS_ALL TRANS_REFLECTION) with true. cbv iota. cbn [bind].
  destruct (new_diffuse_facts c u U) as (S1 & S2 & S3 & S4 & S5).
  assert (Cs : vz (b_wi (new_diffuse c u)) ^ 2 = 1 - fst u).
  { unfold new_diffuse. destruct (C42_cosine_hemisphere u U) as (_ & Zh). rewrite (proj2 (Rltb_false _ _)) by lra. cbn [b_wi].
    unfold sample_cosine_weighted_horizontal_hemisphere, uniform_sample_horizontal_disc in *. destruct u as [r th]. destruct U as ((U1 & U2) & _). cbn [fst snd] in *.
    assert (Eq : 1 * sqrt r * sin (2 * PI * th) * (1 * sqrt r * sin (2 * PI * th)) + 1 * sqrt r * cos (2 * PI * th) * (1 * sqrt r * cos (2 * PI * th)) = r).
    { replace (1 * sqrt r * sin (2 * PI * th) * (1 * sqrt r * sin (2 * PI * th)) + 1 * sqrt r * cos (2 * PI * th) * (1 * sqrt r * cos (2 * PI * th)))
        with (sqrt r * sqrt r * (Rsqr (sin (2 * PI * th)) + Rsqr (cos (2 * PI * th)))) by (unfold Rsqr; ring). rewrite sqrt_sqrt, sin2_cos2 by lra. ring. }
    cbn [vz] in *. rewrite Eq in *. rewrite fclamp_id by lra. rewrite <- Rsqr_pow2. unfold Rsqr. apply sqrt_sqrt. lra. }
  rewrite F1 in Cs. set (q := new_diffuse c u) in *. clearbody q.
  eexists. eexists. eexists. split; [reflexivity|]. fold (world_of i (b_wi q)).
  assert (W : vdot (normal_of i) (world_of i (b_wi q)) = vz (b_wi q)) by exact (proj1 (world_facts d i _ A)).
  cbn [b_wi b_pdf b_spectrum]. pose proof PI_RGT_0 as Hpi.
  split. { unfold factor. fold (normal_of i). cbn [b_wi b_pdf b_spectrum]. rewrite W, S1, S4, Rabs_right by lra. destruct c as [x1 x2 x3]. unfold sdiv, sscale. cbn. f_equal; field; lra. }
  rewrite W. split; [exact Cs|]. split; [exact S1|]. split; [exact S4|].
  unfold eval_at, pdf_at, eval_bsdf, material_pdf. rewrite (local_of_world d), (local_of_wo d) by exact A.
  unfold diffuse_eval, diffuse_pdf, same_hemisphere. cbn [vscale vz]. rewrite (proj2 (Rltb_true _ _)) by nra.
  rewrite S1, S4. unfold abs_cos_theta. rewrite Rabs_right by lra. split; reflexivity.
Qed.
(** A mirror sends the ray on by the law of reflection and takes its colour from it; it uses no random number. *)
Theorem C87_mirror : forall G (gen : G -> R * G) fuel c d i eta g, arrives d i ->
  exists s i', sample_bsdf gen fuel (Mirror c) d i eta g = Ok (Some (Some s, i', eta, g)) /\ factor i s = c /\ is_specular s = true /\
    b_wi s = vsub d (vscale (normal_of i) (2 * vdot d (normal_of i))).
Proof.
  intros G gen fuel c d i eta g A. destruct (local_facts d i A) as (Zd & Z & L & W). destruct (arrives_frame d i A) as (Fr & _).
  unfold sample_bsdf. fold (normal_of i). fold (local_of d i). cbn [local_sample bind].
  eexists. eexists. split; [reflexivity|]. unfold mirror_sample. cbn [b_wi b_pdf b_flags b_spectrum].
  fold (world_of i (mirror_direction (local_of d i))). split; [|split].
  - unfold factor. fold (normal_of i). cbn [b_wi b_pdf b_flags b_spectrum]. rewrite (proj1 (world_facts d i _ A)). cbn [mirror_direction vz].
    rewrite Rabs_Ropp. assert (Rabs (vz (local_of d i)) <> 0) by (apply Rabs_no_R0; lra). destruct c as [x1 x2 x3]. unfold sdiv, sscale. cbn [red green blue]. f_equal; field; assumption.
  - reflexivity.
  - rewrite <- Zd. rewrite <- W at 2. unfold world_of, to_world, mirror_direction. vring.
Qed.
(** Lamps scatter nothing; surfaces that are mirrors or panes have nothing to say about a pair of directions. *)
Theorem C87_light : forall G (gen : G -> R * G) fuel c d i eta g, sample_bsdf gen fuel (Light c) d i eta g = Ok (Some (None, i, eta, g)).
Proof. reflexivity. Qed.
Theorem C87_specular : forall m i a b, specular_only m = true \/ emits_light m = true -> eval_at m i a b = Ok BLACK /\ pdf_at m i a b = Ok 0.
Proof. intros [] i a b [H|H]; try discriminate; split; reflexivity. Qed.
(** What a diffuse surface returns in total is its colour, and it does not matter which way the light goes. *)
Theorem C87_rho : forall G (gen : G -> R * G) c n g, draws01 gen -> (0 < n)%nat -> directional_rho (diffuse_sample gen c TRANS_ALL) n g = c.
Proof.
  intros G gen c n g D Hn. unfold directional_rho. pose proof PI_RGT_0 as Hpi.
  assert (Loop : forall k rho g0, rho_loop (diffuse_sample gen c TRANS_ALL) k rho g0 = sadd rho (sscale c (INR k))).
  { induction k as [|k IH]; intros rho g0; cbn [rho_loop]. { destruct rho as [y1 y2 y3], c as [x1 x2 x3]. unfold sadd, sscale. cbn. f_equal; ring. }
    unfold diffuse_sample at 1. pose proof (gen2_random gen g0 D) as U. destruct (gen2 gen g0) as [u g2]. change (has TRANS_ALL TRANS_REFLECTION) with true. cbv iota. cbn [fst] in U.
    rewrite IH. destruct (new_diffuse_facts c u U) as (S1 & S2 & S3 & S4 & S5). rewrite S1, S4. unfold abs_cos_theta. rewrite Rabs_right by lra.
    rewrite S_INR. unfold sadd, sscale, sdiv. cbn [red green blue]. f_equal; field; lra. }
  rewrite Loop. assert (INR n <> 0) by (apply not_0_INR; lia). destruct c as [x1 x2 x3]. unfold sadd, sscale, sdiv, BLACK, gray. cbn [red green blue]. f_equal; field; assumption.
Qed.
Theorem C87_reciprocal : forall c i a b, eval_at (Diffuse c) i a b = eval_at (Diffuse c) i b a.
Proof. intros. unfold eval_at, eval_bsdf, diffuse_eval, same_hemisphere. rewrite Rmult_comm. reflexivity. Qed.

(** ** C89: dielectrics *)
Lemma arrives_side d i : arrives d i -> i_side (it_info i) = Front \/ i_side (it_info i) = Back.
Proof.
  intros (_ & _ & t & E). unfold new_info in E. destruct (vnormalize (vcross _ _)) as [n| |]; cbn [bind] in E; try discriminate.
  unfold get_side in E. destruct (Rltb (vdot n d) 0); [|destruct (Rltb 0 (vdot n d))]; destruct (vnormalize (vsub (tb t) (ta t))) as [e| |]; cbn [bind] in E; try discriminate.
  1,2: destruct (vnormalize (vcross _ e)) as [e'| |]; cbn [bind] in E; try discriminate; injection E as <-; cbn; tauto.
  unfold vnormalize in E. rewrite (proj2 (Rltb_false _ _)) in E; [discriminate|].
  replace (vlen2 (vcross (mkV 0 0 0) e)) with 0 by (unfold vlen2, vcross; cbn; ring). lra.
Qed.
Definition mirrored (i : Interaction) (d : pt) : pt := vsub d (vscale (normal_of i) (2 * vdot d (normal_of i))).
Lemma mirrored_local d i : arrives d i -> world_of i (mirror_direction (local_of d i)) = mirrored i d.
Proof.
  intros A. destruct (local_facts d i A) as (Zd & Z & L & W). unfold mirrored. rewrite <- Zd. rewrite <- W at 2. unfold world_of, to_world, mirror_direction. vring.
Qed.
(** Beyond the critical angle everything is reflected.  Otherwise the ray is reflected with the probability that Fresnel's equations give,
    and refracted with the other; the light is multiplied by one, or by the colour and the root of the ratio of the indices. *)
Theorem C89_dielectric : forall G (gen : G -> R * G) fuel c n d i eta g, draws01 gen -> arrives d i -> proper (Dielectric c n) d i eta ->
  let cos1 := - vdot d (normal_of i) in let n2 := other_index eta n in let u := fst (gen g) in
  exists s i', sample_bsdf gen fuel (Dielectric c n) d i eta g =
      Ok (Some (Some s, i', match i_side (it_info i) with Front => n | _ => 1 end, snd (gen g))) /\ is_specular s = true /\
  ((n2 * n2 < eta * eta * (1 - cos1 * cos1) /\ is_reflection s = true /\ b_wi s = mirrored i d /\ factor i s = ONE) \/
   exists cos2 rho, 0 < cos2 /\ eta * eta * (1 - cos1 * cos1) = n2 * n2 * (1 - cos2 * cos2) /\
     rho = (((eta * cos1 - n2 * cos2) / (eta * cos1 + n2 * cos2)) ^ 2 + ((eta * cos2 - n2 * cos1) / (eta * cos2 + n2 * cos1)) ^ 2) / 2 /\ 0 <= rho < 1 /\
     (u < rho -> is_reflection s = true /\ b_wi s = mirrored i d /\ factor i s = ONE) /\
     (rho <= u -> is_transmission s = true /\ vdot (normal_of i) (b_wi s) = - cos2 /\
        tangent (normal_of i) (b_wi s) = vscale (tangent (normal_of i) d) (eta / n2) /\ factor i s = sscale c (sqrt (eta / n2)))).
Proof.
  intros G gen fuel c n d i eta g D A (P1 & P2 & P3) cos1 n2 u. destruct (local_facts d i A) as (Zd & Z & L & W).
  pose proof (mirrored_local d i A) as Mi. pose proof (world_facts d i) as Wf.
  assert (Td : tangent (normal_of i) d = world_of i (mkV (vx (local_of d i)) (vy (local_of d i)) 0)) by (rewrite <- W at 1; apply (world_tangent d); exact A).
  fold n2 in P3. rewrite <- Zd in P3. unfold cos1. rewrite <- Zd. clear cos1.
  assert (N2 : 0 < n2) by (unfold n2, other_index; destruct (Rltb _ _); lra).
  unfold sample_bsdf. fold (normal_of i). fold (local_of d i). cbn [local_sample].
  set (w := local_of d i) in *. clearbody w.
  assert (Sq : - vz w * - vz w = vz w * vz w) by ring. rewrite Sq.
  assert (Side : forall s0 : bsample, exists i' : Interaction,
    (do r <- match i_side (it_info i) with Front => Ok (Some (Some s0, n, snd (gen g))) | Back => Ok (Some (Some s0, 1, snd (gen g))) | NonApplicable => Panic end;
      Ok (match r with
      | None => None
      | Some (None, eta, g) => Some (None, i, eta, g)
      | Some (Some s, eta, g) =>
        Some (Some (mkBS (b_spectrum s) (to_world (normal_of i) (i_dpdu (it_info i)) (i_dpdv (it_info i)) (b_wi s)) (b_pdf s) (b_flags s)),
          mkInter (if is_reflection s then vadd (it_point i) (vscale (normal_of i) (1 / 10 ^ 5))
            else if is_transmission s then vsub (it_point i) (vscale (normal_of i) (1 / 10 ^ 5)) else it_point i) (it_wo i) (it_info i), eta, g)
      end)) = Ok (Some (Some (mkBS (b_spectrum s0) (world_of i (b_wi s0)) (b_pdf s0) (b_flags s0)), i', match i_side (it_info i) with Front => n | _ => 1 end, snd (gen g)))).
  { intros s0. destruct (arrives_side d i A) as [E|E]; rewrite E; eexists; reflexivity. }
  pose proof (dielectric_sample_facts gen c n w eta Radiance g L Z P2 P1 D P3) as H. fold n2 in H.
  destruct H as [(Hc & X)|(cos2 & C0 & Sn & Rho & T1 & T2 & T3 & T4 & X)]; rewrite X; cbn [bind].
  - match goal with |- context [Some (Some ?s0, n, _)] => destruct (Side s0) as (i' & Es) end. eexists. exists i'. split; [exact Es|]. split; [reflexivity|]. left.
    split; [exact Hc|]. split; [reflexivity|]. cbn [b_wi]. split; [exact Mi|].
    unfold factor. fold (normal_of i). cbn [b_spectrum b_wi b_pdf]. rewrite (proj1 (Wf _ A)). cbn [mirror_direction vz]. rewrite Rabs_right by lra. unfold ONE, gray, sdiv, sscale. cbn. f_equal; field; lra.
  - set (rho := fresnel_reflectance eta (- vz w) n2 cos2) in *. set (t := fresnel_transmission_dir w (mkV 0 0 1) eta (- vz w) n2 cos2) in *.
    destruct (C88_reflectance eta (- vz w) n2 cos2 P2 N2 ltac:(lra) C0) as (Fr & _). fold rho in Fr. clearbody t.
    match goal with |- context [Some (Some ?s0, n, _)] => destruct (Side s0) as (i' & Es) end. eexists. exists i'. split; [exact Es|]. fold u.
    assert (Sp : is_specular (mkBS (b_spectrum (if Rltb u rho then mkBS (gray (rho / - vz w)) (mirror_direction w) rho SpecularReflection else mkBS (sscale (smul (gray ((1 - rho) / cos2)) c) (sqrt (eta / n2))) t (1 - rho) SpecularTransmission))
      (mkV 0 0 0) 0 (b_flags (if Rltb u rho then mkBS (gray (rho / - vz w)) (mirror_direction w) rho SpecularReflection else mkBS (sscale (smul (gray ((1 - rho) / cos2)) c) (sqrt (eta / n2))) t (1 - rho) SpecularTransmission))) = true) by (destruct (Rltb u rho); reflexivity).
    split; [exact Sp|]. clear Sp. right. exists cos2, rho. split; [exact C0|]. split; [exact Sn|]. split; [exact Fr|]. split; [exact Rho|].
    destruct (D g) as (D1 & D2). fold u in D1, D2. split; intros Hu.
    + rewrite (proj2 (Rltb_true _ _)) by exact Hu. cbn [b_spectrum b_wi b_pdf b_flags]. split; [reflexivity|]. split; [exact Mi|].
      unfold factor. fold (normal_of i). cbn [b_spectrum b_wi b_pdf]. rewrite (proj1 (Wf _ A)). cbn [mirror_direction vz]. rewrite Rabs_right by lra. unfold ONE, gray, sdiv, sscale. cbn. f_equal; field; lra.
    + rewrite (proj2 (Rltb_false _ _)) by lra. cbn [b_spectrum b_wi b_pdf b_flags]. split; [reflexivity|].
      rewrite (world_tangent d) by exact A. unfold factor. fold (normal_of i). cbn [b_spectrum b_wi b_pdf]. rewrite (proj1 (Wf _ A)), T2. split; [reflexivity|].
      split. { rewrite T3, T4, Td. unfold world_of, to_world. vring. }
      rewrite Rabs_Ropp, Rabs_right by lra. destruct c as [x1 x2 x3]. unfold gray, sdiv, sscale, smul. cbn. f_equal; field; lra.
Qed.
(** Through a body and out again the light is multiplied by the colour once at each face; the roots cancel. *)
Theorem C89_through : forall G (gen : G -> R * G) fuel c n d i g d' i' g' s j e r s' j' e' r', draws01 gen -> arrives d i -> arrives d' i' ->
  proper (Dielectric c n) d i 1 -> proper (Dielectric c n) d' i' n -> 1 / 10 ^ 7 <= Rabs (1 - n) ->
  sample_bsdf gen fuel (Dielectric c n) d i 1 g = Ok (Some (Some s, j, e, r)) -> sample_bsdf gen fuel (Dielectric c n) d' i' n g' = Ok (Some (Some s', j', e', r')) ->
  is_transmission s = true -> is_transmission s' = true -> smul (factor i s) (factor i' s') = smul c c.
Proof.
  intros G gen fuel c n d i g d' i' g' s j e r s' j' e' r' D A A' P P' Nn E E' Ts Ts'.
  assert (O1 : other_index 1 n = n) by (unfold other_index; rewrite (proj2 (Rltb_false _ _)) by lra; reflexivity).
  assert (O2 : other_index n n = 1) by (unfold other_index; rewrite Rminus_diag_eq, Rabs_R0 by reflexivity; rewrite (proj2 (Rltb_true _ _)) by lra; reflexivity).
  pose proof (proj1 P) as N0.
  assert (X : forall d0 i0 eta g0 s0 j0 e0 r0, arrives d0 i0 -> proper (Dielectric c n) d0 i0 eta -> sample_bsdf gen fuel (Dielectric c n) d0 i0 eta g0 = Ok (Some (Some s0, j0, e0, r0)) ->
    is_transmission s0 = true -> factor i0 s0 = sscale c (sqrt (eta / other_index eta n))).
  { intros d0 i0 eta g0 s0 j0 e0 r0 A0 P0 E0 T0. destruct (C86_sides _ _ _ _ _ _ _ _ _ _ _ _ D A0 P0 E0) as (_ & _ & _ & _ & S0).
    destruct (C89_dielectric _ _ fuel c n d0 i0 eta g0 D A0 P0) as (s1 & i1 & E1 & _ & H). rewrite E0 in E1. injection E1 as <- <- _ _.
    assert (Nr : is_reflection s0 = true -> False) by (intros Y; destruct S0 as [(_ & Y' & _)|(Y' & _)]; congruence).
    destruct H as [(_ & Y & _)|(cos2 & rho & _ & _ & _ & _ & H1 & H2)]; [destruct (Nr Y)|].
    destruct (Rlt_le_dec (fst (gen g0)) rho) as [Hu|Hu]; [destruct (Nr (proj1 (H1 Hu)))|]. exact (proj2 (proj2 (proj2 (H2 Hu)))). }
  rewrite (X _ _ _ _ _ _ _ _ A P E Ts), (X _ _ _ _ _ _ _ _ A' P' E' Ts'), O1, O2.
  assert (Sq : sqrt (1 / n) * sqrt (n / 1) = 1). { rewrite <- sqrt_mult_alt by (left; apply Rdiv_lt_0_compat; lra). replace (1 / n * (n / 1)) with 1 by (field; lra). apply sqrt_1. }
  destruct c as [x1 x2 x3]. unfold smul, sscale. cbn [red green blue].
  f_equal; match goal with |- ?x * ?a * (?x * ?b) = _ => replace (x * a * (x * b)) with (x * x * (a * b)) by ring end; rewrite Sq; ring.
Qed.
(** the same floor seen from the back *)
Definition floor_back (d : pt) : Interaction := mkInter (mkV (1 / 4) (1 / 4) 0) (vscale d (-1)) (mkInfo (mkV (1 / 4) (1 / 4) 0) (mkV 0 0 1) Back (mkV (-1) 0 0) (mkV 0 1 0)).
Lemma floor_back_arrives d : vlen2 d = 1 -> vz d < 0 -> arrives d (floor_back d).
Proof.
  intros L Z. split; [apply vlen_of; exact L|]. split; [reflexivity|]. exists (mkTri (mkV 0 0 0) (mkV 0 1 0) (mkV 1 0 0)). unfold new_info. cbn [ta tb tc it_point floor_back it_info].
  replace (vsub (mkV 1 0 0) (mkV 0 0 0)) with (mkV 1 0 0) by vring. replace (vsub (mkV 0 1 0) (mkV 0 0 0)) with (mkV 0 1 0) by vring.
  replace (vcross (mkV 0 1 0) (mkV 1 0 0)) with (mkV 0 0 (-1)) by vring.
  rewrite (normalize_unit (mkV 0 0 (-1))) by (unfold vlen2; cbn; ring). cbn [bind].
  unfold get_side. replace (vdot (mkV 0 0 (-1)) d) with (- vz d) by vring. cbv zeta. rewrite (proj2 (Rltb_false _ _)) by lra. rewrite (proj2 (Rltb_true _ _)) by lra.
  rewrite (normalize_unit (mkV 0 1 0)) by (unfold vlen2; cbn; ring). cbn [bind].
  replace (vcross (vscale (mkV 0 0 (-1)) (-1)) (mkV 0 1 0)) with (mkV (-1) 0 0) by vring.
  rewrite (normalize_unit (mkV (-1) 0 0)) by (unfold vlen2; cbn; ring). cbn [bind]. f_equal. f_equal. vring.
Qed.
Lemma down_unit : vlen2 (mkV 0 0 (-1)) = 1. Proof. unfold vlen2. cbn. ring. Qed.
Lemma const_draws01 {G} u : 0 <= u < 1 -> draws01 (fun g : G => (u, g)). Proof. intros H g. exact H. Qed.

(** False: that a clear body returns no more light than it receives, when the ray leaves it... *)
Theorem C89_gain_refuted : exists d i s i', arrives d i /\ proper (Dielectric ONE (3 / 2)) d i (3 / 2) /\ i_side (it_info i) = Back /\
  sample_bsdf (fun g : unit => (1 / 2, g)) 1 (Dielectric ONE (3 / 2)) d i (3 / 2) tt = Ok (Some (Some s, i', 1, tt)) /\
  is_transmission s = true /\ 1 < red (factor i s).
Proof.
  set (d := mkV 0 0 (-1)). exists d, (floor_back d). pose proof (floor_back_arrives d down_unit ltac:(cbn; lra)) as A.
  assert (O2 : other_index (3 / 2) (3 / 2) = 1) by (unfold other_index; rewrite Rminus_diag_eq, Rabs_R0 by reflexivity; rewrite (proj2 (Rltb_true _ _)) by lra; reflexivity).
  assert (Nd : vdot d (normal_of (floor_back d)) = -1) by (unfold d, vdot, normal_of; cbn; ring).
  assert (P : proper (Dielectric ONE (3 / 2)) d (floor_back d) (3 / 2)) by (cbn [proper]; rewrite O2, Nd; split; [lra|]; split; lra).
  destruct (C89_dielectric unit (fun g => (1 / 2, g)) 1 ONE (3 / 2) d (floor_back d) (3 / 2) tt (const_draws01 (1 / 2) ltac:(lra)) A P) as (s & i' & E & _ & H).
  rewrite O2, Nd in H. cbn [fst] in H. exists s, i'. split; [exact A|]. split; [exact P|]. split; [reflexivity|]. split; [exact E|].
  destruct H as [(H & _)|(cos2 & rho & C0 & Sn & Er & _ & _ & H)]; [exfalso; lra|].
  assert (cos2 = 1) by nra. subst cos2. assert (rho = 1 / 25) by (rewrite Er; field). destruct (H ltac:(lra)) as (T & _ & _ & F). split; [exact T|].
  rewrite F. cbn. rewrite Rmult_1_l, <- sqrt_1 at 1. apply sqrt_lt_1; lra.
Qed.
(** ... and that a ray that is reflected on the outside stays in the air: its index of refraction becomes the one of the body. *)
Theorem C89_index_refuted : exists d i s i', arrives d i /\ proper (Dielectric ONE (3 / 2)) d i 1 /\
  sample_bsdf (fun g : unit => (0, g)) 1 (Dielectric ONE (3 / 2)) d i 1 tt = Ok (Some (Some s, i', 3 / 2, tt)) /\ is_reflection s = true /\ is_transmission s = false.
Proof.
  set (d := mkV 0 0 (-1)). exists d, (floor_hit d). pose proof (floor_arrives d down_unit ltac:(cbn; lra)) as A.
  assert (O1 : other_index 1 (3 / 2) = 3 / 2) by (unfold other_index; rewrite Rabs_left by lra; rewrite (proj2 (Rltb_false _ _)) by lra; reflexivity).
  assert (Nd : vdot d (normal_of (floor_hit d)) = -1) by (unfold d, vdot, normal_of; cbn; ring).
  assert (P : proper (Dielectric ONE (3 / 2)) d (floor_hit d) 1) by (cbn [proper]; rewrite O1, Nd; split; [lra|]; split; lra).
  pose proof (const_draws01 (G := unit) 0 ltac:(lra)) as D.
  destruct (C89_dielectric unit (fun g => (0, g)) 1 ONE (3 / 2) d (floor_hit d) 1 tt D A P) as (s & i' & E & _ & H).
  rewrite O1, Nd in H. cbn [fst] in H. exists s, i'. split; [exact A|]. split; [exact P|]. split; [exact E|].
  destruct (C86_sides _ _ _ _ _ _ _ _ _ _ _ _ D A P E) as (_ & _ & _ & _ & Sd).
  assert (Rs : is_reflection s = true).
  { destruct H as [(_ & H & _)|(cos2 & rho & C0 & Sn & Er & _ & H & _)]; [exact H|]. assert (cos2 = 1) by nra. subst cos2. apply H. assert (rho = 1 / 25) by (rewrite Er; field). lra. }
  split; [exact Rs|]. destruct Sd as [(_ & X & _)|(X & _)]; congruence.
Qed.
Example C89_example : exists d i, arrives d i /\ proper (Dielectric (mkS (1 / 2) 1 1) (3 / 2)) d i 1 /\ draws01 (fun g : unit => (1 / 3, g)) /\ vdot d (normal_of i) = - (4 / 5).
Proof.
  set (d := mkV (3 / 5) 0 (- (4 / 5))). exists d, (floor_hit d).
  assert (Nd : vdot d (normal_of (floor_hit d)) = - (4 / 5)) by (unfold d, vdot, normal_of; cbn; ring).
  split; [apply floor_arrives; [unfold d, vlen2; cbn; lra|cbn; lra]|]. split; [|split; [apply const_draws01; lra|exact Nd]].
  cbn [proper]. rewrite Nd. assert (O1 : other_index 1 (3 / 2) = 3 / 2) by (unfold other_index; rewrite Rabs_left by lra; rewrite (proj2 (Rltb_false _ _)) by lra; reflexivity).
  rewrite O1. split; [lra|]. split; lra.
Qed.

(** ** C90: panes of glass *)
Lemma const_integral (a : R) : is_RInt (fun _ : R => a) 0 1 a.
Proof.
  pose proof (is_RInt_const (V := R_NormedModule) 0 1 a) as X.
  match type of X with is_RInt _ _ _ ?v => replace v with a in X by (unfold scal; cbn; unfold mult; cbn; ring) end. exact X.
Qed.
Lemma step_integral p a b : 0 <= p <= 1 -> is_RInt (fun u => if Rleb u p then a else b) 0 1 (p * a + (1 - p) * b).
Proof.
  intros P. apply (is_RInt_Chasles _ 0 p 1 (p * a) ((1 - p) * b)).
  - apply is_RInt_ext with (fun _ => a). { intros x X. rewrite Rmax_right in X by lra. rewrite (proj2 (Rleb_true _ _)) by lra. reflexivity. }
    replace (p * a) with (scal (p - 0) a) by (unfold scal; cbn; unfold mult; cbn; ring). apply is_RInt_const.
  - apply is_RInt_ext with (fun _ => b). { intros x X. rewrite Rmin_left in X by lra. rewrite (proj2 (Rleb_false _ _)) by lra. reflexivity. }
    replace ((1 - p) * b) with (scal (1 - p) b) by (unfold scal; cbn; unfold mult; cbn; ring). apply is_RInt_const.
Qed.
(** by what the light is multiplied, when the only random number is [u]; nothing when the ray ends *)
Definition light_after (m : Material) (d : pt) (i : Interaction) (eta u : R) : spectrum :=
  match sample_bsdf (fun g : unit => (u, g)) 1 m d i eta tt with Ok (Some (Some s, _, _, _)) => factor i s | _ => BLACK end.
(** what happens at one face, and the part that a single way through the pane lets pass *)
Definition face (cos1 n cos2 f t : R) : Prop := 0 < cos2 /\ n * n * (1 - cos2 * cos2) = 1 - cos1 * cos1 /\
  f = ((cos1 - n * cos2) / (cos1 + n * cos2)) ^ 2 /\ t = ((cos2 - n * cos1) / (cos2 + n * cos1)) ^ 2 /\ 0 < f < 1 /\ 0 <= t < 1.
(** all the light that comes back, and all that comes out at the other side, after any number of reflections inside *)
Definition returned (f a x : R) : Prop := is_series (fun k => match k with O => f | S k => (1 - f) * (a * (f * a) ^ (2 * k + 1)) * (1 - f) end) x.
Definition passed (f a x : R) : Prop := is_series (fun k => (1 - f) * (a * (f * a) ^ (2 * k)) * (1 - f)) x.

(** The pane either mirrors the ray or lets it pass straight on; the shares of the light are those of an infinite number of reflections
    inside, for the average of the two polarisations; what is missing is absorbed. *)
Theorem C90_glass : forall c n d i, arrives d i -> 1 < n -> channels (fun v => 0 <= v <= 1) c -> MIN_COLOUR <= smax c ->
  exists cos2 f t p Rf Tr, face (- vdot d (normal_of i)) n cos2 f t /\
  (forall chan, In chan three -> let a := Rpower (Rmax (chan c) MIN_COLOUR) (1 / cos2) in 0 < a <= 1 /\
     (exists x y, returned f a x /\ returned t a y /\ chan Rf = (x + y) / 2) /\
     (exists x y, passed f a x /\ passed t a y /\ chan Tr = (x + y) / 2) /\
     chan Rf + chan Tr = 1 - ((1 - f) * (1 - a) / (1 - f * a) + (1 - t) * (1 - a) / (1 - t * a)) / 2) /\
  p = radiance Rf / (radiance Rf + radiance Tr) /\ 0 < p < 1 /\
  forall G (gen : G -> R * G) fuel eta g, draws01 gen ->
    (radiance Rf < 1 / 10 ^ 19 /\ radiance Tr < 1 / 10 ^ 19 -> sample_bsdf gen fuel (Glass c n) d i eta g = Ok (Some (None, i, eta, g))) /\
    (1 / 10 ^ 19 <= radiance Rf \/ 1 / 10 ^ 19 <= radiance Tr ->
    exists s i', sample_bsdf gen fuel (Glass c n) d i eta g = Ok (Some (Some s, i', eta, snd (gen g))) /\ is_specular s = true /\
      (fst (gen g) <= p -> is_reflection s = true /\ b_wi s = mirrored i d /\ sscale (factor i s) p = Rf) /\
      (p < fst (gen g) -> is_transmission s = true /\ b_wi s = d /\ sscale (factor i s) (1 - p) = Tr)).
Proof.
  intros c n d i A N C Mn. destruct (local_facts d i A) as (Zd & Z & L & W). pose proof (mirrored_local d i A) as Mi.
  set (w := local_of d i) in *.
  destruct (glass_fresnel n w N L Z) as (C0 & Sn & _ & _).
  pose proof (glass_sample_facts (fun g : unit => (0, g)) c n w tt N L Z C (const_draws01 0 ltac:(lra))) as H0. cbv zeta in H0.
  assert (Nm : Rltb (smax c) MIN_COLOUR = false) by (apply Rltb_false; lra). rewrite Nm in H0. cbv iota in H0.
  set (f := ((- vz w - n * transmitted_cos n w) / (- vz w + n * transmitted_cos n w)) ^ 2) in *.
  set (t := ((transmitted_cos n w - n * - vz w) / (transmitted_cos n w + n * - vz w)) ^ 2) in *.
  set (att := fun v => Rpower (Rmax v MIN_COLOUR) (1 / transmitted_cos n w)).
  set (Rf := smap (fun v => (pane_refl f (att v) + pane_refl t (att v)) / 2) c).
  set (Tr := smap (fun v => (pane_trans f (att v) + pane_trans t (att v)) / 2) c).
  destruct H0 as (F & T & At & Pp & P1 & _). specialize (P1 Mn).
  exists (transmitted_cos n w), f, t, (radiance Rf / (radiance Rf + radiance Tr)), Rf, Tr. rewrite <- Zd.
  split. { repeat split; try lra; try reflexivity; try apply F; try apply T. }
  split.
  { intros chan I. pose proof (proj1 (three_channels _ _) C chan I) as V. destruct (At _ V) as (V1 & V2). specialize (V2 Mn). fold (att (chan c)) in *. cbv zeta.
    destruct (pane_facts f (att (chan c)) ltac:(lra) V1) as (_ & _ & _ & _ & _ & X1). destruct (pane_facts t (att (chan c)) T V1) as (_ & _ & _ & _ & _ & X2).
    destruct (pane_series f (att (chan c)) ltac:(lra) V1) as (Y1 & Y2). destruct (pane_series t (att (chan c)) T V1) as (Y3 & Y4).
    unfold Rf, Tr. rewrite !three_smap by exact I. split; [lra|]. split; [do 2 eexists; split; [exact Y2|]; split; [exact Y4|reflexivity]|].
    split; [do 2 eexists; split; [exact Y1|]; split; [exact Y3|reflexivity]|]. lra. }
  split; [reflexivity|]. split; [split; [apply Pp|exact P1]|].
  intros G gen fuel eta g D. destruct (glass_sample_facts gen c n w g N L Z C D) as (_ & _ & _ & _ & _ & X). rewrite Nm in X. cbn [negb andb] in X. fold f t in X.
  change (smap (fun v => (pane_refl f (Rpower (Rmax v MIN_COLOUR) (1 / transmitted_cos n w)) + pane_refl t (Rpower (Rmax v MIN_COLOUR) (1 / transmitted_cos n w))) / 2) c) with Rf in X.
  change (smap (fun v => (pane_trans f (Rpower (Rmax v MIN_COLOUR) (1 / transmitted_cos n w)) + pane_trans t (Rpower (Rmax v MIN_COLOUR) (1 / transmitted_cos n w))) / 2) c) with Tr in X.
  split.
  { intros (B1 & B2). rewrite (proj2 (Rltb_true _ _) B1), (proj2 (Rltb_true _ _) B2) in X. cbn [andb] in X. cbv iota in X.
    unfold sample_bsdf. fold (normal_of i). fold (local_of d i). fold w. cbn [local_sample]. rewrite X. reflexivity. }
  intros Big. assert (Nt : Rltb (radiance Rf) (1 / 10 ^ 19) && Rltb (radiance Tr) (1 / 10 ^ 19) = false).
  { destruct Big as [B|B]; [rewrite (proj2 (Rltb_false (radiance Rf) _)) by lra; reflexivity|rewrite (proj2 (Rltb_false (radiance Tr) _)) by lra; apply andb_false_r]. }
  rewrite Nt in X. cbv iota in X.
  unfold sample_bsdf. fold (normal_of i). fold (local_of d i). fold w. cbn [local_sample]. rewrite X. cbn [bind].
  change (radiance (smap _ c) / _) with (radiance Rf / (radiance Rf + radiance Tr)) in Pp, P1.
  set (p := radiance Rf / (radiance Rf + radiance Tr)) in *. clearbody p. fold (world_of i (b_wi (if Rleb (fst (gen g)) p then mkBS (sdiv Rf (- vz w)) (mirror_direction w) p SpecularReflection else mkBS (sdiv Tr (- vz w)) w (1 - p) SpecularTransmission))).
  eexists. eexists. split; [reflexivity|].
  destruct (Rleb_spec (fst (gen g)) p) as [Hu|Hu]; cbn [b_spectrum b_wi b_pdf b_flags]; (split; [reflexivity|]; split; intros Hu'; [|]); try lra.
  - split; [reflexivity|]. split; [exact Mi|]. unfold factor. fold (normal_of i). cbn [b_spectrum b_wi b_pdf b_flags]. rewrite (proj1 (world_facts d i _ A)). cbn [mirror_direction vz].
    rewrite Rabs_right by lra. clearbody Rf. destruct Rf as [x1 x2 x3]. unfold sscale, sdiv. cbn [red green blue]. f_equal; field; lra.
  - split; [reflexivity|]. split; [exact W|]. unfold factor. fold (normal_of i). cbn [b_spectrum b_wi b_pdf b_flags]. rewrite (proj1 (world_facts d i _ A)).
    rewrite Rabs_left by lra. clearbody Tr. destruct Tr as [x1 x2 x3]. unfold sscale, sdiv. cbn [red green blue]. f_equal; field; lra.
Qed.
Lemma returned_unique f a x : 0 <= f < 1 -> 0 <= a <= 1 -> returned f a x -> x = pane_refl f a.
Proof. intros F A H. rewrite <- (is_series_unique _ _ H). apply is_series_unique. apply pane_series; assumption. Qed.
Lemma passed_unique f a x : 0 <= f < 1 -> 0 <= a <= 1 -> passed f a x -> x = pane_trans f a.
Proof. intros F A H. rewrite <- (is_series_unique _ _ H). apply is_series_unique. apply pane_series; assumption. Qed.
Lemma three_ops chan a k : In chan three -> chan (sscale a k) = chan a * k /\ chan (sdiv a k) = chan a / k /\ chan BLACK = 0 /\ chan (gray k) = k.
Proof. intros [<-|[<-|[<-|[]]]]; repeat split. Qed.
Lemma absorbed_nonneg f a : 0 <= f < 1 -> 0 <= a <= 1 -> 0 <= (1 - f) * (1 - a) / (1 - f * a).
Proof. intros F A. apply Rmult_le_pos; [apply Rmult_le_pos; lra|]. left. apply Rinv_0_lt_compat. nra. Qed.

(** a pane that lets nothing through: what comes back *)
Lemma black_glass {G} (gen : G -> R * G) fuel c n d i eta g : arrives d i -> 1 < n -> channels (fun v => 0 <= v <= 1) c -> smax c < MIN_COLOUR -> draws01 gen ->
  exists s i' Rf, sample_bsdf gen fuel (Glass c n) d i eta g = Ok (Some (Some s, i', eta, snd (gen g))) /\ is_reflection s = true /\ b_wi s = mirrored i d /\
    factor i s = Rf /\ channels (fun v => 0 <= v <= 1) Rf /\ Rf = smap (fun v => (pane_refl (((- vz (local_of d i) - n * transmitted_cos n (local_of d i)) / (- vz (local_of d i) + n * transmitted_cos n (local_of d i))) ^ 2) v
      + pane_refl (((transmitted_cos n (local_of d i) - n * - vz (local_of d i)) / (transmitted_cos n (local_of d i) + n * - vz (local_of d i))) ^ 2) v) / 2) c.
Proof.
  intros A N C Mn D. destruct (local_facts d i A) as (Zd & Z & L & W). pose proof (mirrored_local d i A) as Mi. set (w := local_of d i) in *.
  destruct (glass_sample_facts gen c n w g N L Z C D) as (F & T & _ & _ & _ & X). rewrite (proj2 (Rltb_true _ _) Mn) in X. cbn [negb andb] in X.
  rewrite (proj2 (Rleb_true (fst (gen g)) 1)) in X by (pose proof (D g); lra).
  unfold sample_bsdf. fold (normal_of i). fold (local_of d i). fold w. cbn [local_sample]. rewrite X. cbn [bind b_spectrum b_wi b_pdf b_flags].
  fold (world_of i (mirror_direction w)). eexists. eexists. eexists. split; [reflexivity|]. split; [reflexivity|]. split; [exact Mi|].
  split; [|split; [|reflexivity]].
  - unfold factor. fold (normal_of i). cbn [b_spectrum b_wi b_pdf b_flags]. rewrite (proj1 (world_facts d i _ A)). cbn [mirror_direction vz]. rewrite Rabs_right by lra.
    unfold smap, sscale, sdiv. cbn [red green blue]. f_equal; field; lra.
  - apply three_channels. intros chan I. rewrite three_smap by exact I. pose proof (proj1 (three_channels _ _) C chan I) as V.
    match goal with |- 0 <= (pane_refl ?f0 _ + pane_refl ?t0 _) / 2 <= 1 => set (f := f0) in *; set (t := t0) in * end.
    destruct (pane_facts f (chan c) ltac:(lra) V) as (_ & X1 & _ & X2 & _ & X3). destruct (pane_facts t (chan c) T V) as (_ & Y1 & _ & Y2 & _ & Y3).
    pose proof (absorbed_nonneg f (chan c) ltac:(lra) V). pose proof (absorbed_nonneg t (chan c) T V). lra.
Qed.

(** No channel gains: on the average over the draws, what leaves the pane is at most what came in, and all of it where the glass is clear. *)
Theorem C90_average : forall c n d i eta chan, arrives d i -> 1 < n -> channels (fun v => 0 <= v <= 1) c -> In chan three ->
  exists x, is_RInt (fun u => chan (light_after (Glass c n) d i eta u)) 0 1 x /\ 0 <= x <= 1 /\ (chan c = 1 -> x = 1).
Proof.
  intros c n d i eta chan A N C I. destruct (Rlt_le_dec (smax c) MIN_COLOUR) as [Mn|Mn].
  - set (f := ((- vz (local_of d i) - n * transmitted_cos n (local_of d i)) / (- vz (local_of d i) + n * transmitted_cos n (local_of d i))) ^ 2).
    set (t := ((transmitted_cos n (local_of d i) - n * - vz (local_of d i)) / (transmitted_cos n (local_of d i) + n * - vz (local_of d i))) ^ 2).
    set (Rf := smap (fun v => (pane_refl f v + pane_refl t v) / 2) c).
    assert (U : forall u, 0 < u < 1 -> light_after (Glass c n) d i eta u = Rf /\ channels (fun v => 0 <= v <= 1) Rf).
    { intros u Hu. destruct (black_glass (fun g : unit => (u, g)) 1 c n d i eta tt A N C Mn (const_draws01 u ltac:(lra))) as (s & i' & Rf' & E & _ & _ & F & B & E').
      fold f t in E'. fold Rf in E'. subst Rf'. unfold light_after. rewrite E. rewrite E' in B. split; assumption. }
    destruct (U (1 / 2) ltac:(lra)) as (_ & B). pose proof (proj1 (three_channels _ _) B chan I) as B'. exists (chan Rf). split; [|split; [exact B'|]].
    + apply is_RInt_ext with (fun _ => chan Rf). { intros u Hu. rewrite Rmin_left, Rmax_right in Hu by lra. rewrite (proj1 (U u Hu)). reflexivity. }
      apply const_integral.
    + intros E1. exfalso. pose proof min_colour_pos. destruct (smax_spec c) as (S1 & S2 & S3). destruct I as [<-|[<-|[<-|[]]]]; lra.
  - destruct (C90_glass c n d i A N C Mn) as (cos2 & f & t & p & Rf & Tr & Fc & Ch & Ep & Pp & H).
    destruct Fc as (C0 & _ & _ & _ & Ff & Ft). destruct (Ch chan I) as (Aa & (x1 & y1 & X1 & Y1 & E1) & (x2 & y2 & X2 & Y2 & E2) & Sm).
    set (a := Rpower (Rmax (chan c) MIN_COLOUR) (1 / cos2)) in *.
    apply returned_unique in X1; [|lra..]. apply returned_unique in Y1; [|lra..]. apply passed_unique in X2; [|lra..]. apply passed_unique in Y2; [|lra..]. subst x1 y1 x2 y2.
    destruct (pane_facts f a ltac:(lra) ltac:(lra)) as (_ & P1 & _ & P2 & _). destruct (pane_facts t a Ft ltac:(lra)) as (_ & P3 & _ & P4 & _).
    pose proof (absorbed_nonneg f a ltac:(lra) ltac:(lra)). pose proof (absorbed_nonneg t a Ft ltac:(lra)).
    destruct (Rltb (radiance Rf) (1 / 10 ^ 19) && Rltb (radiance Tr) (1 / 10 ^ 19)) eqn:Tiny.
    + exists 0. apply andb_true_iff in Tiny as (T1 & T2). apply Rltb_true in T1. apply Rltb_true in T2.
      assert (Pos : forall ch, In ch three -> 0 <= ch Rf /\ 0 <= ch Tr).
      { intros ch Ic. destruct (Ch ch Ic) as (Aa' & (x1 & y1 & X1 & Y1 & E1') & (x2 & y2 & X2 & Y2 & E2') & _).
        apply returned_unique in X1; [|lra..]. apply returned_unique in Y1; [|lra..]. apply passed_unique in X2; [|lra..]. apply passed_unique in Y2; [|lra..]. subst x1 y1 x2 y2.
        destruct (pane_facts f _ ltac:(lra) (conj (Rlt_le _ _ (proj1 Aa')) (proj2 Aa'))) as (_ & Q1 & _ & Q2 & _). destruct (pane_facts t _ Ft (conj (Rlt_le _ _ (proj1 Aa')) (proj2 Aa'))) as (_ & Q3 & _ & Q4 & _). lra. }
      split; [|split; [lra|]].
      * apply is_RInt_ext with (fun _ => 0).
        { intros u Hu. rewrite Rmin_left, Rmax_right in Hu by lra. unfold light_after.
          rewrite (proj1 (H unit (fun g => (u, g)) 1%nat eta tt (const_draws01 u ltac:(lra))) (conj T1 T2)). symmetry. apply (three_ops chan BLACK 0 I). }
        apply const_integral.
      * intros Ec. exfalso. assert (Ea : a = 1). { unfold a. rewrite Ec. pose proof min_colour_pos. rewrite Rmax_left by lra. unfold Rpower. rewrite ln_1, Rmult_0_r. apply exp_0. }
        rewrite Ea in Sm. replace (1 - 1) with 0 in Sm by ring. unfold Rdiv in Sm. rewrite !Rmult_0_r, !Rmult_0_l, Rplus_0_l, Rmult_0_l in Sm.
        pose proof (Pos red (or_introl eq_refl)). pose proof (Pos green (or_intror (or_introl eq_refl))). pose proof (Pos blue (or_intror (or_intror (or_introl eq_refl)))).
        unfold radiance in T1, T2. destruct I as [<-|[<-|[<-|[]]]]; lra.
    + exists (chan Rf + chan Tr). split; [|split; [lra|]].
      * assert (Big : 1 / 10 ^ 19 <= radiance Rf \/ 1 / 10 ^ 19 <= radiance Tr).
        { apply andb_false_iff in Tiny as [T1|T1]; apply Rltb_false in T1; [left|right]; lra. }
        replace (chan Rf + chan Tr) with (p * (chan Rf / p) + (1 - p) * (chan Tr / (1 - p))) by (field; lra).
        apply is_RInt_ext with (fun u => if Rleb u p then chan Rf / p else chan Tr / (1 - p)); [|apply step_integral; lra].
        intros u Hu. rewrite Rmin_left, Rmax_right in Hu by lra. unfold light_after.
        destruct (proj2 (H unit (fun g => (u, g)) 1%nat eta tt (const_draws01 u ltac:(lra))) Big) as (s & i' & Es & _ & Hr & Ht). rewrite Es. cbn [fst] in Hr, Ht.
        destruct (Rleb_spec u p) as [Hp|Hp].
        -- destruct (Hr Hp) as (_ & _ & F). rewrite <- F, (proj1 (three_ops chan _ p I)). match goal with |- ?a = ?b => change (@eq R a b) end. field. lra.
        -- destruct (Ht ltac:(lra)) as (_ & _ & F). rewrite <- F, (proj1 (three_ops chan _ (1 - p) I)). match goal with |- ?a = ?b => change (@eq R a b) end. field. lra.
      * intros Ec. assert (Ea : a = 1). { unfold a. rewrite Ec. pose proof min_colour_pos. rewrite Rmax_left by lra. unfold Rpower. rewrite ln_1, Rmult_0_r. apply exp_0. }
        rewrite Ea in Sm. replace (1 - 1) with 0 in Sm by ring. unfold Rdiv in Sm. rewrite !Rmult_0_r, !Rmult_0_l, Rplus_0_l, Rmult_0_l in Sm. lra.
Qed.
Lemma gray_radiance a : red a = green a -> green a = blue a -> radiance a = red a.
Proof. intros E1 E2. unfold radiance. rewrite <- E2, <- E1. field. Qed.
(** Gray panes return at most what they receive with every single ray, not only on the average. *)
Theorem C90_gray : forall v n d i G (gen : G -> R * G) fuel eta g s i' eta' g', arrives d i -> 1 < n -> 0 <= v <= 1 -> draws01 gen ->
  sample_bsdf gen fuel (Glass (gray v) n) d i eta g = Ok (Some (Some s, i', eta', g')) -> channels (fun x => 0 <= x <= 1) (factor i s) /\ eta' = eta.
Proof.
  intros v n d i G gen fuel eta g s i' eta' g' A N V D E.
  assert (C : channels (fun v => 0 <= v <= 1) (gray v)) by (repeat split; apply V).
  destruct (Rlt_le_dec (smax (gray v)) MIN_COLOUR) as [Mn|Mn].
  - destruct (black_glass gen fuel (gray v) n d i eta g A N C Mn D) as (s0 & i0 & Rf & E0 & _ & _ & F & B & _). rewrite E in E0. injection E0 as -> _ -> _. rewrite F. split; [exact B|reflexivity].
  - destruct (C90_glass (gray v) n d i A N C Mn) as (cos2 & f & t & p & Rf & Tr & Fc & Ch & Ep & Pp & H).
    destruct Fc as (C0 & _ & _ & _ & Ff & Ft). destruct (H G gen fuel eta g D) as (H1 & H2).
    destruct (Rltb_spec (radiance Rf) (1 / 10 ^ 19)) as [T1|T1]; [destruct (Rltb_spec (radiance Tr) (1 / 10 ^ 19)) as [T2|T2]; [rewrite (H1 (conj T1 T2)) in E; discriminate|]|].
    all: destruct H2 as (s0 & i0 & E0 & _ & Hr & Ht); [lra|]; rewrite E in E0; injection E0 as -> _ -> _; split; [|reflexivity].
    all: set (a := Rpower (Rmax v MIN_COLOUR) (1 / cos2)).
    all: assert (Aa : 0 < a <= 1) by exact (proj1 (Ch red (or_introl eq_refl))).
    all: destruct (pane_facts f a ltac:(lra) ltac:(lra)) as (_ & P1 & _ & P2 & _); destruct (pane_facts t a Ft ltac:(lra)) as (_ & P3 & _ & P4 & _).
    all: pose proof (absorbed_nonneg f a ltac:(lra) ltac:(lra)); pose proof (absorbed_nonneg t a Ft ltac:(lra)).
    all: assert (Gr : exists r q, Rf = gray r /\ Tr = gray q /\ 0 <= r /\ 0 <= q /\ r + q <= 1).
    1,3: exists ((pane_refl f a + pane_refl t a) / 2), ((pane_trans f a + pane_trans t a) / 2);
      assert (Eq : forall ch, In ch three -> ch Rf = (pane_refl f a + pane_refl t a) / 2 /\ ch Tr = (pane_trans f a + pane_trans t a) / 2 /\ ch Rf + ch Tr <= 1) by
       (intros ch Ic; destruct (Ch ch Ic) as (_ & (x1 & y1 & X1 & Y1 & E1') & (x2 & y2 & X2 & Y2 & E2') & Sm);
        replace (ch (gray v)) with v in * by (destruct Ic as [<-|[<-|[<-|[]]]]; reflexivity); fold a in X1, Y1, X2, Y2, Sm;
        apply returned_unique in X1; [|lra..]; apply returned_unique in Y1; [|lra..]; apply passed_unique in X2; [|lra..]; apply passed_unique in Y2; [|lra..]; subst x1 y1 x2 y2;
        split; [exact E1'|]; split; [exact E2'|]; lra);
      destruct (Eq red (or_introl eq_refl)) as (_ & _ & Le); pose proof (Eq red (or_introl eq_refl));
      split; [apply spectrum_three; intros ch Ic; rewrite (proj1 (Eq ch Ic)); symmetry; apply (three_ops ch BLACK _ Ic)|];
      split; [apply spectrum_three; intros ch Ic; rewrite (proj1 (proj2 (Eq ch Ic))); symmetry; apply (three_ops ch BLACK _ Ic)|]; lra.
    all: destruct Gr as (r & q & -> & -> & R0 & Q0 & Le).
    all: rewrite !gray_radiance in Ep by reflexivity; cbn [gray red] in Ep.
    all: assert (Pq : p * (r + q) = r) by (rewrite Ep; field; intros Z0; rewrite Ep, Z0 in Pp; unfold Rdiv in Pp; rewrite Rinv_0 in Pp; lra).
    all: apply three_channels; intros ch Ic; destruct (Rle_dec (fst (gen g)) p) as [Hu|Hu].
    1,3: destruct (Hr Hu) as (_ & _ & F); apply (f_equal ch) in F; rewrite (proj1 (three_ops ch _ p Ic)), (proj2 (proj2 (proj2 (three_ops ch BLACK r Ic)))) in F; split; nra.
    all: destruct (Ht ltac:(lra)) as (_ & _ & F); apply (f_equal ch) in F; rewrite (proj1 (three_ops ch _ (1 - p) Ic)), (proj2 (proj2 (proj2 (three_ops ch BLACK q Ic)))) in F; split; nra.
Qed.
(** Coloured glass: a single ray may come out with more light in a channel than it had, because all the channels share the draw. *)
Theorem C90_coloured_refuted : exists d i s i', arrives d i /\
  sample_bsdf (fun g : unit => (1 / 2, g)) 1 (Glass (mkS 1 0 0) (3 / 2)) d i 1 tt = Ok (Some (Some s, i', 1, tt)) /\ is_transmission s = true /\ 1 < red (factor i s).
Proof.
  set (d := mkV 0 0 (-1)). exists d, (floor_hit d). pose proof (floor_arrives d down_unit ltac:(cbn; lra)) as A.
  assert (Nd : vdot d (normal_of (floor_hit d)) = -1) by (unfold d, vdot, normal_of; cbn; ring).
  assert (C : channels (fun v => 0 <= v <= 1) (mkS 1 0 0)) by (repeat split; cbn; lra).
  assert (Mn : MIN_COLOUR <= smax (mkS 1 0 0)). { pose proof min_colour_pos. pose proof (smax_spec (mkS 1 0 0)) as S. cbn [red] in S. lra. }
  destruct (C90_glass (mkS 1 0 0) (3 / 2) d (floor_hit d) A ltac:(lra) C Mn) as (cos2 & f & t & p & Rf & Tr & Fc & Ch & Ep & Pp & H).
  destruct Fc as (C0 & Sn & Ef & Et & Ff & Ft). rewrite Nd in Sn, Ef, Et. assert (cos2 = 1) by nra. subst cos2.
  assert (f = 1 / 25) by (rewrite Ef; field). assert (t = 1 / 25) by (rewrite Et; field). clear Ef Et. subst f t.
  set (lo := 1 / 10 ^ 15).
  assert (Vals : forall ch a, In ch three -> Rmax (ch (mkS 1 0 0)) MIN_COLOUR = a -> 0 < a <= 1 -> ch Rf = pane_refl (1 / 25) a /\ ch Tr = pane_trans (1 / 25) a).
  { intros ch a Ic Ea Ha. destruct (Ch ch Ic) as (_ & (x1 & y1 & X1 & Y1 & E1') & (x2 & y2 & X2 & Y2 & E2') & _).
    rewrite Ea in X1, X2, Y1, Y2. replace (1 / 1) with 1 in X1, X2, Y1, Y2 by field. rewrite Rpower_1 in X1, X2, Y1, Y2 by lra.
    apply returned_unique in X1; [|lra..]. apply returned_unique in Y1; [|lra..]. apply passed_unique in X2; [|lra..]. apply passed_unique in Y2; [|lra..]. subst. rewrite E1', E2'. split; field. }
  pose proof min_colour_pos as Mc.
  destruct (Vals red 1 (or_introl eq_refl) ltac:(cbn; apply Rmax_left; lra) ltac:(lra)) as (R1 & R2).
  destruct (Vals green MIN_COLOUR (or_intror (or_introl eq_refl)) ltac:(cbn; apply Rmax_right; lra) ltac:(lra)) as (G1 & G2).
  destruct (Vals blue MIN_COLOUR (or_intror (or_intror (or_introl eq_refl))) ltac:(cbn; apply Rmax_right; lra) ltac:(lra)) as (B1 & B2).
  assert (V1 : pane_refl (1 / 25) 1 = 1 / 13) by (unfold pane_refl; field). assert (V2 : pane_trans (1 / 25) 1 = 12 / 13) by (unfold pane_trans; field).
  assert (V3 : 1 / 26 <= pane_refl (1 / 25) MIN_COLOUR) by (unfold pane_refl, MIN_COLOUR; lra).
  assert (V3' : pane_refl (1 / 25) MIN_COLOUR <= 1 / 24) by (unfold pane_refl, MIN_COLOUR; lra).
  assert (V4 : 0 <= pane_trans (1 / 25) MIN_COLOUR <= 1 / 1000) by (unfold pane_trans, MIN_COLOUR; lra).
  rewrite V1 in R1. rewrite V2 in R2.
  assert (RR : radiance Rf = 1 / 13 * (265 / 1000) + pane_refl (1 / 25) MIN_COLOUR * (735 / 1000)) by (unfold radiance; rewrite R1, G1, B1; lra).
  assert (RT : radiance Tr = 12 / 13 * (265 / 1000) + pane_trans (1 / 25) MIN_COLOUR * (735 / 1000)) by (unfold radiance; rewrite R2, G2, B2; lra).
  assert (Pq : p * (radiance Rf + radiance Tr) = radiance Rf) by (rewrite Ep; field; lra).
  assert (Pu : p < 1 / 2) by nra.
  assert (Pl : 1 - p < 12 / 13) by nra.
  destruct (proj2 (H unit (fun g => (1 / 2, g)) 1%nat 1 tt (const_draws01 (1 / 2) ltac:(lra))) ltac:(left; lra)) as (s & i' & Es & _ & _ & H2). cbn [fst snd] in *.
  exists s, i'. split; [exact A|]. split; [exact Es|]. destruct (H2 Pu) as (T & _ & F). split; [exact T|].
  apply (f_equal red) in F. cbn [sscale red] in F. rewrite R2 in F. nra.
Qed.
Example C90_example : exists d i, arrives d i /\ vdot d (normal_of i) = - (4 / 5) /\ channels (fun v => 0 <= v <= 1) (mkS (9 / 10) (9 / 10) (8 / 10)) /\ MIN_COLOUR <= smax (mkS (9 / 10) (9 / 10) (8 / 10)).
Proof.
  set (d := mkV (3 / 5) 0 (- (4 / 5))). exists d, (floor_hit d).
  assert (Nd : vdot d (normal_of (floor_hit d)) = - (4 / 5)) by (unfold d, vdot, normal_of; cbn; ring).
  split; [apply floor_arrives; [unfold d, vlen2; cbn; lra|cbn; lra]|]. split; [exact Nd|]. split; [repeat split; cbn; lra|].
  pose proof min_colour_pos as Mc. unfold MIN_COLOUR in *. pose proof (smax_spec (mkS (9 / 10) (9 / 10) (8 / 10))) as S. cbn [red green blue] in S. lra.
Qed.

(** ** C91: plastic and metal *)
(** With the probability [1 - specularity] the light is scattered diffusely and multiplied by the colour.  Otherwise it goes into a
    highlight, in the plane of incidence; plastic does not colour it, metal does. *)
Theorem C91_ward : forall G (gen : G -> R * G) fuel (metal : bool) c specularity roughness d i eta g s i' eta' g', draws01 gen -> arrives d i ->
  sample_bsdf gen fuel (if metal then Metal c specularity roughness else Plastic c specularity roughness) d i eta g = Ok (Some (Some s, i', eta', g')) ->
  eta' = eta /\
  ((specularity <= fst (gen g) /\ b_flags s = DiffuseReflection /\ factor i s = c) \/
   (fst (gen g) < specularity /\ b_flags s = GlossyReflection /\
    exists k r, 0 < k /\ tangent (normal_of i) d = vscale (tangent (normal_of i) (b_wi s)) k /\
      vdot (normal_of i) (b_wi s) = r * - vdot d (normal_of i) /\ 0 < r /\
      factor i s = sscale (if metal then c else ONE) (2 * r / (1 + r)))).
Proof.
  intros G gen fuel metal c sp ro d i eta g s i' eta' g' D A E. destruct (sample_bsdf_local _ _ _ _ _ _ _ _ _ _ _ E) as (s0 & El & Es & _).
  destruct (local_facts d i A) as (Zd & Z & L & W).
  assert (Td : tangent (normal_of i) d = world_of i (mkV (vx (local_of d i)) (vy (local_of d i)) 0)) by (rewrite <- W at 1; apply (world_tangent d); exact A).
  assert (Fs : factor i s = sdiv (sscale (b_spectrum s0) (Rabs (vz (b_wi s0)))) (b_pdf s0)) by (apply (factor_local d); [exact A|rewrite Es; reflexivity..]).
  assert (X : exists q, sample_ward gen fuel sp ro ro (local_of d i) g = Ok (Some (q, g')) /\ eta' = eta /\ b_wi s0 = b_wi q /\ b_pdf s0 = b_pdf q /\ b_flags s0 = b_flags q /\
    b_spectrum s0 = if metal || (b_flags q =? DiffuseReflection)%N then smul (b_spectrum q) c else b_spectrum q).
  { destruct metal; cbn [local_sample] in El; destruct (sample_ward gen fuel sp ro ro (local_of d i) g) as [[[q gq]|]| |]; cbn [bind] in El; try discriminate; injection El as <- <- <-;
      exists q; (split; [reflexivity|]); (split; [reflexivity|]); [repeat split|]. unfold plastic_colour. destruct (b_flags q =? DiffuseReflection)%N; repeat split. }
  clear El E. destruct X as (q & Eq & -> & Q1 & Q2 & Q3 & Q4). rewrite Q1, Q2, Q4 in Fs. split; [reflexivity|].
  assert (Ws : b_wi s = world_of i (b_wi q)) by (rewrite Es; cbn [b_wi]; rewrite Q1; reflexivity).
  assert (Fl : b_flags s = b_flags q) by (rewrite Es; cbn [b_flags]; exact Q3).
  rewrite Ws, Fl, (proj1 (world_facts d i _ A)), (world_tangent d), Td, <- Zd by exact A. rewrite Fs. clear Q1 Q2 Q3 Q4 Ws Fl Es Fs s s0.
  destruct (sample_ward_facts _ _ _ _ _ _ _ _ _ D Z Eq) as [(Hu & (F & U & V & Pd & (k & K & Kx & Ky) & r & Er & Fr) & _)|(Hu & F & U & V & Pd & Fr)]; rewrite F, Rabs_right by lra.
  - right. split; [exact Hu|]. split; [reflexivity|]. exists k, r. split; [exact K|]. split; [rewrite Kx, Ky; unfold world_of, to_world; vring|]. split; [rewrite <- Er; ring|].
    assert (R0 : 0 < r) by nra. split; [exact R0|].
    assert (Ch : forall ch, In ch three -> ch (b_spectrum q) * vz (b_wi q) / b_pdf q = 2 * r / (1 + r)).
    { intros ch Ic. apply (f_equal ch) in Fr. rewrite (proj1 (proj2 (three_ops ch _ (b_pdf q) Ic))), (proj1 (three_ops ch _ (vz (b_wi q)) Ic)), (proj2 (proj2 (proj2 (three_ops ch BLACK _ Ic)))) in Fr. exact Fr. }
    change (GlossyReflection =? DiffuseReflection)%N with false. pose proof (Ch red (or_introl eq_refl)) as C1. pose proof (Ch green (or_intror (or_introl eq_refl))) as C2. pose proof (Ch blue (or_intror (or_intror (or_introl eq_refl)))) as C3.
    destruct metal; cbn [orb].
    + destruct c as [x1 x2 x3]. unfold sdiv, sscale, smul. cbn [red green blue]. rewrite <- C1 at 1. rewrite <- C2 at 1. rewrite <- C3 at 1. f_equal; field; lra.
    + rewrite Fr. unfold gray, sscale, ONE, gray. cbn [red green blue]. f_equal; ring.
  - left. split; [exact Hu|]. split; [reflexivity|]. change (DiffuseReflection =? DiffuseReflection)%N with true. rewrite orb_true_r.
    assert (Ch : forall ch, In ch three -> ch (b_spectrum q) * vz (b_wi q) / b_pdf q = 1).
    { intros ch Ic. apply (f_equal ch) in Fr. rewrite (proj1 (proj2 (three_ops ch _ (b_pdf q) Ic))), (proj1 (three_ops ch _ (vz (b_wi q)) Ic)) in Fr. unfold ONE in Fr. rewrite (proj2 (proj2 (proj2 (three_ops ch BLACK _ Ic)))) in Fr. exact Fr. }
    pose proof (Ch red (or_introl eq_refl)) as C1. pose proof (Ch green (or_intror (or_introl eq_refl))) as C2. pose proof (Ch blue (or_intror (or_intror (or_introl eq_refl)))) as C3.
    destruct c as [x1 x2 x3]. unfold sdiv, sscale, smul. cbn [red green blue].
    f_equal; match goal with |- ?a * ?x * ?b / ?p = ?x => replace (a * x * b / p) with (x * (a * b / p)) by (field; lra) end; rewrite ?C1, ?C2, ?C3; ring.
Qed.
(** Without a highlight they are diffuse surfaces of their colour. *)
Theorem C91_matte : forall G (gen : G -> R * G) fuel (metal : bool) c roughness d i eta g, draws01 gen -> arrives d i ->
  exists s i' g', sample_bsdf gen fuel (if metal then Metal c 0 roughness else Plastic c 0 roughness) d i eta g = Ok (Some (Some s, i', eta, g')) /\ factor i s = c.
Proof.
  intros G gen fuel metal c ro d i eta g D A.
  assert (E : exists s i' g', sample_bsdf gen fuel (if metal then Metal c 0 ro else Plastic c 0 ro) d i eta g = Ok (Some (Some s, i', eta, g'))).
  { unfold sample_bsdf. pose proof (D g) as D0. assert (X : forall w, exists s g', sample_ward gen fuel 0 ro ro w g = Ok (Some (s, g'))).
    { intros w. unfold sample_ward. destruct (gen g) as [p g1]. cbn [fst] in D0. rewrite (proj2 (Rltb_false _ _)) by lra. destruct (gen2 gen g1). do 2 eexists. reflexivity. }
    destruct (X (local_of d i)) as (s & g' & Es). unfold local_of, normal_of in Es. destruct metal; cbn [local_sample]; rewrite Es; cbn [bind]; do 3 eexists; reflexivity. }
  destruct E as (s & i' & g' & E). exists s, i', g'. split; [exact E|].
  destruct (C91_ward _ _ _ _ _ _ _ _ _ _ _ _ _ _ _ D A E) as (_ & [(_ & _ & F)|(H & _)]); [exact F|]. pose proof (D g). lra.
Qed.
(** A highlight is never twice as bright as the light, and not brighter than it when it leaves at a flatter angle. *)
Theorem C91_bound : forall r, 0 < r -> 0 < 2 * r / (1 + r) < 2 /\ (r <= 1 <-> 2 * r / (1 + r) <= 1).
Proof.
  intros r H. assert (E : 2 * r / (1 + r) * (1 + r) = 2 * r) by (field; lra). set (q := 2 * r / (1 + r)) in *. clearbody q.
  split; [split; nra|]. split; nra.
Qed.

(** *** What is false of them *)
(** a generator that gives the numbers of a list and then zeros *)
Definition listed (l : list R) : R * list R := match l with x :: l => (x, l) | [] => (0, []) end.
(** The highlight of a rough surface does not spread when the light falls perpendicularly: it always goes straight back. *)
Theorem C91_spread_refuted : forall G (gen : G -> R * G) fuel (metal : bool) c specularity roughness d i eta g s i' eta' g', draws01 gen -> arrives d i ->
  d = vscale (normal_of i) (-1) ->
  sample_bsdf gen fuel (if metal then Metal c specularity roughness else Plastic c specularity roughness) d i eta g = Ok (Some (Some s, i', eta', g')) ->
  b_flags s = GlossyReflection -> b_wi s = normal_of i.
Proof.
  intros G gen fuel metal c sp ro d i eta g s i' eta' g' D A Ed E Fl.
  destruct (C91_ward _ _ _ _ _ _ _ _ _ _ _ _ _ _ _ D A E) as (_ & [(_ & F & _)|(_ & _ & k & r & K & Tg & Nr & R0 & _)]); [rewrite F in Fl; discriminate|].
  assert (P : proper (if metal then Metal c sp ro else Plastic c sp ro) d i eta) by (destruct metal; exact I).
  destruct (C86_sides _ _ _ _ _ _ _ _ _ _ _ _ D A P E) as (L & _).
  destruct (arrives_frame d i A) as (Fr & _). assert (Nn : vlen2 (normal_of i) = 1) by (destruct Fr as (_ & _ & X & _); exact X).
  set (n := normal_of i) in *. assert (Dn : vdot d n = -1). { rewrite Ed. replace (vdot (vscale n (-1)) n) with (- vlen2 n) by vring. rewrite Nn. ring. }
  assert (T0 : tangent n d = mkV 0 0 0). { unfold tangent. rewrite Dn, Ed. vring. }
  rewrite T0 in Tg. assert (T1 : tangent n (b_wi s) = mkV 0 0 0).
  { destruct (tangent n (b_wi s)) as [a b e]. unfold vscale in Tg. cbn in Tg. injection Tg as X Y V. f_equal; nra. }
  rewrite Dn in Nr. assert (Nr' : vdot n (b_wi s) = r) by lra.
  assert (Ew : b_wi s = vscale n r). { rewrite <- Nr'. unfold tangent in T1. rewrite (vdot_comm (b_wi s)) in T1. destruct (b_wi s) as [a b e], n as [x y z]. unfold vsub, vscale, vdot in *. cbn in *. injection T1 as X Y V. f_equal; lra. }
  assert (L2 : vlen2 (b_wi s) = 1) by (rewrite <- vlen_sqr, L; ring). rewrite Ew in L2. replace (vlen2 (vscale n r)) with (r * r * vlen2 n) in L2 by vring. rewrite Nn in L2.
  assert (R1 : r = 1) by nra. rewrite Ew, R1. vring.
Qed.
(** Some draws make it panic: the direction it wants to normalise is zero. *)
Theorem C91_panic_refuted : exists d i, arrives d i /\ forall c specularity roughness p xi1 xi2 fuel eta, 0 <= p < specularity -> 0 <= xi2 < 1 / 10 ^ 9 ->
  sample_bsdf listed (S fuel) (Plastic c specularity roughness) d i eta [p; xi1; xi2] = Panic.
Proof.
  set (d := mkV 0 0 (-1)). exists d, (floor_hit d). split; [apply floor_arrives; [exact down_unit|cbn; lra]|].
  intros c sp ro p x1 x2 fuel eta Hp Hx. unfold sample_bsdf. fold (normal_of (floor_hit d)). fold (local_of d (floor_hit d)). rewrite floor_local.
  cbn [local_sample]. unfold sample_ward. cbn [listed]. rewrite (proj2 (Rltb_true _ _)) by lra. cbn [ward_loop]. unfold gen2. cbn [listed].
  unfold ward_try. cbv zeta. rewrite (proj2 (Rltb_true x2 _)) by lra.
  unfold vnormalize. rewrite (proj2 (Rltb_false _ _)); [reflexivity|].
  unfold d, vdot, vlen2. cbn [vx vy vz]. set (a := cos _ * _ * _ * _). set (b := sin _ * _ * _ * _). match goal with |- ?y <= _ => assert (y = 0); [|lra] end. clearbody a b. field.
Qed.
(** With a specularity of at most [1e-5] a draw below it sends the sampler into a loop that never ends. *)
Theorem C91_endless_refuted : exists d i, arrives d i /\ forall G (gen : G -> R * G) c specularity roughness eta g, specularity <= 1 / 10 ^ 5 -> fst (gen g) < specularity ->
  forall fuel, sample_bsdf gen fuel (Plastic c specularity roughness) d i eta g = Ok None.
Proof.
  set (d := mkV (3 / 5) 0 (- (4 / 5))). exists d, (floor_hit d). split; [apply floor_arrives; [unfold d, vlen2; cbn; lra|cbn; lra]|].
  intros G gen c sp ro eta g Hs Hu fuel. unfold sample_bsdf. fold (normal_of (floor_hit d)). fold (local_of d (floor_hit d)). rewrite floor_local.
  cbn [local_sample]. unfold sample_ward. destruct (gen g) as [p g1]. cbn [fst] in Hu. rewrite (proj2 (Rltb_true _ _)) by lra.
  assert (Loop : forall al be fuel attempts g0, ward_loop gen fuel attempts sp al be d g0 = Ok None).
  { intros al be. induction fuel0 as [|fuel0 IH]; intros attempts g0; [reflexivity|]. cbn [ward_loop]. destruct (gen2 gen g0) as [xi g2].
    assert (Ok' : exists v, ward_try al be d xi = Ok v).
    { destruct xi as [x1 x2]. unfold ward_try. cbv zeta. unfold vnormalize. rewrite (proj2 (Rltb_true _ _)); [eexists; reflexivity|].
      unfold vlen2, d. cbn [vx vy vz]. match goal with |- _ < _ + ?q * ?q => pose proof (Rle_0_sqr q) as Q; unfold Rsqr in Q end. lra. }
    destruct Ok' as (v & ->). cbn [bind]. rewrite (proj2 (Rltb_true (vz d) 0)) by (cbn; lra). rewrite orb_true_r.
    assert (Ev : exists dif, evaluate_ward sp al be d v = Ok (0, dif)).
    { unfold evaluate_ward. destruct (same_hemisphere d v); cbn [negb]; [|eexists; reflexivity]. rewrite (proj2 (Rltb_false _ _)) by lra. cbn [bind]. eexists. unfold Rdiv. rewrite Rmult_0_l. reflexivity. }
    destruct Ev as (dif & ->). cbn [bind]. rewrite Rmult_0_r. rewrite (proj2 (Rltb_true 0 _)) by lra. cbn [andb]. apply IH. }
  rewrite Loop. reflexivity.
Qed.
(** A highlight may be brighter than the light that makes it. *)
Theorem C91_gain_refuted : exists d i s i' g', arrives d i /\ vdot d (normal_of i) = - (4 / 5) /\
  sample_bsdf listed 1 (Plastic ONE 1 1) d i 1 [0; 1 / 2; exp (- (1 / 4))] = Ok (Some (Some s, i', 1, g')) /\ 1 < red (factor i s).
Proof.
  set (d := mkV (3 / 5) 0 (- (4 / 5))). exists d, (floor_hit d). pose proof (floor_arrives d ltac:(unfold d, vlen2; cbn; lra) ltac:(cbn; lra)) as A.
  assert (Nd : vdot d (normal_of (floor_hit d)) = - (4 / 5)) by (unfold d, vdot, normal_of; cbn; ring).
  set (q := sqrt (12816 / 10000)). assert (Qq : q * q = 12816 / 10000) by (apply sqrt_sqrt; lra). assert (Q0 : 0 < q) by (apply sqrt_lt_R0; lra). assert (Q1 : 1 < q < 2) by nra.
  assert (Lr : Rmax 1 LOW_ROUGHNESS = 1) by (apply Rmax_left; unfold LOW_ROUGHNESS; lra).
  assert (X2 : Rltb (exp (- (1 / 4))) (1 / 10 ^ 9) = false).
  { apply Rltb_false. pose proof (exp_ineq1_le (- (1 / 4))). lra. }
  assert (Tr : ward_try 1 1 d (1 / 2, exp (- (1 / 4))) = Ok (mkV (- (3 / 5) / q) 0 (- (96 / 100) / q))).
  { unfold ward_try. cbv zeta. rewrite X2. replace (2 * PI * (1 / 2)) with PI by field. rewrite cos_PI, sin_PI, ln_exp.
    replace ((-1 * 1) ^ 2 + (0 * 1) ^ 2) with 1 by ring. rewrite sqrt_1.
    replace (- - (1 / 4) / ((-1 * 1 * (1 / 1) / 1) ^ 2 + (0 * 1 * (1 / 1) / 1) ^ 2)) with (1 / 2 * (1 / 2)) by field. rewrite sqrt_square by lra.
    match goal with |- vnormalize ?v = _ => replace v with (mkV (- (3 / 5)) 0 (- (96 / 100))) by (unfold d, vdot; apply V3_eq; cbn; field) end.
    unfold vnormalize. cbv zeta. replace (vlen2 (mkV (- (3 / 5)) 0 (- (96 / 100)))) with (12816 / 10000) by (unfold vlen2; cbn; lra). fold q.
    rewrite (proj2 (Rltb_true _ _)) by lra. f_equal. apply V3_eq; cbn [vx vy vz]; field; lra. }
  set (v := mkV (- (3 / 5) / q) 0 (- (96 / 100) / q)) in *.
  assert (Iq : / q * q = 1) by (apply Rinv_l; lra). assert (Iq0 : 1 / 2 < / q < 1) by nra.
  assert (Ew : exists spec dif, evaluate_ward 1 1 1 d v = Ok (spec, dif) /\ 1 / 100 <= spec).
  { unfold evaluate_ward, same_hemisphere. rewrite (proj2 (Rltb_true 0 _)) by (unfold d, v; cbn; unfold Rdiv; nra). cbn [negb].
    rewrite (proj2 (Rltb_true _ 1)) by lra. rewrite Lr.
    destruct (vnormalize (vadd d v)) as [h| |] eqn:Eh.
    - cbn [bind]. do 2 eexists. split; [reflexivity|]. apply vnormalize_unit in Eh as (U & k & K & Eh).
      assert (Hx : 3 / 5 - 3 / 5 * / q = k * vx h) by (apply (f_equal vx) in Eh; unfold d, v, Rdiv in Eh; cbn in Eh; lra).
      assert (Hy : 0 = k * vy h) by (apply (f_equal vy) in Eh; unfold d, v, Rdiv in Eh; cbn in Eh; lra).
      assert (Hz : - (4 / 5) - 96 / 100 * / q = k * vz h) by (apply (f_equal vz) in Eh; unfold d, v, Rdiv in Eh; cbn in Eh; lra).
      assert (Y0 : vy h = 0) by (destruct (Rmult_integral _ _ (eq_sym Hy)); lra).
      assert (Hxz : (vx h) ^ 2 <= (vz h) ^ 2). { assert ((k * vx h) ^ 2 <= (k * vz h) ^ 2) by (rewrite <- Hx, <- Hz; nra). assert (0 < k * k) by nra. nra. }
      assert (U' : vx h ^ 2 + vz h ^ 2 = 1) by (unfold vlen2 in U; rewrite Y0 in U; lra).
      assert (Hz2 : 1 / 2 <= vz h ^ 2 <= 1) by (pose proof (pow2_ge_0 (vx h)); lra).
      assert (C2 : -1 <= - ((vx h / 1) ^ 2 + (vy h / 1) ^ 2) / vz h ^ 2).
      { rewrite Y0. replace (- ((vx h / 1) ^ 2 + (0 / 1) ^ 2) / vz h ^ 2) with (- (vx h ^ 2 / vz h ^ 2)) by (field; nra).
        assert (vx h ^ 2 / vz h ^ 2 * vz h ^ 2 = vx h ^ 2) by (field; nra). set (z := vx h ^ 2 / vz h ^ 2) in *. clearbody z. nra. }
      assert (Ex : 1 / 3 <= exp (- ((vx h / 1) ^ 2 + (vy h / 1) ^ 2) / vz h ^ 2)).
      { apply Rle_trans with (exp (-1)); [|destruct C2 as [C2|C2]; [left; apply exp_increasing; exact C2|rewrite <- C2; lra]].
        replace (-1) with (- (1)) by ring. rewrite exp_Ropp. pose proof exp_le_3. apply Rmult_le_reg_r with (exp 1); [apply exp_pos|]. rewrite Rinv_l by (pose proof (exp_pos 1); lra). lra. }
      change (vdot h h) with (vlen2 h). rewrite U.
      assert (C1 : 1 / 4 <= 1 * 1 / (PI * 1 * 1 * vz h ^ 4)).
      { assert (P4 : 0 < vz h ^ 4 <= 1) by (replace (vz h ^ 4) with (vz h ^ 2 * vz h ^ 2) by ring; nra). pose proof PI_4. pose proof PI_RGT_0.
        apply Rmult_le_reg_r with (PI * 1 * 1 * vz h ^ 4); [nra|]. set (z4 := vz h ^ 4) in *. clearbody z4. match goal with |- _ <= ?z => replace z with 1 by (field; split; lra) end. nra. }
      replace (Rabs (vz d)) with (4 / 5) by (unfold d; cbn; rewrite Rabs_left by lra; ring).
      set (c1 := 1 * 1 / (PI * 1 * 1 * vz h ^ 4)) in *. set (ex := exp (_ / vz h ^ 2)) in *. clearbody c1 ex. assert (1 / 12 <= c1 * ex) by nra. lra.
    - exfalso. unfold vnormalize in Eh. destruct (Rltb _ _) in Eh; discriminate.
    - exfalso. unfold vnormalize in Eh. rewrite (proj2 (Rltb_true _ _)) in Eh; [discriminate|].
      unfold vlen2, vadd, d, v. cbn [vx vy vz]. unfold Rdiv. nra. }
  destruct Ew as (spec & dif & Ew & Sp).
  assert (E : exists s i' g', sample_bsdf listed 1 (Plastic ONE 1 1) d (floor_hit d) 1 [0; 1 / 2; exp (- (1 / 4))] = Ok (Some (Some s, i', 1, g')) /\
     b_wi s = vneg v /\ b_flags s = GlossyReflection).
  { unfold sample_bsdf. fold (normal_of (floor_hit d)). fold (local_of d (floor_hit d)). rewrite floor_local. cbn [local_sample]. unfold sample_ward. cbn [listed].
    rewrite (proj2 (Rltb_true 0 1)) by lra. rewrite Lr. cbn [ward_loop]. unfold gen2. cbn [listed]. rewrite Tr. cbn [bind].
    rewrite (proj2 (Rltb_true (vz d) 0)) by (cbn; lra). rewrite orb_true_r, Ew. cbn [bind]. rewrite (proj2 (Rltb_false spec _)) by lra. rewrite andb_false_r. cbn [bind].
    do 3 eexists. split; [reflexivity|]. cbn [b_wi b_flags plastic_colour]. split; [exact (floor_world d (vneg v))|reflexivity]. }
  destruct E as (s & i' & g' & E & Ws & Fl). exists s, i', g'. split; [exact A|]. split; [exact Nd|]. split; [exact E|].
  (* the weight is the one of the theorem *)
  destruct (sample_bsdf_local _ _ _ _ _ _ _ _ _ _ _ E) as (s0 & El & Es & _). cbn [local_sample] in El. rewrite floor_local in El.
  destruct (sample_ward listed 1 1 1 1 d [0; 1 / 2; exp (- (1 / 4))]) as [[[q0 gq]|]| |] eqn:Eq; cbn [bind] in El; try discriminate. injection El as E0 _.
  unfold sample_ward in Eq. cbn [listed] in Eq. rewrite (proj2 (Rltb_true 0 1)) in Eq by lra.
  assert (Zd : vz d < 0) by (cbn; lra).
  destruct (ward_loop_facts _ _ _ _ _ _ _ Zd _ _ _ Eq) as ((Fq & U & V & Pd & _ & r & Er & Fr) & _).
  assert (Bq : b_spectrum s = b_spectrum q0 /\ b_wi s = world_of (floor_hit d) (b_wi q0) /\ b_pdf s = b_pdf q0).
  { rewrite Es, <- E0. unfold plastic_colour. rewrite Fq. cbn. tauto. }
  destruct Bq as (B1 & B2 & B3). rewrite floor_world in B2.
  unfold factor. rewrite B1, B2, B3. replace (vdot (i_normal (it_info (floor_hit d))) (b_wi q0)) with (vz (b_wi q0)) by (unfold vdot; cbn; ring).
  rewrite Rabs_right by lra. rewrite Fr. cbn [gray red]. rewrite Ws in B2. rewrite <- B2 in Er. cbn [vneg v vz d] in Er.
  assert (Rr : 1 < r). { unfold Rdiv in Er. assert (5 / 6 < / q) by nra. lra. }
  assert (2 * r / (1 + r) * (1 + r) = 2 * r) by (field; lra). set (y := 2 * r / (1 + r)) in *. clearbody y. nra.
Qed.
(** What the surface sends from one direction to another is not what it sends the other way round. *)
Theorem C91_reciprocity_refuted : exists i a b x y, arrives (vscale a (-1)) i /\ eval_at (Plastic BLACK 1 1) i a b = Ok x /\ eval_at (Plastic BLACK 1 1) i b a = Ok y /\ red y < red x.
Proof.
  set (a := mkV (3 / 5) 0 (4 / 5)). set (b := mkV 0 0 1). set (i := floor_hit (vscale a (-1))).
  assert (A : arrives (vscale a (-1)) i) by (apply floor_arrives; [unfold a, vlen2, vscale; cbn; lra|cbn; lra]).
  exists i, a, b.
  assert (La : to_local (normal_of i) (i_dpdu (it_info i)) (i_dpdv (it_info i)) a = a) by (unfold a, to_local, normal_of, i, vdot; cbn; f_equal; ring).
  assert (Lb : to_local (normal_of i) (i_dpdu (it_info i)) (i_dpdv (it_info i)) b = b) by (unfold b, to_local, normal_of, i, vdot; cbn; f_equal; ring).
  assert (Hn : exists h, vnormalize (vadd a b) = Ok h /\ vnormalize (vadd b a) = Ok h /\ vz h <> 0 /\ vlen2 h = 1).
  { destruct (vnormalize (vadd a b)) as [h| |] eqn:Eh; [|unfold vnormalize in Eh; destruct (Rltb _ _) in Eh; discriminate|].
    - exists h. replace (vadd b a) with (vadd a b) by vring. split; [reflexivity|]. split; [exact Eh|]. apply vnormalize_unit in Eh as (U & k & K & Eh). split; [|exact U].
      intros Z. apply (f_equal vz) in Eh. unfold a, b in Eh. cbn in Eh. rewrite Z in Eh. lra.
    - unfold vnormalize in Eh. rewrite (proj2 (Rltb_true _ _)) in Eh; [discriminate|]. unfold vlen2, vadd, a, b. cbn. lra. }
  destruct Hn as (h & E1 & E2 & Hz & U).
  assert (Sh : forall u v, 0 < vz u -> 0 < vz v -> same_hemisphere u v = true) by (intros; unfold same_hemisphere; apply Rltb_true; nra).
  unfold eval_at, eval_bsdf. rewrite La, Lb. unfold evaluate_ward. rewrite !Sh by (unfold a, b; cbn; lra). cbn [negb].
  rewrite (proj2 (Rltb_true _ 1)) by lra. rewrite E1, E2. cbn [bind]. do 2 eexists. split; [exact A|]. split; [reflexivity|]. split; [reflexivity|].
  unfold BLACK, gray, sadd, sscale. cbn [red]. change (vdot h h) with (vlen2 h). rewrite U.
  set (w := 1 * 1 / (PI * Rmax 1 LOW_ROUGHNESS * Rmax 1 LOW_ROUGHNESS * vz h ^ 4) * exp _).
  assert (W : 0 < w).
  { unfold w. apply Rmult_lt_0_compat; [|apply exp_pos]. rewrite Rmax_left by (unfold LOW_ROUGHNESS; lra). apply Rdiv_lt_0_compat; [lra|].
    assert (0 < vz h ^ 4) by (replace (vz h ^ 4) with ((vz h * vz h) * (vz h * vz h)) by ring; assert (0 < vz h * vz h) by nra; nra). pose proof PI_RGT_0. nra. }
  clearbody w. unfold a, b. cbn [vz]. rewrite !Rabs_right by lra. unfold Rdiv. lra.
Qed.
(** The density that plastic reports for a direction is not the one with which it draws it: with the arguments in the order that diffuse
    surfaces want (C87_diffuse), it is the cosine of the other direction. *)
Theorem C91_density_refuted : exists c d i s i' g', arrives d i /\ sample_bsdf listed 1 (Plastic c 0 0) d i 1 [0; 0; 0] = Ok (Some (Some s, i', 1, g')) /\
  b_pdf s = vdot (normal_of i) (b_wi s) / PI /\ pdf_at (Plastic c 0 0) i (it_wo i) (b_wi s) = Ok (vdot (normal_of i) (it_wo i) / PI) /\
  pdf_at (Plastic c 0 0) i (b_wi s) (it_wo i) = Ok (b_pdf s) /\ vdot (normal_of i) (it_wo i) < vdot (normal_of i) (b_wi s).
Proof.
  set (d := mkV (3 / 5) 0 (- (4 / 5))). set (i := floor_hit d). exists ONE, d, i.
  assert (A : arrives d i) by (apply floor_arrives; [unfold d, vlen2; cbn; lra|cbn; lra]).
  assert (Dl : draws01 (fun g : list R => (0, g))) by (intros g; cbn; lra).
  pose proof (new_diffuse_facts (gray (1 - 0)) (0, 0) ltac:(split; cbn; lra)) as (S1 & S2 & S3 & S4 & S5).
  assert (Wi : b_wi (new_diffuse (gray (1 - 0)) (0, 0)) = mkV 0 0 1).
  { unfold new_diffuse, sample_cosine_weighted_horizontal_hemisphere, uniform_sample_horizontal_disc. rewrite sqrt_0. rewrite Rmult_0_r, !Rmult_0_l.
    rewrite Rplus_0_l, fclamp_id by lra. rewrite Rminus_0_r, sqrt_1. cbn [vz]. rewrite (proj2 (Rltb_false 1 0)) by lra. reflexivity. }
  unfold sample_bsdf. fold (normal_of i). fold (local_of d i). rewrite floor_local. cbn [local_sample]. unfold sample_ward. cbn [listed].
  rewrite (proj2 (Rltb_false 0 0)) by lra. unfold gen2. cbn [listed]. cbn [bind].
  set (q := new_diffuse (gray (1 - 0)) (0, 0)) in *. clearbody q. unfold plastic_colour. cbn [b_flags]. rewrite S5. change (DiffuseReflection =? DiffuseReflection)%N with true. cbv iota.
  do 3 eexists. split; [exact A|]. split; [reflexivity|]. cbn [metal_colour b_wi b_pdf b_flags b_spectrum].
  fold (world_of i (b_wi q)). unfold i. rewrite floor_world, S4, Wi.
  assert (La : to_local (normal_of (floor_hit d)) (i_dpdu (it_info (floor_hit d))) (i_dpdv (it_info (floor_hit d))) (it_wo (floor_hit d)) = mkV (- (3 / 5)) 0 (4 / 5)).
  { unfold to_local, normal_of, d. cbn. unfold vdot, vscale. apply V3_eq; cbn; lra. }
  assert (Lb : to_local (normal_of (floor_hit d)) (i_dpdu (it_info (floor_hit d))) (i_dpdv (it_info (floor_hit d))) (mkV 0 0 1) = mkV 0 0 1).
  { unfold to_local, normal_of. cbn. unfold vdot. apply V3_eq; cbn; lra. }
  assert (N1 : vdot (normal_of (floor_hit d)) (mkV 0 0 1) = 1) by (unfold vdot, normal_of; cbn; ring).
  assert (N2 : vdot (normal_of (floor_hit d)) (it_wo (floor_hit d)) = 4 / 5) by (unfold vdot, normal_of, d; cbn; lra).
  rewrite N1, N2. cbn [vz]. split; [field; apply PI_neq0|]. unfold pdf_at, material_pdf, ward_pdf, evaluate_ward, same_hemisphere. rewrite La, Lb. cbn [vz].
  rewrite !(proj2 (Rltb_true 0 (_ * _))) by lra. cbn [negb]. rewrite (proj2 (Rltb_false _ 0)) by lra. cbn [bind]. rewrite !Rabs_right by lra.
  split; [f_equal; field; apply PI_neq0|]. split; [f_equal; field; apply PI_neq0|]. lra.
Qed.
Example C91_example : exists d i s i' g', arrives d i /\ draws01 (fun g : nat => (match g with O => 9 / 10 | _ => 1 / 3 end, S g)) /\
  sample_bsdf (fun g : nat => (match g with O => 9 / 10 | _ => 1 / 3 end, S g)) 5 (Plastic (mkS (1 / 2) (1 / 4) (1 / 8)) (1 / 10) (1 / 5)) d i 1 0%nat = Ok (Some (Some s, i', 1, g')) /\
  factor i s = mkS (1 / 2) (1 / 4) (1 / 8).
Proof.
  set (d := mkV (3 / 5) 0 (- (4 / 5))). exists d, (floor_hit d). set (gn := fun g : nat => (match g with O => 9 / 10 | _ => 1 / 3 end, S g)).
  assert (A : arrives d (floor_hit d)) by (apply floor_arrives; [unfold d, vlen2; cbn; lra|cbn; lra]).
  assert (Dg : draws01 gn) by (intros [|g]; cbn; lra).
  assert (E : exists s i' g', sample_bsdf gn 5 (Plastic (mkS (1 / 2) (1 / 4) (1 / 8)) (1 / 10) (1 / 5)) d (floor_hit d) 1 0%nat = Ok (Some (Some s, i', 1, g'))).
  { unfold sample_bsdf. cbn [local_sample]. unfold sample_ward. cbn [gn]. rewrite (proj2 (Rltb_false _ _)) by lra. cbn [gen2 gn bind]. do 3 eexists. reflexivity. }
  destruct E as (s & i' & g' & E). exists s, i', g'. split; [exact A|]. split; [exact Dg|]. split; [exact E|].
  destruct (C91_ward _ _ _ false _ _ _ _ _ _ _ _ _ _ _ Dg A E) as (_ & [(_ & _ & F)|(H & _)]); [exact F|]. cbn in H. lra.
Qed.
(** the hypotheses of C86, C87 and C88 *)
Example C86_example : exists d i s i' g', arrives d i /\ proper (Mirror (gray (9 / 10))) d i 1 /\ draws01 (fun g : unit => (1 / 2, g)) /\
  sample_bsdf (fun g : unit => (1 / 2, g)) 1 (Mirror (gray (9 / 10))) d i 1 tt = Ok (Some (Some s, i', 1, g')) /\ b_wi s = mkV (3 / 5) 0 (4 / 5) /\ it_point i' = mkV (1 / 4) (1 / 4) (1 / 10 ^ 5).
Proof.
  set (d := mkV (3 / 5) 0 (- (4 / 5))). exists d, (floor_hit d). assert (A : arrives d (floor_hit d)) by (apply floor_arrives; [unfold d, vlen2; cbn; lra|cbn; lra]).
  destruct (C87_mirror unit (fun g => (1 / 2, g)) 1 (gray (9 / 10)) d (floor_hit d) 1 tt A) as (s & i' & E & _ & _ & W). exists s, i', tt.
  split; [exact A|]. split; [exact I|]. split; [apply const_draws01; lra|]. split; [exact E|]. split.
  - rewrite W. unfold d, normal_of, vdot. apply V3_eq; cbn; lra.
  - destruct (C86_sides _ _ _ _ _ _ _ _ _ _ _ _ (const_draws01 (G := unit) (1 / 2) ltac:(lra)) A (I : proper (Mirror (gray (9 / 10))) d (floor_hit d) 1) E) as (_ & _ & _ & _ & [(_ & _ & _ & P)|(_ & _ & N & _)]).
    + rewrite P. unfold normal_of. apply V3_eq; cbn; lra.
    + rewrite W in N. unfold d, normal_of, vdot in N. cbn in N. lra.
Qed.
Example C88_example : vlen2 (mkV (3 / 5) 0 (- (4 / 5))) = 1 /\ vz (mkV (3 / 5) 0 (- (4 / 5))) < 0 /\
  fresnel_reflectance 1 1 (3 / 2) 1 = 1 / 25 /\ (exists n2, cos_and_n (mkV (4 / 5) 0 (- (3 / 5))) (3 / 2) (mkV 0 0 1) (3 / 2) = (3 / 2, 3 / 5, n2, None)).
Proof.
  split; [unfold vlen2; cbn; lra|]. split; [cbn; lra|]. split.
  - destruct (C88_reflectance 1 1 (3 / 2) 1 ltac:(lra) ltac:(lra) ltac:(lra) ltac:(lra)) as (_ & _ & _ & _ & H). rewrite H by reflexivity. field.
  - destruct (C88_refraction (mkV (4 / 5) 0 (- (3 / 5))) (3 / 2) (3 / 2) ltac:(unfold vlen2; cbn; lra) ltac:(cbn; lra) ltac:(lra) ltac:(lra)) as (n2 & E2 & H).
    rewrite Rminus_diag_eq, Rabs_R0 in E2 by reflexivity. rewrite (proj2 (Rltb_true _ _)) in E2 by lra. subst n2. exists 1. cbn [vz] in H.
    destruct H as [(_ & H)|(cos2 & H & H0 & _)]; [rewrite H; do 2 f_equal; f_equal; lra|exfalso; nra].
Qed.
Example C87_example : exists d i s i' g', arrives d i /\ draws01 (fun g : unit => (1 / 2, g)) /\
  sample_bsdf (fun g : unit => (1 / 2, g)) 1 (Diffuse (mkS (1 / 2) (1 / 4) (1 / 8))) d i 1 tt = Ok (Some (Some s, i', 1, g')) /\
  factor i s = mkS (1 / 2) (1 / 4) (1 / 8) /\ (vdot (normal_of i) (b_wi s)) ^ 2 = 1 / 2 /\ specular_only (Glass ONE 2) = true.
Proof.
  set (d := mkV (3 / 5) 0 (- (4 / 5))). exists d, (floor_hit d). assert (A : arrives d (floor_hit d)) by (apply floor_arrives; [unfold d, vlen2; cbn; lra|cbn; lra]).
  assert (D : draws01 (fun g : unit => (1 / 2, g))) by (apply const_draws01; lra).
  destruct (C87_diffuse unit (fun g => (1 / 2, g)) 1 (mkS (1 / 2) (1 / 4) (1 / 8)) d (floor_hit d) 1 tt D A) as (s & i' & g' & E & F & C & _).
  exists s, i', g'. split; [exact A|]. split; [exact D|]. split; [exact E|]. split; [exact F|]. split; [|reflexivity]. rewrite C. cbn. lra.
Qed.

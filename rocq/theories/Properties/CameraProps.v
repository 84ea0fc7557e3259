(** Property C97: cameras and images (rendering/src/camera/, rendering/src/ray_tracer.rs:275-321). *)
From Coq Require Import List Arith NArith ZArith Reals Bool Lra Lia Psatz.
From Verif.Common Require Import Base Flt.
From Verif.Geometry Require Import Vec BBoxModel TriangleModel TriangleProofs GeomProofs.
From Verif.Rendering Require Import BvhModel SamplersModel DaylightModel MaterialModel SceneModel RayTracerModel.
Import ListNotations.
Open Scope R_scope.
Open Scope list_scope.

(** Three axes of length one at right angles: to the right, upwards and forwards *)
Definition axes (right up forward : pt) : Prop :=
  vdot right right = 1 /\ vdot up up = 1 /\ vdot forward forward = 1 /\ vdot right up = 0 /\ vdot right forward = 0 /\ vdot up forward = 0.
(** A view whose directions are long enough to be normalised, and at enough of an angle *)
Definition proper_view (v : View) : Prop := 1 / 10 ^ 20 < vlen2 (view_direction v) /\ 1 / 10 ^ 20 < vlen2 (vcross (view_direction v) (view_up v)) /\
  1 / 10 ^ 20 < vlen2 (vcross (vcross (view_direction v) (view_up v)) (view_direction v)) /\ 0 < field_of_view v < 180 /\
  tan (field_of_view v * (PI / 180) / 2) < 10 ^ 10.
Lemma normalized d : 1 / 10 ^ 20 < vlen2 d -> exists u k, vnormalize d = Ok u /\ vlen2 u = 1 /\ 0 < k /\ d = vscale u k.
Proof.
  intros H. unfold vnormalize. rewrite (proj2 (Rltb_true (1 / 10 ^ 20) (vlen2 d)) H).
  assert (E : vnormalize d = Ok (vscale d (1 / vlen d))) by (unfold vnormalize; rewrite (proj2 (Rltb_true (1 / 10 ^ 20) (vlen2 d)) H); reflexivity).
  destruct (vnormalize_unit _ _ E) as (U & k & K & D). exists (vscale d (1 / vlen d)), k. auto.
Qed.

(** C97: a camera looks where the view points, from where the view is; its axes are at right angles, the vertical one is in the plane of the
    view and of what is up and to the same side. *)
Theorem C97_axes : forall v res_, proper_view v -> exists c, pinhole_new v res_ = Ok c /\ resolution c = res_ /\
  axes (view_right c) (view_up (view c)) (view_direction (view c)) /\ view_point (view c) = view_point v /\
  (exists k, 0 < k /\ view_direction v = vscale (view_direction (view c)) k) /\
  (exists a b, 0 < b /\ view_up v = vadd (vscale (view_direction (view c)) a) (vscale (view_up (view c)) b)) /\
  vcross (view_direction (view c)) (view_up (view c)) = view_right c /\
  film_distance c * tan (field_of_view v * (PI / 180) / 2) = 1 /\ 0 < film_distance c.
Proof.
  intros [p d up fov] res_ (H1 & H2 & H3 & H4 & _). cbn [view_point view_direction view_up field_of_view] in *.
  unfold pinhole_new, view_right_of. cbn [view_point view_direction view_up field_of_view].
  destruct (normalized _ H1) as (f & kf & -> & F1 & Kf & Df). cbn [bind]. destruct (normalized _ H3) as (u & ku & -> & U1 & Ku & Du). cbn [bind].
  destruct (normalized _ H2) as (r & kr & -> & Q1 & Kr & Dr). cbn [bind]. eexists. split; [reflexivity|].
  cbn [resolution view_right view view_up view_direction view_point film_distance field_of_view].
  assert (Sf : forall x y k, 0 < k -> vdot (vscale x k) y = 0 -> vdot x y = 0).
  { intros x y k K E. replace (vdot (vscale x k) y) with (k * vdot x y) in E by vring. apply Rmult_integral in E as [E|E]; lra. }
  assert (Rf : vdot r f = 0). { apply (Sf r f kr Kr). rewrite <- Dr, Df. vring. }
  assert (Ru : vdot u r = 0). { apply (Sf u r ku Ku). rewrite <- Du, Dr. vring. }
  assert (Uf : vdot u f = 0). { apply (Sf u f ku Ku). rewrite <- Du, Df. vring. }
  assert (Ux : vscale u ku = vscale (vcross r f) (kr * kf)). { rewrite <- Du, Dr, Df. vring. }
  assert (L : vlen2 (vcross r f) = 1). { pose proof (lagrange r f) as Lg. rewrite Lg, Q1, F1, Rf. ring. }
  assert (Kk : ku = kr * kf).
  { assert (E : ku * ku = (kr * kf) * (kr * kf)). { transitivity (vlen2 (vscale u ku)); [replace (vlen2 (vscale u ku)) with (ku * ku * vlen2 u) by vring; rewrite U1; ring|]. rewrite Ux. replace (vlen2 (vscale (vcross r f) (kr * kf))) with ((kr * kf) * (kr * kf) * vlen2 (vcross r f)) by vring. rewrite L. ring. }
    assert (0 < kr * kf) by (apply Rmult_lt_0_compat; assumption). nra. }
  assert (Eu : u = vcross r f).
  { assert (C : forall a b, vscale a ku = vscale b ku -> a = b). { intros [a1 a2 a3] [b1 b2 b3] E. injection E as E1 E2 E3. f_equal; apply Rmult_eq_reg_r with ku; lra. }
    apply C. rewrite Ux, Kk. reflexivity. }
  assert (Efu : vcross f u = r).
  { rewrite Eu. transitivity (vsub (vscale r (vlen2 f)) (vscale f (vdot r f))); [vring|]. rewrite F1, Rf. destruct r as [r1 r2 r3]. unfold vsub, vscale. cbn [vx vy vz]. f_equal; ring. }
  split; [reflexivity|]. split; [repeat split; try assumption; rewrite <- Ru; vring|]. split; [reflexivity|]. split; [exists kf; auto|].
  assert (Cu : vdot up u * kf = kr).
  { assert (E : vdot (vcross d up) r = kr) by (rewrite Dr; replace (vdot (vscale r kr) r) with (kr * vlen2 r) by vring; rewrite Q1; ring).
    rewrite <- E, Df. replace (vdot (vcross (vscale f kf) up) r) with (kf * vdot up (vcross r f)) by vring. rewrite <- Eu. ring. }
  split.
  - exists (vdot up f), (vdot up u). split; [assert (0 < vdot up u * kf) by lra; nra|].
    assert (Z : vdot up r = 0). { apply (Rmult_eq_reg_l kr); [|lra]. transitivity (vdot up (vscale r kr)); [vring|]. rewrite <- Dr, Df. rewrite Rmult_0_r. vring. }
    transitivity (vadd (vadd (vscale f (vdot up f)) (vscale u (vdot up u))) (vscale r (vdot up r))).
    + assert (Id : forall x, x = vadd (vadd (vscale f (vdot x f)) (vscale u (vdot x u))) (vscale r (vdot x r))).
      { intros x. rewrite Eu. assert (E1 : vdot f f = 1) by exact F1. assert (E2 : vdot r r = 1) by exact Q1. clear - Rf E1 E2.
        (* the double product of x with the third axis *)
        assert (W : vadd (vadd (vscale f (vdot x f * vdot r r)) (vscale (vcross r f) (vdot x (vcross r f)))) (vscale r (vdot x r * vdot f f)) =
                    vadd (vscale x (vdot r r * vdot f f - vdot r f * vdot r f)) (vadd (vscale f (vdot x r * vdot r f)) (vscale r (vdot x f * vdot r f)))) by vring.
        rewrite E1, E2, Rf in W. rewrite !Rmult_1_r, !Rmult_0_r in W. rewrite W. destruct x as [x1 x2 x3]. unfold vadd, vscale. cbn [vx vy vz]. f_equal; ring. }
      apply Id.
    + rewrite Z. destruct (vadd (vscale f (vdot up f)) (vscale u (vdot up u))) as [z1 z2 z3]. unfold vadd, vscale. cbn [vx vy vz]. f_equal; ring.
  - split; [exact Efu|]. set (a := fov * (PI / 180) / 2). assert (A : 0 < a < PI / 2). { unfold a. pose proof PI_RGT_0. split; [|]; nra. }
    assert (T : 0 < tan a) by (apply tan_gt_0; lra). split; [field; lra|apply Rdiv_lt_0_compat; lra].
Qed.

(** Where the middle of pixel (i, j) is on the film, in halves of the width of the film: from left to right and from top to bottom *)
Definition across_film (w i : nat) : R := (2 * INR i + 1) / INR w - 1.
Definition down_film (w h j : nat) : R := ((2 * INR j + 1) / INR h - 1) * (INR h / INR w).

(** C97: the ray of a pixel starts at the view point, has length one, and goes through the middle of the pixel: horizontally the pixels share
    the field of view evenly on the film, vertically with the same scale, from the top to the bottom. *)
Theorem C97_ray : forall v w h c i j, proper_view v -> (0 < w)%nat -> (0 < h)%nat -> pinhole_new v (w, h) = Ok c ->
  exists ray, gen_ray c (i, j) = Ok ray /\ origin ray = view_point v /\ vlen2 (direction ray) = 1 /\
    let forward := vdot (direction ray) (view_direction (view c)) in let t := tan (field_of_view v * (PI / 180) / 2) in
    0 < forward /\ vdot (direction ray) (view_right c) = forward * (across_film w i * t) /\ vdot (direction ray) (view_up (view c)) = - (forward * (down_film w h j * t)) /\
    forward ^ 2 * (1 + (across_film w i * t) ^ 2 + (down_film w h j * t) ^ 2) = 1.
Proof.
  intros v w h c i j Pv W H E. destruct (C97_axes v (w, h) Pv) as (c' & E' & Rs & (A1 & A2 & A3 & A4 & A5 & A6) & Vp & _ & _ & _ & Ft & F0). rewrite E in E'. injection E' as <-.
  unfold gen_ray. rewrite Rs. cbn [fst snd]. set (t := tan (field_of_view v * (PI / 180) / 2)) in *. set (F := film_distance c) in *.
  assert (W' : 0 < INR w) by (apply lt_0_INR; exact W). assert (H' : 0 < INR h) by (apply lt_0_INR; exact H).
  replace (2 / INR w / 2 + INR i * (2 / INR w) - 2 / 2) with (across_film w i) by (unfold across_film; field; lra).
  replace (INR h / INR w * 2 / INR h / 2 + INR j * (INR h / INR w * 2 / INR h) - INR h / INR w * 2 / 2) with (down_film w h j) by (unfold down_film; field; lra).
  set (x := across_film w i). set (y := down_film w h j). set (f := view_direction (view c)) in *. set (r := view_right c) in *. set (u := view_up (view c)) in *.
  set (q := vsub (vadd (vscale f F) (vscale r x)) (vscale u y)).
  assert (B1 : vdot q f = F). { transitivity (F * vdot f f + x * vdot r f - y * vdot u f); [unfold q; vring|]. rewrite A3, A5, A6. ring. }
  assert (B2 : vdot q r = x). { transitivity (F * vdot r f + x * vdot r r - y * vdot r u); [unfold q; vring|]. rewrite A5, A1, A4. ring. }
  assert (B3 : vdot q u = - y). { transitivity (F * vdot u f + x * vdot r u - y * vdot u u); [unfold q; vring|]. rewrite A6, A4, A2. ring. }
  assert (Lq : vlen2 q = F * F + x * x + y * y).
  { transitivity (F * vdot q f + x * vdot q r - y * vdot q u); [unfold q at 1; unfold q; vring|]. rewrite B1, B2, B3. ring. }
  assert (Tt : t < 10 ^ 10) by apply Pv.
  assert (F2 : 1 / 10 ^ 10 < F). { assert (Z : 0 < t) by nra. apply Rmult_lt_reg_r with t; [exact Z|]. rewrite Ft. apply Rmult_lt_reg_l with (10 ^ 10); [apply pow_lt; lra|]. replace (10 ^ 10 * (1 / 10 ^ 10 * t)) with t by (field; apply pow_nonzero; lra). lra. }
  assert (Q0 : 1 / 10 ^ 20 < vlen2 q).
  { rewrite Lq. pose proof (Rle_0_sqr x). pose proof (Rle_0_sqr y). unfold Rsqr in *. replace (1 / 10 ^ 20) with (1 / 10 ^ 10 * (1 / 10 ^ 10)) by (field; apply pow_nonzero; lra).
    assert (1 / 10 ^ 10 * (1 / 10 ^ 10) < F * F) by (assert (P10 : 0 < 1 / 10 ^ 10) by (apply Rdiv_lt_0_compat; [lra|apply pow_lt; lra]); apply Rmult_gt_0_lt_compat; lra). lra. }
  destruct (normalized _ Q0) as (d & k & -> & D1 & K & Dk). cbn [bind]. eexists. split; [reflexivity|]. cbn [origin direction]. split; [exact Vp|]. split; [exact D1|].
  assert (Sc : forall z, vdot q z = k * vdot d z) by (intros z; rewrite Dk; vring). rewrite Sc in B1, B2, B3.
  assert (Z : 0 < k * vdot d f) by lra. split; [nra|]. split; [|split]; [apply Rmult_eq_reg_l with k; try lra|apply Rmult_eq_reg_l with k; try lra|].
  - rewrite B2. transitivity (k * vdot d f * (x * t)); [rewrite B1; transitivity (x * (F * t)); [rewrite Ft; ring|ring]|ring].
  - rewrite B3. transitivity (- (k * vdot d f * (y * t))); [rewrite B1; transitivity (- y * (F * t)); [rewrite Ft; ring|ring]|ring].
  - assert (Kq : k * k = F * F + x * x + y * y) by (rewrite <- Lq, Dk; replace (vlen2 (vscale d k)) with (k * k * vlen2 d) by vring; rewrite D1; ring).
    apply Rmult_eq_reg_l with (k * k); [|apply Rgt_not_eq, Rmult_lt_0_compat; exact K]. transitivity ((k * vdot d f) ^ 2 + (k * vdot d f * t) ^ 2 * (x * x + y * y)); [ring|]. rewrite B1, Ft, Rmult_1_r, Kq. ring.
Qed.

Lemma floor_half n : floor_usize (INR n + 1 / 2) = n.
Proof.
  unfold floor_usize. assert (E : Int_part (INR n + 1 / 2) = Z.of_nat n).
  { symmetry. unfold Int_part. assert (Z.of_nat n + 1 = up (INR n + 1 / 2))%Z; [|lia]. apply tech_up; rewrite plus_IZR, <- INR_IZR_INZ; lra. }
  rewrite E. apply Nat2Z.id.
Qed.
(** What a camera makes of the ray of a pixel *)
Lemma back_to_film v w h c i j ray : proper_view v -> (0 < w)%nat -> (0 < h)%nat -> pinhole_new v (w, h) = Ok c -> gen_ray c (i, j) = Ok ray -> (i < w)%nat ->
  1 / 10 ^ 12 <= vdot (direction ray) (view_direction (view c)) ->
  pixel_from_ray c ray = if Rltb 1 (Rabs (down_film w h j)) then Ok ((0, 0)%nat, 0) else Ok ((i, floor_usize ((1 + down_film w h j) * INR w / 2)), 1).
Proof.
  intros Pv W H E Er I Cs. destruct (C97_ray v w h c i j Pv W H E) as (ray' & Er' & O & D1 & F0 & Rr & Ru & _). rewrite Er in Er'. injection Er' as <-. cbv zeta in *.
  destruct (C97_axes v (w, h) Pv) as (c' & E' & Rs & (A1 & A2 & A3 & A4 & A5 & A6) & Vp & _ & _ & _ & Ft & Fp). rewrite E in E'. injection E' as <-.
  assert (W' : 0 < INR w) by (apply lt_0_INR; exact W). assert (H' : 0 < INR h) by (apply lt_0_INR; exact H). assert (I' : INR i + 1 <= INR w) by (rewrite <- S_INR; apply le_INR; exact I). pose proof (pos_INR i) as I0.
  unfold pixel_from_ray. rewrite O, Vp. replace (vlen2 (vsub (view_point v) (view_point v))) with 0 by vring.
  rewrite (proj2 (Rltb_false (1 / 10 ^ 24) 0)) by (apply Rlt_le, Rdiv_lt_0_compat; [lra|apply pow_lt; lra]).
  set (d := direction ray) in *. set (f := view_direction (view c)) in *. set (r := view_right c) in *. set (u := view_up (view c)) in *. set (t := tan _) in *. set (F := film_distance c) in *.
  replace (vdot f d) with (vdot d f) by vring. rewrite (proj2 (Rltb_false (Rabs (vdot d f)) (1 / 10 ^ 12))) by (rewrite Rabs_right by lra; exact Cs).
  replace (vdot (vsub (vadd (view_point v) (vscale f F)) (view_point v)) f) with (F * vdot f f) by vring. rewrite A3, Rmult_1_r.
  assert (Ex : vdot (vscale d (F / vdot d f)) r = across_film w i).
  { transitivity (F / vdot d f * vdot d r); [vring|]. rewrite Rr. transitivity (across_film w i * (F * t)); [field; lra|rewrite Ft; ring]. }
  assert (Ez : vdot (vscale d (F / vdot d f)) u = - down_film w h j).
  { transitivity (F / vdot d f * vdot d u); [vring|]. rewrite Ru. transitivity (- down_film w h j * (F * t)); [field; lra|rewrite Ft; ring]. }
  rewrite Ex, Ez, Rabs_Ropp, Rs.
  assert (Ax : Rltb 1 (Rabs (across_film w i)) = false).
  { apply Rltb_false. unfold across_film. apply Rabs_le. assert (0 < (2 * INR i + 1) / INR w) by (apply Rdiv_lt_0_compat; lra). assert ((2 * INR i + 1) / INR w <= 2). { apply Rmult_le_reg_r with (INR w); [exact W'|]. unfold Rdiv. rewrite Rmult_assoc, Rinv_l by lra. lra. } lra. }
  rewrite Ax, orb_false_r. destruct (Rltb 1 (Rabs (down_film w h j))); [reflexivity|]. f_equal. f_equal. f_equal.
  - rewrite <- (floor_half i) at 2. f_equal. unfold across_film. field. lra.
  - f_equal. field. lra.
Qed.
(** C97: on a square film, the pixel of the ray of a pixel is that pixel. *)
Theorem C97_pixel_partial : forall v n c i j ray, proper_view v -> pinhole_new v (n, n) = Ok c -> (i < n)%nat -> (j < n)%nat -> gen_ray c (i, j) = Ok ray ->
  pixel_from_ray c ray = Ok ((i, j), 1).
Proof.
  intros v n c i j ray Pv E I J Er. assert (n0 : (0 < n)%nat) by lia.
  assert (Fl : forall i, (i < n)%nat -> Rabs (across_film n i) <= 1).
  { intros k K. assert (N' : 0 < INR n) by (apply lt_0_INR; exact n0). assert (J' : INR k + 1 <= INR n) by (rewrite <- S_INR; apply le_INR; exact K). pose proof (pos_INR k) as J0.
    unfold across_film. apply Rabs_le. assert (0 < (2 * INR k + 1) / INR n) by (apply Rdiv_lt_0_compat; lra). assert ((2 * INR k + 1) / INR n <= 2). { apply Rmult_le_reg_r with (INR n); [exact N'|]. unfold Rdiv. rewrite Rmult_assoc, Rinv_l by lra. lra. } lra. }
  assert (Sm : down_film n n j = across_film n j) by (unfold down_film, across_film; field; apply not_0_INR; lia).
  assert (Cs : 1 / 10 ^ 12 <= vdot (direction ray) (view_direction (view c))).
  { destruct (C97_ray v n n c i j Pv n0 n0 E) as (ray' & Er' & _ & _ & F0 & _ & _ & Q). rewrite Er in Er'. injection Er' as <-. cbv zeta in *. rewrite Sm in Q.
    destruct Pv as (_ & _ & _ & Fv & Tt). set (t := tan _) in *. set (fw := vdot _ _) in *. destruct (Rle_lt_dec (1 / 10 ^ 12) fw) as [C|C]; [exact C|exfalso].
    assert (T0 : 0 < t). { apply tan_gt_0; pose proof PI_RGT_0; nra. }
    assert (S1 : forall x, Rabs x <= 1 -> (x * t) ^ 2 <= 10 ^ 20).
    { intros x Hx. replace ((x * t) ^ 2) with ((x * x) * (t * t)) by ring. replace (10 ^ 20) with (1 * (10 ^ 10 * 10 ^ 10)) by ring. assert (x * x <= 1) by (destruct (Rcase_abs x) as [Z|Z]; [rewrite Rabs_left in Hx by exact Z|rewrite Rabs_right in Hx by exact Z]; nra). apply Rmult_le_compat; [apply Rle_0_sqr|apply Rle_0_sqr|assumption|]. apply Rmult_le_compat; lra. }
    pose proof (S1 _ (Fl i I)) as X1. pose proof (S1 _ (Fl j J)) as X2. set (X := (across_film n i * t) ^ 2) in *. set (Y := (across_film n j * t) ^ 2) in *.
    assert (X0 : 0 <= X) by apply pow2_ge_0. assert (Y0 : 0 <= Y) by apply pow2_ge_0.
    assert (f2 : fw ^ 2 <= 1 / 10 ^ 24). { replace (fw ^ 2) with (fw * fw) by ring. replace (1 / 10 ^ 24) with (1 / 10 ^ 12 * (1 / 10 ^ 12)) by (field; apply pow_nonzero; lra). apply Rmult_le_compat; lra. }
    assert (fw ^ 2 * (1 + X + Y) <= 1 / 10 ^ 24 * (1 + 10 ^ 20 + 10 ^ 20)) by (apply Rmult_le_compat; try lra; apply pow2_ge_0). lra. }
  rewrite (back_to_film v n n c i j ray Pv n0 n0 E Er I Cs).
  assert (N' : 0 < INR n) by (apply lt_0_INR; exact n0). assert (J' : INR j + 1 <= INR n) by (rewrite <- S_INR; apply le_INR; exact J). pose proof (pos_INR j) as J0.
  assert (Ed : down_film n n j = across_film n j) by (unfold down_film, across_film; field; lra). rewrite Ed.
  assert (Ax : Rltb 1 (Rabs (across_film n j)) = false).
  { apply Rltb_false. unfold across_film. apply Rabs_le. assert (0 < (2 * INR j + 1) / INR n) by (apply Rdiv_lt_0_compat; lra). assert ((2 * INR j + 1) / INR n <= 2). { apply Rmult_le_reg_r with (INR n); [exact N'|]. unfold Rdiv. rewrite Rmult_assoc, Rinv_l by lra. lra. } lra. }
  rewrite Ax. repeat f_equal. rewrite <- (floor_half j) at 2. f_equal. unfold across_film. field. lra.
Qed.

(** It is not so on films that are wider than they are high: the row comes out too far down, even below the film... *)
Definition north : View := mkView (mkV 0 0 0) (mkV 0 1 0) (mkV 0 0 1) 90.
Lemma north_proper : proper_view north.
Proof.
  assert (T : 1 / 10 ^ 20 < 1). { apply Rmult_lt_reg_r with (10 ^ 20); [apply pow_lt; lra|]. unfold Rdiv. rewrite Rmult_1_l, Rinv_l by (apply pow_nonzero; lra). rewrite Rmult_1_l. apply Rlt_pow_R1; [lra|lia]. }
  unfold proper_view, north, vlen2, vcross. cbn [vx vy vz view_direction view_up field_of_view]. replace (90 * (PI / 180) / 2) with (PI / 4) by field. rewrite tan_PI4. repeat split; lra.
Qed.
Theorem C97_pixel_refuted : exists v c ray row, proper_view v /\ pinhole_new v (4, 2)%nat = Ok c /\ gen_ray c (1, 1)%nat = Ok ray /\ pixel_from_ray c ray = Ok ((1, row)%nat, 1) /\ (2 <= row)%nat.
Proof.
  destruct (C97_axes north (4, 2)%nat north_proper) as (c & E & _). destruct (C97_ray north 4 2 c 1 1 north_proper ltac:(lia) ltac:(lia) E) as (ray & Er & _ & _ & F0 & _ & _ & Q).
  exists north, c, ray, 2%nat. split; [exact north_proper|]. split; [exact E|]. split; [exact Er|]. split; [|lia].
  rewrite (back_to_film north 4 2 c 1 1 ray north_proper ltac:(lia) ltac:(lia) E Er ltac:(lia)).
  - assert (D : down_film 4 2 1 = 1 / 4) by (unfold down_film; cbn [INR]; lra). rewrite D. rewrite (proj2 (Rltb_false 1 (Rabs (1 / 4)))) by (rewrite Rabs_right; lra). repeat f_equal. transitivity (floor_usize (INR 2 + 1 / 2)); [f_equal; cbn [INR]; lra|apply floor_half].
  - cbv zeta in *. unfold north in Q at 1 2. cbn [field_of_view] in Q. replace (90 * (PI / 180) / 2) with (PI / 4) in Q by field. rewrite tan_PI4 in Q. unfold across_film, down_film in Q. cbn [INR] in Q.
    assert (1 / 10 ^ 12 < 1 / 2) by lra. nra.
Qed.
(** ... and on films that are higher than they are wide, the rays of the pixels at the top and at the bottom are said to miss the film. *)
Theorem C97_portrait_refuted : exists v c ray, proper_view v /\ pinhole_new v (2, 8)%nat = Ok c /\ gen_ray c (0, 0)%nat = Ok ray /\ pixel_from_ray c ray = Ok ((0, 0)%nat, 0).
Proof.
  destruct (C97_axes north (2, 8)%nat north_proper) as (c & E & _). destruct (C97_ray north 2 8 c 0 0 north_proper ltac:(lia) ltac:(lia) E) as (ray & Er & _ & _ & F0 & _ & _ & Q).
  exists north, c, ray. split; [exact north_proper|]. split; [exact E|]. split; [exact Er|].
  rewrite (back_to_film north 2 8 c 0 0 ray north_proper ltac:(lia) ltac:(lia) E Er ltac:(lia)).
  - assert (D : down_film 2 8 0 = - (7 / 2)) by (unfold down_film; cbn [INR]; lra). rewrite D. rewrite (proj2 (Rltb_true 1 (Rabs (- (7 / 2))))) by (rewrite Rabs_Ropp, Rabs_right; lra). reflexivity.
  - cbv zeta in *. unfold north in Q at 1 2. cbn [field_of_view] in Q. replace (90 * (PI / 180) / 2) with (PI / 4) in Q by field. rewrite tan_PI4 in Q. unfold across_film, down_film in Q. cbn [INR] in Q.
    assert (1 / 10 ^ 12 < 1 / 10) by lra. nra.
Qed.
(** Rays that leave the camera backwards are given the pixels of those that leave it forwards. *)
Theorem C97_both_ways : forall c o d, pixel_from_ray c (mkRay o (vscale d (-1))) = pixel_from_ray c (mkRay o d).
Proof.
  intros c o d. unfold pixel_from_ray. cbn [origin direction]. destruct (Rltb (1 / 10 ^ 24) _); [reflexivity|]. set (f := view_direction (view c)).
  replace (vdot f (vscale d (-1))) with (- vdot f d) by vring. rewrite Rabs_Ropp. destruct (Rltb_spec (Rabs (vdot f d)) (1 / 10 ^ 12)) as [Q|Q]; [reflexivity|].
  assert (N : vdot f d <> 0). { intros Z. rewrite Z, Rabs_R0 in Q. apply Q. apply Rdiv_lt_0_compat; [lra|apply pow_lt; lra]. }
  set (a := vdot (vsub _ _) f). replace (vscale (vscale d (-1)) (a / - vdot f d)) with (vscale d (a / vdot f d)); [reflexivity|].
  unfold vscale. apply V3_eq; cbn [vx vy vz]; field; exact N.
Qed.

(** C97: an image has as many pixels as the film; pixel [k] is what is seen along the ray of column [k mod width] of row [k / width], where the
    camera puts it. *)
Lemma render_chunk_spec {G} (trace : G -> Ray -> res (option (spectrum * G))) camera width : (0 < width)%nat ->
  (forall p, exists ray, camera p = Ok ray) -> (forall g p ray, camera p = Ok ray -> exists c g', trace g ray = Ok (Some (c, g'))) ->
  forall n start g, exists l, render_chunk trace camera n start width g = Ok (Some l) /\ length l = n /\
   forall k, (k < n)%nat -> exists ray g0 g1, camera ((start + k) mod width, (start + k) / width)%nat = Ok ray /\ trace g0 ray = Ok (Some (nth k l BLACK, g1)).
Proof.
  intros Wd Cm Tr. induction n as [|n IH]; intros start g; cbn [render_chunk].
  - exists []. split; [reflexivity|]. split; [reflexivity|]. intros k K. lia.
  - assert (Em : (start - start / width * width = start mod width)%nat) by (rewrite Nat.mod_eq by lia; lia). rewrite Em.
    destruct (Cm (start mod width, start / width)%nat) as (ray & Er). rewrite Er. cbn [bind]. destruct (Tr g _ ray Er) as (c & g' & Et). rewrite Et. cbn [bind].
    destruct (IH (S start) g') as (l & -> & L & H). cbn [bind]. exists (c :: l). split; [reflexivity|]. split; [cbn [length]; lia|].
    intros [|k] K; [exists ray, g, g'; rewrite Nat.add_0_r; auto|]. destruct (H k ltac:(lia)) as (r & g0 & g1 & R1 & R2). exists r, g0, g1. replace (start + S k)%nat with (S start + k)%nat by lia. auto.
Qed.
Theorem C97_image : forall G (trace : G -> Ray -> res (option (spectrum * G))) camera rngs width height,
  (forall p, exists ray, camera p = Ok ray) -> (forall g p ray, camera p = Ok ray -> exists c g', trace g ray = Ok (Some (c, g'))) ->
  exists image, render trace camera rngs width height = Ok (Some image) /\ length image = (width * height)%nat /\
    forall k, (k < width * height)%nat -> exists ray g g', camera (k mod width, k / width)%nat = Ok ray /\ trace g ray = Ok (Some (nth k image BLACK, g')) /\
      (k mod width < width)%nat /\ (k / width < height)%nat /\ forall c, resolution c = (width, height) -> pixel_index c (k mod width, k / width)%nat = k.
Proof.
  intros G trace camera rngs width height Cm Tr. destruct (Nat.eq_dec width 0) as [->|Wd].
  { exists []. split; [reflexivity|]. split; [reflexivity|]. cbn. intros k K. lia. }
  assert (Go : forall fuel first total, (total <= fuel * 128)%nat -> exists l, render_chunks trace camera rngs fuel first total width = Ok (Some l) /\ length l = total /\
    forall k, (k < total)%nat -> exists ray g0 g1, camera ((first * 128 + k) mod width, (first * 128 + k) / width)%nat = Ok ray /\ trace g0 ray = Ok (Some (nth k l BLACK, g1))).
  { induction fuel as [|fuel IH]; intros first total F; cbn [render_chunks].
    - exists []. split; [reflexivity|]. split; [cbn [length]; lia|]. intros k K. lia.
    - destruct (render_chunk_spec trace camera width ltac:(lia) Cm Tr (Nat.min 128 total) (first * 128) (rngs first)) as (l1 & -> & L1 & H1). cbn [bind].
      destruct (IH (S first) (total - 128)%nat ltac:(lia)) as (l2 & -> & L2 & H2). cbn [bind]. exists (l1 ++ l2). split; [reflexivity|]. split; [rewrite app_length; lia|].
      intros k K. destruct (Nat.lt_ge_cases k (length l1)) as [Q|Q].
      + rewrite app_nth1 by exact Q. apply H1. lia.
      + rewrite app_nth2 by exact Q. destruct (H2 (k - length l1)%nat ltac:(lia)) as (ray & g0 & g1 & R1 & R2). exists ray, g0, g1. split; [|exact R2]. replace (first * 128 + k)%nat with (S first * 128 + (k - length l1))%nat by lia. exact R1. }
  unfold render. destruct (Go ((width * height + 127) / 128)%nat 0%nat (width * height)%nat) as (l & -> & L & H).
  { pose proof (Nat.div_mod (width * height + 127) 128 ltac:(lia)). pose proof (Nat.mod_upper_bound (width * height + 127) 128 ltac:(lia)). lia. }
  exists l. split; [reflexivity|]. split; [exact L|]. intros k K. destruct (H k K) as (ray & g0 & g1 & R1 & R2). exists ray, g0, g1. split; [exact R1|]. split; [exact R2|].
  split; [apply Nat.mod_upper_bound; exact Wd|]. split; [apply Nat.div_lt_upper_bound; [exact Wd|exact K]|]. intros c Rc. unfold pixel_index. rewrite Rc. cbn [fst snd]. symmetry. apply Nat.div_mod. exact Wd.
Qed.
(** Pixels that are drawn apart show apart: no two pixels share a place in the image. *)
Theorem C97_places : forall c p q, (fst p < fst (resolution c))%nat -> (fst q < fst (resolution c))%nat -> pixel_index c p = pixel_index c q -> p = q.
Proof.
  intros c [a b] [a' b'] A B E. unfold pixel_index in E. cbn [fst snd] in *. set (w := fst (resolution c)) in *. assert (b = b') by nia. subst b'. f_equal. lia.
Qed.
Example C97_example : exists c ray, proper_view north /\ pinhole_new north (3, 3)%nat = Ok c /\ gen_ray c (1, 1)%nat = Ok ray /\ vdot (direction ray) (view_direction (view c)) = 1 /\ pixel_from_ray c ray = Ok ((1, 1)%nat, 1).
Proof.
  destruct (C97_axes north (3, 3)%nat north_proper) as (c & E & Rs & _ & _ & (k & K & Dk) & _). destruct (C97_ray north 3 3 c 1 1 north_proper ltac:(lia) ltac:(lia) E) as (ray & Er & _ & D1 & F0 & R1 & R2 & Q).
  exists c, ray. split; [exact north_proper|]. split; [exact E|]. split; [exact Er|]. split; [|apply (C97_pixel_partial north 3 c 1 1 ray north_proper E); try lia; exact Er].
  cbv zeta in *. unfold across_film, down_film in Q. cbn [INR] in Q. replace ((2 * 1 + 1) / (1 + 1 + 1) - 1) with 0 in Q by lra. rewrite !Rmult_0_l in Q. nra.
Qed.
Theorem C97_behind_refuted : exists v c o d, proper_view v /\ pinhole_new v (3, 3)%nat = Ok c /\ o = view_point v /\ vdot d (view_direction (view c)) = -1 /\ pixel_from_ray c (mkRay o d) = Ok ((1, 1)%nat, 1).
Proof.
  destruct C97_example as (c & [o d] & Pv & E & Er & F & Px). cbn [direction] in F. destruct (C97_ray north 3 3 c 1 1 Pv ltac:(lia) ltac:(lia) E) as (ray & Er' & O & _). rewrite Er in Er'. injection Er' as <-. cbn [origin] in O.
  exists north, c, o, (vscale d (-1)). split; [exact Pv|]. split; [exact E|]. split; [exact O|]. split; [transitivity (- vdot d (view_direction (view c))); [vring|rewrite F; ring]|]. rewrite C97_both_ways. exact Px.
Qed.
Example C97_image_example : exists image, render (fun (g : nat) _ => Ok (Some (gray (INR g), S g))) (fun p => Ok (mkRay (mkV 0 0 0) (mkV 0 1 0))) (fun k => k) 20 10 = Ok (Some image) /\ length image = 200%nat.
Proof.
  destruct (C97_image nat (fun (g : nat) _ => Ok (Some (gray (INR g), S g))) (fun p => Ok (mkRay (mkV 0 0 0) (mkV 0 1 0))) (fun k => k) 20 10) as (image & E & L & _); [intros p; eexists; reflexivity|intros g p ray _; do 2 eexists; reflexivity|].
  exists image. auto.
Qed.

(** Property C42: random sampling (rendering/src/samplers.rs). *)
From Coq Require Import Reals Bool Lra Psatz.
From Verif.Common Require Import Base Flt.
From Verif.Geometry Require Import Vec.
From Verif.Rendering Require Import SamplersModel.
Open Scope R_scope.

(** Random numbers in [0, 1) *)
Definition random (u : R * R) : Prop := 0 <= fst u < 1 /\ 0 <= snd u < 1.

Lemma fclamp_bounds x lo hi : lo <= hi -> lo <= fclamp x lo hi <= hi.
Proof. intros H. unfold fclamp. destruct (Rltb_spec x lo); [lra|]. destruct (Rltb_spec hi x); lra. Qed.
Lemma fclamp_id x lo hi : lo <= x <= hi -> fclamp x lo hi = x.
Proof. intros H. unfold fclamp. destruct (Rltb_spec x lo); [lra|]. destruct (Rltb_spec hi x); lra. Qed.
Lemma sin_cos_1 x : sin x * sin x + cos x * cos x = 1.
Proof. pose proof (sin2_cos2 x) as H. unfold Rsqr in H. exact H. Qed.

(** ** Where the samples are *)

(** A sampled point of a triangle is a mix of its vertices, with positive weights: it lies strictly inside. *)
Theorem C42_triangle : forall u a b c, exists wa wb wc, 0 < wa /\ 0 < wb /\ 0 < wc /\ wa + wb + wc = 1 /\
  uniform_sample_triangle u a b c = vadd (vadd (vscale a wa) (vscale b wb)) (vscale c wc).
Proof.
  intros [r1 r2] a b c. unfold uniform_sample_triangle. set (T := 1 / 10 ^ 8).
  assert (HT : 0 < T < 1 / 2) by (unfold T; lra).
  set (x := fclamp r1 T (1 - T)). set (y := fclamp r2 T (1 - T)).
  assert (Hx : T <= x <= 1 - T) by (apply fclamp_bounds; lra). assert (Hy : T <= y <= 1 - T) by (apply fclamp_bounds; lra).
  assert (S0 : 0 < sqrt x) by (apply sqrt_lt_R0; lra). assert (SS : sqrt x * sqrt x = x) by (apply sqrt_sqrt; lra).
  assert (S1 : sqrt x < 1) by nra.
  exists (sqrt x * (1 - y)), (1 - sqrt x), (y * sqrt x). repeat split; try nra.
  clearbody x y. vring.
Qed.

Theorem C42_disc : forall u radius, random u -> 0 <= radius ->
  let '(x, y) := uniform_sample_horizontal_disc u radius in x * x + y * y = radius * radius * fst u /\ x * x + y * y <= radius * radius.
Proof.
  intros [r t] radius [[H0 H1] _] HR. cbn [fst snd] in *. unfold uniform_sample_horizontal_disc.
  pose proof (sqrt_sqrt r H0) as Q. pose proof (sin_cos_1 (2 * PI * t)) as SC. set (s := sin (2 * PI * t)) in *. set (c := cos (2 * PI * t)) in *. clearbody s c.
  assert (E : radius * sqrt r * s * (radius * sqrt r * s) + radius * sqrt r * c * (radius * sqrt r * c) = radius * radius * r).
  { replace (radius * sqrt r * s * (radius * sqrt r * s) + radius * sqrt r * c * (radius * sqrt r * c))
      with (radius * radius * (sqrt r * sqrt r) * (s * s + c * c)) by ring. rewrite Q, SC. ring. }
  split; [exact E|]. rewrite E. nra.
Qed.

Theorem C42_cosine_hemisphere : forall u, random u ->
  let v := sample_cosine_weighted_horizontal_hemisphere u in vlen v = 1 /\ 0 < vz v.
Proof.
  intros u Hu v. pose proof (C42_disc u 1 Hu ltac:(lra)) as D. unfold v, sample_cosine_weighted_horizontal_hemisphere.
  destruct (uniform_sample_horizontal_disc u 1) as [x y]. destruct D as [D1 D2]. destruct Hu as [[A B] _].
  rewrite fclamp_id by nra. cbn [vz]. split; [|apply sqrt_lt_R0; nra].
  unfold vlen. replace (vlen2 _) with 1; [apply sqrt_1|]. unfold vlen2. cbn [vx vy vz]. rewrite sqrt_sqrt by nra. ring.
Qed.

Theorem C42_uniform_hemisphere : forall u, random u -> let v := sample_uniform_hemisphere u in vlen v = 1 /\ 0 <= vz v.
Proof.
  intros [r t] [[A B] _] v. cbn [fst] in *. unfold v, sample_uniform_hemisphere. cbn [vz]. split; [|exact A].
  unfold vlen. replace (vlen2 _) with 1; [apply sqrt_1|]. unfold vlen2. cbn [vx vy vz]. pose proof (sin_cos_1 (2 * PI * t)) as SC.
  pose proof (sqrt_sqrt (1 - r * r) ltac:(nra)) as Q. set (s := sin (2 * PI * t)) in *. set (c := cos (2 * PI * t)) in *. clearbody s c.
  set (q := sqrt (1 - r * r)) in *. clearbody q. replace (c * q * (c * q) + s * q * (s * q) + r * r) with (q * q * (s * s + c * c) + r * r) by ring. rewrite Q, SC. ring.
Qed.

(** Three orthogonal axes of length one *)
Definition frame (e1 e2 n : pt) : Prop :=
  vdot e1 e1 = 1 /\ vdot e2 e2 = 1 /\ vdot n n = 1 /\ vdot e1 e2 = 0 /\ vdot e1 n = 0 /\ vdot e2 n = 0.

Lemma local_length e1 e2 n x y z : frame e1 e2 n -> vlen2 (local_to_world e1 e2 n (mkV 0 0 0) x y z) = x * x + y * y + z * z.
Proof.
  intros (A & B & C & D & E & F). unfold local_to_world, vlen2. cbn [vx vy vz]. unfold vdot in *.
  transitivity (x * x * (vx e1 * vx e1 + vy e1 * vy e1 + vz e1 * vz e1) + y * y * (vx e2 * vx e2 + vy e2 * vy e2 + vz e2 * vz e2)
    + z * z * (vx n * vx n + vy n * vy n + vz n * vz n) + 2 * x * y * (vx e1 * vx e2 + vy e1 * vy e2 + vz e1 * vz e2)
    + 2 * x * z * (vx e1 * vx n + vy e1 * vy n + vz e1 * vz n) + 2 * y * z * (vx e2 * vx n + vy e2 * vy n + vz e2 * vz n)); [ring|].
  rewrite A, B, C, D, E, F. ring.
Qed.
Lemma local_height e1 e2 n c x y z : frame e1 e2 n -> vdot (vsub (local_to_world e1 e2 n c x y z) c) n = z.
Proof.
  intros (A & B & C & D & E & F). unfold local_to_world, vsub, vdot in *. cbn [vx vy vz] in *.
  transitivity (x * (vx e1 * vx n + vy e1 * vy n + vz e1 * vz n) + y * (vx e2 * vx n + vy e2 * vy n + vz e2 * vz n)
    + z * (vx n * vx n + vy n * vy n + vz n * vz n)); [ring|]. rewrite C, E, F. ring.
Qed.

Theorem C42_tilted_hemisphere : forall u e1 e2 n, random u -> frame e1 e2 n ->
  let v := uniform_sample_tilted_hemisphere u e1 e2 n in vlen v = 1 /\ 0 <= vdot v n.
Proof.
  intros u e1 e2 n Hu Fr v. destruct (C42_uniform_hemisphere u Hu) as [L Z]. unfold v, uniform_sample_tilted_hemisphere.
  set (w := sample_uniform_hemisphere u) in *. clearbody w. split.
  - unfold vlen in *. rewrite local_length by assumption. exact L.
  - pose proof (local_height e1 e2 n (mkV 0 0 0) (vx w) (vy w) (vz w) Fr) as H.
    replace (vsub (local_to_world e1 e2 n (mkV 0 0 0) (vx w) (vy w) (vz w)) (mkV 0 0 0)) with (local_to_world e1 e2 n (mkV 0 0 0) (vx w) (vy w) (vz w)) in H by vring.
    rewrite H. exact Z.
Qed.

Theorem C42_sphere : forall u, vlen (uniform_sample_sphere u) = 1.
Proof.
  intros [r t]. unfold uniform_sample_sphere. set (T := 1 / 10 ^ 7). assert (HT : 0 < T < 1 / 2) by (unfold T; lra).
  set (x := fclamp r T (1 - T)). set (y := fclamp t T (1 - T)).
  assert (Hx : T <= x <= 1 - T) by (apply fclamp_bounds; lra). clearbody x y.
  unfold vlen. replace (vlen2 _) with 1; [apply sqrt_1|]. unfold vlen2. cbn [vx vy vz]. pose proof (sin_cos_1 (2 * PI * y)) as SC.
  pose proof (sqrt_sqrt (1 - (1 - 2 * x) * (1 - 2 * x)) ltac:(nra)) as Q. set (q := sqrt _) in *. clearbody q.
  set (s := sin (2 * PI * y)) in *. set (c := cos (2 * PI * y)) in *. clearbody s c.
  replace (c * q * (c * q) + s * q * (s * q) + (1 - 2 * x) * (1 - 2 * x)) with (q * q * (s * s + c * c) + (1 - 2 * x) * (1 - 2 * x)) by ring.
  rewrite Q, SC. ring.
Qed.

Lemma perpendicular_ok a e : get_perpendicular a = Ok e -> vdot e a = 0 /\ vdot e e = 1.
Proof.
  assert (E0 : 0 < 100 * eps64) by (unfold eps64; assert (0 < / 2 ^ 52) by (apply Rinv_0_lt_compat, pow_lt; lra); lra).
  assert (G : forall p q, 100 * eps64 < Rabs p -> p <> 0 /\ 0 < p * p + q * q /\ sqrt (p * p + q * q) <> 0 /\ sqrt (p * p + q * q) * sqrt (p * p + q * q) = p * p + q * q).
  { intros p q H. assert (p <> 0) by (intros ->; rewrite Rabs_R0 in H; lra). assert (0 < p * p + q * q) by nra.
    split; [assumption|]. split; [assumption|]. split; [apply Rgt_not_eq, sqrt_lt_R0; assumption|]. apply sqrt_sqrt. lra. }
  unfold get_perpendicular. destruct (Rltb_spec (100 * eps64) (Rabs (vx a))) as [H|_]; [|destruct (Rltb_spec (100 * eps64) (Rabs (vy a))) as [H|_];
    [|destruct (Rltb_spec (100 * eps64) (Rabs (vz a))) as [H|_]; [|discriminate]]]; intros E; injection E as <-; unfold vdot; cbn [vx vy vz].
  - destruct (G _ (vy a) H) as (A & B & C & D). set (q := sqrt _) in *. clearbody q. split; [field; auto|].
    transitivity ((vx a * vx a + vy a * vy a) / (q * q)); [field; auto|]. rewrite D. field. lra.
  - destruct (G _ (vx a) H) as (A & B & C & D). rewrite (Rplus_comm (vx a * vx a)). set (q := sqrt _) in *. clearbody q. split; [field; auto|].
    transitivity ((vy a * vy a + vx a * vx a) / (q * q)); [field; auto|]. rewrite D. field. lra.
  - destruct (G _ (vx a) H) as (A & B & C & D). set (q := sqrt _) in *. clearbody q. split; [field; auto|].
    transitivity ((vz a * vz a + vx a * vx a) / (q * q)); [field; auto|]. rewrite D. field. lra.
Qed.

(** Samples of a disc lie in its plane, within its radius; there is always an answer for a normal of length one. *)
Theorem C42_tilted_disc : forall u radius c n, random u -> 0 <= radius -> vdot n n = 1 ->
  exists p, uniform_sample_tilted_disc u radius c n = Ok p /\ vdot (vsub p c) n = 0 /\ vlen (vsub p c) <= radius.
Proof.
  intros u radius c n Hu HR Hn. unfold uniform_sample_tilted_disc. pose proof (C42_disc u radius Hu HR) as D.
  destruct (uniform_sample_horizontal_disc u radius) as [x y]. destruct D as [_ D].
  assert (Ok' : exists e, get_perpendicular n = Ok e).
  { assert (T : 0 < 100 * eps64 < 1 / 2).
    { unfold eps64. assert (P : 2 ^ 52 > 1000) by lra. assert (0 < / 2 ^ 52) by (apply Rinv_0_lt_compat; lra).
      assert (/ 2 ^ 52 < / 1000) by (apply Rinv_lt_contravar; lra). lra. }
    unfold get_perpendicular. destruct (Rltb_spec (100 * eps64) (Rabs (vx n))) as [H|H1]; [eauto|].
    destruct (Rltb_spec (100 * eps64) (Rabs (vy n))) as [H|H2]; [eauto|]. destruct (Rltb_spec (100 * eps64) (Rabs (vz n))) as [H|H3]; [eauto|].
    exfalso. unfold vdot in Hn. apply Rnot_lt_le in H1, H2, H3.
    assert (S : forall t, Rabs t <= 100 * eps64 -> t * t <= 1 / 4). { intros t Ht. replace (t * t) with (Rabs t * Rabs t) by (unfold Rabs; destruct (Rcase_abs t); ring). pose proof (Rabs_pos t). nra. }
    pose proof (S _ H1). pose proof (S _ H2). pose proof (S _ H3). lra. }
  destruct Ok' as [e E]. rewrite E. destruct (perpendicular_ok n e E) as [P1 P2].
  assert (Fr : frame (vcross e n) e n).
  { unfold frame. pose proof (lagrange e n) as LG. unfold vlen2 in LG. fold (vdot (vcross e n) (vcross e n)) in LG. fold (vdot e e) in LG. fold (vdot n n) in LG.
    rewrite P1, P2, Hn in LG. repeat split; auto; try (rewrite LG; ring); vunfold; ring. }
  eexists. split; [reflexivity|]. split; [now apply local_height|].
  unfold vlen. replace (vlen2 _) with (x * x + y * y + 0 * 0).
  - rewrite <- (sqrt_square radius HR). apply sqrt_le_1_alt. lra.
  - rewrite <- (local_length (vcross e n) e n x y 0 Fr). unfold local_to_world, vsub, vlen2. cbn [vx vy vz]. ring.
Qed.

(** ** The samples are spread evenly *)

(** Partial derivatives with respect to the first and to the second random number *)
Definition d1 (f : R * R -> R) (u : R * R) (l : R) : Prop := derivable_pt_lim (fun x => f (x, snd u)) (fst u) l.
Definition d2 (f : R * R -> R) (u : R * R) (l : R) : Prop := derivable_pt_lim (fun y => f (fst u, y)) (snd u) l.

Lemma dlim_local f g x l a b : a < x < b -> (forall y, a < y < b -> f y = g y) -> derivable_pt_lim g x l -> derivable_pt_lim f x l.
Proof.
  intros Hx Hfg Hg eps He. destruct (Hg eps He) as [d Hd]. assert (P : 0 < Rmin d (Rmin (x - a) (b - x))).
  { apply Rmin_glb_lt; [apply cond_pos|]. apply Rmin_glb_lt; lra. }
  exists (mkposreal _ P). intros h H0 Hh. cbn in Hh. pose proof (Rmin_l d (Rmin (x - a) (b - x))). pose proof (Rmin_r d (Rmin (x - a) (b - x))).
  pose proof (Rmin_l (x - a) (b - x)). pose proof (Rmin_r (x - a) (b - x)).
  assert (- h <= Rabs h /\ h <= Rabs h) by (unfold Rabs; destruct (Rcase_abs h); lra).
  rewrite !Hfg by lra. apply Hd; [exact H0|lra].
Qed.
Lemma dlim_ext f g x l : (forall y, f y = g y) -> derivable_pt_lim g x l -> derivable_pt_lim f x l.
Proof. intros H. apply (dlim_local f g x l (x - 1) (x + 1)); [lra|auto]. Qed.
Lemma dlim_eq f x l l' : derivable_pt_lim f x l -> l = l' -> derivable_pt_lim f x l'.
Proof. intros H <-. exact H. Qed.
Lemma dlim_scal k f x l : derivable_pt_lim f x l -> derivable_pt_lim (fun y => k * f y) x (k * l).
Proof. intros H. apply (derivable_pt_lim_scal f k x l H). Qed.
Lemma dlim_lin k x : derivable_pt_lim (fun y => k * y) x k.
Proof. eapply dlim_eq; [apply dlim_scal, derivable_pt_lim_id|ring]. Qed.
Lemma dlim_sin k x : derivable_pt_lim (fun y => sin (k * y)) x (k * cos (k * x)).
Proof. eapply dlim_eq; [apply (derivable_pt_lim_comp (fun y => k * y) sin); [apply dlim_lin|apply derivable_pt_lim_sin]|ring]. Qed.
Lemma dlim_cos k x : derivable_pt_lim (fun y => cos (k * y)) x (- k * sin (k * x)).
Proof. eapply dlim_eq; [apply (derivable_pt_lim_comp (fun y => k * y) cos); [apply dlim_lin|apply derivable_pt_lim_cos]|ring]. Qed.

(** The sample of a triangle, as a share [p] of the first side and a share [q] of the second one, moves over a patch of the
    triangle whose area is proportional to the area of the patch of random numbers, with the same factor everywhere: the
    samples are uniform. *)
Definition tri_p (u : R * R) : R := vx (uniform_sample_triangle u (mkV 0 0 0) (mkV 1 0 0) (mkV 0 1 0)).
Definition tri_q (u : R * R) : R := vy (uniform_sample_triangle u (mkV 0 0 0) (mkV 1 0 0) (mkV 0 1 0)).
Theorem C42_triangle_uniform : (forall u a b c, uniform_sample_triangle u a b c = vadd (vadd a (vscale (vsub b a) (tri_p u))) (vscale (vsub c a) (tri_q u))) /\
  forall u, 1 / 10 ^ 8 < fst u < 1 - 1 / 10 ^ 8 -> 1 / 10 ^ 8 < snd u < 1 - 1 / 10 ^ 8 ->
  exists p1 p2 q1 q2, d1 tri_p u p1 /\ d2 tri_p u p2 /\ d1 tri_q u q1 /\ d2 tri_q u q2 /\ Rabs (p1 * q2 - p2 * q1) = 1 / 2.
Proof.
  split. { intros [r1 r2] a b c. unfold tri_p, tri_q, uniform_sample_triangle. vring. }
  intros [r1 r2] H1 H2. cbn [fst snd] in *. set (T := 1 / 10 ^ 8) in *. assert (HT : 0 < T) by (unfold T; lra).
  assert (Ep : forall x y, T < x < 1 - T -> T < y < 1 - T -> tri_p (x, y) = 1 - sqrt x).
  { intros x y Hx Hy. unfold tri_p, uniform_sample_triangle. fold T. rewrite !fclamp_id by lra. vunfold. ring. }
  assert (Eq : forall x y, T < x < 1 - T -> T < y < 1 - T -> tri_q (x, y) = y * sqrt x).
  { intros x y Hx Hy. unfold tri_q, uniform_sample_triangle. fold T. rewrite !fclamp_id by lra. vunfold. ring. }
  pose proof (sqrt_lt_R0 r1 ltac:(lra)) as S0.
  exists (- / (2 * sqrt r1)), 0, (r2 * / (2 * sqrt r1)), (sqrt r1). unfold d1, d2. cbn [fst snd]. split; [|split; [|split; [|split]]].
  - apply (dlim_local _ (fun x => 1 - sqrt x) r1 _ T (1 - T)); [lra|intros; apply Ep; lra|].
    eapply dlim_eq; [apply (derivable_pt_lim_minus (fun _ => 1) sqrt); [apply derivable_pt_lim_const|apply derivable_pt_lim_sqrt; lra]|ring].
  - apply (dlim_local _ (fun y => 1 - sqrt r1) r2 _ T (1 - T)); [lra|intros; apply Ep; lra|]. apply derivable_pt_lim_const.
  - apply (dlim_local _ (fun x => r2 * sqrt x) r1 _ T (1 - T)); [lra|intros; apply Eq; lra|]. apply dlim_scal, derivable_pt_lim_sqrt. lra.
  - apply (dlim_local _ (fun y => sqrt r1 * y) r2 _ T (1 - T)); [lra|intros; rewrite Eq by lra; ring|]. apply dlim_lin.
  - replace (- / (2 * sqrt r1) * sqrt r1 - 0 * (r2 * / (2 * sqrt r1))) with (- (1 / 2)) by (field; lra). rewrite Rabs_Ropp. apply Rabs_right. lra.
Qed.

(** The same for the disc, hence for the direction samples that are projected up from it *)
Theorem C42_disc_uniform : forall u radius, 0 < fst u < 1 -> exists x1 x2 y1 y2,
  d1 (fun u => fst (uniform_sample_horizontal_disc u radius)) u x1 /\ d2 (fun u => fst (uniform_sample_horizontal_disc u radius)) u x2 /\
  d1 (fun u => snd (uniform_sample_horizontal_disc u radius)) u y1 /\ d2 (fun u => snd (uniform_sample_horizontal_disc u radius)) u y2 /\
  Rabs (x1 * y2 - x2 * y1) = PI * (radius * radius).
Proof.
  intros [r t] radius H. cbn [fst snd] in *. pose proof (sqrt_lt_R0 r ltac:(lra)) as S0. pose proof (sqrt_sqrt r ltac:(lra)) as SS.
  pose proof (sin_cos_1 (2 * PI * t)) as SC. set (s := sin (2 * PI * t)) in *. set (c := cos (2 * PI * t)) in *.
  exists (radius * s * / (2 * sqrt r)), (radius * sqrt r * (2 * PI * c)), (radius * c * / (2 * sqrt r)), (radius * sqrt r * (- (2 * PI) * s)).
  unfold d1, d2. cbn [fst snd uniform_sample_horizontal_disc]. split; [|split; [|split; [|split]]].
  - fold s. apply (dlim_ext _ (fun x => radius * s * sqrt x)); [intros; ring|]. apply dlim_scal, derivable_pt_lim_sqrt. lra.
  - apply dlim_scal. apply dlim_sin.
  - fold c. apply (dlim_ext _ (fun x => radius * c * sqrt x)); [intros; ring|]. apply dlim_scal, derivable_pt_lim_sqrt. lra.
  - apply dlim_scal. apply dlim_cos.
  - replace (radius * s * / (2 * sqrt r) * (radius * sqrt r * (- (2 * PI) * s)) - radius * sqrt r * (2 * PI * c) * (radius * c * / (2 * sqrt r)))
      with (- (PI * (radius * radius) * (s * s + c * c))) by (field; lra). rewrite SC, Rmult_1_r, Rabs_Ropp. apply Rabs_right.
    apply Rle_ge. apply Rmult_le_pos; [left; apply PI_RGT_0|nra].
Qed.

(** The tangent vectors of the sampled hemisphere span the same area everywhere. *)
Theorem C42_hemisphere_uniform : forall u, 0 < fst u < 1 -> exists a b : pt,
  d1 (fun u => vx (sample_uniform_hemisphere u)) u (vx a) /\ d1 (fun u => vy (sample_uniform_hemisphere u)) u (vy a) /\
  d1 (fun u => vz (sample_uniform_hemisphere u)) u (vz a) /\
  d2 (fun u => vx (sample_uniform_hemisphere u)) u (vx b) /\ d2 (fun u => vy (sample_uniform_hemisphere u)) u (vy b) /\
  d2 (fun u => vz (sample_uniform_hemisphere u)) u (vz b) /\ vlen (vcross a b) = 2 * PI.
Proof.
  intros [r t] H. cbn [fst snd] in *. assert (P : 0 < 1 - r * r) by nra. pose proof (sqrt_lt_R0 _ P) as S0. pose proof (sqrt_sqrt (1 - r * r) ltac:(lra)) as SS.
  pose proof (sin_cos_1 (2 * PI * t)) as SC. pose proof PI_RGT_0 as PP.
  set (s := sin (2 * PI * t)) in *. set (c := cos (2 * PI * t)) in *. set (q := sqrt (1 - r * r)) in *.
  assert (DQ : derivable_pt_lim (fun x => sqrt (1 - x * x)) r (- r / q)).
  { eapply dlim_eq; [apply (derivable_pt_lim_comp (fun x => 1 - x * x) sqrt)|].
    - eapply dlim_eq; [apply (derivable_pt_lim_minus (fun _ => 1) (fun x => x * x)); [apply derivable_pt_lim_const|]|].
      + apply (derivable_pt_lim_mult (fun x => x) (fun x => x)); apply derivable_pt_lim_id.
      + cbn. instantiate (1 := - 2 * r). ring.
    - apply derivable_pt_lim_sqrt. exact P.
    - fold q. field. lra. }
  exists (mkV (c * (- r / q)) (s * (- r / q)) 1), (mkV (q * (- (2 * PI) * s)) (q * (2 * PI * c)) 0).
  unfold d1, d2. cbn [fst snd sample_uniform_hemisphere vx vy vz].
  split; [|split; [|split; [|split; [|split; [|split]]]]].
  - fold c. now apply dlim_scal.
  - fold s. now apply dlim_scal.
  - apply derivable_pt_lim_id.
  - fold q. apply (dlim_ext _ (fun y => q * cos (2 * PI * y))); [intros; ring|]. apply dlim_scal, dlim_cos.
  - fold q. apply (dlim_ext _ (fun y => q * sin (2 * PI * y))); [intros; ring|]. apply dlim_scal, dlim_sin.
  - apply derivable_pt_lim_const.
  - unfold vlen. replace (vlen2 _) with ((2 * PI) * (2 * PI)); [apply sqrt_square; lra|].
    unfold vlen2, vcross. cbn [vx vy vz].
    clearbody s c q.
    transitivity ((2 * PI) * (2 * PI) * (q * q * (s * s + c * c) + r * r * ((s * s + c * c) * (s * s + c * c)))); [rewrite SC, SS; ring|].
    field. lra.
Qed.

(** Examples *)
Example C42_random_example : random (1 / 4, 1 / 2).
Proof. unfold random. cbn [fst snd]. lra. Qed.
Example C42_frame_example : frame (mkV 0 1 0) (mkV 0 0 1) (mkV 1 0 0).
Proof. unfold frame, vdot. cbn [vx vy vz]. repeat split; ring. Qed.
(** Half way down: an actual sample of the triangle (0,0,0), (4,0,0), (0,4,0) *)
Example C42_triangle_example : uniform_sample_triangle (1 / 4, 1 / 2) (mkV 0 0 0) (mkV 4 0 0) (mkV 0 4 0) = mkV 2 1 0.
Proof.
  unfold uniform_sample_triangle. rewrite !fclamp_id by lra. replace (1 / 4) with ((1 / 2) * (1 / 2)) by field. rewrite sqrt_square by lra.
  apply V3_eq; vunfold; field.
Qed.

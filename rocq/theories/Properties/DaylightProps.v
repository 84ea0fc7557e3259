(** Property C80: daylight coefficients (rendering/src/daylight_coefficients.rs). *)
From Coq Require Import List Arith ZArith Reals Bool Lra Lia Psatz.
From Verif.Common Require Import Base Flt.
From Verif.Geometry Require Import Vec TriangleModel.
From Verif.Matrix Require Import MatrixModel MatrixSpec.
From Verif.Matrix Require GaussSeidel.
From Verif.Weather Require Import SkyModel SkyProofs PerezProofs.
From Verif.Rendering Require Import SamplersModel DaylightModel.
From Verif.Properties Require Import SkyProps SamplersProps.
From Verif.Properties Require MatrixProps.
Notation Rnum := GaussSeidel.Rnum.
Notation C08_elements := MatrixProps.C08_elements.
Import ListNotations.
Open Scope R_scope.
Open Scope list_scope.

(** ** Colours *)
Definition nonneg (a : spectrum) : Prop := 0 <= red a /\ 0 <= green a /\ 0 <= blue a.
Lemma spectrum_eq a b : red a = red b -> green a = green b -> blue a = blue b -> a = b.
Proof. destruct a, b. cbn. now intros -> -> ->. Qed.
Lemma radiance_gray v : radiance (gray v) = v.
Proof. unfold radiance, gray. cbn. lra. Qed.
Lemma radiance_add a b : radiance (sadd a b) = radiance a + radiance b.
Proof. unfold radiance, sadd. cbn. lra. Qed.
Lemma radiance_nonneg a : nonneg a -> 0 <= radiance a.
Proof. intros (A & B & C). unfold radiance. lra. Qed.
Lemma radiance_div a k : radiance (sdiv a k) = radiance a / k.
Proof. unfold radiance, sdiv. cbn. unfold Rdiv. ring. Qed.
Lemma nonneg_div a k : nonneg a -> 0 < k -> nonneg (sdiv a k).
Proof.
  intros (A & B & C) H. pose proof (Rinv_0_lt_compat k H). unfold nonneg, sdiv. cbn. unfold Rdiv. repeat split; apply Rmult_le_pos; lra.
Qed.
Lemma nonneg_add a b : nonneg a -> nonneg b -> nonneg (sadd a b).
Proof. unfold nonneg, sadd. cbn. lra. Qed.
Lemma smul_one a : smul ONE a = a.
Proof. destruct a. unfold smul, ONE, gray. cbn. now rewrite !Rmult_1_l. Qed.
Lemma sadd_black_l a : sadd BLACK a = a.
Proof. destruct a. unfold sadd, BLACK, gray. cbn. now rewrite !Rplus_0_l. Qed.

Lemma add_rows_nth a b k : length a = length b -> (k < length a)%nat -> nth k (DaylightModel.add_rows a b) BLACK = sadd (nth k a BLACK) (nth k b BLACK).
Proof.
  intros L H. unfold DaylightModel.add_rows.
  rewrite (nth_indep _ BLACK (sadd (fst (BLACK, BLACK)) (snd (BLACK, BLACK)))) by (rewrite map_length, combine_length; lia).
  rewrite (map_nth (fun p => sadd (fst p) (snd p))), combine_nth by exact L. reflexivity.
Qed.
Lemma add_rows_length a b : length a = length b -> length (DaylightModel.add_rows a b) = length a.
Proof. intros L. unfold DaylightModel.add_rows. rewrite map_length, combine_length. lia. Qed.
Lemma sumf_single (v : R) b k N : (k <= b < k + N)%nat -> sumf (fun x => if (x =? b)%nat then v else 0) (seq k N) = v.
Proof.
  revert k. induction N as [|N IH]; intros k H; [lia|]. cbn [seq sumf fold_right].
  destruct (Nat.eqb_spec k b) as [->|D].
  - change (v + sumf (fun x => if (x =? b)%nat then v else 0) (seq (S b) N) = v). rewrite (sumf_ext _ (fun _ => 0) (seq (S b) N)). 2: { intros x Hx. apply in_seq in Hx. destruct (Nat.eqb_spec x b); [lia|reflexivity]. }
    assert (Z : forall l : list nat, sumf (fun _ => 0) l = 0) by (induction l as [|a l IHl]; cbn; [reflexivity|unfold sumf in IHl; rewrite IHl; ring]).
    rewrite Z. ring.
  - change (0 + sumf (fun x => if (x =? b)%nat then v else 0) (seq (S k) N) = v). rewrite IH by lia. ring.
Qed.
Lemma sumf_plus {A} (f g : A -> R) l : sumf (fun a => f a + g a) l = sumf f l + sumf g l.
Proof. unfold sumf. induction l as [|a l IH]; cbn [fold_right]; [ring|]. rewrite IH. ring. Qed.

(** ** What the theorems say about rays *)
Section Coefficients.
Context {G I M : Type} (gen : G -> R * G) (cast_ray : Ray -> option I) (hit_point hit_normal : I -> pt) (material : I -> option M)
  (sample_bsdf : M -> pt -> I -> R -> G -> option (pt * spectrum * R) * I * R * G).

(** Random numbers are in [[0, 1)]; where a ray hits something, the material scatters into a direction of length one and never returns
    more than it receives: the factor by which it multiplies the light is at most one in every channel. *)
Definition fair : Prop :=
  (forall g, 0 <= fst (gen g) < 1) /\
  (forall ray i m c g, vlen (direction ray) = 1 -> cast_ray ray = Some i -> material i = Some m -> match sample_bsdf m (direction ray) i c g with
   | (Some (wi, spec, pdf), i', _, _) => vlen wi = 1 /\
     let w := sdiv (sscale spec (Rabs (vdot (hit_normal i') wi))) pdf in nonneg w /\ red w <= 1 /\ green w <= 1 /\ blue w <= 1
   | _ => True end).

Context (m : nat) (sk : sky) (Hsk : new m = Ok sk) (n : nat) (Hn : (0 < n)%nat) (Hfair : fair).
Let INRn : 0 < INR n. Proof. apply lt_0_INR. exact Hn. Qed.

Lemma trace_ok : forall budget ray c rng beta coef, vlen (direction ray) = 1 -> length c = n_bins sk -> nonneg beta -> radiance beta <= PI ->
  exists c', trace_loop gen cast_ray hit_point hit_normal material sample_bsdf sk n budget ray c rng beta coef = Ok c' /\
  ((cast_ray ray <> None /\ c' = c) \/
   exists b v, (b < n_bins sk)%nat /\ nonneg v /\ radiance v <= PI / INR n /\ c' = upd c b (sadd (nth b c BLACK) v) /\
    (cast_ray ray = None -> dir_to_bin sk (direction ray) = Ok b /\ v = sdiv beta (INR n))).
Proof.
  induction budget as [|budget IH]; intros ray c rng beta coef L Lc Nb Rb; cbn [trace_loop].
  all: destruct (cast_ray ray) as [i|] eqn:C.
  1: { exists c. split; [destruct (material i); reflexivity|]. left. split; [discriminate|reflexivity]. }
  1,3: destruct (C43_in_range m sk (direction ray) Hsk L) as (b & Eb & Hb); rewrite Eb; cbn [bind]; unfold add_at;
    rewrite (proj2 (Nat.ltb_lt b (length c))) by (rewrite Lc; exact Hb); eexists; split; [reflexivity|]; right; exists b, (sdiv (smul ONE beta) (INR n));
    rewrite smul_one; repeat split; try (apply nonneg_div; assumption); try exact Hb; try reflexivity;
    rewrite radiance_div; apply Rmult_le_compat_r; [left; apply Rinv_0_lt_compat; exact INRn|exact Rb].
  destruct (material i) as [mt|] eqn:Em; [|exists c; split; [reflexivity|left; split; [discriminate|reflexivity]]].
  pose proof (proj2 Hfair ray i mt coef rng L C Em) as F.
  destruct (sample_bsdf mt (direction ray) i coef rng) as [[[[[[wi spec] pdf]|] i'] coef'] rng'];
    [|exists c; split; [reflexivity|left; split; [discriminate|reflexivity]]].
  cbv zeta in F. destruct F as (Lw & Nw & W1 & W2 & W3). cbv zeta.
  set (w := sdiv (sscale spec (Rabs (vdot (hit_normal i') wi))) pdf) in *. clearbody w.
  pose proof (proj1 Hfair rng') as Fg. destruct (gen rng') as [aux rng'']. cbn [fst] in Fg.
  set (beta' := smul beta w). destruct Nb as (B1 & B2 & B3). destruct Nw as (N1 & N2 & N3).
  assert (Nb' : nonneg beta') by (unfold nonneg, beta', smul; cbn; repeat split; apply Rmult_le_pos; assumption).
  assert (Rb' : radiance beta' <= radiance beta).
  { unfold beta', radiance, smul. cbn [red green blue].
    assert (red beta * red w <= red beta) by nra. assert (green beta * green w <= green beta) by nra. assert (blue beta * blue w <= blue beta) by nra. lra. }
  pose proof (radiance_nonneg _ Nb') as R0. clearbody beta'.
  destruct (Rltb_spec aux (Rmax (1 - radiance beta') 0)) as [Q|Q].
  { exists c; split; [reflexivity|left; split; [discriminate|reflexivity]]. }
  set (q := Rmax (1 - radiance beta') 0) in *.
  assert (Hq : 0 < 1 - q). { lra. }
  destruct (IH (mkRay (hit_point i') wi) c rng'' (sdiv beta' (1 - q)) coef' Lw Lc) as (c' & E & D).
  { apply nonneg_div; assumption. }
  { rewrite radiance_div. pose proof PI_RGT_0. unfold q, Rmax in *. destruct (Rle_dec (1 - radiance beta') 0) as [Z|Z].
    - rewrite Rminus_0_r. unfold Rdiv. rewrite Rinv_1. lra.
    - replace (1 - (1 - radiance beta')) with (radiance beta') in * by ring. unfold Rdiv. rewrite Rinv_r by lra. pose proof PI2_3_2. lra. }
  exists c'. split; [exact E|]. destruct D as [[_ ->]|(b & v & H1 & H2 & H3 & H4 & _)]; [left; split; [discriminate|reflexivity]|].
  right. exists b, v. split; [exact H1|]. split; [exact H2|]. split; [exact H3|]. split; [exact H4|discriminate].
Qed.

Context (draws : nat -> nat -> R * R) (seeds : nat -> nat -> G) (max_depth : nat) (Hdraws : forall i j, random (draws i j)).

Definition goes_to (origin : pt) (d : nat -> pt) (b j : nat) : bool :=
  match cast_ray (mkRay origin (d j)) with None => match dir_to_bin sk (d j) with Ok k => (k =? b)%nat | _ => false end | Some _ => false end.
Definition blocked (origin : pt) (d : nat -> pt) (j : nat) : bool :=
  match cast_ray (mkRay origin (d j)) with None => false | Some _ => true end.
Definition count (p : nat -> bool) (l : list nat) : nat := length (filter p l).

Lemma directions_ok i e1 e2 ray (d := fun j => sample_direction e1 e2 (direction ray) (draws i j)) :
  (forall j, vlen (d j) = 1) -> forall js ret, length ret = n_bins sk ->
  exists ret' ind, directions_loop gen cast_ray hit_point hit_normal material sample_bsdf sk max_depth n draws seeds i e1 e2 ray js ret = Ok ret' /\
    length ret' = n_bins sk /\
    (forall b, (b < n_bins sk)%nat -> nth b ret' BLACK = sadd (nth b ret BLACK) (sadd (gray (PI * INR (count (goes_to (origin ray) d b) js) / INR n)) (ind b))) /\
    (forall b, nonneg (ind b)) /\
    sumf (fun b => radiance (ind b)) (seq 0 (n_bins sk)) <= PI * INR (count (blocked (origin ray) d) js) / INR n.
Proof.
  intros Ld. induction js as [|j js IH]; intros ret Lr; cbn [directions_loop].
  - exists ret, (fun _ => BLACK). split; [reflexivity|]. split; [exact Lr|]. split; [|split].
    + intros b Hb. cbn. apply spectrum_eq; unfold sadd, gray, BLACK; cbn; unfold Rdiv; ring.
    + intros b. unfold nonneg, BLACK, gray. cbn. lra.
    + cbn. rewrite (sumf_ext _ (fun _ => 0)). 2: { intros. unfold BLACK. apply radiance_gray. }
      assert (Z : forall l : list nat, sumf (fun _ => 0) l = 0) by (induction l as [|a l IHl]; cbn; [reflexivity|unfold sumf in IHl; rewrite IHl; ring]).
      rewrite Z. unfold Rdiv. lra.
  - unfold trace_ray. fold (d j).
    destruct (trace_ok max_depth (mkRay (origin ray) (d j)) (repeat BLACK (n_bins sk)) (seeds i j) (gray PI) 1) as (c & E & D).
    { apply Ld. } { apply repeat_length. } { pose proof PI_RGT_0. unfold nonneg, gray. cbn. lra. } { rewrite radiance_gray. lra. }
    rewrite E. cbn [bind].
    assert (Lc : length c = n_bins sk). { destruct D as [[_ ->]|(b & v & _ & _ & _ & -> & _)]; [|rewrite upd_length]; apply repeat_length. }
    destruct (IH (DaylightModel.add_rows ret c)) as (ret' & ind & E' & L' & V & Nn & Sm). { rewrite add_rows_length by lia. exact Lr. }
    assert (RB : forall b, nth b (repeat BLACK (n_bins sk)) BLACK = BLACK) by (intros; apply nth_repeat).
    destruct D as [[B Ec]|(b0 & v & Hb0 & Nv & Rv & Ec & DD)].
    + exists ret', ind. split; [exact E'|]. split; [exact L'|]. split; [|split; [exact Nn|]].
      * intros b Hb. rewrite V by exact Hb. rewrite add_rows_nth by lia. rewrite Ec, RB.
        assert (Gf : goes_to (origin ray) d b j = false). { unfold goes_to. destruct (cast_ray _); [reflexivity|congruence]. }
        unfold count. cbn [filter]. rewrite Gf. apply spectrum_eq; unfold sadd, BLACK, gray; cbn; ring.
      * unfold count in *. cbn [filter]. destruct (blocked (origin ray) d j); [|exact Sm].
        cbn [length]. rewrite S_INR. eapply Rle_trans; [exact Sm|]. apply Rmult_le_compat_r; [left; apply Rinv_0_lt_compat; exact INRn|]. pose proof PI_RGT_0. lra.
    + destruct (cast_ray (mkRay (origin ray) (d j))) as [it|] eqn:C.
      * exists ret', (fun b => if (b =? b0)%nat then sadd (ind b) v else ind b). split; [exact E'|]. split; [exact L'|]. split; [|split].
        -- intros b Hb. rewrite V by exact Hb. rewrite add_rows_nth by lia. rewrite Ec.
           assert (Gf : goes_to (origin ray) d b j = false). { unfold goes_to. rewrite C. reflexivity. }
           unfold count. cbn [filter]. rewrite Gf. destruct (Nat.eqb_spec b b0) as [->|Nb].
           ++ rewrite nth_upd_same by (rewrite repeat_length; exact Hb0). rewrite RB. apply spectrum_eq; unfold sadd, BLACK, gray; cbn; ring.
           ++ rewrite nth_upd_other by congruence. rewrite RB. apply spectrum_eq; unfold sadd, BLACK, gray; cbn; ring.
        -- intros b. destruct (b =? b0)%nat; [apply nonneg_add|]; auto.
        -- rewrite (sumf_ext _ (fun b => radiance (ind b) + (if (b =? b0)%nat then radiance v else 0))).
           2: { intros b _. destruct (b =? b0)%nat; [apply radiance_add|ring]. }
           rewrite sumf_plus, sumf_single by lia. unfold count in *. cbn [filter]. unfold blocked at 1. rewrite C. cbn [length]. rewrite S_INR.
           replace (PI * (INR (length (filter (blocked (origin ray) d) js)) + 1) / INR n) with (PI * INR (length (filter (blocked (origin ray) d) js)) / INR n + PI / INR n) by (unfold Rdiv; ring). lra.
      * destruct (DD eq_refl) as [Db ->]. exists ret', ind. split; [exact E'|]. split; [exact L'|]. split; [|split; [exact Nn|]].
        -- intros b Hb. rewrite V by exact Hb. rewrite add_rows_nth by lia. rewrite Ec.
           assert (Gb : goes_to (origin ray) d b j = (b0 =? b)%nat). { unfold goes_to. cbn [direction] in Db. rewrite C, Db. reflexivity. }
           unfold count. cbn [filter]. rewrite Gb. destruct (Nat.eqb_spec b0 b) as [->|Nb].
           ++ rewrite nth_upd_same by (rewrite repeat_length; exact Hb0). rewrite RB. cbn [length]. rewrite S_INR. apply spectrum_eq; unfold sadd, sdiv, BLACK, gray; cbn; unfold Rdiv; ring.
           ++ rewrite nth_upd_other by congruence. rewrite RB. apply spectrum_eq; unfold sadd, BLACK, gray; cbn; ring.
        -- unfold count in *. cbn [filter]. unfold blocked at 1. rewrite C. exact Sm.
Qed.

Lemma frame_of normal e2 : vlen normal = 1 -> get_perpendicular normal = Ok e2 -> frame (vcross e2 normal) e2 normal.
Proof.
  intros L E. destruct (perpendicular_ok _ _ E) as [P1 P2].
  assert (N : vdot normal normal = 1). { change (vlen2 normal = 1). rewrite <- vlen_sqr, L. ring. }
  pose proof (lagrange e2 normal) as Lg. unfold frame. change (vdot (vcross e2 normal) (vcross e2 normal)) with (vlen2 (vcross e2 normal)).
  rewrite Lg, P1. change (vlen2 e2) with (vdot e2 e2). change (vlen2 normal) with (vdot normal normal). rewrite P2, N.
  repeat split; try assumption; try ring; vring.
Qed.
Lemma perpendicular_exists normal : vlen normal = 1 -> exists e, get_perpendicular normal = Ok e.
Proof.
  intros L. assert (N : vdot normal normal = 1). { change (vlen2 normal = 1). rewrite <- vlen_sqr, L. ring. }
  assert (E2 : 100 * eps64 < 1 / 10). { unfold eps64. assert (/ 2 ^ 52 < / 2 ^ 10) by (apply Rinv_lt_contravar; [apply Rmult_lt_0_compat; apply pow_lt; lra|apply Rlt_pow; [lra|lia]]).
    replace (/ 2 ^ 10) with (1 / 1024) in H by field. lra. }
  unfold get_perpendicular. destruct (Rltb_spec (100 * eps64) (Rabs (vx normal))) as [H|H1]; [eauto|].
  destruct (Rltb_spec (100 * eps64) (Rabs (vy normal))) as [H|H2]; [eauto|]. destruct (Rltb_spec (100 * eps64) (Rabs (vz normal))) as [H|H3]; [eauto|].
  exfalso. apply Rnot_lt_le in H1, H2, H3. unfold vdot in N.
  assert (Q : forall t, Rabs t <= 100 * eps64 -> t * t <= 1 / 100). { intros t Ht. replace (t * t) with (Rabs t * Rabs t) by (rewrite <- Rabs_mult; apply Rabs_right; nra). pose proof (Rabs_pos t). nra. }
  pose proof (Q _ H1). pose proof (Q _ H2). pose proof (Q _ H3). lra.
Qed.
Lemma sample_height e1 e2 normal u : frame e1 e2 normal -> random u ->
  vlen (sample_direction e1 e2 normal u) = 1 /\ vdot (sample_direction e1 e2 normal u) normal = sqrt (1 - fst u).
Proof.
  intros Fr Hu. destruct (C42_cosine_hemisphere u Hu) as [L _]. unfold sample_direction.
  assert (Z : vz (sample_cosine_weighted_horizontal_hemisphere u) = sqrt (1 - fst u)).
  { pose proof (C42_disc u 1 Hu ltac:(lra)) as D. unfold sample_cosine_weighted_horizontal_hemisphere.
    destruct u as [r t]. destruct Hu as [[A B] _]. cbn [fst] in *. unfold uniform_sample_horizontal_disc in *. destruct D as [D1 D2]. cbn [vz].
    pose proof (sin_cos_1 (2 * PI * t)) as SC. pose proof (sqrt_sqrt r A) as Q.
    replace (1 * sqrt r * sin (2 * PI * t) * (1 * sqrt r * sin (2 * PI * t)) + 1 * sqrt r * cos (2 * PI * t) * (1 * sqrt r * cos (2 * PI * t)))
      with ((sqrt r * sqrt r) * (sin (2 * PI * t) * sin (2 * PI * t) + cos (2 * PI * t) * cos (2 * PI * t))) by ring.
    rewrite Q, SC, Rmult_1_r, fclamp_id by lra. reflexivity. }
  set (w := sample_cosine_weighted_horizontal_hemisphere u) in *. clearbody w. split.
  - unfold vlen in *. rewrite local_length by assumption. exact L.
  - pose proof (local_height e1 e2 normal (mkV 0 0 0) (vx w) (vy w) (vz w) Fr) as H.
    replace (vsub (local_to_world e1 e2 normal (mkV 0 0 0) (vx w) (vy w) (vz w)) (mkV 0 0 0)) with (local_to_world e1 e2 normal (mkV 0 0 0) (vx w) (vy w) (vz w)) in H by vring.
    rewrite H. exact Z.
Qed.

Lemma row_ok i ray : vlen (direction ray) = 1 ->
  exists row d ind, ray_row gen cast_ray hit_point hit_normal material sample_bsdf sk max_depth n draws seeds i ray = Ok row /\ length row = n_bins sk /\
    (forall j, vlen (d j) = 1 /\ vdot (d j) (direction ray) = sqrt (1 - fst (draws i j))) /\
    (forall b, (b < n_bins sk)%nat -> nth b row BLACK = sadd (gray (PI * INR (count (goes_to (origin ray) d b) (seq 0 n)) / INR n)) (ind b)) /\
    (forall b, nonneg (ind b)) /\
    sumf (fun b => radiance (ind b)) (seq 0 (n_bins sk)) <= PI * INR (count (blocked (origin ray) d) (seq 0 n)) / INR n.
Proof.
  intros L. destruct (perpendicular_exists _ L) as [e2 E2]. pose proof (frame_of _ _ L E2) as Fr. unfold ray_row. rewrite E2.
  destruct (directions_ok i (vcross e2 (direction ray)) e2 ray (fun j => proj1 (sample_height _ _ _ _ Fr (Hdraws i j))) (seq 0 n) (repeat BLACK (n_bins sk)))
    as (ret & ind & E & Lr & V & Nn & Sm). { apply repeat_length. }
  exists ret, (fun j => sample_direction (vcross e2 (direction ray)) e2 (direction ray) (draws i j)), ind.
  split; [exact E|]. split; [exact Lr|]. split; [intros j; apply sample_height; auto|]. split; [|auto].
  intros b Hb. rewrite (V b Hb), nth_repeat. apply sadd_black_l.
Qed.
Lemma rays_ok rays : forall i, Forall (fun r => vlen (direction r) = 1) rays ->
  exists rows, rays_loop gen cast_ray hit_point hit_normal material sample_bsdf sk max_depth n draws seeds i rays = Ok rows /\
    Forall2 (fun ir row => length row = n_bins sk /\ exists d ind,
    (forall j, vlen (d j) = 1 /\ vdot (d j) (direction (snd ir)) = sqrt (1 - fst (draws (fst ir) j))) /\
    (forall b, (b < n_bins sk)%nat -> nth b row BLACK = sadd (gray (PI * INR (count (goes_to (origin (snd ir)) d b) (seq 0 n)) / INR n)) (ind b)) /\
    (forall b, nonneg (ind b)) /\
    sumf (fun b => radiance (ind b)) (seq 0 (n_bins sk)) <= PI * INR (count (blocked (origin (snd ir)) d) (seq 0 n)) / INR n)
    (combine (seq i (length rays)) rays) rows.
Proof.
  induction rays as [|ray rays IH]; intros i H; cbn [rays_loop].
  - exists []. split; [reflexivity|constructor].
  - inversion_clear H as [|? ? H1 H2]. destruct (row_ok i ray H1) as (row & d & ind & E & L & P). rewrite E. cbn [bind].
    destruct (IH (S i) H2) as (rows & E' & F). rewrite E'. cbn [bind]. eexists. split; [reflexivity|]. cbn [length seq combine]. constructor; [|exact F].
    split; [exact L|]. exists d, ind. exact P.
Qed.
End Coefficients.

Lemma concat_nth {A} (N : nat) (dflt : A) rows : Forall (fun r => length r = N) rows -> forall i b row, nth_error rows i = Some row -> (b < N)%nat ->
  nth (N * i + b) (concat rows) dflt = nth b row dflt.
Proof.
  induction 1 as [|r rows Lr F IH]; intros [|i] b row E Hb; try discriminate; cbn [concat].
  - injection E as <-. rewrite Nat.mul_0_r. apply app_nth1. lia.
  - rewrite app_nth2 by nia. rewrite Lr. replace (N * S i + b - N)%nat with (N * i + b)%nat by nia. apply (IH i b row E Hb).
Qed.
Lemma concat_len {A} (N : nat) (rows : list (list A)) : Forall (fun r => length r = N) rows -> length (concat rows) = (length rows * N)%nat.
Proof. induction 1 as [|r rows Lr F IH]; cbn; [reflexivity|]. rewrite app_length, IH. lia. Qed.

(** C80: each row is made of directions of length one above the surface, whose cosines follow the first random number; each direction
    that reaches the sky without obstacle adds exactly pi over the number of samples to its patch; obstructed directions add light of
    any colour, but no more than their share. *)
Theorem C80_coefficients : forall G I M (gen : G -> R * G) (cast_ray : Ray -> option I) hit_point hit_normal (material : I -> option M) sample_bsdf
    m sk n draws seeds max_depth rays,
  new m = Ok sk -> (0 < n)%nat -> fair gen cast_ray hit_normal material sample_bsdf -> (forall i j, random (draws i j)) ->
  Forall (fun r => vlen (direction r) = 1) rays ->
  exists dc, calc_dc gen cast_ray hit_point hit_normal material sample_bsdf sk max_depth n draws seeds rays = Ok dc /\
    nrows dc = length rays /\ ncols dc = (144 * m * m + 2)%nat /\ wf dc /\
    forall i ray, nth_error rays i = Some ray -> exists (d : nat -> pt) (other : nat -> spectrum),
      (forall j, vlen (d j) = 1 /\ vdot (d j) (direction ray) = sqrt (1 - fst (draws i j))) /\
      (forall b, (b < ncols dc)%nat -> nonneg (other b) /\ nth (ncols dc * i + b) (data dc) BLACK =
        sadd (gray (PI * INR (length (filter (fun j => match cast_ray (mkRay (origin ray) (d j)), dir_to_bin sk (d j) with
                                                    | None, Ok k => (k =? b)%nat | _, _ => false end) (seq 0 n))) / INR n)) (other b)) /\
      sumf (fun b => radiance (other b)) (seq 0 (ncols dc)) <=
        PI * INR (length (filter (fun j => match cast_ray (mkRay (origin ray) (d j)) with None => false | Some _ => true end) (seq 0 n))) / INR n.
Proof.
  intros G I M gen cast_ray hit_point hit_normal material sample_bsdf m sk n draws seeds max_depth rays Hsk Hn Hf Hd Hu.
  destruct (rays_ok gen cast_ray hit_point hit_normal material sample_bsdf m sk Hsk n Hn Hf draws seeds max_depth Hd rays 0 Hu) as (rows & E & F).
  unfold calc_dc. rewrite E. cbn [bind]. eexists. split; [reflexivity|]. cbn [nrows ncols data]. split; [reflexivity|].
  assert (Nb : n_bins sk = (144 * m * m + 2)%nat).
  { destruct (Nat.eq_dec m 0) as [->|Nz]; [rewrite (proj1 C43_bins) in Hsk; discriminate|].
    destruct (proj2 C43_bins m ltac:(lia)) as (s & Es & _ & _ & B). rewrite Es in Hsk. injection Hsk as <-. exact B. }
  split; [exact Nb|].
  assert (Len : Forall (fun r => length r = n_bins sk) rows). { clear - F. induction F as [|? ? ? ? P F IH]; constructor; [apply P|exact IH]. }
  assert (Lrows : length rows = length rays). { assert (Q : length (combine (seq 0 (length rays)) rays) = length rows) by (clear - F; induction F; cbn; congruence). rewrite combine_length, seq_length in Q. lia. }
  split. { unfold wf. cbn [nrows ncols data]. rewrite (concat_len _ _ Len), Lrows. reflexivity. }
  intros i ray Hi.
  assert (Hrow : exists row, nth_error rows i = Some row). { destruct (nth_error rows i) eqn:Q; [eauto|]. apply nth_error_None in Q. assert (i < length rays)%nat by (apply nth_error_Some; congruence). lia. }
  destruct Hrow as [row Hrow].
  assert (Hir : nth_error (combine (seq 0 (length rays)) rays) i = Some (i, ray)).
  { clear - Hi. assert (Gn : forall (l : list Ray) k i, nth_error l i = Some ray -> nth_error (combine (seq k (length l)) l) i = Some ((k + i)%nat, ray)).
    { induction l as [|a l IH]; intros k [|j] Hj; try discriminate; cbn in *. { injection Hj as ->. now rewrite Nat.add_0_r. } { rewrite IH by exact Hj. do 2 f_equal. lia. } }
    apply (Gn rays 0%nat i Hi). }
  assert (P : forall k a, nth_error (combine (seq 0 (length rays)) rays) k = Some a -> forall r, nth_error rows k = Some r ->
    length r = n_bins sk /\ exists d ind, (forall j, vlen (d j) = 1 /\ vdot (d j) (direction (snd a)) = sqrt (1 - fst (draws (fst a) j))) /\
    (forall b, (b < n_bins sk)%nat -> nth b r BLACK = sadd (gray (PI * INR (count (goes_to cast_ray sk (origin (snd a)) d b) (seq 0 n)) / INR n)) (ind b)) /\
    (forall b, nonneg (ind b)) /\
    sumf (fun b => radiance (ind b)) (seq 0 (n_bins sk)) <= PI * INR (count (blocked cast_ray (origin (snd a)) d) (seq 0 n)) / INR n).
  { clear - F. induction F as [|x y l l' P F IH]; intros [|k] a Ha r Hr; try discriminate; cbn in Ha, Hr.
    - injection Ha as <-. injection Hr as <-. exact P.
    - apply (IH k a Ha r Hr). }
  destruct (P i _ Hir row Hrow) as (Lr & d & ind & D1 & D2 & D3 & D4). cbn [fst snd] in *. exists d, ind. split; [exact D1|].
  split. { intros b Hb. split; [apply D3|]. rewrite (concat_nth _ _ _ Len i b row Hrow Hb), (D2 b Hb). do 2 f_equal. }
  exact D4.
Qed.

Lemma sumf_const0 {A} (l : list A) : sumf (fun _ => 0) l = 0.
Proof. unfold sumf. induction l as [|a l IH]; cbn; [reflexivity|]. rewrite IH. ring. Qed.
Lemma shared_out (bin : nat -> option nat) N : (forall j b, bin j = Some b -> (b < N)%nat) -> forall l,
  sumf (fun b => INR (length (filter (fun j => match bin j with Some k => (k =? b)%nat | None => false end) l))) (seq 0 N) =
  INR (length l) - INR (length (filter (fun j => match bin j with Some _ => false | None => true end) l)).
Proof.
  intros H. induction l as [|j l IH]; cbn [filter length].
  - rewrite sumf_const0. cbn. ring.
  - destruct (bin j) as [b0|] eqn:E.
    + rewrite (sumf_ext _ (fun b => INR (length (filter (fun j => match bin j with Some k => (k =? b)%nat | None => false end) l)) + (if (b =? b0)%nat then 1 else 0))).
      2: { intros b _. rewrite (Nat.eqb_sym b0 b). destruct (b =? b0)%nat; cbn [length]; [rewrite S_INR|]; ring. }
      rewrite sumf_plus, IH, sumf_single. { rewrite S_INR. ring. } specialize (H j b0 E). lia.
    + rewrite IH. cbn [length]. rewrite !S_INR. ring.
Qed.

(** C80: no scene, however reflective its materials, makes a surface receive more than pi times the radiance of a uniform sky; without
    obstacles it receives exactly that. *)
Theorem C80_energy : forall G I M (gen : G -> R * G) (cast_ray : Ray -> option I) hit_point hit_normal (material : I -> option M) sample_bsdf
    m sk n draws seeds max_depth rays,
  new m = Ok sk -> (0 < n)%nat -> fair gen cast_ray hit_normal material sample_bsdf -> (forall i j, random (draws i j)) ->
  Forall (fun r => vlen (direction r) = 1) rays ->
  exists dc, calc_dc gen cast_ray hit_point hit_normal material sample_bsdf sk max_depth n draws seeds rays = Ok dc /\
    forall i, (i < length rays)%nat ->
      (forall b, (b < ncols dc)%nat -> nonneg (nth (ncols dc * i + b) (data dc) BLACK)) /\
      sumf (fun b => radiance (nth (ncols dc * i + b) (data dc) BLACK)) (seq 0 (ncols dc)) <= PI /\
      ((forall r, cast_ray r = None) -> sumf (fun b => radiance (nth (ncols dc * i + b) (data dc) BLACK)) (seq 0 (ncols dc)) = PI).
Proof.
  intros G I M gen cast_ray hit_point hit_normal material sample_bsdf m sk n draws seeds max_depth rays Hsk Hn Hf Hd Hu.
  destruct (C80_coefficients G I M gen cast_ray hit_point hit_normal material sample_bsdf m sk n draws seeds max_depth rays Hsk Hn Hf Hd Hu)
    as (dc & E & Nr & Nc & W & P). exists dc. split; [exact E|]. intros i Hi.
  destruct (nth_error rays i) as [ray|] eqn:Er; [|apply nth_error_None in Er; lia].
  destruct (P i ray Er) as (d & other & D1 & D2 & D3).
  assert (Nb : n_bins sk = ncols dc).
  { destruct (Nat.eq_dec m 0) as [->|Nz]; [rewrite (proj1 C43_bins) in Hsk; discriminate|].
    destruct (proj2 C43_bins m ltac:(lia)) as (s & Es & _ & _ & B). rewrite Es in Hsk. injection Hsk as <-. lia. }
  assert (INRn : 0 < INR n) by (apply lt_0_INR; exact Hn). pose proof PI_RGT_0 as Pi.
  set (bin := fun j => match cast_ray (mkRay (origin ray) (d j)), dir_to_bin sk (d j) with None, Ok k => Some k | _, _ => None end).
  assert (Bin : forall j, (bin j = None <-> cast_ray (mkRay (origin ray) (d j)) <> None) /\ forall b, bin j = Some b -> (b < ncols dc)%nat).
  { intros j. unfold bin. destruct (C43_in_range m sk (d j) Hsk (proj1 (D1 j))) as (b & Eb & Hb). rewrite Eb.
    destruct (cast_ray _); split; try (split; congruence); intros b' Q; [discriminate|injection Q as <-; lia]. }
  assert (S0 : sumf (fun b => radiance (nth (ncols dc * i + b) (data dc) BLACK)) (seq 0 (ncols dc)) =
     PI / INR n * (INR n - INR (length (filter (fun j => match bin j with Some _ => false | None => true end) (seq 0 n)))) + sumf (fun b => radiance (other b)) (seq 0 (ncols dc))).
  { rewrite (sumf_ext _ (fun b => PI / INR n * INR (length (filter (fun j => match bin j with Some k => (k =? b)%nat | None => false end) (seq 0 n))) + radiance (other b))).
    - rewrite sumf_plus, sumf_scale, (shared_out bin (ncols dc) (fun j => proj2 (Bin j))), seq_length. reflexivity.
    - intros b Hb. apply in_seq in Hb. rewrite (proj2 (D2 b ltac:(lia))), radiance_add, radiance_gray. unfold Rdiv. f_equal.
      rewrite Rmult_assoc, (Rmult_comm _ (/ INR n)), <- Rmult_assoc. f_equal. f_equal. f_equal. apply filter_ext. intros j. unfold bin.
      destruct (cast_ray _); [reflexivity|]. destruct (dir_to_bin sk (d j)); reflexivity. }
  assert (Bl : length (filter (fun j => match cast_ray (mkRay (origin ray) (d j)) with None => false | Some _ => true end) (seq 0 n)) =
     length (filter (fun j => match bin j with Some _ => false | None => true end) (seq 0 n))).
  { f_equal. apply filter_ext. intros j. destruct (Bin j) as [[B1 B2] _]. destruct (bin j), (cast_ray _); try reflexivity.
    - assert (Some n0 = None) by (apply B2; discriminate). discriminate.
    - exfalso. apply B1; reflexivity. }
  rewrite Bl in D3. set (k := length (filter (fun j => match bin j with Some _ => false | None => true end) (seq 0 n))) in *.
  split; [|split].
  - intros b Hb. destruct (D2 b Hb) as [N ->]. apply nonneg_add; [|exact N]. unfold nonneg, gray. cbn.
    match goal with |- 0 <= ?x /\ _ => assert (0 <= x) end.
    { unfold Rdiv. apply Rmult_le_pos; [|left; apply Rinv_0_lt_compat; exact INRn]. apply Rmult_le_pos; [lra|apply pos_INR]. }
    auto.
  - rewrite S0. replace (PI / INR n * (INR n - INR k)) with (PI - PI * INR k / INR n) by (field; lra). lra.
  - intros Open. rewrite S0. assert (K0 : k = 0%nat).
    { unfold k. replace (filter _ _) with (@nil nat); [reflexivity|]. symmetry. rewrite (filter_ext _ (fun _ => false)).
      - clear. induction (seq 0 n); [reflexivity|assumption].
      - intros j. destruct (Bin j) as [[B1 _] _]. destruct (bin j); [reflexivity|]. exfalso. apply B1; [reflexivity|apply Open]. }
    rewrite K0 in *. cbn [INR] in *.
    assert (Z : sumf (fun b => radiance (other b)) (seq 0 (ncols dc)) = 0).
    { apply Rle_antisym. { eapply Rle_trans; [exact D3|]. unfold Rdiv. rewrite Rmult_0_r, Rmult_0_l. lra. }
      assert (Q : forall l, (forall b, In b l -> (b < ncols dc)%nat) -> 0 <= sumf (fun b => radiance (other b)) l).
      { induction l as [|b l IHl]; intros Hl; [cbn; lra|]. change (0 <= radiance (other b) + sumf (fun b => radiance (other b)) l).
        pose proof (radiance_nonneg _ (proj1 (D2 b (Hl b (or_introl eq_refl))))). assert (0 <= sumf (fun b => radiance (other b)) l) by (apply IHl; intros; apply Hl; right; assumption). lra. }
      apply Q. intros b Hb. apply in_seq in Hb. lia. }
    rewrite Z. field. lra.
Qed.

Lemma product_ok (a b : mat R) : wf a -> wf b -> ncols a = nrows b -> (0 < ncols a)%nat -> (0 < ncols b)%nat ->
  exists m, op_mul Rnum a b = Ok m /\ nrows m = nrows a /\ ncols m = ncols b /\ wf m /\
  forall i j, (i < nrows a)%nat -> (j < ncols b)%nat ->
    nth (ncols b * i + j) (data m) 0 = sumf (fun k => nth (ncols a * i + k) (data a) 0 * nth (ncols b * k + j) (data b) 0) (seq 0 (ncols a)).
Proof.
  intros Wa Wb H Pa Pb. destruct (C08_elements R Rnum a b a 0 Wa Wb Wa) as (_ & _ & _ & _ & _ & _ & K & _).
  destruct (K H Pa Pb) as [(m & E & R1 & C1 & W1 & V1) _].
  exists m. split; [exact E|]. split; [exact R1|]. split; [exact C1|]. split; [exact W1|]. intros i j Hi Hj. specialize (V1 i j Hi Hj).
  unfold elt in V1. rewrite C1 in V1. cbn [n0 Rnum] in V1. rewrite V1.
  assert (Q : forall N f, MatrixSpec.sum Rnum N f = sumf f (seq 0 N)).
  { induction N as [|N IH]; intros f; [reflexivity|]. cbn [MatrixSpec.sum]. rewrite IH, seq_S, sumf_app. cbn. unfold sumf. ring. }
  rewrite Q. reflexivity.
Qed.

(** C80: the rows of the rays of a surface are averaged; a surface without rays makes the program stop. *)
Theorem C80_average : forall dc : mat R, wf dc ->
  ((0 < nrows dc)%nat -> (0 < ncols dc)%nat ->
  exists a, average_matrix dc = Ok a /\ nrows a = 1%nat /\ ncols a = ncols dc /\ wf a /\
    forall b, (b < ncols dc)%nat -> nth b (data a) 0 = sumf (fun i => nth (ncols dc * i + b) (data dc) 0) (seq 0 (nrows dc)) / INR (nrows dc)) /\
  (nrows dc = 0%nat -> average_matrix dc = Panic).
Proof.
  intros dc W. split.
  - intros Hr Hc. unfold average_matrix. destruct (product_ok (new_mat (1 / INR (nrows dc)) 1 (nrows dc)) dc) as (a & E & R1 & C1 & W1 & V1); try assumption.
    { unfold wf, new_mat. cbn [nrows ncols data]. apply repeat_length. } { reflexivity. }
    exists a. split; [exact E|]. split; [exact R1|]. split; [exact C1|]. split; [exact W1|]. intros b Hb.
    specialize (V1 0%nat b ltac:(cbn; lia) Hb). rewrite Nat.mul_0_r in V1. cbn [Nat.add] in V1. rewrite V1. cbn [new_mat ncols data].
    rewrite (sumf_ext _ (fun i => 1 / INR (nrows dc) * nth (ncols dc * i + b) (data dc) 0)).
    + rewrite sumf_scale. unfold Rdiv. ring.
    + intros k Hk. apply in_seq in Hk. rewrite Nat.mul_0_r. cbn [Nat.add]. f_equal.
      rewrite Nat.mul_1_l. rewrite (nth_indep _ 0 (1 / INR (nrows dc))) by (rewrite repeat_length; lia). apply nth_repeat.
  - intros H. unfold average_matrix, op_mul, prod_into, new_mat. cbn [nrows ncols data]. rewrite H. cbn. rewrite Nat.eqb_refl. reflexivity.
Qed.

(** A scene with a low obstacle that reflects half of the light straight up. *)
Definition low_wall (r : Ray) : option unit := if Rltb (vz (direction r)) (1 / 2) then Some tt else None.
Definition half_up (_ : unit) (_ : pt) (i : unit) (c : R) (g : unit) : option (pt * spectrum * R) * unit * R * unit :=
  (Some (mkV 0 0 1, gray (1 / 2), 1), i, c, g).
Example C80_example : exists sk dc, new 1 = Ok sk /\
  fair (fun g : unit => (1 / 4, g)) low_wall (fun _ : unit => mkV 0 0 1) (fun i => Some i) half_up /\
  calc_dc (fun g : unit => (1 / 4, g)) low_wall (fun _ => mkV 0 0 0) (fun _ => mkV 0 0 1) (fun i => Some i) half_up sk 1 3
    (fun _ j => (if (j <? 3)%nat then INR j / 3 else 0, 1 / 2)) (fun _ _ => tt) [mkRay (mkV 0 0 0) (mkV 0 0 1); mkRay (mkV 1 0 0) (mkV 1 0 0)] = Ok dc /\
  nrows dc = 2%nat /\ ncols dc = 146%nat /\ sumf (fun b => radiance (nth (ncols dc * 1 + b) (data dc) BLACK)) (seq 0 (ncols dc)) <= PI.
Proof.
  destruct (proj2 C43_bins 1%nat ltac:(lia)) as (sk & Es & _ & _ & B). exists sk.
  assert (F : fair (fun g : unit => (1 / 4, g)) low_wall (fun _ : unit => mkV 0 0 1) (fun i => Some i) half_up).
  { split; [intros g; cbn; lra|]. intros ray i mt c g _ _ _. unfold half_up. cbv zeta. unfold vdot, sdiv, sscale, gray, nonneg. cbn [vx vy vz red green blue].
    rewrite Rabs_right by lra. split; [|lra]. unfold vlen, vlen2. cbn [vx vy vz]. replace (0 * 0 + 0 * 0 + 1 * 1) with 1 by ring. apply sqrt_1. }
  assert (D : forall i j : nat, random (if (j <? 3)%nat then INR j / 3 else 0, 1 / 2)).
  { intros _ j. unfold random. cbn [fst snd]. split; [|lra]. destruct (Nat.ltb_spec j 3); [|lra].
    destruct j as [|[|[|j]]]; [cbn; lra..|lia]. }
  assert (U : Forall (fun r => vlen (direction r) = 1) [mkRay (mkV 0 0 0) (mkV 0 0 1); mkRay (mkV 1 0 0) (mkV 1 0 0)]).
  { repeat constructor; cbn [direction]; unfold vlen, vlen2; cbn [vx vy vz]; [replace (0 * 0 + 0 * 0 + 1 * 1) with 1 by ring|replace (1 * 1 + 0 * 0 + 0 * 0) with 1 by ring]; apply sqrt_1. }
  destruct (C80_energy unit unit unit (fun g : unit => (1 / 4, g)) low_wall (fun _ => mkV 0 0 0) (fun _ => mkV 0 0 1) (fun i => Some i) half_up 1 sk 3
    (fun _ j => (if (j <? 3)%nat then INR j / 3 else 0, 1 / 2)) (fun _ _ => tt) 1 _ Es ltac:(lia) F D U) as (dc & E & P).
  destruct (C80_coefficients unit unit unit (fun g : unit => (1 / 4, g)) low_wall (fun _ => mkV 0 0 0) (fun _ => mkV 0 0 1) (fun i => Some i) half_up 1 sk 3
    (fun _ j => (if (j <? 3)%nat then INR j / 3 else 0, 1 / 2)) (fun _ _ => tt) 1 _ Es ltac:(lia) F D U) as (dc' & E' & Nr & Nc & _ & _).
  rewrite E in E'. injection E' as <-. exists dc. split; [exact Es|]. split; [exact F|]. split; [exact E|]. split; [exact Nr|]. split; [exact Nc|].
  apply (P 1%nat). cbn. lia.
Qed.

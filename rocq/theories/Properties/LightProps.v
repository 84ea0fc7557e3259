(** Properties C81 to C85: sun and infrared radiation on the surfaces of a building (light/src). *)
From Coq Require Import List Arith ZArith Reals Bool Lra Lia Psatz.
From Verif.Matrix Require Import MatrixModel MatrixSpec GaussSeidel.
From Verif.Common Require Import Base Flt.
From Verif.Geometry Require Import Vec TriangleModel.
From Verif.State Require Import ControlModel.
From Verif.Weather Require Import SunModel SkyModel SkyProofs PerezModel PerezProofs.
From Verif.Rendering Require Import SamplersModel DaylightModel.
From Verif.Heat Require Import GasModel MarchModel.
From Verif.Light Require Import LightModel.
From Verif.Properties Require Import SkyProps SamplersProps SunProps PerezProps DaylightProps.
Import ListNotations.
Open Scope R_scope.
Open Scope list_scope.

(** ** C81: points, rays and coefficients of a surface *)

(** The area of the first [k] triangles *)
Definition area_of_first (k : nat) (areas : list R) : R := sumf (fun a => a) (firstn k areas).

Lemma fold_sum l : forall a, fold_left Rplus l a = a + sumf (fun x => x) l.
Proof. induction l as [|x l IH]; intros a; cbn; [ring|]. rewrite IH. unfold sumf. ring. Qed.
Lemma pick_spec r : forall areas i acc, Forall (fun a => 0 <= a) areas ->
  (r <= acc + sumf (fun x => x) areas -> areas <> [] -> exists j, pick areas i acc r = Ok (i + j)%nat /\ (j < length areas)%nat) /\
  forall j, pick areas i acc r = Ok (i + j)%nat ->
    (j < length areas)%nat /\ r <= acc + area_of_first (S j) areas /\ ((0 < j)%nat -> acc + area_of_first j areas < r).
Proof.
  induction areas as [|a areas IH]; intros i acc H; cbn [pick].
  - split; [congruence|]. intros j E. discriminate.
  - inversion_clear H as [|? ? Ha Hl]. destruct (IH (S i) (acc + a) Hl) as [A B]. destruct (Rleb r (acc + a)) eqn:T.
    + apply Rleb_true in T. split.
      * intros _ _. exists 0%nat. rewrite Nat.add_0_r. cbn. split; [reflexivity|lia].
      * intros j E. injection E as E. assert (j = 0)%nat by lia. subst j. cbn [length]. split; [lia|]. split; [|lia].
        unfold area_of_first. cbn. lra.
    + apply Rleb_false in T. split.
      * intros Hr _. cbn in Hr. destruct areas as [|b areas'].
        { cbn in Hr. lra. }
        destruct A as (j & E & L). { change (sumf (fun x => x) (a :: b :: areas')) with (a + sumf (fun x => x) (b :: areas')) in *. cbn in *. unfold sumf in *. cbn in *. lra. } { discriminate. }
        exists (S j). replace (i + S j)%nat with (S i + j)%nat by lia. split; [exact E|]. cbn [length] in *. lia.
      * intros j E. destruct j as [|j].
        { exfalso. assert (Up : forall l k c, match pick l k c r with Ok x => (k <= x)%nat | _ => True end).
          { induction l as [|x l IHl]; intros k c; cbn [pick]; [exact Logic.I|]. destruct (Rleb r (c + x)); [lia|]. specialize (IHl (S k) (c + x)). destruct (pick l (S k) (c + x) r); lia || exact Logic.I. }
          specialize (Up areas (S i) (acc + a)). rewrite E in Up. lia. }
        replace (i + S j)%nat with (S i + j)%nat in E by lia. destruct (B j E) as (L & U & D). cbn [length]. split; [lia|].
        unfold area_of_first in *. change (sumf (fun a => a) (firstn (S (S j)) (a :: areas))) with (a + sumf (fun a => a) (firstn (S j) areas)).
        split; [lra|]. intros _. change (sumf (fun a => a) (firstn (S j) (a :: areas))) with (a + sumf (fun a => a) (firstn j areas)).
        destruct j as [|j]; [cbn; lra|]. specialize (D ltac:(lia)). lra.
Qed.

(** A triangle is always found; it is the one in whose share of the total area the random number falls. *)
Theorem C81_sampler : forall areas u, areas <> [] -> Forall (fun a => 0 <= a) areas -> 0 <= u <= 1 ->
  let total := sumf (fun a => a) areas in
  exists i, sampler areas u = Ok i /\ (i < length areas)%nat /\ u * total <= area_of_first (S i) areas /\ ((0 < i)%nat -> area_of_first i areas < u * total).
Proof.
  intros areas u Hne Hpos Hu total. unfold sampler. rewrite fold_sum, Rplus_0_l. fold total.
  assert (T : 0 <= total). { unfold total. clear - Hpos. induction Hpos as [|a l Ha _ IH]; cbn; [lra|]. unfold sumf in IH. lra. }
  destruct (pick_spec (u * total) areas 0 0 Hpos) as [A B]. destruct A as (j & E & L). { fold total. nra. } { exact Hne. }
  exists j. cbn [Nat.add] in *. split; [exact E|]. destruct (B j E) as (_ & U & D). split; [exact L|]. split; [lra|]. intros Hj. specialize (D Hj). lra.
Qed.

(** Every point lies strictly inside one of the triangles of the surface; there are as many points as were asked for. *)
Theorem C81_points : forall triangles us, triangles <> [] -> Forall (fun t => 0 <= snd t) triangles -> Forall (fun u => 0 <= fst u <= 1) us ->
  exists ps, sample_points triangles us = Ok ps /\ length ps = length us /\
    Forall (fun p => exists t a wa wb wc, In (t, a) triangles /\ 0 < wa /\ 0 < wb /\ 0 < wc /\ wa + wb + wc = 1 /\
      p = vadd (vadd (vscale (ta t) wa) (vscale (tb t) wb)) (vscale (tc t) wc)) ps.
Proof.
  intros triangles us Hne Hpos. induction us as [|u us IH]; intros Hu.
  - exists []. repeat split; constructor.
  - inversion_clear Hu as [|? ? H1 H2]. destruct (IH H2) as (ps & E & L & F).
    destruct (C81_sampler (map snd triangles) (fst u)) as (i & Ei & Li & _); [destruct triangles; [congruence|discriminate]|now apply Forall_map|exact H1|].
    rewrite map_length in Li. destruct (nth_error triangles i) as [[t a]|] eqn:Et; [|apply nth_error_None in Et; lia].
    cbn [sample_points]. unfold sample_point. rewrite Ei. cbn [bind]. rewrite Et. cbn [bind]. rewrite E. cbn [bind].
    eexists. split; [reflexivity|]. split; [cbn; lia|]. constructor; [|exact F].
    destruct (C42_triangle (snd u) (ta t) (tb t) (tc t)) as (wa & wb & wc & A & B & C & D & Q).
    exists t, a, wa, wb, wc. split; [apply nth_error_In with i; exact Et|]. auto.
Qed.

(** Rays leave from both sides of the surface, one for each point, a millimetre away from it and along the normal of their side. *)
Theorem C81_rays : forall s, vlen (normal s) = 1 ->
  length (front_rays s) = length (points s) /\ length (back_rays s) = length (points s) /\
  forall i p, nth_error (points s) i = Some p -> exists rf rb, nth_error (front_rays s) i = Some rf /\ nth_error (back_rays s) i = Some rb /\
    direction rf = normal s /\ direction rb = vneg (normal s) /\ vlen (direction rb) = 1 /\
    vsub (origin rf) p = vscale (direction rf) (1 / 1000) /\ vsub (origin rb) p = vscale (direction rb) (1 / 1000).
Proof.
  intros s Hn. unfold front_rays, back_rays. rewrite !map_length. split; [reflexivity|]. split; [reflexivity|].
  intros i p Hp. eexists. eexists. rewrite !nth_error_map, Hp. cbn [option_map]. split; [reflexivity|]. split; [reflexivity|]. cbn [direction origin].
  split; [reflexivity|]. split; [vring|]. split; [|split; unfold DELTA; vring].
  rewrite <- Hn. unfold vlen. f_equal. unfold vscale, vlen2. cbn [vx vy vz]. ring.
Qed.

Lemma sumf_swap {A B} (f : A -> B -> R) l k : sumf (fun a => sumf (f a) k) l = sumf (fun b => sumf (fun a => f a b) l) k.
Proof.
  induction l as [|a l IH]; [cbn; symmetry; apply sumf_const0|].
  change (sumf (fun a => sumf (f a) k) (a :: l)) with (sumf (f a) k + sumf (fun a => sumf (f a) k) l). rewrite IH. rewrite <- PerezProofs.sumf_plus. reflexivity.
Qed.
(** The rays and the exposure of one side *)
Definition rays_of (front_side : bool) (s : ssurface) : list Ray := if front_side then front_rays s else back_rays s.
Definition exposed (front_side : bool) (s : ssurface) : bool := if front_side then receives_sun_front s else receives_sun_back s.

Lemma concat_rows_row (a b m : mat R) : concat_rows a b = Ok m -> ncols a = ncols b /\ nrows m = (nrows a + nrows b)%nat /\ ncols m = ncols a /\ data m = data a ++ data b.
Proof. unfold concat_rows. destruct (ncols a =? ncols b)%nat eqn:E; cbn; [|discriminate]. apply Nat.eqb_eq in E. intros H. injection H as <-. auto. Qed.
Lemma stack_ok N : forall dcs ret, ncols ret = N -> wf ret -> Forall (fun d => nrows d = 1%nat /\ ncols d = N /\ wf d) dcs ->
  exists m, stack ret dcs = Ok m /\ nrows m = (nrows ret + length dcs)%nat /\ ncols m = N /\ wf m /\ data m = data ret ++ concat (map (@data R) dcs).
Proof.
  induction dcs as [|d dcs IH]; intros ret Hc W F; cbn [stack].
  - exists ret. cbn. rewrite app_nil_r. repeat split; auto.
  - inversion_clear F as [|? ? (D1 & D2 & D3) F']. unfold concat_rows. rewrite Hc, D2, Nat.eqb_refl. cbn [negb bind].
    destruct (IH (mkMat (nrows ret + nrows d) N (data ret ++ data d))) as (m & E & A & B & C & D); [reflexivity| |exact F'|].
    { unfold wf in *. cbn [nrows ncols data]. rewrite app_length, W, D3, Hc, D2. lia. }
    exists m. split; [exact E|]. cbn [nrows data] in *. split; [rewrite A, D1; cbn [length]; lia|]. split; [exact B|]. split; [exact C|].
    rewrite D. cbn. now rewrite app_assoc.
Qed.

(** The matrix of the coefficients has one row for each surface.  The row of a side that sees neither the outdoors nor a room is zero; any
    other row is what the rays of that side of that surface give. *)
Theorem C81_matrix : forall calc_dc n_bins front_side l, l <> [] ->
  (forall i s, nth_error l i = Some s -> exposed front_side s = true ->
    exists m, solar_irradiance calc_dc i (rays_of front_side s) = Ok m /\ nrows m = 1%nat /\ ncols m = n_bins /\ wf m) ->
  exists dc, calc_solar_dc_matrix calc_dc n_bins l front_side = Ok dc /\ nrows dc = length l /\ ncols dc = n_bins /\ wf dc /\
    forall i s b, nth_error l i = Some s -> (b < n_bins)%nat ->
      (exposed front_side s = false -> nth (n_bins * i + b) (data dc) 0 = 0) /\
      (exposed front_side s = true -> forall m, solar_irradiance calc_dc i (rays_of front_side s) = Ok m ->
        nth (n_bins * i + b) (data dc) 0 = nth b (data m) 0).
Proof.
  intros calc N fs l Hl H. unfold calc_solar_dc_matrix.
  assert (G : forall l i, (forall k s, nth_error l k = Some s -> exposed fs s = true ->
      exists m, solar_irradiance calc (i + k) (rays_of fs s) = Ok m /\ nrows m = 1%nat /\ ncols m = N /\ wf m) ->
    exists dcs, surfaces_dc calc N fs i l = Ok dcs /\ length dcs = length l /\ Forall (fun d => nrows d = 1%nat /\ ncols d = N /\ wf d) dcs /\
      forall k s, nth_error l k = Some s -> exists d, nth_error dcs k = Some d /\
        (exposed fs s = false -> data d = repeat 0 N) /\ (exposed fs s = true -> solar_irradiance calc (i + k) (rays_of fs s) = Ok d)).
  { clear. induction l as [|s l IH]; intros i H.
    - exists []. cbn. repeat split; auto. intros [|k] s; discriminate.
    - destruct (IH (S i)) as (dcs & E & L & F & P).
      { intros k s' Hk X. destruct (H (S k) s' Hk X) as (m & Em & Q). exists m. replace (S i + k)%nat with (i + S k)%nat by lia. auto. }
      assert (D : exists d, surface_dc calc N fs i s = Ok d /\ (nrows d = 1%nat /\ ncols d = N /\ wf d) /\
        (exposed fs s = false -> data d = repeat 0 N) /\ (exposed fs s = true -> solar_irradiance calc i (rays_of fs s) = Ok d)).
      { unfold surface_dc. destruct (exposed fs s) eqn:X.
        - destruct (H 0%nat s eq_refl X) as (m & Em & Q). rewrite Nat.add_0_r in Em. exists m. split; [|split; [exact Q|split; [congruence|auto]]].
          unfold exposed, rays_of in *. destruct fs; rewrite X; cbn [negb andb]; exact Em.
        - exists (new_mat 0 1 N). split; [unfold exposed in X; destruct fs; rewrite X; reflexivity|]. split; [|split; [cbn; rewrite Nat.add_0_r; auto|congruence]].
          split; [reflexivity|]. split; [reflexivity|]. unfold wf, new_mat. cbn [nrows ncols data]. apply repeat_length. }
      destruct D as (d & Ed & Qd & D0 & D1). cbn [surfaces_dc]. rewrite Ed. cbn [bind]. rewrite E. cbn [bind]. exists (d :: dcs).
      split; [reflexivity|]. split; [cbn; lia|]. split; [constructor; assumption|].
      intros [|k] s' Hk; cbn in Hk.
      + injection Hk as <-. exists d. rewrite Nat.add_0_r. split; [reflexivity|]. auto.
      + destruct (P k s' Hk) as (d' & A & B & C). exists d'. replace (i + S k)%nat with (S i + k)%nat by lia. auto. }
  destruct l as [|s0 l0] eqn:El; [congruence|]. rewrite <- El in *. clear Hl.
  destruct (G l 0%nat H) as (dcs & E & L & F & P). rewrite E. cbn [bind].
  destruct dcs as [|d dcs]; [subst l; discriminate L|]. inversion F as [|? ? (D1 & D2 & D3) F']. clear El s0 l0. subst N.
  destruct (stack_ok (ncols d) dcs d eq_refl D3) as (m & Em & M1 & M2 & M3 & M4). { exact F'. }
  exists m. split; [exact Em|]. split; [rewrite M1, D1; cbn in *; lia|]. split; [exact M2|]. split; [exact M3|].
  intros i s b Hi Hb. destruct (P i s Hi) as (d' & A & B & C).
  assert (X : nth (ncols d * i + b) (data m) 0 = nth b (data d') 0).
  { rewrite M4. change (data d ++ concat (map (@data R) dcs)) with (concat (map (@data R) (d :: dcs))).
    apply concat_nth.
    - apply Forall_map. eapply Forall_impl; [|exact F]. intros y (X1 & X2 & X3). unfold wf in X3. rewrite X3, X1, X2. lia.
    - rewrite nth_error_map, A. reflexivity.
    - exact Hb. }
  rewrite X. split.
  - intros Q. rewrite (B Q). apply nth_repeat.
  - intros Q m' Em'. pose proof (C Q) as CQ. cbn [Nat.add] in CQ. rewrite CQ in Em'. injection Em' as <-. reflexivity.
Qed.

(** The same for the program as a whole: coefficients are never negative, those of a side add up to at most pi, and to exactly pi where
    nothing stands in front of an exposed side.  A surface without points makes the program stop. *)
Theorem C81_energy : forall G I M (gen : G -> R * G) (cast_ray : Ray -> option I) hit_point hit_normal (material : I -> option M) sample_bsdf
    m sk n (draws : nat -> nat -> nat -> R * R) (seeds : nat -> nat -> nat -> G) max_depth l front_side,
  new m = Ok sk -> (0 < n)%nat -> fair gen cast_ray hit_normal material sample_bsdf -> (forall k i j, random (draws k i j)) ->
  Forall (fun s => vlen (normal s) = 1) l -> l <> [] ->
  let calc k := calc_dc gen cast_ray hit_point hit_normal material sample_bsdf sk max_depth n (draws k) (seeds k) in
  (Forall (fun s => points s <> []) l ->
   exists dc, calc_solar_dc_matrix calc (n_bins sk) l front_side = Ok dc /\ nrows dc = length l /\ ncols dc = (144 * m * m + 2)%nat /\ wf dc /\
    forall k s, nth_error l k = Some s ->
      (forall b, (b < ncols dc)%nat -> 0 <= nth (ncols dc * k + b) (data dc) 0) /\
      sumf (fun b => nth (ncols dc * k + b) (data dc) 0) (seq 0 (ncols dc)) <= PI /\
      (exposed front_side s = false -> forall b, (b < ncols dc)%nat -> nth (ncols dc * k + b) (data dc) 0 = 0) /\
      (exposed front_side s = true -> (forall r, cast_ray r = None) -> sumf (fun b => nth (ncols dc * k + b) (data dc) 0) (seq 0 (ncols dc)) = PI)) /\
  (forall s l', l = s :: l' -> points s = [] -> exposed front_side s = true -> calc_solar_dc_matrix calc (n_bins sk) l front_side = Panic).
Proof.
  intros G I M gen cast_ray hit_point hit_normal material sample_bsdf m sk n draws seeds max_depth l fs Hsk Hn Hf Hd Hu Hl calc.
  assert (Nb : n_bins sk = (144 * m * m + 2)%nat).
  { destruct (Nat.eq_dec m 0) as [->|Nz]; [rewrite (proj1 C43_bins) in Hsk; discriminate|].
    destruct (proj2 C43_bins m ltac:(lia)) as (s & Es & _ & _ & B). rewrite Es in Hsk. injection Hsk as <-. lia. }
  assert (Unit : forall s, vlen (normal s) = 1 -> Forall (fun r => vlen (direction r) = 1) (rays_of fs s)).
  { intros s Hs. unfold rays_of, front_rays, back_rays. destruct fs; apply Forall_map, Forall_forall; intros p _; cbn [direction]; [exact Hs|].
    rewrite <- Hs. unfold vlen. f_equal. unfold vscale, vlen2. cbn [vx vy vz]. ring. }
  assert (Len : forall s, length (rays_of fs s) = length (points s)) by (intros s; unfold rays_of, front_rays, back_rays; destruct fs; apply map_length).
  split.
  - intros Hp.
    assert (Row : forall k s, nth_error l k = Some s -> exists r, solar_irradiance calc k (rays_of fs s) = Ok r /\ nrows r = 1%nat /\ ncols r = n_bins sk /\ wf r /\
      (forall b, (b < n_bins sk)%nat -> 0 <= nth b (data r) 0) /\ sumf (fun b => nth b (data r) 0) (seq 0 (n_bins sk)) <= PI /\
      ((forall r, cast_ray r = None) -> sumf (fun b => nth b (data r) 0) (seq 0 (n_bins sk)) = PI)).
    { intros k s Hk. assert (Hs : vlen (normal s) = 1) by (eapply Forall_forall in Hu; [exact Hu|apply nth_error_In with k; exact Hk]).
      assert (Hps : points s <> []) by (eapply Forall_forall in Hp; [exact Hp|apply nth_error_In with k; exact Hk]).
      destruct (C80_coefficients G I M gen cast_ray hit_point hit_normal material sample_bsdf m sk n (draws k) (seeds k) max_depth (rays_of fs s) Hsk Hn Hf (Hd k) (Unit s Hs))
        as (dc & E & Nr & Nc & W & _).
      destruct (C80_energy G I M gen cast_ray hit_point hit_normal material sample_bsdf m sk n (draws k) (seeds k) max_depth (rays_of fs s) Hsk Hn Hf (Hd k) (Unit s Hs))
        as (dc' & E' & P). rewrite E in E'. injection E' as <-.
      set (rad := colour_matrix_to_radiance dc). assert (Wr : wf rad) by (unfold wf, rad, colour_matrix_to_radiance in *; cbn [nrows ncols data]; rewrite map_length; exact W).
      assert (Nrp : (0 < nrows rad)%nat). { cbn. rewrite Nr, Len. destruct (points s); [congruence|cbn; lia]. }
      destruct (proj1 (C80_average rad Wr) Nrp ltac:(cbn; lia)) as (a & Ea & A1 & A2 & A3 & A4).
      exists a. assert (Nca : ncols a = n_bins sk) by (rewrite A2; cbn; lia).
      split. { unfold solar_irradiance, calc. rewrite E. cbn [bind]. exact Ea. }
      split; [exact A1|]. split; [exact Nca|]. split; [exact A3|].
      assert (Hr : 0 < INR (nrows rad)) by (apply lt_0_INR; exact Nrp).
      assert (El : forall i b, nth (ncols rad * i + b) (data rad) 0 = radiance (nth (ncols dc * i + b) (data dc) BLACK)).
      { intros i b. unfold rad, colour_matrix_to_radiance. cbn [ncols data]. replace 0 with (radiance BLACK) by (unfold radiance, BLACK, gray; cbn [red green blue]; ring). apply map_nth. }
      assert (V : forall b, (b < n_bins sk)%nat -> nth b (data a) 0 = sumf (fun i => radiance (nth (ncols dc * i + b) (data dc) BLACK)) (seq 0 (nrows rad)) / INR (nrows rad)).
      { intros b Hb. rewrite A4 by (cbn; lia). f_equal. apply sumf_ext. intros i _. apply El. }
      assert (S1 : sumf (fun b => nth b (data a) 0) (seq 0 (n_bins sk)) =
        sumf (fun i => sumf (fun b => radiance (nth (ncols dc * i + b) (data dc) BLACK)) (seq 0 (ncols dc))) (seq 0 (nrows rad)) / INR (nrows rad)).
      { transitivity (sumf (fun b => / INR (nrows rad) * sumf (fun i => radiance (nth (ncols dc * i + b) (data dc) BLACK)) (seq 0 (nrows rad))) (seq 0 (ncols dc))).
        - replace (n_bins sk) with (ncols dc) by lia. apply sumf_ext. intros b Hb. apply in_seq in Hb. rewrite V by lia. field. lra.
        - rewrite sumf_scale, sumf_swap. field. lra. }
      assert (Bound : forall (f : nat -> R) c N k0, (forall i, (k0 <= i < k0 + N)%nat -> f i <= c) -> sumf f (seq k0 N) <= INR N * c).
      { clear. intros f c N. induction N as [|N IH]; intros k0 H; [cbn; lra|]. rewrite S_INR. cbn [seq].
        change (sumf f (k0 :: seq (S k0) N)) with (f k0 + sumf f (seq (S k0) N)). specialize (IH (S k0) ltac:(intros; apply H; lia)). specialize (H k0 ltac:(lia)). lra. }
      assert (Same : forall (f : nat -> R) c N k0, (forall i, (k0 <= i < k0 + N)%nat -> f i = c) -> sumf f (seq k0 N) = INR N * c).
      { clear. intros f c N. induction N as [|N IH]; intros k0 H; [cbn; lra|]. rewrite S_INR. cbn [seq].
        change (sumf f (k0 :: seq (S k0) N)) with (f k0 + sumf f (seq (S k0) N)). rewrite IH by (intros; apply H; lia). rewrite (H k0) by lia. lra. }
      assert (Rn : nrows rad = length (rays_of fs s)) by exact Nr.
      split; [|split].
      - intros b Hb. rewrite V by exact Hb. apply Rmult_le_pos; [|left; apply Rinv_0_lt_compat; exact Hr].
        assert (0 <= INR (nrows rad) * 0); [lra|]. eapply Rle_trans; [exact H|].
        assert (Q : sumf (fun i => - radiance (nth (ncols dc * i + b) (data dc) BLACK)) (seq 0 (nrows rad)) <= INR (nrows rad) * 0).
        { apply Bound. intros i Hi. destruct (P i ltac:(lia)) as [P1 _]. specialize (P1 b ltac:(lia)). apply radiance_nonneg in P1. lra. }
        replace (sumf (fun i => - radiance (nth (ncols dc * i + b) (data dc) BLACK)) (seq 0 (nrows rad)))
          with (-1 * sumf (fun i => radiance (nth (ncols dc * i + b) (data dc) BLACK)) (seq 0 (nrows rad))) in Q; [lra|].
        rewrite <- sumf_scale. apply sumf_ext. intros; ring.
      - rewrite S1. apply Rmult_le_reg_r with (INR (nrows rad)); [exact Hr|]. unfold Rdiv. rewrite Rmult_assoc, Rinv_l, Rmult_1_r by lra.
        rewrite (Rmult_comm PI). apply Bound. intros i Hi. destruct (P i ltac:(lia)) as (_ & P2 & _). exact P2.
      - intros Free. rewrite S1, (Same _ PI); [field; lra|]. intros i Hi. destruct (P i ltac:(lia)) as (_ & _ & P3). apply P3. exact Free. }
    destruct (C81_matrix calc (n_bins sk) fs l Hl) as (dc & E & A & B & W & P).
    { intros k s Hk _. destruct (Row k s Hk) as (r & R1 & R2 & R3 & R4 & _). exists r. auto. }
    exists dc. split; [exact E|]. split; [exact A|]. split; [lia|]. split; [exact W|]. intros k s Hk. rewrite B. destruct (Row k s Hk) as (r & R1 & R2 & R3 & R4 & R5 & R6 & R7).
    destruct (exposed fs s) eqn:X.
    + assert (Eq : forall b, (b < n_bins sk)%nat -> nth (n_bins sk * k + b) (data dc) 0 = nth b (data r) 0).
      { intros b Hb. destruct (P k s b Hk Hb) as [_ P2]. apply P2; assumption. }
      assert (Es : sumf (fun b => nth (n_bins sk * k + b) (data dc) 0) (seq 0 (n_bins sk)) = sumf (fun b => nth b (data r) 0) (seq 0 (n_bins sk))).
      { apply sumf_ext. intros b Hb. apply in_seq in Hb. apply Eq. lia. }
      rewrite Es. split; [intros b Hb; rewrite Eq by exact Hb; apply R5; exact Hb|]. split; [exact R6|]. split; [discriminate|]. intros _. exact R7.
    + assert (Eq : forall b, (b < n_bins sk)%nat -> nth (n_bins sk * k + b) (data dc) 0 = 0).
      { intros b Hb. destruct (P k s b Hk Hb) as [P1 _]. apply P1, X. }
      split; [intros b Hb; rewrite Eq by exact Hb; lra|]. split; [|split; [intros _; exact Eq|discriminate]].
      replace (sumf _ _) with (sumf (fun _ : nat => 0) (seq 0 (n_bins sk))); [rewrite sumf_const0; pose proof PI_RGT_0; lra|].
      apply sumf_ext. intros b Hb. apply in_seq in Hb. symmetry. apply Eq. lia.
  - intros s l' -> Hp X. unfold calc_solar_dc_matrix. cbn [surfaces_dc]. unfold surface_dc, solar_irradiance, calc, front_rays, back_rays.
    unfold exposed in X. rewrite Hp. destruct fs; rewrite X; cbn [negb andb map]; unfold calc_dc; cbn [rays_loop bind length concat];
      rewrite (proj2 (C80_average (colour_matrix_to_radiance (mkMat 0 (n_bins sk) [])) eq_refl) eq_refl); reflexivity.
Qed.

(** Two triangles, three points; a roof, whose inner side sees a room, and a slab on the ground *)
Definition ex_triangles : list (Tri * R) :=
  [(mkTri (mkV 0 0 0) (mkV 2 0 0) (mkV 2 1 0), 1); (mkTri (mkV 0 0 0) (mkV 2 1 0) (mkV 0 3 0), 3)].
Example C81_sampler_example : sampler (map snd ex_triangles) (1 / 4) = Ok 0%nat /\ sampler (map snd ex_triangles) (1 / 3) = Ok 1%nat /\
  area_of_first 2 (map snd ex_triangles) = 4.
Proof.
  unfold sampler, ex_triangles, area_of_first. cbn [map snd fold_left pick firstn]. split; [|split].
  - destruct (Rleb _ _) eqn:T; [reflexivity|]. apply Rleb_false in T. lra.
  - destruct (Rleb _ _) eqn:T; [apply Rleb_true in T; lra|]. clear T. destruct (Rleb _ _) eqn:T; [reflexivity|]. apply Rleb_false in T. lra.
  - cbn. lra.
Qed.
Example C81_example : exists ps sk dc, sample_points ex_triangles [(1 / 4, (1 / 2, 1 / 3)); (1, (0, 0))] = Ok ps /\ new 1 = Ok sk /\
  let roof := mkSSurf ps (mkV 0 0 1) (boundary_receives_sun Outdoor) (boundary_receives_sun (Space 0)) in
  let slab := mkSSurf ps (mkV 0 0 1) (boundary_receives_sun Ground) (boundary_receives_sun Adiabatic) in
  calc_solar_dc_matrix (fun k => calc_dc (fun g : unit => (1 / 4, g)) low_wall (fun _ => mkV 0 0 0) (fun _ => mkV 0 0 1) (fun i => Some i) half_up sk 1 3
    (fun _ j => (if (j <? 3)%nat then INR j / 3 else 0, 1 / 2)) (fun _ _ => tt)) (n_bins sk) [roof; slab] true = Ok dc /\
  nrows dc = 2%nat /\ ncols dc = 146%nat /\ nth (146 * 1 + 7) (data dc) 0 = 0 /\ sumf (fun b => nth (146 * 0 + b) (data dc) 0) (seq 0 146) <= PI.
Proof.
  destruct (C81_points ex_triangles [(1 / 4, (1 / 2, 1 / 3)); (1, (0, 0))]) as (ps & Ep & Lp & _); [discriminate|repeat constructor; cbn; lra|repeat constructor; cbn; lra|].
  destruct C80_example as (sk & _ & Es & Hf & _).
  destruct (C81_energy unit unit unit (fun g : unit => (1 / 4, g)) low_wall (fun _ => mkV 0 0 0) (fun _ => mkV 0 0 1) (fun i => Some i) half_up 1 sk 3
    (fun _ _ j => (if (j <? 3)%nat then INR j / 3 else 0, 1 / 2)) (fun _ _ _ => tt) 1
    [mkSSurf ps (mkV 0 0 1) (boundary_receives_sun Outdoor) (boundary_receives_sun (Space 0)); mkSSurf ps (mkV 0 0 1) (boundary_receives_sun Ground) (boundary_receives_sun Adiabatic)] true)
    as [H _]; [exact Es|lia|exact Hf| | |discriminate|].
  - intros _ _ j. unfold random. cbn [fst snd]. destruct (Nat.ltb_spec j 3) as [L|L]; [|lra]. apply lt_INR in L. pose proof (pos_INR j) as P. cbn [INR] in L. lra.
  - repeat constructor; cbn [normal]; unfold vlen, vlen2; cbn [vx vy vz]; replace (0 * 0 + 0 * 0 + 1 * 1) with 1 by ring; apply sqrt_1.
  - destruct H as (dc & E & A & B & _ & P). { repeat constructor; cbn [points]; intros ->; discriminate Lp. }
    exists ps, sk, dc. split; [exact Ep|]. split; [exact Es|]. cbv zeta. split; [exact E|]. split; [exact A|]. split; [exact B|].
    change (144 * 1 * 1 + 2)%nat with 146%nat in B. rewrite B in P. split.
    + destruct (P 1%nat _ eq_refl) as (_ & _ & P3 & _). apply P3; [reflexivity|lia].
    + destruct (P 0%nat _ eq_refl) as (_ & P2 & _). exact P2.
Qed.

(** ** C82: view factors *)

Section Views.
Context (free : Ray -> bool) (draws : nat -> list (R * R)).

(** The number of sampled directions above and below the horizon *)
Definition count_up (d : nat -> pt) (n : nat) : nat := length (filter (fun j => Rltb 0 (vz (d j))) (seq 0 n)).
Definition count_down (d : nat -> pt) (n : nat) : nat := length (filter (fun j => negb (Rltb 0 (vz (d j)))) (seq 0 n)).

Lemma count_all d n : (count_up d n + count_down d n = n)%nat.
Proof. unfold count_up, count_down. rewrite <- (seq_length n 0) at 3. induction (seq 0 n) as [|j l IH]; cbn; [reflexivity|]. destruct (Rltb 0 (vz (d j))); cbn; lia. Qed.
Lemma samples_ok ray e1 e2 : forall us sky ground,
  samples_loop free ray e1 e2 us (sky, ground) =
  if free ray then (sky + INR (length (filter (fun u => Rltb 0 (vz (uniform_sample_tilted_hemisphere u e1 e2 (direction ray)))) us)),
                    ground + INR (length (filter (fun u => negb (Rltb 0 (vz (uniform_sample_tilted_hemisphere u e1 e2 (direction ray))))) us)))
  else (sky, ground).
Proof.
  induction us as [|u us IH]; intros sky ground.
  - cbn. destruct (free ray); [f_equal; ring|reflexivity].
  - cbn [samples_loop filter]. destruct (free ray).
    + destruct (Rltb 0 _); cbn [negb length]; rewrite IH, S_INR; f_equal; ring.
    + apply IH.
Qed.
Lemma filter_seq {A} (P : A -> bool) (dflt : A) us : length (filter P us) = length (filter (fun j => P (nth j us dflt)) (seq 0 (length us))).
Proof.
  induction us as [|u us IH]; [reflexivity|]. cbn [length seq filter nth]. rewrite <- seq_shift.
  assert (E : length (filter (fun j => P (nth j (u :: us) dflt)) (map S (seq 0 (length us)))) = length (filter (fun j => P (nth j us dflt)) (seq 0 (length us)))).
  { clear. induction (seq 0 (length us)) as [|j l IH]; [reflexivity|]. cbn [map filter nth]. destruct (P (nth j us dflt)); cbn [length]; auto. }
  destruct (P u); cbn [length]; rewrite IH, <- E; reflexivity.
Qed.
Context (n : nat) (Hdraws : forall i, length (draws i) = n /\ Forall random (draws i)).
(** What one ray contributes to the sky and to the ground *)
Lemma view_ok : forall rays i sky ground, Forall (fun r => vlen (direction r) = 1) rays ->
  exists d : nat -> nat -> pt,
    view_loop free draws i rays (sky, ground) =
      Ok (sky + sumf (fun k => match nth_error rays k with Some r => if free r then INR (count_up (d k) n) else 0 | None => 0 end) (seq 0 (length rays)),
          ground + sumf (fun k => match nth_error rays k with Some r => if free r then INR (count_down (d k) n) else 0 | None => 0 end) (seq 0 (length rays))) /\
    forall k r j, nth_error rays k = Some r -> (j < n)%nat -> vlen (d k j) = 1 /\ vdot (d k j) (direction r) = fst (nth j (draws (i + k)) (0, 0)).
Proof.
  induction rays as [|ray rays IH]; intros i sky ground H.
  - exists (fun _ _ => mkV 0 0 1). cbn. split; [f_equal; f_equal; ring|]. intros [|k]; discriminate.
  - inversion_clear H as [|? ? H1 H2]. destruct (perpendicular_exists 1 Nat.lt_0_1 (direction ray) H1) as (e1 & E1). cbn [view_loop]. rewrite E1. cbn [bind]. cbv zeta.
    set (e2 := vcross (direction ray) e1). rewrite samples_ok. destruct (Hdraws i) as [Hl Hr].
    set (d0 := fun j => uniform_sample_tilted_hemisphere (nth j (draws i) (0, 0)) e1 e2 (direction ray)).
    assert (Fr : frame e1 e2 (direction ray)).
    { destruct (perpendicular_ok _ _ E1) as [P1 P2]. assert (N1 : vdot (direction ray) (direction ray) = 1).
      { change (vlen2 (direction ray) = 1). rewrite <- (vlen_sqr (direction ray)), H1. ring. }
      unfold frame, e2. pose proof (lagrange (direction ray) e1) as Lg. assert (Sy : vdot (direction ray) e1 = 0) by (rewrite <- P1; unfold vdot; ring).
      repeat split; auto.
      - rewrite Sy in Lg. change (vdot (vcross (direction ray) e1) (vcross (direction ray) e1)) with (vlen2 (vcross (direction ray) e1)). 
        change (vlen2 (direction ray)) with (vdot (direction ray) (direction ray)) in Lg. change (vlen2 e1) with (vdot e1 e1) in Lg. rewrite N1, P2 in Lg. lra.
      - unfold vdot, vcross. cbn [vx vy vz]. ring.
      - unfold vdot, vcross. cbn [vx vy vz]. ring. }
    set (a := if free ray then INR (count_up d0 n) else 0). set (b := if free ray then INR (count_down d0 n) else 0).
    replace (if free ray then _ else _) with (sky + a, ground + b).
    2:{ unfold a, b, count_up, count_down, d0. rewrite <- Hl. destruct (free ray); [|f_equal; ring].
        rewrite <- (filter_seq (fun u => Rltb 0 (vz (uniform_sample_tilted_hemisphere u e1 e2 (direction ray)))) (0, 0)).
        rewrite <- (filter_seq (fun u => negb (Rltb 0 (vz (uniform_sample_tilted_hemisphere u e1 e2 (direction ray))))) (0, 0)). reflexivity. }
    destruct (IH (S i) (sky + a) (ground + b) H2) as (d & E & P). exists (fun k => match k with O => d0 | S k => d k end). split.
    + rewrite E. cbn [length seq]. rewrite <- seq_shift. f_equal.
      assert (Q : forall (f : nat -> R) l, sumf f (map S l) = sumf (fun k => f (S k)) l). { clear. induction l as [|x l IH]; [reflexivity|]. cbn. unfold sumf in IH. rewrite IH. reflexivity. }

      match goal with |- (_, _) = (_ + sumf ?f (0 :: ?l)%nat, _ + sumf ?g (0 :: ?l')%nat) =>
        change (sumf f (0 :: l)%nat) with (f 0%nat + sumf f l); change (sumf g (0 :: l')%nat) with (g 0%nat + sumf g l') end.
      rewrite !Q. cbn [nth_error]. fold a b. f_equal; ring.
    + intros [|k] r j Hk Hj; cbn in Hk.
      * injection Hk as <-. rewrite Nat.add_0_r.
        assert (Rj : random (nth j (draws i) (0, 0))) by (apply Forall_nth; [exact Hr|lia]).
        destruct (C42_tilted_hemisphere _ _ _ _ Rj Fr) as [A _]. split; [exact A|]. unfold d0, uniform_sample_tilted_hemisphere.
        set (w := sample_uniform_hemisphere (nth j (draws i) (0, 0))). pose proof (local_height e1 e2 (direction ray) (mkV 0 0 0) (vx w) (vy w) (vz w) Fr) as Q.
        replace (vz w) with (fst (nth j (draws i) (0, 0))) in * by (unfold w, sample_uniform_hemisphere; destruct (nth j (draws i) (0, 0)); reflexivity).
        rewrite <- Q at 2. unfold vdot, vsub. cbn [vx vy vz]. ring.
      * replace (i + S k)%nat with (S i + k)%nat by lia. apply P; assumption.
Qed.
End Views.

Lemma n_samples_10000 : INR n_samples = 10000.
Proof. unfold n_samples. rewrite mult_INR. rewrite !INR_IZR_INZ. change (Z.of_nat 10) with 10%Z. replace (Z.of_nat 1000) with 1000%Z by (vm_compute; reflexivity). lra. Qed.
Lemma rays_unit front_side s : vlen (normal s) = 1 -> Forall (fun r => vlen (direction r) = 1) (rays_of front_side s).
Proof.
  intros Hs. unfold rays_of, front_rays, back_rays. destruct front_side; apply Forall_map, Forall_forall; intros p _; cbn [direction]; [exact Hs|].
  rewrite <- Hs. unfold vlen. f_equal. unfold vscale, vlen2. cbn [vx vy vz]. ring.
Qed.
Lemma rays_length front_side s : length (rays_of front_side s) = length (points s).
Proof. unfold rays_of, front_rays, back_rays. destruct front_side; apply map_length. Qed.
Lemma sumf_bounds (f : nat -> R) c N : forall k0, (forall i, (k0 <= i < k0 + N)%nat -> 0 <= f i <= c) -> 0 <= sumf f (seq k0 N) <= INR N * c.
Proof.
  induction N as [|N IH]; intros k0 H; [cbn; lra|]. rewrite S_INR. cbn [seq].
  change (sumf f (k0 :: seq (S k0) N)) with (f k0 + sumf f (seq (S k0) N)). specialize (IH (S k0) ltac:(intros; apply H; lia)). specialize (H k0 ltac:(lia)). lra.
Qed.
Lemma sumf_same (f : nat -> R) c N : forall k0, (forall i, (k0 <= i < k0 + N)%nat -> f i = c) -> sumf f (seq k0 N) = INR N * c.
Proof.
  induction N as [|N IH]; intros k0 H; [cbn; lra|]. rewrite S_INR. cbn [seq].
  change (sumf f (k0 :: seq (S k0) N)) with (f k0 + sumf f (seq (S k0) N)). rewrite IH by (intros; apply H; lia). rewrite (H k0) by lia. lra.
Qed.

(** The draws of a run: ten thousand pairs of random numbers for each point *)
Definition drawn (draws : nat -> list (R * R)) : Prop := forall i, length (draws i) = n_samples /\ Forall random (draws i).

(** C82: the factors are the shares of directions, of length one and above the surface, that go up and down among all those drawn at the points
    from which nothing is met along the normal.  They are shares: they are not negative and add up to at most one, and to one when no point
    is covered.  What goes up is shared between sky and air. *)
Theorem C82_factors : forall free s front_side draws, points s <> [] -> vlen (normal s) = 1 -> drawn draws ->
  let rays := rays_of front_side s in
  exists v (d : nat -> nat -> pt), calc_view_factors free s front_side draws = Ok (Some v) /\
    (forall k r j, nth_error rays k = Some r -> (j < n_samples)%nat -> vlen (d k j) = 1 /\ vdot (d k j) (direction r) = fst (nth j (draws k) (0, 0))) /\
    v_sky v + v_air v = sumf (fun k => match nth_error rays k with Some r => if free r then INR (count_up (d k) n_samples) else 0 | None => 0 end) (seq 0 (length rays))
      / (10000 * INR (length (points s))) /\
    v_ground v = sumf (fun k => match nth_error rays k with Some r => if free r then INR (count_down (d k) n_samples) else 0 | None => 0 end) (seq 0 (length rays))
      / (10000 * INR (length (points s))) /\
    v_sky v = (v_sky v + v_air v) * sqrt (v_sky v + v_air v) /\
    0 <= v_sky v /\ 0 <= v_ground v /\ 0 <= v_air v /\ v_sky v + v_ground v + v_air v <= 1 /\
    ((forall r, In r rays -> free r = true) -> v_sky v + v_ground v + v_air v = 1) /\
    ((forall r, In r rays -> free r = false) -> v = mkView 0 0 0).
Proof.
  intros free s fs draws Hp Hn Hd rays.
  destruct (view_ok free draws n_samples Hd rays 0 0 0 (rays_unit fs s Hn)) as (d & E & P).
  set (up := sumf _ _) in E. set (down := sumf _ _) in E. rewrite !Rplus_0_l in E.
  assert (L : length rays = length (points s)) by apply rays_length.
  set (N := 10000 * INR (length (points s))). assert (HN : 0 < N).
  { unfold N. apply Rmult_lt_0_compat; [lra|]. apply lt_0_INR. destruct (points s); [congruence|cbn; lia]. }
  assert (B : 0 <= up /\ 0 <= down /\ up + down <= N /\ ((forall r, In r rays -> free r = true) -> up + down = N) /\ ((forall r, In r rays -> free r = false) -> up = 0 /\ down = 0)).
  { assert (T : forall k, INR (count_up (d k) n_samples) + INR (count_down (d k) n_samples) = 10000).
    { intros k. rewrite <- plus_INR, count_all. apply n_samples_10000. }
    assert (Sum : up + down = sumf (fun k => match nth_error rays k with Some r => if free r then 10000 else 0 | None => 0 end) (seq 0 (length rays))).
    { unfold up, down. rewrite <- PerezProofs.sumf_plus. apply sumf_ext. intros k _. destruct (nth_error rays k) as [r|]; [|ring]. destruct (free r); [apply T|ring]. }
    assert (U : 0 <= up). { unfold up. apply (sumf_bounds _ 10000). intros k _. destruct (nth_error rays k) as [r|]; [|lra]. destruct (free r); [|lra]. specialize (T k). pose proof (pos_INR (count_up (d k) n_samples)). pose proof (pos_INR (count_down (d k) n_samples)). lra. }
    assert (W : 0 <= down). { unfold down. apply (sumf_bounds _ 10000). intros k _. destruct (nth_error rays k) as [r|]; [|lra]. destruct (free r); [|lra]. specialize (T k). pose proof (pos_INR (count_up (d k) n_samples)). pose proof (pos_INR (count_down (d k) n_samples)). lra. }
    split; [exact U|]. split; [exact W|]. split; [|split].
    - rewrite Sum. unfold N. rewrite <- L, Rmult_comm. apply sumf_bounds. intros k _. destruct (nth_error rays k) as [r|]; [|lra]. destruct (free r); lra.
    - intros F. rewrite Sum. unfold N. rewrite <- L, Rmult_comm. apply sumf_same. intros k Hk. destruct (nth_error rays k) as [r|] eqn:Er; [|apply nth_error_None in Er; lia].
      rewrite (F r) by (apply nth_error_In with k; exact Er). reflexivity.
    - intros F. assert (Z : up + down = 0). { rewrite Sum. rewrite (sumf_same _ 0); [ring|]. intros k Hk. destruct (nth_error rays k) as [r|] eqn:Er; [|reflexivity].
      rewrite (F r) by (apply nth_error_In with k; exact Er). reflexivity. } lra. }
  destruct B as (B1 & B2 & B3 & B4 & B5).
  assert (U1 : 0 <= up / N) by (apply Rmult_le_pos; [exact B1|left; apply Rinv_0_lt_compat; exact HN]).
  assert (D1 : 0 <= down / N) by (apply Rmult_le_pos; [exact B2|left; apply Rinv_0_lt_compat; exact HN]).
  assert (T1 : up / N + down / N <= 1). { apply Rmult_le_reg_r with N; [exact HN|]. replace ((up / N + down / N) * N) with (up + down) by (field; lra). lra. }
  assert (Q0 : 0 <= sqrt (up / N)) by apply sqrt_pos.
  assert (Q1 : sqrt (up / N) <= 1). { rewrite <- sqrt_1. apply sqrt_le_1; lra. }
  exists (mkView (up / N * sqrt (up / N)) (down / N) (up / N * (1 - sqrt (up / N)))), d. cbn [v_sky v_ground v_air].
  split. { unfold calc_view_factors. fold (rays_of fs s). fold rays. rewrite E. cbn [bind fst snd]. destruct rays as [|r0 rs] eqn:Er; [exfalso; apply Hp; destruct (points s); [reflexivity|discriminate L]|].
    rewrite <- Er in *. rewrite n_samples_10000, L. reflexivity. }
  split; [exact P|]. split. { fold up. fold N. ring. } split. { reflexivity. }
  replace (up / N * sqrt (up / N) + up / N * (1 - sqrt (up / N))) with (up / N) by ring. split; [reflexivity|].
  split; [apply Rmult_le_pos; lra|]. split; [exact D1|]. split; [apply Rmult_le_pos; lra|].
  replace (up / N * sqrt (up / N) + down / N + up / N * (1 - sqrt (up / N))) with (up / N + down / N) by ring. split; [exact T1|]. split.
  - intros F. replace (up / N + down / N) with ((up + down) / N) by (field; lra). rewrite (B4 F). field. lra.
  - intros F. destruct (B5 F) as [-> ->]. unfold Rdiv. rewrite !Rmult_0_l. reflexivity.
Qed.

(** C82: a horizontal surface that nothing covers sees the sky only, or the ground only. *)
Theorem C82_horizontal : forall free s front_side draws, points s <> [] -> drawn draws ->
  (forall i u, In u (draws i) -> 0 < fst u) -> (forall r, In r (rays_of front_side s) -> free r = true) ->
  (normal s = (if front_side then mkV 0 0 1 else mkV 0 0 (-1)) -> calc_view_factors free s front_side draws = Ok (Some (mkView 1 0 0))) /\
  (normal s = (if front_side then mkV 0 0 (-1) else mkV 0 0 1) -> calc_view_factors free s front_side draws = Ok (Some (mkView 0 1 0))).
Proof.
  assert (U : forall z, z * z = 1 -> vlen (mkV 0 0 z) = 1). { intros z Hz. unfold vlen, vlen2. cbn [vx vy vz]. replace (0 * 0 + 0 * 0 + z * z) with 1 by lra. apply sqrt_1. }
  assert (G : forall free s fs draws z, points s <> [] -> drawn draws -> (forall i u, In u (draws i) -> 0 < fst u) -> (forall r, In r (rays_of fs s) -> free r = true) ->
    z * z = 1 -> normal s = (if fs then mkV 0 0 z else mkV 0 0 (- z)) ->
    exists v, calc_view_factors free s fs draws = Ok (Some v) /\ v_sky v + v_air v + v_ground v = 1 /\ v_sky v = (v_sky v + v_air v) * sqrt (v_sky v + v_air v) /\
      (0 < z -> v_sky v + v_air v = 1) /\ (z < 0 -> v_ground v = 1)).
  { intros free s fs draws z Hp Hd H0 Hf Hz Hn.
    destruct (C82_factors free s fs draws Hp) as (v & d & E & P & S1 & S2 & S3 & _ & _ & _ & _ & T & _); [rewrite Hn; destruct fs; apply U; lra|exact Hd|].
    exists v. split; [exact E|]. split; [specialize (T Hf); lra|]. split; [exact S3|].
    assert (Dz : forall k j, (k < length (rays_of fs s))%nat -> (j < n_samples)%nat -> 0 < vz (d k j) * z).
    { intros k j Hk Hj. destruct (nth_error (rays_of fs s) k) as [r|] eqn:Er; [|apply nth_error_None in Er; lia].
      destruct (P k r j Er Hj) as [_ Q]. assert (Dr : direction r = mkV 0 0 z).
      { apply nth_error_In in Er. unfold rays_of, front_rays, back_rays in Er. destruct fs; apply in_map_iff in Er; destruct Er as (p & <- & _); cbn [direction]; rewrite Hn; [reflexivity|vring]. }
      rewrite Dr in Q. unfold vdot in Q. cbn [vx vy vz] in Q. replace (vz (d k j) * z) with (fst (nth j (draws k) (0, 0))) by (rewrite <- Q; ring).
      apply (H0 k). apply nth_In. rewrite (proj1 (Hd k)). exact Hj. }
    assert (Np : 0 < INR (length (points s))). { apply lt_0_INR. destruct (points s); [congruence|cbn; lia]. }
    assert (All : forall (f : nat -> nat), (forall k, (k < length (rays_of fs s))%nat -> f k = n_samples) ->
      sumf (fun k => match nth_error (rays_of fs s) k with Some r => if free r then INR (f k) else 0 | None => 0 end) (seq 0 (length (rays_of fs s))) / (10000 * INR (length (points s))) = 1).
    { intros f Hfk. rewrite (sumf_same _ 10000).
      - rewrite rays_length. field. lra.
      - intros k Hk. destruct (nth_error (rays_of fs s) k) as [r|] eqn:Er; [|apply nth_error_None in Er; lia]. rewrite (Hf r) by (apply nth_error_In with k; exact Er).
        rewrite Hfk by lia. apply n_samples_10000. }
    assert (Full : forall (p : nat -> bool) N k0, (forall j, (k0 <= j < k0 + N)%nat -> p j = true) -> length (filter p (seq k0 N)) = N).
    { clear. intros p N. induction N as [|N IH]; intros k0 H; [reflexivity|]. cbn [seq filter]. rewrite (H k0) by lia. cbn [length]. f_equal. apply IH. intros j Hj. apply H. lia. }
    split; intros Hs.
    - rewrite S1. apply All. intros k Hk. unfold count_up. apply Full. intros j Hj. specialize (Dz k j Hk ltac:(lia)). destruct (Rltb_spec 0 (vz (d k j))) as [A|A]; [reflexivity|]. exfalso. nra.
    - rewrite S2. apply All. intros k Hk. unfold count_down. apply Full. intros j Hj. specialize (Dz k j Hk ltac:(lia)). destruct (Rltb_spec 0 (vz (d k j))) as [A|A]; [|reflexivity]. exfalso. nra. }
  intros free s fs draws Hp Hd H0 Hf. split; intros Hn.
  - destruct (G free s fs draws 1 Hp Hd H0 Hf ltac:(lra)) as ([a b c] & E & S1 & S2 & S3 & _); [rewrite Hn; destruct fs; reflexivity|]. cbn [v_sky v_ground v_air] in *.
    specialize (S3 ltac:(lra)). rewrite S3 in S2. rewrite sqrt_1 in S2. rewrite E. do 3 f_equal; lra.
  - destruct (G free s fs draws (-1) Hp Hd H0 Hf ltac:(lra)) as ([a b c] & E & S1 & S2 & _ & S4); [rewrite Hn; destruct fs; [reflexivity|f_equal; lra]|]. cbn [v_sky v_ground v_air] in *.
    specialize (S4 ltac:(lra)). assert (Z : a + c = 0) by lra. rewrite Z in S2. rewrite E. do 3 f_equal; lra.
Qed.

(** C82: obstacles are looked for along the normal of the surface only: what stands anywhere else makes no difference. *)
Theorem C82_normal_only : forall free free' s front_side draws, points s <> [] -> vlen (normal s) = 1 -> drawn draws ->
  (forall r, In r (rays_of front_side s) -> free r = free' r) ->
  calc_view_factors free s front_side draws = calc_view_factors free' s front_side draws.
Proof.
  intros free free' s fs draws Hp Hn Hd H. unfold calc_view_factors. fold (rays_of fs s).
  assert (G : forall rays i sg, (forall r, In r rays -> free r = free' r) -> view_loop free draws i rays sg = view_loop free' draws i rays sg).
  { induction rays as [|r rays IH]; intros i sg Hr; [reflexivity|]. cbn [view_loop]. destruct (get_perpendicular (direction r)) as [e1| |]; cbn [bind]; [|reflexivity|reflexivity].
    replace (samples_loop free' r e1 (vcross (direction r) e1) (draws i) sg) with (samples_loop free r e1 (vcross (direction r) e1) (draws i) sg).
    - apply IH. intros r' Hr'. apply Hr. right. exact Hr'.
    - specialize (Hr r (or_introl eq_refl)). generalize (draws i). intros us. revert sg. induction us as [|u us IHu]; intros [a b]; [reflexivity|]. cbn [samples_loop]. rewrite Hr. apply IHu. }
  rewrite G by exact H. reflexivity.
Qed.

(** C82, refuted: "a direction that is obstructed shows no sky".  A hole over each point is enough for the surface to see a whole sky, though no
    other direction is open; and a dot over each point hides the sky, though every other direction is open. *)
Definition ex_draws (_ : nat) : list (R * R) := repeat (1 / 2, 1 / 2) n_samples.
Lemma ex_draws_ok : drawn ex_draws /\ forall i u, In u (ex_draws i) -> fst u = 1 / 2.
Proof.
  split.
  - intros i. unfold ex_draws. split; [apply repeat_length|]. apply Forall_forall. intros u Hu. apply repeat_spec in Hu. subst u. unfold random. cbn. lra.
  - intros i u Hu. apply repeat_spec in Hu. subst u. reflexivity.
Qed.
Theorem C82_obstruction_refuted :
  let s := mkSSurf [mkV 0 0 0] (mkV 0 0 1) true true in
  (exists free, (forall r, free r = true -> direction r = mkV 0 0 1) /\ calc_view_factors free s true ex_draws = Ok (Some (mkView 1 0 0))) /\
  (exists free, (forall r, free r = false -> direction r = mkV 0 0 1) /\ calc_view_factors free s true ex_draws = Ok (Some (mkView 0 0 0))).
Proof.
  intros s. destruct ex_draws_ok as [D1 D2].
  assert (Eq : forall (r : Ray), {direction r = mkV 0 0 1} + {direction r <> mkV 0 0 1}).
  { intros [o [x y z]]. cbn [direction]. destruct (Req_EM_T x 0) as [->|]; [|right; congruence]. destruct (Req_EM_T y 0) as [->|]; [|right; congruence].
    destruct (Req_EM_T z 1) as [->|]; [left; reflexivity|right; congruence]. }
  assert (U : vlen (normal s) = 1). { cbn. unfold vlen, vlen2. cbn [vx vy vz]. replace (0 * 0 + 0 * 0 + 1 * 1) with 1 by ring. apply sqrt_1. }
  split.
  - exists (fun r => if Eq r then true else false). split; [intros r; destruct (Eq r); [auto|discriminate]|].
    refine (proj1 (C82_horizontal _ s true ex_draws _ D1 _ _) eq_refl); [discriminate| |].
    + intros i u Hu. rewrite (D2 i u Hu). lra.
    + intros r [<-|[]]. cbn [direction normal s]. destruct (Eq _) as [|N]; [reflexivity|exfalso; apply N; reflexivity].
  - exists (fun r => if Eq r then false else true). split; [intros r; destruct (Eq r); [auto|discriminate]|].
    destruct (C82_factors (fun r => if Eq r then false else true) s true ex_draws ltac:(discriminate) U D1) as (v & d & E & _ & _ & _ & _ & _ & _ & _ & _ & _ & Z).
    rewrite E, Z; [reflexivity|]. intros r [<-|[]]. cbn [direction normal s]. destruct (Eq _) as [|N]; [reflexivity|exfalso; apply N; reflexivity].
Qed.

(** C82, refuted: "view factors are numbers".  Those of a surface without points are not, and no error is reported. *)
Theorem C82_no_points_refuted : forall free n draws front_side, calc_view_factors free (mkSSurf [] n true true) front_side draws = Ok None.
Proof. intros free n draws [|]; reflexivity. Qed.

Example C82_example : drawn ex_draws /\ points (mkSSurf [mkV 0 0 3; mkV 1 0 3] (mkV 0 0 1) true true) <> [] /\
  calc_view_factors (fun r => Rltb 2 (vz (origin r))) (mkSSurf [mkV 0 0 3; mkV 1 0 3] (mkV 0 0 1) true true) true ex_draws = Ok (Some (mkView 1 0 0)) /\
  calc_view_factors (fun r => Rltb 2 (vz (origin r))) (mkSSurf [mkV 0 0 3; mkV 1 0 3] (mkV 0 0 1) true true) false ex_draws = Ok (Some (mkView 0 1 0)).
Proof.
  destruct ex_draws_ok as [D1 D2]. split; [exact D1|]. split; [discriminate|]. split.
  - refine (proj1 (C82_horizontal _ (mkSSurf [mkV 0 0 3; mkV 1 0 3] (mkV 0 0 1) true true) true ex_draws _ D1 _ _) eq_refl); [discriminate|intros i u Hu; rewrite (D2 i u Hu); lra|].
    intros r [<-|[<-|[]]]; cbn; apply Rltb_true; unfold DELTA; lra.
  - refine (proj2 (C82_horizontal _ (mkSSurf [mkV 0 0 3; mkV 1 0 3] (mkV 0 0 1) true true) false ex_draws _ D1 _ _) eq_refl); [discriminate|intros i u Hu; rewrite (D2 i u Hu); lra|].
    intros r [<-|[<-|[]]]; cbn; apply Rltb_true; unfold DELTA; lra.
Qed.

(** ** C83: infrared radiation *)

(** One side of a surface: what it faces, the node of the wall next to it, where its irradiance is kept, and its view factors *)
Record side := mkSide { d_bound : boundary; d_node : field; d_field : field; d_view : option view }.
Fixpoint sides_from (keep : lsurface -> bool) (fronts backs : list view) (i : nat) (l : list lsurface) : list side :=
  match l with
  | [] => []
  | s :: l => (if keep s then [mkSide (l_front s) (l_first_node s) (l_front_ir s) (nth_error fronts i); mkSide (l_back s) (l_last_node s) (l_back_ir s) (nth_error backs i)] else [])
              ++ sides_from keep fronts backs (S i) l
  end.
(** All the sides of a building: those of the surfaces, then those of the fenestrations that are not holes *)
Definition sides (o : optical) (surfaces fenestrations : list lsurface) : list side :=
  sides_from (fun _ => true) (front_surfaces_vf o) (back_surfaces_vf o) 0 surfaces ++
  sides_from (fun s => negb (l_opening s)) (front_fen_vf o) (back_fen_vf o) 0 fenestrations.

(** The place that the radiation on a side is written to: none for a side in the ground or an adiabatic one *)
Definition written (sd : side) : list nat :=
  match d_bound sd, d_field sd with Ground, _ | Adiabatic, _ => [] | _, Some k => [k] | _, None => [] end.
(** Fields have been allocated, each side has its own, temperatures are kept elsewhere, and outdoor sides have view factors. *)
Definition ready (l : list side) (st : list R) : Prop :=
  NoDup (flat_map written l) /\
  Forall (fun sd => d_bound sd <> Ground -> d_bound sd <> Adiabatic -> exists k, d_field sd = Some k /\ (k < length st)%nat) l /\
  Forall (fun sd => forall k, d_node sd = Some k -> (k < length st)%nat /\ ~ In k (flat_map written l)) l /\
  Forall (fun sd => d_bound sd = Outdoor -> d_view sd <> None) l.

(** The radiation of a black body *)
Definition black_body (celsius : R) : R := 5670374419 / 10 ^ 17 * (celsius + 27315 / 100) ^ 4.
(** What a side is expected to receive: in a room, what a body as hot as itself sends; next to a given temperature, what a body as hot as
    that sends; outdoors, what ground and air send, as hot as the air, and what the sky sends *)
Definition received (w : lweather) (sd : side) (st : list R) : R :=
  match d_bound sd with
  | Space _ => black_body (match d_node sd with Some k => nth k st 0 | None => 22 end)
  | AmbientTemperature t => black_body t
  | Outdoor => match d_view sd with
               | Some v => (v_ground v + v_air v) * black_body (w_dry_bulb w) + v_sky v * (match w_horizontal_ir w with Some h => h | None => derive_horizontal_ir w end)
               | None => 0 end
  | _ => 0
  end.

Definition run_side (w : lweather) (sd : side) (st : list R) : res (list R) :=
  update_ir_side w (d_bound sd) (d_node sd) (d_field sd) (match d_view sd with Some v => [v] | None => [] end) 0 st.
Fixpoint run_sides (w : lweather) (l : list side) (st : list R) : res (list R) :=
  match l with [] => Ok st | sd :: l => do st <- run_side w sd st; run_sides w l st end.
Lemma run_sides_app w a b st : run_sides w (a ++ b) st = do st <- run_sides w a st; run_sides w b st.
Proof. revert st. induction a as [|sd a IH]; intros st; [reflexivity|]. cbn [app run_sides]. destruct (run_side w sd st); cbn [bind]; [apply IH|reflexivity|reflexivity]. Qed.
Lemma side_eq w b nd fld views i st : update_ir_side w b nd fld views i st = run_side w (mkSide b nd fld (nth_error views i)) st.
Proof. unfold run_side, update_ir_side. cbn [d_bound d_node d_field d_view]. destruct b; try reflexivity. destruct (nth_error views i); reflexivity. Qed.
Lemma ir_is_sides w o surfaces fenestrations st : update_ir_radiation w o surfaces fenestrations st = run_sides w (sides o surfaces fenestrations) st.
Proof.
  unfold update_ir_radiation, sides. rewrite run_sides_app.
  assert (A : forall l i st, ir_surfaces w o i l st = run_sides w (sides_from (fun _ => true) (front_surfaces_vf o) (back_surfaces_vf o) i l) st).
  { induction l as [|s l IH]; intros i st'; [reflexivity|]. cbn [ir_surfaces sides_from app run_sides]. unfold update_ir_surface. rewrite side_eq.
    destruct (run_side w _ st') as [st1| |]; cbn [bind]; [|reflexivity|reflexivity]. rewrite side_eq. destruct (run_side w _ st1) as [st2| |]; cbn [bind]; [apply IH|reflexivity|reflexivity]. }
  assert (B : forall l i st, ir_fenestrations w o i l st = run_sides w (sides_from (fun s => negb (l_opening s)) (front_fen_vf o) (back_fen_vf o) i l) st).
  { induction l as [|s l IH]; intros i st'; [reflexivity|]. cbn [ir_fenestrations sides_from]. destruct (l_opening s); cbn [negb app run_sides bind]; [apply IH|]. unfold update_ir_surface. rewrite side_eq.
    destruct (run_side w _ st') as [st1| |]; cbn [bind]; [|reflexivity|reflexivity]. rewrite side_eq. destruct (run_side w _ st1) as [st2| |]; cbn [bind]; [apply IH|reflexivity|reflexivity]. }
  rewrite A. destruct (run_sides w _ st); cbn [bind]; [apply B|reflexivity|reflexivity].
Qed.
Lemma ir_black_body t : ir t 1 = black_body t.
Proof. unfold ir, black_body, SIGMA. ring. Qed.
Lemma set_state_ok k (st : list R) v : (k < length st)%nat -> set_state (Some k) st v = Ok (upd st k v).
Proof. intros H. unfold set_state. apply Nat.ltb_lt in H. rewrite H. reflexivity. Qed.
Lemma get_state_ok fld (st : list R) : (forall k, fld = Some k -> (k < length st)%nat) -> get_state fld st = Ok (match fld with Some k => Some (nth k st 0) | None => None end).
Proof.
  intros H. unfold get_state. destruct fld as [k|]; [|reflexivity]. specialize (H k eq_refl). rewrite (nth_error_nth' st 0 H). reflexivity.
Qed.
Lemma run_side_ok w sd st : (d_bound sd <> Ground -> d_bound sd <> Adiabatic -> exists k, d_field sd = Some k /\ (k < length st)%nat) ->
  (forall k, d_node sd = Some k -> (k < length st)%nat) -> (d_bound sd = Outdoor -> d_view sd <> None) ->
  run_side w sd st = Ok (match written sd with k :: _ => upd st k (received w sd st) | [] => st end).
Proof.
  destruct sd as [b nd fld v]. unfold run_side, update_ir_side, written, received. cbn [d_bound d_node d_field d_view]. intros F N V. destruct b.
  - reflexivity.
  - destruct F as (k & -> & Hk); [discriminate|discriminate|]. destruct v as [v|]; [|exfalso; apply V; reflexivity]. cbn [nth_error]. rewrite set_state_ok by exact Hk. rewrite ir_black_body. reflexivity.
  - destruct F as (k & -> & Hk); [discriminate|discriminate|]. rewrite get_state_ok by exact N. cbn [bind]. rewrite set_state_ok by exact Hk. rewrite ir_black_body. destruct nd; reflexivity.
  - destruct F as (k & -> & Hk); [discriminate|discriminate|]. rewrite set_state_ok by exact Hk. rewrite ir_black_body. reflexivity.
  - reflexivity.
Qed.
Lemma written_one sd : written sd = [] \/ exists k, written sd = [k].
Proof. unfold written. destruct (d_bound sd), (d_field sd); eauto. Qed.

(** C83: every side receives what it is expected to, and nothing else in the state changes. *)
Theorem C83_infrared : forall w o surfaces fenestrations st, ready (sides o surfaces fenestrations) st ->
  exists st', update_ir_radiation w o surfaces fenestrations st = Ok st' /\ length st' = length st /\
    (forall k, ~ In k (flat_map written (sides o surfaces fenestrations)) -> nth k st' 0 = nth k st 0) /\
    Forall (fun sd => forall k, In k (written sd) -> nth k st' 0 = received w sd st) (sides o surfaces fenestrations).
Proof.
  intros w o surfaces fenestrations st. rewrite ir_is_sides. generalize (sides o surfaces fenestrations) as l. intros l (N & F & T & V).
  assert (G : forall (W : list nat) l st0, NoDup (flat_map written l) -> incl (flat_map written l) W ->
      Forall (fun sd => d_bound sd <> Ground -> d_bound sd <> Adiabatic -> exists k, d_field sd = Some k /\ (k < length st0)%nat) l ->
      Forall (fun sd => forall k, d_node sd = Some k -> (k < length st0)%nat /\ ~ In k W) l -> Forall (fun sd => d_bound sd = Outdoor -> d_view sd <> None) l ->
      exists st', run_sides w l st0 = Ok st' /\ length st' = length st0 /\ (forall k, ~ In k (flat_map written l) -> nth k st' 0 = nth k st0 0) /\
        Forall (fun sd => forall k, In k (written sd) -> nth k st' 0 = received w sd st0) l).
  { clear. intros W. induction l as [|sd l IH]; intros st0 N I F T V.
    - exists st0. cbn. auto.
    - inversion_clear F as [|? ? F1 F2]. inversion_clear T as [|? ? T1 T2]. inversion_clear V as [|? ? V1 V2]. cbn [run_sides flat_map] in *.
      rewrite run_side_ok; [|exact F1|intros k Hk; apply (T1 k Hk)|exact V1]. cbn [bind].
      set (st1 := match written sd with k :: _ => upd st0 k (received w sd st0) | [] => st0 end).
      assert (L1 : length st1 = length st0) by (unfold st1; destruct (written sd); [reflexivity|apply upd_length]).
      assert (O1 : forall k, ~ In k (written sd) -> nth k st1 0 = nth k st0 0).
      { intros k Hk. unfold st1. destruct (written_one sd) as [E|(k' & E)]; rewrite E in *; [reflexivity|]. apply nth_upd_other. intros ->. apply Hk. left. reflexivity. }
      assert (ND : NoDup (flat_map written l) /\ forall k, In k (written sd) -> ~ In k (flat_map written l)).
      { clear - N. destruct (written_one sd) as [E|(k' & E)]; rewrite E in *; cbn [app] in N; [split; [exact N|intros k []]|]. inversion_clear N as [|? ? N1 N2]. split; [exact N2|]. intros k [<-|[]]. exact N1. }
      destruct ND as [N2 N1].
      destruct (IH st1) as (st' & E & L & O & P).
      + exact N2.
      + intros k Hk. apply I. apply in_or_app. right. exact Hk.
      + rewrite L1. exact F2.
      + rewrite L1. exact T2.
      + exact V2.
      + exists st'. split; [exact E|]. split; [lia|]. split.
        * intros k Hk. rewrite O by (intros H; apply Hk, in_or_app; right; exact H). apply O1. intros H. apply Hk, in_or_app. left. exact H.
        * constructor.
          -- intros k Hk. rewrite O by (apply N1; exact Hk). unfold st1. destruct (written_one sd) as [E'|(k' & E')]; rewrite E' in *; [destruct Hk|]. destruct Hk as [<-|[]].
             apply nth_upd_same. unfold written in E'. destruct (d_bound sd) eqn:Eb; try discriminate; destruct F1 as (k1 & Ek & Hk); try congruence; rewrite Ek in E'; injection E' as <-; exact Hk.
          -- apply Forall_forall. intros sd' Hsd' k Hk. pose proof (proj1 (Forall_forall _ _) P sd' Hsd' k Hk) as Q. rewrite Q.
             unfold received. destruct (d_bound sd') eqn:Eb; try reflexivity. destruct (d_node sd') as [nk|] eqn:En; [|reflexivity]. f_equal. apply O1. intros H.
             pose proof (proj1 (Forall_forall _ _) T2 sd' Hsd' nk En) as [_ Q2]. apply Q2, I, in_or_app. left. exact H. }
  destruct (G (flat_map written l) l st N (incl_refl _) F T V) as (st' & E & L & O & P). exists st'. auto.
Qed.

(** C83: the sides that face a room exchange no radiation with it: the temperature that the heat balance reads from the irradiance is the
    temperature of the surface itself. *)
Theorem C83_room : forall t, -27315 / 100 <= t -> sky_temperature (black_body t) = t.
Proof.
  intros t Ht. unfold sky_temperature, black_body. set (x := t + 27315 / 100). assert (Hx : 0 <= x) by (unfold x; lra).
  replace (5670374419 / 10 ^ 17 * x ^ 4 / SIGMA) with (x ^ 4) by (unfold SIGMA; field; lra). unfold powf. destruct (Rltb_spec 0 (x ^ 4)) as [P|P].
  - assert (Hp : 0 < x). { destruct Hx as [Hx|Hx]; [exact Hx|]. rewrite <- Hx in P. cbn in P. lra. }
    rewrite <- (Rpower_pow 4 x Hp). rewrite Rpower_mult. replace (INR 4 * (1 / 4)) with 1 by (cbn [INR]; lra). rewrite Rpower_1 by exact Hp. unfold x. ring.
  - assert (Z : x = 0). { destruct Hx as [Hx|Hx]; [|symmetry; exact Hx]. exfalso. apply P. apply pow_lt. exact Hx. } unfold x in Z. lra.
Qed.

(** C83: outdoors, the radiation lies between that of the air and that of the sky. *)
Theorem C83_outdoor : forall w v nd fld st, 0 <= v_sky v -> 0 <= v_ground v -> 0 <= v_air v -> v_sky v + v_ground v + v_air v = 1 ->
  let air := black_body (w_dry_bulb w) in
  let sky := match w_horizontal_ir w with Some h => h | None => derive_horizontal_ir w end in
  let r := received w (mkSide Outdoor nd fld (Some v)) st in
  Rmin air sky <= r <= Rmax air sky /\ (v_sky v = 1 -> r = sky) /\ (v_sky v = 0 -> r = air).
Proof.
  intros w v nd fld st S0 G0 A0 T air sky r.
  assert (E : r = (1 - v_sky v) * air + v_sky v * sky). { unfold r, received. cbn [d_bound d_view]. fold air. fold sky. replace (v_ground v + v_air v) with (1 - v_sky v) by lra. reflexivity. }
  rewrite E. split; [|split].
  - unfold Rmin, Rmax. destruct (Rle_dec air sky); split; nra.
  - intros ->. ring.
  - intros ->. ring.
Qed.

(** C83: where the file gives no infrared radiation, the sky is a body at the temperature of the air whose emissivity depends on the dew
    point and on the clouds only: 0.787 with a clear sky and the dew point at 273 K, more with a higher dew point. *)
Theorem C83_derived : exists emissivity : R -> R -> R,
  (forall w, derive_horizontal_ir w = emissivity (w_dew_point w) (w_cover w) * black_body (w_dry_bulb w)) /\
  emissivity (273 - 27315 / 100) 0 = 787 / 1000 /\
  (forall dp dp', -27315 / 100 < dp < dp' -> emissivity dp' 0 - emissivity dp 0 = 764 / 1000 * ln ((dp' + 27315 / 100) / (dp + 27315 / 100))) /\
  (forall dp n, emissivity dp n = emissivity dp 0 * (1 + 224 / 10000 * n - 35 / 10000 * n ^ 2 + 28 / 100000 * n ^ 3)).
Proof.
  exists (fun dp n => (787 / 1000 + 764 / 1000 * ln ((dp + 27315 / 100) / 273)) * (1 + 224 / 10000 * n - 35 / 10000 * n ^ 2 + 28 / 100000 * n ^ 3)).
  split; [|split; [|split]].
  - intros w. unfold derive_horizontal_ir, black_body, SIGMA. field.
  - replace ((273 - 27315 / 100 + 27315 / 100) / 273) with 1 by lra. rewrite ln_1. cbn [pow]. lra.
  - intros dp dp' H. assert (D : forall a b, 0 < a -> 0 < b -> ln (a / b) = ln a - ln b) by (intros a b Ha Hb; unfold Rdiv; rewrite ln_mult, ln_Rinv by (try apply Rinv_0_lt_compat; assumption); ring).
    rewrite !D by lra. cbn [pow]. lra.
  - intros dp n. cbn [pow]. lra.
Qed.

(** C83, refuted: "clouds raise the radiation of the sky as in the documented formula".  The sky cover is kept as a fraction from zero to one
    (current_weather.rs:56-57, and weather_line.rs:179 which divides the tenths of the file by ten), but the formula takes tenths: an
    overcast sky sends 15.4% more than a clear one, and the program never finds 2% more. *)
Theorem C83_cover_refuted : forall db dp hir dir dif, -27315 / 100 <= db -> 0 <= derive_horizontal_ir (mkLW db dp 0 hir dir dif) ->
  let clear := derive_horizontal_ir (mkLW db dp 0 hir dir dif) in
  (forall cover, 0 <= cover <= 1 -> derive_horizontal_ir (mkLW db dp cover hir dir dif) <= 10192 / 10000 * clear) /\
  derive_horizontal_ir (mkLW db dp 10 hir dir dif) = 1154 / 1000 * clear.
Proof.
  intros db dp hir dir dif Hd Hc clear.
  assert (E : forall c, derive_horizontal_ir (mkLW db dp c hir dir dif) = (1 + 224 / 10000 * c - 35 / 10000 * c ^ 2 + 28 / 100000 * c ^ 3) * clear).
  { intros c. unfold clear, derive_horizontal_ir. cbn [w_cover w_dew_point w_dry_bulb]. ring. }
  split.
  - intros c Hc'. rewrite E. apply Rmult_le_compat_r; [exact Hc|]. cbn [pow]. nra.
  - rewrite E. cbn [pow]. lra.
Qed.

(** A wall between outdoors and a room, a floor on the ground, a window and a hole *)
Definition ex_surfaces : list lsurface :=
  [mkLS Outdoor (Space 0) false (Some 0%nat) (Some 1%nat) (Some 2%nat) (Some 3%nat) (Some 8%nat) (Some 9%nat);
   mkLS Ground (Space 0) false (Some 4%nat) (Some 5%nat) (Some 6%nat) (Some 7%nat) (Some 10%nat) None].
Definition ex_fenestrations : list lsurface :=
  [mkLS Outdoor Outdoor true None None None None None None;
   mkLS (AmbientTemperature 10) (Space 0) false (Some 11%nat) (Some 12%nat) (Some 13%nat) (Some 14%nat) None (Some 15%nat)].
Definition ex_view := mkView (1 / 4) (1 / 2) (1 / 4).
Definition ex_dc := mkMat 2 146 (repeat (1 / 100) 292).
Definition ex_optical := mkOptical [ex_view; ex_view] [ex_view; ex_view] [ex_view; ex_view] [ex_view; ex_view] ex_dc ex_dc ex_dc ex_dc.
Definition ex_state : list R := [1; 2; 3; 4; 5; 6; 7; 8; 18; 19; 17; 1; 2; 3; 4; 16].
Example C83_example : ready (sides ex_optical ex_surfaces ex_fenestrations) ex_state /\
  exists st', update_ir_radiation (mkLW 12 5 0 (Some 300) 0 0) ex_optical ex_surfaces ex_fenestrations ex_state = Ok st' /\
    nth 2 st' 0 = 3 / 4 * black_body 12 + 75 /\ nth 3 st' 0 = black_body 19 /\ nth 6 st' 0 = 7 /\ nth 7 st' 0 = black_body 22 /\ nth 13 st' 0 = black_body 10 /\ nth 0 st' 0 = 1.
Proof.
  assert (Rd : ready (sides ex_optical ex_surfaces ex_fenestrations) ex_state).
  { unfold ready, sides. cbn. repeat split.
    - repeat constructor; cbn; intuition discriminate.
    - repeat (apply Forall_cons; [intros _ _; eexists; split; [reflexivity|lia]|]). constructor.
    - repeat (apply Forall_cons; [cbn; intros k H; first [discriminate H|injection H as <-; split; [lia|intuition discriminate]]|]). constructor.
    - repeat (apply Forall_cons; [cbn; intros; discriminate|]). constructor. }
  split; [exact Rd|]. destruct (C83_infrared (mkLW 12 5 0 (Some 300) 0 0) _ _ _ _ Rd) as (st' & E & L & O & P). exists st'. split; [exact E|].
  unfold sides in P. cbn -[nth received] in P.
  repeat match goal with H : Forall _ (_ :: _) |- _ => inversion_clear H end. clear Rd E.
  assert (O6 := O 6%nat ltac:(cbn; intuition discriminate)). assert (O0 := O 0%nat ltac:(cbn; intuition discriminate)).
  cbn -[black_body] in *.
  repeat match goal with H : forall k, _ \/ False -> _ |- _ => specialize (H _ (or_introl eq_refl)) end. repeat split; try assumption; lra.
Qed.

(** ** C84: the sun *)

(** One side of a surface or a window: what it faces, where its irradiance is kept, whether it is a window and the irradiance of this moment *)
Record sun_side := mkSun { g_bound : boundary; g_field : field; g_window : bool; g_now : R }.
(** The irradiance: coefficients times radiances of the patches of the sky *)
Definition incident (dc : mat R) (vec : list R) (i : nat) : R := sumf (fun b => nth (ncols dc * i + b) (data dc) 0 * nth b vec 0) (seq 0 (ncols dc)).
Fixpoint sun_sides_from (window front : bool) (dc : mat R) (vec : list R) (i : nat) (l : list lsurface) : list sun_side :=
  match l with
  | [] => []
  | s :: l => (if window && l_opening s then [] else [mkSun (if front then l_front s else l_back s) (if front then l_front_solar s else l_back_solar s) window (incident dc vec i)])
              ++ sun_sides_from window front dc vec (S i) l
  end.
Definition sun_sides (o : optical) (vec : list R) (surfaces fenestrations : list lsurface) : list sun_side :=
  sun_sides_from false true (front_surfaces_dc o) vec 0 surfaces ++ sun_sides_from false false (back_surfaces_dc o) vec 0 surfaces ++
  sun_sides_from true true (front_fen_dc o) vec 0 fenestrations ++ sun_sides_from true false (back_fen_dc o) vec 0 fenestrations.
Definition places (l : list sun_side) : list nat := flat_map (fun g => match g_field g with Some k => [k] | None => [] end) l.
(** Each side has its own place in the state. *)
Definition allocated (l : list sun_side) (st : list R) : Prop :=
  NoDup (places l) /\ Forall (fun g => exists k, g_field g = Some k /\ (k < length st)%nat) l.
(** The coefficients are those of these surfaces, for this sky. *)
Definition fits (dc : mat R) (vec : list R) (l : list lsurface) : Prop :=
  (l = [] /\ dc = empty_mat) \/ (l <> [] /\ wf dc /\ nrows dc = length l /\ ncols dc = length vec /\ (0 < length vec)%nat).
Definition optical_fits (o : optical) (vec : list R) (surfaces fenestrations : list lsurface) : Prop :=
  fits (front_surfaces_dc o) vec surfaces /\ fits (back_surfaces_dc o) vec surfaces /\ fits (front_fen_dc o) vec fenestrations /\ fits (back_fen_dc o) vec fenestrations.

(** What a side shows after a step in which it showed [old]: the mean of the present irradiance and of [old], or of zero if neither the outdoors
    nor a room is before it; walls never count less than nothing. *)
Definition shown (g : sun_side) (old : R) : R :=
  ((if g_window g then g_now g else Rmax 0 (g_now g)) + (match g_bound g with Outdoor | Space _ => old | _ => 0 end)) / 2.

Definition run_sun (g : sun_side) (st : list R) : res (list R) :=
  match g_field g with
  | None => Err
  | Some k => if (k <? length st)%nat then Ok (upd st k (shown g (nth k st 0))) else Panic
  end.
Fixpoint run_suns (l : list sun_side) (st : list R) : res (list R) := match l with [] => Ok st | g :: l => do st <- run_sun g st; run_suns l st end.
Lemma run_suns_app a b st : run_suns (a ++ b) st = do st <- run_suns a st; run_suns b st.
Proof. revert st. induction a as [|sd a IH]; intros st; [reflexivity|]. cbn [app run_suns]. destruct (run_sun sd st); cbn [bind]; [apply IH|reflexivity|reflexivity]. Qed.

Lemma upd_upd {A} (l : list A) k a b : upd (upd l k a) k b = upd l k b.
Proof. revert k. induction l as [|x l IH]; intros [|k]; cbn; try reflexivity. f_equal. apply IH. Qed.
Lemma sun_side_ok window b k irr i st v : (k < length st)%nat -> get irr i 0 = Ok v ->
  update_solar_side (negb window) b (Some k) irr i st = Ok (upd st k (shown (mkSun b (Some k) window v) (nth k st 0))).
Proof.
  intros Hk Hv. unfold update_solar_side.
  assert (Cl : (if negb window && Rltb v 0 then 0 else v) = if window then v else Rmax 0 v).
  { destruct window; cbn [negb andb]; [reflexivity|]. unfold Rmax. destruct (Rltb_spec v 0), (Rle_dec 0 v); try reflexivity; lra. }
  unfold shown. cbn [g_window g_now g_bound]. destruct (boundary_receives_sun b) eqn:Eb.
  - cbn [bind]. rewrite Hv. cbn [bind]. cbv zeta. rewrite Cl. rewrite get_state_ok by (intros k' E; injection E as <-; exact Hk). cbn [bind]. rewrite set_state_ok by exact Hk.
    destruct b; try discriminate Eb; reflexivity.
  - rewrite set_state_ok by exact Hk. cbn [bind]. rewrite Hv. cbn [bind]. cbv zeta. rewrite Cl. rewrite get_state_ok by (intros k' E; injection E as <-; rewrite upd_length; exact Hk). cbn [bind].
    rewrite set_state_ok by (rewrite upd_length; exact Hk). rewrite upd_upd. rewrite nth_upd_same by exact Hk. destruct b; try discriminate Eb; reflexivity.
Qed.
Lemma sun_loop_ok window front dc vec irr : (forall i, (i < nrows dc)%nat -> get irr i 0 = Ok (incident dc vec i)) ->
  forall l i st, (i + length l <= nrows dc)%nat -> Forall (fun g => exists k, g_field g = Some k /\ (k < length st)%nat) (sun_sides_from window front dc vec i l) ->
  solar_loop (negb window) window (if front then l_front else l_back) (if front then l_front_solar else l_back_solar) irr i l st = run_suns (sun_sides_from window front dc vec i l) st.
Proof.
  intros Hirr. induction l as [|s l IH]; intros i st Hi F; [reflexivity|]. cbn [solar_loop sun_sides_from length] in *. destruct (window && l_opening s) eqn:Eo.
  - cbn [app bind] in *. apply IH; [lia|exact F].
  - cbn [app] in *. inversion_clear F as [|? ? (k & Ek & Hk) F2]. cbn [g_field] in Ek. cbn [run_suns]. unfold run_sun at 1. cbn [g_field].
    replace ((if front then l_front_solar else l_back_solar) s) with (if front then l_front_solar s else l_back_solar s) by (destruct front; reflexivity).
    replace ((if front then l_front else l_back) s) with (if front then l_front s else l_back s) by (destruct front; reflexivity).
    rewrite Ek. rewrite (sun_side_ok window _ k irr i st (incident dc vec i) Hk) by (apply Hirr; lia).
    rewrite (proj2 (Nat.ltb_lt _ _) Hk). cbn [bind]. apply IH; [lia|]. rewrite upd_length. exact F2.
Qed.
Lemma sun_stage_ok window front dc vec l st : fits dc vec l ->
  Forall (fun g => exists k, g_field g = Some k /\ (k < length st)%nat) (sun_sides_from window front dc vec 0 l) ->
  solar_side (negb window) window (if front then l_front else l_back) (if front then l_front_solar else l_back_solar) dc vec l st = run_suns (sun_sides_from window front dc vec 0 l) st.
Proof.
  intros [[-> ->]|(Hl & W & Nr & Nc & Nv)] F; [reflexivity|]. unfold solar_side, is_empty. replace (ncols dc =? 0)%nat with false by (symmetry; apply Nat.eqb_neq; lia). rewrite andb_false_r.
  destruct (product_ok dc (mkMat (length vec) 1 vec) W) as (m & E & M1 & M2 & M3 & M4); [unfold wf; cbn; lia|exact Nc|lia|cbn; lia|].
  rewrite E. cbn [bind]. apply sun_loop_ok; [|cbn; lia|exact F]. intros i Hi. unfold get. cbn [ncols] in M2, M4. rewrite M1, M2, (proj2 (Nat.ltb_lt _ _) Hi). cbn [Nat.ltb Nat.leb andb].
  unfold read, index. rewrite M2. unfold wf in M3. rewrite M1, M2 in M3. rewrite (nth_error_nth' (data m) 0) by lia. f_equal. 
  rewrite (M4 i 0%nat Hi Nat.lt_0_1). unfold incident. cbn [data]. apply sumf_ext. intros b _. rewrite Nat.mul_1_l, Nat.add_0_r. reflexivity.
Qed.
Lemma run_suns_ok l : forall st, allocated l st -> exists st', run_suns l st = Ok st' /\ length st' = length st /\
  (forall k, ~ In k (places l) -> nth k st' 0 = nth k st 0) /\ Forall (fun g => forall k, g_field g = Some k -> nth k st' 0 = shown g (nth k st 0)) l.
Proof.
  induction l as [|g l IH]; intros st [N F]; [exists st; cbn; auto|]. inversion_clear F as [|? ? (k & Ek & Hk) F2].
  cbn [places flat_map] in N. rewrite Ek in N. cbn [app] in N. inversion_clear N as [|? ? N1 N2]. fold (places l) in N1, N2.
  cbn [run_suns]. unfold run_sun. rewrite Ek, (proj2 (Nat.ltb_lt _ _) Hk). cbn [bind].
  destruct (IH (upd st k (shown g (nth k st 0)))) as (st' & E & L & O & P). { split; [exact N2|]. rewrite upd_length. exact F2. }
  rewrite upd_length in L. exists st'. split; [exact E|]. split; [exact L|]. split.
  - intros k' Hk'. cbn [places flat_map] in Hk'. rewrite Ek in Hk'. fold (places l) in Hk'. rewrite O by (intros H; apply Hk'; right; exact H). apply nth_upd_other. intros ->. apply Hk'. left. reflexivity.
  - constructor.
    + intros k' Ek'. rewrite Ek in Ek'. injection Ek' as <-. rewrite O by exact N1. apply nth_upd_same. exact Hk.
    + apply Forall_forall. intros g' Hg' k' Ek'. rewrite (proj1 (Forall_forall _ _) P g' Hg' k' Ek'). f_equal. apply nth_upd_other. intros ->. apply N1. apply in_flat_map. exists g'. split; [exact Hg'|]. rewrite Ek'. left. reflexivity.
Qed.

(** C84: by day, every side shows the mean of the present irradiance and of what it showed before, and nothing else in the state changes. *)
Theorem C84_day : forall mf s date w o surfaces fenestrations vec st, 1 / 10 ^ 4 <= w_direct w + w_diffuse w ->
  gen_sky_vec mf s date (w_dew_point w) (w_diffuse w) (w_direct w) UnitsSolar (2 / 10) true true = Ok vec ->
  optical_fits o vec surfaces fenestrations -> allocated (sun_sides o vec surfaces fenestrations) st ->
  exists st', update_solar_radiation mf s date w o surfaces fenestrations st = Ok st' /\ length st' = length st /\
    (forall k, ~ In k (places (sun_sides o vec surfaces fenestrations)) -> nth k st' 0 = nth k st 0) /\
    Forall (fun g => forall k, g_field g = Some k -> nth k st' 0 = shown g (nth k st 0)) (sun_sides o vec surfaces fenestrations).
Proof.
  intros mf s date w o surfaces fenestrations vec st Day Ev (F1 & F2 & F3 & F4) Al.
  destruct (run_suns_ok _ st Al) as (st' & E & L & O & P). exists st'. split; [|auto].
  unfold update_solar_radiation. rewrite (proj2 (Rleb_true _ _) Day). cbn [negb]. rewrite Ev. cbn [bind]. rewrite <- E. unfold sun_sides. destruct Al as [_ Al]. unfold sun_sides in Al.
  apply Forall_app in Al. destruct Al as [A1 Al]. apply Forall_app in Al. destruct Al as [A2 Al]. apply Forall_app in Al. destruct Al as [A3 A4].
  assert (Len : forall l st0 st1, run_suns l st0 = Ok st1 -> length st1 = length st0).
  { clear. induction l as [|g l IH]; intros st0 st1; cbn [run_suns]; [intros E; injection E as <-; reflexivity|]. unfold run_sun. destruct (g_field g) as [k|]; [|discriminate].
    destruct (k <? length st0)%nat; cbn [bind]; [|discriminate]. intros E. apply IH in E. rewrite upd_length in E. exact E. }
  rewrite run_suns_app.
  rewrite (sun_stage_ok false true _ vec surfaces st F1 A1 : solar_side true false l_front l_front_solar _ _ _ _ = _).
  destruct (run_suns (sun_sides_from false true _ _ _ _) st) as [st1| |] eqn:R1; cbn [bind]; [|reflexivity|reflexivity]. apply Len in R1. rewrite run_suns_app.
  rewrite (sun_stage_ok false false _ vec surfaces st1 F2 ltac:(rewrite R1; exact A2) : solar_side true false l_back l_back_solar _ _ _ _ = _).
  destruct (run_suns (sun_sides_from false false _ _ _ _) st1) as [st2| |] eqn:R2; cbn [bind]; [|reflexivity|reflexivity]. apply Len in R2. rewrite run_suns_app.
  rewrite (sun_stage_ok true true _ vec fenestrations st2 F3 ltac:(rewrite R2, R1; exact A3) : solar_side false true l_front l_front_solar _ _ _ _ = _).
  destruct (run_suns (sun_sides_from true true _ _ _ _) st2) as [st3| |] eqn:R3; cbn [bind]; [|reflexivity|reflexivity]. apply Len in R3.
  exact (sun_stage_ok true false _ vec fenestrations st3 F4 ltac:(rewrite R3, R2, R1; exact A4)).
Qed.

(** C84: at night every side shows zero at once. *)
Theorem C84_night : forall mf s date w o surfaces fenestrations vec st, w_direct w + w_diffuse w < 1 / 10 ^ 4 ->
  Forall (fun g => exists k, g_field g = Some k /\ (k < length st)%nat) (sun_sides o vec surfaces fenestrations) ->
  exists st', update_solar_radiation mf s date w o surfaces fenestrations st = Ok st' /\ length st' = length st /\
    (forall k, ~ In k (places (sun_sides o vec surfaces fenestrations)) -> nth k st' 0 = nth k st 0) /\
    Forall (fun g => forall k, g_field g = Some k -> nth k st' 0 = 0) (sun_sides o vec surfaces fenestrations).
Proof.
  intros mf s date w o surfaces fenestrations vec st Night F.
  assert (One : forall sf st0, (exists k, l_front_solar sf = Some k /\ (k < length st0)%nat) -> (exists k, l_back_solar sf = Some k /\ (k < length st0)%nat) ->
    exists a b, l_front_solar sf = Some a /\ l_back_solar sf = Some b /\ (a < length st0)%nat /\ (b < length st0)%nat /\ night_surface sf st0 = Ok (upd (upd st0 a 0) b 0)).
  { intros sf st0 (a & Ea & Ha) (b & Eb & Hb). exists a, b. split; [exact Ea|]. split; [exact Eb|]. split; [exact Ha|]. split; [exact Hb|]. unfold night_surface. rewrite Ea, Eb. rewrite set_state_ok by exact Ha. cbn [bind]. apply set_state_ok. rewrite upd_length. exact Hb. }
  assert (Up : forall st0 a b k, (a < length st0)%nat -> (b < length st0)%nat -> (k = a \/ k = b -> nth k (upd (upd st0 a 0) b 0) 0 = 0) /\ (k <> a -> k <> b -> nth k (upd (upd st0 a 0) b 0) 0 = nth k st0 0) /\
    (nth k st0 0 = 0 -> nth k (upd (upd st0 a 0) b 0) 0 = 0)).
  { intros st0 a b k Ha Hb. destruct (Nat.eq_dec k b) as [->|N1]; [rewrite nth_upd_same by (rewrite upd_length; exact Hb); split; [auto|split; [congruence|auto]]|].
    rewrite nth_upd_other by congruence. destruct (Nat.eq_dec k a) as [->|N2]; [rewrite nth_upd_same by exact Ha; split; [auto|split; [congruence|auto]]|].
    rewrite nth_upd_other by congruence. split; [intros [H|H]; congruence|]. auto. }
  assert (Loop : forall window dcf dcb l i st0, Forall (fun g => exists k, g_field g = Some k /\ (k < length st0)%nat) (sun_sides_from window true dcf vec i l) ->
      Forall (fun g => exists k, g_field g = Some k /\ (k < length st0)%nat) (sun_sides_from window false dcb vec i l) ->
      exists st', (if window then night_fenestrations l st0 else night_surfaces l st0) = Ok st' /\ length st' = length st0 /\
        (forall k, nth k st0 0 = 0 -> nth k st' 0 = 0) /\
        (forall k, ~ In k (places (sun_sides_from window true dcf vec i l)) -> ~ In k (places (sun_sides_from window false dcb vec i l)) -> nth k st' 0 = nth k st0 0) /\
        Forall (fun g => forall k, g_field g = Some k -> nth k st' 0 = 0) (sun_sides_from window true dcf vec i l) /\
        Forall (fun g => forall k, g_field g = Some k -> nth k st' 0 = 0) (sun_sides_from window false dcb vec i l)).
  { clear F. intros window dcf dcb. induction l as [|sf l IH]; intros i st0 F1 F2.
    - exists st0. destruct window; cbn; repeat split; auto.
    - cbn [sun_sides_from] in *. destruct (window && l_opening sf) eqn:Eo.
      + cbn [app] in *. destruct (IH (S i) st0 F1 F2) as (st' & E & R). exists st'. split; [|exact R]. apply andb_true_iff in Eo. destruct Eo as [-> Eo]. cbn [night_fenestrations]. rewrite Eo. cbn [bind]. exact E.
      + cbn [app] in *. inversion_clear F1 as [|? ? G1 G2]. inversion_clear F2 as [|? ? H1 H2]. cbn [g_field] in G1, H1.
        destruct (One sf st0 G1 H1) as (a & b & Ea & Eb & Ha & Hb & En). destruct (IH (S i) (upd (upd st0 a 0) b 0)) as (st' & E & L & K & O & P1 & P2); [rewrite !upd_length; exact G2|rewrite !upd_length; exact H2|].
        rewrite !upd_length in L. exists st'. split. { destruct window; cbn [night_fenestrations night_surfaces]; [cbn [andb] in Eo; rewrite Eo|]; rewrite En; cbn [bind]; exact E. }
        split; [exact L|]. split; [intros k Hk; apply K; apply (Up st0 a b k Ha Hb); exact Hk|]. split.
        * intros k Hk1 Hk2. unfold places in Hk1, Hk2. cbn [flat_map g_field] in Hk1, Hk2. rewrite Ea in Hk1. rewrite Eb in Hk2. cbn [app] in Hk1, Hk2.
          rewrite O; [|intros Q; apply Hk1; right; exact Q|intros Q; apply Hk2; right; exact Q]. apply (Up st0 a b k Ha Hb); intros ->; [apply Hk1|apply Hk2]; left; reflexivity.
        * split.
          -- apply Forall_cons; [|exact P1]. cbn [g_field]. intros k Ek. apply K. apply (proj1 (Up st0 a b k Ha Hb)). left. congruence.
          -- apply Forall_cons; [|exact P2]. cbn [g_field]. intros k Ek. apply K. apply (proj1 (Up st0 a b k Ha Hb)). right. congruence. }
  unfold sun_sides in F. apply Forall_app in F. destruct F as [A1 F]. apply Forall_app in F. destruct F as [A2 F]. apply Forall_app in F. destruct F as [A3 A4].
  destruct (Loop false _ _ surfaces 0%nat st A1 A2) as (st1 & E1 & L1 & K1 & O1 & P1 & Q1).
  destruct (Loop true (front_fen_dc o) (back_fen_dc o) fenestrations 0%nat st1) as (st2 & E2 & L2 & K2 & O2 & P2 & Q2); [rewrite L1; exact A3|rewrite L1; exact A4|].
  exists st2. split. { unfold update_solar_radiation. destruct (Rleb _ _) eqn:T; [apply Rleb_true in T; lra|]. cbn [negb]. rewrite E1. cbn [bind]. exact E2. }
  split; [lia|]. unfold sun_sides, places. split.
  - intros k Hk. rewrite !flat_map_app in Hk. rewrite O2.
    + apply O1; intros Q; apply Hk; apply in_or_app; [left; exact Q|right]. apply in_or_app. left. exact Q.
    + intros Q; apply Hk; apply in_or_app; right; apply in_or_app; right; apply in_or_app; left; exact Q.
    + intros Q; apply Hk; apply in_or_app; right; apply in_or_app; right; apply in_or_app; right; exact Q.
  - apply Forall_app. split. { eapply Forall_impl; [|exact P1]. intros g Hg k Ek. apply K2, (Hg k Ek). }
    apply Forall_app. split. { eapply Forall_impl; [|exact Q1]. intros g Hg k Ek. apply K2, (Hg k Ek). }
    apply Forall_app. split; assumption.
Qed.

(** C84: with coefficients that are not negative and add up to at most pi (C81), the irradiance is between zero and pi times the brightest patch. *)
Theorem C84_bounds : forall dc vec i brightest, (forall b, (b < ncols dc)%nat -> 0 <= nth (ncols dc * i + b) (data dc) 0) ->
  sumf (fun b => nth (ncols dc * i + b) (data dc) 0) (seq 0 (ncols dc)) <= PI -> (forall b, 0 <= nth b vec 0 <= brightest) ->
  0 <= incident dc vec i <= PI * brightest.
Proof.
  intros dc vec i M Hc Hs Hv. unfold incident.
  assert (G : forall (f g : nat -> R) N k0, (forall b, (k0 <= b < k0 + N)%nat -> 0 <= f b) -> (forall b, 0 <= g b <= M) ->
    0 <= sumf (fun b => f b * g b) (seq k0 N) <= M * sumf f (seq k0 N)).
  { clear. intros f g N. induction N as [|N IH]; intros k0 Hf Hg; [cbn; lra|]. cbn [seq].
    change (sumf (fun b => f b * g b) (k0 :: seq (S k0) N)) with (f k0 * g k0 + sumf (fun b => f b * g b) (seq (S k0) N)). change (sumf f (k0 :: seq (S k0) N)) with (f k0 + sumf f (seq (S k0) N)).
    specialize (IH (S k0) ltac:(intros; apply Hf; lia) Hg). specialize (Hf k0 ltac:(lia)). specialize (Hg k0). nra. }
  destruct (G (fun b => nth (ncols dc * i + b) (data dc) 0) (fun b => nth b vec 0) (ncols dc) 0%nat) as [A B]; [intros b Hb; apply Hc; lia|exact Hv|].
  split; [exact A|]. eapply Rle_trans; [exact B|]. assert (0 <= M) by (specialize (Hv 0%nat); lra). rewrite (Rmult_comm PI). apply Rmult_le_compat_l; assumption.
Qed.

(** C84: when the sky stays as it is, what a side shows approaches the irradiance: each step halves the difference. *)
Fixpoint steps (n : nat) (run : list R -> res (list R)) (st : list R) : res (list R) :=
  match n with O => Ok st | S n => do st <- run st; steps n run st end.
Theorem C84_settles : forall mf s date w o surfaces fenestrations vec st n, 1 / 10 ^ 4 <= w_direct w + w_diffuse w ->
  gen_sky_vec mf s date (w_dew_point w) (w_diffuse w) (w_direct w) UnitsSolar (2 / 10) true true = Ok vec ->
  optical_fits o vec surfaces fenestrations -> allocated (sun_sides o vec surfaces fenestrations) st ->
  exists st', steps n (update_solar_radiation mf s date w o surfaces fenestrations) st = Ok st' /\ length st' = length st /\
    Forall (fun g => forall k, g_field g = Some k -> boundary_receives_sun (g_bound g) = true -> (g_window g = true \/ 0 <= g_now g) ->
      nth k st' 0 - g_now g = (nth k st 0 - g_now g) / 2 ^ n) (sun_sides o vec surfaces fenestrations).
Proof.
  intros mf s date w o surfaces fenestrations vec st n Day Ev Hf. revert st. induction n as [|n IH]; intros st Al.
  - exists st. cbn [steps]. split; [reflexivity|]. split; [reflexivity|]. apply Forall_forall. intros g _ k _ _ _. cbn. lra.
  - destruct (C84_day mf s date w o surfaces fenestrations vec st Day Ev Hf Al) as (st1 & E1 & L1 & _ & P1).
    destruct (IH st1) as (st' & E & L & P). { destruct Al as [A1 A2]. split; [exact A1|]. rewrite L1. exact A2. }
    exists st'. cbn [steps]. rewrite E1. cbn [bind]. split; [exact E|]. split; [lia|]. apply Forall_forall. intros g Hg k Ek Hb Hw.
    rewrite (proj1 (Forall_forall _ _) P g Hg k Ek Hb Hw). rewrite (proj1 (Forall_forall _ _) P1 g Hg k Ek).
    assert (Sh : shown g (nth k st 0) = (g_now g + nth k st 0) / 2).
    { unfold shown. replace (if g_window g then g_now g else Rmax 0 (g_now g)) with (g_now g) by (destruct (g_window g); [reflexivity|]; destruct Hw as [Hw|Hw]; [discriminate|]; rewrite Rmax_right by exact Hw; reflexivity).
      destruct (g_bound g); try discriminate Hb; reflexivity. }
    rewrite Sh. cbn [pow]. assert (0 < 2 ^ n) by (apply pow_lt; lra). field. lra.
Qed.

(** C84, refuted: "the irradiance of a step is that of the sky of that step".  At the first step of the day half of it is missing, for every side that
    sees the sun. *)
Theorem C84_lag_refuted : forall mf s date w o surfaces fenestrations vec st g k st', 1 / 10 ^ 4 <= w_direct w + w_diffuse w ->
  gen_sky_vec mf s date (w_dew_point w) (w_diffuse w) (w_direct w) UnitsSolar (2 / 10) true true = Ok vec ->
  optical_fits o vec surfaces fenestrations -> allocated (sun_sides o vec surfaces fenestrations) st ->
  In g (sun_sides o vec surfaces fenestrations) -> g_field g = Some k -> 0 < g_now g -> nth k st 0 = 0 ->
  update_solar_radiation mf s date w o surfaces fenestrations st = Ok st' -> nth k st' 0 = g_now g / 2 /\ nth k st' 0 <> g_now g.
Proof.
  intros mf s date w o surfaces fenestrations vec st g k st' Day Ev Hf Al Hg Ek Pos Old E.
  destruct (C84_day mf s date w o surfaces fenestrations vec st Day Ev Hf Al) as (st1 & E1 & _ & _ & P). rewrite E in E1. injection E1 as <-.
  assert (V : nth k st' 0 = g_now g / 2).
  { rewrite (proj1 (Forall_forall _ _) P g Hg k Ek), Old. unfold shown. replace (if g_window g then g_now g else Rmax 0 (g_now g)) with (g_now g) by (destruct (g_window g); [reflexivity|]; rewrite Rmax_right by lra; reflexivity).
    destruct (g_bound g); lra. }
  split; [exact V|]. rewrite V. intros H. lra.
Qed.

(** The building of above at noon; its coefficients all are a hundredth. *)
Definition ex_noon := mkLW 12 10 0 None 500 100.
Example C84_example : exists vec st', gen_sky_vec 1 here noon 10 100 500 UnitsSolar (2 / 10) true true = Ok vec /\
  optical_fits ex_optical vec ex_surfaces ex_fenestrations /\ allocated (sun_sides ex_optical vec ex_surfaces ex_fenestrations) ex_state /\
  length (sun_sides ex_optical vec ex_surfaces ex_fenestrations) = 6%nat /\
  update_solar_radiation 1 here noon ex_noon ex_optical ex_surfaces ex_fenestrations ex_state = Ok st' /\
  nth 1 st' 0 = (Rmax 0 (incident ex_dc vec 0) + 2) / 2 /\ nth 4 st' 0 = Rmax 0 (incident ex_dc vec 1) / 2 /\ nth 12 st' 0 = (incident ex_dc vec 1 + 2) / 2 /\ nth 15 st' 0 = 16.
Proof.
  destruct C78_noon as (vec & v & _ & E & L & _). exists vec.
  assert (Fit : forall l, length l = 2%nat -> fits ex_dc vec l).
  { intros l Hl. right. split; [intros ->; discriminate|]. split; [unfold wf, ex_dc; cbn [nrows ncols data]; apply repeat_length|]. cbn [nrows ncols ex_dc]. lia. }
  assert (Of : optical_fits ex_optical vec ex_surfaces ex_fenestrations) by (repeat split; apply Fit; reflexivity).
  assert (Al : allocated (sun_sides ex_optical vec ex_surfaces ex_fenestrations) ex_state).
  { split; [cbn; repeat constructor; cbn; intuition discriminate|]. cbn -[incident]. repeat (apply Forall_cons; [cbn; eexists; split; [reflexivity|lia]|]). constructor. }
  destruct (C84_day 1 here noon ex_noon ex_optical ex_surfaces ex_fenestrations vec ex_state ltac:(cbn; lra) E Of Al) as (st' & E' & _ & O & P). exists st'.
  split; [exact E|]. split; [exact Of|]. split; [exact Al|]. split; [reflexivity|]. split; [exact E'|].
  assert (Q : forall g k, In g (sun_sides ex_optical vec ex_surfaces ex_fenestrations) -> g_field g = Some k -> nth k st' 0 = shown g (nth k ex_state 0)).
  { intros g k Hg Ek. exact (proj1 (Forall_forall _ _) P g Hg k Ek). }
  split; [|split; [|split]].
  - apply (Q (mkSun (Space 0) (Some 1%nat) false (incident ex_dc vec 0)) 1%nat); [right; right; left|]; reflexivity.
  - rewrite (Q (mkSun Ground (Some 4%nat) false (incident ex_dc vec 1)) 4%nat); [|right; left; reflexivity|reflexivity]. unfold shown. cbn [g_window g_now g_bound]. f_equal. ring.
  - apply (Q (mkSun (Space 0) (Some 12%nat) true (incident ex_dc vec 1)) 12%nat); [do 5 right; left|]; reflexivity.
  - apply (O 15%nat). cbn. intuition discriminate.
Qed.

(** ** C85: the solar model as a whole *)

(** C85: the discretisation of the sky is found from the coefficients if it is between one and eight, and the coordinates, counted positive to the
    east, reach the sun positive to the west. *)
Theorem C85_new : forall lat lon mer o surfaces, surfaces <> [] ->
  (forall m, (1 <= m <= 8)%nat -> ncols (back_surfaces_dc o) = (144 * m * m + 2)%nat -> new_solar_model lat lon mer o surfaces = Ok (mkSM o (mkSolar lat (- lon) (- mer)) m)) /\
  ((forall m, (1 <= m <= 8)%nat -> ncols (back_surfaces_dc o) <> (144 * m * m + 2)%nat) -> new_solar_model lat lon mer o surfaces = Err).
Proof.
  intros lat lon mer o surfaces Hs. unfold new_solar_model. destruct surfaces as [|s0 surfaces]; [congruence|]. clear Hs.
  assert (B : forall m, n_bins_of m = (144 * m * m + 2)%nat) by (intros m; unfold n_bins_of; cbn [Nat.pow]; nia).
  assert (L : forall c n a, (forall m, (a <= m < a + n)%nat -> (forall k, (a <= k < m)%nat -> c <> n_bins_of k) -> c = n_bins_of m -> mf_loop c a n = Ok m) /\
    ((forall m, (a <= m < a + n)%nat -> c <> n_bins_of m) -> mf_loop c a n = Err)).
  { intros c. induction n as [|n IH]; intros a; split.
    - intros m Hm. lia.
    - reflexivity.
    - intros m Hm Hk E. cbn [mf_loop]. destruct (Nat.eqb_spec (n_bins_of a) c) as [Ea|Ea].
      + destruct (Nat.eq_dec a m) as [->|N]; [reflexivity|]. exfalso. apply (Hk a); [lia|congruence].
      + apply IH; [|intros k Hk'; apply Hk; lia|exact E]. destruct (Nat.eq_dec a m) as [->|N]; [congruence|lia].
    - intros H. cbn [mf_loop]. destruct (Nat.eqb_spec (n_bins_of a) c) as [Ea|Ea]; [exfalso; apply (H a); [lia|congruence]|]. apply IH. intros m Hm. apply H. lia. }
  split.
  - intros m Hm E. replace (ncols (back_surfaces_dc o) =? 0)%nat with false by (symmetry; apply Nat.eqb_neq; lia).
    rewrite (proj1 (L (ncols (back_surfaces_dc o)) 8%nat 1%nat) m); [reflexivity|lia| |rewrite B; exact E]. intros k Hk. rewrite B, E. nia.
  - intros H. destruct (ncols (back_surfaces_dc o) =? 0)%nat; [reflexivity|]. rewrite (proj2 (L (ncols (back_surfaces_dc o)) 8%nat 1%nat)); [reflexivity|]. intros m Hm. rewrite B. apply H. lia.
Qed.

(** C85, refuted: "any discretisation of the sky can be asked for".  From nine on, the coefficients are computed and then refused. *)
Theorem C85_fine_sky_refuted : forall m lat lon mer o surfaces, (9 <= m)%nat -> surfaces <> [] -> ncols (back_surfaces_dc o) = (144 * m * m + 2)%nat ->
  new_solar_model lat lon mer o surfaces = Err.
Proof. intros m lat lon mer o surfaces Hm Hs E. apply (C85_new lat lon mer o surfaces Hs). intros k Hk. rewrite E. nia. Qed.

(** C85: a step of the model succeeds for every date and every weather; each irradiance is as in C83 and C84 and nothing else changes. *)
Theorem C85_march : forall lat lon mer o surfaces fenestrations m sm date w st,
  - (PI / 2) < lat < PI / 2 -> surfaces <> [] -> (1 <= m <= 8)%nat -> new_solar_model lat lon mer o surfaces = Ok sm ->
  (forall vec, length vec = (144 * m * m + 2)%nat -> optical_fits o vec surfaces fenestrations) ->
  ready (sides o surfaces fenestrations) st -> (forall vec, allocated (sun_sides o vec surfaces fenestrations) st) ->
  (forall vec k, In k (flat_map written (sides o surfaces fenestrations)) -> ~ In k (places (sun_sides o vec surfaces fenestrations))) ->
  exists vec st', gen_sky_vec m (mkSolar lat (- lon) (- mer)) date (w_dew_point w) (w_diffuse w) (w_direct w) UnitsSolar (2 / 10) true true = Ok vec /\
    march_light sm date w surfaces fenestrations st = Ok st' /\ length st' = length st /\
    Forall (fun sd => forall k, In k (written sd) -> nth k st' 0 = received w sd st) (sides o surfaces fenestrations) /\
    Forall (fun g => forall k, g_field g = Some k -> nth k st' 0 = if Rleb (1 / 10 ^ 4) (w_direct w + w_diffuse w) then shown g (nth k st 0) else 0) (sun_sides o vec surfaces fenestrations) /\
    (forall k, ~ In k (flat_map written (sides o surfaces fenestrations)) -> ~ In k (places (sun_sides o vec surfaces fenestrations)) -> nth k st' 0 = nth k st 0).
Proof.
  intros lat lon mer o surfaces fenestrations m sm date w st Hlat Hs Hm Hnew Hfit Hready Hal Hdis.
  assert (B : n_bins_of m = (144 * m * m + 2)%nat) by (unfold n_bins_of; cbn [Nat.pow]; nia).
  destruct (C78_size [] m (mkSolar lat (- lon) (- mer)) date (w_dew_point w) (w_diffuse w) (w_direct w) UnitsSolar (2 / 10) true true) as (_ & _ & vec & Ev & Lv); [exact Hlat|lia|].
  assert (Esm : sm = mkSM o (mkSolar lat (- lon) (- mer)) m).
  { assert (Nc : ncols (back_surfaces_dc o) = (144 * m * m + 2)%nat).
    { destruct (Hfit vec ltac:(lia)) as (_ & [[F _]|(_ & _ & _ & F & _)] & _); [congruence|lia]. }
    rewrite (proj1 (C85_new lat lon mer o surfaces Hs) m Hm Nc) in Hnew. injection Hnew as <-. reflexivity. }
  subst sm. exists vec. destruct (C83_infrared w o surfaces fenestrations st Hready) as (st1 & E1 & L1 & O1 & P1).
  assert (Al : allocated (sun_sides o vec surfaces fenestrations) st1). { destruct (Hal vec) as [A1 A2]. split; [exact A1|]. rewrite L1. exact A2. }
  assert (Step : exists st', update_solar_radiation m (mkSolar lat (- lon) (- mer)) date w o surfaces fenestrations st1 = Ok st' /\ length st' = length st1 /\
    (forall k, ~ In k (places (sun_sides o vec surfaces fenestrations)) -> nth k st' 0 = nth k st1 0) /\
    Forall (fun g => forall k, g_field g = Some k -> nth k st' 0 = if Rleb (1 / 10 ^ 4) (w_direct w + w_diffuse w) then shown g (nth k st1 0) else 0) (sun_sides o vec surfaces fenestrations)).
  { destruct (Rleb (1 / 10 ^ 4) (w_direct w + w_diffuse w)) eqn:T.
    - apply Rleb_true in T. apply C84_day; [exact T|exact Ev|apply Hfit; lia|exact Al].
    - apply Rleb_false in T. apply C84_night; [exact T|apply Al]. }
  destruct Step as (st' & E & L & O & P). exists st'. split; [exact Ev|]. split. { unfold march_light. cbn [sm_optical sm_mf sm_solar]. rewrite E1. cbn [bind]. exact E. }
  split; [lia|]. split; [|split].
  - apply Forall_forall. intros sd Hsd k Hk. assert (In k (flat_map written (sides o surfaces fenestrations))) by (apply in_flat_map; exists sd; auto).
    rewrite O by (apply Hdis; assumption). exact (proj1 (Forall_forall _ _) P1 sd Hsd k Hk).
  - apply Forall_forall. intros g Hg k Ek. rewrite (proj1 (Forall_forall _ _) P g Hg k Ek). rewrite O1; [reflexivity|]. intros Q. apply (Hdis vec k Q). apply in_flat_map. exists g. split; [exact Hg|]. rewrite Ek. left. reflexivity.
  - intros k K1 K2. rewrite O by exact K2. apply O1. exact K1.
Qed.

(** C85, refuted: "a model that can be built can be run".  Without walls the discretisation is taken to be one: windows whose coefficients were computed
    for another one stop the program at daybreak. *)
Theorem C85_no_walls_refuted : exists o windows sm st, new_solar_model (3 / 10) 0 0 o [] = Ok sm /\
  (forall vec, length vec = n_bins_of 2 -> optical_fits o vec [] windows) /\ (forall vec, allocated (sun_sides o vec [] windows) st) /\ ready (sides o [] windows) st /\
  forall date w, 1 / 10 ^ 4 <= w_direct w + w_diffuse w -> march_light sm date w [] windows st = Panic.
Proof.
  set (dc := mkMat 1 (n_bins_of 2) (repeat (1 / 100) (n_bins_of 2))).
  set (o := mkOptical [] [] [ex_view] [ex_view] empty_mat empty_mat dc dc).
  set (windows := [mkLS Outdoor Outdoor false (Some 0%nat) (Some 1%nat) (Some 2%nat) (Some 3%nat) None None]).
  exists o, windows, (mkSM o (mkSolar (3 / 10) (- 0) (- 0)) 1), [0; 0; 0; 0]. split; [reflexivity|].
  assert (F : forall vec, length vec = n_bins_of 2 -> fits dc vec windows).
  { intros vec L. right. split; [discriminate|]. split; [unfold wf, dc; cbn [nrows ncols data]; rewrite repeat_length; lia|]. split; [reflexivity|]. split; [cbn [ncols dc]; lia|]. rewrite L. cbn. lia. }
  split; [|split; [|split]].
  - intros vec L. repeat split; try (left; split; reflexivity); apply F, L.
  - intros vec. split; [cbn; repeat constructor; cbn; intuition discriminate|]. cbn -[incident]. repeat (apply Forall_cons; [cbn; eexists; split; [reflexivity|lia]|]). constructor.
  - unfold ready, sides. cbn. repeat split.
    + repeat constructor; cbn; intuition discriminate.
    + repeat (apply Forall_cons; [cbn; intros _ _; eexists; split; [reflexivity|lia]|]). constructor.
    + repeat (apply Forall_cons; [cbn; intros k H; discriminate H|]). constructor.
    + repeat (apply Forall_cons; [cbn; intros; discriminate|]). constructor.
  - intros date w Day. unfold march_light. cbn [sm_optical sm_mf sm_solar].
    assert (Hir : exists st1, update_ir_radiation w o [] windows [0; 0; 0; 0] = Ok st1). { eexists. cbn -[ir derive_horizontal_ir]. reflexivity. }
    destruct Hir as (st1 & ->). cbn [bind]. unfold update_solar_radiation. rewrite (proj2 (Rleb_true _ _) Day). cbn [negb].
    destruct (C78_size [] 1 (mkSolar (3 / 10) (- 0) (- 0)) date (w_dew_point w) (w_diffuse w) (w_direct w) UnitsSolar (2 / 10) true true) as (_ & _ & vec & Ev & Lv); [cbn [latitude]; pose proof PI_bounds; lra|lia|].
    rewrite Ev. cbn [bind]. unfold solar_side at 1 2. cbn [o front_surfaces_dc back_surfaces_dc is_empty nrows ncols empty_mat Nat.eqb andb bind].
    unfold solar_side at 1. replace (is_empty (front_fen_dc o)) with false by (cbn; reflexivity).
    replace (op_mul Rnum (front_fen_dc o) (mkMat (length vec) 1 vec)) with (@Panic (mat R)); [reflexivity|].
    unfold op_mul. cbn [o front_fen_dc ncols dc nrows]. rewrite Lv. reflexivity.
Qed.

(** C85, refuted: "stored optical data that do not belong to the model are refused".  With fewer view factors than outdoor walls the program stops. *)
Theorem C85_stale_data_refuted : forall w o s surfaces fenestrations st, l_front s = Outdoor -> front_surfaces_vf o = [] ->
  update_ir_radiation w o (s :: surfaces) fenestrations st = Panic.
Proof. intros w o s surfaces fenestrations st Hb Hv. unfold update_ir_radiation. cbn [ir_surfaces]. unfold update_ir_surface, update_ir_side at 1. rewrite Hb, Hv. reflexivity. Qed.

Example C85_example : exists sm vec st', new_solar_model (3 / 10) (12 / 10) 1 ex_optical ex_surfaces = Ok sm /\ sm_mf sm = 1%nat /\
  (forall vec, length vec = (144 * 1 * 1 + 2)%nat -> optical_fits ex_optical vec ex_surfaces ex_fenestrations) /\
  ready (sides ex_optical ex_surfaces ex_fenestrations) ex_state /\ (forall vec, allocated (sun_sides ex_optical vec ex_surfaces ex_fenestrations) ex_state) /\
  march_light sm 100 ex_noon ex_surfaces ex_fenestrations ex_state = Ok st' /\
  nth 3 st' 0 = black_body 19 /\ nth 12 st' 0 = (incident ex_dc vec 1 + 2) / 2 /\ nth 9 st' 0 = 19.
Proof.
  exists (mkSM ex_optical (mkSolar (3 / 10) (- (12 / 10)) (- 1)) 1).
  assert (New : new_solar_model (3 / 10) (12 / 10) 1 ex_optical ex_surfaces = Ok (mkSM ex_optical (mkSolar (3 / 10) (- (12 / 10)) (- 1)) 1)).
  { apply (proj1 (C85_new (3 / 10) (12 / 10) 1 ex_optical ex_surfaces ltac:(discriminate)) 1%nat); [lia|reflexivity]. }
  assert (Fit : forall vec, length vec = (144 * 1 * 1 + 2)%nat -> optical_fits ex_optical vec ex_surfaces ex_fenestrations).
  { intros vec L. assert (F : forall l, length l = 2%nat -> fits ex_dc vec l).
    { intros l Hl. right. split; [intros ->; discriminate|]. split; [unfold wf, ex_dc; cbn [nrows ncols data]; apply repeat_length|]. cbn [nrows ncols ex_dc]. lia. }
    repeat split; apply F; reflexivity. }
  assert (Al : forall vec, allocated (sun_sides ex_optical vec ex_surfaces ex_fenestrations) ex_state).
  { intros vec. split; [cbn; repeat constructor; cbn; intuition discriminate|]. cbn -[incident]. repeat (apply Forall_cons; [cbn; eexists; split; [reflexivity|lia]|]). constructor. }
  destruct C83_example as [Rd _].
  destruct (C85_march (3 / 10) (12 / 10) 1 ex_optical ex_surfaces ex_fenestrations 1%nat (mkSM ex_optical (mkSolar (3 / 10) (- (12 / 10)) (- 1)) 1) 100 ex_noon ex_state) as (vec & st' & Ev & E & L & P1 & P2 & O);
    [pose proof PI_bounds; lra|discriminate|lia|exact New|exact Fit|exact Rd|exact Al|intros vec k; cbn; intuition congruence|].
  exists vec, st'. split; [exact New|]. split; [reflexivity|]. split; [exact Fit|]. split; [exact Rd|]. split; [exact Al|]. split; [exact E|]. split; [|split].
  - apply (proj1 (Forall_forall _ _) P1 (mkSide (Space 0) (Some 9%nat) (Some 3%nat) (Some ex_view))); [right; left; reflexivity|left; reflexivity].
  - assert (Q := proj1 (Forall_forall _ _) P2 (mkSun (Space 0) (Some 12%nat) true (incident ex_dc vec 1)) ltac:(do 5 right; left; reflexivity) 12%nat eq_refl).
    replace (Rleb (1 / 10 ^ 4) (w_direct ex_noon + w_diffuse ex_noon)) with true in Q by (symmetry; apply Rleb_true; cbn; lra). exact Q.
  - apply (O 9%nat); cbn; intuition discriminate.
Qed.

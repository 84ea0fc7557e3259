(** Properties C94 to C96: the ray tracer (rendering/src/ray_tracer.rs). *)
From Coquelicot Require Import Coquelicot.
From Coq Require Import String List Arith NArith ZArith Reals Bool Lra Lia Psatz Permutation.
From Verif.Matrix Require Import MatrixModel GaussSeidel.
From Verif.Common Require Import Base Flt.
From Verif.Geometry Require Import Vec BBoxModel TriangleModel TriangleProofs GeomProofs.
From Verif.Rendering Require Import BvhModel BvhProofs SamplersModel DaylightModel MaterialModel SceneModel RayTracerModel.
From Verif.Properties Require Import SamplersProps TriangleProps BvhProps DaylightProps MaterialProps SceneProps.
Import ListNotations.
Open Scope R_scope.
Open Scope list_scope.

(** ** C94: how lights are chosen and samples weighed *)

(** The weights given to two ways of sampling are between 0 and 1 and add up to one, whenever one of the two can produce the sample. *)
Theorem C94_weights : forall na pa nb pb, 0 <= pa -> 0 <= pb -> 0 < INR na * pa + INR nb * pb ->
  (0 <= power_heuristic na pa nb pb <= 1 /\ power_heuristic na pa nb pb + power_heuristic nb pb na pa = 1) /\
  (0 <= balance_heuristic na pa nb pb <= 1 /\ balance_heuristic na pa nb pb + balance_heuristic nb pb na pa = 1).
Proof.
  intros na pa nb pb A B S. unfold power_heuristic, balance_heuristic. cbv zeta.
  set (a := INR na * pa) in *. set (b := INR nb * pb) in *.
  assert (a0 : 0 <= a) by (apply Rmult_le_pos; [apply pos_INR|exact A]). assert (b0 : 0 <= b) by (apply Rmult_le_pos; [apply pos_INR|exact B]).
  clearbody a b. assert (Q : 0 < a * a + b * b). { pose proof (Rmult_lt_0_compat _ _ S S). pose proof (Rle_0_sqr (a - b)) as Z. unfold Rsqr in Z. lra. }
  split; (split; [split|]).
  - apply Rmult_le_pos; [nra|]. left. apply Rinv_0_lt_compat. exact Q.
  - apply Rmult_le_reg_r with (a * a + b * b); [exact Q|]. unfold Rdiv. rewrite Rmult_assoc, Rinv_l by lra. nra.
  - rewrite (Rplus_comm (b * b) (a * a)). field. lra.
  - apply Rmult_le_pos; [lra|]. left. apply Rinv_0_lt_compat. exact S.
  - apply Rmult_le_reg_r with (a + b); [exact S|]. unfold Rdiv. rewrite Rmult_assoc, Rinv_l by lra. lra.
  - rewrite (Rplus_comm b a). field. lra.
Qed.

(** The power heuristic favours the better way of sampling more than the balance heuristic does. *)
Theorem C94_power : forall na pa nb pb, 0 <= pb -> 0 < INR nb * pb <= INR na * pa ->
  balance_heuristic na pa nb pb <= power_heuristic na pa nb pb.
Proof.
  intros na pa nb pb B S. unfold power_heuristic, balance_heuristic. cbv zeta. set (a := INR na * pa) in *. set (b := INR nb * pb) in *. clearbody a b.
  apply Rmult_le_reg_r with ((a + b) * (a * a + b * b)); [assert (0 < a * a) by (apply Rmult_lt_0_compat; lra); assert (0 < b * b) by (apply Rmult_lt_0_compat; lra); apply Rmult_lt_0_compat; lra|]. replace (a / (a + b) * ((a + b) * (a * a + b * b))) with (a * (a * a + b * b)) by (field; lra).
  replace (a * a / (a * a + b * b) * ((a + b) * (a * a + b * b))) with (a * a * (a + b)) by (field; assert (0 < a * a) by (apply Rmult_lt_0_compat; lra); assert (0 < b * b) by (apply Rmult_lt_0_compat; lra); lra).
  assert (0 <= a * b * (a - b)) by (apply Rmult_le_pos; [apply Rmult_le_pos|]; lra). lra.
Qed.

(** All lights are drawn alike: the number that is drawn, modulo the number of lights, is the position of the light; without lights there is none. *)
Theorem C94_choice : forall s i, let all := lights s ++ distant_lights s in
  (all = [] -> sample_light_uniform s i = None) /\
  (all <> [] -> exists o, sample_light_uniform s i = Some (o, 1 / INR (length all)) /\ nth_error all (i mod length all) = Some o).
Proof.
  intros s i all. assert (La : length all = (length (lights s) + length (distant_lights s))%nat) by (unfold all; apply app_length).
  unfold sample_light_uniform. split.
  - intros E. rewrite E in La. cbn [length] in La. rewrite <- La. reflexivity.
  - intros E. rewrite <- La. destruct (length all) as [|n] eqn:El; [destruct all; [contradiction|discriminate]|]. 
    assert (Lt : (i mod S n < S n)%nat) by (apply Nat.mod_upper_bound; lia). rewrite <- El in Lt.
    destruct (nth_error all (i mod S n)) as [o|] eqn:Eo; [|apply nth_error_None in Eo; rewrite <- El in Eo; lia].
    exists o. split; [|reflexivity]. unfold all in Eo. destruct (Nat.ltb_spec (i mod S n) (length (lights s))) as [L|L].
    + rewrite nth_error_app1 in Eo by exact L. rewrite Eo. reflexivity.
    + rewrite nth_error_app2 in Eo by exact L. rewrite Eo. reflexivity.
Qed.

(** Of any number of consecutive integers that is a multiple of the number of lights, the same number chooses every light. *)
Lemma count_mod n k : (k < n)%nat -> forall m a, length (filter (fun i => i mod n =? k)%nat (seq (a * n) (m * n))) = m.
Proof.
  intros K. assert (One : forall a, length (filter (fun i => i mod n =? k)%nat (seq (a * n) n)) = 1%nat).
  { intros a. assert (E : seq (a * n) n = seq (a * n) k ++ [(a * n + k)%nat] ++ seq (a * n + k + 1) (n - k - 1)).
    { replace n with (k + (1 + (n - k - 1)))%nat at 2 by lia. rewrite !seq_app. reflexivity. }
    assert (No : forall b l, (forall i, In i (seq b l) -> (i mod n <> k)%nat) -> filter (fun i => i mod n =? k)%nat (seq b l) = []).
    { intros b l H. induction (seq b l) as [|x xs IH]; [reflexivity|]. cbn [filter]. destruct (Nat.eqb_spec (x mod n) k) as [Q|_]; [destruct (H x (or_introl eq_refl) Q)|]. apply IH. intros i I. apply H. right. exact I. }
    assert (Md : forall j, (j < n)%nat -> ((a * n + j) mod n = j)%nat) by (intros j J; rewrite Nat.add_comm, Nat.mod_add by lia; apply Nat.mod_small; exact J).
    rewrite E, !filter_app, !app_length. cbn [filter]. rewrite Md, Nat.eqb_refl by exact K. rewrite !No; [reflexivity| |].
    - intros i I. apply in_seq in I. replace i with (a * n + (i - a * n))%nat by lia. rewrite Md by lia. lia.
    - intros i I. apply in_seq in I. replace i with (a * n + (i - a * n))%nat by lia. rewrite Md by lia. lia. }
  induction m as [|m IH]; intros a; [reflexivity|]. cbn [Nat.mul]. rewrite seq_app, filter_app, app_length, One. replace (a * n + n)%nat with (S a * n)%nat by lia. rewrite IH. reflexivity.
Qed.
Theorem C94_uniform : forall s k m, let all := lights s ++ distant_lights s in (k < length all)%nat ->
  length (filter (fun i => i mod length all =? k)%nat (seq 0 (m * length all))) = m.
Proof. intros s k m all K. apply (count_mod (length all) k K m 0). Qed.

(** What Russian roulette does not stop is made stronger by what it stops: on average over the number that is drawn, nothing changes. *)
Definition roulette (radiance aux : R) : R := let q := Rmax (1 - radiance) 0 in if Rltb aux q then 0 else 1 / (1 - q).
Theorem C94_roulette : forall r, 0 < r -> is_RInt (roulette r) 0 1 1.
Proof.
  intros r P. unfold roulette. cbv zeta. set (q := Rmax (1 - r) 0). assert (Q : 0 <= q < 1) by (unfold q, Rmax; destruct (Rle_dec _ _); lra).
  assert (Ch : is_RInt (fun aux => if Rltb aux q then 0 else 1 / (1 - q)) 0 1 (@plus R_NormedModule (@scal _ R_NormedModule (q - 0) 0) (@scal _ R_NormedModule (1 - q) (1 / (1 - q))))).
  2: { replace (@plus R_NormedModule (@scal _ R_NormedModule (q - 0) 0) (@scal _ R_NormedModule (1 - q) (1 / (1 - q)))) with 1 in Ch; [exact Ch|]. unfold plus, scal. cbn. unfold mult. cbn. field. lra. }
  apply (@is_RInt_Chasles R_NormedModule) with q.
  - apply is_RInt_ext with (fun _ => 0); [|apply @is_RInt_const]. intros x. rewrite Rmin_left, Rmax_right by lra. intros (X1 & X2). rewrite (proj2 (Rltb_true x q)) by lra. reflexivity.
  - apply is_RInt_ext with (fun _ => 1 / (1 - q)); [|apply @is_RInt_const]. intros x. rewrite Rmin_left, Rmax_right by lra. intros (X1 & X2). rewrite (proj2 (Rltb_false x q)) by lra. reflexivity.
Qed.

(** Light that arrives straight from a source can be found in two ways: by a shadow ray towards the source (density [lp], chosen with
    probability [p] and sampled [n] times) and by a ray that the material scatters (density [bp]).  The two weights that the program uses add
    up to one exactly when [n * p = 1], that is, for one light and one sample. *)
Theorem C94_complementary : forall n p lp bp, (0 < n)%nat -> 0 < p -> 0 < lp -> 0 < bp ->
  (power_heuristic n (lp * p) 1 bp + power_heuristic 1 bp 1 lp = 1 <-> INR n * p = 1) /\
  (power_heuristic n (lp * p) 1 bp + power_heuristic 1 bp 1 lp < 1 <-> INR n * p < 1).
Proof.
  intros n p lp bp Hn P L B. unfold power_heuristic. cbv zeta. cbn [INR]. rewrite !Rmult_1_l. assert (In : 0 < INR n) by (apply lt_0_INR; exact Hn).
  set (k := INR n * p). assert (K : 0 < k) by (apply Rmult_lt_0_compat; assumption). replace (INR n * (lp * p)) with (k * lp) by (unfold k; ring). clearbody k. clear In Hn P.
  assert (A1 : 0 < (k * lp) * (k * lp)) by (repeat apply Rmult_lt_0_compat; assumption). assert (A2 : 0 < bp * bp) by (apply Rmult_lt_0_compat; assumption). assert (A3 : 0 < lp * lp) by (apply Rmult_lt_0_compat; assumption).
  assert (D : (k * lp) * (k * lp) / ((k * lp) * (k * lp) + bp * bp) + bp * bp / (bp * bp + lp * lp) - 1 = (k - 1) * ((k + 1) * ((lp * lp) * (bp * bp)) / ((((k * lp) * (k * lp)) + bp * bp) * (bp * bp + lp * lp)))) by (field; lra).
  set (F := (k + 1) * ((lp * lp) * (bp * bp)) / ((((k * lp) * (k * lp)) + bp * bp) * (bp * bp + lp * lp))) in *.
  assert (F0 : 0 < F) by (unfold F; apply Rdiv_lt_0_compat; [apply Rmult_lt_0_compat; [lra|apply Rmult_lt_0_compat; assumption]|apply Rmult_lt_0_compat; lra]).
  set (Su := _ + _) in *. clearbody Su F. split; split; intros H.
  - assert (Z : (k - 1) * F = 0) by lra. apply Rmult_integral in Z. destruct Z; lra.
  - subst k. lra.
  - destruct (Rlt_le_dec k 1) as [Q|Q]; [exact Q|]. assert (0 <= (k - 1) * F) by (apply Rmult_le_pos; lra). lra.
  - assert (0 < (1 - k) * F) by (apply Rmult_lt_0_compat; lra). lra.
Qed.
(** With two lights a part of the light is lost; with four shadow rays for one light too much of it is counted. *)
Theorem C94_complementary_refuted : exists lp bp, 0 < lp /\ 0 < bp /\
  power_heuristic 1 (lp * (1 / 2)) 1 bp + power_heuristic 1 bp 1 lp = 7 / 10 /\ power_heuristic 4 (lp * 1) 1 bp + power_heuristic 1 bp 1 lp > 14 / 10.
Proof. exists 1, 1. unfold power_heuristic. cbn [INR]. repeat split; lra. Qed.
Example C94_weights_example : power_heuristic 2 3 1 2 = 9 / 10 /\ balance_heuristic 2 3 1 2 = 3 / 4.
Proof. unfold power_heuristic, balance_heuristic. cbn [INR]. lra. Qed.
Example C94_choice_example : let a := mkObject (PSource (mkV 0 0 1) 1) 0 0 in let b := mkObject (PSource (mkV 0 1 0) 1) 0 0 in
  sample_light_uniform (mkRScene (mkScene [] [] [] []) [] [a] [b]) 7 = Some (b, 1 / 2) /\ sample_light_uniform (mkRScene (mkScene [] [] [] []) [] [a] [b]) 4 = Some (a, 1 / 2).
Proof. split; reflexivity. Qed.

(** ** C95: the sky seen through a scene *)

(** What is needed of a scene: every ray of length one finds nothing or arrives at a side that has a passive material. *)
Definition sound (N fuel : nat) (w : World) : Prop := forall ray, vlen (direction ray) = 1 ->
  exists r, scene_cast_ray N (w_state w) fuel ray = Ok r /\
    match r with None => True | Some x => arrives (direction ray) (snd x) /\ exists m, hit_material (geom (w_scene w)) (mats (w_scene w)) x = Ok (Some m) /\ passive m /\ In m (mats (w_scene w)) end.
Lemma sound_built s scene N fuel mapping scene' nodes ms ls ds sky colour : reorders s -> well_formed scene -> manageable scene ->
  (forall t, In t (triangles scene) -> 1 / 10 ^ 20 < vlen2 (vsub (tb t) (ta t))) ->
  (forall k, In k (front_material_indexes scene) \/ In k (back_material_indexes scene) -> (k < length ms)%nat) -> Forall passive ms ->
  build_accelerator s (scene, None) = Ok (mapping, (scene', Some nodes)) -> (2 * length (triangles scene) <= fuel)%nat -> (length (triangles scene) <= N + 1)%nat ->
  sound N fuel (mkWorld (mkRScene scene' ms ls ds) (Some nodes) sky colour).
Proof.
  intros Rs W M Ed Ix Pm B F Nn ray L. destruct (C92_rays s scene N fuel mapping scene' nodes ms ray Rs W M Ed Ix B F L) as [(_ & Bad)|(r & Er & Hr)]; [lia|].
  exists r. split; [exact Er|]. destruct r as [[k inter]|]; [|exact I]. destruct Hr as (A & m & Hm & Im). split; [exact A|]. exists m. split; [exact Hm|]. split; [|exact Im]. apply (proj1 (Forall_forall _ _) Pm m Im).
Qed.

(** One step of a path: what a passive material does to the light and what roulette does to that. *)
Lemma passive_factor (beta f : spectrum) : nonneg beta -> radiance beta <= 1 -> channels (fun v => 0 <= v <= 1) f ->
  nonneg (smul beta f) /\ 0 <= radiance (smul beta f) <= radiance beta.
Proof.
  intros (B1 & B2 & B3) Rb ((f1 & f2) & (f3 & f4) & (f5 & f6)).
  assert (Nn : nonneg (smul beta f)) by (unfold nonneg, smul; cbn; repeat split; apply Rmult_le_pos; assumption).
  split; [exact Nn|]. split; [apply radiance_nonneg; exact Nn|]. unfold radiance, smul. cbn [red green blue].
  assert (red beta * red f <= red beta) by nra. assert (green beta * green f <= green beta) by nra. assert (blue beta * blue f <= blue beta) by nra. lra.
Qed.
Lemma roulette_beta (beta : spectrum) aux : nonneg beta -> radiance beta <= 1 -> 0 <= aux < 1 -> ~ aux < Rmax (1 - radiance beta) 0 ->
  nonneg (sdiv beta (1 - Rmax (1 - radiance beta) 0)) /\ radiance (sdiv beta (1 - Rmax (1 - radiance beta) 0)) = 1.
Proof.
  intros Nb Rb A Q. pose proof (radiance_nonneg _ Nb) as R0. rewrite Rmax_left in * by lra. replace (1 - (1 - radiance beta)) with (radiance beta) in * by ring.
  assert (P : 0 < radiance beta) by lra. split; [apply nonneg_div; assumption|]. rewrite radiance_div. field. lra.
Qed.
Definition dark (w : World) : Prop := lights (w_scene w) = [] /\ distant_lights (w_scene w) = [] /\ Forall (fun m => emits_light m = false) (mats (w_scene w)).
(** What the sky sends along a direction *)
Definition sky_light (w : World) (d : pt) : spectrum :=
  match w_sky w with None => BLACK | Some sky => sscale (match w_sky_colour w with Some c => c | None => gray 1 end) (sky d) end.
Lemma add_sky_eq w ray beta acc : add_sky w ray beta acc = sadd acc (smul beta (sky_light w (direction ray))).
Proof.
  unfold add_sky, sky_light. destruct (w_sky w) as [f|].
  - f_equal. unfold smul, sscale. cbn [red green blue]. f_equal; ring.
  - destruct acc as [a1 a2 a3]. unfold sadd, smul, BLACK, gray. cbn [red green blue]. f_equal; ring.
Qed.
Lemma no_local {G} (gen : G -> R * G) (gi : G -> nat * G) N wf lf w m i g n : lights (w_scene w) = [] -> distant_lights (w_scene w) = [] -> 
  get_local_illumination gen gi N wf lf w m i g n = Ok (Some (BLACK, g)).
Proof.
  intros E1 E2. unfold get_local_illumination. rewrite E1, E2. cbn [app length]. repeat f_equal. unfold sdiv, BLACK, gray. cbn [red green blue]. f_equal; unfold Rdiv; ring.
Qed.
Lemma smul_black b : smul b BLACK = BLACK. Proof. unfold smul, BLACK, gray. cbn [red green blue]. f_equal; ring. Qed.
Lemma sadd_black_r a : sadd a BLACK = a. Proof. destruct a as [a1 a2 a3]. unfold sadd, BLACK, gray. cbn [red green blue]. f_equal; ring. Qed.

(** A path in a dark scene ends in nothing, or it ends in the sky: then it returns what the sky sends along a direction of length one, in
    proportions of the colours that keep the radiance of white light. *)
Lemma path_dark {G} (gen : G -> R * G) gi N wf wardf lf w ns : draws01 gen -> sound N wf w -> dark w ->
  forall budget depth ray prob beta coef sp acc g, vlen (direction ray) = 1 -> nonneg beta -> radiance beta = 1 ->
  exists c g', trace_loop gen gi N wf wardf lf w ns budget depth ray prob beta coef sp acc g = Ok (Some (c, g')) /\
   (c = acc \/ exists b d, nonneg b /\ radiance b = 1 /\ vlen d = 1 /\ c = sadd acc (smul b (sky_light w d))) /\
   (scene_cast_ray N (w_state w) wf ray = Ok None -> c = sadd acc (smul beta (sky_light w (direction ray)))).
Proof.
  intros D So (L1 & L2 & Nl). induction budget as [|budget IH]; intros depth ray prob beta coef sp acc g L Nb Rb; cbn [trace_loop].
  all: destruct (So ray L) as (r & Er & Hr); rewrite Er; cbn [bind]; destruct r as [[k inter]|].
  2,4: rewrite L2; cbn [distant_loop bind]; do 2 eexists; split; [reflexivity|]; rewrite add_sky_eq; split; [right; exists beta, (direction ray); auto|reflexivity].
  all: cbn [snd] in Hr; destruct Hr as (A & m & Hm & Pm & Im); rewrite Hm; cbn [bind]; rewrite (proj1 (Forall_forall _ _) Nl m Im).
  - destruct (specular_only m); [|rewrite no_local by assumption]; cbn [bind]; do 2 eexists; (split; [reflexivity|]); (split; [left; try reflexivity; rewrite smul_black, sadd_black_r; reflexivity|discriminate]).
  - assert (Lc : (if specular_only m then Ok (Some (acc, g)) else do l <- get_local_illumination gen gi N wf lf w m inter g (if (depth =? 0)%nat then ns else 1%nat); Ok (match l with None => None | Some (local, rng) => Some (sadd acc (smul beta local), rng) end)) = Ok (Some (acc, g))).
    { destruct (specular_only m); [reflexivity|]. rewrite no_local by assumption. cbn [bind]. rewrite smul_black, sadd_black_r. reflexivity. }
    rewrite Lc. cbn [bind]. destruct (C92_passive G gen wardf m (direction ray) inter coef g D A Pm) as ([s|] & i' & e' & g' & -> & Q); cbn [bind].
    2: { do 2 eexists. split; [reflexivity|]. split; [left; reflexivity|discriminate]. }
    destruct Q as (Lw & Ii & Ch). rewrite Ii. fold (normal_of inter). change (sdiv (sscale (b_spectrum s) (Rabs (vdot (normal_of inter) (b_wi s)))) (b_pdf s)) with (factor inter s).
    destruct (passive_factor beta (factor inter s) Nb ltac:(lra) Ch) as (Nb' & R0 & R1). set (beta' := smul beta (factor inter s)) in *. clearbody beta'.
    pose proof (D g') as Fg. destruct (gen g') as [aux g'']. cbn [fst] in Fg.
    destruct (Rltb_spec aux (Rmax (1 - radiance beta') 0)) as [Q|Q].
    { do 2 eexists. split; [reflexivity|]. split; [left; reflexivity|discriminate]. }
    assert (R2 : radiance beta' <= 1) by lra. destruct (roulette_beta beta' aux Nb' R2 Fg Q) as (N2 & R3).
    destruct (IH (S depth) (mkRay (it_point i') (b_wi s)) (b_pdf s) _ e' (is_specular s) acc g'' Lw N2 R3) as (c & g3 & E & Hc & _).
    exists c, g3. split; [exact E|]. split; [exact Hc|discriminate].
Qed.

(** C95: in a scene without lights whose materials are passive, under a sky that sends at most [b] in every colour, a path terminates and
    returns nothing negative and no more than the sky; what sees the sky directly shows exactly the sky; a uniform white sky is returned
    entirely or not at all. *)
Theorem C95_sky : forall G (gen : G -> R * G) gi N wf wardf lf w max_depth ns b g ray, draws01 gen -> sound N wf w -> dark w -> vlen (direction ray) = 1 ->
  (forall d, vlen d = 1 -> channels (fun v => 0 <= v <= b) (sky_light w d)) ->
  exists c g', trace_ray gen gi N wf wardf lf w max_depth ns g ray = Ok (Some (c, g')) /\ nonneg c /\ radiance c <= b /\
    (scene_cast_ray N (w_state w) wf ray = Ok None -> c = sky_light w (direction ray)) /\
    ((forall d, vlen d = 1 -> sky_light w d = gray b) -> radiance c = 0 \/ radiance c = b).
Proof.
  intros G gen gi N wf wardf lf w max_depth ns b g ray D So Dk L Sk.
  assert (No : nonneg ONE /\ radiance ONE = 1) by (unfold nonneg, radiance, ONE, gray; cbn; lra).
  assert (b0 : 0 <= b). { destruct (Sk _ L) as ((X & Y) & _). lra. }
  destruct (path_dark gen gi N wf wardf lf w ns D So Dk max_depth 0 ray 1 ONE 1 true BLACK g L (proj1 No) (proj2 No)) as (c & g' & E & Hc & Hm).
  exists c, g'. split; [exact E|].
  assert (Cs : c = BLACK \/ exists bt d, nonneg bt /\ radiance bt = 1 /\ vlen d = 1 /\ c = smul bt (sky_light w d)).
  { destruct Hc as [Hc|(bt & d & H1 & H2 & H3 & H4)]; [left; exact Hc|]. right. exists bt, d. rewrite sadd_black_l in H4. auto. }
  assert (Bk : nonneg BLACK /\ radiance BLACK = 0) by (unfold nonneg, radiance, BLACK, gray; cbn; lra).
  split; [|split; [|split]].
  - destruct Cs as [->|(bt & d & (B1 & B2 & B3) & H2 & H3 & ->)]; [apply Bk|]. destruct (Sk d H3) as ((c1 & c2) & (c3 & c4) & (c5 & c6)). unfold nonneg, smul. cbn [red green blue]. repeat split; apply Rmult_le_pos; assumption.
  - destruct Cs as [->|(bt & d & (B1 & B2 & B3) & H2 & H3 & ->)]; [rewrite (proj2 Bk); exact b0|]. destruct (Sk d H3) as ((c1 & c2) & (c3 & c4) & (c5 & c6)).
    unfold radiance, smul in *. cbn [red green blue]. set (S := sky_light w d) in *.
    assert (red bt * red S <= red bt * b) by nra. assert (green bt * green S <= green bt * b) by nra. assert (blue bt * blue S <= blue bt * b) by nra. nra.
  - intros Hn. rewrite (Hm Hn), sadd_black_l. apply smul_one.
  - intros U. destruct Cs as [->|(bt & d & H1 & H2 & H3 & ->)]; [left; apply Bk|]. right. rewrite (U d H3). unfold radiance, smul, gray in *. cbn [red green blue] in *. nra.
Qed.

(** C95 for what the program shows: the mean of the paths that start along a ray *)
Theorem C95_mean : forall G (gen : G -> R * G) gi N wf wardf lf w max_depth ns na b g ray, draws01 gen -> sound N wf w -> dark w -> vlen (direction ray) = 1 ->
  (forall d, vlen d = 1 -> channels (fun v => 0 <= v <= b) (sky_light w d)) -> (0 < na)%nat ->
  exists c g', trace_all_rays gen gi N wf wardf lf w max_depth ns na g ray = Ok (Some (c, g')) /\ nonneg c /\ radiance c <= b /\
    (scene_cast_ray N (w_state w) wf ray = Ok None -> c = sky_light w (direction ray)).
Proof.
  intros G gen gi N wf wardf lf w max_depth ns na b g ray D So Dk L Sk Na. unfold trace_all_rays. set (n := if (max_depth =? 0)%nat then 1%nat else na).
  assert (Pn : (0 < n)%nat) by (unfold n; destruct (max_depth =? 0)%nat; lia). assert (In : 0 < INR n) by (apply lt_0_INR; exact Pn).
  assert (Lp : forall k acc g, nonneg acc -> exists c g', sum_rays gen gi N wf wardf lf w max_depth ns k ray acc g = Ok (Some (c, g')) /\ nonneg c /\ radiance c <= radiance acc + INR k * b /\
     (scene_cast_ray N (w_state w) wf ray = Ok None -> c = sadd acc (sscale (sky_light w (direction ray)) (INR k)))).
  { induction k as [|k IH]; intros acc g0 Na0.
    - exists acc, g0. split; [reflexivity|]. split; [exact Na0|]. split; [cbn [INR]; lra|]. intros _. destruct acc as [a1 a2 a3]. unfold sadd, sscale. cbn [red green blue INR]. f_equal; ring.
    - cbn [sum_rays]. destruct (C95_sky G gen gi N wf wardf lf w max_depth ns b g0 ray D So Dk L Sk) as (c & g1 & -> & Nc & Rc & Mc & _). cbn [bind].
      destruct (IH (sadd acc c) g1) as (c2 & g2 & E2 & N2 & R2 & M2); [apply nonneg_add; assumption|]. exists c2, g2. split; [exact E2|]. split; [exact N2|]. split.
      + rewrite radiance_add in R2. rewrite S_INR. lra.
      + intros Hn. rewrite (M2 Hn), (Mc Hn). rewrite S_INR. unfold sadd, sscale. cbn [red green blue]. f_equal; ring. }
  destruct (Lp n BLACK g) as (c & g' & -> & Nc & Rc & Mc); [unfold nonneg, BLACK, gray; cbn; lra|]. cbn [bind]. do 2 eexists. split; [reflexivity|].
  split; [apply nonneg_div; assumption|]. split.
  - rewrite radiance_div. change BLACK with (gray 0) in Rc. rewrite radiance_gray in Rc. apply Rmult_le_reg_r with (INR n); [exact In|]. unfold Rdiv. rewrite Rmult_assoc, Rinv_l by lra. lra.
  - intros Hn. rewrite (Mc Hn), sadd_black_l. destruct (sky_light w (direction ray)) as [s1 s2 s3]. unfold sdiv, sscale. cbn [red green blue]. f_equal; field; lra.
Qed.

(** C95 for buildings: rays in the scene of any plausible building never return more than the brightest part of the sky. *)
Theorem C95_building : forall bl scene owner s N fuel G (gen : G -> R * G) gi wardf lf max_depth ns na sky colour b g ray,
  build_scene bl Solar = Ok (scene, owner) -> (forall name o, In (name, Normal o) (substances bl) -> plausible o) -> manageable (geom scene) -> reorders s ->
  (2 * length (triangles (geom scene)) <= fuel)%nat -> (length (triangles (geom scene)) <= N + 1)%nat -> draws01 gen -> (0 < na)%nat -> vlen (direction ray) = 1 ->
  (forall d, vlen d = 1 -> 0 <= sky d <= b) -> (match colour with None => True | Some c => channels (fun v => 0 <= v <= 1) c end) ->
  exists mapping scene' nodes, build_accelerator s (geom scene, None) = Ok (mapping, (scene', Some nodes)) /\
    let w := mkWorld (mkRScene scene' (mats scene) (lights scene) (distant_lights scene)) (Some nodes) (Some sky) colour in
    exists c g', trace_all_rays gen gi N fuel wardf lf w max_depth ns na g ray = Ok (Some (c, g')) /\ nonneg c /\ radiance c <= b.
Proof.
  intros bl scene owner s N fuel G gen gi wardf lf max_depth ns na sky colour b g ray E Pl Mg Rs F Nn D Na L Sk Sc.
  destruct (building_facts bl scene owner E Pl) as (W & Ed & Ix & Pm). destruct (C35_permutation s (geom scene) Rs W) as (mapping & scene' & nodes & B & _).
  exists mapping, scene', nodes. split; [exact B|]. intros w.
  assert (So : sound N fuel w) by (eapply sound_built; eassumption).
  destruct (C93_scene bl) as (H1 & H2). destruct (H1 _ _ E) as (parts & Fa). destruct (H2 _ Fa) as (sc' & owner' & E' & _ & _ & M & _ & _ & _ & _ & L1 & L2). rewrite E in E'. injection E' as <- <-.
  assert (Dk : dark w).
  { split; [exact L1|]. split; [exact L2|]. cbn [mats w_scene w]. rewrite M. apply Forall_forall. intros m I. apply in_concat in I as (l & I1 & I2). apply in_map_iff in I1 as (part & <- & _).
    destruct I2 as [<-|[<-|[]]]; apply solar_dark. }
  destruct (C95_mean G gen gi N fuel wardf lf w max_depth ns na b g ray D So Dk L) as (c & g' & Ec & Nc & Rc & _); [|exact Na|exists c, g'; auto].
  intros d Ld. destruct (Sk d Ld) as (S1 & S2). unfold sky_light. cbn [w_sky w_sky_colour w]. destruct colour as [[c1 c2 c3]|]; unfold channels, sscale, gray in *; cbn [red green blue] in *.
  - destruct Sc as ((x1 & x2) & (x3 & x4) & (x5 & x6)). repeat split; nra.
  - lra.
Qed.

(** The hypotheses of C95 hold for the house of [C93_example], under a white sky. *)
Example C95_example : exists bl scene owner, build_scene bl Solar = Ok (scene, owner) /\ (forall name o, In (name, Normal o) (substances bl) -> plausible o) /\ manageable (geom scene) /\
  triangles (geom scene) <> [] /\ exists mapping scene' nodes, build_accelerator simple_reorder (geom scene, None) = Ok (mapping, (scene', Some nodes)) /\
  let w := mkWorld (mkRScene scene' (mats scene) (lights scene) (distant_lights scene)) (Some nodes) (Some (fun _ => 100)) None in
  exists c g', trace_all_rays (fun g : unit => (1 / 2, g)) (fun g => (0%nat, g)) 32 8 3 0 w 4 1 10 tt (mkRay (mkV 0 0 1) (mkV 0 0 1)) = Ok (Some (c, g')) /\ nonneg c /\ radiance c <= 100.
Proof.
  destruct C93_example as (scene & owner & E & L & _ & M & Pl). exists (house ["slab"%string] window_pane), scene, owner. split; [exact E|]. split; [exact Pl|]. split; [exact M|]. split; [intros Z; rewrite Z in L; discriminate|].
  apply (C95_building (house ["slab"%string] window_pane) scene owner simple_reorder 32 8 unit); try assumption; try exact reorders_exists; try (rewrite L; lia); try lia; try exact I.
  - apply const_draws01; lra.
  - apply vlen_of. unfold vlen2. cbn. ring.
  - intros d _. lra.
Qed.

(** ** C96: light from distant sources *)

(** The direction of a vector *)
Definition unit_of (d : pt) : pt := vscale d (1 / vlen d).
Lemma normalize_of d : 1 / 10 ^ 20 < vlen2 d -> vnormalize d = Ok (unit_of d) /\ vlen2 (unit_of d) = 1 /\ vlen (unit_of d) = 1.
Proof.
  intros H. assert (E : vnormalize d = Ok (unit_of d)) by (unfold vnormalize; rewrite (proj2 (Rltb_true (1 / 10 ^ 20) (vlen2 d))) by exact H; reflexivity).
  destruct (vnormalize_unit _ _ E) as (U & _). split; [exact E|]. split; [exact U|]. apply vlen_of. exact U.
Qed.
Lemma tiny20 : 1 / 10 ^ 20 < 1. Proof. apply Rmult_lt_reg_r with (10 ^ 20); [apply pow_lt; lra|]. unfold Rdiv. rewrite Rmult_1_l, Rinv_l by (apply pow_nonzero; lra). rewrite Rmult_1_l. apply Rlt_pow_R1; [lra|lia]. Qed.
(** A source that has a direction and an angle between 0 and 180 degrees *)
Definition proper_source (p : Primitive) : Prop :=
  match p with PSource d angle => 1 / 10 ^ 20 < vlen2 d /\ 0 < angle < PI | _ => False end.
Lemma half_angle a : 0 < a < PI -> 0 < cos (a / 2) < 1 /\ 0 < tan (a / 2) /\ (1 + (tan (a / 2)) ^ 2) * (cos (a / 2)) ^ 2 = 1.
Proof.
  intros (A & B). assert (C : 0 < cos (a / 2)) by (apply cos_gt_0; lra). assert (S : 0 < sin (a / 2)) by (apply sin_gt_0; lra).
  pose proof (sin2_cos2 (a / 2)) as SC. unfold Rsqr in SC. split; [split; [exact C|nra]|]. split; [apply tan_gt_0; lra|]. unfold tan. transitivity (cos (a / 2) * cos (a / 2) + sin (a / 2) * sin (a / 2)); [field; lra|lra].
Qed.

(** C96: a ray meets a distant source if and only if its direction is within half the angle; it always meets the back of it. *)
Theorem C96_cone : forall d angle ray, 1 / 10 ^ 20 < vlen2 d -> 0 < angle < PI -> vlen (direction ray) = 1 ->
  (cos (angle / 2) <= vdot (direction ray) (unit_of d) -> exists info, primitive_intersect (PSource d angle) ray = Ok (Some info) /\ i_side info = Back) /\
  (vdot (direction ray) (unit_of d) < cos (angle / 2) -> primitive_intersect (PSource d angle) ray = Ok None).
Proof.
  intros d angle ray Hd Ha L. destruct (normalize_of d Hd) as (En & U2 & U1). destruct (half_angle angle Ha) as ((C0 & C1) & T0 & _).
  assert (L2 : vlen2 (direction ray) = 1) by (rewrite <- vlen_sqr, L; ring).
  unfold primitive_intersect, source_new. rewrite En. cbn [bind]. unfold source_intersect. cbn [src_direction cos_half_alpha tan_half_alpha]. rewrite (normalize_unit _ L2). cbn [bind].
  split; intros H.
  - rewrite (proj2 (Rleb_true _ _) H). destruct (perpendicular_exists 1 Nat.lt_0_1 _ U1) as (e & ->). rewrite (normalize_unit _ U2). cbn [bind].
    rewrite (proj2 (Rleb_false (10 * tan (angle / 2)) 0)) by lra. unfold get_side. rewrite (vdot_comm (unit_of d)).
    rewrite (proj2 (Rltb_false (vdot (direction ray) (unit_of d)) 0)) by lra. rewrite (proj2 (Rltb_true 0 (vdot (direction ray) (unit_of d)))) by lra.
    eexists. split; reflexivity.
  - rewrite (proj2 (Rleb_false _ _)) by lra. reflexivity.
Qed.
(** C96: every direction that is drawn towards a distant source meets it. *)
Theorem C96_drawn : forall G (gen : G -> R * G) d angle g point, draws01 gen -> 1 / 10 ^ 20 < vlen2 d -> 0 < angle < PI ->
  exists wi g', light_sample_direction gen (PSource d angle) g point = Ok (wi, g') /\ vlen wi = 1 /\ cos (angle / 2) <= vdot wi (unit_of d).
Proof.
  intros G gen d angle g point D Hd Ha. destruct (normalize_of d Hd) as (En & U2 & U1). destruct (half_angle angle Ha) as ((C0 & C1) & T0 & TC).
  unfold light_sample_direction, source_new. pose proof (gen2_random gen g D) as Ru. destruct (gen2 gen g) as [u g']. cbn [fst] in Ru.
  rewrite En. cbn [bind src_direction src_angle]. rewrite (normalize_unit _ U2). cbn [bind].
  destruct (C42_tilted_disc u (tan (angle / 2)) (vadd point (unit_of d)) (unit_of d) Ru ltac:(lra) U2) as (q & -> & Q1 & Q2). cbn [bind].
  set (c := vadd point (unit_of d)) in *. set (r := vsub q c) in *. set (t := tan (angle / 2)) in *. set (co := cos (angle / 2)) in *.
  assert (Ev : vsub q point = vadd (unit_of d) r) by (unfold r, c; vring).
  assert (R2 : vlen2 r <= t ^ 2). { rewrite <- vlen_sqr. assert (0 <= vlen r) by (unfold vlen; apply sqrt_pos). nra. }
  assert (L2 : vlen2 (vsub q point) = 1 + vlen2 r). { rewrite Ev. transitivity (vlen2 (unit_of d) + vlen2 r + 2 * vdot r (unit_of d)); [vring|]. rewrite U2, Q1. ring. }
  assert (r0 : 0 <= vlen2 r) by apply vlen2_nonneg.
  assert (Big : 1 / 10 ^ 20 < vlen2 (vsub q point)) by (pose proof tiny20; lra).
  destruct (normalize_of _ Big) as (-> & V2 & V1). cbn [bind]. do 2 eexists. split; [reflexivity|]. split; [exact V1|].
  assert (Dt : vdot (unit_of (vsub q point)) (unit_of d) = 1 / vlen (vsub q point)).
  { unfold unit_of at 1. transitivity (vdot (vsub q point) (unit_of d) * (1 / vlen (vsub q point))); [vring|]. rewrite Ev at 1. replace (vdot (vadd (unit_of d) r) (unit_of d)) with (vlen2 (unit_of d) + vdot r (unit_of d)) by vring. rewrite U2, Q1. ring. }
  rewrite Dt. unfold vlen. rewrite L2. assert (P : 0 < sqrt (1 + vlen2 r)) by (apply sqrt_lt_R0; lra).
  apply Rmult_le_reg_r with (sqrt (1 + vlen2 r)); [exact P|]. unfold Rdiv. rewrite Rmult_1_l, Rinv_l by lra.
  assert (Sq : sqrt (1 + vlen2 r) <= 1 / co). { rewrite <- (sqrt_square (1 / co)) by (apply Rlt_le, Rdiv_lt_0_compat; lra). apply sqrt_le_1_alt. apply Rmult_le_reg_r with (co ^ 2); [nra|].
    replace (1 / co * (1 / co) * co ^ 2) with 1 by (field; lra). nra. }
  apply Rle_trans with (co * (1 / co)); [apply Rmult_le_compat_l; lra|]. right. field. lra.
Qed.

(** The solid angle of a source *)
Definition solid_angle (angle : R) : R := 2 * PI * (1 - cos (angle / 2)).
(** Every question about an obstruction is answered. *)
Definition answers (N fuel : nat) (w : World) : Prop := forall ray dist, exists b, scene_unobstructed_distance N (w_state w) ray dist fuel = Ok b.
Lemma answers_built s scene N fuel mapping scene' nodes ms ls ds sky colour : reorders s -> well_formed scene -> manageable scene ->
  build_accelerator s (scene, None) = Ok (mapping, (scene', Some nodes)) -> (2 * length (triangles scene) <= fuel)%nat -> (length (triangles scene) <= N + 1)%nat ->
  answers N fuel (mkWorld (mkRScene scene' ms ls ds) (Some nodes) sky colour).
Proof.
  intros Rs W M B F Nn ray D. unfold scene_unobstructed_distance, w_state. cbn [fst snd w_nodes w_scene geom]. destruct (triangles scene) as [|t0 ts0] eqn:Et.
  - unfold build_accelerator, tree_new in B. cbn [fst snd] in B. rewrite Et in B. cbn [bind] in B. injection B as <- <- <-. exists true. reflexivity.
  - rewrite <- Et in *. destruct (tree_new_spec s scene Rs W) as (root & l & sc & E & P & Sh & H & Hl & R1 & _); [congruence|].
    unfold build_accelerator in B. cbn [fst snd] in B. rewrite E in B. cbn [bind] in B. injection B as <- <- <-.
    destruct (manageable_fits _ _ _ M P Sh) as (Hf & Hs). destruct (shape_size _ _ _ Sh) as (Z1 & Z2).
    assert (Ll : length l = length (triangles scene)). { destruct (infos_of_indexed (triangles scene)) as (_ & Bq & _). rewrite <- Bq. symmetry. now apply Permutation_length. }
    assert (Hn : forall A (x y : A), (match flatten_node root 0 with [] => x | _ => y end) = y) by (intros; destruct root; reflexivity).
    unfold unobstructed_distance. rewrite Hn.
    destruct (walk_root (block_leaf (triangles sc) ray D) ray N root fuel true Hs Hf) as [(Hw & HN)|Hw]; [lia|lia|]. rewrite Hw. eexists. reflexivity.
Qed.

(** The lights are distant sources with materials, and no material has a negative colour. *)
Definition sunny (w : World) : Prop :=
  lights (w_scene w) = [] /\
  Forall (fun o => proper_source (o_primitive o) /\ (o_front o < length (mats (w_scene w)))%nat /\ (o_back o < length (mats (w_scene w)))%nat) (distant_lights (w_scene w)) /\
  Forall (fun m => nonneg (colour_of m)) (mats (w_scene w)).

Lemma solid_angle_pos a : 0 < a < PI -> 0 < solid_angle a.
Proof. intros H. destruct (half_angle a H) as ((C0 & C1) & _). pose proof PI_RGT_0. unfold solid_angle. apply Rmult_lt_0_compat; lra. Qed.

(** What a ray sees of a source: nothing outside of the cone; darkness if there is something in between; otherwise the colour of the back *)
Lemma intersect_source N fuel w o d angle ray : o_primitive o = PSource d angle -> 1 / 10 ^ 20 < vlen2 d -> 0 < angle < PI -> vlen (direction ray) = 1 -> answers N fuel w -> (o_back o < length (mats (w_scene w)))%nat ->
  (vdot (direction ray) (unit_of d) < cos (angle / 2) /\ intersect_light N fuel w o ray = Ok None) \/
  (cos (angle / 2) <= vdot (direction ray) (unit_of d) /\ 
   (intersect_light N fuel w o ray = Ok (Some (BLACK, 0)) /\ scene_unobstructed_distance N (w_state w) ray (vlen2 (vsub (origin ray) (project ray fmax))) fuel = Ok false \/
    exists m, nth_error (mats (w_scene w)) (o_back o) = Some m /\ intersect_light N fuel w o ray = Ok (Some (colour_of m, 1 / solid_angle angle)) /\
      scene_unobstructed_distance N (w_state w) ray (vlen2 (vsub (origin ray) (project ray fmax))) fuel = Ok true)).
Proof.
  intros Eo Hd Ha L An Ix. destruct (C96_cone d angle ray Hd Ha L) as (H1 & H2). unfold intersect_light. rewrite Eo.
  destruct (Rlt_le_dec (vdot (direction ray) (unit_of d)) (cos (angle / 2))) as [Q|Q]; [left|right]; (split; [exact Q|]).
  - rewrite (H2 Q). reflexivity.
  - destruct (H1 Q) as (info & Ei & Si). 
    assert (Ep : i_p info = project ray fmax).
    { revert Ei. unfold primitive_intersect, source_new. destruct (normalize_of d Hd) as (-> & U2 & U1). cbn [bind]. unfold source_intersect. cbn [src_direction cos_half_alpha tan_half_alpha].
      destruct (vnormalize (direction ray)) as [dd| |]; cbn [bind]; try discriminate. destruct (Rleb _ _); [|discriminate]. destruct (get_perpendicular _); try discriminate. rewrite (normalize_unit _ U2). cbn [bind]. destruct (Rleb _ _); [discriminate|].
      destruct (get_side _ _) as [nn sd]. intros Z. injection Z as <-. reflexivity. }
    rewrite Ei. cbn [bind]. rewrite Ep. destruct (An ray (vlen2 (vsub (origin ray) (project ray fmax)))) as (b & Eb). rewrite Eb. cbn [bind]. destruct b; cbn [negb].
    + right. rewrite Si. destruct (nth_error (mats (w_scene w)) (o_back o)) as [m|] eqn:Em; [|apply nth_error_None in Em; lia]. exists m. split; [reflexivity|]. unfold solid_angle_pdf, source_new. destruct (normalize_of d Hd) as (-> & _). cbn [bind cos_half_alpha]. split; reflexivity.
    + left. split; reflexivity.
Qed.

(** Matte materials, the only passive ones that the ray tracer lights directly *)
Lemma matte_eval m d i wi : arrives d i -> passive m -> emits_light m = false -> specular_only m = false -> vlen wi = 1 ->
  exists bsdf pdf, eval_bsdf m (normal_of i) (i_dpdu (it_info i)) (i_dpdv (it_info i)) (it_wo i) wi = Ok bsdf /\
    material_pdf m (normal_of i) (i_dpdu (it_info i)) (i_dpdv (it_info i)) wi (it_wo i) = Ok pdf /\ nonneg bsdf /\ 0 <= pdf <= 1 / PI /\
    bsdf = (if Rltb 0 (vdot (normal_of i) wi) then sdiv (colour_of m) PI else BLACK).
Proof.
  intros A P Em Sm Lw. destruct (arrives_frame d i A) as (Fr & Dn & Ld). destruct A as (A1 & A2 & A3). pose proof PI_RGT_0 as Pi.
  assert (Wo : vz (to_local (normal_of i) (i_dpdu (it_info i)) (i_dpdv (it_info i)) (it_wo i)) = - vdot d (normal_of i)) by (rewrite A2; unfold to_local; cbn [vz]; vring).
  assert (Wi : vz (to_local (normal_of i) (i_dpdu (it_info i)) (i_dpdv (it_info i)) wi) = vdot (normal_of i) wi) by (unfold to_local; cbn [vz]; apply vdot_comm).
  set (lo := to_local (normal_of i) (i_dpdu (it_info i)) (i_dpdv (it_info i)) (it_wo i)) in *. set (li := to_local (normal_of i) (i_dpdu (it_info i)) (i_dpdv (it_info i)) wi) in *.
  assert (N2 : vlen2 (normal_of i) = 1) by apply Fr.
  assert (Cs : forall v, vlen2 v = 1 -> Rabs (vdot (normal_of i) v) <= 1).
  { intros v Hv. pose proof (lagrange (normal_of i) v) as Lg. rewrite N2, Hv in Lg. assert (0 <= vlen2 (vcross (normal_of i) v)) by apply vlen2_nonneg. 
    assert ((vdot (normal_of i) v) ^ 2 <= 1) by lra. apply Rabs_le. nra. }
  assert (Sh : same_hemisphere lo li = Rltb 0 (vdot (normal_of i) wi)).
  { unfold same_hemisphere. rewrite Wo, Wi. destruct (Rltb_spec 0 (vdot (normal_of i) wi)) as [Q|Q]; [apply Rltb_true|apply Rltb_false]; nra. }
  assert (Sh' : same_hemisphere li lo = Rltb 0 (vdot (normal_of i) wi)) by (rewrite <- Sh; unfold same_hemisphere; rewrite Rmult_comm; reflexivity).
  assert (Bi : Rabs (vz li) <= 1) by (rewrite Wi; apply Cs; rewrite <- vlen_sqr, Lw; ring).
  assert (Bo : Rabs (vz lo) <= 1) by (rewrite Wo, Rabs_Ropp, vdot_comm; apply Cs; exact Ld).
  assert (Ip : 0 < / PI) by (apply Rinv_0_lt_compat; exact Pi).
  assert (Bd : forall x, Rabs x <= 1 -> 0 <= Rabs x / PI <= 1 / PI). { intros x Hx. pose proof (Rabs_pos x). split; [apply Rmult_le_pos; lra|]. apply Rmult_le_compat_r; lra. }
  assert (Cn : passive m -> nonneg (colour_of m)).
  { destruct m; cbn [passive colour_of]; try discriminate; try tauto; intros Q; unfold channels, nonneg in *; lra. }
  assert (Cd : nonneg (if Rltb 0 (vdot (normal_of i) wi) then sdiv (colour_of m) PI else BLACK)) by (destruct (Rltb _ _); [apply nonneg_div; [apply Cn; exact P|exact Pi]|unfold nonneg, BLACK, gray; cbn; lra]).
  assert (W0 : forall r a b, evaluate_ward 0 r r a b = Ok (if same_hemisphere a b then (0, 1 / PI) else (0, 0))).
  { intros r a b. unfold evaluate_ward. destruct (same_hemisphere a b); cbn [negb]; [|reflexivity]. assert (T5 : 0 < 1 / 10 ^ 5) by (apply Rdiv_lt_0_compat; [lra|apply pow_lt; lra]). rewrite (proj2 (Rltb_false (1 / 10 ^ 5) 0)) by lra. cbn [bind]. f_equal. f_equal; [unfold Rdiv; ring|f_equal; ring]. }
  assert (Wp : forall r a b, ward_pdf 0 r r a b = Ok (if same_hemisphere a b then Rabs (vz a) / PI else 0)).
  { intros r a b. unfold ward_pdf. rewrite W0. destruct (same_hemisphere a b); cbn [negb bind]; [|reflexivity]. f_equal. unfold Rdiv. ring. }
  destruct m as [c sp ro|c sp ro|c|c|c|c n|c n]; cbn [passive emits_light specular_only] in *; try discriminate; cbn [eval_bsdf material_pdf]; fold lo; fold li.
  - destruct P as (-> & P). rewrite W0, Wp, Sh, Sh'. exists (if Rltb 0 (vdot (normal_of i) wi) then sdiv c PI else BLACK), (if Rltb 0 (vdot (normal_of i) wi) then Rabs (vz li) / PI else 0).
    split; [|split; [reflexivity|split; [exact Cd|split; [destruct (Rltb _ _); [apply Bd; exact Bi|lra]|reflexivity]]]].
    destruct (Rltb 0 _); cbn [bind]; f_equal; destruct c as [c1 c2 c3]; unfold sadd, sscale, sdiv, gray, BLACK; cbn [red green blue]; unfold gray; f_equal; unfold Rdiv; ring.
  - destruct P as (-> & P). rewrite W0, Wp, Sh, Sh'. exists (if Rltb 0 (vdot (normal_of i) wi) then sdiv c PI else BLACK), (if Rltb 0 (vdot (normal_of i) wi) then Rabs (vz li) / PI else 0).
    split; [|split; [reflexivity|split; [exact Cd|split; [destruct (Rltb _ _); [apply Bd; exact Bi|lra]|reflexivity]]]].
    destruct (Rltb 0 _); cbn [bind]; f_equal; destruct c as [c1 c2 c3]; unfold sadd, sscale, sdiv, gray, BLACK; cbn [red green blue]; unfold gray; f_equal; unfold Rdiv; ring.
  - unfold diffuse_eval, diffuse_pdf, abs_cos_theta. rewrite Sh, Sh'. do 2 eexists. split; [reflexivity|]. split; [reflexivity|]. split; [exact Cd|]. split; [destruct (Rltb _ _); [apply Bd; exact Bo|lra]|reflexivity].
Qed.

(** C96: what is lit directly is never negative, and the loop that draws the shadow rays ends after as many turns as there are samples. *)
Lemma shadow_total {G} (gen : G -> R * G) N fuel w o p m d i point n : draws01 gen -> answers N fuel w -> proper_source (o_primitive o) ->
  (o_back o < length (mats (w_scene w)))%nat -> Forall (fun m => nonneg (colour_of m)) (mats (w_scene w)) -> 0 < p ->
  arrives d i -> passive m -> emits_light m = false -> specular_only m = false ->
  forall left lf acc g, (left <= lf)%nat -> nonneg acc -> exists c g', shadow_loop gen N fuel w lf o p m i point n left acc g = Ok (Some (c, g')) /\ nonneg c.
Proof.
  intros D An Ps Ix Cn Pp A P Em Sm. destruct (o_primitive o) as [|sd angle| |] eqn:Eo; try contradiction. destruct Ps as (Hd & Ha).
  destruct (half_angle _ Ha) as ((C0 & C1) & _). destruct (normalize_of _ Hd) as (En & U2 & U1).
  induction left as [|left IH]; intros lf acc g F Na; (destruct lf as [|lf]; [try lia|]); cbn [shadow_loop]; try (do 2 eexists; split; [reflexivity|exact Na]).
  assert (Dr : exists wi g', (if (1 <? n)%nat then light_sample_direction gen (o_primitive o) g point else do d0 <- light_direction (o_primitive o) point; Ok (d0, g)) = Ok (wi, g') /\ vlen wi = 1 /\ cos (angle / 2) <= vdot wi (unit_of sd)).
  { rewrite Eo. destruct (1 <? n)%nat; [apply C96_drawn; assumption|]. unfold light_direction, source_new. rewrite En. cbn [bind src_direction]. do 2 eexists. split; [reflexivity|]. split; [exact U1|]. change (vdot (unit_of sd) (unit_of sd)) with (vlen2 (unit_of sd)). lra. }
  destruct Dr as (wi & g' & -> & Lw & Cw). cbn [bind].
  destruct (intersect_source N fuel w o sd angle (mkRay point wi) Eo Hd Ha Lw An Ix) as [(Bad & _)|(_ & [(-> & _)|(ml & Eml & -> & _)])]; [cbn [direction] in Bad; lra| |]; cbn [bind].
  - rewrite (proj2 (Rltb_true 0 (1 / 10 ^ 18))) by (apply Rdiv_lt_0_compat; [lra|apply pow_lt; lra]). apply IH; [lia|exact Na].
  - destruct (Rltb (1 / solid_angle angle) (1 / 10 ^ 18)); [apply IH; [lia|exact Na]|].
    destruct (matte_eval m d i wi A P Em Sm Lw) as (bsdf & pdf & Eb & Ep & Nb & (p0 & p1) & _). fold (normal_of i). rewrite Eb. cbn [bind]. rewrite Ep. cbn [bind]. apply IH; [lia|].
    pose proof (solid_angle_pos _ Ha) as Sa. apply nonneg_add; [exact Na|]. apply nonneg_div; [|apply Rmult_lt_0_compat; [apply Rdiv_lt_0_compat; lra|exact Pp]].
    assert (Nl : nonneg (colour_of ml)) by (apply (proj1 (Forall_forall _ _) Cn); eapply nth_error_In; exact Eml). 
    assert (Wt : 0 <= power_heuristic n (1 / solid_angle angle * p) 1 pdf).
    { unfold power_heuristic. cbv zeta. set (x := INR n * _). set (y := INR 1 * pdf). destruct (Req_dec (x * x + y * y) 0) as [Z|Z].
      - rewrite Z. unfold Rdiv. assert (x * x = 0) by (pose proof (Rle_0_sqr x); pose proof (Rle_0_sqr y); unfold Rsqr in *; lra). rewrite H. lra.
      - pose proof (Rle_0_sqr x); pose proof (Rle_0_sqr y); unfold Rsqr in *. apply Rmult_le_pos; [lra|]. apply Rlt_le, Rinv_0_lt_compat. lra. }
    pose proof (Rabs_pos (vdot (normal_of i) wi)) as Ab. revert Nl Nb Wt Ab. generalize (Rabs (vdot (normal_of i) wi)) (power_heuristic n (1 / solid_angle angle * p) 1 pdf). intros x y (l1 & l2 & l3) (b1 & b2 & b3) Hy Hx.
    unfold nonneg, sscale, smul. cbn [red green blue]. repeat split; repeat apply Rmult_le_pos; assumption.
Qed.
Lemma local_total {G} (gen : G -> R * G) gi N fuel lf w m d i g n : draws01 gen -> answers N fuel w -> sunny w -> (0 < n <= lf)%nat ->
  arrives d i -> passive m -> emits_light m = false -> specular_only m = false ->
  exists c g', get_local_illumination gen gi N fuel lf w m i g n = Ok (Some (c, g')) /\ nonneg c.
Proof.
  intros D An (L1 & Ds & Cn) (n0 & nl) A P Em Sm. assert (In : 0 < INR n) by (apply lt_0_INR; exact n0).
  assert (Bk : nonneg (sdiv BLACK (INR n))) by (apply nonneg_div; [unfold nonneg, BLACK, gray; cbn; lra|exact In]).
  unfold get_local_illumination. destruct (length (lights (w_scene w) ++ distant_lights (w_scene w))) as [|ll] eqn:El; [do 2 eexists; split; [reflexivity|exact Bk]|].
  destruct (gi g) as [k g1]. destruct (C94_choice (w_scene w) k) as (_ & Ch). cbv zeta in Ch. destruct Ch as (o & -> & Io); [intros Z; rewrite Z in El; discriminate|].
  rewrite El in *. rewrite L1 in Io. cbn [app] in Io. apply nth_error_In in Io. destruct (proj1 (Forall_forall _ _) Ds o Io) as (Ps & _ & Ib).
  destruct (shadow_total gen N fuel w o (1 / INR (S ll)) m d i (vadd (it_point i) (vscale (i_normal (it_info i)) (1 / 1000))) n D An Ps Ib Cn) with (left := n) (lf := lf) (acc := BLACK) (g := g1) as (c & g2 & -> & Nc); try assumption.
  - apply Rdiv_lt_0_compat; [lra|apply lt_0_INR; lia].
  - unfold nonneg, BLACK, gray. cbn. lra.
  - cbn [bind]. do 2 eexists. split; [reflexivity|]. apply nonneg_div; assumption.
Qed.
Lemma distant_total N fuel w ray full prob : answers N fuel w -> vlen (direction ray) = 1 -> Forall (fun m => nonneg (colour_of m)) (mats (w_scene w)) ->
  forall ls beta acc, Forall (fun o => proper_source (o_primitive o) /\ (o_front o < length (mats (w_scene w)))%nat /\ (o_back o < length (mats (w_scene w)))%nat) ls -> nonneg beta -> nonneg acc ->
  exists c, distant_loop N fuel w ls ray full prob beta acc = Ok c /\ nonneg c.
Proof.
  intros An L Cn. induction ls as [|o ls IH]; intros beta acc Fo Nb Na; cbn [distant_loop]; [exists acc; auto|].
  inversion_clear Fo as [|? ? (Ps & _ & Ib) Fo']. destruct (o_primitive o) as [|sd angle| |] eqn:Eo; try contradiction. destruct Ps as (Hd & Ha). pose proof (solid_angle_pos _ Ha) as Sa.
  destruct (intersect_source N fuel w o sd angle ray Eo Hd Ha L An Ib) as [(_ & ->)|(_ & [(-> & _)|(m & Em & -> & _)])]; cbn [bind].
  - apply IH; assumption.
  - rewrite (proj2 (Rltb_false (1 / 10 ^ 18) 0)) by (apply Rlt_le, Rdiv_lt_0_compat; [lra|apply pow_lt; lra]). apply IH; assumption.
  - apply IH; [exact Fo'|exact Nb|]. destruct (Rltb _ _); [|exact Na]. apply nonneg_add; [exact Na|].
    assert (Nl : nonneg (colour_of m)) by (apply (proj1 (Forall_forall _ _) Cn); eapply nth_error_In; exact Em).
    assert (Wt : 0 <= (if full then 1 else power_heuristic 1 prob 1 (1 / solid_angle angle))).
    { destruct full; [lra|]. unfold power_heuristic. cbv zeta. clear x. set (x := INR 1 * prob). set (y := INR 1 * _). assert (y0 : 0 < y) by (unfold y; cbn [INR]; rewrite Rmult_1_l; apply Rdiv_lt_0_compat; lra).
      pose proof (Rle_0_sqr x); pose proof (Rmult_lt_0_compat _ _ y0 y0); unfold Rsqr in *. apply Rmult_le_pos; [lra|]. apply Rlt_le, Rinv_0_lt_compat. lra. }
    destruct Nl as (l1 & l2 & l3), Nb as (b1 & b2 & b3). unfold nonneg, sscale, smul. cbn [red green blue]. repeat split; repeat apply Rmult_le_pos; assumption.
Qed.
(** C96: in a scene of passive materials lit by distant sources and the sky, every path terminates, whatever the random numbers, and nothing it
    returns is negative. *)
Theorem C96_total : forall G (gen : G -> R * G) gi N wf wardf lf w max_depth ns g ray, draws01 gen -> sound N wf w -> answers N wf w -> sunny w ->
  (0 < ns <= lf)%nat -> vlen (direction ray) = 1 -> (forall d, vlen d = 1 -> nonneg (sky_light w d)) ->
  exists c g', trace_ray gen gi N wf wardf lf w max_depth ns g ray = Ok (Some (c, g')) /\ nonneg c.
Proof.
  intros G gen gi N wf wardf lf w max_depth ns g ray D So An Sn Ns L Sk. unfold trace_ray.
  assert (Lcl : forall depth d inter beta acc m g, arrives d inter -> passive m -> emits_light m = false -> nonneg beta -> nonneg acc -> exists acc' g1,
    (if specular_only m then Ok (Some (acc, g)) else do l <- get_local_illumination gen gi N wf lf w m inter g (if (depth =? 0)%nat then ns else 1%nat); Ok (match l with None => None | Some (local, rng) => Some (sadd acc (smul beta local), rng) end)) = Ok (Some (acc', g1)) /\ nonneg acc').
  { intros depth d inter beta acc m g1 A Pm Em Nb Na. destruct (specular_only m) eqn:Sm; [do 2 eexists; split; [reflexivity|exact Na]|].
    destruct (local_total gen gi N wf lf w m d inter g1 (if (depth =? 0)%nat then ns else 1%nat) D An Sn ltac:(destruct (depth =? 0)%nat; lia) A Pm Em Sm) as (c & g2 & -> & (c1 & c2 & c3)). cbn [bind]. do 2 eexists. split; [reflexivity|]. apply nonneg_add; [exact Na|]. destruct Nb as (b1 & b2 & b3). unfold nonneg, smul. cbn [red green blue]. repeat split; apply Rmult_le_pos; assumption. }
  assert (Go : forall budget depth ray prob beta coef sp acc g, vlen (direction ray) = 1 -> nonneg beta -> radiance beta = 1 -> nonneg acc ->
    exists c g', trace_loop gen gi N wf wardf lf w ns budget depth ray prob beta coef sp acc g = Ok (Some (c, g')) /\ nonneg c).
  { clear ray L g max_depth. induction budget as [|budget IH]; intros depth ray prob beta coef sp acc g L Nb Rb Na; cbn [trace_loop].
    all: destruct (So ray L) as (r & Er & Hr); rewrite Er; cbn [bind]; destruct r as [[k inter]|].
    2,4: destruct (distant_total N wf w ray ((depth =? 0)%nat || sp) prob An L (proj2 (proj2 Sn)) _ beta acc (proj1 (proj2 Sn)) Nb Na) as (c & -> & Nc); cbn [bind]; do 2 eexists; split; [reflexivity|]; rewrite add_sky_eq; apply nonneg_add; [exact Nc|];
      destruct (Sk _ L) as (s1 & s2 & s3), Nb as (b1 & b2 & b3); unfold nonneg, smul; cbn [red green blue]; repeat split; apply Rmult_le_pos; assumption.
    all: cbn [snd] in Hr; destruct Hr as (A & m & Hm & Pm & Im); rewrite Hm; cbn [bind]; destruct (emits_light m) eqn:Em;
      [do 2 eexists; split; [reflexivity|]; destruct sp; [|exact Na]; apply nonneg_add; [exact Na|]; destruct (proj1 (Forall_forall _ _) (proj2 (proj2 Sn)) m Im) as (s1 & s2 & s3), Nb as (b1 & b2 & b3); unfold nonneg, smul; cbn [red green blue]; repeat split; apply Rmult_le_pos; assumption|].
    all: destruct (Lcl depth (direction ray) inter beta acc m g A Pm Em Nb Na) as (acc' & g1 & -> & Na'); cbn [bind].
    - do 2 eexists. split; [reflexivity|exact Na'].
    - destruct (C92_passive G gen wardf m (direction ray) inter coef g1 D A Pm) as ([s|] & i' & e' & g' & -> & Q); cbn [bind].
      2: { do 2 eexists. split; [reflexivity|exact Na']. }
      destruct Q as (Lw & Ii & Ch). rewrite Ii. fold (normal_of inter). change (sdiv (sscale (b_spectrum s) (Rabs (vdot (normal_of inter) (b_wi s)))) (b_pdf s)) with (factor inter s).
      destruct (passive_factor beta (factor inter s) Nb ltac:(lra) Ch) as (Nb' & R0 & R1). set (beta' := smul beta (factor inter s)) in *. clearbody beta'.
      pose proof (D g') as Fg. destruct (gen g') as [aux g'']. cbn [fst] in Fg.
      destruct (Rltb_spec aux (Rmax (1 - radiance beta') 0)) as [Q|Q]; [do 2 eexists; split; [reflexivity|exact Na']|].
      assert (R2 : radiance beta' <= 1) by lra. destruct (roulette_beta beta' aux Nb' R2 Fg Q) as (N2 & R3). apply IH; assumption. }
  apply Go; [exact L|unfold nonneg, ONE, gray; cbn; lra|unfold radiance, ONE, gray; cbn; lra|unfold nonneg, BLACK, gray; cbn; lra].
Qed.

(** C96: the sun on a matte surface.  One sample, and no path beyond the surface: the surface shows the radiance of the sun times its solid
    angle times the cosine of the angle of incidence times the reflectance, divided by pi, up to a weight that is as near to one as the sun is
    small; it is black if there is something in between or if the sun is behind it. *)
Theorem C96_sun : forall G (gen : G -> R * G) gi N wf wardf lf w o sd angle ml ray k inter m g, lights (w_scene w) = [] -> distant_lights (w_scene w) = [o] -> o_primitive o = PSource sd angle ->
  1 / 10 ^ 20 < vlen2 sd -> 0 < angle < PI -> nth_error (mats (w_scene w)) (o_back o) = Some ml -> answers N wf w ->
  scene_cast_ray N (w_state w) wf ray = Ok (Some (k, inter)) -> arrives (direction ray) inter -> hit_material (geom (w_scene w)) (mats (w_scene w)) (k, inter) = Ok (Some m) ->
  passive m -> emits_light m = false -> specular_only m = false ->
  let sun := unit_of sd in let point := vadd (it_point inter) (vscale (normal_of inter) (1 / 1000)) in
  exists c g', trace_ray gen gi N wf wardf (S lf) w 0 1 g ray = Ok (Some (c, g')) /\
    (scene_unobstructed_distance N (w_state w) (mkRay point sun) (vlen2 (vsub point (project (mkRay point sun) fmax))) wf = Ok true -> 0 < vdot (normal_of inter) sun ->
       exists weight, 1 - (solid_angle angle / PI) ^ 2 <= weight <= 1 /\ c = smul (colour_of ml) (sscale (colour_of m) (vdot (normal_of inter) sun * solid_angle angle / PI * weight))) /\
    (scene_unobstructed_distance N (w_state w) (mkRay point sun) (vlen2 (vsub point (project (mkRay point sun) fmax))) wf = Ok false \/ vdot (normal_of inter) sun <= 0 -> c = BLACK).
Proof.
  intros G gen gi N wf wardf lf w o sd angle ml ray k inter m g L1 L2 Eo Hd Ha Eml An Cr A Hm P Em Sm sun point.
  destruct (normalize_of _ Hd) as (En & U2 & U1). destruct (half_angle _ Ha) as ((C0 & C1) & _). pose proof PI_RGT_0 as Pi. pose proof (solid_angle_pos _ Ha) as Sa.
  assert (Sb : solid_angle angle < 2 * PI) by (unfold solid_angle; assert (2 * PI * cos (angle / 2) > 0) by (apply Rmult_lt_0_compat; lra); lra).
  assert (Ix : (o_back o < length (mats (w_scene w)))%nat) by (apply nth_error_Some; congruence).
  assert (Lz : forall acc g0, shadow_loop gen N wf w lf o (1 / INR 1) m inter point 1 0 acc g0 = Ok (Some (acc, g0))) by (intros; destruct lf; reflexivity).
  assert (Bk : sadd BLACK (smul ONE (sdiv BLACK (INR 1))) = BLACK) by (unfold sadd, smul, sdiv, BLACK, ONE, gray; cbn; f_equal; field).
  unfold trace_ray. cbn [trace_loop]. rewrite Cr. cbn [bind]. rewrite Hm. cbn [bind]. rewrite Em, Sm. cbn [Nat.eqb].
  unfold get_local_illumination. rewrite L1, L2. cbn [app length]. destruct (gi g) as [ki g1]. unfold sample_light_uniform. rewrite L1, L2. cbn [length Nat.add Nat.ltb Nat.leb].
  rewrite Nat.mod_1_r. cbn [nth_error Nat.sub]. cbn [shadow_loop Nat.ltb Nat.leb]. rewrite Eo. unfold light_direction at 1. unfold source_new at 1. rewrite En. cbn [bind src_direction]. fold sun. fold (normal_of inter). fold point.
  destruct (intersect_source N wf w o sd angle (mkRay point sun) Eo Hd Ha U1 An Ix) as [(Bad & _)|(_ & [(-> & Ob)|(ml' & Eml' & -> & Ob)])].
  { exfalso. cbn [direction] in Bad. fold sun in Bad. change (vdot sun sun) with (vlen2 sun) in Bad. unfold sun in Bad. rewrite U2 in Bad. lra. }
  - cbn [bind]. rewrite (proj2 (Rltb_true 0 (1 / 10 ^ 18))) by (apply Rdiv_lt_0_compat; [lra|apply pow_lt; lra]). rewrite Lz. cbn [bind]. do 2 eexists. split; [reflexivity|].
    cbn [origin] in Ob. rewrite Ob. split; [discriminate|]. intros _. exact Bk.
  - cbn [bind]. rewrite Eml in Eml'. injection Eml' as <-. cbn [origin] in Ob. rewrite Ob.
    rewrite (proj2 (Rltb_false _ _)). 2: { apply Rmult_le_compat_l; [lra|]. apply Rinv_le_contravar; [exact Sa|]. assert (PI <= 4) by apply PI_4. assert (10 <= 10 ^ 18) by (rewrite <- (pow_1 10) at 1; apply Rle_pow; [lra|lia]). lra. }
    destruct (matte_eval m (direction ray) inter sun A P Em Sm U1) as (bsdf & pdf & -> & -> & Nb & (p0 & p1) & Bs). cbn [bind].
    rewrite Lz. cbn [bind]. do 2 eexists. split; [reflexivity|].
    set (Om := solid_angle angle) in *. set (wt := power_heuristic 1 (1 / Om * (1 / INR 1)) 1 pdf).
    split.
    + intros _ F. rewrite Bs, (proj2 (Rltb_true _ _) F), (Rabs_right (vdot (normal_of inter) sun)) by lra. exists wt. split.
      * unfold wt, power_heuristic. cbv zeta. cbn [INR]. replace (1 * (1 / Om * (1 / 1))) with (/ Om) by (field; lra). rewrite Rmult_1_l.
        assert (Io : 0 < / Om) by (apply Rinv_0_lt_compat; exact Sa). assert (Q : 0 < / Om * / Om + pdf * pdf) by (assert (0 < / Om * / Om) by (apply Rmult_lt_0_compat; lra); assert (0 <= pdf * pdf) by (apply Rmult_le_pos; lra); lra).
        assert (Pd : pdf * pdf <= 1 / PI * (1 / PI)) by (apply Rmult_le_compat; lra). assert (Pq : 0 <= pdf * pdf) by (apply Rmult_le_pos; lra).
        assert (Pr : Om * (/ Om) = 1) by (apply Rinv_r; lra).
        split; apply Rmult_le_reg_r with (/ Om * / Om + pdf * pdf); try exact Q; unfold Rdiv; rewrite ?Rmult_assoc, ?Rinv_l, ?Rmult_1_r by lra; [|lra].
        set (z := Om * / PI). assert (z0 : 0 <= z ^ 2) by apply pow2_ge_0. assert (zp : z ^ 2 * (/ Om * / Om) = 1 / PI * (1 / PI)) by (unfold z; field; lra).
        assert (0 <= z ^ 2 * (pdf * pdf)) by (apply Rmult_le_pos; assumption). lra.
      * unfold sadd, smul, sdiv, sscale, BLACK, ONE, gray. cbn [red green blue INR]. f_equal; field; lra.
    + intros [Bad|F]; [discriminate|]. rewrite Bs, (proj2 (Rltb_false _ _) F). unfold sadd, smul, sdiv, sscale, BLACK, ONE, gray. cbn [red green blue INR]. f_equal; field; lra.
Qed.

(** C96: a ray that leaves the scene towards the sun.  It adds what the path has kept of the colour of the sun, all of it if the eye looks at
    the sun or sees it in a mirror, and the complement of the weight of the shadow rays otherwise; it adds nothing if the sun is elsewhere. *)
Theorem C96_seen : forall G (gen : G -> R * G) gi N wf wardf lf w o sd angle ml budget depth ns ray prob beta coef mirror acc g, distant_lights (w_scene w) = [o] -> o_primitive o = PSource sd angle ->
  1 / 10 ^ 20 < vlen2 sd -> 0 < angle < PI -> nth_error (mats (w_scene w)) (o_back o) = Some ml -> answers N wf w -> vlen (direction ray) = 1 -> 0 <= prob ->
  scene_cast_ray N (w_state w) wf ray = Ok None -> scene_unobstructed_distance N (w_state w) ray (vlen2 (vsub (origin ray) (project ray fmax))) wf = Ok true ->
  let share := if (depth =? 0)%nat || mirror then 1 else (prob * solid_angle angle) ^ 2 / ((prob * solid_angle angle) ^ 2 + 1) in
  exists c, trace_loop gen gi N wf wardf lf w ns budget depth ray prob beta coef mirror acc g = Ok (Some (c, g)) /\
    (cos (angle / 2) <= vdot (direction ray) (unit_of sd) -> c = sadd acc (smul beta (sadd (sscale (colour_of ml) share) (sky_light w (direction ray))))) /\
    (vdot (direction ray) (unit_of sd) < cos (angle / 2) -> c = sadd acc (smul beta (sky_light w (direction ray)))).
Proof.
  intros G gen gi N wf wardf lf w o sd angle ml budget depth ns ray prob beta coef mirror acc g L2 Eo Hd Ha Eml An L P0 Cr Fr share.
  pose proof (solid_angle_pos _ Ha) as Sa. pose proof PI_RGT_0 as Pi. destruct (half_angle _ Ha) as ((C0 & C1) & _).
  assert (Sb : solid_angle angle < 2 * PI) by (unfold solid_angle; assert (2 * PI * cos (angle / 2) > 0) by (apply Rmult_lt_0_compat; lra); lra).
  assert (Ix : (o_back o < length (mats (w_scene w)))%nat) by (apply nth_error_Some; congruence).
  assert (Go : trace_loop gen gi N wf wardf lf w ns budget depth ray prob beta coef mirror acc g =
    (do acc <- distant_loop N wf w (distant_lights (w_scene w)) ray ((depth =? 0)%nat || mirror) prob beta acc; Ok (Some (add_sky w ray beta acc, g)))) by (destruct budget; cbn [trace_loop]; rewrite Cr; reflexivity).
  rewrite Go, L2. clear Go. cbn [distant_loop].
  destruct (intersect_source N wf w o sd angle ray Eo Hd Ha L An Ix) as [(Q & ->)|(Q & [(_ & Ob)|(ml' & Eml' & -> & _)])].
  - cbn [bind]. eexists. split; [reflexivity|]. rewrite add_sky_eq. split; [intros; lra|reflexivity].
  - rewrite Fr in Ob. discriminate.
  - rewrite Eml in Eml'. injection Eml' as <-. cbn [bind].
    rewrite (proj2 (Rltb_true _ _)). 2: { apply Rmult_lt_compat_l; [lra|]. apply Rinv_lt_contravar. apply Rmult_lt_0_compat; [exact Sa|apply pow_lt; lra]. assert (PI <= 4) by apply PI_4. assert (10 <= 10 ^ 18) by (rewrite <- (pow_1 10) at 1; apply Rle_pow; [lra|lia]). lra. }
    eexists. split; [reflexivity|]. rewrite add_sky_eq. split; [intros _|intros; lra].
    assert (Sh : (if (depth =? 0)%nat || mirror then 1 else power_heuristic 1 prob 1 (1 / solid_angle angle)) = share).
    { unfold share. destruct (_ || _)%bool; [reflexivity|]. unfold power_heuristic. cbn [INR]. field. split; [|lra].
      assert (0 <= (prob * solid_angle angle) ^ 2) by apply pow2_ge_0. replace (prob * solid_angle angle * (prob * solid_angle angle)) with ((prob * solid_angle angle) ^ 2) by ring. 
      lra. }
    rewrite Sh. unfold sadd, smul, sscale. cbn [red green blue]. f_equal; ring.
Qed.

(** C96: lights made of triangles.  If the point that is lit is in the plane of the only light, no shadow ray ever meets the light and the
    program draws new ones for ever. *)
Lemma coplanar_misses a b c point d : vdot (vsub point a) (vcross (vsub b a) (vsub c a)) = 0 -> vdot d (vcross (vsub b a) (vsub c a)) = 0 -> triangle_intersect a b c (mkRay point d) = Ok None.
Proof.
  intros H1 H2. unfold triangle_intersect, intersect_triangle. cbn [origin direction].
  replace (vdot (vsub b a) (vcross d (vsub c a))) with (- vdot d (vcross (vsub b a) (vsub c a))) by vring. rewrite H2, Ropp_0.
  assert (T : 0 < 100 * eps64) by (unfold eps64; apply Rmult_lt_0_compat; [lra|]; apply Rinv_0_lt_compat, pow_lt; lra).
  rewrite (proj2 (Rltb_true (- (100 * eps64)) 0)) by lra. rewrite (proj2 (Rltb_true 0 (100 * eps64))) by lra. reflexivity.
Qed.
Theorem C96_endless : forall G (gen : G -> R * G) gi N wf wardf w o a b c max_depth ns ray k inter m g, lights (w_scene w) = [o] -> distant_lights (w_scene w) = [] -> o_primitive o = PTriangle a b c ->
  scene_cast_ray N (w_state w) wf ray = Ok (Some (k, inter)) -> hit_material (geom (w_scene w)) (mats (w_scene w)) (k, inter) = Ok (Some m) -> emits_light m = false -> specular_only m = false ->
  let point := vadd (it_point inter) (vscale (normal_of inter) (1 / 1000)) in vdot (vsub point a) (vcross (vsub b a) (vsub c a)) = 0 ->
  (ns = 1%nat \/ (1 < ns)%nat /\ forall u v, 0 <= u -> 0 <= v -> u + v <= 1 -> 1 / 10 ^ 20 < vlen2 (vsub (on_triangle a b c u v) point)) ->
  forall lf, trace_ray gen gi N wf wardf lf w max_depth ns g ray = Ok None.
Proof.
  intros G gen gi N wf wardf w o a b c max_depth ns ray k inter m g L1 L2 Eo Cr Hm Em Sm point Cp Ns lf.
  assert (Mi : forall d, vdot d (vcross (vsub b a) (vsub c a)) = 0 -> intersect_light N wf w o (mkRay point d) = Ok None).
  { intros d Hd. unfold intersect_light. rewrite Eo. cbn [primitive_intersect]. rewrite coplanar_misses by assumption. reflexivity. }
  assert (Pl : forall u v, vdot (vsub (on_triangle a b c u v) point) (vcross (vsub b a) (vsub c a)) = 0).
  { intros u v. transitivity (- vdot (vsub point a) (vcross (vsub b a) (vsub c a))); [unfold on_triangle; vring|rewrite Cp; ring]. }
  assert (Sc : forall v s, vdot v (vcross (vsub b a) (vsub c a)) = 0 -> vdot (vscale v s) (vcross (vsub b a) (vsub c a)) = 0).
  { intros v s Hv. transitivity (s * vdot v (vcross (vsub b a) (vsub c a))); [vring|rewrite Hv; ring]. }
  assert (Lp : forall n g acc, shadow_loop gen N wf w n o (1 / INR 1) m inter point ns ns acc g = Ok None).
  { induction n as [|n IH]; intros g0 acc.
    - destruct Ns as [->|(Ns & _)]; [reflexivity|]. destruct ns; [lia|reflexivity].
    - destruct Ns as [->|(Ns & Fa)].
      + cbn [shadow_loop Nat.ltb Nat.leb]. rewrite Eo. cbn [light_direction bind]. rewrite Mi; [cbn [bind]; apply IH|].
        apply Sc. replace (vscale (vadd (vadd a b) c) (1 / 3)) with (on_triangle a b c (1 / 3) (1 / 3)) by (unfold on_triangle, vadd, vsub, vscale; apply V3_eq; cbn [vx vy vz]; field). apply Pl.
      + destruct ns as [|ns']; [lia|]. cbn [shadow_loop]. rewrite (proj2 (Nat.ltb_lt 1 (S ns')) Ns). rewrite Eo. unfold light_sample_direction. destruct (gen2 gen g0) as [u1 g1]. destruct (gen2 gen g1) as [[r1 r2] g2]. cbn [bind].
        assert (Us : exists u v, 0 <= u /\ 0 <= v /\ u + v <= 1 /\ uniform_sample_triangle (r1, r2) a b c = on_triangle a b c u v).
        { destruct (C42_triangle (r1, r2) a b c) as (wa & wb & wc & Wa & Wb & Wc & Ws & ->). exists wb, wc. repeat (split; [lra|]). replace wa with (1 - wb - wc) by lra. unfold on_triangle. vring. }
        destruct Us as (u & v & Uu & Uv & Uw & ->). destruct (normalize_of _ (Fa u v Uu Uv Uw)) as (-> & _). cbn [bind]. rewrite Mi; [cbn [bind]; apply IH|]. unfold unit_of. apply Sc, Pl. }
  unfold trace_ray. destruct max_depth as [|md]; cbn [trace_loop]; rewrite Cr; cbn [bind]; rewrite Hm; cbn [bind]; rewrite Em, Sm; cbn [Nat.eqb]; unfold get_local_illumination; rewrite L1, L2; cbn [app length];
    destruct (gi g) as [ki g1]; unfold sample_light_uniform; rewrite L1, L2; cbn [length Nat.add]; rewrite Nat.mod_1_r; cbn [Nat.ltb Nat.leb nth_error]; fold (normal_of inter); fold point; rewrite Lp; reflexivity.
Qed.

(** *** Examples, and what is false *)

(** A wall, a lamp in the plane y = 1 above it, and a ray that meets the wall at (1, 1, 1) *)
Definition lamp : Tri := mkTri (mkV 0 1 3) (mkV 2 1 3) (mkV 1 1 5).
Definition glance : Ray := mkRay (mkV (-1) 0 (-1)) (mkV (2 / 3) (1 / 3) (2 / 3)).
Definition lit_scene : Scene := mkScene [across 1; lamp] [n0; n0] [0; 1]%nat [0; 1]%nat.
Definition lit_mats : list Material := [Diffuse (gray (1 / 2)); Light (gray 10)].

Lemma glance_unit : vlen (direction glance) = 1.
Proof. apply vlen_of. unfold vlen2, glance. cbn. lra. Qed.
Lemma glance_oblique : oblique glance. Proof. unfold oblique, glance. cbn. lra. Qed.
Lemma glance_hits : passes_through glance (across 1) (mkV 1 1 1).
Proof.
  exists 3, (1 / 4), (1 / 4). split; [lra|]. split; [lra|]. split; [lra|]. split; [lra|].
  split; [unfold ray_at, glance, vadd, vscale; apply V3_eq; cbn; lra|]. split; [unfold bary, across; apply V3_eq; cbn; lra|].
  unfold alignment, glance, across, vdot, vcross, vsub. cbn [vx vy vz ta tb tc direction].
  rewrite Rabs_right; lra.
Qed.
Lemma glance_far : dist2 glance (mkV 1 1 1) = 9. Proof. unfold dist2, vlen2, vsub, glance. cbn. lra. Qed.
Lemma eps_small : 0 < eps64 < 1 / 1000.
Proof.
  unfold eps64. split; [apply Rinv_0_lt_compat, pow_lt; lra|]. replace (1 / 1000) with (/ 1000) by lra. apply Rinv_lt_contravar; [apply Rmult_lt_0_compat; [lra|apply pow_lt; lra]|].
  apply Rlt_le_trans with (2 ^ 10); [lra|]. apply Rle_pow; [lra|lia].
Qed.
(** What the ray finds in a scene of the wall and of other triangles that it does not meet *)
Lemma wall_cast ray rest norms f bk ms s N fuel mapping scene' nodes : vlen (direction ray) = 1 -> oblique ray -> passes_through ray (across 1) (mkV 1 1 1) -> dist2 ray (mkV 1 1 1) = 9 -> 0 < vx (direction ray) -> reorders s ->
  let scene := mkScene (across 1 :: rest) norms (0%nat :: f) (0%nat :: bk) in length norms = S (length rest) -> length f = length rest -> length bk = length rest ->
  (Z.of_nat (S (length rest)) < 2 ^ 15)%Z -> (forall t q, In t rest -> ~ reported ray t q) -> nth_error ms 0 <> None ->
  build_accelerator s (scene, None) = Ok (mapping, (scene', Some nodes)) -> (2 * S (length rest) <= fuel)%nat -> (S (length rest) <= N + 1)%nat ->
  exists k inter, scene_cast_ray N (scene', Some nodes) fuel ray = Ok (Some (k, inter)) /\ arrives (direction ray) inter /\ it_point inter = mkV 1 1 1 /\
    normal_of inter = mkV (-1) 0 0 /\ i_side (it_info inter) = Back /\ exists m, nth_error ms 0 = Some m /\ hit_material scene' ms (k, inter) = Ok (Some m).
Proof.
  intros Un Ob Ps D1 Dx Rs scene Ln Lf Lb Lr Nr M0 B F Nn.
  assert (W : well_formed scene) by (unfold well_formed, scene; cbn [normals triangles front_material_indexes back_material_indexes length]; lia).
  assert (Mg : manageable scene).
  { split; [unfold scene; cbn [triangles length]; lia|]. intros c. eapply Z.le_lt_trans; [apply Nat2Z.inj_le, filter_length_le'|]. exact Lr. }
  destruct (C36_nearest s scene N ray fuel Rs W Mg Ob) as (nodes' & mapping' & sc & E & H); [unfold scene; cbn [triangles length]; lia|].
  destruct (C35_permutation s scene Rs W) as (mp & sc2 & nd & E' & P & R1 & R2 & R3 & R4 & _). rewrite B in E'. injection E' as <- <- <-.
  pose proof B as B'. unfold build_accelerator in B'. cbn [fst snd] in B'. rewrite E in B'. cbn [bind] in B'. injection B' as -> -> ->.
  destruct H as [(_ & H)|(r & Er & Hr)]; [unfold scene in H; cbn [triangles length] in H; lia|].
  destruct r as [[i p]|].
  2:{ exfalso. apply (Hr (across 1) (mkV 1 1 1)); [left; reflexivity|exact Ps|]. rewrite D1. pose proof fmax_big2. split; lra. }
  destruct Hr as ((j & t & Hj & Ht & Hp) & _). assert (Ej : j = 0%nat /\ t = across 1).
  { destruct j as [|j]; cbn [nth_error triangles scene] in Ht; [injection Ht as <-; auto|]. apply nth_error_In in Ht. destruct (Nr t p Ht Hp). }
  destruct Ej as (-> & ->). assert (Ep : p = mkV 1 1 1) by (eapply reported_fun; [exact Hp|apply crosses_reported, passes_crosses, Ps]). subst p.
  destruct Hp as (u & v & Hb). destruct R1 as (_ & R1). destruct (R1 i _ Hj) as (T1 & _). destruct R4 as (_ & R4). destruct (R4 i _ Hj) as (F1 & _).
  cbn [triangles back_material_indexes scene nth_error] in T1, F1.
  destruct (hit_arrives ray (across 1) (mkV 1 1 1) u v Un) as (info & Ei & Si).
  { unfold edge_ok, across, vlen2, vsub. cbn [ta tb vx vy vz]. pose proof tiny20. lra. } { exact Hb. }
  unfold scene_cast_ray, cast_ray. cbn [fst snd]. rewrite Er. cbn [bind]. rewrite T1, Hb. cbn [bind]. rewrite T1, Ei. cbn [bind].
  assert (Nf : i_normal info = mkV (-1) 0 0 /\ i_side info = Back).
  { assert (En : vnormalize (vcross (vsub (tb (across 1)) (ta (across 1))) (vsub (tc (across 1)) (ta (across 1)))) = Ok (mkV 1 0 0)).
    { replace (vcross _ _) with (mkV 16 0 0) by (unfold across, vcross, vsub; apply V3_eq; cbn; lra). destruct (normalize_of (mkV 16 0 0)) as (-> & _). { unfold vlen2. cbn. pose proof tiny20. lra. }
      f_equal. unfold unit_of, vlen, vlen2. cbn [vx vy vz]. replace (16 * 16 + 0 * 0 + 0 * 0) with (16 * 16) by ring. rewrite sqrt_square by lra. unfold vscale. apply V3_eq; cbn; lra. }
    revert Ei. unfold new_info. rewrite En. clear En. cbn [bind]. unfold get_side. replace (vdot (mkV 1 0 0) (direction ray)) with (vx (direction ray)) by (unfold vdot; cbn [vx vy vz]; ring).
    rewrite (proj2 (Rltb_false (vx (direction ray)) 0)) by lra. rewrite (proj2 (Rltb_true 0 (vx (direction ray)))) by lra. destruct (vnormalize (vsub _ _)) as [e1| |]; cbn [bind]; try discriminate. destruct (vnormalize (vcross _ _)) as [e2| |]; cbn [bind]; try discriminate.
    intros Q. injection Q as <-. cbn [i_normal i_side]. split; [|reflexivity]. unfold vscale. apply V3_eq; cbn; lra. }
  destruct Nf as (Nf & Sf). do 2 eexists. split; [reflexivity|]. split; [split; [exact Un|split; [reflexivity|exists (across 1); exact Ei]]|]. split; [reflexivity|]. split; [exact Nf|]. split; [exact Sf|].
  destruct (nth_error ms 0) as [m|] eqn:Em; [|congruence]. exists m. split; [reflexivity|]. unfold hit_material. cbn [it_info]. rewrite Sf, F1, Em. reflexivity.
Qed.
Lemma lamp_unseen q : ~ reported glance lamp q.
Proof.
  intros (u & v & H). destruct (C29_sound _ _ _ _ _ H) as (Eb & U & V & _ & s & Hs & Es). pose proof eps_small as Ep.
  assert (Yq : vy q = 1) by (rewrite Eb; unfold bary, lamp; cbn; lra). assert (Zq : vz q = 3 + 2 * v) by (rewrite Eb; unfold bary, lamp; cbn; lra).
  assert (Ys : vy q = s / 3) by (rewrite Es; unfold ray_at, glance; cbn; lra). assert (Zs : vz q = -1 + 2 / 3 * s) by (rewrite Es; unfold ray_at, glance; cbn; lra). lra.
Qed.

(** Such a scene exists: with one shadow ray or with many, the program never returns, however long it runs. *)
Theorem C96_endless_refuted : exists mapping scene' nodes, build_accelerator simple_reorder (lit_scene, None) = Ok (mapping, (scene', Some nodes)) /\
  let w := mkWorld (mkRScene scene' lit_mats [mkObject (PTriangle (ta lamp) (tb lamp) (tc lamp)) 1 1] []) (Some nodes) None None in
  forall G (gen : G -> R * G) gi wardf max_depth ns g, (0 < ns)%nat -> forall lf, trace_ray gen gi 32 4 wardf lf w max_depth ns g glance = Ok None.
Proof.
  assert (W : well_formed lit_scene) by (unfold well_formed, lit_scene; cbn; auto).
  destruct (C35_permutation simple_reorder lit_scene reorders_exists W) as (mapping & scene' & nodes & B & _). exists mapping, scene', nodes. split; [exact B|]. intros w G gen gi wardf max_depth ns g Ns.
  destruct (wall_cast glance [lamp] [n0; n0] [1%nat] [1%nat] lit_mats simple_reorder 32 4 mapping scene' nodes glance_unit glance_oblique glance_hits glance_far ltac:(unfold glance; cbn; lra) reorders_exists) as (k & inter & Ec & _ & Pt & Nm & _ & m & Em & Hm).
  { reflexivity. } { reflexivity. } { reflexivity. } { cbn; lia. } { intros t q [<-|[]]. apply lamp_unseen. } { discriminate. } { exact B. } { cbn; lia. } { cbn; lia. }
  cbn in Em. injection Em as <-.
  apply (C96_endless G gen gi 32 4 wardf w (mkObject (PTriangle (ta lamp) (tb lamp) (tc lamp)) 1 1) (ta lamp) (tb lamp) (tc lamp) max_depth ns glance k inter (Diffuse (gray (1 / 2))) g); try reflexivity; try assumption.
  - rewrite Pt, Nm. unfold lamp, vdot, vcross, vsub, vadd, vscale. cbn. lra.
  - destruct (Nat.eq_dec ns 1) as [->|Q]; [left; reflexivity|right]. split; [lia|]. intros u v U V Uv. rewrite Pt, Nm. unfold on_triangle, lamp, vlen2, vsub, vadd, vscale. cbn [ta tb tc vx vy vz]. pose proof tiny20.
    set (X := 0 + _ - _). set (Y := 1 + _ - _). assert (0 <= X * X) by apply Rle_0_sqr. assert (0 <= Y * Y) by apply Rle_0_sqr. nra.
Qed.

(** An empty scene with the sun above: after a matte surface that scattered with density 1/2, a ray straight up adds this share of it *)
Example C96_seen_example : let w := mkWorld (mkRScene (mkScene [] [] [] []) lit_mats [] [mkObject (PSource (mkV 0 0 2) 1) 1 1]) (Some []) None None in
  forall G (gen : G -> R * G) gi wardf lf g, answers 32 2 w /\
  trace_loop gen gi 32 2 wardf lf w 1 4 3 (mkRay (mkV 0 0 0) (mkV 0 0 1)) (1 / 2) ONE 1 false BLACK g =
    Ok (Some (gray (10 * ((1 / 2 * solid_angle 1) ^ 2 / ((1 / 2 * solid_angle 1) ^ 2 + 1))), g)).
Proof.
  intros w G gen gi wardf lf g. assert (An : answers 32 2 w) by (intros ray d; exists true; reflexivity). split; [exact An|].
  assert (U : vlen (mkV 0 0 1) = 1) by (apply vlen_of; unfold vlen2; cbn; ring). assert (Hd : 1 / 10 ^ 20 < vlen2 (mkV 0 0 2)) by (unfold vlen2; cbn [vx vy vz]; pose proof tiny20; lra).
  assert (Ha : 0 < 1 < PI) by (pose proof PI2_3_2; lra).
  destruct (C96_seen G gen gi 32 2 wardf lf w (mkObject (PSource (mkV 0 0 2) 1) 1 1) (mkV 0 0 2) 1 (Light (gray 10)) 4 3 1 (mkRay (mkV 0 0 0) (mkV 0 0 1)) (1 / 2) ONE 1 false BLACK g) as (c & -> & Hc & _);
    try reflexivity; try assumption; try lra.
  rewrite Hc. 2: { unfold unit_of. cbn [direction]. destruct (half_angle _ Ha) as ((_ & C1) & _).
    assert (V : vlen (mkV 0 0 2) = 2) by (unfold vlen; replace (vlen2 (mkV 0 0 2)) with (2 * 2) by (unfold vlen2; cbn; ring); apply sqrt_square; lra).
    rewrite ?V. unfold vdot, vscale. cbn [vx vy vz]. lra. }
  cbn [Nat.eqb orb]. unfold sky_light. cbn [w_sky w]. unfold sadd, smul, sscale, gray, BLACK, ONE, gray. cbn [red green blue colour_of].
  generalize ((1 / 2 * solid_angle 1) ^ 2 / ((1 / 2 * solid_angle 1) ^ 2 + 1)). intros x. replace (0 + 1 * (10 * x + 0)) with (10 * x) by ring. reflexivity.
Qed.
(** The sun over a wall *)
Example C96_sun_example : exists mapping scene' nodes, build_accelerator simple_reorder (mkScene [across 1] [n0] [0%nat] [0%nat], None) = Ok (mapping, (scene', Some nodes)) /\
  let w := mkWorld (mkRScene scene' lit_mats [] [mkObject (PSource (mkV (-2) (-1) (-2)) (1 / 100)) 1 1]) (Some nodes) None None in
  forall G (gen : G -> R * G) gi wardf g, draws01 gen -> sound 32 2 w /\ answers 32 2 w /\ sunny w /\
    exists c g' weight, trace_ray gen gi 32 2 wardf 1 w 0 1 g glance = Ok (Some (c, g')) /\ c = gray (10 / 3 * solid_angle (1 / 100) / PI * weight) /\ 1 - (solid_angle (1 / 100) / PI) ^ 2 <= weight <= 1.
Proof.
  set (scene := mkScene [across 1] [n0] [0%nat] [0%nat]). assert (W : well_formed scene) by (unfold well_formed, scene; cbn; auto).
  destruct (C35_permutation simple_reorder scene reorders_exists W) as (mapping & scene' & nodes & B & _). exists mapping, scene', nodes. split; [exact B|]. intros w G gen gi wardf g D.
  assert (Mg : manageable scene) by (apply small_manageable; cbn; lia).
  assert (An : answers 32 2 w) by (eapply answers_built; try eassumption; [apply reorders_exists|cbn; lia|cbn; lia]).
  assert (So : sound 32 2 w).
  { eapply sound_built; try eassumption; [apply reorders_exists| | | |cbn; lia|cbn; lia].
    - intros t [<-|[]]. unfold across, vlen2, vsub. cbn [ta tb vx vy vz]. pose proof tiny20. lra.
    - intros k [[<-|[]]|[<-|[]]]; cbn; lia.
    - unfold lit_mats. repeat constructor; cbn; lra. }
  set (sd := mkV (-2) (-1) (-2)). assert (Hs : 1 / 10 ^ 20 < vlen2 sd) by (unfold vlen2; cbn [sd vx vy vz]; pose proof tiny20; lra).
  assert (Pa : 0 < 1 / 100 < PI) by (pose proof PI_RGT_0; pose proof PI2_1; lra).
  assert (Sn : sunny w).
  { split; [reflexivity|]. split; [repeat constructor; cbn; try lia; try apply Hs; apply Pa|]. unfold lit_mats. repeat constructor; cbn; lra. }
  split; [exact So|]. split; [exact An|]. split; [exact Sn|].
  destruct (wall_cast glance [] [n0] [] [] lit_mats simple_reorder 32 2 mapping scene' nodes glance_unit glance_oblique glance_hits glance_far ltac:(unfold glance; cbn; lra) reorders_exists) as (k & inter & Ec & Ar & Pt & Nm & _ & m & Em & Hm).
  { reflexivity. } { reflexivity. } { reflexivity. } { cbn; lia. } { intros t q []. } { discriminate. } { exact B. } { cbn; lia. } { cbn; lia. }
  cbn in Em. injection Em as <-.
  destruct (C96_sun G gen gi 32 2 wardf 0 w (mkObject (PSource sd (1 / 100)) 1 1) sd (1 / 100) (Light (gray 10)) glance k inter (Diffuse (gray (1 / 2))) g) as (c & g' & Et & Lit & _); try reflexivity; try assumption.
  { cbn. unfold channels, gray. cbn. lra. }
  assert (Us : unit_of sd = mkV (- (2 / 3)) (- (1 / 3)) (- (2 / 3))).
  { unfold unit_of, vlen, vlen2, sd. cbn [vx vy vz]. replace (-2 * -2 + -1 * -1 + -2 * -2) with (3 * 3) by ring. rewrite sqrt_square by lra. unfold vscale. apply V3_eq; cbn; lra. }
  rewrite Us, Pt, Nm in Lit. set (point := vadd _ _) in Lit. set (sun := mkV (- (2 / 3)) _ _) in Lit.
  assert (Ep : point = mkV (999 / 1000) 1 1) by (unfold point, vadd, vscale; apply V3_eq; cbn; lra).
  assert (Nu : forall t q, In t (triangles scene) -> ~ reported (mkRay point sun) t q).
  { intros t q [<-|[]] (u & v & H). destruct (C29_sound _ _ _ _ _ H) as (Eb & U & V & _ & s0 & Hs0 & Es).
    assert (Xq : vx q = 1) by (rewrite Eb; unfold bary, across; cbn; lra). assert (Xs : vx q = 999 / 1000 - 2 / 3 * s0) by (rewrite Es, Ep; unfold ray_at, sun; cbn; lra). assert (0 < 1 / 10 ^ 5) by (apply Rdiv_lt_0_compat; [lra|apply pow_lt; lra]). lra. }
  destruct Lit as (weight & Wt & ->).
  - unfold scene_unobstructed_distance, w_state. cbn [fst snd w_nodes w_scene geom w]. unfold build_accelerator in B. cbn [fst snd] in B. destruct (tree_new simple_reorder scene) as [[[nd mp] sc]| |] eqn:Et0; [|discriminate|discriminate]. cbn [bind] in B. injection B as -> -> ->.
    destruct (C37_sound simple_reorder scene 32 (mkRay point sun) (vlen2 (vsub point (project (mkRay point sun) fmax))) 2 nodes mapping scene' reorders_exists W Mg) as [->|(_ & t & q & It & Rq & _)]; [cbn; lia|cbn; lia|exact Et0|reflexivity|destruct (Nu t q It Rq)].
  - unfold vdot, sun. cbn. lra.
  - exists (smul (colour_of (Light (gray 10))) (sscale (colour_of (Diffuse (gray (1 / 2)))) (vdot (mkV (-1) 0 0) sun * solid_angle (1 / 100) / PI * weight))), g', weight. split; [exact Et|]. split; [|exact Wt].
    unfold smul, sscale, gray, vdot, sun. cbn. f_equal; field; apply PI_neq0.
Qed.

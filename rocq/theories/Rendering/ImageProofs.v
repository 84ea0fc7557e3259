(** Lemmas about images (ImageModel.v). *)
From Coq Require Import String Ascii Reals ZArith NArith List Bool Lia Lra Psatz Arith.
From Verif.Common Require Import Base Flt Text.
From Verif.Rendering Require Import ImageModel.
Import ListNotations.
Open Scope list_scope.
Open Scope R_scope.

(** ** Floors, powers *)
Lemma floor_bounds x : IZR (floorR x) <= x < IZR (floorR x) + 1.
Proof. unfold floorR. destruct (base_Int_part x). lra. Qed.
Lemma floor_unique x z : IZR z <= x < IZR z + 1 -> floorR x = z.
Proof.
  intros [A B]. destruct (floor_bounds x) as [C D].
  assert (IZR (floorR x) < IZR (z + 1)) by (rewrite plus_IZR; lra). assert (IZR z < IZR (floorR x + 1)) by (rewrite plus_IZR; lra).
  apply lt_IZR in H, H0. lia.
Qed.
Lemma ln2_pos : 0 < ln 2.
Proof. rewrite <- ln_1. apply ln_increasing; lra. Qed.
Lemma exp2_log2 v : 0 < v -> exp2R (log2R v) = v.
Proof.
  intros H. unfold exp2R, log2R, Rpower. replace (ln v / ln 2 * ln 2) with (ln v); [now apply exp_ln|].
  field. pose proof ln2_pos. lra.
Qed.
Lemma exp2_Z n : exp2R (IZR n) = powerRZ 2 n.
Proof. unfold exp2R. symmetry. apply powerRZ_Rpower. lra. Qed.
Lemma exp2_pos x : 0 < exp2R x.
Proof. unfold exp2R, Rpower. apply exp_pos. Qed.
Lemma exp2_mono x y : x < y -> exp2R x < exp2R y.
Proof. intros. unfold exp2R. apply Rpower_lt; lra. Qed.
Lemma exp2_mono_le x y : x <= y -> exp2R x <= exp2R y.
Proof. intros. unfold exp2R. apply Rle_Rpower; lra. Qed.
Lemma exp2_lt_inv x y : exp2R x < exp2R y -> x < y.
Proof. intros H. destruct (Rlt_le_dec x y) as [|C]; [assumption|]. apply exp2_mono_le in C. lra. Qed.

(** The exponent that [frexp] finds *)
Definition exponent (v : R) : Z := (floorR (log2R v) + 1)%Z.
Lemma exponent_bounds v : 0 < v -> powerRZ 2 (exponent v - 1) <= v < powerRZ 2 (exponent v).
Proof.
  intros H. unfold exponent. set (k := floorR (log2R v)). destruct (floor_bounds (log2R v)) as [A B]. fold k in A, B.
  rewrite <- !exp2_Z. replace (k + 1 - 1)%Z with k by lia. rewrite plus_IZR.
  rewrite <- (exp2_log2 v H).
  split; [now apply exp2_mono_le|now apply exp2_mono].
Qed.
Lemma frexp_pos v : 0 < v -> rusty_frexp v = (v / powerRZ 2 (exponent v), exponent v).
Proof.
  intros H. unfold rusty_frexp. destruct (Req_EM_T 0 v); [lra|]. rewrite (Rabs_right v) by lra.
  unfold signum. destruct (Rltb_spec v 0); [lra|]. f_equal. rewrite Rmult_1_l.
  rewrite <- exp2_Z. unfold exponent. rewrite plus_IZR. unfold exp2R.
  replace (log2R v - IZR (floorR (log2R v)) - 1) with (log2R v + - (IZR (floorR (log2R v)) + 1)) by ring.
  rewrite Rpower_plus, Rpower_Ropp. fold (exp2R (log2R v)). rewrite exp2_log2 by assumption. reflexivity.
Qed.

(** ** One channel *)
Lemma channel_code c v e : 0 <= c <= v -> 0 < v -> v < powerRZ 2 e ->
  let m := v / powerRZ 2 e * (256 / v) in
  (0 <= floorR (c * m) <= 255)%Z /\ as_u8 (floorR (c * m)) = floorR (c * m) /\
  IZR (floorR (c * m)) * powerRZ 2 (e - 8) <= c < (IZR (floorR (c * m)) + 1) * powerRZ 2 (e - 8).
Proof.
  intros Hc Hv He m.
  assert (P : 0 < powerRZ 2 e) by (apply powerRZ_lt; lra).
  assert (E8 : powerRZ 2 (e - 8) = powerRZ 2 e / 256).
  { unfold Z.sub. rewrite powerRZ_add by lra. cbn [Z.opp powerRZ].
    change (Pos.to_nat 8) with 8%nat. replace (2 ^ 8) with 256 by lra. reflexivity. }
  assert (Em : c * m = c * 256 / powerRZ 2 e) by (unfold m; field; lra).
  assert (L : 0 <= c * m < 256).
  { rewrite Em. split.
    - apply Rle_mult_inv_pos; nra.
    - apply (Rmult_lt_reg_r (powerRZ 2 e)); [exact P|]. unfold Rdiv. rewrite Rmult_assoc, Rinv_l by lra. nra. }
  destruct (floor_bounds (c * m)) as [A B].
  assert (Z0 : (0 <= floorR (c * m) <= 255)%Z).
  { split.
    - assert (IZR (-1) < IZR (floorR (c * m))) by lra. apply lt_IZR in H. lia.
    - assert (IZR (floorR (c * m)) < IZR 256) by lra. apply lt_IZR in H. lia. }
  split; [exact Z0|]. split; [unfold as_u8; lia|].
  rewrite E8. set (f := IZR (floorR (c * m))) in *. clearbody f. rewrite Em in A, B.
  split.
  - apply (Rmult_le_compat_r (powerRZ 2 e / 256)) in A; [|lra].
    replace (c * 256 / powerRZ 2 e * (powerRZ 2 e / 256)) with c in A by (field; lra). exact A.
  - apply (Rmult_lt_compat_r (powerRZ 2 e / 256)) in B; [|lra].
    replace (c * 256 / powerRZ 2 e * (powerRZ 2 e / 256)) with c in B by (field; lra). exact B.
Qed.

(** The brightest channel, as the code finds it *)
Lemma brightest r g b :
  (let v := if Rltb r g then g else r in if Rltb v b then b else v) = Rmax r (Rmax g b).
Proof.
  cbn zeta. destruct (Rltb_spec r g); [destruct (Rltb_spec g b)|destruct (Rltb_spec r b)];
    unfold Rmax; repeat destruct (Rle_dec _ _); lra.
Qed.

Lemma pow19 : powerRZ 2 (-64) < 1 / 10 ^ 19.
Proof. cbn [powerRZ]. change (Pos.to_nat 64) with 64%nat. lra. Qed.

Lemma exponent_range v : 1 / 10 ^ 19 <= v -> v < 2 ^ 127 -> (-63 <= exponent v <= 127)%Z.
Proof.
  intros A B. assert (P : 0 < v) by (pose proof pow19; assert (0 < powerRZ 2 (-64)) by (apply powerRZ_lt; lra); lra).
  destruct (exponent_bounds v P) as [C D]. split.
  - pose proof pow19. assert (H0 : exp2R (IZR (-64)) < exp2R (IZR (exponent v))) by (rewrite !exp2_Z; lra).
    apply exp2_lt_inv, lt_IZR in H0. lia.
  - assert (H0 : exp2R (IZR (exponent v - 1)) < exp2R (IZR 127)).
    { rewrite !exp2_Z. eapply Rle_lt_trans; [exact C|]. eapply Rlt_le_trans; [exact B|]. right. cbn [powerRZ]. change (Pos.to_nat 127) with 127%nat. reflexivity. }
    apply exp2_lt_inv, lt_IZR in H0. lia.
Qed.

Lemma rgbe_codes debug r g b :
  let v := Rmax r (Rmax g b) in
  0 <= r -> 0 <= g -> 0 <= b -> 1 / 10 ^ 19 <= v -> v < 2 ^ 127 ->
  let e := exponent v in
  exists cr cg cb, colour_to_rgbe debug r g b = Ok (cr, cg, cb, e + 128)%Z /\
    (65 <= e + 128 <= 255)%Z /\ (0 <= cr <= 255)%Z /\ (0 <= cg <= 255)%Z /\ (0 <= cb <= 255)%Z /\
    (IZR cr * powerRZ 2 (e - 8) <= r < (IZR cr + 1) * powerRZ 2 (e - 8)) /\
    (IZR cg * powerRZ 2 (e - 8) <= g < (IZR cg + 1) * powerRZ 2 (e - 8)) /\
    (IZR cb * powerRZ 2 (e - 8) <= b < (IZR cb + 1) * powerRZ 2 (e - 8)).
Proof.
  intros v Hr Hg Hb Hlo Hhi e.
  assert (P : 0 < v) by (pose proof pow19; assert (0 < powerRZ 2 (-64)) by (apply powerRZ_lt; lra); lra).
  destruct (exponent_bounds v P) as [C D]. pose proof (exponent_range v Hlo Hhi) as R. fold e in C, D, R.
  assert (Lr : r <= v) by apply Rmax_l. assert (Lg : g <= v) by (unfold v; rewrite Rmax_comm, <- Rmax_assoc; apply Rmax_l || (eapply Rle_trans; [|apply Rmax_l]; lra)).
  assert (Lb : b <= v) by (unfold v; eapply Rle_trans; [apply (Rmax_r g b)|apply Rmax_r]).
  exists (floorR (r * (v / powerRZ 2 e * (256 / v)))), (floorR (g * (v / powerRZ 2 e * (256 / v)))), (floorR (b * (v / powerRZ 2 e * (256 / v)))).
  destruct (channel_code r v e) as (r1 & r2 & r3); [lra|lra|exact D|].
  destruct (channel_code g v e) as (g1 & g2 & g3); [lra|lra|exact D|].
  destruct (channel_code b v e) as (b1 & b2 & b3); [lra|lra|exact D|].
  split; [|repeat split; try tauto; lia].
  unfold colour_to_rgbe. rewrite brightest. fold v. destruct (Rltb_spec v (1 / 10 ^ 19)); [lra|].
  rewrite frexp_pos by assumption. fold e. rewrite r2, g2, b2.
  replace ((0 <=? e + 128)%Z && (e + 128 <=? 255)%Z) with true
    by (symmetry; apply andb_true_iff; split; apply Z.leb_le; lia).
  rewrite andb_false_r. rewrite Z.mod_small by lia. reflexivity.
Qed.

(** ** Bytes *)
Lemma unbyte_byte z : (0 <= z <= 255)%Z -> unbyte (byte z) = z.
Proof.
  intros H. unfold unbyte, byte. rewrite N_ascii_embedding by lia. apply Z2N.id. lia.
Qed.
Lemma as_u8_range z : (0 <= as_u8 z <= 255)%Z.
Proof. unfold as_u8. lia. Qed.
Lemma rgbe_bytes debug r g b cr cg cb ce : colour_to_rgbe debug r g b = Ok (cr, cg, cb, ce) ->
  (0 <= cr <= 255)%Z /\ (0 <= cg <= 255)%Z /\ (0 <= cb <= 255)%Z /\ (0 <= ce <= 255)%Z.
Proof.
  unfold colour_to_rgbe. rewrite brightest. destruct (Rltb _ _); [intros E; injection E as <- <- <- <-; lia|].
  destruct (rusty_frexp _) as [m e]. destruct (debug && _); [discriminate|].
  intros E. injection E as <- <- <- <-. pose proof as_u8_range. pose proof (Z.mod_pos_bound (e + 128) 256 ltac:(lia)).
  repeat split; try apply H; lia.
Qed.

(** What a pixel becomes in the file and back *)
Definition through_file (debug : bool) (p q : Spectrum) : Prop :=
  exists cr cg cb ce, colour_to_rgbe debug (s_red p) (s_green p) (s_blue p) = Ok (cr, cg, cb, ce) /\ q = rgbe_to_colour cr cg cb ce.

Lemma pixels_round_trip debug ps body : pixel_bytes debug ps = Ok body ->
  Forall2 (through_file debug) ps (read_pixels body).
Proof.
  revert body. induction ps as [|p ps IH]; intros body; cbn [pixel_bytes bind].
  - intros E. injection E as <-. constructor.
  - destruct (colour_to_rgbe debug (s_red p) (s_green p) (s_blue p)) as [[[[cr cg] cb] ce]| |] eqn:C; cbn [bind]; try discriminate.
    destruct (pixel_bytes debug ps) as [rest| |]; cbn [bind]; try discriminate.
    intros E. injection E as <-. cbn [read_pixels]. destruct (rgbe_bytes _ _ _ _ _ _ _ _ C) as (A & B & D & F).
    rewrite !unbyte_byte by assumption. constructor; [|now apply IH]. now exists cr, cg, cb, ce.
Qed.

(** ** The header *)
Section Header.
Variable utf8 : text -> bool.

Lemma read_header_line acc l r : no_nl l ->
  read_header utf8 acc (l ++ t_nl :: r) =
    (let line := rev acc ++ l in
     if starts_with (txt "-Y") line then do hw <- size_line utf8 line; Ok (fst hw, snd hw, r)
     else if starts_with (txt "FORMAT") line then if format_line_ok line then read_header utf8 [] r else Err
     else read_header utf8 [] r).
Proof.
  intros H. revert acc. induction H as [|c l Hc H IH]; intros acc; cbn [app read_header].
  - rewrite Ascii.eqb_refl, app_nil_r. reflexivity.
  - rewrite Hc, IH. cbn [rev]. now rewrite <- app_assoc.
Qed.

Lemma no_nl_txt s : forallb (fun c => negb (Ascii.eqb c t_nl)) (txt s) = true -> no_nl (txt s).
Proof.
  intros H. apply Forall_forall. intros c Hc. rewrite forallb_forall in H. specialize (H c Hc). now apply negb_true_iff in H.
Qed.
Lemma digits_no_nl n : no_nl (show_nat n).
Proof. eapply Forall_impl; [|apply show_nat_digits]. apply digit_not_nl. Qed.
Lemma digits_no_ws n : Forall (fun c => is_ws c = false) (show_nat n).
Proof. eapply Forall_impl; [|apply show_nat_digits]. apply digit_not_ws. Qed.

Lemma size_line_written h w : (forall l, Forall (fun c => (nat_of_ascii c < 128)%nat) l -> utf8 l = true) ->
  (N.of_nat h < 2 ^ 64)%N -> (N.of_nat w < 2 ^ 64)%N ->
  size_line utf8 (txt "-Y " ++ show_nat h ++ txt " +X " ++ show_nat w) = Ok (h, w).
Proof.
  intros U Hh Hw. unfold size_line.
  assert (D : forall n, Forall (fun c => (nat_of_ascii c < 128)%nat) (show_nat n)).
  { intros n. eapply Forall_impl; [|apply show_nat_digits]. intros c Hc. unfold is_digit in Hc. apply andb_true_iff in Hc. destruct Hc as [_ Hc]. apply Nat.leb_le in Hc. lia. }
  assert (T : forall s, forallb (fun c => Nat.ltb (nat_of_ascii c) 128) (txt s) = true -> Forall (fun c => (nat_of_ascii c < 128)%nat) (txt s)).
  { intros s Hs. apply Forall_forall. intros c Hc. rewrite forallb_forall in Hs. apply Nat.ltb_lt. now apply Hs. }
  rewrite U. 2:{ apply Forall_app. split; [apply T; reflexivity|]. apply Forall_app. split; [apply D|].
    apply Forall_app. split; [apply T; reflexivity|apply D]. }
  cbn [negb].
  replace (txt "-Y " ++ show_nat h ++ txt " +X " ++ show_nat w)
    with (txt "-Y" ++ t_space :: (show_nat h ++ t_space :: (txt "+X" ++ t_space :: show_nat w))) by reflexivity.
  rewrite split_on_app; [|repeat constructor|reflexivity].
  rewrite split_on_app; [|apply digits_no_ws|reflexivity].
  rewrite split_on_app; [|repeat constructor|reflexivity].
  rewrite split_on_none by apply digits_no_ws.
  rewrite text_eqb_refl, !U by apply D. cbn [negb andb]. rewrite !parse_show by assumption. reflexivity.
Qed.
End Header.

(** ** The colour map over the real numbers *)
Definition clamp01 (t : R) : R := Rmax 0 (Rmin 1 t).
Lemma clamp01_lip a b : Rabs (clamp01 a - clamp01 b) <= Rabs (a - b).
Proof.
  unfold clamp01, Rmax, Rmin. repeat destruct (Rle_dec _ _); unfold Rabs; repeat destruct (Rcase_abs _); lra.
Qed.
Definition chan (k : nat) (c : R * R * R) : R := let '(r, g, b) := c in match k with O => r | S O => g | _ => b end.
(** Sum of the steps between consecutive entries, each taken to the fraction of it that [t] (counted in entries) covers *)
Fixpoint climb (ps : list R) (t : R) : R :=
  match ps with p :: ((q :: _) as r) => (q - p) * clamp01 t + climb r (t - 1) | _ => 0 end.
Definition piecewise (ps : list R) (t : R) : R := match ps with p :: _ => p + climb ps t | [] => 0 end.

Lemma climb_cons p q r t : climb (p :: q :: r) t = (q - p) * clamp01 t + climb (q :: r) (t - 1).
Proof. reflexivity. Qed.
Lemma climb_neg ps t : t <= 0 -> climb ps t = 0.
Proof.
  revert t. induction ps as [|p [|q r] IH]; intros t H; try reflexivity. cbn [climb] in *. rewrite IH by lra.
  unfold clamp01. rewrite (Rmin_right 1 t), Rmax_left by lra. ring.
Qed.
Lemma climb_le_zero p r : forall t, t <= 0 -> piecewise (p :: r) t = p.
Proof. intros t H. unfold piecewise. rewrite climb_neg by assumption. ring. Qed.
Lemma piecewise_bin ps i lam : (S i < length ps)%nat -> 0 <= lam <= 1 ->
  piecewise ps (INR i + lam) = nth i ps 0 + (nth (S i) ps 0 - nth i ps 0) * lam.
Proof.
  revert i. induction ps as [|p [|q r] IH]; intros i Hi Hl; try (cbn in Hi; lia).
  unfold piecewise in *. rewrite climb_cons. destruct i as [|i].
  - cbn [INR nth]. rewrite (climb_neg (q :: r)) by lra. unfold clamp01. rewrite (Rmin_right 1 (0 + lam)), Rmax_right by lra. lra.
  - change (nth (S i) (p :: q :: r) 0) with (nth i (q :: r) 0). change (nth (S (S i)) (p :: q :: r) 0) with (nth (S i) (q :: r) 0).
    rewrite S_INR. replace (INR i + 1 + lam - 1) with (INR i + lam) by lra. rewrite <- IH; [|cbn in *; lia|exact Hl].
    pose proof (pos_INR i). unfold clamp01. rewrite Rmin_left, Rmax_right by lra. lra.
Qed.
Lemma piecewise_top ps t : ps <> [] -> INR (length ps - 1) <= t -> piecewise ps t = last ps 0.
Proof.
  revert t. induction ps as [|p [|q r] IH]; intros t N H; [congruence| |].
  - unfold piecewise. cbn. lra.
  - unfold piecewise in *. rewrite climb_cons. specialize (IH (t - 1)).
    replace (length (p :: q :: r) - 1)%nat with (S (length (q :: r) - 1)) in H by (cbn; lia). rewrite S_INR in H.
    pose proof (pos_INR (length (q :: r) - 1)). change (last (p :: q :: r) 0) with (last (q :: r) 0). rewrite <- IH; [|discriminate|lra].
    unfold clamp01. rewrite Rmin_left, Rmax_right by lra. lra.
Qed.
Fixpoint total_variation (ps : list R) : R :=
  match ps with p :: ((q :: _) as r) => Rabs (q - p) + total_variation r | _ => 0 end.
Lemma piecewise_lip ps s t : Rabs (piecewise ps s - piecewise ps t) <= total_variation ps * Rabs (s - t).
Proof.
  assert (G : forall ps s t, Rabs (climb ps s - climb ps t) <= total_variation ps * Rabs (s - t)).
  { clear. induction ps as [|p [|q r] IH]; intros s t; try (cbn; replace (0 - 0) with 0 by lra; rewrite Rabs_R0; lra).
    cbn [climb total_variation] in *. specialize (IH (s - 1) (t - 1)). replace (s - 1 - (t - 1)) with (s - t) in IH by lra.
    match goal with |- Rabs (?a * clamp01 s + ?x - (?a * clamp01 t + ?y)) <= _ =>
      replace (a * clamp01 s + x - (a * clamp01 t + y)) with (a * (clamp01 s - clamp01 t) + (x - y)) by ring end.
    eapply Rle_trans; [apply Rabs_triang|]. rewrite Rabs_mult. pose proof (clamp01_lip s t). pose proof (Rabs_pos (q - p)). nra. }
  destruct ps as [|p r]; [cbn; replace (0 - 0) with 0 by lra; rewrite Rabs_R0; lra|].
  unfold piecewise. replace (p + climb (p :: r) s - (p + climb (p :: r) t)) with (climb (p :: r) s - climb (p :: r) t) by ring. apply G.
Qed.

Lemma find_bin_spec x mn delta map' k : 0 < delta ->
  forall i, (1 <= i)%nat -> (i + k = length map')%nat -> mn + INR (i - 1) * delta < x -> x <= mn + INR (length map' - 1) * delta ->
  exists j lam p q, (S j < length map')%nat /\ 0 <= lam <= 1 /\ x = mn + (INR j + lam) * delta /\
    nth_error map' j = Some p /\ nth_error map' (S j) = Some q /\
    find_bin RF INR x mn delta map' i k =
      Ok (chan 0 p + (chan 0 q - chan 0 p) * lam, chan 1 p + (chan 1 q - chan 1 p) * lam, chan 2 p + (chan 2 q - chan 2 p) * lam).
Proof.
  intros Hd. induction k as [|k IH]; intros i Hi Hk Hx Hl.
  - exfalso. replace (length map' - 1)%nat with (i - 1)%nat in Hl by lia. lra.
  - cbn [find_bin]. cbn [fadd fmul fsub fdiv fleb RF]. destruct (Rleb_spec x (mn + INR (i - 1) * delta + delta)) as [L|L].
    + unfold entry. destruct (nth_error map' (i - 1)) as [p|] eqn:P; [|apply nth_error_None in P; lia].
      destruct (nth_error map' i) as [q|] eqn:Q; [|apply nth_error_None in Q; lia].
      exists (i - 1)%nat, ((x - (mn + INR (i - 1) * delta)) / delta), p, q. replace (S (i - 1)) with i by lia.
      split; [lia|]. split; [|split; [field; lra|split; [exact P|split; [exact Q|]]]].
      * split.
        -- apply Rle_mult_inv_pos; lra.
        -- apply (Rmult_le_reg_r delta); [exact Hd|]. unfold Rdiv. rewrite Rmult_assoc, Rinv_l by lra. lra.
      * cbn [bind]. destruct p as [[pr pg] pb], q as [[qr qg] qb]. reflexivity.
    + apply IH; [lia|lia| |exact Hl]. replace (S i - 1)%nat with (S (i - 1)) by lia. rewrite S_INR. lra.
Qed.

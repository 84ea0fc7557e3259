(** Properties C38-C40, C65-C67: images (rendering/src/image.rs, rendering/src/colourmap/mod.rs). *)
From Coq Require Import String Ascii Reals ZArith NArith List Bool Lia Lra Psatz Arith Floats Uint63.
From Verif.Common Require Import Base Flt Text.
From Verif.Rendering Require Import ImageModel ImageProofs.
Import ListNotations.
Open Scope list_scope.
Open Scope R_scope.

(** ** C38: the four byte encoding of colours *)

(** The decoded channel [d] of a channel [c] of a colour whose brightest channel is [v] *)
Definition faithful_channel (v c d : R) : Prop := 0 <= d <= c /\ c - d < v / 128.

Theorem C38_rgbe : forall debug r g b, 0 <= r -> 0 <= g -> 0 <= b ->
  let v := Rmax r (Rmax g b) in v < 2 ^ 127 ->
  exists cr cg cb ce, colour_to_rgbe debug r g b = Ok (cr, cg, cb, ce) /\
    (0 <= cr <= 255)%Z /\ (0 <= cg <= 255)%Z /\ (0 <= cb <= 255)%Z /\ (0 <= ce <= 255)%Z /\
    let q := rgbe_to_colour cr cg cb ce in
    (1 / 10 ^ 19 <= v -> faithful_channel v r (s_red q) /\ faithful_channel v g (s_green q) /\ faithful_channel v b (s_blue q)) /\
    (v < 1 / 10 ^ 19 -> q = BLACK).
Proof.
  intros debug r g b Hr Hg Hb v Hv. destruct (Rlt_le_dec v (1 / 10 ^ 19)) as [S|S].
  - exists 0%Z, 0%Z, 0%Z, 0%Z. split.
    + unfold colour_to_rgbe. rewrite brightest. fold v. destruct (Rltb_spec v (1 / 10 ^ 19)); [reflexivity|lra].
    + repeat split; try lia; intros; try lra.
  - destruct (rgbe_codes debug r g b Hr Hg Hb S Hv) as (cr & cg & cb & E & Re & Rr & Rg & Rb & Br & Bg & Bb). fold v in E, Br, Bg, Bb, Re.
    set (e := exponent v) in *. exists cr, cg, cb, (e + 128)%Z. split; [exact E|]. repeat (split; [lia|]). split; [|lra]. intros _.
    assert (P : 0 < v). { eapply Rlt_le_trans; [|exact S]. apply Rdiv_lt_0_compat; [lra|apply pow_lt; lra]. }
    destruct (exponent_bounds v P) as [X _]. fold e in X.
    assert (F : powerRZ 2 (e - 8) <= v / 128).
    { replace (e - 8)%Z with ((e - 1) + -7)%Z by lia. rewrite powerRZ_add by lra.
      change (powerRZ 2 (-7)) with (/ 2 ^ 7). replace (/ 2 ^ 7) with (/ 128) by (f_equal; lra). unfold Rdiv. lra. }
    assert (F0 : 0 < powerRZ 2 (e - 8)) by (apply powerRZ_lt; lra).
    unfold rgbe_to_colour. replace (e + 128 =? 0)%Z with false by (symmetry; apply Z.eqb_neq; lia).
    unfold rusty_ldexp. rewrite Rmult_1_l. replace (e + 128 - (128 + 8))%Z with (e - 8)%Z by lia. cbn [s_red s_green s_blue].
    assert (Q : forall c code, (0 <= code)%Z -> IZR code * powerRZ 2 (e - 8) <= c < (IZR code + 1) * powerRZ 2 (e - 8) ->
                faithful_channel v c (IZR code * powerRZ 2 (e - 8))).
    { intros c code Hc [A B]. unfold faithful_channel. apply IZR_le in Hc. split; [split; [nra|exact A]|]. lra. }
    split; [apply Q; [lia|exact Br]|]. split; apply Q; (lia || assumption).
Qed.

Lemma exponent_unique v e : powerRZ 2 (e - 1) <= v < powerRZ 2 e -> exponent v = e.
Proof.
  intros [A B]. assert (P : 0 < v) by (assert (0 < powerRZ 2 (e - 1)) by (apply powerRZ_lt; lra); lra).
  destruct (exponent_bounds v P) as [C D]. rewrite <- !exp2_Z in *.
  assert (X : exp2R (IZR (e - 1)) < exp2R (IZR (exponent v))) by lra. assert (Y : exp2R (IZR (exponent v - 1)) < exp2R (IZR e)) by lra.
  apply exp2_lt_inv, lt_IZR in X, Y. lia.
Qed.

(** Encoding a colour that was decoded gives the same bytes: saving a loaded image changes nothing any more. *)
Theorem C38_stable : forall debug debug' r g b, 0 <= r -> 0 <= g -> 0 <= b ->
  let v := Rmax r (Rmax g b) in 2 / 10 ^ 19 <= v -> v < 2 ^ 127 ->
  forall cr cg cb ce, colour_to_rgbe debug r g b = Ok (cr, cg, cb, ce) ->
  let q := rgbe_to_colour cr cg cb ce in
  colour_to_rgbe debug' (s_red q) (s_green q) (s_blue q) = Ok (cr, cg, cb, ce).
Proof.
  intros debug debug' r g b Hr Hg Hb v Hlo Hv cr cg cb ce E q.
  assert (T19 : 0 < 1 / 10 ^ 19) by lra.
  destruct (C38_rgbe debug r g b Hr Hg Hb Hv) as (cr' & cg' & cb' & ce' & E' & Rr & Rg & Rb & Re & G & _).
  rewrite E in E'. injection E' as <- <- <- <-.
  destruct G as (Fr & Fg & Fb); [fold v; lra|]. fold q v in Fr, Fg, Fb.
  set (v' := Rmax (s_red q) (Rmax (s_green q) (s_blue q))).
  destruct (rgbe_codes debug r g b Hr Hg Hb ltac:(fold v; lra) Hv) as (c1 & c2 & c3 & E1 & R1 & _ & _ & _ & B1 & B2 & B3).
  fold v in E1, R1, B1, B2, B3. rewrite E in E1. injection E1 as <- <- <- ->. set (e := exponent v) in *.
  assert (P : 0 < v) by lra. destruct (exponent_bounds v P) as [X Y]. fold e in X, Y.
  set (f := powerRZ 2 (e - 8)) in *. assert (F0 : 0 < f) by (apply powerRZ_lt; lra).
  assert (Q : q = mkS (IZR cr * f) (IZR cg * f) (IZR cb * f)).
  { unfold q, rgbe_to_colour. replace (e + 128 =? 0)%Z with false by (symmetry; apply Z.eqb_neq; lia).
    unfold rusty_ldexp. rewrite Rmult_1_l. replace (e + 128 - (128 + 8))%Z with (e - 8)%Z by lia. reflexivity. }
  assert (E7 : powerRZ 2 (e - 1) = 128 * f).
  { unfold f. replace (e - 1)%Z with ((e - 8) + 7)%Z by lia. rewrite powerRZ_add by lra.
    change (powerRZ 2 7) with (2 ^ 7). lra. }
  assert (E8 : powerRZ 2 e = 256 * f).
  { unfold f. replace (powerRZ 2 e) with (powerRZ 2 ((e - 8) + 8)) by (f_equal; lia). rewrite powerRZ_add by lra.
    change (powerRZ 2 8) with (2 ^ 8). lra. }
  (* the brightest channel keeps its exponent *)
  assert (M : forall c code, c = v -> IZR code * f <= c < (IZR code + 1) * f -> (128 <= code)%Z).
  { intros c code -> [_ H]. assert (128 * f < (IZR code + 1) * f) by lra.
    assert (IZR 127 < IZR code) by (apply (Rmult_lt_reg_r f); lra). apply lt_IZR in H1. lia. }
  assert (W : (128 <= cr \/ 128 <= cg \/ 128 <= cb)%Z).
  { unfold v, Rmax in M. destruct (Rle_dec g b), (Rle_dec r _); [right; right|left|right; left|left]; eapply M; eauto; unfold v, Rmax;
      repeat destruct (Rle_dec _ _); lra. }
  assert (W' : 128 * f <= v').
  { unfold v'. rewrite Q. cbn [s_red s_green s_blue].
    destruct W as [W|[W|W]]; apply IZR_le in W.
    - eapply Rle_trans; [|apply Rmax_l]. nra.
    - eapply Rle_trans; [|apply Rmax_r]. eapply Rle_trans; [|apply Rmax_l]. nra.
    - eapply Rle_trans; [|apply Rmax_r]. eapply Rle_trans; [|apply Rmax_r]. nra. }
  assert (V' : v' < 256 * f).
  { unfold v'. rewrite Q. cbn [s_red s_green s_blue].
    assert (K : forall c, (0 <= c <= 255)%Z -> IZR c * f < 256 * f).
    { intros c Hc. destruct Hc as [_ Hc]. apply IZR_le in Hc. nra. }
    repeat apply Rmax_lub_lt; apply K; lia. }
  assert (Ev : exponent v' = e). { apply exponent_unique. rewrite E7, E8. lra. }
  assert (N : 0 <= s_red q /\ 0 <= s_green q /\ 0 <= s_blue q) by (unfold faithful_channel in *; tauto).
  destruct N as (N1 & N2 & N3).
  assert (S' : 1 / 10 ^ 19 <= v') by (rewrite E8 in Y; lra).
  assert (H' : v' < 2 ^ 127). { eapply Rle_lt_trans; [|exact Hv]. unfold v', v. unfold faithful_channel in *.
    apply Rmax_lub; [eapply Rle_trans; [|apply Rmax_l]; lra|]. eapply Rle_trans; [|apply Rmax_r].
    apply Rmax_lub; [eapply Rle_trans; [|apply Rmax_l]; lra|]. eapply Rle_trans; [|apply Rmax_r]. lra. }
  destruct (rgbe_codes debug' (s_red q) (s_green q) (s_blue q) N1 N2 N3 S' H') as (d1 & d2 & d3 & E2 & _ & _ & _ & _ & D1 & D2 & D3).
  fold v' in E2, D1, D2, D3. rewrite Ev in E2, D1, D2, D3. rewrite E2. fold f in D1, D2, D3.
  rewrite Q in D1, D2, D3. cbn [s_red s_green s_blue] in D1, D2, D3.
  assert (U : forall c d, IZR d * f <= IZR c * f < (IZR d + 1) * f -> d = c).
  { intros c d [A B]. assert (A' : IZR d <= IZR c) by (apply (Rmult_le_reg_r f); lra).
    assert (B' : IZR c < IZR (d + 1)) by (rewrite plus_IZR; apply (Rmult_lt_reg_r f); lra).
    apply le_IZR in A'. apply lt_IZR in B'. lia. }
  now rewrite (U _ _ D1), (U _ _ D2), (U _ _ D3).
Qed.

(** Example: the code of a colour whose channels are powers of two, which come back unchanged *)
Example C38_example : colour_to_rgbe true 1 (1 / 2) (1 / 4) = Ok (128, 64, 32, 129)%Z /\
  rgbe_to_colour 128 64 32 129 = mkS 1 (1 / 2) (1 / 4).
Proof.
  assert (V : Rmax 1 (Rmax (1 / 2) (1 / 4)) = 1). { unfold Rmax. repeat destruct (Rle_dec _ _); lra. }
  assert (X : exponent 1 = 1%Z). { apply exponent_unique. cbn [Z.sub Z.add Z.opp Z.pos_sub powerRZ]. change (Pos.to_nat 1) with 1%nat. lra. }
  split.
  - destruct (rgbe_codes true 1 (1 / 2) (1 / 4)) as (a & b & c & E & _ & _ & _ & _ & A & B & C); try lra; rewrite ?V; try lra.
    rewrite V, X in *. rewrite E. change (1 - 8)%Z with (-7)%Z in *. cbn [powerRZ] in A, B, C. change (Pos.to_nat 7) with 7%nat in *.
    replace (/ 2 ^ 7) with (/ 128) in * by (f_equal; lra).
    assert (U : forall z n, IZR n - 1 < IZR z < IZR n + 1 -> z = n).
    { intros z n [P Q]. assert (IZR (n - 1) < IZR z) by (rewrite minus_IZR; lra). assert (IZR z < IZR (n + 1)) by (rewrite plus_IZR; lra). apply lt_IZR in H, H0. lia. }
    rewrite (U a 128%Z), (U b 64%Z), (U c 32%Z) by lra. reflexivity.
  - unfold rgbe_to_colour, rusty_ldexp. cbn [Z.eqb Z.add Z.sub Z.opp Z.pos_sub Pos.add Pos.succ Pos.eqb Pos.pred_double Z.succ_double Z.pred_double Z.double].
    change (129 - (128 + 8))%Z with (-7)%Z. cbn [powerRZ]. change (Pos.to_nat 7) with 7%nat. replace (/ 2 ^ 7) with (/ 128) by (f_equal; lra).
    f_equal; lra.
Qed.

(** From 2^127 on the exponent byte wraps around (without debug assertions): the brightest colours come back black. *)
Theorem C38_overflow_refuted : exists r g b cr cg cb ce, 0 <= r /\ 0 <= g /\ 0 <= b /\ 1 <= r /\
  colour_to_rgbe false r g b = Ok (cr, cg, cb, ce) /\ rgbe_to_colour cr cg cb ce = BLACK /\ colour_to_rgbe true r g b = Panic.
Proof.
  set (r := powerRZ 2 127). assert (P1 : 1 <= r). { unfold r. change (powerRZ 2 127) with (2 ^ (Pos.to_nat 127)). apply pow_R1_Rle. lra. }
  assert (X : exponent r = 128%Z).
  { apply exponent_unique. split; [right; reflexivity|]. unfold r. rewrite <- !exp2_Z. apply exp2_mono. apply IZR_lt. lia. }
  assert (V : Rmax r (Rmax 0 0) = r). { unfold Rmax. repeat destruct (Rle_dec _ _); lra. }
  assert (G : forall debug, exists cr cg cb, colour_to_rgbe debug r 0 0 = if debug then Panic else Ok (cr, cg, cb, 0)%Z).
  { intros debug. unfold colour_to_rgbe. rewrite brightest, V. destruct (Rltb_spec r (1 / 10 ^ 19)); [lra|].
    rewrite frexp_pos by lra. rewrite X. destruct debug; cbn [andb negb]; [exists 0%Z, 0%Z, 0%Z; reflexivity|repeat eexists]. }
  destruct (G false) as (cr & cg & cb & E). destruct (G true) as (? & ? & ? & E').
  exists r, 0, 0, cr, cg, cb, 0%Z. do 4 (split; [lra|]). split; [exact E|]. split; [reflexivity|exact E'].
Qed.

(** ** C39: saving and loading images *)

(** ASCII text is valid UTF-8 *)
Definition accepts_ascii (utf8 : text -> bool) : Prop :=
  forall l, Forall (fun c => (nat_of_ascii c < 128)%nat) l -> utf8 l = true.

Theorem C39_round_trip : forall utf8 debug im file, accepts_ascii utf8 ->
  (N.of_nat (width im) < 2 ^ 64)%N -> (N.of_nat (height im) < 2 ^ 64)%N ->
  save_hdre debug im = Ok file ->
  exists px, from_file utf8 file = Ok (mkImage (width im) (height im) px) /\
    Forall2 (fun p q => exists cr cg cb ce, colour_to_rgbe debug (s_red p) (s_green p) (s_blue p) = Ok (cr, cg, cb, ce) /\
                                            q = rgbe_to_colour cr cg cb ce) (pixels im) px.
Proof.
  intros utf8 debug im file U Hw Hh. unfold save_hdre. destruct (pixel_bytes debug (pixels im)) as [body| |] eqn:B; cbn [bind]; try discriminate.
  set (hd := txt "-Y " ++ show_nat (height im) ++ txt " +X " ++ show_nat (width im)).
  replace (txt "#?RGBE" ++ [t_nl] ++ txt "FORMAT=32-bit_rle_rgbe" ++ [t_nl] ++ [t_nl] ++
      txt "-Y " ++ show_nat (height im) ++ txt " +X " ++ show_nat (width im) ++ [t_nl] ++ body)
    with (txt "#?RGBE" ++ t_nl :: (txt "FORMAT=32-bit_rle_rgbe" ++ t_nl :: ([] ++ t_nl :: (hd ++ t_nl :: body)))).
  2:{ unfold hd. rewrite <- !app_assoc. reflexivity. }
  intros E. match type of E with Ok ?f = _ => assert (Ef : file = f) by congruence end. clear E. subst file.
  exists (read_pixels body). split; [|now apply pixels_round_trip].
  unfold from_file. rewrite !read_header_line.
  2:{ unfold hd, no_nl. apply Forall_app. split; [repeat constructor|]. apply Forall_app. split; [apply digits_no_nl|].
      apply Forall_app. split; [repeat constructor|apply digits_no_nl]. }
  2:{ constructor. }
  2:{ repeat constructor. }
  2:{ repeat constructor. }
  cbn [rev app]. change (starts_with (txt "-Y") (txt "#?RGBE")) with false. change (starts_with (txt "FORMAT") (txt "#?RGBE")) with false.
  change (starts_with (txt "-Y") (txt "FORMAT=32-bit_rle_rgbe")) with false. change (starts_with (txt "FORMAT") (txt "FORMAT=32-bit_rle_rgbe")) with true.
  change (format_line_ok (txt "FORMAT=32-bit_rle_rgbe")) with true. cbn iota.
  change (starts_with (txt "-Y") []) with false. change (starts_with (txt "FORMAT") []) with false. cbn iota.
  change (starts_with (txt "-Y") hd) with true. cbn iota. unfold hd. rewrite size_line_written by assumption. reflexivity.
Qed.

(** Images with colours between 0 and 2^127 are saved, and every channel that comes back is at most 1/128 of the brightest
    channel of its pixel lower. *)
Theorem C39_close : forall utf8 debug im, accepts_ascii utf8 ->
  (N.of_nat (width im) < 2 ^ 64)%N -> (N.of_nat (height im) < 2 ^ 64)%N ->
  Forall (fun p => 0 <= s_red p < 2 ^ 127 /\ 0 <= s_green p < 2 ^ 127 /\ 0 <= s_blue p < 2 ^ 127) (pixels im) ->
  exists file px, save_hdre debug im = Ok file /\ from_file utf8 file = Ok (mkImage (width im) (height im) px) /\
    length px = length (pixels im) /\
    forall i p q, nth_error (pixels im) i = Some p -> nth_error px i = Some q ->
      let v := Rmax (s_red p) (Rmax (s_green p) (s_blue p)) in
      forall c, In c [s_red; s_green; s_blue] -> 0 <= c q <= c p /\ c p - c q <= Rmax (v / 128) (1 / 10 ^ 19).
Proof.
  intros utf8 debug im U Hw Hh HF.
  assert (S : exists body, pixel_bytes debug (pixels im) = Ok body).
  { induction HF as [|p ps Hp HF IH]; [now exists []|]. destruct IH as [body IH]. cbn [pixel_bytes].
    destruct (C38_rgbe debug (s_red p) (s_green p) (s_blue p)) as (a & b & c & d & E & _); try tauto.
    { repeat apply Rmax_lub_lt; tauto. }
    rewrite E. cbn [bind]. rewrite IH. cbn [bind]. eauto. }
  destruct S as [body S].
  assert (S' : exists file, save_hdre debug im = Ok file) by (unfold save_hdre; rewrite S; cbn [bind]; eauto).
  destruct S' as [file S']. destruct (C39_round_trip utf8 debug im file U Hw Hh S') as (px & L & F2).
  exists file, px. split; [exact S'|]. split; [exact L|]. split; [clear -F2; induction F2; cbn [length]; congruence|].
  intros i p q Hp Hq v c Hc.
  assert (T : exists cr cg cb ce, colour_to_rgbe debug (s_red p) (s_green p) (s_blue p) = Ok (cr, cg, cb, ce) /\ q = rgbe_to_colour cr cg cb ce).
  { clear -F2 Hp Hq. revert i Hp Hq. induction F2 as [|a b la lb H F IH]; intros [|i] Hp Hq; try discriminate; cbn [nth_error] in *.
    - injection Hp as <-. injection Hq as <-. exact H.
    - eauto. }
  destruct T as (cr & cg & cb & ce & E & ->). rewrite Forall_forall in HF. specialize (HF p (nth_error_In _ _ Hp)).
  destruct (C38_rgbe debug (s_red p) (s_green p) (s_blue p)) as (a & b & c' & d & E' & _ & _ & _ & _ & A & B); try tauto.
  { repeat apply Rmax_lub_lt; tauto. }
  rewrite E in E'. injection E' as <- <- <- <-. fold v in A, B. cbv zeta in A, B. unfold faithful_channel in A.
  assert (T19 : 0 < 1 / 10 ^ 19) by lra.
  destruct (Rlt_le_dec v (1 / 10 ^ 19)) as [Lt|Le].
  - rewrite (B Lt). pose proof (Rmax_r (v / 128) (1 / 10 ^ 19)) as M.
    assert (s_red p <= v /\ s_green p <= v /\ s_blue p <= v) as (M1 & M2 & M3).
    { unfold v. repeat split; [apply Rmax_l| |].
      - eapply Rle_trans; [|apply Rmax_r]. apply Rmax_l.
      - eapply Rle_trans; [|apply Rmax_r]. apply Rmax_r. }
    cbn [In] in Hc. destruct Hc as [<-|[<-|[<-|[]]]]; cbn [BLACK s_red s_green s_blue]; lra.
  - destruct (A Le) as (A1 & A2 & A3). pose proof (Rmax_l (v / 128) (1 / 10 ^ 19)) as M.
    cbn [In] in Hc. destruct Hc as [<-|[<-|[<-|[]]]]; lra.
Qed.

(** Loading never panics, whatever the file *)
Theorem C39_no_panic : forall utf8 file, from_file utf8 file <> Panic.
Proof.
  intros utf8 file. unfold from_file. assert (G : forall l acc, read_header utf8 acc l <> Panic).
  { induction l as [|c l IH]; intros acc; cbn [read_header]; [discriminate|].
    destruct (Ascii.eqb c t_nl); [|apply IH]. destruct (starts_with (txt "-Y") (rev acc)).
    - unfold size_line. destruct (negb _); [discriminate|].
      destruct (split_on _ _) as [|a [|h [|x [|w [|? ?]]]]]; cbn [bind]; try discriminate.
      destruct (negb (text_eqb _ _)); [discriminate|]. destruct (negb (_ && _)); [discriminate|].
      destruct (parse_usize h), (parse_usize w); cbn [bind]; discriminate.
    - destruct (starts_with _ _); [|apply IH]. destruct (format_line_ok _); [apply IH|discriminate]. }
  specialize (G file []). destruct (read_header utf8 [] file) as [[[h w] body]| |]; cbn [bind]; congruence.
Qed.

(** The number of pixels in the file is not compared with the size it announces: a file with too few of them is accepted,
    and looking at a pixel inside the announced size then panics. *)
Theorem C39_count_refuted : forall utf8, accepts_ascii utf8 -> exists file im, from_file utf8 file = Ok im /\
  width im = 2%nat /\ height im = 2%nat /\ length (pixels im) = 1%nat /\ image_index im 1 1 = Panic.
Proof.
  intros utf8 U. set (body := [byte 128; byte 128; byte 128; byte 129]). exists ((txt "-Y 2 +X 2") ++ t_nl :: body).
  exists (mkImage 2 2 (read_pixels body)). split; [|repeat split].
  unfold from_file. rewrite read_header_line by (repeat constructor). cbn [rev app].
  change (starts_with (txt "-Y") (txt "-Y 2 +X 2")) with true. cbn iota.
  replace (size_line utf8 (txt "-Y 2 +X 2")) with (Ok (2%nat, 2%nat)). 2:{ symmetry. apply (size_line_written utf8 2 2 U); reflexivity. }
  reflexivity.
Qed.

Lemma accepts_all : accepts_ascii (fun _ => true).
Proof. intros l H. reflexivity. Qed.

(** Example: a 2x1 image *)
Example C39_example : exists file px, save_hdre true (mkImage 2 1 [mkS 1 (1 / 2) (1 / 4); BLACK]) = Ok file /\
  from_file (fun _ => true) file = Ok (mkImage 2 1 px) /\ px = [mkS 1 (1 / 2) (1 / 4); BLACK].
Proof.
  set (im := mkImage 2 1 [mkS 1 (1 / 2) (1 / 4); BLACK]).
  assert (Z : colour_to_rgbe true 0 0 0 = Ok (0, 0, 0, 0)%Z).
  { unfold colour_to_rgbe. rewrite brightest. replace (Rmax 0 (Rmax 0 0)) with 0 by (unfold Rmax; repeat destruct (Rle_dec _ _); lra).
    destruct (Rltb_spec 0 (1 / 10 ^ 19)); [reflexivity|lra]. }
  destruct C38_example as [E1 E2].
  assert (S : exists file, save_hdre true im = Ok file).
  { unfold save_hdre, im. cbn [pixels pixel_bytes s_red s_green s_blue BLACK]. rewrite E1. cbn [bind]. rewrite Z. cbn [bind]. eauto. }
  destruct S as [file S]. destruct (C39_round_trip (fun _ => true) true im file accepts_all) as (px & L & F); try reflexivity; [exact S|].
  exists file, px. split; [exact S|]. split; [exact L|]. inversion F as [|? q ? ? (a & b & c & d & A & ->) F']; subst.
  inversion F' as [|? q' ? ? (a' & b' & c' & d' & A' & ->) F'']; subst. inversion F''; subst.
  cbn [s_red s_green s_blue BLACK] in A, A'. rewrite E1 in A. injection A as <- <- <- <-. rewrite Z in A'. injection A' as <- <- <- <-.
  rewrite E2. reflexivity.
Qed.

(** ** C40: falsecolour *)

(** The colour of a value: below the range the first entry, above it the last one, in between a mix of two consecutive
    entries in proportion to the position of the value *)
Theorem C40_map : forall mn mx map' x, (2 <= length map')%nat ->
  exists c, map_linear_colour RF INR x mn mx map' = Ok c /\
    (x <= mn -> nth_error map' 0 = Some c) /\
    (mn < x -> mx <= x -> nth_error map' (length map' - 1) = Some c) /\
    (mn < x < mx -> exists i lam p q, nth_error map' i = Some p /\ nth_error map' (S i) = Some q /\ 0 <= lam <= 1 /\
       x = mn + (INR i + lam) * ((mx - mn) / INR (length map' - 1)) /\
       forall k, (k < 3)%nat -> chan k c = (1 - lam) * chan k p + lam * chan k q).
Proof.
  intros mn mx map' x L. unfold map_linear_colour. cbn [fleb fsub fdiv RF].
  destruct (Rleb_spec x mn) as [A|A].
  - unfold entry. destruct (nth_error map' 0) as [c|] eqn:E; [|apply nth_error_None in E; lia].
    exists c. split; [reflexivity|]. split; [auto|]. split; intros; lra.
  - destruct map' as [|c0 r] eqn:Em; [cbn in L; lia|]. rewrite <- Em in *. clear Em.
    destruct (Rleb_spec mx x) as [B|B].
    + unfold entry. destruct (nth_error map' (length map' - 1)) as [c|] eqn:E; [|apply nth_error_None in E; lia].
      exists c. split; [reflexivity|]. split; [intros; lra|]. split; [auto|intros; lra].
    + set (delta := (mx - mn) / INR (length map' - 1)).
      assert (Hn : 0 < INR (length map' - 1)) by (apply lt_0_INR; lia).
      assert (Hd : 0 < delta) by (apply Rdiv_lt_0_compat; lra).
      destruct (find_bin_spec x mn delta map' (length map' - 1) Hd 1) as (j & lam & p & q & Hj & Hl & Hx & P & Q & E); try lia.
      { cbn. lra. } { unfold delta. field_simplify; lra. }
      eexists. split; [exact E|]. split; [intros; lra|]. split; [intros; lra|]. intros _.
      exists j, lam, p, q. split; [exact P|]. split; [exact Q|]. split; [exact Hl|]. split; [exact Hx|].
      intros k Hk. destruct k as [|[|[|k]]]; [| | |lia]; cbn [chan]; ring.
Qed.

(** The position of a value within a range, counted in entries; the colour is one piecewise linear function of it *)
Lemma map_piecewise mn mx map' x c k : mn < mx -> (2 <= length map')%nat -> (k < 3)%nat ->
  map_linear_colour RF INR x mn mx map' = Ok c ->
  chan k c = piecewise (map (chan k) map') ((x - mn) / (mx - mn) * INR (length map' - 1)).
Proof.
  intros HR L Hk E. destruct (C40_map mn mx map' x L) as (c' & E' & Lo & Hi & Mid). rewrite E in E'. injection E' as <-.
  assert (Hn : 0 < INR (length map' - 1)) by (apply lt_0_INR; lia).
  destruct (Rle_lt_dec x mn) as [A|A].
  - specialize (Lo A). destruct map' as [|c0 r]; [discriminate|]. cbn [nth_error] in Lo. injection Lo as <-. cbn [map].
    rewrite climb_le_zero; [reflexivity|]. assert ((x - mn) / (mx - mn) <= 0); [|nra].
    unfold Rdiv. assert (0 < / (mx - mn)) by (apply Rinv_0_lt_compat; lra). nra.
  - destruct (Rle_lt_dec mx x) as [B|B].
    + specialize (Hi A B). rewrite piecewise_top.
      * assert (G : forall l (d : R) c, nth_error l (length l - 1) = Some c -> last (map (chan k) l) d = chan k c).
        { clear. induction l as [|a [|b l] IH]; intros d c H; [discriminate|cbn in *; congruence|].
          change (last (map (chan k) (a :: b :: l)) d) with (last (map (chan k) (b :: l)) d). apply IH.
          replace (length (a :: b :: l) - 1)%nat with (S (length (b :: l) - 1)) in H by (cbn; lia). exact H. }
        now rewrite (G map' 0 c).
      * destruct map'; [cbn in L; lia|discriminate].
      * rewrite map_length. assert (1 <= (x - mn) / (mx - mn)); [|nra].
        apply (Rmult_le_reg_r (mx - mn)); [lra|]. unfold Rdiv. rewrite Rmult_assoc, Rinv_l by lra. lra.
    + destruct (Mid (conj A B)) as (i & lam & p & q & P & Q & Hl & Hx & Hc). rewrite (Hc k Hk).
      replace ((x - mn) / (mx - mn) * INR (length map' - 1)) with (INR i + lam) by (rewrite Hx; field; lra).
      assert (Hi' : (S i < length map')%nat) by (apply nth_error_Some; congruence).
      rewrite piecewise_bin by (rewrite ?map_length; auto; lia).
      assert (G : forall j c, nth_error map' j = Some c -> nth j (map (chan k) map') 0 = chan k c).
      { intros j c0 Hc0. apply nth_error_nth. now apply map_nth_error. }
      rewrite (G _ _ P), (G _ _ Q). ring.
Qed.

(** The colours move continuously: close values have close colours. *)
Theorem C40_continuous : forall mn mx map', mn < mx -> (2 <= length map')%nat ->
  exists L, forall x y cx cy, map_linear_colour RF INR x mn mx map' = Ok cx -> map_linear_colour RF INR y mn mx map' = Ok cy ->
    forall k, (k < 3)%nat -> Rabs (chan k cx - chan k cy) <= L * Rabs (x - y).
Proof.
  intros mn mx map' HR L. set (s := INR (length map' - 1) / (mx - mn)).
  assert (S0 : 0 < s) by (apply Rdiv_lt_0_compat; [apply lt_0_INR; lia|lra]).
  set (tv k := total_variation (map (chan k) map')).
  assert (T0 : forall l, 0 <= total_variation l).
  { induction l as [|a [|b l] IH]; cbn [total_variation] in *; try lra. pose proof (Rabs_pos (b - a)). lra. }
  exists ((tv 0%nat + tv 1%nat + tv 2%nat) * s). intros x y cx cy Ex Ey k Hk.
  rewrite (map_piecewise mn mx map' x cx k HR L Hk Ex), (map_piecewise mn mx map' y cy k HR L Hk Ey).
  eapply Rle_trans; [apply piecewise_lip|]. fold (tv k).
  replace ((x - mn) / (mx - mn) * INR (length map' - 1) - (y - mn) / (mx - mn) * INR (length map' - 1)) with (s * (x - y)) by (unfold s; field; lra).
  rewrite Rabs_mult, (Rabs_right s) by lra. rewrite <- Rmult_assoc. apply Rmult_le_compat_r; [apply Rabs_pos|]. apply Rmult_le_compat_r; [lra|].
  pose proof (T0 (map (chan 0) map')). pose proof (T0 (map (chan 1) map')). pose proof (T0 (map (chan 2) map')).
  unfold tv. destruct k as [|[|[|k]]]; [lra|lra|lra|lia].
Qed.

(** Every entry is reached, at its node. *)
Theorem C40_nodes : forall mn mx map' i p, mn < mx -> (2 <= length map')%nat -> nth_error map' i = Some p ->
  exists c, map_linear_colour RF INR (mn + INR i * ((mx - mn) / INR (length map' - 1))) mn mx map' = Ok c /\
    forall k, (k < 3)%nat -> chan k c = chan k p.
Proof.
  intros mn mx map' i p HR L P. set (x := mn + INR i * ((mx - mn) / INR (length map' - 1))).
  destruct (C40_map mn mx map' x L) as (c & E & _). exists c. split; [exact E|]. intros k Hk.
  rewrite (map_piecewise mn mx map' x c k HR L Hk E).
  assert (Hn : 0 < INR (length map' - 1)) by (apply lt_0_INR; lia).
  replace ((x - mn) / (mx - mn) * INR (length map' - 1)) with (INR i) by (unfold x; field; lra).
  assert (Hi : (i < length map')%nat) by (apply nth_error_Some; congruence).
  assert (G : forall j c0, nth_error map' j = Some c0 -> nth j (map (chan k) map') 0 = chan k c0).
  { intros j c0 Hc0. apply nth_error_nth. now apply map_nth_error. }
  destruct (Nat.eq_dec (S i) (length map')) as [El|Nl].
  - destruct i as [|i]; [lia|]. rewrite S_INR. rewrite piecewise_bin by (rewrite ?map_length; lia || lra).
    rewrite (G _ _ P). ring.
  - replace (INR i) with (INR i + 0) by ring. rewrite piecewise_bin by (rewrite ?map_length; lia || lra). rewrite (G _ _ P). ring.
Qed.

(** A map of one colour has no bins: inside the range the code reaches [unreachable!()]. *)
Example C40_one_entry : forall c, map_linear_colour RF INR 1 0 2 [c] = Panic.
Proof.
  intros c. unfold map_linear_colour. cbn [fleb RF]. destruct (Rleb_spec 1 0); [lra|]. destruct (Rleb_spec 2 1); [lra|]. reflexivity.
Qed.

Example C40_example : exists c, map_linear_colour RF INR 3 0 4 [(0, 0, 0); (1, 0, 1); (0, 1, 1)] = Ok c /\ chan 0 c = 1 / 2 /\ chan 1 c = 1 / 2.
Proof.
  set (m := [(0, 0, 0); (1, 0, 1); (0, 1, 1)]). destruct (C40_map 0 4 m 3) as (c & E & _); [cbn; lia|].
  exists c. split; [exact E|]. split.
  - rewrite (map_piecewise 0 4 m 3 c 0) by (try lra; try exact E; cbn; lia).
    replace ((3 - 0) / (4 - 0) * INR (length m - 1)) with (INR 1 + 1 / 2) by (cbn; field). rewrite piecewise_bin by (cbn; lia || lra). cbn. lra.
  - rewrite (map_piecewise 0 4 m 3 c 1) by (try lra; try exact E; cbn; lia).
    replace ((3 - 0) / (4 - 0) * INR (length m - 1)) with (INR 1 + 1 / 2) by (cbn; field). rewrite piecewise_bin by (cbn; lia || lra). cbn. lra.
Qed.

(** In double precision the end of the last bin can be below the maximum, so that a value just below the maximum reaches
    [unreachable!()]: here with 256 colours and the range that [save_log_falsecolour] uses for a dim image. *)
Definition float_of_nat (n : nat) : float := PrimFloat.of_uint63 (Uint63.of_Z (Z.of_nat n)).
Theorem C40_rounding_refuted : exists (x mn mx : float) map', length map' = 256%nat /\
  PrimFloat.ltb mn x = true /\ PrimFloat.ltb x mx = true /\
  map_linear_colour PF float_of_nat x mn mx map' = Panic.
Proof.
  exists 0.0019999999999999%float, (-3)%float, 0.002%float, (repeat (0.5, 0.5, 0.5)%float 256).
  split; [apply repeat_length|]. split; [vm_compute; reflexivity|]. split; vm_compute; reflexivity.
Qed.

(** ** C65: pixels of an image *)
Definition well_formed (im : ImageBuffer) : Prop := length (pixels im) = (width im * height im)%nat.

Theorem C65_pixels : forall im x y, well_formed im -> (x < width im)%nat -> (y < height im)%nat ->
  (exists p, image_index im x y = Ok p) /\
  forall q, exists im', image_set im x y q = Ok im' /\ well_formed im' /\ width im' = width im /\ height im' = height im /\
    image_index im' x y = Ok q /\
    forall x' y', (x' < width im)%nat -> (y' < height im)%nat -> (x', y') <> (x, y) -> image_index im' x' y' = image_index im x' y'.
Proof.
  intros im x y W Hx Hy. assert (Hi : (y * width im + x < length (pixels im))%nat) by (rewrite W; nia).
  unfold image_index, image_set. split.
  - destruct (nth_error (pixels im) (y * width im + x)) eqn:E; [eauto|]. apply nth_error_None in E. lia.
  - intros q. replace (y * width im + x <? length (pixels im))%nat with true by (symmetry; now apply Nat.ltb_lt).
    eexists. split; [reflexivity|]. cbn [width height pixels]. split; [unfold well_formed; cbn; now rewrite upd_length|].
    split; [reflexivity|]. split; [reflexivity|]. rewrite nth_error_upd_same by exact Hi. split; [reflexivity|].
    intros x' y' Hx' Hy' N. rewrite nth_error_upd_other; [reflexivity|]. intros E. apply N.
    destruct (rm_inj (width im) y x y' x') as [-> ->]; [lia|lia|nia|reflexivity].
Qed.

Theorem C65_new : forall w h x y, (x < w)%nat -> (y < h)%nat -> well_formed (image_new w h) /\ image_index (image_new w h) x y = Ok BLACK.
Proof.
  intros w h x y Hx Hy. unfold well_formed, image_index, image_new. cbn [width height pixels]. split; [apply repeat_length|].
  rewrite nth_error_repeat by nia. reflexivity.
Qed.

(** A column outside the image is not rejected: it silently reads the next row. *)
Theorem C65_column_refuted : exists im x y p, well_formed im /\ (width im <= x)%nat /\ image_index im x y = Ok p /\ image_index im 0 1 = Ok p.
Proof. exists (mkImage 2 2 [gray 1; gray 2; gray 3; gray 4]), 2%nat, 0%nat, (gray 3). repeat split. cbn. lia. Qed.

Example C65_example : image_index (mkImage 2 2 [gray 1; gray 2; gray 3; gray 4]) 1 1 = Ok (gray 4).
Proof. reflexivity. Qed.

(** ** C66: differences of images *)
Theorem C66_symmetric : forall a b, image_diff a b = image_diff b a.
Proof.
  intros a b. unfold image_diff. rewrite (Nat.eqb_sym (width b)), (Nat.eqb_sym (height b)).
  destruct (width a =? width b)%nat eqn:E1, (height a =? height b)%nat eqn:E2; cbn [andb negb]; try reflexivity.
  apply Nat.eqb_eq in E1, E2. rewrite E1, E2. f_equal. clear. revert b. destruct a as [wa ha pa]. intros [wb hb pb]. cbn [pixels]. clear.
  revert pb. induction pa as [|p pa IH]; intros [|q pb]; cbn [combine map]; try reflexivity. rewrite IH, Rabs_minus_sym. reflexivity.
Qed.
Theorem C66_diff : forall a b, well_formed a -> well_formed b ->
  (width a = width b /\ height a = height b ->
     exists d, image_diff a b = Ok d /\ well_formed d /\ width d = width a /\ height d = height a /\
       forall i p q, nth_error (pixels a) i = Some p -> nth_error (pixels b) i = Some q ->
         nth_error (pixels d) i = Some (gray (Rabs (radiance p - radiance q)))) /\
  (~ (width a = width b /\ height a = height b) -> image_diff a b = Err).
Proof.
  intros a b Wa Wb. unfold image_diff. split.
  - intros [E1 E2]. rewrite E1, E2, !Nat.eqb_refl. cbn [andb negb]. unfold from_pixels.
    set (px := map _ _). assert (L : length px = (width b * height b)%nat).
    { unfold px. rewrite map_length, combine_length. unfold well_formed in *. rewrite Wa, Wb, E1, E2. apply Nat.min_id. }
    rewrite L, Nat.eqb_refl. eexists. split; [reflexivity|]. repeat split; auto. cbn [pixels].
    intros i p q Hp Hq. unfold px. rewrite nth_error_map.
    assert (C : nth_error (combine (pixels a) (pixels b)) i = Some (p, q)).
    { clear -Hp Hq. revert i Hp Hq. generalize (pixels a) (pixels b). induction l as [|x l IH]; intros [|y l'] [|i] Hp Hq; try discriminate; cbn in *; [congruence|eauto]. }
    now rewrite C.
  - intros N. destruct (width a =? width b)%nat eqn:E1, (height a =? height b)%nat eqn:E2; try reflexivity.
    apply Nat.eqb_eq in E1, E2. tauto.
Qed.
(** An image does not differ from itself *)
Theorem C66_self : forall a, well_formed a -> image_diff a a = Ok (mkImage (width a) (height a) (repeat BLACK (width a * height a))).
Proof.
  intros a W. unfold image_diff. rewrite !Nat.eqb_refl. cbn [andb negb].
  replace (map (fun '(p, q) => gray (Rabs (radiance p - radiance q))) (combine (pixels a) (pixels a))) with (repeat BLACK (width a * height a)).
  - unfold from_pixels. now rewrite repeat_length, Nat.eqb_refl.
  - rewrite <- W. clear. induction (pixels a) as [|p l IH]; [reflexivity|]. cbn [length repeat combine map]. rewrite IH.
    replace (radiance p - radiance p) with 0 by ring. rewrite Rabs_R0. reflexivity.
Qed.
Example C66_example : image_diff (mkImage 1 1 [gray 3]) (mkImage 1 1 [gray 1]) = Ok (mkImage 1 1 [gray (Rabs (radiance (gray 3) - radiance (gray 1)))]).
Proof. reflexivity. Qed.

(** ** C67: the automatic range of falsecolour images *)
Lemma largest_spec l m : (forall v, In v l -> v <= largest m l) /\ m <= largest m l /\ (largest m l = m \/ In (largest m l) l).
Proof.
  unfold largest. revert m. induction l as [|a l IH]; intros m; cbn [fold_left]; [repeat split; [intros v []|lra|auto]|].
  destruct (Rltb_spec m a) as [L|L].
  - destruct (IH a) as (A & B & C). repeat split.
    + intros v [<-|Hv]; [exact B|now apply A].
    + lra.
    + right. cbn. destruct C as [->|C]; auto.
  - destruct (IH m) as (A & B & C). repeat split.
    + intros v [<-|Hv]; [lra|now apply A].
    + exact B.
    + cbn. tauto.
Qed.
Lemma mapM_ok {A B} (f : A -> res B) l bs : mapM f l = Ok bs -> Forall2 (fun a b => f a = Ok b) l bs.
Proof.
  revert bs. induction l as [|a l IH]; intros bs; cbn [mapM].
  - intros E. injection E as <-. constructor.
  - destruct (f a) as [b| |] eqn:Ea; cbn [bind]; try discriminate. destruct (mapM f l) as [rs| |]; cbn [bind]; try discriminate.
    intros E. injection E as <-. constructor; auto.
Qed.
Lemma mapM_all {A B} (f : A -> res B) l : (forall a, In a l -> exists b, f a = Ok b) -> exists bs, mapM f l = Ok bs.
Proof.
  induction l as [|a l IH]; intros H; cbn [mapM]; [eauto|]. destruct (H a) as [b Eb]; [now left|]. destruct IH as [bs E]; [intros; apply H; now right|].
  rewrite Eb, E. cbn [bind]. eauto.
Qed.

(** With no range given, a linear falsecolour image gets one colour per pixel, and the brightest pixel (if any is not
    black) gets the last colour of the map. *)
Theorem C67_linear : forall map' im, (2 <= length map')%nat ->
  exists cs, falsecolour_linear None None map' im = Ok cs /\ length cs = length (pixels im) /\
    forall i p c, nth_error (pixels im) i = Some p -> nth_error cs i = Some c ->
      (forall q, In q (pixels im) -> luminance q <= luminance p) -> 0 < luminance p ->
      nth_error map' (length map' - 1) = Some c.
Proof.
  intros map' im L. unfold falsecolour_linear. cbn [linear_range].
  set (lum := map luminance (pixels im)). set (hi := let m := largest 0 lum in if Rleb m 0 then 2 * 0 else m).
  change (linear_range None None lum) with (0, hi). cbn iota.
  destruct (mapM_all (fun x => map_linear_colour RF INR x 0 hi map') lum) as [cs E].
  { intros x _. destruct (C40_map 0 hi map' x L) as (c & E & _). eauto. }
  exists cs. split; [exact E|]. pose proof (mapM_ok _ _ _ E) as F. split; [replace (length (pixels im)) with (length lum) by apply map_length; clear -F; induction F; cbn [length]; congruence|].
  intros i p c Hp Hc Hmax Hpos.
  assert (Hl : nth_error lum i = Some (luminance p)) by (unfold lum; now apply map_nth_error).
  assert (Hm : map_linear_colour RF INR (luminance p) 0 hi map' = Ok c).
  { clearbody lum hi. clear -F Hl Hc. revert i Hl Hc. induction F as [|a b la lb H F IH]; intros [|i] Hl Hc; try discriminate; cbn [nth_error] in *; [|eauto].
    injection Hl as ->. injection Hc as ->. exact H. }
  destruct (largest_spec lum 0) as (A & B & C).
  assert (Hh : hi = luminance p).
  { assert (A1 : luminance p <= largest 0 lum) by (apply A; eapply nth_error_In; eauto).
    unfold hi. cbn zeta. destruct (Rleb_spec (largest 0 lum) 0); [lra|].
    destruct C as [C|C]; [lra|]. unfold lum in C. apply in_map_iff in C. destruct C as (q & Eq & Hq).
    specialize (Hmax q Hq). fold lum in Eq. lra. }
  destruct (C40_map 0 hi map' (luminance p) L) as (c' & E' & _ & Hi & _). rewrite Hm in E'. injection E' as <-. apply Hi; lra.
Qed.

(** Not so for the logarithmic falsecolour: the search for the maximum starts from 0.001 although the values are logarithms,
    so a dim image never reaches the last colour. *)
Theorem C67_log_refuted : exists map' im p cs c, (2 <= length map')%nat /\ pixels im = [p] /\ 0 < luminance p /\
  falsecolour_log None None map' im = Ok cs /\ cs = [c] /\ nth_error map' (length map' - 1) = Some (1, 1, 1) /\ chan 0 c < 2 / 3.
Proof.
  set (p := gray (/ 1790)). assert (Lp : luminance p = 1 / 10) by (unfold luminance, radiance, p, gray; cbn [s_red s_green s_blue]; lra).
  set (m := [(0, 0, 0); (1, 1, 1)]). set (im := mkImage 1 1 [p]).
  assert (l10 : 0 < ln 10) by (rewrite <- ln_1; apply ln_increasing; lra).
  assert (Lv : log10R (1 / 10) = -1). { unfold log10R, Rdiv. rewrite Rmult_1_l, ln_Rinv by lra. field. lra. }
  assert (Lm : log10R (1 / 1000) = -3).
  { unfold log10R, Rdiv. rewrite Rmult_1_l, ln_Rinv by lra. replace 1000 with (10 * 10 * 10) by lra. rewrite !ln_mult by lra. field. lra. }
  destruct (C40_map (-3) (2 / 1000) m (-1)) as (c & E & _); [cbn; lia|].
  exists m, im, p, [c], c. split; [cbn; lia|]. split; [reflexivity|]. split; [lra|].
  split; [|split; [reflexivity|split; [reflexivity|]]].
  - unfold falsecolour_log, im. cbn [pixels map]. rewrite Lp, Lv. unfold log_range. rewrite Lm.
    assert (Lg : largest (1 / 1000) [-1] = 1 / 1000) by (unfold largest; cbn [fold_left]; destruct (Rltb_spec (1 / 1000) (-1)); lra).
    rewrite Lg. destruct (Rleb_spec (1 / 1000) (1 / 1000)); [|lra]. replace (2 * (1 / 1000)) with (2 / 1000) by lra.
    cbn [mapM]. rewrite E. reflexivity.
  - rewrite (map_piecewise (-3) (2 / 1000) m (-1) c 0) by (try lra; try exact E; cbn; lia).
    replace ((-1 - -3) / (2 / 1000 - -3) * INR (length m - 1)) with (INR 0 + 2000 / 3002) by (cbn; field).
    rewrite piecewise_bin by (cbn; lia || lra). cbn. lra.
Qed.

Example C67_example : exists cs, falsecolour_linear None None [(0, 0, 0); (1, 1, 1)] (mkImage 2 1 [gray 1; gray 2]) = Ok cs /\
  nth_error cs 1 = Some (1, 1, 1).
Proof.
  destruct (C67_linear [(0, 0, 0); (1, 1, 1)] (mkImage 2 1 [gray 1; gray 2])) as (cs & E & L & H); [cbn; lia|].
  exists cs. split; [exact E|]. destruct cs as [|a [|b [|? ?]]]; try discriminate. cbn [nth_error]. f_equal.
  specialize (H 1%nat (gray 2) b eq_refl eq_refl). cbn [length Nat.sub nth_error] in H.
  enough (Some (1, 1, 1) = Some b) by congruence. apply H.
  - intros q [<-|[<-|[]]]; unfold luminance, radiance, gray; cbn [s_red s_green s_blue]; lra.
  - unfold luminance, radiance, gray; cbn [s_red s_green s_blue]; lra.
Qed.

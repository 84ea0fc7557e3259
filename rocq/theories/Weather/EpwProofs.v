(** Proofs about the reader of EPW files. *)
From Coq Require Import ZArith QArith Qround Ascii String List Bool Arith Lia.
From Verif.Calendar Require Import DateModel DateSpec.
From Verif.Weather Require Import WeatherModel EpwModel.
From Verif Require Import Common.Base.
Import ListNotations.
Open Scope list_scope.
Open Scope nat_scope.

(** The text of a field: commas only between quotes, no line breaks. *)
Inductive field : list ascii -> Prop :=
| field_nil : field []
| field_char c f : c <> comma -> c <> nl -> c <> quote -> field f -> field (c :: f)
| field_quoted q f : ~ In quote q -> ~ In nl q -> field f -> field (quote :: q ++ quote :: f).

Inductive sep := Comma | LF | CRLF.
Definition sep_text (s : sep) : list ascii :=
  match s with Comma => [comma] | LF => [nl] | CRLF => [cr; nl] end.

Definition no_cr_end (f : list ascii) : Prop := forall g, f <> g ++ [cr].

(** The fields of a file, each followed by a separator, and a last one without separator (empty when the file ends
    in a separator). *)
Definition pieces := list (list ascii * sep).
Definition file_text (ps : pieces) (final : list ascii) : list ascii :=
  flat_map (fun p => fst p ++ sep_text (snd p)) ps ++ final.
Definition fields (ps : pieces) (final : list ascii) : list (list ascii) :=
  map fst ps ++ match final with [] => [] | f => [f] end.

Definition wf_pieces (ps : pieces) (final : list ascii) : Prop :=
  Forall (fun p => field (fst p) /\ no_cr_end (fst p)) ps /\ field final /\ no_cr_end final.

(** The file does not begin with a separator. *)
Definition proper_start (ps : pieces) : Prop :=
  match ps with ([], Comma) :: _ => False | ([], LF) :: _ => False | _ => True end.

Lemma scan_to_in q r : ~ In quote q -> ~ In nl q ->
  scan_to (q ++ quote :: r) true = let '(k, b) := scan_to r false in (length q + S k, b).
Proof.
  induction q as [|c q IH]; intros Hq Hn.
  - cbn [app scan_to negb andb]. replace (Ascii.eqb quote nl) with false by reflexivity.
    rewrite Ascii.eqb_refl. destruct (scan_to r false). reflexivity.
  - cbn [app scan_to negb andb].
    assert (c <> nl) by (intros ->; apply Hn; now left).
    assert (c <> quote) by (intros ->; apply Hq; now left).
    replace (Ascii.eqb c nl) with false by (symmetry; now apply Ascii.eqb_neq).
    replace (Ascii.eqb c quote) with false by (symmetry; now apply Ascii.eqb_neq).
    rewrite IH; [|intros Q; apply Hq; now right|intros Q; apply Hn; now right].
    destruct (scan_to r false). reflexivity.
Qed.

Lemma scan_to_field f : field f -> forall r, match r with [] => True | c :: _ => c = comma \/ c = nl end ->
  scan_to (f ++ r) false = (length f, false).
Proof.
  induction 1 as [|c f H1 H2 H3 Hf IH|q f Hq Hn Hf IH]; intros r Hr.
  - cbn [app length]. destruct r as [|c r]; [reflexivity|]. cbn [scan_to negb andb].
    destruct Hr as [-> | ->]; reflexivity.
  - cbn [app scan_to negb andb length].
    replace (Ascii.eqb c comma) with false by (symmetry; now apply Ascii.eqb_neq).
    replace (Ascii.eqb c nl) with false by (symmetry; now apply Ascii.eqb_neq).
    replace (Ascii.eqb c quote) with false by (symmetry; now apply Ascii.eqb_neq).
    now rewrite IH.
  - cbn [app scan_to negb andb length]. rewrite <- app_assoc. cbn [app].
    replace (Ascii.eqb quote comma) with false by reflexivity.
    replace (Ascii.eqb quote nl) with false by reflexivity. rewrite Ascii.eqb_refl.
    rewrite scan_to_in by assumption. rewrite IH by assumption. rewrite app_length. reflexivity.
Qed.

Lemma field_cr f : field f -> field (f ++ [cr]).
Proof.
  induction 1 as [|c f H1 H2 H3 Hf IH|q f Hq Hn Hf IH]; cbn [app].
  - apply field_char; try discriminate. constructor.
  - now apply field_char.
  - rewrite <- app_assoc. cbn [app]. now apply field_quoted.
Qed.

Lemma nth_error_last {A} (l : list A) (x : A) r : nth_error (l ++ x :: r) (length l) = Some x.
Proof. rewrite nth_error_app2, Nat.sub_diag by lia. reflexivity. Qed.

Section Src.
Context (src : list ascii).

(** What was read before ends in a separator. *)
Definition sep_end (pre : list ascii) : Prop := pre = [] \/ exists p c, pre = p ++ [c] /\ (c = comma \/ c = nl).

Definition pos (pre : list ascii) : st := mkSt (length pre) (length pre) false.

Lemma firstn_exact (f r : list ascii) : firstn (length f) (f ++ r) = f.
Proof. rewrite firstn_app, Nat.sub_diag, firstn_all. apply app_nil_r. Qed.

Lemma scan_piece pre f s rest : src = pre ++ f ++ sep_text s ++ rest -> sep_end pre -> field f -> no_cr_end f ->
  (pre = [] -> f = [] -> s = CRLF) ->
  scan_element src (pos pre) = Ok (pos (pre ++ f ++ sep_text s), Some f) /\ is_finished src (pos pre) = false.
Proof.
  intros E Hp Hf Hc H0.
  assert (Fin : is_finished src (pos pre) = false).
  { unfold is_finished, pos. cbn [current]. apply Nat.leb_gt. rewrite E, !app_length. destruct s; cbn; lia. }
  split; [|exact Fin]. unfold scan_element. rewrite Fin. cbn [pos current start in_string].
  replace (skipn (length pre) src) with (f ++ sep_text s ++ rest)
    by (rewrite E, skipn_app, skipn_all, Nat.sub_diag; reflexivity).
  destruct s; cbn [sep_text app] in *.
  1,2:
    rewrite scan_to_field; [|exact Hf|auto];
    destruct (exists_last (l := pre ++ f)) as (q & x & Q);
    [intros Q; apply app_eq_nil in Q as [-> ->]; specialize (H0 eq_refl eq_refl); discriminate|];
    assert (Lq : length pre + length f = S (length q)) by (rewrite <- app_length, Q, app_length; cbn; lia);
    assert (Ls : S (length q) <= length src) by (rewrite E, app_length, app_length; cbn; lia);
    assert (Nx : nth_error src (length q) = Some x)
      by (rewrite E, app_assoc, Q, <- app_assoc; cbn [app]; apply nth_error_last);
    rewrite Lq, Nx;
    assert (Hx : Ascii.eqb x cr = false);
    [ apply Ascii.eqb_neq; intros ->; destruct f as [|f0 f'];
      [ rewrite app_nil_r in Q; destruct Hp as [-> |(p & c & -> & Hcc)];
        [destruct q; discriminate Q | apply app_inj_tail in Q as [_ ->]; destruct Hcc; discriminate]
      | destruct (exists_last (l := f0 :: f')) as (g & y & Gy); [discriminate|];
        rewrite Gy, app_assoc in Q; apply app_inj_tail in Q as [_ ->]; now apply (Hc g) ]
    | rewrite Hx ];
    replace (length pre <=? S (length q)) with true by (symmetry; apply Nat.leb_le; lia);
    replace (S (length q) <=? length src) with true by (symmetry; apply Nat.leb_le; lia);
    cbn [andb]; replace (S (length q) - length pre) with (length f) by lia;
    rewrite firstn_exact; unfold pos; rewrite !app_length; cbn [length];
    replace (length pre + (length f + 1)) with (S (S (length q))) by lia; reflexivity.
  change (f ++ cr :: nl :: rest) with (f ++ [cr] ++ nl :: rest).
  rewrite app_assoc, scan_to_field; [|now apply field_cr|auto].
  rewrite app_length. cbn [length].
  replace (length pre + (length f + 1)) with (S (length (pre ++ f))) by (rewrite app_length; lia).
  assert (Nx : nth_error src (length (pre ++ f)) = Some cr) by (rewrite E, (app_assoc pre f); apply nth_error_last).
  rewrite Nx, Ascii.eqb_refl.
  replace (length pre <=? length (pre ++ f)) with true by (symmetry; apply Nat.leb_le; rewrite app_length; lia).
  replace (length (pre ++ f) <=? length src) with true by (symmetry; apply Nat.leb_le; rewrite E, !app_length; lia).
  cbn [andb]. replace (length (pre ++ f) - length pre) with (length f) by (rewrite app_length; lia).
  rewrite <- app_assoc, firstn_exact. unfold pos. rewrite !app_length. cbn [length].
  replace (length pre + (length f + 2)) with (S (S (length pre + length f))) by lia. reflexivity.
Qed.

Lemma scan_final pre f : src = pre ++ f -> f <> [] -> field f -> no_cr_end f ->
  exists s', scan_element src (pos pre) = Ok (s', Some f) /\ is_finished src (pos pre) = false /\ is_finished src s' = true.
Proof.
  intros E H0 Hf Hc.
  assert (Fin : is_finished src (pos pre) = false).
  { unfold is_finished, pos. cbn [current]. apply Nat.leb_gt. rewrite E, app_length. destruct f; [congruence|cbn; lia]. }
  unfold scan_element. rewrite Fin. cbn [pos current start in_string].
  replace (skipn (length pre) src) with (f ++ [])
    by (rewrite E, skipn_app, skipn_all, Nat.sub_diag, app_nil_r; reflexivity).
  rewrite scan_to_field by auto.
  destruct (exists_last H0) as (g & y & ->).
  rewrite app_length. cbn [length]. replace (length pre + (length g + 1)) with (S (length (pre ++ g))) by (rewrite app_length; lia).
  assert (Nx : nth_error src (length (pre ++ g)) = Some y) by (rewrite E, app_assoc; apply nth_error_last).
  rewrite Nx.
  assert (Hx : Ascii.eqb y cr = false) by (apply Ascii.eqb_neq; intros ->; now apply (Hc g)).
  assert (Ls : length src = S (length (pre ++ g))) by (rewrite E, !app_length; cbn; lia).
  rewrite Hx, Ls.
  replace (length pre <=? S (length (pre ++ g))) with true by (symmetry; apply Nat.leb_le; rewrite app_length; lia).
  rewrite Nat.leb_refl. cbn [andb].
  replace (S (length (pre ++ g)) - length pre) with (length (g ++ [y])) by (rewrite !app_length; cbn [length]; lia).
  rewrite firstn_exact. eexists. split; [reflexivity|]. split; [reflexivity|].
  unfold is_finished. cbn [current]. apply Nat.leb_le. rewrite Ls. lia.
Qed.

(** The scanner is about to read these fields. *)
Definition At (fs : list (list ascii)) (s : st) : Prop :=
  (fs = [] /\ is_finished src s = true) \/
  exists pre ps final, s = pos pre /\ src = pre ++ file_text ps final /\ sep_end pre /\ wf_pieces ps final /\
    (pre = [] -> proper_start ps) /\ fs = fields ps final.

Lemma At_nil s : At [] s -> is_finished src s = true /\ scan_element src s = Ok (s, None).
Proof.
  intros H. assert (F : is_finished src s = true).
  { destruct H as [[_ H]|(pre & ps & final & -> & E & _ & _ & _ & Q)]; [exact H|].
    unfold fields in Q. destruct ps; [|discriminate Q]. cbn in Q. destruct final; [|discriminate Q].
    unfold is_finished, pos. cbn. apply Nat.leb_le. rewrite E. cbn. rewrite app_nil_r. lia. }
  split; [exact F|]. unfold scan_element. now rewrite F.
Qed.

Lemma At_cons f fs s : At (f :: fs) s ->
  is_finished src s = false /\ exists s', scan_element src s = Ok (s', Some f) /\ At fs s'.
Proof.
  intros [[H _]|(pre & ps & final & -> & E & Hs & (W1 & W2 & W3) & H0 & Q)]; [discriminate|].
  destruct ps as [|[g sp] ps].
  - cbn in Q, E. destruct final as [|x final]; [discriminate|]. injection Q as -> ->.
    destruct (scan_final pre (x :: final) E ltac:(discriminate) W2 W3) as (s' & A & B & C).
    split; [exact B|]. exists s'. split; [exact A|]. now left.
  - cbn in Q. injection Q as <- ->. unfold file_text in E. cbn [flat_map fst snd] in E.
    rewrite <- !app_assoc in E.
    inversion W1 as [|? ? [Wg Wc] W1']; subst x l. cbn [fst] in Wg, Wc.
    destruct (scan_piece pre f sp _ E Hs Wg Wc) as [A B].
    { intros -> ->. specialize (H0 eq_refl). destruct sp; cbn in H0; tauto. }
    split; [exact B|]. eexists. split; [exact A|].
    right. exists (pre ++ f ++ sep_text sp), ps, final. split; [reflexivity|].
    split; [rewrite E; unfold file_text; now rewrite <- !app_assoc|].
    split.
    { right. destruct sp; cbn [sep_text].
      - exists (pre ++ f), comma. rewrite <- app_assoc. auto.
      - exists (pre ++ f), nl. rewrite <- app_assoc. auto.
      - exists (pre ++ f ++ [cr]), nl. rewrite <- !app_assoc. auto. }
    split; [repeat split; assumption|]. split; [|reflexivity].
    intros Z. exfalso. apply app_eq_nil in Z as [_ Z]. apply app_eq_nil in Z as [_ Z]. destruct sp; discriminate Z.
Qed.

Lemma At_start ps final : src = file_text ps final -> wf_pieces ps final -> proper_start ps -> At (fields ps final) st0.
Proof.
  intros E W P. right. exists [], ps, final. repeat split; auto; try apply W. now left.
Qed.

Context (utf8 : list ascii -> bool) (num : list ascii -> option Q).

Lemma get_number_at f fs s : At (f :: fs) s -> utf8 f = true ->
  match num f with
  | Some q => exists s', get_number src utf8 num s = Ok (s', q) /\ At fs s'
  | None => get_number src utf8 num s = Panic
  end.
Proof.
  intros H U. apply At_cons in H as (_ & s' & A & B). unfold get_number. rewrite A. cbn [bind snd]. unfold scan_number, scan_string.
  rewrite U. destruct (num f); cbn [bind fst]; eauto.
Qed.

Lemma get_number_nil s : At [] s -> get_number src utf8 num s = Err.
Proof. intros H. apply At_nil in H as [_ H]. unfold get_number. rewrite H. reflexivity. Qed.

Lemma get_string_at f fs s : At (f :: fs) s -> utf8 f = true ->
  exists s', get_string src utf8 s = Ok (s', f) /\ At fs s'.
Proof.
  intros H U. apply At_cons in H as (_ & s' & A & B). unfold get_string. rewrite A. cbn [bind snd scan_string].
  rewrite U. cbn [bind fst]. eauto.
Qed.

Lemma get_flag_at f fs s : At (f :: fs) s -> exists s', get_flag src s = Ok (s', true) /\ At fs s'.
Proof. intros H. apply At_cons in H as (_ & s' & A & B). unfold get_flag. rewrite A. cbn [bind fst]. eauto. Qed.

Lemma get_values_at k : forall i fs qs rest s, At (fs ++ rest) s -> length fs = k -> Forall (fun f => utf8 f = true) fs ->
  map num fs = map Some qs ->
  exists s', get_values src utf8 num k i s = Ok (s', map (fun p => adjust (fst p) (snd p)) (combine (seq i k) qs)) /\ At rest s'.
Proof.
  induction k as [|k IH]; intros i fs qs rest s H L U M.
  - destruct fs; [|discriminate]. destruct qs; [|discriminate]. cbn. eauto.
  - destruct fs as [|f fs]; [discriminate|]. destruct qs as [|q qs]; [discriminate|].
    inversion U as [|? ? U1 U2]; subst. cbn [map] in M. injection M as M1 M2. cbn [app] in H.
    pose proof (get_number_at f (fs ++ rest) s H U1) as G. rewrite M1 in G. destruct G as (s1 & G1 & G2).
    cbn [get_values]. rewrite G1. cbn [bind fst snd].
    destruct (IH (S i) fs qs rest s1 G2 ltac:(now injection L) U2 M2) as (s2 & I1 & I2).
    rewrite I1. cbn [bind fst snd]. exists s2. split; [reflexivity|exact I2].
Qed.

(** A record: its 35 fields and the numbers in all of them but the sixth. *)
Record row := mkRow { r_fields : list (list ascii); r_head : list Q; r_flag : list ascii; r_tail : list Q }.

Definition wf_row (r : row) : Prop :=
  exists hf tf, r_fields r = hf ++ r_flag r :: tf /\ length hf = 5 /\ length tf = 29 /\
    Forall (fun f => utf8 f = true) hf /\ Forall (fun f => utf8 f = true) tf /\
    map num hf = map Some (r_head r) /\ map num tf = map Some (r_tail r).

Definition row_line (r : row) : EPWLine :=
  let h := fun i => nth i (r_head r) 0%Q in
  mkLine (q_usize (h 0)) (q_u8 (h 1)) (q_u8 (h 2)) (h 3) (q_u8 (h 4)) true
    (map (fun p => adjust (fst p) (snd p)) (combine (seq 0 29) (r_tail r))).

Lemma get_line_at r rest s : wf_row r -> At (r_fields r ++ rest) s ->
  exists s', get_line src utf8 num s = Ok (s', row_line r) /\ At rest s'.
Proof.
  intros (hf & tf & E & L1 & L2 & U1 & U2 & M1 & M2) H. rewrite E in H.
  destruct hf as [|f0 [|f1 [|f2 [|f3 [|f4 [|]]]]]]; try discriminate L1.
  unfold row_line. destruct (r_head r) as [|q0 [|q1 [|q2 [|q3 [|q4 [|]]]]]]; try discriminate M1.
  cbn [map] in M1. injection M1 as N0 N1 N2 N3 N4.
  inversion U1 as [|? ? V0 U1a]; subst. inversion U1a as [|? ? V1 U1b]; subst. inversion U1b as [|? ? V2 U1c]; subst.
  inversion U1c as [|? ? V3 U1d]; subst. inversion U1d as [|? ? V4 _]; subst.
  cbn [app] in H. unfold get_line.
  pose proof (get_number_at _ _ _ H V0) as G. rewrite N0 in G. destruct G as (s0 & G0 & A0). rewrite G0. cbn [bind fst snd].
  pose proof (get_number_at _ _ _ A0 V1) as G. rewrite N1 in G. destruct G as (s1 & G1 & A1). rewrite G1. cbn [bind fst snd].
  pose proof (get_number_at _ _ _ A1 V2) as G. rewrite N2 in G. destruct G as (s2 & G2 & A2). rewrite G2. cbn [bind fst snd].
  pose proof (get_number_at _ _ _ A2 V3) as G. rewrite N3 in G. destruct G as (s3 & G3 & A3). rewrite G3. cbn [bind fst snd].
  pose proof (get_number_at _ _ _ A3 V4) as G. rewrite N4 in G. destruct G as (s4 & G4 & A4). rewrite G4. cbn [bind fst snd].
  destruct (get_flag_at _ _ _ A4) as (s5 & G5 & A5). rewrite G5. cbn [bind fst snd].
  destruct (get_values_at 29 0 tf (r_tail r) rest s5 A5 L2 U2 M2) as (s6 & G6 & A6). rewrite G6. cbn [bind fst snd].
  exists s6. split; [reflexivity|exact A6].
Qed.

Lemma get_lines_at rows : forall fuel s, Forall wf_row rows -> At (flat_map r_fields rows) s -> length rows < fuel ->
  exists s', get_lines src utf8 num fuel s = Some (Ok (s', map row_line rows)) /\ is_finished src s' = true.
Proof.
  induction rows as [|r rows IH]; intros fuel s W H L; (destruct fuel as [|fuel]; [lia|]).
  - apply At_nil in H as [F _]. cbn [get_lines]. rewrite F. eauto.
  - inversion W as [|? ? W1 W2]; subst. cbn [flat_map] in H.
    assert (F : is_finished src s = false).
    { destruct W1 as (hf & tf & E & L1 & _). rewrite E in H. destruct hf; [discriminate|]. cbn [app] in H.
      apply At_cons in H as [F _]. exact F. }
    cbn [get_lines]. rewrite F.
    destruct (get_line_at r _ s W1 H) as (s1 & G & A). rewrite G.
    destruct (IH fuel s1 W2 A ltac:(cbn in L; lia)) as (s2 & G2 & A2). rewrite G2. cbn [map]. eauto.
Qed.

(** Fields left over after whole records: never a success. *)
Lemma get_number_not_ok_nil s : At [] s -> forall x, get_number src utf8 num s <> Ok x.
Proof. intros H x. rewrite get_number_nil by exact H. discriminate. Qed.

Lemma get_number_ok f fs s s' q : At (f :: fs) s -> get_number src utf8 num s = Ok (s', q) -> At fs s'.
Proof.
  intros H E. apply At_cons in H as (_ & s1 & A & B). unfold get_number in E. rewrite A in E. cbn [bind snd fst] in E.
  destruct (scan_number utf8 num (Some f)); cbn [bind] in E; try discriminate. injection E as <- _. exact B.
Qed.

Lemma get_values_short k : forall i fs s x, At fs s -> length fs < k -> get_values src utf8 num k i s <> Ok x.
Proof.
  induction k as [|k IH]; intros i fs s x H L; [lia|]. cbn [get_values].
  destruct fs as [|f fs].
  - rewrite get_number_nil by exact H. discriminate.
  - destruct (get_number src utf8 num s) as [[s1 q]| |] eqn:G; cbn [bind fst snd]; try discriminate.
    pose proof (get_number_ok _ _ _ _ _ H G) as A.
    destruct (get_values src utf8 num k (S i) s1) eqn:V; cbn [bind]; try discriminate.
    exfalso. refine (IH (S i) fs s1 _ A _ V). cbn in L. lia.
Qed.

Lemma get_values_ok k : forall i fs s s' v, At fs s -> k <= length fs -> get_values src utf8 num k i s = Ok (s', v) ->
  At (skipn k fs) s'.
Proof.
  induction k as [|k IH]; intros i fs s s' v H L E.
  - cbn in E. injection E as <- _. exact H.
  - destruct fs as [|f fs]; [cbn in L; lia|]. cbn [get_values] in E.
    destruct (get_number src utf8 num s) as [[s1 q]| |] eqn:G; cbn [bind fst snd] in E; try discriminate.
    destruct (get_values src utf8 num k (S i) s1) as [[s2 v2]| |] eqn:V; cbn [bind fst snd] in E; try discriminate.
    injection E as <- _. cbn [skipn]. eapply IH; [|cbn in L; lia|exact V]. eapply get_number_ok; eauto.
Qed.

Lemma get_line_any fs s : At fs s ->
  (length fs < 35 -> forall x, get_line src utf8 num s <> Ok x) /\
  (35 <= length fs -> forall s' l, get_line src utf8 num s = Ok (s', l) -> At (skipn 35 fs) s').
Proof.
  intros H. unfold get_line.
  destruct fs as [|f0 fs]; [split; [intros _ x; rewrite get_number_nil by exact H; discriminate|cbn; lia]|].
  destruct (get_number src utf8 num s) as [[s1 q1]| |] eqn:G0; cbn [bind fst snd]; try (split; [discriminate|intros; discriminate]).
  pose proof (get_number_ok _ _ _ _ _ H G0) as A0.
  destruct fs as [|f1 fs]; [split; [intros _ x; rewrite get_number_nil by exact A0; discriminate|cbn; lia]|].
  destruct (get_number src utf8 num s1) as [[s2 q2]| |] eqn:G1; cbn [bind fst snd]; try (split; [discriminate|intros; discriminate]).
  pose proof (get_number_ok _ _ _ _ _ A0 G1) as A1.
  destruct fs as [|f2 fs]; [split; [intros _ x; rewrite get_number_nil by exact A1; discriminate|cbn; lia]|].
  destruct (get_number src utf8 num s2) as [[s3 q3]| |] eqn:G2; cbn [bind fst snd]; try (split; [discriminate|intros; discriminate]).
  pose proof (get_number_ok _ _ _ _ _ A1 G2) as A2.
  destruct fs as [|f3 fs]; [split; [intros _ x; rewrite get_number_nil by exact A2; discriminate|cbn; lia]|].
  destruct (get_number src utf8 num s3) as [[s4 q4]| |] eqn:G3; cbn [bind fst snd]; try (split; [discriminate|intros; discriminate]).
  pose proof (get_number_ok _ _ _ _ _ A2 G3) as A3.
  destruct fs as [|f4 fs]; [split; [intros _ x; rewrite get_number_nil by exact A3; discriminate|cbn; lia]|].
  destruct (get_number src utf8 num s4) as [[s5 q5]| |] eqn:G4; cbn [bind fst snd]; try (split; [discriminate|intros; discriminate]).
  pose proof (get_number_ok _ _ _ _ _ A3 G4) as A4.
  destruct fs as [|f5 fs].
  { split; [|cbn; lia]. intros _ x. unfold get_flag. destruct (At_nil s5 A4) as [_ E]. rewrite E. cbn [bind fst snd].
    destruct (get_values src utf8 num 29 0 s5) eqn:V; cbn [bind]; try discriminate.
    exfalso. refine (get_values_short 29 0 [] s5 _ A4 _ V). cbn. lia. }
  destruct (get_flag_at _ _ _ A4) as (s6 & G5 & A5). rewrite G5. cbn [bind fst snd].
  split.
  - intros L x. destruct (get_values src utf8 num 29 0 s6) eqn:V; cbn [bind]; try discriminate.
    exfalso. refine (get_values_short 29 0 fs s6 _ A5 _ V). cbn [length] in L. lia.
  - intros L s' l. destruct (get_values src utf8 num 29 0 s6) as [[s7 v]| |] eqn:V; cbn [bind fst snd]; try discriminate.
    intros Q. injection Q as <- _. cbn [length] in L. cbn [skipn].
    apply (get_values_ok 29 0 fs s6 s7 v A5); [lia|exact V].
Qed.

Lemma get_lines_truncated : forall fuel fs s x, At fs s -> length fs mod 35 <> 0 ->
  get_lines src utf8 num fuel s <> Some (Ok x).
Proof.
  induction fuel as [|fuel IH]; intros fs s x H M; [discriminate|]. cbn [get_lines].
  destruct fs as [|f fs]; [cbn in M; lia|].
  assert (F : is_finished src s = false) by (apply At_cons in H; tauto). rewrite F.
  destruct (get_line_any (f :: fs) s H) as [G1 G2].
  destruct (get_line src utf8 num s) as [[s1 l]| |] eqn:G; try discriminate.
  destruct (le_lt_dec 35 (length (f :: fs))) as [L|L].
  - specialize (G2 L s1 l eq_refl).
    destruct (get_lines src utf8 num fuel s1) as [[[s2 ls]| |]|] eqn:E; try discriminate.
    exfalso. refine (IH _ s1 (s2, ls) G2 _ E). rewrite skipn_length.
    intros Q. apply M.
    replace (length (f :: fs)) with (length (f :: fs) - 35 + 1 * 35) by lia.
    rewrite Nat.mod_add by lia. exact Q.
  - exfalso. now apply (G1 L (s1, l)).
Qed.

(** *** Whole files *)

Definition header_ok (fs : list (list ascii)) : Prop :=
  Forall (fun f => utf8 f = true /\ is_kw f "GROUND TEMPERATURES" = false /\ is_kw f "LOCATION" = false /\
                   is_kw f "DATA PERIODS" = false) fs.

Lemma parse_header hs : forall fuel rest s e, header_ok hs -> At (hs ++ rest) s -> length hs <= fuel ->
  exists s', At rest s' /\ parse_file src utf8 num fuel s e = parse_file src utf8 num (fuel - length hs) s' e.
Proof.
  induction hs as [|h hs IH]; intros fuel rest s e W H L.
  - exists s. rewrite Nat.sub_0_r. auto.
  - inversion W as [|? ? (U & K1 & K2 & K3) W']; subst. cbn [app] in H.
    apply At_cons in H as (_ & s1 & E & A). destruct fuel as [|fuel]; [cbn in L; lia|].
    destruct (IH fuel rest s1 e W' A ltac:(cbn in L; lia)) as (s2 & A2 & E2).
    exists s2. split; [exact A2|]. cbn [parse_file]. rewrite E. cbn [scan_string]. rewrite U, K1, K2, K3. exact E2.
Qed.

End Src.

(** All the elements of a source. *)
Fixpoint scan_all (src : list ascii) (fuel : nat) (s : st) : option (res (list (list ascii))) :=
  match fuel with
  | 0 => None
  | S fuel' =>
      match scan_element src s with
      | Ok (s1, Some f) =>
          match scan_all src fuel' s1 with
          | Some (Ok fs) => Some (Ok (f :: fs))
          | r => r
          end
      | Ok (_, None) => Some (Ok [])
      | Err => Some Err
      | Panic => Some Panic
      end
  end.

Lemma scan_all_at src fs : forall fuel s, At src fs s -> length fs < fuel -> scan_all src fuel s = Some (Ok fs).
Proof.
  induction fs as [|f fs IH]; intros fuel s H L; (destruct fuel; [lia|]); cbn [scan_all].
  - apply At_nil in H as [_ H]. now rewrite H.
  - apply At_cons in H as (_ & s1 & E & A). rewrite E. rewrite (IH fuel s1 A) by (cbn in L; lia). reflexivity.
Qed.

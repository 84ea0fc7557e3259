(** C22, C23, C58: weather data (weather/src). *)
From Coq Require Import ZArith QArith Qround Ascii String List Bool Arith Lia Lqa.
From Verif.Calendar Require Import DateModel DateSpec DateProofs.
From Verif.Weather Require Import WeatherModel WeatherProofs EpwModel EpwProofs.
From Verif Require Import Common.Base.
Import ListNotations.
Open Scope list_scope.
Open Scope Q_scope.

(** ** C22: the look-up of weather data *)

(** At the time of a record the look-up gives that record. *)
Theorem C22_exact : forall data d r i w, sorted_data data -> valid_date d -> search_contract data d r ->
  nth_error data i = Some w -> position (date w) == position d ->
  find_weather_line data d r = Some w.
Proof.
  intros data d r i w [Hv Hs] Vd Hc Hi Hp.
  assert (V : forall j v, nth_error data j = Some v -> valid_date (date v)).
  { intros j v Hj. rewrite Forall_forall in Hv. apply Hv. eapply nth_error_In; eauto. }
  destruct r as [j|j]; cbn [search_contract find_weather_line] in *.
  - destruct Hc as (v & Hj & Hcmp). apply cmp_eq in Hcmp; eauto. rewrite Hj.
    destruct (lt_eq_lt_dec i j) as [[L|E]|L].
    + pose proof (Hs i j w v Hi Hj L). lra.
    + subst j. rewrite Hi in Hj. congruence.
    + pose proof (Hs j i v w Hj Hi L). lra.
  - exfalso. destruct Hc as (_ & H1 & H2). destruct (le_lt_dec j i) as [L|L].
    + specialize (H2 i w Hi L). apply cmp_gt in H2; eauto. lra.
    + specialize (H1 i w Hi L). apply cmp_lt in H1; eauto. lra.
Qed.

(** Between the first and the last record: the look-up mixes the two neighbouring records in proportion to the time elapsed,
    every quantity lies between those of the two records and the date is the one asked for. *)
Theorem C22_between : forall data d r first last, sorted_data data -> valid_date d -> search_contract data d r ->
  nth_error data 0 = Some first -> nth_error data (length data - 1) = Some last ->
  position (date first) < position d -> position d < position (date last) ->
  (forall w, In w data -> ~ position (date w) == position d) ->
  exists i a b w res, nth_error data i = Some a /\ nth_error data (S i) = Some b /\
    position (date a) < position d < position (date b) /\
    find_weather_line data d r = Some res /\
    position (date res) == position d /\ valid_date (date res) /\
    w == (position d - position (date a)) / (position (date b) - position (date a)) /\ 0 < w < 1 /\
    mixes w a b res /\
    (forall f, In f quantities -> (f a <= f res <= f b) \/ (f b <= f res <= f a)).
Proof.
  intros data d r first last [Hv Hs] Vd Hc Hf Hl H1 H2 Hn.
  assert (V : forall j v, nth_error data j = Some v -> valid_date (date v)).
  { intros j v Hj. rewrite Forall_forall in Hv. apply Hv. eapply nth_error_In; eauto. }
  destruct r as [j|j]; cbn [search_contract find_weather_line] in *.
  { exfalso. destruct Hc as (v & Hj & Hcmp). apply cmp_eq in Hcmp; eauto. exact (Hn v (nth_error_In _ _ Hj) Hcmp). }
  destruct Hc as (Hj & C1 & C2).
  destruct j as [|i].
  { exfalso. specialize (C2 0%nat first Hf ltac:(lia)). apply cmp_gt in C2; eauto. lra. }
  destruct (Nat.eq_dec (S i) (length data)) as [E|E].
  { exfalso. assert (Z : (length data - 1 = i)%nat) by lia. rewrite Z in Hl.
    specialize (C1 i last Hl ltac:(lia)). apply cmp_lt in C1; eauto. lra. }
  cbn [Nat.eqb orb]. replace (match length data with 0%nat => false | S m' => Nat.eqb i m' end) with false.
  2:{ symmetry. destruct (length data); [reflexivity|]. apply Nat.eqb_neq. congruence. }
  replace (S i - 1)%nat with i by lia.
  destruct (nth_error data i) as [a|] eqn:Ea; [|apply nth_error_None in Ea; lia].
  destruct (nth_error data (S i)) as [b|] eqn:Eb; [|apply nth_error_None in Eb; lia].
  pose proof (C1 i a Ea ltac:(lia)) as Ka. apply cmp_lt in Ka; eauto.
  pose proof (C2 (S i) b Eb ltac:(lia)) as Kb. apply cmp_gt in Kb; eauto.
  destruct (interpolate_inside a b d) as (da & db & dd & res & E1 & E2 & E3 & E4 & E5 & E6 & E7); eauto.
  rewrite E1, E2, E3.
  set (w := (position d - position (date a)) / (position (date b) - position (date a))) in *.
  assert (Hw : w * (position (date b) - position (date a)) == position d - position (date a)) by (unfold w; field; lra).
  assert (W : 0 < w < 1) by (split; nra).
  exists i, a, b, w, res. repeat (split; [solve [auto|lra|apply E5|reflexivity]|]).
  intros f Hq. eapply mixes_between; eauto. lra.
Qed.

(** Before the first record: between the last record, one year earlier, and the first one. *)
Theorem C22_before_first : forall data d r first last, sorted_data data -> valid_date d -> search_contract data d r ->
  nth_error data 0 = Some first -> nth_error data (length data - 1) = Some last -> (2 <= length data)%nat ->
  position d < position (date first) ->
  exists w res, find_weather_line data d r = Some res /\ position (date res) == position d /\
    w == (position d + 365 - position (date last)) / (position (date first) + 365 - position (date last)) /\ 0 < w < 1 /\
    mixes w last first res /\
    (forall f, In f quantities -> (f last <= f res <= f first) \/ (f first <= f res <= f last)).
Proof.
  intros data d r first last [Hv Hs] Vd Hc Hf Hl H2 H1.
  assert (V : forall j v, nth_error data j = Some v -> valid_date (date v)).
  { intros j v Hj. rewrite Forall_forall in Hv. apply Hv. eapply nth_error_In; eauto. }
  assert (FL : position (date first) < position (date last)) by (eapply (Hs 0%nat); eauto; lia).
  assert (Before : forall j v, nth_error data j = Some v -> position d < position (date v)).
  { intros j v Hj. destruct j; [rewrite Hf in Hj; injection Hj as <-; exact H1|].
    pose proof (Hs 0%nat (S j) first v Hf Hj ltac:(lia)). lra. }
  destruct r as [j|j]; cbn [search_contract find_weather_line] in *.
  { exfalso. destruct Hc as (v & Hj & Hcmp). apply cmp_eq in Hcmp; eauto. pose proof (Before j v Hj). lra. }
  destruct Hc as (Hj & C1 & C2).
  destruct j as [|j].
  2:{ exfalso. specialize (C1 0%nat first Hf ltac:(lia)). apply cmp_lt in C1; eauto. lra. }
  cbn [Nat.eqb orb]. rewrite Hl, Hf.
  destruct (interpolate_wrap last first d) as (dl & df & dd & res & E1 & E2 & E3 & E4 & E5 & E6 & E7); eauto.
  rewrite E1, E2, E3.
  pose proof (valid_position _ Vd) as Pd. pose proof (valid_position _ (V _ _ Hl)) as Pl. pose proof (valid_position _ (V _ _ Hf)) as Pf.
  set (w := (position d + 365 - position (date last)) / (position (date first) + 365 - position (date last))) in *.
  assert (Hw : w * (position (date first) + 365 - position (date last)) == position d + 365 - position (date last)) by (unfold w; field; lra).
  assert (W : 0 < w < 1) by (split; nra).
  exists w, res. repeat (split; [solve [auto|lra|reflexivity]|]).
  intros f Hq. eapply mixes_between; eauto. lra.
Qed.

Definition cw_temp (d : Date) (t : Q) : CurrentWeather := mkCW d t 0 0 0 0 0 0 None 0 0 0.

Lemma sorted_two a b : valid_date (date a) -> valid_date (date b) -> position (date a) < position (date b) -> sorted_data [a; b].
Proof.
  intros Va Vb H. split; [repeat constructor; auto; apply Va || apply Vb|].
  intros [|[|i]] [|[|j]] x y Hx Hy Hij; cbn in Hx, Hy; try lia; try (destruct i; discriminate); try (destruct j; discriminate).
  now injection Hx as <-; injection Hy as <-.
Qed.

Example C22_example : exists data d r first last,
  sorted_data data /\ valid_date d /\ search_contract data d r /\
  nth_error data 0 = Some first /\ nth_error data (length data - 1) = Some last /\
  position (date first) < position d /\ position d < position (date last) /\
  (forall w, In w data -> ~ position (date w) == position d).
Proof.
  exists [cw_temp (mkDate 1 1 0) 10; cw_temp (mkDate 1 1 12) 20], (mkDate 1 1 6), (Insert 1).
  eexists _, _.
  split; [apply sorted_two; [split; cbn; [lia|split; [lia|split; reflexivity || discriminate]]..|reflexivity]|].
  split; [split; cbn; [lia|split; [lia|split; [discriminate|reflexivity]]]|].
  split; [split; [cbn; lia|split; intros [|[|j]] w Hw Hj; cbn in Hw; try lia; try (destruct j; discriminate); injection Hw as <-; reflexivity]|].
  split; [reflexivity|]. split; [reflexivity|]. split; [reflexivity|]. split; [reflexivity|].
  intros w [<-|[<-|[]]]; cbn; discriminate.
Qed.

(** After the last record the code adds a whole year too much: the result is far from both records. *)
Theorem C22_after_last_refuted : exists data d r res a b,
  sorted_data data /\ valid_date d /\ search_contract data d r /\ data = [a; b] /\
  position (date b) < position d /\ find_weather_line data d r = Some res /\
  dry_bulb_temperature a == 0 /\ dry_bulb_temperature b == 10 /\ dry_bulb_temperature res < -7000.
Proof.
  exists [cw_temp (mkDate 1 1 0) 0; cw_temp (mkDate 12 31 12) 10], (mkDate 12 31 18), (Insert 2).
  eexists _, (cw_temp (mkDate 1 1 0) 0), (cw_temp (mkDate 12 31 12) 10).
  split; [apply sorted_two; [split; cbn; [lia|split; [lia|split; reflexivity || discriminate]]..|reflexivity]|].
  split; [split; cbn; [lia|split; [lia|split; [discriminate|reflexivity]]]|].
  split; [split; [cbn; lia|split; intros [|[|j]] w Hw Hj; cbn in Hw; try lia; try (destruct j; discriminate); injection Hw as <-; reflexivity]|].
  split; [reflexivity|]. split; [reflexivity|]. split; [vm_compute; reflexivity|].
  split; [reflexivity|]. split; reflexivity.
Qed.

(** Without records the look-up panics. *)
Theorem C22_empty_refuted : exists data, sorted_data data /\ forall d r, search_contract data d r -> find_weather_line data d r = None.
Proof.
  exists []. split.
  - split; [constructor|]. intros [|i] j a b Ha; discriminate.
  - intros d [i|i] H; cbn in H.
    + destruct H as (w & H & _). destruct i; discriminate.
    + destruct H as (H & _). assert (i = 0)%nat by lia. subst. reflexivity.
Qed.

(** With a single record and a date before it, the date of the result is not the date asked for. *)
Theorem C22_single_record_refuted : exists data d r res, sorted_data data /\ valid_date d /\ search_contract data d r /\
  length data = 1%nat /\ find_weather_line data d r = Some res /\ ~ position (date res) == position d.
Proof.
  exists [cw_temp (mkDate 7 1 0) 10], (mkDate 1 1 6), (Insert 0). eexists.
  split.
  { split; [constructor; [split; cbn; [lia|split; [lia|split; [discriminate|reflexivity]]]|constructor]|].
    intros [|i] [|j] a b Ha Hb Hij; cbn in Ha, Hb; try lia; try (destruct i; discriminate); destruct j; discriminate. }
  split; [split; cbn; [lia|split; [lia|split; [discriminate|reflexivity]]]|].
  split; [split; [cbn; lia|split; intros [|j] w Hw Hj; cbn in Hw; try lia; try (destruct j; discriminate); injection Hw as <-; reflexivity]|].
  split; [reflexivity|]. split; [vm_compute; reflexivity|]. vm_compute. discriminate.
Qed.

(** ** C23: reading EPW files *)

Open Scope nat_scope.

(** The elements read from a file are its fields, in order. *)
Theorem C23_fields : forall ps final fuel, wf_pieces ps final -> proper_start ps ->
  length (fields ps final) < fuel ->
  scan_all (file_text ps final) fuel st0 = Some (Ok (fields ps final)).
Proof. intros ps final fuel W P L. apply scan_all_at; [|exact L]. now apply At_start. Qed.

Definition q0 : pieces := [(kw "LOCATION", Comma); (quote :: kw "a,b" ++ [quote], CRLF); ([], Comma); (kw "x", LF)].

Lemma field_plain f : Forall (fun c => c <> comma /\ c <> nl /\ c <> quote) f -> field f.
Proof. induction 1 as [|c f (A & B & C) H IH]; [constructor|]. now apply field_char. Qed.

Lemma no_cr_plain f : ~ In cr f -> no_cr_end f.
Proof. intros H g ->. apply H. apply in_or_app. right. now left. Qed.

Ltac notin := let H := fresh in intros H; cbn in H; repeat (destruct H as [H|H]; [discriminate H|]); exact H.
Ltac plain := apply field_plain; repeat constructor; discriminate.
Ltac pieces := repeat (apply Forall_cons; [split; cbn [fst]; [first [constructor; fail | plain | idtac]|apply no_cr_plain; notin]|]); try apply Forall_nil.

Example C23_fields_example : wf_pieces q0 (kw "end") /\ proper_start q0 /\
  fields q0 (kw "end") = [kw "LOCATION"; quote :: kw "a,b" ++ [quote]; []; kw "x"; kw "end"] /\
  file_text q0 (kw "end") = kw "LOCATION," ++ quote :: kw "a,b" ++ quote :: cr :: nl :: kw ",x" ++ nl :: kw "end".
Proof.
  split; [|split; [exact I|split; reflexivity]].
  split; [|split; [plain|apply no_cr_plain; notin]].
  pieces. apply (field_quoted (kw "a,b") []); [notin|notin|constructor].
Qed.

(** False when the file begins with a separator: the reader panics. *)
Theorem C23_leading_separator_refuted : exists ps final,
  wf_pieces ps final /\ forall fuel, scan_all (file_text ps final) (S fuel) st0 = Some Panic.
Proof.
  exists [([], Comma); (kw "x", LF)], []. split; [|intros fuel; reflexivity].
  split; [|split; [constructor|apply no_cr_plain; notin]].
  pieces.
Qed.

(** A file with a header, the description of the data period and records of 35 fields each gives one line per record, in order,
    with the numbers of its fields (partial: the wind direction is not kept, see below; the conversion of text into numbers is
    an arbitrary function). *)
Theorem C23_records_partial : forall utf8 num ps final hs per rec names rows,
  wf_pieces ps final -> proper_start ps ->
  fields ps final = hs ++ (kw "DATA PERIODS" :: per :: rec :: names) ++ flat_map r_fields rows ->
  header_ok utf8 hs -> utf8 (kw "DATA PERIODS") = true -> utf8 per = true -> utf8 rec = true ->
  (exists q, num per = Some q /\ q_usize q = 1%Z) -> (exists q, num rec = Some q /\ q_usize q = 1%Z) ->
  length names = 4 -> Forall (fun f => utf8 f = true) names -> Forall (wf_row utf8 num) rows ->
  forall fuel, length hs + length rows + 2 < fuel ->
  build_weather_file utf8 num fuel (file_text ps final) = Some (Ok (mkEPW None [] (map row_line rows))).
Proof.
  intros utf8 num ps final hs per rec names rows W P E H U1 U2 U3 (qp & Np & Ip) (qr & Nr & Ir) L UN R fuel Hf.
  unfold build_weather_file. set (src := file_text ps final) in *.
  assert (A : At src (fields ps final) st0) by now apply At_start.
  rewrite E in A.
  destruct (parse_header src utf8 num hs fuel _ st0 (mkEPW None [] []) H A ltac:(lia)) as (s1 & A1 & E1). rewrite E1.
  destruct (fuel - length hs) as [|fl] eqn:Ef; [lia|]. cbn [parse_file].
  cbn [app] in A1. apply At_cons in A1 as (_ & s2 & E2 & A2). rewrite E2. cbn [scan_string]. rewrite U1.
  change (is_kw (kw "DATA PERIODS") "GROUND TEMPERATURES") with false.
  change (is_kw (kw "DATA PERIODS") "LOCATION") with false.
  change (is_kw (kw "DATA PERIODS") "DATA PERIODS") with true. cbn iota.
  unfold parse_data_periods.
  pose proof (get_number_at src utf8 num _ _ _ A2 U2) as G. rewrite Np in G. destruct G as (s3 & G3 & A3). rewrite G3.
  cbn [bind fst snd]. rewrite Ip. cbn [Z.eqb Pos.eqb negb].
  pose proof (get_number_at src utf8 num _ _ _ A3 U3) as G. rewrite Nr in G. destruct G as (s4 & G4 & A4). rewrite G4.
  cbn [bind fst snd]. rewrite Ir. cbn [Z.eqb Pos.eqb negb].
  destruct names as [|n1 [|n2 [|n3 [|n4 [|]]]]]; try discriminate L.
  inversion UN as [|? ? V1 UNa]; subst. inversion UNa as [|? ? V2 UNb]; subst. inversion UNb as [|? ? V3 UNc]; subst. inversion UNc as [|? ? V4 _]; subst.
  cbn [app] in A4.
  destruct (get_string_at src utf8 _ _ _ A4 V1) as (s5 & G5 & A5). rewrite G5. cbn [bind fst snd].
  destruct (get_string_at src utf8 _ _ _ A5 V2) as (s6 & G6 & A6). rewrite G6. cbn [bind fst snd].
  destruct (get_string_at src utf8 _ _ _ A6 V3) as (s7 & G7 & A7). rewrite G7. cbn [bind fst snd].
  destruct (get_string_at src utf8 _ _ _ A7 V4) as (s8 & G8 & A8). rewrite G8. cbn [bind fst snd].
  destruct (get_lines_at src utf8 num rows fl s8 R A8 ltac:(lia)) as (s9 & G9 & F9). rewrite G9.
  destruct fl as [|fl]; [lia|]. cbn [parse_file e_location e_ground e_data app].
  unfold scan_element. rewrite F9. reflexivity.
Qed.

(** When the number of fields after the description of the period is not a multiple of 35, the file is not accepted. *)
Theorem C23_truncated : forall src utf8 num fs s fuel x,
  At src fs s -> length fs mod 35 <> 0 -> get_lines src utf8 num fuel s <> Some (Ok x).
Proof. intros src utf8 num fs s fuel x H M. eapply get_lines_truncated; eauto. Qed.

(** A digit reader, for the examples. *)
Fixpoint digits (acc : Z) (l : list ascii) : option Z :=
  match l with
  | [] => Some acc
  | c :: r => let n := nat_of_ascii c in
      if (48 <=? n) && (n <=? 57) then digits (acc * 10 + Z.of_nat (n - 48)) r else None
  end.
Definition simple_num (l : list ascii) : option Q :=
  match l with [] => None | _ => option_map inject_Z (digits 0 l) end.

Definition demo_row : row :=
  mkRow (map kw ["1999"; "1"; "1"; "1"; "60"]%string ++ kw "?9" ::
         map kw ["15"; "8"; "70"; "101325"; "0"; "0"; "300"; "0"; "0"; "0"; "0"; "0"; "0"; "0"; "180"; "3"; "5"; "5";
                 "10"; "77777"; "9"; "0"; "20"; "0"; "0"; "88"; "0"; "0"; "0"]%string)
    (map inject_Z [1999; 1; 1; 1; 60]%Z) (kw "?9")
    (map inject_Z [15; 8; 70; 101325; 0; 0; 300; 0; 0; 0; 0; 0; 0; 0; 180; 3; 5; 5; 10; 77777; 9; 0; 20; 0; 0; 88; 0; 0; 0]%Z).

Lemma demo_row_wf : wf_row (fun _ => true) simple_num demo_row.
Proof.
  eexists _, _. split; [reflexivity|]. split; [reflexivity|]. split; [reflexivity|].
  split; [repeat constructor|]. split; [repeat constructor|]. split; reflexivity.
Qed.

Definition demo_fields : list (list ascii) :=
  [kw "LOC"] ++ (kw "DATA PERIODS" :: kw "1" :: kw "1" :: map kw ["Data"; "Sunday"; "1/1"; "12/31"]%string) ++ flat_map r_fields [demo_row].

Example C23_records_example : exists ps,
  wf_pieces ps [] /\ proper_start ps /\ fields ps [] = demo_fields /\ header_ok (fun _ => true) [kw "LOC"] /\
  (exists q, simple_num (kw "1") = Some q /\ q_usize q = 1%Z) /\
  build_weather_file (fun _ => true) simple_num 10 (file_text ps []) = Some (Ok (mkEPW None [] [row_line demo_row])).
Proof.
  exists (map (fun f => (f, Comma)) demo_fields).
  split; [|split; [exact I|split; [reflexivity|split; [repeat constructor|split; [eexists; split; reflexivity|vm_compute; reflexivity]]]]].
  split; [|split; [constructor|apply no_cr_plain; notin]].
  cbv [demo_fields map app flat_map r_fields demo_row].
  repeat (constructor; [split; [cbn [fst]; cbv; plain|apply no_cr_plain; cbv; notin]|]). constructor.
Qed.

Example C23_truncated_example : exists src fs, At src fs st0 /\ length fs mod 35 <> 0.
Proof.
  exists (file_text [(kw "1", Comma)] []), [kw "1"]. split; [|cbn; lia].
  apply (At_start _ [(kw "1", Comma)] []); [reflexivity| |exact I].
  split; [|split; [constructor|apply no_cr_plain; notin]].
  pieces.
Qed.

(** The wind direction is read wrong: every direction up to 360 degrees becomes 360. *)
Theorem C23_wind_direction_refuted : exists r, wf_row (fun _ => true) simple_num r /\
  nth 14 (r_tail r) 0%Q = 180%Q /\ nth 14 (l_values (row_line r)) 0%Q = 360%Q.
Proof. exists demo_row. split; [apply demo_row_wf|]. split; vm_compute; reflexivity. Qed.

(** ... for every record. *)
Theorem C23_wind_direction_lost : forall utf8 num r, wf_row utf8 num r ->
  (nth 14 (r_tail r) 0 <= 360)%Q -> (nth 14 (l_values (row_line r)) 0 == 360)%Q.
Proof.
  intros utf8 num r (hf & tf & _ & _ & L2 & _ & _ & _ & M2) H.
  assert (L : length (r_tail r) = 29).
  { rewrite <- L2. rewrite <- (map_length num tf), M2, map_length. reflexivity. }
  unfold row_line. cbn [l_values].
  remember (r_tail r) as t eqn:Et. clear - L H.
  do 29 (destruct t as [|? t]; [discriminate L|]). destruct t; [|discriminate L].
  cbn -[Qmax'] in H |- *. unfold adjust. cbn -[Qmax']. unfold Qmax'.
  match goal with |- context [Qle_bool ?x 360] => destruct (Qle_bool x 360) eqn:E end; [reflexivity|].
  apply Qle_bool_iff in H. congruence.
Qed.

(** Text where a number is expected makes the reader panic, although it returns a [Result]. *)
Theorem C23_bad_number_refuted : exists src fuel,
  build_weather_file (fun _ => true) simple_num fuel src = Some Panic.
Proof. exists (kw "DATA PERIODS,one,1"), 10. vm_compute. reflexivity. Qed.

(** ** C58: the dates of EPW records are valid dates, in the order of the file *)

Open Scope Q_scope.

Theorem C58_epw_dates : forall pi180 l, (1 <= l_month l <= 12)%Z -> (1 <= l_day l <= month_length (l_month l))%Z ->
  1 <= l_hour l -> l_hour l <= 24 ->
  valid_date (date (cw_from pi180 l)).
Proof.
  intros pi180 l Hm Hd H1 H2. unfold cw_from. cbn [date]. unfold valid_date. cbn [month day hour].
  repeat split; try lia; lra.
Qed.

Theorem C58_epw_order : forall pi180 a b,
  (1 <= l_month a <= 12)%Z -> (1 <= l_day a <= month_length (l_month a))%Z -> 1 <= l_hour a -> l_hour a <= 24 ->
  (1 <= l_month b <= 12)%Z -> (1 <= l_day b <= month_length (l_month b))%Z -> 1 <= l_hour b -> l_hour b <= 24 ->
  (l_month a = l_month b /\ l_day a = l_day b /\ l_hour a < l_hour b) \/
  (l_month a = l_month b /\ (l_day a < l_day b)%Z) \/ (l_month a < l_month b)%Z ->
  position (date (cw_from pi180 a)) < position (date (cw_from pi180 b)).
Proof.
  intros pi180 a b Ma Da Ha1 Ha2 Mb Db Hb1 Hb2 H.
  assert (Va : valid_date (date (cw_from pi180 a))) by now apply C58_epw_dates.
  assert (Vb : valid_date (date (cw_from pi180 b))) by now apply C58_epw_dates.
  apply date_lt_position; auto. unfold date_lt, date_cmp, cw_from. cbn [date month day hour].
  destruct H as [(E1 & E2 & H)|[(E1 & H)|H]].
  - rewrite E1, E2, !Z.compare_refl.
    assert (Q : Qltb (l_hour a - (1 # 1000000)) (l_hour b - (1 # 1000000)) = true) by (apply Qltb_lt; lra).
    rewrite Q. reflexivity.
  - rewrite E1, Z.compare_refl. rewrite (proj2 (Z.compare_lt_iff _ _) H). reflexivity.
  - rewrite (proj2 (Z.compare_lt_iff _ _) H). reflexivity.
Qed.

(** each quantity comes from its own column of the record (the names are those of the EPW format), in the units of the simulation *)
Theorem C58_columns : forall pi180 l dry_bulb dew_point humidity station_pressure ext_horizontal ext_direct infrared global direct diffuse
    illum1 illum2 illum3 zenith wind_from speed total_cover opaque_cover rest,
  l_values l = dry_bulb :: dew_point :: humidity :: station_pressure :: ext_horizontal :: ext_direct :: infrared :: global :: direct :: diffuse
    :: illum1 :: illum2 :: illum3 :: zenith :: wind_from :: speed :: total_cover :: opaque_cover :: rest ->
  let w := cw_from pi180 l in
  dry_bulb_temperature w = dry_bulb /\ dew_point_temperature w = dew_point /\ relative_humidity w == humidity / 100 /\ pressure w = station_pressure /\
  horizontal_infrared_radiation_intensity w = Some infrared /\ global_horizontal_radiation w = global /\ direct_normal_radiation w = direct /\
  diffuse_horizontal_radiation w = diffuse /\ wind_speed w = speed /\ wind_direction w == wind_from * pi180 /\ opaque_sky_cover w == opaque_cover / 10.
Proof. intros. unfold w, cw_from. rewrite H. repeat split; reflexivity. Qed.

Example C58_example : valid_date (date (cw_from (1 # 57) (row_line demo_row))) /\
  dry_bulb_temperature (cw_from (1 # 57) (row_line demo_row)) == 15.
Proof. split; [apply C58_epw_dates; cbn; lia || (vm_compute; discriminate)|reflexivity]. Qed.

Print Assumptions C22_exact.
Print Assumptions C22_between.
Print Assumptions C22_before_first.
Print Assumptions C23_fields.
Print Assumptions C23_records_partial.
Print Assumptions C23_truncated.
Print Assumptions C23_wind_direction_lost.
Print Assumptions C58_epw_order.
Print Assumptions C58_columns.

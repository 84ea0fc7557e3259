(** The position of the sun and the radiation that reaches the ground: /repo/weather/src/solar/mod.rs,
    /repo/weather/src/location.rs and [Weather::fill_solar_radiation_data] in /repo/weather/src/lib.rs.

    Simplifications: arithmetic is exact ([R]). Where the code can produce a NaN (the arc cosine of a number outside [-1, 1],
    and zero divided by zero in [disc_direct_solar]) the value is an [option], [None] being the NaN; comparisons with it are
    false. The debug assertions are not modelled. A date is the number that [Date::day_of_year] gives for it. *)
From Coq Require Import List Arith ZArith Reals Bool Lra.
From Verif.Common Require Import Base Flt.
From Verif.Geometry Require Import Vec.
Import ListNotations.
Open Scope R_scope.
Open Scope list_scope.

(** [x.to_degrees()] and [x.to_radians()] *)
Definition to_degrees (x : R) : R := x * (180 / PI).
Definition to_radians (x : R) : R := x * (PI / 180).
(** [x.floor()] *)
Definition rfloor (x : R) : R := IZR (Int_part x).
(** [x % 1.]: what is left of [x] after dropping its integer part towards zero *)
Definition rem1 (x : R) : R := if Rltb x 0 then - (- x - rfloor (- x)) else x - rfloor x.
(** [x.acos()]; NaN outside of [-1, 1] *)
Definition facos (x : R) : option R := if Rleb (-1) x && Rleb x 1 then Some (acos x) else None.
(** [x.clamp(lo, hi)] *)
Definition clamp (lo hi x : R) : R := if Rltb x lo then lo else if Rltb hi x then hi else x.

(** solar/mod.rs:36-38 *)
Definition air_mass (solar_zenith : R) : R :=
  1 / (cos solar_zenith + 15 / 100 * Rpower (93885 / 1000 - to_degrees solar_zenith) (- (1253 / 1000))).

(** solar/mod.rs:44-59 *)
Record solar := mkSolar { latitude : R; longitude : R; standard_meridian : R }.
(** solar/mod.rs:62 *)
Definition SOLAR_CONSTANT : R := 13677 / 10.
(** solar/mod.rs:66-72 *)
Inductive time := Solar (n : R) | Standard (n : R).

(** solar/mod.rs:155-158 *)
Definition b (n : R) : R := (n - 1) * 2 * PI / 365.
(** solar/mod.rs:128-135 *)
Definition equation_of_time (n : R) : R :=
  let b := b n in
  2292 / 10 * (75 / 10 ^ 6 + 1868 / 10 ^ 6 * cos b - 32077 / 10 ^ 6 * sin b - 14615 / 10 ^ 6 * cos (2 * b)
               - 4089 / 10 ^ 5 * sin (2 * b)).
(** solar/mod.rs:141-149 *)
Definition declination (n : R) : R :=
  let b := b n in
  6918 / 10 ^ 6 - 399912 / 10 ^ 6 * cos b + 70257 / 10 ^ 6 * sin b - 6758 / 10 ^ 6 * cos (2 * b)
  + 907 / 10 ^ 6 * sin (2 * b) - 2697 / 10 ^ 6 * cos (3 * b) + 1480 / 10 ^ 6 * sin (3 * b).
(** solar/mod.rs:165-173 *)
Definition normal_extraterrestrial_radiation (n : R) : R :=
  let b := b n in
  let aux := 1000110 / 10 ^ 6 + 34221 / 10 ^ 6 * cos b + 1280 / 10 ^ 6 * sin b + 719 / 10 ^ 6 * cos (2 * b)
             + 77 / 10 ^ 6 * sin (2 * b) in
  SOLAR_CONSTANT * aux.

(** solar/mod.rs:92-94, in minutes *)
Definition solar_standard_time_difference (s : solar) (n : R) : R :=
  4 * to_degrees (standard_meridian s - longitude s) + equation_of_time n.
(** solar/mod.rs:98-108 *)
Definition unwrap_solar_time (s : solar) (n : time) : R :=
  match n with
  | Solar t => t
  | Standard t => t + solar_standard_time_difference s t / 24 / 60
  end.
(** solar/mod.rs:112-122 *)
Definition unwrap_standard_time (s : solar) (n : time) : R :=
  match n with
  | Solar t => t - solar_standard_time_difference s t / 24 / 60
  | Standard t => t
  end.

(** solar/mod.rs:176-184 *)
Definition hour_angle (s : solar) (n : time) : R :=
  let n := unwrap_solar_time s n in
  let solar_hour := 24 * rem1 n in
  to_radians ((solar_hour - 12) * 15).

(** solar/mod.rs:189-202; NaN where the sun neither rises nor sets *)
Definition sunrise_sunset (s : solar) (n : R) : option (R * R) :=
  let delta := declination n in
  let cos_w := - tan (latitude s) * tan delta in
  match facos cos_w with
  | None => None
  | Some w =>
      let half_n := to_degrees w / 15 in
      let midday := rfloor n + 5 / 10 in
      Some (midday - half_n / 24, midday + half_n / 24)
  end.

(** solar/mod.rs:219-281. The two arc cosines are of numbers between -1 and 1. *)
Definition sun_position (s : solar) (t : time) : option pt :=
  let n := unwrap_solar_time s t in
  let night := match sunrise_sunset s n with
               | None => false
               | Some (sunrise, sunset) =>
                   Rltb n (unwrap_solar_time s (Solar sunrise)) || Rltb (unwrap_solar_time s (Solar sunset)) n
               end in
  if night then None
  else
    let cos_phi := cos (latitude s) in
    let sin_phi := sin (latitude s) in
    let delta := declination n in
    let cos_delta := cos delta in
    let sin_delta := sin delta in
    let omega := hour_angle s (Solar n) in
    let cos_omega := cos omega in
    let cos_zenith := cos_phi * cos_delta * cos_omega + sin_phi * sin_delta in
    let sin_zenith := sin (acos cos_zenith) in
    if Rltb cos_zenith 0 then None
    else if Rltb (9999 / 10000) cos_zenith then Some (mkV 0 0 1)
    else
      let z := cos_zenith in
      let cos_azimuth := clamp (-1) 1 ((cos_zenith * sin_phi - sin_delta) / (sin_zenith * cos_phi)) in
      let sin_azimuth := sin (acos cos_azimuth) in
      let x := sin_azimuth * sin_zenith in
      let y := - cos_azimuth * sin_zenith in
      let x := if Rltb 0 omega then x * -1 else x in
      Some (mkV x y z).

(** solar/mod.rs:290-304 *)
Definition beam_atmosphere_transmittance (sundir : pt) (site_elevation : R) : R :=
  let cos_theta := vz sundir in
  let site_elevation := site_elevation / 1000 in
  let a0 := 4237 / 10000 - 821 / 100000 * (6 - site_elevation) ^ 2 in
  let a1 := 5055 / 10000 + 595 / 100000 * (65 / 10 - site_elevation) ^ 2 in
  let k := 2711 / 10000 + 1858 / 100000 * (25 / 10 - site_elevation) ^ 2 in
  a0 + a1 * exp (- k / cos_theta).

(** solar/mod.rs:309-325 *)
Definition clear_sky_global_horizontal_rad (s : solar) (n : time) (sundir : pt) (site_elevation : R) : R :=
  let tb := beam_atmosphere_transmittance sundir site_elevation in
  let td := 271 / 1000 - 294 / 1000 * tb in
  let tau := tb + td in
  let extra := normal_extraterrestrial_radiation (unwrap_solar_time s n) in
  extra * tau * vz sundir.

(** solar/mod.rs:378-463 *)
Definition estimate_global_horizontal_radiation (sun_direction : pt)
    (cloud_cover air_temperature air_three_hours_prior wind_speed relative_humidity : R) : R :=
  let relative_humidity := relative_humidity * 100 in
  let c0 := 749833333 / 10 ^ 9 in let c1 := 43947778 / 10 ^ 9 in let c2 := - (28806125 / 10 ^ 8) in
  let c3 := 16512222 / 10 ^ 9 in let c4 := - (29925 / 10 ^ 7) in let c5 := 3777778 / 10 ^ 9 in
  let d := - (5949946667 / 10 ^ 9) in
  let sin_alpha := vz sun_direction in
  let rad := SOLAR_CONSTANT * sin_alpha
             * (c0 + c1 * cloud_cover + c2 * cloud_cover ^ 2 + c3 * (air_temperature - air_three_hours_prior)
                + c4 * relative_humidity + c5 * wind_speed) + d in
  if Rltb 0 rad then rad else 0.

(** solar/mod.rs:466-469 *)
Definition hourly_clearness_index (s : solar) (n : time) (global_normal_radiation : R) : R :=
  let extra := normal_extraterrestrial_radiation (unwrap_solar_time s n) in
  global_normal_radiation / extra.

(** solar/mod.rs:477-531; [None] is a NaN: zero divided by zero when there is no radiation at all *)
Definition disc_direct_solar (s : solar) (n : time) (sun_direction : pt) (global_normal_radiation pressure : R) : option R :=
  let kt := hourly_clearness_index s n global_normal_radiation in
  let extra_rad := if Req_EM_T kt 0 then None else Some (global_normal_radiation / kt) in
  if Rltb kt 0 then Some 0
  else
    let kt := clamp 0 1 kt in
    let solar_zenith := acos (vz sun_direction) in
    if Rltb (80 * PI / 180) solar_zenith then Some 0
    else
      let air_mass := air_mass solar_zenith * pressure / 101300 in
      let a := if Rltb (6 / 10) kt then - (5743 / 1000) + 2177 / 100 * kt - 2749 / 100 * kt ^ 2 + 1156 / 100 * kt ^ 3
               else 512 / 1000 - 156 / 100 * kt + 2286 / 1000 * kt ^ 2 - 2222 / 1000 * kt ^ 3 in
      let b := if Rltb (6 / 10) kt then 414 / 10 - 1185 / 10 * kt + 6605 / 100 * kt ^ 2 + 319 / 10 * kt ^ 3
               else 37 / 100 + 962 / 1000 * kt in
      let c := if Rltb (6 / 10) kt then - (4701 / 100) + 1842 / 10 * kt - 222 * kt ^ 2 + 7381 / 100 * kt ^ 3
               else - (28 / 100) + 932 / 1000 * kt - 2048 / 1000 * kt ^ 2 in
      let delta_kn := a + b * exp (c * air_mass) in
      let knc := 886 / 1000 - 122 / 1000 * air_mass + 121 / 10000 * air_mass ^ 2 - 653 / 10 ^ 6 * air_mass ^ 3
                 + 14 / 10 ^ 6 * air_mass ^ 4 in
      match extra_rad with
      | None => None
      | Some extra_rad => let ret := extra_rad * (knc - delta_kn) in Some (if Rltb ret 0 then 0 else ret)
      end.

(** solar/mod.rs:536-547 *)
Definition diffuse_fraction (kt : R) : R :=
  if Rleb kt (22 / 100) then 1 - 9 / 100 * kt
  else if Rltb (8 / 10) kt then 165 / 1000
  else 9511 / 10000 - 1604 / 10000 * kt + 4388 / 1000 * kt ^ 2 - 16638 / 1000 * kt ^ 3 + 12336 / 1000 * kt ^ 4.

(** solar/mod.rs:629-647 *)
Definition perez_direct_rad_kt_bin (kt_p : R) : res nat :=
  if negb (Rleb 0 kt_p && Rleb kt_p 1) then Panic
  else if Rleb kt_p (24 / 100) then Ok 0%nat
  else if Rleb kt_p (4 / 10) then Ok 1%nat
  else if Rleb kt_p (56 / 100) then Ok 2%nat
  else if Rleb kt_p (7 / 10) then Ok 3%nat
  else if Rleb kt_p (8 / 10) then Ok 4%nat
  else if Rleb kt_p 1 then Ok 5%nat
  else Panic.
(** solar/mod.rs:650-668 *)
Definition perez_direct_rad_delta_kt_bin (delta_kt : R) : res nat :=
  if negb (Rleb 0 delta_kt && Rleb delta_kt 1) then Panic
  else if Rleb delta_kt (15 / 1000) then Ok 0%nat
  else if Rleb delta_kt (35 / 1000) then Ok 1%nat
  else if Rleb delta_kt (70 / 1000) then Ok 2%nat
  else if Rleb delta_kt (150 / 1000) then Ok 3%nat
  else if Rleb delta_kt (300 / 1000) then Ok 4%nat
  else if Rleb delta_kt 1 then Ok 5%nat
  else Panic.
(** solar/mod.rs:671-697 *)
Definition perez_direct_rad_zeta_bin (zeta : R) : res nat :=
  if negb (Rleb 0 zeta && Rleb zeta (PI / 2)) then Panic
  else if Rleb zeta (25 * PI / 180) then Ok 0%nat
  else if Rleb zeta (40 * PI / 180) then Ok 1%nat
  else if Rleb zeta (55 * PI / 180) then Ok 2%nat
  else if Rleb zeta (70 * PI / 180) then Ok 3%nat
  else if Rleb zeta (80 * PI / 180) then Ok 4%nat
  else if Rleb zeta (90 * PI / 180) then Ok 5%nat
  else Panic.
(** solar/mod.rs:700-712 *)
Definition perez_direct_rad_w_bin (w : R) : res nat :=
  if Rltb w 0 then Panic
  else if Rleb w 1 then Ok 0%nat
  else if Rleb w 2 then Ok 1%nat
  else if Rleb w 3 then Ok 2%nat
  else Ok 3%nat.

(** solar/mod.rs:716-969: the tables C00 to C55, one after the other, in millionths *)
Definition COEFS : list (list Z) :=
  [ (* C00 *) [385230; 385230; 385230; 462880; 317440; 338390; 338390; 221270; 316730; 503650; 235680; 235680; 241280; 157830; 269440; 830130; 830130; 171970; 841070; 457370; 548010; 548010; 478000; 966880; 1036370; 548010; 548010; 1000000; 3012370; 1976540; 582690; 582690; 229720; 892710; 569950];
    (* C01 *) [131280; 131280; 385460; 511070; 127940; 223710; 223710; 193560; 304560; 193940; 229970; 229970; 275020; 312730; 244610; 90100; 184580; 260500; 687480; 579440; 131530; 131530; 370190; 1380350; 1052270; 1116250; 1116250; 928030; 3525490; 2316920; 90100; 237000; 300040; 812470; 664970];
    (* C02 *) [587510; 130000; 400000; 537210; 832490; 306210; 129830; 204460; 500000; 681640; 224020; 260620; 334080; 501040; 350470; 421540; 753970; 750660; 3706840; 983790; 706680; 373530; 1245670; 864860; 1992630; 4864400; 117390; 265180; 359180; 3310820; 392080; 493290; 651560; 1932780; 898730];
    (* C03 *) [126970; 126970; 126970; 126970; 126970; 810820; 810820; 810820; 810820; 810820; 3241680; 2500000; 2291440; 2291440; 2291440; 4000000; 3000000; 2000000; 975430; 1965570; 12494170; 12494170; 8000000; 5083520; 8792390; 21744240; 21744240; 21744240; 21744240; 21744240; 3241680; 12494170; 1620760; 1375250; 2331620];
    (* C04 *) [126970; 126970; 126970; 126970; 126970; 810820; 810820; 810820; 810820; 810820; 3241680; 2500000; 2291440; 2291440; 2291440; 4000000; 3000000; 2000000; 975430; 1965570; 12494170; 12494170; 8000000; 5083520; 8792390; 21744240; 21744240; 21744240; 21744240; 21744240; 3241680; 12494170; 1620760; 1375250; 2331620];
    (* C05 *) [126970; 126970; 126970; 126970; 126970; 810820; 810820; 810820; 810820; 810820; 3241680; 2500000; 2291440; 2291440; 2291440; 4000000; 3000000; 2000000; 975430; 1965570; 12494170; 12494170; 8000000; 5083520; 8792390; 21744240; 21744240; 21744240; 21744240; 21744240; 3241680; 12494170; 1620760; 1375250; 2331620];
    (* C10 *) [337440; 337440; 969110; 1097190; 1116080; 337440; 337440; 969110; 1116030; 623900; 337440; 337440; 1530590; 1024420; 908480; 584040; 584040; 847250; 914940; 1289300; 337440; 337440; 310240; 1435020; 1852830; 337440; 337440; 1015010; 1097190; 2117230; 337440; 337440; 969110; 1145730; 1476400];
    (* C11 *) [300000; 300000; 700000; 1100000; 796940; 219870; 219870; 526530; 809610; 649300; 386650; 386650; 119320; 576120; 685460; 746730; 399830; 470970; 986530; 785370; 575420; 936700; 1649200; 1495840; 1335590; 1319670; 4002570; 1276390; 2644550; 2518670; 665190; 678910; 1012360; 1199940; 986580];
    (* C12 *) [378870; 974060; 500000; 491880; 665290; 105210; 263470; 407040; 553460; 582590; 312900; 345240; 1144180; 854790; 612280; 119070; 365120; 560520; 793720; 802600; 781610; 837390; 1270420; 1537980; 1292950; 1152290; 1152290; 1492080; 1245370; 2177100; 424660; 529550; 966910; 1033460; 958730];
    (* C13 *) [310590; 714410; 252450; 500000; 607600; 975190; 363420; 500000; 400000; 502800; 175580; 196250; 476360; 1072470; 490510; 719280; 698620; 657770; 1190840; 681110; 426240; 1464840; 678550; 1157730; 978430; 2501120; 1789130; 1387090; 2394180; 2394180; 491640; 677610; 685610; 1082400; 735410];
    (* C14 *) [597000; 500000; 300000; 310050; 413510; 314790; 336310; 400000; 400000; 442460; 166510; 460440; 552570; 1000000; 461610; 401020; 559110; 403630; 1016710; 671490; 400360; 750830; 842640; 1802600; 1023830; 3315300; 1510380; 2443650; 1638820; 2133990; 530790; 745850; 693050; 1458040; 804500];
    (* C15 *) [597000; 500000; 300000; 310050; 800920; 314790; 336310; 400000; 400000; 237040; 166510; 460440; 552570; 1000000; 581990; 401020; 559110; 403630; 1016710; 898570; 400360; 750830; 842640; 1802600; 3400390; 3315300; 1510380; 2443650; 1638820; 2508780; 204340; 1157740; 2003080; 2622080; 1409380];
    (* C20 *) [1242210; 1242210; 1242210; 1242210; 1242210; 56980; 56980; 656990; 656990; 925160; 89090; 89090; 1040430; 1232480; 1205300; 1053850; 1053850; 1399690; 1084640; 1233340; 1151540; 1151540; 1118290; 1531640; 1411840; 1494980; 1494980; 1700000; 1800810; 1671600; 1018450; 1018450; 1153600; 1321890; 1294670];
    (* C21 *) [700000; 700000; 1023460; 700000; 945830; 886300; 886300; 1333620; 800000; 1066620; 902180; 902180; 954330; 1126690; 1097310; 1095300; 1075060; 1176490; 1139470; 1096110; 1201660; 1201660; 1438200; 1256280; 1198060; 1525850; 1525850; 1869160; 1985410; 1911590; 1288220; 1082810; 1286370; 1166170; 1119330];
    (* C22 *) [600000; 1029910; 859890; 550000; 813600; 604450; 1029910; 859890; 656700; 928840; 455850; 750580; 804930; 823000; 911000; 526580; 932310; 908620; 983520; 988090; 1036110; 1100690; 848380; 1035270; 1042380; 1048440; 1652720; 900000; 2350410; 1082950; 817410; 976160; 861300; 974780; 1004580];
    (* C23 *) [782110; 564280; 600000; 600000; 665740; 894480; 680730; 541990; 800000; 669140; 487460; 818950; 841830; 872540; 709040; 709310; 872780; 908480; 953290; 844350; 863920; 947770; 876220; 1078750; 936910; 1280350; 866720; 769790; 1078750; 975130; 725420; 869970; 868810; 951190; 829220];
    (* C24 *) [791750; 654040; 483170; 409000; 597180; 566140; 948990; 971820; 653570; 718550; 648710; 637730; 870510; 860600; 694300; 637630; 767610; 925670; 990310; 847670; 736380; 946060; 1117590; 1029340; 947020; 1180970; 850000; 1050000; 950000; 888580; 700560; 801440; 961970; 906140; 823880];
    (* C25 *) [500000; 500000; 586770; 470550; 629790; 500000; 500000; 1056220; 1260140; 658140; 500000; 500000; 631830; 842620; 582780; 554710; 734730; 985820; 915640; 898260; 712510; 1205990; 909510; 1078260; 885610; 1899260; 1559710; 1000000; 1150000; 1120390; 653880; 793120; 903320; 944070; 796130];
    (* C30 *) [1000000; 1000000; 1050000; 1170380; 1178090; 960580; 960580; 1059530; 1179030; 1131690; 871470; 871470; 995860; 1141910; 1114600; 1201590; 1201590; 993610; 1109380; 1126320; 1065010; 1065010; 828660; 939970; 1017930; 1065010; 1065010; 623690; 1119620; 1132260; 1071570; 1071570; 958070; 1114130; 1127110];
    (* C31 *) [950000; 973390; 852520; 1092200; 1096590; 804120; 913870; 980990; 1094580; 1042420; 737540; 935970; 999940; 1056490; 1050060; 1032980; 1034540; 968460; 1032080; 1015780; 900000; 977210; 945960; 1008840; 969960; 600000; 750000; 750000; 844710; 899100; 926800; 965030; 968520; 1044910; 1032310];
    (* C32 *) [850000; 1029710; 961100; 1055670; 1009700; 818530; 960010; 996450; 1081970; 1036470; 765380; 953500; 948260; 1052110; 1000140; 775610; 909610; 927800; 987800; 952100; 1000990; 881880; 875950; 949100; 893690; 902370; 875960; 807990; 942410; 917920; 856580; 928270; 946820; 1032260; 972990];
    (* C33 *) [750000; 857930; 983800; 1056540; 980240; 750000; 987010; 1013730; 1133780; 1038250; 800000; 947380; 1012380; 1091270; 999840; 800000; 914550; 908570; 999190; 915230; 778540; 800590; 799070; 902180; 851560; 680190; 317410; 507680; 388910; 646710; 794920; 912780; 960830; 1057110; 947950];
    (* C34 *) [750000; 833890; 867530; 1059890; 932840; 979700; 971470; 995510; 1068490; 1030150; 858850; 987920; 1043220; 1108700; 1044900; 802400; 955110; 911660; 1045070; 944470; 884890; 766210; 885390; 859070; 818190; 615680; 700000; 850000; 624620; 669300; 835570; 946150; 977090; 1049350; 979970];
    (* C35 *) [689220; 809600; 900000; 789500; 853990; 854660; 852840; 938200; 923110; 955010; 938600; 932980; 1010390; 1043950; 1041640; 843620; 981300; 951590; 946100; 966330; 694740; 814690; 572650; 400000; 726830; 211370; 671780; 416340; 297290; 498050; 843540; 882330; 911760; 898420; 960210];
    (* C40 *) [1054880; 1075210; 1068460; 1153370; 1069220; 1000000; 1062220; 1013470; 1088170; 1046200; 885090; 993530; 942590; 1054990; 1012740; 920000; 950000; 978720; 1020280; 984440; 850000; 908500; 839940; 985570; 962180; 800000; 800000; 810080; 950000; 961550; 1038590; 1063200; 1034440; 1112780; 1037800];
    (* C41 *) [1017610; 1028360; 1058960; 1133180; 1045620; 920000; 998970; 1033590; 1089030; 1022060; 912370; 949930; 979770; 1020420; 981770; 847160; 935300; 930540; 955050; 946560; 880260; 867110; 874130; 972650; 883420; 627150; 627150; 700000; 774070; 845130; 973700; 1006240; 1026190; 1071960; 1017240];
    (* C42 *) [1028710; 1017570; 1025900; 1081790; 1024240; 924980; 985500; 1014100; 1092210; 999610; 828570; 934920; 994950; 1024590; 949710; 900810; 901330; 928830; 979570; 913100; 761030; 845150; 805360; 936790; 853460; 626400; 546750; 730500; 850000; 689050; 957630; 985480; 991790; 1050220; 987900];
    (* C43 *) [992730; 993880; 1017150; 1059120; 1017450; 975610; 987160; 1026820; 1075440; 1007250; 871090; 933190; 974690; 979840; 952730; 828750; 868090; 834920; 905510; 871530; 781540; 782470; 767910; 764140; 795890; 743460; 693390; 514870; 630150; 715660; 934760; 957870; 959640; 972510; 981640];
    (* C44 *) [965840; 941240; 987100; 1022540; 1011160; 988630; 994770; 976590; 950000; 1034840; 958200; 1018080; 974480; 920000; 989870; 811720; 869090; 812020; 850000; 821050; 682030; 679480; 632450; 746580; 738550; 668290; 445860; 500000; 678920; 696510; 926940; 953350; 959050; 876210; 991490];
    (* C45 *) [948940; 997760; 850000; 826520; 998470; 1017860; 970000; 850000; 700000; 988560; 1000000; 950000; 850000; 606240; 947260; 1000000; 746140; 751740; 598390; 725230; 922210; 500000; 376800; 517110; 548630; 500000; 450000; 429970; 404490; 539940; 960430; 881630; 775640; 596350; 937680];
    (* C50 *) [1030000; 1040000; 1000000; 1000000; 1049510; 1050000; 990000; 990000; 950000; 996530; 1050000; 990000; 990000; 820000; 971940; 1050000; 790000; 880000; 820000; 951840; 1000000; 530000; 440000; 710000; 928730; 540000; 470000; 500000; 550000; 773950; 1038270; 920180; 910930; 821140; 1034560];
    (* C51 *) [1041020; 997520; 961600; 1000000; 1035780; 948030; 980000; 900000; 950360; 977460; 950000; 977250; 869270; 800000; 951680; 951870; 850000; 748770; 700000; 883850; 900000; 823190; 727450; 600000; 839870; 850000; 805020; 692310; 500000; 788410; 1010090; 895270; 773030; 816280; 1011680];
    (* C52 *) [1022450; 1004600; 983650; 1000000; 1032940; 943960; 999240; 983920; 905990; 978150; 936240; 946480; 850000; 850000; 930320; 816420; 885000; 644950; 817650; 865310; 742960; 765690; 561520; 700000; 827140; 643870; 596710; 474460; 600000; 651200; 971740; 940560; 714880; 864380; 1001650];
    (* C53 *) [995260; 977010; 1000000; 1000000; 1035250; 939810; 975250; 939980; 950000; 982550; 876870; 879440; 850000; 900000; 917810; 873480; 873450; 751470; 850000; 863040; 761470; 702360; 638770; 750000; 783120; 734080; 650000; 600000; 650000; 715660; 942160; 919100; 770340; 731170; 995180];
    (* C54 *) [952560; 916780; 920000; 900000; 1005880; 928620; 994420; 900000; 900000; 983720; 913070; 850000; 850000; 800000; 924280; 868090; 807170; 823550; 600000; 844520; 769570; 719870; 650000; 550000; 733500; 580250; 650000; 600000; 500000; 628850; 904770; 852650; 708370; 493730; 949030];
    (* C55 *) [911970; 800000; 800000; 800000; 956320; 912620; 316930; 750000; 700000; 950110; 653450; 659330; 700000; 600000; 856110; 648440; 600000; 641120; 500000; 695780; 570000; 550000; 598800; 400000; 560150; 475230; 500000; 518640; 339970; 520230; 743440; 592190; 603060; 316930; 794390] ]%Z.

(** solar/mod.rs:715-1017 *)
Definition perez_direct_rad_coefs (kt_p zenith prec_water delta_kt : nat) : res R :=
  let i := (prec_water * 5 + delta_kt)%nat in
  if ((kt_p <=? 5) && (zenith <=? 5))%nat then
    match nth_error COEFS (kt_p * 6 + zenith) with
    | None => Panic
    | Some c => match nth_error c i with None => Panic | Some z => Ok (IZR z / 10 ^ 6) end
    end
  else Panic.

(** current_weather.rs:28-64, the fields used here. The date is its day of the year; the direct radiation can be a NaN. *)
Record weather := mkWeather {
  day : R; dry_bulb_temperature : R; dew_point_temperature : R; global_horizontal_radiation : R;
  direct_normal_radiation : option R; diffuse_horizontal_radiation : R; wind_speed : R; opaque_sky_cover : R;
  relative_humidity : R; pressure : R }.

(** solar/mod.rs:567-569, the function inside [perez_direct_normal_radiation] *)
Definition kt_prime (kt m : R) : R := kt / (1031 / 1000 * exp (- (14 / 10) / (9 / 10 + 94 / 10 / m)) + 1 / 10).

(** solar/mod.rs:555-626 *)
Definition perez_direct_normal_radiation (s : solar) (sun_direction : pt) (current_data : weather)
    (next_hour_data prev_hour_data : option weather) : res (option R) :=
  let cos_zenith := vz sun_direction in
  let zenith := acos cos_zenith in
  let n := Standard (day current_data) in
  let global_normal_radiation := global_horizontal_radiation current_data / cos_zenith in
  if Rltb (80 * PI / 180) zenith then Ok (Some 0)
  else
    let m := air_mass zenith * pressure current_data / 101300 in
    let kt := clamp 0 1 (hourly_clearness_index s n global_normal_radiation) in
    let kt_p := clamp 0 1 (kt_prime kt m) in
    let other (w : option weather) :=
      match w with
      | Some w => kt_prime (hourly_clearness_index s (Standard (day w)) (global_horizontal_radiation w / cos_zenith)) m
      | None => kt_p
      end in
    let next_kt_p := other next_hour_data in
    let prev_kt_p := other prev_hour_data in
    let delta_kt_p := clamp 0 1 (5 / 10 * (Rabs (kt_p - next_kt_p) + Rabs (kt_p - prev_kt_p))) in
    let w := exp (7 / 100 * dew_point_temperature current_data - 75 / 1000) in
    do ktp_bin <- perez_direct_rad_kt_bin kt_p;
    do zeta_bin <- perez_direct_rad_zeta_bin zenith;
    do w_bin <- perez_direct_rad_w_bin w;
    do delta_ktp_bin <- perez_direct_rad_delta_kt_bin delta_kt_p;
    do x <- perez_direct_rad_coefs ktp_bin zeta_bin w_bin delta_ktp_bin;
    Ok (option_map (Rmult x) (disc_direct_solar s n sun_direction global_normal_radiation (pressure current_data))).

(** solar/mod.rs:331-371. The estimated global radiation is always a number; [is_nan() && is_infinite()] never holds, so the
    direct radiation is left as it is; [f64::max] of a NaN and zero is zero. *)
Definition direct_diffuse_from_cloud_generic (s : solar) (sun_direction : pt) (current_data : weather)
    (next_hour_data prev_hour_data : option weather) (three_hours_prior_data : weather) : res (option R * R * R) :=
  let global_horizontal :=
    estimate_global_horizontal_radiation sun_direction (opaque_sky_cover current_data) (dry_bulb_temperature current_data)
      (dry_bulb_temperature three_hours_prior_data) (wind_speed current_data) (relative_humidity current_data) in
  let current_data := mkWeather (day current_data) (dry_bulb_temperature current_data) (dew_point_temperature current_data)
    global_horizontal (direct_normal_radiation current_data) (diffuse_horizontal_radiation current_data)
    (wind_speed current_data) (opaque_sky_cover current_data) (relative_humidity current_data) (pressure current_data) in
  do direct_normal_radiation <- perez_direct_normal_radiation s sun_direction current_data next_hour_data prev_hour_data;
  let cos_theta := vz sun_direction in
  let diffuse_horizontal := match direct_normal_radiation with
                            | None => 0
                            | Some d => Rmax (global_horizontal - d * cos_theta) 0
                            end in
  Ok (direct_normal_radiation, diffuse_horizontal, global_horizontal).

(** location.rs:64-67; the time zone in hours, the angles in radians *)
Definition get_solar (latitude longitude : R) (timezone : Z) : solar :=
  let stdmer := to_radians (IZR timezone * 15) in
  mkSolar latitude (- longitude) (- stdmer).

(** lib.rs:152-190, the closure *)
Definition solar_data (s : solar) (data : list weather) (line_index : nat) (current_data : weather) : res (option R * R * R) :=
  match sun_position s (Standard (day current_data)) with
  | Some sun_direction =>
      do three_hours_prior_data <-
        (if (3 <=? line_index)%nat
         then match nth_error data (line_index - 3) with Some r => Ok r | None => Panic end else Ok current_data);
      let prior_data := if (1 <=? line_index)%nat then nth_error data (line_index - 1) else None in
      let next_data := if (line_index + 1 <? length data)%nat then nth_error data (line_index + 1) else None in
      direct_diffuse_from_cloud_generic s sun_direction current_data next_data prior_data three_hours_prior_data
  | None => Ok (Some 0, 0, 0)
  end.
(** lib.rs:148-191, the iterator *)
Fixpoint solar_data_from (s : solar) (data rest : list weather) (line_index : nat) : res (list (option R * R * R)) :=
  match rest with
  | [] => Ok []
  | current_data :: rest =>
      do r <- solar_data s data line_index current_data;
      do l <- solar_data_from s data rest (S line_index);
      Ok (r :: l)
  end.
(** lib.rs:193-199 *)
Definition write_solar (w : weather) (c : option R * R * R) : weather :=
  mkWeather (day w) (dry_bulb_temperature w) (dew_point_temperature w) (snd c) (fst (fst c)) (snd (fst c)) (wind_speed w)
    (opaque_sky_cover w) (relative_humidity w) (pressure w).
(** lib.rs:145-202 *)
Definition fill_solar_radiation_data (s : solar) (data : list weather) : res (list weather) :=
  do solar_data <- solar_data_from s data data 0;
  Ok (map (fun p => write_solar (fst p) (snd p)) (combine data solar_data)).

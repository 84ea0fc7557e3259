(** Perez's sky: /repo/weather/src/solar/perez.rs. Arithmetic is exact ([R]). The radiations of the weather are numbers (see
    SunModel.v for when the code itself makes them NaN). The column matrix with a value per sky patch is a list. *)
From Coq Require Import List Arith ZArith Reals Bool Lra.
From Verif.Common Require Import Base Flt.
From Verif.Geometry Require Import Vec.
From Verif.Weather Require Import SunModel SkyModel.
Import ListNotations.
Open Scope R_scope.
Open Scope list_scope.

(** perez.rs:21 *)
Definition WHTEFFICACY : R := 179.
(** perez.rs:31-37 *)
Inductive sky_units := UnitsSolar | UnitsVisible.

(** perez.rs:52-61 *)
Definition sky_clearness (diffuse_horizontal_irrad direct_normal_irrad solar_zenith : R) : R :=
  let K := 1041 / 1000 in
  let z3 := solar_zenith ^ 3 in
  ((diffuse_horizontal_irrad + direct_normal_irrad) / diffuse_horizontal_irrad + K * z3) / (1 + K * z3).
(** perez.rs:318-320 and 482-484: [sky_clearness(...).clamp(-9e9, 11.9)]. Without diffuse radiation, a positive direct one is
    divided by zero: infinity, which is clamped. *)
Definition clamped_clearness (diffuse_horizontal_irrad direct_normal_irrad solar_zenith : R) : R :=
  if Req_EM_T diffuse_horizontal_irrad 0 then 119 / 10
  else clamp (- (9 * 10 ^ 9)) (119 / 10) (sky_clearness diffuse_horizontal_irrad direct_normal_irrad solar_zenith).

(** perez.rs:66-77 *)
Definition sky_brightness (diffuse_horizontal_irrad air_mass extraterrestrial_irradiance : R) : R :=
  let ret := diffuse_horizontal_irrad * air_mass / extraterrestrial_irradiance in
  if Rltb ret (1 / 100) then 1 / 100 else ret.
(** perez.rs:83-85 *)
Definition precipitable_water_content (dew_point_temp : R) : R := exp (7 / 100 * dew_point_temp - 75 / 1000).

(** perez.rs:88-120 *)
Definition clearness_category (clearness_index : R) : nat :=
  if Rltb clearness_index (1065 / 1000) then 0
  else if Rltb clearness_index (123 / 100) then 1
  else if Rltb clearness_index (15 / 10) then 2
  else if Rltb clearness_index (195 / 100) then 3
  else if Rltb clearness_index (28 / 10) then 4
  else if Rltb clearness_index (45 / 10) then 5
  else if Rltb clearness_index (62 / 10) then 6
  else 7.

(** perez.rs:132-141, in hundredths *)
Definition DIRECT_TABLE : list (Z * Z * Z * Z) :=
  [ (5720, -455, -298, 11712);
    (9899, -346, -121, 1238);
    (10983, -490, -171, -881);
    (11034, -584, -199, -456);
    (10636, -397, -175, -616);
    (10719, -125, -151, -2673);
    (10575, 77, -126, -3444);
    (10118, 158, -110, -829) ]%Z.
(** perez.rs:164-173, in hundredths *)
Definition DIFFUSE_TABLE : list (Z * Z * Z * Z) :=
  [ (9724, -46, 1200, -891);
    (10722, 115, 59, -395);
    (10497, 296, -553, -877);
    (10239, 559, -1395, -1390);
    (10071, 594, -2275, -2374);
    (10642, 383, -3615, -2883);
    (14188, 190, -5324, -1403);
    (15223, 35, -4527, -798) ]%Z.

(** perez.rs:124-150 *)
Definition direct_illuminance_ratio (p_water_content zenit sky_brightness : R) (index : nat) : res R :=
  match nth_error DIRECT_TABLE index with
  | None => Panic
  | Some (t0, t1, t2, t3) =>
      let v := IZR t0 / 100 + IZR t1 / 100 * p_water_content + IZR t2 / 100 * exp (573 / 100 * zenit - 5)
               + IZR t3 / 100 * sky_brightness in
      Ok (clamp 0 (9 * 10 ^ 9) v)
  end.
(** perez.rs:154-180 *)
Definition diffuse_illuminance_ratio (p_water_content cos_zenit sky_brightness : R) (index : nat) : res R :=
  match nth_error DIFFUSE_TABLE index with
  | None => Panic
  | Some (t0, t1, t2, t3) =>
      Ok (IZR t0 / 100 + IZR t1 / 100 * p_water_content + IZR t2 / 100 * cos_zenit + IZR t3 / 100 * ln sky_brightness)
  end.

(** perez.rs:184-233, in ten thousandths *)
Definition PEREZ_TABLE : list (list Z) :=
  [ [13525; -2576; -2690; -14366; -7670; 7; 12734; -1233; 28000; 6004; 12375; 10000; 18734; 6297; 9738; 2809; 356; -1246; -5718; 9938];
    [-12219; -7730; 14148; 11016; -2054; 367; -39128; 9156; 69750; 1774; 64477; -1239; -15798; -5081; -17812; 1080; 2624; 672; -2190; -4285];
    [-11000; -2515; 8952; 156; 2782; -1812; -45000; 11766; 247219; -130812; -377000; 348438; -50000; 15218; 39229; -26204; -156; 1597; 4199; -5562];
    [-5484; -6654; -2672; 7117; 7234; -6219; -56812; 26297; 333389; -183000; -622500; 520781; -35000; 16; 11477; 1062; 4659; -3296; -876; -329];
    [-6000; -3566; -25000; 23250; 2937; 496; -56812; 18415; 210000; -47656; -215906; 72492; -35000; -1554; 14062; 3988; 32; 766; -656; -1294];
    [-10156; -3670; 10078; 14051; 2875; -5328; -38500; 33750; 140000; -9999; -71406; 75469; -34000; -1078; -10750; 15702; -672; 4016; 3017; -4844];
    [-10000; 211; 5025; -5119; -3000; 1922; 7023; -16317; 190000; -50000; 12438; -19094; -40000; 250; 3844; 2656; 10468; -3788; -24517; 14656];
    [-10500; 289; 4260; 3590; -3250; 1156; 7781; 25; 310625; -145000; -461148; 553750; -72312; 4050; 133500; 6234; 15000; -6426; 18564; 5636] ]%Z.

Record params := mkParams { pa : R; pb : R; pc : R; pd : R; pe : R }.
(** perez.rs:183-271 *)
Definition calc_params (zenith epsilon delta : R) : res params :=
  let index := clearness_category epsilon in
  let delta := if Rltb (1065 / 1000) epsilon && Rltb epsilon (28 / 10) && Rltb delta (2 / 10) then 2 / 10 else delta in
  match nth_error PEREZ_TABLE index with
  | None => Panic
  | Some row =>
      let x i j := IZR (nth (4 * i + j) row 0%Z) / 10000 in
      let eqn6 i := x i 0%nat + x i 1%nat * zenith + delta * (x i 2%nat + x i 3%nat * zenith) in
      if negb (index =? 0)%nat
      then Ok (mkParams (eqn6 0%nat) (eqn6 1%nat) (eqn6 2%nat) (eqn6 3%nat) (eqn6 4%nat))
      else
        let c := exp (Rpower (delta * (x 2%nat 0%nat + x 2%nat 1%nat * zenith)) (x 2%nat 2%nat)) - x 2%nat 3%nat in
        let d := - exp (delta * (x 3%nat 0%nat + x 3%nat 1%nat * zenith)) + x 3%nat 2%nat + delta * x 3%nat 3%nat in
        Ok (mkParams (eqn6 0%nat) (eqn6 1%nat) c d (eqn6 4%nat))
  end.

(** perez.rs:298-306 and 464-472 *)
Definition limited_zenith (cos_zenit : R) : R :=
  if Rleb cos_zenit 0 then PI / 2
  else if Rleb (cos (to_radians 3)) cos_zenit then to_radians 3
  else acos cos_zenit.

(** perez.rs:337-355, the first closure: not yet scaled. A NaN, out of the inverse cosine of more than one, is made zero. *)
Definition relative_sky (p : params) (sun_position dir : pt) : R :=
  let cosgamma := vdot sun_position dir in
  match facos cosgamma with
  | None => 0
  | Some gamma =>
      let MIN_DZ := 1 / 100 in
      let cos_zeta := if Rltb (vz dir) MIN_DZ then MIN_DZ else vz dir in
      (1 + pa p * exp (pb p / cos_zeta)) * (1 + pc p * exp (pd p * gamma) + pe p * cosgamma * cosgamma)
  end.

(** perez.rs:360-370, the loop *)
Fixpoint norm_loop (r : sky) (ret : pt -> R) (bins : list nat) (norm_diff_illum : R) : res R :=
  match bins with
  | [] => Ok norm_diff_illum
  | i :: bins =>
      do dir <- bin_dir r i;
      do bin_dir <- bin_dir r i;
      let skypatch := ret dir in
      let skypatch := if Rltb skypatch 0 then 0 else skypatch in
      do omega <- bin_solid_angle r i;
      norm_loop r ret bins (norm_diff_illum + skypatch * omega * vz bin_dir)
  end.

(** perez.rs:277-382 *)
Definition get_sky_func_standard_time (units : sky_units) (s : solar) (date dew_point diffuse_horizontal_irrad direct_normal_irrad : R)
    : res (pt -> R) :=
  let day := Standard date in
  match sun_position s day with
  | None => Panic
  | Some sun_position =>
      let day := unwrap_solar_time s day in
      let cos_zenit := vz sun_position in
      let zenith := limited_zenith cos_zenit in
      let apwc := precipitable_water_content dew_point in
      let air_mass := air_mass zenith in
      let extraterrestrial_irradiance := normal_extraterrestrial_radiation day in
      let sky_brightness := clamp (1 / 100) (9 * 10 ^ 9) (sky_brightness diffuse_horizontal_irrad air_mass extraterrestrial_irradiance) in
      let sky_clearness := clamped_clearness diffuse_horizontal_irrad direct_normal_irrad zenith in
      let index := clearness_category sky_clearness in
      do ratio <- diffuse_illuminance_ratio apwc cos_zenit sky_brightness index;
      let diff_illum := match units with
                        | UnitsSolar => diffuse_horizontal_irrad * WHTEFFICACY
                        | UnitsVisible => diffuse_horizontal_irrad * ratio
                        end in
      do params <- calc_params zenith sky_clearness sky_brightness;
      let ret := relative_sky params sun_position in
      do r <- new 1;
      do norm_diff_illum <- norm_loop r ret (seq 1 (n_bins r - 1)) 0;
      let norm_diff_illum := if Rltb (1 / 10 ^ 4) norm_diff_illum then diff_illum / (norm_diff_illum * WHTEFFICACY) else 0 in
      Ok (fun dir => ret dir * norm_diff_illum)
  end.

(** matrix/src/generic_matrix.rs:153-161, on a column *)
Definition add_to_element (vec : list R) (row : nat) (v : R) : res (list R) :=
  if (row <? length vec)%nat then Ok (upd vec row (nth row vec 0 + v)) else Err.
(** generic_matrix.rs:141-150, on a column *)
Definition set_element (vec : list R) (row : nat) (v : R) : res (list R) :=
  if (row <? length vec)%nat then Ok (upd vec row v) else Err.
(** perez.rs:440-442 and 456-458 *)
Fixpoint zero_loop (bins : list nat) (vec : list R) : res (list R) :=
  match bins with
  | [] => Ok vec
  | bin :: bins => do vec <- set_element vec bin 0; zero_loop bins vec
  end.
(** perez.rs:519-526 *)
Fixpoint sky_loop (r : sky) (sky_func : pt -> R) (bins : list nat) (vec : list R) : res (list R) :=
  match bins with
  | [] => Ok vec
  | bin :: bins =>
      do dir <- bin_dir r bin;
      do vec <- add_to_element vec bin (sky_func dir);
      sky_loop r sky_func bins vec
  end.

(** perez.rs:539-549: put a bin before the first that is further from the sun; the last one falls out *)
Fixpoint put_closest (bin : nat) (dot : R) (closests : list (nat * R)) : list (nat * R) :=
  match closests with
  | [] => []
  | c :: rest => if Rltb (snd c) dot then (bin, dot) :: removelast (c :: rest) else c :: put_closest bin dot rest
  end.
(** perez.rs:536-550 *)
Fixpoint closest_loop (r : sky) (sun_position : pt) (bins : list nat) (closests : list (nat * R)) : res (list (nat * R)) :=
  match bins with
  | [] => Ok closests
  | bin :: bins =>
      do dir <- bin_dir r bin;
      closest_loop r sun_position bins (put_closest bin (vdot dir sun_position) closests)
  end.
(** perez.rs:554-558 *)
Definition weight (c : nat * R) : R := 1 / (1002 / 1000 - snd c).
(** perez.rs:560-571 *)
Fixpoint sun_loop (r : sky) (dir_illum tot_weight : R) (closests : list (nat * R)) (vec : list R) : res (list R) :=
  match closests with
  | [] => Ok vec
  | c :: closests =>
      do solid_angle <- bin_solid_angle r (fst c);
      let val_add := weight c * dir_illum / (WHTEFFICACY * tot_weight) / solid_angle in
      do vec <- add_to_element vec (fst c) val_add;
      sun_loop r dir_illum tot_weight closests vec
  end.

(** perez.rs:416-576; the date is a day of the year in standard time *)
Definition update_sky_vec (vec : list R) (mf : nat) (s : solar) (date : R) (dew_point diffuse_horizontal_irrad direct_normal_irrad : R)
    (units : sky_units) (albedo : R) (add_sky add_sun : bool) : res (list R) :=
  do r <- new mf;
  if negb (length vec =? n_bins r)%nat then Err
  else if Rltb (direct_normal_irrad + diffuse_horizontal_irrad) (1 / 10 ^ 4) then zero_loop (seq 0 (n_bins r)) vec
  else
    let day := Standard date in
    match sun_position s day with
    | None => zero_loop (seq 0 (n_bins r)) vec
    | Some sun_position =>
        let day := unwrap_solar_time s day in
        let cos_zenit := vz sun_position in
        let zenith := limited_zenith cos_zenit in
        let apwc := precipitable_water_content dew_point in
        let air_mass := air_mass zenith in
        let extraterrestrial_irradiance := normal_extraterrestrial_radiation day in
        let sky_brightness := clamp (1 / 100) (9 * 10 ^ 9) (sky_brightness diffuse_horizontal_irrad air_mass extraterrestrial_irradiance) in
        let sky_clearness := clamped_clearness diffuse_horizontal_irrad direct_normal_irrad zenith in
        let clearness_category := clearness_category sky_clearness in
        do diffuse_ratio <- diffuse_illuminance_ratio apwc cos_zenit sky_brightness clearness_category;
        do direct_ratio <- direct_illuminance_ratio apwc zenith sky_brightness clearness_category;
        let diff_illum := match units with
                          | UnitsSolar => diffuse_horizontal_irrad * WHTEFFICACY
                          | UnitsVisible => diffuse_horizontal_irrad * diffuse_ratio
                          end in
        let dir_illum := match units with
                         | UnitsSolar => direct_normal_irrad * WHTEFFICACY
                         | UnitsVisible => direct_normal_irrad * direct_ratio
                         end in
        do vec <- (if Rltb (1 / 10 ^ 8) albedo then
                     let global_horizontal := diff_illum in
                     let global_horizontal := if Rltb 0 cos_zenit then global_horizontal + dir_illum * cos_zenit else global_horizontal in
                     let ground := albedo * global_horizontal / PI / WHTEFFICACY in
                     add_to_element vec 0 ground
                   else Ok vec);
        do vec <- (if add_sky then
                     do sky_func <- get_sky_func_standard_time units s date dew_point diffuse_horizontal_irrad direct_normal_irrad;
                     sky_loop r sky_func (seq 1 (n_bins r - 1)) vec
                   else Ok vec);
        if add_sun && Rltb (1 / 10 ^ 4) direct_normal_irrad then
          do closests <- closest_loop r sun_position (seq 0 (n_bins r)) (repeat (0%nat, -1) 4);
          let tot_weight := fold_left (fun t c => t + weight c) (rev closests) 0 in
          sun_loop r dir_illum tot_weight (rev closests) vec
        else Ok vec
    end.

(** perez.rs:387-411 *)
Definition gen_sky_vec (mf : nat) (s : solar) (date dew_point diffuse_horizontal_irrad direct_normal_irrad : R) (units : sky_units)
    (albedo : R) (add_sky add_sun : bool) : res (list R) :=
  do r <- new mf;
  update_sky_vec (repeat 0 (n_bins r)) mf s date dew_point diffuse_horizontal_irrad direct_normal_irrad units albedo add_sky add_sun.

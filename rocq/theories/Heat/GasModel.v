(** Gas filled cavities: /repo/heat/src/gas.rs, /repo/heat/src/cavity.rs. Numbers are exact reals; the debug assertions and
    [dbg!] messages are not modelled. *)
From Coq Require Import List Reals Bool Lra.
From Verif.Common Require Import Base Flt.
From Verif.Polynomial Require Import PolynomialModel.
Import ListNotations.
Open Scope R_scope.

(** [x.powf(y)] for [y > 0] and [x >= 0] (a negative base, which gives NaN in Rust, gives zero here) *)
Definition powf (x y : R) : R := if Rltb 0 x then Rpower x y else 0.

(** lib.rs:49 *)
Definition SIGMA : R := 5670374419 / 10 ^ 17.

(** gas.rs:27-42 *)
Record gas := mkGas { g_conductivity : polynomial; g_viscosity : polynomial; g_capacity : polynomial; g_mass : R }.

(** The [poly!] macro with at most 12 coefficients *)
Definition poly_of (l : list R) : polynomial := match poly l with Ok p => p | _ => new_poly end.

(** gas.rs:45-50 *)
Definition AIR : gas := mkGas (poly_of [2873 / 10 ^ 6; 7760 / 10 ^ 8]) (poly_of [3723 / 10 ^ 9; 494 / 10 ^ 10])
  (poly_of [10027370 / 10 ^ 4; 12324 / 10 ^ 6]) (2897 / 100).
(** gas.rs:53-58 *)
Definition ARGON : gas := mkGas (poly_of [2285 / 10 ^ 6; 5149 / 10 ^ 8]) (poly_of [3379 / 10 ^ 9; 6451 / 10 ^ 11])
  (poly_of [5219285 / 10 ^ 4]) (39948 / 1000).
(** gas.rs:61-66 *)
Definition KRYPTON : gas := mkGas (poly_of [9443 / 10 ^ 7; 2826 / 10 ^ 8]) (poly_of [2213 / 10 ^ 9; 7777 / 10 ^ 11])
  (poly_of [2480907 / 10 ^ 4]) (838 / 10).
(** gas.rs:69-74 *)
Definition XENON : gas := mkGas (poly_of [4538 / 10 ^ 7; 1723 / 10 ^ 8]) (poly_of [1069 / 10 ^ 9; 7414 / 10 ^ 11])
  (poly_of [1583397 / 10 ^ 4]) (13130 / 100).

(** gas.rs:155-180 *)
Definition thermal_conductivity (g : gas) (temp : R) : R := eval (g_conductivity g) temp.
Definition dynamic_viscosity (g : gas) (temp : R) : R := eval (g_viscosity g) temp.
Definition heat_capacity (g : gas) (temp : R) : R := eval (g_capacity g) temp.
Definition density (g : gas) (temp : R) : R := 101325 * g_mass g / (831446261815324 / 10 ^ 11 * temp).

(** gas.rs:183-185 *)
Definition in_kelvin (t : R) : R := t + 27315 / 100.

(** gas.rs:82-102 *)
Definition raleigh (g : gas) (t_front t_back thickness : R) : R :=
  let G := 981 / 100 in
  if Rltb (Rabs (t_front - t_back)) (1 / 10 ^ 10) then 1 / 10 ^ 7
  else
    let temp := (in_kelvin t_front + in_kelvin t_back) / 2 in
    let beta := 1 / temp in
    let c_p := heat_capacity g temp in
    let mu := dynamic_viscosity g temp in
    let lambda := thermal_conductivity g temp in
    let rho := density g temp in
    rho ^ 2 * thickness ^ 3 * G * beta * c_p * Rabs (t_front - t_back) / (mu * lambda).

(** gas.rs:227-244 *)
Definition pos_part (x : R) : R := (x + Rabs x) / 2.
Definition nu_0_60 (ra gamma : R) : R :=
  let cos_gamma := cos gamma in
  let a := pos_part (1 - 1708 / (ra * cos_gamma)) in
  let b := 1 - 1708 * powf (sin (18 / 10 * gamma)) (16 / 10) / (ra * cos_gamma) in
  let c := powf (ra * cos_gamma / 5830) (1 / 3) - 1 in
  1 + 144 / 100 * a * b + pos_part c.

(** gas.rs:249-263 *)
Definition nu_60 (ra a_gi : R) : R :=
  let g := 5 / 10 / powf (1 + powf (ra / 3160) (206 / 10)) (1 / 10) in
  let nu1 := powf (1 + (936 / 10000 * powf ra (314 / 1000) / (1 + g)) ^ 7) (1 / 7) in
  let nu2 := (104 / 1000 + 175 / 1000 / a_gi) * powf ra (283 / 1000) in
  if Rltb nu2 nu1 then nu1 else nu2.

(** gas.rs:285-307; the case [ra = 5e4] is [unreachable!()] *)
Definition nu_90 (ra a_gi : R) : res R :=
  do nu1 <- (if Rleb ra (10 ^ 4) then Ok (1 + 17596678 / 10 ^ 7 * (1 / 10 ^ 10) * powf ra (22984755 / 10 ^ 7))
             else if Rltb ra (5 * 10 ^ 4) then Ok (28154 / 10 ^ 6 * powf ra (4134 / 10 ^ 4))
             else if Rltb (5 * 10 ^ 4) ra then Ok (673838 / 10 ^ 7 * powf ra (1 / 3))
             else Panic);
  let nu2 := 242 / 1000 * powf (ra / a_gi) (272 / 1000) in
  Ok (if Rltb nu2 nu1 then nu1 else nu2).

(** gas.rs:269-280 *)
Definition nu_60_90 (ra gamma a_gi : R) : res R :=
  let nu60 := nu_60 ra a_gi in
  do nu90 <- nu_90 ra a_gi;
  let x := (gamma - PI / 3) / (PI / 2 - PI / 3) in
  Ok (nu60 + (nu90 - nu60) * x).

(** gas.rs:312-315 *)
Definition nu_90_180 (ra a_gi gamma : R) : res R :=
  do nu_v <- nu_90 ra a_gi;
  Ok (1 + (nu_v - 1) * sin gamma).

(** [x % y], for [x >= 0] and [y > 0] *)
Definition frem (x y : R) : R := x - y * IZR (Int_part (x / y)).

(** gas.rs:197-221 *)
Definition nusselt (ra gamma a_gi : R) : res R :=
  let THIRTY_RAD := 30 * PI / 180 in
  let EPSILON_RAD := 5 / 10 * PI / 180 in
  let gamma := frem gamma PI in
  if Rleb 0 gamma && Rltb gamma (2 * THIRTY_RAD - EPSILON_RAD) then Ok (nu_0_60 ra gamma)
  else if Rltb gamma (2 * THIRTY_RAD + EPSILON_RAD) then Ok (nu_60 ra a_gi)
  else if Rltb gamma (3 * THIRTY_RAD - EPSILON_RAD) then nu_60_90 ra gamma a_gi
  else if Rltb gamma (3 * THIRTY_RAD + EPSILON_RAD) then nu_90 ra a_gi
  else if Rltb gamma (6 * THIRTY_RAD) then nu_90_180 ra a_gi gamma
  else Panic.

(** gas.rs:126-152 *)
Definition cavity_convection (g : gas) (height thickness gamma t_front t_back : R) : res R :=
  let gamma := if Rltb t_back t_front then 180 * (PI / 180) - gamma else gamma in
  let a_gi := height / thickness in
  let ra := raleigh g t_front t_back thickness in
  do nu <- nusselt ra gamma a_gi;
  let temp := (in_kelvin t_front + in_kelvin t_back) / 2 in
  let lambda := thermal_conductivity g temp in
  Ok (nu * lambda / thickness).

(** cavity.rs:28-50 *)
Record cavity := mkCavity { c_thickness : R; c_height : R; c_gas : gas; c_eout : R; c_ein : R; c_angle : R }.

(** cavity.rs:59-69 *)
Definition cavity_u_value (c : cavity) (t_front t_back : R) : res R :=
  do conv <- cavity_convection (c_gas c) (c_height c) (c_thickness c) (c_angle c) t_front t_back;
  let tm := (t_back + t_front) / 2 + 27315 / 100 in
  let rad := 4 * tm ^ 3 * SIGMA * c_ein c * c_eout c / (1 - (1 - c_ein c) * (1 - c_eout c)) in
  Ok (rad + conv).

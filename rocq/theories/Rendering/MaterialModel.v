(** How materials scatter light: /repo/rendering/src/material.  Arithmetic is exact: overflow, rounding and NaN are not modelled, and the
    theorems ask for denominators that are not zero.  Random numbers come from a generator [gen].  The debug assertions, the names of the
    materials, [BSDFSample::eta] and [BSDFSample::pdf_is_proportional] (which nobody reads) are left out. *)
From Coq Require Import Reals List Bool NArith Lia.
From Verif.Common Require Import Base Flt.
From Verif.Geometry Require Import Vec TriangleModel.
From Verif.Rendering Require Import SamplersModel DaylightModel.
Import ListNotations.
Open Scope R_scope.

(** ** Flags *)

(** mat_trait.rs:15-19 *)
Inductive TransportMode := Radiance | Importance.
(** mat_trait.rs:21-38: the flags are bits; [a & b] asks for a common bit *)
Definition flag := N.
Definition TRANS_REFLECTION : flag := 1%N.
Definition TRANS_TRANSMISSION : flag := 2%N.
Definition TRANS_ALL : flag := 3%N.
Definition has (a b : flag) : bool := (0 <? N.land a b)%N.
(** mat_trait.rs:40-65, those that are used *)
Definition REFLECTION : flag := 1%N.
Definition TRANSMISSION : flag := 2%N.
Definition DIFFUSE : flag := 4%N.
Definition GLOSSY : flag := 8%N.
Definition SPECULAR : flag := 16%N.
Definition DiffuseReflection : flag := N.lor DIFFUSE REFLECTION.
Definition GlossyReflection : flag := N.lor GLOSSY REFLECTION.
Definition SpecularReflection : flag := N.lor SPECULAR REFLECTION.
Definition SpecularTransmission : flag := N.lor SPECULAR TRANSMISSION.

(** bsdf_sample.rs:6-13 *)
Record bsample := mkBS { b_spectrum : spectrum; b_wi : pt; b_pdf : R; b_flags : flag }.
(** bsdf_sample.rs:67-81 *)
Definition is_reflection (s : bsample) : bool := has (b_flags s) REFLECTION.
Definition is_transmission (s : bsample) : bool := has (b_flags s) TRANSMISSION.
Definition is_specular (s : bsample) : bool := has (b_flags s) SPECULAR.

(** local_coordinates_utils.rs:7-9 and 20-22 *)
Definition same_hemisphere (w wp : pt) : bool := Rltb 0 (vz w * vz wp).
Definition abs_cos_theta (v : pt) : R := Rabs (vz v).

(** bsdf_sample.rs:26-34 *)
Definition new_diffuse (f : spectrum) (u : R * R) : bsample :=
  let wi := sample_cosine_weighted_horizontal_hemisphere u in
  let wi := if Rltb (vz wi) 0 then mkV (vx wi) (vy wi) (vz wi * -1) else wi in
  let pdf := abs_cos_theta wi / PI in
  mkBS (sdiv f PI) wi pdf DiffuseReflection.

(** ** Specular directions and Fresnel's equations *)

(** specular.rs:42-73 *)
Definition cos_and_n (vin : pt) (n1 : R) (normal : pt) (refraction_index : R) : R * R * R * option R :=
  let cos1 := Rabs (vdot vin normal) in
  let n2 := if Rltb (Rabs (n1 - refraction_index)) (1 / 10 ^ 7) then 1 else refraction_index in
  let sin1_sq := Rmax (1 - cos1 * cos1) 0 in
  let sin2_sq := n1 * n1 * sin1_sq / (n2 * n2) in
  if Rltb 1 sin2_sq then (n1, cos1, n2, None)
  else (n1, cos1, n2, Some (sqrt (1 - sin2_sq))).
(** specular.rs:82-84 *)
Definition fresnel_te (n1 cos1 n2 cos2 : R) : R := (n1 * cos1 - n2 * cos2) / (n1 * cos1 + n2 * cos2).
(** specular.rs:93-96 *)
Definition fresnel_tm (n1 cos1 n2 cos2 : R) : R := (n1 / cos1 - n2 / cos2) / (n1 / cos1 + n2 / cos2).
(** specular.rs:98-102 *)
Definition fresnel_reflectance (n1 cos1 n2 cos2 : R) : R :=
  let parallel := fresnel_tm n1 cos1 n2 cos2 in
  let perpendicular := fresnel_te n1 cos1 n2 cos2 in
  1 / 2 * (parallel * parallel + perpendicular * perpendicular).
(** specular.rs:105-144 *)
Definition fresnel_transmission_dir (vin normal : pt) (n1 cos1 n2 cos2 : R) : pt :=
  let n_ratio := n1 / n2 in
  vadd (vscale vin n_ratio) (vscale normal (n_ratio * cos1 - cos2)).
(** specular.rs:147-149 *)
Definition mirror_direction (vin : pt) : pt := mkV (vx vin) (vy vin) (- vz vin).

Section Sampling.
Context {G : Type} (gen : G -> R * G).
(** [rng.gen()] for a pair *)
Definition gen2 (g : G) : (R * R) * G := let '(a, g) := gen g in let '(b, g) := gen g in ((a, b), g).

(** ** Diffuse materials *)

(** diffuse.rs:31-43 *)
Definition diffuse_eval (colour : spectrum) (wo wi : pt) : spectrum := if same_hemisphere wo wi then sdiv colour PI else BLACK.
(** diffuse.rs:45-57 *)
Definition diffuse_pdf (wo wi : pt) : R := if same_hemisphere wo wi then abs_cos_theta wi / PI else 0.
(** diffuse.rs:59-73 *)
Definition diffuse_sample (colour : spectrum) (trans_flags : flag) (g : G) : option bsample * G :=
  let '(u, g) := gen2 g in
  (if has trans_flags TRANS_REFLECTION then Some (new_diffuse colour u) else None, g).

(** ** Mirrors *)

(** mirror.rs:68-80 *)
Definition mirror_sample (colour : spectrum) (wo : pt) : bsample :=
  mkBS (sdiv colour (Rabs (vz wo))) (mirror_direction wo) 1 SpecularReflection.

(** ** Dielectrics *)

(** dielectric.rs:131-184.  When neither reflection nor transmission is possible the quotients are [0 / 0] and no comparison with them
    holds. *)
Definition dielectric_sample (colour : spectrum) (refraction_index : R) (wo : pt) (eta : R) (mode : TransportMode) (trans_flags : flag)
    (g : G) : res (bsample * G) :=
  let normal := mkV 0 0 1 in
  let '(n1, cos1, n2, cos2) := cos_and_n wo eta normal refraction_index in
  let refl := match cos2 with Some v => fresnel_reflectance n1 cos1 n2 v | None => 1 end in
  let trans := 1 - refl in
  let n1_over_n2 := n1 / n2 in
  let pr := if has trans_flags TRANS_REFLECTION then refl else 0 in
  let pt := if has trans_flags TRANS_TRANSMISSION then trans else 0 in
  let '(uc, g) := gen g in
  if Rltb 0 (pr + pt) && Rltb uc (pr / (pr + pt)) then
    Ok (mkBS (gray (refl / cos1)) (mirror_direction wo) (pr / (pr + pt)) SpecularReflection, g)
  else
    match cos2 with
    | None => Panic
    | Some cos2 =>
      let wi := fresnel_transmission_dir wo normal n1 cos1 n2 cos2 in
      let s := smul (gray (trans / cos2)) colour in
      let s := match mode with Radiance => sscale s (sqrt n1_over_n2) | Importance => s end in
      Ok (mkBS s wi (pt / (pr + pt)) SpecularTransmission, g)
    end.

(** ** Glass *)

(** an operation on each of the channels *)
Definition smap (f : R -> R) (a : spectrum) : spectrum := mkS (f (red a)) (f (green a)) (f (blue a)).
(** colour.rs:107-116 *)
Definition smax (a : spectrum) : R :=
  let m := red a in
  let m := if Rltb m (green a) then green a else m in
  if Rltb m (blue a) then blue a else m.
(** glass.rs:34-46 *)
Definition MIN_COLOUR : R := 1 / 10 ^ 15.
Definition any_transmission (colour : spectrum) : bool * spectrum :=
  if Rltb (smax colour) MIN_COLOUR then (false, colour)
  else (true, smap (fun v => if Rltb v MIN_COLOUR then MIN_COLOUR else v) colour).
(** glass.rs:55-59 *)
Definition transmitted_cos (rindex : R) (direction : pt) : R :=
  let pdot := Rabs (vz direction) in
  sqrt ((1 - 1 / rindex ^ 2) + (pdot / rindex) ^ 2).
(** glass.rs:107-109, one channel *)
Definition glass_trans (fte ftm ct : R) : R :=
  ct * (1 / 2) * ((1 - fte) ^ 2 / (1 - (ct * fte) ^ 2) + (1 - ftm) ^ 2 / (1 - (ct * ftm) ^ 2)).
(** glass.rs:115-118, one channel *)
Definition glass_refl (fte ftm ct : R) : R :=
  let ct := ct ^ 2 in
  1 / 2 * (fte * (1 + (1 - 2 * fte) * ct) / (1 - fte ^ 2 * ct) + ftm * (1 + (1 - 2 * ftm) * ct) / (1 - ftm ^ 2 * ct)).
(** glass.rs:77-159 *)
Definition glass_sample (colour : spectrum) (rindex : R) (wo : pt) (trans_flags : flag) (g : G) : option bsample * G :=
  let '(any, colour) := any_transmission colour in
  let cos1 := Rabs (vz wo) in
  let cos2 := transmitted_cos rindex wo in
  let fte := (cos1 - rindex * cos2) / (cos1 + rindex * cos2) in
  let fte := fte * fte in
  let ftm := (1 / cos1 - rindex / cos2) / (1 / cos1 + rindex / cos2) in
  let ftm := ftm * ftm in
  let ct := if any then smap (fun v => Rpower v (1 / cos2)) colour else colour in
  let trans := if any then smap (glass_trans fte ftm) ct else BLACK in
  let refl := smap (glass_refl fte ftm) ct in
  let wi := mirror_direction wo in
  let pr := if any then radiance refl else 1 in
  let pt := if any then radiance trans else 0 in
  let pr := if has trans_flags TRANS_REFLECTION then pr else 0 in
  let pt := if has trans_flags TRANS_TRANSMISSION then pt else 0 in
  if Rltb pr (1 / 10 ^ 19) && Rltb pt (1 / 10 ^ 19) then (None, g)
  else
    let '(uc, g) := gen g in
    if Rleb uc (pr / (pr + pt)) then (Some (mkBS (sdiv refl cos1) wi (pr / (pr + pt)) SpecularReflection), g)
    else (Some (mkBS (sdiv trans cos1) wo (pt / (pr + pt)) SpecularTransmission), g).

(** ** Ward's model: plastic and metal *)

(** ward.rs:32 *)
Definition LOW_ROUGHNESS : R := 1 / 1000.
(** ward.rs:159-188; panics when the two directions cancel each other *)
Definition evaluate_ward (specularity alpha beta : R) (wo wi : pt) : res (R * R) :=
  if negb (same_hemisphere wo wi) then Ok (0, 0)
  else
    do spec <- (if Rltb (1 / 10 ^ 5) specularity then
      let alpha := Rmax alpha LOW_ROUGHNESS in
      let beta := Rmax beta LOW_ROUGHNESS in
      do h <- vnormalize (vadd wo wi);
      let h_n := vz h in
      let c1 := specularity * vdot h h / (PI * alpha * beta * h_n ^ 4) in
      let c2 := - ((vx h / alpha) ^ 2 + (vy h / beta) ^ 2) / h_n ^ 2 in
      Ok (c1 * exp c2)
    else Ok 0);
    let diff := (1 - specularity) / PI in
    Ok (spec / Rabs (vz wo), diff).
(** ward.rs:129-153 *)
Definition ward_pdf (specularity alpha beta : R) (wo wi : pt) : res R :=
  if negb (same_hemisphere wo wi) then Ok 0
  else
    do (spec, _) <- evaluate_ward specularity alpha beta wo wi;
    let spec_pdf := 1 / 2 * (1 + vz wo / vz wi) * spec in
    let diffuse_pdf := (1 - specularity) * Rabs (vz wo) / PI in
    Ok (spec_pdf + diffuse_pdf).
(** ward.rs:57-79: the direction that is tried, before its sign is changed *)
Definition ward_try (alpha beta : R) (wo : pt) (xi : R * R) : res pt :=
  let '(xi1, xi2) := xi in
  let d := 2 * PI * xi1 in
  let cosp := cos d * alpha in
  let sinp := sin d * beta in
  let d := 1 / sqrt (cosp ^ 2 + sinp ^ 2) in
  let cosp := cosp * d in
  let sinp := sinp * d in
  let d := if Rltb xi2 (1 / 10 ^ 9) then 1 else sqrt (- ln xi2 / ((cosp / alpha) ^ 2 + (sinp / beta) ^ 2)) in
  let h := mkV (cosp * d) (sinp * d) 1 in
  let d := vdot h wo * 2 / (1 + d ^ 2) in
  vnormalize (mkV (- vx wo) (- vy wo) (- vz wo + d)).
(** ward.rs:55-120: the loop has no bound; [None] when it is still running after [fuel] rounds *)
Fixpoint ward_loop (fuel attempts : nat) (specularity alpha beta : R) (wo : pt) (g : G) : res (option (bsample * G)) :=
  match fuel with
  | O => Ok None
  | S fuel =>
    let attempts := S attempts in
    let '(xi, g) := gen2 g in
    do v <- ward_try alpha beta wo xi;
    let l_n := vz wo in
    let v_n := vz v in
    if Rltb v_n 0 || Rltb l_n 0 then
      do (spec, _) <- evaluate_ward specularity alpha beta wo v;
      let pdf := 1 / 2 * (1 + v_n / l_n) * spec in
      let s := sdiv (gray spec) (Rabs l_n) in
      if Rltb pdf (1 / 10 ^ 8) && Rltb spec (1 / 10 ^ 8) then ward_loop fuel attempts specularity alpha beta wo g
      else Ok (Some (mkBS s (vneg v) pdf GlossyReflection, g))
    else if (50 <? attempts)%nat then Ok (Some (mkBS BLACK v 1 GlossyReflection, g))
    else ward_loop fuel attempts specularity alpha beta wo g
  end.
(** ward.rs:39-127 *)
Definition sample_ward (fuel : nat) (specularity alpha beta : R) (wo : pt) (g : G) : res (option (bsample * G)) :=
  let alpha := Rmax alpha LOW_ROUGHNESS in
  let beta := Rmax beta LOW_ROUGHNESS in
  let '(prob_spec, g) := gen g in
  if Rltb prob_spec specularity then ward_loop fuel 0 specularity alpha beta wo g
  else
    let diff := 1 - specularity in
    let '(u, g) := gen2 g in
    let s := new_diffuse (gray diff) u in
    Ok (Some (mkBS (b_spectrum s) (b_wi s) (b_pdf s * diff) (b_flags s), g)).

(** ** Materials *)

(** mod.rs:61-69 *)
Inductive Material :=
| Plastic (colour : spectrum) (specularity roughness : R)
| Metal (colour : spectrum) (specularity roughness : R)
| Diffuse (colour : spectrum)
| Light (colour : spectrum)
| Mirror (colour : spectrum)
| Dielectric (colour : spectrum) (refraction_index : R)
| Glass (colour : spectrum) (refraction_index : R).

(** mod.rs:88-98 *)
Definition colour_of (m : Material) : spectrum :=
  match m with
  | Plastic c _ _ | Metal c _ _ | Diffuse c | Light c | Mirror c | Dielectric c _ => c
  | Glass c _ => snd (any_transmission c)
  end.
(** mod.rs:106-116 *)
Definition emits_light (m : Material) : bool := match m with Light _ => true | _ => false end.
Definition specular_only (m : Material) : bool := match m with Mirror _ | Glass _ _ | Dielectric _ _ => true | _ => false end.

(** interaction.rs:28-40 *)
Record Interaction := mkInter { it_point : pt; it_wo : pt; it_info : IntersectionInfo }.

(** mod.rs:132-137 *)
Definition to_local (normal e1 e2 v : pt) : pt := mkV (vdot v e1) (vdot v e2) (vdot v normal).
Definition to_world (normal e1 e2 v : pt) : pt := vadd (vadd (vscale e1 (vx v)) (vscale e2 (vy v))) (vscale normal (vz v)).

(** metal.rs:62-85 and plastic.rs:61-84: what the colour does to a sample *)
Definition metal_colour (colour : spectrum) (s : bsample) : bsample := mkBS (smul (b_spectrum s) colour) (b_wi s) (b_pdf s) (b_flags s).
Definition plastic_colour (colour : spectrum) (s : bsample) : bsample :=
  if (b_flags s =? DiffuseReflection)%N then metal_colour colour s else s.
(** mod.rs:155-175; the index of refraction of the ray changes with dielectrics only *)
Definition local_sample (fuel : nat) (m : Material) (wo : pt) (side : SurfaceSide) (eta : R) (g : G) : res (option (option bsample * R * G)) :=
  match m with
  | Diffuse c => let '(s, g) := diffuse_sample c TRANS_ALL g in Ok (Some (s, eta, g))
  | Plastic c specularity roughness =>
    do r <- sample_ward fuel specularity roughness roughness wo g;
    Ok (match r with None => None | Some (s, g) => Some (Some (plastic_colour c s), eta, g) end)
  | Metal c specularity roughness =>
    do r <- sample_ward fuel specularity roughness roughness wo g;
    Ok (match r with None => None | Some (s, g) => Some (Some (metal_colour c s), eta, g) end)
  | Light _ => Ok (Some (None, eta, g))
  | Mirror c => Ok (Some (Some (mirror_sample c wo), eta, g))
  | Dielectric c n =>
    do (s, g) <- dielectric_sample c n wo eta Radiance TRANS_ALL g;
    match side with
    | Front => Ok (Some (Some s, n, g))
    | Back => Ok (Some (Some s, 1, g))
    | NonApplicable => Panic
    end
  | Glass c n => let '(s, g) := glass_sample c n wo TRANS_ALL g in Ok (Some (s, eta, g))
  end.
(** mod.rs:141-187 *)
Definition sample_bsdf (fuel : nat) (m : Material) (wo : pt) (interaction : Interaction) (eta : R) (g : G)
    : res (option (option bsample * Interaction * R * G)) :=
  let intersection_pt := it_point interaction in
  let info := it_info interaction in
  let normal := i_normal info in
  let e1 := i_dpdu info in
  let e2 := i_dpdv info in
  let wo := to_local normal e1 e2 wo in
  do r <- local_sample fuel m wo (i_side info) eta g;
  Ok (match r with
  | None => None
  | Some (None, eta, g) => Some (None, interaction, eta, g)
  | Some (Some s, eta, g) =>
    let point :=
      if is_reflection s then vadd intersection_pt (vscale normal (1 / 10 ^ 5))
      else if is_transmission s then vsub intersection_pt (vscale normal (1 / 10 ^ 5))
      else intersection_pt in
    Some (Some (mkBS (b_spectrum s) (to_world normal e1 e2 (b_wi s)) (b_pdf s) (b_flags s)),
          mkInter point (it_wo interaction) info, eta, g)
  end).

(** metal.rs:87-104, plastic.rs:86-103 and mod.rs:190-211 *)
Definition eval_bsdf (m : Material) (normal e1 e2 vin vout : pt) : res spectrum :=
  let vin := to_local normal e1 e2 vin in
  let vout := to_local normal e1 e2 vout in
  match m with
  | Diffuse c => Ok (diffuse_eval c vin vout)
  | Plastic c specularity roughness =>
    do (direct, diffuse) <- evaluate_ward specularity roughness roughness vin vout;
    Ok (sadd (gray direct) (sscale c diffuse))
  | Metal c specularity roughness =>
    do (direct, diffuse) <- evaluate_ward specularity roughness roughness vin vout;
    Ok (sscale c (direct + diffuse))
  | _ => Ok BLACK
  end.
(** mod.rs:214-233 *)
Definition material_pdf (m : Material) (normal e1 e2 vin vout : pt) : res R :=
  let vin := to_local normal e1 e2 vin in
  let vout := to_local normal e1 e2 vout in
  match m with
  | Diffuse _ => Ok (diffuse_pdf vin vout)
  | Plastic _ specularity roughness | Metal _ specularity roughness => ward_pdf specularity roughness roughness vin vout
  | _ => Ok 0
  end.

(** mat_trait.rs:140-154, for a sampler that may give nothing *)
Fixpoint rho_loop (sample : G -> option bsample * G) (n : nat) (rho : spectrum) (g : G) : spectrum :=
  match n with
  | O => rho
  | S n => let '(s, g) := sample g in
    rho_loop sample n (match s with None => rho | Some s => sadd rho (sdiv (sscale (b_spectrum s) (abs_cos_theta (b_wi s))) (b_pdf s)) end) g
  end.
Definition directional_rho (sample : G -> option bsample * G) (nsamples : nat) (g : G) : spectrum :=
  sdiv (rho_loop sample nsamples BLACK g) (INR nsamples).
End Sampling.

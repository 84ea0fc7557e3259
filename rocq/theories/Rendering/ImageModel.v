(** Images: /repo/rendering/src/image.rs, /repo/rendering/src/colour.rs (the parts used by it) and
    /repo/rendering/src/colourmap/mod.rs.

    Simplifications: arithmetic is exact (real numbers; the colour map also over IEEE doubles); the exponent of a double
    always fits an [i32], so the saturation of [as i32] is not modelled; files are the list of their bytes, and input and
    output errors are not modelled. *)
From Coq Require Import String Ascii Reals ZArith NArith List Bool Lia Lra.
From Verif.Common Require Import Base Flt Text.
Import ListNotations.
Open Scope list_scope.
Open Scope R_scope.

(** colour.rs:23-24: a colour of three channels *)
Record Spectrum := mkS { s_red : R; s_green : R; s_blue : R }.
(** colour.rs:49 *)
Definition BLACK : Spectrum := mkS 0 0 0.
(** colour.rs:52-54 *)
Definition gray (v : R) : Spectrum := mkS v v v.

(** [f64::log2], [f64::exp2], [f64::floor] *)
Definition log2R (x : R) : R := ln x / ln 2.
Definition exp2R (x : R) : R := Rpower 2 x.
Definition floorR (x : R) : Z := Int_part x.
(** [x as u8] of an integral float: saturates *)
Definition as_u8 (z : Z) : Z := Z.max 0 (Z.min 255 z).
(** [f64::signum] of a non-zero number *)
Definition signum (x : R) : R := if Rltb x 0 then -1 else 1.

(** image.rs:39-48 *)
Definition rusty_frexp (s : R) : R * Z :=
  if Req_EM_T 0 s then (s, 0%Z)
  else let lg := log2R (Rabs s) in
       let x := exp2R (lg - IZR (floorR lg) - 1) in
       (signum s * x, (floorR lg + 1)%Z).

(** image.rs:51-53 *)
Definition rusty_ldexp (x : R) (n : Z) : R := x * powerRZ 2 n.

(** image.rs:55-79; [debug] says whether debug assertions are compiled in. The last byte is [(e + 128) as u8], which wraps. *)
Definition colour_to_rgbe (debug : bool) (red green blue : R) : res (Z * Z * Z * Z) :=
  let v := red in
  let v := if Rltb v green then green else v in
  let v := if Rltb v blue then blue else v in
  if Rltb v (1 / 10 ^ 19) then Ok (0, 0, 0, 0)%Z
  else
    let '(mantissa, e) := rusty_frexp v in
    let mantissa := mantissa * (256 / v) in
    let r := as_u8 (floorR (red * mantissa)) in
    let g := as_u8 (floorR (green * mantissa)) in
    let b := as_u8 (floorR (blue * mantissa)) in
    if debug && negb ((0 <=? e + 128)%Z && (e + 128 <=? 255)%Z) then Panic
    else Ok (r, g, b, ((e + 128) mod 256)%Z).

(** image.rs:81-93 *)
Definition rgbe_to_colour (r g b e : Z) : Spectrum :=
  if (e =? 0)%Z then BLACK
  else let n := (e - (128 + 8))%Z in
       let f := rusty_ldexp 1 n in
       mkS (IZR r * f) (IZR g * f) (IZR b * f).

(** image.rs:98-106 *)
Record ImageBuffer := mkImage { width : nat; height : nat; pixels : list Spectrum }.

(** image.rs:108-124: reading and writing the pixel of a pair of coordinates *)
Definition image_index (im : ImageBuffer) (x y : nat) : res Spectrum :=
  match nth_error (pixels im) (y * width im + x) with Some p => Ok p | None => Panic end.
Definition image_set (im : ImageBuffer) (x y : nat) (p : Spectrum) : res ImageBuffer :=
  let i := (y * width im + x)%nat in
  if (i <? length (pixels im))%nat then Ok (mkImage (width im) (height im) (upd (pixels im) i p)) else Panic.

(** image.rs:128-134 *)
Definition image_new (w h : nat) : ImageBuffer := mkImage w h (repeat BLACK (w * h)).
(** image.rs:156-165 *)
Definition from_pixels (w h : nat) (px : list Spectrum) : res ImageBuffer :=
  if (length px =? w * h)%nat then Ok (mkImage w h px) else Panic.

(** colour.rs:25-28, 85-92, 102-104: the weighted sum of the channels *)
Definition radiance (s : Spectrum) : R := s_red s * (265 / 1000) + s_green s * (67 / 100) + s_blue s * (65 / 1000).
Definition luminance (s : Spectrum) : R := radiance s * 179.

(** image.rs:137-153 *)
Definition image_diff (a b : ImageBuffer) : res ImageBuffer :=
  if negb ((width a =? width b)%nat && (height a =? height b)%nat) then Err
  else from_pixels (width a) (height a)
         (map (fun '(p, q) => gray (Rabs (radiance p - radiance q))) (combine (pixels a) (pixels b))).

(** Bytes as characters *)
Definition byte (z : Z) : ascii := ascii_of_N (Z.to_N z).
Definition unbyte (c : ascii) : Z := Z.of_N (N_of_ascii c).

(** image.rs:182-185: the bytes of the pixels *)
Fixpoint pixel_bytes (debug : bool) (ps : list Spectrum) : res text :=
  match ps with
  | [] => Ok []
  | p :: r =>
      do code <- colour_to_rgbe debug (s_red p) (s_green p) (s_blue p);
      let '(cr, cg, cb, ce) := code in
      do rest <- pixel_bytes debug r;
      Ok (byte cr :: byte cg :: byte cb :: byte ce :: rest)
  end.

(** image.rs:168-188: the contents of the file *)
Definition save_hdre (debug : bool) (im : ImageBuffer) : res text :=
  do body <- pixel_bytes debug (pixels im);
  Ok (txt "#?RGBE" ++ [t_nl] ++ txt "FORMAT=32-bit_rle_rgbe" ++ [t_nl] ++ [t_nl] ++
      txt "-Y " ++ show_nat (height im) ++ txt " +X " ++ show_nat (width im) ++ [t_nl] ++ body).

Section File.
(** [std::str::from_utf8] succeeds *)
Variable utf8 : text -> bool.

(** image.rs:220-246 *)
Definition size_line (line : text) : res (nat * nat) :=
  if negb (utf8 line) then Err else
  match split_on is_ws line with
  | [_; h; x; w] =>
      if negb (text_eqb x (txt "+X")) then Err
      else if negb (utf8 h && utf8 w) then Err
      else match parse_usize h, parse_usize w with Some hv, Some wv => Ok (hv, wv) | _, _ => Err end
  | _ => Err
  end.

(** image.rs:248-268 *)
Definition format_line_ok (line : text) : bool :=
  match split_on (fun c => Ascii.eqb c "=") line with
  | [_; f] => text_eqb f (txt "32-bit_rle_rgbe")
  | _ => false
  end.

(** image.rs:211-269: the loop over the lines of the header. [acc] holds the current line reversed; a file that ends
    before the next line feed is an error. *)
Fixpoint read_header (acc : text) (content : text) : res (nat * nat * text) :=
  match content with
  | [] => Err
  | c :: r =>
      if Ascii.eqb c t_nl then
        let line := rev acc in
        if starts_with (txt "-Y") line then do hw <- size_line line; Ok (fst hw, snd hw, r)
        else if starts_with (txt "FORMAT") line then if format_line_ok line then read_header [] r else Err
        else read_header [] r
      else read_header (c :: acc) r
  end.

(** image.rs:275-281 *)
Fixpoint read_pixels (l : text) : list Spectrum :=
  match l with
  | a :: b :: c :: d :: r => rgbe_to_colour (unbyte a) (unbyte b) (unbyte c) (unbyte d) :: read_pixels r
  | _ => []
  end.

(** image.rs:191-289 *)
Definition from_file (content : text) : res ImageBuffer :=
  do hw <- read_header [] content;
  let '(h, w, body) := hw in
  Ok (mkImage w h (read_pixels body)).
End File.

(** ** Colour maps: colourmap/mod.rs *)
Section ColourMap.
Context {T : Type} (F : Flt T) (of_nat : nat -> T).

(** The entry [map[i]], which panics out of bounds *)
Definition entry (map : list (T * T * T)) (i : nat) : res (T * T * T) :=
  match nth_error map i with Some c => Ok c | None => Panic end.

(** mod.rs:84-96: the loop from bin [i], with [k] bins left; falling out of it is [unreachable!()] *)
Fixpoint find_bin (x mn delta : T) (map : list (T * T * T)) (i k : nat) : res (T * T * T) :=
  match k with
  | O => Panic
  | S k' =>
      let bin_start := fadd F mn (fmul F (of_nat (i - 1)) delta) in
      let bin_end := fadd F bin_start delta in
      if fleb F x bin_end then
        let lam := fdiv F (fsub F x bin_start) delta in
        do p <- entry map (i - 1);
        do q <- entry map i;
        let '(pr, pg, pb) := p in let '(qr, qg, qb) := q in
        Ok (fadd F pr (fmul F (fsub F qr pr) lam), fadd F pg (fmul F (fsub F qg pg) lam), fadd F pb (fmul F (fsub F qb pb) lam))
      else find_bin x mn delta map (S i) k'
  end.

(** mod.rs:71-97; [map.len() - 1] and the indices of an empty map panic *)
Definition map_linear_colour (x mn mx : T) (map : list (T * T * T)) : res (T * T * T) :=
  if fleb F x mn then entry map 0
  else if fleb F mx x then match map with [] => Panic | _ => entry map (length map - 1) end
  else match map with
       | [] => Panic
       | _ => let delta := fdiv F (fsub F mx mn) (of_nat (length map - 1)) in
              find_bin x mn delta map 1 (length map - 1)
       end.
End ColourMap.

(** [f64::log10] of a positive number *)
Definition log10R (x : R) : R := ln x / ln 10.
(** [f64::max] *)
Definition fmax2 (a b : R) : R := if Rltb a b then b else a.
(** The loop that keeps the largest value (image.rs:312-317, 374-379) *)
Definition largest (m : R) (l : list R) : R := fold_left (fun m v => if Rltb m v then v else m) l m.

(** image.rs:349-385: the range of [save_falsecolour] *)
Definition linear_range (mn mx : option R) (lum : list R) : R * R :=
  let lo := match mn with Some v => fmax2 v 0 | None => 0 end in
  let hi := match mx with
            | Some v => v
            | None => let m := largest 0 lum in if Rleb m 0 then 2 * 0 else m
            end in
  (lo, hi).
(** image.rs:299-323: the range of [save_log_falsecolour]; the values are the logarithms of the luminances *)
Definition log_range (mn mx : option R) (log_lum : list R) : R * R :=
  let MIN_MIN := 1 / 1000 in
  let lo := match mn with Some v => log10R (fmax2 v MIN_MIN) | None => log10R MIN_MIN end in
  let hi := match mx with
            | Some v => log10R v
            | None => let m := largest MIN_MIN log_lum in if Rleb m MIN_MIN then 2 * MIN_MIN else m
            end in
  (lo, hi).

Fixpoint mapM {A B} (f : A -> res B) (l : list A) : res (list B) :=
  match l with [] => Ok [] | a :: r => do b <- f a; do rs <- mapM f r; Ok (b :: rs) end.
(** image.rs:387-393, 325-331: the colours given to the pixels, before they are turned into bytes *)
Definition falsecolour_linear (mn mx : option R) (map' : list (R * R * R)) (im : ImageBuffer) : res (list (R * R * R)) :=
  let lum := map luminance (pixels im) in
  let '(lo, hi) := linear_range mn mx lum in
  mapM (fun x => map_linear_colour RF INR x lo hi map') lum.
Definition falsecolour_log (mn mx : option R) (map' : list (R * R * R)) (im : ImageBuffer) : res (list (R * R * R)) :=
  let lum := map (fun p => log10R (luminance p)) (pixels im) in
  let '(lo, hi) := log_range mn mx lum in
  mapM (fun x => map_linear_colour RF INR x lo hi map') lum.

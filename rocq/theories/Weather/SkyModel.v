(** Reinhart's sky subdivision: /repo/weather/src/solar/reinhart_sky.rs. Arithmetic on numbers is exact ([R]); the single
    precision quotient in [bins_in_row] is taken exactly too. *)
From Coq Require Import List Arith ZArith Reals Bool Lra.
From Verif.Common Require Import Base Flt.
From Verif.Geometry Require Import Vec.
Import ListNotations.
Open Scope R_scope.
Open Scope list_scope.

(** [v\[i\]] on a vector *)
Definition at_ {A} (l : list A) (i : nat) : res A := match nth_error l i with Some x => Ok x | None => Panic end.

(** [s.atan2(c)]: the angle whose sine is proportional to [s] and whose cosine is proportional to [c] (signed zeros are not
    modelled) *)
Definition atan2 (s c : R) : R :=
  if Rltb 0 c then atan (s / c)
  else if Rltb c 0 then (if Rleb 0 s then atan (s / c) + PI else atan (s / c) - PI)
  else if Rltb 0 s then PI / 2 else if Rltb s 0 then - (PI / 2) else 0.

(** reinhart_sky.rs:32 *)
Definition TNAZ : list nat := [30; 30; 24; 24; 18; 12; 6]%nat.

(** reinhart_sky.rs:35-37 *)
Definition cone_solid_angle (angle : R) : R := 2 * PI * (1 - cos angle).

(** reinhart_sky.rs:39-48 *)
Definition patch_solid_angle (top_angle low_angle : R) (bins_in_row : nat) : R :=
  2 * PI * (sin top_angle - sin low_angle) / INR bins_in_row.

(** reinhart_sky.rs:52-69; [(row + 0.5) / mf], rounded down, is [(2 row + 1) / (2 mf)] rounded down *)
Definition bins_in_row (mf row : nat) : res nat :=
  let nrows := (7 * mf)%nat in
  match Nat.compare row nrows with
  | Eq => Ok 1%nat
  | Gt => Panic
  | Lt => do t <- at_ TNAZ ((2 * row + 1) / (2 * mf))%nat; Ok (mf * t)%nat
  end.

(** reinhart_sky.rs:73-75 *)
Definition row_height (mf : nat) : R := PI / 2 / (INR (length TNAZ * mf) + 1 / 2).

(** reinhart_sky.rs:79-97 *)
Record sky := mkSky { mf : nat; n_rows : nat; row_max_sin : list R; acc_bins : list nat; n_bins : nat }.

(** reinhart_sky.rs:102-104, the associated function [ReinhartSky::n_bins] *)
Definition n_bins_of (mf : nat) : nat := (144 * mf ^ 2 + 2)%nat.

(** reinhart_sky.rs:317-328, the loop of [new] *)
Fixpoint new_loop (mf : nat) (height : R) (rows : list nat) (acc : R) (rms : list R) (accb : list nat) : res (list R * list nat) :=
  match rows with
  | [] => Ok (rms, accb)
  | row :: rest =>
      let acc := acc + height in
      let rms := rms ++ [sin acc] in
      do a <- (if (row =? 0)%nat then Ok 0%nat
               else do p <- at_ accb (row - 1); do b <- bins_in_row mf (row - 1); Ok (p + b)%nat);
      new_loop mf height rest acc rms (accb ++ [a])
  end.

(** reinhart_sky.rs:306-341 *)
Definition new (mf : nat) : res sky :=
  if (mf =? 0)%nat then Panic
  else
    let n_rows := (7 * mf + 1)%nat in
    let height := row_height mf in
    do l <- new_loop mf height (seq 0 n_rows) 0 [] [];
    let '(rms, accb) := l in
    do last <- at_ accb (n_rows - 1);
    Ok (mkSky mf n_rows rms accb (1 + last + 1)).

(** reinhart_sky.rs:124-131, the loop; [this_row - 1] underflows for the first row *)
Fixpoint bins_row_loop (nbin : nat) (l : list nat) (this_row : nat) (default : nat) : res nat :=
  match l with
  | [] => Ok default
  | acc :: l => if (nbin <? acc + 1)%nat then (if (this_row =? 0)%nat then Panic else Ok (this_row - 1)%nat)
                else bins_row_loop nbin l (S this_row) default
  end.
(** reinhart_sky.rs:119-132 *)
Definition bins_row (s : sky) (nbin : nat) : res nat :=
  if (n_bins s <? nbin)%nat then Panic else bins_row_loop nbin (acc_bins s) 0 (n_rows s - 1).

(** reinhart_sky.rs:159-170 *)
Definition raccum (s : sky) (row : nat) : res nat :=
  match Nat.compare row (n_bins s) with
  | Eq => Ok (n_bins s)
  | Gt => Panic
  | Lt => at_ (acc_bins s) row
  end.

(** reinhart_sky.rs:173-183 *)
Definition row_altitude (s : sky) (row : nat) : R * R :=
  let h := row_height (mf s) in
  if (row =? n_rows s - 1)%nat then (PI / 2 - h / 2, PI / 2) else (INR row * h, (INR row + 1) * h).

(** reinhart_sky.rs:135-155 *)
Definition bin_solid_angle (s : sky) (nbin : nat) : res R :=
  if (nbin =? 0)%nat then Ok (2 * PI)
  else if (nbin =? n_bins s - 1)%nat then Ok (cone_solid_angle (row_height (mf s) / 2))
  else if (n_bins s <? nbin)%nat then Panic
  else
    do row <- bins_row s nbin;
    let '(low, high) := row_altitude s row in
    do n <- bins_in_row (mf s) row;
    Ok (patch_solid_angle high low n).

(** reinhart_sky.rs:195-201, the loop *)
Fixpoint find_row (z : R) (l : list R) (row default : nat) : nat :=
  match l with
  | [] => default
  | m :: l => if Rltb z m then row else find_row z l (S row) default
  end.
(** reinhart_sky.rs:190-202 *)
Definition sin_altitude_to_row (s : sky) (z : R) : res nat :=
  if Rltb z 0 then Panic else Ok (find_row z (row_max_sin s) 0 (n_rows s - 1)).

(** reinhart_sky.rs:208-227; the cast of a negative number to [usize] gives zero *)
Definition xy_to_bin (s : sky) (row : nat) (x y : R) : res nat :=
  if (row =? n_rows s)%nat then Ok 1%nat
  else
    let azimuth := atan2 x y in
    let azimuth := if Rltb azimuth 0 then azimuth + 2 * PI else azimuth in
    do in_row <- bins_in_row (mf s) row;
    let bin_size := 2 * PI / INR in_row in
    if (in_row =? 0)%nat then Panic
    else Ok (Z.to_nat (Int_part ((azimuth + bin_size / 2) / bin_size)) mod in_row)%nat.

(** reinhart_sky.rs:230-251 (the debug assertion on the length is not modelled) *)
Definition dir_to_bin (s : sky) (dir : pt) : res nat :=
  if Rltb (vz dir) 0 then Ok 0%nat
  else
    do row <- sin_altitude_to_row s (vz dir);
    if (row =? n_rows s - 1)%nat then Ok (n_bins s - 1)%nat
    else
      do previous <- raccum s row;
      do bin <- xy_to_bin s row (vx dir) (vy dir);
      Ok (bin + previous + 1)%nat.

(** reinhart_sky.rs:254-303; [nbin - prev_bins - 1] may underflow *)
Definition bin_dir (s : sky) (nbin : nat) : res pt :=
  if (nbin =? 0)%nat then Ok (mkV 0 0 (-1))
  else if (nbin =? n_bins s - 1)%nat then Ok (mkV 0 0 1)
  else if (n_bins s <? nbin)%nat then Panic
  else
    do row <- bins_row s nbin;
    let '(min_alt, max_alt) := row_altitude s row in
    let alt := (min_alt + max_alt) / 2 in
    do prev <- raccum s row;
    do n <- bins_in_row (mf s) row;
    let bin_width := 2 * PI / INR n in
    if (nbin <? prev + 1)%nat then Panic
    else
      let azi := bin_width * INR (nbin - prev - 1) in
      Ok (mkV (sin azi * cos alt) (cos azi * cos alt) (sin alt)).

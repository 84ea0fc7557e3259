(** Loops and polygons in model files: /repo/geometry/src/loop3d.rs:121-185 and /repo/geometry/src/polygon3d.rs:49-91, in exact arithmetic.
    A file is the JSON value at the place of the loop. Every JSON number is taken to be a real number ([as_f64] only fails for numbers of
    arbitrary precision, which serde_json does not read by default), and writing and reading a number gives the same number. *)
From Coq Require Import Reals List Bool.
From Verif.Common Require Import Base Flt.
From Verif.Geometry Require Import Vec TriangleModel LoopModel.
Import ListNotations.
Open Scope R_scope.

(** an element of an array: a number, or null, a boolean, a string, an array or an object *)
Inductive jitem := JNum (x : R) | JOther.
Inductive jdata := JArray (a : list jitem) | JNotArray.

(** loop3d.rs:121-134 *)
Definition write_points (ps : list pt) : list jitem := flat_map (fun p => [JNum (vx p); JNum (vy p); JNum (vz p)]) ps.
Definition write_loop (l : Loop) : jdata := JArray (write_points (lv l)).

(** loop3d.rs:147-178: the coordinates that are missing or not numbers panic *)
Fixpoint read_points (l : Loop) (a : list jitem) : res Loop :=
  match a with
  | [] => Ok l
  | JNum x :: JNum y :: JNum z :: a' => do l' <- push_collinear l (mkV x y z) false; read_points l' a'
  | _ => Panic
  end.
(** loop3d.rs:137-184 *)
Definition read_loop (d : jdata) : res Loop :=
  do l <- match d with JArray a => read_points loop_new a | JNotArray => Ok loop_new end; closed_loop l.

(** polygon3d.rs:49-63; [expect] panics for an open loop *)
Definition poly_from (l : Loop) : res Polygon := match l_area l with Ok a => Ok (mkPoly l [] a (ln l)) | _ => Panic end.
(** polygon3d.rs:83-91 *)
Definition write_polygon (g : Polygon) : res jdata := do l <- get_closed_loop g; Ok (write_loop l).
(** polygon3d.rs:72-81 *)
Definition read_polygon (d : jdata) : res Polygon := do l <- read_loop d; poly_from l.

(** How a sphere becomes triangles: /repo/rendering/src/triangle/mod.rs:212-332.  Arithmetic is exact; the warning that is printed for a part of
    a sphere is not modelled. *)
From Coq Require Import Reals List.
From Verif.Common Require Import Base.
From Verif.Geometry Require Import Vec TransformModel TriangleModel ShapesModel.
Import ListNotations.
Open Scope R_scope.

Notation corners := (pt * pt * pt)%type.

(** [iter().map(..).collect()] of something that may panic *)
Fixpoint traverse {A B} (f : A -> res B) (l : list A) : res (list B) :=
  match l with [] => Ok [] | x :: l => do y <- f x; do ys <- traverse f l; Ok (y :: ys) end.

(** mod.rs:234 and 244: the angles, in degrees *)
Definition midtop_angles : list R := [36; 3 * 36; 5 * 36; 7 * 36; 9 * 36].
Definition midbottom_angles : list R := [0; 72; 2 * 72; 3 * 72; 4 * 72].
(** mod.rs:235-243 and 245-253 *)
Definition ring (midr z : R) (c : pt) (angles : list R) : list pt :=
  map (fun angle => vadd (mkV (midr * sin (to_radians angle)) (midr * cos (to_radians angle)) z) c) angles.
(** mod.rs:228-281: the twenty triangles to start with *)
Definition initial (r : R) (c : pt) : list corners :=
  let midtop := r * cos (to_radians 60) in
  let midr := r * sin (to_radians 60) in
  let midbottom := - midtop in
  let top := vadd (mkV 0 0 r) c in
  let bottom := vadd (mkV 0 0 (- r)) c in
  let mt := ring midr midtop c midtop_angles in
  let mb := ring midr midbottom c midbottom_angles in
  let midtop i := nth i mt c in
  let midbottom i := nth i mb c in
  [(midtop 0, midtop 4, top); (midtop 4, midtop 3, top); (midtop 3, midtop 2, top); (midtop 2, midtop 1, top); (midtop 1, midtop 0, top);
   (midbottom 0, midbottom 1, bottom); (midbottom 1, midbottom 2, bottom); (midbottom 2, midbottom 3, bottom);
   (midbottom 3, midbottom 4, bottom); (midbottom 4, midbottom 0, bottom);
   (midtop 4, midtop 0, midbottom 0); (midtop 0, midtop 1, midbottom 1); (midtop 1, midtop 2, midbottom 2);
   (midtop 2, midtop 3, midbottom 3); (midtop 3, midtop 4, midbottom 4);
   (midbottom 1, midbottom 0, midtop 0); (midbottom 2, midbottom 1, midtop 1); (midbottom 3, midbottom 2, midtop 2);
   (midbottom 4, midbottom 3, midtop 3); (midbottom 0, midbottom 4, midtop 4)]%nat.

(** mod.rs:290-296: the middle of a side, moved to the sphere *)
Definition midpoint (centre : pt) (r : R) (a b : pt) : res pt :=
  do n <- vnormalize (vsub (vdiv (vadd a b) 2) centre);
  Ok (vadd centre (vscale n r)).
(** mod.rs:288-304: the triangle that replaces another one and the three that are added *)
Definition split (centre : pt) (r : R) (t : corners) : res (corners * list corners) :=
  let '(a, b, c) := t in
  do ab <- midpoint centre r a b;
  do ac <- midpoint centre r a c;
  do bc <- midpoint centre r b c;
  Ok ((a, ab, ac), [(ab, b, bc); (bc, c, ac); (ab, bc, ac)]).
(** mod.rs:285-306 *)
Definition refine (centre : pt) (r : R) (l : list corners) : res (list corners) :=
  do parts <- traverse (split centre r) l;
  Ok (map fst parts ++ flat_map snd parts).
(** mod.rs:308-310 and 213 *)
Fixpoint refinements (n : nat) (centre : pt) (r : R) (l : list corners) : res (list corners) :=
  match n with O => Ok l | S n => do l <- refine centre r l; refinements n centre r l end.
Definition N_REFINEMENTS : nat := 5.
(** mod.rs:313-321 *)
Definition vertex_normals (centre : pt) (t : corners) : res (pt * pt * pt) :=
  let '(a, b, c) := t in
  do n0 <- vnormalize (vsub a centre);
  do n1 <- vnormalize (vsub b centre);
  do n2 <- vnormalize (vsub c centre);
  Ok (n0, n1, n2).
(** mod.rs:212-332 *)
Definition mesh_sphere (s : Sphere) : res (list Tri * list (pt * pt * pt)) :=
  do l <- refinements N_REFINEMENTS (sphere_centre s) (s_radius s) (initial (s_radius s) (sphere_centre s));
  do normals <- traverse (vertex_normals (sphere_centre s)) l;
  Ok (map (fun t => let '(a, b, c) := t in mkTri a b c) l, normals).

(** Faces of OBJ files: /repo/rendering/src/from_obj.rs.

    Parsing the text of the file is the work of the crate [obj] and is not modelled: the model starts from what it hands over
    (from_obj.rs:40-45).  Coordinates are real; those of the file are single precision, and making them double is exact. *)
From Coq Require Import Reals List Bool Arith.
From Verif.Common Require Import Base Flt.
From Verif.Geometry Require Import Vec TriangleModel.
From Verif.Rendering Require Import BvhModel SceneModel.
Import ListNotations.
Open Scope R_scope.

(** [obj::raw::object::Polygon], matched at from_obj.rs:52-69: positions, with textures, with normals, with both *)
Inductive Face := FP (l : list nat) | FPT (l : list (nat * nat)) | FPN (l : list (nat * nat)) | FPTN (l : list (nat * nat * nat)).
(** from_obj.rs:33-37 *)
Record ObjTriangle := mkObj { ot_vertices : pt * pt * pt; ot_normals : option (pt * pt * pt); ot_textures : option (pt * pt * pt) }.

(** [get(..).expect(..)] of each index: from_obj.rs:74-82, 92-101 and 110-118 *)
Fixpoint fetch (from : list pt) (l : list nat) : res (list pt) :=
  match l with
  | [] => Ok []
  | i :: l => match nth_error from i with None => Panic | Some p => do ps <- fetch from l; Ok (p :: ps) end
  end.
Definition fetch_some (from : list pt) (l : option (list nat)) : res (option (list pt)) :=
  match l with None => Ok None | Some l => do ps <- fetch from l; Ok (Some ps) end.
(** [\[p\[x\], p\[y\], p\[z\]\]]: from_obj.rs:122, 127, 133, 142, 147 and 152 *)
Definition pick (p : list pt) (x y z : nat) : res (pt * pt * pt) :=
  match nth_error p x, nth_error p y, nth_error p z with Some a, Some b, Some c => Ok (a, b, c) | _, _, _ => Panic end.
Definition pick_some (p : option (list pt)) (x y z : nat) : res (option (pt * pt * pt)) :=
  match p with None => Ok None | Some p => do t <- pick p x y z; Ok (Some t) end.
(** from_obj.rs:122-138 and 142-157 *)
Definition half (p : list pt) (t n : option (list pt)) (x y z : nat) : res ObjTriangle :=
  do v <- pick p x y z;
  do normals <- pick_some n x y z;
  do textures <- pick_some t x y z;
  Ok (mkObj v normals textures).
(** from_obj.rs:48-158, one face *)
Definition process_face (vertices normals tex_coords : list pt) (f : Face) : res (list ObjTriangle) :=
  let '(p, t, n) := match f with
                    | FP l => (l, None, None)
                    | FPT l => (map fst l, Some (map snd l), None)
                    | FPN l => (map fst l, None, Some (map snd l))
                    | FPTN l => (map (fun v => fst (fst v)) l, Some (map (fun v => snd (fst v)) l), Some (map snd l))
                    end in
  if (4 <? length p)%nat then Ok []
  else
    do p <- fetch vertices p;
    do t <- fetch_some tex_coords t;
    do n <- fetch_some normals n;
    do a <- half p t n 0 1 2;
    if (length p =? 4)%nat then do b <- half p t n 0 2 3; Ok [a; b] else Ok [a].
(** from_obj.rs:40-162 *)
Fixpoint process (vertices normals tex_coords : list pt) (faces : list Face) : res (list ObjTriangle) :=
  match faces with
  | [] => Ok []
  | f :: faces =>
    do ts <- process_face vertices normals tex_coords f;
    do rest <- process vertices normals tex_coords faces;
    Ok (ts ++ rest)
  end.

(** from_obj.rs:190-201; a panic of [Triangle3D::new] is one of the program *)
Fixpoint add_obj_triangles (scene : RScene) (front back : nat) (ts : list ObjTriangle) : res RScene :=
  match ts with
  | [] => Ok scene
  | t :: ts =>
    let '(a, b, c) := ot_vertices t in
    match triangle_new a b c with
    | Ok tri => do scene <- push_object scene front back (PTriangle (t_a tri) (t_b tri) (t_c tri)); add_obj_triangles scene front back ts
    | Err => add_obj_triangles scene front back ts
    | Panic => Panic
    end
  end.
(** from_obj.rs:180-202, after parsing *)
Definition add_from_obj (scene : RScene) (front back : nat) (vertices normals tex_coords : list pt) (faces : list Face) : res RScene :=
  do ts <- process vertices normals tex_coords faces;
  add_obj_triangles scene front back ts.

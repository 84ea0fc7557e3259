(** C32, C33: triangulating a polygon and changing a mesh, in exact arithmetic. *)
From Coq Require Import Reals List Bool Lra Lia Psatz ZArith.
From Verif.Common Require Import Base Flt REval.
From Verif.Geometry Require Import Vec BBoxModel TriangleModel LoopModel MeshModel GeomProofs TriangleProofs LoopProofs MeshProofs MergeProofs.
From Verif.Properties Require Import LoopProps.
Import ListNotations.
Open Scope R_scope.

(** ** C32: triangulation *)

(** Twice the vector area of a list of triangles *)
Definition triangles_area2 (ts : list Triangle3D) : pt :=
  fold_right (fun t acc => vadd (vcross (vsub (t_b t) (t_a t)) (vsub (t_c t) (t_a t))) acc) vzero ts.

Definition triangulate_with (F : nat) (g : Polygon) : res Mesh :=
  do l0 <- get_closed_loop g;
  do l <- closed_loop l0;
  match ears F g l 0 (mkMesh [] 0) with (Ok _, m) => Ok m | (Err, _) => Err | (Panic, _) => Panic end.
Lemma triangulate_with_220 g : triangulate g = triangulate_with 220 g. Proof. reflexivity. Qed.
Lemma triangulate_with_inv F g m : triangulate_with F g = Ok m ->
  exists l0 l, get_closed_loop g = Ok l0 /\ close l0 = (Ok tt, l) /\ (2 <= length (lv l))%nat /\ ears F g l 0 (mkMesh [] 0) = (Ok tt, m).
Proof.
  unfold triangulate_with. intros H. destruct (get_closed_loop g) as [l0| |] eqn:G; try discriminate. cbn [bind] in H.
  unfold closed_loop in H. destruct (close l0) as [[[]| |] l] eqn:C; try discriminate. cbn [bind] in H.
  destruct (ears F g l 0 (mkMesh [] 0)) as [[[]| |] m'] eqn:E; try discriminate. injection H as <-.
  exists l0, l. split; [reflexivity|]. split; [exact C|]. split; [|exact E]. apply close_spec in C as (_ & _ & L3 & _). lia.
Qed.

(** When it succeeds, with an outline of n vertices (after merging the holes and closing): all the triangles are valid, there are n - 2 of
    them, all accepted by the triangle constructor, all their corners are vertices of the outline and their vector areas add up to that of the outline. *)
Theorem C32_triangulate : forall g m, triangulate g = Ok m ->
  exists l0 l, get_closed_loop g = Ok l0 /\ close l0 = (Ok tt, l) /\
    Forall (fun p => valid p = true) (pieces m) /\
    (length (pieces m) + 2)%nat = length (lv l) /\ n_valid m = length (pieces m) /\
    (forall p, In p (pieces m) -> In (t_a (tri p)) (lv l) /\ In (t_b (tri p)) (lv l) /\ In (t_c (tri p)) (lv l) /\
       triangle_new (t_a (tri p)) (t_b (tri p)) (t_c (tri p)) = Ok (tri p)) /\
    triangles_area2 (map tri (pieces m)) = area2 (lv l).
Proof.
  intros g m H. rewrite triangulate_with_220 in H. apply triangulate_with_inv in H as (l0 & l & G & C & L2 & E).
  exists l0, l. split; [exact G|]. split; [exact C|]. revert E. generalize 220%nat. intros fuel E.
  apply ears_spec in E; [|intros p []|lia]. destruct E as (ts & S & Ln & _ & Co & T & N). cbn [shape pieces map app] in S.
  assert (Mt : map tri (pieces m) = ts /\ Forall (fun p => valid p = true) (pieces m)).
  { unfold shape in S. clear - S. revert ts S; induction (pieces m) as [|p ps IH]; intros [|t ts] S; try discriminate; [split; [reflexivity|constructor]|].
    cbn in S. injection S as S1 S2 S3. apply IH in S3 as (M & F). split; [cbn; now f_equal|now constructor]. }
  destruct Mt as (M & F). split; [exact F|].
  assert (Le : length (pieces m) = length ts) by (rewrite <- M; now rewrite map_length). rewrite Le. split; [exact Ln|]. split; [rewrite N; cbn; reflexivity|]. split.
  - intros p I. assert (It : In (tri p) ts) by (rewrite <- M; now apply in_map). destruct (Co _ It) as ((A & B & D) & Q). auto.
  - rewrite M, <- T. clear. unfold triangles_area2. induction ts as [|t ts IH]; [reflexivity|]. cbn [map fold_right total]. rewrite IH. reflexivity.
Qed.

(** The number of steps is bounded: an outline with more than 221 vertices is never triangulated, however simple it is. *)
Theorem C32_limit : forall g l0 l, get_closed_loop g = Ok l0 -> close l0 = (Ok tt, l) -> (221 < length (lv l))%nat -> forall m, triangulate g <> Ok m.
Proof.
  intros g l0 l G C Hl m H. rewrite triangulate_with_220 in H. apply triangulate_with_inv in H as (l0' & l' & G' & C' & L2 & E).
  rewrite G in G'. injection G' as <-. rewrite C in C'. injection C' as <-.
  assert (Q : exists F, F = 220%nat /\ ears F g l 0 (mkMesh [] 0) = (Ok tt, m)) by eauto. clear E. destruct Q as (F & EF & E).
  apply ears_spec in E; [|intros p []|exact L2]. destruct E as (_ & _ & _ & L & _). lia.
Qed.

(** ** C33: changing a mesh *)

(** The number of valid triangles and twice their vector area *)
Definition n_triangles (m : Mesh) : nat := length (filter valid (pieces m)).
Definition mesh_area2 (m : Mesh) : pt := triangles_area2 (map tri (filter valid (pieces m))).
Lemma n_triangles_count m : n_triangles m = count (shape m).
Proof. unfold n_triangles, count, shape. induction (pieces m) as [|p ps IH]; [reflexivity|]. cbn. destruct (valid p); cbn; auto. Qed.
Lemma mesh_area2_total m : mesh_area2 m = total (shape m).
Proof.
  unfold mesh_area2, total, shape, triangles_area2. induction (pieces m) as [|p ps IH]; [reflexivity|]. cbn [filter map fold_right].
  destruct (valid p); cbn [map fold_right]; [rewrite IH; reflexivity|exact IH].
Qed.

(** A new triangle goes to a slot that holds no valid triangle. *)
Theorem C33_push : forall a b c s m i m', t_push a b c s m = (Ok i, m') ->
  n_triangles m' = S (n_triangles m) /\ mesh_area2 m' = vadd (mesh_area2 m) (vcross (vsub b a) (vsub c a)) /\
  (exists p, nth_error (pieces m') i = Some p /\ valid p = true /\ triangle_new a b c = Ok (tri p)) /\
  forall j p, nth_error (pieces m) j = Some p -> valid p = true -> j <> i /\ nth_error (pieces m') j = Some p.
Proof.
  intros a b c s m i m' H. rewrite !n_triangles_count, !mesh_area2_total.
  pose proof (push_total _ _ _ _ _ _ _ H) as (T & C). split; [exact C|]. split; [exact T|].
  unfold t_push in H. destruct (get_first_invalid m s) as [k|] eqn:G.
  - unfold piece_new in H. destruct (triangle_new a b c) as [t| |] eqn:Tn; cbn [bind] in H; try discriminate. injection H as <- <-.
    pose proof (get_first_invalid_spec m s k G) as (_ & q & Hk & V).
    split.
    + eexists. cbn [pieces]. split; [apply nth_error_upd_same; apply nth_error_Some; congruence|]. split; reflexivity.
    + intros j p Hj Vj. assert (N : j <> k) by (intros ->; congruence). split; [exact N|]. cbn [pieces]. rewrite nth_error_upd_other by congruence. exact Hj.
  - unfold piece_new in H. destruct (triangle_new a b c) as [t| |] eqn:Tn; cbn [bind] in H; try discriminate. injection H as <- <-. cbn [pieces].
    split.
    + eexists. split; [rewrite nth_error_app2 by lia; now rewrite Nat.sub_diag|]. split; reflexivity.
    + intros j p Hj Vj. assert (L : (j < length (pieces m))%nat) by (apply nth_error_Some; congruence). split; [lia|]. now rewrite nth_error_app1.
Qed.

(** Two triangles glued along an edge: the edge of the one is the edge of the other backwards. *)
Definition glued (p q : Piece) (e e' : Edge) : Prop :=
  s_start (segment (tri q) e') = s_end (segment (tri p) e) /\ s_end (segment (tri q) e') = s_start (segment (tri p) e).
Lemma glued_facing p q e e' : glued p q e e' -> facing (tri p) (tri q) e e'.
Proof. intros (A & B). unfold facing, flipped. destruct (segment (tri q) e'). cbn in *. congruence. Qed.

(** Flipping the diagonal between two glued triangles keeps the number of triangles and the covered vector area, and touches no other triangle. *)
Theorem C33_flip : forall i e m m' p j q e', nth_error (pieces m) i = Some p -> valid p = true -> apart (tri p) ->
  neighbour p e = Some j -> j <> i -> nth_error (pieces m) j = Some q -> valid q = true -> apart (tri q) -> glued p q e e' ->
  flip_diagonal i e m = (Ok tt, m') ->
  n_triangles m' = n_triangles m /\ mesh_area2 m' = mesh_area2 m /\
  (forall k r, k <> i -> k <> j -> nth_error (pieces m) k = Some r -> exists r', nth_error (pieces m') k = Some r' /\ tri r' = tri r /\ valid r' = valid r).
Proof.
  intros i e m m' p j q e' Hp Vp Ap Nb Ne Hq Vq Aq G F. rewrite !n_triangles_count, !mesh_area2_total.
  pose proof (flip_total i e m m' p j q e' Hp Vp Ap Nb Ne Hq Vq Aq (glued_facing _ _ _ _ G) F) as (T & C & _ & O & _).
  split; [exact C|]. split; [exact T|]. intros k r K1 K2 Hr. specialize (O k K1 K2). unfold shape in O. rewrite !nth_error_map, Hr in O. cbn in O.
  destruct (nth_error (pieces m') k) as [r'|]; [|discriminate]. cbn in O. injection O as O1 O2. eauto.
Qed.

(** Splitting the edge between two glued triangles at any point adds two triangles and keeps the covered vector area. *)
Theorem C33_split_edge : forall i e x m m' p j q e', nth_error (pieces m) i = Some p -> valid p = true -> apart (tri p) ->
  neighbour p e = Some j -> j <> i -> nth_error (pieces m) j = Some q -> valid q = true -> apart (tri q) -> glued p q e e' ->
  split_edge i e x m = (Ok tt, m') -> n_triangles m' = (n_triangles m + 2)%nat /\ mesh_area2 m' = mesh_area2 m.
Proof.
  intros i e x m m' p j q e' Hp Vp Ap Nb Ne Hq Vq Aq G F. rewrite !n_triangles_count, !mesh_area2_total.
  destruct (split_edge_total i e x m m' p Hp Vp Ap F) as (_ & H). destruct (H j q e' Nb Ne Hq Vq Aq (glued_facing _ _ _ _ G)). auto.
Qed.
(** Splitting an edge of the border adds one; the covered area changes by the triangle between the edge and the point, nothing when the point is on the line of the edge. *)
Theorem C33_split_border : forall i e x m m' p, nth_error (pieces m) i = Some p -> valid p = true -> apart (tri p) -> neighbour p e = None ->
  split_edge i e x m = (Ok tt, m') -> n_triangles m' = S (n_triangles m) /\
  let a := s_start (segment (tri p) e) in let b := s_end (segment (tri p) e) in
  vadd (mesh_area2 m') (vcross (vsub b a) (vsub x a)) = mesh_area2 m /\ ((exists k, x = vadd a (vscale (vsub b a) k)) -> mesh_area2 m' = mesh_area2 m).
Proof.
  intros i e x m m' p Hp Vp Ap Nb F. rewrite !n_triangles_count, !mesh_area2_total.
  destruct (split_edge_total i e x m m' p Hp Vp Ap F) as (H & _). destruct (H Nb) as (T & C). split; [exact C|]. cbn zeta. split; [exact T|].
  intros (k & ->). rewrite <- T. set (a := s_start _). set (b := s_end _). set (t := total _). clearbody a b t. unfold vadd, vsub, vscale, vcross. destruct a, b, t. cbn. f_equal; ring.
Qed.
(** Splitting a triangle at any point adds two triangles and keeps the covered vector area. *)
Theorem C33_split_triangle : forall i x m m' p, nth_error (pieces m) i = Some p -> split_triangle i x m = (Ok tt, m') ->
  n_triangles m' = (n_triangles m + 2)%nat /\ mesh_area2 m' = mesh_area2 m.
Proof.
  intros i x m m' p Hp F. rewrite !n_triangles_count, !mesh_area2_total. destruct (split_triangle_total i x m m' p Hp F). auto.
Qed.

(** ** Examples *)
Opaque IZR Rdiv Rminus Rplus Rmult Ropp Rabs sqrt pow Rinv.
Definition squareP : Polygon := mkPoly square [] 36 Up.
Definition triU (a b c : pt) : Triangle3D := mkT3 a b c Up (tri_area a b c).
Lemma ears_cut F g l anchor m c d m1 r :
  let n := length (lv l) in
  let v0 := nth (anchor mod n) (lv l) vzero in
  let v1 := nth ((anchor + 1) mod n) (lv l) vzero in
  let v2 := nth ((anchor + 2) mod n) (lv l) vzero in
  (3 <= n)%nat -> is_collinear v0 v1 v2 = Ok c -> is_diagonal l (mkS v0 v2) = Ok d -> ((n =? 3)%nat || (negb c && d)) = true ->
  (sdo _ <- t_push v0 v1 v2 (length (pieces m));
   sdo _ <- constrain_if (poly_contains_segment g (mkS v0 v1)) (length (pieces m)) Ab;
   sdo _ <- constrain_if (poly_contains_segment g (mkS v1 v2)) (length (pieces m)) Bc;
   constrain_if (poly_contains_segment g (mkS v2 v0)) (length (pieces m)) Ca) m = (Ok tt, m1) ->
  ears F g (with_vertices l (remove_at ((anchor + 1) mod n) (lv l))) anchor m1 = r -> ears (S F) g l anchor m = r.
Proof.
  intros n v0 v1 v2 N C D T P <-. cbn [ears]. fold n. fold v0 v1 v2.
  replace (n =? 2)%nat with false by (symmetry; apply Nat.eqb_neq; lia). replace (n =? 0)%nat with false by (symmetry; apply Nat.eqb_neq; lia).
  unfold sbind, lift in *. rewrite C, D, T.
  destruct (t_push v0 v1 v2 (length (pieces m)) m) as [[i| |] ma]; try discriminate.
  destruct (constrain_if (poly_contains_segment g (mkS v0 v1)) (length (pieces m)) Ab ma) as [[[]| |] mb]; try discriminate.
  destruct (constrain_if (poly_contains_segment g (mkS v1 v2)) (length (pieces m)) Bc mb) as [[[]| |] mc]; try discriminate.
  rewrite P. reflexivity.
Qed.
Lemma ears_done F g l anchor m : length (lv l) = 2%nat -> ears (S F) g l anchor m = mark_neighbourhouds m.
Proof. intros N. cbn [ears]. rewrite N. reflexivity. Qed.
Definition piece0 : Piece := mkPiece (triU (P2 0 0) (P2 6 0) (P2 6 6)) None None (Some 1%nat) true true false true 0.
Definition piece1 : Piece := mkPiece (triU (P2 0 0) (P2 6 6) (P2 0 6)) (Some 0%nat) None None false true true true 1.
Definition mesh2 : Mesh := mkMesh [piece0; piece1] 2.
Definition piece0' : Piece := mkPiece (triU (P2 0 0) (P2 6 0) (P2 6 6)) None None None true true false true 0.
Definition piece1' : Piece := mkPiece (triU (P2 0 0) (P2 6 6) (P2 0 6)) None None None false true true true 1.
Lemma diagonal_example : is_diagonal square (mkS (P2 0 0) (P2 6 6)) = Ok true.
Proof.
  assert (T : l_test_point square (midpoint (mkS (P2 0 0) (P2 6 6))) = Ok true) by rtest.
  assert (D : diagonal_loop (lv square) (mkS (P2 0 0) (P2 6 6)) (seq 0 (length (lv square) + 1)) = Ok true) by nfin.
  unfold is_diagonal. rewrite D, T. nfin.
Qed.
Example C32_example : triangulate squareP = Ok mesh2.
Proof.
  rewrite triangulate_with_220. unfold triangulate_with. change (get_closed_loop squareP) with (Ok (mkLoop [P2 0 0; P2 6 0; P2 6 6; P2 0 6] Up false 36 24)).
  assert (C : close (mkLoop [P2 0 0; P2 6 0; P2 6 6; P2 0 6] Up false 36 24) = (Ok tt, square)) by rrun.
  unfold closed_loop. cbn [bind]. rewrite C. cbn [bind].
  enough (E : ears 220 squareP square 0 (mkMesh [] 0) = (Ok tt, mesh2)) by (rewrite E; reflexivity).
  change 220%nat with (S (S (S 217))). generalize 217%nat. intros F.
  eapply (ears_cut _ _ _ _ _ false true (mkMesh [piece0'] 1)).
  - cbn. lia.
  - rrun.
  - exact diagonal_example.
  - reflexivity.
  - rrun.
  - cbn [square with_vertices lv length remove_at firstn skipn app Nat.modulo Nat.divmod Nat.add Nat.sub fst snd ln lclosed larea lper].
    eapply (ears_cut _ _ _ _ _ false false (mkMesh [piece0'; piece1'] 2)); [cbn; lia|rrun|nfin|reflexivity|rrun|].
    rewrite ears_done by reflexivity. rrun.
Qed.

(** both triangles of the square *)
Example C33_example_apart : apart (tri piece0) /\ apart (tri piece1) /\ glued piece0 piece1 Ca Ab.
Proof. unfold apart. repeat split; rrun. Qed.
Example C33_example_area : mesh_area2 mesh2 = mkV 0 0 72 /\ n_triangles mesh2 = 2%nat.
Proof. split; [rrun|reflexivity]. Qed.
Definition show (m : Mesh) := map (fun p => (t_a (tri p), t_b (tri p), t_c (tri p), valid p, (nb0 p, nb1 p, nb2 p))) (pieces m).
(** running the mesh functions step by step *)
Lemma sbind_step {A B} (x : st A) (f : A -> st B) m a m1 r : x m = (Ok a, m1) -> f a m1 = r -> sbind x f m = r.
Proof. intros H <-. unfold sbind. now rewrite H. Qed.
Opaque sbind.
Lemma pair_eq {A B} (a c : A) (b d : B) : a = c -> b = d -> (a, b) = (c, d). Proof. now intros -> ->. Qed.
Ltac mnorm := lazymatch goal with |- ?M = _ =>
  let M' := eval cbv [upd pieces n_valid tri nb0 nb1 nb2 co0 co1 co2 valid index set_neighbour constrain piece_invalidate piece0 piece1 mesh2 triU t_a t_b t_c s_start s_end segment app nth_error as_i Nat.sub] in M in
  change M with M' end.
Ltac seval :=
  lazymatch goal with
  | |- sbind _ _ _ = _ => eapply sbind_step; [seval|seval]
  | |- (_, _) = _ => apply pair_eq; [repeat rstep; reflexivity|mnorm; reflexivity]
  | _ => rstep; seval
  end.
Example C33_example_flip : exists m', flip_diagonal 0 Ca mesh2 = (Ok tt, m') /\
  show m' = [(P2 6 6, P2 0 6, P2 6 0, true, (None, Some 1%nat, None)); (P2 6 0, P2 0 6, P2 0 0, true, (Some 0%nat, None, None))].
Proof. eexists. split; [seval|reflexivity]. Qed.
Example C33_example_split_triangle : exists m', split_triangle 0 (P2 4 2) mesh2 = (Ok tt, m') /\
  show m' = [(P2 6 6, P2 0 0, P2 4 2, true, (Some 1%nat, Some 2%nat, Some 3%nat)); (P2 0 0, P2 6 6, P2 0 6, true, (Some 0%nat, None, None));
   (P2 0 0, P2 6 0, P2 4 2, true, (None, Some 3%nat, Some 0%nat)); (P2 6 0, P2 6 6, P2 4 2, true, (None, Some 0%nat, Some 2%nat))].
Proof. eexists. split; [seval|reflexivity]. Qed.
Example C33_example_split_edge : exists m', split_edge 0 Ca (P2 3 3) mesh2 = (Ok tt, m') /\
  show m' = [(P2 6 6, P2 3 3, P2 6 0, true, (Some 3%nat, Some 2%nat, None)); (P2 0 0, P2 3 3, P2 0 6, true, (Some 2%nat, Some 3%nat, None));
   (P2 3 3, P2 0 0, P2 6 0, true, (Some 1%nat, None, Some 0%nat)); (P2 3 3, P2 6 6, P2 0 6, true, (Some 0%nat, None, Some 1%nat))].
Proof. eexists. split; [seval|reflexivity]. Qed.
Example C33_example_split_border : exists m', split_edge 0 Ab (P2 3 0) mesh2 = (Ok tt, m') /\
  show m' = [(P2 0 0, P2 3 0, P2 6 6, true, (None, Some 2%nat, Some 1%nat)); (P2 0 0, P2 6 6, P2 0 6, true, (Some 0%nat, None, None));
   (P2 3 0, P2 6 0, P2 6 6, true, (None, None, Some 0%nat))].
Proof. eexists. split; [seval|reflexivity]. Qed.

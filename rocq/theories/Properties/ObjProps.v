(** Properties of the reader of OBJ files (C108), from the arrays that the parser hands over. *)
From Coq Require Import Reals List Bool Arith Lia Lra Psatz.
From Verif.Common Require Import Base Flt.
From Verif.Geometry Require Import Vec TriangleModel.
From Verif.Rendering Require Import BvhModel DaylightModel MaterialModel SceneModel ObjModel.
From Verif.Properties Require Import TriangleProps.
Import ListNotations.
Open Scope R_scope.

Definition origin : pt := mkV 0 0 0.
(** the positions, the textures and the normals that a face refers to *)
Definition positions (f : Face) : list nat := match f with FP l => l | FPT l | FPN l => map fst l | FPTN l => map (fun v => fst (fst v)) l end.
Definition textures_of (f : Face) : list nat := match f with FP _ | FPN _ => [] | FPT l => map snd l | FPTN l => map (fun v => snd (fst v)) l end.
Definition normals_of (f : Face) : list nat := match f with FP _ | FPT _ => [] | FPN l => map snd l | FPTN l => map snd l end.
(** all of them exist *)
Definition refers (vs ns ts : list pt) (f : Face) : Prop :=
  Forall (fun i => (i < length vs)%nat) (positions f) /\ Forall (fun i => (i < length ns)%nat) (normals_of f) /\ Forall (fun i => (i < length ts)%nat) (textures_of f).

(** Three corners make a triangle, and four make two *)
Definition cut (corners : list pt) : list (pt * pt * pt) :=
  match corners with [a; b; c] => [(a, b, c)] | [a; b; c; d] => [(a, b, c); (a, c, d)] | _ => [] end.
Definition corners_of (vs : list pt) (f : Face) : list pt := map (fun i => nth i vs origin) (positions f).
(** the triangles of a file: those of the faces that have up to four corners *)
Definition file_triangles (vs : list pt) (faces : list Face) : list (pt * pt * pt) := flat_map (fun f => cut (corners_of vs f)) faces.
(** those that [Triangle3D::new] takes (C30) *)
Definition taken (t : pt * pt * pt) : bool := let '(a, b, c) := t in match triangle_new a b c with Ok _ => true | _ => false end.
Definition as_tri (t : pt * pt * pt) : Tri := let '(a, b, c) := t in mkTri a b c.
Definition as_light (front back : nat) (t : pt * pt * pt) : Object := let '(a, b, c) := t in mkObject (PTriangle a b c) front back.

(** ** Reading *)
Lemma fetch_spec from l : (Forall (fun i => (i < length from)%nat) l /\ fetch from l = Ok (map (fun i => nth i from origin) l)) \/
  (~ Forall (fun i => (i < length from)%nat) l /\ fetch from l = Panic).
Proof.
  induction l as [|i l IH]; [left; split; [constructor|reflexivity]|]. cbn [fetch map]. destruct (nth_error from i) as [p|] eqn:E.
  - assert (Hi : (i < length from)%nat) by (apply nth_error_Some; congruence). destruct IH as [[F ->]|[F ->]]; cbn [bind].
    + left. split; [now constructor|]. now rewrite (nth_error_nth _ _ _ E).
    + right. split; [|reflexivity]. intros H. inversion H. contradiction.
  - right. split; [|reflexivity]. intros H. inversion H. apply nth_error_None in E. lia.
Qed.
Lemma face_spec vs ns ts f :
  (4 < length (positions f) /\ process_face vs ns ts f = Ok [])%nat \/
  (3 <= length (positions f) <= 4 /\ refers vs ns ts f /\ exists os, process_face vs ns ts f = Ok os /\ map ot_vertices os = cut (corners_of vs f))%nat \/
  (length (positions f) <= 4 /\ (length (positions f) < 3 \/ ~ refers vs ns ts f) /\ process_face vs ns ts f = Panic)%nat.
Proof.
  assert (K : forall (p : list nat) (t n : option (list nat)), (match t with None => True | Some t => length t = length p end) -> (match n with None => True | Some n => length n = length p end) ->
    let r := (if (4 <? length p)%nat then Ok [] else do p <- fetch vs p; do t <- fetch_some ts t; do n <- fetch_some ns n; do a <- half p t n 0 1 2; if (length p =? 4)%nat then do b <- half p t n 0 2 3; Ok [a; b] else Ok [a]) in
    let ok := Forall (fun i => (i < length vs)%nat) p /\ Forall (fun i => (i < length ns)%nat) (match n with None => [] | Some n => n end) /\ Forall (fun i => (i < length ts)%nat) (match t with None => [] | Some t => t end) in
    (4 < length p /\ r = Ok [])%nat \/ (3 <= length p <= 4 /\ ok /\ exists os, r = Ok os /\ map ot_vertices os = cut (map (fun i => nth i vs origin) p))%nat \/ (length p <= 4 /\ (length p < 3 \/ ~ ok) /\ r = Panic)%nat).
  { intros p t n Lt Ln. cbv zeta. destruct (Nat.ltb_spec 4 (length p)) as [H|H]; [left; auto|right].
    destruct (fetch_spec vs p) as [[Fp ->]|[Fp ->]]; [|right; split; [assumption|split; [right; tauto|reflexivity]]]. cbn [bind].
    assert (T : (Forall (fun i => (i < length ts)%nat) (match t with None => [] | Some t => t end) /\ fetch_some ts t = Ok (option_map (map (fun i => nth i ts origin)) t)) \/
                (~ Forall (fun i => (i < length ts)%nat) (match t with None => [] | Some t => t end) /\ fetch_some ts t = Panic)).
    { destruct t as [t|]; [|left; split; [constructor|reflexivity]]. cbn [fetch_some]. destruct (fetch_spec ts t) as [[F ->]|[F ->]]; [left|right]; auto. }
    destruct T as [[Ft ->]|[Ft ->]]; [|right; split; [assumption|split; [right; tauto|reflexivity]]]. cbn [bind].
    assert (N : (Forall (fun i => (i < length ns)%nat) (match n with None => [] | Some t => t end) /\ fetch_some ns n = Ok (option_map (map (fun i => nth i ns origin)) n)) \/
                (~ Forall (fun i => (i < length ns)%nat) (match n with None => [] | Some t => t end) /\ fetch_some ns n = Panic)).
    { destruct n as [n|]; [|left; split; [constructor|reflexivity]]. cbn [fetch_some]. destruct (fetch_spec ns n) as [[F ->]|[F ->]]; [left|right]; auto. }
    destruct N as [[Fn ->]|[Fn ->]]; [|right; split; [assumption|split; [right; tauto|reflexivity]]]. cbn [bind].
    destruct p as [|p1 [|p2 [|p3 [|p4 [|p5 p]]]]]; [right; split; [assumption|split; [left; cbn; lia|reflexivity]]..| | |cbn in H; lia];
      (left; split; [cbn; lia|]; split; [auto|]);
      (destruct t as [[|t1 [|t2 [|t3 [|t4 [|t5 t]]]]]|]; try discriminate Lt); (destruct n as [[|n1 [|n2 [|n3 [|n4 [|n5 n]]]]]|]; try discriminate Ln);
      (eexists; split; [reflexivity|reflexivity]). }
  destruct f as [l|l|l|l]; unfold process_face, refers, corners_of, positions, textures_of, normals_of.
  - exact (K l None None I I).
  - exact (K (map fst l) (Some (map snd l)) None ltac:(now rewrite !map_length) I).
  - exact (K (map fst l) None (Some (map snd l)) I ltac:(now rewrite !map_length)).
  - exact (K (map (fun v => fst (fst v)) l) (Some (map (fun v => snd (fst v)) l)) (Some (map snd l)) ltac:(now rewrite !map_length) ltac:(now rewrite !map_length)).
Qed.

(** a face that stops the program: too few corners, or something that does not exist *)
Definition bad_face (vs ns ts : list pt) (f : Face) : Prop := (length (positions f) <= 4)%nat /\ ((length (positions f) < 3)%nat \/ ~ refers vs ns ts f).
Lemma cut_long vs f : (4 < length (positions f))%nat -> cut (corners_of vs f) = [].
Proof. intros H. unfold corners_of. destruct (positions f) as [|? [|? [|? [|? [|? l]]]]]; cbn in *; try lia. reflexivity. Qed.
Lemma process_spec vs ns ts faces :
  (Exists (bad_face vs ns ts) faces /\ process vs ns ts faces = Panic) \/
  (~ Exists (bad_face vs ns ts) faces /\ exists os, process vs ns ts faces = Ok os /\ map ot_vertices os = file_triangles vs faces).
Proof.
  induction faces as [|f faces IH]; [right; split; [intros H; inversion H|]; exists []; auto|]. cbn [process file_triangles flat_map].
  destruct (face_spec vs ns ts f) as [[L E]|[[L [R (os & E & M)]]|[L [B E]]]]; rewrite E; cbn [bind].
  - destruct IH as [[X ->]|[X (os & -> & M)]]; cbn [bind]; [left; split; [now constructor 2|reflexivity]|right].
    split; [intros H; inversion H as [? ? [B _]|]; subst; [lia|contradiction]|]. exists os. split; [reflexivity|]. rewrite cut_long by assumption. exact M.
  - destruct IH as [[X ->]|[X (os' & -> & M')]]; cbn [bind]; [left; split; [now constructor 2|reflexivity]|right].
    split; [intros H; inversion H as [? ? [B [B'|B']]|]; subst; [lia|contradiction|contradiction]|]. exists (os ++ os'). split; [reflexivity|]. now rewrite map_app, M, M'.
  - left. split; [|reflexivity]. constructor. split; assumption.
Qed.

Lemma taken_mesh a b c : taken (a, b, c) = true -> exists n, mesh_triangle a b c = Ok ([mkTri a b c], [(n, n, n)]) /\ vlen2 n = 1 /\ exists k, 0 < k /\ vcross (vsub b a) (vsub c a) = vscale n k.
Proof.
  unfold taken. destruct (triangle_new a b c) as [t| |] eqn:E; try discriminate. intros _. pose proof (triangle_new_inv _ _ _ _ E) as (_ & _ & _ & _ & _ & L).
  assert (X : vcross (vsub b a) (vsub c a) = vcross (vsub b a) (vsub c b)) by (destruct a, b, c; unfold vcross, vsub; cbn; f_equal; ring).
  unfold mesh_triangle. rewrite X. destruct (vnormalize (vcross (vsub b a) (vsub c b))) as [n| |] eqn:V; cbn [bind].
  - exists n. split; [reflexivity|]. exact (vnormalize_unit _ _ V).
  - unfold vnormalize in V. destruct (Rltb _ _); discriminate.
  - exfalso. unfold vnormalize in V. destruct (Rltb_spec (1 / 10 ^ 20) (vlen2 (vcross (vsub b a) (vsub c b)))) as [Q|Q]; [discriminate|]. apply Q.
    rewrite <- vlen_sqr. assert (1 / 10 ^ 5 * (1 / 10 ^ 5) <= vlen (vcross (vsub b a) (vsub c b)) * vlen (vcross (vsub b a) (vsub c b))) by (apply Rmult_le_compat; lra). lra.
Qed.

(** What is added to a scene *)
Definition face_normal (t : pt * pt * pt) (n : pt * pt * pt) : Prop :=
  let '(a, b, c) := t in let '(n1, n2, n3) := n in n1 = n2 /\ n2 = n3 /\ vlen2 n1 = 1 /\ exists k, 0 < k /\ vcross (vsub b a) (vsub c a) = vscale n1 k.

Lemma add_spec front back : forall os scene mf mb, nth_error (mats scene) front = Some mf -> nth_error (mats scene) back = Some mb ->
  let new := filter taken (map ot_vertices os) in
  exists added, Forall2 face_normal new added /\
  add_obj_triangles scene front back os = Ok (mkRScene
    (mkScene (triangles (geom scene) ++ map as_tri new) (normals (geom scene) ++ added)
      (front_material_indexes (geom scene) ++ repeat front (length new)) (back_material_indexes (geom scene) ++ repeat back (length new)))
    (mats scene) (lights scene ++ if emits_light mf || emits_light mb then map (as_light front back) new else []) (distant_lights scene)).
Proof.
  induction os as [|[[[a b] c] on ot] os IH]; intros scene mf mb F B; cbv zeta.
  - exists []. split; [constructor|]. cbn. rewrite !app_nil_r. destruct scene as [[] ? ? ?]. cbn. destruct (_ || _); now rewrite app_nil_r.
  - cbn [add_obj_triangles ot_vertices map filter]. destruct (triangle_new a b c) as [t| |] eqn:E.
    + assert (T : taken (a, b, c) = true) by (unfold taken; now rewrite E). rewrite T. pose proof (triangle_new_inv _ _ _ _ E) as (-> & -> & -> & _).
      destruct (taken_mesh a b c T) as (n & M & U & K). unfold push_object. rewrite F, B, M. cbn [bind].
      edestruct (IH (mkRScene (mkScene (triangles (geom scene) ++ [mkTri a b c]) (normals (geom scene) ++ [(n, n, n)]) (front_material_indexes (geom scene) ++ [front]) (back_material_indexes (geom scene) ++ [back]))
        (mats scene) (lights scene ++ if emits_light mf || emits_light mb then [mkObject (PTriangle a b c) front back] else []) (distant_lights scene)) mf mb F B) as (added & A1 & A2).
      exists ((n, n, n) :: added). split; [constructor; [repeat split; assumption|exact A1]|].
      cbn [geom mats lights distant_lights triangles normals front_material_indexes back_material_indexes] in A2.
      destruct (emits_light mf || emits_light mb); cbn [geom mats lights distant_lights triangles normals front_material_indexes back_material_indexes length repeat] in *;
        rewrite ?app_nil_r, <- !app_assoc in A2; cbn [app] in A2; rewrite ?app_nil_r; exact A2.
    + assert (T : taken (a, b, c) = false) by (unfold taken; now rewrite E). rewrite T. apply IH; assumption.
    + destruct (C30_no_panic _ _ _ E).
Qed.

(** C108: reading adds exactly the triangles of the faces with three or four corners, in order, each with its own normal,
    and made of the given materials; a scene has no other way to fail than a face that is too short or refers to nothing. *)
Theorem C108_scene : forall scene front back mf mb vs ns ts faces,
  nth_error (mats scene) front = Some mf -> nth_error (mats scene) back = Some mb ->
  (Exists (bad_face vs ns ts) faces -> add_from_obj scene front back vs ns ts faces = Panic) /\
  (~ Exists (bad_face vs ns ts) faces ->
   let new := filter taken (file_triangles vs faces) in
   exists added, Forall2 face_normal new added /\
   add_from_obj scene front back vs ns ts faces = Ok (mkRScene
    (mkScene (triangles (geom scene) ++ map as_tri new) (normals (geom scene) ++ added)
      (front_material_indexes (geom scene) ++ repeat front (length new)) (back_material_indexes (geom scene) ++ repeat back (length new)))
    (mats scene) (lights scene ++ if emits_light mf || emits_light mb then map (as_light front back) new else []) (distant_lights scene))).
Proof.
  intros scene front back mf mb vs ns ts faces F B. unfold add_from_obj. destruct (process_spec vs ns ts faces) as [[X ->]|[X (os & -> & M)]]; cbn [bind].
  - split; [reflexivity|contradiction].
  - split; [contradiction|]. intros _. cbv zeta. rewrite <- M. apply add_spec; assumption.
Qed.

(** ** Faces of four corners *)

(** twice the area of a polygon, as a vector *)
Definition twice_area (l : list pt) : pt :=
  match l with [] => mkV 0 0 0 | a :: _ => fold_right vadd (mkV 0 0 0) (map (fun pq => vcross (vsub (fst pq) a) (vsub (snd pq) a)) (combine l (tl l ++ [a]))) end.
(** The halves have the area of the whole, flat or not *)
Theorem C108_area : forall a b c d, fold_right vadd (mkV 0 0 0) (map (fun t => let '(p, q, r) := t in twice_area [p; q; r]) (cut [a; b; c; d])) = twice_area [a; b; c; d].
Proof. intros [] [] [] []. cbn. unfold vcross, vsub, vadd. cbn. f_equal; ring. Qed.

(** [p] is in the convex hull of [l] *)
Definition mix (l : list (R * pt)) : pt := fold_right vadd (mkV 0 0 0) (map (fun wp => vscale (snd wp) (fst wp)) l).
Definition within (l : list pt) (p : pt) : Prop :=
  exists w, length w = length l /\ Forall (fun x => 0 <= x) w /\ fold_right Rplus 0 w = 1 /\ p = mix (combine w l).
(** The diagonals cross: the four corners are flat and convex *)
Definition diagonals_cross (a b c d : pt) : Prop := exists s t, 0 <= s <= 1 /\ 0 <= t <= 1 /\ mix [(1 - s, a); (s, c)] = mix [(1 - t, b); (t, d)].

(** The halves of a flat convex face cover it, and nothing else *)
Theorem C108_covers : forall a b c d p, diagonals_cross a b c d ->
  (within [a; b; c; d] p <-> Exists (fun t => let '(x, y, z) := t in within [x; y; z] p) (cut [a; b; c; d])).
Proof.
  intros a b c d p (s & t & Hs & Ht & X). cbn [cut]. split.
  - intros (w & L & P & Sum & ->). destruct w as [|wa [|wb [|wc [|wd [|? ?]]]]]; try discriminate L.
    inversion P as [|? ? Pa P1]; subst. inversion P1 as [|? ? Pb P2]; subst. inversion P2 as [|? ? Pc P3]; subst. inversion P3 as [|? ? Pd _]; subst. cbn [fold_right] in Sum.
    assert (Xx : (1 - s) * vx a + s * vx c = (1 - t) * vx b + t * vx d) by (apply (f_equal (fun v => vx v)) in X; destruct a, b, c, d; cbn in *; lra).
    assert (Xy : (1 - s) * vy a + s * vy c = (1 - t) * vy b + t * vy d) by (apply (f_equal (fun v => vy v)) in X; destruct a, b, c, d; cbn in *; lra).
    assert (Xz : (1 - s) * vz a + s * vz c = (1 - t) * vz b + t * vz d) by (apply (f_equal (fun v => vz v)) in X; destruct a, b, c, d; cbn in *; lra).
    assert (KK : exists k, 0 <= k /\ 0 <= wb - k * (1 - t) /\ 0 <= wd - k * t /\ (wb - k * (1 - t) = 0 \/ wd - k * t = 0)).
    { destruct (Rle_lt_dec (wb * t) (wd * (1 - t))) as [C|C].
      - destruct (Req_dec t 1) as [->|Nt]; [|].
        + exists wd. split; [assumption|]. split; [lra|]. split; [lra|]. right. lra.
        + exists (wb / (1 - t)). assert (Q : 0 < 1 - t) by lra. split; [apply Rmult_le_pos; [assumption|left; now apply Rinv_0_lt_compat]|].
          replace (wb / (1 - t) * (1 - t)) with wb by (field; lra). split; [lra|]. split; [|left; lra].
          assert (wb / (1 - t) * t * (1 - t) <= wd * (1 - t)) by (replace (wb / (1 - t) * t * (1 - t)) with (wb * t) by (field; lra); lra).
          apply Rmult_le_reg_r in H; [lra|assumption].
      - destruct (Req_dec t 0) as [->|Nt]; [exists wb; split; [assumption|]; split; [lra|]; split; [lra|left; lra]|].
        exists (wd / t). assert (Q : 0 < t) by lra. split; [apply Rmult_le_pos; [assumption|left; now apply Rinv_0_lt_compat]|].
        replace (wd / t * t) with wd by (field; lra). split; [|split; [lra|right; lra]].
        assert (wd / t * (1 - t) * t <= wb * t) by (replace (wd / t * (1 - t) * t) with (wd * (1 - t)) by (field; lra); lra).
        apply Rmult_le_reg_r in H; [lra|assumption]. }
    destruct KK as (k & K0 & Kb & Kd & [Z|Z]); apply (f_equal (Rmult k)) in Xx, Xy, Xz.
    + apply Exists_cons_tl, Exists_cons_hd. exists [wa + k * (1 - s); wc + k * s; wd - k * t]. split; [reflexivity|]. split; [constructor; [|constructor; [|constructor; [|constructor]]]; nra|]. split; [cbn; nra|].
      assert (Eb : wb = k * (1 - t)) by lra. subst wb. unfold mix. cbn. destruct a as [ax ay az], b as [bx by_ bz], c as [cx cy cz], d as [dx dy dz]. cbn in *. unfold vadd, vscale. cbn. f_equal; nra.
    + apply Exists_cons_hd. exists [wa + k * (1 - s); wb - k * (1 - t); wc + k * s]. split; [reflexivity|]. split; [constructor; [|constructor; [|constructor; [|constructor]]]; nra|]. split; [cbn; nra|].
      assert (Ed : wd = k * t) by lra. subst wd. unfold mix. cbn. destruct a as [ax ay az], b as [bx by_ bz], c as [cx cy cz], d as [dx dy dz]. cbn in *. unfold vadd, vscale. cbn. f_equal; nra.
  - intros H. inversion H as [? ? W|? ? H']; subst; [|inversion H' as [? ? W|? ? H'']; subst; [|inversion H'']]; destruct W as (w & L & P & Sum & ->); destruct w as [|w1 [|w2 [|w3 [|? ?]]]]; try discriminate L;
    inversion P as [|? ? P1 Q1]; subst; inversion Q1 as [|? ? P2 Q2]; subst; inversion Q2 as [|? ? P3 _]; subst; cbn [fold_right] in Sum.
    + exists [w1; w2; w3; 0]. split; [reflexivity|]. split; [constructor; [|constructor; [|constructor; [|constructor; [|constructor]]]]; lra|]. split; [cbn; lra|]. destruct a, b, c, d. unfold mix, vadd, vscale. cbn. f_equal; ring.
    + exists [w1; 0; w2; w3]. split; [reflexivity|]. split; [constructor; [|constructor; [|constructor; [|constructor; [|constructor]]]]; lra|]. split; [cbn; lra|]. destruct a, b, c, d. unfold mix, vadd, vscale. cbn. f_equal; ring.
Qed.
(** a square *)
Example C108_square : diagonals_cross (mkV 0 0 0) (mkV 1 0 0) (mkV 1 1 0) (mkV 0 1 0).
Proof. exists (1 / 2), (1 / 2). split; [lra|]. split; [lra|]. unfold mix, vadd, vscale. cbn. f_equal; lra. Qed.

Definition grey_scene : RScene := snd (push_material empty_scene (Diffuse (gray (1 / 2)))).
Lemma taken_spec a b c : compare a b = false -> compare a c = false -> compare b c = false -> 1 / 10 ^ 5 <= vlen (vcross (vsub b a) (vsub c b)) -> taken (a, b, c) = true.
Proof.
  intros H1 H2 H3 L. pose proof (C30_no_panic a b c) as NP. unfold taken. unfold triangle_new, is_collinear in *. rewrite H1, H2, H3 in *. cbn [orb andb bind] in *.
  unfold Rltb in *. destruct (Rlt_dec (vlen (vcross (vsub b a) (vsub c b))) (1 / 10 ^ 5)); [lra|]. destruct (tri_normal a b c) as [nn| |] eqn:E; cbn [bind] in *; [reflexivity| |congruence].
  unfold tri_normal, vnormalize in E. destruct (Rltb _ _); discriminate.
Qed.

Lemma far a b : 1 <= vlen2 (vsub a b) -> compare a b = false.
Proof. intros H. unfold compare, compare_by. apply Rleb_false. lra. Qed.
Lemma long v : 1 <= vlen2 v -> 1 / 10 ^ 5 <= vlen v.
Proof. intros H. apply Rle_trans with 1; [lra|]. unfold vlen. rewrite <- sqrt_1. now apply sqrt_le_1_alt. Qed.

(** "Every face is read": faces of more than four corners are dropped without a word. *)
Theorem C108_many_refuted : forall scene front back vs ns ts f, (4 < length (positions f))%nat -> add_from_obj scene front back vs ns ts [f] = Ok scene.
Proof. intros. unfold add_from_obj. cbn [process]. destruct (face_spec vs ns ts f) as [[L E]|[[L _]|[L _]]]; [|lia|lia]. rewrite E. reflexivity. Qed.

(** "Both halves of a face look the same way": not when the second corner is a reflex one. *)
Theorem C108_reflex_refuted : exists a b c d scene n m,
  add_from_obj grey_scene 0 0 [a; b; c; d] [] [] [FP [0; 1; 2; 3]%nat] = Ok scene /\
  triangles (geom scene) = [mkTri a b c; mkTri a c d] /\ normals (geom scene) = [(n, n, n); (m, m, m)] /\
  vlen2 n = 1 /\ m = vneg n.
Proof.
  set (a := mkV 0 0 0 : pt). set (b := mkV 2 1 0 : pt). set (c := mkV 4 0 0 : pt). set (d := mkV 2 4 0 : pt).
  assert (T1 : taken (a, b, c) = true).
  { apply taken_spec; [..|apply long; unfold a, b, c, vlen2, vcross, vsub; cbn; lra]; apply far; unfold a, b, c, vlen2; cbn; lra. }
  assert (T2 : taken (a, c, d) = true).
  { apply taken_spec; [..|apply long; unfold a, c, d, vlen2, vcross, vsub; cbn; lra]; apply far; unfold a, c, d, vlen2; cbn; lra. }
  destruct (proj2 (C108_scene grey_scene 0 0 _ _ [a; b; c; d] [] [] [FP [0; 1; 2; 3]%nat] eq_refl eq_refl)) as (added & F & E).
  { intros H. inversion H as [? ? B|? ? H']; [|inversion H']; subst. destruct B as [_ [B|B]]; [cbn in B; lia|]. apply B. split; [cbn; repeat constructor; lia|split; constructor]. }
  assert (Q : file_triangles [a; b; c; d] [FP [0; 1; 2; 3]%nat] = [(a, b, c); (a, c, d)]) by reflexivity.
  rewrite Q in F, E. cbn [filter] in F, E. rewrite T1, T2 in F, E.
  inversion F as [|? [[n1 n2] n3] ? ? N F']; subst. inversion F' as [|? [[m1 m2] m3] ? ? M F'']; subst. inversion F''; subst.
  destruct N as (<- & <- & U & k & K & X). destruct M as (<- & <- & U' & k' & K' & X').
  eexists a, b, c, d, _, n1, m1. split; [exact E|]. split; [reflexivity|]. split; [reflexivity|]. split; [exact U|].
  destruct n1 as [x y z], m1 as [x' y' z']. unfold a, b, c, d, vcross, vsub, vscale in X, X'. cbn in X, X'. injection X as X1 X2 X3. injection X' as Y1 Y2 Y3.
  assert (x = 0) by nra. assert (y = 0) by nra. assert (x' = 0) by nra. assert (y' = 0) by nra. subst. unfold vlen2 in U, U'. cbn in U, U'. unfold vneg. cbn.
  assert (z = -1) by nra. assert (z' = 1) by nra. subst. f_equal; lra.
Qed.
(** a square and a triangle, and a face of two corners *)
Example C108_faces : let vs := [mkV 0 0 0; mkV 1 0 0; mkV 1 1 0; mkV 0 1 0] in
  ~ Exists (bad_face vs [] []) [FP [0; 1; 2; 3]%nat; FP [1; 2; 3]%nat] /\ length (file_triangles vs [FP [0; 1; 2; 3]%nat; FP [1; 2; 3]%nat]) = 3%nat /\
  Exists (bad_face vs [] []) [FP [0; 1]%nat].
Proof.
  cbv zeta. split; [|split; [reflexivity|]].
  - intros H. inversion H as [? ? B|? ? H']; subst; [|inversion H' as [? ? B|? ? H'']; subst; [|inversion H'']]; destruct B as [_ [B|B]]; try (cbn in B; lia); apply B; (split; [cbn; repeat constructor; lia|split; constructor]).
  - constructor. split; [cbn; lia|left; cbn; lia].
Qed.

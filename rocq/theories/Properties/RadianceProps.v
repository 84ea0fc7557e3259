(** Properties of the reader of Radiance files (C106, C107). *)
From Coq Require Import String Ascii Reals List Bool Arith NArith Lia Lra.
From Verif.Common Require Import Base Flt Text.
From Verif.Geometry Require Import Vec TriangleModel LoopModel MeshModel GeomProofs.
From Verif.Geometry Require ShapesModel.
From Verif.Rendering Require Import BvhModel DaylightModel MaterialModel SceneModel RayTracerModel RadianceModel RadianceProofs.
From Verif.Rendering Require SphereMeshModel.
Import ListNotations.
Open Scope R_scope.

(** ** C106: only the words of a file count, and reading it always ends *)

(** [fuel] bounds the turns of every loop: more turns than bytes are never needed. *)
Theorem C106_ends : forall utf8 parse_float source, parse_float [] = None ->
  exists outcome, forall fuel, (length source < fuel)%nat -> from_radiance_source utf8 parse_float source fuel = Some outcome.
Proof.
  intros utf8 pf source H. destruct (source_words utf8 pf H source (S (length source)) (Nat.lt_succ_diag_r _)) as [_ T].
  destruct (read_words utf8 pf (words source)) as [o|] eqn:E; [|congruence]. exists o. intros fuel F. destruct (source_words utf8 pf H source fuel F) as [-> _]. exact E.
Qed.

(** Two files with the same words, whatever the blanks between them, give the same scene, the same error or the same panic. *)
Theorem C106_layout : forall utf8 parse_float source1 source2 fuel1 fuel2, parse_float [] = None -> words source1 = words source2 ->
  (length source1 < fuel1)%nat -> (length source2 < fuel2)%nat ->
  from_radiance_source utf8 parse_float source1 fuel1 = from_radiance_source utf8 parse_float source2 fuel2.
Proof.
  intros utf8 pf s1 s2 f1 f2 H W F1 F2. destruct (source_words utf8 pf H s1 f1 F1) as [-> _]. destruct (source_words utf8 pf H s2 f2 F2) as [-> _]. now rewrite W.
Qed.
(** files with the same words, laid out differently *)
Example C106_layouts : let a := txt "void light sun 0 0 3 1 1 1" in
  let b := [t_nl] ++ txt "void" ++ [t_tab] ++ txt "light sun" ++ [t_cr; t_nl] ++ txt "0" ++ [t_nl] ++ txt "0" ++ [t_nl] ++ txt "3  1 1 1" ++ [t_nl] in
  words a = words b /\ a <> b /\ length (words a) = 9%nat.
Proof. cbv zeta. split; [reflexivity|]. split; [discriminate|reflexivity]. Qed.

(** ** C107: what a file of declarations gives *)

(** A material, a sphere, a distant source or a polygon.  Numbers are given as they are written. *)
Inductive declaration :=
| DMaterial (modifier kind name : text) (arguments : list text)
| DSphere (modifier name x y z radius : text)
| DSource (modifier name x y z degrees : text)
| DPolygon (modifier name : text) (corners : list (text * text * text)).

(** the words of a declaration, as the format of Radiance has them *)
Definition spoken (d : declaration) : list text :=
  match d with
  | DMaterial modifier kind name arguments => [modifier; kind; name; txt "0"; txt "0"; show_nat (length arguments)] ++ arguments
  | DSphere modifier name x y z radius => [modifier; txt "sphere"; name; txt "0"; txt "0"; txt "4"; x; y; z; radius]
  | DSource modifier name x y z degrees => [modifier; txt "source"; name; txt "0"; txt "0"; txt "4"; x; y; z; degrees]
  | DPolygon modifier name corners =>
    [modifier; txt "polygon"; name; txt "0"; txt "0"; show_nat (3 * length corners)] ++ flat_map (fun c => let '(x, y, z) := c in [x; y; z]) corners
  end.

(** the material that a kind and its numbers stand for *)
Definition material_meant (kind : text) (v : list R) : option Material :=
  match v with
  | [r; g; b] =>
    if text_eqb kind (txt "light") then Some (Light (mkS r g b))
    else if text_eqb kind (txt "mirror") then Some (Mirror (mkS r g b))
    else if text_eqb kind (txt "glass") then Some (Glass (mkS r g b) (152 / 100))
    else None
  | [r; g; b; n] => if text_eqb kind (txt "glass") then Some (Glass (mkS r g b) n) else None
  | [r; g; b; s; h] =>
    if text_eqb kind (txt "plastic") then Some (if Rlt_dec s (1 / 10 ^ 5) then Diffuse (mkS r g b) else Plastic (mkS r g b) s h)
    else if text_eqb kind (txt "metal") then Some (if Rlt_dec s (1 / 10 ^ 5) then Diffuse (mkS r g b) else Metal (mkS r g b) s h)
    else if text_eqb kind (txt "dielectric") then Some (Dielectric (mkS r g b) s)
    else None
  | _ => None
  end.

Section Meaning.
Context (parse_float : text -> option R).

Definition reads_as (t : text) (x : R) : Prop := parse_float t = Some x.
Definition material_read (kind : text) (arguments : list text) (m : Material) : Prop :=
  exists v, Forall2 reads_as arguments v /\ material_meant kind v = Some m.
Definition corner_read (c : text * text * text) (p : pt) : Prop :=
  let '(x, y, z) := c in reads_as x (vx p) /\ reads_as y (vy p) /\ reads_as z (vz p).

(** a declaration whose numbers can be read *)
Definition legible (d : declaration) : Prop :=
  match d with
  | DMaterial _ kind _ arguments => exists m, material_read kind arguments m
  | DSphere _ _ x y z w | DSource _ _ x y z w => exists a b c d, reads_as x a /\ reads_as y b /\ reads_as z c /\ reads_as w d
  | DPolygon _ _ corners => (N.of_nat (3 * length corners) < 2 ^ 64)%N /\ exists ps, Forall2 corner_read corners ps
  end.

(** the loop drawn by points one after the other (C34) *)
Fixpoint drawn (l : Loop) (ps : list pt) : res Loop := match ps with [] => Ok l | p :: ps => do l <- push l p; drawn l ps end.

(** the primitives that an object stands for: a polygon is cut into triangles (C32) *)
Definition stands_for (d : declaration) (qs : list Primitive) : Prop :=
  match d with
  | DMaterial _ _ _ _ => False
  | DSphere _ _ x y z w => exists a b c r s, reads_as x a /\ reads_as y b /\ reads_as z c /\ reads_as w r /\
      ShapesModel.sphere_new r (mkV a b c) = Ok s /\ qs = [PSphere s]
  | DSource _ _ x y z w => exists a b c r s, reads_as x a /\ reads_as y b /\ reads_as z c /\ reads_as w r /\
      source_new (mkV a b c) (r * (PI / 180)) = Ok s /\ qs = [PSource (mkV a b c) (r * (PI / 180))]
  | DPolygon _ _ corners => exists ps l l' g mesh, Forall2 corner_read corners ps /\ drawn loop_new ps = Ok l /\ closed_loop l = Ok l' /\
      poly_new l' = Ok g /\ triangulate g = Ok mesh /\
      qs = map (fun p => PTriangle (t_a (tri p)) (t_b (tri p)) (t_c (tri p))) (pieces mesh)
  end.
Definition modifier_of (d : declaration) : text :=
  match d with DMaterial m _ _ _ | DSphere m _ _ _ _ _ | DSource m _ _ _ _ _ | DPolygon m _ _ => m end.

(** [i] is the first place of [x] in [l] *)
Definition first_at (l : list text) (x : text) (i : nat) : Prop := nth_error l i = Some x /\ forall j, (j < i)%nat -> nth_error l j <> Some x.

(** The objects of a file with the number of their material: the first one of that name among the materials declared before *)
Inductive places : list text -> list declaration -> list (Primitive * nat) -> Prop :=
| places_nil names : places names [] []
| places_material names m k name args ds ps : places (names ++ [name]) ds ps -> places names (DMaterial m k name args :: ds) ps
| places_object names d i qs ds ps : first_at names (modifier_of d) i -> stands_for d qs -> places names ds ps ->
    places names (d :: ds) (map (fun q => (q, i)) qs ++ ps).

(** The materials of a file, in order *)
Inductive materials_read : list declaration -> list Material -> Prop :=
| mr_nil : materials_read [] []
| mr_material m k name args mat ds mats : material_read k args mat -> materials_read ds mats -> materials_read (DMaterial m k name args :: ds) (mat :: mats)
| mr_object d ds mats : match d with DMaterial _ _ _ _ => False | _ => True end -> materials_read ds mats -> materials_read (d :: ds) mats.
End Meaning.

(** the triangles of a primitive, and their normals; a source has none and must be made of a light *)
Definition meshed (lit : bool) (p : Primitive) (m : list Tri * list (pt * pt * pt)) : Prop :=
  match p with
  | PTriangle a b c => mesh_triangle a b c = Ok m
  | PSphere s => SphereMeshModel.mesh_sphere s = Ok m
  | PSource _ _ => lit = true /\ m = ([], [])
  | PCylinder _ => False
  end.
Definition is_light (mats : list Material) (i : nat) : bool := match nth_error mats i with Some (Light _) => true | _ => false end.
Definition is_distant (p : Primitive) : bool := match p with PSource _ _ => true | _ => false end.

(** Scenes made by placing primitives *)
Definition after (mats : list Material) (placed : list (Primitive * nat)) (meshes : list (list Tri * list (pt * pt * pt))) : RScene :=
  mkRScene
    (mkScene (concat (map fst meshes)) (concat (map snd meshes))
       (concat (map (fun x => repeat (snd (fst x)) (length (fst (snd x)))) (combine placed meshes)))
       (concat (map (fun x => repeat (snd (fst x)) (length (fst (snd x)))) (combine placed meshes))))
    mats
    (map (fun q => mkObject (fst q) (snd q) (snd q)) (filter (fun q => is_light mats (snd q) && negb (is_distant (fst q))) placed))
    (map (fun q => mkObject (fst q) (snd q) (snd q)) (filter (fun q => is_light mats (snd q) && is_distant (fst q)) placed)).

Definition all_meshed (mats : list Material) (placed : list (Primitive * nat)) (meshes : list (list Tri * list (pt * pt * pt))) : Prop :=
  Forall2 (fun q m => meshed (is_light mats (snd q)) (fst q) m) placed meshes.

(** ** Proofs *)
Section Proofs.
Context (utf8 : text -> bool) (pf : text -> option R) (Hpf : pf [] = None).
Notation good := (Forall (fun w => utf8 w = true)).

Lemma tok_cons w ws : utf8 w = true -> tok utf8 (w :: ws) = Some (Ok (w, ws)).
Proof. intros H. cbn. now rewrite H. Qed.
Lemma expect_cons w ws : utf8 (txt w) = true -> expect (tok utf8) w (txt w :: ws) = Some (Ok ws).
Proof. intros H. unfold expect. rewrite tok_cons by assumption. cbn [obind]. now rewrite text_eqb_refl. Qed.
Lemma number_cons w x ws : utf8 w = true -> pf w = Some x -> number pf (tok utf8) (w :: ws) = Some (Ok (x, ws)).
Proof. intros H E. unfold number. rewrite tok_cons by assumption. cbn [obind]. now rewrite E. Qed.

Lemma modifier_first names m : (exists i, first_at names m i) \/ ~ In m names.
Proof.
  induction names as [|n names IH]; [right; tauto|]. destruct (list_eq_dec ascii_dec n m) as [->|D].
  - left. exists 0%nat. split; [reflexivity|lia].
  - destruct IH as [[i [E F]]|N]; [left; exists (S i); split; [exact E|]|right; intros [H|H]; congruence].
    intros [|j] Hj; cbn; [congruence|apply F; lia].
Qed.
Lemma modifier_index_spec names m : forall k i, first_at names m i -> modifier_index names m k = Ok (k + i)%nat.
Proof.
  induction names as [|n names IH]; intros k i [E F]; [destruct i; discriminate|]. cbn [modifier_index]. destruct (text_eqb m n) eqn:T.
  - apply text_eqb_true in T. subst n. destruct i as [|i]; [now rewrite Nat.add_0_r|]. destruct (F 0%nat); [lia|reflexivity].
  - destruct i as [|i]; [cbn in E; injection E as ->; rewrite text_eqb_refl in T; discriminate|].
    rewrite (IH (S k) i); [f_equal; lia|]. split; [exact E|]. intros j Hj. apply (F (S j)). lia.
Qed.
Lemma modifier_index_none names m : forall k, ~ In m names -> modifier_index names m k = Panic.
Proof.
  induction names as [|n names IH]; intros k H; [reflexivity|]. cbn [modifier_index]. destruct (text_eqb m n) eqn:T.
  - apply text_eqb_true in T. subst. exfalso. apply H. now left.
  - apply IH. intros I. apply H. now right.
Qed.
Lemma first_at_unique l x i j : first_at l x i -> first_at l x j -> i = j.
Proof. intros [E F] [E' F']. destruct (lt_eq_lt_dec i j) as [[L|]|L]; [destruct (F' i L E)|assumption|destruct (F j L E')]. Qed.

Lemma combine_snoc {A B} (a : list A) (b : list B) x y : length a = length b -> combine (a ++ [x]) (b ++ [y]) = combine a b ++ [(x, y)].
Proof. revert b. induction a as [|u a IH]; intros [|v b] H; try discriminate; [reflexivity|]. cbn. f_equal. apply IH. now injection H. Qed.

Lemma is_light_emits mats i m : nth_error mats i = Some m -> is_light mats i = emits_light m.
Proof. intros H. unfold is_light. rewrite H. destruct m; reflexivity. Qed.

Lemma push_after mats placed meshes p i : length placed = length meshes -> (i < length mats)%nat -> match p with PCylinder _ => False | _ => True end ->
  forall scene', push_object (after mats placed meshes) i i p = Ok scene' <->
    exists m, meshed (is_light mats i) p m /\ scene' = after mats (placed ++ [(p, i)]) (meshes ++ [m]).
Proof.
  intros L I NC scene'. unfold push_object. cbn [SceneModel.mats after].
  destruct (nth_error mats i) as [mt|] eqn:E; [|apply nth_error_None in E; lia].
  rewrite orb_diag, <- (is_light_emits _ _ _ E).
  assert (Q : forall m, (let g := geom (after mats placed meshes) in
     mkRScene (mkScene (triangles g ++ fst m) (normals g ++ snd m) (front_material_indexes g ++ repeat i (length (fst m))) (back_material_indexes g ++ repeat i (length (fst m))))
       mats (map (fun q => mkObject (fst q) (snd q) (snd q)) (filter (fun q => is_light mats (snd q) && negb (is_distant (fst q))) (placed ++ [(p, i)])))
       (map (fun q => mkObject (fst q) (snd q) (snd q)) (filter (fun q => is_light mats (snd q) && is_distant (fst q)) (placed ++ [(p, i)]))))
     = after mats (placed ++ [(p, i)]) (meshes ++ [m])).
  { intros m. unfold after. cbn [geom triangles normals front_material_indexes back_material_indexes]. rewrite combine_snoc by assumption. rewrite !map_app, !concat_app. cbn [map concat fst snd]. now rewrite !app_nil_r. }
  assert (Fl : forall f, filter f (placed ++ [(p, i)]) = filter f placed ++ if f (p, i) then [(p, i)] else []).
  { intros f. rewrite filter_app. cbn. destruct (f (p, i)); reflexivity. }
  rewrite !Fl in Q. cbn [fst snd] in Q.
  destruct p as [a b c|d angle|s|c]; cbn [meshed is_distant] in *; rewrite ?andb_true_r, ?andb_false_r in Q; cbn [negb] in Q; rewrite ?andb_true_r, ?andb_false_r in Q; rewrite ?app_nil_r in Q.
  - destruct (mesh_triangle a b c) as [[ts ns]| |] eqn:M; cbn [bind].
    + split.
      * intros H. exists (ts, ns). split; [reflexivity|]. rewrite <- Q. clear Q. injection H as <-. destruct (is_light mats i); cbn [fst snd geom SceneModel.mats lights distant_lights after]; rewrite ?map_app, ?app_nil_r; reflexivity.
      * intros (m & Em & ->). injection Em as <-. rewrite <- Q. clear Q. destruct (is_light mats i); cbn [fst snd geom SceneModel.mats lights distant_lights after]; rewrite ?map_app, ?app_nil_r; reflexivity.
    + split; [discriminate|]. intros (m & Em & _). discriminate.
    + split; [discriminate|]. intros (m & Em & _). discriminate.
  - destruct (is_light mats i) eqn:Li; cbn [bind].
    + split.
      * intros H. exists ([], []). split; [auto|]. rewrite <- Q. clear Q. injection H as <-. cbn [fst snd geom SceneModel.mats lights distant_lights after]. rewrite ?map_app, ?app_nil_r. reflexivity.
      * intros (m & [_ ->] & ->). rewrite <- Q. clear Q. cbn [fst snd geom SceneModel.mats lights distant_lights after]. rewrite ?map_app, ?app_nil_r. reflexivity.
    + split; [discriminate|]. intros (m & [Em _] & _). discriminate.
  - destruct (SphereMeshModel.mesh_sphere s) as [[ts ns]| |] eqn:M; cbn [bind].
    + split.
      * intros H. exists (ts, ns). split; [reflexivity|]. rewrite <- Q. clear Q. injection H as <-. destruct (is_light mats i); cbn [fst snd geom SceneModel.mats lights distant_lights after]; rewrite ?map_app, ?app_nil_r; reflexivity.
      * intros (m & Em & ->). injection Em as <-. rewrite <- Q. clear Q. destruct (is_light mats i); cbn [fst snd geom SceneModel.mats lights distant_lights after]; rewrite ?map_app, ?app_nil_r; reflexivity.
    + split; [discriminate|]. intros (m & Em & _). discriminate.
    + split; [discriminate|]. intros (m & Em & _). discriminate.
  - destruct NC.
Qed.

Lemma material_after mats placed meshes m : Forall (fun q => (snd q < length mats)%nat) placed ->
  snd (push_material (after mats placed meshes) m) = after (mats ++ [m]) placed meshes.
Proof.
  intros F. unfold push_material, after. cbn [snd geom SceneModel.mats lights distant_lights].
  assert (H : forall q, In q placed -> is_light (mats ++ [m]) (snd q) = is_light mats (snd q)).
  { intros q I. rewrite Forall_forall in F. unfold is_light. now rewrite nth_error_app1 by auto. }
  f_equal; f_equal; apply filter_ext_in; intros q I; now rewrite H.
Qed.
Lemma drawn_spec corners : forall ps l rest fuel, Forall2 (corner_read pf) corners ps -> good (flat_map (fun c => let '(x, y, z) := c in [x; y; z]) corners) ->
  (length corners <= fuel)%nat ->
  vertices pf (tok utf8) fuel (3 * length corners) l (flat_map (fun c => let '(x, y, z) := c in [x; y; z]) corners ++ rest)
  = match drawn l ps with Ok l' => Some (Ok (l', rest)) | Err => Some Err | Panic => Some Panic end.
Proof.
  induction corners as [|[[x y] z] corners IH]; intros ps l rest fuel H G F; inversion H as [|c p c' ps' Hc Hr]; subst.
  - cbn. destruct fuel; reflexivity.
  - destruct fuel as [|fuel]; [cbn in F; lia|]. destruct Hc as (X & Y & Z). cbn [flat_map app] in G. inversion G as [|? ? G1 G']; subst. inversion G' as [|? ? G2 G'']; subst. inversion G'' as [|? ? G3 G4]; subst.
    replace (3 * length ((x, y, z) :: corners))%nat with (S (S (S (3 * length corners)))) by (cbn [length]; lia).
    cbn [vertices flat_map app]. rewrite (number_cons _ _ _ G1 X). cbn [obind]. rewrite (number_cons _ _ _ G2 Y). cbn [obind]. rewrite (number_cons _ _ _ G3 Z). cbn [obind].
    destruct p as [px py pz]. cbn [vx vy vz drawn]. destruct (push l (mkV px py pz)) as [l'| |]; cbn [obind bind done]; try reflexivity.
    replace (S (S (S (3 * length corners))) - 3)%nat with (3 * length corners)%nat by lia.
    apply IH; [assumption|assumption|cbn in F; lia].
Qed.

Definition back {A} (rest : list text) (x : res A) : out (A * list text) := match x with Ok a => Some (Ok (a, rest)) | Err => Some Err | Panic => Some Panic end.

Ltac goods := repeat match goal with H : Forall _ (_ :: _) |- _ => inversion H; subst; clear H end.
Ltac reads := repeat (first [rewrite tok_cons by assumption | rewrite expect_cons by assumption | erewrite number_cons by eassumption]; cbn [obind]).

Lemma kind_plastic fuel r m name (s : list text) : consume_kind pf (tok utf8) fuel r m (txt "plastic") name s = consume_plastic pf (tok utf8) r m name s.
Proof. reflexivity. Qed.
Lemma kind_metal fuel r m name (s : list text) : consume_kind pf (tok utf8) fuel r m (txt "metal") name s = consume_metal pf (tok utf8) r m name s.
Proof. reflexivity. Qed.
Lemma kind_light fuel r m name (s : list text) : consume_kind pf (tok utf8) fuel r m (txt "light") name s = consume_light pf (tok utf8) r m name s.
Proof. reflexivity. Qed.
Lemma kind_mirror fuel r m name (s : list text) : consume_kind pf (tok utf8) fuel r m (txt "mirror") name s = consume_mirror pf (tok utf8) r m name s.
Proof. reflexivity. Qed.
Lemma kind_dielectric fuel r m name (s : list text) : consume_kind pf (tok utf8) fuel r m (txt "dielectric") name s = consume_dielectric pf (tok utf8) r m name s.
Proof. reflexivity. Qed.
Lemma kind_glass fuel r m name (s : list text) : consume_kind pf (tok utf8) fuel r m (txt "glass") name s = consume_glass pf (tok utf8) r m name s.
Proof. reflexivity. Qed.
Lemma kind_sphere fuel r m name (s : list text) : consume_kind pf (tok utf8) fuel r m (txt "sphere") name s = consume_sphere pf (tok utf8) r m name s.
Proof. reflexivity. Qed.
Lemma kind_source fuel r m name (s : list text) : consume_kind pf (tok utf8) fuel r m (txt "source") name s = consume_source pf (tok utf8) r m name s.
Proof. reflexivity. Qed.
Lemma kind_polygon fuel r m name (s : list text) : consume_kind pf (tok utf8) fuel r m (txt "polygon") name s = consume_polygon pf (tok utf8) fuel r m name s.
Proof. reflexivity. Qed.
Lemma ok_inj {A} (a b : A) : Ok a = Ok b -> a = b.
Proof. congruence. Qed.
Lemma some_inj {A} (a b : A) : Some a = Some b -> a = b.
Proof. congruence. Qed.
Lemma material_step fuel names scene m k name args mat rest : material_read pf k args mat -> good (spoken (DMaterial m k name args)) ->
  tok_object utf8 pf fuel (names, scene) (spoken (DMaterial m k name args) ++ rest) = Some (Ok ((names ++ [name], snd (push_material scene mat)), rest)).
Proof.
  intros (v & V & M) G. unfold tok_object. cbn [spoken app] in G |- *. goods. rewrite tok_cons by assumption. cbn [obind]. rewrite tok_cons by assumption. cbn [obind]. rewrite tok_cons by assumption. cbn [obind].
  unfold material_meant in M.
  destruct v as [|v1 [|v2 [|v3 [|v4 [|v5 [|v6 v]]]]]]; cbv match in M; try discriminate M;
    repeat match goal with V : Forall2 _ _ (_ :: _) |- _ => inversion V; subst; clear V end;
    repeat match goal with V : Forall2 _ _ [] |- _ => inversion V; subst; clear V end; goods; unfold reads_as in *;
    cbn [length app] in *;
    match goal with |- context [show_nat ?n] => let t := constr:(txt (String (ascii_of_nat (48 + n)) EmptyString)) in let t := eval cbv in t in change (show_nat n) with t in * end.
  - change ["3"%char] with (txt "3") in *. destruct (text_eqb k (txt "light")) eqn:K; [|clear K; destruct (text_eqb k (txt "mirror")) eqn:K; [|clear K; destruct (text_eqb k (txt "glass")) eqn:K; [|discriminate M]]];
      apply text_eqb_true in K; subst k; apply some_inj in M; subst mat.
    + rewrite kind_light. unfold consume_light. reads. reflexivity.
    + rewrite kind_mirror. unfold consume_mirror. reads. reflexivity.
    + rewrite kind_glass. unfold consume_glass. reads. reflexivity.
  - change ["4"%char] with (txt "4") in *. destruct (text_eqb k (txt "glass")) eqn:K; [|discriminate M].
    apply text_eqb_true in K; subst k; apply some_inj in M; subst mat. rewrite kind_glass. unfold consume_glass. reads. reflexivity.
  - change ["5"%char] with (txt "5") in *. destruct (text_eqb k (txt "plastic")) eqn:K; [|clear K; destruct (text_eqb k (txt "metal")) eqn:K; [|clear K; destruct (text_eqb k (txt "dielectric")) eqn:K; [|discriminate M]]];
      apply text_eqb_true in K; subst k; apply some_inj in M; subst mat.
    + rewrite kind_plastic. unfold consume_plastic. reads. unfold Rltb, MIN_SPECULARITY. destruct (Rlt_dec v4 (1 / 10 ^ 5)); reflexivity.
    + rewrite kind_metal. unfold consume_metal. reads. unfold Rltb, MIN_SPECULARITY. destruct (Rlt_dec v4 (1 / 10 ^ 5)); reflexivity.
    + rewrite kind_dielectric. unfold consume_dielectric. reads. reflexivity.
Qed.

Fixpoint push_each (scene : RScene) (i : nat) (qs : list Primitive) : res RScene :=
  match qs with [] => Ok scene | q :: qs => do scene <- push_object scene i i q; push_each scene i qs end.
Lemma push_triangles_each i ts : forall scene, push_triangles scene i i ts = push_each scene i (map (fun t => PTriangle (t_a t) (t_b t) (t_c t)) ts).
Proof. induction ts as [|t ts IH]; intros scene; [reflexivity|]. cbn. destruct (push_object _ _ _ _); cbn; [apply IH|reflexivity..]. Qed.

Definition is_material (d : declaration) : bool := match d with DMaterial _ _ _ _ => true | _ => false end.

Lemma corner_unique corners : forall ps ps', Forall2 (corner_read pf) corners ps -> Forall2 (corner_read pf) corners ps' -> ps = ps'.
Proof.
  induction corners as [|[[x y] z] corners IH]; intros ps ps' H H'; inversion H as [|? [] ? ? C]; inversion H' as [|? [] ? ? C']; subst; [reflexivity|].
  destruct C as (X & Y & Z), C' as (X' & Y' & Z'). unfold reads_as in *. cbn in *. f_equal; [f_equal; congruence|now apply IH].
Qed.

Ltac same := unfold reads_as in *; repeat match goal with A : pf ?t = Some ?x, B : pf ?t = Some ?y |- _ => assert (x = y) by congruence; subst; clear B end.

Lemma object_step fuel names scene d rest : is_material d = false -> legible pf d -> good (spoken d) -> (length (spoken d) < fuel)%nat ->
  exists x, tok_object utf8 pf fuel (names, scene) (spoken d ++ rest) = back rest x /\
    forall r', x = Ok r' <-> exists i qs scene', first_at names (modifier_of d) i /\ stands_for pf d qs /\ push_each scene i qs = Ok scene' /\ r' = (names, scene').
Proof.
  intros IM L G F. destruct d as [m k name args|m name x y z w|m name x y z w|m name corners]; [discriminate| | |]; clear IM; unfold tok_object; cbn [modifier_of legible] in *.
  - cbn [spoken app] in G |- *. goods. destruct L as (a & b & c & r & A & B & C & D). unfold reads_as in *. reads. rewrite kind_sphere. unfold consume_sphere. reads.
    destruct (ShapesModel.sphere_new r (mkV a b c)) as [s| |] eqn:S; cbn [obind done].
    2,3: match goal with |- context [Some Err = _] => exists Err | _ => exists Panic end; split; [reflexivity|]; intros r'; split; [discriminate|]; intros (i & qs & scene' & _ & (a' & b' & c' & r1 & s' & A' & B' & C' & D' & S' & _) & _); same; congruence.
    exists (add_object (names, scene) m (PSphere s)). split; [destruct (add_object _ _ _); reflexivity|]. intros r'. unfold add_object.
    destruct (modifier_first names m) as [[i Hi]|N].
    + rewrite (modifier_index_spec _ _ 0 i Hi). cbn [bind Nat.add]. destruct (push_object scene i i (PSphere s)) as [sc| |] eqn:P; cbn [bind].
      * split; [intros E; injection E as <-; exists i, [PSphere s], sc; repeat split; try apply Hi; [exists a, b, c, r, s; auto 10|cbn [push_each]; now rewrite P]|].
        intros (i' & qs & scene' & Hi' & (a' & b' & c' & r1 & s' & A' & B' & C' & D' & S' & ->) & P' & ->). same. assert (i' = i) by (eapply first_at_unique; eauto). subst i'.
        rewrite S in S'. injection S' as <-. cbn [push_each] in P'. rewrite P in P'. cbn [bind push_each] in P'. apply ok_inj in P'. now subst.
      * split; [discriminate|]. intros (i' & qs & scene' & Hi' & (a' & b' & c' & r1 & s' & A' & B' & C' & D' & S' & ->) & P' & ->). same. assert (i' = i) by (eapply first_at_unique; eauto). subst i'.
        rewrite S in S'. injection S' as <-. cbn [push_each] in P'. rewrite P in P'. discriminate.
      * split; [discriminate|]. intros (i' & qs & scene' & Hi' & (a' & b' & c' & r1 & s' & A' & B' & C' & D' & S' & ->) & P' & ->). same. assert (i' = i) by (eapply first_at_unique; eauto). subst i'.
        rewrite S in S'. injection S' as <-. cbn [push_each] in P'. rewrite P in P'. discriminate.
    + rewrite (modifier_index_none _ _ 0 N). cbn. split; [discriminate|]. intros (i' & _ & _ & [Hi' _] & _). apply nth_error_In in Hi'. contradiction.
  - cbn [spoken app] in G |- *. goods. destruct L as (a & b & c & r & A & B & C & D). unfold reads_as in *. reads. rewrite kind_source. unfold consume_source. reads.
    destruct (source_new (mkV a b c) (r * (PI / 180))) as [s| |] eqn:S; cbn [obind done].
    2,3: match goal with |- context [Some Err = _] => exists Err | _ => exists Panic end; split; [reflexivity|]; intros r'; split; [discriminate|]; intros (i & qs & scene' & _ & (a' & b' & c' & r1 & s' & A' & B' & C' & D' & S' & _) & _); same; congruence.
    set (q := PSource (mkV a b c) (r * (PI / 180))).
    exists (add_object (names, scene) m q). split; [destruct (add_object _ _ _); reflexivity|]. intros r'. unfold add_object.
    destruct (modifier_first names m) as [[i Hi]|N].
    + rewrite (modifier_index_spec _ _ 0 i Hi). cbn [bind Nat.add]. destruct (push_object scene i i q) as [sc| |] eqn:P; cbn [bind].
      * split; [intros E; injection E as <-; exists i, [q], sc; repeat split; try apply Hi; [exists a, b, c, r, s; auto 10|cbn [push_each]; now rewrite P]|].
        intros (i' & qs & scene' & Hi' & (a' & b' & c' & r1 & s' & A' & B' & C' & D' & S' & ->) & P' & ->). same. assert (i' = i) by (eapply first_at_unique; eauto). subst i'.
        cbn [push_each] in P'. fold q in P'. rewrite P in P'. cbn [bind push_each] in P'. apply ok_inj in P'. now subst.
      * split; [discriminate|]. intros (i' & qs & scene' & Hi' & (a' & b' & c' & r1 & s' & A' & B' & C' & D' & S' & ->) & P' & ->). same. assert (i' = i) by (eapply first_at_unique; eauto). subst i'.
        cbn [push_each] in P'. fold q in P'. rewrite P in P'. discriminate.
      * split; [discriminate|]. intros (i' & qs & scene' & Hi' & (a' & b' & c' & r1 & s' & A' & B' & C' & D' & S' & ->) & P' & ->). same. assert (i' = i) by (eapply first_at_unique; eauto). subst i'.
        cbn [push_each] in P'. fold q in P'. rewrite P in P'. discriminate.
    + rewrite (modifier_index_none _ _ 0 N). cbn. split; [discriminate|]. intros (i' & _ & _ & [Hi' _] & _). apply nth_error_In in Hi'. contradiction.
  - destruct L as (Lt & ps & C).
    assert (CL : (length corners <= fuel)%nat).
    { cbn [spoken app length] in F. assert (Q : forall cs : list (text * text * text), (length cs <= length (flat_map (fun c => let '(x, y, z) := c in [x; y; z]) cs))%nat) by (induction cs as [|[[? ?] ?] cs IH]; cbn; lia).
      specialize (Q corners). lia. }
    remember (3 * length corners)%nat as n eqn:En. cbn [spoken] in G |- *. rewrite <- En in *. cbn [app] in G |- *.
    do 6 match goal with H : Forall _ (_ :: _) |- _ => inversion H; subst; clear H end.
    match goal with H : Forall _ (flat_map _ _) |- _ => rename H into GC end.
    reads. rewrite kind_polygon. unfold consume_polygon. reads. rewrite parse_show by assumption.
    replace ((3 * length corners) mod 3)%nat with 0%nat by (rewrite Nat.mul_comm, Nat.mod_mul; lia). cbn [Nat.eqb negb].
    rewrite (drawn_spec corners ps loop_new rest fuel C GC CL).
    pose (x := do l <- drawn loop_new ps; do i <- modifier_index names m 0; do l <- closed_loop l; do p <- poly_new l; do mesh <- triangulate p; do sc <- push_triangles scene i i (get_trilist mesh); Ok (names, sc)).
    exists x. split.
    { subst x. destruct (drawn loop_new ps) as [l| |]; cbn [obind done bind]; try reflexivity. destruct (modifier_index names m 0) as [i| |]; cbn [obind done bind]; try reflexivity.
      destruct (closed_loop l) as [l'| |]; cbn [obind done bind]; try reflexivity. destruct (poly_new l') as [p| |]; cbn [obind done bind]; try reflexivity.
      destruct (triangulate p) as [ms| |]; cbn [obind done bind]; try reflexivity. destruct (push_triangles scene i i (get_trilist ms)) as [sc| |]; reflexivity. }
    intros r'. subst x. split.
    + destruct (drawn loop_new ps) as [l| |] eqn:E1; cbn [bind]; try discriminate.
      destruct (modifier_first names m) as [[i Hi]|N]; [rewrite (modifier_index_spec _ _ 0 i Hi); cbn [bind Nat.add]|rewrite (modifier_index_none _ _ 0 N); discriminate].
      destruct (closed_loop l) as [l'| |] eqn:E2; cbn [bind]; try discriminate. destruct (poly_new l') as [p| |] eqn:E3; cbn [bind]; try discriminate.
      destruct (triangulate p) as [ms| |] eqn:E4; cbn [bind]; try discriminate. destruct (push_triangles scene i i (get_trilist ms)) as [sc| |] eqn:E5; cbn [bind]; try discriminate.
      intros E. injection E as <-. exists i, (map (fun p => PTriangle (t_a (tri p)) (t_b (tri p)) (t_c (tri p))) (pieces ms)), sc. split; [assumption|]. split; [exists ps, l, l', p, ms; auto 10|]. split; [|reflexivity].
      rewrite push_triangles_each in E5. unfold get_trilist in E5. now rewrite map_map in E5.
    + intros (i & qs & sc & Hi & (ps' & l & l' & p & ms & C' & E1 & E2 & E3 & E4 & ->) & E5 & ->). assert (ps' = ps) by (eapply corner_unique; eauto). subst ps'.
      rewrite E1. cbn [bind]. rewrite (modifier_index_spec _ _ 0 i Hi). cbn [bind Nat.add]. rewrite E2. cbn [bind]. rewrite E3. cbn [bind]. rewrite E4. cbn [bind].
      rewrite push_triangles_each. unfold get_trilist. rewrite map_map, E5. reflexivity.
Qed.

Definition no_cylinder (q : Primitive) : Prop := match q with PCylinder _ => False | _ => True end.
Lemma stands_plain d qs : stands_for pf d qs -> Forall no_cylinder qs.
Proof.
  destruct d; cbn [stands_for]; [intros []|intros (? & ? & ? & ? & ? & _ & _ & _ & _ & _ & ->)|intros (? & ? & ? & ? & ? & _ & _ & _ & _ & _ & ->)|intros (? & ? & ? & ? & ? & _ & _ & _ & _ & _ & ->)]; try (repeat constructor).
  apply Forall_map, Forall_forall. intros; exact I.
Qed.
Lemma Forall2_len {A B} (P : A -> B -> Prop) a b : Forall2 P a b -> length a = length b.
Proof. induction 1; cbn; congruence. Qed.
Lemma each_after mats i qs : (i < length mats)%nat -> Forall no_cylinder qs -> forall placed meshes scene', length placed = length meshes ->
  push_each (after mats placed meshes) i qs = Ok scene' <->
  exists ms, Forall2 (meshed (is_light mats i)) qs ms /\ scene' = after mats (placed ++ map (fun q => (q, i)) qs) (meshes ++ ms).
Proof.
  intros I. induction qs as [|q qs IH]; intros N placed meshes scene' L; cbn [push_each map].
  - split; [intros E; apply ok_inj in E; subst; exists []; split; [constructor|now rewrite !app_nil_r]|]. intros (ms & H & ->). inversion H. now rewrite !app_nil_r.
  - inversion N as [|? ? Nq N']; subst. pose proof (push_after mats placed meshes q i L I Nq) as P.
    destruct (push_object (after mats placed meshes) i i q) as [sc| |]; cbn [bind].
    + destruct (proj1 (P sc) eq_refl) as (m & Hm & ->). rewrite IH by (try assumption; rewrite !app_length; cbn; lia). split.
      * intros (ms & H & ->). exists (m :: ms). split; [now constructor|]. now rewrite <- !app_assoc.
      * intros (ms & H & ->). inversion H as [|? m' ? ms' H1 H2]; subst. exists ms'. split; [assumption|]. f_equal; [now rewrite <- app_assoc|].
        assert (m' = m); [|subst; now rewrite <- app_assoc].
        { clear - Hm H1. destruct q; cbn [meshed] in *; [..|destruct Hm]; try (rewrite Hm in H1; now apply ok_inj in H1). destruct Hm, H1; congruence. }
    + split; [discriminate|]. intros (ms & H & _). inversion H as [|? m ? ? H1]; subst. discriminate (proj2 (P _) (ex_intro _ m (conj H1 eq_refl))).
    + split; [discriminate|]. intros (ms & H & _). inversion H as [|? m ? ? H1]; subst. discriminate (proj2 (P _) (ex_intro _ m (conj H1 eq_refl))).
Qed.

Lemma reads_unique ts : forall v v', Forall2 (reads_as pf) ts v -> Forall2 (reads_as pf) ts v' -> v = v'.
Proof. induction ts as [|t ts IH]; intros v v' H H'; inversion H; inversion H'; subst; [reflexivity|]. unfold reads_as in *. f_equal; [congruence|now apply IH]. Qed.
Lemma material_unique k args m m' : material_read pf k args m -> material_read pf k args m' -> m = m'.
Proof. intros (v & V & M) (v' & V' & M'). rewrite (reads_unique _ _ _ V V') in M. congruence. Qed.

Lemma meshed_weaken mats more placed meshes : Forall (fun q => (snd q < length mats)%nat) placed ->
  (Forall2 (fun q m => meshed (is_light mats (snd q)) (fst q) m) placed meshes <-> Forall2 (fun q m => meshed (is_light (mats ++ more) (snd q)) (fst q) m) placed meshes).
Proof.
  intros F. split; intros H; (induction H as [|q ms placed meshes Hq H IH]; [constructor|]; inversion F; subst; constructor; [|now apply IH]).
  - unfold is_light. rewrite nth_error_app1 by assumption. exact Hq.
  - unfold is_light in *. rewrite nth_error_app1 in Hq by assumption. exact Hq.
Qed.
Lemma meshed_same mats i qs : forall ms, Forall2 (meshed (is_light mats i)) qs ms <-> Forall2 (fun q m => meshed (is_light mats (snd q)) (fst q) m) (map (fun q => (q, i)) qs) ms.
Proof.
  induction qs as [|q qs IH]; intros ms; cbn [map]; split; intros H; inversion H; subst; constructor; try assumption; now apply IH.
Qed.
Lemma spoken_cons d : exists w ws, spoken d = w :: ws.
Proof. destruct d; cbn; eauto. Qed.

Lemma objects_spec ds : forall turns fuel names mats placed meshes,
  Forall (legible pf) ds -> good (flat_map spoken ds) -> length names = length mats -> length placed = length meshes ->
  Forall (fun q => (snd q < length mats)%nat) placed -> (length ds <= turns)%nat -> (length (flat_map spoken ds) < fuel)%nat ->
  forall scene, (exists names', tok_objects utf8 pf turns fuel (names, after mats placed meshes) (flat_map spoken ds) = Some (Ok (names', scene))) <->
    exists mats' placed' meshes', materials_read pf ds mats' /\ places pf names ds placed' /\ all_meshed (mats ++ mats') placed' meshes' /\
      scene = after (mats ++ mats') (placed ++ placed') (meshes ++ meshes').
Proof.
  induction ds as [|d ds IH]; intros turns fuel names mats placed meshes Lg G Ln Lp Bd Ht Hf scene.
  - split.
    + intros (names' & E). exists [], [], []. cbn in E. rewrite !app_nil_r. destruct turns; injection E as <- <-; (repeat split; constructor).
    + intros (mats' & placed' & meshes' & M & P & A & ->). inversion M; subst. inversion P; subst. inversion A; subst. rewrite !app_nil_r. exists names. cbn. now destruct turns.
  - inversion Lg as [|? ? Ld Lds]; subst. cbn [flat_map] in G, Hf |- *. apply Forall_app in G. destruct G as [Gd Gds]. rewrite app_length in Hf.
    destruct turns as [|turns]; [cbn in Ht; lia|].
    assert (U : forall r, tok_objects utf8 pf (S turns) fuel r (spoken d ++ flat_map spoken ds) = obind (tok_object utf8 pf fuel r (spoken d ++ flat_map spoken ds)) (fun x => let '(r, ws) := x in tok_objects utf8 pf turns fuel r ws)).
    { intros r. destruct (spoken_cons d) as (w & ws & ->). reflexivity. }
    rewrite U. clear U. destruct (is_material d) eqn:IM.
    + destruct d as [m k name args| | |]; try discriminate. destruct Ld as [mat Rd]. rewrite (material_step fuel names _ m k name args mat _ Rd Gd). cbn [obind].
      rewrite material_after by assumption.
      rewrite IH by first [assumption | rewrite !app_length; cbn; lia | cbn in Ht; lia | eapply Forall_impl; [|exact Bd]; intros q Hq; cbn beta in Hq; rewrite app_length; lia].
      split.
      * intros (mats' & placed' & meshes' & M & P & A & ->). exists (mat :: mats'), placed', meshes'. rewrite <- app_assoc in *. split; [now constructor|]. split; [now constructor|]. split; [exact A|reflexivity].
      * intros (mats' & placed' & meshes' & M & P & A & ->). inversion M as [|? ? ? ? mat' ? mats'' R1 M1|? ? ? F1]; subst; [|destruct F1].
        assert (mat' = mat) by (eapply material_unique; eassumption). subst mat'. inversion P as [|? ? ? ? ? ? ? P1|? ? ? ? ? ? ? F1]; subst; [|cbn in F1; destruct F1].
        exists mats'', placed', meshes'. rewrite <- app_assoc. auto.
    + destruct (object_step fuel names (after mats placed meshes) d (flat_map spoken ds) IM Ld Gd ltac:(lia)) as (x & -> & Hx). split.
      * intros (names' & E). destruct x as [[n1 sc]| |]; cbn [back obind] in E; try discriminate.
        destruct (proj1 (Hx _) eq_refl) as (i & qs & sc' & Hi & St & Pe & Eq). injection Eq as -> ->.
        assert (Ii : (i < length mats)%nat) by (rewrite <- Ln; apply nth_error_Some; destruct Hi; congruence).
        apply (each_after mats i qs Ii (stands_plain _ _ St)) in Pe; [|assumption]. destruct Pe as (ms & Hm & ->).
        assert (Lm : length qs = length ms) by (eapply Forall2_len; eassumption).
        pose proof (ex_intro (fun n => _ = Some (Ok (n, scene))) names' E) as E'. apply IH in E';
          [|assumption|assumption|assumption|rewrite !app_length, map_length; lia|apply Forall_app; split; [assumption|apply Forall_map, Forall_forall; intros; exact Ii]|cbn in Ht; lia|lia].
        destruct E' as (mats' & placed' & meshes' & M & P & A & ->). exists mats', (map (fun q => (q, i)) qs ++ placed'), (ms ++ meshes'). rewrite <- !app_assoc.
        split; [apply mr_object; [destruct d; [discriminate|exact I..]|assumption]|]. split; [now constructor|]. split; [|reflexivity].
        apply Forall2_app; [|exact A]. apply (meshed_weaken mats); [apply Forall_map, Forall_forall; intros; exact Ii|]. now apply meshed_same.
      * intros (mats' & placed' & meshes' & M & P & A & ->). inversion M as [|? ? ? ? ? ? ? R1 M1|? ? ? F1 M1]; subst; [discriminate|].
        inversion P as [|? ? ? ? ? ? ? P1|? ? i qs ? placed1 Hi St P1]; subst; [discriminate|].
        assert (Ii : (i < length mats)%nat) by (rewrite <- Ln; apply nth_error_Some; destruct Hi; congruence).
        unfold all_meshed in A. apply Forall2_app_inv_l in A. destruct A as (ms & meshes1 & A1 & A2 & ->).
        apply (meshed_weaken mats) in A1; [|apply Forall_map, Forall_forall; intros; exact Ii]. apply meshed_same in A1.
        assert (Lm : length qs = length ms) by (eapply Forall2_len; eassumption).
        assert (Pe : push_each (after mats placed meshes) i qs = Ok (after mats (placed ++ map (fun q => (q, i)) qs) (meshes ++ ms))).
        { apply each_after; [assumption|eapply stands_plain; eassumption|assumption|]. exists ms. auto. }
        assert (Ex : x = Ok (names, after mats (placed ++ map (fun q => (q, i)) qs) (meshes ++ ms))) by (apply Hx; exists i, qs; eauto 10).
        rewrite Ex. cbn [back obind].
        rewrite IH; [|assumption|assumption|assumption|rewrite !app_length, map_length; lia|apply Forall_app; split; [assumption|apply Forall_map, Forall_forall; intros; exact Ii]|cbn in Ht; lia|lia].
        exists mats', placed1, meshes1. rewrite <- !app_assoc. auto.
Qed.

Lemma spoken_length ds : (length ds <= length (flat_map spoken ds))%nat.
Proof. induction ds as [|d ds IH]; [reflexivity|]. cbn [flat_map length]. rewrite app_length. destruct (spoken_cons d) as (w & ws & ->). cbn. lia. Qed.
End Proofs.

(** A file of legible declarations is read if and only if every object has a material declared before it and a good shape;
    and then the scene has those materials, triangles and lights, in order. *)
Theorem C107_scene : forall utf8 parse_float ds source fuel scene, parse_float [] = None ->
  words source = flat_map spoken ds -> Forall (fun w => utf8 w = true) (words source) -> Forall (legible parse_float) ds -> (length source < fuel)%nat ->
  from_radiance_source utf8 parse_float source fuel = Some (Ok scene) <->
  exists mats placed meshes, materials_read parse_float ds mats /\ places parse_float [] ds placed /\ all_meshed mats placed meshes /\ scene = after mats placed meshes.
Proof.
  intros utf8 pf ds source fuel scene Hpf W G Lg F. destruct (source_words utf8 pf Hpf source fuel F) as [-> _]. rewrite W in *. unfold read_words.
  pose proof (objects_spec utf8 pf ds (length (flat_map spoken ds)) (S (length (flat_map spoken ds))) [] [] [] [] Lg G eq_refl eq_refl (Forall_nil _) (spoken_length ds) (Nat.lt_succ_diag_r _) scene) as H.
  change (after [] [] []) with empty_scene in H. cbn [app] in H. rewrite <- H. clear H.
  destruct (tok_objects _ _ _ _ _ _) as [[[n sc]| |]|]; cbn [obind done snd]; split; try discriminate.
  - intros E. injection E as ->. now exists n.
  - intros (n' & E). injection E as -> ->. reflexivity.
  - intros (n' & E). discriminate.
  - intros (n' & E). discriminate.
  - intros (n' & E). discriminate.
Qed.

(** The numbers of the examples *)
Definition small_numbers (t : text) : option R :=
  if text_eqb t (txt "0") then Some 0 else if text_eqb t (txt "1") then Some 1 else if text_eqb t (txt "2") then Some 2 else None.
Definition lamp (value : string) : declaration := DMaterial (txt "void") (txt "light") (txt "lamp") [txt value; txt value; txt value].
Definition sun : declaration := DSource (txt "lamp") (txt "sun") (txt "0") (txt "0") (txt "1") (txt "2").
Lemma lamp_read v x : small_numbers (txt v) = Some x -> material_read small_numbers (txt "light") [txt v; txt v; txt v] (Light (mkS x x x)).
Proof. intros H. exists [x; x; x]. split; [repeat constructor; exact H|reflexivity]. Qed.
Lemma sun_read : stands_for small_numbers sun [PSource (mkV 0 0 1) (2 * (PI / 180))].
Proof.
  assert (S : exists s, source_new (mkV 0 0 1) (2 * (PI / 180)) = Ok s).
  { unfold source_new, vnormalize. replace (vlen2 (mkV 0 0 1)) with 1 by (cbv [vlen2 vdot vx vy vz]; lra).
    unfold Rltb. destruct (Rlt_dec (1 / 10 ^ 20) 1) as [_|N]; [cbn [bind]; eauto|]. exfalso. apply N. lra. }
  destruct S as [s S]. exists 0, 0, 1, 2, s. repeat split; assumption.
Qed.
Lemma sun_legible : legible small_numbers sun.
Proof. exists 0, 0, 1, 2. repeat split. Qed.

Definition one_lamp : text := txt "void light lamp 0 0 3 1 1 1" ++ [t_nl] ++ txt "lamp source sun 0 0 4 0 0 1 2" ++ [t_nl].
(** a lamp and a sun made of it *)
Example C107_sun : words one_lamp = flat_map spoken [lamp "1"; sun] /\ Forall (legible small_numbers) [lamp "1"; sun] /\
  exists scene, from_radiance_source (fun _ => true) small_numbers one_lamp 100 = Some (Ok scene) /\
    mats scene = [Light (mkS 1 1 1)] /\ lights scene = [] /\ triangles (geom scene) = [] /\
    distant_lights scene = [mkObject (PSource (mkV 0 0 1) (2 * (PI / 180))) 0 0].
Proof.
  assert (W : words one_lamp = flat_map spoken [lamp "1"; sun]) by reflexivity.
  assert (L : Forall (legible small_numbers) [lamp "1"; sun]) by (repeat constructor; [eexists; apply (lamp_read "1" 1); reflexivity|apply sun_legible]).
  split; [exact W|]. split; [exact L|].
  exists (after [Light (mkS 1 1 1)] [(PSource (mkV 0 0 1) (2 * (PI / 180)), 0%nat)] [([], [])]). split; [|repeat split].
  apply (C107_scene (fun _ => true) small_numbers [lamp "1"; sun] one_lamp 100); [reflexivity|exact W|apply Forall_forall; reflexivity|exact L|apply Nat.ltb_lt; reflexivity|].
  exists [Light (mkS 1 1 1)], [(PSource (mkV 0 0 1) (2 * (PI / 180)), 0%nat)], [([], [])]. split; [|split; [|split; [|reflexivity]]].
  - constructor; [apply (lamp_read "1" 1); reflexivity|]. apply mr_object; [exact I|constructor].
  - constructor. cbn [app]. apply (places_object small_numbers [txt "lamp"] sun 0 [PSource (mkV 0 0 1) (2 * (PI / 180))] [] []); [split; [reflexivity|lia]|apply sun_read|constructor].
  - constructor; [split; reflexivity|constructor].
Qed.

Definition two_lamps : text := txt "void light lamp 0 0 3 1 1 1 void light lamp 0 0 3 2 2 2 lamp source sun 0 0 4 0 0 1 2".
(** "An object is made of the last material of that name that comes before it", as in Radiance: of two lamps of one name, the first is used. *)
Theorem C107_redefined_refuted : words two_lamps = flat_map spoken [lamp "1"; lamp "2"; sun] /\
  exists scene, from_radiance_source (fun _ => true) small_numbers two_lamps 100 = Some (Ok scene) /\
    mats scene = [Light (mkS 1 1 1); Light (mkS 2 2 2)] /\
    map (fun o => nth_error (mats scene) (o_front o)) (distant_lights scene) = [Some (Light (mkS 1 1 1))].
Proof.
  assert (W : words two_lamps = flat_map spoken [lamp "1"; lamp "2"; sun]) by reflexivity.
  assert (L : Forall (legible small_numbers) [lamp "1"; lamp "2"; sun]) by (repeat constructor; [eexists; apply (lamp_read "1" 1); reflexivity|eexists; apply (lamp_read "2" 2); reflexivity|apply sun_legible]).
  split; [exact W|].
  exists (after [Light (mkS 1 1 1); Light (mkS 2 2 2)] [(PSource (mkV 0 0 1) (2 * (PI / 180)), 0%nat)] [([], [])]). split; [|repeat split].
  apply (C107_scene (fun _ => true) small_numbers [lamp "1"; lamp "2"; sun] two_lamps 100); [reflexivity|exact W|apply Forall_forall; reflexivity|exact L|apply Nat.ltb_lt; reflexivity|].
  exists [Light (mkS 1 1 1); Light (mkS 2 2 2)], [(PSource (mkV 0 0 1) (2 * (PI / 180)), 0%nat)], [([], [])]. split; [|split; [|split; [|reflexivity]]].
  - constructor; [apply (lamp_read "1" 1); reflexivity|]. constructor; [apply (lamp_read "2" 2); reflexivity|]. apply mr_object; [exact I|constructor].
  - constructor. constructor. cbn [app]. apply (places_object small_numbers [txt "lamp"; txt "lamp"] sun 0 [PSource (mkV 0 0 1) (2 * (PI / 180))] [] []); [split; [reflexivity|lia]|apply sun_read|constructor].
  - constructor; [split; reflexivity|constructor].
Qed.

(** "Comments are skipped": [one_lamp] is read (above), but with a comment before it the program panics. *)
Theorem C107_comment_refuted : exists comment, hd_error comment = Some "#"%char /\ ~ In t_nl comment /\
  forall parse_float fuel, parse_float [] = None -> (length (comment ++ [t_nl] ++ one_lamp) < fuel)%nat ->
    from_radiance_source (fun _ => true) parse_float (comment ++ [t_nl] ++ one_lamp) fuel = Some Panic.
Proof.
  exists (txt "# the lamp"). split; [reflexivity|]. split; [cbn; intuition discriminate|]. intros pf fuel H F. destruct (source_words (fun _ => true) pf H _ fuel F) as [-> _]. reflexivity.
Qed.

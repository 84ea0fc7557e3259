(** Properties C92 and C93: the scene of a building (rendering/src/from_simple_model.rs, rendering/src/scene.rs) and the light in it. *)
From Coquelicot Require Import Coquelicot.
From Coq Require Import String List Arith NArith ZArith Reals Bool Lra Lia Psatz Permutation.
From Verif.Matrix Require Import MatrixModel GaussSeidel.
From Verif.Common Require Import Base Flt.
From Verif.Geometry Require Import Vec BBoxModel TriangleModel TriangleProofs LoopModel MeshModel GeomProofs.
From Verif.Weather Require Import SkyModel PerezProofs.
From Verif.Rendering Require Import BvhModel BvhProofs SamplersModel DaylightModel MaterialModel SceneModel.
From Verif.Properties Require Import SamplersProps TriangleProps MeshProps BvhProps DaylightProps MaterialProps.
Import ListNotations.
Open Scope R_scope.
Open Scope list_scope.

(** ** C93: what is in the scene of a building *)

(** The surfaces that are not too small and the fenestrations that are not openings, with their kind and their position in the building *)
Definition numbered {A} (l : list A) : list (nat * A) := combine (seq 0 (length l)) l.
Definition seen (b : building) : list (SceneElement * nat * Polygon * string) :=
  map (fun x => (ESurface, fst x, s_polygon (snd x), s_construction (snd x))) (filter (fun x => negb (Rltb (p_area (s_polygon (snd x))) (1 / 10 ^ 5))) (numbered (surfaces b))) ++
  map (fun x => (EFenestration, fst x, f_polygon (snd x), f_construction (snd x))) (filter (fun x => negb (f_opening (snd x))) (numbered (fenestrations b))).
(** The material called [name] is made of a solid with these optical properties *)
Definition solid (b : building) (name : string) (o : optical) : Prop :=
  exists substance_name, named (materials b) name = Ok substance_name /\ named (substances b) substance_name = Ok (Normal o).
(** How an element appears: the triangles of its outline, the optical properties of its first layer in front and of its last layer behind *)
Definition appears (b : building) (el : SceneElement * nat * Polygon * string) (part : list Triangle3D * optical * optical) : Prop :=
  let '(_, _, polygon, construction) := el in
  let '(ts, front, back) := part in
  (exists mesh, triangulate polygon = Ok mesh /\ ts = map tri (pieces mesh)) /\
  exists first rest, named (constructions b) construction = Ok (first :: rest) /\ solid b first front /\ solid b (last (first :: rest) first) back.
Definition part_triangles (part : list Triangle3D * optical * optical) : list Triangle3D := fst (fst part).
Definition corners (t : Triangle3D) : Tri := mkTri (t_a t) (t_b t) (t_c t).
(** the material that stands for the optical properties *)
Definition solar_material (o : optical) : Material :=
  match substance_to_material (Normal o) Solar with Some m => m | None => Light BLACK end.
Definition per_part {A} (f : nat -> A) (parts : list (list Triangle3D * optical * optical)) : list A :=
  concat (map (fun x => repeat (f (fst x)) (length (part_triangles (snd x)))) (numbered parts)).

(** Materials, substances and constructions are looked up by name: the first of that name is taken. *)
Theorem C93_named : forall A (l : list (string * A)) name, (forall a, named l name = Ok a <-> exists before after, l = before ++ (name, a) :: after /\ ~ In name (map fst before)) /\
  (named l name = Err <-> ~ In name (map fst l)).
Proof.
  intros A l name. unfold named. induction l as [|(n & x) l (IH1 & IH2)]; cbn [find fst map].
  - split; [intros a; split; [discriminate|intros (before & after & H & _); destruct before; discriminate]|split; [intros _ []|reflexivity]].
  - destruct (String.eqb_spec n name) as [ -> |Ne].
    + split; [intros a; split|split].
      * intros H. injection H as ->. exists [], l. split; [reflexivity|intros []].
      * intros (before & after & H & Ni). destruct before as [|(n' & x') before]; [injection H as -> _; reflexivity|]. injection H as <- _ _. exfalso. apply Ni. left. reflexivity.
      * discriminate.
      * intros H. exfalso. apply H. left. reflexivity.
    + split; [intros a; split|split].
      * intros H. apply IH1 in H as (before & after & -> & Ni). exists ((n, x) :: before), after. split; [reflexivity|]. intros [I|I]; [exact (Ne I)|exact (Ni I)].
      * intros (before & after & H & Ni). apply IH1. destruct before as [|(n' & x') before]; [injection H as -> _ _; contradiction|]. injection H as -> -> ->. exists before, after. split; [reflexivity|]. intros I. apply Ni. right. exact I.
      * intros H. apply IH2 in H. intros [I|I]; [exact (Ne I)|exact (H I)].
      * intros H. apply IH2. intros I. apply H. right. exact I.
Qed.
Lemma named_not_panic {A} (l : list (string * A)) n : named l n <> Panic.
Proof. unfold named. destruct (find _ l) as [[]|]; discriminate. Qed.
Lemma solar_some o : substance_to_material (Normal o) Solar = Some (solar_material o). Proof. reflexivity. Qed.
Lemma solar_dark o : emits_light (solar_material o) = false.
Proof. unfold solar_material. cbn [substance_to_material]. destruct (Rltb 0 _); reflexivity. Qed.

Definition step (b : building) (st : RScene * list (SceneElement * nat)) (el : SceneElement * nat * Polygon * string) :=
  let '(e, i, p, c) := el in push_element b Solar e i p c st.
Fixpoint steps (b : building) (els : list (SceneElement * nat * Polygon * string)) (st : RScene * list (SceneElement * nat)) : res (RScene * list (SceneElement * nat)) :=
  match els with [] => Ok st | el :: els => do st <- step b st el; steps b els st end.
Lemma steps_app b x y st : steps b (x ++ y) st = do st <- steps b x st; steps b y st.
Proof. revert st. induction x as [|e x IH]; intros st; cbn [app steps bind]; [reflexivity|]. destruct (step b st e); cbn [bind]; [apply IH|reflexivity|reflexivity]. Qed.
Lemma push_surfaces_steps b l : forall i st, push_surfaces b Solar i l st =
  steps b (map (fun x => (ESurface, fst x, s_polygon (snd x), s_construction (snd x))) (filter (fun x => negb (Rltb (p_area (s_polygon (snd x))) (1 / 10 ^ 5))) (combine (seq i (length l)) l))) st.
Proof.
  induction l as [|x l IH]; intros i st; cbn [push_surfaces length seq combine filter]; [reflexivity|]. cbn [snd].
  destruct (Rltb (p_area (s_polygon x)) (1 / 10 ^ 5)); cbn [negb bind map steps]; [apply IH|]. cbn [step fst snd].
  destruct (push_element b Solar ESurface i (s_polygon x) (s_construction x) st); cbn [bind]; [apply IH|reflexivity|reflexivity].
Qed.
Lemma push_fenestrations_steps b l : forall i st, push_fenestrations b Solar i l st =
  steps b (map (fun x => (EFenestration, fst x, f_polygon (snd x), f_construction (snd x))) (filter (fun x => negb (f_opening (snd x))) (combine (seq i (length l)) l))) st.
Proof.
  induction l as [|x l IH]; intros i st; cbn [push_fenestrations length seq combine filter]; [reflexivity|]. cbn [snd].
  destruct (f_opening x); cbn [negb bind map steps]; [apply IH|]. cbn [step fst snd].
  destruct (push_element b Solar EFenestration i (f_polygon x) (f_construction x) st); cbn [bind]; [apply IH|reflexivity|reflexivity].
Qed.
Lemma build_steps b : build_scene b Solar = steps b (seen b) (empty_scene, []).
Proof.
  unfold build_scene, seen. rewrite steps_app, push_surfaces_steps. unfold numbered.
  destruct (steps b _ (empty_scene, [])); cbn [bind]; [apply push_fenestrations_steps|reflexivity|reflexivity].
Qed.

(** triangles pushed with dark materials *)
Lemma push_triangles_spec ts : forall s f k mf mk, nth_error (mats s) f = Some mf -> nth_error (mats s) k = Some mk -> emits_light mf = false -> emits_light mk = false ->
  (forall t, In t ts -> triangle_new (t_a t) (t_b t) (t_c t) = Ok t) ->
  exists ns, length ns = length ts /\ push_triangles s f k ts = Ok (mkRScene (mkScene (triangles (geom s) ++ map corners ts) (normals (geom s) ++ ns)
    (front_material_indexes (geom s) ++ repeat f (length ts)) (back_material_indexes (geom s) ++ repeat k (length ts))) (mats s) (lights s) (distant_lights s)).
Proof.
  induction ts as [|t ts IH]; intros s f k mf mk Ef Ek Df Dk V.
  - exists []. split; [reflexivity|]. cbn [push_triangles map repeat length]. rewrite !app_nil_r. destruct s as [[] ]; reflexivity.
  - cbn [push_triangles]. unfold push_object. rewrite Ef, Ek, Df, Dk. cbn [orb].
    assert (Mt : exists n, mesh_triangle (t_a t) (t_b t) (t_c t) = Ok ([corners t], [(n, n, n)])).
    { pose proof (V t (or_introl eq_refl)) as Vt. destruct (triangle_new_inv _ _ _ _ Vt) as (_ & _ & _ & _ & En & _). unfold mesh_triangle. unfold tri_normal in En. rewrite cross_shift in En. rewrite En. eexists. reflexivity. }
    destruct Mt as (n & ->). cbn [bind length repeat]. 
    match goal with |- context [push_triangles ?s' f k ts] => destruct (IH s' f k mf mk Ef Ek Df Dk) as (ns & Ln & E) end.
    { intros t' I. apply V. right. exact I. }
    rewrite E. cbn [geom triangles normals front_material_indexes back_material_indexes mats lights distant_lights].
    exists ((n, n, n) :: ns). split; [cbn; lia|]. do 2 f_equal. rewrite <- !app_assoc. cbn [app map length repeat]. reflexivity.
Qed.
Lemma substance_solid b name o : solid b name o <-> exists sn, get_material_substance b name = Ok (sn, Normal o).
Proof.
  unfold solid, get_material_substance. split.
  - intros (sn & -> & E). cbn [bind]. rewrite E. exists sn. reflexivity.
  - intros (sn & E). destruct (named (materials b) name) as [sn0| |] eqn:E1; try discriminate. cbn [bind] in E.
    destruct (named (substances b) sn0) as [x| |] eqn:E2; try discriminate. cbn [bind] in E. injection E as -> ->. exists sn. split; [reflexivity|exact E2].
Qed.
Definition extended (s : RScene) (part : list Triangle3D * optical * optical) (ns : list (pt * pt * pt)) : RScene :=
  let ts := part_triangles part in
  mkRScene (mkScene (triangles (geom s) ++ map corners ts) (normals (geom s) ++ ns)
    (front_material_indexes (geom s) ++ repeat (length (mats s)) (length ts)) (back_material_indexes (geom s) ++ repeat (S (length (mats s))) (length ts)))
    (mats s ++ [solar_material (snd (fst part)); solar_material (snd part)]) (lights s) (distant_lights s).
Lemma step_appears b s m el st' : step b (s, m) el = Ok st' -> exists part, appears b el part.
Proof.
  destruct el as [[[e i] p] c]. cbn [step]. unfold push_element. destruct (named (constructions b) c) as [layers| |] eqn:Ec; try discriminate. cbn [bind].
  destruct layers as [|first rest]; [discriminate|].
  destruct (get_material_substance b first) as [[sf fs]| |] eqn:Ef; try discriminate. cbn [bind]. unfold push_substance. cbn [no_modifiers get_modifier_index].
  destruct fs as [of|]; [|discriminate]. rewrite solar_some. cbn [push_material].
  destruct (get_material_substance b (last (first :: rest) first)) as [[sb bs]| |] eqn:Eb; try discriminate. cbn [bind].
  destruct bs as [ob|]; [|discriminate]. rewrite solar_some. cbn [push_material].
  destruct (triangulate p) as [mesh| |] eqn:Et; try discriminate. intros _.
  exists (map tri (pieces mesh), of, ob). split; [exists mesh; split; [exact Et|reflexivity]|]. exists first, rest. split; [exact Ec|].
  split; apply substance_solid; [exists sf|exists sb]; assumption.
Qed.
Lemma step_extended b s m e i p c part : appears b (e, i, p, c) part -> exists ns, length ns = length (part_triangles part) /\
  step b (s, m) (e, i, p, c) = Ok (extended s part ns, m ++ repeat (e, i) (length (part_triangles part))).
Proof.
  destruct part as [[ts of] ob]. intros ((mesh & Et & ->) & first & rest & Ec & Sf & Sb). apply substance_solid in Sf as (sf & Ef). apply substance_solid in Sb as (sb & Eb).
  cbn [step]. unfold push_element. rewrite Ec. cbn [bind]. rewrite Ef. cbn [bind]. unfold push_substance. cbn [no_modifiers get_modifier_index]. rewrite solar_some. unfold push_material at 1.
  rewrite Eb. cbn [bind]. rewrite solar_some. unfold push_material at 1. rewrite Et. cbn [bind].
  match goal with |- context [push_triangles ?s0 ?f ?k ?ts] => destruct (push_triangles_spec ts s0 f k (solar_material of) (solar_material ob)) as (ns & Ln & E) end.
  - cbn [mats geom lights distant_lights]. rewrite nth_error_app1, nth_error_app2, Nat.sub_diag by (try rewrite app_length; cbn; lia). reflexivity.
  - cbn [mats geom lights distant_lights]. rewrite nth_error_app2, Nat.sub_diag by lia. reflexivity.
  - apply solar_dark.
  - apply solar_dark.
  - intros t I. apply in_map_iff in I as (q & <- & Iq). destruct (C32_triangulate _ _ Et) as (l0 & l & _ & _ & _ & _ & _ & H & _). apply (H q Iq).
  - exists ns. unfold part_triangles. cbn [fst]. split; [exact Ln|]. rewrite E. cbn [bind]. unfold get_trilist, extended, part_triangles. cbn [fst snd mats geom lights distant_lights triangles normals front_material_indexes back_material_indexes].
    rewrite <- app_assoc, app_length. cbn [app length]. rewrite Nat.add_1_r. reflexivity.
Qed.
Definition per_from {A} (off : nat) (f : nat -> A) (parts : list (list Triangle3D * optical * optical)) : list A :=
  concat (map (fun x => repeat (f (fst x)) (length (part_triangles (snd x)))) (combine (seq off (length parts)) parts)).
Definition owners (els : list (SceneElement * nat * Polygon * string)) (parts : list (list Triangle3D * optical * optical)) : list (SceneElement * nat) :=
  concat (map (fun x => repeat (fst (fst (fst x))) (length (part_triangles (snd x)))) (combine els parts)).
Lemma steps_spec b els : forall off s m parts, length (mats s) = (2 * off)%nat -> Forall2 (appears b) els parts ->
  exists ns, length ns = length (concat (map part_triangles parts)) /\ steps b els (s, m) =
    Ok (mkRScene (mkScene (triangles (geom s) ++ map corners (concat (map part_triangles parts))) (normals (geom s) ++ ns)
      (front_material_indexes (geom s) ++ per_from off (fun k => (2 * k)%nat) parts) (back_material_indexes (geom s) ++ per_from off (fun k => (2 * k + 1)%nat) parts))
      (mats s ++ concat (map (fun part => [solar_material (snd (fst part)); solar_material (snd part)]) parts)) (lights s) (distant_lights s),
      m ++ owners els parts).
Proof.
  induction els as [|el els IH]; intros off s m parts L F; inversion F as [|? part ? parts' A F']; subst.
  - exists []. split; [reflexivity|]. cbn [steps map concat]. unfold per_from, owners. cbn [length seq combine map concat]. rewrite !app_nil_r. destruct s as [[] ]; reflexivity.
  - destruct el as [[[e i] p] c]. destruct (step_extended b s m e i p c part A) as (ns1 & L1 & E1). cbn [steps]. rewrite E1. cbn [bind].
    destruct (IH (S off) (extended s part ns1) (m ++ repeat (e, i) (length (part_triangles part))) parts') as (ns2 & L2 & E2); [unfold extended; cbn [mats]; rewrite app_length; cbn [length]; lia|exact F'|].
    rewrite E2. exists (ns1 ++ ns2). split; [cbn [map concat]; rewrite !app_length; lia|].
    unfold extended. cbn [geom mats lights distant_lights triangles normals front_material_indexes back_material_indexes].
    unfold per_from, owners. cbn [length seq combine map concat fst snd]. rewrite map_app, <- !app_assoc, L.
    replace (S (2 * off)) with (2 * off + 1)%nat by lia. reflexivity.
Qed.
Lemma steps_appear b els : forall st st', steps b els st = Ok st' -> exists parts, Forall2 (appears b) els parts.
Proof.
  induction els as [|el els IH]; intros [s m] st' E; [exists []; constructor|]. cbn [steps] in E.
  destruct (step b (s, m) el) as [st1| |] eqn:E1; try discriminate. cbn [bind] in E. destruct (step_appears _ _ _ _ _ E1) as (part & A).
  destruct (IH st1 st' E) as (parts & F). exists (part :: parts). constructor; assumption.
Qed.

(** C93: the scene can be built exactly when every element that is seen has an outline that can be cut into triangles and a construction
    whose outer layers are solids; the scene is then made of the triangles of the elements, in their order. *)
Theorem C93_scene : forall b,
  (forall scene owner, build_scene b Solar = Ok (scene, owner) -> exists parts, Forall2 (appears b) (seen b) parts) /\
  (forall parts, Forall2 (appears b) (seen b) parts -> exists scene owner, build_scene b Solar = Ok (scene, owner) /\
    triangles (geom scene) = map corners (concat (map part_triangles parts)) /\
    owner = concat (map (fun x => repeat (fst (fst (fst x))) (length (part_triangles (snd x)))) (combine (seen b) parts)) /\
    mats scene = concat (map (fun part => [solar_material (snd (fst part)); solar_material (snd part)]) parts) /\
    front_material_indexes (geom scene) = per_part (fun k => (2 * k)%nat) parts /\
    back_material_indexes (geom scene) = per_part (fun k => (2 * k + 1)%nat) parts /\
    length owner = length (triangles (geom scene)) /\ well_formed (geom scene) /\ lights scene = [] /\ distant_lights scene = []).
Proof.
  intros b. rewrite build_steps. split.
  - intros scene owner E. apply (steps_appear _ _ _ _ E).
  - intros parts F. destruct (steps_spec b (seen b) 0 empty_scene [] parts eq_refl F) as (ns & Ln & E). rewrite E. do 2 eexists. split; [reflexivity|].
    cbn [geom mats lights distant_lights triangles normals front_material_indexes back_material_indexes empty_scene app].
    split; [reflexivity|]. split; [reflexivity|]. split; [reflexivity|]. split; [reflexivity|]. split; [reflexivity|].
    assert (Lp : forall A (f : nat -> A) off, length (per_from off f parts) = length (concat (map part_triangles parts))).
    { clear. intros A f. unfold per_from. induction parts as [|x ps IH]; intros off; [reflexivity|]. cbn [length seq combine map concat fst snd]. rewrite !app_length, repeat_length, IH. reflexivity. }
    split.
    + rewrite map_length. clear - F. unfold owners. induction F as [|x y l l' A F IH]; [reflexivity|]. cbn [combine map concat fst snd]. rewrite !app_length, repeat_length, IH. reflexivity.
    + split; [|split; reflexivity]. unfold well_formed. cbn [geom mats lights distant_lights triangles normals front_material_indexes back_material_indexes app]. rewrite !map_length, !Lp. split; [exact Ln|]. split; reflexivity.
Qed.
Lemma nth_error_repeat' {A} (a : A) n k : (k < n)%nat -> nth_error (repeat a n) k = Some a.
Proof. revert k. induction n as [|n IH]; intros [|k] H; cbn; try lia; [reflexivity|]. apply IH. lia. Qed.
Lemma locate b els parts : Forall2 (appears b) els parts -> forall off k t, nth_error (concat (map part_triangles parts)) k = Some t ->
  exists j el part, nth_error els j = Some el /\ nth_error parts j = Some part /\ appears b el part /\ In t (part_triangles part) /\
    nth_error (owners els parts) k = Some (fst (fst el)) /\ (forall A (f : nat -> A), nth_error (per_from off f parts) k = Some (f (off + j)%nat)).
Proof.
  induction 1 as [|el part els parts A F IH]; intros off k t E; [destruct k; discriminate|]. cbn [map concat] in E.
  destruct (Nat.lt_ge_cases k (length (part_triangles part))) as [H|H].
  - rewrite nth_error_app1 in E by exact H. exists 0%nat, el, part. split; [reflexivity|]. split; [reflexivity|]. split; [exact A|]. split; [apply nth_error_In in E; exact E|].
    unfold owners, per_from. cbn [length seq combine map concat fst snd]. rewrite Nat.add_0_r. split; [|intros X f]; (rewrite nth_error_app1 by (rewrite repeat_length; exact H); apply nth_error_repeat'; exact H).
  - rewrite nth_error_app2 in E by exact H. destruct (IH (S off) _ _ E) as (j & el' & part' & E1 & E2 & A' & I & Eo & Ep). exists (S j), el', part'.
    split; [exact E1|]. split; [exact E2|]. split; [exact A'|]. split; [exact I|]. unfold owners, per_from in *. cbn [length seq combine map concat fst snd].
    split; [|intros X f]; (rewrite nth_error_app2 by (rewrite repeat_length; exact H); rewrite repeat_length); [exact Eo|]. rewrite Ep. do 2 f_equal. lia.
Qed.
Lemma mats_nth (parts : list (list Triangle3D * optical * optical)) : forall j part, nth_error parts j = Some part ->
  nth_error (concat (map (fun part => [solar_material (snd (fst part)); solar_material (snd part)]) parts)) (2 * j) = Some (solar_material (snd (fst part))) /\
  nth_error (concat (map (fun part => [solar_material (snd (fst part)); solar_material (snd part)]) parts)) (2 * j + 1) = Some (solar_material (snd part)).
Proof.
  induction parts as [|p parts IH]; intros [|j] part E; try discriminate; cbn [nth_error map concat app] in *.
  - injection E as ->. split; reflexivity.
  - destruct (IH j part E) as (E1 & E2). replace (2 * S j)%nat with (S (S (2 * j))) by lia. replace (S (S (2 * j)) + 1)%nat with (S (S (2 * j + 1))) by lia. cbn [nth_error]. split; assumption.
Qed.
(** Every triangle of the scene belongs to the element that is written down for it, lies within its outline's mesh, and has the materials
    of the first and of the last layer of its construction. *)
Theorem C93_triangle : forall b scene owner, build_scene b Solar = Ok (scene, owner) -> forall k t, nth_error (triangles (geom scene)) k = Some t ->
  exists e i polygon construction mesh q front back f r, nth_error owner k = Some (e, i) /\ In (e, i, polygon, construction) (seen b) /\
    triangulate polygon = Ok mesh /\ In q (pieces mesh) /\ t = mkTri (t_a (tri q)) (t_b (tri q)) (t_c (tri q)) /\
    (exists first rest, named (constructions b) construction = Ok (first :: rest) /\ solid b first front /\ solid b (last (first :: rest) first) back) /\
    nth_error (front_material_indexes (geom scene)) k = Some f /\ nth_error (mats scene) f = substance_to_material (Normal front) Solar /\
    nth_error (back_material_indexes (geom scene)) k = Some r /\ nth_error (mats scene) r = substance_to_material (Normal back) Solar.
Proof.
  intros b scene owner E k t Et. destruct (C93_scene b) as (H1 & H2). destruct (H1 _ _ E) as (parts & F). destruct (H2 _ F) as (scene' & owner' & E' & T & O & M & Fi & Bi & _).
  rewrite E in E'. injection E' as <- <-. rewrite T, nth_error_map in Et. destruct (nth_error (concat (map part_triangles parts)) k) as [q|] eqn:Eq; [|discriminate]. injection Et as <-.
  destruct (locate b _ _ F 0%nat k q Eq) as (j & el & part & J1 & J2 & A & I & Ow & P). destruct el as [[[e i] polygon] construction]. destruct part as [[ts of] ob].
  destruct (mats_nth _ _ _ J2) as (M1 & M2). cbn [fst snd] in *. destruct A as ((mesh & Em & ->) & L). unfold part_triangles in I. cbn [fst] in I. apply in_map_iff in I as (p & <- & Ip).
  exists e, i, polygon, construction, mesh, p, of, ob, (2 * j)%nat, (2 * j + 1)%nat. rewrite O, Fi, Bi, M. split; [exact Ow|]. split; [apply nth_error_In in J1; exact J1|].
  split; [exact Em|]. split; [exact Ip|]. split; [reflexivity|]. split; [exact L|]. rewrite !solar_some. split; [apply (P _ (fun k => (2 * k)%nat))|]. split; [exact M1|].
  split; [apply (P _ (fun k => (2 * k + 1)%nat))|exact M2].
Qed.

(** ** C93: what the optical properties become *)

(** the constants of [transmittance_to_transmissivity] *)
Lemma transmissivity_root t : 0 < t -> let x := transmittance_to_transmissivity t in
  let a := 8402528435 / 10 ^ 10 in let b := 72522239 / 10 ^ 10 in let c := 9166530661 / 10 ^ 10 in let d := 36261119 / 10 ^ 10 in
  0 <= c + d * t * x /\ (c + d * t * x) ^ 2 = a + b * t ^ 2.
Proof.
  intros T x a b c d. assert (E : c + d * t * x = sqrt (a + b * t ^ 2)). { unfold x, transmittance_to_transmissivity. fold a b c d. unfold d. field. lra. }
  rewrite E. assert (0 <= t ^ 2) by (apply pow2_ge_0). split; [apply sqrt_pos|]. rewrite <- Rsqr_pow2. apply Rsqr_sqrt. unfold a, b. lra.
Qed.
(** It is above 0.1% from a transmittance of 0.1% on, is at most one up to 91.8% and exceeds one from 91.9% on. *)
Theorem C93_transmissivity : forall t, (1 / 1000 <= t -> 1 / 1000 < transmittance_to_transmissivity t) /\ (0 <= t <= 918 / 1000 -> transmittance_to_transmissivity t <= 1) /\
  (919 / 1000 <= t -> 1 < transmittance_to_transmissivity t).
Proof.
  intros t. split; [|split]; intros H.
  - destruct (transmissivity_root t ltac:(lra)) as (P & Q). cbv zeta in P, Q. set (x := transmittance_to_transmissivity t) in *. clearbody x.
    destruct (Rlt_le_dec (1 / 1000) x) as [X|X]; [exact X|exfalso]. assert (t * x <= t * (1 / 1000)) by nra.
    assert (D : (9166530661 / 10 ^ 10 + 36261119 / 10 ^ 10 * t * x) ^ 2 <= (9166530661 / 10 ^ 10 + 36261119 / 10 ^ 10 * (t * (1 / 1000))) ^ 2) by nra. nra.
  - destruct (Req_dec t 0) as [->|Z].
    + unfold transmittance_to_transmissivity, Rdiv at 1. rewrite Rinv_0, Rmult_0_r. lra.
    + destruct (transmissivity_root t ltac:(lra)) as (P & Q). cbv zeta in P, Q. set (x := transmittance_to_transmissivity t) in *. clearbody x.
      destruct (Rle_lt_dec x 1) as [X|X]; [exact X|exfalso]. assert (t < t * x) by nra. 
      assert (D : (9166530661 / 10 ^ 10 + 36261119 / 10 ^ 10 * t) ^ 2 < (9166530661 / 10 ^ 10 + 36261119 / 10 ^ 10 * t * x) ^ 2) by nra. nra.
  - destruct (transmissivity_root t ltac:(lra)) as (P & Q). cbv zeta in P, Q. set (x := transmittance_to_transmissivity t) in *. clearbody x.
    destruct (Rlt_le_dec 1 x) as [X|X]; [exact X|exfalso]. assert (t * x <= t) by nra.
    assert (D : (9166530661 / 10 ^ 10 + 36261119 / 10 ^ 10 * t * x) ^ 2 <= (9166530661 / 10 ^ 10 + 36261119 / 10 ^ 10 * t) ^ 2) by nra. nra.
Qed.
(** A solid that lets nothing through is matte and scatters what it does not absorb: in every direction and for every draw the light is
    multiplied by one minus the absorptance (0.7 where none is given). *)
Theorem C93_opaque : forall o G (gen : G -> R * G) fuel d i eta g, match solar_transmittance o with None => True | Some t => t = 0 end -> draws01 gen -> arrives d i ->
  exists m s i' g', substance_to_material (Normal o) Solar = Some m /\ sample_bsdf gen fuel m d i eta g = Ok (Some (Some s, i', eta, g')) /\ is_reflection s = true /\
    factor i s = gray (1 - match front_solar_absorbtance o with Some a => a | None => 7 / 10 end).
Proof.
  intros o G gen fuel d i eta g T D A. set (al := match front_solar_absorbtance o with Some a => a | None => 7 / 10 end).
  assert (E : substance_to_material (Normal o) Solar = Some (Plastic (gray (1 - al)) 0 0)).
  { cbn [substance_to_material]. fold al. assert (X : match solar_transmittance o with Some v => transmittance_to_transmissivity v | None => 0 end = 0).
    { destruct (solar_transmittance o) as [t|]; [|reflexivity]. subst t. unfold transmittance_to_transmissivity, Rdiv at 1. rewrite Rinv_0. ring. }
    rewrite X. rewrite (proj2 (Rltb_false _ _)) by lra. reflexivity. }
  destruct (C91_matte G gen fuel false (gray (1 - al)) 0 d i eta g D A) as (s & i' & g' & Es & F). cbn [fst snd] in Es.
  exists (Plastic (gray (1 - al)) 0 0), s, i', g'. split; [exact E|]. split; [exact Es|]. split; [|exact F].
  destruct (C91_ward G gen fuel false (gray (1 - al)) 0 0 d i eta g s i' eta g' D A Es) as (_ & [(_ & Fl & _)|(_ & Fl & _)]); unfold is_reflection; rewrite Fl; reflexivity.
Qed.

Lemma pane_round_trip t : 1 / 1000 <= t <= 918 / 1000 -> let x := transmittance_to_transmissivity t in
  let f := (13 / 63) ^ 2 in Rabs (pane_trans f x - t) <= 2 / 10 ^ 8 / t.
Proof.
  intros T x f. destruct (C93_transmissivity t) as (X0 & X1 & _). specialize (X0 ltac:(lra)). specialize (X1 ltac:(lra)). fold x in X0, X1.
  destruct (transmissivity_root t ltac:(lra)) as (_ & Q). cbv zeta in Q. fold x in Q. clearbody x.
  assert (D : 99 / 100 < 1 - (x * f) ^ 2 <= 1). { assert (0 <= x * f <= 5 / 100) by (unfold f; lra). nra. }
  set (y := x * f) in *. assert (Ey : pane_trans f x - t = (x * (1 - f) ^ 2 - t * (1 - y ^ 2)) / (1 - y ^ 2)). { unfold pane_trans. fold y. field. lra. }
  rewrite Ey. unfold Rdiv at 1. rewrite Rabs_mult, (Rabs_right (/ _)) by (apply Rle_ge, Rlt_le, Rinv_0_lt_compat; lra).
  apply Rmult_le_reg_r with ((1 - y ^ 2) * t); [nra|]. replace (Rabs (x * (1 - f) ^ 2 - t * (1 - y ^ 2)) * / (1 - y ^ 2) * ((1 - y ^ 2) * t)) with (Rabs (x * (1 - f) ^ 2 - t * (1 - y ^ 2)) * t) by (field; lra).
  replace (2 / 10 ^ 8 / t * ((1 - y ^ 2) * t)) with (2 / 10 ^ 8 * (1 - y ^ 2)) by (field; lra).
  rewrite <- (Rabs_right t) at 2 by lra. rewrite <- Rabs_mult. unfold y, f in *.
  assert (E : x * t = ((72522239 / 10 ^ 10 - (36261119 / 10 ^ 10 * x) ^ 2) * t ^ 2 + (8402528435 / 10 ^ 10 - (9166530661 / 10 ^ 10) ^ 2)) / (2 * (9166530661 / 10 ^ 10) * (36261119 / 10 ^ 10))) by (field_simplify_eq; lra).
  replace ((x * (1 - (13 / 63) ^ 2) ^ 2 - t * (1 - (x * (13 / 63) ^ 2) ^ 2)) * t) with ((x * t) * (1 - (13 / 63) ^ 2) ^ 2 - t ^ 2 * (1 - x ^ 2 * (13 / 63) ^ 4)) by ring.
  rewrite E. assert (U : 0 <= t ^ 2 <= 85 / 100) by nra. assert (V : 0 <= x ^ 2 <= 1) by nra. assert (W : 0 <= t ^ 2 * x ^ 2 <= 85 / 100) by nra.
  apply Rabs_le. split; lra.
Qed.
(** A pane with a transmittance between 0.1% and 91.8% lets through, of light that falls on it at right angles and on the average over
    the draws, that transmittance: the error is below 2e-8 over the transmittance. *)
Theorem C93_pane : forall o t, solar_transmittance o = Some t -> 1 / 1000 <= t <= 918 / 1000 ->
  exists x, substance_to_material (Normal o) Solar = Some (Glass (gray x) (152 / 100)) /\ 0 < x <= 1 /\
  forall d i, arrives d i -> vdot d (normal_of i) = -1 -> exists p through, 0 < p < 1 /\ Rabs (through - t) <= 2 / 10 ^ 8 / t /\
  forall G (gen : G -> R * G) fuel eta g, draws01 gen -> exists s i', sample_bsdf gen fuel (Glass (gray x) (152 / 100)) d i eta g = Ok (Some (Some s, i', eta, snd (gen g))) /\
    (fst (gen g) <= p -> is_reflection s = true /\ b_wi s = vscale d (-1)) /\
    (p < fst (gen g) -> is_transmission s = true /\ b_wi s = d /\ sscale (factor i s) (1 - p) = gray through).
Proof.
  intros o t Eo T. destruct (C93_transmissivity t) as (X0 & X1 & _). specialize (X0 ltac:(lra)). specialize (X1 ltac:(lra)). exists (transmittance_to_transmissivity t). split.
  { cbn [substance_to_material]. rewrite Eo, (proj2 (Rltb_true 0 (transmittance_to_transmissivity t)) ltac:(lra)). reflexivity. }
  split; [lra|]. pose proof (pane_round_trip t T) as Rt. cbv zeta in Rt. set (x := transmittance_to_transmissivity t) in *. clearbody x. intros d i A Dn.
  pose proof min_colour_pos as Mc.
  assert (Xm : MIN_COLOUR < x) by (unfold MIN_COLOUR in *; lra).
  assert (Cg : channels (fun v => 0 <= v <= 1) (gray x)) by (unfold channels, gray; cbn [red green blue]; split; [|split]; lra).
  pose proof (proj1 (smax_spec (gray x))) as Sg. cbn [gray red] in Sg.
  destruct (C90_glass (gray x) (152 / 100) d i A ltac:(lra) Cg ltac:(lra)) as (cos2 & f & u & p & Rf & Tr & Fc & Ch & Ep & Pp & H).
  destruct Fc as (C0 & C1 & Ef & Eu & F0 & U0). rewrite Dn in C1, Ef, Eu.
  assert (C2 : cos2 = 1) by nra. subst cos2.
  assert (Ef' : f = (13 / 63) ^ 2) by (rewrite Ef; field). assert (Eu' : u = (13 / 63) ^ 2) by (rewrite Eu; field).
  assert (TrE : Tr = gray (pane_trans ((13 / 63) ^ 2) x)).
  { apply spectrum_three. intros chan I. destruct (Ch chan I) as (_ & _ & (v & w & Pv & Pw & Et) & _).
    assert (Ec : Rpower (Rmax (chan (gray x)) MIN_COLOUR) (1 / 1) = x).
    { rewrite (proj2 (proj2 (proj2 (three_ops chan BLACK x I)))), Rmax_left by lra. replace (1 / 1) with 1 by field. apply Rpower_1. lra. }
    rewrite Ec in Pv, Pw. assert (Xx : 0 <= x <= 1) by lra. assert (Ff : 0 <= f < 1) by lra.
    pose proof (passed_unique f x v Ff Xx Pv) as Ev. pose proof (passed_unique u x w U0 Xx Pw) as Ew. rewrite Et, Ev, Ew, Ef', Eu'.
    rewrite (proj2 (proj2 (proj2 (three_ops chan BLACK _ I)))). field. }
  exists p, (pane_trans ((13 / 63) ^ 2) x). split; [exact Pp|]. split; [exact Rt|]. intros G gen fuel eta g D.
  assert (Big : 1 / 10 ^ 19 <= radiance Tr).
  { rewrite TrE, radiance_gray. assert (2 / 10 ^ 8 / t <= 1 / 10000). { apply Rmult_le_reg_r with t; [lra|]. unfold Rdiv at 1. rewrite Rmult_assoc, Rinv_l by lra. lra. }
    destruct (Rabs_def2 (pane_trans ((13 / 63) ^ 2) x - t) (1 / 5000) ltac:(lra)) as (_ & B). lra. }
  destruct (H G gen fuel eta g D) as (_ & H2). destruct (H2 (or_intror Big)) as (s & i' & Es & _ & Hr & Ht). exists s, i'. split; [exact Es|]. split.
  - intros L. destruct (Hr L) as (R1 & R2 & _). split; [exact R1|]. rewrite R2. unfold mirrored. rewrite Dn.
    destruct (arrives_frame d i A) as (Fr & _ & Ld). 
    assert (En : normal_of i = vscale d (-1)).
    { assert (N2 : vlen2 (normal_of i) = 1) by apply Fr. clear - N2 Ld Dn. destruct (normal_of i) as [a b c], d as [x y z]. unfold vlen2, vdot in *. cbn [vx vy vz] in *.
      assert (Z : (a + x) * (a + x) + (b + y) * (b + y) + (c + z) * (c + z) = 0) by lra. 
      pose proof (Rle_0_sqr (a + x)) as Q1. pose proof (Rle_0_sqr (b + y)) as Q2. pose proof (Rle_0_sqr (c + z)) as Q3. unfold Rsqr in Q1, Q2, Q3.
      assert (Za : (a + x) * (a + x) = 0) by lra. assert (Zb : (b + y) * (b + y) = 0) by lra. assert (Zc : (c + z) * (c + z) = 0) by lra.
      unfold vscale. cbn [vx vy vz]. f_equal; [destruct (Rmult_integral _ _ Za)|destruct (Rmult_integral _ _ Zb)|destruct (Rmult_integral _ _ Zc)]; lra. }
    rewrite En. vring.
  - intros L. destruct (Ht L) as (T1 & T2 & T3). split; [exact T1|]. split; [exact T2|]. rewrite T3. exact TrE.
Qed.

(** ** C92: light in a scene *)

(** Materials that never return more light than they receive: matte or mirroring with colours up to one, or a grey pane *)
Definition passive (m : Material) : Prop :=
  match m with
  | Diffuse c | Mirror c => channels (fun v => 0 <= v <= 1) c
  | Plastic c specularity _ | Metal c specularity _ => specularity = 0 /\ channels (fun v => 0 <= v <= 1) c
  | Light _ => True
  | Glass c n => 1 < n /\ exists v, c = gray v /\ 0 <= v <= 1
  | Dielectric _ _ => False
  end.
(** For every direction and every draw, a passive material either absorbs the ray or sends it on with a factor of at most one. *)
Theorem C92_passive : forall G (gen : G -> R * G) fuel m d i eta g, draws01 gen -> arrives d i -> passive m ->
  exists s i' eta' g', sample_bsdf gen fuel m d i eta g = Ok (Some (s, i', eta', g')) /\
    match s with None => True | Some s => vlen (b_wi s) = 1 /\ it_info i' = it_info i /\ channels (fun v => 0 <= v <= 1) (factor i s) end.
Proof.
  intros G gen fuel m d i eta g D A P.
  assert (Fin : forall s i' eta' g', sample_bsdf gen fuel m d i eta g = Ok (Some (Some s, i', eta', g')) -> channels (fun v => 0 <= v <= 1) (factor i s) ->
    exists s i' eta' g', sample_bsdf gen fuel m d i eta g = Ok (Some (s, i', eta', g')) /\
    match s with None => True | Some s => vlen (b_wi s) = 1 /\ it_info i' = it_info i /\ channels (fun v => 0 <= v <= 1) (factor i s) end).
  { intros s i' eta' g' E F. exists (Some s), i', eta', g'. split; [exact E|]. 
    assert (Pr : proper m d i eta). { destruct m; cbn [proper passive] in *; try exact I; try contradiction. destruct P as (N & v & -> & V). split; [exact N|]. unfold channels, gray. cbn [red green blue]. auto. }
    destruct (C86_sides G gen fuel m d i eta g s i' eta' g' D A Pr E) as (L & _ & In & _). split; [exact L|]. split; [exact In|exact F]. }
  destruct m as [c sp ro|c sp ro|c|c|c|c n|c n]; cbn [passive] in P.
  - destruct P as (-> & P). destruct (C91_matte G gen fuel false c ro d i eta g D A) as (s & i' & g' & E & F). apply (Fin s i' eta g' E). rewrite F. exact P.
  - destruct P as (-> & P). destruct (C91_matte G gen fuel true c ro d i eta g D A) as (s & i' & g' & E & F). apply (Fin s i' eta g' E). rewrite F. exact P.
  - destruct (C87_diffuse G gen fuel c d i eta g D A) as (s & i' & g' & E & F & _). apply (Fin s i' eta g' E). rewrite F. exact P.
  - exists None, i, eta, g. split; [apply C87_light|exact I].
  - destruct (C87_mirror G gen fuel c d i eta g A) as (s & i' & E & F & _). apply (Fin s i' eta g E). rewrite F. exact P.
  - contradiction.
  - destruct P as (N & v & -> & V).
    assert (Tot : exists s i' eta' g', sample_bsdf gen fuel (Glass (gray v) n) d i eta g = Ok (Some (s, i', eta', g'))).
    { unfold sample_bsdf. cbn [local_sample]. destruct (glass_sample gen (gray v) n _ TRANS_ALL g) as [[s|] g1]; cbn [bind]; do 4 eexists; reflexivity. }
    destruct Tot as ([s|] & i' & eta' & g' & E).
    + apply (Fin s i' eta' g' E). apply (C90_gray v n d i G gen fuel eta g s i' eta' g' A N V D E).
    + exists None, i', eta', g'. split; [exact E|exact I].
Qed.

(** *** Rays that hit something *)
Definition edge_ok (t : Tri) : Prop := 1 / 10 ^ 20 < vlen2 (vsub (tb t) (ta t)).
Lemma normalize_ok a : 1 / 10 ^ 20 < vlen2 a -> exists u, vnormalize a = Ok u.
Proof. intros H. unfold vnormalize. rewrite (proj2 (Rltb_true _ _) H). eexists. reflexivity. Qed.
Lemma lagrange a b : vlen2 (vcross a b) = vlen2 a * vlen2 b - (vdot a b) ^ 2.
Proof. destruct a as [a1 a2 a3], b as [b1 b2 b3]. unfold vlen2, vcross, vdot. cbn [vx vy vz]. ring. Qed.
Lemma tiny_20 : 1 / 10 ^ 20 < 1. Proof. lra. Qed.
Lemma hit_arrives ray t p u v : vlen (direction ray) = 1 -> edge_ok t -> baricentric_coordinates ray t = Some (p, u, v) ->
  exists info, new_info t p (direction ray) = Ok info /\ i_side info <> NonApplicable.
Proof.
  intros L Eg B. set (n := vcross (vsub (tb t) (ta t)) (vsub (tc t) (ta t))).
  assert (Dt : 1 / 10 ^ 5 <= Rabs (vdot (direction ray) n)).
  { unfold baricentric_coordinates in B. set (a := vdot (vsub (tb t) (ta t)) (vcross (direction ray) (vsub (tc t) (ta t)))) in *.
    assert (Ea : a = - vdot (direction ray) n) by (unfold a, n, vdot, vcross; cbn [vx vy vz]; ring).
    destruct (Rltb a (1 / 10 ^ 5)) eqn:E1; cbn [andb] in B.
    - destruct (Rltb (- (1 / 10 ^ 5)) a) eqn:E2; [discriminate|]. apply Rltb_false in E2. rewrite Rabs_right by lra. lra.
    - apply Rltb_false in E1. rewrite Rabs_left1 by lra. lra. }
  assert (Dl : vlen2 (direction ray) = 1) by (pose proof (vlen_sqr (direction ray)) as Q; rewrite L in Q; lra).
  assert (Nl : 1 / 10 ^ 10 <= vlen2 n).
  { assert (Cs : (vdot (direction ray) n) ^ 2 <= vlen2 (direction ray) * vlen2 n). { pose proof (lagrange (direction ray) n) as Lg. assert (0 <= vlen2 (vcross (direction ray) n)) by (unfold vlen2; nra). lra. }
    rewrite Dl in Cs. assert ((1 / 10 ^ 5) ^ 2 <= (vdot (direction ray) n) ^ 2) by (rewrite <- (pow2_abs (vdot (direction ray) n)); apply pow_incr; lra). lra. }
  unfold new_info. fold n. destruct (normalize_ok n ltac:(lra)) as (m & Em). rewrite Em. cbn [bind]. destruct (vnormalize_unit _ _ Em) as (M1 & k & K & Ek).
  assert (Dm : vdot m (direction ray) <> 0). { intros Z. rewrite Ek in Dt. assert (Zz : vdot (direction ray) (vscale m k) = 0) by (transitivity (k * vdot m (direction ray)); [unfold vdot, vscale; cbn [vx vy vz]; ring|rewrite Z; ring]). rewrite Zz, Rabs_R0 in Dt. lra. }
  destruct (normalize_ok _ Eg) as (e1 & E1). destruct (vnormalize_unit _ _ E1) as (L1 & k1 & K1 & Ek1).
  assert (Me : vdot m e1 = 0). { assert (Z : vdot n (vsub (tb t) (ta t)) = 0) by (unfold n, vdot, vcross; cbn [vx vy vz]; ring). rewrite Ek, Ek1 in Z. assert (Z' : k * k1 * vdot m e1 = 0) by (rewrite <- Z; unfold vdot, vscale; cbn [vx vy vz]; ring). apply Rmult_integral in Z' as [Z'|Z']; [|exact Z']. apply Rmult_integral in Z'; lra. }
  unfold get_side. destruct (Rltb (vdot m (direction ray)) 0) eqn:S1; [|destruct (Rltb 0 (vdot m (direction ray))) eqn:S2].
  - rewrite E1. cbn [bind]. destruct (normalize_ok (vcross m e1)) as (e2 & ->). { rewrite lagrange, M1, L1, Me. lra. } cbn [bind]. eexists. split; [reflexivity|discriminate].
  - rewrite E1. cbn [bind]. destruct (normalize_ok (vcross (vscale m (-1)) e1)) as (e2 & ->).
    { replace (vlen2 (vcross (vscale m (-1)) e1)) with (vlen2 (vcross m e1)) by (unfold vlen2, vcross, vscale; cbn [vx vy vz]; ring). rewrite lagrange, M1, L1, Me. lra. }
    cbn [bind]. eexists. split; [reflexivity|discriminate].
  - apply Rltb_false in S1, S2. lra.
Qed.
Lemma visit_reported ts ray t l off : shape t l off -> forall ret, tsq ray ret <= fmax ->
  exists ret', visit (hit_leaf ts ray) ray t (ret, tsq ray ret) = ((ret', tsq ray ret'), false) /\ tsq ray ret' <= fmax /\
  (ret' = ret \/ exists k tr p, nth_error ts k = Some tr /\ ret' = Some (k, p) /\ reported ray tr p).
Proof.
  intros Sh. induction Sh as [b l off Hl Hp Hb Hc|a c1 c2 l1 l2 off S1 IH1 S2 IH2]; intros ret Hr; cbn [visit new_interior].
  - destruct (intersect RF (gamma 3) (nbounds (Leaf b (length l) off)) (origin ray) (inv_dir ray)); [|exists ret; split; [reflexivity|]; split; [exact Hr|left; reflexivity]].
    unfold hit_leaf. destruct (slice_spec ts ray off (off + length l)) as (A & _ & _).
    destruct (simple_intersect_triangle_slice ts ray off (off + length l)) as [[k p]|]; [|exists ret; split; [reflexivity|]; split; [exact Hr|left; reflexivity]].
    destruct A as [A|(k' & tr & p' & _ & T & E & Rp & D)]; [discriminate|]. injection E as -> ->. cbn [snd].
    destruct (Rltb (1 / 10 ^ 7) _ && Rltb _ (tsq ray ret)); [|exists ret; split; [reflexivity|]; split; [exact Hr|left; reflexivity]].
    exists (Some (k', p')). split; [reflexivity|]. split; [cbn [tsq]; lra|]. right. exists k', tr, p'. auto.
  - destruct (intersect RF (gamma 3) _ (origin ray) (inv_dir ray)); [|exists ret; split; [reflexivity|]; split; [exact Hr|left; reflexivity]].
    destruct (Rltb (coord a (inv_dir ray)) 0).
    + destruct (IH2 ret Hr) as (r1 & -> & H1 & C1). destruct (IH1 r1 H1) as (r2 & -> & H2 & C2). exists r2. split; [reflexivity|]. split; [exact H2|]. destruct C2 as [->|C2]; [exact C1|right; exact C2].
    + destruct (IH1 ret Hr) as (r1 & -> & H1 & C1). destruct (IH2 r1 H1) as (r2 & -> & H2 & C2). exists r2. split; [reflexivity|]. split; [exact H2|]. destruct C2 as [->|C2]; [exact C1|right; exact C2].
Qed.

(** What a ray hits in a scene whose accelerator has been built, the material of the side that is hit, and what the material does *)
Definition hit (N : nat) (st : Scene * option (list FlatNode)) (fuel : nat) (ray : Ray) : option (nat * Interaction) :=
  match scene_cast_ray N st fuel ray with Ok r => r | _ => None end.
Definition side_material (st : Scene * option (list FlatNode)) (ms : list Material) (x : nat * Interaction) : option Material :=
  match hit_material (fst st) ms x with Ok m => m | _ => None end.
Definition scatter {G} (gen : G -> R * G) (fuel : nat) (m : Material) (d : pt) (x : nat * Interaction) (eta : R) (g : G) : option (pt * spectrum * R) * (nat * Interaction) * R * G :=
  match sample_bsdf gen fuel m d (snd x) eta g with
  | Ok (Some (Some s, i', eta', g')) => (Some (b_wi s, b_spectrum s, b_pdf s), (fst x, i'), eta', g')
  | Ok (Some (None, i', eta', g')) => (None, (fst x, i'), eta', g')
  | _ => (None, x, eta, g)
  end.
Definition hit_normal (x : nat * Interaction) : pt := normal_of (snd x).
Definition hit_point (x : nat * Interaction) : pt := it_point (snd x).

(** C92: in a scene whose triangles have sides and whose materials exist, every ray either finds nothing or arrives at a side of a triangle
    that has a material.  The only thing that can go wrong is a stack that is too small for the tree. *)
Theorem C92_rays : forall s scene N fuel mapping scene' nodes ms ray, reorders s -> well_formed scene -> manageable scene ->
  (forall t, In t (triangles scene) -> 1 / 10 ^ 20 < vlen2 (vsub (tb t) (ta t))) ->
  (forall k, In k (front_material_indexes scene) \/ In k (back_material_indexes scene) -> (k < length ms)%nat) ->
  build_accelerator s (scene, None) = Ok (mapping, (scene', Some nodes)) -> (2 * length (triangles scene) <= fuel)%nat -> vlen (direction ray) = 1 ->
  (scene_cast_ray N (scene', Some nodes) fuel ray = Panic /\ (N + 1 < length (triangles scene))%nat) \/
  exists r, scene_cast_ray N (scene', Some nodes) fuel ray = Ok r /\
    match r with
    | None => True
    | Some (k, inter) => arrives (direction ray) inter /\ exists m, hit_material scene' ms (k, inter) = Ok (Some m) /\ In m ms
    end.
Proof.
  intros s scene N fuel mapping scene' nodes ms ray Rs W M Ed Ix B F L.
  destruct (triangles scene) as [|t0 ts0] eqn:Et.
  - unfold build_accelerator, tree_new in B. cbn [fst snd] in B. rewrite Et in B. cbn [bind] in B. injection B as <- <- <-.
    right. exists None. split; [reflexivity|exact I].
  - rewrite <- Et in *. destruct (tree_new_spec s scene Rs W) as (root & l & sc & E & P & Sh & H & Hl & R1 & R2 & R3 & R4); [congruence|].
    unfold build_accelerator in B. cbn [fst snd] in B. rewrite E in B. cbn [bind] in B. injection B as <- <- <-.
    destruct (manageable_fits _ _ _ M P Sh) as (Hf & Hs). destruct (shape_size _ _ _ Sh) as (Z1 & Z2).
    assert (Ll : length l = length (triangles scene)). { destruct (infos_of_indexed (triangles scene)) as (_ & Bq & _). rewrite <- Bq. symmetry. now apply Permutation_length. }
    assert (Hn : forall A (x y : A), (match flatten_node root 0 with [] => x | _ => y end) = y) by (intros; destruct root; reflexivity).
    unfold scene_cast_ray, cast_ray. cbn [fst snd]. unfold tree_intersect. rewrite Hn.
    destruct (walk_root (hit_leaf (triangles sc) ray) ray N root fuel (None, fmax) Hs Hf) as [(Hw & HN)|Hw]; [lia| |].
    { left. rewrite Hw. split; [reflexivity|]. lia. }
    right. rewrite Hw. change fmax with (tsq ray None). destruct (visit_reported (triangles sc) ray root l 0 Sh None (Rle_refl _)) as (r & -> & _ & C). cbn [fst bind].
    destruct r as [[k p]|]; [|exists None; split; [reflexivity|exact I]]. destruct C as [C|(k' & tr & p' & K & Ek & (u & v & Hb))]; [discriminate|]. injection Ek as -> ->.
    rewrite K, Hb. cbn [bind].
    assert (Kl : exists j, nth_error (map index l) k' = Some j). { destruct (nth_error (map index l) k') as [j|] eqn:Q; [eexists; reflexivity|]. apply nth_error_None in Q. destruct R1 as (Q1 & _). assert (k' < length (triangles sc))%nat by (apply nth_error_Some; congruence). lia. }
    destruct Kl as (j & Ej). destruct R1 as (_ & R1). destruct (R1 k' j Ej) as (T1 & T2).
    destruct (hit_arrives ray tr p' u v L) as (info & Ei & Si). { apply Ed. rewrite K in T1. symmetry in T1. apply nth_error_In in T1. exact T1. } { exact Hb. }
    rewrite K, Ei. cbn [bind]. eexists. split; [reflexivity|]. split; [split; [exact L|split; [reflexivity|exists tr; exact Ei]]|].
    destruct R3 as (_ & R3). destruct (R3 k' j Ej) as (F1 & F2). destruct R4 as (_ & R4). destruct (R4 k' j Ej) as (G1 & G2).
    unfold hit_material. cbn [it_info]. destruct (i_side info); [rewrite F1|rewrite G1|contradiction].
    + destruct (nth_error (front_material_indexes scene) j) as [a|] eqn:Ea; [|contradiction]. apply nth_error_In in Ea. pose proof (Ix a (or_introl Ea)) as La.
      destruct (nth_error ms a) as [m|] eqn:Em; [|apply nth_error_None in Em; lia]. exists m. split; [reflexivity|]. apply nth_error_In in Em. exact Em.
    + destruct (nth_error (back_material_indexes scene) j) as [a|] eqn:Ea; [|contradiction]. apply nth_error_In in Ea. pose proof (Ix a (or_intror Ea)) as La.
      destruct (nth_error ms a) as [m|] eqn:Em; [|apply nth_error_None in Em; lia]. exists m. split; [reflexivity|]. apply nth_error_In in Em. exact Em.
Qed.

(** Where materials are passive, light does not gain: the daylight coefficients of any sensors are not negative and those of one sensor add
    up to at most pi; to exactly pi where there is nothing in the scene. *)
Theorem C92_energy : forall s scene N fuel mapping scene' nodes ms G (gen : G -> R * G) bfuel m sk n draws seeds max_depth rays,
  reorders s -> well_formed scene -> manageable scene ->
  (forall t, In t (triangles scene) -> 1 / 10 ^ 20 < vlen2 (vsub (tb t) (ta t))) ->
  (forall k, In k (front_material_indexes scene) \/ In k (back_material_indexes scene) -> (k < length ms)%nat) -> Forall passive ms ->
  build_accelerator s (scene, None) = Ok (mapping, (scene', Some nodes)) -> (2 * length (triangles scene) <= fuel)%nat ->
  draws01 gen -> SkyModel.new m = Ok sk -> (0 < n)%nat -> (forall i j, random (draws i j)) -> Forall (fun r => vlen (direction r) = 1) rays ->
  let st := (scene', Some nodes) in
  exists dc, calc_dc gen (hit N st fuel) hit_point hit_normal (side_material st ms) (scatter gen bfuel) sk max_depth n draws seeds rays = Ok dc /\
    forall i, (i < length rays)%nat ->
      (forall b, (b < ncols dc)%nat -> nonneg (nth (ncols dc * i + b) (data dc) BLACK)) /\
      sumf (fun b => radiance (nth (ncols dc * i + b) (data dc) BLACK)) (seq 0 (ncols dc)) <= PI /\
      (triangles scene = [] -> sumf (fun b => radiance (nth (ncols dc * i + b) (data dc) BLACK)) (seq 0 (ncols dc)) = PI).
Proof.
  intros s scene N fuel mapping scene' nodes ms G gen bfuel m sk n draws seeds max_depth rays Rs W M Ed Ix Pm B F D Hsk Hn Hd Hu st.
  assert (Fr : fair gen (hit N st fuel) hit_normal (side_material st ms) (scatter gen bfuel)).
  { split; [exact D|]. intros ray x mt c g L Eh Em.
    destruct (C92_rays s scene N fuel mapping scene' nodes ms ray Rs W M Ed Ix B F L) as [(Pn & _)|(r & Er & Hr)].
    { unfold hit, st in Eh. rewrite Pn in Eh. discriminate. }
    unfold hit, st in Eh. rewrite Er in Eh. subst r. destruct x as [k inter]. destruct Hr as (A & m' & Hm & Im). unfold side_material, st in Em. cbn [fst] in Em. rewrite Hm in Em. injection Em as ->.
    pose proof (proj1 (Forall_forall _ _) Pm mt Im) as Pp. unfold scatter. cbn [snd fst].
    destruct (C92_passive G gen bfuel mt (direction ray) inter c g D A Pp) as ([b|] & i' & e' & g' & -> & Q); [|exact I].
    destruct Q as (Lw & Ii & Ch). split; [exact Lw|]. unfold hit_normal. cbn [snd]. unfold normal_of. rewrite Ii. unfold factor in Ch.
    set (w := sdiv _ _) in *. destruct Ch as ((c1 & c2) & (c3 & c4) & (c5 & c6)). unfold nonneg. repeat split; assumption. }
  destruct (C80_energy G (nat * Interaction) Material gen (hit N st fuel) hit_point hit_normal (side_material st ms) (scatter gen bfuel) m sk n draws seeds max_depth rays Hsk Hn Fr Hd Hu) as (dc & E & Q).
  exists dc. split; [exact E|]. intros i Hi. destruct (Q i Hi) as (Q1 & Q2 & Q3). split; [exact Q1|]. split; [exact Q2|]. intros Z. apply Q3. intros r.
  unfold build_accelerator, tree_new in B. cbn [fst snd] in B. rewrite Z in B. cbn [bind] in B. injection B as <- <- <-. reflexivity.
Qed.

(** Optical properties as the documentation gives them, with a transmittance that glass can have *)
Definition plausible (o : optical) : Prop :=
  match front_solar_absorbtance o with None => True | Some a => 0 <= a <= 1 end /\
  match solar_transmittance o with None => True | Some t => 0 <= t <= 918 / 1000 end.
Lemma plausible_passive o : plausible o -> passive (solar_material o).
Proof.
  intros (A & T). unfold solar_material. cbn [substance_to_material]. 
  set (al := match front_solar_absorbtance o with Some v => v | None => 7 / 10 end). assert (Al : 0 <= al <= 1) by (unfold al; destruct (front_solar_absorbtance o); lra).
  set (ta := match solar_transmittance o with Some v => transmittance_to_transmissivity v | None => 0 end).
  assert (Ta : ta <= 1) by (unfold ta; destruct (solar_transmittance o) as [t|]; [apply C93_transmissivity; exact T|lra]).
  destruct (Rltb 0 ta) eqn:E; cbn [passive].
  - apply Rltb_true in E. split; [lra|]. exists ta. split; [reflexivity|lra].
  - split; [reflexivity|]. unfold channels, gray. cbn [red green blue]. lra.
Qed.
Lemma named_in {A} (l : list (string * A)) n a : named l n = Ok a -> In (n, a) l.
Proof.
  unfold named. destruct (find _ l) as [[n' a']|] eqn:E; [|discriminate]. intros H. injection H as ->. apply find_some in E as (I & Q). cbn [fst] in Q. apply String.eqb_eq in Q. subst n'. exact I.
Qed.
Lemma compare_apart a b : compare a b = false -> 1 / 10 ^ 20 < vlen2 (vsub b a).
Proof.
  unfold compare, compare_by. intros H. apply Rleb_false in H. replace (vlen2 (vsub b a)) with (vlen2 (vsub a b)) by (unfold vlen2, vsub; cbn [vx vy vz]; ring). lra.
Qed.
Lemma building_facts b scene owner : build_scene b Solar = Ok (scene, owner) -> (forall name o, In (name, Normal o) (substances b) -> plausible o) ->
  well_formed (geom scene) /\ (forall t, In t (triangles (geom scene)) -> 1 / 10 ^ 20 < vlen2 (vsub (tb t) (ta t))) /\
  (forall k, In k (front_material_indexes (geom scene)) \/ In k (back_material_indexes (geom scene)) -> (k < length (mats scene))%nat) /\ Forall passive (mats scene).
Proof.
  intros E Pl. destruct (C93_scene b) as (H1 & H2). destruct (H1 _ _ E) as (parts & F). destruct (H2 _ F) as (scene' & owner' & E' & T & O & M & Fi & Bi & Lo & W & _).
  rewrite E in E'. injection E' as <- <-. split; [exact W|]. split; [|split].
  - intros t I. apply In_nth_error in I as (k & Hk). destruct (C93_triangle b scene owner E k t Hk) as (e & i & pol & con & mesh & q & of & ob & f & r & _ & _ & Em & Iq & -> & _).
    destruct (C32_triangulate _ _ Em) as (l0 & l & _ & _ & _ & _ & _ & H & _). destruct (H q Iq) as (_ & _ & _ & V). cbn [ta tb]. apply compare_apart.
    unfold triangle_new in V. destruct (compare (t_a (tri q)) (t_b (tri q))); [discriminate|reflexivity].
  - intros k [I|I]; apply In_nth_error in I as (j & Hj); destruct W as (_ & W1 & W2).
    + assert (Lj : (j < length (triangles (geom scene)))%nat) by (rewrite <- W1; apply nth_error_Some; congruence). destruct (nth_error (triangles (geom scene)) j) as [t|] eqn:Et; [|apply nth_error_None in Et; lia].
      destruct (C93_triangle b scene owner E j t Et) as (e & i & pol & con & mesh & q & of & ob & f & r & _ & _ & _ & _ & _ & _ & A1 & A2 & _). rewrite Hj in A1. injection A1 as <-. rewrite solar_some in A2. apply nth_error_Some. congruence.
    + assert (Lj : (j < length (triangles (geom scene)))%nat) by (rewrite <- W2; apply nth_error_Some; congruence). destruct (nth_error (triangles (geom scene)) j) as [t|] eqn:Et; [|apply nth_error_None in Et; lia].
      destruct (C93_triangle b scene owner E j t Et) as (e & i & pol & con & mesh & q & of & ob & f & r & _ & _ & _ & _ & _ & _ & _ & _ & A1 & A2). rewrite Hj in A1. injection A1 as <-. rewrite solar_some in A2. apply nth_error_Some. congruence.
  - rewrite M. clear - F Pl. induction F as [|el part els parts A F IH]; [constructor|]. cbn [map concat app]. destruct el as [[[e i] pol] con], part as [[ts of] ob]. destruct A as (_ & first & rest & _ & (sf & _ & S1) & (sb & _ & S2)).
    cbn [fst snd]. constructor; [|constructor; [|exact IH]]; apply plausible_passive; [apply (Pl sf)|apply (Pl sb)]; apply named_in; assumption.
Qed.
(** C92 for buildings: whatever the building, if the absorptances are between 0 and 1 and the transmittances between 0 and 91.8%, the
    daylight coefficients computed in its scene never add up to more than pi. *)
Theorem C92_building : forall b scene owner s N fuel G (gen : G -> R * G) bfuel m sk n draws seeds max_depth rays,
  build_scene b Solar = Ok (scene, owner) -> (forall name o, In (name, Normal o) (substances b) -> plausible o) -> manageable (geom scene) -> reorders s ->
  (2 * length (triangles (geom scene)) <= fuel)%nat -> (length (triangles (geom scene)) <= N + 1)%nat ->
  draws01 gen -> SkyModel.new m = Ok sk -> (0 < n)%nat -> (forall i j, random (draws i j)) -> Forall (fun r => vlen (direction r) = 1) rays ->
  exists mapping scene' nodes, let st := (scene', Some nodes) in build_accelerator s (geom scene, None) = Ok (mapping, st) /\
    (forall ray, vlen (direction ray) = 1 -> exists r, scene_cast_ray N st fuel ray = Ok r /\
      match r with None => True | Some x => arrives (direction ray) (snd x) /\ exists mt, hit_material scene' (mats scene) x = Ok (Some mt) /\ passive mt end) /\
    exists dc, calc_dc gen (hit N st fuel) hit_point hit_normal (side_material st (mats scene)) (scatter gen bfuel) sk max_depth n draws seeds rays = Ok dc /\
    forall i, (i < length rays)%nat ->
      (forall b, (b < ncols dc)%nat -> nonneg (nth (ncols dc * i + b) (data dc) BLACK)) /\
      sumf (fun b => radiance (nth (ncols dc * i + b) (data dc) BLACK)) (seq 0 (ncols dc)) <= PI.
Proof.
  intros b scene owner s N fuel G gen bfuel m sk n draws seeds max_depth rays E Pl Mg Rs F Nn D Hsk Hn Hd Hu.
  destruct (building_facts b scene owner E Pl) as (W & Ed & Ix & Pm). destruct (C35_permutation s (geom scene) Rs W) as (mapping & scene' & nodes & B & _).
  exists mapping, scene', nodes. intros st. split; [exact B|]. split.
  - intros ray L. destruct (C92_rays s (geom scene) N fuel mapping scene' nodes (mats scene) ray Rs W Mg Ed Ix B F L) as [(_ & Bad)|(r & Er & Hr)]; [lia|].
    exists r. split; [exact Er|]. destruct r as [[k inter]|]; [|exact I]. destruct Hr as (A & mt & Hm & Im). split; [exact A|]. exists mt. split; [exact Hm|]. apply (proj1 (Forall_forall _ _) Pm mt Im).
  - destruct (C92_energy s (geom scene) N fuel mapping scene' nodes (mats scene) G gen bfuel m sk n draws seeds max_depth rays Rs W Mg Ed Ix Pm B F D Hsk Hn Hd Hu) as (dc & Ec & Q).
    exists dc. split; [exact Ec|]. intros i Hi. destruct (Q i Hi) as (Q1 & Q2 & _). split; assumption.
Qed.

(** ** Examples and what does not hold *)
Definition concrete : optical := mkOpt (Some (6 / 10)) (Some (9 / 10)) None None None.
Definition window_pane : optical := mkOpt (Some (1 / 10)) None (Some (8 / 10)) None None.
(** a floor and a window in a room, the wall is a sheet of glass in front of concrete *)
Definition house (floor : list string) (sun : optical) : building :=
  mkBuilding [("concrete", Normal concrete); ("glass", Normal sun); ("air", Gas)]%string
    [("slab", "concrete"); ("pane", "glass"); ("cavity", "air")]%string
    [("floor", floor); ("glazing", ["pane"; "cavity"; "pane"])]%string
    [mkSurf squareP "floor"%string] [mkFen squareP "glazing"%string false; mkFen squareP "nothing"%string true].
Definition house_parts (front back sun : optical) : list (list Triangle3D * optical * optical) :=
  [(map tri (pieces mesh2), front, back); (map tri (pieces mesh2), sun, sun)].
Lemma house_seen floor sun : seen (house floor sun) = [(ESurface, 0%nat, squareP, "floor"%string); (EFenestration, 0%nat, squareP, "glazing"%string)].
Proof.
  unfold seen, numbered, house. cbn [surfaces fenestrations length seq combine filter map snd fst f_opening negb app s_polygon s_construction f_polygon f_construction].
  rewrite (proj2 (Rltb_false (p_area squareP) (1 / 10 ^ 5))); [reflexivity|]. cbn. lra.
Qed.
Lemma house_appears floor first rest front back sun : floor = first :: rest -> solid (house floor sun) first front -> solid (house floor sun) (last floor first) back ->
  Forall2 (appears (house floor sun)) (seen (house floor sun)) (house_parts front back sun).
Proof.
  intros -> S1 S2. rewrite house_seen. constructor; [|constructor; [|constructor]].
  - split; [exists mesh2; split; [exact C32_example|reflexivity]|]. exists first, rest. split; [reflexivity|]. split; assumption.
  - split; [exists mesh2; split; [exact C32_example|reflexivity]|]. exists "pane"%string, ["cavity"; "pane"]%string. split; [reflexivity|]. split; exists "glass"%string; split; reflexivity.
Qed.
Lemma house_scene floor first rest front back sun : floor = first :: rest -> solid (house floor sun) first front -> solid (house floor sun) (last floor first) back ->
  exists scene owner, build_scene (house floor sun) Solar = Ok (scene, owner) /\ length (triangles (geom scene)) = 4%nat /\
    owner = [(ESurface, 0%nat); (ESurface, 0%nat); (EFenestration, 0%nat); (EFenestration, 0%nat)] /\
    mats scene = [solar_material front; solar_material back; solar_material sun; solar_material sun] /\
    front_material_indexes (geom scene) = [0; 0; 2; 2]%nat /\ back_material_indexes (geom scene) = [1; 1; 3; 3]%nat.
Proof.
  intros E S1 S2. destruct (proj2 (C93_scene (house floor sun)) _ (house_appears floor first rest front back sun E S1 S2)) as (scene & owner & Eb & T & O & M & Fi & Bi & _).
  exists scene, owner. split; [exact Eb|]. rewrite T, O, M, Fi, Bi, house_seen. repeat split.
Qed.
(** A building that meets the hypotheses of the theorems *)
Example C93_example : exists scene owner, build_scene (house ["slab"%string] window_pane) Solar = Ok (scene, owner) /\ length (triangles (geom scene)) = 4%nat /\
  owner = [(ESurface, 0%nat); (ESurface, 0%nat); (EFenestration, 0%nat); (EFenestration, 0%nat)] /\ manageable (geom scene) /\
  (forall name o, In (name, Normal o) (substances (house ["slab"%string] window_pane)) -> plausible o).
Proof.
  destruct (house_scene ["slab"%string] "slab"%string [] concrete concrete window_pane eq_refl) as (scene & owner & E & L & O & _); [exists "concrete"%string; split; reflexivity|exists "concrete"%string; split; reflexivity|].
  exists scene, owner. split; [exact E|]. split; [exact L|]. split; [exact O|]. split; [apply small_manageable; rewrite L; lia|].
  intros name o [H|[H|[H|[]]]]; try discriminate; injection H as _ <-; unfold plausible; cbn; lra.
Qed.
(** Light and glare cannot be studied: asking for visible light ends the program. *)
Theorem C93_visible_refuted : exists b scene owner, build_scene b Solar = Ok (scene, owner) /\ build_scene b Visible = Panic.
Proof. destruct C93_example as (scene & owner & E & _). exists (house ["slab"%string] window_pane), scene, owner. split; [exact E|reflexivity]. Qed.
(** The absorptance of the back is never used: the concrete of this floor absorbs 90% at the back, but the scene has it reflect 40% there. *)
Theorem C93_back_refuted : exists b scene owner k r, build_scene b Solar = Ok (scene, owner) /\ (forall name o, solid b name o -> In name ["slab"%string] -> back_solar_absorbtance o = Some (9 / 10)) /\
  nth_error owner k = Some (ESurface, 0%nat) /\ nth_error (back_material_indexes (geom scene)) k = Some r /\ exists c, nth_error (mats scene) r = Some (Plastic c 0 0) /\ red c = 4 / 10.
Proof.
  destruct (house_scene ["slab"%string] "slab"%string [] concrete concrete window_pane eq_refl) as (scene & owner & E & L & O & M & _ & Bi); [exists "concrete"%string; split; reflexivity|exists "concrete"%string; split; reflexivity|].
  exists (house ["slab"%string] window_pane), scene, owner, 0%nat, 1%nat. split; [exact E|]. split.
  { intros name o (sn & H1 & H2) [<-|[]]. cbn in H1. injection H1 as <-. cbn in H2. injection H2 as <-. reflexivity. }
  rewrite O, Bi, M. split; [reflexivity|]. split; [reflexivity|]. exists (gray (1 - 6 / 10)). split; [|cbn; lra].
  cbn [nth_error]. unfold solar_material. cbn [substance_to_material concrete solar_transmittance front_solar_absorbtance]. rewrite (proj2 (Rltb_false 0 0) (Rle_refl 0)). reflexivity.
Qed.
(** Substances are added anew for every face... *)
Theorem C93_count : forall b scene owner, build_scene b Solar = Ok (scene, owner) -> length (mats scene) = (2 * length (seen b))%nat.
Proof.
  intros b scene owner E. destruct (C93_scene b) as (H1 & H2). destruct (H1 _ _ E) as (parts & F). destruct (H2 _ F) as (scene' & owner' & E' & _ & _ & M & _). rewrite E in E'. injection E' as <- <-.
  rewrite M. clear - F. induction F as [|x y l l' A F IH]; [reflexivity|]. cbn [map concat app length]. rewrite IH. lia.
Qed.
(** ... although the documentation says that a substance that has been added is not added again. *)
Theorem C93_once_refuted : exists b scene owner i j m, build_scene b Solar = Ok (scene, owner) /\ i <> j /\ nth_error (mats scene) i = Some m /\ nth_error (mats scene) j = Some m.
Proof.
  destruct (house_scene ["slab"%string] "slab"%string [] concrete concrete window_pane eq_refl) as (scene & owner & E & L & O & M & _ & Bi); [exists "concrete"%string; split; reflexivity|exists "concrete"%string; split; reflexivity|].
  exists (house ["slab"%string] window_pane), scene, owner, 0%nat, 1%nat, (solar_material concrete). split; [exact E|]. split; [discriminate|]. rewrite M. split; reflexivity.
Qed.
(** Only the outer layers count: concrete behind a sheet of glass lets the light of the sun through. *)
Theorem C93_layers_refuted : exists b scene owner k f m d i u s i', build_scene b Solar = Ok (scene, owner) /\
  named (constructions b) "floor"%string = Ok ["pane"; "slab"]%string /\ (forall o, solid b "slab"%string o -> solar_transmittance o = None) /\
  nth_error owner k = Some (ESurface, 0%nat) /\ nth_error (front_material_indexes (geom scene)) k = Some f /\ nth_error (mats scene) f = Some m /\
  arrives d i /\ 0 <= u < 1 /\ sample_bsdf (fun g : unit => (u, g)) 1 m d i 1 tt = Ok (Some (Some s, i', 1, tt)) /\ b_wi s = d /\ 1 / 2 < red (factor i s).
Proof.
  destruct (house_scene ["pane"; "slab"]%string "pane"%string ["slab"%string] window_pane concrete window_pane eq_refl) as (scene & owner & E & L & O & M & Fi & _); [exists "glass"%string; split; reflexivity|exists "concrete"%string; split; reflexivity|].
  destruct (C93_pane window_pane (8 / 10) eq_refl ltac:(lra)) as (x & Ex & X & H). set (d := mkV 0 0 (-1)).
  assert (A : arrives d (floor_hit d)) by (apply floor_arrives; [exact down_unit|cbn; lra]).
  destruct (H d (floor_hit d) A) as (p & th & Pp & Th & S1). { unfold d, normal_of, floor_hit, vdot. cbn. ring. }
  destruct (S1 unit (fun g : unit => ((1 + p) / 2, g)) 1%nat 1 tt (const_draws01 ((1 + p) / 2) ltac:(lra))) as (s & i' & Es & Hr & Ht). cbn [fst snd] in *.
  destruct (Ht ltac:(lra)) as (_ & T2 & T3).
  exists (house ["pane"; "slab"]%string window_pane), scene, owner, 0%nat, 0%nat, (solar_material window_pane), d, (floor_hit d), ((1 + p) / 2), s, i'.
  split; [exact E|]. split; [reflexivity|]. split. { intros o (sn & H1 & H2). cbn in H1. injection H1 as <-. cbn in H2. injection H2 as <-. reflexivity. }
  rewrite O, Fi, M. split; [reflexivity|]. split; [reflexivity|]. split; [reflexivity|]. split; [exact A|]. split; [lra|].
  rewrite solar_some in Ex. injection Ex as ->. split; [exact Es|]. split; [exact T2|].
  apply (f_equal red) in T3. cbn [red sscale gray] in T3. destruct (Rabs_def2 (th - 8 / 10) (1 / 10)) as (_ & B); [lra|]. nra.
Qed.
(** A pane that is declared to let everything through, which is within the documented range, gives off more light than it receives:
    whichever way a ray goes on, its light is multiplied by more than 1.08. *)
Theorem C92_clear_refuted : exists o d i, solar_transmittance o = Some 1 /\ arrives d i /\
  forall G (gen : G -> R * G) fuel g, draws01 gen -> exists s i' g', sample_bsdf gen fuel (solar_material o) d i 1 g = Ok (Some (Some s, i', 1, g')) /\
    channels (fun v => 108 / 100 < v) (factor i s).
Proof.
  exists (mkOpt None None (Some 1) None None), (mkV 0 0 (-1)), (floor_hit (mkV 0 0 (-1))). split; [reflexivity|].
  assert (A : arrives (mkV 0 0 (-1)) (floor_hit (mkV 0 0 (-1)))) by (apply floor_arrives; [exact down_unit|cbn; lra]). split; [exact A|]. intros G gen fuel g D.
  destruct (transmissivity_root 1 ltac:(lra)) as (P & Q). cbv zeta in P, Q. unfold solar_material. cbn [substance_to_material solar_transmittance]. set (x := transmittance_to_transmissivity 1) in *. clearbody x.
  assert (X : 1088 / 1000 < x < 109 / 100). { split; nra. }
  rewrite (proj2 (Rltb_true 0 x)) by lra.
  unfold sample_bsdf. fold (normal_of (floor_hit (mkV 0 0 (-1)))). fold (local_of (mkV 0 0 (-1)) (floor_hit (mkV 0 0 (-1)))). rewrite floor_local. cbn [local_sample].
  set (f := (13 / 63) ^ 2). 
  assert (S : exists s, fst (glass_sample gen (gray x) (152 / 100) (mkV 0 0 (-1)) TRANS_ALL g) = Some s /\ sdiv (sscale (b_spectrum s) (Rabs (vz (b_wi s)))) (b_pdf s) = gray (pane_refl f x + pane_trans f x)).
  { unfold glass_sample. 
    assert (An : any_transmission (gray x) = (true, gray x)).
    { unfold any_transmission. pose proof (proj1 (smax_spec (gray x))) as Sg. cbn [gray red] in Sg. pose proof min_colour_pos. rewrite (proj2 (Rltb_false (smax (gray x)) MIN_COLOUR)) by lra.
      unfold smap, gray. cbn [red green blue]. rewrite (proj2 (Rltb_false x MIN_COLOUR)) by lra. reflexivity. }
    rewrite An. cbn [vz].
    assert (Ab : Rabs (-1) = 1) by (rewrite Rabs_left by lra; ring).
    assert (Tc : transmitted_cos (152 / 100) (mkV 0 0 (-1)) = 1). { unfold transmitted_cos. cbn [vz]. rewrite Ab. replace (1 - 1 / (152 / 100) ^ 2 + (1 / (152 / 100)) ^ 2) with 1 by field. apply sqrt_1. }
    rewrite Tc, Ab.
    replace ((1 - 152 / 100 * 1) / (1 + 152 / 100 * 1) * ((1 - 152 / 100 * 1) / (1 + 152 / 100 * 1))) with f by (unfold f; field).
    replace ((1 / 1 - 152 / 100 / 1) / (1 / 1 + 152 / 100 / 1) * ((1 / 1 - 152 / 100 / 1) / (1 / 1 + 152 / 100 / 1))) with f by (unfold f; field).
    assert (Ct : smap (fun v => Rpower v (1 / 1)) (gray x) = gray x) by (unfold smap, gray; cbn [red green blue]; replace (1 / 1) with 1 by field; rewrite Rpower_1 by lra; reflexivity).
    rewrite Ct. assert (Et : smap (glass_trans f f) (gray x) = gray (pane_trans f x)) by (unfold smap, gray; cbn [red green blue]; rewrite glass_trans_pane; f_equal; field).
    assert (Er : smap (glass_refl f f) (gray x) = gray (pane_refl f x)) by (unfold smap, gray; cbn [red green blue]; rewrite glass_refl_pane; f_equal; field).
    rewrite Et, Er, !radiance_gray. change (has TRANS_ALL TRANS_REFLECTION) with true. change (has TRANS_ALL TRANS_TRANSMISSION) with true. cbv iota.
    assert (Dn : 99 / 100 < 1 - (x * f) ^ 2 <= 1). { assert (0 <= x * f <= 5 / 100) by (unfold f; lra). nra. }
    assert (Pr : 0 < pane_refl f x). { unfold pane_refl. apply Rdiv_lt_0_compat; [unfold f; nra|]. replace (f ^ 2 * x ^ 2) with ((x * f) ^ 2) by ring. lra. }
    assert (Pt : 1 / 10 < pane_trans f x). { unfold pane_trans. assert (9 / 10 < (1 - f) ^ 2 / (1 - (x * f) ^ 2)). { apply Rmult_lt_reg_r with (1 - (x * f) ^ 2); [lra|]. unfold Rdiv at 2. rewrite Rmult_assoc, Rinv_l by lra. unfold f in *. nra. } nra. }
    rewrite (proj2 (Rltb_false (pane_trans f x) (1 / 10 ^ 19))) by lra. rewrite andb_false_r.
    destruct (gen g) as [uc g1]. destruct (Rleb uc (pane_refl f x / (pane_refl f x + pane_trans f x))); eexists; (split; [reflexivity|]); cbn [b_spectrum b_wi b_pdf mirror_direction vz].
    - replace (Rabs (- (-1))) with 1 by (rewrite Rabs_right; lra). unfold sdiv, sscale, gray. cbn [red green blue]. f_equal; field; lra.
    - rewrite Ab. unfold sdiv, sscale, gray. cbn [red green blue]. f_equal; field; lra. }
  destruct (glass_sample gen (gray x) (152 / 100) (mkV 0 0 (-1)) TRANS_ALL g) as [s0 g1]. destruct S as (s & E0 & Fs). cbn [fst] in E0. subst s0. cbn [bind]. do 3 eexists. split; [reflexivity|].
  unfold factor. cbn [b_spectrum b_wi b_pdf]. fold (normal_of (floor_hit (mkV 0 0 (-1)))). fold (world_of (floor_hit (mkV 0 0 (-1))) (b_wi s)). rewrite (proj1 (world_facts _ _ (b_wi s) A)), Fs.
  assert (B : 108 / 100 < pane_refl f x + pane_trans f x).
  { replace (pane_refl f x + pane_trans f x) with (1 + (1 - f) * (x - 1) / (1 - f * x)).
    - assert (0 < 1 - f * x <= 1) by (unfold f; lra). assert (8 / 100 < (1 - f) * (x - 1) / (1 - f * x)); [|lra]. apply Rmult_lt_reg_r with (1 - f * x); [lra|]. unfold Rdiv at 2. rewrite Rmult_assoc, Rinv_l by lra. unfold f in *. nra.
    - assert (0 <= x * f <= 5 / 100) by (unfold f; lra). unfold pane_refl, pane_trans. replace (f ^ 2 * x ^ 2) with ((x * f) ^ 2) by ring. assert (1 - (x * f) ^ 2 <> 0) by nra. field. split; [exact H0|nra]. }
  unfold channels, gray. cbn [red green blue]. auto.
Qed.

(** The hypotheses of [C92_building] can be met. *)
Example C92_example : exists scene owner s sk, build_scene (house ["slab"%string] window_pane) Solar = Ok (scene, owner) /\
  (forall name o, In (name, Normal o) (substances (house ["slab"%string] window_pane)) -> plausible o) /\ manageable (geom scene) /\ reorders s /\
  (length (triangles (geom scene)) <= 32 + 1)%nat /\ triangles (geom scene) <> [] /\ draws01 (fun g : unit => (1 / 2, g)) /\ SkyModel.new 1 = Ok sk /\ vlen (mkV 0 0 1) = 1.
Proof.
  destruct C93_example as (scene & owner & E & L & _ & M & Pl). destruct (SkyModel.new 1) as [sk| |] eqn:Es; [|discriminate|discriminate].
  exists scene, owner, simple_reorder, sk. split; [exact E|]. split; [exact Pl|]. split; [exact M|]. split; [exact reorders_exists|]. rewrite L. split; [lia|].
  split; [intros Z; rewrite Z in L; discriminate|]. split; [apply const_draws01; lra|]. split; [reflexivity|]. apply vlen_of. unfold vlen2. cbn. ring.
Qed.

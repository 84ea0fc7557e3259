(** The reader of Radiance files sees only the words of a file. *)
From Coq Require Import String Ascii Reals List Bool Arith Lia.
From Verif.Common Require Import Base Flt Text.
From Verif.Geometry Require Import Vec TriangleModel LoopModel MeshModel.
From Verif.Geometry Require ShapesModel.
From Verif.Rendering Require Import BvhModel DaylightModel MaterialModel SceneModel RayTracerModel RadianceModel.
Import ListNotations.

(** ** Words *)
Fixpoint drop_ws (l : text) : text := match l with c :: r => if is_ws c then drop_ws r else l | [] => [] end.
Fixpoint take_nw (l : text) : text := match l with c :: r => if is_ws c then [] else c :: take_nw r | [] => [] end.
Fixpoint drop_nw (l : text) : text := match l with c :: r => if is_ws c then l else drop_nw r | [] => [] end.

Lemma words_ws c l : is_ws c = true -> words (c :: l) = words l.
Proof. intros H. unfold words. cbn [split_on]. destruct (split_on_nonnil is_ws l) as (h & t & E). now rewrite E, H. Qed.
Lemma words_drop_ws l : words (drop_ws l) = words l.
Proof. induction l as [|c l IH]; cbn [drop_ws]; [reflexivity|]. destruct (is_ws c) eqn:E; [|reflexivity]. now rewrite IH, words_ws. Qed.
Lemma take_drop l : take_nw l ++ drop_nw l = l.
Proof. induction l as [|c l IH]; cbn [take_nw drop_nw app]; [reflexivity|]. destruct (is_ws c); [reflexivity|]. cbn [app]. now rewrite IH. Qed.
Lemma take_nw_solid l : Forall (fun c => is_ws c = false) (take_nw l).
Proof. induction l as [|c l IH]; cbn [take_nw]; [constructor|]. destruct (is_ws c) eqn:E; constructor; assumption. Qed.
Lemma drop_nw_head l : drop_nw l = [] \/ exists c r, drop_nw l = c :: r /\ is_ws c = true.
Proof. induction l as [|c l IH]; cbn [drop_nw]; [now left|]. destruct (is_ws c) eqn:E; [right; eauto|exact IH]. Qed.
Lemma words_solid w : w <> [] -> Forall (fun c => is_ws c = false) w -> words w = [w].
Proof. intros N H. unfold words. rewrite split_on_none by assumption. cbn [filter]. destruct w; [congruence|reflexivity]. Qed.
Lemma words_cons w c r : w <> [] -> Forall (fun c => is_ws c = false) w -> is_ws c = true -> words (w ++ c :: r) = w :: words r.
Proof. intros N H E. unfold words. rewrite split_on_app by assumption. cbn [filter]. destruct w; [congruence|reflexivity]. Qed.
Lemma words_take l : words l = match take_nw l with [] => words l | w => w :: words (drop_nw l) end.
Proof.
  destruct (take_nw l) as [|a w] eqn:E; [reflexivity|]. rewrite <- E.
  assert (N : take_nw l <> []) by congruence. pose proof (take_nw_solid l) as Sd. rewrite <- (take_drop l) at 1.
  destruct (drop_nw_head l) as [D|(c & r & D & Hc)]; rewrite D.
  - rewrite app_nil_r. rewrite words_solid by assumption. reflexivity.
  - rewrite words_cons by assumption. now rewrite words_ws.
Qed.
Lemma take_nw_nil l : take_nw (drop_ws l) = [] -> drop_ws l = [].
Proof.
  induction l as [|c l IH]; cbn [drop_ws]; [reflexivity|]. destruct (is_ws c) eqn:E; [exact IH|].
  cbn [take_nw]. now rewrite E.
Qed.
Lemma drop_ws_length l : (length (drop_ws l) <= length l)%nat.
Proof. induction l as [|c l IH]; cbn [drop_ws]; [lia|]. destruct (is_ws c); cbn [length]; lia. Qed.
Lemma drop_nw_length l : (length (drop_nw l) <= length l)%nat.
Proof. induction l as [|c l IH]; cbn [drop_nw]; [lia|]. destruct (is_ws c); cbn [length]; lia. Qed.
Lemma words_length l : (length (words l) <= length l)%nat.
Proof.
  enough (H : forall n l, (length l <= n)%nat -> (length (words l) <= length l)%nat) by (eapply H; reflexivity). clear l.
  induction n as [|n IH]; intros l Hl; [destruct l; [cbn; lia|cbn in Hl; lia]|].
  destruct l as [|c l]; [cbn; lia|]. cbn [length] in *. destruct (is_ws c) eqn:E; [rewrite words_ws by assumption; specialize (IH l); lia|].
  rewrite words_take. cbn [take_nw drop_nw]. rewrite E. cbn [length]. pose proof (drop_nw_length l). specialize (IH (drop_nw l)). lia.
Qed.
Lemma words_good l : Forall (fun w => w <> [] /\ Forall (fun c => is_ws c = false) w) (words l).
Proof.
  enough (H : forall n l, (length l <= n)%nat -> Forall (fun w => w <> [] /\ Forall (fun c => is_ws c = false) w) (words l)) by (eapply H; reflexivity). clear l.
  induction n as [|n IH]; intros l Hl; [destruct l; [constructor|cbn in Hl; lia]|].
  destruct l as [|c l]; [constructor|]. cbn [length] in *. destruct (is_ws c) eqn:E; [rewrite words_ws by assumption; apply IH; lia|].
  rewrite words_take. cbn [take_nw drop_nw]. rewrite E. constructor.
  - split; [congruence|]. constructor; [assumption|apply take_nw_solid].
  - apply IH. pose proof (drop_nw_length l). lia.
Qed.

(** ** Related computations *)
Definition orel {A B} (P : A -> B -> Prop) (x : out A) (y : out B) : Prop :=
  match x, y with
  | None, None => True
  | Some (Ok a), Some (Ok b) => P a b
  | Some Err, Some Err => True
  | Some Panic, Some Panic => True
  | _, _ => False
  end.
Lemma orel_bind {A B C D} (P : A -> B -> Prop) (Q : C -> D -> Prop) x y f g :
  orel P x y -> (forall a b, P a b -> orel Q (f a) (g b)) -> orel Q (obind x f) (obind y g).
Proof.
  intros H K. destruct x as [[a| |]|], y as [[b| |]|]; cbn in *; try contradiction; auto.
Qed.
Lemma orel_refl {A} (x : out A) : orel eq x x.
Proof. destruct x as [[a| |]|]; cbn; auto. Qed.
Lemma orel_eq {A} (x y : out A) : orel eq x y -> x = y.
Proof. destruct x as [[a| |]|], y as [[b| |]|]; cbn; intros H; try contradiction; congruence. Qed.
Definition srel {A S1 S2} (R : S1 -> S2 -> Prop) (x : A * S1) (y : A * S2) : Prop := fst x = fst y /\ R (snd x) (snd y).

Section Sim.
Context (pf : text -> option R) {S1 S2 : Type} (n1 : S1 -> out (text * S1)) (n2 : S2 -> out (text * S2)) (R : S1 -> S2 -> Prop).
Context (Hn : forall s t, R s t -> orel (srel R) (n1 s) (n2 t)).

Lemma expect_sim w s t : R s t -> orel R (expect n1 w s) (expect n2 w t).
Proof.
  intros H. unfold expect. eapply orel_bind; [apply Hn, H|]. intros [a s'] [b t'] [E H']. cbn in E, H'. subst b.
  destruct (text_eqb a (txt w)); cbn; auto.
Qed.
Lemma number_sim s t : R s t -> orel (srel R) (number pf n1 s) (number pf n2 t).
Proof.
  intros H. unfold number. eapply orel_bind; [apply Hn, H|]. intros [a s'] [b t'] [E H']. cbn in E, H'. subst b.
  destruct (pf a); cbn; unfold srel; auto.
Qed.

Ltac sim := repeat first
  [ eapply orel_bind; [now apply expect_sim|]; intros ? ? ?
  | eapply orel_bind; [now apply number_sim|]; intros [? ?] [? ?] [?E ?H]; cbn [fst snd] in *; subst
  | eapply orel_bind; [apply Hn; eassumption|]; intros [? ?] [? ?] [?E ?H]; cbn [fst snd] in *; subst
  | eapply orel_bind; [apply orel_refl|]; intros ? ? ->
  | progress unfold add_material
  | match goal with |- orel _ (let '(_, _) := ?r in _) _ => destruct r end
  | match goal with |- orel _ (if ?b then _ else _) (if ?b then _ else _) => destruct b end
  | solve [cbn; unfold srel; auto] ].

Lemma vertices_sim fuel : forall n l s t, R s t -> orel (srel R) (vertices pf n1 fuel n l s) (vertices pf n2 fuel n l t).
Proof.
  induction fuel as [|fuel IH]; intros n l s t H; destruct n as [|n]; cbn [vertices]; try (cbn; unfold srel; auto; fail).
  sim.
Qed.
Lemma kind_sim fuel r m ty nm s t : R s t -> orel (srel R) (consume_kind pf n1 fuel r m ty nm s) (consume_kind pf n2 fuel r m ty nm t).
Proof.
  intros H. unfold consume_kind.
  repeat match goal with |- orel _ (if ?b then _ else _) (if ?b then _ else _) => destruct b end.
  - unfold consume_plastic. destruct r. sim.
  - unfold consume_metal. destruct r. sim.
  - unfold consume_light. destruct r. sim.
  - unfold consume_mirror. destruct r. sim.
  - unfold consume_dielectric. destruct r. sim.
  - unfold consume_glass. destruct r. sim.
  - unfold consume_sphere. destruct r. sim.
  - unfold consume_source. destruct r. sim.
  - unfold consume_polygon. destruct r as [ms sc].
    eapply orel_bind; [now apply expect_sim|]; intros ? ? ?.
    eapply orel_bind; [now apply expect_sim|]; intros ? ? ?.
    eapply orel_bind; [apply Hn; eassumption|]; intros [? ?] [? ?] [?E ?H]; cbn [fst snd] in *; subst.
    destruct (parse_usize _) as [n|]; [|cbn; auto].
    destruct (negb _); [cbn; auto|].
    eapply orel_bind; [now apply vertices_sim|]; intros [? ?] [? ?] [?E ?H]; cbn [fst snd] in *; subst.
    sim.
  - cbn. auto.
Qed.

(** When there is nothing left, every kind of object panics. *)
Lemma kind_empty fuel r m ty nm s s' : n1 s = Some (Ok ([], s')) -> consume_kind pf n1 fuel r m ty nm s = Some Panic.
Proof.
  intros H. unfold consume_kind.
  repeat match goal with |- (if ?b then _ else _) = _ => destruct b end; try reflexivity;
    unfold consume_plastic, consume_metal, consume_light, consume_mirror, consume_dielectric, consume_glass, consume_sphere, consume_source, consume_polygon, expect;
    rewrite H; reflexivity.
Qed.
End Sim.

(** ** The reader of words *)
Section Words.
Context (utf8 : text -> bool) (pf : text -> option R).

Definition tok (ws : list text) : out (text * list text) :=
  match ws with [] => done (Ok ([], [])) | w :: ws => if utf8 w then done (Ok (w, ws)) else done Err end.
Definition tok_object (fuel : nat) (r : reading) (ws : list text) : out (reading * list text) :=
  run (m, ws) <- tok ws;
  match ws with
  | [] => done Panic
  | _ =>
    run (ty, ws) <- tok ws;
    match ws with
    | [] => done Panic
    | _ => run (nm, ws) <- tok ws; match ws with [] => done Panic | _ => consume_kind pf tok fuel r m ty nm ws end
    end
  end.
Fixpoint tok_objects (turns fuel : nat) (r : reading) (ws : list text) : out reading :=
  match ws with
  | [] => done (Ok r)
  | _ => match turns with O => None | S turns => run (r, ws) <- tok_object fuel r ws; tok_objects turns fuel r ws end
  end.

Section Src.
Context (source : text) (NE : source <> []).
Definition good (s : scan) : Prop := (pos s <= length source)%nat /\ is_done s = (pos s =? length source)%nat.
Definition rest (s : scan) : text := skipn (pos s) source.
Definition seen (s : scan) (ws : list text) : Prop := good s /\ words (rest s) = ws.

Lemma check_empty_id s : check_empty source s = s.
Proof. destruct source; [congruence|reflexivity]. Qed.
Lemma rest_cons s c l : rest s = c :: l -> (pos s < length source)%nat /\ nth_error source (pos s) = Some c /\ skipn (S (pos s)) source = l.
Proof.
  unfold rest. intros H. assert (L : (pos s < length source)%nat).
  { assert (E : length (skipn (pos s) source) = length (c :: l)) by now rewrite H. rewrite skipn_length in E. cbn in E. lia. }
  split; [assumption|]. assert (Q : source = firstn (pos s) source ++ c :: l) by (rewrite <- H; symmetry; apply firstn_skipn). split.
  - rewrite Q, nth_error_app2; rewrite firstn_length_le by lia; [|lia]. now rewrite Nat.sub_diag.
  - rewrite Q at 1. rewrite skipn_app, firstn_length_le by lia. replace (S (pos s) - pos s)%nat with 1%nat by lia. rewrite skipn_all2; [reflexivity|]. rewrite firstn_length_le; lia.
Qed.
Lemma rest_nil s : good s -> rest s = [] -> is_done s = true.
Proof.
  intros [L D] H. rewrite D. apply Nat.eqb_eq. unfold rest in H. assert (E : length (skipn (pos s) source) = 0%nat) by now rewrite H. rewrite skipn_length in E. lia.
Qed.
Lemma done_rest s : good s -> is_done s = true -> rest s = [].
Proof. intros [L D] H. rewrite D in H. apply Nat.eqb_eq in H. unfold rest. rewrite H. apply skipn_all. Qed.
Lemma not_done s c l : good s -> rest s = c :: l -> is_done s = false.
Proof. intros [L D] H. rewrite D. apply Nat.eqb_neq. apply rest_cons in H as (H & _). lia. Qed.

Lemma char_cons s c l : good s -> rest s = c :: l -> exists s', consume_char source s = Ok (true, s') /\ good s' /\ rest s' = l /\ pos s' = S (pos s).
Proof.
  intros G H. pose proof (not_done s c l G H) as D. destruct (rest_cons s c l H) as (L & N & K). unfold consume_char. rewrite check_empty_id, D, N.
  eexists. split; [reflexivity|]. unfold good, rest. cbn [pos is_done]. split; [|split; [exact K|reflexivity]]. split; [lia|].
  destruct (S (pos s) =? length source)%nat; reflexivity.
Qed.

Lemma ws_loop l : forall fuel s, good s -> rest s = l -> (length l < fuel)%nat ->
  exists s', reach_next_token source fuel s = Some (Ok s') /\ good s' /\ rest s' = drop_ws l.
Proof.
  unfold reach_next_token. induction l as [|c l IH]; intros [|fuel] s G H F; try (cbn in F; lia); cbn [repeat_until_false drop_ws].
  - exists s. unfold consume_whitespace. rewrite check_empty_id, (rest_nil s G H). cbn. auto.
  - unfold consume_whitespace. rewrite check_empty_id, (not_done s c l G H). destruct (rest_cons s c l H) as (L & N & K). rewrite N.
    destruct (is_ws c).
    + destruct (char_cons s c l G H) as (s' & E & G' & R' & _). rewrite E. cbn [obind]. apply IH; [assumption|assumption|cbn in F; lia].
    + exists s. cbn. auto.
Qed.
Lemma nw_loop l : forall fuel s, good s -> rest s = l -> (length l < fuel)%nat ->
  exists s', repeat_until_false fuel (consume_non_white source) s = Some (Ok s') /\ good s' /\ rest s' = drop_nw l /\ pos s' = (pos s + length (take_nw l))%nat.
Proof.
  induction l as [|c l IH]; intros [|fuel] s G H F; try (cbn in F; lia); cbn [repeat_until_false drop_nw take_nw].
  - exists s. unfold consume_non_white. rewrite check_empty_id, (rest_nil s G H). cbn. rewrite Nat.add_0_r. auto.
  - unfold consume_non_white. rewrite check_empty_id, (not_done s c l G H). destruct (rest_cons s c l H) as (L & N & K). rewrite N.
    destruct (is_ws c).
    + exists s. cbn. rewrite Nat.add_0_r. auto.
    + destruct (char_cons s c l G H) as (s' & E & G' & R' & P'). rewrite E. cbn [obind].
      destruct (IH fuel s' G' R') as (s2 & E2 & G2 & R2 & P2); [cbn in F; lia|]. exists s2. rewrite P2, P'. cbn [length]. split; [exact E2|]. split; [exact G2|]. split; [exact R2|lia].
Qed.

Lemma token_sim fuel : (length source < fuel)%nat -> forall s ws, seen s ws -> orel (srel seen) (consume_token utf8 source fuel s) (tok ws).
Proof.
  intros F s ws [G W]. unfold consume_token.
  assert (L : (length (rest s) <= length source)%nat) by (unfold rest; rewrite skipn_length; lia).
  destruct (ws_loop (rest s) fuel s G eq_refl) as (s1 & E1 & G1 & R1); [lia|]. rewrite E1. cbn [obind].
  assert (L1 : (length (rest s1) <= length source)%nat) by (unfold rest; rewrite skipn_length; lia).
  destruct (nw_loop (rest s1) fuel s1 G1 eq_refl) as (s2 & E2 & G2 & R2 & P2); [lia|]. rewrite E2. cbn [obind].
  assert (W1 : words (rest s1) = ws) by (rewrite R1, words_drop_ws; exact W).
  rewrite words_take in W1. destruct (take_nw (rest s1)) as [|c w] eqn:T.
  - assert (Z : rest s1 = []) by (rewrite R1 in *; now apply take_nw_nil). rewrite Z in W1. cbn in W1. clear W. subst ws.
    replace (pos s1 =? pos s2)%nat with true by (symmetry; apply Nat.eqb_eq; rewrite P2; cbn [length]; lia). cbn. split; [reflexivity|]. cbn. split; [exact G2|]. rewrite R2, Z. reflexivity.
  - replace (pos s1 =? pos s2)%nat with false by (symmetry; apply Nat.eqb_neq; rewrite P2; cbn [length]; lia).
    assert (Tk : firstn (pos s2 - pos s1) (skipn (pos s1) source) = c :: w).
    { fold (rest s1). rewrite P2. replace (pos s1 + length (c :: w) - pos s1)%nat with (length (c :: w)) by lia. rewrite <- T. rewrite <- (take_drop (rest s1)) at 2.
      rewrite firstn_app, Nat.sub_diag, firstn_all, firstn_O, app_nil_r. reflexivity. }
    rewrite Tk. clear W. subst ws. cbn [tok]. destruct (utf8 (c :: w)); cbn; [|exact I]. split; [reflexivity|]. cbn. split; [exact G2|]. now rewrite R2.
Qed.

Lemma token_empty fuel : (length source < fuel)%nat -> forall s, seen s [] -> exists s', consume_token utf8 source fuel s = Some (Ok ([], s')) /\ is_done s' = true.
Proof.
  intros F s [G W]. unfold consume_token.
  assert (L : (length (rest s) <= length source)%nat) by (unfold rest; rewrite skipn_length; lia).
  destruct (ws_loop (rest s) fuel s G eq_refl) as (s1 & E1 & G1 & R1); [lia|]. rewrite E1. cbn [obind].
  assert (L1 : (length (rest s1) <= length source)%nat) by (unfold rest; rewrite skipn_length; lia).
  destruct (nw_loop (rest s1) fuel s1 G1 eq_refl) as (s2 & E2 & G2 & R2 & P2); [lia|]. rewrite E2. cbn [obind].
  assert (W1 : words (rest s1) = []) by (rewrite R1, words_drop_ws; exact W).
  rewrite words_take in W1. destruct (take_nw (rest s1)) as [|c w] eqn:T; [|discriminate].
  assert (Z : rest s1 = []) by (rewrite R1 in *; now apply take_nw_nil).
  replace (pos s1 =? pos s2)%nat with true by (symmetry; apply Nat.eqb_eq; rewrite P2; cbn [length]; lia). exists s2. split; [reflexivity|]. apply rest_nil; [assumption|]. rewrite R2, Z. reflexivity.
Qed.

Lemma object_sim fuel : (length source < fuel)%nat -> forall r s w ws, seen s (w :: ws) ->
  orel (srel seen) (consume_object utf8 pf source fuel r s) (tok_object fuel r (w :: ws)).
Proof.
  intros F r s w ws [G W]. unfold consume_object.
  assert (L : (length (rest s) <= length source)%nat) by (unfold rest; rewrite skipn_length; lia).
  destruct (ws_loop (rest s) fuel s G eq_refl) as (s1 & E1 & G1 & R1); [lia|]. rewrite E1. cbn [obind].
  assert (S1 : seen s1 (w :: ws)) by (split; [exact G1|rewrite R1, words_drop_ws; exact W]).
  destruct (is_done s1) eqn:D1; [destruct S1 as [_ S1]; rewrite (done_rest s1 G1 D1) in S1; discriminate|].
  unfold tok_object. eapply orel_bind; [apply token_sim; [exact F|exact S1]|]. intros [m sm] [m' wm] [Em Sm]. cbn in Em, Sm. subst m'.
  destruct (is_done sm) eqn:Dm.
  { destruct Sm as [Gm Wm]. rewrite (done_rest sm Gm Dm) in Wm. subst wm. exact I. }
  destruct wm as [|w2 wm].
  { destruct (token_empty fuel F sm Sm) as (st & -> & D). cbn [obind]. rewrite D. exact I. }
  eapply orel_bind; [apply token_sim; [exact F|exact Sm]|]. intros [ty st] [ty' wt] [Et St]. cbn in Et, St. subst ty'.
  destruct (is_done st) eqn:Dt.
  { destruct St as [Gt Wt]. rewrite (done_rest st Gt Dt) in Wt. subst wt. exact I. }
  destruct wt as [|w3 wt].
  { destruct (token_empty fuel F st St) as (sn & -> & D). cbn [obind]. rewrite D. exact I. }
  eapply orel_bind; [apply token_sim; [exact F|exact St]|]. intros [nm sn] [nm' wn] [En Sn]. cbn in En, Sn. subst nm'.
  destruct (is_done sn) eqn:Dn.
  { destruct Sn as [Gn Wn]. rewrite (done_rest sn Gn Dn) in Wn. subst wn. exact I. }
  destruct wn as [|w4 wn].
  { destruct (token_empty fuel F sn Sn) as (se & E & D). erewrite kind_empty by exact E. exact I. }
  apply kind_sim with (R := seen); [|exact Sn]. intros. now apply token_sim.
Qed.
End Src.

(** The number of words left decreases. *)
Lemma tok_shorter n : forall s t, s = t /\ (length s <= n)%nat -> orel (srel (fun s t : list text => s = t /\ (length s <= n)%nat)) (tok s) (tok t).
Proof.
  intros s t [<- L]. destruct s as [|w s]; cbn; [unfold srel; cbn; auto with arith|]. destruct (utf8 w); cbn; [|exact I]. unfold srel. cbn. cbn in L. repeat split; lia.
Qed.
Lemma kind_shorter fuel r m ty nm ws r' ws' : consume_kind pf tok fuel r m ty nm ws = Some (Ok (r', ws')) -> (length ws' <= length ws)%nat.
Proof.
  intros H. pose proof (kind_sim pf tok tok _ (tok_shorter (length ws)) fuel r m ty nm ws ws (conj eq_refl (le_n _))) as K.
  rewrite H in K. cbn in K. destruct K as (_ & _ & K). exact K.
Qed.
Lemma object_shorter fuel r ws r' ws' : tok_object fuel r ws = Some (Ok (r', ws')) -> (length ws' < length ws)%nat.
Proof.
  unfold tok_object. destruct ws as [|w ws]; cbn [tok obind done]; [discriminate|]. destruct (utf8 w); cbn [obind done]; [|discriminate].
  destruct ws as [|w2 ws]; [discriminate|]. cbn [tok obind done]. destruct (utf8 w2); cbn [obind done]; [|discriminate].
  destruct ws as [|w3 ws]; [discriminate|]. cbn [tok obind done]. destruct (utf8 w3); cbn [obind done]; [|discriminate].
  destruct ws as [|w4 ws]; [discriminate|]. intros H. apply kind_shorter in H. cbn [length] in *. lia.
Qed.

(** Enough fuel *)
Context (Hpf : pf [] = None).
Lemma number_tok ws : number pf tok ws = match ws with [] => Some Err | w :: ws => if utf8 w then match pf w with Some x => Some (Ok (x, ws)) | None => Some Err end else Some Err end.
Proof. unfold number. destruct ws as [|w ws]; cbn; [now rewrite Hpf|]. destruct (utf8 w); reflexivity. Qed.
Lemma vertices_fuel : forall f1 f2 n l ws, (length ws < f1)%nat -> (length ws < f2)%nat ->
  vertices pf tok f1 n l ws = vertices pf tok f2 n l ws /\ vertices pf tok f1 n l ws <> None.
Proof.
  induction f1 as [|f1 IH]; intros [|f2] n l ws H1 H2; try lia. cbn [vertices]. destruct n as [|n]; [split; [reflexivity|discriminate]|].
  rewrite number_tok. destruct ws as [|w ws]; [split; [reflexivity|discriminate]|]. destruct (utf8 w); [|split; [reflexivity|discriminate]].
  destruct (pf w) as [x|]; cbn [obind]; [|split; [reflexivity|discriminate]]. rewrite number_tok.
  destruct ws as [|w2 ws]; [split; [reflexivity|discriminate]|]. destruct (utf8 w2); [|split; [reflexivity|discriminate]].
  destruct (pf w2) as [y|]; cbn [obind]; [|split; [reflexivity|discriminate]]. rewrite number_tok.
  destruct ws as [|w3 ws]; [split; [reflexivity|discriminate]|]. destruct (utf8 w3); [|split; [reflexivity|discriminate]].
  destruct (pf w3) as [z|]; cbn [obind]; [|split; [reflexivity|discriminate]].
  destruct (push l (mkV x y z)) as [l'| |]; cbn [obind done]; [|split; [reflexivity|discriminate]|split; [reflexivity|discriminate]].
  apply IH; cbn [length] in *; lia.
Qed.

Lemma bind_total {A B} (x : out A) (f : A -> out B) : x <> None -> (forall a, x = Some (Ok a) -> f a <> None) -> obind x f <> None.
Proof. intros H K. destruct x as [[a| |]|]; cbn; try discriminate; [now apply K|congruence]. Qed.
Lemma tok_total ws : tok ws <> None.
Proof. destruct ws as [|w ws]; cbn; [discriminate|]. destruct (utf8 w); discriminate. Qed.
Lemma expect_total w ws : expect tok w ws <> None.
Proof. unfold expect. apply bind_total; [apply tok_total|]. intros [t s] _. destruct (text_eqb _ _); discriminate. Qed.
Lemma number_total ws : number pf tok ws <> None.
Proof. unfold number. apply bind_total; [apply tok_total|]. intros [t s] _. destruct (pf t); discriminate. Qed.
Ltac total := repeat first
  [ apply bind_total; [first [apply expect_total | apply number_total | apply tok_total | discriminate]|]; intros; try match goal with x : _ * _ |- _ => destruct x end
  | progress unfold add_material, done
  | match goal with |- (let '(_, _) := ?r in _) <> None => destruct r end
  | match goal with |- (if ?b then _ else _) <> None => destruct b end
  | discriminate ].
Lemma expect_length w ws ws' : expect tok w ws = Some (Ok ws') -> (length ws' <= length ws)%nat.
Proof.
  unfold expect. destruct ws as [|x ws]; cbn; [destruct (text_eqb [] (txt w)); cbn; intros H; inversion H; subst; cbn; lia|].
  destruct (utf8 x); cbn; [|discriminate]. destruct (text_eqb x (txt w)); cbn; intros H; inversion H; subst; lia.
Qed.
Lemma tok_length t ws ws' : tok ws = Some (Ok (t, ws')) -> (length ws' <= length ws)%nat.
Proof. destruct ws as [|x ws]; cbn; [intros H; inversion H; subst; cbn; lia|]. destruct (utf8 x); cbn; intros H; inversion H; subst; lia. Qed.
Lemma kind_fuel f1 f2 r m ty nm ws : (length ws < f1)%nat -> (length ws < f2)%nat ->
  consume_kind pf tok f1 r m ty nm ws = consume_kind pf tok f2 r m ty nm ws /\ consume_kind pf tok f1 r m ty nm ws <> None.
Proof.
  intros H1 H2. unfold consume_kind.
  destruct (text_eqb ty (txt "plastic")); [split; [reflexivity|unfold consume_plastic; total]|].
  destruct (text_eqb ty (txt "metal")); [split; [reflexivity|unfold consume_metal; total]|].
  destruct (text_eqb ty (txt "light")); [split; [reflexivity|unfold consume_light; total]|].
  destruct (text_eqb ty (txt "mirror")); [split; [reflexivity|unfold consume_mirror; total]|].
  destruct (text_eqb ty (txt "dielectric")); [split; [reflexivity|unfold consume_dielectric; total]|].
  destruct (text_eqb ty (txt "glass")); [split; [reflexivity|unfold consume_glass; total]|].
  destruct (text_eqb ty (txt "sphere")); [split; [reflexivity|unfold consume_sphere; total]|].
  destruct (text_eqb ty (txt "source")); [split; [reflexivity|unfold consume_source; total]|].
  destruct (text_eqb ty (txt "polygon")); [|split; [reflexivity|discriminate]].
  unfold consume_polygon. destruct r as [ms sc].
  destruct (expect tok "0" ws) as [[ws1| |]|] eqn:E1; cbn [obind]; try (split; [reflexivity|discriminate]); [|now apply expect_total in E1].
  destruct (expect tok "0" ws1) as [[ws2| |]|] eqn:E2; cbn [obind]; try (split; [reflexivity|discriminate]); [|now apply expect_total in E2].
  destruct (tok ws2) as [[[t ws3]| |]|] eqn:E3; cbn [obind]; try (split; [reflexivity|discriminate]); [|now apply tok_total in E3].
  destruct (parse_usize t) as [n|]; [|split; [reflexivity|discriminate]]. destruct (negb _); [split; [reflexivity|discriminate]|].
  apply expect_length in E1. apply expect_length in E2. apply tok_length in E3.
  destruct (vertices_fuel f1 f2 n loop_new ws3) as [V T]; [lia|lia|]. rewrite <- V. split; [reflexivity|].
  apply bind_total; [exact T|]. intros [l s'] _. total.
Qed.
Lemma object_fuel f1 f2 r ws : (length ws < f1)%nat -> (length ws < f2)%nat ->
  tok_object f1 r ws = tok_object f2 r ws /\ tok_object f1 r ws <> None.
Proof.
  intros H1 H2. unfold tok_object. destruct ws as [|w ws]; cbn [tok obind done]; [split; [reflexivity|discriminate]|]. destruct (utf8 w); cbn [obind done]; [|split; [reflexivity|discriminate]].
  destruct ws as [|w2 ws]; [split; [reflexivity|discriminate]|]. cbn [tok obind done]. destruct (utf8 w2); cbn [obind done]; [|split; [reflexivity|discriminate]].
  destruct ws as [|w3 ws]; [split; [reflexivity|discriminate]|]. cbn [tok obind done]. destruct (utf8 w3); cbn [obind done]; [|split; [reflexivity|discriminate]].
  destruct ws as [|w4 ws]; [split; [reflexivity|discriminate]|]. apply kind_fuel; cbn [length] in *; lia.
Qed.
Lemma objects_fuel : forall t1 t2 f1 f2 r ws, (length ws <= t1)%nat -> (length ws <= t2)%nat -> (length ws < f1)%nat -> (length ws < f2)%nat ->
  tok_objects t1 f1 r ws = tok_objects t2 f2 r ws /\ tok_objects t1 f1 r ws <> None.
Proof.
  induction t1 as [|t1 IH]; intros t2 f1 f2 r ws T1 T2 F1 F2.
  - destruct ws; [|cbn in T1; lia]. destruct t2; cbn; (split; [reflexivity|discriminate]).
  - destruct ws as [|w ws]; [destruct t2; cbn; (split; [reflexivity|discriminate])|]. destruct t2 as [|t2]; [cbn in T2; lia|].
    cbn [tok_objects]. destruct (object_fuel f1 f2 r (w :: ws) F1 F2) as [E T]. rewrite <- E.
    destruct (tok_object f1 r (w :: ws)) as [[[r' ws']| |]|] eqn:O; cbn [obind]; try (split; [reflexivity|discriminate]); [|congruence].
    apply object_shorter in O. apply IH; lia.
Qed.

(** What a list of words gives *)
Definition read_words (ws : list text) : out RScene :=
  run r <- tok_objects (length ws) (S (length ws)) ([], empty_scene) ws; done (Ok (snd r)).

Lemma objects_sim source : source <> [] -> forall turns fuel, (length source < fuel)%nat -> forall r s ws, seen source s ws -> (length ws < turns)%nat ->
  consume_objects utf8 pf source turns fuel r s = tok_objects turns fuel r ws.
Proof.
  intros NE. induction turns as [|turns IH]; intros fuel F r s ws Sn T; [lia|]. cbn [consume_objects].
  destruct (is_done s) eqn:D.
  { destruct Sn as [G W]. rewrite (done_rest source s G D) in W. cbn in W. subst ws. reflexivity. }
  destruct ws as [|w ws].
  - destruct Sn as [G W]. unfold consume_object. assert (L : (length (rest source s) <= length source)%nat) by (unfold rest; rewrite skipn_length; lia).
    destruct (ws_loop source NE (rest source s) fuel s G eq_refl) as (s1 & E1 & G1 & R1); [lia|]. rewrite E1. cbn [obind].
    assert (Z : rest source s1 = []).
    { rewrite words_take in W. rewrite <- words_drop_ws in W. rewrite R1. destruct (take_nw (drop_ws (rest source s))) eqn:Tk; [now apply take_nw_nil|].
      exfalso. clear - W Tk. destruct (take_nw (rest source s)) eqn:Q; [|discriminate]. rewrite words_take, Tk in W. discriminate. }
    rewrite (rest_nil source s1 G1 Z). cbn [obind done]. destruct turns; cbn [consume_objects]; rewrite (rest_nil source s1 G1 Z); reflexivity.
  - cbn [tok_objects]. pose proof (object_sim source NE fuel F r s w ws Sn) as O.
    destruct (consume_object utf8 pf source fuel r s) as [[[r1 s1]| |]|], (tok_object fuel r (w :: ws)) as [[[r2 ws2]| |]|] eqn:O2; cbn in O; try contradiction; cbn [obind]; try reflexivity.
    destruct O as [E O]. cbn in E, O. subst r2. apply object_shorter in O2. apply IH; [exact F|exact O|cbn [length] in *; lia].
Qed.

Lemma source_words source fuel : (length source < fuel)%nat -> from_radiance_source utf8 pf source fuel = read_words (words source) /\ read_words (words source) <> None.
Proof.
  intros F. pose proof (words_length source) as L. unfold from_radiance_source, read_words.
  destruct (objects_fuel (length (words source)) fuel (S (length (words source))) fuel ([], empty_scene) (words source)) as [E T]; [lia|lia|lia|lia|].
  split; [|apply bind_total; [exact T|discriminate]]. f_equal. rewrite E.
  destruct (list_eq_dec ascii_dec source []) as [->|NE].
  - destruct fuel as [|[|fuel]]; [lia| |]; reflexivity.
  - apply objects_sim; [assumption|assumption| |lia]. split; [|reflexivity]. split; cbn; [lia|]. destruct source; [congruence|reflexivity].
Qed.
End Words.

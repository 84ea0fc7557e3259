(** C20, C21, C55-C57: reading SIMPLE files (model/src/scanner.rs). *)
From Coq Require Import String Ascii List Arith Lia Bool ZArith.
From Verif Require Import Common.Base Scanner.ScannerModel Scanner.ScannerProofs.
Import ListNotations.
Open Scope list_scope.

Definition text (s : string) : list ascii := list_ascii_of_string s.

(** ** C20: the scanner terminates *)

(** Partial: the scanning of any file ends within a number of loop iterations linear in its length, without
    panicking, or else it never ends.  When it never ends and the file has no slash, the file ends in a letter, a digit, an
    underscore or white space, i.e. an identifier is not followed by an object. *)
Theorem C20_terminates_partial : forall utf8_ok src ln,
  (exists r n, (forall fuel, length src < fuel -> scan utf8_ok fuel src ln = Some (r, n)) /\
     n <= 9 * length src + 2 /\ r <> Panic) \/
  ((forall fuel, scan utf8_ok fuel src ln = None) /\
   (~ In "/"%char src -> exists b x, src = b ++ [x] /\ (is_ident_char x = true \/ is_white x = true))).
Proof.
  intros utf8_ok src ln. unfold scan. rewrite init_mk.
  destruct (scan_loop_cases src utf8_ok (length src) src ln 0 0 0) as [(r & n & E & N & P)|E]; auto; [lia|].
  left. exists r, n. split; [|split; [lia|exact P]]. intros fuel Hf. apply E. lia.
Qed.

(** A file without slashes which ends in a brace or a parenthesis is always read. *)
Theorem C20_terminates_closed : forall utf8_ok b x ln, (x = "}" \/ x = ")")%char -> ~ In "/"%char b ->
  exists r n, (forall fuel, S (length b) < fuel -> scan utf8_ok fuel (b ++ [x]) ln = Some (r, n)) /\
     n <= 9 * S (length b) + 2 /\ r <> Panic.
Proof.
  intros utf8_ok b x ln Hx Hb.
  assert (L : length (b ++ [x]) = S (length b)) by (rewrite app_length; cbn; lia).
  destruct (C20_terminates_partial utf8_ok (b ++ [x]) ln) as [(r & n & E & N & P)|[E W]].
  - rewrite L in *. eauto.
  - exfalso. destruct W as (b' & y & Q & Z).
    + intros [I|[I|[]]]%in_app_or; [now apply Hb|]. destruct Hx as [-> | ->]; discriminate I.
    + apply app_inj_tail in Q as [_ <-]. destruct Hx as [-> | ->]; destruct Z as [Z|Z]; discriminate Z.
Qed.

(** False in general: after an identifier at the end of the file the scanner never stops. *)
Theorem C20_terminates_refuted : exists src : list ascii,
  forall utf8_ok fuel ln, scan utf8_ok fuel src ln = None.
Proof.
  exists (text "Space"). intros utf8_ok fuel ln.
  destruct (C20_terminates_partial utf8_ok (text "Space") ln) as [(r & n & E & _)|[E _]]; [|apply E].
  exfalso. specialize (E 6 ltac:(cbn; lia)). revert E.
  unfold scan. rewrite init_mk. cbv - [object scan_loop text length skip_white_space].
  vm_compute. discriminate.
Qed.

Example C20_example : scan (fun _ => true) 100 (text "Space { a: { b: 1 } }  Space{}") 1 =
  Some (Ok [mkToken (text "Space") (text "{ a: { b: 1 } }") 1; mkToken (text "Space") (text "{}") 1], 39).
Proof. vm_compute. reflexivity. Qed.

(** ** C21: blanks and comments between tokens do not matter *)

Definition same_tokens (ds1 ds2 : list decl) : Prop :=
  Forall2 (fun a b => d_ident a = d_ident b /\ d_object a = d_object b) ds1 ds2.

Definition wf_file (utf8_ok : list ascii -> bool) (lead : list ascii) (ds : list decl) (tail : list ascii) : Prop :=
  blanks lead /\ Forall wf_decl ds /\ Forall (fun d => utf8_ok (d_object d) = true) ds /\ file_end tail.

(** The tokens of a file are its identifiers and its objects, with the line where the object ends. *)
Theorem C21_tokens : forall utf8_ok lead ds tail ln fuel, wf_file utf8_ok lead ds tail ->
  length (file_text lead ds tail) < fuel ->
  exists ts n, scan utf8_ok fuel (file_text lead ds tail) ln = Some (Ok ts, n) /\
    map (fun t => (t_ident t, t_object t)) ts = map (fun d => (d_ident d, d_object d)) ds.
Proof.
  intros utf8_ok lead ds tail ln fuel (W1 & W2 & W3 & W4) Hf. unfold scan. rewrite init_mk.
  destruct (scan_file utf8_ok tail W4 ds W2 W3 (file_text lead ds tail) lead ln 0 0 0 fuel) as (n & E); auto; [lia|].
  rewrite E. eexists _, _. split; [reflexivity|]. generalize (ln + count_nl lead). clear.
  induction ds as [|d ds IH]; intros l; cbn; [reflexivity|]. now rewrite IH.
Qed.

(** Changing the blanks and comments between tokens does not change the tokens, nor the model that is read. *)
Theorem C21_blanks_irrelevant : forall utf8_ok lead1 ds1 tail1 lead2 ds2 tail2,
  wf_file utf8_ok lead1 ds1 tail1 -> wf_file utf8_ok lead2 ds2 tail2 -> same_tokens ds1 ds2 ->
  forall fuel1 fuel2, length (file_text lead1 ds1 tail1) < fuel1 -> length (file_text lead2 ds2 tail2) < fuel2 ->
  (exists ts1 n1 ts2 n2, scan utf8_ok fuel1 (file_text lead1 ds1 tail1) 1 = Some (Ok ts1, n1) /\
     scan utf8_ok fuel2 (file_text lead2 ds2 tail2) 1 = Some (Ok ts2, n2) /\
     map (fun t => (t_ident t, t_object t)) ts1 = map (fun t => (t_ident t, t_object t)) ts2) /\
  (forall (M : Type) (add : list ascii -> list ascii -> M -> res M) m0,
     parse_model add utf8_ok fuel1 (file_text lead1 ds1 tail1) m0 =
     parse_model add utf8_ok fuel2 (file_text lead2 ds2 tail2) m0).
Proof.
  intros utf8_ok lead1 ds1 tail1 lead2 ds2 tail2 W1 W2 Hs fuel1 fuel2 F1 F2.
  destruct (C21_tokens utf8_ok lead1 ds1 tail1 1 fuel1 W1 F1) as (ts1 & n1 & E1 & M1).
  destruct (C21_tokens utf8_ok lead2 ds2 tail2 1 fuel2 W2 F2) as (ts2 & n2 & E2 & M2).
  assert (MM : map (fun t => (t_ident t, t_object t)) ts1 = map (fun t => (t_ident t, t_object t)) ts2).
  { rewrite M1, M2. clear - Hs. induction Hs as [|a b l1 l2 [Hi Ho] _ IH]; cbn; [reflexivity|]. now rewrite Hi, Ho, IH. }
  split.
  - exists ts1, n1, ts2, n2. auto.
  - intros M add m0. unfold parse_model. rewrite E1, E2. f_equal. apply build_ext. intros i _.
    unfold objects_of. clear - MM. revert ts2 MM. induction ts1 as [|t ts1 IH]; intros [|t2 ts2] MM; try discriminate; [reflexivity|].
    cbn [map] in MM. injection MM as Hi Ho MM. cbn [filter]. rewrite Hi.
    destruct (ident_eqb (t_ident t2) i); cbn [map]; rewrite ?Ho; rewrite (IH ts2); auto.
Qed.

Definition d_demo (gap after : list ascii) : decl := mkDecl (text "Space") gap (text "{ a: (1) }") after.

Lemma demo_blank : blanks (text "/* } */" ++ [nl] ++ text "// {" ++ [nl]).
Proof.
  change (text "/* } */" ++ [nl] ++ text "// {" ++ [nl])
    with (text "/* } */" ++ ([nl] ++ ((text "// {" ++ [nl]) ++ []))).
  constructor; [|constructor; [|constructor; [|constructor]]].
  - apply (blank_block (text " } ")). intros p q.
    destruct p as [|? [|? [|? [|? [|]]]]]; cbn; intros Q; discriminate Q.
  - now apply blank_white.
  - now apply (blank_line (text " {")).
Qed.

Lemma demo_object : object_text (text "{ a: (1) }").
Proof.
  apply (object_braces (text " a: (1) ")).
  repeat (apply matched_other; [intros Q; discriminate Q|intros Q; discriminate Q|]). constructor.
Qed.

Lemma demo_ident : Forall (fun x => is_ident_char x = true) (text "Space").
Proof. repeat constructor. Qed.

Example C21_example :
  wf_file (fun _ => true) [] [d_demo [] []; d_demo [] []] [] /\
  wf_file (fun _ => true) [nl] [d_demo (text "/* } */" ++ [nl] ++ text "// {" ++ [nl]) [" "%char]; d_demo [tab] []] (text "// the end {") /\
  same_tokens [d_demo [] []; d_demo [] []]
    [d_demo (text "/* } */" ++ [nl] ++ text "// {" ++ [nl]) [" "%char]; d_demo [tab] []] /\
  file_text [] [d_demo [] []; d_demo [] []] [] = text "Space{ a: (1) }Space{ a: (1) }".
Proof.
  assert (B : forall x, is_white x = true -> blanks [x]).
  { intros x Hx. change [x] with ([x] ++ []). constructor; [now constructor|constructor]. }
  split; [|split; [|split]].
  - repeat split; try constructor; try discriminate; repeat (constructor; try discriminate); try apply demo_ident; try apply demo_object; try constructor.
  - split; [now apply B|]. split; [|split; [repeat constructor|now constructor]].
    repeat (constructor; [split; [discriminate|]; split; [apply demo_ident|]; split; [first [apply demo_blank|now apply B]|];
      split; [apply demo_object|first [now apply B|constructor]]|]). constructor.
  - repeat constructor.
  - reflexivity.
Qed.

(** Inside an object comments do matter, although its syntax (JSON5) allows them: a brace in a comment splits the object
    in a different place. *)
Theorem C21_comment_inside_object_refuted : exists utf8_ok obj1 obj2,
  obj2 = text "{ name: 1, " ++ text "/* } */" ++ text " }" /\ obj1 = text "{ name: 1, " ++ text " }" /\
  (exists n, scan utf8_ok 100 (text "Space " ++ obj1) 1 = Some (Ok [mkToken (text "Space") obj1 1], n)) /\
  (exists n, scan utf8_ok 100 (text "Space " ++ obj2) 1 =
     Some (Ok [mkToken (text "Space") (text "{ name: 1, /* }") 1; mkToken [] (text "*/ }") 1], n)).
Proof.
  exists (fun _ => true), (text "{ name: 1, " ++ text " }"), (text "{ name: 1, " ++ text "/* } */" ++ text " }").
  repeat split; eexists; vm_compute; reflexivity.
Qed.

(** A brace in a quoted name does the same. *)
Theorem C21_brace_in_string_refuted : exists utf8_ok obj t1 t2 n,
  obj = text "{ name: '}' }" /\ scan utf8_ok 100 (text "Space " ++ obj) 1 = Some (Ok [t1; t2], n) /\
  t_object t1 <> obj.
Proof.
  exists (fun _ => true), (text "{ name: '}' }"). eexists _, _, _. split; [reflexivity|]. split; [vm_compute; reflexivity|].
  cbn. discriminate.
Qed.

(** ** C55: declarations of different kinds can come in any order *)

Theorem C55_order_of_kinds : forall utf8_ok lead pre d1 d2 post tail,
  wf_file utf8_ok lead (pre ++ d1 :: d2 :: post) tail -> d_ident d1 <> d_ident d2 ->
  forall (M : Type) (add : list ascii -> list ascii -> M -> res M) m0 fuel,
  length (file_text lead (pre ++ d1 :: d2 :: post) tail) < fuel ->
  parse_model add utf8_ok fuel (file_text lead (pre ++ d1 :: d2 :: post) tail) m0 =
  parse_model add utf8_ok fuel (file_text lead (pre ++ d2 :: d1 :: post) tail) m0.
Proof.
  intros utf8_ok lead pre d1 d2 post tail W Hd M add m0 fuel Hf.
  assert (W' : wf_file utf8_ok lead (pre ++ d2 :: d1 :: post) tail).
  { destruct W as (A & B & C & D). repeat split; auto.
    - apply Forall_app in B as [B1 B2]. inversion B2 as [|? ? P1 P2]; subst. inversion P2; subst.
      apply Forall_app. auto.
    - apply Forall_app in C as [B1 B2]. inversion B2 as [|? ? P1 P2]; subst. inversion P2; subst.
      apply Forall_app. auto. }
  assert (Hf' : length (file_text lead (pre ++ d2 :: d1 :: post) tail) < fuel).
  { unfold file_text in *. rewrite !flat_map_app in *. cbn [flat_map] in *. rewrite !app_length in *. lia. }
  destruct (C21_tokens utf8_ok lead _ tail 1 fuel W Hf) as (ts1 & n1 & E1 & M1).
  destruct (C21_tokens utf8_ok lead _ tail 1 fuel W' Hf') as (ts2 & n2 & E2 & M2).
  unfold parse_model. rewrite E1, E2. f_equal. apply build_ext. intros i _. unfold objects_of.
  assert (G : forall ts, map t_object (filter (fun t => ident_eqb (t_ident t) i) ts) =
     map snd (filter (fun p => ident_eqb (fst p) i) (map (fun t => (t_ident t, t_object t)) ts))).
  { clear. induction ts as [|t ts IH]; cbn; [reflexivity|]. destruct (ident_eqb (t_ident t) i); cbn; now rewrite IH. }
  rewrite !G, M1, M2, !map_app, !filter_app. cbn [map filter fst].
  destruct (ident_eqb (d_ident d1) i) eqn:I1, (ident_eqb (d_ident d2) i) eqn:I2; auto.
  apply ident_eqb_eq in I1, I2. congruence.
Qed.

Definition d_out : decl := mkDecl (text "Output") [] (text "(1)") [nl].
Definition d_space : decl := mkDecl (text "Space") [] (text "{ a: (1) }") [nl].

Example C55_example : wf_file (fun _ => true) [] ([] ++ d_out :: d_space :: []) [] /\ d_ident d_out <> d_ident d_space /\
  parse_model (fun i o m => Ok (m ++ i ++ o)) (fun _ => true) 100 (file_text [] [d_out; d_space] []) [] =
  Some (Ok (text "Space{ a: (1) }Output(1)")).
Proof.
  assert (B : forall x, is_white x = true -> blanks [x]).
  { intros x Hx. change [x] with ([x] ++ []). constructor; [now constructor|constructor]. }
  split; [|split; [discriminate|vm_compute; reflexivity]].
  split; [constructor|]. split; [|split; [repeat constructor|constructor]].
  constructor; [|constructor; [|constructor]].
  - split; [discriminate|]. split; [repeat constructor|]. split; [constructor|]. split; [|now apply B].
    apply (object_parens (text "1")). apply matched_other; [discriminate|discriminate|constructor].
  - split; [discriminate|]. split; [apply demo_ident|]. split; [constructor|]. split; [|now apply B]. apply demo_object.
Qed.

(** ** C56: an object of an unknown kind is reported *)

(** False: a misspelt kind is dropped without notice. *)
Theorem C56_unknown_kind_refuted : exists src : list ascii,
  forall (M : Type) (add : list ascii -> list ascii -> M -> res M) m0,
  parse_model add (fun _ => true) 100 src m0 = Some (Ok m0) /\
  exists t n, scan (fun _ => true) 100 src 1 = Some (Ok [t], n).
Proof.
  exists (text "Spcae { name: 'Bedroom' }"). intros M add m0. split; [vm_compute; reflexivity|].
  eexists _, _. vm_compute. reflexivity.
Qed.

(** The kinds of objects that are read: a kind comes after the kinds its objects refer to by name. *)
Definition documented_kinds : list (list ascii) :=
  [text "Space"; text "Substance"; text "Material"; text "Construction"; text "Surface"; text "Fenestration"; text "Building";
   text "HVAC"; text "Luminaire"; text "Object"; text "Output"; text "SiteDetails"; text "SolarOptions"].

(** What is read of a file are exactly the objects of known kinds. *)
Theorem C56_known_kinds : forall utf8_ok lead ds tail, wf_file utf8_ok lead ds tail ->
  forall (M : Type) (add : list ascii -> list ascii -> M -> res M) m0 fuel,
  length (file_text lead ds tail) < fuel ->
  parse_model add utf8_ok fuel (file_text lead ds tail) m0 =
  Some (fold_left (fun acc i =>
    fold_left (fun acc d => match acc with Ok m => add i (d_object d) m | r => r end)
      (filter (fun d => ident_eqb (d_ident d) i) ds) acc) documented_kinds (Ok m0)).
Proof.
  change documented_kinds with read_order.
  intros utf8_ok lead ds tail W M add m0 fuel Hf.
  destruct (C21_tokens utf8_ok lead ds tail 1 fuel W Hf) as (ts & n & E & M1).
  unfold parse_model. rewrite E. f_equal.
  assert (OB : forall i, objects_of i ts = map d_object (filter (fun d => ident_eqb (d_ident d) i) ds)).
  { intros i. unfold objects_of. revert ds M1 W E Hf. clear.
    induction ts as [|t ts IH]; intros [|d ds] M1 _ _ _; try discriminate; [reflexivity|].
    cbn [map] in M1. injection M1 as Hi Ho M1. cbn [filter]. rewrite Hi.
    assert (Q : map t_object (filter (fun t0 => ident_eqb (t_ident t0) i) ts) = map d_object (filter (fun d0 => ident_eqb (d_ident d0) i) ds)).
    { clear - M1. revert ds M1. induction ts as [|t ts IH]; intros [|d ds] M1; try discriminate; [reflexivity|].
      cbn [map] in M1. injection M1 as Hi Ho M1. cbn [filter]. rewrite Hi.
      destruct (ident_eqb (d_ident d) i); cbn [map]; rewrite ?Ho; now rewrite (IH ds). }
    destruct (ident_eqb (d_ident d) i); cbn [map]; rewrite ?Ho; now rewrite Q. }
  assert (ST : forall l (r : res M), (forall m, r <> Ok m) -> forall i,
     fold_left (fun acc d => match acc with Ok m => add i (d_object d) m | r => r end) l r = r).
  { induction l as [|d l IH]; intros r Hr i; cbn; [reflexivity|].
    destruct r; [exfalso; eapply Hr; reflexivity| |]; apply IH; discriminate. }
  assert (AD : forall i l m, add_all add i (map d_object l) m =
     fold_left (fun acc d => match acc with Ok m => add i (d_object d) m | r => r end) l (Ok m)).
  { intros i. induction l as [|d l IH]; intros m; cbn; [reflexivity|].
    destruct (add i (d_object d) m) eqn:Ea; cbn; [apply IH| |]; symmetry; apply ST; discriminate. }
  assert (ST2 : forall order (r : res M), (forall m, r <> Ok m) ->
     fold_left (fun acc i => fold_left (fun acc d => match acc with Ok m => add i (d_object d) m | r => r end)
      (filter (fun d => ident_eqb (d_ident d) i) ds) acc) order r = r).
  { induction order as [|i order IH]; intros r Hr; cbn; [reflexivity|]. rewrite ST by exact Hr. now apply IH. }
  generalize read_order as order. intros order. revert m0. induction order as [|i order IH]; intros m0; cbn; [reflexivity|].
  rewrite OB, AD.
  destruct (fold_left _ (filter _ ds) (Ok m0)) eqn:Ef; cbn; [apply IH| |]; symmetry; apply ST2; discriminate.
Qed.

(** ** C57: the line reported for an object is the line where it ends *)

Theorem C57_lines : forall utf8_ok lead pre d post tail ln fuel,
  wf_file utf8_ok lead (pre ++ d :: post) tail -> length (file_text lead (pre ++ d :: post) tail) < fuel ->
  exists ts n t, scan utf8_ok fuel (file_text lead (pre ++ d :: post) tail) ln = Some (Ok ts, n) /\
    nth_error ts (length pre) = Some t /\ t_object t = d_object d /\
    t_line t = ln + count_occ ascii_dec (lead ++ flat_map decl_text pre ++ d_ident d ++ d_gap d ++ d_object d) nl.
Proof.
  intros utf8_ok lead pre d post tail ln fuel (W1 & W2 & W3 & W4) Hf. unfold scan. rewrite init_mk.
  destruct (scan_file utf8_ok tail W4 _ W2 W3 (file_text lead (pre ++ d :: post) tail) lead ln 0 0 0 fuel) as (n & E); auto; [lia|].
  rewrite E.
  assert (CO : forall l, count_occ ascii_dec l nl = count_nl l).
  { induction l as [|x l IH]; [reflexivity|]. cbn [count_occ count_nl]. rewrite IH.
    destruct (ascii_dec x nl) as [->|Hx]; [reflexivity|]. apply Ascii.eqb_neq in Hx. now rewrite Hx. }
  rewrite CO.
  assert (ID : forall i, Forall (fun x => is_ident_char x = true) i -> count_nl i = 0).
  { intros i Hi. induction Hi as [|x i Hx Hi IH]; [reflexivity|]. cbn [count_nl]. now rewrite (ident_char_not_nl _ Hx), IH. }
  assert (G : forall pre l, Forall wf_decl (pre ++ d :: post) -> exists t,
     nth_error (tokens_from l (pre ++ d :: post)) (length pre) = Some t /\ t_object t = d_object d /\
     t_line t = l + count_nl (flat_map decl_text pre ++ d_ident d ++ d_gap d ++ d_object d)).
  { clear - ID. induction pre as [|p pre IH]; intros l W; inversion W as [|? ? (A1 & A2 & A3 & A4 & A5) W']; subst.
    - cbn. eexists. split; [reflexivity|]. cbn. split; [reflexivity|]. rewrite !count_nl_app, (ID _ A2). lia.
    - cbn [app tokens_from length nth_error].
      destruct (IH (l + count_nl (d_gap p) + count_nl (d_object p) + count_nl (d_after p)) W') as (t & T1 & T2 & T3).
      exists t. split; [exact T1|]. split; [exact T2|]. rewrite T3. cbn [flat_map]. unfold decl_text at 2.
      rewrite !count_nl_app, (ID _ A2). lia. }
  destruct (G pre (ln + count_nl lead) W2) as (t & T1 & T2 & T3).
  exists (tokens_from (ln + count_nl lead) (pre ++ d :: post)), n, t. repeat split; auto.
  rewrite T3, (count_nl_app lead). lia.
Qed.

Example C57_example : wf_file (fun _ => true) [nl] ([d_out] ++ d_space :: []) [] /\
  exists ts n t, scan (fun _ => true) 100 (file_text [nl] ([d_out] ++ d_space :: []) []) 1 = Some (Ok ts, n) /\
    nth_error ts 1 = Some t /\ t_line t = 3.
Proof.
  split.
  - destruct C55_example as ((_ & B & C & D) & _). split; [|auto].
    change [nl] with ([nl] ++ []). constructor; [now constructor|constructor].
  - eexists _, _, _. split; [vm_compute; reflexivity|]. split; reflexivity.
Qed.

Print Assumptions C20_terminates_partial.
Print Assumptions C20_terminates_closed.
Print Assumptions C20_terminates_refuted.
Print Assumptions C21_blanks_irrelevant.
Print Assumptions C55_order_of_kinds.
Print Assumptions C56_known_kinds.
Print Assumptions C57_lines.

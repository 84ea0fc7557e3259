(** Proofs about the scanner of SIMPLE files. *)
From Coq Require Import String Ascii List Arith Lia Bool ZArith.
From Verif Require Import Common.Base Scanner.ScannerModel.
Import ListNotations.
Open Scope list_scope.

Fixpoint count_nl (l : list ascii) : nat :=
  match l with [] => 0 | c :: r => (if Ascii.eqb c nl then 1 else 0) + count_nl r end.

Lemma count_nl_app a b : count_nl (a ++ b) = count_nl a + count_nl b.
Proof. induction a; cbn; lia. Qed.

Section S.
Context (src : list ascii).

(** A state whose [finished] flag is consistent. *)
Definition mk (l c st0 t : nat) : st := mkSt l c st0 (c =? length src) t.

Lemma skipn_cons c x r : skipn c src = x :: r ->
  nth_error src c = Some x /\ skipn (S c) src = r /\ c < length src /\ length src = S c + length r.
Proof.
  revert c. induction src as [|y s IH]; intros c H.
  - destruct c; discriminate.
  - destruct c as [|c].
    + cbn in H. injection H as -> ->. cbn. repeat split; lia.
    + cbn in H. destruct (IH c H) as (A & B & C & D). cbn in *. repeat split; auto; lia.
Qed.

Lemma skipn_nil_eq c : c <= length src -> skipn c src = [] -> c = length src.
Proof. intros H E. pose proof (skipn_length c src) as L. rewrite E in L. cbn in L. lia. Qed.

Lemma init_mk ln : init src ln = mk ln 0 0 0.
Proof. unfold init, mk. destruct src; reflexivity. Qed.

Lemma tick_mk l c a t : tick (mk l c a t) = mk l c a (S t).
Proof. reflexivity. Qed.

Lemma newline_mk l c a t : newline (mk l c a t) = mk (S l) c a t.
Proof. reflexivity. Qed.

Lemma fin_mk_cons l c a t x r : skipn c src = x :: r -> finished (mk l c a t) = false.
Proof. intros H. apply skipn_cons in H. cbn. apply Nat.eqb_neq. lia. Qed.

Lemma fin_mk_nil l c a t : c <= length src -> skipn c src = [] -> finished (mk l c a t) = true.
Proof. intros H E. cbn. apply Nat.eqb_eq. now apply skipn_nil_eq. Qed.

Lemma advance_mk l c a t x r : skipn c src = x :: r ->
  advance_ok src (mk l c a t) = Ok (mk l (S c) a t, x) /\
  advance src (mk l c a t) = (mk l (S c) a t, Some x).
Proof.
  intros H. pose proof (fin_mk_cons l c a t x r H) as F. apply skipn_cons in H as (A & B & C & D).
  assert (E : advance src (mk l c a t) = (mk l (S c) a t, Some x)).
  { unfold advance. cbn [cur mk]. rewrite A. rewrite F. unfold mk. cbn [line start ticks].
    destruct (S c =? length src); reflexivity. }
  split; [|exact E]. unfold advance_ok. now rewrite E.
Qed.

Lemma peek_cons l c a t x r : skipn c src = x :: r -> peek src (mk l c a t) = Ok x.
Proof.
  intros H. unfold peek. rewrite (fin_mk_cons _ _ _ _ _ _ H).
  apply skipn_cons in H as (A & _). cbn [cur mk]. now rewrite A.
Qed.

Lemma peek_nil l c a t : c <= length src -> skipn c src = [] -> peek src (mk l c a t) = Ok nul.
Proof. intros H E. unfold peek. now rewrite fin_mk_nil. Qed.

Lemma peek_next_cons l c a t x r : skipn c src = x :: r ->
  peek_next src (mk l c a t) = Ok (hd nul r).
Proof.
  intros H. unfold peek_next. rewrite (fin_mk_cons _ _ _ _ _ _ H). cbn [cur mk orb].
  apply skipn_cons in H as (A & B & C & D).
  destruct r as [|y r].
  - cbn in D. replace (S c =? length src) with true by (symmetry; apply Nat.eqb_eq; lia). reflexivity.
  - cbn [length] in D. replace (S c =? length src) with false by (symmetry; apply Nat.eqb_neq; lia).
    apply skipn_cons in B as (B & _). now rewrite B.
Qed.

(** *** General behaviour: every loop ends, and how far it goes *)

Lemma line_comment_spec r : forall fuel l c a t, c <= length src -> skipn c src = r -> length r < fuel ->
  exists k, line_comment src fuel (mk l c a t) = Some (Ok (mk l (c + k) a (t + k + 1))) /\
    k <= length r /\ count_nl (firstn k r) = 0 /\ (skipn k r = [] \/ exists r', skipn k r = nl :: r').
Proof.
  induction r as [|x r IH]; intros fuel l c a t Hc H Hf.
  - destruct fuel; [cbn in Hf; lia|]. cbn [line_comment]. rewrite tick_mk, peek_nil by auto.
    rewrite fin_mk_nil by auto. cbn. exists 0. rewrite Nat.add_0_r.
    replace (t + 0 + 1) with (S t) by lia. auto 6.
  - destruct fuel; [cbn in Hf; lia|]. cbn [line_comment]. rewrite tick_mk, (peek_cons _ _ _ _ _ _ H).
    rewrite (fin_mk_cons _ _ _ _ _ _ H).
    destruct (Ascii.eqb x nl) eqn:En; cbn [negb andb].
    + apply Ascii.eqb_eq in En. subst x. exists 0. rewrite Nat.add_0_r.
      replace (t + 0 + 1) with (S t) by lia. cbn. repeat split; try lia. right. eauto.
    + destruct (advance_mk l c a (S t) x r H) as (A & _). rewrite A.
      pose proof (skipn_cons _ _ _ H) as (_ & B & C & D).
      destruct (IH fuel l (S c) a (S t)) as (k & E & K1 & K2 & K3); [lia|auto|cbn in Hf; lia|].
      exists (S k). rewrite E. replace (S c + k) with (c + S k) by lia.
      replace (S t + k + 1) with (t + S k + 1) by lia. cbn [length firstn skipn count_nl]. rewrite En.
      repeat split; auto; lia.
Qed.

(** The end of a block comment. *)
Fixpoint block_end (r : list ascii) : option nat :=
  match r with
  | [] => None
  | x :: r' =>
      if Ascii.eqb x "*" && Ascii.eqb (hd nul r') "/" then Some 2
      else option_map S (block_end r')
  end.

Lemma block_end_le r k : block_end r = Some k -> 2 <= k <= length r.
Proof.
  revert k. induction r as [|x r IH]; intros k H; [discriminate|].
  cbn [block_end] in H. destruct (Ascii.eqb x "*" && Ascii.eqb (hd nul r) "/") eqn:E.
  - injection H as <-. apply andb_prop in E as [_ E]. destruct r; [discriminate E|]. cbn. lia.
  - destruct (block_end r) as [k'|]; [|discriminate]. injection H as <-.
    specialize (IH k' eq_refl). cbn. lia.
Qed.

Lemma block_comment_spec r : forall fuel l c a t, c <= length src -> skipn c src = r -> length r < fuel ->
  exists k t', block_comment src fuel (mk l c a t) =
       Some (Ok (mk (l + count_nl (firstn k r)) (c + k) a t', match block_end r with None => true | Some _ => false end)) /\
    t' <= t + k + 1 /\ k = match block_end r with None => length r | Some k => k end.
Proof.
  induction r as [|x r IH]; intros fuel l c a t Hc H Hf.
  - destruct fuel; [cbn in Hf; lia|]. cbn [block_comment]. rewrite tick_mk, fin_mk_nil by auto.
    exists 0, (S t). rewrite Nat.add_0_r. cbn. rewrite Nat.add_0_r. repeat split; lia.
  - destruct fuel; [cbn in Hf; lia|]. cbn [block_comment]. rewrite tick_mk, (peek_cons _ _ _ _ _ _ H).
    rewrite (fin_mk_cons _ _ _ _ _ _ H). rewrite (peek_next_cons _ _ _ _ _ _ H).
    cbn [bind block_end].
    pose proof (skipn_cons _ _ _ H) as (_ & B & C & D).
    destruct (Ascii.eqb x "*") eqn:Ex; cbn [andb].
    + destruct (Ascii.eqb (hd nul r) "/") eqn:Eh.
      * destruct r as [|y r]; [discriminate Eh|]. cbn [hd] in Eh.
        destruct (advance_mk l c a (S t) _ _ H) as (A & _). rewrite A. cbn [bind fst].
        destruct (advance_mk l (S c) a (S t) _ _ B) as (A2 & _). rewrite A2.
        apply Ascii.eqb_eq in Ex, Eh. subst x y. exists 2, (S t). cbn [firstn count_nl].
        replace (c + 2) with (S (S c)) by lia.
        replace (l + _) with l by (cbn; lia). repeat split; lia.
      * destruct (advance_mk l c a (S t) _ _ H) as (A & _). rewrite A.
        apply Ascii.eqb_eq in Ex. subst x. replace (Ascii.eqb "*" nl) with false by reflexivity.
        destruct (IH fuel l (S c) a (S t)) as (k & t' & E & K1 & K2); [lia|auto|cbn in Hf; lia|].
        rewrite E. exists (S k), t'.
        replace (c + S k) with (S c + k) by lia. cbn [firstn count_nl].
        replace (Ascii.eqb "*" nl) with false by reflexivity.
        destruct (block_end r); cbn [option_map length]; repeat split; lia.
    + destruct (advance_mk l c a (S t) _ _ H) as (A & _). rewrite A. rewrite ?newline_mk.
      assert (Q : (if Ascii.eqb x nl then mk (S l) (S c) a (S t) else mk l (S c) a (S t))
                  = mk (l + if Ascii.eqb x nl then 1 else 0) (S c) a (S t)).
      { destruct (Ascii.eqb x nl); f_equal; lia. }
      rewrite Q.
      destruct (IH fuel (l + if Ascii.eqb x nl then 1 else 0) (S c) a (S t)) as (k & t' & E & K1 & K2);
        [lia|auto|cbn in Hf; lia|].
      rewrite E. exists (S k), t'.
      replace (c + S k) with (S c + k) by lia. cbn [firstn count_nl].
      replace (l + (if Ascii.eqb x nl then 1 else 0) + count_nl (firstn k r)) with
        (l + ((if Ascii.eqb x nl then 1 else 0) + count_nl (firstn k r))) by lia.
      destruct (block_end r); cbn [option_map length]; repeat split; lia.
Qed.

Definition is_white (x : ascii) : bool :=
  Ascii.eqb x " " || Ascii.eqb x cr || Ascii.eqb x tab || Ascii.eqb x nl.

(** Text on which the skipping of blanks stops at once. *)
Definition no_blank (r : list ascii) : Prop :=
  match r with
  | [] => True
  | x :: r' => is_white x = false /\ (x = "/"%char -> hd nul r' <> "/"%char /\ hd nul r' <> "*"%char)
  end.

Lemma firstn_firstn_skipn {A} i j (r : list A) : firstn (i + j) r = firstn i r ++ firstn j (skipn i r).
Proof.
  revert r. induction i; intros r; [reflexivity|].
  destruct r; cbn; [now rewrite firstn_nil|]. now rewrite IHi.
Qed.

Lemma skipn_add {A} i j (r : list A) : skipn (i + j) r = skipn j (skipn i r).
Proof.
  revert r. induction i; intros r; [reflexivity|]. destruct r; cbn; [now rewrite List.skipn_nil|]. apply IHi.
Qed.


Lemma skip_loop_spec : forall n r fuel l c a t, length r <= n -> c <= length src -> skipn c src = r -> S (length r) < fuel ->
  exists k t', skip_loop src fuel (mk l c a t) = Some (Ok (mk (l + count_nl (firstn k r)) (c + k) a t')) /\
    k <= length r /\ t' <= t + 3 * k + 1 /\ no_blank (skipn k r) /\
    (~ In "/"%char r -> Forall (fun x => is_white x = true) (firstn k r)).
Proof.
  induction n as [|n IH]; intros r fuel l c a t Hn Hc H Hf.
  { destruct r; [|cbn in Hn; lia]. destruct fuel; [lia|]. cbn [skip_loop]. rewrite tick_mk, peek_nil by auto.
    exists 0, (S t). cbn. rewrite ?Nat.add_0_r. repeat split; auto; lia. }
  destruct r as [|x r].
  { destruct fuel; [lia|]. cbn [skip_loop]. rewrite tick_mk, peek_nil by auto.
    exists 0, (S t). cbn. rewrite ?Nat.add_0_r. repeat split; auto; lia. }
  destruct fuel; [lia|]. cbn [length] in *.
  cbn [skip_loop]. rewrite tick_mk, (peek_cons _ _ _ _ _ _ H).
  pose proof (skipn_cons _ _ _ H) as (_ & B & C & D).
  destruct (Ascii.eqb x " " || Ascii.eqb x cr || Ascii.eqb x tab) eqn:Ew.
  { destruct (advance_mk l c a (S t) _ _ H) as (A & _). rewrite A.
    destruct (IH r fuel l (S c) a (S t)) as (k & t' & E & K1 & K2 & K3 & K4); [lia|lia|auto|lia|].
    exists (S k), t'. rewrite E. cbn [firstn count_nl skipn].
    assert (Nx : Ascii.eqb x nl = false).
    { destruct (Ascii.eqb x nl) eqn:E2; auto. apply Ascii.eqb_eq in E2. subst x. discriminate Ew. }
    rewrite Nx. replace (c + S k) with (S c + k) by lia.
    repeat split; auto; try lia. intros Hs. constructor.
    - unfold is_white. now rewrite Ew.
    - apply K4. intros Q. apply Hs. now right. }
  destruct (Ascii.eqb x nl) eqn:Enl.
  { rewrite newline_mk. destruct (advance_mk (S l) c a (S t) _ _ H) as (A & _). rewrite A.
    destruct (IH r fuel (S l) (S c) a (S t)) as (k & t' & E & K1 & K2 & K3 & K4); [lia|lia|auto|lia|].
    exists (S k), t'. rewrite E. cbn [firstn count_nl skipn]. rewrite Enl.
    replace (c + S k) with (S c + k) by lia.
    replace (l + (1 + count_nl (firstn k r))) with (S l + count_nl (firstn k r)) by lia.
    repeat split; auto; try lia. intros Hs. constructor.
    - unfold is_white. now rewrite Ew, Enl.
    - apply K4. intros Q. apply Hs. now right. }
  assert (Hw : is_white x = false) by (unfold is_white; now rewrite Ew, Enl).
  destruct (Ascii.eqb x "/") eqn:Es.
  2:{ exists 0, (S t). cbn [firstn count_nl skipn]. rewrite ?Nat.add_0_r. repeat split; auto; try lia;
      intros Q; subst x; discriminate Es. }
  apply Ascii.eqb_eq in Es. subst x. rewrite (peek_next_cons _ _ _ _ _ _ H).
  destruct (Ascii.eqb (hd nul r) "/") eqn:E1.
  { destruct r as [|y r]; [discriminate E1|]. cbn [hd] in E1. apply Ascii.eqb_eq in E1. subst y.
    destruct (line_comment_spec _ fuel l c a (S t) Hc H) as (k & E & K1 & K2 & K3); [cbn [length] in *; lia|].
    rewrite E. cbn [length] in *.
    assert (K : 2 <= k).
    { destruct k as [|[|k]]; [| |lia]; exfalso; cbn [skipn] in K3;
        destruct K3 as [K3|(r' & K3)]; discriminate K3. }
    destruct (IH (skipn k ("/"%char :: "/"%char :: r)) fuel l (c + k) a (S t + k + 1)) as (k2 & t' & E2 & J1 & J2 & J3 & J4).
    { rewrite skipn_length. cbn [length]. lia. }
    { lia. }
    { rewrite skipn_add, H. reflexivity. }
    { rewrite skipn_length. cbn [length]. lia. }
    rewrite E2. exists (k + k2), t'.
    rewrite skipn_length in J1. cbn [length] in J1.
    replace (c + k + k2) with (c + (k + k2)) by lia.
    rewrite firstn_firstn_skipn, count_nl_app, K2, Nat.add_0_l.
    rewrite skipn_add. repeat split; auto; try lia.
    intros Q. exfalso. apply Q. now left. }
  destruct (Ascii.eqb (hd nul r) "*") eqn:E2.
  { destruct r as [|y r]; [discriminate E2|]. cbn [hd] in E2. apply Ascii.eqb_eq in E2. subst y.
    destruct (advance_mk l c a (S t) _ _ H) as (A & _). rewrite A. cbn [bind fst].
    destruct (advance_mk l (S c) a (S t) _ _ B) as (A2 & _). rewrite A2.
    pose proof (skipn_cons _ _ _ B) as (_ & B2 & C2 & D2). cbn [length] in *.
    destruct (block_comment_spec r fuel l (S (S c)) a (S t)) as (k & t1 & E & K1 & K2); [lia|auto|lia|].
    rewrite E. destruct (block_end r) as [kb|] eqn:Eb.
    - apply block_end_le in Eb. subst k.
      destruct (IH (skipn kb r) fuel (l + count_nl (firstn kb r)) (S (S c) + kb) a t1) as (k2 & t' & F & J1 & J2 & J3 & J4).
      { rewrite skipn_length. lia. }
      { lia. }
      { rewrite skipn_add, B2. reflexivity. }
      { rewrite skipn_length. lia. }
      rewrite F. exists (S (S (kb + k2))), t'.
      rewrite skipn_length in J1.
      replace (S (S c) + kb + k2) with (c + S (S (kb + k2))) by lia.
      cbn [firstn count_nl skipn]. rewrite firstn_firstn_skipn, count_nl_app.
      replace (Ascii.eqb "/" nl) with false by reflexivity.
      replace (Ascii.eqb "*" nl) with false by reflexivity. rewrite !Nat.add_0_l, Nat.add_assoc.
      rewrite skipn_add. repeat split; auto; try lia.
      intros Q. exfalso. apply Q. now left.
    - exists (S (S k)), t1. subst k.
      replace (c + S (S (length r))) with (S (S c) + length r) by lia.
      cbn [firstn count_nl skipn].
      replace (Ascii.eqb "/" nl) with false by reflexivity.
      replace (Ascii.eqb "*" nl) with false by reflexivity. rewrite !Nat.add_0_l.
      rewrite skipn_all. repeat split; auto; try lia.
      intros Q. exfalso. apply Q. now left. }
  exists 0, (S t). cbn [firstn count_nl skipn]. rewrite ?Nat.add_0_r.
  repeat split; auto; try lia; intros Q; rewrite Q in *; discriminate.
Qed.

Lemma skip_spec r fuel l c a t : c <= length src -> skipn c src = r -> S (length r) < fuel ->
  exists k t', skip_white_space src fuel (mk l c a t) = Some (Ok (mk (l + count_nl (firstn k r)) (c + k) a t')) /\
    k <= length r /\ t' <= t + 3 * k + 1 /\ no_blank (skipn k r) /\
    (~ In "/"%char r -> Forall (fun x => is_white x = true) (firstn k r)).
Proof.
  intros Hc H Hf. unfold skip_white_space. destruct r as [|x r].
  - rewrite fin_mk_nil by auto. exists 0, t. cbn. rewrite !Nat.add_0_r. repeat split; auto; lia.
  - rewrite (fin_mk_cons _ _ _ _ _ _ H). apply (skip_loop_spec (length (x :: r))); auto.
Qed.

Fixpoint ident_len (r : list ascii) : nat :=
  match r with [] => 0 | x :: r' => if is_ident_char x then S (ident_len r') else 0 end.

Lemma ident_len_le r : ident_len r <= length r.
Proof. induction r as [|x r IH]; cbn; [lia|]. destruct (is_ident_char x); cbn; lia. Qed.

Lemma ident_len_all r : Forall (fun x => is_ident_char x = true) (firstn (ident_len r) r).
Proof. induction r as [|x r IH]; cbn; [constructor|]. destruct (is_ident_char x) eqn:E; cbn; constructor; auto. Qed.

Lemma ident_char_not_nl x : is_ident_char x = true -> Ascii.eqb x nl = false.
Proof. intros H. destruct (Ascii.eqb x nl) eqn:E; auto. apply Ascii.eqb_eq in E. subst. discriminate H. Qed.

Lemma ident_no_nl r : count_nl (firstn (ident_len r) r) = 0.
Proof.
  induction r as [|x r IH]; cbn; [reflexivity|]. destruct (is_ident_char x) eqn:E; cbn [firstn count_nl]; [|reflexivity].
  now rewrite (ident_char_not_nl _ E), IH.
Qed.

Lemma identifier_spec r : forall fuel l c a t, c <= length src -> skipn c src = r -> length r < fuel ->
  identifier src fuel (mk l c a t) = Some (Ok (mk l (c + ident_len r) a (t + ident_len r + 1))).
Proof.
  induction r as [|x r IH]; intros fuel l c a t Hc H Hf.
  - destruct fuel; [cbn in Hf; lia|]. cbn [identifier]. rewrite tick_mk, peek_nil by auto. cbn.
    rewrite !Nat.add_0_r. repeat f_equal; lia.
  - destruct fuel; [cbn in Hf; lia|]. cbn [identifier ident_len]. rewrite tick_mk, (peek_cons _ _ _ _ _ _ H).
    destruct (is_ident_char x) eqn:E.
    + destruct (advance_mk l c a (S t) x r H) as (_ & A). rewrite A.
      pose proof (skipn_cons _ _ _ H) as (_ & B & C & D).
      rewrite (IH fuel l (S c) a (S t)); [|lia|auto|cbn in Hf; lia].
      replace (S c + ident_len r) with (c + S (ident_len r)) by lia.
      replace (S t + ident_len r + 1) with (t + S (ident_len r) + 1) by lia. reflexivity.
    + rewrite Nat.add_0_r. repeat f_equal; lia.
Qed.

(** [object] on a non-empty rest. *)
Lemma object_spec r : forall fuel lev started o cl l c a t, c <= length src -> skipn c src = r -> r <> [] -> length r <= fuel ->
  object src fuel lev started o cl (mk l c a t) = Some Err \/
  exists k, object src fuel lev started o cl (mk l c a t) =
      Some (Ok (mk (l + count_nl (firstn k r)) (c + k) a (t + k))) /\ k <= length r /\ (started = false -> 1 <= k).
Proof.
  induction r as [|x r IH]; intros fuel lev started o cl l c a t Hc H Hr Hf; [congruence|].
  destruct fuel; [cbn in Hf; lia|]. cbn [object].
  destruct ((0 <? lev)%Z || negb started) eqn:Eg; cbn [negb].
  2:{ right. exists 0. cbn. rewrite !Nat.add_0_r. repeat split; try lia.
      intros ->. rewrite orb_true_r in Eg. discriminate. }
  rewrite tick_mk, (peek_cons _ _ _ _ _ _ H).
  destruct (negb started && Ascii.eqb x ","); [auto|].
  set (o' := if negb started && Ascii.eqb x "(" then "("%char else o).
  set (cl' := if negb started && Ascii.eqb x "(" then ")"%char else cl).
  pose proof (skipn_cons _ _ _ H) as (_ & B & C & D).
  rewrite newline_mk.
  assert (Q : (if Ascii.eqb x nl then mk (S l) c a (S t) else mk l c a (S t))
                  = mk (l + if Ascii.eqb x nl then 1 else 0) c a (S t)).
  { destruct (Ascii.eqb x nl); f_equal; lia. }
  rewrite Q. cbn [cur line start ticks mk].
  destruct (S c =? length src) eqn:Ee.
  - right. exists 1. apply Nat.eqb_eq in Ee. cbn [firstn count_nl length].
    replace (c + 1) with (S c) by lia. replace (t + 1) with (S t) by lia.
    unfold mk. replace (S c =? length src) with true by (symmetry; now apply Nat.eqb_eq).
    repeat split; try lia. rewrite Nat.add_0_r. reflexivity.
  - assert (Fc : finished (mk (l + if Ascii.eqb x nl then 1 else 0) c a (S t)) = false) by (eapply fin_mk_cons; eauto).
    rewrite Fc. replace (mkSt _ (S c) a false (S t)) with (mk (l + if Ascii.eqb x nl then 1 else 0) (S c) a (S t))
      by (unfold mk; now rewrite Ee).
    apply Nat.eqb_neq in Ee.
    destruct (IH fuel
      (if Ascii.eqb x cl' then ((if Ascii.eqb x o' then lev + 1 else lev) - 1)%Z else (if Ascii.eqb x o' then lev + 1 else lev)%Z)
      (if Ascii.eqb x o' then true else started) o' cl' (l + if Ascii.eqb x nl then 1 else 0) (S c) a (S t)) as [E|(k & E & K1 & K2)];
      [lia|auto|intros ->; cbn in D; lia|cbn in Hf; lia|left; exact E|].
    right. exists (S k). rewrite E. cbn [firstn count_nl length].
    replace (S c + k) with (c + S k) by lia. replace (S t + k) with (t + S k) by lia.
    rewrite Nat.add_assoc. repeat split; auto; lia.
Qed.

(** [object] at the end of the file: it never returns. *)
Lemma object_stuck : forall fuel l c a t, length src <= c ->
  object src fuel 0 false "{" "}" (mkSt l c a true t) = None.
Proof.
  induction fuel as [|fuel IH]; intros l c a t Hc; [reflexivity|].
  cbn. replace (match length src with 0 => false | S m' => c =? m' end) with (S c =? length src) by reflexivity.
  replace (S c =? length src) with false by (symmetry; apply Nat.eqb_neq; lia).
  apply (IH l (S c) a (S t)). lia.
Qed.

Lemma slice_skipn c k r : c <= length src -> skipn c src = r -> k <= length r -> slice src c (c + k) = Ok (firstn k r).
Proof.
  intros Hc H Hk. unfold slice. pose proof (skipn_length c src) as L. rewrite H in L.
  replace (c <=? c + k) with true by (symmetry; apply Nat.leb_le; lia).
  replace (c + k <=? length src) with true by (symmetry; apply Nat.leb_le; lia). cbn.
  rewrite H. repeat f_equal. lia.
Qed.

(** Either the scanning ends, or it reaches the end of the file where an object should start. *)
Lemma scan_loop_cases (utf8_ok : list ascii -> bool) : forall n r l c a t, length r <= n -> c <= length src -> skipn c src = r ->
  (exists res m, (forall fuel, S (length r) <= fuel -> scan_loop src utf8_ok fuel (mk l c a t) = Some (res, m)) /\
     m <= t + 9 * length r + 2 /\ res <> Panic) \/
  ((forall fuel, scan_loop src utf8_ok fuel (mk l c a t) = None) /\
   (~ In "/"%char r -> exists b x, r = b ++ [x] /\ (is_ident_char x = true \/ is_white x = true))).
Proof.
  induction n as [|n IH]; intros r l c a t Hn Hc H.
  { destruct r; [|cbn in Hn; lia]. left. exists (Ok []), (S t). repeat split; [|cbn; lia|congruence].
    intros fuel Hf. destruct fuel; [lia|]. cbn [scan_loop]. rewrite tick_mk.
    unfold skip_white_space. rewrite fin_mk_nil by auto. cbn [update_start finished]. now rewrite fin_mk_nil. }
  assert (L : length r = length src - c) by (rewrite <- H; apply skipn_length).
  destruct (skip_spec r (S (S (length src))) l c a (S t)) as (k & t1 & E1 & K1 & T1 & NB & W1); [auto|auto|lia|].
  assert (H1 : skipn (c + k) src = skipn k r) by (rewrite skipn_add, H; reflexivity).
  destruct (skipn k r) as [|x r1] eqn:Er.
  { left. exists (Ok []), t1. repeat split; [|lia|congruence].
    intros fuel Hf. destruct fuel; [lia|]. cbn [scan_loop]. rewrite tick_mk, E1.
    cbn [update_start finished mk]. replace (c + k =? length src) with true; [reflexivity|].
    symmetry. apply Nat.eqb_eq. apply skipn_nil_eq; [lia|]. exact H1. }
  set (l1 := l + count_nl (firstn k r)) in *.
  assert (L1 : S (length r1) = length r - k) by (rewrite <- skipn_length, Er; reflexivity).
  pose proof (identifier_spec (x :: r1) (S (S (length src))) l1 (c + k) (c + k) t1) as E2.
  specialize (E2 ltac:(lia) H1). cbn [length] in E2. specialize (E2 ltac:(lia)).
  pose proof (ident_len_le (x :: r1)) as Li. cbn [length] in Li.
  pose proof (ident_len_all (x :: r1)) as Ia.
  set (i := ident_len (x :: r1)) in *.
  assert (H2 : skipn (c + k + i) src = skipn i (x :: r1)) by (rewrite skipn_add, H1; reflexivity).
  destruct (skip_spec (skipn i (x :: r1)) (S (S (length src))) l1 (c + k + i) (c + k) (t1 + i + 1))
    as (j & t2 & E3 & J1 & T2 & NB2 & W2); [lia|auto|rewrite skipn_length; cbn [length]; lia|].
  rewrite skipn_length in J1. cbn [length] in J1.
  set (l2 := l1 + count_nl (firstn j (skipn i (x :: r1)))) in *.
  assert (H3 : skipn (c + k + i + j) src = skipn j (skipn i (x :: r1))) by (rewrite skipn_add, H2; reflexivity).
  assert (F1 : finished (update_start (mk l1 (c + k) a t1)) = false).
  { cbn. apply Nat.eqb_neq. apply skipn_cons in H1. lia. }
  pose proof (slice_skipn (c + k) i (x :: r1) ltac:(lia) H1 ltac:(cbn [length]; lia)) as S1.
  destruct (skipn j (skipn i (x :: r1))) as [|y r2] eqn:Er2.
  - (* the end of the file after an identifier *)
    right. assert (Ec : c + k + i + j = length src) by (apply skipn_nil_eq; [lia|exact H3]).
    split.
    + intros [|fuel]; [reflexivity|]. cbn [scan_loop]. rewrite tick_mk, E1.
      rewrite F1. change (update_start (mk l1 (c + k) a t1)) with (mk l1 (c + k) (c + k) t1).
      rewrite E2. cbn [start cur mk]. rewrite S1. cbn [mk] in E3. rewrite E3.
      unfold update_start at 1. cbn [line cur start finished ticks mk].
      replace (c + k + i + j =? length src) with true by (symmetry; now apply Nat.eqb_eq).
      rewrite object_stuck by lia. reflexivity.
    + intros Ns.
      assert (Ns2 : ~ In "/"%char (skipn i (x :: r1))).
      { intros Q. apply Ns. rewrite <- (firstn_skipn k r), Er. apply in_or_app. right.
        rewrite <- (firstn_skipn i (x :: r1)). apply in_or_app. now right. }
      specialize (W2 Ns2).
      assert (Ej : firstn j (skipn i (x :: r1)) = skipn i (x :: r1)).
      { rewrite <- (firstn_skipn j (skipn i (x :: r1))) at 2. now rewrite Er2, app_nil_r. }
      rewrite Ej in W2.
      assert (All : Forall (fun z => is_ident_char z = true \/ is_white z = true) (x :: r1)).
      { rewrite <- (firstn_skipn i (x :: r1)). apply Forall_app. split.
        - eapply Forall_impl; [|exact Ia]. auto.
        - eapply Forall_impl; [|exact W2]. auto. }
      destruct (exists_last (l := x :: r1)) as (b & z & Eb); [discriminate|].
      exists (firstn k r ++ b), z. split.
      * rewrite <- (firstn_skipn k r) at 1. rewrite Er, Eb. now rewrite app_assoc.
      * rewrite Eb in All. apply Forall_app in All as [_ All]. now inversion All.
  - assert (L3 : S (length r2) = length r - k - i - j).
    { pose proof (f_equal (@length ascii) Er2) as Q. rewrite skipn_length, skipn_length in Q. cbn [length] in Q. lia. }
    (* object: find a result valid for every large fuel *)
    assert (OB : (forall fuel, S (length r2) <= fuel ->
                    object src fuel 0 false "{" "}" (mk l2 (c + k + i + j) (c + k + i + j) t2) = Some Err) \/
                 exists q, (forall fuel, S (length r2) <= fuel ->
                    object src fuel 0 false "{" "}" (mk l2 (c + k + i + j) (c + k + i + j) t2) =
                      Some (Ok (mk (l2 + count_nl (firstn q (y :: r2))) (c + k + i + j + q) (c + k + i + j) (t2 + q)))) /\
                   1 <= q <= S (length r2)).
    { assert (MONO : forall f1 f2 lev sd o cl s v, f1 <= f2 -> object src f1 lev sd o cl s = Some v -> object src f2 lev sd o cl s = Some v).
      { clear. induction f1 as [|f1 IH]; intros f2 lev sd o cl s v Hf E.
        - cbn in E. destruct (negb ((0 <? lev)%Z || negb sd)) eqn:Eg; [|discriminate].
          destruct f2; cbn; now rewrite Eg.
        - destruct f2 as [|f2]; [lia|]. cbn in E |- *.
          destruct (negb ((0 <? lev)%Z || negb sd)); [exact E|].
          destruct (peek src (tick s)); try exact E.
          destruct (negb sd && Ascii.eqb a ","); [exact E|].
          match type of E with (if ?b then _ else _) = _ => destruct b; [exact E|] end.
          apply IH; [lia|exact E]. }
      destruct (object_spec (y :: r2) (S (length r2)) 0 false "{" "}" l2 (c + k + i + j) (c + k + i + j) t2)
        as [E|(q & E & Q1 & Q2)]; [lia|exact H3|discriminate|cbn; lia| |].
      - left. intros fuel Hf. eapply MONO; eauto.
      - right. exists q. split; [|split; [auto|exact Q1]]. intros fuel Hf. eapply MONO; eauto. }
    destruct OB as [OB|(q & OB & Q)].
    { left. exists Err, t2. repeat split; [|lia|congruence].
      intros fuel Hf. destruct fuel; [lia|]. cbn [scan_loop]. rewrite tick_mk, E1.
      rewrite F1. change (update_start (mk l1 (c + k) a t1)) with (mk l1 (c + k) (c + k) t1).
      rewrite E2. cbn [start cur mk]. rewrite S1. cbn [mk] in E3. rewrite E3.
      change (update_start (mk l2 (c + k + i + j) (c + k) t2)) with (mk l2 (c + k + i + j) (c + k + i + j) t2).
      rewrite OB by lia. reflexivity. }
    set (l3 := l2 + count_nl (firstn q (y :: r2))) in *.
    pose proof (slice_skipn (c + k + i + j) q (y :: r2) ltac:(lia) H3 ltac:(cbn [length]; lia)) as S2.
    destruct (utf8_ok (firstn q (y :: r2))) eqn:Eu.
    2:{ left. exists Err, (t2 + q). repeat split; [|lia|congruence].
      intros fuel Hf. destruct fuel; [lia|]. cbn [scan_loop]. rewrite tick_mk, E1.
      rewrite F1. change (update_start (mk l1 (c + k) a t1)) with (mk l1 (c + k) (c + k) t1).
      rewrite E2. cbn [start cur mk]. rewrite S1. cbn [mk] in E3. rewrite E3.
      change (update_start (mk l2 (c + k + i + j) (c + k) t2)) with (mk l2 (c + k + i + j) (c + k + i + j) t2).
      rewrite OB by lia. cbn [start cur mk]. rewrite S2, Eu. reflexivity. }
    assert (H4 : skipn (c + k + i + j + q) src = skipn q (y :: r2)) by (rewrite skipn_add, H3; reflexivity).
    assert (L4 : length (skipn q (y :: r2)) = S (length r2) - q) by (rewrite skipn_length; reflexivity).
    destruct (IH (skipn q (y :: r2)) l3 (c + k + i + j + q) (c + k + i + j) (t2 + q)) as [(rs & m & E & M & NP)|[E NS]];
      [lia|lia|exact H4| |].
    + left. exists (match rs with Ok ts => Ok (mkToken (firstn i (x :: r1)) (firstn q (y :: r2)) l3 :: ts) | v => v end), m.
      repeat split; [|lia|destruct rs; congruence].
      intros fuel Hf. destruct fuel; [lia|]. cbn [scan_loop]. rewrite tick_mk, E1.
      rewrite F1. change (update_start (mk l1 (c + k) a t1)) with (mk l1 (c + k) (c + k) t1).
      rewrite E2. cbn [start cur mk]. rewrite S1. cbn [mk] in E3. rewrite E3.
      change (update_start (mk l2 (c + k + i + j) (c + k) t2)) with (mk l2 (c + k + i + j) (c + k + i + j) t2).
      rewrite OB by lia. cbn [start cur mk]. rewrite S2, Eu.
      rewrite E by lia. destruct rs; reflexivity.
    + right. split.
      * intros [|fuel]; [reflexivity|]. cbn [scan_loop]. rewrite tick_mk, E1.
        rewrite F1. change (update_start (mk l1 (c + k) a t1)) with (mk l1 (c + k) (c + k) t1).
        rewrite E2. cbn [start cur mk]. rewrite S1. cbn [mk] in E3. rewrite E3.
        change (update_start (mk l2 (c + k + i + j) (c + k) t2)) with (mk l2 (c + k + i + j) (c + k + i + j) t2).
        destruct (object src fuel 0 false "{" "}" _) as [v|] eqn:Eo; [|reflexivity].
        assert (v = Ok (mk l3 (c + k + i + j + q) (c + k + i + j) (t2 + q))).
        { assert (MONO : forall f1 f2 lev sd o cl s v, f1 <= f2 -> object src f1 lev sd o cl s = Some v -> object src f2 lev sd o cl s = Some v).
          { clear. induction f1 as [|f1 IH]; intros f2 lev sd o cl s v Hf E.
            - cbn in E. destruct (negb ((0 <? lev)%Z || negb sd)) eqn:Eg; [|discriminate].
              destruct f2; cbn; now rewrite Eg.
            - destruct f2 as [|f2]; [lia|]. cbn in E |- *.
              destruct (negb ((0 <? lev)%Z || negb sd)); [exact E|].
              destruct (peek src (tick s)); try exact E.
              destruct (negb sd && Ascii.eqb a ","); [exact E|].
              match type of E with (if ?b then _ else _) = _ => destruct b; [exact E|] end.
              apply IH; [lia|exact E]. }
          pose proof (MONO fuel (fuel + S (length r2)) _ _ _ _ _ _ ltac:(lia) Eo) as Q1.
          rewrite OB in Q1 by lia. congruence. }
        subst v. cbn [start cur mk]. rewrite S2, Eu. rewrite E. reflexivity.
      * intros Ns.
        assert (Er' : r = firstn k r ++ firstn i (x :: r1) ++ firstn j (skipn i (x :: r1)) ++ firstn q (y :: r2) ++ skipn q (y :: r2)).
        { rewrite firstn_skipn, <- Er2, firstn_skipn, firstn_skipn, <- Er, firstn_skipn. reflexivity. }
        destruct NS as (b & z & Eb & Z).
        { intros Qi. apply Ns. rewrite Er'. rewrite !in_app_iff. auto 6. }
        exists (firstn k r ++ firstn i (x :: r1) ++ firstn j (skipn i (x :: r1)) ++ firstn q (y :: r2) ++ b), z.
        split; [|exact Z]. rewrite Er' at 1. rewrite Eb. now rewrite <- !app_assoc.
Qed.

(** *** Files that follow the grammar *)

(** White space and closed comments. *)
Inductive blank : list ascii -> Prop :=
| blank_white x : is_white x = true -> blank [x]
| blank_line b : count_nl b = 0 -> blank ("/"%char :: "/"%char :: b ++ [nl])
| blank_block b : (forall p q, b ++ ["*"%char] <> p ++ "*"%char :: "/"%char :: q) ->
    blank ("/"%char :: "*"%char :: b ++ ["*"%char; "/"%char]).

Inductive blanks : list ascii -> Prop :=
| blanks_nil : blanks []
| blanks_cons b bs : blank b -> blanks bs -> blanks (b ++ bs).

Lemma line_comment_exact b r : forall fuel l c a t, c <= length src -> skipn c src = b ++ nl :: r ->
  count_nl b = 0 -> length b < fuel ->
  line_comment src fuel (mk l c a t) = Some (Ok (mk l (c + length b) a (t + length b + 1))).
Proof.
  induction b as [|x b IH]; intros fuel l c a t Hc H Hb Hf.
  - destruct fuel; [cbn in Hf; lia|]. cbn [line_comment]. cbn [app] in H.
    rewrite tick_mk, (peek_cons _ _ _ _ _ _ H).
    cbn [length]. replace (Ascii.eqb nl nl) with true by reflexivity. cbn [negb andb].
    rewrite !Nat.add_0_r. replace (t + 1) with (S t) by lia. reflexivity.
  - destruct fuel; [cbn in Hf; lia|]. cbn [app] in H. cbn [line_comment].
    rewrite tick_mk, (peek_cons _ _ _ _ _ _ H), (fin_mk_cons _ _ _ _ _ _ H).
    cbn [count_nl] in Hb. destruct (Ascii.eqb x nl); [lia|]. cbn [negb andb].
    destruct (advance_mk l c a (S t) _ _ H) as (A & _). rewrite A.
    pose proof (skipn_cons _ _ _ H) as (_ & B & C & D).
    rewrite (IH fuel l (S c) a (S t)); [|lia|auto|lia|cbn in Hf; lia].
    cbn [length]. replace (S c + length b) with (c + S (length b)) by lia.
    replace (S t + length b + 1) with (t + S (length b) + 1) by lia. reflexivity.
Qed.

Lemma block_end_exact b r : (forall p q, b ++ ["*"%char] <> p ++ "*"%char :: "/"%char :: q) ->
  block_end (b ++ "*"%char :: "/"%char :: r) = Some (length b + 2).
Proof.
  induction b as [|x b IH]; intros H; [reflexivity|].
  cbn [app block_end].
  destruct (Ascii.eqb x "*" && Ascii.eqb (hd nul (b ++ "*"%char :: "/"%char :: r)) "/") eqn:E.
  - exfalso. apply andb_prop in E as [E1 E2]. apply Ascii.eqb_eq in E1. subst x.
    destruct b as [|y b]; [discriminate E2|]. cbn in E2. apply Ascii.eqb_eq in E2. subst y.
    apply (H [] (b ++ ["*"%char])). reflexivity.
  - rewrite IH; [reflexivity|]. intros p q Q. apply (H (x :: p) q). cbn. now rewrite Q.
Qed.

Lemma blank_skip b bs : blank b -> forall fuel l c a t, c <= length src -> skipn c src = b ++ bs ->
  S (length (b ++ bs)) < fuel ->
  exists f' t', S (length bs) < f' /\
  skip_loop src fuel (mk l c a t) = skip_loop src f' (mk (l + count_nl b) (c + length b) a t').
Proof.
  intros Hb fuel l c a t Hc H Hf. rewrite app_length in Hf.
  destruct Hb as [x Hx|b Hb|b Hb].
  - destruct fuel; [lia|]. cbn [app] in H. cbn [skip_loop]. rewrite tick_mk, (peek_cons _ _ _ _ _ _ H).
    cbn [length] in Hf. unfold is_white in Hx.
    destruct (Ascii.eqb x " " || Ascii.eqb x cr || Ascii.eqb x tab) eqn:Ew.
    + destruct (advance_mk l c a (S t) _ _ H) as (A & _). rewrite A.
      exists fuel, (S t). split; [lia|]. cbn [length count_nl].
      assert (Nx : Ascii.eqb x nl = false).
      { destruct (Ascii.eqb x nl) eqn:E2; auto. apply Ascii.eqb_eq in E2. subst x. discriminate Ew. }
      rewrite Nx. replace (c + 1) with (S c) by lia. now rewrite !Nat.add_0_r.
    + cbn in Hx. assert (Hx' : Ascii.eqb x nl = true) by exact Hx. rewrite Hx'.
      rewrite newline_mk. destruct (advance_mk (S l) c a (S t) _ _ H) as (A & _). rewrite A.
      exists fuel, (S t). split; [lia|]. cbn [length count_nl]. rewrite Hx'.
      replace (c + 1) with (S c) by lia. replace (l + (1 + 0)) with (S l) by lia. reflexivity.
  - assert (H' : skipn c src = ("/"%char :: "/"%char :: b) ++ nl :: bs) by (rewrite H; cbn; now rewrite <- app_assoc).
    cbn [length] in Hf. rewrite app_length in Hf. cbn [length] in Hf.
    destruct fuel as [|[|fuel]]; [lia|lia|].
    pose proof H' as H2. cbn [app] in H2.
    pose proof (skipn_cons _ _ _ H2) as (_ & B & C & D). cbn [length] in D. rewrite app_length in D. cbn [length] in D.
    cbn [skip_loop]. rewrite tick_mk, (peek_cons _ _ _ _ _ _ H2). cbn - [line_comment skip_loop mk].
    rewrite (peek_next_cons _ _ _ _ _ _ H2). cbn - [line_comment skip_loop mk].
    rewrite (line_comment_exact ("/"%char :: "/"%char :: b) bs (S fuel) l c a (S t) Hc H'); [|exact Hb|cbn [length]; lia].
    cbn [length].
    assert (H3 : skipn (c + S (S (length b))) src = nl :: bs).
    { rewrite skipn_add, H'. cbn [skipn app]. now rewrite skipn_app, skipn_all, Nat.sub_diag. }
    cbn [skip_loop]. rewrite tick_mk, (peek_cons _ _ _ _ _ _ H3). cbn - [skip_loop mk advance_ok].
    rewrite newline_mk. destruct (advance_mk (S l) (c + S (S (length b))) a (S (S t + S (S (length b)) + 1)) _ _ H3) as (A & _).
    cbn in A. cbn - [skip_loop mk advance_ok]. rewrite A.
    exists fuel, (S (S t + S (S (length b)) + 1)). split; [lia|].
    rewrite app_length. cbn [length]. rewrite count_nl_app, Hb. cbn [count_nl].
    replace (l + _) with (S l) by (cbn; lia).
    replace (c + S (S (length b + 1))) with (S (c + S (S (length b)))) by lia. reflexivity.
  - assert (H2 : skipn c src = "/"%char :: "*"%char :: (b ++ "*"%char :: "/"%char :: bs)) by (rewrite H; cbn; now rewrite <- app_assoc).
    cbn [length] in Hf. rewrite app_length in Hf. cbn [length] in Hf.
    destruct fuel as [|fuel]; [lia|].
    pose proof (skipn_cons _ _ _ H2) as (_ & B & C & D). cbn [length] in D. rewrite app_length in D. cbn [length] in D.
    cbn [skip_loop]. rewrite tick_mk, (peek_cons _ _ _ _ _ _ H2). cbn - [block_comment skip_loop mk advance_ok].
    rewrite (peek_next_cons _ _ _ _ _ _ H2). cbn - [block_comment skip_loop mk advance_ok].
    destruct (advance_mk l c a (S t) _ _ H2) as (A & _). rewrite A. cbn [bind fst].
    destruct (advance_mk l (S c) a (S t) _ _ B) as (A2 & _). rewrite A2.
    pose proof (skipn_cons _ _ _ B) as (_ & B2 & C2 & D2).
    destruct (block_comment_spec (b ++ "*"%char :: "/"%char :: bs) fuel l (S (S c)) a (S t)) as (k & t1 & E & K1 & K2);
      [lia|auto|rewrite app_length; cbn [length]; lia|].
    rewrite (block_end_exact b bs Hb) in E, K2. rewrite E. subst k.
    exists fuel, t1. split; [lia|].
    cbn [length]. rewrite app_length. cbn [length count_nl].
    replace (firstn (length b + 2) (b ++ "*"%char :: "/"%char :: bs)) with (b ++ ["*"%char; "/"%char]).
    2:{ rewrite firstn_firstn_skipn, firstn_app, firstn_all, Nat.sub_diag, skipn_app, skipn_all, Nat.sub_diag. cbn.
        now rewrite app_nil_r. }
    replace (S (S c) + (length b + 2)) with (c + S (S (length b + 2))) by lia. reflexivity.
Qed.

Lemma blanks_to b : blanks b -> forall r fuel l c a t, c <= length src -> skipn c src = b ++ r ->
  S (length (b ++ r)) < fuel ->
  exists f' t', S (length r) < f' /\
    skip_loop src fuel (mk l c a t) = skip_loop src f' (mk (l + count_nl b) (c + length b) a t').
Proof.
  intros Hb r fuel l c a t Hc H Hf.
  revert fuel l c t Hc H Hf. induction Hb as [|b bs Hb Hbs IH]; intros fuel l c t Hc H Hf.
  - cbn [length count_nl]. rewrite !Nat.add_0_r. eauto.
  - rewrite <- app_assoc in H, Hf.
    destruct (blank_skip b (bs ++ r) Hb fuel l c a t Hc H Hf) as (f' & t' & F & E). rewrite E.
    assert (L : c + length b <= length src).
    { pose proof (skipn_length c src) as L. rewrite H, app_length in L.
      destruct (le_lt_dec (length src) c); lia. }
    destruct (IH f' (l + count_nl b) (c + length b) t') as (f2 & t2 & F2 & E2); auto.
    { rewrite skipn_add, H, skipn_app, skipn_all, Nat.sub_diag. reflexivity. }
    rewrite E2. exists f2, t2. rewrite count_nl_app, app_length, !Nat.add_assoc. auto.
Qed.

Lemma blanks_skip b : blanks b -> forall r fuel l c a t, c <= length src -> skipn c src = b ++ r ->
  S (length (b ++ r)) < fuel -> no_blank r ->
  exists t', skip_white_space src fuel (mk l c a t) = Some (Ok (mk (l + count_nl b) (c + length b) a t')).
Proof.
  intros Hb r fuel l c a t Hc H Hf Hr. unfold skip_white_space.
  assert (G : exists t', skip_loop src fuel (mk l c a t) = Some (Ok (mk (l + count_nl b) (c + length b) a t'))).
  { destruct (blanks_to b Hb r fuel l c a t Hc H Hf) as (f' & t' & F & E). rewrite E.
    assert (Lr : c + length b <= length src).
    { pose proof (skipn_length c src) as L. rewrite H, app_length in L. lia. }
    assert (H' : skipn (c + length b) src = r).
    { rewrite skipn_add, H, skipn_app, skipn_all, Nat.sub_diag. reflexivity. }
    clear E H Hc Hf.
    destruct f'; [lia|]. cbn [skip_loop]. rewrite tick_mk. exists (S t').
    destruct r as [|x r]; [rewrite peek_nil by auto; reflexivity|].
    rewrite (peek_cons _ _ _ _ _ _ H'). destruct Hr as [Hw Hs].
    unfold is_white in Hw.
    destruct (Ascii.eqb x " " || Ascii.eqb x cr || Ascii.eqb x tab); [discriminate|]. cbn in Hw.
    assert (Hw' : Ascii.eqb x nl = false) by exact Hw. rewrite Hw'.
    destruct (Ascii.eqb x "/") eqn:Es; [|reflexivity].
    apply Ascii.eqb_eq in Es. destruct (Hs Es) as [S1 S2].
    rewrite (peek_next_cons _ _ _ _ _ _ H').
    destruct (Ascii.eqb (hd nul r) "/") eqn:E1; [apply Ascii.eqb_eq in E1; congruence|].
    destruct (Ascii.eqb (hd nul r) "*") eqn:E2; [apply Ascii.eqb_eq in E2; congruence|]. reflexivity. }
  destruct (finished (mk l c a t)) eqn:Ef; [|exact G].
  cbn in Ef. apply Nat.eqb_eq in Ef.
  assert (H0 : b ++ r = []) by (rewrite <- H, Ef; apply skipn_all).
  apply app_eq_nil in H0 as [-> ->]. exists t. cbn. now rewrite !Nat.add_0_r.
Qed.

(** What may end a file: nothing, or a comment which is not closed. *)
Inductive file_end : list ascii -> Prop :=
| end_nothing : file_end []
| end_line b : count_nl b = 0 -> file_end ("/"%char :: "/"%char :: b)
| end_block b : (forall p q, b <> p ++ "*"%char :: "/"%char :: q) -> file_end ("/"%char :: "*"%char :: b).

Lemma block_end_none b : (forall p q, b <> p ++ "*"%char :: "/"%char :: q) -> block_end b = None.
Proof.
  induction b as [|x b IH]; intros H; [reflexivity|]. cbn [block_end].
  destruct (Ascii.eqb x "*" && Ascii.eqb (hd nul b) "/") eqn:E.
  - exfalso. apply andb_prop in E as [E1 E2]. apply Ascii.eqb_eq in E1, E2. subst x.
    destruct b as [|y b]; [discriminate E2|]. cbn in E2. subst y. apply (H [] b). reflexivity.
  - rewrite IH; [reflexivity|]. intros p q Q. apply (H (x :: p) q). cbn. now rewrite Q.
Qed.

Lemma count_nl_skipn k b r : skipn k b = nl :: r -> 0 < count_nl b.
Proof.
  intros H. rewrite <- (firstn_skipn k b), H, count_nl_app. cbn. lia.
Qed.

Lemma end_skip e fuel l c a t : file_end e -> c <= length src -> skipn c src = e -> S (length e) < fuel ->
  exists l' t', skip_loop src fuel (mk l c a t) = Some (Ok (mk l' (length src) a t')).
Proof.
  intros He Hc H Hf.
  assert (Lc : length src = c + length e) by (rewrite <- H, skipn_length; lia).
  destruct fuel as [|fuel]; [lia|]. cbn [skip_loop]. rewrite tick_mk. destruct He as [|b Hb|b Hb].
  - rewrite peek_nil by auto. cbn in Lc. rewrite Nat.add_0_r in Lc. rewrite Lc. exists l, (S t). reflexivity.
  - rewrite (peek_cons _ _ _ _ _ _ H). cbn - [line_comment skip_loop mk].
    rewrite (peek_next_cons _ _ _ _ _ _ H). cbn - [line_comment skip_loop mk].
    destruct (line_comment_spec _ fuel l c a (S t) Hc H) as (k & E & K1 & K2 & K3); [cbn [length] in *; lia|].
    rewrite E. destruct K3 as [K3|(r' & K3)].
    2:{ apply count_nl_skipn in K3. cbn [count_nl] in K3. change (Ascii.eqb "/" nl) with false in K3. cbn in K3. lia. }
    pose proof (f_equal (@length ascii) K3) as Q. rewrite skipn_length in Q. cbn [length] in *.
    assert (Ek : c + k = length src) by lia. rewrite Ek.
    destruct fuel as [|fuel]; [lia|]. cbn [skip_loop]. rewrite tick_mk, peek_nil by (rewrite ?skipn_all; auto).
    cbn. eauto.
  - rewrite (peek_cons _ _ _ _ _ _ H). cbn - [block_comment skip_loop mk advance_ok].
    rewrite (peek_next_cons _ _ _ _ _ _ H). cbn - [block_comment skip_loop mk advance_ok].
    pose proof (skipn_cons _ _ _ H) as (_ & B & C & D). cbn [length] in *.
    destruct (advance_mk l c a (S t) _ _ H) as (A & _). rewrite A. cbn [bind fst].
    destruct (advance_mk l (S c) a (S t) _ _ B) as (A2 & _). rewrite A2.
    pose proof (skipn_cons _ _ _ B) as (_ & B2 & C2 & D2).
    destruct (block_comment_spec b fuel l (S (S c)) a (S t)) as (k & t1 & E & K1 & K2); [lia|auto|lia|].
    rewrite (block_end_none b Hb) in E, K2. rewrite E. subst k.
    replace (S (S c) + length b) with (length src) by lia. eauto.
Qed.

(** Text with matched delimiters. *)
Inductive matched (o cl : ascii) : list ascii -> Prop :=
| matched_nil : matched o cl []
| matched_other x r : x <> o -> x <> cl -> matched o cl r -> matched o cl (x :: r)
| matched_nest b r : matched o cl b -> matched o cl r -> matched o cl (o :: b ++ cl :: r).

(** The text of an object: braces or parentheses around text where they match. *)
Inductive object_text : list ascii -> Prop :=
| object_braces b : matched "{" "}" b -> object_text ("{"%char :: b ++ ["}"%char])
| object_parens b : matched "(" ")" b -> object_text ("("%char :: b ++ [")"%char]).

Lemma object_step lev o cl l c a t x r fuel : (0 < lev)%Z -> skipn c src = x :: r -> r <> [] -> o <> cl ->
  object src (S fuel) lev true o cl (mk l c a t) =
  object src fuel (if Ascii.eqb x o then (lev + 1)%Z else if Ascii.eqb x cl then (lev - 1)%Z else lev) true o cl
    (mk (l + if Ascii.eqb x nl then 1 else 0) (S c) a (S t)).
Proof.
  intros Hl H Hr Hoc. cbn [object]. replace (0 <? lev)%Z with true by (symmetry; now apply Z.ltb_lt).
  cbn [orb negb andb]. rewrite tick_mk, (peek_cons _ _ _ _ _ _ H).
  pose proof (skipn_cons _ _ _ H) as (_ & B & C & D).
  assert (Ne : (S c =? length src) = false) by (apply Nat.eqb_neq; destruct r; [congruence|cbn in D; lia]).
  replace (if Ascii.eqb x o then true else true) with true by (destruct (Ascii.eqb x o); reflexivity).
  replace (if Ascii.eqb x nl then newline (mk l c a (S t)) else mk l c a (S t))
    with (mk (l + if Ascii.eqb x nl then 1 else 0) c a (S t))
    by (destruct (Ascii.eqb x nl); rewrite ?newline_mk; f_equal; lia).
  cbn [cur line start ticks finished mk]. rewrite Ne.
  replace (c =? length src) with false by (symmetry; apply Nat.eqb_neq; lia).
  unfold mk. rewrite Ne. f_equal.
  destruct (Ascii.eqb x o) eqn:E1, (Ascii.eqb x cl) eqn:E2; auto.
  apply Ascii.eqb_eq in E1, E2. congruence.
Qed.

Lemma matched_object o cl b : o <> cl -> o <> nl -> cl <> nl -> matched o cl b -> forall lev r fuel l c a t, (0 < lev)%Z ->
  skipn c src = b ++ r -> r <> [] ->
  object src (length b + fuel) lev true o cl (mk l c a t) =
  object src fuel lev true o cl (mk (l + count_nl b) (c + length b) a (t + length b)).
Proof.
  intros Hoc Hon Hcn Hb. induction Hb as [|x b Hxo Hxc Hb IH|b b2 Hb IH Hb2 IH2]; intros lev r fuel l c a t Hl H Hr.
  - cbn. rewrite !Nat.add_0_r. reflexivity.
  - cbn [app] in H. cbn [length Nat.add].
    rewrite (object_step lev o cl l c a t x (b ++ r)); auto; [|destruct b; [auto|discriminate]].
    replace (Ascii.eqb x o) with false by (symmetry; now apply Ascii.eqb_neq).
    replace (Ascii.eqb x cl) with false by (symmetry; now apply Ascii.eqb_neq).
    pose proof (skipn_cons _ _ _ H) as (_ & B & C & D).
    rewrite (IH lev r); auto. cbn [count_nl].
    rewrite <- (Nat.add_assoc l), <- !plus_n_Sm. reflexivity.
  - cbn [app] in H. rewrite <- app_assoc in H. cbn [app] in H.
    cbn [length Nat.add]. rewrite app_length. cbn [length].
    rewrite (object_step lev o cl l c a t o (b ++ cl :: b2 ++ r)); auto; [|destruct b; discriminate].
    rewrite (Ascii.eqb_refl o). replace (Ascii.eqb o nl) with false by (symmetry; now apply Ascii.eqb_neq).
    pose proof (skipn_cons _ _ _ H) as (_ & B & C & D).
    replace (length b + S (length b2) + fuel) with (length b + S (length b2 + fuel)) by lia.
    rewrite (IH (lev + 1)%Z (cl :: b2 ++ r)); auto; [|lia|discriminate].
    assert (B2 : skipn (S c + length b) src = cl :: b2 ++ r).
    { rewrite skipn_add, B, skipn_app, skipn_all, Nat.sub_diag. reflexivity. }
    rewrite (object_step (lev + 1)%Z o cl _ (S c + length b) a _ cl (b2 ++ r)); auto;
      [|lia|destruct b2; [auto|discriminate]].
    replace (Ascii.eqb cl o) with false by (symmetry; apply Ascii.eqb_neq; congruence).
    rewrite (Ascii.eqb_refl cl). replace (Ascii.eqb cl nl) with false by (symmetry; now apply Ascii.eqb_neq).
    replace (lev + 1 - 1)%Z with lev by lia.
    pose proof (skipn_cons _ _ _ B2) as (_ & B3 & _ & _).
    rewrite (IH2 lev r); auto.
    cbn [count_nl]. rewrite count_nl_app. cbn [count_nl].
    replace (Ascii.eqb o nl) with false by (symmetry; now apply Ascii.eqb_neq).
    replace (Ascii.eqb cl nl) with false by (symmetry; now apply Ascii.eqb_neq).
    f_equal. f_equal; lia.
Qed.

Lemma object_exact ob r : object_text ob -> forall fuel l c a t, skipn c src = ob ++ r -> length ob <= fuel ->
  object src fuel 0 false "{" "}" (mk l c a t) =
    Some (Ok (mk (l + count_nl ob) (c + length ob) a (t + length ob))).
Proof.
  intros Ho fuel l c a t H Hf.
  assert (G : forall o cl b, (o = "{" /\ cl = "}" \/ o = "(" /\ cl = ")")%char -> matched o cl b -> ob = o :: b ++ [cl] ->
    object src fuel 0 false "{" "}" (mk l c a t) = Some (Ok (mk (l + count_nl ob) (c + length ob) a (t + length ob)))).
  { clear Ho. intros o cl b Hocl Hb ->.
    assert (Hd : o <> cl /\ o <> nl /\ cl <> nl).
    { destruct Hocl as [[-> ->]|[-> ->]]; repeat split; intros Q; discriminate Q. }
    destruct Hd as (D1 & D2 & D3).
    cbn [length] in Hf. rewrite app_length in Hf. cbn [length] in Hf.
    cbn [app] in H. rewrite <- app_assoc in H. cbn [app] in H.
    pose proof (skipn_cons _ _ _ H) as (_ & B & C & D). rewrite app_length in D. cbn [length] in D.
    destruct fuel as [|fuel]; [lia|].
    transitivity (object src fuel 1 true o cl (mk l (S c) a (S t))).
    { cbn [object]. change (negb ((0 <? 0)%Z || negb false)) with false. cbn iota. rewrite tick_mk, (peek_cons _ _ _ _ _ _ H).
      assert (Ne : (S c =? length src) = false) by (apply Nat.eqb_neq; lia).
      destruct Hocl as [[-> ->]|[-> ->]]; cbn - [object mk Nat.eqb]; cbn [cur line start ticks finished mk];
        rewrite Ne; replace (c =? length src) with false by (symmetry; apply Nat.eqb_neq; lia);
        unfold mk; rewrite Ne; reflexivity. }
    replace fuel with (length b + (fuel - length b)) by lia.
    rewrite (matched_object o cl b D1 D2 D3 Hb 1%Z (cl :: r)); auto; [|lia|discriminate].
    assert (B2 : skipn (S c + length b) src = cl :: r).
    { rewrite skipn_add, B, skipn_app, skipn_all, Nat.sub_diag. reflexivity. }
    destruct (fuel - length b) as [|f2] eqn:Ef; [lia|].
    cbn [object]. change (negb ((0 <? 1)%Z || negb true)) with false. cbn iota.
    rewrite tick_mk, (peek_cons _ _ _ _ _ _ B2). cbn [negb andb].
    replace (Ascii.eqb cl o) with false by (symmetry; apply Ascii.eqb_neq; congruence).
    rewrite (Ascii.eqb_refl cl). replace (Ascii.eqb cl nl) with false by (symmetry; now apply Ascii.eqb_neq).
    cbn [cur line start ticks finished mk].
    cbn [length count_nl]. rewrite app_length, count_nl_app. cbn [length count_nl].
    replace (Ascii.eqb o nl) with false by (symmetry; now apply Ascii.eqb_neq).
    replace (Ascii.eqb cl nl) with false by (symmetry; now apply Ascii.eqb_neq).
    replace (c + S (length b + 1)) with (S (S c + length b)) by lia.
    replace (t + S (length b + 1)) with (S (S t + length b)) by lia.
    replace (l + (0 + (count_nl b + (0 + 0)))) with (l + count_nl b) by lia.
    pose proof (skipn_cons _ _ _ B2) as (_ & B3 & C3 & D3').
    destruct (S (S c + length b) =? length src) eqn:Ee.
    - unfold mk. rewrite Ee. reflexivity.
    - change (1 - 1)%Z with 0%Z. destruct f2; cbn [object];
        change (negb ((0 <? 0)%Z || negb true)) with true; cbn iota;
        unfold mk; rewrite Ee; replace (S c + length b =? length src) with false by (symmetry; apply Nat.eqb_neq; lia);
        reflexivity. }
  destruct Ho as [b Hb|b Hb].
  - apply (G "{"%char "}"%char b); auto.
  - apply (G "("%char ")"%char b); auto.
Qed.

Lemma ident_len_exact i r : Forall (fun x => is_ident_char x = true) i ->
  match r with [] => True | x :: _ => is_ident_char x = false end -> ident_len (i ++ r) = length i.
Proof.
  intros Hi Hr. induction Hi as [|x i Hx Hi IH]; cbn.
  - destruct r; [reflexivity|]. cbn. now rewrite Hr.
  - now rewrite Hx, IH.
Qed.

End S.

(** A declaration: an identifier, blanks, an object and blanks. *)
Record decl := mkDecl { d_ident : list ascii; d_gap : list ascii; d_object : list ascii; d_after : list ascii }.

Definition decl_text (d : decl) : list ascii := d_ident d ++ d_gap d ++ d_object d ++ d_after d.

Definition wf_decl (d : decl) : Prop :=
  d_ident d <> [] /\ Forall (fun x => is_ident_char x = true) (d_ident d) /\
  blanks (d_gap d) /\ object_text (d_object d) /\ blanks (d_after d).

Definition file_text (lead : list ascii) (ds : list decl) (tail : list ascii) : list ascii :=
  lead ++ flat_map decl_text ds ++ tail.

(** The tokens of a file; [ln] is the line where the declarations start. *)
Fixpoint tokens_from (ln : nat) (ds : list decl) : list token :=
  match ds with
  | [] => []
  | d :: r =>
      let e := ln + count_nl (d_gap d) + count_nl (d_object d) in
      mkToken (d_ident d) (d_object d) e :: tokens_from (e + count_nl (d_after d)) r
  end.

Lemma ident_char_no_blank x r : is_ident_char x = true -> no_blank (x :: r).
Proof.
  intros H. cbn. split.
  - unfold is_white. destruct (Ascii.eqb x " ") eqn:E1; [apply Ascii.eqb_eq in E1; subst; discriminate|].
    destruct (Ascii.eqb x cr) eqn:E2; [apply Ascii.eqb_eq in E2; subst; discriminate|].
    destruct (Ascii.eqb x tab) eqn:E3; [apply Ascii.eqb_eq in E3; subst; discriminate|].
    destruct (Ascii.eqb x nl) eqn:E4; [apply Ascii.eqb_eq in E4; subst; discriminate|]. reflexivity.
  - intros ->. discriminate H.
Qed.

Lemma object_no_blank ob r : object_text ob -> no_blank (ob ++ r).
Proof. intros [b Hb|b Hb]; cbn; split; try reflexivity; discriminate. Qed.

Lemma blanks_head b r : blanks b -> r <> [] -> (forall y q, r = y :: q -> is_ident_char y = false) ->
  match b ++ r with [] => True | x :: _ => is_ident_char x = false end.
Proof.
  intros [|b' bs Hb Hbs] Hr Hy.
  - cbn. destruct r; [auto|]. eapply Hy; eauto.
  - destruct Hb as [x Hx|b1 Hb|b1 Hb]; cbn; try reflexivity.
    unfold is_white in Hx.
    destruct (is_ident_char x) eqn:E; [|reflexivity].
    pose proof (ident_char_no_blank x [] E) as [Q _]. unfold is_white in Q. congruence.
Qed.

Lemma object_head ob r y q : object_text ob -> ob ++ r = y :: q -> is_ident_char y = false.
Proof. intros [b Hb|b Hb] H; cbn in H; injection H as <- _; reflexivity. Qed.

Section File.
Context (utf8_ok : list ascii -> bool).

Lemma scan_file tail : file_end tail -> forall ds, Forall wf_decl ds -> Forall (fun d => utf8_ok (d_object d) = true) ds ->
  forall src lead l c a t fuel, c <= length src -> blanks lead -> skipn c src = file_text lead ds tail ->
  length (file_text lead ds tail) < fuel ->
  exists m, scan_loop src utf8_ok fuel (mk src l c a t) = Some (Ok (tokens_from (l + count_nl lead) ds), m).
Proof.
  intros Ht. induction ds as [|d ds IH]; intros Hw Hu src lead l c a t fuel Hc Hl H Hf; unfold file_text in *; cbn [flat_map] in *.
  - cbn [app] in *. destruct fuel; [lia|]. cbn [scan_loop]. rewrite tick_mk.
    pose proof (skipn_length c src) as L. rewrite H in L.
    assert (G : exists l' t', skip_white_space src (S (S (length src))) (mk src l c a (S t)) = Some (Ok (mk src l' (length src) a t'))).
    { unfold skip_white_space. destruct (finished (mk src l c a (S t))) eqn:Ef.
      - cbn in Ef. apply Nat.eqb_eq in Ef. rewrite Ef. eauto.
      - destruct (blanks_to src lead Hl tail (S (S (length src))) l c a (S t)) as (f' & t' & F & E); auto; [lia|].
        rewrite E. rewrite app_length in L. apply (end_skip src tail); auto; [lia|].
        rewrite skipn_add, H, skipn_app, skipn_all, Nat.sub_diag. reflexivity. }
    destruct G as (l' & t' & E). rewrite E. cbn [update_start finished mk].
    rewrite Nat.eqb_refl. eauto.
  - inversion Hw as [|? ? (W1 & W2 & W3 & W4 & W5) Hw']; subst. inversion Hu as [|? ? Hu1 Hu']; subst.
    unfold decl_text in H, Hf. rewrite <- !app_assoc in H, Hf.
    fold decl_text in H, Hf. set (rest := flat_map decl_text ds ++ tail) in *.
    pose proof (skipn_length c src) as L. rewrite H in L. rewrite !app_length in L, Hf.
    destruct fuel; [lia|]. cbn [scan_loop]. rewrite tick_mk.
    assert (Ld : 1 <= length (d_ident d)) by (destruct (d_ident d); [congruence|cbn; lia]).
    assert (Lo : 2 <= length (d_object d)) by (destruct W4; cbn; rewrite app_length; cbn; lia).
    destruct (blanks_skip src lead Hl (d_ident d ++ d_gap d ++ d_object d ++ d_after d ++ rest) (S (S (length src))) l c a (S t)) as (t1 & E1); auto.
    { rewrite !app_length. lia. }
    { destruct (d_ident d); [congruence|]. apply ident_char_no_blank. now inversion W2. }
    rewrite E1. set (l1 := l + count_nl lead).
    assert (H1 : skipn (c + length lead) src = d_ident d ++ d_gap d ++ d_object d ++ d_after d ++ rest).
    { rewrite skipn_add, H, skipn_app, skipn_all, Nat.sub_diag. reflexivity. }
    assert (F1 : finished (update_start (mk src l1 (c + length lead) a t1)) = false) by (cbn; apply Nat.eqb_neq; lia).
    rewrite F1. change (update_start (mk src l1 (c + length lead) a t1)) with (mk src l1 (c + length lead) (c + length lead) t1).
    rewrite (identifier_spec src _ (S (S (length src))) l1 (c + length lead) (c + length lead) t1) by (try exact H1; rewrite ?app_length; lia).
    rewrite ident_len_exact; [|exact W2|].
    2:{ apply blanks_head; auto. { destruct W4; discriminate. } intros y q. apply object_head; auto. }
    cbn [start cur mk].
    rewrite (slice_skipn src (c + length lead) (length (d_ident d)) _ ltac:(lia) H1) by (rewrite app_length; lia).
    rewrite firstn_app, Nat.sub_diag, firstn_all, app_nil_r.
    assert (H2 : skipn (c + length lead + length (d_ident d)) src = d_gap d ++ d_object d ++ d_after d ++ rest).
    { rewrite skipn_add, H1, skipn_app, skipn_all, Nat.sub_diag. reflexivity. }
    destruct (blanks_skip src (d_gap d) W3 (d_object d ++ d_after d ++ rest) (S (S (length src))) l1 (c + length lead + length (d_ident d))
       (c + length lead) (t1 + length (d_ident d) + 1)) as (t2 & E2); auto.
    { lia. } { rewrite !app_length. lia. } { now apply object_no_blank. }
    cbn [mk] in E2. rewrite E2. set (l2 := l1 + count_nl (d_gap d)).
    set (c2 := c + length lead + length (d_ident d) + length (d_gap d)).
    change (update_start (mk src l2 c2 (c + length lead) t2)) with (mk src l2 c2 c2 t2).
    assert (H3 : skipn c2 src = d_object d ++ d_after d ++ rest).
    { unfold c2. rewrite skipn_add, H2, skipn_app, skipn_all, Nat.sub_diag. reflexivity. }
    rewrite (object_exact src (d_object d) (d_after d ++ rest) W4 fuel l2 c2 c2 t2 H3) by lia.
    cbn [start cur mk line].
    rewrite (slice_skipn src c2 (length (d_object d)) _ ltac:(unfold c2; lia) H3) by (rewrite app_length; lia).
    rewrite firstn_app, Nat.sub_diag, firstn_all, app_nil_r, Hu1.
    assert (H4 : skipn (c2 + length (d_object d)) src = d_after d ++ rest).
    { rewrite skipn_add, H3, skipn_app, skipn_all, Nat.sub_diag. reflexivity. }
    destruct (IH Hw' Hu' src (d_after d) (l2 + count_nl (d_object d)) (c2 + length (d_object d)) c2 (t2 + length (d_object d)) fuel)
      as (m & E3); auto.
    { unfold c2. lia. } { fold rest. rewrite app_length. lia. }
    rewrite E3. exists m. cbn [tokens_from]. reflexivity.
Qed.

End File.

(** *** Building the model *)

Lemma ident_eqb_eq a b : ident_eqb a b = true <-> a = b.
Proof. unfold ident_eqb. destruct (list_eq_dec ascii_dec a b); split; congruence. Qed.

(** The same objects of each kind, in the same order, build the same model. *)
Lemma build_ext {M} (add : list ascii -> list ascii -> M -> res M) order : forall ts1 ts2 m,
  (forall i, In i order -> objects_of i ts1 = objects_of i ts2) ->
  build add order ts1 m = build add order ts2 m.
Proof.
  induction order as [|i order IH]; intros ts1 ts2 m H; cbn; [reflexivity|].
  rewrite (H i) by now left. destruct (add_all add i (objects_of i ts2) m); cbn; auto.
  apply IH. intros j Hj. apply H. now right.
Qed.

(** Lemmas about matrix files (MatrixFile.v). *)
From Coq Require Import String Ascii List Bool Arith NArith ZArith QArith Lia.
From Verif.Common Require Import Base Text.
From Verif.Matrix Require Import MatrixModel MatrixSpec.
From Verif.Rendering Require Import MatrixFile.
Import ListNotations.
Open Scope list_scope.
Open Scope nat_scope.

(** ** Words and lines *)
Lemma split_on_app_gen p l c r : p c = true -> split_on p (l ++ c :: r) = split_on p l ++ split_on p r.
Proof.
  intros P. induction l as [|x l IH]; cbn [List.app split_on].
  - destruct (split_on_nonnil p r) as (h & t & E). now rewrite E, P.
  - rewrite IH. destruct (split_on_nonnil p l) as (h & t & E). rewrite E. cbn [List.app]. now destruct (p x).
Qed.
Lemma words_app l c r : is_ws c = true -> words (l ++ c :: r) = words l ++ words r.
Proof. intros H. unfold words. rewrite split_on_app_gen by assumption. apply filter_app. Qed.
Definition is_word (w : text) : Prop := w <> [] /\ Forall (fun c => is_ws c = false) w.
Lemma words_word w : is_word w -> words w = [w].
Proof. intros [N F]. unfold words. rewrite split_on_none by assumption. destruct w; [congruence|reflexivity]. Qed.
Lemma not_ws_not_nl c : is_ws c = false -> Ascii.eqb c t_nl = false.
Proof. unfold is_ws. destruct (Ascii.eqb c t_nl); [|reflexivity]. now rewrite orb_true_r. Qed.

Section Generic.
Context {E : Type}.
Variables (zero : E) (ncomp : nat) (show : E -> text) (elem : list text -> option (E * list text)) (rd : E -> E).

(** ** What is written *)
Definition cells_text (l : list E) : text := concat (map (fun v => show v ++ [t_tab]) l).
Definition row_of (m : mat E) (r : nat) : list E := firstn (ncols m) (skipn (ncols m * r) (data m)).

Lemma skipn_nth_cons {A} (l : list A) i v : nth_error l i = Some v -> skipn i l = v :: skipn (S i) l.
Proof. revert i. induction l as [|a l IH]; intros [|i] H; cbn in *; try discriminate; [congruence|now apply IH]. Qed.

Lemma save_cells_spec m r k : wf m -> r < nrows m -> forall c, c + k <= ncols m ->
  save_cells show m r c k = Ok (cells_text (firstn k (skipn (ncols m * r + c) (data m)))).
Proof.
  intros W Hr. induction k as [|k IH]; intros c Hc; cbn [save_cells]; [reflexivity|].
  unfold get. replace ((r <? nrows m) && (c <? ncols m)) with true
    by (symmetry; apply andb_true_iff; split; apply Nat.ltb_lt; lia).
  unfold read, index. assert (L : ncols m * r + c < length (data m)) by (unfold wf in W; rewrite W; nia).
  destruct (nth_error (data m) (ncols m * r + c)) as [v|] eqn:V; [|apply nth_error_None in V; lia].
  cbn [bind]. rewrite IH by lia. cbn [bind]. rewrite (skipn_nth_cons _ _ _ V). cbn [firstn]. unfold cells_text. cbn [map concat].
  rewrite <- app_assoc. replace (ncols m * r + S c) with (S (ncols m * r + c)) by lia. reflexivity.
Qed.
Lemma save_rows_spec m k : wf m -> forall r, r + k <= nrows m ->
  save_rows show m r k = Ok (concat (map (fun i => cells_text (row_of m i) ++ [t_nl]) (seq r k))).
Proof.
  intros W. induction k as [|k IH]; intros r Hr; cbn [save_rows]; [reflexivity|].
  rewrite save_cells_spec by (auto; lia). cbn [bind]. rewrite IH by lia. cbn [bind seq map concat].
  rewrite Nat.add_0_r. fold (row_of m r). now rewrite <- app_assoc.
Qed.

(** ** What is read *)
Fixpoint elems (k : nat) (vals : list text) : option (list E) :=
  match k with
  | O => Some []
  | S k' => match elem vals with
            | None => None
            | Some (v, rest) => match elems k' rest with Some es => Some (v :: es) | None => None end
            end
  end.
Lemma elems_length k vals es : elems k vals = Some es -> length es = k.
Proof.
  revert vals es. induction k as [|k IH]; intros vals es; cbn [elems]; [intros H; injection H as <-; reflexivity|].
  destruct (elem vals) as [[v rest]|]; [|discriminate]. destruct (elems k rest) eqn:R; [|discriminate].
  intros H. injection H as <-. cbn [length]. f_equal. eauto.
Qed.

Lemma upd_after {A} (pre : list A) z k v : upd (pre ++ repeat z (S k)) (length pre) v = pre ++ v :: repeat z k.
Proof. induction pre as [|a pre IH]; cbn [List.app length upd repeat] in *; [reflexivity|]. now rewrite IH. Qed.

(** A matrix whose first elements are [pre] and whose other elements are still zero *)
Definition filled (nr nc : nat) (pre : list E) : mat E := mkMat nr nc (pre ++ repeat zero (nr * nc - length pre)).

Lemma set_filled nr nc pre r c v : r < nr -> c < nc -> length pre = nc * r + c ->
  set (filled nr nc pre) r c v = Ok (filled nr nc (pre ++ [v])).
Proof.
  intros Hr Hc Hl. unfold set, filled. cbn [nrows ncols].
  replace ((r <? nr) && (c <? nc)) with true by (symmetry; apply andb_true_iff; split; apply Nat.ltb_lt; lia).
  unfold modify. cbn [data nrows ncols]. assert (P : nc * r + c < nr * nc) by nia.
  rewrite <- Hl. destruct (nr * nc - length pre) as [|k] eqn:K; [lia|].
  rewrite nth_error_app2 by lia. rewrite Nat.sub_diag. cbn [repeat nth_error].
  change (zero :: repeat zero k) with (repeat zero (S k)).
  rewrite upd_after, app_length. cbn [length]. replace (nr * nc - (length pre + 1)) with k by lia. now rewrite <- app_assoc.
Qed.
Lemma read_cells_ok nr nc r k : r < nr -> forall c pre vals es, elems k vals = Some es -> length pre = nc * r + c -> c + k <= nc ->
  read_cells elem (filled nr nc pre) r c k vals = Ok (filled nr nc (pre ++ es)).
Proof.
  intros Hr. induction k as [|k IH]; intros c pre vals es He Hl Hc; cbn [elems read_cells] in *.
  - injection He as <-. now rewrite app_nil_r.
  - destruct (elem vals) as [[v rest]|]; [|discriminate]. destruct (elems k rest) as [es'|] eqn:R; [|discriminate]. injection He as <-.
    rewrite set_filled by (auto; lia). cbn [bind]. rewrite (IH (S c) (pre ++ [v]) rest es'); auto; [|rewrite app_length; cbn; lia|lia].
    now rewrite <- app_assoc.
Qed.
Lemma read_cells_inv nr nc r k : forall c pre vals m', length pre = nc * r + c -> c + k <= nc ->
  read_cells elem (filled nr nc pre) r c k vals = Ok m' ->
  exists es, elems k vals = Some es /\ (k = 0 \/ r < nr) /\ m' = filled nr nc (pre ++ es).
Proof.
  induction k as [|k IH]; intros c pre vals m' Hl Hc H; cbn [elems read_cells] in *.
  - exists []. split; [reflexivity|]. split; [auto|]. rewrite app_nil_r. congruence.
  - destruct (elem vals) as [[v rest]|]; [|discriminate]. destruct (le_lt_dec nr r) as [G|G].
    + unfold set in H. cbn [filled nrows] in H. replace (r <? nr) with false in H by (symmetry; apply Nat.ltb_ge; lia). discriminate.
    + rewrite set_filled in H by (auto; lia). cbn [bind] in H. destruct (IH (S c) (pre ++ [v]) rest m') as (es & -> & _ & ->);
        [rewrite app_length; cbn; lia|lia|exact H|].
      exists (v :: es). split; [reflexivity|]. split; [auto|]. now rewrite <- app_assoc.
Qed.

(** The rows of a body *)
Definition good_row (nc : nat) (line : text) (es : list E) : Prop :=
  length (words line) = ncomp * nc /\ elems nc (words line) = Some es.
Lemma read_rows_ok nr nc ls : forall r pre rows, Forall2 (good_row nc) ls rows -> length pre = nc * r -> r + length ls <= nr ->
  read_rows ncomp elem (filled nr nc pre) r ls = Ok (filled nr nc (pre ++ concat rows)).
Proof.
  induction ls as [|l ls IH]; intros r pre rows F Hl Hr; inversion F as [|? es ? rows' [G1 G2] F']; subst; cbn [read_rows concat].
  - now rewrite app_nil_r.
  - cbn [filled ncols]. rewrite G1, Nat.eqb_refl. cbn [length] in Hr. fold (filled nr nc pre). rewrite (read_cells_ok nr nc r nc ltac:(lia) 0 pre (words l) es G2) by lia.
    cbn [bind]. rewrite (IH (S r) (pre ++ es) rows'); auto; [now rewrite <- app_assoc| |lia].
    rewrite app_length, (elems_length _ _ _ G2). lia.
Qed.
Lemma read_rows_inv nr nc ls : forall r pre m', length pre = nc * r ->
  read_rows ncomp elem (filled nr nc pre) r ls = Ok m' ->
  exists rows, Forall2 (good_row nc) ls rows /\ m' = filled nr nc (pre ++ concat rows) /\ (ls = [] \/ nc = 0 \/ r + length ls <= nr).
Proof.
  induction ls as [|l ls IH]; intros r pre m' Hl H; cbn [read_rows] in H.
  - exists []. split; [constructor|]. split; [cbn [concat]; rewrite app_nil_r; congruence|auto].
  - cbn [filled ncols] in H. fold (filled nr nc pre) in H. destruct (length (words l) =? ncomp * nc) eqn:L; [|discriminate]. apply Nat.eqb_eq in L.
    destruct (read_cells elem (filled nr nc pre) r 0 nc (words l)) as [m1| |] eqn:C; cbn [bind] in H; try discriminate.
    destruct (read_cells_inv nr nc r nc 0 pre (words l) m1) as (es & Es & Hk & ->); [lia|lia|exact C|].
    destruct (IH (S r) (pre ++ es) m') as (rows & F & -> & Q); [rewrite app_length, (elems_length _ _ _ Es); lia|exact H|].
    exists (es :: rows). split; [constructor; [split|]; assumption|]. cbn [concat]. rewrite <- app_assoc. split; [reflexivity|].
    right. cbn [length]. destruct Hk as [->|Hk]; [now left|]. destruct Q as [->|[->|Q]]; [right; cbn; lia|now left|right; lia].
Qed.

(** ** Round trip *)
(** How an element is written and read: [rd] is what comes back *)
Definition readable (v : E) : Prop :=
  Forall (fun c => Ascii.eqb c t_nl = false) (show v) /\ length (words (show v)) = ncomp /\
  forall r, elem (words (show v) ++ r) = Some (rd v, r).

Lemma words_cells l : words (cells_text l) = concat (map (fun v => words (show v)) l).
Proof.
  induction l as [|v l IH]; [reflexivity|]. unfold cells_text in *. cbn [map concat]. rewrite <- app_assoc.
  change ([t_tab] ++ concat (map (fun v => show v ++ [t_tab]) l)) with (t_tab :: concat (map (fun v => show v ++ [t_tab]) l)).
  rewrite words_app by reflexivity. now rewrite IH.
Qed.
Lemma cells_words l : Forall readable l -> length (words (cells_text l)) = ncomp * length l /\
  elems (length l) (words (cells_text l)) = Some (map rd l).
Proof.
  rewrite words_cells. induction 1 as [|v l (Hn & Hl & He) F [IH1 IH2]]; cbn [map concat length elems]; [split; [lia|reflexivity]|].
  rewrite app_length, Hl, IH1, He, IH2. split; [lia|reflexivity].
Qed.
Lemma cells_no_nl l : Forall readable l -> no_nl (cells_text l).
Proof.
  unfold no_nl, cells_text. induction 1 as [|v l (Hn & _) F IH]; cbn [map concat]; [constructor|].
  apply Forall_app. split; [|exact IH]. apply Forall_app. split; [exact Hn|]. repeat constructor.
Qed.
Lemma cells_no_cr l : no_cr_last (cells_text l).
Proof.
  unfold no_cr_last. destruct l as [|v l] using rev_ind; [reflexivity|]. unfold cells_text. rewrite map_app, concat_app. cbn [map concat].
  rewrite app_nil_r, app_assoc. now apply strip_cr_last.
Qed.

Lemma rows_lines (rows : list (list E)) : Forall (Forall readable) rows ->
  lines (concat (map (fun l => cells_text l ++ [t_nl]) rows)) = map cells_text rows.
Proof.
  induction 1 as [|l rows Hl F IH]; [reflexivity|]. cbn [map concat]. rewrite <- app_assoc.
  change ([t_nl] ++ concat (map (fun l => cells_text l ++ [t_nl]) rows)) with (t_nl :: concat (map (fun l => cells_text l ++ [t_nl]) rows)).
  rewrite lines_cons by (auto using cells_no_nl, cells_no_cr). now rewrite IH.
Qed.

Lemma rows_concat (nc k : nat) (d : list E) : length d = k * nc -> concat (map (fun i => firstn nc (skipn (nc * i) d)) (seq 0 k)) = d.
Proof.
  revert d. induction k as [|k IH]; intros d H; cbn [seq map concat]; [symmetry; apply length_zero_iff_nil; lia|].
  rewrite Nat.mul_0_r. cbn [skipn]. rewrite <- seq_shift, map_map. transitivity (firstn nc d ++ skipn nc d); [f_equal|apply firstn_skipn].
  rewrite <- (IH (skipn nc d)) at 1 by (rewrite skipn_length; lia). f_equal. apply map_ext. intros i.
  assert (S : forall (l : list E) a b, skipn a (skipn b l) = skipn (b + a) l).
  { clear. intros l a b. revert l. induction b as [|b IH]; intros l; [reflexivity|]. destruct l; [now rewrite !skipn_nil|]. apply IH. }
  rewrite S. f_equal. f_equal. lia.
Qed.

Lemma header_value_line key n : Forall (fun c => Ascii.eqb c "=" = false) key -> (N.of_nat n < 2 ^ 64)%N ->
  header_value (key ++ "="%char :: show_nat n) = Some n.
Proof.
  intros K H. unfold header_value. rewrite split_on_app by (auto; reflexivity). rewrite split_on_none; [now apply parse_show|].
  eapply Forall_impl; [|apply show_nat_digits]. apply digit_not_eq.
Qed.
Lemma starts_with_app p l : starts_with p (p ++ l) = true.
Proof. induction p as [|a p IH]; cbn [List.app starts_with]; [reflexivity|]. now rewrite Ascii.eqb_refl. Qed.

Lemma head_line_lines key n rest : Forall (fun c => Ascii.eqb c t_nl = false) key ->
  lines (key ++ show_nat n ++ t_nl :: rest) = (key ++ show_nat n) :: lines rest.
Proof.
  intros K. rewrite app_assoc. apply lines_cons.
  - apply Forall_app. split; [exact K|]. eapply Forall_impl; [|apply show_nat_digits]. apply digit_not_nl.
  - unfold no_cr_last. pose proof (show_nat_nonempty n) as NE. pose proof (show_nat_digits n) as D. revert NE D.
    destruct (show_nat n) as [|c l] using rev_ind; [congruence|]. intros _ D. rewrite app_assoc. apply strip_cr_last.
    apply Forall_app in D. destruct D as [_ D]. inversion D; subst. now apply digit_not_cr.
Qed.

Theorem round_trip m : wf m -> (N.of_nat (nrows m) < 2 ^ 64)%N -> (N.of_nat (ncols m) < 2 ^ 64)%N -> (N.of_nat ncomp < 2 ^ 64)%N ->
  Forall readable (data m) ->
  exists file, save_matrix ncomp show m = Ok file /\
    read_matrix zero ncomp elem file = Ok (mkMat (nrows m) (ncols m) (map rd (data m))).
Proof.
  intros W Hr Hc Hk F. unfold save_matrix. rewrite save_rows_spec by (auto; lia). cbn [bind]. eexists. split; [reflexivity|].
  unfold read_matrix.
  assert (Frows : Forall (Forall readable) (map (row_of m) (seq 0 (nrows m)))).
  { apply Forall_forall. intros l Hl. apply in_map_iff in Hl. destruct Hl as (i & <- & _). unfold row_of.
    apply Forall_forall. intros v Hv. rewrite Forall_forall in F. apply F. apply (In_nth _ _ v) in Hv. destruct Hv as (j & Hj & <-).
    assert (G : forall (l : list E) a v, In v (firstn a l) -> In v l).
    { clear. intros l a v H. rewrite <- (firstn_skipn a l). apply in_or_app. now left. }
    assert (G' : forall (l : list E) a v, In v (skipn a l) -> In v l).
    { clear. intros l a v H. rewrite <- (firstn_skipn a l). apply in_or_app. now right. }
    eapply G', G, nth_In, Hj. }
  set (body := concat _).
  assert (Lb : lines body = map cells_text (map (row_of m) (seq 0 (nrows m)))).
  { rewrite <- rows_lines by assumption. unfold body. now rewrite !map_map. }
  rewrite (lines_cons (txt "#?SIMPLE")) by (repeat constructor).
  rewrite head_line_lines by (repeat constructor). rewrite head_line_lines by (repeat constructor). rewrite head_line_lines by (repeat constructor).
  rewrite (lines_cons (txt "FORMAT=ascii")) by (repeat constructor).
  change (t_nl :: body) with ([] ++ t_nl :: body). rewrite (lines_cons []) by (repeat constructor).
  cbn [read_head]. change (is_blank (txt "#?SIMPLE")) with false. change (starts_with (txt "NROWS") (txt "#?SIMPLE")) with false.
  change (starts_with (txt "NCOLS") (txt "#?SIMPLE")) with false. change (starts_with (txt "NCOMP") (txt "#?SIMPLE")) with false. cbn iota.
  change (txt "NROWS=" ++ show_nat (nrows m)) with (txt "NROWS" ++ "="%char :: show_nat (nrows m)).
  change (txt "NCOLS=" ++ show_nat (ncols m)) with (txt "NCOLS" ++ "="%char :: show_nat (ncols m)).
  change (txt "NCOMP=" ++ show_nat ncomp) with (txt "NCOMP" ++ "="%char :: show_nat ncomp).
  rewrite !starts_with_app, !header_value_line by (auto; repeat constructor).
  change (is_blank (txt "NROWS" ++ "="%char :: show_nat (nrows m))) with false.
  change (is_blank (txt "NCOLS" ++ "="%char :: show_nat (ncols m))) with false.
  change (starts_with (txt "NROWS") (txt "NCOLS" ++ "="%char :: show_nat (ncols m))) with false.
  change (is_blank (txt "NCOMP" ++ "="%char :: show_nat ncomp)) with false.
  change (starts_with (txt "NROWS") (txt "NCOMP" ++ "="%char :: show_nat ncomp)) with false.
  change (starts_with (txt "NCOLS") (txt "NCOMP" ++ "="%char :: show_nat ncomp)) with false.
  cbn iota. rewrite Nat.eqb_refl. cbn [is_blank]. change (is_blank (txt "FORMAT=ascii")) with false.
  change (starts_with (txt "NROWS") (txt "FORMAT=ascii")) with false.
  change (starts_with (txt "NCOLS") (txt "FORMAT=ascii")) with false. change (starts_with (txt "NCOMP") (txt "FORMAT=ascii")) with false.
  cbn iota. cbn [bind]. rewrite Lb.
  assert (NM : new_mat zero (nrows m) (ncols m) = filled (nrows m) (ncols m) []).
  { unfold new_mat, filled. cbn [List.app length]. now rewrite Nat.sub_0_r. }
  rewrite NM. rewrite (read_rows_ok (nrows m) (ncols m) _ 0 [] (map (map rd) (map (row_of m) (seq 0 (nrows m))))).
  - cbn [List.app]. unfold filled. rewrite <- concat_map.
    assert (C : concat (map (row_of m) (seq 0 (nrows m))) = data m) by (apply rows_concat; exact W).
    rewrite C, map_length. unfold wf in W. rewrite W, Nat.sub_diag. cbn [repeat]. now rewrite app_nil_r.
  - assert (Lr : Forall (fun l => length l = ncols m) (map (row_of m) (seq 0 (nrows m)))).
    { apply Forall_forall. intros l Hl. apply in_map_iff in Hl. destruct Hl as (i & <- & Hi). apply in_seq in Hi. unfold row_of.
      rewrite firstn_length, skipn_length. unfold wf in W. rewrite W. nia. }
    revert Frows Lr. generalize (map (row_of m) (seq 0 (nrows m))). induction l as [|x l IH]; intros Fr Lr; cbn [map]; constructor.
    + inversion Fr as [|? ? Fx _]; subst. inversion Lr as [|? ? Lx _]; subst. destruct (cells_words x Fx) as [A B].
      split; [now rewrite A, Lx|]. rewrite <- Lx. exact B.
    + inversion Fr; inversion Lr; subst. now apply IH.
  - cbn [length]. lia.
  - rewrite !map_length, seq_length. lia.
Qed.

(** ** Acceptance *)
(** The lines of the header, and the lines after the blank line that ends it *)
Fixpoint header_of (ls : list text) : list text := match ls with [] => [] | l :: r => if is_blank l then [] else l :: header_of r end.
Fixpoint body_of (ls : list text) : list text := match ls with [] => [] | l :: r => if is_blank l then r else body_of r end.

Lemma read_head_inv ls : forall nr nc nr' nc' body, read_head ncomp ls nr nc = Ok (nr', nc', body) ->
  body = body_of ls /\
  (nr' = nr \/ exists l v, In l (header_of ls) /\ starts_with (txt "NROWS") l = true /\ header_value l = Some v /\ nr' = Some v) /\
  (nc' = nc \/ exists l v, In l (header_of ls) /\ starts_with (txt "NCOLS") l = true /\ header_value l = Some v /\ nc' = Some v).
Proof.
  induction ls as [|l ls IH]; intros nr nc nr' nc' body; cbn [read_head header_of body_of].
  - intros H. injection H as <- <- <-. auto.
  - destruct (is_blank l); [intros H; injection H as <- <- <-; auto|].
    destruct (starts_with (txt "NROWS") l) eqn:S1; [|destruct (starts_with (txt "NCOLS") l) eqn:S2; [|destruct (starts_with (txt "NCOMP") l) eqn:S3]].
    + destruct (header_value l) as [v|] eqn:V; [|discriminate]. intros H. apply IH in H. destruct H as (-> & A & B). split; [reflexivity|]. split.
      * destruct A as [->|(l' & v' & A)]; right; [exists l, v|exists l', v']; cbn [In]; tauto.
      * destruct B as [->|(l' & v' & B)]; [now left|right; exists l', v'; cbn [In]; tauto].
    + destruct (header_value l) as [v|] eqn:V; [|discriminate]. intros H. apply IH in H. destruct H as (-> & A & B). split; [reflexivity|]. split.
      * destruct A as [->|(l' & v' & A)]; [now left|right; exists l', v'; cbn [In]; tauto].
      * destruct B as [->|(l' & v' & B)]; right; [exists l, v|exists l', v']; cbn [In]; tauto.
    + destruct (header_value l) as [v|] eqn:V; [|discriminate]. destruct (v =? ncomp); [|discriminate]. intros H. apply IH in H.
      destruct H as (-> & A & B). split; [reflexivity|]. split.
      * destruct A as [->|(l' & v' & A)]; [now left|right; exists l', v'; cbn [In]; tauto].
      * destruct B as [->|(l' & v' & B)]; [now left|right; exists l', v'; cbn [In]; tauto].
    + intros H. apply IH in H. destruct H as (-> & A & B). split; [reflexivity|]. split.
      * destruct A as [->|(l' & v' & A)]; [now left|right; exists l', v'; cbn [In]; tauto].
      * destruct B as [->|(l' & v' & B)]; [now left|right; exists l', v'; cbn [In]; tauto].
Qed.

Theorem accepted file m : read_matrix zero ncomp elem file = Ok m ->
  let body := body_of (lines file) in
  (exists l, In l (header_of (lines file)) /\ starts_with (txt "NROWS") l = true /\ header_value l = Some (nrows m)) /\
  (exists l, In l (header_of (lines file)) /\ starts_with (txt "NCOLS") l = true /\ header_value l = Some (ncols m)) /\
  exists rows, Forall2 (good_row (ncols m)) body rows /\
    data m = concat rows ++ repeat zero (nrows m * ncols m - length (concat rows)) /\
    (0 < ncols m -> length body <= nrows m).
Proof.
  unfold read_matrix. destruct (read_head ncomp (lines file) None None) as [[[nr nc] body]| |] eqn:H; cbn [bind]; try discriminate.
  apply read_head_inv in H. destruct H as (-> & A & B). destruct nr as [nr|]; [|discriminate]. destruct nc as [nc|]; [|discriminate].
  destruct A as [A|(la & va & A1 & A2 & A3 & A4)]; [discriminate|]. destruct B as [B|(lb & vb & B1 & B2 & B3 & B4)]; [discriminate|].
  injection A4 as ->. injection B4 as ->.
  assert (NM : new_mat zero va vb = filled va vb []). { unfold new_mat, filled. cbn [List.app length]. now rewrite Nat.sub_0_r. }
  rewrite NM. intros R. apply read_rows_inv in R; [|cbn; lia]. destruct R as (rows & F & -> & Q). cbn [List.app filled nrows ncols data].
  split; [exists la; auto|]. split; [exists lb; auto|]. exists rows. split; [exact F|]. split; [reflexivity|].
  intros P. destruct Q as [Q|[Q|Q]]; [rewrite Q; cbn; lia|lia|lia].
Qed.
End Generic.

(** Property C41: matrix files (rendering/src/colour_matrix.rs). *)
From Coq Require Import String Ascii List Bool Arith NArith ZArith QArith Qabs Qround Lia Lqa Decimal DecimalString.
From Verif.Common Require Import Base Text.
From Verif.Matrix Require Import MatrixModel MatrixSpec.
From Verif.Rendering Require Import MatrixFile MatrixFileProofs.
Import ListNotations.
Open Scope list_scope.
Open Scope nat_scope.

(** ** Saving and loading matrices of numbers *)

(** Numbers that are written as one word and read back exactly, as Rust guarantees for the finite floats *)
Definition exact_numbers {T} (show : T -> text) (parse : text -> option T) (vs : list T) : Prop :=
  forall v, In v vs -> is_word (show v) /\ parse (show v) = Some v.

Theorem C41_matrix : forall T (zero : T) show parse m, wf m ->
  (N.of_nat (nrows m) < 2 ^ 64)%N -> (N.of_nat (ncols m) < 2 ^ 64)%N -> exact_numbers show parse (data m) ->
  exists file, save_matrix 1 show m = Ok file /\ read_matrix zero 1 (elem1 parse) file = Ok m.
Proof.
  intros T zero show parse m W Hr Hc X.
  destruct (round_trip zero 1 show (elem1 parse) (fun v => v) m W Hr Hc) as (file & S & R); [reflexivity| |].
  - apply Forall_forall. intros v Hv. destruct (X v Hv) as [Iw Pv]. repeat split.
    + destruct Iw as [_ F]. eapply Forall_impl; [|exact F]. apply not_ws_not_nl.
    + now rewrite words_word.
    + intros r. rewrite words_word by assumption. cbn [List.app elem1]. now rewrite Pv.
  - exists file. split; [exact S|]. rewrite R, map_id. now destruct m.
Qed.

(** What an accepted file says: the sizes are those of its header, every line after the header holds one row, and the
    elements are the numbers written there, in order; rows that are missing are zero. There are at most as many rows as
    announced (when there are columns). *)
Theorem C41_accepted : forall T (zero : T) parse file m, read_matrix zero 1 (elem1 parse) file = Ok m ->
  let body := body_of (lines file) in
  (exists l, In l (header_of (lines file)) /\ starts_with (txt "NROWS") l = true /\ header_value l = Some (nrows m)) /\
  (exists l, In l (header_of (lines file)) /\ starts_with (txt "NCOLS") l = true /\ header_value l = Some (ncols m)) /\
  (0 < ncols m -> length body <= nrows m) /\
  exists rows, Forall2 (fun l vs => map parse (words l) = map Some vs /\ length vs = ncols m) body rows /\
    data m = concat rows ++ repeat zero (nrows m * ncols m - length (concat rows)).
Proof.
  intros T zero parse file m H body. destruct (accepted zero 1 (fun _ => []) (elem1 parse) (fun v => v) file m H) as (A & B & rows & F & D & L).
  split; [exact A|]. split; [exact B|]. split; [exact L|]. exists rows. split; [|exact D].
  assert (IM : forall (P Q : text -> list T -> Prop) la lb, (forall a b, P a b -> Q a b) -> Forall2 P la lb -> Forall2 Q la lb)
    by (intros P Q la lb PQ; induction 1; constructor; auto).
  eapply IM; [|exact F]. intros l vs [G1 G2]. rewrite Nat.mul_1_l in G1. clear -G1 G2.
  generalize dependent (ncols m). intros nc. revert vs. generalize (words l). clear l.
  induction nc as [|nc IH]; intros ws vs G1 G2; cbn [elems] in G2; revert G1 G2.
  - destruct ws as [|w ws]; cbn [elems length map]; intros G1 G2; [|discriminate]. injection G2 as <-. split; reflexivity.
  - destruct ws as [|w ws]; cbn [elems elem1 length map]; intros G1 G2; [discriminate|].
    destruct (parse w) as [x|] eqn:P; [|discriminate]. destruct (elems (elem1 parse) nc ws) as [es|] eqn:E; [|discriminate]. injection G2 as <-.
    destruct (IH ws es) as [A B]; [lia|exact E|]. cbn [map length]. rewrite A, B. split; reflexivity.
Qed.

(** Files with more rows than announced are rejected *)
Theorem C41_extra_rows : forall T (zero : T) parse file m, read_matrix zero 1 (elem1 parse) file = Ok m -> 0 < ncols m ->
  ~ nrows m < length (body_of (lines file)).
Proof. intros T zero parse file m H P L. destruct (C41_accepted T zero parse file m H) as (_ & _ & Q & _). specialize (Q P). lia. Qed.

(** A file that announces another number of components than the kind of matrix being read has is refused. *)
Theorem C41_components : forall E (zero : E) ncomp elem file m, read_matrix zero ncomp elem file = Ok m ->
  forall l, In l (header_of (lines file)) -> starts_with (txt "NCOMP") l = true -> header_value l = Some ncomp.
Proof.
  intros E zero ncomp elem file m H. unfold read_matrix in H. destruct (read_head ncomp (lines file) None None) as [[[nr nc] body]| |] eqn:H'; cbn [bind] in H; try discriminate. clear H.
  revert H'. generalize (@None nat) at 1 as a. generalize (@None nat) as b. generalize (lines file) as ls. induction ls as [|x ls IH]; intros b a; cbn [read_head header_of]; [intros _ l []|].
  destruct (is_blank x); [intros _ l []|]. intros R l [<-|Hl] Sl.
  - assert (X : forall k, starts_with k x = true -> exists r, x = k ++ r).
    { clear. intros k. revert x. induction k as [|c k IH]; intros x; cbn [starts_with]; [exists x; reflexivity|]. destruct x as [|y x]; [discriminate|]. intros H.
      apply andb_true_iff in H. destruct H as [H1 H2]. apply Ascii.eqb_eq in H1. subst. destruct (IH _ H2) as (r & ->). eexists. reflexivity. }
    destruct (X _ Sl) as (r & Ex). rewrite Ex in R. cbn in R. rewrite Ex.
    match type of R with context [header_value ?y] => change y with (txt "NCOMP" ++ r) in R end.
    destruct (header_value (txt "NCOMP" ++ r)) as [v|]; [|discriminate]. destruct (Nat.eqb_spec v ncomp); [congruence|discriminate].
  - destruct (starts_with (txt "NROWS") x); [destruct (header_value x); [|discriminate]; exact (IH _ _ R l Hl Sl)|].
    destruct (starts_with (txt "NCOLS") x); [destruct (header_value x); [|discriminate]; exact (IH _ _ R l Hl Sl)|].
    destruct (starts_with (txt "NCOMP") x); [|exact (IH _ _ R l Hl Sl)]. destruct (header_value x); [|discriminate]. destruct (n =? ncomp); [|discriminate]. exact (IH _ _ R l Hl Sl).
Qed.
Example C41_components_example : read_matrix 0 1 (elem1 parse_usize) (txt "NROWS=1" ++ t_nl :: txt "NCOLS=1" ++ t_nl :: txt "NCOMP=3" ++ t_nl :: t_nl :: txt "7" ++ [t_nl]) = Err.
Proof. vm_compute. reflexivity. Qed.

(** Files with fewer rows are accepted: the missing rows are silently zero. *)
Theorem C41_missing_rows_refuted : exists file m, read_matrix 0 1 (elem1 parse_usize) file = Ok m /\
  nrows m = 2 /\ length (body_of (lines file)) = 1 /\ data m = [7; 8; 0; 0].
Proof.
  exists (txt "NROWS=2" ++ t_nl :: txt "NCOLS=2" ++ t_nl :: t_nl :: txt "7 8" ++ [t_nl]), (mkMat 2 2 [7; 8; 0; 0]).
  repeat split; vm_compute; reflexivity.
Qed.

(** Example: a 2x3 matrix of natural numbers *)
Lemma nat_exact vs : (forall v, In v vs -> (N.of_nat v < 2 ^ 64)%N) -> exact_numbers show_nat parse_usize vs.
Proof.
  intros H v Hv. split; [|apply parse_show; auto]. split; [apply show_nat_nonempty|].
  eapply Forall_impl; [|apply show_nat_digits]. apply digit_not_ws.
Qed.
Example C41_example : exists file, save_matrix 1 show_nat (mkMat 2 3 [1; 20; 3; 4; 5; 600]) = Ok file /\
  read_matrix 0 1 (elem1 parse_usize) file = Ok (mkMat 2 3 [1; 20; 3; 4; 5; 600]).
Proof.
  apply C41_matrix; try reflexivity. apply nat_exact. intros v Hv.
  cbn [In data] in Hv. repeat (destruct Hv as [<-|Hv]; [reflexivity|]). destruct Hv.
Qed.

(** ** Colour matrices *)

(** Rounding to the nearest multiple of 10^-5 (whatever happens to ties), and reading of decimals: an optional sign, digits, a point
    and digits, of which the last is worth 10 to the minus their number. *)
Definition rounds (rnd : Q -> Z) : Prop := forall q, (Qabs (inject_Z (rnd q) - q * (100000 # 1)) <= 1 # 2)%Q.
Definition digit_value (c : ascii) : nat := nat_of_ascii c - 48.
Definition number_of (digits : text) : nat := fold_left (fun v c => 10 * v + digit_value c) digits 0.
Definition reads_decimals (parse : text -> option Q) : Prop :=
  forall (neg : bool) a b, a <> [] -> b <> [] -> Forall (fun c => is_digit c = true) (a ++ b) ->
  parse ((if neg then txt "-" else []) ++ a ++ txt "." ++ b) =
    Some ((if neg then - Z.of_nat (number_of (a ++ b)) else Z.of_nat (number_of (a ++ b)))%Z # (10 ^ Pos.of_nat (length b))%positive).

Lemma number_acc u : forall p, fold_left (fun v c => 10 * v + digit_value c) (list_ascii_of_string (NilEmpty.string_of_uint u)) (Pos.to_nat p) = Pos.to_nat (Pos.of_uint_acc u p).
Proof.
  induction u; intros p; cbn [NilEmpty.string_of_uint list_ascii_of_string fold_left Pos.of_uint_acc]; [reflexivity| ..]; rewrite <- IHu; f_equal;
    rewrite ?Pos2Nat.inj_add, Pos2Nat.inj_mul; unfold digit_value; cbn -[Nat.mul]; lia.
Qed.
Lemma number_uint u : fold_left (fun v c => 10 * v + digit_value c) (list_ascii_of_string (NilEmpty.string_of_uint u)) 0 = N.to_nat (Pos.of_uint u).
Proof.
  induction u; cbn [NilEmpty.string_of_uint list_ascii_of_string fold_left Pos.of_uint]; [reflexivity|exact IHu| ..];
    match goal with |- fold_left _ _ ?x = N.to_nat (N.pos (Pos.of_uint_acc _ ?p)) => change x with (Pos.to_nat p) end; rewrite number_acc; reflexivity.
Qed.
Lemma number_show n : number_of (show_nat n) = n.
Proof. destruct (show_nat_eq n) as (u & -> & _ & V). unfold number_of. rewrite number_uint. change (Pos.of_uint u) with (N.of_uint u). rewrite V. apply Nat2N.id. Qed.
Lemma digit_of d : d < 10 -> digit_value (ascii_of_nat (48 + d)) = d.
Proof. intros H. do 10 (destruct d; [reflexivity|try lia]). Qed.
Lemma number_pad5 v n : n < 10 ^ 5 -> fold_left (fun v c => 10 * v + digit_value c) (pad5 n) v = 10 ^ 5 * v + n.
Proof.
  intros H. unfold pad5. cbn [fold_left]. rewrite !digit_of by (apply Nat.mod_upper_bound; lia).
  pose proof (Nat.div_mod n 10 ltac:(lia)). pose proof (Nat.div_mod (n / 10) 10 ltac:(lia)). pose proof (Nat.div_mod (n / 10 / 10) 10 ltac:(lia)).
  pose proof (Nat.div_mod (n / 10 / 10 / 10) 10 ltac:(lia)).
  change (10 ^ 4) with (10 * (10 * (10 * 10))). change (10 ^ 3) with (10 * (10 * 10)). change (10 ^ 2) with (10 * 10). change (10 ^ 1) with 10. change (10 ^ 0) with 1.
  rewrite <- !Nat.div_div, Nat.div_1_r by lia.
  assert (n / 10 / 10 / 10 / 10 < 10). { repeat (apply Nat.div_lt_upper_bound; [lia|]). change (10 ^ 5) with (10 * (10 * (10 * (10 * 10)))) in H. lia. }
  rewrite (Nat.mod_small (n / 10 / 10 / 10 / 10)) by assumption. change (10 ^ 5) with (10 * (10 * (10 * (10 * 10)))).
  set (a := n / 10) in *. set (b := a / 10) in *. set (c := b / 10) in *. set (d := c / 10) in *. clearbody a b c d.
  set (x0 := n mod 10) in *. set (x1 := a mod 10) in *. set (x2 := b mod 10) in *. set (x3 := c mod 10) in *. lia.
Qed.
Lemma pad5_digits n : Forall (fun c => is_digit c = true) (pad5 n).
Proof.
  assert (D : forall x, is_digit (ascii_of_nat (48 + x mod 10)) = true).
  { intros x. assert (H : x mod 10 < 10) by (apply Nat.mod_upper_bound; lia).
    generalize dependent (x mod 10). intros d H. do 10 (destruct d; [reflexivity|try lia]). }
  unfold pad5. repeat constructor; apply D.
Qed.
Lemma decimal_word neg n : is_word (show_decimal neg n).
Proof.
  unfold show_decimal. split.
  - intros H. apply app_eq_nil in H. destruct H as [_ H]. apply app_eq_nil in H. destruct H as [_ H]. discriminate.
  - apply Forall_app. split; [destruct neg; repeat constructor|]. apply Forall_app. split.
    + eapply Forall_impl; [|apply show_nat_digits]. apply digit_not_ws.
    + apply Forall_app. split; [repeat constructor|]. eapply Forall_impl; [|apply pad5_digits]. apply digit_not_ws.
Qed.
Lemma reads_shown parse neg n : reads_decimals parse -> parse (show_decimal neg n) = Some ((if neg : bool then - Z.of_nat n else Z.of_nat n)%Z # 100000).
Proof.
  intros Hp. unfold show_decimal. rewrite Hp.
  - replace (number_of (show_nat (n / 10 ^ 5) ++ pad5 (n mod 10 ^ 5))) with n; [reflexivity|]. unfold number_of. rewrite fold_left_app. fold (number_of (show_nat (n / 10 ^ 5))).
    rewrite number_show, number_pad5 by (apply Nat.mod_upper_bound, Nat.pow_nonzero; lia). apply Nat.div_mod. apply Nat.pow_nonzero; lia.
  - apply show_nat_nonempty.
  - discriminate.
  - apply Forall_app. split; [apply show_nat_digits|apply pad5_digits].
Qed.
Lemma show5_value rnd parse q : rounds rnd -> reads_decimals parse -> parse (show5 rnd q) = Some (rnd q # 100000).
Proof.
  intros Hr Hp. unfold show5. rewrite (reads_shown _ _ _ Hp). f_equal. f_equal. specialize (Hr q). rewrite Z2Nat.id by lia.
  apply Qabs_Qle_condition in Hr. destruct Hr as [A B].
  destruct (Qle_bool 0 q) eqn:S; cbn [negb].
  - apply Qle_bool_iff in S. assert ((-1 # 1) < inject_Z (rnd q))%Q by lra. change (-1 # 1)%Q with (inject_Z (-1)) in H. rewrite <- Zlt_Qlt in H. lia.
  - assert (~ (0 <= q)%Q) by (intros C; apply Qle_bool_iff in C; congruence). apply Qnot_le_lt in H.
    assert (inject_Z (rnd q) < 1 # 1)%Q by lra. change (1 # 1)%Q with (inject_Z 1) in H0. rewrite <- Zlt_Qlt in H0. lia.
Qed.

(** Loading a saved colour matrix gives the same size and every channel within 0.000005 of the original:
    what comes back is the original rounded to five decimals. *)
Theorem C41_colours : forall rnd parse m, rounds rnd -> reads_decimals parse -> wf m ->
  (N.of_nat (nrows m) < 2 ^ 64)%N -> (N.of_nat (ncols m) < 2 ^ 64)%N ->
  exists file m', save_matrix 3 (show_colour rnd) m = Ok file /\ read_matrix (0, 0, 0)%Q 3 (elem3 parse) file = Ok m' /\
    nrows m' = nrows m /\ ncols m' = ncols m /\
    Forall2 (fun c c' => let '(r, g, b) := c in let '(r', g', b') := c' in
      (Qabs (r' - r) <= 5 # 1000000 /\ Qabs (g' - g) <= 5 # 1000000 /\ Qabs (b' - b) <= 5 # 1000000)%Q) (data m) (data m').
Proof.
  intros rnd parse m Hr Hp W H1 H2.
  set (rd c := let '(r, g, b) := c in (rnd r # 100000, rnd g # 100000, rnd b # 100000)).
  destruct (round_trip (0, 0, 0)%Q 3 (show_colour rnd) (elem3 parse) rd m W H1 H2) as (file & S & R); [reflexivity| |].
  - apply Forall_forall. intros [[r g] b] _. unfold readable, show_colour.
    assert (D : forall q, is_word (show5 rnd q)) by (intros; apply decimal_word).
    assert (NL : forall q, Forall (fun c => Ascii.eqb c t_nl = false) (show5 rnd q)).
    { intros q. destruct (D q) as [_ F]. eapply Forall_impl; [|exact F]. apply not_ws_not_nl. }
    assert (Ws : words (show5 rnd r ++ t_space :: show5 rnd g ++ t_space :: show5 rnd b) = [show5 rnd r; show5 rnd g; show5 rnd b]).
    { rewrite !words_app by reflexivity. now rewrite !words_word by apply D. }
    split; [|rewrite Ws; split; [reflexivity|]].
    + apply Forall_app. split; [apply NL|]. constructor; [reflexivity|]. apply Forall_app. split; [apply NL|]. constructor; [reflexivity|apply NL].
    + intros rest. cbn [List.app elem3]. now rewrite !show5_value by assumption.
  - eexists. eexists. split; [exact S|]. split; [exact R|]. cbn [nrows ncols data]. split; [reflexivity|]. split; [reflexivity|].
    assert (Err5 : forall q, (Qabs ((rnd q # 100000) - q) <= 5 # 1000000)%Q).
    { intros q. specialize (Hr q). apply Qabs_Qle_condition in Hr. apply Qabs_Qle_condition.
      assert (E : (inject_Z (rnd q) == (rnd q # 100000) * (100000 # 1))%Q) by (unfold Qeq; cbn; lia).
      rewrite E in Hr. lra. }
    generalize (data m) as l. induction l as [|[[r g] b] l IH]; cbn [map]; constructor; [|exact IH]. cbn [rd]. repeat split; apply Err5.
Qed.

(** The original is lost: two different colour matrices give the same file. *)
Theorem C41_colours_refuted : forall rnd, rounds rnd -> exists m m' file, wf m /\ wf m' /\
  data m = [(1 # 1000000, 0, 0)%Q] /\ data m' = [(0, 0, 0)%Q] /\
  save_matrix 3 (show_colour rnd) m = Ok file /\ save_matrix 3 (show_colour rnd) m' = Ok file.
Proof.
  intros rnd Hr.
  assert (Z0 : forall q, (0 <= q)%Q -> (q <= 1 # 1000000)%Q -> rnd q = 0%Z).
  { intros q Q0 Q1. specialize (Hr q). apply Qabs_Qle_condition in Hr. destruct Hr as [A B].
    assert (C : (inject_Z (-1) < inject_Z (rnd q))%Q) by (change (inject_Z (-1)) with (-1 # 1)%Q; lra).
    assert (D : (inject_Z (rnd q) < inject_Z 1)%Q) by (change (inject_Z 1) with (1 # 1)%Q; lra).
    rewrite <- Zlt_Qlt in C, D. lia. }
  assert (E : show_colour rnd (1 # 1000000, 0, 0)%Q = show_colour rnd (0, 0, 0)%Q).
  { unfold show_colour, show5. rewrite !Z0 by lra. reflexivity. }
  exists (mkMat 1 1 [(1 # 1000000, 0, 0)%Q]), (mkMat 1 1 [(0, 0, 0)%Q]).
  eexists. split; [reflexivity|]. split; [reflexivity|]. split; [reflexivity|]. split; [reflexivity|]. split; [reflexivity|].
  unfold save_matrix. cbn [save_rows save_cells nrows ncols]. unfold get, read, index.
  cbn [nrows ncols data Nat.ltb Nat.leb andb Nat.mul Nat.add nth_error bind]. rewrite E. reflexivity.
Qed.

(** A reader of decimals and a rounding, so that the hypotheses above can be met *)
Definition sign_of (l : text) : bool * text :=
  match l with c :: r => if Ascii.eqb c "-" then (true, r) else (false, l) | [] => (false, l) end.
Definition parse_decimal (l : text) : option Q :=
  let '(neg, r) := sign_of l in
  match split_on (fun c => Ascii.eqb c ".") r with
  | [a; b] => if forallb is_digit (a ++ b) && (0 <? length a) && (0 <? length b) then
                let v := Z.of_nat (number_of (a ++ b)) in Some ((if neg : bool then - v else v)%Z # (10 ^ Pos.of_nat (length b)))
              else None
  | _ => None
  end.
Lemma parse_decimal_reads : reads_decimals parse_decimal.
Proof.
  intros neg a b Na Nb D. unfold parse_decimal. pose proof D as D'. apply Forall_app in D'. destruct D' as [Da Db].
  assert (X : sign_of ((if neg then txt "-" else []) ++ a ++ txt "." ++ b) = (neg, a ++ txt "." ++ b)).
  { destruct neg; [reflexivity|]. cbn [List.app]. unfold sign_of. destruct a as [|c r]; [congruence|]. cbn [List.app].
    inversion Da as [|? ? Dc _]; subst. replace (Ascii.eqb c "-") with false; [reflexivity|].
    destruct c as [[] [] [] [] [] [] [] []]; revert Dc; vm_compute; congruence. }
  rewrite X. change (txt "." ++ b) with ("."%char :: b).
  assert (ND : forall l, Forall (fun c => is_digit c = true) l -> Forall (fun c => Ascii.eqb c "." = false) l).
  { intros l. apply Forall_impl. intros c. destruct c as [[] [] [] [] [] [] [] []]; vm_compute; congruence. }
  rewrite split_on_app by (auto; reflexivity). rewrite split_on_none by auto.
  rewrite (proj2 (forallb_forall is_digit (a ++ b))) by (rewrite Forall_forall in D; exact D).
  destruct a as [|? a]; [congruence|]. destruct b as [|? b]; [congruence|]. reflexivity.
Qed.
Definition half_up (q : Q) : Z := Qround.Qfloor (q * (100000 # 1) + (1 # 2)).
Lemma half_up_rounds : rounds half_up.
Proof.
  intros q. unfold half_up. set (x := (q * (100000 # 1) + (1 # 2))%Q).
  pose proof (Qround.Qfloor_le x) as A. pose proof (Qround.Qlt_floor x) as B. rewrite inject_Z_plus in B. change (inject_Z 1) with (1 # 1)%Q in B.
  apply Qabs_Qle_condition. unfold x in *. split; lra.
Qed.
Example C41_colours_example : exists file m', save_matrix 3 (show_colour half_up) (mkMat 1 2 [(1 # 3, 12 # 1, -5 # 2); (0, 1, 2)])%Q = Ok file /\
  read_matrix (0, 0, 0)%Q 3 (elem3 parse_decimal) file = Ok m' /\
  data m' = [(33333 # 100000, 1200000 # 100000, -250000 # 100000); (0 # 100000, 100000 # 100000, 200000 # 100000)]%Q.
Proof. eexists. eexists. split; [reflexivity|]. split; vm_compute; reflexivity. Qed.

(** Proofs about the CSV and the loop of a run. *)
From Coq Require Import String Ascii List Arith Lia Bool.
From Verif Require Import Common.Base State.RunModel.
Import ListNotations.
Open Scope string_scope.

Definition comma : ascii := ","%char.

(** The fields of a line of a CSV file: what is between commas. *)
Fixpoint fields (s : string) : list string :=
  match s with
  | EmptyString => [""]
  | String c s' =>
      if Ascii.eqb c comma then "" :: fields s'
      else match fields s' with
           | f :: fs => String c f :: fs
           | [] => [String c ""]
           end
  end.

Fixpoint no_comma (s : string) : Prop :=
  match s with
  | EmptyString => True
  | String c s' => c <> comma /\ no_comma s'
  end.

Lemma fields_nonempty s : exists f fs, fields s = f :: fs.
Proof.
  destruct s as [|c s]; cbn; [eauto|]. destruct (Ascii.eqb c comma); [eauto|].
  destruct (fields s); eauto.
Qed.

Lemma fields_single s : no_comma s -> fields s = [s].
Proof.
  induction s as [|c s IH]; cbn; [reflexivity|]. intros (H & H2).
  apply Ascii.eqb_neq in H. rewrite H, IH by auto. reflexivity.
Qed.

Lemma fields_app a b : no_comma a ->
  fields (a ++ b) = match fields b with f :: fs => (a ++ f) :: fs | [] => [] end.
Proof.
  induction a as [|c a IH]; cbn; intros H.
  - destruct (fields_nonempty b) as (f & fs & ->). reflexivity.
  - destruct H as (H & H2). apply Ascii.eqb_neq in H. rewrite H, IH by auto.
    destruct (fields_nonempty b) as (f & fs & ->). reflexivity.
Qed.

Lemma fields_comma a b : no_comma a -> fields (a ++ "," ++ b) = a :: fields b.
Proof.
  intros H. rewrite fields_app by exact H. cbn. f_equal.
  induction a as [|c a IH]; cbn in *; [reflexivity|]. rewrite IH; tauto.
Qed.

Lemma append_assoc (a b c : string) : (a ++ b) ++ c = a ++ (b ++ c).
Proof. induction a as [|x a IH]; cbn; [reflexivity|]. rewrite IH. reflexivity. Qed.

Lemma append_nil_r (a : string) : a ++ "" = a.
Proof. induction a as [|x a IH]; cbn; [reflexivity|]. rewrite IH. reflexivity. Qed.

(** Number of fields of a line, whatever the mismatch between the number of cells and the
    expected one. *)
Lemma line_from_count rlen : forall cells i, Forall no_comma cells ->
  length (fields (line_from i rlen cells)) = S (Nat.min (length cells) (rlen - 1 - i)).
Proof.
  induction cells as [|c cs IH]; intros i H; [reflexivity|].
  inversion H as [|? ? H1 H2]; subst. cbn [line_from length].
  destruct (Nat.ltb_spec i (rlen - 1)) as [L|L].
  - rewrite append_assoc, fields_comma by auto. cbn [length]. rewrite IH by auto.
    replace (rlen - 1 - i) with (S (rlen - 1 - S i)) by lia. rewrite <- Nat.succ_min_distr. reflexivity.
  - rewrite fields_app by auto. specialize (IH (S i) H2).
    destruct (fields_nonempty (line_from (S i) rlen cs)) as (f & fs & E). rewrite E in *. cbn [length] in *.
    replace (rlen - 1 - S i) with 0 in IH by lia. replace (rlen - 1 - i) with 0 by lia.
    rewrite Nat.min_0_r in *. exact IH.
Qed.

(** When the number of cells is the expected one, the fields are the cells. *)
Lemma line_from_cells rlen : forall cells i, Forall no_comma cells -> cells <> [] ->
  i + length cells = rlen -> fields (line_from i rlen cells) = cells.
Proof.
  induction cells as [|c cs IH]; intros i H Hne L; [congruence|].
  inversion H as [|? ? H1 H2]; subst. cbn [line_from]. cbn [length].
  destruct cs as [|c2 cs].
  - cbn [length] in *. destruct (Nat.ltb_spec i (i + 1 - 1)) as [C|C]; [lia|]. cbn [line_from].
    rewrite append_nil_r. apply fields_single, H1.
  - cbn [length] in *. destruct (Nat.ltb_spec i (i + S (S (length cs)) - 1)) as [C|C]; [|lia].
    rewrite append_assoc, fields_comma by auto. f_equal. apply IH; auto; [discriminate|cbn; lia].
Qed.

(** position *)
Lemma position_sound names item i : position names item = Some i -> nth_error names i = Some item.
Proof.
  revert i. induction names as [|n names IH]; cbn; intros i; [discriminate|].
  destruct (String.eqb n item) eqn:E.
  - intros H. injection H as <-. apply String.eqb_eq in E. cbn. congruence.
  - destruct (position names item); [|discriminate]. cbn. intros H. injection H as <-. cbn. auto.
Qed.

Lemma position_complete names item : In item names -> exists i, position names item = Some i.
Proof.
  induction names as [|n names IH]; cbn; [tauto|]. intros [->|H].
  - rewrite String.eqb_refl. eauto.
  - destruct (String.eqb n item); [eauto|]. destruct (IH H) as (i & ->). cbn. eauto.
Qed.

Lemma position_none names item : ~ In item names -> position names item = None.
Proof.
  destruct (position names item) eqn:E; [|auto]. intros H. exfalso. apply H.
  eapply nth_error_In, position_sound, E.
Qed.

Lemma report_indexes_bound fh outs i : In i (report_indexes fh outs) -> i < length fh.
Proof.
  unfold report_indexes. destruct (filter_map (position fh) outs) as [|x l] eqn:E.
  - rewrite in_seq. lia.
  - rewrite <- E. clear E. induction outs as [|o outs IH]; cbn; [tauto|].
    destruct (position fh o) eqn:P; [|exact IH]. cbn. intros [<-|H]; [|auto].
    apply position_sound in P. apply nth_error_Some. congruence.
Qed.

Lemma filter_map_all fh outs : Forall (fun o => In o fh) outs ->
  exists l, filter_map (position fh) outs = l /\ length l = length outs /\
    forall k i, nth_error l k = Some i -> nth_error fh i = nth_error outs k.
Proof.
  induction outs as [|o outs IH]; cbn; intros H.
  - exists []. repeat split. intros [|k]; discriminate.
  - inversion H as [|? ? H1 H2]; subst. destruct (position_complete _ _ H1) as (i & P). rewrite P.
    destruct (IH H2) as (l & E & L & N). exists (i :: l). rewrite E. cbn. repeat split; [auto|].
    intros [|k] j; cbn; [|auto]. intros Hj. injection Hj as <-. apply position_sound, P.
Qed.

Section Run.
Context {F Dt Mem : Type}.
Context (show_value : F -> string) (show_date : Dt -> string).

Lemma read_cells_ok idx : forall (state : list F), (forall i, In i idx -> i < length state) ->
  exists cs, read_cells show_value idx state = Ok cs /\ length cs = length idx /\
    forall k i, nth_error idx k = Some i -> nth_error cs k = option_map show_value (nth_error state i).
Proof.
  induction idx as [|i idx IH]; cbn; intros state H.
  - exists []. repeat split. intros [|k]; discriminate.
  - destruct (nth_error state i) eqn:E.
    + destruct (IH state) as (cs & R & L & N); [auto|]. rewrite R. cbn. eexists; split; [reflexivity|].
      cbn. split; [auto|]. intros [|k] j; cbn; [|auto]. intros Hj. injection Hj as <-. rewrite E. reflexivity.
    + apply nth_error_None in E. specialize (H i (or_introl eq_refl)). lia.
Qed.

Lemma header_cells_ok idx : forall fh, (forall i, In i idx -> i < length fh) ->
  exists cs, header_cells idx fh = Ok cs /\ length cs = length idx /\
    forall k i, nth_error idx k = Some i -> nth_error cs k = nth_error fh i.
Proof.
  induction idx as [|i idx IH]; cbn; intros state H.
  - exists []. repeat split. intros [|k]; discriminate.
  - destruct (nth_error state i) eqn:E.
    + destruct (IH state) as (cs & R & L & N); [auto|]. rewrite R. cbn. eexists; split; [reflexivity|].
      cbn. split; [auto|]. intros [|k] j; cbn; [|auto]. intros Hj. injection Hj as <-. rewrite E. reflexivity.
    + apply nth_error_None in E. specialize (H i (or_introl eq_refl)). lia.
Qed.

Lemma cells_no_comma idx (state : list F) cs : (forall v, no_comma (show_value v)) ->
  read_cells show_value idx state = Ok cs -> Forall no_comma cs.
Proof.
  intros H. revert cs. induction idx as [|i idx IH]; cbn; intros cs E.
  - injection E as <-. constructor.
  - destruct (nth_error state i); [|discriminate]. destruct (read_cells show_value idx state); try discriminate.
    injection E as <-. constructor; auto.
Qed.

Lemma header_cells_in idx fh cs : header_cells idx fh = Ok cs -> Forall (fun c => In c fh) cs.
Proof.
  revert cs. induction idx as [|i idx IH]; cbn; intros cs E.
  - injection E as <-. constructor.
  - destruct (nth_error fh i) eqn:N; [|discriminate]. destruct (header_cells idx fh); try discriminate.
    injection E as <-. constructor; [|auto]. eapply nth_error_In; eauto.
Qed.

(** ** The loop *)
Context (control : list F -> res (list F)) (march : Dt -> list F -> Mem -> res (list F * Mem)).
Context (fh outs : list string).

(** One complete step. *)
Definition stepped (d : Dt) (s : list F) (m : Mem) (r : string) (s' : list F) (m' : Mem) : Prop :=
  exists s1, control s = Ok s1 /\ march d s1 m = Ok (s', m') /\ row show_value show_date fh outs d s' = Ok r.

Inductive steps : list Dt -> list F -> Mem -> list string -> list F -> Mem -> Prop :=
| steps_nil s m : steps [] s m [] s m
| steps_cons d ds s m r s1 m1 rows s2 m2 :
    stepped d s m r s1 m1 -> steps ds s1 m1 rows s2 m2 -> steps (d :: ds) s m (r :: rows) s2 m2.

Notation loop := (run_loop show_value show_date control march fh outs).

Lemma loop_steps ds : forall s m rows s' m',
  loop ds s m = (rows, Ok (s', m')) <-> steps ds s m rows s' m'.
Proof.
  induction ds as [|d ds IH]; intros s m rows s' m'; cbn.
  - split.
    + intros H. injection H as <- <- <-. constructor.
    + intros H. inversion H; subst. reflexivity.
  - split.
    + destruct (control s) as [s1| |] eqn:C; cbn; try discriminate.
      destruct (march d s1 m) as [[s2 m2]| |] eqn:M; try discriminate.
      destruct (row show_value show_date fh outs d s2) as [r| |] eqn:R; try discriminate.
      destruct (loop ds s2 m2) as [rows' fin] eqn:L. intros H. injection H as <- ->.
      econstructor; [exists s1; eauto|]. apply IH. exact L.
    + intros H. inversion H as [|? ? ? ? ? s2 m2 rows' ? ? St Sts]; subst.
      destruct St as (s1 & C & M & R). rewrite C. cbn. rewrite M, R.
      apply IH in Sts. rewrite Sts. reflexivity.
Qed.

Lemma loop_app ds1 ds2 : forall s m,
  loop (ds1 ++ ds2)%list s m =
    match loop ds1 s m with
    | (rows, Ok (s1, m1)) => let (rows2, fin) := loop ds2 s1 m1 in ((rows ++ rows2)%list, fin)
    | (rows, Err) => (rows, Err)
    | (rows, Panic) => (rows, Panic)
    end.
Proof.
  induction ds1 as [|d ds1 IH]; intros s m; cbn.
  - destruct (loop ds2 s m). reflexivity.
  - destruct (control s) as [s1| |]; cbn; auto.
    destruct (march d s1 m) as [[s2 m2]| |]; auto.
    destruct (row show_value show_date fh outs d s2) as [r| |]; auto.
    rewrite IH. destruct (loop ds1 s2 m2) as [rows [[s3 m3]| |]]; auto.
    destruct (loop ds2 s3 m3). reflexivity.
Qed.

Lemma concat_strings_app a b : concat_strings (a ++ b)%list = concat_strings a ++ concat_strings b.
Proof. induction a as [|x a IH]; cbn; [reflexivity|]. rewrite IH, append_assoc. reflexivity. Qed.

End Run.

(** ** The strings that identify a quantity *)
Fixpoint plain (s : string) : Prop :=
  match s with
  | EmptyString => True
  | String c s' => c <> ascii_of_nat 34 /\ c <> ascii_of_nat 92 /\ plain s'
  end.

Lemma escape_plain s : plain s -> json_escape s = s.
Proof.
  induction s as [|c s IH]; cbn [plain json_escape]; [reflexivity|]. intros (A & B & C).
  apply Ascii.eqb_neq in A, B. rewrite A, B. cbn [orb]. rewrite IH by auto. reflexivity.
Qed.

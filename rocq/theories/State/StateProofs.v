(** Invariants of the simulation state header. *)
From Coq Require Import List Arith Lia Bool.
From Verif Require Import Common.Base State.StateModel.
Import ListNotations.

(** Elements come in three consecutive groups. *)
Definition kind (e : element) : nat :=
  if is_personal e then 0 else if is_operational e then 1 else 2.

Lemma one_kind : forall e,
  (is_personal e = true /\ is_operational e = false /\ is_physical e = false) \/
  (is_personal e = false /\ is_operational e = true /\ is_physical e = false) \/
  (is_personal e = false /\ is_operational e = false /\ is_physical e = true).
Proof. destruct e; cbn; auto. Qed.

Section Inv.
Context {F : Type}.
Implicit Types h : header F.

Record inv h : Prop := {
  inv_split : exists ps os fs, elements h = ps ++ os ++ fs /\
      length ps = n_individual h /\ length os = n_operational h /\
      Forall (fun e => is_personal e = true) ps /\
      Forall (fun e => is_operational e = true) os /\
      Forall (fun e => is_physical e = true) fs /\
      (passed_operational h = false -> fs = []) /\
      (passed_personal h = false -> os = [] /\ fs = []) ;
  inv_values : forall vs, default_values h = Some vs -> length vs = length (elements h)
}.

Lemma inv_new : inv header_new.
Proof.
  split.
  - exists [], [], []. cbn. repeat split; auto.
  - cbn. intros vs E. injection E as <-. reflexivity.
Qed.

Lemma store_elements h e v : elements (fst (store h e v)) = elements h ++ [e].
Proof. unfold store. destruct (default_values h); reflexivity. Qed.

Lemma store_fields h e v :
  n_operational (fst (store h e v)) = n_operational h /\
  n_individual (fst (store h e v)) = n_individual h /\
  passed_operational (fst (store h e v)) = passed_operational h /\
  passed_personal (fst (store h e v)) = passed_personal h /\
  default_values (fst (store h e v)) = option_map (fun l => l ++ [v]) (default_values h).
Proof. unfold store. destruct (default_values h); cbn; auto. Qed.

Lemma inv_push h e v : inv h -> inv (fst (push h e v)).
Proof.
  intros [S V]. destruct S as (ps & os & fs & E & Lp & Lo & Fp & Fo & Ff & Po & Pp).
  unfold push. destruct (one_kind e) as [(K1 & K2 & K3)|[(K1 & K2 & K3)|(K1 & K2 & K3)]]; rewrite K1, ?K2.
  - destruct (passed_personal h) eqn:Q; cbn [fst].
    + split; [exists ps, os, fs; rewrite ?Q; repeat split; auto; discriminate | exact V].
    + set (h1 := mkHeader _ _ _ _ _ _).
      pose proof (store_fields h1 e v) as (A1 & A2 & A3 & A4 & A5).
      destruct (Pp eq_refl) as (-> & ->).
      split; rewrite ?store_elements.
      * exists (ps ++ [e]), [], []. rewrite A1, A2, A3, A4. cbn in E |- *. rewrite E, !app_nil_r, app_length, Lp.
        cbn. repeat split; auto; try lia. apply Forall_app; auto.
      * rewrite A5. cbn. intros vs Ev. destruct (default_values h) eqn:D; [|discriminate].
        injection Ev as <-. rewrite !app_length. rewrite (V _ eq_refl). reflexivity.
  - destruct (passed_operational h) eqn:Q; cbn [fst].
    + split; [exists ps, os, fs; rewrite ?Q; repeat split; auto; try discriminate; apply Pp; auto | exact V].
    + set (h1 := mkHeader _ _ _ _ _ _).
      pose proof (store_fields h1 e v) as (A1 & A2 & A3 & A4 & A5).
      rewrite (Po eq_refl) in *.
      split; rewrite ?store_elements.
      * exists ps, (os ++ [e]), []. rewrite A1, A2, A3, A4. cbn in E |- *. rewrite E, !app_nil_r, app_length, Lo.
        cbn. rewrite <- app_assoc. repeat split; auto; try lia; try discriminate. apply Forall_app; auto.
      * rewrite A5. cbn. intros vs Ev. destruct (default_values h) eqn:D; [|discriminate].
        injection Ev as <-. rewrite !app_length. rewrite (V _ eq_refl). reflexivity.
  - set (h1 := mkHeader _ _ _ _ _ _).
    pose proof (store_fields h1 e v) as (A1 & A2 & A3 & A4 & A5).
    split; rewrite ?store_elements.
    + exists ps, os, (fs ++ [e]). rewrite A1, A2, A3, A4. cbn in E |- *. rewrite E, <- !app_assoc.
      repeat split; auto; try discriminate. apply Forall_app; auto.
    + rewrite A5. cbn. intros vs Ev. destruct (default_values h) eqn:D; [|discriminate].
      injection Ev as <-. rewrite !app_length. rewrite (V _ eq_refl). reflexivity.
Qed.

Lemma inv_take h : inv h -> inv (fst (take_values h)).
Proof. intros [S V]. split; cbn; [exact S|discriminate]. Qed.

Lemma inv_handle h ev : inv h -> inv (handle h ev).
Proof. destruct ev; [apply inv_push|apply inv_take]. Qed.

Lemma inv_fold evs : forall h, inv h -> inv (fold_left handle evs h).
Proof. induction evs as [|ev evs IH]; cbn; intros h I; [exact I|]. apply IH, inv_handle, I. Qed.

Lemma inv_run evs : inv (run_events evs).
Proof. apply inv_fold, inv_new. Qed.

(** What a slot of the state is for, from its position only. *)
Lemma kind_at h i e : inv h -> nth_error (elements h) i = Some e ->
  (is_personal e = true <-> i < n_individual h) /\
  (is_operational e = true <-> n_individual h <= i < n_individual h + n_operational h) /\
  (is_physical e = true <-> n_individual h + n_operational h <= i < length (elements h)).
Proof.
  intros [S _] N. destruct S as (ps & os & fs & E & Lp & Lo & Fp & Fo & Ff & _ & _).
  assert (Li : i < length (elements h)) by (apply nth_error_Some; congruence).
  rewrite E in N, Li. rewrite E. rewrite !app_length in *.
  rewrite Forall_forall in Fp, Fo, Ff.
  assert (C : (i < length ps /\ is_personal e = true) \/
              (length ps <= i < length ps + length os /\ is_operational e = true) \/
              (length ps + length os <= i /\ is_physical e = true)).
  { destruct (Nat.lt_ge_cases i (length ps)) as [H|H].
    - left. split; [exact H|]. rewrite nth_error_app1 in N by lia. apply Fp. eapply nth_error_In; eauto.
    - right. rewrite nth_error_app2 in N by lia.
      destruct (Nat.lt_ge_cases (i - length ps) (length os)) as [H2|H2].
      + left. split; [lia|]. rewrite nth_error_app1 in N by lia. apply Fo. eapply nth_error_In; eauto.
      + right. split; [lia|]. rewrite nth_error_app2 in N by lia. apply Ff. eapply nth_error_In; eauto. }
  pose proof (one_kind e) as K.
  destruct C as [(C1 & C2)|[(C1 & C2)|(C1 & C2)]]; destruct K as [(K1 & K2 & K3)|[(K1 & K2 & K3)|(K1 & K2 & K3)]];
    rewrite ?K1, ?K2, ?K3 in *; try discriminate; repeat split; intros; try discriminate; try lia; auto.
Qed.

Lemma split_le h : inv h -> n_individual h + n_operational h <= length (elements h).
Proof.
  intros [S _]. destruct S as (ps & os & fs & E & Lp & Lo & _). rewrite E, !app_length. lia.
Qed.

(** Copying a slice. *)
Lemma copy_slice_spec ini fin (o d : list F) : ini <= fin -> fin <= length o -> length o = length d ->
  exists d', copy_slice ini fin o d = Ok d' /\ length d' = length d /\
    forall i, nth_error d' i = if (ini <=? i) && (i <? fin) then nth_error o i else nth_error d i.
Proof.
  intros H1 H2 H3. unfold copy_slice.
  replace ((ini <=? fin) && (fin <=? length o) && (fin <=? length d)) with true
    by (symmetry; rewrite !andb_true_iff, !Nat.leb_le; lia).
  eexists. split; [reflexivity|].
  assert (L1 : length (firstn ini d) = ini) by (rewrite firstn_length; lia).
  assert (L2 : length (firstn (fin - ini) (skipn ini o)) = fin - ini) by (rewrite firstn_length, skipn_length; lia).
  split.
  - rewrite !app_length, L1, L2, skipn_length. lia.
  - intros i. destruct (Nat.leb_spec ini i) as [A|A]; cbn [andb].
    + rewrite nth_error_app2 by lia. rewrite L1.
      destruct (Nat.ltb_spec i fin) as [B|B].
      * rewrite nth_error_app1 by lia.
        assert (G : nth_error (firstn (fin - ini) (skipn ini o) ++ skipn (fin - ini) (skipn ini o)) (i - ini) = nth_error o i).
        { rewrite firstn_skipn. rewrite <- (firstn_skipn ini o) at 2.
          rewrite nth_error_app2; rewrite firstn_length; [f_equal; lia|lia]. }
        rewrite nth_error_app1 in G by lia. exact G.
      * rewrite nth_error_app2 by lia. rewrite L2.
        rewrite <- (firstn_skipn fin d) at 2. rewrite nth_error_app2; rewrite firstn_length; [f_equal; lia|lia].
    + rewrite nth_error_app1 by lia.
      rewrite <- (firstn_skipn ini d) at 2. rewrite nth_error_app1 by (rewrite firstn_length; lia). reflexivity.
Qed.

(** Registered elements and values never move. *)
Lemma push_elements h e v : exists l, elements (fst (push h e v)) = elements h ++ l.
Proof.
  unfold push. destruct (is_personal e); [destruct (passed_personal h)|destruct (is_operational e); [destruct (passed_operational h)|]];
    cbn [fst]; rewrite ?store_elements; try (exists [e]; reflexivity); exists []; symmetry; apply app_nil_r.
Qed.

Lemma push_values h e v vs : default_values h = Some vs ->
  exists l, default_values (fst (push h e v)) = Some (vs ++ l).
Proof.
  intros D. unfold push.
  destruct (is_personal e); [destruct (passed_personal h)|destruct (is_operational e); [destruct (passed_operational h)|]];
    cbn [fst]; try (exists []; rewrite app_nil_r; exact D);
    match goal with |- context [store ?h1 e v] => pose proof (store_fields h1 e v) as (_ & _ & _ & _ & A) end;
    rewrite A; cbn; rewrite D; cbn; eexists; reflexivity.
Qed.

(** A registration either is accepted, and then it is appended, or changes nothing. *)
Lemma push_cases h e v vs : default_values h = Some vs ->
  (snd (push h e v) = Err /\ fst (push h e v) = h) \/
  (snd (push h e v) = Ok (length (elements h)) /\ elements (fst (push h e v)) = elements h ++ [e] /\
   default_values (fst (push h e v)) = Some (vs ++ [v])).
Proof.
  intros D. unfold push.
  destruct (is_personal e); [destruct (passed_personal h)|destruct (is_operational e); [destruct (passed_operational h)|]];
    cbn [fst snd]; try (left; split; reflexivity); right; unfold store; cbn; rewrite D; cbn; auto.
Qed.

End Inv.

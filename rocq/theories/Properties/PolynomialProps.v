(** C06: polynomials evaluate to the sum of coefficient times power. *)
From Coq Require Import List Arith Lia Reals Lra.
From Verif.Common Require Import Base.
From Verif.Polynomial Require Import PolynomialModel.
Import ListNotations.
Local Open Scope R_scope.

(** Specification: [c0 + c1 x + c2 x^2 + …], written from the tail (Horner's form). *)
Fixpoint horner (cs : list R) (x : R) : R :=
  match cs with [] => 0 | c :: cs' => c + x * horner cs' x end.

Definition repr (p : polynomial) (cs : list R) : Prop :=
  length (coefficients p) = CAP /\ len p = length cs /\ (len p <= CAP)%nat /\
  forall i, (i < length cs)%nat -> nth i (coefficients p) 0 = nth i cs 0.

Lemma horner_snoc cs v x : horner (cs ++ [v]) x = horner cs x + v * x ^ length cs.
Proof. induction cs as [|c cs IH]; cbn; [ring|]. rewrite IH. ring. Qed.

Lemma eval_repr p cs x : repr p cs -> eval p x = horner cs x.
Proof.
  intros (_ & L & _ & V). unfold eval. rewrite L. clear L. revert V. induction cs as [|v cs IH] using rev_ind; intros V; [reflexivity|].
  rewrite app_length in *. cbn [length] in *. rewrite Nat.add_1_r, seq_S, fold_left_app. cbn [fold_left Nat.add].
  rewrite IH, horner_snoc.
  - rewrite V by lia. rewrite app_nth2, Nat.sub_diag by lia. reflexivity.
  - intros i Hi. rewrite V by lia. apply app_nth1. assumption.
Qed.

Lemma new_repr : repr new_poly [].
Proof. repeat split; cbn; try lia. Qed.

Lemma push_repr p cs v : repr p cs ->
  ((length cs < CAP)%nat -> exists p', push p v = Ok p' /\ repr p' (cs ++ [v])) /\
  ((CAP <= length cs)%nat -> push p v = Panic).
Proof.
  intros (L & Ln & Le & V). unfold push. rewrite L. split; intros H.
  - rewrite (proj2 (Nat.leb_gt CAP (len p))) by lia. eexists; split; [reflexivity|].
    unfold repr; cbn [coefficients len]. rewrite upd_length, app_length. cbn [length].
    repeat split; try lia. intros i Hi. destruct (Nat.eq_dec i (len p)) as [->|].
    + rewrite nth_upd_same by lia. rewrite app_nth2, Ln, Nat.sub_diag by lia. reflexivity.
    + rewrite nth_upd_other by lia. rewrite app_nth1 by lia. apply V. lia.
  - rewrite (proj2 (Nat.leb_le CAP (len p))) by lia. reflexivity.
Qed.

(** Pushing up to 12 coefficients always succeeds and the result evaluates, at every
    point, to the polynomial with exactly those coefficients. *)
Theorem C06_push_eval : forall cs, (length cs <= 12)%nat ->
  exists p, push_all new_poly cs = Ok p /\ len p = length cs /\ forall x, eval p x = horner cs x.
Proof.
  assert (G : forall cs p done_, repr p done_ -> (length done_ + length cs <= 12)%nat ->
          exists p', push_all p cs = Ok p' /\ repr p' (done_ ++ cs)).
  { induction cs as [|c cs IH]; intros p d R H; cbn [push_all].
    - exists p. rewrite app_nil_r. auto.
    - cbn [length] in H. destruct (proj1 (push_repr p d c R)) as (p1 & E & R1); [unfold CAP; lia|].
      rewrite E. cbn [bind]. destruct (IH p1 (d ++ [c]) R1) as (p2 & E2 & R2); [rewrite app_length; cbn; lia|].
      exists p2. rewrite <- app_assoc in R2. auto. }
  intros cs H. destruct (G cs new_poly [] new_repr H) as (p & E & R). exists p. split; [exact E|].
  split; [apply R|]. intros x. apply eval_repr. exact R.
Qed.

(** One more push adds exactly [v * x^len] and leaves everything before unchanged. *)
Theorem C06_push_adds_term : forall cs p v p', (length cs <= 12)%nat -> push_all new_poly cs = Ok p ->
  push p v = Ok p' -> forall x, eval p' x = eval p x + v * x ^ length cs.
Proof.
  intros cs p v p' H E P x.
  assert (Hlt : (length cs < 12)%nat).
  { destruct (le_lt_dec 12 (length cs)); [|assumption]. exfalso.
    assert (R : exists q, push_all new_poly cs = Ok q /\ len q = length cs /\ length (coefficients q) = CAP).
    { clear P E p p' x v. assert (G : forall cs p q, push_all p cs = Ok q -> length (coefficients p) = CAP -> length (coefficients q) = CAP).
      { induction cs0 as [|c cs0 IH]; intros p q E L; cbn [push_all] in E; [congruence|].
        unfold push in E. destruct (_ <=? _)%nat; cbn [bind] in E; [discriminate|]. apply (IH _ _ E). cbn. rewrite upd_length. assumption. }
      destruct (C06_push_eval cs H) as (q & E & L & _). exists q. repeat split; try assumption. apply (G _ _ _ E). reflexivity. }
    destruct R as (q & E' & L & LC). rewrite E' in E. injection E as ->. unfold push in P.
    rewrite LC, L, (proj2 (Nat.leb_le CAP (length cs))) in P by (unfold CAP; lia). discriminate. }
  destruct (C06_push_eval (cs ++ [v])) as (q & E' & _ & V); [rewrite app_length; cbn; lia|].
  assert (A : forall cs p vs, push_all p (cs ++ vs) = bind (push_all p cs) (fun q => push_all q vs)).
  { induction cs0 as [|c cs0 IH]; intros; cbn; [reflexivity|]. destruct (push p0 c); cbn; auto. }
  rewrite A, E in E'. cbn [bind push_all] in E'. rewrite P in E'. cbn [bind] in E'. injection E' as ->.
  rewrite V, horner_snoc. destruct (C06_push_eval cs H) as (q2 & E2 & _ & V2). rewrite E in E2. injection E2 as ->. rewrite V2. reflexivity.
Qed.

(** The macro builds the same polynomial as pushing, and both refuse a 13th coefficient. *)
Theorem C06_macro : forall cs,
  ((length cs <= 12)%nat -> exists p, poly cs = Ok p /\ len p = length cs /\ forall x, eval p x = horner cs x) /\
  ((12 < length cs)%nat -> poly cs = Panic /\ push_all new_poly cs = Panic).
Proof.
  intros cs. split; intros H.
  - unfold poly. rewrite (proj2 (Nat.ltb_ge CAP (length cs))) by (unfold CAP; lia). eexists; split; [reflexivity|].
    split; [reflexivity|]. intros x. apply eval_repr. unfold repr; cbn [coefficients len].
    assert (G : forall k, (k <= 12)%nat -> let l := fold_left (fun c i => upd c i (nth i cs 0)) (seq 0 k) (repeat 0 CAP) in
            length l = CAP /\ forall i, (i < k)%nat -> nth i l 0 = nth i cs 0).
    { induction k as [|k IH]; intros Hk; cbn zeta; [split; [reflexivity|intros; lia]|].
      rewrite seq_S, fold_left_app. cbn [fold_left Nat.add]. destruct (IH ltac:(lia)) as [L V].
      split; [rewrite upd_length; assumption|]. intros i Hi. destruct (Nat.eq_dec i k) as [->|].
      - apply nth_upd_same. rewrite L. unfold CAP. lia.
      - rewrite nth_upd_other by lia. apply V. lia. }
    destruct (G (length cs) H) as [L V]. repeat split; try assumption; unfold CAP; lia.
  - split.
    + unfold poly. rewrite (proj2 (Nat.ltb_lt CAP (length cs))) by (unfold CAP; lia). reflexivity.
    + rewrite <- (firstn_skipn 12 cs).
      assert (A : forall cs p vs, push_all p (cs ++ vs) = bind (push_all p cs) (fun q => push_all q vs)).
      { induction cs0 as [|c cs0 IH]; intros; cbn [push_all app bind]; [reflexivity|]. destruct (push p c); cbn [bind]; auto. }
      rewrite A.
      assert (G : forall cs p done_, repr p done_ -> (length done_ + length cs <= 12)%nat ->
          exists p', push_all p cs = Ok p' /\ repr p' (done_ ++ cs)).
      { clear. induction cs as [|c cs IH]; intros p d R H; cbn [push_all].
        - exists p. rewrite app_nil_r. auto.
        - cbn [length] in H. destruct (proj1 (push_repr p d c R)) as (p1 & E & R1); [unfold CAP; lia|].
          rewrite E. cbn [bind]. destruct (IH p1 (d ++ [c]) R1) as (p2 & E2 & R2); [rewrite app_length; cbn; lia|].
          exists p2. rewrite <- app_assoc in R2. auto. }
      assert (L12 : length (firstn 12 cs) = 12%nat) by (rewrite firstn_length, Nat.min_l by lia; reflexivity).
      destruct (G (firstn 12 cs) new_poly [] new_repr) as (p & E & R); [rewrite L12; cbn [length]; lia|].
      rewrite E. cbn [bind].
      assert (S : length (skipn 12 cs) = (length cs - 12)%nat) by apply skipn_length.
      destruct (skipn 12 cs) as [|v vs]; cbn [length] in S; [lia|]. cbn [push_all].
      rewrite (proj2 (push_repr p _ v R)); [reflexivity|]. cbn [app]. unfold CAP. lia.
Qed.

Example C06_nontrivial : exists p, push_all new_poly [1; 0; 3] = Ok p /\ eval p 2 = 13.
Proof.
  destruct (C06_push_eval [1; 0; 3]) as (p & E & _ & V); [cbn; lia|]. exists p. split; [exact E|]. rewrite V. cbn. lra.
Qed.
Example C06_too_many : poly (repeat 1 13) = Panic.
Proof. apply (C06_macro (repeat 1 13)). cbn. lia. Qed.

Print Assumptions C06_push_eval.
Print Assumptions C06_push_adds_term.
Print Assumptions C06_macro.

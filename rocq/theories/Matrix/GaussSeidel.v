(** Model of [Matrix::gauss_seidel] (/repo/matrix/src/matrix.rs:140-204) over the reals,
    and its proofs.  Simplification: exact real arithmetic. *)
From Coq Require Import List Arith Lia Bool Reals Lra.
From Verif.Common Require Import Base.
From Verif.Matrix Require Import MatrixModel MatrixSpec MatrixProofs.
Import ListNotations.
Local Open Scope R_scope.

Definition Rnum : Num R := mkNum R 0 1 Rplus Rmult Rminus Ropp Rdiv Rinv.

Definition Rltb (a b : R) : bool := if Rlt_dec a b then true else false.
Lemma Rltb_true a b : Rltb a b = true <-> a < b.
Proof. unfold Rltb. destruct (Rlt_dec a b); split; try tauto; try discriminate. Qed.
Lemma Rltb_false a b : Rltb a b = false <-> b <= a.
Proof. unfold Rltb. destruct (Rlt_dec a b); split; try discriminate; lra. Qed.

(** [-Float::MAX] with [Float = f64]: -(2 - 2^-52) * 2^1023 *)
Definition NEG_MAX : R := - ((2 - / 2 ^ 52) * 2 ^ 1023).

Section GS.
Variables (n : nat) (a b : list R).
Definition at_ (l : list R) (i : nat) : R := nth i l 0.

(** matrix.rs:166-170 and 171-178: accumulations over [lo..lo+k] *)
Definition acc_prod (row : nat) (v : list R) (lo k : nat) : R :=
  fold_left (fun s j => s + at_ a (n * row + j) * at_ v j) (seq lo k) 0.
(** matrix.rs:165-181 *)
Definition gs_cell (x new : list R) (i : nat) : R :=
  (at_ b i - acc_prod i new 0 i - acc_prod i x (i + 1) (n - (i + 1))) / at_ a (n * i + i).
Definition gs_sweep (x : list R) : list R :=
  fold_left (fun new i => upd new i (gs_cell x new i)) (seq 0 n) (repeat 0 n).
(** matrix.rs:184-190 *)
Definition max_err (x new : list R) : R :=
  fold_left (fun m i => let e := Rabs (at_ x i - at_ new i) in if Rltb m e then e else m) (seq 0 n) NEG_MAX.
(** matrix.rs:162-203: whether [Ok] is returned, and the final content of [x] *)
Fixpoint gs_loop (it : nat) (conv : R) (x : list R) : bool * list R :=
  match it with
  | O => (false, x)
  | S k => let new := gs_sweep x in
           if Rltb (max_err x new) conv then (true, x) else gs_loop k conv new
  end.
End GS.

(** matrix.rs:140-204.  [copy_from_slice] panics when [x] has more than one column (and is not empty). *)
Definition gauss_seidel (a b x : mat R) (max_iter : nat) (conv : R) : res (bool * mat R) :=
  if negb (ncols a =? nrows a)%nat then Err
  else if negb (ncols a =? nrows b)%nat then Err
  else if negb (ncols a =? nrows x)%nat then Err
  else if (0 <? max_iter)%nat && negb (length (data x) =? ncols a)%nat then Panic
  else let '(ok, v) := gs_loop (ncols a) (data a) (data b) max_iter conv (data x) in
       Ok (ok, mkMat (nrows x) (ncols x) v).

(** ** Proofs *)
Section Proofs.
Variables (n : nat) (a b : list R).
Hypothesis diag_nz : forall i, (i < n)%nat -> at_ a (n * i + i) <> 0.
Local Notation sum := (sum Rnum).

Lemma acc_sum (row : nat) v lo k : acc_prod n a row v lo k = sum k (fun t => at_ a (n * row + (lo + t)) * at_ v (lo + t)).
Proof.
  unfold acc_prod. induction k; [reflexivity|]. rewrite seq_S, fold_left_app, IHk. reflexivity.
Qed.

Lemma sum_split (f : nat -> R) p q : sum (p + q) f = sum p f + sum q (fun t => f (p + t)%nat).
Proof.
  induction q; cbn [MatrixSpec.sum].
  - rewrite Nat.add_0_r. cbn. lra.
  - rewrite Nat.add_succ_r. cbn [MatrixSpec.sum]. rewrite IHq. cbn. lra.
Qed.

Lemma row_split i (f : nat -> R) : (i < n)%nat -> sum n f = sum i f + f i + sum (n - (i + 1)) (fun t => f (i + 1 + t)%nat).
Proof.
  intros Hi. replace n with ((i + 1) + (n - (i + 1)))%nat at 1 by lia. rewrite sum_split.
  replace (i + 1)%nat with (S i) at 1 by lia. cbn [MatrixSpec.sum]. reflexivity.
Qed.

Lemma sweep_loop x k : (k <= n)%nat -> let l := fold_left (fun new i => upd new i (gs_cell n a b x new i)) (seq 0 k) (repeat 0 n) in
  length l = n /\ forall i, (i < k)%nat -> at_ l i = gs_cell n a b x l i.
Proof.
  induction k as [|k IH]; intros Hk; cbn zeta.
  - cbn. split; [apply repeat_length|]. intros; lia.
  - rewrite seq_S, fold_left_app. cbn [Nat.add fold_left].
    destruct (IH ltac:(lia)) as [L V]. clear IH.
    set (l := fold_left _ (seq 0 k) _) in *.
    split; [rewrite upd_length; assumption|].
    assert (Same : forall i, (i <= k)%nat -> gs_cell n a b x (upd l k (gs_cell n a b x l k)) i = gs_cell n a b x l i).
    { intros i Hi. unfold gs_cell at 1 3. f_equal. f_equal. f_equal. rewrite !acc_sum.
      apply (sum_ext Rnum). intros t Ht. cbn [Nat.add]. f_equal. unfold at_. apply nth_upd_other. lia. }
    intros i Hi. rewrite Same by lia. destruct (Nat.eq_dec i k) as [->|].
    + unfold at_ at 1. apply nth_upd_same. lia.
    + rewrite <- (V i) by lia. unfold at_. apply nth_upd_other. lia.
Qed.

Lemma sweep_spec x : length (gs_sweep n a b x) = n /\ forall i, (i < n)%nat -> at_ (gs_sweep n a b x) i = gs_cell n a b x (gs_sweep n a b x) i.
Proof. apply (sweep_loop x n). lia. Qed.

(** what one sweep computes: row [i] with the new values before [i], old ones after *)
Lemma sweep_row x i : (i < n)%nat -> let y := gs_sweep n a b x in
  at_ b i = sum i (fun j => at_ a (n * i + j) * at_ y j) + at_ a (n * i + i) * at_ y i
            + sum (n - (i + 1)) (fun t => at_ a (n * i + (i + 1 + t)) * at_ x (i + 1 + t)).
Proof.
  intros Hi y. pose proof (proj2 (sweep_spec x) i Hi) as E. fold y in E.
  rewrite E. unfold gs_cell. rewrite !acc_sum. cbn [Nat.add].
  field. apply diag_nz. assumption.
Qed.

Lemma max_err_ge x y k m : m <= fold_left (fun m i => let e := Rabs (at_ x i - at_ y i) in if Rltb m e then e else m) (seq 0 k) m.
Proof.
  induction k; [cbn; lra|]. rewrite seq_S, fold_left_app. cbn [Nat.add fold_left].
  set (z := fold_left _ _ _) in *. cbn zeta. destruct (Rltb z _) eqn:E; [apply Rltb_true in E; lra|assumption].
Qed.
Lemma max_err_bound x y k m i : (i < k)%nat ->
  Rabs (at_ x i - at_ y i) <= fold_left (fun m i => let e := Rabs (at_ x i - at_ y i) in if Rltb m e then e else m) (seq 0 k) m.
Proof.
  induction k as [|k IH]; intros Hi; [lia|]. rewrite seq_S, fold_left_app. cbn [Nat.add fold_left].
  set (z := fold_left _ _ _) in *. cbn zeta.
  destruct (Nat.eq_dec i k) as [->|].
  - destruct (Rltb z _) eqn:E; [apply Rltb_true in E; lra|apply Rltb_false in E; lra].
  - specialize (IH ltac:(lia)). destruct (Rltb z _) eqn:E; [apply Rltb_true in E; lra|lra].
Qed.
Lemma max_err_lt x y k m c : m < c -> (forall i, (i < k)%nat -> Rabs (at_ x i - at_ y i) < c) ->
  fold_left (fun m i => let e := Rabs (at_ x i - at_ y i) in if Rltb m e then e else m) (seq 0 k) m < c.
Proof.
  induction k as [|k IH]; intros Hm H; [cbn; lra|]. rewrite seq_S, fold_left_app. cbn [Nat.add fold_left].
  specialize (IH Hm ltac:(intros; apply H; lia)). set (z := fold_left _ _ _) in *. cbn zeta.
  destruct (Rltb z _); [apply H; lia|assumption].
Qed.

Lemma sum_minus k f g : sum k (fun t => f t - g t) = sum k f - sum k g.
Proof. induction k; cbn; [lra|]. rewrite IHk. cbn. lra. Qed.
Lemma sum_abs k f : Rabs (sum k f) <= sum k (fun t => Rabs (f t)).
Proof. induction k; cbn; [rewrite Rabs_R0; lra|]. eapply Rle_trans; [apply Rabs_triang|]. apply Rplus_le_compat_r. exact IHk. Qed.
Lemma sum_le k f g : (forall t, (t < k)%nat -> f t <= g t) -> sum k f <= sum k g.
Proof. induction k; intros H; cbn; [lra|]. apply Rplus_le_compat; [apply IHk; intros; apply H; lia|apply H; lia]. Qed.
Lemma sum_scal k c f : sum k (fun t => c * f t) = c * sum k f.
Proof. induction k; cbn; [lra|]. rewrite IHk. cbn. lra. Qed.

(** residual left when two successive iterates are within [c] *)
Lemma residual x c i : (i < n)%nat -> (forall j, (j < n)%nat -> Rabs (at_ x j - at_ (gs_sweep n a b x) j) <= c) ->
  Rabs (sum n (fun j => at_ a (n * i + j) * at_ x j) - at_ b i) <= c * sum (S i) (fun j => Rabs (at_ a (n * i + j))).
Proof.
  intros Hi Hc. rewrite (sweep_row x i Hi), (row_split i) by assumption. set (y := gs_sweep n a b x) in *.
  match goal with |- Rabs ?e <= _ => replace e with (sum (S i) (fun j => at_ a (n * i + j) * (at_ x j - at_ y j))) end.
  - eapply Rle_trans; [apply sum_abs|]. rewrite <- sum_scal. apply sum_le. intros t Ht. rewrite Rabs_mult, Rmult_comm.
    apply Rmult_le_compat_r; [apply Rabs_pos|]. apply Hc. lia.
  - cbn [MatrixSpec.sum]. cbn [nadd Rnum].
    rewrite (sum_ext Rnum (fun j => at_ a (n * i + j) * (at_ x j - at_ y j)) (fun j => at_ a (n * i + j) * at_ x j - at_ a (n * i + j) * at_ y j)) by (intros; ring).
    rewrite sum_minus. ring.
Qed.

Lemma gs_loop_ok it conv x x' : gs_loop n a b it conv x = (true, x') -> max_err n x' (gs_sweep n a b x') < conv.
Proof.
  revert x. induction it as [|it IH]; intros x E; cbn [gs_loop] in E; [discriminate|].
  cbn zeta in E. destruct (Rltb _ conv) eqn:B; [injection E as <-; apply Rltb_true; assumption|]. apply IH with (1 := E).
Qed.
Lemma gs_loop_length it conv x : length x = n -> length (snd (gs_loop n a b it conv x)) = n.
Proof.
  revert x. induction it as [|it IH]; intros x E; cbn [gs_loop]; [assumption|].
  cbn zeta. destruct (Rltb _ conv); [assumption|]. apply IH. apply sweep_spec.
Qed.

(** an exact solution is a fixed point of the sweep *)
Lemma solution_fixed x : (forall i, (i < n)%nat -> sum n (fun j => at_ a (n * i + j) * at_ x j) = at_ b i) ->
  forall i, (i < n)%nat -> at_ (gs_sweep n a b x) i = at_ x i.
Proof.
  intros S. induction i as [i IH] using lt_wf_ind. intros Hi.
  pose proof (sweep_row x i Hi) as E. cbn zeta in E. rewrite <- S, (row_split i) in E by assumption.
  rewrite (sum_ext Rnum (fun j => at_ a (n * i + j) * at_ (gs_sweep n a b x) j) (fun j => at_ a (n * i + j) * at_ x j)) in E.
  - apply (Rmult_eq_reg_l (at_ a (n * i + i))); [lra|]. apply diag_nz; assumption.
  - intros j Hj. rewrite IH by lia. reflexivity.
Qed.
Lemma NEG_MAX_neg : NEG_MAX < 0.
Proof.
  unfold NEG_MAX. assert (0 < 2 ^ 1023) by (apply pow_lt; lra). assert (1 <= 2 ^ 52) by (apply pow_R1_Rle; lra).
  assert (/ 2 ^ 52 <= 1) by (rewrite <- Rinv_1; apply Rinv_le_contravar; lra).
  assert (0 < (2 - / 2 ^ 52) * 2 ^ 1023) by (apply Rmult_lt_0_compat; lra). lra.
Qed.
End Proofs.

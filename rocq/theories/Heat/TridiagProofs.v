(** Banded elimination on the tri-diagonal matrix of a chain of conductances: with every conductance between [1e-12] and [1e12]
    no pivot is refused, no entry is mistaken for zero, and the answer is the unique solution. *)
From Coq Require Import List Arith Reals Lia Lra Bool.
From Verif.Common Require Import Base Flt.
From Verif.Matrix Require Import MatrixModel MatrixSpec MatrixProofs NDiagProofs GaussProofs GaussSeidel.
From Verif.Heat Require Import GasModel DiscretizationModel DiscretizationProofs ConvectionModel WallModel WallProofs MarchModel.
Import ListNotations.
Open Scope R_scope.
Local Notation elt := (elt Rnum).

Section Chain.
Variables (n : nat) (g : nat -> R).
Definition in_range (x : R) : Prop := 1 / 10 ^ 12 <= x <= 10 ^ 12.
Hypothesis Hg : forall i, (i <= n)%nat -> in_range (g i).
Hypothesis Hn : (0 < n)%nat.

(** conductance from the far end of the first link to node [c] *)
Fixpoint upto (c : nat) : R := match c with O => g 0%nat | S p => g c * upto p / (g c + upto p) end.
Definition ratio (c : nat) : R := g (c + 1)%nat / (g (c + 1)%nat + upto c).

Lemma range_pos x : in_range x -> 0 < x.
Proof. intros [H _]. apply Rlt_le_trans with (1 / 10 ^ 12); [|assumption]. lra. Qed.
Lemma upto_pos c : (c <= n)%nat -> 0 < upto c <= g c.
Proof.
  induction c as [|c IH]; intros H; cbn [upto].
  - pose proof (range_pos _ (Hg 0%nat H)). lra.
  - destruct (IH ltac:(lia)) as [U _]. pose proof (range_pos _ (Hg (S c) H)) as G. set (x := g (S c)) in *. set (u := upto c) in *.
    assert (0 < x * u) by (apply Rmult_lt_0_compat; assumption). split.
    + apply Rdiv_lt_0_compat; lra.
    + apply Rmult_le_reg_r with (x + u); [lra|]. replace (x * u / (x + u) * (x + u)) with (x * u) by (field; lra).
      assert (0 < x * x) by (apply Rmult_lt_0_compat; assumption). lra.
Qed.

Lemma not_below x : 1 / 10 ^ 12 <= Rabs x -> below_tiny x = false.
Proof. intros H. apply Rltb_false. lra. Qed.
Lemma is_above x : 5 / 10 ^ 25 <= Rabs x -> above_tiny x = true.
Proof. intros H. apply Rltb_true. lra. Qed.
Lemma ratio_above c : (c < n)%nat -> above_tiny (- ratio c) = true.
Proof.
  intros H. destruct (Hg (c + 1)%nat ltac:(lia)) as [A B]. destruct (Hg c ltac:(lia)) as [_ D]. destruct (upto_pos c ltac:(lia)) as [U V].
  apply is_above. rewrite Rabs_Ropp. unfold ratio. set (x := g (c + 1)%nat) in *. set (u := upto c) in *.
  assert (X : 0 < x) by (apply Rlt_le_trans with (1 / 10 ^ 12); [lra|assumption]).
  rewrite Rabs_right by (apply Rle_ge, Rlt_le, Rdiv_lt_0_compat; lra).
  apply Rmult_le_reg_r with (x + u); [lra|]. unfold Rdiv at 2. rewrite Rmult_assoc, Rinv_l by lra. lra.
Qed.

(** rows before [c] are finished, row [c] has been reduced, the others are untouched *)
Definition K (i j : nat) : R :=
  if (i =? j)%nat then - (g i + g (i + 1)%nat) else if (j =? i + 1)%nat then g j else if (i =? j + 1)%nat then g i else 0.
Definition done (i j : nat) : R := if (j =? i)%nat then 1 else if (j =? i + 1)%nat then - ratio i else 0.
Definition reduced (i j : nat) : R := if (j =? i)%nat then - (g (i + 1)%nat + upto i) else if (j =? i + 1)%nat then g j else 0.
Definition at_row (c i j : nat) : R := if (i <? c)%nat then done i j else if (i =? c)%nat then reduced i j else K i j.

Ltac cases := repeat match goal with
  | |- context [(?a =? ?b)%nat] => destruct (Nat.eqb_spec a b); try lia
  | |- context [(?a <? ?b)%nat] => destruct (Nat.ltb_spec a b); try lia
  end.

Lemma K_at_0 i j : K i j = at_row 0 i j.
Proof. unfold at_row, K, reduced. cases; subst; cbn [upto]; try reflexivity; try lra. Qed.

Lemma go_down_tri : forall k a b c, dims n 1 a b -> (forall i j, (i < n)%nat -> (j < n)%nat -> elt a i j = at_row c i j) -> (c + k = n)%nat ->
  exists a' b', go_down Rnum below_tiny above_tiny 1 a b c k = Ok (a', b') /\ dims n 1 a' b' /\
    (forall i j, (i < n)%nat -> (j < n)%nat -> elt a' i j = done i j) /\ same_sol Rnum a b a' b'.
Proof.
  induction k as [|k IH]; intros a b c D A Hk; cbn [go_down].
  - exists a, b. split; [reflexivity|]. split; [assumption|]. split; [|apply same_sol_refl].
    intros i j Hi Hj. rewrite A by assumption. unfold at_row. cases. reflexivity.
  - pose proof D as (Ra & Ca & Wa & Rb & Cb & Wb).
    unfold index. rewrite (read_ok Rnum) by (try assumption; lia). cbn [bind].
    assert (Pc : elt a c c = - (g (c + 1)%nat + upto c)).
    { rewrite A by lia. unfold at_row, reduced. cases. reflexivity. }
    rewrite Pc. destruct (upto_pos c ltac:(lia)) as [U _]. destruct (Hg (c + 1)%nat ltac:(lia)) as [G1 G2].
    assert (GP : 0 < g (c + 1)%nat) by (apply range_pos; split; assumption).
    rewrite not_below by (rewrite Rabs_Ropp, Rabs_right by lra; lra).
    assert (RowZ : forall j, (j < n)%nat -> (j < c \/ c + 1 < j)%nat -> elt a c j = n0 Rnum).
    { intros j Hj H. rewrite A by lia. unfold at_row, reduced. cases; reflexivity. }
    destruct (scale_row_ok Rnum Rnum_ring n 1 1 a b c (ndiv Rnum (n1 Rnum) (- (g (c + 1)%nat + upto c))) (- (g (c + 1)%nat + upto c)) D ltac:(lia))
      as (a1 & b1 & E1 & D1 & V1 & S1); [cbn; field; lra|exact RowZ|].
    rewrite E1. cbn [bind fst snd].
    assert (A1 : forall i j, (i < n)%nat -> (j < n)%nat -> elt a1 i j = if (i <? c + 1)%nat then done i j else K i j).
    { intros i j Hi Hj. rewrite V1 by assumption. rewrite A by assumption. unfold at_row, reduced, done, ratio. cbn [nmul ndiv n1 Rnum].
      cases; subst; try reflexivity; unfold K; cases; try lia; field; lra. }
    rewrite Ca. destruct (Nat.eqb_spec c (n - 1)) as [Hlast|Hlast].
    + exists a1, b1. split; [reflexivity|]. split; [assumption|]. split; [|assumption].
      intros i j Hi Hj. rewrite A1 by assumption. cases. reflexivity.
    + cbn [elim_down]. pose proof D1 as (Ra1 & Ca1 & Wa1 & _). rewrite (get_ok Rnum) by (try assumption; lia).
      assert (O1 : elt a1 (c + 1) c = g (c + 1)%nat). { rewrite A1 by lia. unfold K. cases. reflexivity. }
      rewrite O1, is_above by (rewrite Rabs_right by lra; lra).
      destruct (add_rows_ok Rnum Rnum_ring n 1 1 a1 b1 c (c + 1) (nopp Rnum (g (c + 1)%nat)) D1) as (a2 & b2 & E2 & D2 & V2 & S2); try lia.
      { intros j Hj H. rewrite A1 by lia. unfold done. cases; reflexivity. }
      rewrite E2. cbn [bind fst snd].
      destruct (IH a2 b2 (S c) D2) as (a3 & b3 & E3 & D3 & V3 & S3); [|lia|].
      { intros i j Hi Hj. rewrite V2 by assumption. rewrite !A1 by lia. unfold at_row, reduced, done, K. cbn [nadd nmul nopp Rnum].
        replace (S c) with (c + 1)%nat by lia.
        assert (UE : upto (c + 1) = g (c + 1)%nat * upto c / (g (c + 1)%nat + upto c)) by (replace (c + 1)%nat with (S c) by lia; reflexivity).
        cases; subst; try reflexivity; try (rewrite UE; unfold ratio); try (field; lra); try ring. }
      exists a3, b3. split; [assumption|]. split; [assumption|]. split; [assumption|].
      apply (same_sol_trans Rnum _ _ a1 b1); [assumption|]. apply (same_sol_trans Rnum _ _ a2 b2); assumption.
Qed.

Definition up_to_col (d i j : nat) : R := if (j =? i)%nat then 1 else if (j =? i + 1)%nat && (j <=? d)%nat then - ratio i else 0.
Lemma go_up_tri : forall d a b, dims n 1 a b -> (d < n)%nat -> (forall i j, (i < n)%nat -> (j < n)%nat -> elt a i j = up_to_col d i j) ->
  exists a' b', go_up Rnum above_tiny 1 a b d = Ok (a', b') /\ dims n 1 a' b' /\
    (forall i j, (i < n)%nat -> (j < n)%nat -> elt a' i j = delta Rnum i j) /\ same_sol Rnum a b a' b'.
Proof.
  induction d as [|d IH]; intros a b D Hd A; cbn [go_up].
  - exists a, b. split; [reflexivity|]. split; [assumption|]. split; [|apply same_sol_refl].
    intros i j Hi Hj. rewrite A by assumption. unfold up_to_col, delta. cases; cbn [andb]; try reflexivity.
    destruct (Nat.leb_spec j 0); [lia|reflexivity].
  - pose proof D as (Ra & Ca & Wa & Rb & Cb & Wb).
    unfold index. rewrite (read_ok Rnum) by (try assumption; lia). cbn [bind].
    replace (S d <? 1)%nat with false by (symmetry; apply Nat.ltb_ge; lia).
    replace (S d - (S d - 1))%nat with 1%nat by lia. cbn [elim_up].
    rewrite (get_ok Rnum) by (try assumption; lia).
    replace (S d - 1 + 0)%nat with d by lia.
    assert (O1 : elt a d (S d) = - ratio d).
    { rewrite A by lia. unfold up_to_col. cases. cbn [andb]. destruct (Nat.leb_spec (S d) (S d)); [reflexivity|lia]. }
    rewrite O1, ratio_above by lia.
    destruct (add_rows_ok Rnum Rnum_ring n 1 1 a b (S d) d (nopp Rnum (- ratio d)) D) as (a2 & b2 & E2 & D2 & V2 & S2); try lia.
    { intros j Hj H. rewrite A by lia. unfold up_to_col. cases; cbn [andb]; reflexivity. }
    rewrite E2. cbn [bind fst snd].
    destruct (IH a2 b2 D2 ltac:(lia)) as (a3 & b3 & E3 & D3 & V3 & S3).
    { intros i j Hi Hj. rewrite V2 by assumption. rewrite !A by lia. unfold up_to_col. cbn [nadd nmul nopp Rnum].
      repeat match goal with |- context [(?x <=? ?y)%nat] => destruct (Nat.leb_spec x y); try lia end;
      cases; cbn [andb]; subst; try reflexivity; try ring; try lia. }
    exists a3, b3. split; [assumption|]. split; [assumption|]. split; [assumption|].
    apply (same_sol_trans Rnum _ _ a2 b2); assumption.
Qed.

Theorem chain_solved (k : mat R) (b : list R) : is_tri n k K -> length b = n ->
  exists x, nd_mut_gaussian Rnum 3 below_tiny above_tiny k b = Ok x /\ length x = n /\
    (forall i, (i < n)%nat -> mulv n K (fun j => nth j x 0) i = nth i b 0) /\
    (forall y, (forall i, (i < n)%nat -> mulv n K y i = nth i b 0) -> forall i, (i < n)%nat -> y i = nth i x 0).
Proof.
  intros (W & Rk & Ck & Vk) Lb. unfold nd_mut_gaussian, from_data.
  rewrite Nat.mul_1_r, Nat.eqb_refl. cbn [bind].
  destruct (to_dense_ok Rnum 3 1 eq_refl k n W Rk Ck) as (d & E & Rd & Cd & Wd & Vd). rewrite E. cbn [bind].
  set (bm := mkMat (length b) 1 b).
  assert (D : dims n 1 d bm) by (unfold dims, bm, wf; cbn; repeat split; try assumption; lia).
  unfold mut_n_diag_gaussian. change (one_sided 3) with 1%nat. rewrite Cd.
  destruct (go_down_tri n d bm 0 D) as (a1 & b1 & E1 & D1 & V1 & S1); [|lia|].
  { intros i j Hi Hj. rewrite Vd by assumption. rewrite Vk by assumption. apply K_at_0. }
  rewrite E1. cbn [bind fst snd].
  destruct (go_up_tri (n - 1) a1 b1 D1 ltac:(lia)) as (a2 & b2 & E2 & D2 & V2 & S2).
  { intros i j Hi Hj. rewrite V1 by assumption. unfold done, up_to_col. destruct (Nat.leb_spec j (n - 1)); [|lia].
    rewrite andb_true_r. reflexivity. }
  rewrite E2. cbn [bind fst snd].
  destruct D2 as (Ra2 & Ca2 & Wa2 & Rb2 & Cb2 & Wb2).
  assert (Lx : length (data b2) = n) by (rewrite Wb2, Rb2, Cb2; lia).
  rewrite Lb, Lx, Nat.eqb_refl. exists (data b2). split; [reflexivity|]. split; [exact Lx|].
  assert (S : forall x, solves Rnum d bm x <-> (forall i k, (i < n)%nat -> (k < 1)%nat -> x i k = elt b2 i k)).
  { intros x. rewrite (same_sol_trans Rnum _ _ _ _ _ _ S1 S2 x).
    assert (EI : forall i k, (i < n)%nat -> MatrixSpec.sum Rnum n (fun j => nmul Rnum (elt a2 i j) (x j k)) = x i k).
    { intros i p Hi. rewrite <- (sum_eye_l Rnum Rnum_ring n i p x Hi). apply sum_ext. intros j Hj. rewrite V2 by assumption. reflexivity. }
    unfold solves. rewrite Ra2, Ca2, Cb2. split; intros H i p Hi Hp.
    - rewrite <- EI by assumption. apply H; assumption.
    - rewrite EI by assumption. apply H; assumption. }
  assert (EB : forall i, elt b2 i 0 = nth i (data b2) 0) by (intros i; unfold MatrixSpec.elt; rewrite Cb2; f_equal; lia).
  assert (EM : forall i, elt bm i 0 = nth i b 0) by (intros i; unfold MatrixSpec.elt, bm; cbn [ncols data]; f_equal; lia).
  assert (M : forall y i, (i < n)%nat -> MatrixSpec.sum Rnum n (fun j => nmul Rnum (elt d i j) (y j)) = mulv n K y i).
  { intros y i Hi. rewrite sum_rsum. apply rsum_ext. intros j Hj. rewrite Vd, Vk by assumption. reflexivity. }
  split.
  - intros i Hi. rewrite <- EM. rewrite <- M by assumption.
    rewrite <- (proj2 (S (fun i _ => nth i (data b2) 0))) with (i := i) (k := 0%nat).
    + rewrite Cd. reflexivity.
    + intros i' k' Hi' Hk'. replace k' with 0%nat by lia. symmetry. apply EB.
    + lia.
    + cbn. lia.
  - intros y Hy i Hi. rewrite <- EB. apply (proj1 (S (fun i _ => y i))); [|assumption|lia].
    intros i' k' Hi' Hk'. cbn in Hk'. replace k' with 0%nat by lia. rewrite Rd in Hi'. rewrite EM, <- Hy by assumption. rewrite Cd. apply M. assumption.
Qed.
End Chain.

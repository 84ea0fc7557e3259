(** Banded product and banded Gaussian elimination *)
From Coq Require Import List Arith Lia Bool Ring Field.
From Verif.Common Require Import Base.
From Verif.Matrix Require Import MatrixModel MatrixSpec MatrixProofs.
Import ListNotations.

Section RingPart.
Context {T : Type} (N : Num T).
Hypothesis RT : ring_theory (n0 N) (n1 N) (nadd N) (nmul N) (nsub N) (nopp N) eq.
Add Ring NRing : RT.
Local Notation elt := (elt N).
Local Notation sum := (sum N).
Local Notation is_mat := (is_mat N).

Lemma sum_zero n f : (forall k, k < n -> f k = n0 N) -> sum n f = n0 N.
Proof. induction n; intros H; cbn; [reflexivity|]. rewrite IHn by (intros; apply H; lia). rewrite H by lia. ring. Qed.
Lemma sum_plus n f g : sum n (fun k => nadd N (f k) (g k)) = nadd N (sum n f) (sum n g).
Proof. induction n; cbn; [ring|]. rewrite IHn. ring. Qed.
Lemma sum_scale n v f : sum n (fun k => nmul N v (f k)) = nmul N v (sum n f).
Proof. induction n; cbn; [ring|]. rewrite IHn. ring. Qed.
Lemma sum_delta n i f : i < n -> (forall k, k < n -> k <> i -> f k = n0 N) -> sum n f = f i.
Proof.
  induction n; intros Hi H; [lia|]. cbn. destruct (Nat.eq_dec i n) as [->|Hn].
  - rewrite sum_zero by (intros; apply H; lia). ring.
  - rewrite IHn by (intros; try apply H; lia). rewrite (H n) by lia. ring.
Qed.

(** the identity is neutral for the product of the specification *)
Lemma sum_eye_l n i j (f : nat -> nat -> T) : i < n -> sum n (fun k => nmul N (delta N i k) (f k j)) = f i j.
Proof.
  intros Hi. rewrite (sum_delta n i) by (try assumption; intros k _ Hk; unfold delta; rewrite (proj2 (Nat.eqb_neq i k)) by congruence; ring).
  unfold delta. rewrite Nat.eqb_refl. ring.
Qed.
Lemma sum_eye_r n i j (f : nat -> nat -> T) : j < n -> sum n (fun k => nmul N (f i k) (delta N k j)) = f i j.
Proof.
  intros Hi. rewrite (sum_delta n j) by (try assumption; intros k _ Hk; unfold delta; rewrite (proj2 (Nat.eqb_neq k j)) by congruence; ring).
  unfold delta. rewrite Nat.eqb_refl. ring.
Qed.

(** ** banded product *)
Lemma fold_acc_zero (g : nat -> T) l a : (forall i, In i l -> g i = n0 N) ->
  fold_left (fun acc i => nadd N acc (g i)) l a = a.
Proof.
  revert a; induction l as [|x l IH]; intros a H; cbn; [reflexivity|].
  rewrite IH by (intros; apply H; right; assumption). rewrite H by (left; reflexivity). ring.
Qed.
Lemma fold_acc_sum (g : nat -> T) n : fold_left (fun acc i => nadd N acc (g i)) (seq 0 n) (n0 N) = sum n g.
Proof. induction n; [reflexivity|]. rewrite seq_S, fold_left_app, IHn. reflexivity. Qed.
Lemma fold_band (g : nat -> T) ini fin n : fin <= n ->
  (forall i, i < n -> i < ini \/ fin <= i -> g i = n0 N) ->
  fold_left (fun acc i => nadd N acc (g i)) (seq ini (fin - ini)) (n0 N) = sum n g.
Proof.
  intros Hf H. destruct (le_lt_dec ini fin) as [Hi|Hi].
  - rewrite <- fold_acc_sum.
    replace n with (ini + ((fin - ini) + (n - fin))) by lia.
    rewrite !seq_app, !fold_left_app. cbn [Nat.add].
    rewrite (fold_acc_zero g (seq 0 ini)) by (intros i Hin; apply in_seq in Hin; apply H; lia).
    rewrite (fold_acc_zero g (seq (ini + (fin - ini)) _)); [reflexivity|].
    intros i Hin. apply in_seq in Hin. apply H; lia.
  - replace (fin - ini) with 0 by lia. cbn. symmetry. apply sum_zero. intros k Hk. apply H; lia.
Qed.

Lemma combine_map_r {A B} (f : A -> B) (l : list A) : combine l (map f l) = map (fun x => (x, f x)) l.
Proof. induction l; cbn; [reflexivity|]. rewrite IHl. reflexivity. Qed.
Lemma combine_maps {A B C} (f : A -> B) (g : A -> C) (l : list A) : combine (map f l) (map g l) = map (fun x => (f x, g x)) l.
Proof. induction l; cbn; [reflexivity|]. rewrite IHl. reflexivity. Qed.
Lemma flat_map_map {A B C} (F : B -> list C) (f : A -> B) l : flat_map F (map f l) = flat_map (fun x => F (f x)) l.
Proof. induction l; cbn; [reflexivity|]. rewrite IHl. reflexivity. Qed.

Lemma prod_n_diag_spec a b n into : wf a -> wf b -> wf into ->
  ncols a = nrows b -> nrows into = nrows a -> ncols into = ncols b -> 0 < ncols a -> 0 < ncols b -> 0 < n ->
  banded N (one_sided n) a ->
  exists m, prod_n_diag_into N a b n into = Ok m /\
    is_mat m (nrows a) (ncols b) (fun i j => sum (ncols a) (fun k => nmul N (elt a i k) (elt b k j))).
Proof.
  intros Wa Wb Wi H1 H2 H3 P1 P2 Pn Bd. unfold prod_n_diag_into.
  rewrite H1, H2, H3, !Nat.eqb_refl. cbn [negb orb].
  rewrite <- H1. rewrite (proj2 (Nat.eqb_neq (ncols a) 0)), (proj2 (Nat.eqb_neq (ncols b) 0)), (proj2 (Nat.eqb_neq n 0)) by lia.
  cbn [orb]. eexists; split; [reflexivity|].
  set (cl := map _ (data into)).
  assert (Lc : length cl = nrows a * ncols b) by (unfold cl; rewrite map_length, Wi, H2, H3; reflexivity).
  assert (Zc : forall k, nth k cl (n0 N) = n0 N).
  { intros k. destruct (le_lt_dec (length cl) k); [apply nth_overflow; assumption|].
    assert (I : In (nth k cl (n0 N)) cl) by (apply nth_In; assumption).
    unfold cl in I at 2. apply in_map_iff in I as (x & <- & _). ring. }
  unfold chunks_exact. rewrite Wa, Lc, !Nat.div_mul, map_length, seq_length by lia.
  rewrite combine_maps, combine_map_r, flat_map_map.
  set (s := one_sided n) in *.
  rewrite (flat_map_ext_seq _ (fun i => map (fun j => sum (ncols a) (fun k => nmul N (elt a i k) (elt b k j))) (seq 0 (ncols b)))).
  2:{ intros i Hi.
      assert (Lo : length (firstn (ncols b) (skipn (i * ncols b) cl)) = ncols b).
      { rewrite firstn_length, skipn_length, Lc. apply Nat.min_l. nia. }
      rewrite (list_as_map (firstn (ncols b) (skipn (i * ncols b) cl)) (n0 N)), map_length, seq_length, Lo, combine_map_r, map_map.
      apply map_ext_in. intros j Hj. apply in_seq in Hj. cbn [fst snd].
      rewrite firstn_skipn_nth, Zc by lia. unfold band_fold.
      set (ini := if s <=? i then i - s else 0).
      set (fin := if ncols a <? i + s + 1 then ncols a else i + s + 1).
      assert (Hini : ini = i - s) by (unfold ini; destruct (Nat.leb_spec s i); lia).
      assert (Hfin : fin = Nat.min (ncols a) (i + s + 1)) by (unfold fin; destruct (Nat.ltb_spec (ncols a) (i + s + 1)); lia).
      rewrite (fold_band (fun k => nmul N (nth k (firstn (ncols a) (skipn (i * ncols a) (data a))) (n0 N))
                                     (nth (index b k j) (data b) (n0 N))) ini fin (ncols a)).
      - apply sum_ext. intros k Hk. f_equal.
        rewrite firstn_skipn_nth by lia. unfold MatrixSpec.elt. f_equal. lia.
      - lia.
      - intros k Hk Hout. rewrite firstn_skipn_nth by lia.
        replace (i * ncols a + k) with (ncols a * i + k) by lia.
        change (nth (ncols a * i + k) (data a) (n0 N)) with (elt a i k).
        rewrite Bd by lia. ring. }
  rewrite flat_rows_length, skipn_all2 by lia. rewrite app_nil_r. apply is_mat_flat.
Qed.

(** ** row operations *)
Lemma scale_loop_ok : forall k (m : mat T) row col v, wf m -> row < nrows m -> col <= ncols m ->
  exists m', scale_loop N m row col k v = Ok m' /\
    is_mat m' (nrows m) (ncols m)
      (fun i j => if (i =? row) && ((col <=? j) && (j <? col + k)) then nmul N (elt m i j) v else elt m i j).
Proof.
  induction k as [|k IH]; intros m row col v W Hr Hc; cbn [scale_loop].
  - exists m. split; [reflexivity|]. apply is_mat_ext with (elt m); [apply is_mat_refl; assumption|].
    intros i j Hi Hj. rewrite Nat.add_0_r.
    destruct (Nat.leb_spec col j), (Nat.ltb_spec j col); try lia; rewrite ?andb_false_r; reflexivity.
  - destruct (Nat.eqb_spec col (ncols m)) as [->|Hn].
    + exists m. split; [reflexivity|]. apply is_mat_ext with (elt m); [apply is_mat_refl; assumption|].
      intros i j Hi Hj. rewrite (proj2 (Nat.leb_gt (ncols m) j)) by assumption. rewrite andb_false_r. reflexivity.
    + destruct (modify_ok N m row col (fun x => nmul N x v) W Hr ltac:(lia)) as (m1 & E1 & R1 & C1 & W1 & V1).
      unfold index. rewrite E1. cbn [bind].
      destruct (IH m1 row (S col) v W1 ltac:(lia) ltac:(lia)) as (m2 & E2 & R2 & C2 & W2 & V2).
      exists m2. split; [exact E2|]. split; [congruence|]. split; [congruence|]. split; [assumption|].
      intros i j Hi Hj. rewrite V2 by congruence. rewrite V1 by assumption.
      destruct (Nat.eqb_spec i row) as [->|]; cbn [andb]; [|reflexivity].
      destruct (Nat.eqb_spec j col) as [->|].
      * rewrite (proj2 (Nat.leb_gt (S col) col)) by lia. rewrite Nat.leb_refl.
        rewrite (proj2 (Nat.ltb_lt col (col + S k))) by lia. reflexivity.
      * replace (S col + k) with (col + S k) by lia.
        destruct (Nat.leb_spec (S col) j), (Nat.leb_spec col j); try lia; reflexivity.
Qed.

Lemma add_loop_ok : forall k (m : mat T) from into col v, wf m -> from < nrows m -> into < nrows m -> from <> into -> col <= ncols m ->
  exists m', add_loop N m from into col k v = Ok m' /\
    is_mat m' (nrows m) (ncols m)
      (fun i j => if (i =? into) && ((col <=? j) && (j <? col + k)) then nadd N (elt m i j) (nmul N v (elt m from j)) else elt m i j).
Proof.
  induction k as [|k IH]; intros m from into col v W Hr Hr' Hne Hc; cbn [add_loop].
  - exists m. split; [reflexivity|]. apply is_mat_ext with (elt m); [apply is_mat_refl; assumption|].
    intros i j Hi Hj. rewrite Nat.add_0_r.
    destruct (Nat.leb_spec col j), (Nat.ltb_spec j col); try lia; rewrite ?andb_false_r; reflexivity.
  - destruct (Nat.eqb_spec col (ncols m)) as [->|Hn].
    + exists m. split; [reflexivity|]. apply is_mat_ext with (elt m); [apply is_mat_refl; assumption|].
      intros i j Hi Hj. rewrite (proj2 (Nat.leb_gt (ncols m) j)) by assumption. rewrite andb_false_r. reflexivity.
    + unfold index. rewrite (read_ok N) by (assumption || lia). cbn [bind].
      destruct (modify_ok N m into col (fun x => nadd N x (nmul N v (elt m from col))) W Hr' ltac:(lia)) as (m1 & E1 & R1 & C1 & W1 & V1).
      rewrite E1. cbn [bind].
      destruct (IH m1 from into (S col) v W1 ltac:(lia) ltac:(lia) Hne ltac:(lia)) as (m2 & E2 & R2 & C2 & W2 & V2).
      exists m2. split; [exact E2|]. split; [congruence|]. split; [congruence|]. split; [assumption|].
      intros i j Hi Hj. rewrite V2 by congruence. rewrite !V1 by assumption.
      rewrite (proj2 (Nat.eqb_neq from into)) by assumption. cbn [andb].
      destruct (Nat.eqb_spec i into) as [->|]; cbn [andb]; [|reflexivity].
      destruct (Nat.eqb_spec j col) as [->|].
      * rewrite (proj2 (Nat.leb_gt (S col) col)) by lia. rewrite Nat.leb_refl.
        rewrite (proj2 (Nat.ltb_lt col (col + S k))) by lia. reflexivity.
      * replace (S col + k) with (col + S k) by lia.
        destruct (Nat.leb_spec (S col) j), (Nat.leb_spec col j); try lia; reflexivity.
Qed.

(** ** one row operation and the solutions of the system *)
Section Elim.
Variables (n q s : nat).   (* A is n x n, b is n x q, s = one-sided band width *)
Definition dims (a b : mat T) : Prop :=
  nrows a = n /\ ncols a = n /\ wf a /\ nrows b = n /\ ncols b = q /\ wf b.

Definition same_sol (a b a' b' : mat T) : Prop := forall x, solves N a b x <-> solves N a' b' x.

Lemma same_sol_refl a b : same_sol a b a b.
Proof. intros x; reflexivity. Qed.
Lemma same_sol_trans a b a1 b1 a2 b2 : same_sol a b a1 b1 -> same_sol a1 b1 a2 b2 -> same_sol a b a2 b2.
Proof. intros H1 H2 x. rewrite (H1 x). apply H2. Qed.

(** adding [v] times row [c] to row [r], when row [c] vanishes outside the touched columns *)
Lemma add_rows_ok a b c r v : dims a b -> c < n -> r < n -> c <> r ->
  (forall j, j < n -> j < c \/ c + s < j -> elt a c j = n0 N) ->
  exists a' b', add_rows N s a b c r v = Ok (a', b') /\ dims a' b' /\
    (forall i j, i < n -> j < n -> elt a' i j = if i =? r then nadd N (elt a i j) (nmul N v (elt a c j)) else elt a i j) /\
    same_sol a b a' b'.
Proof.
  intros (Ra & Ca & Wa & Rb & Cb & Wb) Hc Hr Hne Hz. unfold add_rows.
  destruct (add_loop_ok (s + 1) a c r c v Wa ltac:(lia) ltac:(lia) Hne ltac:(lia)) as (a' & E1 & R1 & C1 & W1 & V1).
  destruct (add_loop_ok (ncols b) b c r 0 v Wb ltac:(lia) ltac:(lia) Hne ltac:(lia)) as (b' & E2 & R2 & C2 & W2 & V2).
  rewrite E1. cbn [bind]. rewrite E2. cbn [bind].
  assert (VA : forall i j, i < n -> j < n -> elt a' i j = if i =? r then nadd N (elt a i j) (nmul N v (elt a c j)) else elt a i j).
  { intros i j Hi Hj. rewrite V1 by lia.
    destruct (Nat.eqb_spec i r) as [->|]; cbn [andb]; [|reflexivity].
    destruct ((c <=? j) && (j <? c + (s + 1))) eqn:E; [reflexivity|].
    rewrite Hz; [ring|assumption|]. apply andb_false_iff in E as [E|E]; [apply Nat.leb_gt in E|apply Nat.ltb_ge in E]; lia. }
  assert (VB : forall i k, i < n -> k < q -> elt b' i k = if i =? r then nadd N (elt b i k) (nmul N v (elt b c k)) else elt b i k).
  { intros i k Hi Hk. rewrite V2 by lia. cbn [Nat.leb].
    rewrite (proj2 (Nat.ltb_lt k (0 + ncols b))) by lia. rewrite andb_true_r. reflexivity. }
  exists a', b'. split; [reflexivity|]. split; [unfold dims; repeat split; congruence|]. split; [assumption|].
  assert (SA : forall (x : nat -> nat -> T) i k, i < n -> sum n (fun j => nmul N (elt a' i j) (x j k))
               = if i =? r then nadd N (sum n (fun j => nmul N (elt a i j) (x j k))) (nmul N v (sum n (fun j => nmul N (elt a c j) (x j k))))
                 else sum n (fun j => nmul N (elt a i j) (x j k))).
  { intros x i k Hi. destruct (i =? r) eqn:E.
    - rewrite <- sum_scale, <- sum_plus. apply sum_ext. intros j Hj. rewrite VA, E by assumption. ring.
    - apply sum_ext. intros j Hj. rewrite VA, E by assumption. reflexivity. }
  assert (Hncr : (c =? r) = false) by (apply Nat.eqb_neq; assumption).
  intros x. unfold solves. replace (nrows a') with n by congruence. replace (ncols a') with n by congruence.
  replace (ncols b') with q by congruence. rewrite Ra, Ca, Cb. split; intros H i k Hi Hk.
  - rewrite SA, VB by assumption. destruct (i =? r); [|apply H; assumption].
    rewrite !H by assumption. reflexivity.
  - pose proof (H i k Hi Hk) as Hik. rewrite SA, VB in Hik by assumption.
    destruct (i =? r) eqn:E; [|assumption].
    pose proof (H c k Hc Hk) as Hck. rewrite SA, VB, Hncr in Hck by assumption.
    rewrite Hck in Hik.
    transitivity (nsub N (nadd N (sum n (fun j => nmul N (elt a i j) (x j k))) (nmul N v (elt b c k))) (nmul N v (elt b c k))); [ring|].
    rewrite Hik. ring.
Qed.

(** scaling row [c] by [v] with [v * p = 1] *)
Lemma scale_row_ok a b c v p : dims a b -> c < n -> nmul N p v = n1 N ->
  (forall j, j < n -> j < c \/ c + s < j -> elt a c j = n0 N) ->
  exists a' b', scale_row N s a b c v = Ok (a', b') /\ dims a' b' /\
    (forall i j, i < n -> j < n -> elt a' i j = if i =? c then nmul N (elt a i j) v else elt a i j) /\
    same_sol a b a' b'.
Proof.
  intros (Ra & Ca & Wa & Rb & Cb & Wb) Hc Hv Hz. unfold scale_row.
  destruct (scale_loop_ok (s + 1) a c c v Wa ltac:(lia) ltac:(lia)) as (a' & E1 & R1 & C1 & W1 & V1).
  destruct (scale_loop_ok (ncols b) b c 0 v Wb ltac:(lia) ltac:(lia)) as (b' & E2 & R2 & C2 & W2 & V2).
  rewrite E1. cbn [bind]. rewrite E2. cbn [bind].
  assert (VA : forall i j, i < n -> j < n -> elt a' i j = if i =? c then nmul N (elt a i j) v else elt a i j).
  { intros i j Hi Hj. rewrite V1 by lia.
    destruct (Nat.eqb_spec i c) as [->|]; cbn [andb]; [|reflexivity].
    destruct ((c <=? j) && (j <? c + (s + 1))) eqn:E; [reflexivity|].
    rewrite Hz; [ring|assumption|]. apply andb_false_iff in E as [E|E]; [apply Nat.leb_gt in E|apply Nat.ltb_ge in E]; lia. }
  assert (VB : forall i k, i < n -> k < q -> elt b' i k = if i =? c then nmul N (elt b i k) v else elt b i k).
  { intros i k Hi Hk. rewrite V2 by lia. cbn [Nat.leb].
    rewrite (proj2 (Nat.ltb_lt k (0 + ncols b))) by lia. rewrite andb_true_r. reflexivity. }
  exists a', b'. split; [reflexivity|]. split; [unfold dims; repeat split; congruence|]. split; [assumption|].
  assert (SA : forall (x : nat -> nat -> T) i k, i < n -> sum n (fun j => nmul N (elt a' i j) (x j k))
               = if i =? c then nmul N v (sum n (fun j => nmul N (elt a i j) (x j k)))
                 else sum n (fun j => nmul N (elt a i j) (x j k))).
  { intros x i k Hi. destruct (i =? c) eqn:E.
    - rewrite <- sum_scale. apply sum_ext. intros j Hj. rewrite VA, E by assumption. ring.
    - apply sum_ext. intros j Hj. rewrite VA, E by assumption. reflexivity. }
  intros x. unfold solves. replace (nrows a') with n by congruence. replace (ncols a') with n by congruence.
  replace (ncols b') with q by congruence. rewrite Ra, Ca, Cb. split; intros H i k Hi Hk.
  - rewrite SA, VB by assumption. destruct (i =? c); [|apply H; assumption].
    rewrite !H by assumption. ring.
  - pose proof (H i k Hi Hk) as Hik. rewrite SA, VB in Hik by assumption.
    destruct (i =? c) eqn:E; [|assumption].
    transitivity (nmul N p (nmul N v (sum n (fun j => nmul N (elt a i j) (x j k))))).
    + transitivity (nmul N (nmul N p v) (sum n (fun j => nmul N (elt a i j) (x j k)))); [rewrite Hv; ring|ring].
    + rewrite Hik. transitivity (nmul N (nmul N p v) (elt b i k)); [ring|rewrite Hv; ring].
Qed.

Variables (tiny big : T -> bool).
Hypothesis big_spec : forall x, big x = false -> x = n0 N.

Definition band_inv (a : mat T) : Prop := forall i j, i < n -> j < n -> i > j + s \/ j > i + s -> elt a i j = n0 N.
(** columns before [c] are those of a unit upper triangular matrix *)
Definition lower_done (c : nat) (a : mat T) : Prop :=
  forall j, j < c -> j < n -> elt a j j = n1 N /\ forall i, j < i -> i < n -> elt a i j = n0 N.

Lemma elim_down_ok : forall k a b c r, dims a b -> band_inv a -> lower_done c a -> c < n -> elt a c c = n1 N ->
  c < r -> (forall i, c < i -> i < r -> i < n -> elt a i c = n0 N) ->
  exists a' b', elim_down N big s a b c r k = Ok (a', b') /\ dims a' b' /\ band_inv a' /\ lower_done c a' /\
    elt a' c c = n1 N /\ (forall i, c < i -> i < r + k -> i < n -> elt a' i c = n0 N) /\ same_sol a b a' b'.
Proof.
  induction k as [|k IH]; intros a b c r D B L Hc P Hr Z; cbn [elim_down].
  - exists a, b. rewrite Nat.add_0_r. repeat (split; [first [reflexivity|assumption]|]). apply same_sol_refl.
  - pose proof D as (Ra & Ca & Wa & Rb & Cb & Wb).
    destruct (le_lt_dec n r) as [Hn|Hn].
    + rewrite get_err by lia. exists a, b. split; [reflexivity|]. repeat (split; [assumption|]).
      split; [intros; apply Z; lia|]. apply same_sol_refl.
    + rewrite (get_ok N) by (try assumption; lia).
      assert (RowZ : forall j, j < n -> j < c \/ c + s < j -> elt a c j = n0 N).
      { intros j Hj [H|H]; [apply L; lia|apply B; lia]. }
      destruct (big (elt a r c)) eqn:Eb.
      * destruct (add_rows_ok a b c r (nopp N (elt a r c)) D Hc Hn ltac:(lia) RowZ) as (a1 & b1 & E1 & D1 & V1 & S1).
        rewrite E1. cbn [bind fst snd].
        destruct (IH a1 b1 c (S r)) as (a2 & b2 & E2 & D2 & B2 & L2 & P2 & Z2 & S2); try assumption; try lia.
        -- intros i j Hi Hj Ho. rewrite V1 by assumption. destruct (Nat.eqb_spec i r) as [->|]; [|apply B; assumption].
           rewrite (B r j) by assumption.
           destruct Ho as [Ho|Ho].
           ++ destruct (le_lt_dec c j); [|rewrite (RowZ j); [ring|assumption|left; assumption]].
              (* r > j + s >= c + s: then elt a r c = 0 by the band *)
              rewrite (B r c) by lia. ring.
           ++ rewrite (RowZ j); [ring|assumption|right; lia].
        -- intros j Hj Hjn. destruct (L j Hj Hjn) as [L1 L2']. split.
           ++ rewrite V1 by lia. rewrite (proj2 (Nat.eqb_neq j r)) by lia. assumption.
           ++ intros i Hi Hin. rewrite V1 by lia. destruct (i =? r); [|apply L2'; assumption].
              rewrite !L2' by lia. ring.
        -- rewrite V1 by lia. rewrite (proj2 (Nat.eqb_neq c r)) by lia. assumption.
        -- intros i Hi1 Hi2 Hi3. rewrite V1 by lia. destruct (Nat.eqb_spec i r) as [->|]; [|apply Z; lia].
           rewrite P. ring.
        -- exists a2, b2. repeat (split; [assumption|]). split; [|apply (same_sol_trans _ _ a1 b1); assumption].
           intros; apply Z2; lia.
      * destruct (IH a b c (S r)) as (a2 & b2 & E2 & D2 & B2 & L2 & P2 & Z2 & S2); try assumption; try lia.
        -- intros i Hi1 Hi2 Hi3. destruct (Nat.eq_dec i r) as [->|]; [apply big_spec; assumption|apply Z; lia].
        -- exists a2, b2. repeat (split; [assumption|]). split; [|assumption]. intros; apply Z2; lia.
Qed.

Hypothesis tiny_spec : forall x, tiny x = false -> nmul N x (ndiv N (n1 N) x) = n1 N.

Lemma go_down_inv : forall k a b c, dims a b -> band_inv a -> lower_done c a -> c + k = n ->
  go_down N tiny big s a b c k = Err \/
  exists a' b', go_down N tiny big s a b c k = Ok (a', b') /\ dims a' b' /\ band_inv a' /\ lower_done n a' /\ same_sol a b a' b'.
Proof.
  induction k as [|k IH]; intros a b c D B L Hk; cbn [go_down].
  - right. exists a, b. repeat (split; [first [reflexivity|assumption]|]). split; [|apply same_sol_refl].
    replace n with c by lia. assumption.
  - pose proof D as (Ra & Ca & Wa & Rb & Cb & Wb).
    unfold index. rewrite (read_ok N) by (try assumption; lia). cbn [bind].
    destruct (tiny (elt a c c)) eqn:Et; [left; reflexivity|].
    assert (RowZ : forall j, j < n -> j < c \/ c + s < j -> elt a c j = n0 N).
    { intros j Hj [H|H]; [apply L; lia|apply B; lia]. }
    destruct (scale_row_ok a b c (ndiv N (n1 N) (elt a c c)) (elt a c c) D ltac:(lia) (tiny_spec _ Et) RowZ) as (a1 & b1 & E1 & D1 & V1 & S1).
    rewrite E1. cbn [bind fst snd].
    assert (P1 : elt a1 c c = n1 N).
    { rewrite V1 by lia. rewrite Nat.eqb_refl. apply tiny_spec. assumption. }
    assert (B1 : band_inv a1).
    { intros i j Hi Hj Ho. rewrite V1 by assumption. rewrite B by assumption. destruct (i =? c); ring. }
    assert (L1 : lower_done c a1).
    { intros j Hj Hjn. destruct (L j Hj Hjn) as [La Lb]. split.
      - rewrite V1 by lia. rewrite (proj2 (Nat.eqb_neq j c)) by lia. assumption.
      - intros i Hi Hin. rewrite V1 by lia. rewrite Lb by assumption. destruct (i =? c); ring. }
    rewrite Ca. destruct (Nat.eqb_spec c (n - 1)) as [Hlast|Hlast].
    + right. exists a1, b1. repeat (split; [first [reflexivity|assumption]|]). split; [|assumption].
      intros j Hj Hjn. destruct (Nat.eq_dec j c) as [->|]; [|apply L1; lia]. split; [assumption|]. intros; lia.
    + destruct (elim_down_ok s a1 b1 c (c + 1) D1 B1 L1 ltac:(lia) P1 ltac:(lia)) as (a2 & b2 & E2 & D2 & B2 & L2 & P2 & Z2 & S2).
      { intros; lia. }
      rewrite E2. cbn [bind fst snd].
      destruct (IH a2 b2 (S c)) as [F|(a3 & b3 & E3 & D3 & B3 & L3 & S3)]; try assumption; try lia.
      * intros j Hj Hjn. destruct (Nat.eq_dec j c) as [->|]; [|apply L2; lia]. split; [assumption|].
        intros i Hi Hin. destruct (le_lt_dec (c + 1 + s) i); [apply B2; lia|apply Z2; lia].
      * left; assumption.
      * right. exists a3, b3. repeat (split; [assumption|]).
        apply (same_sol_trans _ _ a1 b1); [assumption|]. apply (same_sol_trans _ _ a2 b2); assumption.
Qed.

(** upper entries of the columns beyond [c] vanish *)
Definition upper_done (c : nat) (a : mat T) : Prop := forall i j, c < j -> j < n -> i < j -> elt a i j = n0 N.

Lemma elim_up_ok : forall k a b c ini, dims a b -> band_inv a -> lower_done n a -> upper_done c a -> c < n -> ini + k <= c ->
  (forall i, ini + k <= i -> i < c -> elt a i c = n0 N) ->
  exists a' b', elim_up N big s a b c ini k = Ok (a', b') /\ dims a' b' /\ band_inv a' /\ lower_done n a' /\ upper_done c a' /\
    (forall i, ini <= i -> i < c -> elt a' i c = n0 N) /\ same_sol a b a' b'.
Proof.
  induction k as [|k IH]; intros a b c ini D B L U Hc Hk Z; cbn [elim_up].
  - exists a, b. rewrite Nat.add_0_r in *. repeat (split; [first [reflexivity|assumption]|]). apply same_sol_refl.
  - pose proof D as (Ra & Ca & Wa & Rb & Cb & Wb).
    rewrite (get_ok N) by (try assumption; lia).
    assert (RowZ' : forall j, j < n -> j <> c -> elt a c j = n0 N).
    { intros j Hj H. destruct (lt_eq_lt_dec j c) as [[Hlt|He]|Hlt]; [apply L; lia|lia|apply U; lia]. }
    assert (RowZ : forall j, j < n -> j < c \/ c + s < j -> elt a c j = n0 N) by (intros; apply RowZ'; lia).
    destruct (big (elt a (ini + k) c)) eqn:Eb.
    + destruct (add_rows_ok a b c (ini + k) (nopp N (elt a (ini + k) c)) D Hc ltac:(lia) ltac:(lia) RowZ) as (a1 & b1 & E1 & D1 & V1 & S1).
      rewrite E1. cbn [bind fst snd].
      assert (Pc : elt a c c = n1 N) by (apply L; lia).
      assert (V1' : forall i j, i < n -> j < n -> elt a1 i j = if (i =? ini + k) && (j =? c) then n0 N else elt a i j).
      { intros i j Hi Hj. rewrite V1 by assumption. destruct (Nat.eqb_spec i (ini + k)) as [->|]; cbn [andb]; [|reflexivity].
        destruct (Nat.eqb_spec j c) as [->|]; [rewrite Pc; ring|]. rewrite (RowZ' j) by assumption. ring. }
      destruct (IH a1 b1 c ini) as (a2 & b2 & E2 & D2 & B2 & L2 & U2 & Z2 & S2); try assumption; try lia.
      * intros i j Hi Hj Ho. rewrite V1' by assumption. destruct (_ && _); [reflexivity|apply B; assumption].
      * intros j Hj Hjn. destruct (L j Hj Hjn) as [La Lb]. split.
        -- rewrite V1' by lia. destruct (Nat.eqb_spec j (ini + k)), (Nat.eqb_spec j c); cbn [andb]; try assumption; lia.
        -- intros i Hi Hin. rewrite V1' by lia. destruct (_ && _); [reflexivity|apply Lb; assumption].
      * intros i j H1 H2 H3. rewrite V1' by lia. destruct (_ && _); [reflexivity|apply U; assumption].
      * intros i H1 H2. rewrite V1' by lia. rewrite Nat.eqb_refl, andb_true_r.
        destruct (Nat.eqb_spec i (ini + k)); [reflexivity|apply Z; lia].
      * exists a2, b2. repeat (split; [assumption|]). apply (same_sol_trans _ _ a1 b1); assumption.
    + destruct (IH a b c ini) as (a2 & b2 & E2 & D2 & B2 & L2 & U2 & Z2 & S2); try assumption; try lia.
      * intros i H1 H2. destruct (Nat.eq_dec i (ini + k)) as [->|]; [apply big_spec; assumption|apply Z; lia].
      * exists a2, b2. repeat (split; [assumption|]). assumption.
Qed.

Lemma go_up_ok : forall c a b, dims a b -> band_inv a -> lower_done n a -> upper_done c a -> (c < n \/ c = 0) ->
  exists a' b', go_up N big s a b c = Ok (a', b') /\ dims a' b' /\ lower_done n a' /\ upper_done 0 a' /\ same_sol a b a' b'.
Proof.
  induction c as [|c IH]; intros a b D B L U Hc; cbn [go_up].
  - exists a, b. repeat (split; [first [reflexivity|assumption]|]). apply same_sol_refl.
  - pose proof D as (Ra & Ca & Wa & Rb & Cb & Wb). destruct Hc as [Hc|Hc]; [|lia].
    unfold index. rewrite (read_ok N) by (try assumption; lia). cbn [bind].
    set (ini := if S c <? s then 0 else S c - s).
    assert (Hini : ini = S c - s) by (unfold ini; destruct (Nat.ltb_spec (S c) s); lia).
    destruct (elim_up_ok (S c - ini) a b (S c) ini D B L U Hc ltac:(lia)) as (a1 & b1 & E1 & D1 & B1 & L1 & U1 & Z1 & S1).
    { intros; lia. }
    rewrite E1. cbn [bind fst snd].
    destruct (IH a1 b1) as (a2 & b2 & E2 & D2 & L2 & U2 & S2); try assumption; try lia.
    + intros i j H1 H2 H3. destruct (Nat.eq_dec j (S c)) as [->|]; [|apply U1; lia].
      destruct (le_lt_dec ini i); [apply Z1; lia|]. apply B1; lia.
    + exists a2, b2. repeat (split; [assumption|]). apply (same_sol_trans _ _ a1 b1); assumption.
Qed.

Theorem gaussian_ok a b : dims a b -> band_inv a -> forall nd, one_sided nd = s ->
  mut_n_diag_gaussian N tiny big a b nd = Err \/
  exists a' b', mut_n_diag_gaussian N tiny big a b nd = Ok (a', b') /\ dims a' b' /\
    forall x, solves N a b x <-> (forall i k, i < n -> k < q -> x i k = elt b' i k).
Proof.
  intros D B nd Hs. pose proof D as (Ra & Ca & Wa & Rb & Cb & Wb). unfold mut_n_diag_gaussian. rewrite Hs, Ca.
  destruct (go_down_inv n a b 0 D B) as [F|(a1 & b1 & E1 & D1 & B1 & L1 & S1)]; try reflexivity.
  { intros j Hj; lia. }
  { left. rewrite F. reflexivity. }
  right. rewrite E1. cbn [bind fst snd].
  destruct (go_up_ok (n - 1) a1 b1 D1 B1 L1) as (a2 & b2 & E2 & D2 & L2 & U2 & S2).
  { intros i j H1 H2 H3; lia. }
  { lia. }
  exists a2, b2. split; [assumption|]. split; [assumption|].
  intros x. rewrite (same_sol_trans _ _ _ _ _ _ S1 S2 x).
  destruct D2 as (Ra2 & Ca2 & Wa2 & Rb2 & Cb2 & Wb2).
  assert (EI : forall i k, i < n -> sum n (fun j => nmul N (elt a2 i j) (x j k)) = x i k).
  { intros i k Hi. rewrite <- (sum_eye_l n i k x Hi). apply sum_ext. intros j Hj. f_equal. unfold delta.
    destruct (Nat.eqb_spec i j) as [->|Hij]; [apply L2; assumption|].
    destruct (le_lt_dec i j); [apply U2; lia|apply L2; lia]. }
  unfold solves. rewrite Ra2, Ca2, Cb2. split; intros H i k Hi Hk.
  - rewrite <- EI by assumption. apply H; assumption.
  - rewrite EI by assumption. apply H; assumption.
Qed.
End Elim.
End RingPart.

(** Proofs about the compact storage of N-diagonal matrices *)
From Coq Require Import List Arith Lia Bool Ring.
From Verif.Common Require Import Base.
From Verif.Matrix Require Import MatrixModel MatrixSpec MatrixProofs GaussProofs.
Import ListNotations.

Section ND.
Context {T : Type} (N : Num T).
Variables (w s : nat).
Hypothesis Hw : w = 2 * s + 1.

Lemma one_sided_w : one_sided w = s.
Proof. unfold one_sided. rewrite Hw. replace (2 * s + 1 - 1) with (s * 2) by lia. apply Nat.div_mul. lia. Qed.

Definition in_band (i j : nat) : Prop := i <= j + s /\ j <= i + s.
Lemma is_diag_iff i j : is_diag_value w i j = true <-> in_band i j.
Proof. unfold is_diag_value, in_band. rewrite one_sided_w, andb_true_iff, !Nat.leb_le. reflexivity. Qed.
Lemma is_diag_false i j : is_diag_value w i j = false <-> ~ in_band i j.
Proof. rewrite <- is_diag_iff. destruct (is_diag_value w i j); split; congruence. Qed.

Lemma zb_eq row : zeroes_before w row = row - s.
Proof. unfold zeroes_before. rewrite one_sided_w. destruct (Nat.ltb_spec row s); lia. Qed.

Lemma acc_S r nc : acc_n_in_row w (S r) nc = acc_n_in_row w r nc + n_in_row w r nc.
Proof. unfold acc_n_in_row. rewrite seq_S, fold_left_app. reflexivity. Qed.
Lemma acc_mono r r' nc : r <= r' -> acc_n_in_row w r nc <= acc_n_in_row w r' nc.
Proof. induction 1; [lia|]. rewrite acc_S. lia. Qed.

Lemma offset_lt i j nc : in_band i j -> j < nc -> i - s <= j /\ j - (i - s) < n_in_row w i nc.
Proof.
  intros [H1 H2] Hj. split; [lia|]. unfold n_in_row. rewrite one_sided_w, zb_eq.
  destruct (Nat.ltb_spec i s); [lia|].
  destruct (Nat.leb_spec (i - s + w) nc); [lia|].
  destruct (Nat.ltb_spec (i - s) nc); lia.
Qed.

Definition pos (nc i j : nat) : nat := acc_n_in_row w i nc + j - zeroes_before w i.
Lemma pos_eq nc i j : in_band i j -> pos nc i j = acc_n_in_row w i nc + (j - (i - s)).
Proof. intros [H1 H2]. unfold pos. rewrite zb_eq. lia. Qed.
Lemma pos_range nc i j : in_band i j -> j < nc -> acc_n_in_row w i nc <= pos nc i j < acc_n_in_row w (S i) nc.
Proof. intros B Hj. rewrite pos_eq, acc_S by assumption. destruct (offset_lt i j nc B Hj). lia. Qed.
Lemma pos_inj nc i j i' j' : in_band i j -> in_band i' j' -> j < nc -> j' < nc ->
  pos nc i j = pos nc i' j' -> i = i' /\ j = j'.
Proof.
  intros B B' H H' E.
  pose proof (pos_range nc i j B H). pose proof (pos_range nc i' j' B' H').
  assert (i = i').
  { destruct (lt_eq_lt_dec i i') as [[L|]|L]; [|assumption|].
    - pose proof (acc_mono (S i) i' nc L). lia.
    - pose proof (acc_mono (S i') i nc L). lia. }
  subst i'. split; [reflexivity|]. rewrite !pos_eq in E by assumption. unfold in_band in *. lia.
Qed.
Lemma pos_lt nr nc i j : in_band i j -> i < nr -> j < nc -> pos nc i j < acc_n_in_row w nr nc.
Proof. intros B Hi Hj. pose proof (pos_range nc i j B Hj). pose proof (acc_mono (S i) nr nc Hi). lia. Qed.

(** storage of the right size, as [new] produces and every operation keeps *)
Definition nd_wf (m : mat T) : Prop := length (data m) = acc_n_in_row w (nrows m) (ncols m).

Lemma nd_new_wf of_nat v nr nc : nd_wf (nd_new N w of_nat v nr nc).
Proof. unfold nd_wf, nd_new. cbn [data nrows ncols]. rewrite map_length, seq_length, repeat_length. reflexivity. Qed.

Definition nd_elt (m : mat T) (i j : nat) : T :=
  if is_diag_value w i j then nth (pos (ncols m) i j) (data m) (n0 N) else n0 N.

Lemma nd_get_ok m i j : nd_wf m -> i < nrows m -> j < ncols m -> nd_get N w m i j = Ok (nd_elt m i j).
Proof.
  intros W Hi Hj. unfold nd_get, nd_elt. rewrite (proj2 (in_range m i j)) by auto.
  destruct (is_diag_value w i j) eqn:E; [|reflexivity]. apply is_diag_iff in E as B.
  unfold nd_index. rewrite E. cbn [bind]. fold (pos (ncols m) i j). unfold read.
  rewrite (nth_error_nth_lt _ _ (n0 N)); [reflexivity|]. rewrite W. apply pos_lt; assumption.
Qed.
Lemma nd_get_err m i j : ~ (i < nrows m /\ j < ncols m) -> nd_get N w m i j = Err.
Proof. intros H. unfold nd_get. rewrite (proj2 (out_range m i j)) by auto. reflexivity. Qed.

Lemma nd_modify_ok m i j f : nd_wf m -> i < nrows m -> j < ncols m -> in_band i j ->
  exists m', nd_modify w m i j f = Ok m' /\ nd_wf m' /\ nrows m' = nrows m /\ ncols m' = ncols m /\
    forall i' j', i' < nrows m -> j' < ncols m ->
      nd_elt m' i' j' = if (i' =? i) && (j' =? j) then f (nd_elt m i j) else nd_elt m i' j'.
Proof.
  intros W Hi Hj B. unfold nd_modify. rewrite (proj2 (in_range m i j)) by auto.
  apply is_diag_iff in B as E. rewrite E. unfold nd_index. rewrite E. cbn [bind]. fold (pos (ncols m) i j).
  assert (L : pos (ncols m) i j < length (data m)) by (rewrite W; apply pos_lt; assumption).
  unfold modify. rewrite (nth_error_nth_lt _ _ (n0 N)) by assumption.
  eexists; split; [reflexivity|]. split; [unfold nd_wf; cbn [data nrows ncols]; rewrite upd_length; exact W|].
  split; [reflexivity|]. split; [reflexivity|].
  intros i' j' Hi' Hj'. unfold nd_elt. cbn [ncols data].
  destruct (is_diag_value w i' j') eqn:E'.
  - destruct ((i' =? i) && (j' =? j)) eqn:F.
    + apply andb_true_iff in F as [F1 F2]. apply Nat.eqb_eq in F1, F2. subst.
      rewrite nth_upd_same by assumption. rewrite E. reflexivity.
    + apply nth_upd_other. intros P. apply pos_inj in P as [-> ->]; try assumption; [|apply is_diag_iff; assumption].
      rewrite !Nat.eqb_refl in F. discriminate.
  - destruct ((i' =? i) && (j' =? j)) eqn:F; [|reflexivity].
    apply andb_true_iff in F as [F1 F2]. apply Nat.eqb_eq in F1, F2. subst. congruence.
Qed.
Lemma nd_modify_off (m : mat T) i j f : ~ in_band i j -> nd_modify w m i j f = Err.
Proof. intros H. unfold nd_modify. rewrite (proj2 (is_diag_false i j) H). destruct (_ && _); reflexivity. Qed.
Lemma nd_modify_out (m : mat T) i j f : ~ (i < nrows m /\ j < ncols m) -> nd_modify w m i j f = Err.
Proof. intros H. unfold nd_modify. rewrite (proj2 (out_range m i j)) by auto. reflexivity. Qed.

(** ** product by a column vector *)
Hypothesis RT : ring_theory (n0 N) (n1 N) (nadd N) (nmul N) (nsub N) (nopp N) eq.
Add Ring NRing2 : RT.
Local Notation sum := (sum N).

Lemma slice_ok (l : list T) a b : a <= b -> b <= length l -> slice l a b = Ok (firstn (b - a) (skipn a l)).
Proof. intros. unfold slice. rewrite (proj2 (Nat.leb_le a b)), (proj2 (Nat.leb_le b (length l))) by assumption. reflexivity. Qed.
Lemma slice_panic (l : list T) a b : length l < b -> slice l a b = Panic.
Proof. intros. unfold slice. rewrite (proj2 (Nat.leb_gt b (length l))) by assumption. rewrite andb_false_r. reflexivity. Qed.

Lemma zip_firstn_skipn (f : T -> T -> T) (l l' : list T) a a' k : a + k <= length l -> a' + k <= length l' ->
  zip_with f (firstn k (skipn a l)) (firstn k (skipn a' l')) = map (fun t => f (nth (a + t) l (n0 N)) (nth (a' + t) l' (n0 N))) (seq 0 k).
Proof.
  intros H H'.
  assert (L : forall (l : list T) a, a + k <= length l -> firstn k (skipn a l) = map (fun t => nth (a + t) l (n0 N)) (seq 0 k)).
  { clear. intros l a H. rewrite (list_as_map (firstn k (skipn a l)) (n0 N)).
    rewrite firstn_length, skipn_length, Nat.min_l by lia.
    apply map_ext_seq. intros t Ht. apply firstn_skipn_nth. lia. }
  rewrite !L by assumption. apply zip_with_map.
Qed.

(** sum over a window *)
Lemma sum_window n a k (f : nat -> T) : a + k <= n -> (forall i, i < n -> i < a \/ a + k <= i -> f i = n0 N) ->
  sum n f = sum k (fun t => f (a + t)).
Proof.
  intros H Z. rewrite <- (fold_band N RT f a (a + k) n) by assumption.
  replace (a + k - a) with k by lia. rewrite <- (fold_acc_sum N (fun t => f (a + t)) k).
  clear H Z. generalize (n0 N). induction k; intros z; [reflexivity|].
  rewrite !seq_S, !fold_left_app, IHk. reflexivity.
Qed.

Lemma n_in_row_window n i : 2 * s <= n -> i < n -> i - s + n_in_row w i n <= n /\ 0 < n_in_row w i n /\
  forall k, k < n -> (k < i - s \/ i - s + n_in_row w i n <= k) -> ~ in_band i k.
Proof.
  intros Hn Hi. unfold n_in_row. rewrite one_sided_w, zb_eq. unfold in_band.
  destruct (Nat.ltb_spec i s); [repeat split; try lia; intros; lia|].
  destruct (Nat.leb_spec (i - s + w) n); [repeat split; try lia; intros; lia|].
  destruct (Nat.ltb_spec (i - s) n); repeat split; try lia; intros; lia.
Qed.

Lemma col_prod_ok m vec n : nd_wf m -> nrows m = n -> ncols m = n -> length vec = n -> 2 * s <= n ->
  forall k row, row + k = n ->
  exists r, col_prod_loop N w m vec (acc_n_in_row w row n) row k = Ok r /\ length r = k /\
    forall i, i < k -> nth i r (n0 N) = sum n (fun j => nmul N (nd_elt m (row + i) j) (nth j vec (n0 N))).
Proof.
  intros W Hr Hc Hv Hn. induction k as [|k IH]; intros row Hk; cbn [col_prod_loop].
  - exists []. repeat split. intros; lia.
  - rewrite Hc. destruct (n_in_row_window n row Hn ltac:(lia)) as (W1 & W2 & W3).
    rewrite (proj2 (Nat.ltb_lt 0 _)) by assumption. rewrite zb_eq.
    assert (La : acc_n_in_row w row n + n_in_row w row n <= length (data m)).
    { rewrite <- acc_S, W, Hr, Hc. apply acc_mono. lia. }
    rewrite !slice_ok by lia. cbn [bind].
    destruct (IH (S row) ltac:(lia)) as (r & E & Lr & V). rewrite acc_S in E. rewrite E. cbn [bind].
    eexists; split; [reflexivity|]. split; [cbn; lia|].
    intros [|i] Hi; cbn [nth].
    + replace (acc_n_in_row w row n + n_in_row w row n - acc_n_in_row w row n) with (n_in_row w row n) by lia.
      replace (row - s + n_in_row w row n - (row - s)) with (n_in_row w row n) by lia.
      rewrite zip_firstn_skipn by lia. rewrite fold_sum, Nat.add_0_r.
      rewrite (sum_window n (row - s) (n_in_row w row n)); [|assumption|].
      * apply sum_ext. intros t Ht. f_equal. unfold nd_elt.
        assert (B : in_band row (row - s + t)).
        { destruct (is_diag_value w row (row - s + t)) eqn:D; [apply is_diag_iff; assumption|].
          apply is_diag_false in D. exfalso. unfold in_band in D. unfold n_in_row in *. rewrite one_sided_w, zb_eq in *.
          destruct (Nat.ltb_spec row s); [lia|].
          destruct (Nat.leb_spec (row - s + w) n); [lia|].
          destruct (Nat.ltb_spec (row - s) n); lia. }
        rewrite (proj2 (is_diag_iff _ _) B), pos_eq by assumption. rewrite Hc. f_equal. lia.
      * intros j Hj Ho. unfold nd_elt. rewrite (proj2 (is_diag_false _ _)); [ring|]. apply W3; assumption.
    + rewrite V by lia. replace (S row + i) with (row + S i) by lia. reflexivity.
Qed.

Lemma col_prod_panic m vec n : ncols m = n -> length vec = n -> n < 2 * s ->
  forall k row acc, row + k = n -> row <= Nat.min (s - 1) (n - 1) -> 0 < n -> col_prod_loop N w m vec acc row k = Panic.
Proof.
  intros Hc Hv Hn. induction k as [|k IH]; intros row acc Hk Hrow Hpos; cbn [col_prod_loop]; [lia|].
  rewrite Hc. unfold n_in_row. rewrite one_sided_w, !zb_eq. rewrite (proj2 (Nat.ltb_lt row s)) by lia.
  rewrite (proj2 (Nat.ltb_lt 0 _)) by lia.
  destruct (slice (data m) acc (acc + (s + 1 + row))) as [this| |] eqn:E1; cbn [bind]; [| |reflexivity].
  2:{ unfold slice in E1. destruct (_ && _); discriminate. }
  destruct (le_lt_dec (row - s + (s + 1 + row)) n) as [Hle|Hgt].
  - rewrite slice_ok by lia. cbn [bind]. rewrite IH by lia. reflexivity.
  - rewrite slice_panic by lia. reflexivity.
Qed.

(** ** conversion to a dense matrix *)
Lemma to_dense_loop m (l : list (nat * nat)) n d : nd_wf m -> nrows m = n -> ncols m = n ->
  nrows d = n -> ncols d = n -> wf d -> (forall p, In p l -> fst p < n /\ snd p < n) ->
  exists d', fold_left (fun acc (rc : nat * nat) => do d <- acc; do v <- nd_get N w m (fst rc) (snd rc); set d (fst rc) (snd rc) v) l (Ok d) = Ok d'
   /\ nrows d' = n /\ ncols d' = n /\ wf d' /\
   forall i j, i < n -> j < n -> (In (i, j) l -> elt N d' i j = nd_elt m i j) /\ (~ In (i, j) l -> elt N d' i j = elt N d i j).
Proof.
  intros W Hr Hc. revert d. induction l as [|[r c] l IH]; intros d R C Wd In_; cbn [fold_left].
  - exists d. repeat split; try assumption; intros; contradiction || reflexivity.
  - cbn [fst snd bind]. destruct (In_ (r, c) (or_introl eq_refl)) as [Hr' Hc']. cbn [fst snd] in Hr', Hc'.
    rewrite nd_get_ok by (try assumption; lia). cbn [bind]. unfold set.
    rewrite (proj2 (in_range d r c)) by lia.
    destruct (modify_ok N d r c (fun _ => nd_elt m r c) Wd ltac:(lia) ltac:(lia)) as (d1 & E1 & R1 & C1 & W1 & V1).
    rewrite E1. destruct (IH d1) as (d2 & E2 & R2 & C2 & W2 & V2); try congruence.
    { intros p Hp. apply In_. right; assumption. }
    exists d2. repeat (split; [assumption|]). intros i j Hi Hj. destruct (V2 i j Hi Hj) as [Va Vb].
    assert (Dec : In (i, j) l \/ ~ In (i, j) l).
    { destruct (in_dec (fun x y : nat * nat => ltac:(decide equality; apply Nat.eq_dec)) (i, j) l); auto. }
    split.
    + intros [E|H]; [|apply Va; assumption]. destruct Dec as [H|H]; [apply Va; assumption|].
      rewrite Vb by assumption. injection E as -> ->. rewrite V1 by lia. rewrite !Nat.eqb_refl. reflexivity.
    + intros H. rewrite Vb by (intros F; apply H; right; assumption). rewrite V1 by lia.
      destruct ((i =? r) && (j =? c)) eqn:E; [|reflexivity].
      apply andb_true_iff in E as [E1' E2']. apply Nat.eqb_eq in E1', E2'. subst. exfalso. apply H. left. reflexivity.
Qed.

Lemma to_dense_ok m n : nd_wf m -> nrows m = n -> ncols m = n ->
  exists d, nd_to_dense N w m = Ok d /\ is_mat N d n n (nd_elt m).
Proof.
  intros W Hr Hc. unfold nd_to_dense. rewrite Hr, Hc.
  destruct (new_mat_spec N (n0 N) n n) as (R0 & C0 & W0 & V0).
  destruct (to_dense_loop m (list_prod (seq 0 n) (seq 0 n)) n (new_mat (n0 N) n n)) as (d & E & R & C & W' & V); try assumption.
  { intros [a b] H. apply in_prod_iff in H as [H1 H2]. apply in_seq in H1, H2. cbn. lia. }
  exists d. split; [exact E|]. repeat split; try assumption.
  intros i j Hi Hj. apply V; try assumption. apply in_prod_iff. split; apply in_seq; lia.
Qed.
End ND.

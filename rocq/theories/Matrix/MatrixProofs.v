(** Proofs about the dense matrix model *)
From Coq Require Import List Arith Lia Bool Ring.
From Verif.Common Require Import Base.
From Verif.Matrix Require Import MatrixModel MatrixSpec.
Import ListNotations.

Section Cells.
Context {T : Type} (N : Num T).
Local Notation elt := (elt N).
Local Notation sum := (sum N).
Local Notation is_mat := (is_mat N).

Lemma read_ok (m : mat T) i j : wf m -> i < nrows m -> j < ncols m ->
  read m (ncols m * i + j) = Ok (elt m i j).
Proof.
  intros W Hi Hj. unfold read. rewrite (nth_error_nth_lt _ _ (n0 N)); [reflexivity|].
  rewrite W. apply rm_lt; assumption.
Qed.

Lemma modify_ok (m : mat T) i j f : wf m -> i < nrows m -> j < ncols m ->
  exists m', modify m (ncols m * i + j) f = Ok m' /\
    is_mat m' (nrows m) (ncols m)
      (fun i' j' => if (i' =? i) && (j' =? j) then f (elt m i j) else elt m i' j').
Proof.
  intros W Hi Hj. unfold modify. rewrite (nth_error_nth_lt _ _ (n0 N)) by (rewrite W; apply rm_lt; assumption).
  eexists. split; [reflexivity|]. split; [reflexivity|]. split; [reflexivity|]. split.
  - unfold wf; cbn [data nrows ncols]. rewrite upd_length. exact W.
  - intros i' j' Hi' Hj'. unfold MatrixSpec.elt at 1. cbn [data ncols].
    destruct ((i' =? i) && (j' =? j)) eqn:E.
    + apply andb_true_iff in E as [E1 E2]. apply Nat.eqb_eq in E1, E2. subst.
      rewrite nth_upd_same; [reflexivity|]. rewrite W; apply rm_lt; assumption.
    + rewrite nth_upd_other; [reflexivity|]. intros F.
      apply rm_inj in F as [F1 F2]; try assumption. subst.
      rewrite !Nat.eqb_refl in E. discriminate.
Qed.

Lemma in_range (m : mat T) r c : ((r <? nrows m) && (c <? ncols m)) = true <-> r < nrows m /\ c < ncols m.
Proof. rewrite andb_true_iff, !Nat.ltb_lt. reflexivity. Qed.
Lemma out_range (m : mat T) r c : ((r <? nrows m) && (c <? ncols m)) = false <-> ~ (r < nrows m /\ c < ncols m).
Proof. rewrite <- in_range. destruct (_ && _); split; congruence. Qed.

Lemma get_ok (m : mat T) i j : wf m -> i < nrows m -> j < ncols m -> get m i j = Ok (elt m i j).
Proof. intros. unfold get. rewrite (proj2 (in_range _ _ _)) by auto. apply read_ok; assumption. Qed.

Lemma get_err (m : mat T) i j : ~ (i < nrows m /\ j < ncols m) -> get m i j = Err.
Proof. intros H. unfold get. rewrite (proj2 (out_range _ _ _)) by auto. reflexivity. Qed.

Lemma is_mat_ext m nr nc f g : is_mat m nr nc f -> (forall i j, i < nr -> j < nc -> f i j = g i j) -> is_mat m nr nc g.
Proof.
  intros (A & B & C & D) H. repeat split; auto. intros. rewrite D by assumption. auto.
Qed.
Lemma is_mat_refl m : wf m -> is_mat m (nrows m) (ncols m) (elt m).
Proof. repeat split; auto. Qed.

(** a list laid out row by row is a matrix *)
Lemma nth_flat_rows (rows nc : nat) (f : nat -> nat -> T) (d : T) i j :
  i < rows -> j < nc -> nth (nc * i + j) (flat_map (fun r => map (f r) (seq 0 nc)) (seq 0 rows)) d = f i j.
Proof.
  intros Hi Hj.
  assert (G : forall k b, i < k -> nth (nc * i + j) (flat_map (fun r => map (f r) (seq 0 nc)) (seq b k)) d = f (b + i) j).
  { clear Hi rows. revert i. intros i k. revert i. induction k as [|k IH]; intros i b Hi; [lia|].
    cbn [seq flat_map]. destruct i as [|i].
    - rewrite Nat.mul_0_r, Nat.add_0_r, app_nth1 by (rewrite map_length, seq_length; lia).
      cbn [Nat.add]. rewrite (nth_indep _ d (f b 0)) by (rewrite map_length, seq_length; lia).
      rewrite map_nth, seq_nth by lia. reflexivity.
    - rewrite app_nth2 by (rewrite map_length, seq_length; nia).
      rewrite map_length, seq_length.
      replace (nc * S i + j - nc) with (nc * i + j) by nia.
      rewrite IH by lia. f_equal. lia. }
  apply (G rows 0 Hi).
Qed.
Lemma flat_rows_length rows nc (f : nat -> nat -> T) : length (flat_map (fun r => map (f r) (seq 0 nc)) (seq 0 rows)) = rows * nc.
Proof.
  generalize 0 at 2. induction rows; intros b; cbn [seq flat_map]; [reflexivity|].
  rewrite app_length, map_length, seq_length, IHrows. lia.
Qed.
Lemma is_mat_flat nr nc f :
  is_mat (mkMat nr nc (flat_map (fun r => map (f r) (seq 0 nc)) (seq 0 nr))) nr nc f.
Proof.
  repeat split.
  - unfold wf; cbn [data nrows ncols]. apply flat_rows_length.
  - intros. unfold MatrixSpec.elt. cbn [data ncols]. apply nth_flat_rows; assumption.
Qed.

(** ** constructors *)
Lemma new_mat_spec v nr nc : is_mat (new_mat v nr nc) nr nc (fun _ _ => v).
Proof.
  repeat split.
  - unfold wf. cbn. apply repeat_length.
  - intros. unfold MatrixSpec.elt. cbn. rewrite nth_repeat_lt || idtac.
    apply (repeat_spec (nr * nc)). apply nth_In. rewrite repeat_length. apply rm_lt; assumption.
Qed.

Lemma eye_spec n : is_mat (eye N n) n n (delta N).
Proof.
  repeat split.
  - unfold wf. cbn. rewrite map_length, seq_length. reflexivity.
  - intros i j Hi Hj. unfold MatrixSpec.elt, eye. cbn [data ncols].
    assert (L : n * i + j < n * n) by nia.
    match goal with |- context [nth _ (map ?f _) _] => set (g := f) end.
    rewrite (nth_indep _ (n0 N) (g 0)) by (rewrite map_length, seq_length; assumption).
    rewrite map_nth, seq_nth by assumption. unfold g. cbn [Nat.add].
    assert (E1 : (n * i + j) mod n = j).
    { rewrite Nat.add_comm, Nat.mul_comm, Nat.mod_add by lia. apply Nat.mod_small; assumption. }
    rewrite E1. replace (n * i + j - j) with (i * n) by nia. rewrite Nat.div_mul by lia. reflexivity.
Qed.

Lemma diag_loop_length (n : nat) (d : list T) b l :
  length (fold_left (fun v (p : nat * T) => upd v (fst p * (n + 1)) (snd p)) (combine (seq b (length d)) d) l) = length l.
Proof. revert b l; induction d; intros; cbn; [reflexivity|]. rewrite IHd, upd_length. reflexivity. Qed.

Lemma diag_loop_nth n (d : list T) b l k x : b + length d <= n -> length l = n * n ->
  nth k (fold_left (fun v (p : nat * T) => upd v (fst p * (n + 1)) (snd p)) (combine (seq b (length d)) d) l) x
  = if (k mod (n + 1) =? 0) && (b <=? k / (n + 1)) && (k / (n + 1) <? b + length d)
    then nth (k / (n + 1) - b) d x else nth k l x.
Proof.
  revert b l. induction d as [|y d IH]; intros b l Hb Hl; cbn [length seq combine fold_left].
  - destruct (_ && _ && _) eqn:E; [|reflexivity].
    apply andb_true_iff in E as [E1 E2]. apply andb_true_iff in E1 as [_ E1].
    apply Nat.leb_le in E1. apply Nat.ltb_lt in E2. lia.
  - cbn [length] in Hb. rewrite IH by (rewrite ?upd_length; lia). cbn [fst snd].
    pose proof (Nat.div_mod k (n + 1) ltac:(lia)) as D.
    set (q := k / (n + 1)) in *. set (r := k mod (n + 1)) in *.
    destruct (r =? 0) eqn:Er; cbn [andb].
    + apply Nat.eqb_eq in Er. rewrite Er in D.
      destruct (Nat.eq_dec q b) as [->|Hq].
      * rewrite (proj2 (Nat.leb_gt (S b) b)) by lia. rewrite Nat.leb_refl, (proj2 (Nat.ltb_lt b (b + S (length d)))) by lia.
        cbn [andb]. rewrite Nat.sub_diag. cbn [nth].
        replace k with (b * (n + 1)) by nia. apply nth_upd_same. rewrite Hl. nia.
      * rewrite nth_upd_other by nia.
        destruct (S b <=? q) eqn:E1; [apply Nat.leb_le in E1|apply Nat.leb_gt in E1].
        -- rewrite (proj2 (Nat.leb_le b q)) by lia. cbn [andb].
           replace (S b + length d) with (b + S (length d)) by lia.
           destruct (q <? b + S (length d)); [|reflexivity].
           replace (q - b) with (S (q - S b)) by lia. reflexivity.
        -- rewrite (proj2 (Nat.leb_gt b q)) by lia. reflexivity.
    + apply Nat.eqb_neq in Er. apply nth_upd_other.
      intros F. apply Er. subst r. rewrite <- F. apply Nat.mod_mul. lia.
Qed.

Lemma diag_spec (d : list T) : exists m, diag N d = Ok m /\
  is_mat m (length d) (length d) (fun i j => if i =? j then nth i d (n0 N) else n0 N).
Proof.
  unfold diag. unfold from_data.
  rewrite diag_loop_length, repeat_length, Nat.eqb_refl. eexists; split; [reflexivity|].
  set (n := length d).
  repeat split.
  - unfold wf; cbn [data nrows ncols]. unfold n. rewrite diag_loop_length, repeat_length. reflexivity.
  - intros i j Hi Hj. unfold MatrixSpec.elt; cbn [data ncols]. change (seq 0 n) with (seq 0 (length d)).
    rewrite diag_loop_nth by (rewrite ?repeat_length; fold n; lia). fold n.
    assert (Z : nth (n * i + j) (repeat (n0 N) (n * n)) (n0 N) = n0 N).
    { apply (repeat_spec (n * n)). apply nth_In. rewrite repeat_length. nia. }
    rewrite Z. cbn [Nat.add].
    pose proof (Nat.div_mod (n * i + j) (n + 1) ltac:(lia)) as D.
    pose proof (Nat.mod_upper_bound (n * i + j) (n + 1) ltac:(lia)) as U.
    set (q := (n * i + j) / (n + 1)) in *. set (r := (n * i + j) mod (n + 1)) in *.
    destruct (Nat.eqb_spec i j) as [->|Hij].
    + assert (Q : q = j) by (symmetry; apply (Nat.div_unique _ (n + 1) j 0); nia).
      assert (R : r = 0) by nia. rewrite Q, R. cbn [Nat.eqb andb Nat.leb]. 
      rewrite (proj2 (Nat.ltb_lt j n)) by assumption. rewrite Nat.sub_0_r. reflexivity.
    + destruct (Nat.eqb_spec r 0) as [R|]; [|reflexivity]. exfalso. apply Hij.
      (* n*i + j = q*(n+1): n*(i-q) = q - j, |q-j|<n *)
      assert (Hq : q < n) by nia. assert (E : n * i + j = n * q + q) by lia.
      apply rm_inj in E as [E1 E2]; lia.
Qed.

(** ** element-wise operations *)
Lemma zip_with_length (f : T -> T -> T) xs ys : length xs = length ys -> length (zip_with f xs ys) = length xs.
Proof. revert ys; induction xs; intros [|y ys] H; cbn in *; try lia. rewrite IHxs; lia. Qed.
Lemma zip_with_nth (f : T -> T -> T) xs ys k d : k < length xs -> length xs = length ys ->
  nth k (zip_with f xs ys) d = f (nth k xs d) (nth k ys d).
Proof.
  revert ys k; induction xs; intros [|y ys] [|k] H E; cbn in *; try lia; auto. apply IHxs; lia.
Qed.
Lemma zip_into_full (f : T -> T -> T) xs ys into : length xs = length ys -> length xs = length into ->
  zip_into f xs ys into = zip_with f xs ys.
Proof. revert ys into; induction xs; intros [|y ys] [|z into] H E; cbn in *; try lia; auto. rewrite IHxs; auto. Qed.

Lemma zip_mat (f : T -> T -> T) a b : wf a -> wf b -> nrows a = nrows b -> ncols a = ncols b ->
  is_mat (mkMat (nrows a) (ncols a) (zip_with f (data a) (data b))) (nrows a) (ncols a)
    (fun i j => f (elt a i j) (elt b i j)).
Proof.
  intros Wa Wb Hr Hc. assert (L : length (data a) = length (data b)) by (rewrite Wa, Wb; congruence).
  repeat split.
  - unfold wf; cbn [data nrows ncols]. rewrite zip_with_length; assumption.
  - intros i j Hi Hj. unfold MatrixSpec.elt. cbn [data ncols].
    rewrite zip_with_nth; [rewrite <- Hc; reflexivity| |assumption].
    rewrite Wa. apply rm_lt; assumption.
Qed.

Lemma map_mat (f : T -> T) a : wf a ->
  is_mat (mkMat (nrows a) (ncols a) (map f (data a))) (nrows a) (ncols a) (fun i j => f (elt a i j)).
Proof.
  intros Wa. repeat split.
  - unfold wf; cbn [data nrows ncols]. rewrite map_length. assumption.
  - intros i j Hi Hj. unfold MatrixSpec.elt. cbn [data ncols].
    rewrite (nth_indep _ _ (f (n0 N))) by (rewrite map_length, Wa; apply rm_lt; assumption).
    apply map_nth.
Qed.

Lemma sizes_eqb a b c d : (negb (a =? b) || negb (c =? d)) = false <-> a = b /\ c = d.
Proof. rewrite orb_false_iff, !negb_false_iff, !Nat.eqb_eq. reflexivity. Qed.
Lemma sizes_neqb a b c d : (negb (a =? b) || negb (c =? d)) = true <-> ~ (a = b /\ c = d).
Proof. rewrite <- sizes_eqb. destruct (_ || _); split; congruence. Qed.

(** ** concat_rows *)
Lemma concat_spec a b : wf a -> wf b -> ncols a = ncols b ->
  exists m, concat_rows a b = Ok m /\ is_mat m (nrows a + nrows b) (ncols a)
    (fun i j => if i <? nrows a then elt a i j else elt b (i - nrows a) j).
Proof.
  intros Wa Wb Hc. unfold concat_rows. rewrite Hc, Nat.eqb_refl. cbn [negb]. eexists; split; [reflexivity|].
  repeat split.
  - unfold wf; cbn [data nrows ncols]. rewrite app_length, Wa, Wb, Hc. lia.
  - intros i j Hi Hj. unfold MatrixSpec.elt. cbn [data ncols]. rewrite Hc.
    destruct (Nat.ltb_spec i (nrows a)).
    + apply app_nth1. rewrite Wa, Hc. apply rm_lt; assumption.
    + rewrite app_nth2 by (rewrite Wa, Hc; nia). rewrite Wa, Hc. f_equal. nia.
Qed.

(** ** dense product *)
Lemma firstn_skipn_nth (l : list T) a n k d : k < n -> nth k (firstn n (skipn a l)) d = nth (a + k) l d.
Proof.
  intros Hk. rewrite <- (firstn_skipn a l) at 2.
  destruct (le_lt_dec a (length l)).
  - rewrite app_nth2; rewrite firstn_length, Nat.min_l by assumption; [|lia].
    replace (a + k - a) with k by lia.
    generalize (skipn a l). intros l'. revert k Hk l'. induction n; intros k Hk l'; [lia|].
    destruct l', k; cbn; auto. apply IHn. lia.
  - rewrite skipn_all2 by lia. rewrite firstn_nil, app_nil_r, firstn_all2 by lia.
    rewrite !nth_overflow; cbn; auto; lia.
Qed.
Lemma skipn_nth (l : list T) a k d : nth k (skipn a l) d = nth (a + k) l d.
Proof. revert l; induction a; intros [|x l]; cbn; auto. destruct k; reflexivity. Qed.

Lemma fold_add_init xs a : (forall x y z, nadd N x (nadd N y z) = nadd N (nadd N x y) z) ->
  (forall x, nadd N (n0 N) x = x) -> (forall x, nadd N x (n0 N) = x) ->
  fold_left (nadd N) xs a = nadd N a (fold_left (nadd N) xs (n0 N)).
Proof.
  intros As L R. revert a. induction xs as [|x xs IH]; intros a; cbn.
  - rewrite R. reflexivity.
  - rewrite (IH (nadd N a x)), (IH (nadd N (n0 N) x)), L. symmetry. apply As.
Qed.

Lemma sum_ext f g n : (forall k, k < n -> f k = g k) -> sum n f = sum n g.
Proof. induction n; intros H; cbn; [reflexivity|]. rewrite IHn by (intros; apply H; lia). rewrite H by lia. reflexivity. Qed.

(** left fold over [0..n] is the sum; no algebraic law needed *)
Lemma fold_sum (f : nat -> T) n : fold_left (nadd N) (map f (seq 0 n)) (n0 N) = sum n f.
Proof.
  induction n; [reflexivity|]. rewrite seq_S, map_app, fold_left_app, IHn. reflexivity.
Qed.

Lemma zip_with_map (f : T -> T -> T) (g h : nat -> T) n b :
  zip_with f (map g (seq b n)) (map h (seq b n)) = map (fun k => f (g k) (h k)) (seq b n).
Proof. revert b; induction n; intros; cbn; [reflexivity|]. rewrite IHn. reflexivity. Qed.

Lemma list_as_map (l : list T) d : l = map (fun k => nth k l d) (seq 0 (length l)).
Proof.
  induction l as [|x l IH]; [reflexivity|]. cbn [length seq map nth]. f_equal.
  rewrite <- seq_shift, map_map. exact IH.
Qed.
Lemma map_ext_seq (f g : nat -> T) b n : (forall k, b <= k < b + n -> f k = g k) -> map f (seq b n) = map g (seq b n).
Proof. intros H. apply map_ext_in. intros k Hk. apply in_seq in Hk. apply H. lia. Qed.

Lemma step_count m nc c : 0 < m -> c < nc -> (m * nc - c + nc - 1) / nc = m.
Proof. intros. symmetry. apply (Nat.div_unique _ nc m (nc - 1 - c)); [lia|]. destruct m; nia. Qed.

Lemma row_col_spec (row : list T) (b : mat T) c : wf b -> c < ncols b -> length row = nrows b ->
  row_col N row (data b) c (ncols b) = sum (nrows b) (fun k => nmul N (nth k row (n0 N)) (elt b k c)).
Proof.
  intros Wb Hc Hl. unfold row_col, step_by.
  rewrite skipn_length, Wb.
  assert (E : (nrows b * ncols b - c + ncols b - 1) / ncols b = nrows b \/ nrows b = 0).
  { destruct (nrows b); [right; reflexivity|left]. apply step_count; lia. }
  destruct E as [E|E].
  - rewrite E. rewrite (list_as_map row (n0 N)) at 1. rewrite Hl, zip_with_map, fold_sum.
    apply sum_ext. intros k Hk. f_equal.
    rewrite skipn_nth. unfold MatrixSpec.elt. f_equal. lia.
  - rewrite E in *. destruct row; [|discriminate]. cbn. reflexivity.
Qed.

Lemma chunks_length n (l : list T) k : 0 < n -> length l = k * n -> length (chunks_exact n l) = k.
Proof. intros Hn Hl. unfold chunks_exact. rewrite map_length, seq_length, Hl. apply Nat.div_mul. lia. Qed.

Lemma flat_map_combine {A B C} (F : A -> B -> list C) (f : nat -> A) (g : nat -> B) n b :
  flat_map (fun p => F (fst p) (snd p)) (combine (map f (seq b n)) (map g (seq b n))) = flat_map (fun i => F (f i) (g i)) (seq b n).
Proof. revert b; induction n; intros; cbn; [reflexivity|]. rewrite IHn. reflexivity. Qed.

Lemma flat_map_ext_seq {C} (f g : nat -> list C) b n : (forall i, b <= i < b + n -> f i = g i) -> flat_map f (seq b n) = flat_map g (seq b n).
Proof.
  revert b; induction n; intros b H; cbn; [reflexivity|]. rewrite H by lia. rewrite IHn; [reflexivity|]. intros; apply H; lia.
Qed.

Lemma prod_into_spec a b into : wf a -> wf b -> wf into ->
  ncols a = nrows b -> nrows into = nrows a -> ncols into = ncols b -> 0 < ncols a -> 0 < ncols b ->
  exists m, prod_into N a b into = Ok m /\
    is_mat m (nrows a) (ncols b) (fun i j => sum (ncols a) (fun k => nmul N (elt a i k) (elt b k j))).
Proof.
  intros Wa Wb Wi H1 H2 H3 P1 P2. unfold prod_into.
  rewrite H1, H2, H3, !Nat.eqb_refl. cbn [negb orb].
  rewrite <- H1. rewrite (proj2 (Nat.eqb_neq (ncols a) 0)), (proj2 (Nat.eqb_neq (ncols b) 0)) by lia.
  cbn [orb]. eexists; split; [reflexivity|].
  set (cl := map _ (data into)).
  assert (Lc : length cl = nrows a * ncols b) by (unfold cl; rewrite map_length, Wi, H2, H3; reflexivity).
  unfold chunks_exact. rewrite Wa, Lc, !Nat.div_mul by lia.
  rewrite (flat_map_combine (fun r o => map (fun c => row_col N r (data b) c (ncols b)) (seq 0 (length o)))).
  rewrite (flat_map_ext_seq _ (fun i => map (fun j => sum (ncols a) (fun k => nmul N (elt a i k) (elt b k j))) (seq 0 (ncols b)))).
  2:{ intros i Hi.
      assert (Lo : length (firstn (ncols b) (skipn (i * ncols b) cl)) = ncols b).
      { rewrite firstn_length, skipn_length, Lc. apply Nat.min_l. nia. }
      rewrite Lo. apply map_ext_in. intros j Hj. apply in_seq in Hj.
      rewrite row_col_spec; [|assumption|lia|].
      - rewrite H1. apply sum_ext. intros k Hk. f_equal.
        rewrite firstn_skipn_nth by lia. unfold MatrixSpec.elt. f_equal. lia.
      - rewrite firstn_length, skipn_length, Wa, <- H1. apply Nat.min_l. nia. }
  rewrite flat_rows_length, skipn_all2 by lia. rewrite app_nil_r. apply is_mat_flat.
Qed.
End Cells.

(** C07–C13: dense matrices, products, band solver, Gauss-Seidel, compact band storage. *)
From Coq Require Import List Arith Lia Bool Ring Reals Lra ZArith.
From Coq Require PrimFloat.
From Verif.Common Require Import Base.
From Verif.Matrix Require Import MatrixModel MatrixSpec MatrixProofs GaussProofs NDiagProofs GaussSeidel.
Import ListNotations.

(** ** C07: cells *)

(** Everything the constructors build has consistent storage. *)
Theorem C07_constructors : forall T (N : Num T),
  (forall v nr nc, is_mat N (new_mat v nr nc) nr nc (fun _ _ => v)) /\
  (forall n, is_mat N (eye N n) n n (fun i j => if i =? j then n1 N else n0 N)) /\
  (forall d, exists m, diag N d = Ok m /\
     is_mat N m (length d) (length d) (fun i j => if i =? j then nth i d (n0 N) else n0 N)) /\
  (forall nr nc d, (length d = nr * nc -> exists m, from_data nr nc d = Ok m /\
       is_mat N m nr nc (fun i j => nth (i * nc + j) d (n0 N)))
     /\ (length d <> nr * nc -> from_data nr nc d = Panic)).
Proof.
  intros T N. split; [apply new_mat_spec|]. split; [apply eye_spec|]. split; [apply diag_spec|].
  intros nr nc d. split.
  - intros H. unfold from_data. rewrite H, Nat.eqb_refl. eexists; split; [reflexivity|].
    repeat split; [exact H|]. intros i j _ _. unfold elt. cbn. f_equal. lia.
  - intros H. unfold from_data. rewrite (proj2 (Nat.eqb_neq _ _)) by congruence. reflexivity.
Qed.

(** Writing a cell changes that cell only; reads and writes out of range are errors. *)
Theorem C07_cells : forall T (N : Num T) (m : mat T) r c v, wf m ->
  (r < nrows m /\ c < ncols m ->
     exists old, get m r c = Ok old /\
     forall op new, (op = set m r c v /\ new = v) \/ (op = add_to_element N m r c v /\ new = nadd N old v)
                 \/ (op = scale_element N m r c v /\ new = nmul N old v) ->
       exists m', op = Ok m' /\ wf m' /\ nrows m' = nrows m /\ ncols m' = ncols m /\
         get m' r c = Ok new /\ (forall r' c', (r', c') <> (r, c) -> get m' r' c' = get m r' c')) /\
  (~ (r < nrows m /\ c < ncols m) ->
     get m r c = Err /\ set m r c v = Err /\ add_to_element N m r c v = Err /\ scale_element N m r c v = Err).
Proof.
  intros T N m r c v W. split.
  - intros [Hr Hc]. exists (elt N m r c). split; [apply get_ok; assumption|].
    assert (G : forall f, exists m', modify m (ncols m * r + c) f = Ok m' /\ wf m' /\ nrows m' = nrows m /\ ncols m' = ncols m /\
         get m' r c = Ok (f (elt N m r c)) /\ (forall r' c', (r', c') <> (r, c) -> get m' r' c' = get m r' c')).
    { intros f. destruct (modify_ok N m r c f W Hr Hc) as (m' & E & R & C & W' & V).
      exists m'. repeat (split; [assumption|]). split.
      - rewrite (get_ok N) by (try assumption; lia). rewrite V by assumption. rewrite !Nat.eqb_refl. reflexivity.
      - intros r' c' Hne. destruct (le_lt_dec (nrows m) r') as [H|H]; [rewrite !get_err by lia; reflexivity|].
        destruct (le_lt_dec (ncols m) c') as [H'|H']; [rewrite !get_err by lia; reflexivity|].
        rewrite !(get_ok N) by (try assumption; lia). rewrite V by assumption.
        destruct ((r' =? r) && (c' =? c)) eqn:E'; [|reflexivity].
        apply andb_true_iff in E' as [E1 E2]. apply Nat.eqb_eq in E1, E2. congruence. }
    intros op new [[-> ->]|[[-> ->]|[-> ->]]].
    + unfold set. rewrite (proj2 (in_range m r c)) by auto. apply (G (fun _ => v)).
    + unfold add_to_element, index. rewrite (proj2 (in_range m r c)) by auto. apply (G (fun x => nadd N x v)).
    + unfold scale_element, index. rewrite (proj2 (in_range m r c)) by auto. apply (G (fun x => nmul N x v)).
  - intros H. unfold get, set, add_to_element, scale_element. rewrite (proj2 (out_range m r c) H). auto.
Qed.

Definition Znum : Num Z := mkNum Z 0%Z 1%Z Z.add Z.mul Z.sub Z.opp Z.div (fun x => x).
Definition ex_a : mat Z := mkMat 2 3 [1; 2; 3; 4; 5; 6]%Z.
Definition ex_b : mat Z := mkMat 3 2 [1; 0; 0; 1; 2; 2]%Z.
Example C07_nontrivial : wf ex_a /\ get ex_a 1 0 = Ok 4%Z /\ get ex_a 0 3 = Err /\
  set ex_a 1 0 9%Z = Ok (mkMat 2 3 [1; 2; 3; 9; 5; 6]%Z).
Proof. repeat split. Qed.

(** ** C08: dense arithmetic *)

(** A matrix is determined by its sizes and elements. *)
Lemma is_mat_unique T (N : Num T) m m' nr nc f : is_mat N m nr nc f -> is_mat N m' nr nc f -> m = m'.
Proof.
  intros (R & C & W & V) (R' & C' & W' & V'). destruct m as [r c d], m' as [r' c' d']. cbn in *. subst r c r' c'. f_equal.
  unfold wf in *. cbn in *. apply (nth_ext _ _ (n0 N) (n0 N)); [congruence|]. intros k Hk. rewrite W in Hk.
  assert (nc <> 0) by (intros ->; lia).
  specialize (V (k / nc) (k mod nc)). specialize (V' (k / nc) (k mod nc)). unfold elt in *. cbn in *.
  rewrite <- (rm_split nc k) in * by assumption.
  assert (k / nc < nr) by (apply Nat.div_lt_upper_bound; lia). assert (k mod nc < nc) by (apply Nat.mod_upper_bound; assumption).
  rewrite V, V' by assumption. reflexivity.
Qed.

(** Sums, differences, scalings and divisions act element by element; the products have
    the usual elements; mismatched sizes are refused. *)
Theorem C08_elements : forall T (N : Num T) (a b into : mat T) s, wf a -> wf b -> wf into ->
  (nrows a = nrows b /\ ncols a = ncols b ->
     (exists m, op_add N a b = Ok m /\ is_mat N m (nrows a) (ncols a) (fun i j => nadd N (elt N a i j) (elt N b i j))) /\
     (exists m, op_sub N a b = Ok m /\ is_mat N m (nrows a) (ncols a) (fun i j => nsub N (elt N a i j) (elt N b i j))) /\
     (nrows into = nrows a /\ ncols into = ncols a -> add_into N a b into = op_add N a b /\ sub_into N a b into = op_sub N a b)) /\
  (~ (nrows a = nrows b /\ ncols a = ncols b) ->
     op_add N a b = Panic /\ op_sub N a b = Panic /\ add_into N a b into = Err /\ sub_into N a b into = Err) /\
  is_mat N (op_scale N a s) (nrows a) (ncols a) (fun i j => nmul N (elt N a i j) s) /\
  is_mat N (op_div N a s) (nrows a) (ncols a) (fun i j => ndiv N (elt N a i j) s) /\
  (nrows into = nrows a /\ ncols into = ncols a -> scale_into N a s into = Ok (op_scale N a s)) /\
  (~ (nrows into = nrows a /\ ncols into = ncols a) -> scale_into N a s into = Err) /\
  (ncols a = nrows b -> 0 < ncols a -> 0 < ncols b ->
     (exists m, op_mul N a b = Ok m /\ is_mat N m (nrows a) (ncols b) (fun i j => sum N (ncols a) (fun k => nmul N (elt N a i k) (elt N b k j)))) /\
     (nrows into = nrows a /\ ncols into = ncols b -> prod_into N a b into = op_mul N a b) /\
     (~ (nrows into = nrows a /\ ncols into = ncols b) -> prod_into N a b into = Err)) /\
  (ncols a <> nrows b -> op_mul N a b = Panic /\ prod_into N a b into = Err).
Proof.
  intros T N a b into s Wa Wb Wi. split; [|split; [|split; [|split; [|split; [|split; [|split]]]]]].
  - intros [Hr Hc]. assert (E : (negb (ncols a =? ncols b) || negb (nrows a =? nrows b)) = false) by (apply sizes_eqb; auto).
    unfold op_add, op_sub, add_into, sub_into. rewrite E.
    assert (L : length (data a) = length (data b)) by (rewrite Wa, Wb; congruence).
    repeat split.
    + eexists; split; [reflexivity|]. apply zip_mat; assumption.
    + eexists; split; [reflexivity|]. apply zip_mat; assumption.
    + destruct H as [H1 H2]. rewrite H1, H2, zip_into_full; [reflexivity|assumption|rewrite Wa, Wi; congruence].
    + destruct H as [H1 H2]. rewrite H1, H2, zip_into_full; [reflexivity|assumption|rewrite Wa, Wi; congruence].
  - intros H. assert (E : (negb (ncols a =? ncols b) || negb (nrows a =? nrows b)) = true) by (apply sizes_neqb; tauto).
    unfold op_add, op_sub, add_into, sub_into. rewrite E. auto.
  - apply (map_mat N (fun x => nmul N x s)); assumption.
  - apply (map_mat N (fun x => ndiv N x s)); assumption.
  - intros [H1 H2]. unfold scale_into, op_scale. rewrite H1, H2, !Nat.eqb_refl. cbn [negb orb]. f_equal. f_equal.
    assert (L : length (data a) = length (data into)) by (rewrite Wa, Wi; congruence).
    revert L. generalize (data a) (data into). induction l; intros [|y l']; cbn; intros L; try lia; auto. rewrite IHl by lia. reflexivity.
  - intros H. unfold scale_into. replace (negb (ncols a =? ncols into) || negb (nrows a =? nrows into)) with true; [reflexivity|].
    symmetry. apply sizes_neqb. intros [? ?]. apply H. auto.
  - intros H P1 P2.
    assert (G : forall i, wf i -> nrows i = nrows a -> ncols i = ncols b -> exists m, prod_into N a b i = Ok m /\
        is_mat N m (nrows a) (ncols b) (fun i j => sum N (ncols a) (fun k => nmul N (elt N a i k) (elt N b k j)))).
    { intros i Wi' R C. apply prod_into_spec; assumption. }
    destruct (new_mat_spec N (n0 N) (nrows a) (ncols b)) as (R0 & C0 & W0 & _).
    destruct (G _ W0 R0 C0) as (m & E & M).
    split; [exists m; split; [|exact M]; unfold op_mul; rewrite E; reflexivity|]. split.
    + intros [H1 H2]. destruct (G into Wi H1 H2) as (m' & E' & M'). unfold op_mul. rewrite E, E'. f_equal. apply (is_mat_unique T N _ _ _ _ _ M' M).
    + intros H'. unfold prod_into. rewrite H, Nat.eqb_refl. cbn [negb].
      rewrite (proj2 (sizes_neqb (nrows into) (nrows a) (ncols into) (ncols b))) by tauto. reflexivity.
  - intros H. unfold op_mul, prod_into. rewrite (proj2 (Nat.eqb_neq (ncols a) (nrows b))) by assumption. auto.
Qed.

Section Laws.
Context {T : Type} (N : Num T).
Hypothesis RT : ring_theory (n0 N) (n1 N) (nadd N) (nmul N) (nsub N) (nopp N) eq.
Add Ring NRing3 : RT.

(** The identity is neutral, products distribute over sums and are associative — as
    equalities of the resulting matrices. *)
Theorem C08_identity : forall a : mat T, wf a -> 0 < nrows a -> 0 < ncols a ->
  op_mul N a (eye N (ncols a)) = Ok a /\ op_mul N (eye N (nrows a)) a = Ok a.
Proof.
  intros a W P1 P2. destruct (eye_spec N (ncols a)) as (R1 & C1 & W1 & V1). destruct (eye_spec N (nrows a)) as (R2 & C2 & W2 & V2).
  destruct (C08_elements T N a (eye N (ncols a)) a (n0 N) W W1 W) as (_ & _ & _ & _ & _ & _ & H & _).
  destruct (C08_elements T N (eye N (nrows a)) a a (n0 N) W2 W W) as (_ & _ & _ & _ & _ & _ & H' & _).
  destruct H as [(m & E & M) _]; try congruence; try lia.
  destruct H' as [(m' & E' & M') _]; try congruence; try lia.
  rewrite E, E'. split; f_equal.
  - apply (is_mat_unique T N _ _ (nrows a) (ncols a) (elt N a)); [|apply is_mat_refl; assumption]. rewrite C1 in M.
    eapply is_mat_ext; [exact M|]. cbn beta. intros i j Hi Hj.
    rewrite (sum_ext N _ (fun k => nmul N (elt N a i k) (delta N k j))) by (intros; rewrite V1 by assumption; reflexivity).
    apply (sum_eye_r N RT). assumption.
  - apply (is_mat_unique T N _ _ (nrows a) (ncols a) (elt N a)); [|apply is_mat_refl; assumption]. rewrite R2, C2 in M'.
    eapply is_mat_ext; [exact M'|]. cbn beta. intros i j Hi Hj.
    rewrite (sum_ext N _ (fun k => nmul N (delta N i k) (elt N a k j))) by (intros; rewrite V2 by assumption; reflexivity).
    apply (sum_eye_l N RT). assumption.
Qed.

Lemma sum_swap n m (f : nat -> nat -> T) : sum N n (fun i => sum N m (fun j => f i j)) = sum N m (fun j => sum N n (fun i => f i j)).
Proof.
  induction n; cbn [sum].
  - symmetry. apply (sum_zero N RT). reflexivity.
  - rewrite IHn, <- (sum_plus N RT). reflexivity.
Qed.

Theorem C08_prod_assoc : forall a b c : mat T, wf a -> wf b -> wf c -> ncols a = nrows b -> ncols b = nrows c ->
  0 < ncols a -> 0 < ncols b -> 0 < ncols c ->
  exists ab bc abc, op_mul N a b = Ok ab /\ op_mul N b c = Ok bc /\ op_mul N ab c = Ok abc /\ op_mul N a bc = Ok abc.
Proof.
  intros a b c Wa Wb Wc H1 H2 P1 P2 P3.
  assert (G : forall x y : mat T, wf x -> wf y -> ncols x = nrows y -> 0 < ncols x -> 0 < ncols y ->
     exists m, op_mul N x y = Ok m /\ is_mat N m (nrows x) (ncols y) (fun i j => sum N (ncols x) (fun k => nmul N (elt N x i k) (elt N y k j)))).
  { intros x y Wx Wy H Px Py. destruct (C08_elements T N x y x (n0 N) Wx Wy Wx) as (_ & _ & _ & _ & _ & _ & K & _). apply K; assumption. }
  destruct (G a b) as (ab & E1 & R1 & C1 & W1 & V1); try assumption.
  destruct (G b c) as (bc & E2 & R2 & C2 & W2 & V2); try assumption.
  destruct (G ab c) as (l & E3 & M3); try assumption; try congruence; try lia.
  destruct (G a bc) as (r & E4 & M4); try assumption; try congruence; try lia.
  exists ab, bc, l. repeat (split; [assumption|]). rewrite E4. f_equal.
  rewrite R1, C1 in M3. rewrite C2 in M4.
  refine (is_mat_unique T N _ _ _ _ _ M4 (is_mat_ext N _ _ _ _ _ M3 _)). cbn beta. intros i j Hi Hj.
  rewrite (sum_ext N _ (fun k => sum N (ncols a) (fun t => nmul N (nmul N (elt N a i t) (elt N b t k)) (elt N c k j)))).
  - rewrite sum_swap. apply sum_ext. intros t Ht. rewrite V2 by lia. rewrite <- (sum_scale N RT). apply sum_ext. intros k Hk. ring.
  - intros k Hk. rewrite V1 by assumption.
    transitivity (nmul N (elt N c k j) (sum N (ncols a) (fun t => nmul N (elt N a i t) (elt N b t k)))); [ring|].
    rewrite <- (sum_scale N RT). apply sum_ext. intros; ring.
Qed.

Theorem C08_distributes : forall a b c bc : mat T, wf a -> wf b -> wf c -> ncols a = nrows b -> 0 < ncols a -> 0 < ncols b ->
  op_add N b c = Ok bc ->
  exists ab ac m, op_mul N a b = Ok ab /\ op_mul N a c = Ok ac /\ op_mul N a bc = Ok m /\ op_add N ab ac = Ok m.
Proof.
  intros a b c bc Wa Wb Wc H P1 P2 E.
  assert (S : nrows b = nrows c /\ ncols b = ncols c).
  { unfold op_add in E. destruct (_ || _) eqn:F; [discriminate|]. apply sizes_eqb in F. tauto. }
  destruct S as [S1 S2].
  destruct (C08_elements T N b c b (n0 N) Wb Wc Wb) as (K & _). destruct (K (conj S1 S2)) as ((bc' & E' & Rbc & Cbc & Wbc & Vbc) & _).
  rewrite E in E'. injection E' as <-.
  assert (G : forall x y : mat T, wf x -> wf y -> ncols x = nrows y -> 0 < ncols x -> 0 < ncols y ->
     exists m, op_mul N x y = Ok m /\ is_mat N m (nrows x) (ncols y) (fun i j => sum N (ncols x) (fun k => nmul N (elt N x i k) (elt N y k j)))).
  { intros x y Wx Wy Hxy Px Py. destruct (C08_elements T N x y x (n0 N) Wx Wy Wx) as (_ & _ & _ & _ & _ & _ & K' & _). apply K'; assumption. }
  destruct (G a b) as (ab & E1 & M1); try assumption.
  destruct (G a c) as (ac & E2 & M2); try assumption; try congruence; try lia.
  destruct (G a bc) as (m & E3 & M3); try assumption; try congruence; try lia.
  exists ab, ac, m. repeat (split; [assumption|]).
  pose proof M1 as (R1 & C1 & W1 & V1). pose proof M2 as (R2 & C2 & W2 & V2).
  destruct (C08_elements T N ab ac ab (n0 N) W1 W2 W1) as (K2 & _). destruct K2 as ((m' & E4 & M4) & _); [split; congruence|].
  rewrite E4. f_equal. rewrite R1, C1 in M4. rewrite Cbc in M3.
  refine (is_mat_unique T N _ _ _ _ _ M4 (is_mat_ext N _ _ _ _ _ M3 _)). cbn beta. intros i j Hi Hj.
  rewrite V1, V2 by (try assumption; congruence). rewrite <- (sum_plus N RT). apply sum_ext. intros k Hk.
  rewrite Vbc by lia. ring.
Qed.
End Laws.

(** Not every pair of matrices with matching sizes can be multiplied: with no columns the
    product panics instead of giving the (empty or zero) matrix. *)
Theorem C08_empty_product_refuted : exists a b : mat Z, wf a /\ wf b /\ ncols a = nrows b /\ op_mul Znum a b = Panic.
Proof. exists (empty_mat), (empty_mat). repeat split. Qed.
(** The destination's size is not checked by [add_into]: the sum is silently truncated. *)
Theorem C08_add_into_size_refuted : exists a b into m : mat Z, wf a /\ wf b /\ wf into /\
  add_into Znum a b into = Ok m /\ nrows m <> nrows a.
Proof. exists (mkMat 2 1 [1; 2]%Z), (mkMat 2 1 [10; 20]%Z), (mkMat 1 1 [0]%Z), (mkMat 1 1 [11]%Z). repeat split. cbn. lia. Qed.

Example C08_nontrivial : op_mul Znum ex_a ex_b = Ok (mkMat 2 2 [7; 8; 16; 17]%Z) /\ wf ex_a /\ wf ex_b.
Proof. repeat split. Qed.

(** ** C09: the banded product is the product *)
Lemma half_width s n : 2 * s + 1 <= n -> s <= one_sided n.
Proof. intros H. unfold one_sided. apply Nat.div_le_lower_bound; lia. Qed.
Theorem C09_banded_product : forall T (N : Num T) (a b into : mat T) n s,
  ring_theory (n0 N) (n1 N) (nadd N) (nmul N) (nsub N) (nopp N) eq ->
  wf a -> wf b -> wf into -> 2 * s + 1 <= n -> 0 < ncols a -> 0 < ncols b -> banded N s a ->
  prod_n_diag_into N a b n into = prod_into N a b into /\
  (ncols a = nrows b -> from_prod_n_diag N a b n = op_mul N a b).
Proof.
  intros T N a b into n s RT Wa Wb Wi Pn P1 P2 B0. pose proof (half_width s n Pn) as Hs.
  assert (B : banded N (one_sided n) a) by (intros i j Hi Hj H; apply B0; lia). assert (Pn' : 0 < n) by lia.
  assert (G : forall i, wf i -> prod_n_diag_into N a b n i = prod_into N a b i).
  { intros i Wi'. destruct (Nat.eq_dec (ncols a) (nrows b)) as [H|H].
    - destruct (Nat.eq_dec (nrows i) (nrows a)) as [R|R].
      + destruct (Nat.eq_dec (ncols i) (ncols b)) as [C|C].
        * destruct (prod_n_diag_spec N RT a b n i) as (m & E & M); try assumption.
          destruct (prod_into_spec N a b i) as (m' & E' & M'); try assumption.
          rewrite E, E'. f_equal. apply (is_mat_unique T N _ _ _ _ _ M M').
        * unfold prod_n_diag_into, prod_into. rewrite (proj2 (sizes_neqb (nrows i) (nrows a) (ncols i) (ncols b))) by tauto.
          reflexivity.
      + unfold prod_n_diag_into, prod_into. rewrite (proj2 (sizes_neqb (nrows i) (nrows a) (ncols i) (ncols b))) by tauto.
        reflexivity.
    - unfold prod_n_diag_into, prod_into. rewrite (proj2 (Nat.eqb_neq _ _)) by assumption. reflexivity. }
  split; [apply G; assumption|]. intros H. unfold from_prod_n_diag.
  destruct (new_mat_spec N (n0 N) (nrows a) (ncols b)) as (R0 & C0 & W0 & _).
  rewrite G by assumption. unfold op_mul.
  destruct (prod_into_spec N a b (new_mat (n0 N) (nrows a) (ncols b))) as (m & E & _); try assumption. rewrite E. reflexivity.
Qed.

Example C09_nontrivial :
  let a := mkMat 3 3 [2; 1; 0; 1; 2; 1; 0; 1; 2]%Z in let b := mkMat 3 1 [1; 10; 100]%Z in
  banded Znum 1 a /\ prod_n_diag_into Znum a b 3 (mkMat 3 1 [7; 7; 7]%Z) = Ok (mkMat 3 1 [12; 121; 210]%Z).
Proof.
  cbn zeta. split; [|reflexivity]. intros i j Hi Hj H. cbn in Hi, Hj.
  destruct i as [|[|[|i]]], j as [|[|[|j]]]; try lia; reflexivity.
Qed.

(** With IEEE floats the ring law [x * 0 = 0] fails for infinities, and the destination is
    "cleared" by multiplying it by zero: an infinite (or NaN) old value in the destination
    poisons the banded product, although the plain product is right. *)
Definition Fnum : Num PrimFloat.float :=
  mkNum _ PrimFloat.zero PrimFloat.one PrimFloat.add PrimFloat.mul PrimFloat.sub PrimFloat.opp PrimFloat.div (PrimFloat.div PrimFloat.one).
Theorem C09_dirty_destination_refuted : exists a b into m m' : mat PrimFloat.float,
  wf a /\ wf b /\ wf into /\ prod_into Fnum a b into = Ok m /\ prod_n_diag_into Fnum a b 3 into = Ok m' /\
  data m = [PrimFloat.one] /\ map PrimFloat.is_nan (data m') = [true].
Proof.
  exists (mkMat 1 1 [PrimFloat.one]), (mkMat 1 1 [PrimFloat.one]), (mkMat 1 1 [PrimFloat.infinity]).
  eexists. eexists. repeat split; vm_compute; reflexivity.
Qed.

(** ** C10: banded Gaussian elimination *)

(** If the solver reports success, its answer satisfies every equation of the original
    system, and is the only solution.  [tiny]/[big] are the comparisons with the
    threshold 1e-26; the theorem is for the idealised threshold 0: a value that is not
    [tiny] has a reciprocal and a value that is not [big] is zero.  (Missing for the full
    statement: entries strictly between 0 and 1e-26, which the code treats as zero.) *)
Theorem C10_gaussian_partial : forall T (N : Num T) (tiny big : T -> bool),
  ring_theory (n0 N) (n1 N) (nadd N) (nmul N) (nsub N) (nopp N) eq ->
  (forall x, big x = false -> x = n0 N) ->
  (forall x, tiny x = false -> nmul N x (ndiv N (n1 N) x) = n1 N) ->
  forall a b n s, wf a -> wf b -> nrows a = ncols a -> nrows b = nrows a -> 2 * s + 1 <= n -> banded N s a ->
  n_diag_gaussian N tiny big a b n = Err \/
  exists x, n_diag_gaussian N tiny big a b n = Ok x /\ wf x /\ nrows x = nrows b /\ ncols x = ncols b /\
    solves N a b (elt N x) /\
    (forall y, solves N a b y -> forall i k, i < nrows b -> k < ncols b -> y i k = elt N x i k).
Proof.
  intros T N tiny big RT Hb Ht a b n s Wa Wb Sq Hn Pn B0. pose proof (half_width s n Pn) as Hs.
  assert (B : banded N (one_sided n) a) by (intros i j Hi Hj H; apply B0; lia).
  destruct (gaussian_ok N RT (nrows a) (ncols b) (one_sided n) tiny big Hb Ht a b) with (nd := n) as [E|(a' & b' & E & D & S)].
  - unfold dims. repeat split; congruence || assumption.
  - intros i j Hi Hj H. apply B; [assumption|congruence|assumption].
  - reflexivity.
  - left. unfold n_diag_gaussian. rewrite E. reflexivity.
  - right. destruct D as (Ra & Ca & Wa' & Rb & Cb & Wb'). exists b'. unfold n_diag_gaussian. rewrite E. cbn [bind snd].
    split; [reflexivity|]. split; [assumption|]. split; [congruence|]. split; [congruence|]. split.
    + apply S. reflexivity.
    + intros y Hy i k Hi Hk. apply S; [assumption|congruence|assumption].
Qed.

Definition R_tiny (x : R) : bool := Rltb (Rabs x) (1 / 10 ^ 26).
Definition R_big (x : R) : bool := Rltb (1 / 10 ^ 26) (Rabs x).
Lemma R_tiny_0 : R_tiny 0 = true.
Proof. apply Rltb_true. rewrite Rabs_R0. apply Rdiv_lt_0_compat; [lra|]. apply pow_lt. lra. Qed.

(** Rows are not swapped: an invertible system can be refused. *)
Theorem C10_no_pivoting_refuted : exists a b : mat R, exists x, wf a /\ wf b /\ nrows a = ncols a /\ nrows b = nrows a /\
  banded Rnum 1 a /\ solves Rnum a b x /\ n_diag_gaussian Rnum R_tiny R_big a b 3 = Err.
Proof.
  exists (mkMat 2 2 [0; 1; 1; 0]%R), (mkMat 2 1 [3; 5]%R), (fun i _ => if i =? 0 then 5%R else 3%R).
  repeat split; try reflexivity.
  - intros i j Hi Hj. cbn in Hi, Hj. lia.
  - intros i k Hi Hk. cbn in Hi, Hk. destruct i as [|[|i]], k as [|k]; try lia; cbn; lra.
  - unfold n_diag_gaussian, mut_n_diag_gaussian. cbn [ncols go_down]. unfold read, index. cbn [data ncols nth_error Nat.mul Nat.add bind].
    rewrite R_tiny_0. reflexivity.
Qed.
(** The threshold is absolute: a perfectly conditioned system of small numbers is refused. *)
Theorem C10_small_numbers_refuted : exists a b : mat R, exists x, wf a /\ wf b /\ nrows a = ncols a /\ nrows b = nrows a /\
  solves Rnum a b x /\ n_diag_gaussian Rnum R_tiny R_big a b 3 = Err.
Proof.
  exists (mkMat 1 1 [1 / 10 ^ 27]%R), (mkMat 1 1 [1 / 10 ^ 27]%R), (fun _ _ => 1%R).
  repeat split; try reflexivity.
  - intros i k Hi Hk. cbn in Hi, Hk. destruct i as [|i], k as [|k]; try lia. cbn. lra.
  - unfold n_diag_gaussian, mut_n_diag_gaussian. cbn [ncols go_down]. unfold read, index. cbn [data ncols nth_error Nat.mul Nat.add bind].
    replace (R_tiny _) with true; [reflexivity|]. symmetry. apply Rltb_true.
    rewrite Rabs_right; [lra|]. apply Rle_ge. lra.
Qed.

(** The same with the real thresholds, for every run in which no tested number is both
    non-zero and at most 1e-26 (so that the test [|x| > 1e-26] decides [x <> 0]). *)
Definition R_nonzero (x : R) : bool := if Req_EM_T x 0 then false else true.
Theorem C10_gaussian_real_partial : forall (a b : mat R) n s x, wf a -> wf b -> nrows a = ncols a -> nrows b = nrows a ->
  2 * s + 1 <= n -> banded Rnum s a ->
  n_diag_gaussian Rnum R_tiny R_big a b n = n_diag_gaussian Rnum R_tiny R_nonzero a b n ->
  n_diag_gaussian Rnum R_tiny R_big a b n = Ok x ->
  solves Rnum a b (elt Rnum x).
Proof.
  intros a b n s x Wa Wb Sq Hb Pn B E1 E2. rewrite E1 in E2.
  destruct (C10_gaussian_partial R Rnum R_tiny R_nonzero) with (a := a) (b := b) (n := n) (s := s) as [F|(y & F & _ & _ & _ & S & _)]; try assumption.
  - exact RTheory.
  - intros v Hv. unfold R_nonzero in Hv. destruct (Req_EM_T v 0); [assumption|discriminate].
  - intros v Hv. apply Rltb_false in Hv. cbn. field. intros ->. rewrite Rabs_R0 in Hv.
    assert (0 < 1 / 10 ^ 26)%R by (apply Rdiv_lt_0_compat; [lra|apply pow_lt; lra]). lra.
  - congruence.
  - rewrite E2 in F. injection F as ->. exact S.
Qed.
(** Below the threshold the answer can be arbitrarily far from a solution. *)
Theorem C10_tiny_entries_refuted : forall M : R, exists a b x, wf a /\ wf b /\ nrows a = ncols a /\ nrows b = nrows a /\
  banded Rnum 1 a /\ n_diag_gaussian Rnum R_tiny R_big a b 3 = Ok x /\
  (sum Rnum 2 (fun j => elt Rnum a 1 j * elt Rnum x j 0)%R - elt Rnum b 1 0 = M)%R.
Proof.
  intros M. set (e := (1 / 10 ^ 26)%R).
  assert (Pe : (0 < e)%R) by (apply Rdiv_lt_0_compat; [lra|apply pow_lt; lra]).
  assert (P1 : (e < 1)%R) by (unfold e; lra).
  exists (mkMat 2 2 [1; 0; e; 1]%R), (mkMat 2 1 [M / e; 0]%R).
  assert (T1 : R_tiny 1 = false) by (apply Rltb_false; rewrite Rabs_R1; fold e; lra).
  assert (Be : R_big e = false) by (apply Rltb_false; rewrite Rabs_right by lra; fold e; lra).
  assert (B0 : R_big 0 = false) by (apply Rltb_false; rewrite Rabs_R0; fold e; lra).
  eexists. repeat split; try reflexivity.
  - intros i j Hi Hj. cbn in Hi, Hj. lia.
  - unfold n_diag_gaussian, mut_n_diag_gaussian. change (one_sided 3) with 1.
    cbn -[R_tiny R_big Rdiv e]. rewrite T1. cbn -[R_tiny R_big Rdiv e].
    rewrite Be. cbn -[R_tiny R_big Rdiv e]. rewrite T1. cbn -[R_tiny R_big Rdiv e].
    rewrite Rmult_0_l, B0. cbn -[R_tiny R_big Rdiv e]. reflexivity.
  - cbn -[e]. field. lra.
Qed.

(** Hypotheses of [C10_gaussian_partial] are met by exact rationals in a field where the
    tests are exact, e.g. the two-element field. *)
Definition Bnum : Num bool := mkNum bool false true xorb andb xorb (fun x => x) andb (fun x => x).
Example C10_nontrivial :
  ring_theory (n0 Bnum) (n1 Bnum) (nadd Bnum) (nmul Bnum) (nsub Bnum) (nopp Bnum) eq /\
  (forall x, (fun y => y) x = false -> x = n0 Bnum) /\
  (forall x, negb x = false -> nmul Bnum x (ndiv Bnum (n1 Bnum) x) = n1 Bnum) /\
  n_diag_gaussian Bnum negb (fun x => x) (mkMat 3 3 [true; true; false; true; false; true; false; true; false]) (mkMat 3 1 [true; false; true]) 3
    = Ok (mkMat 3 1 [false; true; false]) .
Proof.
  split. { constructor; cbn; intros; repeat match goal with b : bool |- _ => destruct b end; reflexivity. }
  split. { auto. } split. { intros [|] H; try discriminate; reflexivity. }
  vm_compute. reflexivity.
Qed.

(** ** C11: Gauss-Seidel *)

(** When success is reported, the vector left in [x] satisfies every equation up to the
    tolerance times the sum of the row's coefficients up to the diagonal.  (The vector left
    is the last-but-one iterate: the converged one is computed but not stored.) *)
Theorem C11_residual : forall (a b x x' : mat R) max_iter conv,
  wf a -> wf b -> ncols b = 1 -> ncols x = 1 -> wf x ->
  (forall i, i < nrows a -> elt Rnum a i i <> 0%R) ->
  gauss_seidel a b x max_iter conv = Ok (true, x') ->
  wf x' /\ nrows x' = nrows x /\ ncols x' = 1 /\
  forall i, i < nrows a ->
    (Rabs (sum Rnum (ncols a) (fun j => elt Rnum a i j * elt Rnum x' j 0) - elt Rnum b i 0)
     <= conv * sum Rnum (S i) (fun j => Rabs (elt Rnum a i j)))%R.
Proof.
  intros a b x x' it conv Wa Wb Cb Cx Wx D E. unfold gauss_seidel in E.
  destruct (negb (ncols a =? nrows a)) eqn:E1; [discriminate|]. apply negb_false_iff, Nat.eqb_eq in E1.
  destruct (negb (ncols a =? nrows b)) eqn:E2; [discriminate|]. apply negb_false_iff, Nat.eqb_eq in E2.
  destruct (negb (ncols a =? nrows x)) eqn:E3; [discriminate|]. apply negb_false_iff, Nat.eqb_eq in E3.
  destruct (_ && _); [discriminate|].
  destruct (gs_loop (ncols a) (data a) (data b) it conv (data x)) as [ok v] eqn:E4. injection E as -> <-.
  assert (Lx : length (data x) = ncols a) by (rewrite Wx, Cx; lia).
  assert (Lv : length v = ncols a).
  { pose proof (gs_loop_length (ncols a) (data a) (data b) it conv (data x) Lx) as L. rewrite E4 in L. exact L. }
  assert (D' : forall i, i < ncols a -> at_ (data a) (ncols a * i + i) <> 0%R).
  { intros i Hi. apply (D i). congruence. }
  split; [unfold wf; cbn; rewrite Cx; lia|]. split; [reflexivity|]. split; [exact Cx|].
  intros i Hi. pose proof (gs_loop_ok (ncols a) (data a) (data b) it conv (data x) v E4) as M.
  pose proof (residual (ncols a) (data a) (data b) D' v conv i ltac:(congruence)) as Rs.
  unfold elt. cbn [ncols data]. rewrite Cx, Cb.
  assert (Q : forall k, 1 * k + 0 = k) by (intros; lia).
  rewrite Q. erewrite (sum_ext Rnum) by (intros; rewrite Q; reflexivity). apply Rs.
  intros j Hj. apply Rlt_le. eapply Rle_lt_trans; [|exact M]. apply max_err_bound. assumption.
Qed.

(** Starting from an exact solution, it is accepted at once and returned untouched. *)
Theorem C11_exact_solution_accepted : forall (a b x : mat R) max_iter conv,
  wf a -> wf b -> wf x -> nrows a = ncols a -> nrows b = ncols a -> nrows x = ncols a -> ncols b = 1 -> ncols x = 1 ->
  (forall i, i < nrows a -> elt Rnum a i i <> 0%R) ->
  solves Rnum a b (elt Rnum x) -> (0 < conv)%R -> 0 < max_iter ->
  gauss_seidel a b x max_iter conv = Ok (true, x).
Proof.
  intros a b x it conv Wa Wb Wx Sq Hb Hx Cb Cx D S Pc Pi. unfold gauss_seidel.
  rewrite Sq, Hb, Hx, !Nat.eqb_refl. cbn [negb].
  assert (Lx : length (data x) = ncols a) by (rewrite Wx, Cx; lia). rewrite Lx, Nat.eqb_refl, andb_false_r.
  destruct it as [|it]; [lia|]. cbn [gs_loop]. cbn zeta.
  assert (F : forall i, i < ncols a -> at_ (gs_sweep (ncols a) (data a) (data b) (data x)) i = at_ (data x) i).
  { apply solution_fixed.
    - intros i Hi. apply (D i). congruence.
    - intros i Hi. specialize (S i 0 ltac:(congruence) ltac:(lia)). unfold elt in S. rewrite Cb, Cx in S.
      replace (1 * i + 0) with i in S by lia. unfold at_. cbn [n0 Rnum] in S. rewrite <- S.
      apply (sum_ext Rnum). intros k Hk. cbn [nmul Rnum]. do 2 f_equal. lia. }
  replace (Rltb _ conv) with true; [rewrite <- Hx; destruct x; reflexivity|]. symmetry. apply Rltb_true.
  unfold max_err. apply max_err_lt.
  - pose proof NEG_MAX_neg. lra.
  - intros i Hi. rewrite F by assumption. rewrite Rminus_diag_eq, Rabs_R0 by reflexivity. assumption.
Qed.

Example C11_nontrivial : exists a b x, wf a /\ wf b /\ wf x /\ solves Rnum a b (elt Rnum x) /\
  gauss_seidel a b x 5 (1/1000) = Ok (true, x) /\ nrows a = 2.
Proof.
  exists (mkMat 2 2 [2; 1; 1; 3]%R), (mkMat 2 1 [4; 7]%R), (mkMat 2 1 [1; 2]%R).
  assert (S : solves Rnum (mkMat 2 2 [2; 1; 1; 3]%R) (mkMat 2 1 [4; 7]%R) (elt Rnum (mkMat 2 1 [1; 2]%R))).
  { intros i k Hi Hk. cbn in Hi, Hk. destruct i as [|[|i]], k as [|k]; try lia; cbn; lra. }
  repeat split; try assumption. apply C11_exact_solution_accepted; try reflexivity; try assumption; try lia; try lra.
  intros i Hi. cbn in Hi. destruct i as [|[|i]]; try lia; cbn; lra.
Qed.

(** ** C12: compact band storage *)

(** Every in-band cell has its own slot: a write is read back, and disturbs no other cell;
    off-band cells always read zero and refuse writes; out of range is an error.
    [w = 2 s + 1] is the (odd, as the constructor demands) number of diagonals. *)
Theorem C12_cells : forall T (N : Num T) w s (m : mat T) r c v, w = 2 * s + 1 -> nd_wf w m ->
  (r < nrows m /\ c < ncols m -> r <= c + s /\ c <= r + s ->
     exists old, nd_get N w m r c = Ok old /\
     forall op new, (op = nd_set w m r c v /\ new = v) \/ (op = nd_add_to_element N w m r c v /\ new = nadd N old v)
                 \/ (op = nd_scale_element N w m r c v /\ new = nmul N old v) ->
       exists m', op = Ok m' /\ nd_wf w m' /\ nrows m' = nrows m /\ ncols m' = ncols m /\
         nd_get N w m' r c = Ok new /\ (forall r' c', (r', c') <> (r, c) -> nd_get N w m' r' c' = nd_get N w m r' c')) /\
  (r < nrows m /\ c < ncols m -> ~ (r <= c + s /\ c <= r + s) ->
     nd_get N w m r c = Ok (n0 N) /\ nd_set w m r c v = Err) /\
  (~ (r < nrows m /\ c < ncols m) -> nd_get N w m r c = Err /\ nd_set w m r c v = Err).
Proof.
  intros T N w s m r c v Hw W. split; [|split].
  - intros [Hr Hc] B. exists (nd_elt N w m r c). split; [apply (nd_get_ok N w s); assumption|].
    assert (G : forall f, exists m', nd_modify w m r c f = Ok m' /\ nd_wf w m' /\ nrows m' = nrows m /\ ncols m' = ncols m /\
         nd_get N w m' r c = Ok (f (nd_elt N w m r c)) /\ (forall r' c', (r', c') <> (r, c) -> nd_get N w m' r' c' = nd_get N w m r' c')).
    { intros f. destruct (nd_modify_ok N w s Hw m r c f W Hr Hc B) as (m' & E & W' & R & C & V).
      exists m'. repeat (split; [assumption|]). split.
      - rewrite (nd_get_ok N w s) by (try assumption; lia). rewrite V by assumption. rewrite !Nat.eqb_refl. reflexivity.
      - intros r' c' Hne. destruct (le_lt_dec (nrows m) r') as [H|H]; [rewrite !(nd_get_err N w) by lia; reflexivity|].
        destruct (le_lt_dec (ncols m) c') as [H'|H']; [rewrite !(nd_get_err N w) by lia; reflexivity|].
        rewrite !(nd_get_ok N w s) by (try assumption; lia). rewrite V by assumption.
        destruct ((r' =? r) && (c' =? c)) eqn:E'; [|reflexivity].
        apply andb_true_iff in E' as [E1 E2]. apply Nat.eqb_eq in E1, E2. congruence. }
    intros op new [[-> ->]|[[-> ->]|[-> ->]]].
    + apply (G (fun _ => v)).
    + apply (G (fun x => nadd N x v)).
    + apply (G (fun x => nmul N x v)).
  - intros [Hr Hc] B. split.
    + rewrite (nd_get_ok N w s) by assumption. unfold nd_elt. rewrite (proj2 (is_diag_false w s Hw r c) B). reflexivity.
    + apply (nd_modify_off w s Hw). exact B.
  - intros H. split; [apply nd_get_err; assumption|apply nd_modify_out; assumption].
Qed.

(** The constructor's storage is of the right size … *)
Theorem C12_new_size : forall T (N : Num T) of_nat w v nr nc, nd_wf w (nd_new N w of_nat v nr nc).
Proof. intros. apply nd_new_wf. Qed.
(** … but it is not filled with the given value: cell (0,0) is always 0 (and the k-th
    stored cell is k), whatever value was asked for. *)
Theorem C12_new_ignores_value : forall v nr nc w s, w = 2 * s + 1 -> 0 < nr -> 0 < nc ->
  nd_get Znum w (nd_new Znum w Z.of_nat v nr nc) 0 0 = Ok 0%Z.
Proof.
  intros v nr nc w s Hw Hr Hc.
  assert (B : in_band s 0 0) by (unfold in_band; lia).
  rewrite (nd_get_ok Znum w s Hw) by (try apply nd_new_wf; assumption). f_equal.
  unfold nd_elt. rewrite (proj2 (is_diag_iff w s Hw 0 0) B), (pos_eq w s Hw) by assumption.
  cbn [acc_n_in_row seq fold_left nd_new data ncols Nat.sub Nat.add]. rewrite repeat_length.
  destruct (acc_n_in_row w nr nc); reflexivity.
Qed.
Theorem C12_new_fill_refuted : exists v nr nc, nd_get Znum 3 (nd_new Znum 3 Z.of_nat v nr nc) 0 0 <> Ok v.
Proof. exists 5%Z, 4, 4. vm_compute. discriminate. Qed.

(** Product by a column: exact when the matrix is at least as large as its band … *)
Theorem C12_column_product : forall T (N : Num T) w s (m : mat T) vec,
  ring_theory (n0 N) (n1 N) (nadd N) (nmul N) (nsub N) (nopp N) eq ->
  w = 2 * s + 1 -> nd_wf w m -> nrows m = ncols m -> length vec = ncols m -> 2 * s <= ncols m ->
  exists r, column_prod_into N w m vec (length vec) = Ok r /\ length r = ncols m /\
    forall i, i < ncols m -> exists row, (forall j, j < ncols m -> nd_get N w m i j = Ok (row j)) /\
       nth i r (n0 N) = sum N (ncols m) (fun j => nmul N (row j) (nth j vec (n0 N))).
Proof.
  intros T N w s m vec RT Hw W Sq Lv Big. unfold column_prod_into. rewrite Lv, !Nat.eqb_refl. cbn [negb].
  destruct (col_prod_ok N w s Hw RT m vec (ncols m) W Sq eq_refl Lv Big (ncols m) 0 eq_refl) as (r & E & L & V).
  exists r. split; [exact E|]. split; [exact L|]. intros i Hi. exists (nd_elt N w m i). split.
  - intros j Hj. apply (nd_get_ok N w s); try assumption. congruence.
  - apply V. assumption.
Qed.
(** … and always a panic when it is smaller. *)
Theorem C12_small_product_panics : forall T (N : Num T) w s (m : mat T) vec,
  w = 2 * s + 1 -> length vec = ncols m -> 0 < ncols m -> ncols m < 2 * s ->
  column_prod_into N w m vec (length vec) = Panic.
Proof.
  intros T N w s m vec Hw Lv P Small. unfold column_prod_into. rewrite Lv, !Nat.eqb_refl. cbn [negb].
  apply (col_prod_panic N w s Hw m vec (ncols m) eq_refl Lv Small); lia.
Qed.
(** in particular a single tri-diagonal equation cannot be multiplied *)
Theorem C12_product_refuted : exists m : mat Z, nd_wf 3 m /\ nrows m = 1 /\ ncols m = 1 /\
  column_prod_into Znum 3 m [1%Z] 1 = Panic.
Proof. exists (nd_new Znum 3 Z.of_nat 1%Z 1 1). repeat split. Qed.

(** Solving through the compact storage gives the unique solution (same idealised
    threshold as in [C10_gaussian_partial]). *)
Theorem C12_gaussian_partial : forall T (N : Num T) (tiny big : T -> bool) w s,
  ring_theory (n0 N) (n1 N) (nadd N) (nmul N) (nsub N) (nopp N) eq ->
  (forall x, big x = false -> x = n0 N) ->
  (forall x, tiny x = false -> nmul N x (ndiv N (n1 N) x) = n1 N) ->
  w = 2 * s + 1 -> forall (m : mat T) b, nd_wf w m -> nrows m = ncols m -> length b = nrows m ->
  nd_mut_gaussian N w tiny big m b = Err \/
  exists x, nd_mut_gaussian N w tiny big m b = Ok x /\ length x = length b /\
    forall A, (forall i j, i < nrows m -> j < nrows m -> nd_get N w m i j = Ok (A i j)) ->
    (forall i, i < nrows m -> sum N (nrows m) (fun j => nmul N (A i j) (nth j x (n0 N))) = nth i b (n0 N)) /\
    (forall y, (forall i, i < nrows m -> sum N (nrows m) (fun j => nmul N (A i j) (y j)) = nth i b (n0 N)) ->
       forall i, i < nrows m -> y i = nth i x (n0 N)).
Proof.
  intros T N tiny big w s RT Hb Ht Hw m b W Sq Lb. unfold nd_mut_gaussian, from_data.
  rewrite Nat.mul_1_r, Nat.eqb_refl. cbn [bind].
  destruct (to_dense_ok N w s Hw m (nrows m) W eq_refl (eq_sym Sq)) as (d & E & Rd & Cd & Wd & Vd). rewrite E. cbn [bind].
  set (bm := mkMat (length b) 1 b).
  assert (Wb : wf bm) by (unfold wf, bm; cbn; lia).
  assert (Eb : forall i, elt N bm i 0 = nth i b (n0 N)) by (intros i; unfold elt, bm; cbn [ncols data]; f_equal; lia).
  destruct (C10_gaussian_partial T N tiny big RT Hb Ht d bm w s Wd Wb ltac:(congruence)) as [F|(x & F & Wx & Rx & Cx & Sx & Ux)].
  { cbn. congruence. }
  { lia. }
  { intros i j Hi Hj H. rewrite Vd by congruence. unfold nd_elt. rewrite (proj2 (is_diag_false w s Hw i j)); [reflexivity|].
    unfold in_band. lia. }
  - left. unfold n_diag_gaussian in F. destruct (mut_n_diag_gaussian N tiny big d bm w) as [ab| |]; cbn [bind] in *; congruence.
  - right. unfold n_diag_gaussian in F. destruct (mut_n_diag_gaussian N tiny big d bm w) as [[a' b']| |]; cbn [bind snd] in *; try congruence.
    injection F as ->. cbn in Rx, Cx.
    assert (Lx : length (data x) = length b) by (rewrite Wx; lia). rewrite Lx, Nat.eqb_refl.
    exists (data x). split; [reflexivity|]. split; [exact Lx|].
    intros A HA.
    assert (Ex : forall i, elt N x i 0 = nth i (data x) (n0 N)) by (intros i; unfold elt; rewrite Cx; f_equal; lia).
    assert (Ed : forall i j, i < nrows m -> j < nrows m -> elt N d i j = A i j).
    { intros i j Hi Hj. rewrite Vd by assumption. specialize (HA i j Hi Hj).
      rewrite (nd_get_ok N w s) in HA by (try assumption; congruence). congruence. }
    split.
    + intros i Hi. specialize (Sx i 0). rewrite Cd, Rd in Sx. rewrite <- Eb, <- Sx by (cbn; lia).
      apply sum_ext. intros j Hj. rewrite Ed, Ex by assumption. reflexivity.
    + intros y Hy i Hi. rewrite <- Ex. apply (Ux (fun i _ => y i)); [|cbn; lia|cbn; lia].
      intros i' k Hi' Hk. rewrite Cd, Rd in *. cbn in Hk. replace k with 0 by lia. rewrite Eb, <- Hy by assumption.
      apply sum_ext. intros j Hj. rewrite Ed by assumption. reflexivity.
Qed.

Example C12_nontrivial :
  let m := nd_new Znum 3 Z.of_nat 0%Z 4 4 in
  nd_wf 3 m /\ nd_get Znum 3 m 2 3 = Ok 7%Z /\ nd_get Znum 3 m 0 3 = Ok 0%Z /\ nd_set 3 m 0 3 1%Z = Err /\
  column_prod_into Znum 3 m [1; 1; 1; 1]%Z 4 = Ok [1; 9; 18; 17]%Z.
Proof. cbn zeta. repeat split; vm_compute; reflexivity. Qed.

(** ** C13: concatenating rows *)
Theorem C13_concat_rows : forall T (N : Num T) (a b : mat T), wf a -> wf b ->
  (ncols a = ncols b -> exists m, concat_rows a b = Ok m /\ is_mat N m (nrows a + nrows b) (ncols a)
     (fun i j => if i <? nrows a then elt N a i j else elt N b (i - nrows a) j)) /\
  (ncols a <> ncols b -> concat_rows a b = Err).
Proof.
  intros T N a b Wa Wb. split; intros H.
  - apply concat_spec; assumption.
  - unfold concat_rows. rewrite (proj2 (Nat.eqb_neq _ _)) by assumption. reflexivity.
Qed.
(** and it is associative *)
Theorem C13_concat_assoc : forall T (a b c ab bc : mat T),
  concat_rows a b = Ok ab -> concat_rows b c = Ok bc -> concat_rows ab c = concat_rows a bc.
Proof.
  intros T a b c ab bc. unfold concat_rows.
  destruct (Nat.eqb_spec (ncols a) (ncols b)) as [H1|]; cbn [negb]; [|discriminate].
  destruct (Nat.eqb_spec (ncols b) (ncols c)) as [H2|]; cbn [negb]; [|discriminate].
  intros E1 E2. injection E1 as <-. injection E2 as <-. cbn [ncols nrows data].
  rewrite H1, H2, Nat.eqb_refl. cbn [negb]. rewrite Nat.add_assoc, app_assoc. reflexivity.
Qed.
Example C13_nontrivial : concat_rows ex_a (mkMat 1 3 [7; 8; 9]%Z) = Ok (mkMat 3 3 [1; 2; 3; 4; 5; 6; 7; 8; 9]%Z)
  /\ concat_rows ex_a ex_b = Err.
Proof. split; reflexivity. Qed.

Print Assumptions C07_cells.
Print Assumptions C08_elements.
Print Assumptions C08_prod_assoc.
Print Assumptions C09_banded_product.
Print Assumptions C09_dirty_destination_refuted.
Print Assumptions C10_gaussian_partial.
Print Assumptions C11_residual.
Print Assumptions C12_cells.
Print Assumptions C12_gaussian_partial.
Print Assumptions C13_concat_rows.

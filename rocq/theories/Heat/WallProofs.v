(** Facts about the wall model: exact form of the conduction matrix, of the scaled system and of a Runge-Kutta step. *)
From Coq Require Import List Arith Reals Bool Lia Lra Ring.
From Verif.Common Require Import Base Flt.
From Verif.Matrix Require Import MatrixModel MatrixSpec NDiagProofs GaussSeidel.
From Verif.Heat Require Import GasModel DiscretizationModel DiscretizationProofs ConvectionModel WallModel.
Import ListNotations.
Open Scope R_scope.

Fixpoint rsum (n : nat) (f : nat -> R) : R := match n with O => 0 | S k => rsum k f + f k end.

Lemma rsum_ext n f g : (forall i, (i < n)%nat -> f i = g i) -> rsum n f = rsum n g.
Proof. induction n; intros H; cbn; [reflexivity|]. rewrite IHn, H by (intros; auto). reflexivity. Qed.
Lemma rsum_plus n f g : rsum n (fun i => f i + g i) = rsum n f + rsum n g.
Proof. induction n; cbn; [lra|]. rewrite IHn. lra. Qed.
Lemma rsum_scal n c f : rsum n (fun i => c * f i) = c * rsum n f.
Proof. induction n; cbn; [lra|]. rewrite IHn. lra. Qed.
Lemma rsum_0 n f : (forall i, (i < n)%nat -> f i = 0) -> rsum n f = 0.
Proof. induction n; intros H; cbn; [reflexivity|]. rewrite IHn, H by (intros; auto). lra. Qed.
Lemma rsum_single n k f : (k < n)%nat -> (forall i, (i < n)%nat -> i <> k -> f i = 0) -> rsum n f = f k.
Proof.
  induction n; intros Hk H; [lia|]. cbn. destruct (Nat.eq_dec k n) as [->|D].
  - rewrite rsum_0; [lra|]. intros i Hi. apply H; lia.
  - rewrite IHn, (H n) by (try lia; intros; apply H; lia). lra.
Qed.
Lemma rsum_swap n m f : rsum n (fun i => rsum m (fun j => f i j)) = rsum m (fun j => rsum n (fun i => f i j)).
Proof.
  induction n; cbn; [symmetry; apply rsum_0; reflexivity|]. rewrite IHn, <- rsum_plus. reflexivity.
Qed.

(** ** tridiagonal matrices as functions *)
Definition is_tri (n : nat) (k : mat R) (f : nat -> nat -> R) : Prop :=
  nd_wf 3 k /\ nrows k = n /\ ncols k = n /\ forall i j, (i < n)%nat -> (j < n)%nat -> nd_elt Rnum 3 k i j = f i j.

Lemma is_tri_ext n k f g : is_tri n k f -> (forall i j, (i < n)%nat -> (j < n)%nat -> f i j = g i j) -> is_tri n k g.
Proof. intros (W & A & B & C) H. repeat split; auto. intros. rewrite C, H; auto. Qed.

Lemma nd_get_tri n k f i j : is_tri n k f -> (i < n)%nat -> (j < n)%nat -> nd_get Rnum 3 k i j = Ok (f i j).
Proof. intros (W & A & B & C) Hi Hj. rewrite (nd_get_ok Rnum 3 1 eq_refl) by (try assumption; lia). rewrite C; auto. Qed.

Lemma modify_tri n k f i j g : is_tri n k f -> (i < n)%nat -> (j < n)%nat -> (i <= j + 1)%nat -> (j <= i + 1)%nat ->
  exists k', nd_modify 3 k i j g = Ok k' /\
             is_tri n k' (fun i' j' => if (i' =? i)%nat && (j' =? j)%nat then g (f i j) else f i' j').
Proof.
  intros (W & A & B & C) Hi Hj B1 B2.
  destruct (nd_modify_ok Rnum 3 1 eq_refl k i j g) as (k' & E & W' & A' & B' & C'); try assumption; try lia.
  { split; lia. }
  exists k'. split; [exact E|]. repeat split; try assumption; try lia.
  intros i' j' Hi' Hj'. rewrite C' by lia. rewrite !C by lia. reflexivity.
Qed.

Lemma off_band n k f i j : is_tri n k f -> (i < n)%nat -> (j < n)%nat -> (i > j + 1 \/ j > i + 1)%nat -> f i j = 0.
Proof.
  intros (W & A & B & C) Hi Hj H. rewrite <- C by assumption. unfold nd_elt.
  rewrite (proj2 (is_diag_false 3 1 eq_refl i j)); [reflexivity|]. unfold in_band. lia.
Qed.

Lemma zero_tri n k : nd_wf 3 k -> nrows k = n -> ncols k = n ->
  is_tri n (mkMat (nrows k) (ncols k) (map (fun x => x * 0) (data k))) (fun _ _ => 0).
Proof.
  intros W A B. repeat split; cbn [nrows ncols data]; try assumption.
  { unfold nd_wf in *. cbn [nrows ncols data]. rewrite map_length. assumption. }
  intros i j _ _. unfold nd_elt. destruct (is_diag_value 3 i j); [|reflexivity]. cbn [data ncols n0 Rnum].
  generalize (pos 3 (ncols k) i j). clear. induction (data k) as [|x l IH]; intros [|p]; cbn; try reflexivity; [lra|apply IH].
Qed.

(** ** lists of values as functions *)
Lemma idx_tab n (f : nat -> R) i : (i < n)%nat -> idx (tab n f) i = Ok (f i).
Proof. intros H. unfold idx. rewrite nth_error_tab. destruct (Nat.ltb_spec i n); [reflexivity|lia]. Qed.
Lemma col_get_tab n (f : nat -> R) i : (i < n)%nat -> col_get (tab n f) i = Ok (f i).
Proof. intros H. unfold col_get. rewrite nth_error_tab. destruct (Nat.ltb_spec i n); [reflexivity|lia]. Qed.
Lemma vec_add_tab n f i v : (i < n)%nat -> vec_add (tab n f) i v = Ok (tab n (fun j => if (j =? i)%nat then f i + v else f j)).
Proof. intros. unfold vec_add. rewrite idx_tab by assumption. cbn [bind]. rewrite upd_tab by assumption. reflexivity. Qed.
Lemma vec_set_tab n f i v : (i < n)%nat -> vec_set (tab n f) i v = Ok (tab n (fun j => if (j =? i)%nat then v else f j)).
Proof. intros. unfold vec_set. rewrite idx_tab by assumption. cbn [bind]. rewrite upd_tab by assumption. reflexivity. Qed.
Lemma as_tab (l : list R) : l = tab (length l) (fun i => nth i l 0).
Proof. symmetry. apply tab_nth. Qed.
Lemma add_assign_tab n f g : add_assign (tab n f) (tab n g) = tab n (fun i => f i + g i).
Proof.
  unfold tab. generalize 0%nat. induction n; intros s; cbn; [reflexivity|]. rewrite IHn. reflexivity.
Qed.
Lemma map_tab n (f : nat -> R) (g : R -> R) : map g (tab n f) = tab n (fun i => g (f i)).
Proof. unfold tab. rewrite map_map. reflexivity. Qed.

Lemma fold_res_seq {B} (f : nat -> B -> res B) (P : nat -> B -> Prop) n b :
  P 0%nat b -> (forall i b, (i < n)%nat -> P i b -> exists b', f i b = Ok b' /\ P (S i) b') ->
  exists b', fold_res f (seq 0 n) b = Ok b' /\ P n b'.
Proof.
  intros H0 Hs.
  assert (G : forall k s b, (s + k = n)%nat -> P s b -> exists b', fold_res f (seq s k) b = Ok b' /\ P n b').
  { induction k; intros s b' E Hb; cbn [fold_res seq].
    - exists b'. replace n with s by lia. auto.
    - destruct (Hs s b') as (b'' & E' & Hb'); [lia|assumption|]. rewrite E'. cbn [bind]. apply IHk; [lia|assumption]. }
  apply G; auto.
Qed.

(** ** the conduction matrix *)
(** [G g] is the conductance between node [g - 1] and node [g]; ends: the two films *)
Definition conductances (segs : list segment) (temps : list R) (ini fin : nat) (front_hs back_hs : R) (G : nat -> R) : Prop :=
  (ini = 0%nat -> G 0%nat = front_hs) /\ (fin = length segs -> G (length segs) = back_hs) /\
  forall g s, (ini <= g + 1)%nat -> (g + 1 <= fin)%nat -> (g + 1 < length segs)%nat -> nth_error segs g = Some s ->
    u_value (snd s) (nth g temps 0) (nth (g + 1) temps 0) = Ok (G (g + 1)%nat).

(** the temperatures before the first node, at the nodes and after the last node *)
Definition profile (front_air back_air : R) (temps : list R) (g : nat) : R :=
  match g with O => front_air | S g => match nth_error temps g with Some v => v | None => back_air end end.

Definition K_of (G : nat -> R) (ini i j : nat) : R :=
  if (i =? j)%nat then - (G (ini + i)%nat + G (ini + i + 1)%nat)
  else if (j =? i + 1)%nat then G (ini + j)%nat
  else if (i =? j + 1)%nat then G (ini + i)%nat else 0.

Definition K_inner (U : nat -> R) (p i j : nat) : R :=
  if (i =? j)%nat then - ((if (1 <=? i)%nat && (i <=? p)%nat then U (i - 1)%nat else 0) + (if (i <? p)%nat then U i else 0))
  else if (j =? i + 1)%nat then (if (i <? p)%nat then U i else 0)
  else if (i =? j + 1)%nat then (if (j <? p)%nat then U j else 0) else 0.

Ltac natcase := repeat match goal with
  | |- context [(?a =? ?b)%nat] => destruct (Nat.eqb_spec a b); [try lia|]; try lia
  end.

Lemma nth_error_some_lt {A} (l : list A) i : (i < length l)%nat -> exists x, nth_error l i = Some x.
Proof. intros H. destruct (nth_error l i) eqn:E; [eauto|]. apply nth_error_None in E. lia. Qed.

Lemma kq_loop segs temps back_air ini n U k : is_tri n k (fun _ _ => 0) -> (0 < n)%nat ->
  length temps = length segs -> (ini + n <= length segs)%nat ->
  (forall i s, (i + 1 < n)%nat -> nth_error segs (ini + i) = Some s ->
     u_value (snd s) (nth (ini + i) temps 0) (nth (ini + i + 1) temps 0) = Ok (U i)) ->
  exists k', fold_res (kq_step segs temps back_air ini) (seq 0 (n - 1)) k = Ok k' /\ is_tri n k' (K_inner U (n - 1)).
Proof.
  intros T0 Hn HL HN HU.
  apply (fold_res_seq (kq_step segs temps back_air ini) (fun p k => is_tri n k (K_inner U p))).
  { eapply is_tri_ext; [exact T0|]. intros i j _ _. unfold K_inner.
    destruct (Nat.eqb_spec i j).
    - destruct (Nat.leb_spec 1 i), (Nat.leb_spec i 0), (Nat.ltb_spec i 0); cbn [andb]; try lia; lra.
    - destruct (Nat.ltb_spec i 0); [lia|]. destruct (Nat.ltb_spec j 0); [lia|].
      destruct (j =? i + 1)%nat, (i =? j + 1)%nat; reflexivity. }
  intros p k0 Hp T. unfold kq_step, col_get.
  destruct (nth_error_some_lt temps (ini + p)) as (t & Et); [lia|]. rewrite Et. cbn [bind].
  unfold t_after. destruct (nth_error_some_lt temps (ini + p + 1)) as (t' & Et'); [lia|]. rewrite Et'.
  unfold idx. unfold segment in *. destruct (nth_error_some_lt segs (ini + p)) as (s & Es); [lia|]. rewrite Es. cbn [bind].
  specialize (HU p s ltac:(lia) Es). rewrite (nth_error_nth _ _ _ Et), (nth_error_nth _ _ _ Et') in HU. rewrite HU. cbn [bind].
  unfold nd_add_to_element, nd_set.
  destruct (modify_tri n k0 _ p p (fun x => nadd Rnum x (- U p)) T) as (k1 & E1 & T1); try lia. rewrite E1. cbn [bind].
  unfold if_get. rewrite (nd_get_tri n k1 _ (p + 1) (p + 1) T1) by lia.
  unfold nd_set.
  match goal with |- context [nd_modify 3 k1 (p + 1) (p + 1) ?g] =>
    destruct (modify_tri n k1 _ (p + 1) (p + 1) g T1) as (k2 & E2 & T2); try lia end. rewrite E2. cbn [bind].
  rewrite (nd_get_tri n k2 _ p (p + 1) T2) by lia.
  match goal with |- context [nd_modify 3 k2 p (p + 1) ?g] =>
    destruct (modify_tri n k2 _ p (p + 1) g T2) as (k3 & E3 & T3); try lia end. rewrite E3. cbn [bind].
  rewrite (nd_get_tri n k3 _ (p + 1) p T3) by lia.
  match goal with |- context [nd_modify 3 k3 (p + 1) p ?g] =>
    destruct (modify_tri n k3 _ (p + 1) p g T3) as (k4 & E4 & T4); try lia end. rewrite E4.
  exists k4. split; [reflexivity|]. eapply is_tri_ext; [exact T4|].
  intros i j Hi Hj. clear - Hp Hi Hj. cbn [nadd Rnum]. unfold K_inner.
  replace (p + 1 - 1)%nat with p by lia.
  destruct (Nat.eqb_spec i (p + 1)), (Nat.eqb_spec j p), (Nat.eqb_spec i p), (Nat.eqb_spec j (p + 1)); cbn [andb]; try lia; subst;
  repeat match goal with
  | |- context [(?a =? ?b)%nat] => destruct (Nat.eqb_spec a b); try lia
  | |- context [(?a <? ?b)%nat] => destruct (Nat.ltb_spec a b); try lia
  | |- context [(?a <=? ?b)%nat] => destruct (Nat.leb_spec a b); try lia
  end; cbn [andb]; try replace (p + 1 - 1)%nat with p by lia; try lra; try reflexivity.
Qed.

Lemma get_k_q_spec segs ini fin temps fe fhs frad be bhs brad m n G :
  length temps = length segs -> (ini < fin)%nat -> (fin <= length segs)%nat -> n = (fin - ini)%nat ->
  nd_wf 3 (ck m) -> nrows (ck m) = n -> ncols (ck m) = n -> length (cq m) = n ->
  conductances segs temps ini fin fhs bhs G ->
  exists k, get_k_q segs ini fin temps fe fhs frad be bhs brad m =
    Ok (mkChunk k (cc m)
         (tab n (fun i => (if (i =? 0)%nat then G ini * profile (air_temperature fe) (air_temperature be) temps ini
                             + (if (ini =? 0)%nat then frad * (rad_temperature fe - nth 0 temps 0) else 0) else 0)
                        + (if (i =? n - 1)%nat then G fin * profile (air_temperature fe) (air_temperature be) temps (fin + 1)
                             + (if (fin =? length temps)%nat then brad * (rad_temperature be - nth (fin - 1) temps 0) else 0) else 0)))
         (ctemps m) (cscratch m))
    /\ is_tri n k (K_of G ini).
Proof.
  intros HL Hif HfN Hn W A B Q (G0 & GN & Gi). unfold get_k_q. unfold segment in *.
  rewrite HL, Nat.eqb_refl. cbn [negb]. destruct (Nat.ltb_spec fin ini); [lia|].
  rewrite <- Hn. destruct (Nat.eqb_spec n 0); [lia|].
  destruct (kq_loop segs temps (air_temperature be) ini n (fun i => G (ini + i + 1)%nat) _ (zero_tri n (ck m) W A B))
    as (k1 & E1 & T1); [lia|assumption|lia| |].
  { intros i s Hi Es. apply Gi; [lia|lia|lia|exact Es]. }
  rewrite E1. cbn [bind]. clear E1.
  assert (F : exists fq, (if (ini =? 0)%nat then
           do ts <- col_get temps 0;
           Ok (fhs, air_temperature fe * fhs + frad * (rad_temperature fe - ts))
         else
           do seg <- idx segs (ini - 1);
           do t_before <- col_get temps (ini - 1);
           do t_aft <- col_get temps ini;
           do u <- u_value (snd seg) t_before t_aft;
           Ok (u, u * t_before)) = Ok (G ini, fq) /\
     fq = G ini * profile (air_temperature fe) (air_temperature be) temps ini
                             + (if (ini =? 0)%nat then frad * (rad_temperature fe - nth 0 temps 0) else 0)).
  { destruct (Nat.eqb_spec ini 0) as [->|Hi0].
    - unfold col_get. destruct (nth_error_some_lt temps 0) as (t & Et); [lia|]. rewrite Et. cbn [bind].
      eexists. rewrite (nth_error_nth _ _ _ Et), G0 by reflexivity. split; [reflexivity|]. cbn [profile]. ring.
    - unfold segment in *. unfold idx, col_get. destruct (nth_error_some_lt segs (ini - 1)) as (s & Es); [lia|]. rewrite Es. cbn [bind].
      destruct (nth_error_some_lt temps (ini - 1)) as (t & Et); [lia|]. rewrite Et. cbn [bind].
      destruct (nth_error_some_lt temps ini) as (t' & Et'); [lia|]. rewrite Et'. cbn [bind].
      pose proof (Gi (ini - 1)%nat s ltac:(lia) ltac:(lia) ltac:(lia) Es) as HU.
      replace (ini - 1 + 1)%nat with ini in HU by lia.
      rewrite (nth_error_nth _ _ _ Et), (nth_error_nth _ _ _ Et') in HU. rewrite HU. cbn [bind].
      eexists. split; [reflexivity|]. destruct ini; [lia|]. cbn [profile]. replace (S ini - 1)%nat with ini in Et by lia.
      rewrite Et. ring. }
  destruct F as (fq & EF & Hfq). rewrite EF. clear EF. cbn [bind fst snd].
  rewrite Q, repeat_tab, vec_add_tab by lia. cbn [bind].
  unfold nd_add_to_element.
  destruct (modify_tri n k1 _ 0 0 (fun x => nadd Rnum x (- G ini)) T1) as (k2 & E2 & T2); try lia. rewrite E2. cbn [bind].
  assert (F : exists bq, (if (fin =? length segs)%nat then
           do ts <- col_get temps (fin - 1);
           Ok (bhs, air_temperature be * bhs + brad * (rad_temperature be - ts))
         else
           do seg <- idx segs (fin - 1);
           do t_before <- col_get temps (fin - 1);
           do u <- u_value (snd seg) t_before (t_after temps (air_temperature be) (fin - 1));
           Ok (u, u * t_after temps (air_temperature be) (fin - 1))) = Ok (G fin, bq) /\
     bq = G fin * profile (air_temperature fe) (air_temperature be) temps (fin + 1)
                             + (if (fin =? length temps)%nat then brad * (rad_temperature be - nth (fin - 1) temps 0) else 0)).
  { rewrite <- HL. destruct (nth_error_some_lt temps (fin - 1)) as (t & Et); [lia|].
    destruct (Nat.eqb_spec fin (length temps)) as [Hf|Hf].
    - unfold col_get. rewrite Et. cbn [bind].
      eexists. rewrite (nth_error_nth _ _ _ Et). subst fin. rewrite HL, GN, <- HL by lia. split; [reflexivity|].
      rewrite Nat.add_1_r. cbn [profile]. rewrite (proj2 (nth_error_None temps (length temps))) by lia. ring.
    - unfold segment in *. unfold idx, col_get. destruct (nth_error_some_lt segs (fin - 1)) as (s & Es); [lia|]. rewrite Es. cbn [bind].
      rewrite Et. cbn [bind]. cbv zeta. unfold t_after.
      destruct (nth_error_some_lt temps (fin - 1 + 1)) as (t' & Et'); [lia|]. rewrite Et'.
      pose proof (Gi (fin - 1)%nat s ltac:(lia) ltac:(lia) ltac:(lia) Es) as HU.
      rewrite (nth_error_nth _ _ _ Et), (nth_error_nth _ _ _ Et') in HU. rewrite HU. cbn [bind].
      replace (fin - 1 + 1)%nat with fin in * by lia.
      eexists. split; [reflexivity|]. rewrite Nat.add_1_r. cbn [profile]. rewrite Et'. ring. }
  destruct F as (bq & EF & Hbq). rewrite EF. clear EF. cbn [bind fst snd].
  rewrite vec_add_tab by lia. cbn [bind].
  destruct (modify_tri n k2 _ (n - 1) (n - 1) (fun x => nadd Rnum x (- G fin)) T2) as (k3 & E3 & T3); try lia. rewrite E3. cbn [bind].
  exists k3. split.
  - f_equal. f_equal. apply tab_ext. intros i Hi. rewrite HL in Hbq. rewrite <- Hfq, <- Hbq.
    destruct (Nat.eqb_spec i 0), (Nat.eqb_spec i (n - 1)), (Nat.eqb_spec (n - 1) 0); try lia; subst; lra.
  - eapply is_tri_ext; [exact T3|]. intros i j Hi Hj. cbn [nadd Rnum]. unfold K_inner, K_of.
    replace fin with (ini + (n - 1) + 1)%nat by lia.
    destruct (Nat.eqb_spec i j) as [<-|Hij].
    + rewrite !andb_diag, !Nat.eqb_refl.
      destruct (Nat.eqb_spec i (n - 1)) as [->|Hb], (Nat.eqb_spec (n - 1) 0) as [H0|H0]; try (rewrite H0 in * );
      repeat match goal with
      | |- context [(?a =? ?b)%nat] => destruct (Nat.eqb_spec a b); try lia
      | |- context [(?a <? ?b)%nat] => destruct (Nat.ltb_spec a b); try lia
      | |- context [(?a <=? ?b)%nat] => destruct (Nat.leb_spec a b); try lia
      end; cbn [andb]; subst; rewrite ?Nat.add_0_r; try lra;
      try (replace (ini + (n - 1 - 1) + 1)%nat with (ini + (n - 1))%nat by lia; lra);
      try (replace (ini + (fin - ini - 1 - 1) + 1)%nat with (ini + (fin - ini - 1))%nat by lia; lra);
      try (replace (ini + (i - 1) + 1)%nat with (ini + i)%nat by lia; lra).
    + repeat match goal with
      | |- context [(?a =? ?b)%nat] => destruct (Nat.eqb_spec a b); try lia
      | |- context [(?a <? ?b)%nat] => destruct (Nat.ltb_spec a b); try lia
      end; cbn [andb]; subst; try reflexivity; f_equal; lia.
Qed.

(** ** scaling by the masses *)
Lemma scale_row n k f row v a cnt : is_tri n k f -> (row < n)%nat -> (a + cnt <= n)%nat ->
  (forall j, (a <= j < a + cnt)%nat -> (row <= j + 1)%nat /\ (j <= row + 1)%nat) ->
  exists k', fold_res (fun ncol k => nd_scale_element Rnum 3 k row ncol v) (seq a cnt) k = Ok k' /\
    is_tri n k' (fun i j => if (i =? row)%nat && ((a <=? j)%nat && (j <? a + cnt)%nat) then f i j * v else f i j).
Proof.
  revert k f a. induction cnt as [|cnt IH]; intros k f a T Hr Ha Hb; cbn [seq fold_res].
  - exists k. split; [reflexivity|]. eapply is_tri_ext; [exact T|]. intros i j _ _.
    destruct (Nat.leb_spec a j), (Nat.ltb_spec j (a + 0)); try lia; cbn [andb]; rewrite andb_false_r; reflexivity.
  - unfold nd_scale_element at 1. destruct (Hb a ltac:(lia)).
    destruct (modify_tri n k f row a (fun x => nmul Rnum x v) T) as (k1 & E1 & T1); try lia. rewrite E1. cbn [bind].
    destruct (IH k1 _ (S a) T1) as (k2 & E2 & T2); try lia.
    { intros j Hj. apply Hb. lia. }
    exists k2. split; [exact E2|]. eapply is_tri_ext; [exact T2|]. intros i j _ _. cbn [nmul Rnum].
    destruct (Nat.eqb_spec i row) as [->|]; cbn [andb]; [|reflexivity].
    destruct (Nat.leb_spec a j), (Nat.ltb_spec j (a + S cnt)), (Nat.leb_spec (S a) j), (Nat.ltb_spec j (S a + cnt)),
      (Nat.eqb_spec j a); try lia; cbn [andb]; subst; reflexivity.
Qed.

Lemma rearrange_spec dt k c q ts sc n f : is_tri n k f ->
  exists k', rearrange_k dt (mkChunk k (tab n c) (tab n q) ts sc) =
    Ok (mkChunk k' (tab n c) (tab n (fun i => q i * (dt / c i))) ts sc) /\ is_tri n k' (fun i j => f i j * (dt / c i)).
Proof.
  intros T. unfold rearrange_k. cbn [cc]. rewrite tab_length.
  pose (P := fun p (m : chunk) => exists k', m = mkChunk k' (tab n c) (tab n (fun i => if (i <? p)%nat then q i * (dt / c i) else q i)) ts sc /\
     is_tri n k' (fun i j => if (i <? p)%nat then f i j * (dt / c i) else f i j)).
  destruct (fold_res_seq (rearrange_row dt) P n (mkChunk k (tab n c) (tab n q) ts sc)) as (m' & E & (k' & -> & T')).
  - exists k. split; [|exact T]. f_equal.
  - intros p m Hp (k0 & -> & T0). unfold rearrange_row. cbn [cc ck cq ctemps cscratch]. rewrite tab_length, idx_tab by assumption. cbn [bind].
    destruct (scale_row n k0 _ p (dt / c p) (if (p =? 0)%nat then 0%nat else (p - 1)%nat)
       ((if (p =? n - 1)%nat then (n - 1)%nat else (p + 1)%nat) + 1 - (if (p =? 0)%nat then 0%nat else (p - 1)%nat)) T0 Hp) as (k1 & E1 & T1).
    { destruct (Nat.eqb_spec p 0), (Nat.eqb_spec p (n - 1)); lia. }
    { intros j Hj. destruct (Nat.eqb_spec p 0), (Nat.eqb_spec p (n - 1)); lia. }
    rewrite E1. cbn [bind]. rewrite idx_tab by assumption. cbn [bind]. rewrite upd_tab by assumption.
    eexists. split; [reflexivity|]. exists k1. split.
    + f_equal. apply tab_ext. intros i Hi.
      destruct (Nat.eqb_spec i p), (Nat.ltb_spec i p), (Nat.ltb_spec i (S p)), (Nat.ltb_spec p p); try lia; subst; reflexivity.
    + eapply is_tri_ext; [exact T1|]. intros i j Hi Hj.
      cbv beta. destruct (Nat.eqb_spec i p) as [->|]; cbn [andb].
      * destruct (Nat.ltb_spec p p), (Nat.ltb_spec p (S p)); try lia.
        destruct (Nat.eqb_spec p 0), (Nat.eqb_spec p (n - 1));
        match goal with |- (if (?a <=? j)%nat && (j <? ?b)%nat then _ else _) = _ =>
          destruct (Nat.leb_spec a j), (Nat.ltb_spec j b) end; cbn [andb]; try reflexivity;
        (rewrite (off_band n k f p j T) by (try assumption; lia)); ring.
      * destruct (Nat.ltb_spec i p), (Nat.ltb_spec i (S p)); try lia; reflexivity.
  - exists k'. split.
    + rewrite E. do 2 f_equal. apply tab_ext. intros i Hi. destruct (Nat.ltb_spec i n); [reflexivity|lia].
    + eapply is_tri_ext; [exact T'|]. intros i j Hi Hj. cbv beta. destruct (Nat.ltb_spec i n); [reflexivity|lia].
Qed.

(** ** one Runge-Kutta step *)
Definition mulv (n : nat) (f : nat -> nat -> R) (x : nat -> R) (i : nat) : R := rsum n (fun j => f i j * x j).

Lemma mulv_ext n f x y i : (forall j, (j < n)%nat -> x j = y j) -> mulv n f x i = mulv n f y i.
Proof. intros H. apply rsum_ext. intros j Hj. rewrite H by assumption. reflexivity. Qed.
Lemma mulv_lin n f x y a i : mulv n f (fun j => x j + a * y j) i = mulv n f x i + a * mulv n f y i.
Proof. unfold mulv. rewrite <- rsum_scal, <- rsum_plus. apply rsum_ext. intros. ring. Qed.

Lemma Rnum_ring : ring_theory (n0 Rnum) (n1 Rnum) (nadd Rnum) (nmul Rnum) (nsub Rnum) (nopp Rnum) eq.
Proof. constructor; intros; cbn; ring. Qed.

Lemma sum_rsum n f : sum Rnum n f = rsum n f.
Proof. induction n; cbn; [reflexivity|]. now rewrite IHn. Qed.

Lemma col_prod_tab n k f x : is_tri n k f -> (2 <= n)%nat -> column_prod_into Rnum 3 k (tab n x) n = Ok (tab n (mulv n f x)).
Proof.
  intros (W & A & B & C) Hn. unfold column_prod_into. rewrite tab_length, B, !Nat.eqb_refl. cbn [negb].
  destruct (col_prod_ok Rnum 3 1 eq_refl Rnum_ring k (tab n x) n W A B (tab_length _ _) Hn n 0%nat eq_refl) as (r & E & Lr & V).
  change (acc_n_in_row 3 0 n) with 0%nat in E. rewrite E. f_equal. rewrite (as_tab r), Lr. apply tab_ext. intros i Hi.
  cbn [n0 Rnum] in V. rewrite V by assumption. rewrite sum_rsum. apply rsum_ext. intros j Hj. cbn [Nat.add].
  rewrite C by assumption. cbn [nmul Rnum]. f_equal.
  assert (H : nth_error (tab n x) j = Some (x j)) by (rewrite nth_error_tab; destruct (Nat.ltb_spec j n); [reflexivity|lia]).
  apply nth_error_nth. exact H.
Qed.

Lemma col_prod_single k x sc : ncols k = 1%nat -> length x = 1%nat -> sc = 1%nat -> column_prod_into Rnum 3 k x sc = Panic.
Proof.
  intros B L ->. unfold column_prod_into. rewrite L, B. cbn [Nat.eqb negb].
  apply (col_prod_panic Rnum 3 1 eq_refl k x 1%nat); cbn; auto; lia.
Qed.

(** the stages of the method *)
Definition stage1 n f q (x : nat -> R) i := mulv n f x i + q i.
Definition stage2 n f q x i := mulv n f (fun j => 5 / 10 * stage1 n f q x j + x j) i + q i.
Definition stage3 n f q x i := mulv n f (fun j => 5 / 10 * stage2 n f q x j + x j) i + q i.
Definition stage4 n f q x i := mulv n f (fun j => stage3 n f q x j + x j) i + q i.
Definition rk_step n f q x i :=
  x i + stage1 n f q x i * (1 / 6) + stage2 n f q x i * (1 / 3) + stage3 n f q x i * (1 / 3) + stage4 n f q x i * (1 / 6).

Lemma rk4_spec n k f c q x : is_tri n k f -> (2 <= n)%nat -> length c = n ->
  rk4 (mkChunk k c (tab n q) (tab n x) n) = Ok (mkChunk k c (tab n q) (tab n (rk_step n f q x)) n).
Proof.
  intros T Hn Hc. pose proof T as (W & A & B & C). unfold rk4. cbn [ck cc cq ctemps cscratch].
  rewrite A, B, Hc, tab_length, !Nat.eqb_refl. cbn [negb].
  rewrite (col_prod_tab n k f x T Hn). cbn [bind]. rewrite add_assign_tab, map_tab, add_assign_tab.
  rewrite (col_prod_tab n k f _ T Hn). cbn [bind]. rewrite add_assign_tab, map_tab, add_assign_tab.
  rewrite (col_prod_tab n k f _ T Hn). cbn [bind]. rewrite !add_assign_tab.
  rewrite (col_prod_tab n k f _ T Hn). cbn [bind]. rewrite !add_assign_tab. unfold scale.
  rewrite !map_tab, !add_assign_tab. reflexivity.
Qed.

Lemma rk4_single k c q x : nrows k = 1%nat -> ncols k = 1%nat -> length c = 1%nat -> length q = 1%nat -> length x = 1%nat ->
  rk4 (mkChunk k c q x 1) = Panic.
Proof.
  intros A B C Q X. unfold rk4. cbn [ck cc cq ctemps cscratch]. rewrite A, B, C, Q. cbn [Nat.eqb negb].
  rewrite col_prod_single by auto. reflexivity.
Qed.

(** powers of the matrix applied to a vector *)
Fixpoint powv (n : nat) (f : nat -> nat -> R) (p : nat) (x : nat -> R) : nat -> R :=
  match p with O => x | S p => mulv n f (powv n f p x) end.

Lemma rk_taylor n f q x i : let y := fun i => mulv n f x i + q i in
  rk_step n f q x i = x i + y i + powv n f 1 y i / 2 + powv n f 2 y i / 6 + powv n f 3 y i / 24.
Proof.
  intros y.
  assert (S1 : forall i, stage1 n f q x i = y i) by reflexivity.
  assert (Ey : forall i, y i = mulv n f x i + q i) by reflexivity. clearbody y.
  assert (S2 : forall i, stage2 n f q x i = y i + 1 / 2 * mulv n f y i).
  { intros j. unfold stage2. rewrite (mulv_ext n f _ (fun j => x j + 1 / 2 * y j) j); [rewrite mulv_lin, Ey; ring|].
    intros l _. rewrite S1. lra. }
  assert (S3 : forall i, stage3 n f q x i = y i + 1 / 2 * (mulv n f y i + 1 / 2 * mulv n f (mulv n f y) i)).
  { intros j. unfold stage3. rewrite (mulv_ext n f _ (fun j => x j + 1 / 2 * (y j + 1 / 2 * mulv n f y j)) j).
    2:{ intros l _. rewrite S2. lra. }
    rewrite mulv_lin, mulv_lin, Ey. ring. }
  assert (S4 : forall i, stage4 n f q x i = y i + 1 * (mulv n f y i + 1 / 2 * (mulv n f (mulv n f y) i + 1 / 2 * mulv n f (mulv n f (mulv n f y)) i))).
  { intros j. unfold stage4.
    rewrite (mulv_ext n f _ (fun j => x j + 1 * (y j + 1 / 2 * (mulv n f y j + 1 / 2 * mulv n f (mulv n f y) j))) j).
    2:{ intros l _. rewrite S3. lra. }
    rewrite mulv_lin, mulv_lin, mulv_lin, Ey. ring. }
  unfold rk_step. rewrite S1, S2, S3, S4. cbn [powv]. lra.
Qed.

(** ** the march of a massive chunk *)
Lemma nth_error_window {A} (l : list A) a n i : (i < n)%nat -> nth_error (firstn n (skipn a l)) i = nth_error l (a + i).
Proof.
  intros H. revert l. induction a as [|a IH]; intros l; cbn [skipn Nat.add].
  - revert l i H. induction n as [|n IH]; intros l i H; [lia|]. destruct l; [now destruct i|]. destruct i; cbn; [reflexivity|]. apply IH. lia.
  - destruct l; cbn [nth_error].
    + rewrite firstn_nil. now destruct i.
    + apply IH.
Qed.
Lemma window_tab {A} (l : list A) d a n : (a + n <= length l)%nat -> firstn n (skipn a l) = tab n (fun i => nth (a + i) l d).
Proof.
  intros H. apply list_ext. intros i. rewrite nth_error_tab. destruct (Nat.ltb_spec i n) as [Hi|Hi].
  - rewrite nth_error_window by assumption. apply nth_error_nth'. lia.
  - apply nth_error_None. rewrite firstn_length. lia.
Qed.
Lemma combine_seq_tab {A} n (f : nat -> A) : combine (seq 0 n) (tab n f) = tab n (fun i => (i, f i)).
Proof. unfold tab. generalize 0%nat. induction n; intros s; cbn; [reflexivity|]. rewrite IHn. reflexivity. Qed.
Lemma fold_res_map {A B C} (g : C -> A) (f : A -> B -> res B) l b : fold_res f (map g l) b = fold_res (fun c => f (g c)) l b.
Proof. revert b. induction l; intros b; cbn; [reflexivity|]. destruct (f (g a) b); cbn; auto. Qed.

Lemma fill_tab n (v : nat -> R) (init : list R) : length init = n ->
  fold_res (fun i l => vec_set l i (v i)) (seq 0 n) init = Ok (tab n v).
Proof.
  intros H. rewrite (as_tab init), H.
  destruct (fold_res_seq (fun i l => vec_set l i (v i)) (fun p l => l = tab n (fun i => if (i <? p)%nat then v i else nth i init 0)) n
     (tab n (fun i => nth i init 0))) as (l & E & Hl).
  - reflexivity.
  - intros i l Hi ->. rewrite vec_set_tab by assumption. eexists. split; [reflexivity|]. apply tab_ext. intros j Hj.
    destruct (Nat.eqb_spec j i), (Nat.ltb_spec j i), (Nat.ltb_spec j (S i)); try lia; subst; reflexivity.
  - rewrite E, Hl. f_equal. apply tab_ext. intros i Hi. destruct (Nat.ltb_spec i n); [reflexivity|lia].
Qed.

Lemma fill_c_spec segs ini fin n (c : list R) : n = (fin - ini)%nat -> (ini <= fin)%nat -> (fin <= length segs)%nat -> length c = n ->
  fill_c segs ini fin c = Ok (tab n (fun i => fst (nth (ini + i) segs (0, UNone)))).
Proof.
  intros Hn Hi Hf Hc. unfold fill_c. rewrite <- Hn. rewrite (window_tab segs (0, UNone) ini n) by lia.
  rewrite tab_length, combine_seq_tab. unfold tab at 1. rewrite fold_res_map. cbn [fst snd].
  apply (fill_tab n (fun i => fst (nth (ini + i) segs (0, UNone)))). rewrite repeat_length. assumption.
Qed.

Lemma fold_res_ext {A B} (f g : A -> B -> res B) l b : (forall a b, In a l -> f a b = g a b) -> fold_res f l b = fold_res g l b.
Proof.
  revert b. induction l as [|a l IH]; intros b H; cbn; [reflexivity|]. rewrite H by (left; reflexivity).
  destruct (g a b); cbn; auto. apply IH. intros; apply H; right; assumption.
Qed.
Lemma col_get_nth l i : (i < length l)%nat -> col_get l i = Ok (nth i l 0).
Proof. intros H. unfold col_get. rewrite (nth_error_nth' _ 0) by assumption. reflexivity. Qed.

Lemma add_solar_spec solar ini fin n q : n = (fin - ini)%nat -> (ini <= fin)%nat -> (fin <= length solar)%nat ->
  add_solar solar ini fin (tab n q) = Ok (tab n (fun i => q i + nth (ini + i) solar 0)).
Proof.
  intros Hn Hi Hf. unfold add_solar. rewrite <- Hn.
  rewrite (fold_res_ext _ (fun i l => vec_add l i (nth (ini + i) solar 0))).
  2:{ intros a b Ha. apply in_seq in Ha. rewrite col_get_nth by lia. reflexivity. }
  destruct (fold_res_seq (fun i l => vec_add l i (nth (ini + i) solar 0))
      (fun p l => l = tab n (fun i => if (i <? p)%nat then q i + nth (ini + i) solar 0 else q i)) n (tab n q)) as (l & E & Hl).
  - reflexivity.
  - intros i l Hin ->. rewrite vec_add_tab by assumption. eexists. split; [reflexivity|]. apply tab_ext. intros j Hj.
    destruct (Nat.eqb_spec j i), (Nat.ltb_spec j i), (Nat.ltb_spec j (S i)), (Nat.ltb_spec i i); try lia; subst; reflexivity.
  - rewrite E, Hl. f_equal. apply tab_ext. intros i Hin. destruct (Nat.ltb_spec i n); [reflexivity|lia].
Qed.

Lemma write_back ini n (v : nat -> R) temps : (ini + n <= length temps)%nat ->
  fold_res (fun local_i ts => do x <- idx (tab n v) local_i; col_set ts (ini + local_i) x) (seq 0 n) temps
  = Ok (tab (length temps) (fun g => if (ini <=? g)%nat && (g <? ini + n)%nat then v (g - ini)%nat else nth g temps 0)).
Proof.
  intros H. set (N := length temps) in *.
  destruct (fold_res_seq (fun local_i ts => do x <- idx (tab n v) local_i; col_set ts (ini + local_i) x)
     (fun p ts => ts = tab N (fun g => if (ini <=? g)%nat && (g <? ini + p)%nat then v (g - ini)%nat else nth g temps 0)) n temps) as (l & E & Hl).
  - rewrite (as_tab temps) at 1. apply tab_ext. intros g Hg.
    destruct (Nat.leb_spec ini g), (Nat.ltb_spec g (ini + 0)); try lia; reflexivity.
  - intros i ts Hi ->. rewrite idx_tab by assumption. cbn [bind]. unfold col_set. rewrite tab_length.
    destruct (Nat.ltb_spec (ini + i) N); [|lia]. rewrite upd_tab by assumption. eexists. split; [reflexivity|].
    apply tab_ext. intros g Hg.
    destruct (Nat.eqb_spec g (ini + i)) as [->|D].
    + replace (ini + i - ini)%nat with i by lia.
      destruct (Nat.leb_spec ini (ini + i)), (Nat.ltb_spec (ini + i) (ini + S i)); try lia; reflexivity.
    + destruct (Nat.leb_spec ini g), (Nat.ltb_spec g (ini + i)), (Nat.ltb_spec g (ini + S i)); try lia; reflexivity.
  - rewrite E, Hl. reflexivity.
Qed.

(** memory of the right shape *)
Definition chunk_ok (n : nat) (m : chunk) : Prop :=
  nd_wf 3 (ck m) /\ nrows (ck m) = n /\ ncols (ck m) = n /\ length (cc m) = n /\ length (cq m) = n /\ length (ctemps m) = n /\ cscratch m = n.

Lemma new_chunk_ok ini fin : (ini <= fin)%nat -> exists m, new_chunk ini fin = Ok m /\ chunk_ok (fin - ini) m.
Proof.
  intros H. unfold new_chunk. destruct (Nat.ltb_spec fin ini); [lia|]. eexists. split; [reflexivity|].
  repeat split; cbn [ck cc cq ctemps cscratch]; rewrite ?repeat_length; try reflexivity.
  apply nd_new_wf.
Qed.

(** heat entering node [ini + i] when its temperature and those of the other nodes of the chunk are [x], everything else being
    as in the profile [P] *)
Definition q_of (G P : nat -> R) (frad_q brad_q : R) (ini fin N n i : nat) : R :=
  (if (i =? 0)%nat then G ini * P ini + (if (ini =? 0)%nat then frad_q else 0) else 0)
  + (if (i =? n - 1)%nat then G fin * P (fin + 1)%nat + (if (fin =? N)%nat then brad_q else 0) else 0).

Lemma march_mass_spec segs temps solar dt b ini fin m n G :
  length temps = length segs -> length solar = length segs -> (fin <= length segs)%nat -> n = (fin - ini)%nat -> (2 <= n)%nat ->
  chunk_ok n m -> conductances segs temps ini fin (b_front_hs b) (b_back_hs b) G ->
  let P := profile (air_temperature (b_front b)) (air_temperature (b_back b)) temps in
  let fq := b_front_rad b * (rad_temperature (b_front b) - nth 0 temps 0) in
  let bq := b_back_rad b * (rad_temperature (b_back b) - nth (fin - 1) temps 0) in
  let c := fun i => fst (nth (ini + i) segs (0, UNone)) in
  let f := fun i j => K_of G ini i j * (dt / c i) in
  let q := fun i => (q_of G P fq bq ini fin (length segs) n i + nth (ini + i) solar 0) * (dt / c i) in
  let x := fun i => nth (ini + i) temps 0 in
  exists m', march_mass segs temps solar dt b ini fin m =
    Ok (tab (length temps) (fun g => if (ini <=? g)%nat && (g <? fin)%nat then rk_step n f q x (g - ini)%nat else nth g temps 0), m')
    /\ chunk_ok n m'.
Proof.
  intros HL HS Hf Hn Hn2 (W & A & B & LC & LQ & LT & SC) HG P fq bq c f q x.
  unfold march_mass.
  destruct (get_k_q_spec segs ini fin temps (b_front b) (b_front_hs b) (b_front_rad b) (b_back b) (b_back_hs b) (b_back_rad b) m n G) as (k & E & T);
    try assumption; try lia.
  rewrite E. clear E. cbn [bind cc ck cq ctemps cscratch].
  rewrite (fill_c_spec segs ini fin n) by (try assumption; lia). cbn [bind].
  rewrite (add_solar_spec solar ini fin n) by (try assumption; lia). cbn [bind].
  destruct (rearrange_spec dt k c (fun i => q_of G P fq bq ini fin (length segs) n i + nth (ini + i) solar 0) (ctemps m) (cscratch m) n (K_of G ini) T)
    as (k' & E & T').
  unfold q_of, P, fq, bq, c in E. rewrite HL. rewrite E. clear E. cbn [bind cc ck cq ctemps cscratch].
  rewrite <- Hn.
  rewrite (fold_res_ext _ (fun i l => vec_set l i (x i))).
  2:{ intros a b' Ha. apply in_seq in Ha. rewrite col_get_nth by lia. reflexivity. }
  rewrite (fill_tab n x (ctemps m) LT). cbn [bind]. rewrite SC.
  rewrite (rk4_spec n k' f _ q x T' Hn2) by apply tab_length. cbn [bind ctemps cscratch cc ck cq].
  rewrite (write_back ini n (rk_step n f q x) temps) by lia. cbn [bind].
  eexists. split.
  - f_equal. f_equal. rewrite <- HL. replace (ini + n)%nat with fin by lia. reflexivity.
  - destruct T' as (W' & A' & B' & _). repeat split; cbn [ck cc cq ctemps cscratch]; rewrite ?tab_length; auto.
Qed.

(** ** heat balances *)
Lemma mulv_K n G ini x i : (i < n)%nat ->
  mulv n (K_of G ini) x i
  = (if (i =? 0)%nat then 0 else G (ini + i)%nat * x (i - 1)%nat) - (G (ini + i)%nat + G (ini + i + 1)%nat) * x i
    + (if (i =? n - 1)%nat then 0 else G (ini + i + 1)%nat * x (i + 1)%nat).
Proof.
  intros Hi. unfold mulv.
  rewrite (rsum_ext n _ (fun j => (if (j =? i)%nat then - (G (ini + i)%nat + G (ini + i + 1)%nat) * x i else 0)
     + ((if (S j =? i)%nat then G (ini + i)%nat * x (i - 1)%nat else 0) + (if (j =? S i)%nat then G (ini + i + 1)%nat * x (i + 1)%nat else 0)))).
  2:{ intros j Hj. unfold K_of.
      destruct (Nat.eqb_spec i j), (Nat.eqb_spec j i), (Nat.eqb_spec j (i + 1)), (Nat.eqb_spec i (j + 1)), (Nat.eqb_spec (S j) i), (Nat.eqb_spec j (S i));
        try lia; subst; try ring.
      - rewrite Nat.add_assoc. ring.
      - replace (j + 1 - 1)%nat with j by lia. ring. }
  rewrite !rsum_plus.
  rewrite (rsum_single n i (fun j => if (j =? i)%nat then - (G (ini + i)%nat + G (ini + i + 1)%nat) * x i else 0) Hi).
  2:{ intros j _ D. destruct (Nat.eqb_spec j i); [contradiction|reflexivity]. }
  rewrite Nat.eqb_refl.
  assert (E1 : rsum n (fun j => if (S j =? i)%nat then G (ini + i)%nat * x (i - 1)%nat else 0) = if (i =? 0)%nat then 0 else G (ini + i)%nat * x (i - 1)%nat).
  { destruct (Nat.eqb_spec i 0).
    - apply rsum_0. intros j _. destruct (Nat.eqb_spec (S j) i); [lia|reflexivity].
    - rewrite (rsum_single n (i - 1)); [|lia|intros j _ D; destruct (Nat.eqb_spec (S j) i); [lia|reflexivity]].
      destruct (Nat.eqb_spec (S (i - 1)) i); [reflexivity|lia]. }
  assert (E2 : rsum n (fun j => if (j =? S i)%nat then G (ini + i + 1)%nat * x (i + 1)%nat else 0) = if (i =? n - 1)%nat then 0 else G (ini + i + 1)%nat * x (i + 1)%nat).
  { destruct (Nat.eqb_spec i (n - 1)).
    - apply rsum_0. intros j Hj. destruct (Nat.eqb_spec j (S i)); [lia|reflexivity].
    - rewrite (rsum_single n (S i)); [|lia|intros j _ D; destruct (Nat.eqb_spec j (S i)); [lia|reflexivity]].
      rewrite Nat.eqb_refl. reflexivity. }
  rewrite E1, E2. ring.
Qed.

Lemma rsum_shift n f : rsum (S n) f = f 0%nat + rsum n (fun i => f (S i)).
Proof. induction n; [cbn; lra|]. change (rsum (S (S n)) f) with (rsum (S n) f + f (S n)). rewrite IHn. cbn. lra. Qed.

(** the sum of the heat entering all the nodes of a chunk is what enters through its ends *)
Lemma K_sum n G ini x : (0 < n)%nat ->
  rsum n (mulv n (K_of G ini) x) = - G ini * x 0%nat - G (ini + n)%nat * x (n - 1)%nat.
Proof.
  intros Hn.
  set (a := fun k : nat => if (k =? 0)%nat then G (ini + k)%nat * x k * -1 else G (ini + k)%nat * (x (k - 1)%nat - x k)).
  set (b := fun k : nat => if (k =? n)%nat then G (ini + k)%nat * x (k - 1)%nat else G (ini + k)%nat * (x (k - 1)%nat - x k)).
  rewrite (rsum_ext n _ (fun i => a i - b (S i))).
  2:{ intros i Hi. rewrite mulv_K by assumption. unfold a, b. replace (ini + S i)%nat with (ini + i + 1)%nat by lia.
      replace (S i - 1)%nat with i by lia. replace (S i) with (i + 1)%nat by lia.
      destruct (Nat.eqb_spec i 0), (Nat.eqb_spec i (n - 1)), (Nat.eqb_spec (i + 1) n); try lia; ring. }
  assert (E : forall p, (p < n)%nat -> rsum p (fun i => a i - b (S i)) = a 0%nat - (if (p =? 0)%nat then a 0%nat else b p)).
  { induction p as [|p IH]; intros Hp; cbn [rsum]; [cbn; lra|]. rewrite IH by lia.
    destruct (Nat.eqb_spec p 0) as [E0|E0]; cbn [Nat.eqb]; [rewrite E0; lra|].
    assert (a p = b p) by (unfold a, b; destruct (Nat.eqb_spec p 0), (Nat.eqb_spec p n); try lia; reflexivity). lra. }
  destruct n as [|n]; [lia|]. cbn [rsum]. rewrite E by lia. unfold a, b.
  destruct (Nat.eqb_spec n 0) as [->|]; cbn [Nat.eqb].
  - cbn. rewrite Nat.add_0_r. lra.
  - destruct (Nat.eqb_spec n (S n)), (Nat.eqb_spec n n); try lia. rewrite Nat.add_0_r. replace (S n - 1)%nat with n by lia. lra.
Qed.

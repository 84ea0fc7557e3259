(** Claims C71 to C73: the march of the massless nodes, the border conditions, and the march of a whole surface. *)
From Coq Require Import List Arith Reals Bool Lia Lra Ring Psatz.
From Verif.Common Require Import Base Flt.
From Verif.Matrix Require Import MatrixModel MatrixSpec NDiagProofs GaussSeidel.
From Verif.Heat Require Import GasModel DiscretizationModel DiscretizationProofs ConvectionModel WallModel WallProofs MarchModel TridiagProofs.
From Verif.Properties Require Import WallProps ConvectionProps CavityProps.
Import ListNotations.
Open Scope R_scope.

(** ** C71: the march of the massless nodes *)
(** heat entering node [g] of the chunk [ini .. fin - 1] if the temperatures of its nodes were [x]: conduction at [x], radiation at
    the current temperatures, and absorbed solar radiation *)
Definition heat_at (segs : list segment) (temps solar : list R) (b : border) (ini fin : nat) (x : nat -> R) (g : nat) : R :=
  let G := link segs temps (b_front_hs b) (b_back_hs b) in
  (** neighbours: [P g] before node [g], [P (g + 2)] after it *)
  let P := fun k => if (ini <? k)%nat && (k <=? fin)%nat then x (k - 1)%nat else beside b temps k in
  G g * (P g - x g) + G (g + 1)%nat * (P (g + 2)%nat - x g)
  + (if (g =? 0)%nat then front_rad b temps else 0) + (if (g =? length temps - 1)%nat then back_rad b temps else 0)
  + nth g solar 0.
Definition balanced segs temps solar b ini fin (x : nat -> R) : Prop :=
  forall g, (ini <= g < fin)%nat -> heat_at segs temps solar b ini fin x g = 0.
(** every conductance of the chunk, and of the two links to what is next to it, is between [1e-12] and [1e12] *)
Definition usual segs temps (b : border) (ini fin : nat) : Prop :=
  forall g, (ini <= g <= fin)%nat -> 1 / 10 ^ 12 <= link segs temps (b_front_hs b) (b_back_hs b) g <= 10 ^ 12.
(** one turn: the nodes of the chunk move half way to the balanced temperatures, the others keep theirs *)
Definition half_way (ini fin : nat) (temps : list R) (x : nat -> R) (temps' : list R) : Prop :=
  length temps' = length temps /\
  forall g, (g < length temps)%nat ->
    nth g temps' 0 = if (ini <=? g)%nat && (g <? fin)%nat then (nth g temps 0 + x g) / 2 else nth g temps 0.
(** mean distance between the nodes of a chunk and the temperatures [x] *)
Definition mean_distance (ini fin : nat) (temps : list R) (x : nat -> R) : R :=
  rsum (fin - ini) (fun i => Rabs (x (ini + i)%nat - nth (ini + i) temps 0)) / INR (fin - ini).

Lemma nth_tab n (f : nat -> R) i : (i < n)%nat -> nth i (tab n f) 0 = f i.
Proof. intros H. apply nth_error_nth. rewrite nth_error_tab. destruct (Nat.ltb_spec i n); [reflexivity|lia]. Qed.

Section Chunk.
Context {segs : list segment} {temps solar : list R} {b : border} {ini fin : nat} {m : chunk}.
Hypotheses (HL : length temps = length segs) (HS : length solar = length segs) (Hi : (ini < fin)%nat) (Hf : (fin <= length segs)%nat)
  (Hm : chunk_ok (fin - ini) m) (HU : has_u segs temps) (HR : usual segs temps b ini fin).
Local Notation n := (fin - ini)%nat.
Local Notation G := (link segs temps (b_front_hs b) (b_back_hs b)).
Local Notation local x := (fun i => x (ini + i)%nat).

Lemma heat_at_mulv x i : (i < n)%nat ->
  mulv n (K_of G ini) (local x) i + (q_at (segs := segs) (temps := temps) (b := b) (ini := ini) (fin := fin) i + nth (ini + i) solar 0)
  = heat_at segs temps solar b ini fin x (ini + i).
Proof.
  intros H. rewrite mulv_K by assumption. unfold heat_at, q_at.
  assert (P0 : i <> 0%nat -> ((ini <? ini + i) && (ini + i <=? fin))%nat = true) by (intros; apply andb_true_intro; split; [apply Nat.ltb_lt|apply Nat.leb_le]; lia).
  assert (P2 : i <> (n - 1)%nat -> ((ini <? ini + i + 2) && (ini + i + 2 <=? fin))%nat = true) by (intros; apply andb_true_intro; split; [apply Nat.ltb_lt|apply Nat.leb_le]; lia).
  assert (Q0 : i = 0%nat -> ((ini <? ini + i) && (ini + i <=? fin))%nat = false) by (intros ->; apply andb_false_intro1; apply Nat.ltb_ge; lia).
  assert (Q2 : i = (n - 1)%nat -> ((ini <? ini + i + 2) && (ini + i + 2 <=? fin))%nat = false) by (intros ->; apply andb_false_intro2; apply Nat.leb_gt; lia).
  destruct (Nat.eqb_spec i 0) as [E0|E0], (Nat.eqb_spec i (n - 1)) as [E1|E1].
  - rewrite Q0, Q2 by assumption. replace (ini + i)%nat with ini by lia. replace (ini + 1)%nat with fin by lia. replace (ini + 2)%nat with (fin + 1)%nat by lia.
    destruct (Nat.eqb_spec fin (length temps)), (Nat.eqb_spec ini (length temps - 1)); try lia; ring.
  - rewrite Q0, P2 by assumption. replace (ini + i)%nat with ini by lia. replace (ini + 2 - 1)%nat with (ini + 1)%nat by lia.
    replace (ini + (i + 1))%nat with (ini + 1)%nat by lia. destruct (Nat.eqb_spec ini (length temps - 1)); try lia; ring.
  - rewrite P0, Q2 by assumption. replace (ini + (i - 1))%nat with (ini + i - 1)%nat by lia. replace (ini + i + 1)%nat with fin by lia.
    replace (ini + i + 2)%nat with (fin + 1)%nat by lia. destruct (Nat.eqb_spec (ini + i) 0); [lia|].
    destruct (Nat.eqb_spec fin (length temps)), (Nat.eqb_spec (ini + i) (length temps - 1)); try lia; ring.
  - rewrite P0, P2 by assumption. replace (ini + (i - 1))%nat with (ini + i - 1)%nat by lia. replace (ini + i + 2 - 1)%nat with (ini + (i + 1))%nat by lia.
    destruct (Nat.eqb_spec (ini + i) 0); [lia|]. destruct (Nat.eqb_spec (ini + i) (length temps - 1)); [lia|]. ring.
Qed.

Lemma K_chain i j : K (fun i => G (ini + i)%nat) i j = K_of G ini i j.
Proof. unfold K, K_of. rewrite Nat.add_assoc. reflexivity. Qed.

(** what one turn solves: the balanced temperatures, which exist and are unique *)
Theorem C71_balanced_temperatures : exists x m', nomass_solve segs temps solar b ini fin m = Ok (x, m') /\ chunk_ok n m' /\ length x = n /\
  balanced segs temps solar b ini fin (fun g => nth (g - ini) x 0) /\
  forall y, balanced segs temps solar b ini fin y -> forall g, (ini <= g < fin)%nat -> y g = nth (g - ini) x 0.
Proof.
  unfold nomass_solve. destruct (kq_ok (b := b) HL Hi Hf Hm HU) as (m1 & E & T & Q & C1 & C2 & C3). unfold kq in E. rewrite E. cbn [bind].
  rewrite Q. rewrite (add_solar_spec solar ini fin n) by lia. cbn [bind]. unfold scale. rewrite map_tab.
  assert (T' : is_tri n (ck m1) (K (fun i => G (ini + i)%nat))) by (apply (is_tri_ext _ _ _ _ T); intros; symmetry; apply K_chain).
  destruct (chain_solved n (fun i => G (ini + i)%nat) ltac:(intros i H; apply HR; lia) ltac:(lia) (ck m1)
    (tab n (fun i => (q_at (segs := segs) (temps := temps) (b := b) (ini := ini) (fin := fin) i + nth (ini + i) solar 0) * -1)) T' ltac:(apply tab_length))
    as (x & Ex & Lx & Sx & Ux).
  rewrite Ex. cbn [bind]. exists x. eexists. split; [reflexivity|].
  assert (MK : forall y i, mulv n (K (fun i => G (ini + i)%nat)) y i = mulv n (K_of G ini) y i).
  { intros y i. unfold mulv. apply rsum_ext. intros j _. rewrite K_chain. reflexivity. }
  split; [|split; [exact Lx|split]].
  - destruct T as (W & A & B & _). destruct Hm as (_ & _ & _ & LC & _ & LT & SC). repeat split; cbn [ck cc cq ctemps cscratch]; rewrite ?tab_length; congruence.
  - intros g Hg. replace g with (ini + (g - ini))%nat by lia. rewrite <- heat_at_mulv by lia.
    rewrite (mulv_ext n _ _ (fun j => nth j x 0)) by (intros j Hj; f_equal; lia).
    rewrite <- MK, Sx, nth_tab by lia. ring.
  - intros y Hy g Hg. rewrite <- (Ux (local y)) with (i := (g - ini)%nat); [f_equal; lia| |lia].
    intros i Hin. rewrite MK, nth_tab by assumption. pose proof (Hy (ini + i)%nat ltac:(lia)) as H. rewrite <- heat_at_mulv in H by assumption. lra.
Qed.

Lemma balanced_unique x y : balanced segs temps solar b ini fin x -> balanced segs temps solar b ini fin y ->
  forall g, (ini <= g < fin)%nat -> x g = y g.
Proof.
  destruct C71_balanced_temperatures as (z & m' & _ & _ & _ & _ & U). intros Hx Hy g Hg. rewrite (U x Hx g Hg), (U y Hy g Hg). reflexivity.
Qed.

Lemma nomass_error_spec x : length x = n -> nomass_error temps x ini fin = Ok (mean_distance ini fin temps (fun g => nth (g - ini) x 0)).
Proof.
  intros Lx. unfold nomass_error.
  destruct (fold_res_seq (fun local_i e => do l <- idx x local_i; do g <- col_get temps (ini + local_i); Ok (e + Rabs (l - g)))
     (fun p e => e = rsum p (fun i => Rabs (nth i x 0 - nth (ini + i) temps 0))) n 0) as (e & E & He).
  - reflexivity.
  - intros i e Hin ->. rewrite (as_tab x), Lx, idx_tab by assumption. cbn [bind]. rewrite col_get_nth by lia. cbn [bind].
    eexists. split; [reflexivity|]. cbn [rsum]. rewrite <- Lx. rewrite <- (as_tab x). reflexivity.
  - rewrite E, He. cbn [bind]. f_equal. unfold mean_distance. f_equal. apply rsum_ext. intros i _. do 3 f_equal. lia.
Qed.

Lemma average_in_spec x : length x = n -> exists t', average_in temps x ini fin = Ok t' /\ half_way ini fin temps (fun g => nth (g - ini) x 0) t'.
Proof.
  intros Lx. unfold average_in. set (N := length temps).
  destruct (fold_res_seq (fun local_i ts => do l <- idx x local_i; do g <- col_get ts (ini + local_i);
                              do ts <- col_set ts (ini + local_i) (g + l);
                              do g <- col_get ts (ini + local_i); col_set ts (ini + local_i) (g * (5 / 10)))
     (fun p ts => ts = tab N (fun g => if (ini <=? g)%nat && (g <? ini + p)%nat then (nth g temps 0 + nth (g - ini) x 0) / 2 else nth g temps 0)) n temps) as (l & E & Hl).
  - rewrite (as_tab temps) at 1. apply tab_ext. intros g Hg.
    destruct (Nat.leb_spec ini g), (Nat.ltb_spec g (ini + 0)); try lia; reflexivity.
  - intros i ts Hin ->. unfold idx. rewrite (nth_error_nth' x 0) by lia. cbn [bind]. rewrite col_get_tab by lia. cbn [bind].
    unfold col_set. rewrite tab_length. destruct (Nat.ltb_spec (ini + i) N); [|unfold N in *; lia]. rewrite upd_tab by assumption. cbn [bind].
    rewrite col_get_tab by assumption. cbn [bind]. rewrite tab_length. destruct (Nat.ltb_spec (ini + i) N); [|lia]. rewrite upd_tab by assumption.
    eexists. split; [reflexivity|]. apply tab_ext. intros g Hg. rewrite Nat.eqb_refl.
    destruct (Nat.eqb_spec g (ini + i)) as [->|D].
    + replace (ini + i - ini)%nat with i by lia.
      destruct (Nat.leb_spec ini (ini + i)), (Nat.ltb_spec (ini + i) (ini + i)), (Nat.ltb_spec (ini + i) (ini + S i)); try lia; cbn [andb]. lra.
    + destruct (Nat.leb_spec ini g), (Nat.ltb_spec g (ini + i)), (Nat.ltb_spec g (ini + S i)); try lia; reflexivity.
  - exists l. split; [exact E|]. rewrite Hl. split; [apply tab_length|]. intros g Hg. rewrite nth_tab by assumption.
    replace (ini + n)%nat with fin by lia. reflexivity.
Qed.
End Chunk.

(** ** the loop *)
Section Loop.
Variables (segs : list segment) (solar : list R) (b : border) (ini fin : nat) (T0 : list R).
Definition is_turn (T : list R) (e : R) (T' : list R) : Prop :=
  exists x, balanced segs T solar b ini fin x /\ e = mean_distance ini fin T x /\ half_way ini fin T x T'.
(** the error that ends the march after [k] turns *)
Definition tolerance (k : nat) : R := if (k <=? 100)%nat then 1 / 100 else 1 / 2.
(** [turns k T e]: after [k] turns from [T0] the temperatures are [T], and the distance covered in the last turn was [e]/2; the
    distance never grew and was not yet within tolerance *)
Inductive turns : nat -> list R -> R -> Prop :=
| turns_none : turns 0 T0 99999
| turns_more k T e e' T' : turns k T e -> (k = 0%nat \/ tolerance k <= e) -> is_turn T e' T' -> e' <= e -> turns (S k) T' e'.
(** the four reasons to stop *)
Definition stops (k : nat) (T : list R) (e : R) : Prop :=
  (exists e' T', is_turn T e' T' /\ e < e') \/ ((0 < k)%nat /\ e < tolerance k) \/ k = (19 * 1000 + 2)%nat.

Hypotheses (HS : length solar = length segs) (Hi : (ini < fin)%nat) (Hf : (fin <= length segs)%nat)
  (Hall : forall T, length T = length segs -> has_u segs T /\ usual segs T b ini fin).

Lemma loop_spec : forall fuel count old T m, (fuel + count = 19 * 1000 + 2)%nat -> (0 < fuel)%nat -> length T = length segs -> chunk_ok (fin - ini) m ->
  turns count T old -> (count = 0%nat \/ tolerance count <= old) ->
  exists k T' e m', nomass_loop fuel count old segs T solar b ini fin m = Ok (T', m') /\ chunk_ok (fin - ini) m' /\
    length T' = length segs /\ turns k T' e /\ (k <= 19 * 1000 + 2)%nat /\ stops k T' e.
Proof.
  induction fuel as [|fuel IH]; intros count old T m Hc F0 LT Hm Ht Hold; [lia|]. cbn [nomass_loop].
  destruct (Hall T LT) as [HU HR].
  destruct (C71_balanced_temperatures LT HS Hi Hf Hm HU HR) as (x & m1 & E & M1 & Lx & Bx & _). rewrite E. cbn [bind].
  rewrite (nomass_error_spec LT HS Hi Hf x Lx). cbn [bind].
  destruct (average_in_spec LT HS Hi Hf x Lx) as (T1 & E1 & H1).
  set (y := fun g => nth (g - ini) x 0) in *. set (e := mean_distance ini fin T y) in *.
  assert (Turn : is_turn T e T1) by (exists y; repeat split; try assumption; apply H1).
  destruct (Rltb old e) eqn:Hoe; [apply Rltb_true in Hoe|apply Rltb_false in Hoe].
  - exists count, T, old, m1. split; [reflexivity|]. split; [assumption|]. split; [assumption|]. split; [assumption|]. split; [lia|].
    left. exists e, T1. split; assumption.
  - rewrite E1. cbn [bind].
    assert (L1 : length T1 = length segs) by (destruct H1 as [H1 _]; congruence).
    assert (Ht1 : turns (S count) T1 e) by (apply turns_more with (k := count) (T := T) (e := old); try assumption; lra).
    assert (TE : (if (count <? 100)%nat then 1 / 100 else 5 / 10) = tolerance (S count)).
    { unfold tolerance. destruct (Nat.ltb_spec count 100), (Nat.leb_spec (S count) 100); try lia; lra. }
    rewrite TE. destruct (Rltb e (tolerance (S count))) eqn:Het; [apply Rltb_true in Het|apply Rltb_false in Het].
    + exists (S count), T1, e, m1. split; [reflexivity|]. split; [assumption|]. split; [assumption|]. split; [assumption|]. split; [lia|].
      right. left. split; [lia|assumption].
    + destruct (Nat.ltb_spec (19 * 1000) count).
      * exists (S count), T1, e, m1. split; [reflexivity|]. split; [assumption|]. split; [assumption|]. split; [assumption|]. split; [lia|].
        right. right. lia.
      * replace (count + 1)%nat with (S count) by lia.
        apply IH; try assumption; try lia. right. assumption.
Qed.

(** the march of the massless nodes always ends, after at most 19002 turns *)
Theorem C71_ends_partial m : length T0 = length segs -> chunk_ok (fin - ini) m ->
  exists k T e m', nomass_loop (19 * 1000 + 2) 0 99999 segs T0 solar b ini fin m = Ok (T, m') /\ chunk_ok (fin - ini) m' /\
    length T = length segs /\ turns k T e /\ (k <= 19 * 1000 + 2)%nat /\ stops k T e.
Proof. intros L0 Hm. apply loop_spec; try assumption; try lia. apply turns_none. Qed.
End Loop.

(** ** convergence *)
(** a profile of the nodes of a chunk, zero at both sides *)
Definition ext (n : nat) (d : nat -> R) (k : nat) : R := if (1 <=? k)%nat && (k <=? n)%nat then d (k - 1)%nat else 0.
Definition form (n : nat) (c : nat -> R) (y d : nat -> R) : R :=
  rsum (S n) (fun i => c i * ((ext n y i - ext n y (i + 1)) * (ext n d i - ext n d (i + 1)))).

Lemma abel (Y F : nat -> R) p : rsum p (fun i => Y (i + 1)%nat * (F i - F (i + 1)%nat))
  = rsum p (fun i => F i * (Y (i + 1)%nat - Y i)) + Y 0%nat * F 0%nat - Y p * F p.
Proof. induction p as [|p IH]; cbn [rsum]; [ring|]. rewrite IH. replace (p + 1)%nat with (S p) by lia. ring. Qed.

Lemma by_parts n G ini y d : (0 < n)%nat -> rsum n (fun i => y i * mulv n (K_of G ini) d i) = - form n (fun i => G (ini + i)%nat) y d.
Proof.
  intros Hn. set (Y := ext n y). set (F := fun i => G (ini + i)%nat * (ext n d i - ext n d (i + 1))).
  rewrite (rsum_ext n _ (fun i => Y (i + 1)%nat * (F i - F (i + 1)%nat))).
  2:{ intros i Hi. rewrite mulv_K by assumption. unfold Y, F, ext. rewrite Nat.add_assoc.
      replace (i + 1 - 1)%nat with i by lia. replace (i + 1 + 1 - 1)%nat with (i + 1)%nat by lia.
      destruct (Nat.leb_spec 1 (i + 1)), (Nat.leb_spec (i + 1) n), (Nat.leb_spec 1 i), (Nat.leb_spec i n), (Nat.leb_spec 1 (i + 1 + 1)), (Nat.leb_spec (i + 1 + 1) n),
        (Nat.eqb_spec i 0), (Nat.eqb_spec i (n - 1)); try lia; cbn [andb]; ring. }
  rewrite abel. unfold form. fold Y. cbn [rsum].
  assert (Y0 : Y 0%nat = 0) by reflexivity.
  assert (Yn : Y (n + 1)%nat = 0). { unfold Y, ext. destruct (Nat.leb_spec (n + 1) n); [lia|]. rewrite andb_false_r. reflexivity. }
  rewrite Y0, Yn. rewrite (rsum_ext n (fun i => F i * (Y (i + 1)%nat - Y i))
    (fun i => -1 * (G (ini + i)%nat * ((Y i - Y (i + 1)%nat) * (ext n d i - ext n d (i + 1)))))) by (intros; unfold F; ring).
  rewrite rsum_scal. unfold F. ring.
Qed.

Lemma form_lin n c y z a t d : form n c (fun i => (y i + z i) * a) (fun i => (t i + d i) * a) = a * a * (form n c y t + form n c y d + (form n c z t + form n c z d)).
Proof.
  unfold form. rewrite <- !rsum_plus, <- rsum_scal. apply rsum_ext. intros i _. unfold ext.
  destruct ((1 <=? i)%nat && (i <=? n)%nat), ((1 <=? i + 1)%nat && (i + 1 <=? n)%nat); ring.
Qed.
Lemma form_sym n c y d : form n c y d = form n c d y.
Proof. unfold form. apply rsum_ext. intros. ring. Qed.
Lemma rsum_nonneg n f : (forall i, (i < n)%nat -> 0 <= f i) -> 0 <= rsum n f.
Proof. induction n; intros H; cbn [rsum]; [lra|]. pose proof (H n ltac:(lia)). specialize (IHn ltac:(intros; apply H; lia)). lra. Qed.
Lemma rsum_le n f g : (forall i, (i < n)%nat -> f i <= g i) -> rsum n f <= rsum n g.
Proof. induction n; intros H; cbn [rsum]; [lra|]. pose proof (H n ltac:(lia)). specialize (IHn ltac:(intros; apply H; lia)). lra. Qed.
Lemma sq_nonneg x : 0 <= x * x.
Proof. apply Rle_0_sqr. Qed.
Lemma form_nonneg n c d : (forall i, (i <= n)%nat -> 0 <= c i) -> 0 <= form n c d d.
Proof. intros H. apply rsum_nonneg. intros i Hi. apply Rmult_le_pos; [apply H; lia|apply sq_nonneg]. Qed.

(** the ends *)
Lemma form_ends n c d : (0 < n)%nat -> (forall i, (i <= n)%nat -> 0 <= c i) ->
  c 0%nat * (d 0%nat * d 0%nat) + c n * (d (n - 1)%nat * d (n - 1)%nat) <= form n c d d.
Proof.
  intros Hn H. unfold form. cbn [rsum].
  assert (E : ext n d (n + 1) = 0). { unfold ext. destruct (Nat.leb_spec (n + 1) n); [lia|]. rewrite andb_false_r. reflexivity. }
  assert (E' : ext n d n = d (n - 1)%nat). { unfold ext. destruct (Nat.leb_spec 1 n), (Nat.leb_spec n n); try lia. reflexivity. }
  rewrite E, E'.
  assert (Z : c 0%nat * (d 0%nat * d 0%nat) <= rsum n (fun i => c i * ((ext n d i - ext n d (i + 1)) * (ext n d i - ext n d (i + 1))))).
  { destruct n as [|p]; [lia|]. rewrite rsum_shift.
    assert (E0 : ext (S p) d 0 = 0) by reflexivity. assert (E1 : ext (S p) d (0 + 1) = d 0%nat) by reflexivity. rewrite E0, E1.
    assert (0 <= rsum p (fun i => c (S i) * ((ext (S p) d (S i) - ext (S p) d (S i + 1)) * (ext (S p) d (S i) - ext (S p) d (S i + 1))))).
    { apply rsum_nonneg. intros i Hi. apply Rmult_le_pos; [apply H; lia|apply sq_nonneg]. }
    lra. }
  lra.
Qed.

Lemma contraction n G ini (rad delta y : nat -> R) r : (0 < n)%nat -> 0 < r ->
  let c := fun i => G (ini + i)%nat in
  (forall i, (i <= n)%nat -> 0 <= c i) ->
  (forall i, (i < n)%nat -> 0 <= rad i) ->
  (forall z, rsum n (fun i => rad i * (z i * z i)) <= r * form n c z z) ->
  (forall i, (i < n)%nat -> mulv n (K_of G ini) y i = rad i * delta i) ->
  form n c (fun i => (delta i + y i) * (1 / 2)) (fun i => (delta i + y i) * (1 / 2)) <= (Rmax 1 (r - 1) / 2) ^ 2 * form n c delta delta.
Proof.
  intros Hn Hr c Hc Hrad Hb HK.
  assert (F1 : form n c delta y = - rsum n (fun i => rad i * (delta i * delta i))).
  { pose proof (by_parts n G ini delta y Hn) as P. fold c in P. rewrite <- (Ropp_involutive (form n c delta y)), <- P. f_equal. apply rsum_ext. intros i Hi.
    rewrite HK by assumption. ring. }
  assert (F2 : form n c y y = - rsum n (fun i => rad i * (y i * delta i))).
  { pose proof (by_parts n G ini y y Hn) as P. fold c in P. rewrite <- (Ropp_involutive (form n c y y)), <- P. f_equal. apply rsum_ext. intros i Hi.
    rewrite HK by assumption. ring. }
  set (S := rsum n (fun i => rad i * (delta i * delta i))) in *.
  assert (S0 : 0 <= S). { apply rsum_nonneg. intros i Hi. apply Rmult_le_pos; [apply Hrad; assumption|apply sq_nonneg]. }
  pose proof (Hb delta) as S1. fold S in S1.
  assert (F3 : form n c y y <= r * S).
  { assert (A : - rsum n (fun i => rad i * (y i * delta i)) <= / (2 * r) * rsum n (fun i => rad i * (y i * y i)) + r / 2 * S).
    { replace (- rsum n (fun i => rad i * (y i * delta i))) with (rsum n (fun i => -1 * (rad i * (y i * delta i)))) by (rewrite rsum_scal; ring).
      unfold S. rewrite <- !rsum_scal, <- rsum_plus. apply rsum_le. intros i Hi. pose proof (Hrad i Hi) as Ri.
      replace (/ (2 * r) * (rad i * (y i * y i)) + r / 2 * (rad i * (delta i * delta i)))
        with (-1 * (rad i * (y i * delta i)) + / (2 * r) * (rad i * ((y i + r * delta i) * (y i + r * delta i)))) by (field; lra).
      assert (0 <= / (2 * r) * (rad i * ((y i + r * delta i) * (y i + r * delta i)))).
      { apply Rmult_le_pos; [apply Rlt_le, Rinv_0_lt_compat; lra|]. apply Rmult_le_pos; [assumption|apply sq_nonneg]. }
      lra. }
    rewrite <- F2 in A. pose proof (Hb y) as B.
    assert (C : / (2 * r) * rsum n (fun i => rad i * (y i * y i)) <= / (2 * r) * (r * form n c y y)).
    { apply Rmult_le_compat_l; [apply Rlt_le, Rinv_0_lt_compat; lra|assumption]. }
    replace (/ (2 * r) * (r * form n c y y)) with (form n c y y / 2) in C by (field; lra). lra. }
  rewrite form_lin, (form_sym n c y delta), F1.
  pose proof (form_nonneg n c delta Hc) as D0. set (D := form n c delta delta) in *.
  assert (X : D - S + (- S + form n c y y) <= D + (r - 2) * S) by lra.
  assert (Y : D + (r - 2) * S <= Rmax 1 (r - 1) ^ 2 * D).
  { unfold Rmax. destruct (Rle_dec 1 (r - 1)) as [L|L].
    - assert ((r - 2) * S <= (r - 2) * (r * D)) by (apply Rmult_le_compat_l; lra). nra.
    - assert (0 <= (2 - r) * S) by (apply Rmult_le_pos; lra). lra. }
  replace ((Rmax 1 (r - 1) / 2) ^ 2 * D) with (1 / 2 * (1 / 2) * (Rmax 1 (r - 1) ^ 2 * D)) by field.
  apply Rmult_le_compat_l; lra.
Qed.

Section Converges.
Variables (segs : list segment) (solar : list R) (b : border) (ini fin : nat).
Local Notation n := (fin - ini)%nat.
(** no element of the wall is a cavity: conductances do not depend on the temperatures *)
Definition solid_wall : Prop := forall g s, nth_error segs g = Some s -> (g + 1 < length segs)%nat -> exists u, snd s = Solid u.
(** [T] and [T'] differ only in the nodes of the chunk *)
Definition same_outside (T T' : list R) : Prop := length T = length T' /\ forall g, (g < ini \/ fin <= g)%nat -> nth g T 0 = nth g T' 0.
(** temperatures at which the nodes of the chunk stay: no heat enters any of them *)
Definition steady (T : list R) : Prop := balanced segs T solar b ini fin (fun g => nth g T 0).
(** how far two profiles are: conductance times the square of the differences between neighbours, added over the chunk *)
Definition spread (T T' : list R) : R :=
  let d := fun i => nth (ini + i) T 0 - nth (ini + i) T' 0 in
  form n (fun i => link segs T' (b_front_hs b) (b_back_hs b) (ini + i)%nat) d d.

Hypotheses (HS : length solar = length segs) (Hi : (ini < fin)%nat) (Hf : (fin <= length segs)%nat)
  (Hsolid : solid_wall) (Husual : forall T, length T = length segs -> usual segs T b ini fin).

Lemma solid_u T : has_u segs T.
Proof. intros g s Hg Es. destruct (Hsolid g s Es Hg) as (u & ->). exists u. reflexivity. Qed.
Lemma link_const T T' g : link segs T (b_front_hs b) (b_back_hs b) g = link segs T' (b_front_hs b) (b_back_hs b) g.
Proof.
  unfold link. destruct (Nat.eqb_spec g 0); [reflexivity|]. destruct (Nat.eqb_spec g (length segs)); [reflexivity|].
  unfold u_at. destruct (nth_error segs (g - 1)) as [s|] eqn:E; [|reflexivity].
  assert (g - 1 < length segs)%nat by (apply nth_error_Some; congruence).
  destruct (Hsolid _ _ E) as (u & ->); [lia|]. reflexivity.
Qed.

Definition rad_at (i : nat) : R :=
  (if (ini + i =? 0)%nat then b_front_rad b else 0) + (if (ini + i =? length segs - 1)%nat then b_back_rad b else 0).

Lemma rad_bound r (c z : nat -> R) : 0 <= r -> (forall i, (i <= n)%nat -> 0 <= c i) ->
  (ini = 0%nat -> b_front_rad b <= r * c 0%nat) -> (fin = length segs -> b_back_rad b <= r * c n) ->
  rsum n (fun i => rad_at i * (z i * z i)) <= r * form n c z z.
Proof.
  intros Hr Hc H1 H2. apply Rle_trans with (r * (c 0%nat * (z 0%nat * z 0%nat) + c n * (z (n - 1)%nat * z (n - 1)%nat))).
  2:{ apply Rmult_le_compat_l; [assumption|]. apply form_ends; [lia|assumption]. }
  unfold rad_at. rewrite (rsum_ext n _ (fun i => (if (ini + i =? 0)%nat then b_front_rad b else 0) * (z i * z i) + (if (ini + i =? length segs - 1)%nat then b_back_rad b else 0) * (z i * z i)))
    by (intros; ring). rewrite rsum_plus.
  rewrite (rsum_single n 0 (fun i => (if (ini + i =? 0)%nat then b_front_rad b else 0) * (z i * z i))); [|lia|intros i _ D; destruct (Nat.eqb_spec (ini + i) 0); [lia|ring]].
  rewrite (rsum_single n (n - 1)); [|lia|intros i Hin D; destruct (Nat.eqb_spec (ini + i) (length segs - 1)); [lia|ring]].
  pose proof (sq_nonneg (z 0%nat)) as Z0. pose proof (sq_nonneg (z (n - 1)%nat)) as Z1.
  assert (A : (if (ini + 0 =? 0)%nat then b_front_rad b else 0) * (z 0%nat * z 0%nat) <= r * c 0%nat * (z 0%nat * z 0%nat)).
  { apply Rmult_le_compat_r; [assumption|]. destruct (Nat.eqb_spec (ini + 0) 0); [apply H1; lia|]. apply Rmult_le_pos; [assumption|apply Hc; lia]. }
  assert (B : (if (ini + (n - 1) =? length segs - 1)%nat then b_back_rad b else 0) * (z (n - 1)%nat * z (n - 1)%nat) <= r * c n * (z (n - 1)%nat * z (n - 1)%nat)).
  { apply Rmult_le_compat_r; [assumption|]. destruct (Nat.eqb_spec (ini + (n - 1)) (length segs - 1)); [apply H2; lia|]. apply Rmult_le_pos; [assumption|apply Hc; lia]. }
  lra.
Qed.

Lemma beside_outside T T' g : same_outside T T' -> length T = length segs -> (g <= ini \/ fin < g)%nat -> beside b T g = beside b T' g.
Proof.
  intros [L O] LT Hg. unfold beside. destruct (Nat.eqb_spec g 0); [reflexivity|]. rewrite <- L.
  destruct (Nat.eqb_spec g (length T + 1)); [reflexivity|]. apply O. lia.
Qed.

Lemma departure T Ts x i : length T = length segs -> same_outside T Ts -> steady Ts -> balanced segs T solar b ini fin x -> (i < n)%nat ->
  mulv n (K_of (link segs Ts (b_front_hs b) (b_back_hs b)) ini) (fun i => x (ini + i)%nat - nth (ini + i) Ts 0) i
  = rad_at i * (nth (ini + i) T 0 - nth (ini + i) Ts 0).
Proof.
  intros LT O St Bx Hin. pose proof O as [L _].
  pose proof (Bx (ini + i)%nat ltac:(lia)) as H1. pose proof (St (ini + i)%nat ltac:(lia)) as H2.
  rewrite <- (heat_at_mulv LT HS Hi Hf) in H1 by assumption.
  assert (LTs : length Ts = length segs) by congruence. rewrite <- (heat_at_mulv LTs HS Hi Hf) in H2 by assumption.
  rewrite (mulv_ext n _ _ (fun j => x (ini + j)%nat + -1 * nth (ini + j) Ts 0)) by (intros; ring). rewrite mulv_lin.
  assert (KE : mulv n (K_of (link segs T (b_front_hs b) (b_back_hs b)) ini) (fun i => x (ini + i)%nat) i = mulv n (K_of (link segs Ts (b_front_hs b) (b_back_hs b)) ini) (fun i => x (ini + i)%nat) i).
  { unfold mulv. apply rsum_ext. intros j _. f_equal. unfold K_of. rewrite !(link_const T Ts). reflexivity. }
  rewrite KE in H1.
  assert (Q : q_at (segs := segs) (temps := T) (b := b) (ini := ini) (fin := fin) i - q_at (segs := segs) (temps := Ts) (b := b) (ini := ini) (fin := fin) i
              = - rad_at i * (nth (ini + i) T 0 - nth (ini + i) Ts 0)).
  { unfold q_at, rad_at. rewrite !(link_const T Ts), <- L, LT. rewrite (beside_outside T Ts ini O LT) by lia. rewrite (beside_outside T Ts (fin + 1) O LT) by lia.
    unfold front_rad, back_rad. rewrite <- L, LT.
    destruct (Nat.eqb_spec i 0) as [E0|E0], (Nat.eqb_spec i (n - 1)) as [E1|E1], (Nat.eqb_spec ini 0) as [E2|E2], (Nat.eqb_spec fin (length segs)) as [E3|E3],
      (Nat.eqb_spec (ini + i) 0) as [E4|E4], (Nat.eqb_spec (ini + i) (length segs - 1)) as [E5|E5]; try lia;
      rewrite ?E4, ?E5; try (replace (length segs - 1)%nat with 0%nat by lia); ring. }
  lra.
Qed.

(** one turn brings the profile closer to a steady one, provided that at each face radiation carries less than three times what
    convection carries *)
Theorem C71_closer_partial r T Ts e T' : length T = length segs -> same_outside T Ts -> steady Ts -> is_turn segs solar b ini fin T e T' ->
  0 < r -> 0 <= b_front_rad b <= r * b_front_hs b -> 0 <= b_back_rad b <= r * b_back_hs b ->
  same_outside T' Ts /\ spread T' Ts <= (Rmax 1 (r - 1) / 2) ^ 2 * spread T Ts.
Proof.
  intros LT O St (x & Bx & _ & LT' & HT') Hr HF HB. pose proof O as [L O'].
  assert (LTs : length Ts = length segs) by congruence.
  split.
  - split; [congruence|]. intros g Hg. rewrite <- O' by assumption. destruct (Nat.lt_ge_cases g (length T)) as [H|H].
    + rewrite HT' by assumption. destruct (Nat.leb_spec ini g), (Nat.ltb_spec g fin); try lia; reflexivity.
    + rewrite !nth_overflow by lia. reflexivity.
  - unfold spread.
    set (G := link segs Ts (b_front_hs b) (b_back_hs b)). set (delta := fun i => nth (ini + i) T 0 - nth (ini + i) Ts 0).
    set (y := fun i => x (ini + i)%nat - nth (ini + i) Ts 0).
    assert (GP : forall i, (i <= n)%nat -> 0 <= G (ini + i)%nat).
    { intros i H. destruct (Husual Ts LTs (ini + i)%nat ltac:(lia)) as [A _]. fold G in A. apply Rle_trans with (1 / 10 ^ 12); [lra|exact A]. }
    assert (E : form n (fun i => G (ini + i)%nat) (fun i => nth (ini + i) T' 0 - nth (ini + i) Ts 0) (fun i => nth (ini + i) T' 0 - nth (ini + i) Ts 0)
                = form n (fun i => G (ini + i)%nat) (fun i => (delta i + y i) * (1 / 2)) (fun i => (delta i + y i) * (1 / 2))).
    { assert (P : forall k, ext n (fun i => nth (ini + i) T' 0 - nth (ini + i) Ts 0) k = ext n (fun i => (delta i + y i) * (1 / 2)) k).
      { intros k. unfold ext. destruct (Nat.leb_spec 1 k), (Nat.leb_spec k n); cbn [andb]; try reflexivity.
        rewrite HT' by lia. destruct (Nat.leb_spec ini (ini + (k - 1))), (Nat.ltb_spec (ini + (k - 1)) fin); try lia. unfold delta, y. cbn [andb]. lra. }
      unfold form. apply rsum_ext. intros i _. rewrite !P. reflexivity. }
    rewrite E. apply (contraction n G ini rad_at delta y r); try assumption; try lia.
    + intros i Hin. unfold rad_at. destruct (Nat.eqb_spec (ini + i) 0), (Nat.eqb_spec (ini + i) (length segs - 1)); lra.
    + intros z. apply rad_bound; try assumption; try lra.
      * intros ->. unfold G, link. rewrite Nat.add_0_r. cbn [Nat.eqb]. apply HF.
      * intros E'. unfold G, link. replace (ini + n)%nat with (length segs) by lia. rewrite Nat.eqb_refl.
        destruct (Nat.eqb_spec (length segs) 0); [lia|]. apply HB.
    + intros i Hin. apply departure; assumption.
Qed.

(** [T] after [k] turns from [T0] *)
Inductive iterates (T0 : list R) : nat -> list R -> Prop :=
| iterates_none : iterates T0 0 T0
| iterates_more k T e T' : iterates T0 k T -> is_turn segs solar b ini fin T e T' -> iterates T0 (S k) T'.

Lemma turn_length T e T' : is_turn segs solar b ini fin T e T' -> length T' = length T.
Proof. intros (x & _ & _ & L & _). exact L. Qed.

Lemma iterates_spread r T0 Ts k T : length T0 = length segs -> same_outside T0 Ts -> steady Ts ->
  0 < r -> 0 <= b_front_rad b <= r * b_front_hs b -> 0 <= b_back_rad b <= r * b_back_hs b -> iterates T0 k T ->
  length T = length segs /\ same_outside T Ts /\ spread T Ts <= ((Rmax 1 (r - 1) / 2) ^ 2) ^ k * spread T0 Ts.
Proof.
  intros L0 O0 St Hr HF HB. induction 1 as [|k T e T' _ IH Ht].
  - split; [assumption|]. split; [assumption|]. rewrite pow_O. lra.
  - destruct IH as (LT & O & IH). destruct (C71_closer_partial r T Ts e T' LT O St Ht Hr HF HB) as [O' C].
    split; [rewrite (turn_length _ _ _ Ht); assumption|]. split; [assumption|].
    eapply Rle_trans; [exact C|]. change (((Rmax 1 (r - 1) / 2) ^ 2) ^ S k) with ((Rmax 1 (r - 1) / 2) ^ 2 * ((Rmax 1 (r - 1) / 2) ^ 2) ^ k).
    rewrite Rmult_assoc. apply Rmult_le_compat_l; [apply pow2_ge_0|exact IH].
Qed.

Lemma spread_nonneg T Ts : length Ts = length segs -> 0 <= spread T Ts.
Proof.
  intros L. apply form_nonneg. intros i H. destruct (Husual Ts L (ini + i)%nat ltac:(lia)) as [A _]. apply Rle_trans with (1 / 10 ^ 12); [lra|exact A].
Qed.

(** the spread bounds the distance of every node *)
Lemma ext_bound c d M : (forall i, (i <= n)%nat -> 1 / 10 ^ 12 <= c i) -> form n c d d <= M -> forall k, (k <= n)%nat -> Rabs (ext n d k) <= INR k * sqrt (10 ^ 12 * M).
Proof.
  intros Hc HM.
  assert (Step : forall i, (i <= n)%nat -> Rabs (ext n d i - ext n d (i + 1)) <= sqrt (10 ^ 12 * M)).
  { intros i Hin. apply Rsqr_incr_0_var; [|apply sqrt_pos]. rewrite <- Rsqr_abs.
    assert (A : c i * ((ext n d i - ext n d (i + 1)) * (ext n d i - ext n d (i + 1))) <= M).
    { apply Rle_trans with (form n c d d); [|assumption]. unfold form.
      assert (P : forall p, (p <= n)%nat -> 0 <= rsum (S p) (fun i => c i * ((ext n d i - ext n d (i + 1)) * (ext n d i - ext n d (i + 1)))) /\
         forall i, (i <= p)%nat -> c i * ((ext n d i - ext n d (i + 1)) * (ext n d i - ext n d (i + 1))) <= rsum (S p) (fun i => c i * ((ext n d i - ext n d (i + 1)) * (ext n d i - ext n d (i + 1))))).
      { induction p as [|p IH]; intros Hp.
        - cbn [rsum]. assert (0 <= c 0%nat * ((ext n d 0 - ext n d (0 + 1)) * (ext n d 0 - ext n d (0 + 1)))) by (apply Rmult_le_pos; [specialize (Hc 0%nat ltac:(lia)); lra|apply sq_nonneg]).
          split; [lra|]. intros j Hj. replace j with 0%nat by lia. lra.
        - destruct (IH ltac:(lia)) as [I1 I2]. remember (rsum (S p) _) as s eqn:Es. change (rsum (S (S p)) ?f) with (rsum (S p) f + f (S p)). rewrite <- Es.
          assert (0 <= c (S p) * ((ext n d (S p) - ext n d (S p + 1)) * (ext n d (S p) - ext n d (S p + 1)))) by (apply Rmult_le_pos; [specialize (Hc (S p) ltac:(lia)); lra|apply sq_nonneg]).
          split; [lra|]. intros j Hj. destruct (Nat.eq_dec j (S p)) as [->|]; [lra|]. specialize (I2 j ltac:(lia)). lra. }
      apply (P n ltac:(lia)). assumption. }
    set (w := ext n d i - ext n d (i + 1)) in *. pose proof (sq_nonneg w) as W. specialize (Hc i Hin).
    assert (1 / 10 ^ 12 * (w * w) <= M) by (apply Rle_trans with (c i * (w * w)); [apply Rmult_le_compat_r; assumption|assumption]).
    unfold Rsqr at 1. rewrite Rsqr_sqrt; lra. }
  induction k as [|k IH]; intros Hk.
  - unfold ext. cbn. rewrite Rabs_R0. lra.
  - specialize (IH ltac:(lia)). specialize (Step k ltac:(lia)). replace (k + 1)%nat with (S k) in Step by lia. rewrite S_INR.
    replace (ext n d (S k)) with (ext n d k + - (ext n d k - ext n d (S k))) by ring.
    eapply Rle_trans; [apply Rabs_triang|]. rewrite Rabs_Ropp. lra.
Qed.

(** ... so the turns converge to the steady temperatures *)
Theorem C71_converges_partial r T0 Ts : length T0 = length segs -> same_outside T0 Ts -> steady Ts ->
  0 < r < 3 -> 0 <= b_front_rad b <= r * b_front_hs b -> 0 <= b_back_rad b <= r * b_back_hs b ->
  forall eps, 0 < eps -> exists k0, forall k T, (k0 <= k)%nat -> iterates T0 k T ->
    forall g, (g < length T)%nat -> Rabs (nth g T 0 - nth g Ts 0) < eps.
Proof.
  intros L0 O0 St Hr HF HB eps Heps.
  set (q := (Rmax 1 (r - 1) / 2) ^ 2).
  assert (Hq : 0 <= q < 1).
  { unfold q, Rmax. destruct (Rle_dec 1 (r - 1)); nra. }
  assert (LTs : length Ts = length segs) by (destruct O0; congruence).
  pose proof (spread_nonneg T0 Ts LTs) as S0. set (s0 := spread T0 Ts) in *.
  assert (HN : 0 < INR n) by (apply lt_0_INR; lia).
  set (tol := (eps / INR n) ^ 2 / (10 ^ 12 * (s0 + 1))).
  assert (Htol : 0 < tol).
  { unfold tol. apply Rdiv_lt_0_compat; [apply pow_lt, Rdiv_lt_0_compat; lra|]. apply Rmult_lt_0_compat; [apply pow_lt; lra|lra]. }
  destruct (pow_lt_1_zero q) with (y := tol) as (k0 & Hk0); [rewrite Rabs_right by lra; lra|assumption|].
  exists k0. intros k T Hk It g Hg.
  destruct (iterates_spread r T0 Ts k T L0 O0 St ltac:(lra) HF HB It) as (LT & O & C). fold q s0 in C.
  destruct (Nat.lt_ge_cases g ini) as [H|H]; [destruct O as [_ O]; rewrite O by lia; rewrite Rminus_diag_eq, Rabs_R0 by reflexivity; assumption|].
  destruct (Nat.lt_ge_cases g fin) as [H'|H']; [|destruct O as [_ O]; rewrite O by lia; rewrite Rminus_diag_eq, Rabs_R0 by reflexivity; assumption].
  specialize (Hk0 k Hk). rewrite Rabs_right in Hk0 by (apply Rle_ge, pow_le; lra).
  assert (HM : spread T Ts <= tol * s0).
  { eapply Rle_trans; [exact C|]. apply Rmult_le_compat_r; lra. }
  pose proof (ext_bound (fun i => link segs Ts (b_front_hs b) (b_back_hs b) (ini + i)%nat) (fun i => nth (ini + i) T 0 - nth (ini + i) Ts 0) (tol * s0)
    ltac:(intros i Hin; apply (Husual Ts LTs); lia) HM (g - ini + 1) ltac:(lia)) as B.
  unfold ext in B. destruct (Nat.leb_spec 1 (g - ini + 1)), (Nat.leb_spec (g - ini + 1) n); try lia. cbn [andb] in B.
  replace (ini + (g - ini + 1 - 1))%nat with g in B by lia.
  eapply Rle_lt_trans; [exact B|].
  assert (Q : sqrt (10 ^ 12 * (tol * s0)) < eps / INR n).
  { rewrite <- (sqrt_pow2 (eps / INR n)) by (apply Rlt_le, Rdiv_lt_0_compat; lra). apply sqrt_lt_1_alt.
    split; [apply Rmult_le_pos; [apply pow_le; lra|apply Rmult_le_pos; lra]|].
    set (t := 10 ^ 12) in *. assert (t0 : 0 < t) by (unfold t; apply pow_lt; lra).
    replace ((eps / INR n) ^ 2) with (t * (tol * (s0 + 1))).
    2:{ unfold tol. field. repeat split; lra. }
    apply Rmult_lt_compat_l; [assumption|]. apply Rmult_lt_compat_l; lra. }
  apply Rle_lt_trans with (INR n * sqrt (10 ^ 12 * (tol * s0))).
  - apply Rmult_le_compat_r; [apply sqrt_pos|]. apply le_INR. lia.
  - apply Rlt_le_trans with (INR n * (eps / INR n)); [apply Rmult_lt_compat_l; assumption|]. right. field. lra.
Qed.

(** whatever made it stop, the march ends no farther from the steady temperatures than it began *)
Theorem C71_never_worse_partial r T0 Ts m : length T0 = length segs -> chunk_ok n m -> same_outside T0 Ts -> steady Ts ->
  0 < r < 3 -> 0 <= b_front_rad b <= r * b_front_hs b -> 0 <= b_back_rad b <= r * b_back_hs b ->
  exists k T m', nomass_loop (19 * 1000 + 2) 0 99999 segs T0 solar b ini fin m = Ok (T, m') /\ same_outside T Ts /\
    (k <= 19 * 1000 + 2)%nat /\ iterates T0 k T /\ spread T Ts <= (Rmax 1 (r - 1) / 2) ^ (2 * k) * spread T0 Ts.
Proof.
  intros L0 Hm O0 St Hr HF HB.
  destruct (C71_ends_partial segs solar b ini fin T0 HS Hi Hf) with (m := m) as (k & T & e & m' & E & _ & LT & Ht & Hk & _); try assumption.
  { intros T LT. split; [apply solid_u|apply Husual; assumption]. }
  assert (It : iterates T0 k T).
  { clear - Ht. induction Ht as [|k T e e' T' _ IH _ Ht _]; [constructor|]. econstructor; eassumption. }
  destruct (iterates_spread r T0 Ts k T L0 O0 St ltac:(lra) HF HB It) as (_ & O & C).
  exists k, T, m'. rewrite pow_mult. repeat (split; [assumption|]). assumption.
Qed.

End Converges.

(** temperatures already steady are kept (cavities included) *)
Theorem C71_steady_kept segs solar b ini fin T0 m : length solar = length segs -> (ini < fin)%nat -> (fin <= length segs)%nat ->
  length T0 = length segs -> chunk_ok (fin - ini) m -> has_u segs T0 -> usual segs T0 b ini fin -> steady segs solar b ini fin T0 ->
  exists m', nomass_loop (19 * 1000 + 2) 0 99999 segs T0 solar b ini fin m = Ok (T0, m') /\ chunk_ok (fin - ini) m'.
Proof.
  intros HS Hi Hf L0 Hm HU Husual St. change (19 * 1000 + 2)%nat with (S (19 * 1000 + 1)). cbn [nomass_loop].
  destruct (C71_balanced_temperatures L0 HS Hi Hf Hm HU Husual) as (x & m1 & E & M1 & Lx & Bx & U). rewrite E. cbn [bind].
  rewrite (nomass_error_spec L0 HS Hi Hf x Lx). cbn [bind].
  destruct (average_in_spec L0 HS Hi Hf x Lx) as (T1 & E1 & L1 & H1).
  assert (Z : mean_distance ini fin T0 (fun g => nth (g - ini) x 0) = 0).
  { unfold mean_distance. rewrite rsum_0; [unfold Rdiv; ring|]. intros i Hin. rewrite <- (U _ St) by lia. rewrite Rminus_diag_eq by reflexivity. apply Rabs_R0. }
  rewrite Z. destruct (Rltb 99999 0) eqn:Q; [apply Rltb_true in Q; lra|]. rewrite E1. cbn [bind Nat.ltb Nat.leb].
  rewrite (proj2 (Rltb_true 0 (1 / 100))) by lra.
  exists m1. split; [|assumption]. f_equal. f_equal. rewrite (as_tab T1), (as_tab T0), L1. apply tab_ext. intros g Hg. rewrite H1 by assumption.
  destruct (Nat.leb_spec ini g), (Nat.ltb_spec g fin); cbn [andb]; try reflexivity. rewrite <- (U _ St) by lia. lra.
Qed.

(** there are steady temperatures, and only one set of them *)
Definition with_radiation (b : border) : border :=
  let film := fun (c : conv) h r => mkConv ((h * air_temperature c + r * rad_temperature c) / (h + r)) (air_speed c) 0 (surface_temperature c) (roughness_index c) (cos_surface_tilt c) in
  mkBorder (film (b_front b) (b_front_hs b) (b_front_rad b)) (film (b_back b) (b_back_hs b) (b_back_rad b))
           (b_front_hs b + b_front_rad b) (b_back_hs b + b_back_rad b) 0 0.

Lemma steady_film segs solar b ini fin T x : length solar = length segs -> (ini < fin)%nat -> (fin <= length segs)%nat -> length T = length segs ->
  solid_wall segs -> 0 < b_front_hs b + b_front_rad b -> 0 < b_back_hs b + b_back_rad b ->
  let T' := tab (length segs) (fun g => if (ini <=? g)%nat && (g <? fin)%nat then x g else nth g T 0) in
  forall g, (ini <= g < fin)%nat -> heat_at segs T' solar b ini fin x g = heat_at segs T solar (with_radiation b) ini fin x g.
Proof.
  intros HS Hi Hf LT Hsolid H1 H2 T' g Hg.
  assert (LT' : length T' = length segs) by apply tab_length.
  unfold heat_at. rewrite LT, LT'.
  assert (NI : forall k, (k < length segs)%nat -> (ini <= k < fin)%nat -> nth k T' 0 = x k).
  { intros k Hk Hk'. unfold T'. rewrite nth_tab by assumption. destruct (Nat.leb_spec ini k), (Nat.ltb_spec k fin); try lia. reflexivity. }
  assert (NO : forall k, (k < length segs)%nat -> (k < ini \/ fin <= k)%nat -> nth k T' 0 = nth k T 0).
  { intros k Hk Hk'. unfold T'. rewrite nth_tab by assumption. destruct (Nat.leb_spec ini k), (Nat.ltb_spec k fin); try lia; reflexivity. }
  assert (GI : forall k, k <> 0%nat -> k <> length segs ->
     link segs T' (b_front_hs b) (b_back_hs b) k = link segs T (b_front_hs (with_radiation b)) (b_back_hs (with_radiation b)) k).
  { intros k Hk Hk'. rewrite (link_const segs solar b ini fin HS Hi Hf Hsolid T' T k). unfold link. destruct (Nat.eqb_spec k 0), (Nat.eqb_spec k (length segs)); try lia. reflexivity. }
  assert (BO : forall k, k <> 0%nat -> (k <= ini \/ fin < k)%nat -> (k <= length segs)%nat -> beside b T' k = beside (with_radiation b) T k).
  { intros k Hk Hk' Hl. unfold beside. rewrite LT, LT'. destruct (Nat.eqb_spec k 0), (Nat.eqb_spec k (length segs + 1)); try lia. apply NO; lia. }
  unfold front_rad, back_rad. rewrite LT, LT'.
  assert (A0 : g = 0%nat -> link segs T' (b_front_hs b) (b_back_hs b) g *
     ((if (ini <? g)%nat && (g <=? fin)%nat then x (g - 1)%nat else beside b T' g) - x g) + b_front_rad b * (rad_temperature (b_front b) - nth 0 T' 0)
     = link segs T (b_front_hs (with_radiation b)) (b_back_hs (with_radiation b)) g *
     ((if (ini <? g)%nat && (g <=? fin)%nat then x (g - 1)%nat else beside (with_radiation b) T g) - x g)
     + b_front_rad (with_radiation b) * (rad_temperature (b_front (with_radiation b)) - nth 0 T 0)).
  { intros Eg. rewrite NI by lia. rewrite Eg. destruct (Nat.ltb_spec ini 0); [lia|]. cbn [andb]. cbn. field. lra. }
  assert (A1 : g = (length segs - 1)%nat -> link segs T' (b_front_hs b) (b_back_hs b) (g + 1) *
     ((if (ini <? g + 2)%nat && (g + 2 <=? fin)%nat then x (g + 2 - 1)%nat else beside b T' (g + 2)) - x g) + b_back_rad b * (rad_temperature (b_back b) - nth (length segs - 1) T' 0)
     = link segs T (b_front_hs (with_radiation b)) (b_back_hs (with_radiation b)) (g + 1) *
     ((if (ini <? g + 2)%nat && (g + 2 <=? fin)%nat then x (g + 2 - 1)%nat else beside (with_radiation b) T (g + 2)) - x g)
     + b_back_rad (with_radiation b) * (rad_temperature (b_back (with_radiation b)) - nth (length segs - 1) T 0)).
  { intros Eg. rewrite NI by lia. rewrite <- Eg. destruct (Nat.leb_spec (g + 2) fin); [lia|]. rewrite andb_false_r.
    replace (g + 1)%nat with (length segs) by lia. unfold link, beside. rewrite LT, LT'. rewrite Nat.eqb_refl.
    destruct (Nat.eqb_spec (length segs) 0), (Nat.eqb_spec (g + 2) 0), (Nat.eqb_spec (g + 2) (length segs + 1)); try lia. cbn. field. lra. }
  assert (B0 : g <> 0%nat -> link segs T' (b_front_hs b) (b_back_hs b) g * ((if (ini <? g)%nat && (g <=? fin)%nat then x (g - 1)%nat else beside b T' g) - x g)
     = link segs T (b_front_hs (with_radiation b)) (b_back_hs (with_radiation b)) g * ((if (ini <? g)%nat && (g <=? fin)%nat then x (g - 1)%nat else beside (with_radiation b) T g) - x g)).
  { intros Eg. rewrite GI by lia. destruct (Nat.ltb_spec ini g), (Nat.leb_spec g fin); try lia; cbn [andb]; [reflexivity|]. rewrite BO by lia. reflexivity. }
  assert (B1 : g <> (length segs - 1)%nat -> link segs T' (b_front_hs b) (b_back_hs b) (g + 1) *
     ((if (ini <? g + 2)%nat && (g + 2 <=? fin)%nat then x (g + 2 - 1)%nat else beside b T' (g + 2)) - x g)
     = link segs T (b_front_hs (with_radiation b)) (b_back_hs (with_radiation b)) (g + 1) *
     ((if (ini <? g + 2)%nat && (g + 2 <=? fin)%nat then x (g + 2 - 1)%nat else beside (with_radiation b) T (g + 2)) - x g)).
  { intros Eg. rewrite GI by lia. destruct (Nat.ltb_spec ini (g + 2)), (Nat.leb_spec (g + 2) fin); try lia; cbn [andb]; [reflexivity|]. rewrite BO by lia. reflexivity. }
  destruct (Nat.eqb_spec g 0) as [E0|E0], (Nat.eqb_spec g (length segs - 1)) as [E1|E1].
  - specialize (A0 E0). specialize (A1 E1). lra.
  - specialize (A0 E0). specialize (B1 E1). lra.
  - specialize (B0 E0). specialize (A1 E1). lra.
  - specialize (B0 E0). specialize (B1 E1). lra.
Qed.

Theorem C71_steady_exists_partial segs solar b ini fin T0 : length solar = length segs -> (ini < fin)%nat -> (fin <= length segs)%nat -> length T0 = length segs ->
  solid_wall segs -> usual segs T0 (with_radiation b) ini fin -> 0 < b_front_hs b + b_front_rad b -> 0 < b_back_hs b + b_back_rad b ->
  exists Ts, steady segs solar b ini fin Ts /\ same_outside ini fin T0 Ts /\
    forall T, steady segs solar b ini fin T -> same_outside ini fin T0 T -> T = Ts.
Proof.
  intros HS Hi Hf L0 Hsolid HR H1 H2.
  destruct (new_chunk_ok ini fin ltac:(lia)) as (m & _ & Hm).
  destruct (C71_balanced_temperatures L0 HS Hi Hf Hm (solid_u segs Hsolid T0) HR) as (x & m' & _ & _ & _ & Bx & U).
  set (y := fun g => nth (g - ini) x 0) in *.
  pose proof (steady_film segs solar b ini fin T0 y HS Hi Hf L0 Hsolid H1 H2) as SF. cbv zeta in SF.
  set (Ts := tab (length segs) (fun g => if (ini <=? g)%nat && (g <? fin)%nat then y g else nth g T0 0)) in *.
  assert (LTs : length Ts = length segs) by apply tab_length.
  assert (XH : forall T z w g, (forall k, (ini <= k < fin)%nat -> z k = w k) -> (ini <= g < fin)%nat -> heat_at segs T solar b ini fin z g = heat_at segs T solar b ini fin w g).
  { intros T z w g Hz Hg. unfold heat_at. rewrite !(Hz g Hg).
    assert (Q : forall k, (if (ini <? k)%nat && (k <=? fin)%nat then z (k - 1)%nat else beside b T k) = (if (ini <? k)%nat && (k <=? fin)%nat then w (k - 1)%nat else beside b T k)).
    { intros k. destruct (Nat.ltb_spec ini k), (Nat.leb_spec k fin); cbn [andb]; try reflexivity. apply Hz. lia. }
    rewrite !Q. reflexivity. }
  exists Ts. split; [|split].
  - intros g Hg. rewrite (XH Ts _ y g); [|intros k Hk|assumption].
    + rewrite SF by assumption. apply Bx. assumption.
    + unfold Ts. rewrite nth_tab by lia. destruct (Nat.leb_spec ini k), (Nat.ltb_spec k fin); try lia. reflexivity.
  - split; [congruence|]. intros g Hg. destruct (Nat.lt_ge_cases g (length segs)).
    + unfold Ts. rewrite nth_tab by lia. destruct (Nat.leb_spec ini g), (Nat.ltb_spec g fin); try lia; reflexivity.
    + rewrite !nth_overflow by lia. reflexivity.
  - intros T St [LT O].
    pose proof (steady_film segs solar b ini fin T0 (fun g => nth g T 0) HS Hi Hf L0 Hsolid H1 H2) as SF'. cbv zeta in SF'.
    assert (ET : tab (length segs) (fun g => if (ini <=? g)%nat && (g <? fin)%nat then nth g T 0 else nth g T0 0) = T).
    { transitivity (tab (length T) (fun i => nth i T 0)); [|symmetry; apply as_tab]. replace (length T) with (length segs) by congruence. apply tab_ext. intros g Hg.
      destruct (Nat.leb_spec ini g), (Nat.ltb_spec g fin); cbn [andb]; try reflexivity; apply O; lia. }
    change (fun g0 : nat => if (ini <=? g0)%nat && (g0 <? fin)%nat then (fun g1 : nat => nth g1 T 0) g0 else nth g0 T0 0) with
      (fun g0 : nat => if (ini <=? g0)%nat && (g0 <? fin)%nat then nth g0 T 0 else nth g0 T0 0) in SF'. rewrite ET in SF'. assert (BT : balanced segs T0 solar (with_radiation b) ini fin (fun g => nth g T 0)).
    { intros g Hg. rewrite <- SF' by assumption. apply St. assumption. }
    rewrite <- ET. unfold Ts. apply tab_ext. intros g Hg. destruct (Nat.leb_spec ini g), (Nat.ltb_spec g fin); cbn [andb]; try reflexivity.
    apply (U _ BT). lia.
Qed.

(** ** a pane of glass between two rooms at 20 degrees *)
(** 3.3 mm of glass of emissivity 0.84, vertical, without mass; what is around it is at 20 degrees, and the sun does not shine *)
Definition pane (behind : boundary) : tsurface :=
  mkTS [(0, Solid 300); (0, Back)] (Space 0) behind (84 / 100) (84 / 100) 1 4 0 1 1 0 [] [(0%nat, 2%nat)] [0; 0] [0; 0] None None.
Definition pane_state (t : R) : sstate := mkSS 0 0 0 0 [t; t] 0 0 0 0.

Lemma turn_unique segs solar b ini fin T e1 T1 e2 T2 : length solar = length segs -> (ini < fin)%nat -> (fin <= length segs)%nat -> length T = length segs ->
  has_u segs T -> usual segs T b ini fin -> is_turn segs solar b ini fin T e1 T1 -> is_turn segs solar b ini fin T e2 T2 -> e1 = e2 /\ T1 = T2.
Proof.
  intros HS Hi Hf LT HU HR (x & Bx & -> & L1 & H1) (y & By & -> & L2 & H2).
  destruct (new_chunk_ok ini fin ltac:(lia)) as (m & _ & Hm).
  destruct (C71_balanced_temperatures LT HS Hi Hf Hm HU HR) as (z & m' & _ & _ & _ & _ & U).
  assert (XY : forall g, (ini <= g < fin)%nat -> x g = y g) by (intros g Hg; rewrite (U _ Bx) by assumption; rewrite (U _ By) by assumption; reflexivity).
  split.
  - unfold mean_distance. f_equal. apply rsum_ext. intros i Hin. rewrite XY by lia. reflexivity.
  - rewrite (as_tab T1), (as_tab T2), L1, L2. apply tab_ext. intros g Hg. rewrite H1, H2 by assumption.
    destruct (Nat.leb_spec ini g), (Nat.ltb_spec g fin); cbn [andb]; try reflexivity. rewrite XY by lia. reflexivity.
Qed.

(** if the second turn covers more than the first, or the first covers little, the march ends after the first *)
Lemma one_turn segs solar b ini fin T0 T1 e1 m : length solar = length segs -> (ini < fin)%nat -> (fin <= length segs)%nat -> length T0 = length segs ->
  (forall T, length T = length segs -> has_u segs T /\ usual segs T b ini fin) -> chunk_ok (fin - ini) m ->
  is_turn segs solar b ini fin T0 e1 T1 -> e1 <= 99999 ->
  (exists e2 T2, is_turn segs solar b ini fin T1 e2 T2 /\ (e1 < e2)) ->
  exists m', nomass_loop (19 * 1000 + 2) 0 99999 segs T0 solar b ini fin m = Ok (T1, m') /\ chunk_ok (fin - ini) m'.
Proof.
  intros HS Hi Hf L0 Hall Hm H1 He (e2 & T2 & H2 & He2).
  destruct (C71_ends_partial segs solar b ini fin T0 HS Hi Hf Hall m L0 Hm) as (k & T & e & m' & E & Cm & LT & Tk & Hk & St).
  exists m'. split; [|assumption]. rewrite E. f_equal. f_equal.
  assert (L1 : length T1 = length segs) by (destruct H1 as (x & _ & _ & [L _]); congruence).
  destruct (Hall T0 L0) as [U0 R0]. destruct (Hall T1 L1) as [U1 R1].
  inversion Tk as [A B C|k1 Ta ea eb Tb Tk1 Ho Hturn Hle A B C]; subst.
  - exfalso. destruct St as [(e' & T' & H' & L')|[[X _]|X]]; [|lia|discriminate X].
    destruct (turn_unique segs solar b ini fin T e1 T1 e' T' HS Hi Hf L0 U0 R0 H1 H') as [<- _]. lra.
  - inversion Tk1 as [A B C|k2 Tc ec ed Td Tk2 Ho2 Hturn2 Hle2 A B C]; subst.
    + destruct (turn_unique segs solar b ini fin Ta e1 T1 e T HS Hi Hf L0 U0 R0 H1 Hturn) as [_ X]. symmetry. exact X.
    + exfalso.
      assert (G : forall k T e, turns segs solar b ini fin T0 (S k) T e -> k = 0%nat).
      { clear - HS Hi Hf L0 U0 R0 U1 R1 H1 H2 He2 L1. induction k as [|k IH]; intros T e H; [reflexivity|]. exfalso.
        inversion H as [|kx Tx ex ey Ty Hx Hox Htx Hlx]; subst. pose proof (IH _ _ Hx) as ->.
        inversion Hx as [|kz Tz ez eu Tu Hz Hoz Htz Hlz]; subst. inversion Hz; subst.
        destruct (turn_unique segs solar b ini fin Tz e1 T1 ex Tx HS Hi Hf L0 U0 R0 H1 Htz) as [<- <-].
        destruct (turn_unique segs solar b ini fin T1 e2 T2 e T HS Hi Hf L1 U1 R1 H2 Htx) as [<- _]. lra. }
      specialize (G _ _ _ Tk). discriminate G.
Qed.

Lemma pane_film c : cos_surface_tilt c = 0 -> Rabs (air_temperature c - surface_temperature c) <= 1 ->
  exists h, natural_convection c = Ok h /\ 1 / 10 <= h <= 131 / 100.
Proof.
  intros Ht Hd. unfold natural_convection. rewrite Ht, Rabs_R0. rewrite (proj2 (Flt.Rltb_true 0 (1 / 1000))) by lra. rewrite orb_true_r. cbn [bind].
  set (a := Rabs _) in *. eexists. split; [reflexivity|]. unfold MIN_H.
  assert (P : powf a (1 / 3) <= 1).
  { unfold powf. destruct (Flt.Rltb 0 a) eqn:Q; [apply Flt.Rltb_true in Q|lra]. unfold Rpower. pose proof exp_0 as X0.
    assert (ln a <= 0). { destruct (Rle_lt_or_eq_dec a 1 Hd) as [L|E]; [|rewrite E, ln_1; lra]. pose proof (ln_increasing a 1 Q L). rewrite ln_1 in H. lra. }
    destruct (Rle_lt_or_eq_dec (1 / 3 * ln a) 0 ltac:(lra)) as [L|E]; [pose proof (exp_increasing _ _ L); lra|rewrite E; lra]. }
  destruct (Flt.Rltb (131 / 100 * powf a (1 / 3)) (1 / 10)) eqn:Q; [apply Flt.Rltb_true in Q|apply Flt.Rltb_false in Q]; lra.
Qed.

(** the farther the room from the pane, the farther away the step takes it: 20 degrees is never reached *)
Theorem C71_pane_moves_away : forall behind d wd ws dt m, behind = Space 1 \/ behind = Adiabatic -> d <> 0 -> Rabs d <= 1 -> chunk_ok 2 m ->
  exists mem' f, march (pane behind) (pane_state (20 + d)) 20 20 wd ws dt (mkMem [] [m] [20 + d; 20 + d]) = Ok mem' /\
    m_temps mem' = [20 - f * d; 20 - f * d] /\ 13 / 10 <= f.
Proof.
  intros behind d wd ws dt m Hbe Hd0 Hd Hm.
  set (env := mkConv 20 0 20 (20 + d) 1 0).
  destruct (pane_film env eq_refl) as (h & Eh & Hh). { cbn. replace (20 - (20 + d)) with (- d) by ring. rewrite Rabs_Ropp. assumption. }
  assert (EB : border_conditions (pane behind) (pane_state (20 + d)) 20 20 wd ws = Ok ((env, h), (env, h))).
  { unfold border_conditions, front_conditions, back_conditions, pane, pane_state, front_temperature, back_temperature.
    cbn [ts_front_boundary ts_back_boundary s_nodes idx nth_error bind length Nat.sub ts_cos_tilt ts_front_hs ts_back_hs fixed_or]. fold env. rewrite Eh. cbn [bind].
    destruct Hbe; subst behind; reflexivity. }
  set (rho := rad_coefficient (84 / 100) env).
  assert (Hrho : 477 / 100 <= rho <= 5).
  { unfold rho, rad_coefficient, env, SIGMA. cbn [rad_temperature surface_temperature].
    assert (-1 <= d <= 1) by (split; unfold Rabs in Hd; destruct (Rcase_abs d); lra).
    set (t := 27315 / 100 + (20 + (20 + d)) / 2). assert (Ht : 29265 / 100 <= t <= 29365 / 100) by (unfold t; lra).
    assert (L3 : (29265 / 100) ^ 3 <= t ^ 3 <= (29365 / 100) ^ 3) by (split; apply pow_incr; lra).
    split; lra. }
  set (r := rho / h). assert (Er : rho = r * h) by (unfold r; field; lra).
  assert (Hr : 36 / 10 <= r).
  { apply Rmult_le_reg_r with h; [lra|]. rewrite <- Er. lra. }
  assert (Hr' : r <= 50). { apply Rmult_le_reg_r with h; [lra|]. rewrite <- Er. lra. }
  set (f := (r - 1) / 2).
  set (b := as_border ((env, h), (env, h)) rho rho).
  set (segs := ts_segments (pane behind)).
  assert (Hall : forall T, length T = length segs -> has_u segs T /\ usual segs T b 0 2).
  { intros T LT. split.
    - intros g s Hg Es. destruct g as [|[|g]]; cbn in Hg, Es; try lia. injection Es as <-. eexists. reflexivity.
    - intros g Hg. assert (B12 : 10 ^ 12 = 1000000000000) by ring. rewrite B12. destruct g as [|[|[|g]]]; try lia; unfold link; cbn; lra. }
  assert (Turn : forall u, is_turn segs [0; 0] b 0 2 [20 + u; 20 + u] (Rabs ((1 + r) * u)) [20 - f * u; 20 - f * u]).
  { intros u. exists (fun _ => 20 - r * u). split; [|split].
    - intros g Hg. unfold heat_at, front_rad, back_rad, beside, link, u_at, b, as_border, env. destruct g as [|[|g]]; try lia; cbn; rewrite Er; ring.
    - unfold mean_distance. cbn. replace (20 - r * u - (20 + u)) with (- ((1 + r) * u)) by ring. rewrite Rabs_Ropp. field.
    - split; [reflexivity|]. intros g Hg. destruct g as [|[|g]]; cbn in Hg; try lia; cbn; unfold f; field. }
  destruct (one_turn segs [0; 0] b 0 2 [20 + d; 20 + d] [20 - f * d; 20 - f * d] (Rabs ((1 + r) * d)) m) as (m' & E & _);
    try assumption; try reflexivity; try (cbn; lia).
  - apply Turn.
  - rewrite Rabs_mult. rewrite (Rabs_right (1 + r)) by lra. assert ((1 + r) * Rabs d <= (1 + r) * 1) by (apply Rmult_le_compat_l; lra). lra.
  - exists (Rabs ((1 + r) * (- f * d))), [20 - f * (- f * d); 20 - f * (- f * d)]. split.
    + replace (20 - f * d) with (20 + - f * d) by ring. apply Turn.
    + rewrite !Rabs_mult, Rabs_Ropp. rewrite (Rabs_right f) by (unfold f; lra). rewrite (Rabs_right (1 + r)) by lra.
      apply Rmult_lt_compat_l; [lra|]. assert (0 < Rabs d) by (apply Rabs_pos_lt; assumption).
      rewrite <- (Rmult_1_l (Rabs d)) at 1. apply Rmult_lt_compat_r; [assumption|]. unfold f. lra.
  - assert (AS : absorbed_solar (pane behind) (pane_state (20 + d)) 2 = Ok [0; 0]).
    { unfold absorbed_solar, pane, pane_state. cbn [s_solar_front s_solar_back ts_front_alphas ts_back_alphas length Nat.eqb negb].
      destruct (Rltb 0 0); (destruct (Rltb 0 0) || idtac); cbn; f_equal; f_equal; try f_equal; ring. }
    eexists. exists f. split.
    + unfold march. cbn [m_temps length m_nomass m_massive]. rewrite AS. cbn [bind]. rewrite EB. cbn [bind fst snd].
      change (ts_front_emissivity (pane behind)) with (84 / 100). change (ts_back_emissivity (pane behind)) with (84 / 100). fold rho.
      change (ts_nomass (pane behind)) with [(0%nat, 2%nat)]. change (ts_massive (pane behind)) with (@nil (nat * nat)). cbn [march_chunks].
      unfold march_nomass. rewrite EB. cbn [bind fst snd]. fold segs. fold b. rewrite E. cbn [bind fst snd march_chunks]. reflexivity.
    + cbn [m_temps]. split; [reflexivity|]. unfold f. lra.
Qed.

(** so a step does not bring massless nodes closer to the temperatures at which they would stay, which exist *)
Theorem C71_reaches_steady_refuted : exists m mem', chunk_ok 2 m /\
  march (pane (Space 1)) (pane_state 21) 20 20 0 0 60 (mkMem [] [m] [21; 21]) = Ok mem' /\ m_temps mem' <> [20; 20] /\
  (forall g, (g < 2)%nat -> 13 / 10 <= Rabs (nth g (m_temps mem') 0 - 20)) /\
  (forall r h env, air_temperature env = 20 -> rad_temperature env = 20 -> steady (ts_segments (pane (Space 1))) [0; 0] (as_border ((env, h), (env, h)) r r) 0 2 [20; 20]).
Proof.
  destruct (new_chunk_ok 0 2 ltac:(lia)) as (m & _ & Hm). exists m.
  destruct (C71_pane_moves_away (Space 1) 1 0 0 60 m (or_introl eq_refl) ltac:(lra) ltac:(rewrite Rabs_R1; lra) Hm) as (mem' & f & E & T & F).
  exists mem'. split; [exact Hm|]. replace (20 + 1) with 21 in E by lra. split; [exact E|]. rewrite T. split; [intros [= X]; lra|]. split.
  - intros g Hg. assert (13 / 10 <= Rabs (20 - f * 1 - 20)). { replace (20 - f * 1 - 20) with (- f) by ring. rewrite Rabs_Ropp. rewrite Rabs_right; lra. }
    destruct g as [|[|g]]; try lia; exact H.
  - intros r h env E1 E2 g Hg. unfold heat_at, front_rad, back_rad, beside, link, u_at, as_border. destruct g as [|[|g]]; try lia; cbn; rewrite ?E1, ?E2; ring.
Qed.

(** ** C72: the border conditions *)
(** the same surface described from the other side *)
Definition turned (s : tsurface) : tsurface :=
  mkTS (rev (ts_segments s)) (ts_back_boundary s) (ts_front_boundary s) (ts_back_emissivity s) (ts_front_emissivity s) (ts_area s) (ts_perimeter s)
       (- ts_nx s) (- ts_ny s) (ts_wind_modifier s) (- ts_cos_tilt s) (ts_massive s) (ts_nomass s) (rev (ts_back_alphas s)) (rev (ts_front_alphas s))
       (ts_back_hs s) (ts_front_hs s).
Definition turned_state (st : sstate) : sstate :=
  mkSS (s_ir_back st) (s_ir_front st) (s_solar_back st) (s_solar_front st) (rev (s_nodes st)) (s_back_hs st) (s_front_hs st) (s_back_flow st) (s_front_flow st).

Lemma nth_error_rev' (l : list R) i : (i < length l)%nat -> nth_error (rev l) i = nth_error l (length l - 1 - i).
Proof.
  intros H. rewrite (nth_error_nth' (rev l) 0) by (rewrite rev_length; assumption). rewrite (nth_error_nth' l 0) by lia. rewrite rev_nth by assumption.
  do 2 f_equal. lia.
Qed.
Lemma turned_front st : front_temperature (turned_state st) = back_temperature st.
Proof.
  unfold front_temperature, back_temperature, turned_state, idx. cbn [s_nodes]. destruct (s_nodes st) as [|t l] eqn:E; [reflexivity|].
  rewrite nth_error_rev' by (cbn; lia). rewrite Nat.sub_0_r. reflexivity.
Qed.
Lemma turned_back st : back_temperature (turned_state st) = front_temperature st.
Proof.
  unfold front_temperature, back_temperature, turned_state, idx. cbn [s_nodes]. destruct (s_nodes st) as [|t l] eqn:E; [reflexivity|].
  rewrite rev_length. rewrite nth_error_rev' by (cbn; lia). replace (length (t :: l) - 1 - (length (t :: l) - 1))%nat with 0%nat by lia. reflexivity.
Qed.

(** every side that is next to a space or the exterior sees the temperature of its own face, and the air of its own side *)
Theorem C72_own_side s st tf tb wd ws env1 h1 env2 h2 : border_conditions s st tf tb wd ws = Ok ((env1, h1), (env2, h2)) ->
  (forall i, ts_front_boundary s = Outdoor \/ ts_front_boundary s = Space i -> air_temperature env1 = tf /\ idx (s_nodes st) 0 = Ok (surface_temperature env1)) /\
  (forall i, ts_back_boundary s = Outdoor \/ ts_back_boundary s = Space i ->
     air_temperature env2 = tb /\ idx (s_nodes st) (length (s_nodes st) - 1) = Ok (surface_temperature env2)).
Proof.
  unfold border_conditions. destruct (front_conditions s st tf tb wd ws) as [[e k]| |] eqn:EF; cbn [bind]; try discriminate.
  destruct (back_conditions s st tf tb wd ws (e, k)) as [[e' k']| |] eqn:EB; cbn [bind]; try discriminate. intros [= <- <- <- <-]. split.
  - intros i Hb. unfold front_conditions in EF. unfold front_temperature in EF.
    destruct Hb as [Hb|Hb]; rewrite Hb in EF; destruct (idx (s_nodes st) 0) as [t| |]; cbn [bind] in EF; try discriminate.
    + destruct (ts_front_hs s) as [v|]; cbn [fixed_or bind] in EF; [injection EF as <- <-; split; reflexivity|].
      destruct (tarp_convection _ _ _ _); cbn [bind] in EF; try discriminate. injection EF as <- <-. split; reflexivity.
    + destruct (ts_front_hs s) as [v|]; cbn [fixed_or bind] in EF; [injection EF as <- <-; split; reflexivity|].
      destruct (natural_convection _); cbn [bind] in EF; try discriminate. injection EF as <- <-. split; reflexivity.
  - intros i Hb. unfold back_conditions in EB. unfold back_temperature in EB.
    destruct Hb as [Hb|Hb]; rewrite Hb in EB; destruct (idx (s_nodes st) _) as [t| |]; cbn [bind] in EB; try discriminate.
    + destruct (ts_back_hs s) as [v|]; cbn [fixed_or bind] in EB; [injection EB as <- <-; split; reflexivity|].
      destruct (tarp_convection _ _ _ _); cbn [bind] in EB; try discriminate. injection EB as <- <-. split; reflexivity.
    + destruct (ts_back_hs s) as [v|]; cbn [fixed_or bind] in EB; [injection EB as <- <-; split; reflexivity|].
      destruct (natural_convection _); cbn [bind] in EB; try discriminate. injection EB as <- <-. split; reflexivity.
Qed.

(** turning a surface around exchanges its border conditions if both sides are outdoors and it is horizontal, or if the wind blows along it *)
Theorem C72_turned_outdoors_partial s st tf tb wd ws c1 c2 : ts_front_boundary s = Outdoor -> ts_back_boundary s = Outdoor ->
  98 / 100 <= Rabs (ts_cos_tilt s) \/ ts_nx s * sin wd + ts_ny s * cos wd = 0 ->
  border_conditions s st tf tb wd ws = Ok (c1, c2) -> border_conditions (turned s) (turned_state st) tb tf wd ws = Ok (c2, c1).
Proof.
  intros Hf Hb Hw. 
  assert (W : is_windward wd (- ts_cos_tilt s) (- ts_nx s) (- ts_ny s) = is_windward wd (ts_cos_tilt s) (ts_nx s) (ts_ny s)).
  { unfold is_windward. rewrite Rabs_Ropp. destruct (Flt.Rltb (Rabs (ts_cos_tilt s)) (98 / 100)) eqn:Q; [|reflexivity]. apply Flt.Rltb_true in Q.
    destruct Hw as [Hw|Hw]; [lra|]. rewrite Hw. replace (- ts_nx s * sin wd + - ts_ny s * cos wd) with 0 by lra. reflexivity. }
  unfold border_conditions, front_conditions, back_conditions. rewrite turned_front, turned_back. unfold turned, turned_state.
  cbn [ts_front_boundary ts_back_boundary ts_cos_tilt ts_wind_modifier s_ir_front s_ir_back ts_area ts_perimeter ts_front_hs ts_back_hs ts_nx ts_ny].
  rewrite Hf, Hb, W, Ropp_involutive. 
  destruct (front_temperature st) as [t1| |]; cbn [bind]; try discriminate. 
  destruct (fixed_or (ts_front_hs s) _) as [h1| |] eqn:E1; cbn [bind]; try discriminate.
  destruct (back_temperature st) as [t2| |]; cbn [bind]; try discriminate.
  destruct (fixed_or (ts_back_hs s) _) as [h2| |] eqn:E2; cbn [bind]; try discriminate. intros [= <- <-]. reflexivity.
Qed.

(** vertical walls between two spaces can be turned around *)
Theorem C72_turned_partition_partial s st tf tb wd ws i j c1 c2 : ts_front_boundary s = Space i -> ts_back_boundary s = Space j -> ts_cos_tilt s = 0 ->
  border_conditions s st tf tb wd ws = Ok (c1, c2) -> border_conditions (turned s) (turned_state st) tb tf wd ws = Ok (c2, c1).
Proof.
  intros Hf Hb Hc. unfold border_conditions, front_conditions, back_conditions. rewrite turned_front, turned_back. unfold turned, turned_state.
  cbn [ts_front_boundary ts_back_boundary ts_cos_tilt ts_front_hs ts_back_hs]. rewrite Hf, Hb, Hc, Ropp_0.
  destruct (front_temperature st) as [t1| |]; cbn [bind]; try discriminate. 
  destruct (fixed_or (ts_front_hs s) _) as [h1| |] eqn:E1; cbn [bind]; try discriminate.
  destruct (back_temperature st) as [t2| |]; cbn [bind]; try discriminate.
  destruct (fixed_or (ts_back_hs s) _) as [h2| |] eqn:E2; cbn [bind]; try discriminate. intros [= <- <-]. reflexivity.
Qed.

(** a warm slab between two rooms: the face that looks up and the one that looks down get the same coefficient, which changes if the
    slab is described from the other side *)
Definition slab : tsurface :=
  mkTS [(0, Solid 1); (0, Back)] (Space 0) (Space 1) (9 / 10) (9 / 10) 1 4 0 0 1 1 [] [(0%nat, 2%nat)] [0; 0] [0; 0] None None.
Lemma powf_1 y : powf 1 y = 1.
Proof. unfold powf. rewrite (proj2 (Flt.Rltb_true 0 1)) by lra. unfold Rpower. rewrite ln_1, Rmult_0_r. apply exp_0. Qed.
Lemma natural_up a t : a - t = -1 -> natural_convection (mkConv a 0 a t 1 1) = Ok (181 / 100 / (2382 / 1000)).
Proof.
  intros E. unfold natural_convection. cbn [air_temperature surface_temperature cos_surface_tilt]. rewrite E. replace (Rabs (-1)) with 1 by (unfold Rabs; destruct (Rcase_abs (-1)); lra).
  rewrite Rabs_R1, powf_1. rewrite (proj2 (Flt.Rltb_false 1 (1 / 1000))) by lra. rewrite (proj2 (Flt.Rltb_true (-1) 0)) by lra. rewrite (proj2 (Flt.Rltb_false 1 0)) by lra.
  rewrite (proj2 (Flt.Rltb_false 0 (-1))) by lra. rewrite (proj2 (Flt.Rltb_true 0 1)) by lra. cbn [orb andb bind]. unfold MIN_H.
  replace (181 / 100 * 1 / (1382 / 1000 + 1)) with (181 / 100 / (2382 / 1000)) by field. rewrite (proj2 (Flt.Rltb_false _ _)) by lra. reflexivity.
Qed.
Lemma natural_down a t : a - t = -1 -> natural_convection (mkConv a 0 a t 1 (-(1))) = Ok (9482 / 1000 / (6238 / 1000)).
Proof.
  intros E. unfold natural_convection. cbn [air_temperature surface_temperature cos_surface_tilt]. rewrite E.
  rewrite Rabs_Ropp, Rabs_R1. replace (Rabs (-1)) with 1 by (unfold Rabs; destruct (Rcase_abs (-1)); lra). rewrite powf_1.
  rewrite (proj2 (Flt.Rltb_false 1 (1 / 1000))) by lra. rewrite (proj2 (Flt.Rltb_true (-1) 0)) by lra. rewrite (proj2 (Flt.Rltb_true (-(1)) 0)) by lra.
  cbn [orb andb bind]. unfold MIN_H. replace (9482 / 1000 * 1 / (7238 / 1000 - 1)) with (9482 / 1000 / (6238 / 1000)) by field. rewrite (proj2 (Flt.Rltb_false _ _)) by lra. reflexivity.
Qed.
Theorem C72_turned_slab_refuted : exists st c1 c2 c1' c2',
  border_conditions slab st 20 20 0 0 = Ok (c1, c2) /\ border_conditions (turned slab) (turned_state st) 20 20 0 0 = Ok (c1', c2') /\
  snd c1 = snd c2 /\ 2 * snd c2 < snd c1'.
Proof.
  exists (pane_state 21). do 4 eexists. unfold border_conditions, front_conditions, back_conditions, front_temperature, back_temperature.
  cbn [slab turned turned_state pane_state s_nodes ts_front_boundary ts_back_boundary ts_cos_tilt ts_front_hs ts_back_hs fixed_or rev List.app idx nth_error bind length Nat.sub].
  rewrite natural_up by lra. cbn [bind]. split; [reflexivity|]. rewrite natural_down by lra. cbn [bind]. split; [reflexivity|]. cbn [snd]. lra.
Qed.

(** a wall outdoors at both sides: both faces are treated as facing the wind, or neither, whatever the direction of the wind *)
Theorem C72_both_or_neither s st t ws wd t0 env1 h1 env2 h2 : ts_front_boundary s = Outdoor -> ts_back_boundary s = Outdoor -> ts_cos_tilt s = 0 ->
  ts_front_hs s = None -> ts_back_hs s = None -> idx (s_nodes st) 0 = Ok t0 -> idx (s_nodes st) (length (s_nodes st) - 1) = Ok t0 ->
  border_conditions s st t t wd ws = Ok ((env1, h1), (env2, h2)) -> h1 = h2.
Proof.
  intros Hf Hb Hc H1 H2 E1 E2. unfold border_conditions, front_conditions, back_conditions, front_temperature, back_temperature.
  rewrite Hf, Hb, Hc, H1, H2, E1, E2, Ropp_0. cbn [bind fixed_or]. unfold tarp_convection, natural_convection.
  cbn [roughness_index air_speed air_temperature surface_temperature cos_surface_tilt COEFFICIENTS nth_error].
  rewrite Rabs_R0. rewrite (proj2 (Flt.Rltb_true 0 (1 / 1000))) by lra. rewrite orb_true_r. cbn [bind]. intros [= _ <- _ <-]. reflexivity.
Qed.

(** the back of a surface next to a space of given temperature is taken to be as warm as its front *)
Theorem C72_ambient_back_refuted : exists s st c1 env2 h2, ts_back_boundary s = AmbientTemperature 20 /\ s_nodes st = [0; 20] /\
  border_conditions s st 0 20 0 0 = Ok (c1, (env2, h2)) /\ surface_temperature env2 = 0 /\ 0 < h2.
Proof.
  exists (mkTS [(0, Solid 1); (0, Back)] (Space 0) (AmbientTemperature 20) (9 / 10) (9 / 10) 1 4 0 0 1 0 [] [(0%nat, 2%nat)] [0; 0] [0; 0] (Some 5) (Some 5)).
  exists (mkSS 0 0 0 0 [0; 20] 0 0 0 0). do 3 eexists. split; [reflexivity|]. split; [reflexivity|]. split; [reflexivity|]. cbn. lra.
Qed.

(** after a step the state holds the temperatures just calculated, and at each side the heat given to the air of that side: the
    difference between its own face and its own air times its own coefficient; irradiances are left as they were *)
Theorem C72_reported_flows s st t_out zones wd ws dt mem st' mem' t1 t2 :
  let beside b t := match b with Outdoor => t = t_out | Space i => nth_error zones i = Some t | AmbientTemperature a => t = a | _ => False end in
  beside (ts_front_boundary s) t1 -> beside (ts_back_boundary s) t2 -> surface_step s st t_out zones wd ws dt mem = Ok (st', mem') ->
  s_nodes st' = m_temps mem' /\ (0 < length (s_nodes st'))%nat /\
  s_front_flow st' = (nth 0 (s_nodes st') 0 - t1) * s_front_hs st' /\
  s_back_flow st' = (nth (length (s_nodes st') - 1) (s_nodes st') 0 - t2) * s_back_hs st' /\
  (s_ir_front st', s_ir_back st', s_solar_front st', s_solar_back st') = (s_ir_front st, s_ir_back st, s_solar_front st, s_solar_back st) /\
  (forall h, ts_front_hs s = Some h -> ts_front_boundary s = Outdoor -> s_front_hs st' = h) /\ (forall h, ts_back_hs s = Some h -> ts_back_boundary s = Outdoor -> s_back_hs st' = h).
Proof.
  intros beside B1 B2. unfold surface_step, boundary_temps.
  assert (E1 : match ts_front_boundary s with Adiabatic => back_temperature st | b => unwrap (boundary_temperature b t_out zones) end = Ok t1).
  { unfold beside in B1. destruct (ts_front_boundary s); cbn in *; subst; try contradiction; try reflexivity. rewrite B1. reflexivity. }
  rewrite E1. cbn [bind].
  assert (E2 : match ts_back_boundary s with Adiabatic => Ok t1 | b => unwrap (boundary_temperature b t_out zones) end = Ok t2).
  { unfold beside in B2. destruct (ts_back_boundary s); cbn in *; subst; try contradiction; try reflexivity. rewrite B2. reflexivity. }
  rewrite E2. cbn [bind fst snd]. clear beside B1 B2 E1 E2.
  destruct (march s st t1 t2 wd ws dt mem) as [m1| |]; cbn [bind]; try discriminate.
  destruct (write_surface s st t1 t2 wd ws m1) as [s1| |] eqn:EW; cbn [bind]; try discriminate. intros [= <- <-].
  unfold write_surface in EW. unfold col_get in EW.
  destruct (nth_error (m_temps m1) 0) as [a|] eqn:Ea; cbn [bind] in EW; try discriminate.
  destruct (nth_error (m_temps m1) (length (m_temps m1) - 1)) as [b|] eqn:Eb; cbn [bind] in EW; try discriminate.
  unfold border_conditions in EW. destruct (front_conditions s _ t1 t2 wd ws) as [[e1 h1]| |] eqn:F1; cbn [bind] in EW; try discriminate.
  destruct (back_conditions s _ t1 t2 wd ws (e1, h1)) as [[e2 h2]| |] eqn:F2; cbn [bind fst snd] in EW; try discriminate. injection EW as <-.
  cbn [s_nodes s_front_flow s_back_flow s_front_hs s_back_hs s_ir_front s_ir_back s_solar_front s_solar_back].
  rewrite (nth_error_nth _ _ _ Ea), (nth_error_nth _ _ _ Eb).
  split; [reflexivity|]. split. { destruct (m_temps m1); [discriminate|cbn; lia]. } do 2 (split; [reflexivity|]). split; [reflexivity|]. split.
  - intros h Hh Hb. unfold front_conditions in F1. rewrite Hb, Hh in F1. destruct (front_temperature _); cbn [bind fixed_or] in F1; try discriminate. congruence.
  - intros h Hh Hb. unfold back_conditions in F2. rewrite Hb, Hh in F2. destruct (back_temperature _); cbn [bind fixed_or] in F2; try discriminate. congruence.
Qed.

(** an adiabatic back exchanges heat with a copy of what is at the front *)
Theorem C72_adiabatic_mirror s st t_out zones wd ws dt mem st' mem' : ts_back_boundary s = Adiabatic ->
  surface_step s st t_out zones wd ws dt mem = Ok (st', mem') ->
  s_back_hs st' = s_front_hs st' /\ (exists t_front, s_front_flow st' = (nth 0 (m_temps mem') 0 - t_front) * s_front_hs st' /\
    s_back_flow st' = (nth (length (m_temps mem') - 1) (m_temps mem') 0 - t_front) * s_front_hs st').
Proof.
  intros Hb. unfold surface_step, boundary_temps. rewrite Hb.
  match goal with |- context [bind (match ts_front_boundary s with _ => _ end) _] => set (tfr := match ts_front_boundary s with Adiabatic => back_temperature st | b => unwrap (boundary_temperature b t_out zones) end) end.
  destruct tfr as [tf| |] eqn:Et; cbn [bind]; try discriminate. cbn [fst snd].
  destruct (march s st tf tf wd ws dt mem) as [m1| |]; cbn [bind]; try discriminate.
  destruct (write_surface s st tf tf wd ws m1) as [s1| |] eqn:EW; cbn [bind]; try discriminate. intros [= <- <-].
  unfold write_surface in EW. unfold col_get in EW.
  destruct (nth_error (m_temps m1) 0) as [a|] eqn:Ea; cbn [bind] in EW; try discriminate.
  destruct (nth_error (m_temps m1) (length (m_temps m1) - 1)) as [b|] eqn:Eb; cbn [bind] in EW; try discriminate.
  unfold border_conditions in EW. destruct (front_conditions s _ tf tf wd ws) as [f| |]; cbn [bind] in EW; try discriminate.
  unfold back_conditions in EW. rewrite Hb in EW. cbn [bind fst snd] in EW. injection EW as <-. cbn. split; [reflexivity|]. exists tf.
  rewrite (nth_error_nth _ _ _ Ea), (nth_error_nth _ _ _ Eb). split; reflexivity.
Qed.

(** a thin wall outdoors at both sides, facing south and north, in a north wind *)
Definition fence : tsurface :=
  mkTS [(0, Solid 10); (0, Back)] Outdoor Outdoor (9 / 10) (9 / 10) 4 8 0 (-1) 1 0 [] [(0%nat, 2%nat)] [0; 0] [0; 0] None None.
Theorem C72_leeward_refuted : exists st env1 h env2,
  border_conditions fence st 20 20 0 5 = Ok ((env1, h), (env2, h)) /\
  is_windward 0 (ts_cos_tilt fence) (ts_nx fence) (ts_ny fence) = false /\ is_windward 0 (- ts_cos_tilt fence) (- ts_nx fence) (- ts_ny fence) = true.
Proof.
  exists (pane_state 21). do 3 eexists. split; [|split].
  - unfold border_conditions, front_conditions, back_conditions, front_temperature, back_temperature.
    cbn [fence pane_state s_nodes ts_front_boundary ts_back_boundary ts_cos_tilt ts_front_hs ts_back_hs fixed_or idx nth_error bind length Nat.sub]. rewrite Ropp_0.
    unfold tarp_convection. cbn [roughness_index COEFFICIENTS nth_error air_speed]. 
    unfold natural_convection at 1. cbn [air_temperature surface_temperature cos_surface_tilt]. rewrite Rabs_R0. rewrite (proj2 (Flt.Rltb_true 0 (1 / 1000))) by lra. rewrite orb_true_r. cbn [bind].
    unfold natural_convection at 1. cbn [air_temperature surface_temperature cos_surface_tilt]. rewrite Rabs_R0. rewrite (proj2 (Flt.Rltb_true 0 (1 / 1000))) by lra. rewrite orb_true_r. cbn [bind].
    reflexivity.
  - unfold is_windward. cbn [fence ts_cos_tilt ts_nx ts_ny]. rewrite Rabs_R0, sin_0, cos_0. rewrite (proj2 (Flt.Rltb_true 0 (98 / 100))) by lra. apply Flt.Rltb_false. lra.
  - unfold is_windward. cbn [fence ts_cos_tilt ts_nx ts_ny]. rewrite Ropp_0, Rabs_R0, sin_0, cos_0. rewrite (proj2 (Flt.Rltb_true 0 (98 / 100))) by lra. apply Flt.Rltb_true. lra.
Qed.


Theorem C72_adiabatic_refuted : exists s st mem st' mem', ts_back_boundary s = Adiabatic /\ 
  surface_step s st 0 [20; 20] 0 0 60 mem = Ok (st', mem') /\ s_back_flow st' < 0.
Proof.
  destruct (new_chunk_ok 0 2 ltac:(lia)) as (m & _ & Hm).
  destruct (C71_pane_moves_away Adiabatic 1 0 0 60 m (or_intror eq_refl) ltac:(lra) ltac:(rewrite Rabs_R1; lra) Hm) as (mem' & f & E & T & F).
  replace (20 + 1) with 21 in E by lra.
  set (env := mkConv 20 0 20 (20 - f * 1) 1 0). destruct (C52_natural_defined env) as (h & Eh & Hh).
  exists (pane Adiabatic), (pane_state 21), (mkMem [] [m] [21; 21]). do 2 eexists. split; [reflexivity|]. split.
  - unfold surface_step. unfold boundary_temps. cbn [ts_front_boundary ts_back_boundary pane boundary_temperature nth_error unwrap bind fst snd].
    change (mkTS [(0, Solid 300); (0, Back)] (Space 0) Adiabatic (84 / 100) (84 / 100) 1 4 0 1 1 0 [] [(0%nat, 2%nat)] [0; 0] [0; 0] None None) with (pane Adiabatic).
    rewrite E. cbn [bind]. unfold write_surface. rewrite T. cbn [length Nat.sub col_get nth_error bind].
    unfold border_conditions, front_conditions, back_conditions, front_temperature. cbn [ts_front_boundary ts_back_boundary pane s_nodes idx nth_error bind ts_cos_tilt ts_front_hs fixed_or]. fold env.
    rewrite Eh. cbn [bind fst snd]. reflexivity.
  - cbn [s_back_flow]. nra.
Qed.

(** ** C73: a surface and its surroundings at the same temperature *)
Definition still (s : tsurface) (st : sstate) (t : R) (k : nat) : Prop :=
  let side b := match b with Ground => False | Outdoor => True | Space i => (i < k)%nat | AmbientTemperature u => u = t | Adiabatic => True end in
  side (ts_front_boundary s) /\ side (ts_back_boundary s) /\ ~ (ts_front_boundary s = Adiabatic /\ ts_back_boundary s = Adiabatic) /\
  s_ir_front st = SIGMA * (t + 27315 / 100) ^ 4 /\ s_ir_back st = SIGMA * (t + 27315 / 100) ^ 4 /\
  s_solar_front st <= 0 /\ s_solar_back st = 0.

Lemma sky_of_black t : - 27315 / 100 < t -> sky_temperature (SIGMA * (t + 27315 / 100) ^ 4) = t.
Proof.
  intros H. unfold sky_temperature. assert (P : 0 < t + 27315 / 100) by lra. assert (S0 : 0 < SIGMA) by (unfold SIGMA; lra).
  replace (SIGMA * (t + 27315 / 100) ^ 4 / SIGMA) with ((t + 27315 / 100) ^ 4) by (field; lra).
  rewrite powf_pos by (apply pow_lt; assumption). rewrite <- Rpower_pow by assumption. rewrite Rpower_mult.
  replace (INR 4 * (1 / 4)) with 1 by (cbn; field). rewrite Rpower_1 by assumption. ring.
Qed.

(** what a border looks like in equilibrium *)
Definition at_rest (t : R) (fb : (conv * R) * (conv * R)) : Prop :=
  air_temperature (fst (fst fb)) = t /\ rad_temperature (fst (fst fb)) = t /\ air_temperature (fst (snd fb)) = t /\ rad_temperature (fst (snd fb)) = t.

Lemma fixed_or_defined h e v : e = Ok v -> exists v', fixed_or h e = Ok v'.
Proof. intros ->. destruct h; eexists; reflexivity. Qed.

Lemma still_border s st t k wd ws : - 27315 / 100 < t -> still s st t k -> s_nodes st <> [] -> (forall g, (g < length (s_nodes st))%nat -> nth g (s_nodes st) 0 = t) ->
  exists fb, border_conditions s st t t wd ws = Ok fb /\ at_rest t fb.
Proof.
  intros Ht (Sf & Sb & NA & If & Ib & _) Hn Hall. unfold border_conditions.
  assert (L : (0 < length (s_nodes st))%nat) by (destruct (s_nodes st); [congruence|cbn; lia]).
  assert (TF : front_temperature st = Ok t). { unfold front_temperature, idx. rewrite (nth_error_nth' _ 0) by lia. rewrite Hall by lia. reflexivity. }
  assert (TB : back_temperature st = Ok t). { unfold back_temperature, idx. rewrite (nth_error_nth' _ 0) by lia. rewrite Hall by lia. reflexivity. }
  assert (NC : forall h c, exists v, fixed_or h (natural_convection c) = Ok v). { intros h c. destruct (C52_natural_defined c) as (v & E & _). apply (fixed_or_defined h _ v E). }
  assert (TC : forall h c a p w, roughness_index c = 1%nat -> exists v, fixed_or h (tarp_convection c a p w) = Ok v).
  { intros h c a p w Hr. destruct (C52_exterior_defined c a p w ltac:(lia)) as (v & n & E & _). apply (fixed_or_defined h _ v E). }
  assert (F : exists f, front_conditions s st t t wd ws = Ok f /\ air_temperature (fst f) = t /\ rad_temperature (fst f) = t).
  { unfold front_conditions. rewrite If. destruct (ts_front_boundary s); try tauto; rewrite ?TF, ?TB; cbn [bind].
    - match goal with |- context [fixed_or ?h (tarp_convection ?c ?a ?p ?w)] => destruct (TC h c a p w eq_refl) as (v & ->) end. cbn [bind]. eexists. split; [reflexivity|]. cbn. split; [reflexivity|apply sky_of_black; assumption].
    - match goal with |- context [fixed_or ?h (natural_convection ?c)] => destruct (NC h c) as (v & ->) end. cbn [bind]. eexists. split; [reflexivity|]. cbn. tauto.
    - match goal with |- context [fixed_or ?h (natural_convection ?c)] => destruct (NC h c) as (v & ->) end. cbn [bind]. eexists. split; [reflexivity|]. cbn. split; assumption.
    - match goal with |- context [fixed_or ?h (natural_convection ?c)] => destruct (NC h c) as (v & ->) end. cbn [bind]. eexists. split; [reflexivity|]. cbn. tauto. }
  destruct F as (f & EF & F1 & F2). rewrite EF. cbn [bind].
  assert (B : exists b, back_conditions s st t t wd ws f = Ok b /\ air_temperature (fst b) = t /\ rad_temperature (fst b) = t).
  { unfold back_conditions. rewrite Ib. destruct (ts_back_boundary s); try tauto; rewrite ?TF, ?TB; cbn [bind].
    - match goal with |- context [fixed_or ?h (tarp_convection ?c ?a ?p ?w)] => destruct (TC h c a p w eq_refl) as (v & ->) end. cbn [bind]. eexists. split; [reflexivity|]. cbn. split; [reflexivity|apply sky_of_black; assumption].
    - match goal with |- context [fixed_or ?h (natural_convection ?c)] => destruct (NC h c) as (v & ->) end. cbn [bind]. eexists. split; [reflexivity|]. cbn. tauto.
    - match goal with |- context [fixed_or ?h (natural_convection ?c)] => destruct (NC h c) as (v & ->) end. cbn [bind]. eexists. split; [reflexivity|]. cbn. split; assumption.
    - eexists. split; [reflexivity|]. tauto. }
  destruct B as (b & EB & B1 & B2). rewrite EB. cbn [bind]. eexists. split; [reflexivity|]. repeat split; assumption.
Qed.

Lemma march_chunks_kept (P : nat * nat -> chunk -> Prop) march ends ms temps :
  Forall2 (fun e m => exists m', march temps e m = Ok (temps, m') /\ P e m') ends ms ->
  exists ms', march_chunks march ends ms temps = Ok (temps, ms') /\ Forall2 P ends ms'.
Proof.
  induction 1 as [|e m ends ms (m' & E & HP) _ (ms' & IH & F)]; cbn [march_chunks]; [eexists; split; [reflexivity|constructor]|].
  rewrite E. cbn [bind fst snd]. rewrite IH. cbn [bind fst snd]. eexists. split; [reflexivity|]. constructor; assumption.
Qed.

Theorem C73_equilibrium s st t k wd ws dt mem : - 27315 / 100 < t -> still s st t k ->
  s_nodes st <> [] -> (forall g, (g < length (s_nodes st))%nat -> nth g (s_nodes st) 0 = t) -> m_temps mem = s_nodes st ->
  length (ts_segments s) = length (s_nodes st) -> length (ts_front_alphas s) = length (s_nodes st) -> length (ts_back_alphas s) = length (s_nodes st) ->
  has_u (ts_segments s) (s_nodes st) ->
  Forall2 (fun e m => (fst e + 2 <= snd e <= length (s_nodes st))%nat /\ chunk_ok (snd e - fst e) m) (ts_massive s) (m_massive mem) ->
  Forall2 (fun e m => (fst e < snd e <= length (s_nodes st))%nat /\ chunk_ok (snd e - fst e) m /\
     forall fb, border_conditions s st t t wd ws = Ok fb -> usual (ts_segments s) (s_nodes st) (as_border fb 0 0) (fst e) (snd e)) (ts_nomass s) (m_nomass mem) ->
  exists st' mem', surface_step s st t (repeat t k) wd ws dt mem = Ok (st', mem') /\
    s_nodes st' = s_nodes st /\ m_temps mem' = s_nodes st /\ s_front_flow st' = 0 /\ s_back_flow st' = 0 /\
    s_ir_front st' = s_ir_front st /\ s_ir_back st' = s_ir_back st /\ s_solar_front st' = s_solar_front st /\ s_solar_back st' = s_solar_back st /\
    Forall2 (fun e m => chunk_ok (snd e - fst e) m) (ts_massive s) (m_massive mem') /\
    Forall2 (fun e m => chunk_ok (snd e - fst e) m) (ts_nomass s) (m_nomass mem').
Proof.
  intros Ht Hs Hn Hall Hmem LS LA LB HU HM HN.
  destruct (still_border s st t k wd ws Ht Hs Hn Hall) as (fb & EB & A1 & A2 & A3 & A4).
  pose proof Hs as (Sf & Sb & NA & If & Ib & Qf & Qb).
  set (N := length (s_nodes st)) in *.
  assert (L : (0 < N)%nat) by (unfold N; destruct (s_nodes st); [congruence|cbn; lia]).
  assert (TB : back_temperature st = Ok t). { unfold back_temperature, idx. rewrite (nth_error_nth' _ 0) by (fold N; lia). rewrite Hall by lia. reflexivity. }
  assert (Z : forall i, (i < k)%nat -> nth_error (repeat t k) i = Some t).
  { intros i Hi. rewrite (nth_error_nth' _ t) by (rewrite repeat_length; assumption). rewrite nth_repeat. reflexivity. }
  assert (BT : boundary_temps s st t (repeat t k) = Ok (t, t)).
  { unfold boundary_temps. cbv zeta in Sf, Sb.
    assert (F : (match ts_front_boundary s with Adiabatic => back_temperature st | b => unwrap (boundary_temperature b t (repeat t k)) end) = Ok t).
    { destruct (ts_front_boundary s); cbn [boundary_temperature unwrap]; try tauto; rewrite ?Z by assumption; try reflexivity. f_equal. assumption. }
    rewrite F. cbn [bind].
    assert (B : (match ts_back_boundary s with Adiabatic => Ok t | b => unwrap (boundary_temperature b t (repeat t k)) end) = Ok t).
    { destruct (ts_back_boundary s); cbn [boundary_temperature unwrap]; try tauto; rewrite ?Z by assumption; try reflexivity. f_equal. assumption. }
    rewrite B. reflexivity. }
  unfold surface_step. rewrite BT. cbn [bind fst snd].
  assert (SOL : exists solar, absorbed_solar s st N = Ok solar /\ length solar = N /\ forall g, nth g solar 0 = 0).
  { unfold absorbed_solar. rewrite LA, LB, !Nat.eqb_refl. cbn [negb]. rewrite Qb.
    assert (X : (if Rltb (s_solar_front st) 0 then 0 else s_solar_front st) = 0).
    { destruct (Rltb (s_solar_front st) 0) eqn:Q; [reflexivity|]. apply Rltb_false in Q. lra. }
    rewrite X. assert (Y : (if Rltb 0 0 then 0 else 0) = 0) by (destruct (Rltb 0 0); reflexivity). rewrite Y.
    eexists. split; [reflexivity|].
    assert (SC : forall l, length l = N -> scale l 0 = tab N (fun _ => 0)).
    { intros l Hl. rewrite (as_tab (scale l 0)). replace (length (scale l 0)) with N by (unfold scale; rewrite map_length; congruence). apply tab_ext.
      intros g Hg. unfold scale. assert (V : nth g (map (fun x => x * 0) l) (0 * 0) = nth g l 0 * 0) by apply (map_nth (fun x => x * 0)).
      replace (0 * 0) with 0 in V by ring. rewrite V. ring. }
    rewrite (SC _ LA), (SC _ LB), add_assign_tab. split; [apply tab_length|]. intros g. destruct (Nat.lt_ge_cases g N).
    - rewrite nth_tab by assumption. ring.
    - apply nth_overflow. rewrite tab_length. assumption. }
  destruct SOL as (solar & ES & LSol & Hsol).
  assert (BES : forall rf rb g, (g <= N + 1)%nat -> beside (as_border fb rf rb) (s_nodes st) g = t).
  { intros rf rb g Hg. unfold beside, as_border. cbn [b_front b_back]. fold N. destruct (Nat.eqb_spec g 0); [assumption|]. destruct (Nat.eqb_spec g (N + 1)); [assumption|].
    apply Hall. lia. }
  assert (FR : forall rf rb, front_rad (as_border fb rf rb) (s_nodes st) = 0) by (intros; unfold front_rad, as_border; cbn [b_front b_front_rad]; rewrite A2, Hall by lia; ring).
  assert (BR : forall rf rb, back_rad (as_border fb rf rb) (s_nodes st) = 0) by (intros; unfold back_rad, as_border; cbn [b_back b_back_rad]; fold N; rewrite A4, Hall by lia; ring).
  assert (MARCH : exists mem', march s st t t wd ws dt mem = Ok mem' /\ m_temps mem' = s_nodes st /\
    Forall2 (fun e m => chunk_ok (snd e - fst e) m) (ts_massive s) (m_massive mem') /\
    Forall2 (fun e m => chunk_ok (snd e - fst e) m) (ts_nomass s) (m_nomass mem')).
  { unfold march. rewrite Hmem. fold N. rewrite ES. cbn [bind]. rewrite EB. cbn [bind].
    set (rf := rad_coefficient _ _). set (rb := rad_coefficient _ _).
    destruct (march_chunks_kept (fun e m => chunk_ok (snd e - fst e) m) (fun temps ends m => march_nomass s st t t wd ws rf rb temps solar ends m) (ts_nomass s) (m_nomass mem) (s_nodes st)) as (ms1 & E1 & F1).
    { clear HM. induction HN as [|e m es ms (He & Hm & HR) _ IH]; constructor; [|exact IH].
      unfold march_nomass. rewrite EB. cbn [bind].
      destruct (C71_steady_kept (ts_segments s) solar (as_border fb rf rb) (fst e) (snd e) (s_nodes st) m) as (m' & E & Mk); try assumption; try lia.
      - specialize (HR fb EB). exact HR.
      - intros g Hg. unfold heat_at. rewrite FR, BR, Hsol.
        assert (P : forall j, (j <= N + 1)%nat -> (if (fst e <? j)%nat && (j <=? snd e)%nat then nth (j - 1) (s_nodes st) 0 else beside (as_border fb rf rb) (s_nodes st) j) = t).
        { intros j Hj. destruct (Nat.ltb_spec (fst e) j), (Nat.leb_spec j (snd e)); cbn [andb]; try (apply BES; assumption). apply Hall. lia. }
        rewrite !P by lia. rewrite Hall by lia. destruct (g =? 0)%nat, (g =? length (s_nodes st) - 1)%nat; ring.
      - exists m'. split; [exact E|exact Mk]. }
    rewrite E1. cbn [bind fst snd].
    destruct (march_chunks_kept (fun e m => chunk_ok (snd e - fst e) m) (fun temps ends m => march_mass (ts_segments s) temps solar dt (as_border fb rf rb) (fst ends) (snd ends) m) (ts_massive s) (m_massive mem) (s_nodes st)) as (ms2 & E2 & F2).
    { clear HN E1. induction HM as [|e m es ms (He & Hm) _ IH]; constructor; [|exact IH].
      destruct (C47_march_equilibrium (ts_segments s) (s_nodes st) solar dt (as_border fb rf rb) (fst e) (snd e) m) as (m' & E & Mk); try assumption; try lia.
      - intros i Hi. rewrite Hsol. unfold heat_into. rewrite FR, BR. rewrite !BES by lia. destruct (_ =? 0)%nat, (_ =? _ - 1)%nat; ring.
      - exists m'. split; [exact E|exact Mk]. }
    rewrite E2. cbn [bind fst snd]. eexists. split; [reflexivity|]. split; [reflexivity|]. split; assumption. }
  destruct MARCH as (mem' & EM & TM & FM & FN). rewrite EM. cbn [bind].
  unfold write_surface. rewrite TM. fold N. unfold col_get. rewrite !(nth_error_nth' _ 0) by (fold N; lia). cbn [bind]. rewrite !Hall by lia.
  assert (ST : border_conditions s (mkSS (s_ir_front st) (s_ir_back st) (s_solar_front st) (s_solar_back st) (s_nodes st) (s_front_hs st) (s_back_hs st) (s_front_flow st) (s_back_flow st)) t t wd ws = Ok fb).
  { rewrite <- EB. destruct st. reflexivity. }
  rewrite ST. cbn [bind]. do 2 eexists. split; [reflexivity|]. cbn. rewrite TM. repeat split; try reflexivity; try ring; assumption.
Qed.

(** ** the sun *)
(** the solar radiation absorbed by a node: that share of what reaches each face; irradiance is never negative at the front *)
Theorem C73_absorbed_partial s st n solar g : absorbed_solar s st n = Ok solar -> (g < n)%nat -> 0 <= s_solar_back st ->
  length solar = n /\ nth g solar 0 = nth g (ts_front_alphas s) 0 * Rmax 0 (s_solar_front st) + nth g (ts_back_alphas s) 0 * Rmax 0 (s_solar_back st).
Proof.
  unfold absorbed_solar. destruct (Nat.eqb_spec (length (ts_front_alphas s)) n) as [LA|]; cbn [negb]; [|discriminate].
  destruct (Nat.eqb_spec (length (ts_back_alphas s)) n) as [LB|]; cbn [negb]; [|discriminate]. intros [= <-] Hg Hb.
  assert (X : (if Rltb (s_solar_front st) 0 then 0 else s_solar_front st) = Rmax 0 (s_solar_front st)).
  { unfold Rmax. destruct (Rle_dec 0 (s_solar_front st)); destruct (Rltb (s_solar_front st) 0) eqn:Q; try apply Rltb_true in Q; try apply Rltb_false in Q; try reflexivity; lra. }
  rewrite X. rewrite (proj2 (Rltb_false (Rmax 0 (s_solar_front st)) 0)) by apply Rmax_l. rewrite (Rmax_right 0 (s_solar_back st)) by assumption.
  assert (SC : forall l x, length l = n -> scale l x = tab n (fun g => nth g l 0 * x)).
  { intros l x Hl. rewrite (as_tab (scale l x)). replace (length (scale l x)) with n by (unfold scale; rewrite map_length; congruence). apply tab_ext.
    intros h Hh. unfold scale. rewrite (nth_indep _ 0 (0 * x)) by (rewrite map_length; lia). apply (map_nth (fun y => y * x)). }
  rewrite (SC _ _ LA), (SC _ _ LB), add_assign_tab. split; [apply tab_length|]. apply nth_tab. assumption.
Qed.
(** at the back negative irradiance is used as it is (surface.rs:1271 asks about the front) *)
Theorem C73_absorbed_refuted : exists s st solar, absorbed_solar s st 2 = Ok solar /\ s_solar_back st < 0 /\ nth 1 solar 0 < 0.
Proof.
  exists (mkTS [(0, Solid 300); (0, Back)] Outdoor Outdoor (84 / 100) (84 / 100) 1 4 0 1 1 0 [] [(0%nat, 2%nat)] [1 / 2; 0] [0; 1 / 2] None None),
    (mkSS 400 400 0 (-10) [20; 20] 0 0 0 0). eexists. unfold absorbed_solar. cbn [ts_front_alphas ts_back_alphas s_solar_front s_solar_back length Nat.eqb negb].
  split; [reflexivity|]. split; [lra|]. rewrite (proj2 (Rltb_false 0 0)) by lra. rewrite (proj2 (Rltb_false 0 0)) by lra. cbn. lra.
Qed.

(** ** examples: the hypotheses can be met *)
(** two boards with insulation between them, without mass; 10 degrees at one side and 20 at the other *)
Definition panel_segs : list segment := [(0, Solid 10); (0, Solid (1 / 2)); (0, Solid 10); (0, Back)].
Definition panel_border : border := mkBorder (mkConv 10 0 10 10 1 0) (mkConv 20 0 20 20 1 0) 3 3 5 5.
Example C71_example : length [0; 0; 0; 0] = length panel_segs /\ solid_wall panel_segs /\
  (forall T, length T = length panel_segs -> has_u panel_segs T /\ usual panel_segs T panel_border 0 4) /\
  0 < 2 < 3 /\ 0 <= b_front_rad panel_border <= 2 * b_front_hs panel_border /\ 0 <= b_back_rad panel_border <= 2 * b_back_hs panel_border /\
  (exists Ts, steady panel_segs [0; 0; 0; 0] panel_border 0 4 Ts /\ same_outside 0 4 [15; 15; 15; 15] Ts).
Proof.
  assert (SW : solid_wall panel_segs). { intros g s E H. destruct g as [|[|[|g]]]; cbn in E, H; try lia; injection E as <-; eexists; reflexivity. }
  split; [reflexivity|]. split; [exact SW|].
  assert (B12 : 10 ^ 12 = 1000000000000) by ring.
  split. { intros T LT. split; [apply (solid_u panel_segs SW)|]. intros g Hg. rewrite B12. destruct g as [|[|[|[|[|g]]]]]; try lia; unfold link; cbn; lra. }
  split; [lra|]. split; [cbn; lra|]. split; [cbn; lra|].
  destruct (C71_steady_exists_partial panel_segs [0; 0; 0; 0] panel_border 0 4 [15; 15; 15; 15]) as (Ts & St & O & _); try reflexivity; try lia; try assumption; try (cbn; lra); try (cbn; lia).
  - intros g Hg. rewrite B12. destruct g as [|[|[|[|[|g]]]]]; try lia; unfold link; cbn; lra.
  - exists Ts. split; assumption.
Qed.
Example C71_example_chunk : exists m, new_chunk 0 4 = Ok m /\ chunk_ok 4 m.
Proof. apply (new_chunk_ok 0 4). lia. Qed.

(** a brick wall with insulation at its back, between the exterior and a room *)
Definition clad_wall : tsurface :=
  mkTS [(80000, Solid 20); (80000, Solid (1 / 2)); (0, Back)] Outdoor (Space 0) (9 / 10) (9 / 10) 10 13 0 1 1 0 [(0%nat, 2%nat)] [(2%nat, 3%nat)]
       [1 / 2; 0; 0] [0; 0; 1 / 2] None None.
Example C73_example : exists mem st,
  still clad_wall st 20 1 /\ s_nodes st = [20; 20; 20] /\ m_temps mem = s_nodes st /\ has_u (ts_segments clad_wall) (s_nodes st) /\
  Forall2 (fun e m => (fst e + 2 <= snd e <= length (s_nodes st))%nat /\ chunk_ok (snd e - fst e) m) (ts_massive clad_wall) (m_massive mem) /\
  Forall2 (fun e m => (fst e < snd e <= length (s_nodes st))%nat /\ chunk_ok (snd e - fst e) m /\
     forall fb, border_conditions clad_wall st 20 20 0 0 = Ok fb -> usual (ts_segments clad_wall) (s_nodes st) (as_border fb 0 0) (fst e) (snd e)) (ts_nomass clad_wall) (m_nomass mem).
Proof.
  destruct (new_chunk_ok 0 2 ltac:(lia)) as (m1 & _ & H1). destruct (new_chunk_ok 2 3 ltac:(lia)) as (m2 & _ & H2).
  set (ir := SIGMA * (20 + 27315 / 100) ^ 4).
  exists (mkMem [m1] [m2] [20; 20; 20]), (mkSS ir ir 0 0 [20; 20; 20] 0 0 0 0).
  split; [|split; [reflexivity|split; [reflexivity|split; [|split]]]].
  - unfold still. cbn. repeat split; try lra; try lia; try reflexivity. intros [X _]. discriminate X.
  - intros g s Hg E. destruct g as [|[|g]]; cbn in Hg, E; try lia; injection E as <-; eexists; reflexivity.
  - constructor; [|constructor]. cbn [fst snd s_nodes length]. split; [lia|exact H1].
  - constructor; [|constructor]. cbn [fst snd s_nodes length]. split; [lia|]. split; [exact H2|].
    intros [[e1 h1] [e2 h2]] E. assert (B12 : 10 ^ 12 = 1000000000000) by ring.
    assert (Hh : h2 = 1 / 10).
    { unfold border_conditions in E. destruct (front_conditions clad_wall _ 20 20 0 0) as [f| |]; cbn [bind] in E; try discriminate.
      unfold back_conditions, back_temperature in E. cbn [clad_wall ts_back_boundary s_nodes length Nat.sub idx nth_error bind ts_back_hs fixed_or ts_cos_tilt] in E.
      rewrite C52_vertical_formula in E by (left; reflexivity). cbn [bind] in E. injection E as _ _ <-.
      assert (Z : doc_vertical (mkConv 20 0 20 20 1 0) = 0).
      { unfold doc_vertical, dT. cbn [air_temperature surface_temperature]. replace (20 - 20) with 0 by ring. rewrite Rabs_R0. unfold cube_root. destruct (Req_EM_T 0 0); [ring|congruence]. }
      rewrite Z. apply Rmax_left. lra. }
    intros g Hg. rewrite B12. destruct g as [|[|[|[|g]]]]; try lia; unfold link; cbn; lra.
Qed.

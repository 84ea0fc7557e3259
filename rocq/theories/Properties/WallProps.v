(** Claims C46 and C47: the conduction matrix of a wall conserves heat, and the Runge-Kutta step. *)
From Coq Require Import List Arith Reals Bool Lia Lra Ring.
From Coquelicot Require Import Coquelicot.
From Verif.Common Require Import Base Flt.
From Verif.Matrix Require Import MatrixModel MatrixSpec NDiagProofs GaussSeidel.
From Verif.Heat Require Import GasModel DiscretizationModel DiscretizationProofs ConvectionModel WallModel WallProofs.
Import ListNotations.
Open Scope R_scope.

(** U-value of the element after node [g], at the current temperatures *)
Definition u_at (segs : list segment) (temps : list R) (g : nat) : R :=
  match nth_error segs g with
  | Some s => match u_value (snd s) (nth g temps 0) (nth (g + 1) temps 0) with Ok u => u | _ => 0 end
  | None => 0
  end.
(** conductance between node [g - 1] and node [g]; before the first and after the last node there are the air films *)
Definition link (segs : list segment) (temps : list R) (front_hs back_hs : R) (g : nat) : R :=
  if (g =? 0)%nat then front_hs else if (g =? length segs)%nat then back_hs else u_at segs temps (g - 1).
(** every element of the wall has a U-value at the current temperatures *)
Definition has_u (segs : list segment) (temps : list R) : Prop :=
  forall g s, (g + 1 < length segs)%nat -> nth_error segs g = Some s ->
    exists u, u_value (snd s) (nth g temps 0) (nth (g + 1) temps 0) = Ok u.
(** temperature of node [g]; the air at either side beyond the ends (node [0] is at index [1]) *)
Definition beside (b : border) (temps : list R) (g : nat) : R :=
  if (g =? 0)%nat then air_temperature (b_front b)
  else if (g =? length temps + 1)%nat then air_temperature (b_back b) else nth (g - 1) temps 0.
(** radiative heat entering through each face *)
Definition front_rad (b : border) (temps : list R) : R := b_front_rad b * (rad_temperature (b_front b) - nth 0 temps 0).
Definition back_rad (b : border) (temps : list R) : R := b_back_rad b * (rad_temperature (b_back b) - nth (length temps - 1) temps 0).

(** heat entering node [g] from its two neighbours (or the air) and by radiation *)
Definition heat_into (segs : list segment) (temps : list R) (b : border) (g : nat) : R :=
  let G := link segs temps (b_front_hs b) (b_back_hs b) in
  let P := beside b temps in
  G g * (P g - P (g + 1)%nat) + G (g + 1)%nat * (P (g + 2)%nat - P (g + 1)%nat)
  + (if (g =? 0)%nat then front_rad b temps else 0) + (if (g =? length temps - 1)%nat then back_rad b temps else 0).

(** heat entering the nodes [ini .. fin - 1] from outside them, if their temperatures were [x] *)
Definition heat_through_ends (segs : list segment) (temps : list R) (b : border) (ini fin : nat) (x : nat -> R) : R :=
  let G := link segs temps (b_front_hs b) (b_back_hs b) in
  let P := beside b temps in
  G ini * (P ini - x 0%nat) + G fin * (P (fin + 1)%nat - x (fin - ini - 1)%nat)
  + (if (ini =? 0)%nat then front_rad b temps else 0) + (if (fin =? length temps)%nat then back_rad b temps else 0).

Definition kq (segs : list segment) (temps : list R) (b : border) (ini fin : nat) (m : chunk) : res chunk :=
  get_k_q segs ini fin temps (b_front b) (b_front_hs b) (b_front_rad b) (b_back b) (b_back_hs b) (b_back_rad b) m.

Lemma link_conductances segs temps ini fin b : has_u segs temps -> segs <> [] ->
  conductances segs temps ini fin (b_front_hs b) (b_back_hs b) (link segs temps (b_front_hs b) (b_back_hs b)).
Proof.
  intros H Hne. assert (length segs <> 0%nat) by (destruct segs; [congruence|discriminate]). split; [|split].
  - intros _. reflexivity.
  - intros _. unfold link. rewrite (proj2 (Nat.eqb_neq _ _)) by assumption. rewrite Nat.eqb_refl. reflexivity.
  - intros g s _ _ Hg Es. destruct (H g s Hg Es) as (u & E). rewrite E. f_equal. unfold link, u_at.
    destruct (Nat.eqb_spec (g + 1) 0); [lia|]. destruct (Nat.eqb_spec (g + 1) (length segs)); [lia|].
    replace (g + 1 - 1)%nat with g by lia. rewrite Es, E. reflexivity.
Qed.

Lemma profile_beside b temps g : (g <= length temps + 1)%nat ->
  profile (air_temperature (b_front b)) (air_temperature (b_back b)) temps g = beside b temps g.
Proof.
  intros H. unfold beside. destruct g; cbn [profile]; [reflexivity|].
  destruct (Nat.eqb_spec (S g) 0); [lia|]. destruct (Nat.eqb_spec (S g) (length temps + 1)).
  - rewrite (proj2 (nth_error_None _ _)) by lia. reflexivity.
  - replace (S g - 1)%nat with g by lia. rewrite (nth_error_nth' _ 0) by lia. reflexivity.
Qed.

Section Chunk.
Context {segs : list segment} {temps : list R} {b : border} {ini fin : nat} {m : chunk}.
Hypotheses (HL : length temps = length segs) (Hi : (ini < fin)%nat) (Hf : (fin <= length segs)%nat)
  (Hm : chunk_ok (fin - ini) m) (HU : has_u segs temps).
Local Notation n := (fin - ini)%nat.
Local Notation G := (link segs temps (b_front_hs b) (b_back_hs b)).

Definition q_at (i : nat) : R :=
  (if (i =? 0)%nat then G ini * beside b temps ini + (if (ini =? 0)%nat then front_rad b temps else 0) else 0)
  + (if (i =? n - 1)%nat then G fin * beside b temps (fin + 1) + (if (fin =? length temps)%nat then back_rad b temps else 0) else 0).

Lemma kq_ok : exists m', kq segs temps b ini fin m = Ok m' /\ is_tri n (ck m') (K_of G ini) /\ cq m' = tab n q_at /\
  cc m' = cc m /\ ctemps m' = ctemps m /\ cscratch m' = cscratch m.
Proof.
  destruct Hm as (W & A & B & _ & LQ & _).
  destruct (get_k_q_spec segs ini fin temps (b_front b) (b_front_hs b) (b_front_rad b) (b_back b) (b_back_hs b) (b_back_rad b) m n G) as (k & E & T);
    try assumption; try lia; try reflexivity.
  { apply link_conductances; [assumption|]. intros ->. cbn in Hf. lia. }
  unfold kq. rewrite E. eexists. split; [reflexivity|]. cbn [ck cc cq ctemps cscratch].
  split; [exact T|]. repeat split. apply tab_ext. intros i Hin. unfold q_at. rewrite !profile_beside by lia.
  unfold front_rad, back_rad. destruct (Nat.eqb_spec fin (length temps)) as [->|]; reflexivity.
Qed.

(** ** C46: the conduction matrix is always obtained, and it is symmetric *)
Theorem C46_symmetric : exists m' kv, kq segs temps b ini fin m = Ok m' /\
  (forall i j, (i < n)%nat -> (j < n)%nat -> nd_get Rnum 3 (ck m') i j = Ok (kv i j)) /\
  (forall i j, (i < n)%nat -> (j < n)%nat -> kv i j = kv j i).
Proof.
  destruct kq_ok as (m' & E & T & _). exists m', (K_of G ini). repeat split; [assumption| |].
  - intros. apply (nd_get_tri n); assumption.
  - intros i j _ _. unfold K_of.
    destruct (Nat.eqb_spec i j) as [->|]; [rewrite Nat.eqb_refl; reflexivity|]. destruct (Nat.eqb_spec j i); [lia|].
    destruct (Nat.eqb_spec j (i + 1)), (Nat.eqb_spec i (j + 1)); try lia; reflexivity.
Qed.

(** at the current temperatures, the right-hand side for each node is the heat coming from its two neighbours, whatever the
    chunk the neighbours are in *)
Theorem C46_node_balance : exists m' kv, kq segs temps b ini fin m = Ok m' /\
  (forall i j, (i < n)%nat -> (j < n)%nat -> nd_get Rnum 3 (ck m') i j = Ok (kv i j)) /\ length (cq m') = n /\
  forall i, (i < n)%nat ->
    rsum n (fun j => kv i j * nth (ini + j) temps 0) + nth i (cq m') 0 = heat_into segs temps b (ini + i).
Proof.
  destruct kq_ok as (m' & E & T & Q & _). exists m', (K_of G ini). repeat split; [assumption| | |].
  - intros. apply (nd_get_tri n); assumption.
  - rewrite Q. apply tab_length.
  - intros i Hin. fold (mulv n (K_of G ini) (fun j => nth (ini + j) temps 0) i). rewrite mulv_K by assumption.
    rewrite Q. assert (H : nth_error (tab n q_at) i = Some (q_at i)) by (rewrite nth_error_tab; destruct (Nat.ltb_spec i n); [reflexivity|lia]).
    rewrite (nth_error_nth _ _ _ H). unfold heat_into, q_at.
    assert (P1 : beside b temps (ini + i + 1) = nth (ini + i) temps 0).
    { unfold beside. destruct (Nat.eqb_spec (ini + i + 1) 0); [lia|]. destruct (Nat.eqb_spec (ini + i + 1) (length temps + 1)); [lia|].
      f_equal. lia. }
    assert (P0 : i <> 0%nat -> beside b temps (ini + i) = nth (ini + (i - 1)) temps 0).
    { intros. unfold beside. destruct (Nat.eqb_spec (ini + i) 0); [lia|]. destruct (Nat.eqb_spec (ini + i) (length temps + 1)); [lia|].
      f_equal. lia. }
    assert (P2 : i <> (n - 1)%nat -> beside b temps (ini + i + 2) = nth (ini + (i + 1)) temps 0).
    { intros. unfold beside. destruct (Nat.eqb_spec (ini + i + 2) 0); [lia|]. destruct (Nat.eqb_spec (ini + i + 2) (length temps + 1)); [lia|].
      f_equal. lia. }
    rewrite P1.
    destruct (Nat.eqb_spec i 0) as [E0|E0], (Nat.eqb_spec i (n - 1)) as [E1|E1].
    + replace (ini + i)%nat with ini by lia. replace (ini + 1)%nat with fin by lia. replace (ini + 2)%nat with (fin + 1)%nat by lia.
      destruct (Nat.eqb_spec fin (length temps)), (Nat.eqb_spec ini (length temps - 1)); try lia; ring.
    + rewrite P2 by assumption. replace (ini + i)%nat with ini by lia.
      destruct (Nat.eqb_spec ini (length temps - 1)); try lia; ring.
    + rewrite P0 by assumption. replace (ini + i + 1)%nat with fin by lia. replace (ini + i + 2)%nat with (fin + 1)%nat by lia.
      destruct (Nat.eqb_spec (ini + i) 0); [lia|].
      destruct (Nat.eqb_spec fin (length temps)), (Nat.eqb_spec (ini + i) (length temps - 1)); try lia; ring.
    + rewrite P0, P2 by assumption.
      destruct (Nat.eqb_spec (ini + i) 0); [lia|]. destruct (Nat.eqb_spec (ini + i) (length temps - 1)); [lia|]. ring.
Qed.

Lemma q_sum x : rsum n (fun i => mulv n (K_of G ini) x i + q_at i) = heat_through_ends segs temps b ini fin x.
Proof.
  rewrite rsum_plus, K_sum by lia. unfold q_at. rewrite rsum_plus.
  rewrite (rsum_single n 0); [|lia|intros i _ D; destruct (Nat.eqb_spec i 0); [lia|reflexivity]].
  rewrite (rsum_single n (n - 1)); [|lia|intros i _ D; destruct (Nat.eqb_spec i (n - 1)); [lia|reflexivity]].
  rewrite !Nat.eqb_refl. unfold heat_through_ends. replace (ini + n)%nat with fin by lia. ring.
Qed.

(** whatever the temperatures of the nodes of the chunk, the heat entering all of them is what enters through the two ends *)
Theorem C46_conservation : exists m' kv, kq segs temps b ini fin m = Ok m' /\
  (forall i j, (i < n)%nat -> (j < n)%nat -> nd_get Rnum 3 (ck m') i j = Ok (kv i j)) /\ length (cq m') = n /\
  forall x, rsum n (fun i => rsum n (fun j => kv i j * x j) + nth i (cq m') 0) = heat_through_ends segs temps b ini fin x.
Proof.
  destruct kq_ok as (m' & E & T & Q & _). exists m', (K_of G ini). repeat split; [assumption| | |].
  - intros. apply (nd_get_tri n); assumption.
  - rewrite Q. apply tab_length.
  - intros x. rewrite <- q_sum. apply rsum_ext. intros i Hin. unfold mulv. f_equal. rewrite Q.
    apply nth_error_nth. rewrite nth_error_tab. destruct (Nat.ltb_spec i n); [reflexivity|lia].
Qed.

(** a wall at the temperature of both sides, without radiation exchange, is in equilibrium *)
Theorem C46_equilibrium t : (forall g, (g < length temps)%nat -> nth g temps 0 = t) ->
  air_temperature (b_front b) = t -> air_temperature (b_back b) = t -> rad_temperature (b_front b) = t -> rad_temperature (b_back b) = t ->
  exists m' kv, kq segs temps b ini fin m = Ok m' /\
  (forall i j, (i < n)%nat -> (j < n)%nat -> nd_get Rnum 3 (ck m') i j = Ok (kv i j)) /\
  forall i, (i < n)%nat -> rsum n (fun j => kv i j * t) + nth i (cq m') 0 = 0.
Proof.
  intros HT A1 A2 R1 R2. destruct C46_node_balance as (m' & kv & E & K & _ & B). exists m', kv. repeat split; try assumption.
  intros i Hin. specialize (B i Hin). rewrite (rsum_ext n _ (fun j => kv i j * t)) in B.
  2:{ intros j Hj. rewrite HT by lia. reflexivity. }
  rewrite B. unfold heat_into, front_rad, back_rad.
  assert (Hb : forall g, (g <= length temps + 1)%nat -> beside b temps g = t).
  { intros g Hg. unfold beside. destruct (Nat.eqb_spec g 0); [assumption|]. destruct (Nat.eqb_spec g (length temps + 1)); [assumption|]. apply HT. lia. }
  rewrite !Hb, !HT, R1, R2 by lia. destruct (ini + i =? 0)%nat, (ini + i =? length temps - 1)%nat; ring.
Qed.
End Chunk.

(** ** the wall as a whole: the heat exchanged between nodes cancels, only what crosses the two faces remains *)
Theorem C46_wall_balance segs temps b : length temps = length segs -> (0 < length segs)%nat ->
  rsum (length temps) (heat_into segs temps b)
  = b_front_hs b * (air_temperature (b_front b) - nth 0 temps 0) + front_rad b temps
    + b_back_hs b * (air_temperature (b_back b) - nth (length temps - 1) temps 0) + back_rad b temps.
Proof.
  intros HL HN. set (N := length temps) in *. unfold heat_into. fold N.
  set (G := link segs temps (b_front_hs b) (b_back_hs b)). set (P := beside b temps).
  assert (E : forall p, rsum p (fun g => G g * (P g - P (g + 1)%nat) + G (g + 1)%nat * (P (g + 2)%nat - P (g + 1)%nat))
      = G 0%nat * (P 0%nat - P 1%nat) - G p * (P p - P (p + 1)%nat)).
  { induction p as [|p IH]; cbn [rsum]; [cbn; ring|]. rewrite IH. replace (S p) with (p + 1)%nat by lia.
    replace (p + 1 + 1)%nat with (p + 2)%nat by lia. ring. }
  rewrite !rsum_plus, <- rsum_plus, E.
  rewrite (rsum_single N 0); [|lia|intros i _ D; destruct (Nat.eqb_spec i 0); [lia|reflexivity]].
  rewrite (rsum_single N (N - 1)); [|lia|intros i _ D; destruct (Nat.eqb_spec i (N - 1)); [lia|reflexivity]].
  rewrite !Nat.eqb_refl. unfold G, link, P, beside. fold N. rewrite <- HL.
  destruct (Nat.eqb_spec 0 0); [|lia]. destruct (Nat.eqb_spec 1 0); [lia|]. destruct (Nat.eqb_spec 1 (N + 1)); [lia|].
  destruct (Nat.eqb_spec N 0); [lia|]. rewrite !Nat.eqb_refl. destruct (Nat.eqb_spec N (N + 1)); [lia|]. destruct (Nat.eqb_spec (N + 1) 0); [lia|].
  cbn [Nat.sub]. ring.
Qed.

(** ** dividing by the masses: [rearrange_k] turns heat flows into temperature changes *)
Theorem C46_rearranged dt m n kv : chunk_ok n m -> (forall i, (i < n)%nat -> nth i (cc m) 0 <> 0) ->
  (forall i j, (i < n)%nat -> (j < n)%nat -> nd_get Rnum 3 (ck m) i j = Ok (kv i j)) ->
  exists m' kv', rearrange_k dt m = Ok m' /\ chunk_ok n m' /\ cc m' = cc m /\ ctemps m' = ctemps m /\
  (forall i j, (i < n)%nat -> (j < n)%nat -> nd_get Rnum 3 (ck m') i j = Ok (kv' i j)) /\
  forall x i, (i < n)%nat ->
    nth i (cc m) 0 * (rsum n (fun j => kv' i j * x j) + nth i (cq m') 0) = dt * (rsum n (fun j => kv i j * x j) + nth i (cq m) 0).
Proof.
  intros (W & A & B & LC & LQ & LT & SC) Hc HK.
  assert (T : is_tri n (ck m) kv).
  { repeat split; try assumption. intros i j Hi Hj. specialize (HK i j Hi Hj).
    rewrite (nd_get_ok Rnum 3 1 eq_refl) in HK by (try assumption; lia). congruence. }
  destruct (rearrange_spec dt (ck m) (fun i => nth i (cc m) 0) (fun i => nth i (cq m) 0) (ctemps m) (cscratch m) n kv T) as (k' & E & T').
  pose proof (as_tab (cc m)) as Ec. pose proof (as_tab (cq m)) as Eq. rewrite LC in Ec. rewrite LQ in Eq. rewrite <- Ec, <- Eq in E.
  assert (Em : m = mkChunk (ck m) (cc m) (cq m) (ctemps m) (cscratch m)) by (destruct m; reflexivity).
  rewrite <- Em in E. rewrite E. eexists. exists (fun i j => kv i j * (dt / nth i (cc m) 0)). split; [reflexivity|].
  destruct T' as (W' & A' & B' & C').
  split; [|split; [reflexivity|split; [reflexivity|split]]]; cbn [ck cc cq ctemps cscratch].
  - repeat split; cbn [ck cc cq ctemps cscratch]; rewrite ?tab_length; auto.
  - intros i j Hi Hj. apply (nd_get_tri n k' (fun i j => kv i j * (dt / nth i (cc m) 0))); [|assumption|assumption]. repeat split; assumption.
  - intros x i Hi.
    assert (H : nth_error (tab n (fun i => nth i (cq m) 0 * (dt / nth i (cc m) 0))) i = Some (nth i (cq m) 0 * (dt / nth i (cc m) 0)))
      by (rewrite nth_error_tab; destruct (Nat.ltb_spec i n); [reflexivity|lia]).
    rewrite (nth_error_nth _ _ _ H).
    rewrite (rsum_ext n _ (fun j => dt / nth i (cc m) 0 * (kv i j * x j))) by (intros; ring). rewrite rsum_scal.
    specialize (Hc i Hi). field. assumption.
Qed.

(** ** one march of a massive chunk: the energy gained by its nodes is the heat that crosses its ends during the step (the mean
    of the four stages of the method, the first of which uses the current temperatures) plus the absorbed sunlight *)
Theorem C46_energy segs temps solar dt b ini fin m :
  length temps = length segs -> length solar = length segs -> (fin <= length segs)%nat -> (ini + 2 <= fin)%nat ->
  chunk_ok (fin - ini) m -> has_u segs temps ->
  (forall g s, (ini <= g < fin)%nat -> nth_error segs g = Some s -> fst s <> 0) ->
  exists temps' m' x2 x3 x4, march_mass segs temps solar dt b ini fin m = Ok (temps', m') /\ chunk_ok (fin - ini) m' /\
    length temps' = length temps /\
    (forall g, (g < ini \/ fin <= g)%nat -> nth g temps' 0 = nth g temps 0) /\
    rsum (fin - ini) (fun i => fst (nth (ini + i) segs (0, UNone)) * (nth (ini + i) temps' 0 - nth (ini + i) temps 0))
    = dt * ((heat_through_ends segs temps b ini fin (fun i => nth (ini + i) temps 0)
             + 2 * heat_through_ends segs temps b ini fin x2 + 2 * heat_through_ends segs temps b ini fin x3
             + heat_through_ends segs temps b ini fin x4) / 6
            + rsum (fin - ini) (fun i => nth (ini + i) solar 0)).
Proof.
  intros HL HS Hf Hi Hm HU Hc. set (n := (fin - ini)%nat).
  pose proof (march_mass_spec segs temps solar dt b ini fin m n (link segs temps (b_front_hs b) (b_back_hs b)) HL HS Hf eq_refl ltac:(lia) Hm
    (link_conductances segs temps ini fin b HU ltac:(intros ->; cbn in Hf; lia))) as M. cbv zeta in M.
  set (c := fun i : nat => fst (nth (ini + i) segs (0, UNone))) in *.
  set (G := link segs temps (b_front_hs b) (b_back_hs b)) in *.
  set (f := fun i j : nat => K_of G ini i j * (dt / c i)) in *.
  match type of M with context [rk_step n f ?q0 ?x0 _] => set (q := q0) in *; set (x := x0) in * end.
  destruct M as (m' & E & Hm').
  assert (Hc0 : forall i, (i < n)%nat -> c i <> 0).
  { intros i Hn. unfold c. apply (Hc (ini + i)%nat); [unfold n in Hn; lia|]. apply nth_error_nth'. unfold n in Hn. lia. }
  assert (S : forall z, rsum n (fun i => c i * (mulv n f z i + q i)) = dt * (heat_through_ends segs temps b ini fin z + rsum n (fun i => nth (ini + i) solar 0))).
  { intros z. rewrite <- (q_sum (segs := segs) (temps := temps) (b := b) (ini := ini) (fin := fin)) by (try assumption; lia). fold n G.
    rewrite <- rsum_plus, <- rsum_scal.
    apply rsum_ext. intros i Hn. unfold mulv, f.
    rewrite (rsum_ext n _ (fun j => dt / c i * (K_of G ini i j * z j))) by (intros; ring). rewrite rsum_scal.
    unfold q, q_of, q_at. fold G n. rewrite !profile_beside by lia. unfold front_rad, back_rad.
    rewrite <- HL. specialize (Hc0 i Hn).
    destruct (Nat.eqb_spec fin (length temps)) as [->|]; field; assumption. }
  exists (tab (length temps) (fun g => if (ini <=? g)%nat && (g <? fin)%nat then rk_step n f q x (g - ini)%nat else nth g temps 0)), m',
    (fun j => 5 / 10 * stage1 n f q x j + x j), (fun j => 5 / 10 * stage2 n f q x j + x j), (fun j => stage3 n f q x j + x j).
  split; [exact E|]. split; [exact Hm'|]. split; [apply tab_length|]. 
  assert (Nt : forall F g, (g < length temps)%nat -> nth g (tab (length temps) F) 0 = F g).
  { intros F g Hg. apply nth_error_nth. rewrite nth_error_tab. destruct (Nat.ltb_spec g (length temps)); [reflexivity|lia]. }
  split.
  - intros g Hg. destruct (Nat.lt_ge_cases g (length temps)).
    + rewrite Nt by assumption. destruct (Nat.leb_spec ini g), (Nat.ltb_spec g fin); try lia; reflexivity.
    + rewrite !nth_overflow by (rewrite ?tab_length; lia). reflexivity.
  - rewrite (rsum_ext n _ (fun i => c i * (mulv n f x i + q i) * (1 / 6) + (c i * (mulv n f (fun j => 5 / 10 * stage1 n f q x j + x j) i + q i) * (1 / 3)
       + (c i * (mulv n f (fun j => 5 / 10 * stage2 n f q x j + x j) i + q i) * (1 / 3) + c i * (mulv n f (fun j => stage3 n f q x j + x j) i + q i) * (1 / 6))))).
    2:{ intros i Hn. rewrite Nt by (unfold n in Hn; lia). replace (ini + i - ini)%nat with i by lia.
        destruct (Nat.leb_spec ini (ini + i)), (Nat.ltb_spec (ini + i) fin); try (unfold n in Hn; lia). cbn [andb].
        unfold rk_step, stage4. fold (stage1 n f q x i). unfold stage2 at 1, stage3 at 1. fold (c i). change (nth (ini + i) temps 0) with (x i). ring. }
    rewrite !rsum_plus.
    assert (Sc : forall h r, rsum n (fun i => h i * r) = rsum n h * r).
    { intros h r. rewrite (rsum_ext n _ (fun i => r * h i)) by (intros; ring). rewrite rsum_scal. ring. }
    rewrite !Sc, !S. unfold x. field.
Qed.

(** a wall that exchanges nothing with its sides keeps its energy *)
Corollary C46_isolated segs temps solar dt b m :
  length temps = length segs -> length solar = length segs -> (2 <= length segs)%nat ->
  chunk_ok (length segs) m -> has_u segs temps -> (forall s, In s segs -> fst s <> 0) ->
  b_front_hs b = 0 -> b_back_hs b = 0 -> b_front_rad b = 0 -> b_back_rad b = 0 -> (forall g, nth g solar 0 = 0) ->
  exists temps' m', march_mass segs temps solar dt b 0 (length segs) m = Ok (temps', m') /\ length temps' = length temps /\
    rsum (length segs) (fun i => fst (nth i segs (0, UNone)) * nth i temps' 0)
    = rsum (length segs) (fun i => fst (nth i segs (0, UNone)) * nth i temps 0).
Proof.
  intros HL HS HN Hm HU Hc F1 F2 F3 F4 Z.
  destruct (C46_energy segs temps solar dt b 0 (length segs) m) as (t' & m' & x2 & x3 & x4 & E & _ & L' & _ & B); try assumption; try lia.
  { rewrite Nat.sub_0_r. assumption. }
  { intros g s _ Hs. apply Hc. eapply nth_error_In. exact Hs. }
  exists t', m'. split; [exact E|]. split; [exact L'|]. rewrite Nat.sub_0_r in B. cbn [Nat.add] in B.
  assert (H0 : forall x, heat_through_ends segs temps b 0 (length segs) x = 0).
  { intros x. unfold heat_through_ends, link, front_rad, back_rad. rewrite F1, F2, F3, F4.
    destruct (Nat.eqb_spec 0 0); [|lia]. destruct (Nat.eqb_spec (length segs) 0); [lia|]. rewrite Nat.eqb_refl. destruct (length segs =? length temps)%nat; ring. }
  rewrite !H0, (rsum_0 _ (fun i => nth i solar 0)) in B by (intros; apply Z).
  rewrite (rsum_ext _ _ (fun i => fst (nth i segs (0, UNone)) * nth i t' 0 + -1 * (fst (nth i segs (0, UNone)) * nth i temps 0))) in B by (intros; ring).
  rewrite rsum_plus, rsum_scal in B. lra.
Qed.

(** a wall of three nodes with a temperature gradient, between air at 10 and 20 degrees *)
Definition ex_segs : list segment := [(1000, Solid 2); (2000, Solid 4); (1000, Back)].
Definition ex_temps : list R := [12; 15; 19].
Definition ex_border : border := mkBorder (mkConv 10 0 8 12 1 0) (mkConv 20 0 21 19 1 0) 10 8 5 4.
Example C46_example : exists m, new_chunk 0 3 = Ok m /\ chunk_ok 3 m /\ has_u ex_segs ex_temps /\
  (exists m', kq ex_segs ex_temps ex_border 0 3 m = Ok m' /\
     nd_get Rnum 3 (ck m') 0 1 = Ok 2 /\ nd_get Rnum 3 (ck m') 1 0 = Ok 2 /\ nd_get Rnum 3 (ck m') 1 1 = Ok (-6) /\ cq m' = [80; 0; 168]) /\
  heat_into ex_segs ex_temps ex_border 1 = 10 /\
  rsum 3 (heat_into ex_segs ex_temps ex_border) = -24.
Proof.
  destruct (new_chunk_ok 0 3) as (m & E & Hm); [lia|]. exists m. cbn [Nat.sub] in Hm.
  assert (HU : has_u ex_segs ex_temps).
  { intros [|[|[|g]]] s Hg Hs; cbn in Hg; try lia; injection Hs as <-; cbn; eauto. }
  split; [exact E|]. split; [exact Hm|]. split; [exact HU|]. split; [|split].
  - destruct (kq_ok (segs := ex_segs) (temps := ex_temps) (b := ex_border) (ini := 0) (fin := 3) (m := m)) as (m' & E' & T & Q & _);
      try (cbn; lia); try assumption; try reflexivity.
    exists m'. split; [exact E'|]. cbn [Nat.sub] in *.
    rewrite !(nd_get_tri 3 (ck m') _ _ _ T) by lia. rewrite Q.
    unfold K_of, q_at, link, beside, u_at, front_rad, back_rad, tab, ex_segs, ex_temps, ex_border. cbn.
    repeat split; try (f_equal; lra). f_equal; [lra|f_equal; [lra|f_equal; lra]].
  - unfold heat_into, link, beside, u_at, ex_segs, ex_temps, ex_border. cbn. lra.
  - unfold heat_into, link, beside, u_at, front_rad, back_rad, ex_segs, ex_temps, ex_border. cbn. lra.
Qed.

(** ** C47: a Runge-Kutta step on any linear system of two nodes or more is the Taylor polynomial of degree four *)
Lemma chunk_tri n m kv : chunk_ok n m -> (forall i j, (i < n)%nat -> (j < n)%nat -> nd_get Rnum 3 (ck m) i j = Ok (kv i j)) -> is_tri n (ck m) kv.
Proof.
  intros (W & A & B & _) HK. repeat split; try assumption. intros i j Hi Hj. specialize (HK i j Hi Hj).
  rewrite (nd_get_ok Rnum 3 1 eq_refl) in HK by (try assumption; lia). congruence.
Qed.
Lemma rk4_chunk n m kv : chunk_ok n m -> (2 <= n)%nat ->
  (forall i j, (i < n)%nat -> (j < n)%nat -> nd_get Rnum 3 (ck m) i j = Ok (kv i j)) ->
  exists m', rk4 m = Ok m' /\ chunk_ok n m' /\ ck m' = ck m /\ cc m' = cc m /\ cq m' = cq m /\
    forall i, (i < n)%nat -> nth i (ctemps m') 0 = rk_step n kv (fun i => nth i (cq m) 0) (fun i => nth i (ctemps m) 0) i.
Proof.
  intros Hm Hn HK. pose proof (chunk_tri n m kv Hm HK) as T. destruct Hm as (W & A & B & LC & LQ & LT & SC).
  pose proof (rk4_spec n (ck m) kv (cc m) (fun i => nth i (cq m) 0) (fun i => nth i (ctemps m) 0) T Hn LC) as E.
  pose proof (as_tab (ctemps m)) as Et. pose proof (as_tab (cq m)) as Eq. rewrite LT in Et. rewrite LQ in Eq. rewrite <- Et, <- Eq in E.
  assert (Em : m = mkChunk (ck m) (cc m) (cq m) (ctemps m) n) by (destruct m; cbn in *; subst; reflexivity).
  rewrite <- Em in E. rewrite E. eexists. split; [reflexivity|]. split; [|cbn; split; [reflexivity|split; [reflexivity|split; [reflexivity|]]]].
  - repeat split; cbn; rewrite ?tab_length; auto.
  - intros i Hi. apply nth_error_nth. rewrite nth_error_tab. destruct (Nat.ltb_spec i n); [reflexivity|lia].
Qed.

(** [A^p v] *)
Fixpoint mat_pow (n : nat) (A : nat -> nat -> R) (p : nat) (v : nat -> R) (i : nat) : R :=
  match p with O => v i | S p => rsum n (fun j => A i j * mat_pow n A p v j) end.

Lemma mat_pow_powv n A p v i : mat_pow n A p v i = powv n A p v i.
Proof. revert i. induction p; intros i; cbn; [reflexivity|]. unfold mulv. apply rsum_ext. intros. rewrite IHp. reflexivity. Qed.

Theorem C47_taylor n m A : chunk_ok n m -> (2 <= n)%nat ->
  (forall i j, (i < n)%nat -> (j < n)%nat -> nd_get Rnum 3 (ck m) i j = Ok (A i j)) ->
  let T := fun i => nth i (ctemps m) 0 in
  let v := fun i => rsum n (fun j => A i j * T j) + nth i (cq m) 0 in
  exists m', rk4 m = Ok m' /\ chunk_ok n m' /\ ck m' = ck m /\ cc m' = cc m /\ cq m' = cq m /\
    forall i, (i < n)%nat ->
      nth i (ctemps m') 0 = T i + v i + mat_pow n A 1 v i / 2 + mat_pow n A 2 v i / 6 + mat_pow n A 3 v i / 24.
Proof.
  intros Hm Hn HK T v. destruct (rk4_chunk n m A Hm Hn HK) as (m' & E & O & E1 & E2 & E3 & H). exists m'. repeat split; try assumption; try apply O.
  intros i Hi. rewrite H by assumption. rewrite rk_taylor, !mat_pow_powv. reflexivity.
Qed.

(** an equilibrium profile is left unchanged *)
Theorem C47_equilibrium n m A : chunk_ok n m -> (2 <= n)%nat ->
  (forall i j, (i < n)%nat -> (j < n)%nat -> nd_get Rnum 3 (ck m) i j = Ok (A i j)) ->
  (forall i, (i < n)%nat -> rsum n (fun j => A i j * nth j (ctemps m) 0) + nth i (cq m) 0 = 0) ->
  exists m', rk4 m = Ok m' /\ ctemps m' = ctemps m.
Proof.
  intros Hm Hn HK Heq. destruct (C47_taylor n m A Hm Hn HK) as (m' & E & O & _ & _ & _ & H). exists m'. split; [exact E|].
  destruct O as (_ & _ & _ & _ & _ & LT' & _). destruct Hm as (_ & _ & _ & _ & _ & LT & _).
  rewrite (as_tab (ctemps m')), (as_tab (ctemps m)), LT, LT'. apply tab_ext. intros i Hi. rewrite H by assumption.
  assert (Z : forall p v, (forall j, (j < n)%nat -> v j = 0) -> forall j, (j < n)%nat -> mat_pow n A p v j = 0).
  { induction p; intros v Hv j Hj; cbn; [auto|]. apply rsum_0. intros l Hl. rewrite IHp by assumption. ring. }
  rewrite !Z by (try assumption; intros; apply Heq; assumption). rewrite Heq by assumption. lra.
Qed.

(** the same for a whole march: nodes in equilibrium with their surroundings keep their temperatures *)
Theorem C47_march_equilibrium segs temps solar dt b ini fin m :
  length temps = length segs -> length solar = length segs -> (fin <= length segs)%nat -> (ini + 2 <= fin)%nat ->
  chunk_ok (fin - ini) m -> has_u segs temps ->
  (forall i, (i < fin - ini)%nat -> heat_into segs temps b (ini + i) + nth (ini + i) solar 0 = 0) ->
  exists m', march_mass segs temps solar dt b ini fin m = Ok (temps, m') /\ chunk_ok (fin - ini) m'.
Proof.
  intros HL HS Hf Hi Hm HU Heq. set (n := (fin - ini)%nat).
  pose proof (march_mass_spec segs temps solar dt b ini fin m n (link segs temps (b_front_hs b) (b_back_hs b)) HL HS Hf eq_refl ltac:(lia) Hm
    (link_conductances segs temps ini fin b HU ltac:(intros ->; cbn in Hf; lia))) as M. cbv zeta in M.
  destruct M as (m' & E & Mok). exists m'. split; [|exact Mok]. rewrite E. f_equal. f_equal. transitivity (tab (length temps) (fun i => nth i temps 0)); [|symmetry; apply as_tab]. apply tab_ext. intros g Hg.
  destruct (Nat.leb_spec ini g), (Nat.ltb_spec g fin); cbn [andb]; try reflexivity.
  rewrite rk_taylor. cbv zeta.
  assert (Hlt : (ini < fin)%nat) by lia.
  destruct (C46_node_balance (b := b) HL Hlt Hf Hm HU) as (mk & kv & Ek & K & _ & B).
  destruct (kq_ok (b := b) HL Hlt Hf Hm HU) as (mk' & Ek' & T & Q & _).
  assert (mk' = mk) by congruence. subst mk'.
  assert (Z : forall i, (i < n)%nat ->
     mulv n (fun i j => K_of (link segs temps (b_front_hs b) (b_back_hs b)) ini i j * (dt / fst (nth (ini + i) segs (0, UNone)))) (fun i => nth (ini + i) temps 0) i
     + (q_of (link segs temps (b_front_hs b) (b_back_hs b)) (profile (air_temperature (b_front b)) (air_temperature (b_back b)) temps)
         (b_front_rad b * (rad_temperature (b_front b) - nth 0 temps 0)) (b_back_rad b * (rad_temperature (b_back b) - nth (fin - 1) temps 0))
         ini fin (length segs) n i + nth (ini + i) solar 0) * (dt / fst (nth (ini + i) segs (0, UNone))) = 0).
  { intros i Hin. specialize (Heq i Hin). rewrite <- (B i Hin) in Heq. rewrite Q in Heq.
    assert (Hq : nth_error (tab n (q_at (segs := segs) (temps := temps) (b := b) (ini := ini) (fin := fin))) i = Some (q_at i))
      by (rewrite nth_error_tab; destruct (Nat.ltb_spec i n); [reflexivity|lia]).
    rewrite (nth_error_nth _ _ _ Hq) in Heq.
    assert (Kv : forall j, (j < n)%nat -> kv i j = K_of (link segs temps (b_front_hs b) (b_back_hs b)) ini i j).
    { intros j Hj. pose proof (K i j Hin Hj) as H1. rewrite (nd_get_tri n (ck mk) _ i j T Hin Hj) in H1. congruence. }
    unfold mulv. rewrite (rsum_ext n _ (fun j => dt / fst (nth (ini + i) segs (0, UNone)) * (kv i j * nth (ini + j) temps 0))).
    2:{ intros j Hj. rewrite Kv by assumption. ring. }
    rewrite rsum_scal. unfold q_of. rewrite !profile_beside by lia. rewrite <- HL.
    unfold q_at, front_rad, back_rad in Heq. fold n in Heq.
    destruct (Nat.eqb_spec fin (length temps)) as [Ef|]; [rewrite <- Ef in Heq|]; 
      match type of Heq with ?a + ?q0 + ?s0 = 0 => transitivity (dt / fst (nth (ini + i) segs (0, UNone)) * (a + q0 + s0)); [ring|rewrite Heq; ring] end. }
  assert (Zp : forall f p v, (forall j, (j < n)%nat -> v j = 0) -> forall j, (j < n)%nat -> powv n f p v j = 0).
  { intros f p v Hv. induction p; intros j Hj; cbn; [auto|]. unfold mulv. apply rsum_0. intros l Hl. rewrite IHp by assumption. ring. }
  assert (Hgi : (g - ini < n)%nat) by (unfold n; lia).
  rewrite !Zp by (try assumption; exact Z). rewrite Z by assumption. replace (ini + (g - ini))%nat with g by lia. lra.
Qed.

(** ** the step is the Taylor polynomial of the exact solution *)
Lemma is_derive_rsum n (f : nat -> R -> R) (d : nat -> R) t : (forall i, (i < n)%nat -> is_derive (f i) t (d i)) ->
  is_derive (fun s => rsum n (fun i => f i s)) t (rsum n d).
Proof.
  induction n; intros H; cbn [rsum]; [apply @is_derive_const|]. apply @is_derive_plus; auto.
Qed.

Section Exact.
(** any solution of [y' = A y + b] *)
Context {n : nat} {A : nat -> nat -> R} {bv : nat -> R} {y : nat -> R -> R}.
Hypothesis sol : forall i t, (i < n)%nat -> is_derive (y i) t (rsum n (fun j => A i j * y j t) + bv i).
Let rhs (t : R) (i : nat) : R := rsum n (fun j => A i j * y j t) + bv i.

Lemma sol_deriv p i t : (i < n)%nat -> is_derive_n (y i) (S p) t (mat_pow n A p (rhs t) i).
Proof.
  revert i t. induction p as [|p IH]; intros i t Hi.
  - cbn. apply is_derive_ext with (f := y i); [reflexivity|]. apply sol. assumption.
  - change (is_derive (Derive_n (y i) (S p)) t (mat_pow n A (S p) (rhs t) i)).
    apply is_derive_ext with (f := fun s => mat_pow n A p (rhs s) i).
    { intros s. symmetry. apply is_derive_n_unique. apply IH. assumption. }
    clear IH. revert i Hi. induction p as [|p IH]; intros i Hi; cbn [mat_pow].
    + unfold rhs. replace (rsum n (fun j => A i j * (rsum n (fun j0 => A j j0 * y j0 t) + bv j)))
        with (plus (rsum n (fun j => A i j * (rsum n (fun j0 => A j j0 * y j0 t) + bv j))) 0) by (unfold plus; cbn; ring).
      apply @is_derive_plus; [|apply @is_derive_const].
      apply (is_derive_rsum n (fun j s => A i j * y j s)). intros j Hj. apply is_derive_scal. apply sol. assumption.
    + apply (is_derive_rsum n (fun j s => A i j * mat_pow n A p (rhs s) j)). intros j Hj. apply is_derive_scal. apply IH. assumption.
Qed.

Lemma pow_scaled dt p (v : nat -> R) i :
  mat_pow n (fun i j => dt * A i j) p (fun i => dt * v i) i = dt ^ (S p) * mat_pow n A p v i.
Proof.
  revert i. induction p as [|p IH]; intros i; cbn [mat_pow]; [cbn; ring|].
  rewrite <- rsum_scal. apply rsum_ext. intros j Hj. rewrite IH. cbn. ring.
Qed.

(** the chunk holds the system scaled by the length of the step and starts on the solution *)
Theorem C47_exact_solution m dt t0 : chunk_ok n m -> (2 <= n)%nat ->
  (forall i j, (i < n)%nat -> (j < n)%nat -> nd_get Rnum 3 (ck m) i j = Ok (dt * A i j)) ->
  (forall i, (i < n)%nat -> nth i (cq m) 0 = dt * bv i) ->
  (forall i, (i < n)%nat -> nth i (ctemps m) 0 = y i t0) ->
  exists m', rk4 m = Ok m' /\ forall i, (i < n)%nat ->
    nth i (ctemps m') 0 = sum_f_R0 (fun k => dt ^ k / INR (fact k) * Derive_n (y i) k t0) 4.
Proof.
  intros Hm Hn HK HQ HT. destruct (C47_taylor n m _ Hm Hn HK) as (m' & E & _ & _ & _ & _ & H). exists m'. split; [exact E|].
  intros i Hi. rewrite H by assumption.
  assert (V : forall p j, (j < n)%nat ->
    mat_pow n (fun i j => dt * A i j) p (fun i => rsum n (fun j => dt * A i j * nth j (ctemps m) 0) + nth i (cq m) 0) j = dt ^ (S p) * mat_pow n A p (rhs t0) j).
  { intros p j Hj. rewrite <- pow_scaled. revert j Hj. induction p as [|p IH]; intros j Hj; cbn [mat_pow].
    - unfold rhs. rewrite HQ by assumption. rewrite Rmult_plus_distr_l, <- rsum_scal. f_equal. apply rsum_ext. intros l Hl. rewrite HT by assumption. ring.
    - apply rsum_ext. intros l Hl. rewrite IH by assumption. reflexivity. }
  pose proof (V 0%nat i Hi) as V0. cbn [mat_pow] in V0. rewrite V0, !V by assumption. rewrite HT by assumption.
  cbn [sum_f_R0]. rewrite !(is_derive_n_unique _ _ _ _ (sol_deriv _ _ _ Hi)).
  change (Derive_n (y i) 0 t0) with (y i t0). cbn [mat_pow fact]. rewrite !mult_INR, !S_INR. cbn [INR]. cbn [Nat.mul Nat.add]. cbn. field.
Qed.

(** so the error of one step is of fifth order *)
Theorem C47_local_error m dt t0 M : chunk_ok n m -> (2 <= n)%nat -> 0 < dt ->
  (forall i j, (i < n)%nat -> (j < n)%nat -> nd_get Rnum 3 (ck m) i j = Ok (dt * A i j)) ->
  (forall i, (i < n)%nat -> nth i (cq m) 0 = dt * bv i) ->
  (forall i, (i < n)%nat -> nth i (ctemps m) 0 = y i t0) ->
  (forall i t, (i < n)%nat -> t0 <= t <= t0 + dt -> Rabs (Derive_n (y i) 5 t) <= M) ->
  exists m', rk4 m = Ok m' /\ forall i, (i < n)%nat -> Rabs (nth i (ctemps m') 0 - y i (t0 + dt)) <= M * dt ^ 5 / 120.
Proof.
  intros Hm Hn Hdt HK HQ HT HM. destruct (C47_exact_solution m dt t0 Hm Hn HK HQ HT) as (m' & E & H). exists m'. split; [exact E|].
  intros i Hi. rewrite H by assumption.
  destruct (Taylor_Lagrange (y i) 4 t0 (t0 + dt)) as (z & Hz & Ez); [lra| |].
  { intros t Ht [|k] Hk; [exact I|]. eexists. apply sol_deriv. assumption. }
  rewrite Ez. replace (t0 + dt - t0) with dt by ring.
  match goal with |- Rabs (?a - (?a' + ?r)) <= _ => replace (a - (a' + r)) with (- r) by (unfold Rminus; ring) end.
  rewrite Rabs_Ropp, Rabs_mult.
  specialize (HM i z Hi ltac:(lra)).
  assert (F : dt ^ 5 / INR (fact 5) = dt ^ 5 / 120) by (f_equal; f_equal; cbn; lra).
  change (S 4) with 5%nat. rewrite F.
  assert (0 < dt ^ 5) by (apply pow_lt; assumption).
  rewrite Rabs_pos_eq by lra.
  replace (M * dt ^ 5 / 120) with (dt ^ 5 / 120 * M) by field. apply Rmult_le_compat_l; lra.
Qed.
End Exact.

(** ** a chunk with a single node cannot be marched: the matrix product panics, so "all sizes" fails (chunks of walls always have
    two nodes or more, see C45) *)
Theorem C47_single_node_refuted : exists m, new_chunk 4 5 = Ok m /\ chunk_ok 1 m /\ rk4 m = Panic.
Proof.
  destruct (new_chunk_ok 4 5) as (m & E & Hm); [lia|]. exists m. cbn [Nat.sub] in Hm. split; [exact E|]. split; [exact Hm|].
  destruct Hm as (W & A & B & LC & LQ & LT & SC). destruct m as [k c q t sc]. cbn in *. subst sc. apply rk4_single; assumption.
Qed.

(** ** an example: two coupled nodes losing heat to the outside *)
Definition ex_chunk : chunk := mkChunk (mkMat 2 2 [-1; 1; 1; -1]) [1; 1] [0; 0] [10; 30] 2.
Example C47_example : chunk_ok 2 ex_chunk /\
  (forall i j, (i < 2)%nat -> (j < 2)%nat -> nd_get Rnum 3 (ck ex_chunk) i j = Ok (if (i =? j)%nat then -1 else 1)) /\
  exists m', rk4 ex_chunk = Ok m' /\ nth 0 (ctemps m') 0 = 50 / 3 /\ nth 1 (ctemps m') 0 = 70 / 3.
Proof.
  assert (Hm : chunk_ok 2 ex_chunk) by (repeat split).
  assert (HK : forall i j, (i < 2)%nat -> (j < 2)%nat -> nd_get Rnum 3 (ck ex_chunk) i j = Ok (if (i =? j)%nat then -1 else 1)).
  { intros [|[|i]] [|[|j]] Hi Hj; try lia; reflexivity. }
  split; [exact Hm|]. split; [exact HK|].
  destruct (C47_taylor 2 ex_chunk _ Hm ltac:(lia) HK) as (m' & E & _ & _ & _ & _ & H). exists m'. split; [exact E|].
  rewrite !H by lia. cbn. split; lra.
Qed.
(** a solution of that system *)
Example C47_example_solution : forall i t, (i < 2)%nat ->
  is_derive (fun t => 20 + (if (i =? 0)%nat then -10 else 10) * exp (-2 * t)) t
    (rsum 2 (fun j => (if (i =? j)%nat then -1 else 1) * (20 + (if (j =? 0)%nat then -10 else 10) * exp (-2 * t))) + 0).
Proof.
  intros i t Hi. auto_derive; [exact I|]. destruct i as [|[|i]]; cbn; try lia; lra.
Qed.

(** Lemmas on the mesh of a sphere *)
From Coq Require Import Reals ZArith List Bool Lra Lia Psatz Permutation.
From Verif.Common Require Import Base Flt.
From Verif.Geometry Require Import Vec TransformModel TriangleModel ShapesModel.
From Verif.Rendering Require Import SphereMeshModel.
Import ListNotations.
Open Scope R_scope.

Local Ltac v3 := apply V3_eq; cbn [vx vy vz vadd vsub vscale vneg vcross vdiv].

(** ** Directions instead of points *)

Definition det (a b c : pt) : R := vdot (vcross a b) c.
Definition mid (a b : pt) : pt := vscale (vadd a b) (/ vlen (vadd a b)).
Definition usplit (t : corners) : corners * list corners :=
  let '(a, b, c) := t in ((a, mid a b, mid a c), [(mid a b, b, mid b c); (mid b c, c, mid a c); (mid a b, mid b c, mid a c)]).
Definition urefine (l : list corners) : list corners := map fst (map usplit l) ++ flat_map snd (map usplit l).
Fixpoint urefinements (n : nat) (l : list corners) : list corners := match n with O => l | S n => urefinements n (urefine l) end.
Definition place (centre : pt) (r : R) (u : pt) : pt := vadd centre (vscale u r).
Definition placet (centre : pt) (r : R) (t : corners) : corners := let '(a, b, c) := t in (place centre r a, place centre r b, place centre r c).

Definition close (m : R) (a b : pt) : Prop := m <= vdot a b.
(** Three directions, no two further apart than [m] says, that go round to the left *)
Definition fine (m : R) (t : corners) : Prop :=
  let '(a, b, c) := t in
  vlen2 a = 1 /\ vlen2 b = 1 /\ vlen2 c = 1 /\ m <= vdot a b /\ m <= vdot a c /\ m <= vdot b c /\ 0 < det a b c.

Lemma len_add a b : vlen2 a = 1 -> vlen2 b = 1 -> vlen2 (vadd a b) = 2 * (1 + vdot a b).
Proof. intros A B. replace (vlen2 (vadd a b)) with (vlen2 a + vlen2 b + 2 * vdot a b) by (unfold vlen2, vdot, vadd; cbn [vx vy vz]; ring). rewrite A, B. ring. Qed.
Lemma mid_comm a b : mid a b = mid b a.
Proof. unfold mid. replace (vadd b a) with (vadd a b) by (v3; ring). reflexivity. Qed.
Lemma sum_pos a b m : 0 <= m -> vlen2 a = 1 -> vlen2 b = 1 -> m <= vdot a b -> 0 < vlen (vadd a b).
Proof. intros M A B D. unfold vlen. apply sqrt_lt_R0. rewrite len_add by assumption. lra. Qed.
Lemma len2_scale a k : vlen2 (vscale a k) = k * k * vlen2 a. Proof. unfold vlen2, vscale. cbn. ring. Qed.
Lemma mid_unit a b m : 0 <= m -> vlen2 a = 1 -> vlen2 b = 1 -> m <= vdot a b -> vlen2 (mid a b) = 1.
Proof.
  intros M A B D. unfold mid. rewrite len2_scale. rewrite <- vlen_sqr. pose proof (sum_pos a b m M A B D). field. lra.
Qed.

(** What the program computes, in terms of directions *)
Lemma midpoint_place centre r m a b : 0 <= m -> 1 / 10 ^ 20 < r * r * ((1 + m) / 2) -> 0 < r -> vlen2 a = 1 -> vlen2 b = 1 -> m <= vdot a b ->
  midpoint centre r (place centre r a) (place centre r b) = Ok (place centre r (mid a b)).
Proof.
  intros M R0 R1 A B D. unfold midpoint.
  replace (vsub (vdiv (vadd (place centre r a) (place centre r b)) 2) centre) with (vscale (vadd a b) (r / 2)) by (unfold place; v3; field).
  unfold vnormalize. rewrite len2_scale, len_add by assumption.
  assert (L : 1 / 10 ^ 20 < r / 2 * (r / 2) * (2 * (1 + vdot a b))) by nra.
  destruct (Rltb_spec (1 / 10 ^ 20) (r / 2 * (r / 2) * (2 * (1 + vdot a b)))) as [_|]; [|lra]. cbn [bind]. f_equal. unfold place, mid. f_equal. f_equal.
  assert (Sq : sqrt (r / 2 * (r / 2) * (2 * (1 + vdot a b))) = r / 2 * vlen (vadd a b)).
  { unfold vlen. rewrite len_add by assumption. rewrite sqrt_mult by nra. rewrite sqrt_square by lra. reflexivity. }
  pose proof (sum_pos a b m M A B D). rewrite Sq. v3; field; split; lra.
Qed.
Lemma split_place centre r m t : 0 <= m -> 1 / 10 ^ 20 < r * r * ((1 + m) / 2) -> 0 < r -> fine m t ->
  split centre r (placet centre r t) = Ok (placet centre r (fst (usplit t)), map (placet centre r) (snd (usplit t))).
Proof.
  intros M R0 R1 F. destruct t as ((a & b) & c). destruct F as (A & B & C & AB & AC & BC & _). cbn [placet split].
  rewrite !(midpoint_place centre r m) by assumption. reflexivity.
Qed.
Lemma traverse_map {A B C} (f : B -> res C) (g : A -> B) (h : A -> C) l : Forall (fun x => f (g x) = Ok (h x)) l -> traverse f (map g l) = Ok (map h l).
Proof. induction 1 as [|x l H _ IH]; [reflexivity|]. cbn [map traverse]. rewrite H. cbn [bind]. rewrite IH. reflexivity. Qed.
Lemma refine_place centre r m l : 0 <= m -> 1 / 10 ^ 20 < r * r * ((1 + m) / 2) -> 0 < r -> Forall (fine m) l ->
  refine centre r (map (placet centre r) l) = Ok (map (placet centre r) (urefine l)).
Proof.
  intros M R0 R1 F. unfold refine.
  rewrite (traverse_map _ _ (fun t => (placet centre r (fst (usplit t)), map (placet centre r) (snd (usplit t))))).
  2: { eapply Forall_impl; [|exact F]. intros t Ft. apply (split_place centre r m); assumption. }
  cbn [bind]. f_equal. unfold urefine. rewrite map_app, !map_map. cbn [fst]. f_equal.
  induction l as [|t l IH]; [reflexivity|]. cbn [map flat_map snd]. rewrite map_app, IH by (inversion F; assumption). reflexivity.
Qed.

(** ** Refining keeps triangles fine and makes them finer *)

Lemma vdot_scale a b j k : vdot (vscale a j) (vscale b k) = j * k * vdot a b. Proof. unfold vdot, vscale. cbn. ring. Qed.
Lemma vdot_comm a b : vdot a b = vdot b a. Proof. unfold vdot. ring. Qed.
Lemma vdot_add a b c : vdot a (vadd b c) = vdot a b + vdot a c. Proof. unfold vdot, vadd. cbn. ring. Qed.
Lemma vdot_self a : vdot a a = vlen2 a. Proof. reflexivity. Qed.
Lemma dot_le_1 a b : vlen2 a = 1 -> vlen2 b = 1 -> vdot a b <= 1.
Proof. intros A B. pose proof (vlen2_nonneg (vcross a b)) as H. rewrite lagrange, A, B in H. nra. Qed.

(** The bound after one more refinement *)
Definition finer (m : R) : R := 1 - (1 - m) / (2 * (1 + m)).
Lemma finer_range m : 0 <= m <= 1 -> m <= finer m <= 1 /\ 0 <= finer m.
Proof.
  intros H. unfold finer. assert (E : (1 - m) / (2 * (1 + m)) <= 1 - m).
  { unfold Rdiv. rewrite <- (Rmult_1_r (1 - m)) at 2. apply Rmult_le_compat_l; [lra|]. rewrite <- Rinv_1. apply Rinv_le_contravar; lra. }
  assert (P : 0 <= (1 - m) / (2 * (1 + m))) by (apply Rmult_le_pos; [lra|left; apply Rinv_0_lt_compat; lra]). lra.
Qed.
Lemma mid_end a b m : 0 <= m -> vlen2 a = 1 -> vlen2 b = 1 -> m <= vdot a b -> finer m <= vdot a (mid a b).
Proof.
  intros M A B D. pose proof (sum_pos a b m M A B D) as P. pose proof (dot_le_1 a b A B) as L1.
  unfold mid. replace (vdot a (vscale (vadd a b) (/ vlen (vadd a b)))) with ((1 + vdot a b) * / vlen (vadd a b)).
  2: { rewrite <- A. rewrite <- (vdot_self a), <- vdot_add. unfold vdot, vscale. cbn. ring. }
  set (l := vlen (vadd a b)) in *. assert (S : l * l = 2 * (1 + vdot a b)) by (unfold l; rewrite vlen_sqr; apply len_add; assumption).
  replace ((1 + vdot a b) * / l) with (l / 2) by (replace (1 + vdot a b) with (l * l / 2) by lra; field; lra).
  unfold finer. assert (L2 : l <= 2) by nra.
  assert (E : 1 - l / 2 = (1 - vdot a b) / (2 + l)).
  { replace (vdot a b) with (l * l / 2 - 1) by lra. field. lra. }
  assert (l * l >= 2 * (1 + m)) by lra.
  assert (G : (1 - vdot a b) / (2 + l) <= (1 - m) / (2 * (1 + m))).
  { apply (Rmult_le_reg_r ((2 + l) * (2 * (1 + m)))); [nra|].
    replace ((1 - vdot a b) / (2 + l) * ((2 + l) * (2 * (1 + m)))) with ((1 - vdot a b) * (2 * (1 + m))) by (field; lra).
    replace ((1 - m) / (2 * (1 + m)) * ((2 + l) * (2 * (1 + m)))) with ((1 - m) * (2 + l)) by (field; lra).
    assert (2 * (1 + m) <= 2 + l) by nra. assert (1 - vdot a b <= 1 - m) by lra. nra. }
  lra.
Qed.
Lemma mid_mid a b c m : 0 <= m -> vlen2 a = 1 -> vlen2 b = 1 -> vlen2 c = 1 -> m <= vdot a b -> m <= vdot a c -> m <= vdot b c ->
  finer m <= vdot (mid a b) (mid a c).
Proof.
  intros M A B C AB AC BC. pose proof (sum_pos a b m M A B AB) as P. pose proof (sum_pos a c m M A C AC) as Q.
  unfold mid. rewrite vdot_scale.
  assert (S1 : vlen (vadd a b) * vlen (vadd a b) = 2 * (1 + vdot a b)) by (rewrite vlen_sqr; apply len_add; assumption).
  assert (S2 : vlen (vadd a c) * vlen (vadd a c) = 2 * (1 + vdot a c)) by (rewrite vlen_sqr; apply len_add; assumption).
  assert (E : vdot (vadd a b) (vadd a c) = 1 + vdot a b + vdot a c + vdot b c).
  { rewrite <- A. unfold vdot, vlen2, vadd. cbn. ring. }
  rewrite E. set (x := vlen (vadd a b)) in *. set (y := vlen (vadd a c)) in *.
  pose proof (dot_le_1 b c B C).
  unfold finer.
  assert (XY : x * y >= 2 * (1 + m)).
  { assert (x * x * (y * y) >= 2 * (1 + m) * (2 * (1 + m))) by (rewrite S1, S2; nra).
    assert (0 < x * y) by nra. assert ((x * y) * (x * y) >= 2 * (1 + m) * (2 * (1 + m))) by nra. nra. }
  assert (N : 1 + vdot a b + vdot a c + vdot b c >= x * y - (1 - m)).
  { pose proof (Rle_0_sqr (x - y)) as Sq. unfold Rsqr in Sq. lra. }
  apply (Rmult_le_reg_r (x * y)); [nra|]. replace (/ x * / y * (1 + vdot a b + vdot a c + vdot b c) * (x * y)) with (1 + vdot a b + vdot a c + vdot b c) by (field; lra).
  assert (G : (1 - m) / (2 * (1 + m)) * (x * y) >= (1 - m) \/ 1 < m).
  { destruct (Rlt_le_dec 1 m); [right; assumption|left]. apply Rle_ge. apply (Rmult_le_reg_r (2 * (1 + m))); [lra|].
    replace ((1 - m) / (2 * (1 + m)) * (x * y) * (2 * (1 + m))) with ((1 - m) * (x * y)) by (field; lra). nra. }
  destruct G as [G|G]; [nra|]. exfalso. lra.
Qed.
Lemma det_scale a b c i j k : det (vscale a i) (vscale b j) (vscale c k) = i * j * k * det a b c.
Proof. unfold det, vdot, vcross, vscale. cbn. ring. Qed.

Lemma fine_split m t : 0 <= m -> fine m t -> fine (finer m) (fst (usplit t)) /\ Forall (fine (finer m)) (snd (usplit t)).
Proof.
  intros M F. destruct t as ((a & b) & c). destruct F as (A & B & C & AB & AC & BC & D).
  pose proof (sum_pos a b m M A B AB) as P1. pose proof (sum_pos a c m M A C AC) as P2. pose proof (sum_pos b c m M B C BC) as P3.
  pose proof (Rinv_0_lt_compat _ P1) as I1. pose proof (Rinv_0_lt_compat _ P2) as I2. pose proof (Rinv_0_lt_compat _ P3) as I3.
  pose proof (mid_unit a b m M A B AB) as U1. pose proof (mid_unit a c m M A C AC) as U2. pose proof (mid_unit b c m M B C BC) as U3.
  assert (BA : m <= vdot b a) by (rewrite vdot_comm; exact AB). assert (CA : m <= vdot c a) by (rewrite vdot_comm; exact AC).
  assert (CB : m <= vdot c b) by (rewrite vdot_comm; exact BC).
  pose proof (mid_end a b m M A B AB) as E1. pose proof (mid_end a c m M A C AC) as E2. pose proof (mid_end b c m M B C BC) as E3.
  pose proof (mid_end b a m M B A BA) as E4. pose proof (mid_end c a m M C A CA) as E5. pose proof (mid_end c b m M C B CB) as E6.
  rewrite (mid_comm b a) in E4. rewrite (mid_comm c a) in E5. rewrite (mid_comm c b) in E6.
  pose proof (mid_mid a b c m M A B C AB AC BC) as G1. pose proof (mid_mid b a c m M B A C BA BC AC) as G2.
  pose proof (mid_mid c a b m M C A B CA CB AB) as G3.
  rewrite (mid_comm b a) in G2. rewrite (mid_comm c a), (mid_comm c b) in G3.
  assert (T1 : 0 < det a (mid a b) (mid a c)).
  { unfold mid. replace (det a (vscale (vadd a b) (/ vlen (vadd a b))) (vscale (vadd a c) (/ vlen (vadd a c)))) with (/ vlen (vadd a b) * / vlen (vadd a c) * det a b c).
    - apply Rmult_lt_0_compat; [apply Rmult_lt_0_compat|]; assumption.
    - unfold det, vdot, vcross, vscale, vadd. cbn. ring. }
  assert (T2 : 0 < det (mid a b) b (mid b c)).
  { unfold mid. replace (det (vscale (vadd a b) (/ vlen (vadd a b))) b (vscale (vadd b c) (/ vlen (vadd b c)))) with (/ vlen (vadd a b) * / vlen (vadd b c) * det a b c).
    - apply Rmult_lt_0_compat; [apply Rmult_lt_0_compat|]; assumption.
    - unfold det, vdot, vcross, vscale, vadd. cbn. ring. }
  assert (T3 : 0 < det (mid b c) c (mid a c)).
  { unfold mid. replace (det (vscale (vadd b c) (/ vlen (vadd b c))) c (vscale (vadd a c) (/ vlen (vadd a c)))) with (/ vlen (vadd b c) * / vlen (vadd a c) * det a b c).
    - apply Rmult_lt_0_compat; [apply Rmult_lt_0_compat|]; assumption.
    - unfold det, vdot, vcross, vscale, vadd. cbn. ring. }
  assert (T4 : 0 < det (mid a b) (mid b c) (mid a c)).
  { unfold mid. rewrite det_scale. replace (det (vadd a b) (vadd b c) (vadd a c)) with (2 * det a b c) by (unfold det, vdot, vcross, vadd; cbn; ring).
    apply Rmult_lt_0_compat; [|lra]. apply Rmult_lt_0_compat; [apply Rmult_lt_0_compat|]; assumption. }
  cbn [usplit fst snd]. repeat match goal with |- _ /\ _ => split | |- Forall _ _ => constructor | |- fine _ _ => unfold fine end; try assumption;
    rewrite vdot_comm; assumption.
Qed.
Lemma fine_refine m l : 0 <= m -> Forall (fine m) l -> Forall (fine (finer m)) (urefine l).
Proof.
  intros M F. unfold urefine. apply Forall_app. split.
  - rewrite !Forall_map. eapply Forall_impl; [|exact F]. intros t Ft. apply (fine_split m t M Ft).
  - induction F as [|t l Ft _ IH]; [constructor|]. cbn [map flat_map]. apply Forall_app. split; [apply (fine_split m t M Ft)|exact IH].
Qed.
Lemma length_refine l : length (urefine l) = (4 * length l)%nat.
Proof.
  unfold urefine. rewrite app_length, !map_length. induction l as [|((a & b) & c) l IH]; [reflexivity|]. cbn [map flat_map length usplit snd app]. lia.
Qed.
Fixpoint finest (n : nat) (m : R) : R := match n with O => m | S n => finest n (finer m) end.
Lemma fine_refinements n : forall m l, 0 <= m <= 1 -> Forall (fine m) l -> Forall (fine (finest n m)) (urefinements n l) /\ length (urefinements n l) = (4 ^ n * length l)%nat.
Proof.
  induction n as [|n IH]; intros m l M F.
  - split; [exact F|]. cbn. lia.
  - cbn [urefinements finest]. pose proof (finer_range m M). destruct (IH (finer m) (urefine l)) as (G1 & G2); [lra|apply fine_refine; [lra|exact F]|].
    split; [exact G1|]. rewrite G2, length_refine. cbn [Nat.pow]. lia.
Qed.
Lemma refinements_place n : forall centre r m l, 0 <= m <= 1 -> 1 / 10 ^ 20 < r * r * ((1 + m) / 2) -> 0 < r -> Forall (fine m) l ->
  refinements n centre r (map (placet centre r) l) = Ok (map (placet centre r) (urefinements n l)).
Proof.
  induction n as [|n IH]; intros centre r m l M R0 R1 F; [reflexivity|]. cbn [refinements urefinements].
  rewrite (refine_place centre r m) by (assumption || lra). cbn [bind]. pose proof (finer_range m M).
  apply (IH centre r (finer m)); [lra| |exact R1|apply fine_refine; [lra|exact F]]. nra.
Qed.

(** ** Edges *)

Definition edges_of {A} (t : A * A * A) : list (A * A) := let '(a, b, c) := t in [(a, b); (b, c); (c, a)].
Definition swap {A} (e : A * A) : A * A := (snd e, fst e).
Definition half (e : pt * pt) : list (pt * pt) := [(fst e, mid (fst e) (snd e)); (mid (fst e) (snd e), snd e)].
Definition inner (t : corners) : list (pt * pt) :=
  let '(a, b, c) := t in [(mid a b, mid a c); (mid a c, mid a b); (mid b c, mid a b); (mid a b, mid b c); (mid a c, mid b c); (mid b c, mid a c)].
Lemma edges_split t : Permutation (edges_of (fst (usplit t)) ++ flat_map edges_of (snd (usplit t))) (flat_map half (edges_of t) ++ inner t).
Proof.
  destruct t as ((a & b) & c). cbn [usplit fst snd edges_of flat_map half inner app]. rewrite !(mid_comm c a).
  set (ab := mid a b). set (ac := mid a c). set (bc := mid b c).
  (* a solver for permutations of explicit lists *)
  repeat (match goal with
  | |- Permutation [] [] => constructor
  | |- Permutation (?x :: ?l) (?x :: ?l') => apply perm_skip
  | |- Permutation (?x :: ?l) ?r =>
      let rec find pre s := lazymatch s with
        | x :: ?s' => apply (Permutation_cons_app pre s')
        | ?y :: ?s' => let pre' := eval cbn [app] in (pre ++ [y]) in find pre' s' end in
      find (@nil (pt * pt)) r; cbn [app]
  end).
Qed.
Lemma perm_flat_map {A B} (f : A -> list B) l l' : Permutation l l' -> Permutation (flat_map f l) (flat_map f l').
Proof. apply Permutation_flat_map. Qed.
Lemma flat_map_app2 {A B} (f g : A -> list B) l : Permutation (flat_map f l ++ flat_map g l) (flat_map (fun x => f x ++ g x) l).
Proof.
  induction l as [|x l IH]; [reflexivity|]. cbn [flat_map]. rewrite <- IH. rewrite <- !app_assoc. apply Permutation_app_head. rewrite !app_assoc. apply Permutation_app_tail. apply Permutation_app_comm.
Qed.
Lemma flat_map_flat {A B C} (f : A -> list B) (g : B -> list C) l : flat_map g (flat_map f l) = flat_map (fun x => flat_map g (f x)) l.
Proof. induction l as [|x l IH]; [reflexivity|]. cbn [flat_map]. rewrite flat_map_app, IH. reflexivity. Qed.
Lemma flat_map_perm {A B} (f g : A -> list B) l : (forall x, Permutation (f x) (g x)) -> Permutation (flat_map f l) (flat_map g l).
Proof. intros H. induction l as [|x l IH]; [reflexivity|]. cbn [flat_map]. apply Permutation_app; [apply H|exact IH]. Qed.
Lemma edges_refine l : Permutation (flat_map edges_of (urefine l)) (flat_map half (flat_map edges_of l) ++ flat_map inner l).
Proof.
  unfold urefine. rewrite flat_map_app, !map_map, flat_map_flat.
  assert (E1 : flat_map edges_of (map (fun x => fst (usplit x)) l) = flat_map (fun x => edges_of (fst (usplit x))) l).
  { induction l as [|x l IH]; [reflexivity|]. cbn [map flat_map]. rewrite IH. reflexivity. }
  assert (E2 : flat_map (fun x => flat_map edges_of (snd x)) (map usplit l) = flat_map (fun x => flat_map edges_of (snd (usplit x))) l).
  { clear E1. induction l as [|x l IH]; [reflexivity|]. cbn [map flat_map]. rewrite IH. reflexivity. }
  rewrite E1, E2, flat_map_app2, flat_map_flat, flat_map_app2. apply flat_map_perm. apply edges_split.
Qed.
(** Every edge is there as often in one direction as in the other *)
Definition closed {A} (l : list (A * A * A)) : Prop := Permutation (flat_map edges_of l) (map swap (flat_map edges_of l)).
Lemma map_flat_map {A B C} (f : A -> list B) (g : B -> C) l : map g (flat_map f l) = flat_map (fun x => map g (f x)) l.
Proof. induction l as [|x l IH]; [reflexivity|]. cbn [flat_map]. rewrite map_app, IH. reflexivity. Qed.
Lemma closed_refine l : closed l -> closed (urefine l).
Proof.
  unfold closed. intros H.
  assert (Q : Permutation (flat_map half (flat_map edges_of l) ++ flat_map inner l) (map swap (flat_map half (flat_map edges_of l) ++ flat_map inner l))).
  { rewrite map_app. apply Permutation_app.
    - transitivity (flat_map half (map swap (flat_map edges_of l))); [apply perm_flat_map; exact H|].
      clear H. generalize (flat_map edges_of l) as es. intros es. induction es as [|(p & q) E IH]; [reflexivity|]. cbn [map flat_map]. rewrite map_app. apply Permutation_app; [|exact IH].
      unfold half, swap. cbn [fst snd map]. rewrite (mid_comm q p). apply perm_swap.
    - rewrite map_flat_map. apply flat_map_perm. intros ((a & b) & c). cbn [inner map swap fst snd].
      etransitivity; [apply perm_swap|]. do 2 apply perm_skip. etransitivity; [apply perm_swap|]. do 2 apply perm_skip. apply perm_swap. }
  etransitivity; [apply edges_refine|]. etransitivity; [exact Q|]. apply Permutation_map. symmetry. apply edges_refine.
Qed.
Lemma closed_refinements n : forall l, closed l -> closed (urefinements n l).
Proof. induction n as [|n IH]; intros l H; [exact H|]. cbn [urefinements]. apply IH, closed_refine, H. Qed.
Lemma closed_map {A B} (f : A -> B) (l : list (A * A * A)) :
  closed l -> closed (map (fun t => let '(a, b, c) := t in (f a, f b, f c)) l).
Proof.
  unfold closed. intros H. assert (E : flat_map edges_of (map (fun t => let '(a, b, c) := t in (f a, f b, f c)) l) = map (fun e => (f (fst e), f (snd e))) (flat_map edges_of l)).
  { clear H. induction l as [|((a & b) & c) l IH]; [reflexivity|]. cbn [map flat_map]. rewrite IH, map_app. reflexivity. }
  rewrite E. etransitivity; [apply Permutation_map; exact H|]. rewrite !map_map. reflexivity.
Qed.

(** ** Which directions a triangle takes up *)

Definition in_cone (t : corners) (d : pt) : Prop :=
  let '(a, b, c) := t in exists x y z, 0 <= x /\ 0 <= y /\ 0 <= z /\ d = vadd (vscale a x) (vadd (vscale b y) (vscale c z)).
Definition in_open (t : corners) (d : pt) : Prop :=
  let '(a, b, c) := t in exists x y z, 0 < x /\ 0 < y /\ 0 < z /\ d = vadd (vscale a x) (vadd (vscale b y) (vscale c z)).
Lemma cramer a b c d : vscale d (det a b c) = vadd (vscale a (det d b c)) (vadd (vscale b (det a d c)) (vscale c (det a b d))).
Proof. unfold det, vdot, vcross. v3; ring. Qed.
Lemma det_comb a b c x y z (d := vadd (vscale a x) (vadd (vscale b y) (vscale c z))) :
  det d b c = x * det a b c /\ det a d c = y * det a b c /\ det a b d = z * det a b c.
Proof. unfold d, det, vdot, vcross, vadd, vscale. cbn. repeat split; ring. Qed.
Lemma cone_det a b c d : 0 < det a b c -> in_cone (a, b, c) d <-> 0 <= det d b c /\ 0 <= det a d c /\ 0 <= det a b d.
Proof.
  intros D. split.
  - intros (x & y & z & X & Y & Z & ->). destruct (det_comb a b c x y z) as (-> & -> & ->). repeat split; apply Rmult_le_pos; lra.
  - intros (X & Y & Z). exists (det d b c / det a b c), (det a d c / det a b c), (det a b d / det a b c).
    assert (I : 0 < / det a b c) by (apply Rinv_0_lt_compat; exact D). repeat split; try (unfold Rdiv; apply Rmult_le_pos; lra).
    pose proof (cramer a b c d) as C. set (k := det a b c) in *.
    replace d with (vscale (vscale d k) (/ k)) at 1 by (v3; field; lra). rewrite C. v3; field; lra.
Qed.
Lemma open_det a b c d : 0 < det a b c -> in_open (a, b, c) d <-> 0 < det d b c /\ 0 < det a d c /\ 0 < det a b d.
Proof.
  intros D. split.
  - intros (x & y & z & X & Y & Z & ->). destruct (det_comb a b c x y z) as (-> & -> & ->). repeat split; apply Rmult_lt_0_compat; lra.
  - intros (X & Y & Z). exists (det d b c / det a b c), (det a d c / det a b c), (det a b d / det a b c).
    assert (I : 0 < / det a b c) by (apply Rinv_0_lt_compat; exact D). repeat split; try (unfold Rdiv; apply Rmult_lt_0_compat; lra).
    pose proof (cramer a b c d) as C. set (k := det a b c) in *.
    replace d with (vscale (vscale d k) (/ k)) at 1 by (v3; field; lra). rewrite C. v3; field; lra.
Qed.
Definition children (t : corners) : list corners := fst (usplit t) :: snd (usplit t).

(** The four parts in terms of the whole *)
Definition where_child (n : nat) (X Y Z : R) : R * R * R :=
  match n with
  | 0%nat => (X - Y - Z, Y, Z) | 1%nat => (X, Y - X - Z, Z) | 2%nat => (Y, Z - X - Y, X) | _ => (X + Y - Z, Y + Z - X, X + Z - Y)
  end.
Lemma scaled_le k x : 0 < k -> 0 <= k * x <-> 0 <= x.
Proof. intros K. split; intros H; [apply (Rmult_le_reg_l k); [exact K|rewrite Rmult_0_r; exact H]|apply Rmult_le_pos; lra]. Qed.
Lemma scaled_lt k x : 0 < k -> 0 < k * x <-> 0 < x.
Proof. intros K. split; intros H; [apply (Rmult_lt_reg_l k); [exact K|rewrite Rmult_0_r; exact H]|apply Rmult_lt_0_compat; lra]. Qed.
Lemma child_sides m a b c d n t : 0 <= m -> fine m (a, b, c) -> nth_error (children (a, b, c)) n = Some t ->
  let '(p, q, s) := where_child n (det d b c) (det a d c) (det a b d) in
  (in_cone t d <-> 0 <= p /\ 0 <= q /\ 0 <= s) /\ (in_open t d <-> 0 < p /\ 0 < q /\ 0 < s).
Proof.
  intros M F N. pose proof (fine_split m _ M F) as (F1 & F2). destruct F as (A & B & C & AB & AC & BC & D).
  pose proof (Rinv_0_lt_compat _ (sum_pos a b m M A B AB)) as I1. pose proof (Rinv_0_lt_compat _ (sum_pos a c m M A C AC)) as I2.
  pose proof (Rinv_0_lt_compat _ (sum_pos b c m M B C BC)) as I3.
  assert (I12 := Rmult_lt_0_compat _ _ I1 I2). assert (I13 := Rmult_lt_0_compat _ _ I1 I3). assert (I23 := Rmult_lt_0_compat _ _ I2 I3).
  cbn [usplit fst snd] in F1, F2.
  destruct n as [|[|[|[|n]]]]; cbn [children usplit fst snd nth_error] in N; [| | | |destruct n; discriminate]; injection N as <-;
    rewrite ?Forall_cons_iff in F2; destruct F1 as (_ & _ & _ & _ & _ & _ & D1);
    destruct F2 as ((_ & _ & _ & _ & _ & _ & D2) & (_ & _ & _ & _ & _ & _ & D3) & (_ & _ & _ & _ & _ & _ & D4) & _); cbn [where_child];
    rewrite cone_det, open_det by assumption; clear D1 D2 D3 D4;
    revert I1 I2 I3 I12 I13 I23; unfold mid; generalize (/ vlen (vadd a b)) as i1, (/ vlen (vadd a c)) as i2, (/ vlen (vadd b c)) as i3; intros i1 i2 i3 I1 I2 I3 I12 I13 I23.
  - replace (det d (vscale (vadd a b) i1) (vscale (vadd a c) i2)) with (i1 * i2 * (det d b c - det a d c - det a b d)) by (unfold det, vdot, vcross, vadd, vscale; cbn; ring).
    replace (det a d (vscale (vadd a c) i2)) with (i2 * det a d c) by (unfold det, vdot, vcross, vadd, vscale; cbn; ring).
    replace (det a (vscale (vadd a b) i1) d) with (i1 * det a b d) by (unfold det, vdot, vcross, vadd, vscale; cbn; ring).
    rewrite !scaled_le, !scaled_lt by assumption. tauto.
  - replace (det d b (vscale (vadd b c) i3)) with (i3 * det d b c) by (unfold det, vdot, vcross, vadd, vscale; cbn; ring).
    replace (det (vscale (vadd a b) i1) d (vscale (vadd b c) i3)) with (i1 * i3 * (det a d c - det d b c - det a b d)) by (unfold det, vdot, vcross, vadd, vscale; cbn; ring).
    replace (det (vscale (vadd a b) i1) b d) with (i1 * det a b d) by (unfold det, vdot, vcross, vadd, vscale; cbn; ring).
    rewrite !scaled_le, !scaled_lt by assumption. tauto.
  - replace (det d c (vscale (vadd a c) i2)) with (i2 * det a d c) by (unfold det, vdot, vcross, vadd, vscale; cbn; ring).
    replace (det (vscale (vadd b c) i3) d (vscale (vadd a c) i2)) with (i2 * i3 * (det a b d - det d b c - det a d c)) by (unfold det, vdot, vcross, vadd, vscale; cbn; ring).
    replace (det (vscale (vadd b c) i3) c d) with (i3 * det d b c) by (unfold det, vdot, vcross, vadd, vscale; cbn; ring).
    rewrite !scaled_le, !scaled_lt by assumption. tauto.
  - replace (det d (vscale (vadd b c) i3) (vscale (vadd a c) i2)) with (i2 * i3 * (det d b c + det a d c - det a b d)) by (unfold det, vdot, vcross, vadd, vscale; cbn; ring).
    replace (det (vscale (vadd a b) i1) d (vscale (vadd a c) i2)) with (i1 * i2 * (det a d c + det a b d - det d b c)) by (unfold det, vdot, vcross, vadd, vscale; cbn; ring).
    replace (det (vscale (vadd a b) i1) (vscale (vadd b c) i3) d) with (i1 * i3 * (det d b c + det a b d - det a d c)) by (unfold det, vdot, vcross, vadd, vscale; cbn; ring).
    rewrite !scaled_le, !scaled_lt by assumption. tauto.
Qed.
Lemma children_cover m t d : 0 <= m -> fine m t -> in_cone t d -> exists t', In t' (children t) /\ in_cone t' d.
Proof.
  intros M F. destruct t as ((a & b) & c). intros Cn. pose proof F as (_ & _ & _ & _ & _ & _ & D). apply cone_det in Cn; [|exact D]. destruct Cn as (X & Y & Z).
  pose proof (fun n t N => child_sides m a b c d n t M F N) as S. cbn [children usplit fst snd] in S |- *.
  set (x := det d b c) in *. set (y := det a d c) in *. set (z := det a b d) in *.
  destruct (Rle_lt_dec (y + z) x); [|destruct (Rle_lt_dec (x + z) y); [|destruct (Rle_lt_dec (x + y) z)]].
  - eexists; split; [left; reflexivity|]. apply (S 0%nat _ eq_refl). lra.
  - eexists; split; [right; left; reflexivity|]. apply (S 1%nat _ eq_refl). lra.
  - eexists; split; [right; right; left; reflexivity|]. apply (S 2%nat _ eq_refl). lra.
  - eexists; split; [right; right; right; left; reflexivity|]. apply (S 3%nat _ eq_refl). lra.
Qed.
Lemma child_inside m t d t' : 0 <= m -> fine m t -> In t' (children t) -> (in_cone t' d -> in_cone t d) /\ (in_open t' d -> in_open t d).
Proof.
  intros M F I. destruct t as ((a & b) & c). apply In_nth_error in I as (n & N). pose proof (child_sides m a b c d n t' M F N) as S.
  pose proof F as (_ & _ & _ & _ & _ & _ & D). rewrite cone_det, open_det by exact D.
  destruct n as [|[|[|n]]]; cbn [where_child] in S; destruct S as (-> & ->); split; lra.
Qed.
(** Two triangles share no inner direction *)
Definition apart (t t' : corners) : Prop := forall d, ~ (in_open t d /\ in_cone t' d) /\ ~ (in_open t' d /\ in_cone t d).
Lemma apart_sym t t' : apart t t' -> apart t' t. Proof. intros H d. destruct (H d). split; assumption. Qed.
Fixpoint pairwise {A} (P : A -> A -> Prop) (l : list A) : Prop := match l with [] => True | x :: l => Forall (P x) l /\ pairwise P l end.
Lemma pairwise_app {A} (P : A -> A -> Prop) l l' : pairwise P (l ++ l') <-> pairwise P l /\ pairwise P l' /\ Forall (fun x => Forall (P x) l') l.
Proof.
  induction l as [|x l IH]; cbn [app pairwise]; [split; [intros H; repeat split; [exact H|constructor]|tauto]|].
  rewrite Forall_app, IH, Forall_cons_iff. tauto.
Qed.
Lemma pairwise_perm {A} (P : A -> A -> Prop) l l' : (forall x y, P x y -> P y x) -> Permutation l l' -> pairwise P l -> pairwise P l'.
Proof.
  intros Sy Pm. induction Pm; cbn [pairwise].
  - tauto.
  - intros (H1 & H2). split; [|apply IHPm; exact H2]. eapply Permutation_Forall; [exact Pm|exact H1].
  - intros (H1 & H2 & H3). inversion H1; subst. repeat split; [constructor; [apply Sy; assumption|assumption]|assumption|assumption].
  - auto.
Qed.
Lemma pairwise_nth {A} (P : A -> A -> Prop) l : (forall x y, P x y -> P y x) -> pairwise P l ->
  forall i j x y, nth_error l i = Some x -> nth_error l j = Some y -> i <> j -> P x y.
Proof.
  intros Sy. induction l as [|a l IH]; intros H i j x y I J Ne; [destruct i; discriminate|]. destruct H as (H1 & H2).
  rewrite Forall_forall in H1. destruct i as [|i], j as [|j]; cbn [nth_error] in I, J.
  - congruence.
  - injection I as <-. apply H1. eapply nth_error_In; exact J.
  - injection J as <-. apply Sy, H1. eapply nth_error_In; exact I.
  - apply (IH H2 i j x y I J). congruence.
Qed.
Lemma refine_perm l : Permutation (urefine l) (flat_map children l).
Proof.
  unfold urefine, children. rewrite map_map.
  transitivity (flat_map (fun t => [fst (usplit t)]) l ++ flat_map (fun t => snd (usplit t)) l).
  - apply Permutation_app.
    + rewrite flat_map_concat_map. rewrite <- (map_map (fun t => fst (usplit t)) (fun t => [t])). induction (map (fun t => fst (usplit t)) l); [reflexivity|cbn; apply perm_skip; assumption].
    + rewrite (flat_map_concat_map (fun t => snd (usplit t))), flat_map_concat_map, map_map. reflexivity.
  - apply (flat_map_app2 (fun t => [fst (usplit t)]) (fun t => snd (usplit t))).
Qed.
Lemma children_apart m t : 0 <= m -> fine m t -> pairwise apart (children t).
Proof.
  intros M F. destruct t as ((a & b) & c).
  pose proof (fun d n t N => child_sides m a b c d n t M F N) as S. unfold children in S |- *; cbn [usplit fst snd] in S |- *.
  pose proof (fun d => S d 0%nat _ eq_refl) as S0. pose proof (fun d => S d 1%nat _ eq_refl) as S1. pose proof (fun d => S d 2%nat _ eq_refl) as S2.
  pose proof (fun d => S d 3%nat _ eq_refl) as S3. cbn [where_child] in S0, S1, S2, S3. clear S.
  cbn [pairwise fst snd]. cbn [fst] in S0. repeat match goal with |- _ /\ _ => split | |- Forall _ _ => constructor | |- True => exact I end; intros d;
    destruct (S0 d) as (C0 & O0); destruct (S1 d) as (C1 & O1); destruct (S2 d) as (C2 & O2); destruct (S3 d) as (C3 & O3); rewrite ?C0, ?C1, ?C2, ?C3, ?O0, ?O1, ?O2, ?O3; lra.
Qed.
Lemma apart_refine m l : 0 <= m -> Forall (fine m) l -> pairwise apart l -> pairwise apart (urefine l).
Proof.
  intros M F H. apply (pairwise_perm apart (flat_map children l)); [exact apart_sym|symmetry; apply refine_perm|].
  induction l as [|t l IH]; [exact I|]. inversion F as [|? ? H3 H4]; subst. destruct H as (H1 & H2). cbn [flat_map]. apply pairwise_app. split; [apply (children_apart m); assumption|].
  split; [apply IH; assumption|]. apply Forall_forall. intros x Ix. apply Forall_forall. intros y Iy. apply in_flat_map in Iy as (t' & It' & Iy).
  rewrite Forall_forall in H1. pose proof (H1 t' It') as Ap. assert (Ft' : fine m t') by (rewrite Forall_forall in H4; apply H4; exact It').
  intros d. destruct (Ap d) as (A1 & A2). destruct (child_inside m t d x M H3 Ix). destruct (child_inside m t' d y M Ft' Iy). tauto.
Qed.
Definition covers (l : list corners) : Prop := forall d, exists t, In t l /\ in_cone t d.
Lemma covers_refine m l : 0 <= m -> Forall (fine m) l -> covers l -> covers (urefine l).
Proof.
  intros M F H d. destruct (H d) as (t & It & Ct). rewrite Forall_forall in F. destruct (children_cover m t d M (F t It) Ct) as (t' & It' & Ct').
  exists t'. split; [|exact Ct']. apply (Permutation_in _ (Permutation_sym (refine_perm l))). apply in_flat_map. exists t. split; assumption.
Qed.
Lemma once_refinements n : forall m l, 0 <= m <= 1 -> Forall (fine m) l -> covers l -> pairwise apart l ->
  covers (urefinements n l) /\ pairwise apart (urefinements n l).
Proof.
  induction n as [|n IH]; intros m l M F C P; [split; assumption|]. cbn [urefinements]. pose proof (finer_range m M).
  apply (IH (finer m)); [lra|apply fine_refine; [lra|exact F]|apply (covers_refine m); (lra || assumption)|apply (apart_refine m); (lra || assumption)].
Qed.

(** No two triangles have the same edge in the same direction *)
Lemma edge_apart m t t' e : fine m t -> fine m t' -> apart t t' -> In e (edges_of t) -> In e (edges_of t') -> False.
Proof.
  assert (K : forall p q s s', 0 < det p q s -> 0 < det p q s' -> exists x y z, 0 < x /\ 0 < y /\ 0 < z /\
     exists x' y' z', 0 < x' /\ 0 < y' /\ 0 < z' /\ vadd (vscale p x) (vadd (vscale q y) (vscale s z)) = vadd (vscale p x') (vadd (vscale q y') (vscale s' z'))).
  { intros p q s s' D D'. pose proof (cramer p q s s') as C. set (k := det p q s) in *. set (x := det s' q s) in *. set (y := det p s' s) in *. set (z := det p q s') in *.
    set (n := 1 + Rabs x + Rabs y). pose proof (Rabs_pos x). pose proof (Rabs_pos y). pose proof (Rle_abs (- x)). pose proof (Rle_abs (- y)). rewrite Rabs_Ropp in *.
    exists (n + x), (n + y), z. split; [unfold n; lra|]. split; [unfold n; lra|]. split; [exact D'|]. exists n, n, k. split; [unfold n; lra|]. split; [unfold n; lra|]. split; [exact D|].
    rewrite C. v3; ring. }
  intros F F' Ap I I'. destruct t as ((a & b) & c), t' as ((a' & b') & c'). destruct F as (_ & _ & _ & _ & _ & _ & D). destruct F' as (_ & _ & _ & _ & _ & _ & D').
  assert (Rot : forall u v w, det v w u = det u v w) by (intros; unfold det, vdot, vcross; cbn; ring).
  assert (Cyc : forall u v w d, in_open (v, w, u) d -> in_open (u, v, w) d).
  { intros u v w d (x & y & z & X & Y & Z & ->). exists z, x, y. repeat split; try assumption. v3; ring. }
  assert (Cyc' : forall u v w d, in_cone (v, w, u) d -> in_cone (u, v, w) d).
  { intros u v w d (x & y & z & X & Y & Z & ->). exists z, x, y. repeat split; try assumption. v3; ring. }
  assert (L : forall u v w d, in_open (u, v, w) d -> in_cone (u, v, w) d).
  { intros u v w d (x & y & z & X & Y & Z & E). exists x, y, z. repeat split; (lra || assumption). }
  assert (H : exists p q s s', 0 < det p q s /\ 0 < det p q s' /\ (forall d, in_open (p, q, s) d -> in_open (a, b, c) d) /\ (forall d, in_open (p, q, s') d -> in_cone (a', b', c') d)).
  { cbn [edges_of In] in I, I'.
    destruct I as [I|[I|[I|[]]]]; destruct I' as [I'|[I'|[I'|[]]]]; rewrite <- I in I'; injection I' as -> ->;
    [exists a, b, c, c'|exists a, b, c, a'|exists a, b, c, b'|exists b, c, a, c'|exists b, c, a, a'|exists b, c, a, b'|exists c, a, b, c'|exists c, a, b, a'|exists c, a, b, b'];
    (split; [first [assumption|rewrite Rot; assumption|rewrite <- Rot; assumption]|]); (split; [first [assumption|rewrite Rot; assumption|rewrite <- Rot; assumption]|]); (split; intros d Hd; [|apply L]; auto). }
  destruct H as (p & q & s & s' & D1 & D2 & O & C). destruct (K p q s s' D1 D2) as (x & y & z & X & Y & Z & x' & y' & z' & X' & Y' & Z' & E).
  set (d := vadd (vscale p x) (vadd (vscale q y) (vscale s z))) in *. destruct (Ap d) as (A1 & _). apply A1. split.
  - apply O. exists x, y, z. repeat split; (assumption || reflexivity).
  - apply C. exists x', y', z'. repeat split; assumption.
Qed.
Lemma edges_nodup m l : Forall (fine m) l -> pairwise apart l -> NoDup (flat_map edges_of l).
Proof.
  intros F P. induction l as [|t l IH]; [constructor|]. inversion F as [|? ? Ft Fl]; subst. destruct P as (P1 & P2). cbn [flat_map].
  assert (Nt : NoDup (edges_of t)).
  { destruct t as ((a & b) & c). destruct Ft as (A & B & C & _ & _ & _ & D). cbn [edges_of].
    assert (a <> b) by (intros ->; revert D; unfold det, vdot, vcross; cbn; nra).
    assert (b <> c) by (intros ->; revert D; unfold det, vdot, vcross; cbn; nra).
    assert (c <> a) by (intros ->; revert D; unfold det, vdot, vcross; cbn; nra).
    repeat constructor; cbn [In]; intuition congruence. }
  assert (App : forall (l1 l2 : list (pt * pt)), NoDup l1 -> NoDup l2 -> (forall e, In e l1 -> In e l2 -> False) -> NoDup (l1 ++ l2)).
  { intros l1 l2 N1 N2. induction N1 as [|e l1 Ne _ IH1]; intros H; [exact N2|]. cbn [app]. constructor.
    - intros I. apply in_app_or in I as [I|I]; [contradiction|]. apply (H e); [left; reflexivity|exact I].
    - apply IH1. intros e' I1 I2. apply (H e'); [right; exact I1|exact I2]. }
  apply App; [exact Nt|apply IH; assumption|]. intros e I1 I2. apply in_flat_map in I2 as (t' & It' & I2). rewrite Forall_forall in P1, Fl.
  exact (edge_apart m t t' e Ft (Fl t' It') (P1 t' It') I1 I2).
Qed.

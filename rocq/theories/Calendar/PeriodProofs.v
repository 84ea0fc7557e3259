From Coq Require Import ZArith QArith Qround Lia Lqa List Bool.
From Verif.Calendar Require Import DateModel DateSpec DateProofs.
Import ListNotations.
Local Open Scope Z_scope.

Definition step_days (dt : Q) : Q := (dt / 86400)%Q.

Ltac dlra := unfold Qdiv in *; change (/ 24)%Q with (1 # 24)%Q in *;
  change (/ 3600)%Q with (1 # 3600)%Q in *; change (/ 86400)%Q with (1 # 86400)%Q in *; lra.

Lemma add_seconds_ok d dt : valid_date d -> (0 < dt)%Q -> (dt < 86400 * 224)%Q ->
  exists d', add_seconds d dt = Some d' /\ valid_date d' /\
   ((position d + step_days dt < 365 /\ position d' == position d + step_days dt) \/
    (365 <= position d + step_days dt /\ position d' == position d + step_days dt - 365))%Q.
Proof.
  intros V H0 H1. unfold add_seconds.
  destruct (add_hours_ok d (dt / 3600) V) as (d' & E & V' & k & S); [dlra|dlra|].
  exists d'. split; [exact E|]. split; [exact V'|].
  pose proof (valid_position _ V) as P. pose proof (valid_position _ V') as P'.
  assert (S' : (position d' == position d + step_days dt + 365 * inject_Z k)%Q).
  { rewrite S. unfold step_days. dlra. }
  assert (T : (0 < step_days dt < 224)%Q) by (unfold step_days; split; dlra).
  destruct (Qlt_le_dec (position d + step_days dt) 365) as [L|G].
  - left. split; [exact L|]. apply same_instant_eq; [exact P'|split; lra|]. exists k; exact S'.
  - right. split; [exact G|]. apply same_instant_eq; [exact P'|split; lra|].
    exists (k + 1). rewrite inject_Z_plus. change (inject_Z 1) with 1%Q. lra.
Qed.

Lemma date_le_false a b : valid_date a -> valid_date b -> (position b < position a)%Q -> date_le a b = false.
Proof.
  intros. destruct (date_le a b) eqn:E; auto. apply date_le_position in E; auto. lra.
Qed.
Lemma date_lt_false a b : valid_date a -> valid_date b -> (position b <= position a)%Q -> date_lt a b = false.
Proof.
  intros. destruct (date_lt a b) eqn:E; auto. apply date_lt_position in E; auto. lra.
Qed.
Lemma date_le_true a b : valid_date a -> valid_date b -> (position a <= position b)%Q -> date_le a b = true.
Proof. intros. apply date_le_position; auto. Qed.
Lemma date_lt_true a b : valid_date a -> valid_date b -> (position a < position b)%Q -> date_lt a b = true.
Proof. intros. apply date_lt_position; auto. Qed.

(** [i]-th produced date is [i+1] steps after the current one *)
Definition steps_from (x : Q) (s : Q) (ds : list Date) : Prop :=
  forall i d, nth_error ds i = Some d ->
    valid_date d /\ same_instant (position d) (x + inject_Z (Z.of_nat i + 1) * s).

Lemma steps_from_cons x s d ds : valid_date d -> same_instant (position d) (x + s) ->
  steps_from (position d) s ds -> steps_from x s (d :: ds).
Proof.
  intros V S H [|i] e E; cbn in E.
  - injection E as <-. split; auto. change (inject_Z (Z.of_nat 0 + 1)) with 1%Q.
    destruct S as [k S]. exists k. lra.
  - destruct (H i e E) as [Ve [k Sk]]. split; auto. destruct S as [l S]. exists (k + l).
    rewrite Nat2Z.inj_succ. unfold Z.succ. rewrite !inject_Z_plus in *. change (inject_Z 1) with 1%Q in *.
    rewrite Sk, S. lra.
Qed.

(** the part of a period that does not wrap, or that has already wrapped *)
Lemma collect_after : forall k fuel p, (k < fuel)%nat ->
  valid_date (p_current p) -> valid_date (p_end p) ->
  (0 < p_dt p)%Q -> (p_dt p < 86400 * 224)%Q ->
  (goes_through_new_year p = true -> position (p_end p) + step_days (p_dt p) < 365)%Q ->
  let r := (position (p_end p) - position (p_current p))%Q in
  (inject_Z (Z.of_nat k) * step_days (p_dt p) <= r)%Q ->
  (r < (inject_Z (Z.of_nat k) + 1) * step_days (p_dt p))%Q ->
  exists ds, period_collect fuel p = Some ds /\ length ds = k /\
    steps_from (position (p_current p)) (step_days (p_dt p)) ds.
Proof.
  induction k as [|k IH]; intros fuel p Hf Vc Ve H0 H1 Hg r L U;
  (destruct fuel as [|fuel]; [lia|]); cbn [period_collect]; unfold period_next.
  - destruct (add_seconds_ok (p_current p) (p_dt p) Vc H0 H1) as (n & E & Vn & C).
    rewrite E. cbn [Z.of_nat] in L, U. change (inject_Z 0) with 0%Q in *. unfold r in *.
    assert (T : (0 < step_days (p_dt p) < 224)%Q) by (unfold step_days; split; dlra).
    pose proof (valid_position _ Ve) as Pe.
    rewrite (date_le_true (p_current p) (p_end p)) by (auto; lra).
    destruct C as [[C1 C2]|[C1 C2]].
    + rewrite (date_le_false n (p_end p)) by (auto; lra).
      rewrite (date_lt_false n (p_current p)) by (auto; lra). cbn.
      exists []. repeat split; auto; destruct i; discriminate.
    + rewrite (date_lt_true n (p_current p)) by (auto; lra).
      destruct (goes_through_new_year p).
      { specialize (Hg eq_refl). exfalso; lra. }
      cbn. exists []. repeat split; auto; destruct i; discriminate.
  - destruct (add_seconds_ok (p_current p) (p_dt p) Vc H0 H1) as (n & E & Vn & C).
    rewrite E. rewrite Nat2Z.inj_succ in L, U. unfold Z.succ in L, U. rewrite inject_Z_plus in L, U.
    change (inject_Z 1) with 1%Q in *. unfold r in *.
    assert (T : (0 < step_days (p_dt p) < 224)%Q) by (unfold step_days; split; dlra).
    assert (K : (0 <= inject_Z (Z.of_nat k))%Q) by (rewrite <- (Zle_Qle 0); lia).
    set (s := step_days (p_dt p)) in *. set (q := inject_Z (Z.of_nat k)) in *.
    assert (KS : (0 <= q * s)%Q) by (apply Qmult_le_0_compat; lra).
    pose proof (valid_position _ Ve) as Pe.
    destruct C as [[C1 C2]|[C1 C2]]; [|exfalso; lra].
    rewrite (date_le_true (p_current p) (p_end p)) by (auto; lra).
    rewrite (date_le_true n (p_end p)) by (auto; lra).
    rewrite (date_lt_false n (p_current p)) by (auto; lra). cbn [negb Bool.eqb orb andb].
    edestruct (IH fuel (mkPeriod (p_end p) (p_start p) n (p_dt p) (goes_through_new_year p)))
      as (ds & E2 & L2 & S2); cbn [p_current p_end p_dt goes_through_new_year] in *; auto; fold s; fold q; try lia; try lra.
    exists (n :: ds). rewrite E2. split; [reflexivity|]. split; [cbn; lia|].
    apply steps_from_cons; auto. exists 0. change (inject_Z 0) with 0%Q. lra.
Qed.

(** a period that still has to cross the new year *)
Lemma collect_before : forall k fuel p, (k < fuel)%nat ->
  valid_date (p_current p) -> valid_date (p_end p) ->
  (0 < p_dt p)%Q -> (p_dt p < 86400 * 224)%Q ->
  goes_through_new_year p = true ->
  (position (p_end p) + step_days (p_dt p) < 365)%Q -> (step_days (p_dt p) <= position (p_end p))%Q ->
  (position (p_end p) < position (p_current p))%Q ->
  let r := (position (p_end p) + 365 - position (p_current p))%Q in
  (inject_Z (Z.of_nat k) * step_days (p_dt p) <= r)%Q ->
  (r < (inject_Z (Z.of_nat k) + 1) * step_days (p_dt p))%Q ->
  exists ds, period_collect fuel p = Some ds /\ length ds = k /\
    steps_from (position (p_current p)) (step_days (p_dt p)) ds.
Proof.
  induction k as [|k IH]; intros fuel p Hf Vc Ve H0 H1 Hg E1 E2 HC r L U;
  (destruct fuel as [|fuel]; [lia|]); cbn [period_collect]; unfold period_next;
  pose proof (valid_position _ Ve) as Pe; pose proof (valid_position _ Vc) as Pc.
  - cbn [Z.of_nat] in L, U. change (inject_Z 0) with 0%Q in *. unfold r in *. exfalso. lra.
  - destruct (add_seconds_ok (p_current p) (p_dt p) Vc H0 H1) as (n & E & Vn & C).
    rewrite E. rewrite Nat2Z.inj_succ in L, U. unfold Z.succ in L, U. rewrite inject_Z_plus in L, U.
    change (inject_Z 1) with 1%Q in *. unfold r in *.
    assert (T : (0 < step_days (p_dt p) < 224)%Q) by (unfold step_days; split; dlra).
    rewrite (date_le_false (p_current p) (p_end p)) by (auto; lra).
    set (p' := mkPeriod (p_end p) (p_start p) n (p_dt p) (goes_through_new_year p)).
    assert (Fin : forall ds, same_instant (position n) (position (p_current p) + step_days (p_dt p)) ->
      period_collect fuel p' = Some ds -> length ds = k ->
      steps_from (position n) (step_days (p_dt p)) ds ->
      exists ds0, option_map (cons n) (period_collect fuel p') = Some ds0 /\ length ds0 = S k /\
        steps_from (position (p_current p)) (step_days (p_dt p)) ds0).
    { intros ds SI C1 C2 C3. rewrite C1. exists (n :: ds). split; [reflexivity|]. split; [cbn; lia|].
      apply steps_from_cons; auto. }
    destruct C as [[C1 C2]|[C1 C2]].
    + rewrite (date_le_false n (p_end p)) by (auto; lra).
      rewrite (date_lt_false n (p_current p)) by (auto; lra). cbn [negb Bool.eqb orb andb].
      destruct (IH fuel p') as (ds & D1 & D2 & D3); unfold p'; cbn [p_current p_end p_dt goes_through_new_year]; auto; try lia; try lra.
      apply (Fin ds); auto. exists 0. change (inject_Z 0) with 0%Q. lra.
    + rewrite (date_lt_true n (p_current p)) by (auto; lra).
      rewrite Hg. cbn [negb orb andb].
      destruct (collect_after k fuel p') as (ds & D1 & D2 & D3); unfold p'; cbn [p_current p_end p_dt goes_through_new_year]; auto; try lia; try lra.
      apply (Fin ds); auto. exists (-1). change (inject_Z (-1)) with (-(1))%Q. lra.
Qed.

Lemma period_collect_S f p : period_collect (S f) p =
  match period_next p with
  | Panic => None
  | Done => Some []
  | Yield p' d => option_map (cons d) (period_collect f p')
  end.
Proof. reflexivity. Qed.

Lemma collect_unique : forall f1 f2 q a b,
  period_collect f1 q = Some a -> period_collect f2 q = Some b -> a = b.
Proof.
  induction f1 as [|f1 IH]; intros f2 q a b A B; [discriminate|]. destruct f2 as [|f2]; [discriminate|].
  rewrite period_collect_S in A, B. generalize dependent (period_next q). intros st A B.
  destruct st as [| |p d]; try discriminate.
  - congruence.
  - destruct (period_collect f1 p) as [x|] eqn:Ea; [|discriminate].
    destruct (period_collect f2 p) as [y|] eqn:Eb; [|discriminate].
    cbn [option_map] in A, B. rewrite (IH _ _ _ _ Ea Eb) in A. congruence.
Qed.

Lemma floor_bounds q s : (0 <= q)%Q -> (0 < s)%Q ->
  exists k : nat, Z.of_nat k = Qfloor (q / s) /\
   (inject_Z (Z.of_nat k) * s <= q)%Q /\ (q < (inject_Z (Z.of_nat k) + 1) * s)%Q.
Proof.
  intros Hq Hs. pose proof (Qfloor_le (q / s)) as F1. pose proof (Qlt_floor (q / s)) as F2.
  rewrite inject_Z_plus in F2; change (inject_Z 1) with 1%Q in F2.
  assert (D : (q == (q / s) * s)%Q) by (field; lra).
  assert (Hd : (0 <= q / s)%Q) by (apply Qle_shift_div_l; lra).
  assert (F0 : 0 <= Qfloor (q / s)).
  { assert (inject_Z 0 < inject_Z (Qfloor (q / s)) + inject_Z 1)%Q as E1.
    { change (inject_Z 0) with 0%Q; change (inject_Z 1) with 1%Q. lra. }
    rewrite <- inject_Z_plus, <- Zlt_Qlt in E1. lia. }
  exists (Z.to_nat (Qfloor (q / s))). rewrite Z2Nat.id by exact F0. split; [reflexivity|].
  split.
  - rewrite D at 2. apply Qmult_le_compat_r; lra.
  - rewrite D at 1. apply Qmult_lt_compat_r; lra.
Qed.

(** * Endless iteration *)
Lemma endless : forall fuel p, valid_date (p_current p) -> valid_date (p_end p) ->
  goes_through_new_year p = true -> (p_dt p == 86400)%Q -> (position (p_end p) < 1 # 2)%Q ->
  (exists z, position (p_current p) == inject_Z z + (1 # 2))%Q -> period_collect fuel p = None.
Proof.
  induction fuel as [|fuel IH]; intros p Vc Ve Hg Hdt He (z & Hz); [reflexivity|].
  cbn [period_collect]. unfold period_next.
  destruct (add_seconds_ok (p_current p) (p_dt p) Vc) as (n & E & Vn & C); [lra|lra|].
  rewrite E.
  assert (S : (step_days (p_dt p) == 1)%Q) by (unfold step_days; rewrite Hdt; reflexivity).
  pose proof (valid_position _ Vc) as Pc. pose proof (valid_position _ Vn) as Pn.
  assert (Half : forall w, (0 <= inject_Z w + (1 # 2))%Q -> (1 # 2 <= inject_Z w + (1 # 2))%Q).
  { intros w Hw. assert (inject_Z (-1) < inject_Z w)%Q as W by (change (inject_Z (-1)) with (-(1))%Q; lra).
    rewrite <- Zlt_Qlt in W. assert (0 <= w) as W' by lia. rewrite Zle_Qle in W'.
    change (inject_Z 0) with 0%Q in W'. lra. }
  assert (Zn : exists w, (position n == inject_Z w + (1 # 2))%Q).
  { destruct C as [[C1 C2]|[C1 C2]].
    - exists (z + 1). rewrite inject_Z_plus. change (inject_Z 1) with 1%Q. lra.
    - exists (z - 364). rewrite inject_Z_minus. change (inject_Z 364) with 364%Q. lra. }
  destruct Zn as [w Hw].
  pose proof (Half z ltac:(lra)). pose proof (Half w ltac:(lra)).
  rewrite (date_le_false (p_current p) (p_end p)) by (auto; lra).
  rewrite (date_le_false n (p_end p)) by (auto; lra).
  cbn [Bool.eqb negb]. rewrite orb_false_r, Hg. cbn [negb]. rewrite orb_false_r, andb_negb_r.
  rewrite IH; auto. cbn. eauto.
Qed.

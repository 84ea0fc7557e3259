(** Deciding comparisons of closed real expressions by computation on rational intervals. Used only in the proofs of the
    concrete examples and witnesses. *)
From Coq Require Import Reals QArith Qreals Qminmax Qabs Bool Lra Lia Psatz ZArith.
From Verif.Common Require Import Base Flt.
Open Scope R_scope.

Inductive ex := EC (z : Z) | EAdd (a b : ex) | ESub (a b : ex) | EMul (a b : ex) | EDiv (a b : ex) | EOpp (a : ex) | EInv (a : ex)
  | EAbs (a : ex) | ESqrt (a : ex) | EPow (a : ex) (n : nat).
Fixpoint den (e : ex) : R :=
  match e with
  | EC z => IZR z | EAdd a b => den a + den b | ESub a b => den a - den b | EMul a b => den a * den b | EDiv a b => den a / den b
  | EOpp a => - den a | EInv a => / den a | EAbs a => Rabs (den a) | ESqrt a => sqrt (den a) | EPow a n => den a ^ n
  end.

Definition itv := option (Q * Q).
Definition inside (x : R) (i : itv) : Prop := match i with Some (l, h) => Q2R l <= x <= Q2R h | None => True end.
Definition imul (a b : itv) : itv :=
  match a, b with
  | Some (l, h), Some (l', h') =>
      if Qeq_bool l h && Qeq_bool l' h' then let r := Qred (l * l') in Some (r, r) else
      let p1 := Qred (l * l') in let p2 := Qred (l * h') in let p3 := Qred (h * l') in let p4 := Qred (h * h') in
      Some (Qmin (Qmin p1 p2) (Qmin p3 p4), Qmax (Qmax p1 p2) (Qmax p3 p4))
  | _, _ => None
  end.
Definition iadd (a b : itv) : itv :=
  match a, b with Some (l, h), Some (l', h') => Some (Qred (l + l'), Qred (h + h')) | _, _ => None end.
Definition iopp (a : itv) : itv := match a with Some (l, h) => Some ((- h)%Q, (- l)%Q) | None => None end.
Definition Qltb (a b : Q) : bool := negb (Qle_bool b a).
Definition iinv (a : itv) : itv :=
  match a with
  | Some (l, h) => if Qltb 0 l || Qltb h 0 then Some (Qred (/ h), Qred (/ l)) else None
  | None => None
  end.
Definition iabs (a : itv) : itv :=
  match a with
  | Some (l, h) => if Qle_bool 0 l then Some (l, h) else if Qle_bool h 0 then Some ((- h)%Q, (- l)%Q) else Some (0%Q, Qmax (- l) h)
  | None => None
  end.
(** a lower and an upper bound of the square root *)
Definition scale : Z := (2 ^ 60)%Z.
Definition qsqrt_lo (q : Q) : Q := Qred (Z.sqrt (Qnum q * Zpos (Qden q) * (scale * scale)) # (Qden q * Z.to_pos scale)).
Definition qsqrt_hi (q : Q) : Q :=
  let n := (Qnum q * Zpos (Qden q) * (scale * scale))%Z in
  let s := Z.sqrt n in
  Qred ((if (s * s =? n)%Z then s else s + 1)%Z # (Qden q * Z.to_pos scale)).
Definition isqrt (a : itv) : itv :=
  match a with Some (l, h) => if Qle_bool 0 l then Some (qsqrt_lo l, qsqrt_hi h) else None | None => None end.
Fixpoint ipow (a : itv) (n : nat) : itv := match n with O => Some (1%Q, 1%Q) | S n' => imul a (ipow a n') end.
Fixpoint ival (e : ex) : itv :=
  match e with
  | EC z => Some (inject_Z z, inject_Z z)
  | EAdd a b => iadd (ival a) (ival b)
  | ESub a b => iadd (ival a) (iopp (ival b))
  | EMul a b => imul (ival a) (ival b)
  | EDiv a b => imul (ival a) (iinv (ival b))
  | EOpp a => iopp (ival a)
  | EInv a => iinv (ival a)
  | EAbs a => iabs (ival a)
  | ESqrt a => isqrt (ival a)
  | EPow a n => ipow (ival a) n
  end.

Lemma Q2R_red q : Q2R (Qred q) = Q2R q.
Proof. apply Qeq_eqR, Qred_correct. Qed.
Lemma iadd_ok x y a b : inside x a -> inside y b -> inside (x + y) (iadd a b).
Proof.
  destruct a as [[l h]|], b as [[l' h']|]; cbn [inside iadd imul iopp iinv iabs isqrt]; auto. intros H K. rewrite !Q2R_red, !Q2R_plus. lra.
Qed.
Lemma iopp_ok x a : inside x a -> inside (- x) (iopp a).
Proof. destruct a as [[l h]|]; cbn [inside iadd imul iopp iinv iabs isqrt]; auto. rewrite !Q2R_opp. lra. Qed.
Lemma Qmin_R a b : Q2R (Qmin a b) <= Q2R a /\ Q2R (Qmin a b) <= Q2R b.
Proof. split; apply Qle_Rle; [apply Q.le_min_l|apply Q.le_min_r]. Qed.
Lemma Qmax_R a b : Q2R a <= Q2R (Qmax a b) /\ Q2R b <= Q2R (Qmax a b).
Proof. split; apply Qle_Rle; [apply Q.le_max_l|apply Q.le_max_r]. Qed.
Lemma imul_ok x y a b : inside x a -> inside y b -> inside (x * y) (imul a b).
Proof.
  destruct a as [[l h]|], b as [[l' h']|]; cbn [inside iadd imul iopp iinv iabs isqrt]; auto. intros H K.
  destruct (Qeq_bool l h && Qeq_bool l' h') eqn:E.
  - apply andb_true_iff in E as (E1 & E2). apply Qeq_bool_eq, Qeq_eqR in E1, E2. cbn [inside]. rewrite Q2R_red, Q2R_mult.
    replace x with (Q2R l) by lra. replace y with (Q2R l') by lra. lra.
  - cbv zeta. cbn [inside]. set (p1 := Qred (l * l')). set (p2 := Qred (l * h')). set (p3 := Qred (h * l')). set (p4 := Qred (h * h')).
    assert (E1 : Q2R p1 = Q2R l * Q2R l') by (unfold p1; rewrite Q2R_red; apply Q2R_mult).
    assert (E2 : Q2R p2 = Q2R l * Q2R h') by (unfold p2; rewrite Q2R_red; apply Q2R_mult).
    assert (E3 : Q2R p3 = Q2R h * Q2R l') by (unfold p3; rewrite Q2R_red; apply Q2R_mult).
    assert (E4 : Q2R p4 = Q2R h * Q2R h') by (unfold p4; rewrite Q2R_red; apply Q2R_mult).
    pose proof (Qmin_R p1 p2). pose proof (Qmin_R p3 p4). pose proof (Qmin_R (Qmin p1 p2) (Qmin p3 p4)).
    pose proof (Qmax_R p1 p2). pose proof (Qmax_R p3 p4). pose proof (Qmax_R (Qmax p1 p2) (Qmax p3 p4)).
    set (mn := Q2R (Qmin (Qmin p1 p2) (Qmin p3 p4))) in *. set (mx := Q2R (Qmax (Qmax p1 p2) (Qmax p3 p4))) in *.
    assert (B1 : mn <= Q2R l * Q2R l' <= mx) by lra. assert (B2 : mn <= Q2R l * Q2R h' <= mx) by lra.
    assert (B3 : mn <= Q2R h * Q2R l' <= mx) by lra. assert (B4 : mn <= Q2R h * Q2R h' <= mx) by lra.
    clear - H K B1 B2 B3 B4. revert H K B1 B2 B3 B4. generalize (Q2R l), (Q2R h), (Q2R l'), (Q2R h'). clear. clearbody mn mx. intros p q r s H K B1 B2 B3 B4.
    assert (L1 : mn <= x * r <= mx). { destruct (Rle_dec 0 r); split; nra. }
    assert (L2 : mn <= x * s <= mx). { destruct (Rle_dec 0 s); split; nra. }
    destruct (Rle_dec 0 x); split; nra.
Qed.
Lemma Qltb_R a b : Qltb a b = true -> Q2R a < Q2R b.
Proof. unfold Qltb. rewrite negb_true_iff. intros H. apply Qlt_Rlt. apply Qnot_le_lt. intros C. apply Qle_bool_iff in C. congruence. Qed.
Lemma Q2R_0' : Q2R 0 = 0. Proof. unfold Q2R. cbn. lra. Qed.
Lemma iinv_ok x a : inside x a -> inside (/ x) (iinv a).
Proof.
  destruct a as [[l h]|]; cbn [inside iadd imul iopp iinv iabs isqrt]; auto. intros H. destruct (Qltb 0 l) eqn:E1; cbn [orb].
  - apply Qltb_R in E1. rewrite Q2R_0' in E1. cbn [inside iadd imul iopp iinv iabs isqrt]. rewrite !Q2R_red, !Q2R_inv.
    + split; apply Rinv_le_contravar; lra.
    + intros C. apply Qeq_eqR in C. rewrite Q2R_0' in C. lra.
    + intros C. apply Qeq_eqR in C. rewrite Q2R_0' in C. lra.
  - destruct (Qltb h 0) eqn:E2; cbn [inside iadd imul iopp iinv iabs isqrt]; auto. apply Qltb_R in E2. rewrite Q2R_0' in E2. rewrite !Q2R_red, !Q2R_inv.
    + split; apply Ropp_le_cancel; rewrite <- !Rinv_opp; apply Rinv_le_contravar; lra.
    + intros C. apply Qeq_eqR in C. rewrite Q2R_0' in C. lra.
    + intros C. apply Qeq_eqR in C. rewrite Q2R_0' in C. lra.
Qed.
Lemma iabs_ok x a : inside x a -> inside (Rabs x) (iabs a).
Proof.
  destruct a as [[l h]|]; cbn [inside iadd imul iopp iinv iabs isqrt]; auto. intros H. destruct (Qle_bool 0 l) eqn:E1.
  - apply Qle_bool_iff, Qle_Rle in E1. rewrite Q2R_0' in E1. cbn [inside iadd imul iopp iinv iabs isqrt]. rewrite Rabs_right by lra. exact H.
  - destruct (Qle_bool h 0) eqn:E2.
    + apply Qle_bool_iff, Qle_Rle in E2. rewrite Q2R_0' in E2. cbn [inside iadd imul iopp iinv iabs isqrt]. rewrite !Q2R_opp. rewrite Rabs_left1 by lra. lra.
    + cbn [inside iadd imul iopp iinv iabs isqrt]. rewrite Q2R_0'. pose proof (Qmax_R (- l) h) as (M1 & M2). rewrite Q2R_opp in M1. split; [apply Rabs_pos|]. apply Rabs_le. lra.
Qed.

Lemma Q2R_make n d : Q2R (n # d) = IZR n / IZR (Zpos d).
Proof. reflexivity. Qed.
Lemma sqrt_bounds q : 0 <= Q2R q -> Q2R (qsqrt_lo q) <= sqrt (Q2R q) <= Q2R (qsqrt_hi q).
Proof.
  intros P. destruct q as [n d]. unfold qsqrt_lo, qsqrt_hi. rewrite !Q2R_red. cbn [Qnum Qden].
  rewrite !Q2R_make in *. rewrite Pos2Z.inj_mul, Z2Pos.id by (unfold scale; lia).
  set (m := (n * Z.pos d * (scale * scale))%Z). set (s := Z.sqrt m).
  assert (Dp : 0 < IZR (Z.pos d)) by (apply IZR_lt; lia). assert (Sp : 0 < IZR scale) by (apply IZR_lt; unfold scale; lia).
  assert (Hn : (0 <= n)%Z).
  { apply le_IZR. apply Rmult_le_reg_r with (/ IZR (Z.pos d)); [now apply Rinv_0_lt_compat|]. unfold Rdiv in P. lra. }
  assert (Hm : (0 <= m)%Z) by (unfold m, scale; lia).
  pose proof (Z.sqrt_spec m Hm) as Sq. cbv zeta in Sq. fold s in Sq. pose proof (Z.sqrt_nonneg m) as Sn. fold s in Sn.
  rewrite mult_IZR. set (D := IZR (Z.pos d)) in *. set (K := IZR scale) in *.
  assert (Em : IZR m = IZR n * D * (K * K)) by (unfold m; rewrite !mult_IZR; reflexivity).
  assert (Hq : IZR n / D = IZR m / ((D * K) * (D * K))) by (rewrite Em; field; lra).
  assert (DK : 0 < D * K) by nra.
  split.
  - apply sqrt_le_1_alt with (x := (IZR s / (D * K)) * (IZR s / (D * K))) in P || idtac.
    rewrite <- (sqrt_square (IZR s / (D * K))).
    + apply sqrt_le_1_alt. rewrite Hq. replace (IZR s / (D * K) * (IZR s / (D * K))) with (IZR s * IZR s / ((D * K) * (D * K))) by (field; lra).
      apply Rmult_le_compat_r; [left; apply Rinv_0_lt_compat; nra|]. rewrite <- mult_IZR. apply IZR_le. lia.
    + apply Rmult_le_pos; [apply IZR_le; lia|left; now apply Rinv_0_lt_compat].
  - assert (G : forall u, (0 <= u)%Z -> (m <= u * u)%Z -> sqrt (IZR n / D) <= IZR u / (D * K)).
    { intros u U M. rewrite <- (sqrt_square (IZR u / (D * K))).
      - apply sqrt_le_1_alt. rewrite Hq. replace (IZR u / (D * K) * (IZR u / (D * K))) with (IZR u * IZR u / ((D * K) * (D * K))) by (field; lra).
        apply Rmult_le_compat_r; [left; apply Rinv_0_lt_compat; nra|]. rewrite <- mult_IZR. apply IZR_le. lia.
      - apply Rmult_le_pos; [apply IZR_le; lia|left; now apply Rinv_0_lt_compat]. }
    apply G; destruct (s * s =? m)%Z eqn:E; try lia. 
Qed.
Lemma isqrt_ok x a : inside x a -> inside (sqrt x) (isqrt a).
Proof.
  destruct a as [[l h]|]; cbn [inside iadd imul iopp iinv iabs isqrt]; auto. intros H. destruct (Qle_bool 0 l) eqn:E; cbn [inside iadd imul iopp iinv iabs isqrt]; auto. apply Qle_bool_iff, Qle_Rle in E. rewrite Q2R_0' in E.
  pose proof (sqrt_bounds l E). pose proof (sqrt_bounds h ltac:(lra)).
  pose proof (sqrt_le_1_alt (Q2R l) x ltac:(lra)). pose proof (sqrt_le_1_alt x (Q2R h) ltac:(lra)). lra.
Qed.
Lemma ipow_ok x a n : inside x a -> inside (x ^ n) (ipow a n).
Proof.
  intros H. induction n as [|n IH]; cbn [ipow pow]; [cbn; unfold Q2R; cbn; lra|]. now apply imul_ok.
Qed.
Theorem ival_ok e : inside (den e) (ival e).
Proof.
  induction e; cbn [den ival].
  - cbn. unfold Q2R. cbn. lra.
  - now apply iadd_ok.
  - apply iadd_ok; [assumption|now apply iopp_ok].
  - now apply imul_ok.
  - apply imul_ok; [assumption|now apply iinv_ok].
  - now apply iopp_ok.
  - now apply iinv_ok.
  - now apply iabs_ok.
  - now apply isqrt_ok.
  - now apply ipow_ok.
Qed.

Definition ilt (a b : ex) : bool := match ival a, ival b with Some (_, h), Some (l, _) => Qltb h l | _, _ => false end.
Definition ile (a b : ex) : bool := match ival a, ival b with Some (_, h), Some (l, _) => Qle_bool h l | _, _ => false end.
Definition ieq (a b : ex) : bool := match ival a, ival b with Some (l, h), Some (l', h') => Qeq_bool l h && Qeq_bool l' h' && Qeq_bool l l' | _, _ => false end.
Lemma ilt_ok a b : ilt a b = true -> den a < den b.
Proof.
  unfold ilt. pose proof (ival_ok a). pose proof (ival_ok b). destruct (ival a) as [[l h]|], (ival b) as [[l' h']|]; try discriminate.
  cbn in *. intros E. apply Qltb_R in E. lra.
Qed.
Lemma ile_ok a b : ile a b = true -> den a <= den b.
Proof.
  unfold ile. pose proof (ival_ok a). pose proof (ival_ok b). destruct (ival a) as [[l h]|], (ival b) as [[l' h']|]; try discriminate.
  cbn in *. intros E. apply Qle_bool_iff, Qle_Rle in E. lra.
Qed.
Lemma ieq_ok a b : ieq a b = true -> den a = den b.
Proof.
  unfold ieq. pose proof (ival_ok a). pose proof (ival_ok b). destruct (ival a) as [[l h]|], (ival b) as [[l' h']|]; try discriminate.
  cbn in *. intros E. apply andb_true_iff in E as (E & E3). apply andb_true_iff in E as (E1 & E2).
  apply Qeq_bool_eq, Qeq_eqR in E1, E2, E3. lra.
Qed.
Lemma Rltb_t a b : ilt a b = true -> Rltb (den a) (den b) = true.
Proof. intros H. apply Rltb_true. now apply ilt_ok. Qed.
Lemma Rltb_f a b : ile b a = true -> Rltb (den a) (den b) = false.
Proof. intros H. apply Rltb_false. now apply ile_ok. Qed.
Lemma Rleb_t a b : ile a b = true -> Rleb (den a) (den b) = true.
Proof. intros H. apply Rleb_true. now apply ile_ok. Qed.
Lemma Rleb_f a b : ilt b a = true -> Rleb (den a) (den b) = false.
Proof. intros H. apply Rleb_false. now apply ilt_ok. Qed.

(** Reading a closed real expression *)
Ltac reify t :=
  lazymatch t with
  | IZR ?z => constr:(EC z)
  | ?a + ?b => let x := reify a in let y := reify b in constr:(EAdd x y)
  | ?a - ?b => let x := reify a in let y := reify b in constr:(ESub x y)
  | ?a * ?b => let x := reify a in let y := reify b in constr:(EMul x y)
  | ?a / ?b => let x := reify a in let y := reify b in constr:(EDiv x y)
  | - ?a => let x := reify a in constr:(EOpp x)
  | / ?a => let x := reify a in constr:(EInv x)
  | Rabs ?a => let x := reify a in constr:(EAbs x)
  | sqrt ?a => let x := reify a in constr:(ESqrt x)
  | ?a ^ ?n => let x := reify a in constr:(EPow x n)
  | _ => let t' := eval hnf in t in lazymatch t' with t => fail "cannot read" t | _ => reify t' end
  end.
(** Closing [a < b], [a <= b] or [a = b] on closed expressions *)
Ltac rcalc :=
  lazymatch goal with
  | |- ?a < ?b => let x := reify a in let y := reify b in apply (ilt_ok x y); vm_compute; reflexivity
  | |- ?a <= ?b => let x := reify a in let y := reify b in apply (ile_ok x y); vm_compute; reflexivity
  | |- ?a = ?b => let x := reify a in let y := reify b in apply (ieq_ok x y); vm_compute; reflexivity
  end.

(** Running a model function on concrete real arguments: [reval] reduces the left-hand side to weak head normal form,
    deciding each comparison on the way *)
Ltac decide_cmp x :=
  lazymatch x with
  | Rltb ?a ?b =>
      let u := reify a in let v := reify b in
      let c := eval vm_compute in (ilt u v) in
      lazymatch c with
      | true => let H := fresh in assert (H : Rltb a b = true) by (exact (Rltb_t u v ltac:(vm_compute; reflexivity))); rewrite H; clear H
      | false => let H := fresh in assert (H : Rltb a b = false) by (exact (Rltb_f u v ltac:(vm_compute; reflexivity))); rewrite H; clear H
      end
  | Rleb ?a ?b =>
      let u := reify a in let v := reify b in
      let c := eval vm_compute in (ile u v) in
      lazymatch c with
      | true => let H := fresh in assert (H : Rleb a b = true) by (exact (Rleb_t u v ltac:(vm_compute; reflexivity))); rewrite H; clear H
      | false => let H := fresh in assert (H : Rleb a b = false) by (exact (Rleb_f u v ltac:(vm_compute; reflexivity))); rewrite H; clear H
      end
  end.
Ltac inner_cmp t :=
  match t with
  | context [Rltb ?x ?y] => decide_cmp (Rltb x y)
  | context [Rleb ?x ?y] => decide_cmp (Rleb x y)
  end.
Ltac rstep_on t :=
  lazymatch t with
  | Rltb ?a ?b => first [decide_cmp t | inner_cmp a | inner_cmp b]
  | Rleb ?a ?b => first [decide_cmp t | inner_cmp a | inner_cmp b]
  | _ =>
    let t' := eval hnf in t in
    tryif constr_eq t t' then
      lazymatch t with
      | match ?x with _ => _ end => rstep_on x
      | (match ?x with _ => _ end) _ => rstep_on x
      | ?f ?x => rstep_on x
      end
    else change t with t'
  end.
Ltac rstep := lazymatch goal with |- ?L = _ => rstep_on L end.
Ltac whnf_sides := lazymatch goal with |- ?a = ?b => let a' := eval hnf in a in let b' := eval hnf in b in change (a' = b') end.
(** equality of two data structures of closed expressions *)
Ltac rfin :=
  lazymatch goal with
  | |- @eq R ?a ?b => first [constr_eq a b; reflexivity | rcalc | inner_cmp a; rfin]
  | |- ?a = ?b => tryif constr_eq a b then reflexivity else (repeat rstep; whnf_sides; progress f_equal; rfin)
  end.
Ltac rrun := repeat rstep; rfin.
Global Opaque Rltb Rleb.

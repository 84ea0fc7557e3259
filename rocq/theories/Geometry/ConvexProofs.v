(** Lemmas on the pieces of flat and convex loops *)
From Coq Require Import Reals List Bool Lra Lia Psatz.
From Verif.Common Require Import Base Flt.
From Verif.Geometry Require Import Vec TriangleModel LoopModel GeomProofs TriangleProofs LoopProofs MeshProofs MergeProofs SplitModel SplitProofs.
Import ListNotations.
Open Scope R_scope.

(** ** The normals of flat loops *)
Definition flat (u : pt) (ps : list pt) : Prop := forall a b, In a ps -> In b ps -> vdot u (vsub a b) = 0.
Lemma cross_par u a b : vlen2 u = 1 -> vdot u a = 0 -> vdot u b = 0 -> vcross a b = vscale u (vdot u (vcross a b)).
Proof.
  intros U A B.
  assert (T : vsub (vscale (vcross a b) (vlen2 u)) (vscale u (vdot u (vcross a b))) = vneg (vcross u (vsub (vscale a (vdot u b)) (vscale b (vdot u a))))) by vring.
  rewrite U, A, B in T. set (w := vcross a b) in *. set (k := vdot u w) in *. clearbody w k.
  assert (X := f_equal vx T). assert (Y := f_equal vy T). assert (Z := f_equal vz T). destruct w as [w1 w2 w3], u as [u1 u2 u3], a as [a1 a2 a3], b as [b1 b2 b3].
  cbn in X, Y, Z |- *. unfold vscale. cbn [vx vy vz]. apply V3_eq; cbn [vx vy vz]; lra.
Qed.
Lemma normalize_par u k n : vlen2 u = 1 -> vnormalize (vscale u k) = Ok n -> n = u \/ n = vscale u (-1).
Proof.
  intros U. unfold vnormalize. destruct (Rltb_spec (1 / 10 ^ 20) (vlen2 (vscale u k))) as [L|L]; [|discriminate]. intros E. injection E as <-.
  assert (K : vlen2 (vscale u k) = k * k) by (replace (vlen2 (vscale u k)) with (k * k * vlen2 u) by vring; rewrite U; ring).
  rewrite K in *. change (k * k) with (Rsqr k). rewrite sqrt_Rsqr_abs. assert (k <> 0) by (intros ->; lra).
  destruct (Rcase_abs k) as [N|P].
  - right. rewrite (Rabs_left k) by lra. apply V3_eq; vunfold; cbn [vx vy vz]; field; lra.
  - left. rewrite (Rabs_right k) by lra. apply V3_eq; vunfold; cbn [vx vy vz]; field; lra.
Qed.
Definition along (u n : pt) : Prop := n = vzero \/ n = u \/ n = vscale u (-1).
Lemma find_normal_along u a b cs old n : vlen2 u = 1 -> flat u (a :: b :: cs) -> along u old -> find_normal a b cs old = Ok n -> along u n.
Proof.
  intros U. induction cs as [|c cs IH]; intros F O E; cbn [find_normal] in E; [injection E as <-; exact O|]. cbv zeta in E.
  destruct (Rltb _ _).
  - right. rewrite (cross_par u) in E; [now apply normalize_par in E|exact U| |]; apply F; cbn; auto.
  - apply IH in E; auto. intros x y X Y. apply F; cbn in *; tauto.
Qed.
Lemma set_normal_along u l l' : vlen2 u = 1 -> flat u (lv l) -> along u (ln l) -> set_normal l = Ok l' -> along u (ln l').
Proof.
  intros U F A. unfold set_normal. destruct (Rltb _ _); [intros E; injection E as <-; exact A|].
  destruct (lv l) as [|a [|b [|c cs]]] eqn:V; try discriminate.
  match goal with |- bind ?x _ = _ -> _ => destruct x as [n| |] eqn:N; cbn [bind]; try discriminate end. intros E. injection E as <-. cbn [ln].
  eapply find_normal_along; [exact U| |exact A|exact N]. intros x y X Y. apply F; cbn in *; tauto.
Qed.
Lemma push_along u l p l' : vlen2 u = 1 -> flat u (lv l ++ [p]) -> along u (ln l) -> push l p = Ok l' -> along u (ln l').
Proof.
  intros U F A E. assert (E0 := E). apply push_vertices in E0 as (_ & _ & _ & _ & V).
  assert (F' : flat u (lv l')).
  { intros x y X Y. assert (I : forall z, In z (lv l') -> In z (lv l ++ [p])).
    { intros z Z. destruct V as [(-> & _)|[(W & _)|(pre & a & b & W1 & W2 & _)]]; [apply in_or_app; now left|now rewrite <- W|].
      rewrite W2 in Z. rewrite W1. rewrite <- app_assoc. cbn [app]. apply in_app_or in Z as [Z|[<-|[<-|[]]]]; apply in_or_app; cbn; auto. }
    apply F; auto. }
  unfold push, push_collinear in E. destruct (valid_to_add l p); cbn [bind] in E; try discriminate. cbv zeta in E.
  destruct (match rev (lv l) with [] => false | x :: _ => compare x p end); [injection E as <-; exact A|].
  match type of E with bind ?x _ = _ => destruct x as [vs| |] eqn:VS; cbn [bind] in E; try discriminate end.
  destruct (3 <=? length vs)%nat; [|injection E as <-; exact A].
  apply (set_normal_along u (with_vertices l vs) l'); [exact U| |exact A|exact E].
  assert (W : lv l' = vs). { revert E. unfold set_normal. cbn [with_vertices lv ln]. destruct (Rltb _ _); [intros E; injection E as <-; reflexivity|].
    destruct vs as [|va [|vb [|vc cs]]]; try discriminate. destruct (find_normal _ _ _ _); cbn [bind]; try discriminate. intros E. injection E as <-. reflexivity. }
  cbn [with_vertices lv]. now rewrite <- W.
Qed.
Lemma push_list_along u ps : vlen2 u = 1 -> forall l l', flat u (lv l ++ ps) -> along u (ln l) -> push_list l ps = Ok l' -> along u (ln l').
Proof.
  intros U. induction ps as [|p ps IH]; intros l l' F A E; cbn [push_list] in E; [injection E as <-; exact A|].
  destruct (push l p) as [l1| |] eqn:P; cbn [bind] in E; try discriminate.
  assert (I : incl (lv l1) (lv l ++ [p])).
  { apply push_vertices in P as (_ & _ & _ & _ & [(-> & _)|[(-> & _)|(pre & a & b & -> & -> & _)]]); [apply incl_appl, incl_refl|apply incl_refl|].
    intros z Z. rewrite <- app_assoc. cbn [app]. apply in_app_or in Z as [Z|[<-|[<-|[]]]]; apply in_or_app; cbn; auto. }
  apply (IH l1); [|apply (push_along u l p); auto|exact E].
  - intros x y X Y. assert (H : forall z, In z (lv l1 ++ ps) -> In z (lv l ++ p :: ps)).
    { intros z Z. apply in_app_or in Z as [Z|Z]; [apply I in Z; apply in_app_or in Z as [Z|[<-|[]]]|]; apply in_or_app; cbn; auto. }
    apply F; auto.
  - intros x y X Y. assert (H : forall z, In z (lv l ++ [p]) -> In z (lv l ++ p :: ps)) by (intros z Z; apply in_app_or in Z as [Z|[<-|[]]]; apply in_or_app; cbn; auto). apply F; auto.
Qed.
Lemma close_nonzero l l' : close l = (Ok tt, l') -> ln l' <> vzero.
Proof.
  unfold close. destruct (length (lv l) <? 3)%nat; [discriminate|]. destruct (is_collinear _ _ _) as [c1| |]; try discriminate. cbv zeta.
  destruct (valid_to_add _ _); try discriminate. destruct (is_collinear _ _ _) as [c2| |]; try discriminate.
  match goal with |- context [Rltb (vlen2 (ln ?x)) _] => set (l2 := x) end.
  destruct (Rltb_spec (vlen2 (ln l2)) (1 / 10 ^ 14)) as [L|L]; [discriminate|].
  assert (Z : ln l2 <> vzero) by (intros Z; rewrite Z in L; replace (vlen2 vzero) with 0 in L by (unfold vzero; vring); lra).
  assert (Z' : vscale (ln l2) (-1) <> vzero).
  { intros K. apply Z. replace (ln l2) with (vscale (vscale (ln l2) (-1)) (-1)) by vring. rewrite K. unfold vzero. vring. }
  unfold set_area. cbn [lclosed lv ln negb]. destruct (vis_zero (ln l2)); [discriminate|]. destruct (length (lv l2) <? 3)%nat; [discriminate|].
  unfold set_perimeter. cbn [lclosed lv ln negb]. destruct (vis_zero _); [discriminate|]. destruct (length (lv l2) <? 3)%nat; [discriminate|].
  intros E. injection E as <-. cbn [ln]. destruct (Rltb _ 0); assumption.
Qed.
(** the area of a closed piece of a flat outline is that of its projection on [u] *)
Lemma piece_area u o l l' : vlen2 u = 1 -> flat u o -> push_list loop_new o = Ok l -> close l = (Ok tt, l') -> larea l' = Rabs (vdot u (area2 (lv l'))) / 2.
Proof.
  intros U F P C. assert (A : along u (ln l)). { apply (push_list_along u o U loop_new l); [exact F|now left|exact P]. }
  pose proof (close_nonzero _ _ C) as NZ. apply close_spec in C as (_ & _ & _ & _ & AR & AP & ND & _).
  assert (A' : ln l' = u \/ ln l' = vscale u (-1)).
  { destruct ND as [E|E]; rewrite E in *; destruct A as [Z|[Z|Z]]; rewrite Z in *; auto; [congruence|exfalso; apply NZ; unfold vzero; vring|].
    left. vring. }
  rewrite AR in AP |- *. set (t := area2 (lv l')) in *. clearbody t. destruct A' as [E|E]; rewrite E in *.
  - rewrite Rabs_pos_eq by lra. reflexivity.
  - replace (vdot (vscale u (-1)) t) with (- vdot u t) in * by vring. rewrite Rabs_left1 by lra. reflexivity.
Qed.

(** ** The areas of outlines of convex loops *)
Fixpoint steps (P : pt -> pt -> Prop) (l : list pt) : Prop := match l with x :: (y :: _) as l' => P x y /\ steps P l' | _ => True end.
Lemma steps_app P a x y b : steps P (a ++ [x]) -> P x y -> steps P (y :: b) -> steps P (a ++ x :: y :: b).
Proof.
  intros A XY B. induction a as [|z a IH]; [split; assumption|]. destruct a as [|w a]; [split; [apply A|split; assumption]|].
  destruct A as (A1 & A2). split; [exact A1|]. exact (IH A2).
Qed.
Lemma steps_picks (P : pt -> pt -> Prop) vs : forall k s, (forall i, (s <= i < s + k)%nat -> P (pick vs i) (pick vs (i + 1))) -> steps P (map (pick vs) (seq s (S k))).
Proof.
  induction k as [|k IH]; intros s H; [exact I|]. cbn [seq map]. change (P (pick vs s) (pick vs (S s)) /\ steps P (map (pick vs) (seq (S s) (S k)))).
  split; [replace (S s) with (s + 1)%nat by lia; apply H; lia|]. apply IH. intros i Hi. apply H. lia.
Qed.
Lemma fan_ge u B e : 0 <= e -> forall l, steps (fun x y => - e <= vdot u (tri2 B x y)) l -> - (INR (length l) * e) <= vdot u (area2 (B :: l)).
Proof.
  intros E. induction l as [|x l IH]; intros S; [cbn [length INR]; rewrite area2_one; unfold vzero; replace (vdot u _) with 0 by vring; lra|].
  destruct l as [|y l]; [rewrite area2_two; unfold vzero; replace (vdot u _) with 0 by vring; cbn [length INR]; lra|].
  destruct S as (S1 & S2). specialize (IH S2). rewrite area2_ear. change (length (x :: y :: l)) with (S (length (y :: l))). rewrite S_INR.
  set (a := area2 _) in *. set (t := tri2 _ _ _) in *. clearbody a t. replace (vdot u (vadd a t)) with (vdot u a + vdot u t) by vring. lra.
Qed.

(** every vertex is on the inner side of every edge *)
Definition convex (u : pt) (vs : list pt) : Prop := forall i w, (i < length vs)%nat -> In w vs -> 0 <= vdot u (tri2 w (pick vs i) (pick vs (i + 1))).

Lemma tri_bound u D a b c : vlen2 u = 1 -> spread D [a; b; c] -> Rabs (vdot u (tri2 a b c)) <= D * D.
Proof.
  intros U S. assert (D0 : 0 <= D) by (apply (spread_nonneg _ _ S); discriminate).
  assert (CS : forall t, Rabs (vdot u t) <= vlen t).
  { intros t. rewrite <- (Rabs_pos_eq (vlen t)) by apply vlen_nonneg. apply Rsqr_le_abs_0. unfold Rsqr. rewrite vlen_sqr.
    pose proof (lagrange u t) as L. rewrite U in L. pose proof (vlen2_nonneg (vcross u t)). lra. }
  eapply Rle_trans; [apply CS|]. rewrite tri2_cross. eapply Rle_trans; [apply vlen_cross|].
  apply Rmult_le_compat; try apply vlen_nonneg; apply S; cbn; auto.
Qed.

Lemma convex_point u vs D a c B t i : vlen2 u = 1 -> spread D vs -> convex u vs -> In a vs -> In c vs -> on_line a c B t -> - (1 / 10 ^ 12) <= t <= 1 + 1 / 10 ^ 7 -> (i < length vs)%nat ->
  - (1 / 10 ^ 6 * (D * D)) <= vdot u (tri2 B (pick vs i) (pick vs (i + 1))) <= 101 / 100 * (D * D).
Proof.
  intros U S C A Cc ON T I.
  assert (D2 : 0 <= D * D) by nra.
  assert (NE : vs <> []) by (destruct vs; [cbn in I; lia|discriminate]).
  set (x := pick vs i) in *. set (y := pick vs (i + 1)) in *.
  assert (X : In x vs) by (apply nth_In, Nat.mod_upper_bound; lia). assert (Y : In y vs) by (apply nth_In, Nat.mod_upper_bound; lia).
  assert (HA := C i a I A). assert (HC := C i c I Cc). fold x in HA, HC. fold y in HA, HC.
  assert (BA : Rabs (vdot u (tri2 a x y)) <= D * D) by (apply tri_bound; [exact U|]; intros p q P Q; apply S; [destruct P as [<-|[<-|[<-|[]]]]; auto|destruct Q as [<-|[<-|[<-|[]]]]; auto]).
  assert (BC : Rabs (vdot u (tri2 c x y)) <= D * D) by (apply tri_bound; [exact U|]; intros p q P Q; apply S; [destruct P as [<-|[<-|[<-|[]]]]; auto|destruct Q as [<-|[<-|[<-|[]]]]; auto]).
  rewrite Rabs_pos_eq in BA, BC by assumption.
  unfold on_line in ON. assert (L : vdot u (tri2 B x y) = (1 - t) * vdot u (tri2 a x y) + t * vdot u (tri2 c x y)) by (rewrite ON, !tri2_cross; vring).
  rewrite L. set (ha := vdot u (tri2 a x y)) in *. set (hc := vdot u (tri2 c x y)) in *. set (DD := D * D) in *. clearbody ha hc DD.
  destruct (Rlt_le_dec t 0) as [N|P].
  - assert (t * hc >= t * DD) by nra. assert (t * DD >= - (1 / 10 ^ 12) * DD) by nra. assert (- t * ha <= 1 / 10 ^ 12 * DD) by nra. split; nra.
  - destruct (Rlt_le_dec 1 t) as [G|G].
    + assert ((t - 1) * ha <= (t - 1) * DD) by nra. assert ((t - 1) * DD <= 1 / 10 ^ 7 * DD) by nra. assert (t * hc <= t * DD) by nra. split; nra.
    + split; nra.
Qed.

(** the outlines into which a convex loop is cut have areas of the sign of the loop's, but for the rounding of the cuts *)
Lemma outlines_positive u vs D b m B M tb tm : vlen2 u = 1 -> spread D vs -> convex u vs -> (b < m)%nat -> (m < length vs)%nat ->
  on_line (pick vs b) (pick vs (b + 1)) B tb -> - (1 / 10 ^ 12) <= tb <= 1 + 1 / 10 ^ 7 -> on_line (pick vs m) (pick vs (m + 1)) M tm -> - (1 / 10 ^ 12) <= tm <= 1 + 1 / 10 ^ 7 ->
  - ((INR (length vs) + 2) * (2 / 10 ^ 6 * (D * D))) <= vdot u (area2 (left_outline vs b m B M)) /\
  - ((INR (length vs) + 2) * (2 / 10 ^ 6 * (D * D))) <= vdot u (area2 (right_outline vs b m B M)).
Proof.
  intros U SP0 C BM ML OB TB OM TM.
  assert (NE : vs <> []) by (destruct vs; [cbn in ML; lia|discriminate]).
  assert (PI : forall i, In (pick vs i) vs) by (intros; apply nth_In, Nat.mod_upper_bound; lia).
  set (e := 2 / 10 ^ 6 * (D * D)). assert (D2 : 0 <= D * D) by nra. assert (E0 : 0 <= e) by (unfold e; lra).
  assert (H : forall i, (i < length vs)%nat -> - e <= vdot u (tri2 B (pick vs i) (pick vs (i + 1)))).
  { intros i I. destruct (convex_point u vs D _ _ B tb i U SP0 C (PI b) (PI (b + 1)%nat) OB TB I) as (L & _). unfold e. lra. }
  destruct (convex_point u vs D _ _ B tb m U SP0 C (PI b) (PI (b + 1)%nat) OB TB ML) as (HL & HU).
  assert (MM : - e <= vdot u (tri2 B (pick vs m) M)).
  { replace (vdot u (tri2 B (pick vs m) M)) with (tm * vdot u (tri2 B (pick vs m) (pick vs (m + 1)))) by (rewrite OM, !tri2_cross; vring).
    set (h := vdot u (tri2 B _ _)) in *. clearbody h. unfold e. set (DD := D * D) in *. clearbody DD.
    destruct (Rlt_le_dec tm 0); [assert (- tm * h <= 1 / 10 ^ 12 * (101 / 100 * DD)) by (apply Rle_trans with (- tm * (101 / 100 * DD)); [apply Rmult_le_compat_l; lra|apply Rmult_le_compat_r; lra]); nra|].
    destruct (Rle_lt_dec 0 h); [assert (0 <= tm * h) by (apply Rmult_le_pos; lra); lra|].
    assert (tm * - h <= (1 + 1 / 10 ^ 7) * (1 / 10 ^ 6 * DD)) by (apply Rmult_le_compat; lra). nra. }
  assert (MN : - e <= vdot u (tri2 B M (pick vs (m + 1)))).
  { replace (vdot u (tri2 B M (pick vs (m + 1)))) with ((1 - tm) * vdot u (tri2 B (pick vs m) (pick vs (m + 1)))) by (rewrite OM, !tri2_cross; vring).
    set (h := vdot u (tri2 B _ _)) in *. clearbody h. unfold e. set (DD := D * D) in *. clearbody DD.
    destruct (Rlt_le_dec (1 - tm) 0); [assert ((tm - 1) * h <= 1 / 10 ^ 7 * (101 / 100 * DD)) by (apply Rle_trans with ((tm - 1) * (101 / 100 * DD)); [apply Rmult_le_compat_l; lra|apply Rmult_le_compat_r; lra]); nra|].
    destruct (Rle_lt_dec 0 h); [assert (0 <= (1 - tm) * h) by (apply Rmult_le_pos; lra); lra|].
    assert ((1 - tm) * - h <= (1 + 1 / 10 ^ 7) * (1 / 10 ^ 6 * DD)) by (apply Rmult_le_compat; lra). nra. }
  split.
  - unfold left_outline. rewrite area2_rot. cbn [app].
    apply Rle_trans with (- (INR (length (M :: map (pick vs) (seq (m + 1) (length vs - m)) ++ map (pick vs) (seq 0 (b + 1)))) * e)).
    + apply Ropp_le_contravar. apply Rmult_le_compat_r; [exact E0|]. cbn [length]. rewrite app_length, !map_length, !seq_length.
      replace (INR (length vs) + 2) with (INR (length vs + 2)) by (rewrite plus_INR; reflexivity). apply le_INR. lia.
    + apply fan_ge; [exact E0|].
      replace (length vs - m)%nat with ((length vs - m - 1) + 1)%nat by lia. rewrite seq_app, map_app. cbn [seq map]. replace (m + 1 + (length vs - m - 1))%nat with (length vs) by lia.
      rewrite <- app_assoc. cbn [app].
      replace (seq 0 (b + 1)) with (seq 0 (S b)) by (f_equal; lia). rewrite app_comm_cons. cbn [seq map].
      apply steps_app.
      * rewrite <- app_comm_cons. change [pick vs (length vs)] with (map (pick vs) [length vs]). rewrite <- map_app.
        replace (seq (m + 1) (length vs - m - 1) ++ [length vs]) with (seq (m + 1) (S (length vs - m - 1))).
        2:{ replace (S (length vs - m - 1)) with ((length vs - m - 1) + 1)%nat by lia. rewrite seq_app. cbn [seq]. do 2 f_equal. lia. }
        pose proof (steps_picks (fun x y => - e <= vdot u (tri2 B x y)) vs (length vs - m - 1) (m + 1)) as SP. cbn [seq map] in SP |- *. split; [exact MN|]. apply SP. intros i Hi. apply H. lia.
      * rewrite pick_end by exact NE. rewrite (pick_in vs 0) by lia. replace (vdot u (tri2 B (nth 0 vs vzero) (nth 0 vs vzero))) with 0 by (rewrite tri2_cross; vring). lra.
      * change (steps (fun x y => - e <= vdot u (tri2 B x y)) (map (pick vs) (seq 0 (S b)))). apply steps_picks. intros i Hi. apply H. lia.
  - unfold right_outline.
    apply Rle_trans with (- (INR (length (map (pick vs) (seq (b + 1) (m - b)) ++ [M])) * e)).
    + apply Ropp_le_contravar. apply Rmult_le_compat_r; [exact E0|]. rewrite app_length, map_length, seq_length. cbn [length].
      replace (INR (length vs) + 2) with (INR (length vs + 2)) by (rewrite plus_INR; reflexivity). apply le_INR. lia.
    + apply fan_ge; [exact E0|].
      replace (m - b)%nat with ((m - b - 1) + 1)%nat by lia. rewrite seq_app, map_app. cbn [seq map]. replace (b + 1 + (m - b - 1))%nat with m by lia.
      rewrite <- app_assoc. cbn [app]. apply steps_app; [|exact MM|exact I].
      change [pick vs m] with (map (pick vs) [m]). rewrite <- map_app.
      replace (seq (b + 1) (m - b - 1) ++ [m]) with (seq (b + 1) (S (m - b - 1))).
      2:{ replace (S (m - b - 1)) with ((m - b - 1) + 1)%nat by lia. rewrite seq_app. cbn [seq]. do 2 f_equal. lia. }
      apply steps_picks. intros i Hi. apply H. lia.
Qed.

(** Shared vocabulary: Rust results, list updates. *)
From Coq Require Import List Arith Lia Bool.
Import ListNotations.

(** The outcome of a Rust function returning [Result<A, String>] (the error text is
    dropped) that may also panic. *)
Inductive res (A : Type) : Type := Ok (a : A) | Err | Panic.
Arguments Ok {A} a.
Arguments Err {A}.
Arguments Panic {A}.

Definition bind {A B} (x : res A) (f : A -> res B) : res B :=
  match x with Ok a => f a | Err => Err | Panic => Panic end.
Notation "'do' x <- e ; f" := (bind e (fun x => f)) (at level 200, x pattern, e at level 100, f at level 200).

(** [v[i] = x] on a vector; out of bounds leaves the list unchanged (callers check) *)
Fixpoint upd {A} (l : list A) (i : nat) (x : A) : list A :=
  match l, i with
  | [], _ => []
  | _ :: l', O => x :: l'
  | y :: l', S i' => y :: upd l' i' x
  end.

Lemma upd_length {A} (l : list A) i x : length (upd l i x) = length l.
Proof. revert i; induction l; intros [|i]; cbn; auto. Qed.
Lemma nth_upd_same {A} (l : list A) i x d : i < length l -> nth i (upd l i x) d = x.
Proof. revert i; induction l; intros [|i] H; cbn in *; try lia; auto. apply IHl. lia. Qed.
Lemma nth_upd_other {A} (l : list A) i j x d : i <> j -> nth j (upd l i x) d = nth j l d.
Proof. revert i j; induction l; intros [|i] [|j] H; cbn; auto; try lia. Qed.
Lemma nth_error_upd_same {A} (l : list A) i x : i < length l -> nth_error (upd l i x) i = Some x.
Proof. revert i; induction l; intros [|i] H; cbn in *; try lia; auto. apply IHl. lia. Qed.
Lemma nth_error_upd_other {A} (l : list A) i j x : i <> j -> nth_error (upd l i x) j = nth_error l j.
Proof. revert i j; induction l; intros [|i] [|j] H; cbn; auto; try lia. Qed.
Lemma nth_error_nth_lt {A} (l : list A) i d : i < length l -> nth_error l i = Some (nth i l d).
Proof. revert i; induction l; intros [|i] H; cbn in *; try lia; auto. apply IHl. lia. Qed.

(** row-major indices *)
Lemma rm_lt nr nc i j : i < nr -> j < nc -> nc * i + j < nr * nc.
Proof. intros. nia. Qed.
Lemma rm_inj nc i j i' j' : j < nc -> j' < nc -> nc * i + j = nc * i' + j' -> i = i' /\ j = j'.
Proof.
  intros. assert (i = i').
  { rewrite (Nat.div_unique (nc * i + j) nc i j) by lia.
    rewrite (Nat.div_unique (nc * i + j) nc i' j') by lia. reflexivity. }
  subst. lia.
Qed.
Lemma rm_split nc k : nc <> 0 -> k = nc * (k / nc) + k mod nc.
Proof. intros. apply Nat.div_mod. assumption. Qed.

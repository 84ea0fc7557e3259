(** The floating point operations used by the geometry code, so that the same model can be read over the real numbers
    (where the theorems are) or over IEEE doubles (for witnesses that involve NaN or infinities). *)
From Coq Require Import Reals Bool PrimFloat Lra.
Open Scope R_scope.

Record Flt (T : Type) := mkFlt {
  f0 : T; f1 : T; fadd : T -> T -> T; fsub : T -> T -> T; fmul : T -> T -> T; fdiv : T -> T -> T;
  fltb : T -> T -> bool; fleb : T -> T -> bool }.
Arguments f0 {T}. Arguments f1 {T}. Arguments fadd {T}. Arguments fsub {T}. Arguments fmul {T}. Arguments fdiv {T}.
Arguments fltb {T}. Arguments fleb {T}.

(** [a < b] and [a <= b] on real numbers, as booleans *)
Definition Rltb (a b : R) : bool := if Rlt_dec a b then true else false.
Definition Rleb (a b : R) : bool := if Rle_dec a b then true else false.

Lemma Rltb_spec a b : reflect (a < b) (Rltb a b).
Proof. unfold Rltb. destruct (Rlt_dec a b); constructor; assumption. Qed.
Lemma Rleb_spec a b : reflect (a <= b) (Rleb a b).
Proof. unfold Rleb. destruct (Rle_dec a b); constructor; assumption. Qed.
Lemma Rltb_true a b : Rltb a b = true <-> a < b.
Proof. destruct (Rltb_spec a b); split; intros; auto; discriminate. Qed.
Lemma Rltb_false a b : Rltb a b = false <-> b <= a.
Proof. destruct (Rltb_spec a b); split; intros; auto; try discriminate; lra. Qed.
Lemma Rleb_true a b : Rleb a b = true <-> a <= b.
Proof. destruct (Rleb_spec a b); split; intros; auto; discriminate. Qed.
Lemma Rleb_false a b : Rleb a b = false <-> b < a.
Proof. destruct (Rleb_spec a b); split; intros; auto; try discriminate; lra. Qed.

(** Exact arithmetic *)
Definition RF : Flt R := mkFlt R 0 1 Rplus Rminus Rmult Rdiv Rltb Rleb.
(** IEEE 754 binary64 *)
Definition PF : Flt float := mkFlt float PrimFloat.zero PrimFloat.one PrimFloat.add PrimFloat.sub PrimFloat.mul PrimFloat.div PrimFloat.ltb PrimFloat.leb.

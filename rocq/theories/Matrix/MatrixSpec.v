(** Specification vocabulary for matrices: what an element is, finite sums, linear
    systems.  Nothing here refers to how the crate stores or computes anything. *)
From Coq Require Import List Arith Lia.
From Verif.Matrix Require Import MatrixModel.

Section Spec.
Context {T : Type} (N : Num T).

(** [f 0 + f 1 + … + f (n-1)] *)
Fixpoint sum (n : nat) (f : nat -> T) : T :=
  match n with O => n0 N | S k => nadd N (sum k f) (f k) end.

(** a matrix whose storage has the announced size, as every constructor produces *)
Definition wf (m : mat T) : Prop := length (data m) = nrows m * ncols m.

(** element in row [i], column [j] *)
Definition elt (m : mat T) (i j : nat) : T := nth (ncols m * i + j) (data m) (n0 N).

(** [m] is the [nr] by [nc] matrix of elements [f] *)
Definition is_mat (m : mat T) (nr nc : nat) (f : nat -> nat -> T) : Prop :=
  nrows m = nr /\ ncols m = nc /\ wf m /\
  forall i j, i < nr -> j < nc -> elt m i j = f i j.

(** all elements more than [s] positions away from the diagonal are zero *)
Definition banded (s : nat) (m : mat T) : Prop :=
  forall i j, i < nrows m -> j < ncols m -> (i > j + s \/ j > i + s) -> elt m i j = n0 N.

(** [A x = b], column by column; [x] is given by its elements *)
Definition solves (a b : mat T) (x : nat -> nat -> T) : Prop :=
  forall i k, i < nrows a -> k < ncols b ->
    sum (ncols a) (fun j => nmul N (elt a i j) (x j k)) = elt b i k.

(** the identity *)
Definition delta (i j : nat) : T := if Nat.eqb i j then n1 N else n0 N.
End Spec.

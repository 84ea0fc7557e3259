(** Model of /repo/polynomial/src/lib.rs over the reals (exact arithmetic instead of
    floats; [powi] is exact integer power). *)
From Coq Require Import List Arith Reals.
From Verif.Common Require Import Base.
Import ListNotations.
Local Open Scope R_scope.

(** lib.rs:74-83: [coefficients : [Float; 12]] *)
Record polynomial := mkPoly { coefficients : list R; len : nat }.
Definition CAP : nat := 12.

(** lib.rs:88-93 *)
Definition new_poly : polynomial := mkPoly (repeat 0 CAP) 0.

(** lib.rs:96-98 *)
Definition is_empty (p : polynomial) : bool := (len p =? 0)%nat.

(** lib.rs:101-110 *)
Definition push (p : polynomial) (v : R) : res polynomial :=
  if (length (coefficients p) <=? len p)%nat then Panic
  else Ok (mkPoly (upd (coefficients p) (len p) v) (len p + 1)).

(** lib.rs:118-125 *)
Definition eval (p : polynomial) (x : R) : R :=
  fold_left (fun y i => y + nth i (coefficients p) 0 * x ^ i) (seq 0 (len p)) 0.

(** lib.rs:144-169: the [poly!] macro *)
Definition poly (given : list R) : res polynomial :=
  if (CAP <? length given)%nat then Panic
  else Ok (mkPoly (fold_left (fun c i => upd c i (nth i given 0)) (seq 0 (length given)) (repeat 0 CAP)) (length given)).

(** pushing a list of coefficients one by one *)
Fixpoint push_all (p : polynomial) (vs : list R) : res polynomial :=
  match vs with [] => Ok p | v :: vs' => do p' <- push p v; push_all p' vs' end.

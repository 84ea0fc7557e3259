(** The pieces of Rust's text handling that the file readers use, over lists of bytes. *)
From Coq Require Import String Ascii List Bool Arith NArith ZArith Lia.
From Coq Require Import Decimal DecimalString DecimalN DecimalNat.
Import ListNotations.
Open Scope list_scope.

Definition text := list ascii.
Definition t_nl : ascii := ascii_of_nat 10.
Definition t_cr : ascii := ascii_of_nat 13.
Definition t_tab : ascii := ascii_of_nat 9.
Definition t_ff : ascii := ascii_of_nat 12.
Definition t_space : ascii := ascii_of_nat 32.
Definition txt (s : string) : text := list_ascii_of_string s.
Definition text_eqb (a b : text) : bool := if list_eq_dec ascii_dec a b then true else false.

(** [u8::is_ascii_whitespace] *)
Definition is_ws (c : ascii) : bool :=
  Ascii.eqb c t_space || Ascii.eqb c t_tab || Ascii.eqb c t_nl || Ascii.eqb c t_ff || Ascii.eqb c t_cr.

(** [slice::split], [str::split] on a single character *)
Fixpoint split_on (p : ascii -> bool) (l : text) : list text :=
  match l with
  | [] => [[]]
  | c :: r => match split_on p r with
              | h :: t => if p c then [] :: h :: t else (c :: h) :: t
              | [] => []
              end
  end.

(** [str::split_ascii_whitespace] *)
Definition nonempty (l : text) : bool := match l with [] => false | _ => true end.
Definition words (l : text) : list text := filter nonempty (split_on is_ws l).

(** [str::lines]: a line ends with a line feed or with a carriage return and a line feed; an empty last line is dropped *)
Fixpoint strip_cr (l : text) : text :=
  match l with [] => [] | [c] => if Ascii.eqb c t_cr then [] else [c] | c :: r => c :: strip_cr r end.
Fixpoint lines_of (ps : list text) : list text :=
  match ps with [] => [] | [last] => if nonempty last then [last] else [] | p :: r => strip_cr p :: lines_of r end.
Definition lines (l : text) : list text := lines_of (split_on (fun c => Ascii.eqb c t_nl) l).

(** [starts_with] *)
Fixpoint starts_with (p l : text) : bool :=
  match p, l with [] , _ => true | a :: p', b :: l' => Ascii.eqb a b && starts_with p' l' | _, [] => false end.

(** [format!("{}", n)] for an unsigned integer *)
Definition show_nat (n : nat) : text := txt (NilZero.string_of_uint (N.to_uint (N.of_nat n))).
(** [str::parse::<usize>]: an optional plus sign and at least one digit; the value must fit 64 bits *)
Definition parse_usize (l : text) : option nat :=
  let digits := match l with c :: r => if Ascii.eqb c "+" then r else l | [] => l end in
  match digits with
  | [] => None
  | _ => match NilEmpty.uint_of_string (string_of_list_ascii digits) with
         | Some u => let n := N.of_uint u in if N.ltb n (2 ^ 64) then Some (N.to_nat n) else None
         | None => None
         end
  end.

(** ** Facts *)
Lemma text_eqb_true a b : text_eqb a b = true <-> a = b.
Proof. unfold text_eqb. destruct (list_eq_dec ascii_dec a b); split; congruence. Qed.
Lemma text_eqb_refl a : text_eqb a a = true.
Proof. now apply text_eqb_true. Qed.

Lemma split_on_nonnil p l : exists h t, split_on p l = h :: t.
Proof.
  induction l as [|c l (h & t & E)]; cbn [split_on]; [now exists [], []|]. rewrite E.
  destruct (p c); eauto.
Qed.
Lemma split_on_app p l c r : Forall (fun x => p x = false) l -> p c = true -> split_on p (l ++ c :: r) = l :: split_on p r.
Proof.
  intros H P. induction H as [|x l Hx H IH]; cbn [List.app split_on].
  - destruct (split_on_nonnil p r) as (h & t & E). now rewrite E, P.
  - now rewrite IH, Hx.
Qed.
Lemma split_on_none p l : Forall (fun x => p x = false) l -> split_on p l = [l].
Proof. induction 1 as [|x l Hx H IH]; cbn [split_on]; [reflexivity|]. now rewrite IH, Hx. Qed.

Definition no_nl (l : text) : Prop := Forall (fun c => Ascii.eqb c t_nl = false) l.
Definition no_cr_last (l : text) : Prop := strip_cr l = l.
Lemma lines_cons l r : no_nl l -> no_cr_last l -> lines (l ++ t_nl :: r) = l :: lines r.
Proof.
  intros H C. unfold lines. rewrite split_on_app by (auto; reflexivity).
  destruct (split_on_nonnil (fun c => Ascii.eqb c t_nl) r) as (h & t & E). rewrite E.
  cbn [lines_of]. now rewrite C.
Qed.
Lemma lines_nil : lines [] = [].
Proof. reflexivity. Qed.

(** digits *)
Definition is_digit (c : ascii) : bool := let n := nat_of_ascii c in (48 <=? n) && (n <=? 57).
Lemma uint_digits u : Forall (fun c => is_digit c = true) (list_ascii_of_string (NilEmpty.string_of_uint u)).
Proof. induction u; cbn; constructor; auto. Qed.
Lemma show_nat_eq n : exists u, show_nat n = list_ascii_of_string (NilEmpty.string_of_uint u) /\ u <> Nil /\ N.of_uint u = N.of_nat n.
Proof.
  unfold show_nat, txt, NilZero.string_of_uint.
  assert (E : N.of_uint (N.to_uint (N.of_nat n)) = N.of_nat n) by apply DecimalN.Unsigned.of_to.
  remember (N.to_uint (N.of_nat n)) as u. destruct u.
  1:{ exists (D0 Nil). split; [reflexivity|]. split; [discriminate|]. exact E. }
  all: match type of E with N.of_uint ?v = _ => exists v end; split; [reflexivity|]; split; [discriminate|]; exact E.
Qed.
Lemma show_nat_digits n : Forall (fun c => is_digit c = true) (show_nat n).
Proof. destruct (show_nat_eq n) as (u & -> & _). apply uint_digits. Qed.
Lemma show_nat_nonempty n : show_nat n <> [].
Proof. destruct (show_nat_eq n) as (u & -> & H & _). destruct u; cbn; congruence. Qed.
Lemma digit_not_ws c : is_digit c = true -> is_ws c = false.
Proof. destruct c as [[] [] [] [] [] [] [] []]; vm_compute; congruence. Qed.
Lemma digit_not_plus c : is_digit c = true -> Ascii.eqb c "+" = false.
Proof. destruct c as [[] [] [] [] [] [] [] []]; vm_compute; congruence. Qed.
Lemma digit_not_eq c : is_digit c = true -> Ascii.eqb c "=" = false.
Proof. destruct c as [[] [] [] [] [] [] [] []]; vm_compute; congruence. Qed.
Lemma digit_not_nl c : is_digit c = true -> Ascii.eqb c t_nl = false.
Proof. destruct c as [[] [] [] [] [] [] [] []]; vm_compute; congruence. Qed.
Lemma digit_not_cr c : is_digit c = true -> Ascii.eqb c t_cr = false.
Proof. destruct c as [[] [] [] [] [] [] [] []]; vm_compute; congruence. Qed.

Lemma parse_show n : (N.of_nat n < 2 ^ 64)%N -> parse_usize (show_nat n) = Some n.
Proof.
  intros H. pose proof (show_nat_nonempty n) as NE. pose proof (show_nat_digits n) as D.
  destruct (show_nat_eq n) as (u & E & _ & V). rewrite E in *. unfold parse_usize.
  destruct (list_ascii_of_string (NilEmpty.string_of_uint u)) as [|c r] eqn:L; [congruence|].
  inversion D as [|? ? Dc Dr]; subst. rewrite (digit_not_plus c Dc). rewrite <- L, string_of_list_ascii_of_string, NilEmpty.usu, V.
  replace (N.of_nat n <? 2 ^ 64)%N with true by (symmetry; now apply N.ltb_lt). now rewrite Nat2N.id.
Qed.

Lemma strip_cr_last l c : Ascii.eqb c t_cr = false -> strip_cr (l ++ [c]) = l ++ [c].
Proof.
  intros H. induction l as [|x l IH]; cbn [List.app strip_cr]; [now rewrite H|].
  destruct (l ++ [c]) eqn:E; [now destruct l|]. now rewrite IH.
Qed.
Lemma no_cr_no_strip l : Forall (fun c => Ascii.eqb c t_cr = false) l -> strip_cr l = l.
Proof.
  induction 1 as [|c l H HF IH]; [reflexivity|]. cbn [strip_cr]. destruct l; [now rewrite H|]. now rewrite IH.
Qed.

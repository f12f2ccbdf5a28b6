(** The grammar of formulas, independent of the parser, and their printing. *)
From Coq Require Import String Ascii NArith List.
From Verif Require Import Prelude Msp.
Import ListNotations.
Local Open Scope N_scope.

(** Code points of an ASCII text. *)
Fixpoint codes (s : string) : list N :=
  match s with
  | String.EmptyString => []
  | String c t => N_of_ascii c :: codes t
  end.

Definition digit (c : N) : Prop := 48 <= c <= 57.

(** the integer written in base ten *)
Definition decimal (ds : list N) : N := fold_left (fun acc c => 10 * acc + (c - 48)) ds 0.

(** term := digits | "(" expr ")"     expr := term | term "&" expr | term "|" expr *)
Inductive term : list N -> node -> Prop :=
| t_int ds : ds <> [] -> Forall digit ds -> decimal ds < 4294967296 -> term ds (Leaf (decimal ds))
| t_paren e f : expr e f -> term (codes "(" ++ e ++ codes ")") f
with expr : list N -> node -> Prop :=
| e_term t f : term t f -> expr t f
| e_and t a e b : term t a -> expr e b -> expr (t ++ codes "&" ++ e) (And a b)
| e_or t a e b : term t a -> expr e b -> expr (t ++ codes "|" ++ e) (Or a b).

Scheme term_mind := Induction for term Sort Prop
  with expr_mind := Induction for expr Sort Prop.
Combined Scheme term_expr_ind from term_mind, expr_mind.

(** [spaced s t]: [s] is [t] with spaces inserted anywhere. *)
Inductive spaced : list N -> list N -> Prop :=
| sp_nil : spaced [] []
| sp_space s t : spaced s t -> spaced (32 :: s) t
| sp_char c s t : c <> 32 -> spaced s t -> spaced (c :: s) (c :: t).

(** Decimal digits of a number, most significant first. *)
Fixpoint digits_fuel (fuel : nat) (n : N) (acc : list N) : list N :=
  match fuel with
  | O => acc
  | S fuel => let acc := (48 + n mod 10) :: acc in
              if n / 10 =? 0 then acc else digits_fuel fuel (n / 10) acc
  end.
Definition digits (n : N) : list N := digits_fuel (S (N.size_nat n)) n [].

(** Full parentheses. *)
Fixpoint print (f : node) : list N :=
  match f with
  | Leaf v => digits v
  | And a b => codes "(" ++ print a ++ codes ")&(" ++ print b ++ codes ")"
  | Or a b => codes "(" ++ print a ++ codes ")|(" ++ print b ++ codes ")"
  end.

(** Parentheses only where the grammar needs them: around the left operand when it
    is not an attribute. *)
Fixpoint print_short (f : node) : list N :=
  let left a := match a with Leaf _ => print_short a | _ => codes "(" ++ print_short a ++ codes ")" end in
  match f with
  | Leaf v => digits v
  | And a b => left a ++ codes "&" ++ print_short b
  | Or a b => left a ++ codes "|" ++ print_short b
  end.

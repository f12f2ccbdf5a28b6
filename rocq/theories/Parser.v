(** The parser of formulas, [Node::parse], /repo/src/core/msp.rs:286-408. Model
    only, no proofs.

    A string is the list of the code points of its characters. After the first
    check all characters are ASCII, so byte offsets and character offsets agree.
    The depth of the recursion is not limited here; PropertiesStack.v looks at what
    a limited stack does. *)
From Coq Require Import String NArith ZArith Bool List.
From Verif Require Import Prelude Msp.
Import ListNotations.
Local Open Scope N_scope.

Definition ch_space : N := 32.
Definition ch_open : N := 40.
Definition ch_close : N := 41.
Definition ch_and : N := 38.
Definition ch_or : N := 124.

Definition is_digit (c : N) : bool := (48 <=? c) && (c <=? 57).

(** the array [authorized], msp.rs:292-294 *)
Definition authorized (c : N) : bool :=
  (c =? ch_space) || (c =? ch_open) || (c =? ch_close) || (c =? ch_and) || (c =? ch_or) || is_digit c.

(** Regex ^\d+ : the longest prefix of digits, and what follows, msp.rs:305-324 *)
Fixpoint take_digits (s : list N) : list N * list N :=
  match s with
  | c :: t => if is_digit c then let '(d, r) := take_digits t in (c :: d, r) else ([], s)
  | [] => ([], [])
  end.

(** str::parse::<u32>() on a string of digits, msp.rs:321: the standard library
    multiplies and adds with overflow checks. *)
Fixpoint parse_u32_from (acc : N) (s : list N) : outcome N :=
  match s with
  | [] => Ok acc
  | c :: t =>
      let a := acc * 10 in
      if 4294967296 <=? a then Err (ParsingError ParseIntError)
      else
        let b := a + (c - 48) in
        if 4294967296 <=? b then Err (ParsingError ParseIntError) else parse_u32_from b t
  end.
Definition parse_u32 (s : list N) : outcome N :=
  match s with
  | [] => Err (ParsingError ParseIntError)
  | _ => parse_u32_from 0 s
  end.

(** The search for the closing parenthesis, msp.rs:369-381. [count] is an i32.
    The variable keeps its initial value 0 when nothing is found. *)
Fixpoint find_close (P : platform) (s : list N) (count : Z) (index : nat) : outcome nat :=
  match s with
  | [] => Ok 0%nat
  | c :: t =>
      let* count := (if c =? ch_open then i32_add P count 1
                     else if c =? ch_close then i32_add P count (-1)
                     else Ok count) in
      if (count <? 0)%Z then Ok index else find_close P t count (S index)
  end.

(** [Node::parse]. [fuel] bounds the depth of the recursion. *)
Fixpoint parse_fuel (fuel : nat) (P : platform) (s : list N) : outcome node :=
  match fuel with
  | O => Panic OutOfFuel
  | S fuel =>
    if match s with [] => true | _ => false end || existsb (fun c => negb (authorized c)) s
    then Err (ParsingError UnexpectedCharacter)
    else
      (* remove all spaces, msp.rs:302 *)
      let new_s := filter (fun c => negb (c =? ch_space)) s in
      let '(integer_str, rest) := take_digits new_s in
      match integer_str with
      | _ :: _ =>
          (* msp.rs:307-342 *)
          let* integer := parse_u32 integer_str in
          match rest with
          | [] => Ok (Leaf integer)
          | operator :: new_s =>
              if operator =? ch_and then let* b := parse_fuel fuel P new_s in Ok (And (Leaf integer) b)
              else if operator =? ch_or then let* b := parse_fuel fuel P new_s in Ok (Or (Leaf integer) b)
              else Err (ParsingError UnsupportedOperator)
          end
      | [] =>
          (* msp.rs:343-407 *)
          match new_s with
          | [] => Err (ParsingError UnexpectedEnd)
          | first_char :: new_s =>
              if negb (first_char =? ch_open) then Err (ParsingError UnexpectedCharacter)
              else if negb (existsb (N.eqb ch_close) new_s) then Err (ParsingError UnexpectedCharacter)
              else
                let* close := find_close P new_s 0 0 in
                let* between := slice new_s 0 close in
                let* new_s := slice_from new_s (length between) in
                let* new_s := slice_from new_s 1 in
                match new_s with
                | [] => parse_fuel fuel P between
                | operator :: new_s =>
                    if operator =? ch_and then
                      let* a := parse_fuel fuel P between in
                      let* b := parse_fuel fuel P new_s in Ok (And a b)
                    else if operator =? ch_or then
                      let* a := parse_fuel fuel P between in
                      let* b := parse_fuel fuel P new_s in Ok (Or a b)
                    else Err (ParsingError UnsupportedOperator)
                end
          end
      end
  end.

Definition parse (P : platform) (s : list N) : outcome node := parse_fuel (S (length s)) P s.

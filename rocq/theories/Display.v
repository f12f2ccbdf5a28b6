(** Texts shown for formulas and span programs, the operators on formulas and the
    parser of programs, /repo/src/core/msp.rs:109-117, 151-159 and 184-211. Texts are
    lists of code points. *)
From Coq Require Import String Ascii NArith ZArith Bool List.
From Verif Require Import Prelude Field Msp Parser ParserSpec.
Import ListNotations.
Local Open Scope N_scope.

(** BitAnd for Node, msp.rs:184-191 *)
Definition bitand (a b : node) : node := And a b.
(** BitOr for Node, msp.rs:193-200 *)
Definition bitor (a b : node) : node := Or a b.

(** Display for Node, msp.rs:202-211. An integer is shown by the standard library as
    its decimal digits. *)
Fixpoint show_node (f : node) : list N :=
  match f with
  | And a b => codes "AND( " ++ show_node a ++ codes ", " ++ show_node b ++ codes " )"
  | Or a b => codes "OR( " ++ show_node a ++ codes ", " ++ show_node b ++ codes " )"
  | Leaf v => codes "LEAF(" ++ digits v ++ codes ")"
  end.

(** Debug of an i32 *)
Definition show_i32 (z : Z) : list N :=
  if (z <? 0)%Z then codes "-" ++ digits (Z.to_N (- z)) else digits (Z.to_N z).

(** Debug of a Vec: the elements between brackets, separated by a comma and a space *)
Fixpoint join (l : list (list N)) : list N :=
  match l with
  | [] => []
  | [x] => x
  | x :: t => x ++ codes ", " ++ join t
  end.
Definition show_row (r : list Z) : list N := codes "[" ++ join (map show_i32 r) ++ codes "]".

(** the format [{attr:>4}]: padded on the left with spaces to four characters *)
Definition pad4 (s : list N) : list N := repeat 32 (4 - length s) ++ s.

(** one line of the display, msp.rs:113; a new line is the code point 10 *)
Definition show_line (attr : N) (row : list Z) : list N :=
  codes "attr " ++ pad4 (digits attr) ++ codes ": " ++ show_row row ++ [10].

(** Display for MonotoneSpanProgram<i32>, msp.rs:109-117; [zip] stops at the shorter
    of the two sequences *)
Definition show_msp (m : msp Z) : list N :=
  [10] ++ concat (map (fun '(a, r) => show_line a r) (combine (row_to_attr m) (matrix m))).

(** MonotoneSpanProgram::parse, msp.rs:151-159 *)
Definition msp_parse {K : FieldOps} (P : platform) (s : list N) : outcome (msp K) :=
  let* f := parse P s in
  let* m := to_msp P f in
  Ok (msp_map (@of_i32 K) m).

(** Boolean formulas over attributes and their monotone span programs,
    /repo/src/core/msp.rs. Model only, no proofs. *)
From Coq Require Import String NArith ZArith Bool List.
From Verif Require Import Prelude.
Import ListNotations.

(** [enum Node], /repo/src/core/msp.rs:177-182. Attributes are u32. *)
Inductive node :=
| And (a b : node)
| Or (a b : node)
| Leaf (v : N).

(** [struct MonotoneSpanProgram<I>], /repo/src/core/msp.rs:17-24. The map
    [attr_to_row] is an association list. *)
Record msp (I : Type) := mkMsp {
  nb_row : nat;
  nb_col : nat;
  matrix : list (list I);
  attr_to_row : list (N * nat);
  row_to_attr : list N
}.
Arguments mkMsp {I}.
Arguments nb_row {I}.
Arguments nb_col {I}.
Arguments matrix {I}.
Arguments attr_to_row {I}.
Arguments row_to_attr {I}.

(** [HashMap::get] on [attr_to_row]. *)
Fixpoint assoc_get (m : list (N * nat)) (a : N) : option nat :=
  match m with
  | [] => None
  | (b, r) :: t => if N.eqb b a then Some r else assoc_get t a
  end.

(** [get_row_from_attr], /repo/src/core/msp.rs:145-148. *)
Definition get_row_from_attr {I} (m : msp I) (attr : N) : option nat :=
  assoc_get (attr_to_row m) attr.

(** [get_attr_from_row], /repo/src/core/msp.rs:140-143 (indexing panics). *)
Definition get_attr_from_row {I} (m : msp I) (i : nat) : outcome N :=
  index (row_to_attr m) i.

(** [get_row], /repo/src/core/msp.rs:135-138 (indexing panics). *)
Definition get_row {I} (m : msp I) (row : nat) : outcome (list I) :=
  index (matrix m) row.

(** [From<&MonotoneSpanProgram<i32>>], /repo/src/core/msp.rs:161-175. *)
Definition msp_map {I J} (f : I -> J) (m : msp I) : msp J :=
  mkMsp (nb_row m) (nb_col m) (map (map f) (matrix m)) (attr_to_row m) (row_to_attr m).

(** Number of nodes of a formula: bounds the number of turns of the queue loop. *)
Fixpoint node_size (f : node) : nat :=
  match f with
  | And a b | Or a b => S (node_size a + node_size b)
  | Leaf _ => 1
  end.

(** The queue loop of [to_msp], /repo/src/core/msp.rs:218-243. [q] is the queue
    (front first), [counter] the number of columns so far, [rows] the vector
    [matrix] of the code (leaf, vector). The loop pops one node per turn; [fuel]
    bounds the turns. *)
Fixpoint to_msp_loop (fuel : nat) (q : list (node * list Z)) (counter : nat)
    (rows : list (node * list Z)) : outcome (nat * list (node * list Z)) :=
  match q with
  | [] => Ok (counter, rows)
  | (nd, vector) :: q' =>
      match fuel with
      | O => Panic OutOfFuel
      | S fuel' =>
          match nd with
          | And n1 n2 =>
              let vec_1 := resize vector counter 0%Z ++ [1%Z] in
              let vec_2 := repeat 0%Z counter ++ [(-1)%Z] in
              to_msp_loop fuel' (q' ++ [(n1, vec_1)] ++ [(n2, vec_2)]) (S counter) rows
          | Or n1 n2 =>
              to_msp_loop fuel' (q' ++ [(n1, vector)] ++ [(n2, vector)]) counter rows
          | Leaf v =>
              to_msp_loop fuel' q' counter (rows ++ [(Leaf v, vector)])
          end
      end
  end.

(** [for i in 1..vec.len() { vec[i] += vec[0]; }], /repo/src/core/msp.rs:261-263,
    with i32 additions. *)
Definition add_first_column (P : platform) (v : list Z) : outcome (list Z) :=
  match v with
  | [] => Ok []
  | x :: t => let* t' := mapM (fun y => i32_add P y x) t in Ok (x :: t')
  end.

(** Second loop of [to_msp], /repo/src/core/msp.rs:257-276. The accumulator holds
    [msp_matrix], [msp_map] and [msp_vec]; [i] is the enumeration index. *)
Fixpoint to_msp_rows (P : platform) (counter : nat) (i : nat) (rows : list (node * list Z))
    (mat : list (list Z)) (map_ : list (N * nat)) (vec_ : list N)
    : outcome (list (list Z) * list (N * nat) * list N) :=
  match rows with
  | [] => Ok (mat, map_, vec_)
  | (Leaf attr, v) :: rows' =>
      let* v' := add_first_column P (resize v counter 0%Z) in
      match assoc_get map_ attr with
      | Some _ => Err (Deserialization "error deserializing MSP, leaf already inserted")
      | None =>
          to_msp_rows P counter (S i) rows' (mat ++ [v']) (map_ ++ [(attr, i)]) (vec_ ++ [attr])
      end
  | _ :: _ => Err (Deserialization "error deserializing MSP, only leaf allowed")
  end.

(** [Node::to_msp], /repo/src/core/msp.rs:217-284. *)
Definition to_msp (P : platform) (f : node) : outcome (msp Z) :=
  let* (counter, rows) := to_msp_loop (node_size f) [(f, [1%Z])] 1 [] in
  let* (mat, map_, vec_) := to_msp_rows P counter 0 rows [] [] [] in
  Ok (mkMsp (length mat) counter mat map_ vec_).

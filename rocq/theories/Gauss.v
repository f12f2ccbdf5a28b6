(** Gauss-Jordan elimination used by decryption: [span_coefs],
    /repo/src/core/gpsw/scheme.rs:563-670. Model only, no proofs. *)
From Coq Require Import String NArith ZArith Bool List.
From Verif Require Import Prelude Field.
Import ListNotations.

(** [l[i] = x] without the bound check *)
Fixpoint set_nth {A} (l : list A) (i : nat) (x : A) : list A :=
  match l, i with
  | [], _ => []
  | _ :: t, O => x :: t
  | y :: t, S i' => y :: set_nth t i' x
  end.

(** [l[i] = x] *)
Definition write_at {A} (l : list A) (i : nat) (x : A) : outcome (list A) :=
  if Nat.ltb i (length l) then Ok (set_nth l i x) else Panic IndexOutOfBounds.

(** [l.swap(i, j)] *)
Definition swap_at {A} (l : list A) (i j : nat) : outcome (list A) :=
  let* x := index l i in
  let* y := index l j in
  let* l := write_at l i y in
  write_at l j x.

(** [for col in matrix.iter_mut().skip(k) { *col = g col }] *)
Definition update_from {A} (k : nat) (g : A -> outcome A) (m : list A) : outcome (list A) :=
  let* t := mapM g (skipn k m) in
  Ok (firstn k m ++ t).

(** for loop over a sequence threading a state *)
Fixpoint foldM {S A} (f : S -> A -> outcome S) (l : list A) (s : S) : outcome S :=
  match l with
  | [] => Ok s
  | a :: t => let* s' := f s a in foldM f t s'
  end.

Section Gauss.
Context {K : FieldOps}.

(** [matrix[c][r]] *)
Definition entry (m : list (list K)) (c r : nat) : outcome K :=
  let* col := index m c in index col r.

(** Search of the first non-zero entry of column [c], scheme.rs:597-606. *)
Fixpoint find_pivot (m : list (list K)) (c : nat) (rs : list nat) : outcome (option nat) :=
  match rs with
  | [] => Ok None
  | r :: t =>
      let* tmp := entry m c r in
      if feqb tmp f0 then find_pivot m c t else Ok (Some r)
  end.

(** Division of the pivot row by the pivot, scheme.rs:615-622. *)
Definition divide_row (m : list (list K)) (c p : nat) : outcome (list (list K)) :=
  let* v := entry m c p in
  if feqb v f1 then Ok m
  else
    let* col := index m c in
    let* col := write_at col p f1 in
    let* m := write_at m c col in
    update_from (c + 1) (fun col =>
      let* x := index col p in
      let* y := sdiv x v in
      write_at col p y) m.

(** Body of the two elimination loops, scheme.rs:625-631 and 635-641. *)
Definition eliminate_row (c p : nat) (m : list (list K)) (r : nat) : outcome (list (list K)) :=
  let* idx := entry m c r in
  if feqb idx f0 then Ok m
  else
    update_from c (fun col =>
      let* x := index col r in
      let* y := index col p in
      write_at col r (fsub x (fmul idx y))) m.

(** Main loop, scheme.rs:590-648. Each turn increments [curr_col], so
    [nb_col - curr_col] bounds the number of turns ([fuel]). Returns the matrix
    and [last_pivot_col]. *)
Fixpoint gauss_loop (fuel : nat) (nb_col nb_row : nat) (m : list (list K))
    (curr_row curr_col last_pivot_col : nat) : outcome (list (list K) * nat) :=
  if Nat.eqb curr_col nb_col || Nat.eqb curr_row nb_row then Ok (m, last_pivot_col)
  else
    match fuel with
    | O => Panic OutOfFuel
    | S fuel =>
        let* row := find_pivot m curr_col (seq curr_row (nb_row - curr_row)) in
        match row with
        | Some row =>
            let* m := mapM (fun col => swap_at col curr_row row) m in
            let* m := divide_row m curr_col curr_row in
            let* m := foldM (eliminate_row curr_col curr_row)
                            (seq (curr_row + 1) (nb_row - (curr_row + 1))) m in
            let* m := foldM (eliminate_row curr_col curr_row) (seq 0 curr_row) m in
            gauss_loop fuel nb_col nb_row m (curr_row + 1) (curr_col + 1) curr_col
        | None =>
            gauss_loop fuel nb_col nb_row m curr_row (curr_col + 1) last_pivot_col
        end
    end.

(** The [while] loop of the extraction, scheme.rs:656-662. [inl sol] is
    [break 'outer]. *)
Fixpoint skip_zeros (fuel : nat) (nb_col : nat) (m : list (list K)) (i cc : nat) (sol : list K)
    : outcome (list K + (nat * list K)) :=
  match fuel with
  | O => Panic OutOfFuel
  | S fuel =>
      let* e := entry m cc i in
      if feqb e f0 then
        let cc := cc + 1 in
        let sol := sol ++ [f0] in
        if Nat.eqb cc nb_col then Ok (inl sol)
        else skip_zeros fuel nb_col m i cc sol
      else Ok (inr (cc, sol))
  end.

(** The [for] loop of the extraction, scheme.rs:653-667. *)
Fixpoint extract (nb_col : nat) (m : list (list K)) (rs : list nat) (cc : nat) (sol : list K)
    : outcome (list K) :=
  match rs with
  | [] => Ok sol
  | i :: rs =>
      let* st := skip_zeros (S nb_col) nb_col m i cc sol in
      match st with
      | inl sol => Ok sol
      | inr (cc, sol) =>
          let* e := entry m cc i in
          if feqb e f1 then
            let* last :=
              match rev m with [] => Panic UnwrapNone | l :: _ => Ok l end in
            let* x := index last i in
            let cc := cc + 1 in
            let sol := sol ++ [x] in
            if Nat.eqb cc nb_col then Ok sol
            else extract nb_col m rs cc sol
          else Panic ExplicitPanic
      end
  end.

(** [span_coefs], scheme.rs:567-670. The caller does not look at the matrix
    afterwards, so only the result is returned. *)
Definition span_coefs (matrix : list (list K)) : outcome (option (list K)) :=
  match matrix with
  | [] | [] :: _ => Err (InternalOperation "empty input matrix")
  | row0 :: _ =>
      let m := matrix ++ [repeat f1 (length row0)] in
      let nb_col := length m in
      let nb_row := length row0 in
      let* (m, last_pivot_col) := gauss_loop nb_col nb_col nb_row m 0 0 0 in
      if Nat.eqb last_pivot_col (nb_col - 1) then Ok None
      else
        let* sol := extract nb_col m (seq 0 nb_row) 0 [] in
        Ok (Some (resize sol (nb_col - 1) f0))
  end.

End Gauss.

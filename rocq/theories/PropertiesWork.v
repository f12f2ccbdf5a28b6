(** How much work decryption, the parser of formulas and the construction of span programs do (C119). *)
From Coq Require Import String NArith ZArith Bool Arith Lia Strings.Byte List.
From Verif Require SchemeProofs.
From Verif Require Import Prelude Field Msp Spec MspProofs Gauss Bilinear Scheme SchemeSpec SchemeTheorems Zp ExpModel PropertiesScheme
  Codec CodecProofs SchemeCodec SchemeCodecProofs PropertiesCodec Parser ParserSpec ParserProofs PropertiesStack
  Policy PolicySpec PolicyProofs Engine EngineSpec EngineProofs PropertiesEngine PropertiesHostileKeys PropertiesDraws PropertiesSizes.
Import ListNotations.

(** ** Counting *)
(** A run of a function: what it returns and the number of steps it took. *)
Definition counted (A : Type) : Type := (outcome A * nat)%type.
Definition result {A} (m : counted A) : outcome A := fst m.
Definition steps {A} (m : counted A) : nat := snd m.
Definition done {A} (x : A) : counted A := (Ok x, 0).
(** [m] takes [n] steps *)
Definition taking {A} (n : nat) (m : outcome A) : counted A := (m, n).
(** An error or a panic ends the run: nothing more is counted. *)
Definition cbind {A B} (m : counted A) (k : A -> counted B) : counted B :=
  match result m with
  | Ok x => let r := k x in (result r, steps m + steps r)
  | Err e => (Err e, steps m)
  | Panic p => (Panic p, steps m)
  end.
Notation "'let+' x ':=' m 'in' k" := (cbind m (fun x => k))
  (at level 200, x pattern, m at level 100, k at level 200, right associativity).

Fixpoint mapC {A B} (f : A -> counted B) (l : list A) : counted (list B) :=
  match l with
  | [] => done []
  | x :: t => let+ y := f x in let+ ys := mapC f t in done (y :: ys)
  end.
Fixpoint foldC {S A} (f : S -> A -> counted S) (l : list A) (s : S) : counted S :=
  match l with
  | [] => done s
  | a :: t => let+ s' := f s a in foldC f t s'
  end.
Definition update_fromC {A} (k : nat) (g : A -> counted A) (m : list A) : counted (list A) :=
  let+ t := mapC g (skipn k m) in done (firstn k m ++ t).

(** ** The solver
    The functions of [Gauss.v] with a count, scheme.rs:563-670. One step is the handling of one entry of
    the matrix: it is read, compared with a constant, exchanged, divided, or has a product subtracted. *)
Section GaussC.
Context {K : FieldOps}.

(** scheme.rs:597-606 *)
Fixpoint find_pivotC (m : list (list K)) (c : nat) (rs : list nat) : counted (option nat) :=
  match rs with
  | [] => done None
  | r :: t =>
      let+ tmp := taking 1 (entry m c r) in
      if feqb tmp f0 then find_pivotC m c t else done (Some r)
  end.
(** scheme.rs:615-622 *)
Definition divide_rowC (m : list (list K)) (c p : nat) : counted (list (list K)) :=
  let+ v := taking 1 (entry m c p) in
  if feqb v f1 then done m
  else
    let+ m := taking 1 (let* col := index m c in let* col := write_at col p f1 in write_at m c col) in
    update_fromC (c + 1) (fun col => taking 1 (
      let* x := index col p in
      let* y := sdiv x v in
      write_at col p y)) m.
(** scheme.rs:625-631 and 635-641 *)
Definition eliminate_rowC (c p : nat) (m : list (list K)) (r : nat) : counted (list (list K)) :=
  let+ idx := taking 1 (entry m c r) in
  if feqb idx f0 then done m
  else
    update_fromC c (fun col => taking 1 (
      let* x := index col r in
      let* y := index col p in
      write_at col r (fsub x (fmul idx y)))) m.
(** scheme.rs:590-648 *)
Fixpoint gauss_loopC (fuel : nat) (nb_col nb_row : nat) (m : list (list K))
    (curr_row curr_col last_pivot_col : nat) : counted (list (list K) * nat) :=
  if Nat.eqb curr_col nb_col || Nat.eqb curr_row nb_row then done (m, last_pivot_col)
  else
    match fuel with
    | O => taking 0 (Panic OutOfFuel)
    | S fuel =>
        let+ row := find_pivotC m curr_col (seq curr_row (nb_row - curr_row)) in
        match row with
        | Some row =>
            let+ m := mapC (fun col => taking 1 (swap_at col curr_row row)) m in
            let+ m := divide_rowC m curr_col curr_row in
            let+ m := foldC (eliminate_rowC curr_col curr_row)
                            (seq (curr_row + 1) (nb_row - (curr_row + 1))) m in
            let+ m := foldC (eliminate_rowC curr_col curr_row) (seq 0 curr_row) m in
            gauss_loopC fuel nb_col nb_row m (curr_row + 1) (curr_col + 1) curr_col
        | None =>
            gauss_loopC fuel nb_col nb_row m curr_row (curr_col + 1) last_pivot_col
        end
    end.
(** scheme.rs:656-662 *)
Fixpoint skip_zerosC (fuel : nat) (nb_col : nat) (m : list (list K)) (i cc : nat) (sol : list K)
    : counted (list K + (nat * list K)) :=
  match fuel with
  | O => taking 0 (Panic OutOfFuel)
  | S fuel =>
      let+ e := taking 1 (entry m cc i) in
      if feqb e f0 then
        let cc := cc + 1 in
        let sol := sol ++ [f0] in
        if Nat.eqb cc nb_col then done (inl sol)
        else skip_zerosC fuel nb_col m i cc sol
      else done (inr (cc, sol))
  end.
(** scheme.rs:653-667 *)
Fixpoint extractC (nb_col : nat) (m : list (list K)) (rs : list nat) (cc : nat) (sol : list K)
    : counted (list K) :=
  match rs with
  | [] => done sol
  | i :: rs =>
      let+ st := skip_zerosC (S nb_col) nb_col m i cc sol in
      match st with
      | inl sol => done sol
      | inr (cc, sol) =>
          let+ e := taking 1 (entry m cc i) in
          if feqb e f1 then
            let+ x := taking 1 (let* last := match rev m with [] => Panic UnwrapNone | l :: _ => Ok l end in index last i) in
            let cc := cc + 1 in
            let sol := sol ++ [x] in
            if Nat.eqb cc nb_col then done sol
            else extractC nb_col m rs cc sol
          else taking 0 (Panic ExplicitPanic)
      end
  end.
(** scheme.rs:567-670. The column of ones and the final resize cost one step for each entry written. *)
Definition span_coefsC (matrix : list (list K)) : counted (option (list K)) :=
  match matrix with
  | [] | [] :: _ => taking 0 (Err (InternalOperation "empty input matrix"))
  | row0 :: _ =>
      let+ m := taking (length row0) (Ok (matrix ++ [repeat f1 (length row0)])) in
      let nb_col := length m in
      let nb_row := length row0 in
      let+ (m, last_pivot_col) := gauss_loopC nb_col nb_col nb_row m 0 0 0 in
      if Nat.eqb last_pivot_col (nb_col - 1) then done None
      else
        let+ sol := extractC nb_col m (seq 0 nb_row) 0 [] in
        taking (nb_col - 1) (Ok (Some (resize sol (nb_col - 1) f0)))
  end.
End GaussC.

(** ** Decryption
    scheme.rs:513-552. One more step for each attribute looked up in the key, each entry of a row cloned,
    each group element or coefficient taken into a list. The second part of the result is the number of
    terms of the product of pairings: each costs an exponentiation and a Miller loop
    (bls12_381.rs:320-330). *)
Section DecryptC.
Variable B : BilinearMap.
Notation K := (bm_K B).

Definition select_rowsC (ct : ciphertext B) (key : decryption_key B) : counted (list (list K * G1 B * G2 B)) :=
  let+ l := mapC (fun p : nat * N =>
      let '(i, attr) := p in
      let+ found := taking 1 (Ok (get_row_from_attr (dk_msp key) attr)) in
      match found with
      | Some row =>
          let+ r := taking 0 (get_row (dk_msp key) row) in
          let+ r := taking (length r) (Ok r) in
          let+ d := taking 1 (index (d_i key) row) in
          let+ e := taking 1 (index (e_i ct) i) in
          done [(r, d, e)]
      | None => done []
      end) (enumerate (gamma ct)) in
  done (concat l).
Definition keep_nonzeroC {A} (a : list K) (l : list A) : counted (list A) :=
  let+ ll := mapC (fun p : nat * A =>
      let '(i, x) := p in
      taking 1 (let* ai := index a i in Ok (if feqb ai f0 then [] else [x]))) (enumerate l) in
  done (concat ll).
Definition decryptC (ct : ciphertext B) (key : decryption_key B) : counted (option (Gt B) * nat) :=
  let+ sel := select_rowsC ct key in
  let+ a := span_coefsC (map (fun x => fst (fst x)) sel) in
  match a with
  | None => done (None, 0)
  | Some a =>
      let+ d := keep_nonzeroC a (map (fun x => snd (fst x)) sel) in
      let+ e := keep_nonzeroC a (map snd sel) in
      let+ a' := taking (length a) (Ok (filter (fun ai => negb (feqb ai f0)) a)) in
      done (Some (gt_div B (e_prime ct) (prod_gt_exp B d e a')), length a')
  end.
End DecryptC.
Arguments select_rowsC {B}.
Arguments keep_nonzeroC {B A}.
Arguments decryptC {B}.

(** ** The parser
    msp.rs:290-408. One step for each call and for each character that a pass over a text can meet: the test
    of the characters (295), the removal of the spaces (302), the search of the integer (306-320) and its
    conversion (321), the count of the closing parentheses (361), the search of the one that matches
    (369-381). *)
Fixpoint parseC (fuel : nat) (P : platform) (s : list N) : counted node :=
  match fuel with
  | O => taking 0 (Panic OutOfFuel)
  | S fuel =>
    let+ bad := taking (1 + length s) (Ok (match s with [] => true | _ => false end || existsb (fun c => negb (authorized c)) s)) in
    if bad then taking 0 (Err (ParsingError UnexpectedCharacter))
    else
      let+ new_s := taking (length s) (Ok (filter (fun c => negb (c =? ch_space)%N) s)) in
      let '(integer_str, rest) := take_digits new_s in
      let+ _ := taking (1 + length integer_str) (Ok Datatypes.tt) in
      match integer_str with
      | _ :: _ =>
          let+ integer := taking (length integer_str) (parse_u32 integer_str) in
          match rest with
          | [] => done (Leaf integer)
          | operator :: new_s =>
              if (operator =? ch_and)%N then let+ b := parseC fuel P new_s in done (And (Leaf integer) b)
              else if (operator =? ch_or)%N then let+ b := parseC fuel P new_s in done (Or (Leaf integer) b)
              else taking 0 (Err (ParsingError UnsupportedOperator))
          end
      | [] =>
          match new_s with
          | [] => taking 0 (Err (ParsingError UnexpectedEnd))
          | first_char :: new_s =>
              if negb (first_char =? ch_open)%N then taking 0 (Err (ParsingError UnexpectedCharacter))
              else
                let+ closed := taking (length new_s) (Ok (existsb (N.eqb ch_close) new_s)) in
                if negb closed then taking 0 (Err (ParsingError UnexpectedCharacter))
                else
                let+ close := taking (length new_s) (find_close P new_s 0 0) in
                let+ between := taking 0 (slice new_s 0 close) in
                let+ new_s := taking 0 (slice_from new_s (length between)) in
                let+ new_s := taking 0 (slice_from new_s 1) in
                match new_s with
                | [] => parseC fuel P between
                | operator :: new_s =>
                    if (operator =? ch_and)%N then
                      let+ a := parseC fuel P between in
                      let+ b := parseC fuel P new_s in done (And a b)
                    else if (operator =? ch_or)%N then
                      let+ a := parseC fuel P between in
                      let+ b := parseC fuel P new_s in done (Or a b)
                    else taking 0 (Err (ParsingError UnsupportedOperator))
                end
          end
      end
  end.

(** ** Span programs
    msp.rs:217-284. One step for each node taken from the queue, each entry of a vector written or added,
    each attribute looked up. *)
Fixpoint to_msp_loopC (fuel : nat) (q : list (node * list Z)) (counter : nat)
    (rows : list (node * list Z)) : counted (nat * list (node * list Z)) :=
  match q with
  | [] => done (counter, rows)
  | (nd, vector) :: q' =>
      match fuel with
      | O => taking 0 (Panic OutOfFuel)
      | S fuel' =>
          match nd with
          | And n1 n2 =>
              let+ vec_1 := taking (1 + length vector + (counter - length vector) + 1) (Ok (resize vector counter 0%Z ++ [1%Z])) in
              let+ vec_2 := taking (counter + 1) (Ok (repeat 0%Z counter ++ [(-1)%Z])) in
              to_msp_loopC fuel' (q' ++ [(n1, vec_1)] ++ [(n2, vec_2)]) (S counter) rows
          | Or n1 n2 =>
              let+ _ := taking (1 + length vector) (Ok Datatypes.tt) in
              to_msp_loopC fuel' (q' ++ [(n1, vector)] ++ [(n2, vector)]) counter rows
          | Leaf v =>
              let+ _ := taking 1 (Ok Datatypes.tt) in
              to_msp_loopC fuel' q' counter (rows ++ [(Leaf v, vector)])
          end
      end
  end.
Fixpoint to_msp_rowsC (P : platform) (counter : nat) (i : nat) (rows : list (node * list Z))
    (mat : list (list Z)) (map_ : list (N * nat)) (vec_ : list N)
    : counted (list (list Z) * list (N * nat) * list N) :=
  match rows with
  | [] => done (mat, map_, vec_)
  | (Leaf attr, v) :: rows' =>
      let+ v' := taking (counter - length v + counter) (add_first_column P (resize v counter 0%Z)) in
      let+ found := taking 1 (Ok (assoc_get map_ attr)) in
      match found with
      | Some _ => taking 0 (Err (Deserialization "error deserializing MSP, leaf already inserted"))
      | None =>
          to_msp_rowsC P counter (S i) rows' (mat ++ [v']) (map_ ++ [(attr, i)]) (vec_ ++ [attr])
      end
  | _ :: _ => taking 0 (Err (Deserialization "error deserializing MSP, only leaf allowed"))
  end.
Definition to_mspC (P : platform) (f : node) : counted (msp Z) :=
  let+ (counter, rows) := to_msp_loopC (node_size f) [(f, [1%Z])] 1 [] in
  let+ (mat, map_, vec_) := to_msp_rowsC P counter 0 rows [] [] [] in
  done (mkMsp (length mat) counter mat map_ vec_).

(** ** Counting does not change the results *)
Lemma result_bind {A B} (m : counted A) (k : A -> counted B) : result (cbind m k) = bind (result m) (fun x => result (k x)).
Proof. unfold cbind. destruct (result m); reflexivity. Qed.
Lemma bind_ext {A B} (m m' : outcome A) (k k' : A -> outcome B) : m = m' -> (forall x, k x = k' x) -> bind m k = bind m' k'.
Proof. intros -> H. destruct m'; cbn [bind]; [apply H|reflexivity..]. Qed.
Lemma bind_done {A} (m : outcome A) : bind m (fun x => Ok x) = m.
Proof. destruct m; reflexivity. Qed.
Lemma bind_assoc {A B C} (m : outcome A) (k : A -> outcome B) (l : B -> outcome C) : bind (bind m k) l = bind m (fun x => bind (k x) l).
Proof. destruct m; reflexivity. Qed.
Lemma mapC_result {A B} (f : A -> counted B) (g : A -> outcome B) l : (forall x, result (f x) = g x) -> result (mapC f l) = mapM g l.
Proof.
  intros H. induction l as [|x l IH]; [reflexivity|]. cbn [mapC mapM]. rewrite result_bind, H. apply bind_ext; [reflexivity|].
  intros y. rewrite result_bind, IH. reflexivity.
Qed.
Lemma foldC_result {S A} (f : S -> A -> counted S) (g : S -> A -> outcome S) l : (forall s x, result (f s x) = g s x) ->
  forall s, result (foldC f l s) = foldM g l s.
Proof.
  intros H. induction l as [|x l IH]; intros s; [reflexivity|]. cbn [foldC foldM]. rewrite result_bind, H. apply bind_ext; [reflexivity|exact IH].
Qed.
Lemma update_fromC_result {A} k (f : A -> counted A) (g : A -> outcome A) m : (forall x, result (f x) = g x) ->
  result (update_fromC k f m) = update_from k g m.
Proof. intros H. unfold update_fromC, update_from. rewrite result_bind, (mapC_result f g) by exact H. reflexivity. Qed.

Section GaussResults.
Context {K : FieldOps}.
Lemma find_pivotC_result (m : list (list K)) c rs : result (find_pivotC m c rs) = find_pivot m c rs.
Proof.
  induction rs as [|r rs IH]; [reflexivity|]. cbn [find_pivotC find_pivot]. rewrite result_bind. apply bind_ext; [reflexivity|].
  intros x. destruct (feqb x f0); [exact IH|reflexivity].
Qed.
Lemma divide_rowC_result (m : list (list K)) c p : result (divide_rowC m c p) = divide_row m c p.
Proof.
  unfold divide_rowC, divide_row. rewrite result_bind. apply bind_ext; [reflexivity|]. intros v. destruct (feqb v f1); [reflexivity|].
  rewrite result_bind. cbn [result taking fst]. rewrite bind_assoc. apply bind_ext; [reflexivity|]. intros col.
  rewrite bind_assoc. apply bind_ext; [reflexivity|]. intros col'. apply bind_ext; [reflexivity|]. intros m'.
  apply update_fromC_result. reflexivity.
Qed.
Lemma eliminate_rowC_result c p (m : list (list K)) r : result (eliminate_rowC c p m r) = eliminate_row c p m r.
Proof.
  unfold eliminate_rowC, eliminate_row. rewrite result_bind. apply bind_ext; [reflexivity|]. intros v. destruct (feqb v f0); [reflexivity|].
  apply update_fromC_result. reflexivity.
Qed.
Lemma gauss_loopC_result nc nr fuel : forall (m : list (list K)) r c l, result (gauss_loopC fuel nc nr m r c l) = gauss_loop fuel nc nr m r c l.
Proof.
  induction fuel as [|fuel IH]; intros m r c l; cbn [gauss_loopC gauss_loop]; destruct (Nat.eqb c nc || Nat.eqb r nr); try reflexivity.
  rewrite result_bind, find_pivotC_result. apply bind_ext; [reflexivity|]. intros [row|]; [|apply IH].
  rewrite result_bind. apply bind_ext; [apply mapC_result; reflexivity|]. intros m1.
  rewrite result_bind. apply bind_ext; [apply divide_rowC_result|]. intros m2.
  rewrite result_bind. apply bind_ext; [apply foldC_result; intros; apply eliminate_rowC_result|]. intros m3.
  rewrite result_bind. apply bind_ext; [apply foldC_result; intros; apply eliminate_rowC_result|]. intros m4. apply IH.
Qed.
Lemma skip_zerosC_result nc (m : list (list K)) i fuel : forall cc sol, result (skip_zerosC fuel nc m i cc sol) = skip_zeros fuel nc m i cc sol.
Proof.
  induction fuel as [|fuel IH]; intros cc sol; [reflexivity|]. cbn [skip_zerosC skip_zeros]. rewrite result_bind. apply bind_ext; [reflexivity|].
  intros e. destruct (feqb e f0); [|reflexivity]. destruct (Nat.eqb (cc + 1) nc); [reflexivity|apply IH].
Qed.
Lemma extractC_result nc (m : list (list K)) rs : forall cc sol, result (extractC nc m rs cc sol) = extract nc m rs cc sol.
Proof.
  induction rs as [|i rs IH]; intros cc sol; [reflexivity|]. cbn [extractC extract]. rewrite result_bind. apply bind_ext; [apply skip_zerosC_result|].
  intros [s|[cc' s]]; [reflexivity|]. rewrite result_bind. apply bind_ext; [reflexivity|]. intros e. destruct (feqb e f1); [|reflexivity].
  rewrite result_bind. cbn [result taking fst]. rewrite bind_assoc. apply bind_ext; [reflexivity|]. intros last. apply bind_ext; [reflexivity|].
  intros x. cbv zeta. destruct (Nat.eqb (cc' + 1) nc); [reflexivity|apply IH].
Qed.
Lemma span_coefsC_result (m : list (list K)) : result (span_coefsC m) = span_coefs m.
Proof.
  unfold span_coefsC, span_coefs. destruct m as [|[|x r] m]; [reflexivity..|]. rewrite result_bind. cbn [result taking fst bind].
  rewrite result_bind. apply bind_ext; [apply gauss_loopC_result|]. intros [m' l]. destruct (Nat.eqb _ _); [reflexivity|].
  rewrite result_bind. apply bind_ext; [apply extractC_result|]. reflexivity.
Qed.
End GaussResults.

Section DecryptResults.
Variable B : BilinearMap.
Notation K := (bm_K B).
Lemma select_rowsC_result (ct : ciphertext B) key : result (select_rowsC ct key) = select_rows ct key.
Proof.
  unfold select_rowsC, select_rows. rewrite result_bind. apply bind_ext; [|reflexivity]. apply mapC_result. intros [i a].
  rewrite result_bind. cbn [result taking fst bind]. destruct (get_row_from_attr (dk_msp key) a) as [r|]; [|reflexivity].
  rewrite result_bind. apply bind_ext; [reflexivity|]. intros row. rewrite result_bind. cbn [result taking fst bind].
  rewrite result_bind. apply bind_ext; [reflexivity|]. intros d. rewrite result_bind. reflexivity.
Qed.
Lemma keep_nonzeroC_result {A} (a : list K) (l : list A) : result (keep_nonzeroC a l) = keep_nonzero a l.
Proof.
  unfold keep_nonzeroC, keep_nonzero. rewrite result_bind. apply bind_ext; [|reflexivity]. apply mapC_result. intros [i x]. reflexivity.
Qed.
(** Decryption with a count returns what decryption returns. *)
Theorem C119_decrypt_result (ct : ciphertext B) key : (let* x := result (decryptC ct key) in Ok (fst x)) = decrypt ct key.
Proof.
  unfold decryptC, decrypt. rewrite result_bind, bind_assoc. apply bind_ext; [apply select_rowsC_result|]. intros sel.
  rewrite result_bind, bind_assoc. apply bind_ext; [apply span_coefsC_result|]. intros [a|]; [|reflexivity].
  rewrite result_bind, bind_assoc. apply bind_ext; [apply keep_nonzeroC_result|]. intros d.
  rewrite result_bind, bind_assoc. apply bind_ext; [apply keep_nonzeroC_result|]. intros e. reflexivity.
Qed.
End DecryptResults.

Theorem C119_parse_result P fuel s : result (parseC fuel P s) = parse_fuel fuel P s.
Proof.
  revert s. induction fuel as [|fuel IH]; intros s; [reflexivity|]. cbn [parseC parse_fuel]. rewrite result_bind. cbn [result taking fst bind].
  destruct (_ || _); [reflexivity|]. rewrite result_bind. cbn [result taking fst bind]. destruct (take_digits _) as [d r].
  rewrite result_bind. cbn [result taking fst bind]. destruct d as [|x d].
  2:{ rewrite result_bind. apply bind_ext; [reflexivity|]. intros v. destruct r as [|op r]; [reflexivity|].
      destruct (op =? ch_and)%N; [rewrite result_bind, IH; reflexivity|]. destruct (op =? ch_or)%N; [rewrite result_bind, IH; reflexivity|reflexivity]. }
  destruct (filter _ s) as [|c t]; [reflexivity|]. destruct (negb (c =? ch_open)%N); [reflexivity|].
  rewrite result_bind. cbn [result taking fst bind]. destruct (negb _); [reflexivity|].
  rewrite result_bind. apply bind_ext; [reflexivity|]. intros close. rewrite result_bind. apply bind_ext; [reflexivity|]. intros b.
  rewrite result_bind. apply bind_ext; [reflexivity|]. intros t1. rewrite result_bind. apply bind_ext; [reflexivity|]. intros t2.
  destruct t2 as [|op t3]; [apply IH|].
  destruct (op =? ch_and)%N; [|destruct (op =? ch_or)%N; [|reflexivity]]; rewrite result_bind; apply bind_ext; try apply IH; intros x;
    rewrite result_bind, IH; reflexivity.
Qed.

Lemma to_msp_loopC_result fuel : forall q c rows, result (to_msp_loopC fuel q c rows) = to_msp_loop fuel q c rows.
Proof.
  induction fuel as [|fuel IH]; intros q c rows; destruct q as [|[nd v] q]; try reflexivity. cbn [to_msp_loopC to_msp_loop].
  destruct nd as [a b|a b|x]; rewrite ?result_bind; cbn [result taking fst bind]; rewrite ?result_bind; cbn [result taking fst bind]; apply IH.
Qed.
Lemma to_msp_rowsC_result P c rows : forall i mat m v, result (to_msp_rowsC P c i rows mat m v) = to_msp_rows P c i rows mat m v.
Proof.
  induction rows as [|[[a b|a b|x] w] rows IH]; intros i mat m v; try reflexivity. cbn [to_msp_rowsC to_msp_rows].
  rewrite result_bind. apply bind_ext; [reflexivity|]. intros v'. rewrite result_bind. cbn [result taking fst bind]. destruct (assoc_get m x); [reflexivity|apply IH].
Qed.
Theorem C119_to_msp_result P f : result (to_mspC P f) = to_msp P f.
Proof.
  unfold to_mspC, to_msp. rewrite result_bind. apply bind_ext; [apply to_msp_loopC_result|]. intros [c rows].
  rewrite result_bind. apply bind_ext; [apply to_msp_rowsC_result|]. intros [[mat m] v]. reflexivity.
Qed.

(** ** Bounds *)
(** At most [n] steps, and a result with property [Q] if there is one. *)
Definition within {A} (n : nat) (Q : A -> Prop) (m : counted A) : Prop := steps m <= n /\ forall x, result m = Ok x -> Q x.
Lemma within_bind {A B} n1 n2 (Q : A -> Prop) (R : B -> Prop) (m : counted A) (k : A -> counted B) :
  within n1 Q m -> (forall x, Q x -> within n2 R (k x)) -> within (n1 + n2) R (cbind m k).
Proof.
  intros [H1 H2] H. unfold within, cbind. destruct (result m) as [x|e|p] eqn:E.
  - destruct (H x (H2 x eq_refl)) as [H3 H4]. cbn [steps result fst snd] in *. split; [lia|exact H4].
  - cbn [steps result snd fst]. split; [unfold steps in *; lia|discriminate].
  - cbn [steps result snd fst]. split; [unfold steps in *; lia|discriminate].
Qed.
Lemma within_weaken {A} n n' (Q Q' : A -> Prop) m : within n Q m -> n <= n' -> (forall x, Q x -> Q' x) -> within n' Q' m.
Proof. intros [H1 H2] H3 H4. split; [lia|]. intros x E. apply H4, H2, E. Qed.
Lemma within_done {A} n (Q : A -> Prop) x : Q x -> within n Q (done x).
Proof. intros H. split; [apply Nat.le_0_l|]. intros y E. injection E as <-. exact H. Qed.
Lemma within_taking {A} n n' (Q : A -> Prop) m : n <= n' -> (forall x, m = Ok x -> Q x) -> within n' Q (taking n m).
Proof. intros H1 H2. split; [exact H1|exact H2]. Qed.
Lemma mapC_within {A B} n (f : A -> counted B) l : (forall x, In x l -> within n (fun _ => True) (f x)) ->
  within (length l * n) (fun r => length r = length l) (mapC f l).
Proof.
  induction l as [|x l IH]; intros H; [apply within_done; reflexivity|]. cbn [mapC length]. change (S (length l) * n) with (n + length l * n).
  apply within_bind with (Q := fun _ => True); [apply H; left; reflexivity|]. intros y _.
  replace (length l * n) with (length l * n + 0) by lia. apply within_bind with (Q := fun r => length r = length l).
  - apply IH. intros z Hz. apply H. right. exact Hz.
  - intros ys Hy. apply within_done. cbn [length]. lia.
Qed.
Lemma update_fromC_within {A} k (f : A -> counted A) m : (forall x, within 1 (fun _ => True) (f x)) ->
  within (length m) (fun r => length r = length m) (update_fromC k f m).
Proof.
  intros H. unfold update_fromC. apply (within_weaken ((length m - k) * 1 + 0) (length m) (fun r => length r = Nat.min k (length m) + (length m - k))).
  - apply within_bind with (Q := fun r => length r = length m - k).
    + rewrite <- skipn_length. apply mapC_within. intros x _. apply H.
    + intros t Ht. apply within_done. rewrite app_length, firstn_length, Ht. reflexivity.
  - lia.
  - intros x Hx. lia.
Qed.
Lemma foldC_within {S A} n (Q : S -> Prop) (f : S -> A -> counted S) l : (forall s x, Q s -> within n Q (f s x)) ->
  forall s, Q s -> within (length l * n) Q (foldC f l s).
Proof.
  intros H. induction l as [|x l IH]; intros s Hs; [apply within_done; exact Hs|]. cbn [foldC length]. change (Datatypes.S (length l) * n) with (n + length l * n).
  apply within_bind with (Q := Q); [apply H, Hs|exact IH].
Qed.
Lemma taking_1 {A} (m : outcome A) : within 1 (fun _ => True) (taking 1 m).
Proof. apply within_taking; [lia|trivial]. Qed.

Lemma some_inj {A} (x y : A) : Some x = Some y -> x = y.
Proof. congruence. Qed.

Section GaussBounds.
Context {K : FieldOps}.
Lemma find_pivotC_within (m : list (list K)) c rs : within (length rs) (fun _ => True) (find_pivotC m c rs).
Proof.
  induction rs as [|r rs IH]; [apply within_done; trivial|]. cbn [find_pivotC length]. change (S (length rs)) with (1 + length rs).
  apply within_bind with (Q := fun _ => True); [apply taking_1|]. intros x _. destruct (feqb x f0); [exact IH|apply within_done; trivial].
Qed.
Lemma write_at_length {A} (l : list A) i x l' : write_at l i x = Ok l' -> length l' = length l.
Proof.
  unfold write_at. destruct (Nat.ltb i (length l)); [|discriminate]. intros E. injection E as <-. revert i.
  induction l as [|y l IH]; intros [|i]; cbn [set_nth length]; try reflexivity. rewrite IH. reflexivity.
Qed.
Lemma divide_rowC_within (m : list (list K)) c p : within (2 + length m) (fun r => length r = length m) (divide_rowC m c p).
Proof.
  unfold divide_rowC. change (2 + length m) with (1 + (1 + length m)). apply within_bind with (Q := fun _ => True); [apply taking_1|].
  intros v _. destruct (feqb v f1); [apply within_done; reflexivity|].
  apply within_bind with (Q := fun r => length r = length m).
  - apply within_taking; [lia|]. intros x E. destruct (index m c) as [col| |]; try discriminate. cbn [bind] in E.
    destruct (write_at col p f1) as [col'| |]; try discriminate. cbn [bind] in E. eapply write_at_length, E.
  - intros m' Hm. rewrite <- Hm. apply update_fromC_within. intros x. apply taking_1.
Qed.
Lemma eliminate_rowC_within C c p (m : list (list K)) r : length m = C -> within (1 + C) (fun r => length r = C) (eliminate_rowC c p m r).
Proof.
  intros H. unfold eliminate_rowC. apply within_bind with (Q := fun _ => True); [apply taking_1|]. intros v _.
  destruct (feqb v f0); [apply within_done; exact H|]. rewrite <- H. apply update_fromC_within. intros x. apply taking_1.
Qed.
(** one turn of the main loop with a pivot *)
Definition turn (C R : nat) : nat := C + (2 + C) + R * (1 + C).
Lemma gauss_loopC_within C R fuel : forall (m : list (list K)) r c l, length m = C -> r <= R -> c <= C ->
  within ((C - c) * R + (R - r) * turn C R) (fun x => length (fst x) = C) (gauss_loopC fuel C R m r c l).
Proof.
  induction fuel as [|fuel IH]; intros m r c l Hm Hr Hc; cbn [gauss_loopC]; destruct (Nat.eqb_spec c C) as [E1|E1]; cbn [orb].
  1,3: apply within_done; exact Hm.
  all: destruct (Nat.eqb_spec r R) as [E2|E2]; [apply within_done; exact Hm|].
  - apply within_taking; [apply Nat.le_0_l|discriminate].
  - eapply within_weaken with (n := (R - r) + ((C - (c + 1)) * R + (R - r) * turn C R)); [|replace (C - c) with (S (C - (c + 1))) by lia; rewrite Nat.mul_succ_l; lia|intros x Hx; exact Hx].
    apply within_bind with (Q := fun _ => True).
    { pose proof (find_pivotC_within m c (seq r (R - r))) as H. rewrite seq_length in H. exact H. }
    intros [row|] _; [|apply IH; lia].
    eapply within_weaken with (n := C + ((2 + C) + ((R - (r + 1)) * (1 + C) + (r * (1 + C) + ((C - (c + 1)) * R + (R - (r + 1)) * turn C R)))));
      [| |intros x Hx; exact Hx].
    2:{ unfold turn. replace (R - r) with (S (R - (r + 1))) by lia. assert (R - (r + 1) + r <= R) by lia. nia. }
    apply within_bind with (Q := fun x => length x = C).
    { eapply within_weaken; [apply (mapC_within 1); intros x _; apply taking_1|lia|cbv beta; intros x Hx; congruence]. }
    intros m1 H1. apply within_bind with (Q := fun x => length x = C).
    { rewrite <- H1. apply divide_rowC_within. }
    intros m2 H2. apply within_bind with (Q := fun x => length x = C).
    { pose proof (foldC_within (1 + C) (fun x : list (list K) => length x = C) (eliminate_rowC c r) (seq (r + 1) (R - (r + 1)))
        (fun s x Hs => eliminate_rowC_within C c r s x Hs) m2 H2) as H. rewrite seq_length in H. exact H. }
    intros m3 H3. apply within_bind with (Q := fun x => length x = C).
    { pose proof (foldC_within (1 + C) (fun x : list (list K) => length x = C) (eliminate_rowC c r) (seq 0 r)
        (fun s x Hs => eliminate_rowC_within C c r s x Hs) m3 H3) as H. rewrite seq_length in H. exact H. }
    intros m4 H4. apply IH; lia.
Qed.

(** the number of entries that are not zero *)
Definition nonzeros (l : list K) : nat := length (filter (fun x => negb (feqb x f0)) l).
Lemma nonzeros_app l1 l2 : nonzeros (l1 ++ l2) = nonzeros l1 + nonzeros l2.
Proof. unfold nonzeros. rewrite filter_app, app_length. reflexivity. Qed.
Lemma nonzeros_length l : nonzeros l <= length l.
Proof. unfold nonzeros. induction l as [|x l IH]; [reflexivity|]. cbn [filter length]. destruct (negb _); cbn [length]; lia. Qed.

Hypothesis zero_zero : feqb (f0 : K) f0 = true.
Lemma nonzeros_zero : nonzeros [f0] = 0.
Proof. unfold nonzeros. cbn [filter]. rewrite zero_zero. reflexivity. Qed.
Lemma nonzeros_zeros n : nonzeros (repeat f0 n) = 0.
Proof. induction n as [|n IH]; [reflexivity|]. change (repeat f0 (S n)) with ([f0 : K] ++ repeat f0 n). rewrite nonzeros_app, nonzeros_zero, IH. reflexivity. Qed.

Lemma skip_zerosC_within C (m : list (list K)) i fuel : forall cc sol, cc < C ->
  within (C - cc) (fun st => match st with inl s => nonzeros s = nonzeros sol | inr (cc', s) => cc <= cc' < C /\ nonzeros s = nonzeros sol end)
    (skip_zerosC fuel C m i cc sol) /\
  (forall cc' s, result (skip_zerosC fuel C m i cc sol) = Ok (inr (cc', s)) -> steps (skip_zerosC fuel C m i cc sol) = cc' - cc + 1 /\ cc <= cc').
Proof.
  induction fuel as [|fuel IH]; intros cc sol Hc; cbn [skip_zerosC].
  { split; [apply within_taking; [lia|discriminate]|intros; discriminate]. }
  assert (N : nonzeros (sol ++ [f0]) = nonzeros sol) by (rewrite nonzeros_app, nonzeros_zero; lia).
  unfold cbind. cbn [result taking fst steps snd]. destruct (entry m cc i) as [e|e|p].
  2,3: split; [split; [cbn; lia|discriminate]|intros; discriminate].
  destruct (feqb e f0).
  - destruct (Nat.eqb_spec (cc + 1) C) as [E|E].
    + split; [split; [cbn; lia|intros x Hx; injection Hx as <-; exact N]|intros; discriminate].
    + destruct (IH (cc + 1) (sol ++ [f0]) ltac:(lia)) as [[H1 H2] H3]. split.
      * split; [cbn [steps snd] in *; lia|]. intros x Hx. specialize (H2 x Hx). destruct x as [s|[cc' s]]; [lia|]. destruct H2. split; lia.
      * intros cc' s Hx. destruct (H3 cc' s Hx) as [H4 H5]. cbn [steps snd] in *. lia.
  - split; [split; [cbn; lia|intros x Hx; injection Hx as <-; split; [lia|reflexivity]]|].
    intros cc' s Hx. injection Hx as <- <-. cbn. lia.
Qed.
Lemma extractC_within C (m : list (list K)) rs : forall cc sol, cc < C ->
  within (C - cc + 3 * length rs) (fun s => nonzeros s <= nonzeros sol + length rs) (extractC C m rs cc sol).
Proof.
  induction rs as [|i rs IH]; intros cc sol Hc; [apply within_done; cbn [length]; lia|]. cbn [extractC length].
  destruct (skip_zerosC_within C m i (S C) cc sol Hc) as [[H1 H2] H3]. unfold cbind at 1.
  set (sk := skip_zerosC (S C) C m i cc sol) in *. clearbody sk.
  destruct (result sk) as [st|e|p]; [|split; [cbn [steps snd] in *; lia|discriminate]..].
  destruct st as [s|[cc' s]].
  - cbn [done result steps fst snd]. specialize (H2 _ eq_refl). cbv beta in H2. split; [cbn [steps snd] in *; lia|]. intros x Hx. injection Hx as <-. rewrite H2. lia.
  - specialize (H2 _ eq_refl) as [H2 H4]. destruct (H3 cc' s eq_refl) as [H5 H6].
    assert (W : within (1 + (1 + (C - (cc' + 1) + 3 * length rs))) (fun x => nonzeros x <= nonzeros sol + S (length rs))
      (let+ e := taking 1 (entry m cc' i) in
       if feqb e f1 then
         let+ x := taking 1 (let* last := match rev m with [] => Panic UnwrapNone | l :: _ => Ok l end in index last i) in
         if Nat.eqb (cc' + 1) C then done (s ++ [x]) else extractC C m rs (cc' + 1) (s ++ [x])
       else taking 0 (Panic ExplicitPanic))).
    { apply within_bind with (Q := fun _ => True); [apply taking_1|]. intros e _. destruct (feqb e f1); [|apply within_taking; [lia|discriminate]].
      apply within_bind with (Q := fun _ => True); [apply taking_1|]. intros x _.
      pose proof (nonzeros_length [x]) as Nx. cbn [length] in Nx.
      destruct (Nat.eqb_spec (cc' + 1) C) as [E|E]; [apply within_done; rewrite nonzeros_app; lia|].
      eapply within_weaken; [apply IH; lia|lia|]. intros y Hy. cbv beta in Hy. rewrite nonzeros_app in Hy. lia. }
    destruct W as [W1 W2]. split; [|exact W2]. unfold steps in *. cbn [snd]. lia.
Qed.

(** The solver takes a number of steps proportional to the number of vectors and to the square of their length. *)
Lemma span_coefsC_within (m : list (list K)) R : (forall r, In r m -> length r <= R) -> 1 <= R ->
  within (10 * (R * R) * (length m + 1)) (fun a => forall x, a = Some x -> nonzeros x <= R /\ length x = length m) (span_coefsC m).
Proof.
  intros H HR. unfold span_coefsC. destruct m as [|[|x r] m]; [apply within_taking; [lia|discriminate]..|].
  set (r0 := x :: r) in *. set (n := length (r0 :: m)). assert (Hr : length r0 <= R) by (apply H; left; reflexivity).
  assert (H1 : 1 <= length r0) by (cbn; lia). assert (Hn : 1 <= n) by (cbn; lia). set (R0 := length r0) in *.
  eapply within_weaken with (n := R0 + (((n + 1 - 0) * R0 + (R0 - 0) * turn (n + 1) R0) + ((n + 1 - 0 + 3 * R0) + n))); [| |intros y Hy; exact Hy].
  2:{ unfold turn. rewrite !Nat.sub_0_r. transitivity (10 * (R0 * R0) * (n + 1)).
      { assert (A1 : R0 <= R0 * R0) by nia. assert (A2 : R0 * (n + 1) <= R0 * R0 * (n + 1)) by (apply Nat.mul_le_mono_r, A1).
        assert (A3 : (n + 1) <= R0 * (n + 1)) by nia. assert (A4 : R0 * R0 * 2 <= R0 * R0 * (n + 1)) by (apply Nat.mul_le_mono_l; lia).
        nia. } apply Nat.mul_le_mono_r, Nat.mul_le_mono_l, Nat.mul_le_mono; assumption. }
  apply within_bind with (Q := fun y => length y = n + 1).
  { apply within_taking; [lia|]. intros y Hy. injection Hy as <-. rewrite app_comm_cons, app_length. reflexivity. }
  intros m1 E1. rewrite E1. apply within_bind with (Q := fun y => length (fst y) = n + 1); [apply gauss_loopC_within; lia|].
  intros [m2 l] E2. destruct (Nat.eqb _ _); [apply within_done; discriminate|].
  apply within_bind with (Q := fun y => nonzeros y <= R0).
  { pose proof (extractC_within (n + 1) m2 (seq 0 R0) 0 [] ltac:(lia)) as W. rewrite seq_length in W. exact W. }
  intros sol Hs. replace (n + 1 - 1) with n by lia. apply within_taking; [lia|]. intros a Ha y Hy. subst a.
  apply Ok_inj in Ha. apply some_inj in Ha. subst y.
  unfold resize. rewrite nonzeros_app, nonzeros_zeros, app_length, firstn_length, repeat_length.
  rewrite <- (firstn_skipn n sol), nonzeros_app in Hs. split; lia.
Qed.
End GaussBounds.

Section DecryptBounds.
Variable B : BilinearMap.
Variable BL : BilinearLaws B.
Notation K := (bm_K B).

Lemma zero_is_zero : feqb (f0 : K) f0 = true.
Proof using BL. apply (fl_eqb K (bl_field B BL)). reflexivity. Qed.

Lemma in_index {A} (l : list A) i x : index l i = Ok x -> In x l.
Proof. unfold index. destruct (nth_error l i) eqn:E; [|discriminate]. intros H. injection H as <-. eapply nth_error_In, E. Qed.
Lemma mapC_in {A C} n (Q : C -> Prop) (f : A -> counted C) l : (forall x, within n Q (f x)) ->
  within (length l * n) (fun r => length r = length l /\ Forall Q r) (mapC f l).
Proof.
  intros H. induction l as [|x l IH]; [apply within_done; split; [reflexivity|constructor]|]. cbn [mapC length].
  change (Datatypes.S (length l) * n) with (n + length l * n).
  apply within_bind with (Q := Q); [apply H|]. intros y Hy.
  replace (length l * n) with (length l * n + 0) by lia. eapply within_bind; [exact IH|].
  intros ys [H1 H2]. apply within_done. split; [cbn [length]; lia|constructor; assumption].
Qed.
Lemma select_rowsC_within (ct : ciphertext B) key R : (forall r, In r (matrix (dk_msp key)) -> length r <= R) ->
  within (length (gamma ct) * (R + 3))
    (fun sel => length sel <= length (gamma ct) /\ forall r, In r (map (fun x => fst (fst x)) sel) -> length r <= R) (select_rowsC ct key).
Proof using Type.
  intros H. unfold select_rowsC. replace (length (gamma ct) * (R + 3)) with (length (enumerate (gamma ct)) * (R + 3) + 0)
    by (unfold enumerate; rewrite combine_length, seq_length; lia).
  eapply within_bind.
  - apply (mapC_in (R + 3) (fun l => length l <= 1 /\ forall x, In x l -> length (fst (fst x)) <= R)). intros [i a].
    eapply within_weaken with (n := 1 + (R + 2)); [|lia|intros x Hx; exact Hx].
    apply within_bind with (Q := fun _ => True); [apply taking_1|]. intros [row|] _.
    + eapply within_weaken with (n := 0 + (R + (1 + (1 + 0)))); [|lia|intros x Hx; exact Hx].
      apply within_bind with (Q := fun r => length r <= R).
      { apply within_taking; [lia|]. intros r E. apply H. unfold get_row in E. eapply in_index, E. }
      intros r Hr. apply within_bind with (Q := fun r' => r' = r); [apply within_taking; [exact Hr|intros x E; injection E as <-; reflexivity]|].
      intros r' ->. apply within_bind with (Q := fun _ => True); [apply taking_1|]. intros d _.
      apply within_bind with (Q := fun _ => True); [apply taking_1|]. intros e _. apply within_done. split; [cbn; lia|].
      intros x [<-|[]]. exact Hr.
    + apply within_done. split; [cbn; lia|]. intros x [].
  - intros l [H1 H2]. apply within_done. unfold enumerate in H1. rewrite combine_length, seq_length, Nat.min_id in H1. rewrite <- H1. clear H1. split.
    + induction H2 as [|x l [Hx _] _ IH]; [reflexivity|]. cbn [concat length]. rewrite app_length. lia.
    + intros r Hr. apply in_map_iff in Hr as (x & <- & Hx). apply in_concat in Hx as (y & Hy & Hx).
      rewrite Forall_forall in H2. destruct (H2 y Hy) as [_ H3]. apply H3, Hx.
Qed.
Lemma keep_nonzeroC_within {A} (a : list K) (l : list A) : within (length l) (fun _ => True) (keep_nonzeroC a l).
Proof using Type.
  unfold keep_nonzeroC. replace (length l) with (length (enumerate l) * 1 + 0) by (unfold enumerate; rewrite combine_length, seq_length; lia).
  eapply within_bind; [apply (mapC_within 1); intros [i x] _; apply taking_1|]. intros ll _. apply within_done. trivial.
Qed.

(** ** Decryption *)
(** Whatever the ciphertext and the key, decryption takes a number of steps proportional to the number of
    attributes of the ciphertext and to the square of the length of the rows of the key, and the product has
    at most as many pairings as a row has entries, and as the ciphertext has attributes. *)
Theorem C119_decrypt (ct : ciphertext B) key R : (forall r, In r (matrix (dk_msp key)) -> length r <= R) -> 1 <= R ->
  steps (decryptC ct key) <= 20 * (R * R) * (length (gamma ct) + 1) /\
  forall m pairings, result (decryptC ct key) = Ok (m, pairings) -> pairings <= R /\ pairings <= length (gamma ct).
Proof using BL.
  intros H HR. set (n := length (gamma ct)).
  enough (W : within (20 * (R * R) * (n + 1)) (fun x => snd x <= R /\ snd x <= n) (decryptC ct key)).
  { destruct W as [W1 W2]. split; [exact W1|]. intros m q E. exact (W2 _ E). }
  eapply within_weaken with (n := n * (R + 3) + (10 * (R * R) * (n + 1) + (n + (n + (n + 0))))); [|nia|intros x Hx; exact Hx].
  unfold decryptC. eapply within_bind; [apply (select_rowsC_within ct key R H)|]. intros sel [Hl Hs]. fold n in Hl.
  eapply within_bind.
  { eapply within_weaken; [apply (span_coefsC_within zero_is_zero _ R Hs HR)| |intros x Hx; exact Hx]. rewrite map_length. nia. }
  intros [a|] Ha; [|apply within_done; cbn; lia]. destruct (Ha a eq_refl) as [H1 H2]. rewrite map_length in H2. clear Ha.
  apply within_bind with (Q := fun _ => True).
  { eapply within_weaken; [apply keep_nonzeroC_within|rewrite map_length; exact Hl|trivial]. }
  intros d _. apply within_bind with (Q := fun _ => True).
  { eapply within_weaken; [apply keep_nonzeroC_within|rewrite map_length; exact Hl|trivial]. }
  intros e _. apply within_bind with (Q := fun x => length x <= R /\ length x <= n).
  { apply within_taking; [lia|]. intros x E. apply Ok_inj in E. subst x. pose proof (nonzeros_length a) as Hn. unfold nonzeros in *. split; lia. }
  intros a' Ha. apply within_done. exact Ha.
Qed.

(** With a key for an access policy, however it was refreshed and delegated, only the number of conjunctions of
    the policy counts, not its rotations or its attributes. *)
Theorem C119_access_policies P p p0 (mdraw : nat -> K) mk ap uk (ct : ciphertext B) :
  eng_master_key p0 mdraw = Ok mk -> user_key P mk p ap uk ->
  let c := conjunctions ap + 1 in
  steps (decryptC ct uk) <= 20 * (c * c) * (length (gamma ct) + 1) /\
  forall m pairings, result (decryptC ct uk) = Ok (m, pairings) -> pairings <= c /\ pairings <= length (gamma ct).
Proof using BL.
  intros Hmk Hk c. destruct (user_key_formula B P mk p ap uk Hk) as (it & f & Hit & Ef & Em & Ho).
  destruct (generate_master_key_inv B BL _ _ _ Hmk) as (t & y & -> & Ht & Hnz).
  destruct (obtained_rep B BL P t y f uk Hnz Ho) as (m & sg & _ & R & _). apply C119_decrypt; [|unfold c; lia].
  rewrite (SchemeProofs.kr_dk _ _ _ _ _ _ R). cbn [msp_map matrix]. intros r Hr. apply in_map_iff in Hr as (r' & <- & Hr).
  rewrite map_length, (mo_width _ _ _ (SchemeProofs.kr_msp _ _ _ _ _ _ R) r' Hr), (mo_cols _ _ _ (SchemeProofs.kr_msp _ _ _ _ _ _ R)).
  rewrite (key_formula_count _ _ _ _ Ef). unfold c. lia.
Qed.

(** With any bytes in the place of the key and of the ciphertext. *)
Section Bytes.
Variable F : byte_forms B.
Variable fine : Gt B -> Prop.
Hypothesis HF : forms_ok F fine.
Variable P : platform.
Hypothesis HP : (64 <= usize_bits P)%N.

Lemma columns_fit bytes m : in_memory bytes -> msp_dec P (scalar_codec F) bytes = Ok m -> (32 * N.of_nat (Nat.max 1 (nb_col m)) <= blen bytes)%N.
Proof using HF HP.
  intros Hin Hm. assert (Hfit : (blen bytes < usize_modulus P)%N) by (apply (in_memory_fits P HP), Hin). pose proof (big64 P HP) as Hbig.
  unfold msp_dec in Hm. destruct (N.ltb_spec (blen bytes) 8) as [|H8]; [discriminate|].
  destruct (head_range bytes H8) as [Hnr Hnc]. set (nr := from_be (firstn 4 bytes)) in *. set (nc := from_be (firstn 4 (skipn 4 bytes))) in *. unfold u32_modulus in Hnr, Hnc.
  rewrite usize_mul_exact in Hm by lia. cbn [bind] in Hm. rewrite usize_add_exact in Hm by lia. cbn [bind] in Hm.
  destruct (N.ltb_spec (blen bytes) (8 + 4 * nr)) as [|Hb]; [discriminate|].
  apply bind_ok in Hm as (? & _ & Hm). apply bind_ok in Hm as (? & _ & Hm). apply bind_ok in Hm as ([a2r r2a] & _ & Hm). apply bind_ok in Hm as (? & _ & Hm).
  apply bind_ok in Hm as (? & _ & Hm). apply bind_ok in Hm as (t & Et & Hm). apply bind_ok in Hm as (xe & Ex & Hm).
  rewrite (ok_len _ _ _ (scalar_ok F fine HF)) in Hm. apply slice_fromN_inv in Et as [_ ->].
  pose proof (ok_dec_len _ _ _ _ _ (scalar_ok F fine HF) Ex) as L0. unfold blen in L0. rewrite skipn_len in L0.
  apply bind_ok in Hm as (n1 & _ & Hm). apply bind_ok in Hm as (n2 & _ & Hm). apply bind_ok in Hm as (lim & _ & Hm).
  destruct (N.ltb_spec (blen bytes) lim) as [|Hlim]; [discriminate|]. apply bind_ok in Hm as (row0 & E0 & Hm). apply bind_ok in Hm as (rows & _ & Hm). apply Ok_inj in Hm. subst m.
  cbn [nb_col]. pose proof (entry_reader (scalar_codec F) 32 P bytes (8 + 4 * nr) Hfit) as R.
  assert (L1 : (8 + 4 * nr + N.of_nat 1 * 32 <= blen bytes)%N) by (unfold blen in *; lia).
  destruct (seq_read _ 32 _ (scalar_ok F fine HF) bytes _ _ R (N.to_nat nc - 1) 1 L1) as [_ S2].
  change (range 1 nc) with (map N.of_nat (seq 1 (N.to_nat nc - 1))) in E0. destruct (S2 row0 E0) as (T1 & _). lia.
Qed.
Theorem C119_bytes kbytes uk cbytes ct :
  (blen kbytes < 9223372036854775808)%N -> (blen cbytes < 9223372036854775808)%N -> user_dec F P kbytes = Ok uk -> ct_dec F P cbytes = Ok ct ->
  let R := Nat.max 1 (nb_col (dk_msp uk)) in
  (32 * N.of_nat R <= blen kbytes)%N /\ (4 * N.of_nat (length (gamma ct)) <= blen cbytes)%N /\
  steps (decryptC ct uk) <= 20 * (R * R) * (length (gamma ct) + 1) /\
  forall m pairings, result (decryptC ct uk) = Ok (m, pairings) -> pairings <= R /\ pairings <= length (gamma ct).
Proof using BL HF HP.
  intros Lk Lc Hk Hc R. split; [|split].
  - unfold user_dec in Hk. destruct kbytes as [|b0 bt]; [discriminate|]. remember (b0 :: bt) as kb eqn:Eb.
    apply bind_ok in Hk as (d & Hd & Hk). apply bind_ok in Hk as (r & Hr & Hk). apply bind_ok in Hk as (m & Hm & Hk). apply Ok_inj in Hk. subst uk.
    apply slice_fromN_inv in Hr as [_ ->]. apply columns_fit in Hm; [|unfold in_memory, blen in *; rewrite skipn_len; lia].
    unfold R. cbn [dk_msp]. unfold blen in *. rewrite skipn_len in Hm. lia.
  - unfold ct_dec in Hc. apply bind_ok in Hc as (g & Eg & Hc). apply bind_ok in Hc as (r & Hr & Hc). apply bind_ok in Hc as (ei & _ & Hc).
    apply bind_ok in Hc as (r2 & _ & Hc). apply bind_ok in Hc as (ep & _ & Hc). apply Ok_inj in Hc. subst ct. cbn [gamma].
    destruct (vec_dec_inv u32_codec 4 _ u32_codec_ok P cbytes g (in_memory_fits P HP _ Lc) Eg) as [[-> ->]|(_ & H & _)]; [cbn; lia|lia].
  - apply C119_decrypt; [|unfold R; lia]. intros r Hr. destruct (ds_matrix _ _ (decoded_user_shape B F fine HF P kbytes uk HP Lk Hk)) as (r0 & rows & Em & L0 & _ & Lr).
    rewrite Em in Hr. destruct Hr as [<-|Hr]; [rewrite L0; apply Nat.le_refl|rewrite (Lr r Hr); unfold R; lia].
Qed.
End Bytes.
End DecryptBounds.

(** ** The parser *)
Lemma unspace_length s : length (filter (fun c => negb (c =? ch_space)%N) s) <= length s.
Proof. induction s as [|c s IH]; [reflexivity|]. cbn [filter length]. destruct (negb _); cbn [length]; lia. Qed.

(** Reading a text takes at most a number of steps proportional to the square of its length. *)
Theorem C119_parse P fuel s : steps (parseC fuel P s) <= 4 * ((length s + 1) * (length s + 1)).
Proof.
  enough (W : within (4 * ((length s + 1) * (length s + 1))) (fun _ => True) (parseC fuel P s)) by apply W.
  revert s. induction fuel as [|fuel IH]; intros s; [apply within_taking; [apply Nat.le_0_l|trivial]|]. cbn [parseC].
  set (n := length s).
  apply within_weaken with (Q := fun _ => True) (n := (1 + n) + (n + (2 * n + 1 + 4 * (n * n)))); [|nia|trivial].
  apply within_bind with (Q := fun bad => bad = false -> s <> []).
  { apply within_taking; [lia|]. intros x E. apply Ok_inj in E. subst x. destruct s; [discriminate|discriminate]. }
  intros bad Hbad. destruct bad; [apply within_taking; [apply Nat.le_0_l|trivial]|]. specialize (Hbad eq_refl).
  assert (Hn : 1 <= n) by (unfold n; destruct s; [contradiction|cbn; lia]).
  apply within_bind with (Q := fun t => length t <= n).
  { apply within_taking; [lia|]. intros x E. apply Ok_inj in E. subst x. apply unspace_length. }
  intros t Ht. destruct (take_digits t) as [d r] eqn:Ed. apply take_digits_spec in Ed as (Et & _ & _).
  assert (Hd : length d + length r <= n) by (rewrite Et, app_length in Ht; exact Ht).
  destruct d as [|x d].
  - cbn [app] in Et. subst r. apply within_weaken with (Q := fun _ => True) (n := 1 + (n + (n + (0 + (0 + (0 + 4 * (n * n))))))); [|lia|trivial].
    apply within_bind with (Q := fun _ => True); [apply within_taking; [cbn; lia|trivial]|]. intros _ _.
    destruct t as [|c t]; [apply within_taking; [apply Nat.le_0_l|trivial]|]. cbn [length] in Ht.
    destruct (negb (c =? ch_open)%N); [apply within_taking; [apply Nat.le_0_l|trivial]|].
    apply within_bind with (Q := fun _ => True); [apply within_taking; [lia|trivial]|]. intros closed _.
    destruct (negb closed); [apply within_taking; [apply Nat.le_0_l|trivial]|].
    apply within_bind with (Q := fun _ => True); [apply within_taking; [lia|trivial]|]. intros close _.
    apply within_bind with (Q := fun b => length b <= length t); [apply within_taking; [lia|]|].
    { intros b E. unfold slice in E. destruct (_ && _); [|discriminate]. apply Ok_inj in E. subst b. rewrite firstn_length, skipn_length. lia. }
    intros b Hb. apply within_bind with (Q := fun u => length u + length b <= length t); [apply within_taking; [lia|]|].
    { intros u E. unfold slice_from in E. destruct (Nat.leb_spec (length b) (length t)); [|discriminate]. apply Ok_inj in E. subst u. rewrite skipn_length. lia. }
    intros u Hu. apply within_bind with (Q := fun v => length v + 1 + length b <= length t); [apply within_taking; [lia|]|].
    { intros v E. unfold slice_from in E. destruct (Nat.leb_spec 1 (length u)); [|discriminate]. apply Ok_inj in E. subst v. rewrite skipn_length. lia. }
    intros v Hv. destruct v as [|op v]; [eapply within_weaken; [apply IH|cbn [length] in Hv; nia|trivial]|]. cbn [length] in Hv.
    assert (Two : forall mk_ : node -> node -> node, within (4 * (n * n)) (fun _ => True)
      (let+ a := parseC fuel P b in let+ b0 := parseC fuel P v in done (mk_ a b0))).
    { intros mk_. apply within_weaken with (Q := fun _ => True) (n := 4 * ((length b + 1) * (length b + 1)) + (4 * ((length v + 1) * (length v + 1)) + 0)); [|nia|trivial].
      apply within_bind with (Q := fun _ => True); [apply IH|]. intros a _. apply within_bind with (Q := fun _ => True); [apply IH|]. intros a' _. apply within_done; trivial. }
    destruct (op =? ch_and)%N; [apply (Two And)|]. destruct (op =? ch_or)%N; [apply (Two Or)|]. apply within_taking; [apply Nat.le_0_l|trivial].
  - remember (x :: d) as ds eqn:Eds. assert (1 <= length ds) by (subst ds; cbn; lia).
    apply within_weaken with (Q := fun _ => True) (n := (1 + length ds) + (length ds + 4 * (n * n))); [|lia|trivial].
    apply within_bind with (Q := fun _ => True); [apply within_taking; [lia|trivial]|]. intros _ _. rewrite Eds. rewrite <- Eds.
    apply within_bind with (Q := fun _ => True); [apply within_taking; [lia|trivial]|]. intros v _.
    destruct r as [|op r]; [apply within_done; trivial|]. cbn [length] in Hd.
    assert (One : forall mk_ : node -> node, within (4 * (n * n)) (fun _ => True) (let+ b0 := parseC fuel P r in done (mk_ b0))).
    { intros mk_. apply within_weaken with (Q := fun _ => True) (n := 4 * ((length r + 1) * (length r + 1)) + 0); [|nia|trivial].
      apply within_bind with (Q := fun _ => True); [apply IH|]. intros a _. apply within_done; trivial. }
    destruct (op =? ch_and)%N; [apply (One (And (Leaf v)))|]. destruct (op =? ch_or)%N; [apply (One (Or (Leaf v)))|]. apply within_taking; [apply Nat.le_0_l|trivial].
Qed.

(** The square cannot be avoided: 1&1&...&1 with n conjunctions has 2n+1 characters and needs at least 2(n+1)^2 steps. *)
Lemma chain_text_length n : length (chain_text n) = 2 * n + 1.
Proof. induction n as [|n IH]; [reflexivity|]. cbn [chain_text]. rewrite app_length, IH. cbn. lia. Qed.
Lemma steps_bind {A C} (m : counted A) (k : A -> counted C) x : result m = Ok x -> steps (cbind m k) = steps m + steps (k x).
Proof. intros E. unfold cbind. rewrite E. reflexivity. Qed.
Lemma chain_authorized n : existsb (fun c => negb (authorized c)) (chain_text n) = false.
Proof. induction n as [|n IH]; [reflexivity|]. cbn [chain_text]. rewrite existsb_app, IH. reflexivity. Qed.
Lemma chain_unspaced n : filter (fun c => negb (c =? ch_space)%N) (chain_text n) = chain_text n.
Proof. induction n as [|n IH]; [reflexivity|]. cbn [chain_text]. rewrite filter_app, IH. reflexivity. Qed.
Lemma chain_step P n fuel : result (parseC fuel P (chain_text n)) = Ok (chain n) ->
  result (parseC (S fuel) P (chain_text (S n))) = Ok (chain (S n)) /\
  steps (parseC (S fuel) P (chain_text (S n))) = 4 * n + 10 + steps (parseC fuel P (chain_text n)).
Proof.
  intros E. pose proof (chain_text_length (S n)) as L. set (s := chain_text (S n)) in *.
  assert (A : match s with [] => true | _ => false end || existsb (fun c => negb (authorized c)) s = false) by (unfold s; rewrite chain_authorized; reflexivity).
  assert (U : filter (fun c => negb (c =? ch_space)%N) s = s) by apply chain_unspaced.
  assert (D : take_digits s = ([49%N], 38%N :: chain_text n)) by reflexivity.
  clearbody s. cbn [parseC]. rewrite A, U. split.
  - rewrite result_bind. cbn [result taking fst bind]. rewrite result_bind. cbn [result taking fst bind]. rewrite D.
    rewrite result_bind. cbn [result taking fst bind]. rewrite result_bind. cbn [result taking fst bind parse_u32 parse_u32_from].
    change (38 =? ch_and)%N with true. cbv iota. change (0 * 10)%N with 0%N. cbn [N.leb]. cbv zeta. change (4294967296 <=? 0)%N with false. cbv iota.
    change (4294967296 <=? 0 + (49 - 48))%N with false. cbv iota. cbn [bind]. rewrite result_bind, E. reflexivity.
  - rewrite (steps_bind _ _ false) by reflexivity. cbn [steps taking snd]. cbv iota. rewrite (steps_bind _ _ s) by reflexivity. cbn [steps taking snd]. rewrite D.
    rewrite (steps_bind _ _ Datatypes.tt) by reflexivity. cbn [steps taking snd]. rewrite (steps_bind _ _ 1%N) by reflexivity. cbn [steps taking snd length].
    change (38 =? ch_and)%N with true. cbv iota. rewrite (steps_bind _ _ (chain n)) by exact E. cbn [steps done snd]. rewrite L. unfold steps. lia.
Qed.
Theorem C119_parse_at_least P n fuel : n < fuel ->
  result (parseC fuel P (chain_text n)) = Ok (chain n) /\ 2 * ((n + 1) * (n + 1)) <= steps (parseC fuel P (chain_text n)).
Proof.
  revert fuel. induction n as [|n IH]; intros fuel Hf; (destruct fuel as [|fuel]; [lia|]); [split; [reflexivity|cbn; lia]|].
  destruct (IH fuel ltac:(lia)) as [E H]. destruct (chain_step P n fuel E) as [E' H']. split; [exact E'|]. rewrite H'. nia.
Qed.

(** ** Span programs *)
(** the number of conjunctions waiting in the queue, and of nodes *)
Definition pending (q : list (node * list Z)) : nat := fold_right (fun x n => count_and (fst x) + n) 0 q.
Definition waiting (q : list (node * list Z)) : nat := fold_right (fun x n => node_size (fst x) + n) 0 q.
Lemma pending_app q q' : pending (q ++ q') = pending q + pending q'.
Proof. unfold pending. induction q as [|x q IH]; [reflexivity|]. cbn [app fold_right]. rewrite IH. lia. Qed.
Lemma waiting_app q q' : waiting (q ++ q') = waiting q + waiting q'.
Proof. unfold waiting. induction q as [|x q IH]; [reflexivity|]. cbn [app fold_right]. rewrite IH. lia. Qed.
Lemma node_size_pos f : 1 <= node_size f.
Proof. destruct f; cbn; lia. Qed.
Lemma resize_length {A} (l : list A) n d : length (resize l n d) = n.
Proof. unfold resize. rewrite app_length, firstn_length, repeat_length. lia. Qed.

Lemma to_msp_loopC_within total fuel : forall q c rows, c + pending q <= total -> Forall (fun x => length (snd x) <= c) q -> Forall (fun x => length (snd x) <= total) rows ->
  within (waiting q * (2 * total + 3)) (fun r => fst r <= total /\ length (snd r) <= length rows + waiting q /\ Forall (fun x => length (snd x) <= total) (snd r))
    (to_msp_loopC fuel q c rows).
Proof.
  induction fuel as [|fuel IH]; intros q c rows Ht Hq Hr; (destruct q as [|[nd v] q]; [apply within_done; cbn; split; [lia|split; [lia|exact Hr]]|]); cbn [to_msp_loopC].
  { apply within_taking; [apply Nat.le_0_l|discriminate]. }
  pose proof (Forall_inv Hq) as Hv. apply Forall_inv_tail in Hq. cbn [snd] in Hv. cbn [waiting pending fold_right fst] in *. fold (waiting q). fold (pending q) in Ht.
  destruct nd as [a b|a b|x]; cbn [count_and node_size] in *.
  - pose proof (node_size_pos a). pose proof (node_size_pos b).
    apply within_weaken with (n := (1 + length v + (c - length v) + 1) + ((c + 1) + (waiting (q ++ [(a, resize v c 0%Z ++ [1%Z])] ++ [(b, repeat 0%Z c ++ [(-1)%Z])]) * (2 * total + 3))))
      (Q := fun r => fst r <= total /\ length (snd r) <= length rows + waiting (q ++ [(a, resize v c 0%Z ++ [1%Z])] ++ [(b, repeat 0%Z c ++ [(-1)%Z])]) /\ Forall (fun x => length (snd x) <= total) (snd r)).
    + apply within_bind with (Q := fun w => w = resize v c 0%Z ++ [1%Z]); [apply within_taking; [lia|intros w E; apply Ok_inj in E; congruence]|]. intros w ->.
      apply within_bind with (Q := fun w => w = repeat 0%Z c ++ [(-1)%Z]); [apply within_taking; [lia|intros w E; apply Ok_inj in E; congruence]|]. intros w ->.
      apply IH; [|repeat (apply Forall_app; split)|exact Hr].
      * rewrite !pending_app. cbn [pending fold_right fst]. lia.
      * eapply Forall_impl; [|exact Hq]. cbv beta. intros y Hy. lia.
      * constructor; [cbn [snd]; rewrite app_length, resize_length; cbn; lia|constructor].
      * constructor; [cbn [snd]; rewrite app_length, repeat_length; cbn; lia|constructor].
    + rewrite !waiting_app. cbn [waiting fold_right fst]. nia.
    + intros r (R1 & R2 & R3). split; [exact R1|]. split; [|exact R3]. rewrite !waiting_app in R2. cbn [waiting fold_right fst] in R2. lia.
  - apply within_weaken with (n := (1 + length v) + (waiting (q ++ [(a, v)] ++ [(b, v)]) * (2 * total + 3)))
      (Q := fun r => fst r <= total /\ length (snd r) <= length rows + waiting (q ++ [(a, v)] ++ [(b, v)]) /\ Forall (fun x => length (snd x) <= total) (snd r)).
    + apply within_bind with (Q := fun _ => True); [apply within_taking; [lia|trivial]|]. intros _ _.
      apply IH; [|repeat (apply Forall_app; split)|exact Hr].
      * rewrite !pending_app. cbn [pending fold_right fst]. lia.
      * exact Hq.
      * constructor; [exact Hv|constructor].
      * constructor; [exact Hv|constructor].
    + rewrite !waiting_app. cbn [waiting fold_right fst]. nia.
    + intros r (R1 & R2 & R3). split; [exact R1|]. split; [|exact R3]. rewrite !waiting_app in R2. cbn [waiting fold_right fst] in R2. lia.
  - apply within_weaken with (n := 1 + waiting q * (2 * total + 3))
      (Q := fun r => fst r <= total /\ length (snd r) <= length (rows ++ [(Leaf x, v)]) + waiting q /\ Forall (fun x => length (snd x) <= total) (snd r)).
    + apply within_bind with (Q := fun _ => True); [apply within_taking; [lia|trivial]|]. intros _ _. apply IH; [lia|exact Hq|].
      apply Forall_app. split; [exact Hr|]. constructor; [cbn [snd]; lia|constructor].
    + lia.
    + intros r (R1 & R2 & R3). split; [exact R1|]. split; [|exact R3]. rewrite app_length in R2. cbn [length] in R2. lia.
Qed.
Lemma to_msp_rowsC_within P c rows : forall i mat m v, within (length rows * (2 * c + 1)) (fun _ => True) (to_msp_rowsC P c i rows mat m v).
Proof.
  induction rows as [|[[a b|a b|x] w] rows IH]; intros i mat m v; try (apply within_taking; [apply Nat.le_0_l|trivial]).
  cbn [to_msp_rowsC length]. apply within_weaken with (n := (2 * c) + (1 + length rows * (2 * c + 1))) (Q := fun _ => True); [|lia|trivial].
  apply within_bind with (Q := fun _ => True); [apply within_taking; [lia|trivial]|]. intros v' _.
  apply within_bind with (Q := fun _ => True); [apply taking_1|]. intros [f|] _; [apply within_taking; [apply Nat.le_0_l|trivial]|apply IH].
Qed.
(** Making a span program takes a number of steps proportional to the number of nodes of the formula and to the number
    of columns of the program. *)
Theorem C119_to_msp P f : steps (to_mspC P f) <= 10 * node_size f * (count_and f + 1).
Proof.
  set (total := count_and f + 1). enough (W : within (10 * node_size f * total) (fun _ => True) (to_mspC P f)) by apply W.
  apply within_weaken with (n := node_size f * (2 * total + 3) + (node_size f * (2 * total + 1) + 0)) (Q := fun _ => True); [| |trivial].
  2:{ assert (1 <= total) by (unfold total; lia). nia. }
  unfold to_mspC. eapply within_bind.
  { pose proof (to_msp_loopC_within total (node_size f) [(f, [1%Z])] 1 []) as H. cbn [pending waiting fold_right fst] in H. rewrite !Nat.add_0_r in H. apply H.
    - unfold total. lia.
    - constructor; [cbn; lia|constructor].
    - constructor. }
  intros [c rows] (H1 & H2 & _). cbn [fst snd length Nat.add] in *. apply within_bind with (Q := fun _ => True).
  { eapply within_weaken; [apply to_msp_rowsC_within|nia|trivial]. }
  intros [[mat m] v] _. apply within_done. trivial.
Qed.

(** ** Examples *)
Local Ltac vmr x := vm_cast_no_check (eq_refl x).
(** the number of pairings of a run *)
Definition pairings_of {A} (m : counted (A * nat)) : option nat := match result m with Ok (_, n) => Some n | _ => None end.
(** A ciphertext that repeats the attribute 1. *)
Definition flood (n : nat) : ciphertext toy := @mkCt toy (repeat 1%N n ++ [4%N]) (f101 5) (repeat (f101 3) (n + 1)).

(** The key for 1 & (4 | (2 & 3)): all entries of its program are looked at, and three pairings for three
    attributes of four; a ciphertext that repeats an attribute costs 17 steps for each repetition, and no pairing. *)
Example C119_decrypt_example :
  length (matrix (dk_msp ex_uk)) = 4 /\ forallb (fun r => Nat.eqb (length r) 3) (matrix (dk_msp ex_uk)) = true /\
  steps (decryptC (ex_ct [1; 2; 3; 5]%N) ex_uk) = 83 /\ pairings_of (decryptC (ex_ct [1; 2; 3; 5]%N) ex_uk) = Some 3 /\
  steps (decryptC (ex_ct [1; 2; 3; 4]%N) ex_uk) = 100 /\ pairings_of (decryptC (ex_ct [1; 2; 3; 4]%N) ex_uk) = Some 3 /\
  steps (decryptC (flood 10) ex_uk) = 206 /\ steps (decryptC (flood 20) ex_uk) = 376 /\ steps (decryptC (flood 30) ex_uk) = 546 /\
  pairings_of (decryptC (flood 30) ex_uk) = Some 2.
Proof.
  split; [vmr 4|]. split; [vmr true|]. split; [vmr 83|]. split; [vmr (Some 3)|]. split; [vmr 100|]. split; [vmr (Some 3)|]. split; [vmr 206|]. split; [vmr 376|]. split; [vmr 546|]. vmr (Some 2).
Qed.
(** A key made after a rotation, which has five rows, and one conjunction. *)
Example C119_access_example :
  eng_master_key pol_a ex_draw = Ok ex_mk /\ user_key pf ex_mk pol_b ex_ap (ekey pol_b ex_ap) /\ conjunctions ex_ap = 1 /\
  length (matrix (dk_msp (ekey pol_b ex_ap))) = 5 /\ pairings_of (decryptC (ect pol_b [level "Confidential"; dept "HR"; dept "FIN"]) (ekey pol_b ex_ap)) = Some 2.
Proof.
  split; [vmr (@Ok (master_key toy) ex_mk)|]. split; [|split; [vmr 1|split; [vmr 5|vmr (Some 2)]]].
  apply (uk_gen pf ex_mk pol_b it_rev ex_ap ex_kdraw); [exact it_rev_ok|]. vmr (@Ok (decryption_key toy) (ekey pol_b ex_ap)).
Qed.
(** The same key and a ciphertext, read from their bytes. *)
Example C119_bytes_example :
  let kb := bytes_of (user_enc toy_forms pf ex_uk) in let cb := bytes_of (ct_enc toy_forms (flood 30)) in
  user_dec toy_forms pf kb = Ok ex_uk /\ ct_dec toy_forms pf cb = Ok (flood 30) /\ blen kb = 796%N /\ blen cb = 1908%N /\
  nb_col (dk_msp ex_uk) = 3 /\ length (gamma (flood 30)) = 31.
Proof.
  cbv zeta. split; [vmr (@Ok (decryption_key toy) ex_uk)|]. split; [vmr (@Ok (ciphertext toy) (flood 30))|].
  split; [vmr 796%N|]. split; [vmr 1908%N|]. split; [vmr 3|vmr 31].
Qed.
Example C119_parse_example :
  steps (parseC 18 pf (codes "1 & (4 | (2 & 3))")) = 128 /\ result (parseC 18 pf (codes "1 & (4 | (2 & 3))")) = Ok ex_f /\
  steps (to_mspC pf ex_f) = 37 /\ node_size ex_f = 7 /\ count_and ex_f = 2.
Proof. repeat apply conj; vm_compute; reflexivity. Qed.

Print Assumptions C119_decrypt_result.
Print Assumptions C119_parse_result.
Print Assumptions C119_to_msp_result.
Print Assumptions C119_decrypt.
Print Assumptions C119_access_policies.
Print Assumptions C119_bytes.
Print Assumptions C119_parse.
Print Assumptions C119_parse_at_least.
Print Assumptions C119_to_msp.

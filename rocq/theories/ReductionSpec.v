(** The security experiment of Goyal, Pandey, Sahai and Waters in which the attributes of the ciphertext
    are fixed first, for attackers that compute as they like, and the solver of the decisional bilinear
    Diffie-Hellman problem that is built from such an attacker. *)
From Coq Require Import String Bool NArith ZArith Strings.Byte List.
From Verif Require Import Prelude Field Msp Spec Bilinear Gauss Scheme Codec SchemeCodec Policy Engine CollusionSpec LuckSpec GameSpec.
Import ListNotations.

(** ** Counting *)
Definition total {A} (l : list A) (f : A -> nat) : nat := list_sum (map f l).
Definition bit (b : bool) : nat := if b then 1 else 0.
(** All lists of length [n] of elements of [l]. *)
Fixpoint tuples {A} (l : list A) (n : nat) : list (list A) :=
  match n with O => [[]] | S n => flat_map (fun x => map (cons x) (tuples l n)) l end.

(** ** The experiment *)
(** What the attacker does next. It sees the elements of the answers and decides by any function of them.
    Keys are generated, delegated from earlier ones or made random again, for the attacker or for others. *)
Inductive attacker (B : BilinearMap) :=
| Guess (b : bool)
| WantKey (e : event) (next : outcome (decryption_key B) -> attacker B)      (* the attacker gets the key *)
| OtherKey (e : event) (next : attacker B)                                   (* somebody else gets it *)
| WantText (m0 m1 : Gt B) (next : outcome (ciphertext B) -> attacker B).     (* one of the two is encrypted *)
Arguments Guess {B}.
Arguments WantKey {B}.
Arguments OtherKey {B}.
Arguments WantText {B}.

(** There are keys for the formula. *)
Definition possible (P : platform) (size : nat) (f : node) : Prop :=
  (exists m, to_msp P f = Ok m) /\ forall x, In x (leaves f) -> N.to_nat x < size.
(** [fs] are the formulas of the earlier keys, the newest first: a key is delegated to a narrower formula. *)
Definition proper (P : platform) (size : nat) (fs : list node) (e : event) : Prop :=
  match e with
  | Generated _ => True
  | Delegated k f' => exists f, nth_error fs k = Some f /\ possible P size f /\ (narrows f' f \/ restricts f' f) /\ exists m, to_msp P f' = Ok m
  | Refreshed k => exists f, nth_error fs k = Some f /\ possible P size f
  end.
(** No formula of a key of the attacker is satisfied by the attributes of the ciphertext, [n] values are enough for
    all the keys, and one encryption at most is asked for (if [open], none otherwise). *)
Fixpoint lawful {B} (P : platform) (size : nat) (gam : list N) (n : nat) (fs : list node) (open : bool) (p : attacker B) : Prop :=
  match p with
  | Guess _ => True
  | WantKey e next => proper P size fs e /\ forall f, formula_of fs e = Some f ->
      ~ holds (fun a => In a gam) f /\ count_and f <= n /\ forall r, lawful P size gam (n - count_and f) (f :: fs) open (next r)
  | OtherKey e next => proper P size fs e /\ forall f, formula_of fs e = Some f ->
      count_and f <= n /\ lawful P size gam (n - count_and f) (f :: fs) open next
  | WantText _ _ next => open = true /\ forall r, lawful P size gam n fs false (next r)
  end.

Section Experiment.
Context {B : BilinearMap}.
Local Notation K := (bm_K B).
Variable P : platform.
Variable size : nat.              (* the number of attribute slots *)
Variable gam : list N.            (* the attributes of the ciphertext *)

(** A key is made, from the earlier ones where necessary. *)
Definition issue (mk : master_key B) (uks : list (outcome (decryption_key B))) (draw : nat -> K) (e : event) : outcome (decryption_key B) :=
  match e with
  | Generated f => let* m := to_msp P f in key_generation m (priv_key mk) draw
  | Delegated k f => let* uk := nth k uks (Err (InternalOperation "no such key")) in
      let* m := to_msp P f in abe_key_delegation (Some m) uk (del_key mk) draw
  | Refreshed k => let* uk := nth k uks (Err (InternalOperation "no such key")) in abe_key_delegation None uk (del_key mk) draw
  end.
(** How many values are drawn for a key. *)
Definition needs (fs : list node) (e : event) : nat := match formula_of fs e with Some f => count_and f | None => 0 end.
Definition formulas (fs : list node) (e : event) : list node := match formula_of fs e with Some f => f :: fs | None => fs end.

(** What is answered to the attacker; [u] are the values drawn for keys, [s] the one for the ciphertext.
    If [w] is true the second message is encrypted, otherwise the first. *)
Fixpoint play (mk : master_key B) (w : bool) (s : K) (fs : list node) (uks : list (outcome (decryption_key B))) (u : list K) (p : attacker B) : bool :=
  match p with
  | Guess b => b
  | WantKey e next => let uk := issue mk uks (values u) e in play mk w s (formulas fs e) (uk :: uks) (skipn (needs fs e) u) (next uk)
  | OtherKey e next => let uk := issue mk uks (values u) e in play mk w s (formulas fs e) (uk :: uks) (skipn (needs fs e) u) next
  | WantText m0 m1 next => play mk w s fs uks u (next (encrypt P (if w then m1 else m0) gam (pub_key mk) s))
  end.

(** The whole experiment; the attacker is given the public key and the delegation key. *)
Definition experiment (start : master_public_key B -> delegation_key B -> attacker B) (w : bool)
    (t : list K) (y : K) (u : list K) (s : K) : bool :=
  match generate_master_key size (values (t ++ [y])) with
  | Ok mk => play mk w s [] [] u (start (pub_key mk) (del_key mk))
  | _ => false
  end.

(** For how many draws the attacker answers [true]. [elems] are the scalars; [coins] are the values that
    the attacker draws itself. *)
Definition answers_true {R} (start : R -> master_public_key B -> delegation_key B -> attacker B)
    (elems : list K) (coins : list R) (n : nat) (w : bool) : nat :=
  total coins (fun c => total (tuples elems size) (fun t => total elems (fun y => total elems (fun s =>
    total (tuples elems n) (fun u => bit (experiment (start c) w t y u s)))))).

(** ** The decisional bilinear Diffie-Hellman problem *)
(** Elements [h], [h^a] of the third group and [g^b], [g^c] of the second, where [g] is its generator and
    [h^b] the generator of the third group, and an element of the target group: either [e(h,g)^(a b c)] or
    any. *)
Record puzzle := mkPuzzle { pz_h : G3 B; pz_ha : G3 B; pz_gb : G2 B; pz_gc : G2 B; pz_z : Gt B }.
Definition puzzle_of (a b c z : K) : puzzle :=
  mkPuzzle (g3_gen_exp B (finv b)) (g3_gen_exp B (fmul a (finv b))) (g2_gen_exp B b) (g2_gen_exp B c) (gt_gen_exp B z).
(** [e(h,g)^(a b c)]: the pairing of the generators is the generator, so that [e(h,g)] has the exponent 1/b. *)
Definition genuine (a b c : K) : puzzle := puzzle_of a b c (fmul (finv b) (fmul a (fmul b c))).

(** How often a solver answers [true], on genuine and on random puzzles. *)
Definition nonzero (elems : list K) : list K := filter (fun x => negb (feqb x f0)) elems.
Definition on_genuine {R} (elems : list K) (coins : list R) (solver : puzzle -> R -> bool) : nat :=
  total coins (fun r => total (nonzero elems) (fun b => total elems (fun a => total elems (fun c =>
    bit (solver (genuine a b c) r))))).
Definition on_random {R} (elems : list K) (coins : list R) (solver : puzzle -> R -> bool) : nat :=
  total coins (fun r => total (nonzero elems) (fun b => total elems (fun a => total elems (fun c =>
    total elems (fun z => bit (solver (puzzle_of a b c z) r)))))).
(** The advantage, multiplied with the number of all random puzzles and coins. *)
Definition advantage {R} (elems : list K) (coins : list R) (solver : puzzle -> R -> bool) : Z :=
  Z.abs (Z.of_nat (length elems * on_genuine elems coins solver) - Z.of_nat (on_random elems coins solver)).

(** ** The solver *)
(** It plays the experiment with the attacker without knowing a, b and c: [r] replaces the attribute
    secrets and [v] the values drawn for keys. *)
Section Solver.
Variable pz : puzzle.
Variable r : list K.
Definition inside (x : N) : bool := existsb (N.eqb x) gam.

Definition made_pub : master_public_key B :=
  mkPub (map (fun p => if inside (N.of_nat (fst p)) then g2_gen_exp B (snd p) else g2_exp B (pz_gb pz) (snd p)) (enumerate r))
        (prod_gt_exp B [g3_to_g1 B (pz_ha pz)] [pz_gb pz] [f1]).
Definition made_del : delegation_key B :=
  mkDel (map (fun p => if inside (N.of_nat (fst p)) then g3_gen_exp B (finv (snd p)) else g3_exp B (pz_h pz) (finv (snd p))) (enumerate r)).

(** A vector with sum 1 that is orthogonal to the rows of the attributes of the ciphertext. It is found by
    the span solver, as the combination of the columns of these rows, each entry increased by 1. *)
Definition columns (m : msp Z) : list (list K) :=
  let rows := map snd (filter (fun p => inside (fst p)) (combine (row_to_attr m) (matrix m))) in
  map (fun j => map (fun row => fadd (of_i32 (nth j row 0%Z)) f1) rows ++ [f1]) (seq 0 (nb_col m)).
Definition orthogonal (m : msp Z) : list K :=
  match span_coefs (columns m) with Ok (Some w) => w | _ => [] end.

Definition made_key (v : list K) (f : node) : outcome (decryption_key B) :=
  let* m := to_msp P f in
  let* v := zero_sharing_vector (nb_col m) (values v) in
  let* big := mapM (fun p : N * list Z =>
      let '(x, row) := p in
      if N.leb (N.of_nat (length r)) x
      then Err (InternalOperation "Monotone Span Program is invalid: msp-row larger than private-key-t_i")
      else
        let rx := finv (nth (N.to_nat x) r f0) in
        let known := fmul (prod_scal of_i32 row v) rx in
        Ok (if inside x then g1_gen_exp B known
            else g3_mul B (g3_exp B (pz_ha pz) (fmul (prod_scal of_i32 row (orthogonal m)) rx)) (g3_exp B (pz_h pz) known)))
    (combine (row_to_attr m) (matrix m)) in
  Ok (mkDec (map snd big) (map fst big) (msp_map of_i32 m)).

Definition made_text (msg : Gt B) : outcome (ciphertext B) :=
  if Nat.leb (length r) (length gam) then
    let* _ := usize_sub P (N.of_nat (length r)) 1 in
    Err (InternalOperation "invalid attributes: gamma value incorrect")
  else
    let* ei := mapM (fun x => let* rx := indexN r x in Ok (g2_exp B (pz_gc pz) rx)) gam in
    Ok (mkCt gam (gt_mul B msg (pz_z pz)) ei).

(** Keys of the attacker are made anew in all cases, keys of others not at all. *)
Fixpoint mimic (w : bool) (fs : list node) (v : list K) (p : attacker B) : bool :=
  match p with
  | Guess b => b
  | WantKey e next => match formula_of fs e with Some f => mimic w (f :: fs) (skipn (count_and f) v) (next (made_key v f)) | None => false end
  | OtherKey e next => mimic w (formulas fs e) (skipn (needs fs e) v) next
  | WantText m0 m1 next => mimic w fs v (next (made_text (if w then m1 else m0)))
  end.
End Solver.

(** The values that the solver draws are those of the attacker, [r] and [v]. *)
Definition solve {R} (start : R -> master_public_key B -> delegation_key B -> attacker B) (w : bool)
    (pz : puzzle) (x : R * (list K * list K)) : bool :=
  let '(c, (r, v)) := x in
  if existsb (feqb f0) r then false
  else mimic pz r w [] v (start c (made_pub pz r) (made_del pz r)).
Definition solver_coins {R} (elems : list K) (coins : list R) (n : nat) : list (R * (list K * list K)) :=
  list_prod coins (list_prod (tuples elems size) (tuples elems n)).
End Experiment.
Arguments puzzle : clear implicits.

(** ** Many ciphertexts *)
(** The experiment with a ciphertext for each of the given lists of attributes. *)
Fixpoint lawful_many {B} (P : platform) (size : nat) (gams : list (list N)) (n : nat) (fs : list node) (m : nat) (p : attacker B) : Prop :=
  match p with
  | Guess _ => True
  | WantKey e next => proper P size fs e /\ forall f, formula_of fs e = Some f ->
      (forall gam, In gam gams -> ~ holds (fun a => In a gam) f) /\ count_and f <= n /\
      forall r, lawful_many P size gams (n - count_and f) (f :: fs) m (next r)
  | OtherKey e next => proper P size fs e /\ forall f, formula_of fs e = Some f ->
      count_and f <= n /\ lawful_many P size gams (n - count_and f) (f :: fs) m next
  | WantText _ _ next => match m with O => False | S m => forall r, lawful_many P size gams n fs m (next r) end
  end.

Section Many.
Context {B : BilinearMap}.
Local Notation K := (bm_K B).
Variable P : platform.
Variable size : nat.

(** [ws] tells which message is encrypted for each ciphertext, [ss] are the values drawn for them. *)
Fixpoint play_many (mk : master_key B) (gams : list (list N)) (ws : list bool) (ss : list K) (fs : list node)
    (uks : list (outcome (decryption_key B))) (u : list K) (p : attacker B) : bool :=
  match p with
  | Guess b => b
  | WantKey e next => let uk := issue P mk uks (values u) e in play_many mk gams ws ss (formulas fs e) (uk :: uks) (skipn (needs fs e) u) (next uk)
  | OtherKey e next => let uk := issue P mk uks (values u) e in play_many mk gams ws ss (formulas fs e) (uk :: uks) (skipn (needs fs e) u) next
  | WantText m0 m1 next =>
      match gams, ws, ss with
      | gam :: gams, w :: ws, s :: ss => play_many mk gams ws ss fs uks u (next (encrypt P (if w then m1 else m0) gam (pub_key mk) s))
      | _, _, _ => false
      end
  end.
Definition experiment_many (gams : list (list N)) (start : master_public_key B -> delegation_key B -> attacker B) (ws : list bool)
    (t : list K) (y : K) (u ss : list K) : bool :=
  match generate_master_key size (values (t ++ [y])) with
  | Ok mk => play_many mk gams ws ss [] [] u (start (pub_key mk) (del_key mk))
  | _ => false
  end.
(** Always the second message, or always the first, is encrypted. *)
Definition answers_true_many {R} (gams : list (list N)) (start : R -> master_public_key B -> delegation_key B -> attacker B)
    (elems : list K) (coins : list R) (n : nat) (w : bool) : nat :=
  total coins (fun c => total (tuples elems size) (fun t => total elems (fun y => total (tuples elems (length gams)) (fun ss =>
    total (tuples elems n) (fun u => bit (experiment_many gams (start c) (repeat w (length gams)) t y u ss)))))).

(** The attacker that makes all ciphertexts but one itself. The list has an entry for each ciphertext, [None]
    for the one it asks for. *)
Fixpoint alone (pub : master_public_key B) (l : list (option (list N * bool * K))) (p : attacker B) : attacker B :=
  match p with
  | Guess b => Guess b
  | WantKey e next => WantKey e (fun r => alone pub l (next r))
  | OtherKey e next => OtherKey e (alone pub l next)
  | WantText m0 m1 next =>
      match l with
      | [] => Guess false
      | None :: l => WantText m0 m1 (fun r => alone pub l (next r))
      | Some (gam, w, s) :: l => alone pub l (next (encrypt P (if w then m1 else m0) gam pub s))
      end
  end.
(** It asks for ciphertext number [i], encrypts the second messages before and the first ones after; its
    own draws are those of the other attacker and the values for the other ciphertexts. *)
Definition one_of {R} (gams : list (list N)) (i : nat) (start : R -> master_public_key B -> delegation_key B -> attacker B)
    (x : R * (list K * list K)) (pub : master_public_key B) (del : delegation_key B) : attacker B :=
  let '(c, (before, after)) := x in
  alone pub (map (fun p => Some (fst p, true, snd p)) (combine (firstn i gams) before) ++
             None :: map (fun p => Some (fst p, false, snd p)) (combine (skipn (S i) gams) after)) (start c pub del).
Definition one_coins {R} (gams : list (list N)) (i : nat) (elems : list K) (coins : list R) : list (R * (list K * list K)) :=
  list_prod coins (list_prod (tuples elems i) (tuples elems (length gams - S i))).
End Many.

(** ** Symmetric keys *)
(** Instead of ciphertexts of its own messages the attacker asks for headers, and is told a symmetric key with each. *)
Inductive listener (B : BilinearMap) :=
| Verdict (b : bool)
| HearKey (e : event) (next : outcome (decryption_key B) -> listener B)
| HearOther (e : event) (next : listener B)
| HearHeader (next : outcome (list byte * list byte) -> listener B).
Arguments Verdict {B}.
Arguments HearKey {B}.
Arguments HearOther {B}.
Arguments HearHeader {B}.

Fixpoint lawful_headers {B} (P : platform) (size : nat) (gams : list (list N)) (n : nat) (fs : list node) (m : nat) (p : listener B) : Prop :=
  match p with
  | Verdict _ => True
  | HearKey e next => proper P size fs e /\ forall f, formula_of fs e = Some f ->
      (forall gam, In gam gams -> ~ holds (fun a => In a gam) f) /\ count_and f <= n /\
      forall r, lawful_headers P size gams (n - count_and f) (f :: fs) m (next r)
  | HearOther e next => proper P size fs e /\ forall f, formula_of fs e = Some f ->
      count_and f <= n /\ lawful_headers P size gams (n - count_and f) (f :: fs) m next
  | HearHeader next => match m with O => False | S m => forall r, lawful_headers P size gams n fs m (next r) end
  end.

Section Headers.
Context {B : BilinearMap}.
Local Notation K := (bm_K B).
Variable P : platform.
Variable size : nat.
Variable F : byte_forms B.
Variable shake : list byte -> nat -> list byte.
Variable pol : policy.
Variable len : nat.               (* of the symmetric keys *)

(** The symmetric key of one element with the header of another. *)
Definition mismatched (pk : master_public_key B) (l : list attribute) (inside outside : Gt B) (s : K) : outcome (list byte * list byte) :=
  let* ct := eng_encrypt P pol pk l inside s in
  let* header := ct_enc F ct in
  let* bytes := enc (gt_codec F) outside in
  Ok (shake bytes len, header).

(** If [real] is true the symmetric keys are those of the headers, otherwise they are made from unrelated
    elements. [xs] are the exponents of the elements, [ss] the values drawn for encryption. *)
Fixpoint play_headers (mk : master_key B) (real : bool) (ls : list (list attribute)) (xs : list (K * K)) (ss : list K) (fs : list node)
    (uks : list (outcome (decryption_key B))) (u : list K) (p : listener B) : bool :=
  match p with
  | Verdict b => b
  | HearKey e next => let uk := issue P mk uks (values u) e in play_headers mk real ls xs ss (formulas fs e) (uk :: uks) (skipn (needs fs e) u) (next uk)
  | HearOther e next => let uk := issue P mk uks (values u) e in play_headers mk real ls xs ss (formulas fs e) (uk :: uks) (skipn (needs fs e) u) next
  | HearHeader next =>
      match ls, xs, ss with
      | l :: ls, (x, x') :: xs, s :: ss => play_headers mk real ls xs ss fs uks u
          (next (if real then generate_symmetric_key P F shake pol (pub_key mk) l len (gt_gen_exp B x) s
                 else mismatched (pub_key mk) l (gt_gen_exp B x') (gt_gen_exp B x) s))
      | _, _, _ => false
      end
  end.
Definition experiment_headers (ls : list (list attribute)) (start : master_public_key B -> delegation_key B -> listener B) (real : bool)
    (t : list K) (y : K) (u : list K) (xs : list (K * K)) (ss : list K) : bool :=
  match generate_master_key size (values (t ++ [y])) with
  | Ok mk => play_headers mk real ls xs ss [] [] u (start (pub_key mk) (del_key mk))
  | _ => false
  end.
Definition answers_true_headers {R} (ls : list (list attribute)) (start : R -> master_public_key B -> delegation_key B -> listener B)
    (elems : list K) (coins : list R) (n : nat) (real : bool) : nat :=
  total coins (fun c => total (tuples (list_prod elems elems) (length ls)) (fun xs => total (tuples elems size) (fun t => total elems (fun y =>
    total (tuples elems (length ls)) (fun ss => total (tuples elems n) (fun u => bit (experiment_headers ls (start c) real t y u xs ss))))))).

(** The attacker of the experiment with messages: it chooses the elements and always tells the symmetric key of
    the first one. *)
Fixpoint speaks (xs : list (K * K)) (p : listener B) : attacker B :=
  match p with
  | Verdict b => Guess b
  | HearKey e next => WantKey e (fun r => speaks xs (next r))
  | HearOther e next => OtherKey e (speaks xs next)
  | HearHeader next =>
      match xs with
      | [] => Guess false
      | (x, x') :: xs => WantText (gt_gen_exp B x) (gt_gen_exp B x') (fun r => speaks xs (next (
          let* ct := r in let* header := ct_enc F ct in let* bytes := enc (gt_codec F) (gt_gen_exp B x) in Ok (shake bytes len, header))))
      end
  end.
Definition speaker {R} (start : R -> master_public_key B -> delegation_key B -> listener B) (x : R * list (K * K))
    (pub : master_public_key B) (del : delegation_key B) : attacker B := speaks (snd x) (start (fst x) pub del).
Definition speaker_coins {R} (elems : list K) (coins : list R) (m : nat) : list (R * list (K * K)) :=
  list_prod coins (tuples (list_prod elems elems) m).
End Headers.

(** How deep the recursion of the formula parser goes (C98). *)
From Coq Require Import String Ascii NArith ZArith Bool Lia List.
From Verif Require Import Prelude Msp Spec CodecProofs Parser ParserSpec ParserProofs PropertiesParser.
Import ListNotations.
Local Open Scope N_scope.

(** [Node::parse] with room on the stack for [d] nested calls, msp.rs:290-408. The calls of lines
    338, 339, 398, 399, 402 and 403 are not the last action of the function (their results are put
    into boxes); the one of line 386 is, and the compiler may or may not turn it into a jump: it is
    counted as a call. Where no room is left the process is aborted, which [Panic OutOfFuel] stands
    for. The room taken by one call is not modelled. *)
Definition parse_with_room (d : nat) (P : platform) (s : list N) : outcome node := parse_fuel d P s.
Definition aborted : outcome node := Panic OutOfFuel.

(** ** Specification *)
(** The longest way from the root of a formula to an attribute. *)
Fixpoint height (f : node) : nat :=
  match f with
  | Leaf _ => 0
  | And a b | Or a b => S (Nat.max (height a) (height b))
  end.

(** The number of operators and opening parentheses of a text. *)
Definition marks (s : list N) : nat :=
  length (filter (fun c => existsb (N.eqb c) (codes "(&|")) s).

(** 1&1&…&1 with [n] conjunctions *)
Fixpoint chain_text (n : nat) : list N := match n with O => codes "1" | S n => codes "1&" ++ chain_text n end.
Fixpoint chain (n : nat) : node := match n with O => Leaf 1 | S n => And (Leaf 1) (chain n) end.

(** ** Proofs *)
Lemma marks_app a b : marks (a ++ b) = (marks a + marks b)%nat.
Proof. unfold marks. rewrite filter_app, app_length. reflexivity. Qed.
Lemma marks_cons c s : marks (c :: s) = ((if existsb (N.eqb c) (codes "(&|") then 1 else 0) + marks s)%nat.
Proof. unfold marks. cbn [filter]. destruct (existsb (N.eqb c) (codes "(&|")); reflexivity. Qed.
Lemma marks_unspace s : marks (filter (fun c => negb (c =? ch_space)) s) = marks s.
Proof.
  induction s as [|c s IH]; [reflexivity|]. cbn [filter]. destruct (N.eqb_spec c ch_space) as [->|H]; cbn [negb].
  - rewrite marks_cons. exact IH.
  - rewrite !marks_cons, IH. reflexivity.
Qed.
Lemma marks_slice s a b t : slice s a b = Ok t -> (marks t <= marks s)%nat.
Proof.
  unfold slice. intros E. destruct (_ && _); [|discriminate]. apply Ok_inj in E. subst t.
  rewrite <- (firstn_skipn a s) at 2. rewrite marks_app. rewrite <- (firstn_skipn (b - a) (skipn a s)) at 2. rewrite marks_app. lia.
Qed.
Lemma marks_slice_from s a t : slice_from s a = Ok t -> (marks t <= marks s)%nat.
Proof.
  unfold slice_from. intros E. destruct (Nat.leb _ _); [|discriminate]. apply Ok_inj in E. subst t.
  rewrite <- (firstn_skipn a s) at 2. rewrite marks_app. lia.
Qed.
Lemma marks_digits s d r : take_digits s = (d, r) -> (marks r <= marks s)%nat.
Proof. intros E. destruct (take_digits_spec s d r E) as (-> & _ & _). rewrite marks_app. lia. Qed.

(** one call, its recursive calls being answered by [rec] *)
Definition step (rec : list N -> outcome node) (P : platform) (s : list N) : outcome node :=
    if match s with [] => true | _ => false end || existsb (fun c => negb (authorized c)) s
    then Err (ParsingError UnexpectedCharacter)
    else
      let new_s := filter (fun c => negb (c =? ch_space)) s in
      let '(integer_str, rest) := take_digits new_s in
      match integer_str with
      | _ :: _ =>
          let* integer := parse_u32 integer_str in
          match rest with
          | [] => Ok (Leaf integer)
          | operator :: new_s =>
              if operator =? ch_and then let* b := rec new_s in Ok (And (Leaf integer) b)
              else if operator =? ch_or then let* b := rec new_s in Ok (Or (Leaf integer) b)
              else Err (ParsingError UnsupportedOperator)
          end
      | [] =>
          match new_s with
          | [] => Err (ParsingError UnexpectedEnd)
          | first_char :: new_s =>
              if negb (first_char =? ch_open) then Err (ParsingError UnexpectedCharacter)
              else if negb (existsb (N.eqb ch_close) new_s) then Err (ParsingError UnexpectedCharacter)
              else
                let* close := find_close P new_s 0 0 in
                let* between := slice new_s 0 close in
                let* new_s := slice_from new_s (length between) in
                let* new_s := slice_from new_s 1 in
                match new_s with
                | [] => rec between
                | operator :: new_s =>
                    if operator =? ch_and then
                      let* a := rec between in
                      let* b := rec new_s in Ok (And a b)
                    else if operator =? ch_or then
                      let* a := rec between in
                      let* b := rec new_s in Ok (Or a b)
                    else Err (ParsingError UnsupportedOperator)
                end
          end
      end.
Lemma parse_fuel_step d P s : parse_fuel (S d) P s = step (parse_fuel d P) P s.
Proof. reflexivity. Qed.

Lemma parse_u32_not_aborted s r : parse_u32 s = Panic r -> False.
Proof.
  unfold parse_u32. destruct s as [|c s]; [discriminate|]. generalize (c :: s) as l. generalize 0 as acc. intros acc l. revert acc.
  induction l as [|x l IH]; intros acc; cbn [parse_u32_from]; [discriminate|].
  destruct (4294967296 <=? acc * 10); [discriminate|]. destruct (4294967296 <=? _); [discriminate|]. apply IH.
Qed.
Lemma find_close_not_aborted P s : forall c i, find_close P s c i <> Panic OutOfFuel.
Proof.
  induction s as [|x s IH]; intros c i; cbn [find_close]; [discriminate|].
  assert (A : forall a b, i32_add P a b <> Panic OutOfFuel).
  { intros a b. unfold i32_add. destruct (_ && _)%Z; [discriminate|]. destruct (overflow_checks P); discriminate. }
  destruct (x =? ch_open); [|destruct (x =? ch_close)].
  - destruct (i32_add P c 1) as [v|e|q] eqn:E; cbn [bind]; [|discriminate|intros Q; apply (A c 1%Z); congruence].
    destruct (v <? 0)%Z; [discriminate|apply IH].
  - destruct (i32_add P c (-1)) as [v|e|q] eqn:E; cbn [bind]; [|discriminate|intros Q; apply (A c (-1)%Z); congruence].
    destruct (v <? 0)%Z; [discriminate|apply IH].
  - cbn [bind]. destruct (c <? 0)%Z; [discriminate|apply IH].
Qed.

Definition joins (op : node -> node -> node) : Prop := op = And \/ op = Or.
Local Ltac const := left; eexists; split; [|split; [|intros rec; reflexivity]].
Lemma step_shape P s :
  (exists r, r <> aborted /\ (forall f, r = Ok f -> height f = 0%nat) /\ forall rec, step rec P s = r) \/
  (exists v e op, joins op /\ (marks e < marks s)%nat /\ forall rec, step rec P s = let* b := rec e in Ok (op (Leaf v) b)) \/
  (exists b, (marks b < marks s)%nat /\ forall rec, step rec P s = rec b) \/
  (exists b e op, joins op /\ (marks b < marks s)%nat /\ (marks e < marks s)%nat /\
     forall rec, step rec P s = let* x := rec b in let* y := rec e in Ok (op x y)).
Proof.
  unfold step. set (g := (match s with [] => true | _ => false end || _)). destruct g.
  { const; discriminate. }
  rewrite <- (marks_unspace s). set (new := filter (fun c => negb (c =? ch_space)) s). cbv zeta.
  destruct (take_digits new) as [ds rest] eqn:T. pose proof (marks_digits _ _ _ T) as Mr.
  destruct ds as [|d ds].
  2:{ destruct (parse_u32 (d :: ds)) as [v|e|q] eqn:E; cbn [bind].
      2:{ const; discriminate. }
      2:{ destruct (parse_u32_not_aborted _ _ E). }
      destruct rest as [|op e]; [const; [discriminate|intros f Q; apply Ok_inj in Q; subst f; reflexivity]|].
      destruct (N.eqb_spec op ch_and) as [->|].
      { right. left. exists v, e, And. split; [left; reflexivity|]. split; [rewrite marks_cons in Mr; cbn in Mr; lia|reflexivity]. }
      destruct (N.eqb_spec op ch_or) as [->|].
      { right. left. exists v, e, Or. split; [right; reflexivity|]. split; [rewrite marks_cons in Mr; cbn in Mr; lia|reflexivity]. }
      const; discriminate. }
  destruct new as [|c x] eqn:En; [const; discriminate|].
  destruct (N.eqb_spec c ch_open) as [->|]; cbn [negb]; [|const; discriminate].
  destruct (existsb (N.eqb ch_close) x); cbn [negb]; [|const; discriminate].
  assert (M : marks (ch_open :: x) = S (marks x)) by (rewrite marks_cons; reflexivity). rewrite M.
  destruct (find_close P x 0 0) as [k|e|q] eqn:E; cbn [bind].
  2:{ const; discriminate. }
  2:{ const; [|discriminate]. intros Q. apply (find_close_not_aborted P x 0 0). unfold aborted in Q. congruence. }
  destruct (slice x 0 k) as [b|e|q] eqn:E1; cbn [bind].
  2:{ const; discriminate. }
  2:{ const; [|discriminate]. unfold slice in E1. destruct (_ && _); [discriminate|]. unfold aborted. congruence. }
  pose proof (marks_slice _ _ _ _ E1) as Mb.
  destruct (slice_from x (length b)) as [y|e|q] eqn:E2; cbn [bind].
  2:{ const; discriminate. }
  2:{ const; [|discriminate]. unfold slice_from in E2. destruct (Nat.leb _ _); [discriminate|]. unfold aborted. congruence. }
  pose proof (marks_slice_from _ _ _ E2) as My.
  destruct (slice_from y 1) as [z|e|q] eqn:E3; cbn [bind].
  2:{ const; discriminate. }
  2:{ const; [|discriminate]. unfold slice_from in E3. destruct (Nat.leb _ _); [discriminate|]. unfold aborted. congruence. }
  pose proof (marks_slice_from _ _ _ E3) as Mz.
  destruct z as [|op e]; [right; right; left; exists b; split; [lia|reflexivity]|].
  rewrite marks_cons in Mz.
  destruct (op =? ch_and).
  { right. right. right. exists b, e, And. split; [left; reflexivity|]. split; [lia|]. split; [lia|reflexivity]. }
  destruct (op =? ch_or).
  { right. right. right. exists b, e, Or. split; [right; reflexivity|]. split; [lia|]. split; [lia|reflexivity]. }
  const; discriminate.
Qed.

(** enough room: the result does not depend on it *)
Lemma enough P : forall d s, (marks s < d)%nat -> forall d', (marks s < d')%nat -> parse_fuel d P s = parse_fuel d' P s.
Proof.
  induction d as [|d IH]; intros s H d' H'; [lia|]. destruct d' as [|d']; [lia|]. rewrite !parse_fuel_step.
  destruct (step_shape P s) as [(r & _ & _ & E)|[(v & e & op & _ & M & E)|[(b & M & E)|(b & e & op & _ & M & M2 & E)]]]; rewrite !E.
  - reflexivity.
  - rewrite (IH e) with (d' := d') by lia. reflexivity.
  - apply IH; lia.
  - rewrite (IH e) with (d' := d') by lia. rewrite (IH b) with (d' := d') by lia. reflexivity.
Qed.
(** any room: the same result or the process is aborted *)
Lemma same_or_aborted P : forall d s, parse_fuel d P s = aborted \/ forall d', (d <= d')%nat -> parse_fuel d' P s = parse_fuel d P s.
Proof.
  induction d as [|d IH]; intros s; [left; reflexivity|].
  rewrite parse_fuel_step. 
  destruct (step_shape P s) as [(r & _ & _ & E)|[(v & e & op & _ & M & E)|[(b & M & E)|(b & e & op & _ & M & M2 & E)]]].
  - right. intros d' H. destruct d' as [|d']; [lia|]. rewrite parse_fuel_step, !E. reflexivity.
  - destruct (IH e) as [A|A]; [left; rewrite E, A; reflexivity|right]. intros d' H. destruct d' as [|d']; [lia|].
    rewrite parse_fuel_step, !E, A by lia. reflexivity.
  - destruct (IH b) as [A|A]; [left; rewrite E, A; reflexivity|right]. intros d' H. destruct d' as [|d']; [lia|].
    rewrite parse_fuel_step, !E, A by lia. reflexivity.
  - destruct (IH b) as [A|A]; [left; rewrite E, A; reflexivity|]. destruct (IH e) as [C|C].
    + destruct (parse_fuel d P b) as [x|x|x] eqn:Eb; rewrite E, Eb; cbn [bind].
      * left. rewrite C. reflexivity.
      * right. intros d' H. destruct d' as [|d']; [lia|]. rewrite parse_fuel_step, !E, A by lia. reflexivity.
      * right. intros d' H. destruct d' as [|d']; [lia|]. rewrite parse_fuel_step, !E, A by lia. reflexivity.
    + right. intros d' H. destruct d' as [|d']; [lia|]. rewrite parse_fuel_step, !E, A, C by lia. reflexivity.
Qed.
Lemma deep P : forall d s f, parse_fuel d P s = Ok f -> (height f < d)%nat.
Proof.
  induction d as [|d IH]; intros s f H; [discriminate|]. rewrite parse_fuel_step in H.
  destruct (step_shape P s) as [(r & _ & Z & E)|[(v & e & op & J & M & E)|[(b & M & E)|(b & e & op & J & M & M2 & E)]]]; rewrite E in H.
  - rewrite (Z f H). lia.
  - destruct (parse_fuel d P e) as [x|x|x] eqn:Ex; [|discriminate|discriminate]. cbn [bind] in H. apply Ok_inj in H. subst f.
    pose proof (IH _ _ Ex). destruct J as [-> | ->]; cbn [height]; lia.
  - pose proof (IH _ _ H). lia.
  - destruct (parse_fuel d P b) as [x|x|x] eqn:Ex; [|discriminate|discriminate]. cbn [bind] in H.
    destruct (parse_fuel d P e) as [y|y|y] eqn:Ey; [|discriminate|discriminate]. cbn [bind] in H. apply Ok_inj in H. subst f.
    pose proof (IH _ _ Ex). pose proof (IH _ _ Ey). destruct J as [-> | ->]; cbn [height]; lia.
Qed.
Lemma marks_length s : (marks s <= length s)%nat.
Proof. unfold marks. induction s as [|c s IH]; [apply Nat.le_refl|]. cbn [filter length]. destruct (existsb _ _); cbn [length]; lia. Qed.

(** ** C98 *)
(** One nested call for each operator and each opening parenthesis is enough, for every text. *)
Theorem C98_enough_room P d (s : list N) : (marks s < d)%nat -> parse_with_room d P s = parse P s.
Proof. intros H. apply enough; [exact H|]. pose proof (marks_length s). lia. Qed.

(** With less room the answer is the same or the process is aborted, never another formula or error. *)
Theorem C98_same_or_aborted P d (s : list N) : parse_with_room d P s = parse P s \/ parse_with_room d P s = aborted.
Proof.
  unfold parse_with_room. destruct (same_or_aborted P d s) as [A|A]; [right; exact A|left].
  destruct (Nat.le_gt_cases d (S (length s))) as [H|H].
  - symmetry. apply (A (S (length s)) H).
  - apply enough; pose proof (marks_length s); lia.
Qed.

(** Every text of a formula that is as deep as the room aborts the process. *)
Theorem C98_deep_formulas_refuted P d (s t : list N) f : below_2GiB s -> spaced s t -> expr t f -> (d <= height f)%nat ->
  parse_with_room d P s = aborted.
Proof.
  intros Hs Sp He Hd. destruct (C98_same_or_aborted P d s) as [A|A]; [|exact A]. exfalso.
  assert (E : parse P s = Ok f) by (apply C31_parser_accepts_the_grammar; [exact Hs|exists t; auto]).
  rewrite E in A. apply deep in A. lia.
Qed.

(** For every room there is a text of a formula, with two characters for each call and one more, that
    aborts the process. *)
Lemma chain_expr n : expr (chain_text n) (chain n).
Proof.
  assert (T : term (codes "1") (Leaf 1)).
  { apply (t_int (codes "1")); [discriminate| |reflexivity]. constructor; [|constructor]. split; vm_compute; discriminate. }
  induction n as [|n IH]; cbn [chain_text chain]; [apply e_term; exact T|].
  change (codes "1&" ++ chain_text n) with (codes "1" ++ codes "&" ++ chain_text n). apply e_and; [exact T|exact IH].
Qed.
Lemma chain_length n : length (chain_text n) = (2 * n + 1)%nat.
Proof. induction n as [|n IH]; [reflexivity|]. cbn [chain_text]. rewrite app_length, IH. cbn. lia. Qed.
Lemma chain_height n : height (chain n) = n.
Proof. induction n as [|n IH]; [reflexivity|]. cbn [chain height]. rewrite IH. cbn. lia. Qed.

Theorem C98_long_formulas_refuted P d : N.of_nat d < 1073741823 ->
  let s := chain_text d in
  expr s (chain d) /\ length s = (2 * d + 1)%nat /\ parse P s = Ok (chain d) /\ parse_with_room d P s = aborted.
Proof.
  intros Hd s. assert (B : below_2GiB s) by (unfold below_2GiB, s; rewrite chain_length; lia).
  assert (Sp : spaced s s) by (apply spaced_unspace; apply unspace_plain; apply (proj2 grammar_plain _ _ (chain_expr d))).
  split; [apply chain_expr|]. split; [apply chain_length|]. split.
  - apply C31_parser_accepts_the_grammar; [exact B|]. exists s. split; [exact Sp|apply chain_expr].
  - apply (C98_deep_formulas_refuted P d s s (chain d) B Sp (chain_expr d)). rewrite chain_height. lia.
Qed.

(** ** Examples *)
(** "1 & (4 | (2 & 3))" has five operators and parentheses and is parsed with six nested calls; its
    formula has height 3; with three the process is aborted. *)
Definition text_13 : list N := codes "1 & (4 | (2 & 3))".
Example C98_example :
  let P := mkPlatform 64 true in
  marks text_13 = 5%nat /\ parse_with_room 6 P text_13 = Ok (And (Leaf 1) (Or (Leaf 4) (And (Leaf 2) (Leaf 3)))) /\
  height (And (Leaf 1) (Or (Leaf 4) (And (Leaf 2) (Leaf 3)))) = 3%nat /\ parse_with_room 3 P text_13 = aborted /\
  (* an unbalanced text is refused with little room as well *)
  parse_with_room 2 P (codes "(1&2") = parse P (codes "(1&2") /\ is_err (parse P (codes "(1&2")).
Proof. cbv zeta. repeat match goal with |- _ /\ _ => split end; try (vm_compute; reflexivity). eexists; vm_compute; reflexivity. Qed.

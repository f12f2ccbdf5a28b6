(** Properties of the formula parser (C31-C33). *)
From Coq Require Import String Ascii NArith ZArith Bool Lia List.
From Verif Require Import Prelude Msp Spec Parser ParserSpec ParserProofs.
Import ListNotations.
Local Open Scope N_scope.

(** The counter of the search for a closing parenthesis is an i32, hence the
    bound on the length of the text. *)
Definition below_2GiB (s : list N) : Prop := N.of_nat (length s) < 2147483648.

Lemma below_small s : below_2GiB s -> small_text s.
Proof. unfold below_2GiB, small_text, i32_max. lia. Qed.

(** ** C31 *)
Theorem C31_parser_accepts_the_grammar P (s : list N) f : below_2GiB s ->
  (parse P s = Ok f <-> exists t, spaced s t /\ expr t f).
Proof.
  intros Hs. rewrite (parse_iff P s f (below_small s Hs)). split.
  - intros H. exists (unspace s). split; [apply spaced_unspace; reflexivity|exact H].
  - intros (t & E & H). apply spaced_unspace in E. rewrite E. exact H.
Qed.

(** the grammar gives a text at most one formula *)
Theorem C31_grammar_unambiguous (t : list N) f g : below_2GiB t -> expr t f -> expr t g -> f = g.
Proof.
  intros Hs Hf Hg. pose proof (proj2 grammar_plain t f Hf) as Fp. pose proof (unspace_plain t Fp) as U.
  rewrite <- U in Hf, Hg. apply (parse_iff (mkPlatform 64 true) t) in Hf; [|apply below_small; exact Hs].
  apply (parse_iff (mkPlatform 64 true) t) in Hg; [|apply below_small; exact Hs]. congruence.
Qed.

(** ** C32 *)
Theorem C32_parser_never_panics P (s : list N) : below_2GiB s -> is_ok (parse P s) \/ is_err (parse P s).
Proof.
  intros Hs. apply no_panic_cases. apply parse_fuel_no_panic; [lia|apply below_small; exact Hs].
Qed.

(** The bound is needed when overflow panics: more than 2^31 opening parentheses
    overflow the counter. *)
Lemma find_close_overflow P r : overflow_checks P = true -> forall n count i, (0 <= count <= i32_max)%Z ->
  (i32_max < count + Z.of_nat n)%Z -> find_close P (repeat ch_open n ++ r) count i = Panic ArithmeticOverflow.
Proof.
  intros Ho. induction n as [|n IH]; intros count i Hc Hn; [lia|]. cbn [repeat app find_close].
  change (ch_open =? ch_open) with true. cbn match.
  destruct (Z.eq_dec count i32_max) as [->|Hne].
  - unfold i32_add. rewrite Ho. reflexivity.
  - assert (E : i32_add P count 1 = Ok (count + 1)%Z) by (apply (i32_add_step P ch_open count); lia).
    rewrite E. cbn [bind]. destruct (Z.ltb_spec (count + 1) 0); [lia|]. apply IH; lia.
Qed.

Theorem C32_refuted P n : overflow_checks P = true -> 2147483648 < N.of_nat n ->
  parse P (repeat ch_open n ++ [ch_close]) = Panic ArithmeticOverflow.
Proof.
  intros Ho Hn. set (s := repeat ch_open n ++ [ch_close]).
  assert (F : Forall plain s).
  { apply Forall_app. split; [|constructor; [split; [reflexivity|discriminate]|constructor]].
    apply Forall_forall. intros x Hx. apply repeat_spec in Hx. subst x. split; [reflexivity|discriminate]. }
  assert (Hne : s <> []) by (unfold s; intros Q; apply app_eq_nil in Q as [_ Q]; discriminate).
  pose proof (plain_guard s Hne F) as G. pose proof (unspace_plain s F) as U.
  unfold parse. cbn [parse_fuel]. fold (guard s). rewrite G. fold (unspace s). rewrite U.
  destruct n as [|n]; [lia|]. unfold s. cbn [repeat app take_digits]. change (is_digit ch_open) with false. cbn match.
  change (negb (ch_open =? ch_open)) with false. cbn match. rewrite existsb_close. cbn [negb].
  rewrite find_close_overflow; [reflexivity|exact Ho|unfold i32_max; lia|unfold i32_max; lia].
Qed.

(** Without overflow checks the counter becomes negative there, and an opening
    parenthesis is taken for the closing one. *)
Lemma find_close_wraps P r : overflow_checks P = false -> forall m count i, (count + Z.of_nat m = i32_max)%Z -> (0 <= count)%Z ->
  find_close P (repeat ch_open m ++ ch_open :: r) count i = Ok (i + m)%nat.
Proof.
  intros Ho. induction m as [|m IH]; intros count i Hm Hc; cbn [repeat app find_close]; change (ch_open =? ch_open) with true; cbn match.
  - assert (E : i32_add P count 1 = Ok (i32_wrap (count + 1))).
    { unfold i32_add. rewrite Ho. destruct (Z.leb_spec (count + 1) i32_max); [lia|]. rewrite andb_false_r. reflexivity. }
    rewrite E. cbn [bind]. replace (count + 1)%Z with (2 ^ 31)%Z by (unfold i32_max in Hm; lia).
    change (i32_wrap (2 ^ 31) <? 0)%Z with true. cbn match. f_equal. lia.
  - assert (E : i32_add P count 1 = Ok (count + 1)%Z) by (apply (i32_add_step P ch_open count); lia).
    rewrite E. cbn [bind]. destruct (Z.ltb_spec (count + 1) 0); [lia|]. rewrite IH by lia. f_equal. lia.
Qed.

(** So the bound of C31 is needed in such builds too: the number 1 within more than
    2^31 pairs of parentheses is a formula, and refused. *)
Theorem C31_deep_refuted P n : overflow_checks P = false -> 2147483648 < N.of_nat n ->
  let s := repeat ch_open n ++ codes "1" ++ repeat ch_close n in
  expr s (Leaf 1) /\ parse P s = Err (ParsingError UnsupportedOperator).
Proof.
  intros Ho Hn s.
  assert (X : forall k, expr (repeat ch_open k ++ codes "1" ++ repeat ch_close k) (Leaf 1)).
  { induction k as [|k IH].
    - apply e_term. change (Leaf 1) with (Leaf (decimal [49])). cbn [repeat app]. rewrite app_nil_r.
      apply t_int; [discriminate|constructor; [unfold digit; lia|constructor]|reflexivity].
    - apply e_term. replace (repeat ch_open (S k) ++ codes "1" ++ repeat ch_close (S k))
        with (codes "(" ++ (repeat ch_open k ++ codes "1" ++ repeat ch_close k) ++ codes ")"); [apply t_paren; exact IH|].
      change (codes "(") with [ch_open]. change (codes ")") with [ch_close]. cbn [repeat app].
      rewrite <- !app_assoc. rewrite <- repeat_cons. reflexivity. }
  split; [apply X|].
  pose proof (proj2 grammar_plain s _ (X n)) as F.
  assert (Hne : s <> []) by (exact (proj2 grammar_nonempty s _ (X n))).
  pose proof (plain_guard s Hne F) as G. pose proof (unspace_plain s F) as U.
  unfold parse. cbn [parse_fuel]. fold (guard s). rewrite G. fold (unspace s). rewrite U. clear G U F Hne X.
  assert (M : exists m, Z.of_nat m = i32_max) by (exists (Z.to_nat i32_max); apply Z2Nat.id; apply Z.leb_le; reflexivity).
  destruct M as [m Hm]. unfold i32_max in Hm.
  assert (exists k, n = S (m + S k)) as [k ->] by (exists (n - 1 - S m)%nat; lia).
  assert (E : s = ch_open :: repeat ch_open m ++ ch_open :: (repeat ch_open k ++ codes "1" ++ repeat ch_close (S (m + S k)))).
  { unfold s. cbn [repeat app]. rewrite repeat_app, <- app_assoc. reflexivity. }
  rewrite E. set (r := repeat ch_open k ++ codes "1" ++ repeat ch_close (S (m + S k))).
  cbn [take_digits]. change (is_digit ch_open) with false. cbn match. change (negb (ch_open =? ch_open)) with false. cbn match.
  assert (EX : existsb (N.eqb ch_close) (repeat ch_open m ++ ch_open :: r) = true).
  { apply existsb_exists. exists ch_close. split; [|reflexivity]. apply in_or_app. right. right. unfold r. apply in_or_app. right.
    apply in_or_app. right. cbn [repeat]. left. reflexivity. }
  rewrite EX. cbn [negb].
  rewrite (find_close_wraps P r Ho m 0 0) by (rewrite ?Hm; unfold i32_max; lia). cbn [bind]. rewrite Nat.add_0_l.
  set (o := repeat ch_open m). replace m with (length o) by (apply repeat_length). rewrite slice_prefix. cbn [bind].
  rewrite slice_from_suffix. cbn [bind].
  change (slice_from (ch_open :: r) 1) with (slice_from ([ch_open] ++ r) (length [ch_open])). rewrite slice_from_suffix. cbn [bind].
  unfold r. clear. destruct k as [|k]; reflexivity.
Qed.

(** Which error some malformed texts give: a foreign character is named before
    anything else is looked at, *)
Theorem C32_foreign_character P (s : list N) : s = [] \/ (exists c, In c s /\ ~ In c (codes " ()&|0123456789")) ->
  parse P s = Err (ParsingError UnexpectedCharacter).
Proof.
  intros H. unfold parse. cbn [parse_fuel]. destruct H as [->|(c & Hc & Hn)]; [reflexivity|].
  assert (A : authorized c = false).
  { apply not_true_is_false. intros A. apply Hn. unfold authorized, is_digit in A.
    rewrite !orb_true_iff, andb_true_iff, !N.eqb_eq, !N.leb_le in A.
    change (In c [32; 40; 41; 38; 124; 48; 49; 50; 51; 52; 53; 54; 55; 56; 57]).
    unfold ch_space, ch_open, ch_close, ch_and, ch_or in A. cbn [In].
    destruct A as [A|A]; [destruct A as [[[[A|A]|A]|A]|A]; subst c; tauto|]. lia. }
  assert (E : existsb (fun c => negb (authorized c)) s = true).
  { apply existsb_exists. exists c. split; [exact Hc|]. rewrite A. reflexivity. }
  rewrite E, orb_true_r. reflexivity.
Qed.

(** a text of spaces only is one that ends too early, *)
Theorem C32_only_spaces P n : (0 < n)%nat -> parse P (repeat ch_space n) = Err (ParsingError UnexpectedEnd).
Proof.
  intros Hn. unfold parse. cbn [parse_fuel].
  assert (E : existsb (fun c => negb (authorized c)) (repeat ch_space n) = false) by (apply authorized_ok, Forall_forall; intros x Hx; apply repeat_spec in Hx; subst x; reflexivity).
  rewrite E. destruct n as [|n]; [lia|]. cbn [repeat orb].
  replace (filter _ (ch_space :: repeat ch_space n)) with (@nil N); [reflexivity|].
  cbn [filter]. change (negb (ch_space =? ch_space)) with false. cbn match. clear. induction n as [|n IH]; [reflexivity|]. cbn [repeat filter].
  change (negb (ch_space =? ch_space)) with false. exact IH.
Qed.

(** and a number of 2^32 or more is a number error whatever follows. *)
Theorem C32_number_too_large P (d r : list N) : d <> [] -> Forall (fun c => 48 <= c <= 57) d -> 4294967296 <= decimal d ->
  Forall (fun c => In c (codes "()&|")) r -> parse P (d ++ r) = Err (ParsingError ParseIntError).
Proof.
  intros Hd Fd Hb Fr.
  assert (R : Forall (fun c => plain c /\ is_digit c = false) r).
  { eapply Forall_impl; [|exact Fr]. intros c Hc. cbv beta in Hc. change (In c [40; 41; 38; 124]) in Hc. cbn [In] in Hc.
    destruct Hc as [<-|[<-|[<-|[<-|[]]]]]; (split; [split; [reflexivity|discriminate]|reflexivity]). }
  assert (D : Forall (fun c => plain c /\ is_digit c = true) d).
  { eapply Forall_impl; [|exact Fd]. intros c Hc. cbv beta in Hc.
    assert (Q : is_digit c = true) by (unfold is_digit; rewrite andb_true_iff, !N.leb_le; lia).
    split; [split; [unfold authorized; rewrite Q; apply orb_true_r|unfold ch_space; lia]|exact Q]. }
  assert (F : Forall plain (d ++ r)) by (apply Forall_app; split; eapply Forall_impl; [|exact D| |exact R]; intros c [Q _]; exact Q).
  assert (Hne : d ++ r <> []) by (intros Q; apply app_eq_nil in Q as [Q _]; contradiction).
  pose proof (plain_guard _ Hne F) as G. pose proof (unspace_plain _ F) as U.
  unfold parse. cbn [parse_fuel]. fold (guard (d ++ r)). rewrite G. fold (unspace (d ++ r)). rewrite U.
  assert (T : take_digits (d ++ r) = (d, r)).
  { clear - D R. induction D as [|c d [_ Hc] D IH]; cbn [app].
    - destruct R as [|c r [_ Hc] R]; cbn [take_digits]; [reflexivity|]. rewrite Hc. reflexivity.
    - cbn [take_digits]. rewrite Hc, IH. reflexivity. }
  rewrite T. destruct d as [|c d]; [contradiction|]. rewrite parse_u32_spec by discriminate.
  destruct (N.ltb_spec (decimal (c :: d)) 4294967296); [lia|]. reflexivity.
Qed.

(** ** C33 *)
Theorem C33_print_parse P f s : Forall (fun v => v < 4294967296) (leaves f) -> below_2GiB s ->
  spaced s (print f) \/ spaced s (print_short f) -> parse P s = Ok f.
Proof.
  intros F Hs [H|H]; apply C31_parser_accepts_the_grammar; try exact Hs; eexists; (split; [exact H|]).
  - apply print_expr. exact F.
  - apply print_short_expr. exact F.
Qed.

(** Two formulas with the same text are equal. *)
Theorem C33_print_injective f g : Forall (fun v => v < 4294967296) (leaves f) -> Forall (fun v => v < 4294967296) (leaves g) ->
  below_2GiB (print f) -> print f = print g -> f = g.
Proof.
  intros Ff Fg Hs E. apply (C31_grammar_unambiguous (print f)); [exact Hs|apply print_expr; exact Ff|].
  rewrite E. apply print_expr. exact Fg.
Qed.

(** ** Examples *)
Definition pf64 : platform := mkPlatform 64 true.

Example C31_example :
  parse pf64 (codes "1 & (4 | (2 & 3))") = Ok (And (Leaf 1) (Or (Leaf 4) (And (Leaf 2) (Leaf 3)))) /\
  parse pf64 (codes "((1))&((2))") = Ok (And (Leaf 1) (Leaf 2)) /\
  parse pf64 (codes "1 & 2 | 3") = Ok (And (Leaf 1) (Or (Leaf 2) (Leaf 3))) /\
  parse pf64 (codes "1 2") = Ok (Leaf 12) /\
  parse pf64 (codes "4294967295") = Ok (Leaf 4294967295) /\
  below_2GiB (codes "1 & (4 | (2 & 3))").
Proof. repeat split. Qed.

Example C32_example :
  is_err (parse pf64 (codes "1 & 4 | (2 & 3))")) /\ is_err (parse pf64 (codes "(1 & 2)  (2 & 3)")) /\
  is_err (parse pf64 (codes "1 | ")) /\ is_err (parse pf64 (codes "1 | 2 & 3)")) /\
  is_err (parse pf64 (codes "1 && (4 | (2 & 3))")) /\ is_err (parse pf64 (codes "((1)")) /\ is_err (parse pf64 (codes "()")) /\
  is_err (parse pf64 (codes "")) /\ is_err (parse pf64 (codes "   ")) /\ is_err (parse pf64 (codes "4294967296")) /\
  is_err (parse pf64 [233]) /\ is_err (parse pf64 (codes "(1&(2)")).
Proof. repeat split; eexists; reflexivity. Qed.

Example C32_errors_example :
  parse pf64 (codes "1 and 2") = Err (ParsingError UnexpectedCharacter) /\ parse pf64 [49; 10] = Err (ParsingError UnexpectedCharacter) /\
  parse pf64 (codes "4294967296)&(") = Err (ParsingError ParseIntError) /\ decimal (codes "4294967296") = 4294967296 /\
  parse pf64 (codes "  ") = Err (ParsingError UnexpectedEnd) /\ ~ In 10 (codes " ()&|0123456789").
Proof. repeat (split; [reflexivity|]). cbn. intuition discriminate. Qed.

Example C31_deep_example : exists n, N.of_nat n = 2147483649 /\
  parse (mkPlatform 64 false) (repeat ch_open n ++ codes "1" ++ repeat ch_close n) = Err (ParsingError UnsupportedOperator).
Proof.
  assert (M : exists n, N.of_nat n = 2147483649) by (exists (N.to_nat 2147483649); apply N2Nat.id).
  destruct M as [n Hn]. exists n. split; [exact Hn|]. apply C31_deep_refuted; [reflexivity|]. rewrite Hn. reflexivity.
Qed.

Definition ex_formula : node := Or (And (Leaf 10) (Or (Leaf 0) (Leaf 4294967295))) (And (Leaf 7) (Leaf 8)).
Example C33_example :
  print ex_formula = codes "((10)&((0)|(4294967295)))|((7)&(8))" /\
  print_short ex_formula = codes "(10&0|4294967295)|7&8" /\
  Forall (fun v => v < 4294967296) (leaves ex_formula) /\
  parse pf64 (codes " ( 10 & 0 | 4294967295 ) | 7 & 8 ") = Ok ex_formula /\
  spaced (codes " ( 10 & 0 | 4294967295 ) | 7 & 8 ") (print_short ex_formula).
Proof.
  split; [reflexivity|]. split; [reflexivity|]. split; [repeat constructor|]. split; [reflexivity|].
  apply spaced_unspace. reflexivity.
Qed.

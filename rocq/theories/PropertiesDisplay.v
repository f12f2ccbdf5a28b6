(** Texts of formulas and span programs: C93 and C94. *)
From Coq Require Import String Ascii NArith ZArith Bool Lia List.
From Verif Require Import Prelude Field LinAlg Msp Spec MspProofs MspTheorems Parser ParserSpec ParserProofs PropertiesParser
  Bilinear Scheme SchemeSpec PropertiesScheme Zp ExpModel Display.
Import ListNotations.
Local Open Scope N_scope.

(** ** C93 *)
Lemma digits_cut a b r1 r2 c1 c2 : ~ digit c1 -> ~ digit c2 ->
  digits a ++ c1 :: r1 = digits b ++ c2 :: r2 -> a = b /\ c1 = c2 /\ r1 = r2.
Proof.
  intros H1 H2 E. destruct (digits_spec a) as (_ & Fa & Va). destruct (digits_spec b) as (_ & Fb & Vb).
  assert (T1 : take_digits (digits a ++ c1 :: r1) = (digits a, c1 :: r1)).
  { apply take_digits_app; [exact Fa|]. intros c r' [= <- _]. exact H1. }
  rewrite E in T1. rewrite take_digits_app in T1 by (try exact Fb; intros c r' [= <- _]; exact H2).
  assert (digits b = digits a /\ c2 :: r2 = c1 :: r1) as [Ed Er] by (split; congruence).
  split; [rewrite <- Va, <- Vb, Ed; reflexivity|]. split; congruence.
Qed.

Lemma not_digit_lt c : c < 48 -> ~ digit c.
Proof. unfold digit. lia. Qed.

Lemma show_node_cut f : forall g r1 r2, show_node f ++ r1 = show_node g ++ r2 -> f = g /\ r1 = r2.
Proof.
  induction f as [a IHa b IHb|a IHa b IHb|v]; intros [c d|c d|w] r1 r2 E; cbn [show_node] in E;
    try (cbn [codes app] in E; discriminate); rewrite <- !app_assoc in E.
  - apply app_inv_head in E. apply IHa in E as [-> E]. apply app_inv_head in E. apply IHb in E as [-> E].
    apply app_inv_head in E. auto.
  - apply app_inv_head in E. apply IHa in E as [-> E]. apply app_inv_head in E. apply IHb in E as [-> E].
    apply app_inv_head in E. auto.
  - apply app_inv_head in E. cbn [codes app] in E. apply digits_cut in E as (-> & _ & ->); [auto| |];
      apply not_digit_lt; vm_compute; reflexivity.
Qed.

(** Different formulas are shown differently, and neither text starts the other. *)
Theorem C93_formula_text f g rest : show_node f = show_node g ++ rest -> f = g /\ rest = [].
Proof.
  intros E. rewrite <- (app_nil_r (show_node f)) in E. apply show_node_cut in E as [-> <-]. auto.
Qed.

(** but the text of a formula is never accepted by the parser of formulas *)
Theorem C93_text_parses_refuted P f : parse P (show_node f) = Err (ParsingError UnexpectedCharacter).
Proof.
  assert (A : existsb (fun c => negb (authorized c)) (show_node f) = true).
  { apply existsb_exists. destruct f as [a b|a b|v]; [exists 65|exists 79|exists 76]; (split; [left; reflexivity|reflexivity]). }
  unfold parse. cbn [parse_fuel]. rewrite A, orb_true_r. reflexivity.
Qed.

Lemma show_i32_cut a b r1 r2 c1 c2 : ~ digit c1 -> ~ digit c2 ->
  show_i32 a ++ c1 :: r1 = show_i32 b ++ c2 :: r2 -> a = b /\ c1 = c2 /\ r1 = r2.
Proof.
  intros H1 H2. unfold show_i32.
  assert (D : forall n, exists c t, digits n = c :: t /\ c <> 45).
  { intros n. destruct (digits_spec n) as (Hne & F & _). destruct (digits n) as [|c t]; [contradiction|]. exists c, t.
    split; [reflexivity|]. inversion F as [|? ? Hc _]; subst. unfold digit in Hc. lia. }
  destruct (Z.ltb_spec a 0), (Z.ltb_spec b 0); intros E.
  - rewrite <- !app_assoc in E. apply app_inv_head in E. apply digits_cut in E as (Q & -> & ->); [|assumption|assumption].
    split; [lia|auto].
  - destruct (D (Z.to_N b)) as (c & t & Q & N). rewrite Q in E. cbn [codes app] in E. exfalso. injection E as E _.
    change (N_of_ascii "-") with 45 in E. congruence.
  - destruct (D (Z.to_N a)) as (c & t & Q & N). rewrite Q in E. cbn [codes app] in E. exfalso. injection E as E _.
    change (N_of_ascii "-") with 45 in E. congruence.
  - apply digits_cut in E as (Q & -> & ->); [|assumption|assumption]. split; [lia|auto].
Qed.

Lemma i32_first a : exists c t, show_i32 a = c :: t /\ c <> 93.
Proof.
  unfold show_i32. destruct (a <? 0)%Z; [exists 45; eexists; split; [reflexivity|discriminate]|].
  destruct (digits_spec (Z.to_N a)) as (Hne & F & _). destruct (digits (Z.to_N a)) as [|c t]; [contradiction|]. exists c, t.
  split; [reflexivity|]. inversion F as [|? ? Hc _]; subst. unfold digit in Hc. lia.
Qed.

(** a row followed by the closing bracket *)
Lemma join_cut r : forall q t1 t2, join (map show_i32 r) ++ 93 :: t1 = join (map show_i32 q) ++ 93 :: t2 -> r = q /\ t1 = t2.
Proof.
  assert (D93 : ~ digit 93) by (unfold digit; lia). assert (D44 : ~ digit 44) by (unfold digit; lia).
  induction r as [|a r IH]; intros [|b q] t1 t2 E.
  - cbn [map join app] in E. split; congruence.
  - exfalso. destruct (i32_first b) as (c & t & Q & N). cbn [map join app] in E.
    destruct (map show_i32 q); rewrite Q in E; cbn [app] in E; congruence.
  - exfalso. destruct (i32_first a) as (c & t & Q & N). cbn [map join app] in E.
    destruct (map show_i32 r); rewrite Q in E; cbn [app] in E; congruence.
  - destruct r as [|a' r], q as [|b' q]; cbn [map join] in E.
    + apply show_i32_cut in E as (-> & _ & ->); auto.
    + exfalso. rewrite <- app_assoc in E. cbn [codes app] in E. change (N_of_ascii ",") with 44 in E.
      apply show_i32_cut in E as (_ & Q & _); auto. discriminate.
    + exfalso. rewrite <- app_assoc in E. cbn [codes app] in E. change (N_of_ascii ",") with 44 in E.
      apply show_i32_cut in E as (_ & Q & _); auto. discriminate.
    + rewrite <- !app_assoc in E. cbn [codes app] in E. change (N_of_ascii ",") with 44 in E.
      apply show_i32_cut in E as (-> & _ & E); auto. injection E as E. destruct (IH (b' :: q) t1 t2 E) as [Q ->]. rewrite Q. auto.
Qed.

Lemma spaces_cut d : forall n m s t, Forall digit d -> d <> [] -> forall d', Forall digit d' -> d' <> [] ->
  repeat 32 n ++ d ++ s = repeat 32 m ++ d' ++ t -> n = m /\ d ++ s = d' ++ t.
Proof.
  intros n. induction n as [|n IH]; intros m s t Hd Hne d' Hd' Hne' E; destruct m as [|m]; cbn [repeat app] in E.
  - auto.
  - exfalso. destruct d as [|c d]; [contradiction|]. inversion Hd as [|? ? Hc _]; subst. cbn [app] in E. unfold digit in Hc. assert (c = 32) by congruence. lia.
  - exfalso. destruct d' as [|c d']; [contradiction|]. inversion Hd' as [|? ? Hc _]; subst. cbn [app] in E. unfold digit in Hc. assert (32 = c) by congruence. lia.
  - injection E as E. apply IH in E as [-> E]; auto.
Qed.

Lemma show_line_cut a r b q t1 t2 : show_line a r ++ t1 = show_line b q ++ t2 -> a = b /\ r = q /\ t1 = t2.
Proof.
  unfold show_line, pad4, show_row. intros E. rewrite <- !app_assoc in E. apply app_inv_head in E.
  destruct (digits_spec a) as (Na & Fa & _). destruct (digits_spec b) as (Nb & Fb & _).
  apply spaces_cut in E as [_ E]; auto. cbn [codes app] in E. change (N_of_ascii ":") with 58 in E.
  apply digits_cut in E as (-> & _ & E); [|unfold digit; lia|unfold digit; lia].
  injection E as E. change (N_of_ascii "]") with 93 in E. apply join_cut in E as [-> E]. split; [reflexivity|]. split; [reflexivity|].
  injection E as E. exact E.
Qed.

Lemma line_nonempty a r : show_line a r <> [].
Proof. discriminate. Qed.

Lemma show_rows_inj (l1 l2 : list (N * list Z)) :
  concat (map (fun '(a, r) => show_line a r) l1) = concat (map (fun '(a, r) => show_line a r) l2) -> l1 = l2.
Proof.
  revert l2. induction l1 as [|[a r] l1 IH]; intros [|[b q] l2] E; cbn [map concat] in E; [reflexivity|discriminate|discriminate|].
  apply show_line_cut in E as (-> & -> & E). f_equal. apply IH. exact E.
Qed.

(** Programs shown alike are the same program. *)
Theorem C93_program_text P1 P2 f g m1 m2 : to_msp P1 f = Ok m1 -> to_msp P2 g = Ok m2 ->
  show_msp m1 = show_msp m2 -> m1 = m2.
Proof.
  intros H1 H2 E. unfold show_msp in E. apply app_inv_head in E. apply show_rows_inj in E.
  assert (KL : FieldLaws (zp_ops m101)) by (apply zp_laws; exact prime_101).
  destruct (to_msp_msp_of _ KL P1 f m1 H1) as [_ _ R1 C1 L1 W1 _ I1 _ _].
  destruct (to_msp_msp_of _ KL P2 g m2 H2) as [_ _ R2 C2 L2 W2 _ I2 _ _].
  assert (Ne : matrix m1 <> []).
  { destruct (C34_compiles_iff_distinct P1 f) as (_ & _ & A). destruct (A m1 H1) as (_ & _ & _ & L & _).
    intros Q. rewrite Q in L. assert (N : forall h, (1 <= length (leaves h))%nat).
    { intros h. induction h; cbn [leaves length]; rewrite ?app_length; lia. }
    specialize (N f). cbn in L. lia. }
  assert (Ea : row_to_attr m1 = row_to_attr m2 /\ matrix m1 = matrix m2).
  { pose proof (combine_split (row_to_attr m1) (matrix m1) (eq_sym L1)) as S1.
    pose proof (combine_split (row_to_attr m2) (matrix m2) (eq_sym L2)) as S2.
    rewrite E in S1. rewrite S1 in S2. split; congruence. }
  destruct Ea as [Ea Em].
  assert (Hr : nb_row m1 = nb_row m2) by congruence.
  assert (Hc : nb_col m1 = nb_col m2).
  { destruct (matrix m1) as [|r0 rs] eqn:Q; [contradiction|]. rewrite <- (W1 r0 (or_introl eq_refl)).
    apply W2. rewrite <- Em. left; reflexivity. }
  assert (Hi : attr_to_row m1 = attr_to_row m2) by congruence.
  destruct m1 as [a1 b1 c1 d1 e1], m2 as [a2 b2 c2 d2 e2]. cbn [nb_row nb_col matrix attr_to_row row_to_attr] in *. congruence.
Qed.

(** ** C94 *)

(** the rows of a program over a field whose attributes are in [S] combine to the
    row of ones *)
Definition selects {K : FieldOps} (m : msp K) (S : N -> Prop) : Prop :=
  exists coef : N -> K, (forall a, coef a <> f0 -> S a) /\
    forall j, (j < nb_col m)%nat ->
      combination (map (fun p => (coef (fst p), snd p)) (combine (row_to_attr m) (matrix m))) j = f1.

Lemma combine_map_r {A B C} (g : B -> C) (l : list A) : forall k, combine l (map g k) = map (fun p => (fst p, g (snd p))) (combine l k).
Proof. induction l as [|x l IH]; intros [|y k]; cbn; [reflexivity|reflexivity|reflexivity|]. rewrite IH. reflexivity. Qed.

Lemma selects_spans (K : FieldOps) (m : msp Z) S : selects (msp_map (@of_i32 K) m) S <-> spans K m S.
Proof.
  unfold selects, spans. cbn [msp_map nb_col row_to_attr matrix].
  split; intros (coef & H & G); exists coef; (split; [exact H|]); intros j Hj; specialize (G j Hj);
    rewrite combine_map_r, map_map in *; cbn [fst snd] in *; exact G.
Qed.

(** A text gives a program exactly when it is a formula of the grammar in which no
    attribute occurs twice; every other text gives an error. *)
Theorem C94_accepted {K : FieldOps} P s : below_2GiB s ->
  (is_ok (msp_parse (K := K) P s) <-> exists t f, spaced s t /\ expr t f /\ NoDup (leaves f)) /\
  (is_ok (msp_parse (K := K) P s) \/ is_err (msp_parse (K := K) P s)).
Proof.
  intros Hs. split; [split|].
  - intros [m E]. unfold msp_parse in E. destruct (parse P s) as [f| |] eqn:Ep; try discriminate. cbn [bind] in E.
    destruct (to_msp P f) as [z| |] eqn:Em; try discriminate.
    apply (C31_parser_accepts_the_grammar P s f Hs) in Ep as (t & Et & Ef). exists t, f. split; [exact Et|]. split; [exact Ef|].
    apply (proj1 (C34_compiles_iff_distinct P f)). exists z. exact Em.
  - intros (t & f & Et & Ef & Hn). assert (Ep : parse P s = Ok f) by (apply (C31_parser_accepts_the_grammar P s f Hs); exists t; auto).
    apply (proj1 (C34_compiles_iff_distinct P f)) in Hn as [m Em]. unfold msp_parse. rewrite Ep. cbn [bind]. rewrite Em. eexists; reflexivity.
  - unfold msp_parse. destruct (C32_parser_never_panics P s Hs) as [[f Ep]|[e Ep]]; rewrite Ep; cbn [bind]; [|right; eexists; reflexivity].
    destruct (NoDup_N_dec (leaves f)) as [Hn|Hn].
    + apply (proj1 (C34_compiles_iff_distinct P f)) in Hn as [m Em]. rewrite Em. left; eexists; reflexivity.
    + rewrite (proj1 (proj2 (C34_compiles_iff_distinct P f)) Hn). right; eexists; reflexivity.
Qed.

(** The program selects exactly the sets of attributes that satisfy the formula. *)
Theorem C94_program_of_text (K : FieldOps) (KL : FieldLaws K) P s m : below_2GiB s -> msp_parse (K := K) P s = Ok m ->
  exists t f, spaced s t /\ expr t f /\ Permutation.Permutation (row_to_attr m) (leaves f) /\
    forall S, selects m S <-> holds S f.
Proof.
  intros Hs E. unfold msp_parse in E. destruct (parse P s) as [f| |] eqn:Ep; try discriminate. cbn [bind] in E.
  destruct (to_msp P f) as [z| |] eqn:Em; try discriminate. cbn [bind] in E. injection E as <-.
  apply (C31_parser_accepts_the_grammar P s f Hs) in Ep as (t & Et & Ef). exists t, f. split; [exact Et|]. split; [exact Ef|].
  split; [exact (mo_perm _ _ _ (to_msp_msp_of K KL P f z Em))|].
  intros S. rewrite selects_spans. apply (C03_span_program_computes_formula K KL P f z S Em).
Qed.

(** ** Examples *)
Example C93_example :
  show_node (bitand (Leaf 1) (bitor (Leaf 40) (Leaf 4294967295))) = codes "AND( LEAF(1), OR( LEAF(40), LEAF(4294967295) ) )" /\
  (exists m, to_msp pf64 (And (Leaf 1) (Or (Leaf 40) (And (Leaf 2) (Leaf 12345)))) = Ok m /\
    show_msp m = [10] ++ codes "attr    1: [1, 2, 1]" ++ [10] ++ codes "attr   40: [0, -1, 0]" ++ [10] ++
      codes "attr    2: [0, -1, 1]" ++ [10] ++ codes "attr 12345: [0, 0, -1]" ++ [10]).
Proof. split; [vm_compute; reflexivity|]. eexists. split; vm_compute; reflexivity. Qed.

Example C94_example :
  is_ok (msp_parse (K := zp_ops m101) pf64 (codes "1 & (4 | (2 & 3))")) /\
  is_err (msp_parse (K := zp_ops m101) pf64 (codes "1 & (4 | (1 & 3))")) /\
  is_err (msp_parse (K := zp_ops m101) pf64 (codes "AND( LEAF(1), LEAF(2) )")).
Proof. repeat split; eexists; vm_compute; reflexivity. Qed.

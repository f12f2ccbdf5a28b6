(** The span program and the span solver against their specifications. *)
From Coq Require Import String NArith ZArith Bool Lia Field_theory Field List.
From Verif Require Import Prelude Field LinAlg Msp Spec MspProofs Minimal Gauss GaussProofs Bilinear Scheme SchemeSpec SchemeProofs.
Import ListNotations.

Lemma assoc_combine_seq (l : list N) a i : NoDup l ->
  (assoc_get (combine l (seq 0 (length l))) a = Some i <-> nth_error l i = Some a).
Proof.
  intros Hnd. split.
  - intros H. apply assoc_get_combine_some in H as [_ H]. rewrite Nat.sub_0_r in H. exact H.
  - intros H. apply (assoc_get_combine_nodup l 0 i a Hnd) in H. exact H.
Qed.

Section MspTheorems.
Variable K : FieldOps.
Variable KL : FieldLaws K.
Declare Scope fld.
Local Notation "0" := (@f0 K) : fld.
Local Notation "1" := (@f1 K) : fld.
Local Infix "+" := (@fadd K) : fld.
Local Infix "*" := (@fmul K) : fld.
Local Infix "-" := (@fsub K) : fld.
Local Notation "- x" := (@fneg K x) : fld.
Local Open Scope fld.
Add Field KF8 : (fl_field K KL).

Lemma combination_sum (l : list (K * list K)) j : combination l j = suml (fun p => fst p * nth j (snd p) 0) l.
Proof. reflexivity. Qed.

Lemma holds_list S f : holds S f -> exists T, (forall a, In a T -> S a) /\ holds (attrs T) f.
Proof.
  induction f as [a IHa b IHb|a IHa b IHb|v]; simpl.
  - intros [H1 H2]. destruct (IHa H1) as (T1 & S1 & h1). destruct (IHb H2) as (T2 & S2 & h2).
    exists (T1 ++ T2). split.
    + intros x Hx. apply in_app_or in Hx as []; auto.
    + split; (eapply holds_mono; [|eassumption]); intros x _ Hx; apply in_or_app; auto.
  - intros [H|H]; [destruct (IHa H) as (T & S1 & h1)|destruct (IHb H) as (T & S1 & h1)]; exists T; auto.
  - intros H. exists [v]. split; [|left; reflexivity]. intros x [<-|[]]; exact H.
Qed.

Lemma nth_of_i32 j (r : list Z) : (forall x, In x r -> (-1 <= x <= 2)%Z) ->
  nth j (map (@of_i32 K) r) 0 = of_Z (nth j r 0%Z).
Proof.
  intros H. destruct (Nat.lt_ge_cases j (length r)) as [Hj|Hj].
  - rewrite (nth_indep _ 0 (@of_i32 K 0%Z)) by (rewrite map_length; exact Hj). rewrite map_nth.
    apply (fl_i32 K KL). pose proof (H _ (nth_In r 0%Z Hj)). unfold i32_range, i32_min, i32_max. lia.
  - rewrite !nth_overflow by (rewrite ?map_length; exact Hj). reflexivity.
Qed.

Lemma spans_wt f m (coef : N -> K) : msp_of K f m ->
  (forall j, (j < nb_col m)%nat ->
      combination (map (fun p => (coef (fst p), map of_i32 (snd p))) (combine (row_to_attr m) (matrix m))) j = 1)
  <-> wt K coef f 1.
Proof.
  intros M. rewrite <- (mo_wt K f m M coef 1).
  rewrite (comb_columns K KL coef 1 m (mo_width K f m M)).
  assert (E : forall j, combination (map (fun p => (coef (fst p), map of_i32 (snd p))) (combine (row_to_attr m) (matrix m))) j
            = suml (fun p => coef (fst p) * of_Z (nth j (snd p) 0%Z)) (labelled m)).
  { intros j. rewrite combination_sum, suml_map. apply suml_ext. intros [a r] Hp. cbn [fst snd].
    rewrite nth_of_i32; [reflexivity|]. intros x Hx. apply in_combine_r in Hp.
    apply (mo_entries K f m M r x Hp Hx). }
  split; intros H j Hj; [rewrite <- E|rewrite E]; apply H; exact Hj.
Qed.

Lemma spans_iff P f m S : to_msp P f = Ok m -> (spans K m S <-> holds S f).
Proof.
  intros Hm. pose proof (to_msp_msp_of K KL P f m Hm) as M. split.
  - intros (coef & Hz & Hc). apply (spans_wt f m coef M) in Hc.
    eapply holds_mono; [|apply (wt_holds K KL coef f 1 (fun a => coef a <> 0))].
    + intros a _ Ha. apply Hz. exact Ha.
    + intros a. destruct (K_eq_dec K KL (coef a) 0); [right|left]; tauto.
    + exact Hc.
    + apply (K_1_neq_0 K KL).
    + intros v _ Hv. destruct (K_eq_dec K KL (coef v) 0); tauto.
  - intros H. destruct (holds_list S f H) as (T & HS & HT).
    destruct (minimal_exists f (length T) T (le_n _) HT) as (T0 & Hi & HM).
    exists (ind K T0). split.
    + intros a Ha. destruct (in_dec N.eq_dec a T0) as [Hin|Hn]; [apply HS, Hi, Hin|].
      exfalso. apply Ha. apply ind_out. exact Hn.
    + apply (spans_wt f m _ M). apply (minimal_wt K KL); [apply (mo_nodup K f m M)|exact HM].
Qed.

Lemma combination_ones (sol : list K) (m : list (list K)) n :
  length sol = length m -> (gives_ones sol m n <-> solves m n (vec sol)).
Proof.
  intros Hl. unfold gives_ones, solves.
  assert (E : forall j, combination (combine sol m) j = suml (fun i => vec sol i * ent m i j) (seq 0 (length m))).
  { intros j. rewrite combination_sum. clear n. revert sol Hl. induction m as [|r m IH]; intros [|x sol] Hl; try discriminate; [reflexivity|].
    simpl combine. rewrite suml_cons, IH by (simpl in Hl; lia). cbn [length seq]. rewrite suml_cons.
    rewrite <- seq_shift, suml_map. reflexivity. }
  split; intros H j Hj; [rewrite <- E|rewrite E]; apply H; exact Hj.
Qed.

Lemma span_coefs_full (m : list (list K)) n :
  m <> [] -> (1 <= n)%nat -> (forall r, In r m -> length r = n) ->
  (exists sol, span_coefs m = Ok (Some sol) /\ length sol = length m /\ gives_ones sol m n) \/
  (span_coefs m = Ok None /\ forall sol, length sol = length m -> ~ gives_ones sol m n).
Proof.
  intros Hne Hn Hr. destruct (span_coefs_spec K KL m n Hne Hn (conj eq_refl Hr)) as [[E H]|(sol & E & Hl & Hs & _)].
  - right. split; [exact E|]. intros sol Hl Hg. apply (H (vec sol)). apply combination_ones; assumption.
  - left. exists sol. split; [exact E|]. split; [exact Hl|]. apply combination_ones; assumption.
Qed.

End MspTheorems.

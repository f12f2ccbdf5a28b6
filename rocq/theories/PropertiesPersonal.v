(** Which keys for the same formula are equal: C97. Examples are computed in the
    group of order 101 (ExpModel.v). *)
From Coq Require Import String NArith ZArith Bool Lia Permutation Field_theory Field List.
From Verif Require Import Prelude Field LinAlg Msp Spec MspProofs Minimal Gauss GaussProofs Bilinear Scheme SchemeSpec
  SchemeProofs SchemeTheorems Zp ExpModel PropertiesScheme PropertiesDelegation.
Import ListNotations.

Section Columns.
Variable K : FieldOps.
Hypothesis KL : FieldLaws K.
Declare Scope fld.
Local Notation "0" := (@f0 K) : fld.
Local Infix "+" := (@fadd K) : fld.
Local Infix "*" := (@fmul K) : fld.
Local Infix "-" := (@fsub K) : fld.
Local Notation "- x" := (@fneg K x) : fld.
Local Open Scope fld.
Add Field KF21 : (fl_field K KL).

(** A vector that every row of the result sends to 0 is 0 on the columns added by the loop, and
    every entry of the queue sends it to 0. *)
Lemma loop_columns (w : nat -> K) fuel : forall q n rows n' rows',
  (1 <= n)%nat -> wf_entries n q -> wf_entries n rows ->
  to_msp_loop fuel q n rows = Ok (n', rows') ->
  (forall r, In r rows' -> dotZ K (snd r) w = 0) ->
  (forall e, In e q -> dotZ K (snd e) w = 0) /\ (forall e, In e rows -> dotZ K (snd e) w = 0) /\
  (forall i, (n <= i < n')%nat -> w i = 0).
Proof using KL.
  induction fuel as [|fuel IH]; intros q n rows n' rows' Hn Hq Hr H Hw.
  - destruct q as [|[nd v] q]; simpl in H; [|discriminate]. injection H as <- <-.
    split; [intros e []|]. split; [exact Hw|]. intros i Hi. lia.
  - destruct q as [|[nd v] q]; simpl in H.
    { injection H as <- <-. split; [intros e []|]. split; [exact Hw|]. intros i Hi. lia. }
    apply wf_entries_cons in Hq as [[Hv Hsv] Hq]. simpl in Hv, Hsv. destruct nd as [a b|a b|x].
    + apply (IH _ (S n) _ _ _ (le_n_S 0 n (Nat.le_0_l n))) in H; [ | |apply (wf_entries_mono n); [lia|exact Hr]|exact Hw].
      2:{ apply wf_entries_app. split; [apply (wf_entries_mono n); [lia|exact Hq]|].
        apply wf_entries_cons; split; [|apply wf_entries_cons; split; [|apply wf_entries_nil]]; simpl.
        - split; [rewrite app_length, resize_length; simpl; lia|apply small_vec_1; assumption].
        - split; [rewrite app_length, repeat_length; simpl; lia|apply small_vec_2; assumption]. }
      destruct H as (H1 & H2 & H3).
      assert (E1 : dotZ K v w + w n = 0).
      { rewrite <- (dotZ_vec1 K KL v n w Hv). apply (H1 (a, resize v n 0%Z ++ [1%Z])). apply in_or_app. right. left. reflexivity. }
      assert (E2 : - w n = 0).
      { rewrite <- (dotZ_vec2 K KL n w). apply (H1 (b, repeat 0%Z n ++ [(-1)%Z])). apply in_or_app. right. right. left. reflexivity. }
      assert (E3 : w n = 0) by (replace (w n) with (- - w n) by ring; rewrite E2; ring).
      split; [|split; [exact H2|]].
      * intros e [<-|He]; [cbn [snd]; rewrite <- E1, E3; ring|]. apply H1, in_or_app. auto.
      * intros i Hi. destruct (Nat.eq_dec i n) as [->|]; [exact E3|apply H3; lia].
    + apply (IH _ _ _ _ _ Hn) in H; [ | |exact Hr|exact Hw].
      2:{ apply wf_entries_app. split; [exact Hq|].
        apply wf_entries_cons; split; [|apply wf_entries_cons; split; [|apply wf_entries_nil]]; simpl; auto. }
      destruct H as (H1 & H2 & H3). split; [|split; [exact H2|exact H3]].
      intros e [<-|He]; [apply (H1 (a, v)), in_or_app; right; left; reflexivity|apply H1, in_or_app; auto].
    + apply (IH _ _ _ _ _ Hn Hq) in H; [ | |exact Hw].
      2:{ apply wf_entries_app. split; [exact Hr|]. apply wf_entries_cons; split; [simpl; auto|apply wf_entries_nil]. }
      destruct H as (H1 & H2 & H3). split; [|split; [|exact H3]].
      * intros e [<-|He]; [apply (H2 (Leaf x, v)), in_or_app; right; left; reflexivity|apply H1; exact He].
      * intros e He. apply H2, in_or_app. auto.
Qed.

(** The columns of a program are independent. *)
Lemma columns_independent P f m (u : nat -> K) : to_msp P f = Ok m ->
  (forall p, In p (labelled m) -> dotZ K (snd p) u = 0) -> forall i, (i < nb_col m)%nat -> u i = 0.
Proof using KL.
  intros H Hu. destruct (NoDup_N_dec (leaves f)) as [Hnd|Hnd].
  2:{ rewrite to_msp_dup in H by exact Hnd. discriminate. }
  destruct (to_msp_ok P f Hnd) as (rows & Hr & E). rewrite E in H. injection H as <-.
  pose proof Hr as (El & _ & W & Lf & Pm). cbn [nb_col]. set (n := S (count_and f)) in *.
  assert (Hn : (1 <= n)%nat) by (unfold n; lia).
  assert (Z : forall r, In r rows -> dotZ K (snd r) (to_w K n u) = 0).
  { intros r Hin. destruct (W r Hin) as [Hlen _].
    rewrite <- (Hu (leaf_of (fst r), add_first (resize (snd r) n 0%Z))).
    - cbn [snd]. rewrite (dotZ_add_first K KL _ _ n) by (rewrite ?resize_length; auto). symmetry. apply (dotZ_resize K KL). exact Hlen.
    - unfold labelled. cbn [row_to_attr matrix]. rewrite combine_map_map.
      apply (in_map (fun r => (leaf_of (fst r), add_first (resize (snd r) n 0%Z)))). exact Hin. }
  destruct (loop_columns (to_w K n u) _ _ _ _ _ _ (le_n 1) (wf_start f) (wf_entries_nil 1) El Z) as (H1 & _ & H3).
  assert (U : forall i, (1 <= i < n)%nat -> u i = 0).
  { intros i Hi. specialize (H3 i Hi). destruct i; [lia|exact H3]. }
  intros i Hi. destruct i as [|i]; [|apply U; lia].
  pose proof (H1 (f, [1%Z]) (or_introl eq_refl)) as S0. cbn [snd] in S0. rewrite (dotZ_1 K KL) in S0. unfold to_w in S0.
  destruct n as [|n0]; [lia|]. cbn [seq] in S0. rewrite suml_cons in S0.
  rewrite (suml_zero K KL) in S0.
  - rewrite <- S0. ring.
  - intros j Hj. apply in_seq in Hj. apply U. lia.
Qed.
End Columns.

Section Personal.
Variable B : BilinearMap.
Hypothesis BL : BilinearLaws B.
Local Notation K := (bm_K B).
Local Notation KL := (bl_field B BL).
Declare Scope fld.
Local Notation "0" := (@f0 K) : fld.
Local Infix "+" := (@fadd K) : fld.
Local Infix "*" := (@fmul K) : fld.
Local Infix "-" := (@fsub K) : fld.
Local Notation "- x" := (@fneg K x) : fld.
Local Open Scope fld.
Add Field KF22 : (fl_field K KL).

Lemma sharing_vector_draws cols (draw : nat -> K) (y : K) u : sharing_vector cols draw y = Ok u ->
  forall i, (S i < cols)%nat -> vec u i = draw i.
Proof using Type.
  unfold sharing_vector. destruct cols as [|[|n]]; [discriminate| |].
  - intros _ i Hi. lia.
  - intros H i Hi. assert (E : u = draws draw 0 (S n) ++ [y - fold_left fadd (draws draw 0 (S n)) 0]) by congruence. subst u. clear H.
    unfold vec, draws. rewrite app_nth1 by (rewrite map_length, seq_length; lia).
    rewrite (nth_indep _ _ (draw 0%nat)) by (rewrite map_length, seq_length; lia).
    rewrite map_nth, seq_nth by lia. reflexivity.
Qed.

Lemma sharing_vector_ext cols (d1 d2 : nat -> K) (y : K) : (forall i, (S i < cols)%nat -> d1 i = d2 i) ->
  sharing_vector cols d1 y = sharing_vector cols d2 y.
Proof using Type.
  intros H. destruct cols as [|[|n]]; [reflexivity|reflexivity|]. cbn [sharing_vector].
  assert (E : draws d1 0 (S n) = draws d2 0 (S n)).
  { unfold draws. apply map_ext_in. intros i Hi. apply in_seq in Hi. apply H. lia. }
  rewrite E. reflexivity.
Qed.

(** ** C97 *)
(** Two generated keys for the same formula are equal exactly if the first draws, one for each
    And of the formula, are the same. *)
Theorem C97_equal_keys P size (mdraw : nat -> K) mk f m (d1 d2 : nat -> K) uk1 uk2 :
  generate_master_key size mdraw = Ok mk -> to_msp P f = Ok m ->
  key_generation m (priv_key mk) d1 = Ok uk1 -> key_generation m (priv_key mk) d2 = Ok uk2 ->
  uk1 = uk2 <-> (forall i, (i < count_and f)%nat -> d1 i = d2 i).
Proof using BL.
  intros Hmk Hm H1 H2. destruct (generate_master_key_inv B BL _ _ _ Hmk) as (t & y & -> & Ht & Hnz).
  pose proof (to_msp_msp_of K KL P f m Hm) as M. cbn [priv_key master_of] in H1, H2.
  pose proof (mo_cols K f m M) as Cm. split.
  - intros E. subst uk2.
    destruct (key_generation_rep B BL f m t y d1 uk1 M H1) as (u1 & U1 & R1 & N1).
    destruct (key_generation_rep B BL f m t y d2 uk1 M H2) as (u2 & U2 & R2 & _).
    assert (Sh : forall a, In a (leaves f) -> share B m u1 a = share B m u2 a).
    { pose proof (kr_raw _ _ _ _ _ _ R1) as Q1. pose proof (kr_raw _ _ _ _ _ _ R2) as Q2. rewrite Q1 in Q2.
      intros a Ha. apply (Permutation_in _ (Permutation_sym (mo_perm K f m M))) in Ha.
      assert (Q : g3_gen_exp B (share B m u1 a * finv (tt B t a)) = g3_gen_exp B (share B m u2 a * finv (tt B t a))).
      { revert Q2 Ha. generalize (row_to_attr m). induction l as [|b l IH]; cbn [map]; intros Q2 [].
        - subst b. congruence.
        - apply IH; [congruence|assumption]. }
      apply (bl_g3_inj B BL) in Q. apply (Permutation_in _ (mo_perm K f m M)) in Ha. specialize (N1 a Ha).
      replace (share B m u1 a) with (share B m u1 a * finv (tt B t a) * tt B t a) by (field; exact N1).
      rewrite Q. field. exact N1. }
    assert (Z : forall i, (i < nb_col m)%nat -> vec u1 i - vec u2 i = 0).
    { apply (columns_independent K KL P f m (fun i => vec u1 i - vec u2 i) Hm). intros p Hp.
      destruct (row_of_labelled B f m p M Hp) as [Hin Hrow]. specialize (Sh (fst p) Hin). unfold share in Sh. rewrite Hrow in Sh.
      unfold dotZ. rewrite (dot_sub K KL). fold (dotZ K (snd p) (vec u1)). fold (dotZ K (snd p) (vec u2)). rewrite Sh. ring. }
    intros i Hi. rewrite <- (sharing_vector_draws _ _ _ _ U1 i) by lia. rewrite <- (sharing_vector_draws _ _ _ _ U2 i) by lia.
    replace (vec u1 i) with (vec u1 i - vec u2 i + vec u2 i) by ring. rewrite Z by lia. ring.
  - intros H. assert (E : sharing_vector (nb_col m) d1 y = sharing_vector (nb_col m) d2 y).
    { apply sharing_vector_ext. intros i Hi. apply H. lia. }
    rewrite (key_generation_eq B f) in H1, H2 by exact M. rewrite E in H1. congruence.
Qed.
(** Formulas without And have one key only, however it was obtained. *)
Theorem C97_different_keys_refuted P size (mdraw : nat -> K) mk f uk1 uk2 :
  generate_master_key size mdraw = Ok mk -> count_and f = 0%nat -> derived B P mk f uk1 -> derived B P mk f uk2 -> uk1 = uk2.
Proof using BL.
  intros Hmk Hc D1 D2. apply (C75_derived_iff_generated B BL P size mdraw mk f _ Hmk) in D1 as (m & d1 & Hm & H1).
  apply (C75_derived_iff_generated B BL P size mdraw mk f _ Hmk) in D2 as (m2 & d2 & Hm2 & H2).
  assert (m2 = m) by congruence. subst m2. apply (C97_equal_keys P size mdraw mk f m d1 d2 uk1 uk2 Hmk Hm H1 H2).
  intros i Hi. lia.
Qed.

(** The same for two refreshes of a key; without And a refreshed key is the key itself. *)
Theorem C97_refreshed_keys P size (mdraw : nat -> K) mk f uk (d1 d2 : nat -> K) uk1 uk2 :
  generate_master_key size mdraw = Ok mk -> derived B P mk f uk ->
  abe_key_delegation None uk (del_key mk) d1 = Ok uk1 -> abe_key_delegation None uk (del_key mk) d2 = Ok uk2 ->
  (uk1 = uk2 <-> (forall i, (i < count_and f)%nat -> d1 i = d2 i)) /\ (count_and f = 0%nat -> uk1 = uk).
Proof using BL.
  intros Hmk D H1 H2. split.
  - destruct (proj1 (C75_derived_iff_generated B BL P size mdraw mk f _ Hmk) D) as (m & _ & Hm & _).
    destruct (C75_randomised_as_fresh B BL P size mdraw mk f m uk Hmk D Hm) as (delta & Hd).
    destruct (Hd d1) as (v1 & A1 & G1). destruct (Hd d2) as (v2 & A2 & G2).
    assert (v1 = uk1) by congruence. assert (v2 = uk2) by congruence. subst v1 v2.
    rewrite (C97_equal_keys P size mdraw mk f m _ _ uk1 uk2 Hmk Hm G1 G2). split; intros H i Hi; specialize (H i Hi); cbn beta in H |- *.
    + replace (d1 i) with (d1 i + delta i - delta i) by ring. rewrite H. ring.
    + rewrite H. reflexivity.
  - intros Hc. apply (C97_different_keys_refuted P size mdraw mk f uk1 uk Hmk Hc); [exact (de_rand B P mk f uk d1 uk1 D H1)|exact D].
Qed.
End Personal.

(** ** Examples *)
Local Ltac vmr x := vm_cast_no_check (eq_refl x).
(** Two keys for 1 & (4 | (2 & 3)) with draws 7, 8 and 7, 9, and two keys for 1 | 4. *)
Definition other_draw (i : nat) : bm_K toy := match i with O => ex_draw 0 | _ => ex_draw (S i) end.
Definition or_m : msp Z := run empty_msp (to_msp pf (Or (Leaf 1) (Leaf 4))).
Example C97_example :
  count_and ex_f = 2%nat /\ ex_draw 0 = other_draw 0 /\ ex_draw 1 <> other_draw 1 /\
  (exists uk1 uk2, key_generation ex_m (priv_key ex_mk) ex_draw = Ok uk1 /\ key_generation ex_m (priv_key ex_mk) other_draw = Ok uk2 /\ uk1 <> uk2) /\
  to_msp pf (Or (Leaf 1) (Leaf 4)) = Ok or_m /\
  (exists uk, key_generation or_m (priv_key ex_mk) ex_draw = Ok uk /\ key_generation or_m (priv_key ex_mk) (fun i => ex_draw (S i)) = Ok uk).
Proof.
  assert (D : ex_draw 1 <> other_draw 1).
  { intros Q. apply (f_equal (fun x => feqb x (ex_draw 1))) in Q. revert Q. vm_compute. discriminate. }
  split; [reflexivity|]. split; [reflexivity|]. split; [exact D|]. split.
  - destruct ex_setup as (Hmk & Hm & Hk & _).
    set (uk2 := run empty_key (key_generation ex_m (priv_key ex_mk) other_draw)).
    assert (E2 : key_generation ex_m (priv_key ex_mk) other_draw = Ok uk2) by vmr (@Ok (decryption_key toy) uk2).
    set (uk1 := run empty_key (key_generation ex_m (priv_key ex_mk) ex_draw)).
    assert (E1 : key_generation ex_m (priv_key ex_mk) ex_draw = Ok uk1) by vmr (@Ok (decryption_key toy) uk1).
    exists uk1, uk2. split; [exact E1|]. split; [exact E2|]. intros Q. apply D.
    exact (proj1 (C97_equal_keys toy toy_laws pf _ _ ex_mk ex_f ex_m ex_draw other_draw uk1 uk2 Hmk Hm E1 E2) Q 1%nat (le_n 2)).
  - split; [vmr (@Ok (msp Z) or_m)|].
    set (uk1 := run empty_key (key_generation or_m (priv_key ex_mk) ex_draw)). exists uk1.
    split; vmr (@Ok (decryption_key toy) uk1).
Qed.

Print Assumptions C97_equal_keys.
Print Assumptions C97_different_keys_refuted.
Print Assumptions C97_refreshed_keys.

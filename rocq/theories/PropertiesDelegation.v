(** Delegated keys and fresh keys: C75. *)
From Coq Require Import String NArith ZArith Bool Lia Permutation Field_theory Field List.
From Verif Require Import Prelude Field LinAlg Msp Spec MspProofs Minimal Gauss GaussProofs Bilinear Scheme SchemeSpec
  SchemeProofs SchemeTheorems Zp ExpModel PropertiesScheme.
Import ListNotations.

(** ** Systems of linear equations: a solution, or a combination of the equations without one *)
Section Alternative.
Variable K : FieldOps.
Hypothesis KL : FieldLaws K.
Declare Scope fld.
Local Notation "0" := (@f0 K) : fld.
Local Notation "1" := (@f1 K) : fld.
Local Infix "+" := (@fadd K) : fld.
Local Infix "*" := (@fmul K) : fld.
Local Infix "-" := (@fsub K) : fld.
Local Notation "- x" := (@fneg K x) : fld.
Local Open Scope fld.
Add Field KF9 : (fl_field K KL).

Lemma solution_or_not (L : list N) (col : nat -> N -> K) : NoDup L -> forall n (d : N -> K),
  (exists w : nat -> K, forall a, In a L -> d a = suml (fun j => col j a * w j) (seq 0 n)) \/
  (exists al : N -> K, (forall j, (j < n)%nat -> suml (fun a => al a * col j a) L = 0) /\ suml (fun a => al a * d a) L <> 0).
Proof.
  intros HL. induction n as [|n IH]; intros d.
  - assert (D : (forall a, In a L -> d a = 0) \/ (exists a, In a L /\ d a <> 0)).
    { clear HL. induction L as [|b l IHl]; [left; intros a []|]. destruct (K_eq_dec K KL (d b) 0) as [E|E].
      - destruct IHl as [H|(a & Ha & Hd)].
        + left. intros a [<-|Ha]; [exact E|exact (H a Ha)].
        + right. exists a. split; [right; exact Ha|exact Hd].
      - right. exists b. split; [left; reflexivity|exact E]. }
    destruct D as [D|(b & Hb & Hd)].
    + left. exists (fun _ => 0). intros a Ha. rewrite (D a Ha). reflexivity.
    + right. exists (fun a => if N.eqb a b then 1 else 0). split; [intros j Hj; lia|].
      rewrite (suml_single K KL _ L b N.eq_dec HL Hb).
      * rewrite N.eqb_refl. intros E. apply Hd. rewrite <- E. ring.
      * intros a _ Hne. destruct (N.eqb_spec a b); [contradiction|]. ring.
  - destruct (IH d) as [(w & Hw)|(al & Hal & Hd)].
    + left. exists (fun j => if Nat.ltb j n then w j else 0). intros a Ha. rewrite (Hw a Ha), seq_S, suml_app by exact KL. cbn [Nat.add].
      rewrite suml_cons. destruct (Nat.ltb_spec n n); [lia|].
      rewrite (suml_ext K (fun j => col j a * (if Nat.ltb j n then w j else 0)) (fun j => col j a * w j)).
      * change (suml (fun j => col j a * (if Nat.ltb j n then w j else 0)) []) with 0. ring.
      * intros j Hj. apply in_seq in Hj. destruct (Nat.ltb_spec j n); [reflexivity|lia].
    + set (p := suml (fun a => al a * col n a) L). destruct (K_eq_dec K KL p 0) as [E|E].
      { right. exists al. split; [|exact Hd]. intros j Hj. destruct (Nat.eq_dec j n) as [->|]; [exact E|apply Hal; lia]. }
      set (q := suml (fun a => al a * d a) L) in *.
      destruct (IH (fun a => d a - q * finv p * col n a)) as [(w & Hw)|(al' & Hal' & Hd')].
      * left. exists (fun j => if Nat.ltb j n then w j else q * finv p). intros a Ha. specialize (Hw a Ha). rewrite seq_S, suml_app by exact KL. cbn [Nat.add].
        rewrite suml_cons. destruct (Nat.ltb_spec n n); [lia|].
        rewrite (suml_ext K (fun j => col j a * (if Nat.ltb j n then w j else q * finv p)) (fun j => col j a * w j)).
        -- rewrite <- Hw. change (suml (fun j => col j a * (if Nat.ltb j n then w j else q * finv p)) []) with 0. ring.
        -- intros j Hj. apply in_seq in Hj. destruct (Nat.ltb_spec j n); [reflexivity|lia].
      * right. set (p' := suml (fun a => al' a * col n a) L).
        assert (L1 : forall g : N -> K, suml (fun a => (al' a - p' * finv p * al a) * g a) L
                       = suml (fun a => al' a * g a) L - p' * finv p * suml (fun a => al a * g a) L).
        { intros g. rewrite <- suml_scal by exact KL. rewrite <- suml_sub by exact KL. apply suml_ext. intros a _. ring. }
        exists (fun a => al' a - p' * finv p * al a). split.
        -- intros j Hj. rewrite L1. destruct (Nat.eq_dec j n) as [->|Hne].
           ++ fold p p'. field. exact E.
           ++ rewrite (Hal' j), (Hal j) by lia. ring.
        -- rewrite L1. fold q. intros Z. apply Hd'. rewrite <- Z.
           rewrite (suml_ext K _ (fun a => al' a * d a - q * finv p * (al' a * col n a))) by (intros; ring).
           rewrite suml_sub by exact KL. rewrite suml_scal by exact KL. fold p'. ring.
Qed.
End Alternative.

Section Delegation.
Variable B : BilinearMap.
Variable BL : BilinearLaws B.
Local Notation K := (bm_K B).
Local Notation KL := (bl_field B BL).

Declare Scope fld.
Local Notation "0" := (@f0 K) : fld.
Local Notation "1" := (@f1 K) : fld.
Local Infix "+" := (@fadd K) : fld.
Local Infix "*" := (@fmul K) : fld.
Local Infix "-" := (@fsub K) : fld.
Local Notation "- x" := (@fneg K x) : fld.
Local Open Scope fld.
Add Field KF10 : (fl_field K (bl_field B BL)).

Lemma dotZ_cols f m x (w : nat -> K) : msp_of K f m -> In x (leaves f) ->
  dotZ K (row_of m x) w = suml (fun j => dotZ K (row_of m x) (@basis K j) * w j) (seq 0 (nb_col m)).
Proof.
  intros M Hx. unfold dotZ. rewrite (dot_sum K), map_length, (row_of_width B f m x M Hx). apply suml_ext. intros j _.
  rewrite (dot_basis K KL). reflexivity.
Qed.

Lemma all_hold f : forall S_ : N -> Prop, (forall a, In a (leaves f) -> S_ a) -> holds S_ f.
Proof.
  induction f as [a IHa b IHb|a IHa b IHb|v]; intros S_ H; cbn [holds leaves] in *.
  - split; [apply IHa|apply IHb]; intros x Hx; apply H, in_or_app; tauto.
  - left. apply IHa. intros x Hx. apply H, in_or_app. tauto.
  - apply H. left. reflexivity.
Qed.

(** A valid sharing comes from a vector. *)
Lemma shares_have_vector f m y sg : msp_of K f m -> shares_of B y f sg ->
  exists w : nat -> K, suml w (seq 0 (nb_col m)) = y /\ forall a, In a (leaves f) -> sg a = dotZ K (row_of m a) w.
Proof.
  intros M Hs.
  destruct (solution_or_not K KL (leaves f) (fun j a => dotZ K (row_of m a) (@basis K j)) (mo_nodup K f m M) (nb_col m) sg)
    as [(w & Hw)|(al & Hal & Hd)].
  - exists w. assert (Hw' : forall a, In a (leaves f) -> sg a = dotZ K (row_of m a) w).
    { intros a Ha. rewrite (dotZ_cols f m a w M Ha). exact (Hw a Ha). }
    split; [|exact Hw'].
    destruct (holds_wt K KL (fun _ => True) f (mo_nodup K f m M) (all_hold f _ (fun _ _ => I))) as (al & Hal & _).
    pose proof (Hs al 1 Hal) as E1. pose proof (proj1 (wt_comb B BL f m al 1 M) Hal w) as E2.
    rewrite (suml_ext K _ (fun a => al a * dotZ K (row_of m a) w)) in E1 by (intros a Ha; rewrite (Hw' a Ha); reflexivity).
    rewrite E2 in E1. transitivity (1 * suml w (seq 0 (nb_col m))); [ring|]. rewrite E1. ring.
  - exfalso. apply Hd. rewrite (Hs al 0); [ring|]. apply (wt_comb B BL f m al 0 M). intros u.
    rewrite (suml_ext K _ (fun a => suml (fun j => u j * (al a * dotZ K (row_of m a) (@basis K j))) (seq 0 (nb_col m)))).
    + rewrite suml_swap by exact KL. rewrite suml_zero; [ring|exact KL|]. intros j Hj. apply in_seq in Hj.
      rewrite suml_scal by exact KL. rewrite Hal by lia. ring.
    + intros a Ha. rewrite (dotZ_cols f m a u M Ha), <- suml_scal by exact KL. apply suml_ext. intros j _. ring.
Qed.

Lemma zero_sharing_eq cols (draw : nat -> K) : zero_sharing_vector cols draw = sharing_vector cols draw 0.
Proof. destruct cols as [|[|n]]; [reflexivity|reflexivity|]. cbn [zero_sharing_vector sharing_vector]. do 4 f_equal. ring. Qed.

(** Keys with the same shares are equal. *)
Lemma same_shares t f m sg sg' uk uk' : key_rep B t f m sg uk -> key_rep B t f m sg' uk' ->
  (forall a, In a (leaves f) -> sg a = sg' a) -> uk = uk'.
Proof.
  intros R R' H. destruct uk as [r d k], uk' as [r' d' k'].
  pose proof (kr_dk _ _ _ _ _ _ R) as A1. pose proof (kr_dk _ _ _ _ _ _ R') as A2.
  pose proof (kr_raw _ _ _ _ _ _ R) as B1. pose proof (kr_raw _ _ _ _ _ _ R') as B2.
  pose proof (kr_d _ _ _ _ _ _ R) as C1. pose proof (kr_d _ _ _ _ _ _ R') as C2. cbn in *.
  assert (G : forall a, In a (row_to_attr m) -> sg a = sg' a).
  { intros a Ha. apply H. apply (Permutation_in _ (mo_perm K f m (kr_msp _ _ _ _ _ _ R))). exact Ha. }
  f_equal; [rewrite B1, B2|rewrite C1, C2|congruence]; apply map_ext_in; intros a Ha; rewrite (G a Ha); reflexivity.
Qed.

Lemma delegation_as_generation t y f m sg uk f' m' : (forall x, In x t -> x <> 0) ->
  key_rep B t f m sg uk -> msp_of K f' m' -> incl (leaves f') (leaves f) -> shares_of B y f' sg ->
  exists delta : nat -> K, forall draw, exists uk',
    key_delegation m' uk (mkDel (inv_of B t)) draw = Ok uk' /\
    key_generation m' (mkPriv t y) (fun i => draw i + delta i) = Ok uk'.
Proof.
  intros Hnz R M' Hi Hs. destruct (shares_have_vector f' m' y sg M' Hs) as (w & Hw & Hsg).
  exists w. intros draw. destruct (key_delegation_total B BL t f m sg uk f' m' draw R M' Hi) as (uk' & Hd).
  exists uk'. split; [exact Hd|].
  destruct (key_delegation_rep B BL t f m sg uk f' m' draw uk' R M' Hd) as (u & Hu & _ & R').
  assert (Hr : forall a, In a (leaves f') -> in_range B t a /\ tt B t a <> 0).
  { intros a Ha. pose proof (kr_range _ _ _ _ _ _ R' a Ha) as Hra. split; [exact Hra|]. exact (tt_nonzero B t a Hnz Hra). }
  destruct (key_generation_total B BL f' m' t y (fun i => draw i + w i) M' Hr) as (uk2 & Hk). rewrite Hk. f_equal.
  destruct (key_generation_rep B BL f' m' t y _ uk2 M' Hk) as (u2 & Hu2 & R2 & _).
  apply (same_shares t f' m' _ _ uk2 uk' R2 R'). intros a Ha. rewrite (Hsg a Ha).
  rewrite zero_sharing_eq in Hu.
  assert (Hc : (1 <= nb_col m')%nat) by (rewrite (mo_cols K f' m' M'); lia).
  destruct (sharing_vector_shift B BL (nb_col m') draw 0 y u w Hc Hu) as (u3 & Hu3 & Hv); [rewrite Hw; ring|].
  assert (u3 = u2) by (unfold shift in Hu3; congruence). subst u3.
  rewrite (share_vec B BL f' m' u u2 w a M' Ha Hv). ring.
Qed.

Lemma narrower_leaves f' f : NoDup (leaves f') -> narrows f' f \/ restricts f' f -> incl (leaves f') (leaves f).
Proof. intros Hnd [H|H]; [exact (narrows_leaves f' f Hnd H)|exact (restricts_leaves f' f H)]. Qed.

Lemma narrower_shares f' f y sg : NoDup (leaves f) -> NoDup (leaves f') -> narrows f' f \/ restricts f' f ->
  shares_of B y f sg -> shares_of B y f' sg.
Proof.
  intros Hnd Hnd' Hn Hs. apply (shares_sub B BL f f'); try assumption.
  - apply narrower_leaves; assumption.
  - destruct Hn as [Hr|Hr]; [apply narrows_sub_wt|apply restricts_sub_wt]; assumption || exact KL.
Qed.

Lemma generated_rep f m t y draw uk : msp_of K f m -> key_generation m (mkPriv t y) draw = Ok uk ->
  exists sg, key_rep B t f m sg uk /\ shares_of B y f sg.
Proof.
  intros M H. destruct (key_generation_rep B BL f m t y draw uk M H) as (u & Hu & R & _).
  exists (share B m u). split; [exact R|]. apply (share_shares B BL f m u y M). apply (sharing_vector_inv B BL) in Hu. apply Hu.
Qed.

Lemma derived_generated P t y f uk : (forall x, In x t -> x <> 0) -> derived B P (master_of B t y) f uk ->
  exists m draw, to_msp P f = Ok m /\ key_generation m (mkPriv t y) draw = Ok uk.
Proof.
  intros Hnz H. induction H as [f m draw uk Hm Hk|f uk f' m' draw uk' Ho IH Hn Hm Hd|f uk draw uk' Ho IH Hd].
  - exists m, draw. split; [exact Hm|exact Hk].
  - destruct IH as (m & draw0 & Em & Hk). pose proof (to_msp_msp_of K KL P f m Em) as M.
    pose proof (to_msp_msp_of K KL P f' m' Hm) as M'.
    destruct (generated_rep f m t y draw0 uk M Hk) as (sg & R & Hs).
    destruct (delegation_as_generation t y f m sg uk f' m' Hnz R M' (narrower_leaves f' f (mo_nodup K f' m' M') Hn)) as (delta & H).
    + apply (narrower_shares f' f y sg (mo_nodup K f m M) (mo_nodup K f' m' M') Hn Hs).
    + destruct (H draw) as (u & E1 & E2). exists m', (fun i => draw i + delta i). split; [exact Hm|].
      cbn [abe_key_delegation del_key master_of] in Hd. rewrite E2. rewrite <- E1. exact Hd.
  - destruct IH as (m & draw0 & Em & Hk). pose proof (to_msp_msp_of K KL P f m Em) as M.
    destruct (generated_rep f m t y draw0 uk M Hk) as (sg & R & Hs).
    destruct (delegation_as_generation t y f m sg uk f m Hnz R M (incl_refl _) Hs) as (delta & H).
    destruct (H draw) as (u & E1 & E2). exists m, (fun i => draw i + delta i). split; [exact Em|].
    cbn [abe_key_delegation del_key master_of] in Hd. rewrite (key_randomization_eq B BL t f m sg uk _ draw R) in Hd.
    rewrite E2. rewrite <- E1. exact Hd.
Qed.

(** ** C75 *)
(** Delegating a key to a narrower formula gives the key that generation gives with
    other draws: the draws differ by an offset that depends on the source key only. *)
Theorem C75_delegated_as_fresh P size mdraw mk f uk f' m' :
  generate_master_key size mdraw = Ok mk -> derived B P mk f uk ->
  narrows f' f \/ restricts f' f -> to_msp P f' = Ok m' ->
  exists delta : nat -> K, forall draw, exists uk',
    abe_key_delegation (Some m') uk (del_key mk) draw = Ok uk' /\
    key_generation m' (priv_key mk) (fun i => draw i + delta i) = Ok uk'.
Proof.
  intros Hmk Hd Hn Hm. destruct (generate_master_key_inv B BL _ _ _ Hmk) as (t & y & -> & Ht & Hnz).
  destruct (derived_generated P t y f uk Hnz Hd) as (m & draw0 & Em & Hk).
  pose proof (to_msp_msp_of K KL P f m Em) as M. pose proof (to_msp_msp_of K KL P f' m' Hm) as M'.
  destruct (generated_rep f m t y draw0 uk M Hk) as (sg & R & Hs).
  cbn [abe_key_delegation del_key priv_key master_of].
  apply (delegation_as_generation t y f m sg uk f' m' Hnz R M' (narrower_leaves f' f (mo_nodup K f' m' M') Hn)).
  apply (narrower_shares f' f y sg (mo_nodup K f m M) (mo_nodup K f' m' M') Hn Hs).
Qed.

(** The same for the randomisation of a key. *)
Theorem C75_randomised_as_fresh P size mdraw mk f m uk :
  generate_master_key size mdraw = Ok mk -> derived B P mk f uk -> to_msp P f = Ok m ->
  exists delta : nat -> K, forall draw, exists uk',
    abe_key_delegation None uk (del_key mk) draw = Ok uk' /\
    key_generation m (priv_key mk) (fun i => draw i + delta i) = Ok uk'.
Proof.
  intros Hmk Hd Hm. destruct (generate_master_key_inv B BL _ _ _ Hmk) as (t & y & -> & Ht & Hnz).
  destruct (derived_generated P t y f uk Hnz Hd) as (m0 & draw0 & Em & Hk). assert (m0 = m) by congruence. subst m0.
  pose proof (to_msp_msp_of K KL P f m Em) as M.
  destruct (generated_rep f m t y draw0 uk M Hk) as (sg & R & Hs).
  cbn [abe_key_delegation del_key priv_key master_of].
  destruct (delegation_as_generation t y f m sg uk f m Hnz R M (incl_refl _) Hs) as (delta & H).
  exists delta. intros draw. destruct (H draw) as (uk' & H1 & H2). exists uk'. split; [|exact H2].
  rewrite (key_randomization_eq B BL t f m sg uk _ draw R). exact H1.
Qed.

(** The keys that any chain of delegations gives are exactly those generation gives. *)
Theorem C75_derived_iff_generated P size mdraw mk f uk :
  generate_master_key size mdraw = Ok mk ->
  derived B P mk f uk <-> exists m draw, to_msp P f = Ok m /\ key_generation m (priv_key mk) draw = Ok uk.
Proof.
  intros Hmk. split.
  - intros Hd. destruct (generate_master_key_inv B BL _ _ _ Hmk) as (t & y & -> & Ht & Hnz).
    exact (derived_generated P t y f uk Hnz Hd).
  - intros (m & draw & H1 & H2). exact (de_gen B P mk f m draw uk H1 H2).
Qed.
End Delegation.

(** ** Examples *)
Local Ltac vmr x := vm_cast_no_check (eq_refl x).
Definition c75_f : node := And (Leaf 1) (Leaf 4).
Definition c75_m : msp Z := run empty_msp (to_msp pf c75_f).
Definition c75_key : decryption_key toy := run empty_key (abe_key_delegation (Some c75_m) ex_uk (del_key ex_mk) ex_draw).

(** the key for 1 & 4 delegated from the key for 1 & (4 | (2 & 3)) is the key
    generated with the draw 92 *)
Example C75_example :
  restricts c75_f ex_f /\ to_msp pf c75_f = Ok c75_m /\
  abe_key_delegation (Some c75_m) ex_uk (del_key ex_mk) ex_draw = Ok c75_key /\
  key_generation c75_m (priv_key ex_mk) (fun _ => f101 92) = Ok c75_key.
Proof.
  split; [|split; [|split]].
  - apply rs_and; [apply rs_refl|apply rs_or_left].
  - vmr (@Ok (msp Z) c75_m).
  - vmr (@Ok (decryption_key toy) c75_key).
  - vmr (@Ok (decryption_key toy) c75_key).
Qed.

Example C75_example_by_theorem : exists delta : nat -> bm_K toy, forall draw, exists uk',
  abe_key_delegation (Some c75_m) ex_uk (del_key ex_mk) draw = Ok uk' /\
  key_generation c75_m (priv_key ex_mk) (fun i => fadd (draw i) (delta i)) = Ok uk'.
Proof.
  destruct ex_setup as (H1 & _). destruct C75_example as (H2 & H3 & _).
  exact (C75_delegated_as_fresh toy toy_laws pf 10 ex_draw ex_mk ex_f ex_uk c75_f c75_m H1 ex_derived (or_intror H2) H3).
Qed.

Print Assumptions C75_delegated_as_fresh.
Print Assumptions C75_randomised_as_fresh.
Print Assumptions C75_derived_iff_generated.

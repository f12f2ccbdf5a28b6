(** Which delegations give a working key: C123. *)
From Coq Require Import String NArith ZArith Bool Arith Lia Permutation Field_theory Field List.
From Verif Require Import Prelude Field LinAlg Msp Spec MspProofs Minimal Gauss GaussProofs Bilinear Scheme SchemeSpec
  SchemeProofs SchemeTheorems Zp ExpModel PropertiesScheme Policy PolicySpec PolicyProofs Engine EngineSpec EngineProofs
  PropertiesEngine CodecProofs HistorySpec PropertiesHistory.
Import ListNotations.

(** Every attribute of the formula satisfies it alone. *)
Definition each_suffices (f : node) : Prop := forall a, In a (leaves f) -> holds (attrs [a]) f.

Section Working.
Variable B : BilinearMap.
Hypothesis BL : BilinearLaws B.
Local Notation K := (bm_K B).
Local Notation KL := (bl_field B BL).
Declare Scope fld.
Local Notation "0" := (@f0 K) : fld.
Local Notation "1" := (@f1 K) : fld.
Local Infix "+" := (@fadd K) : fld.
Local Infix "*" := (@fmul K) : fld.
Local Infix "-" := (@fsub K) : fld.
Local Notation "- x" := (@fneg K x) : fld.
Local Open Scope fld.
Add Field KF29 : (fl_field K (bl_field B BL)).
Local Notation gt := (gt_gen_exp B).
Implicit Types P : platform.

Lemma ind_ext T U a : (In a T <-> In a U) -> ind K T a = ind K U a.
Proof using Type.
  intros H. destruct (in_dec N.eq_dec a T) as [i|i].
  - rewrite !ind_in; [reflexivity|apply H; exact i|exact i].
  - rewrite !ind_out; [reflexivity|rewrite <- H; exact i|exact i].
Qed.

Lemma minimal_ext f T U : (forall a, In a T <-> In a U) -> minimal f T -> minimal f U.
Proof using Type.
  intros H [H1 H2]. split.
  - eapply holds_mono; [|exact H1]. intros a _. apply H.
  - intros T' Hi Hh a Ha. apply (H2 T'); [intros b Hb; apply H, Hi, Hb|exact Hh|apply H, Ha].
Qed.

(** the number of times [1] is added *)
Definition times (k : nat) : K := of_Z (Z.of_nat k).

Lemma times_0 : times 0 = 0. Proof using BL. apply of_Z_0. exact KL. Qed.
Lemma times_1 : times 1 = 1. Proof using BL. apply of_Z_1. exact KL. Qed.
Lemma times_add a b : times (a + b)%nat = times a + times b.
Proof using BL. unfold times. rewrite Nat2Z.inj_add. apply of_Z_add. exact KL. Qed.
Lemma times_sub a b : (a <= b)%nat -> times (b - a) = times b - times a.
Proof using BL. intros H. assert (E : b = (a + (b - a))%nat) by lia. rewrite E at 2. rewrite times_add. ring. Qed.

(** no number up to [n] is zero in the field *)
Definition nonzero_up_to (n : nat) : Prop := forall k, (1 <= k <= n)%nat -> times k <> 0.

Lemma times_inj n a b : nonzero_up_to n -> (a <= n)%nat -> (b <= n)%nat -> times a = times b -> a = b.
Proof using BL.
  intros H Ha Hb E. destruct (lt_eq_lt_dec a b) as [[L|L]|L]; [exfalso|exact L|exfalso].
  - apply (H (b - a)%nat); [lia|]. rewrite times_sub by lia. rewrite E. ring.
  - apply (H (a - b)%nat); [lia|]. rewrite times_sub by lia. rewrite E. ring.
Qed.

(** a set whose indicator is a weighting of weight one is a minimal set *)
Lemma indicator_wt f T c : NoDup (leaves f) -> nonzero_up_to (length (leaves f)) -> wt K (ind K T) f c ->
  exists k, (k <= length (leaves f))%nat /\ c = times k /\
    (k = 0%nat -> forall a, In a (leaves f) -> ~ In a T) /\
    (k = 1%nat -> minimal f (inter T (leaves f))).
Proof using BL.
  revert c. induction f as [a IHa b IHb|a IHa b IHb|v]; simpl; intros c Hn Hz Hw.
  - pose proof (NoDup_app_inv _ _ Hn) as (Na & Nb & Hd). rewrite app_length in *. destruct Hw as [Wa Wb].
    destruct (IHa c Na ltac:(intros k Hk; apply Hz; lia) Wa) as (ka & La & Ea & Za & Ma).
    destruct (IHb c Nb ltac:(intros k Hk; apply Hz; lia) Wb) as (kb & Lb & Eb & Zb & Mb).
    assert (ka = kb) by (apply (times_inj _ _ _ Hz); [lia|lia|congruence]). subst kb.
    exists ka. split; [lia|]. split; [exact Ea|]. split.
    + intros E x Hx. apply in_app_or in Hx as [Hx|Hx]; [apply (Za E x Hx)|apply (Zb E x Hx)].
    + intros E. eapply minimal_ext; [|apply (minimal_and a b _ _ Hn (Ma E) (Mb E))].
      intros x. rewrite in_app_iff, !inter_in, in_app_iff. tauto.
  - pose proof (NoDup_app_inv _ _ Hn) as (Na & Nb & Hd). rewrite app_length in *. destruct Hw as (c1 & c2 & Wa & Wb & ->).
    destruct (IHa c1 Na ltac:(intros k Hk; apply Hz; lia) Wa) as (ka & La & Ea & Za & Ma).
    destruct (IHb c2 Nb ltac:(intros k Hk; apply Hz; lia) Wb) as (kb & Lb & Eb & Zb & Mb).
    exists (ka + kb)%nat. split; [lia|]. split; [rewrite times_add; congruence|]. split.
    + intros E x Hx. apply in_app_or in Hx as [Hx|Hx]; [apply Za; [lia|exact Hx]|apply Zb; [lia|exact Hx]].
    + intros E. destruct ka as [|ka].
      * eapply minimal_ext; [|apply (minimal_or_r a b _ Hn (Mb E))]. intros x. rewrite !inter_in, in_app_iff.
        split; [tauto|]. intros [H1 [H2|H2]]; [|auto]. exfalso. exact (Za eq_refl x H2 H1).
      * eapply minimal_ext; [|apply (minimal_or_l a b); [exact Hn|apply Ma; lia]]. intros x. rewrite !inter_in, in_app_iff.
        split; [tauto|]. intros [H1 [H2|H2]]; [auto|]. exfalso. refine (Zb _ x H2 H1). lia.
  - destruct (in_dec N.eq_dec v T) as [Hv|Hv].
    + rewrite ind_in in Hw by exact Hv. exists 1%nat. split; [lia|]. split; [rewrite times_1; congruence|]. split; [discriminate|].
      intros _. split.
      * apply inter_in. split; [exact Hv|left; reflexivity].
      * intros T' _ Hh x Hx. apply inter_in in Hx as [_ [<-|[]]]. exact Hh.
    + rewrite ind_out in Hw by exact Hv. exists 0%nat. split; [lia|]. split; [rewrite times_0; congruence|]. split; [|discriminate].
      intros _ x [<-|[]]. exact Hv.
Qed.

(** what a delegated key computes, whatever it was delegated from *)
Lemma delegated_value f' m' gam : msp_of K f' m' -> holds (attrs gam) f' ->
  exists T, minimal f' T /\ incl T gam /\
  forall t y f m sg uk ddraw uk' mu s, (forall a, In a (leaves f) -> tt B t a <> 0) ->
    key_rep B t f m sg uk -> key_delegation m' uk (mkDel (inv_of B t)) ddraw = Ok uk' ->
    decrypt (honest_ct B t y gam mu s) uk' = Ok (Some (gt (mu + (y - suml (fun a => ind K T a * sg a) (leaves f)) * s))).
Proof using BL.
  intros M' Hh. destruct (decrypt_rep B BL f' m' gam M') as [(E & Hn' & _)|[(E & Hn' & _)|(E & _ & T & HM & HT & H)]]; [contradiction|contradiction|].
  exists T. split; [exact HM|]. split; [intros a Ha; apply HT, selected_in in Ha; tauto|].
  intros t y f m sg uk ddraw uk' mu s Hnz R D.
  destruct (key_delegation_rep B BL t f m sg uk f' m' ddraw uk' R M' D) as (u' & Hu' & Hil & R').
  rewrite (H t _ uk' mu y s R') by (intros a Ha; apply Hnz, Hil, Ha). do 3 f_equal. f_equal. f_equal.
  apply (zero_sharing_vector_inv B BL) in Hu' as [_ Hu'].
  rewrite (suml_ext K (fun a => ind K T a * (sg a + share B m' u' a))
    (fun a => ind K T a * sg a + ind K T a * share B m' u' a)) by (intros; ring).
  rewrite suml_add by exact KL.
  rewrite (good_key_value B BL f' m' T 0 (share B m' u') M' HM) by (apply share_shares; assumption).
  rewrite (suml_extend B BL (fun a => ind K T a * sg a) (leaves f) (leaves f')
      (mo_nodup K f m (kr_msp _ _ _ _ _ _ R)) (mo_nodup K f' m' M') Hil).
  - ring.
  - intros a _ Ha. rewrite ind_out; [ring|]. intros Hin. apply Ha. apply (minimal_leaves f' T HM). exact Hin.
Qed.

(** the shares of a set are those of a minimal one, or a wrong multiple of the
    secret, or depend on the draws *)
Lemma share_direction f m T : msp_of K f m -> incl T (leaves f) -> nonzero_up_to (length (leaves f)) ->
  minimal f T \/
  (exists c, c <> 1 /\ forall u, suml (fun a => ind K T a * dotZ K (row_of m a) u) (leaves f) = c * suml u (seq 0 (nb_col m))) \/
  (exists w, suml w (seq 0 (nb_col m)) = 0 /\ suml (fun a => ind K T a * dotZ K (row_of m a) w) (leaves f) = 1).
Proof using BL.
  intros M Hi Hz.
  set (v := fun j => suml (fun a => ind K T a * dotZ K (row_of m a) (basis j)) (leaves f)).
  assert (Hlin : forall u, suml (fun a => ind K T a * dotZ K (row_of m a) u) (leaves f) = suml (fun j => v j * u j) (seq 0 (nb_col m))).
  { intros u. unfold v.
    rewrite (suml_ext K (fun j => suml (fun a => ind K T a * dotZ K (row_of m a) (basis j)) (leaves f) * u j)
       (fun j => suml (fun a => ind K T a * dotZ K (row_of m a) (basis j) * u j) (leaves f)))
      by (intros j _; rewrite suml_scal_r by exact KL; reflexivity).
    rewrite suml_swap by exact KL. apply suml_ext. intros a Ha.
    unfold dotZ at 1. rewrite dot_sum by exact KL. rewrite map_length, (row_of_width B f m a M Ha).
    rewrite <- suml_scal by exact KL. apply suml_ext. intros j _. unfold dotZ. rewrite dot_basis by exact KL. ring. }
  destruct (all_equal_dec B BL (nb_col m) v) as [He|(j & Hj & Hne)].
  - assert (Hv : forall u, suml (fun a => ind K T a * dotZ K (row_of m a) u) (leaves f) = v O * suml u (seq 0 (nb_col m))).
    { intros u. rewrite Hlin, <- suml_scal by exact KL. apply suml_ext. intros j Hj. apply in_seq in Hj. rewrite He by lia. reflexivity. }
    destruct (K_eq_dec K KL (v O) 1) as [E|E]; [left|right; left; exists (v O); auto].
    assert (Hw : wt K (ind K T) f (v O)) by (apply (wt_comb B BL f m _ _ M); exact Hv).
    destruct (indicator_wt f T (v O) (mo_nodup K f m M) Hz Hw) as (k & Hk & Ek & _ & Hm).
    destruct (length (leaves f)) as [|n] eqn:El.
    { exfalso. assert (k = 0%nat) by lia. subst k. rewrite times_0, E in Ek. exact (K_1_neq_0 K KL Ek). }
    eapply minimal_ext; [|apply Hm, (times_inj _ _ _ Hz Hk); [lia|rewrite times_1; congruence]].
    intros a. rewrite inter_in. split; [tauto|]. intros Ha. split; [exact Ha|apply Hi, Ha].
  - right; right. set (c := finv (v j - v O)).
    assert (Hd : v j - v O <> 0) by (intros E; apply Hne; apply (fsub_zero K KL); exact E).
    exists (fun i => c * (basis j i - basis O i)).
    assert (S1 : forall g k, (k < nb_col m)%nat -> suml (fun i => g i * basis k i) (seq 0 (nb_col m)) = g k).
    { intros g k Hk. rewrite (suml_single K KL _ _ k).
      - unfold basis. rewrite Nat.eqb_refl. ring.
      - apply Nat.eq_dec.
      - apply seq_NoDup.
      - apply in_seq; lia.
      - intros i _ Hik. unfold basis. destruct (Nat.eqb_spec k i); [congruence|ring]. }
    split.
    + rewrite (suml_ext K _ (fun i => c * basis j i - c * basis O i)) by (intros; ring).
      rewrite suml_sub by exact KL. rewrite (S1 (fun _ => c) j), (S1 (fun _ => c) O) by lia. ring.
    + rewrite Hlin. rewrite (suml_ext K _ (fun i => c * v i * basis j i - c * v i * basis O i)) by (intros; ring).
      rewrite suml_sub by exact KL. rewrite (S1 (fun i => c * v i) j), (S1 (fun i => c * v i) O) by lia.
      unfold c. field. exact Hd.
Qed.

(** the value computed by a key delegated from a generated one, as a function of
    the draws *)
Lemma generated_value f m f' m' gam t y : (forall x, In x t -> x <> 0) -> msp_of K f m -> msp_of K f' m' -> holds (attrs gam) f' ->
  exists T, minimal f' T /\ incl T gam /\
  forall draw ddraw uk uk' mu s,
    key_generation m (mkPriv t y) draw = Ok uk -> key_delegation m' uk (mkDel (inv_of B t)) ddraw = Ok uk' ->
    exists u, sharing_vector (nb_col m) draw y = Ok u /\ decrypt (honest_ct B t y gam mu s) uk' =
      Ok (Some (gt (mu + (y - suml (fun a => ind K T a * dotZ K (row_of m a) (vec u)) (leaves f)) * s))).
Proof using BL.
  intros Hnz M M' Hh. destruct (delegated_value f' m' gam M' Hh) as (T & HM & HT & H). exists T. split; [exact HM|]. split; [exact HT|].
  intros draw ddraw uk uk' mu s G D. destruct (key_generation_rep B BL f m t y _ uk M G) as (u & Hu & R & Hne).
  exists u. split; [exact Hu|]. rewrite (H t y f m _ uk ddraw uk' mu s Hne R D). reflexivity.
Qed.

Lemma works_or_direction P f m f' m' t y gam s :
  (forall x, In x t -> x <> 0) -> to_msp P f = Ok m -> to_msp P f' = Ok m' -> incl (leaves f') (leaves f) ->
  minimal f' gam -> nonzero_up_to (length (leaves f)) -> y <> 0 -> s <> 0 ->
  minimal f gam \/
  exists delta : nat -> K, forall draw ddraw k1 k2 uk1 uk2 uk1' uk2' msg ct,
    k1 <> k2 ->
    key_generation m (mkPriv t y) (shift draw (fun i => k1 * delta i)) = Ok uk1 ->
    key_generation m (mkPriv t y) (shift draw (fun i => k2 * delta i)) = Ok uk2 ->
    key_delegation m' uk1 (mkDel (inv_of B t)) ddraw = Ok uk1' ->
    key_delegation m' uk2 (mkDel (inv_of B t)) ddraw = Ok uk2' ->
    encrypt P msg gam (pub_of B t y) s = Ok ct ->
    ~ (decrypt ct uk1' = Ok (Some msg) /\ decrypt ct uk2' = Ok (Some msg)).
Proof using BL.
  intros Hnz Hm Hm' Hil Hg Hz Hy Hs. pose proof (to_msp_msp_of K KL P f m Hm) as M. pose proof (to_msp_msp_of K KL P f' m' Hm') as M'.
  destruct (generated_value f m f' m' gam t y Hnz M M' (proj1 Hg)) as (T & HM & HT & Hval).
  assert (Hgt : incl gam T) by (apply Hg; [exact HT|apply HM]).
  assert (HTl : incl T (leaves f)) by (intros a Ha; apply Hil, (minimal_leaves f' T HM), Ha).
  destruct (share_direction f m T M HTl Hz) as [Hmin|[(c & Hc & Hv)|(w & Hw0 & Hw1)]].
  - left. eapply minimal_ext; [|exact Hmin]. intros a; split; [apply HT|apply Hgt].
  - right. exists (fun _ => 0). intros draw ddraw k1 k2 uk1 uk2 uk1' uk2' msg ct Hk G1 G2 D1 D2 He [F1 _].
    destruct (encrypt_honest B BL P msg gam t y s ct He) as (mu & -> & ->).
    destruct (Hval _ _ _ _ mu s G1 D1) as (u & Hu & V). rewrite V in F1. injection F1 as F1. apply (bl_gt_inj B BL) in F1.
    rewrite Hv in F1. apply (sharing_vector_inv B BL) in Hu as [_ Hu]. rewrite Hu in F1.
    assert (E : (1 - c) * y * s = 0) by (transitivity (mu + (y - c * y) * s - mu); [ring|rewrite F1; ring]).
    destruct (fmul_zero K KL _ _ E) as [E1|E1]; [|contradiction].
    destruct (fmul_zero K KL _ _ E1) as [E2|E2]; [|contradiction].
    apply Hc. symmetry. apply (fsub_zero K KL). exact E2.
  - right. exists w. intros draw ddraw k1 k2 uk1 uk2 uk1' uk2' msg ct Hk G1 G2 D1 D2 He [F1 F2].
    destruct (encrypt_honest B BL P msg gam t y s ct He) as (mu & -> & ->).
    destruct (Hval _ _ _ _ mu s G1 D1) as (u1 & Hu1 & V1). destruct (Hval _ _ _ _ mu s G2 D2) as (u2 & Hu2 & V2).
    rewrite V1 in F1. rewrite V2 in F2. injection F1 as F1. injection F2 as F2. apply (bl_gt_inj B BL) in F1, F2.
    assert (Hcol : (1 <= nb_col m)%nat) by (rewrite (mo_cols K f m M); lia).
    destruct (sharing_vector_total B (nb_col m) draw y Hcol) as (u & Hu).
    assert (Hsh : forall k uk, sharing_vector (nb_col m) (shift draw (fun i => k * w i)) y = Ok uk ->
       suml (fun a => ind K T a * dotZ K (row_of m a) (vec uk)) (leaves f)
       = suml (fun a => ind K T a * dotZ K (row_of m a) (vec u)) (leaves f) + k).
    { intros k uk Huk.
      destruct (sharing_vector_shift B BL (nb_col m) draw y y u (fun i => k * w i) Hcol Hu) as (uk' & Huk' & Hv).
      { rewrite suml_scal by exact KL. rewrite Hw0. ring. }
      assert (uk' = uk) by congruence. subst uk'.
      rewrite (suml_ext K _ (fun a => ind K T a * dotZ K (row_of m a) (vec u) + k * (ind K T a * dotZ K (row_of m a) w))).
      - rewrite suml_add by exact KL. rewrite suml_scal by exact KL. rewrite Hw1. ring.
      - intros a Ha. pose proof (share_vec B BL f m u uk _ a M Ha Hv) as E1. unfold share in E1. rewrite E1.
        unfold dotZ. rewrite dot_scal by exact KL. ring. }
    rewrite (Hsh k1 u1 Hu1) in F1. rewrite (Hsh k2 u2 Hu2) in F2.
    set (S0 := suml (fun a => ind K T a * dotZ K (row_of m a) (vec u)) (leaves f)) in *.
    apply Hk. apply (fmul_cancel K KL k1 k2 s Hs).
    transitivity (mu - (mu + (y - (S0 + k1)) * s) + (y - S0) * s); [ring|]. rewrite F1.
    transitivity (mu - (mu + (y - (S0 + k2)) * s) + (y - S0) * s); [rewrite F2; ring|ring].
Qed.

(** ** C123 *)

(** a set that satisfies the new formula minimally, but not the old one: along one
    direction of the draws of the source key at most one draw gives a delegated key
    that opens ciphertexts for this set *)
Theorem C123_not_narrower P size (mdraw : nat -> K) mk f m f' m' gam (s : K) :
  generate_master_key size mdraw = Ok mk -> priv_y (priv_key mk) <> f0 -> s <> f0 ->
  to_msp P f = Ok m -> to_msp P f' = Ok m' -> incl (leaves f') (leaves f) ->
  nonzero_up_to (length (leaves f)) ->
  minimal f' gam -> ~ minimal f gam ->
  exists delta : nat -> K, forall draw ddraw k1 k2 uk1 uk2 uk1' uk2' msg ct,
    k1 <> k2 ->
    key_generation m (priv_key mk) (shift draw (fun i => fmul k1 (delta i))) = Ok uk1 ->
    key_generation m (priv_key mk) (shift draw (fun i => fmul k2 (delta i))) = Ok uk2 ->
    abe_key_delegation (Some m') uk1 (del_key mk) ddraw = Ok uk1' ->
    abe_key_delegation (Some m') uk2 (del_key mk) ddraw = Ok uk2' ->
    encrypt P msg gam (pub_key mk) s = Ok ct ->
    ~ (decrypt ct uk1' = Ok (Some msg) /\ decrypt ct uk2' = Ok (Some msg)).
Proof using BL.
  intros Hmk Hy Hs Hm Hm' Hil Hz Hg Hn. destruct (generate_master_key_inv B BL _ _ _ Hmk) as (t & y & -> & Ht & Hnz).
  destruct (works_or_direction P f m f' m' t y gam s Hnz Hm Hm' Hil Hg Hz Hy Hs) as [H|H]; [contradiction|exact H].
Qed.

(** the delegations that always give a working key are those to formulas whose
    minimal sets are minimal sets of the source *)
Theorem C123_working_delegations P size (mdraw : nat -> K) mk f m f' m' :
  generate_master_key size mdraw = Ok mk -> priv_y (priv_key mk) <> f0 ->
  to_msp P f = Ok m -> to_msp P f' = Ok m' ->
  incl (leaves f') (leaves f) -> (forall a, In a (leaves f) -> (N.to_nat a < size)%nat) -> (length (leaves f') < size)%nat ->
  nonzero_up_to (length (leaves f)) ->
  (narrows f' f <->
   forall kdraw ddraw uk uk' msg gam (s : K) ct,
     key_generation m (priv_key mk) kdraw = Ok uk ->
     abe_key_delegation (Some m') uk (del_key mk) ddraw = Ok uk' ->
     encrypt P msg gam (pub_key mk) s = Ok ct -> holds (attrs gam) f' ->
     decrypt ct uk' = Ok (Some msg)).
Proof using BL.
  intros Hmk Hy Hm Hm' Hil Hsz Hlen Hz. destruct (generate_master_key_inv B BL _ _ _ Hmk) as (t & y & -> & Ht & Hnz).
  split.
  - intros Hn kdraw ddraw uk uk' msg gam s ct Hk Hd He Hh.
    destruct (derived_decrypt B BL P t y f' uk' msg gam s ct Hnz) as [[_ H]|[[H _]|[H _]]]; try contradiction; try assumption.
    apply (de_del B P _ f uk f' m' ddraw uk'); [eapply de_gen; eauto|left; exact Hn|exact Hm'|exact Hd].
  - intros Hw T HT.
    set (gam := nodup N.eq_dec T).
    assert (Hin : forall a, In a T <-> In a gam) by (intros a; symmetry; apply nodup_In).
    assert (Hg : minimal f' gam) by (apply (minimal_ext f' T gam Hin HT)).
    assert (Hgl : incl gam (leaves f')) by (apply minimal_leaves; exact Hg).
    pose proof (to_msp_msp_of K KL P f m Hm) as M. pose proof (to_msp_msp_of K KL P f' m' Hm') as M'.
    destruct (works_or_direction P f m f' m' t y gam 1 Hnz Hm Hm' Hil Hg Hz Hy (K_1_neq_0 K KL)) as [H|(delta & H)].
    { eapply minimal_ext; [|exact H]. intros a. symmetry. apply Hin. }
    exfalso.
    assert (Hr : forall a, In a (leaves f) -> in_range B t a) by (intros a Ha; unfold in_range; rewrite Ht; apply Hsz, Ha).
    assert (Gen : forall k, exists uk uk', key_generation m (mkPriv t y) (shift (fun _ => 0) (fun i => k * delta i)) = Ok uk /\
       key_delegation m' uk (mkDel (inv_of B t)) (fun _ => 0) = Ok uk').
    { intros k. destruct (key_generation_total B BL f m t y (shift (fun _ => 0) (fun i => k * delta i)) M) as (uk & Hk).
      { intros a Ha. split; [apply Hr, Ha|]. apply tt_nonzero; auto. }
      assert (Ho : obtained B P (master_of B t y) f uk) by (eapply ob_gen; eauto).
      destruct (delegate_total B BL P t y f uk f' m' (fun _ => 0) Hnz Ho Hm' Hil) as (uk' & Hd). exists uk, uk'. auto. }
    destruct (Gen 0) as (uk1 & uk1' & G1 & D1). destruct (Gen 1) as (uk2 & uk2' & G2 & D2).
    assert (He : exists ct, encrypt P (gt 0) gam (pub_of B t y) 1 = Ok ct).
    { eexists. apply (encrypt_run B BL).
      - rewrite Ht. eapply Nat.le_lt_trans; [|exact Hlen]. apply NoDup_incl_length; [apply NoDup_nodup|exact Hgl].
      - intros a Ha. apply Hr, Hil, Hgl, Ha. }
    destruct He as (ct & He).
    apply (H (fun _ => 0) (fun _ => 0) 0 1 uk1 uk2 uk1' uk2' (gt 0) ct); auto.
    + intros E. apply (K_1_neq_0 K KL). symmetry. exact E.
    + split; [eapply (Hw _ _ uk1 uk1')|eapply (Hw _ _ uk2 uk2')]; eauto; apply Hg.
Qed.

(** a key each of whose attributes suffices, delegated to any formula over them:
    what it computes *)
Theorem C123_from_disjunction P size (mdraw : nat -> K) mk f uk f' m' (ddraw : nat -> K) uk' msg gam (s : K) ct :
  generate_master_key size mdraw = Ok mk ->
  derived B P mk f uk -> each_suffices f ->
  to_msp P f' = Ok m' -> abe_key_delegation (Some m') uk (del_key mk) ddraw = Ok uk' ->
  encrypt P msg gam (pub_key mk) s = Ok ct -> holds (attrs gam) f' ->
  exists T, NoDup T /\ minimal f' T /\ incl T gam /\
    decrypt ct uk' = Ok (Some (gt_div B msg (gt_exp B (pub_y (pub_key mk)) (fmul s (of_Z (Z.of_nat (length T) - 1)))))).
Proof using BL.
  intros Hmk Hd He Hm' Hdel Hen Hh. destruct (generate_master_key_inv B BL _ _ _ Hmk) as (t & y & -> & Ht & Hnz).
  destruct (derived_good B BL P t y f uk Hnz Hd) as ((m & sg & R & Hsh) & Hne & _).
  pose proof (to_msp_msp_of K KL P f' m' Hm') as M'. pose proof (kr_msp _ _ _ _ _ _ R) as M. pose proof (mo_nodup K f m M) as Hnd.
  destruct (encrypt_honest B BL P msg gam t y s ct Hen) as (mu & -> & ->).
  destruct (delegated_value f' m' gam M' Hh) as (T & HM & HT & V).
  assert (Hin : forall a, In a T <-> In a (nodup N.eq_dec T)) by (intros a; symmetry; apply nodup_In).
  exists (nodup N.eq_dec T). split; [apply NoDup_nodup|]. split; [exact (minimal_ext _ _ _ Hin HM)|].
  split; [intros a Ha; apply HT, Hin, Ha|].
  destruct (key_delegation_rep B BL t f m sg uk f' m' ddraw uk' R M' Hdel) as (u' & _ & Hil & _).
  assert (Sh : forall a, In a (leaves f) -> sg a = y).
  { intros a Ha. pose proof (good_key_value B BL f m [a] y sg M) as G.
    rewrite <- G; [|split; [apply He, Ha|]|exact Hsh].
    - rewrite (suml_single K KL _ _ a); [rewrite ind_in by (left; reflexivity); ring|apply N.eq_dec|exact Hnd|exact Ha|].
      intros b _ Hb. rewrite ind_out; [ring|]. intros [E|[]]; congruence.
    - intros T' Hi Hx b [<-|[]]. destruct (holds_some _ _ Hx) as (z & _ & Hz). pose proof (Hi _ Hz) as [E|[]]. subst z. exact Hz. }
  assert (Sum : suml (fun a => ind K T a * sg a) (leaves f) = of_Z (Z.of_nat (length (nodup N.eq_dec T))) * y).
  { rewrite <- (suml_extend B BL (fun a => ind K T a * sg a) (leaves f) (nodup N.eq_dec T) Hnd (NoDup_nodup _ _)).
    - rewrite (suml_ext K _ (fun _ => y)).
      + change (of_Z (Z.of_nat (length (nodup N.eq_dec T)))) with (times (length (nodup N.eq_dec T))).
        clear -BL. induction (nodup N.eq_dec T) as [|a l IH].
        * change (suml (fun _ : N => y) []) with (@f0 K). simpl length. rewrite times_0. ring.
        * rewrite suml_cons, IH. change (length (a :: l)) with (1 + length l)%nat. rewrite times_add, times_1. ring.
      + intros a Ha. apply Hin in Ha. rewrite ind_in by exact Ha. rewrite Sh; [ring|].
        apply Hil, (minimal_leaves f' T HM), Ha.
    - intros a Ha. apply Hin in Ha. apply Hil, (minimal_leaves f' T HM), Ha.
    - intros a _ Ha. rewrite ind_out; [ring|]. intros X. apply Ha, Hin, X. }
  rewrite (V t y f m sg uk ddraw uk' mu s Hne R Hdel), Sum.
  change (pub_y (pub_key (master_of B t y))) with (gt y). rewrite (bl_gt_exp B BL), (bl_gt_div B BL). do 3 f_equal.
  replace (Z.of_nat (length (nodup N.eq_dec T)) - 1)%Z with (Z.of_nat (length (nodup N.eq_dec T)) + (-1))%Z by lia.
  rewrite (of_Z_add K KL).
  assert (E : of_Z (-1) = - (1 : K)).
  { transitivity (of_Z 1 + of_Z (-1) - (1 : K)).
    - rewrite (of_Z_1 K KL). ring.
    - rewrite <- (of_Z_add K KL). change (1 + -1)%Z with 0%Z. rewrite (of_Z_0 K KL). ring. }
  rewrite E. ring.
Qed.

(** so it is wrong whenever the new formula asks for two attributes at once *)
Theorem C123_conjunction_wrong P size (mdraw : nat -> K) mk f uk f' m' (ddraw : nat -> K) uk' msg gam (s : K) ct :
  generate_master_key size mdraw = Ok mk -> priv_y (priv_key mk) <> f0 -> s <> f0 ->
  derived B P mk f uk -> each_suffices f -> nonzero_up_to (length (leaves f)) ->
  to_msp P f' = Ok m' -> abe_key_delegation (Some m') uk (del_key mk) ddraw = Ok uk' ->
  encrypt P msg gam (pub_key mk) s = Ok ct ->
  (forall a, ~ holds (attrs [a]) f') ->
  (holds (attrs gam) f' /\ exists x, decrypt ct uk' = Ok (Some x) /\ x <> msg) \/
  (~ holds (attrs gam) f' /\ forall x, decrypt ct uk' <> Ok (Some x)).
Proof using BL.
  intros Hmk Hy Hs Hd He Hz Hm' Hdel Hen Hno.
  assert (Dec : {holds (attrs gam) f'} + {~ holds (attrs gam) f'}).
  { destruct (holdsb gam f') eqn:E; [left|right]; [apply holdsb_spec; exact E|].
    intros Hh. apply holdsb_spec in Hh. congruence. }
  destruct Dec as [Hh|Hh].
  - left. split; [exact Hh|].
    destruct (C123_from_disjunction P size mdraw mk f uk f' m' ddraw uk' msg gam s ct Hmk Hd He Hm' Hdel Hen Hh) as (T & Hnd & HM & HT & E).
    eexists. split; [exact E|]. intros X. clear E.
    destruct (generate_master_key_inv B BL _ _ _ Hmk) as (t & y & -> & Ht & Hnz).
    destruct (derived_good B BL P t y f uk Hnz Hd) as ((m & sg & R & _) & _ & _).
    destruct (key_delegation_rep B BL t f m sg uk f' m' ddraw uk' R (to_msp_msp_of K KL P f' m' Hm') Hdel) as (_ & _ & Hil & _).
    destruct (bl_gt_surj B BL msg) as [mu ->]. change (pub_y (pub_key (master_of B t y))) with (gt y) in X.
    rewrite (bl_gt_exp B BL), (bl_gt_div B BL) in X. apply (bl_gt_inj B BL) in X.
    assert (L : (2 <= length T)%nat).
    { destruct T as [|a [|b T]]; [|exfalso; apply (Hno a), HM|simpl; lia].
      exfalso. destruct (holds_some _ _ (proj1 HM)) as (z & _ & []). }
    assert (L' : (length T <= length (leaves f))%nat).
    { apply NoDup_incl_length; [exact Hnd|]. intros a Ha. apply Hil, (minimal_leaves f' T HM), Ha. }
    replace (Z.of_nat (length T) - 1)%Z with (Z.of_nat (length T - 1)) in X by lia.
    assert (X' : y * (s * times (length T - 1)) = 0).
    { transitivity (mu - (mu - y * (s * times (length T - 1)))); [ring|]. unfold times. rewrite X. ring. }
    destruct (fmul_zero K KL _ _ X') as [Z0|Z0]; [exact (Hy Z0)|].
    destruct (fmul_zero K KL _ _ Z0) as [Z1|Z1]; [exact (Hs Z1)|]. revert Z1. apply Hz. lia.
  - right. split; [exact Hh|]. intros x E.
    assert (Ho : obtained B P mk f' uk') by (eapply ob_del; [apply derived_obtained; exact Hd|exact Hm'|exact Hdel]).
    destruct (generate_master_key_inv B BL _ _ _ Hmk) as (t & y & -> & Ht & Hnz).
    destruct (obtained_rep B BL P t y f' uk' Hnz Ho) as (m1 & sg & Em1 & R & Hn).
    destruct (encrypt_honest B BL P msg gam t y s ct Hen) as (mu & -> & ->).
    destruct (decrypt_rep B BL f' m1 gam (kr_msp _ _ _ _ _ _ R)) as [(_ & _ & H)|[(_ & _ & H)|(_ & Hh' & _)]]; [| |contradiction];
      rewrite (H _ _ _ _ _ _ R) in E; discriminate.
Qed.
End Working.

Lemma pure_or_suffices f : pure_or f -> each_suffices f.
Proof.
  induction f as [a IHa b IHb|a IHa b IHb|v]; intros H x Hx; [destruct H| |].
  - destruct H as [H1 H2]. simpl in *. apply in_app_or in Hx as [Hx|Hx]; [left; apply IHa|right; apply IHb]; assumption.
  - simpl in Hx. destruct Hx as [<-|[]]. left. reflexivity.
Qed.

Lemma satisfied_one ops T ap : satisfied ops T ap -> exists b, T b.
Proof.
  induction ap as [a|x IHx y IHy|x IHx y IHy|]; simpl.
  - intros (b & H & _). eauto.
  - intros [H _]. auto.
  - intros [H|H]; auto.
  - intros (b & H & _). eauto.
Qed.

Lemma one_value it ops p ap f v : iteration_ok it -> inv ops p -> key_formula it p ap = Ok f -> holds (attrs [v]) f ->
  exists b, satisfied ops (fun c => c = b) ap.
Proof.
  intros Hit I Ef Hh. apply (key_formula_holds it ops p ap f (attrs [v]) Hit I Ef) in Hh.
  destruct (satisfied_one _ _ _ Hh) as (b & hb & w & Eb & Hw & [<-|[]]). exists b.
  apply (satisfied_ext ops (hits p (attrs [v])) (fun c => c = b) ap); [|exact Hh]. intros c _. split.
  - intros (hc & w' & Ec & Hc & [<-|[]]). exact (i_dist _ _ I c b hc hb v Ec Eb Hc Hw).
  - intros ->. exists hb, v. split; [exact Eb|]. split; [exact Hw|left; reflexivity].
Qed.

Section Policies.
Variable B : BilinearMap.
Hypothesis BL : BilinearLaws B.
Local Notation K := (bm_K B).
Implicit Types P : platform.

(** the key for All, delegated to an access policy that no attribute satisfies
    alone, such as one with And: it opens nothing *)
Theorem C123_key_for_all P n history p0 (mdraw : nat -> K) mk i uk it j p ap (ddraw : nat -> K) uk' k q l msg (s : K) ct :
  proper_axes history -> eng_master_key p0 mdraw = Ok mk -> priv_y (priv_key mk) <> f0 -> s <> f0 ->
  nonzero_up_to B (N.to_nat n) ->
  held_key P mk n history i AAll uk ->
  iteration_ok it -> version n history j p -> ap <> AAll -> (forall b, ~ satisfied (firstn j history) (fun c => c = b) ap) ->
  eng_delegate P it p (del_key mk) uk ap ddraw = Ok uk' ->
  version n history k q -> eng_encrypt P q (pub_key mk) l msg s = Ok ct ->
  let T := fun b => In b l /\ ~ In (Rotate b) (between history j k) in
  (satisfied (firstn j history) T ap /\ exists x, eng_decrypt ct uk' = Ok (Some x) /\ x <> msg) \/
  (~ satisfied (firstn j history) T ap /\ forall x, eng_decrypt ct uk' <> Ok (Some x)).
Proof using BL.
  intros Hprop Hmk Hy Hs Hz Hk Hit V Hne Hone Hdel V' He T.
  destruct (held_stands B BL P n history _ mdraw mk Hprop Hmk i AAll uk Hk) as (r & it0 & f & g & V0 & Hit0 & Eg & [Sfg Sgf] & Hnd & Hd).
  apply eng_delegate_inv in Hdel as (f' & m' & Ef' & Em' & Hdel); [|exact Hne].
  unfold eng_encrypt in He. apply bind_ok in He as (gam & Ev & He).
  assert (Ef2 : key_formula it p ap = Ok f') by (rewrite key_formula_other by exact Hne; exact Ef').
  assert (Hsat : holds (attrs gam) f' <-> satisfied (firstn j history) T ap).
  { rewrite (key_formula_holds it _ p ap f' (attrs gam) Hit (version_inv _ _ _ _ V) Ef2). apply satisfied_ext.
    intros b D. apply (hits_version n history j k p q l gam b V V' Ev D). }
  assert (Hlv : forall v, In v (leaves f) -> (1 <= v <= n)%N).
  { intros v Hv. apply (restricts_leaves _ _ Sfg) in Hv.
    pose proof (key_formula_all it0 _ r Hit0 (version_inv _ _ _ _ V0)) as [A1 A2].
    assert (Dx : exists b, declared (firstn i history) b).
    { cbn [key_formula] in Eg. assert (Hg : holds (attrs [v]) g).
      { apply pure_or_suffices; [|exact Hv]. destruct (reduce_or _) as [z|] eqn:E; [|discriminate].
        assert (z = g) by congruence. subst z. exact (reduce_pure _ _ E). }
      apply (key_formula_holds it0 _ r AAll g _ Hit0 (version_inv _ _ _ _ V0) Eg) in Hg. destruct Hg as (b & _ & D). eauto. }
    destruct (A1 Dx) as (g' & Eg' & _ & Hv'). assert (g' = g) by congruence. subst g'.
    apply Hv' in Hv as (b & h & Eb & Hin). destruct (i_heap _ _ (version_inv _ _ _ _ V0) b h Eb) as (_ & _ & Hb).
    pose proof (i_last _ _ (version_inv _ _ _ _ V0)) as L. destruct V0 as [_ V0]. rewrite (run_max _ _ _ V0) in L. cbn [new_policy max_attribute_creations] in L.
    specialize (Hb v Hin). lia. }
  assert (Hlen : (length (leaves f) <= N.to_nat n)%nat).
  { rewrite <- (seq_length (N.to_nat n) 1), <- (map_length N.to_nat). apply NoDup_incl_length.
    - apply FinFun.Injective_map_NoDup; [intros a b E; apply N2Nat.inj; exact E|exact Hnd].
    - intros x Hx. apply in_map_iff in Hx as (v & <- & Hv). specialize (Hlv v Hv). apply in_seq. lia. }
  assert (Hsuf : each_suffices f).
  { intros a Ha. apply (restricts_holds _ _ _ Sgf). apply (pure_or_suffices g); [|apply (restricts_leaves _ _ Sfg), Ha].
    cbn [key_formula] in Eg. destruct (reduce_or _) as [z|] eqn:E; [|discriminate].
    assert (z = g) by congruence. subst z. exact (reduce_pure _ _ E). }
  unfold eng_decrypt. rewrite <- Hsat.
  apply (C123_conjunction_wrong B BL P _ mdraw mk f uk f' m' ddraw uk' msg gam s ct Hmk Hy Hs Hd Hsuf); auto.
  - intros x Hx. apply Hz. lia.
  - intros a Ha. destruct (one_value it _ p ap f' a Hit (version_inv _ _ _ _ V) Ef2 Ha) as (b & Hb). exact (Hone b Hb).
Qed.
End Policies.

(** ** Examples *)
Local Open Scope string_scope.
Local Ltac vmr x := vm_cast_no_check (eq_refl x).

Definition super_low_fin : decryption_key toy := run empty_key (hdel pol_a (ekey pol_a AAll) low_fin).
Definition low_fin_ct : ciphertext toy := ect pol_a [dept "FIN"; level "Protected"].
Definition seen : Gt toy := match eng_decrypt low_fin_ct super_low_fin with Ok (Some x) => x | _ => ex_msg end.

Lemma toy_nonzero : nonzero_up_to toy 10.
Proof.
  intros k [H1 H2]. do 11 (destruct k as [|k]; [first [lia|intros E; apply (f_equal zval) in E; vm_compute in E; discriminate]|]). lia.
Qed.

Lemma super_held : held_key pf ex_mk 10 hist 2 AAll (ekey pol_a AAll).
Proof. eapply (hk_gen pf ex_mk 10 hist it_rev 2 pol_a AAll ex_kdraw); [exact it_rev_ok|exact hist_two|vmr (@Ok (decryption_key toy) (ekey pol_a AAll))]. Qed.

Lemma low_fin_two b : ~ satisfied (firstn 2 hist) (fun c => c = b) low_fin.
Proof.
  intros [(b1 & -> & n1 & h1 & I1 & _ & C1) (b2 & -> & n2 & h2 & I2 & _ & C2)].
  assert (F1 : fst b = "Security Level") by (destruct C1 as [->|(_ & -> & _)]; reflexivity).
  assert (F2 : fst b = "Department") by (destruct C2 as [->|(_ & -> & _)]; reflexivity). rewrite F1 in F2. discriminate.
Qed.

Lemma low_fin_ok : satisfied (firstn 2 hist) (fun b => In b [dept "FIN"; level "Protected"]) low_fin.
Proof.
  split.
  - exists (level "Protected"). split; [right; left; reflexivity|]. eexists _, _. split; [left; reflexivity|]. split; [left; reflexivity|left; reflexivity].
  - exists (dept "FIN"). split; [left; reflexivity|]. eexists _, _. split; [right; left; reflexivity|]. split; [simpl; tauto|left; reflexivity].
Qed.

Lemma Some_inj {A} (x y : A) : Some x = Some y -> x = y.
Proof. intros [= E]. exact E. Qed.

(** as in the demo, a key for All is delegated to a level and a department: the
    delegation and the decryption succeed, and the message is not the right one *)
Example C123_example :
  eng_delegate pf it_rev pol_a (del_key ex_mk) (ekey pol_a AAll) low_fin ex_draw = Ok super_low_fin /\
  eng_encrypt pf pol_a (pub_key ex_mk) [dept "FIN"; level "Protected"] ex_msg ex_s = Ok low_fin_ct /\
  eng_decrypt low_fin_ct (ekey pol_a AAll) = Ok (Some ex_msg) /\
  eng_decrypt low_fin_ct super_low_fin = Ok (Some seen) /\ seen <> ex_msg.
Proof.
  split; [vmr (@Ok (decryption_key toy) super_low_fin)|]. split; [vmr (@Ok (ciphertext toy) low_fin_ct)|].
  split; [vmr (@Ok (option (Gt toy)) (Some ex_msg))|]. split; [vmr (@Ok (option (Gt toy)) (Some seen))|].
  intros E; apply (f_equal zval) in E; vm_compute in E; discriminate.
Qed.

(** what the demo says of the keys that delegates can make does not hold for the
    delegate with the key for All *)
Theorem C123_demo_refuted :
  ~ (forall B, BilinearLaws B -> forall P n history p0 (mdraw : nat -> bm_K B) mk i uk it p ap (ddraw : nat -> bm_K B) uk' l msg (s : bm_K B) ct,
      proper_axes history -> eng_master_key p0 mdraw = Ok mk -> priv_y (priv_key mk) <> f0 -> s <> f0 ->
      held_key P mk n history i AAll uk -> iteration_ok it -> version n history i p -> ap <> AAll ->
      eng_delegate P it p (del_key mk) uk ap ddraw = Ok uk' -> eng_encrypt P p (pub_key mk) l msg s = Ok ct ->
      satisfied (firstn i history) (fun b => In b l) ap -> eng_decrypt ct uk' = Ok (Some msg)).
Proof.
  intros H. destruct C123_example as (E1 & E2 & _ & E3 & Hn). destruct ex_engine_setup as (Em & _).
  specialize (H toy toy_laws pf 10%N hist pol_a ex_draw ex_mk 2%nat (ekey pol_a AAll) it_rev pol_a low_fin ex_draw super_low_fin
    [dept "FIN"; level "Protected"] ex_msg ex_s low_fin_ct hist_proper Em).
  assert (F : eng_decrypt low_fin_ct super_low_fin = Ok (Some ex_msg)).
  { apply H; [| |exact super_held|exact it_rev_ok|exact hist_two|discriminate|exact E1|exact E2|exact low_fin_ok];
      intros E; apply (f_equal zval) in E; vm_compute in E; discriminate. }
  apply Hn. pose proof (eq_trans (eq_sym E3) F) as G. exact (Some_inj _ _ (CodecProofs.Ok_inj _ _ G)).
Qed.

(** source 1 & (2 | 3): delegation to 1 & 2 always works, delegation to
    1 & (2 & 3) does not *)
Definition wf : node := And (Leaf 1) (Or (Leaf 2) (Leaf 3)).
Definition wf1 : node := And (Leaf 1) (Leaf 2).
Definition wf2 : node := And (Leaf 1) (And (Leaf 2) (Leaf 3)).
Definition wm : msp Z := run empty_msp (to_msp pf wf).
Definition wm2 : msp Z := run empty_msp (to_msp pf wf2).
Definition wk2 : decryption_key toy :=
  run empty_key (abe_key_delegation (Some wm2) (run empty_key (key_generation wm (priv_key ex_mk) ex_kdraw)) (del_key ex_mk) ex_draw).
Definition wseen : Gt toy := match decrypt (ex_ct [1; 2; 3]%N) wk2 with Ok (Some x) => x | _ => ex_msg end.

Example C123_working_example :
  to_msp pf wf = Ok wm /\ to_msp pf wf2 = Ok wm2 /\ incl (leaves wf2) (leaves wf) /\ nonzero_up_to toy (length (leaves wf)) /\
  narrows wf1 wf /\ ~ narrows wf2 wf /\ minimal wf2 [1; 2; 3]%N /\ ~ minimal wf [1; 2; 3]%N /\
  decrypt (ex_ct [1; 2; 3]%N) wk2 = Ok (Some wseen) /\ wseen <> ex_msg.
Proof.
  assert (M2 : minimal wf2 [1; 2; 3]%N).
  { split; [simpl; unfold attrs; simpl; tauto|]. intros T' _ Hh a Ha. simpl in Hh. unfold attrs in Hh.
    destruct Ha as [<-|[<-|[<-|[]]]]; tauto. }
  assert (N2 : ~ minimal wf [1; 2; 3]%N).
  { intros [_ H]. assert (X : incl [1; 2; 3]%N [1; 2]%N).
    { apply H; [intros a Ha; simpl in *; tauto|simpl; unfold attrs; simpl; tauto]. }
    specialize (X 3%N ltac:(simpl; tauto)). simpl in X. intuition discriminate. }
  split; [vmr (@Ok (msp Z) wm)|]. split; [vmr (@Ok (msp Z) wm2)|]. split; [intros a Ha; exact Ha|].
  split; [intros k Hk; apply toy_nonzero; simpl in Hk; lia|]. split; [|split; [intros X; exact (N2 (X _ M2))|]].
  - intros T [Hh Hm]. simpl in Hh. unfold attrs in Hh. destruct Hh as [Ha Hb].
    assert (Hi : incl T [1; 2]%N).
    { apply Hm; [intros a [<-|[<-|[]]]; assumption|simpl; unfold attrs; simpl; tauto]. }
    split; [simpl; unfold attrs; tauto|]. intros T' HT' Hx a Ha'. simpl in Hx. unfold attrs in Hx. destruct Hx as [H1 [H2|H2]].
    + destruct (Hi a Ha') as [<-|[<-|[]]]; assumption.
    + exfalso. specialize (Hi _ (HT' _ H2)). simpl in Hi. intuition discriminate.
  - split; [exact M2|]. split; [exact N2|]. split; [vmr (@Ok (option (Gt toy)) (Some wseen))|].
    intros E; apply (f_equal zval) in E; vm_compute in E; discriminate.
Qed.

Print Assumptions C123_not_narrower.
Print Assumptions C123_working_delegations.
Print Assumptions C123_from_disjunction.
Print Assumptions C123_conjunction_wrong.
Print Assumptions C123_key_for_all.
Print Assumptions C123_demo_refuted.

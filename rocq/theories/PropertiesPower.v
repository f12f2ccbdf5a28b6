(** When one key opens everything another key opens: C141. *)
From Coq Require Import String NArith ZArith Bool Arith Lia Permutation List.
From Verif Require SchemeProofs.
From Verif Require Import Prelude Field Msp Spec Bilinear Scheme SchemeSpec SchemeTheorems Zp ExpModel PropertiesScheme
  Codec CodecProofs SchemeCodec SchemeCodecProofs PropertiesCodec Policy PolicySpec PolicyProofs Engine EngineSpec EngineProofs PropertiesEngine Hybrid HybridSpec PropertiesHybrid.
Import ListNotations.

(** ** Specification *)
(** The key [uk'] gives back the message of every ciphertext, made with this policy, of which [uk] does. *)
Definition opens_all_of {B : BilinearMap} P p (pk : master_public_key B) (uk' uk : decryption_key B) : Prop :=
  forall l msg (s : bm_K B) ct, eng_encrypt P p pk l msg s = Ok ct -> eng_decrypt ct uk = Ok (Some msg) -> eng_decrypt ct uk' = Ok (Some msg).
(** Every list of attributes of the policy that satisfies [ap] satisfies [ap']. *)
Definition implied (ops : list op) (ap' ap : access_policy) : Prop :=
  forall l, (forall b, In b l -> declared ops b) -> satisfied ops (fun b => In b l) ap -> satisfied ops (fun b => In b l) ap'.

(** ** Attributes *)
Lemma before_trans l x y z : before l x y -> before l y z -> before l x z.
Proof.
  intros (l1 & l2 & E1 & N1 & H1) (m1 & m2 & E2 & N2 & H2). exists m1, m2. split; [exact E2|]. split; [exact N2|].
  rewrite E1 in E2. destruct (Nat.le_gt_cases (length m1) (length l1)) as [L|L].
  - exfalso. apply N1. apply (f_equal (firstn (length m1))) in E2. rewrite !firstn_app, Nat.sub_diag, firstn_all in E2. cbn [firstn] in E2. rewrite app_nil_r in E2.
    replace (length m1 - length l1) with 0 in E2 by lia. cbn [firstn] in E2. rewrite app_nil_r in E2. rewrite <- E2 in H2. rewrite <- (firstn_skipn (length m1) l1). apply in_or_app. left. exact H2.
  - apply (f_equal (firstn (length l1))) in E2. rewrite !firstn_app, Nat.sub_diag, firstn_all in E2. cbn [firstn] in E2. rewrite app_nil_r in E2.
    replace (length l1 - length m1) with 0 in E2 by lia. cbn [firstn] in E2. rewrite app_nil_r in E2. rewrite E2 in H1. rewrite <- (firstn_skipn (length l1) m1). apply in_or_app. left. exact H1.
Qed.
Lemma covers_self ops a : declared ops a -> covers ops a a.
Proof. intros (names & h & H1 & H2). exists names, h. auto. Qed.
Lemma covers_trans ops p a b c : inv ops p -> covers ops a b -> covers ops b c -> covers ops a c.
Proof.
  intros I (n1 & h1 & A1 & M1 & C1) (n2 & h2 & A2 & M2 & C2). destruct C1 as [->|(Eh & Ef & Hb)]; [exists n2, h2; auto|].
  exists n1, h1. split; [exact A1|]. split; [exact M1|]. right. rewrite Ef in A2. apply (i_axes _ _ I) in A1, A2. rewrite A1 in A2. injection A2 as <- <-.
  destruct C2 as [->|(_ & Ef' & Hb')]; [auto|]. split; [exact Eh|]. split; [congruence|]. exact (before_trans _ _ _ _ Hb' Hb).
Qed.
Lemma satisfied_grows ops (T T' : attribute -> Prop) ap : (forall b, T b -> T' b) -> satisfied ops T ap -> satisfied ops T' ap.
Proof.
  intros H. induction ap as [a|a IHa b IHb|a IHa b IHb|]; cbn [satisfied].
  - intros (b & Hb & C). eauto.
  - intros [A C]. auto.
  - intros [A|A]; auto.
  - intros (b & Hb & C). eauto.
Qed.
Lemma satisfied_needs ops T ap : satisfied ops T ap -> exists b, T b.
Proof. induction ap as [a|a IHa b IHb|a IHa b IHb|]; cbn [satisfied]; [intros (b & Hb & _); eauto|intros [A _]; auto|intros [A|A]; auto|intros (b & Hb & _); eauto]. Qed.

(** ** Keys *)
Section Power.
Context (B : BilinearMap) (BL : BilinearLaws B).
Local Notation K := (bm_K B).

Lemma narrowed it ops p T ap : iteration_ok it -> inv ops p -> forall f, policy_to_formula it p ap = Ok f -> satisfied ops T ap ->
  satisfied ops (fun b => T b /\ forall v, value_of p b v -> In v (leaves f)) ap.
Proof using Type.
  intros Hit I. induction ap as [a|a IHa b IHb|a IHa b IHb|]; intros f H S.
  - cbn [policy_to_formula] in H. destruct (policy_to_node_values it ops p a f Hit I H) as [V _]. destruct S as (b & Hb & C). exists b. split; [|exact C]. split; [exact Hb|].
    intros v Hv. apply V. exists b. auto.
  - apply pf_and in H as (x & y & Ex & Ey & ->). destruct S as [Sa Sb]. cbn [leaves].
    split; [apply (satisfied_grows ops _ _ a) with (2 := IHa x Ex Sa)|apply (satisfied_grows ops _ _ b) with (2 := IHb y Ey Sb)]; intros c [Hc Hv]; (split; [exact Hc|]); intros v Hw; apply in_or_app; auto.
  - apply pf_or in H as (x & y & Ex & Ey & ->). cbn [leaves]. destruct S as [Sa|Sb];
    [left; apply (satisfied_grows ops _ _ a) with (2 := IHa x Ex Sa)|right; apply (satisfied_grows ops _ _ b) with (2 := IHb y Ey Sb)]; intros c [Hc Hv]; (split; [exact Hc|]); intros v Hw; apply in_or_app; auto.
  - discriminate.
Qed.
Lemma current_nodup ops p l gam : inv ops p -> Forall2 (current p) l gam -> NoDup l -> NoDup gam.
Proof using Type.
  intros I F. induction F as [|b v l gam Hv F IH]; intros N; [constructor|]. inversion N as [|? ? Hn N']; subst. constructor; [|exact (IH N')].
  intros Hin. destruct (Forall2_in_r _ _ _ _ F Hin) as (c & Hc & Hw). destruct Hv as (h & Eh & Hi & _). destruct Hw as (h' & Eh' & Hi' & _).
  apply Hn. rewrite (i_dist _ _ I b c h h' v Eh Eh' Hi Hi'). exact Hc.
Qed.
(** A set of attributes that satisfies the access policy of a key contains one that does and for which encryption succeeds. *)
Lemma encryptable P n ops p p0 (mdraw : nat -> K) mk it ap (kdraw : nat -> K) uk l :
  run_ops ops (new_policy n) = Ok p -> eng_master_key p0 mdraw = Ok mk -> iteration_ok it -> eng_user_key P it p (priv_key mk) ap kdraw = Ok uk ->
  (forall b, In b l -> declared ops b) -> satisfied ops (fun b => In b l) ap ->
  exists l', incl l' l /\ satisfied ops (fun b => In b l') ap /\ forall msg (s : K), is_ok (eng_encrypt P p (pub_key mk) l' msg s).
Proof using BL.
  intros Hp Hmk Hit Hk Hl Hs. pose proof (inv_history n ops p Hp) as I. unfold eng_user_key in Hk. apply bind_ok in Hk as (m & Em & Hk). rewrite policy_to_msp_formula in Em. apply bind_ok in Em as (f & Ef & Em).
  destruct (generate_master_key_inv B BL _ _ _ Hmk) as (ts & y & -> & _ & Hnz).
  assert (Hder : derived B P (master_of B ts y) f uk) by (eapply de_gen; [exact Em|exact Hk]).
  destruct (derived_good B BL P ts y f uk Hnz Hder) as (_ & Hrange & _).
  assert (Hs' : satisfied ops (fun b => In b l /\ forall v, value_of p b v -> In v (leaves f)) ap).
  { destruct ap as [a|a b|a b|]; try (apply (narrowed it); [exact Hit|exact I|exact Ef|exact Hs]).
    destruct Hs as (b & Hb & D). destruct (proj1 (key_formula_all it ops p Hit I) (ex_intro _ b D)) as (f' & Ef' & _ & Hin). rewrite Ef in Ef'. apply Ok_inj in Ef'. subst f'.
    exists b. split; [|exact D]. split; [exact Hb|]. intros v Hv. apply Hin. eauto. }
  set (good := fun b => forallb (fun v => existsb (N.eqb v) (leaves f)) (match heap_get p b with Some h => h | None => [] end)).
  assert (Hgood : forall b, good b = true <-> forall v, value_of p b v -> In v (leaves f)).
  { intros b. unfold good. rewrite forallb_forall. split.
    - intros H v (h & Eh & Hv). rewrite Eh in H. specialize (H v Hv). apply existsb_exists in H as (w & Hw & E). apply N.eqb_eq in E. subst w. exact Hw.
    - intros H v Hv. apply existsb_exists. exists v. split; [|apply N.eqb_refl]. apply H. destruct (heap_get p b) as [h|] eqn:E; [exists h; auto|destruct Hv]. }
  set (l' := nodup attribute_dec (filter good l)).
  assert (Hin : forall b, In b l' <-> In b l /\ forall v, value_of p b v -> In v (leaves f)) by (intros b; unfold l'; rewrite nodup_In, filter_In, Hgood; tauto).
  exists l'. split; [intros b Hb; apply Hin, Hb|]. assert (S' : satisfied ops (fun b => In b l') ap) by (apply (satisfied_grows ops _ _ ap) with (2 := Hs'); intros b; apply Hin). split; [exact S'|].
  intros msg s. destruct (attributes_values_ok ops p l' I) as (gam & Eg & Lg); [intros b Hb; apply Hl, Hin, Hb|]. pose proof (attributes_values_inv p l' gam Eg) as Ev.
  pose proof (current_nodup ops p l' gam I Ev (NoDup_nodup _ _)) as Ng.
  assert (R : forall v, In v gam -> 1 <= N.to_nat v < length ts).
  { intros v Hv. destruct (Forall2_in_r _ _ _ _ Ev Hv) as (b & Hb & h & Eh & Hv' & _). split.
    - destruct (i_heap _ _ I b h Eh) as (_ & _ & Q). pose proof (Q v Hv'). lia.
    - destruct (Nat.lt_ge_cases (N.to_nat v) (length ts)) as [Q|Q]; [exact Q|]. exfalso. apply (Hrange v); [apply (proj2 (proj1 (Hin b) Hb)); exists h; auto|]. unfold SchemeProofs.tt. apply nth_overflow. exact Q. }
  assert (Hlen : length gam < length ts).
  { pose proof (NoDup_incl_length (l := gam) (l' := map N.of_nat (seq 1 (length ts - 1))) Ng) as Q. rewrite map_length, seq_length in Q.
    destruct gam as [|v gam']; [exfalso; destruct (satisfied_needs _ _ _ S') as (b & Hb); destruct l'; [destruct Hb|discriminate Lg]|]. pose proof (R v (or_introl eq_refl)).
    enough (length (v :: gam') <= length ts - 1) by lia. apply Q. intros w Hw. apply in_map_iff. exists (N.to_nat w). split; [apply N2Nat.id|]. apply in_seq. pose proof (R w Hw). lia. }
  unfold eng_encrypt. rewrite Eg. cbn [bind]. unfold encrypt. cbn [master_of pub_key].
  destruct (Nat.leb_spec (length (pub_t (SchemeProofs.pub_of B ts y))) (length gam)) as [Q|_]; [unfold SchemeProofs.pub_of in Q; cbn [pub_t] in Q; rewrite map_length in Q; lia|].
  rewrite (mapM_ok_map _ (fun i => g2_exp B (g2_gen_exp B (SchemeProofs.tt B ts i)) s)); [eexists; reflexivity|].
  intros v Hv. rewrite SchemeProofs.indexN_pub; [reflexivity|]. exact (proj2 (R v Hv)).
Qed.

(** A key opens everything another one opens exactly when its access policy follows from that of the other. *)
Theorem C141_inclusion P n ops p p0 (mdraw : nat -> K) mk it it' ap ap' (kdraw kdraw' : nat -> K) uk uk' :
  run_ops ops (new_policy n) = Ok p -> eng_master_key p0 mdraw = Ok mk -> iteration_ok it -> iteration_ok it' ->
  eng_user_key P it p (priv_key mk) ap kdraw = Ok uk -> eng_user_key P it' p (priv_key mk) ap' kdraw' = Ok uk' ->
  (opens_all_of P p (pub_key mk) uk' uk <-> implied ops ap' ap).
Proof using BL.
  intros Hp Hmk Hit Hit' Hk Hk'. pose proof (inv_history n ops p Hp) as I. split.
  - intros H l Hl Hs. destruct (encryptable P n ops p p0 mdraw mk it ap kdraw uk l Hp Hmk Hit Hk Hl Hs) as (l' & Hin & Hs' & He).
    destruct (He (gt_gen_exp B f0) f0) as (ct & Hct).
    destruct (C05_policy_access_control B BL P n ops p p0 mdraw mk it ap kdraw uk l' _ f0 ct Hp Hmk Hit Hk Hct) as [[_ D]|[D _]]; [|contradiction].
    pose proof (H l' _ f0 ct Hct D) as D'.
    destruct (C05_policy_access_control B BL P n ops p p0 mdraw mk it' ap' kdraw' uk' l' _ f0 ct Hp Hmk Hit' Hk' Hct) as [[S _]|[_ R]].
    + apply (satisfied_grows ops (fun b => In b l')); [exact Hin|exact S].
    + exfalso. rewrite D' in R. unfold refused in R. destruct R as [R|R]; discriminate.
  - intros H l msg s ct He D.
    assert (Hl : forall b, In b l -> declared ops b).
    { unfold eng_encrypt in He. apply bind_ok in He as (gam & Eg & _). exact (attributes_values_declared ops p l gam I Eg). }
    destruct (C05_policy_access_control B BL P n ops p p0 mdraw mk it ap kdraw uk l msg s ct Hp Hmk Hit Hk He) as [[S _]|[_ R]].
    + destruct (C05_policy_access_control B BL P n ops p p0 mdraw mk it' ap' kdraw' uk' l msg s ct Hp Hmk Hit' Hk' He) as [[_ D']|[S' _]]; [exact D'|].
      exfalso. exact (S' (H l Hl S)).
    + exfalso. rewrite D in R. unfold refused in R. destruct R as [R|R]; discriminate.
Qed.

(** For single attributes: the same one, or a lower one on a hierarchical axis. *)
Theorem C141_attributes P n ops p p0 (mdraw : nat -> K) mk it it' a b (kdraw kdraw' : nat -> K) uka ukb :
  run_ops ops (new_policy n) = Ok p -> eng_master_key p0 mdraw = Ok mk -> iteration_ok it -> iteration_ok it' -> declared ops b ->
  eng_user_key P it p (priv_key mk) (AAttr a) kdraw = Ok uka -> eng_user_key P it' p (priv_key mk) (AAttr b) kdraw' = Ok ukb ->
  (opens_all_of P p (pub_key mk) uka ukb <-> covers ops a b).
Proof using BL.
  intros Hp Hmk Hit Hit' D Ha Hb. pose proof (inv_history n ops p Hp) as I.
  rewrite (C141_inclusion P n ops p p0 mdraw mk it' it (AAttr b) (AAttr a) kdraw' kdraw ukb uka Hp Hmk Hit' Hit Hb Ha). split.
  - intros H. destruct (H [b]) as (c & [<-|[]] & C); [intros c [<-|[]]; exact D|exists b; split; [left; reflexivity|exact (covers_self ops b D)]|exact C].
  - intros C l _ (c & Hc & C'). exists c. split; [exact Hc|]. exact (covers_trans ops p a b c I C C').
Qed.

(** Headers: what the weaker key gets, the stronger key gets too. *)
Theorem C141_headers (F : byte_forms B) fine (HF : forms_ok F fine) shake (SL : forall b k, length (shake b k) = k) (S : sym_scheme) metas (SK : sym_laws S metas)
    P n ops p (mdraw : nat -> K) mk it it' ap ap' (kdraw kdraw' : nat -> K) uk uk' l meta random (s : K) nonce h c :
  (64 <= usize_bits P)%N -> (n < 4294967296)%N ->
  run_ops ops (new_policy n) = Ok p -> eng_master_key p mdraw = Ok mk -> iteration_ok it -> iteration_ok it' ->
  eng_user_key P it p (priv_key mk) ap kdraw = Ok uk -> eng_user_key P it' p (priv_key mk) ap' kdraw' = Ok uk' -> implied ops ap' ap ->
  l <> [] -> length nonce = nonce_length S -> (forall m, meta = Some m -> metas m) ->
  encrypt_hybrid_header S F shake P p (pub_key mk) l meta random s nonce = Ok h ->
  (forall ct, eng_encrypt P p (pub_key mk) l random s = Ok ct -> fine (e_prime ct)) ->
  decrypt_hybrid_header S F shake P uk (eh_bytes h) = Ok c -> decrypt_hybrid_header S F shake P uk' (eh_bytes h) = Ok c.
Proof using BL.
  intros HP Hn Hp Hmk Hit Hit' Hk Hk' Hi Hl Hno Hm He Hf Hd. pose proof (inv_history n ops p Hp) as I.
  assert (Q : exists ct, eng_encrypt P p (pub_key mk) l random s = Ok ct).
  { unfold encrypt_hybrid_header in He. apply bind_ok in He as ([sk es] & He & _). unfold generate_symmetric_key in He. apply bind_ok in He as (ct & He & _). eauto. }
  destruct Q as (ct & Hct).
  assert (U : user_key P mk p ap uk) by (eapply uk_gen; [exact Hit|exact Hk]). assert (U' : user_key P mk p ap' uk') by (eapply uk_gen; [exact Hit'|exact Hk']).
  destruct (C05_policy_access_control B BL P n ops p p mdraw mk it ap kdraw uk l random s ct Hp Hmk Hit Hk Hct) as [[Hs _]|[Hs _]].
  - assert (Hs' : satisfied ops (fun b => In b l) ap').
    { apply Hi; [|exact Hs]. unfold eng_encrypt in Hct. apply bind_ok in Hct as (gam & Eg & _). exact (attributes_values_declared ops p l gam I Eg). }
    rewrite (C46_header_roundtrip B BL F fine HF shake SL S metas SK P n ops p mdraw mk ap uk l meta random s nonce h HP Hn Hp Hmk U Hl Hs Hno Hm He Hf) in Hd.
    rewrite (C46_header_roundtrip B BL F fine HF shake SL S metas SK P n ops p mdraw mk ap' uk' l meta random s nonce h HP Hn Hp Hmk U' Hl Hs' Hno Hm He Hf). exact Hd.
  - exfalso. destruct (C47_unauthorised_header B BL F fine HF shake S P n ops p mdraw mk ap uk l meta random s nonce h (length (eh_bytes h)) HP Hn Hp Hmk U Hl Hs He Hf) as (e & E).
    rewrite firstn_all in E. rewrite E in Hd. discriminate.
Qed.
End Power.

(** ** Access policies *)
(** Requiring more never opens more, allowing more never opens less, All opens everything, and the order of the
    operands and the placing of parentheses do not matter. *)
Theorem C141_laws ops a b c :
  implied ops a (AAnd a b) /\ implied ops b (AAnd a b) /\ implied ops (AOr a b) a /\ implied ops (AOr a b) b /\ implied ops AAll a /\
  implied ops (AAnd a b) (AAnd b a) /\ implied ops (AOr a b) (AOr b a) /\
  implied ops (AAnd a (AAnd b c)) (AAnd (AAnd a b) c) /\ implied ops (AAnd (AAnd a b) c) (AAnd a (AAnd b c)) /\
  implied ops (AOr a (AOr b c)) (AOr (AOr a b) c) /\ implied ops (AOr (AOr a b) c) (AOr a (AOr b c)).
Proof.
  assert (H : forall l, (forall x, In x l -> declared ops x) -> satisfied ops (fun x => In x l) a -> satisfied ops (fun x => In x l) AAll).
  { intros l Hl S. destruct (satisfied_needs _ _ _ S) as (x & Hx). exists x. auto. }
  unfold implied. repeat match goal with |- _ /\ _ => split end; intros l Hl; cbn [satisfied]; try tauto. exact (H l Hl).
Qed.

(** ** Examples *)
Local Ltac vmr x := vm_cast_no_check (eq_refl x).
(** Keys for a department, for two of them and for two requirements. *)
Definition hr_or_fin : access_policy := AOr (AAttr (dept "HR")) (AAttr (dept "FIN")).
Definition hr_and_top : access_policy := AAnd (AAttr (dept "HR")) (AAttr (level "Top Secret")).
Example C141_example :
  run_ops ops_a (new_policy 10) = Ok pol_a /\ eng_master_key pol_a ex_draw = Ok ex_mk /\
  iteration_ok it_rev /\
  (forall ap, In ap [hr_or_fin; hr_and_top; AAttr (dept "HR"); AAttr (level "Protected"); AAttr (level "Top Secret"); AAll] ->
     eng_user_key pf it_rev pol_a (priv_key ex_mk) ap ex_kdraw = Ok (ekey pol_a ap)) /\
  opens_all_of pf pol_a (pub_key ex_mk) (ekey pol_a hr_or_fin) (ekey pol_a (AAttr (dept "HR"))) /\
  ~ opens_all_of pf pol_a (pub_key ex_mk) (ekey pol_a (AAttr (dept "HR"))) (ekey pol_a hr_or_fin) /\
  opens_all_of pf pol_a (pub_key ex_mk) (ekey pol_a (AAttr (dept "HR"))) (ekey pol_a hr_and_top) /\
  opens_all_of pf pol_a (pub_key ex_mk) (ekey pol_a (AAttr (level "Top Secret"))) (ekey pol_a (AAttr (level "Protected"))) /\
  ~ opens_all_of pf pol_a (pub_key ex_mk) (ekey pol_a (AAttr (level "Protected"))) (ekey pol_a (AAttr (level "Top Secret"))).
Proof.
  assert (H1 : run_ops ops_a (new_policy 10) = Ok pol_a) by (vm_compute; reflexivity).
  assert (H4 : eng_master_key pol_a ex_draw = Ok ex_mk) by vmr (Ok ex_mk).
  assert (H6 : forall ap, In ap [hr_or_fin; hr_and_top; AAttr (dept "HR"); AAttr (level "Protected"); AAttr (level "Top Secret"); AAll] ->
     eng_user_key pf it_rev pol_a (priv_key ex_mk) ap ex_kdraw = Ok (ekey pol_a ap)).
  { intros ap [<-|[<-|[<-|[<-|[<-|[<-|[]]]]]]];
    [vmr (Ok (ekey pol_a hr_or_fin))|vmr (Ok (ekey pol_a hr_and_top))|vmr (Ok (ekey pol_a (AAttr (dept "HR"))))|vmr (Ok (ekey pol_a (AAttr (level "Protected"))))|
     vmr (Ok (ekey pol_a (AAttr (level "Top Secret"))))|vmr (Ok (ekey pol_a AAll))]. }
  pose proof (fun ap ap' i i' => C141_inclusion toy toy_laws pf 10%N ops_a pol_a pol_a ex_draw ex_mk it_rev it_rev ap ap' ex_kdraw ex_kdraw _ _ H1 H4 it_rev_ok it_rev_ok (H6 ap i) (H6 ap' i')) as C.
  do 4 (split; [first [exact H1|exact H4|exact it_rev_ok|exact H6]|]).
  assert (Dhr : declared ops_a (dept "HR")) by (eexists _, _; split; [right; left; reflexivity|cbn; auto]).
  assert (Dfin : declared ops_a (dept "FIN")) by (eexists _, _; split; [right; left; reflexivity|cbn; auto]).
  assert (Dlow : declared ops_a (level "Protected")) by (eexists _, _; split; [left; reflexivity|cbn; auto]).
  assert (Dtop : declared ops_a (level "Top Secret")) by (eexists _, _; split; [left; reflexivity|cbn; auto]).
  assert (Hlow : covers ops_a (level "Top Secret") (level "Protected")).
  { eexists _, _. split; [left; reflexivity|]. split; [cbn; auto|]. right. split; [reflexivity|]. split; [reflexivity|].
    exists ["Protected"; "Confidential"]%string, []. split; [reflexivity|]. split; [cbn; intuition discriminate|left; reflexivity]. }
  split; [|split; [|split; [|split]]].
  - apply C; [cbn; tauto|cbn; tauto|]. apply (C141_laws ops_a (AAttr (dept "HR")) (AAttr (dept "FIN")) AAll).
  - intros H. apply C in H; [|cbn; tauto|cbn; tauto]. destruct (H [dept "FIN"]) as (x & [<-|[]] & X).
    + intros b [<-|[]]. exact Dfin.
    + right. exists (dept "FIN"). split; [left; reflexivity|exact (covers_self _ _ Dfin)].
    + destruct X as (names & h & Hx & _ & [X|(-> & _)]); [discriminate|]. destruct Hx as [Hx|[Hx|[]]]; discriminate.
  - apply C; [cbn; tauto|cbn; tauto|]. apply (C141_laws ops_a (AAttr (dept "HR")) (AAttr (level "Top Secret")) AAll).
  - apply (C141_attributes toy toy_laws pf 10%N ops_a pol_a pol_a ex_draw ex_mk it_rev it_rev (level "Top Secret") (level "Protected") ex_kdraw ex_kdraw); try assumption;
      [exact it_rev_ok|exact it_rev_ok|apply H6; cbn; tauto|apply H6; cbn; tauto].
  - intros H. apply (C141_attributes toy toy_laws pf 10%N ops_a pol_a pol_a ex_draw ex_mk it_rev it_rev (level "Protected") (level "Top Secret") ex_kdraw ex_kdraw) in H; try assumption;
      [|exact it_rev_ok|exact it_rev_ok|apply H6; cbn; tauto|apply H6; cbn; tauto].
    destruct H as (names & h & Hx & _ & [X|(_ & _ & l1 & l2 & E & _ & X)]); [discriminate|]. destruct Hx as [Hx|[Hx|[]]]; [|discriminate]. injection Hx as <- _.
    destruct l1 as [|y l1]; [destruct X|]. cbn [app] in E. injection E as <- E. destruct l1 as [|y l1]; [discriminate|]. injection E as <- E. destruct l1 as [|y l1]; [discriminate|]. injection E as <- E. destruct l1; discriminate.
Qed.

(** the header of [C46_C47_example]: opened by the key for HR, so by the one for HR or FIN, with the same result *)
Example C141_headers_example : let h := ex_header [dept "HR"; level "Protected"] (Some ex_meta) in
  implied ops_a hr_or_fin (AAttr (dept "HR")) /\ length ex_nonce = nonce_length toy_sym /\
  encrypt_hybrid_header toy_sym toy_forms toy_shake pf pol_a (pub_key ex_mk) [dept "HR"; level "Protected"] (Some ex_meta) ex_msg ex_s ex_nonce = Ok h /\
  decrypt_hybrid_header toy_sym toy_forms toy_shake pf (ekey pol_a (AAttr (dept "HR"))) (eh_bytes h) = Ok (mkClearHeader (eh_key h) ex_meta) /\
  decrypt_hybrid_header toy_sym toy_forms toy_shake pf (ekey pol_a hr_or_fin) (eh_bytes h) = Ok (mkClearHeader (eh_key h) ex_meta) /\
  is_err (decrypt_hybrid_header toy_sym toy_forms toy_shake pf (ekey pol_a hr_and_top) (eh_bytes (ex_header [dept "HR"] (Some ex_meta)))).
Proof.
  cbv zeta. split; [apply (C141_laws ops_a (AAttr (dept "HR")) (AAttr (dept "FIN")) AAll)|]. split; [reflexivity|].
  split; [vmr (@Ok encrypted_header (ex_header [dept "HR"; level "Protected"] (Some ex_meta)))|].
  split; [vmr (@Ok clear_header (mkClearHeader (eh_key (ex_header [dept "HR"; level "Protected"] (Some ex_meta))) ex_meta))|].
  split; [vmr (@Ok clear_header (mkClearHeader (eh_key (ex_header [dept "HR"; level "Protected"] (Some ex_meta))) ex_meta))|].
  exists InvalidEncryptedData. vmr (@Err clear_header InvalidEncryptedData).
Qed.

Print Assumptions C141_inclusion.
Print Assumptions C141_attributes.
Print Assumptions C141_headers.
Print Assumptions C141_laws.

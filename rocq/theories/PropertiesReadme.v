(** What /repo/README.md says about policies and keys, lines 134-181: C139. *)
From Coq Require Import String NArith ZArith Bool Arith Lia Permutation Strings.Byte List.
From Verif Require SchemeProofs.
From Verif Require Import Prelude Field LinAlg Gauss Msp Spec MspProofs Bilinear Scheme SchemeSpec SchemeTheorems Zp ExpModel PropertiesScheme Parser ParserSpec PropertiesParser
  Codec CodecProofs Policy PolicySpec PolicyProofs Engine EngineSpec EngineProofs PropertiesEngine PropertiesVersions
  HistorySpec PropertiesHistory PropertiesWorking Demo PropertiesDemo CopiesSpec PropertiesCopies PropertiesDraws PropertiesDepth PropertiesSizes.
Import ListNotations.

(** ** Specification *)
(** [v] is a value of attribute [b]: the attributes are numbered from 1 in the order in
    which they are declared, a rotation gives the next number. *)
Definition number_of (ops : list op) (b : attribute) (v : N) : Prop :=
  exists i, nth_error (numbering ops) i = Some b /\ v = N.of_nat (S i).
(** The last one. *)
Definition current_number (ops : list op) (b : attribute) (v : N) : Prop :=
  exists i, last_place (numbering ops) b i /\ v = N.of_nat (S i).
Definition either_of (first : N) (others : list N) : node := fold_left (fun acc v => Or acc (Leaf v)) others (Leaf first).

(** The formula reads as the access policy, each requirement being replaced by an
    alternative between the values of the attributes that satisfy it, in any order. *)
Fixpoint reads_as (ops : list op) (ap : access_policy) (f : node) : Prop :=
  match ap, f with
  | AAnd a b, And x y | AOr a b, Or x y => reads_as ops a x /\ reads_as ops b y
  | AAttr a, f => count_and f = 0 /\ NoDup (leaves f) /\
      (forall v, In v (leaves f) <-> exists b, covers ops a b /\ number_of ops b v)
  | _, _ => False
  end.
(** The very formula of the README, for attributes never rotated: the value of the
    attribute, then those of the attributes before it on its axis if that is hierarchical. *)
Fixpoint written (ops : list op) (ap : access_policy) (f : node) : Prop :=
  match ap, f with
  | AAnd a b, And x y | AOr a b, Or x y => written ops a x /\ written ops b y
  | AAttr a, f => exists names h l1 l2 v vs, In (AddAxis (fst a) names h) ops /\ names = l1 ++ snd a :: l2 /\ number_of ops a v /\
      Forall2 (number_of ops) (if h then map (pair (fst a)) l1 else []) vs /\ f = either_of v vs
  | _, _ => False
  end.

(** ** Proofs *)
Lemma number_value n ops p b v : run_ops ops (new_policy n) = Ok p -> proper_axes ops -> (value_of p b v <-> number_of ops b v).
Proof.
  intros E Hp. destruct (numbered_history n ops p E Hp) as [_ H]. specialize (H b). unfold value_of, number_of, heap_get.
  destruct (map_get attribute_eqb (attribute_to_int p) b) as [h|].
  - split.
    + intros (h' & Eh & Hv). assert (h' = h) by congruence. subst h'. apply H in Hv as (i & -> & Hi). exists i. auto.
    + intros (i & Hi & ->). exists h. split; [reflexivity|]. apply H. exists i. auto.
  - split; [intros (h' & Eh & _); discriminate|]. intros (i & Hi & _). exfalso. apply H. exact (nth_error_In _ _ Hi).
Qed.
Lemma once_place (l : list attribute) b : forall i j, count_occ attribute_dec l b = 1 -> nth_error l i = Some b -> nth_error l j = Some b -> i = j.
Proof.
  induction l as [|x l IH]; intros i j C Hi Hj; [destruct i; discriminate|]. cbn [count_occ] in C. destruct (attribute_dec x b) as [->|Hx].
  - assert (Z : ~ In b l) by (apply (count_occ_not_In attribute_dec); lia).
    destruct i as [|i], j as [|j]; try reflexivity; cbn [nth_error] in *; exfalso; apply Z; eapply nth_error_In; eassumption.
  - destruct i as [|i]; [cbn in Hi; congruence|]. destruct j as [|j]; [cbn in Hj; congruence|]. f_equal. apply IH; assumption.
Qed.
Lemma rotations_none ops b : ~ In (Rotate b) ops -> rotations ops b = 0.
Proof.
  unfold rotations. intros H. induction ops as [|o ops IH]; [reflexivity|]. cbn [filter].
  specialize (IH (fun Q => H (or_intror Q))). destruct o as [x names h|a]; [exact IH|]. destruct (attribute_eqb a b) eqn:E; [|exact IH].
  apply attribute_eqb_spec in E. subst a. exfalso. apply H. left. reflexivity.
Qed.
(** an attribute never rotated has one value *)
Lemma single n ops p it b f : run_ops ops (new_policy n) = Ok p -> proper_axes ops -> iteration_ok it -> declared ops b -> ~ In (Rotate b) ops ->
  attribute_node it p b = Ok f -> exists v, number_of ops b v /\ f = Leaf v.
Proof.
  intros E Hp [Hit _] D Hr H. pose proof (inv_history n ops p E) as I. unfold attribute_node in H. destruct (heap_get p b) as [h|] eqn:Eh; [|discriminate].
  destruct (i_heap _ _ I b h Eh) as (Hne & Hnd & _). assert (V : forall v, In v h -> number_of ops b v).
  { intros v Hv. apply (number_value n ops p b v E Hp). exists h. auto. }
  pose proof (count_values n ops p b E Hp D) as C. rewrite (rotations_none ops b Hr) in C.
  assert (Q : exists v, h = [v]).
  { destruct h as [|v [|w h]]; [contradiction|exists v; reflexivity|]. exfalso. destruct (V v (or_introl eq_refl)) as (i & Hi & ->).
    destruct (V w (or_intror (or_introl eq_refl))) as (j & Hj & ->). rewrite (once_place _ _ i j C Hi Hj) in Hnd. inversion Hnd as [|? ? Hn _]. apply Hn. left. reflexivity. }
  destruct Q as (v & ->). exists v. split; [apply V; left; reflexivity|]. rewrite (Permutation_length_1_inv (Permutation_sym (Hit [v]))) in H. cbn in H. congruence.
Qed.
Lemma lower_written n ops p it x : run_ops ops (new_policy n) = Ok p -> proper_axes ops -> iteration_ok it -> forall l v f,
  (forall nm, In nm l -> declared ops (x, nm) /\ ~ In (Rotate (x, nm)) ops) -> add_lower it p x l v = Ok f ->
  exists vs, Forall2 (number_of ops) (map (pair x) l) vs /\ f = fold_left (fun acc w => Or acc (Leaf w)) vs v.
Proof.
  intros E Hp Hit. induction l as [|nm l IH]; intros v f D H; cbn [add_lower] in H.
  - exists []. split; [apply Forall2_nil|cbn; congruence].
  - apply bind_ok in H as (g & Eg & H). destruct (D nm (or_introl eq_refl)) as [D1 D2]. destruct (single n ops p it (x, nm) g E Hp Hit D1 D2 Eg) as (w & Hw & ->).
    destruct (IH _ _ (fun k Hk => D k (or_intror Hk)) H) as (vs & F & ->). exists (w :: vs). split; [apply Forall2_cons; assumption|reflexivity].
Qed.
Lemma node_written n ops p it a f : run_ops ops (new_policy n) = Ok p -> proper_axes ops -> iteration_ok it ->
  (forall b, covers ops a b -> ~ In (Rotate b) ops) -> policy_to_node it p a = Ok f -> written ops (AAttr a) f.
Proof.
  intros E Hp Hit Hr H. pose proof (inv_history n ops p E) as I. unfold policy_to_node in H. destruct (axis_get p (fst a)) as [[names h]|] eqn:Ea; [|discriminate].
  destruct (position names (snd a)) as [i|] eqn:Ep; [|discriminate]. apply bind_ok in H as (val & Ev & H).
  pose proof (proj1 (i_axes _ _ I _ _ _) Ea) as Hop. destruct (position_spec _ _ _ Ep) as (l2 & El & Hni).
  assert (Hin : In (snd a) names) by (rewrite El; apply in_or_app; right; left; reflexivity).
  assert (Ca : covers ops a a) by (exists names, h; split; [exact Hop|]; split; [exact Hin|]; left; reflexivity).
  destruct (single n ops p it a val E Hp Hit) as (v & Hv & ->); [exists names, h; split; assumption|exact (Hr a Ca)|exact Ev|].
  cbn [written]. exists names, h, (firstn i names), l2, v. destruct h.
  - destruct (lower_written n ops p it (fst a) E Hp Hit (firstn i names) (Leaf v) f) as (vs & F & ->); [|exact H|].
    + intros nm Hnm. assert (B : before names nm (snd a)) by (apply (position_before _ _ _ _ Ep), Hnm). split.
      * exists names, true. split; [exact Hop|]. rewrite El. apply in_or_app. left. exact Hnm.
      * apply Hr. exists names, true. split; [exact Hop|]. split; [exact Hin|]. right. split; [reflexivity|]. split; [reflexivity|exact B].
    + exists vs. repeat (split; [assumption|]). reflexivity.
  - exists []. split; [exact Hop|]. split; [exact El|]. split; [exact Hv|]. split; [constructor|]. unfold either_of. cbn. congruence.
Qed.
Lemma formula_reads n ops p it ap : run_ops ops (new_policy n) = Ok p -> proper_axes ops -> iteration_ok it -> forall f,
  policy_to_formula it p ap = Ok f ->
  reads_as ops ap f /\ ((forall a b, In a (mentioned ap) -> covers ops a b -> ~ In (Rotate b) ops) -> written ops ap f).
Proof.
  intros E Hp Hit. induction ap as [a|a IHa b IHb|a IHa b IHb|]; intros f H.
  - cbn [policy_to_formula] in H. split.
    + destruct (policy_to_node_values it ops p a f Hit (inv_history n ops p E) H) as [V Nd]. cbn [reads_as].
      split; [exact (formula_count it p (AAttr a) f H)|]. split; [exact (Nd Hp)|]. intros v. rewrite V. split; intros (b & Hc & Hv); exists b; (split; [exact Hc|]);
        apply (number_value n ops p b v E Hp); exact Hv.
    + intros Hr. apply (node_written n ops p it a f E Hp Hit); [intros b Hb; apply (Hr a b (or_introl eq_refl) Hb)|exact H].
  - cbn [policy_to_formula] in H. apply bind_ok in H as (x & Ex & H). apply bind_ok in H as (y & Ey & H). assert (f = And x y) by congruence. subst f.
    destruct (IHa x Ex) as [A1 A2]. destruct (IHb y Ey) as [B1 B2]. split; [split; assumption|]. intros Hr. cbn [mentioned] in Hr.
    split; [apply A2|apply B2]; intros c d Hc; apply Hr, in_or_app; auto.
  - cbn [policy_to_formula] in H. apply bind_ok in H as (x & Ex & H). apply bind_ok in H as (y & Ey & H). assert (f = Or x y) by congruence. subst f.
    destruct (IHa x Ex) as [A1 A2]. destruct (IHb y Ey) as [B1 B2]. split; [split; assumption|]. intros Hr. cbn [mentioned] in Hr.
    split; [apply A2|apply B2]; intros c d Hc; apply Hr, in_or_app; auto.
  - discriminate.
Qed.

(** ** Values *)
(** No two attributes have a value in common. *)
Theorem C139_unique ops b c v : number_of ops b v -> number_of ops c v -> b = c.
Proof. intros (i & Hi & ->) (j & Hj & Q). assert (j = i) by lia. subst j. congruence. Qed.

Section Readme.
Variable B : BilinearMap.
Local Notation K := (bm_K B).

(** A ciphertext lists the last values of its attributes, in the order given. *)
Theorem C139_ciphertext P n ops p (pk : master_public_key B) l msg (s : K) ct :
  run_ops ops (new_policy n) = Ok p -> proper_axes ops -> eng_encrypt P p pk l msg s = Ok ct ->
  Forall2 (current_number ops) l (gamma ct).
Proof using Type.
  intros E Hp H. unfold eng_encrypt in H. apply bind_ok in H as (gam & Eg & H). apply attributes_values_inv in Eg.
  assert (Q : gamma ct = gam).
  { unfold encrypt in H. destruct (Nat.leb _ _); [apply bind_ok in H as (? & _ & H); discriminate|]. apply bind_ok in H as (ei & _ & H). apply Ok_inj in H. subst ct. reflexivity. }
  rewrite Q. clear - E Hp Eg. induction Eg as [|b v l gam Hv _ IH]; constructor; [|exact IH].
  destruct (current_place n ops p b v E Hp Hv) as (i & -> & Hi). exists i. auto.
Qed.

(** ** Keys *)
(** A key holds the span program of a formula that reads as its access policy; if none of
    the attributes was rotated, of the very formula of the README. *)
Theorem C139_key P n ops p (priv : master_private_key B) it ap (kdraw : nat -> K) uk :
  run_ops ops (new_policy n) = Ok p -> proper_axes ops -> iteration_ok it -> ap <> AAll ->
  eng_user_key P it p priv ap kdraw = Ok uk ->
  exists f m, to_msp P f = Ok m /\ dk_msp uk = msp_map of_i32 m /\ reads_as ops ap f /\
    ((forall a b, In a (mentioned ap) -> covers ops a b -> ~ In (Rotate b) ops) -> written ops ap f).
Proof using Type.
  intros E Hp Hit Hne H. unfold eng_user_key in H. apply bind_ok in H as (m & Em & H). rewrite policy_to_msp_formula, key_formula_other in Em by exact Hne.
  apply bind_ok in Em as (f & Ef & Em). exists f, m. split; [exact Em|]. split; [|exact (formula_reads n ops p it ap E Hp Hit f Ef)].
  unfold key_generation in H. apply bind_ok in H as (u & _ & H). apply bind_ok in H as (big & _ & H). apply Ok_inj in H. subst uk. reflexivity.
Qed.

Hypothesis BL : BilinearLaws B.
(** "A user that possesses a key with an attribute Security Level::high will have access to
    data encrypted with any of the attributes of the Security Level." *)
Theorem C139_top P n ops p p0 (mdraw : nat -> K) mk it x names top (kdraw : nat -> K) uk nm l msg (s : K) ct :
  run_ops ops (new_policy n) = Ok p -> proper_axes ops -> eng_master_key p0 mdraw = Ok mk ->
  In (AddAxis x (names ++ [top]) true) ops -> iteration_ok it ->
  eng_user_key P it p (priv_key mk) (AAttr (x, top)) kdraw = Ok uk ->
  In nm (names ++ [top]) -> In (x, nm) l -> eng_encrypt P p (pub_key mk) l msg s = Ok ct ->
  eng_decrypt ct uk = Ok (Some msg).
Proof using BL.
  intros E Hp Hmk Hx Hit Hk Hn Hl He.
  destruct (C05_policy_access_control B BL P n ops p p0 mdraw mk it (AAttr (x, top)) kdraw uk l msg s ct E Hmk Hit Hk He) as [[_ H]|[H _]]; [exact H|].
  exfalso. apply H. exists (x, nm). split; [exact Hl|]. exists (names ++ [top]), true. split; [exact Hx|]. split; [apply in_or_app; right; left; reflexivity|].
  apply in_app_or in Hn as [Hn|[<-|[]]]; [|left; reflexivity]. right. split; [reflexivity|]. split; [reflexivity|]. exists names, []. split; [reflexivity|].
  split; [|exact Hn]. cbn [snd]. pose proof (Hp _ _ _ Hx) as Nd. apply NoDup_remove_2 in Nd. rewrite app_nil_r in Nd. exact Nd.
Qed.
End Readme.

(** ** Examples *)
Local Ltac vmr x := vm_cast_no_check (eq_refl x).
(** The policy of the README. Its table of values is that of a policy to which the axis
    Department was added first; added in the order of the JSON text, the levels get the values
    1 to 3 and the departments 4 to 7. *)
Definition departments : op := AddAxis "Department" ["HR"; "FIN"; "MKG"; "R&D"]%string false.
Definition levels : op := AddAxis "Security Level" ["low"; "medium"; "high"]%string true.
Definition pol_readme : policy := run (new_policy 0) (run_ops [departments; levels] (new_policy 10)).
Definition pol_json : policy := run (new_policy 0) (run_ops [levels; departments] (new_policy 10)).
Definition marketing : access_policy := AAnd (AAttr (dept "MKG")) (AAttr (level "medium")).
(** (A and C) or D *)
Definition pol_letters : policy := run (new_policy 0) (run_ops [AddAxis "Letter" ["A"; "B"; "C"; "D"]%string false] (new_policy 10)).
Definition letter (x : string) : attribute := ("Letter"%string, x).
Definition acd : access_policy := AOr (AAnd (AAttr (letter "A")) (AAttr (letter "C"))) (AAttr (letter "D")).

Lemma readme_proper : proper_axes [departments; levels].
Proof. intros x names h [E|[E|[]]]; inversion E; subst; repeat constructor; simpl; intuition discriminate. Qed.

Example C139_example :
  run_ops [departments; levels] (new_policy 10) = Ok pol_readme /\
  (forall v, number_of [departments; levels] (dept "MKG") v <-> v = 3%N) /\ number_of [departments; levels] (level "high") 7 /\
  attributes_values pol_readme [dept "HR"; dept "FIN"; dept "MKG"; dept "R&D"; level "low"; level "medium"; level "high"] = Ok [1; 2; 3; 4; 5; 6; 7]%N /\
  attributes_values pol_json [dept "HR"; dept "FIN"; dept "MKG"; dept "R&D"; level "low"; level "medium"; level "high"] = Ok [4; 5; 6; 7; 1; 2; 3]%N /\
  (** "Department::MKG && ( Security Level::medium || Security Level::low )", 3 & (6 | 5) *)
  written [departments; levels] marketing (And (Leaf 3) (Or (Leaf 6) (Leaf 5))) /\
  policy_to_formula it_rev pol_readme marketing = Ok (And (Leaf 3) (Or (Leaf 6) (Leaf 5))) /\
  parse pf64 (codes "3 & (6 | 5)") = Ok (And (Leaf 3) (Or (Leaf 6) (Leaf 5))) /\
  policy_to_formula it_rev pol_json marketing = Ok (And (Leaf 6) (Or (Leaf 2) (Leaf 1))) /\
  (** two lower attributes, in the order of the axis *)
  policy_to_formula it_rev pol_readme (AAttr (level "high")) = Ok (either_of 7 [5; 6]%N).
Proof.
  split; [vmr (Ok pol_readme)|]. split.
  { intros v. split.
    - intros (i & Hi & ->). do 7 (destruct i as [|i]; [cbn in Hi; (discriminate || reflexivity)|]). destruct i; discriminate.
    - intros ->. exists 2. split; reflexivity. }
  split; [exists 6; split; reflexivity|]. split; [vm_compute; reflexivity|]. split; [vm_compute; reflexivity|]. split.
  { split; cbn [written].
    - exists ["HR"; "FIN"; "MKG"; "R&D"]%string, false, ["HR"; "FIN"]%string, ["R&D"%string], 3%N, []. split; [left; reflexivity|]. split; [reflexivity|].
      split; [exists 2; split; reflexivity|]. split; [constructor|reflexivity].
    - exists ["low"; "medium"; "high"]%string, true, ["low"]%string, ["high"%string], 6%N, [5%N]. split; [right; left; reflexivity|]. split; [reflexivity|].
      split; [exists 5; split; reflexivity|]. split; [|reflexivity]. apply Forall2_cons; [exists 4; split; reflexivity|apply Forall2_nil]. }
  split; [vm_compute; reflexivity|]. split; [vm_compute; reflexivity|]. split; vm_compute; reflexivity.
Qed.
(** after a rotation: the last value in ciphertexts, all values in keys, in an order that depends on the iteration *)
Definition pol_rotated : policy := run (new_policy 0) (run_ops [departments; levels; Rotate (dept "MKG")] (new_policy 10)).
Definition it_same : iteration := mkIteration (fun l => l) (fun l => l).
Lemma it_same_ok : iteration_ok it_same.
Proof. split; intros; apply Permutation_refl. Qed.
Example C139_rotated_example :
  run_ops [departments; levels; Rotate (dept "MKG")] (new_policy 10) = Ok pol_rotated /\
  number_of [departments; levels; Rotate (dept "MKG")] (dept "MKG") 3 /\ current_number [departments; levels; Rotate (dept "MKG")] (dept "MKG") 8 /\
  attributes_values pol_rotated [level "low"; dept "MKG"] = Ok [5; 8]%N /\
  policy_to_formula it_rev pol_rotated marketing = Ok (And (Or (Leaf 3) (Leaf 8)) (Or (Leaf 6) (Leaf 5))) /\
  policy_to_formula it_same pol_rotated marketing = Ok (And (Or (Leaf 8) (Leaf 3)) (Or (Leaf 6) (Leaf 5))) /\
  reads_as [departments; levels; Rotate (dept "MKG")] marketing (And (Or (Leaf 3) (Leaf 8)) (Or (Leaf 6) (Leaf 5))) /\
  reads_as [departments; levels; Rotate (dept "MKG")] marketing (And (Or (Leaf 8) (Leaf 3)) (Or (Leaf 6) (Leaf 5))).
Proof.
  assert (E : run_ops [departments; levels; Rotate (dept "MKG")] (new_policy 10) = Ok pol_rotated) by vmr (Ok pol_rotated).
  assert (Hp : proper_axes [departments; levels; Rotate (dept "MKG")]) by (intros x names h [Q|[Q|[Q|[]]]]; inversion Q; subst; repeat constructor; simpl; intuition discriminate).
  split; [exact E|]. split; [exists 2; split; reflexivity|]. split; [exists 7; split; [split; [reflexivity|intros []]|reflexivity]|]. split; [vm_compute; reflexivity|].
  assert (E1 : policy_to_formula it_rev pol_rotated marketing = Ok (And (Or (Leaf 3) (Leaf 8)) (Or (Leaf 6) (Leaf 5)))) by (vm_compute; reflexivity).
  assert (E2 : policy_to_formula it_same pol_rotated marketing = Ok (And (Or (Leaf 8) (Leaf 3)) (Or (Leaf 6) (Leaf 5)))) by (vm_compute; reflexivity).
  split; [exact E1|]. split; [exact E2|]. split; [exact (proj1 (formula_reads 10 _ _ _ _ E Hp it_rev_ok _ E1))|exact (proj1 (formula_reads 10 _ _ _ _ E Hp it_same_ok _ E2))].
Qed.
(** the keys of the README *)
Definition readme_program : msp Z := mkMsp 3 2 [[1; 2]; [0; -1]; [0; -1]]%Z [(3%N, 0); (6%N, 1); (5%N, 2)] [3; 6; 5]%N.
Example C139_keys_example :
  eng_master_key pol_a ex_draw = Ok ex_mk /\ proper_axes [departments; levels] /\
  eng_user_key pf it_rev pol_readme (priv_key ex_mk) marketing ex_kdraw = Ok (ekey pol_readme marketing) /\
  row_to_attr (dk_msp (ekey pol_readme marketing)) = [3; 6; 5]%N /\
  to_msp pf (And (Leaf 3) (Or (Leaf 6) (Leaf 5))) = Ok readme_program /\ matrix readme_program = [[1; 2]; [0; -1]; [0; -1]]%Z /\
  dk_msp (ekey pol_readme marketing) = msp_map of_i32 readme_program /\
  gamma (ect pol_readme [dept "MKG"; level "low"]) = [3; 5]%N /\
  eng_decrypt (ect pol_readme [dept "MKG"; level "low"]) (ekey pol_readme marketing) = Ok (Some ex_msg) /\
  eng_decrypt (ect pol_readme [dept "MKG"; level "high"]) (ekey pol_readme marketing) = Ok None /\
  eng_decrypt (ect pol_readme [level "low"]) (ekey pol_readme (AAttr (level "high"))) = Ok (Some ex_msg) /\
  (** "(A and C) or D ... not be able to decrypt" for A and B, "able to decrypt" for A and C *)
  eng_decrypt (ect pol_letters [letter "A"; letter "B"]) (ekey pol_letters acd) = Ok None /\
  eng_decrypt (ect pol_letters [letter "A"; letter "C"]) (ekey pol_letters acd) = Ok (Some ex_msg) /\
  eng_decrypt (ect pol_letters [letter "D"]) (ekey pol_letters acd) = Ok (Some ex_msg).
Proof.
  split; [vmr (Ok ex_mk)|]. split; [exact readme_proper|]. split; [vmr (Ok (ekey pol_readme marketing))|]. split; [vmr [3; 6; 5]%N|].
  split; [vmr (Ok readme_program)|]. split; [reflexivity|]. split; [vmr (dk_msp (ekey pol_readme marketing))|]. split; [vmr [3; 5]%N|].
  split; [vmr (Ok (Some ex_msg))|]. split; [vmr (Ok (@None (Gt toy)))|]. split; [vmr (Ok (Some ex_msg))|]. split; [vmr (Ok (@None (Gt toy)))|].
  split; [vmr (Ok (Some ex_msg))|]. vmr (Ok (Some ex_msg)).
Qed.

Print Assumptions C139_unique.
Print Assumptions C139_ciphertext.
Print Assumptions C139_key.
Print Assumptions C139_top.

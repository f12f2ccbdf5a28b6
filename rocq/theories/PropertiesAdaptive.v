(** Attackers that choose the attributes of ciphertexts in view of keys (C120). *)
From Coq Require Import String Bool NArith ZArith Lia Permutation Strings.Byte List.
From Verif Require Import Prelude Field Msp Spec Bilinear Gauss Scheme Codec SchemeCodec Policy Engine Hybrid CollusionSpec LuckSpec GameSpec ReductionSpec
  SealSpec AdaptiveSpec Zp ExpModel PropertiesScheme PropertiesCodec PropertiesEngine PropertiesHybrid PropertiesReduction PropertiesSeal.
Import ListNotations.

Lemma satisfied_holds g f : satisfied g f = true <-> holds (fun a => In a g) f.
Proof.
  induction f as [x IHx y IHy|x IHx y IHy|a]; cbn [satisfied holds].
  - rewrite andb_true_iff, IHx, IHy. reflexivity.
  - rewrite orb_true_iff, IHx, IHy. reflexivity.
  - rewrite existsb_exists. split; [intros (b & Hb & E); apply N.eqb_eq in E; subst b; exact Hb|intros H; exists a; split; [exact H|apply N.eqb_refl]].
Qed.

(** ** Sums of integers *)
Definition zbit (b : bool) : Z := Z.of_nat (bit b).
Definition ztotal {A} (l : list A) (f : A -> Z) : Z := fold_right (fun x n => (f x + n)%Z) 0%Z l.
Lemma ztotal_cons {A} (x : A) l f : ztotal (x :: l) f = (f x + ztotal l f)%Z.
Proof. reflexivity. Qed.
Lemma ztotal_ext {A} (l : list A) f g : (forall x, In x l -> f x = g x) -> ztotal l f = ztotal l g.
Proof. induction l as [|x l IH]; intros H; [reflexivity|]. rewrite !ztotal_cons. rewrite H by (left; reflexivity). f_equal. apply IH. intros y Hy. apply H. right. exact Hy. Qed.
Lemma ztotal_zero {A} (l : list A) f : (forall x, In x l -> f x = 0%Z) -> ztotal l f = 0%Z.
Proof. induction l as [|x l IH]; intros H; [reflexivity|]. rewrite !ztotal_cons. rewrite H by (left; reflexivity). apply IH. intros y Hy. apply H. right. exact Hy. Qed.
Lemma ztotal_one {A} (l : list A) f x : NoDup l -> In x l -> (forall y, In y l -> y <> x -> f y = 0%Z) -> ztotal l f = f x.
Proof.
  induction 1 as [|y l Hy Hl IH]; intros Hx H; [destruct Hx|]. rewrite ztotal_cons. destruct Hx as [->|Hx].
  - rewrite ztotal_zero; [lia|]. intros z Hz. apply H; [right; exact Hz|]. intros ->. exact (Hy Hz).
  - rewrite IH; [|exact Hx|intros z Hz; apply H; right; exact Hz]. rewrite (H y); [reflexivity|left; reflexivity|]. intros ->. exact (Hy Hx).
Qed.
Lemma ztotal_sub {A} (l : list A) f g : ztotal l (fun x => f x - g x)%Z = (ztotal l f - ztotal l g)%Z.
Proof. induction l as [|x l IH]; [reflexivity|]. rewrite !ztotal_cons, IH. lia. Qed.
Lemma ztotal_add {A} (l : list A) f g : ztotal l (fun x => f x + g x)%Z = (ztotal l f + ztotal l g)%Z.
Proof. induction l as [|x l IH]; [reflexivity|]. rewrite !ztotal_cons, IH. lia. Qed.
Lemma ztotal_swap {A C} (l : list A) (l' : list C) f : ztotal l (fun x => ztotal l' (fun y => f x y)) = ztotal l' (fun y => ztotal l (fun x => f x y)).
Proof.
  induction l as [|x l IH].
  - symmetry. apply ztotal_zero. reflexivity.
  - rewrite ztotal_cons, IH, <- ztotal_add. reflexivity.
Qed.
Lemma total_z {A} (l : list A) f : Z.of_nat (total l f) = ztotal l (fun x => Z.of_nat (f x)).
Proof. induction l as [|x l IH]; [reflexivity|]. rewrite total_cons, ztotal_cons, <- IH. lia. Qed.
(** The largest of the terms of a sum. *)
Lemma ztotal_best {A} (l : list A) f : l <> [] -> exists x, In x l /\ (Z.abs (ztotal l f) <= Z.of_nat (length l) * Z.abs (f x))%Z.
Proof.
  induction l as [|x l IH]; intros H; [destruct (H eq_refl)|]. destruct l as [|y l]; [exists x; split; [left; reflexivity|unfold ztotal; cbn [fold_right length]; lia]|].
  destruct IH as (z & Hz & L); [discriminate|]. rewrite (ztotal_cons x). set (s := ztotal (y :: l) f) in *.
  assert (Z.abs (f x + s) <= Z.abs (f x) + Z.abs s)%Z by lia. cbn [length] in *.
  destruct (Z_le_gt_dec (Z.abs (f z)) (Z.abs (f x))).
  - exists x. split; [left; reflexivity|]. nia.
  - exists z. split; [right; exact Hz|]. nia.
Qed.

Section Guessing.
Variable B : BilinearMap.
Local Notation K := (bm_K B).
Variable P : platform.
Variable size : nat.
Variable cands : list (list N).

Definition own (ws : list bool) (ss : list K) : list (option (bool * K)) := map Some (combine ws ss).
Lemma own_unused ws ss : unused (own ws ss) = false.
Proof. unfold own, unused. induction (combine ws ss) as [|x l IH]; [reflexivity|]. exact IH. Qed.
Lemma formulas_some fs e f : formula_of fs e = Some f -> formulas fs e = f :: fs.
Proof. unfold formulas. intros ->. reflexivity. Qed.

(** After the ciphertext it asked for. *)
Lemma closed_play (mk : master_key B) g w s p : forall ws ss fs uks u,
  play P g mk w s fs uks u (guessing P (pub_key mk) g (own ws ss) fs p) = play_choice P mk ws ss fs uks u p.
Proof.
  induction p as [b|e next IH|e next IH|gam m0 m1 next IH]; intros ws ss fs uks u; cbn [guessing play_choice]; rewrite ?own_unused.
  - reflexivity.
  - cbn [andb play]. apply IH.
  - cbn [play]. apply IH.
  - destruct ws as [|w1 ws]; [reflexivity|]. destruct ss as [|s1 ss]; [reflexivity|]. apply IH.
Qed.
(** If a key it holds is satisfied by [g], the guess is wrong. *)
Lemma blind (mk : master_key B) g f w w' s p : satisfied g f = true -> forall l n fs held chosen m uks u, unused l = true -> In f held ->
  lawful_choice P size cands n fs held chosen m p ->
  play P g mk w s fs uks u (guessing P (pub_key mk) g l fs p) = play P g mk w' s fs uks u (guessing P (pub_key mk) g l fs p).
Proof.
  intros Hf. induction p as [b|e next IH|e next IH|gam m0 m1 next IH]; intros l n fs held chosen m uks u Hl Hh L; cbn [guessing].
  - reflexivity.
  - destruct L as [Hp L]. destruct (proper_formula P size fs e Hp) as [f' Ef]. destruct (L f' Ef) as (_ & _ & L'). rewrite Hl, Ef. destruct (true && satisfied g f'); [reflexivity|].
    cbn [play]. rewrite (formulas_some _ _ _ Ef). eapply (IH _ l _ _ (f' :: held)); [exact Hl|right; exact Hh|apply L'].
  - destruct L as [Hp L]. destruct (proper_formula P size fs e Hp) as [f' Ef]. destruct (L f' Ef) as (_ & L'). cbn [play]. rewrite (formulas_some _ _ _ Ef). eapply IH; eassumption.
  - destruct L as (_ & Hg & L). destruct m as [|m]; [destruct L|]. destruct l as [|[[w1 s1]|] l]; [reflexivity| |].
    + eapply IH; [exact Hl|exact Hh|apply L].
    + destruct (list_eq_dec N.eq_dec gam g) as [->|]; [|reflexivity]. destruct (Hg f Hh). apply satisfied_holds. exact Hf.
Qed.
(** What the guesses show is what the attacker shows. *)
Lemma guesses_play (mk : master_key B) s ws2 ss2 p : NoDup cands -> forall ws1 ss1 n fs held chosen m uks u, length ws1 = length ss1 ->
  lawful_choice P size cands n fs held chosen m p ->
  let l := own ws1 ss1 ++ None :: own ws2 ss2 in
  (zbit (play_choice P mk (ws1 ++ true :: ws2) (ss1 ++ s :: ss2) fs uks u p) - zbit (play_choice P mk (ws1 ++ false :: ws2) (ss1 ++ s :: ss2) fs uks u p))%Z =
  ztotal cands (fun g => zbit (play P g mk true s fs uks u (guessing P (pub_key mk) g l fs p)) - zbit (play P g mk false s fs uks u (guessing P (pub_key mk) g l fs p)))%Z.
Proof.
  intros Hnd. induction p as [b|e next IH|e next IH|gam m0 m1 next IH]; intros ws1 ss1 n fs held chosen m uks u Hlen L l;
    assert (Hl : unused l = true) by (unfold l, unused; rewrite existsb_app; cbn; apply orb_true_r).
  - cbn [guessing play play_choice]. rewrite (Z.sub_diag (zbit b)). symmetry. apply ztotal_zero. intros g _. lia.
  - destruct L as [Hp L]. destruct (proper_formula P size fs e Hp) as [f Ef]. destruct (L f Ef) as (_ & _ & L'). cbn [play_choice].
    rewrite (IH _ ws1 ss1 (n - count_and f)%nat (formulas fs e) (f :: held) chosen m); [|exact Hlen|rewrite (formulas_some _ _ _ Ef); apply L'].
    apply ztotal_ext. intros g _. fold l. cbn [guessing]. rewrite Hl, Ef. destruct (satisfied g f) eqn:Hs; cbn [andb].
    + cbn [play]. rewrite (formulas_some _ _ _ Ef). rewrite (blind mk g f true false s (next (issue P mk uks (values u) e)) Hs l (n - count_and f)%nat (f :: fs) (f :: held) chosen m); [lia|exact Hl|left; reflexivity|apply L'].
    + reflexivity.
  - destruct L as [Hp L]. destruct (proper_formula P size fs e Hp) as [f Ef]. destruct (L f Ef) as (_ & L'). cbn [play_choice].
    rewrite (IH ws1 ss1 (n - count_and f)%nat (formulas fs e) held chosen m); [|exact Hlen|rewrite (formulas_some _ _ _ Ef); apply L'].
    reflexivity.
  - destruct L as (Hc & Hg & L). destruct m as [|m]; [destruct L|]. destruct ws1 as [|w1 ws1], ss1 as [|s1 ss1]; try discriminate Hlen.
    + cbn [app play_choice]. rewrite (ztotal_one cands _ gam Hnd Hc).
      * unfold l. cbn [own combine map app guessing]. destruct (list_eq_dec N.eq_dec gam gam) as [_|C]; [|destruct (C eq_refl)]. cbn [play]. fold (own ws2 ss2). rewrite !closed_play. reflexivity.
      * intros g _ Hne. unfold l. cbn [own combine map app guessing]. destruct (list_eq_dec N.eq_dec gam g) as [->|_]; [destruct (Hne eq_refl)|]. reflexivity.
    + cbn [app play_choice]. cbn [length] in Hlen. rewrite (IH _ ws1 ss1 n fs held (gam :: chosen) m); [|lia|apply L]. reflexivity.
Qed.
(** The guess is an attacker for the attributes [g]. *)
Lemma guessing_lawful (pub : master_public_key B) g p : forall l n fs held chosen m,
  (unused l = false -> In g chosen) -> (forall l1 l2, l = l1 ++ None :: l2 -> unused l2 = false) ->
  lawful_choice P size cands n fs held chosen m p -> lawful P size g n fs (unused l) (guessing P pub g l fs p).
Proof.
  induction p as [b|e next IH|e next IH|gam m0 m1 next IH]; intros l n fs held chosen m Hc Ho L; cbn [guessing].
  - exact I.
  - destruct L as [Hp L]. destruct (proper_formula P size fs e Hp) as [f Ef]. destruct (L f Ef) as (Hu & Hn & L'). rewrite Ef.
    destruct (unused l && satisfied g f) eqn:E; [exact I|]. cbn [lawful]. split; [exact Hp|]. intros f' Ef'. assert (f' = f) by congruence. subst f'.
    split; [|split; [exact Hn|]].
    + apply andb_false_iff in E as [E|E]; [apply Hu; apply Hc; exact E|]. intros H. apply satisfied_holds in H. congruence.
    + intros r. rewrite (formulas_some _ _ _ Ef). eapply IH; [exact Hc|exact Ho|apply L'].
  - destruct L as [Hp L]. cbn [lawful]. split; [exact Hp|]. intros f Ef. destruct (L f Ef) as (Hn & L'). split; [exact Hn|]. rewrite (formulas_some _ _ _ Ef). eapply IH; eassumption.
  - destruct L as (Hi & Hg & L). destruct m as [|m]; [destruct L|]. destruct l as [|[[w s]|] l]; [exact I| |].
    + change (unused (Some (w, s) :: l)) with (unused l). apply (IH _ l n fs held (gam :: chosen) m); [|intros l1 l2 E; apply (Ho (Some (w, s) :: l1) l2); rewrite E; reflexivity|apply L].
      intros H. right. apply Hc. exact H.
    + destruct (list_eq_dec N.eq_dec gam g) as [->|]; [|exact I]. cbn [lawful]. split; [reflexivity|]. intros r. rewrite <- (Ho [] l eq_refl).
      apply (IH r l n fs held (g :: chosen) m); [intros _; left; reflexivity|intros l1 l2 E; apply (Ho (None :: l1) l2); rewrite E; reflexivity|apply L].
Qed.
End Guessing.

(** ** Counting *)
Section Counting.
Variable B : BilinearMap.
Variable BL : BilinearLaws B.
Local Notation K := (bm_K B).
Variable P : platform.
Variable size : nat.
Variable cands : list (list N).
Context {R : Type}.
Variable start : R -> master_public_key B -> delegation_key B -> chooser B.
Variable elems : list K.
Variable coins : list R.
Variables n m : nat.
Hypothesis Hnd : NoDup elems.
Hypothesis Hall : forall x : K, In x elems.
Hypothesis Hcands : NoDup cands.
Hypothesis Hlaw : forall x pub del, lawful_choice P size cands n [] [] [] m (start x pub del).

Definition halfway (i : nat) : nat :=
  total coins (fun c => total (tuples elems size) (fun t => total elems (fun y => total (tuples elems m) (fun ss =>
    total (tuples elems n) (fun u => bit (experiment_choice P size (start c) (repeat true i ++ repeat false (m - i)) t y u ss)))))).
(** all draws at once *)
Definition draws (i : nat) : list (R * (list K * (list K * (list K * (K * (K * list K)))))) :=
  list_prod coins (list_prod (tuples elems i) (list_prod (tuples elems (m - S i)) (list_prod (tuples elems size) (list_prod elems (list_prod elems (tuples elems n)))))).
Lemma total_draws i f : total (draws i) f =
  total coins (fun c => total (tuples elems i) (fun s1 => total (tuples elems (m - S i)) (fun s2 => total (tuples elems size) (fun t => total elems (fun y => total elems (fun s => total (tuples elems n) (fun u =>
    f (c, (s1, (s2, (t, (y, (s, u))))))))))))).
Proof.
  unfold draws. rewrite total_prod. apply total_ext. intros c _. rewrite total_prod. apply total_ext. intros s1 _. rewrite total_prod. apply total_ext. intros s2 _.
  rewrite total_prod. apply total_ext. intros t _. rewrite total_prod. apply total_ext. intros y _. rewrite total_prod. reflexivity.
Qed.
Definition told (i : nat) (w : bool) (d : R * (list K * (list K * (list K * (K * (K * list K)))))) : bool :=
  let '(c, (s1, (s2, (t, (y, (s, u)))))) := d in experiment_choice P size (start c) (repeat true i ++ w :: repeat false (m - S i)) t y u (s1 ++ s :: s2).
Definition found (i : nat) (g : list N) (w : bool) (d : R * (list K * (list K * (list K * (K * (K * list K)))))) : bool :=
  let '(c, (s1, (s2, (t, (y, (s, u)))))) := d in experiment P size g (guesser P i g start (c, (s1, s2))) w t y u s.
Lemma halfway_draws i (w : bool) : i < m -> halfway (if w then S i else i) = total (draws i) (fun d => bit (told i w d)).
Proof using.
  clear. intros Hi. rewrite total_draws. unfold halfway, told.
  assert (Hw : repeat true i ++ w :: repeat false (m - S i) = repeat true (if w then S i else i) ++ repeat false (m - (if w then S i else i))).
  { destruct w; [change (repeat true i ++ [true] ++ repeat false (m - S i) = (true :: repeat true i) ++ repeat false (m - S i)); rewrite app_assoc; f_equal; symmetry; apply repeat_cons|]. replace (m - i) with (S (m - S i)) by lia. reflexivity. }
  rewrite <- Hw. apply total_ext. intros c _. symmetry.
  transitivity (total (tuples elems size) (fun t => total elems (fun y => total (tuples elems i) (fun s1 => total (tuples elems (m - S i)) (fun s2 => total elems (fun s => total (tuples elems n) (fun u =>
      bit (experiment_choice P size (start c) (repeat true i ++ w :: repeat false (m - S i)) t y u (s1 ++ s :: s2))))))))).
  - etransitivity; [apply total_ext; intros s1 _; apply total_swap|]. rewrite total_swap. apply total_ext. intros t _.
    etransitivity; [apply total_ext; intros s1 _; apply total_swap|]. rewrite total_swap. reflexivity.
  - apply total_ext. intros t _. apply total_ext. intros y _. replace (tuples elems m) with (tuples elems (i + S (m - S i))) by (f_equal; lia). rewrite total_tuples_app.
    apply total_ext. intros s1 _. rewrite total_tuples_S. apply total_swap.
Qed.
Lemma guesser_draws i g (w : bool) : answers_true P size g (guesser P i g start) elems (guesser_coins m i elems coins) n w = total (draws i) (fun d => bit (found i g w d)).
Proof using.
  clear. rewrite total_draws. unfold answers_true, guesser_coins, found. rewrite total_prod. apply total_ext. intros c _. rewrite total_prod. reflexivity.
Qed.
Lemma in_draws i c s1 s2 t y s u : In (c, (s1, (s2, (t, (y, (s, u)))))) (draws i) -> length s1 = i /\ length s2 = m - S i.
Proof using.
  clear. unfold draws. rewrite !in_prod_iff. intros (_ & H1 & H2 & _). apply tuples_length in H1, H2. split; assumption.
Qed.
Lemma own_repeat (w : bool) (ss : list K) : map (fun s => Some (w, s)) ss = own B (repeat w (length ss)) ss.
Proof using. clear. unfold own. induction ss as [|s ss IH]; [reflexivity|]. cbn. rewrite IH. reflexivity. Qed.
Lemma halfway_step i : i < m ->
  (Z.of_nat (halfway (S i)) - Z.of_nat (halfway i))%Z =
  ztotal cands (fun g => Z.of_nat (answers_true P size g (guesser P i g start) elems (guesser_coins m i elems coins) n true) -
                         Z.of_nat (answers_true P size g (guesser P i g start) elems (guesser_coins m i elems coins) n false))%Z.
Proof using Hcands Hlaw.
  intros Hi. rewrite (halfway_draws i true Hi), (halfway_draws i false Hi), !total_z, <- ztotal_sub.
  transitivity (ztotal (draws i) (fun d => ztotal cands (fun g => zbit (found i g true d) - zbit (found i g false d))%Z)).
  - apply ztotal_ext. intros (c & s1 & s2 & t & y & s & u) Hd. apply in_draws in Hd as [L1 L2]. unfold told, found, experiment_choice, experiment.
    destruct (generate_master_key _ _) as [mk| |]; [|symmetry; apply ztotal_zero; reflexivity|symmetry; apply ztotal_zero; reflexivity].
    unfold guesser. rewrite !own_repeat, L1, L2. apply (guesses_play B P size cands mk s (repeat false (m - S i)) s2 _ Hcands (repeat true i) s1 n [] [] [] m); [rewrite repeat_length; congruence|apply Hlaw].
  - rewrite ztotal_swap. apply ztotal_ext. intros g _. rewrite !guesser_draws, !total_z, <- ztotal_sub. reflexivity.
Qed.
Lemma guesser_lawful i g x pub del : lawful P size g n [] true (guesser P i g start x pub del).
Proof using Hlaw.
  destruct x as (c & before & after). unfold guesser. set (l := _ ++ None :: _).
  assert (Hl : unused l = true) by (unfold l, unused; rewrite existsb_app; cbn; apply orb_true_r).
  rewrite <- Hl. apply (guessing_lawful B P size cands pub g _ l n [] [] [] m).
  - congruence.
  - intros l1 l2 E. unfold l in E. rewrite !own_repeat in E.
    assert (G : forall m1 m2 k1 k2 : list (option (bool * K)), unused m1 = false -> unused m2 = false -> m1 ++ None :: m2 = k1 ++ None :: k2 -> unused k2 = false).
    { clear. induction m1 as [|e m1 IH]; intros m2 [|e' k1] k2 H1 H2 E.
      - cbn in E. congruence.
      - cbn in E. assert (E' : m2 = k1 ++ None :: k2) by congruence. subst m2. unfold unused in H2. rewrite existsb_app in H2. cbn in H2. rewrite orb_true_r in H2. discriminate.
      - cbn in E. assert (e = None) by congruence. subst e. discriminate.
      - cbn in E. apply (IH m2 k1 k2); [|exact H2|congruence]. unfold unused in *. cbn [existsb] in H1. apply orb_false_iff in H1 as [_ H1]. exact H1. }
    apply (G _ _ _ _ (own_unused B _ _) (own_unused B _ _) E).
  - apply Hlaw.
Qed.
Lemma halfway_ends (w : bool) : answers_true_choice P size start elems coins n m w = halfway (if w then m else 0).
Proof using. clear. unfold answers_true_choice, halfway. destruct w; [rewrite Nat.sub_diag, app_nil_r; reflexivity|]. rewrite Nat.sub_0_r. reflexivity. Qed.
End Counting.

(** ** C120 *)
(** An attacker that chooses the attributes of each of its [m] ciphertexts among the lists [cands], when it asks for it,
    and tells whether the first messages or the second ones are encrypted: its solver for one of the ciphertexts and one of
    the lists has an advantage smaller by a factor of [2 * m * length cands] at most. *)
Theorem C120_chosen_attributes (B : BilinearMap) (BL : BilinearLaws B) P size cands {R} (start : R -> master_public_key B -> delegation_key B -> chooser B)
    (elems : list (bm_K B)) (coins : list R) (n m : nat) :
  NoDup elems -> (forall x : bm_K B, In x elems) -> NoDup cands -> cands <> [] -> 0 < m ->
  (forall x pub del, lawful_choice P size cands n [] [] [] m (start x pub del)) ->
  exists i g w, i < m /\ In g cands /\
  (forall x pub del, lawful P size g n [] true (guesser P i g start x pub del)) /\
  (Z.of_nat (length elems) * (Z.of_nat (length elems) - 1) *
     Z.abs (Z.of_nat (answers_true_choice P size start elems coins n m true) - Z.of_nat (answers_true_choice P size start elems coins n m false))
   <= 2 * Z.of_nat m * Z.of_nat (length cands) *
      advantage elems (solver_coins size elems (guesser_coins m i elems coins) n) (solve P g (guesser P i g start) w))%Z.
Proof.
  intros Hnd Hall Hc Hne Hm Hlaw.
  set (M := halfway B P size start elems coins n m). set (adv := fun i g w => advantage elems (solver_coins size elems (guesser_coins m i elems coins) n) (solve P g (guesser P i g start) w)).
  set (q := Z.of_nat (length elems)). set (N := Z.of_nat (length cands)).
  assert (Hq : (0 <= q * (q - 1))%Z). { unfold q. destruct elems as [|x l]; [destruct (Hall (@f0 (bm_K B)))|]. cbn [length]. nia. }
  assert (Step : forall i, i < m -> exists g w, In g cands /\ (q * (q - 1) * Z.abs (Z.of_nat (M (S i)) - Z.of_nat (M i)) <= 2 * N * adv i g w)%Z).
  { intros i Hi. unfold M. rewrite (halfway_step B P size cands start elems coins n m Hc Hlaw i Hi).
    destruct (ztotal_best cands (fun g => Z.of_nat (answers_true P size g (guesser P i g start) elems (guesser_coins m i elems coins) n true) -
                         Z.of_nat (answers_true P size g (guesser P i g start) elems (guesser_coins m i elems coins) n false))%Z Hne) as (g & Hg & L).
    destruct (C111_attacker_solves B BL P size g (guesser P i g start) elems (guesser_coins m i elems coins) n Hnd Hall (guesser_lawful B P size cands start n m Hlaw i g)) as [w Hw].
    exists g, w. split; [exact Hg|]. fold N q in L, Hw. fold (adv i g w) in Hw. cbv beta in L. set (T := Z.abs (ztotal _ _)) in *. set (D := Z.abs (_ - _)) in *.
    assert (0 <= N)%Z by (unfold N; lia). nia. }
  assert (Best : forall k, S k <= m -> exists i g w, i < m /\ In g cands /\ (q * (q - 1) * Z.abs (Z.of_nat (M (S k)) - Z.of_nat (M 0%nat)) <= 2 * Z.of_nat (S k) * N * adv i g w)%Z).
  { induction k as [|k IH]; intros Hk.
    - destruct (Step 0) as (g & w & Hg & Hw); [lia|]. exists 0, g, w. split; [lia|]. split; [exact Hg|]. lia.
    - destruct IH as (i & g & w & Hi & Hg & Hw); [lia|]. destruct (Step (S k)) as (g' & w' & Hg' & Hw'); [lia|].
      assert (Z.abs (Z.of_nat (M (S (S k))) - Z.of_nat (M 0%nat)) <= Z.abs (Z.of_nat (M (S (S k))) - Z.of_nat (M (S k))) + Z.abs (Z.of_nat (M (S k)) - Z.of_nat (M 0%nat)))%Z by lia.
      set (X := Z.abs (Z.of_nat (M (S (S k))) - Z.of_nat (M 0%nat))) in *. set (Y := Z.abs (Z.of_nat (M (S (S k))) - Z.of_nat (M (S k)))) in *. set (V := Z.abs (Z.of_nat (M (S k)) - Z.of_nat (M 0%nat))) in *.
      assert (A : (q * (q - 1) * X <= 2 * N * adv (S k) g' w' + 2 * Z.of_nat (S k) * N * adv i g w)%Z) by nia.
      assert (HN : (0 <= N)%Z) by (unfold N; lia).
      destruct (Z_le_gt_dec (adv i g w) (adv (S k) g' w')).
      + exists (S k), g', w'. split; [lia|]. split; [exact Hg'|]. assert ((2 * Z.of_nat (S k) * N) * adv i g w <= (2 * Z.of_nat (S k) * N) * adv (S k) g' w')%Z by (apply Z.mul_le_mono_nonneg_l; lia). lia.
      + exists i, g, w. split; [lia|]. split; [exact Hg|]. assert ((2 * N) * adv (S k) g' w' <= (2 * N) * adv i g w)%Z by (apply Z.mul_le_mono_nonneg_l; lia). lia. }
  destruct (Best (pred m)) as (i & g & w & Hi & Hg & Hw); [lia|].
  exists i, g, w. split; [exact Hi|]. split; [exact Hg|]. split; [apply (guesser_lawful B P size cands start n m Hlaw)|].
  rewrite !halfway_ends. replace (S (pred m)) with m in Hw by lia. exact Hw.
Qed.
Print Assumptions C120_chosen_attributes.

(** One attribute of each axis: the number of lists is the product of the sizes of the axes. *)
Fixpoint one_of_each (axes : list (list N)) : list (list N) :=
  match axes with [] => [[]] | axis :: axes => flat_map (fun a => map (cons a) (one_of_each axes)) axis end.
Lemma one_of_each_spec axes l : In l (one_of_each axes) <-> Forall2 (fun a axis => In a axis) l axes.
Proof.
  revert l. induction axes as [|axis axes IH]; intros l; cbn [one_of_each].
  - split; [intros [<-|[]]; constructor|]. intros H. inversion H. left. reflexivity.
  - rewrite in_flat_map. split.
    + intros (a & Ha & H). apply in_map_iff in H as (l' & <- & H). constructor; [exact Ha|]. apply IH. exact H.
    + intros H. inversion H as [|a ax l' axs Ha Hl]; subst. exists a. split; [exact Ha|]. apply in_map. apply IH. exact Hl.
Qed.
Lemma one_of_each_length axes : length (one_of_each axes) = fold_right (fun axis n => length axis * n) 1 axes.
Proof.
  induction axes as [|axis axes IH]; [reflexivity|]. cbn [one_of_each fold_right]. rewrite <- IH. induction axis as [|a axis IHa]; [reflexivity|].
  cbn [flat_map length]. rewrite app_length, map_length, IHa. reflexivity.
Qed.
Lemma one_of_each_nodup axes : (forall axis, In axis axes -> NoDup axis) -> NoDup (one_of_each axes).
Proof.
  induction axes as [|axis axes IH]; intros H; cbn [one_of_each]; [constructor; [intros []|constructor]|].
  assert (Hr : NoDup (one_of_each axes)) by (apply IH; intros x Hx; apply H; right; exact Hx).
  assert (Ha : NoDup axis) by (apply H; left; reflexivity). clear H IH. induction Ha as [|a axis Hn Ha IH]; [constructor|]. cbn [flat_map].
  assert (G : forall l1 l2 : list (list N), NoDup l1 -> NoDup l2 -> (forall x, In x l1 -> ~ In x l2) -> NoDup (l1 ++ l2)).
  { clear. induction 1 as [|x l1 Hx H1 IH]; intros H2 Hd; [exact H2|]. cbn. constructor.
    - rewrite in_app_iff. intros [Hi|Hi]; [exact (Hx Hi)|]. exact (Hd x (or_introl eq_refl) Hi).
    - apply IH; [exact H2|]. intros y Hy. apply Hd. right. exact Hy. }
  apply G; [|exact IH|].
  - apply FinFun.Injective_map_NoDup; [|exact Hr]. intros x y E. congruence.
  - intros x Hx Hx'. apply in_map_iff in Hx as (l & <- & _). apply in_flat_map in Hx' as (b & Hb & Hl). apply in_map_iff in Hl as (l' & E & _). assert (b = a) by congruence. subst b. exact (Hn Hb).
Qed.
Corollary C120_one_of_each_axis (B : BilinearMap) (BL : BilinearLaws B) P size axes {R} (start : R -> master_public_key B -> delegation_key B -> chooser B)
    (elems : list (bm_K B)) (coins : list R) (n m : nat) :
  NoDup elems -> (forall x : bm_K B, In x elems) -> (forall axis, In axis axes -> NoDup axis /\ axis <> []) -> 0 < m ->
  (forall x pub del, lawful_choice P size (one_of_each axes) n [] [] [] m (start x pub del)) ->
  exists i g w, i < m /\ Forall2 (fun a axis => In a axis) g axes /\
  (Z.of_nat (length elems) * (Z.of_nat (length elems) - 1) *
     Z.abs (Z.of_nat (answers_true_choice P size start elems coins n m true) - Z.of_nat (answers_true_choice P size start elems coins n m false))
   <= 2 * Z.of_nat m * Z.of_nat (fold_right (fun axis k => length axis * k)%nat 1%nat axes) *
      advantage elems (solver_coins size elems (guesser_coins m i elems coins) n) (solve P g (guesser P i g start) w))%Z.
Proof.
  intros Hnd Hall Ha Hm Hlaw.
  destruct (C120_chosen_attributes B BL P size (one_of_each axes) start elems coins n m Hnd Hall) as (i & g & w & Hi & Hg & _ & H); [| |exact Hm|exact Hlaw|].
  - apply one_of_each_nodup. intros axis Hx. apply Ha. exact Hx.
  - intros E. apply (f_equal (@length _)) in E. rewrite one_of_each_length in E. clear - Ha E. induction axes as [|axis axes IH]; [discriminate|]. cbn in E.
    apply Nat.eq_mul_0 in E as [E|E].
    + destruct (Ha axis (or_introl eq_refl)) as [_ Hne]. destruct axis; [destruct (Hne eq_refl)|discriminate].
    + apply IH; [|exact E]. intros x Hx. apply Ha. right. exact Hx.
  - exists i, g, w. split; [exact Hi|]. split; [apply one_of_each_spec; exact Hg|]. rewrite one_of_each_length in H. exact H.
Qed.

(** ** Headers *)
Section Headers.
Variable B : BilinearMap.
Local Notation K := (bm_K B).
Variable P : platform.
Variable F : byte_forms B.
Variable shake : list byte -> nat -> list byte.
Variable pol : policy.
Variable len : nat.
Lemma inquires_lawful size cands p : forall n fs held chosen m xs, lawful_inquiry P size pol cands n fs held chosen m p ->
  lawful_choice P size cands n fs held chosen m (inquires F shake pol len xs p).
Proof.
  induction p as [g|e next IH|e next IH|l next IH]; intros n fs held chosen m xs L.
  - exact I.
  - destruct L as (Hp & L). cbn [inquires lawful_choice]. split; [exact Hp|]. intros f Hf. destruct (L f Hf) as (Hu & Hn & L'). split; [exact Hu|]. split; [exact Hn|]. intros r. apply IH. apply L'.
  - destruct L as (Hp & L). cbn [inquires lawful_choice]. split; [exact Hp|]. intros f Hf. destruct (L f Hf) as (Hn & L'). split; [exact Hn|]. apply IH. exact L'.
  - destruct L as (gam & Hv & Hc & Hh & L). cbn [inquires]. destruct xs as [|[x x'] xs]; [exact I|]. rewrite Hv. cbn [lawful_choice].
    split; [exact Hc|]. split; [exact Hh|]. destruct m as [|m]; [exact L|]. intros r. apply IH. apply L.
Qed.
Lemma inquires_play size cands (mk : master_key B) real p : forall n fs held chosen m xs ss uks u, length xs = m -> lawful_inquiry P size pol cands n fs held chosen m p ->
  play_choice P mk (repeat (negb real) m) ss fs uks u (inquires F shake pol len xs p) = play_inquiry P F shake pol len mk real xs ss fs uks u p.
Proof.
  induction p as [g|e next IH|e next IH|l next IH]; intros n fs held chosen m xs ss uks u Lx L.
  - reflexivity.
  - destruct L as (Hp & L). destruct (proper_formula P size fs e Hp) as [f Ef]. destruct (L f Ef) as (_ & _ & L'). cbn [inquires play_choice play_inquiry].
    rewrite (formulas_some _ _ _ Ef). eapply IH; [exact Lx|apply L'].
  - destruct L as (Hp & L). destruct (proper_formula P size fs e Hp) as [f Ef]. destruct (L f Ef) as (_ & L'). cbn [inquires play_choice play_inquiry].
    rewrite (formulas_some _ _ _ Ef). eapply IH; [exact Lx|apply L'].
  - destruct L as (gam & Hv & _ & _ & L). destruct m as [|m]; [destruct L|]. destruct xs as [|[x x'] xs]; [discriminate|]. cbn [inquires play_inquiry]. rewrite Hv. cbn [play_choice repeat].
    destruct ss as [|s ss]; [reflexivity|]. rewrite (IH _ n fs held (gam :: chosen) m xs ss uks u) by first [cbn in Lx; lia|apply L]. f_equal. f_equal. destruct real; cbn [negb].
    + unfold generate_symmetric_key, eng_encrypt. rewrite Hv. reflexivity.
    + unfold mismatched, eng_encrypt. rewrite Hv. reflexivity.
Qed.
End Headers.

(** The same for attackers that are told symmetric keys with headers, for attributes they choose. *)
Theorem C120_chosen_headers (B : BilinearMap) (BL : BilinearLaws B) P size F shake pol len cands {R} (start : R -> master_public_key B -> delegation_key B -> inquirer B)
    (elems : list (bm_K B)) (coins : list R) (n m : nat) :
  NoDup elems -> (forall x : bm_K B, In x elems) -> NoDup cands -> cands <> [] -> 0 < m ->
  (forall x pub del, lawful_inquiry P size pol cands n [] [] [] m (start x pub del)) ->
  exists i g w, i < m /\ In g cands /\
  (Z.of_nat (length elems) * (Z.of_nat (length elems) - 1) *
     Z.abs (Z.of_nat (answers_true_inquiry P size F shake pol len start elems coins n m true) - Z.of_nat (answers_true_inquiry P size F shake pol len start elems coins n m false))
   <= 2 * Z.of_nat m * Z.of_nat (length cands) *
      advantage elems (solver_coins size elems (guesser_coins m i elems (speaker_coins elems coins m)) n)
        (solve P g (guesser P i g (inquiry F shake pol len start)) w))%Z.
Proof.
  intros Hnd Hall Hc Hne Hm Hlaw.
  destruct (C120_chosen_attributes B BL P size cands (inquiry F shake pol len start) elems (speaker_coins elems coins m) n m Hnd Hall Hc Hne Hm) as (i & g & w & Hi & Hg & _ & Hw).
  - intros [c xs] pub del. unfold inquiry. apply inquires_lawful. apply Hlaw.
  - exists i, g, w. split; [exact Hi|]. split; [exact Hg|].
    assert (E : forall real, answers_true_inquiry P size F shake pol len start elems coins n m real = answers_true_choice P size (inquiry F shake pol len start) elems (speaker_coins elems coins m) n m (negb real)).
    { intros real. unfold answers_true_inquiry, answers_true_choice, speaker_coins. rewrite total_prod. apply total_ext. intros c _. apply total_ext. intros xs Hx. apply tuples_length in Hx.
      apply total_ext. intros t _. apply total_ext. intros y _. apply total_ext. intros ss _. apply total_ext. intros u _. f_equal. unfold experiment_inquiry, experiment_choice.
      destruct (generate_master_key _ _) as [mk| |]; try reflexivity. unfold inquiry. cbn [fst snd]. symmetry. eapply inquires_play; [exact Hx|apply Hlaw]. }
    rewrite !E. cbn [negb]. rewrite <- Z.abs_opp, Z.opp_sub_distr, Z.add_comm, Z.add_opp_r. exact Hw.
Qed.
Print Assumptions C120_one_of_each_axis.
Print Assumptions C120_chosen_headers.

(** ** Metadata and blocks *)
Section Guests.
Variable B : BilinearMap.
Local Notation K := (bm_K B).
Variable P : platform.
Variable size : nat.
Variable S : sym_scheme.
Variable F : byte_forms B.
Variable shake : list byte -> nat -> list byte.
Variable pol : policy.
Variable max : N.
Hypothesis shake_length : forall b n, length (shake b n) = n.
Local Notation len := (key_length S).

Lemma overhears_real (mk : master_key B) w p : forall xs ss nonces fs uks keys u,
  play_inquiry P F shake pol len mk true xs ss fs uks u (overhears S max w nonces keys p) = play_guest P S F shake pol max mk w (map fst xs) ss nonces fs uks keys u p.
Proof using.
  clear. induction p as [b|e next IH|e next IH|l m0 m1 next IH|i v number m0 m1 next IH]; intros xs ss nonces fs uks keys u; cbn [overhears play_guest play_inquiry].
  - reflexivity.
  - apply IH.
  - apply IH.
  - destruct nonces as [|nonce nonces]; cbn [play_inquiry]; [destruct (map fst xs), ss; reflexivity|].
    destruct xs as [|[x x'] xs]; [reflexivity|]. cbn [map fst]. destruct ss as [|s ss]; [reflexivity|].
    rewrite IH, header_finished. reflexivity.
  - destruct nonces as [|nonce nonces]; cbn [play_inquiry]; [reflexivity|]. apply IH.
Qed.
Fixpoint guest_sized (p : guest B) : Prop :=
  match p with
  | GuestAnswer _ => True
  | GuestKey _ next => forall r, guest_sized (next r)
  | GuestOther _ next => guest_sized next
  | GuestHeader _ _ _ next => forall r, guest_sized (next r)
  | GuestBlock _ _ _ m0 m1 next => length m0 = length m1 /\ forall r, guest_sized (next r)
  end.
Lemma lawful_guest_sized cands (p : guest B) : forall n fs held chosen m k, lawful_guest P size S pol cands n fs held chosen m k p -> guest_sized p.
Proof using.
  clear. induction p as [b|e next IH|e next IH|l m0 m1 next IH|i v number m0 m1 next IH]; intros n fs held chosen m k H; cbn [guest_sized]; cbn [lawful_guest] in H.
  - exact I.
  - destruct H as [H1 H2]. destruct (PropertiesReduction.proper_formula P size _ _ H1) as [f Hf]. destruct (H2 f Hf) as (_ & _ & D). intros r. eapply IH. apply D.
  - destruct H as [H1 H2]. destruct (PropertiesReduction.proper_formula P size _ _ H1) as [f Hf]. destruct (H2 f Hf) as (_ & D). eapply IH. apply D.
  - destruct H as (_ & gam & _ & _ & _ & H). destruct m as [|m]; [destruct H|]. destruct k as [|k]; [destruct H|]. intros r. eapply IH. apply H.
  - destruct H as [Z H]. destruct k as [|k]; [destruct H|]. split; [exact Z|]. intros r. eapply IH. apply H.
Qed.
Lemma overhears_apart (mk : master_key B) w p : forall xs ss nonces fs uks keys known before u, guest_sized p ->
  length known = length before -> length keys = length before ->
  (forall i, i < length before -> nth i keys (Err (InternalOperation "no such header")) =
     (let* _ := nth i known (Err (InternalOperation "no such header")) in Ok (nth i before []))) ->
  play_inquiry P F shake pol len mk false xs ss fs uks u (overhears S max w nonces keys p) =
  play_sealer S (before ++ map (key_from S F shake) (map fst xs)) w nonces (isolate P F pol max mk (map snd xs) ss fs uks known u p).
Proof using shake_length.
  induction p as [b|e next IH|e next IH|l m0 m1 next IH|i v number m0 m1 next IH]; intros xs ss nonces fs uks keys known before u Z Lk Lk' Hk; cbn [guest_sized] in Z; cbn [overhears isolate play_inquiry].
  - reflexivity.
  - apply IH; [apply Z|assumption..].
  - apply IH; assumption.
  - destruct nonces as [|nonce nonces].
    { cbn [play_inquiry]. destruct (map snd xs) as [|x' t]; [reflexivity|]. destruct ss as [|s ss]; [reflexivity|].
      destruct (front _ _ _ _ _ _ _); reflexivity. }
    cbn [play_inquiry]. destruct xs as [|[x x'] xs]; [reflexivity|]. cbn [map fst snd]. destruct ss as [|s ss]; [reflexivity|].
    destruct (mismatched_finished B P S F shake pol shake_length mk l x' x s (if w then m1 else m0) nonce) as [E1 E2]. rewrite E1, E2. clear E1 E2.
    match goal with |- context [next ?b] => set (bytes := b) end.
    assert (E : play_sealer S (before ++ key_from S F shake x :: map (key_from S F shake) (map fst xs)) w nonces
        (isolate P F pol max mk (map snd xs) ss fs uks (known ++ [opened bytes]) u (next bytes)) =
      play_inquiry P F shake pol len mk false xs ss fs uks u (overhears S max w nonces (keys ++ [let* _ := opened bytes in Ok (key_from S F shake x)]) (next bytes))).
    { change (before ++ key_from S F shake x :: map (key_from S F shake) (map fst xs)) with (before ++ [key_from S F shake x] ++ map (key_from S F shake) (map fst xs)).
      rewrite app_assoc. symmetry. apply IH; rewrite ?app_length; cbn [length]; [apply Z|lia|lia|].
      intros i Hi. destruct (Nat.lt_ge_cases i (length before)) as [H|H].
      - rewrite !app_nth1 by lia. apply Hk. exact H.
      - assert (i = length before) by lia. subst i. rewrite !app_nth2 by lia. rewrite Lk, Lk', Nat.sub_diag. reflexivity. }
    rewrite <- E. clear E. subst bytes. destruct (front P F pol mk l x' s) as [f|e|q]; cbn [bind play_sealer]; [|reflexivity|reflexivity].
    rewrite Lk, app_nth2, Nat.sub_diag by lia. cbn [nth]. reflexivity.
  - destruct nonces as [|nonce nonces].
    { cbn [play_inquiry]. destruct (nth i known _); [|reflexivity|reflexivity]. destruct (blen m0 =? 0)%N; [reflexivity|]. destruct (max <? blen m0)%N; reflexivity. }
    assert (N : nth i keys (Err (InternalOperation "no such header")) = (let* _ := nth i known (Err (InternalOperation "no such header")) in Ok (nth i (before ++ map (key_from S F shake) (map fst xs)) []))).
    { destruct (Nat.lt_ge_cases i (length before)) as [H|H].
      - rewrite Hk by exact H. rewrite app_nth1 by exact H. reflexivity.
      - rewrite !nth_overflow by lia. reflexivity. }
    destruct Z as [Z Z']. unfold block_for. rewrite N. destruct (nth i known _) as [z|e|q]; cbn [bind play_sealer]; [|apply IH; [apply Z'|assumption..]|apply IH; [apply Z'|assumption..]].
    rewrite block_checked by exact Z. destruct (blen m0 =? 0)%N; [|destruct (max <? blen m0)%N]; cbn [play_sealer]; (apply IH; [apply Z'|assumption..]).
Qed.
Lemma overhears_lawful cands w (p : guest B) : forall n fs held chosen m k nonces keys, lawful_guest P size S pol cands n fs held chosen m k p ->
  lawful_inquiry P size pol cands n fs held chosen m (overhears S max w nonces keys p).
Proof using.
  clear. induction p as [b|e next IH|e next IH|l m0 m1 next IH|i v number m0 m1 next IH]; intros n fs held chosen m k nonces keys H; cbn [overhears lawful_inquiry]; cbn [lawful_guest] in H.
  - exact I.
  - destruct H as [H1 H2]. split; [exact H1|]. intros f Hf. destruct (H2 f Hf) as (A & C & D). split; [exact A|]. split; [exact C|]. intros r. eapply IH. apply D.
  - destruct H as [H1 H2]. split; [exact H1|]. intros f Hf. destruct (H2 f Hf) as (C & D). split; [exact C|]. eapply IH. exact D.
  - destruct H as (_ & gam & Hv & Hc & Hh & H). destruct nonces as [|nonce nonces]; cbn [lawful_inquiry]; [exact I|]. exists gam. split; [exact Hv|]. split; [exact Hc|]. split; [exact Hh|].
    destruct m as [|m]; [exact H|]. destruct k as [|k]; [destruct H|]. intros r. eapply IH. apply H.
  - destruct H as [_ H]. destruct nonces as [|nonce nonces]; cbn [lawful_inquiry]; [exact I|]. destruct k as [|k]; [destruct H|]. eapply IH. apply H.
Qed.
Lemma isolate_lawful cands (mk : master_key B) p : forall n fs held chosen m k xs ss uks known u,
  lawful_guest P size S pol cands n fs held chosen m k p -> lawful_sealer S k (isolate P F pol max mk xs ss fs uks known u p).
Proof using.
  clear. induction p as [b|e next IH|e next IH|l m0 m1 next IH|i v number m0 m1 next IH]; intros n fs held chosen m k xs ss uks known u H; cbn [isolate]; cbn [lawful_guest] in H.
  - exact I.
  - destruct H as [H1 H2]. destruct (PropertiesReduction.proper_formula P size _ _ H1) as [f Hf]. destruct (H2 f Hf) as (_ & _ & D). rewrite (formulas_some _ _ _ Hf). eapply IH. apply D.
  - destruct H as [H1 H2]. destruct (PropertiesReduction.proper_formula P size _ _ H1) as [f Hf]. destruct (H2 f Hf) as (_ & D). rewrite (formulas_some _ _ _ Hf). eapply IH. apply D.
  - destruct H as (Z & gam & _ & _ & _ & H). destruct m as [|m]; [destruct H|]. destruct k as [|k]; [destruct H|].
    destruct xs as [|x xs]; [exact I|]. destruct ss as [|s ss]; [exact I|].
    destruct (front P F pol mk l x s) as [f|e|q]; cbn [lawful_sealer]; (split; [assumption || exact I|]); intros r; eapply IH; apply H.
  - destruct H as [Z H]. destruct k as [|k]; [destruct H|].
    destruct (nth i known _) as [f|e|q]; [destruct (blen m0 =? 0)%N; [|destruct (max <? blen m0)%N]| |]; cbn [lawful_sealer]; (split; [assumption || exact I|]); intros r; eapply IH; apply H.
Qed.

Context {R : Type}.
Variable start : R -> master_public_key B -> delegation_key B -> guest B.
Variable elems : list K.
Variable coins : list R.
Variable nonces : list (list byte).
Variables n m k : nat.
Hypothesis start_sized : forall c pub del, guest_sized (start c pub del).

Lemma guest_total_real w :
  answers_true_inquiry P size F shake pol len (guest_inquirer S max start w) elems (client_coins coins nonces k) n m true =
  length elems ^ m * answers_true_guest P size S F shake pol max start elems coins nonces n m k w.
Proof using.
  clear. unfold answers_true_inquiry, answers_true_guest, client_coins. rewrite total_prod, <- total_mul. apply total_ext. intros c _.
  transitivity (total (tuples nonces k) (fun nc => total (tuples elems m) (fun xs => length elems ^ m * total (tuples elems size) (fun t => total elems (fun y =>
    total (tuples elems m) (fun ss => total (tuples elems n) (fun u => bit (experiment_guest P size S F shake pol max (start c) w xs t y ss u nc)))))))).
  - apply total_ext. intros nc _. rewrite total_tuples_prod. apply total_ext. intros xs Hx. rewrite <- (tuples_count elems m), <- total_const.
    apply total_ext. intros xs' Hx'. apply tuples_length in Hx. apply tuples_length in Hx'.
    apply total_ext. intros t _. apply total_ext. intros y _. apply total_ext. intros ss _. apply total_ext. intros u _. f_equal. unfold experiment_inquiry, experiment_guest.
    destruct (generate_master_key _ _) as [mk| |]; try reflexivity. unfold guest_inquirer. cbn [fst snd]. rewrite overhears_real, combine_fst by lia. reflexivity.
  - rewrite total_swap, <- total_mul. apply total_ext. intros xs _. rewrite total_mul. f_equal. rewrite total_swap. apply total_ext. intros t _. rewrite total_swap. apply total_ext. intros y _.
    rewrite total_swap. apply total_ext. intros ss _. rewrite total_swap. reflexivity.
Qed.
Lemma guest_total_apart w :
  answers_true_inquiry P size F shake pol len (guest_inquirer S max start w) elems (client_coins coins nonces k) n m false =
  answers_true_sealer S F shake (isolated P size F pol max start) elems (separated_coins size elems coins m n) nonces m k w.
Proof using shake_length start_sized.
  unfold answers_true_inquiry, answers_true_sealer, client_coins, separated_coins. rewrite !total_prod. apply total_ext. intros c _.
  set (T := fun a b t y ss u nc => bit (play_sealer S (map (key_from S F shake) a) w nc (isolated P size F pol max start (c, (b, (t, (y, (ss, u)))))))).
  set (la := tuples elems m).
  transitivity (total (tuples nonces k) (fun nc => total la (fun a => total la (fun b => total (tuples elems size) (fun t => total elems (fun y =>
    total la (fun ss => total (tuples elems n) (fun u => T a b t y ss u nc)))))))).
  - apply total_ext. intros nc _. rewrite total_tuples_prod. apply total_ext. intros a Ha. apply total_ext. intros b Hb. apply tuples_length in Ha. apply tuples_length in Hb.
    apply total_ext. intros t _. apply total_ext. intros y _. apply total_ext. intros ss _. apply total_ext. intros u _. unfold T. f_equal. unfold experiment_inquiry, isolated.
    destruct (generate_master_key _ _) as [mk| |]; try reflexivity. unfold guest_inquirer. cbn [fst snd].
    rewrite (overhears_apart mk w (start c (pub_key mk) (del_key mk)) (combine a b) ss nc [] [] [] [] [] u) by (apply start_sized || reflexivity || (intros i Hi; inversion Hi)).
    rewrite combine_fst, combine_snd by lia. reflexivity.
  - transitivity (total la (fun a => total la (fun b => total (tuples elems size) (fun t => total elems (fun y =>
      total la (fun ss => total (tuples elems n) (fun u => total (tuples nonces k) (fun nc => T a b t y ss u nc)))))))).
    { rewrite total_swap. apply total_ext. intros a _. rewrite total_swap. apply total_ext. intros b _. rewrite total_swap. apply total_ext. intros t _. rewrite total_swap. apply total_ext. intros y _.
      rewrite total_swap. apply total_ext. intros ss _. rewrite total_swap. reflexivity. }
    rewrite total_swap, !total_prod. apply total_ext. intros b _. rewrite total_swap, !total_prod. apply total_ext. intros t _. rewrite total_swap, !total_prod. apply total_ext. intros y _.
    rewrite total_swap, !total_prod. apply total_ext. intros ss _. rewrite total_swap. reflexivity.
Qed.
End Guests.

(** The same for metadata and blocks: what is left besides the solvers is an attacker of the symmetric scheme alone. *)
Theorem C120_chosen_seals (B : BilinearMap) (BL : BilinearLaws B) P size S F shake pol max cands {R} (start : R -> master_public_key B -> delegation_key B -> guest B)
    (elems : list (bm_K B)) (coins : list R) (nonces : list (list byte)) (n m k : nat) :
  NoDup elems -> (forall x : bm_K B, In x elems) -> NoDup cands -> cands <> [] -> 0 < m -> (forall b n, length (shake b n) = n) ->
  (forall c pub del, lawful_guest P size S pol cands n [] [] [] m k (start c pub del)) ->
  (forall x, lawful_sealer S k (isolated P size F pol max start x)) /\
  exists i g w i' g' w', i < m /\ In g cands /\ i' < m /\ In g' cands /\
  let q := Z.of_nat (length elems) in
  let factor := (2 * Z.of_nat m * Z.of_nat (length cands))%Z in
  let solved real i g w := advantage elems (solver_coins size elems (guesser_coins m i elems (speaker_coins elems (client_coins coins nonces k) m)) n)
        (solve P g (guesser P i g (inquiry F shake pol (key_length S) (guest_inquirer S max start real))) w) in
  (q * (q - 1) * q ^ Z.of_nat m *
     Z.abs (Z.of_nat (answers_true_guest P size S F shake pol max start elems coins nonces n m k true) -
            Z.of_nat (answers_true_guest P size S F shake pol max start elems coins nonces n m k false))
   <= factor * solved true i g w + factor * solved false i' g' w' +
      q * (q - 1) *
      Z.abs (Z.of_nat (answers_true_sealer S F shake (isolated P size F pol max start) elems (separated_coins size elems coins m n) nonces m k true) -
             Z.of_nat (answers_true_sealer S F shake (isolated P size F pol max start) elems (separated_coins size elems coins m n) nonces m k false)))%Z.
Proof.
  intros Hnd Hall Hcs Hne Hm Hs Hlaw. split.
  { intros (c & xs & t & y & ss & u). unfold isolated. destruct (generate_master_key _ _) as [mk| |]; try exact I. eapply isolate_lawful. apply Hlaw. }
  assert (L : forall real x pub del, lawful_inquiry P size pol cands n [] [] [] m (guest_inquirer S max start real x pub del)).
  { intros real x pub del. unfold guest_inquirer. eapply overhears_lawful. apply Hlaw. }
  destruct (C120_chosen_headers B BL P size F shake pol (key_length S) cands (guest_inquirer S max start true) elems (client_coins coins nonces k) n m Hnd Hall Hcs Hne Hm (L true)) as (i & g & w & Hi & Hg & H1).
  destruct (C120_chosen_headers B BL P size F shake pol (key_length S) cands (guest_inquirer S max start false) elems (client_coins coins nonces k) n m Hnd Hall Hcs Hne Hm (L false)) as (i' & g' & w' & Hi' & Hg' & H0).
  exists i, g, w, i', g', w'. split; [exact Hi|]. split; [exact Hg|]. split; [exact Hi'|]. split; [exact Hg'|]. cbv zeta.
  rewrite !guest_total_real, !guest_total_apart in H1, H0 by (exact Hs || (intros; eapply lawful_guest_sized; apply Hlaw)). rewrite Nat2Z.inj_mul, Nat2Z.inj_pow in H1, H0.
  set (a1 := Z.of_nat (answers_true_guest _ _ _ _ _ _ _ _ _ _ _ _ _ _ true)) in *.
  set (a0 := Z.of_nat (answers_true_guest _ _ _ _ _ _ _ _ _ _ _ _ _ _ false)) in *.
  set (b1 := Z.of_nat (answers_true_sealer _ _ _ _ _ _ _ _ _ true)) in *.
  set (b0 := Z.of_nat (answers_true_sealer _ _ _ _ _ _ _ _ _ false)) in *.
  match type of H1 with (_ <= ?r)%Z => set (s1 := r) in * end. match type of H0 with (_ <= ?r)%Z => set (s0 := r) in * end.
  set (c := (Z.of_nat (length elems) ^ Z.of_nat m)%Z) in *.
  assert (Hq : (0 <= Z.of_nat (length elems) * (Z.of_nat (length elems) - 1))%Z) by nia.
  assert (Hc : (0 <= c)%Z) by (apply Z.pow_nonneg; lia).
  set (d := (Z.of_nat (length elems) * (Z.of_nat (length elems) - 1))%Z) in *.
  rewrite <- Z.mul_assoc. rewrite <- (Z.abs_eq c Hc) at 1. rewrite <- Z.abs_mul.
  assert (T : (Z.abs (c * (a1 - a0)) <= Z.abs (c * a1 - b1) + Z.abs (c * a0 - b0) + Z.abs (b1 - b0))%Z) by lia.
  apply (Z.mul_le_mono_nonneg_l _ _ d Hq) in T. eapply Z.le_trans; [exact T|]. rewrite !Z.mul_add_distr_l. lia.
Qed.
Print Assumptions C120_chosen_seals.

(** ** Examples *)
(** An attacker that asks for a key for both attributes and chooses the attribute of the ciphertext by an element of this key. It
    computes the mask (logarithms are known in [toy3]) and is always right when there is a master key; each of the two guesses
    is right for some of the draws. *)
Definition c120_list (uk : outcome (decryption_key toy3)) : list N :=
  match uk with Ok uk => match d_i uk with d :: _ => if @feqb toy3 d f1 then [0%N] else [1%N] | [] => [1%N] end | _ => [1%N] end.
Definition c120_mask (pub : master_public_key toy3) (ct : ciphertext toy3) : bm_K toy3 :=
  match gamma ct, e_i ct with
  | a :: _, e :: _ => @fmul toy3 (pub_y pub) (@fmul toy3 e (@finv toy3 (nth (N.to_nat a) (pub_t pub) f0)))
  | _, _ => f0
  end.
Definition c120_attacker (m : bm_K toy3) (pub : master_public_key toy3) (del : delegation_key toy3) : chooser toy3 :=
  @AskKey toy3 (Generated (And (Leaf 0) (Leaf 1))) (fun uk => @AskText toy3 (c120_list uk) m (fadd m f1) (fun ct =>
    Decide (match ct with Ok ct => @feqb toy3 (e_prime ct) (@fadd toy3 (fadd m f1) (c120_mask pub ct)) | _ => false end))).
Lemma c120_choice uk : In (c120_list uk) [[0%N]; [1%N]] /\ ~ holds (fun a => In a (c120_list uk)) (And (Leaf 0) (Leaf 1)).
Proof.
  assert (H : c120_list uk = [0%N] \/ c120_list uk = [1%N]).
  { unfold c120_list. destruct uk as [uk| |]; auto. destruct (d_i uk) as [|d l]; auto. destruct (feqb _ _); auto. }
  destruct H as [-> | ->]; (split; [cbn; auto|]); intros [H H']; [destruct H' as [H'|[]]|destruct H as [H|[]]]; discriminate.
Qed.
Example C120_example :
  NoDup [[0%N]; [1%N]] /\ (forall m pub del, lawful_choice pf 2 [[0%N]; [1%N]] 1 [] [] [] 1 (c120_attacker m pub del)) /\
  one_of_each [[0%N; 1%N]] = [[0%N]; [1%N]] /\
  answers_true_choice pf 2 c120_attacker all3 [k3 0] 1 1 true = 108%nat /\
  answers_true_choice pf 2 c120_attacker all3 [k3 0] 1 1 false = 0%nat /\
  answers_true pf 2 [0%N] (guesser pf 0 [0%N] c120_attacker) all3 (guesser_coins 1 0 all3 [k3 0]) 1 true = 36%nat /\
  answers_true pf 2 [1%N] (guesser pf 0 [1%N] c120_attacker) all3 (guesser_coins 1 0 all3 [k3 0]) 1 true = 72%nat /\
  advantage all3 (solver_coins 2 all3 (guesser_coins 1 0 all3 [k3 0]) 1) (solve pf [0%N] (guesser pf 0 [0%N] c120_attacker) true) = 144%Z /\
  advantage all3 (solver_coins 2 all3 (guesser_coins 1 0 all3 [k3 0]) 1) (solve pf [1%N] (guesser pf 0 [1%N] c120_attacker) true) = 288%Z.
Proof.
  split; [|split; [|split; [reflexivity|]]].
  - repeat constructor; cbn; intuition discriminate.
  - intros m pub del. cbn -[to_msp c120_list]. split; [exact I|]. intros f Hf. assert (f = And (Leaf 0) (Leaf 1)) by congruence. subst f. split; [intros gam []|]. cbn [count_and]. split; [lia|].
    intros r. split; [apply c120_choice|]. split; [|intros _; exact I]. intros f [<-|[]]. apply c120_choice.
  - repeat apply conj; vm_compute; reflexivity.
Qed.

(** The same with headers and with sealed metadata, for one of two levels. *)
Definition c120_level (uk : outcome (decryption_key toy3)) : list attribute :=
  match uk with Ok uk => match d_i uk with d :: _ => if @feqb toy3 d f1 then [level "Protected"] else [level "Confidential"] | [] => [level "Protected"] end | _ => [level "Protected"] end.
Lemma c120_level_ok uk : exists gam, attributes_values pol_a (c120_level uk) = Ok gam /\ In gam [[1%N]; [2%N]] /\ ~ holds (fun a => In a gam) (And (Leaf 1) (Leaf 2)).
Proof.
  assert (H : c120_level uk = [level "Protected"] \/ c120_level uk = [level "Confidential"]).
  { unfold c120_level. destruct uk as [uk| |]; auto. destruct (d_i uk) as [|d l]; auto. destruct (feqb _ _); auto. }
  destruct H as [-> | ->]; [exists [1%N]|exists [2%N]]; (split; [vm_compute; reflexivity|]); (split; [cbn; auto|]); intros [H H']; [destruct H' as [H'|[]]|destruct H as [H|[]]]; discriminate.
Qed.
Definition c120_key (pub : master_public_key toy3) (header : list byte) : option (list byte) :=
  match ct_dec toy3_forms pf header with
  | Ok ct => match enc (gt_codec toy3_forms) (@fsub toy3 (e_prime ct) (c120_mask pub ct)) with Ok bytes => Some (toy_shake bytes 2) | _ => None end
  | _ => None
  end.
Definition c120_inquirer (_ : unit) (pub : master_public_key toy3) (del : delegation_key toy3) : inquirer toy3 :=
  @InquireKey toy3 (Generated (And (Leaf 1) (Leaf 2))) (fun uk => @InquireHeader toy3 (c120_level uk) (fun r =>
    Conclude (match r with
              | Ok (key, header) => match c120_key pub header with Some k => if list_eq_dec Byte.byte_eq_dec k key then true else false | None => false end
              | _ => false
              end))).
Definition c120_guest (_ : unit) (pub : master_public_key toy3) (del : delegation_key toy3) : guest toy3 :=
  @GuestKey toy3 (Generated (And (Leaf 1) (Leaf 2))) (fun uk => @GuestHeader toy3 (c120_level uk) (Some (mkMeta [x00] None)) (Some (mkMeta [x01] None)) (fun h =>
    GuestAnswer (match h with
                 | Ok h => match c120_key pub (skipn 4 (firstn (length h - 6) h)) with
                           | Some k => if list_eq_dec Byte.byte_eq_dec (pad3 k [x01]) (skipn (length h - 1) h) then true else false
                           | None => false
                           end
                 | _ => false
                 end))).
Example C120_sealed_example :
  (forall x pub del, lawful_inquiry pf 3 pol_a [[1%N]; [2%N]] 1 [] [] [] 1 (c120_inquirer x pub del)) /\
  (forall x pub del, lawful_guest pf 3 pad_sym pol_a [[1%N]; [2%N]] 1 [] [] [] 1 1 (c120_guest x pub del)) /\
  answers_true_guest pf 3 pad_sym toy3_forms toy_shake pol_a 100 c120_guest all3 [Datatypes.tt] [[x07]] 1 1 1 true = 648%nat /\
  answers_true_guest pf 3 pad_sym toy3_forms toy_shake pol_a 100 c120_guest all3 [Datatypes.tt] [[x07]] 1 1 1 false = 0%nat.
Proof.
  split; [|split].
  - intros x pub del. cbn -[to_msp c120_level attributes_values]. split; [exact I|]. intros f Hf. assert (f = And (Leaf 1) (Leaf 2)) by congruence. subst f. split; [intros gam []|]. cbn [count_and]. split; [lia|].
    intros r. destruct (c120_level_ok r) as (gam & H1 & H2 & H3). exists gam. split; [exact H1|]. split; [exact H2|]. split; [|intros _; exact I]. intros f [<-|[]]. exact H3.
  - intros x pub del. cbn -[to_msp c120_level attributes_values]. split; [exact I|]. intros f Hf. assert (f = And (Leaf 1) (Leaf 2)) by congruence. subst f. split; [intros gam []|]. cbn [count_and]. split; [lia|].
    intros r. split; [exists [x00], [x01]; repeat split|]. destruct (c120_level_ok r) as (gam & H1 & H2 & H3). exists gam. split; [exact H1|]. split; [exact H2|]. split; [|intros _; exact I]. intros f [<-|[]]. exact H3.
  - repeat apply conj; vm_compute; reflexivity.
Qed.

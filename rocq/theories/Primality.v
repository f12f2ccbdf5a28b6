(** Primality of the order of the BLS12-381 groups, by Pocklington's criterion. *)
From Coq Require Import ZArith Znumtheory Zpow_facts Lia Permutation List.
Import ListNotations.
Local Open Scope Z_scope.

(** ** Prime divisors *)
Lemma prime_divisor n : 1 < n -> exists p, prime p /\ (p | n).
Proof.
  intros H. assert (Hn : 0 <= n) by lia. revert H. pattern n. apply Z_lt_induction; [|exact Hn]. clear n Hn.
  intros n IH H. destruct (prime_dec n) as [Hp|Hp]; [exists n; split; [exact Hp|apply Z.divide_refl]|].
  destruct (not_prime_divide n H Hp) as (d & Hd & Hdn).
  destruct (IH d ltac:(lia) ltac:(lia)) as (p & Hpp & Hpd). exists p. split; [exact Hpp|].
  eapply Z.divide_trans; eauto.
Qed.

Lemma no_small_divisor_prime n : 1 < n -> (forall p, prime p -> (p | n) -> n < p * p) -> prime n.
Proof.
  intros H Hall. destruct (prime_dec n) as [Hp|Hp]; [exact Hp|exfalso].
  destruct (not_prime_divide n H Hp) as (d & Hd & [e He]).
  assert (Hed : 1 < e) by nia.
  destruct (prime_divisor d ltac:(lia)) as (p & Pp & Hpd). destruct (prime_divisor e Hed) as (q & Pq & Hqe).
  pose proof (Hall p Pp ltac:(rewrite He; apply Z.divide_mul_r; exact Hpd)) as Hp2.
  pose proof (Hall q Pq ltac:(rewrite He; apply Z.divide_mul_l; exact Hqe)) as Hq2.
  apply Z.divide_pos_le in Hpd; [|lia]. apply Z.divide_pos_le in Hqe; [|lia].
  pose proof (prime_ge_2 _ Pp). pose proof (prime_ge_2 _ Pq).
  assert (p * p <= d * d) by nia. assert (q * q <= e * e) by nia.
  assert (e < d) by nia. assert (d < e) by nia. lia.
Qed.

(** trial division *)
Fixpoint no_divisor (k : nat) (d n : Z) : bool :=
  match k with
  | O => true
  | S k => negb (n mod d =? 0) && no_divisor k (d + 1) n
  end.

Lemma no_divisor_spec k : forall d n, 0 < d -> no_divisor k d n = true -> forall e, d <= e < d + Z.of_nat k -> ~ (e | n).
Proof.
  induction k as [|k IH]; intros d n Hd H e He; [lia|]. cbn [no_divisor] in H. apply andb_prop in H as [H1 H2].
  destruct (Z.eq_dec e d) as [->|Hne].
  - intros Hdiv. apply Z.mod_divide in Hdiv; [|lia]. rewrite Hdiv in H1. discriminate.
  - apply (IH (d + 1) n); [lia|exact H2|lia].
Qed.

Definition trial_prime (s : nat) (n : Z) : bool := (1 <? n) && (n <? (Z.of_nat s + 2) * (Z.of_nat s + 2)) && no_divisor s 2 n.

Lemma trial_prime_ok s n : trial_prime s n = true -> prime n.
Proof.
  unfold trial_prime. intros H. apply andb_prop in H as [H H3]. apply andb_prop in H as [H1 H2].
  apply Z.ltb_lt in H1, H2. apply no_small_divisor_prime; [exact H1|]. intros p Pp Hd. pose proof (prime_ge_2 _ Pp).
  destruct (Z.lt_ge_cases p (Z.of_nat s + 2)) as [Hlt|Hge]; [|nia].
  exfalso. apply (no_divisor_spec s 2 n ltac:(lia) H3 p); [lia|exact Hd].
Qed.

(** ** Fermat's little theorem *)
Definition prod (l : list Z) : Z := fold_right Z.mul 1 l.

Lemma prod_perm l1 l2 : Permutation l1 l2 -> prod l1 = prod l2.
Proof. induction 1; simpl; try congruence; lia. Qed.

Lemma prod_mod l p : p <> 0 -> prod (map (fun x => x mod p) l) mod p = prod l mod p.
Proof.
  intros Hp. induction l as [|x l IH]; [reflexivity|]. simpl. rewrite Z.mul_mod, IH, Z.mod_mod by exact Hp.
  rewrite <- Z.mul_mod by exact Hp. reflexivity.
Qed.

Lemma prod_scale a l : prod (map (fun x => a * x) l) = a ^ Z.of_nat (length l) * prod l.
Proof.
  induction l as [|x l IH]; [reflexivity|]. cbn [map length prod fold_right]. fold (prod l).
  change (fold_right Z.mul 1 (map (fun x => a * x) l)) with (prod (map (fun x => a * x) l)). rewrite IH.
  rewrite Nat2Z.inj_succ, Z.pow_succ_r by lia. ring.
Qed.

Lemma prod_prime p l : prime p -> (forall x, In x l -> ~ (p | x)) -> ~ (p | prod l).
Proof.
  intros Pp. induction l as [|x l IH]; simpl; intros H Hd.
  - apply Z.divide_1_r in Hd. pose proof (prime_ge_2 _ Pp). lia.
  - apply prime_mult in Hd; [|exact Pp]. destruct Hd as [Hd|Hd]; [exact (H x (or_introl eq_refl) Hd)|].
    apply IH; [intros y Hy; apply H; right; exact Hy|exact Hd].
Qed.

Definition residues (p : Z) : list Z := map Z.of_nat (seq 1 (Z.to_nat (p - 1))).

Lemma residues_in p x : In x (residues p) <-> 1 <= x <= p - 1.
Proof.
  unfold residues. rewrite in_map_iff. split.
  - intros (n & <- & H). apply in_seq in H. lia.
  - intros H. exists (Z.to_nat x). split; [lia|]. apply in_seq. lia.
Qed.

Lemma not_div_range p x : 1 <= x <= p - 1 -> ~ (p | x).
Proof. intros H Hd. apply Z.divide_pos_le in Hd; lia. Qed.

Lemma NoDup_map_in {A C} (f : A -> C) l : (forall x y, In x l -> In y l -> f x = f y -> x = y) -> NoDup l -> NoDup (map f l).
Proof.
  induction l as [|x l IH]; simpl; intros H ND; [constructor|]. inversion ND as [|? ? Hx ND']; subst. constructor.
  - intros Hin. apply in_map_iff in Hin as (y & Hy & Hyl). apply Hx.
    rewrite (H x y); auto.
  - apply IH; auto.
Qed.

Lemma fermat p a : prime p -> ~ (p | a) -> (a ^ (p - 1)) mod p = 1.
Proof.
  intros Pp Ha. pose proof (prime_ge_2 _ Pp) as Hp.
  set (L := residues p). set (M := map (fun x => (a * x) mod p) L).
  assert (ND : NoDup L) by (apply FinFun.Injective_map_NoDup; [intros x y H; lia|apply seq_NoDup]).
  assert (Hnd : forall x, In x L -> ~ (p | a * x)).
  { intros x Hx Hd. apply prime_mult in Hd; [|exact Pp]. destruct Hd as [Hd|Hd]; [exact (Ha Hd)|].
    apply residues_in in Hx. exact (not_div_range p x Hx Hd). }
  assert (NM : NoDup M).
  { unfold M. apply NoDup_map_in; [|exact ND]. intros x y Hx Hy E. apply residues_in in Hx, Hy.
    assert (Hd : (p | a * (x - y))).
    { apply Z.mod_divide; [lia|]. replace (a * (x - y)) with (a * x - a * y) by ring.
      rewrite Zminus_mod, E, Z.sub_diag. reflexivity. }
    apply prime_mult in Hd; [|exact Pp]. destruct Hd as [Hd|[k Hk]]; [contradiction|].
    assert (k = 0) by nia. subst k. lia. }
  assert (PM : Permutation M L).
  { apply NoDup_Permutation_bis; [exact NM|unfold M; rewrite map_length; lia|].
    intros z Hz. unfold M in Hz. apply in_map_iff in Hz as (x & <- & Hx). apply residues_in.
    pose proof (Z.mod_pos_bound (a * x) p ltac:(lia)) as Hb.
    assert ((a * x) mod p <> 0) by (intros E; apply Z.mod_divide in E; [exact (Hnd x Hx E)|lia]). lia. }
  assert (E : (a ^ (p - 1) * prod L) mod p = prod L mod p).
  { rewrite <- (prod_perm _ _ PM) at 2. unfold M. rewrite <- (map_map (fun x => a * x) (fun z => z mod p)).
    rewrite prod_mod, prod_scale by lia. do 2 f_equal. unfold L, residues. rewrite map_length, seq_length. f_equal. lia. }
  assert (Hd : (p | (a ^ (p - 1) - 1) * prod L)).
  { apply Z.mod_divide; [lia|]. replace ((a ^ (p - 1) - 1) * prod L) with (a ^ (p - 1) * prod L - prod L) by ring.
    rewrite Zminus_mod, E, Z.sub_diag. reflexivity. }
  apply prime_mult in Hd; [|exact Pp]. destruct Hd as [Hd|Hd].
  - apply Z.mod_divide in Hd; [|lia]. rewrite Zminus_mod in Hd. rewrite (Z.mod_small 1) in Hd by lia.
    pose proof (Z.mod_pos_bound (a ^ (p - 1)) p ltac:(lia)) as Hb.
    destruct (Z.eq_dec ((a ^ (p - 1)) mod p) 0) as [E0|E0].
    + rewrite E0 in Hd. change (0 - 1) with (-1) in Hd.
      apply Z.mod_divide in Hd; [|lia]. apply Z.divide_opp_r in Hd. apply Z.divide_1_r in Hd. lia.
    + rewrite Z.mod_small in Hd by lia. lia.
  - exfalso. revert Hd. apply prod_prime; [exact Pp|]. intros x Hx. apply residues_in in Hx. apply not_div_range. exact Hx.
Qed.

(** ** Pocklington's criterion *)
Definition one_mod (a p : Z) : Prop := (p | a - 1).

Lemma one_mod_pow a k p : 0 <= k -> one_mod a p -> one_mod (a ^ k) p.
Proof.
  unfold one_mod. intros Hk H. revert k Hk. apply natlike_ind.
  - rewrite Z.pow_0_r. apply Z.divide_0_r.
  - intros k Hk IH. rewrite Z.pow_succ_r by exact Hk. replace (a * a ^ k - 1) with (a * (a ^ k - 1) + (a - 1)) by ring.
    apply Z.divide_add_r; [apply Z.divide_mul_r; exact IH|exact H].
Qed.

Lemma pocklington_step n p a q e :
  prime p -> (p | n) -> 1 < n -> prime q -> 0 <= e -> (q ^ e | n - 1) ->
  one_mod (a ^ (n - 1)) n -> rel_prime (a ^ ((n - 1) / q) - 1) n -> (q | n - 1) ->
  (q ^ e | p - 1).
Proof.
  intros Pp Hpn Hn Pq He Hqe H1 Hg Hq.
  pose proof (prime_ge_2 _ Pp) as Hp2. pose proof (prime_ge_2 _ Pq) as Hq2.
  assert (H1p : one_mod (a ^ (n - 1)) p) by (eapply Z.divide_trans; eauto).
  assert (Ha : ~ (p | a)).
  { intros Hd. unfold one_mod in H1p.
    assert (Hz : (p | a ^ (n - 1))).
    { replace (n - 1) with (Z.succ (n - 2)) by lia. rewrite Z.pow_succ_r by lia. apply Z.divide_mul_l. exact Hd. }
    assert (Hd1 : (p | a ^ (n - 1) - (a ^ (n - 1) - 1))) by (apply Z.divide_sub_r; assumption).
    replace (a ^ (n - 1) - (a ^ (n - 1) - 1)) with 1 in Hd1 by ring. apply Z.divide_1_r in Hd1. lia. }
  assert (F : one_mod (a ^ (p - 1)) p).
  { unfold one_mod. apply Z.mod_divide; [lia|]. rewrite Zminus_mod, (fermat p a Pp Ha). rewrite (Z.mod_small 1) by lia. apply Z.mod_0_l. lia. }
  set (d := Z.gcd (n - 1) (p - 1)).
  assert (Hd0 : 0 < d).
  { pose proof (Z.gcd_nonneg (n - 1) (p - 1)). assert (d <> 0) by (intros E; apply Z.gcd_eq_0_l in E; lia). unfold d in *; lia. }
  (* a^d = 1 mod p *)
  assert (D : one_mod (a ^ d) p).
  { destruct (Z.gcd_bezout (n - 1) (p - 1) d eq_refl) as (u & v & E).
    assert (exists c, 0 <= c /\ - u <= c /\ v <= c) as (c & Hc0 & Hcu & Hcv) by (exists (Z.abs u + Z.abs v); lia).
    set (x := u + c * (p - 1)). set (y := c * (n - 1) - v).
    assert (c * 1 <= c * (p - 1)) by (apply Z.mul_le_mono_nonneg_l; lia).
    assert (c * 1 <= c * (n - 1)) by (apply Z.mul_le_mono_nonneg_l; lia).
    assert (Hx : 0 <= x) by (unfold x; lia). assert (Hy : 0 <= y) by (unfold y; lia).
    assert (Exy : x * (n - 1) = y * (p - 1) + d) by (unfold x, y; rewrite <- E; ring).
    assert (A1 : one_mod (a ^ (x * (n - 1))) p) by (rewrite Z.mul_comm, Z.pow_mul_r by lia; apply one_mod_pow; assumption).
    assert (A2 : one_mod (a ^ (y * (p - 1))) p) by (rewrite Z.mul_comm, Z.pow_mul_r by lia; apply one_mod_pow; assumption).
    rewrite Exy in A1. rewrite Z.pow_add_r in A1 by (try apply Z.mul_nonneg_nonneg; lia). unfold one_mod in *.
    replace (a ^ d - 1) with ((a ^ (y * (p - 1)) * a ^ d - 1) - (a ^ (y * (p - 1)) - 1) * a ^ d) by ring.
    apply Z.divide_sub_r; [exact A1|apply Z.divide_mul_l; exact A2]. }
  assert (Hdn : (d | n - 1)) by apply Z.gcd_divide_l. assert (Hdp : (d | p - 1)) by apply Z.gcd_divide_r.
  destruct Hdn as [k Hk].
  destruct (Zdivide_dec q k) as [[j Hj]|Hnq].
  - exfalso.
    assert (Ej : (n - 1) / q = j * d).
    { symmetry. apply Z.div_unique_exact; [lia|]. rewrite Hk, Hj. ring. }
    assert (Hj0 : 0 <= j) by (rewrite Hj in Hk; clear - Hk Hn Hq2 Hd0; apply Z.nlt_ge; intros Hneg; assert (j * q < 0) by (apply Z.mul_neg_pos; lia); assert (j * q * d < 0) by (apply Z.mul_neg_pos; lia); lia).
    assert (B1 : one_mod (a ^ ((n - 1) / q)) p).
    { rewrite Ej, Z.mul_comm, Z.pow_mul_r by lia. apply one_mod_pow; assumption. }
    destruct Hg as [_ _ Hg]. specialize (Hg p B1 Hpn). apply Z.divide_1_r in Hg. lia.
  - apply Z.divide_trans with d; [|exact Hdp].
    apply Gauss with k; [rewrite <- Hk; exact Hqe|].
    apply rel_prime_sym. apply rel_prime_Zpower_r; [exact He|]. apply rel_prime_sym. apply prime_rel_prime; assumption.
Qed.

(** The factors come as pairs (q, e). *)
Definition check_factor (n a q e : Z) : bool :=
  (Z.eqb ((n - 1) mod (q ^ e)) 0) && Z.leb 1 e && Z.eqb (Z.gcd (Zpow_mod a ((n - 1) / q) n - 1) n) 1.

Fixpoint coprime_powers (l : list (Z * Z)) : bool :=
  match l with
  | [] => true
  | (q, e) :: t => forallb (fun p => Z.eqb (Z.gcd (q ^ e) (fst p ^ snd p)) 1) t && coprime_powers t
  end.

Definition pocklington_check (n a : Z) (l : list (Z * Z)) : bool :=
  (1 <? n) && Z.eqb (Zpow_mod a (n - 1) n) 1 &&
  forallb (fun p => check_factor n a (fst p) (snd p)) l && coprime_powers l &&
  (n <? (prod (map (fun p => fst p ^ snd p) l)) * (prod (map (fun p => fst p ^ snd p) l))).

Lemma prod_coprime x l : (forall y, In y l -> rel_prime x y) -> rel_prime x (prod l).
Proof.
  induction l as [|y l IH]; simpl; intros H; [apply rel_prime_sym, rel_prime_1|].
  apply rel_prime_mult; [apply H; auto|]. apply IH. auto.
Qed.

Lemma coprime_product m : forall l, coprime_powers l = true ->
  (forall p, In p l -> (fst p ^ snd p | m)) -> (prod (map (fun p => fst p ^ snd p) l) | m).
Proof.
  induction l as [|[q e] l IH]; simpl; intros H Hall; [apply Z.divide_1_l|].
  apply andb_prop in H as [H1 H2]. rewrite forallb_forall in H1.
  specialize (IH H2 (fun p Hp => Hall p (or_intror Hp))). destruct IH as [k Hk].
  set (R := prod (map (fun p => fst p ^ snd p) l)) in *.
  assert (Hc : rel_prime (q ^ e) R).
  { apply prod_coprime. intros y Hy. apply in_map_iff in Hy as (p & <- & Hp). apply H1 in Hp. apply Z.eqb_eq in Hp.
    apply Zgcd_1_rel_prime. exact Hp. }
  pose proof (Hall (q, e) (or_introl eq_refl)) as Hq. simpl in Hq. rewrite Hk in Hq.
  rewrite Z.mul_comm in Hq. apply Gauss in Hq; [|exact Hc]. destruct Hq as [j Hj]. exists j. rewrite Hk, Hj. ring.
Qed.

Theorem pocklington n a l : pocklington_check n a l = true -> (forall p, In p l -> prime (fst p)) -> prime n.
Proof.
  unfold pocklington_check. intros H Hprimes.
  apply andb_prop in H as [H H5]. apply andb_prop in H as [H H4]. apply andb_prop in H as [H H3]. apply andb_prop in H as [H1 H2].
  apply Z.ltb_lt in H1, H5. apply Z.eqb_eq in H2. rewrite forallb_forall in H3.
  rewrite Zpow_mod_correct in H2 by lia.
  assert (A1 : one_mod (a ^ (n - 1)) n).
  { unfold one_mod. apply Z.mod_divide; [lia|]. rewrite Zminus_mod, H2, (Z.mod_small 1) by lia. apply Z.mod_0_l. lia. }
  apply no_small_divisor_prime; [exact H1|]. intros p Pp Hpn. pose proof (prime_ge_2 _ Pp) as Hp2.
  set (R := prod (map (fun p => fst p ^ snd p) l)) in *.
  assert (HR : (R | p - 1)).
  { apply coprime_product; [exact H4|]. intros [q e] Hq. simpl. pose proof (Hprimes _ Hq) as Pq. simpl in Pq.
    pose proof (prime_ge_2 _ Pq) as Hq2.
    apply H3 in Hq. unfold check_factor in Hq. simpl in Hq. apply andb_prop in Hq as [Hq Q3]. apply andb_prop in Hq as [Q1 Q2].
    apply Z.eqb_eq in Q1, Q3. apply Z.leb_le in Q2. rewrite Zpow_mod_correct in Q3 by lia.
    assert (Hpow : q ^ e <> 0) by (apply Z.pow_nonzero; lia).
    assert (D1 : (q ^ e | n - 1)) by (apply Z.mod_divide; assumption).
    assert (D2 : (q | n - 1)).
    { apply Z.divide_trans with (q ^ e); [|exact D1]. replace e with (Z.succ (e - 1)) by lia. rewrite Z.pow_succ_r by lia.
      apply Z.divide_mul_l, Z.divide_refl. }
    apply (pocklington_step n p a q e); try assumption; [lia|].
    apply Zgcd_1_rel_prime. rewrite Z.gcd_comm. rewrite Z.gcd_comm in Q3.
    rewrite Z.mod_eq in Q3 by lia.
    replace (a ^ ((n - 1) / q) - n * (a ^ ((n - 1) / q) / n) - 1)
      with (a ^ ((n - 1) / q) - 1 + (- (a ^ ((n - 1) / q) / n)) * n) in Q3 by ring.
    rewrite Z.gcd_add_mult_diag_r in Q3. exact Q3. }
  apply Z.divide_pos_le in HR; [|lia].
  assert (HR0 : 0 <= R).
  { unfold R. clear - Hprimes. induction l as [|x l IH]; simpl; [lia|].
    apply Z.mul_nonneg_nonneg; [|apply IH; intros y Hy; apply Hprimes; right; exact Hy].
    apply Z.pow_nonneg. pose proof (prime_ge_2 _ (Hprimes x (or_introl eq_refl))). lia. }
  assert (R * R <= p * p) by (apply Z.mul_le_mono_nonneg; lia). lia.
Qed.

(** ** The order of the BLS12-381 groups *)
Definition bls_r : Z := 0x73eda753299d7d483339d80809a1d80553bda402fffe5bfeffffffff00000001.

Theorem bls_r_prime : prime bls_r.
Proof.
  apply (pocklington bls_r 7 [(2, 32); (254760293, 2); (906349, 2); (52437899, 1)]); [vm_cast_no_check (eq_refl true)|].
  intros p Hp. cbn [In] in Hp.
  destruct Hp as [<-|Hp]; [exact prime_2|].
  destruct Hp as [<-|[<-|[<-|[]]]]; cbn [fst]; apply (trial_prime_ok (Z.to_nat 16000)); vm_cast_no_check (eq_refl true).
Qed.

(** Integers modulo a prime as a field, computable. Used as the scalar field of
    the concrete instances: BLS12-381 (Bls.v) and the examples. *)
From Coq Require Import NArith ZArith Znumtheory Bool Lia Field_theory Ring_theory InitialRing
  Eqdep_dec Zpow_facts List.
From Verif Require Import Prelude Field.
Import ListNotations.
Local Open Scope Z_scope.

Definition in_zp (p z : Z) : bool := (0 <=? z) && (z <? p).
Record zp (p : Z) := mkZp { zval : Z; zok : in_zp p zval = true }.
Arguments zval {p}.
Arguments zok {p}.
Arguments mkZp {p}.

Lemma zp_eq p (a b : zp p) : zval a = zval b -> a = b.
Proof.
  destruct a as [x Hx], b as [y Hy]; simpl; intros ->. f_equal. apply UIP_dec. decide equality.
Qed.

Lemma zp_range p (a : zp p) : 0 <= zval a < p.
Proof. pose proof (zok a) as H. unfold in_zp in H. apply andb_true_iff in H as [H1 H2]. lia. Qed.

(** A modulus known to be at least 2, by a boolean so that it computes. *)
Record modulus := mkMod { mval :> Z; mok : (1 <? mval) = true }.

Lemma mod_in_zp (p : modulus) z : in_zp p (z mod p) = true.
Proof.
  destruct p as [p Hp]; simpl. unfold in_zp. apply Z.ltb_lt in Hp.
  pose proof (Z.mod_pos_bound z p ltac:(lia)). apply andb_true_iff; split; [apply Z.leb_le|apply Z.ltb_lt]; lia.
Qed.

(** the proof itself, made to compute to [eq_refl] so that values of [zp] can be
    compared by evaluation *)
Definition canon (b : bool) : b = true -> b = true :=
  match b with true => fun _ => eq_refl | false => fun h => h end.

Definition zmod (p : modulus) (z : Z) : zp p := mkZp (z mod p) (canon _ (mod_in_zp p z)).

(** Extended Euclid: [egcd n a b u v] keeps a = u*x and b = v*x modulo p. *)
Fixpoint egcd (n : nat) (a b u v : Z) : Z :=
  match n with
  | O => u
  | S n => if b =? 0 then u else egcd n b (a mod b) v (u - (a / b) * v)
  end.

Definition zinv (p x : Z) : Z := egcd (S (S (S (2 * Z.to_nat (Z.log2 p))))) p x 0 1.

Lemma egcd_spec p x : forall n a b u v,
  0 <= b < a -> a * b < 2 ^ Z.of_nat n -> rel_prime a b ->
  (p | a - u * x) -> (p | b - v * x) -> (p | 1 - egcd (S n) a b u v * x).
Proof.
  induction n as [|n IH]; intros a b u v Hb Hn Hr Ha Hv.
  - assert (b = 0) by (change (2 ^ Z.of_nat 0) with 1 in Hn; nia). subst b. simpl.
    assert (a = 1). { destruct Hr as [_ _ Hg]. specialize (Hg a ltac:(apply Z.divide_refl) ltac:(apply Z.divide_0_r)).
      apply Z.divide_1_r in Hg. lia. }
    subst a. exact Ha.
  - remember (S n) as sn. simpl. destruct (Z.eqb_spec b 0) as [->|Hne].
    + assert (a = 1). { destruct Hr as [_ _ Hg]. specialize (Hg a ltac:(apply Z.divide_refl) ltac:(apply Z.divide_0_r)).
        apply Z.divide_1_r in Hg. lia. }
      subst a. exact Ha.
    + subst sn. pose proof (Z.mod_pos_bound a b ltac:(lia)) as Hm. pose proof (Z.div_mod a b Hne) as Hd.
      assert (Hq : 1 <= a / b) by (apply Z.div_le_lower_bound; lia).
      apply IH.
      * lia.
      * rewrite Nat2Z.inj_succ, Z.pow_succ_r in Hn by lia. nia.
      * apply rel_prime_sym. apply rel_prime_mod; [lia|exact Hr].
      * exact Hv.
      * replace (a mod b - (u - a / b * v) * x) with ((a - u * x) - (a / b) * (b - v * x)) by lia.
        apply Z.divide_sub_r; [exact Ha|]. apply Z.divide_mul_r. exact Hv.
Qed.

Lemma zinv_spec p x : prime p -> 0 < x < p -> (p | 1 - zinv p x * x).
Proof.
  intros Hp Hx. unfold zinv. apply egcd_spec.
  - lia.
  - pose proof (Z.log2_spec p ltac:(lia)) as Hl.
    replace (Z.of_nat (S (S (2 * Z.to_nat (Z.log2 p))))) with (Z.succ (Z.log2 p) + Z.succ (Z.log2 p))
      by (pose proof (Z.log2_nonneg p); lia).
    rewrite Z.pow_add_r by (pose proof (Z.log2_nonneg p); lia). nia.
  - apply rel_prime_sym. apply rel_prime_le_prime; [exact Hp|lia].
  - exists 1. lia.
  - exists 0. lia.
Qed.

Section Field.
Variable p : modulus.

Definition zp_add (a b : zp p) := zmod p (zval a + zval b).
Definition zp_sub (a b : zp p) := zmod p (zval a - zval b).
Definition zp_mul (a b : zp p) := zmod p (zval a * zval b).
Definition zp_neg (a : zp p) := zmod p (- zval a).
Definition zp_inv (a : zp p) := zmod p (zinv p (zval a)).
Definition zp_eqb (a b : zp p) := zval a =? zval b.

(** [From<i32>] for a scalar type, /repo/src/core/bilinear_map/bls12_381.rs:76-85:
    the absolute value as u64, negated when the sign is negative. *)
Definition zp_of_i32 (z : Z) : zp p :=
  if z <? 0 then zp_neg (zmod p (Z.abs z)) else zmod p z.

Definition zp_ops : FieldOps :=
  mkFieldOps (zp p) (zmod p 0) (zmod p 1) zp_add zp_sub zp_mul zp_neg zp_inv zp_eqb zp_of_i32.

Lemma zmod_eq a b : a mod p = b mod p <-> zmod p a = zmod p b.
Proof.
  split; intros H; [apply zp_eq; exact H|]. apply (f_equal zval) in H. exact H.
Qed.

Lemma p_pos : 1 < p.
Proof. apply Z.ltb_lt. apply mok. Qed.

Lemma zmod_val (a : zp p) : zmod p (zval a) = a.
Proof. apply zp_eq. simpl. apply Z.mod_small. apply zp_range. Qed.

Lemma zp_ring : ring_theory (zmod p 0) (zmod p 1) zp_add zp_mul zp_sub zp_neg eq.
Proof.
  pose proof p_pos as Hp.
  constructor; intros; apply zp_eq; simpl;
    rewrite ?Zplus_mod_idemp_l, ?Zplus_mod_idemp_r, ?Zmult_mod_idemp_l, ?Zmult_mod_idemp_r.
  - apply Z.mod_small. pose proof (zp_range p x). lia.
  - f_equal; lia.
  - f_equal; lia.
  - rewrite Z.mul_1_l. apply Z.mod_small, zp_range.
  - f_equal; lia.
  - f_equal; lia.
  - rewrite <- ?Zplus_mod. f_equal; lia.
  - f_equal; lia.
  - f_equal; lia.
Qed.

Hypothesis p_prime : prime p.

Lemma zp_field : field_theory (@f0 zp_ops) f1 fadd fmul fsub fneg (fun a b => fmul a (finv b)) finv eq.
Proof.
  pose proof p_pos as Hp.
  constructor; simpl.
  - apply zp_ring.
  - intros H. apply (f_equal zval) in H. simpl in H. rewrite Z.mod_0_l, Z.mod_1_l in H by lia. discriminate.
  - reflexivity.
  - intros a Ha. apply zp_eq. simpl. rewrite Zmult_mod_idemp_l.
    pose proof (zp_range p a) as Hr.
    assert (zval a <> 0). { intros E. apply Ha. apply zp_eq. simpl. rewrite Z.mod_0_l by lia. exact E. }
    destruct (zinv_spec p (zval a) p_prime ltac:(lia)) as [k Hk].
    replace (zinv p (zval a) * zval a) with (1 + (- k) * p) by lia. apply Z_mod_plus_full.
Qed.

Lemma of_Z_zmod z : @of_Z zp_ops z = zmod p z.
Proof.
  assert (M : ring_morph (zmod p 0) (zmod p 1) zp_add zp_mul zp_sub zp_neg eq
             Z0 1%Z Z.add Z.mul Z.sub Z.opp Zeq_bool (@of_Z zp_ops)).
  { apply gen_phiZ_morph; [apply Eqsth|apply Eq_ext|apply zp_ring]. }
  assert (Hs : forall a, @of_Z zp_ops (Z.succ a) = zp_add (@of_Z zp_ops a) (zmod p 1)).
  { intros a. unfold Z.succ. rewrite (morph_add M), (morph1 M). reflexivity. }
  assert (Hsm : forall a, zmod p (Z.succ a) = zp_add (zmod p a) (zmod p 1)).
  { intros a. apply zp_eq. simpl. rewrite <- Zplus_mod. reflexivity. }
  induction z using Z.peano_ind.
  - apply (morph0 M).
  - rewrite Hs, Hsm. congruence.
  - replace z with (Z.succ (Z.pred z)) in IHz by lia. rewrite Hs, Hsm in IHz.
    pose proof zp_ring as R.
    assert (Hc : forall a b : zp p, zp_add a (zmod p 1) = zp_add b (zmod p 1) -> a = b).
    { intros a b H. apply (f_equal (fun x => zp_sub x (zmod p 1))) in H.
      assert (E : forall c, zp_sub (zp_add c (zmod p 1)) (zmod p 1) = c).
      { intros c. rewrite (Rsub_def R), <- (Radd_assoc R), (Ropp_def R), (Radd_comm R). apply (Radd_0_l R). }
      rewrite !E in H. exact H. }
    apply Hc. exact IHz.
Qed.

Lemma zp_of_i32_spec z : zp_of_i32 z = zmod p z.
Proof.
  unfold zp_of_i32. destruct (Z.ltb_spec z 0) as [H|H]; [|reflexivity].
  apply zp_eq. simpl. rewrite <- (Z.sub_0_l ((Z.abs z) mod p)), Zminus_mod_idemp_r. f_equal. lia.
Qed.

Lemma zp_laws : FieldLaws zp_ops.
Proof.
  constructor.
  - apply zp_field.
  - intros a b. simpl. unfold zp_eqb. rewrite Z.eqb_eq. split; [apply zp_eq|congruence].
  - intros z _. rewrite of_Z_zmod. apply zp_of_i32_spec.
Qed.
End Field.

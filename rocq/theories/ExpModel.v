(** A concrete bilinear map: each group element is represented by its exponent
    with respect to the generator. It meets all the laws, so the hypotheses of
    the theorems are satisfiable, and it computes, so the examples run. *)
From Coq Require Import String NArith ZArith Znumtheory Bool Strings.Byte Lia Field_theory Field List.
From Verif Require Import Prelude Field Bilinear Zp.
Import ListNotations.

Definition exp_model (K : FieldOps) (enc : list byte -> outcome K) : BilinearMap :=
  mkBilinearMap K K K K K
    enc
    (fun x => (x, x))
    (fun x => x)
    (fun a b => (fadd a b, fadd a b))
    fmul
    (fun x => x)
    fmul
    (fun x => x)
    fmul
    fadd
    fsub
    (fun d e a => fold_right (fun x s => fadd (fmul (fmul (fst (fst x)) (snd (fst x))) (snd x)) s) f0
                    (combine (combine d e) a))
    (fun x => x).

Lemma exp_model_laws K enc : FieldLaws K -> BilinearLaws (exp_model K enc).
Proof.
  intros KL. constructor; simpl; auto; try (intros; eauto; fail).
  intros l. f_equal. induction l as [|[[a b] c] t IH]; simpl; [reflexivity|]. rewrite IH. reflexivity.
Qed.

(** The field of 101 elements, for examples. *)
Definition m101 : modulus := mkMod 101 eq_refl.

Definition prime_test (p : Z) : bool :=
  (1 <? p)%Z && forallb (fun k => negb (Z.eqb (Z.gcd (Z.of_nat k) p) 0) && Z.eqb (Z.gcd (Z.of_nat k) p) 1)
                  (seq 1 (Z.to_nat p - 1)).

Lemma prime_test_ok p : prime_test p = true -> prime p.
Proof.
  intros H. apply andb_true_iff in H as [Hp H]. apply Z.ltb_lt in Hp. rewrite forallb_forall in H.
  constructor; [lia|]. intros n Hn. specialize (H (Z.to_nat n)).
  rewrite in_seq in H. specialize (H ltac:(lia)). apply andb_true_iff in H as [_ H]. apply Z.eqb_eq in H.
  rewrite Z2Nat.id in H by lia. apply Zgcd_1_rel_prime. exact H.
Qed.

Lemma prime_101 : prime m101.
Proof. apply prime_test_ok. vm_compute. reflexivity. Qed.

(** Messages for the examples: the first byte. *)
Definition enc101 (msg : list byte) : outcome (zp m101) :=
  match msg with
  | [] => Ok (zmod m101 0)
  | [b] => Ok (zmod m101 (Z.of_N (Byte.to_N b)))
  | _ => Err (InvalidSize "message")
  end.

Definition toy : BilinearMap := exp_model (zp_ops m101) enc101.

Lemma toy_laws : BilinearLaws toy.
Proof. apply exp_model_laws. apply zp_laws. exact prime_101. Qed.

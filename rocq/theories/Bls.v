(** The scalars of BLS12-381: the field of integers modulo the group order, their
    32-byte form, and the encoding of messages,
    /repo/src/core/bilinear_map/bls12_381.rs:17-121 and 249-260. *)
From Coq Require Import String NArith ZArith Znumtheory Bool Lia Strings.Byte List.
From Verif Require Import Prelude Field Bilinear Zp ExpModel Primality Codec SchemeCodec CodecProofs SchemeCodecProofs.
Import ListNotations.
Local Open Scope Z_scope.

(** cosmian_bls12_381::Scalar: integers modulo the order of the groups, prime by
    [bls_r_prime]. The arithmetic of the crate itself is not modelled; the
    operators of bls12_381.rs:34-74 only forward to it. *)
Definition bls_mod : modulus := mkMod bls_r eq_refl.
Definition bls_K : FieldOps := zp_ops bls_mod.

Lemma bls_K_laws : FieldLaws bls_K.
Proof. apply zp_laws. exact bls_r_prime. Qed.

(** little-endian bytes of a non-negative integer *)
Fixpoint to_le (n : nat) (z : Z) : list byte :=
  match n with
  | O => []
  | S n => byte_of (Z.to_N (z mod 256)) :: to_le n (z / 256)
  end.
Fixpoint from_le (b : list byte) : Z :=
  match b with
  | [] => 0
  | x :: t => Z.of_N (Byte.to_N x) + 256 * from_le t
  end.

(** Scalar::to_bytes and Scalar::from_bytes of the external crate (contract from
    its documentation: little-endian, 32 bytes, refused when not canonical) *)
Definition bls_scalar_form : compressed bls_K := mkCompressed
  (fun s : zp bls_mod => to_le 32 (zval s))
  (fun b => if (Nat.eqb (length b) 32) && (from_le b <? bls_r) then Some (zmod bls_mod (from_le b)) else None).

(** impl AsBytes for Scalar, bls12_381.rs:93-121 *)
Definition bls_scalar_codec : codec bls_K :=
  fixed_codec 32 "Invalid scalar element" "Failed deserializing scalar" 32 bls_scalar_form.

(** msg_to_scalar, bls12_381.rs:249-260. The conversion of the 32-byte slice to an
    array cannot fail. *)
Definition msg_scalar {A} (x : compressed A) (msg : list byte) : outcome A :=
  if (32 <? blen msg)%N then Err (InvalidSize "message too long")
  else match from_compressed x (resize msg 32 x00) with
       | None => Err ConversionFailed
       | Some a => Ok a
       end.

(** The instance used to compute: exponents instead of points, with the scalars
    and the message encoding of the curve. *)
Definition bls_exp : BilinearMap := exp_model bls_K (msg_scalar bls_scalar_form).

Lemma bls_exp_laws : BilinearLaws bls_exp.
Proof. apply exp_model_laws. exact bls_K_laws. Qed.

(** ** Proofs *)
Lemma to_le_length n : forall z, length (to_le n z) = n.
Proof. induction n as [|n IH]; intros z; simpl; [reflexivity|]. f_equal. apply IH. Qed.

Lemma from_to_le n : forall z, 0 <= z < 256 ^ Z.of_nat n -> from_le (to_le n z) = z.
Proof.
  induction n as [|n IH]; intros z Hz; [simpl in *; lia|]. cbn [to_le from_le]. rewrite Nat2Z.inj_succ, Z.pow_succ_r in Hz by lia.
  rewrite IH by (split; [apply Z.div_pos; lia|apply Z.div_lt_upper_bound; lia]).
  pose proof (Z.mod_pos_bound z 256 ltac:(lia)). pose proof (Z.div_mod z 256 ltac:(lia)).
  rewrite to_N_byte_of, N.mod_small by lia. lia.
Qed.

Lemma from_le_range b : 0 <= from_le b < 256 ^ Z.of_nat (length b).
Proof.
  induction b as [|x t IH]; [simpl; lia|]. cbn [from_le length]. rewrite Nat2Z.inj_succ, Z.pow_succ_r by lia.
  pose proof (byte_range x). lia.
Qed.

Lemma to_from_le b : to_le (length b) (from_le b) = b.
Proof.
  induction b as [|x t IH]; [reflexivity|]. cbn [from_le length to_le]. pose proof (byte_range x).
  replace (Z.of_N (Byte.to_N x) + 256 * from_le t) with (Z.of_N (Byte.to_N x) + from_le t * 256) by lia.
  rewrite Z.mod_add, Z.div_add by lia. rewrite Z.mod_small, Z.div_small by lia. rewrite N2Z.id, byte_of_to_N, Z.add_0_l, IH.
  reflexivity.
Qed.

Lemma from_le_app a b : from_le (a ++ b) = from_le a + 256 ^ Z.of_nat (length a) * from_le b.
Proof.
  induction a as [|x t IH]; [cbn [app from_le length Z.of_nat]; rewrite Z.pow_0_r; lia|]. cbn [app from_le length]. rewrite IH, Nat2Z.inj_succ, Z.pow_succ_r by lia. ring.
Qed.

Lemma from_le_zeros n : from_le (repeat x00 n) = 0.
Proof. induction n as [|n IH]; [reflexivity|]. cbn [repeat from_le]. rewrite IH. reflexivity. Qed.

Lemma bls_r_256 : bls_r < 256 ^ Z.of_nat 32.
Proof. vm_compute. reflexivity. Qed.

Lemma from_bytes_some b a : from_compressed bls_scalar_form b = Some a <->
  length b = 32%nat /\ from_le b < bls_r /\ zval a = from_le b.
Proof.
  cbn [bls_scalar_form from_compressed]. pose proof (from_le_range b) as R.
  destruct (Nat.eqb_spec (length b) 32) as [E|E]; cbn [andb]; [|split; [discriminate|tauto]].
  destruct (Z.ltb_spec (from_le b) bls_r) as [H|H]; [|split; [discriminate|intros (_ & H2 & _); lia]].
  assert (V : zval (zmod bls_mod (from_le b)) = from_le b)
    by (cbn [zmod zval]; apply Z.mod_small; change (mval bls_mod) with bls_r; lia).
  split.
  - intros Q. assert (zmod bls_mod (from_le b) = a) by congruence. subst a. auto.
  - intros (_ & _ & Q). assert (W : zmod bls_mod (from_le b) = a) by (apply zp_eq; congruence). rewrite W. reflexivity.
Qed.

Lemma bls_zval_range (a : zp bls_mod) : 0 <= zval a < bls_r.
Proof. exact (zp_range _ a). Qed.

Lemma bls_scalar_form_ok : form_ok 32 bls_scalar_form (fun _ => True).
Proof.
  split.
  - intros a. unfold blen. cbn [bls_scalar_form to_compressed]. rewrite to_le_length. reflexivity.
  - intros a _. apply from_bytes_some. cbn [bls_scalar_form to_compressed]. pose proof (bls_zval_range a). pose proof bls_r_256.
    rewrite to_le_length, from_to_le by lia. repeat split; lia.
Qed.

(** the bytes accepted are the ones produced *)
Lemma bls_scalar_canonical b a : from_compressed bls_scalar_form b = Some a -> to_compressed bls_scalar_form a = b.
Proof.
  intros H. apply from_bytes_some in H as (L & _ & V). cbn [bls_scalar_form to_compressed]. rewrite V, <- L. apply to_from_le.
Qed.

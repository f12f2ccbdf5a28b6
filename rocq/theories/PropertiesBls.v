(** Properties of scalars and message encoding (C28-C30). *)
From Coq Require Import String NArith ZArith Znumtheory Bool Lia Strings.Byte List.
From Verif Require Import Prelude Field Bilinear Zp ExpModel Primality Codec SchemeCodec CodecProofs SchemeCodecProofs Bls.
Import ListNotations.
Local Open Scope Z_scope.

(** The integer written by the first 32 bytes, least significant byte first. *)
Definition written (bytes : list byte) : Z :=
  fold_right Z.add 0 (map (fun i => Z.of_N (Byte.to_N (nth i bytes x00)) * 256 ^ Z.of_nat i) (seq 0 32)).

Lemma written_from b : forall k, fold_right Z.add 0 (map (fun i => Z.of_N (Byte.to_N (nth (i - k) b x00)) * 256 ^ Z.of_nat i) (seq k (length b)))
  = 256 ^ Z.of_nat k * from_le b.
Proof.
  induction b as [|x t IH]; intros k; [simpl; lia|]. cbn [length seq map fold_right from_le].
  rewrite Nat.sub_diag. cbn [nth].
  rewrite (map_ext_in _ (fun i => Z.of_N (Byte.to_N (nth (i - S k) t x00)) * 256 ^ Z.of_nat i)).
  - rewrite IH, Nat2Z.inj_succ, Z.pow_succ_r by lia. ring.
  - intros i Hi. apply in_seq in Hi. replace (i - k)%nat with (S (i - S k)) by lia. reflexivity.
Qed.

Lemma written_le b : (32 <= length b)%nat -> written b = from_le (firstn 32 b).
Proof.
  intros H. pose proof (written_from (firstn 32 b) 0) as W. rewrite firstn_length_le in W by exact H. rewrite Z.pow_0_r, Z.mul_1_l in W.
  rewrite <- W. unfold written. f_equal. apply map_ext_in. intros i Hi. apply in_seq in Hi. rewrite Nat.sub_0_r. do 2 f_equal.
  rewrite <- (firstn_skipn 32 b) at 1. rewrite app_nth1; [reflexivity|rewrite firstn_length_le by exact H; lia].
Qed.

(** ** C28 *)
Theorem C28_scalar_decoding (bytes : list byte) :
  (forall s, dec bls_scalar_codec bytes = Ok s <->
     (32 <= length bytes)%nat /\ written bytes < bls_r /\ zval s = written bytes) /\
  (forall s, dec bls_scalar_codec bytes = Ok s -> enc bls_scalar_codec s = Ok (firstn 32 bytes)) /\
  no_panic (dec bls_scalar_codec bytes).
Proof.
  unfold bls_scalar_codec, fixed_codec. cbn [dec enc]. change (N.to_nat 32) with 32%nat.
  destruct (N.ltb_spec (blen bytes) 32) as [H|H]; unfold blen in H.
  - split; [|split; [|apply no_panic_err]].
    + intros s. split; [discriminate|lia].
    + discriminate.
  - assert (L : (32 <= length bytes)%nat) by lia. rewrite (written_le bytes L).
    pose proof (firstn_length_le bytes L) as FL.
    destruct (from_compressed bls_scalar_form (firstn 32 bytes)) as [a|] eqn:E.
    + pose proof (bls_scalar_canonical _ _ E) as C. apply from_bytes_some in E as (_ & R & V).
      split; [|split; [|apply no_panic_ok]].
      * intros s. split.
        -- intros Q. apply Ok_inj in Q. subst s. auto.
        -- intros (_ & _ & Q). assert (W : a = s) by (apply zp_eq; congruence). rewrite W. reflexivity.
      * intros s Q. apply Ok_inj in Q. subst s. rewrite C. reflexivity.
    + split; [|split; [|apply no_panic_err]].
      * intros s. split; [discriminate|]. intros (_ & R & V).
        assert (Q : from_compressed bls_scalar_form (firstn 32 bytes) = Some s) by (apply from_bytes_some; auto). congruence.
      * discriminate.
Qed.

(** It is the encoding of scalars inside the keys, for any bilinear map over these scalars and any encoding of its
    points. *)
Theorem C28_scalar_in_keys G2' G3' Gt' m2 m3 mt :
  @scalar_codec bls_exp (mkForms bls_exp bls_scalar_form G2' G3' Gt' m2 m3 mt) = bls_scalar_codec.
Proof. reflexivity. Qed.

Theorem C28_scalar_roundtrip (s : zp bls_mod) :
  exists b, enc bls_scalar_codec s = Ok b /\ length b = 32%nat /\ written b = zval s /\
    forall rest, dec bls_scalar_codec (b ++ rest) = Ok s.
Proof.
  exists (to_le 32 (zval s)). split; [reflexivity|]. split; [apply to_le_length|].
  pose proof (bls_zval_range s). pose proof bls_r_256.
  assert (W : forall rest, written (to_le 32 (zval s) ++ rest) = zval s).
  { intros rest. rewrite written_le by (rewrite app_length, to_le_length; lia).
    pose proof (to_le_length 32 (zval s)) as L. rewrite <- L at 1. rewrite firstn_app, firstn_all, Nat.sub_diag. rewrite firstn_O, app_nil_r.
    apply from_to_le. lia. }
  split; [rewrite <- (app_nil_r (to_le 32 (zval s))); apply W|].
  intros rest. apply (proj1 (C28_scalar_decoding _)). rewrite app_length, to_le_length, W. repeat split; lia.
Qed.

(** ** C29 *)
(** equal up to trailing zero bytes *)
Definition same_padded (a b : list byte) : Prop :=
  exists m n, a ++ repeat x00 m = b ++ repeat x00 n.

(** A byte form that is injective on the strings it accepts, as the one of the
    scalars is ([bls_scalar_canonical]). *)
Definition canonical {A} (x : compressed A) : Prop :=
  forall b a, from_compressed x b = Some a -> to_compressed x a = b.

Lemma msg_scalar_inv {A} (x : compressed A) msg a : msg_scalar x msg = Ok a ->
  (length msg <= 32)%nat /\ from_compressed x (msg ++ repeat x00 (32 - length msg)) = Some a.
Proof.
  unfold msg_scalar. destruct (N.ltb_spec 32 (blen msg)) as [H|H]; [discriminate|]. unfold blen in H.
  rewrite resize_le by lia. destruct (from_compressed _ _) as [c|] eqn:E; [|discriminate].
  intros Q. apply Ok_inj in Q. subst c. split; [lia|reflexivity].
Qed.

Theorem C29_equal_plaintexts_same_padded (B : BilinearMap) (BL : BilinearLaws B) (x : compressed (bm_K B)) m1 m2 g :
  canonical x -> msg_to_scalar B = msg_scalar x ->
  msg_to_gt B m1 = Ok g -> msg_to_gt B m2 = Ok g ->
  same_padded m1 m2 /\ (length m1 = length m2 -> m1 = m2).
Proof.
  intros C E. unfold msg_to_gt. rewrite E. intros H1 H2.
  apply bind_ok in H1 as (a & H1 & Q1). apply bind_ok in H2 as (b & H2 & Q2). apply Ok_inj in Q1, Q2.
  assert (a = b) by (apply (bl_gt_inj B BL); congruence). subst b.
  apply msg_scalar_inv in H1 as (L1 & H1). apply msg_scalar_inv in H2 as (L2 & H2).
  apply C in H1, H2. assert (Eq : m1 ++ repeat x00 (32 - length m1) = m2 ++ repeat x00 (32 - length m2)) by congruence.
  split; [exists (32 - length m1)%nat, (32 - length m2)%nat; exact Eq|].
  intros L. rewrite L in Eq. apply app_inv_tail in Eq. exact Eq.
Qed.

(** every accepted message shorter than 32 bytes collides with a longer one *)
Theorem C29_message_encoding_refuted (B : BilinearMap) (x : compressed (bm_K B)) msg g :
  msg_to_scalar B = msg_scalar x -> (length msg < 32)%nat -> msg_to_gt B msg = Ok g ->
  msg_to_gt B (msg ++ [x00]) = Ok g /\ msg ++ [x00] <> msg.
Proof.
  intros E L H. split.
  - rewrite <- H. unfold msg_to_gt. rewrite E. f_equal. unfold msg_scalar.
    unfold blen. rewrite app_length. cbn [length].
    destruct (N.ltb_spec 32 (N.of_nat (length msg))) as [Hx|_]; [lia|].
    destruct (N.ltb_spec 32 (N.of_nat (length msg + 1))) as [Hx|_]; [lia|].
    rewrite !resize_le by (rewrite ?app_length; cbn [length]; lia).
    rewrite app_length. cbn [length]. rewrite <- app_assoc.
    replace (32 - length msg)%nat with (S (32 - (length msg + 1))) by lia. reflexivity.
  - intros Q. apply (f_equal (@length byte)) in Q. rewrite app_length in Q. cbn [length] in Q. lia.
Qed.

(** what is accepted: messages of at most 32 bytes that, padded, are below the group order *)
Theorem C29_accepted_messages (msg : list byte) :
  (is_ok (msg_scalar bls_scalar_form msg) <-> (length msg <= 32)%nat /\ written (msg ++ repeat x00 32) < bls_r) /\
  no_panic (msg_scalar bls_scalar_form msg).
Proof.
  unfold msg_scalar. destruct (N.ltb_spec 32 (blen msg)) as [H|H]; unfold blen in H.
  - split; [split; [intros [a Q]; discriminate|lia]|apply no_panic_err].
  - assert (W : written (msg ++ repeat x00 32) = from_le (resize msg 32 x00)).
    { rewrite written_le by (rewrite app_length, repeat_length; lia). f_equal. rewrite firstn_app.
      unfold resize. f_equal. rewrite <- (firstn_all (repeat x00 (32 - length msg))), repeat_length.
      replace (repeat x00 32) with (repeat x00 (32 - length msg) ++ repeat x00 (length msg))
        by (rewrite <- repeat_app; f_equal; lia).
      rewrite firstn_app, repeat_length, Nat.sub_diag, firstn_O, app_nil_r. reflexivity. }
    rewrite W. destruct (from_compressed bls_scalar_form (resize msg 32 x00)) as [a|] eqn:E.
    + split; [|apply no_panic_ok]. apply from_bytes_some in E as (_ & R & _). split; [intros _; split; [lia|exact R]|intros _; eexists; reflexivity].
    + split; [|apply no_panic_err]. split; [intros [a Q]; discriminate|]. intros (_ & R). exfalso.
      assert (Q : from_compressed bls_scalar_form (resize msg 32 x00) = Some (zmod bls_mod (from_le (resize msg 32 x00)))).
      { apply from_bytes_some. rewrite resize_length. split; [reflexivity|]. split; [exact R|].
        cbn [zmod zval]. apply Z.mod_small. pose proof (from_le_range (resize msg 32 x00)). change (mval bls_mod) with bls_r. lia. }
      congruence.
Qed.

(** ** C30 *)
Theorem C30_from_i32 (z : Z) : i32_range z ->
  zval (of_i32 z : bls_K) = z mod bls_r /\
  (forall z', i32_range z' -> (of_i32 z : bls_K) = of_i32 z' -> z = z') /\
  (forall z', (of_i32 (z + z') : bls_K) = fadd (of_i32 z) (of_i32 z') /\ (of_i32 (z * z') : bls_K) = fmul (of_i32 z) (of_i32 z')).
Proof.
  intros H. change (@of_i32 bls_K) with (zp_of_i32 bls_mod). rewrite zp_of_i32_spec. split; [reflexivity|].
  split.
  - intros z' H' E. rewrite zp_of_i32_spec in E. apply (f_equal zval) in E. cbn [zmod zval] in E. change (mval bls_mod) with bls_r in E.
    unfold i32_range, i32_min, i32_max in *.
    assert (Hr : 2 ^ 33 < bls_r) by (vm_compute; reflexivity).
    assert (D : (z - z') mod bls_r = 0) by (rewrite Zminus_mod, E, Z.sub_diag; reflexivity).
    destruct (Z.lt_trichotomy z z') as [L|[L|L]]; [|exact L|].
    + apply Z.mod_opp_l_z in D; [|lia]. rewrite Z.mod_small in D by lia. lia.
    + rewrite Z.mod_small in D by lia. lia.
  - intros z'. rewrite !zp_of_i32_spec. split; apply zp_eq; cbn [fadd fmul bls_K zp_ops zp_add zp_mul zmod zval].
    + rewrite <- Z.add_mod by (vm_compute; discriminate). reflexivity.
    + rewrite <- Z.mul_mod by (vm_compute; discriminate). reflexivity.
Qed.

(** ** Examples *)
Example C28_example :
  dec bls_scalar_codec (to_le 32 (bls_r - 1) ++ [x07]) = Ok (zmod bls_mod (-1)) /\
  is_err (dec bls_scalar_codec (to_le 32 bls_r)) /\ is_err (dec bls_scalar_codec (repeat x00 31)) /\
  written (to_le 32 (bls_r - 1)) = bls_r - 1.
Proof.
  split; [apply (proj1 (C28_scalar_decoding _)); vm_compute; split; [lia|split; reflexivity]|].
  split; [eexists; vm_compute; reflexivity|]. split; [eexists; vm_compute; reflexivity|]. vm_compute. reflexivity.
Qed.

Definition text (s : string) : list byte := list_byte_of_string s.

Example C29_example :
  canonical bls_scalar_form /\
  is_ok (msg_to_gt bls_exp (text "test")) /\
  msg_to_gt bls_exp (text "test") = msg_to_gt bls_exp (text "test" ++ [x00; x00]) /\
  is_err (msg_to_gt bls_exp (repeat xff 32)) /\ is_err (msg_to_gt bls_exp (repeat x01 33)).
Proof.
  split; [exact bls_scalar_canonical|].
  split; [eexists; vm_compute; reflexivity|]. split; [vm_compute; reflexivity|].
  split; eexists; vm_compute; reflexivity.
Qed.

Example C30_example : zval (of_i32 i32_min : bls_K) = bls_r - 2147483648 /\ zval (of_i32 (-1) : bls_K) = bls_r - 1 /\
  i32_range i32_min.
Proof. split; [vm_compute; reflexivity|]. split; [vm_compute; reflexivity|]. split; vm_compute; discriminate. Qed.

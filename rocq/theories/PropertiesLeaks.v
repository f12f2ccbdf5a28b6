(** What the bytes of headers and keys show to anybody: C90. *)
From Coq Require Import String NArith ZArith Bool Lia Strings.Byte List.
From Verif Require Import Prelude Field LinAlg Msp Spec MspProofs Bilinear Scheme SchemeSpec SchemeProofs SchemeTheorems
  Zp ExpModel PropertiesScheme Codec CodecProofs SchemeCodec SchemeCodecProofs PropertiesCodec
  Policy PolicySpec PolicyProofs Engine EngineSpec EngineProofs PropertiesEngine Hybrid HybridSpec PropertiesHybrid Properties32.
Import ListNotations.
Local Open Scope N_scope.

(** The numbers written from position [at] of a byte string: a count in four bytes,
    most significant first, then as many numbers of four bytes. *)
Definition number (b : list byte) (at_ : nat) : N := from_be (firstn 4 (skipn at_ b)).
Definition numbers (b : list byte) (at_ : nat) : list N :=
  map (fun i => number b (at_ + 4 + 4 * i)) (seq 0 (N.to_nat (number b at_))).

Lemma blen_be32 n : blen (be32 n) = 4.
Proof. reflexivity. Qed.

Lemma number_app a b k : (length a <= k)%nat -> number (a ++ b) k = number b (k - length a).
Proof. intros H. unfold number. rewrite skipn_app, skipn_all2 by exact H. reflexivity. Qed.

Lemma number_be32 n b : n < 4294967296 -> number (be32 n ++ b) 0 = n.
Proof.
  intros H. unfold number. rewrite skipn_O. change (firstn 4 (be32 n ++ b)) with (be32 n). apply from_be_be32. exact H.
Qed.

Lemma numbers_at front vals rest : N.of_nat (length vals) < 4294967296 -> (forall v, In v vals -> v < 4294967296) ->
  numbers (front ++ be32 (N.of_nat (length vals)) ++ concat (map be32 vals) ++ rest) (length front) = vals.
Proof.
  intros Hl Hv. unfold numbers. rewrite number_app by lia. rewrite Nat.sub_diag, number_be32 by exact Hl. rewrite Nat2N.id.
  transitivity (map (fun i => number (concat (map be32 vals) ++ rest) (4 * i)) (seq 0 (length vals))).
  { apply map_ext_in. intros i _. rewrite number_app by lia.
    replace (length front + 4 + 4 * i - length front)%nat with (4 + 4 * i)%nat by lia.
    rewrite number_app by (rewrite be32_length; lia). rewrite be32_length. f_equal. lia. }
  clear Hl. induction vals as [|v vals IH]; [reflexivity|].
  cbn [length seq map]. f_equal.
  - cbn [map concat]. rewrite <- app_assoc. apply number_be32. apply Hv. left. reflexivity.
  - rewrite <- seq_shift, map_map. rewrite <- IH at 2 by (intros w Hw; apply Hv; right; exact Hw).
    apply map_ext. intros i. cbn [map concat]. rewrite <- app_assoc, number_app by (rewrite be32_length; lia).
    rewrite be32_length. f_equal. lia.
Qed.

Section Leaks.
Variable B : BilinearMap.
Variable F : byte_forms B.
Variable fine : Gt B -> Prop.
Hypothesis HF : forms_ok F fine.
Variable shake : list byte -> nat -> list byte.
Variable S : sym_scheme.
Local Notation K := (bm_K B).
Implicit Types P : platform.

(** the front of a header *)
Lemma header_front P p (pk : master_public_key B) l meta random (s : K) nonce h :
  encrypt_hybrid_header S F shake P p pk l meta random s nonce = Ok h -> l <> [] -> N.of_nat (length l) < 4294967296 ->
  exists vals rest tail, attributes_values p l = Ok vals /\ length vals = length l /\
    eh_bytes h = be32 (296 + 52 * N.of_nat (length l)) ++ be32 (N.of_nat (length vals)) ++ concat (map be32 vals) ++ rest ++ tail /\
    blen rest = 4 + 48 * N.of_nat (length l) + 288 /\
    match meta with
    | None => tail = []
    | Some m => exists mb em, meta_to_bytes S m = Ok mb /\ sym_encrypt S (eh_key h) mb nonce None = Ok em /\
        tail = nonce ++ be32 (blen em) ++ em
    end.
Proof using HF.
  intros He Hl Hn.
  destruct (header_layout B F shake S P p pk l meta random s nonce h He) as (sk & tail & Eg & Lk & Ls & Eb & Et).
  unfold generate_symmetric_key in Eg. apply bind_ok in Eg as (ct & Ect & Eg). apply bind_ok in Eg as (b & Ec & Eg).
  apply bind_ok in Eg as (r & Er & Eg). assert (b = sk) by congruence. subst b. clear Eg.
  unfold eng_encrypt in Ect. apply bind_ok in Ect as (vals & Ev & Ect).
  destruct (encrypt_parts B _ _ _ _ _ _ Ect) as [Eg El].
  assert (Lv : length vals = length l).
  { apply mapM_length in Ev. exact Ev. }
  unfold ct_enc in Ec. apply bind_ok in Ec as (g & Egv & Ec). apply bind_ok in Ec as (ep & Eep & Ec).
  apply bind_ok in Ec as (ei & Eei & Ec). apply Ok_inj in Ec.
  rewrite Eg in Egv. destruct vals as [|v vals]; [destruct l; [contradiction|discriminate]|].
  assert (Hlt : N.of_nat (length (v :: vals)) < u32_modulus) by (rewrite Lv; exact Hn).
  destruct (vec_enc_ok u32_codec 4 _ u32_codec_ok (v :: vals) Hlt) as (bs & Ebs & _ & _ & Egv').
  rewrite Egv in Egv'. apply Ok_inj in Egv'. rename Egv' into Egw. symmetry in Egw.
  assert (Ebs' : bs = map be32 (v :: vals)).
  { apply mapM_ok_inv in Ebs. clear - Ebs. remember (v :: vals) as l. clear Heql. induction Ebs as [|a b l bs Hab _ IH]; [reflexivity|].
    cbn [map]. f_equal; [|exact IH]. change (Ok (be32 a) = Ok b) in Hab. apply Ok_inj in Hab. symmetry. exact Hab. }
  assert (Lei : blen ei = 4 + 48 * N.of_nat (length l)).
  { rewrite (vec_enc_len (g2_codec F) 48 _ (g2_ok F fine HF) (e_i ct) ei) by (try exact Eei; rewrite El, Lv; unfold u32_modulus; lia).
    destruct (e_i ct) as [|x t] eqn:Q; [rewrite Lv in El; destruct l; [contradiction|discriminate]|].
    unfold vec_len. rewrite El, Lv. cbn [clen g2_codec fixed_codec]. lia. }
  assert (Lep : blen ep = 288).
  { change (Ok (to_compressed (gt_form B F) (e_prime ct)) = Ok ep) in Eep. apply Ok_inj in Eep. subst ep. apply (gt_blen F fine HF). }
  exists (v :: vals), (ei ++ ep), tail. split; [exact Ev|]. split; [exact Lv|].
  assert (Lsk : blen sk = 296 + 52 * N.of_nat (length l)).
  { rewrite <- Ec, <- Egw, !blen_app, Lei, Lep, Ebs'. rewrite ?blen_be32.
    assert (Q : blen (concat (map be32 (v :: vals))) = 4 * N.of_nat (length l)).
    { rewrite <- Lv. clear. induction (v :: vals) as [|a t IH]; [reflexivity|]. cbn [map concat length]. rewrite blen_app, IH.
      rewrite ?blen_be32. lia. }
    rewrite Q. lia. }
  split; [|split; [rewrite blen_app; lia|]].
  - rewrite Eb, Lsk, <- Ec, <- Egw, Ebs'. rewrite <- !app_assoc. reflexivity.
  - destruct meta as [m|]; [|exact Et]. destruct Et as (mb & em & H1 & H2 & _ & H3). eauto.
Qed.

(** A header has a size that depends on the number of attributes and on the sizes of the
    nonce and of the encrypted metadata only. *)
Theorem C90_header_size P p (pk : master_public_key B) l meta random (s : K) nonce h :
  encrypt_hybrid_header S F shake P p pk l meta random s nonce = Ok h -> l <> [] -> N.of_nat (length l) < 4294967296 ->
  match meta with
  | None => blen (eh_bytes h) = 300 + 52 * N.of_nat (length l)
  | Some m => exists mb em, meta_to_bytes S m = Ok mb /\ sym_encrypt S (eh_key h) mb nonce None = Ok em /\
      blen (eh_bytes h) = 304 + 52 * N.of_nat (length l) + blen nonce + blen em
  end.
Proof using HF.
  intros He Hl Hn. destruct (header_front P p pk l meta random s nonce h He Hl Hn) as (vals & rest & tail & _ & Lv & E & Lr & Et).
  assert (Q : blen (concat (map be32 vals)) = 4 * N.of_nat (length l)).
  { rewrite <- Lv. clear. induction vals as [|a t IH]; [reflexivity|]. cbn [map concat length]. rewrite blen_app, IH.
    rewrite ?blen_be32. lia. }
  assert (T : blen (eh_bytes h) = 300 + 52 * N.of_nat (length l) + blen tail).
  { rewrite E, !blen_app, Q, Lr. rewrite ?blen_be32. lia. }
  destruct meta as [m|].
  - destruct Et as (mb & em & H1 & H2 & H3). exists mb, em. split; [exact H1|]. split; [exact H2|].
    rewrite T, H3, !blen_app. rewrite ?blen_be32. lia.
  - rewrite T, Et. change (blen []) with 0. lia.
Qed.

(** Anybody who has the policy, of the same or of a later version, reads in a header
    which attributes it was made for. *)
Theorem C90_attributes_hidden_refuted P n ops ops2 p p2 (pk : master_public_key B) l meta random (s : K) nonce h :
  n < 4294967296 -> run_ops ops (new_policy n) = Ok p -> run_ops ops2 p = Ok p2 ->
  encrypt_hybrid_header S F shake P p pk l meta random s nonce = Ok h -> l <> [] -> N.of_nat (length l) < 4294967296 ->
  attributes_values p l = Ok (numbers (eh_bytes h) 4) /\
  forall b, In b l <-> exists values v, heap_get p2 b = Some values /\ In v values /\ In v (numbers (eh_bytes h) 4).
Proof using HF.
  intros Hn Hp Hp2 He Hl Hlen. destruct (header_front P p pk l meta random s nonce h He Hl Hlen) as (vals & rest & tail & Ev & Lv & E & _).
  pose proof (inv_history n ops p Hp) as I.
  assert (Hmax : max_attribute_creations p = n) by (rewrite (run_max _ _ _ Hp); reflexivity).
  assert (Hv : forall v, In v vals -> v < 4294967296).
  { intros v Hv. pose proof (attributes_values_inv _ _ _ Ev) as Fg. destruct (Forall2_in_r _ _ _ _ Fg Hv) as (c & _ & h' & Eh & Hvh & _).
    destruct (i_heap _ _ I c h' Eh) as (_ & _ & Hr). specialize (Hr v Hvh). pose proof (i_last _ _ I). lia. }
  assert (R : numbers (eh_bytes h) 4 = vals).
  { rewrite E. change 4%nat with (length (be32 (296 + 52 * N.of_nat (length l)))). apply numbers_at; [rewrite Lv; exact Hlen|exact Hv]. }
  rewrite R. split; [exact Ev|]. intros b. symmetry. exact (hits_later ops ops2 p p2 l vals b I Hp2 Ev).
Qed.
End Leaks.

(** ** Examples *)
Definition lk_attrs : list attribute := [dept "HR"; level "Protected"].
Example C90_example :
  attributes_values pol_a lk_attrs = Ok [5; 1] /\
  numbers (eh_bytes (ex_header lk_attrs None)) 4 = [5; 1] /\
  blen (eh_bytes (ex_header lk_attrs None)) = 404 /\
  numbers (eh_bytes (ex_header lk_attrs (Some ex_meta))) 4 = [5; 1].
Proof.
  split; [vm_compute; reflexivity|]. split; [vm_compute; reflexivity|]. split; vm_compute; reflexivity.
Qed.

Print Assumptions C90_header_size.
Print Assumptions C90_attributes_hidden_refuted.

(** The memory that reading keys and ciphertexts takes, on machines of 64 bits: C136. *)
From Coq Require Import String NArith ZArith Bool Arith Lia Strings.Byte List.
From Verif Require Import Prelude Field LinAlg Msp Spec MspProofs Bilinear Scheme SchemeSpec SchemeProofs SchemeTheorems
  Zp ExpModel PropertiesScheme Codec CodecProofs SchemeCodec SchemeCodecProofs PropertiesCodec
  Policy PolicySpec PolicyProofs Engine EngineSpec EngineProofs PropertiesEngine Hybrid HybridSpec PropertiesHybrid PropertiesVersions Properties32 PropertiesWork Memory.
Import ListNotations.
Local Open Scope N_scope.

(** ** The metered functions return what the others return *)
Lemma fst_mbind {A B} (m : metered A) (k : A -> metered B) : fst (mbind m k) = bind (fst m) (fun a => fst (k a)).
Proof. unfold mbind. destruct (fst m); reflexivity. Qed.
Lemma bind_ext {A B} (m : outcome A) (k k' : A -> outcome B) : (forall a, k a = k' a) -> bind m k = bind m k'.
Proof. intros H. destruct m; cbn [bind]; auto. Qed.
Lemma mmapM_ext {A B} (f : A -> metered B) g l : (forall x, fst (f x) = g x) -> fst (mmapM f l) = mapM g l.
Proof.
  intros H. induction l as [|x l IH]; cbn [mmapM mapM]; [reflexivity|]. rewrite fst_mbind, H. apply bind_ext. intros y.
  rewrite fst_mbind, IH. reflexivity.
Qed.
Local Ltac same := repeat first
  [ rewrite fst_mbind; apply bind_ext; intros
  | match goal with |- fst (if ?b then _ else _) = _ => destruct b; [reflexivity|] end
  | match goal with |- fst (match ?p with pair _ _ => _ end) = _ => destruct p end
  | reflexivity ].
Lemma vec_read_result P {A} (c : codec A) bytes : fst (vec_read P c bytes) = vec_dec P c bytes.
Proof. unfold vec_read, vec_dec. destruct bytes as [|b bt]; [reflexivity|]. set (bytes := b :: bt). same. Qed.
Lemma msp_read_result P {I} (c : codec I) bytes : fst (msp_read P c bytes) = msp_dec P c bytes.
Proof.
  unfold msp_read, msp_dec. cbv zeta. same.
  rewrite fst_mbind. erewrite mmapM_ext; [reflexivity|]. intros r. reflexivity.
Qed.

(** ** Bounds *)
Lemma snd_free {A B} (x : outcome A) (k : A -> metered B) b : (forall a, x = Ok a -> snd (k a) <= b) -> snd (mbind (free x) k) <= b.
Proof. intros H. unfold mbind, free. cbn [fst snd]. destruct x; cbn [snd]; [rewrite N.add_0_l; apply H; reflexivity|lia|lia]. Qed.
Lemma snd_bind {A B} (m : metered A) (k : A -> metered B) b b' : snd m <= b -> (forall a, fst m = Ok a -> snd (k a) <= b') -> snd (mbind m k) <= b + b'.
Proof.
  intros H H'. unfold mbind. destruct (fst m) as [a| |] eqn:E; cbn [snd]; [|lia|lia]. specialize (H' a eq_refl). lia.
Qed.
Lemma snd_bind_ge {A B} (m : metered A) (k : A -> metered B) a : fst m = Ok a -> snd (k a) <= snd (mbind m k).
Proof. intros E. unfold mbind. rewrite E. cbn [snd]. lia. Qed.
Lemma step {A B} (m : metered A) (k : A -> metered B) a e b : fst m = Ok a -> fst (k a) = e /\ b <= snd (k a) -> fst (mbind m k) = e /\ b <= snd (mbind m k).
Proof. intros E [Q L]. split; [rewrite fst_mbind, E; exact Q|]. etransitivity; [exact L|]. apply snd_bind_ge. exact E. Qed.
Lemma snd_mmapM {A B} (f : A -> metered B) b l : (forall x, snd (f x) <= b) -> snd (mmapM f l) <= N.of_nat (length l) * b.
Proof.
  intros H. induction l as [|x l IH]; cbn [mmapM length]; [cbn; lia|].
  transitivity (b + (N.of_nat (length l) * b + 0)); [|lia]. apply snd_bind; [apply H|]. intros y _. apply snd_bind; [exact IH|]. intros ys _. cbn. lia.
Qed.

Lemma mapM_each {A B} (f : A -> outcome B) l x : (exists ys, mapM f l = Ok ys) -> In x l -> exists y, f x = Ok y.
Proof.
  induction l as [|a l IH]; intros (ys & E) Hx; [contradiction|]. cbn [mapM] in E. apply bind_ok in E as (y & Ey & E). apply bind_ok in E as (ys' & E' & _).
  destruct Hx as [->|Hx]; [eauto|]. apply IH; eauto.
Qed.
(** rows of [w] bytes each, asked for one after the other; a row is only read if it is
    there *)
Lemma rows_memory {A} (f : N -> metered A) w L n i :
  (forall r, snd (f r) <= w) ->
  (forall r, r < N.of_nat (i + n) -> r * w <= L -> (exists a, fst (f r) = Ok a) -> (r + 1) * w <= L) ->
  N.of_nat i * w <= L -> snd (mmapM f (map N.of_nat (seq i n))) + N.of_nat i * w <= L + w.
Proof.
  intros Hs Hf. revert i Hf. induction n as [|n IH]; intros i Hf Hi; cbn [seq map mmapM]; [cbn; lia|].
  unfold mbind at 1. specialize (Hs (N.of_nat i)). destruct (fst (f (N.of_nat i))) as [a| |] eqn:E; cbn [snd]; [|lia|lia].
  assert (Hi' : N.of_nat (Datatypes.S i) * w <= L).
  { replace (N.of_nat (Datatypes.S i)) with (N.of_nat i + 1) by lia. apply Hf; [lia|exact Hi|eauto]. }
  specialize (IH (Datatypes.S i)). 
  assert (Q : snd (mmapM f (map N.of_nat (seq (Datatypes.S i) n))) + N.of_nat (Datatypes.S i) * w <= L + w).
  { apply IH; [|exact Hi']. intros r Hr. apply Hf. lia. }
  assert (Q2 : snd (let$ ys := mmapM f (map N.of_nat (seq (Datatypes.S i) n)) in free (Ok (a :: ys))) <= snd (mmapM f (map N.of_nat (seq (Datatypes.S i) n)))).
  { unfold mbind. destruct (fst (mmapM f _)); cbn [snd free]; lia. }
  lia.
Qed.

Lemma skipn_memory (bytes : list byte) n : in_memory bytes -> in_memory (skipn n bytes) /\ blen (skipn n bytes) <= blen bytes.
Proof. unfold in_memory, blen. rewrite skipn_length. lia. Qed.

Section Bounds.
Variable P : platform.
Hypothesis HP : usize_bits P = 64.

Lemma modulus64 : usize_modulus P = 18446744073709551616.
Proof using HP. unfold usize_modulus. rewrite HP. reflexivity. Qed.

Lemma vec_memory {A} (c : codec A) k V r bytes : codec_ok c k V -> k <= 4096 -> msize c <= r * k -> in_memory bytes ->
  snd (vec_read P c bytes) <= 4 * r * blen bytes.
Proof using HP.
  intros C Hk Hm Hin. unfold vec_read. destruct bytes as [|b bt]; [cbn; lia|]. remember (b :: bt) as bytes. clear b bt Heqbytes.
  destruct (N.leb_spec (blen bytes) 4) as [|H4]; [cbn; lia|]. cbv zeta.
  set (n := from_be (firstn 4 bytes)). destruct (N.leb_spec u32_MAX n) as [|Hn]; [cbn; lia|]. unfold u32_MAX in Hn.
  apply snd_free. intros t0 Et. apply snd_free. intros x0 Ex. rewrite (ok_len _ _ _ C).
  apply slice_fromN_inv in Et as [_ ->]. pose proof (ok_dec_len _ _ _ _ _ C Ex) as L0. unfold blen in L0. rewrite skipn_len in L0.
  assert (L1 : 4 + k <= blen bytes) by (revert L0 H4; unfold blen; clear; lia).
  pose proof modulus64 as M64. pose proof (ok_pos _ _ _ C) as K1.
  assert (Small : 4 * msize c <= 4 * r * blen bytes).
  { transitivity (4 * (r * k)); [lia|]. rewrite <- N.mul_assoc. apply N.mul_le_mono_l, N.mul_le_mono_l. lia. }
  destruct (N.eq_dec n 0) as [E0|Hn0].
  - rewrite E0. apply snd_free. intros n1 _. apply snd_free. intros m _. apply snd_free. intros lim _.
    destruct (blen bytes <=? lim); [cbn; lia|]. rewrite <- (N.add_0_r (4 * r * blen bytes)). apply snd_bind; [exact Small|].
    intros u _. apply snd_free. intros rest _. cbn. lia.
  - rewrite usize_sub_exact by lia. apply snd_free. intros n1 E1. apply Ok_inj in E1. subst n1.
    assert (Hmul : (n - 1) * k <= 4294967295 * 4096) by (apply N.mul_le_mono; lia).
    rewrite usize_mul_exact by lia. apply snd_free. intros m E1. apply Ok_inj in E1. subst m.
    rewrite usize_add_exact by lia. apply snd_free. intros lim E1. apply Ok_inj in E1. subst lim.
    destruct (N.leb_spec (blen bytes) (4 + (n - 1) * k)) as [|Hlim]; [cbn; lia|].
    rewrite <- (N.add_0_r (4 * r * blen bytes)). apply snd_bind; [|intros u _; apply snd_free; intros rest _; cbn; lia].
    unfold takes. cbn [snd]. destruct (N.eqb_spec n 0) as [|_]; [contradiction|].
    transitivity (n * (r * k)); [apply N.mul_le_mono_l; exact Hm|].
    assert (Q : n * k = (n - 1) * k + k) by (rewrite N.mul_sub_distr_r; nia).
    replace (n * (r * k)) with (r * (n * k)) by lia. rewrite (N.mul_comm 4 r), <- N.mul_assoc. apply N.mul_le_mono_l. lia.
Qed.

Section Program.
Variable B : BilinearMap.
Variable F : byte_forms B.
Variable fine : Gt B -> Prop.
Hypothesis HF : forms_ok F fine.

Lemma table64 n : table_bytes P n <= 39 * n + 33.
Proof using HP.
  assert (W : word P = 8) by (unfold word; rewrite HP; reflexivity).
  destruct (N.eq_dec n 0) as [->|H].
  - unfold table_bytes. rewrite W. change (2 ^ N.log2_up (0 * 8 / 7)) with 1. lia.
  - pose proof (table_bound P n ltac:(lia)) as T. rewrite W in T.
    assert (Q : 7 * (16 * n / 7) <= 16 * n) by (apply N.mul_div_le; discriminate). lia.
Qed.

(** [announced] are the columns that the bytes announce *)
Definition announced (bytes : list byte) : N := from_be (firstn 4 (skipn 4 bytes)).
Lemma announced_range bytes : 8 <= blen bytes -> announced bytes < u32_modulus.
Proof. intros H. exact (proj2 (head_range bytes H)). Qed.

Lemma takes_le n size : snd (takes P n size) <= n * size + 4 * size.
Proof. unfold takes. cbn [snd]. destruct (N.eqb_spec n 0) as [->|_]; lia. Qed.

Lemma msp_memory bytes : in_memory bytes ->
  snd (msp_read P (scalar_codec F) bytes) <= 18 * blen bytes + 273 + (if blen bytes <? 8 then 0 else 32 * announced bytes).
Proof using HP HF.
  intros Hin. unfold msp_read. destruct (N.ltb_spec (blen bytes) 8) as [|H8]; [cbn; lia|]. cbv zeta. fold (announced bytes).
  destruct (head_range bytes H8) as [Hnr Hnc]. fold (announced bytes) in Hnc.
  set (nr := from_be (firstn 4 bytes)) in *. set (nc := announced bytes) in *. unfold u32_modulus in Hnr, Hnc.
  pose proof modulus64 as M64. change (msize (scalar_codec F)) with 32. assert (W : word P = 8) by (unfold word; rewrite HP; reflexivity). rewrite W.
  rewrite usize_mul_exact by lia. apply snd_free. intros a E. apply Ok_inj in E. subst a.
  rewrite usize_add_exact by lia. apply snd_free. intros base E. apply Ok_inj in E. subst base.
  destruct (N.ltb_spec (blen bytes) (8 + 4 * nr)) as [|Hb]; [cbn; lia|].
  transitivity ((nr * 4 + 4 * 4) + ((39 * nr + 33) + ((nr * (3 * 8) + 4 * (3 * 8)) + ((nc * 32 + 4 * 32) + blen bytes)))); [|lia].
  apply snd_bind; [apply takes_le|]. intros u1 _. apply snd_bind; [apply table64|]. intros u2 _. apply snd_free. intros [a2r r2a] _.
  apply snd_bind; [apply takes_le|]. intros u3 _. apply snd_bind; [apply takes_le|]. intros u4 _.
  apply snd_free. intros t Et. apply snd_free. intros x0 Ex. rewrite (ok_len _ _ _ (scalar_ok F fine HF)).
  apply snd_free. intros n1 _. apply snd_free. intros n2 _. apply snd_free. intros lim _.
  destruct (N.ltb_spec (blen bytes) lim) as [|_]; [cbn; lia|].
  apply snd_free. intros row0 E0.
  rewrite <- (N.add_0_r (blen bytes)). apply snd_bind; [|intros rows _; cbn; lia].
  assert (Hw : nc * 32 <= blen bytes - (8 + 4 * nr)).
  { apply slice_fromN_inv in Et as [_ ->]. pose proof (ok_dec_len _ _ _ _ _ (scalar_ok F fine HF) Ex) as L0. unfold blen in L0. rewrite skipn_len in L0.
    assert (Hfit : blen bytes < usize_modulus P) by (unfold in_memory in Hin; lia).
    pose proof (entry_reader (scalar_codec F) 32 P bytes (8 + 4 * nr) Hfit) as R.
    assert (L1 : 8 + 4 * nr + N.of_nat 1 * 32 <= blen bytes) by (unfold blen in *; lia).
    destruct (seq_read _ 32 _ (scalar_ok F fine HF) bytes _ _ R (N.to_nat nc - 1) 1 L1) as [_ S2].
    change (range 1 nc) with (map N.of_nat (seq 1 (N.to_nat nc - 1))) in E0. destruct (S2 row0 E0) as (T1 & _). lia. }
  change (range 1 nr) with (map N.of_nat (seq 1 (N.to_nat nr - 1))).
  pose proof (rows_memory (fun r => let$ _ := charge (nc * 32) in free (mapM (fun col => let* p := usize_mul P r nc in let* p := usize_add P p col in
    read_entry P (scalar_codec F) bytes (8 + 4 * nr) p 32) (range 0 nc))) (nc * 32) (blen bytes - (8 + 4 * nr)) (N.to_nat nr - 1) 1) as R.
  transitivity (blen bytes - (8 + 4 * nr)); [|lia]. apply N.add_le_mono_r with (p := nc * 32).
  rewrite N.mul_1_l in R. apply R; clear R.
  - intros r. unfold mbind, charge, free. cbn [fst snd]. lia.
  - intros r Hr Hb' E. rewrite fst_mbind in E. cbn [charge fst bind free] in E.
    destruct (N.eq_dec nc 0) as [->|Hc]; [lia|].
    assert (Hrn : r * nc <= 4294967295 * 4294967295) by (apply N.mul_le_mono; lia).
    destruct (mapM_each _ (range 0 nc) (nc - 1) E) as (y & Ey).
    { unfold range. apply in_map_iff. exists (N.to_nat (nc - 1)). split; [lia|]. apply in_seq. lia. }
    unfold in_memory in Hin. rewrite usize_mul_exact in Ey by lia. cbn [bind] in Ey. rewrite usize_add_exact in Ey by lia. cbn [bind] in Ey.
    unfold read_entry in Ey. rewrite usize_mul_exact in Ey by lia. cbn [bind] in Ey. rewrite usize_add_exact in Ey by lia. cbn [bind] in Ey.
    apply bind_ok in Ey as (t' & Et' & Ey). apply slice_fromN_inv in Et' as [Hi ->].
    pose proof (ok_dec_len _ _ _ _ _ (scalar_ok F fine HF) Ey) as L0. unfold blen in L0. rewrite skipn_len in L0. unfold blen. lia.
  - lia.
Qed.

(** ** C136 *)
Variable g1_mem : N.
Implicit Types bytes : list byte.

(** the counts do not change what is read *)
Theorem C136_result bytes :
  fst (priv_read F P bytes) = priv_dec F P bytes /\ fst (pub_read F P bytes) = pub_dec F P bytes /\
  fst (del_read F P bytes) = del_dec F P bytes /\ fst (user_read F P g1_mem bytes) = user_dec F P bytes /\
  fst (ct_read F P bytes) = ct_dec F P bytes.
Proof using Type.
  split; [|split; [|split; [|split]]].
  - unfold priv_read, priv_dec. rewrite fst_mbind, vec_read_result. apply bind_ext. intros t. same.
  - unfold pub_read, pub_dec. rewrite fst_mbind, vec_read_result. apply bind_ext. intros t. same.
  - unfold del_read, del_dec. rewrite fst_mbind, vec_read_result. apply bind_ext. intros t. same.
  - unfold user_read, user_dec. destruct bytes as [|b bt]; [reflexivity|]. rewrite fst_mbind, vec_read_result. apply bind_ext. intros d.
    rewrite fst_mbind. apply bind_ext. intros r. rewrite fst_mbind, msp_read_result. apply bind_ext. intros m. reflexivity.
  - unfold ct_read, ct_dec. rewrite fst_mbind, vec_read_result. apply bind_ext. intros g. cbv zeta. rewrite fst_mbind. apply bind_ext. intros r.
    rewrite fst_mbind, vec_read_result. apply bind_ext. intros ei. same.
Qed.

(** [r] and [rp] are the ratios between a point in memory and its bytes: a point as it is
    read, and a prepared one *)
Variables r rp : N.
Hypothesis H2 : g2_mem B F <= r * 48.
Hypothesis H3 : g3_mem B F <= r * 96.
Hypothesis H1 : g1_mem <= rp * 96.

(** Everything but user keys: a multiple of the bytes, whatever they are and whether or
    not they can be read. *)
Theorem C136_bytes bytes : in_memory bytes ->
  snd (priv_read F P bytes) <= 4 * blen bytes /\
  snd (pub_read F P bytes) <= 4 * r * blen bytes /\
  snd (del_read F P bytes) <= 4 * r * blen bytes /\
  snd (ct_read F P bytes) <= 4 * (1 + r) * blen bytes.
Proof using HP HF H2 H3.
  clear H1. intros Hin.
  assert (V1 : forall b, in_memory b -> snd (vec_read P (scalar_codec F) b) <= 4 * blen b).
  { intros b Hb. rewrite <- (N.mul_1_r 4). apply (vec_memory _ 32 (fun _ => True)); [exact (scalar_ok F fine HF)|lia|cbn; lia|exact Hb]. }
  assert (V2 : forall b, in_memory b -> snd (vec_read P (g2_codec F) b) <= 4 * r * blen b).
  { intros b Hb. apply (vec_memory _ 48 (fun _ => True)); [exact (g2_ok F fine HF)|lia|exact H2|exact Hb]. }
  assert (V3 : forall b, in_memory b -> snd (vec_read P (g3_codec F) b) <= 4 * r * blen b).
  { intros b Hb. apply (vec_memory _ 96 (fun _ => True)); [exact (g3_ok F fine HF)|lia|exact H3|exact Hb]. }
  assert (V4 : forall b, in_memory b -> snd (vec_read P u32_codec b) <= 4 * blen b).
  { intros b Hb. rewrite <- (N.mul_1_r 4). apply (vec_memory _ 4 u32); [exact u32_codec_ok|lia|cbn; lia|exact Hb]. }
  split; [|split; [|split]].
  - unfold priv_read. rewrite <- N.add_0_r. apply snd_bind; [exact (V1 bytes Hin)|]. intros t _. apply snd_free. intros b _. apply snd_free. intros y _. cbn. lia.
  - unfold pub_read. rewrite <- N.add_0_r. apply snd_bind; [exact (V2 bytes Hin)|]. intros t _. apply snd_free. intros b _. apply snd_free. intros y _. cbn. lia.
  - unfold del_read. rewrite <- N.add_0_r. apply snd_bind; [exact (V3 bytes Hin)|]. intros t _. cbn. lia.
  - unfold ct_read. replace (4 * (1 + r) * blen bytes) with (4 * blen bytes + (4 * r * blen bytes + 0)) by lia.
    apply snd_bind; [exact (V4 bytes Hin)|]. intros g _. cbv zeta. apply snd_free. intros b Eb. apply slice_fromN_inv in Eb as [_ ->].
    destruct (skipn_memory bytes (N.to_nat (vec_len u32_codec g)) Hin) as [Hs Hl].
    apply snd_bind.
    + etransitivity; [exact (V2 _ Hs)|]. apply N.mul_le_mono_l. exact Hl.
    + intros ei _. apply snd_free. intros b _. apply snd_free. intros ep _. cbn. lia.
Qed.

Lemma user_memory bytes : in_memory bytes -> exists nc, nc < u32_modulus /\
  snd (user_read F P g1_mem bytes) <= (4 * r + rp + 21) * blen bytes + 32 * nc /\
  (forall uk, user_dec F P bytes = Ok uk -> 32 * nc <= blen bytes).
Proof using HP HF H3 H1.
  clear H2. intros Hin.
  assert (V3 : snd (vec_read P (g3_codec F) bytes) <= 4 * r * blen bytes).
  { apply (vec_memory _ 96 (fun _ => True)); [exact (g3_ok F fine HF)|lia|exact H3|exact Hin]. }
  unfold user_read, user_dec. destruct bytes as [|b0 bt]; [exists 0; split; [reflexivity|]; split; [cbn; lia|discriminate]|].
  remember (b0 :: bt) as bytes. assert (Hne : bytes <> []) by (rewrite Heqbytes; discriminate). clear b0 bt Heqbytes.
  destruct (vec_dec P (g3_codec F) bytes) as [d|e|q] eqn:Ed.
  2:{ exists 0. split; [reflexivity|]. split; [|discriminate]. rewrite <- vec_read_result in Ed. unfold mbind. rewrite Ed. cbn [snd]. lia. }
  2:{ exists 0. split; [reflexivity|]. split; [|discriminate]. rewrite <- vec_read_result in Ed. unfold mbind. rewrite Ed. cbn [snd]. lia. }
  cbn [bind]. assert (Hfit : blen bytes < usize_modulus P) by (pose proof modulus64; unfold in_memory in Hin; lia).
  destruct (slice_fromN bytes (vec_len (g3_codec F) d)) as [s|e|q] eqn:Es.
  2:{ exists 0. split; [reflexivity|]. split; [|discriminate]. rewrite <- (N.add_0_r ((4 * r + rp + 21) * blen bytes + 32 * 0)). apply snd_bind; [lia|].
      intros d' Ed'. rewrite vec_read_result, Ed in Ed'. apply Ok_inj in Ed'. subst d'. rewrite Es. cbn. lia. }
  2:{ exists 0. split; [reflexivity|]. split; [|discriminate]. rewrite <- (N.add_0_r ((4 * r + rp + 21) * blen bytes + 32 * 0)). apply snd_bind; [lia|].
      intros d' Ed'. rewrite vec_read_result, Ed in Ed'. apply Ok_inj in Ed'. subst d'. rewrite Es. cbn. lia. }
  apply slice_fromN_inv in Es as Es'. destruct Es' as [Hle ->]. set (n := N.to_nat (vec_len (g3_codec F) d)) in *.
  destruct (skipn_memory bytes n Hin) as [Hs Hl]. cbn [bind].
  pose proof (msp_memory (skipn n bytes) Hs) as Hm.
  assert (Hd : N.of_nat (length d) * 96 <= blen bytes /\ 100 <= blen bytes).
  { destruct (vec_dec_inv (g3_codec F) 96 _ (g3_ok F fine HF) P bytes d Hfit Ed) as [[X _]|(Hn & L & _)]; [contradiction|].
    split; [lia|]. destruct d; [contradiction|]. cbn [length] in L. lia. }
  destruct Hd as [Hd Hb].
  exists (if blen (skipn n bytes) <? 8 then 0 else announced (skipn n bytes)). split; [|split].
  - destruct (N.ltb_spec (blen (skipn n bytes)) 8); [reflexivity|]. apply announced_range. assumption.
  - transitivity (4 * r * blen bytes + ((18 * blen (skipn n bytes) + 273 + (if blen (skipn n bytes) <? 8 then 0 else 32 * announced (skipn n bytes))) + (rp * blen bytes + 0))).
    + apply snd_bind; [exact V3|]. intros d' Ed'. rewrite vec_read_result, Ed in Ed'. apply Ok_inj in Ed'. subst d'. rewrite Es.
      apply snd_free. intros s E. apply Ok_inj in E. subst s. apply snd_bind; [exact Hm|]. intros m _.
      apply snd_bind; [|intros u _; cbn; lia]. cbn [charge snd].
      transitivity (N.of_nat (length d) * (rp * 96)); [apply N.mul_le_mono_l; exact H1|].
      replace (N.of_nat (length d) * (rp * 96)) with (rp * (N.of_nat (length d) * 96)) by lia. apply N.mul_le_mono_l. exact Hd.
    + destruct (blen (skipn n bytes) <? 8); lia.
  - intros uk E. apply bind_ok in E as (m & Em & _).
    pose proof (columns_fit B F fine HF P ltac:(rewrite HP; lia) (skipn n bytes) m Hs Em) as Q.
    destruct (N.ltb_spec (blen (skipn n bytes)) 8) as [|H8]; [lia|].
    assert (Hc : N.of_nat (nb_col m) = announced (skipn n bytes)).
    { unfold msp_dec in Em. destruct (N.ltb_spec (blen (skipn n bytes)) 8) as [|_]; [lia|]. cbv zeta in Em. fold (announced (skipn n bytes)) in Em.
      apply bind_ok in Em as (a & _ & Em). apply bind_ok in Em as (base & _ & Em). destruct (_ <? base); [discriminate|].
      apply bind_ok in Em as (? & _ & Em). apply bind_ok in Em as (? & _ & Em). apply bind_ok in Em as ([a2r r2a] & _ & Em). apply bind_ok in Em as (? & _ & Em).
      apply bind_ok in Em as (? & _ & Em). apply bind_ok in Em as (? & _ & Em). apply bind_ok in Em as (? & _ & Em).
      apply bind_ok in Em as (? & _ & Em). apply bind_ok in Em as (? & _ & Em). apply bind_ok in Em as (lim & _ & Em). destruct (_ <? lim); [discriminate|].
      apply bind_ok in Em as (? & _ & Em). apply bind_ok in Em as (? & _ & Em). apply Ok_inj in Em. subst m. cbn [nb_col]. lia. }
    rewrite <- Hc. lia.
Qed.

(** A user key that can be read takes a multiple of its bytes. *)
Theorem C136_user_key bytes uk : in_memory bytes -> user_dec F P bytes = Ok uk ->
  snd (user_read F P g1_mem bytes) <= (4 * r + rp + 22) * blen bytes.
Proof using HP HF H3 H1.
  clear H2. intros Hin E. destruct (user_memory bytes Hin) as (nc & _ & L & Q). specialize (Q uk E). lia.
Qed.
(** Bytes that are no user key take at most 128 GiB more. *)
Theorem C136_any_key bytes : in_memory bytes ->
  snd (user_read F P g1_mem bytes) <= (4 * r + rp + 21) * blen bytes + 137438953440.
Proof using HP HF H3 H1.
  clear H2. intros Hin. destruct (user_memory bytes Hin) as (nc & Hc & L & _). unfold u32_modulus in Hc. lia.
Qed.

(** And they do take them: 108 bytes that end in the number [n] are refused only after
    room for [n] scalars was asked for. *)
Lemma greedy_program n : n < u32_modulus ->
  fst (msp_read P (scalar_codec F) (be32 0 ++ be32 n)) = Err (InvalidSize "Invalid scalar element") /\
  32 * n <= snd (msp_read P (scalar_codec F) (be32 0 ++ be32 n)).
Proof using HP.
  clear H1 H2 H3. intros Hn. unfold msp_read.
  change (blen (be32 0 ++ be32 n) <? 8) with false. cbv iota zeta.
  change (from_be (firstn 4 (be32 0 ++ be32 n))) with 0.
  change (from_be (firstn 4 (skipn 4 (be32 0 ++ be32 n)))) with (from_be (be32 n)). rewrite (from_be_be32 n Hn).
  pose proof modulus64 as M64. unfold u32_modulus in Hn.
  assert (Hh : usize_modulus P / 2 = 9223372036854775808) by (rewrite M64; reflexivity).
  destruct (rows_fit64 P 0) as (R1 & R2 & R3); [rewrite HP; discriminate|reflexivity|].
  rewrite usize_mul_exact by lia. apply (step _ _ (4 * 0)); [reflexivity|]. rewrite usize_add_exact by lia. apply (step _ _ (8 + 4 * 0)); [reflexivity|].
  change (blen (be32 0 ++ be32 n) <? 8 + 4 * 0) with false. cbv iota.
  apply (step _ _ Datatypes.tt); [exact (reserve_ok P _ R1)|]. apply (step _ _ Datatypes.tt); [exact (reserve_ok P _ R2)|].
  apply (step _ _ ([], [])); [reflexivity|]. cbv iota beta. apply (step _ _ Datatypes.tt); [exact (reserve_ok P _ R3)|].
  change (msize (scalar_codec F)) with 32. unfold takes. rewrite reserve_ok by lia.
  split; [reflexivity|]. unfold mbind at 1. cbn [fst snd]. destruct (N.eqb_spec n 0); lia.
Qed.

Definition greedy_key (g : G3 B) (n : N) : list byte := be32 1 ++ to_compressed (g3_form B F) g ++ be32 0 ++ be32 n.
Theorem C136_user_key_refuted g n : n < u32_modulus ->
  blen (greedy_key g n) = 108 /\
  user_dec F P (greedy_key g n) = Err (InvalidSize "Invalid scalar element") /\
  32 * n <= snd (user_read F P g1_mem (greedy_key g n)).
Proof using HP HF.
  clear H1 H2 H3. intros Hn. destruct (greedy_program n Hn) as [E0 L0].
  assert (Lg : blen (to_compressed (g3_form B F) g) = 96) by apply (fo_g3 _ _ HF).
  assert (Hh : usize_modulus P / 2 = 9223372036854775808) by (rewrite modulus64; reflexivity).
  assert (D : vec_dec P (g3_codec F) (greedy_key g n) = Ok [g]).
  { unfold greedy_key. rewrite app_assoc.
    apply (vec_fits P (g3_codec F) 96 (fun _ => True) [g] (be32 1 ++ to_compressed (g3_form B F) g) (be32 0 ++ be32 n)).
    - rewrite HP. discriminate.
    - exact (g3_ok F fine HF).
    - split; [discriminate|reflexivity].
    - repeat constructor.
    - unfold Properties32.fits. rewrite Hh. change (msize (g3_codec F)) with (g3_mem B F).
      pose proof (fo_g3_mem _ _ HF). cbn [length N.of_nat Pos.of_succ_nat]. lia.
    - unfold vec_enc. change (u32_bytes (N.of_nat (length [g]))) with (Ok (be32 1)). cbn [bind mapM g3_codec fixed_codec enc concat]. rewrite app_nil_r. reflexivity.
    - unfold Properties32.fits. rewrite Hh. rewrite !blen_app, Lg. reflexivity. }
  assert (Sl : slice_fromN (greedy_key g n) (vec_len (g3_codec F) [g]) = Ok (be32 0 ++ be32 n)).
  { change (vec_len (g3_codec F) [g]) with (4 + 1 * 96).
    assert (Q : 4 + 1 * 96 = blen (be32 1 ++ to_compressed (g3_form B F) g)) by (rewrite blen_app, Lg; reflexivity).
    unfold greedy_key. rewrite Q, app_assoc. apply slice_after. }
  assert (Hb : exists b bt, greedy_key g n = b :: bt) by (do 2 eexists; reflexivity).
  assert (L : blen (greedy_key g n) = 108) by (unfold greedy_key; rewrite !blen_app, Lg; reflexivity).
  split; [exact L|]. clear L. rewrite <- (proj1 (proj2 (proj2 (proj2 (C136_result (greedy_key g n)))))).
  unfold user_read. destruct Hb as (b & bt & Eb). rewrite Eb in *. clear Eb.
  apply (step _ _ [g]); [rewrite vec_read_result; exact D|]. rewrite Sl. apply (step _ _ (be32 0 ++ be32 n)); [reflexivity|].
  unfold mbind. rewrite E0. split; [reflexivity|exact L0].
Qed.
End Program.
End Bounds.

(** ** Examples: the sizes of the toy instance, which are those of the points of the
    repository, and 19616 bytes for a prepared point *)
Example ratios : g2_mem toy toy_forms <= 3 * 48 /\ g3_mem toy toy_forms <= 3 * 96 /\ 19616 <= 205 * 96.
Proof. split; [|split]; unfold toy_forms; cbn [g2_mem g3_mem]; discriminate. Qed.
Example C136_bytes_example bytes : in_memory bytes ->
  snd (priv_read toy_forms debug64 bytes) <= 4 * blen bytes /\
  snd (pub_read toy_forms debug64 bytes) <= 12 * blen bytes /\
  snd (del_read toy_forms debug64 bytes) <= 12 * blen bytes /\
  snd (ct_read toy_forms debug64 bytes) <= 16 * blen bytes.
Proof. exact (C136_bytes debug64 eq_refl toy toy_forms _ toy_forms_ok 3 (proj1 ratios) (proj1 (proj2 ratios)) bytes). Qed.
(** a user key of 796 bytes for the formula of the other examples; the bound is 190244 *)
Definition ex_bytes : list byte := bytes_of (user_enc toy_forms pf ex_uk).
Lemma ex_bytes_len : blen ex_bytes = 796. Proof. vmr 796. Qed.
Lemma ex_bytes_in_memory : in_memory ex_bytes.
Proof. unfold in_memory. rewrite ex_bytes_len. reflexivity. Qed.
Lemma ex_bytes_read : user_dec toy_forms pf ex_bytes = Ok ex_uk.
Proof. exact (proj1 (proj2 C18_example)). Qed.
Lemma ex_bytes_memory : snd (user_read toy_forms pf 19616 ex_bytes) = 79844.
Proof. vmr 79844. Qed.
Lemma ex_bytes_bound : snd (user_read toy_forms pf 19616 ex_bytes) <= (4 * 3 + 205 + 22) * blen ex_bytes.
Proof.
  exact (C136_user_key pf eq_refl toy toy_forms _ toy_forms_ok 19616 3 205 (proj1 (proj2 ratios)) (proj2 (proj2 ratios)) ex_bytes ex_uk
    ex_bytes_in_memory ex_bytes_read).
Qed.
Example C136_user_key_example :
  snd (user_read toy_forms pf 19616 ex_bytes) = 79844 /\
  snd (user_read toy_forms pf 19616 ex_bytes) <= (4 * 3 + 205 + 22) * blen ex_bytes.
Proof. exact (conj ex_bytes_memory ex_bytes_bound). Qed.
(** 108 bytes for which 128 GiB are asked for *)
Example C136_refuted_example :
  blen (greedy_key toy toy_forms (g3_gen_exp toy ex_s) 4294967295) = 108 /\
  user_dec toy_forms release64 (greedy_key toy toy_forms (g3_gen_exp toy ex_s) 4294967295) = Err (InvalidSize "Invalid scalar element") /\
  137438953440 <= snd (user_read toy_forms release64 19616 (greedy_key toy toy_forms (g3_gen_exp toy ex_s) 4294967295)).
Proof. exact (C136_user_key_refuted release64 eq_refl toy toy_forms _ toy_forms_ok 19616 (g3_gen_exp toy ex_s) 4294967295 eq_refl). Qed.

Print Assumptions C136_result.
Print Assumptions C136_bytes.
Print Assumptions C136_user_key.
Print Assumptions C136_any_key.
Print Assumptions C136_user_key_refuted.

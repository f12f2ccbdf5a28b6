(** Proofs about SchemeCodec.v. *)
From Coq Require Import String Ascii NArith ZArith Bool Lia Strings.Byte Permutation List.
From Verif Require Import Prelude Field LinAlg Msp Spec MspProofs Gauss GaussProofs Bilinear Scheme SchemeSpec SchemeProofs
  SchemeTheorems MspTheorems Codec CodecProofs SchemeCodec.
Import ListNotations.
Local Open Scope N_scope.

(** What is required of the byte forms of the curve library: they have the
    announced size, and decoding a form gives the value back. For Gt this is only
    required of the values satisfying [fine] (the compression of the target group
    is specific to the patched library). *)
Definition form_ok {A} (size : N) (x : compressed A) (V : A -> Prop) : Prop :=
  (forall a, blen (to_compressed x a) = size) /\
  (forall a, V a -> from_compressed x (to_compressed x a) = Some a).

Record forms_ok {B : BilinearMap} (F : byte_forms B) (fine : Gt B -> Prop) : Prop := mkFormsOk {
  fo_scalar : form_ok 32 (scalar_form B F) (fun _ => True);
  fo_g2 : form_ok 48 (g2_form B F) (fun _ => True);
  fo_g3 : form_ok 96 (g3_form B F) (fun _ => True);
  fo_gt : form_ok 288 (gt_form B F) fine;
  fo_g2_mem : g2_mem B F <= 4096;
  fo_g3_mem : g3_mem B F <= 4096
}.

Section Fixed.
Context {A : Type} (size mem : N) (short bad : string) (x : compressed A) (V : A -> Prop).
Hypothesis H : form_ok size x V.
Local Notation c := (fixed_codec size short bad mem x).

Lemma fixed_rt a rest : V a -> dec c (to_compressed x a ++ rest) = Ok a.
Proof.
  intros Ha. cbn [fixed_codec dec]. destruct H as [H1 H2]. rewrite blen_app, H1.
  destruct (N.ltb_spec (size + blen rest) size); [lia|].
  assert (E : firstn (N.to_nat size) (to_compressed x a ++ rest) = to_compressed x a).
  { rewrite <- (H1 a). unfold blen. rewrite Nat2N.id. rewrite firstn_app, Nat.sub_diag, firstn_O, app_nil_r. apply firstn_all. }
  rewrite E, H2 by exact Ha. reflexivity.
Qed.
Lemma fixed_short b : blen b < size -> is_err (dec c b).
Proof. intros Hb. cbn [fixed_codec dec]. destruct (N.ltb_spec (blen b) size); [eexists; reflexivity|lia]. Qed.
Lemma fixed_np b : no_panic (dec c b).
Proof. cbn [fixed_codec dec]. destruct (blen b <? size); [apply no_panic_err|]. destruct (from_compressed _ _); [apply no_panic_ok|apply no_panic_err]. Qed.
Lemma fixed_ext b rest : size <= blen b -> dec c (b ++ rest) = dec c b.
Proof.
  intros Hb. cbn [fixed_codec dec]. rewrite blen_app. destruct (N.ltb_spec (blen b + blen rest) size); [lia|].
  destruct (N.ltb_spec (blen b) size); [lia|]. rewrite firstn_app.
  replace (N.to_nat size - length b)%nat with O by (unfold blen in *; lia). rewrite firstn_O, app_nil_r. reflexivity.
Qed.
Lemma fixed_dec_ext b rest a : dec c b = Ok a -> dec c (b ++ rest) = Ok a.
Proof.
  intros E. rewrite fixed_ext; [exact E|]. destruct (N.lt_ge_cases (blen b) size) as [Hl|Hl]; [|exact Hl].
  destruct (fixed_short b Hl). congruence.
Qed.
End Fixed.

Lemma fixed_codec_ok {A} size short bad mem (x : compressed A) : 1 <= size ->
  form_ok size x (fun _ => True) -> codec_ok (fixed_codec size short bad mem x) size (fun _ => True).
Proof.
  intros Hs H. constructor.
  - exact Hs.
  - reflexivity.
  - intros a. eexists. split; [reflexivity|]. apply H.
  - intros a b rest _ E. apply Ok_inj in E. subst b. apply (fixed_rt _ _ _ _ _ _ H). exact I.
  - apply fixed_short.
  - apply fixed_np.
  - apply fixed_ext.
  - auto.
Qed.

Section SchemeCodecProofs.
Context {B : BilinearMap}.
Variable F : byte_forms B.
Variable fine : Gt B -> Prop.
Hypothesis HF : forms_ok F fine.
Local Notation K := (bm_K B).

Lemma scalar_ok : codec_ok (scalar_codec F) 32 (fun _ => True).
Proof. apply fixed_codec_ok; [lia|apply HF]. Qed.
Lemma g2_ok : codec_ok (g2_codec F) 48 (fun _ => True).
Proof. apply fixed_codec_ok; [lia|apply HF]. Qed.
Lemma g3_ok : codec_ok (g3_codec F) 96 (fun _ => True).
Proof. apply fixed_codec_ok; [lia|apply HF]. Qed.

Lemma slice_after b r : slice_fromN (b ++ r) (blen b) = Ok r.
Proof. rewrite slice_fromN_app by (unfold blen; lia). unfold blen. rewrite Nat2N.id, skipn_all. reflexivity. Qed.

Lemma gt_rt a rest : fine a -> dec (gt_codec F) (to_compressed (gt_form B F) a ++ rest) = Ok a.
Proof. intros Ha. apply (fixed_rt 288 (gt_mem B F) _ _ (gt_form B F) fine); [apply HF|exact Ha]. Qed.
Lemma gt_blen a : blen (to_compressed (gt_form B F) a) = 288.
Proof. apply (fo_gt _ _ HF). Qed.
Lemma scalar_blen a : blen (to_compressed (scalar_form B F) a) = 32.
Proof. apply (fo_scalar _ _ HF). Qed.
Lemma scalar_rt a rest : dec (scalar_codec F) (to_compressed (scalar_form B F) a ++ rest) = Ok a.
Proof. apply (fixed_rt 32 32 _ _ (scalar_form B F) (fun _ => True)); [apply HF|exact I]. Qed.

Lemma scalar_ext b rest a : dec (scalar_codec F) b = Ok a -> dec (scalar_codec F) (b ++ rest) = Ok a.
Proof. apply fixed_dec_ext. Qed.
Lemma gt_ext b rest a : dec (gt_codec F) b = Ok a -> dec (gt_codec F) (b ++ rest) = Ok a.
Proof. apply fixed_dec_ext. Qed.

Variable P : platform.
Hypothesis HP : 64 <= usize_bits P.

Lemma at32 : at_least_32 P.
Proof. unfold at_least_32. lia. Qed.
Lemma big : 18446744073709551616 <= usize_modulus P.
Proof. apply big64. exact HP. Qed.
Lemma half : 9223372036854775808 <= usize_modulus P / 2.
Proof. apply N.div_le_lower_bound; [lia|]. pose proof big. lia. Qed.

Lemma Forall_true {A} (l : list A) : Forall (fun _ => True) l.
Proof. apply Forall_forall. auto. Qed.

(** a vector of at least one and less than 2^32 - 1 elements *)
Definition countable {A} (l : list A) : Prop := l <> [] /\ N.of_nat (length l) < u32_MAX.

Lemma vec_round {A} (c : codec A) k V l rest : codec_ok c k V -> k <= 288 -> msize c <= 4096 -> countable l -> Forall V l ->
  blen rest < 4611686018427387904 ->
  exists b, vec_enc c l = Ok b /\ blen b = vec_len c l /\ 4 <= blen b < 2199023255552 /\ vec_dec P c (b ++ rest) = Ok l.
Proof.
  intros C Hk Hm [Hne Hl] HV Hr. pose proof big. pose proof half. unfold u32_MAX in Hl.
  assert (Hl' : N.of_nat (length l) < u32_modulus) by (unfold u32_modulus; lia).
  destruct (vec_enc_ok c k V C l Hl') as (bs & _ & _ & _ & E). eexists. split; [exact E|].
  pose proof (vec_enc_len c k V C l _ Hl' E) as L. split; [exact L|].
  assert (L4 : 4 <= vec_len c l < 2199023255552).
  { destruct l as [|x l]; [contradiction|]. unfold vec_len. rewrite (ok_len _ _ _ C).
    assert (N.of_nat (length (x :: l)) * k <= 4294967294 * 288) by (apply N.mul_le_mono; lia). lia. }
  rewrite <- L in L4. split; [exact L4|].
  apply (vec_rt c k V C P at32); try assumption.
  - assert (N.of_nat (length l) * msize c <= 4294967294 * 4096) by (apply N.mul_le_mono; lia). lia.
  - rewrite blen_app. lia.
Qed.

Definition small (rest : list byte) : Prop := blen rest < 2305843009213693952.

Lemma priv_round k rest : countable (priv_t k) -> small rest ->
  exists b, priv_enc F k = Ok b /\ blen b = priv_len F k /\ priv_dec F P (b ++ rest) = Ok k.
Proof.
  intros Hc Hr. unfold small in Hr.
  destruct (vec_round (scalar_codec F) 32 _ (priv_t k) (to_compressed (scalar_form B F) (priv_y k) ++ rest) scalar_ok
     ltac:(lia) ltac:(simpl; lia) Hc (Forall_true _)) as (b & E & L & L4 & D).
  { rewrite blen_app, scalar_blen. lia. }
  exists (b ++ to_compressed (scalar_form B F) (priv_y k)). split; [|split].
  - unfold priv_enc. rewrite E. reflexivity.
  - rewrite blen_app, scalar_blen, L. reflexivity.
  - unfold priv_dec. rewrite <- app_assoc, D. cbn [bind]. rewrite <- L, slice_after. cbn [bind]. rewrite scalar_rt. cbn [bind].
    destruct k; reflexivity.
Qed.

Lemma pub_round k rest : countable (pub_t k) -> fine (pub_y k) -> small rest ->
  exists b, pub_enc F k = Ok b /\ blen b = pub_len F k /\ pub_dec F P (b ++ rest) = Ok k.
Proof.
  intros Hc Hy Hr. unfold small in Hr.
  destruct (vec_round (g2_codec F) 48 _ (pub_t k) (to_compressed (gt_form B F) (pub_y k) ++ rest) g2_ok
     ltac:(lia) ltac:(simpl; apply HF) Hc (Forall_true _)) as (b & E & L & L4 & D).
  { rewrite blen_app, gt_blen. lia. }
  exists (b ++ to_compressed (gt_form B F) (pub_y k)). split; [|split].
  - unfold pub_enc. rewrite E. reflexivity.
  - rewrite blen_app, gt_blen, L. reflexivity.
  - unfold pub_dec. rewrite <- app_assoc, D. cbn [bind]. rewrite <- L, slice_after. cbn [bind]. rewrite gt_rt by exact Hy. cbn [bind].
    destruct k; reflexivity.
Qed.

Lemma del_round k rest : countable (inv_t k) -> small rest ->
  exists b, del_enc F k = Ok b /\ blen b = del_len F k /\ del_dec F P (b ++ rest) = Ok k.
Proof.
  intros Hc Hr. unfold small in Hr.
  destruct (vec_round (g3_codec F) 96 _ (inv_t k) rest g3_ok ltac:(lia) ltac:(simpl; apply HF) Hc (Forall_true _)) as (b & E & L & L4 & D).
  { lia. }
  exists b. split; [exact E|split; [exact L|]]. unfold del_dec. rewrite D. destruct k; reflexivity.
Qed.

(** a user key whose parts fit together *)
Definition key_ok (k : decryption_key B) : Prop :=
  program_ok (fun _ => True) (dk_msp k) /\ length (raw_d k) = nb_row (dk_msp k) /\ d_i k = map (g3_to_g1 B) (raw_d k).

Lemma user_round k rest : key_ok k -> (nb_row (dk_msp k) <= N.to_nat 134217728)%nat -> (nb_col (dk_msp k) <= N.to_nat 134217728)%nat ->
  small rest ->
  exists b, user_enc F P k = Ok b /\ user_len F k = Ok (blen b) /\ user_dec F P (b ++ rest) = Ok k.
Proof.
  intros (Hm & Hl & Hd) Hnr Hnc Hr. unfold small in Hr. pose proof half. pose proof big.
  set (nr := N.of_nat (nb_row (dk_msp k))) in *. set (nc := N.of_nat (nb_col (dk_msp k))) in *.
  assert (A1 : nr <= 134217728) by (unfold nr; lia). assert (A2 : nc <= 134217728) by (unfold nc; lia).
  assert (A3 : nr * nc * 32 <= 134217728 * 134217728 * 32) by (apply N.mul_le_mono_r; apply N.mul_le_mono; assumption).
  destruct (msp_enc_ok (scalar_codec F) 32 _ scalar_ok P (dk_msp k) Hm) as (bm & Em);
    try (unfold u32_modulus; fold nr nc; lia).
  pose proof (msp_enc_len (scalar_codec F) 32 _ scalar_ok P (dk_msp k) bm Hm Em) as Lm. fold nr nc in Lm.
  assert (Hc : countable (raw_d k)).
  { split; [|rewrite Hl; fold nr; unfold u32_MAX; lia]. intros E. rewrite E in Hl. pose proof (pg_rows _ _ Hm). simpl in Hl. lia. }
  destruct (vec_round (g3_codec F) 96 _ (raw_d k) (bm ++ rest) g3_ok ltac:(lia) ltac:(simpl; apply HF) Hc (Forall_true _)) as (b & E & L & L4 & D).
  { rewrite blen_app. lia. }
  exists (b ++ bm). split; [|split].
  - unfold user_enc. rewrite E. cbn [bind]. rewrite Em. reflexivity.
  - unfold user_len. rewrite (msp_len_ok (scalar_codec F) 32 _ scalar_ok (dk_msp k) Hm). cbn [bind]. rewrite blen_app, L, Lm. reflexivity.
  - unfold user_dec. destruct ((b ++ bm) ++ rest) as [|x0 t0] eqn:Eb.
    { apply (f_equal blen) in Eb. rewrite !blen_app in Eb. rewrite blen_nil in Eb. lia. }
    rewrite <- Eb. clear x0 t0 Eb. rewrite <- app_assoc, D. cbn [bind]. rewrite <- L, slice_after. cbn [bind].
    rewrite (msp_rt (scalar_codec F) 32 _ scalar_ok P (dk_msp k) bm rest Hm).
    + cbn [bind]. rewrite <- Hd. destruct k; reflexivity.
    + apply rows_fit64; [exact HP|]. fold nr. unfold u32_modulus. lia.
    + fold nc. simpl msize. lia.
    + exact Em.
    + rewrite blen_app, Lm. lia.
Qed.

Lemma ct_round c rest : countable (gamma c) -> Forall u32 (gamma c) -> length (e_i c) = length (gamma c) -> fine (e_prime c) ->
  small rest ->
  exists b, ct_enc F c = Ok b /\ blen b = ct_len F c /\ ct_dec F P (b ++ rest) = Ok c.
Proof.
  intros Hg Hu Hl Hy Hr. unfold small in Hr.
  assert (He : countable (e_i c)).
  { destruct Hg as [G1 G2]. split; [|rewrite Hl; exact G2]. intros E. rewrite E in Hl. destruct (gamma c); [congruence|discriminate]. }
  set (gt := to_compressed (gt_form B F) (e_prime c)).
  destruct (vec_round (g2_codec F) 48 _ (e_i c) (gt ++ rest) g2_ok ltac:(lia) ltac:(simpl; apply HF) He (Forall_true _)) as (b & E & L & L4 & D).
  { unfold gt. rewrite blen_app, gt_blen. lia. }
  destruct (vec_round u32_codec 4 _ (gamma c) (b ++ gt ++ rest) u32_codec_ok ltac:(lia) ltac:(simpl; lia) Hg Hu) as (b2 & E2 & L2 & L24 & D2).
  { unfold gt. rewrite !blen_app, gt_blen. lia. }
  exists (b2 ++ b ++ gt). split; [|split].
  - unfold ct_enc. rewrite E2. cbn [bind]. cbn [gt_codec fixed_codec enc bind]. rewrite E. reflexivity.
  - unfold ct_len, gt. rewrite !blen_app, gt_blen, L, L2. simpl clen. lia.
  - unfold ct_dec. rewrite <- !app_assoc, D2. cbn [bind]. rewrite <- L2, slice_after. cbn [bind]. rewrite D. cbn [bind].
    rewrite <- L, <- blen_app. rewrite app_assoc, slice_after. cbn [bind]. unfold gt. rewrite gt_rt by exact Hy.
    cbn [bind]. destruct c; reflexivity.
Qed.

(** ** Arbitrary bytes *)
Definition in_memory (bytes : list byte) : Prop := blen bytes < 9223372036854775808.

Lemma in_memory_fits bytes : in_memory bytes -> blen bytes < usize_modulus P.
Proof. unfold in_memory. pose proof big. lia. Qed.

Lemma vec_safe64 {A} (c : codec A) k V bytes : codec_ok c k V -> msize c <= 4096 -> in_memory bytes -> safe P (vec_dec P c bytes).
Proof.
  intros C Hm Hf. apply (vec_safe c k V C P bytes (in_memory_fits _ Hf)). pose proof half.
  assert (u32_MAX * msize c <= u32_MAX * 4096) by (apply N.mul_le_mono_l; exact Hm). unfold u32_MAX in *. lia.
Qed.

Lemma after_vec {A C} (c : codec A) k V bytes l (g : list byte -> outcome C) : codec_ok c k V -> in_memory bytes ->
  vec_dec P c bytes = Ok l -> (forall r, blen r <= blen bytes -> safe P (g r)) ->
  safe P (let* r := slice_fromN bytes (vec_len c l) in g r).
Proof.
  intros Cc Hf E Hg. pose proof (vec_dec_bound c k V Cc P bytes l (in_memory_fits _ Hf) E) as Hb.
  rewrite slice_fromN_ok by exact Hb. cbn [bind]. apply Hg. unfold blen. rewrite skipn_len. lia.
Qed.

Lemma priv_safe bytes : in_memory bytes -> safe P (priv_dec F P bytes).
Proof.
  intros Hf. unfold priv_dec. apply safe_bind; [apply (vec_safe64 _ 32 _ bytes scalar_ok); [simpl; lia|exact Hf]|].
  intros t Et. apply (after_vec (scalar_codec F) 32 _ bytes t _ scalar_ok Hf Et). intros r _.
  apply safe_bind; [apply no_panic_safe, fixed_np|]. intros; apply safe_ok.
Qed.
Lemma pub_safe bytes : in_memory bytes -> safe P (pub_dec F P bytes).
Proof.
  intros Hf. unfold pub_dec. apply safe_bind; [apply (vec_safe64 _ 48 _ bytes g2_ok); [simpl; apply HF|exact Hf]|].
  intros t Et. apply (after_vec (g2_codec F) 48 _ bytes t _ g2_ok Hf Et). intros r _.
  apply safe_bind; [apply no_panic_safe, fixed_np|]. intros; apply safe_ok.
Qed.
Lemma del_safe bytes : in_memory bytes -> safe P (del_dec F P bytes).
Proof.
  intros Hf. unfold del_dec. apply safe_bind; [apply (vec_safe64 _ 96 _ bytes g3_ok); [simpl; apply HF|exact Hf]|].
  intros; apply safe_ok.
Qed.
Lemma msp_spec64 bytes : in_memory bytes ->
  safe P (msp_dec P (scalar_codec F) bytes) /\ (forall m, msp_dec P (scalar_codec F) bytes = Ok m -> decoded_shape (fun _ => True) m).
Proof.
  intros Hf. apply (msp_dec_spec (scalar_codec F) 32 _ scalar_ok P HP bytes (in_memory_fits _ Hf)).
  pose proof half. unfold u32_modulus. simpl msize. lia.
Qed.
Lemma user_safe bytes : in_memory bytes -> safe P (user_dec F P bytes).
Proof.
  intros Hf. unfold user_dec. destruct bytes as [|b0 bt]; [apply safe_err|]. remember (b0 :: bt) as bytes eqn:Eb. clear b0 bt Eb.
  apply safe_bind; [apply (vec_safe64 _ 96 _ bytes g3_ok); [simpl; apply HF|exact Hf]|].
  intros t Et. apply (after_vec (g3_codec F) 96 _ bytes t _ g3_ok Hf Et). intros r Hr.
  apply safe_bind; [apply msp_spec64; unfold in_memory in *; lia|]. intros; apply safe_ok.
Qed.
Lemma ct_safe bytes : in_memory bytes -> safe P (ct_dec F P bytes).
Proof.
  intros Hf. unfold ct_dec. apply safe_bind; [apply (vec_safe64 _ 4 _ bytes u32_codec_ok); [simpl; lia|exact Hf]|].
  intros g Eg. pose proof (vec_dec_bound u32_codec 4 _ u32_codec_ok P bytes g (in_memory_fits _ Hf) Eg) as Hb.
  rewrite slice_fromN_ok by exact Hb. cbn [bind].
  set (r := skipn (N.to_nat (vec_len u32_codec g)) bytes).
  assert (Lr : blen r = blen bytes - vec_len u32_codec g) by (unfold r, blen; rewrite skipn_len; lia).
  assert (Hr : in_memory r) by (unfold in_memory in *; lia).
  apply safe_bind; [apply (vec_safe64 _ 48 _ r g2_ok); [simpl; apply HF|exact Hr]|].
  intros ei Ei. pose proof (vec_dec_bound (g2_codec F) 48 _ g2_ok P r ei (in_memory_fits _ Hr) Ei) as Hb2.
  rewrite slice_fromN_ok by (unfold blen in *; lia). cbn [bind].
  apply safe_bind; [apply no_panic_safe, fixed_np|]. intros; apply safe_ok.
Qed.

(** ** Trailing bytes *)
Lemma vec_after_ext {A C} (c : codec A) k V bytes rest l (g : list byte -> outcome C) (x : C) :
  codec_ok c k V -> bytes <> [] -> vec_dec P c bytes = Ok l ->
  (forall r, g r = Ok x -> g (r ++ rest) = Ok x) ->
  (let* r := slice_fromN bytes (vec_len c l) in g r) = Ok x ->
  (let* l := vec_dec P c (bytes ++ rest) in let* r := slice_fromN (bytes ++ rest) (vec_len c l) in g r) = Ok x.
Proof.
  intros Cc Hne E Hg Hx. rewrite (vec_ext c k V Cc P bytes l rest Hne E). cbn [bind].
  apply bind_ok in Hx as (r & Hr & Hx). rewrite (slice_fromN_ext _ _ rest _ Hr). cbn [bind]. apply Hg. exact Hx.
Qed.

Lemma priv_ext bytes rest k : bytes <> [] -> priv_dec F P bytes = Ok k -> priv_dec F P (bytes ++ rest) = Ok k.
Proof.
  intros Hne E. unfold priv_dec in *. apply bind_ok in E as (t & Et & E).
  rewrite (vec_ext _ 32 _ scalar_ok P bytes t rest Hne Et). cbn [bind].
  apply bind_ok in E as (r & Hr & E). rewrite (slice_fromN_ext _ _ rest _ Hr). cbn [bind].
  apply bind_ok in E as (y & Hy & E). rewrite (scalar_ext _ rest _ Hy). exact E.
Qed.
Lemma pub_ext bytes rest k : bytes <> [] -> pub_dec F P bytes = Ok k -> pub_dec F P (bytes ++ rest) = Ok k.
Proof.
  intros Hne E. unfold pub_dec in *. apply bind_ok in E as (t & Et & E).
  rewrite (vec_ext _ 48 _ g2_ok P bytes t rest Hne Et). cbn [bind].
  apply bind_ok in E as (r & Hr & E). rewrite (slice_fromN_ext _ _ rest _ Hr). cbn [bind].
  apply bind_ok in E as (y & Hy & E). rewrite (gt_ext _ rest _ Hy). exact E.
Qed.
Lemma del_ext bytes rest k : bytes <> [] -> del_dec F P bytes = Ok k -> del_dec F P (bytes ++ rest) = Ok k.
Proof.
  intros Hne E. unfold del_dec in *. apply bind_ok in E as (t & Et & E).
  rewrite (vec_ext _ 96 _ g3_ok P bytes t rest Hne Et). exact E.
Qed.
Lemma user_ext bytes rest k : user_dec F P bytes = Ok k -> user_dec F P (bytes ++ rest) = Ok k.
Proof.
  intros E. unfold user_dec in *. destruct bytes as [|b0 bt]; [discriminate|].
  cbn [app]. change (b0 :: bt ++ rest) with ((b0 :: bt) ++ rest).
  assert (Hne : b0 :: bt <> []) by discriminate. remember (b0 :: bt) as bytes eqn:Eb. clear Eb b0 bt.
  apply bind_ok in E as (t & Et & E).
  rewrite (vec_ext _ 96 _ g3_ok P bytes t rest Hne Et). cbn [bind].
  apply bind_ok in E as (r & Hr & E). rewrite (slice_fromN_ext _ _ rest _ Hr). cbn [bind].
  apply bind_ok in E as (y & Hy & E). rewrite (msp_ext (scalar_codec F) 32 _ scalar_ok P _ _ rest Hy). exact E.
Qed.

(** the second vector of a ciphertext may only be empty when nothing is left, in
    which case the last element cannot be read *)
Lemma ct_ext bytes rest c : bytes <> [] -> ct_dec F P bytes = Ok c -> ct_dec F P (bytes ++ rest) = Ok c.
Proof.
  intros Hne E. unfold ct_dec in *. apply bind_ok in E as (g & Eg & E).
  rewrite (vec_ext _ 4 _ u32_codec_ok P bytes g rest Hne Eg). cbn [bind].
  apply bind_ok in E as (r & Hr & E). rewrite (slice_fromN_ext _ _ rest _ Hr). cbn [bind].
  apply bind_ok in E as (ei & Hei & E).
  apply bind_ok in E as (r2 & Hr2 & E). apply bind_ok in E as (y & Hy & E).
  assert (Hr' : r <> []).
  { intros ->. cbn in Hei. apply Ok_inj in Hei. subst ei. simpl vec_len in Hr2. rewrite N.add_0_r in Hr2.
    assert (r2 = []) by congruence. subst r2. discriminate Hy. }
  rewrite (vec_ext _ 48 _ g2_ok P r ei rest Hr' Hei). cbn [bind].
  rewrite (slice_fromN_ext _ _ rest _ Hr2). cbn [bind]. rewrite (gt_ext _ rest _ Hy). exact E.
Qed.

End SchemeCodecProofs.

(** ** Decryption with well formed parts never panics *)
Section Decoded.
Context {B : BilinearMap}.
Local Notation K := (bm_K B).
Hypothesis BL : BilinearLaws B.

Lemma filter_len {A} (p : A -> bool) l : (length (filter p l) <= length l)%nat.
Proof. induction l as [|x l IH]; simpl; [lia|]. destruct (p x); simpl; lia. Qed.

Lemma assoc_get_range (l : list N) n a r : assoc_get (combine l (seq 0 n)) a = Some r -> (r < n)%nat.
Proof. intros H. apply assoc_get_some_in in H. apply in_combine_r in H. apply in_seq in H. lia. Qed.

Lemma enumerate_in {A} (l : list A) i x : In (i, x) (enumerate l) -> (i < length l)%nat.
Proof. unfold enumerate. intros H. apply in_combine_l in H. apply in_seq in H. lia. Qed.

Lemma decrypt_no_panic (c : ciphertext B) (k : decryption_key B) : key_ok k -> (length (gamma c) <= length (e_i c))%nat -> no_panic (decrypt c k).
Proof.
  intros (Hm & Hl & Hd) Hge.
  assert (Hld : length (d_i k) = nb_row (dk_msp k)) by (rewrite Hd, map_length; exact Hl).
  unfold decrypt. apply no_panic_bind.
  - unfold select_rows. apply no_panic_bind; [|intros; apply no_panic_ok]. apply mapM_no_panic. intros [i a] Hin.
    apply enumerate_in in Hin. unfold get_row_from_attr. rewrite (pg_index _ _ Hm).
    destruct (assoc_get _ a) as [row|] eqn:Ea; [|apply no_panic_ok]. apply assoc_get_range in Ea.
    unfold get_row. destruct (index_lt (matrix (dk_msp k)) row) as (r & ->); [rewrite (pg_height _ _ Hm); exact Ea|]. cbn [bind].
    destruct (index_lt (d_i k) row) as (d & ->); [lia|]. cbn [bind].
    destruct (index_lt (e_i c) i) as (e & ->); [lia|]. apply no_panic_ok.
  - intros sel Hsel.
    assert (Hw : forall x, In x sel -> length (fst (fst x)) = nb_col (dk_msp k)).
    { unfold select_rows in Hsel. apply bind_ok in Hsel as (ll & Hll & Hsel). apply Ok_inj in Hsel. subst sel.
      intros x Hx. apply in_concat in Hx as (l & Hin & Hx). apply mapM_ok_inv in Hll.
      assert (Hex : exists p, (let '(i, attr) := p in
         match get_row_from_attr (dk_msp k) attr with
         | Some row => let* r := get_row (dk_msp k) row in let* d := index (d_i k) row in let* e := index (e_i c) i in Ok [(r, d, e)]
         | None => Ok [] end) = Ok l).
      { clear Hx. induction Hll as [|p y ps ys Hp _ IH]; [destruct Hin|]. destruct Hin as [<-|Hin]; [exists p; exact Hp|auto]. }
      destruct Hex as ([i a] & Hp). destruct (get_row_from_attr (dk_msp k) a) as [row|].
      - apply bind_ok in Hp as (r & Hr & Hp). apply bind_ok in Hp as (d & _ & Hp). apply bind_ok in Hp as (e & _ & Hp).
        apply Ok_inj in Hp. subst l. destruct Hx as [<-|[]]. cbn [fst]. unfold get_row in Hr. apply index_ok in Hr.
        apply nth_error_In in Hr. apply (pg_width _ _ Hm). exact Hr.
      - apply Ok_inj in Hp. subst l. destruct Hx. }
    destruct sel as [|s0 sel'].
    { cbn [map]. rewrite (span_coefs_empty K). apply no_panic_err. }
    remember (s0 :: sel') as sel eqn:Es.
    destruct (span_coefs_full K (bl_field B BL) (map (fun x => fst (fst x)) sel) (nb_col (dk_msp k))) as [(sol & E & Ls & _)|[E _]].
    + rewrite Es. discriminate.
    + apply (pg_cols _ _ Hm).
    + intros r Hr. apply in_map_iff in Hr as (x & <- & Hx). apply Hw. exact Hx.
    + rewrite E. cbn [bind]. rewrite map_length in Ls.
      rewrite (keep_nonzero_eq B) by (rewrite map_length; exact Ls). cbn [bind].
      rewrite (keep_nonzero_eq B) by (rewrite map_length; exact Ls). cbn [bind]. apply no_panic_ok.
    + rewrite E. apply no_panic_ok.
Qed.

(** ** Keys obtained from a master key *)
Lemma count_and_leaves f : (S (count_and f) <= length (leaves f))%nat.
Proof. induction f; simpl; rewrite ?app_length; lia. Qed.

Lemma concat_map_Forall {A} (l : list (list A)) : Forall (fun _ : A => True) (concat l).
Proof. apply Forall_true. Qed.

Lemma rep_key_ok t f m sg uk : key_rep B t f m sg uk -> Forall u32 (leaves f) -> key_ok uk /\
  nb_row (dk_msp uk) = length (leaves f) /\ nb_col (dk_msp uk) = S (count_and f).
Proof.
  intros R Hu. pose proof (kr_msp _ _ _ _ _ _ R) as M. pose proof (kr_dk _ _ _ _ _ _ R) as E.
  assert (Hn : nb_row m = length (leaves f)).
  { rewrite (mo_rows _ _ _ M). apply Permutation_length, (mo_perm _ _ _ M). }
  pose proof (count_and_leaves f) as Hc.
  unfold key_ok. rewrite E. unfold msp_map. cbn [nb_row nb_col matrix attr_to_row row_to_attr].
  split; [|split; [exact Hn|apply (mo_cols _ _ _ M)]].
  split; [|split].
  - constructor; cbn [nb_row nb_col matrix attr_to_row row_to_attr].
    + lia.
    + rewrite (mo_cols _ _ _ M). lia.
    + rewrite map_length, (mo_mat _ _ _ M), (mo_rows _ _ _ M). reflexivity.
    + intros r Hr. apply in_map_iff in Hr as (x & <- & Hx). rewrite map_length. apply (mo_width _ _ _ M). exact Hx.
    + symmetry. apply (mo_rows _ _ _ M).
    + apply (Permutation_NoDup (Permutation_sym (mo_perm _ _ _ M))). apply (mo_nodup _ _ _ M).
    + rewrite (mo_rows _ _ _ M). apply (mo_map _ _ _ M).
    + apply (Permutation_Forall (Permutation_sym (mo_perm _ _ _ M))). exact Hu.
    + apply Forall_true.
  - rewrite (kr_raw _ _ _ _ _ _ R), map_length. symmetry. apply (mo_rows _ _ _ M).
  - rewrite (kr_d _ _ _ _ _ _ R), (kr_raw _ _ _ _ _ _ R), map_map. reflexivity.
Qed.
End Decoded.

(** ** Hexadecimal *)
Lemma hex_digit_inj a b : a < 16 -> b < 16 -> hex_digit a = hex_digit b -> a = b.
Proof.
  intros Ha Hb E. unfold hex_digit in E.
  assert (R : forall n, n < 256 -> N_of_ascii (ascii_of_N n) = n) by (intros n Hn; apply N_ascii_embedding; exact Hn).
  apply (f_equal N_of_ascii) in E.
  destruct (N.ltb_spec a 10), (N.ltb_spec b 10); rewrite !R in E by lia; lia.
Qed.

Lemma hex_encode_inj b1 b2 : hex_encode b1 = hex_encode b2 -> b1 = b2.
Proof.
  revert b2; induction b1 as [|x b1 IH]; intros [|y b2] E; try discriminate; [reflexivity|].
  cbn [hex_encode] in E. injection E as E1 E2 E3.
  pose proof (byte_range x). pose proof (byte_range y).
  assert (Hd : forall n, n < 256 -> n / 16 < 16) by (intros n Hn; apply N.div_lt_upper_bound; lia).
  apply hex_digit_inj in E1; [|apply Hd; assumption|apply Hd; assumption].
  apply hex_digit_inj in E2; [|apply N.mod_lt; lia|apply N.mod_lt; lia].
  assert (Exy : Byte.to_N x = Byte.to_N y).
  { rewrite (N.div_mod (Byte.to_N x) 16), (N.div_mod (Byte.to_N y) 16) by lia. rewrite E1, E2. reflexivity. }
  rewrite <- (byte_of_to_N x), <- (byte_of_to_N y), Exy. f_equal. apply IH. exact E3.
Qed.

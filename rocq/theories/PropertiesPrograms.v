(** Theorems about the encoding of integer span programs, the programs that the
    library hands out before key generation: C66. *)
From Coq Require Import String NArith ZArith Bool Lia Permutation Strings.Byte List.
From Verif Require Import Prelude Field LinAlg Msp Spec MspProofs Zp ExpModel Codec CodecProofs SchemeCodecProofs PropertiesScheme.
Import ListNotations.
Local Open Scope N_scope.

(** ** Two's complement *)
Lemma i32_to_u32_range z : i32_to_u32 z < u32_modulus.
Proof. unfold i32_to_u32, u32_modulus. pose proof (Z.mod_pos_bound z 4294967296 ltac:(lia)). lia. Qed.
Lemma i32_roundtrip z : i32_range z -> u32_to_i32 (i32_to_u32 z) = z.
Proof.
  unfold i32_range, i32_min, i32_max, u32_to_i32, i32_to_u32. intros H.
  destruct (Z.ltb_spec z 0) as [Hz|Hz].
  - assert (E : (z mod 4294967296 = z + 4294967296)%Z).
    { symmetry. apply Z.mod_unique with (-1)%Z; lia. }
    rewrite E. destruct (N.ltb_spec (Z.to_N (z + 4294967296)) 2147483648); lia.
  - rewrite Z.mod_small by lia. destruct (N.ltb_spec (Z.to_N z) 2147483648); lia.
Qed.

(** ** The codec with a checked length, to use the proofs about checked codecs *)
Definition checked_i32 : codec Z := mkCodec (enc i32_codec)
  (fun b => if blen b <? 4 then Err TryFromIntError else dec i32_codec b) (clen i32_codec) (msize i32_codec).

Lemma i32_dec_app (b : list byte) : 4 <= blen b -> dec i32_codec b = Ok (u32_to_i32 (from_be (firstn 4 b))).
Proof.
  intros H. cbn [i32_codec dec]. unfold slice. destruct (Nat.leb_spec 0 4) as [_|]; [|lia].
  destruct (Nat.leb_spec 4 (length b)) as [_|E]; [reflexivity|unfold blen in H; lia].
Qed.

Lemma checked_i32_ok : codec_ok checked_i32 4 i32_range.
Proof.
  unfold checked_i32. constructor; cbn [enc dec clen].
  - lia.
  - reflexivity.
  - intros a. eexists; split; reflexivity.
  - intros a b rest Ha E. cbn [i32_codec enc] in E. apply Ok_inj in E. subst b. rewrite blen_app. change (blen (be32 (i32_to_u32 a))) with 4.
    destruct (N.ltb_spec (4 + blen rest) 4); [lia|]. rewrite i32_dec_app by (rewrite blen_app; change (blen (be32 (i32_to_u32 a))) with 4; lia).
    rewrite firstn4_app by (vm_compute; discriminate). change (firstn 4 (be32 (i32_to_u32 a))) with (be32 (i32_to_u32 a)).
    rewrite from_be_be32 by apply i32_to_u32_range. rewrite i32_roundtrip by exact Ha. reflexivity.
  - intros b Hb. destruct (N.ltb_spec (blen b) 4); [eexists; reflexivity|lia].
  - intros b. destruct (N.ltb_spec (blen b) 4); [apply no_panic_err|]. rewrite i32_dec_app by assumption. apply no_panic_ok.
  - intros b rest Hb. rewrite blen_app. destruct (N.ltb_spec (blen b + blen rest) 4); [lia|].
    destruct (N.ltb_spec (blen b) 4); [lia|]. rewrite !i32_dec_app by (rewrite ?blen_app; lia). rewrite firstn4_app by exact Hb. reflexivity.
  - intros b a. destruct (N.ltb_spec (blen b) 4); [discriminate|]. rewrite i32_dec_app by assumption. intros E. apply Ok_inj in E. subst a.
    assert (R : from_be (firstn 4 b) < u32_modulus) by (apply from_be_range; rewrite firstn_length; unfold blen in *; lia).
    unfold u32_modulus in R. unfold u32_to_i32, i32_range, i32_min, i32_max.
    destruct (N.ltb_spec (from_be (firstn 4 b)) 2147483648); lia.
Qed.

(** what the checked codec accepts, the real one reads the same way *)
Lemma checked_i32_dec b z : dec checked_i32 b = Ok z -> dec i32_codec b = Ok z.
Proof. cbn [checked_i32 dec]. destruct (blen b <? 4); [discriminate|]. exact (fun E => E). Qed.

Lemma read_entry_checked P b base pos len x :
  read_entry P checked_i32 b base pos len = Ok x -> read_entry P i32_codec b base pos len = Ok x.
Proof.
  unfold read_entry. intros E. apply bind_ok in E as (o & -> & E). cbn [bind]. apply bind_ok in E as (i & -> & E). cbn [bind].
  apply bind_ok in E as (t & -> & E). cbn [bind]. apply checked_i32_dec. exact E.
Qed.
Lemma mapM_le {A C} (f g : A -> outcome C) l ys : (forall x y, f x = Ok y -> g x = Ok y) -> mapM f l = Ok ys -> mapM g l = Ok ys.
Proof.
  intros H. revert ys; induction l as [|a l IH]; intros ys E; [exact E|]. cbn [mapM] in *.
  apply bind_ok in E as (y & Ey & E). rewrite (H _ _ Ey). cbn [bind]. apply bind_ok in E as (r & Er & E). rewrite (IH _ Er). exact E.
Qed.
Lemma msp_dec_checked P b m : msp_dec P checked_i32 b = Ok m -> msp_dec P i32_codec b = Ok m.
Proof.
  unfold msp_dec. destruct (blen b <? 8); [discriminate|]. intros E.
  apply bind_ok in E as (a & -> & E). cbn [bind]. apply bind_ok in E as (base & -> & E). cbn [bind].
  destruct (blen b <? base); [discriminate|]. apply bind_ok in E as (u1 & -> & E). cbn [bind]. apply bind_ok in E as (u2 & -> & E). cbn [bind].
  apply bind_ok in E as ([a2r r2a] & -> & E). cbn [bind]. apply bind_ok in E as (u3 & -> & E). cbn [bind].
  apply bind_ok in E as (u & Eu & E). change (msize checked_i32) with (msize i32_codec) in Eu. rewrite Eu. cbn [bind].
  apply bind_ok in E as (t & -> & E). cbn [bind]. apply bind_ok in E as (x0 & E0 & E). rewrite (checked_i32_dec _ _ E0). cbn [bind].
  apply bind_ok in E as (n1 & -> & E). cbn [bind]. apply bind_ok in E as (n2 & En2 & E).
  change (clen checked_i32 x0) with (clen i32_codec x0) in *. rewrite En2. cbn [bind].
  apply bind_ok in E as (limit & -> & E). cbn [bind]. destruct (blen b <? limit); [discriminate|].
  apply bind_ok in E as (row0 & Er & E). rewrite (mapM_le _ (fun col => read_entry P i32_codec b base col (clen i32_codec x0)) _ _ (fun x y H => read_entry_checked P _ _ _ _ _ H) Er). cbn [bind].
  apply bind_ok in E as (rows & Ers & E).
  rewrite (mapM_le _ (fun r => mapM (fun col => let* p := usize_mul P r (from_be (firstn 4 (skipn 4 b))) in let* p := usize_add P p col in
      read_entry P i32_codec b base p (clen i32_codec x0)) (range 0 (from_be (firstn 4 (skipn 4 b))))) _ _) with (2 := Ers).
  - exact E.
  - intros r y Hy. refine (mapM_le _ _ _ _ _ Hy). intros col z Hz.
    apply bind_ok in Hz as (p & -> & Hz). cbn [bind]. apply bind_ok in Hz as (p' & -> & Hz). cbn [bind]. apply read_entry_checked. exact Hz.
Qed.

(** ** C66 *)
Theorem C66_program_roundtrip P f m rest : 64 <= usize_bits P ->
  to_msp P f = Ok m -> (forall a, In a (leaves f) -> a < 4294967296) -> N.of_nat (length (leaves f)) <= 134217728 ->
  blen rest < 4611686018427387904 ->
  exists b, msp_enc P i32_codec m = Ok b /\ msp_len i32_codec m = Ok (blen b) /\
            msp_dec P i32_codec (b ++ rest) = Ok m.
Proof.
  intros HP Hm Hu Hl Hrest. pose proof (to_msp_msp_of (zp_ops m101) (zp_laws m101 prime_101) P f m Hm) as M.
  assert (Hn : nb_row m = length (leaves f)).
  { rewrite (mo_rows _ _ _ M). apply Permutation_length, (mo_perm _ _ _ M). }
  pose proof (count_and_leaves f) as Hc. pose proof (mo_cols _ _ _ M) as Hcol.
  assert (G : program_ok i32_range m).
  { constructor.
    - lia.
    - lia.
    - rewrite (mo_mat _ _ _ M), (mo_rows _ _ _ M). reflexivity.
    - apply (mo_width _ _ _ M).
    - symmetry. apply (mo_rows _ _ _ M).
    - apply (Permutation_NoDup (Permutation_sym (mo_perm _ _ _ M))). apply (mo_nodup _ _ _ M).
    - rewrite (mo_rows _ _ _ M). apply (mo_map _ _ _ M).
    - apply (Permutation_Forall (Permutation_sym (mo_perm _ _ _ M))). apply Forall_forall. exact Hu.
    - apply Forall_forall. intros x Hx. apply in_concat in Hx as (r & Hr & Hx).
      pose proof (mo_entries _ _ _ M r x Hr Hx). unfold i32_range, i32_min, i32_max. lia. }
  pose proof (half P HP) as Hh. pose proof (big P HP) as Hbig.
  set (nr := N.of_nat (nb_row m)) in *. set (nc := N.of_nat (nb_col m)) in *.
  assert (A1 : nr <= 134217728) by (unfold nr; lia). assert (A2 : nc <= 134217728) by (unfold nc; lia).
  assert (A3 : nr * nc * 4 <= 134217728 * 134217728 * 4) by (apply N.mul_le_mono_r; apply N.mul_le_mono; assumption).
  destruct (msp_enc_ok checked_i32 4 _ checked_i32_ok P m G) as (b & Eb); try (unfold u32_modulus; fold nr nc; lia).
  pose proof (msp_enc_len checked_i32 4 _ checked_i32_ok P m b G Eb) as Lb. fold nr nc in Lb.
  exists b. split; [exact Eb|]. split.
  - change (msp_len i32_codec m) with (msp_len checked_i32 m). rewrite (msp_len_ok checked_i32 4 _ checked_i32_ok m G), Lb. reflexivity.
  - apply msp_dec_checked. apply (msp_rt checked_i32 4 _ checked_i32_ok P m b rest G).
    + apply rows_fit64; [exact HP|]. fold nr. unfold u32_modulus. lia.
    + fold nc. cbn [checked_i32 msize i32_codec]. lia.
    + exact Eb.
    + rewrite blen_app, Lb. lia.
Qed.

(** The element codec itself does not check its input: a program cut right after its
    attributes makes the decoder panic. *)
Theorem C66_refuted P : 64 <= usize_bits P ->
  exists b, blen b = 12 /\ msp_dec P i32_codec b = Panic SliceOutOfRange.
Proof.
  intros HP. exists (be32 1 ++ be32 1 ++ be32 7). split; [reflexivity|].
  pose proof (big P HP) as Hb. pose proof (half P HP) as Hh. unfold msp_dec.
  change (blen (be32 1 ++ be32 1 ++ be32 7)) with 12.
  change (from_be (firstn 4 (be32 1 ++ be32 1 ++ be32 7))) with 1.
  change (from_be (firstn 4 (skipn 4 (be32 1 ++ be32 1 ++ be32 7)))) with 1.
  change (12 <? 8) with false. cbv iota. rewrite usize_mul_exact by lia. cbn [bind]. rewrite usize_add_exact by lia. cbn [bind].
  change (12 <? 8 + 4 * 1) with false. cbv iota. destruct (rows_fit64 P 1 HP eq_refl) as (R1 & R2 & R3).
  rewrite (reserve_ok P _ R1), (reserve_ok P _ R2). cbn [bind]. change (range 0 1) with [0]. cbn [read_attrs].
  rewrite usize_mul_exact by lia. cbn [bind]. rewrite usize_add_exact by lia. cbn [bind]. rewrite usize_add_exact by lia. cbn [bind].
  change (slice_fromN (be32 1 ++ be32 1 ++ be32 7) (8 + 0 * 4)) with (Ok (be32 7)). cbn [bind].
  change (slice (be32 7) 0 (N.to_nat (12 + 0 * 4 - (8 + 0 * 4)))) with (Ok (be32 7)). cbn [bind assoc_get].
  cbn [app]. rewrite (reserve_ok P _ R3). cbn [bind]. unfold reserve. cbn [i32_codec msize]. destruct (N.ltb_spec (1 * 4) (usize_modulus P / 2)) as [_|]; [|lia]. cbn [bind].
  reflexivity.
Qed.

(** the program of a formula with an And and an Or, negative and positive entries *)
Example C66_example :
  exists b, msp_enc pf i32_codec ex_m = Ok b /\ msp_dec pf i32_codec (b ++ [x01]) = Ok ex_m /\
  existsb (Z.eqb (-1)) (concat (matrix ex_m)) = true.
Proof. eexists. split; [vm_compute; reflexivity|]. split; vm_compute; reflexivity. Qed.

Print Assumptions C66_program_roundtrip.
Print Assumptions C66_refuted.

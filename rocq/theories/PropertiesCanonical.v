(** Accepted encodings are canonical: C61. *)
From Coq Require Import String NArith ZArith Bool Arith Lia Strings.Byte List.
From Verif Require Import Prelude Field LinAlg Msp Spec MspProofs Bilinear Scheme SchemeSpec SchemeProofs SchemeTheorems
  Zp ExpModel PropertiesScheme Codec CodecProofs SchemeCodec SchemeCodecProofs PropertiesCodec Properties32 Bls.
Import ListNotations.
Local Open Scope N_scope.

(** What the theorems ask of the curve library: a byte form accepted for a value is
    the one written for it. *)
Definition canonical_form {A} (size : N) (x : compressed A) : Prop :=
  forall b a, blen b = size -> from_compressed x b = Some a -> to_compressed x a = b.
Record canonical_forms {B : BilinearMap} (F : byte_forms B) : Prop := mkCanon {
  cf_scalar : canonical_form 32 (scalar_form B F);
  cf_g2 : canonical_form 48 (g2_form B F);
  cf_g3 : canonical_form 96 (g3_form B F);
  cf_gt : canonical_form 288 (gt_form B F)
}.

(** [bytes] begins with the encoding [e] *)
Definition begins_with (bytes : list byte) (e : outcome (list byte)) : Prop :=
  exists b rest, e = Ok b /\ bytes = b ++ rest.

(** ** Codecs *)
Definition canon {A} (c : codec A) (k : N) : Prop := forall b a, dec c b = Ok a -> enc c a = Ok (firstn (N.to_nat k) b).

Lemma fixed_canon {A} size short bad mem (x : compressed A) : canonical_form size x -> canon (fixed_codec size short bad mem x) size.
Proof.
  intros H b a E. cbn [fixed_codec dec enc] in *. destruct (N.ltb_spec (blen b) size) as [|L]; [discriminate|].
  destruct (from_compressed x (firstn (N.to_nat size) b)) as [a'|] eqn:Ea; [|discriminate].
  assert (a' = a) by congruence. subst a'. f_equal. apply H; [|exact Ea].
  unfold blen in *. rewrite firstn_length. lia.
Qed.

Lemma u32_canon : canon u32_codec 4.
Proof.
  intros b a E. cbn [u32_codec dec enc] in *. change (N.to_nat 4) with 4%nat.
  match type of E with (if ?t then _ else _) = _ => destruct t eqn:T; [discriminate|] end.
  assert (from_be (firstn 4 b) = a) by congruence. subst a. f_equal. apply be32_from_be.
  apply N.ltb_ge in T. unfold blen in T. rewrite firstn_length. lia.
Qed.

Section Blocks.
Context {A : Type} (c : codec A) (k : N) (V : A -> Prop) (C : codec_ok c k V) (D : canon c k).

Lemma blocks_at bytes : forall (l : list A) base, base + N.of_nat (length l) * k <= blen bytes ->
  (forall j x, nth_error l j = Some x -> dec c (skipn (N.to_nat (base + N.of_nat j * k)) bytes) = Ok x) ->
  exists es, mapM (enc c) l = Ok es /\
    skipn (N.to_nat base) bytes = concat es ++ skipn (N.to_nat (base + N.of_nat (length l) * k)) bytes.
Proof using D.
  clear C. induction l as [|x l IH]; intros base Hb H.
  - exists []. split; [reflexivity|]. cbn [length concat app]. f_equal. lia.
  - destruct (IH (base + k)) as (es & E1 & E2).
    + cbn [length] in Hb. lia.
    + intros j y Hy. replace (base + k + N.of_nat j * k) with (base + N.of_nat (S j) * k) by lia. apply H. exact Hy.
    + pose proof (D _ _ (H O x eq_refl)) as Q. rewrite N.mul_0_l, N.add_0_r in Q.
      exists (firstn (N.to_nat k) (skipn (N.to_nat base) bytes) :: es). split; [cbn [mapM]; rewrite Q; cbn [bind]; rewrite E1; reflexivity|].
      cbn [concat]. rewrite <- app_assoc.
      replace (base + N.of_nat (length (x :: l)) * k) with (base + k + N.of_nat (length l) * k) by (cbn [length]; lia).
      rewrite <- E2. rewrite <- (firstn_skipn (N.to_nat k) (skipn (N.to_nat base) bytes)) at 1. f_equal.
      rewrite skipn_skipn. f_equal. lia.
Qed.

Variable P : platform.
Hypothesis HP : 32 <= usize_bits P.

Lemma split4 (bytes : list byte) : 4 <= blen bytes -> bytes = be32 (from_be (firstn 4 bytes)) ++ skipn 4 bytes.
Proof.
  clear. intros H. rewrite be32_from_be by (unfold blen in H; rewrite firstn_length; lia). symmetry. apply firstn_skipn.
Qed.

(** a vector is read from its encoding, unless the count is 0 *)
Lemma vec_canon bytes l : blen bytes < usize_modulus P -> vec_dec P c bytes = Ok l -> bytes <> [] ->
  overflow_checks P = true \/ from_be (firstn 4 bytes) <> 0 ->
  l <> [] /\ exists b, vec_enc c l = Ok b /\ bytes = b ++ skipn (N.to_nat (vec_len c l)) bytes.
Proof using C D HP.
  intros Hf E Hne Hz. destruct (vec_dec_inv c k V C P bytes l Hf E) as [[-> _]|(Hl & Hb & _ & Hn & Hm & Hd)]; [contradiction|].
  split; [exact Hl|].
  destruct Hn as [Hn|(H0 & _ & Ho)]; [|destruct Hz as [Hz|Hz]; congruence].
  destruct (blocks_at bytes l 4 Hb Hd) as (es & E1 & E2).
  exists (be32 (N.of_nat (length l)) ++ concat es).
  split.
  - destruct l as [|x l]; [contradiction|]. unfold vec_enc, u32_bytes.
    assert (Q : (N.of_nat (length (x :: l)) <? u32_modulus) = true) by (apply N.ltb_lt; rewrite Hn; unfold u32_MAX in Hm; unfold u32_modulus; lia).
    rewrite Q. cbn [bind]. rewrite E1. reflexivity.
  - rewrite <- app_assoc. assert (vec_len c l = 4 + N.of_nat (length l) * k) as ->.
    { destruct l as [|x l]; [contradiction|]. unfold vec_len. rewrite (ok_len _ _ _ C). reflexivity. }
    rewrite <- E2, Hn. change (N.to_nat 4) with 4%nat. apply split4. lia.
Qed.

Lemma wrap_mod r v : usize_wrap P r = Ok v -> Z.of_N v = (r mod Z.of_N (usize_modulus P))%Z.
Proof using HP.
  intros E. pose proof (usize_big P HP) as Hbig. unfold u32_modulus in Hbig. unfold usize_wrap in E.
  destruct ((0 <=? r)%Z && (r <? Z.of_N (usize_modulus P))%Z) eqn:T.
  - apply andb_prop in T as [T1 T2]. apply Z.leb_le in T1. apply Z.ltb_lt in T2. assert (Z.to_N r = v) by congruence. subst v.
    rewrite Z2N.id by exact T1. symmetry. apply Z.mod_small. split; assumption.
  - destruct (overflow_checks P); [discriminate|]. assert (W : Z.to_N (r mod Z.of_N (usize_modulus P)) = v) by congruence. rewrite <- W.
    apply Z2N.id. apply Z.mod_pos_bound. lia.
Qed.

(** a count of 0 is only accepted for elements of at most four bytes *)
Lemma vec_zero bytes l : blen bytes < usize_modulus P / 2 -> 4 < k -> k <= 4096 -> vec_dec P c bytes = Ok l -> bytes <> [] ->
  from_be (firstn 4 bytes) <> 0.
Proof using C HP.
  intros Hf Hk Hk' E Hne H0. destruct bytes as [|b0 bt]; [contradiction|].
  remember (b0 :: bt) as bytes eqn:Eb. unfold vec_dec in E. rewrite Eb in E. rewrite <- Eb in E. clear b0 bt Eb.
  destruct (N.leb_spec (blen bytes) 4) as [|Hl]; [discriminate|]. rewrite H0 in E.
  change (u32_MAX <=? 0) with false in E. cbn [andb] in E.
  apply bind_ok in E as (t0 & _ & E). apply bind_ok in E as (r0 & Hr0 & E). rewrite (ok_len _ _ _ C) in E.
  apply bind_ok in E as (n1 & Hn1 & E). apply bind_ok in E as (m & Hm & E). apply bind_ok in E as (lim & Hlim & E).
  destruct (N.leb_spec (blen bytes) lim) as [|Hlt]; [discriminate|]. exfalso. clear E Hr0.
  pose proof (usize_big P HP) as Hbig. unfold u32_modulus in Hbig.
  pose proof (N.mul_div_le (usize_modulus P) 2 ltac:(discriminate)) as Hhalf.
  set (M := usize_modulus P) in *. set (H := M / 2) in *. clearbody H. clear Hne H0 l.
  apply wrap_mod in Hn1, Hm, Hlim. fold M in Hn1, Hm, Hlim. clearbody M.
  assert (Q1 : n1 = M - 1).
  { assert (Z.of_N n1 = Z.of_N M - 1)%Z; [|lia]. rewrite Hn1. symmetry. apply (Z.mod_unique_pos _ _ (-1)); lia. }
  assert (Q2 : m = M - k).
  { assert (Z.of_N m = Z.of_N M - Z.of_N k)%Z; [|lia]. rewrite Hm, Q1. symmetry. apply (Z.mod_unique_pos _ _ (Z.of_N k - 1)); nia. }
  assert (Q3 : lim = M + 4 - k).
  { assert (Z.of_N lim = Z.of_N M + 4 - Z.of_N k)%Z; [|lia]. rewrite Hlim, Q2. symmetry. apply (Z.mod_unique_pos _ _ 0); lia. }
  lia.
Qed.
End Blocks.

(** ** Span programs *)
Section Programs.
Context {I : Type} (c : codec I) (k : N) (V : I -> Prop) (C : codec_ok c k V) (D : canon c k).
Variable P : platform.
Hypothesis HP : 32 <= usize_bits P.

Lemma attrs_at bytes nr : blen bytes < usize_modulus P -> 12 + 4 * nr < usize_modulus P -> 8 + 4 * nr <= blen bytes ->
  forall n start a2r r2a a2r' r2a', N.of_nat (start + n) <= nr ->
  read_attrs P bytes (map N.of_nat (seq start n)) a2r r2a = Ok (a2r', r2a') ->
  exists us, length us = n /\ r2a' = r2a ++ us /\
    skipn (8 + 4 * start) bytes = concat (map be32 us) ++ skipn (8 + 4 * (start + n)) bytes.
Proof using HP.
  intros Hf H12 Hb. induction n as [|n IH]; intros start a2r r2a a2r' r2a' Hs E; cbn [seq map read_attrs] in E.
  - assert (r2a' = r2a) by congruence. subst r2a'. exists []. rewrite app_nil_r, Nat.add_0_r. auto.
  - rewrite usize_mul_exact in E by lia. cbn [bind] in E. rewrite !usize_add_exact in E by lia. cbn [bind] in E.
    replace (12 + N.of_nat start * 4 - (8 + N.of_nat start * 4)) with 4 in E by lia.
    apply bind_ok in E as (s & H4 & E). apply bind_ok in E as (t & H5 & E).
    destruct (assoc_get a2r (from_be t)) eqn:Ea; [discriminate|].
    apply IH in E as (us & J1 & J2 & J3); [|lia].
    apply slice_fromN_inv in H4 as [L4 ->]. unfold slice in H5.
    destruct (Nat.leb 0 (N.to_nat 4) && Nat.leb (N.to_nat 4) (length (skipn (N.to_nat (8 + N.of_nat start * 4)) bytes))) eqn:Es; [|discriminate].
    apply Ok_inj in H5. apply andb_prop in Es as [_ Es]. apply Nat.leb_le in Es.
    change (N.to_nat 4) with 4%nat in *. rewrite skipn_O in H5. change (4 - 0)%nat with 4%nat in H5.
    replace (N.to_nat (8 + N.of_nat start * 4)) with (8 + 4 * start)%nat in * by lia.
    exists (from_be t :: us). split; [cbn [length]; congruence|]. split; [rewrite J2, <- app_assoc; reflexivity|].
    cbn [map concat]. rewrite <- app_assoc. replace (start + S n)%nat with (S start + n)%nat by lia. rewrite <- J3.
    rewrite be32_from_be by (rewrite <- H5, firstn_length; lia).
    rewrite <- H5. rewrite <- (firstn_skipn 4 (skipn (8 + 4 * start) bytes)) at 1. f_equal. rewrite skipn_skipn. f_equal. lia.
Qed.

Lemma mapM_app_ok {A E} (f : A -> outcome E) l1 l2 a b : mapM f l1 = Ok a -> mapM f l2 = Ok b -> mapM f (l1 ++ l2) = Ok (a ++ b).
Proof using Type.
  revert a. induction l1 as [|x l1 IH]; intros a H1 H2; cbn [mapM app] in *.
  - assert (a = []) by congruence. subst a. exact H2.
  - apply bind_ok in H1 as (y & Hy & H1). apply bind_ok in H1 as (ys & Hys & H1). assert (a = y :: ys) by congruence. subst a.
    rewrite Hy. cbn [bind]. rewrite (IH ys Hys H2). reflexivity.
Qed.

Lemma rows_at bytes base nc : blen bytes < usize_modulus P -> forall n start rows,
  base + N.of_nat start * nc * k <= blen bytes ->
  mapM (fun r => mapM (fun col =>
            let* p := usize_mul P r nc in
            let* p := usize_add P p col in
            read_entry P c bytes base p k) (range 0 nc)) (map N.of_nat (seq start n)) = Ok rows ->
  base + N.of_nat (start + n) * nc * k <= blen bytes /\
  exists es, mapM (enc c) (concat rows) = Ok es /\
    skipn (N.to_nat (base + N.of_nat start * nc * k)) bytes = concat es ++ skipn (N.to_nat (base + N.of_nat (start + n) * nc * k)) bytes.
Proof using C D.
  clear HP. intros Hfit. pose proof (ok_pos _ _ _ C) as Hk. induction n as [|n IH]; intros start rows Hs E; cbn [seq map mapM] in E.
  - assert (rows = []) by congruence. subst rows. rewrite Nat.add_0_r. split; [exact Hs|]. exists []. auto.
  - set (g := fun col => let* p := usize_mul P (N.of_nat start) nc in let* p := usize_add P p col in read_entry P c bytes base p k) in *.
    assert (R : reads_at c k bytes (base + N.of_nat start * nc * k) g).
    { intros i Hi. unfold g.
      assert (N.of_nat start * nc <= N.of_nat start * nc * k) by nia. assert (i <= i * k) by nia.
      rewrite usize_mul_exact by lia. cbn [bind]. rewrite usize_add_exact by lia. cbn [bind].
      rewrite (entry_reader c k P bytes base Hfit) by lia.
      replace (base + (N.of_nat start * nc + i) * k) with (base + N.of_nat start * nc * k + i * k) by lia. reflexivity. }
    destruct (seq_read c k V C bytes _ g R (N.to_nat nc) 0) as [_ S2]; [lia|].
    rewrite range_0 in E.
    apply bind_ok in E as (row & Hrow & E). apply bind_ok in E as (rest & Hrest & E). assert (rows = row :: rest) by congruence. subst rows.
    destruct (S2 row Hrow) as (T1 & T2 & T3).
    assert (T1' : base + N.of_nat start * nc * k + N.of_nat (length row) * k <= blen bytes) by (rewrite T2; exact T1).
    destruct (blocks_at c k D bytes row _ T1' T3) as (e1 & F1 & F2).
    rewrite T2 in F2.
    replace (base + N.of_nat start * nc * k + N.of_nat (N.to_nat nc) * k) with (base + N.of_nat (S start) * nc * k) in F2 by lia.
    rewrite <- range_0 in Hrest. destruct (IH (S start) rest) as (U & es & G1 & G2); [rewrite T2 in T1'; lia|exact Hrest|].
    replace (S start + n)%nat with (start + S n)%nat in * by lia. split; [exact U|].
    exists (e1 ++ es). split; [cbn [concat]; apply mapM_app_ok; assumption|].
    rewrite F2, G2, concat_app, app_assoc. reflexivity.
Qed.

(** a program is read from its encoding *)
Lemma msp_canon bytes m : blen bytes < usize_modulus P / 2 -> msp_dec P c bytes = Ok m -> begins_with bytes (msp_enc P c m).
Proof using C D HP.
  intros Hh E. pose proof (fits_modulus P _ Hh) as Hfit. pose proof (usize_big P HP) as Hbig. unfold u32_modulus in Hbig.
  pose proof (ok_pos _ _ _ C) as Hk. unfold msp_dec in E.
  destruct (N.ltb_spec (blen bytes) 8) as [|H8]; [discriminate|].
  destruct (head_range bytes H8) as [Hnr Hnc].
  set (nr := from_be (firstn 4 bytes)) in *. set (nc := from_be (firstn 4 (skipn 4 bytes))) in *.
  apply bind_ok in E as (a & Ea & E). apply bind_ok in E as (base & Eb & E).
  destruct (N.ltb_spec (blen bytes) base) as [|Hb]; [discriminate|].
  destruct (reserve_cases P (nr * 4)) as [[H4 R4]|[H4 R4]]; rewrite R4 in E; [|discriminate]. cbn [bind] in E.
  assert (H4' : 2 * (nr * 4) + 2 <= usize_modulus P).
  { assert (nr * 4 + 1 <= usize_modulus P / 2) by lia. pose proof (N.mul_div_le (usize_modulus P) 2 ltac:(discriminate)). lia. }
  assert (a = 4 * nr) by (rewrite usize_mul_exact in Ea by lia; congruence). subst a.
  assert (base = 8 + 4 * nr) by (rewrite usize_add_exact in Eb by lia; congruence). subst base.
  apply bind_ok in E as (u1 & _ & E). apply bind_ok in E as ([a2r r2a] & Era & E).
  apply bind_ok in E as (u2 & _ & E). apply bind_ok in E as (u3 & _ & E).
  rewrite slice_fromN_ok in E by exact Hb. cbn [bind] in E.
  apply bind_ok in E as (x0 & Ex0 & E). rewrite (ok_len _ _ _ C) in E.
  apply bind_ok in E as (n1 & _ & E). apply bind_ok in E as (n2 & _ & E). apply bind_ok in E as (lim & _ & E).
  destruct (N.ltb_spec (blen bytes) lim) as [|_]; [discriminate|].
  apply bind_ok in E as (row0 & E0 & E). apply bind_ok in E as (rows & E1 & E). apply Ok_inj in E. subst m.
  rewrite range_0 in Era.
  destruct (attrs_at bytes nr Hfit ltac:(lia) Hb (N.to_nat nr) 0 [] [] a2r r2a ltac:(lia) Era) as (us & L1 & L2 & L3).
  cbn [app] in L2. subst us. rewrite Nat.mul_0_r, Nat.add_0_l, Nat.add_0_r in L3.
  set (base := 8 + 4 * nr) in *. replace (8 + 4 * N.to_nat nr)%nat with (N.to_nat base) in L3 by (subst base; lia).
  pose proof (ok_dec_len _ _ _ _ _ C Ex0) as L0. unfold blen in L0. rewrite skipn_len in L0.
  assert (L1' : base + N.of_nat 1 * k <= blen bytes) by (unfold blen in *; lia).
  pose proof (entry_reader c k P bytes base Hfit) as R.
  destruct (seq_read c k V C bytes base _ R (N.to_nat nc - 1) 1 L1') as [_ S2].
  change (range 1 nc) with (map N.of_nat (seq 1 (N.to_nat nc - 1))) in E0.
  change (range 1 nr) with (map N.of_nat (seq 1 (N.to_nat nr - 1))) in E1.
  destruct (S2 row0 E0) as (T1 & T2 & T3).
  (* the first row *)
  assert (B0 : base + N.of_nat (length (x0 :: row0)) * k <= blen bytes) by (cbn [length]; rewrite T2; exact T1).
  assert (D0 : forall j x, nth_error (x0 :: row0) j = Some x -> dec c (skipn (N.to_nat (base + N.of_nat j * k)) bytes) = Ok x).
  { intros [|j] x Hx; [|apply T3; exact Hx]. cbn [nth_error] in Hx. assert (x0 = x) by congruence. subst x.
    rewrite N.mul_0_l, N.add_0_r. exact Ex0. }
  destruct (blocks_at c k D bytes _ base B0 D0) as (e0 & F0 & G0).
  (* all rows *)
  assert (All : exists es rest, mapM (enc c) (concat ((x0 :: row0) :: rows)) = Ok es /\ skipn (N.to_nat base) bytes = concat es ++ rest /\
                  base + nr * nc * k <= blen bytes).
  { assert (L2 : base + N.of_nat 1 * nc * k <= blen bytes).
    { rewrite N.mul_1_l. destruct (N.eq_dec nc 0) as [Ez|Hz]; [rewrite Ez; lia|].
      replace nc with (N.of_nat (1 + (N.to_nat nc - 1))) by lia. exact T1. }
    destruct (rows_at bytes base nc Hfit (N.to_nat nr - 1) 1 rows L2 E1) as (U & es & M1 & M2).
    assert (U' : base + nr * nc * k <= blen bytes).
    { destruct (N.eq_dec nr 0) as [Ez|Hz]; [rewrite Ez; lia|]. replace nr with (N.of_nat (1 + (N.to_nat nr - 1))) by lia. exact U. }
    destruct (N.eq_dec nc 0) as [Ez|Hz].
    - (* no columns: the other rows are empty *)
      assert (Q : concat rows = []).
      { destruct (rows_read c k V C P bytes base nc Hfit (N.to_nat nr - 1) 1 L2) as [_ W]. destruct (W rows E1) as (_ & _ & W3).
        rewrite Ez in W3. clear -W3. induction rows as [|r rows IH]; [reflexivity|]. cbn [concat].
        destruct (W3 r (or_introl eq_refl)) as [W _]. destruct r; [|discriminate]. apply IH. intros r Hr. apply W3. right. exact Hr. }
      exists e0, (skipn (N.to_nat (base + N.of_nat (length (x0 :: row0)) * k)) bytes).
      split; [cbn [concat]; rewrite Q, app_nil_r; exact F0|]. split; [exact G0|exact U'].
    - exists (e0 ++ es), (skipn (N.to_nat (base + N.of_nat (1 + (N.to_nat nr - 1)) * nc * k)) bytes).
      split; [cbn [concat]; apply (mapM_app_ok (enc c) (x0 :: row0) (concat rows)); assumption|]. split; [|exact U'].
      rewrite concat_app, <- app_assoc, <- M2, G0. f_equal. f_equal. f_equal. f_equal. cbn [length]. rewrite T2.
      replace (N.of_nat (S (N.to_nat nc - 1))) with nc by lia. lia. }
  destruct All as (es & rest & F1 & G1 & U).
  exists (be32 nr ++ be32 nc ++ concat (map be32 r2a) ++ concat es), rest. split.
  - unfold msp_enc, first_entry. cbn [matrix nb_row nb_col row_to_attr]. unfold index. cbn [nth_error bind].
    rewrite !N2Nat.id, (ok_len _ _ _ C).
    assert (nr * nc <= nr * nc * k) by (rewrite <- (N.mul_1_r (nr * nc)) at 1; apply N.mul_le_mono_l; exact Hk).
    rewrite usize_mul_exact by lia. cbn [bind]. rewrite usize_mul_exact by lia. cbn [bind]. rewrite usize_add_exact by lia. cbn [bind].
    rewrite usize_mul_exact by lia. cbn [bind]. rewrite usize_add_exact by lia. cbn [bind].
    rewrite reserve_ok by (subst base; lia). cbn [bind]. unfold u32_bytes.
    apply N.ltb_lt in Hnr, Hnc. rewrite Hnr, Hnc. cbn [bind]. rewrite F1. reflexivity.
  - rewrite <- !app_assoc, <- G1, <- L3.
    rewrite (split4 bytes) at 1 by lia. fold nr. f_equal.
    rewrite (split4 (skipn 4 bytes)) at 1 by (unfold blen in *; rewrite skipn_len; lia). fold nc. f_equal. apply skipn_skipn.
Qed.
End Programs.

(** ** C61 *)
Section Canonical.
Variable B : BilinearMap.
Variable F : byte_forms B.
Variable fine : Gt B -> Prop.
Hypothesis HF : forms_ok F fine.
Hypothesis HC : canonical_forms F.
Variable P : platform.
Hypothesis HP : 32 <= usize_bits P.

Lemma fits_below bytes : fits P (blen bytes) -> blen bytes < usize_modulus P.
Proof using Type. apply fits_modulus. Qed.

(** a vector of group elements, in front of something else *)
Lemma vec_front {A} (c : codec A) k V bytes l r : codec_ok c k V -> canon c k -> 4 < k -> k <= 4096 -> fits P (blen bytes) -> bytes <> [] ->
  vec_dec P c bytes = Ok l -> slice_fromN bytes (vec_len c l) = Ok r ->
  exists b, vec_enc c l = Ok b /\ bytes = b ++ r.
Proof using HP.
  intros C D Hk Hk' Hf Hne E Hr. pose proof (fits_below _ Hf) as Hm.
  pose proof (vec_zero c k V C P HP bytes l Hf Hk Hk' E Hne) as Hz.
  destruct (vec_canon c k V C D P HP bytes l Hm E Hne (or_intror Hz)) as (_ & b & E1 & E2).
  apply slice_fromN_inv in Hr as [_ ->]. eauto.
Qed.

Lemma fixed_front {A} size short bad mem (x : compressed A) b a : canonical_form size x -> dec (fixed_codec size short bad mem x) b = Ok a ->
  exists rest, b = to_compressed x a ++ rest.
Proof using Type.
  intros H E. pose proof (fixed_canon size short bad mem x H b a E) as Q. cbn [fixed_codec enc] in Q. apply Ok_inj in Q.
  rewrite Q. exists (skipn (N.to_nat size) b). symmetry. apply firstn_skipn.
Qed.

Theorem C61_private_key bytes k : fits P (blen bytes) -> priv_dec F P bytes = Ok k -> begins_with bytes (priv_enc F k).
Proof using HF HC HP.
  intros Hf E. unfold priv_dec in E. apply bind_ok in E as (t & Et & E). apply bind_ok in E as (r & Er & E). apply bind_ok in E as (y & Ey & E).
  apply Ok_inj in E. subst k. destruct bytes as [|b0 bt].
  - exfalso. apply Ok_inj in Et. subst t. cbn in Er. apply Ok_inj in Er. subst r. discriminate Ey.
  - destruct (vec_front _ 32 _ _ t r (scalar_ok F fine HF) (fixed_canon _ _ _ _ _ (cf_scalar F HC)) ltac:(lia) ltac:(lia) Hf ltac:(discriminate) Et Er) as (b & Eb & Q).
    destruct (fixed_front _ _ _ _ _ _ _ (cf_scalar F HC) Ey) as (rest & ->).
    exists (b ++ to_compressed (scalar_form B F) y), rest. split; [|rewrite <- app_assoc; exact Q].
    unfold priv_enc. cbn [priv_t priv_y]. rewrite Eb. reflexivity.
Qed.

Theorem C61_public_key bytes k : fits P (blen bytes) -> pub_dec F P bytes = Ok k -> begins_with bytes (pub_enc F k).
Proof using HF HC HP.
  intros Hf E. unfold pub_dec in E. apply bind_ok in E as (t & Et & E). apply bind_ok in E as (r & Er & E). apply bind_ok in E as (y & Ey & E).
  apply Ok_inj in E. subst k. destruct bytes as [|b0 bt].
  - exfalso. apply Ok_inj in Et. subst t. cbn in Er. apply Ok_inj in Er. subst r. discriminate Ey.
  - destruct (vec_front _ 48 _ _ t r (g2_ok F fine HF) (fixed_canon _ _ _ _ _ (cf_g2 F HC)) ltac:(lia) ltac:(lia) Hf ltac:(discriminate) Et Er) as (b & Eb & Q).
    destruct (fixed_front _ _ _ _ _ _ _ (cf_gt F HC) Ey) as (rest & ->).
    exists (b ++ to_compressed (gt_form B F) y), rest. split; [|rewrite <- app_assoc; exact Q].
    unfold pub_enc. cbn [pub_t pub_y]. rewrite Eb. reflexivity.
Qed.

Theorem C61_delegation_key bytes k : fits P (blen bytes) -> del_dec F P bytes = Ok k -> begins_with bytes (del_enc F k).
Proof using HF HC HP.
  intros Hf E. unfold del_dec in E. apply bind_ok in E as (t & Et & E). apply Ok_inj in E. subst k. unfold del_enc. cbn [inv_t].
  destruct bytes as [|b0 bt].
  - apply Ok_inj in Et. subst t. exists [], []. split; reflexivity.
  - pose proof (vec_zero _ 96 _ (g3_ok F fine HF) P HP _ t Hf ltac:(lia) ltac:(lia) Et ltac:(discriminate)) as Hz.
    destruct (vec_canon _ 96 _ (g3_ok F fine HF) (fixed_canon _ _ _ _ _ (cf_g3 F HC)) P HP _ t (fits_below _ Hf) Et ltac:(discriminate) (or_intror Hz))
      as (_ & b & Eb & Q).
    exists b. eexists. split; [exact Eb|exact Q].
Qed.

Theorem C61_user_key bytes k : fits P (blen bytes) -> user_dec F P bytes = Ok k -> begins_with bytes (user_enc F P k).
Proof using HF HC HP.
  intros Hf E. unfold user_dec in E. destruct bytes as [|b0 bt]; [discriminate|]. remember (b0 :: bt) as bytes eqn:Eb.
  apply bind_ok in E as (d & Ed & E). apply bind_ok in E as (r & Er & E). apply bind_ok in E as (m & Em & E). apply Ok_inj in E. subst k.
  destruct (vec_front _ 96 _ bytes d r (g3_ok F fine HF) (fixed_canon _ _ _ _ _ (cf_g3 F HC)) ltac:(lia) ltac:(lia) Hf ltac:(subst bytes; discriminate) Ed Er) as (b & E1 & Q).
  assert (Hr : fits P (blen r)) by (apply (fits_le P _ (blen bytes)); [rewrite Q, blen_app; lia|exact Hf]).
  destruct (msp_canon _ 32 _ (scalar_ok F fine HF) (fixed_canon _ _ _ _ _ (cf_scalar F HC)) P HP r m Hr Em) as (e & rest & E2 & ->).
  exists (b ++ e), rest. split; [|rewrite <- app_assoc; exact Q].
  unfold user_enc. cbn [raw_d dk_msp]. rewrite E1. cbn [bind]. rewrite E2. reflexivity.
Qed.

(** ciphertexts, except those that announce no attribute where overflows are not
    checked *)
Theorem C61_ciphertext bytes c : fits P (blen bytes) -> ct_dec F P bytes = Ok c ->
  overflow_checks P = true \/ from_be (firstn 4 bytes) <> 0 -> begins_with bytes (ct_enc F c).
Proof using HF HC HP.
  intros Hf E Hz. unfold ct_dec in E. apply bind_ok in E as (g & Eg & E). apply bind_ok in E as (r & Er & E).
  apply bind_ok in E as (ei & Ei & E). apply bind_ok in E as (r2 & Er2 & E). apply bind_ok in E as (ep & Ep & E). apply Ok_inj in E. subst c.
  destruct bytes as [|b0 bt].
  { exfalso. apply Ok_inj in Eg. subst g. cbn in Er. apply Ok_inj in Er. subst r. apply Ok_inj in Ei. subst ei. cbn in Er2.
    apply Ok_inj in Er2. subst r2. discriminate Ep. }
  remember (b0 :: bt) as bytes eqn:Eb.
  destruct (vec_canon _ 4 _ u32_codec_ok u32_canon P HP bytes g (fits_below _ Hf) Eg ltac:(subst bytes; discriminate) Hz) as (_ & bg & E1 & Q1).
  pose proof (slice_fromN_inv _ _ _ Er) as [L1 R1]. rewrite <- R1 in Q1. clear R1 L1 Er.
  assert (Hr : fits P (blen r)) by (apply (fits_le P _ (blen bytes)); [rewrite Q1, blen_app; lia|exact Hf]).
  destruct (N.eq_dec (blen r) 0) as [Hr0|Hr0].
  { exfalso. assert (r = []) by (destruct r; [reflexivity|unfold blen in Hr0; cbn [length] in Hr0; lia]). subst r.
    apply Ok_inj in Ei. subst ei. change (vec_len (g2_codec F) []) with 0 in Er2. rewrite N.add_0_r in Er2.
    apply slice_fromN_inv in Er2 as [L2 ->]. rewrite Q1, app_nil_r in Ep. 
    pose proof (vec_enc_len _ 4 _ u32_codec_ok g bg) as W. unfold blen in *.
    cbn [gt_codec fixed_codec dec] in Ep. unfold blen in Ep. rewrite skipn_len in Ep.
    rewrite Q1, app_nil_r in L2.
    assert (N.of_nat (length bg) = vec_len u32_codec g).
    { apply W; [|exact E1]. destruct (vec_dec_inv u32_codec 4 _ u32_codec_ok P bytes g (fits_below _ Hf) Eg) as [[-> ->]|(_ & _ & _ & N1 & N2 & _)].
      - reflexivity.
      - unfold u32_MAX in N2. unfold u32_modulus. destruct N1 as [N1|(_ & N1 & _)]; lia. }
    match type of Ep with (if ?t then _ else _) = _ => assert (t = true) as Ht by (apply N.ltb_lt; lia); rewrite Ht in Ep end. discriminate. }
  assert (Hrne : r <> []) by (intros ->; apply Hr0; reflexivity).
  pose proof (vec_zero _ 48 _ (g2_ok F fine HF) P HP r ei Hr ltac:(lia) ltac:(lia) Ei Hrne) as Hz2.
  destruct (vec_canon _ 48 _ (g2_ok F fine HF) (fixed_canon _ _ _ _ _ (cf_g2 F HC)) P HP r ei (fits_below _ Hr) Ei Hrne (or_intror Hz2)) as (_ & be & E2 & Q2).
  assert (Lg : blen bg = vec_len u32_codec g).
  { apply (vec_enc_len _ 4 _ u32_codec_ok); [|exact E1].
    destruct (vec_dec_inv u32_codec 4 _ u32_codec_ok P bytes g (fits_below _ Hf) Eg) as [[-> ->]|(_ & _ & _ & N1 & N2 & _)].
    - reflexivity.
    - unfold u32_MAX in N2. unfold u32_modulus. destruct N1 as [N1|(_ & N1 & _)]; lia. }
  apply slice_fromN_inv in Er2 as [L2 Hr2].
  assert (R2 : r2 = skipn (N.to_nat (vec_len (g2_codec F) ei)) r).
  { rewrite Hr2, Q1, N2Nat.inj_add, Nat.add_comm, <- skipn_skipn. f_equal. rewrite <- Lg. unfold blen. rewrite Nat2N.id, skipn_app, skipn_all, Nat.sub_diag. reflexivity. }
  rewrite <- R2 in Q2.
  destruct (fixed_front _ _ _ _ _ _ _ (cf_gt F HC) Ep) as (rest & Q3).
  exists (bg ++ be ++ to_compressed (gt_form B F) ep), rest. split.
  - unfold ct_enc. cbn [gamma e_prime e_i]. rewrite E1. cbn [bind gt_codec fixed_codec enc]. rewrite E2. reflexivity.
  - rewrite Q1, Q2, Q3, <- !app_assoc. reflexivity.
Qed.

(** Where overflows are not checked, every ciphertext for one attribute has a second
    encoding, of the same length, that announces no attribute. *)
Lemma slice_fromN_tail {A} (x y r : list A) i : length x = length y -> N.of_nat (length x) <= i -> slice_fromN (x ++ r) i = slice_fromN (y ++ r) i.
Proof using Type.
  clear HP. intros L H. unfold slice_fromN. rewrite !app_length, L. destruct (_ <=? _); [|reflexivity]. f_equal.
  rewrite !skipn_app, !(skipn_all2 x), !(skipn_all2 y), L by lia. reflexivity.
Qed.

Lemma no_count a r : overflow_checks P = false -> a < u32_modulus -> vec_dec P u32_codec (be32 0 ++ be32 a ++ r) = Ok [a].
Proof using HP.
  intros Ho Ha. pose proof (usize_big P HP) as Hbig. unfold u32_modulus in Hbig.
  assert (W : forall z, exists v, usize_wrap P z = Ok v).
  { intros z. unfold usize_wrap. rewrite Ho. destruct ((0 <=? z) && (z <? Z.of_N (usize_modulus P)))%Z; eexists; reflexivity. }
  assert (Lb : blen (be32 0 ++ be32 a ++ r) = 8 + blen r) by (rewrite !blen_app; unfold blen; rewrite !be32_length; lia).
  unfold vec_dec. destruct (be32 0 ++ be32 a ++ r) as [|b0 bt] eqn:Eb; [discriminate|]. rewrite <- Eb in *. clear b0 bt Eb.
  rewrite Lb. destruct (N.leb_spec (8 + blen r) 4) as [|_]; [lia|].
  rewrite (firstn4_app (be32 0)) by (unfold blen; rewrite be32_length; lia). change (firstn 4 (be32 0)) with (be32 0). rewrite from_be_be32 by reflexivity.
  change (u32_MAX <=? 0) with false. cbn [bind].
  rewrite slice_fromN_ok by (unfold blen in Lb; rewrite Lb; lia). change (N.to_nat 4) with 4%nat. change (skipn 4 (be32 0 ++ be32 a ++ r)) with (be32 a ++ r). cbn [bind].
  rewrite (ok_rt _ _ _ u32_codec_ok a (be32 a) r Ha eq_refl). cbn [bind].
  change (clen u32_codec a) with 4.
  unfold usize_sub, usize_mul, usize_add.
  destruct (W (Z.of_N 0 - Z.of_N 1)%Z) as (n1 & E1). rewrite E1. cbn [bind]. apply wrap_mod in E1; [|exact HP].
  destruct (W (Z.of_N n1 * Z.of_N 4)%Z) as (n2 & E2). rewrite E2. cbn [bind]. apply wrap_mod in E2; [|exact HP].
  destruct (W (Z.of_N 4 + Z.of_N n2)%Z) as (n3 & E3). rewrite E3. cbn [bind]. apply wrap_mod in E3; [|exact HP].
  set (M := usize_modulus P) in *.
  assert (Q1 : Z.of_N n1 = (Z.of_N M - 1)%Z) by (rewrite E1; symmetry; apply (Z.mod_unique_pos _ _ (-1)); lia).
  assert (Q2 : Z.of_N n2 = (Z.of_N M - 4)%Z) by (rewrite E2, Q1; symmetry; apply (Z.mod_unique_pos _ _ 3); lia).
  assert (Q3 : Z.of_N n3 = 0%Z) by (rewrite E3, Q2; symmetry; apply (Z.mod_unique_pos _ _ 1); lia).
  destruct (N.leb_spec (8 + blen r) n3) as [|_]; [lia|].
  rewrite reserve_ok; [reflexivity|]. apply N.lt_le_trans with 1; [reflexivity|].
  apply N.div_le_lower_bound; lia.
Qed.

Theorem C61_ciphertext_refuted msg a (pk : master_public_key B) s c b : overflow_checks P = false ->
  encrypt P msg [a] pk s = Ok c -> a < 4294967296 -> fine (e_prime c) -> g2_mem B F < 4096 ->
  ct_enc F c = Ok b -> fits P (blen b) ->
  exists b', b' <> b /\ blen b' = blen b /\ ct_dec F P b = Ok c /\ ct_dec F P b' = Ok c /\ ~ begins_with b' (ct_enc F c).
Proof using HF HP.
  intros Ho E Ha Hf Hg Eb Hb. pose proof (usize_big P HP) as Hbig. unfold u32_modulus in Hbig.
  assert (Db : ct_dec F P b = Ok c).
  { assert (Hm : fits P (N.of_nat (length [a]) * g2_mem B F)).
    { cbn [length]. unfold fits. apply N.lt_le_trans with 4096; [lia|]. apply N.div_le_lower_bound; lia. }
    pose proof (C76_ciphertext B F fine HF P msg [a] pk s c b [] HP E ltac:(discriminate) ltac:(cbn [length]; lia)
                  ltac:(intros x [<-|[]]; exact Ha) Hf Hm Eb) as Q. rewrite app_nil_r in Q. exact (Q Hb). }
  destruct (encrypt_parts _ _ _ _ _ _ _ E) as [Eg _].
  assert (Eb' := Eb). unfold ct_enc in Eb'. rewrite Eg in Eb'. apply bind_ok in Eb' as (g & Egb & Eb'). cbn [gt_codec fixed_codec enc bind] in Eb'.
  apply bind_ok in Eb' as (ei & Eei & Eb'). apply Ok_inj in Eb'.
  assert (Q : g = be32 1 ++ be32 a) by (change (vec_enc u32_codec [a]) with (@Ok (list byte) (be32 1 ++ be32 a)) in Egb; congruence). subst g.
  set (r := ei ++ to_compressed (gt_form B F) (e_prime c)) in *. rewrite <- app_assoc in Eb'.
  exists (be32 0 ++ be32 a ++ r). subst b.
  assert (Hne : be32 0 ++ be32 a ++ r <> be32 1 ++ be32 a ++ r) by (intros Q; apply app_inj_len in Q as [Q _]; [discriminate Q|reflexivity]).
  split; [exact Hne|]. split; [rewrite !blen_app; reflexivity|]. split; [exact Db|]. split.
  - rewrite <- Db. unfold ct_dec. rewrite (no_count a r Ho Ha). cbn [bind].
    assert (V1 : vec_dec P u32_codec (be32 1 ++ be32 a ++ r) = Ok [a]).
    { unfold ct_dec in Db. apply bind_ok in Db as (g & Eg1 & Db). apply bind_ok in Db as (r1 & _ & Db). apply bind_ok in Db as (i1 & _ & Db).
      apply bind_ok in Db as (r2 & _ & Db). apply bind_ok in Db as (p1 & _ & Db). apply Ok_inj in Db. rewrite <- Db in Eg. cbn [gamma] in Eg. congruence. }
    rewrite V1. cbn [bind]. change (vec_len u32_codec [a]) with 8.
    rewrite (slice_fromN_tail (be32 0) (be32 1)) by (rewrite be32_length; reflexivity || lia).
    destruct (slice_fromN (be32 1 ++ be32 a ++ r) 8) as [t| |]; cbn [bind]; try reflexivity.
    destruct (vec_dec P (g2_codec F) t) as [i| |]; cbn [bind]; try reflexivity.
    rewrite (slice_fromN_tail (be32 0) (be32 1)) by (rewrite be32_length; reflexivity || lia). reflexivity.
  - intros (b1 & rest & E1 & Q). rewrite Eb in E1. apply Ok_inj in E1. subst b1. rewrite <- app_assoc in Q.
    apply app_inj_len in Q as [Q _]; [discriminate Q|reflexivity].
Qed.
End Canonical.

(** The scalars of the curve satisfy the condition. *)
Theorem C61_curve_scalars : canonical_form 32 bls_scalar_form.
Proof.
  intros b a _ E. apply from_bytes_some in E as (L & _ & V). cbn [bls_scalar_form to_compressed]. rewrite V, <- L. apply to_from_le.
Qed.

(** ** Examples *)
Lemma form101_canonical n : canonical_form (N.of_nat n) (form101 n).
Proof.
  intros b a Lb E. cbn [form101 from_compressed to_compressed] in *. destruct b as [|x t]; [discriminate|].
  destruct ((Byte.to_N x <? 101) && forallb (fun y => Byte.to_N y =? 0) t && Nat.eqb (length (x :: t)) n) eqn:T; [|discriminate].
  apply andb_prop in T as [T Tn]. apply andb_prop in T as [Tx Tz]. apply N.ltb_lt in Tx. apply Nat.eqb_eq in Tn.
  assert (Q : zval a = Z.of_N (Byte.to_N x)).
  { assert (W : zmod m101 (Z.of_N (Byte.to_N x)) = a) by congruence. rewrite <- W. cbn [zmod zval]. apply Z.mod_small.
    change (mval m101) with 101%Z. lia. }
  rewrite Q, N2Z.id, byte_of_to_N. f_equal. subst n. cbn [length]. rewrite Nat.sub_0_r || replace (S (length t) - 1)%nat with (length t) by lia.
  clear -Tz. induction t as [|y t IH]; [reflexivity|]. cbn [forallb] in Tz. apply andb_prop in Tz as [Ty Tz]. apply N.eqb_eq in Ty.
  cbn [length repeat]. f_equal; [|exact (IH Tz)]. rewrite <- (byte_of_to_N y), Ty. reflexivity.
Qed.
Lemma toy_canonical : canonical_forms toy_forms.
Proof. constructor; [exact (form101_canonical 32)|exact (form101_canonical 48)|exact (form101_canonical 96)|exact (form101_canonical 288)]. Qed.

(** the keys of the other examples, followed by a byte *)
Definition ex_trailed (e : outcome (list byte)) : list byte := bytes_of e ++ [x2a].
Example C61_example :
  priv_dec toy_forms release64 (ex_trailed (priv_enc toy_forms ex_priv)) = Ok ex_priv /\
  pub_dec toy_forms release64 (ex_trailed (pub_enc toy_forms ex_pub)) = Ok ex_pub /\
  del_dec toy_forms release64 (ex_trailed (del_enc toy_forms ex_del)) = Ok ex_del /\
  user_dec toy_forms pf (ex_trailed (user_enc toy_forms pf ex_uk)) = Ok ex_uk /\
  ct_dec toy_forms pf (ex_trailed (ct_enc toy_forms (ex_ct [1; 4]))) = Ok (ex_ct [1; 4]) /\
  (from_be (firstn 4 (ex_trailed (ct_enc toy_forms (ex_ct [1; 4])))) =? 0) = false.
Proof.
  split; [vmr (@Ok (master_private_key toy) ex_priv)|]. split; [vmr (@Ok (master_public_key toy) ex_pub)|].
  split; [vmr (@Ok (delegation_key toy) ex_del)|]. split; [vmr (@Ok (decryption_key toy) ex_uk)|].
  split; [vmr (@Ok (ciphertext toy) (ex_ct [1; 4]))|]. vmr false.
Qed.

(** a ciphertext for attribute 1, and the same without its count *)
Example C61_refuted_example :
  encrypt release64 ex_msg [1] (pub_key ex_mk) ex_s = Ok (ex_ct [1]) /\
  ct_dec toy_forms release64 (be32 0 ++ skipn 4 (bytes_of (ct_enc toy_forms (ex_ct [1])))) = Ok (ex_ct [1]) /\
  ct_dec toy_forms debug64 (be32 0 ++ skipn 4 (bytes_of (ct_enc toy_forms (ex_ct [1])))) = Panic ArithmeticOverflow.
Proof.
  split; [vmr (@Ok (ciphertext toy) (ex_ct [1]))|]. split; [vmr (@Ok (ciphertext toy) (ex_ct [1]))|].
  vmr (@Panic (ciphertext toy) ArithmeticOverflow).
Qed.

Print Assumptions C61_private_key.
Print Assumptions C61_public_key.
Print Assumptions C61_delegation_key.
Print Assumptions C61_user_key.
Print Assumptions C61_ciphertext.
Print Assumptions C61_ciphertext_refuted.
Print Assumptions C61_curve_scalars.

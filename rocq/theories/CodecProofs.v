(** Proofs about Codec.v. *)
From Coq Require Import String NArith ZArith Bool Lia Strings.Byte List.
From Verif Require Import Prelude Field Msp Codec MspProofs.
Import ListNotations.
Local Open Scope N_scope.

Lemma Ok_inj {A} (a b : A) : Ok a = Ok b -> a = b.
Proof. intros H. congruence. Qed.

Lemma fst_combine {A C} (l1 : list A) (l2 : list C) : length l1 = length l2 -> map fst (combine l1 l2) = l1.
Proof.
  revert l2; induction l1 as [|x t IH]; intros [|y t2] H; try discriminate; [reflexivity|].
  simpl. rewrite IH by (injection H; auto). reflexivity.
Qed.

(** ** Bytes *)
Lemma to_N_byte_of n : Byte.to_N (byte_of n) = n mod 256.
Proof.
  unfold byte_of. destruct (Byte.of_N (n mod 256)) as [b|] eqn:E.
  - apply Byte.to_of_N. exact E.
  - exfalso. apply Byte.of_N_None_iff in E. pose proof (N.mod_lt n 256). lia.
Qed.

Lemma byte_of_to_N b : byte_of (Byte.to_N b) = b.
Proof.
  unfold byte_of. pose proof (Byte.to_N_bounded b).
  rewrite N.mod_small by lia. rewrite Byte.of_to_N. reflexivity.
Qed.

Lemma byte_of_mod a b : a mod 256 = b mod 256 -> byte_of a = byte_of b.
Proof. intros H. unfold byte_of. rewrite H. reflexivity. Qed.

Lemma byte_range b : Byte.to_N b < 256.
Proof. pose proof (Byte.to_N_bounded b). lia. Qed.

Lemma from_be_4 a b c d :
  from_be [a; b; c; d] = ((Byte.to_N a * 256 + Byte.to_N b) * 256 + Byte.to_N c) * 256 + Byte.to_N d.
Proof. unfold from_be. simpl fold_left. lia. Qed.

Lemma from_be_be32 n : n < u32_modulus -> from_be (be32 n) = n.
Proof.
  intros H. unfold be32. rewrite from_be_4, !to_N_byte_of. unfold u32_modulus in H.
  pose proof (N.div_mod n 256 ltac:(lia)).
  pose proof (N.div_mod (n / 256) 256 ltac:(lia)) as H1. rewrite N.div_div in H1 by lia. change (256 * 256) with 65536 in H1.
  pose proof (N.div_mod (n / 65536) 256 ltac:(lia)) as H2. rewrite N.div_div in H2 by lia. change (65536 * 256) with 16777216 in H2.
  assert (n / 16777216 < 256) by (apply N.div_lt_upper_bound; lia).
  rewrite (N.mod_small (n / 16777216)) by lia. lia.
Qed.

Lemma from_be_range b : length b = 4%nat -> from_be b < u32_modulus.
Proof.
  destruct b as [|x0 [|x1 [|x2 [|x3 [|]]]]]; intros H; try discriminate. rewrite from_be_4. unfold u32_modulus.
  pose proof (byte_range x0); pose proof (byte_range x1); pose proof (byte_range x2); pose proof (byte_range x3). lia.
Qed.

Lemma be32_from_be b : length b = 4%nat -> be32 (from_be b) = b.
Proof.
  destruct b as [|x0 [|x1 [|x2 [|x3 [|]]]]]; intros H; try discriminate. rewrite from_be_4. unfold be32.
  pose proof (byte_range x0); pose proof (byte_range x1); pose proof (byte_range x2); pose proof (byte_range x3).
  set (a := Byte.to_N x0) in *. set (b := Byte.to_N x1) in *. set (c := Byte.to_N x2) in *. set (d := Byte.to_N x3) in *.
  set (n := ((a * 256 + b) * 256 + c) * 256 + d).
  assert (E1 : n / 256 = (a * 256 + b) * 256 + c) by (symmetry; apply (N.div_unique n 256 _ d); unfold n; lia).
  assert (E2 : n / 65536 = a * 256 + b) by (symmetry; apply (N.div_unique n 65536 _ (c * 256 + d)); unfold n; lia).
  assert (E3 : n / 16777216 = a) by (symmetry; apply (N.div_unique n 16777216 _ ((b * 256 + c) * 256 + d)); unfold n; lia).
  rewrite E1, E2, E3. unfold a at 1. rewrite byte_of_to_N.
  assert (M : forall q r x, r = Byte.to_N x -> byte_of (q * 256 + r) = x).
  { intros q r x ->. rewrite <- (byte_of_to_N x) at 2. apply byte_of_mod.
    rewrite N.add_comm, N.mod_add by lia. reflexivity. }
  unfold n. rewrite (M a b x1), (M _ c x2), (M _ d x3) by reflexivity. reflexivity.
Qed.

Lemma be32_length n : length (be32 n) = 4%nat.
Proof. reflexivity. Qed.

Lemma be32_inj a b : a < u32_modulus -> b < u32_modulus -> be32 a = be32 b -> a = b.
Proof. intros Ha Hb H. rewrite <- (from_be_be32 a Ha), H. apply from_be_be32, Hb. Qed.

Lemma blen_app a b : blen (a ++ b) = blen a + blen b.
Proof. unfold blen. rewrite app_length. lia. Qed.

Lemma blen_nil : blen [] = 0.
Proof. reflexivity. Qed.

(** ** Arithmetic of the platform *)
Definition at_least_32 (P : platform) : Prop := 32 <= usize_bits P.

Lemma usize_big P : at_least_32 P -> u32_modulus <= usize_modulus P.
Proof. intros H. unfold usize_modulus, u32_modulus. change 4294967296 with (2 ^ 32). apply N.pow_le_mono_r; [lia|exact H]. Qed.

Lemma usize_wrap_exact P (n : N) : n < usize_modulus P -> usize_wrap P (Z.of_N n) = Ok n.
Proof.
  intros H. unfold usize_wrap.
  assert (E : ((0 <=? Z.of_N n) && (Z.of_N n <? Z.of_N (usize_modulus P)))%Z = true).
  { apply andb_true_intro; split; [apply Z.leb_le|apply Z.ltb_lt]; lia. }
  rewrite E, N2Z.id. reflexivity.
Qed.

Lemma usize_add_exact P a b : a + b < usize_modulus P -> usize_add P a b = Ok (a + b).
Proof. intros H. unfold usize_add. rewrite <- N2Z.inj_add. apply usize_wrap_exact. exact H. Qed.
Lemma usize_mul_exact P a b : a * b < usize_modulus P -> usize_mul P a b = Ok (a * b).
Proof. intros H. unfold usize_mul. rewrite <- N2Z.inj_mul. apply usize_wrap_exact. exact H. Qed.
Lemma usize_sub_exact P a b : b <= a -> a < usize_modulus P -> usize_sub P a b = Ok (a - b).
Proof. intros H1 H2. unfold usize_sub. rewrite <- N2Z.inj_sub by exact H1. apply usize_wrap_exact. lia. Qed.

(** the only panic is the overflow of checked arithmetic *)
Definition safe {A} (P : platform) (o : outcome A) : Prop :=
  forall p, o = Panic p -> overflow_checks P = true /\ p = ArithmeticOverflow.

Lemma safe_ok {A} P (a : A) : safe P (Ok a).
Proof. intros p; discriminate. Qed.
Lemma safe_err {A} P e : safe P (@Err A e).
Proof. intros p; discriminate. Qed.
Lemma safe_bind {A C} P (m : outcome A) (k : A -> outcome C) :
  safe P m -> (forall a, m = Ok a -> safe P (k a)) -> safe P (bind m k).
Proof.
  intros H1 H2. destruct m as [a|e|p]; simpl.
  - apply H2. reflexivity.
  - apply safe_err.
  - intros q E. apply H1. congruence.
Qed.
Lemma safe_wrap P r : safe P (usize_wrap P r).
Proof.
  unfold usize_wrap. destruct (_ && _); [apply safe_ok|].
  destruct (overflow_checks P) eqn:E; [|apply safe_ok]. intros p [= <-]. auto.
Qed.
Lemma safe_no_panic {A} P (o : outcome A) : safe P o -> overflow_checks P = false -> no_panic o.
Proof. intros H E p Hp. destruct (H p Hp). congruence. Qed.
Lemma no_panic_safe {A} P (o : outcome A) : no_panic o -> safe P o.
Proof. intros H p Hp. destruct (H p Hp). Qed.

(** ** Slices *)
(** panics that are left on a machine where reservations can fail, if [Q] *)
Definition tame {A} (Q : Prop) (P : platform) (o : outcome A) : Prop :=
  forall p, o = Panic p -> (Q /\ p = CapacityOverflow) \/ (overflow_checks P = true /\ p = ArithmeticOverflow).
Lemma tame_ok {A} Q P (a : A) : tame Q P (Ok a).
Proof. intros p H. discriminate. Qed.
Lemma tame_err {A} Q P e : tame Q P (@Err A e).
Proof. intros p H. discriminate. Qed.
Lemma tame_bind {A C} Q P (m : outcome A) (k : A -> outcome C) :
  tame Q P m -> (forall a, m = Ok a -> tame Q P (k a)) -> tame Q P (bind m k).
Proof. intros Hm Hk p. destruct m; cbn [bind]; [apply Hk; reflexivity|discriminate|intros E; apply Hm; congruence]. Qed.
Lemma safe_tame {A} Q P (o : outcome A) : safe P o -> tame Q P o.
Proof. intros H p E. right. exact (H p E). Qed.

Lemma slice_fromN_app {A} (b rest : list A) i : i <= N.of_nat (length b) ->
  slice_fromN (b ++ rest) i = Ok (skipn (N.to_nat i) b ++ rest).
Proof.
  intros H. unfold slice_fromN. rewrite app_length.
  destruct (N.leb_spec i (N.of_nat (length b + length rest))); [|lia].
  rewrite skipn_app. replace (N.to_nat i - length b)%nat with O by lia. reflexivity.
Qed.
Lemma slice_fromN_ok {A} (b : list A) i : i <= N.of_nat (length b) -> slice_fromN b i = Ok (skipn (N.to_nat i) b).
Proof. intros H. unfold slice_fromN. destruct (N.leb_spec i (N.of_nat (length b))); [reflexivity|lia]. Qed.
Lemma slice_fromN_inv {A} (b t : list A) i : slice_fromN b i = Ok t -> i <= N.of_nat (length b) /\ t = skipn (N.to_nat i) b.
Proof. unfold slice_fromN. destruct (N.leb_spec i (N.of_nat (length b))); [intros [= <-]; auto|discriminate]. Qed.
Lemma slice_fromN_ext {A} (b t rest : list A) i : slice_fromN b i = Ok t -> slice_fromN (b ++ rest) i = Ok (t ++ rest).
Proof. intros H. apply slice_fromN_inv in H as [H ->]. apply slice_fromN_app. exact H. Qed.

Lemma skipn_len {A} (l : list A) n : length (skipn n l) = (length l - n)%nat.
Proof. apply skipn_length. Qed.

Lemma skipn_skipn {A} (x y : nat) (l : list A) : skipn x (skipn y l) = skipn (x + y) l.
Proof.
  revert l; induction y as [|y IH]; intros l; [rewrite Nat.add_0_r; reflexivity|].
  destruct l as [|a l]; [rewrite !skipn_nil; reflexivity|]. rewrite Nat.add_succ_r. apply IH.
Qed.

Lemma firstn4_app (b rest : list byte) : 4 <= blen b -> firstn 4 (b ++ rest) = firstn 4 b.
Proof. unfold blen. intros H. rewrite firstn_app. replace (4 - length b)%nat with O by lia. simpl firstn at 2. apply app_nil_r. Qed.

(** ** Laws of an element codec of fixed size [k] on valid values [V] *)
Record codec_ok {A} (c : codec A) (k : N) (V : A -> Prop) : Prop := mkCodecOk {
  ok_pos : 1 <= k;
  ok_len : forall a, clen c a = k;
  ok_enc : forall a, exists b, enc c a = Ok b /\ blen b = k;
  ok_rt : forall a b rest, V a -> enc c a = Ok b -> dec c (b ++ rest) = Ok a;
  ok_short : forall b, blen b < k -> is_err (dec c b);
  ok_np : forall b, no_panic (dec c b);
  ok_ext : forall b rest, k <= blen b -> dec c (b ++ rest) = dec c b;
  ok_valid : forall b a, dec c b = Ok a -> V a
}.

Lemma ok_dec_len {A} (c : codec A) k V b a : codec_ok c k V -> dec c b = Ok a -> k <= blen b.
Proof.
  intros H E. destruct (N.lt_ge_cases (blen b) k) as [Hl|Hl]; [|exact Hl].
  destruct (ok_short _ _ _ H b Hl). congruence.
Qed.
Lemma ok_dec_ext {A} (c : codec A) k V b a rest : codec_ok c k V -> dec c b = Ok a -> dec c (b ++ rest) = Ok a.
Proof. intros H E. rewrite (ok_ext _ _ _ H); [exact E|]. eapply ok_dec_len; eauto. Qed.

Definition u32 (n : N) : Prop := n < u32_modulus.

Lemma u32_codec_ok : codec_ok u32_codec 4 u32.
Proof.
  unfold u32_codec. constructor; cbn [enc dec clen].
  - lia.
  - reflexivity.
  - intros a. eexists; split; reflexivity.
  - intros a b rest Ha [= <-]. rewrite blen_app. change (blen (be32 a)) with 4.
    destruct (N.ltb_spec (4 + blen rest) 4); [lia|]. rewrite firstn4_app by (vm_compute; discriminate).
    change (firstn 4 (be32 a)) with (be32 a). rewrite from_be_be32 by exact Ha. reflexivity.
  - intros b Hb. destruct (N.ltb_spec (blen b) 4); [eexists; reflexivity|lia].
  - intros b. destruct (blen b <? 4); [apply no_panic_err|apply no_panic_ok].
  - intros b rest Hb. rewrite blen_app. destruct (N.ltb_spec (blen b + blen rest) 4); [lia|].
    destruct (N.ltb_spec (blen b) 4); [lia|]. rewrite firstn4_app by exact Hb. reflexivity.
  - intros b a. destruct (N.ltb_spec (blen b) 4); [discriminate|]. intros E.
    assert (Ea : from_be (firstn 4 b) = a) by congruence. rewrite <- Ea. apply from_be_range.
    rewrite firstn_length. unfold blen in *. lia.
Qed.

(** ** Ranges *)
Lemma range_seq a b : range a b = map N.of_nat (seq (N.to_nat a) (N.to_nat b - N.to_nat a)).
Proof. reflexivity. Qed.
Lemma range_length a b : length (range a b) = (N.to_nat b - N.to_nat a)%nat.
Proof. unfold range. rewrite map_length, seq_length. reflexivity. Qed.
Lemma range_in a b i : In i (range a b) <-> a <= i < b.
Proof.
  unfold range. rewrite in_map_iff. split.
  - intros (n & <- & H). apply in_seq in H. lia.
  - intros H. exists (N.to_nat i). split; [lia|]. apply in_seq. lia.
Qed.
Lemma range_nth a b n : (n < N.to_nat b - N.to_nat a)%nat -> nth_error (range a b) n = Some (a + N.of_nat n).
Proof.
  intros H. unfold range. rewrite nth_error_map.
  rewrite (nth_error_nth' _ O) by (rewrite seq_length; exact H). rewrite seq_nth by exact H. simpl. f_equal. lia.
Qed.

Lemma mapM_range {A} (g : N -> outcome A) (l : list A) a b :
  (N.to_nat b - N.to_nat a)%nat = length l ->
  (forall n x, nth_error l n = Some x -> g (a + N.of_nat n) = Ok x) ->
  mapM g (range a b) = Ok l.
Proof.
  unfold range. intros Hn H0. rewrite Hn. clear Hn b.
  assert (H : forall n x, nth_error l n = Some x -> g (N.of_nat (N.to_nat a + n)) = Ok x).
  { intros n x Hx. rewrite <- (H0 n x Hx). f_equal. lia. }
  revert H. generalize (N.to_nat a) as m. clear a H0.
  induction l as [|x l IH]; intros m H; [reflexivity|]. cbn [length seq map mapM].
  pose proof (H O x eq_refl) as E. rewrite Nat.add_0_r in E. rewrite E. cbn [bind].
  rewrite IH; [reflexivity|].
  intros n y Hy. rewrite Nat.add_succ_l, <- Nat.add_succ_r. apply H. exact Hy.
Qed.

Lemma mapM_ext_ok {A C} (f g : A -> outcome C) l ys :
  (forall x y, In x l -> f x = Ok y -> g x = Ok y) -> mapM f l = Ok ys -> mapM g l = Ok ys.
Proof.
  revert ys; induction l as [|x l IH]; simpl; intros ys H E; [exact E|].
  apply bind_ok in E as (y & Hy & E). apply bind_ok in E as (t & Ht & E).
  rewrite (H x y (or_introl eq_refl) Hy). cbn [bind]. rewrite (IH t) by (auto). exact E.
Qed.

(** ** Sequential reading never leaves the input *)
Section Sequential.
Context {A : Type} (c : codec A) (k : N) (V : A -> Prop) (C : codec_ok c k V).
Variable bytes : list byte.

(** a reader at position [i], given as a closure of the code, which is the exact
    reader as long as the position is inside *)
Definition reads_at (base : N) (g : N -> outcome A) : Prop :=
  forall i, base + i * k <= blen bytes ->
    g i = bind (slice_fromN bytes (base + i * k)) (dec c).

Lemma reads_at_np base g i : reads_at base g -> base + i * k <= blen bytes -> no_panic (g i).
Proof.
  intros H Hi. rewrite H by exact Hi. rewrite slice_fromN_ok by exact Hi. cbn [bind]. apply (ok_np _ _ _ C).
Qed.

Lemma reads_at_next base g i a : reads_at base g -> base + i * k <= blen bytes -> g i = Ok a ->
  base + (i + 1) * k <= blen bytes.
Proof.
  intros H Hi E. rewrite H in E by exact Hi. rewrite slice_fromN_ok in E by exact Hi. cbn [bind] in E.
  apply (ok_dec_len _ _ _ _ _ C) in E. unfold blen in *. rewrite skipn_len in E. lia.
Qed.

Lemma seq_read base g : reads_at base g -> forall n start,
  base + N.of_nat start * k <= blen bytes ->
  no_panic (mapM g (map N.of_nat (seq start n))) /\
  (forall l, mapM g (map N.of_nat (seq start n)) = Ok l ->
     base + N.of_nat (start + n) * k <= blen bytes /\ length l = n /\
     forall j x, nth_error l j = Some x -> dec c (skipn (N.to_nat (base + N.of_nat (start + j) * k)) bytes) = Ok x).
Proof.
  intros H. induction n as [|n IH]; intros start Hs.
  - simpl. split; [apply no_panic_ok|]. intros l [= <-]. rewrite Nat.add_0_r. split; [exact Hs|]. split; [reflexivity|].
    intros [|j]; discriminate.
  - cbn [seq map mapM].
    pose proof (reads_at_np base g _ H Hs) as Hnp.
    destruct (g (N.of_nat start)) as [a|e|p] eqn:E; cbn [bind].
    2:{ split; [apply no_panic_err|discriminate]. }
    2:{ destruct (Hnp p eq_refl). }
    pose proof (reads_at_next base g _ a H Hs E) as Hn.
    assert (Hs' : base + N.of_nat (S start) * k <= blen bytes) by (rewrite Nat2N.inj_succ, <- N.add_1_r; exact Hn).
    destruct (IH (S start) Hs') as [I1 I2].
    destruct (mapM g (map N.of_nat (seq (S start) n))) as [l|e|p] eqn:E2; cbn [bind].
    + split; [apply no_panic_ok|]. intros l' [= <-]. destruct (I2 l eq_refl) as (J1 & J2 & J3).
      split; [rewrite <- J1; replace (start + S n)%nat with (S start + n)%nat by lia; lia|].
      split; [simpl; congruence|]. intros [|j] x Hx.
      * injection Hx as <-. rewrite Nat.add_0_r. rewrite H in E by exact Hs. rewrite slice_fromN_ok in E by exact Hs.
        exact E.
      * replace (start + S j)%nat with (S start + j)%nat by lia. apply J3. exact Hx.
    + split; [apply no_panic_err|discriminate].
    + destruct (I1 p eq_refl).
Qed.
End Sequential.

Lemma app_inj_len {A} (a b c d : list A) : length a = length b -> a ++ c = b ++ d -> a = b /\ c = d.
Proof.
  revert b; induction a as [|x a IH]; intros [|y b] Hl E; try discriminate; [split; [reflexivity|exact E]|].
  simpl in E. injection E as -> E. injection Hl as Hl. destruct (IH b Hl E) as [-> ->]. split; reflexivity.
Qed.

(** ** Vectors *)
Section VectorProofs.
Context {A : Type} (c : codec A) (k : N) (V : A -> Prop) (C : codec_ok c k V).
Variable P : platform.
Hypothesis HP : at_least_32 P.

Lemma vec_enc_ok l : N.of_nat (length l) < u32_modulus ->
  exists bs, mapM (enc c) l = Ok bs /\ Forall2 (fun a b => enc c a = Ok b) l bs /\ (forall b, In b bs -> blen b = k) /\
    vec_enc c l = Ok (match l with [] => [] | _ => be32 (N.of_nat (length l)) ++ concat bs end).
Proof.
  intros H.
  assert (E : exists bs, mapM (enc c) l = Ok bs).
  { clear H. induction l as [|a l [bs IH]]; simpl; [eauto|]. destruct (ok_enc _ _ _ C a) as (b & -> & _).
    rewrite IH. simpl. eauto. }
  destruct E as [bs E]. exists bs. split; [exact E|]. apply mapM_ok_inv in E as F. split; [exact F|]. split.
  - clear E H. induction F as [|a b l bs Hab _ IH]; intros x Hx; [destruct Hx|]. destruct Hx as [<-|Hx]; [|auto].
    destruct (ok_enc _ _ _ C a) as (b' & Hb' & Hl). congruence.
  - unfold vec_enc. destruct l as [|a l]; [reflexivity|]. unfold u32_bytes.
    destruct (N.ltb_spec (N.of_nat (length (a :: l))) u32_modulus); [|lia]. cbn [bind]. rewrite E. reflexivity.
Qed.

Lemma concat_blocks (bs : list (list byte)) : (forall b, In b bs -> blen b = k) -> blen (concat bs) = N.of_nat (length bs) * k.
Proof.
  induction bs as [|b bs IH]; intros H; [reflexivity|]. cbn [concat length].
  rewrite blen_app, IH by (intros x Hx; apply H; right; exact Hx).
  rewrite (H b) by (left; reflexivity). lia.
Qed.

Lemma skipn_blocks (bs : list (list byte)) rest p : (forall b, In b bs -> blen b = k) -> (p <= length bs)%nat ->
  skipn (N.to_nat (N.of_nat p * k)) (concat bs ++ rest) = concat (skipn p bs) ++ rest.
Proof.
  revert p; induction bs as [|b bs IH]; intros p H Hp.
  - simpl in Hp. replace p with O by lia. reflexivity.
  - destruct p as [|p]; [reflexivity|]. simpl in Hp.
    assert (Hb : length b = N.to_nat k) by (specialize (H b (or_introl eq_refl)); unfold blen in H; lia).
    assert (E : N.to_nat (N.of_nat (S p) * k) = (N.to_nat (N.of_nat p * k) + length b)%nat) by lia.
    rewrite E. cbn [concat skipn]. rewrite <- app_assoc, <- skipn_skipn.
    rewrite skipn_app, skipn_all, Nat.sub_diag. cbn [app skipn].
    apply IH; [intros x Hx; apply H; right; exact Hx|lia].
Qed.

Lemma nth_block (l : list A) (bs : list (list byte)) p x rest :
  Forall2 (fun a b => enc c a = Ok b) l bs -> Forall V l -> nth_error l p = Some x ->
  dec c (concat (skipn p bs) ++ rest) = Ok x.
Proof.
  intros F HV Hx. revert p Hx. induction F as [|a b l bs Hab F IH]; intros [|p] Hx; try discriminate.
  - injection Hx as <-. simpl. rewrite <- app_assoc. apply (ok_rt _ _ _ C); [|exact Hab]. inversion HV; assumption.
  - simpl. apply IH; [inversion HV; assumption|exact Hx].
Qed.

Lemma vec_enc_len l b : N.of_nat (length l) < u32_modulus -> vec_enc c l = Ok b -> blen b = vec_len c l.
Proof.
  intros H E. destruct (vec_enc_ok l H) as (bs & _ & F & Hb & E2). rewrite E2 in E. apply Ok_inj in E. subst b.
  destruct l as [|a l]; [reflexivity|]. rewrite blen_app. rewrite (concat_blocks bs Hb).
  unfold vec_len. rewrite (ok_len _ _ _ C). rewrite <- (Forall2_length_eq _ _ _ F). reflexivity.
Qed.

Lemma vec_rt l b rest :
  l <> [] -> Forall V l -> N.of_nat (length l) < u32_MAX ->
  N.of_nat (length l) * msize c < usize_modulus P / 2 ->
  vec_enc c l = Ok b -> blen (b ++ rest) < usize_modulus P ->
  vec_dec P c (b ++ rest) = Ok l.
Proof.
  intros Hne HV Hl Hm E Hfit.
  assert (Hl' : N.of_nat (length l) < u32_modulus) by (unfold u32_MAX, u32_modulus in *; lia).
  destruct (vec_enc_ok l Hl') as (bs & _ & F & Hb & E2). pose proof (ok_pos _ _ _ C) as Hk.
  pose proof (Forall2_length_eq _ _ _ F) as HL.
  destruct l as [|a l]; [contradiction|]. rewrite E2 in E. apply Ok_inj in E. subst b. clear E2.
  set (n := N.of_nat (length (a :: l))) in *.
  assert (Hn : 1 <= n) by (unfold n; simpl; lia).
  assert (Ll : blen ((be32 n ++ concat bs) ++ rest) = 4 + n * k + blen rest).
  { rewrite !blen_app, (concat_blocks bs Hb). unfold n. rewrite HL. change (blen (be32 (N.of_nat (length bs)))) with 4. lia. }
  pose proof (usize_big P HP) as Hbig.
  unfold vec_dec. destruct ((be32 n ++ concat bs) ++ rest) as [|x0 t0] eqn:Eb.
  { rewrite blen_nil in Ll. lia. }
  rewrite <- Eb in *. clear x0 t0 Eb.
  destruct (N.leb_spec (blen ((be32 n ++ concat bs) ++ rest)) 4) as [Hc|_]; [nia|].
  rewrite <- app_assoc. rewrite firstn4_app by (vm_compute; discriminate).
  change (firstn 4 (be32 n)) with (be32 n). rewrite from_be_be32 by exact Hl'.
  destruct (N.leb_spec u32_MAX n) as [Hc|_]; [lia|].
  assert (Sk : forall p, (p <= length bs)%nat ->
     slice_fromN (be32 n ++ concat bs ++ rest) (4 + N.of_nat p * k) = Ok (concat (skipn p bs) ++ rest)).
  { intros p Hp. rewrite slice_fromN_ok.
    - f_equal. replace (N.to_nat (4 + N.of_nat p * k)) with (N.to_nat (N.of_nat p * k) + 4)%nat by lia.
      rewrite <- skipn_skipn. change (skipn 4 (be32 n ++ concat bs ++ rest)) with (concat bs ++ rest).
      apply skipn_blocks; assumption.
    - rewrite <- app_assoc in Ll. unfold blen in Ll at 1. rewrite Ll.
      apply N.le_trans with (4 + n * k); [|lia]. apply N.add_le_mono_l. apply N.mul_le_mono_r. unfold n. rewrite HL. lia. }
  pose proof (Sk O (Nat.le_0_l _)) as S0. change (4 + N.of_nat 0 * k) with 4 in S0. rewrite S0. cbn [bind].
  rewrite (nth_block (a :: l) bs 0 a rest F HV eq_refl). cbn [bind]. rewrite (ok_len _ _ _ C).
  rewrite Ll in Hfit.
  rewrite usize_sub_exact by lia. cbn [bind].
  assert (M1 : (n - 1) * k <= n * k) by (apply N.mul_le_mono_r; lia).
  rewrite usize_mul_exact by lia. cbn [bind]. rewrite usize_add_exact by lia. cbn [bind].
  rewrite <- app_assoc in Ll. rewrite Ll.
  assert (M2 : (n - 1) * k + k = n * k) by (rewrite N.mul_sub_distr_r; nia).
  destruct (N.leb_spec (4 + n * k + blen rest) (4 + (n - 1) * k)) as [Hc|_]; [lia|].
  unfold reserve. destruct (N.ltb_spec (n * msize c) (usize_modulus P / 2)) as [_|Hc]; [|lia]. cbn [bind].
  rewrite (mapM_range _ l 1 n).
  - reflexivity.
  - unfold n. cbn [length]. lia.
  - intros j x Hx. assert (Hj : (j < length l)%nat) by (apply nth_error_Some; congruence).
    assert (HLj : (S j <= length bs)%nat) by (rewrite <- HL; simpl; lia).
    assert (M3 : (1 + N.of_nat j) * k <= n * k) by (apply N.mul_le_mono_r; unfold n; cbn [length]; lia).
    rewrite usize_mul_exact by lia. cbn [bind]. rewrite usize_add_exact by lia. cbn [bind].
    replace (1 + N.of_nat j) with (N.of_nat (S j)) by lia. rewrite Sk by exact HLj. cbn [bind].
    apply (nth_block (a :: l) bs (S j) x rest F HV). exact Hx.
Qed.

(** inversion of a successful decoding *)
Lemma vec_reader bytes n : blen bytes < usize_modulus P ->
  reads_at c k bytes 4 (fun i =>
     let* beg := usize_mul P i n in let* from := usize_add P 4 beg in let* t := slice_fromN bytes from in dec c t) \/ n <> k.
Proof.
  intros H. destruct (N.eq_dec n k) as [->|Hne]; [left|right; exact Hne].
  intros i Hi. rewrite usize_mul_exact by lia. cbn [bind]. rewrite usize_add_exact by lia. reflexivity.
Qed.

Lemma vec_dec_inv bytes l : blen bytes < usize_modulus P -> vec_dec P c bytes = Ok l ->
  (bytes = [] /\ l = []) \/
  (l <> [] /\ 4 + N.of_nat (length l) * k <= blen bytes /\ Forall V l /\
   (N.of_nat (length l) = from_be (firstn 4 bytes) \/
    (from_be (firstn 4 bytes) = 0 /\ length l = 1%nat /\ overflow_checks P = false)) /\
   from_be (firstn 4 bytes) < u32_MAX /\
   forall j x, nth_error l j = Some x -> dec c (skipn (N.to_nat (4 + N.of_nat j * k)) bytes) = Ok x).
Proof.
  intros Hfit E. destruct bytes as [|b0 bt]; [left; injection E as <-; auto|right].
  remember (b0 :: bt) as bytes eqn:Eb. unfold vec_dec in E. rewrite Eb in E. rewrite <- Eb in E. clear b0 bt Eb.
  destruct (N.leb_spec (blen bytes) 4) as [|Hl]; [discriminate|].
  set (n := from_be (firstn 4 bytes)) in *. destruct (N.leb_spec u32_MAX n) as [|Hn]; [discriminate|].
  rewrite slice_fromN_ok in E by (unfold blen in Hl; lia). cbn [bind] in E.
  apply bind_ok in E as (r0 & Hr0 & E). rewrite (ok_len _ _ _ C) in E.
  apply bind_ok in E as (n1 & Hn1 & E). apply bind_ok in E as (m & Hm & E). apply bind_ok in E as (lim & Hlim & E).
  destruct (N.leb_spec (blen bytes) lim) as [|Hlt]; [discriminate|].
  apply bind_ok in E as (u & Hu & E). apply bind_ok in E as (rest & Hrest & E). injection E as <-.
  pose proof (ok_dec_len _ _ _ _ _ C Hr0) as L0. unfold blen in L0. rewrite skipn_len in L0.
  assert (L1 : 4 + 1 * k <= blen bytes) by (revert L0 Hl; unfold blen; clear; intros L0 Hl; lia).
  destruct (vec_reader bytes k Hfit) as [R|]; [|congruence].
  destruct (seq_read c k V C bytes 4 _ R (N.to_nat n - 1) 1 L1) as [_ I].
  destruct (I rest Hrest) as (J1 & J2 & J3).
  split; [discriminate|]. cbn [length]. rewrite J2.
  split; [replace (S (N.to_nat n - 1)) with (1 + (N.to_nat n - 1))%nat by lia; exact J1|].
  assert (J4 : forall j x, nth_error (r0 :: rest) j = Some x -> dec c (skipn (N.to_nat (4 + N.of_nat j * k)) bytes) = Ok x).
  { intros [|j] x Hx.
    - injection Hx as <-. exact Hr0.
    - simpl in Hx. apply J3 in Hx. exact Hx. }
  split.
  { apply Forall_forall. intros x Hx. apply In_nth_error in Hx as (j & Hj). apply J4 in Hj. apply (ok_valid _ _ _ C) in Hj. exact Hj. }
  split; [|split; [exact Hn|exact J4]].
  destruct (N.eq_dec n 0) as [E0|Hnz]; [|left; lia].
  right. split; [exact E0|]. split; [rewrite E0; reflexivity|].
  unfold usize_sub in Hn1. rewrite E0 in Hn1. unfold usize_wrap in Hn1. simpl in Hn1.
  destruct (overflow_checks P); [discriminate|reflexivity].
Qed.

Lemma vec_dec_bound bytes l : blen bytes < usize_modulus P -> vec_dec P c bytes = Ok l -> vec_len c l <= blen bytes.
Proof.
  intros Hf E. destruct (vec_dec_inv bytes l Hf E) as [[-> ->]|(Hne & H & _)]; [simpl; lia|].
  destruct l as [|x l]; [contradiction|]. unfold vec_len. rewrite (ok_len _ _ _ C). exact H.
Qed.

Lemma vec_safe bytes : blen bytes < usize_modulus P -> u32_MAX * msize c < usize_modulus P / 2 -> safe P (vec_dec P c bytes).
Proof.
  intros Hfit Hres. unfold vec_dec. destruct bytes as [|b0 bt]; [apply safe_ok|].
  remember (b0 :: bt) as bytes eqn:Eb. clear b0 bt Eb.
  destruct (N.leb_spec (blen bytes) 4) as [|Hl]; [apply safe_err|].
  set (n := from_be (firstn 4 bytes)) in *. destruct (N.leb_spec u32_MAX n) as [|Hn]; [apply safe_err|].
  rewrite slice_fromN_ok by (unfold blen in Hl; lia). cbn [bind].
  apply safe_bind; [apply no_panic_safe, (ok_np _ _ _ C)|]. intros r0 Hr0. rewrite (ok_len _ _ _ C).
  apply safe_bind; [apply safe_wrap|]. intros n1 _. apply safe_bind; [apply safe_wrap|]. intros m _.
  apply safe_bind; [apply safe_wrap|]. intros lim _.
  destruct (N.leb_spec (blen bytes) lim) as [|Hlt]; [apply safe_err|].
  assert (R0 : reserve P (n * msize c) = Ok tt).
  { unfold reserve. destruct (N.ltb_spec (n * msize c) (usize_modulus P / 2)) as [|Hc]; [reflexivity|].
    assert (n * msize c <= u32_MAX * msize c) by (apply N.mul_le_mono_r; lia). lia. }
  rewrite R0. cbn [bind].
  pose proof (ok_dec_len _ _ _ _ _ C Hr0) as L0. unfold blen in L0. rewrite skipn_len in L0.
  assert (L1 : 4 + 1 * k <= blen bytes) by (revert L0 Hl; unfold blen; clear; intros L0 Hl; lia).
  destruct (vec_reader bytes k Hfit) as [R|]; [|congruence].
  destruct (seq_read c k V C bytes 4 _ R (N.to_nat n - 1) 1 L1) as [I _].
  apply safe_bind; [apply no_panic_safe; exact I|]. intros; apply safe_ok.
Qed.

Lemma vec_ext bytes l rest : bytes <> [] -> vec_dec P c bytes = Ok l -> vec_dec P c (bytes ++ rest) = Ok l.
Proof.
  intros Hne E. unfold vec_dec in *.
  destruct bytes as [|b0 bt]; [contradiction|]. remember (b0 :: bt) as bytes eqn:Eb.
  destruct (bytes ++ rest) as [|b1 bt1] eqn:Eb1; [rewrite Eb in Eb1; discriminate|].
  rewrite <- Eb1 in *. clear b1 bt1 Eb1 b0 bt Eb Hne.
  destruct (N.leb_spec (blen bytes) 4) as [|Hl]; [discriminate|].
  rewrite blen_app. destruct (N.leb_spec (blen bytes + blen rest) 4) as [|_]; [lia|].
  rewrite firstn4_app by lia. destruct (u32_MAX <=? from_be (firstn 4 bytes)); [discriminate|].
  apply bind_ok in E as (t0 & Ht0 & E). rewrite (slice_fromN_ext _ _ rest _ Ht0). cbn [bind].
  apply bind_ok in E as (r0 & Hr0 & E). rewrite (ok_dec_ext _ _ _ _ _ rest C Hr0). cbn [bind].
  apply bind_ok in E as (n1 & Hn1 & E). rewrite Hn1. cbn [bind].
  apply bind_ok in E as (m & Hm & E). rewrite Hm. cbn [bind].
  apply bind_ok in E as (lim & Hlim & E). rewrite Hlim. cbn [bind].
  destruct (N.leb_spec (blen bytes) lim) as [|Hlt]; [discriminate|].
  destruct (N.leb_spec (blen bytes + blen rest) lim) as [|_]; [lia|].
  apply bind_ok in E as (u & Hu & E). rewrite Hu. cbn [bind].
  apply bind_ok in E as (rs & Hrs & E).
  rewrite (mapM_ext_ok _ _ _ rs) with (2 := Hrs); [exact E|].
  intros i x _ Hx. apply bind_ok in Hx as (beg & Hbeg & Hx). rewrite Hbeg. cbn [bind].
  apply bind_ok in Hx as (from & Hfrom & Hx). rewrite Hfrom. cbn [bind].
  apply bind_ok in Hx as (t & Ht & Hx). rewrite (slice_fromN_ext _ _ rest _ Ht). cbn [bind].
  apply (ok_dec_ext _ _ _ _ _ rest C Hx).
Qed.

Lemma vec_enc_inj l1 l2 b1 b2 r1 r2 :
  l1 <> [] -> l2 <> [] -> Forall V l1 -> Forall V l2 ->
  N.of_nat (length l1) < u32_modulus -> N.of_nat (length l2) < u32_modulus ->
  vec_enc c l1 = Ok b1 -> vec_enc c l2 = Ok b2 -> b1 ++ r1 = b2 ++ r2 -> l1 = l2 /\ r1 = r2.
Proof.
  intros N1 N2 V1 V2 L1 L2 E1 E2 E.
  destruct (vec_enc_ok l1 L1) as (bs1 & _ & F1 & Hb1 & G1). destruct (vec_enc_ok l2 L2) as (bs2 & _ & F2 & Hb2 & G2).
  rewrite G1 in E1. rewrite G2 in E2. destruct l1 as [|a1 l1]; [contradiction|]. destruct l2 as [|a2 l2]; [contradiction|].
  apply Ok_inj in E1, E2. subst b1 b2. rewrite <- !app_assoc in E.
  assert (HB : be32 (N.of_nat (length (a1 :: l1))) = be32 (N.of_nat (length (a2 :: l2)))) by (exact (f_equal (firstn 4) E)).
  assert (HR : concat bs1 ++ r1 = concat bs2 ++ r2) by (exact (f_equal (skipn 4) E)).
  apply be32_inj in HB; [|exact L1|exact L2]. apply Nat2N.inj in HB.
  clear E G1 G2 N1 N2 L1 L2. revert HB HR V1 V2 F1 F2 Hb1 Hb2.
  generalize (a1 :: l1) as m1. generalize (a2 :: l2) as m2. clear a1 a2 l1 l2.
  intros m2 m1 HB HR V1 V2 F1. revert m2 bs2 HB HR V2.
  induction F1 as [|x b l1 bs1 Hx F1 IH]; intros [|y m2] bs2 HB HR V2 F2 Hb1 Hb2; try discriminate.
  - inversion F2; subst. split; [reflexivity|exact HR].
  - inversion F2 as [|? b' ? bs2' Hy F2']; subst. inversion V1 as [|? ? Vx V1']; subst. inversion V2 as [|? ? Vy V2']; subst.
    cbn [concat] in HR. rewrite <- !app_assoc in HR.
    assert (Hbb : b = b' /\ concat bs1 ++ r1 = concat bs2' ++ r2).
    { assert (length b = length b').
      { pose proof (Hb1 b (or_introl eq_refl)) as A1. pose proof (Hb2 b' (or_introl eq_refl)) as A2. unfold blen in *. lia. }
      apply app_inj_len; assumption. }
    destruct Hbb as [-> HR']. 
    assert (x = y).
    { pose proof (ok_rt _ _ _ C x b' [] Vx Hx) as A1. pose proof (ok_rt _ _ _ C y b' [] Vy Hy) as A2. congruence. }
    subst y. injection HB as HB. destruct (IH V1' m2 bs2' HB HR' V2' F2') as [-> ->].
    + intros z Hz. apply Hb1. right; exact Hz.
    + intros z Hz. apply Hb2. right; exact Hz.
    + split; reflexivity.
Qed.
End VectorProofs.

(** ** Span programs *)
Section ProgramProofs.
Context {I : Type} (c : codec I) (k : N) (V : I -> Prop) (C : codec_ok c k V).
Variable P : platform.

(** the shape of the programs produced by the compiler of formulas *)
Record program_ok (m : msp I) : Prop := mkProgOk {
  pg_rows : (1 <= nb_row m)%nat;
  pg_cols : (1 <= nb_col m)%nat;
  pg_height : length (matrix m) = nb_row m;
  pg_width : forall r, In r (matrix m) -> length r = nb_col m;
  pg_labels : length (row_to_attr m) = nb_row m;
  pg_distinct : NoDup (row_to_attr m);
  pg_index : attr_to_row m = combine (row_to_attr m) (seq 0 (nb_row m));
  pg_u32 : Forall u32 (row_to_attr m);
  pg_valid : Forall V (concat (matrix m))
}.

Lemma concat_length_rect {A} (l : list (list A)) n : (forall r, In r l -> length r = n) -> length (concat l) = (length l * n)%nat.
Proof.
  induction l as [|r l IH]; intros H; [reflexivity|]. cbn [concat length]. rewrite app_length, IH by (intros x Hx; apply H; right; exact Hx).
  rewrite (H r) by (left; reflexivity). lia.
Qed.

Lemma nth_error_rect {A} (l : list (list A)) n i j row x :
  (forall r, In r l -> length r = n) -> nth_error l i = Some row -> nth_error row j = Some x ->
  nth_error (concat l) (i * n + j) = Some x.
Proof.
  revert i; induction l as [|r l IH]; intros i H Hr Hx; [destruct i; discriminate|].
  destruct i as [|i].
  - injection Hr as ->. simpl. rewrite nth_error_app1; [exact Hx|]. apply nth_error_Some. congruence.
  - simpl in Hr. cbn [concat]. pose proof (H r (or_introl eq_refl)) as Hl.
    rewrite nth_error_app2 by lia. replace (S i * n + j - length r)%nat with (i * n + j)%nat by lia.
    apply IH; [intros y Hy; apply H; right; exact Hy|exact Hr|exact Hx].
Qed.

Lemma map_be32_blocks l b : In b (map be32 l) -> blen b = 4.
Proof. intros H. apply in_map_iff in H as (x & <- & _). reflexivity. Qed.

Lemma entries_enc (l : list I) : exists es, mapM (enc c) l = Ok es /\ Forall2 (fun a b => enc c a = Ok b) l es /\
  (forall b, In b es -> blen b = k).
Proof.
  assert (E : exists bs, mapM (enc c) l = Ok bs).
  { induction l as [|a l [bs IH]]; simpl; [eauto|]. destruct (ok_enc _ _ _ C a) as (b & -> & _).
    rewrite IH. simpl. eauto. }
  destruct E as [bs E]. exists bs. split; [exact E|]. apply mapM_ok_inv in E as F. split; [exact F|].
  clear E. induction F as [|a b l bs Hab _ IH]; intros x Hx; [destruct Hx|]. destruct Hx as [<-|Hx]; [|auto].
  destruct (ok_enc _ _ _ C a) as (b' & Hb' & Hl). congruence.
Qed.

Lemma first_entry_ok m : program_ok m -> exists x, first_entry m = Ok x /\ V x.
Proof.
  intros H. destruct m as [nr nc mat a2r r2a]. destruct H as [H1 H2 H3 H4 H5 H6 H7 H8 H9]. simpl in *.
  destruct mat as [|r mat]; [simpl in H3; lia|]. pose proof (H4 r (or_introl eq_refl)) as Hr.
  destruct r as [|x r]; [simpl in Hr; lia|]. exists x. split; [reflexivity|].
  simpl in H9. inversion H9; assumption.
Qed.

Lemma msp_len_ok m : program_ok m ->
  msp_len c m = Ok (8 + (N.of_nat (nb_row m) * N.of_nat (nb_col m) * k) + (N.of_nat (nb_row m) * 4)).
Proof.
  intros H. destruct (first_entry_ok m H) as (x & E & _). unfold msp_len. rewrite E. cbn [bind].
  rewrite (ok_len _ _ _ C). reflexivity.
Qed.

Lemma msp_enc_ok m : program_ok m ->
  N.of_nat (nb_row m) < u32_modulus -> N.of_nat (nb_col m) < u32_modulus ->
  8 + (N.of_nat (nb_row m) * N.of_nat (nb_col m) * k) + (N.of_nat (nb_row m) * 4) < usize_modulus P / 2 ->
  exists b, msp_enc P c m = Ok b.
Proof.
  intros H Hr Hc Hf. destruct (first_entry_ok m H) as (x & E & _). unfold msp_enc. rewrite E. cbn [bind].
  rewrite (ok_len _ _ _ C).
  assert (Hh : usize_modulus P / 2 <= usize_modulus P) by (apply N.div_le_upper_bound; lia).
  pose proof (ok_pos _ _ _ C) as Hk.
  assert (A1 : N.of_nat (nb_row m) * N.of_nat (nb_col m) <= N.of_nat (nb_row m) * N.of_nat (nb_col m) * k) by nia.
  rewrite usize_mul_exact by lia. cbn [bind]. rewrite usize_mul_exact by lia. cbn [bind].
  rewrite usize_add_exact by lia. cbn [bind]. rewrite usize_mul_exact by lia. cbn [bind].
  rewrite usize_add_exact by lia. cbn [bind]. unfold reserve.
  match goal with |- context [?x <? ?y] => destruct (N.ltb_spec x y) as [_|Hx]; [|lia] end. cbn [bind].
  unfold u32_bytes. destruct (N.ltb_spec (N.of_nat (nb_row m)) u32_modulus); [|lia].
  destruct (N.ltb_spec (N.of_nat (nb_col m)) u32_modulus); [|lia]. cbn [bind].
  destruct (entries_enc (concat (matrix m))) as (es & -> & _). cbn [bind]. eauto.
Qed.

(** what a successful encoding consists of *)
Lemma msp_enc_inv m b : msp_enc P c m = Ok b ->
  N.of_nat (nb_row m) < u32_modulus /\ N.of_nat (nb_col m) < u32_modulus /\
  exists es, Forall2 (fun a x => enc c a = Ok x) (concat (matrix m)) es /\ (forall x, In x es -> blen x = k) /\
    b = be32 (N.of_nat (nb_row m)) ++ be32 (N.of_nat (nb_col m)) ++ concat (map be32 (row_to_attr m)) ++ concat es.
Proof.
  unfold msp_enc. intros E.
  apply bind_ok in E as (x & _ & E). apply bind_ok in E as (a1 & _ & E). apply bind_ok in E as (a2 & _ & E).
  apply bind_ok in E as (a3 & _ & E). apply bind_ok in E as (a4 & _ & E). apply bind_ok in E as (a5 & _ & E).
  apply bind_ok in E as (u & _ & E). apply bind_ok in E as (nr & Hnr & E). apply bind_ok in E as (nc & Hnc & E).
  apply bind_ok in E as (es & Hes & E). apply Ok_inj in E.
  unfold u32_bytes in Hnr, Hnc.
  destruct (N.ltb_spec (N.of_nat (nb_row m)) u32_modulus); [|discriminate].
  destruct (N.ltb_spec (N.of_nat (nb_col m)) u32_modulus); [|discriminate].
  apply Ok_inj in Hnr, Hnc. subst nr nc b. split; [assumption|]. split; [assumption|].
  destruct (entries_enc (concat (matrix m))) as (es' & He & F & Hb). assert (es' = es) by congruence. subst es'.
  exists es. auto.
Qed.

Lemma msp_enc_len m b : program_ok m -> msp_enc P c m = Ok b ->
  blen b = 8 + (N.of_nat (nb_row m) * N.of_nat (nb_col m) * k) + (N.of_nat (nb_row m) * 4).
Proof.
  intros H E. apply msp_enc_inv in E as (_ & _ & es & F & Hb & ->).
  rewrite !blen_app. change (blen (be32 (N.of_nat (nb_row m)))) with 4. change (blen (be32 (N.of_nat (nb_col m)))) with 4.
  rewrite (concat_blocks 4) by (apply map_be32_blocks). rewrite (concat_blocks k) by exact Hb.
  rewrite map_length, (pg_labels _ H), <- (Forall2_length_eq _ _ _ F).
  rewrite (concat_length_rect _ (nb_col m)) by apply (pg_width _ H). rewrite (pg_height _ H). lia.
Qed.

Lemma combine_seq_snoc (pre : list N) a :
  combine (pre ++ [a]) (seq 0 (length (pre ++ [a]))) = combine pre (seq 0 (length pre)) ++ [(a, length pre)].
Proof.
  rewrite app_length. cbn [length]. rewrite seq_app. cbn [seq].
  rewrite Nat.add_0_l. generalize 0%nat at 1 2 as s.
  assert (G : forall s t, combine (pre ++ [a]) (seq s (length pre) ++ [t]) = combine pre (seq s (length pre)) ++ [(a, t)]).
  { induction pre as [|x pre IH]; intros s t; [reflexivity|]. simpl. rewrite IH. reflexivity. }
  intros s. apply G.
Qed.

Lemma read_attrs_ok bytes attrs rest : blen bytes < usize_modulus P ->
  skipn 8 bytes = concat (map be32 attrs) ++ rest -> 8 <= blen bytes ->
  NoDup attrs -> Forall u32 attrs ->
  forall post pre, attrs = pre ++ post ->
  read_attrs P bytes (map N.of_nat (seq (length pre) (length post))) (combine pre (seq 0 (length pre))) pre
  = Ok (combine attrs (seq 0 (length attrs)), attrs).
Proof.
  intros Hfit Hsk H8 Hnd Hu. induction post as [|a post IH]; intros pre Hpre.
  - rewrite app_nil_r in Hpre. subst pre. reflexivity.
  - cbn [length seq map read_attrs].
    assert (Ha : u32 a) by (rewrite Forall_forall in Hu; apply Hu; rewrite Hpre; apply in_or_app; right; left; reflexivity).
    assert (Hlen : blen bytes = 8 + N.of_nat (length attrs) * 4 + blen rest).
    { assert (blen (skipn 8 bytes) = N.of_nat (length attrs) * 4 + blen rest).
      { rewrite Hsk, blen_app, (concat_blocks 4) by apply map_be32_blocks. rewrite map_length. reflexivity. }
      unfold blen in H at 1. rewrite skipn_len in H. unfold blen in *. lia. }
    assert (Hla : length attrs = (length pre + S (length post))%nat) by (rewrite Hpre, app_length; reflexivity).
    rewrite usize_mul_exact by lia. cbn [bind]. rewrite !usize_add_exact by lia. cbn [bind].
    rewrite slice_fromN_ok by (unfold blen in Hlen; lia). cbn [bind].
    assert (Hs : skipn (N.to_nat (8 + N.of_nat (length pre) * 4)) bytes = be32 a ++ (concat (map be32 post) ++ rest)).
    { replace (N.to_nat (8 + N.of_nat (length pre) * 4)) with (N.to_nat (N.of_nat (length pre) * 4) + 8)%nat by lia.
      rewrite <- skipn_skipn, Hsk. rewrite (skipn_blocks 4).
      - rewrite Hpre, map_app, skipn_app, map_length, Nat.sub_diag.
        rewrite skipn_all2 by (rewrite map_length; lia). cbn [app skipn map concat]. rewrite <- app_assoc. reflexivity.
      - apply map_be32_blocks.
      - rewrite map_length. lia. }
    rewrite Hs. replace (12 + N.of_nat (length pre) * 4 - (8 + N.of_nat (length pre) * 4)) with 4 by lia.
    assert (Hsl : slice (be32 a ++ (concat (map be32 post) ++ rest)) 0 (N.to_nat 4) = Ok (be32 a)) by reflexivity.
    rewrite Hsl. cbn [bind]. rewrite from_be_be32 by exact Ha.
    assert (Hnew : assoc_get (combine pre (seq 0 (length pre))) a = None).
    { apply assoc_get_none. rewrite fst_combine by (rewrite seq_length; reflexivity).
      rewrite Hpre in Hnd. apply NoDup_remove_2 in Hnd. intros Hin. apply Hnd. apply in_or_app. left; exact Hin. }
    rewrite Hnew. rewrite Nat2N.id, <- combine_seq_snoc.
    replace (S (length pre)) with (length (pre ++ [a])) by (rewrite app_length; simpl; lia).
    apply IH. rewrite <- app_assoc. exact Hpre.
Qed.

(** the vectors and the table of the rows fit in memory *)
Definition rows_fit (n : N) : Prop :=
  n * 4 < usize_modulus P / 2 /\ table_bytes P n < usize_modulus P / 2 /\ n * (3 * word P) < usize_modulus P / 2.

Lemma reserve_ok n : n < usize_modulus P / 2 -> reserve P n = Ok tt.
Proof. intros H. unfold reserve. destruct (N.ltb_spec n (usize_modulus P / 2)); [reflexivity|lia]. Qed.

Lemma reserve_cases n : (n < usize_modulus P / 2 /\ reserve P n = Ok tt) \/ (usize_modulus P / 2 <= n /\ reserve P n = Panic CapacityOverflow).
Proof. unfold reserve. destruct (N.ltb_spec n (usize_modulus P / 2)); auto. Qed.

Lemma half_modulus : 1 <= usize_bits P -> usize_modulus P / 2 = 2 ^ (usize_bits P - 1).
Proof.
  intros H. unfold usize_modulus. replace (usize_bits P) with (1 + (usize_bits P - 1)) at 1 by lia.
  rewrite N.pow_add_r, N.mul_comm. apply N.div_mul. discriminate.
Qed.

Lemma table_bound n : 1 <= n -> table_bytes P n <= 16 * n / 7 * (2 * word P + 1) + 16.
Proof.
  intros H. unfold table_bytes. apply N.add_le_mono_r, N.mul_le_mono_r.
  assert (Ha : 1 <= n * 8 / 7) by (apply N.div_le_lower_bound; lia).
  transitivity (2 * (n * 8 / 7)).
  - destruct (N.eq_dec (n * 8 / 7) 1) as [->|Hn]; [vm_compute; discriminate|].
    destruct (N.log2_up_spec (n * 8 / 7)) as [L _]; [lia|].
    assert (Hp : N.log2_up (n * 8 / 7) <> 0) by (intros Q; apply N.log2_up_null in Q; lia).
    rewrite <- (N.succ_pred _ Hp) at 1. rewrite N.pow_succ_r'. lia.
  - apply N.div_le_lower_bound; [discriminate|]. pose proof (N.mul_div_le (n * 8) 7 ltac:(discriminate)). lia.
Qed.

Lemma rows_fit64 n : 64 <= usize_bits P -> n < u32_modulus -> rows_fit n.
Proof.
  intros HP Hn. unfold rows_fit. rewrite half_modulus by lia. set (b := usize_bits P) in *.
  assert (Hw : word P <= b) by (unfold word; fold b; apply N.div_le_upper_bound; lia).
  assert (Hb : b <= 2 ^ (b - 58)).
  { replace (b - 58) with (6 + (b - 64)) by lia. rewrite N.pow_add_r. change (2 ^ 6) with 64.
    pose proof (N.pow_gt_lin_r 2 (b - 64) ltac:(lia)). lia. }
  assert (H1 : 2 ^ (b - 58) * 2 ^ 57 = 2 ^ (b - 1)) by (rewrite <- N.pow_add_r; f_equal; lia).
  change (2 ^ 57) with 144115188075855872 in H1. unfold u32_modulus in Hn.
  destruct (N.eq_dec n 0) as [->|H0].
  { unfold table_bytes. change (2 ^ N.log2_up (0 * 8 / 7)) with 1. lia. }
  pose proof (table_bound n ltac:(lia)) as Ht.
  assert (Hq : 16 * n / 7 <= 16 * 4294967296) by (apply N.div_le_upper_bound; lia).
  assert (Hm : 16 * n / 7 * (2 * word P + 1) <= 16 * 4294967296 * (2 * 2 ^ (b - 58) + 1)) by (apply N.mul_le_mono; lia).
  assert (Hm2 : n * (3 * word P) <= 4294967296 * (3 * 2 ^ (b - 58))) by (apply N.mul_le_mono; lia).
  lia.
Qed.

Lemma rows_fit32 n : 32 <= usize_bits P -> n < u32_modulus -> 35 * n + 16 < usize_modulus P / 2 -> rows_fit n.
Proof.
  intros HP Hn Hf. destruct (N.le_gt_cases 64 (usize_bits P)) as [H|H]; [apply rows_fit64; assumption|].
  assert (Hw : word P <= 7) by (unfold word; apply N.lt_succ_r, N.div_lt_upper_bound; lia).
  assert (Hh : 2147483648 <= usize_modulus P / 2).
  { rewrite half_modulus by lia. change 2147483648 with (2 ^ 31). apply N.pow_le_mono_r; lia. }
  unfold rows_fit. destruct (N.eq_dec n 0) as [->|H0].
  { unfold table_bytes. change (2 ^ N.log2_up (0 * 8 / 7)) with 1. lia. }
  pose proof (table_bound n ltac:(lia)) as Ht.
  assert (Hm : 16 * n / 7 * (2 * word P + 1) <= 16 * n / 7 * 15) by (apply N.mul_le_mono_l; lia).
  assert (Hq : 16 * n / 7 * 15 <= 35 * n).
  { pose proof (N.mul_div_le (16 * n) 7 ltac:(discriminate)). lia. }
  assert (Hm2 : n * (3 * word P) <= n * 21) by (apply N.mul_le_mono_l; lia).
  lia.
Qed.

Lemma msp_rt m b rest :
  program_ok m -> rows_fit (N.of_nat (nb_row m)) -> N.of_nat (nb_col m) * msize c < usize_modulus P / 2 ->
  msp_enc P c m = Ok b -> blen (b ++ rest) < usize_modulus P ->
  msp_dec P c (b ++ rest) = Ok m.
Proof.
  intros H (Hf1 & Hf2 & Hf3) Hres E Hfit. pose proof (msp_enc_len m b H E) as Lb.
  apply msp_enc_inv in E as (Hr & Hc & es & F & Hb & Eb).
  destruct (first_entry_ok m H) as (x0 & Ex0 & Vx0).
  pose proof (pg_rows _ H) as H1. pose proof (pg_cols _ H) as H2. pose proof (pg_height _ H) as H3.
  pose proof (pg_width _ H) as H4. pose proof (pg_labels _ H) as H5. pose proof (ok_pos _ _ _ C) as Hk.
  set (nr := N.of_nat (nb_row m)) in *. set (nc := N.of_nat (nb_col m)) in *.
  set (bytes := b ++ rest) in *.
  assert (Lt : blen bytes = 8 + nr * nc * k + nr * 4 + blen rest) by (unfold bytes; rewrite blen_app, Lb; lia).
  assert (Eb' : bytes = be32 nr ++ be32 nc ++ concat (map be32 (row_to_attr m)) ++ concat es ++ rest).
  { unfold bytes. rewrite Eb, <- !app_assoc. reflexivity. }
  unfold msp_dec. destruct (N.ltb_spec (blen bytes) 8) as [|_]; [lia|].
  assert (Ef1 : from_be (firstn 4 bytes) = nr).
  { rewrite Eb', firstn4_app by (vm_compute; discriminate). change (firstn 4 (be32 nr)) with (be32 nr). apply from_be_be32; exact Hr. }
  assert (Es : skipn 4 bytes = be32 nc ++ concat (map be32 (row_to_attr m)) ++ concat es ++ rest) by (rewrite Eb'; reflexivity).
  assert (Ef2 : from_be (firstn 4 (skipn 4 bytes)) = nc).
  { rewrite Es, firstn4_app by (vm_compute; discriminate). change (firstn 4 (be32 nc)) with (be32 nc). apply from_be_be32; exact Hc. }
  assert (Es8 : skipn 8 bytes = concat (map be32 (row_to_attr m)) ++ concat es ++ rest) by (rewrite Eb'; reflexivity).
  rewrite Ef1, Ef2.
  rewrite usize_mul_exact by lia. cbn [bind]. rewrite usize_add_exact by lia. cbn [bind].
  destruct (N.ltb_spec (blen bytes) (8 + 4 * nr)) as [|_]; [lia|].
  assert (RA : read_attrs P bytes (range 0 nr) [] [] = Ok (attr_to_row m, row_to_attr m)).
  { pose proof (read_attrs_ok bytes (row_to_attr m) (concat es ++ rest) Hfit Es8 ltac:(lia) (pg_distinct _ H) (pg_u32 _ H) (row_to_attr m) [] eq_refl) as Q.
    cbn [length seq combine] in Q.
    unfold range, nr. rewrite Nat2N.id. change (N.to_nat 0) with O. rewrite Nat.sub_0_r, <- H5, Q.
    rewrite (pg_index _ H), H5. reflexivity. }
  rewrite (reserve_ok _ Hf1), (reserve_ok _ Hf2). cbn [bind]. rewrite RA. cbn [bind].
  rewrite (reserve_ok _ Hf3), (reserve_ok _ Hres). cbn [bind].
  assert (Nes : length es = (nb_row m * nb_col m)%nat).
  { rewrite <- (Forall2_length_eq _ _ _ F). rewrite (concat_length_rect _ (nb_col m)) by exact H4. rewrite H3. reflexivity. }
  assert (Sk : forall p, (p <= length es)%nat ->
     slice_fromN bytes (8 + 4 * nr + N.of_nat p * k) = Ok (concat (skipn p es) ++ rest)).
  { intros p Hp. assert (Hp2 : N.of_nat p * k <= nr * nc * k) by (apply N.mul_le_mono_r; unfold nr, nc; lia).
    rewrite slice_fromN_ok by (unfold blen in Lt at 1; lia).
    f_equal. replace (N.to_nat (8 + 4 * nr + N.of_nat p * k)) with (N.to_nat (N.of_nat p * k) + (N.to_nat (nr * 4) + 8))%nat by lia.
    rewrite <- !skipn_skipn, Es8.
    replace (nr * 4) with (N.of_nat (length (map be32 (row_to_attr m))) * 4) by (rewrite map_length, H5; reflexivity).
    rewrite (skipn_blocks 4) by (try apply map_be32_blocks; lia). rewrite skipn_all. cbn [concat app].
    apply skipn_blocks; assumption. }
  pose proof (Sk O (Nat.le_0_l _)) as S0. rewrite N.mul_0_l, N.add_0_r in S0. rewrite S0. cbn [bind].
  assert (First : nth_error (concat (matrix m)) 0 = Some x0).
  { unfold first_entry in Ex0. apply bind_ok in Ex0 as (r & Hr0 & Ex0). 
    apply index_ok in Hr0, Ex0. exact (nth_error_rect (matrix m) (nb_col m) 0 0 r x0 H4 Hr0 Ex0). }
  rewrite (nth_block c k V C (concat (matrix m)) es 0 x0 rest F (pg_valid _ H) First). cbn [bind]. rewrite (ok_len _ _ _ C).
  assert (A1 : nr * nc <= nr * nc * k) by (rewrite <- (N.mul_1_r (nr * nc)) at 1; apply N.mul_le_mono_l; exact Hk).
  rewrite usize_mul_exact by lia. cbn [bind]. rewrite usize_mul_exact by lia. cbn [bind].
  rewrite usize_add_exact by lia. cbn [bind].
  destruct (N.ltb_spec (blen bytes) (8 + 4 * nr + nr * nc * k)) as [|_]; [lia|].
  assert (RE : forall p x, nth_error (concat (matrix m)) p = Some x -> read_entry P c bytes (8 + 4 * nr) (N.of_nat p) k = Ok x).
  { intros p x Hp. assert (Hp' : (p < nb_row m * nb_col m)%nat).
    { rewrite <- Nes, <- (Forall2_length_eq _ _ _ F). apply nth_error_Some. congruence. }
    assert (Hp2 : N.of_nat p * k <= nr * nc * k) by (apply N.mul_le_mono_r; unfold nr, nc; lia).
    unfold read_entry. rewrite usize_mul_exact by lia. cbn [bind]. rewrite usize_add_exact by lia. cbn [bind].
    rewrite Sk by lia. cbn [bind]. apply (nth_block c k V C (concat (matrix m)) es p x rest F (pg_valid _ H) Hp). }
  destruct (matrix m) as [|r0 rows] eqn:Em; [simpl in H3; lia|].
  pose proof (H4 r0 (or_introl eq_refl)) as Hr0. destruct r0 as [|y0 row0]; [simpl in Hr0; lia|].
  assert (y0 = x0) by (simpl in First; congruence). subst y0.
  rewrite (mapM_range _ row0 1 nc).
  2:{ unfold nc. simpl in Hr0. lia. }
  2:{ intros j x Hj. replace (1 + N.of_nat j) with (N.of_nat (0 * nb_col m + S j)) by lia.
      apply RE. apply (nth_error_rect _ (nb_col m) 0 (S j) (x0 :: row0)); [exact H4|reflexivity|exact Hj]. }
  cbn [bind]. rewrite (mapM_range _ rows 1 nr).
  2:{ unfold nr. simpl in H3. lia. }
  2:{ intros i row Hi. assert (Hw : length row = nb_col m) by (apply H4; right; eapply nth_error_In; eauto).
      assert (Hil : (i < length rows)%nat) by (apply nth_error_Some; congruence). simpl in H3.
      apply mapM_range; [unfold nc; lia|]. intros j x Hj.
      assert (Hj' : (j < nb_col m)%nat) by (rewrite <- Hw; apply nth_error_Some; congruence).
      assert (B1 : (1 + N.of_nat i) * nc + nc <= nr * nc).
      { replace ((1 + N.of_nat i) * nc + nc) with ((2 + N.of_nat i) * nc) by lia. apply N.mul_le_mono_r. unfold nr. lia. }
      rewrite usize_mul_exact by lia. cbn [bind]. rewrite usize_add_exact by (unfold nc in *; lia). cbn [bind].
      replace ((1 + N.of_nat i) * nc + (0 + N.of_nat j)) with (N.of_nat (S i * nb_col m + j)) by (unfold nc; lia).
      apply RE. apply (nth_error_rect _ (nb_col m) (S i) j row); [exact H4|exact Hi|exact Hj]. }
  cbn [bind]. unfold nr, nc. rewrite !Nat2N.id. destruct m as [a1 a2 a3 a4 a5]. simpl in Em |- *. subst a3. reflexivity.
Qed.

(** *** Decoding arbitrary bytes *)
Lemma slice_ext {A} (l t rest : list A) i j : slice l i j = Ok t -> slice (l ++ rest) i j = Ok t.
Proof.
  unfold slice. destruct (Nat.leb i j && Nat.leb j (length l)) eqn:E; [|discriminate].
  apply andb_prop in E as [E1 E2]. apply Nat.leb_le in E2 as E2'. rewrite E1. rewrite app_length.
  assert (Nat.leb j (length l + length rest) = true) by (apply Nat.leb_le; lia). rewrite H. cbn [andb].
  intros Q. rewrite <- Q. f_equal. apply Nat.leb_le in E1. rewrite skipn_app.
  replace (i - length l)%nat with O by lia. rewrite skipn_O, firstn_app, skipn_length.
  replace (j - i - (length l - i))%nat with O by lia. rewrite firstn_O. apply app_nil_r.
Qed.

Lemma read_attrs_ext bytes rest l a2r r2a x : read_attrs P bytes l a2r r2a = Ok x -> read_attrs P (bytes ++ rest) l a2r r2a = Ok x.
Proof.
  revert a2r r2a; induction l as [|i l IH]; intros a2r r2a E; [exact E|]. cbn [read_attrs] in *.
  apply bind_ok in E as (i4 & H1 & E). rewrite H1. cbn [bind].
  apply bind_ok in E as (lo & H2 & E). rewrite H2. cbn [bind].
  apply bind_ok in E as (hi & H3 & E). rewrite H3. cbn [bind].
  apply bind_ok in E as (s & H4 & E). rewrite (slice_fromN_ext _ _ rest _ H4). cbn [bind].
  apply bind_ok in E as (t & H5 & E). rewrite (slice_ext _ _ rest _ _ H5). cbn [bind].
  destruct (assoc_get a2r (from_be t)); [discriminate|]. apply IH. exact E.
Qed.

Lemma read_entry_ext bytes rest base p n x : read_entry P c bytes base p n = Ok x -> read_entry P c (bytes ++ rest) base p n = Ok x.
Proof.
  unfold read_entry. intros E. apply bind_ok in E as (o & H1 & E). rewrite H1. cbn [bind].
  apply bind_ok in E as (i & H2 & E). rewrite H2. cbn [bind].
  apply bind_ok in E as (t & H3 & E). rewrite (slice_fromN_ext _ _ rest _ H3). cbn [bind].
  apply (ok_dec_ext _ _ _ _ _ rest C E).
Qed.

Lemma msp_ext bytes m rest : msp_dec P c bytes = Ok m -> msp_dec P c (bytes ++ rest) = Ok m.
Proof.
  unfold msp_dec. intros E. destruct (N.ltb_spec (blen bytes) 8) as [|H8]; [discriminate|].
  rewrite blen_app. destruct (N.ltb_spec (blen bytes + blen rest) 8) as [|_]; [lia|].
  rewrite firstn4_app by lia.
  assert (Es : firstn 4 (skipn 4 (bytes ++ rest)) = firstn 4 (skipn 4 bytes)).
  { rewrite skipn_app. replace (4 - length bytes)%nat with O by (unfold blen in H8; lia). rewrite skipn_O.
    apply firstn4_app. unfold blen in *. rewrite skipn_len. lia. }
  rewrite Es. set (nr := from_be (firstn 4 bytes)) in *. set (nc := from_be (firstn 4 (skipn 4 bytes))) in *.
  apply bind_ok in E as (a & H1 & E). rewrite H1. cbn [bind].
  apply bind_ok in E as (base & H2 & E). rewrite H2. cbn [bind].
  destruct (N.ltb_spec (blen bytes) base) as [|Hb]; [discriminate|].
  destruct (N.ltb_spec (blen bytes + blen rest) base) as [|_]; [lia|].
  apply bind_ok in E as (u1 & Hu1 & E). rewrite Hu1. cbn [bind].
  apply bind_ok in E as (u2 & Hu2 & E). rewrite Hu2. cbn [bind].
  apply bind_ok in E as ([a2r r2a] & H3 & E). rewrite (read_attrs_ext _ rest _ _ _ _ H3). cbn [bind].
  apply bind_ok in E as (u3 & Hu3 & E). rewrite Hu3. cbn [bind].
  apply bind_ok in E as (u & H4 & E). rewrite H4. cbn [bind].
  apply bind_ok in E as (t & H5 & E). rewrite (slice_fromN_ext _ _ rest _ H5). cbn [bind].
  apply bind_ok in E as (x0 & H6 & E). rewrite (ok_dec_ext _ _ _ _ _ rest C H6). cbn [bind].
  apply bind_ok in E as (n1 & H7 & E). rewrite H7. cbn [bind].
  apply bind_ok in E as (n2 & H9 & E). rewrite H9. cbn [bind].
  apply bind_ok in E as (lim & H10 & E). rewrite H10. cbn [bind].
  destruct (N.ltb_spec (blen bytes) lim) as [|Hl]; [discriminate|].
  destruct (N.ltb_spec (blen bytes + blen rest) lim) as [|_]; [lia|].
  apply bind_ok in E as (row0 & H11 & E).
  rewrite (mapM_ext_ok _ _ _ row0) with (2 := H11) by (intros; apply read_entry_ext; assumption). cbn [bind].
  apply bind_ok in E as (rows & H12 & E).
  rewrite (mapM_ext_ok _ _ _ rows) with (2 := H12); [exact E|].
  intros r row _ Hrow. apply (mapM_ext_ok _ _ _ row) with (2 := Hrow). intros col x _ Hx.
  apply bind_ok in Hx as (p & Hp & Hx). rewrite Hp. cbn [bind].
  apply bind_ok in Hx as (q & Hq & Hx). rewrite Hq. cbn [bind]. apply read_entry_ext. exact Hx.
Qed.

Lemma read_attrs_np bytes nr : blen bytes < usize_modulus P -> 12 + 4 * nr < usize_modulus P -> 8 + 4 * nr <= blen bytes ->
  forall l a2r r2a, (forall i, In i l -> i < nr) -> no_panic (read_attrs P bytes l a2r r2a).
Proof.
  intros Hf H12 Hb. induction l as [|i l IH]; intros a2r r2a Hl; [apply no_panic_ok|]. cbn [read_attrs].
  pose proof (Hl i (or_introl eq_refl)) as Hi.
  rewrite usize_mul_exact by lia. cbn [bind]. rewrite !usize_add_exact by lia. cbn [bind].
  rewrite slice_fromN_ok by (unfold blen in Hb; lia). cbn [bind].
  replace (12 + i * 4 - (8 + i * 4)) with 4 by lia.
  unfold slice. change (N.to_nat 4) with 4%nat. rewrite skipn_len.
  destruct (Nat.leb_spec 4 (length bytes - N.to_nat (8 + i * 4))) as [_|Hx]; [|unfold blen in Hb; lia].
  cbn [Nat.leb andb bind]. destruct (assoc_get a2r _); [apply no_panic_err|]. apply IH. intros j Hj. apply Hl. right; exact Hj.
Qed.

Lemma entry_reader bytes base : blen bytes < usize_modulus P ->
  reads_at c k bytes base (fun p => read_entry P c bytes base p k).
Proof. intros H i Hi. unfold read_entry. rewrite usize_mul_exact by lia. cbn [bind]. rewrite usize_add_exact by lia. reflexivity. Qed.

(** the rows after the first one *)
Lemma rows_read bytes base nc : blen bytes < usize_modulus P -> forall n start,
  base + N.of_nat start * nc * k <= blen bytes ->
  no_panic (mapM (fun r => mapM (fun col =>
            let* p := usize_mul P r nc in
            let* p := usize_add P p col in
            read_entry P c bytes base p k) (range 0 nc)) (map N.of_nat (seq start n))) /\
  forall rows, mapM (fun r => mapM (fun col =>
            let* p := usize_mul P r nc in
            let* p := usize_add P p col in
            read_entry P c bytes base p k) (range 0 nc)) (map N.of_nat (seq start n)) = Ok rows ->
   base + N.of_nat (start + n) * nc * k <= blen bytes /\ length rows = n /\
   (forall row, In row rows -> length row = N.to_nat nc /\ Forall V row).
Proof.
  intros Hfit. pose proof (ok_pos _ _ _ C) as Hk. induction n as [|n IH]; intros start Hs.
  - simpl. rewrite Nat.add_0_r. split; [apply no_panic_ok|]. intros rows [= <-]. split; [exact Hs|]. split; [reflexivity|]. intros r [].
  - cbn [seq map mapM].
    set (g := fun col => let* p := usize_mul P (N.of_nat start) nc in let* p := usize_add P p col in read_entry P c bytes base p k).
    assert (R : reads_at c k bytes (base + N.of_nat start * nc * k) g).
    { intros i Hi. unfold g.
      assert (N.of_nat start * nc <= N.of_nat start * nc * k) by nia. assert (i <= i * k) by nia.
      rewrite usize_mul_exact by lia. cbn [bind]. rewrite usize_add_exact by lia. cbn [bind].
      rewrite (entry_reader bytes base Hfit) by lia.
      replace (base + (N.of_nat start * nc + i) * k) with (base + N.of_nat start * nc * k + i * k) by lia. reflexivity. }
    destruct (seq_read c k V C bytes _ g R (N.to_nat nc) 0) as [S1 S2]; [lia|].
    assert (Er : range 0 nc = map N.of_nat (seq 0 (N.to_nat nc))).
    { unfold range. change (N.to_nat 0) with O. rewrite Nat.sub_0_r. reflexivity. }
    rewrite Er in *. fold g.
    destruct (mapM g (map N.of_nat (seq 0 (N.to_nat nc)))) as [row|e|p] eqn:E; cbn [bind].
    2:{ split; [apply no_panic_err|discriminate]. }
    2:{ destruct (S1 p eq_refl). }
    destruct (S2 row eq_refl) as (T1 & T2 & T3).
    destruct (IH (S start)) as [U1 U2]; [lia|].
    match goal with |- context [bind (mapM ?h ?l) _] => destruct (mapM h l) as [rows|e|p] eqn:E2 end; cbn [bind].
    + split; [apply no_panic_ok|]. intros rs Hrs. assert (rs = row :: rows) by congruence. subst rs.
      destruct (U2 rows eq_refl) as (W1 & W2 & W3). split; [replace (start + S n)%nat with (S start + n)%nat by lia; exact W1|].
      split; [simpl; congruence|]. intros r [<-|Hr]; [|auto]. split; [exact T2|].
      apply Forall_forall. intros x Hx. apply In_nth_error in Hx as (j & Hj). apply T3 in Hj. apply (ok_valid _ _ _ C) in Hj. exact Hj.
    + split; [apply no_panic_err|discriminate].
    + destruct (U1 p eq_refl).
Qed.

Lemma read_attrs_inv bytes nr : blen bytes < usize_modulus P -> 12 + 4 * nr < usize_modulus P -> 8 + 4 * nr <= blen bytes ->
  forall l a2r r2a a2r' r2a', (forall i, In i l -> i < nr) ->
  read_attrs P bytes l a2r r2a = Ok (a2r', r2a') ->
  exists us, length us = length l /\ r2a' = r2a ++ us /\ a2r' = a2r ++ combine us (map N.to_nat l) /\
    Forall u32 us /\ NoDup us /\ (forall u, In u us -> ~ In u (map fst a2r)).
Proof.
  intros Hf H12 Hb. induction l as [|i l IH]; intros a2r r2a a2r' r2a' Hl E; cbn [read_attrs] in E.
  - injection E as <- <-. exists []. rewrite !app_nil_r. repeat split; try constructor. intros u [].
  - pose proof (Hl i (or_introl eq_refl)) as Hi.
    rewrite usize_mul_exact in E by lia. cbn [bind] in E. rewrite !usize_add_exact in E by lia. cbn [bind] in E.
    replace (12 + i * 4 - (8 + i * 4)) with 4 in E by lia.
    apply bind_ok in E as (s & H4 & E). apply bind_ok in E as (t & H5 & E).
    destruct (assoc_get a2r (from_be t)) eqn:Ea; [discriminate|].
    apply IH in E as (us & J1 & J2 & J3 & J4 & J5 & J6); [|intros j Hj; apply Hl; right; exact Hj].
    exists (from_be t :: us). split; [simpl; congruence|]. split; [rewrite J2, <- app_assoc; reflexivity|].
    split; [rewrite J3, <- app_assoc; reflexivity|].
    split.
    { constructor; [|exact J4]. apply from_be_range. unfold slice in H5.
      destruct (Nat.leb 0 (N.to_nat 4) && Nat.leb (N.to_nat 4) (length s)) eqn:Es; [|discriminate].
      apply Ok_inj in H5. rewrite <- H5. apply andb_prop in Es as [_ Es]. apply Nat.leb_le in Es.
      rewrite firstn_length, skipn_len. change (N.to_nat 4) with 4%nat in *. lia. }
    split.
    + constructor; [|exact J5]. intros Hin. apply (J6 _ Hin). rewrite map_app. apply in_or_app. right. left. reflexivity.
    + intros u [<-|Hu]; [apply assoc_get_none; exact Ea|]. intros Hin. apply (J6 u Hu). rewrite map_app. apply in_or_app. left; exact Hin.
Qed.

(** the shape of a decoded program *)
Record decoded_shape (m : msp I) : Prop := mkShape {
  ds_labels : length (row_to_attr m) = nb_row m;
  ds_distinct : NoDup (row_to_attr m);
  ds_u32 : Forall u32 (row_to_attr m);
  ds_index : attr_to_row m = combine (row_to_attr m) (seq 0 (nb_row m));
  ds_matrix : exists r0 rows, matrix m = r0 :: rows /\ length r0 = Nat.max 1 (nb_col m) /\
      length rows = (nb_row m - 1)%nat /\ (forall row, In row rows -> length row = nb_col m);
  ds_valid : Forall V (concat (matrix m))
}.

Lemma decoded_shape_ok m : decoded_shape m -> (1 <= nb_row m)%nat -> (1 <= nb_col m)%nat -> program_ok m.
Proof.
  intros [D1 D2 D3 D4 (r0 & rows & Em & L0 & Lr & Hr) D6] H1 H2. constructor; try assumption.
  - rewrite Em. simpl. lia.
  - rewrite Em. intros r [<-|Hin]; [lia|auto].
Qed.

Lemma head_range bytes : 8 <= blen bytes ->
  from_be (firstn 4 bytes) < u32_modulus /\ from_be (firstn 4 (skipn 4 bytes)) < u32_modulus.
Proof.
  unfold blen. intros H. split; apply from_be_range; rewrite firstn_length; [|rewrite skipn_len]; lia.
Qed.

Lemma range_0 n : range 0 n = map N.of_nat (seq 0 (N.to_nat n)).
Proof. unfold range. change (N.to_nat 0) with O. rewrite Nat.sub_0_r. reflexivity. Qed.

(** The decoder of programs panics only if a reservation exceeds isize::MAX, or by
    an overflow when overflows are checked; [Q] says that a reservation can fail. *)
Lemma msp_dec_tame_at (Q : Prop) bytes : 32 <= usize_bits P -> blen bytes < usize_modulus P ->
  Q \/ (rows_fit (from_be (firstn 4 bytes)) /\ from_be (firstn 4 (skipn 4 bytes)) * msize c < usize_modulus P / 2) ->
  tame Q P (msp_dec P c bytes) /\ (forall m, msp_dec P c bytes = Ok m -> decoded_shape m).
Proof.
  intros HP Hfit HQ. pose proof (usize_big P HP) as Hbig. unfold u32_modulus in Hbig. pose proof (ok_pos _ _ _ C) as Hk.
  unfold msp_dec. destruct (N.ltb_spec (blen bytes) 8) as [|H8]; [split; [apply tame_err|discriminate]|].
  destruct (head_range bytes H8) as [Hnr Hnc].
  set (nr := from_be (firstn 4 bytes)) in *. set (nc := from_be (firstn 4 (skipn 4 bytes))) in *.
  assert (HQr : Q \/ rows_fit nr) by (destruct HQ as [HQ|HQ]; [left; exact HQ|right; apply HQ]).
  assert (HQc : Q \/ nc * msize c < usize_modulus P / 2) by (destruct HQ as [HQ|HQ]; [left; exact HQ|right; apply HQ]).
  clear HQ.
  destruct (usize_mul P 4 nr) as [a|e|p] eqn:Ea; cbn [bind].
  2:{ split; [apply tame_err|discriminate]. }
  2:{ split; [|discriminate]. intros q Hq. assert (p = q) by congruence. subst q. right. exact (safe_wrap P _ p Ea). }
  destruct (usize_add P 8 a) as [base|e|p] eqn:Eb; cbn [bind].
  2:{ split; [apply tame_err|discriminate]. }
  2:{ split; [|discriminate]. intros q Hq. assert (p = q) by congruence. subst q. right. exact (safe_wrap P _ p Eb). }
  destruct (N.ltb_spec (blen bytes) base) as [|Hb]; [split; [apply tame_err|discriminate]|].
  destruct (reserve_cases (nr * 4)) as [[H4 R4]|[H4 R4]]; rewrite R4; cbn [bind].
  2:{ split; [|discriminate]. intros q Hq. left. split; [|congruence]. destruct HQr as [HQr|[HQr _]]; [exact HQr|lia]. }
  assert (H4' : 2 * (nr * 4) + 2 <= usize_modulus P).
  { assert (nr * 4 + 1 <= usize_modulus P / 2) by lia. pose proof (N.mul_div_le (usize_modulus P) 2 ltac:(discriminate)). lia. }
  assert (a = 4 * nr) by (rewrite usize_mul_exact in Ea by lia; congruence). subst a.
  assert (base = 8 + 4 * nr) by (rewrite usize_add_exact in Eb by lia; congruence). subst base.
  destruct (reserve_cases (table_bytes P nr)) as [[_ Rt]|[Ht Rt]]; rewrite Rt; cbn [bind].
  2:{ split; [|discriminate]. intros q Hq. left. split; [|congruence]. destruct HQr as [HQr|[_ [HQr _]]]; [exact HQr|lia]. }
  assert (Hin : forall i, In i (range 0 nr) -> i < nr) by (intros i Hi; apply range_in in Hi; lia).
  pose proof (read_attrs_np bytes nr Hfit ltac:(lia) Hb (range 0 nr) [] [] Hin) as Hnp.
  destruct (read_attrs P bytes (range 0 nr) [] []) as [[a2r r2a]|e|p] eqn:Era; cbn [bind].
  2:{ split; [apply tame_err|discriminate]. }
  2:{ destruct (Hnp p eq_refl). }
  apply (read_attrs_inv bytes nr Hfit ltac:(lia) Hb) in Era as (us & U1 & U2 & U3 & U4 & U5 & _); [|exact Hin].
  cbn [app] in U2, U3. subst us.
  destruct (reserve_cases (nr * (3 * word P))) as [[_ Rm]|[Hm Rm]]; rewrite Rm; cbn [bind].
  2:{ split; [|discriminate]. intros q Hq. left. split; [|congruence]. destruct HQr as [HQr|[_ [_ HQr]]]; [exact HQr|lia]. }
  destruct (reserve_cases (nc * msize c)) as [[_ R0]|[Hc R0]].
  2:{ rewrite R0. cbn [bind]. split; [|discriminate]. intros q Hq. left. split; [|congruence]. destruct HQc as [HQc|HQc]; [exact HQc|lia]. }
  rewrite R0. cbn [bind]. rewrite slice_fromN_ok by exact Hb. cbn [bind].
  destruct (dec c (skipn (N.to_nat (8 + 4 * nr)) bytes)) as [x0|e|p] eqn:Ex0; cbn [bind].
  2:{ split; [apply tame_err|discriminate]. }
  2:{ destruct (ok_np _ _ _ C _ _ Ex0). }
  rewrite (ok_len _ _ _ C).
  pose proof (ok_dec_len _ _ _ _ _ C Ex0) as L0. unfold blen in L0. rewrite skipn_len in L0.
  set (base := 8 + 4 * nr) in *.
  assert (L1 : base + N.of_nat 1 * k <= blen bytes) by (unfold blen in *; lia).
  (* the arithmetic of the size check *)
  destruct (usize_mul P nr nc) as [n1|e|p] eqn:En1; cbn [bind].
  2:{ split; [apply tame_err|discriminate]. }
  2:{ split; [|discriminate]. intros q Hq. assert (p = q) by congruence. subst q. right. exact (safe_wrap P _ p En1). }
  destruct (usize_mul P n1 k) as [n2|e|p] eqn:En2; cbn [bind].
  2:{ split; [apply tame_err|discriminate]. }
  2:{ split; [|discriminate]. intros q Hq. assert (p = q) by congruence. subst q. right. exact (safe_wrap P _ p En2). }
  destruct (usize_add P base n2) as [lim|e|p] eqn:En3; cbn [bind].
  2:{ split; [apply tame_err|discriminate]. }
  2:{ split; [|discriminate]. intros q Hq. assert (p = q) by congruence. subst q. right. exact (safe_wrap P _ p En3). }
  destruct (N.ltb_spec (blen bytes) lim) as [|Hlim]; [split; [apply tame_err|discriminate]|].
  pose proof (entry_reader bytes base Hfit) as R.
  destruct (seq_read c k V C bytes base _ R (N.to_nat nc - 1) 1 L1) as [S1 S2].
  change (range 1 nc) with (map N.of_nat (seq 1 (N.to_nat nc - 1))).
  change (range 1 nr) with (map N.of_nat (seq 1 (N.to_nat nr - 1))).
  destruct (mapM (fun p => read_entry P c bytes base p k) (map N.of_nat (seq 1 (N.to_nat nc - 1)))) as [row0|e|p] eqn:E0; cbn [bind].
  2:{ split; [apply tame_err|discriminate]. }
  2:{ destruct (S1 p eq_refl). }
  destruct (S2 row0 eq_refl) as (T1 & T2 & T3).
  assert (L2 : base + N.of_nat 1 * nc * k <= blen bytes).
  { rewrite N.mul_1_l. destruct (N.eq_dec nc 0) as [Ez|Hz]; [rewrite Ez; lia|].
    replace nc with (N.of_nat (1 + (N.to_nat nc - 1))) by lia. exact T1. }
  destruct (rows_read bytes base nc Hfit (N.to_nat nr - 1) 1 L2) as [W1 W2].
  destruct (mapM _ (map N.of_nat (seq 1 (N.to_nat nr - 1)))) as [rows|e|p] eqn:E1; cbn [bind].
  2:{ split; [apply tame_err|discriminate]. }
  2:{ destruct (W1 p eq_refl). }
  destruct (W2 rows eq_refl) as (X1 & X2 & X3).
  split; [apply tame_ok|]. intros m Hm'. apply Ok_inj in Hm'. subst m.
  assert (Lr : length r2a = N.to_nat nr) by (rewrite U1, range_length; lia).
  constructor; cbn [nb_row nb_col matrix attr_to_row row_to_attr]; try assumption.
  - rewrite U3, range_0. rewrite map_map, (map_ext _ (fun n => n)) by (intros; apply Nat2N.id). rewrite map_id. reflexivity.
  - exists (x0 :: row0), rows. split; [reflexivity|]. split; [cbn [length]; rewrite T2; lia|]. split; [exact X2|].
    intros row Hrow. apply X3. exact Hrow.
  - simpl. constructor; [eapply (ok_valid _ _ _ C); eauto|]. apply Forall_app. split.
    + apply Forall_forall. intros x Hx. apply In_nth_error in Hx as (j & Hj). apply T3 in Hj. eapply (ok_valid _ _ _ C); eauto.
    + apply Forall_concat. apply Forall_forall. intros r Hr. apply X3. exact Hr.
Qed.

Lemma msp_dec_tame (Q : Prop) bytes : 32 <= usize_bits P -> blen bytes < usize_modulus P ->
  Q \/ (forall n, n < u32_modulus -> rows_fit n /\ n * msize c < usize_modulus P / 2) ->
  tame Q P (msp_dec P c bytes) /\ (forall m, msp_dec P c bytes = Ok m -> decoded_shape m).
Proof.
  intros HP Hfit HQ. destruct (N.ltb_spec (blen bytes) 8) as [H8|H8].
  - unfold msp_dec. destruct (N.ltb_spec (blen bytes) 8) as [_|X]; [|lia]. split; [apply tame_err|discriminate].
  - apply msp_dec_tame_at; [exact HP|exact Hfit|]. destruct (head_range bytes H8) as [Hnr Hnc].
    destruct HQ as [HQ|HQ]; [left; exact HQ|right]. split; [apply (HQ _ Hnr)|apply (HQ _ Hnc)].
Qed.

Hypothesis Hbits : 64 <= usize_bits P.
Lemma big64 : 18446744073709551616 <= usize_modulus P.
Proof. unfold usize_modulus. change 18446744073709551616 with (2 ^ 64). apply N.pow_le_mono_r; [lia|exact Hbits]. Qed.

Lemma msp_dec_spec bytes : blen bytes < usize_modulus P -> u32_modulus * msize c <= usize_modulus P / 2 ->
  safe P (msp_dec P c bytes) /\ (forall m, msp_dec P c bytes = Ok m -> decoded_shape m).
Proof.
  intros Hfit Hres. destruct (msp_dec_tame False bytes ltac:(lia) Hfit) as [T D].
  - right. intros n Hn. split; [apply rows_fit64; assumption|]. destruct (N.eq_dec (msize c) 0) as [Ez|Hz].
    + rewrite Ez, N.mul_0_r. apply N.div_str_pos. pose proof big64. lia.
    + assert (n * msize c < u32_modulus * msize c) by (apply N.mul_lt_mono_pos_r; lia). lia.
  - split; [|exact D]. intros p Hp. destruct (T p Hp) as [[[] _]|H]; exact H.
Qed.
End ProgramProofs.

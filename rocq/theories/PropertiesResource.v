(** Theorems about resources encrypted in several blocks: C96. *)
From Coq Require Import String NArith ZArith Bool Lia Strings.Byte List.
From Verif Require Import Prelude Field Msp Bilinear Scheme Codec SchemeCodec SchemeCodecProofs Policy Engine Hybrid HybridSpec PropertiesHybrid Ffi FfiRaw CodecProofs.
Import ListNotations.
Local Open Scope N_scope.

(** ** Specification *)
(** [ps] is [l] cut every [n] bytes: all pieces have [n] bytes but the last, which has 1 to [n] *)
Inductive cut (n : nat) : list byte -> list (list byte) -> Prop :=
  | cut_nil : cut n [] []
  | cut_last l : l <> [] -> (length l <= n)%nat -> cut n l [l]
  | cut_more a l ps : length a = n -> l <> [] -> cut n l ps -> cut n (a ++ l) (a :: ps).

(** what a program does with a long resource: piece number [i] is block number [i] *)
Section Loops.
Variable S : sym_scheme.
Variable max : N.
Variable key u : list byte.
Fixpoint write_blocks (nonce : N -> list byte) (i : N) (ps : list (list byte)) : outcome (list (list byte)) :=
  match ps with
  | [] => Ok []
  | p :: t => let* c := encrypt_hybrid_block S max key u i (nonce i) p in
              let* r := write_blocks nonce (i + 1) t in Ok (c :: r)
  end.
Fixpoint read_blocks (i : N) (cs : list (list byte)) : outcome (list (list byte)) :=
  match cs with
  | [] => Ok []
  | c :: t => let* p := decrypt_hybrid_block S max key u i c in
              let* r := read_blocks (i + 1) t in Ok (p :: r)
  end.
End Loops.

(** a block is only accepted under its own number, for numbers below [lim] *)
Definition binds_number (S : sym_scheme) (lim : N) : Prop :=
  forall k u i j n m c m', i < lim -> j < lim -> i <> j -> length k = key_length S -> length n = nonce_length S ->
    block_encrypt S k u i n m = Ok c -> block_decrypt S k u j c <> Ok m'.

(** ** Cutting *)
Lemma cut_exists n : (0 < n)%nat -> forall l, exists ps, cut n l ps.
Proof.
  intros Hn l. remember (length l) as k eqn:Hk. revert l Hk. induction k as [k IH] using lt_wf_ind. intros l ->.
  destruct (Nat.leb_spec (length l) n) as [L|L].
  - destruct l as [|x t]; [exists []; constructor|]. exists [x :: t]. constructor; [discriminate|exact L].
  - destruct (IH (length (skipn n l)) ltac:(rewrite skipn_length; lia) (skipn n l) eq_refl) as [ps Hps].
    exists (firstn n l :: ps). rewrite <- (firstn_skipn n l) at 1. constructor; [rewrite firstn_length; lia| |exact Hps].
    intros Q. apply (f_equal (@length byte)) in Q. rewrite skipn_length in Q. cbn in Q. lia.
Qed.

Lemma cut_concat n l ps : cut n l ps -> concat ps = l.
Proof. induction 1; cbn [concat]; [reflexivity|apply app_nil_r|congruence]. Qed.

Lemma app_split {A} (a b c d : list A) : length a = length c -> a ++ b = c ++ d -> a = c /\ b = d.
Proof.
  revert c; induction a as [|x a IH]; intros [|y c] L E; try discriminate; [split; [reflexivity|exact E]|].
  cbn in L, E. injection E as -> E. destruct (IH c ltac:(lia) E) as [-> ->]. auto.
Qed.

Lemma cut_inv n l ps : cut n l ps ->
  (l = [] /\ ps = []) \/ (l <> [] /\ (length l <= n)%nat /\ ps = [l]) \/
  (exists a l' ps', l = a ++ l' /\ ps = a :: ps' /\ length a = n /\ l' <> [] /\ cut n l' ps').
Proof. intros [|l' H1 H2|a l' ps' H1 H2 H3]; [auto|auto|]. right. right. exists a, l', ps'. auto. Qed.

Lemma app_ne_nil {A} (a l : list A) : l <> [] -> a ++ l <> [].
Proof. intros H Q. apply app_eq_nil in Q as [_ Q]. exact (H Q). Qed.

Lemma cut_unique n l ps ps' : cut n l ps -> cut n l ps' -> ps = ps'.
Proof.
  intros H. revert ps'. induction H as [|l Hl L|a l ps La Hl H IH]; intros ps' H';
    destruct (cut_inv _ _ _ H') as [[Q1 Q2]|[(Q1 & Q2 & Q3)|(a' & l' & ps'' & Q1 & Q2 & Q3 & Q4 & Q5)]].
  - congruence.
  - destruct (Q1 eq_refl).
  - symmetry in Q1. destruct (app_ne_nil _ _ Q4 Q1).
  - destruct (Hl Q1).
  - congruence.
  - subst l. rewrite app_length in L. destruct l'; [destruct (Q4 eq_refl)|cbn in L; lia].
  - destruct (app_ne_nil _ _ Hl Q1).
  - rewrite app_length in Q2. destruct l; [destruct (Hl eq_refl)|cbn in Q2; lia].
  - apply app_split in Q1 as [<- <-]; [|congruence]. subst ps'. f_equal. apply IH. exact Q5.
Qed.

Lemma cut_head n l ps : cut n l ps -> l <> [] -> exists p t, ps = p :: t.
Proof. intros [|l' _ _|a l' ps' _ _ _] Hne; [contradiction|eauto|eauto]. Qed.

Lemma cut_pieces n l ps : (0 < n)%nat -> cut n l ps -> Forall (fun p => p <> [] /\ (length p <= n)%nat) ps.
Proof.
  intros Hn H. induction H as [|l Hl L|a l ps La Hl H IH]; [constructor|constructor; [auto|constructor]|].
  constructor; [|exact IH]. split; [intros ->; cbn in La; lia|lia].
Qed.

Lemma cut_prefix n l ps k : (0 < n)%nat -> cut n l ps -> cut n (concat (firstn k ps)) (firstn k ps).
Proof.
  intros Hn H. revert k. induction H as [|l Hl L|a l ps La Hl H IH]; (intros [|k]; [apply cut_nil|]); cbn [firstn concat].
  - apply cut_nil.
  - rewrite firstn_nil. cbn [concat]. rewrite app_nil_r. constructor; assumption.
  - destruct (cut_head _ _ _ H Hl) as (p & t & ->). destruct k as [|k].
    + cbn [firstn concat]. rewrite app_nil_r. constructor; [intros ->; cbn in La; lia|lia].
    + specialize (IH (Datatypes.S k)). cbn [firstn concat] in *. constructor; [exact La| |exact IH].
      pose proof (cut_pieces _ _ _ Hn H) as W. inversion W as [|? ? [W1 _] _]; subst. intros Q. apply app_eq_nil in Q as [Q _]. contradiction.
Qed.

Section Resource.
Variable S : sym_scheme.
Variable metas : metadata -> Prop.
Hypothesis SL : sym_laws S metas.
Variable key u : list byte.
Hypothesis Lk : length key = key_length S.
Variable nonce : N -> list byte.
Hypothesis Ln : forall i, length (nonce i) = nonce_length S.

Lemma write_cut max : forall l ps, cut (N.to_nat max) l ps -> forall i cs, write_blocks S max key u nonce i ps = Ok cs ->
  cut (N.to_nat (max + overhead S)) (concat cs) cs /\
  read_blocks S max key u i cs = Ok ps /\
  length cs = length ps /\
  blen (concat cs) = blen l + overhead S * N.of_nat (length ps) /\
  (l <> [] -> concat cs <> []).
Proof using SL Lk Ln.
  intros l ps H. induction H as [|l Hl L|a l ps La Hl H IH]; intros i cs E.
  - cbn in E. apply Ok_inj in E. subst cs. cbn. split; [constructor|]. split; [reflexivity|]. split; [reflexivity|]. split; [lia|auto].
  - cbn [write_blocks] in E. apply bind_ok in E as (c & Ec & E). cbn [bind] in E. apply Ok_inj in E. subst cs.
    pose proof (block_not_empty S metas SL _ _ _ _ _ _ _ Lk (Ln i) Ec) as Nc.
    destruct (C49_block_roundtrip S metas SL _ _ _ _ _ _ _ Lk (Ln i) Ec) as (D & Sz & _ & Mx). cbn [concat read_blocks length]. rewrite app_nil_r.
    split; [constructor; [exact Nc|unfold blen in *; lia]|]. rewrite D. cbn [bind]. split; [reflexivity|]. split; [reflexivity|].
    split; [lia|auto].
  - cbn [write_blocks] in E. apply bind_ok in E as (c & Ec & E). apply bind_ok in E as (r & Er & E). apply Ok_inj in E. subst cs.
    destruct (C49_block_roundtrip S metas SL _ _ _ _ _ _ _ Lk (Ln i) Ec) as (D & Sz & _ & Mx).
    destruct (IH _ _ Er) as (I1 & I2 & I3 & I4 & I5). cbn [concat read_blocks length].
    split; [constructor; [unfold blen in *; lia|exact (I5 Hl)|exact I1]|]. rewrite D. cbn [bind]. rewrite I2. cbn [bind].
    split; [reflexivity|]. split; [congruence|]. rewrite !blen_app, I4, Sz. split; [lia|].
    intros _ Q. apply app_eq_nil in Q as [_ Q]. exact (I5 Hl Q).
Qed.

(** ** C96 *)
(** A resource of any length comes back: the reader cuts the encrypted bytes every
    [max + overhead] bytes and joins what it reads. *)
Theorem C96_roundtrip max data ps cs : cut (N.to_nat max) data ps -> write_blocks S max key u nonce 0 ps = Ok cs ->
  blen (concat cs) = blen data + overhead S * N.of_nat (length ps) /\
  forall cs', cut (N.to_nat (max + overhead S)) (concat cs) cs' ->
    exists ps', read_blocks S max key u 0 cs' = Ok ps' /\ concat ps' = data.
Proof using SL Lk Ln.
  intros H E. destruct (write_cut max data ps H 0 cs E) as (I1 & I2 & I3 & I4 & _). split; [exact I4|].
  intros cs' H'. rewrite <- (cut_unique _ _ _ _ I1 H'). exists ps. split; [exact I2|exact (cut_concat _ _ _ H)].
Qed.

Lemma write_total max : (forall i m, m <> [] -> exists c, block_encrypt S key u i (nonce i) m = Ok c) ->
  forall ps i, Forall (fun p => p <> [] /\ blen p <= max) ps -> exists cs, write_blocks S max key u nonce i ps = Ok cs.
Proof using Type.
  clear SL Lk Ln.
  intros T. induction ps as [|p t IH]; intros i H; [exists []; reflexivity|]. inversion H as [|? ? [H1 H2] H3]; subst.
  destruct (IH (i + 1) H3) as [r Er]. destruct (T i p H1) as [c Ec]. exists (c :: r). cbn [write_blocks].
  assert (Q : encrypt_hybrid_block S max key u i (nonce i) p = Ok c).
  { unfold encrypt_hybrid_block. destruct p; [contradiction|]. destruct (N.ltb_spec max (blen (b :: p))); [lia|exact Ec]. }
  rewrite Q. cbn [bind]. rewrite Er. reflexivity.
Qed.

(** No resource is too long, and nothing is refused, when the scheme encrypts every block. *)
Theorem C96_every_resource max data : 0 < max -> (forall i m, m <> [] -> exists c, block_encrypt S key u i (nonce i) m = Ok c) ->
  exists ps cs, cut (N.to_nat max) data ps /\ write_blocks S max key u nonce 0 ps = Ok cs /\
    exists cs', cut (N.to_nat (max + overhead S)) (concat cs) cs'.
Proof using SL Lk Ln.
  intros Hm T. assert (Hn : (0 < N.to_nat max)%nat) by lia. destruct (cut_exists (N.to_nat max) Hn data) as [ps H]. exists ps.
  destruct (write_total max T ps 0) as [cs E].
  { apply Forall_impl with (2 := cut_pieces _ _ _ Hn H). intros p [P1 P2]. split; [exact P1|unfold blen; lia]. }
  exists cs. split; [exact H|]. split; [exact E|]. exists cs. exact (proj1 (write_cut max data ps H 0 cs E)).
Qed.

Lemma read_firstn max k : forall cs i ps, read_blocks S max key u i cs = Ok ps -> read_blocks S max key u i (firstn k cs) = Ok (firstn k ps).
Proof using Type.
  clear SL Lk Ln.
  induction k as [|k IH]; intros cs i ps E; [reflexivity|]. destruct cs as [|c t]; cbn [read_blocks] in E.
  { apply Ok_inj in E. subst ps. reflexivity. }
  apply bind_ok in E as (p & Ep & E). apply bind_ok in E as (r & Er & E). apply Ok_inj in E. subst ps.
  cbn [firstn read_blocks]. rewrite Ep. cbn [bind]. rewrite (IH _ _ _ Er). reflexivity.
Qed.

(** A resource that lost its end at the border of a block is accepted: no error tells the reader
    that data is missing. *)
Theorem C96_truncation_refuted max data ps cs : 0 < max -> cut (N.to_nat max) data ps -> write_blocks S max key u nonce 0 ps = Ok cs ->
  max < blen data ->
  exists lost kept cs' ps', concat cs = kept ++ lost /\ lost <> [] /\ kept <> [] /\
    cut (N.to_nat (max + overhead S)) kept cs' /\ read_blocks S max key u 0 cs' = Ok ps' /\
    concat ps' = firstn (N.to_nat max) data.
Proof using SL Lk Ln.
  intros Hm H E Hl. destruct (write_cut max data ps H 0 cs E) as (I1 & I2 & I3 & I4 & _).
  assert (Hps : exists a p t, ps = a :: p :: t /\ length a = N.to_nat max).
  { inversion H as [Q|l Hl' L|a l t La Hl' H' Q]; subst; [cbn in Hl; lia|unfold blen in Hl; lia|].
    destruct (cut_head _ _ _ H' Hl') as (p & t' & ->). exists a, p, t'. auto. }
  destruct Hps as (a & p & t & -> & La). destruct cs as [|c [|c2 t2]]; try discriminate.
  assert (Hn : (0 < N.to_nat (max + overhead S))%nat) by lia.
  pose proof (cut_pieces _ _ _ Hn I1) as W. inversion W as [|? ? [W1 _] W']; subst. inversion W' as [|? ? [W2 _] _]; subst.
  exists (concat (c2 :: t2)), c, [c], [a]. split; [reflexivity|].
  split; [cbn [concat]; intros Q; apply app_eq_nil in Q as [Q _]; contradiction|]. split; [exact W1|].
  split; [pose proof (cut_prefix _ _ _ 1 Hn I1) as Q; cbn [firstn concat] in Q; rewrite app_nil_r in Q; exact Q|].
  split; [exact (read_firstn max 1 _ _ _ I2)|]. rewrite <- (cut_concat _ _ _ H). cbn [concat].
  rewrite app_nil_r, firstn_app, <- La, Nat.sub_diag, firstn_all. cbn. symmetry. apply app_nil_r.
Qed.

Lemma write_nth max : forall ps i cs, write_blocks S max key u nonce i ps = Ok cs -> forall j c, nth_error cs j = Some c ->
  exists p, nth_error ps j = Some p /\ encrypt_hybrid_block S max key u (i + N.of_nat j) (nonce (i + N.of_nat j)) p = Ok c.
Proof using Type.
  clear SL Lk Ln.
  induction ps as [|p t IH]; intros i cs E j c Hj; cbn [write_blocks] in E.
  { apply Ok_inj in E. subst cs. destruct j; discriminate. }
  apply bind_ok in E as (c' & Ec & E). apply bind_ok in E as (r & Er & E). apply Ok_inj in E. subst cs.
  destruct j as [|j]; cbn [nth_error] in *.
  - injection Hj as <-. exists p. rewrite N.add_0_r. auto.
  - destruct (IH _ _ Er j c Hj) as (p' & Q1 & Q2). exists p'. split; [exact Q1|].
    replace (i + N.of_nat (Datatypes.S j)) with (i + 1 + N.of_nat j) by lia. exact Q2.
Qed.

(** Otherwise the blocks of a resource cannot be rearranged: a selection of them is accepted
    only if it is the beginning of the resource. *)
Theorem C96_rearranged max lim data ps cs chosen cs' ps' : binds_number S lim -> cut (N.to_nat max) data ps ->
  write_blocks S max key u nonce 0 ps = Ok cs -> N.of_nat (length ps) <= lim -> N.of_nat (length chosen) <= lim ->
  Forall2 (fun j c => nth_error cs j = Some c) chosen cs' ->
  read_blocks S max key u 0 cs' = Ok ps' -> chosen = seq 0 (length chosen) /\ cs' = firstn (length chosen) cs /\ ps' = firstn (length chosen) ps.
Proof using SL Lk Ln.
  intros Hb H E L1 L2 Hc Er.
  assert (G : forall chosen i cs' ps', N.of_nat (i + length chosen) <= lim -> Forall2 (fun j c => nth_error cs j = Some c) chosen cs' ->
      read_blocks S max key u (N.of_nat i) cs' = Ok ps' -> chosen = seq i (length chosen)).
  { clear - Hb E L1 Lk Ln SL H. induction chosen as [|j ch IH]; intros i cs' ps' L Hc Er; [reflexivity|].
    inversion Hc as [|? c ? ct Hj Hc']; subst. cbn [read_blocks] in Er. apply bind_ok in Er as (p & Ep & Er). apply bind_ok in Er as (r & Er & _).
    cbn [length seq] in *. replace (N.of_nat i + 1) with (N.of_nat (Datatypes.S i)) in Er by lia.
    rewrite <- (IH (Datatypes.S i) ct r ltac:(lia) Hc' Er). f_equal.
    destruct (write_nth max ps 0 cs E j c Hj) as (q & Q1 & Q2). rewrite N.add_0_l in Q2.
    destruct (Nat.eq_dec j i) as [|Hne]; [assumption|exfalso].
    assert (Lj : (j < length ps)%nat) by (apply nth_error_Some; rewrite Q1; discriminate).
    pose proof (block_not_empty S metas SL _ _ _ _ _ _ _ Lk (Ln _) Q2) as Nc.
    unfold encrypt_hybrid_block in Q2. destruct q as [|x q]; [discriminate|]. destruct (max <? blen (x :: q)); [discriminate|].
    unfold decrypt_hybrid_block in Ep. destruct c as [|y c]; [contradiction|]. destruct (max + overhead S <? blen (y :: c)); [discriminate|].
    refine (Hb key u (N.of_nat j) (N.of_nat i) _ _ _ p _ _ _ Lk (Ln _) Q2 Ep); lia. }
  pose proof (G chosen 0%nat cs' ps' ltac:(lia) Hc Er) as Q. split; [exact Q|].
  assert (Q2 : cs' = firstn (length chosen) cs).
  { clear - Hc Q. assert (W : forall ch i cs', ch = seq i (length ch) -> Forall2 (fun j c => nth_error cs j = Some c) ch cs' ->
        cs' = firstn (length ch) (skipn i cs)).
    { induction ch as [|j ch IH]; intros i cs'' Hq Hf; [inversion Hf; reflexivity|].
      inversion Hf as [|? c ? ct Hj Hf']; subst. cbn [length seq] in Hq. injection Hq as -> Hq.
      rewrite (IH (Datatypes.S i) ct Hq Hf'). cbn [length]. clear - Hj.
      assert (V : skipn i cs = c :: skipn (Datatypes.S i) cs).
      { revert cs Hj. induction i as [|i IH]; intros [|y t] Hj; try discriminate; [injection Hj as ->; reflexivity|]. exact (IH t Hj). }
      rewrite V. reflexivity. }
    exact (W chosen 0%nat cs' Q Hc). }
  split; [exact Q2|]. subst cs'. destruct (write_cut max data ps H 0 cs E) as (_ & I2 & _).
  rewrite (read_firstn max (length chosen) _ _ _ I2) in Er. apply Ok_inj in Er. auto.
Qed.

(** The overhead that the C interface announces is the one of every block. *)
Theorem C96_announced_overhead max i plaintext c : overhead S < 2147483648 ->
  encrypt_hybrid_block S max key u i (nonce i) plaintext = Ok c ->
  Z.of_N (blen c) = (Z.of_N (blen plaintext) + h_aes_symmetric_encryption_overhead S)%Z.
Proof using SL Lk Ln.
  intros Ho E. destruct (C49_block_roundtrip S metas SL _ _ _ _ _ _ _ Lk (Ln i) E) as (_ & Sz & _). unfold h_aes_symmetric_encryption_overhead.
  rewrite Sz. assert (Q : as_c_int (overhead S) = Z.of_N (overhead S)).
  { unfold as_c_int, u32_to_i32. rewrite N.mod_small by (unfold u32_modulus; lia). destruct (N.ltb_spec (overhead S) 2147483648); lia. }
  rewrite Q. lia.
Qed.
End Resource.

(** ** Examples *)
(** a resource of 5 bytes in blocks of 2, written and read; without its last two blocks; with two
    blocks exchanged *)
Definition res_nonce (i : N) : list byte := be32 i ++ repeat x07 8.
Definition res_blocks : list (list byte) :=
  match write_blocks toy_sym 2 (repeat x05 32) [x01] res_nonce 0 [[x0a; x0b]; [x0c; x0d]; [x0e]] with Ok cs => cs | _ => [] end.
Example C96_example :
  cut 2 [x0a; x0b; x0c; x0d; x0e] [[x0a; x0b]; [x0c; x0d]; [x0e]] /\
  write_blocks toy_sym 2 (repeat x05 32) [x01] res_nonce 0 [[x0a; x0b]; [x0c; x0d]; [x0e]] = Ok res_blocks /\
  map (@length byte) res_blocks = [15; 15; 14]%nat /\
  read_blocks toy_sym 2 (repeat x05 32) [x01] 0 res_blocks = Ok [[x0a; x0b]; [x0c; x0d]; [x0e]] /\
  read_blocks toy_sym 2 (repeat x05 32) [x01] 0 (firstn 1 res_blocks) = Ok [[x0a; x0b]] /\
  read_blocks toy_sym 2 (repeat x05 32) [x01] 0 (rev res_blocks) = Err CryptoError /\
  h_aes_symmetric_encryption_overhead toy_sym = 13%Z.
Proof.
  split. { apply (cut_more 2 [x0a; x0b] [x0c; x0d; x0e]); [reflexivity|discriminate|].
    apply (cut_more 2 [x0c; x0d] [x0e]); [reflexivity|discriminate|]. apply cut_last; [discriminate|cbn; lia]. }
  repeat split; vm_compute; reflexivity.
Qed.

(** a scheme whose blocks carry their number *)
Definition numbered : sym_scheme := mkSym 32 12 16 (sym_encrypt toy_sym) (sym_decrypt toy_sym)
  (fun k u i n m => Ok (be32 (i mod 4294967296) ++ n ++ m))
  (fun k u i c => let* (j, r) := scan_u32 c in
                  if j =? i mod 4294967296 then let* (n, m) := scan_next 12 r in Ok m else Err CryptoError)
  (meta_to_bytes toy_sym) (meta_from_bytes toy_sym).
Lemma numbered_mod i : i mod 4294967296 < u32_modulus.
Proof. apply N.mod_lt. discriminate. Qed.
Example C96_rearranged_example : binds_number numbered 4294967296 /\ sym_laws numbered (fun m => additional_data m <> Some []).
Proof.
  split.
  - intros k u i j n m c m' Li Lj Hne _ _ E. cbn [block_encrypt numbered] in E. apply Ok_inj in E. subst c.
    cbn [block_decrypt numbered]. rewrite scan_u32_app by apply numbered_mod. cbn [bind]. rewrite !N.mod_small by assumption.
    destruct (N.eqb_spec i j); [contradiction|discriminate].
  - constructor.
    + reflexivity.
    + exact (law_decrypt _ _ toy_sym_laws).
    + intros k u i n m c _ Ln E. cbn [block_encrypt numbered] in E. apply Ok_inj in E. subst c.
      cbn [block_decrypt numbered]. rewrite scan_u32_app by apply numbered_mod. cbn [bind]. rewrite N.eqb_refl.
      assert (Q : 12 = blen n) by (unfold blen; rewrite Ln; reflexivity). rewrite Q, scan_next_app. reflexivity.
    + intros k u i n m c _ Ln E. cbn [block_encrypt numbered] in E. apply Ok_inj in E. subst c. rewrite !blen_app.
      assert (Q : blen n = 12) by (unfold blen; rewrite Ln; reflexivity). rewrite Q.
      change (blen (be32 (i mod 4294967296))) with 4. cbn [overhead numbered]. lia.
    + exact (law_meta _ _ toy_sym_laws).
Qed.

Print Assumptions C96_roundtrip.
Print Assumptions C96_every_resource.
Print Assumptions C96_truncation_refuted.
Print Assumptions C96_rearranged.
Print Assumptions C96_announced_overhead.

(** Output buffers and length variables used again from call to call, as the
    benchmarks of the repository do (benches/benches.rs:187-269, 273-367, 398-453 and
    457-523): C135. *)
From Coq Require Import String NArith ZArith Bool Arith Lia Strings.Byte List.
From Verif Require SchemeProofs.
From Verif Require Import Prelude Field LinAlg Msp Spec MspProofs Bilinear Scheme SchemeSpec SchemeTheorems
  Zp ExpModel PropertiesScheme Parser ParserSpec Codec CodecProofs SchemeCodec SchemeCodecProofs PropertiesCodec
  Policy PolicySpec PolicyProofs Engine EngineSpec EngineProofs PropertiesEngine Hybrid HybridSpec PropertiesHybrid
  Ffi FfiSpec PropertiesFfi PropertiesSizes.
Import ListNotations.
Local Open Scope N_scope.

(** ** Specification *)
(** The calls one after the other on the same output arguments, whatever the code a
    call returns; nothing runs after a crash. *)
Fixpoint session (fs : list (ffi unit)) (outs : list out_arg) : list (result unit) :=
  match fs with
  | [] => []
  | f :: t =>
      let r := f outs in
      r :: match r with Go _ outs' | Bail _ outs' => session t outs' | Crash _ | Undefined => [] end
  end.
(** a buffer of the caller and the length announced for it *)
Definition buffer (mem : list byte) (len : Z) : out_arg := mkOut (Some mem) (Some len).
Definition announces (mem : list byte) (len : Z) : Prop := (0 <= len < 2147483648)%Z /\ (len <= Z.of_nat (length mem))%Z.
(** no result is longer than the one before it, the first one not longer than announced *)
Fixpoint shrinking (len : N) (sizes : list N) : Prop :=
  match sizes with [] => True | n :: t => n <= len /\ shrinking n t end.
(** the same where an announced length of zero is refused *)
Fixpoint shrinking_kept (len : N) (sizes : list N) : Prop :=
  match sizes with [] => True | n :: t => 1 <= len /\ n <= len /\ shrinking_kept n t end.
(** the additional data as the caller sees them: none are as empty ones *)
Definition data_of (m : metadata) : list byte := match additional_data m with Some d => d | None => [] end.

(** ** The outputs one by one *)
Lemma to_N_len mem len : announces mem len -> Z.of_N (Z.to_N len) = len.
Proof. intros [H _]. lia. Qed.
Lemma buffer_good mem len : announces mem len -> good_out (buffer mem len).
Proof. intros [H1 H2]. exists len. split; [reflexivity|]. split; [exact H1|]. intros m [= <-]. exact H2. Qed.
Lemma buffer_offered mem len : announces mem len -> (1 <= len)%Z -> offered (buffer mem len).
Proof. intros H H1. exists len. split; [|exact H1]. split; [apply buffer_good, H|]. split; [discriminate|reflexivity]. Qed.
Lemma read_filled d mem : read_out (buffer (d ++ skipn (length d) mem) (Z.of_N (blen d))) = d.
Proof.
  unfold read_out, buffer, blen. cbn [o_mem o_len]. rewrite nat_N_Z, Nat2Z.id, firstn_app, firstn_all, Nat.sub_diag. apply app_nil_r.
Qed.
Lemma filled_announces d mem len : announces mem len -> blen d <= Z.to_N len -> announces (d ++ skipn (length d) mem) (Z.of_N (blen d)).
Proof.
  intros [H1 H2] H. unfold blen in *. split; [lia|]. rewrite app_length. lia.
Qed.

Section Outputs.
Variable P : platform.
Hypothesis HP : 32 <= usize_bits P.

(** one delivery: the result is there exactly if it is not longer than announced *)
Lemma deliver_buffer i d outs mem len : nth_error outs i = Some (buffer mem len) -> announces mem len ->
  (blen d <= Z.to_N len /\ deliver P i d outs = Go tt (set_out outs i (buffer (d ++ skipn (length d) mem) (Z.of_N (blen d))))) \/
  (Z.to_N len < blen d /\ exists e, deliver P i d outs = Bail e (set_out outs i (buffer mem (as_c_int (blen d))))).
Proof using HP.
  intros E [H1 H2]. destruct (deliver_cases P HP i d outs _ mem len E eq_refl eq_refl H1 H2) as [[H Q]|[H Q]]; [left|right]; split.
  - lia.
  - exact Q.
  - lia.
  - eexists. exact Q.
Qed.
(** a buffer shorter than announced is overrun *)
Lemma deliver_past i d outs mem len : nth_error outs i = Some (buffer mem len) -> (0 <= len < 2147483648)%Z ->
  blen d <= Z.to_N len -> blen mem < blen d -> deliver P i d outs = Undefined.
Proof using HP.
  intros E Hl Hd Hm. unfold deliver. rewrite E. unfold buffer. rewrite (as_usize_exact P len HP Hl).
  destruct (N.ltb_spec (Z.to_N len) (blen d)) as [C|_]; [lia|]. unfold copy_out.
  destruct (N.leb_spec (blen d) (blen mem)) as [C|_]; [lia|reflexivity].
Qed.
Lemma deliver_late_buffer d mem len : announces mem len ->
  (blen d <= Z.to_N len /\ deliver_late P 0 d [buffer mem len] = Go tt [buffer (d ++ skipn (length d) mem) (Z.of_N (blen d))]) \/
  (Z.to_N len < blen d /\ exists e, deliver_late P 0 d [buffer mem len] = Bail e [buffer mem len]).
Proof using HP.
  intros [H1 H2]. destruct (deliver_late_cases P HP 0 d [buffer mem len] _ mem len eq_refl eq_refl eq_refl H1 H2) as [[H Q]|[H Q]]; [left|right]; split.
  - lia.
  - exact Q.
  - lia.
  - eexists. exact Q.
Qed.
(** an output that is left alone once its length is zero *)
Definition given (len : Z) (d : list byte) : list byte := if (len =? 0)%Z then [] else d.
Definition value (d : option (list byte)) : list byte := match d with Some b => b | None => [] end.
Lemma expected_buffer i d outs mem len : nth_error outs i = Some (buffer mem len) -> announces mem len ->
  (blen (given len (value d)) <= Z.to_N len /\
   exists mem', deliver_expected P i d outs = Go tt (set_out outs i (buffer mem' (Z.of_N (blen (given len (value d)))))) /\
     announces mem' (Z.of_N (blen (given len (value d)))) /\
     read_out (buffer mem' (Z.of_N (blen (given len (value d))))) = given len (value d)) \/
  (Z.to_N len < blen (given len (value d)) /\ exists e outs', deliver_expected P i d outs = Bail e outs').
Proof using HP.
  intros E A. pose proof A as [H1 H2].
  assert (Same : forall o, nth_error outs i = Some o -> set_out outs i o = outs).
  { clear. revert i. induction outs as [|x outs IH]; intros [|i] o E; cbn [set_out nth_error] in *; try discriminate; [congruence|]. rewrite IH by exact E. reflexivity. }
  unfold deliver_expected. rewrite E. unfold buffer. cbn [o_mem o_len]. unfold given. destruct (Z.eqb_spec len 0) as [->|Hn].
  - left. split; [cbn; lia|]. exists mem. cbn [Z.ltb Z.compare]. change (Z.of_N (blen [])) with 0%Z. split; [|split].
    + rewrite Same by exact E. reflexivity.
    + exact A.
    + unfold read_out. cbn [o_mem o_len Z.to_nat]. reflexivity.
  - destruct (Z.ltb_spec 0 len) as [H0|H0]; [|lia]. destruct d as [d|]; cbn [value].
    + destruct (deliver_buffer i d outs mem len E A) as [[H Q]|[H (e & Q)]]; [left|right].
      * split; [exact H|]. eexists. split; [exact Q|]. split; [exact (filled_announces d mem len A H)|apply read_filled].
      * split; [exact H|]. eexists. eexists. exact Q.
    + left. split; [cbn; lia|]. exists mem. change (Z.of_N (blen [])) with 0%Z. split; [reflexivity|]. split.
      * split; lia.
      * unfold read_out. cbn [o_mem o_len Z.to_nat]. reflexivity.
Qed.
End Outputs.

Section Reuse.
Context (B : BilinearMap).
Local Notation K := (bm_K B).
Variable P : platform.
Hypothesis HP : 32 <= usize_bits P.
Variable F : byte_forms B.
Variable shake : list byte -> nat -> list byte.
Variable S : sym_scheme.
Hypothesis SK : (1 <= key_length S)%nat.
Variable policy_from : list byte -> outcome policy.
Variable attributes_from : list byte -> outcome (list attribute).

(** [f] is a call of one of the two functions that make a header, for the attributes
    [l] and the metadata [m], and [h] is the header it makes *)
Definition seals (l : list attribute) (m : metadata) (f : ffi unit) (h : encrypted_header) : Prop :=
  exists p mpk u ad random s nonce attrs,
    m = meta_of u ad /\ length nonce = nonce_length S /\ attributes_from attrs = Ok l /\
    encrypt_hybrid_header S F shake P p mpk l (Some m) random s nonce = Ok h /\
    ((exists pol pk, pk <> [] /\ policy_from pol = Ok p /\ pub_dec F P pk = Ok mpk /\
        f = h_aes_encrypt_header P F shake S policy_from attributes_from (Some pol) (Some pk) (Some attrs) u ad random s nonce) \/
     (exists cache handle, cache handle = Some (p, mpk) /\
        f = h_aes_encrypt_header_using_cache P F shake S attributes_from cache handle (Some attrs) u ad random s nonce)).
(** [f] is a call of one of the two functions that open a header, and [c] is what the
    header holds *)
Definition opens (f : ffi unit) (c : clear_header) : Prop :=
  exists header key, header <> [] /\ decrypt_hybrid_header S F shake P key header = Ok c /\
    ((exists uk, uk <> [] /\ user_dec F P uk = Ok key /\ f = h_aes_decrypt_header P F shake S (Some header) (Some uk)) \/
     (exists cache handle, cache handle = Some key /\ f = h_aes_decrypt_header_using_cache P F shake S cache handle (Some header))).
(** [f] is a call that encrypts or decrypts a block, [d] is its result *)
Definition turns (f : ffi unit) (d : list byte) : Prop :=
  exists key u number data, length key = key_length S /\ key <> [] /\ data <> [] /\
    ((exists nonce, encrypt_hybrid_block S 1073741824 key (optional_bytes u) (as_usize P number) nonce data = Ok d /\
        f = h_aes_encrypt_block P S (Some key) u number (Some data) nonce) \/
     (decrypt_hybrid_block S 1073741824 key (optional_bytes u) (as_usize P number) data = Ok d /\
        f = h_aes_decrypt_block P S (Some key) u number (Some data))).

Lemma check_buffer i w outs mem len : nth_error outs i = Some (buffer mem len) -> len <> 0%Z -> check_out i w outs = Go tt outs.
Proof. intros E H. unfold check_out. rewrite E. cbn [buffer o_mem o_len]. destruct len; [contradiction|reflexivity|reflexivity]. Qed.
Lemma meta_arg_of u ad : meta_arg u ad = meta_of u ad.
Proof. unfold meta_arg, meta_of, optional_bytes. destruct ad as [[|x b]|]; reflexivity. Qed.

Lemma seals_call l m f h mk lk mh lh : seals l m f h -> lk <> 0%Z -> lh <> 0%Z ->
  f [buffer mk lk; buffer mh lh] = deliver_header P h [buffer mk lk; buffer mh lh].
Proof using Type.
  intros (p & mpk & u & ad & random & s & nonce & attrs & -> & _ & Ea & Eh & [(pol & pk & Hp & Ep & Ek & ->)|(cache & handle & Ec & ->)]) H0 H1;
  [unfold h_aes_encrypt_header|unfold h_aes_encrypt_header_using_cache];
  rewrite then_assoc_check, (check_buffer 0 _ [buffer mk lk; buffer mh lh] mk lk eq_refl H0), then_assoc_check, (check_buffer 1 _ [buffer mk lk; buffer mh lh] mh lh eq_refl H1);
  unfold andthen at 1; cbn [not_null ret]; unfold ret.
  - unfold andthen at 1. rewrite input_go by exact Hp. unfold andthen. cbn [not_null]. unfold ret, unwrap. rewrite Ep, Ek, Ea, meta_arg_of, Eh. reflexivity.
  - rewrite Ec. unfold andthen, unwrap, ret. rewrite Ea, meta_arg_of, Eh. reflexivity.
Qed.
Lemma seals_sizes l m f h : seals l m f h -> length (eh_key h) = key_length S /\ 4 <= blen (eh_bytes h).
Proof using Type.
  intros (p & mpk & u & ad & random & s & nonce & attrs & _ & _ & _ & Eh & _).
  destruct (header_layout B F shake S P p mpk l _ random s nonce h Eh) as (sk & tail & _ & L & _ & Q & _). split; [exact L|].
  clear SK HP. rewrite Q, blen_app. unfold blen at 1. rewrite be32_length. lia.
Qed.
Lemma opens_call f c mk lk ou oa : opens f c -> lk <> 0%Z -> f [buffer mk lk; ou; oa] = deliver_clear P c [buffer mk lk; ou; oa].
Proof using Type.
  intros (header & key & Hh & Ed & [(uk & Hu & Eu & ->)|(cache & handle & Ec & ->)]) H0;
  [unfold h_aes_decrypt_header|unfold h_aes_decrypt_header_using_cache];
  rewrite then_assoc_check, (check_buffer 0 _ [buffer mk lk; ou; oa] mk lk eq_refl H0); unfold andthen at 1; rewrite input_go by exact Hh.
  - unfold andthen at 1. rewrite input_go by exact Hu. unfold andthen, unwrap. rewrite Eu, Ed. reflexivity.
  - rewrite Ec. unfold andthen, unwrap. rewrite Ed. reflexivity.
Qed.
Lemma opens_key f c : opens f c -> length (ch_key c) = key_length S.
Proof using Type.
  intros (header & key & _ & E & _). unfold decrypt_hybrid_header in E. destruct (blen header <? 4); [discriminate|].
  apply bind_ok in E as ([size r] & _ & E). apply bind_ok in E as ([esk r'] & _ & E). apply bind_ok in E as (sk & _ & E).
  apply bind_ok in E as (k & Ek & E). apply bind_ok in E as (meta & _ & E). apply Ok_inj in E. subst c. cbn [ch_key].
  unfold array_from in Ek. destruct (Nat.eqb_spec (length sk) (key_length S)) as [H|H]; [|discriminate].
  apply Ok_inj in Ek. subst k. exact H.
Qed.
Lemma turns_call f d mem len : turns f d -> len <> 0%Z -> f [buffer mem len] = deliver_late P 0 d [buffer mem len].
Proof using Type.
  intros (key & u & number & data & Lk & Hk & Hd & [(nonce & E & ->)|(E & ->)]) H0;
  [unfold h_aes_encrypt_block|unfold h_aes_decrypt_block];
  rewrite then_assoc_check, (check_buffer 0 _ [buffer mem len] mem len eq_refl H0); unfold andthen at 1; rewrite input_go by exact Hk;
  unfold andthen at 1; rewrite input_go by exact Hd; unfold andthen, unwrap; rewrite array_from_ok by exact Lk; unfold max_clear_text; rewrite E; reflexivity.
Qed.

(** ** Headers made one after the other *)
Definition header_read (r : result unit) (h : encrypted_header) : Prop :=
  exists ok oh, r = Go tt [ok; oh] /\ read_out ok = eh_key h /\ read_out oh = eh_bytes h.

(** All keys and headers are delivered exactly if no header is longer than the one
    before it, and the first not longer than announced. *)
Theorem C135_headers fs hs mk lk mh lh :
  Forall2 (fun f h => exists l m, seals l m f h) fs hs ->
  announces mk lk -> (Z.of_nat (key_length S) <= lk)%Z -> announces mh lh -> (1 <= lh)%Z ->
  (Forall2 header_read (session fs [buffer mk lk; buffer mh lh]) hs <-> shrinking (Z.to_N lh) (map (fun h => blen (eh_bytes h)) hs)).
Proof using HP SK.
  intros Hs. revert mk lk mh lh. induction Hs as [|f h fs hs (l & m & Hf) Hs IH]; intros mk lk mh lh Ak Hk Ah Hh.
  { cbn. split; intros; constructor. }
  cbn [session map shrinking]. rewrite (seals_call l m f h mk lk mh lh Hf) by lia.
  destruct (seals_sizes l m f h Hf) as [Lk L4].
  unfold deliver_header, andthen.
  destruct (deliver_buffer P HP 0 (eh_key h) [buffer mk lk; buffer mh lh] mk lk eq_refl Ak) as [[H0 ->]|[H0 _]]; [|unfold blen in H0; lia].
  cbn [set_out].
  destruct (deliver_buffer P HP 1 (eh_bytes h) [buffer (eh_key h ++ skipn (length (eh_key h)) mk) (Z.of_N (blen (eh_key h))); buffer mh lh] mh lh eq_refl Ah) as [[H1 ->]|[H1 (e & ->)]];
  cbn [set_out].
  - pose proof (filled_announces _ _ _ Ak H0) as Ak'. pose proof (filled_announces _ _ _ Ah H1) as Ah'.
    specialize (IH _ _ _ _ Ak' ltac:(unfold blen; lia) Ah' ltac:(lia)). rewrite N2Z.id in IH. split.
    + intros Q. inversion Q; subst. split; [exact H1|]. apply IH. assumption.
    + intros [_ Q]. constructor; [|apply IH, Q]. eexists. eexists. split; [reflexivity|]. split; apply read_filled.
  - split; [|intros [Q _]; lia]. intros Q. inversion Q as [|? ? ? ? (ok & oh & X & _)]; subst. discriminate X.
Qed.

(** ** Headers opened one after the other *)
Definition clear_read (r : result unit) (c : clear_header) : Prop :=
  exists ok ou oa, r = Go tt [ok; ou; oa] /\ read_out ok = ch_key c /\ read_out ou = uid (ch_meta c) /\ read_out oa = data_of (ch_meta c).

Lemma data_value m : value (additional_data m) = data_of m.
Proof. reflexivity. Qed.
(** one call: it succeeds exactly if what it gives fits *)
Lemma open_once f c mk lk mu lu ma la : opens f c ->
  announces mk lk -> (Z.of_nat (key_length S) <= lk)%Z -> announces mu lu -> announces ma la ->
  let gu := given lu (uid (ch_meta c)) in let ga := given la (data_of (ch_meta c)) in
  (blen gu <= Z.to_N lu /\ blen ga <= Z.to_N la /\
   exists mk' mu' ma', f [buffer mk lk; buffer mu lu; buffer ma la] = Go tt [buffer mk' (Z.of_nat (key_length S)); buffer mu' (Z.of_N (blen gu)); buffer ma' (Z.of_N (blen ga))] /\
     announces mk' (Z.of_nat (key_length S)) /\ announces mu' (Z.of_N (blen gu)) /\ announces ma' (Z.of_N (blen ga)) /\
     read_out (buffer mk' (Z.of_nat (key_length S))) = ch_key c /\ read_out (buffer mu' (Z.of_N (blen gu))) = gu /\ read_out (buffer ma' (Z.of_N (blen ga))) = ga) \/
  ((Z.to_N lu < blen gu \/ Z.to_N la < blen ga) /\ exists e outs, f [buffer mk lk; buffer mu lu; buffer ma la] = Bail e outs).
Proof using HP SK.
  intros Hf Ak Hk Au Aa gu ga. rewrite (opens_call f c mk lk _ _ Hf) by lia. pose proof (opens_key f c Hf) as Lk.
  unfold deliver_clear, andthen.
  destruct (deliver_buffer P HP 0 (ch_key c) [buffer mk lk; buffer mu lu; buffer ma la] mk lk eq_refl Ak) as [[H0 ->]|[H0 _]]; [|unfold blen in H0; lia].
  cbn [set_out]. pose proof (filled_announces _ _ _ Ak H0) as Ak'. pose proof (read_filled (ch_key c) mk) as Rk.
  assert (Qk : Z.of_N (blen (ch_key c)) = Z.of_nat (key_length S)) by (unfold blen; lia). rewrite Qk in *.
  set (ok := buffer _ (Z.of_nat (key_length S))) in *.
  destruct (expected_buffer P HP 1 (Some (uid (ch_meta c))) [ok; buffer mu lu; buffer ma la] mu lu eq_refl Au) as [(H1 & mu' & -> & Au' & Ru)|(H1 & e & o & ->)]; cbn [value] in *.
  2:{ right. split; [left; exact H1|]. eauto. }
  cbn [set_out]. fold gu. fold gu in H1, Au', Ru.
  destruct (expected_buffer P HP 2 (additional_data (ch_meta c)) [ok; buffer mu' (Z.of_N (blen gu)); buffer ma la] ma la eq_refl Aa) as [(H2 & ma' & E & Aa' & Ra)|(H2 & e & o & E)];
  rewrite data_value in *; rewrite E.
  2:{ right. split; [right; exact H2|]. eauto. }
  left. split; [exact H1|]. split; [exact H2|]. cbn [set_out].
  exists (ch_key c ++ skipn (length (ch_key c)) mk), mu', ma'. split; [reflexivity|]. auto 10.
Qed.

(** All keys, identifiers and additional data are delivered exactly if no identifier
    and no additional data are longer than those of the header before. *)
Theorem C135_opened fs cs mk lk mu lu ma la :
  Forall2 opens fs cs ->
  announces mk lk -> (Z.of_nat (key_length S) <= lk)%Z -> announces mu lu -> announces ma la ->
  (Forall2 clear_read (session fs [buffer mk lk; buffer mu lu; buffer ma la]) cs <->
   shrinking (Z.to_N lu) (map (fun c => blen (uid (ch_meta c))) cs) /\
   shrinking (Z.to_N la) (map (fun c => blen (data_of (ch_meta c))) cs)).
Proof using HP SK.
  clear policy_from attributes_from. intros Hs. revert mk lk mu lu ma la. induction Hs as [|f c fs cs Hf Hs IH]; intros mk lk mu lu ma la Ak Hk Au Aa.
  { cbn. split; [intros _; split; constructor|constructor]. }
  cbn [session map shrinking].
  pose proof (open_once f c mk lk mu lu ma la Hf Ak Hk Au Aa) as D. cbv zeta in D.
  set (gu := given lu (uid (ch_meta c))) in *. set (ga := given la (data_of (ch_meta c))) in *.
  assert (Gu : blen (uid (ch_meta c)) <= Z.to_N lu -> gu = uid (ch_meta c)).
  { intros H. unfold gu, given. destruct (Z.eqb_spec lu 0) as [->|_]; [|reflexivity]. unfold blen in H. destruct (uid (ch_meta c)); [reflexivity|cbn in H; lia]. }
  assert (Ga : blen (data_of (ch_meta c)) <= Z.to_N la -> ga = data_of (ch_meta c)).
  { intros H. unfold ga, given. destruct (Z.eqb_spec la 0) as [->|_]; [|reflexivity]. unfold blen in H. destruct (data_of (ch_meta c)); [reflexivity|cbn in H; lia]. }
  destruct D as [(H1 & H2 & mk' & mu' & ma' & -> & Ak' & Au' & Aa' & Rk & Ru & Ra)|(H & e & o & ->)].
  - specialize (IH _ _ _ _ _ _ Ak' (Z.le_refl _) Au' Aa'). rewrite !N2Z.id in IH. split.
    + intros Q. inversion Q as [|? ? ? ? (ok & ou & oa & X & _ & Xu & Xa) Q']; subst.
      injection X as <- <- <-. rewrite Ru in Xu. rewrite Ra in Xa. rewrite <- Xu, <- Xa in *. apply IH in Q'. tauto.
    + intros [[Q1 Q1'] [Q2 Q2']]. rewrite (Gu Q1) in *. rewrite (Ga Q2) in *. constructor; [|apply IH; auto].
      eexists. eexists. eexists. split; [reflexivity|]. auto.
  - split.
    + intros Q. inversion Q as [|? ? ? ? (ok & ou & oa & X & _)]; subst. discriminate X.
    + intros [[Q1 _] [Q2 _]]. rewrite (Gu Q1), (Ga Q2) in H. destruct H; lia.
Qed.

(** After a header without additional data, the additional data of the headers that
    follow are withheld though every call returns 0. *)
Definition withheld_read (r : result unit) (c : clear_header) : Prop :=
  exists ok ou oa, r = Go tt [ok; ou; oa] /\ read_out ok = ch_key c /\ read_out ou = uid (ch_meta c) /\ read_out oa = [].

Lemma withheld_session fs cs mk lk mu lu ma :
  Forall2 opens fs cs ->
  announces mk lk -> (Z.of_nat (key_length S) <= lk)%Z -> announces mu lu -> announces ma 0 ->
  shrinking (Z.to_N lu) (map (fun c => blen (uid (ch_meta c))) cs) ->
  Forall2 withheld_read (session fs [buffer mk lk; buffer mu lu; buffer ma 0]) cs.
Proof using HP SK.
  clear policy_from attributes_from. intros Hs. revert mk lk mu lu ma. induction Hs as [|f c fs cs Hf Hs IH]; intros mk lk mu lu ma Ak Hk Au Aa Q; [constructor|].
  cbn [session map shrinking] in *. destruct Q as [Q1 Q].
  pose proof (open_once f c mk lk mu lu ma 0 Hf Ak Hk Au Aa) as D. cbv zeta in D.
  assert (Gu : given lu (uid (ch_meta c)) = uid (ch_meta c)).
  { unfold given. destruct (Z.eqb_spec lu 0) as [->|_]; [|reflexivity]. unfold blen in Q1. destruct (uid (ch_meta c)); [reflexivity|cbn in Q1; lia]. }
  rewrite Gu in D. change (given 0 (data_of (ch_meta c))) with (@nil byte) in D. change (blen (@nil byte)) with 0 in D.
  destruct D as [(H1 & H2 & mk' & mu' & ma' & -> & Ak' & Au' & Aa' & Rk & Ru & Ra)|([H|H] & _)]; [|lia|lia].
  constructor.
  - eexists. eexists. eexists. split; [reflexivity|]. auto.
  - apply IH; [exact Ak'|lia|exact Au'|exact Aa'|]. rewrite N2Z.id. exact Q.
Qed.

Theorem C135_withheld_refuted f c fs cs mk lk mu lu ma la :
  opens f c -> data_of (ch_meta c) = [] -> Forall2 opens fs cs ->
  announces mk lk -> (Z.of_nat (key_length S) <= lk)%Z -> announces mu lu -> announces ma la ->
  shrinking (Z.to_N lu) (map (fun c => blen (uid (ch_meta c))) (c :: cs)) ->
  Forall2 withheld_read (session (f :: fs) [buffer mk lk; buffer mu lu; buffer ma la]) (c :: cs).
Proof using HP SK.
  intros Hf Hc Hs Ak Hk Au Aa [Q1 Q]. cbn [session].
  pose proof (open_once f c mk lk mu lu ma la Hf Ak Hk Au Aa) as D. cbv zeta in D.
  assert (Gu : given lu (uid (ch_meta c)) = uid (ch_meta c)).
  { unfold given. destruct (Z.eqb_spec lu 0) as [->|_]; [|reflexivity]. unfold blen in Q1. destruct (uid (ch_meta c)); [reflexivity|cbn in Q1; lia]. }
  assert (Ga : given la (data_of (ch_meta c)) = []) by (rewrite Hc; unfold given; destruct (la =? 0)%Z; reflexivity).
  rewrite Gu, Ga in D. change (blen (@nil byte)) with 0 in D.
  destruct D as [(H1 & H2 & mk' & mu' & ma' & -> & Ak' & Au' & Aa' & Rk & Ru & Ra)|([H|H] & _)]; [|lia|lia].
  constructor.
  - eexists. eexists. eexists. split; [reflexivity|]. auto.
  - apply withheld_session; [exact Hs|exact Ak'|lia|exact Au'|exact Aa'|]. rewrite N2Z.id. exact Q.
Qed.

(** ** Calling again after "too small" without a larger buffer *)
(** the length variable now holds the size asked for, which the buffer does not have *)
Theorem C135_retry_refuted l m l' m' f h f' h' mk lk mh lh :
  seals l m f h -> seals l' m' f' h' -> blen (eh_bytes h') = blen (eh_bytes h) ->
  announces mk lk -> (Z.of_nat (key_length S) <= lk)%Z -> announces mh lh -> (1 <= lh)%Z ->
  blen mh < blen (eh_bytes h) -> blen (eh_bytes h) < 2147483648 ->
  exists e ok oh, session [f; f'] [buffer mk lk; buffer mh lh] = [Bail e [ok; oh]; Undefined].
Proof using HP SK.
  intros Hf Hf' Q Ak Hk Ah Hh Hs Hb. cbn [session]. rewrite (seals_call l m f h mk lk mh lh Hf) by lia.
  destruct (seals_sizes l m f h Hf) as [Lk L4]. destruct (seals_sizes l' m' f' h' Hf') as [Lk' L4'].
  unfold deliver_header, andthen.
  destruct (deliver_buffer P HP 0 (eh_key h) [buffer mk lk; buffer mh lh] mk lk eq_refl Ak) as [[H0 ->]|[H0 _]]; [|unfold blen in H0; lia].
  cbn [set_out]. pose proof (filled_announces _ _ _ Ak H0) as Ak'. set (mk' := eh_key h ++ _) in *.
  destruct (deliver_buffer P HP 1 (eh_bytes h) [buffer mk' (Z.of_N (blen (eh_key h))); buffer mh lh] mh lh eq_refl Ah) as [[H1 _]|[H1 (e & ->)]].
  { exfalso. destruct Ah as [_ Ah]. unfold blen in *. lia. }
  cbn [set_out]. rewrite as_c_int_exact by exact Hb.
  rewrite (seals_call l' m' f' h' mk' _ mh _ Hf') by (unfold blen in *; lia). unfold deliver_header, andthen.
  destruct (deliver_buffer P HP 0 (eh_key h') [buffer mk' (Z.of_N (blen (eh_key h))); buffer mh (Z.of_N (blen (eh_bytes h)))] _ _ eq_refl Ak') as [[H2 ->]|[H2 _]];
    [|unfold blen in H2; lia].
  cbn [set_out]. rewrite (deliver_past P HP 1 (eh_bytes h') _ mh (Z.of_N (blen (eh_bytes h)))) by (try reflexivity; unfold blen in *; lia).
  eexists. eexists. eexists. reflexivity.
Qed.

(** ** Blocks *)
Definition block_read (r : result unit) (d : list byte) : Prop := exists o, r = Go tt [o] /\ read_out o = d.

Theorem C135_blocks fs ds mem len : Forall2 turns fs ds -> announces mem len ->
  (Forall2 block_read (session fs [buffer mem len]) ds <-> shrinking_kept (Z.to_N len) (map blen ds)).
Proof using HP.
  clear SK shake policy_from attributes_from. intros Hs. revert mem len. induction Hs as [|f d fs ds Hf Hs IH]; intros mem len A; [cbn; split; constructor|].
  cbn [session map shrinking_kept]. destruct (Z.eq_dec len 0) as [->|Hn].
  { split; [|intros (H & _); lia]. intros Q. exfalso. inversion Q as [|? ? ? ? (o & X & _)]; subst.
    destruct Hf as (key & u & number & data & Lk & Hk & Hd & [(nonce & E & ->)|(E & ->)]); cbv in X; discriminate X. }
  rewrite (turns_call f d mem len Hf Hn). destruct (deliver_late_buffer P HP d mem len A) as [[H ->]|[H (e & ->)]].
  - pose proof (filled_announces _ _ _ A H) as A'. specialize (IH _ _ A'). rewrite N2Z.id in IH. split.
    + intros Q. inversion Q; subst. split; [destruct A; lia|]. split; [exact H|]. apply IH. assumption.
    + intros (_ & _ & Q). constructor; [|apply IH, Q]. eexists. split; [reflexivity|]. apply read_filled.
  - split; [|intros (_ & Q & _); lia]. intros Q. inversion Q as [|? ? ? ? (o & X & _)]; subst. discriminate X.
Qed.

(** whatever fails, the same buffer may be offered again: nothing is written past it *)
Theorem C135_blocks_safe fs ds mem len : Forall2 turns fs ds -> announces mem len ->
  length (session fs [buffer mem len]) = length fs /\
  Forall (fun r => match r with Go _ [o] | Bail _ [o] => exists mem' len', o = buffer mem' len' /\ length mem' = length mem /\ announces mem' len'
                   | _ => False end) (session fs [buffer mem len]).
Proof using HP.
  clear SK shake policy_from attributes_from. intros Hs. revert mem len. induction Hs as [|f d fs ds Hf Hs IH]; intros mem len A; [split; [reflexivity|constructor]|].
  cbn [session length].
  assert (D : (exists mem' len', f [buffer mem len] = Go tt [buffer mem' len'] /\ length mem' = length mem /\ announces mem' len') \/
              exists e, f [buffer mem len] = Bail e [buffer mem len]).
  { destruct (Z.eq_dec len 0) as [->|Hn].
    - right. destruct Hf as (key & u & number & data & Lk & Hk & Hd & [(nonce & E & ->)|(E & ->)]); eexists; reflexivity.
    - rewrite (turns_call f d mem len Hf Hn). destruct (deliver_late_buffer P HP d mem len A) as [[H ->]|[H (e & ->)]]; [left|right].
      + eexists. eexists. split; [reflexivity|]. split; [|exact (filled_announces _ _ _ A H)].
        rewrite app_length, skipn_length. destruct A. unfold blen in H. lia.
      + eauto. }
  destruct D as [(mem' & len' & -> & Lm & A')|(e & ->)].
  - destruct (IH mem' len' A') as [L Q]. split; [rewrite L; reflexivity|]. constructor; [eauto|].
    eapply Forall_impl; [|exact Q]. intros [x [|o [|o' t]]|x [|o [|o' t]]|x|]; cbn beta iota; try tauto; intros (m2 & l2 & E & Ll & A2); exists m2, l2; rewrite Ll; auto.
  - destruct (IH mem len A) as [L Q]. split; [rewrite L; reflexivity|]. constructor; [eauto|exact Q].
Qed.

(** ** The benchmarks: headers of one shape *)
Section Shape.
Variable fine : Gt B -> Prop.
Hypothesis HF : forms_ok F fine.
(** the encrypted metadata are longer than the metadata by a constant (the tag) *)
Variable tag : N.
Hypothesis tagged : forall k m nonce c, sym_encrypt S k m nonce None = Ok c -> blen c = blen m + tag.

(** Headers for the same number of attributes, with metadata of the same encoded size,
    are all delivered if the first one is. *)
Theorem C135_same_shape fs hs mk lk mh lh n size :
  Forall2 (fun f h => exists l m b, seals l m f h /\ l <> [] /\ length l = n /\ meta_to_bytes S m = Ok b /\ blen b = size) fs hs ->
  announces mk lk -> (Z.of_nat (key_length S) <= lk)%Z -> announces mh lh -> (1 <= lh)%Z ->
  match hs with [] => True | h :: _ => blen (eh_bytes h) <= Z.to_N lh end ->
  Forall2 header_read (session fs [buffer mk lk; buffer mh lh]) hs.
Proof using HP SK HF tagged.
  intros Hs Ak Hk Ah Hh H0. apply C135_headers; try assumption.
  { clear -Hs. induction Hs as [|f h fs hs (l & m & b & Hf & _) Hs IH]; constructor; eauto. }
  assert (Q : exists total, Forall (fun h => blen (eh_bytes h) = total) hs).
  { exists (header_bytes n + N.of_nat (nonce_length S) + 4 + size + tag).
    clear -Hs HF tagged. induction Hs as [|f h fs hs (l & m & b & (p & mpk & u & ad & random & s & nonce & attrs & _ & Ln & _ & Eh & _) & Hl & Hn & Eb & Hb) Hs IH]; constructor; [|exact IH].
    destruct (C117_headers B F fine HF shake S tag tagged P p mpk l (Some m) random s nonce h Hl Ln Eh) as (_ & b' & Eb' & ->).
    assert (b' = b) by congruence. subst b' n size. reflexivity. }
  destruct Q as (total & Q). clear Hs. destruct hs as [|h hs]; [constructor|].
  inversion Q as [|? ? Q0 Qs]; subst. cbn [map shrinking]. split; [exact H0|]. clear H0 Q. induction Qs as [|h' hs' E Qs IH]; cbn [map shrinking]; [constructor|].
  rewrite E. split; [lia|exact IH].
Qed.
End Shape.
End Reuse.

(** ** Examples *)
Local Ltac vmr x := vm_cast_no_check (eq_refl x).
Definition codes (l : list (result unit)) : list (option Z) := map code l.
(** no additional data *)
Definition c_header_bare := h_aes_encrypt_header pf toy_forms toy_shake toy_sym c_policy c_attrs (Some [x01]) (Some (snd c_keys)) (Some [x01]) (Some [x01; x02; x03]) None
    ex_msg ex_s ex_nonce.
Definition c_open_bare := h_aes_decrypt_header pf toy_forms toy_shake toy_sym
  (Some (read_out (out_n 1 (c_header_bare [room_for 40; room_for 1000])))) (Some (read_out (out_n 0 (c_user [room_for 3000])))).
Definition sealed_toy (attrs : list byte) (u ad : option (list byte)) :=
  let* p := c_policy [x01] in
  let* mpk := pub_dec toy_forms pf (snd c_keys) in
  let* l := c_attrs attrs in
  let* h := encrypt_hybrid_header toy_sym toy_forms toy_shake pf p mpk l (Some (meta_of u ad)) ex_msg ex_s ex_nonce in
  Ok (l, h).
Definition sealed_size (x : outcome (list attribute * encrypted_header)) : option N := match x with Ok (_, h) => Some (blen (eh_bytes h)) | _ => None end.
Definition opened_toy (header uk : list byte) :=
  let* k := user_dec toy_forms pf uk in
  decrypt_hybrid_header toy_sym toy_forms toy_shake pf k header.
Definition opened_data (x : outcome clear_header) : option (list byte * list byte) :=
  match x with Ok c => Some (uid (ch_meta c), data_of (ch_meta c)) | _ => None end.

Lemma some_eq {A} (x y : A) : Some x = Some y -> x = y.
Proof. intros [= H]. exact H. Qed.
Lemma c_keys_there : snd c_keys <> [].
Proof. intros C. apply (f_equal (@length byte)) in C. revert C. apply Nat.eqb_neq. vmr false. Qed.
Lemma toy_seals attrs u ad n : sealed_size (sealed_toy attrs u ad) = Some n -> length ex_nonce = nonce_length toy_sym ->
  exists l h, seals toy pf toy_forms toy_shake toy_sym c_policy c_attrs l (meta_of u ad)
    (h_aes_encrypt_header pf toy_forms toy_shake toy_sym c_policy c_attrs (Some [x01]) (Some (snd c_keys)) (Some attrs) u ad ex_msg ex_s ex_nonce) h /\
    blen (eh_bytes h) = n.
Proof.
  intros E Ln. destruct (sealed_toy attrs u ad) as [[l h]| |] eqn:Q; cbn [sealed_size] in E; try discriminate E. apply some_eq in E.
  unfold sealed_toy in Q. apply bind_ok in Q as (p & Ep & Q). apply bind_ok in Q as (mpk & Em & Q). apply bind_ok in Q as (l' & El & Q).
  apply bind_ok in Q as (h' & Eh & Q). apply Ok_inj in Q. assert (l' = l) by exact (f_equal fst Q). assert (h' = h) by exact (f_equal snd Q). subst l' h'.
  exists l, h. split; [|exact E]. exists p, mpk, u, ad, ex_msg, ex_s, ex_nonce, attrs.
  split; [reflexivity|]. split; [exact Ln|]. split; [exact El|]. split; [exact Eh|]. left. exists [x01], (snd c_keys).
  exact (conj c_keys_there (conj Ep (conj Em eq_refl))).
Qed.
Lemma toy_opens header uk u d : opened_data (opened_toy header uk) = Some (u, d) -> header <> [] -> uk <> [] ->
  exists c, opens toy pf toy_forms toy_shake toy_sym (h_aes_decrypt_header pf toy_forms toy_shake toy_sym (Some header) (Some uk)) c /\
    uid (ch_meta c) = u /\ data_of (ch_meta c) = d.
Proof.
  intros E Hh Hu. destruct (opened_toy header uk) as [c| |] eqn:Q; cbn [opened_data] in E; try discriminate E. apply some_eq in E.
  unfold opened_toy in Q. apply bind_ok in Q as (k & Ek & Q). exists c. split.
  - exists header, k. split; [exact Hh|]. split; [exact Q|]. left. exists uk. exact (conj Hu (conj Ek eq_refl)).
  - exact (conj (f_equal fst E) (f_equal snd E)).
Qed.

(** a header of 430 bytes, then a smaller one; in the other order the second is refused *)
Example C135_headers_example :
  (exists l1 m1 h1 l2 m2 h2,
     seals toy pf toy_forms toy_shake toy_sym c_policy c_attrs l1 m1 (c_header x01) h1 /\
     seals toy pf toy_forms toy_shake toy_sym c_policy c_attrs l2 m2 (c_header x02) h2 /\
     blen (eh_bytes h1) = 430 /\ blen (eh_bytes h2) = 378) /\
  codes (session [c_header x01; c_header x02] [room_for 40; room_for 430]) = [Some 0%Z; Some 0%Z] /\
  codes (session [c_header x02; c_header x01] [room_for 40; room_for 430]) = [Some 0%Z; Some 1%Z] /\
  (** headers of one shape *)
  codes (session [c_header x01; c_header x01; c_header x01] [room_for 40; room_for 1000]) = [Some 0%Z; Some 0%Z; Some 0%Z] /\
  (** called again after the refusal *)
  codes (session [c_header x01; c_header x01] [room_for 40; room_for 378]) = [Some 1%Z; None].
Proof.
  split; [|split; [|split; [|split]]].
  - destruct (toy_seals [x01] (Some [x01; x02; x03]) (Some [x0a; x0b]) 430) as (l1 & h1 & A1 & B1); [vmr (Some 430)|reflexivity|].
    destruct (toy_seals [x02] (Some [x01; x02; x03]) (Some [x0a; x0b]) 378) as (l2 & h2 & A2 & B2); [vmr (Some 378)|reflexivity|].
    exists l1, (meta_of (Some [x01; x02; x03]) (Some [x0a; x0b])), h1, l2, (meta_of (Some [x01; x02; x03]) (Some [x0a; x0b])), h2.
    exact (conj A1 (conj A2 (conj B1 B2))).
  - vmr [Some 0%Z; Some 0%Z].
  - vmr [Some 0%Z; Some 1%Z].
  - vmr [Some 0%Z; Some 0%Z; Some 0%Z].
  - vmr [Some 1%Z; @None Z].
Qed.

(** a header without additional data first: those of the second are not delivered,
    and no call fails *)
Definition c_bytes (f : ffi unit) : list byte := read_out (out_n 1 (f [room_for 40; room_for 1000])).
Definition c_user_key : list byte := read_out (out_n 0 (c_user [room_for 3000])).
Lemma long_there (b : list byte) : (length b =? 0)%nat = false -> b <> [].
Proof. intros H C. subst b. discriminate H. Qed.
Example C135_opened_example :
  (exists c0 c1,
     opens toy pf toy_forms toy_shake toy_sym c_open_bare c0 /\ opens toy pf toy_forms toy_shake toy_sym (c_open x01) c1 /\
     (uid (ch_meta c0) = [x01; x02; x03] /\ data_of (ch_meta c0) = []) /\ uid (ch_meta c1) = [x01; x02; x03] /\ data_of (ch_meta c1) = [x0a; x0b]) /\
  map (fun r => (code r, read_out (out_n 2 r))) (session [c_open x01; c_open_bare] [room_for 40; room_for 10; room_for 10])
    = [(Some 0%Z, [x0a; x0b]); (Some 0%Z, [])] /\
  map (fun r => (code r, read_out (out_n 2 r))) (session [c_open_bare; c_open x01] [room_for 40; room_for 10; room_for 10])
    = [(Some 0%Z, []); (Some 0%Z, [])].
Proof.
  split; [|split].
  - destruct (toy_opens (c_bytes c_header_bare) c_user_key [x01; x02; x03] []) as (c0 & A0 & B0);
      [vmr (Some ([x01; x02; x03], @nil byte))|apply long_there; vmr false|apply long_there; vmr false|].
    destruct (toy_opens (c_bytes (c_header x01)) c_user_key [x01; x02; x03] [x0a; x0b]) as (c1 & A1 & B1);
      [vmr (Some ([x01; x02; x03], [x0a; x0b]))|apply long_there; vmr false|apply long_there; vmr false|].
    exists c0, c1. exact (conj A0 (conj A1 (conj B0 B1))).
  - vmr [(Some 0%Z, [x0a; x0b]); (Some 0%Z, @nil byte)].
  - vmr [(Some 0%Z, @nil byte); (Some 0%Z, @nil byte)].
Qed.

(** blocks: two of one size; a longer one after a shorter one is refused, and the
    length is then still the shorter one's *)
Definition c_block (data : list byte) := h_aes_encrypt_block pf toy_sym (Some (repeat x07 32)) (Some [x01]) 0 (Some data) ex_nonce.
Example C135_blocks_example :
  (exists d1 d2, turns pf toy_sym (c_block [x01; x02; x03]) d1 /\ turns pf toy_sym (c_block [x01]) d2 /\ blen d1 = 16 /\ blen d2 = 14) /\
  codes (session [c_block [x01; x02; x03]; c_block [x01]] [room_for 100]) = [Some 0%Z; Some 0%Z] /\
  codes (session [c_block [x01]; c_block [x01; x02; x03]; c_block [x01]] [room_for 100]) = [Some 0%Z; Some 1%Z; Some 0%Z].
Proof.
  split; [|split].
  - eexists. eexists. split; [|split; [|split]].
    + exists (repeat x07 32), (Some [x01]), 0%Z, [x01; x02; x03]. split; [reflexivity|]. split; [discriminate|]. split; [discriminate|].
      left. exists ex_nonce. split; [vm_compute; reflexivity|reflexivity].
    + exists (repeat x07 32), (Some [x01]), 0%Z, [x01]. split; [reflexivity|]. split; [discriminate|]. split; [discriminate|].
      left. exists ex_nonce. split; [vm_compute; reflexivity|reflexivity].
    + vm_compute. reflexivity.
    + vm_compute. reflexivity.
  - vmr [Some 0%Z; Some 0%Z].
  - vmr [Some 0%Z; Some 1%Z; Some 0%Z].
Qed.

Print Assumptions C135_headers.
Print Assumptions C135_opened.
Print Assumptions C135_withheld_refuted.
Print Assumptions C135_retry_refuted.
Print Assumptions C135_blocks.
Print Assumptions C135_blocks_safe.
Print Assumptions C135_same_shape.

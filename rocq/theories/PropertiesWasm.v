(** The WebAssembly interface: C78 to C83. *)
From Coq Require Import String NArith ZArith Bool Arith Lia Strings.Byte List.
From Verif Require Import Prelude Field LinAlg Msp Spec MspProofs Bilinear Scheme SchemeSpec SchemeTheorems
  Zp ExpModel PropertiesScheme Codec CodecProofs SchemeCodec SchemeCodecProofs PropertiesCodec
  Policy PolicySpec PolicyProofs Engine EngineSpec EngineProofs PropertiesEngine Hybrid HybridSpec PropertiesHybrid PropertiesVersions
  Properties32 FfiCache PropertiesCache Python PropertiesPython Wasm.
From Verif Require SchemeProofs.
Import ListNotations.
Local Open Scope N_scope.

(** ** Specification *)
(** two byte strings glued by the size of the first, as a JavaScript caller cuts them *)
Definition cut (b : list byte) : list byte * list byte :=
  let size := N.to_nat (from_be (firstn 4 b)) in (firstn size (skipn 4 b), skipn (4 + size) b).

Section Traces.
Context {B : BilinearMap}.
Local Notation trace := (list (@wcall B * outcome wresult)).

(** What handle [h] stands for after the calls of [tr]: the arguments of the last
    successful creation that returned it, if it was not destroyed since. *)
Definition enc_step (h : Z) (acc : option (list byte * list byte)) (e : @wcall B * outcome wresult) : option (list byte * list byte) :=
  match e with
  | (CreateEncryption pol pk, Ok (Handle h')) => if Z.eqb h' h then Some (pol, pk) else acc
  | (DestroyEncryption h', Ok _) => if Z.eqb h' h then None else acc
  | _ => acc
  end.
Definition dec_step (h : Z) (acc : option (list byte)) (e : @wcall B * outcome wresult) : option (list byte) :=
  match e with
  | (CreateDecryption uk, Ok (Handle h')) => if Z.eqb h' h then Some uk else acc
  | (DestroyDecryption h', Ok _) => if Z.eqb h' h then None else acc
  | _ => acc
  end.
Definition enc_holder (h : Z) (tr : trace) : option (list byte * list byte) := fold_left (enc_step h) tr None.
Definition dec_holder (h : Z) (tr : trace) : option (list byte) := fold_left (dec_step h) tr None.

Definition uses_enc (c : @wcall B) : bool := match c with EncryptCached _ _ _ _ _ _ => true | _ => false end.
Definition uses_dec (c : @wcall B) : bool := match c with DecryptCached _ _ => true | _ => false end.
Definition writes_enc (c : @wcall B) : bool := match c with CreateEncryption _ _ | DestroyEncryption _ => true | _ => false end.
Definition writes_dec (c : @wcall B) : bool := match c with CreateDecryption _ | DestroyDecryption _ => true | _ => false end.
(** a call of this kind trapped *)
Definition trapped (kind : @wcall B -> bool) (tr : trace) : Prop := exists c p, kind c = true /\ In (c, Panic p) tr.

Definition enc_handles (tr : trace) : list Z :=
  flat_map (fun e => match e with (CreateEncryption _ _, Ok (Handle h)) => [h] | _ => [] end) tr.
Definition dec_handles (tr : trace) : list Z :=
  flat_map (fun e => match e with (CreateDecryption _, Ok (Handle h)) => [h] | _ => [] end) tr.
End Traces.

(** ** The caches *)
Section Caches.
Context {B : BilinearMap}.
Variable P : platform.
Variable F : byte_forms B.
Variable shake : list byte -> nat -> list byte.
Variable S : sym_scheme.
Variable policy_from : list byte -> outcome policy.
Variable attributes_parse : string -> outcome (list attribute).
Variable sticky : bool.

Local Notation exec := (w_exec P F shake S policy_from attributes_parse sticky).
Local Notation wrun := (w_run P F shake S policy_from attributes_parse sticky).
Local Notation encrypt_header := (w_encrypt_hybrid_header P F shake S policy_from attributes_parse).
Local Notation decrypt_header := (w_decrypt_hybrid_header P F shake S).
Local Notation trace := (list (@wcall B * outcome wresult)).

(** the last call of a program *)
Lemma wrun_snoc cs c s tr s1 : wrun cs s = (tr, s1) ->
  wrun (cs ++ [c]) s = (tr ++ [(c, fst (exec c s1))], snd (exec c s1)).
Proof.
  revert s tr. induction cs as [|c0 cs IH]; intros s tr H; cbn [app w_run] in *.
  - injection H as <- <-. destruct (exec c s) as [r s']. reflexivity.
  - destruct (exec c0 s) as [r s'] eqn:E. destruct (wrun cs s') as [tr' s''] eqn:Q. injection H as <- <-.
    rewrite (IH _ _ Q). reflexivity.
Qed.
Lemma wrun_ind (R : trace -> @wstate B -> Prop) : R [] w_start ->
  (forall tr s c, R tr s -> R (tr ++ [(c, fst (exec c s))]) (snd (exec c s))) ->
  forall cs tr s, wrun cs w_start = (tr, s) -> R tr s.
Proof.
  intros H0 HS cs. induction cs as [|c cs IH] using rev_ind; intros tr s H.
  - cbn [w_run] in H. injection H as <- <-. exact H0.
  - destruct (wrun cs w_start) as [tr' s'] eqn:E. rewrite (wrun_snoc _ _ _ _ _ E) in H. injection H as <- <-. apply HS. apply IH. reflexivity.
Qed.

Lemma holder_snoc {A C} (f : C -> A -> C) tr e i : fold_left f (tr ++ [e]) i = f (fold_left f tr i) e.
Proof. rewrite fold_left_app. reflexivity. Qed.

(** the map of the encryption cache is what the callers see *)
Lemma enc_map cs tr s : wrun cs w_start = (tr, s) -> forall h,
  match enc_holder h tr with
  | Some (pol, pk) => exists v, w_encryption_cache P F policy_from pol pk = Ok v /\ w_map (w_enc s) h = Some v
  | None => w_map (w_enc s) h = None
  end.
Proof.
  revert cs tr s. apply (wrun_ind (fun tr s => forall h, match enc_holder h tr with
    | Some (pol, pk) => exists v, w_encryption_cache P F policy_from pol pk = Ok v /\ w_map (w_enc s) h = Some v
    | None => w_map (w_enc s) h = None end)); [reflexivity|].
  intros tr s c IH h. unfold enc_holder. rewrite holder_snoc. specialize (IH h). unfold enc_holder in IH.
  destruct c as [pol pk|h'|h' attrs u random sc nonce|uk|h'|h' header]; cbn [w_exec on_enc on_dec fst snd w_enc w_dec]; try exact IH.
  - unfold cache_create. destruct (w_encryption_cache P F policy_from pol pk) as [v|e|p] eqn:Ev; cbn [fst snd bind enc_step]; try exact IH.
    destruct (Z.eqb_spec (w_mode (w_enc s)) 0) as [Em|Em]; cbn [fst snd bind enc_step w_map]; [|exact IH].
    unfold set_map. destruct (Z.eqb_spec (w_next (w_enc s)) h) as [E|E].
    + subst h. rewrite Z.eqb_refl. exists v. split; [exact Ev|reflexivity].
    + destruct (Z.eqb_spec h (w_next (w_enc s))); [congruence|]. exact IH.
  - unfold cache_destroy. destruct (Z.eqb_spec (w_mode (w_enc s)) 0) as [Em|Em]; cbn [fst snd bind enc_step w_map]; [|exact IH].
    unfold set_map. destruct (Z.eqb_spec h' h) as [E|E].
    + subst h. rewrite Z.eqb_refl. reflexivity.
    + destruct (Z.eqb_spec h h'); [congruence|]. exact IH.
  - unfold cache_use. cbn [enc_step]. 
    assert (Q : forall r, enc_step h (fold_left (enc_step h) tr None) (EncryptCached h' attrs u random sc nonce, r) = fold_left (enc_step h) tr None) by reflexivity.
    destruct (w_mode (w_enc s) <? 0)%Z; [exact IH|]. destruct (w_map (w_enc s) h') as [v|]; [|exact IH].
    destruct (w_header _ _ _ _ _ _ _ _ _ _ _ _); exact IH.
Qed.

Lemma dec_map cs tr s : wrun cs w_start = (tr, s) -> forall h,
  match dec_holder h tr with
  | Some uk => exists v, w_decryption_cache P F uk = Ok v /\ w_map (w_dec s) h = Some v
  | None => w_map (w_dec s) h = None
  end.
Proof.
  revert cs tr s. apply (wrun_ind (fun tr s => forall h, match dec_holder h tr with
    | Some uk => exists v, w_decryption_cache P F uk = Ok v /\ w_map (w_dec s) h = Some v
    | None => w_map (w_dec s) h = None end)); [reflexivity|].
  intros tr s c IH h. unfold dec_holder. rewrite holder_snoc. specialize (IH h). unfold dec_holder in IH.
  destruct c as [pol pk|h'|h' attrs u random sc nonce|uk|h'|h' header]; cbn [w_exec on_enc on_dec fst snd w_enc w_dec]; try exact IH.
  - unfold cache_create. destruct (w_decryption_cache P F uk) as [v|e|p] eqn:Ev; cbn [fst snd bind dec_step]; try exact IH.
    destruct (Z.eqb_spec (w_mode (w_dec s)) 0) as [Em|Em]; cbn [fst snd bind dec_step w_map]; [|exact IH].
    unfold set_map. destruct (Z.eqb_spec (w_next (w_dec s)) h) as [E|E].
    + subst h. rewrite Z.eqb_refl. exists v. split; [exact Ev|reflexivity].
    + destruct (Z.eqb_spec h (w_next (w_dec s))); [congruence|]. exact IH.
  - unfold cache_destroy. destruct (Z.eqb_spec (w_mode (w_dec s)) 0) as [Em|Em]; cbn [fst snd bind dec_step w_map]; [|exact IH].
    unfold set_map. destruct (Z.eqb_spec h' h) as [E|E].
    + subst h. rewrite Z.eqb_refl. reflexivity.
    + destruct (Z.eqb_spec h h'); [congruence|]. exact IH.
  - unfold cache_use. destruct (w_mode (w_dec s) <? 0)%Z; [exact IH|]. destruct (w_map (w_dec s) h') as [v|]; [|exact IH].
    destruct (w_open _ _ _ _ _ _); exact IH.
Qed.

Lemma trapped_snoc (kind : @wcall B -> bool) tr c (r : outcome wresult) : trapped kind (tr ++ [(c, r)]) <-> trapped kind tr \/ (kind c = true /\ exists p, r = Panic p).
Proof.
  split.
  - intros (c0 & p & Hk & Hi). apply in_app_iff in Hi as [Hi|[Hi|[]]]; [left; exists c0, p; auto|right]. assert (c = c0) by congruence. subst c0. split; [exact Hk|exists p; congruence].
  - intros [(c0 & p & Hk & Hi)|(Hk & p & ->)]; [exists c0, p; split; [exact Hk|apply in_app_iff; auto]|].
    exists c, p. split; [exact Hk|]. apply in_app_iff. right. left. reflexivity.
Qed.

(** the lock is free as long as no use trapped, and taken for good afterwards *)
Definition mode_ok (uses writes : Prop) (m : Z) : Prop := (uses -> m <> 0%Z) /\ (~ uses -> m = 0%Z) /\ (~ writes -> (0 <= m)%Z).

Lemma use_mode {V A} (h : Z) (f : V -> outcome A) c (U W U' : Prop) :
  mode_ok U W (w_mode c) -> (U' <-> U \/ exists p, fst (cache_use h f c) = Panic p) -> mode_ok U' W (w_mode (snd (cache_use h f c))).
Proof.
  intros (M1 & M2 & M3) HU. unfold cache_use in *. destruct (Z.ltb_spec (w_mode c) 0) as [Hn|Hn]; cbn [fst snd] in *.
  - split; [lia|]. split; [|exact M3]. intros Q. apply M2. intros H. apply Q, HU. auto.
  - destruct (w_map c h) as [v|]; [destruct (f v) as [a|e|p]|]; cbn [fst snd w_mode] in *.
    1, 2: split; [intros H; apply M1; apply HU in H as [H|(p & H)]; [exact H|discriminate]|];
      split; [intros H; apply M2; intros Q; apply H, HU; auto|exact M3].
    1, 2: split; [lia|]; split; [intros Q; exfalso; apply Q, HU; eauto|intros; lia].
Qed.
Lemma create_mode {V} (v : outcome V) c (U W W' : Prop) :
  mode_ok U W (w_mode c) -> (W' <-> W \/ exists p, fst (cache_create sticky v c) = Panic p) -> mode_ok U W' (w_mode (snd (cache_create sticky v c))).
Proof.
  intros (M1 & M2 & M3) HW. unfold cache_create in *. destruct v as [v|e|p]; cbn [fst snd] in *.
  2, 3: split; [exact M1|]; split; [exact M2|]; intros H; apply M3; intros Q; apply H, HW; auto.
  destruct (Z.eqb_spec (w_mode c) 0) as [E|E]; cbn [fst snd w_mode] in *.
  - split; [intros H; exfalso; exact (M1 H E)|]. split; intros; lia.
  - split; [intros _; destruct sticky; [discriminate|exact E]|]. split; [intros H; exfalso; exact (E (M2 H))|].
    intros H. exfalso. apply H, HW. eauto.
Qed.
Lemma destroy_mode {V} h (c : wcache V) (U W W' : Prop) :
  mode_ok U W (w_mode c) -> (W' <-> W \/ exists p, fst (cache_destroy sticky h c) = Panic p) -> mode_ok U W' (w_mode (snd (cache_destroy sticky h c))).
Proof.
  intros (M1 & M2 & M3) HW. unfold cache_destroy in *.
  destruct (Z.eqb_spec (w_mode c) 0) as [E|E]; cbn [fst snd w_mode] in *.
  - split; [intros H; exfalso; exact (M1 H E)|]. split; intros; lia.
  - split; [intros _; destruct sticky; [discriminate|exact E]|]. split; [intros H; exfalso; exact (E (M2 H))|].
    intros H. exfalso. apply H, HW. eauto.
Qed.

Lemma bind_panic {A C} (o : outcome A) (f : A -> C) p : (let* a := o in Ok (f a)) = Panic p <-> o = Panic p.
Proof. destruct o; cbn [bind]; split; intros; congruence. Qed.
Lemma ex_panic {A C} (o : outcome A) (f : A -> C) : (exists p, (let* a := o in Ok (f a)) = Panic p) <-> exists p, o = Panic p.
Proof. split; intros (p & H); exists p; [apply bind_panic in H|apply bind_panic]; exact H. Qed.
Lemma other_kind (kind : @wcall B -> bool) tr c (r : outcome wresult) : kind c = false -> (trapped kind (tr ++ [(c, r)]) <-> trapped kind tr).
Proof. intros H. rewrite trapped_snoc. split; [intros [Q|[Q _]]; [exact Q|congruence]|auto]. Qed.
Lemma mode_ok_iff (U W U' W' : Prop) m : (U' <-> U) -> (W' <-> W) -> mode_ok U W m -> mode_ok U' W' m.
Proof. unfold mode_ok. tauto. Qed.

Lemma modes cs tr s : wrun cs w_start = (tr, s) ->
  mode_ok (trapped uses_enc tr) (trapped writes_enc tr) (w_mode (w_enc s)) /\ mode_ok (trapped uses_dec tr) (trapped writes_dec tr) (w_mode (w_dec s)).
Proof.
  revert cs tr s. apply wrun_ind.
  - assert (N0 : forall k, ~ @trapped B k []) by (intros k (c & p & _ & [])).
    split; (split; [intros H; destruct (N0 _ H)|]; split; [reflexivity|intros _; cbn; lia]).
  - intros tr s c [M1 M2]. destruct c as [pol pk|h'|h' attrs u random sc nonce|uk|h'|h' header]; cbn [w_exec on_enc on_dec fst snd w_enc w_dec].
    + split; [|eapply mode_ok_iff; [| |exact M2]; apply other_kind; reflexivity].
      eapply mode_ok_iff; [apply other_kind; reflexivity|reflexivity|]. eapply create_mode; [exact M1|].
      rewrite trapped_snoc, ex_panic. intuition.
    + split; [|eapply mode_ok_iff; [| |exact M2]; apply other_kind; reflexivity].
      eapply mode_ok_iff; [apply other_kind; reflexivity|reflexivity|]. eapply destroy_mode; [exact M1|].
      rewrite trapped_snoc, ex_panic. intuition.
    + split; [|eapply mode_ok_iff; [| |exact M2]; apply other_kind; reflexivity].
      eapply mode_ok_iff; [reflexivity|apply other_kind; reflexivity|]. eapply use_mode; [exact M1|].
      rewrite trapped_snoc, ex_panic. intuition.
    + split; [eapply mode_ok_iff; [| |exact M1]; apply other_kind; reflexivity|].
      eapply mode_ok_iff; [apply other_kind; reflexivity|reflexivity|]. eapply create_mode; [exact M2|].
      rewrite trapped_snoc, ex_panic. intuition.
    + split; [eapply mode_ok_iff; [| |exact M1]; apply other_kind; reflexivity|].
      eapply mode_ok_iff; [apply other_kind; reflexivity|reflexivity|]. eapply destroy_mode; [exact M2|].
      rewrite trapped_snoc, ex_panic. intuition.
    + split; [eapply mode_ok_iff; [| |exact M1]; apply other_kind; reflexivity|].
      eapply mode_ok_iff; [reflexivity|apply other_kind; reflexivity|]. eapply use_mode; [exact M2|].
      rewrite trapped_snoc, ex_panic. intuition.
Qed.

(** ** C79 *)
(** A cache gives the same answers as the function without a cache called with the
    arguments of its creation. *)
Theorem C79_cached_encryption cs tr s h pol pk attrs u random (sc : bm_K B) nonce :
  wrun cs w_start = (tr, s) -> ~ trapped writes_enc tr -> enc_holder h tr = Some (pol, pk) -> attrs <> ""%string -> u <> [] ->
  fst (exec (EncryptCached h attrs u random sc nonce) s) = (let* b := encrypt_header pol pk attrs u random sc nonce in Ok (Bytes b)).
Proof.
  intros H Ht Hh Ha Hu. pose proof (enc_map _ _ _ H h) as M. rewrite Hh in M. destruct M as (v & Ev & M).
  destruct (modes _ _ _ H) as [(_ & _ & Hm) _]. specialize (Hm Ht).
  cbn [w_exec on_enc fst]. unfold cache_use. destruct (Z.ltb_spec (w_mode (w_enc s)) 0); [lia|]. rewrite M.
  unfold w_encryption_cache in Ev. unfold w_encrypt_hybrid_header.
  destruct (is_empty pol); [discriminate|]. destruct (is_empty pk); [discriminate|].
  apply bind_ok in Ev as (p & Ep & Ev). apply bind_ok in Ev as (k & Ek & Ev). assert (v = (p, k)) by congruence. subst v.
  destruct u as [|x u]; [contradiction|]. cbn [is_empty]. destruct (String.eqb_spec attrs ""); [contradiction|].
  rewrite Ep. cbn [bind]. rewrite Ek. cbn [bind fst snd]. destruct (w_header _ _ _ _ _ _ _ _ _ _ _ _); reflexivity.
Qed.

Theorem C79_cached_decryption cs tr s h uk header :
  wrun cs w_start = (tr, s) -> ~ trapped writes_dec tr -> dec_holder h tr = Some uk ->
  (4 <= blen header -> fst (exec (DecryptCached h header) s) = (let* b := decrypt_header uk header in Ok (Bytes b))) /\
  (blen header < 4 -> is_err (fst (exec (DecryptCached h header) s)) /\ is_err (decrypt_header uk header)).
Proof.
  intros H Ht Hh. pose proof (dec_map _ _ _ H h) as M. rewrite Hh in M. destruct M as (v & Ev & M).
  destruct (modes _ _ _ H) as [_ (_ & _ & Hm)]. specialize (Hm Ht).
  cbn [w_exec on_dec fst]. unfold cache_use. destruct (Z.ltb_spec (w_mode (w_dec s)) 0); [lia|]. rewrite M.
  unfold w_decryption_cache in Ev. unfold w_decrypt_hybrid_header. destruct (is_empty uk); [discriminate|].
  split; intros L; destruct (N.ltb_spec (blen header) 4) as [L'|L']; try lia.
  - rewrite Ev. cbn [bind]. destruct (w_open _ _ _ _ _ _); reflexivity.
  - split; [|eexists; reflexivity]. unfold w_open, decrypt_hybrid_header. destruct (N.ltb_spec (blen header) 4); [|lia]. eexists; reflexivity.
Qed.

(** Creations return different handles. *)
Definition created_enc (c : @wcall B) : bool := match c with CreateEncryption _ _ => true | _ => false end.
Definition created_dec (c : @wcall B) : bool := match c with CreateDecryption _ => true | _ => false end.
Definition creations_of (kind : @wcall B -> bool) (tr : trace) : list (@wcall B * outcome wresult) := filter (fun e => kind (fst e)) tr.

Definition numbered (count : nat) (next : Z) (hs : list Z) : Prop :=
  exists k js, next = handle_of k /\ (k <= count)%nat /\ hs = map handle_of js /\ NoDup js /\ forall j, In j js -> (j < k)%nat.

Lemma numbered_same count count' next hs : (count <= count')%nat -> numbered count next hs -> numbered count' next hs.
Proof. intros Hc (k & js & H1 & H2 & H3 & H4 & H5). exists k, js. repeat (split; [auto; lia|]). exact H5. Qed.
Lemma numbered_create {V} (v : outcome V) (c : wcache V) count hs : numbered count (w_next c) hs ->
  numbered (Datatypes.S count) (w_next (snd (cache_create sticky v c)))
    (hs ++ match fst (cache_create sticky v c) with Ok h => [h] | _ => [] end).
Proof.
  intros (k & js & H1 & H2 & H3 & H4 & H5). unfold cache_create. destruct v as [v|e|p]; cbn [fst snd].
  2, 3: rewrite app_nil_r; exists k, js; repeat (split; [auto; lia|]); exact H5.
  destruct (w_mode c =? 0)%Z; cbn [fst snd w_next]; rewrite H1, handle_next.
  - exists (Datatypes.S k), (js ++ [k]). split; [reflexivity|]. split; [lia|]. split; [rewrite map_app, H3; reflexivity|].
    split; [|intros j Hj; apply in_app_iff in Hj as [Hj|[<-|[]]]; [specialize (H5 j Hj)|]; lia].
    apply NoDup_rev in H4. rewrite <- (rev_involutive (js ++ [k])). apply NoDup_rev. rewrite rev_app_distr. cbn [rev app].
    constructor; [|exact H4]. intros Q. apply in_rev in Q. specialize (H5 k Q). lia.
  - rewrite app_nil_r. exists (Datatypes.S k), js. split; [reflexivity|]. split; [lia|]. split; [exact H3|]. split; [exact H4|].
    intros j Hj. specialize (H5 j Hj). lia.
Qed.
Lemma numbered_distinct count next hs : (Z.of_nat count <= 4294967296)%Z -> numbered count next hs -> NoDup hs.
Proof.
  intros Hc (k & js & _ & H2 & -> & H4 & H5). assert (Hj : forall j, In j js -> (Z.of_nat j < 4294967296)%Z) by (intros j Hj; specialize (H5 j Hj); lia).
  clear H2 H5. induction H4 as [|j js Hn H4 IH]; [constructor|]. cbn [map]. constructor.
  - intros Q. apply in_map_iff in Q as (i & E & Hi). apply handle_inj in E; [subst i; contradiction|apply Hj; right; exact Hi|apply Hj; left; reflexivity].
  - apply IH. intros i Hi. apply Hj. right. exact Hi.
Qed.

Lemma creations_snoc kind tr c r : length (creations_of kind (tr ++ [(c, r)])) = (length (creations_of kind tr) + if kind c then 1 else 0)%nat.
Proof. unfold creations_of. rewrite filter_app, app_length. cbn [filter fst]. destruct (kind c); reflexivity. Qed.

Lemma next_kept {V A} h (f : V -> outcome A) c : w_next (snd (cache_use h f c)) = w_next c.
Proof. unfold cache_use. destruct (w_mode c <? 0)%Z; [reflexivity|]. destruct (w_map c h); [destruct (f v)|]; reflexivity. Qed.
Lemma next_kept' {V} h (c : wcache V) : w_next (snd (cache_destroy sticky h c)) = w_next c.
Proof. unfold cache_destroy. destruct (w_mode c =? 0)%Z; reflexivity. Qed.

Theorem C79_handles_distinct cs tr s : wrun cs w_start = (tr, s) ->
  ((Z.of_nat (length (creations_of created_enc tr)) <= 4294967296)%Z -> NoDup (enc_handles tr)) /\
  ((Z.of_nat (length (creations_of created_dec tr)) <= 4294967296)%Z -> NoDup (dec_handles tr)).
Proof.
  intros H. enough (G : numbered (length (creations_of created_enc tr)) (w_next (w_enc s)) (enc_handles tr) /\
                        numbered (length (creations_of created_dec tr)) (w_next (w_dec s)) (dec_handles tr)).
  { destruct G as [G1 G2]. split; intros L; eapply numbered_distinct; eauto. }
  revert cs tr s H. apply wrun_ind.
  - split; (exists 0%nat, []; repeat split; auto; [constructor|intros j []]).
  - intros tr s c [M1 M2]. unfold enc_handles, dec_handles. rewrite !flat_map_app, !creations_snoc. fold (enc_handles tr) (dec_handles tr).
    destruct c as [pol pk|h'|h' attrs u random sc nonce|uk|h'|h' header];
      cbn [w_exec on_enc on_dec fst snd w_enc w_dec created_enc created_dec flat_map]; rewrite ?app_nil_r, ?Nat.add_0_r, ?Nat.add_1_r.
    + split; [|exact M2]. pose proof (numbered_create (w_encryption_cache P F policy_from pol pk) _ _ _ M1) as Q.
      destruct (fst (cache_create _ _ _)) eqn:E in *; cbn [bind]; exact Q.
    + rewrite next_kept'. split; assumption.
    + rewrite next_kept. split; assumption.
    + split; [exact M1|]. pose proof (numbered_create (w_decryption_cache P F uk) _ _ _ M2) as Q.
      destruct (fst (cache_create _ _ _)) eqn:E in *; cbn [bind]; exact Q.
    + rewrite next_kept'. split; assumption.
    + rewrite next_kept. split; assumption.
Qed.

(** ** C80 *)
(** Using a handle that was never returned, or was destroyed, traps. *)
Theorem C80_unknown_handle_refuted cs tr s h : wrun cs w_start = (tr, s) ->
  (enc_holder h tr = None -> forall attrs u random sc nonce, exists p, fst (exec (EncryptCached h attrs u random sc nonce) s) = Panic p) /\
  (dec_holder h tr = None -> forall header, exists p, fst (exec (DecryptCached h header) s) = Panic p).
Proof.
  intros H. split; intros Hh; intros.
  - pose proof (enc_map _ _ _ H h) as M. rewrite Hh in M. cbn [w_exec on_enc fst]. unfold cache_use.
    destruct (w_mode (w_enc s) <? 0)%Z; [eexists; reflexivity|]. rewrite M. eexists; reflexivity.
  - pose proof (dec_map _ _ _ H h) as M. rewrite Hh in M. cbn [w_exec on_dec fst]. unfold cache_use.
    destruct (w_mode (w_dec s) <? 0)%Z; [eexists; reflexivity|]. rewrite M. eexists; reflexivity.
Qed.

(** From then on no cache of this kind can be created or destroyed. *)
Theorem C80_blocked_after_trap cs tr s : wrun cs w_start = (tr, s) ->
  (trapped uses_enc tr ->
     (forall pol pk r, fst (exec (CreateEncryption pol pk) s) <> Ok r) /\ (forall h, exists p, fst (exec (DestroyEncryption h) s) = Panic p)) /\
  (trapped uses_dec tr ->
     (forall uk r, fst (exec (CreateDecryption uk) s) <> Ok r) /\ (forall h, exists p, fst (exec (DestroyDecryption h) s) = Panic p)).
Proof.
  intros H. destruct (modes _ _ _ H) as [(M1 & _) (M2 & _)].
  split; intros Ht; [specialize (M1 Ht)|specialize (M2 Ht)]; (split; [intros|intros h; cbn [w_exec on_enc on_dec fst]; unfold cache_destroy]).
  2: destruct (Z.eqb_spec (w_mode (w_enc s)) 0); [contradiction|]; eexists; reflexivity.
  3: destruct (Z.eqb_spec (w_mode (w_dec s)) 0); [contradiction|]; eexists; reflexivity.
  - cbn [w_exec on_enc fst]. unfold cache_create. destruct (w_encryption_cache P F policy_from pol pk); cbn [fst bind]; try discriminate.
    destruct (Z.eqb_spec (w_mode (w_enc s)) 0); [contradiction|]. discriminate.
  - cbn [w_exec on_dec fst]. unfold cache_create. destruct (w_decryption_cache P F uk); cbn [fst bind]; try discriminate.
    destruct (Z.eqb_spec (w_mode (w_dec s)) 0); [contradiction|]. discriminate.
Qed.

(** Nothing else prevents creating and destroying caches. *)
Theorem C80_free_otherwise cs tr s : wrun cs w_start = (tr, s) ->
  (~ trapped uses_enc tr ->
     (forall pol pk p k, policy_from pol = Ok p -> pub_dec F P pk = Ok k -> pol <> [] -> pk <> [] ->
        exists h, fst (exec (CreateEncryption pol pk) s) = Ok (Handle h)) /\
     (forall h, fst (exec (DestroyEncryption h) s) = Ok Done)) /\
  (~ trapped uses_dec tr ->
     (forall uk k, user_dec F P uk = Ok k -> uk <> [] -> exists h, fst (exec (CreateDecryption uk) s) = Ok (Handle h)) /\
     (forall h, fst (exec (DestroyDecryption h) s) = Ok Done)).
Proof.
  intros H. destruct (modes _ _ _ H) as [(_ & M1 & _) (_ & M2 & _)].
  split; intros Ht; [specialize (M1 Ht)|specialize (M2 Ht)]; (split; [intros|intros h; cbn [w_exec on_enc on_dec fst]; unfold cache_destroy]).
  2: rewrite M1; reflexivity. 3: rewrite M2; reflexivity.
  - cbn [w_exec on_enc fst]. unfold cache_create, w_encryption_cache. destruct pol; [contradiction|]. destruct pk; [contradiction|]. cbn [is_empty].
    rewrite H0. cbn [bind]. rewrite H1. cbn [bind]. rewrite M1. cbn [Z.eqb fst bind]. eexists; reflexivity.
  - cbn [w_exec on_dec fst]. unfold cache_create, w_decryption_cache. destruct uk; [contradiction|]. cbn [is_empty].
    rewrite H0, M2. cbn [Z.eqb fst bind]. eexists; reflexivity.
Qed.

(** ** C81 *)
(** Twelve bytes given as a header to a live decryption cache trap, with the effect
    described above. *)
Theorem C81_hostile_header_refuted cs tr s h uk : usize_bits P = 32 ->
  wrun cs w_start = (tr, s) -> dec_holder h tr = Some uk ->
  blen bad_header = 12 /\
  (exists p, fst (exec (DecryptCached h bad_header) s) = Panic p) /\
  let s' := snd (exec (DecryptCached h bad_header) s) in
  forall cs' tr' s'', wrun cs' s' = (tr', s'') ->
    (forall uk r, fst (exec (CreateDecryption uk) s'') <> Ok r) /\ (forall h, exists p, fst (exec (DestroyDecryption h) s'') = Panic p).
Proof.
  intros H32 H Hh. split; [reflexivity|].
  assert (Hp : exists p, fst (exec (DecryptCached h bad_header) s) = Panic p).
  { pose proof (dec_map _ _ _ H h) as M. rewrite Hh in M. destruct M as (v & Ev & M).
    cbn [w_exec on_dec fst]. unfold cache_use. destruct (w_mode (w_dec s) <? 0)%Z; [eexists; reflexivity|]. rewrite M.
    destruct (proj2 (C77_header_refuted B F P shake S H32) v) as (p & E). unfold w_open. rewrite E. cbn [bind]. eexists; reflexivity. }
  split; [exact Hp|]. intros s' cs' tr' s'' H'.
  pose proof (wrun_snoc cs (DecryptCached h bad_header) w_start tr s H) as Q. fold s' in Q.
  assert (R : forall a b s0 t1 s1, wrun a s0 = (t1, s1) -> wrun (a ++ b) s0 = (t1 ++ fst (wrun b s1), snd (wrun b s1))).
  { clear. induction a as [|c a IH]; intros b s0 t1 s1 E; cbn [app w_run] in *.
    - injection E as <- <-. cbn [app]. destruct (wrun b s0); reflexivity.
    - destruct (exec c s0) as [r s']. destruct (wrun a s') as [t s2] eqn:Ea. injection E as <- <-. rewrite (IH _ _ _ _ Ea). reflexivity. }
  specialize (R _ cs' _ _ _ Q). rewrite H' in R. cbn [fst snd] in R.
  apply (C80_blocked_after_trap _ _ _ R). destruct Hp as (p & Hp). exists (DecryptCached h bad_header), p. split; [reflexivity|].
  apply in_app_iff. left. apply in_app_iff. right. left. congruence.
Qed.
End Caches.

(** ** The functions together *)
Section Functions.
Variable B : BilinearMap.
Hypothesis BL : BilinearLaws B.
Local Notation K := (bm_K B).
Variable P : platform.
Hypothesis HP : 32 <= usize_bits P.
Variable F : byte_forms B.
Variable fine : Gt B -> Prop.
Hypothesis HF : forms_ok F fine.
Variable shake : list byte -> nat -> list byte.
Variable S : sym_scheme.
Variable metas : metadata -> Prop.
Hypothesis SL : sym_laws S metas.
Variable policy_from : list byte -> outcome policy.
Variable attributes_from : list byte -> outcome (list attribute).
Variable policy_text : policy -> outcome string.
Variable access_parse : string -> outcome access_policy.
Variable attributes_parse : string -> outcome (list attribute).

Local Notation generate_master_keys := (w_generate_master_keys F policy_from).
Local Notation generate_user_private_key := (w_generate_user_private_key P F policy_from access_parse).
Local Notation rotate_attributes := (w_rotate_attributes policy_from attributes_from policy_text).
Local Notation encrypt_header := (w_encrypt_hybrid_header P F shake S policy_from attributes_parse).
Local Notation decrypt_header := (w_decrypt_hybrid_header P F shake S).

Lemma cut_app a b : blen a < 4294967296 -> cut (be32 (blen a) ++ a ++ b) = (a, b).
Proof using Type.
  clear HP. intros H. unfold cut. rewrite firstn_be32, from_be_be32 by exact H.
  change (skipn 4 (be32 (blen a) ++ a ++ b)) with (a ++ b).
  change (skipn (4 + N.to_nat (blen a)) (be32 (blen a) ++ a ++ b)) with (skipn (N.to_nat (blen a)) (a ++ b)).
  unfold blen. rewrite Nat2N.id, firstn_app, firstn_all, Nat.sub_diag, app_nil_r, skipn_app, skipn_all, Nat.sub_diag. reflexivity.
Qed.

Lemma small_fits n : n < 2147483648 -> fits P n.
Proof using HP.
  intros H. unfold fits, usize_modulus. eapply N.lt_le_trans; [exact H|].
  change 2147483648 with (2 ^ 32 / 2). apply N.div_le_mono; [lia|]. apply N.pow_le_mono_r; [lia|exact HP].
Qed.

(** the master keys, as a caller cuts them, can be read *)
Theorem C78_master_keys n p0 pol0 (mdraw : nat -> K) keys :
  policy_from pol0 = Ok p0 -> max_attribute_creations p0 = n -> 1 <= n < 524288 ->
  generate_master_keys pol0 mdraw = Ok keys ->
  (forall mk, eng_master_key p0 mdraw = Ok mk -> fine (pub_y (pub_key mk))) ->
  exists mk, eng_master_key p0 mdraw = Ok mk /\ priv_dec F P (fst (cut keys)) = Ok (priv_key mk) /\
    pub_dec F P (snd (cut keys)) = Ok (pub_key mk).
Proof using BL HP HF.
  intros Ep Hm Hn E Hf. unfold w_generate_master_keys in E. rewrite Ep in E. cbn [bind] in E.
  apply bind_ok in E as (mk & Emk & E). apply bind_ok in E as (b1 & E1 & E). apply bind_ok in E as (b2 & E2 & E).
  apply Ok_inj in E. subst keys. exists mk. split; [exact Emk|]. pose proof (Hf mk Emk) as Hy. clear Hf.
  unfold eng_master_key in Emk. rewrite Hm in Emk. destruct (generate_master_key_inv B BL _ _ _ Emk) as (t & y & -> & Ht & _).
  assert (N1 : forall (A : Type) (l : list A), length l = length t -> countable l).
  { clear HP. intros A l H. split; [intros Q; rewrite Q in H; cbn in H; lia|unfold u32_MAX; lia]. }
  assert (Lt : N.of_nat (length t) < 524288) by lia.
  assert (L1 : blen b1 = 4 + N.of_nat (length t) * 32 + 32).
  { unfold priv_enc in E1. apply bind_ok in E1 as (tb & Et & E1). apply bind_ok in E1 as (yb & Ey & E1). apply Ok_inj in E1. subst b1.
    rewrite blen_app. cbn [scalar_codec fixed_codec enc] in Ey. apply Ok_inj in Ey. subst yb. change (priv_t (priv_key (master_of B t y))) with t in Et.
    rewrite (vec_enc_len _ _ _ (scalar_ok F fine HF) t tb ltac:(unfold u32_modulus; lia) Et).
    assert (Lc : blen (to_compressed (scalar_form B F) (priv_y (priv_key (master_of B t y)))) = 32) by apply (fo_scalar _ _ HF). rewrite Lc.
    destruct t as [|x t']; [cbn in Ht; lia|]. unfold vec_len. rewrite (ok_len _ _ _ (scalar_ok F fine HF)). reflexivity. }
  assert (L2 : blen b2 = 4 + N.of_nat (length t) * 48 + 288).
  { unfold pub_enc in E2. apply bind_ok in E2 as (tb & Et & E2). apply bind_ok in E2 as (yb & Ey & E2). apply Ok_inj in E2. subst b2.
    rewrite blen_app. cbn [gt_codec fixed_codec enc] in Ey. apply Ok_inj in Ey. subst yb.
    assert (Lq : length (pub_t (pub_key (master_of B t y))) = length t) by (cbn; apply map_length).
    rewrite (vec_enc_len _ _ _ (g2_ok F fine HF) (pub_t (pub_key (master_of B t y))) tb ltac:(rewrite Lq; unfold u32_modulus; lia) Et).
    rewrite (gt_blen F fine HF). rewrite <- Lq.
    destruct (pub_t (pub_key (master_of B t y))) as [|x t']; [cbn in Lq; lia|]. unfold vec_len. rewrite (ok_len _ _ _ (g2_ok F fine HF)). reflexivity. }
  rewrite N.mod_small by (unfold u32_modulus; lia). rewrite cut_app by lia. cbn [fst snd]. split.
  - rewrite <- (app_nil_r b1). apply (C76_private_key B F fine HF P _ b1 [] HP); [apply N1; reflexivity|exact E1|].
    rewrite app_nil_r. apply small_fits. lia.
  - rewrite <- (app_nil_r b2). apply (C76_public_key B F fine HF P _ b2 [] HP); [apply N1; cbn; apply map_length|exact Hy| |exact E2|].
    + assert (Lq : length (pub_t (pub_key (master_of B t y))) = length t) by (cbn; apply map_length). rewrite Lq. apply small_fits. pose proof (fo_g2_mem _ _ HF) as G.
      apply N.le_lt_trans with (N.of_nat (length t) * 4096); [apply N.mul_le_mono_l; exact G|lia].
    + rewrite app_nil_r. apply small_fits. lia.
Qed.

(** a user key can be read *)
Lemma w_reads_back n p0 (mdraw : nat -> K) mk p ap uk b :
  max_attribute_creations p0 = n -> n < 524288 -> eng_master_key p0 mdraw = Ok mk ->
  user_key P mk p ap uk -> user_enc F P uk = Ok b -> blen b < 50000000 -> user_dec F P b = Ok uk.
Proof using BL HP HF.
  intros Hm Hn Hmk Hk E Lb.
  destruct (user_key_derived B P mk p ap uk Hk) as (it' & f & _ & _ & Hd). apply (derived_obtained B) in Hd.
  unfold eng_master_key in Hmk. rewrite Hm in Hmk. destruct (generate_master_key_inv B BL _ _ _ Hmk) as (t & y & -> & Ht & Hnz).
  destruct (obtained_rep B BL P t y f uk Hnz Hd) as (m & sg & _ & R & _).
  assert (Hu : Forall u32 (leaves f)).
  { apply Forall_forall. intros a Ha. pose proof (SchemeProofs.kr_range _ _ _ _ _ _ R a Ha) as Hr. unfold SchemeProofs.in_range in Hr. unfold u32, u32_modulus. lia. }
  destruct (rep_key_ok t f m sg uk R Hu) as (Hko & _ & _).
  assert (L : N.of_nat (length (raw_d uk)) * 96 <= blen b).
  { pose proof E as E'. unfold user_enc in E'. apply bind_ok in E' as (rb & Er & E'). apply bind_ok in E' as (mb & Em & E'). apply Ok_inj in E'.
    subst b. rewrite blen_app. pose proof (vec_size _ _ _ _ _ (g3_ok F fine HF) (PropertiesFfi.vec_enc_count _ _ _ Er) Er). lia. }
  rewrite <- (app_nil_r b). apply (user_fits B F fine HF P uk b [] HP Hko); [unfold u32_MAX; lia| |exact E|rewrite app_nil_r; apply small_fits; lia].
  apply small_fits. pose proof (fo_g3_mem _ _ HF) as G.
  apply N.le_lt_trans with (N.of_nat (length (raw_d uk)) * 4096); [apply N.mul_le_mono_l; exact G|lia].
Qed.

Lemma w_user_key_sound n p0 (mdraw : nat -> K) mk priv pol p it access ap kdraw b :
  max_attribute_creations p0 = n -> n < 524288 -> eng_master_key p0 mdraw = Ok mk ->
  priv_dec F P priv = Ok (priv_key mk) -> policy_from pol = Ok p -> iteration_ok it -> access_parse access = Ok ap ->
  generate_user_private_key it priv access pol kdraw = Ok b -> blen b < 50000000 ->
  exists uk, user_key P mk p ap uk /\ user_dec F P b = Ok uk.
Proof using BL HP HF.
  intros Hm Hn Hmk Dp Ep Hit Ea E Lb. unfold w_generate_user_private_key in E. rewrite Dp, Ep, Ea in E. cbn [bind] in E.
  apply bind_ok in E as (uk & Eu & E).
  assert (Hk : user_key P mk p ap uk) by (apply uk_gen with it kdraw; assumption). exists uk. split; [exact Hk|].
  exact (w_reads_back n p0 mdraw mk p ap uk b Hm Hn Hmk Hk E Lb).
Qed.

(** a header is opened by exactly the keys that decrypt its ciphertext *)
Lemma w_header_opened n ops p pol pk k attrs l u random (s : K) nonce e :
  1 <= n < 524288 -> run_ops ops (new_policy n) = Ok p -> length (pub_t k) = N.to_nat n ->
  policy_from pol = Ok p -> pub_dec F P pk = Ok k -> attributes_parse attrs = Ok l -> l <> [] ->
  length nonce = nonce_length S -> metas (mkMeta u None) ->
  encrypt_header pol pk attrs u random s nonce = Ok e -> blen e < 2147483648 ->
  (forall ct, eng_encrypt P p k l random s = Ok ct -> fine (e_prime ct)) ->
  exists ct, eng_encrypt P p k l random s = Ok ct /\ forall b uk, user_dec F P b = Ok uk ->
    (eng_decrypt ct uk = Ok (Some random) -> exists c, decrypt_header b (snd (cut e)) = Ok c /\
       fst (cut c) = fst (cut e) /\ meta_from_bytes S (snd (cut c)) = Ok (mkMeta u None)) /\
    (refused (eng_decrypt ct uk) -> is_err (decrypt_header b (snd (cut e)))).
Proof using BL HP HF SL.
  intros Hn Hp Lk Ep Ek Ea Hl Hno Hm E Le Hf. unfold w_encrypt_hybrid_header in E.
  destruct (is_empty pol); [discriminate|]. destruct (is_empty pk); [discriminate|]. destruct (is_empty u); [discriminate|].
  destruct (String.eqb attrs ""); [discriminate|]. rewrite Ep in E. cbn [bind] in E. rewrite Ek in E. cbn [bind] in E.
  unfold w_header in E. rewrite Ea in E. cbn [bind] in E. apply bind_ok in E as (h & Eh & E). unfold eh_enc in E. apply Ok_inj in E. subst e.
  destruct (header_layout B F shake S P p k l (Some (mkMeta u None)) random s nonce h Eh) as (sk & tail & _ & Lh & Ls & Eb & mb & em & Emb & _).
  assert (Qk : N.of_nat (key_length S) = blen (eh_key h)) by (unfold blen; rewrite Lh; reflexivity).
  rewrite Qk in *. rewrite !blen_app in Le. pose proof (law_key _ _ SL) as LK. rewrite Qk in LK.
  rewrite cut_app by exact LK. cbn [fst snd].
  destruct (header_opened32 B BL F fine HF shake S metas SL P n ops p k l (Some (mkMeta u None)) random s nonce h HP) as (ct & Ect & Ho); try assumption.
  { lia. } { apply small_fits. pose proof (fo_g2_mem _ _ HF) as G. apply N.le_lt_trans with (n * 4096); [apply N.mul_le_mono_l; exact G|lia]. }
  { intros m Q. assert (m = mkMeta u None) by congruence. subst m. exact Hm. } { apply small_fits. lia. }
  exists ct. split; [exact Ect|]. intros b uk Du. destruct (Ho uk) as [Ho1 Ho2].
  assert (Nb : is_empty b = false) by (destruct b; [discriminate|reflexivity]).
  assert (Lb : (blen (eh_bytes h) <? 4) = false).
  { apply N.ltb_ge. rewrite Eb, blen_app. change (blen (be32 (blen sk))) with 4. lia. }
  unfold w_decrypt_hybrid_header. rewrite Nb, Lb, Du. cbn [bind]. unfold w_open. split.
  - intros H. rewrite (Ho1 H). cbn [bind]. unfold ch_enc. cbn [ch_meta ch_key]. rewrite Emb. cbn [bind]. eexists. split; [reflexivity|].
    rewrite Qk, cut_app by exact LK. cbn [fst snd]. split; [reflexivity|]. exact (law_meta _ _ SL _ _ Hm Emb).
  - intros H. destruct (Ho2 H) as (x & Q). rewrite Q. eexists; reflexivity.
Qed.

(** ** C78 *)
(** A key opens a header exactly if the attributes of the header, not counting those
    rotated since the key was made, satisfy its access policy. *)
Theorem C78_older_key n p0 pol0 (mdraw : nat -> K) keys ops1 ops2 pol1 p1 pol2 p2 it access ap kdraw b attrs l u random (s : K) nonce e :
  1 <= n < 524288 ->
  policy_from pol0 = Ok p0 -> max_attribute_creations p0 = n -> generate_master_keys pol0 mdraw = Ok keys ->
  (forall mk, eng_master_key p0 mdraw = Ok mk -> fine (pub_y (pub_key mk))) ->
  policy_from pol1 = Ok p1 -> run_ops ops1 (new_policy n) = Ok p1 ->
  policy_from pol2 = Ok p2 -> run_ops ops2 p1 = Ok p2 ->
  iteration_ok it -> access_parse access = Ok ap ->
  generate_user_private_key it (fst (cut keys)) access pol1 kdraw = Ok b -> blen b < 50000000 ->
  attributes_parse attrs = Ok l -> l <> [] -> length nonce = nonce_length S -> metas (mkMeta u None) ->
  encrypt_header pol2 (snd (cut keys)) attrs u random s nonce = Ok e -> blen e < 2147483648 ->
  (forall mk ct, eng_master_key p0 mdraw = Ok mk -> eng_encrypt P p2 (pub_key mk) l random s = Ok ct -> fine (e_prime ct)) ->
  let T := fun a => In a l /\ ~ In (Rotate a) ops2 in
  (satisfied ops1 T ap /\ exists c, decrypt_header b (snd (cut e)) = Ok c /\
     fst (cut c) = fst (cut e) /\ meta_from_bytes S (snd (cut c)) = Ok (mkMeta u None)) \/
  (~ satisfied ops1 T ap /\ is_err (decrypt_header b (snd (cut e)))).
Proof using BL HP HF SL.
  intros Hn Ep0 Hm0 Ek Hy Ep1 H1 Ep2 H2 Hit Ea Eu Lb El Hl Hno Hm E Le Hf T.
  destruct (C78_master_keys n p0 pol0 mdraw keys Ep0 Hm0 Hn Ek Hy) as (mk & Hmk & Dp & Dq).
  destruct (w_user_key_sound n p0 mdraw mk (fst (cut keys)) pol1 p1 it access ap kdraw b Hm0 (proj2 Hn) Hmk Dp Ep1 Hit Ea Eu Lb) as (uk & Huk & Du).
  assert (Hp : run_ops (ops1 ++ ops2) (new_policy n) = Ok p2) by (rewrite run_ops_app, H1; exact H2).
  destruct (w_header_opened n (ops1 ++ ops2) p2 pol2 _ (pub_key mk) attrs l u random s nonce e Hn Hp
              (pub_slots B BL _ _ _ _ Hm0 Hmk) Ep2 Dq El Hl Hno Hm E Le ltac:(intros ct; apply Hf; exact Hmk)) as (ct & Ect & Ho).
  destruct (Ho b uk Du) as [Ho1 Ho2].
  destruct (C37_rotation_revokes B BL P n ops1 ops2 p1 p2 p0 mdraw mk ap uk l random s ct H1 H2 Hmk Huk Ect) as [[Hs Hd]|[Hs Hd]]; [left|right]; auto.
Qed.

(** A key that is not older than the header: exactly if the attributes satisfy it. *)
Theorem C78_newer_key n p0 pol0 (mdraw : nat -> K) keys ops1 ops2 pol1 p1 pol2 p2 it access ap kdraw b attrs l u random (s : K) nonce e :
  1 <= n < 524288 ->
  policy_from pol0 = Ok p0 -> max_attribute_creations p0 = n -> generate_master_keys pol0 mdraw = Ok keys ->
  (forall mk, eng_master_key p0 mdraw = Ok mk -> fine (pub_y (pub_key mk))) ->
  policy_from pol1 = Ok p1 -> run_ops ops1 (new_policy n) = Ok p1 ->
  policy_from pol2 = Ok p2 -> run_ops ops2 p1 = Ok p2 ->
  iteration_ok it -> access_parse access = Ok ap ->
  generate_user_private_key it (fst (cut keys)) access pol2 kdraw = Ok b -> blen b < 50000000 ->
  attributes_parse attrs = Ok l -> l <> [] -> length nonce = nonce_length S -> metas (mkMeta u None) ->
  encrypt_header pol1 (snd (cut keys)) attrs u random s nonce = Ok e -> blen e < 2147483648 ->
  (forall mk ct, eng_master_key p0 mdraw = Ok mk -> eng_encrypt P p1 (pub_key mk) l random s = Ok ct -> fine (e_prime ct)) ->
  let T := fun a => In a l in
  (satisfied (ops1 ++ ops2) T ap /\ exists c, decrypt_header b (snd (cut e)) = Ok c /\
     fst (cut c) = fst (cut e) /\ meta_from_bytes S (snd (cut c)) = Ok (mkMeta u None)) \/
  (~ satisfied (ops1 ++ ops2) T ap /\ is_err (decrypt_header b (snd (cut e)))).
Proof using BL HP HF SL.
  intros Hn Ep0 Hm0 Ek Hy Ep1 H1 Ep2 H2 Hit Ea Eu Lb El Hl Hno Hm E Le Hf T.
  destruct (C78_master_keys n p0 pol0 mdraw keys Ep0 Hm0 Hn Ek Hy) as (mk & Hmk & Dp & Dq).
  destruct (w_user_key_sound n p0 mdraw mk (fst (cut keys)) pol2 p2 it access ap kdraw b Hm0 (proj2 Hn) Hmk Dp Ep2 Hit Ea Eu Lb) as (uk & Huk & Du).
  destruct (w_header_opened n ops1 p1 pol1 _ (pub_key mk) attrs l u random s nonce e Hn H1
              (pub_slots B BL _ _ _ _ Hm0 Hmk) Ep1 Dq El Hl Hno Hm E Le ltac:(intros ct; apply Hf; exact Hmk)) as (ct & Ect & Ho).
  destruct (Ho b uk Du) as [Ho1 Ho2].
  destruct (C38_refreshed_key B BL P n ops1 ops2 p1 p2 p0 mdraw mk ap uk l random s ct H1 H2 Hmk Huk Ect) as [[Hs Hd]|[Hs Hd]]; [left|right]; auto.
Qed.

(** ** C82 *)
(** Blocks come back; a missing uid is an empty one, a missing number is 0. *)
Theorem C82_block_roundtrip key u u' number number' data nonce c :
  length nonce = nonce_length S ->
  (u' = u \/ (u = Some [] /\ u' = None) \/ (u = None /\ u' = Some [])) ->
  (number' = number \/ (number = Some 0 /\ number' = None) \/ (number = None /\ number' = Some 0)) ->
  w_encrypt_hybrid_block S key u number data nonce = Ok c ->
  w_decrypt_hybrid_block S key u' number' c = Ok data /\ blen c = blen data + overhead S.
Proof using SL.
  clear HP. intros Hno Hu Hi E. unfold w_encrypt_hybrid_block in E. unfold w_decrypt_hybrid_block.
  destruct (negb (blen key =? 32)); [discriminate|]. destruct (is_empty data); [discriminate|].
  apply bind_ok in E as (key' & Ea & E). unfold array_from in Ea. destruct (Nat.eqb_spec (length key) (key_length S)) as [Lk|]; [|discriminate].
  assert (key' = key) by congruence. subst key'.
  assert (Q1 : w_uid u' = w_uid u) by (destruct Hu as [->|[[-> ->]|[-> ->]]]; reflexivity).
  assert (Q2 : w_number number' = w_number number) by (destruct Hi as [->|[[-> ->]|[-> ->]]]; reflexivity).
  destruct (C49_block_roundtrip S metas SL w_max_clear_text key (w_uid u) (w_number number) nonce data c Lk Hno E) as (D & L & _).
  rewrite Q1, Q2. rewrite array_from_ok by exact Lk. cbn [bind]. split; [|exact L].
  destruct c as [|x c]; [|exact D]. exfalso. cbn in D. discriminate.
Qed.

(** Which keys and sizes are accepted. *)
Theorem C82_block_limits key u number nonce b : key_length S = 32%nat ->
  (length key <> 32%nat \/ b = [] \/ 2 ^ 30 < blen b -> is_err (w_encrypt_hybrid_block S key u number b nonce)) /\
  (length key <> 32%nat \/ b = [] \/ 2 ^ 30 + overhead S < blen b -> is_err (w_decrypt_hybrid_block S key u number b)) /\
  (length key = 32%nat -> 1 <= blen b <= 2 ^ 30 ->
     w_encrypt_hybrid_block S key u number b nonce = block_encrypt S key (match u with Some u => u | None => [] end) (match number with Some i => i | None => 0 end) nonce b) /\
  (length key = 32%nat -> 1 <= blen b <= 2 ^ 30 + overhead S ->
     w_decrypt_hybrid_block S key u number b = block_decrypt S key (match u with Some u => u | None => [] end) (match number with Some i => i | None => 0 end) b).
Proof using Type.
  clear HP. intros Hkl. change (2 ^ 30) with 1073741824.
  unfold w_encrypt_hybrid_block, w_decrypt_hybrid_block, array_from, w_max_clear_text, encrypt_hybrid_block, decrypt_hybrid_block. rewrite Hkl.
  destruct (N.eqb_spec (blen key) 32) as [Q|Q]; cbn [negb].
  2:{ assert (length key <> 32%nat) by (intros H; apply Q; unfold blen; rewrite H; reflexivity).
      split; [eexists; reflexivity|]. split; [eexists; reflexivity|]. split; intros; contradiction. }
  assert (Lk : length key = 32%nat) by (unfold blen in Q; lia). rewrite Lk, Nat.eqb_refl. cbn [bind].
  destruct b as [|x r].
  - cbn [is_empty]. split; [eexists; reflexivity|]. split; [eexists; reflexivity|]. change (blen []) with 0. split; intros _ H; lia.
  - cbn [is_empty]. split; [intros [H|[H|H]]; [contradiction|discriminate|]; apply N.ltb_lt in H; rewrite H; eexists; reflexivity|].
    split; [intros [H|[H|H]]; [contradiction|discriminate|]; apply N.ltb_lt in H; rewrite H; eexists; reflexivity|].
    split; intros _ H; [destruct (N.ltb_spec 1073741824 (blen (x :: r)))|destruct (N.ltb_spec (1073741824 + overhead S) (blen (x :: r)))]; try lia; reflexivity.
Qed.

(** ** C84 *)
(** Messages as programs build them: the size of the header, the header, the block;
    and as they read them, with the size found by the library. *)
Definition w_message (header block : list byte) : list byte := be32 (blen header) ++ header ++ block.
Definition w_read_message (uk msg : list byte) (u : option (list byte)) (number : option N) : outcome (list byte) :=
  let* size := w_get_encrypted_header_size msg in
  let* clear := decrypt_header uk (firstn (N.to_nat size) (skipn 4 msg)) in
  w_decrypt_hybrid_block S (fst (cut clear)) u number (skipn (4 + N.to_nat size) msg).

Theorem C84_header_size header block : blen header < 4294967296 ->
  w_get_encrypted_header_size (w_message header block) = Ok (blen header).
Proof using Type.
  clear HP. intros H. unfold w_get_encrypted_header_size, w_message.
  rewrite firstn4_app by (unfold blen; rewrite be32_length; lia). change (firstn 4 (be32 (blen header))) with (be32 (blen header)).
  rewrite from_be_be32 by exact H. rewrite blen_app. destruct (N.ltb_spec (blen (be32 (blen header)) + blen (header ++ block)) 4) as [Q|]; [|reflexivity].
  unfold blen at 1 in Q. rewrite be32_length in Q. lia.
Qed.
Theorem C84_short b : blen b < 4 <-> is_err (w_get_encrypted_header_size b).
Proof using Type.
  clear HP. unfold w_get_encrypted_header_size. destruct (N.ltb_spec (blen b) 4) as [H|H].
  - split; [intros _; eexists; reflexivity|intros _; exact H].
  - split; [lia|]. intros (e & E). discriminate.
Qed.

Lemma read_message uk header block u number : blen header < 4294967296 ->
  w_read_message uk (w_message header block) u number =
  (let* clear := decrypt_header uk header in w_decrypt_hybrid_block S (fst (cut clear)) u number block).
Proof using Type.
  clear HP. intros H. unfold w_read_message. rewrite (C84_header_size header block H). cbn [bind]. unfold w_message.
  change (skipn 4 (be32 (blen header) ++ header ++ block)) with (header ++ block).
  change (skipn (4 + N.to_nat (blen header)) (be32 (blen header) ++ header ++ block)) with (skipn (N.to_nat (blen header)) (header ++ block)).
  unfold blen. rewrite Nat2N.id, firstn_app, firstn_all, Nat.sub_diag, firstn_O, app_nil_r, skipn_app, skipn_all, Nat.sub_diag. reflexivity.
Qed.

Theorem C84_older_key n p0 pol0 (mdraw : nat -> K) keys ops1 ops2 pol1 p1 pol2 p2 it access ap kdraw b attrs l u random (s : K) nonce e
    bu number nonce' data block :
  1 <= n < 524288 ->
  policy_from pol0 = Ok p0 -> max_attribute_creations p0 = n -> generate_master_keys pol0 mdraw = Ok keys ->
  (forall mk, eng_master_key p0 mdraw = Ok mk -> fine (pub_y (pub_key mk))) ->
  policy_from pol1 = Ok p1 -> run_ops ops1 (new_policy n) = Ok p1 ->
  policy_from pol2 = Ok p2 -> run_ops ops2 p1 = Ok p2 ->
  iteration_ok it -> access_parse access = Ok ap ->
  generate_user_private_key it (fst (cut keys)) access pol1 kdraw = Ok b -> blen b < 50000000 ->
  attributes_parse attrs = Ok l -> l <> [] -> length nonce = nonce_length S -> metas (mkMeta u None) ->
  encrypt_header pol2 (snd (cut keys)) attrs u random s nonce = Ok e -> blen e < 2147483648 ->
  (forall mk ct, eng_master_key p0 mdraw = Ok mk -> eng_encrypt P p2 (pub_key mk) l random s = Ok ct -> fine (e_prime ct)) ->
  key_length S = 32%nat -> length nonce' = nonce_length S ->
  w_encrypt_hybrid_block S (fst (cut e)) bu number data nonce' = Ok block ->
  let T := fun a => In a l /\ ~ In (Rotate a) ops2 in
  (satisfied ops1 T ap /\ w_read_message b (w_message (snd (cut e)) block) bu number = Ok data) \/
  (~ satisfied ops1 T ap /\ is_err (w_read_message b (w_message (snd (cut e)) block) bu number)).
Proof using BL HP HF SL.
  intros Hn Ep0 Hm0 Ek Hy Ep1 H1 Ep2 H2 Hit Ea Eu Lb El Hl Hno Hm E Le Hf Hkl Hno' Eblk T.
  assert (Lh : blen (snd (cut e)) < 4294967296).
  { apply N.le_lt_trans with (blen e); [|lia]. unfold cut. cbn [snd]. unfold blen. rewrite skipn_len. lia. }
  rewrite (read_message b _ block bu number Lh).
  destruct (C78_older_key n p0 pol0 mdraw keys ops1 ops2 pol1 p1 pol2 p2 it access ap kdraw b attrs l u random s nonce e
     Hn Ep0 Hm0 Ek Hy Ep1 H1 Ep2 H2 Hit Ea Eu Lb El Hl Hno Hm E Le Hf) as [(Hs & c & Ec & Ef & _)|(Hs & er & Ee)]; [left|right]; (split; [exact Hs|]).
  - rewrite Ec. cbn [bind]. rewrite Ef.
    exact (proj1 (C82_block_roundtrip (fst (cut e)) bu bu number number data nonce' block Hno' (or_introl eq_refl) (or_introl eq_refl) Eblk)).
  - rewrite Ee. eexists. reflexivity.
Qed.

Theorem C84_newer_key n p0 pol0 (mdraw : nat -> K) keys ops1 ops2 pol1 p1 pol2 p2 it access ap kdraw b attrs l u random (s : K) nonce e
    bu number nonce' data block :
  1 <= n < 524288 ->
  policy_from pol0 = Ok p0 -> max_attribute_creations p0 = n -> generate_master_keys pol0 mdraw = Ok keys ->
  (forall mk, eng_master_key p0 mdraw = Ok mk -> fine (pub_y (pub_key mk))) ->
  policy_from pol1 = Ok p1 -> run_ops ops1 (new_policy n) = Ok p1 ->
  policy_from pol2 = Ok p2 -> run_ops ops2 p1 = Ok p2 ->
  iteration_ok it -> access_parse access = Ok ap ->
  generate_user_private_key it (fst (cut keys)) access pol2 kdraw = Ok b -> blen b < 50000000 ->
  attributes_parse attrs = Ok l -> l <> [] -> length nonce = nonce_length S -> metas (mkMeta u None) ->
  encrypt_header pol1 (snd (cut keys)) attrs u random s nonce = Ok e -> blen e < 2147483648 ->
  (forall mk ct, eng_master_key p0 mdraw = Ok mk -> eng_encrypt P p1 (pub_key mk) l random s = Ok ct -> fine (e_prime ct)) ->
  key_length S = 32%nat -> length nonce' = nonce_length S ->
  w_encrypt_hybrid_block S (fst (cut e)) bu number data nonce' = Ok block ->
  let T := fun a => In a l in
  (satisfied (ops1 ++ ops2) T ap /\ w_read_message b (w_message (snd (cut e)) block) bu number = Ok data) \/
  (~ satisfied (ops1 ++ ops2) T ap /\ is_err (w_read_message b (w_message (snd (cut e)) block) bu number)).
Proof using BL HP HF SL.
  intros Hn Ep0 Hm0 Ek Hy Ep1 H1 Ep2 H2 Hit Ea Eu Lb El Hl Hno Hm E Le Hf Hkl Hno' Eblk T.
  assert (Lh : blen (snd (cut e)) < 4294967296).
  { apply N.le_lt_trans with (blen e); [|lia]. unfold cut. cbn [snd]. unfold blen. rewrite skipn_len. lia. }
  rewrite (read_message b _ block bu number Lh).
  destruct (C78_newer_key n p0 pol0 mdraw keys ops1 ops2 pol1 p1 pol2 p2 it access ap kdraw b attrs l u random s nonce e
     Hn Ep0 Hm0 Ek Hy Ep1 H1 Ep2 H2 Hit Ea Eu Lb El Hl Hno Hm E Le Hf) as [(Hs & c & Ec & Ef & _)|(Hs & er & Ee)]; [left|right]; (split; [exact Hs|]).
  - rewrite Ec. cbn [bind]. rewrite Ef.
    exact (proj1 (C82_block_roundtrip (fst (cut e)) bu bu number number data nonce' block Hno' (or_introl eq_refl) (or_introl eq_refl) Eblk)).
  - rewrite Ee. eexists. reflexivity.
Qed.

(** ** C83 *)
Theorem C83_rotation_history attrs l pol p n ops : attributes_from attrs = Ok l -> policy_from pol = Ok p ->
  run_ops ops (new_policy n) = Ok p ->
  (exists p', run_ops (ops ++ map Rotate l) (new_policy n) = Ok p' /\ rotate_attributes attrs pol = policy_text p') \/
  ((forall p', run_ops (ops ++ map Rotate l) (new_policy n) <> Ok p') /\ is_err (rotate_attributes attrs pol)).
Proof using Type.
  clear HP. intros El Ep Hp. unfold w_rotate_attributes. rewrite El, Ep. cbn [bind]. rewrite rotate_each_ops, run_ops_app, Hp. cbn [bind].
  destruct (run_ops (map Rotate l) p) as [p'|x|q] eqn:Q; [left; exists p'; split; reflexivity|right|destruct (run_ops_no_panic _ _ _ Q)].
  split; [discriminate|exists x; reflexivity].
Qed.
End Functions.

(** ** Examples *)
Definition w_attrs (x : string) : outcome (list attribute) :=
  if String.eqb x "hr" then Ok [dept "HR"; level "Protected"] else if String.eqb x "fin" then Ok [dept "FIN"; level "Protected"] else Err Utf8Error.
Definition w_masters : list byte := bytes_of (w_generate_master_keys toy_forms py_policy [x01] ex_draw).
Definition w_user (pol : list byte) : list byte :=
  bytes_of (w_generate_user_private_key release32 toy_forms py_policy py_access it_rev (fst (cut w_masters)) "a" pol ex_kdraw).
Definition w_sealed (pol : list byte) (attrs : string) : list byte :=
  bytes_of (w_encrypt_hybrid_header release32 toy_forms toy_shake toy_sym py_policy w_attrs pol (snd (cut w_masters)) attrs [x07] ex_msg ex_s ex_nonce).
Definition w_opened (key sealed : list byte) : outcome (list byte) := w_decrypt_hybrid_header release32 toy_forms toy_shake toy_sym key (snd (cut sealed)).

(** the HR attribute was rotated between the policies 1 and 2 *)
Example C78_example :
  w_opened (w_user [x01]) (w_sealed [x01] "hr") = Ok (be32 32 ++ fst (cut (w_sealed [x01] "hr")) ++ [x00; x00; x00; x01; x07]) /\
  w_opened (w_user [x01]) (w_sealed [x02] "hr") = Err InvalidEncryptedData /\
  w_opened (w_user [x01]) (w_sealed [x02] "fin") = Ok (be32 32 ++ fst (cut (w_sealed [x02] "fin")) ++ [x00; x00; x00; x01; x07]) /\
  w_opened (w_user [x02]) (w_sealed [x01] "hr") = Ok (be32 32 ++ fst (cut (w_sealed [x01] "hr")) ++ [x00; x00; x00; x01; x07]) /\
  (blen (w_user [x01]) <? 50000000) = true.
Proof.
  split; [vmr (w_opened (w_user [x01]) (w_sealed [x01] "hr"))|].
  split; [vmr (@Err (list byte) InvalidEncryptedData)|].
  split; [vmr (w_opened (w_user [x01]) (w_sealed [x02] "fin"))|].
  split; [vmr (w_opened (w_user [x02]) (w_sealed [x01] "hr"))|]. vmr true.
Qed.

(** a program that makes two encryption caches and a decryption cache, and destroys
    one of them *)
Definition w_program : list (@wcall toy) :=
  [CreateEncryption [x01] (snd (cut w_masters)); CreateEncryption [x02] (snd (cut w_masters)); CreateEncryption [] [];
   CreateDecryption (w_user [x01]); DestroyEncryption 0%Z].
Definition w_go (sticky : bool) (cs : list (@wcall toy)) (s : @wstate toy) : list (@wcall toy * outcome wresult) * @wstate toy :=
  w_run release32 toy_forms toy_shake toy_sym py_policy w_attrs sticky cs s.
Definition w_results (sticky : bool) (cs : list (@wcall toy)) : list (outcome wresult) := map snd (fst (w_go sticky cs w_start)).

Example C79_example : forall sticky,
  w_results sticky w_program = [Ok (Handle 0%Z); Ok (Handle 1%Z); Err (InvalidSize "Policy as bytes is empty"); Ok (Handle 0%Z); Ok Done] /\
  enc_holder 1%Z (fst (w_go sticky w_program w_start)) = Some ([x02], snd (cut w_masters)) /\
  enc_holder 0%Z (fst (w_go sticky w_program w_start)) = None /\
  w_results sticky (w_program ++ [EncryptCached 1%Z "hr" [x07] ex_msg ex_s ex_nonce; DecryptCached 0%Z (snd (cut (w_sealed [x01] "hr")))]) =
  w_results sticky w_program ++ [Ok (Bytes (w_sealed [x02] "hr")); let* b := w_opened (w_user [x01]) (w_sealed [x01] "hr") in Ok (Bytes b)].
Proof.
  intros sticky.
  split; [vmr (w_results sticky w_program)|].
  split; [vmr (@Some (list byte * list byte) ([x02], snd (cut w_masters)))|].
  split; [vmr (@None (list byte * list byte))|].
  vmr (w_results sticky (w_program ++ [EncryptCached 1%Z "hr" [x07] ex_msg ex_s ex_nonce; DecryptCached 0%Z (snd (cut (w_sealed [x01] "hr")))])).
Qed.

(** The destroyed handle 0 traps; then creations trap, while headers can still be
    made, at least until one of these creations is tried. A hostile header does the
    same to the decryption cache. *)
(** with an empty uid the cached function encrypts, the other one refuses *)
Theorem C79_empty_uid_refuted : exists b,
  enc_holder 1%Z (fst (w_go false w_program w_start)) = Some ([x02], snd (cut w_masters)) /\
  w_results false (w_program ++ [EncryptCached 1%Z "hr" [] ex_msg ex_s ex_nonce]) = w_results false w_program ++ [Ok (Bytes b)] /\
  is_err (w_encrypt_hybrid_header release32 toy_forms toy_shake toy_sym py_policy w_attrs [x02] (snd (cut w_masters)) "hr" [] ex_msg ex_s ex_nonce).
Proof.
  exists (match last (w_results false (w_program ++ [EncryptCached 1%Z "hr" [] ex_msg ex_s ex_nonce])) (Ok Done) with Ok (Bytes b) => b | _ => [] end).
  split; [vmr (@Some (list byte * list byte) ([x02], snd (cut w_masters)))|].
  split; [vmr (w_results false (w_program ++ [EncryptCached 1%Z "hr" [] ex_msg ex_s ex_nonce]))|].
  eexists. reflexivity.
Qed.
Example C80_C81_example :
  w_results true (w_program ++ [EncryptCached 0%Z "hr" [x07] ex_msg ex_s ex_nonce; EncryptCached 1%Z "hr" [x07] ex_msg ex_s ex_nonce;
     CreateEncryption [x01] (snd (cut w_masters)); EncryptCached 1%Z "hr" [x07] ex_msg ex_s ex_nonce;
     DecryptCached 0%Z bad_header; DestroyDecryption 0%Z]) =
  w_results true w_program ++ [Panic UnwrapNone; Ok (Bytes (w_sealed [x02] "hr")); Panic ExplicitPanic; Panic ExplicitPanic;
     Panic CapacityOverflow; Panic ExplicitPanic].
Proof.
  vmr (w_results true w_program ++ [Panic UnwrapNone; Ok (Bytes (w_sealed [x02] "hr")); Panic ExplicitPanic; Panic ExplicitPanic;
     Panic CapacityOverflow; Panic ExplicitPanic]).
Qed.

Example C82_example :
  w_decrypt_hybrid_block toy_sym (repeat x05 32) None (Some 0)
    (bytes_of (w_encrypt_hybrid_block toy_sym (repeat x05 32) (Some []) None [x01; x02] ex_nonce)) = Ok [x01; x02] /\
  is_err (w_decrypt_hybrid_block toy_sym (repeat x05 32) None (Some 1)
    (bytes_of (w_encrypt_hybrid_block toy_sym (repeat x05 32) (Some []) None [x01; x02] ex_nonce))) /\
  is_err (w_encrypt_hybrid_block toy_sym (repeat x05 31) None None [x01] ex_nonce).
Proof. split; [reflexivity|]. split; eexists; vm_compute; reflexivity. Qed.

Definition w_block (sealed : list byte) (data : list byte) : list byte :=
  bytes_of (w_encrypt_hybrid_block toy_sym (fst (cut sealed)) (Some [x09]) (Some 3) data ex_nonce).
Definition w_read (key sealed data : list byte) : outcome (list byte) :=
  w_read_message toy release32 toy_forms toy_shake toy_sym key (w_message (snd (cut sealed)) (w_block sealed data)) (Some [x09]) (Some 3).
Example C84_example :
  w_read (w_user [x01]) (w_sealed [x01] "hr") [x2a; x2b] = Ok [x2a; x2b] /\
  w_read (w_user [x01]) (w_sealed [x02] "hr") [x2a; x2b] = Err InvalidEncryptedData /\
  w_read (w_user [x02]) (w_sealed [x01] "hr") [x2a; x2b] = Ok [x2a; x2b].
Proof. split; [vmr (@Ok (list byte) [x2a; x2b])|]. split; [vmr (@Err (list byte) InvalidEncryptedData)|vmr (@Ok (list byte) [x2a; x2b])]. Qed.

Example C83_example :
  w_rotate_attributes py_policy py_attrs (fun p => if last_attribute_value p =? last_attribute_value pol_a + 2 then Ok "two"%string else Ok "other"%string) [x01] [x01]
    = Ok "two"%string.
Proof. reflexivity. Qed.

Print Assumptions C78_master_keys.
Print Assumptions C78_older_key.
Print Assumptions C78_newer_key.
Print Assumptions C79_cached_encryption.
Print Assumptions C79_cached_decryption.
Print Assumptions C79_handles_distinct.
Print Assumptions C79_empty_uid_refuted.
Print Assumptions C80_unknown_handle_refuted.
Print Assumptions C80_blocked_after_trap.
Print Assumptions C80_free_otherwise.
Print Assumptions C81_hostile_header_refuted.
Print Assumptions C82_block_roundtrip.
Print Assumptions C82_block_limits.
Print Assumptions C83_rotation_history.
Print Assumptions C84_header_size.
Print Assumptions C84_short.
Print Assumptions C84_older_key.
Print Assumptions C84_newer_key.

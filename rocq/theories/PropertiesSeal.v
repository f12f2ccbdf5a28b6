(** The confidentiality of metadata and blocks: from the decisional bilinear Diffie-Hellman problem and the symmetric scheme (C113). *)
From Coq Require Import String NArith ZArith Bool Lia Strings.Byte List.
From Verif Require Import Prelude Field Msp Spec Bilinear Scheme Codec SchemeCodec Policy Engine Hybrid CollusionSpec LuckSpec GameSpec ReductionSpec SealSpec
  Zp ExpModel PropertiesScheme PropertiesCodec PropertiesEngine PropertiesHybrid PropertiesReduction.
Import ListNotations.

Lemma total_tuples_prod {A C} (la : list A) (lc : list C) m : forall f,
  total (tuples (list_prod la lc) m) f = total (tuples la m) (fun a => total (tuples lc m) (fun c => f (combine a c))).
Proof.
  induction m as [|m IH]; intros f; [unfold total; cbn; lia|].
  rewrite total_tuples_S, total_prod, total_tuples_S. apply total_ext. intros a _.
  transitivity (total lc (fun c => total (tuples la m) (fun x => total (tuples lc m) (fun y => f ((a, c) :: combine x y))))).
  - apply total_ext. intros c _. apply IH.
  - rewrite total_swap. apply total_ext. intros x _. rewrite total_tuples_S. reflexivity.
Qed.
Lemma tuples_count {A} (l : list A) m : length (tuples l m) = (length l ^ m)%nat.
Proof.
  induction m as [|m IH]; [reflexivity|]. cbn [tuples Nat.pow]. rewrite <- IH. clear IH. generalize (tuples l m). intros ts.
  induction l as [|x l IH]; [reflexivity|]. cbn [flat_map length]. rewrite app_length, map_length, IH. lia.
Qed.
Lemma combine_fst {A C} (a : list A) : forall (c : list C), length a = length c -> map fst (combine a c) = a.
Proof. induction a as [|x a IH]; intros [|y c] H; try discriminate; [reflexivity|]. cbn. f_equal. apply IH. injection H as H. exact H. Qed.
Lemma combine_snd {A C} (a : list A) : forall (c : list C), length a = length c -> map snd (combine a c) = c.
Proof. induction a as [|x a IH]; intros [|y c] H; try discriminate; [reflexivity|]. cbn. f_equal. apply IH. injection H as H. exact H. Qed.

Section Seal.
Variable B : BilinearMap.
Local Notation K := (bm_K B).
Variable P : platform.
Variable size : nat.
Variable S : sym_scheme.
Variable F : byte_forms B.
Variable shake : list byte -> nat -> list byte.
Variable pol : policy.
Variable max : N.
Hypothesis shake_length : forall b n, length (shake b n) = n.
Local Notation len := (key_length S).

Lemma header_finished pk l meta g s nonce :
  encrypt_hybrid_header S F shake P pol pk l meta g s nonce = finished S (generate_symmetric_key P F shake pol pk l len g s) meta nonce.
Proof. reflexivity. Qed.

(** the attacker with its own symmetric encryption, told the real keys *)
Lemma listens_real (mk : master_key B) w p : forall ls xs ss nonces fs uks keys u,
  play_headers P F shake pol len mk true ls xs ss fs uks u (listens S max w nonces keys p) = play_client P S F shake pol max mk w ls (map fst xs) ss nonces fs uks keys u p.
Proof.
  induction p as [b|e next IH|e next IH|m0 m1 next IH|i v number m0 m1 next IH]; intros ls xs ss nonces fs uks keys u; cbn [listens play_client play_headers].
  - reflexivity.
  - apply IH.
  - apply IH.
  - destruct nonces as [|nonce nonces]; cbn [play_headers]; [destruct ls, (map fst xs), ss; reflexivity|].
    destruct ls as [|l ls]; [reflexivity|]. destruct xs as [|[x x'] xs]; [reflexivity|]. cbn [map fst]. destruct ss as [|s ss]; [reflexivity|].
    rewrite IH, header_finished. reflexivity.
  - destruct nonces as [|nonce nonces]; cbn [play_headers]; [reflexivity|]. apply IH.
Qed.

Lemma array_from_exact b n : length b = n -> array_from n b = Ok b.
Proof. intros H. unfold array_from. rewrite H, Nat.eqb_refl. reflexivity. Qed.

(** the key of a header and the header itself, when both are made from different elements *)
Definition opened (b : outcome (list byte)) : outcome unit := let* _ := b in Ok Datatypes.tt.
Lemma mismatched_finished (mk : master_key B) l x' x s meta nonce :
  let h := finished S (mismatched P F shake pol len (pub_key mk) l (gt_gen_exp B x') (gt_gen_exp B x) s) meta nonce in
  let bytes := let* f := front P F pol mk l x' s in with_meta f (match meta with
      | None => Ok None
      | Some m => let* b := meta_to_bytes S m in let* c := sym_encrypt S (key_from S F shake x) b nonce None in Ok (Some (nonce, c))
      end) in
  (let* h := h in Ok (eh_bytes h)) = bytes /\ (let* h := h in Ok (eh_key h)) = (let* _ := opened bytes in Ok (key_from S F shake x)).
Proof.
  cbv zeta. unfold finished, mismatched, front, with_meta, opened. destruct (eng_encrypt P pol (pub_key mk) l (gt_gen_exp B x') s) as [ct|e|q]; [|split; reflexivity|split; reflexivity].
  cbn [bind]. destruct (ct_enc F ct) as [sk|e|q]; [|split; reflexivity|split; reflexivity].
  cbn [bind]. change (enc (gt_codec F) (gt_gen_exp B x)) with (Ok (to_compressed (gt_form B F) (gt_gen_exp B x))). cbn [bind].
  fold (key_from S F shake x). rewrite (array_from_exact (key_from S F shake x)) by apply shake_length. cbn [bind].
  destruct (u32_len sk) as [z|e|q]; [|split; reflexivity|split; reflexivity]. cbn [bind].
  destruct meta as [m|]; [|split; reflexivity].
  destruct (meta_to_bytes S m) as [b|e|q]; [|split; reflexivity|split; reflexivity]. cbn [bind].
  destruct (sym_encrypt S (key_from S F shake x) b nonce None) as [c|e|q]; [|split; reflexivity|split; reflexivity]. cbn [bind].
  destruct (u32_len c) as [z'|e|q]; split; reflexivity.
Qed.

(** the two plaintexts of a block have the same length *)
Fixpoint sized (p : client B) : Prop :=
  match p with
  | Answer _ => True
  | GetKey _ next => forall r, sized (next r)
  | OthersKey _ next => sized next
  | GetHeader _ _ next => forall r, sized (next r)
  | GetBlock _ _ _ m0 m1 next => length m0 = length m1 /\ forall r, sized (next r)
  end.
Lemma proper_formula fs e : ReductionSpec.proper P size fs e -> exists f, formula_of fs e = Some f.
Proof. destruct e as [f|j f'|j]; cbn; intros H; [eexists; reflexivity|eexists; reflexivity|]. destruct H as (f & H & _). exists f. exact H. Qed.
Lemma lawful_sized gams (p : client B) : forall n fs m k, lawful_client P size S gams n fs m k p -> sized p.
Proof.
  induction p as [b|e next IH|e next IH|m0 m1 next IH|i v number m0 m1 next IH]; intros n fs m k H; cbn [sized]; cbn [lawful_client] in H.
  - exact I.
  - destruct H as [H1 H2]. destruct (proper_formula _ _ H1) as [f Hf]. destruct (H2 f Hf) as (_ & _ & D). intros r. eapply IH. apply D.
  - destruct H as [H1 H2]. destruct (proper_formula _ _ H1) as [f Hf]. destruct (H2 f Hf) as (_ & D). eapply IH. apply D.
  - destruct H as [_ H]. destruct m as [|m]; [destruct H|]. destruct k as [|k]; [destruct H|]. intros r. eapply IH. apply H.
  - destruct H as [Z H]. destruct k as [|k]; [destruct H|]. split; [exact Z|]. intros r. eapply IH. apply H.
Qed.
Lemma block_checked key u number nonce (w : bool) (m0 m1 : list byte) : length m0 = length m1 ->
  encrypt_hybrid_block S max key u number nonce (if w then m1 else m0) =
  (if (blen m0 =? 0)%N then Err EmptyPlaintext else if (max <? blen m0)%N then Err (InvalidSize "The data to encrypt is too large")
   else block_encrypt S key u number nonce (if w then m1 else m0)).
Proof.
  intros L. assert (E : blen (if w then m1 else m0) = blen m0) by (unfold blen; destruct w; congruence). rewrite <- E.
  unfold encrypt_hybrid_block. destruct (if w then m1 else m0) as [|x t]; reflexivity.
Qed.

(** told unrelated keys, only the symmetric scheme is left *)
Lemma listens_apart (mk : master_key B) w p : forall ls xs ss nonces fs uks keys known before u, sized p ->
  length known = length before -> length keys = length before ->
  (forall i, (i < length before)%nat -> nth i keys (Err (InternalOperation "no such header")) =
     (let* _ := nth i known (Err (InternalOperation "no such header")) in Ok (nth i before []))) ->
  play_headers P F shake pol len mk false ls xs ss fs uks u (listens S max w nonces keys p) =
  play_sealer S (before ++ map (key_from S F shake) (map fst xs)) w nonces (separate P F pol max mk ls (map snd xs) ss fs uks known u p).
Proof.
  induction p as [b|e next IH|e next IH|m0 m1 next IH|i v number m0 m1 next IH]; intros ls xs ss nonces fs uks keys known before u Z Lk Lk' Hk; cbn [sized] in Z; cbn [listens separate play_headers].
  - reflexivity.
  - apply IH; [apply Z|assumption..].
  - apply IH; assumption.
  - destruct nonces as [|nonce nonces].
    { cbn [play_headers]. destruct ls as [|l ls]; [reflexivity|]. destruct (map snd xs) as [|x' t]; [reflexivity|]. destruct ss as [|s ss]; [reflexivity|].
      destruct (front _ _ _ _ _ _ _); reflexivity. }
    cbn [play_headers]. destruct ls as [|l ls]; [reflexivity|]. destruct xs as [|[x x'] xs]; [reflexivity|]. cbn [map fst snd]. destruct ss as [|s ss]; [reflexivity|].
    destruct (mismatched_finished mk l x' x s (if w then m1 else m0) nonce) as [E1 E2]. rewrite E1, E2. clear E1 E2.
    match goal with |- context [next ?b] => set (bytes := b) end.
    assert (E : play_sealer S (before ++ key_from S F shake x :: map (key_from S F shake) (map fst xs)) w nonces
        (separate P F pol max mk ls (map snd xs) ss fs uks (known ++ [opened bytes]) u (next bytes)) =
      play_headers P F shake pol len mk false ls xs ss fs uks u (listens S max w nonces (keys ++ [let* _ := opened bytes in Ok (key_from S F shake x)]) (next bytes))).
    { change (before ++ key_from S F shake x :: map (key_from S F shake) (map fst xs)) with (before ++ [key_from S F shake x] ++ map (key_from S F shake) (map fst xs)).
      rewrite app_assoc. symmetry. apply IH; rewrite ?app_length; cbn [length]; [apply Z|lia|lia|].
      intros i Hi. destruct (Nat.lt_ge_cases i (length before)) as [H|H].
      - rewrite !app_nth1 by lia. apply Hk. exact H.
      - assert (i = length before) by lia. subst i. rewrite !app_nth2 by lia. rewrite Lk, Lk', Nat.sub_diag. reflexivity. }
    rewrite <- E. clear E. subst bytes. destruct (front P F pol mk l x' s) as [f|e|q]; cbn [bind play_sealer]; [|reflexivity|reflexivity].
    rewrite Lk, app_nth2, Nat.sub_diag by lia. cbn [nth]. reflexivity.
  - destruct nonces as [|nonce nonces].
    { cbn [play_headers]. destruct (nth i known _); [|reflexivity|reflexivity]. destruct (blen m0 =? 0)%N; [reflexivity|]. destruct (max <? blen m0)%N; reflexivity. }
    assert (N : nth i keys (Err (InternalOperation "no such header")) = (let* _ := nth i known (Err (InternalOperation "no such header")) in Ok (nth i (before ++ map (key_from S F shake) (map fst xs)) []))).
    { destruct (Nat.lt_ge_cases i (length before)) as [H|H].
      - rewrite Hk by exact H. rewrite app_nth1 by exact H. reflexivity.
      - rewrite !nth_overflow by lia. reflexivity. }
    destruct Z as [Z Z']. unfold block_for. rewrite N. destruct (nth i known _) as [z|e|q]; cbn [bind play_sealer]; [|apply IH; [apply Z'|assumption..]|apply IH; [apply Z'|assumption..]].
    rewrite block_checked by exact Z. destruct (blen m0 =? 0)%N; [|destruct (max <? blen m0)%N]; cbn [play_sealer]; (apply IH; [apply Z'|assumption..]).
Qed.

(** the reductions obey the rules *)
Lemma listens_lawful gams w (p : client B) : forall n fs m k nonces keys, lawful_client P size S gams n fs m k p -> lawful_headers P size gams n fs m (listens S max w nonces keys p).
Proof.
  induction p as [b|e next IH|e next IH|m0 m1 next IH|i v number m0 m1 next IH]; intros n fs m k nonces keys H; cbn [listens lawful_headers]; cbn [lawful_client] in H.
  - exact I.
  - destruct H as [H1 H2]. split; [exact H1|]. intros f Hf. destruct (H2 f Hf) as (A & C & D). split; [exact A|]. split; [exact C|]. intros r. eapply IH. apply D.
  - destruct H as [H1 H2]. split; [exact H1|]. intros f Hf. destruct (H2 f Hf) as (C & D). split; [exact C|]. eapply IH. exact D.
  - destruct H as [_ H]. destruct nonces as [|nonce nonces]; cbn [lawful_headers]; [exact I|]. destruct m as [|m]; [exact H|]. destruct k as [|k]; [destruct H|]. intros r. eapply IH. apply H.
  - destruct H as [_ H]. destruct nonces as [|nonce nonces]; cbn [lawful_headers]; [exact I|]. destruct k as [|k]; [destruct H|]. eapply IH. apply H.
Qed.

Lemma separate_lawful gams (mk : master_key B) p : forall n fs m k ls xs ss uks known u,
  lawful_client P size S gams n fs m k p -> lawful_sealer S k (separate P F pol max mk ls xs ss fs uks known u p).
Proof.
  induction p as [b|e next IH|e next IH|m0 m1 next IH|i v number m0 m1 next IH]; intros n fs m k ls xs ss uks known u H; cbn [separate]; cbn [lawful_client] in H.
  - exact I.
  - destruct H as [H1 H2]. destruct (proper_formula _ _ H1) as [f Hf]. destruct (H2 f Hf) as (_ & _ & D). unfold formulas. rewrite Hf. eapply IH. apply D.
  - destruct H as [H1 H2]. destruct (proper_formula _ _ H1) as [f Hf]. destruct (H2 f Hf) as (_ & D). unfold formulas. rewrite Hf. eapply IH. apply D.
  - destruct H as [Z H]. destruct m as [|m]; [destruct H|]. destruct k as [|k]; [destruct H|].
    destruct ls as [|l ls]; [exact I|]. destruct xs as [|x xs]; [exact I|]. destruct ss as [|s ss]; [exact I|].
    destruct (front P F pol mk l x s) as [f|e|q]; cbn [lawful_sealer]; (split; [assumption || exact I|]); intros r; eapply IH; apply H.
  - destruct H as [Z H]. destruct k as [|k]; [destruct H|].
    destruct (nth i known _) as [f|e|q]; [destruct (blen m0 =? 0)%N; [|destruct (max <? blen m0)%N]| |]; cbn [lawful_sealer]; (split; [assumption || exact I|]); intros r; eapply IH; apply H.
Qed.

Variable pick : list (list attribute).
Context {R : Type}.
Variable start : R -> master_public_key B -> delegation_key B -> client B.
Variable elems : list K.
Variable coins : list R.
Variable nonces : list (list byte).
Variables n k : nat.
Hypothesis start_sized : forall c pub del, sized (start c pub del).

(** the two ends of the argument in numbers *)
Lemma total_real w :
  answers_true_headers P size F shake pol len pick (client_listener S max start w) elems (client_coins coins nonces k) n true =
  (length elems ^ length pick * answers_true_client P size S F shake pol max pick start elems coins nonces n k w)%nat.
Proof.
  unfold answers_true_headers, answers_true_client, client_coins. rewrite total_prod, <- total_mul. apply total_ext. intros c _.
  transitivity (total (tuples nonces k) (fun nc => total (tuples elems (length pick)) (fun xs => (length elems ^ length pick * total (tuples elems size) (fun t => total elems (fun y =>
    total (tuples elems (length pick)) (fun ss => total (tuples elems n) (fun u => bit (experiment_client P size S F shake pol max pick (start c) w xs t y ss u nc))))))%nat))).
  - apply total_ext. intros nc _. rewrite total_tuples_prod. apply total_ext. intros xs Hx. rewrite <- (tuples_count elems (length pick)), <- total_const.
    apply total_ext. intros xs' Hx'. apply tuples_length in Hx. apply tuples_length in Hx'.
    apply total_ext. intros t _. apply total_ext. intros y _. apply total_ext. intros ss _. apply total_ext. intros u _. f_equal. unfold experiment_headers, experiment_client.
    destruct (generate_master_key _ _) as [mk| |]; try reflexivity. unfold client_listener. cbn [fst snd]. rewrite listens_real, combine_fst by lia. reflexivity.
  - rewrite total_swap, <- total_mul. apply total_ext. intros xs _. rewrite total_mul. f_equal. rewrite total_swap. apply total_ext. intros t _. rewrite total_swap. apply total_ext. intros y _.
    rewrite total_swap. apply total_ext. intros ss _. rewrite total_swap. reflexivity.
Qed.

Lemma total_apart w :
  answers_true_headers P size F shake pol len pick (client_listener S max start w) elems (client_coins coins nonces k) n false =
  answers_true_sealer S F shake (separated P size F pol max pick start) elems (separated_coins size elems coins (length pick) n) nonces (length pick) k w.
Proof.
  unfold answers_true_headers, answers_true_sealer, client_coins, separated_coins. rewrite !total_prod. apply total_ext. intros c _.
  set (T := fun a b t y ss u nc => bit (play_sealer S (map (key_from S F shake) a) w nc (separated P size F pol max pick start (c, (b, (t, (y, (ss, u)))))))).
  set (la := tuples elems (length pick)).
  transitivity (total (tuples nonces k) (fun nc => total la (fun a => total la (fun b => total (tuples elems size) (fun t => total elems (fun y =>
    total la (fun ss => total (tuples elems n) (fun u => T a b t y ss u nc)))))))).
  - apply total_ext. intros nc _. rewrite total_tuples_prod. apply total_ext. intros a Ha. apply total_ext. intros b Hb. apply tuples_length in Ha. apply tuples_length in Hb.
    apply total_ext. intros t _. apply total_ext. intros y _. apply total_ext. intros ss _. apply total_ext. intros u _. unfold T. f_equal. unfold experiment_headers, separated.
    destruct (generate_master_key _ _) as [mk| |]; try reflexivity. unfold client_listener. cbn [fst snd].
    rewrite (listens_apart mk w (start c (pub_key mk) (del_key mk)) pick (combine a b) ss nc [] [] [] [] [] u) by (apply start_sized || reflexivity || (intros i Hi; inversion Hi)).
    rewrite combine_fst, combine_snd by lia. reflexivity.
  - transitivity (total la (fun a => total la (fun b => total (tuples elems size) (fun t => total elems (fun y =>
      total la (fun ss => total (tuples elems n) (fun u => total (tuples nonces k) (fun nc => T a b t y ss u nc)))))))).
    { rewrite total_swap. apply total_ext. intros a _. rewrite total_swap. apply total_ext. intros b _. rewrite total_swap. apply total_ext. intros t _. rewrite total_swap. apply total_ext. intros y _.
      rewrite total_swap. apply total_ext. intros ss _. rewrite total_swap. reflexivity. }
    rewrite total_swap, !total_prod. apply total_ext. intros b _. rewrite total_swap, !total_prod. apply total_ext. intros t _. rewrite total_swap, !total_prod. apply total_ext. intros y _.
    rewrite total_swap, !total_prod. apply total_ext. intros ss _. rewrite total_swap. reflexivity.
Qed.
End Seal.

(** ** C113 *)
(** An attacker that chooses metadata and plaintexts in pairs and tells which of the two is in the headers and the
    blocks either solves the problem of C111, or tells it when the keys of the symmetric scheme are made from random
    elements that have nothing to do with the headers. *)
Theorem C113_hybrid (B : BilinearMap) (BL : BilinearLaws B) P size S F shake pol max ls gams {R} (start : R -> master_public_key B -> delegation_key B -> client B)
    (elems : list (bm_K B)) (coins : list R) (nonces : list (list byte)) (n k : nat) :
  NoDup elems -> (forall x : bm_K B, In x elems) -> ls <> [] -> Forall2 (fun l gam => attributes_values pol l = Ok gam) ls gams ->
  (forall b n, length (shake b n) = n) ->
  (forall c pub del, lawful_client P size S gams n [] (length ls) k (start c pub del)) ->
  exists i w i' w', (i < length ls)%nat /\ (i' < length ls)%nat /\
  let q := Z.of_nat (length elems) in
  let m := Z.of_nat (length ls) in
  let solved real i w := advantage elems (solver_coins size elems (one_coins gams i elems (speaker_coins elems (client_coins coins nonces k) (length ls))) n)
        (solve P (nth i gams []) (one_of P gams i (speaker F shake (key_length S) (client_listener S max start real))) w) in
  (q * (q - 1) * q ^ m *
     Z.abs (Z.of_nat (answers_true_client P size S F shake pol max ls start elems coins nonces n k true) -
            Z.of_nat (answers_true_client P size S F shake pol max ls start elems coins nonces n k false))
   <= 2 * m * solved true i w + 2 * m * solved false i' w' +
      q * (q - 1) *
      Z.abs (Z.of_nat (answers_true_sealer S F shake (separated P size F pol max ls start) elems (separated_coins size elems coins (length ls) n) nonces (length ls) k true) -
             Z.of_nat (answers_true_sealer S F shake (separated P size F pol max ls start) elems (separated_coins size elems coins (length ls) n) nonces (length ls) k false)))%Z.
Proof.
  intros Hnd Hall Hl Hg Hs Hlaw.
  assert (L : forall real x pub del, lawful_headers P size gams n [] (length ls) (client_listener S max start real x pub del)).
  { intros real x pub del. unfold client_listener. eapply listens_lawful. apply Hlaw. }
  destruct (C112_headers B BL P size F shake pol (key_length S) ls gams (client_listener S max start true) elems (client_coins coins nonces k) n Hnd Hall Hl Hg (L true)) as (i & w & Hi & H1).
  destruct (C112_headers B BL P size F shake pol (key_length S) ls gams (client_listener S max start false) elems (client_coins coins nonces k) n Hnd Hall Hl Hg (L false)) as (i' & w' & Hi' & H0).
  exists i, w, i', w'. split; [exact Hi|]. split; [exact Hi'|]. cbv zeta.
  rewrite !total_real, !total_apart in H1, H0 by (exact Hs || (intros; eapply lawful_sized; apply Hlaw)). rewrite Nat2Z.inj_mul, Nat2Z.inj_pow in H1, H0.
  set (a1 := Z.of_nat (answers_true_client _ _ _ _ _ _ _ _ _ _ _ _ _ _ true)) in *.
  set (a0 := Z.of_nat (answers_true_client _ _ _ _ _ _ _ _ _ _ _ _ _ _ false)) in *.
  set (b1 := Z.of_nat (answers_true_sealer _ _ _ _ _ _ _ _ _ true)) in *.
  set (b0 := Z.of_nat (answers_true_sealer _ _ _ _ _ _ _ _ _ false)) in *.
  match type of H1 with (_ <= ?r)%Z => set (s1 := r) in * end. match type of H0 with (_ <= ?r)%Z => set (s0 := r) in * end.
  set (c := (Z.of_nat (length elems) ^ Z.of_nat (length ls))%Z) in *.
  assert (Hq : (0 <= Z.of_nat (length elems) * (Z.of_nat (length elems) - 1))%Z) by nia.
  assert (Hc : (0 <= c)%Z) by (apply Z.pow_nonneg; lia).
  set (d := (Z.of_nat (length elems) * (Z.of_nat (length elems) - 1))%Z) in *.
  rewrite <- Z.mul_assoc. rewrite <- (Z.abs_eq c Hc) at 1. rewrite <- Z.abs_mul.
  assert (T : (Z.abs (c * (a1 - a0)) <= Z.abs (c * a1 - b1) + Z.abs (c * a0 - b0) + Z.abs (b1 - b0))%Z) by lia.
  apply (Z.mul_le_mono_nonneg_l _ _ d Hq) in T. eapply Z.le_trans; [exact T|]. rewrite !Z.mul_add_distr_l. lia.
Qed.
Print Assumptions C113_hybrid.

(** The attacker left obeys the rules of the experiment with the symmetric scheme. *)
Theorem C113_fair (B : BilinearMap) P size S F pol max ls gams {R} (start : R -> master_public_key B -> delegation_key B -> client B) n k m :
  (forall c pub del, lawful_client P size S gams n [] m k (start c pub del)) ->
  forall x, lawful_sealer S k (separated P size F pol max ls start x).
Proof.
  intros H (c & xs & t & y & ss & u). unfold separated. destruct (generate_master_key _ _) as [mk| |]; try exact I. eapply separate_lawful. apply H.
Qed.
Print Assumptions C113_fair.

(** ** Example *)
(** A symmetric scheme that adds the first byte of its key, modulo 3, to every byte, and one header with metadata and
    one block. The attacker computes the element in the header (logarithms are known in [toy3]) and with it the symmetric
    key. It is always right, and it learns nothing when the keys have nothing to do with the headers. *)
Definition pad3 (k m : list byte) : list byte := map (fun b => byte_of ((Byte.to_N b + match k with x :: _ => Byte.to_N x | [] => 0 end) mod 3)) m.
Definition pad_sym : sym_scheme := mkSym 2 1 1 (fun k m _ _ => Ok (pad3 k m)) (fun k c _ _ => Ok c)
  (fun k u i n m => Ok (n ++ pad3 k m)) (fun _ _ _ c => Ok c) (fun m => Ok (uid m)) (fun b => Ok (mkMeta b None)).
Definition c113_client (_ : unit) (pub : master_public_key toy3) (del : delegation_key toy3) : client toy3 :=
  @GetKey toy3 (Generated (Leaf 0)) (fun _ => @GetHeader toy3 (Some (mkMeta [x00] None)) (Some (mkMeta [x01] None)) (fun h =>
    @GetBlock toy3 0 [x05] 0 [x00; x00] [x01; x01] (fun b =>
    Answer (match h, b, pub_t pub with
            | Ok h, Ok b, _ :: t :: _ =>
                match ct_dec toy3_forms pf (skipn 4 (firstn (length h - 6) h)) with
                | Ok ct => match e_i ct with
                           | e :: _ => match enc (gt_codec toy3_forms) (@fsub toy3 (e_prime ct) (@fmul toy3 (pub_y pub) (@fmul toy3 e (@finv toy3 t)))) with
                                       | Ok bytes => if list_eq_dec Byte.byte_eq_dec (pad3 (toy_shake bytes 2) [x01; x01]) (skipn 1 b) then true else false
                                       | _ => false
                                       end
                           | [] => false
                           end
                | _ => false
                end
            | _, _, _ => false
            end)))).
Example C113_example :
  attributes_values pol_a [level "Protected"] = Ok [1%N] /\
  (forall x pub del, lawful_client pf 2 pad_sym [[1%N]] 0 [] 1 2 (c113_client x pub del)) /\
  answers_true_client pf 2 pad_sym toy3_forms toy_shake pol_a 100 [[level "Protected"]] c113_client all3 [Datatypes.tt] [[x07]] 0 2 true = 108%nat /\
  answers_true_client pf 2 pad_sym toy3_forms toy_shake pol_a 100 [[level "Protected"]] c113_client all3 [Datatypes.tt] [[x07]] 0 2 false = 0%nat /\
  answers_true_sealer pad_sym toy3_forms toy_shake (separated pf 2 toy3_forms pol_a 100 [[level "Protected"]] c113_client) all3
    (separated_coins 2 all3 [Datatypes.tt] 1 0) [[x07]] 1 2 true = 108%nat /\
  answers_true_sealer pad_sym toy3_forms toy_shake (separated pf 2 toy3_forms pol_a 100 [[level "Protected"]] c113_client) all3
    (separated_coins 2 all3 [Datatypes.tt] 1 0) [[x07]] 1 2 false = 108%nat.
Proof.
  split; [vm_compute; reflexivity|]. split; [|split; [|split; [|split]]].
  - intros x pub del. cbn. split; [exact I|]. intros f Hf. assert (f = Leaf 0) by congruence. subst f. split; [|split; [cbn; lia|]].
    + intros gam [<-|[]] [H|[]]. discriminate.
    + intros r. split; [exists [x00], [x01]; repeat split|]. intros r'. split; [reflexivity|]. intros r''. exact I.
  - vm_compute. reflexivity.
  - vm_compute. reflexivity.
  - vm_compute. reflexivity.
  - vm_compute. reflexivity.
Qed.

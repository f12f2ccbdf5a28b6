(** Theorems about the C interface, continued: blocks (C70) and rotations (C71). *)
From Coq Require Import String NArith ZArith Bool Lia Strings.Byte List.
From Verif Require Import Prelude Field LinAlg Msp Spec Bilinear Scheme SchemeSpec SchemeTheorems Zp ExpModel PropertiesScheme
  Codec CodecProofs SchemeCodec SchemeCodecProofs PropertiesCodec
  Policy PolicySpec PolicyProofs Engine EngineSpec PropertiesEngine Hybrid HybridSpec PropertiesHybrid Ffi FfiSpec PropertiesFfi.
Import ListNotations.
Local Open Scope N_scope.

Lemma as_usize_negative P z : 32 <= usize_bits P -> (-2147483648 <= z < 0)%Z -> as_usize P z = usize_modulus P - Z.to_N (- z).
Proof.
  intros HP H. assert (Hm : 4294967296 <= usize_modulus P).
  { unfold usize_modulus. change 4294967296 with (2 ^ 32). apply N.pow_le_mono_r; lia. }
  unfold as_usize. rewrite <- (Z_mod_plus_full z 1 (Z.of_N (usize_modulus P))). rewrite Z.mod_small by lia. lia.
Qed.

(** The block number of the core library that a C caller names: negative numbers
    are the last ones. *)
Definition names_block (P : platform) (z : Z) (n : N) : Prop :=
  if (0 <=? z)%Z then n = Z.to_N z else (Z.of_N n = 2 ^ Z.of_N (usize_bits P) + z)%Z.
Lemma names_usize P z : 32 <= usize_bits P -> i32_range z -> names_block P z (as_usize P z).
Proof.
  intros HP H. unfold i32_range, i32_min, i32_max in H. unfold names_block. destruct (Z.leb_spec 0 z).
  - apply as_usize_exact; [exact HP|lia].
  - rewrite as_usize_negative by (try exact HP; lia).
    assert (Hm : 4294967296 <= usize_modulus P).
    { unfold usize_modulus. change 4294967296 with (2 ^ 32). apply N.pow_le_mono_r; lia. }
    assert (Q : Z.of_N (usize_modulus P) = (2 ^ Z.of_N (usize_bits P))%Z) by (unfold usize_modulus; apply N2Z.inj_pow).
    lia.
Qed.
Lemma names_unique P z n n' : names_block P z n -> names_block P z n' -> n = n'.
Proof. unfold names_block. destruct (0 <=? z)%Z; lia. Qed.

(** A null uid is the empty uid. *)
Definition uid_given (u : option (list byte)) : list byte := match u with Some b => b | None => [] end.

Section Blocks.
Variable P : platform.
Hypothesis HP : 32 <= usize_bits P.
Variable S : sym_scheme.
Variable metas : metadata -> Prop.
Hypothesis SL : sym_laws S metas.
Local Notation encrypt_block := (h_aes_encrypt_block P S).
Local Notation decrypt_block := (h_aes_decrypt_block P S).

Lemma deliver_late_go d o u o' : good_out o -> deliver_late P 0 d [o] = Go u [o'] -> delivered d o o'.
Proof using HP.
  intros (len & El & Hl & Hm) H. destruct (o_mem o) as [mem|] eqn:Em.
  2:{ unfold deliver_late in H. cbn [nth_error] in H. destruct o; cbn in *. subst. discriminate. }
  specialize (Hm _ eq_refl). destruct (deliver_late_cases P HP 0 d [o] o mem len eq_refl Em El Hl Hm) as [[Hr Q]|[_ Q]]; rewrite Q in H; [|discriminate].
  cbn [set_out] in H. assert (o' = mkOut (Some (d ++ skipn (length d) mem)) (Some (Z.of_N (blen d)))) by congruence. subst o'.
  exists mem. unfold blen in *. cbn [o_mem o_len]. split; [exact Em|]. split; [reflexivity|]. split; [lia|f_equal; lia].
Qed.

Lemma encrypt_block_inv key u number data nonce o o' : good_out o -> i32_range number ->
  encrypt_block key u number data nonce [o] = Go tt [o'] ->
  exists k m n, key = Some k /\ data = Some m /\ length k = key_length S /\ k <> [] /\ m <> [] /\ names_block P number n /\
    encrypt_hybrid_block S 1073741824 k (uid_given u) n nonce m = Ok (read_out o').
Proof using HP.
  intros G Hz E. apply then_go in E as (? & o1 & E1 & E). apply check_go in E1 as [-> _].
  apply then_go in E as (k & o1 & E1 & E). apply input_go_inv in E1 as (-> & Hk & ->).
  apply then_go in E as (m & o1 & E1 & E). apply input_go_inv in E1 as (-> & Hm & ->).
  apply then_go in E as (k' & o1 & E1 & E). apply unwrap_go in E1 as (E1 & ->). apply array_from_inv in E1 as [-> Lk].
  apply then_go in E as (c & o1 & E1 & E). apply unwrap_go in E1 as (E1 & ->).
  apply (deliver_late_go _ _ _ _ G) in E. rewrite (delivered_read _ _ _ E).
  exists k, m, (as_usize P number). split; [reflexivity|]. split; [reflexivity|]. split; [exact Lk|]. split; [exact Hk|]. split; [exact Hm|].
  split; [apply names_usize; assumption|]. exact E1.
Qed.

(** ** C70 *)
(** What was encrypted as block [number] of [u] is recovered, in any large enough
    buffer, when the same key, uid and number are given. *)
Theorem C70_block_roundtrip key u u' number data nonce oe oe' od :
  i32_range number -> length nonce = nonce_length S ->
  good_out oe -> encrypt_block key u number data nonce [oe] = Go tt [oe'] ->
  uid_given u' = uid_given u -> offered od ->
  exists m, data = Some m /\ blen (read_out oe') = blen m + overhead S /\
    (room m od -> exists od', decrypt_block key u' number (Some (read_out oe')) [od] = Go tt [od'] /\ delivered m od od') /\
    (too_small m od -> exists e, decrypt_block key u' number (Some (read_out oe')) [od] = Bail e [od]).
Proof using HP SL.
  intros Hz Ln G E Hu (len & Ho & Hl1). destruct (encrypt_block_inv _ _ _ _ _ _ _ G Hz E) as (k & m & n & -> & -> & Lk & Hk & Hm & Hn & Ec).
  exists m. split; [reflexivity|].
  destruct (C49_block_roundtrip S metas SL 1073741824 k (uid_given u) n nonce m (read_out oe') Lk Ln Ec) as (Ed & Eo & _ & _).
  split; [exact Eo|].
  assert (Hc : read_out oe' <> []) by (exact (block_not_empty S metas SL _ _ _ _ _ _ _ Lk Ln Ec)).
  assert (Q : n = as_usize P number) by (eapply names_unique; [exact Hn|apply names_usize; assumption]). subst n.
  destruct Ho as (Gd & Hmem & El). destruct (o_mem od) as [mem|] eqn:Em; [|contradiction].
  destruct (C54_decrypt_block_refuted P HP S k u' number (read_out oe') m Lk Hk Hc) with (o := od) (mem := mem) (len := len) as [R1 R2]; try assumption.
  { change (optional_bytes u') with (uid_given u'). rewrite Hu. exact Ed. }
  split; intros (len' & El' & Hr); assert (len' = len) by congruence; subst len'; [apply R1|apply R2]; exact Hr.
Qed.

(** The C functions add nothing to and hide nothing from the core functions: the key,
    the uid and the number reach them unchanged; a refusal of the external scheme
    (wrong key, uid, number, or altered bytes) is reported and leaves the output alone. *)
Theorem C70_refused_block key u number data n o : i32_range number -> names_block P number n -> len_given o ->
  (forall c, length key = key_length S -> decrypt_hybrid_block S 1073741824 key (uid_given u) n data <> Ok c) ->
  (forall p, decrypt_hybrid_block S 1073741824 key (uid_given u) n data <> Panic p) ->
  exists e, decrypt_block (Some key) u number (Some data) [o] = Bail e [o].
Proof using HP.
  intros Hz Hn Hl Hr Hp. assert (Q : n = as_usize P number) by (eapply names_unique; [exact Hn|apply names_usize; assumption]). subst n.
  unfold h_aes_decrypt_block. rewrite then_assoc_check. destruct (check_outs 0 "clear text bytes" [o] o eq_refl Hl) as [[? ->]|[-> _]]; [eexists; reflexivity|].
  match goal with |- exists e, andthen (input_bytes ?x ?w) ?k ?o = _ => destruct (input_or x w k o) as [(? & Q & ->)|[? ->]]; [|eexists; reflexivity] end.
  match goal with |- exists e, andthen (input_bytes ?x ?w) ?k ?o = _ => destruct (input_or x w k o) as [(? & Q' & ->)|[? ->]]; [|eexists; reflexivity] end.
  assert (x = key) by congruence. assert (x0 = data) by congruence. subst x x0.
  unfold array_from. destruct (Nat.eqb_spec (length key) (key_length S)) as [Lk|Lk]; [|eexists; reflexivity].
  unfold andthen, unwrap. change (optional_bytes u) with (uid_given u). unfold max_clear_text.
  destruct (decrypt_hybrid_block S 1073741824 key (uid_given u) (as_usize P number) data) as [c|e|p] eqn:Ed;
    [exfalso; exact (Hr c Lk eq_refl)|eexists; reflexivity|exfalso; exact (Hp p eq_refl)].
Qed.
(** Different numbers name different blocks. *)
Theorem C70_block_numbers z z' n : i32_range z -> i32_range z' -> names_block P z n -> names_block P z' n -> z = z'.
Proof using HP.
  intros H H' E E'. unfold i32_range, i32_min, i32_max in *. unfold names_block in *.
  assert (Q : (2 ^ 32 <= 2 ^ Z.of_N (usize_bits P))%Z) by (apply Z.pow_le_mono_r; lia).
  destruct (Z.leb_spec 0 z), (Z.leb_spec 0 z'); lia.
Qed.
End Blocks.

Section Rotation.
Variable P : platform.
Hypothesis HP : 32 <= usize_bits P.
Variable policy_from : list byte -> outcome policy.
Variable attributes_from : list byte -> outcome (list attribute).
Variable policy_text : policy -> list byte.
Local Notation rotate_attributes := (h_rotate_attributes P policy_from attributes_from policy_text).

Lemma rotate_no_panic p a q : rotate p a <> Panic q.
Proof. unfold rotate. destruct (_ =? _); [discriminate|]. destruct (heap_get p a); discriminate. Qed.
Lemma rotate_all_ops l : forall p, rotate_all p l = run_ops (map Rotate l) p.
Proof. induction l as [|a l IH]; intros p; [reflexivity|]. cbn [rotate_all map run_ops apply_op]. unfold bind. destruct (rotate p a); [apply IH|reflexivity|reflexivity]. Qed.
Lemma rotate_all_no_panic l : forall p q, rotate_all p l <> Panic q.
Proof.
  induction l as [|a l IH]; intros p q; [discriminate|]. cbn [rotate_all]. unfold bind. pose proof (rotate_no_panic p a) as Hp.
  destruct (rotate p a) as [p'|e|p']; [apply IH|discriminate|exfalso; exact (Hp _ eq_refl)].
Qed.
Lemma run_ops_app ops1 ops2 p : run_ops (ops1 ++ ops2) p = (let* p := run_ops ops1 p in run_ops ops2 p).
Proof.
  revert p; induction ops1 as [|o ops1 IH]; intros p; [reflexivity|]. cbn [app run_ops]. unfold bind at 1 2.
  destruct (apply_op p o); [rewrite IH; reflexivity|reflexivity|reflexivity].
Qed.

(** ** C71 *)
(** The text delivered is the one of the policy with the rotations of the listed
    attributes, in their order, added to its history. *)
Theorem C71_rotation_history attrs l pol p n ops o o' :
  attributes_from attrs = Ok l -> policy_from pol = Ok p -> run_ops ops (new_policy n) = Ok p ->
  good_out o -> rotate_attributes (Some attrs) (Some pol) [o] = Go tt [o'] ->
  exists p', run_ops (ops ++ map Rotate l) (new_policy n) = Ok p' /\ read_out o' = policy_text p'.
Proof using HP.
  intros El Ep Hp G E. apply then_go in E as (? & o1 & E1 & E). apply check_go in E1 as [-> _].
  apply then_go in E as (a1 & o1 & E1 & E). apply null_go in E1 as [Q1 ->].
  apply then_go in E as (a2 & o1 & E1 & E). apply null_go in E1 as [Q2 ->].
  apply then_go in E as (l' & o1 & E1 & E). apply unwrap_go in E1 as [E1 ->].
  apply then_go in E as (p1 & o1 & E2 & E). apply unwrap_go in E2 as [E2 ->].
  apply then_go in E as (p' & o1 & E3 & E). apply unwrap_go in E3 as [E3 ->].
  assert (a1 = attrs) by congruence. assert (a2 = pol) by congruence. subst a1 a2.
  assert (l' = l) by congruence. assert (p1 = p) by congruence. subst l' p1.
  exists p'. split; [rewrite run_ops_app, Hp; cbn [bind]; rewrite <- rotate_all_ops; exact E3|].
  apply (deliver_go P HP 0 _ [o] tt [o'] o eq_refl G) in E as (o2 & Eo & D & _). cbn [set_out] in Eo.
  assert (o' = o2) by congruence. subst o2. apply (delivered_read _ _ _ D).
Qed.

(** If one of the rotations is impossible (unknown attribute, no value left), 1 is
    returned and no policy is delivered, not even a partly rotated one. *)
Theorem C71_impossible_rotation attrs l pol p n ops o :
  attributes_from attrs = Ok l -> policy_from pol = Ok p -> run_ops ops (new_policy n) = Ok p -> len_given o ->
  (forall p', run_ops (ops ++ map Rotate l) (new_policy n) <> Ok p') ->
  exists e, rotate_attributes (Some attrs) (Some pol) [o] = Bail e [o].
Proof using Type.
  intros El Ep Hp Hl Hr. unfold h_rotate_attributes. rewrite then_assoc_check.
  destruct (check_outs 0 "new policy" [o] o eq_refl Hl) as [[? ->]|[-> _]]; [eexists; reflexivity|].
  unfold andthen. cbn [not_null]. unfold ret, unwrap. rewrite El, Ep.
  destruct (rotate_all p l) as [p'|e|q] eqn:E; [|eexists; reflexivity|exfalso; exact (rotate_all_no_panic _ _ _ E)].
  exfalso. apply (Hr p'). rewrite run_ops_app, Hp. cbn [bind]. rewrite <- rotate_all_ops. exact E.
Qed.
(** an attribute that the policy does not have *)
Theorem C71_unknown_attribute attrs l pol p n ops o a :
  attributes_from attrs = Ok l -> policy_from pol = Ok p -> run_ops ops (new_policy n) = Ok p -> len_given o ->
  In a l -> ~ declared ops a -> exists e, rotate_attributes (Some attrs) (Some pol) [o] = Bail e [o].
Proof using Type.
  intros El Ep Hp Hl Ha Hd. apply (C71_impossible_rotation attrs l pol p n ops o El Ep Hp Hl).
  intros p' E. apply in_split in Ha as (l1 & l2 & ->). rewrite map_app, app_assoc in E. cbn [map] in E.
  rewrite run_ops_app in E. apply bind_ok in E as (q & Eq & E). cbn [run_ops] in E. apply bind_ok in E as (q' & E & _).
  cbn [apply_op] in E. apply rotate_inv in E as (h & Hh & _).
  assert (D : declared (ops ++ map Rotate l1) a).
  { pose proof (inv_run _ [] _ _ (inv_new n) Eq) as I. apply (i_decl _ _ I). exists h. exact Hh. }
  apply Hd. destruct D as (names & hi & D & Dn). exists names, hi. split; [|exact Dn].
  apply in_app_or in D as [D|D]; [exact D|]. apply in_map_iff in D as (x & Q & _). discriminate.
Qed.
End Rotation.

(** ** Examples *)
(** block -1 of a resource, a null uid read back with an empty one; another number is refused *)
Definition c_block (number : Z) : list byte :=
  read_out (out_n 0 (h_aes_encrypt_block pf toy_sym (Some (repeat x05 32)) None number (Some [x01; x02]) ex_nonce [room_for 40])).
Example C70_example :
  code (h_aes_encrypt_block pf toy_sym (Some (repeat x05 32)) None (-1) (Some [x01; x02]) ex_nonce [room_for 40]) = Some 0%Z /\
  map read_out (outs_of (h_aes_decrypt_block pf toy_sym (Some (repeat x05 32)) (Some []) (-1) (Some (c_block (-1))) [room_for 2])) = [[x01; x02]] /\
  h_aes_decrypt_block pf toy_sym (Some (repeat x05 32)) None 3 (Some (c_block 4)) [room_for 2] = Bail (Wrapped CryptoError) [room_for 2] /\
  names_block pf (-1) 18446744073709551615.
Proof. repeat split; reflexivity. Qed.

(** the text of a policy is its number of values, for the example *)
Definition c_text (p : policy) : list byte := be32 (last_attribute_value p).
Definition c_rot (b : list byte) : outcome (list attribute) :=
  match b with [x01] => Ok [dept "HR"; dept "HR"; level "Protected"] | [x02] => Ok [dept "HR"; dept "Unknown"] | _ => Err Utf8Error end.
Example C71_example :
  map read_out (outs_of (h_rotate_attributes pf c_policy c_rot c_text (Some [x01]) (Some [x01]) [room_for 10]))
    = [be32 (last_attribute_value pol_a + 3)] /\
  h_rotate_attributes pf c_policy c_rot c_text (Some [x02]) (Some [x01]) [room_for 10]
    = Bail (Wrapped (PolicyError PolicyAttributeNotFound)) [room_for 10].
Proof. repeat split; reflexivity. Qed.

Print Assumptions C70_block_roundtrip.
Print Assumptions C70_refused_block.
Print Assumptions C70_block_numbers.
Print Assumptions C71_rotation_history.
Print Assumptions C71_impossible_rotation.
Print Assumptions C71_unknown_attribute.

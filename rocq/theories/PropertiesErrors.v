(** Errors of the C interface: C91 and C92. *)
From Coq Require Import String NArith ZArith Bool Lia Strings.Byte List.
From Verif Require Import Prelude Codec Ffi PropertiesFfi FfiErrors.
Import ListNotations.
Local Open Scope N_scope.

(** ** Arithmetic of strings *)
Lemma c_str_app m rest : ~ In x00 m -> c_str (m ++ x00 :: rest) = Some m.
Proof.
  induction m as [|x t IH]; intros H; [reflexivity|]. cbn [app c_str].
  destruct (Byte.eqb x x00) eqn:E; [apply Byte.byte_dec_bl in E; exfalso; apply H; left; exact E|].
  rewrite IH by (intros Q; apply H; right; exact Q). reflexivity.
Qed.

(** a valid text stays valid in front of a valid text *)
Lemma utf8_app a : forall b, utf8 a = true -> utf8 (a ++ b) = utf8 b.
Proof.
  assert (G : forall n a, (length a <= n)%nat -> forall b, utf8 a = true -> utf8 (a ++ b) = utf8 b).
  { clear a. induction n as [|n IH]; intros a Hn b H; [destruct a; [reflexivity|simpl in Hn; lia]|].
    destruct a as [|x t]; [reflexivity|]. cbn [length] in Hn. cbn [utf8] in H. cbn [app utf8].
    destruct (between 0 127 x); [apply IH; [lia|exact H]|].
    destruct t as [|y t]; [discriminate|]. cbn [length] in Hn. cbn [app].
    destruct (between 194 223 x).
    { apply andb_true_iff in H as [-> H]. cbn [andb]. apply IH; [lia|exact H]. }
    destruct t as [|z t]; [discriminate|]. cbn [length] in Hn. cbn [app].
    destruct (between 224 224 x).
    { apply andb_true_iff in H as [H0 H]. rewrite H0. cbn [andb]. apply IH; [lia|exact H]. }
    destruct (between 225 236 x || between 238 239 x).
    { apply andb_true_iff in H as [H0 H]. rewrite H0. cbn [andb]. apply IH; [lia|exact H]. }
    destruct (between 237 237 x).
    { apply andb_true_iff in H as [H0 H]. rewrite H0. cbn [andb]. apply IH; [lia|exact H]. }
    destruct t as [|w t]; [discriminate|]. cbn [length] in Hn. cbn [app].
    destruct (between 240 240 x).
    { apply andb_true_iff in H as [H0 H]. rewrite H0. cbn [andb]. apply IH; [lia|exact H]. }
    destruct (between 241 243 x).
    { apply andb_true_iff in H as [H0 H]. rewrite H0. cbn [andb]. apply IH; [lia|exact H]. }
    destruct (between 244 244 x); [|discriminate].
    apply andb_true_iff in H as [H0 H]. rewrite H0. cbn [andb]. apply IH; [lia|exact H]. }
  exact (G (length a) a (le_n _)).
Qed.

(** ** What a text is *)
(** The characters of Unicode, and the bytes of a character in UTF-8. *)
Definition character (c : N) : Prop := c < 55296 \/ 57344 <= c < 1114112.
Definition encoding (c : N) : list N :=
  if c <? 128 then [c]
  else if c <? 2048 then [192 + c / 64; 128 + c mod 64]
  else if c <? 65536 then [224 + c / 4096; 128 + c / 64 mod 64; 128 + c mod 64]
  else [240 + c / 262144; 128 + c / 4096 mod 64; 128 + c / 64 mod 64; 128 + c mod 64].

Ltac Zify.zify_post_hook ::= Z.to_euclidean_division_equations.
Lemma between_true lo hi x : between lo hi x = true -> lo <= Byte.to_N x <= hi.
Proof. unfold between. intros H. apply andb_true_iff in H as [H1 H2]. apply N.leb_le in H1, H2. split; assumption. Qed.
Lemma between_false lo hi x : between lo hi x = false -> Byte.to_N x < lo \/ hi < Byte.to_N x.
Proof. unfold between. intros H. apply andb_false_iff in H as [H|H]; apply N.leb_gt in H; [left|right]; exact H. Qed.

Lemma one_byte x : x < 128 -> encoding x = [x].
Proof. intros H. unfold encoding. destruct (N.ltb_spec x 128); [reflexivity|lia]. Qed.
Lemma two_bytes x y : 194 <= x <= 223 -> 128 <= y <= 191 -> exists c, character c /\ encoding c = [x; y].
Proof.
  intros Hx Hy. exists ((x - 192) * 64 + (y - 128)). split; [left; lia|]. unfold encoding.
  destruct (N.ltb_spec ((x - 192) * 64 + (y - 128)) 128); [lia|]. destruct (N.ltb_spec ((x - 192) * 64 + (y - 128)) 2048); [|lia].
  f_equal; [lia|f_equal; lia].
Qed.
Lemma three_bytes x y z : 224 <= x <= 239 -> 128 <= y <= 191 -> 128 <= z <= 191 -> (x = 224 -> 160 <= y) -> (x = 237 -> y <= 159) ->
  exists c, character c /\ encoding c = [x; y; z].
Proof.
  intros Hx Hy Hz H1 H2. exists ((x - 224) * 4096 + (y - 128) * 64 + (z - 128)). set (c := (x - 224) * 4096 + (y - 128) * 64 + (z - 128)).
  assert (Hc : c = (x - 224) * 4096 + (y - 128) * 64 + (z - 128)) by reflexivity. clearbody c.
  split; [unfold character; lia|]. unfold encoding.
  destruct (N.ltb_spec c 128); [lia|]. destruct (N.ltb_spec c 2048); [lia|]. destruct (N.ltb_spec c 65536); [|lia].
  f_equal; [lia|f_equal; [lia|f_equal; lia]].
Qed.
Lemma four_bytes x y z w : 240 <= x <= 244 -> 128 <= y <= 191 -> 128 <= z <= 191 -> 128 <= w <= 191 -> (x = 240 -> 144 <= y) -> (x = 244 -> y <= 143) ->
  exists c, character c /\ encoding c = [x; y; z; w].
Proof.
  intros Hx Hy Hz Hw H1 H2. set (c := (x - 240) * 262144 + (y - 128) * 4096 + (z - 128) * 64 + (w - 128)). exists c.
  assert (Hc : c = (x - 240) * 262144 + (y - 128) * 4096 + (z - 128) * 64 + (w - 128)) by reflexivity. clearbody c.
  split; [unfold character; lia|]. unfold encoding.
  destruct (N.ltb_spec c 128); [lia|]. destruct (N.ltb_spec c 2048); [lia|]. destruct (N.ltb_spec c 65536); [lia|].
  f_equal; [lia|f_equal; [lia|f_equal; [lia|f_equal; lia]]].
Qed.

Lemma between_is lo hi x : between lo hi x = (lo <=? Byte.to_N x) && (Byte.to_N x <=? hi).
Proof. reflexivity. Qed.
Lemma encoding_utf8 c b : character c -> map Byte.to_N b = encoding c -> utf8 b = true.
Proof.
  intros Hc E. unfold encoding in E. unfold character in Hc.
  destruct (N.ltb_spec c 128) as [L1|L1]; [|destruct (N.ltb_spec c 2048) as [L2|L2]; [|destruct (N.ltb_spec c 65536) as [L3|L3]]].
  - destruct b as [|x [|? ?]]; cbn [map] in E; try discriminate. assert (Ex : Byte.to_N x = c) by congruence. cbn [utf8]. rewrite between_is, Ex.
    destruct (N.leb_spec 0 c); [|lia]. destruct (N.leb_spec c 127); [reflexivity|lia].
  - destruct b as [|x [|y [|? ?]]]; cbn [map] in E; try discriminate.
    assert (Ex : Byte.to_N x = 192 + c / 64) by congruence. assert (Ey : Byte.to_N y = 128 + c mod 64) by congruence. clear E.
    cbn [utf8]. unfold cont. rewrite !between_is. destruct (N.leb_spec (Byte.to_N x) 127); [lia|]. rewrite andb_false_r.
    destruct (N.leb_spec 194 (Byte.to_N x)); [|lia]. destruct (N.leb_spec (Byte.to_N x) 223); [|lia].
    destruct (N.leb_spec 128 (Byte.to_N y)); [|lia]. destruct (N.leb_spec (Byte.to_N y) 191); [|lia]. reflexivity.
  - destruct b as [|x [|y [|z [|? ?]]]]; cbn [map] in E; try discriminate.
    assert (Ex : Byte.to_N x = 224 + c / 4096) by congruence. assert (Ey : Byte.to_N y = 128 + c / 64 mod 64) by congruence. assert (Ez : Byte.to_N z = 128 + c mod 64) by congruence. clear E.
    cbn [utf8]. unfold cont. rewrite !between_is.
    destruct (N.leb_spec (Byte.to_N x) 127); [lia|]. rewrite andb_false_r. destruct (N.leb_spec (Byte.to_N x) 223); [lia|]. rewrite andb_false_r.
    destruct (N.leb_spec 128 (Byte.to_N z)); [|lia]. destruct (N.leb_spec (Byte.to_N z) 191); [|lia].
    destruct (N.leb_spec 128 (Byte.to_N y)); [|lia]. destruct (N.leb_spec (Byte.to_N y) 191); [|lia].
    destruct (N.leb_spec 224 (Byte.to_N x)); [|lia].
    destruct (N.leb_spec (Byte.to_N x) 224); cbn [andb]; [destruct (N.leb_spec 160 (Byte.to_N y)); [reflexivity|lia]|].
    destruct (N.leb_spec 225 (Byte.to_N x)); [|lia].
    destruct (N.leb_spec (Byte.to_N x) 236); cbn [andb orb]; [reflexivity|].
    destruct (N.leb_spec (Byte.to_N x) 239); [|lia]. rewrite andb_true_r.
    destruct (N.leb_spec 238 (Byte.to_N x)); cbn [andb orb]; [reflexivity|].
    destruct (N.leb_spec 237 (Byte.to_N x)); [|lia]. destruct (N.leb_spec (Byte.to_N x) 237); [|lia]. cbn [andb].
    destruct (N.leb_spec (Byte.to_N y) 159); [reflexivity|lia].
  - destruct b as [|x [|y [|z [|w [|? ?]]]]]; cbn [map] in E; try discriminate.
    assert (Ex : Byte.to_N x = 240 + c / 262144) by congruence. assert (Ey : Byte.to_N y = 128 + c / 4096 mod 64) by congruence. assert (Ez : Byte.to_N z = 128 + c / 64 mod 64) by congruence.
    assert (Ew : Byte.to_N w = 128 + c mod 64) by congruence. clear E.
    cbn [utf8]. unfold cont. rewrite !between_is.
    destruct (N.leb_spec (Byte.to_N x) 127); [lia|]. rewrite andb_false_r. destruct (N.leb_spec (Byte.to_N x) 223); [lia|]. rewrite andb_false_r.
    destruct (N.leb_spec (Byte.to_N x) 224); [lia|]. rewrite andb_false_r. destruct (N.leb_spec (Byte.to_N x) 236); [lia|]. rewrite andb_false_r.
    destruct (N.leb_spec (Byte.to_N x) 239); [lia|]. rewrite andb_false_r. destruct (N.leb_spec (Byte.to_N x) 237); [lia|]. rewrite andb_false_r. cbn [orb].
    destruct (N.leb_spec 128 (Byte.to_N z)); [|lia]. destruct (N.leb_spec (Byte.to_N z) 191); [|lia].
    destruct (N.leb_spec 128 (Byte.to_N y)); [|lia]. destruct (N.leb_spec (Byte.to_N y) 191); [|lia].
    destruct (N.leb_spec 128 (Byte.to_N w)); [|lia]. destruct (N.leb_spec (Byte.to_N w) 191); [|lia].
    destruct (N.leb_spec 240 (Byte.to_N x)); [|lia].
    destruct (N.leb_spec (Byte.to_N x) 240); cbn [andb]; [destruct (N.leb_spec 144 (Byte.to_N y)); [reflexivity|lia]|].
    destruct (N.leb_spec 241 (Byte.to_N x)); [|lia].
    destruct (N.leb_spec (Byte.to_N x) 243); cbn [andb]; [reflexivity|].
    destruct (N.leb_spec 244 (Byte.to_N x)); [|lia]. destruct (N.leb_spec (Byte.to_N x) 244); [|lia]. cbn [andb].
    destruct (N.leb_spec (Byte.to_N y) 143); [reflexivity|lia].
Qed.

(** The bytes accepted as a text are those of a list of characters. *)
Theorem C91_texts b : utf8 b = true <-> exists cs, (forall c, In c cs -> character c) /\ map Byte.to_N b = flat_map encoding cs.
Proof.
  split.
  - assert (G : forall n b, (length b <= n)%nat -> utf8 b = true -> exists cs, (forall c, In c cs -> character c) /\ map Byte.to_N b = flat_map encoding cs); [|exact (G (length b) b (le_n _))].
    clear b. induction n as [|n IH]; intros b Hn H; [destruct b; [exists []; split; [intros c []|reflexivity]|simpl in Hn; lia]|].
    assert (K : forall c b1 b2, character c -> map Byte.to_N b1 = encoding c -> (length b2 <= n)%nat -> utf8 b2 = true -> b = b1 ++ b2 ->
      exists cs, (forall c, In c cs -> character c) /\ map Byte.to_N b = flat_map encoding cs).
    { intros c b1 b2 Hc Eb1 L U ->. destruct (IH b2 L U) as (cs & C1 & C2). exists (c :: cs). split; [intros c' [<-|Hc']; [exact Hc|exact (C1 c' Hc')]|].
      rewrite map_app, Eb1, C2. reflexivity. }
    destruct b as [|x t]; [exists []; split; [intros c []|reflexivity]|]. cbn [length] in Hn. cbn [utf8] in H.
    destruct (between 0 127 x) eqn:B0.
    { apply between_true in B0. apply (K (Byte.to_N x) [x] t); [left; lia|symmetry; apply one_byte; lia|lia|exact H|reflexivity]. }
    destruct t as [|y t]; [discriminate|]. cbn [length] in Hn.
    destruct (between 194 223 x) eqn:B1.
    { apply andb_true_iff in H as [H1 H]. apply between_true in B1, H1. destruct (two_bytes _ _ B1 H1) as (c & C1 & C2). apply (K c [x; y] t); [exact C1|symmetry; exact C2|lia|exact H|reflexivity]. }
    destruct t as [|z t]; [discriminate|]. cbn [length] in Hn.
    assert (K3 : 224 <= Byte.to_N x <= 239 -> 128 <= Byte.to_N y <= 191 -> between 128 191 z = true -> (Byte.to_N x = 224 -> 160 <= Byte.to_N y) -> (Byte.to_N x = 237 -> Byte.to_N y <= 159) -> utf8 t = true ->
      exists cs, (forall c, In c cs -> character c) /\ map Byte.to_N (x :: y :: z :: t) = flat_map encoding cs).
    { intros Q1 Q2 Q3 Q4 Q5 Q6. apply between_true in Q3. destruct (three_bytes _ _ _ Q1 Q2 Q3 Q4 Q5) as (c & C1 & C2). apply (K c [x; y; z] t); [exact C1|symmetry; exact C2|lia|exact Q6|reflexivity]. }
    destruct (between 224 224 x) eqn:B2.
    { apply andb_true_iff in H as [H1 H]. apply andb_true_iff in H1 as [H1 H2]. apply between_true in B2, H1. apply K3; (exact H || exact H2 || lia). }
    destruct (between 225 236 x || between 238 239 x) eqn:B3.
    { apply andb_true_iff in H as [H1 H]. apply andb_true_iff in H1 as [H1 H2]. apply between_true in H1. apply orb_true_iff in B3. apply K3; [| |exact H2| | |exact H]; destruct B3 as [B3|B3]; apply between_true in B3; lia. }
    destruct (between 237 237 x) eqn:B4.
    { apply andb_true_iff in H as [H1 H]. apply andb_true_iff in H1 as [H1 H2]. apply between_true in B4, H1. apply K3; (exact H || exact H2 || lia). }
    clear K3. destruct t as [|w t]; [discriminate|]. cbn [length] in Hn.
    assert (K4 : 240 <= Byte.to_N x <= 244 -> 128 <= Byte.to_N y <= 191 -> between 128 191 z = true -> between 128 191 w = true -> (Byte.to_N x = 240 -> 144 <= Byte.to_N y) -> (Byte.to_N x = 244 -> Byte.to_N y <= 143) -> utf8 t = true ->
      exists cs, (forall c, In c cs -> character c) /\ map Byte.to_N (x :: y :: z :: w :: t) = flat_map encoding cs).
    { intros Q1 Q2 Q3 Q4 Q5 Q6 Q7. apply between_true in Q3, Q4. destruct (four_bytes _ _ _ _ Q1 Q2 Q3 Q4 Q5 Q6) as (c & C1 & C2). apply (K c [x; y; z; w] t); [exact C1|symmetry; exact C2|lia|exact Q7|reflexivity]. }
    destruct (between 240 240 x) eqn:B5.
    { apply andb_true_iff in H as [H1 H]. apply andb_true_iff in H1 as [H1 H3]. apply andb_true_iff in H1 as [H1 H2]. apply between_true in B5, H1. apply K4; (exact H || exact H2 || exact H3 || lia). }
    destruct (between 241 243 x) eqn:B6.
    { apply andb_true_iff in H as [H1 H]. apply andb_true_iff in H1 as [H1 H3]. apply andb_true_iff in H1 as [H1 H2]. apply between_true in B6, H1. apply K4; (exact H || exact H2 || exact H3 || lia). }
    destruct (between 244 244 x) eqn:B7; [|discriminate].
    apply andb_true_iff in H as [H1 H]. apply andb_true_iff in H1 as [H1 H3]. apply andb_true_iff in H1 as [H1 H2]. apply between_true in B7, H1. apply K4; (exact H || exact H2 || exact H3 || lia).
  - intros (cs & C1 & C2). revert b C2. induction cs as [|c cs IH]; intros b C2; cbn [flat_map] in C2; [destruct b; [reflexivity|discriminate]|].
    apply map_eq_app in C2 as (b1 & b2 & -> & E1 & E2). rewrite utf8_app by exact (encoding_utf8 c b1 (C1 c (or_introl eq_refl)) E1). apply IH; [intros c' Hc'; apply C1; right; exact Hc'|exact E2].
Qed.
Ltac Zify.zify_post_hook ::= idtac.

Section Threads.
Variable nul_text : list byte -> list byte.
Local Notation steps := (steps nul_text).
Local Notation step := (step nul_text).
Local Notation read_error := (read_error nul_text).

(** ** C91 *)
(** The error of a thread is changed by the calls of this thread only. *)
Theorem C91_threads_isolated s l s' t : steps s l = Some s' -> (forall u c, In (u, c) l -> u <> t) -> s' t = s t.
Proof.
  revert s. induction l as [|[u c] l IH]; intros s H Hu; cbn [FfiErrors.steps] in H; [congruence|].
  destruct (step s u c) as [s1|] eqn:E; [|discriminate].
  rewrite (IH s1 H) by (intros v d Hv; apply (Hu v d); right; exact Hv).
  assert (N : Nat.eqb t u = false) by (apply Nat.eqb_neq; intros ->; exact (Hu u c (or_introl eq_refl) eq_refl)).
  destruct c as [ptr|ptr len|[e|]]; cbn [FfiErrors.step] in E.
  - destruct (set_error ptr) as [[code e]|]; [|discriminate]. cbn in E. assert (s1 = with_error s u (Some e)) by congruence. subst s1.
    unfold with_error. rewrite N. reflexivity.
  - destruct (read_error ptr len (s u)) as [r|]; [|discriminate]. cbn [option_map] in E.
    assert (s1 = with_error s u (snd r)) by congruence. subst s1. unfold with_error. rewrite N. reflexivity.
  - assert (s1 = with_error s u (Some e)) by congruence. subst s1. unfold with_error. rewrite N. reflexivity.
  - congruence.
Qed.

(** A message set by a thread is read back by this thread, after a fixed prefix,
    whatever the other threads do in between. *)
Theorem C91_message_comes_back s t m rest l s1 s2 mem len :
  ~ In x00 m -> utf8 m = true ->
  step s t (SetError (Some (m ++ x00 :: rest))) = Some s1 ->
  steps s1 l = Some s2 -> (forall u c, In (u, c) l -> u <> t \/ c = Other None) ->
  let shown := text "FFI error: " ++ m in
  (Z.of_nat (length shown) < len)%Z -> (len <= Z.of_nat (length mem))%Z ->
  set_error (Some (m ++ x00 :: rest)) = Some (0%Z, GenericErr m) /\
  exists mem', read_error (Some mem) (Some len) (s2 t) = Some (0%Z, Some mem', Some (Z.of_nat (length shown)), None) /\
    firstn (length shown) mem' = shown /\ nth_error mem' (length shown) = Some x00.
Proof.
  intros Hn Hu H1 Hl Hin shown Hlen Hmem.
  assert (E : set_error (Some (m ++ x00 :: rest)) = Some (0%Z, GenericErr m)).
  { unfold set_error. rewrite c_str_app by exact Hn. rewrite Hu. reflexivity. }
  split; [exact E|]. cbn [FfiErrors.step] in H1. rewrite E in H1. cbn [option_map snd] in H1.
  assert (S1 : s1 t = Some (GenericErr m)) by (assert (s1 = with_error s t (Some (GenericErr m))) by congruence; subst s1; unfold with_error; rewrite Nat.eqb_refl; reflexivity).
  assert (S2 : s2 t = s1 t).
  { clear - Hl Hin. revert s1 Hl. induction l as [|[u c] l IH]; intros s1 H; cbn [FfiErrors.steps] in H; [congruence|].
    destruct (step s1 u c) as [s3|] eqn:E; [|discriminate].
    rewrite (IH (fun v d Hv => Hin v d (or_intror Hv)) s3 H).
    destruct (Hin u c (or_introl eq_refl)) as [D| ->]; [|cbn [FfiErrors.step] in E; congruence].
    eapply (C91_threads_isolated s1 [(u, c)] s3 t); [cbn [FfiErrors.steps]; rewrite E; reflexivity|].
    intros v d [Q|[]]. congruence. }
  rewrite S2, S1. unfold FfiErrors.read_error. cbn [option_map display]. fold shown.
  assert (N0 : ~ In x00 shown) by (unfold shown; intros Q; apply in_app_or in Q as [Q|Q]; [vm_compute in Q; repeat (destruct Q as [Q|Q]; [discriminate|]); exact Q|exact (Hn Q)]).
  destruct (C55_last_error (fun m => m) mem len shown None ltac:(unfold shown in *; lia) Hmem N0) as (mem' & Eg & Lm & Ef & Ez & _ & _).
  unfold set_last_error in Eg. rewrite Eg. rewrite Nat.min_r in * by lia. exists mem'. split; [reflexivity|].
  split; [rewrite Ef; apply firstn_all|]. apply Ez. lia.
Qed.

(** A message that is not UTF-8 is refused, and the error set says so. *)
Theorem C91_bad_message s t m rest s1 : ~ In x00 m -> utf8 m = false ->
  step s t (SetError (Some (m ++ x00 :: rest))) = Some s1 ->
  set_error (Some (m ++ x00 :: rest)) = Some (1%Z, GenericErr (text "sse_client_update: invalid error message")) /\
  s1 t = Some (GenericErr (text "sse_client_update: invalid error message")).
Proof.
  intros Hn Hu H1. assert (E : set_error (Some (m ++ x00 :: rest)) = Some (1%Z, GenericErr (text "sse_client_update: invalid error message"))).
  { unfold set_error. rewrite c_str_app by exact Hn. rewrite Hu. reflexivity. }
  split; [exact E|]. cbn [FfiErrors.step] in H1. rewrite E in H1. cbn [option_map snd] in H1.
  assert (s1 = with_error s t (Some (GenericErr (text "sse_client_update: invalid error message")))) by congruence. subst s1.
  unfold with_error. rewrite Nat.eqb_refl. reflexivity.
Qed.

(** An error whose text has a zero byte cannot be delivered: the call fails and leaves the
    buffer as it is, and the next call delivers an explanation instead. *)
Theorem C91_message_with_zero e mem len : In x00 (display e) -> ~ In x00 (nul_text (display e)) -> (1 <= len)%Z ->
  exists e', read_error (Some mem) (Some len) (Some e) = Some (1%Z, Some mem, Some len, Some e') /\
  let shown := text "FFI error: failed to convert error to CString: " ++ nul_text (display e) in
  forall mem2 len2, (Z.of_nat (length shown) < len2)%Z -> (len2 <= Z.of_nat (length mem2))%Z ->
    exists mem', read_error (Some mem2) (Some len2) (Some e') = Some (0%Z, Some mem', Some (Z.of_nat (length shown)), None) /\
      firstn (length shown) mem' = shown /\ nth_error mem' (length shown) = Some x00.
Proof.
  intros Hz Hn Hl. exists (nul_error nul_text (display e)). split.
  - unfold FfiErrors.read_error, get_last_error. cbn [option_map]. destruct (Z.ltb_spec len 1) as [|_]; [lia|].
    assert (Z : has_nul (display e) = true) by (unfold has_nul; apply existsb_exists; exists x00; split; [exact Hz|reflexivity]). rewrite Z. reflexivity.
  - intros shown mem2 len2 H1 H2. unfold FfiErrors.read_error. cbn [option_map].
    replace (display (nul_error nul_text (display e))) with shown by reflexivity.
    assert (N0 : ~ In x00 shown) by (unfold shown; intros Q; apply in_app_or in Q as [Q|Q]; [vm_compute in Q; repeat (destruct Q as [Q|Q]; [discriminate|]); exact Q|exact (Hn Q)]).
    destruct (C55_last_error (fun m => m) mem2 len2 shown None ltac:(unfold shown in *; lia) H2 N0) as (mem' & Eg & Lm & Ef & Ez & _ & _).
    unfold set_last_error in Eg. rewrite Eg. rewrite Nat.min_r in * by lia. exists mem'. split; [reflexivity|].
    split; [rewrite Ef; apply firstn_all|]. apply Ez. lia.
Qed.

(** Without a buffer or a length the call fails and the error stays. *)
Theorem C91_null_pointers mem len e : read_error None len e = Some (1%Z, None, len, e) /\ read_error mem None e = Some (1%Z, mem, None, e).
Proof. split; [|destruct mem]; reflexivity. Qed.
Theorem C91_empty_buffer mem len e : (len < 1)%Z -> read_error (Some mem) (Some len) e = Some (1%Z, Some mem, Some len, e).
Proof. intros H. unfold FfiErrors.read_error, get_last_error. destruct (Z.ltb_spec len 1); [|lia]. destruct e; reflexivity. Qed.

(** ** C92 *)
(** the texts of an error are texts *)
Definition well_formed (e : thread_error) : Prop :=
  match e with NullPointerErr s | GenericErr s | DeserializeErr s => utf8 s = true end.

Lemma display_utf8 e : well_formed e -> utf8 (display e) = true.
Proof. destruct e as [s|s|s]; cbn [well_formed display]; intros H; rewrite utf8_app by reflexivity; exact H. Qed.

(** With a buffer that is large enough what is delivered is a text. *)
Theorem C92_delivered_text e mem len code mem' len' kept : well_formed e -> ~ In x00 (display e) ->
  (len <= Z.of_nat (length mem))%Z ->
  read_error (Some mem) (Some len) (Some e) = Some (code, Some mem', Some len', kept) -> code = 0%Z ->
  (Z.of_nat (length (display e)) < len)%Z -> utf8 (firstn (Z.to_nat len') mem') = true.
Proof.
  intros Hw Hn Hm H Hc Hl. unfold FfiErrors.read_error in H. cbn [option_map] in H.
  destruct (C55_last_error (fun m => m) mem len (display e) None ltac:(lia) Hm Hn) as (m2 & Eg & _ & Ef & _).
  unfold set_last_error in Eg. rewrite Eg in H. rewrite Nat.min_r in * by lia.
  assert (m2 = mem' /\ len' = Z.of_nat (length (display e))) as [-> ->] by (split; congruence).
  rewrite Nat2Z.id, Ef, firstn_all. apply display_utf8. exact Hw.
Qed.

(** With a smaller one the message is cut, which can be inside a character. *)
Theorem C92_always_text_refuted : exists e mem len mem' len',
  well_formed e /\ ~ In x00 (display e) /\ (len <= Z.of_nat (length mem))%Z /\
  read_error (Some mem) (Some len) (Some e) = Some (0%Z, Some mem', Some len', None) /\
  utf8 (firstn (Z.to_nat len') mem') = false.
Proof.
  exists (GenericErr [xc3; xa9]), (repeat x01 20), 13%Z, (text "FFI error: " ++ [xc3; x00] ++ repeat x01 7), 12%Z.
  split; [reflexivity|]. split; [vm_compute; intuition discriminate|]. split; [vm_compute; discriminate|].
  split; vm_compute; reflexivity.
Qed.
End Threads.

(** ** Examples *)
Example C91_example :
  let s0 : errors := fun _ => None in
  let m := [x4f; xc3; xa9] in
  exists s1 s2, step (fun b => b) s0 1 (SetError (Some (m ++ [x00; x41]))) = Some s1 /\
    steps (fun b => b) s1 [(2%nat, Other (Some (NullPointerErr (text "policy")))); (2%nat, GetError (Some (repeat x01 40)) (Some 40%Z)); (1%nat, Other None)] = Some s2 /\
    ~ In x00 m /\ utf8 m = true /\
    option_map (fun r => fst (fst r)) (FfiErrors.read_error (fun b => b) (Some (repeat x01 20)) (Some 16%Z) (s2 1%nat)) =
      Some (0%Z, Some (text "FFI error: O" ++ [xc3; xa9; x00; x00; x01; x01; x01; x01])).
Proof.
  cbv zeta. eexists. eexists. split; [reflexivity|]. split; [reflexivity|]. split; [vm_compute; intuition discriminate|].
  split; vm_compute; reflexivity.
Qed.

Example C91_bad_example : ~ In x00 [xc3] /\ utf8 [xc3] = false /\ utf8 [xed; xa0; x80] = false /\ utf8 [xf0; x9f; x98; x80] = true.
Proof. vm_compute. intuition discriminate. Qed.

(** "é" and the emoji above *)
Example C91_texts_example : map Byte.to_N [xc3; xa9; xf0; x9f; x98; x80] = flat_map encoding [233; 128512] /\ character 233 /\ character 128512 /\ ~ character 55296.
Proof. split; [vm_compute; reflexivity|]. unfold character. lia. Qed.

Example C91_zero_example : let e := GenericErr [x41; x00] in let says (_ : list byte) := text "nul byte found in provided data at position: 12" in
  In x00 (display e) /\ ~ In x00 (says (display e)) /\
  match FfiErrors.read_error says (Some (repeat x01 3)) (Some 3%Z) (Some e) with
  | Some (code, mem, len, Some e') => code = 1%Z /\ mem = Some [x01; x01; x01] /\
      display e' = text "FFI error: failed to convert error to CString: nul byte found in provided data at position: 12"
  | _ => False
  end.
Proof. cbv zeta. split; [vm_compute; tauto|]. split; [vm_compute; intuition discriminate|]. vm_compute. repeat split. Qed.

Print Assumptions C91_texts.
Print Assumptions C91_null_pointers.
Print Assumptions C91_empty_buffer.
Print Assumptions C91_message_with_zero.
Print Assumptions C91_threads_isolated.
Print Assumptions C91_message_comes_back.
Print Assumptions C91_bad_message.
Print Assumptions C92_delivered_text.
Print Assumptions C92_always_text_refuted.

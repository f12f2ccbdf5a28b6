(** Theorems about the C interface: C52-C57, C67, C68. *)
From Coq Require Import String NArith ZArith Bool Lia Strings.Byte List.
From Verif Require Import Prelude Field LinAlg Msp Spec Bilinear Scheme SchemeSpec SchemeTheorems Zp ExpModel PropertiesScheme
  Codec CodecProofs SchemeCodec SchemeCodecProofs PropertiesCodec
  Policy PolicySpec PolicyProofs Engine EngineSpec PropertiesEngine Hybrid HybridSpec PropertiesHybrid Ffi FfiSpec.
Import ListNotations.
Local Open Scope N_scope.

(** ** Output arguments *)
Lemma as_usize_exact P z : 32 <= usize_bits P -> (0 <= z < 2147483648)%Z -> as_usize P z = Z.to_N z.
Proof.
  intros HP H. unfold as_usize. rewrite Z.mod_small; [reflexivity|]. split; [lia|].
  assert (4294967296 <= usize_modulus P); [|lia].
  unfold usize_modulus. change 4294967296 with (2 ^ 32). apply N.pow_le_mono_r; lia.
Qed.
Lemma as_c_int_exact n : n < 2147483648 -> as_c_int n = Z.of_N n.
Proof.
  intros H. unfold as_c_int, u32_to_i32, u32_modulus. rewrite N.mod_small by lia.
  destruct (N.ltb_spec n 2147483648); lia.
Qed.

Lemma nth_set_out outs i o j : nth_error (set_out outs i o) j =
  if Nat.eqb i j then match nth_error outs j with Some _ => Some o | None => None end else nth_error outs j.
Proof.
  revert i j; induction outs as [|x outs IH]; intros i j.
  - destruct i, j; cbn [set_out nth_error]; destruct (Nat.eqb _ _); reflexivity.
  - destruct i as [|i], j as [|j]; cbn [set_out nth_error Nat.eqb]; try reflexivity. apply IH.
Qed.
Lemma set_out_length outs i o : length (set_out outs i o) = length outs.
Proof. revert i; induction outs as [|x outs IH]; intros [|i]; cbn [set_out length]; congruence. Qed.

Lemma Forall2_set_out (R : out_arg -> out_arg -> Prop) outs i o o' :
  (forall x, In x outs -> R x x) -> nth_error outs i = Some o -> R o o' -> Forall2 R outs (set_out outs i o').
Proof.
  revert i; induction outs as [|x outs IH]; intros i Hr E H; [destruct i; discriminate|].
  assert (Hr' : forall y, In y outs -> R y y) by (intros y Hy; apply Hr; right; exact Hy).
  destruct i as [|i]; cbn [nth_error set_out] in *.
  - assert (x = o) by congruence. subst x. constructor; [exact H|]. clear -Hr'.
    induction outs as [|y outs IH]; constructor; [apply Hr'; left; reflexivity|]. apply IH. intros z Hz. apply Hr'. right; exact Hz.
  - constructor; [apply Hr; left; reflexivity|]. apply IH; assumption.
Qed.
Lemma Forall2_len (R : out_arg -> out_arg -> Prop) a b : Forall2 R a b -> length a = length b.
Proof. intros H. induction H; cbn [length]; congruence. Qed.
Lemma Forall2_same (R : out_arg -> out_arg -> Prop) outs : (forall x, In x outs -> R x x) -> Forall2 R outs outs.
Proof. induction outs as [|x outs IH]; intros H; constructor; [apply H; left; reflexivity|apply IH; intros y Hy; apply H; right; exact Hy]. Qed.

Lemma within_same ok o : good_out o -> within ok o o.
Proof.
  intros (len & E & H & _). unfold within. rewrite E. destruct (o_mem o) as [mem|]; [|reflexivity].
  split; [reflexivity|]. split; [reflexivity|]. intros _. lia.
Qed.
Lemma within_weaken o o' : within true o o' -> within false o o'.
Proof.
  unfold within. destruct (o_mem o), (o_mem o'), (o_len o), (o_len o'); try exact (fun H => H).
  intros (H1 & H2 & H3). split; [exact H1|]. split; [exact H2|]. discriminate.
Qed.
Lemma within_good o o' : good_out o -> within true o o' -> good_out o'.
Proof.
  intros (len & E & H & Hm) W. unfold within in W. rewrite E in W.
  destruct (o_mem o) as [mem|] eqn:Em, (o_mem o') as [mem'|] eqn:Em'; try contradiction; destruct (o_len o') as [len'|] eqn:El; try contradiction.
  - destruct W as (W1 & _ & W3). specialize (W3 eq_refl). specialize (Hm _ eq_refl). exists len'. split; [exact El|]. split; [lia|].
    intros m Q. assert (m = mem') by congruence. subst m. lia.
  - subst len'. exists len. split; [exact El|]. split; [exact H|]. intros m Q. congruence.
Qed.
Lemma within_trans ok o1 o2 o3 : within true o1 o2 -> within ok o2 o3 -> within ok o1 o3.
Proof.
  unfold within. destruct (o_mem o1) as [m1|], (o_mem o2) as [m2|], (o_len o1) as [l1|], (o_len o2) as [l2|]; try contradiction;
  destruct (o_mem o3) as [m3|], (o_len o3) as [l3|]; try contradiction.
  - intros (A1 & A2 & A3) (B1 & B2 & B3). specialize (A3 eq_refl). split; [congruence|]. split.
    + intros i Hi. rewrite B2 by lia. apply A2. exact Hi.
    + intros Q. specialize (B3 Q). lia.
  - congruence.
Qed.
Lemma Forall2_within_trans ok a b c : Forall2 (within true) a b -> Forall2 (within ok) b c -> Forall2 (within ok) a c.
Proof.
  intros H. revert c. induction H as [|x y a b Hxy _ IH]; intros c Hc; inversion Hc; subst; constructor.
  - eapply within_trans; eassumption.
  - apply IH. assumption.
Qed.
Lemma Forall2_within_good a b : Forall good_out a -> Forall2 (within true) a b -> Forall good_out b.
Proof. intros Ha H. induction H as [|x y a b Hxy _ IH]; inversion Ha; subst; constructor; [eapply within_good; eassumption|auto]. Qed.

Lemma nth_good outs i o : Forall good_out outs -> nth_error outs i = Some o -> good_out o.
Proof. intros H E. rewrite Forall_forall in H. apply H. eapply nth_error_In. exact E. Qed.
Lemma good_same ok outs : Forall good_out outs -> forall x, In x outs -> within ok x x.
Proof. intros H x Hx. rewrite Forall_forall in H. apply within_same. auto. Qed.

(** ** Memory safety is preserved by composition *)
Lemma safe_ret {A} n (a : A) : memory_safe n (ret a).
Proof. intros outs _ H. cbn. apply Forall2_same, good_same, H. Qed.
Lemma safe_bail {A} n e : memory_safe n (@bail A e).
Proof. intros outs _ H. cbn. apply Forall2_same, good_same, H. Qed.
Lemma safe_then {A C} n (m : ffi A) (k : A -> ffi C) : memory_safe n m -> (forall a, memory_safe n (k a)) -> memory_safe n (andthen m k).
Proof.
  intros Hm Hk outs Hl Hg. unfold andthen. specialize (Hm outs Hl Hg). destruct (m outs) as [a outs'|e outs'|p|]; try exact Hm.
  assert (Hl' : length outs' = n) by (rewrite <- Hl; symmetry; eapply Forall2_len; exact Hm).
  specialize (Hk a outs' Hl' (Forall2_within_good _ _ Hg Hm)). destruct (k a outs') as [c o|e o|p|]; try exact Hk;
  eapply Forall2_within_trans; eassumption.
Qed.
Lemma safe_unwrap {A} n (o : outcome A) : memory_safe n (unwrap o).
Proof. intros outs _ H. destruct o; cbn; try exact Logic.I; apply Forall2_same, good_same, H. Qed.
Lemma safe_not_null {A} n (x : option A) w : memory_safe n (not_null x w).
Proof. destruct x; [apply safe_ret|apply safe_bail]. Qed.
Lemma safe_input n x w : memory_safe n (input_bytes x w).
Proof. apply safe_then; [apply safe_not_null|]. intros [|b l]; [apply safe_bail|apply safe_ret]. Qed.
Lemma safe_check n i w : (i < n)%nat -> memory_safe n (check_out i w).
Proof.
  intros Hi outs Hl Hg. unfold check_out. destruct (nth_error outs i) as [o|] eqn:E.
  2:{ apply nth_error_None in E. lia. }
  destruct (nth_good _ _ _ Hg E) as (len & El & _). rewrite El.
  destruct (o_mem o); [destruct len|]; apply Forall2_same, good_same, Hg.
Qed.

Section Outputs.
Variable P : platform.
Hypothesis HP : 32 <= usize_bits P.

Lemma copy_fits mem data : blen data <= blen mem -> copy_out mem data = Some (data ++ skipn (length data) mem).
Proof. intros H. unfold copy_out. destruct (N.leb_spec (blen data) (blen mem)); [reflexivity|lia]. Qed.

Lemma copied_within ok o mem data len : o_mem o = Some mem -> o_len o = Some len -> (len <= Z.of_nat (length mem))%Z ->
  (Z.of_N (blen data) <= len)%Z ->
  within ok o (mkOut (Some (data ++ skipn (length data) mem)) (Some (Z.of_N (blen data)))).
Proof.
  intros Em El Hm Hd. unfold within. cbn [o_mem o_len]. rewrite Em, El. unfold blen in *. split; [|split].
  - rewrite app_length, skipn_length. lia.
  - intros i Hi. rewrite nth_error_app2 by lia. rewrite <- (firstn_skipn (length data) mem) at 2.
    rewrite nth_error_app2 by (rewrite firstn_length; lia). rewrite firstn_length. f_equal. lia.
  - intros _. lia.
Qed.

(** the exact effect of the two protocols on good arguments *)
Lemma deliver_cases i data outs o mem len : nth_error outs i = Some o -> o_mem o = Some mem -> o_len o = Some len ->
  (0 <= len < 2147483648)%Z -> (len <= Z.of_nat (length mem))%Z ->
  ((Z.of_N (blen data) <= len)%Z /\
     deliver P i data outs = Go tt (set_out outs i (mkOut (Some (data ++ skipn (length data) mem)) (Some (Z.of_N (blen data)))))) \/
  ((len < Z.of_N (blen data))%Z /\
     deliver P i data outs = Bail (Generic "The pre-allocated buffer is too small") (set_out outs i (mkOut (Some mem) (Some (as_c_int (blen data)))))).
Proof.
  intros E Em El H1 H2. unfold deliver. rewrite E. destruct o as [om ol]. cbn [o_mem o_len] in *. subst om ol.
  rewrite as_usize_exact by assumption. destruct (N.ltb_spec (Z.to_N len) (blen data)) as [H|H]; [right|left]; (split; [lia|]).
  - reflexivity.
  - rewrite copy_fits by (unfold blen in *; lia). rewrite as_c_int_exact by lia. reflexivity.
Qed.
Lemma deliver_late_cases i data outs o mem len : nth_error outs i = Some o -> o_mem o = Some mem -> o_len o = Some len ->
  (0 <= len < 2147483648)%Z -> (len <= Z.of_nat (length mem))%Z ->
  ((Z.of_N (blen data) <= len)%Z /\
     deliver_late P i data outs = Go tt (set_out outs i (mkOut (Some (data ++ skipn (length data) mem)) (Some (Z.of_N (blen data)))))) \/
  ((len < Z.of_N (blen data))%Z /\
     deliver_late P i data outs = Bail (Generic "The pre-allocated buffer is too small") outs).
Proof.
  intros E Em El H1 H2. unfold deliver_late. rewrite E. destruct o as [om ol]. cbn [o_mem o_len] in *. subst om ol.
  rewrite as_usize_exact by assumption. destruct (N.ltb_spec (Z.to_N len) (blen data)) as [H|H]; [right|left]; (split; [lia|]).
  - reflexivity.
  - rewrite copy_fits by (unfold blen in *; lia). rewrite as_c_int_exact by lia. reflexivity.
Qed.

(** after a check that went through, the buffer is there *)
Lemma check_go i w outs u outs' : check_out i w outs = Go u outs' ->
  outs' = outs /\ exists o mem len, nth_error outs i = Some o /\ o_mem o = Some mem /\ o_len o = Some len /\ len <> 0%Z.
Proof.
  unfold check_out. destruct (nth_error outs i) as [o|]; [|discriminate]. destruct (o_mem o) as [mem|] eqn:Em; [|discriminate].
  destruct (o_len o) as [len|] eqn:El; [|discriminate].
  destruct len; [discriminate| |]; (intros E; split; [congruence|]; exists o, mem; eexists; repeat split; try eassumption; discriminate).
Qed.

(** a delivery is safe on the arguments whose buffer is present *)
Definition present (i : nat) (outs : list out_arg) : Prop := exists o mem, nth_error outs i = Some o /\ o_mem o = Some mem.

Lemma present_within ok i a b : Forall2 (within ok) a b -> present i a -> present i b.
Proof.
  intros H (o & mem & E & Em). revert i E. induction H as [|x y a b Hxy _ IH]; intros i E; [destruct i; discriminate|].
  destruct i as [|i]; cbn [nth_error] in *.
  - assert (x = o) by congruence. subst x. exists y. unfold within in Hxy. rewrite Em in Hxy.
    destruct (o_mem y) as [m|] eqn:Ey; [exists m; split; [reflexivity|reflexivity]|contradiction].
  - destruct (IH i E) as (o' & m' & A & C). exists o', m'. split; [exact A|exact C].
Qed.

Definition safe_at {A} (outs : list out_arg) (f : ffi A) : Prop :=
  match f outs with
  | Go _ outs' => Forall2 (within true) outs outs'
  | Bail _ outs' => Forall2 (within false) outs outs'
  | Crash _ => True
  | Undefined => False
  end.

Lemma deliver_safe i data outs : Forall good_out outs -> present i outs -> safe_at outs (deliver P i data).
Proof.
  intros Hg (o & mem & E & Em). destruct (nth_good _ _ _ Hg E) as (len & El & Hl & Hm). specialize (Hm _ Em). unfold safe_at.
  destruct (deliver_cases i data outs o mem len E Em El Hl Hm) as [[H ->]|[H ->]].
  - apply Forall2_set_out with (o := o); [apply good_same, Hg|exact E|]. apply copied_within with len; assumption.
  - apply Forall2_set_out with (o := o); [apply good_same, Hg|exact E|]. unfold within. cbn [o_mem o_len]. rewrite Em, El.
    split; [reflexivity|]. split; [reflexivity|discriminate].
Qed.
Lemma deliver_late_safe i data outs : Forall good_out outs -> present i outs -> safe_at outs (deliver_late P i data).
Proof.
  intros Hg (o & mem & E & Em). destruct (nth_good _ _ _ Hg E) as (len & El & Hl & Hm). specialize (Hm _ Em). unfold safe_at.
  destruct (deliver_late_cases i data outs o mem len E Em El Hl Hm) as [[H ->]|[H ->]].
  - apply Forall2_set_out with (o := o); [apply good_same, Hg|exact E|]. apply copied_within with len; assumption.
  - apply Forall2_same, good_same, Hg.
Qed.
Lemma deliver_expected_safe n i data : (i < n)%nat -> memory_safe n (deliver_expected P i data).
Proof.
  intros Hi outs Hn Hg. unfold deliver_expected. destruct (nth_error outs i) as [o|] eqn:E.
  2:{ apply nth_error_None in E. lia. }
  destruct (nth_good _ _ _ Hg E) as (len & El & Hl & Hm). destruct (o_mem o) as [mem|] eqn:Em; [|apply Forall2_same, good_same, Hg].
  rewrite El. specialize (Hm _ eq_refl). destruct (0 <? len)%Z; [|apply Forall2_same, good_same, Hg].
  destruct data as [d|].
  - apply deliver_safe; [exact Hg|]. exists o, mem. split; assumption.
  - apply Forall2_set_out with (o := o); [apply good_same, Hg|exact E|]. unfold within. cbn [o_mem o_len]. rewrite Em, El.
    split; [reflexivity|]. split; [reflexivity|]. intros _. lia.
Qed.
End Outputs.

(** ** Computations that do not look at the output arguments *)
Definition pure {A} (m : ffi A) (r : A + (ffi_error + panic)) : Prop := forall outs,
  m outs = match r with inl a => Go a outs | inr (inl e) => Bail e outs | inr (inr p) => Crash p end.

Lemma pure_ret {A} (a : A) : pure (ret a) (inl a).
Proof. intros outs. reflexivity. Qed.
Lemma pure_bail {A} e : pure (@bail A e) (inr (inl e)).
Proof. intros outs. reflexivity. Qed.
Lemma pure_unwrap {A} (o : outcome A) : pure (unwrap o)
  match o with Ok a => inl a | Err e => inr (inl (Wrapped e)) | Panic p => inr (inr p) end.
Proof. intros outs. destruct o; reflexivity. Qed.
Lemma pure_not_null {A} (x : option A) w : exists r, pure (not_null x w) r.
Proof. destruct x; eexists; [apply pure_ret|apply pure_bail]. Qed.
Lemma pure_then {A C} (m : ffi A) (k : A -> ffi C) r : pure m r -> (forall a, exists r', pure (k a) r') ->
  exists r', pure (andthen m k) r'.
Proof.
  intros Hm Hk. destruct r as [a|[e|p]].
  - destruct (Hk a) as [r' H]. exists r'. intros outs. unfold andthen. rewrite Hm. apply H.
  - exists (inr (inl e)). intros outs. unfold andthen. rewrite Hm. reflexivity.
  - exists (inr (inr p)). intros outs. unfold andthen. rewrite Hm. reflexivity.
Qed.
Lemma pure_input x w : exists r, pure (input_bytes x w) r.
Proof.
  destruct (pure_not_null x w) as [r H]. apply (pure_then _ _ r H). intros [|b l]; eexists; [apply pure_bail|apply pure_ret].
Qed.

(** every step of a function before its delivery *)
Inductive steps {A} (final : A -> ffi unit) : ffi unit -> Prop :=
| steps_final a : steps final (final a)
| steps_bail e : steps final (bail e)
| steps_then {C} (m : ffi C) k r : pure m r -> (forall c, steps final (k c)) -> steps final (andthen m k).

Lemma steps_normal {A} (final : A -> ffi unit) f : steps final f ->
  (exists a, forall outs, f outs = final a outs) \/ (exists e, forall outs, f outs = Bail e outs) \/ (exists p, forall outs, f outs = Crash p).
Proof.
  induction 1 as [a|e|C m k r Hm Hk IH].
  - left. exists a. reflexivity.
  - right; left. exists e. reflexivity.
  - destruct r as [c|[e|p]].
    + destruct (IH c) as [[a H]|[[e H]|[p H]]]; [left; exists a|right; left; exists e|right; right; exists p];
        intros outs; unfold andthen; rewrite Hm; apply H.
    + right; left. exists e. intros outs. unfold andthen. rewrite Hm. reflexivity.
    + right; right. exists p. intros outs. unfold andthen. rewrite Hm. reflexivity.
Qed.

Lemma steps_unwrap {A C} (final : A -> ffi unit) (o : outcome C) k : (forall c, steps final (k c)) -> steps final (andthen (unwrap o) k).
Proof. intros H. econstructor; [apply pure_unwrap|exact H]. Qed.
Lemma steps_not_null {A C} (final : A -> ffi unit) (o : option C) w k : (forall c, steps final (k c)) -> steps final (andthen (not_null o w) k).
Proof. intros H. destruct (pure_not_null o w) as [r Hr]. econstructor; [exact Hr|exact H]. Qed.
Lemma steps_input {A} (final : A -> ffi unit) o w k : (forall c, steps final (k c)) -> steps final (andthen (input_bytes o w) k).
Proof. intros H. destruct (pure_input o w) as [r Hr]. econstructor; [exact Hr|exact H]. Qed.

Ltac walk := repeat first
  [ apply steps_unwrap; intros ? | apply steps_not_null; intros ? | apply steps_input; intros ?
  | exact (steps_final _ _) | apply steps_bail ].

Lemma then_assoc_check {A} i w (k : unit -> ffi A) outs : andthen (check_out i w) k outs =
  match check_out i w outs with Go u o => k tt o | Bail e o => Bail e o | Crash p => Crash p | Undefined => Undefined end.
Proof. unfold andthen. destruct (check_out i w outs) as [[]| | |]; reflexivity. Qed.

Section Single.
Variable P : platform.
Hypothesis HP : 32 <= usize_bits P.

(** memory safety of the functions with one output *)
Lemma single_safe w (k : ffi unit) (final : list byte -> ffi unit) :
  (final = deliver P 0 \/ final = deliver_late P 0) -> steps final k -> memory_safe 1 (andthen (check_out 0 w) (fun _ => k)).
Proof.
  intros Hf Hk outs Hl Hg. pose proof (safe_check 1 0 w ltac:(lia) outs Hl Hg) as Hc. rewrite then_assoc_check.
  destruct (check_out 0 w outs) as [u outs'|e outs'|p|] eqn:Ec; try exact Hc.
  apply check_go in Ec as [-> (o & mem & len & E & Em & El & _)].
  assert (Pr : present 0 outs) by (exists o, mem; split; assumption).
  destruct (steps_normal _ _ Hk) as [[d H]|[[e H]|[p H]]]; rewrite H.
  - destruct Hf as [-> | ->]; [apply deliver_safe|apply deliver_late_safe]; assumption.
  - apply Forall2_same, good_same, Hg.
  - exact Logic.I.
Qed.
End Single.
Lemma check_good w o mem len : o_mem o = Some mem -> o_len o = Some len -> (1 <= len)%Z -> check_out 0 w [o] = Go tt [o].
Proof. intros Em El H. unfold check_out. cbn [nth_error]. rewrite Em, El. destruct len; [lia|reflexivity|lia]. Qed.


(** ** What a caller observes of a function with one output whose result is [d]:
    enough room, the result is there; too little, the size is asked for. *)
Definition protocol (d : list byte) (f : ffi unit) : Prop := forall o mem len,
  good_out o -> o_mem o = Some mem -> o_len o = Some len -> (1 <= len)%Z ->
  ((Z.of_nat (length d) <= len)%Z -> exists o', f [o] = Go tt [o'] /\ delivered d o o') /\
  ((len < Z.of_nat (length d))%Z -> exists e o', f [o] = Bail e [o'] /\ asks_for (N.of_nat (length d)) o o').
Definition protocol_late (d : list byte) (f : ffi unit) : Prop := forall o mem len,
  good_out o -> o_mem o = Some mem -> o_len o = Some len -> (1 <= len)%Z ->
  ((Z.of_nat (length d) <= len)%Z -> exists o', f [o] = Go tt [o'] /\ delivered d o o') /\
  ((len < Z.of_nat (length d))%Z -> exists e, f [o] = Bail e [o]).

Lemma deliver_protocol P d w (f : ffi unit) : 32 <= usize_bits P -> (Z.of_nat (length d) < 2147483648)%Z ->
  (forall outs, f outs = deliver P 0 d outs) -> protocol d (andthen (check_out 0 w) (fun _ => f)).
Proof.
  intros HP Hd Hf o mem len Hg Em El H1. destruct Hg as (len' & El' & Hl & Hm). assert (len' = len) by congruence. subst len'.
  specialize (Hm _ Em). rewrite then_assoc_check, (check_good w o mem len) by assumption. rewrite Hf.
  destruct (deliver_cases P HP 0 d [o] o mem len eq_refl Em El Hl Hm) as [[H ->]|[H ->]]; unfold blen in *; cbn [set_out]; split; intros H2; try lia.
  - eexists. split; [reflexivity|]. exists mem. cbn [o_mem o_len]. repeat split; [exact Em|lia|]. f_equal. lia.
  - eexists. eexists. split; [reflexivity|]. split; cbn [o_mem o_len]; [congruence|]. rewrite as_c_int_exact by lia. reflexivity.
Qed.
Lemma deliver_protocol_late P d w (f : ffi unit) : 32 <= usize_bits P ->
  (forall outs, f outs = deliver_late P 0 d outs) -> protocol_late d (andthen (check_out 0 w) (fun _ => f)).
Proof.
  intros HP Hf o mem len Hg Em El H1. destruct Hg as (len' & El' & Hl & Hm). assert (len' = len) by congruence. subst len'.
  specialize (Hm _ Em). rewrite then_assoc_check, (check_good w o mem len) by assumption. rewrite Hf.
  destruct (deliver_late_cases P HP 0 d [o] o mem len eq_refl Em El Hl Hm) as [[H ->]|[H ->]]; unfold blen in *; cbn [set_out]; split; intros H2; try lia.
  - eexists. split; [reflexivity|]. exists mem. cbn [o_mem o_len]. repeat split; [exact Em|lia|]. f_equal. lia.
  - eexists. reflexivity.
Qed.

Lemma input_go b w outs : b <> [] -> input_bytes (Some b) w outs = Go b outs.
Proof. intros H. destruct b; [contradiction|reflexivity]. Qed.

(** a caller that offers the size it was asked for is served *)
Theorem C54_second_call d d' (f f' : ffi unit) o len e o' : protocol d f -> protocol d' f' -> length d' = length d ->
  offers o len -> (1 <= len)%Z -> f [o] = Bail e [o'] ->
  forall o2 size, o_len o' = Some size -> offers o2 size -> exists o2', f' [o2] = Go tt [o2'] /\ read_out o2' = d'.
Proof.
  intros Hp Hp' Hd (Hg & Hm & El) H1 E o2 size Es (Hg2 & Hm2 & El2).
  destruct (o_mem o) as [mem|] eqn:Em; [|contradiction]. destruct (o_mem o2) as [mem2|] eqn:Em2; [|contradiction].
  destruct (Hp o mem len Hg Em El H1) as [A C]. destruct (Z.leb_spec (Z.of_nat (length d)) len) as [H|H].
  - destruct (A H) as (x & E' & _). rewrite E' in E. discriminate.
  - destruct (C H) as (e' & x & E' & _ & Q). assert (x = o') by congruence. subst x.
    assert (size = Z.of_nat (length d)) by (rewrite Es in Q; assert (size = Z.of_N (N.of_nat (length d))) by congruence; lia).
    subst size. destruct (Hp' o2 mem2 _ Hg2 Em2 El2) as [A2 _]; [lia|]. destruct A2 as (o2' & E2 & (m & M1 & M2 & M3 & M4)); [lia|].
    exists o2'. split; [exact E2|]. unfold read_out. rewrite M2, M4. rewrite Nat2Z.id, firstn_app, firstn_all, Nat.sub_diag. apply app_nil_r.
Qed.
Lemma delivered_read d o o' : delivered d o o' -> read_out o' = d.
Proof.
  intros (m & M1 & M2 & M3 & M4). unfold read_out. rewrite M2, M4, Nat2Z.id, firstn_app, firstn_all, Nat.sub_diag. apply app_nil_r.
Qed.

(** the same for two outputs *)
Definition too_small (d : list byte) (o : out_arg) : Prop := exists len, o_len o = Some len /\ (len < Z.of_nat (length d))%Z.
Definition room (d : list byte) (o : out_arg) : Prop := exists len, o_len o = Some len /\ (Z.of_nat (length d) <= len)%Z.
Definition offered (o : out_arg) : Prop := exists len, offers o len /\ (1 <= len)%Z.

Lemma deliver_room P i d outs o : 32 <= usize_bits P -> nth_error outs i = Some o -> good_out o -> o_mem o <> None -> room d o ->
  exists o', deliver P i d outs = Go tt (set_out outs i o') /\ delivered d o o'.
Proof.
  intros HP E (len & El & Hl & Hm) Hn (len' & El' & Hr). assert (len' = len) by congruence. subst len'.
  destruct (o_mem o) as [mem|] eqn:Em; [|contradiction]. specialize (Hm _ eq_refl).
  destruct (deliver_cases P HP i d outs o mem len E Em El Hl Hm) as [[H Q]|[H _]]; [|unfold blen in H; lia].
  eexists. split; [exact Q|]. exists mem. cbn [o_mem o_len]. unfold blen in *. repeat split; [exact Em|lia|]. f_equal. lia.
Qed.
Lemma deliver_too_small P i d outs o : 32 <= usize_bits P -> nth_error outs i = Some o -> good_out o -> o_mem o <> None -> too_small d o ->
  blen d < 2147483648 ->
  exists e o', deliver P i d outs = Bail e (set_out outs i o') /\ asks_for (blen d) o o'.
Proof.
  intros HP E (len & El & Hl & Hm) Hn (len' & El' & Hr) Hd. assert (len' = len) by congruence. subst len'.
  destruct (o_mem o) as [mem|] eqn:Em; [|contradiction]. specialize (Hm _ eq_refl).
  destruct (deliver_cases P HP i d outs o mem len E Em El Hl Hm) as [[H _]|[H Q]]; [unfold blen in H; lia|].
  eexists. eexists. split; [exact Q|]. split; cbn [o_mem o_len]; [congruence|]. rewrite as_c_int_exact by exact Hd. reflexivity.
Qed.
Lemma check_offered i w outs o : nth_error outs i = Some o -> offered o -> check_out i w outs = Go tt outs.
Proof.
  intros E (len & (Hg & Hm & El) & H1). unfold check_out. rewrite E, El. destruct (o_mem o); [|contradiction]. destruct len; [lia|reflexivity|lia].
Qed.
Lemma deliver_expected_room P i d outs o : 32 <= usize_bits P -> nth_error outs i = Some o -> good_out o -> room_if_expected d o ->
  exists o', deliver_expected P i d outs = Go tt (set_out outs i o') /\ delivered_if_expected d o o'.
Proof.
  intros HP E Hg Hr. pose proof Hg as (len & El & Hl & Hm).
  assert (Same : set_out outs i o = outs).
  { clear -E. revert i E. induction outs as [|x outs IH]; intros [|i] E; cbn [set_out nth_error] in *; try discriminate; [congruence|]. rewrite IH by exact E. reflexivity. }
  unfold deliver_expected. rewrite E, El. destruct (o_mem o) as [mem|] eqn:Em.
  2:{ exists o. rewrite Same. split; [reflexivity|]. split; [reflexivity|]. rewrite Em. contradiction. }
  destruct (Z.ltb_spec 0 len) as [H0|H0].
  - destruct d as [d|].
    + cbn [room_if_expected] in Hr. destruct Hr as [Hr|[Hr|Hr]].
      * congruence.
      * assert (len = 0%Z) by congruence. lia.
      * destruct (deliver_room P i d outs o HP E Hg) as (o' & Q & D); [congruence|exact Hr|].
        exists o'. split; [exact Q|]. split; [intros [C|C]; [congruence|assert (len = 0%Z) by congruence; lia]|]. intros _ _. exact D.
    + eexists. split; [reflexivity|]. split; [intros [C|C]; [congruence|assert (len = 0%Z) by congruence; lia]|].
      intros _ _. cbn [o_mem o_len]. split; [congruence|reflexivity].
  - assert (len = 0%Z) by lia. subst len. exists o. rewrite Same. split; [reflexivity|]. split; [reflexivity|]. contradiction.
Qed.
Lemma deliver_expected_small P i d outs o : 32 <= usize_bits P -> nth_error outs i = Some o -> good_out o ->
  offered o -> too_small d o -> blen d < 2147483648 ->
  exists e o', deliver_expected P i (Some d) outs = Bail e (set_out outs i o') /\ asks_for (blen d) o o'.
Proof.
  intros HP E Hg (len & (_ & Hm & El) & H1) Ht Hd. destruct (deliver_too_small P i d outs o HP E Hg Hm Ht Hd) as (e & o' & Q & D).
  exists e, o'. split; [|exact D]. unfold deliver_expected. rewrite E, El. destruct (o_mem o); [|contradiction].
  destruct (Z.ltb_spec 0 len); [exact Q|lia].
Qed.

Lemma u32_bytes_range n b : u32_bytes n = Ok b -> n < u32_modulus.
Proof. unfold u32_bytes. destruct (N.ltb_spec n u32_modulus) as [H|H]; intros E; [exact H|discriminate E]. Qed.
Lemma vec_enc_count {A} (c : codec A) l b : vec_enc c l = Ok b -> N.of_nat (length l) < u32_modulus.
Proof.
  destruct l as [|x l].
  - intros _. unfold u32_modulus. cbn [length]. lia.
  - unfold vec_enc. remember (x :: l) as l' eqn:Q. clear Q. intros E. apply bind_ok in E as (n & En & _).
    exact (u32_bytes_range _ _ En).
Qed.

Section Functions.
Context (B : BilinearMap).
Variable P : platform.
Hypothesis HP : 32 <= usize_bits P.
Variable F : byte_forms B.
Variable shake : list byte -> nat -> list byte.
Variable S : sym_scheme.
Variable policy_from : list byte -> outcome policy.
Variable attributes_from : list byte -> outcome (list attribute).
Variable access_from : list byte -> outcome access_policy.
Variable policy_text : policy -> list byte.

Local Notation encrypt_header := (h_aes_encrypt_header P F shake S policy_from attributes_from).
Local Notation decrypt_header := (h_aes_decrypt_header P F shake S).
Local Notation encrypt_header_cached := (h_aes_encrypt_header_using_cache P F shake S attributes_from).
Local Notation decrypt_header_cached := (h_aes_decrypt_header_using_cache P F shake S).
Local Notation encrypt_block := (h_aes_encrypt_block P S).
Local Notation decrypt_block := (h_aes_decrypt_block P S).
Local Notation master_keys := (h_generate_master_keys (B := B) P F policy_from).
Local Notation user_private_key := (h_generate_user_private_key (B := B) P F policy_from access_from).
Local Notation rotate_attributes := (h_rotate_attributes P policy_from attributes_from policy_text).

(** ** C53 *)
Theorem C53_key_functions_memory_safe :
  (forall pol draw, memory_safe 1 (master_keys pol draw)) /\
  (forall it priv access pol draw, memory_safe 1 (user_private_key it priv access pol draw)) /\
  (forall attrs pol, memory_safe 1 (rotate_attributes attrs pol)).
Proof using HP.
  split; [|split]; intros; (eapply (single_safe P HP _ _ (deliver P 0)); [left; reflexivity|]); unfold deliver_header; walk.
Qed.

Theorem C53_block_functions_memory_safe :
  (forall key u number data nonce, memory_safe 1 (encrypt_block key u number data nonce)) /\
  (forall key u number data, memory_safe 1 (decrypt_block key u number data)).
Proof using HP.
  split; intros; (eapply (single_safe P HP _ _ (deliver_late P 0)); [right; reflexivity|]); walk.
Qed.

Lemma header_safe outs h : Forall good_out outs -> present 0 outs -> present 1 outs -> safe_at outs (deliver_header P h).
Proof using HP.
  intros Hg P0 P1. unfold safe_at, deliver_header, andthen. pose proof (deliver_safe P HP 0 (eh_key h) outs Hg P0) as S0. unfold safe_at in S0.
  destruct (deliver P 0 (eh_key h) outs) as [u outs'|e outs'|p|]; try exact S0.
  pose proof (deliver_safe P HP 1 (eh_bytes h) outs' (Forall2_within_good _ _ Hg S0) (present_within _ _ _ _ S0 P1)) as S1. unfold safe_at in S1.
  destruct (deliver P 1 (eh_bytes h) outs') as [u' o|e o|p|]; try exact S1; eapply Forall2_within_trans; eassumption.
Qed.

Lemma two_safe w0 w1 k : steps (deliver_header P) k ->
  memory_safe 2 (andthen (check_out 0 w0) (fun _ => andthen (check_out 1 w1) (fun _ => k))).
Proof using HP.
  intros Hk outs Hl Hg. rewrite then_assoc_check. pose proof (safe_check 2 0 w0 ltac:(lia) outs Hl Hg) as Hc.
  destruct (check_out 0 w0 outs) as [u outs'|e outs'|p|] eqn:Ec; try exact Hc.
  apply check_go in Ec as [-> (o & mem & len & E & Em & _ & _)]. rewrite then_assoc_check. clear Hc.
  pose proof (safe_check 2 1 w1 ltac:(lia) outs Hl Hg) as Hc.
  destruct (check_out 1 w1 outs) as [u' outs'|e outs'|p|] eqn:Ec; try exact Hc.
  apply check_go in Ec as [-> (o1 & mem1 & len1 & E1 & Em1 & _ & _)].
  assert (P0 : present 0 outs) by (exists o, mem; split; assumption).
  assert (P1 : present 1 outs) by (exists o1, mem1; split; assumption).
  destruct (steps_normal _ _ Hk) as [[d H]|[[e H]|[p H]]]; rewrite H.
  - apply header_safe; assumption.
  - apply Forall2_same, good_same, Hg.
  - exact Logic.I.
Qed.

Lemma clear_safe outs c : length outs = 3%nat -> Forall good_out outs -> present 0 outs -> safe_at outs (deliver_clear P c).
Proof using HP.
  intros Hl Hg P0. unfold safe_at, deliver_clear. pose proof (deliver_safe P HP 0 (ch_key c) outs Hg P0) as S0. unfold safe_at in S0.
  unfold andthen at 1. destruct (deliver P 0 (ch_key c) outs) as [u outs'|e outs'|p|]; try exact S0.
  assert (Hl' : length outs' = 3%nat) by (rewrite <- Hl; symmetry; eapply Forall2_len; exact S0).
  pose proof (safe_then 3 _ (fun _ => deliver_expected P 2 (additional_data (ch_meta c))) (deliver_expected_safe P HP 3 1 (Some (uid (ch_meta c))) ltac:(lia))
    (fun _ => deliver_expected_safe P HP 3 2 _ ltac:(lia)) outs' Hl' (Forall2_within_good _ _ Hg S0)) as S1.
  destruct (andthen _ _ outs') as [u' o|e o|p|]; try exact S1; eapply Forall2_within_trans; eassumption.
Qed.

Lemma three_safe w0 k : steps (deliver_clear P) k -> memory_safe 3 (andthen (check_out 0 w0) (fun _ => k)).
Proof using HP.
  intros Hk outs Hl Hg. rewrite then_assoc_check. pose proof (safe_check 3 0 w0 ltac:(lia) outs Hl Hg) as Hc.
  destruct (check_out 0 w0 outs) as [u outs'|e outs'|p|] eqn:Ec; try exact Hc.
  apply check_go in Ec as [-> (o & mem & len & E & Em & _ & _)].
  destruct (steps_normal _ _ Hk) as [[d H]|[[e H]|[p H]]]; rewrite H.
  - apply clear_safe; try assumption. exists o, mem; split; assumption.
  - apply Forall2_same, good_same, Hg.
  - exact Logic.I.
Qed.

Theorem C53_header_functions_memory_safe :
  (forall pol pk attrs u ad random s nonce, memory_safe 2 (encrypt_header pol pk attrs u ad random s nonce)) /\
  (forall cache handle attrs u ad random s nonce, memory_safe 2 (encrypt_header_cached cache handle attrs u ad random s nonce)) /\
  (forall header uk, memory_safe 3 (decrypt_header header uk)) /\
  (forall cache handle header, memory_safe 3 (decrypt_header_cached cache handle header)).
Proof using HP.
  split; [|split; [|split]]; intros; [apply two_safe|apply two_safe|apply three_safe|apply three_safe]; walk.
  - destruct (cache handle) as [[p pk]|]; walk.
  - destruct (cache handle) as [uk|]; walk.
Qed.

(** ** C54 *)
(** the key functions and the rotation *)
Theorem C54_master_keys pol p draw mk priv pub : policy_from pol = Ok p -> eng_master_key p draw = Ok mk ->
  priv_enc F (priv_key mk) = Ok priv -> pub_enc F (pub_key mk) = Ok pub ->
  (4 + blen priv + blen pub < 2147483648) ->
  protocol (be32 (blen priv) ++ priv ++ pub) (master_keys (Some pol) draw).
Proof using HP.
  intros E1 E2 E3 E4 Hs.
  assert (Q : be32 (blen priv) ++ priv ++ pub = master_keys_bytes priv pub).
  { unfold master_keys_bytes, u32_modulus. rewrite N.mod_small by lia. reflexivity. }
  rewrite Q. apply (deliver_protocol P); [exact HP| |].
  - rewrite <- Q, !app_length, be32_length. unfold blen in Hs. lia.
  - intros outs. unfold andthen. cbn [not_null ret]. unfold unwrap, ret. rewrite E1, E2, E3, E4. reflexivity.
Qed.

Theorem C54_user_key it priv sk access ap pol p draw uk d : priv <> [] -> priv_dec F P priv = Ok sk ->
  access_from access = Ok ap -> policy_from pol = Ok p -> eng_user_key P it p sk ap draw = Ok uk -> user_enc F P uk = Ok d ->
  blen d < 2147483648 ->
  protocol d (user_private_key it (Some priv) (Some access) (Some pol) draw).
Proof using HP.
  intros Hp E1 E2 E3 E4 E5 Hs. apply (deliver_protocol P); [exact HP|unfold blen in Hs; lia|].
  intros outs. unfold andthen at 1. rewrite input_go by exact Hp. unfold andthen. cbn [not_null]. unfold unwrap, ret. rewrite E1, E2, E3, E4, E5. reflexivity.
Qed.

Theorem C54_rotation attrs l pol p p' : attributes_from attrs = Ok l -> policy_from pol = Ok p -> rotate_all p l = Ok p' ->
  blen (policy_text p') < 2147483648 ->
  protocol (policy_text p') (rotate_attributes (Some attrs) (Some pol)).
Proof using HP.
  intros E1 E2 E3 Hs. apply (deliver_protocol P); [exact HP|unfold blen in Hs; lia|].
  intros outs. unfold andthen. cbn [not_null]. unfold unwrap, ret. rewrite E1, E2, E3. reflexivity.
Qed.

(** the block functions do not ask for the size *)
Theorem C54_encrypt_block_refuted key u number data nonce d : length key = key_length S -> key <> [] -> data <> [] ->
  encrypt_hybrid_block S 1073741824 key (optional_bytes u) (as_usize P number) nonce data = Ok d ->
  protocol_late d (encrypt_block (Some key) u number (Some data) nonce).
Proof using HP.
  intros Lk Hk Hd E. apply (deliver_protocol_late P); [exact HP|].
  intros outs. unfold andthen at 1. rewrite input_go by exact Hk. unfold andthen at 1. rewrite input_go by exact Hd.
  unfold andthen, unwrap. rewrite array_from_ok by exact Lk. unfold max_clear_text. rewrite E. reflexivity.
Qed.
Theorem C54_decrypt_block_refuted key u number data d : length key = key_length S -> key <> [] -> data <> [] ->
  decrypt_hybrid_block S 1073741824 key (optional_bytes u) (as_usize P number) data = Ok d ->
  protocol_late d (decrypt_block (Some key) u number (Some data)).
Proof using HP.
  intros Lk Hk Hd E. apply (deliver_protocol_late P); [exact HP|].
  intros outs. unfold andthen at 1. rewrite input_go by exact Hk. unfold andthen at 1. rewrite input_go by exact Hd.
  unfold andthen, unwrap. rewrite array_from_ok by exact Lk. unfold max_clear_text. rewrite E. reflexivity.
Qed.

(** the header functions: what is delivered, and what is asked for, output by output *)
Definition encrypt_protocol (key header : list byte) (f : ffi unit) : Prop := forall ok oh, offered ok -> offered oh ->
  (room key ok -> room header oh -> exists ok' oh', f [ok; oh] = Go tt [ok'; oh'] /\ delivered key ok ok' /\ delivered header oh oh') /\
  (too_small key ok -> exists e ok', f [ok; oh] = Bail e [ok'; oh] /\ asks_for (blen key) ok ok') /\
  (room key ok -> too_small header oh -> exists e ok' oh', f [ok; oh] = Bail e [ok'; oh'] /\ delivered key ok ok' /\ asks_for (blen header) oh oh').

Lemma header_protocol w0 w1 (k : ffi unit) h : (forall outs, k outs = deliver_header P h outs) ->
  blen (eh_key h) < 2147483648 -> blen (eh_bytes h) < 2147483648 ->
  encrypt_protocol (eh_key h) (eh_bytes h) (andthen (check_out 0 w0) (fun _ => andthen (check_out 1 w1) (fun _ => k))).
Proof using HP.
  intros Hk L0 L1 ok oh Ook Ooh.
  assert (Q : andthen (check_out 0 w0) (fun _ => andthen (check_out 1 w1) (fun _ => k)) [ok; oh] = deliver_header P h [ok; oh]).
  { rewrite then_assoc_check, (check_offered 0 w0 [ok; oh] ok eq_refl Ook). rewrite then_assoc_check, (check_offered 1 w1 [ok; oh] oh eq_refl Ooh). apply Hk. }
  rewrite Q. clear Q. destruct Ook as (l0 & (G0 & N0 & E0) & _), Ooh as (l1 & (G1 & N1 & E1) & _).
  unfold deliver_header, andthen. split; [|split].
  - intros R0 R1. destruct (deliver_room P 0 (eh_key h) [ok; oh] ok HP eq_refl G0 N0 R0) as (ok' & -> & D0). cbn [set_out].
    destruct (deliver_room P 1 (eh_bytes h) [ok'; oh] oh HP eq_refl G1 N1 R1) as (oh' & -> & D1). exists ok', oh'. split; [reflexivity|]. split; assumption.
  - intros T. destruct (deliver_too_small P 0 (eh_key h) [ok; oh] ok HP eq_refl G0 N0 T L0) as (e & ok' & -> & D0). exists e, ok'. split; [reflexivity|exact D0].
  - intros R0 T. destruct (deliver_room P 0 (eh_key h) [ok; oh] ok HP eq_refl G0 N0 R0) as (ok' & -> & D0). cbn [set_out].
    destruct (deliver_too_small P 1 (eh_bytes h) [ok'; oh] oh HP eq_refl G1 N1 T L1) as (e & oh' & -> & D1).
    exists e, ok', oh'. split; [reflexivity|]. split; assumption.
Qed.

Definition meta_of (u ad : option (list byte)) : metadata :=
  mkMeta match u with Some b => b | None => [] end match ad with Some (x :: b) => Some (x :: b) | _ => None end.

Theorem C54_encrypt_header pol p pk mpk attrs l u ad random s nonce h : pk <> [] ->
  policy_from pol = Ok p -> pub_dec F P pk = Ok mpk -> attributes_from attrs = Ok l ->
  encrypt_hybrid_header S F shake P p mpk l (Some (meta_of u ad)) random s nonce = Ok h ->
  blen (eh_key h) < 2147483648 -> blen (eh_bytes h) < 2147483648 ->
  encrypt_protocol (eh_key h) (eh_bytes h) (encrypt_header (Some pol) (Some pk) (Some attrs) u ad random s nonce).
Proof using HP.
  intros Hp E1 E2 E3 E4 L0 L1. apply header_protocol; [|exact L0|exact L1].
  assert (Q : meta_arg u ad = meta_of u ad).
  { unfold meta_arg, meta_of, optional_bytes. destruct ad as [[|x b]|]; reflexivity. }
  intros outs. unfold andthen at 1. cbn [not_null ret]. unfold ret. unfold andthen at 1. rewrite input_go by exact Hp.
  unfold andthen. cbn [not_null]. unfold ret, unwrap. rewrite E1, E2, E3, Q, E4. reflexivity.
Qed.

Definition decrypt_protocol (c : clear_header) (f : ffi unit) : Prop := forall ok ou oa,
  offered ok -> good_out ou -> good_out oa ->
  let u := uid (ch_meta c) in let ad := additional_data (ch_meta c) in
  (room (ch_key c) ok -> room_if_expected (Some u) ou -> room_if_expected ad oa ->
     exists ok' ou' oa', f [ok; ou; oa] = Go tt [ok'; ou'; oa'] /\
       delivered (ch_key c) ok ok' /\ delivered_if_expected (Some u) ou ou' /\ delivered_if_expected ad oa oa') /\
  (too_small (ch_key c) ok -> exists e ok', f [ok; ou; oa] = Bail e [ok'; ou; oa] /\ asks_for (blen (ch_key c)) ok ok') /\
  (room (ch_key c) ok -> offered ou -> too_small u ou -> blen u < 2147483648 ->
     exists e ok' ou', f [ok; ou; oa] = Bail e [ok'; ou'; oa] /\ delivered (ch_key c) ok ok' /\ asks_for (blen u) ou ou') /\
  (room (ch_key c) ok -> room_if_expected (Some u) ou -> forall d, ad = Some d -> offered oa -> too_small d oa -> blen d < 2147483648 ->
     exists e ok' ou' oa', f [ok; ou; oa] = Bail e [ok'; ou'; oa'] /\ delivered (ch_key c) ok ok' /\
       delivered_if_expected (Some u) ou ou' /\ asks_for (blen d) oa oa').

Lemma clear_protocol w0 (k : ffi unit) c : (forall outs, k outs = deliver_clear P c outs) -> blen (ch_key c) < 2147483648 ->
  decrypt_protocol c (andthen (check_out 0 w0) (fun _ => k)).
Proof using HP.
  intros Hk L0 ok ou oa Ook Gu Ga u ad.
  assert (Q : andthen (check_out 0 w0) (fun _ => k) [ok; ou; oa] = deliver_clear P c [ok; ou; oa]).
  { rewrite then_assoc_check, (check_offered 0 w0 [ok; ou; oa] ok eq_refl Ook). apply Hk. }
  rewrite Q. clear Q. destruct Ook as (l0 & (G0 & N0 & E0) & _). unfold deliver_clear, andthen. fold u ad.
  split; [|split; [|split]].
  - intros R0 Ru Ra. destruct (deliver_room P 0 (ch_key c) [ok; ou; oa] ok HP eq_refl G0 N0 R0) as (ok' & -> & D0). cbn [set_out].
    destruct (deliver_expected_room P 1 (Some u) [ok'; ou; oa] ou HP eq_refl Gu Ru) as (ou' & -> & Du). cbn [set_out].
    destruct (deliver_expected_room P 2 ad [ok'; ou'; oa] oa HP eq_refl Ga Ra) as (oa' & -> & Da). cbn [set_out].
    exists ok', ou', oa'. split; [reflexivity|]. split; [exact D0|]. split; assumption.
  - intros T. destruct (deliver_too_small P 0 (ch_key c) [ok; ou; oa] ok HP eq_refl G0 N0 T L0) as (e & ok' & -> & D0). exists e, ok'. split; [reflexivity|exact D0].
  - intros R0 Ou T Lu. destruct (deliver_room P 0 (ch_key c) [ok; ou; oa] ok HP eq_refl G0 N0 R0) as (ok' & -> & D0). cbn [set_out].
    destruct (deliver_expected_small P 1 u [ok'; ou; oa] ou HP eq_refl Gu Ou T Lu) as (e & ou' & -> & Du).
    exists e, ok', ou'. split; [reflexivity|]. split; assumption.
  - intros R0 Ru d Ed Oa T Ld. destruct (deliver_room P 0 (ch_key c) [ok; ou; oa] ok HP eq_refl G0 N0 R0) as (ok' & -> & D0). cbn [set_out].
    destruct (deliver_expected_room P 1 (Some u) [ok'; ou; oa] ou HP eq_refl Gu Ru) as (ou' & -> & Du). cbn [set_out].
    rewrite Ed. destruct (deliver_expected_small P 2 d [ok'; ou'; oa] oa HP eq_refl Ga Oa T Ld) as (e & oa' & -> & Da).
    exists e, ok', ou', oa'. split; [reflexivity|]. split; [exact D0|]. split; assumption.
Qed.

Theorem C54_decrypt_header header uk key c : header <> [] -> uk <> [] -> user_dec F P uk = Ok key ->
  decrypt_hybrid_header S F shake P key header = Ok c -> blen (ch_key c) < 2147483648 ->
  decrypt_protocol c (decrypt_header (Some header) (Some uk)).
Proof using HP.
  intros Hh Hu E1 E2 L0. apply clear_protocol; [|exact L0].
  intros outs. unfold andthen at 1. rewrite input_go by exact Hh. unfold andthen at 1. rewrite input_go by exact Hu.
  unfold andthen, unwrap. rewrite E1, E2. reflexivity.
Qed.

(** an empty buffer is refused without telling the size *)
Theorem C54_empty_buffer_refuted o mem : o_mem o = Some mem -> o_len o = Some 0%Z ->
  (forall pol draw, exists e, master_keys pol draw [o] = Bail e [o]) /\
  (forall it priv access pol draw, exists e, user_private_key it priv access pol draw [o] = Bail e [o]) /\
  (forall attrs pol, exists e, rotate_attributes attrs pol [o] = Bail e [o]) /\
  (forall pol pk attrs u ad random s nonce oh, exists e, encrypt_header pol pk attrs u ad random s nonce [o; oh] = Bail e [o; oh]) /\
  (forall header uk ou oa, exists e, decrypt_header header uk [o; ou; oa] = Bail e [o; ou; oa]).
Proof using Type.
  intros Em El. repeat split; intros; unfold h_aes_encrypt_header, h_aes_decrypt_header; eexists; unfold h_generate_master_keys, h_generate_user_private_key, h_rotate_attributes;
  rewrite then_assoc_check; unfold check_out; cbn [nth_error]; rewrite Em, El; reflexivity.
Qed.

(** ** C53 for a negative announced length: the check is passed and the result
    is written past the end of the buffer *)
Lemma negative_passes z n : (-2147483648 <= z < 0)%Z -> n < usize_modulus P - 2147483648 -> (as_usize P z <? n) = false.
Proof using HP.
  intros Hz Hn. assert (4294967296 <= usize_modulus P).
  { unfold usize_modulus. change 4294967296 with (2 ^ 32). apply N.pow_le_mono_r; lia. }
  unfold as_usize. assert (Q : (z mod Z.of_N (usize_modulus P) = z + Z.of_N (usize_modulus P))%Z).
  { symmetry. apply Z.mod_unique with (-1)%Z; lia. }
  rewrite Q. apply N.ltb_ge. lia.
Qed.
Lemma deliver_negative d mem z (f : ffi unit) w : (-2147483648 <= z < 0)%Z -> blen d < usize_modulus P - 2147483648 ->
  (length mem < length d)%nat ->
  (forall outs, f outs = deliver P 0 d outs) \/ (forall outs, f outs = deliver_late P 0 d outs) ->
  andthen (check_out 0 w) (fun _ => f) [mkOut (Some mem) (Some z)] = Undefined.
Proof using HP.
  intros Hz Hd Hm Hf. rewrite then_assoc_check. unfold check_out. cbn [nth_error o_mem o_len].
  assert (C : copy_out mem d = None).
  { unfold copy_out. destruct (N.leb_spec (blen d) (blen mem)) as [H|_]; [unfold blen in H; lia|reflexivity]. }
  destruct z as [|z|z]; try lia. destruct Hf as [Hf|Hf]; rewrite Hf; unfold deliver, deliver_late; cbn [nth_error];
  rewrite negative_passes by assumption; rewrite C; reflexivity.
Qed.
Theorem C53_negative_length_refuted it priv sk access ap pol p draw uk d mem z : priv <> [] -> priv_dec F P priv = Ok sk ->
  access_from access = Ok ap -> policy_from pol = Ok p -> eng_user_key P it p sk ap draw = Ok uk -> user_enc F P uk = Ok d ->
  blen d < usize_modulus P - 2147483648 ->
  (-2147483648 <= z < 0)%Z -> (length mem < length d)%nat ->
  user_private_key it (Some priv) (Some access) (Some pol) draw [mkOut (Some mem) (Some z)] = Undefined.
Proof using HP.
  intros Hp E1 E2 E3 E4 E5 Hs Hz Hm. apply deliver_negative with d; try assumption. left.
  intros outs. unfold andthen at 1. rewrite input_go by exact Hp. unfold andthen. cbn [not_null]. unfold unwrap, ret. rewrite E1, E2, E3, E4, E5. reflexivity.
Qed.
Theorem C53_negative_block_length_refuted key u number data d mem z : length key = key_length S -> key <> [] -> data <> [] ->
  decrypt_hybrid_block S 1073741824 key (optional_bytes u) (as_usize P number) data = Ok d ->
  blen d < usize_modulus P - 2147483648 -> (-2147483648 <= z < 0)%Z -> (length mem < length d)%nat ->
  decrypt_block (Some key) u number (Some data) [mkOut (Some mem) (Some z)] = Undefined.
Proof using HP.
  intros Lk Hk Hd E Hs Hz Hm. apply deliver_negative with d; try assumption. right.
  intros outs. unfold andthen at 1. rewrite input_go by exact Hk. unfold andthen at 1. rewrite input_go by exact Hd.
  unfold andthen, unwrap. rewrite array_from_ok by exact Lk. unfold max_clear_text. rewrite E. reflexivity.
Qed.

(** ** C52 *)
Theorem C52_cached_encryption pol pk p mpk outs0 outs0' cache handle attrs u ad random s nonce outs :
  encryption_cache_of P F policy_from pol pk outs0 = Go (p, mpk) outs0' -> cache handle = Some (p, mpk) ->
  encrypt_header_cached cache handle attrs u ad random s nonce outs = encrypt_header pol pk attrs u ad random s nonce outs.
Proof using Type.
  intros Hc Hh. unfold h_aes_encrypt_header_using_cache, h_aes_encrypt_header. rewrite !then_assoc_check.
  destruct (check_out 0 "symmetric key" outs) as [x o1|e o1|q|]; try reflexivity. rewrite !then_assoc_check.
  destruct (check_out 1 "header bytes" o1) as [y o2|e o2|q|]; try reflexivity.
  unfold encryption_cache_of in Hc. destruct pol as [pol|]; [|discriminate]. destruct pk as [[|b pk]|]; try discriminate.
  unfold andthen in Hc. cbn [not_null ret input_bytes] in Hc. unfold unwrap, ret, andthen, input_bytes in Hc. cbn in Hc.
  destruct (policy_from pol) as [p'|e|q] eqn:Ep; try discriminate. destruct (pub_dec F P (b :: pk)) as [k'|e|q] eqn:Ek; try discriminate.
  assert (p' = p) by congruence. assert (k' = mpk) by congruence. subst p' k'.
  unfold andthen. cbn [not_null]. unfold ret. rewrite Hh. rewrite input_go by discriminate.
  destruct attrs as [attrs|]; [|reflexivity]. cbn [not_null]. unfold ret, unwrap. rewrite Ep, Ek. reflexivity.
Qed.
Theorem C52_cached_decryption ukb uk outs0 outs0' cache handle header outs :
  decryption_cache_of P F ukb outs0 = Go uk outs0' -> cache handle = Some uk ->
  decrypt_header_cached cache handle header outs = decrypt_header header ukb outs.
Proof using Type.
  intros Hc Hh. unfold h_aes_decrypt_header_using_cache, h_aes_decrypt_header. rewrite !then_assoc_check.
  destruct (check_out 0 "symmetric key" outs) as [x o1|e o1|q|]; try reflexivity.
  unfold decryption_cache_of in Hc. destruct ukb as [[|b ukb]|]; try discriminate.
  unfold andthen in Hc. rewrite input_go in Hc by discriminate. unfold unwrap in Hc.
  destruct (user_dec F P (b :: ukb)) as [k'|e|q] eqn:Ek; try discriminate.
  assert (k' = uk) by congruence. subst k'.
  unfold andthen. destruct (pure_input header "encrypted header") as [r Hr]. rewrite Hr. destruct r as [h|[e|q]]; try reflexivity.
  rewrite Hh. rewrite input_go by discriminate. unfold unwrap at 2. rewrite Ek. reflexivity.
Qed.
Theorem C52_unknown_handle cache cache' handle attrs u ad random s nonce header o0 o1 o2 :
  cache handle = None -> cache' handle = None -> o_len o0 <> None -> o_len o1 <> None ->
  (exists e, encrypt_header_cached cache handle attrs u ad random s nonce [o0; o1] = Bail e [o0; o1]) /\
  (exists e, decrypt_header_cached cache' handle header [o0; o1; o2] = Bail e [o0; o1; o2]).
Proof using Type.
  intros H1 H2 L0 L1. unfold h_aes_encrypt_header_using_cache, h_aes_decrypt_header_using_cache. rewrite !then_assoc_check.
  assert (C : forall i w outs o, nth_error outs i = Some o -> o_len o <> None -> (exists e, check_out i w outs = Bail e outs) \/ check_out i w outs = Go tt outs).
  { intros i w outs o E L. unfold check_out. rewrite E. destruct (o_mem o); [|left; eexists; reflexivity]. destruct (o_len o) as [[| |]|]; [left; eexists; reflexivity|right; reflexivity|right; reflexivity|contradiction]. }
  split.
  - destruct (C 0%nat "symmetric key"%string [o0; o1] o0 eq_refl L0) as [[e ->]| ->]; [eexists; reflexivity|]. rewrite then_assoc_check.
    destruct (C 1%nat "header bytes"%string [o0; o1] o1 eq_refl L1) as [[e ->]| ->]; [eexists; reflexivity|].
    unfold andthen. destruct attrs; cbn [not_null]; unfold ret, bail; [rewrite H1|]; eexists; reflexivity.
  - destruct (C 0%nat "symmetric key"%string [o0; o1; o2] o0 eq_refl L0) as [[e ->]| ->]; [eexists; reflexivity|].
    unfold andthen. destruct header as [[|b h]|]; cbn [input_bytes not_null]; unfold input_bytes, andthen, ret, bail; cbn; rewrite ?H2; eexists; reflexivity.
Qed.

(** ** C56 *)
Variable fine : Gt B -> Prop.
Hypothesis HF : forms_ok F fine.
Hypothesis BL : BilinearLaws B.

(** [keys] is the text of the documentation of the function: 4 bytes of length, the private key, the public key *)
Definition split_keys (keys : list byte) : list byte * list byte :=
  let size := N.to_nat (from_be (firstn 4 keys)) in (firstn size (skipn 4 keys), skipn (4 + size) keys).

Theorem C56_master_keys_split pol p draw mk o o' : 64 <= usize_bits P ->
  policy_from pol = Ok p -> 1 <= max_attribute_creations p -> eng_master_key p draw = Ok mk -> fine (pub_y (pub_key mk)) ->
  good_out o -> master_keys (Some pol) draw [o] = Go tt [o'] ->
  priv_dec F P (fst (split_keys (read_out o'))) = Ok (priv_key mk) /\
  pub_dec F P (snd (split_keys (read_out o'))) = Ok (pub_key mk).
Proof using HP HF BL.
  intros H64 Ep Hn Emk Hf Hg E. 
  assert (exists priv pub, priv_enc F (priv_key mk) = Ok priv /\ pub_enc F (pub_key mk) = Ok pub /\ delivered (master_keys_bytes priv pub) o o' /\ (Z.of_nat (length (master_keys_bytes priv pub)) < 2147483648)%Z) as (priv & pub & E1 & E2 & D & Ld).
  { unfold h_generate_master_keys in E. rewrite then_assoc_check in E.
    destruct (check_out 0 "master keys" [o]) as [u outs|e outs|q|] eqn:Ec; try discriminate.
    apply check_go in Ec as [-> (x & mem & len & Ex & Em & El & Hl)]. cbn [nth_error] in Ex. assert (x = o) by congruence. subst x.
    unfold andthen in E. cbn [not_null] in E. unfold ret, unwrap in E. rewrite Ep, Emk in E.
    destruct (priv_enc F (priv_key mk)) as [priv|e|q]; try discriminate. destruct (pub_enc F (pub_key mk)) as [pub|e|q]; try discriminate.
    exists priv, pub. split; [reflexivity|]. split; [reflexivity|].
    destruct Hg as (len' & El' & Hg & Hm). assert (len' = len) by congruence. subst len'. specialize (Hm _ Em).
    destruct (deliver_cases P HP 0 (master_keys_bytes priv pub) [o] o mem len eq_refl Em El Hg Hm) as [[Hr Q]|[_ Q]]; rewrite Q in E; [|discriminate].
    cbn [set_out] in E. assert (Eo : o' = mkOut (Some (master_keys_bytes priv pub ++ skipn (length (master_keys_bytes priv pub)) mem)) (Some (Z.of_N (blen (master_keys_bytes priv pub))))) by congruence.
    subst o'. unfold blen in *. split; [|lia]. exists mem. cbn [o_mem o_len].
    split; [exact Em|]. split; [reflexivity|]. split; [lia|f_equal; lia]. }
  rewrite (delivered_read _ _ _ D). clear D E.
  unfold eng_master_key in Emk. destruct (generate_master_key_inv B BL _ _ _ Emk) as (t & y & Q & Ht & _).
  assert (Lp : length (priv_t (priv_key mk)) = N.to_nat (max_attribute_creations p)) by (rewrite Q; exact Ht).
  assert (Lq : length (pub_t (pub_key mk)) = N.to_nat (max_attribute_creations p)) by (rewrite Q; cbn; rewrite map_length; exact Ht).
  assert (Lm : blen (master_keys_bytes priv pub) < 2147483648) by (unfold blen; lia).
  unfold master_keys_bytes in *. rewrite !blen_app in Lm. change (blen (be32 (blen priv mod u32_modulus))) with 4 in Lm.
  unfold u32_modulus in *. rewrite N.mod_small in * by lia.
  assert (Hc : N.of_nat (length (priv_t (priv_key mk))) < 4294967295).
  { pose proof E1 as E1'. unfold priv_enc in E1'. apply bind_ok in E1' as (tb & Et & E1'). apply bind_ok in E1' as (yb & _ & E1').
    apply Ok_inj in E1'. subst priv. rewrite blen_app in Lm. pose proof (vec_enc_count _ _ _ Et) as Lc.
    pose proof (vec_enc_len _ _ _ (scalar_ok F fine HF) _ _ Lc Et) as Lt.
    destruct (priv_t (priv_key mk)) as [|x0 t0]; [cbn; lia|]. unfold vec_len in Lt. rewrite (ok_len _ _ _ (scalar_ok F fine HF)) in Lt. lia. }
  assert (N1 : forall (A : Type) (l : list A), length l = N.to_nat (max_attribute_creations p) -> N.of_nat (length l) < 4294967295 -> countable l).
  { intros A l H H'. split; [intros Q'; rewrite Q' in H; cbn in H; lia|exact H']. }
  destruct (priv_round F fine HF P H64 (priv_key mk) [] (N1 _ _ Lp Hc) eq_refl) as (b1 & B1 & _ & D1). rewrite app_nil_r in D1.
  destruct (pub_round F fine HF P H64 (pub_key mk) [] (N1 _ _ Lq ltac:(lia)) Hf eq_refl) as (b2 & B2 & _ & D2). rewrite app_nil_r in D2.
  assert (b1 = priv) by congruence. assert (b2 = pub) by congruence. subst b1 b2.
  unfold split_keys. rewrite firstn_be32, from_be_be32 by (unfold u32_modulus; lia). cbn [fst snd].
  change (skipn 4 (be32 (blen priv) ++ priv ++ pub)) with (priv ++ pub).
  change (skipn (4 + N.to_nat (blen priv)) (be32 (blen priv) ++ priv ++ pub)) with (skipn (N.to_nat (blen priv)) (priv ++ pub)).
  unfold blen. rewrite Nat2N.id. rewrite firstn_app, firstn_all, Nat.sub_diag, app_nil_r.
  rewrite skipn_app, skipn_all, Nat.sub_diag. cbn [app skipn]. split; assumption.
Qed.

(** ** C67: null pointers *)
Definition len_given (o : out_arg) : Prop := o_len o <> None.
Definition absent (x : option (list byte)) : Prop := x = None \/ x = Some [].

Lemma check_outs i w outs o : nth_error outs i = Some o -> len_given o ->
  (exists e, check_out i w outs = Bail e outs) \/ (check_out i w outs = Go tt outs /\ o_mem o <> None).
Proof using Type.
  intros E L. unfold check_out. rewrite E. unfold len_given in L. destruct (o_mem o) as [mem|]; [|left; eexists; reflexivity].
  destruct (o_len o) as [[| |]|]; [left; eexists; reflexivity| | |contradiction]; right; (split; [reflexivity|discriminate]).
Qed.
Lemma absent_input {A} x w (k : list byte -> ffi A) outs : absent x -> exists e, andthen (input_bytes x w) k outs = Bail e outs.
Proof using Type. intros [-> | ->]; eexists; reflexivity. Qed.
Lemma input_or {A} x w (k : list byte -> ffi A) outs :
  (exists b, x = Some b /\ andthen (input_bytes x w) k outs = k b outs) \/ exists e, andthen (input_bytes x w) k outs = Bail e outs.
Proof using Type.
  destruct x as [[|b l]|]; [right; eexists; reflexivity|left; eexists; split; reflexivity|right; eexists; reflexivity].
Qed.
Lemma null_or {A C} (x : option C) w (k : C -> ffi A) outs :
  (exists b, x = Some b /\ andthen (not_null x w) k outs = k b outs) \/ (x = None /\ exists e, andthen (not_null x w) k outs = Bail e outs).
Proof using Type.
  destruct x as [b|]; [left; exists b; split; reflexivity|right; split; [reflexivity|eexists; reflexivity]].
Qed.

(** a null (or empty) required input or a null output buffer: error, nothing touched *)
Ltac chk i w outs o H := rewrite then_assoc_check; destruct (check_outs i w outs o eq_refl H) as [[? ->]|[-> ?]]; [eexists; reflexivity|].
Ltac nul := match goal with
  | |- exists e, andthen (not_null ?x ?w) ?k ?o = _ => destruct (null_or x w k o) as [(? & -> & ->)|[_ [? ->]]]; [|eexists; reflexivity]
  | |- exists e, andthen (input_bytes ?x ?w) ?k ?o = _ => destruct (input_or x w k o) as [(? & -> & ->)|[? ->]]; [|eexists; reflexivity]
  end.
Ltac absurd_null := exfalso; repeat match goal with
  | H : _ \/ _ |- _ => destruct H
  | H : Some _ = None |- _ => discriminate H
  | H : o_mem ?o = None, H' : o_mem ?o <> None |- _ => exact (H' H)
  end; fail.

Theorem C67_null_pointers o o1 o2 : len_given o -> len_given o1 ->
  (forall pol draw, pol = None \/ o_mem o = None -> exists e, master_keys pol draw [o] = Bail e [o]) /\
  (forall it priv access pol draw, priv = None \/ access = None \/ pol = None \/ o_mem o = None ->
     exists e, user_private_key it priv access pol draw [o] = Bail e [o]) /\
  (forall attrs pol, attrs = None \/ pol = None \/ o_mem o = None -> exists e, rotate_attributes attrs pol [o] = Bail e [o]) /\
  (forall pol pk attrs u ad random s nonce, pol = None \/ pk = None \/ attrs = None \/ o_mem o = None \/ o_mem o1 = None ->
     exists e, encrypt_header pol pk attrs u ad random s nonce [o; o1] = Bail e [o; o1]) /\
  (forall header uk, header = None \/ uk = None \/ o_mem o = None -> exists e, decrypt_header header uk [o; o1; o2] = Bail e [o; o1; o2]) /\
  (forall key u number data nonce, key = None \/ data = None \/ o_mem o = None -> exists e, encrypt_block key u number data nonce [o] = Bail e [o]) /\
  (forall key u number data, key = None \/ data = None \/ o_mem o = None -> exists e, decrypt_block key u number data [o] = Bail e [o]).
Proof using Type.
  intros L0 L1. split; [|split; [|split; [|split; [|split; [|split]]]]]; intros.
  - unfold h_generate_master_keys. chk 0%nat "master keys"%string [o] o L0. nul. absurd_null.
  - unfold h_generate_user_private_key. chk 0%nat "user private key"%string [o] o L0. repeat nul. absurd_null.
  - unfold h_rotate_attributes. chk 0%nat "new policy"%string [o] o L0. repeat nul. absurd_null.
  - unfold h_aes_encrypt_header. chk 0%nat "symmetric key"%string [o; o1] o L0. chk 1%nat "header bytes"%string [o; o1] o1 L1. repeat nul. absurd_null.
  - unfold h_aes_decrypt_header. chk 0%nat "symmetric key"%string [o; o1; o2] o L0. repeat nul. absurd_null.
  - unfold h_aes_encrypt_block. chk 0%nat "encrypted bytes"%string [o] o L0. repeat nul. absurd_null.
  - unfold h_aes_decrypt_block. chk 0%nat "clear text bytes"%string [o] o L0. repeat nul. absurd_null.
Qed.

(** but a null length pointer is followed *)
Theorem C67_null_length_refuted mem o1 o2 : let o := mkOut (Some mem) None in
  (forall pol draw, master_keys pol draw [o] = Undefined) /\
  (forall it priv access pol draw, user_private_key it priv access pol draw [o] = Undefined) /\
  (forall attrs pol, rotate_attributes attrs pol [o] = Undefined) /\
  (forall pol pk attrs u ad random s nonce, encrypt_header pol pk attrs u ad random s nonce [o; o1] = Undefined) /\
  (forall header uk, decrypt_header header uk [o; o1; o2] = Undefined) /\
  (forall key u number data nonce, encrypt_block key u number data nonce [o] = Undefined) /\
  (forall key u number data, decrypt_block key u number data [o] = Undefined).
Proof using Type. intros o. repeat split. Qed.

(** ** C57 *)
Theorem C57_header_size outs :
  (exists e, h_get_encrypted_header_size None outs = Bail e outs) /\
  (exists e, h_get_encrypted_header_size (Some []) outs = Bail e outs) /\
  (forall b, 4 <= blen b -> from_be (firstn 4 b) < 2147483648 ->
     h_get_encrypted_header_size (Some b) outs = Go (Z.of_N (from_be (firstn 4 b))) outs) /\
  (forall b, 1 <= blen b < 4 -> h_get_encrypted_header_size (Some b) outs = Crash SliceOutOfRange).
Proof.
  clear HP. split; [eexists; reflexivity|]. split; [eexists; reflexivity|]. split; intros b Hb; [intros Hs|]; unfold blen in Hb;
    (destruct b as [|b0 b]; [cbn in Hb; lia|]).
  - do 3 (destruct b as [|? b]; [cbn in Hb; lia|]). cbn [firstn] in *.
    unfold h_get_encrypted_header_size, andthen, input_bytes, not_null, andthen, ret. unfold unwrap, slice. cbn [length Nat.leb andb firstn skipn Nat.sub].
    unfold u32_to_i32. match goal with |- context [?x <? ?y] => destruct (N.ltb_spec x y) end; [reflexivity|lia].
  - do 3 (destruct b as [|? b]; [reflexivity|]). exfalso. cbn [length] in Hb. lia.
Qed.
(** one byte crashes, and a size of 1 cannot be told from the error code 1 *)
Theorem C57_refuted outs : h_get_encrypted_header_size (Some [x00]) outs = Crash SliceOutOfRange /\
  h_get_encrypted_header_size (Some [x00; x00; x00; x01]) outs = Go 1%Z outs /\
  h_get_encrypted_header_size (Some [xff; xff; xff; xff]) outs = Go (-1)%Z outs.
Proof using Type. repeat split. Qed.

(** ** C68: the four functions work together *)
Variable metas : metadata -> Prop.
Hypothesis shake_length : forall b n, length (shake b n) = n.
Hypothesis SL : sym_laws S metas.

Lemma then_go {A C} (m : ffi A) (k : A -> ffi C) outs c outs' : andthen m k outs = Go c outs' ->
  exists a o1, m outs = Go a o1 /\ k a o1 = Go c outs'.
Proof using Type. unfold andthen. destruct (m outs) as [a o1| | |]; intros E; try discriminate. eauto. Qed.
Lemma unwrap_go {A} (o : outcome A) outs a outs' : unwrap o outs = Go a outs' -> o = Ok a /\ outs' = outs.
Proof using Type. unfold unwrap. destruct o; intros E; try discriminate. split; congruence. Qed.
Lemma null_go {A} (x : option A) w outs a outs' : not_null x w outs = Go a outs' -> x = Some a /\ outs' = outs.
Proof using Type. destruct x; cbn; unfold ret, bail; intros E; try discriminate. split; congruence. Qed.
Lemma input_go_inv x w outs a outs' : input_bytes x w outs = Go a outs' -> x = Some a /\ a <> [] /\ outs' = outs.
Proof using Type.
  intros E. apply then_go in E as (b & o1 & E1 & E). apply null_go in E1 as [-> ->]. destruct b as [|y b]; [discriminate|].
  unfold ret in E. assert (y :: b = a) by congruence. subst a. split; [reflexivity|]. split; [discriminate|congruence].
Qed.
Lemma deliver_go i d outs u outs' o : nth_error outs i = Some o -> good_out o -> deliver P i d outs = Go u outs' ->
  exists o', outs' = set_out outs i o' /\ delivered d o o' /\ blen d < 2147483648.
Proof using HP.
  intros E (len & El & Hl & Hm) H. destruct (o_mem o) as [mem|] eqn:Em.
  2:{ unfold deliver in H. rewrite E in H. destruct o; cbn in *. subst. discriminate. }
  specialize (Hm _ eq_refl). destruct (deliver_cases P HP i d outs o mem len E Em El Hl Hm) as [[Hr Q]|[_ Q]]; rewrite Q in H; [|discriminate].
  eexists. split; [injection H as _ H; symmetry; exact H|]. unfold blen in *. split; [|lia]. exists mem. cbn [o_mem o_len].
  split; [exact Em|]. split; [reflexivity|]. split; [lia|f_equal; lia].
Qed.
Ltac step E := apply then_go in E; let a := fresh "a" in let o1 := fresh "o" in let E1 := fresh "E" in destruct E as (a & o1 & E1 & E).

(** a key delivered in an int-sized buffer can be read back *)
Lemma user_key_reads_back (t : list (bm_K B)) y f uk d : 64 <= usize_bits P ->
  N.of_nat (length t) < 4294967296 -> (forall x, In x t -> x <> f0) -> obtained B P (master_of B t y) f uk ->
  user_enc F P uk = Ok d -> blen d < 2147483648 -> user_dec F P d = Ok uk.
Proof using HP HF BL.
  intros H64 Ht Hnz Ho E Hd. destruct (obtained_rep B BL P t y f uk Hnz Ho) as (m & sg & _ & R & _).
  assert (Hu : Forall u32 (leaves f)).
  { apply Forall_forall. intros a Ha. pose proof (SchemeProofs.kr_range _ _ _ _ _ _ R a Ha) as Hr. unfold SchemeProofs.in_range in Hr. unfold u32, u32_modulus. lia. }
  destruct (rep_key_ok t f m sg uk R Hu) as (Hk & Hr & Hc). pose proof (count_and_leaves f) as Hca.
  assert (Hl : (length (raw_d uk) = nb_row (dk_msp uk))%nat) by apply Hk.
  pose proof E as E'. unfold user_enc in E'. apply bind_ok in E' as (rb & Er & E'). apply bind_ok in E' as (mb & Em & E'). apply Ok_inj in E'. subst d.
  rewrite blen_app in Hd. pose proof (vec_enc_count _ _ _ Er) as Lc. pose proof (vec_enc_len _ _ _ (g3_ok F fine HF) _ _ Lc Er) as Lr.
  assert (L : (nb_row (dk_msp uk) <= N.to_nat 134217728)%nat).
  { rewrite <- Hl. destruct (raw_d uk) as [|x l]; [cbn; lia|]. unfold vec_len in Lr. rewrite (ok_len _ _ _ (g3_ok F fine HF)) in Lr. lia. }
  destruct (user_round F fine HF P H64 uk [] Hk) as (b & Eb & _ & D); [exact L|lia|reflexivity|].
  rewrite app_nil_r in D. congruence.
Qed.

Theorem C68_functions_work_together pol p n ops mdraw o o1 it access ap kdraw o2 o3 attrs l u ad random (s : bm_K B) nonce ok oh ok' oh' :
  64 <= usize_bits P -> 1 <= n < 4294967296 ->
  (** the policy is one made by the library *)
  policy_from pol = Ok p -> run_ops ops (new_policy n) = Ok p -> access_from access = Ok ap -> attributes_from attrs = Ok l -> l <> [] ->
  iteration_ok it ->
  (** master keys, cut in two by the caller *)
  good_out o -> master_keys (Some pol) mdraw [o] = Go tt [o1] ->
  (forall mk, eng_master_key p mdraw = Ok mk -> fine (pub_y (pub_key mk))) ->
  (** a user key *)
  good_out o2 -> user_private_key it (Some (fst (split_keys (read_out o1)))) (Some access) (Some pol) kdraw [o2] = Go tt [o3] ->
  (** a header *)
  good_out ok -> good_out oh -> length nonce = nonce_length S -> metas (meta_of u ad) ->
  encrypt_header (Some pol) (Some (snd (split_keys (read_out o1)))) (Some attrs) u ad random s nonce [ok; oh] = Go tt [ok'; oh'] ->
  (forall mk ct, eng_master_key p mdraw = Ok mk -> eng_encrypt P p (pub_key mk) l random s = Ok ct -> fine (e_prime ct)) ->
  (satisfied ops (fun b => In b l) ap ->
     decrypt_protocol (mkClearHeader (read_out ok') (meta_of u ad)) (decrypt_header (Some (read_out oh')) (Some (read_out o3)))) /\
  (~ satisfied ops (fun b => In b l) ap -> forall o0 ou oa, len_given o0 ->
     exists e, decrypt_header (Some (read_out oh')) (Some (read_out o3)) [o0; ou; oa] = Bail e [o0; ou; oa]).
Proof using HP HF BL SL shake_length.
  intros H64 Hn Ep Hp Ea El Hl Hit Go Em Hfy G2 Eu Gk Gh Hno Hmeta Ee Hfc.
  pose proof (run_max _ _ _ Hp) as Hmax. change (max_attribute_creations (new_policy n)) with n in Hmax.
  assert (exists mk, eng_master_key p mdraw = Ok mk) as (mk & Emk).
  { pose proof Em as E. step E. step E. step E. step E. apply unwrap_go in E3 as [Ep' _]. apply null_go in E1 as [Q _].
    apply unwrap_go in E2 as [Ep2 _]. exists a2. congruence. }
  destruct (C56_master_keys_split pol p mdraw mk o o1 H64 Ep ltac:(lia) Emk (Hfy _ Emk) Go Em) as [Dpriv Dpub].
  assert (exists uk d, eng_user_key P it p (priv_key mk) ap kdraw = Ok uk /\ user_enc F P uk = Ok d /\ delivered d o2 o3 /\ blen d < 2147483648)
    as (uk & d & Euk & Ed & D3 & Ld).
  { pose proof Eu as E. step E. step E. step E. step E. step E. step E. step E. step E. step E.
    apply check_go in E0 as [-> _]. apply input_go_inv in E1 as (Q1 & _ & ->). apply null_go in E2 as [Q2 ->]. apply null_go in E3 as [Q3 ->].
    apply unwrap_go in E4 as [Q4 ->]. apply unwrap_go in E5 as [Q5 ->]. apply unwrap_go in E6 as [Q6 ->]. apply unwrap_go in E7 as [Q7 ->].
    apply unwrap_go in E8 as [Q8 ->].
    assert (a0 = fst (split_keys (read_out o1))) by congruence. subst a0. assert (a3 = priv_key mk) by congruence. subst a3.
    assert (a1 = access) by congruence. subst a1. assert (a4 = ap) by congruence. subst a4. assert (a2 = pol) by congruence. subst a2.
    assert (a5 = p) by congruence. subst a5.
    apply (deliver_go 0 a7 [o2] tt [o3] o2 eq_refl G2) in E as (o' & Eo & D & L). cbn [set_out] in Eo. assert (o3 = o') by congruence. subst o'.
    exists a6, a7. repeat split; assumption. }
  assert (exists h, encrypt_hybrid_header S F shake P p (pub_key mk) l (Some (meta_of u ad)) random s nonce = Ok h /\
            delivered (eh_key h) ok ok' /\ delivered (eh_bytes h) oh oh' /\ blen (eh_key h) < 2147483648) as (h & Eh & Dk & Dh & Lk).
  { pose proof Ee as E. step E. step E. step E. step E. step E. step E. step E. step E. step E. step E.
    apply check_go in E0 as [-> _]. apply check_go in E1 as [-> _]. apply null_go in E2 as [Q1 ->]. apply input_go_inv in E3 as (Q2 & _ & ->).
    apply null_go in E4 as [Q3 ->]. apply unwrap_go in E5 as [Q4 ->]. apply unwrap_go in E6 as [Q5 ->]. apply unwrap_go in E7 as [Q6 ->].
    apply unwrap_go in E8 as [Q7 ->].
    assert (a1 = pol) by congruence. subst a1. assert (a4 = p) by congruence. subst a4.
    assert (a2 = snd (split_keys (read_out o1))) by congruence. subst a2. assert (a5 = pub_key mk) by congruence. subst a5.
    assert (a3 = attrs) by congruence. subst a3. assert (a6 = l) by congruence. subst a6.
    assert (Q : meta_arg u ad = meta_of u ad) by (unfold meta_arg, meta_of, optional_bytes; destruct ad as [[|x b]|]; reflexivity).
    rewrite Q in Q7. exists a7. split; [exact Q7|].
    apply (deliver_go 0 (eh_key a7) [ok; oh] a8 _ ok eq_refl Gk) in E9 as (x1 & -> & D1 & L1). cbn [set_out] in E.
    apply (deliver_go 1 (eh_bytes a7) [x1; oh] tt [ok'; oh'] oh eq_refl Gh) in E as (x2 & Eo & D2 & L2). cbn [set_out] in Eo.
    assert (ok' = x1) by congruence. assert (oh' = x2) by congruence. subst x1 x2. repeat split; assumption. }
  rewrite (delivered_read _ _ _ D3), (delivered_read _ _ _ Dk), (delivered_read _ _ _ Dh).
  assert (Duk : user_dec F P d = Ok uk).
  { unfold eng_master_key in Emk. destruct (generate_master_key_inv B BL _ _ _ Emk) as (t & y & -> & Ht & Hnz).
    unfold eng_user_key in Euk. rewrite policy_to_msp_formula in Euk. apply bind_ok in Euk as (m & Q & Ek).
    apply bind_ok in Q as (f & Ef & Q). apply (user_key_reads_back t y f uk d H64); try assumption.
    - rewrite Ht, Hmax. lia.
    - apply ob_gen with m kdraw; assumption. }
  assert (Hd : d <> []).
  { intros ->. unfold user_dec in Duk. discriminate. }
  assert (Hk : user_key P mk p ap uk) by (apply uk_gen with it kdraw; assumption).
  assert (Hh : eh_bytes h <> []).
  { destruct (header_layout B F shake S P p (pub_key mk) l _ random s nonce h Eh) as (sk & tail & _ & _ & _ & Q & _). rewrite Q. discriminate. }
  split; intros Hs.
  - apply (C54_decrypt_header (eh_bytes h) d uk); try assumption.
    apply (C46_header_roundtrip B BL F fine HF shake shake_length S metas SL P n ops p mdraw mk ap uk l (Some (meta_of u ad)) random s nonce h); try assumption; [lia| |].
    + intros m Q. assert (m = meta_of u ad) by congruence. subst m. exact Hmeta.
    + intros ct. apply Hfc. exact Emk.
  - intros o0 ou oa L0. unfold h_aes_decrypt_header. chk 0%nat "symmetric key"%string [o0; ou; oa] o0 L0.
    unfold andthen at 1. rewrite input_go by exact Hh. unfold andthen at 1. rewrite input_go by exact Hd. unfold andthen, unwrap. rewrite Duk.
    destruct (C47_unauthorised_header B BL F fine HF shake S P n ops p mdraw mk ap uk l (Some (meta_of u ad)) random s nonce h (length (eh_bytes h)))
      as [e Q]; try assumption; [lia| |].
    { intros ct. apply Hfc. exact Emk. }
    rewrite firstn_all in Q. rewrite Q. eexists. reflexivity.
Qed.
End Functions.

(** ** C55 *)
Theorem C55_last_error nul mem len msg prev : (1 <= len)%Z -> (len <= Z.of_nat (length mem))%Z -> ~ In x00 msg ->
  let n := Nat.min (Z.to_nat len - 1) (length msg) in
  exists mem', get_last_error nul mem len (set_last_error msg prev) = Some (0%Z, mem', Z.of_nat n, None) /\
    length mem' = length mem /\ firstn n mem' = firstn n msg /\
    (** a NUL follows the message, and nothing is written after the announced length *)
    (forall i, (n <= i < Z.to_nat len)%nat -> nth_error mem' i = Some x00) /\
    (forall i, (Z.to_nat len <= i)%nat -> nth_error mem' i = nth_error mem i) /\
    (** a second call finds nothing *)
    exists mem'', get_last_error nul mem' len None = Some (0%Z, mem'', 0%Z, None) /\ nth_error mem'' 0 = Some x00.
Proof.
  intros H1 H2 Hn n. assert (Hz : has_nul msg = false).
  { unfold has_nul. apply not_true_iff_false. intros Q. apply existsb_exists in Q as (x & Hx & E). apply Byte.byte_dec_bl in E. subst x. contradiction. }
  unfold get_last_error, set_last_error. destruct (Z.ltb_spec len 1); [lia|]. rewrite Hz. cbn [has_nul existsb].
  replace (Z.to_nat (len - 1)) with (Z.to_nat len - 1)%nat by lia. fold n. cbn [length Nat.min].
  assert (Hn' : (n <= Z.to_nat len - 1)%nat) by (unfold n; lia). assert (Hm : (n <= length msg)%nat) by (unfold n; lia).
  set (res := firstn n msg ++ repeat x00 (Z.to_nat len - n)).
  assert (Lr : length res = Z.to_nat len) by (unfold res; rewrite app_length, firstn_length, repeat_length; lia).
  rewrite (copy_fits pf ltac:(cbn; lia)) by (unfold blen; lia). eexists. split; [reflexivity|].
  assert (Lm : length (res ++ skipn (length res) mem) = length mem) by (rewrite app_length, skipn_length; lia).
  split; [exact Lm|]. split.
  { unfold res. rewrite <- app_assoc. rewrite firstn_app, firstn_firstn, firstn_length. replace (n - Nat.min n (length msg))%nat with 0%nat by lia.
    cbn [firstn]. rewrite app_nil_r. f_equal. lia. }
  split.
  { intros i Hi. rewrite nth_error_app1 by lia. unfold res. rewrite nth_error_app2 by (rewrite firstn_length; lia).
    rewrite firstn_length. rewrite (nth_error_nth' _ x00) by (rewrite repeat_length; lia). rewrite nth_repeat. reflexivity. }
  split.
  { intros i Hi. rewrite nth_error_app2 by lia. rewrite Lr. rewrite <- (firstn_skipn (Z.to_nat len) mem) at 2.
    rewrite (nth_error_app2 (firstn _ _)) by (rewrite firstn_length; lia). f_equal. rewrite firstn_length. lia. }
  rewrite (copy_fits pf ltac:(cbn; lia)) by (unfold blen; rewrite app_length, repeat_length, firstn_length; cbn [length]; lia).
  rewrite Nat.min_0_r. eexists. split; [reflexivity|]. cbn [firstn app]. rewrite Nat.sub_0_r.
  destruct (Z.to_nat len) as [|k] eqn:Q; [lia|]. reflexivity.
Qed.
(** an error whose message has a NUL byte (it quotes the caller's data) is lost *)
Theorem C55_refuted : exists msg mem, forall nul,
  get_last_error nul mem 10%Z (set_last_error msg None) = Some (1%Z, mem, 10%Z, Some (nul msg)).
Proof. exists [x41; x00; x42], (repeat x01 10). reflexivity. Qed.
Example C55_example : forall nul,
  get_last_error nul (repeat x01 6) 4%Z (set_last_error [x41; x42; x43; x44; x45] None)
    = Some (0%Z, [x41; x42; x43; x00; x01; x01], 3%Z, None).
Proof. reflexivity. Qed.

(** ** Examples: the whole way through the C interface *)
Definition outs_of {A} (r : result A) : list out_arg := match r with Go _ o | Bail _ o => o | _ => [] end.
Definition out_n {A} (i : nat) (r : result A) : out_arg := nth i (outs_of r) (mkOut None None).
Definition room_for (n : nat) : out_arg := mkOut (Some (repeat xee n)) (Some (Z.of_nat n)).
(** one-byte documents *)
Definition c_policy (b : list byte) : outcome policy := match b with [x01] => Ok pol_a | _ => Err Utf8Error end.
Definition c_attrs (b : list byte) : outcome (list attribute) :=
  match b with [x01] => Ok [dept "HR"; level "Protected"] | [x02] => Ok [dept "HR"] | _ => Err Utf8Error end.
Definition c_access (b : list byte) : outcome access_policy := match b with [x01] => Ok ex_ap | _ => Err Utf8Error end.
Definition c_master := h_generate_master_keys pf toy_forms c_policy (Some [x01]) ex_draw.
Definition c_keys : list byte * list byte := split_keys (read_out (out_n 0 (c_master [room_for 3000]))).
Definition c_user := h_generate_user_private_key pf toy_forms c_policy c_access it_rev (Some (fst c_keys)) (Some [x01]) (Some [x01]) ex_kdraw.
Definition c_header (a : byte) :=
  h_aes_encrypt_header pf toy_forms toy_shake toy_sym c_policy c_attrs (Some [x01]) (Some (snd c_keys)) (Some [a]) (Some [x01; x02; x03]) (Some [x0a; x0b])
    ex_msg ex_s ex_nonce.
Definition c_open (a : byte) := h_aes_decrypt_header pf toy_forms toy_shake toy_sym
  (Some (read_out (out_n 1 (c_header a [room_for 40; room_for 1000])))) (Some (read_out (out_n 0 (c_user [room_for 3000])))).
Definition code {A} (r : result A) : option Z := match r with Go _ _ => Some 0%Z | Bail _ _ => Some 1%Z | _ => None end.

Example C52_C68_example :
  code (c_master [room_for 3000]) = Some 0%Z /\
  code (c_user [room_for 3000]) = Some 0%Z /\
  code (c_header x01 [room_for 40; room_for 1000]) = Some 0%Z /\
  (** the authorised key opens the header: symmetric key, uid and additional data *)
  map read_out (outs_of (c_open x01 [room_for 40; room_for 10; room_for 10]))
    = [read_out (out_n 0 (c_header x01 [room_for 40; room_for 1000])); [x01; x02; x03]; [x0a; x0b]] /\
  (** it does not open the other one *)
  code (c_open x02 [room_for 40; room_for 10; room_for 10]) = Some 1%Z.
Proof.
  split; [vmr (Some 0%Z)|]. split; [vmr (Some 0%Z)|]. split; [vmr (Some 0%Z)|].
  split; [vmr (map read_out (outs_of (c_open x01 [room_for 40; room_for 10; room_for 10])))|]. vmr (Some 1%Z).
Qed.

(** the buffers are too small, then of the size asked for, then not announced at all *)
Example C53_C54_example :
  code (c_header x01 [room_for 40; room_for 10]) = Some 1%Z /\
  map o_len (outs_of (c_header x01 [room_for 40; room_for 10])) = [Some 32%Z; Some 430%Z] /\
  code (c_header x01 [room_for 32; room_for 430]) = Some 0%Z /\
  map o_len (outs_of (c_header x01 [room_for 40; room_for 0])) = [Some 40%Z; Some 0%Z].
Proof.
  split; [vmr (Some 1%Z)|]. split; [vmr [Some 32%Z; Some 430%Z]|]. split; [vmr (Some 0%Z)|]. vmr [Some 40%Z; Some 0%Z].
Qed.
Example C57_example outs : h_get_encrypted_header_size (Some [x00; x00; x01; x02; x55]) outs = Go 258%Z outs.
Proof. reflexivity. Qed.

Print Assumptions C54_second_call.
Print Assumptions C53_key_functions_memory_safe.
Print Assumptions C53_block_functions_memory_safe.
Print Assumptions C53_header_functions_memory_safe.
Print Assumptions C54_master_keys.
Print Assumptions C54_user_key.
Print Assumptions C54_rotation.
Print Assumptions C54_encrypt_block_refuted.
Print Assumptions C54_decrypt_block_refuted.
Print Assumptions C54_encrypt_header.
Print Assumptions C54_decrypt_header.
Print Assumptions C54_empty_buffer_refuted.
Print Assumptions C53_negative_length_refuted.
Print Assumptions C53_negative_block_length_refuted.
Print Assumptions C52_cached_encryption.
Print Assumptions C52_cached_decryption.
Print Assumptions C52_unknown_handle.
Print Assumptions C56_master_keys_split.
Print Assumptions C67_null_pointers.
Print Assumptions C67_null_length_refuted.
Print Assumptions C57_header_size.
Print Assumptions C57_refuted.
Print Assumptions C68_functions_work_together.
Print Assumptions C55_last_error.
Print Assumptions C55_refuted.

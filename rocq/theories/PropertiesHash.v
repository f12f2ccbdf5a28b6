(** Telling the symmetric keys of headers from random bytes (C110). *)
From Coq Require Import String NArith ZArith Bool Lia Permutation Field_theory Field ArithRing Strings.Byte List.
From Verif Require Import Prelude Field LinAlg Msp Spec MspProofs Minimal Gauss GaussProofs Bilinear Scheme SchemeSpec
  SchemeProofs SchemeTheorems CollusionSpec LuckSpec GameSpec ManySpec HashSpec Zp ExpModel Primality Bls Curve PropertiesScheme PropertiesDelegation PropertiesCollusion PropertiesPersonal
  PropertiesLuck PropertiesGame PropertiesMany EngineProofs.
Import ListNotations.

(** ** Counting *)
Lemma le_stable a b : ~ ~ (a <= b)%nat -> (a <= b)%nat.
Proof. intros H. destruct (Nat.le_gt_cases a b) as [L|L]; [exact L|]. exfalso. apply H. lia. Qed.
Lemma either_way (Q G : Prop) : (~ ~ G -> G) -> (Q -> G) -> (~ Q -> G) -> G.
Proof. intros N H1 H2. apply N. intros F. apply F. apply H2. intros q. apply F. exact (H1 q). Qed.
Lemma nn_split {A} (Q : A -> Prop) (l : list A) (G : Prop) : (~ ~ G -> G) -> NoDup l ->
  (forall l1 l2, NoDup l1 -> NoDup l2 -> length l = (length l1 + length l2)%nat -> (forall a, In a l1 -> In a l /\ Q a) -> (forall a, In a l2 -> In a l /\ ~ Q a) -> G) -> G.
Proof.
  intros N. revert G N. induction l as [|a l IH]; intros G N Hnd H.
  - apply (H [] []); [constructor|constructor|reflexivity|intros a []|intros a []].
  - inversion Hnd as [|? ? Ha Hl]; subst. apply (either_way (Q a) G N); intros Hq; apply (IH G N Hl); intros l1 l2 N1 N2 L I1 I2.
    + apply (H (a :: l1) l2); try assumption; [constructor; [intros X; apply Ha, (I1 a X)|exact N1]|cbn [length]; lia| |].
      * intros z [<-|Hz]; [split; [left; reflexivity|exact Hq]|]. destruct (I1 z Hz). split; [right; assumption|assumption].
      * intros z Hz. destruct (I2 z Hz). split; [right; assumption|assumption].
    + apply (H l1 (a :: l2)); try assumption; [constructor; [intros X; apply Ha, (I2 a X)|exact N2]|cbn [length]; lia| |].
      * intros z Hz. destruct (I1 z Hz). split; [right; assumption|assumption].
      * intros z [<-|Hz]; [split; [left; reflexivity|exact Hq]|]. destruct (I2 z Hz). split; [right; assumption|assumption].
Qed.
Lemma none_left {A} (l : list A) : (forall a, In a l -> False) -> length l = 0%nat.
Proof. destruct l as [|a l]; [reflexivity|]. intros H. destruct (H a (or_introl eq_refl)). Qed.
Lemma nodup_map_on {A C} (f : A -> C) l : NoDup l -> (forall a b, In a l -> In b l -> f a = f b -> a = b) -> NoDup (map f l).
Proof.
  induction 1 as [|a l Ha Hl IH]; intros H; [constructor|]. cbn [map]. constructor.
  - intros X. apply in_map_iff in X as (b & E & Hb). apply Ha. rewrite <- (H b a (or_intror Hb) (or_introl eq_refl) E). exact Hb.
  - apply IH. intros x y Hx Hy. apply H; right; assumption.
Qed.
Lemma few_fibres {A C} (Bs : list C) : forall (W : list (A * C)) c1 c2, NoDup W -> (forall p, In p W -> In (snd p) Bs) ->
  (forall b Wa, In b Bs -> NoDup Wa -> (forall a, In a Wa -> In (a, b) W) -> (length Wa * c1 <= c2)%nat) -> (length W * c1 <= length Bs * c2)%nat.
Proof.
  induction Bs as [|b Bs IH]; intros W c1 c2 Hnd Hin H.
  - rewrite (none_left W); [lia|]. intros a Ha. destruct (Hin a Ha).
  - apply (nn_split (fun p => snd p = b) W); [apply le_stable|exact Hnd|]. intros l1 l2 N1 N2 L I1 I2.
    assert (Q1 : (length l1 * c1 <= c2)%nat).
    { rewrite <- (map_length fst l1). apply (H b); [left; reflexivity| |].
      - apply nodup_map_on; [exact N1|]. intros [a1 b1] [a2 b2] H1 H2 E. destruct (I1 _ H1) as [_ E1]. destruct (I1 _ H2) as [_ E2]. cbn in *. congruence.
      - intros a Ha. apply in_map_iff in Ha as ([a' b'] & E & Hz). destruct (I1 _ Hz) as [Hw E1]. cbn in *. subst. exact Hw. }
    assert (Q2 : (length l2 * c1 <= length Bs * c2)%nat).
    { apply IH; [exact N2| |].
      - intros p Hp. destruct (I2 p Hp) as [Hw Hb]. destruct (Hin p Hw) as [X|X]; [congruence|exact X].
      - intros b' Wa Hb' Hn Ha. apply (H b' Wa); [right; exact Hb'|exact Hn|]. intros a X. apply (I2 _ (Ha a X)). }
    rewrite L. cbn [length]. lia.
Qed.
Lemma few_some {A} (Q : nat -> A -> Prop) k : forall (W : list A) q N, NoDup W -> (forall a, In a W -> exists i, (i < k)%nat /\ Q i a) ->
  (forall i W', (i < k)%nat -> NoDup W' -> (forall a, In a W' -> In a W /\ Q i a) -> (length W' * q <= N)%nat) -> (length W * q <= k * N)%nat.
Proof.
  induction k as [|k IH]; intros W q N Hnd Hex H.
  - rewrite (none_left W); [lia|]. intros a Ha. destruct (Hex a Ha) as (i & Hi & _). lia.
  - apply (nn_split (Q k) W); [apply le_stable|exact Hnd|]. intros l1 l2 N1 N2 L I1 I2.
    pose proof (H k l1 ltac:(lia) N1 I1) as Q1.
    assert (Q2 : (length l2 * q <= k * N)%nat).
    { apply IH; [exact N2| |].
      - intros a Ha. destruct (I2 a Ha) as [Hw Hq]. destruct (Hex a Hw) as (i & Hi & Hqi). exists i. split; [|exact Hqi].
        destruct (Nat.eq_dec i k) as [->|]; [contradiction|lia].
      - intros i W' Hi Hn Ha. apply (H i W'); [lia|exact Hn|]. intros a X. destruct (Ha a X) as [X1 X2]. split; [apply (I2 a X1)|exact X2]. }
    rewrite L. cbn [Nat.mul]. lia.
Qed.
Lemma nodup_product {A C} (l : list A) (l' : list C) : NoDup l -> NoDup l' -> NoDup (list_prod l l').
Proof.
  intros H H'. induction H as [|a l Ha Hl IH]; [constructor|]. cbn [list_prod]. apply NoDup_app_iff. split; [|split; [exact IH|]].
  - apply nodup_map_on; [exact H'|]. congruence.
  - intros [x y] Hx Hy. apply in_map_iff in Hx as (z & E & _). apply in_prod_iff in Hy as [Hy _]. congruence.
Qed.

Section Lists.
Context {K : Type}.
Variable d : K.
Variable elems : list K.
Hypothesis Hnd : NoDup elems.
Hypothesis Hall : forall x : K, In x elems.
Local Notation q := (length elems).

Lemma all_lists m (r : list K) : In r (prods (repeat elems m)) <-> length r = m.
Proof using Hall.
  rewrite prods_in, Forall2_repeat. split; [intros [H _]; exact H|]. intros H. split; [exact H|]. intros z _. apply Hall.
Qed.
Lemma lists_count m : length (prods (repeat elems m)) = (q ^ m)%nat.
Proof using.
  rewrite prods_count. induction m as [|m IH]; [reflexivity|]. cbn [repeat map fold_right Nat.pow]. rewrite IH. reflexivity.
Qed.
Lemma lists_nodup m : NoDup (prods (repeat elems m)).
Proof using Hnd.
  induction m as [|m IH]; cbn [repeat prods]; [constructor; [intros []|constructor]|].
  apply nodup_map_on; [apply nodup_product; assumption|]. intros [a b] [a' b'] _ _ E. cbn in E. congruence.
Qed.
Lemma put_back (r r' : list K) i x : length r = length r' -> (i < length r)%nat -> nth i r d = nth i r' d -> put i x r = put i x r' -> r = r'.
Proof using.
  revert r' i. induction r as [|a r IH]; intros [|b r'] i L Hi E P; cbn [length] in *; try lia.
  destruct i as [|i]; cbn [put nth] in *; [congruence|]. assert (a = b) by congruence. assert (P' : put i x r = put i x r') by congruence.
  subst b. f_equal. apply (IH r' i); [lia|lia|exact E|exact P'].
Qed.
(** lists in which one value is determined by the others *)
Lemma few_at m i (F : list K -> K) (W : list (list K)) : (i < m)%nat -> NoDup W ->
  (forall r, In r W -> length r = m /\ forall x, nth i r d = F (put i x r)) -> (length W * q <= q ^ m)%nat.
Proof using Hnd Hall.
  intros Hi HW H. rewrite <- (prod_length W elems), <- (map_length (fun z => put i (snd z) (fst z)) (list_prod W elems)), <- (lists_count m).
  apply NoDup_incl_length.
  - apply nodup_map_on; [apply nodup_product; assumption|]. intros [r x] [r' x'] H1 H2 E. cbn [fst snd] in E.
    apply in_prod_iff in H1 as [H1 _]. apply in_prod_iff in H2 as [H2 _]. destruct (H r H1) as [L1 F1]. destruct (H r' H2) as [L2 F2].
    assert (Ex : x = x').
    { apply (f_equal (fun z => nth i z d)) in E. rewrite !nth_put, Nat.eqb_refl in E by lia. exact E. }
    subst x'. f_equal. apply (put_back r r' i x); [lia|lia| |exact E]. rewrite (F1 x), (F2 x), E. reflexivity.
  - intros z Hz. apply in_map_iff in Hz as ([r x] & <- & Hz). apply in_prod_iff in Hz as [Hz _]. apply all_lists. cbn [fst snd]. rewrite put_length. apply (H r Hz).
Qed.
Lemma repeated (dec : forall x y : K, {x = y} + {x <> y}) (r : list K) : ~ NoDup r ->
  exists i, (i < length r)%nat /\ exists j, (j < length r)%nat /\ i <> j /\ nth i r d = nth j r d.
Proof using.
  induction r as [|a r IH]; intros H; [destruct H; constructor|]. destruct (in_dec dec a r) as [Ha|Ha].
  - apply (In_nth _ _ d) in Ha as (j & Hj & E). exists 0%nat. split; [cbn; lia|]. exists (S j). cbn [length nth]. split; [lia|]. split; [discriminate|]. symmetry. exact E.
  - destruct IH as (i & Hi & j & Hj & D & E); [intros X; apply H; constructor; assumption|].
    exists (S i). cbn [length nth]. split; [lia|]. exists (S j). split; [lia|]. split; [congruence|exact E].
Qed.
Lemma few_repeated (dec : forall x y : K, {x = y} + {x <> y}) m (W : list (list K)) : NoDup W -> (forall r, In r W -> length r = m /\ ~ NoDup r) ->
  (length W * q <= m * (m * q ^ m))%nat.
Proof using d Hnd Hall.
  intros HW H. apply (few_some (fun i r => exists j, (j < m)%nat /\ i <> j /\ nth i r d = nth j r d) m W); [exact HW| |].
  - intros r Hr. destruct (H r Hr) as [L N]. destruct (repeated dec r N) as (i & Hi & j & Hj & X). rewrite L in *. exists i. split; [exact Hi|]. exists j. split; [exact Hj|exact X].
  - intros i W1 Hi N1 H1. apply (few_some (fun j r => i <> j /\ nth i r d = nth j r d) m W1); [exact N1| |].
    + intros r Hr. destruct (H1 r Hr) as [_ X]. exact X.
    + intros j W2 Hj N2 H2. apply (few_at m i (fun z => nth j z d) W2); [exact Hi|exact N2|]. intros r Hr. destruct (H2 r Hr) as [Hr1 [D E]].
      assert (L : length r = m) by (apply H, (H1 r Hr1)). split; [exact L|]. intros x. rewrite nth_put by lia. destruct (Nat.eqb_spec j i); [congruence|exact E].
Qed.
End Lists.

Section Wrapping.
Variable B : BilinearMap.
Variable BL : BilinearLaws B.
Local Notation K := (bm_K B).
Local Notation KL := (bl_field B BL).
Add Field KF26 : (fl_field K KL).
Local Notation gt := (gt_gen_exp B).
Implicit Types P : platform.

(** ** The attacker as an attacker of [ManySpec] *)
Definition fixed (x : K) : combination B := [mkStrategy [] [(OneGt, x)]].
Definition up1 (n : name1) : name1 := match n with KeyPart k r => KeyPart (S k) r | _ => n end.
Definition up (a : combination B) : combination B :=
  map (fun z => mkStrategy (map (fun x => (up1 (fst (fst x)), snd (fst x), snd x)) (pairings z)) (others z)) a.
Definition table := list (combination B * list byte).
Fixpoint look (tab : table) (a : combination B) (found : list byte -> plans B) (absent : plans B) : plans B :=
  match tab with [] => absent | e :: tab => Equal a (fst e) (found (snd e)) (look tab a found absent) end.
Fixpoint sim (real : bool) (r r' : list K) (o : nat -> list byte) (fs : list node) (tab : table) (k nh : nat) (p : quest B) : plans B :=
  match p with
  | Says b => Done b
  | Same a b p q => Equal a b (sim real r r' o fs tab k nh p) (sim real r r' o fs tab k nh q)
  | Asks e shown p => Issue e shown match formula_of fs e with
      | Some f => sim real r r' o (f :: fs) (if shown then map (fun e => (up (fst e), snd e)) tab else tab) k nh p
      | None => Done true end
  | Hashes a next => look tab a (fun v => sim real r r' o fs tab k nh (next v)) (sim real r r' o fs ((firstn (S nh) a, o k) :: tab) (S k) nh (next (o k)))
  | Wraps gam next =>
      if real then
        look tab (fixed (values r nh)) (fun v => Either gam (fixed (values r nh)) (fixed (values r' nh)) (sim real r r' o fs tab k (S nh) (next v)))
          (Either gam (fixed (values r nh)) (fixed (values r' nh)) (sim real r r' o fs ((fixed (values r nh), o k) :: tab) (S k) (S nh) (next (o k))))
      else Either gam (fixed (values r nh)) (fixed (values r' nh)) (sim real r r' o fs tab (S k) (S nh) (next (o k)))
  end.

Lemma look_fair n m fs held targets tab a found absent : (forall v, fairly n m fs held targets (found v)) -> fairly n m fs held targets absent ->
  fairly n m fs held targets (look tab a found absent).
Proof. intros H1 H2. induction tab as [|e tab IH]; [exact H2|]. cbn [look fairly]. split; [apply H1|exact IH]. Qed.
Lemma look_equations tab a found absent N : (forall v, equations (found v) <= N)%nat -> (equations absent <= N)%nat -> (equations (look tab a found absent) <= length tab + N)%nat.
Proof.
  intros H1 H2. induction tab as [|e tab IH]; [cbn; exact H2|]. cbn [look equations length]. pose proof (H1 (snd e)). lia.
Qed.
Lemma sim_fair real r r' o n m p : forall c h fs held targets tab k, decent n m c h fs held targets p ->
  fairly n m fs held targets (sim real r r' o fs tab k (length targets) p).
Proof.
  induction p as [b|a b p1 IH1 p2 IH2|e sh p IH|a next IH|gam next IH]; intros c h fs held targets tab k H; cbn [sim decent] in *.
  - exact I.
  - destruct c as [|c]; [destruct H|]. destruct H as [H1 H2]. split; [apply (IH1 c h); exact H1|apply (IH2 c h); exact H2].
  - cbn [fairly]. intros f E. rewrite E. destruct (H f E) as (Q1 & Q2 & Q3). split; [exact Q1|split; [exact Q2|]]. apply (IH c h). exact Q3.
  - destruct h as [|h]; [destruct H|]. apply look_fair; [intros v; apply (IH v c h); apply H|apply (IH _ c h); apply H].
  - destruct H as (Q1 & Q2 & Q3). assert (L : forall tab k v, fairly n m fs held (targets ++ [gam]) (sim real r r' o fs tab k (S (length targets)) (next v))).
    { intros tab' k' v. replace (S (length targets)) with (length (targets ++ [gam])) by (rewrite app_length; cbn; lia). apply (IH v c h). apply Q3. }
    destruct real; [apply look_fair; [intros v|]|]; (split; [exact Q1|split; [exact Q2|apply L]]).
Qed.
Lemma sim_equations real r r' o n m L p : forall c h fs held targets tab k, decent n m c h fs held targets p ->
  (length targets <= m)%nat -> (length tab + h + (m - length targets) <= L)%nat ->
  (equations (sim real r r' o fs tab k (length targets) p) <= c + (h + (m - length targets)) * L)%nat.
Proof.
  induction p as [b|a b p1 IH1 p2 IH2|e sh p IH|a next IH|gam next IH]; intros c h fs held targets tab k H Hm HL; cbn [sim decent] in *.
  - apply Nat.le_0_l.
  - destruct c as [|c]; [destruct H|]. destruct H as [H1 H2]. cbn [equations]. pose proof (IH1 c h _ _ _ tab k H1 Hm HL). pose proof (IH2 c h _ _ _ tab k H2 Hm HL). lia.
  - cbn [equations]. destruct (formula_of fs e) as [f|] eqn:E; [|apply Nat.le_0_l]. destruct (H f eq_refl) as (_ & _ & Q3). apply (IH c h) with (held := sh :: held); [exact Q3|exact Hm|].
    destruct sh; [rewrite map_length|]; exact HL.
  - destruct h as [|h]; [destruct H|].
    transitivity (length tab + (c + (h + (m - length targets)) * L))%nat; [|cbn [Nat.add Nat.mul]; lia].
    apply look_equations; [intros v; apply (IH v c h) with (held := held); [apply H|exact Hm|lia]|].
    apply (IH _ c h) with (held := held); [apply H|exact Hm|cbn [length]; lia].
  - destruct H as (Q1 & Q2 & Q3). assert (Lt : length (targets ++ [gam]) = S (length targets)) by (rewrite app_length; cbn; lia).
    assert (Q : forall tab k v, (length tab + h + (m - S (length targets)) <= L)%nat -> (equations (sim real r r' o fs tab k (S (length targets)) (next v)) <= c + (h + (m - S (length targets))) * L)%nat).
    { intros tab' k' v Hl. rewrite <- Lt. apply (IH v c h) with (held := held); [apply Q3|lia|rewrite Lt; exact Hl]. }
    assert (E : (c + (h + (m - length targets)) * L = L + (c + (h + (m - S (length targets))) * L))%nat).
    { replace (m - length targets)%nat with (S (m - S (length targets))) by lia. rewrite Nat.add_succ_r. cbn [Nat.mul]. lia. }
    rewrite E. destruct real.
    + transitivity (length tab + (c + (h + (m - S (length targets))) * L))%nat; [|lia].
      apply look_equations; [intros v|]; cbn [equations]; apply Q; cbn [length]; lia.
    + cbn [equations]. etransitivity; [apply Q; lia|lia].
Qed.

(** ** Values of combinations *)
Lemma up_result (mk : master_key B) uk uks cts a : result_of mk (uk :: uks) cts (up a) = result_of mk uks cts a.
Proof.
  unfold result_of, up. generalize (no_ciphertext :: cts). intros l. revert l. induction a as [|z a IH]; intros l; [destruct l; reflexivity|].
  destruct l as [|ct l]; [reflexivity|]. cbn [map combine fold_right fst snd]. rewrite IH. f_equal. unfold attack. cbn [pairings others]. rewrite !map_map. cbn [fst snd].
  f_equal. f_equal. apply map_ext. intros [[n1 n2] x]. destruct n1; reflexivity.
Qed.
Lemma cut_result (mk : master_key B) uks cts a : result_of mk uks cts (firstn (S (length cts)) a) = result_of mk uks cts a.
Proof.
  unfold result_of. f_equal. change (S (length cts)) with (length (@no_ciphertext B :: cts)). generalize (@no_ciphertext B :: cts). clear cts. intros l.
  revert a. induction l as [|z l IH]; intros [|x a]; try reflexivity. cbn [length firstn combine]. rewrite IH. reflexivity.
Qed.
Lemma longer_result (mk : master_key B) uks cts ct a : (length a <= S (length cts))%nat -> result_of mk uks (cts ++ [ct]) a = result_of mk uks cts a.
Proof.
  unfold result_of. intros H. f_equal. change (no_ciphertext :: cts ++ [ct]) with ((no_ciphertext :: cts) ++ [ct]).
  change (S (length cts)) with (length (@no_ciphertext B :: cts)) in H. revert H. generalize (@no_ciphertext B :: cts). clear cts. intros l.
  revert a. induction l as [|z l IH]; intros [|x a] H; cbn [length] in H; try lia; try reflexivity. cbn [app combine]. rewrite IH by lia. reflexivity.
Qed.
Lemma fixed_result (mk : master_key B) uks cts x : result_of mk uks cts (fixed x) = gt x.
Proof using BL.
  unfold result_of, fixed. assert (E : combine (no_ciphertext :: cts) [@mkStrategy B [] [(OneGt, x)]] = [(no_ciphertext, mkStrategy [] [(OneGt, x)])]) by (destruct cts; reflexivity).
  rewrite E. cbn [fold_right fst snd]. unfold attack. cbn [pairings others map fold_right elementt fst snd].
  pose proof (bl_prod _ BL []) as Ep. cbn [map fold_right] in Ep. rewrite Ep, (bl_gt_exp _ BL), !(bl_gt_mul _ BL). f_equal. ring.
Qed.

(** ** Runs *)
Definition agrees (mk : master_key B) uks cts (st : table) (tab : list (Gt B * list byte)) : Prop :=
  Forall2 (fun e t => result_of mk uks cts (fst e) = fst t /\ snd e = snd t /\ (length (fst e) <= S (length cts))%nat) st tab.
Lemma agrees_ct mk uks cts ct st tab : agrees mk uks cts st tab -> agrees mk uks (cts ++ [ct]) st tab.
Proof.
  intros H. induction H as [|e t st tab (H1 & H2 & H3) _ IH]; constructor; [|exact IH]. rewrite longer_result by exact H3. split; [exact H1|split; [exact H2|]]. rewrite app_length. lia.
Qed.
Lemma agrees_key mk held uk uks sh cts st tab : agrees mk (kept held uks) cts st tab ->
  agrees mk (kept (sh :: held) (uk :: uks)) cts (if sh then map (fun e => (up (fst e), snd e)) st else st) tab.
Proof.
  intros H. destruct sh; cbn [kept]; [|exact H]. induction H as [|e t st tab (H1 & H2 & H3) _ IH]; constructor; [|exact IH]. cbn [fst snd].
  rewrite up_result. split; [exact H1|split; [exact H2|]]. unfold up. rewrite map_length. exact H3.
Qed.
Lemma agrees_new mk uks cts st tab a v : agrees mk uks cts st tab -> agrees mk uks cts ((firstn (S (length cts)) a, v) :: st) ((result_of mk uks cts a, v) :: tab).
Proof.
  intros H. constructor; [|exact H]. cbn [fst snd]. split; [apply cut_result|split; [reflexivity|]]. rewrite firstn_length. lia.
Qed.
Lemma agrees_fixed mk uks cts st tab x v : agrees mk uks cts st tab -> agrees mk uks cts ((fixed x, v) :: st) ((gt x, v) :: tab).
Proof using BL.
  intros H. constructor; [|exact H]. cbn [fst snd]. split; [apply fixed_result|split; [reflexivity|]]. cbn. lia.
Qed.

Lemma known_once (tab : list (Gt B * list byte)) g v v' : NoDup (map fst tab) -> In (g, v) tab -> In (g, v') tab -> v = v'.
Proof.
  induction tab as [|[g0 v0] tab IH]; intros N H1 H2; [destruct H1|]. cbn [map fst] in N. inversion N as [|? ? Hn Hr]; subst.
  destruct H1 as [E1|H1], H2 as [E2|H2]; [congruence| | |apply IH; assumption].
  - assert (g0 = g) by congruence. subst. destruct Hn. apply in_map_iff. exists (g, v'). split; [reflexivity|exact H2].
  - assert (g0 = g) by congruence. subst. destruct Hn. apply in_map_iff. exists (g, v). split; [reflexivity|exact H1].
Qed.
Lemma look_ends P mk u s w fs held uks cts st tab a found absent ans : agrees mk (kept held uks) cts st tab -> NoDup (map fst tab) ->
  (ends P mk u s w fs held uks cts (look st a found absent) ans <->
   (exists v, In (result_of mk (kept held uks) cts a, v) tab /\ ends P mk u s w fs held uks cts (found v) ans) \/
   ((forall v, ~ In (result_of mk (kept held uks) cts a, v) tab) /\ ends P mk u s w fs held uks cts absent ans)).
Proof.
  intros A. induction A as [|[b vb] [g v] st tab (H1 & H2 & H3) _ IH]; intros N.
  - cbn [look]. split; [intros H; right; split; [intros v []|exact H]|]. intros [(v & [] & _)|[_ H]]. exact H.
  - cbn [look fst snd map] in *. subst vb. inversion N as [|? ? Hn Hr]; subst. specialize (IH Hr).
    assert (NI : forall v', ~ In (result_of mk (kept held uks) cts b, v') tab).
    { intros v' Hi. apply Hn. apply in_map_iff. exists (result_of mk (kept held uks) cts b, v'). split; [reflexivity|exact Hi]. }
    split.
    + intros H. inversion H as [|? ? ? ? ? ? ? ? ? E X|? ? ? ? ? ? ? ? ? E X| |]; subst.
      * left. exists v. split; [left; congruence|exact X].
      * apply IH in X as [(v' & Hi & X)|[Hi X]]; [left; exists v'; split; [right; exact Hi|exact X]|right]. split; [|exact X].
        intros v' [Q|Q]; [congruence|exact (Hi v' Q)].
    + intros [(v' & [Hi|Hi] & X)|[Hi X]].
      * apply en_same; [congruence|]. replace v with v' by congruence. exact X.
      * apply en_different; [intros E; rewrite E in Hi; exact (NI v' Hi)|]. apply IH. left. exists v'. split; assumption.
      * apply en_different; [intros E; apply (Hi v); left; congruence|]. apply IH. right. split; [intros v' Q; apply (Hi v'); right; exact Q|exact X].
Qed.
Lemma ends_issue P (mk : master_key B) u s w fs held uks cts e sh p f uk ans : makes P mk fs uks (values (skipn (used fs) u)) e f uk ->
  (ends P mk u s w fs held uks cts (Issue e sh p) ans <-> ends P mk u s w (f :: fs) (sh :: held) (uk :: uks) cts p ans).
Proof.
  intros M. split; intros H.
  - inversion H as [| | |? ? ? ? ? ? ? f' uk' ? M' X|]; subst. destruct (makes_once B _ _ _ _ _ _ _ _ _ _ M M') as [-> ->]. exact X.
  - exact (en_issue P mk u s w fs held uks cts e sh p f uk ans M H).
Qed.
Lemma ends_either P (mk : master_key B) u s (w : bool) fs held uks cts gam m0 m1 p ct ans : encrypt P (result_of mk (kept held uks) cts (if w then m1 else m0)) gam (pub_key mk) (values s (length cts)) = Ok ct ->
  (ends P mk u s w fs held uks cts (Either gam m0 m1 p) ans <-> ends P mk u s w fs held uks (cts ++ [ct]) p ans).
Proof.
  intros M. split; intros H.
  - inversion H as [| | | |? ? ? ? ? ? ? ? ct' ? M' X]; subst. assert (ct' = ct) by congruence. subst. exact X.
  - exact (en_either P mk u s w fs held uks cts gam m0 m1 p ct ans M H).
Qed.

(** The run of the attacker is a run of the other one. *)
Lemma sim_concludes P (mk : master_key B) u s r r' o real p : forall fs held uks cts st tab k ans, agrees mk (kept held uks) cts st tab -> NoDup (map fst tab) ->
  (concludes P mk u s r o real fs held uks cts tab k p ans <-> ends P mk u s false fs held uks cts (sim real r r' o fs st k (length cts) p) ans).
Proof using BL.
  induction p as [b|a b p1 IH1 p2 IH2|e sh p IH|a next IH|gam next IH]; intros fs held uks cts st tab k ans A N; cbn [sim].
  - split; intros H; inversion H; subst; constructor.
  - split; intros H; inversion H; subst.
    + apply en_same; [assumption|]. apply (IH1 _ _ _ _ st tab); assumption.
    + apply en_different; [assumption|]. apply (IH2 _ _ _ _ st tab); assumption.
    + apply se_same; [assumption|]. apply (IH1 _ _ _ _ st tab); assumption.
    + apply se_different; [assumption|]. apply (IH2 _ _ _ _ st tab); assumption.
  - split; intros H.
    + inversion H as [| | |? ? ? ? ? ? ? ? ? f uk ? M X| | |]; subst. rewrite (makes_formula B P mk _ _ _ _ _ _ M). apply (en_issue P mk u s false fs held uks cts e sh _ f uk ans M).
      apply (IH _ _ _ _ _ tab); [apply agrees_key; exact A|exact N|exact X].
    + inversion H as [| | |? ? ? ? ? ? ? f uk ? M X|]; subst. rewrite (makes_formula B P mk _ _ _ _ _ _ M) in X. apply (se_asks P mk u s r o real fs held uks cts tab k e sh p f uk ans M).
      apply (IH _ _ _ _ _ tab) in X; [exact X|apply agrees_key; exact A|exact N].
  - rewrite (look_ends P mk u s false fs held uks cts st tab) by assumption. set (g := result_of mk (kept held uks) cts a) in *.
    assert (N' : (forall v, ~ In (g, v) tab) -> NoDup (map fst ((g, o k) :: tab))).
    { intros Hi. cbn [map fst]. constructor; [|exact N]. intros X. apply in_map_iff in X as ([g' v'] & E & X). cbn in E. subst g'. exact (Hi v' X). }
    split; intros H.
    + inversion H as [| | | |? ? ? ? ? ? ? ? v tab' k' ? Hh X| |]; subst. fold g in Hh. inversion Hh as [v' Hi|Hi]; subst.
      * left. exists v. split; [exact Hi|]. apply (IH v _ _ _ _ st tab'); assumption.
      * right. split; [exact Hi|]. apply (IH _ _ _ _ _ _ ((g, o k) :: tab)); [apply agrees_new; exact A|apply N'; exact Hi|exact X].
    + destruct H as [(v & Hi & X)|[Hi X]].
      * apply (se_hashes P mk u s r o real fs held uks cts tab k a next v tab k ans); [apply ha_known; exact Hi|]. apply (IH v _ _ _ _ st tab); assumption.
      * apply (se_hashes P mk u s r o real fs held uks cts tab k a next (o k) ((g, o k) :: tab) (S k) ans); [apply ha_new; exact Hi|].
        apply (IH _ _ _ _ _ _ ((g, o k) :: tab)) in X; [exact X|apply agrees_new; exact A|apply N'; exact Hi].
  - assert (Lc : forall ct : ciphertext B, length (cts ++ [ct]) = S (length cts)) by (intros; rewrite app_length; cbn; lia).
    destruct real.
    + rewrite (look_ends P mk u s false fs held uks cts st tab) by assumption. rewrite fixed_result. set (g := gt (values r (length cts))) in *.
      assert (N' : (forall v, ~ In (g, v) tab) -> NoDup (map fst ((g, o k) :: tab))).
      { intros Hi. cbn [map fst]. constructor; [|exact N]. intros X. apply in_map_iff in X as ([g' v'] & E & X). cbn in E. subst g'. exact (Hi v' X). }
      split; intros H.
      * inversion H as [| | | | |? ? ? ? ? ? ? ? ct v tab' k' ? _ Ec Hh X|]; subst; [|discriminate]. fold g in Hh, Ec. inversion Hh as [v' Hi|Hi]; subst.
        -- left. exists v. split; [exact Hi|]. apply (ends_either _ _ _ _ _ _ _ _ _ _ _ _ _ ct); [rewrite fixed_result; exact Ec|]. rewrite <- (Lc ct).
           apply (IH v _ _ _ _ st tab'); [apply agrees_ct; exact A|exact N|exact X].
        -- right. split; [exact Hi|]. apply (ends_either _ _ _ _ _ _ _ _ _ _ _ _ _ ct); [rewrite fixed_result; exact Ec|]. rewrite <- (Lc ct).
           apply (IH _ _ _ _ _ _ ((g, o k) :: tab)); [apply agrees_ct, agrees_fixed; exact A|apply N'; exact Hi|exact X].
      * destruct H as [(v & Hi & X)|[Hi X]]; inversion X as [| | | |? ? ? ? ? ? ? ? ct ? Ec X']; subst; rewrite fixed_result in Ec; rewrite <- (Lc ct) in X'.
        -- apply (se_real P mk u s r o true fs held uks cts tab k gam next ct v tab k ans eq_refl Ec); [apply ha_known; exact Hi|].
           apply (IH v _ _ _ _ st tab) in X'; [exact X'|apply agrees_ct; exact A|exact N].
        -- apply (se_real P mk u s r o true fs held uks cts tab k gam next ct (o k) ((g, o k) :: tab) (S k) ans eq_refl Ec); [apply ha_new; exact Hi|].
           apply (IH _ _ _ _ _ _ ((g, o k) :: tab)) in X'; [exact X'|apply agrees_ct, agrees_fixed; exact A|apply N'; exact Hi].
    + split; intros H.
      * inversion H as [| | | | | |? ? ? ? ? ? ? ? ct ? _ Ec X]; subst; [discriminate|]. apply (ends_either _ _ _ _ _ _ _ _ _ _ _ _ _ ct); [rewrite fixed_result; exact Ec|]. rewrite <- (Lc ct).
        apply (IH _ _ _ _ _ st tab); [apply agrees_ct; exact A|exact N|exact X].
      * inversion H as [| | | |? ? ? ? ? ? ? ? ct ? Ec X]; subst. rewrite fixed_result in Ec. rewrite <- (Lc ct) in X.
        apply (se_random P mk u s r o false fs held uks cts tab k gam next ct ans eq_refl Ec). apply (IH _ _ _ _ _ st tab) in X; [exact X|apply agrees_ct; exact A|exact N].
Qed.

(** ** Exponents that the attacker meets by chance *)
Section Count.
Variable elems : list K.
Hypothesis Hnd : NoDup elems.
Hypothesis Hall : forall x : K, In x elems.
Local Notation q := (length elems).

Lemma few_strays P (mk : master_key B) u s r' o n m p : forall c h fs held targets uks cts st tab k (W : list (list K)),
  decent n m c h fs held targets p -> length cts = length targets -> (length targets <= m)%nat ->
  agrees mk (kept held uks) cts st tab -> NoDup (map fst tab) -> NoDup W ->
  (forall r, In r W -> length r = m /\ NoDup r /\ (forall i v, (i < m)%nat -> ~ In (gt (values r i), v) tab) /\
    exists st1 tab1 ans, agrees mk (kept held uks) cts st1 tab1 /\ NoDup (map fst tab1) /\ (forall e, In e tab -> In e tab1) /\
      (forall g v, In (g, v) tab1 -> In (g, v) tab \/ exists j, (j < length cts)%nat /\ g = gt (values r j)) /\
      ~ (ends P mk u s true fs held uks cts (sim true r r' o fs st1 k (length cts) p) ans <->
         ends P mk u s true fs held uks cts (sim false r r' o fs st k (length cts) p) ans)) ->
  (length W * q <= h * (m * q ^ m))%nat.
Proof using BL Hnd Hall.
  induction p as [b|a b p1 IH1 p2 IH2|e sh p IH|a next IH|gam next IH]; intros c h fs held targets uks cts st tab k W D Lc Lm A N HW H; cbn [decent] in D.
  - rewrite (none_left W); [apply Nat.le_0_l|]. intros r Hr. destruct (H r Hr) as (_ & _ & _ & st1 & tab1 & ans & _ & _ & _ & _ & F). apply F. reflexivity.
  - destruct c as [|c]; [destruct D|]. destruct D as [D1 D2].
    apply (either_way (result_of mk (kept held uks) cts a = result_of mk (kept held uks) cts b)); [apply le_stable| |]; intros E.
    + apply (IH1 c h fs held targets uks cts st tab k W D1 Lc Lm A N HW). intros r Hr. destruct (H r Hr) as (Q1 & Q2 & Q3 & st1 & tab1 & ans & A1 & N1 & I1 & I2 & F).
      split; [exact Q1|split; [exact Q2|split; [exact Q3|]]]. exists st1, tab1, ans. split; [exact A1|split; [exact N1|split; [exact I1|split; [exact I2|]]]].
      intros X. apply F. cbn [sim]. assert (S : forall pa pb, ends P mk u s true fs held uks cts (Equal a b pa pb) ans <-> ends P mk u s true fs held uks cts pa ans).
      { intros pa pb. split; intros Y; [inversion Y; subst; [assumption|contradiction]|apply en_same; assumption]. }
      rewrite !S. exact X.
    + apply (IH2 c h fs held targets uks cts st tab k W D2 Lc Lm A N HW). intros r Hr. destruct (H r Hr) as (Q1 & Q2 & Q3 & st1 & tab1 & ans & A1 & N1 & I1 & I2 & F).
      split; [exact Q1|split; [exact Q2|split; [exact Q3|]]]. exists st1, tab1, ans. split; [exact A1|split; [exact N1|split; [exact I1|split; [exact I2|]]]].
      intros X. apply F. cbn [sim]. assert (S : forall pa pb, ends P mk u s true fs held uks cts (Equal a b pa pb) ans <-> ends P mk u s true fs held uks cts pb ans).
      { intros pa pb. split; intros Y; [inversion Y; subst; [contradiction|assumption]|apply en_different; assumption]. }
      rewrite !S. exact X.
  - apply (either_way (exists f uk, makes P mk fs uks (values (skipn (used fs) u)) e f uk)); [apply le_stable| |].
    + intros (f & uk & M). pose proof (makes_formula B P mk _ _ _ _ _ _ M) as Ef. destruct (D f Ef) as (_ & _ & D3).
      apply (IH c h (f :: fs) (sh :: held) targets (uk :: uks) cts _ tab k W D3 Lc Lm (agrees_key mk held uk uks sh cts st tab A) N HW).
      intros r Hr. destruct (H r Hr) as (Q1 & Q2 & Q3 & st1 & tab1 & ans & A1 & N1 & I1 & I2 & F).
      split; [exact Q1|split; [exact Q2|split; [exact Q3|]]]. exists (if sh then map (fun e => (up (fst e), snd e)) st1 else st1), tab1, ans.
      split; [apply agrees_key; exact A1|split; [exact N1|split; [exact I1|split; [exact I2|]]]].
      intros X. apply F. cbn [sim]. rewrite Ef, !(ends_issue P mk u s true fs held uks cts e sh _ f uk ans M). exact X.
    + intros NM. rewrite (none_left W); [apply Nat.le_0_l|]. intros r Hr. destruct (H r Hr) as (_ & _ & _ & st1 & tab1 & ans & _ & _ & _ & _ & F). apply F. cbn [sim].
      split; intros X; inversion X as [| | |? ? ? ? ? ? ? f uk ? M Y|]; subst; destruct NM; exists f, uk; exact M.
  - destruct h as [|h]; [destruct D|]. set (g := result_of mk (kept held uks) cts a) in *.
    apply (nn_split (fun r => exists i, (i < m)%nat /\ gt (values r i) = g) W); [apply le_stable|exact HW|]. intros l1 l2 N1 N2 L J1 J2.
    assert (B1 : (length l1 * q <= m * q ^ m)%nat).
    { apply (few_some (fun i r => gt (values r i) = g) m l1); [exact N1|intros r Hr; apply (J1 r Hr)|]. intros i W' Hi Nw Hw.
      apply (few_at (@f0 K) elems Hnd Hall m i (fun _ => nth i (hd [] W') (@f0 K)) W' Hi Nw). intros r Hr. destruct (Hw r Hr) as [Hr1 E].
      split; [apply (H r), (J1 r Hr1)|]. intros _. destruct W' as [|r0 W']; [destruct Hr|]. cbn [hd]. destruct (Hw r0 (or_introl eq_refl)) as [_ E0].
      apply (bl_gt_inj _ BL). unfold values in *. congruence. }
    assert (B2 : (length l2 * q <= h * (m * q ^ m))%nat).
    { assert (HN : forall v, In (g, v) tab \/ (forall v', ~ In (g, v') tab) -> True) by trivial. clear HN.
      apply (either_way (exists v, In (g, v) tab)); [apply le_stable| |].
      - intros (v & Hv). apply (IH v c h fs held targets uks cts st tab k l2 (D v) Lc Lm A N N2).
        intros r Hr. destruct (H r (proj1 (J2 r Hr))) as (Q1 & Q2 & Q3 & st1 & tab1 & ans & A1 & M1 & I1 & I2 & F).
        split; [exact Q1|split; [exact Q2|split; [exact Q3|]]]. exists st1, tab1, ans. split; [exact A1|split; [exact M1|split; [exact I1|split; [exact I2|]]]].
        intros X. apply F. cbn [sim]. rewrite (look_ends P mk u s true fs held uks cts st1 tab1), (look_ends P mk u s true fs held uks cts st tab) by assumption. fold g.
        split; (intros [(v' & Hv' & Y)|[Hn Y]]; [left; exists v; split|]).
        + exact Hv.
        + rewrite (known_once tab1 g v v' M1 (I1 _ Hv) Hv') in *. apply X. exact Y.
        + exfalso. exact (Hn v (I1 _ Hv)).
        + apply I1. exact Hv.
        + rewrite (known_once tab g v v' N Hv Hv') in *. apply X. exact Y.
        + exfalso. exact (Hn v Hv).
      - intros NE. assert (Hn : forall v, ~ In (g, v) tab) by (intros v Hv; apply NE; exists v; exact Hv).
        assert (Nn : forall t : list (Gt B * list byte), NoDup (map fst t) -> (forall v, ~ In (g, v) t) -> NoDup (map fst ((g, o k) :: t))).
        { intros t Nt Hi. cbn [map fst]. constructor; [|exact Nt]. intros X. apply in_map_iff in X as ([g' v'] & E & X). cbn in E. subst g'. exact (Hi v' X). }
        apply (IH (o k) c h fs held targets uks cts ((firstn (S (length cts)) a, o k) :: st) ((g, o k) :: tab) (S k) l2 (D _) Lc Lm (agrees_new mk _ _ _ _ a (o k) A) (Nn tab N Hn) N2).
        intros r Hr. destruct (J2 r Hr) as [Hrw Hng]. destruct (H r Hrw) as (Q1 & Q2 & Q3 & st1 & tab1 & ans & A1 & M1 & I1 & I2 & F).
        assert (Hn1 : forall v, ~ In (g, v) tab1).
        { intros v Hv. destruct (I2 g v Hv) as [X|(j & Hj & E)]; [exact (Hn v X)|]. apply Hng. exists j. split; [lia|symmetry; exact E]. }
        split; [exact Q1|split; [exact Q2|split]].
        { intros i v Hi [E|X]; [|exact (Q3 i v Hi X)]. apply Hng. exists i. split; [exact Hi|congruence]. }
        exists ((firstn (S (length cts)) a, o k) :: st1), ((g, o k) :: tab1), ans. split; [apply agrees_new; exact A1|split; [apply Nn; assumption|split; [|split]]].
        + intros e [E|X]; [left; exact E|right; exact (I1 e X)].
        + intros g' v' [E|X]; [left; left; exact E|]. destruct (I2 g' v' X) as [Y|Y]; [left; right; exact Y|right; exact Y].
        + intros X. apply F. cbn [sim]. rewrite (look_ends P mk u s true fs held uks cts st1 tab1), (look_ends P mk u s true fs held uks cts st tab) by assumption. fold g.
          split; (intros [(v' & Hv' & Y)|[_ Y]]; [exfalso|right; split; [assumption|apply X; exact Y]]); [exact (Hn1 v' Hv')|exact (Hn v' Hv')]. }
    rewrite L. cbn [Nat.mul]. lia.
  - destruct D as (D1 & _ & D3). assert (Lt : length (targets ++ [gam]) = S (length targets)) by (rewrite app_length; cbn; lia).
    assert (Lk : forall ct : ciphertext B, length (cts ++ [ct]) = S (length cts)) by (intros; rewrite app_length; cbn; lia).
    (* the two runs of one list of exponents *)
    assert (R : forall r, In r W -> length r = m /\ NoDup r /\ (forall i v, (i < m)%nat -> ~ In (gt (values r i), v) tab) /\
      exists st1 tab1 ans, agrees mk (kept held uks) cts st1 tab1 /\ NoDup (map fst tab1) /\ (forall e, In e tab -> In e tab1) /\
        (forall g v, In (g, v) tab1 -> In (g, v) tab \/ exists j, (j < S (length cts))%nat /\ g = gt (values r j)) /\
        ~ (ends P mk u s true fs held uks cts (Either gam (fixed (values r (length cts))) (fixed (values r' (length cts))) (sim true r r' o fs st1 (S k) (S (length cts)) (next (o k)))) ans <->
           ends P mk u s true fs held uks cts (Either gam (fixed (values r (length cts))) (fixed (values r' (length cts))) (sim false r r' o fs st (S k) (S (length cts)) (next (o k)))) ans)).
    { intros r Hr. destruct (H r Hr) as (Q1 & Q2 & Q3 & st1 & tab1 & ans & A1 & N1 & I1 & I2 & F).
      split; [exact Q1|split; [exact Q2|split; [exact Q3|]]].
      assert (Hn : forall v, ~ In (gt (values r (length cts)), v) tab1).
      { intros v Hv. destruct (I2 _ v Hv) as [X|(j & Hj & E)]; [apply (Q3 (length cts) v); [lia|exact X]|].
        apply (bl_gt_inj _ BL) in E. unfold values in E. apply (proj1 (NoDup_nth r (@f0 K)) Q2) in E; lia. }
      exists ((fixed (values r (length cts)), o k) :: st1), ((gt (values r (length cts)), o k) :: tab1), ans.
      split; [apply agrees_fixed; exact A1|split; [|split; [intros e He; right; exact (I1 e He)|split]]].
      - cbn [map fst]. constructor; [|exact N1]. intros X. apply in_map_iff in X as ([g' v'] & E & X). cbn in E. subst g'. exact (Hn v' X).
      - intros g v [E|X]; [right; exists (length cts); split; [lia|congruence]|]. destruct (I2 g v X) as [Y|(j & Hj & E)]; [left; exact Y|right; exists j; split; [lia|exact E]].
      - intros X. apply F. cbn [sim]. rewrite <- X. rewrite (look_ends P mk u s true fs held uks cts st1 tab1) by assumption. rewrite fixed_result.
        split; [intros [(v & Hv & _)|[_ Y]]; [destruct (Hn v Hv)|exact Y]|]. intros Y. right. split; [exact Hn|exact Y]. }
    clear H. destruct (encrypt P (gt (values r' (length cts))) gam (pub_key mk) (values s (length cts))) as [ct|er|pa] eqn:Ec.
    2, 3: rewrite (none_left W); [apply Nat.le_0_l|]; intros r Hr; destruct (R r Hr) as (_ & _ & _ & st1 & tab1 & ans & _ & _ & _ & _ & F); apply F;
      split; intros X; inversion X as [| | | |? ? ? ? ? ? ? ? ct ? Ec' Y]; subst; rewrite fixed_result in Ec'; congruence.
    apply (IH (o k) c h fs held (targets ++ [gam]) uks (cts ++ [ct]) st tab (S k) W (D3 _) ltac:(rewrite Lk, Lt, Lc; reflexivity) ltac:(lia) (agrees_ct mk _ _ ct _ _ A) N HW).
    intros r Hr. destruct (R r Hr) as (Q1 & Q2 & Q3 & st1 & tab1 & ans & A1 & N1 & I1 & I2 & F). split; [exact Q1|split; [exact Q2|split; [exact Q3|]]].
    exists st1, tab1, ans. split; [apply agrees_ct; exact A1|split; [exact N1|split; [exact I1|split; [rewrite Lk; exact I2|]]]].
    intros X. rewrite Lk in X. apply F. rewrite !(ends_either P mk u s true fs held uks cts gam (fixed (values r (length cts))) (fixed (values r' (length cts))) _ ct ans) by (rewrite fixed_result; exact Ec). exact X.
Qed.
End Count.

(** ** C110 *)
(** A run gives one answer. *)
Theorem C110_one_answer P (mk : master_key B) u s r o real p a b :
  concludes P mk u s r o real [] [] [] [] [] 0 p a -> concludes P mk u s r o real [] [] [] [] [] 0 p b -> a = b.
Proof using BL.
  intros H1 H2. apply (sim_concludes P mk u s r r o real p [] [] [] [] [] [] 0) in H1; [|constructor|constructor].
  apply (sim_concludes P mk u s r r o real p [] [] [] [] [] [] 0) in H2; [|constructor|constructor]. exact (C107_one_answer B P mk u s _ _ _ _ _ _ _ _ H1 H2).
Qed.

(** However many headers are made, the attacker tells their symmetric keys from random bytes with few of the draws, if
    none of the keys shown is satisfied by the attributes of a header. *)
Theorem C110_rarely_noticed P size n m c h (o : nat -> list byte) (p : quest B) (elems : list K) (found : list (throws B * list K)) :
  NoDup elems -> (forall x : K, In x elems) -> decent n m c h [] [] [] p ->
  NoDup found -> (forall z, In z found -> length (th_t (fst z)) = size /\ length (th_u (fst z)) = n /\ length (th_s (fst z)) = m /\ length (snd z) = m /\ notices P size o p z) ->
  (length found * (length elems - 1) <=
    5 * (c + (h + m) * (h + m)) * (2 * size + n + m + 1) * ((length elems - 1) ^ size * length elems ^ (n + m + 1) * length elems ^ m))%nat.
Proof using BL.
  intros Hnd Hall D HF H. set (q := length elems) in *. set (V := prods (repeat elems m)).
  set (N := ((q - 1) ^ size * q ^ (n + m + 1))%nat). set (dg := (2 * size + n + m + 1)%nat). set (E := (c + (h + m) * (h + m))%nat).
  assert (Vin : forall r, In r V <-> length r = m) by (intros r; apply all_lists; exact Hall).
  assert (Vl : length V = (q ^ m)%nat) by apply lists_count.
  assert (Vn : NoDup V) by (apply lists_nodup; assumption).
  assert (q1 : (1 <= q)%nat) by (unfold q; destruct elems as [|e0 el]; [destruct (Hall f0)|cbn; lia]).
  set (S real r r' := sim real r r' o [] [] 0 0 p).
  assert (Sf : forall real r r', fairly n m [] [] [] (S real r r')) by (intros real r r'; apply (sim_fair real r r' o n m p c h [] [] [] [] 0 D)).
  assert (Se : forall real r r', (equations (S real r r') <= E)%nat).
  { intros real r r'. pose proof (sim_equations real r r' o n m (h + m) p c h [] [] [] [] 0 D) as L. cbn [length] in L. rewrite Nat.sub_0_r in L. apply L; lia. }
  set (T := list_prod found V).
  assert (TN : NoDup T) by (apply nodup_product; assumption).
  assert (TL : length T = (length found * q ^ m)%nat) by (unfold T; rewrite prod_length, Vl; reflexivity).
  assert (TI : forall x r r', In ((x, r), r') T -> length (th_t x) = size /\ length (th_u x) = n /\ length (th_s x) = m /\ length r = m /\ length r' = m /\ notices P size o p (x, r)).
  { intros x r r' Ht. apply in_prod_iff in Ht as [H1 H2]. destruct (H _ H1) as (Q1 & Q2 & Q3 & Q4 & Q5). cbn [fst snd] in *. apply Vin in H2. repeat (split; [assumption|]). exact Q5. }
  (* the attacker of [ManySpec] tells the messages apart *)
  assert (C1 : forall real l, NoDup l -> (forall t, In t l -> In t T /\ tells P size (S real (snd (fst t)) (snd t)) (fst (fst t))) ->
    (length l * (q - 1) <= q ^ m * q ^ m * (2 * E * dg * N))%nat).
  { intros real l Nl Hl. rewrite <- (map_length (fun t => (fst (fst t), (snd (fst t), snd t))) l).
    replace (q ^ m * q ^ m)%nat with (length (list_prod V V)) by (rewrite prod_length, Vl; reflexivity).
    apply few_fibres.
    - apply nodup_map_on; [exact Nl|]. intros [[x r] r'] [[x2 r2] r2'] _ _ X. cbn in X. congruence.
    - intros t Ht. apply in_map_iff in Ht as ([[x r] r'] & <- & Ht). cbn [fst snd]. destruct (Hl _ Ht) as [Hi _]. destruct (TI x r r' Hi) as (_ & _ & _ & Q4 & Q5 & _).
      apply in_prod_iff. split; apply Vin; assumption.
    - intros [r r'] Wx _ Nx Hx.
      transitivity (2 * equations (S real r r') * (2 * size + n + m + 1) * ((q - 1) ^ size * q ^ (n + m + 1)))%nat.
      + apply (C107_rarely_told_apart B BL P size n m (S real r r') elems Wx Hnd Hall (Sf real r r') Nx).
        intros x Hxi. specialize (Hx x Hxi). apply in_map_iff in Hx as ([[x2 r2] r2'] & X & Ht). cbn in X. assert (x2 = x) by congruence. assert (r2 = r) by congruence. assert (r2' = r') by congruence. subst.
        destruct (Hl _ Ht) as [Hi Ht2]. destruct (TI x r r' Hi) as (Q1 & Q2 & Q3 & _). split; [exact Q1|split; [exact Q2|split; [exact Q3|exact Ht2]]].
      + fold dg N. apply Nat.mul_le_mono_r, Nat.mul_le_mono_r, Nat.mul_le_mono_l, Se. }
  (* an exponent repeats or is met by chance *)
  set (strays t := ~ NoDup (snd (fst t)) \/ exists mk ans, generate_master_key size (values (th_t (fst (fst t)) ++ [th_y (fst (fst t))])) = Ok mk /\
    ~ (ends P mk (th_u (fst (fst t))) (th_s (fst (fst t))) true [] [] [] [] (S true (snd (fst t)) (snd t)) ans <->
       ends P mk (th_u (fst (fst t))) (th_s (fst (fst t))) true [] [] [] [] (S false (snd (fst t)) (snd t)) ans)).
  assert (C2 : forall l, NoDup l -> (forall t, In t l -> In t T /\ strays t) -> (length l * q <= N * q ^ m * (m * (m * q ^ m) + h * (m * q ^ m)))%nat).
  { intros l Nl Hl. rewrite <- (map_length (fun t => (snd (fst t), (fst (fst t), snd t))) l).
    replace (N * q ^ m)%nat with (length (list_prod (map (unpoint B size n) (prods (sets_ B BL elems size n m))) V)).
    2:{ rewrite prod_length, map_length, Vl, (prods_total_ B BL elems size n m Hnd Hall). reflexivity. }
    apply few_fibres.
    - apply nodup_map_on; [exact Nl|]. intros [[x r] r'] [[x2 r2] r2'] _ _ X. cbn in X. congruence.
    - intros t Ht. apply in_map_iff in Ht as ([[x r] r'] & <- & Ht). cbn [fst snd]. destruct (Hl _ Ht) as [Hi _]. destruct (TI x r r' Hi) as (Q1 & Q2 & Q3 & Q4 & Q5 & mk & _ & _ & Hmk & _).
      cbn [fst] in Hmk. destruct (master_values B BL size (th_t x) (th_y x) mk Q1 Hmk) as [_ Hz].
      apply in_prod_iff. split; [|apply Vin; exact Q5]. apply in_map_iff. exists (point B x). split; [destruct x; apply unpoint_point; assumption|].
      apply (point_in B BL elems size n m Hall). split; [exact Q1|split; [exact Hz|split; assumption]].
    - intros [x r'] Wr _ Nr Hr.
      assert (Hw : forall r, In r Wr -> length r = m /\ strays ((x, r), r')).
      { intros r Hri. specialize (Hr r Hri). apply in_map_iff in Hr as ([[x2 r2] r2'] & X & Ht). cbn in X. assert (x2 = x) by congruence. assert (r2 = r) by congruence. assert (r2' = r') by congruence. subst.
        destruct (Hl _ Ht) as [Hi Hs]. destruct (TI x r r' Hi) as (_ & _ & _ & Q4 & _). split; assumption. }
      apply (nn_split (fun r => NoDup r) Wr); [apply le_stable|exact Nr|]. intros l1 l2 N1 N2 L J1 J2.
      assert (B2 : (length l2 * q <= m * (m * q ^ m))%nat).
      { apply (few_repeated (@f0 K) elems Hnd Hall (K_eq_dec K KL) m l2 N2). intros r Hri. destruct (J2 r Hri) as [X Y]. split; [apply (Hw r X)|exact Y]. }
      assert (B1 : (length l1 * q <= h * (m * q ^ m))%nat).
      { destruct (generate_master_key size (values (th_t x ++ [th_y x]))) as [mk|er|pa] eqn:Emk.
        2, 3: rewrite (none_left l1); [apply Nat.le_0_l|]; intros r Hri; destruct (J1 r Hri) as [X Y]; destruct (Hw r X) as [_ [Z|(mk & ans & Z & _)]]; [contradiction|cbn [fst snd] in Z; congruence].
        apply (few_strays elems Hnd Hall P mk (th_u x) (th_s x) r' o n m p c h [] [] [] [] [] [] [] 0 l1 D eq_refl (Nat.le_0_l m)); [constructor|constructor|exact N1|].
        intros r Hri. destruct (J1 r Hri) as [X Y]. destruct (Hw r X) as [Lr [Z|(mk' & ans & Emk' & Z)]]; [contradiction|]. cbn [fst snd] in *. assert (mk' = mk) by congruence. subst mk'.
        split; [exact Lr|split; [exact Y|split; [intros i v _ []|]]]. exists [], [], ans. split; [constructor|split; [constructor|split; [intros e []|split; [intros g v []|exact Z]]]]. }
      rewrite L. lia. }
  (* one of the three happens *)
  assert (C3 : forall t, In t T -> ~ tells P size (S true (snd (fst t)) (snd t)) (fst (fst t)) -> ~ tells P size (S false (snd (fst t)) (snd t)) (fst (fst t)) -> ~ strays t -> False).
  { intros [[x r] r'] Ht F1 F3 F2. destruct (TI x r r' Ht) as (_ & _ & _ & _ & _ & mk & real & ans & Hmk & R1 & R2). cbn [fst snd] in *.
    assert (L : forall real, concludes P mk (th_u x) (th_s x) r o real [] [] [] [] [] 0 p ans <-> ends P mk (th_u x) (th_s x) false [] [] [] [] (S real r r') ans)
      by (intros real'; apply (sim_concludes P mk (th_u x) (th_s x) r r' o real' p [] [] [] [] [] [] 0 ans); constructor).
    assert (M : forall real w, ~ tells P size (S real r r') x -> ends P mk (th_u x) (th_s x) w [] [] [] [] (S real r r') ans -> ~ ~ ends P mk (th_u x) (th_s x) (negb w) [] [] [] [] (S real r r') ans).
    { intros real' w F X Y. apply F. exists mk, w, ans. split; [exact Hmk|split; [exact X|exact Y]]. }
    assert (G : ~ ~ (ends P mk (th_u x) (th_s x) true [] [] [] [] (S true r r') ans <-> ends P mk (th_u x) (th_s x) true [] [] [] [] (S false r r') ans)).
    { intros Y. apply F2. right. exists mk, ans. split; [exact Hmk|exact Y]. }
    apply G. clear G. intros G. apply L in R1. assert (R3 : ~ ends P mk (th_u x) (th_s x) false [] [] [] [] (S (negb real) r r') ans) by (intros Y; apply R2, L, Y).
    destruct real; cbn [negb] in *.
    - apply (M true false F1 R1). cbn [negb]. intros X1. apply G in X1. apply (M false true F3 X1). exact R3.
    - apply (M false false F3 R1). cbn [negb]. intros X1. apply G in X1. apply (M true true F1 X1). exact R3. }
  apply (nn_split (fun t => tells P size (S true (snd (fst t)) (snd t)) (fst (fst t))) T); [apply le_stable|exact TN|]. intros l1 k1 N1 M1 L1 I1 J1.
  apply (nn_split (fun t => tells P size (S false (snd (fst t)) (snd t)) (fst (fst t))) k1); [apply le_stable|exact M1|]. intros l3 k3 N3 M3 L3 I3 J3.
  apply (nn_split strays k3); [apply le_stable|exact M3|]. intros l2 k2 N2 M2 L2 I2 J2.
  assert (Z : length k2 = 0%nat).
  { apply none_left. intros t Ht. destruct (J2 t Ht) as [X1 X2]. destruct (J3 t X1) as [X3 X4]. destruct (J1 t X3) as [X5 X6]. exact (C3 t X5 X6 X4 X2). }
  pose proof (C1 true l1 N1 I1) as B1.
  assert (B3 : (length l3 * (q - 1) <= q ^ m * q ^ m * (2 * E * dg * N))%nat).
  { apply (C1 false l3 N3). intros t Ht. destruct (I3 t Ht) as [X Y]. split; [apply (J1 t X)|exact Y]. }
  assert (B2 : (length l2 * (q - 1) <= q ^ m * q ^ m * (E * dg * N))%nat).
  { transitivity (length l2 * q)%nat; [apply Nat.mul_le_mono_l; lia|]. etransitivity; [apply (C2 l2 N2); intros t Ht; destruct (I2 t Ht) as [X Y]; split; [apply (J1 t), (J3 t X)|exact Y]|].
    replace (N * q ^ m * (m * (m * q ^ m) + h * (m * q ^ m)))%nat with (q ^ m * q ^ m * ((m * (h + m)) * N))%nat by ring.
    assert (X1 : (m * (h + m) <= E)%nat) by (unfold E; transitivity ((h + m) * (h + m))%nat; [apply Nat.mul_le_mono_r; lia|lia]).
    assert (X2 : (E * 1 <= E * dg)%nat) by (apply Nat.mul_le_mono_l; unfold dg; lia). rewrite Nat.mul_1_r in X2.
    apply Nat.mul_le_mono_l, Nat.mul_le_mono_r. exact (Nat.le_trans _ _ _ X1 X2). }
  assert (G : (length found * (q - 1) * q ^ m <= 5 * E * dg * (N * q ^ m) * q ^ m)%nat).
  { replace (length found * (q - 1) * q ^ m)%nat with (length T * (q - 1))%nat by (rewrite TL; ring). rewrite L1, L3, L2, Z.
    replace ((length l1 + (length l3 + (length l2 + 0))) * (q - 1))%nat with (length l1 * (q - 1) + length l3 * (q - 1) + length l2 * (q - 1))%nat by ring.
    replace (5 * E * dg * (N * q ^ m) * q ^ m)%nat with (q ^ m * q ^ m * (2 * E * dg * N) + q ^ m * q ^ m * (2 * E * dg * N) + q ^ m * q ^ m * (E * dg * N))%nat by ring.
    apply Nat.add_le_mono; [apply Nat.add_le_mono|]; assumption. }
  apply (Nat.mul_le_mono_pos_r _ _ (q ^ m)%nat); [|exact G]. assert (q ^ m <> 0)%nat by (apply Nat.pow_nonzero; lia). lia.
Qed.

(** The condition is needed: with a key that is satisfied the attacker tells them apart, with all draws. *)
Theorem C110_entitled P size f gam : (exists l : K, l <> f0 /\ l <> f1) ->
  (exists mdraw (mk : master_key B) m draw uk, generate_master_key size mdraw = Ok mk /\ to_msp P f = Ok m /\ key_generation m (priv_key mk) draw = Ok uk) ->
  (length gam < size)%nat -> (forall x, In x gam -> (N.to_nat x < size)%nat) -> holds (fun a => In a gam) f ->
  exists p : quest B, forall o x r mk m uk ct, o 0%nat <> o 1%nat -> generate_master_key size (values (th_t x ++ [th_y x])) = Ok mk ->
    to_msp P f = Ok m -> key_generation m (priv_key mk) (values (th_u x)) = Ok uk ->
    encrypt P (gt (values r 0)) gam (pub_key mk) (values (th_s x) 0) = Ok ct -> notices P size o p (x, r).
Proof using BL.
  intros HK (mdraw & mk0 & m0 & draw0 & uk0 & Hmk0 & Hm0 & Hk0) Hl Hg Hh.
  destruct (proj2 (C09_collusion_useless B BL P size [Generated f] [f] [true] gam HK
    (ex_intro _ mdraw (ex_intro _ mk0 (ex_intro _ [uk0] (conj Hmk0 (is_gen P mk0 [] [] [] f m0 draw0 uk0 (is_start P mk0) Hm0 Hk0))))) Hl Hg)) as [a Ha].
  { exists f. split; [left; reflexivity|exact Hh]. }
  exists (Asks (Generated f) true (Wraps gam (fun w => Hashes [nothing B; a] (fun v => Says (if list_eq_dec Byte.byte_eq_dec v w then true else false))))).
  intros o x r mk m uk ct Ho Hmk Hm Hk He.
  assert (R : result_of mk (kept [true] [uk]) [ct] [nothing B; a] = gt (values r 0)).
  { unfold result_of. cbn [combine fold_right fst snd]. rewrite (Ha _ mk [uk] (gt (values r 0)) _ ct Hmk (is_gen P mk [] [] [] f m _ uk (is_start P mk) Hm Hk) He).
    unfold attack. cbn [pairings others map fold_right nothing]. pose proof (bl_prod _ BL []) as Ep. cbn [map fold_right] in Ep. rewrite Ep, !(bl_gt_mul _ BL). f_equal. ring. }
  assert (Q : forall real, concludes P mk (th_u x) (th_s x) r o real [] [] [] [] [] 0
    (Asks (Generated f) true (Wraps gam (fun w => Hashes [nothing B; a] (fun v => Says (if list_eq_dec Byte.byte_eq_dec v w then true else false))))) real).
  { intros real. apply (se_asks P mk _ _ _ _ _ _ _ _ _ _ _ _ _ _ f uk); [apply (mk_gen P mk _ _ _ f m uk Hm Hk)|]. destruct real.
    - apply (se_real P mk _ _ _ _ true _ _ _ _ _ _ _ _ ct (o 0%nat) [(gt (values r 0), o 0%nat)] 1); [reflexivity|exact He|apply ha_new; intros v []|].
      apply (se_hashes P mk _ _ _ _ true _ _ _ _ _ _ _ _ (o 0%nat) [(gt (values r 0), o 0%nat)] 1); [apply ha_known; cbn [app]; rewrite R; left; reflexivity|].
      destruct (list_eq_dec Byte.byte_eq_dec (o 0%nat) (o 0%nat)) as [_|X]; [constructor|congruence].
    - apply (se_random P mk _ _ _ _ false _ _ _ _ _ _ _ _ ct); [reflexivity|exact He|].
      apply (se_hashes P mk _ _ _ _ false _ _ _ _ _ _ _ _ (o 1%nat) [(gt (values r 0), o 1%nat)] 2); [cbn [app]; rewrite R; apply ha_new; intros v []|].
      destruct (list_eq_dec Byte.byte_eq_dec (o 1%nat) (o 0%nat)) as [X|_]; [congruence|constructor]. }
  exists mk, true, true. split; [exact Hmk|split; [exact (Q true)|]]. intros X. pose proof (C110_one_answer _ _ _ _ _ _ _ _ _ _ X (Q false)). discriminate.
Qed.
End Wrapping.

(** ** The order of the group *)
Theorem C110_negligible (C : curve) (H : contract C) P size n m c h (o : nat -> list byte) (p : quest (bls_map C)) (found : list (throws (bls_map C) * list (bm_K (bls_map C)))) :
  decent n m c h [] [] [] p -> (Z.of_nat (5 * (c + (h + m) * (h + m)) * (2 * size + n + m + 1)) <= 2 ^ 127)%Z ->
  NoDup found -> (forall z, In z found -> length (th_t (fst z)) = size /\ length (th_u (fst z)) = n /\ length (th_s (fst z)) = m /\ length (snd z) = m /\ notices P size o p z) ->
  (Z.of_nat (length found) * 2 ^ 127 <= (bls_r - 1) ^ Z.of_nat size * bls_r ^ Z.of_nat (n + m + 1) * bls_r ^ Z.of_nat m)%Z.
Proof.
  intros Hd Hc Hnd Hf. destruct (zp_elems bls_mod) as (elems & E1 & E2 & E3).
  pose proof (C110_rarely_noticed (bls_map C) (bls_map_laws C H) P size n m c h o p elems found E1 E2 Hd Hnd Hf) as L.
  assert (E4 : Z.of_nat (@length (bm_K (bls_map C)) elems) = bls_r) by exact E3. clear E3. clear E1 E2.
  revert L Hc. generalize (5 * (c + (h + m) * (h + m)) * (2 * size + n + m + 1))%nat. intros D L Hc.
  assert (L' : (Z.of_nat (length found) * (bls_r - 1) <= Z.of_nat D * ((bls_r - 1) ^ Z.of_nat size * bls_r ^ Z.of_nat (n + m + 1) * bls_r ^ Z.of_nat m))%Z).
  { assert (R0 : (1 <= bls_r)%Z) by (apply Z.leb_le; vm_compute; reflexivity).
    apply inj_le in L. rewrite !Nat2Z.inj_mul, !Nat2Z.inj_pow, !Nat2Z.inj_sub in L by (apply Nat2Z.inj_le; rewrite E4; exact R0).
    rewrite E4 in L. exact L. }
  assert (R : (2 ^ 127 * 2 ^ 127 <= bls_r - 1)%Z) by (apply Z.leb_le; vm_compute; reflexivity).
  assert (R1 : (0 <= (bls_r - 1) ^ Z.of_nat size * bls_r ^ Z.of_nat (n + m + 1) * bls_r ^ Z.of_nat m)%Z) by (repeat apply Z.mul_nonneg_nonneg; apply Z.pow_nonneg; apply Z.leb_le; vm_compute; reflexivity).
  revert R1 L'. generalize ((bls_r - 1) ^ Z.of_nat size * bls_r ^ Z.of_nat (n + m + 1) * bls_r ^ Z.of_nat m)%Z. intros T R1 L'.
  assert (Q1 : (Z.of_nat (length found) * (2 ^ 127 * 2 ^ 127) <= Z.of_nat (length found) * (bls_r - 1))%Z) by (apply Z.mul_le_mono_nonneg_l; [apply Nat2Z.is_nonneg|exact R]).
  assert (Q2 : (Z.of_nat D * T <= 2 ^ 127 * T)%Z) by (apply Z.mul_le_mono_nonneg_r; assumption).
  assert (Q3 : (Z.of_nat (length found) * 2 ^ 127 * 2 ^ 127 <= T * 2 ^ 127)%Z) by (rewrite <- Z.mul_assoc, (Z.mul_comm T); etransitivity; [exact Q1|]; etransitivity; [exact L'|exact Q2]).
  apply (Z.mul_le_mono_pos_r _ _ (2 ^ 127)); [apply Z.ltb_lt; vm_compute; reflexivity|exact Q3].
Qed.

(** ** Examples *)
Local Ltac vmr x := vm_cast_no_check (eq_refl x).
(** A key for 2 & 5 is shown. The hash of the element with the exponent 9 is asked for. Then a header is made
    for 1 and 5. The attacker finds its key among the hashes if its element has the exponent 9. *)
Definition c110_o (i : nat) : list byte := repeat x07 i.
Definition c110_quest : quest toy :=
  Asks (Generated c09_f) true (Hashes [c104_m 9] (fun v => Wraps [1; 5]%N (fun w => Says (if list_eq_dec Byte.byte_eq_dec v w then true else false)))).
Definition c110_x : throws toy := @mkThrows toy (draws ex_draw 0 10) (ex_draw 10) [ex_draw 0] [ex_s].
Definition c110_ct : ciphertext toy := run (@mkCt toy [] f0 []) (encrypt pf (gt_gen_exp toy (f101 9)) [1; 5]%N (pub_key ex_mk) ex_s).
Lemma c110_concludes real : concludes pf ex_mk (th_u c110_x) (th_s c110_x) [f101 9] c110_o real [] [] [] [] [] 0 c110_quest real.
Proof.
  apply (se_asks pf ex_mk _ _ _ _ _ _ _ _ _ _ _ _ _ _ c09_f c09_uk).
  { apply (mk_gen pf ex_mk _ _ _ c09_f c09_m); [vmr (@Ok (msp Z) c09_m)|vmr (@Ok (decryption_key toy) c09_uk)]. }
  assert (R : result_of ex_mk (kept [true] [c09_uk]) [] [c104_m 9] = gt_gen_exp toy (f101 9)) by vmr (gt_gen_exp toy (f101 9)).
  assert (Ec : encrypt pf (gt_gen_exp toy (values [f101 9] 0)) [1; 5]%N (pub_key ex_mk) (values (th_s c110_x) 0) = Ok c110_ct) by vmr (@Ok (ciphertext toy) c110_ct).
  apply (se_hashes pf ex_mk _ _ _ _ _ _ _ _ _ _ _ _ _ (c110_o 0) [(gt_gen_exp toy (f101 9), c110_o 0)] 1); [rewrite R; apply ha_new; intros v []|].
  destruct real.
  - apply (se_real pf ex_mk _ _ _ _ true _ _ _ _ _ _ _ _ c110_ct (c110_o 0) [(gt_gen_exp toy (f101 9), c110_o 0)] 1); [reflexivity|exact Ec|apply ha_known; left; reflexivity|]. constructor.
  - apply (se_random pf ex_mk _ _ _ _ false _ _ _ _ _ _ _ _ c110_ct); [reflexivity|exact Ec|]. constructor.
Qed.
Example C110_example : decent 1 1 0 1 [] [] [] c110_quest /\ length (th_t c110_x) = 10%nat /\ length (th_u c110_x) = 1%nat /\ length (th_s c110_x) = 1%nat /\
  notices pf 10 c110_o c110_quest (c110_x, [f101 9]).
Proof.
  split; [|split; [reflexivity|split; [reflexivity|split; [reflexivity|]]]].
  - cbn [decent c110_quest formula_of]. intros f E. assert (f = c09_f) by congruence. subst f. split; [vm_compute; lia|split; [intros _ gam []|]]. intros v.
    split; [cbn; lia|]. split; [intros f [<-|[]] Hh; simpl in Hh; intuition discriminate|]. intros w. exact I.
  - exists ex_mk, true, true. split; [vmr (@Ok (master_key toy) ex_mk)|]. split; [exact (c110_concludes true)|].
    intros Q. pose proof (C110_one_answer toy toy_laws pf ex_mk _ _ _ _ _ _ _ _ Q (c110_concludes false)). discriminate.
Qed.
(** The condition of [C110_entitled] for a key for 1 & (4 | (2 & 3)) and the attributes 1 and 4. *)
Example C110_entitled_example : exists p : quest toy, forall o x r mk m uk ct, o 0%nat <> o 1%nat -> generate_master_key 10 (values (th_t x ++ [th_y x])) = Ok mk ->
    to_msp pf ex_f = Ok m -> key_generation m (priv_key mk) (values (th_u x)) = Ok uk ->
    encrypt pf (gt_gen_exp toy (values r 0)) [1; 4]%N (pub_key mk) (values (th_s x) 0) = Ok ct -> notices pf 10 o p (x, r).
Proof.
  destruct ex_setup as (H1 & H2 & H3 & _). apply (C110_entitled toy toy_laws pf 10 ex_f [1; 4]%N).
  - exists (f101 2). split; intros E; apply (f_equal (@zval m101)) in E; vm_compute in E; discriminate.
  - exists ex_draw, ex_mk, ex_m, ex_kdraw, ex_uk. split; [exact H1|split; [exact H2|exact H3]].
  - cbn. lia.
  - intros x [<-|[<-|[]]]; vm_compute; lia.
  - cbn [holds ex_f]. split; [left; reflexivity|left; right; left; reflexivity].
Qed.

Print Assumptions C110_one_answer.
Print Assumptions C110_rarely_noticed.
Print Assumptions C110_entitled.
Print Assumptions C110_negligible.
Print Assumptions C110_example.
Print Assumptions C110_entitled_example.

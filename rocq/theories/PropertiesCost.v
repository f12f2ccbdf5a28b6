(** How many group operations each call makes: C138. *)
From Coq Require Import String NArith ZArith Bool Arith Lia Permutation Strings.Byte List.
From Verif Require SchemeProofs.
From Verif Require Import Prelude Field LinAlg Gauss Msp Spec MspProofs Minimal Bilinear Scheme SchemeSpec SchemeTheorems Zp ExpModel PropertiesScheme
  Codec CodecProofs Policy PolicySpec PolicyProofs Engine EngineSpec EngineProofs PropertiesEngine PropertiesVersions
  HistorySpec PropertiesHistory PropertiesWorking Demo PropertiesDemo PropertiesDraws CopiesSpec PropertiesCopies PropertiesSizes Cost.
Import ListNotations.

(** ** Specification *)
(** The fewest and the most attributes that a set satisfying the access policy has, when
    none of them can be left out. *)
Fixpoint fewest (ap : access_policy) : nat :=
  match ap with
  | AAttr _ | AAll => 1
  | AAnd a b => fewest a + fewest b
  | AOr a b => Nat.min (fewest a) (fewest b)
  end.
Fixpoint most (ap : access_policy) : nat :=
  match ap with
  | AAttr _ | AAll => 1
  | AAnd a b => most a + most b
  | AOr a b => Nat.max (most a) (most b)
  end.
Definition times {A} (n : nat) (l : list A) : list A := concat (repeat l n).

(** ** Counting *)
Lemma cbind_fst {A C} (m : counted A) (k : A -> counted C) : fst (cbind m k) = let* a := fst m in fst (k a).
Proof. unfold cbind. destruct (fst m); reflexivity. Qed.
Lemma cmapM_fst {A C} (f : A -> counted C) l : fst (cmapM f l) = mapM (fun x => fst (f x)) l.
Proof. induction l as [|x l IH]; [reflexivity|]. cbn [cmapM mapM]. rewrite cbind_fst. destruct (fst (f x)); cbn [bind]; try reflexivity. rewrite cbind_fst, IH. reflexivity. Qed.
Lemma cbind_ok {A C} (m : counted A) (k : A -> counted C) c : fst (cbind m k) = Ok c ->
  exists a, fst m = Ok a /\ fst (k a) = Ok c /\ snd (cbind m k) = snd m ++ snd (k a).
Proof. unfold cbind. destruct (fst m) as [a|e|p]; cbn [fst snd]; intros H; try discriminate. exists a. auto. Qed.
Lemma plain_bind {A C} (x : outcome A) (k : A -> counted C) a : x = Ok a -> cbind (plain x) k = k a.
Proof. intros ->. unfold cbind, plain. cbn [fst snd app]. destruct (k a); reflexivity. Qed.
Lemma did_bind {C} l (k : unit -> counted C) : cbind (did l) k = (fst (k Datatypes.tt), l ++ snd (k Datatypes.tt)).
Proof. reflexivity. Qed.
Lemma cmapM_log {A C} (f : A -> counted C) L l : forall ys, fst (cmapM f l) = Ok ys ->
  (forall x y, In x l -> fst (f x) = Ok y -> snd (f x) = L) -> snd (cmapM f l) = times (length l) L.
Proof.
  induction l as [|x l IH]; intros ys H HL; [reflexivity|]. cbn [cmapM] in *. apply cbind_ok in H as (y & E1 & H & ->).
  apply cbind_ok in H as (ys' & E2 & _ & ->). rewrite (HL x y (or_introl eq_refl) E1). cbn [snd plain]. rewrite app_nil_r.
  rewrite (IH ys' E2) by (intros x' y' Hx; apply HL; right; exact Hx). reflexivity.
Qed.
Lemma times_one {A} n (x : A) : times n [x] = repeat x n.
Proof. induction n as [|n IH]; [reflexivity|]. change (times (S n) [x]) with (x :: times n [x]). rewrite IH. reflexivity. Qed.
Lemma map_const {A C} (x : C) (l : list A) : map (fun _ => x) l = repeat x (length l).
Proof. induction l as [|y l IH]; [reflexivity|]. cbn. f_equal. exact IH. Qed.
Lemma enumerate_length {A} (l : list A) : length (enumerate l) = length l.
Proof. unfold enumerate. rewrite combine_length, seq_length. lia. Qed.

(** ** Smallest sets *)
Fixpoint fewest_node (f : node) : nat :=
  match f with Leaf _ => 1 | And a b => fewest_node a + fewest_node b | Or a b => Nat.min (fewest_node a) (fewest_node b) end.
Fixpoint most_node (f : node) : nat :=
  match f with Leaf _ => 1 | And a b => most_node a + most_node b | Or a b => Nat.max (most_node a) (most_node b) end.

Lemma minimal_ext f T U : (forall x, In x T <-> In x U) -> minimal f T -> minimal f U.
Proof.
  intros E [H1 H2]. split.
  - apply (holds_mono (attrs T)); [|exact H1]. intros a _ Ha. apply E. exact Ha.
  - intros T' Hi H. intros x Hx. apply (H2 T'); [|exact H|apply E; exact Hx]. intros z Hz. apply E, Hi, Hz.
Qed.
Lemma inside f T : holds (attrs T) f -> exists U, incl U T /\ NoDup U /\ minimal f U.
Proof.
  intros H. destruct (minimal_exists f (length T) T (le_n _) H) as (U & Hi & M). exists (nodup N.eq_dec U).
  split; [intros x Hx; apply Hi, (nodup_In N.eq_dec U x), Hx|]. split; [apply NoDup_nodup|]. apply (minimal_ext f U); [|exact M]. intros x. symmetry. apply nodup_In.
Qed.
Lemma minimal_size f : forall T, NoDup T -> minimal f T -> length T <= most_node f /\ (NoDup (leaves f) -> fewest_node f <= length T).
Proof.
  induction f as [a IHa b IHb|a IHa b IHb|v]; intros T Nd [H M]; cbn [most_node fewest_node leaves holds] in *.
  - destruct H as [H1 H2]. destruct (inside a T H1) as (U & Iu & Nu & Mu). destruct (inside b T H2) as (V & Iv & Nv & Mv).
    destruct (IHa U Nu Mu) as [A1 A2]. destruct (IHb V Nv Mv) as [B1 B2]. split.
    + assert (Q : incl T (U ++ V)).
      { apply M; [intros x Hx; apply in_app_or in Hx as [Hx|Hx]; auto|]. split; [apply (holds_mono (attrs U))|apply (holds_mono (attrs V))]; try apply Mu; try apply Mv;
          intros x _ Hx; apply in_or_app; [left|right]; exact Hx. }
      pose proof (NoDup_incl_length Nd Q) as L. rewrite app_length in L. lia.
    + intros Nl. assert (NoDup (U ++ V)) as Nuv.
      { apply NoDup_app_iff in Nl as (_ & _ & D). apply NoDup_app_iff. split; [exact Nu|]. split; [exact Nv|]. intros x X1 X2.
        apply (D x); [apply (minimal_leaves a U Mu), X1|apply (minimal_leaves b V Mv), X2]. }
      assert (Q : incl (U ++ V) T) by (intros x Hx; apply in_app_or in Hx as [Hx|Hx]; auto).
      pose proof (NoDup_incl_length Nuv Q) as L. rewrite app_length in L. apply NoDup_app_iff in Nl as (Na & Nb & _). specialize (A2 Na). specialize (B2 Nb). lia.
  - assert (G : forall c, (forall W, holds W c -> holds W a \/ holds W b) -> holds (attrs T) c -> minimal c T).
    { intros c Hc Ht. split; [exact Ht|]. intros T' Hi Hh. apply M; [exact Hi|]. apply Hc, Hh. }
    destruct H as [H|H].
    + destruct (IHa T Nd (G a (fun _ X => or_introl X) H)) as [A1 A2]. split; [lia|]. intros Nl. apply NoDup_app_iff in Nl as (Na & _). specialize (A2 Na). lia.
    + destruct (IHb T Nd (G b (fun _ X => or_intror X) H)) as [A1 A2]. split; [lia|]. intros Nl. apply NoDup_app_iff in Nl as (_ & Nb & _). specialize (A2 Nb). lia.
  - assert (Q : incl T [v]) by (apply M; [intros x [<-|[]]; exact H|left; reflexivity]). pose proof (NoDup_incl_length Nd Q) as L. split; [exact L|]. intros _.
    destruct T; [destruct H|cbn; lia].
Qed.
Lemma no_and f : count_and f = 0 -> fewest_node f = 1 /\ most_node f = 1.
Proof. induction f as [a IHa b IHb|a IHa b IHb|v]; cbn [count_and fewest_node most_node]; intros H; [discriminate| |auto]. destruct IHa, IHb; lia. Qed.
Lemma formula_sizes it p ap : forall f, policy_to_formula it p ap = Ok f -> fewest_node f = fewest ap /\ most_node f = most ap.
Proof.
  induction ap as [a|a IHa b IHb|a IHa b IHb|]; intros f H.
  - exact (no_and f (formula_count it p (AAttr a) f H)).
  - apply pf_and in H as (x & y & Ex & Ey & ->). destruct (IHa _ Ex), (IHb _ Ey). cbn [fewest_node most_node fewest most]. lia.
  - apply pf_or in H as (x & y & Ex & Ey & ->). destruct (IHa _ Ex), (IHb _ Ey). cbn [fewest_node most_node fewest most]. lia.
  - discriminate.
Qed.
Lemma key_formula_sizes it p ap f : key_formula it p ap = Ok f -> fewest_node f = fewest ap /\ most_node f = most ap.
Proof.
  destruct ap; intros H; try (rewrite key_formula_other in H by discriminate; exact (formula_sizes _ _ _ _ H)). exact (no_and f (key_formula_count it p AAll f H)).
Qed.

(** at most one more than the conjunctions *)
Theorem C138_most ap : 1 <= fewest ap <= most ap /\ most ap <= conjunctions ap + 1.
Proof. induction ap as [a|a IHa b IHb|a IHa b IHb|]; cbn [fewest most conjunctions]; lia. Qed.

Section Cost.
Variable B : BilinearMap.
Local Notation K := (bm_K B).

(** ** The functions with lists return what the functions without return *)
Lemma master_fst size (draw : nat -> K) : fst (master_ops size draw) = generate_master_key size draw.
Proof using Type.
  unfold master_ops, generate_master_key, cbind, did, plain. cbn [fst]. destruct (mapM _ _); reflexivity.
Qed.
Lemma mapM_same {X Y} (f g : X -> outcome Y) l : (forall x, In x l -> f x = g x) -> mapM f l = mapM g l.
Proof using Type. induction l as [|x l IH]; intros H; [reflexivity|]. cbn [mapM]. rewrite (H x (or_introl eq_refl)), IH by (intros y Hy; apply H; right; exact Hy). reflexivity. Qed.
Lemma generation_fst m (priv : master_private_key B) draw : fst (generation_ops m priv draw) = key_generation m priv draw.
Proof using Type.
  unfold generation_ops, key_generation. rewrite cbind_fst. cbn [fst plain]. destruct (sharing_vector _ _ _) as [u|e|p]; cbn [bind]; try reflexivity.
  rewrite cbind_fst, cmapM_fst. f_equal. apply mapM_same. intros [i row] _. rewrite cbind_fst. cbn [fst plain].
  destruct (get_attr_from_row m i) as [a|e|p]; cbn [bind]; try reflexivity. destruct (N.leb _ _); [reflexivity|]. rewrite cbind_fst. cbn [fst plain].
  destruct (indexN (priv_t priv) a) as [t|e|p]; cbn [bind]; try reflexivity. rewrite cbind_fst. cbn [fst plain]. destruct (sdiv _ t); reflexivity.
Qed.
Lemma shares_fst {I} (conv : I -> K) m u uk del : fst (shares_ops conv m u uk del) = rerandomised_shares conv m u uk del.
Proof using Type.
  unfold shares_ops, rerandomised_shares. rewrite cmapM_fst. apply mapM_same. intros [i row] _. rewrite cbind_fst. cbn [fst plain].
  destruct (get_attr_from_row m i) as [a|e|p]; cbn [bind]; try reflexivity. rewrite cbind_fst. cbn [fst plain].
  destruct (indexN (inv_t del) a) as [t|e|p]; cbn [bind]; try reflexivity. rewrite cbind_fst. cbn [fst did bind].
  destruct (get_row_from_attr (dk_msp uk) a) as [ix|]; [|reflexivity]. rewrite cbind_fst. cbn [fst plain]. destruct (index (raw_d uk) ix); reflexivity.
Qed.
Lemma delegation_fst m (uk : decryption_key B) del draw : fst (delegation_ops m uk del draw) = abe_key_delegation m uk del draw.
Proof using Type.
  unfold delegation_ops, abe_key_delegation. destruct m as [m|]; [unfold key_delegation|unfold key_randomization]; rewrite cbind_fst; cbn [fst plain];
    destruct (zero_sharing_vector _ _) as [u|e|p]; cbn [bind]; try reflexivity; rewrite cbind_fst, shares_fst; reflexivity.
Qed.
Lemma encryption_fst P msg gam (pub : master_public_key B) s : fst (encryption_ops P msg gam pub s) = encrypt P msg gam pub s.
Proof using Type.
  unfold encryption_ops, encrypt. destruct (Nat.leb _ _).
  - rewrite cbind_fst. cbn [fst plain]. destruct (usize_sub _ _ _); reflexivity.
  - rewrite cbind_fst. cbn [fst did bind]. rewrite cbind_fst, cmapM_fst.
    rewrite (mapM_same _ (fun i => let* t := indexN (pub_t pub) i in Ok (g2_exp B t s))); [destruct (mapM _ _); reflexivity|].
    intros i _. rewrite cbind_fst. cbn [fst plain]. destruct (indexN _ _); reflexivity.
Qed.
Lemma decryption_fst ct (uk : decryption_key B) : fst (decryption_ops ct uk) = decrypt ct uk.
Proof using Type.
  unfold decryption_ops, decrypt. rewrite cbind_fst. cbn [fst plain]. destruct (select_rows ct uk) as [sel|e|p]; cbn [bind]; try reflexivity.
  rewrite cbind_fst. cbn [fst plain]. destruct (span_coefs _) as [[a|]|e|p]; cbn [bind]; try reflexivity.
  rewrite cbind_fst. cbn [fst plain]. destruct (keep_nonzero a (map (fun x => snd (fst x)) sel)) as [d|e|p]; cbn [bind]; try reflexivity.
  rewrite cbind_fst. cbn [fst plain]. destruct (keep_nonzero a (map snd sel)) as [e'|e|p]; reflexivity.
Qed.

Theorem C138_result :
  (forall p draw, fst (eng_master_ops (B := B) p draw) = eng_master_key p draw) /\
  (forall P it p (priv : master_private_key B) ap draw, fst (eng_user_ops P it p priv ap draw) = eng_user_key P it p priv ap draw) /\
  (forall P it p (del : delegation_key B) uk ap draw, fst (eng_delegate_ops P it p del uk ap draw) = eng_delegate P it p del uk ap draw) /\
  (forall P p (pk : master_public_key B) l msg s, fst (eng_encrypt_ops P p pk l msg s) = eng_encrypt P p pk l msg s) /\
  (forall ct (uk : decryption_key B), fst (eng_decrypt_ops ct uk) = eng_decrypt ct uk).
Proof using Type.
  split; [intros; apply master_fst|]. split; [intros; unfold eng_user_ops, eng_user_key; rewrite cbind_fst; cbn [fst plain]; destruct (policy_to_msp _ _ _ _); [apply generation_fst|reflexivity..]|].
  split; [intros; unfold eng_delegate_ops, eng_delegate; rewrite cbind_fst; cbn [fst plain]; destruct (match ap with AAll => _ | _ => _ end); [apply delegation_fst|reflexivity..]|].
  split; [intros; unfold eng_encrypt_ops, eng_encrypt; rewrite cbind_fst; cbn [fst plain]; destruct (attributes_values p l); [apply encryption_fst|reflexivity..]|].
  intros. apply decryption_fst.
Qed.

(** ** The loops *)
Lemma generation_log m (priv : master_private_key B) draw uk : key_generation m priv draw = Ok uk ->
  snd (generation_ops m priv draw) = repeat G1GenExp (length (matrix m)).
Proof using Type.
  rewrite <- generation_fst. intros H. unfold generation_ops in *. apply cbind_ok in H as (u & _ & H & ->). cbn [snd plain app].
  apply cbind_ok in H as (big & E & _ & ->). rewrite (cmapM_log _ [G1GenExp] _ big E).
  - cbn [snd plain]. rewrite app_nil_r, times_one, enumerate_length. reflexivity.
  - clear. intros [i row] y _ H. apply cbind_ok in H as (a & _ & H & ->). destruct (N.leb _ _); [discriminate|].
    apply cbind_ok in H as (t & _ & H & ->). apply cbind_ok in H as (x & _ & H & ->). reflexivity.
Qed.
Lemma shares_log {I} (conv : I -> K) m u uk del big : fst (shares_ops conv m u uk del) = Ok big ->
  snd (shares_ops conv m u uk del) = times (length (matrix m)) [G3Exp; G3Mul].
Proof using Type.
  unfold shares_ops. intros E. rewrite (cmapM_log _ [G3Exp; G3Mul] _ big E); [rewrite enumerate_length; reflexivity|].
  clear. intros [i row] y _ H. apply cbind_ok in H as (a & _ & H & ->). apply cbind_ok in H as (t & _ & H & ->). apply cbind_ok in H as (x & _ & H & ->).
  destruct (get_row_from_attr (dk_msp uk) a) as [ix|]; [|discriminate]. apply cbind_ok in H as (z & _ & H & ->). reflexivity.
Qed.
Lemma delegation_log m (uk : decryption_key B) del draw uk' : abe_key_delegation m uk del draw = Ok uk' ->
  snd (delegation_ops m uk del draw) = times (match m with Some m => length (matrix m) | None => length (matrix (dk_msp uk)) end) [G3Exp; G3Mul].
Proof using Type.
  rewrite <- delegation_fst. intros H. destruct m as [m|]; cbn [delegation_ops] in *; apply cbind_ok in H as (u & _ & H & ->); cbn [snd plain app];
    apply cbind_ok in H as (big & E & _ & ->); rewrite (shares_log _ _ _ _ _ big E); cbn [snd plain]; apply app_nil_r.
Qed.

(** ** Encryption and master keys *)
(** A power and a product in the target group and one power for each attribute; a refusal costs nothing. *)
Theorem C138_encryption P p (pk : master_public_key B) l msg s :
  (forall ct, eng_encrypt P p pk l msg s = Ok ct -> snd (eng_encrypt_ops P p pk l msg s) = GtExp :: GtMul :: repeat G2Exp (length l)) /\
  (is_err (eng_encrypt P p pk l msg s) -> snd (eng_encrypt_ops P p pk l msg s) = []).
Proof using Type.
  destruct C138_result as (_ & _ & _ & R & _). rewrite <- R. clear R. unfold eng_encrypt_ops. split.
  - intros ct H. apply cbind_ok in H as (gam & Eg & H & ->). cbn [fst plain] in Eg. cbn [snd plain app].
    rewrite <- (mapM_length _ _ _ Eg). unfold encryption_ops in *. destruct (Nat.leb _ _).
    + apply cbind_ok in H as (x & _ & H & _). discriminate.
    + rewrite did_bind in *. cbn [fst snd] in *. apply cbind_ok in H as (ei & E & _ & ->). rewrite (cmapM_log _ [G2Exp] _ ei E).
      * rewrite times_one. cbn [snd plain app]. rewrite app_nil_r. reflexivity.
      * clear. intros i y _ H. apply cbind_ok in H as (t & _ & H & ->). reflexivity.
  - destruct (attributes_values p l) as [gam|e|q]; [|reflexivity|reflexivity]. rewrite (plain_bind (Ok gam) _ gam eq_refl).
    unfold encryption_ops. destruct (Nat.leb _ _).
    + intros _. unfold cbind, plain. cbn [fst snd]. destruct (usize_sub _ _ _); reflexivity.
    + rewrite did_bind. cbn [fst snd]. rewrite cbind_fst, cmapM_fst. intros (e & H). exfalso.
      assert (Q : forall l, mapM (fun x => fst (let% t := plain (indexN (pub_t pk) x) in let% _ := did [G2Exp] in plain (Ok (g2_exp B t s)))) l <> Err e).
      { clear. induction l as [|x l IH]; [discriminate|]. cbn [mapM]. rewrite cbind_fst. cbn [fst plain]. unfold indexN.
        destruct (N.ltb _ _); [|discriminate]. unfold index. destruct (nth_error _ _); [|discriminate]. cbn [bind]. rewrite cbind_fst. cbn [fst did plain bind].
        destruct (mapM _ l); cbn [bind]; [discriminate|congruence|discriminate]. }
      specialize (Q gam). destruct (mapM _ gam); cbn [bind fst plain] in H; congruence.
Qed.
Theorem C138_master_keys p (draw : nat -> K) mk : eng_master_key p draw = Ok mk ->
  let n := N.to_nat (max_attribute_creations p) in
  snd (eng_master_ops p draw) = GtGenExp :: repeat G2GenExp n ++ repeat G3GenExp n.
Proof using Type.
  destruct C138_result as (R & _). rewrite <- R. clear R. intros H n. unfold eng_master_ops, master_ops in *. fold n in H |- *.
  rewrite did_bind in *. cbn [fst snd app] in *. f_equal. rewrite did_bind in *. cbn [fst snd app] in *.
  apply cbind_ok in H as (inv & E & _ & ->). cbn [fst plain] in E. rewrite did_bind. cbn [fst snd plain app]. rewrite app_nil_r, !map_const.
  rewrite (mapM_length _ _ _ E). unfold draws. rewrite map_length, seq_length. reflexivity.
Qed.

Lemma keep_le {A} (a : list K) (l d : list A) : keep_nonzero a l = Ok d -> length d <= length l.
Proof using Type.
  unfold keep_nonzero. intros H. apply bind_ok in H as (ll & E & H). assert (d = concat ll) by congruence. subst d. rewrite <- (enumerate_length l), <- (mapM_length _ _ _ E).
  apply mapM_ok_inv in E. induction E as [|[i x] y xs ys Hy E IH]; [cbn; lia|]. cbn [concat]. rewrite app_length. cbn [length] in *.
  apply bind_ok in Hy as (z & _ & Hy). destruct (feqb z f0); assert (Q : length y <= 1) by (assert (E' : y = [] \/ y = [x]) by (first [left; congruence|right; congruence]); destruct E' as [->| ->]; cbn; lia);
    assert (IH' : length (concat ys) <= length ys) by (apply IH; congruence); lia.
Qed.
Lemma select_le ct (uk : decryption_key B) sel : select_rows ct uk = Ok sel -> length sel <= length (gamma ct).
Proof using Type.
  unfold select_rows. intros H. apply bind_ok in H as (ll & E & H). assert (sel = concat ll) by congruence. clear H. subst sel. rewrite <- (enumerate_length (gamma ct)), <- (mapM_length _ _ _ E).
  apply mapM_ok_inv in E. induction E as [|[i x] y xs ys Hy E IH]; [cbn; lia|]. cbn [concat]. rewrite app_length. cbn [length].
  assert (Q : length y <= 1); [|lia]. destruct (get_row_from_attr (dk_msp uk) x) as [r|]; [|assert (y = []) by congruence; subst y; cbn; lia].
  apply bind_ok in Hy as (z & _ & Hy). apply bind_ok in Hy as (z' & _ & Hy). apply bind_ok in Hy as (z'' & _ & Hy).
  match type of Hy with Ok ?w = Ok y => assert (E' : y = w) by congruence end. rewrite E'. cbn; lia.
Qed.

(** ** Decryption of anything *)
(** With any key and any ciphertext, whatever bytes they were read from: at most one
    pairing for each attribute of the ciphertext, and none unless an element is returned
    (or a panic, C105). *)
Theorem C138_any_decryption ct (uk : decryption_key B) :
  exists t u, u <= t <= length (gamma ct) /\
  (snd (eng_decrypt_ops ct uk) = [] \/ snd (eng_decrypt_ops ct uk) = repeat G2Exp t ++ repeat Miller u ++ [FinalExp; GtDiv] /\ exists m, eng_decrypt ct uk = Ok (Some m)).
Proof using Type.
  destruct C138_result as (_ & _ & _ & _ & R). rewrite <- R. clear R. unfold eng_decrypt_ops, decryption_ops.
  assert (N0 : exists t u : nat, u <= t <= length (gamma ct)) by (exists 0, 0; lia). destruct N0 as (t0 & u0 & N0).
  destruct (select_rows ct uk) as [sel|e|p] eqn:Es; [|exists t0, u0; split; [exact N0|left; reflexivity]..]. rewrite (plain_bind (Ok sel) _ sel eq_refl).
  destruct (span_coefs _) as [[a|]|e|p]; [|exists t0, u0; split; [exact N0|left; reflexivity]..]. rewrite (plain_bind (Ok (Some a)) _ (Some a) eq_refl).
  destruct (keep_nonzero a (map (fun x => snd (fst x)) sel)) as [d|e|p]; [|exists t0, u0; split; [exact N0|left; reflexivity]..]. rewrite (plain_bind (Ok d) _ d eq_refl).
  destruct (keep_nonzero a (map snd sel)) as [e'|e|p] eqn:Ee; [|exists t0, u0; split; [exact N0|left; reflexivity]..]. rewrite (plain_bind (Ok e') _ e' eq_refl).
  apply keep_le in Ee. rewrite map_length in Ee. apply select_le in Es.
  exists (length (combine e' (filter (fun ai => negb (feqb ai f0)) a))), (length (combine (combine e' (filter (fun ai => negb (feqb ai f0)) a)) d)). split.
  - rewrite !combine_length. lia.
  - right. unfold product_ops. unfold cbind, did, plain. cbn [fst snd app]. rewrite !map_const. split; [rewrite <- ?app_assoc, ?app_nil_r; cbn [app]; rewrite <- ?app_assoc, ?app_nil_r; reflexivity|eexists; reflexivity].
Qed.

Hypothesis BL : BilinearLaws B.

(** ** Keys *)
Theorem C138_user_key P n ops p (priv : master_private_key B) it ap (kdraw : nat -> K) uk bs :
  run_ops ops (new_policy n) = Ok p -> proper_axes ops -> iteration_ok it ->
  eng_user_key P it p priv ap kdraw = Ok uk -> NoDup bs -> (forall b, In b bs <-> CopiesSpec.needed ops ap b) ->
  snd (eng_user_ops P it p priv ap kdraw) = repeat G1GenExp (values_of ops bs).
Proof using BL.
  intros E Hp Hit Hk Hb Hbs. unfold eng_user_key in Hk. apply bind_ok in Hk as (m & Em & Hk). unfold eng_user_ops. rewrite (plain_bind _ _ m Em), (generation_log m priv kdraw uk Hk). f_equal.
  rewrite policy_to_msp_formula in Em. apply bind_ok in Em as (f & Ef & Em). pose proof (to_msp_msp_of K (bl_field B BL) P f m Em) as M.
  rewrite (mo_mat _ _ _ M), (Permutation_length (mo_perm _ _ _ M)). exact (leaves_count it n ops p ap f bs E Hp Hit Ef (mo_nodup _ _ _ M) Hb Hbs).
Qed.
Theorem C138_delegated_key P n ops p (del : delegation_key B) uk it ap (kdraw : nat -> K) uk' bs :
  run_ops ops (new_policy n) = Ok p -> proper_axes ops -> iteration_ok it -> ap <> AAll ->
  eng_delegate P it p del uk ap kdraw = Ok uk' -> NoDup bs -> (forall b, In b bs <-> CopiesSpec.needed ops ap b) ->
  snd (eng_delegate_ops P it p del uk ap kdraw) = times (values_of ops bs) [G3Exp; G3Mul].
Proof using BL.
  intros E Hp Hit Hne Hk Hb Hbs. unfold eng_delegate in Hk. apply bind_ok in Hk as (m & Em & Hk). unfold eng_delegate_ops. rewrite (plain_bind _ _ m Em), (delegation_log m uk del kdraw uk' Hk).
  assert (exists m', policy_to_msp it P p ap = Ok m' /\ m = Some m') as (m' & Em' & ->).
  { destruct ap; try contradiction; apply bind_ok in Em as (m' & Em & Q); exists m'; (split; [exact Em|congruence]). }
  f_equal. rewrite policy_to_msp_formula in Em'. apply bind_ok in Em' as (f & Ef & Em'). pose proof (to_msp_msp_of K (bl_field B BL) P f m' Em') as M.
  rewrite (mo_mat _ _ _ M), (Permutation_length (mo_perm _ _ _ M)). exact (leaves_count it n ops p ap f bs E Hp Hit Ef (mo_nodup _ _ _ M) Hb Hbs).
Qed.
(** Refreshing a key takes as much as delegating it to its own access policy. *)
Theorem C138_refreshed_key P n ops p p0 (mdraw : nat -> K) mk ap uk it q (kdraw : nat -> K) uk' bs :
  run_ops ops (new_policy n) = Ok p -> proper_axes ops -> eng_master_key p0 mdraw = Ok mk -> user_key P mk p ap uk ->
  eng_delegate P it q (del_key mk) uk AAll kdraw = Ok uk' -> NoDup bs -> (forall b, In b bs <-> CopiesSpec.needed ops ap b) ->
  snd (eng_delegate_ops P it q (del_key mk) uk AAll kdraw) = times (values_of ops bs) [G3Exp; G3Mul].
Proof using BL.
  intros E Hp Hmk Hu Hk Hb Hbs. unfold eng_delegate_ops. rewrite (plain_bind _ _ None eq_refl). unfold eng_delegate in Hk. cbn [bind] in Hk.
  rewrite (delegation_log None uk (del_key mk) kdraw uk' Hk). f_equal.
  destruct (user_key_formula B P mk p ap uk Hu) as (it' & f & Hit & Ef & Em & Ho). destruct (generate_master_key_inv B BL _ _ _ Hmk) as (t & y & -> & Ht & Hnz).
  destruct (obtained_rep B BL P t y f uk Hnz Ho) as (m & sg & _ & R & _). pose proof (SchemeProofs.kr_msp _ _ _ _ _ _ R) as M.
  rewrite (SchemeProofs.kr_dk _ _ _ _ _ _ R). cbn [matrix msp_map]. rewrite map_length.
  rewrite (mo_mat _ _ _ M), (Permutation_length (mo_perm _ _ _ M)). exact (leaves_count it' n ops p ap f bs E Hp Hit Ef (mo_nodup _ _ _ M) Hb Hbs).
Qed.

Lemma keep_length {A} (a : list K) (l d : list A) : keep_nonzero a l = Ok d -> length l = length a -> length d = length (filter (fun x => negb (feqb x f0)) a).
Proof using Type.
  unfold keep_nonzero, enumerate. intros H L. apply bind_ok in H as (ll & E & H). assert (Q : d = concat ll) by congruence. subst d. clear H. apply mapM_ok_inv in E.
  assert (G : forall (a2 a1 : list K) (l : list A) ll, length l = length a2 ->
    Forall2 (fun (p : nat * A) y => (let '(i, x) := p in let* ai := index (a1 ++ a2) i in Ok (if feqb ai f0 then [] else [x])) = Ok y) (combine (seq (length a1) (length l)) l) ll ->
    length (concat ll) = length (filter (fun x => negb (feqb x f0)) a2)).
  { clear. induction a2 as [|b a2 IH]; intros a1 [|x l] ll L F; try discriminate; cbn [length seq combine] in F; inversion F; subst; [reflexivity|].
    cbn [concat]. rewrite app_length. specialize (IH (a1 ++ [b]) l l'). rewrite <- app_assoc in IH. cbn [app] in IH. rewrite app_length in IH. cbn [length] in IH.
    rewrite Nat.add_1_r in IH. rewrite IH; [|cbn in L; lia|assumption]. unfold index in H1. rewrite nth_error_app2, Nat.sub_diag in H1 by lia. cbn [nth_error bind] in H1.
    cbn [filter]. match type of H1 with Ok ?w = Ok ?z => assert (Q : z = w) by congruence; rewrite Q end. destruct (feqb b f0); reflexivity. }
  exact (G a [] l ll L E).
Qed.

(** ** Decryption with the keys of the library *)
Lemma decryption_used P t y f uk gam msg (s : K) ct : (forall x, In x t -> x <> f0) -> derived B P (master_of B t y) f uk ->
  encrypt P msg gam (pub_key (master_of B t y)) s = Ok ct -> holds (attrs gam) f ->
  exists used, NoDup used /\ incl used gam /\ minimal f used /\
    snd (eng_decrypt_ops ct uk) = repeat G2Exp (length used) ++ repeat Miller (length used) ++ [FinalExp; GtDiv].
Proof using BL.
  intros Hnz Hder He Hh.
  assert (Hd : decrypt ct uk = Ok (Some msg)) by (destruct (derived_decrypt B BL P t y f uk msg gam s ct Hnz Hder He) as [[_ H]|[[H _]|[H _]]]; [exact H|contradiction|contradiction]).
  destruct (derived_good B BL P t y f uk Hnz Hder) as (G & _ & _).
  destruct (encrypt_honest B BL P msg gam t y s ct He) as (mu & -> & ->).
  destruct (recovery_minimal B BL t y f uk gam mu s G Hh) as (sel & a & Es & Ea & La & Ls & _ & Hu). cbv zeta in Hu. destruct Hu as [Nu Mu].
  set (used := map snd _) in Nu, Mu.
  assert (Lu : length used = length (filter (fun x => negb (feqb x f0)) a)).
  { unfold used. rewrite map_length. clear - La. revert La. generalize (known f gam). induction a as [|x a IH]; intros [|z l]; cbn [combine filter length fst]; intros L; try discriminate; [reflexivity|].
    destruct (feqb x f0); cbn [negb length]; rewrite IH by lia; reflexivity. }
  exists used. split; [exact Nu|]. split; [|split; [exact Mu|]].
  - intros x Hx. unfold used in Hx. apply in_map_iff in Hx as ([c z] & <- & Hx). apply filter_In in Hx as [Hx _]. apply in_combine_r in Hx. cbn [snd]. unfold known in Hx. apply filter_In in Hx. exact (proj1 Hx).
  - unfold eng_decrypt_ops, decryption_ops. rewrite (plain_bind _ _ sel Es), (plain_bind _ _ (Some a) Ea).
    unfold decrypt in Hd. rewrite Es in Hd. cbn [bind] in Hd. rewrite Ea in Hd. cbn [bind] in Hd. apply bind_ok in Hd as (d & Ed & Hd). apply bind_ok in Hd as (e & Ee & _).
    rewrite (plain_bind _ _ d Ed), (plain_bind _ _ e Ee). unfold product_ops, cbind, did, plain. cbn [fst snd app]. rewrite !map_const.
    rewrite !combine_length, (keep_length a _ d Ed), (keep_length a _ e Ee) by (rewrite map_length; lia). rewrite <- Lu, !Nat.min_id. rewrite <- ?app_assoc, ?app_nil_r; cbn [app]; rewrite <- ?app_assoc, ?app_nil_r; reflexivity.
Qed.
Theorem C138_decryption P n history p0 (mdraw : nat -> K) mk i ap uk k p l msg (s : K) ct :
  proper_axes history -> eng_master_key p0 mdraw = Ok mk ->
  held_key P mk n history i ap uk ->
  version n history k p -> eng_encrypt P p (pub_key mk) l msg s = Ok ct ->
  let T := fun b => In b l /\ ~ In (Rotate b) (between history i k) in
  (satisfied (firstn i history) T ap /\ exists t, fewest ap <= t <= most ap /\
     snd (eng_decrypt_ops ct uk) = repeat G2Exp t ++ repeat Miller t ++ [FinalExp; GtDiv]) \/
  (~ satisfied (firstn i history) T ap /\ snd (eng_decrypt_ops ct uk) = []).
Proof using BL.
  intros Hprop Hmk Hk V' He T. destruct (C138_any_decryption ct uk) as (t0 & u0 & _ & Any).
  destruct (C122_history B BL P n history p0 mdraw mk i ap uk k p l msg s ct Hprop Hmk Hk V' He) as [[Hs Hd]|[Hs Hd]]; [left|right]; (split; [exact Hs|]).
  2:{ destruct Any as [A|[_ (m & A)]]; [exact A|]. destruct Hd as [Hd|Hd]; congruence. }
  destruct (held_stands B BL P n history _ mdraw mk Hprop Hmk i ap uk Hk) as (q & it & f & g & V & Hit & Eg & [Sfg Sgf] & Hn & Hder).
  unfold eng_encrypt in He. apply bind_ok in He as (gam & Ev & He).
  destruct (generate_master_key_inv B BL _ _ _ Hmk) as (t & y & -> & _ & Hnz). unfold eng_decrypt in Hd.
  assert (Hh : holds (attrs gam) f).
  { destruct (derived_decrypt B BL P t y f uk msg gam s ct Hnz Hder He) as [[H1 _]|[[_ [_ H2]]|[_ [_ H2]]]]; [exact H1|congruence|congruence]. }
  destruct (decryption_used P t y f uk gam msg s ct Hnz Hder He Hh) as (used & Nu & _ & Mu & R).
  assert (Mg : minimal g used).
  { destruct Mu as [M1 M2]. split; [apply (restricts_holds _ _ _ Sfg M1)|]. intros T' Hi Hh'. apply M2; [exact Hi|]. apply (restricts_holds _ _ _ Sgf Hh'). }
  destruct (minimal_size g used Nu Mg) as [Sz1 Sz2]. destruct (key_formula_sizes it q ap g Eg) as [F1 F2].
  exists (length used). split; [|exact R].
  rewrite <- F1, <- F2. split; [exact (Sz2 (restricts_nodup _ _ Sgf Hn))|exact Sz1].
Qed.

(** ** Both bounds are reached *)
Fixpoint sized (m : nat -> nat -> nat) (ap : access_policy) : nat :=
  match ap with
  | AAttr _ | AAll => 1
  | AAnd a b => sized m a + sized m b
  | AOr a b => m (sized m a) (sized m b)
  end.
Lemma sized_most ap : sized Nat.max ap = most ap.
Proof using Type. induction ap as [a|a IHa b IHb|a IHa b IHb|]; cbn [sized most]; congruence. Qed.
Lemma sized_fewest ap : sized Nat.min ap = fewest ap.
Proof using Type. induction ap as [a|a IHa b IHb|a IHa b IHb|]; cbn [sized fewest]; congruence. Qed.
Lemma pure_holds f v : pure_or f -> In v (leaves f) -> holds (attrs [v]) f.
Proof using Type.
  induction f as [a IHa b IHb|a IHa b IHb|w]; cbn [pure_or leaves holds]; intros Hp Hi; [destruct Hp| |].
  - destruct Hp as [P1 P2]. apply in_app_or in Hi as [Hi|Hi]; [left; apply IHa|right; apply IHb]; assumption.
  - destruct Hi as [->|[]]. left. reflexivity.
Qed.
Lemma picked m it ops p ap : (forall a b, m a b = a \/ m a b = b) -> iteration_ok it -> inv ops p -> forall f, policy_to_formula it p ap = Ok f -> NoDup (leaves f) ->
  exists l, length l = sized m ap /\ (forall b, In b l -> declared ops b) /\
    forall gam, Forall2 (current p) l gam -> NoDup gam /\ incl gam (leaves f) /\ minimal f gam.
Proof using Type.
  intros Hm Hit I. induction ap as [a|a IHa b IHb|a IHa b IHb|]; intros f H Nd.
  - cbn [policy_to_formula] in H. exists [a]. pose proof (policy_to_node_pure it p a f H) as Hpure.
    destruct (policy_to_node_values it ops p a f Hit I H) as [V _]. unfold policy_to_node in H. destruct (axis_get p (fst a)) as [[names h]|] eqn:Ea; [|discriminate].
    destruct (position names (snd a)) as [i|] eqn:Ep; [|discriminate]. pose proof (proj1 (i_axes _ _ I _ _ _) Ea) as Hop. destruct (position_spec _ _ _ Ep) as (l2 & El & _).
    assert (Hin : In (snd a) names) by (rewrite El; apply in_or_app; right; left; reflexivity).
    split; [reflexivity|]. split; [intros b [<-|[]]; exists names, h; auto|]. intros gam F. inversion F as [|? v ? ? Hv F']; subst. inversion F'; subst.
    destruct Hv as (hp & Eh & Hv & _).
    assert (L : In v (leaves f)) by (apply V; exists a; split; [exists names, h; split; [exact Hop|]; split; [exact Hin|left; reflexivity]|exists hp; auto]).
    split; [constructor; [intros []|constructor]|]. split; [intros w [<-|[]]; exact L|]. split; [exact (pure_holds f v Hpure L)|].
    intros T' Hi Hh. destruct (holds_some _ _ Hh) as (w & _ & Hw). unfold attrs in Hw. destruct (Hi w Hw) as [<-|[]]. intros z [<-|[]]. exact Hw.
  - apply pf_and in H as (x & y & Ex & Ey & ->). cbn [leaves] in Nd. apply NoDup_app_iff in Nd as (Nx & Ny & Dj).
    destruct (IHa x Ex Nx) as (l1 & L1 & D1 & M1). destruct (IHb y Ey Ny) as (l2 & L2 & D2 & M2). exists (l1 ++ l2). split; [rewrite app_length; cbn [sized]; lia|].
    split; [intros c Hc; apply in_app_or in Hc as [Hc|Hc]; auto|]. intros gam F. apply Forall2_app_inv_l in F as (g1 & g2 & F1 & F2 & ->).
    destruct (M1 g1 F1) as (N1 & I1 & [H1 Q1]). destruct (M2 g2 F2) as (N2 & I2 & [H2 Q2]).
    split; [apply NoDup_app_iff; split; [exact N1|split; [exact N2|intros c Hc Hc'; exact (Dj c (I1 c Hc) (I2 c Hc'))]]|].
    split; [intros c Hc; apply in_or_app; apply in_app_or in Hc as [Hc|Hc]; auto|]. split.
    + split; [apply (holds_mono (attrs g1))|apply (holds_mono (attrs g2))]; try assumption; intros c _ Hc; apply in_or_app; auto.
    + intros T' Hi [Hx Hy]. set (T1 := filter (fun c => existsb (N.eqb c) (leaves x)) T'). set (T2 := filter (fun c => existsb (N.eqb c) (leaves y)) T').
      assert (E1 : forall c, In c T1 <-> In c T' /\ In c (leaves x)) by (intros c; unfold T1; rewrite filter_In, existsb_exists; split; [intros (A & d & A1 & A2); apply N.eqb_eq in A2; subst d; auto|intros (A & A1); split; [exact A|exists c; split; [exact A1|apply N.eqb_refl]]]).
      assert (E2 : forall c, In c T2 <-> In c T' /\ In c (leaves y)) by (intros c; unfold T2; rewrite filter_In, existsb_exists; split; [intros (A & d & A1 & A2); apply N.eqb_eq in A2; subst d; auto|intros (A & A1); split; [exact A|exists c; split; [exact A1|apply N.eqb_refl]]]).
      assert (J1 : incl g1 T1). { apply Q1; [intros c Hc; apply E1 in Hc as [A A1]; apply Hi, in_app_or in A as [A|A]; [exact A|exfalso; exact (Dj c A1 (I2 c A))]|]. apply (holds_mono (attrs T')); [|exact Hx]. intros c A1 A. apply E1. auto. }
      assert (J2 : incl g2 T2). { apply Q2; [intros c Hc; apply E2 in Hc as [A A1]; apply Hi, in_app_or in A as [A|A]; [exfalso; exact (Dj c (I1 c A) A1)|exact A]|]. apply (holds_mono (attrs T')); [|exact Hy]. intros c A1 A. apply E2. auto. }
      intros c Hc. apply in_app_or in Hc as [Hc|Hc]; [apply J1, E1 in Hc|apply J2, E2 in Hc]; exact (proj1 Hc).
  - apply pf_or in H as (x & y & Ex & Ey & ->). cbn [leaves] in Nd. apply NoDup_app_iff in Nd as (Nx & Ny & Dj). cbn [sized].
    destruct (Hm (sized m a) (sized m b)) as [-> | ->].
    + destruct (IHa x Ex Nx) as (l1 & L1 & D1 & M1). exists l1. split; [exact L1|]. split; [exact D1|]. intros gam F. destruct (M1 gam F) as (N1 & I1 & [H1 Q1]).
      split; [exact N1|]. split; [intros c Hc; apply in_or_app; left; auto|]. split; [left; exact H1|]. intros T' Hi [Hx|Hy]; [exact (Q1 T' Hi Hx)|].
      destruct (holds_some _ _ Hy) as (c & A1 & A). exfalso. exact (Dj c (I1 c (Hi c A)) A1).
    + destruct (IHb y Ey Ny) as (l1 & L1 & D1 & M1). exists l1. split; [exact L1|]. split; [exact D1|]. intros gam F. destruct (M1 gam F) as (N1 & I1 & [H1 Q1]).
      split; [exact N1|]. split; [intros c Hc; apply in_or_app; right; auto|]. split; [right; exact H1|]. intros T' Hi [Hx|Hy]; [|exact (Q1 T' Hi Hy)].
      destruct (holds_some _ _ Hx) as (c & A1 & A). exfalso. exact (Dj c A1 (I1 c (Hi c A))).
  - discriminate.
Qed.
(** For every access policy there are ciphertexts whose decryption takes the fewest
    pairings allowed by [C138_decryption], and others whose decryption takes the most. *)
Theorem C138_reached P n ops p p0 (mdraw : nat -> K) mk it ap (kdraw : nat -> K) uk t :
  run_ops ops (new_policy n) = Ok p -> eng_master_key p0 mdraw = Ok mk -> iteration_ok it -> ap <> AAll ->
  eng_user_key P it p (priv_key mk) ap kdraw = Ok uk -> t = fewest ap \/ t = most ap ->
  exists l, length l = t /\ (forall b, In b l -> declared ops b) /\
    forall msg (s : K), exists ct, eng_encrypt P p (pub_key mk) l msg s = Ok ct /\
      snd (eng_decrypt_ops ct uk) = repeat G2Exp t ++ repeat Miller t ++ [FinalExp; GtDiv].
Proof using BL.
  intros E Hmk Hit Hne Hk Ht. pose proof (inv_history n ops p E) as I. unfold eng_user_key in Hk. apply bind_ok in Hk as (m & Em & Hk). rewrite policy_to_msp_formula in Em. apply bind_ok in Em as (f & Ef & Em).
  pose proof (mo_nodup _ _ _ (to_msp_msp_of K (bl_field B BL) P f m Em)) as Nd.
  destruct (generate_master_key_inv B BL _ _ _ Hmk) as (ts & y & -> & _ & Hnz).
  assert (Hder : derived B P (master_of B ts y) f uk) by (eapply de_gen; [exact Em|exact Hk]).
  rewrite key_formula_other in Ef by exact Hne.
  assert (Q : exists l, length l = t /\ (forall b, In b l -> declared ops b) /\ forall gam, Forall2 (current p) l gam -> NoDup gam /\ incl gam (leaves f) /\ minimal f gam).
  { destruct Ht as [-> | ->]; [rewrite <- sized_fewest|rewrite <- sized_most]; apply (picked _ it ops p ap); try assumption; intros a b; lia. }
  destruct Q as (l & Ll & D & M). exists l. split; [exact Ll|]. split; [exact D|]. intros msg s.
  destruct (attributes_values_ok ops p l I D) as (gam & Eg & _). pose proof (attributes_values_inv p l gam Eg) as Ev. destruct (M gam Ev) as (Ng & Ig & [Hh Hmin]).
  destruct (derived_good B BL P ts y f uk Hnz Hder) as (_ & Hrange & _).
  assert (R : forall v, In v gam -> 1 <= N.to_nat v < length ts).
  { intros v Hv. split.
    - destruct (Forall2_in_r _ _ _ _ Ev Hv) as (b & _ & h & Eh & Hin & _). destruct (i_heap _ _ I b h Eh) as (_ & _ & Q). pose proof (Q v Hin). lia.
    - destruct (Nat.lt_ge_cases (N.to_nat v) (length ts)) as [Q|Q]; [exact Q|]. exfalso. apply (Hrange v (Ig v Hv)). unfold SchemeProofs.tt. apply nth_overflow. exact Q. }
  assert (Hlen : length gam < length ts).
  { pose proof (NoDup_incl_length (l := gam) (l' := map N.of_nat (seq 1 (length ts - 1))) Ng) as Q. rewrite map_length, seq_length in Q.
    destruct gam as [|v gam']; [destruct (holds_some _ _ Hh) as (c & _ & []) |]. pose proof (R v (or_introl eq_refl)).
    enough (length (v :: gam') <= length ts - 1) by lia. apply Q. intros w Hw. apply in_map_iff. exists (N.to_nat w). split; [apply N2Nat.id|]. apply in_seq. pose proof (R w Hw). lia. }
  assert (He : exists ct, eng_encrypt P p (pub_key (master_of B ts y)) l msg s = Ok ct).
  { unfold eng_encrypt. rewrite Eg. cbn [bind]. unfold encrypt. cbn [master_of pub_key].
    destruct (Nat.leb_spec (length (pub_t (SchemeProofs.pub_of B ts y))) (length gam)) as [Q|_]; [unfold SchemeProofs.pub_of in Q; cbn [pub_t] in Q; rewrite map_length in Q; lia|].
    rewrite (mapM_ok_map _ (fun i => g2_exp B (g2_gen_exp B (SchemeProofs.tt B ts i)) s)); [eexists; reflexivity|].
    intros v Hv. rewrite SchemeProofs.indexN_pub; [reflexivity|]. exact (proj2 (R v Hv)). }
  destruct He as (ct & He). exists ct. split; [exact He|]. unfold eng_encrypt in He. rewrite Eg in He. cbn [bind] in He. clear R.
  destruct (decryption_used P ts y f uk gam msg s ct Hnz Hder He Hh) as (used & Nu & Iu & [Mu _] & R). rewrite R.
  assert (L : length used = t); [|rewrite L; reflexivity]. rewrite <- Ll. replace (length l) with (length gam) by (clear - Ev; induction Ev; cbn [length]; congruence). apply Nat.le_antisymm.
  - exact (NoDup_incl_length Nu Iu).
  - exact (NoDup_incl_length Ng (Hmin used Iu Mu)).
Qed.
End Cost.

(** ** Examples *)
Local Ltac vmr x := vm_cast_no_check (eq_refl x).
Definition cost_needed : list attribute := [level "Protected"; level "Confidential"; dept "HR"; dept "FIN"].
Lemma cost_needed_ok ops : ops = ops_a \/ ops = hist -> forall b, In b cost_needed <-> CopiesSpec.needed ops ex_ap b.
Proof.
  intros Ho b. change (In b cost_needed <-> HistorySpec.needed ops ex_ap b). rewrite needed_spec, <- on_spec.
  assert (E : flat_map (covered ops) (mentioned ex_ap) = cost_needed) by (destruct Ho as [-> | ->]; vm_compute; reflexivity).
  rewrite E. reflexivity.
Qed.

(** Two sets of the policy that cannot be made smaller: one of one attribute and one of two. *)
Definition either : access_policy := AOr (AAnd (AAttr (level "Confidential")) (AAttr (dept "HR"))) (AAttr (dept "FIN")).
Lemma either_held : held_key pf ex_mk 10 hist 2 either (ekey pol_a either).
Proof. eapply (hk_gen pf ex_mk 10%N hist it_rev 2 pol_a either ex_kdraw); [exact it_rev_ok|exact hist_two|vmr (Ok (ekey pol_a either))]. Qed.

Example C138_example :
  (** master keys for ten values *)
  eng_master_key pol_a ex_draw = Ok ex_mk /\
  snd (eng_master_ops (B := toy) pol_a ex_draw) = GtGenExp :: repeat G2GenExp 10 ++ repeat G3GenExp 10 /\
  (** a key before and after a rotation: 4 and 5 values *)
  NoDup cost_needed /\ (forall b, In b cost_needed <-> CopiesSpec.needed ops_a ex_ap b) /\ (forall b, In b cost_needed <-> CopiesSpec.needed hist ex_ap b) /\
  values_of ops_a cost_needed = 4 /\ values_of hist cost_needed = 5 /\
  snd (eng_user_ops (B := toy) pf it_rev pol_a (priv_key ex_mk) ex_ap ex_kdraw) = repeat G1GenExp 4 /\
  snd (eng_user_ops (B := toy) pf it_rev pol_b (priv_key ex_mk) ex_ap ex_kdraw) = repeat G1GenExp 5 /\
  (** delegated to itself, refreshed, and refused: one power is computed for nothing *)
  snd (eng_delegate_ops (B := toy) pf it_rev pol_a (del_key ex_mk) (ekey pol_a ex_ap) ex_ap ex_draw) = times 4 [G3Exp; G3Mul] /\
  snd (eng_delegate_ops (B := toy) pf it_rev pol_a (del_key ex_mk) (ekey pol_a ex_ap) AAll ex_draw) = times 4 [G3Exp; G3Mul] /\
  snd (eng_delegate_ops (B := toy) pf it_rev pol_a (del_key ex_mk) (ekey pol_a ex_ap) (AAttr (dept "MKG")) ex_draw) = [G3Exp] /\
  (** encryption for three attributes; for an unknown one; for too many *)
  snd (eng_encrypt_ops (B := toy) pf pol_a (pub_key ex_mk) [dept "HR"; level "Protected"; dept "FIN"] ex_msg ex_s) = [GtExp; GtMul; G2Exp; G2Exp; G2Exp] /\
  snd (eng_encrypt_ops (B := toy) pf pol_a (pub_key ex_mk) [dept "HR"; dept "IT"] ex_msg ex_s) = [] /\
  snd (eng_encrypt_ops (B := toy) pf pol_a (pub_key ex_mk) (repeat (dept "HR") 10) ex_msg ex_s) = [] /\
  (** decryption: three attributes match, two pairings are enough *)
  fewest ex_ap = 2 /\ most ex_ap = 2 /\
  snd (eng_decrypt_ops (B := toy) (ect pol_a [dept "HR"; level "Protected"; dept "FIN"]) (ekey pol_a ex_ap)) = [G2Exp; G2Exp; Miller; Miller; FinalExp; GtDiv] /\
  snd (eng_decrypt_ops (B := toy) (ect pol_a [dept "HR"; dept "FIN"]) (ekey pol_a ex_ap)) = [] /\
  (** one or two pairings *)
  fewest either = 1 /\ most either = 2 /\
  snd (eng_decrypt_ops (B := toy) (ect pol_a [dept "HR"; level "Protected"]) (ekey pol_a either)) = [G2Exp; G2Exp; Miller; Miller; FinalExp; GtDiv] /\
  snd (eng_decrypt_ops (B := toy) (ect pol_a [level "Protected"; dept "FIN"]) (ekey pol_a either)) = [G2Exp; Miller; FinalExp; GtDiv].
Proof.
  split; [vmr (Ok ex_mk)|]. split; [vmr (GtGenExp :: repeat G2GenExp 10 ++ repeat G3GenExp 10)|].
  split; [repeat constructor; cbn; intuition discriminate|].
  split; [apply cost_needed_ok; left; reflexivity|]. split; [apply cost_needed_ok; right; reflexivity|]. split; [reflexivity|]. split; [reflexivity|].
  split; [vmr (repeat G1GenExp 4)|]. split; [vmr (repeat G1GenExp 5)|]. split; [vmr (times 4 [G3Exp; G3Mul])|]. split; [vmr (times 4 [G3Exp; G3Mul])|].
  split; [vmr [G3Exp]|]. split; [vmr [GtExp; GtMul; G2Exp; G2Exp; G2Exp]|]. split; [vmr (@nil group_op)|]. split; [vmr (@nil group_op)|]. split; [reflexivity|]. split; [reflexivity|].
  split; [vmr [G2Exp; G2Exp; Miller; Miller; FinalExp; GtDiv]|]. split; [vmr (@nil group_op)|]. split; [reflexivity|]. split; [reflexivity|].
  split; [vmr [G2Exp; G2Exp; Miller; Miller; FinalExp; GtDiv]|]. vmr [G2Exp; Miller; FinalExp; GtDiv].
Qed.
(** the hypotheses of [C138_decryption] *)
Example C138_decryption_example :
  proper_axes hist /\ version 10 hist 2 pol_a /\ held_key pf ex_mk 10 hist 2 either (ekey pol_a either) /\
  (exists t, 1 <= t <= 2 /\ snd (eng_decrypt_ops (B := toy) (ect pol_a [dept "HR"; level "Protected"; dept "FIN"]) (ekey pol_a either)) =
     repeat G2Exp t ++ repeat Miller t ++ [FinalExp; GtDiv]).
Proof.
  split; [exact hist_proper|]. split; [exact hist_two|]. split; [exact either_held|].
  assert (He : eng_encrypt pf pol_a (pub_key ex_mk) [dept "HR"; level "Protected"; dept "FIN"] ex_msg ex_s = Ok (ect pol_a [dept "HR"; level "Protected"; dept "FIN"]))
    by vmr (Ok (ect pol_a [dept "HR"; level "Protected"; dept "FIN"])).
  assert (Hm : eng_master_key pol_a ex_draw = Ok ex_mk) by vmr (Ok ex_mk).
  destruct (C138_decryption toy toy_laws pf 10 hist pol_a ex_draw ex_mk 2 either (ekey pol_a either) 2 pol_a _ ex_msg ex_s _ hist_proper Hm either_held hist_two He) as [[_ H]|[H _]]; [exact H|].
  exfalso. apply H. apply (grants_spec _ _ [dept "HR"; level "Protected"; dept "FIN"]); [|vm_compute; reflexivity]. intros b. cbn. tauto.
Qed.
(** the hypotheses of [C138_reached], and lists of attributes that reach both bounds *)
Example C138_reached_example :
  run_ops ops_a (new_policy 10) = Ok pol_a /\ eng_master_key pol_a ex_draw = Ok ex_mk /\ iteration_ok it_rev /\ either <> AAll /\
  eng_user_key pf it_rev pol_a (priv_key ex_mk) either ex_kdraw = Ok (ekey pol_a either) /\ fewest either = 1 /\ most either = 2 /\
  snd (eng_decrypt_ops (B := toy) (ect pol_a [dept "FIN"]) (ekey pol_a either)) = [G2Exp; Miller; FinalExp; GtDiv] /\
  snd (eng_decrypt_ops (B := toy) (ect pol_a [level "Confidential"; dept "HR"]) (ekey pol_a either)) = [G2Exp; G2Exp; Miller; Miller; FinalExp; GtDiv].
Proof.
  split; [vm_compute; reflexivity|]. split; [vmr (Ok ex_mk)|]. split; [exact it_rev_ok|]. split; [intros H; inversion H|].
  split; [vmr (Ok (ekey pol_a either))|]. split; [reflexivity|]. split; [reflexivity|].
  split; [vmr [G2Exp; Miller; FinalExp; GtDiv]|]. vmr [G2Exp; G2Exp; Miller; Miller; FinalExp; GtDiv].
Qed.

Print Assumptions C138_result.
Print Assumptions C138_encryption.
Print Assumptions C138_master_keys.
Print Assumptions C138_most.
Print Assumptions C138_any_decryption.
Print Assumptions C138_user_key.
Print Assumptions C138_delegated_key.
Print Assumptions C138_refreshed_key.
Print Assumptions C138_decryption.
Print Assumptions C138_reached.

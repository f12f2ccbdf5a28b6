(** The solver on rows of different lengths (C04). *)
From Coq Require Import String NArith ZArith Bool Lia Permutation List.
From Verif Require Import Prelude Field LinAlg Gauss GaussProofs SchemeSpec Zp ExpModel PropertiesScheme PropertiesCollusion.
Import ListNotations.

(** The computation succeeds with [Q], or stops at an index out of bounds. *)
Definition ob {A} (Q : A -> Prop) (o : outcome A) : Prop := (exists a, o = Ok a /\ Q a) \/ o = Panic IndexOutOfBounds.
Lemma ob_ok {A} (Q : A -> Prop) a : Q a -> ob Q (Ok a).
Proof. intros H. left. exists a. split; [reflexivity|exact H]. Qed.
Lemma ob_bind {A C} (Q : A -> Prop) (R : C -> Prop) o (k : A -> outcome C) : ob Q o -> (forall a, o = Ok a -> Q a -> ob R (k a)) -> ob R (bind o k).
Proof. intros [(a & -> & H)| ->] Hk; [cbn [bind]; apply Hk; [reflexivity|exact H]|right; reflexivity]. Qed.
Lemma ob_weak {A} (Q R : A -> Prop) o : ob Q o -> (forall a, Q a -> R a) -> ob R o.
Proof. intros [(a & E & H)|E] W; [left; exists a; split; [exact E|exact (W a H)]|right; exact E]. Qed.
Lemma ob_index {A} (l : list A) i : ob (fun x => nth_error l i = Some x /\ (i < length l)%nat) (index l i).
Proof. unfold index. destruct (nth_error l i) as [x|] eqn:E; [|right; reflexivity]. apply ob_ok. split; [reflexivity|]. apply nth_error_Some. rewrite E. discriminate. Qed.
Lemma ob_write {A} (l : list A) i x : ob (fun l' => l' = set_nth l i x /\ (i < length l)%nat) (write_at l i x).
Proof. unfold write_at. destruct (Nat.ltb_spec i (length l)); [apply ob_ok; split; [reflexivity|assumption]|right; reflexivity]. Qed.
Lemma ob_swap {A} (l : list A) i j : ob (fun l' => length l' = length l /\ (i < length l)%nat /\ (j < length l)%nat) (swap_at l i j).
Proof.
  unfold swap_at. eapply ob_bind; [apply ob_index|]. intros x _ [_ Hi]. eapply ob_bind; [apply ob_index|]. intros y _ [_ Hj].
  eapply ob_bind; [apply ob_write|]. intros l1 _ [-> _]. eapply ob_weak; [apply ob_write|]. intros l2 [-> _]. rewrite !set_nth_length. auto.
Qed.
Lemma ob_mapM {A C} (Q : A -> C -> Prop) g (l : list A) : (forall x, In x l -> ob (Q x) (g x)) -> ob (Forall2 Q l) (mapM g l).
Proof.
  induction l as [|x l IH]; intros H; [apply ob_ok; constructor|]. cbn [mapM]. eapply ob_bind; [apply H; left; reflexivity|]. intros y _ Hy.
  eapply ob_bind; [apply IH; intros z Hz; apply H; right; exact Hz|]. intros ys _ Hys. apply ob_ok. constructor; assumption.
Qed.
Lemma ob_foldM {S A} (Q : S -> Prop) (f : S -> A -> outcome S) l : (forall s a, In a l -> Q s -> ob Q (f s a)) -> forall s, Q s -> ob Q (foldM f l s).
Proof.
  induction l as [|a l IH]; intros H s Hs; [apply ob_ok; exact Hs|]. cbn [foldM]. eapply ob_bind; [apply H; [left; reflexivity|exact Hs]|]. intros s' _ Hs'.
  apply IH; [intros; apply H; [right|]; assumption|exact Hs'].
Qed.

Section Solver.
Variable K : FieldOps.
Variable KL : FieldLaws K.

(** ** Rows that are too short *)
Definition lens (m : list (list K)) : list nat := map (@length K) m.
Definition like (m m' : list (list K)) : Prop := lens m' = lens m.
Lemma like_forall m m' : Forall2 (fun a b => length b = length a) m m' -> like m m'.
Proof. unfold like, lens. induction 1 as [|a b l l' E _ IH]; [reflexivity|]. cbn [map]. rewrite E, IH. reflexivity. Qed.
Lemma ob_update k g (m : list (list K)) : (forall x, In x m -> ob (fun y => length y = length x) (g x)) -> ob (like m) (update_from k g m).
Proof.
  intros H. unfold update_from. eapply ob_bind.
  - apply (ob_mapM (fun a b => length b = length a)). intros x Hx. apply H. rewrite <- (firstn_skipn k m). apply in_or_app. right. exact Hx.
  - intros t _ Ht. apply ob_ok. apply like_forall in Ht. unfold like, lens in *. rewrite map_app, Ht, <- map_app, firstn_skipn. reflexivity.
Qed.
Lemma ob_entry (m : list (list K)) c r : ob (fun x => exists col, nth_error m c = Some col /\ nth_error col r = Some x /\ (r < length col)%nat) (entry m c r).
Proof.
  unfold entry. eapply ob_bind; [apply ob_index|]. intros col _ [E _]. eapply ob_weak; [apply ob_index|]. intros x [Ex Hr]. exists col. auto.
Qed.
Lemma set_like (m : list (list K)) c col col' : nth_error m c = Some col -> length col' = length col -> like m (set_nth m c col').
Proof.
  unfold like, lens. revert c. induction m as [|a m IH]; intros [|c] E L; cbn in *; try discriminate; [assert (a = col) by congruence; subst; rewrite L; reflexivity|].
  rewrite (IH c E L). reflexivity.
Qed.
Lemma ob_divide (m : list (list K)) c p x : entry m c p = Ok x -> x <> f0 -> ob (like m) (divide_row m c p).
Proof using KL.
  intros E Hx. unfold divide_row. rewrite E. cbn [bind]. destruct (feqb x f1); [apply ob_ok; reflexivity|].
  eapply ob_bind; [apply ob_index|]. intros col _ [Ec _]. eapply ob_bind; [apply ob_write|]. intros col' _ [-> _].
  eapply ob_bind; [apply ob_write|]. intros m' _ [-> _]. eapply ob_weak; [apply ob_update|].
  - intros l _. eapply ob_bind; [apply ob_index|]. intros y _ _. unfold sdiv. destruct (feqb x f0) eqn:Z; [apply (fl_eqb K KL) in Z; contradiction|].
    cbn [bind]. eapply ob_weak; [apply ob_write|]. intros l' [-> _]. apply set_nth_length.
  - intros m' H. unfold like in *. rewrite H. apply (set_like m c col); [exact Ec|apply set_nth_length].
Qed.
Lemma ob_eliminate c p (m : list (list K)) r : ob (like m) (eliminate_row c p m r).
Proof.
  unfold eliminate_row. eapply ob_bind; [apply ob_entry|]. intros v _ _. destruct (feqb v f0); [apply ob_ok; reflexivity|]. apply ob_update.
  intros l _. eapply ob_bind; [apply ob_index|]. intros y _ _. eapply ob_bind; [apply ob_index|]. intros z _ _. eapply ob_weak; [apply ob_write|]. intros l' [-> _]. apply set_nth_length.
Qed.
Lemma ob_eliminates c p rs (m : list (list K)) : ob (like m) (foldM (eliminate_row c p) rs m).
Proof.
  apply (ob_foldM (like m)); [|reflexivity]. intros s a _ Hs. eapply ob_weak; [apply ob_eliminate|]. unfold like. intros m' E. rewrite E. exact Hs.
Qed.
Lemma like_nth (m m' : list (list K)) j col : like m m' -> nth_error m j = Some col -> exists col', nth_error m' j = Some col' /\ length col' = length col.
Proof.
  unfold like, lens. intros H E. assert (E' : nth_error (map (@length K) m') j = Some (length col)) by (rewrite H; apply map_nth_error; exact E).
  destruct (nth_error m' j) as [col'|] eqn:E2.
  - rewrite (map_nth_error _ _ _ E2) in E'. exists col'. split; [reflexivity|congruence].
  - apply nth_error_None in E2. assert (nth_error (map (@length K) m') j = None) by (apply nth_error_None; rewrite map_length; exact E2). congruence.
Qed.
Lemma eliminates_stop c p rs : forall (m : list (list K)) col, nth_error m c = Some col -> In (length col) rs -> foldM (eliminate_row c p) rs m = Panic IndexOutOfBounds.
Proof.
  induction rs as [|r rs IH]; intros m col E Hin; [destruct Hin|]. cbn [foldM]. destruct (Nat.eq_dec r (length col)) as [-> |D].
  - unfold eliminate_row, entry. assert (E1 : index m c = Ok col) by (unfold index; rewrite E; reflexivity). rewrite E1. cbn [bind].
    assert (E2 : index col (length col) = Panic IndexOutOfBounds) by (unfold index; rewrite (proj2 (nth_error_None col (length col))) by lia; reflexivity). rewrite E2. reflexivity.
  - destruct (ob_eliminate c p m r) as [(m' & E' & L)|E']; rewrite E'; [|reflexivity]. cbn [bind]. destruct (like_nth m m' c col L E) as (col' & E2 & L2).
    apply (IH m' col' E2). rewrite L2. destruct Hin; [congruence|assumption].
Qed.
Lemma ob_find (m : list (list K)) c rs : ob (fun o => forall r, o = Some r -> In r rs /\ exists x, entry m c r = Ok x /\ x <> f0) (find_pivot m c rs).
Proof using KL.
  induction rs as [|r rs IH]; cbn [find_pivot]; [apply ob_ok; discriminate|]. eapply ob_bind; [apply ob_entry|]. intros x Ex _. destruct (feqb x f0) eqn:Z.
  - eapply ob_weak; [exact IH|]. intros o H r' E. destruct (H r' E) as [H1 H2]. split; [right; exact H1|exact H2].
  - apply ob_ok. intros r' E. assert (r' = r) by congruence. subst r'. split; [left; reflexivity|]. exists x. split; [exact Ex|]. intros ->. rewrite (proj2 (fl_eqb K KL f0 f0) eq_refl) in Z. discriminate.
Qed.
Lemma find_stops (m : list (list K)) c col rs : nth_error m c = Some col -> (exists r, In r rs /\ (length col <= r)%nat) -> ~ find_pivot m c rs = Ok None.
Proof.
  intros E. induction rs as [|r rs IH]; intros (r0 & Hin & L); [destruct Hin|]. cbn [find_pivot]. unfold entry.
  assert (E1 : index m c = Ok col) by (unfold index; rewrite E; reflexivity). rewrite E1. cbn [bind].
  destruct (ob_index col r) as [(x & Ex & _ & Hr)|Ex]; rewrite Ex; cbn [bind]; [|discriminate]. destruct (feqb x f0); [|discriminate].
  apply IH. exists r0. split; [|exact L]. destruct Hin as [-> |Hin]; [lia|exact Hin].
Qed.
Lemma swapped_entry (m m' : list (list K)) p row c x : mapM (fun col => swap_at col p row) m = Ok m' -> entry m c row = Ok x -> entry m' c p = Ok x.
Proof.
  intros E H. unfold entry in *. destruct (ob_index m c) as [(col & Ec & En & _)|Ec]; rewrite Ec in H; cbn [bind] in H; [|discriminate].
  apply mapM_ok_inv in E. destruct (Forall2_nth_error _ _ _ c col E En) as (col' & En' & Es).
  assert (Ec' : index m' c = Ok col') by (unfold index; rewrite En'; reflexivity). rewrite Ec'. cbn [bind].
  destruct (ob_swap col p row) as [(l & El & L & H1 & H2)|El]; [|congruence]. assert (l = col') by congruence. subst l.
  destruct (swap_at_ok K col p row H1 H2) as (l & El' & L' & Hn). assert (l = col') by congruence. subst l.
  rewrite (index_nth col' p f0) by lia. rewrite Hn. unfold tr. rewrite Nat.eqb_refl. rewrite (index_nth col row f0) in H by exact H2. exact H.
Qed.

Lemma loop_short nc nr fuel : forall (m : list (list K)) p c lp, length m = nc -> (p < nr)%nat ->
  (exists j col, (c <= j)%nat /\ nth_error m j = Some col /\ (length col < nr)%nat) -> (nc - c <= fuel)%nat ->
  gauss_loop fuel nc nr m p c lp = Panic IndexOutOfBounds.
Proof using KL.
  induction fuel as [|fuel IH]; intros m p c lp Lm Hp (j & col & Hj & Ej & Lc) Hf.
  - assert (j < length m)%nat by (apply nth_error_Some; rewrite Ej; discriminate). lia.
  - assert (Hjm : (j < length m)%nat) by (apply nth_error_Some; rewrite Ej; discriminate).
    cbn [gauss_loop]. destruct (Nat.eqb_spec c nc) as [|_]; [lia|]. destruct (Nat.eqb_spec p nr) as [|_]; [lia|]. cbn [orb].
    destruct (ob_find m c (seq p (nr - p))) as [(o & Eo & Ho)|Eo]; rewrite Eo; [|reflexivity]. cbn [bind].
    destruct o as [row|].
    + destruct (Ho row eq_refl) as (_ & x & Ex & Hx).
      destruct (ob_mapM (fun a b => length b = length a /\ (p < length a)%nat /\ (row < length a)%nat) (fun col => swap_at col p row) m) as [(m1 & E1 & F1)|E1]; [intros l _; apply ob_swap| |rewrite E1; reflexivity].
      rewrite E1. cbn [bind]. pose proof (swapped_entry m m1 p row c x E1 Ex) as Ex1.
      destruct (Forall2_nth_error _ _ _ j col F1 Ej) as (col1 & Ej1 & Lc1 & Hp1 & _).
      assert (L1 : like m m1) by (apply like_forall; clear -F1; induction F1 as [|a b l l' [H _] _ IH]; constructor; assumption).
      destruct (ob_divide m1 c p x Ex1 Hx) as [(m2 & E2 & L2)|E2]; rewrite E2; [|reflexivity]. cbn [bind].
      destruct (like_nth m1 m2 j col1 L2 Ej1) as (col2 & Ej2 & Lc2).
      destruct (Nat.eq_dec c j) as [->|Dj].
      * rewrite (eliminates_stop j p _ m2 col2 Ej2); [reflexivity|]. apply in_seq. lia.
      * destruct (ob_eliminates c p (seq (p + 1) (nr - (p + 1))) m2) as [(m3 & E3 & L3)|E3]; rewrite E3; [|reflexivity]. cbn [bind].
        destruct (ob_eliminates c p (seq 0 p) m3) as [(m4 & E4 & L4)|E4]; rewrite E4; [|reflexivity]. cbn [bind].
        destruct (like_nth m2 m3 j col2 L3 Ej2) as (col3 & Ej3 & Lc3). destruct (like_nth m3 m4 j col3 L4 Ej3) as (col4 & Ej4 & Lc4).
        apply IH; [|lia| |lia].
        -- assert (Q : lens m4 = lens m) by (unfold like in *; congruence). apply (f_equal (@length nat)) in Q. unfold lens in Q. rewrite !map_length in Q. lia.
        -- exists j, col4. split; [lia|]. split; [exact Ej4|lia].
    + destruct (Nat.eq_dec c j) as [->|Dj].
      * exfalso. apply (find_stops m j col (seq p (nr - p)) Ej); [|exact Eo]. exists (Nat.max p (length col)). split; [apply in_seq; lia|lia].
      * apply IH; [exact Lm|exact Hp| |lia]. exists j, col. split; [lia|]. split; assumption.
Qed.

(** ** Rows that are too long *)
Section Long.
Variable n : nat.
Definition cut (m : list (list K)) : list (list K) := map (firstn n) m.
Definition long (m : list (list K)) : Prop := forall l, In l m -> (n <= length l)%nat.
(** the same outcome, up to the cut *)
Definition alike {A} (f : A -> A) (Q : A -> Prop) (o o' : outcome A) : Prop :=
  match o with Ok a => o' = Ok (f a) /\ Q a | Err e => o' = Err e | Panic p => o' = Panic p end.
Lemma alike_bind {A C} (f : A -> A) (g : C -> C) (Q : A -> Prop) (R : C -> Prop) o o' k k' : alike f Q o o' -> (forall a, Q a -> alike g R (k a) (k' (f a))) -> alike g R (bind o k) (bind o' k').
Proof. unfold alike at 1. destruct o as [a|e|p]; [intros [-> H] Hk; exact (Hk a H)|intros -> _; reflexivity|intros -> _; reflexivity]. Qed.
Lemma alike_ok {A} (f : A -> A) (Q : A -> Prop) a : Q a -> alike f Q (Ok a) (Ok (f a)).
Proof. intros H. split; [reflexivity|exact H]. Qed.

Lemma index_cut (l : list K) i : (i < n <= length l)%nat -> index (firstn n l) i = index l i.
Proof. intros H. rewrite (index_nth l i f0) by lia. rewrite (index_nth (firstn n l) i f0) by (rewrite firstn_length; lia). f_equal. rewrite <- (firstn_skipn n l) at 2. rewrite app_nth1; [reflexivity|]. rewrite firstn_length. lia. Qed.
Lemma set_cut (l : list K) i x : firstn n (set_nth l i x) = set_nth (firstn n l) i x.
Proof. revert l i. induction n as [|k IH]; intros [|a l] [|i]; try reflexivity. cbn [set_nth firstn]. rewrite IH. reflexivity. Qed.
Lemma write_cut (l : list K) i x : (i < n <= length l)%nat -> alike (firstn n) (fun l => (n <= length l)%nat) (write_at l i x) (write_at (firstn n l) i x).
Proof. intros H. rewrite !write_at_ok by (rewrite ?firstn_length; lia). rewrite <- set_cut. apply alike_ok. rewrite set_nth_length. lia. Qed.
Lemma same_index {C} (g : C -> C) (R : C -> Prop) (l : list K) i k k' : (i < n <= length l)%nat -> (forall x, alike g R (k x) (k' x)) -> alike g R (bind (index l i) k) (bind (index (firstn n l) i) k').
Proof. intros H Hk. rewrite (index_cut l i H), (index_nth l i f0) by lia. cbn [bind]. apply Hk. Qed.
Lemma swap_cut (l : list K) i j : (i < n)%nat -> (j < n <= length l)%nat -> alike (firstn n) (fun l => (n <= length l)%nat) (swap_at l i j) (swap_at (firstn n l) i j).
Proof.
  intros Hi Hj. unfold swap_at. apply same_index; [lia|]. intros x. apply same_index; [lia|]. intros y.
  eapply alike_bind; [apply write_cut; lia|]. cbn beta. intros l1 L1. apply write_cut. lia.
Qed.
Lemma mapM_cut g g' (m : list (list K)) : long m -> (forall l, (n <= length l)%nat -> alike (firstn n) (fun l => (n <= length l)%nat) (g l) (g' (firstn n l))) ->
  alike cut long (mapM g m) (mapM g' (cut m)).
Proof.
  intros Hm Hg. induction m as [|l m IH]; [apply (alike_ok cut long []); intros l []|]. cbn [mapM cut map].
  eapply alike_bind; [apply Hg, Hm; left; reflexivity|]. cbn beta. intros l1 L1. eapply alike_bind; [apply IH; intros z Hz; apply Hm; right; exact Hz|].
  intros m1 M1. apply (alike_ok cut long (l1 :: m1)). intros z [<-|Hz]; [exact L1|exact (M1 z Hz)].
Qed.
Lemma update_cut k g g' (m : list (list K)) : long m -> (forall l, (n <= length l)%nat -> alike (firstn n) (fun l => (n <= length l)%nat) (g l) (g' (firstn n l))) ->
  alike cut long (update_from k g m) (update_from k g' (cut m)).
Proof.
  intros Hm Hg. unfold update_from, cut at 2 3. rewrite skipn_map, firstn_map. assert (Hs : long (skipn k m)) by (intros l Hl; apply Hm; rewrite <- (firstn_skipn k m); apply in_or_app; right; exact Hl).
  eapply alike_bind; [apply (mapM_cut g g' (skipn k m) Hs Hg)|]. intros t Ht. unfold cut. rewrite <- map_app. apply (alike_ok cut long (firstn k m ++ t)).
  intros l Hl. apply in_app_or in Hl as [Hl|Hl]; [apply Hm; rewrite <- (firstn_skipn k m); apply in_or_app; left; exact Hl|exact (Ht l Hl)].
Qed.
Lemma entry_cut (m : list (list K)) c r : long m -> (r < n)%nat -> entry (cut m) c r = entry m c r.
Proof.
  intros Hm Hr. unfold entry, index at 1 3, cut. destruct (nth_error m c) as [l|] eqn:E.
  - rewrite (map_nth_error _ _ _ E). cbn [bind]. apply index_cut. split; [exact Hr|]. apply Hm. eapply nth_error_In. exact E.
  - apply nth_error_None in E. rewrite (proj2 (nth_error_None _ c)); [reflexivity|]. rewrite map_length. exact E.
Qed.
Lemma find_cut (m : list (list K)) c rs : long m -> (forall r, In r rs -> (r < n)%nat) -> find_pivot (cut m) c rs = find_pivot m c rs.
Proof.
  intros Hm. induction rs as [|r rs IH]; intros Hr; [reflexivity|]. cbn [find_pivot]. rewrite (entry_cut m c r Hm (Hr r (or_introl eq_refl))).
  destruct (entry m c r) as [x| |]; [|reflexivity|reflexivity]. cbn [bind]. destruct (feqb x f0); [|reflexivity]. apply IH. intros z Hz. apply Hr. right. exact Hz.
Qed.
Lemma divide_cut (m : list (list K)) c p : long m -> (p < n)%nat -> alike cut long (divide_row m c p) (divide_row (cut m) c p).
Proof.
  intros Hm Hp. unfold divide_row. rewrite (entry_cut m c p Hm Hp). destruct (entry m c p) as [v| |]; [|reflexivity|reflexivity]. cbn [bind].
  destruct (feqb v f1); [apply alike_ok; exact Hm|]. destruct (nth_error m c) as [l|] eqn:E.
  2:{ assert (E1 : index m c = Panic IndexOutOfBounds) by (unfold index; rewrite E; reflexivity).
      assert (E2 : index (cut m) c = Panic IndexOutOfBounds) by (unfold index, cut; rewrite (proj2 (nth_error_None _ c)); [reflexivity|]; rewrite map_length; apply nth_error_None; exact E).
      rewrite E1, E2. reflexivity. }
  assert (E1 : index m c = Ok l) by (unfold index; rewrite E; reflexivity).
  assert (E2 : index (cut m) c = Ok (firstn n l)) by (unfold index, cut; rewrite (map_nth_error _ _ _ E); reflexivity).
  rewrite E1, E2. cbn [bind]. assert (Ll : (n <= length l)%nat) by (apply Hm; eapply nth_error_In; exact E).
  eapply alike_bind; [apply write_cut; lia|]. cbn beta. intros l1 L1. apply (alike_bind cut cut long long).
  - assert (Hc : (c < length m)%nat) by (apply nth_error_Some; rewrite E; discriminate). rewrite !write_at_ok by (unfold cut; rewrite ?map_length; exact Hc).
    replace (set_nth (cut m) c (firstn n l1)) with (cut (set_nth m c l1)).
    + apply alike_ok. intros z Hz. revert z Hz. clear -Hm L1. revert c. induction m as [|a m IH]; intros [|c] z Hz; cbn [set_nth] in Hz; [destruct Hz|destruct Hz| |].
      * destruct Hz as [<-|Hz]; [exact L1|apply Hm; right; exact Hz].
      * destruct Hz as [<-|Hz]; [apply Hm; left; reflexivity|]. apply (IH (fun z H => Hm z (or_intror H)) c z Hz).
    + clear. unfold cut. revert c. induction m as [|a m IH]; intros [|c]; try reflexivity. cbn [set_nth map]. rewrite IH. reflexivity.
  - intros m1 M1. apply update_cut; [exact M1|]. intros z Hz. apply same_index; [lia|]. intros x. destruct (sdiv x v); [|reflexivity|reflexivity]. cbn [bind]. apply write_cut. lia.
Qed.
Lemma eliminate_cut c p (m : list (list K)) r : long m -> (p < n)%nat -> (r < n)%nat -> alike cut long (eliminate_row c p m r) (eliminate_row c p (cut m) r).
Proof.
  intros Hm Hp Hr. unfold eliminate_row. rewrite (entry_cut m c r Hm Hr). destruct (entry m c r) as [v| |]; [|reflexivity|reflexivity]. cbn [bind].
  destruct (feqb v f0); [apply alike_ok; exact Hm|]. apply update_cut; [exact Hm|]. intros l Hl. apply same_index; [lia|]. intros x. apply same_index; [lia|]. intros y. apply write_cut. lia.
Qed.
Lemma eliminates_cut c p rs : (p < n)%nat -> (forall r, In r rs -> (r < n)%nat) -> forall (m : list (list K)), long m -> alike cut long (foldM (eliminate_row c p) rs m) (foldM (eliminate_row c p) rs (cut m)).
Proof.
  intros Hp. induction rs as [|r rs IH]; intros Hr m Hm; [apply alike_ok; exact Hm|]. cbn [foldM].
  eapply alike_bind; [apply eliminate_cut; [exact Hm|exact Hp|apply Hr; left; reflexivity]|]. intros m1 M1. apply IH; [intros z Hz; apply Hr; right; exact Hz|exact M1].
Qed.
Lemma loop_cut nc fuel : forall (m : list (list K)) p c lp, long m -> (p <= n)%nat ->
  alike (fun z => (cut (fst z), snd z)) (fun z => long (fst z)) (gauss_loop fuel nc n m p c lp) (gauss_loop fuel nc n (cut m) p c lp).
Proof.
  induction fuel as [|fuel IH]; intros m p c lp Hm Hp; cbn [gauss_loop].
  - destruct (Nat.eqb c nc || Nat.eqb p n); [|reflexivity]. split; [reflexivity|exact Hm].
  - destruct (Nat.eqb_spec c nc) as [|Hc]; [split; [reflexivity|exact Hm]|]. destruct (Nat.eqb_spec p n) as [|Hn]; [split; [reflexivity|exact Hm]|]. cbn [orb].
    rewrite (find_cut m c) by (try exact Hm; intros r Hr; apply in_seq in Hr; lia).
    destruct (find_pivot m c (seq p (n - p))) as [[row|]| |] eqn:Ef; [|apply IH; assumption|reflexivity|reflexivity]. cbn [bind].
    assert (Hrow : (row < n)%nat).
    { assert (Hi : In row (seq p (n - p))) by (clear -Ef; revert Ef; generalize (seq p (n - p)); intros rs; induction rs as [|r rs IH]; cbn [find_pivot]; [discriminate|];
        destruct (entry m c r) as [x| |]; cbn [bind]; [|discriminate|discriminate]; destruct (feqb x f0); [intros E; right; exact (IH E)|intros E; left; congruence]).
      apply in_seq in Hi. lia. }
    eapply alike_bind; [apply (mapM_cut (fun col => swap_at col p row) (fun col => swap_at col p row) m Hm); intros l Hl; apply swap_cut; lia|]. intros m1 M1.
    eapply alike_bind; [apply (divide_cut m1 c p M1); lia|]. intros m2 M2.
    eapply alike_bind; [apply (eliminates_cut c p (seq (p + 1) (n - (p + 1)))); [lia|intros r Hr; apply in_seq in Hr; lia|exact M2]|]. intros m3 M3.
    eapply alike_bind; [apply (eliminates_cut c p (seq 0 p)); [lia|intros r Hr; apply in_seq in Hr; lia|exact M3]|]. intros m4 M4. apply IH; [exact M4|lia].
Qed.
Lemma skip_cut nc (m : list (list K)) i : long m -> (i < n)%nat -> forall fuel cc sol, skip_zeros fuel nc (cut m) i cc sol = skip_zeros fuel nc m i cc sol.
Proof.
  intros Hm Hi. induction fuel as [|fuel IH]; intros cc sol; [reflexivity|]. cbn [skip_zeros]. rewrite (entry_cut m cc i Hm Hi).
  destruct (entry m cc i) as [e| |]; [|reflexivity|reflexivity]. cbn [bind]. destruct (feqb e f0); [|reflexivity]. destruct (Nat.eqb (cc + 1) nc); [reflexivity|apply IH].
Qed.
Lemma extract_cut nc (m : list (list K)) rs : long m -> (forall i, In i rs -> (i < n)%nat) -> forall cc sol, extract nc (cut m) rs cc sol = extract nc m rs cc sol.
Proof.
  intros Hm. induction rs as [|i rs IH]; intros Hr cc sol; [reflexivity|]. cbn [extract]. assert (Hi : (i < n)%nat) by (apply Hr; left; reflexivity).
  rewrite (skip_cut nc m i Hm Hi). destruct (skip_zeros (S nc) nc m i cc sol) as [[s1|[c1 s1]]| |]; try reflexivity. cbn [bind].
  rewrite (entry_cut m c1 i Hm Hi). destruct (entry m c1 i) as [e| |]; [|reflexivity|reflexivity]. cbn [bind]. destruct (feqb e f1); [|reflexivity].
  unfold cut at 1. rewrite <- map_rev. destruct (rev m) as [|l t] eqn:Er; [reflexivity|]. cbn [map bind].
  rewrite (index_cut l i). 2:{ split; [exact Hi|]. apply Hm. apply in_rev. rewrite Er. left. reflexivity. }
  destruct (index l i) as [x| |]; [|reflexivity|reflexivity]. cbn [bind]. destruct (Nat.eqb (c1 + 1) nc); [reflexivity|]. apply IH. intros z Hz. apply Hr. right. exact Hz.
Qed.
End Long.

(** ** C04 *)
(** If a row is shorter than the first one, the solver panics. *)
Theorem C04_short_row_panics (row0 : list K) rest : row0 <> [] -> (exists r, In r rest /\ (length r < length row0)%nat) ->
  span_coefs (row0 :: rest) = Panic IndexOutOfBounds.
Proof using KL.
  intros H0 (r & Hr & Lr). unfold span_coefs. destruct row0 as [|x0 row0]; [contradiction|]. remember (x0 :: row0) as row eqn:E. clear E H0. cbv zeta.
  rewrite loop_short; [reflexivity|reflexivity|lia| |lia]. apply In_nth_error in Hr as (j & Hj). exists (S j), r. split; [lia|]. split; [|exact Lr].
  cbn [app nth_error]. rewrite nth_error_app1; [exact Hj|]. apply nth_error_Some. rewrite Hj. discriminate.
Qed.
(** If rows are longer than the first one, what is beyond its length is ignored. *)
Theorem C04_long_rows_are_cut (row0 : list K) rest : (forall r, In r rest -> (length row0 <= length r)%nat) ->
  span_coefs (row0 :: rest) = span_coefs (row0 :: map (firstn (length row0)) rest).
Proof using Type.
  intros H. unfold span_coefs. destruct row0 as [|x0 row0]; [reflexivity|]. remember (x0 :: row0) as row eqn:E. clear E. cbv zeta.
  assert (Ec : (row :: map (firstn (length row)) rest) ++ [repeat f1 (length row)] = cut (length row) ((row :: rest) ++ [repeat f1 (length row)])).
  { unfold cut. cbn [app map]. rewrite map_app. cbn [map]. rewrite firstn_all. f_equal. f_equal. f_equal. rewrite firstn_all2; [reflexivity|]. rewrite repeat_length. lia. }
  rewrite Ec. set (m := (row :: rest) ++ [repeat f1 (length row)]).
  assert (Lm : length (cut (length row) m) = length m) by apply map_length. rewrite Lm.
  assert (Hm : long (length row) m).
  { intros l Hl. apply in_app_or in Hl as [[<-|Hl]|[<-|[]]]; [lia|exact (H l Hl)|rewrite repeat_length; lia]. }
  pose proof (loop_cut (length row) (length m) (length m) m 0 0 0 Hm (Nat.le_0_l _)) as A. unfold alike in A.
  destruct (gauss_loop (length m) (length m) (length row) m 0 0 0) as [[m1 lp]|e|p]; [|rewrite A; reflexivity|rewrite A; reflexivity].
  destruct A as [A M1]. rewrite A. cbn [bind fst snd] in *. destruct (Nat.eqb lp (length m - 1)); [reflexivity|].
  rewrite (extract_cut (length row)); [reflexivity|exact M1|]. intros i Hi. apply in_seq in Hi. lia.
Qed.
(** So the solver panics precisely if a row is shorter than the first one. *)
Theorem C04_panics_exactly (rows : list (list K)) p : span_coefs rows = Panic p <->
  p = IndexOutOfBounds /\ exists row0 rest r, rows = row0 :: rest /\ row0 <> [] /\ In r rest /\ (length r < length row0)%nat.
Proof using KL.
  split.
  - intros E. destruct rows as [|row0 rest]; [discriminate|]. destruct row0 as [|x0 row0]; [discriminate|]. remember (x0 :: row0) as row eqn:Er.
    destruct (Exists_dec (fun r => (length r < length row)%nat) rest) as [X|X]; [intros r; apply lt_dec| |].
    + apply Exists_exists in X as (r & Hr & Lr). rewrite C04_short_row_panics in E by (try (subst row; discriminate); exists r; split; assumption).
      split; [congruence|]. exists row, rest, r. split; [reflexivity|split; [subst row; discriminate|split; assumption]].
    + exfalso. rewrite C04_long_rows_are_cut in E.
      2:{ intros r Hr. destruct (le_lt_dec (length row) (length r)) as [|L]; [assumption|]. destruct X. apply Exists_exists. exists r. split; assumption. }
      destruct (C04_span_solver K KL (row :: map (firstn (length row)) rest) (length row)) as [(sol & E' & _)|[E' _]]; [discriminate|subst row; cbn; lia| |congruence|congruence].
      intros r [<-|Hr]; [reflexivity|]. apply in_map_iff in Hr as (z & <- & Hz). rewrite firstn_length.
      assert (length row <= length z)%nat by (destruct (le_lt_dec (length row) (length z)) as [|L]; [assumption|]; destruct X; apply Exists_exists; exists z; split; assumption). lia.
  - intros (-> & row0 & rest & r & -> & H0 & Hr & Lr). apply C04_short_row_panics; [exact H0|]. exists r. split; assumption.
Qed.
(** Whatever the rows are, the only error comes from an input without entries in its first row. *)
Theorem C04_errors_exactly (rows : list (list K)) : is_err (span_coefs rows) <-> rows = [] \/ exists rest, rows = [] :: rest.
Proof using KL.
  split; [|intros H; apply C04_empty_matrix_is_an_error; exact H]. intros [e E]. destruct rows as [|row rest]; [left; reflexivity|]. destruct row as [|x0 row0]; [right; exists rest; reflexivity|]. exfalso.
  remember (x0 :: row0) as row eqn:Er. assert (H0 : row <> []) by (subst row; discriminate).
  destruct (Exists_dec (fun r => (length r < length row)%nat) rest) as [X|X]; [intros r; apply lt_dec| |].
  - apply Exists_exists in X as (r & Hr & Lr). rewrite C04_short_row_panics in E by (try exact H0; exists r; split; assumption). discriminate.
  - assert (H : forall r, In r rest -> (length row <= length r)%nat).
    { intros r Hr. destruct (le_lt_dec (length row) (length r)) as [|L]; [assumption|]. destruct X. apply Exists_exists. exists r. split; assumption. }
    rewrite C04_long_rows_are_cut in E by exact H.
    destruct (C04_span_solver K KL (row :: map (firstn (length row)) rest) (length row)) as [(sol & E' & _)|[E' _]]; [discriminate|subst row; cbn; lia| |congruence|congruence].
    intros r [<-|Hr]; [reflexivity|]. apply in_map_iff in Hr as (z & <- & Hz). rewrite firstn_length. specialize (H z Hz). lia.
Qed.
End Solver.

(** ** Examples *)
Example C04_ragged_example :
  span_coefs (K := zp_ops m101) [[f101 1; f101 2]; [f101 0]] = Panic IndexOutOfBounds /\
  span_coefs (K := zp_ops m101) [[f101 1; f101 2]; [f101 0; f101 3; f101 5]] = span_coefs (K := zp_ops m101) [[f101 1; f101 2]; [f101 0; f101 3]].
Proof. split; vm_compute; reflexivity. Qed.

Print Assumptions C04_short_row_panics.
Print Assumptions C04_long_rows_are_cut.
Print Assumptions C04_panics_exactly.
Print Assumptions C04_errors_exactly.

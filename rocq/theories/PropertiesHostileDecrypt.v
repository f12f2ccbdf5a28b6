(** Decrypting with user keys and ciphertexts that were read from bytes: C105. *)
From Coq Require Import String NArith ZArith Bool Lia Strings.Byte List.
From Verif Require Import Prelude Field LinAlg Msp Spec MspProofs Gauss GaussProofs MspTheorems Bilinear Scheme SchemeSpec SchemeProofs SchemeTheorems
  Zp ExpModel PropertiesScheme Codec CodecProofs SchemeCodec SchemeCodecProofs PropertiesCodec
  Policy PolicySpec Engine EngineSpec PropertiesEngine CopiesSpec PropertiesCopies PropertiesHostileKeys Hybrid HybridSpec PropertiesHybrid.
Import ListNotations.
Local Open Scope N_scope.

(** The [i]-th attribute of the ciphertext is the [r]-th of the key. *)
Definition common (gam attrs : list N) (i r : nat) : Prop := exists a, nth_error gam i = Some a /\ nth_error attrs r = Some a.

(** When decryption stops the program. [gam] are the attributes of the ciphertext and [parts] is the
    number of group elements that belong to them; [attrs] are the attributes of the key, [kparts] the
    number of group elements that belong to them and [cols] the announced number of columns. Either a
    common attribute lacks its part, or no column is announced and the first common attribute is the
    first one of the key but not the only one. *)
Definition stops (gam : list N) (parts : nat) (attrs : list N) (kparts cols : nat) : Prop :=
  (exists i r, common gam attrs i r /\ ((kparts <= r)%nat \/ (parts <= i)%nat)) \/
  (cols = 0%nat /\ exists i j r, common gam attrs i 0 /\ common gam attrs j (S r) /\ forall j' r', common gam attrs j' r' -> (i <= j')%nat).

Lemma common_dec gam attrs i r : {common gam attrs i r} + {~ common gam attrs i r}.
Proof.
  unfold common. destruct (nth_error gam i) as [a|]; [|right; intros (? & ? & _); discriminate].
  destruct (nth_error attrs r) as [b|]; [|right; intros (? & _ & ?); discriminate].
  destruct (N.eq_dec a b) as [->|H]; [left; exists b; split; reflexivity|right; intros (c & H1 & H2); congruence].
Qed.
Lemma common_bound gam attrs i r : common gam attrs i r -> (i < length gam)%nat /\ (r < length attrs)%nat.
Proof. intros (a & H1 & H2). split; apply nth_error_Some; congruence. Qed.
Lemma bounded_dec (Q : nat -> Prop) n : (forall i, {Q i} + {~ Q i}) -> (forall i, Q i -> (i < n)%nat) -> {exists i, Q i} + {~ exists i, Q i}.
Proof.
  intros D Hb. assert (X : {exists i, In i (seq 0 n) /\ Q i} + {~ exists i, In i (seq 0 n) /\ Q i}).
  { induction (seq 0 n) as [|x l IH]; [right; intros (? & [] & _)|]. destruct (D x) as [H|H]; [left; exists x; split; [left; reflexivity|exact H]|].
    destruct IH as [Y|Y]; [left; destruct Y as (i & Hi & HQ); exists i; split; [right; exact Hi|exact HQ]|].
    right. intros (i & [->|Hi] & HQ); [contradiction|]. apply Y. exists i. split; assumption. }
  destruct X as [X|X]; [left; destruct X as (i & _ & H); exists i; exact H|right]. intros (i & H). apply X. exists i. split; [apply in_seq; specialize (Hb i H); lia|exact H].
Qed.
Lemma stops_dec gam parts attrs kparts cols : {stops gam parts attrs kparts cols} + {~ stops gam parts attrs kparts cols}.
Proof.
  assert (D1 : {exists i, exists r, common gam attrs i r /\ ((kparts <= r)%nat \/ (parts <= i)%nat)} + {~ exists i, exists r, common gam attrs i r /\ ((kparts <= r)%nat \/ (parts <= i)%nat)}).
  { apply (bounded_dec _ (length gam)); [intros i|intros i (r & H & _); exact (proj1 (common_bound _ _ _ _ H))].
    apply (bounded_dec _ (length attrs)); [intros r|intros r (H & _); exact (proj2 (common_bound _ _ _ _ H))].
    destruct (common_dec gam attrs i r) as [H|H]; [|right; intros (? & _); contradiction].
    destruct (le_lt_dec kparts r); [left; auto|]. destruct (le_lt_dec parts i); [left; auto|right; intros (_ & ?); lia]. }
  destruct D1 as [D1|D1]; [left; left; exact D1|].
  destruct (Nat.eq_dec cols 0) as [E|E]; [|right; intros [H|[H _]]; contradiction].
  assert (D2 : {exists j, exists r, common gam attrs j (S r)} + {~ exists j, exists r, common gam attrs j (S r)}).
  { apply (bounded_dec _ (length gam)); [intros j|intros j (r & H); exact (proj1 (common_bound _ _ _ _ H))].
    apply (bounded_dec _ (length attrs)); [intros r; apply common_dec|]. intros r H. apply common_bound in H. lia. }
  destruct D2 as [D2|D2]; [|right; intros [H|(_ & i & j & r & _ & H & _)]; [contradiction|apply D2; exists j, r; exact H]].
  assert (D3 : {exists i, common gam attrs i 0 /\ ~ exists j', (j' < i)%nat /\ exists r', common gam attrs j' r'} + {~ exists i, common gam attrs i 0 /\ ~ exists j', (j' < i)%nat /\ exists r', common gam attrs j' r'}).
  { apply (bounded_dec _ (length gam)); [intros i|intros i (H & _); exact (proj1 (common_bound _ _ _ _ H))].
    destruct (common_dec gam attrs i 0) as [H|H]; [|right; intros (? & _); contradiction].
    assert (D4 : {exists j', (j' < i)%nat /\ exists r', common gam attrs j' r'} + {~ exists j', (j' < i)%nat /\ exists r', common gam attrs j' r'}).
    { apply (bounded_dec _ i); [intros j'|intros j' (L & _); exact L]. destruct (le_lt_dec i j'); [right; intros (? & _); lia|].
      assert (D5 : {exists r', common gam attrs j' r'} + {~ exists r', common gam attrs j' r'})
        by (apply (bounded_dec _ (length attrs)); [intros r'; apply common_dec|intros r' Hr; exact (proj2 (common_bound _ _ _ _ Hr))]).
      destruct D5 as [D5|D5]; [left; split; assumption|right; intros (_ & ?); contradiction]. }
    destruct D4 as [D4|D4]; [right; intros (_ & ?); contradiction|left; split; assumption]. }
  destruct D3 as [D3|D3].
  - left. right. split; [exact E|]. destruct D3 as (i & H0 & Hm), D2 as (j & r & Hj). exists i, j, r. split; [exact H0|]. split; [exact Hj|].
    intros j' r' H. destruct (le_lt_dec i j') as [|L]; [assumption|]. exfalso. apply Hm. exists j'. split; [exact L|exists r'; exact H].
  - right. intros [H|(_ & i & j & r & H0 & _ & Hm)]; [contradiction|]. apply D3. exists i. split; [exact H0|]. intros (j' & L & r' & H). specialize (Hm j' r' H). lia.
Qed.

Section HostileDecrypt.
Variable B : BilinearMap.
Variable BL : BilinearLaws B.
Notation K := (bm_K B).

(** ** The solver on rows of length one, some of which are empty *)
Lemma mapM_swap_stops (m : list (list K)) : (forall c, In c m -> (length c <= 1)%nat) -> In [] m ->
  mapM (fun col => swap_at col 0 0) m = Panic IndexOutOfBounds.
Proof using Type.
  intros Hw Hin. apply (mapM_stops (fun col => swap_at col 0 0)).
  - intros c Hc. apply Hw in Hc. destruct c as [|x [|? ?]]; [right; reflexivity|left; eexists; reflexivity|cbn in Hc; lia].
  - exists []. split; [exact Hin|reflexivity].
Qed.

Lemma loop_stops (m : list (list K)) fuel : forall c lp, (forall c, In c m -> (length c <= 1)%nat) ->
  (exists j, (c <= j)%nat /\ nth_error m j = Some []) -> (length m - c <= fuel)%nat ->
  gauss_loop fuel (length m) 1 m 0 c lp = Panic IndexOutOfBounds.
Proof using Type.
  induction fuel as [|fuel IH]; intros c lp Hw (j & Hj & Ej) Hf.
  - assert (j < length m)%nat by (apply nth_error_Some; rewrite Ej; discriminate). lia.
  - assert (Lj : (j < length m)%nat) by (apply nth_error_Some; rewrite Ej; discriminate).
    cbn [gauss_loop]. destruct (Nat.eqb_spec c (length m)) as [|_]; [lia|]. cbn [orb Nat.eqb].
    cbn [Nat.sub seq find_pivot]. unfold entry.
    destruct (nth_error m c) as [col|] eqn:Ec; [|apply nth_error_None in Ec; lia].
    assert (Ei : index m c = Ok col) by (unfold index; rewrite Ec; reflexivity). rewrite Ei. cbn [bind].
    assert (Lc : (length col <= 1)%nat) by (apply Hw; eapply nth_error_In; exact Ec).
    destruct col as [|x [|? ?]]; [reflexivity| |cbn in Lc; lia]. change (index [x] 0) with (Ok x). cbn [bind].
    destruct (feqb x f0) eqn:Ex; cbn [bind].
    + apply IH; [exact Hw| |lia]. exists j. split; [|exact Ej]. destruct (Nat.eq_dec j c) as [->|]; [congruence|lia].
    + rewrite mapM_swap_stops; [reflexivity|exact Hw|]. eapply nth_error_In; exact Ej.
Qed.

Lemma solver_stops (x : K) rows : (forall c, In c rows -> (length c <= 1)%nat) -> In [] rows ->
  span_coefs ([x] :: rows) = Panic IndexOutOfBounds.
Proof using Type.
  intros Hw Hin. unfold span_coefs. cbv zeta. change (length [x]) with 1%nat. rewrite loop_stops; [reflexivity| | |lia].
  - intros c Hc. apply in_app_iff in Hc as [[<-|Hc]|[<-|[]]]; [cbn; lia|apply Hw; exact Hc|cbn; lia].
  - apply In_nth_error in Hin as (j & Hj). exists (S j). split; [lia|]. cbn [app nth_error]. rewrite nth_error_app1; [exact Hj|].
    apply nth_error_Some. rewrite Hj. discriminate.
Qed.

(** ** The rows that are selected *)
Definition found (attrs : list N) (n : nat) (a : N) : list nat := match assoc_get (combine attrs (seq 0 n)) a with Some r => [r] | None => [] end.

Lemma found_iff attrs a r : NoDup attrs -> (In r (found attrs (length attrs) a) <-> nth_error attrs r = Some a).
Proof using Type.
  clear B BL. intros Hnd. unfold found. split.
  - destruct (assoc_get _ a) as [r'|] eqn:E; [|intros []]. intros [<-|[]]. apply assoc_get_some_in in E.
    clear Hnd. revert E. enough (G : forall s, In (a, r') (combine attrs (seq s (length attrs))) -> (s <= r')%nat /\ nth_error attrs (r' - s) = Some a)
      by (intros E; apply G in E as [_ E]; rewrite Nat.sub_0_r in E; exact E).
    induction attrs as [|b t IH]; intros s; [intros []|intros [E|E]].
    + injection E as <- <-. split; [lia|]. rewrite Nat.sub_diag. reflexivity.
    + apply IH in E as [L E]. split; [lia|]. replace (r' - s)%nat with (S (r' - S s)) by lia. exact E.
  - intros E. rewrite (assoc_get_combine_nodup attrs 0 r a Hnd E). left. reflexivity.
Qed.

Lemma found_cases attrs a : NoDup attrs -> (found attrs (length attrs) a = [] /\ ~ In a attrs) \/
  exists r, found attrs (length attrs) a = [r] /\ nth_error attrs r = Some a.
Proof using Type.
  clear B BL. intros Hnd. destruct (found attrs (length attrs) a) as [|r t] eqn:E.
  - left. split; [reflexivity|]. intros Hin. apply In_nth_error in Hin as (r & Hr). apply (found_iff attrs a r Hnd) in Hr. rewrite E in Hr. destruct Hr.
  - right. exists r. assert (Hr : In r (found attrs (length attrs) a)) by (rewrite E; left; reflexivity). apply (found_iff attrs a r Hnd) in Hr.
    split; [|exact Hr]. unfold found in E. destruct (assoc_get _ a); [congruence|discriminate].
Qed.

Lemma first_found attrs gam r0 t : NoDup attrs -> flat_map (found attrs (length attrs)) gam = r0 :: t ->
  exists i, common gam attrs i r0 /\ forall j r, common gam attrs j r -> (i <= j)%nat.
Proof using Type.
  clear B BL. intros Hnd. induction gam as [|a gam IH]; [discriminate|]. cbn [flat_map].
  destruct (found_cases attrs a Hnd) as [[E Hn]|(r & E & Er)]; rewrite E; cbn [app]; intros H.
  - destruct (IH H) as (i & (b & Hb & Hr) & Hmin). exists (S i). split; [exists b; split; [exact Hb|exact Hr]|].
    intros [|j] r (c & Hc & Hcr); cbn [nth_error] in Hc.
    + injection Hc as <-. exfalso. apply Hn. eapply nth_error_In. exact Hcr.
    + apply le_n_S. apply (Hmin j r). exists c. split; assumption.
  - injection H as <- _. exists 0%nat. split; [exists a; split; [reflexivity|exact Er]|]. intros; lia.
Qed.

Lemma in_found attrs gam r : NoDup attrs -> (In r (flat_map (found attrs (length attrs)) gam) <-> exists i, common gam attrs i r).
Proof using Type.
  clear B BL. intros Hnd. rewrite in_flat_map. split.
  - intros (a & Ha & Hr). apply (found_iff attrs a r Hnd) in Hr. apply In_nth_error in Ha as (i & Hi). exists i, a. split; assumption.
  - intros (i & a & Hi & Hr). exists a. split; [eapply nth_error_In; exact Hi|]. apply (found_iff attrs a r Hnd). exact Hr.
Qed.

Lemma nth_error_unique (attrs : list N) r r' a : NoDup attrs -> nth_error attrs r = Some a -> nth_error attrs r' = Some a -> r = r'.
Proof using Type.
  clear B BL. intros Hnd H H'. apply (proj1 (NoDup_nth_error attrs) Hnd); [apply nth_error_Some; rewrite H; discriminate|congruence].
Qed.

(** The loop over the attributes, from the [k]-th on. *)
Definition pick (uk : decryption_key B) (ei : list (G2 B)) (p : nat * N) : outcome (list (list K * G1 B * G2 B)) :=
  let '(i, attr) := p in
  match get_row_from_attr (dk_msp uk) attr with
  | Some row =>
      let* r := get_row (dk_msp uk) row in
      let* d := index (d_i uk) row in
      let* e := index ei i in
      Ok [(r, d, e)]
  | None => Ok []
  end.

Section Shape.
Variable uk : decryption_key B.
Let m := dk_msp uk.
Hypothesis D : decoded_shape (fun _ => True) m.
Hypothesis Hd : length (d_i uk) = length (raw_d uk).

Lemma lookup a r : get_row_from_attr m a = Some r <-> nth_error (row_to_attr m) r = Some a.
Proof using D.
  unfold get_row_from_attr. rewrite (ds_index _ _ D), <- (ds_labels _ _ D). rewrite <- (found_iff _ a r (ds_distinct _ _ D)). unfold found.
  destruct (assoc_get _ a) as [r'|]; split; intros H; [left; congruence|destruct H as [H|[]]; congruence|discriminate|destruct H].
Qed.

Lemma the_row r a : nth_error (row_to_attr m) r = Some a ->
  exists row, get_row m r = Ok row /\ length row = match r with O => Nat.max 1 (nb_col m) | S _ => nb_col m end.
Proof using D.
  clear Hd. intros Hr. assert (Lr : (r < nb_row m)%nat) by (rewrite <- (ds_labels _ _ D); apply nth_error_Some; rewrite Hr; discriminate).
  destruct (ds_matrix _ _ D) as (r0 & rows & Em & L0 & Ln & Hw). unfold get_row. rewrite Em. destruct r as [|r]; [exists r0; split; [reflexivity|exact L0]|].
  unfold index. cbn [nth_error]. destruct (nth_error rows r) as [row|] eqn:E; [|apply nth_error_None in E; lia].
  exists row. split; [reflexivity|]. apply Hw. eapply nth_error_In. exact E.
Qed.

Lemma pick_cases ei i a : (~ In a (row_to_attr m) /\ pick uk ei (i, a) = Ok []) \/
  exists r, nth_error (row_to_attr m) r = Some a /\
    ((((length (raw_d uk) <= r)%nat \/ (length ei <= i)%nat) /\ pick uk ei (i, a) = Panic IndexOutOfBounds) \/
     ((r < length (raw_d uk))%nat /\ (i < length ei)%nat /\ exists row d e, get_row m r = Ok row /\ pick uk ei (i, a) = Ok [(row, d, e)])).
Proof using D Hd.
  unfold pick. fold m. destruct (get_row_from_attr m a) as [r|] eqn:E.
  - right. apply lookup in E. exists r. split; [exact E|]. destruct (the_row r a E) as (row & Er & _). rewrite Er. cbn [bind].
    unfold index. destruct (nth_error (d_i uk) r) as [d|] eqn:Ed; cbn [bind].
    + assert (Lr : (r < length (raw_d uk))%nat) by (rewrite <- Hd; apply nth_error_Some; rewrite Ed; discriminate).
      destruct (nth_error ei i) as [e|] eqn:Ee; cbn [bind].
      * right. split; [exact Lr|]. split; [apply nth_error_Some; rewrite Ee; discriminate|]. exists row, d, e. split; [reflexivity|reflexivity].
      * left. split; [right; apply nth_error_None; exact Ee|reflexivity].
    + left. apply nth_error_None in Ed. split; [left; lia|reflexivity].
  - left. split; [|reflexivity]. intros Hin. apply In_nth_error in Hin as (r & Hr). apply lookup in Hr. congruence.
Qed.

Lemma in_enumerate (gam : list N) i a : In (i, a) (enumerate gam) <-> nth_error gam i = Some a.
Proof using Type.
  clear. unfold enumerate. split.
  - enough (G : forall s, In (i, a) (combine (seq s (length gam)) gam) -> (s <= i)%nat /\ nth_error gam (i - s) = Some a)
      by (intros E; apply G in E as [_ E]; rewrite Nat.sub_0_r in E; exact E).
    induction gam as [|b t IH]; intros s; [intros []|intros [E|E]].
    + injection E as <- <-. split; [lia|]. rewrite Nat.sub_diag. reflexivity.
    + apply IH in E as [L E]. split; [lia|]. replace (i - s)%nat with (S (i - S s)) by lia. exact E.
  - intros E. assert (L : (i < length gam)%nat) by (apply nth_error_Some; rewrite E; discriminate).
    apply (nth_in_combine _ _ i); [|exact E]. rewrite (nth_error_nth' _ 0%nat) by (rewrite seq_length; exact L). rewrite seq_nth by exact L. reflexivity.
Qed.

Definition missing (gam : list N) (parts : nat) : Prop :=
  exists i r, common gam (row_to_attr m) i r /\ ((length (raw_d uk) <= r)%nat \/ (parts <= i)%nat).

Lemma select_stops ct : missing (gamma ct) (length (e_i ct)) -> select_rows ct uk = Panic IndexOutOfBounds.
Proof using D Hd.
  intros (i & r & (a & Hi & Hr) & Hbad). unfold select_rows. change (fun p : nat * N => _) with (pick uk (e_i ct)).
  rewrite (mapM_stops _ IndexOutOfBounds); [reflexivity| |].
  - intros [j b] _. destruct (pick_cases (e_i ct) j b) as [[_ H]|(r' & _ & [[_ H]|(_ & _ & row & d & e & _ & H)])]; rewrite H; [left; eexists; reflexivity|right; reflexivity|left; eexists; reflexivity].
  - exists (i, a). split; [apply in_enumerate; exact Hi|]. destruct (pick_cases (e_i ct) i a) as [[H _]|(r' & Hr' & [[_ H]|(L1 & L2 & _)])].
    + exfalso. apply H. eapply nth_error_In. exact Hr.
    + exact H.
    + rewrite (nth_error_unique _ r r' a (ds_distinct _ _ D) Hr Hr') in Hbad. lia.
Qed.

Lemma select_goes ct : ~ missing (gamma ct) (length (e_i ct)) ->
  exists sel, select_rows ct uk = Ok sel /\
    Forall2 (fun r x => get_row m r = Ok (fst (fst x))) (flat_map (found (row_to_attr m) (length (row_to_attr m))) (gamma ct)) sel.
Proof using D Hd.
  intros Hm. unfold select_rows. change (fun p : nat * N => _) with (pick uk (e_i ct)).
  assert (G : forall l, (forall i a, In (i, a) l -> nth_error (gamma ct) i = Some a) ->
    exists ll, mapM (pick uk (e_i ct)) l = Ok ll /\
      Forall2 (fun r x => get_row m r = Ok (fst (fst x))) (flat_map (found (row_to_attr m) (length (row_to_attr m))) (map snd l)) (concat ll)).
  { induction l as [|[i a] l IH]; intros Hl; [exists []; split; [reflexivity|constructor]|]. destruct IH as (ll & E & F2); [intros; apply Hl; right; assumption|].
    cbn [mapM map flat_map snd]. pose proof (Hl i a (or_introl eq_refl)) as Hi.
    destruct (pick_cases (e_i ct) i a) as [[Hn H]|(r & Hr & [[Hbad H]|(_ & _ & row & d & e & Er & H)])].
    - rewrite H, E. cbn [bind]. exists ([] :: ll). split; [reflexivity|]. destruct (found_cases _ a (ds_distinct _ _ D)) as [[-> _]|(r & _ & Hr)]; [exact F2|].
      exfalso. apply Hn. eapply nth_error_In. exact Hr.
    - exfalso. apply Hm. exists i, r. split; [exists a; split; assumption|exact Hbad].
    - rewrite H, E. cbn [bind]. exists ([(row, d, e)] :: ll). split; [reflexivity|]. destruct (found_cases _ a (ds_distinct _ _ D)) as [[_ Hn]|(r' & -> & Hr')].
      + exfalso. apply Hn. eapply nth_error_In. exact Hr.
      + rewrite (nth_error_unique _ r' r a (ds_distinct _ _ D) Hr' Hr). cbn [app concat]. constructor; [exact Er|exact F2]. }
  destruct (G (enumerate (gamma ct))) as (ll & E & F2); [intros i a Hin; apply in_enumerate; exact Hin|]. rewrite E. cbn [bind]. exists (concat ll). split; [reflexivity|].
  replace (gamma ct) with (map snd (enumerate (gamma ct))); [exact F2|]. unfold enumerate. rewrite map_snd_combine by apply seq_length. reflexivity.
Qed.

Lemma solved_no_panic (ct : ciphertext B) (sel : list (list K * G1 B * G2 B)) w : sel <> [] -> (1 <= w)%nat ->
  (forall x, In x sel -> length (fst (fst x)) = w) ->
  no_panic (let* a := span_coefs (map (fun x => fst (fst x)) sel) in
    match a with
    | None => Ok None
    | Some a =>
        let* d := keep_nonzero a (map (fun x => snd (fst x)) sel) in
        let* e := keep_nonzero a (map snd sel) in
        let a' := filter (fun ai => negb (feqb ai f0)) a in
        Ok (Some (gt_div B (e_prime ct) (prod_gt_exp B d e a')))
    end).
Proof using BL.
  intros Hne Hw Hl. destruct (span_coefs_full K (bl_field B BL) (map (fun x => fst (fst x)) sel) w) as [(sol & E & Ls & _)|[E _]].
  - destruct sel; [contradiction|discriminate].
  - exact Hw.
  - intros r Hr. apply in_map_iff in Hr as (x & <- & Hx). apply Hl. exact Hx.
  - rewrite E. cbn [bind]. rewrite map_length in Ls.
    rewrite (keep_nonzero_eq B) by (rewrite map_length; exact Ls). cbn [bind].
    rewrite (keep_nonzero_eq B) by (rewrite map_length; exact Ls). cbn [bind]. apply no_panic_ok.
  - rewrite E. apply no_panic_ok.
Qed.

Lemma shape_decrypt ct :
  (stops (gamma ct) (length (e_i ct)) (row_to_attr m) (length (raw_d uk)) (nb_col m) -> decrypt ct uk = Panic IndexOutOfBounds) /\
  (~ stops (gamma ct) (length (e_i ct)) (row_to_attr m) (length (raw_d uk)) (nb_col m) -> no_panic (decrypt ct uk)).
Proof using BL D Hd.
  assert (Dec : missing (gamma ct) (length (e_i ct)) \/ ~ missing (gamma ct) (length (e_i ct))).
  { destruct (select_rows ct uk) as [s| |q] eqn:E.
    - right. intros H. apply select_stops in H. congruence.
    - right. intros H. apply select_stops in H. congruence.
    - left. (* the loop stopped at some attribute *)
      unfold select_rows in E. change (fun p : nat * N => _) with (pick uk (e_i ct)) in E. apply bind_panic in E as [E|(ll & _ & E)]; [|discriminate].
      assert (X : exists i a, In (i, a) (enumerate (gamma ct)) /\ pick uk (e_i ct) (i, a) = Panic q).
      { revert E. generalize (enumerate (gamma ct)). induction l as [|[i a] l IH]; [discriminate|]. cbn [mapM]. intros E.
        apply bind_panic in E as [E|(y & _ & E)]; [exists i, a; split; [left; reflexivity|exact E]|].
        apply bind_panic in E as [E|(ys & _ & E)]; [|discriminate]. destruct (IH E) as (i' & a' & Hin & H). exists i', a'. split; [right; exact Hin|exact H]. }
      destruct X as (i & a & Hin & Hp). apply in_enumerate in Hin. destruct (pick_cases (e_i ct) i a) as [[_ H]|(r & Hr & [[Hbad _]|(_ & _ & row & d & e & _ & H)])]; [congruence| |congruence].
      exists i, r. split; [exists a; split; assumption|exact Hbad]. }
  destruct Dec as [Hm|Hm].
  { split; [intros _; unfold decrypt; rewrite (select_stops ct Hm); reflexivity|]. intros Hn. exfalso. apply Hn. left. exact Hm. }
  destruct (select_goes ct Hm) as (sel & Es & F2). unfold decrypt. rewrite Es. cbn [bind].
  assert (Hr : forall r x, get_row m r = Ok (fst (fst x)) -> In r (flat_map (found (row_to_attr m) (length (row_to_attr m))) (gamma ct)) ->
     length (fst (fst (x : list K * G1 B * G2 B))) = match r with O => Nat.max 1 (nb_col m) | S _ => nb_col m end).
  { intros r x Hx Hin. apply (in_found _ _ r (ds_distinct _ _ D)) in Hin as (i & a & _ & Ha). destruct (the_row r a Ha) as (row & E & L). congruence. }
  set (rs := flat_map (found (row_to_attr m) (length (row_to_attr m))) (gamma ct)) in *.
  assert (Back : forall x, In x sel -> exists r, In r rs /\ get_row m r = Ok (fst (fst x))).
  { intros x Hx. clear - F2 Hx. induction F2 as [|r y rs' ys E _ IH]; [destruct Hx|]. destruct Hx as [<-|Hx]; [exists r; split; [left; reflexivity|exact E]|].
    destruct (IH Hx) as (r' & Hin & E'). exists r'. split; [right; exact Hin|exact E']. }
  assert (Forth : forall r, In r rs -> exists x, In x sel /\ get_row m r = Ok (fst (fst x))).
  { intros r Hx. clear - F2 Hx. induction F2 as [|r' y rs' ys E _ IH]; [destruct Hx|]. destruct Hx as [<-|Hx]; [exists y; split; [left; reflexivity|exact E]|].
    destruct (IH Hx) as (x & Hin & E'). exists x. split; [right; exact Hin|exact E']. }
  destruct (Nat.eq_dec (nb_col m) 0) as [E0|E0].
  2: { (* a proper program *)
    split; [intros [H|[H _]]; [contradiction|lia]|]. intros _. destruct sel as [|s0 sel]; [cbn [map]; rewrite (span_coefs_empty K); apply no_panic_err|].
    apply (solved_no_panic ct _ (nb_col m)); [discriminate|lia|]. intros x Hx. destruct (Back x Hx) as (r & Hin & Ex). rewrite (Hr r x Ex Hin). destruct r; lia. }
  (* no column *)
  destruct rs as [|r0 t] eqn:Ers.
  { inversion F2. subst sel. cbn [map]. rewrite (span_coefs_empty K). split; [|intros _; apply no_panic_err].
    intros [H|(_ & i & j & r & H & _)]; [contradiction|]. exfalso. assert (X : In 0%nat rs) by (apply (in_found _ _ 0 (ds_distinct _ _ D)); exists i; exact H). subst rs. rewrite Ers in X. destruct X. }
  destruct (first_found _ _ r0 t (ds_distinct _ _ D) Ers) as (i0 & H0 & Hmin).
  destruct sel as [|s0 sel]; [inversion F2|]. assert (F0 : get_row m r0 = Ok (fst (fst s0))) by (inversion F2; assumption).
  assert (L0 := Hr r0 s0 F0 (or_introl eq_refl)). rewrite E0 in L0.
  destruct r0 as [|r0].
  2: { (* the first row is empty *)
    cbn [map]. destruct (fst (fst s0)) as [|? ?]; [|discriminate L0]. cbn [span_coefs bind]. split; [|intros _; apply no_panic_err].
    intros [H|(_ & i & j & r & H1 & _ & H2)]; [contradiction|]. exfalso. assert (i = i0) by (pose proof (H2 i0 _ H0); pose proof (Hmin i _ H1); lia). subst i0.
    destruct H0 as (a & Ha & Ha'), H1 as (b & Hb & Hb'). assert (a = b) by congruence. subst b. pose proof (nth_error_unique _ _ _ a (ds_distinct _ _ D) Ha' Hb'). discriminate. }
  cbn [Nat.max] in L0. destruct (fst (fst s0)) as [|x0 [|? ?]] eqn:Ex0; try discriminate L0. clear L0.
  destruct (in_dec (fun a b : list K => list_eq_dec (K_eq_dec K (bl_field B BL)) a b) [] (map (fun x => fst (fst x)) sel)) as [Hin|Hin].
  - split.
    + intros _. cbn [map]. rewrite Ex0, solver_stops; [reflexivity| |exact Hin].
      intros c Hc. apply in_map_iff in Hc as (x & <- & Hx). destruct (Back x (or_intror Hx)) as (r & Hin' & Ex). rewrite (Hr r x Ex Hin'). destruct r; lia.
    + intros Hn. exfalso. apply Hn. right. split; [exact E0|]. apply in_map_iff in Hin as (x & Ex & Hx). destruct (Back x (or_intror Hx)) as (r & Hin' & Er).
      pose proof (Hr r x Er Hin') as L. rewrite Ex in L. destruct r as [|r]; [rewrite E0 in L; discriminate L|].
      rewrite <- Ers in Hin'. apply (in_found _ _ _ (ds_distinct _ _ D)) in Hin' as (j & Hj). exists i0, j, r. split; [exact H0|]. split; [exact Hj|exact Hmin].
  - split.
    + intros [H|(_ & i & j & r & _ & H1 & _)]; [contradiction|]. exfalso. assert (X : In (S r) rs) by (apply (in_found _ _ (S r) (ds_distinct _ _ D)); exists j; exact H1).
      subst rs. rewrite Ers in X. destruct (Forth _ X) as (x & Hx & Ex). pose proof (Hr _ _ Ex X) as L. rewrite E0 in L.
      destruct Hx as [<-|Hx]; [rewrite Ex0 in L; discriminate|]. apply Hin. apply in_map_iff. exists x. split; [destruct (fst (fst x)); [reflexivity|discriminate]|exact Hx].
    + intros _. apply (solved_no_panic ct _ 1); [discriminate|lia|]. intros x [<-|Hx]; [rewrite Ex0; reflexivity|].
      destruct (Back x (or_intror Hx)) as (r & Hin' & Ex). pose proof (Hr r x Ex Hin') as L. rewrite E0 in L. destruct r; [exact L|].
      exfalso. apply Hin. apply in_map_iff. exists x. split; [destruct (fst (fst x)); [reflexivity|discriminate]|exact Hx].
Qed.
End Shape.

Section Decoded.
Variable F : byte_forms B.
Variable fine : Gt B -> Prop.
Hypothesis HF : forms_ok F fine.

Lemma decoded_parts P kbytes uk : user_dec F P kbytes = Ok uk -> length (d_i uk) = length (raw_d uk).
Proof using Type.
  intros Hk. unfold user_dec in Hk. destruct kbytes as [|b0 bt]; [discriminate|].
  apply bind_ok in Hk as (d & Hd & Hk). apply bind_ok in Hk as (r & Hrr & Hk). apply bind_ok in Hk as (m & Hm & Hk).
  apply Ok_inj in Hk. subst uk. cbn [d_i raw_d]. apply map_length.
Qed.

(** Decryption of any ciphertext with any key that can be read. *)
Theorem C105_exact P kbytes uk (ct : ciphertext B) : 64 <= usize_bits P -> blen kbytes < 9223372036854775808 -> user_dec F P kbytes = Ok uk ->
  let bad := stops (gamma ct) (length (e_i ct)) (row_to_attr (dk_msp uk)) (length (raw_d uk)) (nb_col (dk_msp uk)) in
  (bad -> decrypt ct uk = Panic IndexOutOfBounds) /\ (~ bad -> no_panic (decrypt ct uk)).
Proof using BL HF.
  intros HP Hb Hk. exact (shape_decrypt uk (decoded_user_shape B F fine HF P kbytes uk HP Hb Hk) (decoded_parts P kbytes uk Hk) ct).
Qed.

(** Decryption of any header with any key, without overflow checks. *)
Theorem C105_headers shake S P kbytes uk b p : sym_total S -> 64 <= usize_bits P -> overflow_checks P = false ->
  blen kbytes < 9223372036854775808 -> blen b < 9223372036854775808 -> user_dec F P kbytes = Ok uk ->
  let size := from_be (firstn 4 b) in
  (decrypt_hybrid_header S F shake P uk b = Panic p <->
   p = IndexOutOfBounds /\ 4 <= blen b /\ 4 + size <= blen b /\
   exists ct, ct_dec F P (firstn (N.to_nat size) (skipn 4 b)) = Ok ct /\
     stops (gamma ct) (length (e_i ct)) (row_to_attr (dk_msp uk)) (length (raw_d uk)) (nb_col (dk_msp uk))).
Proof using BL HF.
  intros T HP Ho Hkb Hb Hk size. split.
  - intros E. destruct (C64_framing_never_panics B F shake S P uk b p T E) as [Hl D]. cbv zeta in *. fold size in Hl, D.
    set (sk := firstn (N.to_nat size) (skipn 4 b)) in *.
    assert (Lsk : blen sk < 9223372036854775808) by (unfold sk, blen in *; rewrite firstn_length, skipn_length; lia).
    unfold decrypt_symmetric_key in D. apply bind_panic in D as [D|(ct & Ec & D)].
    + exfalso. destruct (C22_decoding_never_panics B F fine HF P sk HP Ho Lsk) as (_ & _ & _ & _ & N). exact (N p D).
    + apply bind_panic in D as [D|(o & Eo & D)]; [|destruct o; discriminate D].
      destruct (C105_exact P kbytes uk ct HP Hkb Hk) as [X Y]. cbv zeta in X, Y. unfold eng_decrypt in D.
      (* the exact condition is decided by the outcome *)
      destruct (stops_dec (gamma ct) (length (e_i ct)) (row_to_attr (dk_msp uk)) (length (raw_d uk)) (nb_col (dk_msp uk))) as [H|H].
      * split; [rewrite (X H) in D; congruence|]. split; [lia|]. split; [exact Hl|]. exists ct. split; [exact Ec|exact H].
      * exfalso. exact (Y H p D).
  - intros (-> & H4 & Hl & ct & Ec & Hbad). destruct (C105_exact P kbytes uk ct HP Hkb Hk) as [X _]. specialize (X Hbad).
    unfold decrypt_hybrid_header. destruct (N.ltb_spec (blen b) 4) as [|_]; [lia|].
    unfold scan_u32, scan_next. destruct (N.ltb_spec (blen b) 4) as [|_]; [lia|]. cbn [bind]. change (N.to_nat 4) with 4%nat. fold size.
    destruct (N.ltb_spec (blen (skipn 4 b)) size) as [L|_]; [unfold blen in *; rewrite skipn_length in L; lia|]. cbn [bind].
    unfold decrypt_symmetric_key, eng_decrypt. rewrite Ec. cbn [bind]. rewrite X. reflexivity.
Qed.
End Decoded.
End HostileDecrypt.

(** ** Examples and witnesses *)
Local Ltac vmr x := vm_cast_no_check (eq_refl x).
(** A key with two attributes and two parts that announces no column. *)
Definition flat_key : decryption_key toy :=
  @mkDec toy (firstn 2 (raw_d ex_uk)) (firstn 2 (d_i ex_uk)) (mkMsp 2 0 [[f101 1]; []] (combine [1; 2] (seq 0 2)) [1; 2]).
Definition flat_bytes : list byte := bytes_of (user_enc toy_forms release64 flat_key).

(** The key without its last part and the flat key are both read from their bytes; the first stops on its
    fourth attribute only, the second on its two attributes in one order. *)
Example C105_example :
  user_dec toy_forms release64 flat_bytes = Ok flat_key /\ N.ltb (blen flat_bytes) 9223372036854775808 = true /\
  decrypt (ex_ct [1; 3]) cut_key = Panic IndexOutOfBounds /\ is_ok (decrypt (ex_ct [1; 2; 4]) cut_key) /\
  decrypt (ex_ct [1; 2]) flat_key = Panic IndexOutOfBounds /\ is_ok (decrypt (ex_ct [1; 5]) flat_key) /\ is_err (decrypt (ex_ct [2; 1]) flat_key).
Proof.
  split; [vmr (@Ok (decryption_key toy) flat_key)|]. split; [vm_compute; reflexivity|].
  split; [vmr (@Panic (option (Gt toy)) IndexOutOfBounds)|].
  split; [exists (run None (@decrypt toy (ex_ct [1; 2; 4]) cut_key)); vmr (@Ok (option (Gt toy)) (run None (@decrypt toy (ex_ct [1; 2; 4]) cut_key)))|].
  split; [vmr (@Panic (option (Gt toy)) IndexOutOfBounds)|].
  split; [exists (run None (@decrypt toy (ex_ct [1; 5]) flat_key)); vmr (@Ok (option (Gt toy)) (run None (@decrypt toy (ex_ct [1; 5]) flat_key)))|].
  exists (InternalOperation "empty input matrix"). vmr (@Err (option (Gt toy)) (InternalOperation "empty input matrix")).
Qed.

Theorem C105_refuted :
  (exists bytes uk bytes' ct, user_dec toy_forms release64 bytes = Ok uk /\ ct_dec toy_forms release64 bytes' = Ok ct /\
     length (gamma ct) = length (e_i ct) /\ decrypt ct uk = Panic IndexOutOfBounds) /\
  (exists bytes uk bytes' ct, user_dec toy_forms release64 bytes = Ok uk /\ ct_dec toy_forms release64 bytes' = Ok ct /\
     length (gamma ct) = length (e_i ct) /\ length (raw_d uk) = length (row_to_attr (dk_msp uk)) /\ decrypt ct uk = Panic IndexOutOfBounds).
Proof.
  destruct C105_example as (H1 & _ & H3 & _ & H5 & _). destruct C103_example as (H0 & _). split.
  - exists cut_bytes, cut_key, (bytes_of (ct_enc toy_forms (ex_ct [1; 3]))), (ex_ct [1; 3]). split; [exact H0|].
    split; [vmr (@Ok (ciphertext toy) (ex_ct [1; 3]))|]. split; [vm_compute; reflexivity|exact H3].
  - exists flat_bytes, flat_key, (bytes_of (ct_enc toy_forms (ex_ct [1; 2]))), (ex_ct [1; 2]). split; [exact H1|].
    split; [vmr (@Ok (ciphertext toy) (ex_ct [1; 2]))|]. split; [vm_compute; reflexivity|]. split; [reflexivity|exact H5].
Qed.

Print Assumptions C105_exact.
Print Assumptions C105_headers.
Print Assumptions C105_refuted.

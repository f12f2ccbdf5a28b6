(** Theorems about the key caches of the C interface: C50, C51, C69. *)
From Coq Require Import String NArith ZArith Bool Arith Lia Strings.Byte List.
From Verif Require Import Prelude Codec FfiCache CacheSpec Bilinear Scheme SchemeCodec Policy Engine Hybrid Ffi PropertiesFfi.
Import ListNotations.

(** ** Handles *)
Definition handle_of (k : nat) : Z := u32_to_i32 (N.of_nat k mod 4294967296).

Lemma handle_next k : add_i32 (handle_of k) = handle_of (S k).
Proof.
  unfold add_i32, handle_of, i32_to_u32. f_equal. rewrite Nat2N.inj_succ. set (n := N.of_nat k). unfold u32_to_i32.
  assert (A : (Z.of_N (n mod 4294967296) = Z.of_N n mod 4294967296)%Z) by (rewrite N2Z.inj_mod; reflexivity).
  assert (E : forall z, (z mod 4294967296 = (Z.of_N n + 1) mod 4294967296)%Z -> Z.to_N (z mod 4294967296) = (N.succ n mod 4294967296)%N).
  { intros z Hz. apply N2Z.inj. rewrite Z2N.id by (apply Z.mod_pos_bound; lia). rewrite Hz, N2Z.inj_mod, N2Z.inj_succ. reflexivity. }
  apply E. destruct (N.ltb_spec (n mod 4294967296) 2147483648).
  - rewrite A. rewrite Z.add_mod_idemp_l by lia. reflexivity.
  - rewrite A. replace (Z.of_N n mod 4294967296 - 4294967296 + 1)%Z with (Z.of_N n mod 4294967296 + 1 + (-1) * 4294967296)%Z by lia.
    rewrite Z.mod_add by lia. rewrite Z.add_mod_idemp_l by lia. reflexivity.
Qed.
Lemma handle_inj j k : (Z.of_nat j < 4294967296)%Z -> (Z.of_nat k < 4294967296)%Z -> handle_of j = handle_of k -> j = k.
Proof.
  intros Hj Hk. unfold handle_of. rewrite !N.mod_small by lia. unfold u32_to_i32.
  destruct (N.ltb_spec (N.of_nat j) 2147483648), (N.ltb_spec (N.of_nat k) 2147483648); lia.
Qed.

Section Cache.
Context {V : Type}.
Implicit Types (tr : list (event V)) (s : state V).

Lemma upd_same {A} (f : nat -> A) t x : upd f t x t = x.
Proof. unfold upd. rewrite Nat.eqb_refl. reflexivity. Qed.
Lemma upd_other {A} (f : nat -> A) t x t' : t' <> t -> upd f t x t' = f t'.
Proof. intros H. unfold upd. destruct (Nat.eqb_spec t' t); [contradiction|reflexivity]. Qed.
Lemma upd_cases {A} (f : nat -> A) t x t' : (t' = t /\ upd f t x t' = x) \/ (t' <> t /\ upd f t x t' = f t').
Proof. destruct (Nat.eq_dec t' t) as [->|N]; [left; rewrite upd_same|right; rewrite upd_other by exact N]; auto. Qed.

Lemma creations_app tr tr' : creations (tr ++ tr') = creations tr ++ creations tr'.
Proof. induction tr as [|[] tr IH]; cbn [creations app]; rewrite ?IH; reflexivity. Qed.
Lemma returned_app tr tr' : returned (tr ++ tr') = returned tr ++ returned tr'.
Proof. induction tr as [|[] tr IH]; cbn [returned app]; rewrite ?IH; reflexivity. Qed.
Lemma few_app tr tr' : few (tr ++ tr') -> few tr.
Proof. unfold few. rewrite creations_app, app_length. lia. Qed.
Lemma in_returned tr h : In h (returned tr) -> exists t v, In (RetCreate t v h) tr.
Proof.
  induction tr as [|e tr IH]; [contradiction|]. cbn [returned]. destruct e; intros H; try (destruct (IH H) as (t' & v' & Q); exists t', v'; right; exact Q).
  destruct H as [->|H]; [eexists; eexists; left; reflexivity|]. destruct (IH H) as (t' & v' & Q). exists t', v'. right. exact Q.
Qed.
Lemma returned_in tr t v h : In (RetCreate t v h) tr -> In h (returned tr).
Proof.
  induction tr as [|e tr IH]; [contradiction|]. intros [->|H]; cbn [returned]; [left; reflexivity|]. specialize (IH H). destruct e; try exact IH. right. exact IH.
Qed.

(** the handle and the value of a create call in progress *)
Definition pending (c : call V) : option (Z * V) :=
  match c with WantInsert h v | Inserting h v | InsertDone h v => Some (h, v) | _ => None end.
Definition removing (c : call V) : option Z :=
  match c with WantRemove h | Removing h | RemoveDone h => Some h | _ => None end.
(** [v] was given to the create call that got [h] *)
Definition owns tr (h : Z) (v : V) : Prop := exists k, nth_error (creations tr) k = Some v /\ h = handle_of k.

Record inv tr s : Prop := {
  i_next : next s = handle_of (length (creations tr));
  i_pend : forall t h v, pending (pc s t) = Some (h, v) -> owns tr h v;
  i_ret : forall t h v, In (RetCreate t v h) tr -> owns tr h v;
  i_map : forall h v, cached s h = Some v -> owns tr h v;
  i_use : forall t h v, pc s t = Using h (Some v) -> owns tr h v;
  i_used : forall t h v, In (RetUse t h (Some v)) tr -> owns tr h v;
  i_nodup : NoDup (returned tr);
  i_pp : forall t1 t2 h v1 v2, pending (pc s t1) = Some (h, v1) -> pending (pc s t2) = Some (h, v2) -> t1 = t2;
  i_pr : forall t h v, pending (pc s t) = Some (h, v) -> ~ In h (returned tr);
  i_destroy : forall t h, removing (pc s t) = Some h -> destroy_called tr h;
  i_live : forall t h v, In (RetCreate t v h) tr \/ pc s t = InsertDone h v -> ~ destroy_called tr h -> cached s h = Some v
}.

Lemma owns_app tr tr' h v : owns tr h v -> owns (tr ++ tr') h v.
Proof.
  intros (k & E & ->). exists k. split; [|reflexivity]. rewrite creations_app, nth_error_app1; [exact E|]. apply nth_error_Some. congruence.
Qed.
Lemma owns_fun tr h v v' : few tr -> owns tr h v -> owns tr h v' -> v = v'.
Proof.
  intros F (k & E & ->) (k' & E' & Q). assert (k = k'); [|congruence].
  assert (L : (k < length (creations tr))%nat) by (apply nth_error_Some; congruence).
  assert (L' : (k' < length (creations tr))%nat) by (apply nth_error_Some; congruence).
  unfold few in F. apply handle_inj; [lia|lia|exact Q].
Qed.
Lemma fresh tr v : few (tr ++ [v]) -> forall h u, owns tr h u -> length (creations [v]) = 1%nat -> h <> handle_of (length (creations tr)).
Proof.
  intros F h u (k & E & ->) L Q. assert (Lk : (k < length (creations tr))%nat) by (apply nth_error_Some; congruence).
  unfold few in F. rewrite creations_app, app_length, L in F. apply handle_inj in Q; lia.
Qed.
Lemma destroy_app tr tr' h : destroy_called tr h -> destroy_called (tr ++ tr') h.
Proof. intros [t H]. exists t. apply in_or_app. left. exact H. Qed.

Lemma inv_start : inv [] (@start V).
Proof. constructor; cbn; try (intros; discriminate); try (intros; contradiction); try reflexivity; try constructor. intros t h v [[]|Q]; discriminate. Qed.

(** a step that leaves the map alone and neither starts nor ends a create *)
Lemma inv_local tr s t ev s' c : inv tr s -> creations ev = [] -> returned ev = [] ->
  (forall t' h v, In (RetUse t' h (Some v)) ev -> owns tr h v) ->
  next s' = next s -> cached s' = cached s -> pc s' = upd (pc s) t c ->
  (pending c = None \/ pending c = pending (pc s t)) ->
  (forall h, removing c = Some h -> removing (pc s t) = Some h \/ In (CallDestroy t h) ev) ->
  (forall h v, c = Using h (Some v) -> owns tr h v) -> (forall h v, c <> InsertDone h v) -> inv (tr ++ ev) s'.
Proof.
  intros I Ec Er Eu En Em Ep Hp Hr Hu Hi.
  assert (OA : forall h v, owns tr h v -> owns (tr ++ ev) h v) by (intros; apply owns_app; assumption).
  assert (PC : forall t' x, pending (pc s' t') = Some x -> pending (pc s t') = Some x).
  { intros t' x Q. rewrite Ep in Q. destruct (upd_cases (pc s) t c t') as [[-> E]|[N E]]; rewrite E in Q; [|exact Q]. destruct Hp as [Z|Z]; congruence. }
  assert (NR : forall t' v h, In (RetCreate t' v h) (tr ++ ev) -> In (RetCreate t' v h) tr).
  { intros t' v h Q. apply in_app_or in Q as [Q|Q]; [exact Q|]. apply returned_in in Q. rewrite Er in Q. contradiction. }
  constructor.
  - rewrite En, creations_app, Ec, app_nil_r. apply (i_next _ _ I).
  - intros t' h v Q. apply OA, (i_pend _ _ I t'), PC, Q.
  - intros t' h v Q. apply OA, (i_ret _ _ I t'), NR, Q.
  - intros h v Q. rewrite Em in Q. apply OA, (i_map _ _ I _ _ Q).
  - intros t' h v Q. rewrite Ep in Q. destruct (upd_cases (pc s) t c t') as [[-> E]|[N E]]; rewrite E in Q; apply OA; [apply Hu, Q|apply (i_use _ _ I _ _ _ Q)].
  - intros t' h v Q. apply OA. apply in_app_or in Q as [Q|Q]; [apply (i_used _ _ I _ _ _ Q)|apply (Eu _ _ _ Q)].
  - rewrite returned_app, Er, app_nil_r. apply (i_nodup _ _ I).
  - intros t1 t2 h v1 v2 Q1 Q2. apply (i_pp _ _ I _ _ _ _ _ (PC _ _ Q1) (PC _ _ Q2)).
  - intros t' h v Q. rewrite returned_app, Er, app_nil_r. apply (i_pr _ _ I _ _ _ (PC _ _ Q)).
  - intros t' h Q. rewrite Ep in Q. destruct (upd_cases (pc s) t c t') as [[-> E]|[N E]]; rewrite E in Q.
    + apply Hr in Q as [Q|Q]; [apply destroy_app, (i_destroy _ _ I _ _ Q)|]. exists t. apply in_or_app. right. exact Q.
    + apply destroy_app, (i_destroy _ _ I _ _ Q).
  - intros t' h v Q N. rewrite Em. apply (i_live _ _ I t'); [|intros D; apply N, destroy_app, D]. destruct Q as [Q|Q]; [left; apply NR, Q|].
    rewrite Ep in Q. destruct (upd_cases (pc s) t c t') as [[-> E]|[N' E]]; rewrite E in Q; [destruct (Hi _ _ Q)|right; exact Q].
Qed.

Lemma inv_step tr s t ev s' : inv tr s -> few (tr ++ ev) -> step s t ev s' -> inv (tr ++ ev) s'.
Proof.
  intros I F H. pose proof (few_app _ _ F) as F0.
  assert (OA : forall h v, owns tr h v -> owns (tr ++ ev) h v) by (intros; apply owns_app; assumption).
  assert (DA : forall h, ~ destroy_called (tr ++ ev) h -> ~ destroy_called tr h) by (intros h N Q; apply N, destroy_app, Q).
  destruct H.
  - (* fetch *)
    constructor; cbn [next cached pc].
    + rewrite (i_next _ _ I), creations_app, app_length. cbn [creations length]. rewrite handle_next. f_equal. lia.
    + intros t' h v' Q. destruct (upd_cases (pc s) t (WantInsert (next s) v) t') as [[-> E]|[N E]]; rewrite E in Q; [|apply OA, (i_pend _ _ I _ _ _ Q)].
      cbn in Q. assert (h = next s) by congruence. assert (v' = v) by congruence. subst. exists (length (creations tr)). split; [|apply (i_next _ _ I)].
      rewrite creations_app, nth_error_app2, Nat.sub_diag by lia. reflexivity.
    + intros t' h v' Q. apply in_app_or in Q as [Q|[Q|[]]]; [apply OA, (i_ret _ _ I _ _ _ Q)|discriminate].
    + intros h v' Q. apply OA, (i_map _ _ I _ _ Q).
    + intros t' h v' Q. destruct (upd_cases (pc s) t (WantInsert (next s) v) t') as [[-> E]|[N E]]; rewrite E in Q; [discriminate|apply OA, (i_use _ _ I _ _ _ Q)].
    + intros t' h v' Q. apply in_app_or in Q as [Q|[Q|[]]]; [apply OA, (i_used _ _ I _ _ _ Q)|discriminate].
    + rewrite returned_app, app_nil_r. apply (i_nodup _ _ I).
    + intros t1 t2 h v1 v2 Q1 Q2. 
      assert (Fr : forall t' u, pending (pc s t') = Some (next s, u) -> False).
      { intros t' u Q. apply (i_pend _ _ I) in Q. apply (fresh tr _ F _ _ Q eq_refl). apply (i_next _ _ I). }
      destruct (upd_cases (pc s) t (WantInsert (next s) v) t1) as [[-> E1]|[N1 E1]];
        destruct (upd_cases (pc s) t (WantInsert (next s) v) t2) as [[-> E2]|[N2 E2]]; rewrite E1 in Q1; rewrite E2 in Q2; cbn in Q1, Q2.
      * reflexivity.
      * exfalso. assert (h = next s) by congruence. subst h. apply (Fr _ _ Q2).
      * exfalso. assert (h = next s) by congruence. subst h. apply (Fr _ _ Q1).
      * apply (i_pp _ _ I _ _ _ _ _ Q1 Q2).
    + intros t' h v' Q. rewrite returned_app, app_nil_r.
      destruct (upd_cases (pc s) t (WantInsert (next s) v) t') as [[-> E]|[N E]]; rewrite E in Q; [|apply (i_pr _ _ I _ _ _ Q)].
      cbn in Q. assert (h = next s) by congruence. subst h. intros R. apply in_returned in R as (t2 & v2 & R). apply (i_ret _ _ I) in R.
      apply (fresh tr _ F _ _ R eq_refl). apply (i_next _ _ I).
    + intros t' h Q. destruct (upd_cases (pc s) t (WantInsert (next s) v) t') as [[-> E]|[N E]]; rewrite E in Q; [discriminate|].
      apply destroy_app, (i_destroy _ _ I _ _ Q).
    + intros t' h v' Q N. apply (i_live _ _ I t'); [|apply DA, N]. destruct Q as [Q|Q].
      * apply in_app_or in Q as [Q|[Q|[]]]; [left; exact Q|discriminate].
      * destruct (upd_cases (pc s) t (WantInsert (next s) v) t') as [[-> E]|[N' E]]; rewrite E in Q; [discriminate|right; exact Q].
  - (* lock_insert *)
    apply (inv_local tr s t [] _ (Inserting h v)); cbn; auto; try (intros; discriminate); try contradiction. right. rewrite H. reflexivity.
  - (* insert *)
    rewrite app_nil_r in *.
    assert (PC : forall t' x, pending (upd (pc s) t (InsertDone h v) t') = Some x -> pending (pc s t') = Some x).
    { intros t' x Q. destruct (upd_cases (pc s) t (InsertDone h v) t') as [[-> E]|[N E]]; rewrite E in Q; [rewrite H|]; exact Q. }
    assert (Hp : pending (pc s t) = Some (h, v)) by (rewrite H; reflexivity).
    constructor; cbn [next cached pc].
    + apply (i_next _ _ I).
    + intros t' h' v' Q. apply (i_pend _ _ I t'), PC, Q.
    + apply (i_ret _ _ I).
    + intros h' v' Q. unfold set_map in Q. destruct (Z.eqb_spec h' h) as [->|N]; [|apply (i_map _ _ I _ _ Q)].
      assert (v' = v) by congruence. subst. apply (i_pend _ _ I _ _ _ Hp).
    + intros t' h' v' Q. destruct (upd_cases (pc s) t (InsertDone h v) t') as [[-> E]|[N E]]; rewrite E in Q; [discriminate|apply (i_use _ _ I _ _ _ Q)].
    + apply (i_used _ _ I).
    + apply (i_nodup _ _ I).
    + intros t1 t2 h' v1 v2 Q1 Q2. apply (i_pp _ _ I _ _ _ _ _ (PC _ _ Q1) (PC _ _ Q2)).
    + intros t' h' v' Q. apply (i_pr _ _ I _ _ _ (PC _ _ Q)).
    + intros t' h' Q. destruct (upd_cases (pc s) t (InsertDone h v) t') as [[-> E]|[N E]]; rewrite E in Q; [discriminate|apply (i_destroy _ _ I _ _ Q)].
    + intros t' h' v' Q N. unfold set_map. destruct (Z.eqb_spec h' h) as [->|Nh].
      * f_equal. destruct Q as [Q|Q].
        -- apply (owns_fun tr h); [assumption|apply (i_pend _ _ I _ _ _ Hp)|apply (i_ret _ _ I _ _ _ Q)].
        -- assert (Q' : pending (pc s t') = Some (h, v')) by (apply PC; rewrite Q; reflexivity).
           apply (owns_fun tr h); [assumption|apply (i_pend _ _ I _ _ _ Hp)|apply (i_pend _ _ I _ _ _ Q')].
      * apply (i_live _ _ I t'); [|exact N]. destruct Q as [Q|Q]; [left; exact Q|].
        destruct (upd_cases (pc s) t (InsertDone h v) t') as [[-> E]|[N' E]]; rewrite E in Q; [congruence|right; exact Q].
  - (* created *)
    assert (Hp : pending (pc s t) = Some (h, v)) by (rewrite H; reflexivity).
    assert (PC : forall t' x, pending (upd (pc s) t Idle t') = Some x -> t' <> t /\ pending (pc s t') = Some x).
    { intros t' x Q. destruct (upd_cases (pc s) t Idle t') as [[-> E]|[N E]]; rewrite E in Q; [discriminate|]. auto. }
    constructor; cbn [next cached pc].
    + rewrite creations_app, app_nil_r. apply (i_next _ _ I).
    + intros t' h' v' Q. apply PC in Q as [_ Q]. apply OA, (i_pend _ _ I _ _ _ Q).
    + intros t' h' v' Q. apply OA. apply in_app_or in Q as [Q|[Q|[]]]; [apply (i_ret _ _ I _ _ _ Q)|].
      assert (h' = h) by congruence. assert (v' = v) by congruence. subst. apply (i_pend _ _ I _ _ _ Hp).
    + intros h' v' Q. apply OA, (i_map _ _ I _ _ Q).
    + intros t' h' v' Q. destruct (upd_cases (pc s) t Idle t') as [[-> E]|[N E]]; rewrite E in Q; [discriminate|apply OA, (i_use _ _ I _ _ _ Q)].
    + intros t' h' v' Q. apply in_app_or in Q as [Q|[Q|[]]]; [apply OA, (i_used _ _ I _ _ _ Q)|discriminate].
    + rewrite returned_app. cbn [returned]. apply (Permutation.Permutation_NoDup (Permutation.Permutation_app_comm [h] (returned tr))).
      constructor; [apply (i_pr _ _ I _ _ _ Hp)|apply (i_nodup _ _ I)].
    + intros t1 t2 h' v1 v2 Q1 Q2. apply PC in Q1 as [_ Q1]. apply PC in Q2 as [_ Q2]. apply (i_pp _ _ I _ _ _ _ _ Q1 Q2).
    + intros t' h' v' Q. apply PC in Q as [N Q]. rewrite returned_app. cbn [returned]. intros R. apply in_app_or in R as [R|[R|[]]].
      * apply (i_pr _ _ I _ _ _ Q R).
      * subst h'. apply N, (i_pp _ _ I _ _ _ _ _ Q Hp).
    + intros t' h' Q. destruct (upd_cases (pc s) t Idle t') as [[-> E]|[N E]]; rewrite E in Q; [discriminate|apply destroy_app, (i_destroy _ _ I _ _ Q)].
    + intros t' h' v' Q N. apply DA in N. destruct Q as [Q|Q].
      * apply in_app_or in Q as [Q|[Q|[]]]; [apply (i_live _ _ I t' _ _ (or_introl Q) N)|].
        assert (h' = h) by congruence. assert (v' = v) by congruence. subst. apply (i_live _ _ I t); [right; exact H|exact N].
      * destruct (upd_cases (pc s) t Idle t') as [[-> E]|[N' E]]; rewrite E in Q; [discriminate|]. apply (i_live _ _ I t'); [right; exact Q|exact N].
  - (* destroy *)
    apply (inv_local tr s t [CallDestroy t h] _ (WantRemove h)); cbn; auto; try (intros; discriminate).
    + intros t' h' v' [Q|[]]. discriminate.
    + intros h' Q. assert (h' = h) by congruence. subst. auto.
  - (* lock_remove *)
    apply (inv_local tr s t [] _ (Removing h)); cbn; auto; try (intros; discriminate); try contradiction. intros h' Q. left. rewrite H. exact Q.
  - (* remove *)
    rewrite app_nil_r in *.
    assert (PC : forall t' x, pending (upd (pc s) t (RemoveDone h) t') = Some x -> pending (pc s t') = Some x).
    { intros t' x Q. destruct (upd_cases (pc s) t (RemoveDone h) t') as [[-> E]|[N E]]; rewrite E in Q; [discriminate|exact Q]. }
    assert (D : destroy_called tr h) by (apply (i_destroy _ _ I t); rewrite H; reflexivity).
    constructor; cbn [next cached pc].
    + apply (i_next _ _ I).
    + intros t' h' v' Q. apply (i_pend _ _ I t'), PC, Q.
    + apply (i_ret _ _ I).
    + intros h' v' Q. unfold set_map in Q. destruct (Z.eqb_spec h' h) as [->|N]; [discriminate|apply (i_map _ _ I _ _ Q)].
    + intros t' h' v' Q. destruct (upd_cases (pc s) t (RemoveDone h) t') as [[-> E]|[N E]]; rewrite E in Q; [discriminate|apply (i_use _ _ I _ _ _ Q)].
    + apply (i_used _ _ I).
    + apply (i_nodup _ _ I).
    + intros t1 t2 h' v1 v2 Q1 Q2. apply (i_pp _ _ I _ _ _ _ _ (PC _ _ Q1) (PC _ _ Q2)).
    + intros t' h' v' Q. apply (i_pr _ _ I _ _ _ (PC _ _ Q)).
    + intros t' h' Q. destruct (upd_cases (pc s) t (RemoveDone h) t') as [[-> E]|[N E]]; rewrite E in Q; [|apply (i_destroy _ _ I _ _ Q)].
      cbn in Q. assert (h' = h) by congruence. subst. exact D.
    + intros t' h' v' Q N. unfold set_map. destruct (Z.eqb_spec h' h) as [->|Nh]; [contradiction|].
      apply (i_live _ _ I t'); [|exact N]. destruct Q as [Q|Q]; [left; exact Q|].
      destruct (upd_cases (pc s) t (RemoveDone h) t') as [[-> E]|[N' E]]; rewrite E in Q; [discriminate|right; exact Q].
  - (* destroyed *)
    apply (inv_local tr s t [RetDestroy t h] _ Idle); cbn; auto; try (intros; discriminate). intros t' h' v' [Q|[]]. discriminate.
  - (* use *)
    apply (inv_local tr s t [CallUse t h] _ (WantLookup h)); cbn; auto; try (intros; discriminate). intros t' h' v' [Q|[]]. discriminate.
  - (* lock_read *)
    apply (inv_local tr s t [] _ (Looking h)); cbn; auto; try (intros; discriminate); contradiction.
  - (* get *)
    apply (inv_local tr s t [] _ (Using h (cached s h))); cbn; auto; try (intros; discriminate); try contradiction.
    intros h' v' Q. assert (h' = h) by congruence. subst. apply (i_map _ _ I). congruence.
  - (* used *)
    apply (inv_local tr s t [RetUse t h r] _ Idle); cbn; auto; try (intros; discriminate). intros t' h' v' [Q|[]].
    apply (i_use _ _ I t). assert (h' = h) by congruence. assert (r = Some v') by congruence. subst. exact H.
Qed.

Lemma run_inv tr s : run tr s -> few tr -> inv tr s.
Proof.
  intros R. induction R as [|tr s t ev s' R IH H]; intros F; [apply inv_start|]. apply (inv_step tr s t); [apply IH, (few_app _ _ F)|exact F|exact H].
Qed.

(** ** Cutting an execution at an event *)
Inductive steps (s0 : state V) : list (event V) -> state V -> Prop :=
| steps_nil : steps s0 [] s0
| steps_snoc tr s t ev s' : steps s0 tr s -> step s t ev s' -> steps s0 (tr ++ ev) s'.

Lemma step_one s t ev s' : step s t ev s' -> ev = [] \/ exists e, ev = [e].
Proof. intros []; eauto. Qed.
Lemma snoc_split {A} (tr : list A) e a b : tr ++ [e] = a ++ b -> (b = [] /\ a = tr ++ [e]) \/ exists b', b = b' ++ [e] /\ tr = a ++ b'.
Proof.
  intros H. destruct (rev b) as [|x r] eqn:Q.
  - left. apply (f_equal (@rev A)) in Q. rewrite rev_involutive in Q. cbn in Q. subst b. rewrite app_nil_r in H. auto.
  - right. apply (f_equal (@rev A)) in Q. rewrite rev_involutive in Q. cbn in Q. subst b. rewrite app_assoc in H. apply app_inj_tail in H as [-> ->]. eauto.
Qed.

Lemma run_cut tr s : run tr s -> forall a b, tr = a ++ b -> exists s0, run a s0 /\ steps s0 b s.
Proof.
  intros R. induction R as [|tr s t ev s' R IH H]; intros a b E.
  - symmetry in E. apply app_eq_nil in E as [-> ->]. exists start. split; constructor.
  - destruct (step_one _ _ _ _ H) as [->|[e ->]].
    + rewrite app_nil_r in E. destruct (IH _ _ E) as (s0 & R0 & S0). exists s0. split; [exact R0|].
      rewrite <- (app_nil_r b). apply (steps_snoc _ _ _ _ _ _ S0 H).
    + apply snoc_split in E as [[-> ->]|(b' & -> & E)].
      * exists s'. split; [apply (run_step _ _ _ _ _ R H)|constructor].
      * destruct (IH _ _ E) as (s0 & R0 & S0). exists s0. split; [exact R0|]. apply (steps_snoc _ _ _ _ _ _ S0 H).
Qed.
Lemma run_steps a s0 b s : run a s0 -> steps s0 b s -> run (a ++ b) s.
Proof. intros R H. induction H as [|tr s t ev s' H IH Hs]; [rewrite app_nil_r; exact R|]. rewrite app_assoc. apply (run_step _ _ _ _ _ IH Hs). Qed.
(** the step of a given event *)
Lemma run_event a e s : run (a ++ [e]) s -> exists s1 t s2, run a s1 /\ step s1 t [e] s2 /\ steps s2 [] s.
Proof.
  intros R. remember (a ++ [e]) as tr eqn:E. revert a E. induction R as [|tr s t ev s' R IH H]; intros a E.
  - symmetry in E. apply app_eq_nil in E as [_ E]. discriminate.
  - destruct (step_one _ _ _ _ H) as [->|[x ->]].
    + rewrite app_nil_r in E. destruct (IH _ E) as (s1 & t1 & s2 & R1 & S1 & S2). exists s1, t1, s2. split; [exact R1|]. split; [exact S1|].
      apply (steps_snoc _ [] _ _ _ _ S2 H).
    + apply app_inj_tail in E as [-> ->]. exists s, t, s'. split; [exact R|]. split; [exact H|constructor].
Qed.

(** ** C50 *)
(** what holds of a thread from its call on, as long as it makes no other *)
Lemma no_call_app (a b : list (event V)) t : no_call (a ++ b) t -> no_call a t /\ no_call b t.
Proof. intros H. split; intros e He; apply H, in_or_app; auto. Qed.

Lemma still tr0 s0 b s (J : state V -> Prop) : run tr0 s0 -> steps s0 b s -> J s0 ->
  (forall b1 s1 t ev s2, run (tr0 ++ b1) s1 -> J s1 -> step s1 t ev s2 -> (exists b2, b = b1 ++ ev ++ b2) -> J s2) -> J s.
Proof.
  intros R H J0 HJ. assert (G : forall b2, (exists b3, b = b2 ++ b3) -> forall s', steps s0 b2 s' -> J s').
  { intros b2 E s' S'. revert E. induction S' as [|b1 s1 t ev s2 S1 IH Hs]; intros [b3 E]; [exact J0|].
    apply (HJ b1 s1 t ev s2); [apply (run_steps _ _ _ _ R S1)|apply IH; rewrite <- app_assoc in E; eauto|exact Hs|rewrite <- app_assoc in E; eauto]. }
  apply (G b); [exists []; symmetry; apply app_nil_r|exact H].
Qed.

Lemma use_phase tr0 s0 b s t h r : run tr0 s0 -> steps s0 b s -> pc s0 t = WantLookup h -> no_call b t ->
  (forall b1 s1, run (tr0 ++ b1) s1 -> (exists b2, b = b1 ++ b2) -> cached s1 h = r) ->
  (pc s t = WantLookup h \/ pc s t = Looking h \/ pc s t = Using h r \/ pc s t = Idle).
Proof.
  intros R H P0 Hn Hc. apply (still tr0 s0 b s (fun s => pc s t = WantLookup h \/ pc s t = Looking h \/ pc s t = Using h r \/ pc s t = Idle) R H); [auto|].
  intros b1 s1 t1 ev s2 R1 J Hs [b2 E].
  assert (C : cached s1 h = r) by (apply (Hc b1 s1 R1); eauto).
  assert (Nc : forall e, In e ev -> match e with CallCreate t' _ | CallDestroy t' _ | CallUse t' _ => t' <> t | _ => True end).
  { intros e He. apply Hn. rewrite E. apply in_or_app. right. apply in_or_app. left. exact He. }
  destruct (Nat.eq_dec t1 t) as [->|N].
  - destruct Hs; cbn [pc at_pc]; rewrite upd_same; try (destruct (Nc _ (or_introl eq_refl) eq_refl));
      (destruct J as [J|[J|[J|J]]]; try congruence); try tauto.
    + right; left. congruence.
    + right; right; left. congruence.
  - assert (Q : pc s2 t = pc s1 t) by (destruct Hs; cbn [pc at_pc]; apply upd_other; congruence). rewrite Q. exact J.
Qed.

Theorem C50_handles_unique tr s : run tr s -> few tr -> NoDup (returned tr).
Proof. intros R F. apply (i_nodup _ _ (run_inv _ _ R F)). Qed.

(** a use called after the handle was returned finds the value of that create, unless
    a destroy of this handle was called *)
Theorem C50_live_handle a b t t' h v r s : run (a ++ CallUse t h :: b ++ [RetUse t h r]) s ->
  few (a ++ CallUse t h :: b ++ [RetUse t h r]) -> no_call b t -> In (RetCreate t' v h) a -> ~ destroy_called (a ++ CallUse t h :: b) h ->
  r = Some v.
Proof.
  intros R F Hn Hr Hd.
  assert (E : a ++ CallUse t h :: b ++ [RetUse t h r] = ((a ++ [CallUse t h]) ++ b) ++ [RetUse t h r]) by (rewrite <- !app_assoc; reflexivity).
  rewrite E in R, F. destruct (run_event _ _ _ R) as (s1 & t1 & s2 & R1 & S1 & _).
  destruct (run_cut _ _ R1 _ _ eq_refl) as (s0 & R0 & S0). destruct (run_event _ _ _ R0) as (q1 & t2 & q2 & Q1 & Q2 & Q3).
  assert (T2 : t2 = t /\ pc q2 t = WantLookup h).
  { inversion Q2; subst. split; [reflexivity|]. cbn [pc at_pc]. apply upd_same. }
  destruct T2 as [-> P2].
  assert (P : pc s1 t = WantLookup h \/ pc s1 t = Looking h \/ pc s1 t = Using h (Some v) \/ pc s1 t = Idle).
  { assert (R2 : run (a ++ [CallUse t h]) q2) by (apply (run_step _ _ _ _ _ Q1 Q2)).
    assert (S2 : steps q2 ([] ++ b) s1).
    { clear - Q3 S0. induction S0 as [|b1 x t ev y S IH H]; [exact Q3|]. cbn [app] in *. apply (steps_snoc _ _ _ _ _ _ IH H). }
    apply (use_phase _ _ _ _ _ _ _ R2 S2 P2 Hn). intros b1 x Rx [b2 Eb]. cbn [app] in Eb.
    assert (Fx : few ((a ++ [CallUse t h]) ++ b1)) by (rewrite Eb in F; apply (few_app _ (b2 ++ [RetUse t h r])); rewrite <- !app_assoc in *; exact F).
    apply (i_live _ _ (run_inv _ _ Rx Fx) t'); [left; rewrite <- app_assoc; apply in_or_app; left; exact Hr|].
    intros [t3 D]. apply Hd. exists t3. rewrite Eb. rewrite <- app_assoc in D. cbn [app] in D. apply in_app_or in D as [D|D]; apply in_or_app; [auto|right].
    destruct D as [D|D]; [left; exact D|right; apply in_or_app; auto]. }
  inversion S1; subst; destruct P as [P|[P|[P|P]]]; congruence.
Qed.

(** what a use finds under a handle was given to the create that returned it *)
Theorem C50_handle_keys tr s t t' h v v' : run tr s -> few tr -> In (RetUse t h (Some v)) tr -> In (RetCreate t' v' h) tr -> v = v'.
Proof.
  intros R F H H'. pose proof (run_inv _ _ R F) as I. apply (owns_fun tr h); [exact F|apply (i_used _ _ I _ _ _ H)|apply (i_ret _ _ I _ _ _ H')].
Qed.

Lemma nothing_inserted tr s t ev s' t' v h : run tr s -> few tr -> In (RetCreate t' v h) tr -> step s t ev s' ->
  cached s h = None -> cached s' h = None.
Proof.
  intros R F H Hs C. pose proof (run_inv _ _ R F) as I. destruct Hs; cbn [cached at_pc]; try exact C.
  - unfold set_map. destruct (Z.eqb_spec h h0) as [<-|]; [|exact C]. exfalso.
    apply (i_pr _ _ I t h v0); [rewrite H0; reflexivity|apply (returned_in _ _ _ _ H)].
  - unfold set_map. destruct (Z.eqb_spec h h0); [reflexivity|exact C].
Qed.
Lemma gone tr s b s' t' v h : run tr s -> few (tr ++ b) -> In (RetCreate t' v h) tr -> steps s b s' ->
  cached s h = None -> cached s' h = None.
Proof.
  intros R F H Hs C. apply (still tr s b s' (fun s => cached s h = None) R Hs C). intros b1 s1 t1 ev s2 R1 C1 H1 [b2 Eb].
  apply (nothing_inserted (tr ++ b1) s1 t1 ev s2 t' v h); try assumption; [|apply in_or_app; left; exact H].
  subst b. rewrite app_assoc in F. apply (few_app _ _ F).
Qed.

Lemma event_cut a e b s : run (a ++ e :: b) s -> exists s1 t s2, run a s1 /\ step s1 t [e] s2 /\ run (a ++ [e]) s2 /\ steps s2 b s.
Proof.
  intros R. destruct (run_cut _ _ R (a ++ [e]) b) as (s0 & R0 & S0); [rewrite <- app_assoc; reflexivity|].
  destruct (run_event _ _ _ R0) as (s1 & t & s2 & R1 & S1 & S2). exists s1, t, s2. split; [exact R1|]. split; [exact S1|].
  split; [apply (run_step _ _ _ _ _ R1 S1)|]. clear - S2 S0. induction S0 as [|b1 x t ev y S IH H]; [exact S2|]. apply (steps_snoc _ _ _ _ _ _ IH H).
Qed.

Lemma gone_after a b c t1 t2 h v s : run (a ++ CallDestroy t1 h :: b ++ RetDestroy t1 h :: c) s ->
  few (a ++ CallDestroy t1 h :: b ++ RetDestroy t1 h :: c) -> In (RetCreate t2 v h) a -> no_call b t1 -> cached s h = None.
Proof.
  intros R F Hr Hb.
  assert (Q1 : a ++ CallDestroy t1 h :: b ++ RetDestroy t1 h :: c = ((a ++ [CallDestroy t1 h]) ++ b) ++ RetDestroy t1 h :: c)
    by (rewrite <- !app_assoc; reflexivity).
  rewrite Q1 in R, F. destruct (event_cut _ _ _ _ R) as (s1 & x1 & s2 & R1 & E1 & R2 & S2).
  assert (P1 : pc s1 t1 = RemoveDone h /\ cached s2 h = cached s1 h) by (inversion E1; subst; auto). destruct P1 as [P1 C1].
  destruct (event_cut a (CallDestroy t1 h) b s1) as (y0 & y & y1 & _ & Ey & Ry & Sy); [rewrite <- app_assoc in R1; exact R1|].
  assert (Py : pc y1 t1 = WantRemove h) by (inversion Ey; subst; cbn [pc at_pc]; apply upd_same).
  assert (J : pc s1 t1 = WantRemove h \/ pc s1 t1 = Removing h \/ (pc s1 t1 = RemoveDone h /\ cached s1 h = None) \/ pc s1 t1 = Idle).
  { apply (still _ y1 b s1 (fun s => pc s t1 = WantRemove h \/ pc s t1 = Removing h \/ (pc s t1 = RemoveDone h /\ cached s h = None) \/ pc s t1 = Idle) Ry Sy); [auto|].
    intros b1 w1 t3 ev w2 Rw J Hs [b2 Eb].
    assert (Nc : forall e, In e ev -> match e with CallCreate t' _ | CallDestroy t' _ | CallUse t' _ => t' <> t1 | _ => True end).
    { intros e He. apply Hb. rewrite Eb. apply in_or_app. right. apply in_or_app. left. exact He. }
    assert (Fw : few ((a ++ [CallDestroy t1 h]) ++ b1)).
    { rewrite Eb in F. apply few_app in F. rewrite app_assoc in F. apply (few_app _ _ F). }
    assert (Hw : In (RetCreate t2 v h) ((a ++ [CallDestroy t1 h]) ++ b1)) by (rewrite <- app_assoc; apply in_or_app; left; exact Hr).
    pose proof (nothing_inserted _ _ _ _ _ _ _ _ Rw Fw Hw Hs) as K.
    destruct (Nat.eq_dec t3 t1) as [->|N].
    - destruct Hs; cbn [pc at_pc cached]; rewrite upd_same; try (destruct (Nc _ (or_introl eq_refl) eq_refl));
        (destruct J as [J|[J|[[J Jc]|J]]]; try congruence); try tauto.
      + right; left. congruence.
      + right; right; left. assert (h0 = h) by congruence. subst h0. split; [reflexivity|]. unfold set_map. rewrite Z.eqb_refl. reflexivity.
    - assert (Q : pc w2 t1 = pc w1 t1) by (destruct Hs; cbn [pc at_pc]; apply upd_other; congruence). rewrite Q. tauto. }
  assert (C : cached s1 h = None) by (destruct J as [J|[J|[[J Jc]|J]]]; congruence).
  apply (gone (((a ++ [CallDestroy t1 h]) ++ b) ++ [RetDestroy t1 h]) s2 c s t2 v h R2); [rewrite <- app_assoc; exact F| |exact S2|congruence].
  rewrite <- !app_assoc. apply in_or_app. left. exact Hr.
Qed.

(** after a destroy has returned, a use finds nothing *)
Theorem C50_destroyed_handle a b c d t t1 t2 h v r s :
  run (a ++ CallDestroy t1 h :: b ++ RetDestroy t1 h :: c ++ CallUse t h :: d ++ [RetUse t h r]) s ->
  few (a ++ CallDestroy t1 h :: b ++ RetDestroy t1 h :: c ++ CallUse t h :: d ++ [RetUse t h r]) ->
  In (RetCreate t2 v h) a -> no_call b t1 -> no_call d t -> r = None.
Proof.
  intros R F Hr Hb Hd.
  assert (Q : a ++ CallDestroy t1 h :: b ++ RetDestroy t1 h :: c ++ CallUse t h :: d ++ [RetUse t h r] =
    ((a ++ CallDestroy t1 h :: b ++ RetDestroy t1 h :: c ++ [CallUse t h]) ++ d) ++ [RetUse t h r])
    by (rewrite <- ?app_assoc; cbn [app]; rewrite <- ?app_assoc; cbn [app]; rewrite <- ?app_assoc; cbn [app]; rewrite <- ?app_assoc; reflexivity).
  rewrite Q in R, F. destruct (run_event _ _ _ R) as (s1 & t3 & s2 & R1 & S1 & _).
  assert (Q2 : a ++ CallDestroy t1 h :: b ++ RetDestroy t1 h :: c ++ [CallUse t h] = (a ++ CallDestroy t1 h :: b ++ RetDestroy t1 h :: c) ++ [CallUse t h])
    by (rewrite <- ?app_assoc; cbn [app]; rewrite <- ?app_assoc; reflexivity).
  pose proof R1 as R1'. rewrite Q2, <- app_assoc in R1'. destruct (event_cut _ _ _ _ R1') as (y0 & y & y1 & _ & Ey & Ry & Sy).
  assert (Py : pc y1 t = WantLookup h) by (inversion Ey; subst; cbn [pc at_pc]; apply upd_same).
  assert (P : pc s1 t = WantLookup h \/ pc s1 t = Looking h \/ pc s1 t = Using h None \/ pc s1 t = Idle).
  { apply (use_phase _ _ _ _ _ _ _ Ry Sy Py Hd). intros b1 x Rx [b2 Eb]. rewrite <- Q2 in Rx.
    assert (Q3 : forall z, (a ++ CallDestroy t1 h :: b ++ RetDestroy t1 h :: c ++ [CallUse t h]) ++ z = a ++ CallDestroy t1 h :: b ++ RetDestroy t1 h :: (c ++ CallUse t h :: z))
      by (intros z; rewrite <- ?app_assoc; cbn [app]; rewrite <- ?app_assoc; cbn [app]; rewrite <- ?app_assoc; reflexivity).
    rewrite Q3 in Rx. apply (gone_after a b (c ++ CallUse t h :: b1) t1 t2 h v x Rx); try assumption.
    rewrite <- Q3. rewrite Eb in F. apply few_app in F. rewrite app_assoc in F. apply (few_app _ _ F). }
  inversion S1; subst; destruct P as [P|[P|[P|P]]]; congruence.
Qed.

(** ** C69: the locks *)
Record locked s : Prop := {
  l_writer : forall t, writing (pc s t) <-> writer s = Some t;
  l_readers : forall t, reading (pc s t) <-> In t (readers s);
  l_excl : writer s <> None -> readers s = [];
  l_use : forall t h r, pc s t = Using h r -> cached s h = r
}.

Lemma locked_start : locked (@start V).
Proof. constructor; cbn; try (intros; split; [contradiction|discriminate]); try (intros; tauto); try reflexivity. intros; discriminate. Qed.

Lemma locked_step s t ev s' : locked s -> step s t ev s' -> locked s'.
Proof.
  intros [W R X U] H. pose proof (W t) as Wt. pose proof (R t) as Rt.
  assert (Xw : forall t', In t' (readers s) -> writer s = None).
  { intros t' Q. destruct (writer s) eqn:E; [|reflexivity]. rewrite X in Q by discriminate. contradiction. }
  assert (O : forall c t', t' <> t -> upd (pc s) t c t' = pc s t') by (intros; apply upd_other; assumption).
  destruct H; rewrite H in Wt, Rt; cbn [writing reading] in Wt, Rt; (constructor; cbn [next cached writer readers pc at_pc];
    [intros t'; destruct (Nat.eq_dec t' t) as [->|N]; [rewrite upd_same|rewrite O by exact N]; cbn [writing]
    |intros t'; destruct (Nat.eq_dec t' t) as [->|N]; [rewrite upd_same|rewrite O by exact N]; cbn [reading]
    | |intros t' h' r'; destruct (Nat.eq_dec t' t) as [->|N]; [rewrite upd_same|rewrite O by exact N]; intros Q]);
    try discriminate; try (apply (U _ _ _ Q)); try apply X; try apply W; try apply R; try tauto; try (rewrite W); try (rewrite R);
    try (split; [intros; congruence|intros; congruence]); try congruence.
  all: try solve [rewrite ?H0, ?H1 in *; split; [congruence|intros Z; try congruence; contradiction]].
  - unfold set_map. destruct (Z.eqb_spec h' h) as [->|]; [|apply (U _ _ _ Q)]. exfalso.
    assert (In t' (readers s)) as Z by (apply R; rewrite Q; exact Logic.I). apply Xw in Z. destruct Wt as [Wt _]. rewrite Wt in Z by exact Logic.I. discriminate.
  - split; [contradiction|discriminate].
  - destruct Wt as [Wt _]. rewrite Wt by exact Logic.I. split; congruence.
  - unfold set_map. destruct (Z.eqb_spec h' h) as [->|]; [|apply (U _ _ _ Q)]. exfalso.
    assert (In t' (readers s)) as Z by (apply R; rewrite Q; exact Logic.I). apply Xw in Z. destruct Wt as [Wt _]. rewrite Wt in Z by exact Logic.I. discriminate.
  - split; [contradiction|discriminate].
  - destruct Wt as [Wt _]. rewrite Wt by exact Logic.I. split; congruence.
  - split; [intros _; left; reflexivity|tauto].
  - split; [intros Q; right; exact Q|]. intros [Q|Q]; [congruence|exact Q].
  - split; [contradiction|]. apply remove_In.
  - split; [intros Q; apply in_in_remove; assumption|]. intros Q. apply in_remove in Q. tauto.
  - intros Q. rewrite X by exact Q. reflexivity.
Qed.
Lemma run_locked tr s : run tr s -> locked s.
Proof. intros R. induction R as [|tr s t ev s' R IH H]; [apply locked_start|apply (locked_step _ _ _ _ IH H)]. Qed.

(** a thread that changes the map is alone with it *)
Theorem C69_exclusion tr s t t' : run tr s -> writing (pc s t) -> t' <> t -> ~ writing (pc s t') /\ ~ reading (pc s t').
Proof.
  intros R W N. destruct (run_locked _ _ R) as [Lw Lr Lx _]. apply Lw in W. split; intros Q.
  - apply Lw in Q. congruence.
  - apply Lr in Q. rewrite Lx in Q by congruence. contradiction.
Qed.
(** what a header function found stays in the cache until it returns *)
Theorem C69_stable tr s t h r : run tr s -> pc s t = Using h r -> cached s h = r.
Proof. intros R. apply (l_use _ (run_locked _ _ R)). Qed.

(** there is no deadlock: a thread that holds the lock can go on, and when none does
    every call in progress can go on *)
Theorem C69_progress tr s : run tr s ->
  (forall t, writing (pc s t) \/ reading (pc s t) -> exists ev s', step s t ev s') /\
  ((forall t, ~ writing (pc s t) /\ ~ reading (pc s t)) -> forall t, pc s t <> Idle -> exists ev s', step s t ev s').
Proof.
  intros R. destruct (run_locked _ _ R) as [Lw Lr Lx _]. split.
  - intros t H. destruct (pc s t) as [|h v|h v|h v|h|h|h|h|h|h r] eqn:E; cbn in H; try tauto; eexists; eexists.
    + eapply s_insert, E.
    + eapply s_created, E.
    + eapply s_remove, E.
    + eapply s_destroyed, E.
    + eapply s_get, E.
    + eapply s_used, E.
  - intros H t N.
    assert (W : writer s = None) by (destruct (writer s) as [x|] eqn:Q; [exfalso; apply (proj1 (H x)), Lw; reflexivity|reflexivity]).
    assert (Q : readers s = []) by (destruct (readers s) as [|x l] eqn:Q; [reflexivity|exfalso; apply (proj2 (H x)), Lr; left; reflexivity]).
    destruct (H t) as [Hw Hr]. destruct (pc s t) as [|h v|h v|h v|h|h|h|h|h|h r] eqn:E; cbn in Hw, Hr; try tauto; eexists; eexists.
    + eapply s_lock_insert; eassumption.
    + eapply s_lock_remove; eassumption.
    + eapply s_lock_read; eassumption.
Qed.
End Cache.

(** ** C51 *)
Ltac fwd R c t R' := eassert (R' : run _ _); [eapply run_step; [exact R|eapply (c _ _ t); first [eassumption|reflexivity]]|cbn [next cached writer readers at_pc] in R'].
Ltac fwdv R c t v R' := eassert (R' : run _ _); [eapply run_step; [exact R|eapply (c _ _ t v); first [eassumption|reflexivity]]|cbn [next cached writer readers at_pc] in R'].
Section Single.
Context {V : Type}.
(** one thread alone makes a whole call *)
Definition quiet (s : state V) : Prop := pc s 0%nat = Idle /\ writer s = None /\ readers s = [].
Lemma create_call tr (s : state V) v : run tr s -> quiet s -> exists s',
  run (tr ++ [CallCreate 0 v; RetCreate 0 v (next s)]) s' /\ quiet s' /\ next s' = add_i32 (next s) /\
  cached s' = set_map (cached s) (next s) (Some v).
Proof.
  intros R (Hp & Hw & Hr).
  fwdv R (@s_fetch) 0%nat v R1.
  fwd R1 (@s_lock_insert) 0%nat R2.
  fwd R2 (@s_insert) 0%nat R3.
  fwd R3 (@s_created) 0%nat R4.
  rewrite <- !app_assoc in R4. cbn [app] in R4. eexists. split; [exact R4|]. cbn [next cached]. split; [|split; reflexivity].
  split; [apply upd_same|split; reflexivity].
Qed.
Lemma destroy_call tr (s : state V) h : run tr s -> quiet s -> exists s',
  run (tr ++ [CallDestroy 0 h; RetDestroy 0 h]) s' /\ quiet s' /\ next s' = next s /\ cached s' = set_map (cached s) h None.
Proof.
  intros R (Hp & Hw & Hr).
  fwdv R (@s_destroy) 0%nat h R1.
  fwd R1 (@s_lock_remove) 0%nat R2.
  fwd R2 (@s_remove) 0%nat R3.
  fwd R3 (@s_destroyed) 0%nat R4.
  rewrite <- !app_assoc in R4. cbn [app] in R4. eexists. split; [exact R4|]. cbn [next cached]. split; [|split; reflexivity].
  split; [apply upd_same|split; reflexivity].
Qed.
Lemma use_call tr (s : state V) h : run tr s -> quiet s -> exists s',
  run (tr ++ [CallUse 0 h; RetUse 0 h (cached s h)]) s' /\ quiet s' /\ next s' = next s /\ cached s' = cached s.
Proof.
  intros R (Hp & Hw & Hr).
  fwdv R (@s_use) 0%nat h R1.
  fwd R1 (@s_lock_read) 0%nat R2.
  fwd R2 (@s_get) 0%nat R3.
  fwd R3 (@s_used) 0%nat R4.
  rewrite <- !app_assoc in R4. cbn [app] in R4. eexists. split; [exact R4|]. cbn [next cached at_pc]. split; [|split; reflexivity].
  split; [apply upd_same|]. split; [reflexivity|]. cbn [readers at_pc]. rewrite Hr. reflexivity.
Qed.
End Single.

Lemma many_creations n : exists tr (s : state bool), run tr s /\ quiet s /\ next s = handle_of (S n) /\
  In (RetCreate 0 true 0%Z) tr /\ (forall h, ~ destroy_called tr h).
Proof.
  induction n as [|n (tr & s & R & Q & E & H & D)].
  - destruct (create_call [] start true run_start) as (s & R & Q & E & _); [repeat split|].
    exists ([] ++ [CallCreate 0 true; RetCreate 0 true 0%Z]), s. split; [exact R|]. split; [exact Q|]. split; [rewrite E; reflexivity|].
    split; [right; left; reflexivity|]. intros h [t [Z|[Z|[]]]]; discriminate.
  - destruct (create_call tr s false R Q) as (s' & R' & Q' & E' & _). eexists. exists s'. split; [exact R'|]. split; [exact Q'|].
    split; [rewrite E', E; apply handle_next|]. split; [apply in_or_app; left; exact H|].
    intros h [t Z]. apply in_app_or in Z as [Z|[Z|[Z|[]]]]; [apply (D h); exists t; exact Z|discriminate|discriminate].
Qed.

(** the counter comes back to 0: a second create returns the handle of a live cache,
    whose users silently get other keys *)
Theorem C51_refuted : exists (a : list (event bool)) (s : state bool),
  run (a ++ [CallCreate 0 false; RetCreate 0 false 0%Z] ++ [CallUse 0 0%Z; RetUse 0 0%Z (Some false)]) s /\
  In (RetCreate 0 true 0%Z) a /\ (forall h, ~ destroy_called a h).
Proof.
  destruct (many_creations (N.to_nat 4294967295)) as (tr & s & R & Q & E & H & D).
  assert (E0 : next s = 0%Z).
  { rewrite E. unfold handle_of. rewrite Nat2N.inj_succ, N2Nat.id. reflexivity. }
  destruct (create_call tr s false R Q) as (s1 & R1 & Q1 & _ & C1). rewrite E0 in R1, C1.
  destruct (use_call _ s1 0%Z R1 Q1) as (s2 & R2 & _). rewrite C1 in R2. unfold set_map in R2. cbn [Z.eqb] in R2.
  exists tr, s2. rewrite <- app_assoc in R2. split; [exact R2|]. split; [exact H|exact D].
Qed.

(** ** C52 with threads: a header function that uses a live handle, whatever the other
    threads do meanwhile, behaves as the function that is given the keys *)
Theorem C52_concurrent_encryption {B} P F shake S policy_from attributes_from pol pk p mpk outs0 outs0'
    a b t t' h (r : option (policy * master_public_key B)) s attrs u ad random x nonce outs :
  run (a ++ CallUse t h :: b ++ [RetUse t h r]) s -> few (a ++ CallUse t h :: b ++ [RetUse t h r]) -> no_call b t ->
  In (RetCreate t' (p, mpk) h) a -> ~ destroy_called (a ++ CallUse t h :: b) h ->
  encryption_cache_of P F policy_from pol pk outs0 = Go (p, mpk) outs0' ->
  h_aes_encrypt_header_using_cache P F shake S attributes_from (fun _ => r) h attrs u ad random x nonce outs =
  h_aes_encrypt_header P F shake S policy_from attributes_from pol pk attrs u ad random x nonce outs.
Proof.
  intros R Fw Hn Hr Hd Hc. apply (C52_cached_encryption B P F shake S policy_from attributes_from pol pk p mpk outs0 outs0'); [exact Hc|].
  apply (C50_live_handle _ _ _ _ _ _ _ _ R Fw Hn Hr Hd).
Qed.
Theorem C52_concurrent_decryption {B} P F shake S ukb uk outs0 outs0' a b t t' h (r : option (decryption_key B)) s header outs :
  run (a ++ CallUse t h :: b ++ [RetUse t h r]) s -> few (a ++ CallUse t h :: b ++ [RetUse t h r]) -> no_call b t ->
  In (RetCreate t' uk h) a -> ~ destroy_called (a ++ CallUse t h :: b) h ->
  decryption_cache_of P F ukb outs0 = Go uk outs0' ->
  h_aes_decrypt_header_using_cache P F shake S (fun _ => r) h header outs = h_aes_decrypt_header P F shake S header ukb outs.
Proof.
  intros R Fw Hn Hr Hd Hc. apply (C52_cached_decryption B P F shake S ukb uk outs0 outs0'); [exact Hc|].
  apply (C50_live_handle _ _ _ _ _ _ _ _ R Fw Hn Hr Hd).
Qed.

(** ** Examples *)
(** two threads create at the same time; the second to take a number inserts first *)
Example C50_example : exists s : state bool,
  run ([CallCreate 0 true; CallCreate 1 false; RetCreate 1 false 1%Z; RetCreate 0 true 0%Z] ++
       [CallUse 0 1%Z; RetUse 0 1%Z (Some false)] ++ [CallDestroy 0 1%Z; RetDestroy 0 1%Z] ++
       [CallUse 0 1%Z; RetUse 0 1%Z None] ++ [CallUse 0 0%Z; RetUse 0 0%Z (Some true)]) s.
Proof.
  pose proof (@run_start bool) as R.
  fwdv R (@s_fetch) 0%nat true R1.
  fwdv R1 (@s_fetch) 1%nat false R2.
  fwd R2 (@s_lock_insert) 1%nat R3.
  fwd R3 (@s_insert) 1%nat R4.
  fwd R4 (@s_created) 1%nat R5.
  fwd R5 (@s_lock_insert) 0%nat R6.
  fwd R6 (@s_insert) 0%nat R7.
  fwd R7 (@s_created) 0%nat R8.
  match type of R8 with run _ ?s8 => assert (Qs : quiet s8) by (repeat split) end.
  destruct (use_call _ _ 1%Z R8 Qs) as (s9 & R9 & Q9 & _ & C9).
  destruct (destroy_call _ _ 1%Z R9 Q9) as (s10 & R10 & Q10 & _ & C10).
  destruct (use_call _ _ 1%Z R10 Q10) as (s11 & R11 & Q11 & _ & C11).
  destruct (use_call _ _ 0%Z R11 Q11) as (s12 & R12 & _). exists s12.
  rewrite C11, C10, C9 in R12. exact R12.
Qed.

Print Assumptions C50_handles_unique.
Print Assumptions C50_live_handle.
Print Assumptions C50_handle_keys.
Print Assumptions C50_destroyed_handle.
Print Assumptions C69_exclusion.
Print Assumptions C69_stable.
Print Assumptions C69_progress.
Print Assumptions C51_refuted.
Print Assumptions C52_concurrent_encryption.
Print Assumptions C52_concurrent_decryption.

(** Proofs about the span program built by [to_msp]. *)
From Coq Require Import String NArith ZArith Bool Lia Permutation Field_theory Field List.
From Verif Require Import Prelude Field LinAlg Msp Spec.
Import ListNotations.

Definition leaf_of (n : node) : N := match n with Leaf v => v | _ => 0%N end.

Definition is_leaf (n : node) : Prop := match n with Leaf _ => True | _ => False end.

Definition queue_size (q : list (node * list Z)) : nat :=
  fold_right (fun e s => node_size (fst e) + s) 0 q.

Lemma queue_size_app q1 q2 : queue_size (q1 ++ q2) = queue_size q1 + queue_size q2.
Proof. induction q1 as [|e t IH]; simpl; [reflexivity|rewrite IH; lia]. Qed.

Definition queue_leaves (q : list (node * list Z)) : list N := flat_map (fun e => leaves (fst e)) q.
Definition queue_ands (q : list (node * list Z)) : nat :=
  fold_right (fun e s => count_and (fst e) + s) 0 q.

Lemma queue_ands_app q1 q2 : queue_ands (q1 ++ q2) = queue_ands q1 + queue_ands q2.
Proof. induction q1 as [|e t IH]; simpl; [reflexivity|rewrite IH; lia]. Qed.

Lemma queue_leaves_app q1 q2 : queue_leaves (q1 ++ q2) = queue_leaves q1 ++ queue_leaves q2.
Proof. unfold queue_leaves. apply flat_map_app. Qed.

(** vectors of the loop: entries in {-1,0,1}, the first one not -1 *)
Definition small_vec (v : list Z) : Prop :=
  v <> [] /\ (forall x, In x v -> (-1 <= x <= 1)%Z) /\ (0 <= nth 0 v 0 <= 1)%Z.

Definition wf_entries (n : nat) (l : list (node * list Z)) : Prop :=
  forall e, In e l -> length (snd e) <= n /\ small_vec (snd e).

Lemma wf_entries_app n l1 l2 : wf_entries n (l1 ++ l2) <-> wf_entries n l1 /\ wf_entries n l2.
Proof.
  unfold wf_entries. split.
  - intros H; split; intros e He; apply H; apply in_or_app; auto.
  - intros [H1 H2] e He. apply in_app_or in He as [He|He]; auto.
Qed.

Lemma wf_entries_cons n e l :
  wf_entries n (e :: l) <-> (length (snd e) <= n /\ small_vec (snd e)) /\ wf_entries n l.
Proof.
  unfold wf_entries. split.
  - intros H; split; [apply H; left; reflexivity|intros e' He; apply H; right; exact He].
  - intros [H1 H2] e' [<-|He]; auto.
Qed.

Lemma wf_entries_mono n n' l : n <= n' -> wf_entries n l -> wf_entries n' l.
Proof. intros Hn H e He. destruct (H e He) as [H1 H2]. split; [lia|exact H2]. Qed.

Lemma wf_entries_nil n : wf_entries n [].
Proof. intros e []. Qed.

Lemma small_vec_1 n v :
  length v <= n -> small_vec v -> small_vec (resize v n 0%Z ++ [1%Z]).
Proof.
  intros Hl (Hne & Hr & H0). rewrite resize_le by exact Hl. repeat split.
  - destruct v; [contradiction|discriminate].
  - intros. apply in_app_or in H as [H|[<-|[]]]; [|lia].
    apply in_app_or in H as [H|H]; [apply Hr in H; lia|]. apply repeat_spec in H; lia.
  - intros. apply in_app_or in H as [H|[<-|[]]]; [|lia].
    apply in_app_or in H as [H|H]; [apply Hr in H; lia|]. apply repeat_spec in H; lia.
  - destruct v as [|x t]; [contradiction|]. simpl in *. lia.
  - destruct v as [|x t]; [contradiction|]. simpl in *. lia.
Qed.

Lemma small_vec_2 n : 1 <= n -> small_vec (repeat 0%Z n ++ [(-1)%Z]).
Proof.
  intros Hn. repeat split.
  - destruct n; [lia|discriminate].
  - intros. apply in_app_or in H as [H|[<-|[]]]; [apply repeat_spec in H; lia|lia].
  - intros. apply in_app_or in H as [H|[<-|[]]]; [apply repeat_spec in H; lia|lia].
  - destruct n; [lia|]. simpl. lia.
  - destruct n; [lia|]. simpl. lia.
Qed.

(** Structural facts about the loop: it ends, and what the rows look like. *)
Lemma to_msp_loop_struct fuel : forall q n rows,
  queue_size q <= fuel -> 1 <= n -> wf_entries n q -> wf_entries n rows ->
  Forall (fun r => is_leaf (fst r)) rows ->
  exists rows',
    to_msp_loop fuel q n rows = Ok (n + queue_ands q, rows') /\
    wf_entries (n + queue_ands q) rows' /\
    Forall (fun r => is_leaf (fst r)) rows' /\
    Permutation (map (fun r => leaf_of (fst r)) rows')
                (map (fun r => leaf_of (fst r)) rows ++ queue_leaves q).
Proof.
  induction fuel as [|fuel IH]; intros q n rows Hf Hn Hq Hrows Hleaf.
  - destruct q as [|[nd v] q].
    + exists rows. simpl. rewrite Nat.add_0_r, app_nil_r. auto.
    + simpl in Hf. destruct nd; simpl in Hf; lia.
  - destruct q as [|[nd v] q].
    + exists rows. simpl. rewrite Nat.add_0_r, app_nil_r. auto.
    + apply wf_entries_cons in Hq as [[Hv Hsv] Hq]. simpl in Hv, Hsv.
      destruct nd as [a b|a b|x]; simpl to_msp_loop.
      * destruct (IH (q ++ [(a, resize v n 0%Z ++ [1%Z]); (b, repeat 0%Z n ++ [(-1)%Z])]) (S n) rows)
          as (rows' & E & W & Lf & Pm); try assumption; try lia.
        { simpl in Hf. rewrite queue_size_app. simpl. lia. }
        { apply wf_entries_app. split; [apply (wf_entries_mono n); [lia|exact Hq]|].
          apply wf_entries_cons; split; [|apply wf_entries_cons; split; [|apply wf_entries_nil]]; simpl.
          - split; [rewrite app_length, resize_length; simpl; lia|apply small_vec_1; assumption].
          - split; [rewrite app_length, repeat_length; simpl; lia|apply small_vec_2; assumption]. }
        { apply (wf_entries_mono n); [lia|exact Hrows]. }
        exists rows'.
        assert (En : S n + queue_ands (q ++ [(a, resize v n 0%Z ++ [1%Z]); (b, repeat 0%Z n ++ [(-1)%Z])])
                     = n + queue_ands ((And a b, v) :: q)).
        { rewrite queue_ands_app. simpl. lia. }
        rewrite En in E, W. split; [exact E|split; [exact W|split; [exact Lf|]]].
        etransitivity; [exact Pm|]. apply Permutation_app_head.
        rewrite queue_leaves_app. unfold queue_leaves at 2; simpl. rewrite app_nil_r.
        etransitivity; [apply Permutation_app_comm|]. reflexivity.
      * destruct (IH (q ++ [(a, v); (b, v)]) n rows) as (rows' & E & W & Lf & Pm); try assumption; try lia.
        { simpl in Hf. rewrite queue_size_app. simpl. lia. }
        { apply wf_entries_app. split; [exact Hq|].
          apply wf_entries_cons; split; [|apply wf_entries_cons; split; [|apply wf_entries_nil]]; simpl; auto. }
        exists rows'.
        assert (En : n + queue_ands (q ++ [(a, v); (b, v)]) = n + queue_ands ((Or a b, v) :: q)).
        { rewrite queue_ands_app. simpl. lia. }
        rewrite En in E, W. split; [exact E|split; [exact W|split; [exact Lf|]]].
        etransitivity; [exact Pm|]. apply Permutation_app_head.
        rewrite queue_leaves_app. unfold queue_leaves at 2; simpl. rewrite app_nil_r.
        etransitivity; [apply Permutation_app_comm|]. reflexivity.
      * destruct (IH q n (rows ++ [(Leaf x, v)])) as (rows' & E & W & Lf & Pm); try assumption; try lia.
        { simpl in Hf; lia. }
        { apply wf_entries_app. split; [exact Hrows|]. apply wf_entries_cons; split; [simpl; auto|apply wf_entries_nil]. }
        { apply Forall_app; split; [exact Hleaf|]. constructor; [exact I|constructor]. }
        exists rows'. split; [exact E|split; [exact W|split; [exact Lf|]]].
        etransitivity; [exact Pm|]. rewrite map_app. simpl. rewrite <- app_assoc. reflexivity.
Qed.

(** first-column addition as a pure function *)
Definition add_first (v : list Z) : list Z :=
  match v with [] => [] | x :: t => x :: map (fun y => (y + x)%Z) t end.

Lemma i32_add_small P a b :
  (-1 <= a <= 1)%Z -> (-1 <= b <= 1)%Z -> i32_add P a b = Ok (a + b)%Z.
Proof.
  intros Ha Hb. unfold i32_add.
  assert (H : ((i32_min <=? a + b) && (a + b <=? i32_max))%Z = true).
  { unfold i32_min, i32_max. apply andb_true_iff. split; apply Z.leb_le; lia. }
  rewrite H. reflexivity.
Qed.

Lemma add_first_column_small P v :
  (forall x, In x v -> (-1 <= x <= 1)%Z) -> add_first_column P v = Ok (add_first v).
Proof.
  destruct v as [|x t]; simpl; intros H; [reflexivity|].
  rewrite (mapM_ok_map _ (fun y => (y + x)%Z)); [reflexivity|].
  intros y Hy. apply i32_add_small; apply H; auto.
Qed.

Lemma resize_small n v :
  (forall x, In x v -> (-1 <= x <= 1)%Z) -> forall x, In x (resize v n 0%Z) -> (-1 <= x <= 1)%Z.
Proof.
  intros H x Hx. unfold resize in Hx. apply in_app_or in Hx as [Hx|Hx].
  - apply H. rewrite <- (firstn_skipn n v). apply in_or_app; left; exact Hx.
  - apply repeat_spec in Hx; lia.
Qed.

Lemma assoc_get_none m a : assoc_get m a = None <-> ~ In a (map fst m).
Proof.
  induction m as [|[b r] t IH]; simpl; [tauto|].
  destruct (N.eqb_spec b a) as [->|Hne].
  - split; [discriminate|intros H; exfalso; apply H; left; reflexivity].
  - rewrite IH. split; [intros H [H'|H']; [congruence|exact (H H')]|intros H H'; apply H; right; exact H'].
Qed.

Lemma assoc_get_some_in m a r : assoc_get m a = Some r -> In (a, r) m.
Proof.
  induction m as [|[b r'] t IH]; simpl; [discriminate|].
  destruct (N.eqb_spec b a) as [->|Hne]; intros H; [left; congruence|right; auto].
Qed.

Lemma assoc_get_combine_some l start a r :
  assoc_get (combine l (seq start (length l))) a = Some r -> start <= r /\ nth_error l (r - start) = Some a.
Proof.
  revert start; induction l as [|x t IH]; simpl; intros start H; [discriminate|].
  destruct (N.eqb_spec x a) as [->|Hne].
  - injection H as <-. split; [lia|]. rewrite Nat.sub_diag. reflexivity.
  - apply IH in H as [H1 H2]. split; [lia|].
    replace (r - start) with (S (r - S start)) by lia. exact H2.
Qed.

Lemma assoc_get_combine_none l start a :
  assoc_get (combine l (seq start (length l))) a = None <-> ~ In a l.
Proof.
  rewrite assoc_get_none.
  assert (E : map fst (combine l (seq start (length l))) = l).
  { revert start; induction l as [|x t IH]; simpl; intros start; [reflexivity|]. f_equal; apply IH. }
  rewrite E. tauto.
Qed.

Lemma assoc_get_combine_nodup l start i a :
  NoDup l -> nth_error l i = Some a ->
  assoc_get (combine l (seq start (length l))) a = Some (start + i).
Proof.
  revert start i; induction l as [|x t IH]; intros start i Hnd Hi; [destruct i; discriminate|].
  inversion Hnd as [|? ? Hx Hnd']; subst. simpl.
  destruct i as [|i]; simpl in Hi.
  - injection Hi as ->. rewrite N.eqb_refl. f_equal; lia.
  - destruct (N.eqb_spec x a) as [->|Hne].
    + exfalso; apply Hx. eapply nth_error_In; eauto.
    + rewrite (IH (S start) i) by assumption. f_equal; lia.
Qed.

Lemma combine_app_seq {A} (l1 l2 : list A) start :
  combine l1 (seq start (length l1)) ++ combine l2 (seq (start + length l1) (length l2))
  = combine (l1 ++ l2) (seq start (length (l1 ++ l2))).
Proof.
  revert start; induction l1 as [|x t IH]; simpl; intros start.
  - rewrite Nat.add_0_r. reflexivity.
  - f_equal. rewrite <- IH. do 3 f_equal; lia.
Qed.

(** the second loop *)
Lemma to_msp_rows_ok P n rows : forall mat acc,
  wf_entries n rows -> Forall (fun r => is_leaf (fst r)) rows ->
  NoDup (acc ++ map (fun r => leaf_of (fst r)) rows) ->
  to_msp_rows P n (length acc) rows mat (combine acc (seq 0 (length acc))) acc =
  Ok (mat ++ map (fun r => add_first (resize (snd r) n 0%Z)) rows,
      combine (acc ++ map (fun r => leaf_of (fst r)) rows)
              (seq 0 (length (acc ++ map (fun r => leaf_of (fst r)) rows))),
      acc ++ map (fun r => leaf_of (fst r)) rows).
Proof.
  induction rows as [|[nd v] rows IH]; intros mat acc Hw Hl Hnd.
  - simpl. rewrite !app_nil_r. reflexivity.
  - inversion Hl as [|? ? Hlf Hl']; subst.
    apply wf_entries_cons in Hw as [[Hv Hsv] Hw]. simpl in Hv, Hsv, Hlf.
    destruct nd as [| |x]; try contradiction. simpl to_msp_rows.
    rewrite add_first_column_small by (apply resize_small; apply Hsv). simpl bind.
    assert (Hx : ~ In x acc).
    { apply NoDup_remove in Hnd as [_ Hnd]. intros H; apply Hnd; apply in_or_app; left; exact H. }
    apply (assoc_get_combine_none acc 0) in Hx. rewrite Hx.
    specialize (IH (mat ++ [add_first (resize v n 0%Z)]) (acc ++ [x]) Hw Hl').
    rewrite app_length in IH. simpl length in IH.
    replace (length acc + 1) with (S (length acc)) in IH by lia.
    assert (Ec : combine (acc ++ [x]) (seq 0 (S (length acc))) =
                 combine acc (seq 0 (length acc)) ++ [(x, length acc)]).
    { pose proof (combine_app_seq acc [x] 0) as H. rewrite app_length in H; simpl in H.
      rewrite Nat.add_1_r in H. simpl. exact (eq_sym H). }
    rewrite Ec in IH. simpl map in Hnd.
    rewrite IH by (rewrite <- app_assoc; exact Hnd).
    simpl map. rewrite <- !app_assoc. reflexivity.
Qed.

Lemma to_msp_rows_dup P n rows : forall mat acc,
  wf_entries n rows -> Forall (fun r => is_leaf (fst r)) rows ->
  NoDup acc -> ~ NoDup (acc ++ map (fun r => leaf_of (fst r)) rows) ->
  to_msp_rows P n (length acc) rows mat (combine acc (seq 0 (length acc))) acc =
  Err (Deserialization "error deserializing MSP, leaf already inserted").
Proof.
  induction rows as [|[nd v] rows IH]; intros mat acc Hw Hl Hacc Hnd.
  - simpl in Hnd. rewrite app_nil_r in Hnd. contradiction.
  - inversion Hl as [|? ? Hlf Hl']; subst.
    apply wf_entries_cons in Hw as [[Hv Hsv] Hw]. simpl in Hv, Hsv, Hlf.
    destruct nd as [| |x]; try contradiction. simpl to_msp_rows.
    rewrite add_first_column_small by (apply resize_small; apply Hsv). simpl bind.
    destruct (assoc_get (combine acc (seq 0 (length acc))) x) eqn:E; [reflexivity|].
    apply assoc_get_combine_none in E.
    specialize (IH (mat ++ [add_first (resize v n 0%Z)]) (acc ++ [x]) Hw Hl').
    rewrite app_length in IH. simpl length in IH.
    replace (length acc + 1) with (S (length acc)) in IH by lia.
    assert (Ec : combine (acc ++ [x]) (seq 0 (S (length acc))) =
                 combine acc (seq 0 (length acc)) ++ [(x, length acc)]).
    { pose proof (combine_app_seq acc [x] 0) as H. rewrite app_length in H; simpl in H.
      rewrite Nat.add_1_r in H. simpl. exact (eq_sym H). }
    rewrite Ec in IH. apply IH.
    + apply NoDup_Add with (a := x) (l := acc); [|split; assumption].
      rewrite <- (app_nil_r acc) at 1. apply Add_app.
    + rewrite <- app_assoc. exact Hnd.
Qed.

Lemma NoDup_N_dec (l : list N) : NoDup l \/ ~ NoDup l.
Proof. destruct (ListDec.NoDup_dec N.eq_dec l); auto. Qed.

(** Shape of the result of [to_msp] *)
Definition rows_of (f : node) (n : nat) (rows : list (node * list Z)) : Prop :=
  to_msp_loop (node_size f) [(f, [1%Z])] 1 [] = Ok (n, rows) /\ n = S (count_and f) /\
  wf_entries n rows /\ Forall (fun r => is_leaf (fst r)) rows /\
  Permutation (map (fun r => leaf_of (fst r)) rows) (leaves f).

Lemma wf_start f : wf_entries 1 [(f, [1%Z])].
Proof.
  apply wf_entries_cons; split; [simpl; split; [lia|]|apply wf_entries_nil].
  repeat split; try discriminate; try (intros; simpl in *; intuition lia); simpl; lia.
Qed.

Lemma rows_of_exists f : exists rows, rows_of f (S (count_and f)) rows.
Proof.
  destruct (to_msp_loop_struct (node_size f) [(f, [1%Z])] 1 []) as (rows & E & W & Lf & Pm).
  - simpl; lia.
  - lia.
  - apply wf_start.
  - apply wf_entries_nil.
  - constructor.
  - simpl in E, W, Pm. rewrite Nat.add_0_r in E, W. rewrite app_nil_r in Pm.
    exists rows. split; [exact E|split; [reflexivity|split; [exact W|split; [exact Lf|exact Pm]]]].
Qed.

Lemma to_msp_ok P f :
  NoDup (leaves f) ->
  exists rows, rows_of f (S (count_and f)) rows /\
    to_msp P f = Ok (mkMsp (length rows) (S (count_and f))
      (map (fun r => add_first (resize (snd r) (S (count_and f)) 0%Z)) rows)
      (combine (map (fun r => leaf_of (fst r)) rows) (seq 0 (length rows)))
      (map (fun r => leaf_of (fst r)) rows)).
Proof.
  intros Hnd. destruct (rows_of_exists f) as [rows Hr]. exists rows. split; [exact Hr|].
  destruct Hr as (E & _ & W & Lf & Pm). unfold to_msp. rewrite E. simpl bind.
  rewrite (to_msp_rows_ok P _ rows [] []).
  - simpl. rewrite !map_length. reflexivity.
  - exact W.
  - exact Lf.
  - simpl. eapply Permutation_NoDup; [symmetry; exact Pm|exact Hnd].
Qed.

Lemma to_msp_dup P f :
  ~ NoDup (leaves f) ->
  to_msp P f = Err (Deserialization "error deserializing MSP, leaf already inserted").
Proof.
  intros Hnd. destruct (rows_of_exists f) as [rows (E & _ & W & Lf & Pm)].
  unfold to_msp. rewrite E. simpl bind.
  rewrite (to_msp_rows_dup P _ rows [] []).
  - reflexivity.
  - exact W.
  - exact Lf.
  - constructor.
  - simpl. intros H. apply Hnd. eapply Permutation_NoDup; [exact Pm|exact H].
Qed.

(** ------------------------------------------------------------------ *)
(** Semantics over a field *)
Section Semantics.
Variable K : FieldOps.
Variable KL : FieldLaws K.

Declare Scope fld.
Local Notation "0" := (@f0 K) : fld.
Local Notation "1" := (@f1 K) : fld.
Local Infix "+" := (@fadd K) : fld.
Local Infix "*" := (@fmul K) : fld.
Local Infix "-" := (@fsub K) : fld.
Local Notation "- x" := (@fneg K x) : fld.
Local Open Scope fld.
Add Field KF2 : (fl_field K KL).

(** dot product of an integer vector *)
Definition dotZ (v : list Z) (w : nat -> K) : K := dot (map of_Z v) w.

Lemma dotZ_1 w : dotZ [1%Z] w = w 0%nat.
Proof. unfold dotZ; simpl. ring. Qed.

Lemma dotZ_zeros n w : dotZ (repeat 0%Z n) w = 0.
Proof.
  unfold dotZ. apply dot_zero_l; [exact KL|]. intros x Hx. apply in_map_iff in Hx as (z & <- & Hz).
  apply repeat_spec in Hz. subst. reflexivity.
Qed.

Lemma dotZ_app v1 v2 w : dotZ (v1 ++ v2) w = dotZ v1 w + dotZ v2 (fun i => w (length v1 + i)%nat).
Proof. unfold dotZ. rewrite map_app, dot_app by exact KL. rewrite map_length. reflexivity. Qed.

Lemma dotZ_vec1 v n w : (length v <= n)%nat -> dotZ (resize v n 0%Z ++ [1%Z]) w = dotZ v w + w n.
Proof.
  intros H. rewrite resize_le by exact H. rewrite !dotZ_app, dotZ_zeros.
  rewrite app_length, repeat_length. unfold dotZ at 2; simpl.
  replace (length v + (n - length v) + 0)%nat with n by lia. ring.
Qed.

Lemma dotZ_vec2 n w : dotZ (repeat 0%Z n ++ [(-1)%Z]) w = - w n.
Proof.
  rewrite dotZ_app, dotZ_zeros, repeat_length. unfold dotZ; simpl.
  rewrite Nat.add_0_r. ring.
Qed.

Lemma dotZ_resize v n w : (length v <= n)%nat -> dotZ (resize v n 0%Z) w = dotZ v w.
Proof. intros H. rewrite resize_le by exact H. rewrite dotZ_app, dotZ_zeros. ring. Qed.

Lemma dotZ_upd v w k x : (length v <= k)%nat -> dotZ v (upd w k x) = dotZ v w.
Proof. intros H. unfold dotZ. apply dot_upd_short. rewrite map_length; exact H. Qed.

(** Consistent weightings of a formula *)
Fixpoint wt (al : N -> K) (f : node) (c : K) : Prop :=
  match f with
  | Leaf v => al v = c
  | Or a b => exists c1 c2, wt al a c1 /\ wt al b c2 /\ c = c1 + c2
  | And a b => wt al a c /\ wt al b c
  end.

Lemma wt_fun al f c1 c2 : wt al f c1 -> wt al f c2 -> c1 = c2.
Proof.
  revert c1 c2; induction f as [a IHa b IHb|a IHa b IHb|v]; simpl; intros c1 c2 H1 H2.
  - destruct H1, H2; eauto.
  - destruct H1 as (x1 & y1 & A1 & B1 & ->), H2 as (x2 & y2 & A2 & B2 & ->).
    rewrite (IHa _ _ A1 A2), (IHb _ _ B1 B2). reflexivity.
  - congruence.
Qed.

Lemma wt_ext al be f c : (forall v, In v (leaves f) -> al v = be v) -> wt al f c -> wt be f c.
Proof.
  revert c; induction f as [a IHa b IHb|a IHa b IHb|v]; simpl; intros c H Hw.
  - destruct Hw as [H1 H2]. split; [apply IHa|apply IHb]; try assumption;
      intros v Hv; apply H; apply in_or_app; auto.
  - destruct Hw as (c1 & c2 & H1 & H2 & E). exists c1, c2.
    split; [apply IHa|split; [apply IHb|exact E]]; try assumption;
      intros v Hv; apply H; apply in_or_app; auto.
  - rewrite <- H by auto. exact Hw.
Qed.

Lemma wt_zero f : wt (fun _ => 0) f 0.
Proof.
  induction f as [a IHa b IHb|a IHa b IHb|v]; simpl; auto.
  exists 0, 0. split; [exact IHa|split; [exact IHb|ring]].
Qed.

Lemma wt_zero_on al f : (forall v, In v (leaves f) -> al v = 0) -> wt al f 0.
Proof. intros H. apply wt_ext with (al := fun _ => 0); [intros v Hv; symmetry; auto|apply wt_zero]. Qed.

(** combination of weighted entries *)
Definition comb_q (wq : list (node * list Z * K)) (w : nat -> K) : K :=
  suml (fun e => snd e * dotZ (snd (fst e)) w) wq.
Definition comb_r (al : N -> K) (rows : list (node * list Z)) (w : nat -> K) : K :=
  suml (fun r => al (leaf_of (fst r)) * dotZ (snd r) w) rows.

Definition consistent (al : N -> K) (c : K) (q rows : list (node * list Z)) : Prop :=
  exists wq, map fst wq = q /\ Forall (fun e => wt al (fst (fst e)) (snd e)) wq /\
    forall w, comb_q wq w + comb_r al rows w = c * w 0%nat.

Lemma comb_q_upd wq w k x :
  (forall e, In e wq -> (length (snd (fst e)) <= k)%nat) -> comb_q wq (upd w k x) = comb_q wq w.
Proof.
  intros H. unfold comb_q. apply suml_ext. intros e He. rewrite dotZ_upd by (apply H; exact He). reflexivity.
Qed.

Lemma comb_r_upd al rows w k x :
  (forall r, In r rows -> (length (snd r) <= k)%nat) -> comb_r al rows (upd w k x) = comb_r al rows w.
Proof.
  intros H. unfold comb_r. apply suml_ext. intros e He. rewrite dotZ_upd by (apply H; exact He). reflexivity.
Qed.

Lemma map_fst_app_inv {A B} (l : list (A * B)) l1 l2 :
  map fst l = l1 ++ l2 -> exists k1 k2, l = k1 ++ k2 /\ map fst k1 = l1 /\ map fst k2 = l2.
Proof.
  revert l; induction l1 as [|x t IH]; intros l H.
  - exists [], l. auto.
  - destruct l as [|[a b] l]; [discriminate|]. simpl in H. injection H as -> H.
    destruct (IH l H) as (k1 & k2 & -> & H1 & H2). exists ((x, b) :: k1), k2.
    simpl; rewrite H1; auto.
Qed.

Lemma consistent_and al c q rows a b v n :
  (1 <= n)%nat -> wf_entries n q -> wf_entries n rows -> (length v <= n)%nat ->
  consistent al c ((And a b, v) :: q) rows <->
  consistent al c (q ++ [(a, resize v n 0%Z ++ [1%Z])] ++ [(b, repeat 0%Z n ++ [(-1)%Z])]) rows.
Proof.
  intros Hn Hq Hr Hv. split.
  - intros (wq & E & F & H). destruct wq as [|[e x] wq]; [discriminate|].
    simpl in E. injection E as -> E. inversion F as [|? ? Hw F']; subst. simpl in Hw.
    destruct Hw as [Ha Hb].
    exists (wq ++ [((a, resize v n 0%Z ++ [1%Z]), x)] ++ [((b, repeat 0%Z n ++ [(-1)%Z]), x)]).
    split; [rewrite !map_app; reflexivity|]. split.
    { apply Forall_app; split; [exact F'|]. repeat constructor; assumption. }
    intros w. rewrite <- (H w). unfold comb_q. rewrite !suml_app by exact KL. simpl.
    rewrite dotZ_vec1 by exact Hv. rewrite dotZ_vec2. ring.
  - intros (wq & E & F & H). apply map_fst_app_inv in E as (wq1 & wq2 & -> & E1 & E2).
    destruct wq2 as [|[e1 x] [|[e2 y] [|]]]; try discriminate. simpl in E2.
    injection E2 as -> ->. apply Forall_app in F as [F1 F2].
    inversion F2 as [|? ? Hx F3]; subst. inversion F3 as [|? ? Hy _]; subst. simpl in Hx, Hy.
    assert (Hgen : forall w, comb_q wq1 w + (x * (dotZ v w + w n) - y * w n) + comb_r al rows w
                       = c * w 0%nat).
    { intros w. rewrite <- (H w). unfold comb_q. rewrite suml_app by exact KL. simpl.
      rewrite dotZ_vec1 by exact Hv. rewrite dotZ_vec2. ring. }
    assert (Exy : x = y).
    { pose proof (Hgen (upd (fun _ => 0) n 1)) as H1. pose proof (Hgen (fun _ => 0)) as H0.
      rewrite comb_q_upd in H1.
      2:{ intros e He. destruct (Hq (fst e)) as [Hl _]; [apply in_map; exact He|exact Hl]. }
      rewrite comb_r_upd in H1 by (intros r Hin; apply (Hr r Hin)).
      rewrite dotZ_upd in H1 by exact Hv. rewrite upd_same in H1.
      rewrite upd_other in H1 by lia.
      apply (fsub_zero K KL).
      transitivity ((comb_q wq1 (fun _ => 0) + (x * (dotZ v (fun _ => 0) + 1) - y * 1) + comb_r al rows (fun _ => 0))
       - (comb_q wq1 (fun _ => 0) + (x * (dotZ v (fun _ => 0) + 0) - y * 0) + comb_r al rows (fun _ => 0))); [ring|].
      rewrite H0, H1. ring. }
    subst y. exists (((And a b, v), x) :: wq1). split; [reflexivity|].
    split; [constructor; [split; assumption|exact F1]|].
    intros w. rewrite <- (Hgen w). unfold comb_q; simpl. ring.
Qed.

Lemma consistent_or al c q rows a b v :
  consistent al c ((Or a b, v) :: q) rows <-> consistent al c (q ++ [(a, v)] ++ [(b, v)]) rows.
Proof.
  split.
  - intros (wq & E & F & H). destruct wq as [|[e x] wq]; [discriminate|].
    simpl in E. injection E as -> E. inversion F as [|? ? Hw F']; subst. simpl in Hw.
    destruct Hw as (c1 & c2 & Ha & Hb & ->).
    exists (wq ++ [((a, v), c1)] ++ [((b, v), c2)]).
    split; [rewrite !map_app; reflexivity|]. split.
    { apply Forall_app; split; [exact F'|]. repeat constructor; assumption. }
    intros w. rewrite <- (H w). unfold comb_q. rewrite !suml_app by exact KL. simpl. ring.
  - intros (wq & E & F & H). apply map_fst_app_inv in E as (wq1 & wq2 & -> & E1 & E2).
    destruct wq2 as [|[e1 x] [|[e2 y] [|]]]; try discriminate. simpl in E2.
    injection E2 as -> ->. apply Forall_app in F as [F1 F2].
    inversion F2 as [|? ? Hx F3]; subst. inversion F3 as [|? ? Hy _]; subst. simpl in Hx, Hy.
    exists (((Or a b, v), x + y) :: wq1). split; [reflexivity|].
    split; [constructor; [simpl; eauto|exact F1]|].
    intros w. rewrite <- (H w). unfold comb_q. rewrite suml_app by exact KL. simpl. ring.
Qed.

Lemma consistent_leaf al c q rows x v :
  consistent al c ((Leaf x, v) :: q) rows <-> consistent al c q (rows ++ [(Leaf x, v)]).
Proof.
  split.
  - intros (wq & E & F & H). destruct wq as [|[e y] wq]; [discriminate|].
    simpl in E. injection E as -> E. inversion F as [|? ? Hw F']; subst. simpl in Hw. subst y.
    exists wq. split; [reflexivity|]. split; [exact F'|].
    intros w. rewrite <- (H w). unfold comb_q, comb_r. rewrite suml_app by exact KL. simpl. ring.
  - intros (wq & E & F & H). exists (((Leaf x, v), al x) :: wq).
    split; [simpl; rewrite E; reflexivity|]. split; [constructor; [reflexivity|exact F]|].
    intros w. rewrite <- (H w). unfold comb_q, comb_r. rewrite suml_app by exact KL. simpl. ring.
Qed.

Lemma loop_consistent al c fuel : forall q n rows n' rows',
  (1 <= n)%nat -> wf_entries n q -> wf_entries n rows ->
  to_msp_loop fuel q n rows = Ok (n', rows') ->
  (consistent al c q rows <-> consistent al c [] rows').
Proof.
  induction fuel as [|fuel IH]; intros q n rows n' rows' Hn Hq Hr H.
  - destruct q as [|[nd v] q]; simpl in H; [|discriminate].
    injection H as <- <-. tauto.
  - destruct q as [|[nd v] q]; simpl in H; [injection H as <- <-; tauto|].
    apply wf_entries_cons in Hq as [[Hv Hsv] Hq]. simpl in Hv, Hsv.
    destruct nd as [a b|a b|x].
    + rewrite (consistent_and al c q rows a b v n) by assumption.
      apply (IH _ (S n) _ _ _ (le_n_S 0 n (Nat.le_0_l n))) in H; [exact H| |apply (wf_entries_mono n); [lia|exact Hr]].
      apply wf_entries_app. split; [apply (wf_entries_mono n); [lia|exact Hq]|].
      apply wf_entries_cons; split; [|apply wf_entries_cons; split; [|apply wf_entries_nil]]; simpl.
      * split; [rewrite app_length, resize_length; simpl; lia|apply small_vec_1; assumption].
      * split; [rewrite app_length, repeat_length; simpl; lia|apply small_vec_2; assumption].
    + rewrite consistent_or. apply (IH _ _ _ _ _ Hn) in H; [exact H| |exact Hr].
      apply wf_entries_app. split; [exact Hq|].
      apply wf_entries_cons; split; [|apply wf_entries_cons; split; [|apply wf_entries_nil]]; simpl; auto.
    + rewrite consistent_leaf. apply (IH _ _ _ _ _ Hn Hq) in H; [exact H|].
      apply wf_entries_app. split; [exact Hr|]. apply wf_entries_cons; split; [simpl; auto|apply wf_entries_nil].
Qed.

Lemma rows_weights f n rows al c :
  rows_of f n rows ->
  ((forall w, comb_r al rows w = c * w 0%nat) <-> wt al f c).
Proof.
  intros (E & En & W & Lf & Pm).
  assert (H := loop_consistent al c _ _ _ _ _ _ (le_n 1) (wf_start f) (wf_entries_nil 1) E).
  split.
  - intros Hc. assert (C : consistent al c [] rows).
    { exists []. split; [reflexivity|]. split; [constructor|]. intros w. rewrite <- (Hc w).
      unfold comb_q; simpl. ring. }
    apply H in C as (wq & Eq & F & Hw).
    destruct wq as [|[e x] [|]]; try discriminate. simpl in Eq. injection Eq as ->.
    inversion F as [|? ? Hx _]; subst. simpl in Hx.
    specialize (Hw (fun _ => 1)). unfold comb_q, comb_r in Hw. simpl in Hw. rewrite dotZ_1 in Hw.
    assert (Exc : x = c). { transitivity (x * 1 + 0 + 0); [ring|]. rewrite Hw. ring. }
    subst x. exact Hx.
  - intros Hw.
    assert (C : consistent al c [(f, [1%Z])] []).
    { exists [((f, [1%Z]), c)]. split; [reflexivity|]. split; [constructor; [exact Hw|constructor]|].
      intros w. unfold comb_q, comb_r; simpl. rewrite dotZ_1. ring. }
    apply H in C as (wq & Eq & F & Hc). destruct wq; [|discriminate].
    intros w. rewrite <- (Hc w). unfold comb_q; simpl. ring.
Qed.

(** An orthogonal vector for sets that do not satisfy the formula *)
Variable S_ : N -> Prop.
Hypothesis S_dec : forall a, S_ a \/ ~ S_ a.

Lemma holds_dec f : holds S_ f \/ ~ holds S_ f.
Proof. induction f as [a IHa b IHb|a IHa b IHb|v]; simpl; [tauto|tauto|apply S_dec]. Qed.

Definition separated (q rows : list (node * list Z)) : Prop :=
  exists w, w 0%nat = 1 /\ (forall e, In e q -> holds S_ (fst e) -> dotZ (snd e) w = 0) /\
    (forall r, In r rows -> S_ (leaf_of (fst r)) -> dotZ (snd r) w = 0).

Lemma loop_separated fuel : forall q n rows n' rows',
  (1 <= n)%nat -> wf_entries n q -> wf_entries n rows ->
  to_msp_loop fuel q n rows = Ok (n', rows') ->
  separated q rows -> separated [] rows'.
Proof.
  induction fuel as [|fuel IH]; intros q n rows n' rows' Hn Hq Hr H Hs.
  - destruct q as [|[nd v] q]; simpl in H; [|discriminate].
    injection H as <- <-. exact Hs.
  - destruct q as [|[nd v] q]; simpl in H; [injection H as <- <-; exact Hs|].
    apply wf_entries_cons in Hq as [[Hv Hsv] Hq]. simpl in Hv, Hsv.
    destruct Hs as (w & Hw0 & Hwq & Hwr).
    destruct nd as [a b|a b|x].
    + apply (IH _ (S n) _ _ _ (le_n_S 0 n (Nat.le_0_l n))) in H; [exact H| |apply (wf_entries_mono n); [lia|exact Hr]|].
      { apply wf_entries_app. split; [apply (wf_entries_mono n); [lia|exact Hq]|].
        apply wf_entries_cons; split; [|apply wf_entries_cons; split; [|apply wf_entries_nil]]; simpl.
        - split; [rewrite app_length, resize_length; simpl; lia|apply small_vec_1; assumption].
        - split; [rewrite app_length, repeat_length; simpl; lia|apply small_vec_2; assumption]. }
      assert (Hx : exists x, (holds S_ a -> dotZ v w + x = 0) /\ (holds S_ b -> - x = 0)).
      { destruct (holds_dec b) as [Hb|Hb].
        - exists 0. split; [|intros _; ring]. intros Ha.
          assert (E0 : dotZ v w = 0) by (apply (Hwq (And a b, v)); simpl; auto). rewrite E0. ring.
        - exists (- dotZ v w). split; [intros _; ring|contradiction]. }
      destruct Hx as (x & Hxa & Hxb).
      exists (upd w n x). split; [rewrite upd_other by lia; exact Hw0|]. split.
      * intros e He Hh. apply in_app_or in He as [He|[<-|[<-|[]]]]; simpl in *.
        -- rewrite dotZ_upd by (apply (Hq e He)). apply Hwq; auto.
        -- rewrite dotZ_vec1 by exact Hv. rewrite dotZ_upd by exact Hv. rewrite upd_same. apply Hxa, Hh.
        -- rewrite dotZ_vec2, upd_same. apply Hxb, Hh.
      * intros r Hin Hsr. rewrite dotZ_upd by (apply (Hr r Hin)). apply Hwr; assumption.
    + apply (IH _ _ _ _ _ Hn) in H; [exact H| |exact Hr|].
      { apply wf_entries_app. split; [exact Hq|].
        apply wf_entries_cons; split; [|apply wf_entries_cons; split; [|apply wf_entries_nil]]; simpl; auto. }
      exists w. split; [exact Hw0|]. split; [|exact Hwr].
      intros e He Hh. apply in_app_or in He as [He|[<-|[<-|[]]]]; simpl in *.
      * apply Hwq; auto.
      * apply (Hwq (Or a b, v)); simpl; auto.
      * apply (Hwq (Or a b, v)); simpl; auto.
    + apply (IH _ _ _ _ _ Hn Hq) in H; [exact H| |].
      { apply wf_entries_app. split; [exact Hr|]. apply wf_entries_cons; split; [simpl; auto|apply wf_entries_nil]. }
      exists w. split; [exact Hw0|]. split.
      * intros e He Hh. apply Hwq; simpl; auto.
      * intros r Hin Hsr. apply in_app_or in Hin as [Hin|[<-|[]]]; [apply Hwr; assumption|].
        apply (Hwq (Leaf x, v)); simpl; auto.
Qed.

Lemma rows_separated f n rows :
  rows_of f n rows -> ~ holds S_ f ->
  exists w, w 0%nat = 1 /\ forall r, In r rows -> S_ (leaf_of (fst r)) -> dotZ (snd r) w = 0.
Proof.
  intros (E & En & W & Lf & Pm) Hn.
  destruct (loop_separated _ _ _ _ _ _ (le_n 1) (wf_start f) (wf_entries_nil 1) E) as (w & H0 & _ & H).
  - exists (fun _ => 1). split; [reflexivity|]. split; [|intros r []].
    intros e [<-|[]] Hh. contradiction.
  - exists w. auto.
Qed.

End Semantics.

(** ------------------------------------------------------------------ *)
(** The finished program *)
Section Finished.
Variable K : FieldOps.
Variable KL : FieldLaws K.

Declare Scope fld.
Local Notation "0" := (@f0 K) : fld.
Local Notation "1" := (@f1 K) : fld.
Local Infix "+" := (@fadd K) : fld.
Local Infix "*" := (@fmul K) : fld.
Local Infix "-" := (@fsub K) : fld.
Local Notation "- x" := (@fneg K x) : fld.
Local Open Scope fld.
Add Field KF3 : (fl_field K KL).

Definition labelled {I} (m : msp I) : list (N * list I) := combine (row_to_attr m) (matrix m).

(** change of coordinates undoing the addition of the first column *)
Definition to_w (n : nat) (u : nat -> K) : nat -> K :=
  fun i => match i with O => suml u (seq 0 n) | _ => u i end.
Definition to_u (n : nat) (w : nat -> K) : nat -> K :=
  fun i => match i with O => w O - suml w (seq 1 (n - 1)) | _ => w i end.

Lemma to_w_u n w i : (1 <= n)%nat -> to_w n (to_u n w) i = w i.
Proof.
  intros Hn. destruct i as [|i]; [|reflexivity]. unfold to_w.
  destruct n as [|n]; [lia|]. simpl seq. rewrite suml_cons. simpl to_u at 1.
  rewrite Nat.sub_0_r.
  rewrite (suml_ext K (to_u (S n) w) w (seq 1 n)).
  - ring.
  - intros j Hj. apply in_seq in Hj. destruct j; [lia|reflexivity].
Qed.

Lemma suml_to_u n w : (1 <= n)%nat -> suml (to_u n w) (seq 0 n) = w O.
Proof. intros Hn. exact (to_w_u n w 0%nat Hn). Qed.

Lemma dotZ_map_add x t u :
  dotZ K (map (fun y => (y + x)%Z) t) u = dotZ K t u + of_Z x * suml u (seq 0 (length t)).
Proof.
  revert u; induction t as [|y t IH]; simpl; intros u; [unfold dotZ; simpl; ring|].
  unfold dotZ in *; simpl. rewrite (IH (fun i => u (S i))).
  rewrite of_Z_add by exact KL. rewrite <- seq_shift, suml_map. ring.
Qed.

Lemma dotZ_add_first v u n : length v = n -> (1 <= n)%nat -> dotZ K (add_first v) u = dotZ K v (to_w n u).
Proof.
  intros Hl Hn. destruct v as [|x t]; [simpl in Hl; lia|]. simpl add_first.
  assert (E : dotZ K (x :: map (fun y => (y + x)%Z) t) u
     = of_Z x * u O + dotZ K (map (fun y => (y + x)%Z) t) (fun i => u (S i))) by reflexivity.
  rewrite E, dotZ_map_add. unfold dotZ at 2. simpl.
  assert (E2 : dot (map of_Z t) (fun i => u (S i)) = dotZ K t (fun i => u (S i))) by reflexivity.
  rewrite E2. simpl in Hl. subst n. simpl seq. rewrite suml_cons. rewrite <- seq_shift, suml_map.
  ring.
Qed.

Lemma add_first_length v : length (add_first v) = length v.
Proof. destruct v; simpl; [reflexivity|rewrite map_length; reflexivity]. Qed.

Lemma combine_map_map {A B C} (f : A -> B) (g : A -> C) l :
  combine (map f l) (map g l) = map (fun x => (f x, g x)) l.
Proof. induction l as [|x t IH]; simpl; [reflexivity|rewrite IH; reflexivity]. Qed.

(** What is known about the program of a formula with distinct attributes. *)
Record msp_of (f : node) (m : msp Z) : Prop := {
  mo_nodup : NoDup (leaves f);
  mo_perm : Permutation (row_to_attr m) (leaves f);
  mo_rows : nb_row m = length (row_to_attr m);
  mo_cols : nb_col m = S (count_and f);
  mo_mat : length (matrix m) = length (row_to_attr m);
  mo_width : forall r, In r (matrix m) -> length r = nb_col m;
  mo_entries : forall r x, In r (matrix m) -> In x r -> (-1 <= x <= 2)%Z;
  mo_map : attr_to_row m = combine (row_to_attr m) (seq 0 (length (row_to_attr m)));
  mo_wt : forall al c,
    (forall u, suml (fun p => al (fst p) * dotZ K (snd p) u) (labelled m) = c * suml u (seq 0 (nb_col m)))
    <-> wt K al f c;
  mo_sep : forall S_ : N -> Prop, (forall a, S_ a \/ ~ S_ a) -> ~ holds S_ f ->
    exists u, suml u (seq 0 (nb_col m)) = 1 /\
      forall p, In p (labelled m) -> S_ (fst p) -> dotZ K (snd p) u = 0
}.

Theorem to_msp_msp_of P f m : to_msp P f = Ok m -> msp_of f m.
Proof.
  intros H. destruct (NoDup_N_dec (leaves f)) as [Hnd|Hnd].
  2:{ rewrite to_msp_dup in H by exact Hnd. discriminate. }
  destruct (to_msp_ok P f Hnd) as (rows & Hr & E). rewrite E in H. injection H as <-.
  pose proof Hr as (_ & _ & W & Lf & Pm). remember (S (count_and f)) as n eqn:En.
  assert (Hn : (1 <= n)%nat) by lia.
  assert (Hlab : labelled (mkMsp (length rows) n (map (fun r => add_first (resize (snd r) n 0%Z)) rows)
      (combine (map (fun r => leaf_of (fst r)) rows) (seq 0 (length rows)))
      (map (fun r => leaf_of (fst r)) rows))
      = map (fun r => (leaf_of (fst r), add_first (resize (snd r) n 0%Z))) rows).
  { unfold labelled; simpl. apply combine_map_map. }
  assert (Hdot : forall r u, In r rows -> dotZ K (add_first (resize (snd r) n 0%Z)) u = dotZ K (snd r) (to_w n u)).
  { intros r u Hin. destruct (W r Hin) as [Hlen _].
    rewrite (dotZ_add_first _ _ n) by (rewrite ?resize_length; auto).
    apply dotZ_resize; assumption. }
  constructor; simpl.
  - exact Hnd.
  - exact Pm.
  - rewrite map_length; reflexivity.
  - exact En.
  - rewrite !map_length; reflexivity.
  - intros r Hin. apply in_map_iff in Hin as (e & <- & He).
    rewrite add_first_length, resize_length. reflexivity.
  - intros r x Hin Hx. apply in_map_iff in Hin as (e & <- & He).
    destruct (W e He) as [Hlen (Hne & Hs & H0)].
    rewrite resize_le in Hx by exact Hlen.
    destruct (snd e) as [|y t]; [contradiction|]. simpl in Hx. destruct Hx as [<-|Hx].
    + simpl in H0. lia.
    + apply in_map_iff in Hx as (z & <- & Hz). simpl in H0.
      assert (-1 <= z <= 1)%Z; [|lia].
      apply in_app_or in Hz as [Hz|Hz]; [apply Hs; right; exact Hz|apply repeat_spec in Hz; lia].
  - rewrite map_length; reflexivity.
  - intros al c. rewrite <- (rows_weights K KL f n rows al c Hr). rewrite Hlab.
    unfold comb_r. split.
    + intros H w. specialize (H (to_u n w)). rewrite suml_to_u in H by exact Hn.
      rewrite <- H, suml_map. apply suml_ext. intros r Hin. cbn [fst snd].
      rewrite Hdot by exact Hin. f_equal. unfold dotZ. apply dot_ext. intros i _. symmetry.
      apply to_w_u; exact Hn.
    + intros H u. specialize (H (to_w n u)). unfold to_w at 2 in H.
      rewrite <- H, suml_map. apply suml_ext. intros r Hin. cbn [fst snd].
      rewrite Hdot by exact Hin. reflexivity.
  - intros S_ Sd Hns. destruct (rows_separated K KL S_ Sd f n rows Hr Hns) as (w & Hw0 & Hw).
    exists (to_u n w). split; [rewrite suml_to_u by exact Hn; exact Hw0|].
    intros p Hp HS. rewrite Hlab in Hp. apply in_map_iff in Hp as (r & <- & Hin). cbn [fst snd] in *.
    rewrite Hdot by exact Hin. rewrite <- (Hw r Hin HS). unfold dotZ. apply dot_ext. intros i _.
    apply to_w_u; exact Hn.
Qed.

(** weightings and satisfaction *)
Lemma wt_holds al f c (S_ : N -> Prop) :
  (forall a, S_ a \/ ~ S_ a) -> wt K al f c -> c <> 0 ->
  (forall v, In v (leaves f) -> ~ S_ v -> al v = 0) -> holds S_ f.
Proof.
  intros Sd. revert c; induction f as [a IHa b IHb|a IHa b IHb|v]; simpl; intros c Hw Hc Hal.
  - destruct Hw as [H1 H2]. split; [apply (IHa c)|apply (IHb c)]; try assumption;
      intros; apply Hal; auto; apply in_or_app; auto.
  - destruct Hw as (c1 & c2 & H1 & H2 & ->).
    destruct (K_eq_dec K KL c1 0) as [E1|E1].
    + right. apply (IHb c2); auto.
      * intros E2; apply Hc; rewrite E1, E2; ring.
      * intros; apply Hal; auto; apply in_or_app; auto.
    + left. apply (IHa c1); auto. intros; apply Hal; auto; apply in_or_app; auto.
  - destruct (Sd v) as [H|H]; [exact H|]. exfalso; apply Hc. rewrite <- Hw. apply Hal; auto.
Qed.

Lemma NoDup_app_inv {A} (l1 l2 : list A) :
  NoDup (l1 ++ l2) -> NoDup l1 /\ NoDup l2 /\ (forall x, In x l1 -> In x l2 -> False).
Proof.
  induction l1 as [|x t IH]; simpl; intros H.
  - repeat split; [constructor|exact H|intros x []].
  - inversion H as [|? ? Hx Ht]; subst. destruct (IH Ht) as (H1 & H2 & H3).
    repeat split; [constructor; [intros Hin; apply Hx; apply in_or_app; auto|exact H1]|exact H2|].
    intros y [->|Hy] Hy2; [apply Hx; apply in_or_app; auto|eauto].
Qed.

Definition inb (v : N) (l : list N) : bool := existsb (N.eqb v) l.
Lemma inb_spec v l : inb v l = true <-> In v l.
Proof.
  unfold inb. rewrite existsb_exists. split.
  - intros (x & Hx & E). apply N.eqb_eq in E. subst. exact Hx.
  - intros H. exists v. split; [exact H|apply N.eqb_refl].
Qed.

Lemma holds_wt (S_ : N -> Prop) f :
  NoDup (leaves f) -> holds S_ f ->
  exists al, wt K al f 1 /\ (forall v, al v = 0 \/ al v = 1 /\ S_ v /\ In v (leaves f)).
Proof.
  induction f as [a IHa b IHb|a IHa b IHb|v]; simpl; intros Hnd Hh.
  - apply NoDup_app_inv in Hnd as (Ha & Hb & Hd). destruct Hh as [H1 H2].
    destruct (IHa Ha H1) as (al & Wa & Va). destruct (IHb Hb H2) as (be & Wb & Vb).
    exists (fun v => if inb v (leaves a) then al v else be v). split; [split|].
    + apply wt_ext with (al := al); [|exact Wa]. intros v Hv.
      apply inb_spec in Hv. rewrite Hv. reflexivity.
    + apply wt_ext with (al := be); [|exact Wb]. intros v Hv.
      destruct (inb v (leaves a)) eqn:E; [|reflexivity]. apply inb_spec in E. exfalso; eauto.
    + intros v. destruct (inb v (leaves a)); [destruct (Va v) as [|(? & ? & ?)]|destruct (Vb v) as [|(? & ? & ?)]];
        auto; right; repeat split; auto; apply in_or_app; auto.
  - apply NoDup_app_inv in Hnd as (Ha & Hb & Hd). destruct Hh as [H1|H2].
    + destruct (IHa Ha H1) as (al & Wa & Va). exists al. split.
      * exists 1, 0. split; [exact Wa|split; [|ring]]. apply wt_zero_on; [exact KL|].
        intros v Hv. destruct (Va v) as [|(_ & _ & Hin)]; [assumption|]. exfalso; eauto.
      * intros v. destruct (Va v) as [|(? & ? & ?)]; auto. right; repeat split; auto. apply in_or_app; auto.
    + destruct (IHb Hb H2) as (al & Wa & Va). exists al. split.
      * exists 0, 1. split; [|split; [exact Wa|ring]]. apply wt_zero_on; [exact KL|].
        intros v Hv. destruct (Va v) as [|(_ & _ & Hin)]; [assumption|]. exfalso; eauto.
      * intros v. destruct (Va v) as [|(? & ? & ?)]; auto. right; repeat split; auto. apply in_or_app; auto.
  - exists (fun x => if N.eqb x v then 1 else 0). split; [rewrite N.eqb_refl; reflexivity|].
    intros x. destruct (N.eqb_spec x v) as [->|Hne]; auto.
Qed.

(** column-wise form of a combination *)
Lemma comb_columns al c (m : msp Z) :
  (forall r, In r (matrix m) -> length r = nb_col m) ->
  (forall u, suml (fun p => al (fst p) * dotZ K (snd p) u) (labelled m) = c * suml u (seq 0 (nb_col m)))
  <-> (forall j, (j < nb_col m)%nat ->
        suml (fun p => al (fst p) * of_Z (nth j (snd p) 0%Z)) (labelled m) = c).
Proof.
  intros Hw. split.
  - intros H j Hj. specialize (H (@basis K j)).
    rewrite (suml_single K KL (@basis K j) _ j) in H.
    + unfold basis at 2 in H. rewrite Nat.eqb_refl in H.
      transitivity (c * 1); [|ring]. rewrite <- H. apply suml_ext. intros p Hp.
      unfold dotZ. rewrite dot_basis by exact KL. f_equal.
      rewrite <- (map_nth of_Z). reflexivity.
    + apply Nat.eq_dec.
    + apply seq_NoDup.
    + apply in_seq; lia.
    + intros y _ Hy. unfold basis. destruct (Nat.eqb_spec j y); congruence.
  - intros H u. rewrite <- suml_scal by exact KL.
    rewrite (suml_ext K (fun x => c * u x)
       (fun j => suml (fun p => al (fst p) * of_Z (nth j (snd p) 0%Z) * u j) (labelled m))).
    2:{ intros j Hj. apply in_seq in Hj. rewrite suml_scal_r by exact KL. rewrite H by lia. reflexivity. }
    rewrite suml_swap by exact KL. apply suml_ext. intros p Hp.
    assert (Hl : length (snd p) = nb_col m).
    { apply Hw. unfold labelled in Hp. destruct p as [a r]. apply in_combine_r in Hp. exact Hp. }
    unfold dotZ. rewrite dot_sum by exact KL. rewrite map_length, Hl.
    rewrite <- suml_scal by exact KL. apply suml_ext. intros j _.
    rewrite <- (map_nth of_Z). change (of_Z 0%Z) with (@f0 K). ring.
Qed.

End Finished.

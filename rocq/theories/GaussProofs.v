(** Correctness of the elimination of [Gauss.v]. *)
From Coq Require Import String NArith ZArith Bool Lia Field_theory Field List.
From Verif Require Import Prelude Field LinAlg Gauss.
Import ListNotations.

Lemma set_nth_length {A} (l : list A) i x : length (set_nth l i x) = length l.
Proof. revert i; induction l as [|y t IH]; intros [|i]; simpl; auto. Qed.

Lemma set_nth_nth {A} (l : list A) i x j d :
  i < length l -> nth j (set_nth l i x) d = if Nat.eqb j i then x else nth j l d.
Proof.
  revert i j; induction l as [|y t IH]; intros [|i] [|j]; simpl; intros H; try lia; auto.
  apply IH. lia.
Qed.

Lemma write_at_ok {A} (l : list A) i x : i < length l -> write_at l i x = Ok (set_nth l i x).
Proof. intros H. unfold write_at. apply Nat.ltb_lt in H. rewrite H. reflexivity. Qed.

Lemma index_nth {A} (l : list A) i d : i < length l -> index l i = Ok (nth i l d).
Proof.
  intros H. unfold index. rewrite (nth_error_nth' l d H). reflexivity.
Qed.

Lemma update_from_ok {A} k (g : A -> outcome A) (h : A -> A) m :
  (forall x, In x m -> g x = Ok (h x)) ->
  update_from k g m = Ok (firstn k m ++ map h (skipn k m)).
Proof.
  intros H. unfold update_from. rewrite (mapM_ok_map g h); [reflexivity|].
  intros x Hx. apply H. rewrite <- (firstn_skipn k m). apply in_or_app; right; exact Hx.
Qed.

Lemma nth_update {A} k (h : A -> A) m c d :
  c < length m -> nth c (firstn k m ++ map h (skipn k m)) d = if Nat.ltb c k then nth c m d else h (nth c m d).
Proof.
  revert m c; induction k as [|k IH]; intros m c Hc.
  - simpl. rewrite (nth_indep _ d (h d)) by (rewrite map_length; exact Hc). apply map_nth.
  - destruct m as [|x t]; [simpl in Hc; lia|]. destruct c as [|c]; simpl; [reflexivity|].
    simpl in Hc. rewrite IH by lia. reflexivity.
Qed.

Lemma update_length {A} k (h : A -> A) m : length (firstn k m ++ map h (skipn k m)) = length m.
Proof. rewrite app_length, map_length, <- app_length, firstn_skipn. reflexivity. Qed.

Section GaussProofs.
Variable K : FieldOps.
Variable KL : FieldLaws K.

Declare Scope fld.
Local Notation "0" := (@f0 K) : fld.
Local Notation "1" := (@f1 K) : fld.
Local Infix "+" := (@fadd K) : fld.
Local Infix "*" := (@fmul K) : fld.
Local Infix "-" := (@fsub K) : fld.
Local Notation "- x" := (@fneg K x) : fld.
Local Open Scope fld.
Add Field KF4 : (fl_field K KL).

Definition shaped (nc nr : nat) (m : list (list K)) : Prop :=
  length m = nc /\ forall col, In col m -> length col = nr.

Definition ent (m : list (list K)) (c r : nat) : K := nth r (nth c m []) 0.

Lemma shaped_nth nc nr m c : shaped nc nr m -> (c < nc)%nat -> length (nth c m []) = nr.
Proof. intros [H1 H2] Hc. apply H2. apply nth_In. lia. Qed.

Lemma entry_ok nc nr m c r : shaped nc nr m -> (c < nc)%nat -> (r < nr)%nat -> entry m c r = Ok (ent m c r).
Proof.
  intros Hs Hc Hr. unfold entry. rewrite (index_nth m c []) by (destruct Hs; lia). simpl.
  apply index_nth. rewrite (shaped_nth nc nr); assumption.
Qed.

Lemma shaped_update nc nr k h m :
  shaped nc nr m -> (forall col, length col = nr -> length (h col) = nr) ->
  shaped nc nr (firstn k m ++ map h (skipn k m)).
Proof.
  intros [H1 H2] Hh. split; [rewrite update_length; exact H1|].
  intros col Hin. apply in_app_or in Hin as [Hin|Hin].
  - apply H2. rewrite <- (firstn_skipn k m). apply in_or_app; left; exact Hin.
  - apply in_map_iff in Hin as (x & <- & Hx). apply Hh, H2.
    rewrite <- (firstn_skipn k m). apply in_or_app; right; exact Hx.
Qed.

(** swap of two rows *)
Definition tr (a b r : nat) : nat := if Nat.eqb r a then b else if Nat.eqb r b then a else r.

Lemma swap_at_ok (col : list K) a b :
  (a < length col)%nat -> (b < length col)%nat ->
  exists col', swap_at col a b = Ok col' /\ length col' = length col /\
    forall r, nth r col' 0 = nth (tr a b r) col 0.
Proof.
  intros Ha Hb. unfold swap_at. rewrite (index_nth col a 0), (index_nth col b 0) by assumption. simpl.
  rewrite write_at_ok by assumption. simpl. rewrite write_at_ok by (rewrite set_nth_length; exact Hb).
  eexists. split; [reflexivity|]. split; [rewrite !set_nth_length; reflexivity|].
  intros r. rewrite !set_nth_nth by (rewrite ?set_nth_length; assumption).
  unfold tr. destruct (Nat.eqb_spec r b), (Nat.eqb_spec r a); subst; reflexivity.
Qed.

Lemma mapM_swap nc nr m a b :
  shaped nc nr m -> (a < nr)%nat -> (b < nr)%nat ->
  exists m', mapM (fun col => swap_at col a b) m = Ok m' /\ shaped nc nr m' /\
    forall c r, (c < nc)%nat -> ent m' c r = ent m c (tr a b r).
Proof.
  revert nc; induction m as [|col t IH]; intros nc [H1 H2] Ha Hb; simpl in H1.
  - exists []. simpl. split; [reflexivity|]. split; [split; auto|]. intros; lia.
  - destruct (swap_at_ok col a b) as (col' & E & L & N); try (rewrite H2 by (left; reflexivity); assumption).
    destruct (IH (length t)) as (t' & E' & S' & N'); try assumption.
    { split; [reflexivity|]. intros c Hc; apply H2; right; exact Hc. }
    exists (col' :: t'). simpl. rewrite E; simpl. rewrite E'; simpl.
    split; [reflexivity|]. destruct S' as [S1 S2]. split.
    + split; [simpl; lia|]. intros c [<-|Hc]; [rewrite L; apply H2; left; reflexivity|auto].
    + intros c r Hc. destruct c as [|c]; [unfold ent; simpl; apply N|].
      unfold ent in *; simpl. apply N'. lia.
Qed.

(** the row combination forms *)
Definition form (nc : nat) (m : list (list K)) (r : nat) (x : nat -> K) : K :=
  suml (fun j => ent m j r * x j) (seq 0 nc).

Definition kernel (nc nr : nat) (m : list (list K)) (x : nat -> K) : Prop :=
  forall r, (r < nr)%nat -> form nc m r x = 0.

Lemma divide_row_ok nc nr m c p :
  shaped nc nr m -> (c < nc)%nat -> (p < nr)%nat -> ent m c p <> 0 ->
  (forall j, (j < c)%nat -> ent m j p = 0) ->
  exists m', divide_row m c p = Ok m' /\ shaped nc nr m' /\
    forall j r, (j < nc)%nat -> ent m' j r = if Nat.eqb r p then ent m j p * finv (ent m c p) else ent m j r.
Proof.
  intros Hs Hc Hp Hne Hz. unfold divide_row. rewrite (entry_ok nc nr) by assumption. simpl.
  set (v := ent m c p) in *.
  destruct (feqb v 1) eqn:E.
  - apply (fl_eqb K KL) in E. exists m. split; [reflexivity|]. split; [exact Hs|].
    intros j r Hj. destruct (Nat.eqb_spec r p) as [->|]; [|reflexivity]. rewrite E.
    field. apply K_1_neq_0; exact KL.
  - pose proof (shaped_nth nc nr m c Hs Hc) as Lc. destruct Hs as [L1 L2].
    rewrite (index_nth m c []) by lia. simpl.
    rewrite write_at_ok by lia. simpl.
    rewrite write_at_ok by lia. simpl.
    set (m1 := set_nth m c (set_nth (nth c m []) p 1)).
    assert (Hs1 : shaped nc nr m1).
    { split; [unfold m1; rewrite set_nth_length; exact L1|].
      intros col Hin. apply In_nth with (d := []) in Hin as (i & Hi & <-).
      unfold m1 in *. rewrite set_nth_length in Hi. rewrite set_nth_nth by lia.
      destruct (Nat.eqb_spec i c); [rewrite set_nth_length; exact Lc|]. apply L2, nth_In; exact Hi. }
    assert (Hent1 : forall j r, ent m1 j r = if Nat.eqb j c && Nat.eqb r p then 1 else ent m j r).
    { intros j r. unfold ent, m1. rewrite set_nth_nth by lia.
      destruct (Nat.eqb_spec j c) as [->|]; [|reflexivity]. simpl.
      rewrite set_nth_nth by lia. destruct (Nat.eqb_spec r p); reflexivity. }
    rewrite (update_from_ok _ _ (fun col => set_nth col p (nth p col 0 * finv v))).
    2:{ intros col Hin. rewrite (index_nth col p 0) by (rewrite (proj2 Hs1) by exact Hin; exact Hp). simpl.
        unfold sdiv. destruct (feqb v 0) eqn:E0; [apply (fl_eqb K KL) in E0; contradiction|]. simpl.
        apply write_at_ok. rewrite (proj2 Hs1) by exact Hin. exact Hp. }
    eexists. split; [reflexivity|]. split.
    { apply shaped_update; [exact Hs1|]. intros col Hcol. rewrite set_nth_length; exact Hcol. }
    intros j r Hj. unfold ent at 1.
    rewrite nth_update by (destruct Hs1; lia).
    pose proof (shaped_nth nc nr m1 j Hs1 Hj) as Lj.
    destruct (Nat.ltb_spec j (c + 1)) as [Hlt|Hge].
    + change (nth r (nth j m1 []) 0) with (ent m1 j r). rewrite Hent1.
      destruct (Nat.eqb_spec r p) as [->|]; [|rewrite andb_false_r; reflexivity].
      destruct (Nat.eqb_spec j c) as [->|]; simpl.
      * fold v. field. exact Hne.
      * rewrite Hz by lia. ring.
    + rewrite set_nth_nth by lia.
      change (nth p (nth j m1 []) 0) with (ent m1 j p). change (nth r (nth j m1 []) 0) with (ent m1 j r).
      rewrite !Hent1. destruct (Nat.eqb_spec j c) as [->|]; [lia|]. simpl. reflexivity.
Qed.

Lemma eliminate_row_ok nc nr m c p r :
  shaped nc nr m -> (c < nc)%nat -> (p < nr)%nat -> (r < nr)%nat -> r <> p ->
  (forall j, (j < c)%nat -> ent m j p = 0) ->
  exists m', eliminate_row c p m r = Ok m' /\ shaped nc nr m' /\
    forall j k, (j < nc)%nat ->
      ent m' j k = if Nat.eqb k r then ent m j r - ent m c r * ent m j p else ent m j k.
Proof.
  intros Hs Hc Hp Hr Hrp Hz. unfold eliminate_row. rewrite (entry_ok nc nr) by assumption. simpl.
  set (v := ent m c r) in *.
  destruct (feqb v 0) eqn:E.
  - apply (fl_eqb K KL) in E. exists m. split; [reflexivity|]. split; [exact Hs|].
    intros j k Hj. destruct (Nat.eqb_spec k r) as [->|]; [|reflexivity]. rewrite E. ring.
  - destruct Hs as [L1 L2].
    rewrite (update_from_ok _ _ (fun col => set_nth col r (nth r col 0 - v * nth p col 0))).
    2:{ intros col Hin. rewrite (index_nth col r 0), (index_nth col p 0) by (rewrite L2 by exact Hin; assumption).
        simpl. apply write_at_ok. rewrite L2 by exact Hin. exact Hr. }
    eexists. split; [reflexivity|]. split.
    { apply shaped_update; [split; assumption|]. intros col Hcol. rewrite set_nth_length; exact Hcol. }
    intros j k Hj. unfold ent at 1. rewrite nth_update by lia.
    destruct (Nat.ltb_spec j c) as [Hlt|Hge].
    + change (nth k (nth j m []) 0) with (ent m j k).
      destruct (Nat.eqb_spec k r) as [->|]; [|reflexivity]. rewrite Hz by exact Hlt. ring.
    + assert (length (nth j m []) = nr) by (apply L2, nth_In; lia).
      rewrite set_nth_nth by lia. reflexivity.
Qed.

Definition inb_nat (r : nat) (l : list nat) : bool := existsb (Nat.eqb r) l.

Lemma inb_nat_spec r l : inb_nat r l = true <-> In r l.
Proof.
  unfold inb_nat. rewrite existsb_exists. split.
  - intros (x & Hx & E). apply Nat.eqb_eq in E. subst; exact Hx.
  - intros H. exists r. split; [exact H|apply Nat.eqb_refl].
Qed.

Lemma inb_nat_false r l : ~ In r l -> inb_nat r l = false.
Proof.
  intros H. destruct (inb_nat r l) eqn:E; [|reflexivity]. apply inb_nat_spec in E. contradiction.
Qed.

Lemma eliminate_rows_ok nc nr c p rs : forall m,
  shaped nc nr m -> (c < nc)%nat -> (p < nr)%nat -> NoDup rs ->
  (forall r, In r rs -> (r < nr)%nat /\ r <> p) ->
  (forall j, (j < c)%nat -> ent m j p = 0) ->
  exists m', foldM (eliminate_row c p) rs m = Ok m' /\ shaped nc nr m' /\
    forall j k, (j < nc)%nat ->
      ent m' j k = if inb_nat k rs then ent m j k - ent m c k * ent m j p else ent m j k.
Proof.
  induction rs as [|r rs IH]; intros m Hs Hc Hp Hnd Hrs Hz.
  - exists m. simpl. auto.
  - inversion Hnd as [|? ? Hnr Hnd']; subst.
    destruct (Hrs r (or_introl eq_refl)) as [Hr Hrp].
    destruct (eliminate_row_ok nc nr m c p r) as (m1 & E1 & S1 & N1); try assumption.
    destruct (IH m1) as (m2 & E2 & S2 & N2); try assumption.
    { intros x Hx; apply Hrs; right; exact Hx. }
    { intros j Hj. rewrite N1 by lia. destruct (Nat.eqb_spec p r); [congruence|]. apply Hz; exact Hj. }
    exists m2. simpl. rewrite E1. simpl. rewrite E2. split; [reflexivity|]. split; [exact S2|].
    intros j k Hj. rewrite N2 by exact Hj. rewrite !N1 by assumption.
    destruct (Nat.eqb_spec p r); [congruence|].
    destruct (Nat.eqb_spec k r) as [->|Hkr]; simpl.
    + destruct (inb_nat r rs) eqn:E; [apply inb_nat_spec in E; contradiction|].
      unfold inb_nat; simpl. rewrite ?Nat.eqb_refl. reflexivity.
    + unfold inb_nat. destruct (existsb (Nat.eqb k) rs); reflexivity.
Qed.

Lemma find_pivot_ok nc nr m c : shaped nc nr m -> (c < nc)%nat -> forall len start,
  (start + len <= nr)%nat ->
  (find_pivot m c (seq start len) = Ok None /\ forall r, (start <= r < start + len)%nat -> ent m c r = 0) \/
  (exists r, find_pivot m c (seq start len) = Ok (Some r) /\ (start <= r < start + len)%nat /\ ent m c r <> 0).
Proof.
  intros Hs Hc. induction len as [|len IH]; intros start Hle.
  - left. split; [reflexivity|]. intros; lia.
  - simpl. rewrite (entry_ok nc nr) by (assumption || lia). simpl.
    destruct (feqb (ent m c start) 0) eqn:E.
    + apply (fl_eqb K KL) in E. destruct (IH (S start)) as [[E1 H1]|(r & E1 & H1 & H2)]; [lia| |].
      * left. split; [exact E1|]. intros r Hr. destruct (Nat.eq_dec r start) as [->|]; [exact E|apply H1; lia].
      * right. exists r. split; [exact E1|split; [lia|exact H2]].
    + right. exists start. split; [reflexivity|]. split; [lia|]. apply (feqb_false K KL); exact E.
Qed.

Lemma form_sub nc m1 m2 r k v x :
  (forall j, (j < nc)%nat -> ent m2 j r = ent m1 j r - v * ent m1 j k) ->
  form nc m2 r x = form nc m1 r x - v * form nc m1 k x.
Proof.
  intros H. unfold form. rewrite <- suml_scal by exact KL. rewrite <- suml_sub by exact KL.
  apply suml_ext. intros j Hj. apply in_seq in Hj. rewrite H by lia. ring.
Qed.

(** One pivot step as a whole *)
Lemma pivot_step nc nr m c p row :
  shaped nc nr m -> (c < nc)%nat -> (p <= row < nr)%nat -> ent m c row <> 0 ->
  (forall j r, (j < c)%nat -> (p <= r < nr)%nat -> ent m j r = 0) ->
  exists m',
    (let* m := mapM (fun col => swap_at col p row) m in
     let* m := divide_row m c p in
     let* m := foldM (eliminate_row c p) (seq (p + 1)%nat (nr - (p + 1))%nat) m in
     foldM (eliminate_row c p) (seq 0%nat p) m) = Ok m' /\
    shaped nc nr m' /\
    (forall r, (r < nr)%nat -> ent m' c r = if Nat.eqb r p then 1 else 0) /\
    (forall j r, (j < c)%nat -> (r < nr)%nat -> ent m' j r = ent m j r) /\
    (forall j, (j < nc)%nat -> (forall r, (p <= r < nr)%nat -> ent m j r = 0) ->
       forall r, (r < nr)%nat -> ent m' j r = ent m j r) /\
    (forall x, kernel nc nr m' x <-> kernel nc nr m x).
Proof.
  intros Hs Hc Hrow Hne Hz.
  destruct (mapM_swap nc nr m p row) as (m1 & E1 & S1 & N1); try (assumption || lia).
  assert (Z1 : forall j, (j < c)%nat -> ent m1 j p = 0).
  { intros j Hj. rewrite N1 by lia. unfold tr. rewrite Nat.eqb_refl. apply Hz; lia. }
  assert (Hv : ent m1 c p <> 0).
  { rewrite N1 by lia. unfold tr. rewrite Nat.eqb_refl. exact Hne. }
  destruct (divide_row_ok nc nr m1 c p) as (m2 & E2 & S2 & N2); try (assumption || lia).
  assert (Z2 : forall j, (j < c)%nat -> ent m2 j p = 0).
  { intros j Hj. rewrite N2 by lia. rewrite Nat.eqb_refl, Z1 by exact Hj. ring. }
  destruct (eliminate_rows_ok nc nr c p (seq (p + 1)%nat (nr - (p + 1))%nat) m2) as (m3 & E3 & S3 & N3);
    try (assumption || lia).
  { apply seq_NoDup. }
  { intros r Hr. apply in_seq in Hr. lia. }
  assert (Nin : inb_nat p (seq (p + 1)%nat (nr - (p + 1))%nat) = false).
  { apply inb_nat_false. rewrite in_seq. lia. }
  assert (Z3 : forall j, (j < c)%nat -> ent m3 j p = 0).
  { intros j Hj. rewrite N3 by lia. rewrite Nin. apply Z2; exact Hj. }
  destruct (eliminate_rows_ok nc nr c p (seq 0 p) m3) as (m4 & E4 & S4 & N4); try (assumption || lia).
  { apply seq_NoDup. }
  { intros r Hr. apply in_seq in Hr. lia. }
  assert (Nin0 : inb_nat p (seq 0 p) = false).
  { apply inb_nat_false. rewrite in_seq. lia. }
  (* global description *)
  assert (G : forall j r, (j < nc)%nat -> (r < nr)%nat ->
     ent m4 j r = if Nat.eqb r p then ent m1 j p * finv (ent m1 c p)
                  else ent m1 j r - ent m1 c r * (ent m1 j p * finv (ent m1 c p))).
  { intros j r Hj Hr. rewrite N4 by exact Hj.
    assert (N3p : forall j, (j < nc)%nat -> ent m3 j p = ent m1 j p * finv (ent m1 c p)).
    { intros j' Hj'. rewrite N3 by exact Hj'. rewrite Nin. rewrite N2 by exact Hj'. rewrite Nat.eqb_refl. reflexivity. }
    destruct (Nat.eqb_spec r p) as [->|Hrp].
    - rewrite Nin0. apply N3p; exact Hj.
    - destruct (inb_nat r (seq 0 p)) eqn:Ein.
      + apply inb_nat_spec, in_seq in Ein.
        assert (Nr : inb_nat r (seq (p + 1)%nat (nr - (p + 1))%nat) = false).
        { apply inb_nat_false. rewrite in_seq. lia. }
        rewrite N3p by exact Hj. rewrite !N3 by lia. rewrite Nr.
        rewrite !N2 by lia. destruct (Nat.eqb_spec r p); [lia|]. reflexivity.
      + assert (Nr : inb_nat r (seq (p + 1)%nat (nr - (p + 1))%nat) = true).
        { apply inb_nat_spec, in_seq.
          assert (~ In r (seq 0 p)) by (intros Hi; apply inb_nat_spec in Hi; congruence).
          rewrite in_seq in H. lia. }
        rewrite N3 by exact Hj. rewrite Nr. rewrite !N2 by lia. rewrite Nat.eqb_refl.
        destruct (Nat.eqb_spec r p); [lia|]. reflexivity. }
  exists m4. rewrite E1. simpl. rewrite E2. simpl. rewrite E3. simpl. rewrite E4.
  split; [reflexivity|]. split; [exact S4|]. split; [|split; [|split]].
  - intros r Hr. rewrite G by assumption. destruct (Nat.eqb_spec r p) as [->|]; field; exact Hv.
  - intros j r Hj Hr. rewrite G by lia. rewrite Z1 by exact Hj.
    destruct (Nat.eqb_spec r p) as [->|Hrp].
    + rewrite Hz by lia. ring.
    + rewrite N1 by lia. unfold tr. destruct (Nat.eqb_spec r p); [lia|].
      destruct (Nat.eqb_spec r row) as [->|]; [rewrite (Hz j p), (Hz j row) by lia|]; ring.
  - intros j Hj Hcol r Hr. rewrite G by assumption.
    assert (Hp0 : ent m1 j p = 0).
    { rewrite N1 by exact Hj. unfold tr. rewrite Nat.eqb_refl. apply Hcol; lia. }
    rewrite Hp0. destruct (Nat.eqb_spec r p) as [->|Hrp].
    + rewrite (Hcol p) by lia. ring.
    + rewrite N1 by exact Hj. unfold tr. destruct (Nat.eqb_spec r p); [lia|].
      destruct (Nat.eqb_spec r row) as [->|]; [rewrite (Hcol p), (Hcol row) by lia|]; ring.
  - intros x.
    assert (K1 : kernel nc nr m1 x <-> kernel nc nr m x).
    { assert (F : forall r, form nc m1 r x = form nc m (tr p row r) x).
      { intros r. unfold form. apply suml_ext. intros j Hj. apply in_seq in Hj. rewrite N1 by lia. reflexivity. }
      assert (T : forall r, (r < nr)%nat -> (tr p row r < nr)%nat).
      { intros r Hr. unfold tr. destruct (Nat.eqb r p); [lia|]. destruct (Nat.eqb r row); lia. }
      assert (TT : forall r, tr p row (tr p row r) = r).
      { intros r. unfold tr. destruct (Nat.eqb_spec r p) as [->|].
        - destruct (Nat.eqb_spec row p); [auto|]. rewrite Nat.eqb_refl. reflexivity.
        - destruct (Nat.eqb_spec r row) as [->|].
          + rewrite Nat.eqb_refl. reflexivity.
          + destruct (Nat.eqb_spec r p); [lia|]. destruct (Nat.eqb_spec r row); [lia|reflexivity]. }
      split; intros H r Hr.
      - rewrite <- (TT r), <- F. apply H, T; exact Hr.
      - rewrite F. apply H, T; exact Hr. }
    rewrite <- K1.
    assert (Fp : form nc m4 p x = form nc m1 p x * finv (ent m1 c p)).
    { unfold form. rewrite <- suml_scal_r by exact KL. apply suml_ext. intros j Hj. apply in_seq in Hj.
      rewrite G by lia. rewrite Nat.eqb_refl. ring. }
    assert (Fr : forall r, (r < nr)%nat -> r <> p ->
       form nc m4 r x = form nc m1 r x - (ent m1 c r * finv (ent m1 c p)) * form nc m1 p x).
    { intros r Hr Hrp. apply form_sub. intros j Hj. rewrite G by assumption.
      destruct (Nat.eqb_spec r p); [lia|]. ring. }
    split; intros H r Hr.
    + assert (Hp0 : form nc m1 p x = 0).
      { specialize (H p ltac:(lia)). rewrite Fp in H.
        destruct (fmul_zero K KL _ _ H) as [H'|H']; [exact H'|].
        exfalso. apply (K_1_neq_0 K KL). transitivity (finv (ent m1 c p) * ent m1 c p); [field; exact Hv|].
        rewrite H'. ring. }
      destruct (Nat.eq_dec r p) as [->|Hrp]; [exact Hp0|].
      specialize (H r Hr). rewrite Fr in H by assumption. rewrite Hp0 in H. rewrite <- H. ring.
    + destruct (Nat.eq_dec r p) as [->|Hrp]; [rewrite Fp, H by lia; ring|].
      rewrite Fr by assumption. rewrite !H by lia. ring.
Qed.

(** Reduced form *)
Record reduced (nc nr : nat) (m : list (list K)) (pv : list nat) (c : nat) : Prop := {
  rd_shape : shaped nc nr m;
  rd_rank : (length pv <= nr)%nat;
  rd_lt : forall k, (k < length pv)%nat -> (nth k pv 0%nat < c)%nat;
  rd_inc : forall i k, (i < k < length pv)%nat -> (nth i pv 0 < nth k pv 0)%nat;
  rd_piv : forall k r, (k < length pv)%nat -> (r < nr)%nat ->
             ent m (nth k pv 0%nat) r = if Nat.eqb r k then 1 else 0;
  rd_left : forall k j, (k < length pv)%nat -> (j < nth k pv 0)%nat -> ent m j k = 0;
  rd_low : forall j r, (j < c)%nat -> (length pv <= r < nr)%nat -> ent m j r = 0
}.

Definition last_of (pv : list nat) : nat := last pv 0%nat.

Lemma last_of_app pv c : last_of (pv ++ [c]) = c.
Proof. unfold last_of. apply last_last. Qed.

Lemma gauss_loop_ok nc nr fuel : forall m pv c,
  reduced nc nr m pv c -> (c <= nc)%nat -> (nc - c <= fuel)%nat ->
  exists m' pv' c', gauss_loop fuel nc nr m (length pv) c (last_of pv) = Ok (m', last_of pv') /\
    reduced nc nr m' pv' c' /\ (c' <= nc)%nat /\ (c' = nc \/ length pv' = nr) /\
    forall x, kernel nc nr m' x <-> kernel nc nr m x.
Proof.
  induction fuel as [|fuel IH]; intros m pv c R Hc Hf.
  - assert (c = nc) by lia. subst c. exists m, pv, nc. simpl. rewrite Nat.eqb_refl. simpl.
    split; [reflexivity|]. split; [exact R|]. split; [lia|]. split; [auto|]. intros; reflexivity.
  - simpl. destruct (Nat.eqb_spec c nc) as [->|Hcn]; simpl.
    { exists m, pv, nc. split; [reflexivity|]. split; [exact R|]. split; [lia|]. split; [auto|]. intros; reflexivity. }
    destruct (Nat.eqb_spec (length pv) nr) as [Er|Hrn]; simpl.
    { exists m, pv, c. split; [reflexivity|]. split; [exact R|]. split; [lia|]. split; [auto|]. intros; reflexivity. }
    pose proof (rd_rank _ _ _ _ _ R) as Hrk. pose proof (rd_shape _ _ _ _ _ R) as Hs.
    destruct (find_pivot_ok nc nr m c Hs ltac:(lia) (nr - length pv) (length pv) ltac:(lia))
      as [[E H0]|(row & E & Hrow & Hne)]; rewrite E; simpl.
    + destruct (IH m pv (c + 1)%nat) as (m' & pv' & c' & E' & R' & H1 & H2 & H3); try lia.
      { pose proof R as [r1 r2 r3 r4 r5 r6 r7]. constructor; try assumption.
        - intros k Hk. pose proof (r3 k Hk). lia.
        - intros j r Hj Hr. destruct (Nat.eq_dec j c) as [->|]; [apply H0; lia|apply r7; lia]. }
      exists m', pv', c'. auto.
    + destruct (pivot_step nc nr m c (length pv) row Hs ltac:(lia) ltac:(lia) Hne) as (m1 & E1 & S1 & P1 & L1 & C1 & K1).
      { apply (rd_low _ _ _ _ _ R). }
      destruct (IH m1 (pv ++ [c]) (c + 1)%nat) as (m' & pv' & c' & E' & R' & H1 & H2 & H3); try lia.
      { constructor; rewrite ?app_length; simpl.
        - exact S1.
        - lia.
        - intros k Hk. destruct (Nat.eq_dec k (length pv)) as [->|].
          + rewrite nth_middle. lia.
          + rewrite app_nth1 by lia. pose proof (rd_lt _ _ _ _ _ R k ltac:(lia)). lia.
        - intros i k Hik. rewrite (app_nth1 _ _ _ (n := i)) by lia.
          destruct (Nat.eq_dec k (length pv)) as [->|].
          + rewrite nth_middle. apply (rd_lt _ _ _ _ _ R); lia.
          + rewrite app_nth1 by lia. apply (rd_inc _ _ _ _ _ R); lia.
        - intros k r Hk Hr. destruct (Nat.eq_dec k (length pv)) as [->|].
          + rewrite nth_middle. apply P1; exact Hr.
          + rewrite app_nth1 by lia. pose proof (rd_lt _ _ _ _ _ R k ltac:(lia)) as Hlt.
            rewrite L1 by lia. apply (rd_piv _ _ _ _ _ R); lia.
        - intros k j Hk. destruct (Nat.eq_dec k (length pv)) as [->|].
          + rewrite nth_middle. intros Hj. rewrite L1 by lia. apply (rd_low _ _ _ _ _ R); lia.
          + rewrite app_nth1 by lia. intros Hj. pose proof (rd_lt _ _ _ _ _ R k ltac:(lia)) as Hlt.
            rewrite L1 by lia. apply (rd_left _ _ _ _ _ R); lia.
        - intros j r Hj Hr. destruct (Nat.eq_dec j c) as [->|].
          + rewrite P1 by lia. destruct (Nat.eqb_spec r (length pv)); [lia|reflexivity].
          + rewrite L1 by lia. apply (rd_low _ _ _ _ _ R); lia. }
      exists m', pv', c'. rewrite app_length, last_of_app in E'. simpl in E'.
      destruct (mapM _ m) as [ma| |] eqn:Ea; simpl in E1 |- *; try discriminate.
      destruct (divide_row ma c (length pv)) as [mb| |] eqn:Eb; simpl in E1 |- *; try discriminate.
      destruct (foldM _ _ mb) as [mc| |] eqn:Ec; simpl in E1 |- *; try discriminate.
      rewrite E1. simpl. rewrite E'. split; [reflexivity|]. split; [exact R'|]. split; [exact H1|].
      split; [exact H2|]. intros x. rewrite H3. apply K1.
Qed.

(** The basic solution *)
Definition basic (nc : nat) (m : list (list K)) (pv : list nat) (j : nat) : K :=
  suml (fun k => if Nat.eqb j (nth k pv 0%nat) then ent m (nc - 1)%nat k else 0) (seq 0 (length pv)).

Lemma inc_inj nc nr m pv c i k :
  reduced nc nr m pv c -> (i < length pv)%nat -> (k < length pv)%nat -> nth i pv 0%nat = nth k pv 0%nat -> i = k.
Proof.
  intros R Hi Hk E. destruct (Nat.lt_trichotomy i k) as [H|[H|H]]; [|exact H|].
  - pose proof (rd_inc _ _ _ _ _ R i k ltac:(lia)). lia.
  - pose proof (rd_inc _ _ _ _ _ R k i ltac:(lia)). lia.
Qed.

Lemma basic_pivot nc nr m pv c k :
  reduced nc nr m pv c -> (k < length pv)%nat -> basic nc m pv (nth k pv 0%nat) = ent m (nc - 1)%nat k.
Proof.
  intros R Hk. unfold basic. rewrite (suml_single K KL _ _ k).
  - rewrite Nat.eqb_refl. reflexivity.
  - apply Nat.eq_dec.
  - apply seq_NoDup.
  - apply in_seq; lia.
  - intros y Hy Hne. apply in_seq in Hy.
    destruct (Nat.eqb_spec (nth k pv 0%nat) (nth y pv 0%nat)) as [E|]; [|reflexivity].
    exfalso; apply Hne. symmetry. eapply inc_inj; eauto; lia.
Qed.

Lemma basic_other nc m pv j : ~ In j pv -> basic nc m pv j = 0.
Proof.
  intros H. unfold basic. apply suml_zero; [exact KL|]. intros k Hk. apply in_seq in Hk.
  destruct (Nat.eqb_spec j (nth k pv 0%nat)) as [E|]; [|reflexivity].
  exfalso; apply H. rewrite E. apply nth_In; lia.
Qed.

Lemma skip_zeros_run nc nr m i : shaped nc nr m -> (i < nr)%nat ->
  forall d cc sol fuel, (cc + d < nc)%nat -> (d < fuel)%nat ->
  (forall j, (cc <= j < cc + d)%nat -> ent m j i = 0) -> ent m (cc + d)%nat i <> 0 ->
  skip_zeros fuel nc m i cc sol = Ok (inr ((cc + d)%nat, sol ++ repeat 0 d)).
Proof.
  intros Hs Hi. induction d as [|d IH]; intros cc sol fuel Hcc Hf Hz Hne.
  - destruct fuel; [lia|]. rewrite Nat.add_0_r in *. simpl. rewrite (entry_ok nc nr) by assumption. simpl.
    apply (feqb_false K KL) in Hne. rewrite Hne. rewrite app_nil_r. reflexivity.
  - destruct fuel; [lia|]. simpl. rewrite (entry_ok nc nr) by (assumption || lia). simpl.
    rewrite (Hz cc) by lia. rewrite (feqb_refl K KL).
    destruct (Nat.eqb_spec (cc + 1)%nat nc); [lia|].
    rewrite IH.
    + rewrite <- app_assoc. simpl. do 3 f_equal. lia.
    + lia.
    + lia.
    + intros j Hj. apply Hz; lia.
    + replace (cc + 1 + d)%nat with (cc + S d)%nat by lia. exact Hne.
Qed.

Lemma skip_zeros_end nc nr m i : shaped nc nr m -> (i < nr)%nat ->
  forall d cc sol fuel, (cc + S d = nc)%nat -> (S d <= fuel)%nat ->
  (forall j, (cc <= j < nc)%nat -> ent m j i = 0) ->
  skip_zeros fuel nc m i cc sol = Ok (inl (sol ++ repeat 0 (S d))).
Proof.
  intros Hs Hi. induction d as [|d IH]; intros cc sol fuel Hcc Hf Hz.
  - destruct fuel; [lia|]. simpl. rewrite (entry_ok nc nr) by (assumption || lia). simpl.
    rewrite (Hz cc) by lia. rewrite (feqb_refl K KL).
    destruct (Nat.eqb_spec (cc + 1)%nat nc); [reflexivity|lia].
  - destruct fuel; [lia|]. simpl. rewrite (entry_ok nc nr) by (assumption || lia). simpl.
    rewrite (Hz cc) by lia. rewrite (feqb_refl K KL).
    destruct (Nat.eqb_spec (cc + 1)%nat nc); [lia|].
    rewrite IH; [rewrite <- app_assoc; reflexivity|lia|lia|]. intros j Hj; apply Hz; lia.
Qed.

Definition start_of (pv : list nat) (i : nat) : nat :=
  match i with O => O | S i' => S (nth i' pv 0%nat) end.

Lemma extract_ok nc nr m pv c' : (2 <= nc)%nat ->
  reduced nc nr m pv c' -> (c' = nc \/ length pv = nr) ->
  (forall k, (k < length pv)%nat -> (nth k pv 0 < nc - 1)%nat) ->
  forall len i sol, (i + len = nr)%nat -> (i <= length pv)%nat ->
  length sol = start_of pv i ->
  (forall j, (j < start_of pv i)%nat -> nth j sol 0 = basic nc m pv j) ->
  exists sol', extract nc m (seq i len) (start_of pv i) sol = Ok sol' /\
    forall j, (j < nc - 1)%nat -> nth j sol' 0 = basic nc m pv j.
Proof.
  intros Hnc R Hend Hpv. pose proof (rd_shape _ _ _ _ _ R) as Hs.
  (* coordinates after the last pivot of row i-1 up to the next pivot are not pivots *)
  assert (Hgap : forall i j, (i <= length pv)%nat -> (start_of pv i <= j)%nat ->
            (i < length pv -> j < nth i pv 0)%nat -> basic nc m pv j = 0).
  { intros i j Hi Hj Hj2. apply basic_other. intros Hin.
    apply In_nth with (d := O) in Hin as (k & Hk & E).
    destruct (Nat.lt_ge_cases k i) as [Hki|Hki].
    - destruct i as [|i]; [lia|]. simpl in Hj.
      destruct (Nat.eq_dec k i) as [->|]; [lia|].
      pose proof (rd_inc _ _ _ _ _ R k i ltac:(lia)). lia.
    - destruct (Nat.eq_dec k i) as [->|]; [lia|].
      pose proof (rd_inc _ _ _ _ _ R i k ltac:(lia)). lia. }
  induction len as [|len IH]; intros i sol Hlen Hi Hsol Hval.
  - exists sol. split; [reflexivity|]. intros j Hj.
    destruct (Nat.lt_ge_cases j (start_of pv i)) as [H|H]; [apply Hval; exact H|].
    rewrite nth_overflow by lia. symmetry. apply (Hgap i); [exact Hi|exact H|].
    pose proof (rd_rank _ _ _ _ _ R). lia.
  - destruct (Nat.lt_ge_cases i (length pv)) as [Hip|Hip].
    + pose proof (Hpv i Hip) as Hpi.
      assert (Hst : (start_of pv i <= nth i pv 0)%nat).
      { destruct i as [|i]; simpl; [lia|]. pose proof (rd_inc _ _ _ _ _ R i (S i) ltac:(lia)). lia. }
      set (cc := start_of pv i) in *. set (d := (nth i pv 0 - cc)%nat).
      assert (Ed : (cc + d = nth i pv 0)%nat) by (unfold d; lia).
      cbn [extract seq].
      rewrite (skip_zeros_run nc nr m i Hs ltac:(lia) d cc sol).
      2:{ lia. } 2:{ unfold d; lia. }
      2:{ intros j Hj. apply (rd_left _ _ _ _ _ R); lia. }
      2:{ rewrite Ed. rewrite (rd_piv _ _ _ _ _ R) by lia. rewrite Nat.eqb_refl. apply K_1_neq_0; exact KL. }
      cbn [bind]. rewrite Ed.
      rewrite (entry_ok nc nr) by (assumption || lia). cbn [bind].
      rewrite (rd_piv _ _ _ _ _ R) by lia. rewrite Nat.eqb_refl, (feqb_refl K KL).
      assert (Hlast : exists tl, rev m = nth (nc - 1) m [] :: tl).
      { destruct Hs as [L1 L2]. destruct (rev m) as [|x tl] eqn:Erev.
        - apply (f_equal (@length _)) in Erev. rewrite rev_length in Erev. simpl in Erev. lia.
        - exists tl. f_equal. rewrite <- (rev_involutive m), Erev. simpl.
          assert (Hl : length (rev tl) = (nc - 1)%nat).
          { apply (f_equal (@length _)) in Erev. rewrite !rev_length in *. simpl in Erev. lia. }
          rewrite <- Hl. rewrite nth_middle. reflexivity. }
      destruct Hlast as [tl ->]. cbn [bind].
      rewrite (index_nth _ i 0) by (rewrite (shaped_nth nc nr) by (assumption || lia); lia). cbn [bind].
      destruct (Nat.eqb_spec (nth i pv 0 + 1)%nat nc); [lia|].
      change (nth i (nth (nc - 1) m []) 0) with (ent m (nc - 1)%nat i).
      replace (nth i pv 0 + 1)%nat with (start_of pv (S i)) by (simpl; lia).
      apply (IH (S i)).
      * lia.
      * lia.
      * rewrite !app_length, repeat_length. simpl. rewrite Hsol. fold cc. lia.
      * intros j Hj. simpl in Hj.
        destruct (Nat.lt_ge_cases j cc) as [H1|H1].
        { rewrite app_nth1 by (rewrite app_length; lia). rewrite app_nth1 by lia. apply Hval; exact H1. }
        destruct (Nat.eq_dec j (nth i pv 0%nat)) as [->|Hne].
        { rewrite app_nth2 by (rewrite app_length, repeat_length; lia).
          rewrite app_length, repeat_length, Hsol, Ed, Nat.sub_diag. simpl.
          symmetry. apply (basic_pivot nc nr m pv c'); assumption. }
        rewrite app_nth1 by (rewrite app_length, repeat_length; lia).
        rewrite app_nth2 by lia. rewrite nth_repeat. symmetry. apply (Hgap i); lia.
    + assert (i = length pv) by lia. assert (c' = nc) by (destruct Hend; [assumption|lia]). subst c'.
      assert (Hst : (start_of pv i <= nc - 1)%nat).
      { destruct i as [|i]; simpl; [lia|]. pose proof (Hpv i ltac:(lia)). lia. }
      cbn [extract seq].
      rewrite (skip_zeros_end nc nr m i Hs ltac:(lia) (nc - 1 - start_of pv i)).
      2:{ lia. } 2:{ lia. } 2:{ intros j Hj. apply (rd_low _ _ _ _ _ R); lia. }
      cbn [bind]. eexists. split; [reflexivity|]. intros j Hj.
      destruct (Nat.lt_ge_cases j (start_of pv i)) as [H1|H1].
      { rewrite app_nth1 by lia. apply Hval; exact H1. }
      rewrite app_nth2 by lia. rewrite nth_repeat. symmetry. apply (Hgap i); lia.
Qed.

Lemma resize_nth (l : list K) n j : (j < n)%nat -> nth j (resize l n 0) 0 = nth j l 0.
Proof.
  intros Hj. unfold resize. destruct (Nat.lt_ge_cases j (length l)) as [H|H].
  - rewrite app_nth1 by (rewrite firstn_length; lia).
    rewrite <- (firstn_skipn n l) at 2. rewrite app_nth1 by (rewrite firstn_length; lia). reflexivity.
  - rewrite (nth_overflow l) by lia.
    destruct (Nat.lt_ge_cases j (length (firstn n l))) as [H1|H1].
    + rewrite firstn_length in H1. lia.
    + rewrite app_nth2 by lia. rewrite nth_repeat. reflexivity.
Qed.

Lemma seq_last n : seq 0 (S n) = seq 0 n ++ [n].
Proof. rewrite seq_S. reflexivity. Qed.

(** Solutions of the system of the rows of [m] giving the all-ones vector *)
Definition solves (m : list (list K)) (n : nat) (x : nat -> K) : Prop :=
  forall r, (r < n)%nat -> suml (fun j => x j * ent m j r) (seq 0 (length m)) = 1.

Lemma kernel_solves m n x :
  shaped (length m) n m -> x (length m) = - (1) ->
  (kernel (S (length m)) n (m ++ [repeat 1 n]) x <-> solves m n x).
Proof.
  intros Hs Hx. unfold kernel, solves.
  assert (F : forall r, (r < n)%nat -> form (S (length m)) (m ++ [repeat 1 n]) r x =
      suml (fun j => x j * ent m j r) (seq 0 (length m)) - 1).
  { intros r Hr. unfold form. rewrite seq_last, suml_app by exact KL.
    rewrite (suml_ext K (fun j => ent (m ++ [repeat 1 n]) j r * x j) (fun j => x j * ent m j r)).
    - simpl. rewrite Hx. unfold ent at 2. rewrite nth_middle.
      rewrite (nth_indep _ 0 1) by (rewrite repeat_length; exact Hr). rewrite nth_repeat. ring.
    - intros j Hj. apply in_seq in Hj. unfold ent. rewrite app_nth1 by lia. ring. }
  split; intros H r Hr.
  - specialize (H r Hr). rewrite F in H by exact Hr. apply (fsub_zero K KL). exact H.
  - rewrite F by exact Hr. rewrite H by exact Hr. ring.
Qed.

(** Main statement: the solver is total on rectangular inputs, sound and complete. *)
Theorem span_coefs_spec m n :
  m <> [] -> (1 <= n)%nat -> shaped (length m) n m ->
  (span_coefs m = Ok None /\ forall x, ~ solves m n x) \/
  (exists sol, span_coefs m = Ok (Some sol) /\ length sol = length m /\ solves m n (vec sol) /\
     exists pv : list nat, (forall j, (j < length m)%nat -> ~ In j pv -> vec sol j = 0) /\
       forall y, solves m n y -> (forall j, (j < length m)%nat -> ~ In j pv -> y j = 0) ->
         forall j, (j < length m)%nat -> y j = vec sol j).
Proof.
  intros Hne Hn Hs.
  assert (E0 : span_coefs m =
     (let* (m', last_pivot_col) := gauss_loop (S (length m)) (S (length m)) n (m ++ [repeat 1 n]) 0 0 0 in
      if Nat.eqb last_pivot_col (length m) then Ok None
      else let* sol := extract (S (length m)) m' (seq 0 n) 0 [] in
           Ok (Some (resize sol (length m) 0)))).
  { unfold span_coefs. destruct m as [|row0 m]; [contradiction|].
    assert (L0 : length row0 = n) by (apply Hs; left; reflexivity).
    destruct row0 as [|x row0]; [simpl in L0; lia|].
    rewrite L0. set (mm := (x :: row0) :: m).
    assert (El : length (mm ++ [repeat 1 n]) = S (length mm)) by (rewrite app_length; simpl; lia).
    rewrite El. replace (S (length mm) - 1)%nat with (length mm) by lia. reflexivity. }
  rewrite E0. clear E0. set (nc := S (length m)) in *. set (m0 := m ++ [repeat 1 n]) in *.
  assert (Hs0 : shaped nc n m0).
  { split; [unfold m0, nc; rewrite app_length; simpl; lia|].
    intros col Hin. apply in_app_or in Hin as [Hin|[<-|[]]]; [apply Hs; exact Hin|apply repeat_length]. }
  assert (Hm : (1 <= length m)%nat) by (destruct m; [contradiction|simpl; lia]).
  destruct (gauss_loop_ok nc n nc m0 [] 0) as (m' & pv & c & E & R & Hc & Hend & Hk).
  { constructor; simpl; try (intros; lia). exact Hs0. }
  { lia. } { lia. }
  cbn [length] in E. change (last_of []) with 0%nat in E.
  change (gauss_loop (S (length m))) with (@gauss_loop K nc). rewrite E. cbn [bind].
  pose proof (rd_shape _ _ _ _ _ R) as Hs'.
  (* the form of a row k < rank, on a vector supported on pivots and the last column *)
  destruct (Nat.eqb_spec (last_of pv) (length m)) as [Hl|Hl].
  - left. split; [reflexivity|]. intros x Hx.
    set (y := upd x (length m) (- (1))).
    assert (Hy : solves m n y).
    { intros r Hr. rewrite <- (Hx r Hr). apply suml_ext. intros j Hj. apply in_seq in Hj.
      unfold y. rewrite upd_other by lia. reflexivity. }
    apply kernel_solves in Hy; [|exact Hs|unfold y; apply upd_same].
    apply Hk in Hy.
    assert (Hpl : (0 < length pv)%nat).
    { destruct pv; [unfold last_of in Hl; simpl in Hl; lia|simpl; lia]. }
    set (k := (length pv - 1)%nat).
    assert (Hkv : nth k pv 0%nat = length m).
    { rewrite <- Hl. unfold last_of, k. clear -Hpl.
      destruct (exists_last (l := pv)) as (l & a & ->); [intros ->; simpl in Hpl; lia|].
      rewrite last_last, app_length. simpl. replace (length l + 1 - 1)%nat with (length l) by lia.
      apply nth_middle. }
    pose proof (rd_rank _ _ _ _ _ R) as Hrk.
    specialize (Hy k ltac:(unfold k; lia)). unfold form, nc in Hy.
    rewrite seq_last, suml_app in Hy by exact KL.
    rewrite suml_zero in Hy; [|exact KL|].
    + simpl in Hy. unfold y in Hy. rewrite upd_same in Hy.
      assert (E1 : ent m' (length m) k = 1).
      { rewrite <- Hkv at 1. rewrite (rd_piv _ _ _ _ _ R) by (unfold k; lia). rewrite Nat.eqb_refl. reflexivity. }
      rewrite E1 in Hy. apply (K_1_neq_0 K KL).
      transitivity (- (0 + (1 * - (1) + 0))); [ring|]. rewrite Hy. ring.
    + intros j Hj. apply in_seq in Hj. rewrite (rd_left _ _ _ _ _ R k j) by (unfold k in *; lia). ring.
  - right.
    assert (Hpv : forall k, (k < length pv)%nat -> (nth k pv 0 < nc - 1)%nat).
    { intros k Hk'. pose proof (rd_lt _ _ _ _ _ R k Hk').
      assert (Hle : (nth k pv 0 <= last_of pv)%nat).
      { unfold last_of. clear -R Hk'.
        destruct (exists_last (l := pv)) as (l & a & E); [intros ->; simpl in Hk'; lia|].
        rewrite E, last_last. rewrite E in R, Hk'. rewrite app_length in Hk'. simpl in Hk'.
        destruct (Nat.eq_dec k (length l)) as [->|]; [rewrite nth_middle; lia|].
        pose proof (rd_inc _ _ _ _ _ R k (length l)) as Hi. rewrite app_length in Hi. simpl in Hi.
        specialize (Hi ltac:(lia)). rewrite nth_middle in Hi. lia. }
      assert (Hll : (last_of pv < nc)%nat).
      { unfold last_of. destruct (exists_last (l := pv)) as (l & a & E'); [intros ->; simpl in Hk'; lia|].
        rewrite E', last_last. pose proof (rd_lt _ _ _ _ _ R (length l)) as Hi. rewrite E' in Hi.
        rewrite app_length in Hi. simpl in Hi. specialize (Hi ltac:(lia)). rewrite nth_middle in Hi. lia. }
      unfold nc in *. lia. }
    destruct (extract_ok nc n m' pv c ltac:(unfold nc; lia) R Hend Hpv n 0 []) as (sol' & E' & Hsol).
    { lia. } { lia. } { reflexivity. } { simpl; intros; lia. }
    cbn [start_of] in E'. rewrite E'. cbn [bind].
    exists (resize sol' (length m) 0).
    assert (Hval : forall j, (j < length m)%nat -> vec (resize sol' (length m) 0) j = basic nc m' pv j).
    { intros j Hj. unfold vec. rewrite resize_nth by exact Hj. apply Hsol. unfold nc; lia. }
    split; [reflexivity|]. split; [apply resize_length|].
    (* forms of the reduced matrix on vectors supported on the pivots *)
    assert (Hform : forall y r, (r < n)%nat -> y (length m) = - (1) ->
        (forall j, (j < length m)%nat -> ~ In j pv -> y j = 0) ->
        form nc m' r y = if Nat.ltb r (length pv) then y (nth r pv 0%nat) - ent m' (length m) r else 0).
    { intros y r Hr Hyl Hy. unfold form, nc. rewrite seq_last, suml_app by exact KL. simpl.
      rewrite Hyl. destruct (Nat.ltb_spec r (length pv)) as [Hrp|Hrp].
      - rewrite (suml_single K KL _ _ (nth r pv 0%nat)).
        + rewrite (rd_piv _ _ _ _ _ R) by assumption. rewrite Nat.eqb_refl. ring.
        + apply Nat.eq_dec.
        + apply seq_NoDup.
        + apply in_seq. specialize (Hpv r Hrp). unfold nc in Hpv. lia.
        + intros j Hj Hne'. apply in_seq in Hj.
          destruct (in_dec Nat.eq_dec j pv) as [Hin|Hin]; [|rewrite Hy by (assumption || lia); ring].
          apply In_nth with (d := O) in Hin as (k & Hk' & <-).
          rewrite (rd_piv _ _ _ _ _ R) by assumption.
          destruct (Nat.eqb_spec r k) as [->|]; [congruence|ring].
      - assert (c = nc) by (destruct Hend as [|Hend]; [assumption|lia]). subst c.
        rewrite suml_zero; [|exact KL|].
        + rewrite (rd_low _ _ _ _ _ R) by (unfold nc; lia). ring.
        + intros j Hj. apply in_seq in Hj. rewrite (rd_low _ _ _ _ _ R) by (unfold nc; lia). ring. }
    assert (Hsolve : solves m n (vec (resize sol' (length m) 0))).
    { set (x := upd (vec (resize sol' (length m) 0)) (length m) (- (1))).
      assert (Hx : solves m n x).
      { apply kernel_solves; [exact Hs|apply upd_same|]. apply Hk. intros r Hr.
        rewrite Hform; [|exact Hr|apply upd_same|].
        - destruct (Nat.ltb_spec r (length pv)) as [Hrp|]; [|reflexivity].
          pose proof (Hpv r Hrp) as Hp. unfold nc in Hp.
          unfold x. rewrite upd_other by lia. rewrite Hval by lia.
          rewrite (basic_pivot nc n m' pv c) by assumption. unfold nc. simpl. rewrite Nat.sub_0_r. ring.
        - intros j Hj Hin. unfold x. rewrite upd_other by lia. rewrite Hval by lia. apply basic_other; exact Hin. }
      intros r Hr. rewrite <- (Hx r Hr). apply suml_ext. intros j Hj. apply in_seq in Hj.
      unfold x. rewrite upd_other by lia. reflexivity. }
    split; [exact Hsolve|]. exists pv. split.
    { intros j Hj Hin. rewrite Hval by exact Hj. apply basic_other; exact Hin. }
    intros y Hy Hsupp j Hj.
    destruct (in_dec Nat.eq_dec j pv) as [Hin|Hin].
    2:{ rewrite Hsupp by assumption. rewrite Hval by exact Hj. symmetry. apply basic_other; exact Hin. }
    apply In_nth with (d := O) in Hin as (k & Hk' & <-).
    rewrite Hval by exact Hj. rewrite (basic_pivot nc n m' pv c) by assumption.
    set (y' := upd y (length m) (- (1))).
    assert (Hy' : solves m n y').
    { intros r Hr. rewrite <- (Hy r Hr). apply suml_ext. intros i Hi. apply in_seq in Hi.
      unfold y'. rewrite upd_other by lia. reflexivity. }
    apply kernel_solves in Hy'; [|exact Hs|apply upd_same]. apply Hk in Hy'.
    pose proof (rd_rank _ _ _ _ _ R). specialize (Hy' k ltac:(lia)).
    rewrite Hform in Hy'; [|lia|apply upd_same|].
    + destruct (Nat.ltb_spec k (length pv)); [|lia]. unfold y' in Hy'. rewrite upd_other in Hy' by lia.
      apply (fsub_zero K KL) in Hy'. rewrite Hy'. unfold nc. simpl. rewrite Nat.sub_0_r. reflexivity.
    + intros i Hi Hin. unfold y'. rewrite upd_other by lia. apply Hsupp; assumption.
Qed.

Lemma span_coefs_empty : span_coefs (@nil (list K)) = Err (InternalOperation "empty input matrix").
Proof. reflexivity. Qed.

End GaussProofs.

Arguments ent {K}.
Arguments shaped {K}.
Arguments solves {K}.

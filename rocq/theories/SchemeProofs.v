(** Proofs about the scheme: what keys and ciphertexts contain, and what
    decryption returns. *)
From Coq Require Import String NArith ZArith Bool Lia Permutation Field_theory Field List.
From Verif Require Import Prelude Field LinAlg Msp Spec MspProofs Minimal Gauss GaussProofs Bilinear Scheme.
Import ListNotations.

Lemma mapM_enum_gen {A A2 C} (F : nat * A -> outcome C) (G : A2 * A -> outcome C) l : forall l2 start,
  length l2 = length l ->
  (forall i x y, nth_error l i = Some x -> nth_error l2 i = Some y -> F (start + i, x) = G (y, x)) ->
  mapM F (combine (seq start (length l)) l) = mapM G (combine l2 l).
Proof.
  induction l as [|x t IH]; intros [|y l2] start Hl H; simpl in *; try discriminate; [reflexivity|].
  rewrite <- (H 0 x y) by reflexivity. rewrite Nat.add_0_r.
  destruct (F (start, x)); simpl; try reflexivity.
  rewrite (IH l2 (S start)).
  - reflexivity.
  - lia.
  - intros i x' y' H1 H2. rewrite <- (H (S i) x' y') by assumption. f_equal. f_equal. lia.
Qed.

Lemma mapM_enum {A A2 C} (F : nat * A -> outcome C) (G : A2 * A -> outcome C) l l2 :
  length l2 = length l ->
  (forall i x y, nth_error l i = Some x -> nth_error l2 i = Some y -> F (i, x) = G (y, x)) ->
  mapM F (enumerate l) = mapM G (combine l2 l).
Proof. intros Hl H. apply mapM_enum_gen; [exact Hl|]. intros; apply H; assumption. Qed.

Lemma in_combine_nth {A C} (l1 : list A) (l2 : list C) p :
  In p (combine l1 l2) -> exists i, nth_error l1 i = Some (fst p) /\ nth_error l2 i = Some (snd p).
Proof.
  revert l2; induction l1 as [|x t IH]; intros [|y l2]; simpl; try contradiction.
  intros [<-|H]; [exists 0; auto|]. destruct (IH _ H) as (i & H1 & H2). exists (S i); auto.
Qed.

Lemma nth_in_combine {A C} (l1 : list A) (l2 : list C) i x y :
  nth_error l1 i = Some x -> nth_error l2 i = Some y -> In (x, y) (combine l1 l2).
Proof.
  revert l2 i; induction l1 as [|a t IH]; intros [|b l2] [|i]; simpl; try discriminate.
  - intros [= ->] [= ->]; auto.
  - intros H1 H2; right; eauto.
Qed.

Lemma map_snd_combine {A C} (l1 : list A) (l2 : list C) :
  length l1 = length l2 -> map snd (combine l1 l2) = l2.
Proof. revert l2; induction l1; intros [|y l2]; simpl; intros H; try discriminate; [reflexivity|f_equal; auto]. Qed.

Lemma map_fst_combine {A C} (l1 : list A) (l2 : list C) :
  length l1 = length l2 -> map fst (combine l1 l2) = l1.
Proof. revert l2; induction l1; intros [|y l2]; simpl; intros H; try discriminate; [reflexivity|f_equal; auto]. Qed.

Lemma map_combine_r {A C D} (f : C -> D) (l1 : list A) (l2 : list C) :
  combine l1 (map f l2) = map (fun p => (fst p, f (snd p))) (combine l1 l2).
Proof. revert l2; induction l1; intros [|y l2]; simpl; auto. f_equal; auto. Qed.

Lemma indexN_ok {A} (l : list A) a d :
  (N.to_nat a < length l)%nat -> indexN l a = Ok (nth (N.to_nat a) l d).
Proof.
  intros H. unfold indexN.
  assert (E : N.ltb a (N.of_nat (length l)) = true) by (apply N.ltb_lt; lia).
  rewrite E. apply index_nth. exact H.
Qed.

Lemma indexN_inv {A} (l : list A) a x d :
  indexN l a = Ok x -> (N.to_nat a < length l)%nat /\ x = nth (N.to_nat a) l d.
Proof.
  unfold indexN. destruct (N.ltb_spec a (N.of_nat (length l))) as [H|H]; [|discriminate].
  intros E. assert (L : (N.to_nat a < length l)%nat) by lia.
  rewrite (index_nth l _ d) in E by exact L. split; [exact L|congruence].
Qed.

Section SchemeProofs.
Variable B : BilinearMap.
Variable BL : BilinearLaws B.
Local Notation K := (bm_K B).
Local Notation KL := (bl_field B BL).

Declare Scope fld.
Local Notation "0" := (@f0 K) : fld.
Local Notation "1" := (@f1 K) : fld.
Local Infix "+" := (@fadd K) : fld.
Local Infix "*" := (@fmul K) : fld.
Local Infix "-" := (@fsub K) : fld.
Local Notation "- x" := (@fneg K x) : fld.
Local Open Scope fld.
Add Field KF5 : (fl_field K (bl_field B BL)).

Local Notation g3 := (g3_gen_exp B).
Local Notation g2 := (g2_gen_exp B).
Local Notation gt := (gt_gen_exp B).
Local Notation to1 := (g3_to_g1 B).

(** secret of attribute a *)
Definition tt (t : list K) (a : N) : K := nth (N.to_nat a) t 0.

Lemma sdiv_inv (a b c : K) : sdiv a b = Ok c -> b <> 0 /\ c = a * finv b.
Proof.
  unfold sdiv. destruct (feqb b 0) eqn:E; [discriminate|]. intros [= <-].
  split; [apply (feqb_false K KL); exact E|reflexivity].
Qed.

Lemma sdiv_ok (a b : K) : b <> 0 -> sdiv a b = Ok (a * finv b).
Proof. intros H. unfold sdiv. apply (feqb_false K KL) in H. rewrite H. reflexivity. Qed.

(** ** Sharing vectors *)
Lemma fold_left_add l a : fold_left fadd l a = a + suml (fun x => x) l.
Proof.
  revert a; induction l as [|x t IH]; simpl; intros a; [ring|]. rewrite IH. ring.
Qed.

Lemma sharing_vector_inv cols (draw : nat -> K) (y : K) (u : list K) :
  sharing_vector cols draw y = Ok u -> length u = cols /\ suml (vec u) (seq 0 cols) = y.
Proof.
  unfold sharing_vector. destruct cols as [|[|n]]; [discriminate| |].
  - intros [= <-]. split; [reflexivity|]. simpl. unfold vec; simpl. ring.
  - intros [= <-]. assert (L : length (draws draw 0 (S n) ++ [y - fold_left fadd (draws draw 0 (S n)) 0]) = S (S n)).
    { rewrite app_length. unfold draws. rewrite map_length, seq_length. simpl. lia. }
    split; [exact L|]. rewrite <- L. rewrite suml_seq_vec.
    rewrite suml_app by exact KL. rewrite fold_left_add. rewrite suml_cons. change (suml (fun x : K => x) []) with (@f0 K). ring.
Qed.

Lemma zero_sharing_vector_inv cols (draw : nat -> K) (u : list K) :
  zero_sharing_vector cols draw = Ok u -> length u = cols /\ suml (vec u) (seq 0 cols) = 0.
Proof.
  unfold zero_sharing_vector. destruct cols as [|[|n]]; [discriminate| |].
  - intros [= <-]. split; [reflexivity|]. simpl. unfold vec; simpl. ring.
  - intros [= <-]. assert (L : length (draws draw 0 (S n) ++ [- fold_left fadd (draws draw 0 (S n)) 0]) = S (S n)).
    { rewrite app_length. unfold draws. rewrite map_length, seq_length. simpl. lia. }
    split; [exact L|]. rewrite <- L. rewrite suml_seq_vec.
    rewrite suml_app by exact KL. rewrite fold_left_add. rewrite suml_cons. change (suml (fun x : K => x) []) with (@f0 K). ring.
Qed.

Lemma prod_scal_comb {I} (conv : I -> K) (v1 : list I) (v2 : list K) :
  prod_scal conv v1 v2 = suml (fun p => conv (fst p) * snd p) (combine v1 v2).
Proof.
  unfold prod_scal. destruct (combine v1 v2) as [|x t]; simpl; [reflexivity|].
  rewrite fold_left_add, suml_map. reflexivity.
Qed.

Lemma prod_scal_map {I} (conv : I -> K) (v1 : list I) (v2 : list K) :
  prod_scal (fun x => x) (map conv v1) v2 = prod_scal conv v1 v2.
Proof.
  rewrite !prod_scal_comb. revert v2; induction v1 as [|x t IH]; intros [|y v2]; simpl; try reflexivity.
  rewrite IH. reflexivity.
Qed.

Lemma prod_scal_dotZ row (u : list K) :
  length row = length u -> (forall x, In x row -> (-1 <= x <= 2)%Z) ->
  prod_scal of_i32 row u = dotZ K row (vec u).
Proof.
  intros Hl Hr. unfold dotZ. rewrite dot_vec_comb by (rewrite map_length; exact Hl).
  rewrite prod_scal_comb. revert u Hl; induction row as [|x t IH]; intros [|y u] Hl; simpl in *; try discriminate; [reflexivity|].
  rewrite IH by (auto || congruence). rewrite (fl_i32 K KL); [reflexivity|].
  specialize (Hr x (or_introl eq_refl)). unfold i32_range, i32_min, i32_max. lia.
Qed.

(** ** Key representation *)
Definition in_range (t : list K) (a : N) : Prop := (N.to_nat a < length t)%nat.

(** row of an attribute *)
Definition row_of (m : msp Z) (a : N) : list Z :=
  match assoc_get (attr_to_row m) a with Some i => nth i (matrix m) [] | None => [] end.

Definition share (m : msp Z) (u : list K) (a : N) : K := dotZ K (row_of m a) (vec u).

Lemma mo_nodup_attr f m : msp_of K f m -> NoDup (row_to_attr m).
Proof. intros M. eapply Permutation_NoDup; [symmetry; apply (mo_perm K f m M)|apply (mo_nodup K f m M)]. Qed.

Lemma mo_get f m a i : msp_of K f m -> nth_error (row_to_attr m) i = Some a -> assoc_get (attr_to_row m) a = Some i.
Proof.
  intros M H. rewrite (mo_map K f m M).
  rewrite (assoc_get_combine_nodup _ 0 i) by (auto; eapply mo_nodup_attr; eauto). reflexivity.
Qed.

Lemma mo_get_in f m a : msp_of K f m -> In a (leaves f) ->
  exists i, assoc_get (attr_to_row m) a = Some i /\ nth_error (row_to_attr m) i = Some a /\
            (i < length (matrix m))%nat /\ nth_error (matrix m) i = Some (row_of m a).
Proof.
  intros M H. apply Permutation_in with (l' := row_to_attr m) in H; [|symmetry; apply (mo_perm K f m M)].
  apply In_nth_error in H as [i Hi]. pose proof (mo_get f m a i M Hi) as Hg.
  exists i. split; [exact Hg|]. split; [exact Hi|].
  assert (L : (i < length (matrix m))%nat).
  { rewrite (mo_mat K f m M). apply nth_error_Some. congruence. }
  split; [exact L|]. unfold row_of. rewrite Hg. apply nth_error_nth'. exact L.
Qed.

Lemma mo_get_notin f m a : msp_of K f m -> ~ In a (leaves f) -> assoc_get (attr_to_row m) a = None.
Proof.
  intros M H. rewrite (mo_map K f m M). apply assoc_get_combine_none. intros H'. apply H.
  eapply Permutation_in; [apply (mo_perm K f m M)|exact H'].
Qed.

Lemma row_of_labelled f m p : msp_of K f m -> In p (labelled m) ->
  In (fst p) (leaves f) /\ row_of m (fst p) = snd p.
Proof.
  intros M H. unfold labelled in H. apply in_combine_nth in H as (i & H1 & H2). split.
  - eapply Permutation_in; [apply (mo_perm K f m M)|]. eapply nth_error_In; eauto.
  - unfold row_of. rewrite (mo_get f m _ i M H1). apply nth_error_nth. exact H2.
Qed.

Lemma row_of_width f m a : msp_of K f m -> In a (leaves f) -> length (row_of m a) = nb_col m.
Proof.
  intros M H. destruct (mo_get_in f m a M H) as (i & _ & _ & _ & Hr).
  apply (mo_width K f m M). eapply nth_error_In; eauto.
Qed.

Lemma row_of_entries f m a x : msp_of K f m -> In a (leaves f) -> In x (row_of m a) -> (-1 <= x <= 2)%Z.
Proof.
  intros M H. destruct (mo_get_in f m a M H) as (i & _ & _ & _ & Hr).
  apply (mo_entries K f m M). eapply nth_error_In; eauto.
Qed.

Lemma suml_labelled f m (g : N -> K) : msp_of K f m ->
  suml (fun p => g (fst p)) (labelled m) = suml g (leaves f).
Proof.
  intros M. rewrite <- (suml_perm K KL g _ _ (mo_perm K f m M)).
  transitivity (suml g (map fst (labelled m))); [rewrite suml_map; reflexivity|].
  unfold labelled. rewrite map_fst_combine; [reflexivity|]. symmetry; apply (mo_mat K f m M).
Qed.

(** combinations of rows indexed by attributes *)
Lemma comb_attr f m al (u : nat -> K) : msp_of K f m ->
  suml (fun a => al a * dotZ K (row_of m a) u) (leaves f)
  = suml (fun p => al (fst p) * dotZ K (snd p) u) (labelled m).
Proof.
  intros M. rewrite <- (suml_labelled f m _ M). apply suml_ext. intros p Hp.
  destruct (row_of_labelled f m p M Hp) as [_ ->]. reflexivity.
Qed.

Lemma wt_comb f m al c : msp_of K f m ->
  (wt K al f c <-> forall u, suml (fun a => al a * dotZ K (row_of m a) u) (leaves f) = c * suml u (seq 0 (nb_col m))).
Proof.
  intros M. rewrite <- (mo_wt K f m M al c). split; intros H u; specialize (H u);
    rewrite (comb_attr f m al u M) in *; exact H.
Qed.

Record key_rep (t : list K) (f : node) (m : msp Z) (sg : N -> K) (uk : decryption_key B) : Prop := {
  kr_msp : msp_of K f m;
  kr_dk : dk_msp uk = msp_map of_i32 m;
  kr_raw : raw_d uk = map (fun a => g3 (sg a * finv (tt t a))) (row_to_attr m);
  kr_d : d_i uk = map (fun a => to1 (g3 (sg a * finv (tt t a)))) (row_to_attr m);
  kr_range : forall a, In a (leaves f) -> in_range t a
}.

(** a valid sharing of y *)
Definition shares_of (y : K) (f : node) (sg : N -> K) : Prop :=
  forall al c, wt K al f c -> suml (fun a => al a * sg a) (leaves f) = c * y.

Definition good_key (t : list K) (y : K) (f : node) (uk : decryption_key B) : Prop :=
  exists m sg, key_rep t f m sg uk /\ shares_of y f sg.

Lemma share_shares f m u y : msp_of K f m -> suml (vec u) (seq 0 (nb_col m)) = y ->
  shares_of y f (share m u).
Proof.
  intros M Hu al c Hw. unfold share. apply (proj1 (wt_comb f m al c M)) with (u := vec u) in Hw.
  rewrite Hw, Hu. reflexivity.
Qed.

(** ** Key generation *)
Lemma enum_attr {I C} (mm : msp I) (F : N -> list I -> outcome C) :
  length (row_to_attr mm) = length (matrix mm) ->
  mapM (fun p : nat * list I => let '(i, row) := p in
      let* attribute := get_attr_from_row mm i in F attribute row) (enumerate (matrix mm))
  = mapM (fun p => F (fst p) (snd p)) (labelled mm).
Proof.
  intros Hl. unfold labelled. apply mapM_enum; [exact Hl|].
  intros i x a Hx Ha. unfold get_attr_from_row. apply index_ok in Ha. rewrite Ha. reflexivity.
Qed.

Lemma mapM_ext {A C} (F G : A -> outcome C) l :
  (forall x, In x l -> F x = G x) -> mapM F l = mapM G l.
Proof.
  induction l as [|x t IH]; simpl; intros H; [reflexivity|].
  rewrite H by auto. rewrite IH by auto. reflexivity.
Qed.

Definition gen_one (t : list K) (u : list K) (a : N) (row : list Z) : outcome (G1 B * G3 B) :=
  if N.leb (N.of_nat (length t)) a
  then Err (InternalOperation "Monotone Span Program is invalid: msp-row larger than private-key-t_i")
  else let* t_rho_i := indexN t a in
       let* x := sdiv (prod_scal of_i32 row u) t_rho_i in
       Ok (g1_gen_exp B x).

Lemma key_generation_eq f m (t : list K) (y : K) (draw : nat -> K) : msp_of K f m ->
  key_generation m (mkPriv t y) draw =
  (let* u := sharing_vector (nb_col m) draw y in
   let* big := mapM (fun p => gen_one t u (fst p) (snd p)) (labelled m) in
   Ok (mkDec (map snd big) (map fst big) (msp_map of_i32 m))).
Proof.
  intros M. unfold key_generation. simpl priv_t. simpl priv_y.
  destruct (sharing_vector (nb_col m) draw y) as [u| |]; cbn [bind]; try reflexivity.
  rewrite <- (enum_attr m (gen_one t u)) by (symmetry; apply (mo_mat K f m M)). reflexivity.
Qed.

Lemma gen_one_ok t u a row x : gen_one t u a row = Ok x ->
  in_range t a /\ tt t a <> 0 /\
  x = (to1 (g3 (prod_scal of_i32 row u * finv (tt t a))), g3 (prod_scal of_i32 row u * finv (tt t a))).
Proof.
  unfold gen_one. destruct (N.leb (N.of_nat (length t)) a); [discriminate|]. intros H.
  apply bind_ok in H as (tr & Ht & H). apply bind_ok in H as (z & Hz & H). injection H as <-.
  apply (indexN_inv _ _ _ 0) in Ht as [Hr ->]. apply sdiv_inv in Hz as [Hne ->].
  split; [exact Hr|]. split; [exact Hne|]. rewrite (bl_g1_gen B BL). reflexivity.
Qed.

Lemma gen_one_run t u a row : in_range t a -> tt t a <> 0 ->
  gen_one t u a row = Ok (to1 (g3 (prod_scal of_i32 row u * finv (tt t a))), g3 (prod_scal of_i32 row u * finv (tt t a))).
Proof.
  intros Hr Hne. unfold gen_one. unfold in_range in Hr.
  destruct (N.leb_spec (N.of_nat (length t)) a); [lia|].
  rewrite (indexN_ok t a 0) by exact Hr. simpl. rewrite sdiv_ok by exact Hne. simpl.
  rewrite (bl_g1_gen B BL). reflexivity.
Qed.

Lemma Forall2_map_eq {A C D} (R : A -> C -> Prop) (h : A -> D) (k : C -> D) l1 l2 :
  Forall2 R l1 l2 -> (forall x y, In x l1 -> R x y -> k y = h x) -> map k l2 = map h l1.
Proof.
  induction 1 as [|x y l1 l2 Hxy _ IH]; simpl; intros H; [reflexivity|].
  f_equal; [apply H; auto|]. apply IH. intros; apply H; auto.
Qed.

Lemma labelled_map f m {C} (h : N -> C) : msp_of K f m ->
  map (fun p => h (fst p)) (labelled m) = map h (row_to_attr m).
Proof.
  intros M. rewrite <- (map_map fst h). unfold labelled.
  rewrite map_fst_combine by (symmetry; apply (mo_mat K f m M)). reflexivity.
Qed.

Lemma leaves_labelled f m a : msp_of K f m -> In a (leaves f) -> In (a, row_of m a) (labelled m).
Proof.
  intros M H. destruct (mo_get_in f m a M H) as (i & _ & H1 & _ & H2).
  unfold labelled. eapply nth_in_combine; eauto.
Qed.

Lemma key_generation_rep f m (t : list K) (y : K) (draw : nat -> K) uk :
  msp_of K f m -> key_generation m (mkPriv t y) draw = Ok uk ->
  exists u, sharing_vector (nb_col m) draw y = Ok u /\ key_rep t f m (share m u) uk /\
    (forall a, In a (leaves f) -> tt t a <> 0).
Proof.
  intros M H. rewrite (key_generation_eq f) in H by exact M.
  apply bind_ok in H as (u & Hu & H). apply bind_ok in H as (big & Hbig & H). injection H as <-.
  exists u. split; [exact Hu|]. apply sharing_vector_inv in Hu as [Lu Su].
  apply mapM_ok_inv in Hbig.
  assert (Hone : forall p x, In p (labelled m) -> gen_one t u (fst p) (snd p) = Ok x ->
     x = (to1 (g3 (share m u (fst p) * finv (tt t (fst p)))), g3 (share m u (fst p) * finv (tt t (fst p))))).
  { intros p x Hp Hx. apply gen_one_ok in Hx as (_ & _ & ->).
    destruct (row_of_labelled f m p M Hp) as [Hin Hrow].
    unfold share. rewrite Hrow. rewrite prod_scal_dotZ; [reflexivity| |].
    - rewrite Lu, <- Hrow. eapply row_of_width; eauto.
    - intros z Hz. rewrite <- Hrow in Hz. eapply row_of_entries; eauto. }
  assert (Hall : forall a, In a (leaves f) -> in_range t a /\ tt t a <> 0).
  { intros a Ha. pose proof (leaves_labelled f m a M Ha) as Hp.
    clear Hone. revert Hp. clear -Hbig BL. induction Hbig as [|p x l1 l2 Hpx _ IH]; [intros []|].
    intros [->|Hin]; [|auto]. apply gen_one_ok in Hpx as (H1 & H2 & _). auto. }
  split; [|intros a Ha; apply Hall; exact Ha].
  constructor; simpl.
  - exact M.
  - reflexivity.
  - rewrite <- (labelled_map f m (fun a => g3 (share m u a * finv (tt t a))) M).
    eapply Forall2_map_eq; [exact Hbig|]. intros p x Hp Hx. rewrite (Hone p x Hp Hx). reflexivity.
  - rewrite <- (labelled_map f m (fun a => to1 (g3 (share m u a * finv (tt t a)))) M).
    eapply Forall2_map_eq; [exact Hbig|]. intros p x Hp Hx. rewrite (Hone p x Hp Hx). reflexivity.
  - intros a Ha. apply Hall; exact Ha.
Qed.

Lemma sharing_vector_total cols (draw : nat -> K) (y : K) : (1 <= cols)%nat -> exists u, sharing_vector cols draw y = Ok u.
Proof. destruct cols as [|[|n]]; simpl; [lia|eauto|eauto]. Qed.

Lemma zero_sharing_vector_total cols (draw : nat -> K) : (1 <= cols)%nat -> exists u, zero_sharing_vector cols draw = Ok u.
Proof. destruct cols as [|[|n]]; simpl; [lia|eauto|eauto]. Qed.

Lemma key_generation_total f m (t : list K) (y : K) (draw : nat -> K) :
  msp_of K f m -> (forall a, In a (leaves f) -> in_range t a /\ tt t a <> 0) ->
  exists uk, key_generation m (mkPriv t y) draw = Ok uk.
Proof.
  intros M H. rewrite (key_generation_eq f) by exact M.
  destruct (sharing_vector_total (nb_col m) draw y) as [u Hu]; [rewrite (mo_cols K f m M); lia|].
  rewrite Hu. cbn [bind].
  rewrite (mapM_ok_map _ (fun p => (to1 (g3 (prod_scal of_i32 (snd p) u * finv (tt t (fst p)))),
                                    g3 (prod_scal of_i32 (snd p) u * finv (tt t (fst p)))))).
  - cbn [bind]. eauto.
  - intros p Hp. destruct (row_of_labelled f m p M Hp) as [Hin _]. destruct (H _ Hin).
    apply gen_one_run; assumption.
Qed.

Lemma key_generation_out_of_range f m (t : list K) (y : K) (draw : nat -> K) a :
  msp_of K f m -> (forall x, In x t -> x <> 0) -> In a (leaves f) -> ~ in_range t a ->
  key_generation m (mkPriv t y) draw =
  Err (InternalOperation "Monotone Span Program is invalid: msp-row larger than private-key-t_i").
Proof.
  intros M Hnz Ha Hr. rewrite (key_generation_eq f) by exact M.
  destruct (sharing_vector_total (nb_col m) draw y) as [u Hu]; [rewrite (mo_cols K f m M); lia|].
  rewrite Hu. cbn [bind].
  assert (E : mapM (fun p => gen_one t u (fst p) (snd p)) (labelled m) =
     Err (InternalOperation "Monotone Span Program is invalid: msp-row larger than private-key-t_i")).
  { pose proof (leaves_labelled f m a M Ha) as Hp. induction (labelled m) as [|p l IH]; [destruct Hp|].
    simpl. destruct (N.leb_spec (N.of_nat (length t)) (fst p)) as [Hge|Hlt].
    - unfold gen_one at 1. apply N.leb_le in Hge. rewrite Hge. reflexivity.
    - rewrite gen_one_run.
      + simpl. destruct Hp as [->|Hp]; [exfalso; apply Hr; unfold in_range; simpl in Hlt; lia|].
        rewrite IH by exact Hp. reflexivity.
      + unfold in_range; lia.
      + apply Hnz. apply nth_In. lia. }
  rewrite E. reflexivity.
Qed.

(** ** Delegation *)
Definition inv_of (t : list K) : list (G3 B) := map (fun x => g3 (1 * finv x)) t.

Definition deleg_one (uk : decryption_key B) (del : delegation_key B) {I} (conv : I -> K) (u : list K) (a : N) (row : list I)
  : outcome (G1 B * G3 B) :=
  let* gt_rho_i := indexN (inv_t del) a in
  match get_row_from_attr (dk_msp uk) a with
  | Some ix => let* raw := index (raw_d uk) ix in Ok (g3_mul B raw (g3_exp B gt_rho_i (prod_scal conv row u)))
  | None => Err (InternalOperation "new attribute is not allowed")
  end.

Lemma rerandomised_eq {I} (conv : I -> K) (m : msp I) u uk del :
  length (row_to_attr m) = length (matrix m) ->
  rerandomised_shares conv m u uk del =
  mapM (fun p => deleg_one uk del conv u (fst p) (snd p)) (labelled m).
Proof.
  intros Hl. rewrite <- (enum_attr m (deleg_one uk del conv u)) by exact Hl. reflexivity.
Qed.

Lemma nth_inv_of t a : in_range t a -> nth (N.to_nat a) (inv_of t) (g3 0) = g3 (1 * finv (tt t a)).
Proof.
  intros H. unfold inv_of, tt.
  rewrite (nth_indep _ _ (g3 (1 * finv 0))) by (rewrite map_length; exact H).
  rewrite (map_nth (fun x => g3 (1 * finv x))). reflexivity.
Qed.

Lemma deleg_one_run t f m sg uk I (conv : I -> K) u a row :
  key_rep t f m sg uk -> In a (leaves f) ->
  deleg_one uk (mkDel (inv_of t)) conv u a row =
  Ok (to1 (g3 ((sg a + prod_scal conv row u) * finv (tt t a))), g3 ((sg a + prod_scal conv row u) * finv (tt t a))).
Proof.
  intros [M Hdk Hraw Hd Hr] Ha. pose proof (Hr a Ha) as Hra. unfold deleg_one. simpl inv_t.
  rewrite (indexN_ok _ a (g3 0)) by (unfold inv_of; rewrite map_length; exact Hra). cbn [bind].
  rewrite nth_inv_of by exact Hra.
  unfold get_row_from_attr. rewrite Hdk. simpl attr_to_row.
  destruct (mo_get_in f m a M Ha) as (i & Hg & Hi & _ & _). rewrite Hg.
  assert (Hix : index (raw_d uk) i = Ok (g3 (sg a * finv (tt t a)))).
  { apply index_ok. rewrite Hraw. rewrite nth_error_map, Hi. reflexivity. }
  rewrite Hix. cbn [bind]. rewrite (bl_g3_exp B BL), (bl_g3_mul B BL).
  replace ((sg a + prod_scal conv row u) * finv (tt t a))
    with (sg a * finv (tt t a) + 1 * finv (tt t a) * prod_scal conv row u) by ring.
  reflexivity.
Qed.

Lemma deleg_one_new t f m sg uk I (conv : I -> K) u a row :
  key_rep t f m sg uk -> ~ In a (leaves f) -> in_range t a ->
  deleg_one uk (mkDel (inv_of t)) conv u a row = Err (InternalOperation "new attribute is not allowed").
Proof.
  intros [M Hdk Hraw Hd Hr] Ha Hra. unfold deleg_one. simpl inv_t.
  rewrite (indexN_ok _ a (g3 0)) by (unfold inv_of; rewrite map_length; exact Hra). cbn [bind].
  unfold get_row_from_attr. rewrite Hdk. simpl attr_to_row.
  rewrite (mo_get_notin f m a M Ha). reflexivity.
Qed.

Lemma deleg_one_out t uk I (conv : I -> K) u a row :
  ~ in_range t a ->
  deleg_one uk (mkDel (inv_of t)) conv u a row = Panic IndexOutOfBounds.
Proof.
  intros Hra. unfold deleg_one, indexN. simpl inv_t. unfold inv_of. rewrite map_length.
  unfold in_range in Hra. destruct (N.ltb_spec a (N.of_nat (length t))); [lia|]. reflexivity.
Qed.

Lemma key_delegation_rep t f m sg uk f' m' (draw : nat -> K) uk' :
  key_rep t f m sg uk -> msp_of K f' m' ->
  key_delegation m' uk (mkDel (inv_of t)) draw = Ok uk' ->
  exists u, zero_sharing_vector (nb_col m') draw = Ok u /\
    incl (leaves f') (leaves f) /\
    key_rep t f' m' (fun a => sg a + share m' u a) uk'.
Proof.
  intros R M' H. unfold key_delegation in H. apply bind_ok in H as (u & Hu & H).
  exists u. split; [exact Hu|]. pose proof (zero_sharing_vector_inv _ _ _ Hu) as [Lu _].
  rewrite rerandomised_eq in H by (symmetry; apply (mo_mat K f' m' M')).
  apply bind_ok in H as (big & Hbig & H). injection H as <-.
  apply mapM_ok_inv in Hbig.
  assert (Hincl : incl (leaves f') (leaves f)).
  { intros a Ha. pose proof (leaves_labelled f' m' a M' Ha) as Hp.
    revert Hp. clear -Hbig R BL. induction Hbig as [|p x l1 l2 Hpx _ IH]; [intros []|].
    intros [->|Hin]; [|auto]. simpl in Hpx.
    destruct (in_dec N.eq_dec a (leaves f)) as [Hi|Hni]; [exact Hi|exfalso].
    destruct (Nat.lt_ge_cases (N.to_nat a) (length t)) as [Hr|Hr].
    - rewrite (deleg_one_new t f m sg) in Hpx by assumption. discriminate.
    - rewrite (deleg_one_out t) in Hpx by (unfold in_range; lia). discriminate. }
  split; [exact Hincl|].
  assert (Hone : forall p x, In p (labelled m') -> deleg_one uk (mkDel (inv_of t)) of_i32 u (fst p) (snd p) = Ok x ->
     x = (to1 (g3 ((sg (fst p) + share m' u (fst p)) * finv (tt t (fst p)))), g3 ((sg (fst p) + share m' u (fst p)) * finv (tt t (fst p))))).
  { intros p x Hp Hx. destruct (row_of_labelled f' m' p M' Hp) as [Hin Hrow].
    rewrite (deleg_one_run t f m sg) in Hx by auto. injection Hx as <-.
    unfold share. rewrite Hrow. rewrite prod_scal_dotZ; [reflexivity| |].
    - rewrite Lu, <- Hrow. eapply row_of_width; eauto.
    - intros z Hz. rewrite <- Hrow in Hz. eapply row_of_entries; eauto. }
  constructor; simpl.
  - exact M'.
  - reflexivity.
  - rewrite <- (labelled_map f' m' (fun a => g3 ((sg a + share m' u a) * finv (tt t a))) M').
    eapply Forall2_map_eq; [exact Hbig|]. intros p x Hp Hx. rewrite (Hone p x Hp Hx). reflexivity.
  - rewrite <- (labelled_map f' m' (fun a => to1 (g3 ((sg a + share m' u a) * finv (tt t a)))) M').
    eapply Forall2_map_eq; [exact Hbig|]. intros p x Hp Hx. rewrite (Hone p x Hp Hx). reflexivity.
  - intros a Ha. apply (kr_range _ _ _ _ _ R). auto.
Qed.

Lemma key_delegation_total t f m sg uk f' m' (draw : nat -> K) :
  key_rep t f m sg uk -> msp_of K f' m' -> incl (leaves f') (leaves f) ->
  exists uk', key_delegation m' uk (mkDel (inv_of t)) draw = Ok uk'.
Proof.
  intros R M' Hi. unfold key_delegation.
  destruct (zero_sharing_vector_total (nb_col m') draw) as [u Hu]; [rewrite (mo_cols K f' m' M'); lia|].
  rewrite Hu. cbn [bind].
  rewrite rerandomised_eq by (symmetry; apply (mo_mat K f' m' M')).
  erewrite mapM_ok_map; [cbn [bind]; eauto|].
  intros p Hp. destruct (row_of_labelled f' m' p M' Hp) as [Hin _].
  apply (deleg_one_run t f m sg); auto.
Qed.

(** delegation to a new attribute: an error, provided no attribute is out of range *)
Lemma key_delegation_new t f m sg uk f' m' (draw : nat -> K) :
  key_rep t f m sg uk -> msp_of K f' m' ->
  (forall a, In a (leaves f') -> in_range t a) -> ~ incl (leaves f') (leaves f) ->
  key_delegation m' uk (mkDel (inv_of t)) draw = Err (InternalOperation "new attribute is not allowed").
Proof.
  intros R M' Hr Hni. unfold key_delegation.
  destruct (zero_sharing_vector_total (nb_col m') draw) as [u Hu]; [rewrite (mo_cols K f' m' M'); lia|].
  rewrite Hu. cbn [bind].
  rewrite rerandomised_eq by (symmetry; apply (mo_mat K f' m' M')).
  assert (Hex : exists p, In p (labelled m') /\ ~ In (fst p) (leaves f)).
  { destruct (Forall_Exists_dec (fun a => In a (leaves f)) (fun a => in_dec N.eq_dec a (leaves f)) (leaves f')) as [Ha|Ha].
    - exfalso; apply Hni. intros a Hin. rewrite Forall_forall in Ha. auto.
    - apply Exists_exists in Ha as (a & Hin & Hn). exists (a, row_of m' a).
      split; [apply (leaves_labelled f'); assumption|exact Hn]. }
  assert (Hrl : forall p, In p (labelled m') -> in_range t (fst p)).
  { intros p Hp. apply Hr. apply (row_of_labelled f' m' p M' Hp). }
  destruct Hex as (p & Hp & Hn).
  assert (E : mapM (fun p => deleg_one uk (mkDel (inv_of t)) of_i32 u (fst p) (snd p)) (labelled m')
     = Err (InternalOperation "new attribute is not allowed")).
  { induction (labelled m') as [|q l IH]; [destruct Hp|]. simpl.
    destruct (in_dec N.eq_dec (fst q) (leaves f)) as [Hi|Hi].
    - rewrite (deleg_one_run t f m sg) by assumption. simpl.
      destruct Hp as [->|Hp]; [contradiction|]. rewrite IH; [reflexivity|exact Hp|].
      intros; apply Hrl; right; assumption.
    - rewrite (deleg_one_new t f m sg); [reflexivity|exact R|exact Hi|]. apply Hrl; left; reflexivity. }
  rewrite E. reflexivity.
Qed.

(** ** Randomisation *)
Lemma rerandomised_id m u uk del :
  length (row_to_attr m) = length (matrix m) ->
  rerandomised_shares (fun x => x) (msp_map (@of_i32 K) m) u uk del = rerandomised_shares of_i32 m u uk del.
Proof.
  intros Hl. rewrite rerandomised_eq by (simpl; rewrite map_length; exact Hl).
  rewrite rerandomised_eq by exact Hl. unfold labelled. simpl row_to_attr. simpl matrix.
  rewrite map_combine_r.
  induction (combine (row_to_attr m) (matrix m)) as [|p l IH]; [reflexivity|]. simpl.
  rewrite IH. unfold deleg_one at 1 3. rewrite prod_scal_map. reflexivity.
Qed.

Lemma key_randomization_eq t f m sg uk del (draw : nat -> K) :
  key_rep t f m sg uk ->
  key_randomization uk del draw = key_delegation m uk del draw.
Proof.
  intros R. pose proof (kr_msp _ _ _ _ _ R) as M. unfold key_randomization, key_delegation.
  rewrite (kr_dk _ _ _ _ _ R). simpl nb_col.
  destruct (zero_sharing_vector (nb_col m) draw) as [u| |]; cbn [bind]; try reflexivity.
  rewrite rerandomised_id by (symmetry; apply (mo_mat K f m M)). reflexivity.
Qed.

(** ** Encryption *)
Definition pub_of (t : list K) (y : K) : master_public_key B := mkPub (map g2 t) (gt y).

Lemma indexN_pub t y a : in_range t a -> indexN (pub_t (pub_of t y)) a = Ok (g2 (tt t a)).
Proof.
  intros H. simpl pub_t. rewrite (indexN_ok _ a (g2 0)) by (rewrite map_length; exact H).
  rewrite (map_nth g2). reflexivity.
Qed.

Lemma encrypt_inv P mu gam t y s ct :
  encrypt P (gt mu) gam (pub_of t y) s = Ok ct ->
  (length gam < length t)%nat /\ (forall a, In a gam -> in_range t a) /\
  ct = mkCt gam (gt (mu + y * s)) (map (fun a => g2 (tt t a * s)) gam).
Proof.
  unfold encrypt. destruct (Nat.leb_spec (length (pub_t (pub_of t y))) (length gam)) as [H|H].
  - destruct (usize_sub _ _ _); discriminate.
  - intros E. apply bind_ok in E as (ei & Hei & E). injection E as <-.
    simpl in H. rewrite map_length in H. split; [exact H|].
    apply mapM_ok_inv in Hei.
    assert (Hr : forall a, In a gam -> in_range t a).
    { intros a Ha. revert Ha. induction Hei as [|x z l1 l2 Hxz _ IH]; [intros []|].
      intros [->|Ha].
      - apply bind_ok in Hxz as (w & Hw & _). apply (indexN_inv _ _ _ (g2 0)) in Hw as [Hw _].
        unfold in_range. simpl in Hw. rewrite map_length in Hw. exact Hw.
      - apply IH; [|exact Ha]. simpl in H. lia. }
    split; [exact Hr|]. rewrite (bl_gt_exp B BL), (bl_gt_mul B BL). f_equal.
    transitivity (map (fun x => x) ei); [rewrite map_id; reflexivity|].
    eapply Forall2_map_eq; [exact Hei|]. intros a z Ha Hz. cbv beta in Hz.
    rewrite (indexN_pub t y a) in Hz by auto. cbn [bind] in Hz. rewrite (bl_g2_exp B BL) in Hz. congruence.
Qed.

Lemma encrypt_run P mu gam t y s :
  (length gam < length t)%nat -> (forall a, In a gam -> in_range t a) ->
  encrypt P (gt mu) gam (pub_of t y) s = Ok (mkCt gam (gt (mu + y * s)) (map (fun a => g2 (tt t a * s)) gam)).
Proof.
  intros Hl Hr. unfold encrypt. destruct (Nat.leb_spec (length (pub_t (pub_of t y))) (length gam)) as [H|H].
  - simpl in H. rewrite map_length in H. lia.
  - rewrite (mapM_ok_map _ (fun a => g2 (tt t a * s))).
    + cbn [bind]. unfold pub_of; simpl pub_y. rewrite (bl_gt_exp B BL), (bl_gt_mul B BL). reflexivity.
    + intros a Ha. rewrite indexN_pub by auto. cbn [bind]. rewrite (bl_g2_exp B BL). reflexivity.
Qed.

(** ** Decryption *)
Lemma keep_nonzero_eq {A} (a : list K) (l : list A) :
  length a = length l ->
  keep_nonzero a l = Ok (map snd (filter (fun p => negb (feqb (fst p) 0)) (combine a l))).
Proof.
  intros Hl. unfold keep_nonzero.
  rewrite (mapM_enum _ (fun p : K * A => Ok (if feqb (fst p) 0 then [] else [snd p])) l a) by
    (auto; intros i x ai Hx Hai; apply index_ok in Hai; rewrite Hai; reflexivity).
  rewrite (mapM_ok_map _ (fun p : K * A => if feqb (fst p) 0 then [] else [snd p])) by reflexivity.
  cbn [bind]. f_equal. clear Hl. induction (combine a l) as [|p q IH]; [reflexivity|].
  simpl. destruct (feqb (fst p) 0); simpl; rewrite IH; reflexivity.
Qed.

Definition selected (f : node) (gam : list N) : list N := filter (fun a => inb a (leaves f)) gam.

Lemma selected_in f gam a : In a (selected f gam) <-> In a gam /\ In a (leaves f).
Proof. unfold selected. rewrite filter_In, inb_spec. tauto. Qed.

Lemma select_rows_eq t f m sg uk gam ep s :
  key_rep t f m sg uk ->
  select_rows (mkCt gam ep (map (fun a => g2 (tt t a * s)) gam)) uk =
  Ok (map (fun a => (map of_i32 (row_of m a), to1 (g3 (sg a * finv (tt t a))), g2 (tt t a * s)))
          (selected f gam)).
Proof.
  intros [M Hdk Hraw Hd Hr]. unfold select_rows. simpl gamma.
  pose (h := fun a => (map (@of_i32 K) (row_of m a), to1 (g3 (sg a * finv (tt t a))), g2 (tt t a * s))).
  fold h.
  rewrite (mapM_enum _ (fun p : N * N => Ok (if inb (fst p) (leaves f) then [h (fst p)] else [])) gam gam).
  - rewrite (mapM_ok_map _ (fun p : N * N => if inb (fst p) (leaves f) then [h (fst p)] else [])) by reflexivity.
    cbn [bind]. f_equal. unfold selected.
    induction gam as [|a g IH]; [reflexivity|]. simpl. rewrite IH.
    destruct (inb a (leaves f)); reflexivity.
  - reflexivity.
  - intros i a a' Ha Ha'. rewrite Ha in Ha'. injection Ha' as <-. cbn [fst].
    unfold get_row_from_attr. rewrite Hdk. cbn [attr_to_row msp_map].
    destruct (inb a (leaves f)) eqn:E.
    + apply inb_spec in E. destruct (mo_get_in f m a M E) as (r & Hg & Hra & Hlen & Hrow).
      rewrite Hg. unfold get_row. cbn [matrix msp_map].
      assert (E1 : index (map (map (@of_i32 K)) (matrix m)) r = Ok (map of_i32 (row_of m a))).
      { apply index_ok. rewrite nth_error_map, Hrow. reflexivity. }
      assert (E2 : index (d_i uk) r = Ok (to1 (g3 (sg a * finv (tt t a))))).
      { apply index_ok. rewrite Hd, nth_error_map, Hra. reflexivity. }
      assert (E3 : index (map (fun a => g2 (tt t a * s)) gam) i = Ok (g2 (tt t a * s))).
      { apply index_ok. rewrite nth_error_map, Ha. reflexivity. }
      rewrite E1. cbn [bind]. rewrite E2. cbn [bind e_i]. rewrite E3. reflexivity.
    + rewrite (mo_get_notin f m a M); [reflexivity|]. intros Hin. apply inb_spec in Hin. congruence.
Qed.

(** grouping the coefficients of repeated attributes *)
Definition coef (ps : list (K * N)) (a : N) : K :=
  suml (fun p => if N.eqb (snd p) a then fst p else 0) ps.

Lemma group_coef ps L (g : N -> K) :
  NoDup L -> (forall p, In p ps -> In (snd p) L) ->
  suml (fun p => fst p * g (snd p)) ps = suml (fun a => coef ps a * g a) L.
Proof.
  intros Hnd. induction ps as [|p ps IH]; intros H.
  - simpl. symmetry. apply suml_zero; [exact KL|]. intros a _. unfold coef; simpl. ring.
  - rewrite suml_cons, IH by (intros; apply H; right; assumption).
    transitivity (suml (fun a => (if N.eqb (snd p) a then fst p else 0) * g a) L + suml (fun a => coef ps a * g a) L).
    + f_equal. rewrite (suml_single K KL _ L (snd p)).
      * rewrite N.eqb_refl. reflexivity.
      * apply N.eq_dec.
      * exact Hnd.
      * apply H; left; reflexivity.
      * intros a _ Hne. destruct (N.eqb_spec (snd p) a); [congruence|ring].
    + rewrite <- suml_add by exact KL. apply suml_ext. intros a _. unfold coef; simpl. ring.
Qed.

Lemma coef_zero ps a : ~ In a (map snd ps) -> coef ps a = 0.
Proof.
  intros H. unfold coef. apply suml_zero; [exact KL|]. intros p Hp.
  destruct (N.eqb_spec (snd p) a) as [E|]; [|reflexivity]. exfalso; apply H. rewrite <- E. apply in_map; exact Hp.
Qed.

Lemma spread_coef (L as_ : list N) : NoDup L -> (forall a, In a as_ -> In a L) ->
  forall al : N -> K, (forall a, ~ In a as_ -> al a = 0) ->
  exists xs, length xs = length as_ /\
    (forall g, suml (fun p => fst p * g (snd p)) (combine xs as_) = suml (fun a => al a * g a) L).
Proof.
  intros Hnd. induction as_ as [|b t IH]; intros Hin al Hal.
  - exists []. split; [reflexivity|]. intros g. simpl. symmetry. apply suml_zero; [exact KL|].
    intros a _. rewrite Hal by (intros []). ring.
  - destruct (IH ltac:(intros; apply Hin; right; assumption) (fun a => if N.eqb a b then 0 else al a)) as (xs & Lx & Hx).
    { intros a Ha. destruct (N.eqb_spec a b); [reflexivity|]. apply Hal. intros [->|H]; [congruence|contradiction]. }
    exists (al b :: xs). split; [simpl; congruence|]. intros g. simpl combine. rewrite suml_cons, Hx. cbn [fst snd].
    transitivity (suml (fun a => (if N.eqb a b then al a else 0) * g a) L +
                  suml (fun a => (if N.eqb a b then 0 else al a) * g a) L).
    + f_equal. rewrite (suml_single K KL _ L b).
      * rewrite N.eqb_refl. reflexivity.
      * apply N.eq_dec.
      * exact Hnd.
      * apply Hin; left; reflexivity.
      * intros a _ Hne. destruct (N.eqb_spec a b); [congruence|ring].
    + rewrite <- suml_add by exact KL. apply suml_ext. intros a _. destruct (N.eqb a b); ring.
Qed.

Lemma suml_seq_combine {A} (xs : list K) (l : list A) (h : A -> K) d :
  length xs = length l ->
  suml (fun j => vec xs j * h (nth j l d)) (seq 0 (length l)) = suml (fun p => fst p * h (snd p)) (combine xs l).
Proof.
  revert xs; induction l as [|a t IH]; intros [|x xs] H; simpl in H; try discriminate; [reflexivity|].
  simpl. rewrite <- IH by congruence. f_equal. rewrite <- seq_shift, suml_map. reflexivity.
Qed.

Definition sub_matrix (m : msp Z) (as_ : list N) : list (list K) := map (fun a => map of_i32 (row_of m a)) as_.

Lemma sub_matrix_shaped f m as_ : msp_of K f m -> incl as_ (leaves f) ->
  shaped (length (sub_matrix m as_)) (nb_col m) (sub_matrix m as_).
Proof.
  intros M Hi. split; [reflexivity|]. intros col Hin. apply in_map_iff in Hin as (a & <- & Ha).
  rewrite map_length. eapply row_of_width; eauto.
Qed.

Lemma sub_matrix_solves f m as_ xs : msp_of K f m -> incl as_ (leaves f) -> length xs = length as_ ->
  (solves (sub_matrix m as_) (nb_col m) (vec xs) <-> wt K (coef (combine xs as_)) f 1).
Proof.
  intros M Hi Hl. rewrite (wt_comb f m _ 1 M).
  assert (Hg : forall u, suml (fun a => coef (combine xs as_) a * dotZ K (row_of m a) u) (leaves f)
       = suml (fun p => fst p * dotZ K (row_of m (snd p)) u) (combine xs as_)).
  { intros u. symmetry. apply (group_coef (combine xs as_) (leaves f) (fun a => dotZ K (row_of m a) u)).
    - apply (mo_nodup K f m M).
    - intros p Hp. apply Hi. destruct p as [x a]. eapply in_combine_r; exact Hp. }
  assert (Hent : forall a r, In a (leaves f) -> (r < nb_col m)%nat ->
       nth r (map (@of_i32 K) (row_of m a)) 0 = dotZ K (row_of m a) (basis r)).
  { intros a r Ha Hr. unfold dotZ. rewrite dot_basis by exact KL.
    pose proof (row_of_width f m a M Ha) as Hw.
    f_equal. apply map_ext_in. intros z Hz. apply (fl_i32 K KL).
    pose proof (row_of_entries f m a z M Ha Hz). unfold i32_range, i32_min, i32_max; lia. }
  assert (Hsum : forall r, (r < nb_col m)%nat ->
     suml (fun j => vec xs j * ent (sub_matrix m as_) j r) (seq 0 (length (sub_matrix m as_)))
     = suml (fun p => fst p * dotZ K (row_of m (snd p)) (basis r)) (combine xs as_)).
  { intros r Hr. unfold sub_matrix at 2. rewrite map_length.
    rewrite <- (suml_seq_combine xs as_ (fun a => dotZ K (row_of m a) (basis r)) 0%N) by exact Hl.
    apply suml_ext. intros j Hj. apply in_seq in Hj. f_equal. unfold ent, sub_matrix.
    rewrite (nth_indep _ [] (map of_i32 (row_of m 0%N))) by (rewrite map_length; lia).
    rewrite (map_nth (fun a => map of_i32 (row_of m a))). apply Hent; [|exact Hr].
    apply Hi, nth_In. lia. }
  split.
  - intros H u. rewrite Hg.
    (* decompose u on the basis *)
    transitivity (suml (fun p => suml (fun r => fst p * dotZ K (row_of m (snd p)) (basis r) * u r) (seq 0 (nb_col m))) (combine xs as_)).
    + apply suml_ext. intros p Hp.
      assert (Ha : In (snd p) (leaves f)) by (apply Hi; destruct p as [x a]; eapply in_combine_r; exact Hp).
      unfold dotZ at 1. rewrite dot_sum by exact KL. rewrite map_length, (row_of_width f m _ M Ha).
      rewrite <- suml_scal by exact KL. apply suml_ext. intros r Hr.
      unfold dotZ. rewrite dot_basis by exact KL. ring.
    + rewrite suml_swap by exact KL. rewrite <- suml_scal by exact KL. apply suml_ext. intros r Hr. apply in_seq in Hr.
      rewrite suml_scal_r by exact KL. rewrite <- Hsum by lia. rewrite H by lia. reflexivity.
  - intros H r Hr. rewrite Hsum by exact Hr. rewrite <- Hg, H.
    rewrite (suml_single K KL _ _ r).
    + unfold basis. rewrite Nat.eqb_refl. ring.
    + apply Nat.eq_dec.
    + apply seq_NoDup.
    + apply in_seq; lia.
    + intros y _ Hne. unfold basis. destruct (Nat.eqb_spec r y); congruence.
Qed.

Lemma attrs_dec gam a : attrs gam a \/ ~ attrs gam a.
Proof. unfold attrs. destruct (in_dec N.eq_dec a gam); auto. Qed.

Lemma filter_map_swap {A C} (p : C -> bool) (h : A -> C) l : filter p (map h l) = map h (filter (fun x => p (h x)) l).
Proof. induction l as [|x t IH]; simpl; [reflexivity|]. destruct (p (h x)); simpl; rewrite IH; reflexivity. Qed.

Lemma find_pos (as_ : list N) a pos j :
  find (fun j => N.eqb (nth j as_ 0%N) a) pos = Some j -> In j pos /\ nth j as_ 0%N = a.
Proof. intros H. apply find_some in H as [H1 H2]. apply N.eqb_eq in H2. auto. Qed.

Lemma find_pos_some (as_ : list N) a pos :
  In a (map (fun j => nth j as_ 0%N) pos) -> exists j, find (fun j => N.eqb (nth j as_ 0%N) a) pos = Some j.
Proof.
  intros H. apply in_map_iff in H as (j & E & Hj).
  destruct (find (fun j => N.eqb (nth j as_ 0%N) a) pos) as [k|] eqn:F; [eauto|].
  apply (find_none _ _ F) in Hj. rewrite E, N.eqb_refl in Hj. discriminate.
Qed.

(** The solver on the rows of a list of attributes of the formula. *)
Theorem span_selected f m as_ : msp_of K f m -> incl as_ (leaves f) -> as_ <> [] ->
  (span_coefs (sub_matrix m as_) = Ok None /\ ~ holds (attrs as_) f) \/
  (holds (attrs as_) f /\ exists sol T, span_coefs (sub_matrix m as_) = Ok (Some sol) /\
     length sol = length as_ /\ minimal f T /\ incl T as_ /\
     (forall a, coef (combine sol as_) a = ind K T a) /\
     (forall x, In x sol -> x = 0 \/ x = 1) /\
     NoDup (map snd (filter (fun p => negb (feqb (fst p) 0)) (combine sol as_)))).
Proof.
  intros M Hincl Hne.
  assert (Hne' : sub_matrix m as_ <> []) by (destruct as_; [contradiction|discriminate]).
  assert (Lsm : length (sub_matrix m as_) = length as_) by (unfold sub_matrix; apply map_length).
  destruct (span_coefs_spec K KL (sub_matrix m as_) (nb_col m) Hne' ltac:(rewrite (mo_cols K f m M); lia)
              (sub_matrix_shaped f m as_ M Hincl)) as [[Esc Hno]|(sol & Esc & Lsol & Hsol & pv & Hsupp & Huniq)].
  - left. split; [exact Esc|]. intros Hh.
    destruct (holds_wt K KL (attrs as_) f (mo_nodup K f m M) Hh) as (al & Hw & Hv).
    assert (Hs : forall a, ~ In a as_ -> al a = 0).
    { intros a Ha. destruct (Hv a) as [|(_ & H1 & H2)]; [assumption|]. contradiction. }
    destruct (spread_coef (leaves f) as_ (mo_nodup K f m M) Hincl al Hs) as (xs & Lx & Hx).
    apply (Hno (vec xs)). apply (sub_matrix_solves f m as_ xs M Hincl Lx).
    apply (wt_comb f m _ 1 M). intros u.
    rewrite <- (group_coef (combine xs as_) (leaves f) (fun a => dotZ K (row_of m a) u)).
    + rewrite (Hx (fun a => dotZ K (row_of m a) u)). apply (wt_comb f m al 1 M). exact Hw.
    + apply (mo_nodup K f m M).
    + intros p Hp. apply Hincl. destruct p as [x a]. eapply in_combine_r; exact Hp.
  - right. rewrite Lsm in *.
    pose proof (proj1 (sub_matrix_solves f m as_ sol M Hincl Lsol) Hsol) as Hw.
    set (pos := filter (fun j => Nat.ltb j (length as_)) pv).
    assert (Hpos : forall j, In j pos -> (j < length as_)%nat /\ In j pv).
    { intros j Hj. apply filter_In in Hj as [H1 H2]. apply Nat.ltb_lt in H2. auto. }
    set (Tp := map (fun j => nth j as_ 0%N) pos).
    assert (Hz : forall a, ~ In a Tp -> coef (combine sol as_) a = 0).
    { intros a Hi. unfold coef. apply suml_zero; [exact KL|]. intros p Hp.
      destruct (N.eqb_spec (snd p) a) as [E|]; [|reflexivity].
      apply in_combine_nth in Hp as (j & H1 & H2).
      assert (Hj : (j < length as_)%nat) by (apply nth_error_Some; congruence).
      assert (Ev : vec sol j = fst p) by (unfold vec; apply nth_error_nth; exact H1).
      rewrite <- Ev. apply Hsupp; [exact Hj|]. intros Hpv. apply Hi.
      apply in_map_iff. exists j. split.
      - rewrite <- E. apply nth_error_nth. exact H2.
      - apply filter_In. split; [exact Hpv|]. apply Nat.ltb_lt; exact Hj. }
    assert (Hh : holds (attrs Tp) f).
    { apply (wt_holds K KL (coef (combine sol as_)) f 1 (attrs Tp)).
      - apply attrs_dec.
      - exact Hw.
      - apply K_1_neq_0; exact KL.
      - intros v _ Hv. apply Hz. exact Hv. }
    assert (HTp : incl Tp as_).
    { intros a Ha. apply in_map_iff in Ha as (j & <- & Hj). apply nth_In. apply Hpos; exact Hj. }
    split; [eapply holds_mono; [|exact Hh]; intros a _ Ha; apply HTp; exact Ha|].
    destruct (minimal_exists f (length Tp) Tp (le_n _) Hh) as (T & HT & HM).
    pose proof (minimal_wt K KL f T (mo_nodup K f m M) HM) as HwT.
    set (fp := fun a => find (fun j => N.eqb (nth j as_ 0%N) a) pos).
    set (yy := fun j => match fp (nth j as_ 0%N) with
                        | Some k => if Nat.eqb k j then ind K T (nth j as_ 0%N) else 0
                        | None => 0 end).
    assert (Hyy : forall j, ~ In j pv -> yy j = 0).
    { intros j Hj. unfold yy. destruct (fp (nth j as_ 0%N)) as [k|] eqn:F; [|reflexivity].
      destruct (Nat.eqb_spec k j) as [->|]; [|reflexivity]. apply find_pos in F as [F _].
      apply Hpos in F as [_ F]. contradiction. }
    pose (ys := map yy (seq 0 (length as_))).
    assert (Lys : length ys = length as_) by (unfold ys; rewrite map_length, seq_length; reflexivity).
    assert (Hys : forall j, (j < length as_)%nat -> vec ys j = yy j).
    { intros j Hj. unfold vec, ys. rewrite (nth_indep _ 0 (yy 0%nat)) by (rewrite map_length, seq_length; exact Hj).
      rewrite map_nth, seq_nth by exact Hj. reflexivity. }
    assert (Hco : forall a, coef (combine ys as_) a = ind K T a).
    { intros a. unfold coef.
      transitivity (suml (fun j => vec ys j * (if N.eqb (nth j as_ 0%N) a then 1 else 0)) (seq 0 (length as_))).
      { rewrite (suml_seq_combine ys as_ (fun b => if N.eqb b a then 1 else 0) 0%N) by exact Lys.
        apply suml_ext. intros p _. destruct (N.eqb (snd p) a); ring. }
      destruct (in_dec N.eq_dec a T) as [Ha|Ha].
      - destruct (find_pos_some as_ a pos (HT a Ha)) as (k & Hk). pose proof (find_pos _ _ _ _ Hk) as [Hkp Hka].
        destruct (Hpos k Hkp) as [Hkl _].
        rewrite (suml_single K KL _ _ k).
        + rewrite Hys by exact Hkl. unfold yy, fp. rewrite Hka, Hk, Nat.eqb_refl, N.eqb_refl. ring.
        + apply Nat.eq_dec.
        + apply seq_NoDup.
        + apply in_seq. lia.
        + intros j Hj Hjk. apply in_seq in Hj. rewrite Hys by lia.
          destruct (N.eqb_spec (nth j as_ 0%N) a) as [E|]; [|ring].
          unfold yy, fp. rewrite E, Hk. destruct (Nat.eqb_spec k j); [congruence|ring].
      - rewrite ind_out by exact Ha. apply suml_zero; [exact KL|]. intros j Hj. apply in_seq in Hj.
        destruct (N.eqb_spec (nth j as_ 0%N) a) as [E|]; [|ring].
        rewrite Hys by lia. unfold yy. rewrite E. destruct (fp a) as [k|]; [|ring].
        destruct (Nat.eqb k j); [|ring]. rewrite ind_out by exact Ha. ring. }
    assert (Hso : solves (sub_matrix m as_) (nb_col m) (vec ys)).
    { apply (sub_matrix_solves f m as_ ys M Hincl Lys). eapply wt_ext; [|exact HwT].
      intros v _. symmetry. apply Hco. }
    assert (Elist : ys = sol).
    { apply nth_ext with (d := 0) (d' := 0); [congruence|]. intros j Hj.
      change (vec ys j = vec sol j). apply Huniq.
      - exact Hso.
      - intros i Hi Hpi. rewrite Hys by exact Hi. apply Hyy; exact Hpi.
      - lia. }
    exists sol, T. split; [exact Esc|]. split; [exact Lsol|]. split; [exact HM|].
    split; [intros a Ha; apply HTp, HT; exact Ha|]. rewrite <- Elist. split; [exact Hco|]. split.
    + intros x Hx. apply in_map_iff in Hx as (j & <- & _). unfold yy.
      destruct (fp (nth j as_ 0%N)) as [k|]; [|auto]. destruct (Nat.eqb k j); [|auto].
      unfold ind. destruct (inb (nth j as_ 0%N) T); auto.
    + (* no attribute is taken twice *)
      set (nzp := fun p : K * N => negb (feqb (fst p) 0)).
      assert (Hgen : forall l, NoDup l -> (forall j, In j l -> (j < length as_)%nat) ->
         NoDup (map snd (filter nzp (map (fun j => (yy j, nth j as_ 0%N)) l)))).
      { induction 1 as [|j l Hj Hnd IH]; intros Hl; simpl; [constructor|].
        destruct (nzp (yy j, nth j as_ 0%N)) eqn:E; [|apply IH; intros; apply Hl; right; assumption].
        simpl. constructor; [|apply IH; intros; apply Hl; right; assumption].
        intros Hin. apply in_map_iff in Hin as ([x b] & Eb & Hin). simpl in Eb. subst b.
        apply filter_In in Hin as [Hin E']. apply in_map_iff in Hin as (k & Ek & Hk).
        injection Ek as Ex Eb.
        assert (Hfirst : forall i, nzp (yy i, nth i as_ 0%N) = true -> fp (nth i as_ 0%N) = Some i).
        { intros i Hi. unfold nzp in Hi. cbn [fst] in Hi. apply negb_true_iff in Hi.
          apply (feqb_false K KL) in Hi. unfold yy in Hi.
          destruct (fp (nth i as_ 0%N)) as [q|]; [|contradiction].
          destruct (Nat.eqb_spec q i); [congruence|contradiction]. }
        pose proof (Hfirst j E) as F1.
        assert (F2 : fp (nth k as_ 0%N) = Some k).
        { apply Hfirst. rewrite Ex, Eb. exact E'. }
        rewrite Eb in F2. assert (j = k) by congruence. subst k. contradiction. }
      assert (Ecomb : combine ys as_ = map (fun j => (yy j, nth j as_ 0%N)) (seq 0 (length as_))).
      { unfold ys. rewrite <- combine_map_map. f_equal.
        clear. induction as_ as [|a l IH]; [reflexivity|]. simpl. f_equal.
        rewrite <- seq_shift, map_map. exact IH. }
      rewrite Ecomb. apply Hgen; [apply seq_NoDup|]. intros j Hj. apply in_seq in Hj. lia.
Qed.

Definition honest_ct (t : list K) (y : K) (gam : list N) (mu s : K) : ciphertext B :=
  mkCt gam (gt (mu + y * s)) (map (fun a => g2 (tt t a * s)) gam).

(** What decryption returns, for any key made of shares. The attributes used,
    [T], depend only on the program and on the attributes of the ciphertext. *)
Theorem decrypt_rep f m gam : msp_of K f m ->
  (selected f gam = [] /\ ~ holds (attrs gam) f /\
   forall t sg uk mu y s, key_rep t f m sg uk ->
     decrypt (honest_ct t y gam mu s) uk = Err (InternalOperation "empty input matrix")) \/
  (selected f gam <> [] /\ ~ holds (attrs gam) f /\
   forall t sg uk mu y s, key_rep t f m sg uk -> decrypt (honest_ct t y gam mu s) uk = Ok None) \/
  (selected f gam <> [] /\ holds (attrs gam) f /\ exists T, minimal f T /\ incl T (selected f gam) /\
   forall t sg uk mu y s, key_rep t f m sg uk -> (forall a, In a (leaves f) -> tt t a <> 0) ->
     decrypt (honest_ct t y gam mu s) uk =
     Ok (Some (gt (mu + (y - suml (fun a => ind K T a * sg a) (leaves f)) * s)))).
Proof.
  intros M. set (as_ := selected f gam).
  assert (Hincl : incl as_ (leaves f)) by (intros a Ha; apply selected_in in Ha; tauto).
  assert (Hsel : holds (attrs as_) f <-> holds (attrs gam) f).
  { apply holds_ext. intros a Ha. unfold attrs, as_. rewrite selected_in. tauto. }
  assert (Esel : forall t sg uk mu y s, key_rep t f m sg uk -> select_rows (honest_ct t y gam mu s) uk =
     Ok (map (fun a => (map of_i32 (row_of m a), to1 (g3 (sg a * finv (tt t a))), g2 (tt t a * s))) as_)).
  { intros t sg uk mu y s R. unfold honest_ct. eapply select_rows_eq; eauto. }
  assert (Emat : forall t (sg : N -> K) s, map (fun x : list K * G1 B * G2 B => fst (fst x))
      (map (fun a => (map of_i32 (row_of m a), to1 (g3 (sg a * finv (tt t a))), g2 (tt t a * s))) as_) = sub_matrix m as_).
  { intros. rewrite map_map. reflexivity. }
  destruct (list_eq_dec N.eq_dec as_ []) as [Eas|Hne].
  { left. split; [exact Eas|]. split.
    - rewrite <- Hsel, Eas. intros Hh. destruct (holds_some _ _ Hh) as (a & _ & []).
    - intros t sg uk mu y s R. unfold decrypt. rewrite (Esel t sg) by exact R. rewrite Eas. reflexivity. }
  right. destruct (span_selected f m as_ M Hincl Hne) as [[Esc Hno]|(Hh & sol & T & Esc & Lsol & HM & HT & Hco & _ & _)].
  - left. split; [exact Hne|]. split; [rewrite <- Hsel; exact Hno|].
    intros t sg uk mu y s R. unfold decrypt. rewrite (Esel t sg) by exact R. cbn [bind]. rewrite Emat, Esc. reflexivity.
  - right. split; [exact Hne|]. split; [rewrite <- Hsel; exact Hh|]. exists T. split; [exact HM|]. split; [exact HT|].
    intros t sg uk mu y s R Hnz. unfold decrypt. rewrite (Esel t sg) by exact R. cbn [bind]. rewrite Emat, Esc. cbn [bind].
    rewrite !map_map. cbn [fst snd].
    rewrite (keep_nonzero_eq sol (map (fun a => to1 (g3 (sg a * finv (tt t a)))) as_)) by (rewrite map_length; exact Lsol).
    cbn [bind].
    rewrite (keep_nonzero_eq sol (map (fun a => g2 (tt t a * s)) as_)) by (rewrite map_length; exact Lsol).
    cbn [bind]. rewrite !map_combine_r, !filter_map_swap, !map_map. cbn [fst snd].
    set (lp := filter (fun x : K * N => negb (feqb (fst x) 0)) (combine sol as_)).
    assert (Ea : filter (fun ai => negb (feqb ai 0)) sol = map (fun x => fst x) lp).
    { unfold lp. rewrite <- (map_fst_combine sol as_ Lsol) at 1.
      apply (filter_map_swap (fun ai : K => negb (feqb ai 0)) (@fst K N)). }
    rewrite Ea.
    pose (tr3 := map (fun p : K * N => (sg (snd p) * finv (tt t (snd p)), tt t (snd p) * s, fst p)) lp).
    pose proof (bl_prod B BL tr3) as Hp. unfold tr3 in Hp. rewrite !map_map in Hp. cbn [fst snd] in Hp.
    rewrite Hp. clear Hp. simpl e_prime. rewrite (bl_gt_div B BL). do 3 f_equal.
    assert (Es : fold_right (fun x s0 => fst (fst x) * snd (fst x) * snd x + s0) 0
                   (map (fun p : K * N => (sg (snd p) * finv (tt t (snd p)), tt t (snd p) * s, fst p)) lp)
                 = s * suml (fun p => fst p * sg (snd p)) lp).
    { unfold lp. clear -Hnz Hincl BL. rewrite <- suml_scal by exact KL.
      change (suml (fun x : K * K * K => fst (fst x) * snd (fst x) * snd x)
         (map (fun p : K * N => (sg (snd p) * finv (tt t (snd p)), tt t (snd p) * s, fst p))
           (filter (fun x : K * N => negb (feqb (fst x) 0)) (combine sol as_))) =
         suml (fun x : K * N => s * (fst x * sg (snd x))) (filter (fun x : K * N => negb (feqb (fst x) 0)) (combine sol as_))).
      rewrite suml_map. apply suml_ext. intros p Hp. apply filter_In in Hp as [Hp _]. cbn [fst snd].
      assert (Hn : tt t (snd p) <> 0).
      { apply Hnz, Hincl. destruct p as [x a]. eapply in_combine_r; exact Hp. }
      field. exact Hn. }
    rewrite Es.
    assert (Ef : suml (fun p => fst p * sg (snd p)) lp = suml (fun a => ind K T a * sg a) (leaves f)).
    { unfold lp. rewrite suml_filter.
      - rewrite (group_coef (combine sol as_) (leaves f)).
        + apply suml_ext. intros a _. rewrite Hco. reflexivity.
        + apply (mo_nodup K f m M).
        + intros p Hp. apply Hincl. destruct p as [x a]. eapply in_combine_r; exact Hp.
      - exact KL.
      - intros p _ Hpz. apply negb_false_iff in Hpz. apply (fl_eqb K KL) in Hpz. rewrite Hpz. ring. }
    rewrite Ef. ring.
Qed.

End SchemeProofs.

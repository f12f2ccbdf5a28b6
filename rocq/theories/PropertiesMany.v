(** Telling apart the ciphertexts of chosen messages when many are encrypted (C107). *)
From Coq Require Import String NArith ZArith Bool Lia Permutation Field_theory Field List.
From Verif Require Import Prelude Field LinAlg Msp Spec MspProofs Minimal Gauss GaussProofs Bilinear Scheme SchemeSpec
  SchemeProofs SchemeTheorems CollusionSpec LuckSpec GameSpec ManySpec Zp ExpModel Primality Bls Curve PropertiesScheme PropertiesDelegation PropertiesCollusion PropertiesPersonal
  PropertiesLuck PropertiesGame.
Import ListNotations.

Lemma seq_split k : forall a n l1 l2, seq a n = l1 ++ k :: l2 -> (forall z, In z l1 -> a <= z < k)%nat /\ (forall z, In z l2 -> k < z < a + n)%nat /\ (a <= k < a + n)%nat.
Proof.
  intros a n l1. revert a n. induction l1 as [|z l1 IH]; intros a n l2 E; destruct n as [|n]; cbn [seq app] in E; try discriminate.
  - assert (a = k) by congruence. assert (seq (S a) n = l2) by congruence. subst. split; [intros z []|]. split; [intros z Hz; apply in_seq in Hz; lia|lia].
  - assert (a = z) by congruence. assert (E' : seq (S a) n = l1 ++ k :: l2) by congruence. subst z. destruct (IH (S a) n l2 E') as (H1 & H2 & H3).
    split; [intros z [<-|Hz]; [lia|specialize (H1 z Hz); lia]|]. split; [intros z Hz; specialize (H2 z Hz); lia|lia].
Qed.

Lemma cut_first {A} (a b : list A) k : length a = k -> firstn k (a ++ b) = a.
Proof. intros <-. rewrite firstn_app, Nat.sub_diag, firstn_all. cbn [firstn]. apply app_nil_r. Qed.
Lemma cut_rest {A} (a b : list A) k : length a = k -> skipn k (a ++ b) = b.
Proof. intros <-. rewrite skipn_app, Nat.sub_diag, skipn_all. reflexivity. Qed.

Section Games.
Variable B : BilinearMap.
Variable BL : BilinearLaws B.
Local Notation K := (bm_K B).
Local Notation KL := (bl_field B BL).
Declare Scope fld.
Local Notation "0" := (@f0 K) : fld.
Local Notation "1" := (@f1 K) : fld.
Local Infix "+" := (@fadd K) : fld.
Local Infix "*" := (@fmul K) : fld.
Local Infix "-" := (@fsub K) : fld.
Local Notation "- x" := (@fneg K x) : fld.
Local Open Scope fld.
Add Field KF25 : (fl_field K KL).
Local Notation gt := (gt_gen_exp B).
Local Notation aff := (aff B).
Local Notation lau := (lau B).

(** ** Points *)
(** the function depends on the master key, the first values for the keys and the first scalars only *)
Definition before (k c : nat) (F : throws B -> K) : Prop :=
  forall x x', th_t x = th_t x' -> th_y x = th_y x' -> firstn k (th_u x) = firstn k (th_u x') -> firstn c (th_s x) = firstn c (th_s x') -> F x = F x'.

Section Count.
Variable elems : list K.
Variable size n m : nat.
Hypothesis Hnd : NoDup elems.
Hypothesis Hall : forall x : K, In x elems.
Local Notation q := (length elems).
Local Notation NZ := (nz B BL elems).

Definition smooth (F : throws B -> K) : Prop := forall t y u s, length t = size -> length u = n -> length s = m ->
  aff (fun v => F (mkThrows t v u s)) /\
  (forall j, (j < size)%nat -> lau (fun v => F (mkThrows (put j v t) y u s))) /\
  (forall j, (j < n)%nat -> aff (fun v => F (mkThrows t y (put j v u) s))) /\
  (forall j, (j < m)%nat -> aff (fun v => F (mkThrows t y u (put j v s)))).
Definition valid (x : throws B) : Prop := length (th_t x) = size /\ (forall z, In z (th_t x) -> z <> 0) /\ length (th_u x) = n /\ length (th_s x) = m.
Definition total_ : nat := ((q - 1) ^ size * q ^ (n + m + 1))%nat.
Definition degree_ : nat := (2 * size + n + m + 1)%nat.

Definition sets_ : list (list K) := elems :: repeat NZ size ++ repeat elems (n + m).
Definition degs_ : list nat := 1%nat :: repeat 2%nat size ++ repeat 1%nat (n + m).
Definition point (x : throws B) : list K := th_y x :: th_t x ++ (th_u x ++ th_s x).
Definition unpoint (z : list K) : throws B :=
  mkThrows (firstn size (skipn 1 z)) (nth 0 z 0) (firstn n (skipn size (skipn 1 z))) (skipn n (skipn size (skipn 1 z))).

Lemma point_in x : valid x -> In (point x) (prods sets_).
Proof using BL Hall.
  intros (Ht & Hz & Hu & Hs). apply prods_in. unfold sets_, point. constructor; [apply Hall|]. apply Forall2_app.
  - apply Forall2_repeat. split; [exact Ht|]. intros z Hi. apply nz_in; [exact Hall|exact (Hz z Hi)].
  - apply Forall2_repeat. split; [rewrite app_length; lia|]. intros z _. apply Hall.
Qed.
Lemma in_point z : In z (prods sets_) -> exists x, valid x /\ z = point x.
Proof using BL Hall.
  intros H. apply prods_in in H. unfold sets_ in H. inversion H as [|? y ? z2 _ H2]; subst.
  apply Forall2_app_inv_l in H2 as (t & u & H3 & H4 & ->). apply Forall2_repeat in H3 as [Ht Hz]. apply Forall2_repeat in H4 as [Hu _].
  exists (mkThrows t y (firstn n u) (skipn n u)). split; [|unfold point; cbn [th_t th_y th_u th_s]; rewrite firstn_skipn; reflexivity].
  split; [exact Ht|split; [|split; cbn [th_u th_s]; [rewrite firstn_length|rewrite skipn_length]; lia]]. intros z Hi. apply (nz_in B BL elems Hall). exact (Hz z Hi).
Qed.
Lemma unpoint_point t y u s : length t = size -> length u = n -> unpoint (y :: t ++ (u ++ s)) = mkThrows t y u s.
Proof using.
  intros Ht Hu. unfold unpoint. cbn [skipn nth]. rewrite (cut_first t (u ++ s) size Ht), (cut_rest t (u ++ s) size Ht), (cut_first u s n Hu), (cut_rest u s n Hu). reflexivity.
Qed.
Lemma prods_total_ : length (prods sets_) = total_.
Proof using BL Hnd Hall.
  rewrite prods_count. unfold sets_, total_. cbn [map fold_right].
  assert (R : forall (E : list K) k, map (@length K) (repeat E k) = repeat (length E) k) by (intros E k; induction k as [|k IH]; [reflexivity|cbn [repeat map]; rewrite IH; reflexivity]).
  rewrite map_app, !R, fold_right_app.
  assert (Q : forall a b k, fold_right Nat.mul b (repeat a k) = (a ^ k * b)%nat).
  { intros a b k. induction k as [|k IH]; [cbn; lia|]. cbn [repeat fold_right Nat.pow]. rewrite IH. lia. }
  rewrite !Q, (nz_length B BL elems Hnd Hall), !Nat.pow_add_r. cbn [Nat.pow]. lia.
Qed.
Lemma put_valid t y u s i v : length t = size -> length u = n -> unpoint (put i v (y :: t ++ (u ++ s))) =
  match i with O => mkThrows t v u s
  | S j => if Nat.ltb j size then mkThrows (put j v t) y u s
           else if Nat.ltb (j - size) n then mkThrows t y (put (j - size) v u) s else mkThrows t y u (put (j - size - n) v s) end.
Proof using.
  intros Ht Hu. destruct i as [|j]; cbn [put]; [apply unpoint_point; assumption|]. rewrite !put_app, Ht, Hu.
  destruct (Nat.ltb j size); [apply unpoint_point; rewrite ?put_length; assumption|]. destruct (Nat.ltb (j - size) n); apply unpoint_point; rewrite ?put_length; assumption.
Qed.

(** A smooth function is zero everywhere or seldom. *)
Lemma smooth_zeros F : smooth F -> (forall x, valid x -> F x = 0) \/
  forall W, NoDup W -> (forall x, In x W -> valid x /\ F x = 0) -> (length W * (q - 1) <= degree_ * total_)%nat.
Proof using BL Hnd Hall.
  intros HF. set (f := fun z => feqb (F (unpoint z)) 0).
  assert (L : forall t y u s, length t = size -> length u = n -> f (y :: t ++ (u ++ s)) = feqb (F (mkThrows t y u s)) 0) by (intros; unfold f; rewrite unpoint_point by assumption; reflexivity).
  destruct (few_zeros (q - 1) sets_ degs_ f) as [A|A].
  - unfold degs_, sets_. cbn [length]. rewrite !app_length, !repeat_length. reflexivity.
  - intros E HE. unfold sets_ in HE. destruct HE as [<-|HE]; [lia|]. apply in_app_or in HE as [HE|HE]; apply repeat_spec in HE; subst E; [rewrite (nz_length B BL elems Hnd Hall)|]; lia.
  - intros i E d z Hi Hd Hz. destruct (in_point z Hz) as ([t y u s] & (Ht & Hz0 & Hu & Hs) & ->). cbn [th_t th_u th_s] in Ht, Hz0, Hu, Hs. unfold point. cbn [th_s th_y th_t th_u].
    destruct (HF t y u s Ht Hu Hs) as (N1 & N2 & N3 & N4).
    assert (J : forall g : K -> throws B, (forall v, unpoint (put i v (y :: t ++ (u ++ s))) = g v) ->
       (forall v, In v E -> F (g v) = 0) \/ (length (filter (fun v => feqb (F (g v)) (@f0 K)) E) <= d)%nat ->
       (forall v, In v E -> f (put i v (y :: t ++ (u ++ s))) = true) \/ (length (filter (fun v => f (put i v (y :: t ++ (u ++ s)))) E) <= d)%nat).
    { intros g Hg [Q|Q].
      - left. intros v Hv. unfold f. rewrite Hg, (Q v Hv). apply (feqb_refl K KL).
      - right. etransitivity; [|exact Q]. apply filter_le. intros v _. unfold f. rewrite Hg. intros Q'. exact Q'. }
    destruct i as [|j].
    + cbn [sets_ degs_ nth_error] in Hi, Hd. assert (E = elems) by congruence. assert (d = 1%nat) by congruence. subst E d.
      apply (J _ (fun v => put_valid t y u s 0 v Ht Hu)). apply (aff_zeros B BL _ elems Hnd N1).
    + cbn [sets_ degs_ nth_error] in Hi, Hd. apply (J _ (fun v => put_valid t y u s (S j) v Ht Hu)).
      destruct (Nat.ltb_spec j size) as [Hj|Hj].
      * rewrite nth_error_app1, nth_error_repeat in Hi by (rewrite ?repeat_length; lia). rewrite nth_error_app1, nth_error_repeat in Hd by (rewrite ?repeat_length; lia).
        assert (E = NZ) by congruence. assert (d = 2%nat) by congruence. subst E d.
        apply (lau_zeros B BL (fun v => F (mkThrows (put j v t) y u s)) NZ (nz_nodup B BL elems Hnd)); [|exact (N2 j Hj)].
        intros x Hx. apply (nz_in B BL elems Hall). exact Hx.
      * assert (Hj2 : (j - size < n + m)%nat).
        { assert (Q : nth_error (repeat NZ size ++ repeat elems (n + m)) j <> None) by congruence. apply nth_error_Some in Q. rewrite app_length, !repeat_length in Q. lia. }
        rewrite nth_error_app2, repeat_length, nth_error_repeat in Hi by (rewrite ?repeat_length; lia). rewrite nth_error_app2, repeat_length, nth_error_repeat in Hd by (rewrite ?repeat_length; lia).
        assert (E = elems) by congruence. assert (d = 1%nat) by congruence. subst E d. destruct (Nat.ltb_spec (j - size) n) as [Hk|Hk].
        -- apply (aff_zeros B BL (fun v => F (mkThrows t y (put (j - size) v u) s)) elems Hnd). exact (N3 _ Hk).
        -- apply (aff_zeros B BL (fun v => F (mkThrows t y u (put (j - size - n) v s))) elems Hnd). apply N4. lia.
  - left. intros [t y u s] Hx. pose proof (A _ (point_in _ Hx)) as Q. destruct Hx as (Ht & _ & Hu & _). unfold point in Q. cbn [th_s th_y th_t th_u] in *. rewrite L in Q by assumption. apply (fl_eqb K KL) in Q. exact Q.
  - right. intros W HW H. rewrite prods_total_ in A.
    replace (list_sum degs_) with degree_ in A.
    2:{ unfold degs_, degree_. cbn [list_sum fold_right]. fold (list_sum (repeat 2%nat size ++ repeat 1%nat (n + m))). rewrite list_sum_app, !sum_repeat. lia. }
    assert (Q : (length W <= length (filter f (prods sets_)))%nat); [|nia].
    rewrite <- (map_length point W). apply NoDup_incl_length.
    + apply NoDup_map_in; [exact HW|]. intros [t y u s] [t' y' u' s'] H1 H2 E. destruct (H _ H1) as ((Ht & _ & Hu & _) & _). destruct (H _ H2) as ((Ht' & _ & Hu' & _) & _).
      unfold point in E. cbn [th_s th_y th_t th_u] in *. apply (f_equal unpoint) in E. rewrite !unpoint_point in E by assumption. exact E.
    + intros z Hz. apply in_map_iff in Hz as ([t y u s] & <- & Hx). destruct (H _ Hx) as (Hf & E). apply filter_In. split; [apply point_in; exact Hf|].
      destruct Hf as (Ht & _ & Hu & _). unfold point. cbn [th_s th_y th_t th_u] in *. rewrite L by assumption. rewrite E. apply (feqb_refl K KL).
Qed.
Lemma all_total_ W : NoDup W -> (forall x, In x W -> valid x) -> (length W <= total_)%nat.
Proof using BL Hnd Hall.
  intros HW H. rewrite <- prods_total_, <- (map_length point W). apply NoDup_incl_length.
  - apply NoDup_map_in; [exact HW|]. intros [t y u s] [t' y' u' s'] H1 H2 E. pose proof (H _ H1) as (Ht & _ & Hu & _). pose proof (H _ H2) as (Ht' & _ & Hu' & _).
    unfold point in E. cbn [th_s th_y th_t th_u] in *. apply (f_equal unpoint) in E. rewrite !unpoint_point in E by assumption. exact E.
  - intros z Hz. apply in_map_iff in Hz as (x & <- & Hx). apply point_in. exact (H x Hx).
Qed.

Lemma smooth_const c : smooth (fun _ => c).
Proof using BL.
  intros t y u s _ _ _. pose proof (con_aff B BL _ (con_const B c)) as A. pose proof (con_lau B BL _ (con_const B c)) as L.
  split; [exact A|split; [intros j _; exact L|split; intros j _; exact A]].
Qed.
Lemma smooth_add F G : smooth F -> smooth G -> smooth (fun x => F x + G x).
Proof using BL.
  intros HF HG t y u s Ht Hu Hs. destruct (HF t y u s Ht Hu Hs) as (A1 & A2 & A3 & A4). destruct (HG t y u s Ht Hu Hs) as (B1 & B2 & B3 & B4).
  split; [exact (aff_add B BL _ _ A1 B1)|split; [intros j Hj; exact (lau_add B BL _ _ (A2 j Hj) (B2 j Hj))|split; intros j Hj; [exact (aff_add B BL _ _ (A3 j Hj) (B3 j Hj))|exact (aff_add B BL _ _ (A4 j Hj) (B4 j Hj))]]].
Qed.

(** ** The state of a run: the ciphertexts with the number of their scalar (0 for none), their attributes
    and the exponent of their message *)
Definition entry : Type := (nat * list N * (bool -> throws B -> K))%type.
Definition number (e : entry) : nat := fst (fst e).
Definition marked (e : entry) : list N := snd (fst e).
Definition message (e : entry) : bool -> throws B -> K := snd e.
Definition sigma (k : nat) (x : throws B) : K := match k with O => 0 | S i => nth i (th_s x) 0 end.
Definition nothing : strategy B := mkStrategy [] [].

Section State.
Variable fs : list node.
Variable ms : list (msp Z).
Variable held : list bool.

Definition one (e : entry) (w : bool) (a : strategy B) (x : throws B) : K :=
  value B fs ms held (sigma (number e) x) (marked e) (message e w x) (th_t x) (th_y x) (th_u x) a.
Fixpoint all (Es : list entry) (w : bool) (g : nat -> strategy B) (x : throws B) : K :=
  match Es with [] => 0 | e :: Es => one e w (g 0%nat) x + all Es w (fun i => g (S i)) x end.

Lemma all_app E1 E2 w g x : all (E1 ++ E2) w g x = all E1 w g x + all E2 w (fun i => g (length E1 + i)%nat) x.
Proof using BL. revert g. induction E1 as [|e E1 IH]; intros g; cbn [app all]; [change (fun i => g (length (@nil entry) + i)%nat) with g; ring|]. rewrite IH. cbn [length Nat.add]. ring. Qed.
Lemma all_over Es w g h x : all Es w (fun i => over B (g i) (h i)) x = all Es w g x - all Es w h x.
Proof using BL. revert g h. induction Es as [|e Es IH]; intros g h; cbn [all]; [ring|]. rewrite (IH (fun i => g (S i)) (fun i => h (S i))). unfold one. rewrite (value_over B BL). ring. Qed.

Section Smooth.
Hypothesis HM : Forall2 (msp_of K) fs ms.
Hypothesis Hin : forall f x, In f fs -> In x (leaves f) -> (N.to_nat x < size)%nat.
Hypothesis Hused : (used fs <= n)%nat.

Lemma one_smooth e w a : smooth (message e w) -> smooth (one e w a).
Proof using BL HM Hin Hused.
  intros Hmu t y u s Ht Hu Hs. destruct (Hmu t y u s Ht Hu Hs) as (M1 & M2 & M3 & M4). split; [|split; [|split]].
  - apply (value_yu B BL size n fs ms held HM Hin Hused (marked e) (sigma (number e) (mkThrows t y u s)) (fun v => message e w (mkThrows t v u s)) t (fun v => v) (fun _ => u) a); [apply (aff_id B BL)|exact M1| |intros _; exact Hu].
    intros i. apply (con_aff B BL), con_const.
  - intros j Hj. apply (value_t B BL size fs ms held (marked e) (sigma (number e) (mkThrows t y u s)) (fun v => message e w (mkThrows (put j v t) y u s)) t y u a j Ht Hj (M2 j Hj)).
  - intros j Hj. apply (value_yu B BL size n fs ms held HM Hin Hused (marked e) (sigma (number e) (mkThrows t y u s)) (fun v => message e w (mkThrows t y (put j v u) s)) t (fun _ => y) (fun v => put j v u) a); [apply (con_aff B BL), con_const|exact (M3 j Hj)| |].
    + intros i. apply (aff_nth B BL).
    + intros v. rewrite put_length. exact Hu.
  - intros j Hj. destruct (M4 j Hj) as (b1 & c1 & E1).
    assert (A : aff (fun v => sigma (number e) (mkThrows t y u (put j v s)))).
    { destruct (number e) as [|i]; cbn [sigma th_s]; [apply (con_aff B BL), con_const|apply (aff_nth B BL)]. }
    destruct A as (b2 & c2 & E2).
    exists (value B fs ms held 0 (marked e) 0 t y u a + b2 * (s_part B t (marked e) (shown B fs ms held t y u) a + y * ec B a) + b1 * ec B a),
      (c2 * (s_part B t (marked e) (shown B fs ms held t y u) a + y * ec B a) + c1 * ec B a).
    intros v. unfold one. cbn [th_t th_y th_u]. rewrite E1, E2, (value_split B BL), (value_sig B BL). ring.
Qed.
Lemma all_smooth Es w g : (forall e, In e Es -> smooth (message e w)) -> smooth (all Es w g).
Proof using BL HM Hin Hused.
  revert g. induction Es as [|e Es IH]; intros g H; cbn [all]; [apply smooth_const|]. apply (smooth_add (one e w (g 0%nat)) (all Es w (fun i => g (S i)))).
  - apply one_smooth. apply H. left. reflexivity.
  - apply IH. intros e' He'. apply H. right. exact He'.
Qed.
End Smooth.

Lemma nth_firstn_eq (l l' : list K) c i : firstn c l = firstn c l' -> (i < c)%nat -> nth i l 0 = nth i l' 0.
Proof using.
  intros E Hi. transitivity (nth i (firstn c l) 0); [|rewrite E]; revert l l' c Hi E; clear.
  - intros l _ c Hi _. revert i l Hi. induction c as [|c IH]; intros i l Hi; [lia|]. destruct l as [|a l]; [destruct i; reflexivity|]. destruct i as [|i]; [reflexivity|]. cbn [firstn nth]. apply IH. lia.
  - intros _ l c Hi _. revert i l Hi. induction c as [|c IH]; intros i l Hi; [lia|]. destruct l as [|a l]; [destruct i; reflexivity|]. destruct i as [|i]; [reflexivity|]. cbn [firstn nth]. apply IH. lia.
Qed.
Lemma before_le k k' c c' F : before k c F -> (k <= k')%nat -> (c <= c')%nat -> before k' c' F.
Proof using.
  intros H Hk Hc x x' E1 E2 E3 E4. apply H; [exact E1|exact E2| |].
  - apply (f_equal (firstn k)) in E3. rewrite !firstn_firstn, Nat.min_l in E3 by exact Hk. exact E3.
  - apply (f_equal (firstn c)) in E4. rewrite !firstn_firstn, Nat.min_l in E4 by exact Hc. exact E4.
Qed.
Lemma all_before Es w g c : (forall e, In e Es -> (number e <= c)%nat /\ before (used fs) c (message e w)) -> before (used fs) c (all Es w g).
Proof using.
  intros H x x' E1 E2 E3 E4. revert g H. induction Es as [|e Es IH]; intros g H; cbn [all]; [reflexivity|]. f_equal; [|apply IH; intros e' He'; apply H; right; exact He'].
  destruct (H e (or_introl eq_refl)) as [Hc Hb]. unfold one. rewrite (Hb x x' E1 E2 E3 E4), E1, E2.
  assert (Q : sigma (number e) x = sigma (number e) x') by (destruct (number e) as [|i]; [reflexivity|]; exact (nth_firstn_eq _ _ c i E4 Hc)). rewrite Q.
  unfold value, shown. rewrite (segs_early B fs (th_u x) (th_u x') _ (Nat.le_refl _) E3). reflexivity.
Qed.

(** no masked message takes part *)
Fixpoint clean (Es : list entry) (g : nat -> strategy B) : Prop :=
  match Es with [] => True | e :: Es => (number e = 0%nat \/ ec B (g 0%nat) = 0) /\ clean Es (fun i => g (S i)) end.
Lemma clean_or Es g : clean Es g \/ exists E1 e E2, Es = E1 ++ e :: E2 /\ number e <> 0%nat /\ ec B (g (length E1)) <> 0 /\ clean E2 (fun i => g (S (length E1) + i)%nat).
Proof using BL.
  revert g. induction Es as [|e Es IH]; intros g; [left; exact I|]. destruct (IH (fun i => g (S i))) as [C|(E1 & e1 & E2 & -> & N1 & N2 & C)].
  - cbn [clean]. destruct (Nat.eq_dec (number e) 0) as [N0|N0]; [left; split; [left; exact N0|exact C]|].
    destruct (K_eq_dec K KL (ec B (g 0%nat)) 0) as [Z|Z]; [left; split; [right; exact Z|exact C]|]. right. exists [], e, Es. split; [reflexivity|split; [exact N0|split; [exact Z|exact C]]].
  - right. exists (e :: E1), e1, E2. split; [reflexivity|split; [exact N1|split; [exact N2|exact C]]].
Qed.
Lemma clean_same Es g : clean Es g -> (forall e, In e Es -> number e = 0%nat -> forall w x, message e w x = 0) -> forall w w' x, all Es w g x = all Es w' g x.
Proof using BL.
  intros C Hz w w' x. revert g C. induction Es as [|e Es IH]; intros g C; cbn [all]; [reflexivity|]. cbn [clean] in C. destruct C as [C1 C2].
  rewrite (IH (fun e' He' => Hz e' (or_intror He')) _ C2). f_equal. unfold one. rewrite (value_split B BL fs ms held _ _ (message e w x)), (value_split B BL fs ms held _ _ (message e w' x)).
  destruct C1 as [N0|Z0]; [rewrite !(Hz e (or_introl eq_refl) N0)|rewrite Z0]; ring.
Qed.

(** If a masked message takes part in a product, the value is not zero everywhere. *)
Lemma all_not_zero Es w g c :
  Forall2 (msp_of K) fs ms -> (forall f x, In f fs -> In x (leaves f) -> (N.to_nat x < size)%nat) -> (used fs <= n)%nat -> (c <= m)%nat ->
  map number Es = seq 0 (S c) ->
  (forall e, In e Es -> (forall x, In x (marked e) -> (N.to_nat x < size)%nat) /\ (number e <> 0%nat -> forall f, In f (kept held fs) -> ~ holds (attrs (marked e)) f) /\
     before (used fs) (number e - 1) (message e w)) ->
  (exists l : K, l <> 0 /\ l <> 1) -> ~ clean Es g -> ~ forall x, valid x -> all Es w g x = 0.
Proof using BL.
  intros HM Hin Hused Hc Hnum He Hl Hcl H. destruct (clean_or Es g) as [C|(E1 & e & E2 & -> & N1 & N2 & C)]; [contradiction|]. apply N2.
  rewrite map_app in Hnum. cbn [map] in Hnum. symmetry in Hnum. apply seq_split in Hnum as (L1 & L2 & L3).
  destruct (He e ltac:(apply in_or_app; right; left; reflexivity)) as (Hg & Hno & Hb). specialize (Hno N1).
  apply (matters B BL size n fs ms held (marked e) (g (length E1)) HM Hin Hused Hg Hno Hl).
  intros t y u Ht Hz Hu. destruct (number e) as [|i] eqn:Ei; [contradiction|]. replace (S i - 1)%nat with i in Hb by lia.
  set (X := fun v => mkThrows t y u (put i v (repeat 0 m)) : throws B).
  assert (Xi : forall v, th_t (X v) = t /\ th_y (X v) = y /\ th_u (X v) = u) by (intros v; split; [|split]; reflexivity).
  assert (Hs : forall v k, k <> S i -> sigma k (X v) = sigma k (X 0)).
  { intros v [|k] Hk; [reflexivity|]. cbn [sigma X th_s]. rewrite !nth_put by (rewrite repeat_length; lia). destruct (Nat.eqb_spec k i); [congruence|reflexivity]. }
  assert (Hf : forall v, firstn i (th_s (X v)) = firstn i (th_s (X 0))).
  { intros v. cbn [X th_s]. clear. revert i. induction m as [|m' IH]; intros [|i]; try reflexivity. cbn [repeat put firstn]. f_equal. apply IH. }
  assert (V : forall v, all (E1 ++ e :: E2) w g (X v) = 0).
  { intros v. apply H. split; [exact Ht|split; [exact Hz|split; [exact Hu|]]]. cbn [X th_s]. rewrite put_length, repeat_length. reflexivity. }
  assert (V1 : forall v, all E1 w g (X v) = all E1 w g (X 0)).
  { intros v. apply (all_before E1 w g i); try reflexivity; [|exact (Hf v)]. intros e' He'. destruct (He e' ltac:(apply in_or_app; left; exact He')) as (_ & _ & Hb').
    specialize (L1 (number e') (in_map number _ _ He')). split; [lia|]. apply (before_le _ _ _ _ _ Hb'); [lia|lia]. }
  assert (V2 : forall v, all E2 w (fun j => g (S (length E1) + j)%nat) (X v) = all E2 w (fun j => g (S (length E1) + j)%nat) (X 0)).
  { intros v. assert (G : forall e', In e' E2 -> number e' <> S i /\ number e' <> 0%nat) by (intros e' He'; specialize (L2 (number e') (in_map number _ _ He')); lia).
    revert C G. clear - BL Hs. generalize (fun j => g (S (length E1) + j)%nat). clear g. induction E2 as [|e' E2 IH]; intros g C G; cbn [all]; [reflexivity|]. cbn [clean] in C. destruct C as [C1 C2].
    rewrite (IH _ C2 (fun e'' He'' => G e'' (or_intror He''))). f_equal. destruct (G e' (or_introl eq_refl)) as [G1 G2]. destruct C1 as [C1|C1]; [contradiction|].
    unfold one. rewrite (value_split B BL fs ms held _ _ (message e' w (X v))), (value_split B BL fs ms held _ _ (message e' w (X 0))), C1, (Hs v _ G1). cbn [X th_t th_y th_u]. ring. }
  assert (W : forall v, all E1 w g (X 0) + (value B fs ms held 0 (marked e) 0 t y u (g (length E1)) + v * (s_part B t (marked e) (shown B fs ms held t y u) (g (length E1)) + y * ec B (g (length E1))) + message e w (X 0) * ec B (g (length E1))) +
     all E2 w (fun j => g (S (length E1) + j)%nat) (X 0) = 0).
  { intros v. etransitivity; [|exact (V v)]. rewrite all_app. cbn [all]. rewrite Nat.add_0_r, (V1 v).
    replace (all E2 w (fun j => g (length E1 + S j)%nat) (X v)) with (all E2 w (fun j => g (S (length E1) + j)%nat) (X v)).
    2:{ clear. revert g. generalize (length E1). intros k. assert (Q : forall j, (S k + j = k + S j)%nat) by (intros; lia).
        assert (R : forall g h, (forall j, g j = h j) -> all E2 w g (X v) = all E2 w h (X v)).
        { induction E2 as [|e' E2 IH]; intros g h E; cbn [all]; [reflexivity|]. rewrite E, (IH (fun j => g (S j)) (fun j => h (S j)) (fun j => E (S j))). reflexivity. }
        intros g. apply R. intros j. rewrite Q. reflexivity. }
    rewrite (V2 v). unfold one. rewrite Ei. cbn [sigma X th_t th_y th_u th_s]. rewrite nth_put, Nat.eqb_refl by (rewrite repeat_length; lia).
    rewrite (Hb (X v) (X 0) eq_refl eq_refl eq_refl (Hf v)).
    rewrite (value_split B BL fs ms held v), (value_sig B BL fs ms held v). ring. }
  pose proof (W 0) as W0. pose proof (W 1) as W1. clear W.
  match type of W0 with ?a1 + (?v0 + 0 * ?A + ?mm) + ?a2 = 0 => transitivity ((a1 + (v0 + 1 * A + mm) + a2) - (a1 + (v0 + 0 * A + mm) + a2)); [ring|rewrite W0, W1; ring] end.
Qed.
Lemma clean_dec Es g : clean Es g \/ ~ clean Es g.
Proof using BL.
  revert g. induction Es as [|e Es IH]; intros g; cbn [clean]; [left; exact I|]. destruct (IH (fun i => g (S i))) as [C|C]; [|right; intros [_ Q]; exact (C Q)].
  destruct (Nat.eq_dec (number e) 0) as [N0|N0]; [left; split; [left; exact N0|exact C]|].
  destruct (K_eq_dec K KL (ec B (g 0%nat)) 0) as [Z|Z]; [left; split; [right; exact Z|exact C]|]. right. intros [[Q|Q] _]; contradiction.
Qed.
End State.

(** ** Runs *)
Section Runs.
Variable P : platform.
Definition keys_of (x : throws B) : master_key B := master_of B (th_t x) (th_y x).
Definition text_of (w : bool) (x : throws B) (e : entry) : ciphertext B :=
  mkCt (marked e) (gt (message e w x + th_y x * sigma (number e) x)) (map (fun a => g2_gen_exp B (tt B (th_t x) a * sigma (number e) x)) (marked e)).
Definition plain : entry := (0%nat, [], fun _ _ => 0).
Definition nth_of (a : combination B) (i : nat) : strategy B := nth i a nothing.

Lemma keys_valid x : valid x -> exists mdraw, generate_master_key size mdraw = Ok (keys_of x).
Proof using BL. intros (Ht & Hz & _). rewrite <- Ht. exact (master_drawn B BL (th_t x) (th_y x) Hz). Qed.

Lemma text_plain w x : text_of w x plain = no_ciphertext.
Proof using BL. unfold text_of, no_ciphertext, plain. cbn [marked message number fst snd sigma map]. do 2 f_equal. ring. Qed.

Lemma attack_one fs uks ms held w x e a : Forall2 (fun f m => to_msp P f = Ok m) fs ms -> fresh_with B P (keys_of x) fs (segs B fs (th_u x)) uks ->
  attack (keys_of x) (kept held uks) (text_of w x e) a = gt (one fs ms held e w a x).
Proof using BL.
  intros HM F. unfold keys_of, text_of. pose proof (kept_Forall2 _ held _ _ (fresh_with_exps B BL P _ _ fs _ uks ms HM F)) as X.
  rewrite (attack_value B BL _ _ (marked e) (message e w x) (sigma (number e) x) (kept held uks) _ a X). unfold one, value, shown, xss.
  replace (map (fun p => exps B (th_t x) (fst p) (snd p)) (combine ms (map (fun v => full B v (th_y x)) (segs B fs (th_u x)))))
    with (map (fun p => exps B (th_t x) (fst p) (full B (snd p) (th_y x))) (combine ms (segs B fs (th_u x)))); [reflexivity|].
  generalize (segs B fs (th_u x)). clear. induction ms as [|m' l IH]; intros [|u us']; try reflexivity. cbn [combine map fst snd]. f_equal. apply IH.
Qed.
Lemma all_nothing fs ms held Es w x : all fs ms held Es w (nth_of []) x = 0.
Proof using BL.
  assert (G : forall g, (forall i, g i = nothing) -> all fs ms held Es w g x = 0); [|apply G; intros [|i]; reflexivity].
  induction Es as [|e Es IH]; intros g Hg; cbn [all]; [reflexivity|]. rewrite (IH (fun i => g (S i)) (fun i => Hg (S i))), Hg. unfold one, value. cbn [nothing pairings others suml map fold_right]. ring.
Qed.
Lemma result_all fs uks ms held w x Es a : Forall2 (fun f m => to_msp P f = Ok m) fs ms -> fresh_with B P (keys_of x) fs (segs B fs (th_u x)) uks ->
  result_of (keys_of x) (kept held uks) (map (text_of w x) Es) a = gt (all fs ms held (plain :: Es) w (nth_of a) x).
Proof using BL.
  intros HM F. unfold result_of. rewrite <- (text_plain w x). change (text_of w x plain :: map (text_of w x) Es) with (map (text_of w x) (plain :: Es)).
  generalize (plain :: Es). clear Es. intros Es. revert a. induction Es as [|e Es IH]; intros a; [reflexivity|]. destruct a as [|z a].
  - cbn [map combine fold_right]. rewrite all_nothing. reflexivity.
  - cbn [map combine fold_right fst snd]. rewrite IH, (attack_one fs uks ms held w x e z HM F), (bl_gt_mul B BL). reflexivity.
Qed.

Lemma ends_ext (mk : master_key B) u s w fs held uks cts pl r : ends P mk u s w fs held uks cts pl r ->
  forall u', skipn (used fs) u' = skipn (used fs) u -> ends P mk u' s w fs held uks cts pl r.
Proof using.
  intros H. induction H as [fs held uks cts b|fs held uks cts a b p1 p2 r E H IH|fs held uks cts a b p1 p2 r E H IH|fs held uks cts e sh p f uk r M H IH|fs held uks cts gam m0 m1 p ct r E H IH]; intros u' Hu.
  - constructor.
  - apply en_same; [exact E|exact (IH u' Hu)].
  - apply en_different; [exact E|exact (IH u' Hu)].
  - apply (en_issue P mk u' s w fs held uks cts e sh p f uk r); [rewrite Hu; exact M|]. apply IH. rewrite used_cons, <- !skipn_skipn, Hu. reflexivity.
  - apply (en_either P mk u' s w fs held uks cts gam m0 m1 p ct r E). exact (IH u' Hu).
Qed.

(** The two runs of the rest of a plan give different answers. *)
Definition splits (fs : list node) (held : list bool) (Es : list entry) (pl : plans B) (x : throws B) : Prop :=
  exists w r uks, fresh_with B P (keys_of x) fs (segs B fs (th_u x)) uks /\
    ends P (keys_of x) (th_u x) (th_s x) w fs held uks (map (text_of w x) Es) pl r /\
    ~ ends P (keys_of x) (th_u x) (th_s x) (negb w) fs held uks (map (text_of (negb w) x) Es) pl r.

Definition both (a b : combination B) (i : nat) : strategy B := over B (nth_of a i) (nth_of b i).
Lemma equal_step fs ms held Es a b p1 p2 x : Forall2 (fun f m => to_msp P f = Ok m) fs ms ->
  splits fs held Es (Equal a b p1 p2) x ->
  ((forall w, all fs ms held (plain :: Es) w (both a b) x = 0) -> splits fs held Es p1 x) /\
  ((forall w, all fs ms held (plain :: Es) w (both a b) x <> 0) -> splits fs held Es p2 x).
Proof using BL.
  intros HM (w & r & uks & F & H1 & H2).
  assert (E : forall w, result_of (keys_of x) (kept held uks) (map (text_of w x) Es) a = result_of (keys_of x) (kept held uks) (map (text_of w x) Es) b <->
     all fs ms held (plain :: Es) w (both a b) x = 0).
  { intros w'. rewrite !(result_all fs uks ms held w' x Es _ HM F). unfold both. rewrite all_over. split; intros Q.
    - apply (bl_gt_inj B BL) in Q. rewrite Q. ring.
    - f_equal. match goal with |- ?l = ?r => transitivity (l - r + r); [ring|] end.
      match type of Q with ?v = 0 => match goal with |- ?v' + _ = _ => change v' with v end end. rewrite Q. ring. }
  split; intros Z; exists w, r, uks; (split; [exact F|]); split.
  - inversion H1 as [|? ? ? ? ? ? ? ? ? Q1 Q2|? ? ? ? ? ? ? ? ? Q1 Q2| |]; subst; [exact Q2|]. exfalso. apply Q1. apply E. apply Z.
  - intros Q. apply H2. apply en_same; [apply E; apply Z|exact Q].
  - inversion H1 as [|? ? ? ? ? ? ? ? ? Q1 Q2|? ? ? ? ? ? ? ? ? Q1 Q2| |]; subst; [|exact Q2]. exfalso. apply (Z w). apply E. exact Q1.
  - intros Q. apply H2. apply en_different; [|exact Q]. intros Q1. apply (Z (negb w)). apply E. exact Q1.
Qed.

Lemma issue_step fs held Es c e sh p f W : (used (f :: fs) <= n)%nat -> formula_of fs e = Some f -> (forall e w, In e Es -> before (used fs) c (message e w)) ->
  NoDup W -> (forall x, In x W -> valid x /\ splits fs held Es (Issue e sh p) x) ->
  exists W', NoDup W' /\ length W' = length W /\ forall x', In x' W' -> valid x' /\ splits (f :: fs) (sh :: held) Es p x'.
Proof using BL.
  intros Hn Hf Hmu HW H. rewrite used_cons in Hn.
  set (R := fun x x' : throws B => th_t x' = th_t x /\ th_y x' = th_y x /\ th_s x' = th_s x /\ length (th_u x') = n /\
     firstn (used fs) (th_u x') = firstn (used fs) (th_u x) /\ skipn (used (f :: fs)) (th_u x') = skipn (used (f :: fs)) (th_u x) /\
     exists uks uk, fresh_with B P (keys_of x) fs (segs B fs (th_u x)) uks /\ makes P (keys_of x) fs uks (values (skipn (used fs) (th_u x))) e f uk /\
       fresh_with B P (keys_of x) (f :: fs) (segs B (f :: fs) (th_u x')) (uk :: uks) /\
     exists w r, ends P (keys_of x) (th_u x) (th_s x) w (f :: fs) (sh :: held) (uk :: uks) (map (text_of w x) Es) p r /\
       ~ ends P (keys_of x) (th_u x) (th_s x) (negb w) (f :: fs) (sh :: held) (uk :: uks) (map (text_of (negb w) x) Es) p r).
  destruct (transport R W HW) as (W' & H1 & H2 & H3).
  - intros x Hx. destruct (H x Hx) as (Hfine & w & r & uks & F & Q1 & Q2). destruct (keys_valid x Hfine) as (mdraw & Hmk).
    inversion Q1 as [| | |? ? ? ? ? ? ? f1 uk ? M Q3|]; subst. pose proof (makes_formula B P _ _ _ _ _ _ _ M) as Hf1. assert (f1 = f) by congruence. subst f1.
    destruct (makes_fresh B BL size P mdraw (keys_of x) fs _ uks _ e f uk Hmk F M) as (v & m' & Hv & Hm & Hk). destruct Hfine as (Ht & Hz & Hu & Hs).
    assert (L1 : length (firstn (used fs) (th_u x)) = used fs) by (rewrite firstn_length; lia).
    set (u' := firstn (used fs) (th_u x) ++ v ++ skipn (used (f :: fs)) (th_u x)).
    assert (A1 : firstn (used fs) u' = firstn (used fs) (th_u x)) by (apply cut_first; exact L1).
    assert (A2 : skipn (used fs) u' = v ++ skipn (used (f :: fs)) (th_u x)) by (apply cut_rest; exact L1).
    assert (A3 : skipn (used (f :: fs)) u' = skipn (used (f :: fs)) (th_u x)).
    { rewrite (used_cons f fs) at 1. rewrite <- skipn_skipn, A2. apply cut_rest. exact Hv. }
    exists (mkThrows (th_t x) (th_y x) u' (th_s x)). unfold R. cbn [th_t th_y th_u th_s].
    do 3 (split; [reflexivity|]). split; [unfold u'; rewrite !app_length, skipn_length, L1, used_cons; lia|]. split; [exact A1|split; [exact A3|]].
    exists uks, uk. split; [exact F|split; [exact M|split]].
    + unfold segs. cbn [offs map]. fold (segs B fs u'). rewrite (segs_early B fs u' (th_u x) _ (Nat.le_refl _) A1). apply (fw_cons B P _ f m' _ uk fs _ uks); [| exact Hm| |exact F].
      * unfold seg. cbn [fst snd]. rewrite A2, firstn_length, app_length. lia.
      * unfold seg. cbn [fst snd]. rewrite A2, (cut_first v _ _ Hv). exact Hk.
    + exists w, r. split; [exact Q3|]. intros Q. apply Q2. apply (en_issue P _ _ _ _ fs held uks _ e sh p f uk r M). exact Q.
  - intros x1 x2 x' Hx1 Hx2 (T1 & Y1 & S1 & L1 & A1 & B1 & uks1 & uk1 & F1 & M1 & G1 & _) (T2 & Y2 & S2 & L2 & A2 & B2 & uks2 & uk2 & F2 & M2 & G2 & _).
    destruct (H x1 Hx1) as (Hf1 & _). destruct (H x2 Hx2) as (Hf2 & _). destruct (keys_valid x1 Hf1) as (mdraw & Hmk).
    assert (Emk : keys_of x1 = keys_of x2) by (unfold keys_of; congruence). rewrite <- Emk in F2, M2, G2.
    pose proof (fresh_with_functional B P _ _ _ _ _ G1 G2) as Q. assert (uks2 = uks1) by congruence. assert (uk2 = uk1) by congruence. subst uks2 uk2.
    pose proof (makes_inj B BL size P mdraw _ fs _ uks1 _ _ e f uk1 Hmk F1 M1 M2) as V.
    assert (Eu : th_u x1 = th_u x2).
    { destruct Hf1 as (_ & _ & U1 & _). destruct Hf2 as (_ & _ & U2 & _). rewrite used_cons in B1, B2.
      rewrite <- (firstn_skipn (used fs) (th_u x1)), <- (firstn_skipn (used fs) (th_u x2)). f_equal; [congruence|].
      rewrite <- (firstn_skipn (count_and f) (skipn (used fs) (th_u x1))), <- (firstn_skipn (count_and f) (skipn (used fs) (th_u x2))). f_equal; [|rewrite !skipn_skipn; congruence].
      apply (nth_ext _ _ 0 0); [rewrite !firstn_length, !skipn_length; lia|]. intros i Hi. rewrite firstn_length in Hi.
      pose proof (seg_nth B (th_u x1) (used fs, count_and f) i ltac:(cbn [snd]; lia)) as N1. pose proof (seg_nth B (th_u x2) (used fs, count_and f) i ltac:(cbn [snd]; lia)) as N2.
      unfold seg in N1, N2. cbn [fst snd] in N1, N2. rewrite N1, N2. specialize (V i ltac:(lia)). unfold values in V.
      assert (NS : forall l : list K, nth i (skipn (used fs) l) 0 = nth (used fs + i) l 0).
      { intros l. generalize (used fs). intros k. revert l. induction k as [|k IHk]; intros l; [reflexivity|]. destruct l as [|z l]; [destruct i; reflexivity|]. cbn [skipn Nat.add nth]. apply IHk. }
      rewrite !NS in V. exact V. }
    destruct x1, x2. cbn in *. congruence.
  - exists W'. split; [exact H1|split; [exact H2|]]. intros x' Hx'. destruct (H3 x' Hx') as (x & Hx & T & Y & S & L & A & Bk & uks & uk & F & M & G & w & r & Q1 & Q2).
    destruct (H x Hx) as ((Ht & Hz & Hu & Hs) & _). split; [split; [congruence|split; [rewrite T; exact Hz|split; [exact L|rewrite S; exact Hs]]]|].
    assert (Emk : keys_of x' = keys_of x) by (unfold keys_of; congruence).
    assert (Ect : forall w, map (text_of w x') Es = map (text_of w x) Es).
    { intros w'. apply map_ext_in. intros e' He'. unfold text_of.
      assert (Es' : sigma (number e') x' = sigma (number e') x) by (destruct (number e'); cbn [sigma]; [reflexivity|rewrite S; reflexivity]).
      rewrite T, Y, Es', (Hmu e' w' He' x' x T Y A (f_equal (firstn c) S)). reflexivity. }
    exists w, r, (uk :: uks). rewrite Emk, !Ect, S. split; [exact G|split].
    + apply (ends_ext _ _ _ _ _ _ _ _ _ _ Q1). exact Bk.
    + intros Q. apply Q2. apply (ends_ext _ _ _ _ _ _ _ _ _ _ Q). symmetry. exact Bk.
Qed.

Definition added (fs : list node) (ms : list (msp Z)) (held : list bool) (Es : list entry) (gam : list N) (m0 m1 : combination B) : entry :=
  (S (length Es), gam, fun w x => all fs ms held (plain :: Es) w (nth_of (if w then m1 else m0)) x).
Lemma either_step fs ms held Es gam m0 m1 p x : Forall2 (fun f m => to_msp P f = Ok m) fs ms ->
  splits fs held Es (Either gam m0 m1 p) x ->
  (forall z, In z gam -> (N.to_nat z < length (th_t x))%nat) /\ splits fs held (Es ++ [added fs ms held Es gam m0 m1]) p x.
Proof using BL.
  intros HM (w & r & uks & F & H1 & H2). inversion H1 as [| | | |? ? ? ? ? ? ? ? ct ? E Q]; subst.
  destruct (encrypt_again B P _ (result_of (keys_of x) (kept held uks) (map (text_of (negb w) x) Es) (if negb w then m1 else m0)) _ _ _ _ E) as (ct2 & E2).
  assert (Q2 : ~ ends P (keys_of x) (th_u x) (th_s x) (negb w) fs held uks (map (text_of (negb w) x) Es ++ [ct2]) p r).
  { intros Q2. apply H2. apply (en_either P _ _ _ _ fs held uks _ gam m0 m1 p ct2 r); [|exact Q2]. rewrite map_length in *. exact E2. }
  rewrite (result_all fs uks ms held w x Es _ HM F) in E. rewrite (result_all fs uks ms held (negb w) x Es _ HM F) in E2. rewrite map_length in E, E2.
  destruct (encrypt_inv B BL _ _ _ _ _ _ _ E) as (_ & Hr & ->). destruct (encrypt_inv B BL _ _ _ _ _ _ _ E2) as (_ & _ & ->).
  split; [exact Hr|]. exists w, r, uks. split; [exact F|]. rewrite !map_app. split; [exact Q|exact Q2].
Qed.
End Runs.

Lemma few_split P pl : forall fs ms held Es W,
  Forall2 (fun f m => to_msp P f = Ok m) fs ms -> (forall f x, In f fs -> In x (leaves f) -> (N.to_nat x < size)%nat) -> (used fs <= n)%nat ->
  map number Es = seq 1 (length Es) -> (length Es <= m)%nat ->
  (forall e, In e Es -> (forall x, In x (marked e) -> (N.to_nat x < size)%nat) /\ (forall f, In f (kept held fs) -> ~ holds (attrs (marked e)) f) /\
     forall w, smooth (message e w) /\ before (used fs) (number e - 1) (message e w)) ->
  fairly n m fs held (map marked Es) pl -> NoDup W -> (forall x, In x W -> valid x /\ splits P fs held Es pl x) ->
  (length W * (q - 1) <= 2 * equations pl * (degree_ * total_))%nat.
Proof using BL Hnd Hall.
  induction pl as [b|a b p1 IH1 p2 IH2|e sh p IH|gam m0 m1 p IH]; intros fs ms held Es W HM Hin Hn Hnum Hm He Hfair HW H.
  - destruct W as [|x W]; [cbn; lia|]. exfalso. destruct (H x (or_introl eq_refl)) as (_ & w & r & uks & _ & Q1 & Q2). apply Q2. inversion Q1; subst. constructor.
  - assert (HM' : Forall2 (msp_of K) fs ms) by (clear - BL HM; induction HM as [|f m' l l' E _ IH]; constructor; [exact (to_msp_msp_of K KL P f m' E)|exact IH]).
    set (F := fun w => all fs ms held (plain :: Es) w (both a b)).
    assert (NF : forall w, smooth (F w)).
    { intros w. apply (all_smooth fs ms held HM' Hin Hn). intros e [<-|He']; [apply (smooth_const 0)|]. exact (proj1 (proj2 (proj2 (He e He')) w)). }
    pose proof (fun x Hx => equal_step P fs ms held Es a b p1 p2 x HM (proj2 (H x Hx))) as CS.
    cbn [fairly] in Hfair. destruct Hfair as [F1 F2].
    assert (CM : (equations (Equal a b p1 p2) = S (Nat.max (equations p1) (equations p2)))%nat) by reflexivity. rewrite CM. clear CM.
    set (c1 := equations p1) in *. set (c2 := equations p2) in *. set (DT := (degree_ * total_)%nat).
    assert (Rest : forall W', NoDup W' -> (forall x, In x W' -> In x W /\ forall w, F w x <> 0) -> (length W' * (q - 1) <= 2 * c2 * DT)%nat).
    { intros W' HW' H'. apply (IH2 fs ms held Es W' HM Hin Hn Hnum Hm He F2 HW'). intros x Hx. destruct (H' x Hx) as [Hx' Z]. split; [exact (proj1 (H x Hx'))|].
      exact (proj2 (CS x Hx') Z). }
    assert (Same : (forall x, In x W -> forall w, F w x = 0) -> (length W * (q - 1) <= 2 * c1 * DT)%nat).
    { intros Z. apply (IH1 fs ms held Es W HM Hin Hn Hnum Hm He F1 HW). intros x Hx. split; [exact (proj1 (H x Hx))|]. exact (proj1 (CS x Hx) (Z x Hx)). }
    assert (Two : (forall w W', NoDup W' -> (forall x, In x W' -> valid x /\ F w x = 0) -> (length W' * (q - 1) <= DT)%nat) -> (length W * (q - 1) <= 2 * S (Nat.max c1 c2) * DT)%nat).
    { intros Z. pose proof (split_count W (fun x => feqb (F true x) 0)) as L1. set (A1 := filter (fun x => feqb (F true x) 0) W) in *. set (R1 := filter (fun x => negb (feqb (F true x) 0)) W) in *.
      pose proof (split_count R1 (fun x => feqb (F false x) 0)) as L2. set (A2 := filter (fun x => feqb (F false x) 0) R1) in *. set (R2 := filter (fun x => negb (feqb (F false x) 0)) R1) in *.
      assert (B1 : (length A1 * (q - 1) <= DT)%nat).
      { apply (Z true); [apply NoDup_filter; exact HW|]. intros x Hx. apply filter_In in Hx as [Hx E]. split; [exact (proj1 (H x Hx))|]. apply (fl_eqb K KL) in E. exact E. }
      assert (B2 : (length A2 * (q - 1) <= DT)%nat).
      { apply (Z false); [apply NoDup_filter, NoDup_filter; exact HW|]. intros x Hx. apply filter_In in Hx as [Hx E]. apply filter_In in Hx as [Hx _]. split; [exact (proj1 (H x Hx))|]. apply (fl_eqb K KL) in E. exact E. }
      assert (B3 : (length R2 * (q - 1) <= 2 * c2 * DT)%nat).
      { apply Rest; [apply NoDup_filter, NoDup_filter; exact HW|]. intros x Hx. apply filter_In in Hx as [Hx E2]. apply filter_In in Hx as [Hx E1]. split; [exact Hx|].
        apply Bool.negb_true_iff in E1. apply Bool.negb_true_iff in E2. apply (feqb_false K KL) in E1. apply (feqb_false K KL) in E2. intros [|]; assumption. }
      assert (M : (c2 <= Nat.max c1 c2)%nat) by lia. clearbody DT. nia. }
    destruct (Nat.ltb_spec q 3) as [Hq|Hq].
    { pose proof (all_total_ W HW (fun x Hx => proj1 (H x Hx))) as L. assert (Q : (length W * (q - 1) <= total_)%nat) by nia.
      assert (Q2 : (total_ <= DT)%nat) by (unfold DT, degree_; nia). nia. }
    destruct (clean_dec (plain :: Es) (both a b)) as [C|C].
    + assert (E : forall w x, F w x = F true x).
      { intros w x. apply (clean_same fs ms held _ _ C). intros e [<-|He'] N0; [reflexivity|]. exfalso. apply (in_map number) in He'. rewrite Hnum in He'. apply in_seq in He'. lia. }
      destruct (smooth_zeros (F true) (NF true)) as [A|A].
      * assert (S1 : (length W * (q - 1) <= 2 * c1 * DT)%nat) by (apply Same; intros x Hx w; rewrite E; apply A; exact (proj1 (H x Hx))). assert (M : (c1 <= Nat.max c1 c2)%nat) by lia. clearbody DT. nia.
      * apply Two. intros w W' HW' H'. apply A; [exact HW'|]. intros x Hx. rewrite <- (E w). exact (H' x Hx).
    + destruct (third B BL elems Hnd Hq) as (l & Hl).
      apply Two. intros w. destruct (smooth_zeros (F w) (NF w)) as [A|A]; [|exact A]. exfalso.
      apply (all_not_zero fs ms held (plain :: Es) w (both a b) (length Es) HM' Hin Hn Hm) in A; [exact A| | |exact (ex_intro _ l Hl)|exact C].
      * cbn [map seq]. rewrite Hnum. reflexivity.
      * intros e [<-|He']; [split; [intros x []|split; [intros Q; exfalso; apply Q; reflexivity|intros x x' _ _ _ _; reflexivity]]|].
        destruct (He e He') as (G1 & G2 & G3). split; [exact G1|split; [intros _; exact G2|exact (proj2 (G3 w))]].
  - cbn [equations]. destruct W as [|x0 W0] eqn:EW; [cbn; lia|]. rewrite <- EW in *. assert (Hx0 : In x0 W) by (rewrite EW; left; reflexivity). clear EW W0.
    destruct (H x0 Hx0) as (Hfine & w & r & uks & Fr & Q1 & _). inversion Q1 as [| | |? ? ? ? ? ? ? f uk ? M Q3|]; subst. clear Q1 Q3.
    pose proof (makes_formula B P _ _ _ _ _ _ _ M) as Hf. destruct (Hfair f Hf) as (Hn' & Hsh & Hfair').
    destruct (keys_valid x0 Hfine) as (mdraw & Hmk). destruct (makes_fresh B BL size P mdraw _ fs _ uks _ e f uk Hmk Fr M) as (v & m' & _ & Hm' & Hk).
    assert (Hb : forall e w, In e Es -> before (used fs) m (message e w)).
    { intros e' w' He'. apply (before_le _ _ _ _ _ (proj2 (proj2 (proj2 (He e' He')) w'))); [lia|]. apply (in_map number) in He'. rewrite Hnum in He'. apply in_seq in He'. lia. }
    destruct (issue_step P fs held Es m e sh p f W Hn' Hf Hb HW H) as (W' & H1 & H2 & H3). rewrite <- H2.
    apply (IH (f :: fs) (m' :: ms) (sh :: held) Es W').
    + constructor; assumption.
    + intros f' x [<-|Hf'] Hx; [|exact (Hin f' x Hf' Hx)]. destruct Hfine as (Lt & Hz & _).
      destruct (derived_good B BL P _ _ f uk Hz (de_gen B P _ f m' _ uk Hm' Hk)) as ((m2 & sg & R & _) & _). rewrite <- Lt. exact (kr_range _ _ _ _ _ _ R x Hx).
    + exact Hn'.
    + exact Hnum.
    + exact Hm.
    + intros e' He'. destruct (He e' He') as (G1 & G2 & G3). split; [exact G1|split].
      * destruct sh; cbn [kept]; [|exact G2]. intros f' [<-|Hf']; [exact (Hsh eq_refl (marked e') (in_map marked _ _ He'))|exact (G2 f' Hf')].
      * intros w'. destruct (G3 w') as [N1 N2]. split; [exact N1|]. apply (before_le _ _ _ _ _ N2); [rewrite used_cons; lia|lia].
    + exact Hfair'.
    + exact H1.
    + exact H3.
  - cbn [equations]. cbn [fairly] in Hfair. destruct Hfair as (Hm' & Hno & Hfair). rewrite map_length in Hm'.
    assert (HM' : Forall2 (msp_of K) fs ms) by (clear - BL HM; induction HM as [|f m' l l' E _ IH]; constructor; [exact (to_msp_msp_of K KL P f m' E)|exact IH]).
    destruct W as [|x0 W0] eqn:EW; [cbn; lia|]. rewrite <- EW in *. assert (Hx0 : In x0 W) by (rewrite EW; left; reflexivity). clear EW W0.
    pose proof (fun x Hx => either_step P fs ms held Es gam m0 m1 p x HM (proj2 (H x Hx))) as CS.
    apply (IH fs ms held (Es ++ [added fs ms held Es gam m0 m1]) W HM Hin Hn).
    + rewrite map_app, app_length, Hnum, seq_app. reflexivity.
    + rewrite app_length. cbn [length]. lia.
    + intros e He'. apply in_app_or in He' as [He'|[<-|[]]]; [exact (He e He')|]. cbn [added marked message number fst snd]. split; [|split; [exact Hno|]].
      * intros z Hz. rewrite <- (proj1 (proj1 (H x0 Hx0))). exact (proj1 (CS x0 Hx0) z Hz).
      * intros w. replace (S (length Es) - 1)%nat with (length Es) by lia. split.
        -- apply (all_smooth fs ms held HM' Hin Hn). intros e [<-|He']; [apply (smooth_const 0)|]. exact (proj1 (proj2 (proj2 (He e He')) w)).
        -- apply all_before. intros e [<-|He']; [split; [cbn; lia|intros x x' _ _ _ _; reflexivity]|]. pose proof (in_map number _ _ He') as Q. rewrite Hnum in Q. apply in_seq in Q. split; [lia|].
           apply (before_le _ _ _ _ _ (proj2 (proj2 (proj2 (He e He')) w))); lia.
    + rewrite map_app. exact Hfair.
    + exact HW.
    + intros x Hx. split; [exact (proj1 (H x Hx))|exact (proj2 (CS x Hx))].
Qed.
End Count.

(** ** C107 *)
(** A run gives one answer. *)
Theorem C107_one_answer P (mk : master_key B) u s w fs held uks cts pl r r' :
  ends P mk u s w fs held uks cts pl r -> ends P mk u s w fs held uks cts pl r' -> r = r'.
Proof using.
  intros H. revert r'. induction H as [fs held uks cts b|fs held uks cts a b p1 p2 r E H IH|fs held uks cts a b p1 p2 r E H IH|fs held uks cts e sh p f uk r M H IH|fs held uks cts gam m0 m1 p ct r E H IH];
    intros r' H'; inversion H'; subst.
  - reflexivity.
  - apply IH. assumption.
  - contradiction.
  - contradiction.
  - apply IH. assumption.
  - match goal with M' : makes P mk fs uks _ e ?f' ?uk' |- _ => destruct (makes_once B _ _ _ _ _ _ _ _ _ _ M M') as [-> ->] end. apply IH. assumption.
  - apply IH. match goal with E' : encrypt P _ gam _ _ = Ok ?c |- _ => assert (c = ct) by congruence end. subst. assumption.
Qed.

(** However many pairs of messages are encrypted, the attacker tells the two experiments apart with few
    of the draws, if none of the keys shown is satisfied by the attributes of a ciphertext. *)
Theorem C107_rarely_told_apart P size n m (pl : plans B) (elems : list K) (found : list (throws B)) :
  NoDup elems -> (forall x : K, In x elems) -> fairly n m [] [] [] pl ->
  NoDup found -> (forall x, In x found -> length (th_t x) = size /\ length (th_u x) = n /\ length (th_s x) = m /\ tells P size pl x) ->
  (length found * (length elems - 1) <= 2 * equations pl * (2 * size + n + m + 1) * ((length elems - 1) ^ size * length elems ^ (n + m + 1)))%nat.
Proof using BL.
  intros Hnd Hall Hfair HW H. rewrite <- Nat.mul_assoc.
  apply (few_split elems size n m Hnd Hall P pl [] [] [] [] found); try assumption.
  - constructor.
  - intros f x [].
  - cbn. lia.
  - reflexivity.
  - cbn. lia.
  - intros e [].
  - intros x Hx. destruct (H x Hx) as (Ht & Hu & Hs & mk & w & r & Hmk & Q1 & Q2). destruct (master_values B BL size (th_t x) (th_y x) mk Ht Hmk) as [-> Hz].
    split; [split; [exact Ht|split; [exact Hz|split; [exact Hu|exact Hs]]]|]. exists w, r, []. split; [constructor|split; [exact Q1|exact Q2]].
Qed.
End Games.

(** ** The order of the group *)
Theorem C107_negligible (C : curve) (H : contract C) P size n m (pl : plans (bls_map C)) (found : list (throws (bls_map C))) :
  fairly n m [] [] [] pl -> (Z.of_nat (2 * equations pl * (2 * size + n + m + 1)) <= 2 ^ 127)%Z ->
  NoDup found -> (forall x, In x found -> length (th_t x) = size /\ length (th_u x) = n /\ length (th_s x) = m /\ tells P size pl x) ->
  (Z.of_nat (length found) * 2 ^ 127 <= (bls_r - 1) ^ Z.of_nat size * bls_r ^ Z.of_nat (n + m + 1))%Z.
Proof.
  intros Hfair Hc Hnd Hf. destruct (zp_elems bls_mod) as (elems & E1 & E2 & E3).
  pose proof (C107_rarely_told_apart (bls_map C) (bls_map_laws C H) P size n m pl elems found E1 E2 Hfair Hnd Hf) as L.
  assert (E4 : Z.of_nat (@length (bm_K (bls_map C)) elems) = bls_r) by exact E3. clear E3. clear E1 E2.
  revert L Hc. generalize (2 * equations pl * (2 * size + n + m + 1))%nat. intros D L Hc.
  assert (L' : (Z.of_nat (length found) * (bls_r - 1) <= Z.of_nat D * ((bls_r - 1) ^ Z.of_nat size * bls_r ^ Z.of_nat (n + m + 1)))%Z).
  { assert (R0 : (1 <= bls_r)%Z) by (apply Z.leb_le; vm_compute; reflexivity).
    apply inj_le in L. rewrite !Nat2Z.inj_mul, !Nat2Z.inj_pow, !Nat2Z.inj_sub in L by (apply Nat2Z.inj_le; rewrite E4; exact R0).
    rewrite E4 in L. exact L. }
  assert (R : (2 ^ 127 * 2 ^ 127 <= bls_r - 1)%Z) by (apply Z.leb_le; vm_compute; reflexivity).
  assert (R1 : (0 <= (bls_r - 1) ^ Z.of_nat size * bls_r ^ Z.of_nat (n + m + 1))%Z) by (apply Z.mul_nonneg_nonneg; apply Z.pow_nonneg; apply Z.leb_le; vm_compute; reflexivity).
  revert R1 L'. generalize ((bls_r - 1) ^ Z.of_nat size * bls_r ^ Z.of_nat (n + m + 1))%Z. intros T R1 L'.
  assert (Q1 : (Z.of_nat (length found) * (2 ^ 127 * 2 ^ 127) <= Z.of_nat (length found) * (bls_r - 1))%Z) by (apply Z.mul_le_mono_nonneg_l; [apply Nat2Z.is_nonneg|exact R]).
  assert (Q2 : (Z.of_nat D * T <= 2 ^ 127 * T)%Z) by (apply Z.mul_le_mono_nonneg_r; assumption).
  assert (Q3 : (Z.of_nat (length found) * 2 ^ 127 * 2 ^ 127 <= T * 2 ^ 127)%Z) by (rewrite <- Z.mul_assoc, (Z.mul_comm T); etransitivity; [exact Q1|]; etransitivity; [exact L'|exact Q2]).
  apply (Z.mul_le_mono_pos_r _ _ (2 ^ 127)); [apply Z.ltb_lt; vm_compute; reflexivity|exact Q3].
Qed.

(** ** Examples *)
Local Ltac vmr x := vm_cast_no_check (eq_refl x).
(** A key for 2 & 5 is shown. One of two messages is encrypted for 1 and 5. A key for
    1 & (4 | (2 & 3)) is issued to someone else. Then either the first masked message or a third
    message is encrypted for 2 and 3. The quotient of the masked messages is compared with 1. This tells
    the cases apart if the scalar of the second ciphertext is 0. *)
Definition c107_none : strategy toy := @mkStrategy toy [] [].
Definition c107_masked : strategy toy := @mkStrategy toy [] [(CtMasked, f101 1)].
Definition c107_plan : plans toy :=
  Issue (Generated c09_f) true (Either [1; 5]%N [c104_m 1] [c104_m 2] (Issue (Generated ex_f) false
    (Either [2; 3]%N [c107_none; c107_masked] [c104_m 3] (Equal [c107_none; c107_masked] [c107_none; c107_none; c107_masked] (Done false) (Done true))))).
Definition c107_x : throws toy := @mkThrows toy (draws ex_draw 0 10) (ex_draw 10) [ex_draw 0; ex_kdraw 0; ex_kdraw 1] [ex_s; f0].
Definition c107_first (w : bool) : ciphertext toy :=
  run (@mkCt toy [] f0 []) (encrypt pf (gt_gen_exp toy (f101 (if w then 2 else 1))) [1; 5]%N (pub_key ex_mk) ex_s).
Definition c107_second (w : bool) : ciphertext toy :=
  run (@mkCt toy [] f0 []) (encrypt pf (if w then gt_gen_exp toy (f101 3) else result_of ex_mk [c09_uk] [c107_first w] [c107_none; c107_masked]) [2; 3]%N (pub_key ex_mk) f0).
Lemma c107_ends w : ends pf ex_mk (th_u c107_x) (th_s c107_x) w [] [] [] [] c107_plan w.
Proof.
  destruct ex_setup as (_ & H2 & _).
  apply (en_issue pf ex_mk _ _ _ _ _ _ _ _ _ _ c09_f c09_uk).
  { apply (mk_gen pf ex_mk _ _ _ c09_f c09_m); [vmr (@Ok (msp Z) c09_m)|vmr (@Ok (decryption_key toy) c09_uk)]. }
  apply (en_either pf ex_mk _ _ _ _ _ _ _ _ _ _ _ (c107_first w)).
  { destruct w; [vmr (@Ok (ciphertext toy) (c107_first true))|vmr (@Ok (ciphertext toy) (c107_first false))]. }
  apply (en_issue pf ex_mk _ _ _ _ _ _ _ _ _ _ ex_f ex_uk).
  { apply (mk_gen pf ex_mk _ _ _ ex_f ex_m); [exact H2|vmr (@Ok (decryption_key toy) ex_uk)]. }
  apply (en_either pf ex_mk _ _ _ _ _ _ _ _ _ _ _ (c107_second w)).
  { destruct w; [vmr (@Ok (ciphertext toy) (c107_second true))|vmr (@Ok (ciphertext toy) (c107_second false))]. }
  destruct w.
  - apply en_different; [|constructor]. intros E. apply (f_equal (@zval m101)) in E. vm_compute in E. discriminate.
  - apply en_same; [|constructor]. vmr (result_of ex_mk [c09_uk] [c107_first false; c107_second false] [c107_none; c107_masked]).
Qed.
Example C107_example : fairly 3 2 [] [] [] c107_plan /\ length (th_t c107_x) = 10%nat /\ length (th_u c107_x) = 3%nat /\ length (th_s c107_x) = 2%nat /\ tells pf 10 c107_plan c107_x.
Proof.
  split; [|split; [reflexivity|split; [reflexivity|split; [reflexivity|]]]].
  - cbn [fairly c107_plan formula_of]. intros f E. assert (f = c09_f) by congruence. subst f. split; [vm_compute; lia|split; [intros _ gam []|]].
    split; [cbn; lia|]. split; [intros f [<-|[]] Hh; simpl in Hh; intuition discriminate|].
    intros f E2. assert (f = ex_f) by congruence. subst f. split; [vm_compute; lia|split; [discriminate|]].
    split; [cbn; lia|]. split; [intros f [<-|[]] Hh; simpl in Hh; intuition discriminate|]. split; exact I.
  - exists ex_mk, false, false. split; [vmr (@Ok (master_key toy) ex_mk)|]. split; [exact (c107_ends false)|].
    intros Q. pose proof (C107_one_answer toy pf ex_mk _ _ _ _ _ _ _ _ _ _ Q (c107_ends true)). discriminate.
Qed.

Print Assumptions C107_one_answer.
Print Assumptions C107_rarely_told_apart.
Print Assumptions C107_negligible.
Print Assumptions C107_example.

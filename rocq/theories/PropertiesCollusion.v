(** Collusion: C09. *)
From Coq Require Import String NArith ZArith Bool Lia Permutation Field_theory Field List.
From Verif Require Import Prelude Field LinAlg Msp Spec MspProofs Minimal Gauss GaussProofs Bilinear Scheme SchemeSpec
  SchemeProofs SchemeTheorems CollusionSpec Zp ExpModel PropertiesScheme PropertiesDelegation.
Import ListNotations.

Section Collusion.
Variable B : BilinearMap.
Variable BL : BilinearLaws B.
Local Notation K := (bm_K B).
Local Notation KL := (bl_field B BL).

Declare Scope fld.
Local Notation "0" := (@f0 K) : fld.
Local Notation "1" := (@f1 K) : fld.
Local Infix "+" := (@fadd K) : fld.
Local Infix "*" := (@fmul K) : fld.
Local Infix "-" := (@fsub K) : fld.
Local Notation "- x" := (@fneg K x) : fld.
Local Open Scope fld.
Add Field KF8 : (fl_field K (bl_field B BL)).

Local Notation g3 := (g3_gen_exp B).
Local Notation g2 := (g2_gen_exp B).
Local Notation gt := (gt_gen_exp B).
Local Notation to1 := (g3_to_g1 B).

(** The strategy finds the message with freshly generated keys. *)
Definition wins (P : platform) (size : nat) (ms : list (msp Z)) (gam : list N) (a : strategy B) : Prop :=
  forall mdraw mk uks msg s ct,
    generate_master_key size mdraw = Ok mk ->
    Forall2 (fun m uk => exists draw, key_generation m (priv_key mk) draw = Ok uk) ms uks ->
    encrypt P msg gam (pub_key mk) s = Ok ct ->
    attack mk uks ct a = msg.

(** ** Exponents of the elements *)
Definition base1 (t : list K) (n : name1) : K :=
  match n with OneG1 => 1 | Delegation i => nth i (map (fun x => 1 * finv x) t) 0 | KeyPart _ _ => 0 end.
Definition part1 (xss : list (list K)) (n : name1) : K :=
  match n with KeyPart k r => nth r (nth k xss []) 0 | _ => 0 end.
Definition base2 (t : list K) (n : name2) : K :=
  match n with OneG2 => 1 | Public i => nth i t 0 | CtPart _ => 0 end.
Definition part2 (t : list K) (gam : list N) (n : name2) : K :=
  match n with CtPart j => nth j (map (tt B t) gam) 0 | _ => 0 end.
Definition expt (y s mu : K) (n : namet) : K :=
  match n with OneGt => 1 | PublicY => y | CtMasked => mu + y * s end.

Definition holds_exponents (uk : decryption_key B) (xs : list K) : Prop := d_i uk = map (fun x => to1 (g3 x)) xs.

Lemma exponents_lists uks xss : Forall2 holds_exponents uks xss -> map d_i uks = map (map (fun x => to1 (g3 x))) xss.
Proof. induction 1 as [|uk xs uks xss H _ IH]; [reflexivity|]. cbn [map]. rewrite H, IH. reflexivity. Qed.

Lemma element1_value t y uks xss n : Forall2 holds_exponents uks xss ->
  element1 (master_of B t y) uks n = to1 (g3 (base1 t n + part1 xss n)).
Proof.
  intros H. destruct n as [|i|k r]; cbn [element1 base1 part1].
  - do 2 f_equal. ring.
  - cbn [del_key master_of inv_t]. unfold inv_of.
    rewrite <- (map_map (fun x => 1 * finv x) g3), map_nth. do 2 f_equal. ring.
  - rewrite (exponents_lists _ _ H).
    change (@nil (G1 B)) with (map (fun x => to1 (g3 x)) []). rewrite map_nth.
    rewrite (map_nth (fun x => to1 (g3 x))). do 2 f_equal. ring.
Qed.

Lemma element2_value t y gam mu s n :
  element2 (master_of B t y) (mkCt gam (gt (mu + y * s)) (map (fun a => g2 (tt B t a * s)) gam)) n = g2 (base2 t n + part2 t gam n * s).
Proof.
  destruct n as [|i|j]; cbn [element2 base2 part2].
  - f_equal. ring.
  - cbn [pub_key master_of pub_of pub_t]. rewrite map_nth. f_equal. ring.
  - cbn [e_i]. rewrite <- (map_map (fun a => tt B t a * s) g2), map_nth. f_equal.
    rewrite <- (map_map (tt B t) (fun x => x * s)). replace (@f0 K) with ((fun x => x * s) 0) at 1 by ring.
    rewrite (map_nth (fun x => x * s)). ring.
Qed.

Lemma fold_sum (l : list (K * K * K)) :
  fold_right (fun x s => (fst (fst x)) * (snd (fst x)) * (snd x) + s) 0 l = suml (fun x => fst (fst x) * snd (fst x) * snd x) l.
Proof. induction l as [|x l IH]; [reflexivity|]. cbn [fold_right]. rewrite IH. reflexivity. Qed.

Lemma attack_value t y gam mu s uks xss a : Forall2 holds_exponents uks xss ->
  attack (master_of B t y) uks (mkCt gam (gt (mu + y * s)) (map (fun a => g2 (tt B t a * s)) gam)) a =
  gt (suml (fun x => (base1 t (fst (fst x)) + part1 xss (fst (fst x))) * (base2 t (snd (fst x)) + part2 t gam (snd (fst x)) * s) * snd x) (pairings a)
      + suml (fun x => expt y s mu (fst x) * snd x) (others a)).
Proof.
  intros H. unfold attack.
  set (f := fun x : name1 * name2 * K =>
    (base1 t (fst (fst x)) + part1 xss (fst (fst x)), base2 t (snd (fst x)) + part2 t gam (snd (fst x)) * s, snd x)).
  assert (E1 : map (fun x => element1 (master_of B t y) uks (fst (fst x))) (pairings a)
             = map (fun x => to1 (g3 (fst (fst x)))) (map f (pairings a))).
  { rewrite map_map. apply map_ext. intros x. apply element1_value. exact H. }
  assert (E2 : map (fun x => element2 (master_of B t y) (mkCt gam (gt (mu + y * s)) (map (fun a => g2 (tt B t a * s)) gam)) (snd (fst x))) (pairings a)
             = map (fun x => g2 (snd (fst x))) (map f (pairings a))).
  { rewrite map_map. apply map_ext. intros x. apply element2_value. }
  assert (E3 : map snd (pairings a) = map (fun x => snd x) (map f (pairings a))) by (rewrite map_map; reflexivity).
  rewrite E1, E2, E3, (bl_prod B BL), fold_sum, suml_map.
  assert (E4 : forall l, fold_right (fun x acc => gt_mul B (gt_exp B (elementt (master_of B t y)
       (mkCt gam (gt (mu + y * s)) (map (fun a => g2 (tt B t a * s)) gam)) (fst x)) (snd x)) acc) (gt 0) l
     = gt (suml (fun x => expt y s mu (fst x) * snd x) l)).
  { induction l as [|[n c] l IH]; [reflexivity|]. cbn [fold_right]. rewrite IH. cbn [fst snd].
    assert (Q : elementt (master_of B t y) (mkCt gam (gt (mu + y * s)) (map (fun a => g2 (tt B t a * s)) gam)) n = gt (expt y s mu n)) by (destruct n; reflexivity).
    rewrite Q, (bl_gt_exp B BL), (bl_gt_mul B BL). reflexivity. }
  rewrite E4, (bl_gt_mul B BL). reflexivity.
Qed.

(** ** Keys with chosen shares *)
Lemma chosen_key f m t y (w : nat -> K) :
  msp_of K f m -> (forall a, In a (leaves f) -> in_range B t a /\ tt B t a <> 0) -> suml w (seq 0 (nb_col m)) = y ->
  exists draw uk, key_generation m (mkPriv t y) draw = Ok uk /\
    holds_exponents uk (map (fun a => dotZ K (row_of m a) w * finv (tt B t a)) (row_to_attr m)).
Proof.
  intros M Ht Hw. assert (Hc : (1 <= nb_col m)%nat) by (rewrite (mo_cols K f m M); lia).
  destruct (sharing_vector_total B (nb_col m) (fun _ => 0) 0 Hc) as (u & Hu).
  destruct (sharing_vector_inv B BL _ _ _ _ Hu) as [Lu Su].
  set (w' := fun j => w j - vec u j).
  assert (Hw' : suml w' (seq 0 (nb_col m)) = y - 0) by (unfold w'; rewrite suml_sub by exact KL; rewrite Hw, Su; reflexivity).
  destruct (sharing_vector_shift B BL (nb_col m) (fun _ => 0) 0 y u w' Hc Hu Hw') as (u2 & Hu2 & Hv).
  destruct (key_generation_total B BL f m t y (shift (fun _ => 0) w') M Ht) as (uk & Hk).
  exists (shift (fun _ => 0) w'), uk. split; [exact Hk|].
  destruct (key_generation_rep B BL f m t y _ uk M Hk) as (u3 & Hu3 & R & _). assert (u3 = u2) by congruence. subst u3.
  unfold holds_exponents. rewrite (kr_d _ _ _ _ _ _ R), map_map. apply map_ext_in. intros a Ha.
  assert (Hl : In a (leaves f)) by (apply (Permutation_in _ (mo_perm K f m M)); exact Ha).
  do 3 f_equal. unfold share. apply dot_ext. intros i Hi. rewrite map_length, (row_of_width B f m a M Hl) in Hi.
  rewrite Hv by exact Hi. unfold w'. ring.
Qed.

Lemma chosen_keys (fs : list node) ms ws t y :
  Forall2 (msp_of K) fs ms ->
  (forall f a, In f fs -> In a (leaves f) -> in_range B t a /\ tt B t a <> 0) ->
  Forall2 (fun m w => suml w (seq 0 (nb_col m)) = y) ms ws ->
  exists uks, Forall2 (fun m uk => exists draw, key_generation m (mkPriv t y) draw = Ok uk) ms uks /\
    Forall2 holds_exponents uks
      (map (fun p => map (fun a => dotZ K (row_of (fst p) a) (snd p) * finv (tt B t a)) (row_to_attr (fst p))) (combine ms ws)).
Proof.
  intros HM Ht HW. revert ws HW. induction HM as [|f m fs ms M HM IH]; intros ws HW; inversion HW as [|? w ? ws' Hw HW']; subst.
  - exists []. split; constructor.
  - destruct (chosen_key f m t _ w M (fun a => Ht f a (or_introl eq_refl)) eq_refl) as (draw & uk & Hk & He).
    destruct (IH (fun g a Hg => Ht g a (or_intror Hg)) ws' HW') as (uks & H1 & H2).
    exists (uk :: uks). split; constructor; try assumption. exists draw. exact Hk.
Qed.

(** ** The part of the result that depends on the randomness of the ciphertext *)
Definition s_part (t : list K) (gam : list N) (xss : list (list K)) (a : strategy B) : K :=
  suml (fun x => (base1 t (fst (fst x)) + part1 xss (fst (fst x))) * part2 t gam (snd (fst x)) * snd x) (pairings a).

Lemma master_drawn (t : list K) y : (forall x, In x t -> x <> 0) ->
  exists mdraw, generate_master_key (length t) mdraw = Ok (master_of B t y).
Proof.
  intros Hnz. exists (fun i => nth i (t ++ [y]) 0). rewrite (generate_master_key_ok B BL).
  - assert (E : draws (fun i => nth i (t ++ [y]) 0) 0 (length t) = t).
    { unfold draws. apply (nth_ext _ _ 0 0); [rewrite map_length, seq_length; reflexivity|]. intros n Hn. rewrite map_length, seq_length in Hn.
      rewrite (nth_indep _ 0 (nth 0 (t ++ [y]) 0)) by (rewrite map_length, seq_length; exact Hn).
      rewrite (map_nth (fun i => nth i (t ++ [y]) 0)), seq_nth by exact Hn. cbn. apply app_nth1. exact Hn. }
    rewrite E. do 2 f_equal. rewrite app_nth2, Nat.sub_diag by lia. reflexivity.
  - intros i Hi. rewrite app_nth1 by exact Hi. apply Hnz. apply nth_In. exact Hi.
Qed.

Section Forward.
Variable P : platform.
Variable size : nat.
Variable fs : list node.
Variable ms : list (msp Z).
Variable gam : list N.
Variable a : strategy B.
Hypothesis HM : Forall2 (msp_of K) fs ms.
Hypothesis Hin : forall f x, In f fs -> In x (leaves f) -> (N.to_nat x < size)%nat.
Hypothesis Hgl : (length gam < size)%nat.
Hypothesis Hg : forall x, In x gam -> (N.to_nat x < size)%nat.
Hypothesis Hwin : wins P size ms gam a.

Lemma in_t (t : list K) x : length t = size -> (forall z, In z t -> z <> 0) -> (N.to_nat x < size)%nat -> in_range B t x /\ tt B t x <> 0.
Proof using.
  intros Ht Hnz Hx. rewrite <- Ht in Hx. unfold in_range, tt. split; [exact Hx|]. apply Hnz. apply nth_In. exact Hx.
Qed.

Lemma win_equation t y ws s mu : length t = size -> (forall x, In x t -> x <> 0) ->
  Forall2 (fun m w => suml w (seq 0 (nb_col m)) = y) ms ws ->
  let xss := map (fun p => map (fun a => dotZ K (row_of (fst p) a) (snd p) * finv (tt B t a)) (row_to_attr (fst p))) (combine ms ws) in
  suml (fun x => (base1 t (fst (fst x)) + part1 xss (fst (fst x))) * (base2 t (snd (fst x)) + part2 t gam (snd (fst x)) * s) * snd x) (pairings a)
      + suml (fun x => expt y s mu (fst x) * snd x) (others a) = mu.
Proof using BL HM Hin Hgl Hg Hwin.
  intros Ht Hnz HW xss. destruct (chosen_keys fs ms ws t y HM) as (uks & Hk & He); [|exact HW|].
  { intros f x Hf Hx. apply in_t; try assumption. exact (Hin f x Hf Hx). }
  destruct (master_drawn t y Hnz) as (mdraw & Hmk). rewrite Ht in Hmk.
  assert (Hct : encrypt P (gt mu) gam (pub_key (master_of B t y)) s
     = Ok (mkCt gam (gt (mu + y * s)) (map (fun a => g2 (tt B t a * s)) gam))).
  { apply encrypt_run; [exact BL|lia|]. intros x Hx. unfold in_range. rewrite Ht. apply Hg. exact Hx. }
  pose proof (Hwin mdraw _ uks (gt mu) s _ Hmk Hk Hct) as E. rewrite (attack_value t y gam mu s uks xss a He) in E.
  apply (bl_gt_inj B BL) in E. exact E.
Qed.

Lemma expt_split y s mu : suml (fun x => expt y s mu (fst x) * snd x) (others a)
  = suml (fun x => expt y 0 0 (fst x) * snd x) (others a)
    + (mu + y * s) * suml (fun x => (match fst x with CtMasked => 1 | _ => 0 end) * snd x) (others a).
Proof using BL.
  rewrite <- suml_scal by exact KL. rewrite <- suml_add by exact KL. apply suml_ext. intros [n c] _. destruct n; cbn [expt fst snd]; ring.
Qed.

Lemma s_part_value t y ws : length t = size -> (forall x, In x t -> x <> 0) ->
  Forall2 (fun m w => suml w (seq 0 (nb_col m)) = y) ms ws ->
  s_part t gam (map (fun p => map (fun a => dotZ K (row_of (fst p) a) (snd p) * finv (tt B t a)) (row_to_attr (fst p))) (combine ms ws)) a = - y.
Proof using BL HM Hin Hgl Hg Hwin.
  intros Ht Hnz HW. set (xss := map _ (combine ms ws)).
  assert (E : forall s mu, suml (fun x => (base1 t (fst (fst x)) + part1 xss (fst (fst x))) * base2 t (snd (fst x)) * snd x) (pairings a)
     + s * s_part t gam xss a + (suml (fun x => expt y 0 0 (fst x) * snd x) (others a)
    + (mu + y * s) * suml (fun x => (match fst x with CtMasked => 1 | _ => 0 end) * snd x) (others a)) = mu).
  { intros s mu. rewrite <- expt_split. refine (eq_trans _ (win_equation t y ws s mu Ht Hnz HW)). fold xss. f_equal.
    unfold s_part. rewrite <- suml_scal by exact KL. rewrite <- suml_add by exact KL. apply suml_ext. intros x _. ring. }
  set (a0 := suml _ (pairings a)) in E. set (c0 := suml (fun x => expt y 0 0 (fst x) * snd x) (others a)) in E.
  set (e := suml (fun x => (match fst x with CtMasked => 1 | _ => 0 end) * snd x) (others a)) in E. set (sp := s_part t gam xss a) in *.
  pose proof (E 0 0) as E00. pose proof (E 0 1) as E01. pose proof (E 1 0) as E10.
  assert (He : e = 1).
  { replace e with ((a0 + 0 * sp + (c0 + (1 + y * 0) * e)) - (a0 + 0 * sp + (c0 + (0 + y * 0) * e))) by ring. rewrite E00, E01. ring. }
  rewrite He in *.
  replace sp with ((a0 + 1 * sp + (c0 + (0 + y * 1) * 1)) - (a0 + 0 * sp + (c0 + (0 + y * 0) * 1)) - y) by ring. rewrite E00, E10. ring.
Qed.

Lemma part1_zero xss n : (forall xs x, In xs xss -> In x xs -> x = 0) -> part1 xss n = 0.
Proof using.
  intros H. destruct n as [| |k r]; cbn [part1]; try reflexivity.
  destruct (nth_in_or_default k xss []) as [E|E].
  - destruct (nth_in_or_default r (nth k xss []) 0) as [E'|E']; [exact (H _ _ E E')|exact E'].
  - rewrite E. destruct r; reflexivity.
Qed.

Lemma part1_scaled c xss n : part1 (map (map (fun x => c * x)) xss) n = c * part1 xss n.
Proof using BL.
  destruct n as [| |k r]; cbn [part1]; try ring.
  change (@nil K) with (map (fun x => c * x) []) at 1. rewrite map_nth.
  replace (@f0 K) with ((fun x => c * x) 0) at 1 by ring. rewrite map_nth. reflexivity.
Qed.

Definition key_part (t : list K) (xss : list (list K)) : K :=
  suml (fun x => part1 xss (fst (fst x)) * part2 t gam (snd (fst x)) * snd x) (pairings a).

Lemma s_part_split t xss : s_part t gam xss a
  = suml (fun x => base1 t (fst (fst x)) * part2 t gam (snd (fst x)) * snd x) (pairings a) + key_part t xss.
Proof using BL. unfold s_part, key_part. rewrite <- suml_add by exact KL. apply suml_ext. intros x _. ring. Qed.

Lemma key_part_value t y ws : length t = size -> (forall x, In x t -> x <> 0) ->
  Forall2 (fun m w => suml w (seq 0 (nb_col m)) = y) ms ws ->
  key_part t (map (fun p => map (fun a => dotZ K (row_of (fst p) a) (snd p) * finv (tt B t a)) (row_to_attr (fst p))) (combine ms ws)) = - y.
Proof using BL HM Hin Hgl Hg Hwin.
  intros Ht Hnz HW. pose proof (s_part_value t y ws Ht Hnz HW) as E. rewrite s_part_split in E.
  set (ws0 := map (fun _ : msp Z => (fun _ : nat => 0)) ms).
  assert (HW0 : Forall2 (fun m (w : nat -> K) => suml w (seq 0 (nb_col m)) = 0) ms ws0).
  { unfold ws0. clear - BL. induction ms as [|m l IH]; constructor; [|exact IH]. apply suml_zero; [exact KL|reflexivity]. }
  pose proof (s_part_value t 0 ws0 Ht Hnz HW0) as E0. rewrite s_part_split in E0.
  assert (Z : key_part t (map (fun p => map (fun a => dotZ K (row_of (fst p) a) (snd p) * finv (tt B t a)) (row_to_attr (fst p))) (combine ms ws0)) = 0).
  { unfold key_part. apply suml_zero; [exact KL|]. intros x _. rewrite part1_zero; [ring|].
    intros xs z Hxs Hz. apply in_map_iff in Hxs as ([m w] & <- & Hp). apply in_map_iff in Hz as (b & <- & _). cbn [fst snd].
    assert (Hw : w = fun _ => 0).
    { apply in_combine_r in Hp. unfold ws0 in Hp. apply in_map_iff in Hp as (m0 & <- & _). reflexivity. }
    subst w. unfold dotZ. rewrite (dot_zero K KL) by reflexivity. ring. }
  rewrite Z in E0. set (b0 := suml _ (pairings a)) in *. set (kp := key_part t _) in *.
  replace kp with ((b0 + kp) - (b0 + 0)) by ring. rewrite E, E0. ring.
Qed.

Lemma one_key_satisfied (l : K) : l <> 0 -> l <> 1 -> exists f, In f fs /\ holds (attrs gam) f.
Proof using BL HM Hin Hgl Hg Hwin.
  intros L0 L1.
  assert (D : (exists f, In f fs /\ holds (attrs gam) f) \/ (forall f, In f fs -> ~ holds (attrs gam) f)).
  { clear HM Hin Hwin. induction fs as [|f l' [IH|IH]]; [right; intros f []| |].
    - destruct IH as (g & Hg1 & Hg2). left. exists g. split; [right; exact Hg1|exact Hg2].
    - destruct (holds_dec (attrs gam) (attrs_dec gam) f) as [H|H].
      + left. exists f. split; [left; reflexivity|exact H].
      + right. intros g [<-|Hg']; [exact H|exact (IH g Hg')]. }
  destruct D as [D|D]; [exact D|]. exfalso.
  assert (W : exists ws, Forall2 (fun m (w : nat -> K) => suml w (seq 0 (nb_col m)) = 1) ms ws /\
     Forall2 (fun m w => forall x, In x (row_to_attr m) -> In x gam -> dotZ K (row_of m x) w = 0) ms ws).
  { pose proof HM as HM0. clear - BL HM0 D. revert D. induction HM0 as [|f m fs' ms' M HM' IH]; intros D; [exists []; split; constructor|].
    destruct (IH (fun f' Hf' => D f' (or_intror Hf'))) as (ws & H1 & H2).
    destruct (mo_sep K f m M (attrs gam) (attrs_dec gam) (D f (or_introl eq_refl))) as (w & Hw & Ho).
    exists (w :: ws). split; constructor; try assumption. intros x Hx Hxg.
    assert (Hl : In x (leaves f)) by (apply (Permutation_in _ (mo_perm K f m M)); exact Hx).
    exact (Ho (x, row_of m x) (leaves_labelled B f m x M Hl) Hxg). }
  destruct W as (ws & HW1 & HW2).
  set (t1 := repeat 1 size). set (g := fun x => if existsb (N.eqb x) gam then 1 else l).
  set (tl := map (fun i => g (N.of_nat i)) (seq 0 size)).
  assert (Lt1 : length t1 = size) by apply repeat_length.
  assert (Ltl : length tl = size) by (unfold tl; rewrite map_length, seq_length; reflexivity).
  assert (N10 : (1 : K) <> 0) by apply (K_1_neq_0 K KL).
  assert (Z1 : forall x, In x t1 -> x <> 0) by (intros x Hx; apply repeat_spec in Hx; subst x; exact N10).
  assert (Zl : forall x, In x tl -> x <> 0).
  { intros x Hx. unfold tl in Hx. apply in_map_iff in Hx as (i & <- & _). unfold g. destruct (existsb _ gam); assumption. }
  assert (T1 : forall x, (N.to_nat x < size)%nat -> tt B t1 x = 1).
  { intros x Hx. unfold tt. apply (repeat_spec size 1). apply nth_In. fold t1. rewrite Lt1. exact Hx. }
  assert (Tl : forall x, (N.to_nat x < size)%nat -> tt B tl x = g x).
  { intros x Hx. unfold tt, tl. rewrite (nth_indep _ 0 (g (N.of_nat 0))) by (rewrite map_length, seq_length; exact Hx).
    rewrite (map_nth (fun i => g (N.of_nat i))), seq_nth by exact Hx. cbn [Nat.add]. rewrite N2Nat.id. reflexivity. }
  pose proof (key_part_value t1 1 ws Lt1 Z1 HW1) as E1. pose proof (key_part_value tl 1 ws Ltl Zl HW1) as El.
  set (x1 := map _ (combine ms ws)) in E1. set (xl := map _ (combine ms ws)) in El.
  assert (X : xl = map (map (fun x => finv l * x)) x1).
  { unfold xl, x1. rewrite map_map. apply map_ext_in. intros [m w] Hp. cbn [fst snd]. rewrite map_map. apply map_ext_in. intros x Hx.
    assert (Hxs : (N.to_nat x < size)%nat).
    { pose proof (in_combine_l _ _ _ _ Hp) as Hm. pose proof HM as HM0. pose proof Hin as Hi0. clear - HM0 Hi0 Hm Hx. revert Hi0 Hm. induction HM0 as [|f m' fs' ms' M HM' IH]; intros Hi0 Hm; [destruct Hm|].
      destruct Hm as [->|Hm].
      - apply (Hi0 f x (or_introl eq_refl)). apply (Permutation_in _ (mo_perm K f m M)). exact Hx.
      - apply IH; [|exact Hm]. intros f' x' Hf'. apply Hi0. right. exact Hf'. }
    rewrite (T1 x Hxs), (Tl x Hxs). unfold g. destruct (existsb (N.eqb x) gam) eqn:Eg.
    - apply existsb_exists in Eg as (z & Hz & Ez). apply N.eqb_eq in Ez. subst z.
      assert (Q : dotZ K (row_of m x) w = 0).
      { clear - HW2 Hp Hx Hz. revert Hp. induction HW2 as [|m' w' ms' ws' H _ IH]; intros Hp; [destruct Hp|].
        destruct Hp as [Hp|Hp]; [|exact (IH Hp)]. injection Hp as -> ->. exact (H x Hx Hz). }
      rewrite Q. ring.
    - field. split; assumption. }
  assert (C : key_part tl xl = finv l * key_part t1 x1).
  { unfold key_part. rewrite <- suml_scal by exact KL. apply suml_ext. intros x _. rewrite X, part1_scaled.
    assert (Q : part2 tl gam (snd (fst x)) = part2 t1 gam (snd (fst x))).
    { destruct (snd (fst x)) as [| |j]; cbn [part2]; try reflexivity. f_equal. apply map_ext_in. intros z Hz.
      rewrite (T1 z (Hg z Hz)), (Tl z (Hg z Hz)). unfold g.
      assert (Eg : existsb (N.eqb z) gam = true) by (apply existsb_exists; exists z; split; [exact Hz|apply N.eqb_refl]). rewrite Eg. reflexivity. }
    rewrite Q. ring. }
  rewrite E1, El in C. apply L1.
  transitivity (l * - (- (1))); [ring|]. rewrite C. field. exact L0.
Qed.
End Forward.

(** ** The strategy of a satisfied key *)
Fixpoint index_of (l : list N) (x : N) : nat :=
  match l with [] => O | y :: t => if N.eqb y x then O else S (index_of t x) end.
Lemma index_of_nth {A} (h : N -> A) l x d : In x l -> nth (index_of l x) (map h l) d = h x.
Proof.
  induction l as [|y l IH]; intros H; [destruct H|]. cbn [index_of map]. destruct (N.eqb_spec y x) as [->|Hne]; [reflexivity|].
  destruct H as [H|H]; [congruence|]. cbn [nth]. exact (IH H).
Qed.

Definition direct_strategy (k : nat) (f : node) (m : msp Z) (gam : list N) (al : N -> K) : strategy B :=
  mkStrategy (map (fun x => (KeyPart k (index_of (row_to_attr m) x), CtPart (index_of gam x), - al x)) (leaves f)) [(CtMasked, 1)].

Lemma direct_wins P size fs ms gam k f m al :
  Forall2 (msp_of K) fs ms -> nth_error fs k = Some f -> nth_error ms k = Some m ->
  wt K al f 1 -> (forall x, al x <> 0 -> In x gam) ->
  wins P size ms gam (direct_strategy k f m gam al).
Proof.
  intros HM Hf Hm Hal Hsup mdraw mk uks msg s ct Hmk Hk Hct.
  destruct (generate_master_key_inv B BL _ _ _ Hmk) as (t & y & -> & Ht & Hnz).
  destruct (bl_gt_surj B BL msg) as (mu & ->). destruct (encrypt_inv B BL P mu gam t y s ct Hct) as (_ & Hr & ->).
  assert (M : msp_of K f m).
  { clear - HM Hf Hm. revert k Hf Hm. induction HM as [|f' m' fs' ms' M _ IH]; intros [|k] Hf Hm; try discriminate.
    - cbn in Hf, Hm. congruence. - exact (IH k Hf Hm). }
  assert (X : exists xss sg, Forall2 holds_exponents uks xss /\ nth k xss [] = map (fun x => sg x * finv (tt B t x)) (row_to_attr m) /\
     shares_of B y f sg /\ (forall x, In x (leaves f) -> tt B t x <> 0)).
  { clear Hct. revert fs HM k Hf Hm. induction Hk as [|m' uk ms' uks' (draw & Hd) Hk IH]; intros fs HM k Hf Hm; [destruct k; discriminate|].
    inversion HM as [|f' ? fs' ? M' HM']; subst.
    destruct (key_generation_rep B BL f' m' t y draw uk M' Hd) as (u & Hu & R & Hn0).
    destruct k as [|k].
    - cbn in Hf, Hm. assert (f' = f) by congruence. assert (m' = m) by congruence. subst f' m'.
      assert (Y : exists xss, Forall2 holds_exponents uks' xss).
      { clear - BL Hk HM'. revert fs' HM'. induction Hk as [|m' uk ms' uks' (draw & Hd) Hk IH]; intros fs' HM'; [exists []; constructor|].
        inversion HM' as [|f' ? fs'' ? M' HM'']; subst. destruct (IH _ HM'') as (xss & Hx).
        destruct (key_generation_rep B BL f' m' t y draw uk M' Hd) as (u & Hu & R & Hn0).
        eexists (_ :: xss). constructor; [|exact Hx]. unfold holds_exponents. rewrite (kr_d _ _ _ _ _ _ R).
        rewrite <- (map_map (fun x => share B m' u x * finv (tt B t x)) (fun x => to1 (g3 x))). reflexivity. }
      destruct Y as (xss & Hx). exists (map (fun x => share B m u x * finv (tt B t x)) (row_to_attr m) :: xss), (share B m u).
      split; [constructor; [|exact Hx]|].
      { unfold holds_exponents. rewrite (kr_d _ _ _ _ _ _ R), map_map. reflexivity. }
      split; [reflexivity|]. split; [|exact Hn0].
      apply (share_shares B BL f m u y M). apply (sharing_vector_inv B BL) in Hu. apply Hu.
    - destruct (IH _ HM' k Hf Hm) as (xss & sg & H1 & H2 & H3 & H4).
      exists (map (fun x => share B m' u x * finv (tt B t x)) (row_to_attr m') :: xss), sg.
      split; [constructor; [|exact H1]|].
      { unfold holds_exponents. rewrite (kr_d _ _ _ _ _ _ R), map_map. reflexivity. }
      split; [exact H2|]. split; assumption. }
  destruct X as (xss & sg & Hx & Hn & Hs & Ht0). rewrite (attack_value t y gam mu s uks xss _ Hx). f_equal.
  unfold direct_strategy. cbn [pairings others]. rewrite suml_map. cbn [fst snd base1 part1 base2 part2].
  rewrite Hn.
  rewrite (suml_ext K _ (fun x => - s * (al x * sg x))).
  - rewrite suml_scal by exact KL. rewrite (Hs al 1 Hal). cbn. ring.
  - intros x Hxl. destruct (K_eq_dec K KL (al x) 0) as [E0|E0].
    + rewrite E0. ring.
    + rewrite index_of_nth by (apply (Permutation_in _ (Permutation_sym (mo_perm K f m M))); exact Hxl).
      rewrite index_of_nth by (apply Hsup; exact E0). field. apply Ht0. exact Hxl.
Qed.

Lemma wins_iff P size fs ms gam :
  (exists l : K, l <> 0 /\ l <> 1) ->
  Forall2 (fun f m => to_msp P f = Ok m) fs ms ->
  (forall f x, In f fs -> In x (leaves f) -> (N.to_nat x < size)%nat) ->
  (length gam < size)%nat -> (forall x, In x gam -> (N.to_nat x < size)%nat) ->
  (exists a : strategy B, wins P size ms gam a) <-> exists f, In f fs /\ holds (attrs gam) f.
Proof.
  intros (l & L0 & L1) HM Hin Hgl Hg.
  assert (HM' : Forall2 (msp_of K) fs ms).
  { clear - BL HM. induction HM as [|f m fs ms H _ IH]; constructor; [|exact IH]. exact (to_msp_msp_of K KL P f m H). }
  split.
  - intros (a & Ha). exact (one_key_satisfied P size fs ms gam a HM' Hin Hgl Hg Ha l L0 L1).
  - intros (f & Hf & Hh). apply In_nth_error in Hf as (k & Hk).
    assert (Hm : exists m, nth_error ms k = Some m /\ msp_of K f m).
    { clear - HM' Hk. revert k Hk. induction HM' as [|f' m' fs' ms' M _ IH]; intros [|k] Hk; try discriminate.
      - cbn in Hk. exists m'. split; [reflexivity|]. congruence. - exact (IH k Hk). }
    destruct Hm as (m & Hm & M). destruct (holds_wt K KL (attrs gam) f (mo_nodup K f m M) Hh) as (al & Hal & Hsup).
    exists (direct_strategy k f m gam al). apply (direct_wins P size fs ms gam k f m al HM' Hk Hm Hal).
    intros x Hx. destruct (Hsup x) as [E|(_ & H & _)]; [contradiction|exact H].
Qed.

(** ** Histories *)
Lemma issued_derived P mk h fs uks : issued P mk h fs uks -> Forall2 (derived B P mk) fs uks.
Proof.
  intros H. induction H as [|h fs uks f m draw uk _ IH H1 H2|h fs uks k f uk f' m' draw uk' _ IH H1 H2 H3 H4 H5|h fs uks k f uk draw uk' _ IH H1 H2 H3].
  - constructor.
  - constructor; [|exact IH]. exact (de_gen B P mk f m draw uk H1 H2).
  - constructor; [|exact IH].
    assert (D : derived B P mk f uk).
    { clear - IH H1 H2. revert k H1 H2. induction IH as [|f1 u1 fs uks D _ IH']; intros [|k] H1 H2; try discriminate.
      - cbn in H1, H2. congruence. - exact (IH' k H1 H2). }
    exact (de_del B P mk f uk f' m' draw uk' D H3 H4 H5).
  - constructor; [|exact IH].
    assert (D : derived B P mk f uk).
    { clear - IH H1 H2. revert k H1 H2. induction IH as [|f1 u1 fs uks D _ IH']; intros [|k] H1 H2; try discriminate.
      - cbn in H1, H2. congruence. - exact (IH' k H1 H2). }
    exact (de_rand B P mk f uk draw uk' D H3).
Qed.

Definition fresh P mk (f : node) (uk : decryption_key B) : Prop :=
  exists m draw, to_msp P f = Ok m /\ key_generation m (priv_key mk) draw = Ok uk.

Lemma key_generation_ext (m : msp Z) p (d d' : nat -> K) : (forall i, d i = d' i) -> key_generation m p d = key_generation m p d'.
Proof.
  intros H. unfold key_generation. replace (sharing_vector (nb_col m) d' (priv_y p)) with (sharing_vector (nb_col m) d (priv_y p)); [reflexivity|].
  destruct (nb_col m) as [|[|n]]; [reflexivity|reflexivity|]. cbn [sharing_vector].
  assert (E : draws d 0 (S n) = draws d' 0 (S n)) by (unfold draws; apply map_ext; exact H). rewrite E. reflexivity.
Qed.

Lemma Forall2_nth_error {A C} (R : A -> C -> Prop) l1 l2 k x : Forall2 R l1 l2 -> nth_error l1 k = Some x -> exists z, nth_error l2 k = Some z /\ R x z.
Proof.
  intros H. revert k. induction H as [|a c l1 l2 H _ IH]; intros [|k] Hk; try discriminate.
  - cbn in Hk. exists c. split; [reflexivity|]. congruence.
  - exact (IH k Hk).
Qed.

(** Any fresh keys can be what a history gives. *)
Lemma fresh_issued P size mdraw (mk mk0 : master_key B) h fs uks0 uks :
  generate_master_key size mdraw = Ok mk -> issued P mk0 h fs uks0 -> Forall2 (fresh P mk) fs uks -> issued P mk h fs uks.
Proof.
  intros Hmk H. revert uks.
  induction H as [|h fs uks0 f m draw uk H IH H1 H2|h fs uks0 k f uk f' m' draw uk' H IH H1 H2 H3 H4 H5|h fs uks0 k f uk draw uk' H IH H1 H2 H3];
    intros uks HF; inversion HF as [|f1 u1 fs1 uks1 HF1 HF2]; subst.
  - constructor.
  - destruct HF1 as (m1 & d1 & E1 & E2). exact (is_gen P mk h fs uks1 f m1 d1 u1 (IH _ HF2) E1 E2).
  - destruct HF1 as (m1 & d1 & E1 & E2). assert (m1 = m') by congruence. subst m1. pose proof (IH _ HF2) as I.
    destruct (Forall2_nth_error _ _ _ k f HF2 H1) as (u & Hu & HFu).
    pose proof (proj2 (C75_derived_iff_generated B BL P size mdraw mk f u Hmk) HFu) as D.
    destruct (C75_delegated_as_fresh B BL P size mdraw mk f u f' m' Hmk D H3 H4) as (delta & Hd).
    destruct (Hd (fun i => d1 i - delta i)) as (v & V1 & V2).
    rewrite (key_generation_ext m' _ _ d1) in V2 by (intros i; ring). assert (v = u1) by congruence. subst v.
    exact (is_del P mk h fs uks1 k f u f' m' _ u1 I H1 Hu H3 H4 V1).
  - destruct HF1 as (m1 & d1 & E1 & E2). pose proof (IH _ HF2) as I.
    destruct (Forall2_nth_error _ _ _ k f HF2 H1) as (u & Hu & HFu).
    pose proof (proj2 (C75_derived_iff_generated B BL P size mdraw mk f u Hmk) HFu) as D.
    destruct (C75_randomised_as_fresh B BL P size mdraw mk f m1 u Hmk D E1) as (delta & Hd).
    destruct (Hd (fun i => d1 i - delta i)) as (v & V1 & V2).
    rewrite (key_generation_ext m1 _ _ d1) in V2 by (intros i; ring). assert (v = u1) by congruence. subst v.
    exact (is_ref P mk h fs uks1 k f u _ u1 I H1 Hu V1).
Qed.

Lemma kept_Forall2 {A C} (R : A -> C -> Prop) held : forall l1 l2, Forall2 R l1 l2 -> Forall2 R (kept held l1) (kept held l2).
Proof.
  induction held as [|b held IH]; intros l1 l2 H; [destruct H; constructor|]. destruct H as [|x z l1 l2 H1 H2]; [constructor|].
  cbn [kept]. destruct b; [constructor; [exact H1|]|]; apply IH; exact H2.
Qed.
Lemma kept_extend {A C} (R : A -> C -> Prop) held : forall l1 l, (forall x, In x l1 -> exists z, R x z) -> Forall2 R (kept held l1) l ->
  exists l2, Forall2 R l1 l2 /\ kept held l2 = l.
Proof.
  assert (T : forall l1 : list A, (forall x, In x l1 -> exists z, R x z) -> exists l2, Forall2 R l1 l2).
  { induction l1 as [|x l1 IH]; intros H; [exists []; constructor|]. destruct (H x (or_introl eq_refl)) as (z & Hz).
    destruct IH as (l2 & Hl); [intros x' Hx'; apply H; right; exact Hx'|]. exists (z :: l2). constructor; assumption. }
  induction held as [|b held IH]; intros l1 l Hex H.
  - destruct (T l1 Hex) as (l2 & Hl2). exists l2. split; [exact Hl2|]. cbn [kept] in H. destruct l1; inversion H; destruct l2; reflexivity.
  - destruct l1 as [|x l1]; [cbn [kept] in H; inversion H; subst; exists []; split; [constructor|reflexivity]|].
    assert (Hex' : forall x, In x l1 -> exists z, R x z) by (intros x' Hx'; apply Hex; right; exact Hx').
    cbn [kept] in H. destruct b.
    + inversion H as [|? z ? l' Hz Hl]; subst. destruct (IH l1 l' Hex' Hl) as (l2 & H2 & <-). exists (z :: l2). split; [constructor; assumption|reflexivity].
    + destruct (Hex x (or_introl eq_refl)) as (z & Hz). destruct (IH l1 l Hex' H) as (l2 & H2 & <-). exists (z :: l2). split; [constructor; assumption|reflexivity].
Qed.
Lemma kept_in {A} held : forall (l : list A) x, In x (kept held l) -> In x l.
Proof.
  induction held as [|b held IH]; intros [|x l] z H; try destruct H. cbn [kept] in H. destruct b; [destruct H as [<-|H]; [left; reflexivity|]|]; right; exact (IH l z H).
Qed.

(** ** C09 *)
(** Over any field with more than two elements, for any history of keys that can
    happen and any choice of the keys that fall into the hands of the attacker: some
    strategy finds the message whatever the draws exactly if one of these keys is
    satisfied by the attributes of the ciphertext on its own. *)
Theorem C09_collusion_useless P size h fs held gam :
  (exists l : K, l <> 0 /\ l <> 1) ->
  (exists mdraw (mk : master_key B) uks, generate_master_key size mdraw = Ok mk /\ issued P mk h fs uks) ->
  (length gam < size)%nat -> (forall x, In x gam -> (N.to_nat x < size)%nat) ->
  (exists a : strategy B, always_finds P size h fs held gam a) <-> exists f, In f (kept held fs) /\ holds (attrs gam) f.
Proof.
  intros HK (mdraw0 & mk0 & uks0 & Hmk0 & Hi0) Hgl Hg.
  assert (Hms : forall f, In f fs -> (exists m, to_msp P f = Ok m) /\ forall x, In x (leaves f) -> (N.to_nat x < size)%nat).
  { destruct (generate_master_key_inv B BL _ _ _ Hmk0) as (t & y & -> & Ht & Hnz).
    pose proof (issued_derived P _ h fs uks0 Hi0) as D. clear - BL D Ht Hnz. intros f Hf.
    assert (E : exists uk, derived B P (master_of B t y) f uk).
    { revert Hf. induction D as [|f1 u1 fs uks D _ IH]; intros Hf; [destruct Hf|]. destruct Hf as [<-|Hf]; [exists u1; exact D|exact (IH Hf)]. }
    destruct E as (uk & E). destruct (derived_good B BL P t y f uk Hnz E) as ((m & sg & R & _) & _ & Hm). split; [exact Hm|].
    intros x Hx. rewrite <- Ht. exact (kr_range _ _ _ _ _ _ R x Hx). }
  assert (Hms2 : exists ms, Forall2 (fun f m => to_msp P f = Ok m) (kept held fs) ms).
  { assert (Hk : forall f, In f (kept held fs) -> exists m, to_msp P f = Ok m) by (intros f Hf; apply Hms; exact (kept_in held fs f Hf)).
    clear - Hk. induction (kept held fs) as [|f l IH]; [exists []; constructor|]. destruct (Hk f (or_introl eq_refl)) as (m & Hm).
    destruct IH as (ms & H); [intros g Hg; apply Hk; right; exact Hg|]. exists (m :: ms). constructor; assumption. }
  destruct Hms2 as (ms & HM).
  rewrite <- (wins_iff P size (kept held fs) ms gam HK HM); [|intros f x Hf; apply Hms; exact (kept_in held fs f Hf)|exact Hgl|exact Hg].
  assert (Fr : forall mk uks, Forall2 (fresh P mk) (kept held fs) uks <-> Forall2 (fun m uk => exists draw, key_generation m (priv_key mk) draw = Ok uk) ms uks).
  { clear - HM. intros mk. induction HM as [|f m l ms H _ IH]; intros uks; (split; intros HH; inversion HH as [|? ? ? ? H1 H2]; subst; constructor).
    - destruct H1 as (m1 & d & E1 & E2). assert (m1 = m) by congruence. subst m1. exists d. exact E2.
    - apply IH. exact H2.
    - destruct H1 as (d & E). exists m, d. split; assumption.
    - apply IH. exact H2. }
  split; intros (a & Ha); exists a.
  - intros mdraw mk uks msg s ct Hmk Hk Hct. apply Fr in Hk.
    destruct (kept_extend (fresh P mk) held fs uks) as (all & Hall & <-); [|exact Hk|].
    + intros f Hf. destruct (Hms f Hf) as ((m & Hm) & Hr).
      destruct (generate_master_key_inv B BL _ _ _ Hmk) as (t & y & -> & Ht & Hnz).
      destruct (key_generation_total B BL f m t y (fun _ => 0) (to_msp_msp_of K KL P f m Hm)) as (uk & Huk).
      { intros x Hx. assert (Hx' : in_range B t x) by (unfold in_range; rewrite Ht; exact (Hr x Hx)). split; [exact Hx'|]. exact (tt_nonzero B t x Hnz Hx'). }
      exists uk, m, (fun _ => 0). split; assumption.
    + exact (Ha mdraw mk all msg s ct Hmk (fresh_issued P size mdraw mk mk0 h fs uks0 all Hmk Hi0 Hall) Hct).
  - intros mdraw mk uks msg s ct Hmk Hi Hct. apply (Ha mdraw mk (kept held uks) msg s ct Hmk); [|exact Hct]. apply Fr.
    apply kept_Forall2. pose proof (issued_derived P mk h fs uks Hi) as D. clear - BL D Hmk.
    induction D as [|f u fs uks D _ IH]; constructor; [|exact IH]. exact (proj1 (C75_derived_iff_generated B BL P size mdraw mk f u Hmk) D).
Qed.
End Collusion.

(** ** Examples *)
Local Ltac vmr x := vm_cast_no_check (eq_refl x).
Definition c09_f : node := And (Leaf 2) (Leaf 5).
Definition c09_m : msp Z := run empty_msp (to_msp pf c09_f).
Definition c09_uk : decryption_key toy := run empty_key (key_generation c09_m (priv_key ex_mk) ex_draw).
(** keys for 2 & 5 and for 1 & (4 | (2 & 3)), then 1 & 4 delegated from the latter *)
Definition c09_h : list event := [Delegated 0 c75_f; Generated ex_f; Generated c09_f].
Definition c09_fs : list node := [c75_f; ex_f; c09_f].

Example C09_history : generate_master_key 10 ex_draw = Ok ex_mk /\ issued pf ex_mk c09_h c09_fs [c75_key; ex_uk; c09_uk].
Proof.
  destruct ex_setup as (H1 & H2 & H3 & _). destruct C75_example as (R & D1 & D2 & _). split; [exact H1|].
  apply (is_del pf ex_mk _ _ _ 0 ex_f ex_uk c75_f c75_m ex_draw c75_key); try reflexivity; try assumption; [|right; exact R].
  apply (is_gen pf ex_mk _ _ _ ex_f ex_m ex_kdraw ex_uk); try assumption.
  apply (is_gen pf ex_mk _ _ _ c09_f c09_m ex_draw c09_uk); [constructor| |].
  - vmr (@Ok (msp Z) c09_m).
  - vmr (@Ok (decryption_key toy) c09_uk).
Qed.

Lemma c09_two : exists l : bm_K toy, l <> f0 /\ l <> f1.
Proof. exists (f101 2). split; intros E; apply (f_equal zval) in E; vm_compute in E; discriminate. Qed.

(** the keys for 1 & 4 and 2 & 5 together do not open a ciphertext for 1 and 5 *)
Example C09_example : ~ exists a : strategy toy, always_finds pf 10 c09_h c09_fs [true; false; true] [1; 5]%N a.
Proof.
  destruct C09_history as (H1 & H2).
  rewrite (C09_collusion_useless toy toy_laws pf 10 c09_h c09_fs _ _ c09_two (ex_intro _ _ (ex_intro _ _ (ex_intro _ _ (conj H1 H2))))).
  - intros (f & [<-|[<-|[]]] & Hh); unfold attrs in Hh; simpl in Hh; intuition discriminate.
  - simpl. lia.
  - intros x Hx. simpl in Hx. intuition (subst; compute; lia).
Qed.

(** the key for 1 & 4 opens a ciphertext for 1 and 4 *)
Example C09_example_satisfied : exists a : strategy toy, always_finds pf 10 c09_h c09_fs [true; false; true] [1; 4]%N a.
Proof.
  destruct C09_history as (H1 & H2).
  rewrite (C09_collusion_useless toy toy_laws pf 10 c09_h c09_fs _ _ c09_two (ex_intro _ _ (ex_intro _ _ (ex_intro _ _ (conj H1 H2))))).
  - exists c75_f. unfold attrs. simpl. tauto.
  - simpl. lia.
  - intros x Hx. simpl in Hx. intuition (subst; compute; lia).
Qed.

Print Assumptions C09_collusion_useless.
